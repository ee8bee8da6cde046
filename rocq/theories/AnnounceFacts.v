(** Facts about the printed job parameters. *)
From Verif Require Import Base Config Text PersistSpec TextFacts Tracker Command Run Fnv Geom Metropolis RunCheckpoint
  Program ProgramSpec ProgramFacts Transcript TranscriptSpec TranscriptFacts Announce AnnounceSpec.
From Verif Require Action ListingFacts.
From Verif Require Import ListingSpec.
Local Open Scope Z_scope.
Local Open Scope list_scope.

(** ** Reading a line back *)
Lemma between_printed b a v : between b a (b ++ v ++ a) = Some v.
Proof.
  unfold between. rewrite (proj2 (strip_prefix_spec b _ (v ++ a)) eq_refl).
  rewrite rev_app_distr. rewrite (proj2 (strip_prefix_spec (rev a) _ (rev v)) eq_refl). rewrite rev_involutive. reflexivity.
Qed.
Lemma header_line b a v around t : no_newline b -> no_newline v -> no_newline a ->
  read_header ((b, a) :: around) ((b ++ v ++ a) ++ NL :: t) =
  match read_header around t with Some vs => Some (v :: vs) | None => None end.
Proof.
  intros Nb Nv Na. cbn [read_header].
  rewrite (proj2 (find_char_spec NL _ (b ++ v ++ a) t)).
  - rewrite between_printed. reflexivity.
  - split; [reflexivity|]. apply no_newline_app; [exact Nb|apply no_newline_app; assumption].
Qed.
Lemma integer_printed z : integer (print_int z) = Some z.
Proof.
  unfold integer. pose proof (read_printed z [] I) as H. rewrite app_nil_r in H. rewrite H. reflexivity.
Qed.
Lemma flags_printed t : flags (topology_to_str t) = Some (match t with Config.SPHERICAL => (true, false) | _ => (false, true) end).
Proof. destruct t; reflexivity. Qed.
Lemma no_newline_topology t : no_newline (topology_to_str t).
Proof. destruct t; apply no_newline_lit; reflexivity. Qed.

Lemma line2 b v t : line [b; v] ++ t = (b ++ v ++ []) ++ NL :: t.
Proof. unfold line. cbn [concat]. rewrite <- app_assoc. reflexivity. Qed.
Lemma line3 b v a t : line [b; v; a] ++ t = (b ++ v ++ a) ++ NL :: t.
Proof. unfold line. cbn [concat]. rewrite app_nil_r, <- !app_assoc. reflexivity. Qed.
Lemma line4 b v a a' t : line [b; v; a; a'] ++ t = (b ++ v ++ (a ++ a')) ++ NL :: t.
Proof. unfold line. cbn [concat]. rewrite app_nil_r, <- !app_assoc. reflexivity. Qed.
Lemma line1 b t : line [b] ++ t = (b ++ [] ++ []) ++ NL :: t.
Proof. unfold line. cbn [concat app]. rewrite <- !app_assoc. reflexivity. Qed.

Ltac lit := apply no_newline_lit; reflexivity.
Ltac hline lem := rewrite lem, header_line;
  [ | lit | first [assumption | apply no_newline_int | apply no_newline_topology | lit] | first [lit | apply no_newline_nil] ].

Section Texts.
  Variable show_double show_long : fp -> text.
  Variable read_double read_long : text -> option fp.
  Variable doubles longs : fp -> Prop.
  Hypothesis Hd : reads_back doubles show_double read_double.
  Hypothesis Hl : reads_back longs show_long read_long.

  Lemma job_read (c : Config.Simulation) no_output more :
    let tr := Config.sim_triangulation c in
    doubles (Config.tr_initial_radius tr) -> doubles (Config.tr_foliation_spacing tr) ->
    longs (Config.sim_alpha c) -> longs (Config.sim_k c) -> longs (Config.sim_lambda c) ->
    0 <= Config.tr_seed tr -> 0 <= Config.tr_threads tr ->
    cdt_recipe read_double read_long no_output (announce_job show_double show_long c ++ more) =
    Some (mkCdtArgs false false (match Config.tr_topology tr with Config.SPHERICAL => true | _ => false end)
            (match Config.tr_topology tr with Config.SPHERICAL => false | _ => true end)
            (Some (Config.tr_simplices tr)) (Some (Config.tr_timeslices tr)) (Config.tr_dimensions tr)
            (Config.tr_initial_radius tr) (Config.tr_foliation_spacing tr) no_output (Some (Config.tr_seed tr))
            (Config.tr_threads tr) (Some (Config.sim_alpha c)) (Some (Config.sim_k c)) (Some (Config.sim_lambda c))
            (Config.sim_passes c) (Config.sim_checkpoint c)).
  Proof using Hd Hl.
    intros tr D1 D2 L1 L2 L3 Hs Ht. destruct (Hd _ D1) as [R1 N1], (Hd _ D2) as [R2 N2].
    destruct (Hl _ L1) as [R3 N3], (Hl _ L2) as [R4 N4], (Hl _ L3) as [R5 N5].
    unfold cdt_recipe, announce_job, job_lines. fold tr. rewrite !(print_unsigned_int _ Hs), !(print_unsigned_int _ Ht).
    rewrite <- !app_assoc.
    hline line2. change (B "+1") with (B "+" ++ print_int 1). hline line4.
    hline line2. hline line2. hline line2. hline line2. hline line2. hline line3. hline line2. hline line2. hline line1.
    hline line2. hline line2. hline line2. cbn [read_header].
    rewrite flags_printed, R1, R2, R3, R4, R5, !integer_printed.
    destruct (Config.tr_topology tr); rewrite Z.sub_add; reflexivity.
  Qed.
  Lemma generation_read (c : Config.Triangulation) save output more :
    doubles (Config.tr_initial_radius c) -> doubles (Config.tr_foliation_spacing c) ->
    0 <= Config.tr_seed c -> 0 <= Config.tr_threads c ->
    init_recipe read_double output (announce_generation show_double c save ++ more) =
    Some (mkInitArgs false false (match Config.tr_topology c with Config.SPHERICAL => true | _ => false end)
            (match Config.tr_topology c with Config.SPHERICAL => false | _ => true end)
            (Some (Config.tr_simplices c)) (Some (Config.tr_timeslices c)) (Config.tr_dimensions c)
            (Config.tr_initial_radius c) (Config.tr_foliation_spacing c) (Some (Config.tr_seed c))
            (Config.tr_threads c) output).
  Proof using Hd.
    intros D1 D2 Hs Ht. destruct (Hd _ D1) as [R1 N1], (Hd _ D2) as [R2 N2].
    unfold init_recipe, announce_generation, generation_lines. rewrite !(print_unsigned_int _ Hs), !(print_unsigned_int _ Ht).
    rewrite <- !app_assoc.
    do 8 hline line2. cbn [read_header].
    rewrite flags_printed, R1, R2, !integer_printed. destruct (Config.tr_topology c); reflexivity.
  Qed.
End Texts.

(** ** Output only grows *)
Section Grows.
  Context {E : Type}.
  Notation world := (text * E)%type.
  Definition grows {A} (w : world) (r : res world A) : Prop :=
    match r with Ret w' _ | Thr w' _ => exists more, fst w' = fst w ++ more | UB | Abort => True end.
  Lemma grows_ret {A} w (a : A) : grows w (Ret w a).
  Proof. exists []. rewrite app_nil_r. reflexivity. Qed.
  Lemma grows_thr {A} w x : grows w (Thr w x : res world A).
  Proof. exists []. rewrite app_nil_r. reflexivity. Qed.
  Lemma grows_from {A} w w' (r : res world A) : (exists more, fst w' = fst w ++ more) -> grows w' r -> grows w r.
  Proof.
    intros (m1 & E1) G. unfold grows in *.
    assert (K : forall o : text, (exists m2, o = fst w' ++ m2) -> exists more, o = fst w ++ more).
    { intros o (m2 & E2). exists (m1 ++ m2). rewrite app_assoc. rewrite <- E1. exact E2. }
    destruct r as [w2 a|w2 x| |]; [exact (K _ G)|exact (K _ G)|exact I|exact I].
  Qed.
  Lemma grows_andthen {A B} w (r : res world A) (f : A -> world -> res world B) :
    grows w r -> (forall a w', grows w' (f a w')) -> grows w (andthen r f).
  Proof. intros G F. destruct r as [w2 a|w2 x| |]; cbn [andthen]; try exact G; try exact I. exact (grows_from _ _ _ G (F a w2)). Qed.
  Lemma grows_of_checked {A} w (x : Config.checked A) : grows w (of_checked x w).
  Proof. destruct x; cbn [of_checked]; [apply grows_ret|apply grows_thr|exact I]. Qed.
  Lemma grows_of_sum {A} w (x : A + exn) : grows w (of_sum x w).
  Proof. destruct x; cbn [of_sum]; [apply grows_ret|apply grows_thr]. Qed.
  Lemma grows_of_option {A} w (x : option A) e : grows w (of_option x e w).
  Proof. destruct x; cbn [of_option]; [apply grows_ret|apply grows_thr]. Qed.

  Section Loop.
    Context {M SS G : Type}.
    Variable N3 : M -> Z.
    Variable pass : M -> SS -> Z -> G -> res G (pass_result M SS).
    Variable rep : M -> results -> SS -> world -> res world unit.
    Variable chk : M -> results -> SS -> Z -> world -> res world unit.
    Hypothesis Hrep : forall m r s w, grows w (rep m r s w).
    Hypothesis Hchk : forall m r s n w, grows w (chk m r s n w).
    Definition grows2 {A} (gw : G * world) (r : res (G * world) A) : Prop :=
      match r with Ret gw' _ | Thr gw' _ => exists more, fst (snd gw') = fst (snd gw) ++ more | UB | Abort => True end.
    Lemma grows2_from {A} gw gw' (r : res (G * world) A) :
      (exists more, fst (snd gw') = fst (snd gw) ++ more) -> grows2 gw' r -> grows2 gw r.
    Proof.
      intros (m1 & E1) Gr. unfold grows2 in *.
      assert (K : forall o : text, (exists m2, o = fst (snd gw') ++ m2) -> exists more, o = fst (snd gw) ++ more).
      { intros o (m2 & E2). exists (m1 ++ m2). rewrite app_assoc. rewrite <- E1. exact E2. }
      destruct r as [w2 a|w2 x| |]; [exact (K _ Gr)|exact (K _ Gr)|exact I|exact I].
    Qed.
    Lemma grows2_world {A} g w (r : res world A) : grows w r -> grows2 (g, w) (on_world r g).
    Proof. destruct r; exact (fun x => x). Qed.
    Lemma loop_grows fuel : forall cad writes i cur tot st ev gw,
      grows2 gw (run_loop N3 (pass_env pass) (rep_env rep) (chk_env chk) fuel cad writes i cur tot st ev gw).
    Proof using Hrep Hchk.
      induction fuel as [|fuel IH]; intros cad writes i cur tot st ev [g w]; cbn [run_loop].
      - pose proof (grows2_world g w _ (Hrep cur tot st w)) as Gr. unfold rep_env. cbn [fst snd].
        destruct (on_world _ g); exact Gr.
      - unfold pass_env at 1, on_engine. cbn [fst snd].
        destruct (pass cur st (N3 cur) g) as [g1 p|g1 x| |]; try exact I.
        2:{ exists []. rewrite app_nil_r. reflexivity. }
        destruct (accumulate_results tot (pr_results p)) as [tot'|]; [|exact I].
        unfold checkpoint_event. destruct (_ =? 0).
        2:{ eapply (grows2_from (g, w) (g1, w)); [exists []; rewrite app_nil_r; reflexivity|]. apply IH. }
        destruct (add32 ev 1) as [ev'|]; [|exact I].
        pose proof (grows2_world g1 w _ (Hrep (pr_manifold p) tot' (pr_state p) w)) as Gr. unfold rep_env at 1. cbn [fst snd].
        destruct (on_world _ g1) as [[g2 w2] u|gw2 x| |]; try exact I; [|exact Gr].
        apply (grows2_from (g, w) (g2, w2)); [exact Gr|]. destruct writes; [|apply IH].
        pose proof (grows2_world g2 w2 _ (Hchk (pr_manifold p) tot' (pr_state p) (i + 1) w2)) as Gk. unfold chk_env at 1. cbn [fst snd].
        destruct (on_world _ g2) as [gw3 u3|gw3 x| |]; try exact I; [|exact Gk].
        apply (grows2_from (g2, w2) gw3); [exact Gk|apply IH].
    Qed.
  End Loop.
End Grows.

(** ** Whole programs *)
Lemma accepted_triangulation rd rl par s e n t d r f seed th tr :
  Config.make_triangulation rd rl par s e n t d r f seed th = Config.Val tr ->
  tr = Config.MkTriangulation Config.SPHERICAL n t d r f seed th /\ s = true /\ e = false /\ 0 < th.
Proof.
  unfold Config.make_triangulation, Config.select_topology, Config.checked_int, Config.checked_finite, Config.checked_threads.
  destruct s, e; cbn [Bool.eqb Config.bind]; try discriminate.
  destruct (in_int32b n); cbn [Config.bind]; [|discriminate].
  destruct (in_int32b t); cbn [Config.bind]; [|discriminate].
  destruct (in_int32b d); cbn [Config.bind]; [|discriminate].
  destruct (negb (d =? 3)); [discriminate|]. destruct (_ || _); [discriminate|].
  destruct (isfinite r); cbn [Config.bind]; [|discriminate]. destruct (isfinite f); cbn [Config.bind]; [|discriminate].
  destruct (fp_le r _); [discriminate|]. destruct (fp_le f _); [discriminate|].
  destruct (Config.make_generated_population rd rl n t r f); cbn [Config.bind]; try discriminate.
  destruct (Z.leb_spec th 0) as [L|L]; cbn [Config.bind]; [discriminate|].
  destruct (negb ((0 <=? th) && (th <? two64))); cbn [Config.bind]; [discriminate|].
  destruct (negb par && negb (th =? 1)); cbn [Config.bind]; [discriminate|].
  intros K. injection K as <-. auto.
Qed.
Lemma accepted_simulation tr alpha k lambda p c wf sim :
  Config.make_simulation tr alpha k lambda p c wf = Config.Val sim -> sim = Config.MkSimulation tr alpha k lambda p c wf.
Proof.
  unfold Config.make_simulation, Config.checked_finite, Config.checked_int.
  destruct (isfinite alpha); cbn [Config.bind]; [|discriminate]. destruct (isfinite k); cbn [Config.bind]; [|discriminate].
  destruct (isfinite lambda); cbn [Config.bind]; [|discriminate]. destruct (fp_le alpha _); [discriminate|].
  destruct (in_int32b p); cbn [Config.bind]; [|discriminate]. destruct (in_int32b c); cbn [Config.bind]; [|discriminate].
  destruct (p <=? 0); [discriminate|]. destruct (c <=? 0); [discriminate|]. intros K. injection K as <-. reflexivity.
Qed.

Section Program.
  Context {M G P E : Type}.
  Variable rd rl : QArith_base.Q -> fp.
  Variable parallel_build : bool.
  Variable seed_engine : Z -> Z -> G.
  Variable geometry : M -> Geometry.
  Variable propose : move_api M G.
  Variable check : M -> M -> MoveType -> bool.
  Variable accept : Action.PhysicalParameters -> Geometry -> Geometry -> MoveType -> P + exn.
  Variable at_least : P -> fp -> bool.
  Variable draw_int : Z -> Z -> G -> Z * G.
  Variable draw_p : G -> fp * G.
  Variable facts : manifold_facts M.
  Variable construct : Z -> Z -> Random G -> fp -> fp -> text * E -> res (text * E) M.
  Variable is_valid : M -> bool.
  Variable print : results -> stats -> text * E -> res (text * E) unit.
  Variable write : M -> Metadata -> text * E -> res (text * E) unit.
  Variable show_double show_long : fp -> text.
  Variable read_double read_long : text -> option fp.
  Variable doubles longs : fp -> Prop.
  Variable clock : E -> text.
  Variable help version : text.
  Variable shown : M -> E -> text.
  Hypothesis Hconstruct : forall n t r a b, only_appends (construct n t r a b).
  Hypothesis Hprint : forall r s, only_appends (print r s).
  Hypothesis Hwrite : forall m d, only_appends (write m d).
  Notation say := (speak show_double show_long clock help version shown).
  Notation main := (cdt_main rd rl parallel_build seed_engine geometry propose check accept at_least draw_int draw_p
    facts construct is_valid say print write).

  Lemma only_grows {A} (f : text * E -> res (text * E) A) w : only_appends f -> grows w (f w).
  Proof using. intros H. specialize (H w). unfold grows. destruct (f w); exact H. Qed.
  Lemma say_grows l w : grows w (say l w).
  Proof using. unfold speak. exists (spoken show_double show_long clock help version shown l (snd w)). reflexivity. Qed.
  Lemma cdt_run_grows pp x universe w :
    grows w (cdt_run geometry propose check accept at_least draw_int draw_p facts print write pp x universe w).
  Proof using Hprint Hwrite.
    unfold cdt_run, mh_run, execute_move_run.
    match goal with |- context [run_loop ?N3 (pass_env ?p) (rep_env ?r) (chk_env ?c) ?f ?cad ?wr ?i ?m ?t ?s ?ev ?gw] =>
      pose proof (loop_grows N3 p r c
        (fun m0 r0 s0 w0 => only_grows _ w0 (Hprint r0 s0))
        (fun m0 r0 s0 n0 w0 => ltac:(unfold mh_checkpoint; destruct (make_metadata _ _ _ _ _ _ _ _) as [d|x0];
           [exact (only_grows _ w0 (Hwrite m0 d))|apply grows_thr]))
        f cad wr i m t s ev gw) as L;
      destruct (run_loop N3 (pass_env p) (rep_env r) (chk_env c) f cad wr i m t s ev gw) as [[g w'] rr|[g w'] x0| |] end;
      exact L.
  Qed.

  Lemma cdt_announces a entropy w :
    a_help a = false -> a_version a = false ->
    (main (inl a) entropy w = Ret w EXIT_FAILURE /\ forall c, ~ accepted rd rl parallel_build a (effective_seed (a_seed a) entropy) c) \/
    main (inl a) entropy w = UB \/
    exists c, accepted rd rl parallel_build a (effective_seed (a_seed a) entropy) c /\
      match main (inl a) entropy w with
      | Ret w' _ => exists more, fst w' = fst w ++ announce_job show_double show_long c ++ more
      | _ => True
      end.
  Proof using Hconstruct Hprint Hwrite.
    intros Hh Hv. unfold cdt_main. rewrite Hh, Hv. unfold cdt_simulate.
    destruct (a_alpha a) as [alpha|] eqn:Ea; cbn [of_option andthen].
    2:{ left. split; [reflexivity|]. intros c (n & t & al & k & l & tr & _ & _ & K & _). congruence. }
    destruct (a_k a) as [k|] eqn:Ek; cbn [of_option andthen].
    2:{ left. split; [reflexivity|]. intros c (n & t & al & k & l & tr & _ & _ & _ & K & _). congruence. }
    destruct (a_lambda a) as [lambda|] eqn:El; cbn [of_option andthen].
    2:{ left. split; [reflexivity|]. intros c (n & t & al & k' & l & tr & _ & _ & _ & _ & K & _). congruence. }
    destruct (a_simplices a) as [n|] eqn:En; cbn [of_option andthen].
    2:{ left. split; [reflexivity|]. intros c (n & t & al & k' & l & tr & K & _). congruence. }
    destruct (a_timeslices a) as [t|] eqn:Et; cbn [of_option andthen].
    2:{ left. split; [reflexivity|]. intros c (n' & t & al & k' & l & tr & _ & K & _). congruence. }
    unfold cdt_config. rewrite (eq_refl : rnd_seed (root_random seed_engine (a_seed a) entropy) = effective_seed (a_seed a) entropy).
    destruct (Config.make_triangulation rd rl parallel_build (a_spherical a) (a_toroidal a) n t (a_dimensions a) (a_radius a)
                (a_spacing a) (effective_seed (a_seed a) entropy) (a_threads a)) as [tr|e|] eqn:Etr; cbn [Config.bind of_checked andthen].
    2:{ left. split; [reflexivity|]. intros c (n' & t' & al & k' & l & tr & K1 & K2 & _ & _ & _ & K & _). congruence. }
    2:{ right. left. reflexivity. }
    destruct (Config.make_simulation tr alpha k lambda (a_passes a) (a_checkpoint a) (negb (a_no_output a))) as [c|e|] eqn:Ec;
      cbn [of_checked andthen].
    2:{ left. split; [reflexivity|]. intros c (n' & t' & al & k' & l & tr' & K1 & K2 & K3 & K4 & K5 & K6 & K). congruence. }
    2:{ right. left. reflexivity. }
    right. right. exists c. split; [exists n, t, alpha, k, lambda, tr; auto 10|].
    match goal with |- match try_main (andthen (say (Job c) w) ?f) with _ => _ end =>
      assert (F : forall u w', grows w' (f u w')) end.
    { clear Etr Ec En Et Ea Ek El. intros _ w1. cbv beta.
      apply grows_andthen; [apply only_grows, Hconstruct|]. intros universe w2.
      apply grows_andthen; [apply grows_of_sum|]. intros base w3.
      apply grows_andthen; [apply grows_of_sum|]. intros ppx w4.
      apply grows_andthen; [apply say_grows|]. intros _ w5.
      apply grows_andthen; [apply cdt_run_grows|]. intros xm w6.
      apply grows_andthen; [destruct (_ <? _); [apply say_grows|apply grows_ret]|]. intros _ w7.
      destruct (negb (is_valid (snd xm))); [apply grows_thr|].
      apply grows_andthen; [apply say_grows|]. intros _ w8.
      apply grows_andthen; [|intros _ w9; apply grows_ret].
      destruct (Config.sim_write_files c); [|apply grows_ret].
      apply grows_andthen; [apply grows_of_sum|]. intros d w9. apply only_grows, Hwrite. }
    unfold speak at 1. cbn [andthen]. specialize (F tt (fst w ++ spoken show_double show_long clock help version shown (Job c) (snd w), snd w)).
    match goal with |- match try_main ?r with _ => _ end => destruct r as [w' code|w' x| |] end; cbn [try_main]; try exact I;
      destruct F as (more & ->); cbn [fst spoken];
      exists (line [B "cdt started at "; clock (snd w)] ++ more); rewrite <- !app_assoc; reflexivity.
  Qed.

  Hypothesis Hd : reads_back doubles show_double read_double.
  Hypothesis Hl : reads_back longs show_long read_long.
  Lemma cdt_output_is_recipe a entropy e out e' code :
    a_help a = false -> a_version a = false -> 0 <= effective_seed (a_seed a) entropy ->
    doubles (a_radius a) -> doubles (a_spacing a) ->
    (forall v, a_alpha a = Some v \/ a_k a = Some v \/ a_lambda a = Some v -> longs v) ->
    main (inl a) entropy ([], e) = Ret (out, e') code ->
    (out = [] /\ e' = e /\ code = EXIT_FAILURE /\
     forall c, ~ accepted rd rl parallel_build a (effective_seed (a_seed a) entropy) c) \/
    exists a', cdt_recipe read_double read_long (a_no_output a) out = Some a' /\
      a_seed a' = Some (effective_seed (a_seed a) entropy) /\
      forall entropy' w, main (inl a') entropy' w = main (inl a) entropy w.
  Proof using Hconstruct Hprint Hwrite Hd Hl.
    intros Hh Hv Hs D1 D2 L R.
    destruct (cdt_announces a entropy ([], e) Hh Hv) as [[F N]|[F|(c & A & F)]]; rewrite R in F.
    - left. injection F as -> -> ->. auto.
    - discriminate.
    - right. destruct F as (more & F). cbn [fst app] in F. subst out.
      destruct A as (n & t & alpha & k & lambda & tr & An & At & Aa & Ak & Al & Atr & Ac).
      apply accepted_triangulation in Atr as (-> & Sph & Tor & Th). apply accepted_simulation in Ac as ->.
      exists (with_seed a (effective_seed (a_seed a) entropy)). split; [|split].
      + erewrite job_read; [|exact Hd|exact Hl|..]; cbn [Config.sim_triangulation Config.tr_initial_radius Config.tr_foliation_spacing
          Config.sim_alpha Config.sim_k Config.sim_lambda Config.tr_seed Config.tr_threads]; auto; [|lia].
        unfold with_seed. cbn. rewrite Hh, Hv, Sph, Tor, An, At, Aa, Ak, Al. reflexivity.
      + reflexivity.
      + intros entropy' w. apply main_replays.
  Qed.

  Notation generate := (init_main rd rl parallel_build seed_engine facts construct say write).
  Lemma init_output_is_recipe a entropy e out e' code :
    i_help a = false -> i_version a = false -> 0 <= effective_seed (i_seed a) entropy ->
    doubles (i_radius a) -> doubles (i_spacing a) ->
    generate (inl a) entropy ([], e) = Ret (out, e') code ->
    (out = [] /\ e' = e /\ code = EXIT_FAILURE /\
     forall c, ~ accepted_initial rd rl parallel_build a (effective_seed (i_seed a) entropy) c) \/
    exists a', init_recipe read_double (i_output a) out = Some a' /\
      i_seed a' = Some (effective_seed (i_seed a) entropy) /\
      forall entropy' w, generate (inl a') entropy' w = generate (inl a) entropy w.
  Proof using Hconstruct Hwrite Hd.
    intros Hh Hv Hs D1 D2 R. pose proof R as R0. unfold init_main in R. rewrite Hh, Hv in R. unfold init_generate in R.
    destruct (i_simplices a) as [n|] eqn:En; cbn [of_option andthen] in R.
    2:{ left. cbn [try_main] in R. injection R as <- <- <-. repeat split. intros c (n & t & K & _). congruence. }
    destruct (i_timeslices a) as [t|] eqn:Et; cbn [of_option andthen] in R.
    2:{ left. cbn [try_main] in R. injection R as <- <- <-. repeat split. intros c (n' & t & _ & K & _). congruence. }
    rewrite (eq_refl : rnd_seed (root_random seed_engine (i_seed a) entropy) = effective_seed (i_seed a) entropy) in R.
    destruct (Config.make_triangulation rd rl parallel_build (i_spherical a) (i_toroidal a) n t (i_dimensions a) (i_radius a)
                (i_spacing a) (effective_seed (i_seed a) entropy) (i_threads a)) as [c|x|] eqn:Ec; cbn [of_checked andthen] in R.
    2:{ left. cbn [try_main] in R. injection R as <- <- <-. repeat split. intros c (n' & t' & K1 & K2 & K). congruence. }
    2:{ discriminate. }
    right.
    match type of R with try_main (andthen (say (JobTriangulation c _) _) ?f) = _ =>
      assert (F : forall u w', grows w' (f u w')) end.
    { clear Ec En Et R R0. intros _ w1. cbv beta.
      apply grows_andthen; [apply only_grows, Hconstruct|]. intros universe w2.
      apply grows_andthen; [apply say_grows|]. intros _ w3.
      apply grows_andthen; [apply say_grows|]. intros _ w4.
      apply grows_andthen; [|intros _ w9; apply grows_ret].
      destruct (i_output a); [|apply grows_ret].
      apply grows_andthen; [apply grows_of_sum|]. intros d w5. apply only_grows, Hwrite. }
    unfold speak at 1 in R. cbn [andthen] in R.
    specialize (F tt (fst ([] : text, e) ++ spoken show_double show_long clock help version shown (JobTriangulation c (i_output a)) (snd ([] : text, e)),
                      snd ([] : text, e))). cbv beta in F.
    assert (O : exists more, out = announce_generation show_double c (i_output a) ++ more).
    { match type of R with try_main ?r = _ =>
        match type of F with grows ?w1 _ => assert (F1 : grows w1 r) by exact F end; clear F; destruct r as [w' cd|w' x| |] end;
        cbn [try_main] in R; try discriminate R; injection R as R _; subst w'; unfold grows in F1; cbn [fst] in F1;
        destruct F1 as (more & F1); exists more; exact F1. }
    destruct O as (more & ->). apply accepted_triangulation in Ec as (-> & Sph & Tor & Th).
    exists (init_with_seed a (effective_seed (i_seed a) entropy)). split; [|split].
    - erewrite generation_read; [|exact Hd|..]; cbn [Config.tr_initial_radius Config.tr_foliation_spacing
          Config.tr_seed Config.tr_threads]; auto; [|lia].
      unfold init_with_seed. cbn. rewrite Hh, Hv, Sph, Tor, En, Et. reflexivity.
    - reflexivity.
    - intros entropy' w. apply init_replays.
  Qed.
End Program.

(** The warning and the count. *)
Lemma warning_told {M E} show_double show_long clock help version shown wanted got out (e : E) :
  exists t, speak (M := M) show_double show_long clock help version shown (TooFewSlices wanted got) (out, e) = Ret (out ++ t, e) tt /\
    read_listing warning_row t = Some [(wanted, got)].
Proof.
  eexists. split; [reflexivity|]. cbn [snd spoken]. unfold read_listing. erewrite ListingFacts.lines_split; [|apply ListingFacts.lines_line; cbn [concat]].
  - cbn [read_rows]. unfold warning_row. cbn [concat]. rewrite app_nil_r.
    rewrite ListingFacts.row_word, ListingFacts.row_int by reflexivity. rewrite ListingFacts.row_word, ListingFacts.row_int by reflexivity.
    change (B ".") with (B "." ++ []) at 1. cbn. reflexivity.
  - intros H. repeat (apply in_app_iff in H as [H|H]);
      first [exact (no_newline_int _ H)|revert H; apply no_newline_lit; reflexivity|destruct H].
Qed.
Lemma count_told {M E} show_double show_long clock help version shown n out (e : E) :
  exists t, speak (M := M) show_double show_long clock help version shown (FinalCount n) (out, e) = Ret (out ++ t, e) tt /\
    read_listing count_row t = Some [n].
Proof.
  eexists. split; [reflexivity|]. cbn [snd spoken]. unfold read_listing. erewrite ListingFacts.lines_split; [|apply ListingFacts.lines_line; cbn [concat]].
  - cbn [read_rows]. unfold count_row. cbn [concat]. rewrite app_nil_r.
    rewrite ListingFacts.row_word. rewrite <- (app_nil_r (print_int n)), ListingFacts.row_int by reflexivity. reflexivity.
  - intros H. repeat (apply in_app_iff in H as [H|H]);
      first [exact (no_newline_int _ H)|revert H; apply no_newline_lit; reflexivity|destruct H].
Qed.
