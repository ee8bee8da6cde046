(** The sidecar the program writes, read back (C41). *)
From Verif Require Import Base Config Text PersistSpec TextFacts Persist PersistFacts MetaSpec MetaFacts MetaRound MetaLook.
From Coq Require Import QArith_base.
Local Open Scope Z_scope.
Local Open Scope list_scope.

Ltac pick := first [assumption | reflexivity | left; pick | right; pick].
Lemma numeral_value b t n : unsigned_numeral b t n -> value_text t.
Proof. intros H. apply unsigned_numeral_no in H. split; tauto. Qed.
Lemma signed_value t z : signed_numeral t z -> value_text t.
Proof. intros H. apply signed_numeral_no in H. split; tauto. Qed.

Section Round.
Variables dbl ldbl : fp -> Prop.
Variables print_double print_long_double : fp -> text.
Variables scan_double scan_long_double : text -> option (fp * text).
Hypothesis io_d : float_io dbl print_double scan_double.
Hypothesis io_l : float_io ldbl print_long_double scan_long_double.
Notation fields := (metadata_fields print_double print_long_double).

Definition pay_ok (pay : integrity) : Prop := 0 <= i_size pay < two64 /\ 0 <= i_digest pay < two64.

Lemma optional_values {A} k (f : A -> text) o : (forall x, o = Some x -> value_text (f x)) ->
  Forall (fun kv => value_text (snd kv)) (optional_field k f o).
Proof. intros H. destruct o as [x|]; cbn; [constructor; [apply H; reflexivity|constructor]|constructor]. Qed.

Lemma fields_values b m pay : build_ok b -> pay_ok pay -> metadata_in_range dbl ldbl m ->
  Forall (fun kv => value_text (snd kv)) (fields b m pay).
Proof using io_d io_l.
  intros (V1 & V2 & V3 & V4 & V5 & V6 & V7 & V8) [P1 P2] (Rd & Rs & Rl & R1 & R2 & R3 & R4 & R5 & R6 & R7 & R8 & R9 & R10 & R11 & R12 & Ri & Ru).
  destruct io_d as (Id & _). destruct io_l as (Il & _).
  assert (U : forall n, 0 <= n < two64 -> value_text (print_unsigned n))
    by (intros n Hn; eapply numeral_value, print_unsigned_numeral, Hn).
  assert (H : forall n, 0 <= n < two64 -> value_text (print_hex16 n))
    by (intros n Hn; eapply numeral_value, print_hex16_numeral, Hn).
  assert (S : forall n, in_int32 n -> value_text (print_int n))
    by (intros n Hn; eapply signed_value, print_int_numeral, Hn).
  assert (C : forall s, negb (bool_decide (s = [])) && negb (bool_decide (NL ∈ s)) = true -> value_text s).
  { intros s K. rewrite andb_true_iff, !negb_true_iff, !bool_decide_eq_false, elem_of_list_In in K. exact K. }
  unfold metadata_fields. apply List.Forall_app. split.
  - repeat (constructor; [cbn [snd]; first [assumption | apply U; assumption | apply H; assumption | apply S; assumption
      | apply Id; assumption
      | destruct (m_artifact m); apply C; vm_compute; reflexivity
      | destruct (m_topology m); apply C; vm_compute; reflexivity
      | apply C; vm_compute; reflexivity]|]). constructor.
  - repeat (apply List.Forall_app; split); apply optional_values; intros x Hx;
    first [ apply Il, Rl; tauto | apply S, Ri; tauto | apply U, Ru; tauto | apply H, Ru; tauto ].
Qed.

Lemma written_lines b m pay : build_ok b -> pay_ok pay -> metadata_in_range dbl ldbl m ->
  sidecar_fields (metadata_text print_double print_long_double b m pay) (fields b m pay).
Proof using io_d io_l.
  intros Hb Hp Hm. assert (V := fields_values b m pay Hb Hp Hm).
  assert (K := fun k => fields_keys print_double print_long_double b m pay k).
  unfold sidecar_fields, metadata_text. rewrite put_lines_one.
  exists (put_lines (map (fun kv => fst kv ++ EQ :: snd kv) (fields b m pay))), (map (fun kv => fst kv ++ EQ :: snd kv) (fields b m pay)).
  split; [apply first_line_newline; vm_compute; intuition discriminate|].
  set (fs := fields b m pay) in *. clearbody fs. split.
  - rewrite <- (app_nil_r (put_lines _)). apply lines_unlines.
    apply List.Forall_forall. intros l Hl. apply in_map_iff in Hl as (kv & <- & I).
    rewrite List.Forall_forall in V. destruct (V kv I) as [_ Nv].
    destruct (K (fst kv) (in_map fst _ _ I)) as (_ & _ & Nk).
    rewrite in_app_iff. intros [J|[J|J]]; [tauto|discriminate|tauto].
  - assert (G : Forall (fun kv => key_value_line (fst kv ++ EQ :: snd kv) kv) fs).
    { apply List.Forall_forall. intros kv I. rewrite List.Forall_forall in V. destruct (V kv I) as [Ne _].
      destruct (K (fst kv) (in_map fst _ _ I)) as (Nk & Nq & _). repeat split; assumption. }
    clear -G. induction fs as [|kv fs IH]; cbn [map]; [constructor|].
    apply Forall_cons_1 in G as [G1 G]. constructor; auto.
Qed.

(** Fields are determined by the text. *)
Lemma lines_all_fun t ls : lines t ls [] -> forall ls', lines t ls' [] -> ls = ls'.
Proof using.
  intros L. remember (@nil Z) as e eqn:E. revert E. induction L as [t|t l u ls rest G L IH]; intros -> ls' L'.
  - inversion L' as [|? l u ls'' ? [_ [E|(E & E' & _)]] L'']; subst; [reflexivity|destruct l; discriminate|congruence].
  - inversion L' as [|? l' u' ls'' ? G' L'']; subst.
    + destruct G as [_ [E|(E & E' & _)]]; [destruct l; discriminate|subst; congruence].
    + destruct (first_line_fun _ _ _ _ _ G G') as [-> ->]. f_equal. apply IH; [reflexivity|assumption].
Qed.
Lemma sidecar_fields_fun t fs fs' : sidecar_fields t fs -> sidecar_fields t fs' -> fs = fs'.
Proof using.
  intros (r & ls & G & L & F) (r' & ls' & G' & L' & F').
  destruct (first_line_fun _ _ _ _ _ G G') as [_ ->]. rewrite <- (lines_all_fun _ _ L _ L') in F'. clear -F F'.
  revert fs' F'. induction F as [|l [k v] ls fs (E & _ & _ & N) F IH]; intros fs' F'; inversion F' as [|? [k' v'] ? fs'' (E' & _ & _ & N') F'']; subst; [reflexivity|].
  cbn [fst snd] in *. f_equal; [|auto].
  assert (A : find_char EQ (k ++ EQ :: v) = Some (k, v)) by (apply find_char_spec; auto).
  assert (A' : find_char EQ (k ++ EQ :: v) = Some (k', v')) by (apply find_char_spec; auto). congruence.
Qed.

Section One.
Variables (b : build_info) (m : metadata) (pay : integrity).
Hypothesis Hb : build_ok b.
Hypothesis Hp : pay_ok pay.
Hypothesis Hm : metadata_in_range dbl ldbl m.
Let fs := fields b m pay.
Let ND : NoDup (map fst fs) := fields_nodup print_double print_long_double b m pay.

Lemma in_get k v : In (k, v) fs <-> get fs k = Some v.
Proof using. symmetry. apply get_in, ND. Qed.
Lemma has_get k : has fs k <-> exists v, get fs k = Some v.
Proof using.
  rewrite <- contains_has. unfold contains. destruct (get fs k); split; eauto; try discriminate; intros [v H]; discriminate.
Qed.
Lemma int_is_get k z y : get fs k = Some (print_int y) -> in_int32 y -> int_is fs k z <-> z = y.
Proof using.
  intros G R. unfold int_is. split.
  - intros (v & I & N). apply in_get in I. assert (v = print_int y) as -> by congruence.
    eapply signed_numeral_fun; [exact N|]. apply print_int_numeral, R.
  - intros ->. exists (print_int y). split; [apply in_get, G|apply print_int_numeral, R].
Qed.
Lemma dec_is_get k z y : get fs k = Some (print_unsigned y) -> 0 <= y < two64 -> dec_is fs k z <-> z = y.
Proof using.
  intros G R. unfold dec_is. split.
  - intros (v & I & N). apply in_get in I. assert (v = print_unsigned y) as -> by congruence.
    eapply unsigned_numeral_fun; [|exact N|apply print_unsigned_numeral, R]. lia.
  - intros ->. exists (print_unsigned y). split; [apply in_get, G|apply print_unsigned_numeral, R].
Qed.
Lemma hex_is_get k z y : get fs k = Some (print_hex16 y) -> 0 <= y < two64 -> hex_is fs k z <-> z = y.
Proof using.
  intros G R. unfold hex_is. split.
  - intros (v & I & N). apply in_get in I. assert (v = print_hex16 y) as -> by congruence.
    eapply unsigned_numeral_fun; [|exact N|apply print_hex16_numeral, R]. lia.
  - intros ->. exists (print_hex16 y). split; [apply in_get, G|apply print_hex16_numeral, R].
Qed.
Lemma float_is_get vals print scan (io : float_io vals print scan) k q x :
  get fs k = Some (print x) -> vals x -> float_is fs scan k q <-> x = Fin q.
Proof using.
  intros G V. destruct io as (_ & Io & In'). unfold float_is. split.
  - intros (v & rest & I & E & _). apply in_get in I. assert (v = print x) as -> by congruence.
    destruct (isfinite x) eqn:Ef.
    + destruct x as [| |q']; try discriminate. rewrite Io in E by assumption. congruence.
    + specialize (In' _ _ _ V Ef E). discriminate.
  - intros ->. exists (print (Fin q)), []. split; [apply in_get, G|]. split; [apply Io, V|constructor].
Qed.

Lemma artifact_name_inj a c : artifact_name a = artifact_name c -> a = c.
Proof using. destruct a, c; vm_compute; congruence. Qed.

Lemma opt_has {A} k (f : A -> text) o : get fs k = option_map f o -> has fs k <-> o <> None.
Proof using.
  intros G. rewrite has_get, G. destruct o; cbn; split; eauto; try congruence. intros [v H]. discriminate.
Qed.

Lemma accepted_written p : accepted scan_double scan_long_double fs p <->
  metadata_valid m /\ exists pl fi, m_placement m = Some pl /\ m_fingerprint m = Some fi /\ p = recovered m pay pl fi.
Proof using io_d io_l Hp Hm.
  destruct (looked_all print_double print_long_double b m pay) as [k_size0 k_digest0 k_artifact0 k_resume0 k_fresh0 k_start0 k_version0 k_cid0 k_cv0 k_conf0 k_sys0 k_proc0 k_std0 k_lib0 k_cgal0 k_engine0 k_seed0 k_init0 k_trans0 k_topology0 k_dim0 k_ds0 k_dt0 k_nv0 k_ne0 k_nf0 k_nc0 k_mn0 k_mx0 k_rad0 k_spa0 k_alpha0 k_k0 k_lambda0 k_passes0 k_attempts0 k_interval0 k_completed0 k_threads0 k_trace0 k_count0 k_placement0 k_finger0]. fold fs in k_size0, k_digest0, k_artifact0, k_resume0, k_fresh0, k_start0, k_version0, k_cid0, k_cv0, k_conf0, k_sys0, k_proc0, k_std0, k_lib0, k_cgal0, k_engine0, k_seed0, k_init0, k_trans0, k_topology0, k_dim0, k_ds0, k_dt0, k_nv0, k_ne0, k_nf0, k_nc0, k_mn0, k_mx0, k_rad0, k_spa0, k_alpha0, k_k0, k_lambda0, k_passes0, k_attempts0, k_interval0, k_completed0, k_threads0, k_trace0, k_count0, k_placement0, k_finger0.
  destruct Hm as (Rd & Rs & Rl & R1 & R2 & R3 & R4 & R5 & R6 & R7 & R8 & R9 & R10 & R11 & R12 & Ri & Ru).
  destruct Hp as [P1 P2].
  assert (Ki := int_is_get). assert (Kd := dec_is_get). assert (Kh := hex_is_get).
  split.
  - intros A. destruct A as [ac_no_duplicate0 ac_build0 ac_resume0 ac_replay0 ac_start0 ac_engine0 ac_standard0 ac_artifact0 ac_topology0 ac_size0 ac_digest0 ac_seed0 ac_init0 ac_trans0 ac_dimension0 ac_vertices0 ac_edges0 ac_faces0 ac_simplices0 ac_times0 ac_desired_simplices0 ac_desired_timeslices0 ac_radius0 ac_spacing0 ac_action0 ac_alpha0 ac_k0 ac_lambda0 ac_run0 ac_passes0 ac_interval0 ac_attempts0 ac_checkpoint0 ac_completed0 ac_threads0 ac_transition0 ac_trace0 ac_count0 ac_placement0 ac_fingerprint0].
    apply in_get in ac_artifact0. rewrite k_artifact0 in ac_artifact0.
    apply in_get in ac_topology0. rewrite k_topology0 in ac_topology0.
    destruct ac_dimension0 as [Ddim Pdim]. destruct ac_vertices0 as [Dnv Pnv]. destruct ac_edges0 as [Dne Pne].
    destruct ac_faces0 as [Dnf Pnf]. destruct ac_simplices0 as [Dnc Pnc]. destruct ac_times0 as (Dmn & Dmx & Pt).
    destruct ac_desired_simplices0 as (ds & Dds & Pds). destruct ac_desired_timeslices0 as (dt & Ddt & Pdt).
    destruct ac_radius0 as (qr & Dr & Pr). destruct ac_spacing0 as (qs & Ds & Ps). destruct ac_action0 as [Ta Tk].
    apply (Ki _ _ _ k_dim0) in Ddim; [|assumption]. apply (Ki _ _ _ k_nv0) in Dnv; [|assumption].
    apply (Ki _ _ _ k_ne0) in Dne; [|assumption]. apply (Ki _ _ _ k_nf0) in Dnf; [|assumption].
    apply (Ki _ _ _ k_nc0) in Dnc; [|assumption]. apply (Ki _ _ _ k_mn0) in Dmn; [|assumption].
    apply (Ki _ _ _ k_mx0) in Dmx; [|assumption]. apply (Ki _ _ _ k_ds0) in Dds; [|assumption].
    apply (Ki _ _ _ k_dt0) in Ddt; [|assumption].
    apply (Kd _ _ _ k_size0) in ac_size0; [|assumption]. apply (Kh _ _ _ k_digest0) in ac_digest0; [|assumption].
    apply (Kd _ _ _ k_seed0) in ac_seed0; [|assumption]. apply (Kd _ _ _ k_init0) in ac_init0; [|assumption].
    apply (Kd _ _ _ k_trans0) in ac_trans0; [|assumption].
    apply (float_is_get _ _ _ io_d _ _ _ k_rad0 Rd) in Dr. apply (float_is_get _ _ _ io_d _ _ _ k_spa0 Rs) in Ds.
    unfold together in *.
    rewrite (opt_has _ _ _ k_alpha0), (opt_has _ _ _ k_k0) in Ta. rewrite (opt_has _ _ _ k_lambda0), (opt_has _ _ _ k_k0) in Tk.
    rewrite (opt_has _ _ _ k_passes0), (opt_has _ _ _ k_interval0) in ac_run0.
    rewrite (opt_has _ _ _ k_trace0), (opt_has _ _ _ k_count0) in ac_transition0.
    rewrite (opt_has _ _ _ k_alpha0) in ac_alpha0. rewrite (opt_has _ _ _ k_k0) in ac_k0.
    rewrite (opt_has _ _ _ k_lambda0) in ac_lambda0.
    rewrite (opt_has _ _ _ k_passes0) in ac_passes0. rewrite (opt_has _ _ _ k_interval0) in ac_interval0.
    rewrite (opt_has _ _ _ k_attempts0) in ac_attempts0. rewrite (opt_has _ _ _ k_completed0) in ac_checkpoint0, ac_completed0.
    assert (Art : m_artifact m = p_artifact p).
    { apply artifact_name_inj. injection ac_artifact0 as E. exact E. }
    assert (Top : m_topology m = p_topology p).
    { destruct (m_topology m), (p_topology p); try reflexivity; vm_compute in ac_topology0; discriminate. }
    assert (Pl : exists pl, m_placement m = Some pl /\ p_placement p = pl).
    { destruct (m_placement m) as [pl|] eqn:E; cbn [option_map] in k_placement0.
      - exists pl. split; [reflexivity|]. apply (Kh _ _ _ k_placement0) in ac_placement0; [assumption|apply Ru; pick].
      - exfalso. destruct ac_placement0 as (v & I & _). apply in_get in I. congruence. }
    assert (Fi : exists fi, m_fingerprint m = Some fi /\ p_fingerprint p = fi).
    { destruct (m_fingerprint m) as [pl|] eqn:E; cbn [option_map] in k_finger0.
      - exists pl. split; [reflexivity|]. apply (Kh _ _ _ k_finger0) in ac_fingerprint0; [assumption|apply Ru; pick].
      - exfalso. destruct ac_fingerprint0 as (v & I & _). apply in_get in I. congruence. }
    destruct Pl as (pl & Epl & Ppl). destruct Fi as (fi & Efi & Pfi).
    assert (Th : p_threads p = m_threads m /\ forall n, m_threads m = Some n -> 0 < n).
    { destruct (m_threads m) as [n|] eqn:E; cbn [option_map] in k_threads0.
      - destruct (p_threads p) as [n'|].
        + destruct ac_threads0 as [D P]. apply (Kd _ _ _ k_threads0) in D; [|apply Ru; pick]. subst n'.
          split; [reflexivity|]. intros ? [= <-]. exact P.
        + exfalso. apply ac_threads0, has_get. eauto.
      - destruct (p_threads p) as [n'|]; [|split; [reflexivity|discriminate]].
        exfalso. destruct ac_threads0 as [D _]. apply dec_is_has, has_get in D as [v D]. congruence. }
    destruct Th as [Th Pth].
    split.
    + unfold metadata_valid. rewrite Epl, Efi.
      repeat match goal with |- _ /\ _ => split end; try lia; try congruence; try assumption.
      * exists qr. auto.
      * exists qs. auto.
      * destruct (m_alpha m) as [a|] eqn:Ea, (m_k m) as [k|] eqn:Ek, (m_lambda m) as [l|] eqn:El;
          try (exfalso; clear - Ta Tk Ea Ek El; intuition congruence).
        -- destruct ac_alpha0 as (qa & Fa & Pa); [discriminate|]. destruct ac_k0 as (qk & Fk); [discriminate|].
           destruct ac_lambda0 as (ql & Fl); [discriminate|].
           apply (float_is_get _ _ _ io_l _ _ a k_alpha0) in Fa; [|apply Rl; pick].
           apply (float_is_get _ _ _ io_l _ _ k k_k0) in Fk; [|apply Rl; pick].
           apply (float_is_get _ _ _ io_l _ _ l k_lambda0) in Fl; [|apply Rl; pick].
           subst. split; [exists qa; auto|]. split; reflexivity.
        -- exact I.
      * destruct (m_passes m) as [a|] eqn:Ea, (m_interval m) as [i|] eqn:Ei; try (exfalso; clear - ac_run0 Ea Ei; intuition congruence).
        -- destruct ac_passes0 as (x & Fx & Px); [discriminate|]. destruct ac_interval0 as (y & Fy & Py); [discriminate|].
           apply (Ki _ _ _ k_passes0) in Fx; [|apply Ri; pick]. apply (Ki _ _ _ k_interval0) in Fy; [|apply Ri; pick]. lia.
        -- exact I.
      * intros z Ez. rewrite Ez in *. destruct ac_attempts0 as (x & Fx & Px); [discriminate|].
        apply (Ki _ _ _ k_attempts0) in Fx; [|apply Ri; pick]. lia.
      * intros Ea. apply ac_checkpoint0. congruence.
      * intros z Ez. rewrite Ez in *. destruct ac_completed0 as (x & Fx & Px); [discriminate|].
        apply (Ki _ _ _ k_completed0) in Fx; [|apply Ri; pick]. lia.
      * clear - ac_transition0. destruct (m_trace m), (m_count m); intuition congruence.
    + exists pl, fi. split; [exact Epl|]. split; [exact Efi|].
      clear - Art Top Ddim Dnv Dne Dnf Dnc Dmn Dmx ac_size0 ac_digest0 ac_seed0 ac_init0 ac_trans0 Th Ppl Pfi.
      destruct p as [[size digest] art seed ini tra topo dim nv ne nf nc mn mx thr pla fin]. unfold recovered.
      destruct pay as [ps pd]. cbn in *. subst. reflexivity.
  - intros (V & pl & fi & Epl & Efi & ->).
    destruct V as (V1 & V2 & V3 & V4 & V5 & V6 & V7 & V8 & (qr & Er & Pr) & (qs & Es & Ps) & Vact & Vrun & Vatt & Vchk & Vcom & Vthr & Vtr & _ & _).
    assert (Bu : forall k v, get fs k = Some v -> has fs k) by (intros; apply has_get; eauto).
    constructor; unfold recovered, together; cbn [p_payload p_artifact p_seed p_init_stream p_trans_stream p_topology p_dimension p_vertices
    p_edges p_faces p_simplices p_min_time p_max_time p_threads p_placement p_fingerprint i_size i_digest].
    + exact ND.
    + repeat (apply List.Forall_cons; [eapply Bu; eassumption|]). apply List.Forall_nil.
    + apply in_get. assumption.
    + apply in_get. assumption.
    + apply in_get. assumption.
    + apply in_get. assumption.
    + apply in_get. assumption.
    + apply in_get. rewrite k_artifact0. destruct (m_artifact m); reflexivity.
    + apply in_get. assumption.
    + apply (Kd _ _ _ k_size0); [assumption|reflexivity].
    + apply (Kh _ _ _ k_digest0); [assumption|reflexivity].
    + apply (Kd _ _ _ k_seed0); [assumption|reflexivity].
    + apply (Kd _ _ _ k_init0); [assumption|reflexivity].
    + apply (Kd _ _ _ k_trans0); [assumption|reflexivity].
    + split; [apply (Ki _ _ _ k_dim0); [assumption|reflexivity]|assumption].
    + split; [apply (Ki _ _ _ k_nv0); [assumption|reflexivity]|assumption].
    + split; [apply (Ki _ _ _ k_ne0); [assumption|reflexivity]|assumption].
    + split; [apply (Ki _ _ _ k_nf0); [assumption|reflexivity]|assumption].
    + split; [apply (Ki _ _ _ k_nc0); [assumption|reflexivity]|assumption].
    + split; [apply (Ki _ _ _ k_mn0); [assumption|reflexivity]|]. split; [apply (Ki _ _ _ k_mx0); [assumption|reflexivity]|assumption].
    + exists (m_desired_simplices m). split; [apply (Ki _ _ _ k_ds0); [assumption|reflexivity]|assumption].
    + exists (m_desired_timeslices m). split; [apply (Ki _ _ _ k_dt0); [assumption|reflexivity]|assumption].
    + exists qr. split; [apply (float_is_get _ _ _ io_d _ _ _ k_rad0 Rd); exact Er|exact Pr].
    + exists qs. split; [apply (float_is_get _ _ _ io_d _ _ _ k_spa0 Rs); exact Es|exact Ps].
    + rewrite (opt_has _ _ _ k_alpha0), (opt_has _ _ _ k_k0), (opt_has _ _ _ k_lambda0).
      destruct (m_alpha m), (m_k m), (m_lambda m); try tauto; split; split; congruence.
    + rewrite (opt_has _ _ _ k_alpha0). intros K. destruct (m_alpha m) as [a|]; [|congruence].
      destruct (m_k m) as [k|]; [|destruct Vact]. destruct (m_lambda m) as [l|]; [|destruct Vact].
      destruct Vact as ((q & -> & Pq) & _). exists q. split; [|exact Pq].
      apply (float_is_get _ _ _ io_l _ _ _ k_alpha0); [apply Rl; pick|reflexivity].
    + rewrite (opt_has _ _ _ k_k0). intros K. destruct (m_k m) as [k|] eqn:Ek; [|congruence].
      destruct (m_alpha m) as [a|]; [|destruct Vact]. destruct (m_lambda m) as [l|]; [|destruct Vact].
      destruct Vact as (_ & Fk & _). destruct k as [| |q]; try discriminate. exists q.
      apply (float_is_get _ _ _ io_l _ _ _ k_k0); [apply Rl; pick|reflexivity].
    + rewrite (opt_has _ _ _ k_lambda0). intros K. destruct (m_lambda m) as [l|] eqn:El; [|congruence].
      destruct (m_alpha m) as [a|]; [|destruct (m_k m); destruct Vact]. destruct (m_k m) as [k|]; [|destruct Vact].
      destruct Vact as (_ & _ & Fl). destruct l as [| |q]; try discriminate. exists q.
      apply (float_is_get _ _ _ io_l _ _ _ k_lambda0); [apply Rl; pick|reflexivity].
    + rewrite (opt_has _ _ _ k_passes0), (opt_has _ _ _ k_interval0).
      destruct (m_passes m), (m_interval m); try tauto; split; congruence.
    + rewrite (opt_has _ _ _ k_passes0). intros K. destruct (m_passes m) as [a|] eqn:Ea; [|congruence].
      destruct (m_interval m) as [i|]; [|destruct Vrun]. exists a. split; [|tauto].
      apply (Ki _ _ _ k_passes0); [apply Ri; pick|reflexivity].
    + rewrite (opt_has _ _ _ k_interval0). intros K. destruct (m_interval m) as [a|] eqn:Ea; [|congruence].
      destruct (m_passes m) as [i|]; [|destruct Vrun]. exists a. split; [|tauto].
      apply (Ki _ _ _ k_interval0); [apply Ri; pick|reflexivity].
    + rewrite (opt_has _ _ _ k_attempts0). intros K. destruct (m_attempts m) as [a|] eqn:Ea; [|congruence].
      exists a. split; [|apply Vatt; reflexivity]. apply (Ki _ _ _ k_attempts0); [apply Ri; pick|reflexivity].
    + rewrite (opt_has _ _ _ k_completed0). exact Vchk.
    + rewrite (opt_has _ _ _ k_completed0). intros K. destruct (m_completed m) as [a|] eqn:Ea; [|congruence].
      exists a. split; [|apply Vcom; reflexivity]. apply (Ki _ _ _ k_completed0); [apply Ri; pick|reflexivity].
    + destruct (m_threads m) as [n|] eqn:En.
      * split; [|apply Vthr; reflexivity]. apply (Kd _ _ _ k_threads0); [apply Ru; pick|reflexivity].
      * rewrite (opt_has _ _ _ k_threads0). tauto.
    + rewrite (opt_has _ _ _ k_trace0), (opt_has _ _ _ k_count0). tauto.
    + rewrite (opt_has _ _ _ k_trace0). intros K. destruct (m_trace m) as [a|] eqn:Ea; [|congruence].
      exists a. apply (Kh _ _ _ k_trace0); [apply Ru; pick|reflexivity].
    + rewrite (opt_has _ _ _ k_count0). intros K. destruct (m_count m) as [a|] eqn:Ea; [|congruence].
      exists a. apply (Kd _ _ _ k_count0); [apply Ru; pick|reflexivity].
    + rewrite Epl in k_placement0. apply (Kh _ _ _ k_placement0); [apply Ru; pick|reflexivity].
    + rewrite Efi in k_finger0. apply (Kh _ _ _ k_finger0); [apply Ru; pick|reflexivity].
Qed.

Lemma metadata_round_trip p :
  read_persistence_metadata scan_double scan_long_double (metadata_text print_double print_long_double b m pay) = Val p <->
  metadata_valid m /\ exists pl fi, m_placement m = Some pl /\ m_fingerprint m = Some fi /\ p = recovered m pay pl fi.
Proof using io_d io_l Hb Hp Hm.
  rewrite read_metadata_spec, <- accepted_written. unfold sidecar.
  assert (W := written_lines b m pay Hb Hp Hm). split.
  - intros (fs' & S & A). rewrite (sidecar_fields_fun _ _ _ S W) in A. exact A.
  - intros A. exists fs. split; assumption.
Qed.
End One.
End Round.
