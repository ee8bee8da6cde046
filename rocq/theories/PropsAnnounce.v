(** Theorems about the job parameters the programs print (C94). *)
From Verif Require Import Base Config Text Tracker Command Run Fnv Geom Metropolis RunCheckpoint
  Program ProgramSpec Toy ListingSpec Announce AnnounceSpec AnnounceFacts.
From Verif Require Action ConfigProps PropsProgram.
Local Open Scope Z_scope.
Local Open Scope list_scope.

(** C94. The output of cdt is a recipe for the run. With any texts for times,
    reports and listings, a run without --help or --version either printed nothing
    and failed because the options were not accepted, or its first lines can be read
    back as options with which cdt, whatever entropy it draws, behaves exactly as it
    did: same output, files and exit status. *)
Theorem C94_simulation_output_is_a_recipe :
  forall (M G P E : Type) rd rl parallel_build (seed_engine : Z -> Z -> G) (geometry : M -> Geometry) propose check
    (accept : Action.PhysicalParameters -> Geometry -> Geometry -> MoveType -> P + exn) at_least draw_int draw_p
    (facts : manifold_facts M) construct is_valid print write
    show_double show_long read_double read_long doubles longs (clock : E -> text) help version shown,
  (forall n t r a b, only_appends (construct n t r a b)) -> (forall r s, only_appends (print r s)) ->
  (forall m d, only_appends (write m d)) ->
  reads_back doubles show_double read_double -> reads_back longs show_long read_long ->
  let main := cdt_main rd rl parallel_build seed_engine geometry propose check accept at_least draw_int draw_p
    facts construct is_valid (speak show_double show_long clock help version shown) print write in
  forall a entropy e out e' code,
  a_help a = false -> a_version a = false -> 0 <= effective_seed (a_seed a) entropy ->
  doubles (a_radius a) -> doubles (a_spacing a) ->
  (forall v, a_alpha a = Some v \/ a_k a = Some v \/ a_lambda a = Some v -> longs v) ->
  main (inl a) entropy ([], e) = Ret (out, e') code ->
  (out = [] /\ e' = e /\ code = EXIT_FAILURE /\
   forall c, ~ accepted rd rl parallel_build a (effective_seed (a_seed a) entropy) c) \/
  exists a', cdt_recipe read_double read_long (a_no_output a) out = Some a' /\
    a_seed a' = Some (effective_seed (a_seed a) entropy) /\
    forall entropy' w, main (inl a') entropy' w = main (inl a) entropy w.
Proof. exact @cdt_output_is_recipe. Qed.
Print Assumptions C94_simulation_output_is_a_recipe.

(** The same for initialize. *)
Theorem C94_initializer_output_is_a_recipe :
  forall (M G E : Type) rd rl parallel_build (seed_engine : Z -> Z -> G)
    (facts : manifold_facts M) construct write
    show_double show_long read_double doubles (clock : E -> text) help version shown,
  (forall n t r a b, only_appends (construct n t r a b)) -> (forall m d, only_appends (write m d)) ->
  reads_back doubles show_double read_double ->
  let main := init_main rd rl parallel_build seed_engine facts construct
    (speak show_double show_long clock help version shown) write in
  forall a entropy e out e' code,
  i_help a = false -> i_version a = false -> 0 <= effective_seed (i_seed a) entropy ->
  doubles (i_radius a) -> doubles (i_spacing a) ->
  main (inl a) entropy ([], e) = Ret (out, e') code ->
  (out = [] /\ e' = e /\ code = EXIT_FAILURE /\
   forall c, ~ accepted_initial rd rl parallel_build a (effective_seed (i_seed a) entropy) c) \/
  exists a', init_recipe read_double (i_output a) out = Some a' /\
    i_seed a' = Some (effective_seed (i_seed a) entropy) /\
    forall entropy' w, main (inl a') entropy' w = main (inl a) entropy w.
Proof. exact @init_output_is_recipe. Qed.
Print Assumptions C94_initializer_output_is_a_recipe.

(** The warning of a run with fewer slices than asked for adds a line with both
    numbers; the last message of initialize adds a line with the number of simplices. *)
Theorem C94_warning : forall (M E : Type) show_double show_long clock help version shown wanted got out (e : E),
  exists t, speak (M := M) show_double show_long clock help version shown (TooFewSlices wanted got) (out, e) = Ret (out ++ t, e) tt /\
    read_listing warning_row t = Some [(wanted, got)].
Proof. exact @warning_told. Qed.
Print Assumptions C94_warning.
Theorem C94_count : forall (M E : Type) show_double show_long clock help version shown n out (e : E),
  exists t, speak (M := M) show_double show_long clock help version shown (FinalCount n) (out, e) = Ret (out ++ t, e) tt /\
    read_listing count_row t = Some [n].
Proof. exact @count_told. Qed.
Print Assumptions C94_count.
Example C94_warning_example : warning_row (B "You wanted 12 timeslices, but only got 9.") = Some (12, 9) /\ count_row (B "Final number of simplices: 640") = Some 640.
Proof. vm_compute. auto. Qed.

(** A printer of a few values, steps that print, and a run drawing the seed 5. *)
Definition toy_values : list (fp * text) :=
  [(Fin (QArith_base.Qmake 1 1), B "1"); (Fin (QArith_base.Qmake 6 10), B "0.6");
   (Fin (QArith_base.Qmake 11 10), B "1.1"); (Fin (QArith_base.Qmake 1 10), B "0.1")].
Definition toy_show (v : fp) : text :=
  match v with
  | Fin (QArith_base.Qmake 1 1) => B "1" | Fin (QArith_base.Qmake 6 10) => B "0.6"
  | Fin (QArith_base.Qmake 11 10) => B "1.1" | Fin (QArith_base.Qmake 1 10) => B "0.1" | _ => B "?"
  end.
Definition toy_read (t : text) : option fp :=
  match find (fun x => text_eqb (snd x) t) toy_values with Some (v, _) => Some v | None => None end.
Definition toy_says (t : text) (w : text * Z) : text * Z := (fst w ++ t, snd w + 1).
Definition toy_run (a : cdt_args) (entropy : Z) : res (text * Z) Z :=
  cdt_main (P := Z) ConfigProps.saturating ConfigProps.saturating false (fun seed stream => seed + stream) toy_geometry (toy_api false) toy_check
    (fun _ => toy_accept) toy_at_least toy_draw toy_probability PropsProgram.toy_facts
    (fun _ _ r _ _ w => Ret (toy_says (B "building") w) (10 + rnd_engine r)) (fun _ => true)
    (speak toy_show toy_show (fun _ => B "noon") [] [] (fun _ _ => B "listing"))
    (fun _ _ w => Ret (toy_says (B "report") w) tt)
    (fun _ _ w => Ret (toy_says (B "writing") w) tt) (inl a) entropy ([], 0).
Example C94_example_values : reads_back (fun v => In v (map fst toy_values)) toy_show toy_read.
Proof.
  intros v H. cbn [map fst toy_values In] in H.
  destruct H as [<-|[<-|[<-|[<-|[]]]]]; (split; [vm_compute; reflexivity|]);
    vm_compute; intros H; repeat (destruct H as [H|H]; [discriminate H|]); destruct H.
Qed.
Example C94_example : exists out e',
  toy_run (PropsProgram.toy_args None false) 5 = Ret (out, e') EXIT_SUCCESS /\
  cdt_recipe toy_read toy_read false out = Some (ProgramFacts.with_seed (PropsProgram.toy_args None false) 5) /\
  toy_run (ProgramFacts.with_seed (PropsProgram.toy_args None false) 5) 77 = Ret (out, e') EXIT_SUCCESS /\
  firstn 64 out = B "Topology is spherical" ++ [NL] ++ B "Dimensionality: 2+1" ++ [NL] ++ B "Initial radius: 1" ++ [NL] ++ B "Foli".
Proof. do 2 eexists. split; [vm_compute; reflexivity|]. vm_compute. auto. Qed.
