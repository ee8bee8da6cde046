(** File names of artifacts: include/Utilities.hpp:143-152 and 1616-1724. *)
From Verif Require Import Base Text TextFacts PersistSpec.
From Verif Require Geom RunCheckpoint.
Local Open Scope Z_scope.
Local Open Scope list_scope.

(** '/', ':', '.'. *)
Definition SLASH : Z := 47.
Definition COLON : Z := 58.
Definition DOT : Z := 46.

(** std::filesystem::path (POSIX): the parts of a path that does not end in a
    separator; "." and ".." as last component are not distinguished (a
    generated name starts with S or T). *)
Definition parent_path (p : text) : text := match rfind_char SLASH p with Some (a, _) => a | None => [] end.
Definition filename (p : text) : text := match rfind_char SLASH p with Some (_, b) => b | None => p end.
Definition stem (p : text) : text :=
  match rfind_char DOT (filename p) with Some (a, _) => if bool_decide (a = []) then filename p else a | None => filename p end.
Definition extension (p : text) : text :=
  match rfind_char DOT (filename p) with Some (a, b) => if bool_decide (a = []) then [] else DOT :: b | None => [] end.
Definition append_path (p q : text) : text := if bool_decide (p = []) then q else p ++ [SLASH] ++ q.

Section Names.
  (** std::to_string(double): "%f" in the current locale. *)
  Variable to_string : fp -> text.

  (** include/Utilities.hpp:1636-1678; [stamp] is what current_date_time
      (1619-1625) returned. *)
  Definition make_filename (top : Geom.Topology) (dimension simplices timeslices : Z) (radius spacing : fp) (stamp : text) : text :=
    (match top with Geom.SPHERICAL => B "S" | Geom.TOROIDAL => B "T" end) ++ print_int dimension ++ B "-" ++
    print_int timeslices ++ B "-" ++ print_int simplices ++ B "-I" ++ to_string radius ++ B "-R" ++ to_string spacing ++
    B "-" ++ map (fun c => if c =? COLON then MINUS else c) stamp ++ B ".off".

  Context {M : Type}.
  Variable x : RunCheckpoint.manifold_facts M.
  (** include/Utilities.hpp:1684-1691. *)
  Definition name_of (m : M) (stamp : text) : text :=
    make_filename (RunCheckpoint.mf_topology x) (RunCheckpoint.mf_dimension x) (RunCheckpoint.mf_N3 x m)
      (RunCheckpoint.mf_max_time x m) (RunCheckpoint.mf_radius x m) (RunCheckpoint.mf_spacing x m) stamp.
  (** include/Utilities.hpp:1698-1706. *)
  Definition name_seed (m : M) (stamp : text) (seed : Z) : text :=
    let base := name_of m stamp in
    append_path (parent_path base) (stem base ++ B "-seed-" ++ print_unsigned seed ++ extension base).
  (** include/Utilities.hpp:1714-1723. *)
  Definition name_pass (m : M) (stamp : text) (seed passes : Z) : text :=
    let base := name_seed m stamp seed in
    append_path (parent_path base) (stem base ++ B "-pass-" ++ print_int passes ++ extension base).

  (** include/Utilities.hpp:1912-1928: the name write_file(universe, metadata)
      writes to; [None]: it throws. *)
  Definition artifact_name (stamp : text) (f : M * Geom.Metadata) : option text :=
    match Geom.md_artifact (snd f) with
    | Geom.CHECKPOINT =>
        match Geom.md_completed_passes (snd f) with
        | None => None
        | Some n => Some (name_pass (fst f) stamp (Geom.md_seed (snd f)) n)
        end
    | _ => Some (name_seed (fst f) stamp (Geom.md_seed (snd f)))
    end.
End Names.

(** include/Utilities.hpp:146-152, 1526-1530: the four paths of one artifact. *)
Inductive role : Type := PayloadFile | SidecarFile | PayloadTemporary | SidecarTemporary.
Definition role_path (p : text) (r : role) : text :=
  match r with
  | PayloadFile => p
  | SidecarFile => p ++ B ".meta"
  | PayloadTemporary => p ++ B ".tmp"
  | SidecarTemporary => (p ++ B ".meta") ++ B ".tmp"
  end.

(** * Specification *)
(** Text of a finite floating-point value and time stamp: no separators. *)
Definition plain (t : text) : Prop := ~ In SLASH t.
Definition seed_ok (s : Z) : Prop := 0 <= s < two64.

(** * Proofs *)
Ltac chars := let I := fresh in intros I; vm_compute in I; repeat (destruct I as [I|I]; [discriminate I|]); exact I.
Lemma numeral10_chars t n c : numeral 10 t n -> In c t -> 48 <= c <= 57.
Proof.
  intros H. apply numeral_digits in H. rewrite List.Forall_forall in H. intros I. destruct (H _ I) as (d & A & [[_ ->]|[A1 _]]); lia.
Qed.
Lemma print_int_chars z c : In c (print_int z) -> c = 45 \/ 48 <= c <= 57.
Proof.
  unfold print_int. destruct (Z.ltb_spec z 0).
  - intros [<-|I]; [left; reflexivity|]. right. eapply numeral10_chars; [|exact I]. apply digits_numeral; lia.
  - intros I. right. eapply numeral10_chars; [|exact I]. apply digits_numeral; lia.
Qed.
Lemma print_unsigned_chars z c : 0 <= z -> In c (print_unsigned z) -> 48 <= c <= 57.
Proof. intros H I. eapply numeral10_chars; [|exact I]. apply digits_numeral; lia. Qed.
Lemma print_nonneg_chars z c : 0 <= z -> In c (print_int z) -> 48 <= c <= 57.
Proof. intros H. unfold print_int. destruct (Z.ltb_spec z 0); [lia|]. apply print_unsigned_chars. exact H. Qed.
Lemma print_int_inj a b : print_int a = print_int b -> a = b.
Proof.
  assert (D : forall u v, 0 <= u -> 0 <= v -> digits 10 u = digits 10 v -> u = v).
  { intros u v Hu Hv E. eapply (numeral_fun 10 (digits 10 u)); [lia|apply digits_numeral; lia|]. rewrite E. apply digits_numeral; lia. }
  assert (N : forall u v, 0 <= u -> digits 10 u = MINUS :: digits 10 v -> False).
  { intros u v Hu E. assert (I : In MINUS (digits 10 u)) by (rewrite E; left; reflexivity).
    assert (48 <= MINUS <= 57) by (eapply numeral10_chars; [|exact I]; apply digits_numeral; lia). unfold MINUS in *; lia. }
  unfold print_int. destruct (Z.ltb_spec a 0), (Z.ltb_spec b 0); intros E.
  - injection E as E. apply D in E; lia.
  - symmetry in E. apply N in E; [contradiction|lia].
  - apply N in E; [contradiction|lia].
  - apply D in E; lia.
Qed.
Lemma print_unsigned_inj a b : 0 <= a -> 0 <= b -> print_unsigned a = print_unsigned b -> a = b.
Proof.
  intros Ha Hb E. eapply (numeral_fun 10 (print_unsigned a)); [lia|apply digits_numeral; lia|]. rewrite E. apply digits_numeral; lia.
Qed.

(** Splitting at the last occurrence of a character is unique. *)
Lemma last_split (c : Z) (a b a' b' : list Z) : a ++ c :: b = a' ++ c :: b' -> ~ In c b -> ~ In c b' -> a = a' /\ b = b'.
Proof.
  intros E Hb Hb'. assert (R : rfind_char c (a ++ c :: b) = Some (a, b)) by (apply rfind_char_spec; auto).
  assert (R' : rfind_char c (a ++ c :: b) = Some (a', b')) by (apply rfind_char_spec; rewrite E; auto).
  rewrite R in R'. injection R' as -> ->. auto.
Qed.
Lemma first_split (c : Z) (a b a' b' : list Z) : a ++ c :: b = a' ++ c :: b' -> ~ In c a -> ~ In c a' -> a = a' /\ b = b'.
Proof.
  intros E Hb Hb'. assert (R : find_char c (a ++ c :: b) = Some (a, b)) by (apply find_char_spec; auto).
  assert (R' : find_char c (a ++ c :: b) = Some (a', b')) by (apply find_char_spec; rewrite E; auto).
  rewrite R in R'. injection R' as -> ->. auto.
Qed.

Lemma not_in_app {A} (x : A) l k : ~ In x l -> ~ In x k -> ~ In x (l ++ k).
Proof. intros H H' I. apply in_app_or in I. tauto. Qed.

(** A generated name [n ++ ".off"] without separators: its parts. *)
Lemma off_parts n : n <> [] -> ~ In SLASH n ->
  parent_path (n ++ B ".off") = [] /\ stem (n ++ B ".off") = n /\ extension (n ++ B ".off") = B ".off".
Proof.
  intros Hn Hs.
  assert (S1 : rfind_char SLASH (n ++ B ".off") = None).
  { apply rfind_char_none. apply not_in_app; [exact Hs|]. chars. }
  assert (S2 : rfind_char DOT (n ++ B ".off") = Some (n, B "off")).
  { apply rfind_char_spec. split; [reflexivity|]. chars. }
  unfold parent_path, stem, extension, filename. rewrite S1, S2.
  rewrite !bool_decide_eq_false_2 by exact Hn. split; [|split]; reflexivity.
Qed.

Lemma in_map_colon c t : In c (map (fun c => if c =? COLON then MINUS else c) t) -> c <> COLON /\ (c = MINUS \/ In c t).
Proof.
  intros H. apply in_map_iff in H. destruct H as (d & <- & I). destruct (Z.eqb_spec d COLON); [|auto].
  split; [unfold MINUS, COLON; lia|auto].
Qed.

Section Facts.
  Variable to_string : fp -> text.
  Hypothesis to_string_plain : forall v, ~ In SLASH (to_string v) /\ ~ In COLON (to_string v).
  Context {M : Type}.
  Variable x : RunCheckpoint.manifold_facts M.
  Notation name_of := (name_of to_string x).
  Notation name_seed := (name_seed to_string x).
  Notation name_pass := (name_pass to_string x).
  Notation artifact_name := (artifact_name to_string x).

  (** What comes before ".off". *)
  Definition base_stem (m : M) (stamp : text) : text :=
    (match RunCheckpoint.mf_topology x with Geom.SPHERICAL => B "S" | Geom.TOROIDAL => B "T" end) ++
    print_int (RunCheckpoint.mf_dimension x) ++ B "-" ++ print_int (RunCheckpoint.mf_max_time x m) ++ B "-" ++
    print_int (RunCheckpoint.mf_N3 x m) ++ B "-I" ++ to_string (RunCheckpoint.mf_radius x m) ++ B "-R" ++
    to_string (RunCheckpoint.mf_spacing x m) ++ B "-" ++ map (fun c => if c =? COLON then MINUS else c) stamp.

  Lemma name_of_stem m stamp : name_of m stamp = base_stem m stamp ++ B ".off".
  Proof using. unfold Names.name_of, make_filename, base_stem. rewrite <- !app_assoc. reflexivity. Qed.
  Lemma base_stem_plain m stamp : plain stamp ->
    base_stem m stamp <> [] /\ ~ In SLASH (base_stem m stamp) /\ ~ In COLON (base_stem m stamp).
  Proof using to_string_plain.
    intros P. split; [unfold base_stem; destruct (RunCheckpoint.mf_topology x); discriminate|].
    assert (K : forall c, c = SLASH \/ c = COLON -> ~ In c (base_stem m stamp)).
    { intros c Hc. unfold base_stem. repeat apply not_in_app.
      all: try (intros I; apply print_int_chars in I; unfold SLASH, COLON in *; lia).
      all: try (destruct Hc as [-> | ->]; chars).
      - destruct Hc as [-> | ->]; destruct (RunCheckpoint.mf_topology x); chars.
      - destruct (to_string_plain (RunCheckpoint.mf_radius x m)). destruct Hc as [-> | ->]; assumption.
      - destruct (to_string_plain (RunCheckpoint.mf_spacing x m)). destruct Hc as [-> | ->]; assumption.
      - intros I. apply in_map_colon in I. destruct I as [I1 [I2|I2]]; [unfold SLASH, COLON, MINUS in *; lia|].
        destruct Hc as [-> | ->]; [exact (P I2)|exact (I1 eq_refl)]. }
    split; apply K; auto.
  Qed.

  Definition seed_stem (m : M) (stamp : text) (seed : Z) : text := base_stem m stamp ++ B "-seed-" ++ print_unsigned seed.
  Definition pass_stem (m : M) (stamp : text) (seed n : Z) : text := seed_stem m stamp seed ++ B "-pass-" ++ print_int n.

  Lemma name_seed_stem m stamp seed : plain stamp -> name_seed m stamp seed = seed_stem m stamp seed ++ B ".off".
  Proof using to_string_plain.
    intros P. destruct (base_stem_plain m stamp P) as (A1 & A2 & _). destruct (off_parts _ A1 A2) as (E1 & E2 & E3).
    unfold Names.name_seed. rewrite name_of_stem. rewrite E1, E2, E3. unfold append_path. rewrite bool_decide_eq_true_2 by reflexivity.
    unfold seed_stem. rewrite <- !app_assoc. reflexivity.
  Qed.
  Lemma seed_stem_plain m stamp seed : plain stamp -> seed_ok seed ->
    seed_stem m stamp seed <> [] /\ ~ In SLASH (seed_stem m stamp seed) /\ ~ In COLON (seed_stem m stamp seed).
  Proof using to_string_plain.
    intros P So. destruct (base_stem_plain m stamp P) as (A1 & A2 & A3). unfold seed_stem. split.
    - destruct (base_stem m stamp); [contradiction|discriminate].
    - split; (apply not_in_app; [assumption|apply not_in_app; [chars|]]);
        intros I; apply print_unsigned_chars in I; unfold SLASH, COLON, seed_ok in *; lia.
  Qed.
  Lemma name_pass_stem m stamp seed n : plain stamp -> seed_ok seed -> name_pass m stamp seed n = pass_stem m stamp seed n ++ B ".off".
  Proof using to_string_plain.
    intros P So. destruct (seed_stem_plain m stamp seed P So) as (A1 & A2 & _). destruct (off_parts _ A1 A2) as (E1 & E2 & E3).
    unfold Names.name_pass. rewrite name_seed_stem by exact P. rewrite E1, E2, E3. unfold append_path. rewrite bool_decide_eq_true_2 by reflexivity.
    unfold pass_stem. rewrite <- !app_assoc. reflexivity.
  Qed.

  Lemma seed_stem_inj m stamp seed m' stamp' seed' : seed_ok seed -> seed_ok seed' ->
    seed_stem m stamp seed = seed_stem m' stamp' seed' -> base_stem m stamp = base_stem m' stamp' /\ seed = seed'.
  Proof using.
    intros S1 S2 E. unfold seed_stem in E.
    assert (R : forall b s, b ++ B "-seed-" ++ print_unsigned s = (b ++ B "-see") ++ 100 :: (MINUS :: print_unsigned s)).
    { intros b s. rewrite <- app_assoc. reflexivity. }
    rewrite !R in E. apply last_split in E.
    - destruct E as [E1 E2]. injection E2 as E2. split; [eapply app_inv_tail; exact E1|].
      apply print_unsigned_inj in E2; unfold seed_ok in *; lia.
    - intros [I|I]; [unfold MINUS in I; lia|]. apply print_unsigned_chars in I; unfold seed_ok in *; lia.
    - intros [I|I]; [unfold MINUS in I; lia|]. apply print_unsigned_chars in I; unfold seed_ok in *; lia.
  Qed.
  Lemma pass_stem_split b n : b ++ B "-pass-" ++ print_int n = (b ++ B "-pas") ++ 115 :: (MINUS :: print_int n).
  Proof using. rewrite <- app_assoc. reflexivity. Qed.
  Lemma pass_tail n : ~ In 115 (MINUS :: print_int n).
  Proof using. intros [I|I]; [unfold MINUS in I; lia|]. apply print_int_chars in I. lia. Qed.
  Lemma pass_stem_inj m stamp seed n m' stamp' seed' n' : seed_ok seed -> seed_ok seed' ->
    pass_stem m stamp seed n = pass_stem m' stamp' seed' n' ->
    base_stem m stamp = base_stem m' stamp' /\ seed = seed' /\ n = n'.
  Proof using.
    intros S1 S2 E. unfold pass_stem in E. rewrite !pass_stem_split in E. apply last_split in E; [|apply pass_tail|apply pass_tail].
    destruct E as [E1 E2]. injection E2 as E2. apply print_int_inj in E2. apply app_inv_tail in E1.
    apply seed_stem_inj in E1; auto. tauto.
  Qed.
  Lemma pass_seed_differ m stamp seed n m' stamp' seed' : seed_ok seed' ->
    pass_stem m stamp seed n <> seed_stem m' stamp' seed'.
  Proof using.
    intros S2 E. unfold pass_stem in E. rewrite pass_stem_split in E.
    assert (R : seed_stem m' stamp' seed' = (base_stem m' stamp' ++ B "-") ++ 115 :: (B "eed-" ++ print_unsigned seed')).
    { unfold seed_stem. rewrite <- app_assoc. reflexivity. }
    rewrite R in E. apply last_split in E; [|apply pass_tail|].
    - destruct E as [_ E2]. discriminate.
    - apply not_in_app; [chars|]. intros I. apply print_unsigned_chars in I; unfold seed_ok in *; lia.
  Qed.

  (** ** Results *)
  Lemma names_injective stamp f stamp' f' p :
    plain stamp -> plain stamp' -> seed_ok (Geom.md_seed (snd f)) -> seed_ok (Geom.md_seed (snd f')) ->
    artifact_name stamp f = Some p -> artifact_name stamp' f' = Some p ->
    Geom.md_seed (snd f) = Geom.md_seed (snd f') /\
    (Geom.md_artifact (snd f) = Geom.CHECKPOINT <-> Geom.md_artifact (snd f') = Geom.CHECKPOINT) /\
    (Geom.md_artifact (snd f) = Geom.CHECKPOINT -> Geom.md_completed_passes (snd f) = Geom.md_completed_passes (snd f')) /\
    base_stem (fst f) stamp = base_stem (fst f') stamp'.
  Proof using to_string_plain.
    intros P P' S1 S2 H H'. unfold Names.artifact_name in *.
    destruct (Geom.md_artifact (snd f)), (Geom.md_artifact (snd f')).
    all: try (destruct (Geom.md_completed_passes (snd f)) as [n|]; [|discriminate]).
    all: try (destruct (Geom.md_completed_passes (snd f')) as [n'|]; [|discriminate]).
    all: injection H as <-; injection H' as H'.
    all: rewrite ?name_seed_stem, ?name_pass_stem in H' by assumption; apply app_inv_tail in H'.
    all: first
      [ apply seed_stem_inj in H'; [|assumption|assumption]; destruct H' as [E1 E2]; repeat split; auto; discriminate
      | apply pass_stem_inj in H'; [|assumption|assumption]; destruct H' as (E1 & E2 & E3); repeat split; auto; congruence
      | exfalso; eapply pass_seed_differ; [|exact H']; assumption
      | exfalso; symmetry in H'; eapply pass_seed_differ; [|exact H']; assumption ].
  Qed.

  Lemma name_shape stamp f p : plain stamp -> seed_ok (Geom.md_seed (snd f)) -> artifact_name stamp f = Some p ->
    ~ In SLASH p /\ ~ In COLON p /\ exists q, p = q ++ B ".off".
  Proof using to_string_plain.
    intros P So H. unfold Names.artifact_name in H.
    assert (K : forall q, ~ In SLASH q -> ~ In COLON q -> ~ In SLASH (q ++ B ".off") /\ ~ In COLON (q ++ B ".off") /\ exists q', q ++ B ".off" = q' ++ B ".off").
    { intros q A1 A2. repeat split; [| |eauto]; apply not_in_app; auto; chars. }
    assert (K1 : ~ In SLASH (name_seed (fst f) stamp (Geom.md_seed (snd f))) /\ ~ In COLON (name_seed (fst f) stamp (Geom.md_seed (snd f))) /\
      exists q, name_seed (fst f) stamp (Geom.md_seed (snd f)) = q ++ B ".off").
    { rewrite name_seed_stem by exact P. destruct (seed_stem_plain (fst f) stamp _ P So) as (_ & A1 & A2). auto. }
    destruct (Geom.md_artifact (snd f)).
    - injection H as <-. exact K1.
    - destruct (Geom.md_completed_passes (snd f)) as [n|]; [|discriminate]. injection H as <-.
      rewrite name_pass_stem by assumption. destruct (seed_stem_plain (fst f) stamp _ P So) as (_ & A1 & A2).
      apply K; unfold pass_stem; apply not_in_app; auto; apply not_in_app; try chars;
        intros I; apply print_int_chars in I; unfold SLASH, COLON in *; lia.
    - injection H as <-. exact K1.
  Qed.
End Facts.

(** The name tells topology, dimension, slices and simplices. *)
Lemma base_stem_tells to_string {M} (x y : RunCheckpoint.manifold_facts M) m m' stamp stamp' :
  (forall v, ~ In MINUS (to_string v)) ->
  0 <= RunCheckpoint.mf_dimension x -> 0 <= RunCheckpoint.mf_dimension y ->
  0 <= RunCheckpoint.mf_max_time x m -> 0 <= RunCheckpoint.mf_max_time y m' ->
  0 <= RunCheckpoint.mf_N3 x m -> 0 <= RunCheckpoint.mf_N3 y m' ->
  base_stem to_string x m stamp = base_stem to_string y m' stamp' ->
  RunCheckpoint.mf_topology x = RunCheckpoint.mf_topology y /\
  RunCheckpoint.mf_dimension x = RunCheckpoint.mf_dimension y /\
  RunCheckpoint.mf_max_time x m = RunCheckpoint.mf_max_time y m' /\ RunCheckpoint.mf_N3 x m = RunCheckpoint.mf_N3 y m' /\
  to_string (RunCheckpoint.mf_radius x m) = to_string (RunCheckpoint.mf_radius y m') /\
  to_string (RunCheckpoint.mf_spacing x m) = to_string (RunCheckpoint.mf_spacing y m').
Proof.
  intros T D1 D2 T1 T2 N1 N2 E. unfold base_stem in E.
  assert (NM : forall z, 0 <= z -> ~ In MINUS (print_int z)).
  { intros z Hz I. apply print_nonneg_chars in I; [unfold MINUS in *; lia|exact Hz]. }
  assert (L : forall t : Geom.Topology, exists c, (match t with Geom.SPHERICAL => B "S" | Geom.TOROIDAL => B "T" end) = [c]).
  { intros []; eexists; reflexivity. }
  assert (E0 : RunCheckpoint.mf_topology x = RunCheckpoint.mf_topology y).
  { destruct (RunCheckpoint.mf_topology x), (RunCheckpoint.mf_topology y); auto; discriminate. }
  split; [exact E0|]. rewrite E0 in E. apply app_inv_head in E.
  change (B "-") with [MINUS] in E. change (B "-I") with [MINUS; 73] in E. change (B "-R") with [MINUS; 82] in E.
  cbn [app] in E.
  apply first_split in E; auto. destruct E as [E1 E]. apply print_int_inj in E1.
  apply first_split in E; auto. destruct E as [E2 E]. apply print_int_inj in E2.
  apply first_split in E; auto. destruct E as [E3 E]. apply print_int_inj in E3.
  injection E as E. apply first_split in E; auto. destruct E as [E4 E].
  injection E as E. apply first_split in E; auto. destruct E as [E5 E]. auto.
Qed.

(** The four paths of generated names never coincide. *)
Lemma role_paths_distinct p q r r' : (exists a, p = a ++ B ".off") -> (exists b, q = b ++ B ".off") ->
  role_path p r = role_path q r' -> p = q /\ r = r'.
Proof.
  intros (a & ->) (b & ->) H.
  destruct r, r'; cbn [role_path] in H; rewrite <- ?app_assoc in H.
  all: change (B ".off") with [46; 111; 102; 102] in *; change (B ".meta") with [46; 109; 101; 116; 97] in *;
    change (B ".tmp") with [46; 116; 109; 112] in *; cbn [app] in H.
  all: try (apply app_inv_tail in H; subst; split; reflexivity).
  all: exfalso; apply (f_equal (@rev Z)) in H; rewrite !rev_app_distr in H; cbn in H; discriminate.
Qed.
