(** Sample manifolds with coordinates: a small face and a large one. *)
From Verif Require Import Base Config ConfigSpec Tracker Command Geom Simplex Pachner Foliation Moves Links MoveTools MoveSpec MoveCore Manifold ManifoldFacts ManifoldMoves MoveProps FoliationSpec ViewerScene Radii RadiiSpec RadiiFacts Centroid CentroidSpec CentroidFacts Samples SampleFacts.
From stdpp Require Import fin_sets gmap.
From Coq Require Import QArith QArith.Qabs QArith.Qround Lqa Lia.
From Verif Require Import Base Config ConfigSpec Tracker Command Geom Simplex Pachner Foliation Moves Links MoveTools MoveSpec MoveCore Manifold ManifoldFacts ManifoldMoves MoveProps FoliationSpec ViewerScene Radii RadiiSpec RadiiFacts Centroid CentroidSpec CentroidFacts Samples SampleFacts.
Local Open Scope Z_scope.

(** A square root that can be computed: the largest multiple of 2^-1500 below it. *)
Definition down_sqrt (x : fp) : fp :=
  match x with
  | Fin q => if Qle_bool 0 q then Fin (inject_Z (Z.sqrt (Qfloor (q * inject_Z (2 ^ 3000)))) * (1 # (2 ^ 1500))) else NaN
  | Inf false => Inf false
  | _ => NaN
  end.
Lemma down_sqrt_ok : sqrt_ok down_sqrt.
Proof.
  intros q Q0 Q1. unfold down_sqrt. apply Qle_bool_iff in Q0 as Q0'. rewrite Q0'.
  set (n := Qfloor (q * inject_Z (2 ^ 3000))). set (s := Z.sqrt n). eexists. split; [reflexivity|].
  assert (N0 : 0 <= n). { unfold n. rewrite <- (Qfloor_Z 0). apply Qfloor_resp_le. apply Qmult_le_0_compat; [exact Q0|]. vm_compute. discriminate. }
  pose proof (Z.sqrt_spec n N0) as (A & B). fold s in A, B. pose proof (Z.sqrt_nonneg n) as S0. fold s in S0.
  pose proof (Qfloor_le (q * inject_Z (2 ^ 3000))) as F1. pose proof (Qlt_floor (q * inject_Z (2 ^ 3000))) as F2. fold n in F1, F2.
  assert (A' : (inject_Z s * inject_Z s <= inject_Z n)%Q) by (rewrite <- inject_Z_mult, <- Zle_Qle; lia).
  assert (B' : (inject_Z (n + 1) <= (inject_Z s + 1) * (inject_Z s + 1))%Q).
  { change 1%Q with (inject_Z 1). rewrite <- inject_Z_plus, <- inject_Z_mult, <- Zle_Qle. lia. }
  assert (S0' : (0 <= inject_Z s)%Q) by (change 0%Q with (inject_Z 0); rewrite <- Zle_Qle; exact S0).
  set (k := inject_Z (2 ^ 3000)) in *. set (h := (1 # 2 ^ 1500)%Q).
  assert (K : (k * (h * h) == 1)%Q) by (vm_compute; reflexivity).
  assert (H0 : (0 < h)%Q) by (vm_compute; reflexivity).
  assert (HH : (0 < h * h)%Q) by (apply Qmult_lt_0_compat; exact H0).
  assert (K0 : (0 < k)%Q) by (vm_compute; reflexivity).
  assert (SB : (inject_Z s <= pow2 2000)%Q).
  { apply Qnot_lt_le. intros L. assert (P : (0 < pow2 2000)%Q) by (vm_compute; reflexivity).
    assert (0 < (inject_Z s - pow2 2000) * (inject_Z s + pow2 2000))%Q by (apply Qmult_lt_0_compat; lra).
    assert (0 <= (pow2 1000 - q) * k)%Q by (apply Qmult_le_0_compat; lra).
    assert (PP : (pow2 1000 * k == pow2 2000 * pow2 2000)%Q) by (vm_compute; reflexivity).
    assert (X : (pow2 2000 * pow2 2000 < inject_Z s * inject_Z s)%Q) by lra.
    assert (Y : (q * k <= pow2 1000 * k)%Q) by lra. rewrite PP in Y. lra. }
  split; [apply Qmult_le_0_compat; lra|].
  assert (E1 : (inject_Z s * h * (inject_Z s * h) == inject_Z s * inject_Z s * (h * h))%Q) by ring. rewrite E1.
  assert (Eq : (q == q * k * (h * h))%Q) by (rewrite <- Qmult_assoc, K; ring).
  assert (U : (inject_Z s * inject_Z s * (h * h) <= q * k * (h * h))%Q).
  { apply Qmult_le_compat_r; [lra|apply Qlt_le_weak; exact HH]. }
  assert (D : (q * k * (h * h) <= (inject_Z s + 1) * (inject_Z s + 1) * (h * h))%Q).
  { apply Qmult_le_compat_r; [lra|apply Qlt_le_weak; exact HH]. }
  assert (D2 : ((2 * inject_Z s + 1) * (h * h) <= (2 * pow2 2000 + 1) * (h * h))%Q).
  { apply Qmult_le_compat_r; [lra|apply Qlt_le_weak; exact HH]. }
  assert (D3 : ((2 * pow2 2000 + 1) * (h * h) <= pow2 (-900))%Q) by (vm_compute; discriminate).
  assert (P51 : (0 <= pow2 (-51) * q)%Q) by (apply Qmult_le_0_compat; [vm_compute; discriminate|exact Q0]).
  rewrite <- Eq in U, D. apply Qabs_Qle_condition. split; lra.
Qed.
(** Exact arithmetic in lowest terms. *)
Definition lowest (q : Q) : fp := Fin (Qred q).
Lemma lowest_double : ieee_double lowest.
Proof.
  intros q _. exists (Qred q). split; [reflexivity|]. rewrite Qred_correct.
  assert (E : (q - q == 0)%Q) by ring. rewrite E. change (Qabs 0) with 0%Q.
  assert (0 <= pow2 (-53) * Qabs q)%Q by (apply Qmult_le_0_compat; [vm_compute; discriminate|apply Qabs_nonneg]).
  assert (0 <= pow2 (-1074))%Q by (vm_compute; discriminate). lra.
Qed.
Lemma lowest_monotone : monotone lowest.
Proof. intros p q H. unfold lowest. cbn. apply Qle_bool_iff. rewrite !Qred_correct. exact H. Qed.
Lemma lowest_zero : exact lowest 0.
Proof. vm_compute. reflexivity. Qed.

(** The integer points of a table of [Samples]. *)
Definition place (pts : list point) (v : vertex) : point3 :=
  let '(x, y, z) := point_of pts v in mkPoint3 (fpz x) (fpz y) (fpz z).

(** Three points of slice 3 of radius 27 around (25,5,-5), which is in slice 3 as
    well, below (15,3,-3) of slice 2 and (35,7,-7) of slice 4; spacing 9. *)
Definition pts_92 : list point := [(15, 3, -3); (23, 10, -10); (25, 5, -5); (26, -2, -7); (26, 7, 2); (35, 7, -7)].
Definition W_92 : world := exact_world pts_92 9.
Definition m_92 : manifold := sample 9
  [[2; 3; 5; 6]; [3; 5; 6; 7]; [1; 2; 3; 5]; [1; 2; 3; 6]; [1; 2; 5; 6]; [1; 7; 3; 5]; [1; 7; 3; 6]; [1; 7; 5; 6]]%positive.
Definition m_92' : manifold := sample 9
  [[2; 3; 5; 4]; [2; 3; 4; 6]; [2; 4; 5; 6]; [3; 5; 4; 7]; [3; 4; 6; 7]; [4; 5; 6; 7];
   [1; 2; 3; 5]; [1; 2; 3; 6]; [1; 2; 5; 6]; [1; 7; 3; 5]; [1; 7; 3; 6]; [1; 7; 5; 6]]%positive.
Example sample_92 : is_done m_92' (do_26 W_92 plain no_escape m_92 tt) = true /\
  is_structurally_correct W_92 m_92 = true /\ check_move W_92 m_92 m_92' TWO_SIX = true.
Proof. vm_compute. auto. Qed.
Lemma moved_m92 : moved W_92 plain no_escape TWO_SIX m_92 m_92'.
Proof. apply is_done_Moved; [apply no_escape_modelled|reflexivity..|exact (proj1 sample_92)]. Qed.

(** All vertices of the tables, and all their faces of one slice. *)
Definition face_list (W : world) (m : manifold) : list (vertex * vertex * vertex) :=
  let vs := [2; 3; 4; 5; 6; 7]%positive in
  List.filter (fun '(a, b, c) => Pos.ltb a b && Pos.ltb b c &&
     existsb (fun s => bool_decide (of_list [a; b; c] ⊆ s)) (elements (m_cells m)) && (label_of W m a =? label_of W m b) && (label_of W m b =? label_of W m c))
    (List.flat_map (fun a => List.flat_map (fun b => List.map (fun c => (a, b, c)) vs) vs) vs).
Lemma face_listed W m a b c t : (forall s v, s ∈ m_cells m -> v ∈ s -> (v <= 7)%positive) -> slice_face W m a b c t -> In (a, b, c) (face_list W m).
Proof.
  intros B (L1 & L2 & F & (s & Hs & Sub) & La & Lb & Lc). 
  assert (M : forall v, In v [a; b; c] -> In v [2; 3; 4; 5; 6; 7]%positive).
  { intros v Hv. assert (v <> infinite) by (intros ->; apply F; apply elem_of_list_In; exact Hv).
    assert (v <= 7)%positive by (apply (B s); [exact Hs|]; apply Sub; rewrite elem_of_of_list; apply elem_of_list_In; exact Hv).
    unfold infinite in *. assert (v = 2 \/ v = 3 \/ v = 4 \/ v = 5 \/ v = 6 \/ v = 7)%positive as K by lia. cbn. intuition. }
  unfold face_list. apply List.filter_In. split.
  - apply in_flat_map. exists a. split; [apply M; cbn; auto|]. apply in_flat_map. exists b. split; [apply M; cbn; auto|].
    apply in_map. apply M. cbn. auto.
  - rewrite !andb_true_iff, !Pos.ltb_lt, !Z.eqb_eq. repeat split; try assumption; try congruence.
    apply existsb_exists. exists s. split; [apply elem_of_list_In, elem_of_elements; exact Hs|]. apply bool_decide_eq_true. exact Sub.
Qed.
Lemma table_bound m : forallb (fun s => forallb (fun v => Pos.leb v 7) (elements s)) (elements (m_cells m)) = true ->
  forall s v, s ∈ m_cells m -> v ∈ s -> (v <= 7)%positive.
Proof.
  intros H s v Hs Hv. rewrite forallb_forall in H. specialize (H s). rewrite forallb_forall in H.
  apply Pos.leb_le. apply H; apply elem_of_list_In, elem_of_elements; assumption.
Qed.
Lemma faces_92 : face_list W_92 m_92 = [(3, 5, 6)%positive].
Proof. vm_compute. reflexivity. Qed.
Lemma faces_30 : face_list W_30 m_30 = [(3, 4, 7)%positive].
Proof. vm_compute. reflexivity. Qed.

Definition right_label (W : world) (m : manifold) (pts : list point) (v : vertex) : bool :=
  match vertex_time lowest down_sqrt (place pts v) (m_radius m) (m_spacing m) with Some t => t =? label_of W m v | None => true end.
Lemma coordinates_of W m pts : length pts = 6%nat -> (forall s v, s ∈ m_cells m -> v ∈ s -> (v <= 7)%positive) ->
  (forall v, (7 < v)%positive -> label_of W m v = label_of W m 8) ->
  forallb (right_label W m pts) [2; 3; 4; 5; 6; 7; 8]%positive = true ->
  (forall a b c, In (a, b, c) (face_list W m) ->
     w_centroid W (of_list [a; b; c]) <> infinite /\ place pts (w_centroid W (of_list [a; b; c])) = centroid lowest (place pts a) (place pts b) (place pts c)) ->
  coordinates W m lowest down_sqrt (place pts).
Proof.
  intros N B D H C. split.
  - intros v t Fv E. rewrite forallb_forall in H. unfold infinite in Fv.
    assert (v <= 7 \/ 7 < v)%positive as [L|L] by lia.
    + assert (In v [2; 3; 4; 5; 6; 7; 8]%positive) as K. { assert (v = 2 \/ v = 3 \/ v = 4 \/ v = 5 \/ v = 6 \/ v = 7)%positive as K by lia. cbn. intuition. }
      specialize (H v K). unfold right_label in H. rewrite E in H. apply Z.eqb_eq in H. congruence.
    + specialize (H 8%positive). unfold right_label in H. 
      assert (EP : place pts v = place pts 8).
      { unfold place, point_of. rewrite !nth_overflow; [reflexivity|rewrite N; lia|rewrite N; lia]. }
      rewrite <- EP, E in H. rewrite (D v L). apply Z.eqb_eq in H; [congruence|cbn; auto 10].
  - intros a b c t SF. apply C. apply (face_listed W m a b c t); assumption.
Qed.
Lemma beyond pts s m v : length pts = 6%nat -> (7 < v)%positive -> label_of (exact_world pts s) m v = label_of (exact_world pts s) m 8.
Proof. intros N L. unfold label_of. cbn [w_timevalue exact_world]. unfold point_of. rewrite !nth_overflow; [reflexivity|rewrite N; lia|rewrite N; lia]. Qed.

Lemma coordinates_92 : coordinates W_92 m_92 lowest down_sqrt (place pts_92).
Proof.
  apply coordinates_of; [reflexivity|apply table_bound; vm_compute; reflexivity|intros v L; apply beyond; [reflexivity|exact L]|vm_compute; reflexivity|].
  intros a b c H. rewrite faces_92 in H. destruct H as [[= <- <- <-]|[]]. split; [vm_compute; discriminate|vm_compute; reflexivity].
Qed.
Lemma coordinates_30 : coordinates W_30 m_30 lowest down_sqrt (place pts_30).
Proof.
  apply coordinates_of; [reflexivity|apply table_bound; vm_compute; reflexivity|intros v L; apply beyond; [reflexivity|exact L]|vm_compute; reflexivity|].
  intros a b c H. rewrite faces_30 in H. destruct H as [[= <- <- <-]|[]]. split; [vm_compute; discriminate|vm_compute; reflexivity].
Qed.

(** The face of each of them is on the sphere of slice 3 and small, or large. *)
Lemma face_92 a b c i : slice_face W_92 m_92 a b c (i + 1) ->
  in_range 9 9 i /\ on_slice lowest 9 9 i (place pts_92 a) (place pts_92 b) (place pts_92 c) /\
  small_triangle 9 9 i (place pts_92 a) (place pts_92 b) (place pts_92 c).
Proof.
  intros SF. assert (L : label_of W_92 m_92 a = i + 1) by apply SF.
  apply face_listed in SF; [|apply table_bound; vm_compute; reflexivity]. rewrite faces_92 in SF. destruct SF as [[= <- <- <-]|[]].
  assert (i = 2). { assert (E : label_of W_92 m_92 3 = 3) by (vm_compute; reflexivity). lia. } subst i. clear L.
  split; [|split].
  - unfold in_range. repeat split; vm_compute; try discriminate; reflexivity.
  - exists 27%Q. split; [vm_compute; reflexivity|]. split; [|split]; eexists _, _, _; (split; [repeat split|vm_compute; discriminate]).
  - exists 486%Q. split; [|vm_compute; discriminate]. exists 162%Q, 162%Q, 162%Q.
    split; [|split; [|split; [|reflexivity]]]; eexists _, _, _, _, _, _; (split; [repeat split|split; [repeat split|vm_compute; reflexivity]]).
Qed.
Lemma face_30 a b c i : slice_face W_30 m_30 a b c (i + 1) ->
  in_range 8 8 i /\ on_slice lowest 8 8 i (place pts_30 a) (place pts_30 b) (place pts_30 c) /\
  large_triangle 8 8 i (place pts_30 a) (place pts_30 b) (place pts_30 c).
Proof.
  intros SF. assert (L : label_of W_30 m_30 a = i + 1) by apply SF.
  apply face_listed in SF; [|apply table_bound; vm_compute; reflexivity]. rewrite faces_30 in SF. destruct SF as [[= <- <- <-]|[]].
  assert (i = 2). { assert (E : label_of W_30 m_30 3 = 3) by (vm_compute; reflexivity). lia. } subst i. clear L.
  split; [|split].
  - unfold in_range. repeat split; vm_compute; try discriminate; reflexivity.
  - exists 24%Q. split; [vm_compute; reflexivity|]. split; [|split]; eexists _, _, _; (split; [repeat split|vm_compute; discriminate]).
  - exists 3456%Q. split; [|vm_compute; discriminate]. exists 1152%Q, 1152%Q, 1152%Q.
    split; [|split; [|split; [|reflexivity]]]; eexists _, _, _, _, _, _; (split; [repeat split|split; [repeat split|vm_compute; reflexivity]]).
Qed.
