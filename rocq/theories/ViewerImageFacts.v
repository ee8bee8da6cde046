(** Proofs about the image passes. *)
From Verif Require Import Base ViewerImage ViewerImageSpec.
From stdpp Require Import list_numbers.
Local Open Scope Z_scope.

Definition shape (w h : nat) (rows : list (list Z)) : Prop :=
  length rows = h /\ (forall row, row ∈ rows -> length row = (4 * w)%nat).
Definition pix (rows : list (list Z)) (x y : nat) : option px := row ← rows !! y; rgba_pixel row x.

Section W.
Context (w h : nat) (Hw : 4 * Z.of_nat w <= INT32_MAX).

Lemma offset_ok x : (x < w)%nat -> pixel_offset x = Some (x * 4)%nat.
Proof using Hw.
  intros Hx. unfold pixel_offset, RGBA_CHANNELS. unfold INT32_MAX in *.
  assert (E : in_int32b (Z.of_nat x * Z.of_nat 4) = true); [|by rewrite E].
  apply in_int32b_spec. unfold in_int32, INT32_MIN, INT32_MAX. lia.
Qed.
Lemma read_ok row x : length row = (4 * w)%nat -> (x < w)%nat ->
  exists r g b a, rgba_pixel row x = Some (mkPx r g b a) /\ row !! (4 * x)%nat = Some r /\
    row !! (4 * x + 1)%nat = Some g /\ row !! (4 * x + 2)%nat = Some b /\ row !! (4 * x + 3)%nat = Some a.
Proof using Hw.
  intros L Hx. unfold rgba_pixel. rewrite (offset_ok x Hx). cbn [mbind option_bind].
  replace (x * 4)%nat with (4 * x)%nat by lia.
  destruct (lookup_lt_is_Some_2 row (4 * x)) as [r R]; [lia|].
  destruct (lookup_lt_is_Some_2 row (4 * x + 1)) as [g G]; [lia|].
  destruct (lookup_lt_is_Some_2 row (4 * x + 2)) as [b Bl]; [lia|].
  destruct (lookup_lt_is_Some_2 row (4 * x + 3)) as [a A]; [lia|].
  exists r, g, b, a. rewrite R, G, Bl, A. cbn. auto.
Qed.
Lemma set_ok row x c : length row = (4 * w)%nat -> (x < w)%nat ->
  exists row', set_rgba_pixel row x c = Some row' /\ length row' = (4 * w)%nat /\
    rgba_pixel row' x = Some c /\ forall x', (x' < w)%nat -> x' <> x -> rgba_pixel row' x' = rgba_pixel row x'.
Proof using Hw.
  intros L Hx. unfold set_rgba_pixel. rewrite (offset_ok x Hx). cbn [mbind option_bind].
  assert (E : (x * 4 + 3 <? length row)%nat = true) by (apply Nat.ltb_lt; lia). rewrite E.
  eexists. split; [reflexivity|]. split; [by rewrite !insert_length|]. split.
  - unfold rgba_pixel. rewrite (offset_ok x Hx). cbn [mbind option_bind].
    set (row' := <[(x * 4 + 3)%nat := alpha c]> _).
    assert (E0 : row' !! (x * 4)%nat = Some (red c)).
    { unfold row'. do 3 (rewrite list_lookup_insert_ne by lia). apply list_lookup_insert. lia. }
    assert (E1 : row' !! (x * 4 + 1)%nat = Some (green c)).
    { unfold row'. do 2 (rewrite list_lookup_insert_ne by lia). apply list_lookup_insert. rewrite ?insert_length. lia. }
    assert (E2 : row' !! (x * 4 + 2)%nat = Some (blue c)).
    { unfold row'. rewrite list_lookup_insert_ne by lia. apply list_lookup_insert. rewrite ?insert_length. lia. }
    assert (E3 : row' !! (x * 4 + 3)%nat = Some (alpha c)).
    { unfold row'. apply list_lookup_insert. rewrite ?insert_length. lia. }
    rewrite E0, E1, E2, E3. cbn. by destruct c.
  - intros x' Hx' N. unfold rgba_pixel. rewrite (offset_ok x' Hx'). cbn [mbind option_bind].
    by rewrite !list_lookup_insert_ne by lia.
Qed.

(** [b] is [a] with the positions [ws] set to [c]. *)
Definition painted (c : px) (ws : list (nat * nat)) (a b : list (list Z)) : Prop :=
  shape w h b /\ forall x y, (x < w)%nat -> (y < h)%nat -> pix b x y = if decide ((x, y) ∈ ws) then Some c else pix a x y.
Lemma painted_nil c a : shape w h a -> painted c [] a a.
Proof. intros S. split; [done|]. intros x y _ _. destruct (decide _) as [E|]; [by apply elem_of_nil in E|done]. Qed.
Lemma painted_app c l l' a b d : painted c l a b -> painted c l' b d -> painted c (l ++ l') a d.
Proof.
  intros [_ A] [S D]. split; [done|]. intros x y Hx Hy. rewrite (D x y Hx Hy), (A x y Hx Hy).
  destruct (decide ((x, y) ∈ l ++ l')) as [E|E]; destruct (decide ((x, y) ∈ l')) as [E1|E1];
    destruct (decide ((x, y) ∈ l)) as [E2|E2]; try done; rewrite elem_of_app in E; tauto.
Qed.
Lemma set_painted c rows x y : shape w h rows -> (x < w)%nat -> (y < h)%nat ->
  exists rows', set_in_rows rows y x c = Some rows' /\ painted c [(x, y)] rows rows'.
Proof using Hw.
  intros [L S] Hx Hy. destruct (lookup_lt_is_Some_2 rows y) as [row R]; [lia|].
  unfold set_in_rows. rewrite R. cbn [mbind option_bind].
  assert (Lr : length row = (4 * w)%nat) by (apply S; by eapply elem_of_list_lookup_2).
  destruct (set_ok row x c Lr Hx) as (row' & E & L' & P & O). rewrite E. cbn [mbind option_bind].
  eexists. split; [reflexivity|]. split.
  - split; [by rewrite insert_length|]. intros r Hr. apply elem_of_list_lookup_1 in Hr as [i Hi].
    destruct (decide (i = y)) as [-> | N].
    + rewrite list_lookup_insert in Hi by lia. by injection Hi as <-.
    + rewrite list_lookup_insert_ne in Hi by done. apply S. by eapply elem_of_list_lookup_2.
  - intros x' y' Hx' Hy'. unfold pix. destruct (decide (y' = y)) as [-> | N].
    + rewrite list_lookup_insert by lia. cbn [mbind option_bind]. rewrite R. cbn [mbind option_bind].
      destruct (decide (x' = x)) as [-> | Nx].
      * rewrite P. by rewrite decide_True by (apply elem_of_list_singleton; done).
      * rewrite (O x' Hx' Nx). rewrite decide_False; [done|]. rewrite elem_of_list_singleton. congruence.
    + rewrite list_lookup_insert_ne by done. rewrite decide_False; [done|].
      rewrite elem_of_list_singleton. congruence.
Qed.
Lemma loop_painted {A} (c : px) (body : A -> list (list Z) -> option (list (list Z))) (ws : A -> list (nat * nat)) l :
  (forall a, a ∈ l -> forall s, shape w h s -> exists s', body a s = Some s' /\ painted c (ws a) s s') ->
  forall s, shape w h s -> exists s', loop body l s = Some s' /\ painted c (flat_map ws l) s s'.
Proof.
  induction l as [|a l IH]; intros H s S.
  - exists s. split; [done|]. by apply painted_nil.
  - destruct (H a) with (s := s) as (s1 & E1 & P1); [left|done|].
    destruct IH with (s := s1) as (s2 & E2 & P2); [intros; apply H; [by right|done]|apply P1|].
    exists s2. cbn [loop]. rewrite E1. cbn [mbind option_bind]. split; [done|]. cbn [flat_map].
    by eapply painted_app.
Qed.
End W.

Lemma pixel_pix im x y : is_image im -> (x < im_width im)%nat -> (y < im_height im)%nat -> pixel im x y = pix (im_rows im) x y.
Proof.
  intros (L & S & Hw) Hx Hy. unfold pixel, pix.
  destruct (lookup_lt_is_Some_2 (im_rows im) y) as [row R]; [lia|]. rewrite R. cbn [mbind option_bind].
  destruct (read_ok (im_width im) Hw row x) as (r & g & b & a & E & E1 & E2 & E3 & E4);
    [apply S; by eapply elem_of_list_lookup_2|done|]. by rewrite E, E1, E2, E3, E4.
Qed.
Lemma pixel_inside im x y p : is_image im -> pixel im x y = Some p -> (x < im_width im)%nat /\ (y < im_height im)%nat.
Proof.
  intros (L & S & Hw) E. unfold pixel in E. destruct (im_rows im !! y) as [row|] eqn:R; [|done].
  assert (length row = (4 * im_width im)%nat) as Lr by (apply S; by eapply elem_of_list_lookup_2).
  apply lookup_lt_Some in R. rewrite L in R. split; [|done].
  destruct (row !! (4 * x)%nat) eqn:E1; [|done]. apply lookup_lt_Some in E1. lia.
Qed.
Lemma pixel_some im x y : is_image im -> (x < im_width im)%nat -> (y < im_height im)%nat -> is_Some (pixel im x y).
Proof.
  intros I Hx Hy. rewrite pixel_pix by done. destruct I as (L & S & Hw). unfold pix.
  destruct (lookup_lt_is_Some_2 (im_rows im) y) as [row R]; [lia|]. rewrite R. cbn [mbind option_bind].
  destruct (read_ok (im_width im) Hw row x) as (r & g & b & a & E & _);
    [apply S; by eapply elem_of_list_lookup_2|done|]. rewrite E. by eexists.
Qed.

Section Outline.
Context (edge point : px) (threshold tolerance : Z) (wide : bool) (im : image) (I : is_image im).
Notation w := (im_width im).
Notation h := (im_height im).
Notation con := (contrasting threshold im).

Lemma row_some y : (y < h)%nat -> exists row, im_rows im !! y = Some row /\ length row = (4 * w)%nat.
Proof using I.
  intros Hy. destruct I as (L & S & _). destruct (lookup_lt_is_Some_2 (im_rows im) y) as [row R]; [lia|].
  exists row. split; [done|]. apply S. by eapply elem_of_list_lookup_2.
Qed.
Lemma read_pixel y row x : im_rows im !! y = Some row -> (x < w)%nat -> rgba_pixel row x = pixel im x y.
Proof using I.
  intros R Hx. assert (y < h)%nat by (destruct I as (L & _); rewrite <- L; by eapply lookup_lt_Some).
  rewrite pixel_pix by done. unfold pix. by rewrite R.
Qed.

(** Executable forms of the specification. *)
Definition conb (x y x' y' : nat) : bool :=
  match pixel im x y, pixel im x' y' with
  | Some p, Some q => negb (alpha p =? 0) && (negb (alpha q =? 0) && (threshold <? color_distance p q))
  | _, _ => false
  end.
Lemma conb_spec x y x' y' : conb x y x' y' = true <-> con x y x' y'.
Proof.
  unfold conb, contrasting, opaque. change contrast with color_distance.
  destruct (pixel im x y) as [p|]; [|split; [done|intros (? & ? & [=] & _)]].
  destruct (pixel im x' y') as [q|]; [|split; [done|intros (? & ? & _ & [=] & _)]].
  rewrite !andb_true_iff, !negb_true_iff, !Z.eqb_neq, Z.ltb_lt. split.
  - intros (A & B & C). exists p, q. auto.
  - intros (? & ? & [= <-] & [= <-] & A & B & C). auto.
Qed.
Definition markb (x y : nat) : bool :=
  match pixel im x y with Some p => is_point point tolerance p | None => false end.
Lemma markb_spec x y : markb x y = true <-> marked point tolerance im x y.
Proof.
  unfold markb, marked, opaque. change contrast with color_distance.
  destruct (pixel im x y) as [p|]; [|split; [done|intros (? & [=] & _)]].
  unfold is_point. rewrite andb_true_iff, negb_true_iff, Z.eqb_neq, Z.leb_le. split.
  - intros (A & B). exists p. auto.
  - intros (? & [= <-] & A & B). auto.
Qed.

Definition edge_writes (y x : nat) : list (nat * nat) :=
  let r := conb x y (x + 1) y in let l := conb x y x (y + 1) in
  if r || l then (x, y) :: (if wide then (if r then [(x + 1, y)%nat] else []) ++ (if l then [(x, y + 1)%nat] else []) else [])
  else [].
Lemma conb_inside x y x' y' : conb x y x' y' = true -> (x' < w)%nat /\ (y' < h)%nat.
Proof using I.
  intros C. apply conb_spec in C as (p & q & _ & Q & _). by eapply pixel_inside.
Qed.
Lemma edge_body_ok row lower y x : (y < h)%nat -> (x < w)%nat -> im_rows im !! y = Some row ->
  scan_line im (y + 1 <? h)%nat (y + 1) = Some lower ->
  forall s, shape w h s -> exists s', edge_body edge threshold wide im row lower y x s = Some s' /\
    painted w h edge (edge_writes y x) s s'.
Proof using I.
  intros Hy Hx R Lo s S. assert (Hw : 4 * Z.of_nat w <= INT32_MAX) by apply I.
  unfold edge_body. rewrite (read_pixel y row x R Hx).
  destruct (pixel_some im x y I Hx Hy) as [p P]. rewrite P. cbn [mbind option_bind].
  unfold edge_writes.
  destruct (alpha p =? 0) eqn:Al.
  { assert (N : forall a b, conb x y a b = false).
    { intros a b. unfold conb. rewrite P. destruct (pixel im a b); [|done]. by rewrite Al. }
    rewrite !N. cbn [orb]. exists s. split; [done|]. by apply painted_nil. }
  assert (Rt : (if (x + 1 <? w)%nat then q ← rgba_pixel row (x + 1); Some (boundary_with threshold p q) else Some false)
               = Some (conb x y (x + 1) y)).
  { destruct (Nat.ltb_spec (x + 1) w) as [H|H].
    - rewrite (read_pixel y row (x + 1) R H). destruct (pixel_some im (x + 1) y I H Hy) as [q Q].
      unfold conb. rewrite P, Q. cbn [mbind option_bind]. by rewrite Al.
    - destruct (conb x y (x + 1) y) eqn:C; [|done]. apply conb_inside in C. lia. }
  rewrite Rt. cbn [mbind option_bind].
  assert (Lt : match lower with Some l => q ← rgba_pixel l x; Some (boundary_with threshold p q) | None => Some false end
               = Some (conb x y x (y + 1))).
  { unfold scan_line in Lo. destruct (Nat.ltb_spec (y + 1) h) as [H|H].
    - destruct (row_some (y + 1) H) as (row' & R' & _). rewrite R' in Lo. cbn [mbind option_bind] in Lo.
      injection Lo as <-. rewrite (read_pixel _ row' x R' Hx). destruct (pixel_some im x (y + 1) I Hx H) as [q Q].
      unfold conb. rewrite P, Q. cbn [mbind option_bind]. by rewrite Al.
    - injection Lo as <-. destruct (conb x y x (y + 1)) eqn:C; [|done]. apply conb_inside in C. lia. }
  rewrite Lt. cbn [mbind option_bind].
  destruct (conb x y (x + 1) y) eqn:Cr; destruct (conb x y x (y + 1)) eqn:Cl; cbn [orb];
    try (exists s; split; [done|]; by apply painted_nil).
  all: destruct (set_painted w h Hw edge s x y S Hx Hy) as (s1 & E1 & P1); rewrite E1; cbn [mbind option_bind];
    destruct wide; [|exists s1; split; done].
  all: try (apply conb_inside in Cr as [Cr _]); try (apply conb_inside in Cl as [_ Cl]).
  - destruct (set_painted w h Hw edge s1 (x + 1) y) as (s2 & E2 & P2); [apply P1|done|done|]. rewrite E2. cbn [mbind option_bind].
    assert (E : (y + 1 <? h)%nat = true) by (apply Nat.ltb_lt; lia). rewrite E. cbn [andb].
    destruct (set_painted w h Hw edge s2 x (y + 1)) as (s3 & E3 & P3); [apply P2|done|lia|]. exists s3. split; [done|].
    apply (painted_app w h edge [(x, y)] [((x + 1)%nat, y); (x, (y + 1)%nat)] s s1 s3 P1).
    by apply (painted_app w h edge [((x + 1)%nat, y)] [(x, (y + 1)%nat)] s1 s2 s3 P2).
  - destruct (set_painted w h Hw edge s1 (x + 1) y) as (s2 & E2 & P2); [apply P1|done|done|]. rewrite E2. cbn [mbind option_bind].
    exists s2. split; [done|]. by apply (painted_app w h edge [(x, y)] [((x + 1)%nat, y)] s s1 s2 P1).
  - assert (E : (y + 1 <? h)%nat = true) by (apply Nat.ltb_lt; lia). rewrite E. cbn [andb mbind option_bind].
    destruct (set_painted w h Hw edge s1 x (y + 1)) as (s2 & E2 & P2); [apply P1|done|lia|]. exists s2. split; [done|].
    by apply (painted_app w h edge [(x, y)] [(x, (y + 1)%nat)] s s1 s2 P1).
Qed.
Lemma scan_line_some inside y : (inside = true -> (y < h)%nat) -> exists l, scan_line im inside y = Some l.
Proof using I.
  intros H. unfold scan_line. destruct inside; [|by eexists].
  destruct (row_some y (H eq_refl)) as (row & R & _). rewrite R. by eexists.
Qed.
Lemma edge_line_ok y : (y < h)%nat -> forall s, shape w h s ->
  exists s', edge_line edge threshold wide im y s = Some s' /\ painted w h edge (flat_map (edge_writes y) (seq 0 w)) s s'.
Proof using I.
  intros Hy s S. unfold edge_line. destruct (row_some y Hy) as (row & R & _). rewrite R. cbn [mbind option_bind].
  destruct (scan_line_some (y + 1 <? h)%nat (y + 1)) as [l E]; [by intros ?%Nat.ltb_lt|]. rewrite E. cbn [mbind option_bind].
  apply (loop_painted w h edge _ (edge_writes y)); [|done].
  intros x Hx s' S'. apply elem_of_seq in Hx. apply edge_body_ok; auto; lia.
Qed.

Definition surroundedb (x y : nat) : bool :=
  (0 <? x)%nat && (0 <? y)%nat && markb (x - 1) y && markb (x + 1) y && markb x (y - 1) && markb x (y + 1).
Lemma surroundedb_spec x y : surroundedb x y = true <-> surrounded point tolerance im x y.
Proof.
  unfold surroundedb, surrounded. rewrite !andb_true_iff, !markb_spec, !Nat.ltb_lt. tauto.
Qed.
Definition point_writes (y x : nat) : list (nat * nat) :=
  if markb x y && negb (surroundedb x y) then [(x, y)] else [].
Lemma markb_inside x y : markb x y = true -> (x < w)%nat /\ (y < h)%nat.
Proof using I.
  unfold markb. destruct (pixel im x y) eqn:E; [|done]. intros _. by eapply pixel_inside.
Qed.
Lemma point_at_ok row y x : im_rows im !! y = Some row -> (x < w)%nat -> point_at point tolerance row x = Some (markb x y).
Proof using I.
  intros R Hx. unfold point_at, markb. rewrite (read_pixel y row x R Hx).
  assert (Hy : (y < h)%nat) by (destruct I as (L & _); rewrite <- L; by eapply lookup_lt_Some).
  destruct (pixel_some im x y I Hx Hy) as [p P]. by rewrite P.
Qed.
Lemma point_body_ok row upper lower y x : (y < h)%nat -> (x < w)%nat -> im_rows im !! y = Some row ->
  scan_line im (0 <? y)%nat (y - 1) = Some upper -> scan_line im (y + 1 <? h)%nat (y + 1) = Some lower ->
  forall s, shape w h s -> exists s', point_body edge point tolerance im row upper lower y x s = Some s' /\
    painted w h edge (point_writes y x) s s'.
Proof using I.
  intros Hy Hx R Up Lo s S. assert (Hw : 4 * Z.of_nat w <= INT32_MAX) by apply I.
  unfold point_body. rewrite (point_at_ok row y x R Hx). cbn [mbind option_bind]. unfold point_writes.
  destruct (markb x y) eqn:M; cbn [negb andb]; [|exists s; split; [done|by apply painted_nil]].
  assert (In : match upper, lower with
            | Some u, Some l =>
                if (0 <? x)%nat && (x + 1 <? w)%nat
                then and_then (and_then (and_then (point_at point tolerance row (x - 1)) (point_at point tolerance row (x + 1)))
                                 (point_at point tolerance u x)) (point_at point tolerance l x)
                else Some false
            | _, _ => Some false
            end = Some (surroundedb x y)).
  { unfold surroundedb. unfold scan_line in Up, Lo. destruct (Nat.ltb_spec 0 y) as [Y0|Y0].
    2:{ injection Up as <-. by rewrite andb_false_r. }
    destruct (row_some (y - 1)) as (u & Ru & _); [lia|]. rewrite Ru in Up. cbn [mbind option_bind] in Up. injection Up as <-.
    destruct (Nat.ltb_spec (y + 1) h) as [Y1|Y1].
    2:{ injection Lo as <-. destruct (markb x (y + 1)) eqn:E; [apply markb_inside in E; lia|]. by rewrite andb_false_r. }
    destruct (row_some (y + 1)) as (l & Rl & _); [lia|]. rewrite Rl in Lo. cbn [mbind option_bind] in Lo. injection Lo as <-.
    destruct (Nat.ltb_spec 0 x) as [X0|X0]; [|done]. cbn [andb].
    destruct (Nat.ltb_spec (x + 1) w) as [X1|X1].
    2:{ destruct (markb (x + 1) y) eqn:E; [apply markb_inside in E; lia|]. by rewrite andb_false_r. }
    rewrite (point_at_ok row y (x - 1) R) by lia. rewrite (point_at_ok row y (x + 1) R) by lia.
    rewrite (point_at_ok u (y - 1) x Ru) by lia. rewrite (point_at_ok l (y + 1) x Rl) by lia.
    unfold and_then. cbn [mbind option_bind].
    destruct (markb (x - 1) y), (markb (x + 1) y), (markb x (y - 1)); reflexivity. }
  rewrite In. cbn [mbind option_bind]. destruct (surroundedb x y); cbn [negb].
  - exists s. split; [done|by apply painted_nil].
  - by apply set_painted.
Qed.
Lemma point_line_ok y : (y < h)%nat -> forall s, shape w h s ->
  exists s', point_line edge point tolerance im y s = Some s' /\ painted w h edge (flat_map (point_writes y) (seq 0 w)) s s'.
Proof using I.
  intros Hy s S. unfold point_line. destruct (row_some y Hy) as (row & R & _). rewrite R. cbn [mbind option_bind].
  destruct (scan_line_some (0 <? y)%nat (y - 1)) as [u Eu]; [intros ?%Nat.ltb_lt; lia|]. rewrite Eu. cbn [mbind option_bind].
  destruct (scan_line_some (y + 1 <? h)%nat (y + 1)) as [l E]; [by intros ?%Nat.ltb_lt|]. rewrite E. cbn [mbind option_bind].
  apply (loop_painted w h edge _ (point_writes y)); [|done].
  intros x Hx s' S'. apply elem_of_seq in Hx. apply point_body_ok; auto; lia.
Qed.

Definition all_writes : list (nat * nat) :=
  flat_map (fun y => flat_map (edge_writes y) (seq 0 w)) (seq 0 h) ++
  flat_map (fun y => flat_map (point_writes y) (seq 0 w)) (seq 0 h).
Lemma outline_painted : exists rows, outline edge point threshold tolerance wide im = Some (mkImage w h rows) /\
  painted w h edge all_writes (im_rows im) rows.
Proof using I.
  assert (S : shape w h (im_rows im)) by (destruct I as (A & Bq & _); by split).
  unfold outline.
  destruct (loop_painted w h edge (edge_line edge threshold wide im) (fun y => flat_map (edge_writes y) (seq 0 w)) (seq 0 h))
    with (s := im_rows im) as (s1 & E1 & P1); [|done|].
  { intros y Hy s Ss. apply elem_of_seq in Hy. apply edge_line_ok; [lia|done]. }
  rewrite E1. cbn [mbind option_bind].
  destruct (loop_painted w h edge (point_line edge point tolerance im) (fun y => flat_map (point_writes y) (seq 0 w)) (seq 0 h))
    with (s := s1) as (s2 & E2 & P2); [|apply P1|].
  { intros y Hy s Ss. apply elem_of_seq in Hy. apply point_line_ok; [lia|done]. }
  rewrite E2. cbn [mbind option_bind]. exists s2. split; [done|]. by eapply painted_app.
Qed.

Lemma in_flat_grid (f : nat -> nat -> list (nat * nat)) a b :
  (a, b) ∈ flat_map (fun y => flat_map (f y) (seq 0 w)) (seq 0 h) <->
  exists x y, (x < w)%nat /\ (y < h)%nat /\ (a, b) ∈ f y x.
Proof.
  rewrite elem_of_list_In, in_flat_map. setoid_rewrite in_flat_map. setoid_rewrite <- elem_of_list_In. split.
  - intros (y & Hy & x & Hx & H). apply elem_of_seq in Hy, Hx. exists x, y. repeat split; auto; lia.
  - intros (x & y & Hx & Hy & H). exists y. split; [apply elem_of_seq; lia|]. exists x. split; [apply elem_of_seq; lia|done].
Qed.
Lemma edge_writes_spec x y a b : (a, b) ∈ edge_writes y x <->
  (a = x /\ b = y /\ (con x y (x + 1) y \/ con x y x (y + 1))) \/
  (wide = true /\ a = (x + 1)%nat /\ b = y /\ con x y (x + 1) y) \/
  (wide = true /\ a = x /\ b = (y + 1)%nat /\ con x y x (y + 1)).
Proof.
  unfold edge_writes. rewrite <- !conb_spec.
  destruct (conb x y (x + 1) y), (conb x y x (y + 1)), wide; cbn [orb app];
    rewrite ?elem_of_cons, ?elem_of_nil, ?pair_equal_spec; intuition congruence.
Qed.
Lemma con_inside x y x' y' : con x y x' y' -> (x < w)%nat /\ (y < h)%nat.
Proof using I. intros (p & q & P & _). by eapply pixel_inside. Qed.
Lemma all_writes_spec x y : (x, y) ∈ all_writes <-> on_edge point threshold tolerance wide im x y.
Proof using I.
  unfold all_writes. rewrite elem_of_app, !in_flat_grid. unfold on_edge. split.
  - intros [(a & b & Ha & Hb & H) | (a & b & Ha & Hb & H)].
    + apply edge_writes_spec in H as [(-> & -> & [H|H]) | [(W & -> & -> & H) | (W & -> & -> & H)]]; auto.
      * right; right; left. repeat split; [done|lia|]. by replace (a + 1 - 1)%nat with a by lia.
      * right; right; right; left. repeat split; [done|lia|]. by replace (b + 1 - 1)%nat with b by lia.
    + unfold point_writes in H. destruct (markb a b && negb (surroundedb a b)) eqn:E; [|by apply elem_of_nil in H].
      apply elem_of_list_singleton in H. injection H as -> ->. apply andb_true_iff in E as [E1 E2].
      do 4 right. split; [by apply markb_spec|]. intros C. apply surroundedb_spec in C. rewrite C in E2. done.
  - intros [H | [H | [(W & X & H) | [(W & Y & H) | (M & N)]]]].
    + left. exists x, y. pose proof (con_inside _ _ _ _ H) as [? ?]. repeat split; [done..|]. apply edge_writes_spec. auto.
    + left. exists x, y. pose proof (con_inside _ _ _ _ H) as [? ?]. repeat split; [done..|]. apply edge_writes_spec. auto.
    + left. exists (x - 1)%nat, y. pose proof (con_inside _ _ _ _ H) as [? ?]. repeat split; [done..|].
      apply edge_writes_spec. right; left. replace (x - 1 + 1)%nat with x by lia. auto.
    + left. exists x, (y - 1)%nat. pose proof (con_inside _ _ _ _ H) as [? ?]. repeat split; [done..|].
      apply edge_writes_spec. right; right. replace (y - 1 + 1)%nat with y by lia. auto.
    + right. exists x, y. apply markb_spec in M. pose proof (markb_inside _ _ M) as [? ?]. repeat split; [done..|].
      unfold point_writes. rewrite M. destruct (surroundedb x y) eqn:E; [apply surroundedb_spec in E; tauto|].
      cbn. by apply elem_of_list_singleton.
Qed.
(** C72: what the outline passes do, pixel by pixel. *)
Lemma outline_exact : exists out, outline edge point threshold tolerance wide im = Some out /\
  is_image out /\ im_width out = w /\ im_height out = h /\
  forall x y p, pixel im x y = Some p ->
    (on_edge point threshold tolerance wide im x y -> pixel out x y = Some edge) /\
    (~ on_edge point threshold tolerance wide im x y -> pixel out x y = Some p).
Proof using I.
  destruct outline_painted as (rows & E & (S1 & S2) & P). exists (mkImage w h rows). split; [done|].
  assert (Io : is_image (mkImage w h rows)) by (split; [done|split; [done|apply I]]).
  split; [done|]. split; [done|]. split; [done|]. intros x y p Hp.
  pose proof (pixel_inside _ _ _ _ I Hp) as [Hx Hy].
  rewrite (pixel_pix _ _ _ Io Hx Hy). cbn [im_rows]. rewrite (P x y Hx Hy).
  rewrite <- all_writes_spec. rewrite <- (pixel_pix _ _ _ I Hx Hy), Hp.
  destruct (decide _); split; tauto.
Qed.
Lemma on_edge_opaque x y : on_edge point threshold tolerance wide im x y ->
  exists p, pixel im x y = Some p /\ opaque p.
Proof.
  intros [(p & q & ?) | [(p & q & ?) | [(_ & _ & p & q & ?) | [(_ & _ & p & q & ?) | ((p & ? & ?) & _)]]]];
    [exists p|exists p|exists q|exists q|exists p]; tauto.
Qed.
End Outline.

Lemma seq_S_end n : seq 0 (S n) = seq 0 n ++ [n].
Proof. by rewrite seq_S. Qed.

Section Count.
Context (background : px) (transparent : bool) (im : image) (I : is_image im).
Notation w := (im_width im).
Notation h := (im_height im).
Definition fgb (p : px) : bool :=
  if transparent then negb (alpha p =? 0) else negb (bool_decide (p = background)).
Lemma fgb_spec p : fgb p = true <-> foreground background transparent p.
Proof.
  unfold fgb, foreground, opaque. destruct transparent.
  - by rewrite negb_true_iff, Z.eqb_neq.
  - by rewrite negb_true_iff, bool_decide_eq_false.
Qed.
Definition fg_at (x y : nat) : bool := match pixel im x y with Some p => fgb p | None => false end.
Lemma loop_count {A} (body : A -> nat -> option nat) (k : A -> nat) l :
  (forall a, a ∈ l -> forall n, body a n = Some (n + k a)%nat) -> forall n, loop body l n = Some (n + list_sum (map k l))%nat.
Proof.
  induction l as [|a l IH]; intros H n; cbn [loop map].
  - change (list_sum []) with 0%nat. by rewrite Nat.add_0_r.
  - rewrite (H a) by left. cbn [mbind option_bind]. rewrite IH by (intros; apply H; by right).
    f_equal. change (list_sum (k a :: map k l)) with (k a + list_sum (map k l))%nat. lia.
Qed.
Definition row_list (y : nat) : list (nat * nat) := map (fun x => (x, y)) (List.filter (fun x => fg_at x y) (seq 0 w)).
Definition fg_list : list (nat * nat) := flat_map row_list (seq 0 h).
Lemma row_len y : length (row_list y) = list_sum (map (fun x => if fg_at x y then 1 else 0)%nat (seq 0 w)).
Proof.
  unfold row_list. rewrite map_length. induction (seq 0 w) as [|a l IH]; [done|].
  cbn [List.filter map]. change (list_sum (?a :: ?b)) with (a + list_sum b)%nat.
  destruct (fg_at a y); cbn [length]; lia.
Qed.
Lemma fg_len : length fg_list = list_sum (map (fun y => length (row_list y)) (seq 0 h)).
Proof. unfold fg_list. induction (seq 0 h) as [|a l IH]; [done|]. cbn [flat_map map]. rewrite app_length, IH. done. Qed.
Lemma foreground_counted : foreground_pixels background transparent im = Some (length fg_list).
Proof using I.
  unfold foreground_pixels.
  rewrite (loop_count _ (fun y => length (row_list y))).
  - by rewrite fg_len.
  - intros y Hy n. apply elem_of_seq in Hy. destruct (row_some im I y) as (row & R & L); [lia|]. rewrite R.
    cbn [mbind option_bind]. rewrite (loop_count _ (fun x => if fg_at x y then 1 else 0)%nat).
    + by rewrite row_len.
    + intros x Hx m. apply elem_of_seq in Hx. rewrite (read_pixel im I y row x R) by lia.
      destruct (pixel_some im x y I) as [p P]; [lia..|]. unfold fg_at. rewrite P. cbn [mbind option_bind].
      fold (fgb p). destruct (fgb p); f_equal; lia.
Qed.
Lemma fg_list_spec x y : (x, y) ∈ fg_list <-> exists p, pixel im x y = Some p /\ foreground background transparent p.
Proof using I.
  unfold fg_list, row_list. rewrite elem_of_list_In, in_flat_map. setoid_rewrite in_map_iff. setoid_rewrite filter_In.
  setoid_rewrite <- elem_of_list_In. unfold fg_at. split.
  - intros (y' & Hy & x' & [= -> ->] & Hx & F). destruct (pixel im x y) as [p|]; [|done]. exists p. split; [done|].
    by apply fgb_spec.
  - intros (p & P & F). pose proof (pixel_inside _ _ _ _ I P) as [Hx Hy]. exists y. split; [apply elem_of_seq; lia|].
    exists x. split; [done|]. split; [apply elem_of_seq; lia|]. rewrite P. by apply fgb_spec.
Qed.
Lemma fg_list_nodup : NoDup fg_list.
Proof.
  unfold fg_list. generalize (NoDup_seq 0 h). induction (seq 0 h) as [|a l IH]; intros N; cbn [flat_map]; [constructor|].
  apply NoDup_cons in N as [Na Nl]. apply NoDup_app. split; [|split; [|by apply IH]].
  - unfold row_list. apply NoDup_fmap_2; [intros ? ? [=]; done|]. apply NoDup_ListNoDup, List.NoDup_filter, NoDup_ListNoDup, NoDup_seq.
  - intros [x y] H1 H2. unfold row_list in *. apply elem_of_list_In, in_map_iff in H1 as (x1 & [= <- <-] & _).
    apply elem_of_list_In, in_flat_map in H2 as (y2 & Hy2 & H2). apply in_map_iff in H2 as (x2 & [= _ ->] & _).
    apply Na. by apply elem_of_list_In.
Qed.
Lemma foreground_exact : exists n, foreground_pixels background transparent im = Some n /\
  counts_pixels im (foreground background transparent) n.
Proof using I.
  exists (length fg_list). split; [apply foreground_counted|]. exists fg_list. split; [apply fg_list_nodup|]. split; [done|].
  intros x y. apply fg_list_spec.
Qed.
End Count.

(** Two counts of the same set agree. *)
Lemma counts_unique im im' (P Q : px -> Prop) n m :
  (forall x y, (exists p, pixel im x y = Some p /\ P p) <-> (exists p, pixel im' x y = Some p /\ Q p)) ->
  counts_pixels im P n -> counts_pixels im' Q m -> n = m.
Proof.
  intros E (l & N & <- & H) (l' & N' & <- & H'). apply Permutation_length, NoDup_Permutation; [done..|].
  intros [x y]. by rewrite H, H', E.
Qed.
(** Outlining with a visible edge colour keeps the foreground over a
    transparent background. *)
Lemma outline_keeps_foreground edge point threshold tolerance wide background im out n :
  is_image im -> opaque edge -> outline edge point threshold tolerance wide im = Some out ->
  foreground_pixels background true im = Some n -> foreground_pixels background true out = Some n.
Proof.
  intros I Op E F. destruct (outline_exact edge point threshold tolerance wide im I) as (out' & E' & Io & Ew & Eh & P).
  rewrite E in E'. injection E' as <-.
  destruct (foreground_exact background true im I) as (a & Ea & Ca). destruct (foreground_exact background true out Io) as (b & Eb & Cb).
  rewrite F in Ea. injection Ea as <-. rewrite Eb. f_equal. symmetry. refine (counts_unique im out _ _ _ _ _ Ca Cb). intros x y.
  cbn [foreground]. split.
  - intros (p & Hp & O). destruct (P x y p Hp) as [P1 P2].
    destruct (decide ((x, y) ∈ all_writes point threshold tolerance wide im)) as [D|D].
    + apply (all_writes_spec point threshold tolerance wide im I) in D. exists edge. auto.
    + rewrite (all_writes_spec point threshold tolerance wide im I) in D. exists p. auto.
  - intros (q & Hq & O). pose proof (pixel_inside _ _ _ _ Io Hq) as [Hx Hy]. rewrite Ew in Hx. rewrite Eh in Hy.
    destruct (pixel_some im x y I Hx Hy) as [p Hp]. exists p. split; [done|]. destruct (P x y p Hp) as [P1 P2].
    destruct (decide ((x, y) ∈ all_writes point threshold tolerance wide im)) as [D|D].
    + apply (all_writes_spec point threshold tolerance wide im I) in D. destruct (on_edge_opaque _ _ _ _ _ _ _ D) as (p' & ? & ?). congruence.
    + rewrite (all_writes_spec point threshold tolerance wide im I) in D. rewrite (P2 D) in Hq. by injection Hq as <-.
Qed.
