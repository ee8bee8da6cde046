(** The texts behind the two fingerprints: what is hashed, written out from the
    triangulation alone (C97). *)
From Verif Require Import Base Text Persist.
From Coq Require Import Permutation.
Local Open Scope Z_scope.
Local Open Scope list_scope.

(** A printer of coordinates that tells the coordinates in use apart and prints
    bytes other than the separators ',' ':' ';' and 0xFF (for "{:.17g}": digits,
    '+', '-', '.', 'e', "inf", "nan"). *)
Definition coordinate_byte (c : Z) : Prop := 0 <= c < 255 /\ c <> 44 /\ c <> 58 /\ c <> 59.
Definition separating (number : fp -> Prop) (print : fp -> text) : Prop :=
  (forall x, number x -> Forall coordinate_byte (print x)) /\
  (forall x y, number x -> number y -> print x = print y -> x = y).
(** The points of the vertices have such coordinates. *)
Definition numbers (number : fp -> Prop) (vs : list (point * Z)) : Prop :=
  Forall (fun v => let '(x, y, z) := fst v in number x /\ number y /\ number z) vs.

Section Print.
Variable print : fp -> text.
(** "x,y,z" *)
Definition point_text (p : point) : text :=
  let '(x, y, z) := p in print x ++ [44] ++ print y ++ [44] ++ print z.
(** "v:x,y,z:timevalue" *)
Definition vertex_text (v : point * Z) : text := B "v:" ++ point_text (fst v) ++ [58] ++ print_int (snd v).
(** Every record is followed by the byte 0xFF. *)
Definition ended (records : list text) : text := concat (map (fun r => r ++ [255]) records).

(** The text of a placement: the vertex records, in some order. *)
Definition placement_text (order : list (point * Z)) : text := ended (map vertex_text order).

(** "p;q;r;s": points joined by ';'. *)
Fixpoint points_text (ps : list point) : text :=
  match ps with
  | [] => []
  | [p] => point_text p
  | p :: r => point_text p ++ [59] ++ points_text r
  end.
(** "c:corners:type", the corners in some order. *)
Definition cell_text (t : tri) (c : list nat * Z) (l : text) : Prop :=
  exists corners, Permutation (map Some corners) (map (fun i => option_map fst (nth_error (t_verts t) i)) (fst c)) /\
    l = B "c:" ++ points_text corners ++ [58] ++ print_int (snd c).
(** One record per vertex and per cell, in some order. *)
Definition text_by_points (t : tri) (b : text) : Prop :=
  exists cells records, Forall2 (cell_text t) (t_cells t) cells /\
    Permutation records (map vertex_text (t_verts t) ++ cells) /\ b = ended records.

(** When points coincide, vertices and cells are numbered together in some
    order and each record lists the numbers of the incident ones:
    "length:record:neighbors=n;n;...". *)
Definition node : Type := (nat + nat)%type.   (* vertex i, cell c *)
Definition numbering (t : tri) (order : list node) : Prop :=
  Permutation order (map inl (seq 0 (length (t_verts t))) ++ map inr (seq 0 (length (t_cells t)))).
Definition numbered_text (base : text) (ns : list nat) : text :=
  print_unsigned (Z.of_nat (length base)) ++ [58] ++ base ++ B ":neighbors="
  ++ concat (map (fun n => print_unsigned (Z.of_nat n) ++ [59]) ns).
(** How often vertex [i] occurs in cell [c]. *)
Definition incidences (t : tri) (i c : nat) : nat :=
  match nth_error (t_cells t) c with Some (vs, _) => count_occ Nat.eq_dec vs i | None => 0 end.
Definition node_text (t : tri) (order : list node) (x : node) (l : text) : Prop :=
  match x with
  | inl i => exists v cs ns, nth_error (t_verts t) i = Some v /\
      (forall c, count_occ Nat.eq_dec cs c = incidences t i c) /\
      Forall2 (fun c n => nth_error order n = Some (inr c)) cs ns /\
      l = numbered_text (vertex_text v) ns
  | inr c => exists vs lab is ns, nth_error (t_cells t) c = Some (vs, lab) /\
      Permutation is vs /\
      Forall2 (fun i n => nth_error order n = Some (inl i)) is ns /\
      l = numbered_text (B "c:" ++ print_int lab) ns
  end.
Definition text_by_incidence (t : tri) (b : text) : Prop :=
  exists order records, numbering t order /\ Forall2 (node_text t order) order records /\ b = ended records.

(** The text of a triangulation. *)
Definition topology_text (t : tri) (b : text) : Prop :=
  (NoDup (map fst (t_verts t)) /\ text_by_points t b) \/
  (~ NoDup (map fst (t_verts t)) /\ text_by_incidence t b).
End Print.
