(** Reading the listings of a triangulation (C95). *)
From Verif Require Import Base Config Text TranscriptSpec Repair.
Local Open Scope Z_scope.
Local Open Scope list_scope.

(** A row: words, decimal numbers, and free text up to a closing bracket. *)
Inductive part : Type := Word (t : text) | Int | Inside.
Inductive value : Type := VInt (z : Z) | VText (t : text).
Definition CLOSE : Z := 41.
Fixpoint read_row (ps : list part) (t : text) : option (list value) :=
  match ps with
  | [] => match t with [] => Some [] | _ => None end
  | Word w :: ps => match strip_prefix w t with Some r => read_row ps r | None => None end
  | Int :: ps => match read_number t with
                 | Some (n, r) => match read_row ps r with Some l => Some (VInt n :: l) | None => None end
                 | None => None
                 end
  | Inside :: ps => match find_char CLOSE t with
                    | Some (p, r) => match read_row ps (CLOSE :: r) with Some l => Some (VText p :: l) | None => None end
                    | None => None
                    end
  end.
(** All rows of a text. *)
Fixpoint read_rows {A : Type} (row : text -> option A) (ls : list text) : option (list A) :=
  match ls with
  | [] => Some []
  | l :: ls => match row l, read_rows row ls with Some a, Some r => Some (a :: r) | _, _ => None end
  end.
Definition read_listing {A : Type} (row : text -> option A) (t : text) : option (list A) :=
  match split_lines t with Some ls => read_rows row ls | None => None end.

(** A vertex of a cell: the point and the time shown at index [j]. *)
Definition corner (j : Z) (l : text) : option (text * Z) :=
  match read_row [Word (B "Vertex("); Int; Word (B ") Point: ("); Inside; Word (B ") Timevalue: "); Int] l with
  | Some [VInt i; VText p; VInt t] => if i =? j then Some (p, t) else None
  | _ => None
  end.
(** A cell: its class and its four corners. *)
Record shown_cell : Type := mkShown { sc_class : Z; sc_corners : list (text * Z) }.
Definition read_cell (l0 l1 l2 l3 l4 l5 : text) : option shown_cell :=
  match read_row [Word (B "Cell info => "); Int] l0, corner 0 l1, corner 1 l2, corner 2 l3, corner 3 l4, text_eqb l5 (B "---") with
  | Some [VInt k], Some a, Some b, Some c, Some d, true => Some (mkShown k [a; b; c; d])
  | _, _, _, _, _, _ => None
  end.
Fixpoint read_blocks (ls : list text) : option (list shown_cell) :=
  match ls with
  | [] => Some []
  | l0 :: l1 :: l2 :: l3 :: l4 :: l5 :: ls =>
      match read_cell l0 l1 l2 l3 l4 l5, read_blocks ls with Some c, Some r => Some (c :: r) | _, _ => None end
  | _ => None
  end.
Definition read_cells (t : text) : option (list shown_cell) :=
  match split_lines t with Some ls => read_blocks ls | None => None end.
(** The neighbours of a cell, in order of the opposite vertex. *)
Definition read_neighbor (j : Z) (l0 l1 l2 l3 l4 l5 : text) : option shown_cell :=
  match strip_prefix (B "Neighboring cell ") l0 with
  | Some r => match read_number r with
              | Some (i, c :: r) => if (i =? j) && (c =? 58) then read_cell r l1 l2 l3 l4 l5 else None
              | _ => None
              end
  | None => None
  end.
Fixpoint read_neighbors (j : Z) (ls : list text) : option (list shown_cell) :=
  match ls with
  | [] => Some []
  | l0 :: l1 :: l2 :: l3 :: l4 :: l5 :: ls =>
      match read_neighbor j l0 l1 l2 l3 l4 l5, read_neighbors (j + 1) ls with Some c, Some r => Some (c :: r) | _, _ => None end
  | _ => None
  end.
(** The class the times of four corners call for: [k] of them on slice t, the others
    on t+1. *)
Definition shows (low : nat) (c : shown_cell) : Prop :=
  exists t, Forall (fun x => snd x = t \/ snd x = t + 1) (sc_corners c) /\
    length (List.filter (fun x => snd x =? t) (sc_corners c)) = low.

(** A vertex: point, time, expected time. *)
Definition vertex_row (l : text) : option (text * Z * Z) :=
  match read_row [Word (B "Vertex Point: ("); Inside; Word (B ") Timevalue: "); Int; Word (B " Expected Timevalue: "); Int] l with
  | Some [VText p; VInt t; VInt e] => Some (p, t, e)
  | _ => None
  end.
(** An edge: timelike or not. *)
Definition edge_row (l : text) : option bool :=
  if text_eqb l (B "==> timelike") then Some true else if text_eqb l (B "==> spacelike") then Some false else None.
(** An edge with its ends: index, point, time. *)
Definition ends_row (l : text) : option ((Z * text * Z) * (Z * text * Z)) :=
  match read_row [Word (B "Edge: Vertex("); Int; Word (B ") Point("); Inside; Word (B ") Timevalue: "); Int;
                  Word (B " -> Vertex("); Int; Word (B ") Point("); Inside; Word (B ") Timevalue: "); Int] l with
  | Some [VInt i; VText p; VInt t; VInt j; VText q; VInt u] => Some ((i, p, t), (j, q, u))
  | _ => None
  end.
(** A slice and its number of faces. *)
Definition slice_row (l : text) : option (Z * Z) :=
  match read_row [Word (B "Timeslice "); Int; Word (B " has "); Int; Word (B " spacelike faces.")] l with
  | Some [VInt t; VInt n] => Some (t, n)
  | _ => None
  end.
(** Vertices, edges, faces, simplices. *)
Definition totals_row (l : text) : option (Z * Z * Z * Z) :=
  match read_row [Word (B "Triangulation has "); Int; Word (B " vertices and "); Int; Word (B " edges and "); Int;
                  Word (B " faces and "); Int; Word (B " simplices.")] l with
  | Some [VInt a; VInt b; VInt c; VInt d] => Some (a, b, c, d)
  | _ => None
  end.
(** Points are printed without line breaks and brackets. *)
Definition plain (point_to_str : positive -> text) : Prop :=
  forall v, ~ In NL (point_to_str v) /\ ~ In CLOSE (point_to_str v).
(** How many elements have a property. *)
Definition number_of {A : Type} (p : A -> bool) (l : list A) : nat := length (List.filter p l).
