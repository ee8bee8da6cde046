(** The image passes of src/cdt-viewer.cpp: face outlines, foreground count.
    A QImage converted to Format_RGBA8888 is its scan lines, each a list of
    bytes (red, green, blue, alpha per pixel). A QRgb is the four channels.
    [None] is undefined behaviour: a read or write outside a scan line, or a
    signed overflow of the offset. *)
From Verif Require Import Base.
Local Open Scope Z_scope.

(** QRgb / QColor::rgba(). *)
Record px : Type := mkPx { red : Z; green : Z; blue : Z; alpha : Z }.
#[export] Instance px_eq_dec : EqDecision px.
Proof. solve_decision. Defined.

(** QImage::width(), height(), scanLine(y). *)
Record image : Type := mkImage { im_width : nat; im_height : nat; im_rows : list (list Z) }.

(** src/cdt-viewer.cpp:795-800 [color_distance]. *)
Definition color_distance (p q : px) : Z :=
  Z.abs (red p - red q) + Z.abs (green p - green q) + Z.abs (blue p - blue q).
(** src/cdt-viewer.cpp:802 [RGBA_CHANNELS]. *)
Definition RGBA_CHANNELS : nat := 4.
(** [x * RGBA_CHANNELS] in int. *)
Definition pixel_offset (x : nat) : option nat :=
  if in_int32b (Z.of_nat x * Z.of_nat RGBA_CHANNELS) then Some (x * RGBA_CHANNELS)%nat else None.
(** src/cdt-viewer.cpp:804-809 [rgba_pixel]. *)
Definition rgba_pixel (row : list Z) (x : nat) : option px :=
  offset ← pixel_offset x;
  r ← row !! offset; g ← row !! (offset + 1)%nat; b ← row !! (offset + 2)%nat; a ← row !! (offset + 3)%nat;
  Some (mkPx r g b a).
(** src/cdt-viewer.cpp:811-818 [set_rgba_pixel]; static_cast<uchar> of a
    channel keeps it: channels are bytes. *)
Definition set_rgba_pixel (row : list Z) (x : nat) (c : px) : option (list Z) :=
  offset ← pixel_offset x;
  if (offset + 3 <? length row)%nat
  then Some (<[(offset + 3)%nat := alpha c]> (<[(offset + 2)%nat := blue c]>
              (<[(offset + 1)%nat := green c]> (<[offset := red c]> row))))
  else None.
(** A write through scanLine(y). *)
Definition set_in_rows (rows : list (list Z)) (y x : nat) (c : px) : option (list (list Z)) :=
  row ← rows !! y; row' ← set_rgba_pixel row x c; Some (<[y := row']> rows).

(** A for loop whose body may be undefined. *)
Fixpoint loop {A S : Type} (body : A -> S -> option S) (l : list A) (s : S) : option S :=
  match l with [] => Some s | a :: r => s' ← body a s; loop body r s' end.

Section Outline.
(** render.edge_color, render.point_color, the threshold, the tolerance, and
    [render.line_width > 1.0F]. *)
Context (edge point : px) (threshold tolerance : Z) (wide : bool).

(** src/cdt-viewer.cpp:847-851: the lambda [boundary_with]. *)
Definition boundary_with (color neighbor : px) : bool :=
  negb (alpha neighbor =? 0) && (threshold <? color_distance color neighbor).

(** src/cdt-viewer.cpp:843-873: one pixel of the first pass; [lower]: the
    scan line below, if there is one. *)
Definition edge_body (src : image) (row : list Z) (lower : option (list Z)) (y x : nat) (out : list (list Z))
  : option (list (list Z)) :=
  color ← rgba_pixel row x;
  if alpha color =? 0 then Some out
  else
    right_boundary ← (if (x + 1 <? im_width src)%nat
                      then q ← rgba_pixel row (x + 1); Some (boundary_with color q) else Some false);
    lower_boundary ← (match lower with
                      | Some l => q ← rgba_pixel l x; Some (boundary_with color q)
                      | None => Some false end);
    if right_boundary || lower_boundary then
      out ← set_in_rows out y x edge;
      if wide then
        out ← (if (right_boundary : bool) then set_in_rows out y (x + 1) edge else Some out);
        (if lower_boundary && (y + 1 <? im_height src)%nat then set_in_rows out (y + 1) x edge else Some out)
      else Some out
    else Some out.
(** [source.constScanLine(y)], or the null pointer outside the image. *)
Definition scan_line (src : image) (inside : bool) (y : nat) : option (option (list Z)) :=
  if inside then row ← im_rows src !! y; Some (Some row) else Some None.
(** src/cdt-viewer.cpp:835-874: the first pass over one line. *)
Definition edge_line (src : image) (y : nat) (out : list (list Z)) : option (list (list Z)) :=
  row ← im_rows src !! y;
  lower ← scan_line src (y + 1 <? im_height src)%nat (y + 1);
  loop (edge_body src row lower y) (seq 0 (im_width src)) out.
(** src/cdt-viewer.cpp:877-880: the lambda [is_point]. *)
Definition is_point (c : px) : bool := negb (alpha c =? 0) && (color_distance c point <=? tolerance).
(** [is_point(rgba_pixel(row, x))]. *)
Definition point_at (row : list Z) (x : nat) : option bool := c ← rgba_pixel row x; Some (is_point c).
(** A short-circuit && of a test already true with one that may be undefined. *)
Definition and_then (a : option bool) (b : option bool) : option bool :=
  x ← a; if (x : bool) then b else Some false.
(** src/cdt-viewer.cpp:889-903: one pixel of the second pass. *)
Definition point_body (src : image) (row : list Z) (upper lower : option (list Z)) (y x : nat)
  (out : list (list Z)) : option (list (list Z)) :=
  p ← point_at row x;
  if negb p then Some out
  else
    interior ← (match upper, lower with
                | Some u, Some l =>
                    if (0 <? x)%nat && (x + 1 <? im_width src)%nat
                    then and_then (and_then (and_then (point_at row (x - 1)) (point_at row (x + 1)))
                                     (point_at u x)) (point_at l x)
                    else Some false
                | _, _ => Some false
                end);
    if negb interior then set_in_rows out y x edge else Some out.
(** src/cdt-viewer.cpp:881-904: the second pass over one line. *)
Definition point_line (src : image) (y : nat) (out : list (list Z)) : option (list (list Z)) :=
  row ← im_rows src !! y;
  upper ← scan_line src (0 <? y)%nat (y - 1);
  lower ← scan_line src (y + 1 <? im_height src)%nat (y + 1);
  loop (point_body src row upper lower y) (seq 0 (im_width src)) out.
(** src/cdt-viewer.cpp:831-904: both passes on a copy of the source. *)
Definition outline (src : image) : option image :=
  out ← loop (edge_line src) (seq 0 (im_height src)) (im_rows src);
  out ← loop (point_line src) (seq 0 (im_height src)) out;
  Some (mkImage (im_width src) (im_height src) out).
End Outline.

(** src/cdt-viewer.cpp:912-933 [foreground_pixels]. *)
Definition foreground_pixels (background : px) (transparent : bool) (im : image) : option nat :=
  loop (fun y n => row ← im_rows im !! y;
          loop (fun x n => c ← rgba_pixel row x;
                  Some (if (if transparent : bool then negb (alpha c =? 0) else negb (bool_decide (c = background)))
                        then S n else n)) (seq 0 (im_width im)) n)
    (seq 0 (im_height im)) 0%nat.
