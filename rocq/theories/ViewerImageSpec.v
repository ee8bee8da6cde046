(** What the image passes of the viewer are supposed to do, pixel by pixel. *)
From Verif Require Import Base ViewerImage.
Local Open Scope Z_scope.

(** The pixel in column [x] of line [y], if there is one. *)
Definition pixel (im : image) (x y : nat) : option px :=
  match im_rows im !! y with
  | Some row =>
      match row !! (4 * x)%nat, row !! (4 * x + 1)%nat, row !! (4 * x + 2)%nat, row !! (4 * x + 3)%nat with
      | Some r, Some g, Some b, Some a => Some (mkPx r g b a)
      | _, _, _, _ => None
      end
  | None => None
  end.
(** A QImage in format RGBA8888: [height] lines of [width] pixels; Qt refuses
    images whose lines exceed the range of int. *)
Definition is_image (im : image) : Prop :=
  length (im_rows im) = im_height im /\
  (forall row, row ∈ im_rows im -> length row = (4 * im_width im)%nat) /\
  4 * Z.of_nat (im_width im) <= INT32_MAX.
(** Sum of the channel differences. *)
Definition contrast (p q : px) : Z :=
  Z.abs (red p - red q) + Z.abs (green p - green q) + Z.abs (blue p - blue q).
Definition opaque (p : px) : Prop := alpha p <> 0.

Section Spec.
Context (edge point : px) (threshold tolerance : Z) (wide : bool) (im : image).
(** Two visible pixels differ by more than the threshold. *)
Definition contrasting (x y x' y' : nat) : Prop :=
  exists p q, pixel im x y = Some p /\ pixel im x' y' = Some q /\ opaque p /\ opaque q /\ threshold < contrast p q.
(** A visible pixel of (about) the colour of the vertices. *)
Definition marked (x y : nat) : Prop :=
  exists p, pixel im x y = Some p /\ opaque p /\ contrast p point <= tolerance.
(** Its four neighbours are marked too. *)
Definition surrounded (x y : nat) : Prop :=
  (0 < x)%nat /\ (0 < y)%nat /\ marked (x - 1) y /\ marked (x + 1) y /\ marked x (y - 1) /\ marked x (y + 1).
(** Pixels to be given the edge colour: a face boundary runs between the pixel
    and its right or lower neighbour; for wide lines also the pixel on the other
    side; and the rim of a vertex mark. *)
Definition on_edge (x y : nat) : Prop :=
  contrasting x y (x + 1) y \/ contrasting x y x (y + 1) \/
  (wide = true /\ (0 < x)%nat /\ contrasting (x - 1) y x y) \/
  (wide = true /\ (0 < y)%nat /\ contrasting x (y - 1) x y) \/
  (marked x y /\ ~ surrounded x y).
End Spec.

(** [n] positions of the image satisfy [P]. *)
Definition counts_pixels (im : image) (P : px -> Prop) (n : nat) : Prop :=
  exists l : list (nat * nat), NoDup l /\ length l = n /\
    forall x y, (x, y) ∈ l <-> exists p, pixel im x y = Some p /\ P p.
(** Foreground: visible if the background is transparent, otherwise different
    from the background colour. *)
Definition foreground (background : px) (transparent : bool) (p : px) : Prop :=
  if transparent then opaque p else p <> background.
