(** Small concrete instances, used only to show that the hypotheses of the
    theorems are met by non-trivial cases. Not a model of anything in /repo. *)
From Verif Require Import Base Tracker Command Run Fnv Geom Metropolis.

(** Manifolds are integers; (2,3) succeeds, (3,2) finds no site, (2,6) and (6,2)
    produce candidates the check refuses, (4,4) succeeds. *)
Definition toy_api (throwing : bool) : move_api Z Z :=
  mkMoveApi
    (fun m g => (Moved (m + 1), g + 1))
    (fun m g => (Failed (mkMoveError NO_CANDIDATE THREE_TWO), g))
    (fun m g => (if throwing then Raised (ForeignException 7) else Moved (m + 50), g + 2))
    (fun m g => (Moved (m + 100), g + 3))
    (fun m g => (Moved m, g)).
Definition toy_check (a b : Z) (m : MoveType) : bool := b - a <=? 1.
Definition toy_draw (lo hi : Z) (g : Z) : Z * Z := (lo + g mod (hi - lo + 1), g + 1).
Lemma toy_draw_range : forall g m g', toy_draw 0 4 g = (m, g') -> supported m.
Proof.
  intros g m g' H. injection H as <- _. unfold supported.
  pose proof (Z.mod_pos_bound g 5 ltac:(lia)). replace (4 - 0 + 1) with 5 by lia. lia.
Qed.
Definition toy_N3 (m : Z) : Z := 3.
Definition toy_geometry (m : Z) : Geometry := mkGeometry 3 1 1 2 1 7 m m 2 4.
(** Always accept odd candidates, throw for none. *)
Definition toy_accept (g g' : Geometry) (m : MoveType) : Z + exn := inl (gN1 g').
Definition toy_at_least (p : Z) (t : fp) : bool := Z.odd p.
Definition toy_probability (g : Z) : fp * Z := (Fin (QArith_base.Qmake 1 2), g + 1).
Definition toy_report {A B C : Type} (_ : A) (_ : B) (w : C) : res C unit := Ret w tt.
Definition toy_print (_ : results) (w : list Z) : res (list Z) unit := Ret w tt.
Definition toy_print2 (_ : results) (_ : stats) (w : list Z) : res (list Z) unit := Ret w tt.
Definition toy_write (m seed n : Z) (w : list Z) : res (list Z) unit := Ret (w ++ [n]) tt.
Definition toy_write2 (m : Z) (d : Metadata) (w : list Z) : res (list Z) unit := Ret (w ++ [m]) tt.
Definition toy_update (d : Metadata) (m : Z) : Metadata + exn := inl d.
Definition toy_metadata : Metadata :=
  mkMetadata INITIAL_TRIANGULATION 5 0 1 SPHERICAL 3 100 4 10 20 30 40 1 4
    (Fin (QArith_base.Qmake 1 1)) (Fin (QArith_base.Qmake 1 1))
    None None None None None None None None None None None None.
Definition toy_random : Random Z := make_random (fun seed stream => seed + stream) 0 1.
