(** What it means for lock grids to be owned properly. *)
From Verif Require Import Base Locks.
Local Open Scope nat_scope.

(** Variable [x] owns grid [g] / the triangulation in [x] points at grid [g]. *)
Definition owns (w : world) (x g : nat) : Prop := exists s, w_foliated w x = Some s /\ s_owner s = Some g.
Definition points (w : world) (x g : nat) : Prop := exists s, w_foliated w x = Some s /\ d_lock (s_tri s) = Some g.
Definition points_plain (w : world) (d g : nat) : Prop := exists t, w_plain w d = Some t /\ d_lock t = Some g.

(** A triangulation points at the grid its own object owns, or at none; that
    grid is live, it is not the client's, and nobody else owns it or points at
    it; a plain triangulation points at most at a grid the client attached; a
    live grid is the client's or has an owner. *)
Record proper (w : world) : Prop := {
  own_grid : forall x g, points w x g <-> owns w x g;
  live_grid : forall x g, owns w x g -> In g (w_grids w) /\ ~ In g (w_mine w);
  one_owner : forall x y g, owns w x g -> owns w y g -> x = y;
  plain_grid : forall d g, points_plain w d g -> In g (w_mine w);
  no_leak : forall g, In g (w_grids w) -> In g (w_mine w) \/ exists x, owns w x g
}.
