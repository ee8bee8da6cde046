(** Lock grids: who owns them and who points at them.

    A parallel CGAL triangulation holds a bare pointer to a grid of locks. The
    model keeps the live grids, the pointer held by each triangulation, the
    owning pointer held by each [Delaunay_state], and the number of vertices of
    each triangulation; everything else about a triangulation is left out.
    CGAL's behaviour assumed here: copying or moving a triangulation copies the
    pointer (moving leaves it in the source too), [swap] exchanges pointers,
    destruction does not touch the grid, insertion and removal lock grid cells.
    [parallel] is CDT_ENABLE_PARALLEL_TRIANGULATION. Every allocation and every
    CGAL call may throw: [luck] decides. *)
From Verif Require Import Base.
Local Open Scope list_scope.
Local Open Scope nat_scope.

(** A CGAL triangulation: its lock pointer and its number of vertices. *)
Record delaunay := Delaunay { d_lock : option nat; d_size : nat }.
(** include/Foliated_triangulation.hpp:203-205. *)
Record state := State { s_owner : option nat; s_tri : delaunay }.

(** Variables of the client: foliated triangulations (of which only the
    [Delaunay_state] matters here), plain triangulations, and grids. [w_mine]
    are the grids the client itself made. *)
Record world := World {
  w_grids : list nat; w_mine : list nat; w_next : nat;
  w_foliated : nat -> option state; w_plain : nat -> option delaunay;
  w_luck : nat -> nat; w_clock : nat
}.
Inductive out (A : Type) := Ok (a : A) (w : world) | Ex (w : world) | Bad.
Arguments Ok {A}. Arguments Ex {A}. Arguments Bad {A}.
Definition M (A : Type) : Type := world -> out A.
Definition ret {A} (a : A) : M A := fun w => Ok a w.
Definition throw {A} : M A := fun w => Ex w.
Definition bind {A C} (m : M A) (f : A -> M C) : M C := fun w =>
  match m w with Ok a w' => f a w' | Ex w' => Ex w' | Bad => Bad end.
Notation "x <~ m ;; k" := (bind m (fun x => k)) (at level 100, m at next level, right associativity).
(** Unwinding: when [m] throws, run the destructors [d] and go on throwing. *)
Definition unwinding {A} (m : M A) (d : M unit) : M A := fun w =>
  match m w with
  | Ok a w' => Ok a w'
  | Ex w' => match d w' with Ok _ w'' => Ex w'' | Ex w'' => Ex w'' | Bad => Bad end
  | Bad => Bad
  end.

(** The next arbitrary choice. *)
Definition choose : M nat := fun w =>
  Ok (w_luck w (w_clock w))
     (World (w_grids w) (w_mine w) (w_next w) (w_foliated w) (w_plain w) (w_luck w) (S (w_clock w))).
Definition may_throw : M unit := c <~ choose ;; if c =? 0 then throw else ret tt.
Definition set_grids (g : list nat) (m : list nat) (n : nat) (w : world) : world :=
  World g m n (w_foliated w) (w_plain w) (w_luck w) (w_clock w).
(** std::make_unique<Lock_data_structure>. *)
Definition make_unique : M nat :=
  _ <~ may_throw ;; fun w => Ok (w_next w) (set_grids (w_next w :: w_grids w) (w_mine w) (S (w_next w)) w).
(** delete: freeing what is not live is undefined. *)
Definition free (g : nat) : M unit := fun w =>
  if existsb (Nat.eqb g) (w_grids w)
  then Ok tt (set_grids (List.filter (fun h => negb (h =? g)) (w_grids w)) (w_mine w) (w_next w) w)
  else Bad.
(** The destructor of std::unique_ptr. *)
Definition reset (o : option nat) : M unit := match o with Some g => free g | None => ret tt end.
(** A CGAL operation that locks cells of the grid: undefined when the grid is gone. *)
Definition locking (d : delaunay) : M unit := fun w =>
  match d_lock d with
  | None => may_throw w
  | Some g => if existsb (Nat.eqb g) (w_grids w) then may_throw w else Bad
  end.
Definition rebind (d : delaunay) (o : option nat) : delaunay := Delaunay o (d_size d).

Section Build.
Variable parallel : bool.

(** * Delaunay_state *)
(** include/Foliated_triangulation.hpp:213-225 [make_empty_state]. *)
Definition make_empty_state : M (option nat * delaunay) :=
  if parallel then
    _ <~ may_throw ;; g <~ make_unique ;;
    _ <~ unwinding may_throw (free g) ;;
    ret (Some g, Delaunay (Some g) 0)
  else _ <~ may_throw ;; ret (None, Delaunay None 0).
(** include/Foliated_triangulation.hpp:227-240 [make_insertion_state]. *)
Definition make_insertion_state : M (option nat * delaunay) :=
  if parallel then
    _ <~ may_throw ;; g <~ make_unique ;;
    _ <~ unwinding may_throw (free g) ;;
    ret (Some g, Delaunay (Some g) 0)
  else _ <~ may_throw ;; ret (None, Delaunay None 0).
(** include/Foliated_triangulation.hpp:242-254 [make_adopted_state]. *)
Definition make_adopted_state (source : delaunay) : M (option nat * delaunay) :=
  if parallel then
    _ <~ may_throw ;; g <~ make_unique ;; ret (Some g, rebind source (Some g))
  else ret (None, rebind source None).
(** include/Foliated_triangulation.hpp:256-259: the constructor from a pending state. *)
Definition of_pending (p : option nat * delaunay) : state := State (fst p) (snd p).
(** include/Foliated_triangulation.hpp:262. *)
Definition state_empty : M state := p <~ make_empty_state ;; ret (of_pending p).
(** include/Foliated_triangulation.hpp:313: members are destroyed in reverse
    order, the triangulation before its grid. *)
Definition destroy (s : state) : M unit := reset (s_owner s).
(** include/Foliated_triangulation.hpp:264-275: construction from vertices. *)
Definition state_of_vertices (count : nat) : M state :=
  p <~ make_insertion_state ;;
  let s := of_pending p in
  unwinding (_ <~ locking (s_tri s) ;; inserted <~ choose ;;
             if inserted =? count then ret (State (s_owner s) (Delaunay (d_lock (s_tri s)) count)) else throw)
            (destroy s).
(** include/Foliated_triangulation.hpp:277-279. *)
Definition state_of_delaunay (source : delaunay) : M state := p <~ make_adopted_state source ;; ret (of_pending p).
(** include/Foliated_triangulation.hpp:281-283: the copy constructor. *)
Definition state_copy (other : state) : M state := _ <~ may_throw ;; state_of_delaunay (s_tri other).
(** include/Foliated_triangulation.hpp:285-288: the move constructor, and what it
    leaves behind (the size of a moved-from triangulation is unspecified). *)
Definition state_move (other : state) (left : nat) : state * state :=
  (State (s_owner other) (s_tri other), State None (Delaunay None left)).
(** include/Foliated_triangulation.hpp:290-295 [swap]: the triangulations (with
    their pointers), then the owners. *)
Definition state_swap (lhs rhs : state) : state * state :=
  (State (s_owner rhs) (s_tri rhs), State (s_owner lhs) (s_tri lhs)).
(** include/Foliated_triangulation.hpp:333-337 [has_consistent_lock_binding]. *)
Definition has_consistent_lock_binding (s : state) : bool :=
  match d_lock (s_tri s), s_owner s with
  | None, None => true
  | Some a, Some b => a =? b
  | _, _ => false
  end.
(** include/Foliated_triangulation.hpp:339-347 [into_detached_triangulation]: the
    triangulation returned and the state left behind. *)
Definition into_detached (s : state) (left : nat) : M (delaunay * state) :=
  let t := rebind (s_tri s) None in
  _ <~ reset (s_owner s) ;; ret (t, State None (Delaunay (d_lock t) left)).

(** * FoliatedTriangulation *)
(** include/Foliated_triangulation.hpp:1446-1455 [require_nonempty]. The state is
    passed and returned by move. *)
Definition require_nonempty (s : state) : M state :=
  if d_size (s_tri s) =? 0 then _ <~ destroy s ;; throw
  else ret (fst (state_move s 0)).
(** include/Foliated_triangulation.hpp:1647-1665: the private constructor; the
    caches may throw while they are computed. *)
Definition foliated (s : state) : M state :=
  s <~ require_nonempty s ;; _ <~ unwinding may_throw (destroy s) ;; ret s.
(** include/Foliated_triangulation.hpp:1639-1644. *)
Definition foliated_of_delaunay (d : delaunay) : M state := s <~ state_of_delaunay d ;; foliated s.
(** include/Foliated_triangulation.hpp:1719-1725. *)
Definition foliated_of_vertices (count : nat) : M state := s <~ state_of_vertices count ;; foliated s.
(** include/Foliated_triangulation.hpp:1328-1381 [make_triangulation]: insert,
    repair, detach. *)
Definition make_triangulation (count : nat) : M delaunay :=
  _ <~ may_throw ;; s <~ state_of_vertices count ;;
  _ <~ unwinding (locking (s_tri s)) (destroy s) ;; size <~ choose ;; left <~ choose ;;
  r <~ into_detached (State (s_owner s) (Delaunay (d_lock (s_tri s)) size)) left ;;
  _ <~ destroy (snd r) ;; ret (fst r).
(** include/Foliated_triangulation.hpp:1680-1689. *)
Definition foliated_random (count : nat) : M state := d <~ make_triangulation count ;; foliated_of_delaunay d.
(** include/Foliated_triangulation.hpp:1555-1568: the copy constructor. *)
Definition foliated_copy (other : state) : M state :=
  this <~ state_empty ;;
  if d_size (s_tri other) =? 0 then ret this
  else copy <~ unwinding (s <~ state_copy other ;; foliated s) (destroy this) ;;
       let '(copy', this') := state_swap copy this in _ <~ destroy copy' ;; ret this'.
(** include/Foliated_triangulation.hpp:1773-1789 [is_fixed]: the new value of the
    object. The repaired copy borrows this object's grid. *)
Definition is_fixed (this : state) : M state :=
  _ <~ may_throw ;;
  let updated := s_tri this in
  _ <~ locking updated ;; changed <~ choose ;;
  if changed =? 0 then ret this
  else size <~ choose ;;
       replacement <~ foliated_of_delaunay (Delaunay (d_lock updated) size) ;;
       let '(replacement', this') := state_swap replacement this in _ <~ destroy replacement' ;; ret this'.
(** include/Foliated_triangulation.hpp:1794-1800 [delaunay_snapshot]. *)
Definition delaunay_snapshot (this : state) : M delaunay := _ <~ may_throw ;; ret (rebind (s_tri this) None).
(** include/Manifold.hpp:180-191 [updated], its triangulation. *)
Definition updated (this : state) : M state :=
  if d_size (s_tri this) =? 0 then state_empty
  else d <~ delaunay_snapshot this ;; foliated_of_delaunay d.

(** * What a client can do *)
Inductive action :=
  | Make (x : nat)                          (* FoliatedTriangulation x; *)
  | MakeRandom (x count : nat)
  | MakeOfVertices (x count : nat)
  | MakeOfPlain (x d : nat) (by_move : bool)
  | MakeCopy (x y : nat)
  | MakeMove (x y : nat)
  | MakeUpdated (x y : nat)
  | AssignCopy (x y : nat)
  | AssignMove (x y : nat)
  | Swap (x y : nat)
  | Fix (x : nat)
  | Destroy (x : nat)
  | Snapshot (d x : nat)
  | Generate (d count : nat)
  | CopyPlain (d e : nat)
  | DestroyPlain (d : nat)
  | NewGrid | FreeGrid (g : nat) | Attach (d g : nat).

Definition put (x : nat) (s : option state) (w : world) : world :=
  World (w_grids w) (w_mine w) (w_next w) (fun y => if y =? x then s else w_foliated w y) (w_plain w) (w_luck w) (w_clock w).
Definition put_plain (d : nat) (t : option delaunay) (w : world) : world :=
  World (w_grids w) (w_mine w) (w_next w) (w_foliated w) (fun e => if e =? d then t else w_plain w e) (w_luck w) (w_clock w).
(** Start the lifetime of [x] with the value made by [m]. *)
Definition construct (x : nat) (m : M state) : M unit :=
  s <~ m ;; fun w => Ok tt (put x (Some s) w).
Definition construct_plain (d : nat) (m : M delaunay) : M unit :=
  t <~ m ;; fun w => Ok tt (put_plain d (Some t) w).
(** Using a variable that is not alive, or constructing over one that is, is the
    client's error and excluded. *)
Definition allowed (a : action) (w : world) : Prop :=
  let dead x := w_foliated w x = None in
  let live x := w_foliated w x <> None in
  let dead_plain d := w_plain w d = None in
  let live_plain d := w_plain w d <> None in
  match a with
  | Make x | MakeRandom x _ | MakeOfVertices x _ => dead x
  | MakeOfPlain x d _ => dead x /\ live_plain d
  | MakeCopy x y | MakeMove x y | MakeUpdated x y => dead x /\ live y
  | AssignCopy x y | AssignMove x y | Swap x y => live x /\ live y
  | Fix x | Destroy x => live x
  | Snapshot d x => dead_plain d /\ live x
  | Generate d _ => dead_plain d
  | CopyPlain d e => dead_plain d /\ live_plain e
  | DestroyPlain d => live_plain d
  | NewGrid => True
  | FreeGrid g => In g (w_mine w) /\ In g (w_grids w)
  | Attach d g => live_plain d /\ In g (w_mine w)
  end.
Definition with_foliated (x : nat) (f : state -> M unit) : M unit := fun w =>
  match w_foliated w x with Some s => f s w | None => Bad end.
Definition with_plain (d : nat) (f : delaunay -> M unit) : M unit := fun w =>
  match w_plain w d with Some t => f t w | None => Bad end.
Definition store (x : nat) (s : option state) : M unit := fun w => Ok tt (put x s w).
Definition store_plain (d : nat) (t : option delaunay) : M unit := fun w => Ok tt (put_plain d t w).
(** include/Foliated_triangulation.hpp:1605-1629 [swap] of two variables. *)
Definition swap_variables (x y : nat) : M unit :=
  with_foliated x (fun a => with_foliated y (fun b =>
    let '(a', b') := state_swap a b in _ <~ store x (Some a') ;; store y (Some b'))).
Definition act (a : action) : M unit :=
  match a with
  | Make x => construct x state_empty
  | MakeRandom x count => construct x (foliated_random count)
  | MakeOfVertices x count => construct x (foliated_of_vertices count)
  | MakeOfPlain x d by_move =>
      with_plain d (fun t =>
        _ <~ (if by_move then left <~ choose ;; store_plain d (Some (Delaunay (d_lock t) left)) else may_throw) ;;
        construct x (foliated_of_delaunay t))
  | MakeCopy x y => with_foliated y (fun s => construct x (foliated_copy s))
  | MakeMove x y => (* 1587: defaulted *)
      with_foliated y (fun s => left <~ choose ;;
        let '(new, old) := state_move s left in _ <~ store y (Some old) ;; store x (Some new))
  | MakeUpdated x y => with_foliated y (fun s => construct x (updated s))
  | AssignCopy x y => (* 1571-1577 *)
      if x =? y then ret tt
      else with_foliated y (fun s => copy <~ foliated_copy s ;;
             with_foliated x (fun this =>
               let '(copy', this') := state_swap copy this in _ <~ store x (Some this') ;; destroy copy'))
  | AssignMove x y => (* 1592-1597 *) if x =? y then ret tt else swap_variables y x
  | Swap x y => if x =? y then ret tt else swap_variables x y
  | Fix x => with_foliated x (fun s => s' <~ is_fixed s ;; store x (Some s'))
  | Destroy x => with_foliated x (fun s => _ <~ store x None ;; destroy s)
  | Snapshot d x => with_foliated x (fun s => construct_plain d (delaunay_snapshot s))
  | Generate d count => construct_plain d (make_triangulation count)
  | CopyPlain d e => with_plain e (fun t => construct_plain d (_ <~ may_throw ;; ret t))
  | DestroyPlain d => store_plain d None
  | NewGrid => g <~ make_unique ;; fun w => Ok tt (set_grids (w_grids w) (g :: w_mine w) (w_next w) w)
  | FreeGrid g => free g
  | Attach d g => with_plain d (fun t => store_plain d (Some (rebind t (Some g))))
  end.

(** A history: each action allowed in the world it finds; exceptions leave the
    world as they leave it. *)
Inductive history : world -> list action -> world -> Prop :=
  | history_nil w : history w [] w
  | history_ok w a w' l w'' : allowed a w -> act a w = Ok tt w' -> history w' l w'' -> history w (a :: l) w''
  | history_ex w a w' l w'' : allowed a w -> act a w = Ex w' -> history w' l w'' -> history w (a :: l) w''.
End Build.

(** No object yet. *)
Definition start (luck : nat -> nat) : world := World [] [] 0 (fun _ => None) (fun _ => None) luck 0.
