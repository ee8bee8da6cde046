(** Reading the output of a run. *)
From Verif Require Import Base Config Tracker Command Metropolis Text.
From stdpp Require Import list.
From Verif Require Import Base Config Tracker Command Metropolis Text.
Local Open Scope Z_scope.
Local Open Scope list_scope.

(** What a line says. *)
Inductive entry : Type :=
| Started
| Seeded (seed stream : Z)
| Moving
| Pass (n : Z)
| Results
| Totals (numbers : list Z)
| Candidates (numbers : list Z)
| Tally (k : MoveType) (numbers : list Z)
| Writing (n : Z)
| Finished.

(** A line is words with decimal numbers between them. *)
Inductive piece : Type := Words (t : text) | Number.
(** A decimal number and what follows it. *)
Definition read_number (t : text) : option (Z * text) :=
  let '(neg, u) := match t with c :: r => if c =? MINUS then (true, r) else (false, t) | [] => (false, t) end in
  match take_digits 10 u with
  | ([], _) => None
  | (ds, rest) => Some ((if (neg : bool) then - digits_value 10 ds else digits_value 10 ds), rest)
  end.
(** The numbers in a line of the given shape. *)
Fixpoint read_pieces (ps : list piece) (t : text) : option (list Z) :=
  match ps with
  | [] => match t with [] => Some [] | _ => None end
  | Words w :: ps => match strip_prefix w t with Some r => read_pieces ps r | None => None end
  | Number :: ps => match read_number t with
                    | Some (n, r) => match read_pieces ps r with Some l => Some (n :: l) | None => None end
                    | None => None
                    end
  end.

(** The shapes of the lines of a MoveAlways run. *)
Definition shape : Type := list piece * (list Z -> entry).
Definition first (l : list Z) : Z := nth 0 l 0.
Definition second (l : list Z) : Z := nth 1 l 0.
Definition common_shapes : list shape :=
  [([Words (B "Effective random seed: "); Number; Words (B " (stream "); Number; Words (B ").")], fun l => Seeded (first l) (second l));
   ([Words (B "Making random moves ...")], fun _ => Moving);
   ([Words (B "=== Pass "); Number; Words (B " ===")], fun l => Pass (first l));
   ([Words (B "=== Move Results ===")], fun _ => Results);
   ([Words (B "Writing checkpoint for pass "); Number; Words (B ".")], fun l => Writing (first l));
   ([Words (B "=== Run results ===")], fun _ => Finished)].
Definition move_names : list (MoveType * text) :=
  [(TWO_THREE, B "(2,3)"); (THREE_TWO, B "(3,2)"); (TWO_SIX, B "(2,6)"); (SIX_TWO, B "(6,2)"); (FOUR_FOUR, B "(4,4)")].
Definition always_shapes : list shape :=
  ([Words (B "Starting Move Always algorithm in 2+1 dimensions ...")], fun _ => Started) :: common_shapes ++
  map (fun '(k, name) =>
         ([Words (name ++ B " moves: "); Number; Words (B " attempted = "); Number; Words (B " successful and "); Number; Words (B " failed.")],
          Tally k)) move_names.
(** The shapes of the lines of a Metropolis run. *)
Definition metropolis_shapes : list shape :=
  ([Words (B "Starting Metropolis-Hastings algorithm in 2+1 dimensions ...")], fun _ => Started) :: common_shapes ++
  [([Words (B "There were "); Number; Words (B " proposed moves with "); Number; Words (B " accepted moves and "); Number; Words (B " rejected moves.")], Totals);
   ([Words (B "There were "); Number; Words (B " candidate construction attempts with "); Number; Words (B " successful candidates and "); Number; Words (B " failed candidates.")], Candidates)] ++
  map (fun '(k, name) =>
         ([Words (name ++ B " moves: "); Number; Words (B " proposed ("); Number; Words (B " accepted and "); Number;
           Words (B " rejected); candidate construction: "); Number; Words (B " attempted ("); Number; Words (B " succeeded and "); Number; Words (B " failed).")],
          Tally k)) move_names.

(** The first shape that fits. *)
Fixpoint read_line (shapes : list shape) (l : text) : option entry :=
  match shapes with
  | [] => None
  | (ps, mean) :: shapes => match read_pieces ps l with Some ns => Some (mean ns) | None => read_line shapes l end
  end.
(** The lines of a text, each ended by a newline; [None] if the last one is not. *)
Fixpoint split_lines (t : text) : option (list text) :=
  match t with
  | [] => Some []
  | c :: r => match split_lines r with
              | None => None
              | Some ls => if c =? NL then Some ([] :: ls)
                           else match ls with l :: ls' => Some ((c :: l) :: ls') | [] => None end
              end
  end.
Fixpoint read_all (shapes : list shape) (ls : list text) : option (list entry) :=
  match ls with
  | [] => Some []
  | l :: ls => match read_line shapes l, read_all shapes ls with Some e, Some es => Some (e :: es) | _, _ => None end
  end.
Definition read_log (shapes : list shape) (t : text) : option (list entry) :=
  match split_lines t with Some ls => read_all shapes ls | None => None end.

(** The five kinds of moves. *)
Definition kinds : list MoveType := [TWO_THREE; THREE_TWO; TWO_SIX; SIX_TWO; FOUR_FOUR].
(** The log of a run up to the end of [passes] passes, with the given report after
    each pass: pass lines in order, after every [interval]-th one a report and, if
    files are written, the announcement of the checkpoint. *)
Definition told_passes (seed stream interval : Z) (writes : bool) (report : nat -> list entry) (passes : nat) : list entry :=
  [Started; Seeded seed stream; Moving] ++
  flat_map (fun n => Pass (Z.of_nat n) ::
                     (if Z.of_nat n mod interval =? 0 then report n ++ (if writes then [Writing (Z.of_nat n)] else []) else []))
           (seq 1 passes).
(** The log of a completed run ends with a last report. *)
Definition told (seed stream passes interval : Z) (writes : bool) (report : nat -> list entry) : list entry :=
  told_passes seed stream interval writes report (Z.to_nat passes) ++ Finished :: report (Z.to_nat passes).

(** The number of elements with a property. *)
Definition number {A : Type} (p : A -> bool) (l : list A) : Z := Z.of_nat (length (List.filter p l)).
(** The report on a MoveAlways run whose passes attempted the moves listed, each with
    its success: per kind, the moves attempted, successful and failed. *)
Definition always_report (passes : list (list (MoveType * bool))) : list entry :=
  let h := concat passes in
  Results :: map (fun k => Tally k [number (fun x => fst x =? k) h;
                                    number (fun x => (fst x =? k) && snd x) h;
                                    number (fun x => (fst x =? k) && negb (snd x)) h]) kinds.
(** The report on a Metropolis run with the transitions listed: all transitions,
    accepted ones, rejected ones; attempts to construct a candidate, the successful
    and the failed ones; then both triples per kind. *)
Definition metropolis_report (passes : list (list (MoveType * MoveOutcome))) : list entry :=
  let h := concat passes in
  let three (p : MoveType * MoveOutcome -> bool) (good : MoveOutcome -> bool) :=
    [number p h; number (fun x => p x && good (snd x)) h; number (fun x => p x && negb (good (snd x))) h] in
  let accepted (o : MoveOutcome) := match o with METROPOLIS_ACCEPTED => true | _ => false end in
  let constructed (o : MoveOutcome) := match o with METROPOLIS_ACCEPTED | METROPOLIS_REJECTED => true | _ => false end in
  Results :: Totals (three (fun _ => true) accepted) :: Candidates (three (fun _ => true) constructed) ::
  map (fun k => Tally k (three (fun x => fst x =? k) accepted ++ three (fun x => fst x =? k) constructed)) kinds.

(** The passes of a MoveAlways run: each one attempts as many moves as its initial
    state has simplices, one after the other. *)
Inductive always_passes {M G : Type} (N3 : M -> Z) (api : move_api M G) (check : M -> M -> MoveType -> bool)
  : M -> list (list (MoveType * bool)) -> M -> Prop :=
| always_none m : always_passes N3 api check m [] m
| always_pass m g h m' g' hs m'' :
    length h = Z.to_nat (N3 m) -> history api check m g h m' g' ->
    always_passes N3 api check m' hs m'' -> always_passes N3 api check m (h :: hs) m''.

(** The lines of MoveCommand::print_attempts, print_successful and print_errors, and
    of Manifold::print and print_details: their numbers. *)
Definition counts_shape (adjective : text) : list piece :=
  [Words (B "There were "); Number; Words (B " " ++ adjective ++ B " (2,3) moves and "); Number; Words (B " " ++ adjective ++ B " (3,2) moves and "); Number;
   Words (B " " ++ adjective ++ B " (2,6) moves and "); Number; Words (B " " ++ adjective ++ B " (6,2) moves and "); Number;
   Words (B " " ++ adjective ++ B " (4,4) moves.")].
Definition manifold_shape : list piece :=
  [Words (B "Manifold has "); Number; Words (B " vertices and "); Number; Words (B " edges and "); Number; Words (B " faces and "); Number; Words (B " simplices.")].
Definition simplices_shape : list piece :=
  [Words (B "There are "); Number; Words (B " (3,1) simplices and "); Number; Words (B " (2,2) simplices and "); Number; Words (B " (1,3) simplices.")].
Definition edges_shape : list piece :=
  [Words (B "There are "); Number; Words (B " timelike edges and "); Number; Words (B " spacelike edges.")].
(** A text that is lines of the given shapes. *)
Fixpoint read_shapes (shapes : list (list piece)) (ls : list text) : option (list (list Z)) :=
  match shapes, ls with
  | [], [] => Some []
  | p :: shapes, l :: ls => match read_pieces p l, read_shapes shapes ls with Some a, Some b => Some (a :: b) | _, _ => None end
  | _, _ => None
  end.
Definition read_text (shapes : list (list piece)) (t : text) : option (list (list Z)) :=
  match split_lines t with Some ls => read_shapes shapes ls | None => None end.
