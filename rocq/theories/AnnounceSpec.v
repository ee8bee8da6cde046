(** Reading a command line off the output of the programs (C94). *)
From Verif Require Import Base Config Text Program TranscriptSpec ListingSpec.
Local Open Scope Z_scope.
Local Open Scope list_scope.

(** The text between [before] and [after]. *)
Definition between (before after l : text) : option text :=
  match strip_prefix before l with
  | Some r => match strip_prefix (rev after) (rev r) with Some v => Some (rev v) | None => None end
  | None => None
  end.
(** The values on the first lines of a text, given what stands around each. *)
Fixpoint read_header (around : list (text * text)) (t : text) : option (list text) :=
  match around with
  | [] => Some []
  | (before, after) :: around =>
      match find_char NL t with
      | Some (l, rest) =>
          match between before after l, read_header around rest with
          | Some v, Some vs => Some (v :: vs)
          | _, _ => None
          end
      | None => None
      end
  end.
(** A decimal number and nothing else. *)
Definition integer (t : text) : option Z :=
  match read_number t with Some (n, []) => Some n | _ => None end.
(** The --spherical and --toroidal flags for a topology's name. *)
Definition flags (t : text) : option (bool * bool) :=
  if text_eqb t (B "spherical") then Some (true, false)
  else if text_eqb t (B "toroidal") then Some (false, true) else None.

Definition job_lines : list (text * text) :=
  [(B "Topology is ", []); (B "Dimensionality: ", B "+1"); (B "Initial radius: ", []); (B "Foliation spacing: ", []);
   (B "Number of desired simplices: ", []); (B "Number of desired timeslices: ", []); (B "Number of passes: ", []);
   (B "Checkpoint every ", B " passes."); (B "Effective random seed: ", []); (B "Maximum Delaunay threads: ", []);
   (B "=== Parameters ===", []); (B "Alpha: ", []); (B "K: ", []); (B "Lambda: ", [])].
Definition generation_lines : list (text * text) :=
  [(B "Topology is ", []); (B "Number of dimensions = ", []); (B "Number of desired simplices = ", []);
   (B "Number of desired timeslices = ", []); (B "Initial radius = ", []); (B "Foliation spacing = ", []);
   (B "Effective random seed: ", []); (B "Maximum Delaunay threads: ", [])].

Notation "'let?' x := a 'in' b" := (match a with Some x => b | None => None end)
  (at level 200, x pattern, a at level 100, b at level 200).

(** The arguments of a cdt run that says so; --no-output is not among the things
    announced. *)
Definition cdt_recipe (read_double read_long : text -> option fp) (no_output : bool) (out : text) : option cdt_args :=
  match read_header job_lines out with
  | Some [topology; space; radius; spacing; n; t; passes; interval; seed; threads; _; alpha; k; lambda] =>
      let? (s, e) := flags topology in let? d := integer space in
      let? r := read_double radius in let? f := read_double spacing in
      let? n := integer n in let? t := integer t in let? p := integer passes in let? c := integer interval in
      let? seed := integer seed in let? threads := integer threads in
      let? alpha := read_long alpha in let? k := read_long k in let? lambda := read_long lambda in
      Some (mkCdtArgs false false s e (Some n) (Some t) (d + 1) r f no_output (Some seed) threads
              (Some alpha) (Some k) (Some lambda) p c)
  | _ => None
  end.
(** The arguments of an initialize run that says so; --output is left to the
    caller. *)
Definition init_recipe (read_double : text -> option fp) (output : bool) (out : text) : option init_args :=
  match read_header generation_lines out with
  | Some [topology; d; n; t; radius; spacing; seed; threads] =>
      let? (s, e) := flags topology in let? d := integer d in
      let? n := integer n in let? t := integer t in
      let? r := read_double radius in let? f := read_double spacing in
      let? seed := integer seed in let? threads := integer threads in
      Some (mkInitArgs false false s e (Some n) (Some t) d r f (Some seed) threads output)
  | _ => None
  end.

(** The decimals printed for these values read back as the same value. *)
Definition reads_back (values : fp -> Prop) (show : fp -> text) (read : text -> option fp) : Prop :=
  forall v, values v -> read (show v) = Some v /\ ~ In NL (show v).
(** A step that may add to standard output but not take anything back. *)
Definition only_appends {E A : Type} (f : text * E -> res (text * E) A) : Prop :=
  forall w, match f w with
            | Ret w' _ | Thr w' _ => exists more, fst w' = fst w ++ more
            | UB | Abort => True
            end.

(** The warning of cdt that the triangulation has fewer slices than asked for: asked
    for, last slice; and the last line of initialize: the number of simplices. *)
Definition warning_row (l : text) : option (Z * Z) :=
  match read_row [Word (B "You wanted "); Int; Word (B " timeslices, but only got "); Int; Word (B ".")] l with
  | Some [VInt wanted; VInt got] => Some (wanted, got)
  | _ => None
  end.
Definition count_row (l : text) : option Z :=
  match read_row [Word (B "Final number of simplices: "); Int] l with Some [VInt n] => Some n | _ => None end.
