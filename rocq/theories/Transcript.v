(** What a run prints on standard output. *)
From Verif Require Import Base Config Tracker Command Run Metropolis Text Geom.
From stdpp Require Import list.
From Verif Require Import Base Config Tracker Command Run Metropolis Text Geom.
Local Open Scope Z_scope.
Local Open Scope list_scope.

(** fmt::print of a format string that ends with \n. *)
Definition line (parts : list text) : text := concat parts ++ [NL].

(** include/Move_always.hpp:67-91: one line per move. *)
Definition ma_line (name : text) (a s f : Z) : text :=
  line [name; B " moves: "; print_int a; B " attempted = "; print_int s; B " successful and "; print_int f; B " failed."].
(** include/Move_always.hpp:67-91 [print_results]; [None]: a counter is missing. *)
Definition ma_print_results (r : results) : option text :=
  let row name (get : tracker -> option Z) :=
    match get (attempted r), get (succeeded r), get (failed r) with
    | Some a, Some s, Some f => Some (ma_line name a s f)
    | _, _, _ => None
    end in
  match row (B "(2,3)") two_three_moves, row (B "(3,2)") three_two_moves, row (B "(2,6)") two_six_moves,
        row (B "(6,2)") six_two_moves, row (B "(4,4)") four_four_moves with
  | Some t1, Some t2, Some t3, Some t4, Some t5 =>
      Some (line [B "=== Move Results ==="] ++ t1 ++ t2 ++ t3 ++ t4 ++ t5)
  | _, _, _, _, _ => None
  end.

(** include/Metropolis.hpp:565-628: one line per move. *)
Definition mh_line (name : text) (p ac rj a s f : Z) : text :=
  line [name; B " moves: "; print_int p; B " proposed ("; print_int ac; B " accepted and "; print_int rj;
        B " rejected); candidate construction: "; print_int a; B " attempted ("; print_int s;
        B " succeeded and "; print_int f; B " failed)."].
(** include/Metropolis.hpp:565-628 [print_results]; [None]: a total overflows (or a
    counter is missing). *)
Definition mh_print_results (r : results) (s : stats) : option text :=
  let row name (get : tracker -> option Z) :=
    match get (st_proposed s), get (st_accepted s), get (st_rejected s),
          get (attempted r), get (succeeded r), get (failed r) with
    | Some p, Some ac, Some rj, Some a, Some su, Some f => Some (mh_line name p ac rj a su f)
    | _, _, _, _, _, _ => None
    end in
  match total (st_proposed s), total (st_accepted s), total (st_rejected s),
        total (attempted r), total (succeeded r), total (failed r) with
  | Some p, Some ac, Some rj, Some a, Some su, Some f =>
      match row (B "(2,3)") two_three_moves, row (B "(3,2)") three_two_moves, row (B "(2,6)") two_six_moves,
            row (B "(6,2)") six_two_moves, row (B "(4,4)") four_four_moves with
      | Some t1, Some t2, Some t3, Some t4, Some t5 =>
          Some (line [B "=== Move Results ==="] ++
                line [B "There were "; print_int p; B " proposed moves with "; print_int ac; B " accepted moves and ";
                      print_int rj; B " rejected moves."] ++
                line [B "There were "; print_int a; B " candidate construction attempts with "; print_int su;
                      B " successful candidates and "; print_int f; B " failed candidates."] ++
                t1 ++ t2 ++ t3 ++ t4 ++ t5)
      | _, _, _, _, _ => None
      end
  | _, _, _, _, _, _ => None
  end.

Section Printed.
  Context {M SS E : Type}.
  Variable N3 : M -> Z.
  Variable execute_pass : M -> SS -> Z -> E -> res E (pass_result M SS).
  (** The text of a report; [None]: undefined behaviour. *)
  Variable report : M -> results -> SS -> option text.
  Variable checkpoint : M -> results -> SS -> Z -> E -> res E unit.

  (** Everything printed so far, and the rest of the world. *)
  Notation world := (text * E)%type.
  Definition say (t : text) (w : world) : world := (fst w ++ t, snd w).
  (** A callable that does not print. *)
  Definition silently {A} (r : E -> res E A) (w : world) : res world A :=
    match r (snd w) with
    | Ret e a => Ret (fst w, e) a | Thr e x => Thr (fst w, e) x | UB => UB | Abort => Abort
    end.

  (** include/Move_run.hpp:211-224, with the line of 219. *)
  Definition printed_checkpoint (cad : cadence) (writes : bool) (n : Z)
      (cur : M) (tot : results) (st : SS) (ev : Z) (w : world) : res world Z :=
    if n mod cad_checkpoint cad =? 0 then
      match add32 ev 1 with
      | None => UB
      | Some ev' =>
          match report cur tot st with
          | None => UB
          | Some t =>
              if writes then
                match silently (checkpoint cur tot st n)
                        (say (line [B "Writing checkpoint for pass "; print_int n; B "."]) (say t w)) with
                | Ret w' _ => Ret w' ev'
                | Thr w' x => Thr w' x
                | UB => UB
                | Abort => Abort
                end
              else Ret (say t w) ev'
          end
      end
    else Ret w ev.

  (** include/Move_run.hpp:198-233: the loop and what follows it. *)
  Fixpoint printed_loop (fuel : nat) (cad : cadence) (writes : bool) (i : Z)
      (cur : M) (tot : results) (st : SS) (ev : Z) (w : world) : res world (run_result M SS) :=
    match fuel with
    | O =>
        match report cur tot st with
        | None => UB
        | Some t => Ret (say t (say (line [B "=== Run results ==="]) w)) (mkRun cur tot st ev)
        end
    | S fuel' =>
        let pass_number := i + 1 in
        match silently (execute_pass cur st (N3 cur))
                (say (line [B "=== Pass "; print_int pass_number; B " ==="]) w) with
        | Ret w1 p =>
            match accumulate_results tot (pr_results p) with
            | None => UB
            | Some tot' =>
                match printed_checkpoint cad writes pass_number (pr_manifold p) tot' (pr_state p) ev w1 with
                | Ret w2 ev' => printed_loop fuel' cad writes (i + 1) (pr_manifold p) tot' (pr_state p) ev' w2
                | Thr w2 x => Thr w2 x
                | UB => UB
                | Abort => Abort
                end
            end
        | Thr w1 x => Thr w1 x
        | UB => UB
        | Abort => Abort
        end
    end.

  (** include/Move_run.hpp:176-234 [execute_move_run] with its output; 192-196 the
      opening lines. fmt::print is taken not to fail. *)
  Definition printed_run (algorithm : text) (seed stream : Z) (cad : cadence) (writes : bool)
      (initial : M) (st0 : SS) (w : world) : res world (run_result M SS) :=
    printed_loop (Z.to_nat (cad_passes cad)) cad writes 0 initial results_zero st0 0
      (say (line [B "Making random moves ..."])
        (say (line [B "Effective random seed: "; print_unsigned seed; B " (stream "; print_unsigned stream; B ")."])
          (say (line [B "Starting "; algorithm; B " algorithm in "; print_int (3 - 1); B "+1 dimensions ..."]) w))).
End Printed.

(** include/Move_always.hpp:180-205 [operator()], with its output. *)
Definition ma_printed {M G W : Type} (N3 : M -> Z) (api : move_api M G) check draw
    (write_file : M -> Z -> Z -> W -> res W unit) (s : move_always G) (w : W) (man : M)
  : res (text * (G * W)) (run_result M unit) :=
  printed_run N3 (pass_env (W := W) (ma_execute_pass api check draw)) (fun _ r _ => ma_print_results r)
    (chk_env (fun m _ _ n => write_file m (rnd_seed (ma_random s)) n))
    (B "Move Always") (rnd_seed (ma_random s)) (rnd_stream (ma_random s))
    (ma_cadence s) (ma_write_files s) man tt ([], (rnd_engine (ma_random s), w)).

(** include/Metropolis.hpp:677-714 [operator()], with its output. *)
Definition mh_printed {M G P W : Type} geometry (propose : move_api M G) check (accept : Geometry -> Geometry -> MoveType -> P + exn)
    at_least draw_int draw_p max_time update (write_file : M -> Metadata -> W -> res W unit)
    (x : metropolis G) (w : W) (man : M) : res (text * (G * W)) (run_result M stats) :=
  printed_run (fun m => gN3 (geometry m))
    (pass_env (W := W) (mh_execute_pass geometry propose check accept at_least draw_int draw_p))
    (fun _ r s => mh_print_results r s)
    (chk_env (mh_checkpoint geometry max_time update write_file (mh_reproducibility x)))
    (B "Metropolis-Hastings") (rnd_seed (mh_generator x)) (rnd_stream (mh_generator x))
    (mh_cadence x) (mh_write_files x) man (set_geometry stats_zero (geometry man))
    ([], (rnd_engine (mh_generator x), w)).

(** include/Move_command.hpp:214-226 [print_attempts], 229-243 [print_successful]:
    the adjective is the only difference. *)
Definition print_counts (adjective : text) (t : tracker) : option text :=
  match two_three_moves t, three_two_moves t, two_six_moves t, six_two_moves t, four_four_moves t with
  | Some a, Some b, Some c, Some d, Some e =>
      Some (line [B "There were "; print_int a; B " "; adjective; B " (2,3) moves and "; print_int b; B " "; adjective;
                  B " (3,2) moves and "; print_int c; B " "; adjective; B " (2,6) moves and "; print_int d; B " "; adjective;
                  B " (6,2) moves and "; print_int e; B " "; adjective; B " (4,4) moves."])
  | _, _, _, _, _ => None
  end.
Definition print_attempts {M} (c : command M) : option text := print_counts (B "attempted") (cm_attempted c).
Definition print_successful {M} (c : command M) : option text := print_counts (B "successful") (cm_succeeded c).
(** include/Move_command.hpp:246-264 [print_errors]. *)
Definition print_errors {M} (c : command M) : option text :=
  if forallb (fun v => v =? 0) (cm_failed c) then Some (line [B "There were no failed moves."])
  else print_counts (B "failed") (cm_failed c).

(** include/Manifold.hpp:340-352 [print]: N0, N1, N2, N3 of the manifold. *)
Definition print_manifold (g : Geometry) : text :=
  line [B "Manifold has "; print_int (gN0 g); B " vertices and "; print_int (gN1 g); B " edges and "; print_int (gN2 g);
        B " faces and "; print_int (gN3 g); B " simplices."].
(** include/Manifold.hpp:355-369 [print_details]. *)
Definition print_details (g : Geometry) : text :=
  line [B "There are "; print_int (gN3_31 g); B " (3,1) simplices and "; print_int (gN3_22 g); B " (2,2) simplices and ";
        print_int (gN3_13 g); B " (1,3) simplices."] ++
  line [B "There are "; print_int (gN1_TL g); B " timelike edges and "; print_int (gN1_SL g); B " spacelike edges."].
