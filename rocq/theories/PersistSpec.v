(** What the persisted text formats mean, said without the model's functions. *)
From Verif Require Import Base Text.
Local Open Scope Z_scope.
Local Open Scope list_scope.

(** [c] is the digit of value [d] in base [b] (either case for a-f). *)
Definition is_digit (b c d : Z) : Prop :=
  0 <= d < b /\ ((d < 10 /\ c = 48 + d) \/ (10 <= d < 36 /\ (c = 87 + d \/ c = 55 + d))).

(** [t] is a numeral of value [n] in base [b]; leading zeros are allowed. *)
Inductive numeral (b : Z) : text -> Z -> Prop :=
| numeral_one c d : is_digit b c d -> numeral b [c] d
| numeral_more t n c d : numeral b t n -> is_digit b c d -> numeral b (t ++ [c]) (n * b + d).

(** An unsigned 64-bit numeral and a signed 32-bit numeral. *)
Definition unsigned_numeral (b : Z) (t : text) (n : Z) : Prop := numeral b t n /\ 0 <= n < two64.
Definition signed_numeral (t : text) (z : Z) : Prop :=
  in_int32 z /\ (numeral 10 t z \/ exists u n, t = MINUS :: u /\ numeral 10 u n /\ z = - n).

(** [t] starts with the line [l] and continues with [rest]: the line is ended
    by a newline, or is the non-empty end of the text. *)
Definition first_line (t l rest : text) : Prop :=
  ~ In NL l /\ (t = l ++ NL :: rest \/ (t = l /\ l <> [] /\ rest = [])).
(** [t] consists of the lines [ls] followed by [rest]. *)
Inductive lines : text -> list text -> text -> Prop :=
| lines_none t : lines t [] t
| lines_one t l u ls rest : first_line t l u -> lines u ls rest -> lines t (l :: ls) rest.

(** One record of a label section: prefix, index, bar, label. *)
Definition label_record (prefix line : text) (i v : Z) : Prop :=
  exists a b, line = prefix ++ a ++ BAR :: b /\ unsigned_numeral 10 a i /\ signed_numeral b v.

(** A complete label section of [count] records giving label [vals !! i] to
    index [i]: each index below [count] occurs exactly once, in any order. *)
Definition label_section (prefix t : text) (count : Z) (vals : list Z) (rest : text) : Prop :=
  exists ls entries,
    lines t ls rest /\
    Z.of_nat (length ls) = count /\
    Forall2 (fun l e => label_record prefix l (fst e) (snd e)) ls entries /\
    NoDup (map fst entries) /\
    Forall (fun e => 0 <= fst e < count) entries /\
    Z.of_nat (length vals) = count /\
    Forall (fun e => nth_error vals (Z.to_nat (fst e)) = Some (snd e)) entries.

(** White space only. *)
Definition blank (t : text) : Prop := Forall (fun c => c = 32 \/ 9 <= c <= 13) t.
