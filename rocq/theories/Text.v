(** Text as the C++ standard library handles it in include/Utilities.hpp:
    bytes, number formatting with fmt, std::from_chars, std::getline,
    find/rfind/starts_with and [std::ws]. *)
From Verif Require Import Base Config.
From Coq Require String Ascii.
Export String.StringSyntax.
Local Open Scope Z_scope.
Local Open Scope list_scope.

(** A std::string: its bytes. *)
Definition text : Type := list Z.
(** A string literal. *)
Definition B (s : String.string) : text :=
  map (fun a => Z.of_nat (Ascii.nat_of_ascii a)) (String.list_ascii_of_string s).
Arguments B _%string_scope.

(** '\n', '=', '|', '-', '0'. *)
Definition NL : Z := 10.
Definition EQ : Z := 61.
Definition BAR : Z := 124.
Definition MINUS : Z := 45.
Definition ZERO : Z := 48.
Global Arguments NL : simpl never.
Global Arguments EQ : simpl never.
Global Arguments BAR : simpl never.
Global Arguments MINUS : simpl never.
Global Arguments ZERO : simpl never.

(** The lower-case digit of value [d]: fmt's "{}" and "{:016x}". *)
Definition digit_char (d : Z) : Z := if d <? 10 then 48 + d else 87 + d.

(** Positional notation, most significant digit first. *)
Fixpoint digits_fuel (fuel : nat) (b n : Z) : text :=
  match fuel with
  | O => []
  | S f => if n <? b then [digit_char n] else digits_fuel f b (n / b) ++ [digit_char (n mod b)]
  end.
Definition digits (b n : Z) : text := digits_fuel (S (Z.to_nat (Z.log2 n))) b n.

(** fmt::format("{}", unsigned) and std::ostream << size_t, std::to_string
    (include/Utilities.hpp:339,553-583,591-645). *)
Definition print_unsigned (n : Z) : text := digits 10 n.
(** fmt::format("{}", std::int32_t) (include/Utilities.hpp:441,564,574,630-638). *)
Definition print_int (z : Z) : text :=
  if z <? 0 then MINUS :: digits 10 (- z) else digits 10 z.
(** fmt::format("{:016x}", std::uint64_t) (include/Utilities.hpp:596,652-667). *)
Definition print_hex16 (n : Z) : text :=
  let d := digits 16 n in repeat ZERO (16 - length d) ++ d.

(** The value of a digit character in base [b], upper or lower case
    (std::from_chars). *)
Definition digit_value (b c : Z) : option Z :=
  let v := if (48 <=? c) && (c <=? 57) then c - 48
           else if (97 <=? c) && (c <=? 122) then c - 87
           else if (65 <=? c) && (c <=? 90) then c - 55
           else b in
  if v <? b then Some v else None.

(** The longest prefix of digits, as values, and what follows it. *)
Fixpoint take_digits (b : Z) (t : text) : list Z * text :=
  match t with
  | [] => ([], [])
  | c :: r => match digit_value b c with
              | Some v => let (ds, rest) := take_digits b r in (v :: ds, rest)
              | None => ([], t)
              end
  end.
Definition digits_value (b : Z) (ds : list Z) : Z := fold_left (fun a d => a * b + d) ds 0.

(** std::from_chars on a std::uint64_t: no sign, no prefix, no white space;
    [None] is errc::invalid_argument or errc::result_out_of_range. *)
Definition from_chars_u64 (b : Z) (t : text) : option (Z * text) :=
  match take_digits b t with
  | ([], _) => None
  | (ds, rest) => let v := digits_value b ds in if v <? two64 then Some (v, rest) else None
  end.
(** std::from_chars on a std::int32_t, base 10: an optional '-'. *)
Definition from_chars_i32 (t : text) : option (Z * text) :=
  let '(neg, u) := match t with
                   | c :: r => if c =? MINUS then (true, r) else (false, t)
                   | [] => (false, t)
                   end in
  match take_digits 10 u with
  | ([], _) => None
  | (ds, rest) => let v := if (neg : bool) then - digits_value 10 ds else digits_value 10 ds in
                  if in_int32b v then Some (v, rest) else None
  end.

(** include/Utilities.hpp:671-686 [parse_unsigned]. *)
Definition parse_unsigned (t : text) (b : Z) : checked Z :=
  match from_chars_u64 b t with
  | Some (v, []) => Val v
  | _ => Throws FilesystemError
  end.
(** include/Utilities.hpp:688-718 [parse_info] and 705-719
    [parse_metadata_integer] (the same text but for the message). *)
Definition parse_int (t : text) : checked Z :=
  match from_chars_i32 t with
  | Some (v, []) => Val v
  | _ => Throws FilesystemError
  end.

(** std::getline on the remaining characters of a stream: [None] when nothing
    is left (eofbit and failbit); otherwise the characters up to a newline,
    which is dropped, or up to the end. *)
Fixpoint until_newline (t : text) : text * text :=
  match t with
  | [] => ([], [])
  | c :: r => if c =? NL then ([], r) else let (l, rest) := until_newline r in (c :: l, rest)
  end.
Definition getline (t : text) : option (text * text) :=
  match t with [] => None | _ => Some (until_newline t) end.

(** std::ws in the "C" locale: space, \t \n \v \f \r. *)
Definition is_space (c : Z) : bool := (c =? 32) || ((9 <=? c) && (c <=? 13)).
Fixpoint skip_ws (t : text) : text :=
  match t with
  | c :: r => if is_space c then skip_ws r else t
  | [] => []
  end.

(** std::string equality. *)
Definition text_eqb (a b : text) : bool := bool_decide (a = b).

(** starts_with and the remaining substr: the rest after [prefix], or [None]. *)
Fixpoint strip_prefix (prefix t : text) : option text :=
  match prefix, t with
  | [], _ => Some t
  | p :: ps, c :: r => if p =? c then strip_prefix ps r else None
  | _ :: _, [] => None
  end.
(** std::string::find(c): what is before and after the first [c]. *)
Fixpoint find_char (c : Z) (t : text) : option (text * text) :=
  match t with
  | [] => None
  | x :: r => if x =? c then Some ([], r)
              else match find_char c r with
                   | Some (a, b) => Some (x :: a, b)
                   | None => None
                   end
  end.
(** std::string_view::rfind(c): what is before and after the last [c]. *)
Fixpoint rfind_char (c : Z) (t : text) : option (text * text) :=
  match t with
  | [] => None
  | x :: r => match rfind_char c r with
              | Some (a, b) => Some (x :: a, b)
              | None => if x =? c then Some ([], r) else None
              end
  end.

(** Lexicographic operator< of std::string (bytes compared as unsigned char)
    and of std::vector. *)
Fixpoint lex_leb (a b : list Z) : bool :=
  match a, b with
  | [], _ => true
  | _ :: _, [] => false
  | x :: a', y :: b' => if x <? y then true else if y <? x then false else lex_leb a' b'
  end.
(** std::ranges::sort: the sorted rearrangement (elements that compare equal
    are equal, so it is unique). *)
Fixpoint insert_by {A} (le : A -> A -> bool) (x : A) (l : list A) : list A :=
  match l with
  | [] => [x]
  | y :: r => if le x y then x :: l else y :: insert_by le x r
  end.
Definition sort_by {A} (le : A -> A -> bool) (l : list A) : list A :=
  fold_right (insert_by le) [] l.
