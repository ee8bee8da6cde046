(** Facts about the text functions of Text.v. *)
From Verif Require Import Base Config Text PersistSpec.
From Coq Require Import Permutation Sorted.
Local Open Scope Z_scope.
Local Open Scope list_scope.

(** * Digits *)
Lemma digit_value_spec b c d : 2 <= b <= 36 -> digit_value b c = Some d <-> is_digit b c d.
Proof.
  intros Hb. unfold digit_value, is_digit.
  repeat match goal with |- context [?x <=? ?y] => destruct (Z.leb_spec x y) end; cbn [andb];
  match goal with |- context [?x <? ?y] => destruct (Z.ltb_spec x y) end;
  (split; [intros [= <-]; lia | intros K; try (exfalso; lia); f_equal; lia]).
Qed.

Lemma is_digit_char b d : 2 <= b <= 36 -> 0 <= d < b -> is_digit b (digit_char d) d.
Proof.
  intros Hb Hd. unfold is_digit, digit_char. destruct (Z.ltb_spec d 10); lia.
Qed.

Lemma is_digit_no b c d : is_digit b c d -> c <> NL /\ c <> EQ /\ c <> BAR /\ c <> MINUS.
Proof. unfold is_digit, NL, EQ, BAR, MINUS. lia. Qed.

Lemma digits_fuel_numeral fuel : forall b n, 2 <= b <= 36 -> 0 <= n < 2 ^ Z.of_nat (S fuel) ->
  numeral b (digits_fuel (S fuel) b n) n.
Proof.
  induction fuel as [|f IH]; intros b n Hb Hn.
  - cbn [digits_fuel]. destruct (Z.ltb_spec n b).
    + apply numeral_one, is_digit_char; lia.
    + change (2 ^ Z.of_nat 1) with 2 in Hn. lia.
  - remember (S f) as sf eqn:Es. cbn [digits_fuel]. subst sf. destruct (Z.ltb_spec n b).
    + apply numeral_one, is_digit_char; lia.
    + assert (E : n = n / b * b + n mod b) by (rewrite Z.mul_comm; apply Z.div_mod; lia).
      rewrite E at 3. apply numeral_more.
      * apply IH; [assumption|]. split; [apply Z.div_pos; lia|].
        apply Z.div_lt_upper_bound; [lia|].
        rewrite Nat2Z.inj_succ, Z.pow_succ_r in Hn by lia.
        eapply Z.lt_le_trans; [apply Hn|]. apply Z.mul_le_mono_nonneg_r; lia.
      * apply is_digit_char; [assumption|]. apply Z.mod_pos_bound. lia.
Qed.

Lemma digits_numeral b n : 2 <= b <= 36 -> 0 <= n -> numeral b (digits b n) n.
Proof.
  intros Hb Hn. apply digits_fuel_numeral; [assumption|]. split; [assumption|].
  rewrite Nat2Z.inj_succ, Z2Nat.id by apply Z.log2_nonneg.
  destruct (Z.eq_dec n 0) as [->|]; [reflexivity|]. apply Z.log2_spec. lia.
Qed.

Lemma numeral_nonempty b t n : numeral b t n -> t <> [].
Proof. intros H; destruct H; [discriminate|]. destruct t; discriminate. Qed.

Lemma numeral_digits b t n : numeral b t n -> Forall (fun c => exists d, is_digit b c d) t.
Proof.
  induction 1; [repeat constructor; eauto|]. apply List.Forall_app. split; [assumption|repeat constructor; eauto].
Qed.

Lemma numeral_nonneg b t n : 0 <= b -> numeral b t n -> 0 <= n.
Proof. intros Hb. induction 1 as [c d Hd|t n c d H IH Hd]; unfold is_digit in Hd; nia. Qed.

Lemma numeral_no b t n : numeral b t n -> ~ In NL t /\ ~ In EQ t /\ ~ In BAR t /\ ~ In MINUS t.
Proof.
  intros H. apply numeral_digits in H. rewrite List.Forall_forall in H.
  repeat split; intros K; apply H in K as [d K]; apply is_digit_no in K; tauto.
Qed.

Lemma take_digits_snoc b t ds c d : take_digits b t = (ds, []) -> digit_value b c = Some d ->
  take_digits b (t ++ [c]) = (ds ++ [d], []).
Proof.
  revert ds. induction t as [|x t IH]; intros ds H Hd; cbn in *.
  - injection H as <-. rewrite Hd. reflexivity.
  - destruct (digit_value b x) as [v|]; [|discriminate].
    destruct (take_digits b t) as [ds' rest] eqn:E. injection H as <- ->.
    rewrite (IH ds' eq_refl Hd). reflexivity.
Qed.

Lemma digits_value_snoc b ds d : digits_value b (ds ++ [d]) = digits_value b ds * b + d.
Proof. unfold digits_value. rewrite fold_left_app. reflexivity. Qed.

Lemma numeral_take b t n : 2 <= b <= 36 -> numeral b t n ->
  exists ds, take_digits b t = (ds, []) /\ ds <> [] /\ digits_value b ds = n.
Proof.
  intros Hb. induction 1 as [c d Hd|t n c d H (ds & E & Hne & V) Hd].
  - exists [d]. apply digit_value_spec in Hd; [|assumption]. cbn. rewrite Hd.
    repeat split; try discriminate; reflexivity.
  - exists (ds ++ [d]). apply digit_value_spec in Hd; [|assumption].
    split; [apply take_digits_snoc; assumption|]. split; [destruct ds; discriminate|].
    rewrite digits_value_snoc, V. reflexivity.
Qed.

Lemma take_digits_split b t ds rest : take_digits b t = (ds, rest) ->
  exists u, t = u ++ rest /\ Forall2 (fun c d => digit_value b c = Some d) u ds.
Proof.
  revert ds. induction t as [|x t IH]; intros ds H; cbn in H.
  - injection H as <- <-. exists []. split; [reflexivity|constructor].
  - destruct (digit_value b x) as [v|] eqn:E.
    + destruct (take_digits b t) as [ds' rest'] eqn:Et. injection H as <- ->.
      destruct (IH ds' eq_refl) as (u & -> & F). exists (x :: u). split; [reflexivity|].
      constructor; assumption.
    + injection H as <- <-. exists []. split; [reflexivity|constructor].
Qed.

Lemma take_numeral b t ds : 2 <= b <= 36 -> take_digits b t = (ds, []) -> ds <> [] ->
  numeral b t (digits_value b ds).
Proof.
  intros Hb H Hne. apply take_digits_split in H as (u & -> & F).
  rewrite app_nil_r. revert u F Hne. induction ds as [|d ds IH] using rev_ind; intros u F Hne; [congruence|].
  apply Forall2_app_inv_r in F as (u1 & u2 & F1 & F2 & ->).
  inversion F2 as [|c d' l1 l2 Hc F3]; subst. inversion F3; subst.
  apply digit_value_spec in Hc; [|assumption].
  rewrite digits_value_snoc. destruct ds as [|d0 ds].
  - inversion F1; subst. cbn. apply numeral_one. assumption.
  - apply numeral_more; [|assumption]. apply IH; [assumption|discriminate].
Qed.

Lemma numeral_fun b t n m : 2 <= b <= 36 -> numeral b t n -> numeral b t m -> n = m.
Proof.
  intros Hb H K. apply numeral_take in H as (ds & E & _ & <-); [|assumption].
  apply numeral_take in K as (ds' & E' & _ & <-); [|assumption]. congruence.
Qed.

(** * Parsing numbers *)
Lemma parse_unsigned_spec t b n : 2 <= b <= 36 ->
  parse_unsigned t b = Val n <-> unsigned_numeral b t n.
Proof.
  intros Hb. unfold parse_unsigned, from_chars_u64, unsigned_numeral. split.
  - destruct (take_digits b t) as [[|d ds] rest] eqn:E; [discriminate|].
    destruct (Z.ltb_spec (digits_value b (d :: ds)) two64); [|discriminate].
    destruct rest; [|discriminate]. intros [= <-].
    assert (N : numeral b t (digits_value b (d :: ds))) by (apply take_numeral; [assumption..|discriminate]).
    split; [assumption|]. split; [|assumption]. eapply numeral_nonneg; [|exact N]. lia.
  - intros [N R]. apply numeral_take in N as (ds & E & Hne & V); [|assumption]. rewrite E.
    destruct ds as [|d ds]; [congruence|]. rewrite V.
    destruct (Z.ltb_spec n two64); [reflexivity|lia].
Qed.

Lemma parse_unsigned_cases t b : (exists n, parse_unsigned t b = Val n) \/ parse_unsigned t b = Throws FilesystemError.
Proof.
  unfold parse_unsigned. destruct (from_chars_u64 b t) as [[v [|]]|]; eauto.
Qed.

Lemma parse_int_spec t z : parse_int t = Val z <-> signed_numeral t z.
Proof.
  assert (P : forall (neg : bool) u y,
    match (match take_digits 10 u with
      | ([], _) => None
      | (ds, rest) => let v := if neg then - digits_value 10 ds else digits_value 10 ds in
                      if in_int32b v then Some (v, rest) else None end) with
      | Some (v, []) => Val v | _ => Throws FilesystemError end = Val y <->
    in_int32 y /\ exists n, numeral 10 u n /\ y = (if neg then - n else n)).
  { intros neg u y. split.
    - destruct (take_digits 10 u) as [[|d ds] rest] eqn:E; [discriminate|]. cbv zeta.
      destruct (in_int32b _) eqn:R; [|discriminate]. destruct rest; [|discriminate].
      intros [= <-]. apply in_int32b_spec in R. split; [assumption|].
      eexists. split; [apply take_numeral; [lia|exact E|discriminate]|reflexivity].
    - intros (R & n & N & ->). apply numeral_take in N as (ds & E & Hne & V); [|lia]. rewrite E.
      destruct ds as [|d ds]; [congruence|]. cbv zeta. rewrite V.
      apply in_int32b_spec in R. rewrite R. reflexivity. }
  unfold parse_int, from_chars_i32, signed_numeral.
  destruct t as [|c r].
  - cbv beta iota zeta. split; [discriminate|].
    intros (_ & [N|(u & n & K & _)]); [apply numeral_nonempty in N; congruence|discriminate].
  - destruct (Z.eqb_spec c MINUS) as [->|Hc].
    + rewrite (P true r z). split.
      * intros (R & n & N & ->). split; [assumption|]. right. eauto.
      * intros (R & [N|(u & n & [= <-] & N & ->)]); [|eauto].
        apply numeral_no in N. exfalso. apply N. left. reflexivity.
    + rewrite (P false (c :: r) z). split.
      * intros (R & n & N & ->). tauto.
      * intros (R & [N|(u & n & [= -> ->] & _)]); [eauto|congruence].
Qed.

Lemma parse_int_cases t : (exists n, parse_int t = Val n) \/ parse_int t = Throws FilesystemError.
Proof. unfold parse_int. destruct (from_chars_i32 t) as [[v [|]]|]; eauto. Qed.

Lemma parse_print_unsigned n : 0 <= n < two64 -> parse_unsigned (print_unsigned n) 10 = Val n.
Proof. intros H. apply parse_unsigned_spec; [lia|]. split; [apply digits_numeral; lia|assumption]. Qed.

Lemma print_unsigned_numeral n : 0 <= n < two64 -> unsigned_numeral 10 (print_unsigned n) n.
Proof. intros H. split; [apply digits_numeral; lia|assumption]. Qed.

Lemma print_int_numeral z : in_int32 z -> signed_numeral (print_int z) z.
Proof.
  intros H. split; [assumption|]. unfold print_int. destruct (Z.ltb_spec z 0).
  - right. exists (digits 10 (- z)), (- z). split; [reflexivity|]. split; [apply digits_numeral; lia|lia].
  - left. apply digits_numeral; lia.
Qed.

Lemma parse_print_int z : in_int32 z -> parse_int (print_int z) = Val z.
Proof. intros H. apply parse_int_spec, print_int_numeral, H. Qed.

Lemma numeral_pad b t n k : 2 <= b <= 36 -> numeral b t n -> numeral b (repeat ZERO k ++ t) n.
Proof.
  intros Hb N. induction k as [|k IH]; [assumption|]. cbn [repeat app].
  set (u := repeat ZERO k ++ t) in *. clearbody u. clear N t.
  induction IH as [c d Hd|t n c d Ht IH Hd].
  - change [ZERO; c] with ([ZERO] ++ [c]). replace d with (0 * b + d) by lia.
    apply numeral_more; [|assumption]. apply numeral_one. unfold is_digit, ZERO. lia.
  - change (ZERO :: t ++ [c]) with ((ZERO :: t) ++ [c]). apply numeral_more; assumption.
Qed.

Lemma print_hex16_numeral n : 0 <= n < two64 -> unsigned_numeral 16 (print_hex16 n) n.
Proof.
  intros H. split; [|assumption]. apply numeral_pad; [lia|]. apply digits_numeral; lia.
Qed.

Lemma parse_print_hex16 n : 0 <= n < two64 -> parse_unsigned (print_hex16 n) 16 = Val n.
Proof. intros H. apply parse_unsigned_spec; [lia|]. apply print_hex16_numeral, H. Qed.

Lemma signed_numeral_no t z : signed_numeral t z -> t <> [] /\ ~ In NL t /\ ~ In BAR t.
Proof.
  intros [_ [N|(u & n & -> & N & _)]].
  - split; [eapply numeral_nonempty; eassumption|]. apply numeral_no in N. tauto.
  - split; [discriminate|]. apply numeral_no in N. unfold NL, BAR, MINUS in *. cbn. intuition discriminate.
Qed.

Lemma unsigned_numeral_no b t n : unsigned_numeral b t n -> t <> [] /\ ~ In NL t /\ ~ In BAR t.
Proof.
  intros [N _]. split; [eapply numeral_nonempty; eassumption|]. apply numeral_no in N. tauto.
Qed.

Lemma unsigned_numeral_fun b t n m : 2 <= b <= 36 -> unsigned_numeral b t n -> unsigned_numeral b t m -> n = m.
Proof. intros Hb [H _] [K _]. eapply numeral_fun; eassumption. Qed.

Lemma signed_numeral_fun t n m : signed_numeral t n -> signed_numeral t m -> n = m.
Proof. intros H K. apply parse_int_spec in H, K. congruence. Qed.

(** * Lines *)
Lemma until_newline_line l rest : ~ In NL l -> until_newline (l ++ NL :: rest) = (l, rest).
Proof.
  induction l as [|c l IH]; intros H; cbn.
  - reflexivity.
  - destruct (Z.eqb_spec c NL) as [->|_]; [exfalso; apply H; left; reflexivity|].
    rewrite IH; [reflexivity|]. intros K. apply H. right. assumption.
Qed.

Lemma until_newline_end l : ~ In NL l -> until_newline l = (l, []).
Proof.
  induction l as [|c l IH]; intros H; cbn.
  - reflexivity.
  - destruct (Z.eqb_spec c NL) as [->|_]; [exfalso; apply H; left; reflexivity|].
    rewrite IH; [reflexivity|]. intros K. apply H. right. assumption.
Qed.

Lemma until_newline_cases t l rest : until_newline t = (l, rest) ->
  ~ In NL l /\ (t = l ++ NL :: rest \/ (t = l /\ rest = [])).
Proof.
  revert l. induction t as [|c t IH]; intros l H; cbn in H.
  - injection H as <- <-. split; [tauto|]. right. tauto.
  - destruct (Z.eqb_spec c NL) as [->|Hc].
    + injection H as <- <-. split; [tauto|]. left. reflexivity.
    + destruct (until_newline t) as [l' r'] eqn:E. injection H as <- ->.
      destruct (IH l' eq_refl) as (N & [-> | [-> ->]]).
      * split; [|left; reflexivity]. intros [K|K]; [congruence|tauto].
      * split; [|right; split; reflexivity]. intros [K|K]; [congruence|tauto].
Qed.

Lemma getline_spec t l rest : getline t = Some (l, rest) <-> first_line t l rest.
Proof.
  unfold getline, first_line. split.
  - destruct t as [|c t]; [discriminate|]. intros H.
    apply (f_equal (fun o => match o with Some x => x | None => (l, rest) end)) in H.
    apply (until_newline_cases (c :: t)) in H as (N & [E|[E ->]]).
    + tauto.
    + split; [assumption|]. right. split; [assumption|]. split; [congruence|reflexivity].
  - intros (N & [-> | (-> & Hne & ->)]).
    + destruct (l ++ NL :: rest) eqn:E; [destruct l; discriminate|].
      rewrite <- E, until_newline_line by assumption. reflexivity.
    + destruct l; [congruence|]. rewrite until_newline_end by assumption. reflexivity.
Qed.

Lemma getline_none t : getline t = None <-> t = [].
Proof. unfold getline. destruct t; split; congruence. Qed.

Lemma first_line_some t : t <> [] -> exists l rest, first_line t l rest.
Proof.
  intros H. destruct (getline t) as [[l r]|] eqn:E.
  - exists l, r. apply getline_spec, E.
  - apply getline_none in E. congruence.
Qed.

Lemma first_line_fun t l r l' r' : first_line t l r -> first_line t l' r' -> l = l' /\ r = r'.
Proof. rewrite <- !getline_spec. intros H K. split; congruence. Qed.

Lemma lines_nil rest : lines rest [] rest.
Proof. constructor. Qed.

Lemma first_line_newline l rest : ~ In NL l -> first_line (l ++ NL :: rest) l rest.
Proof. intros H. split; [assumption|]. left. reflexivity. Qed.

(** Lines each ended by a newline. *)
Definition unlines (ls : list text) : text := concat (map (fun l => l ++ [NL]) ls).
Lemma lines_unlines ls rest : Forall (fun l => ~ In NL l) ls -> lines (unlines ls ++ rest) ls rest.
Proof.
  induction ls as [|l ls IH]; intros F; [constructor|].
  apply Forall_cons_1 in F as [H F]. unfold unlines. cbn [map concat].
  rewrite <- !app_assoc. cbn [app]. eapply lines_one; [|apply IH, F].
  apply first_line_newline. assumption.
Qed.

Lemma lines_fun t ls rest : lines t ls rest -> forall ls' rest', lines t ls' rest' ->
  length ls = length ls' -> ls = ls' /\ rest = rest'.
Proof.
  induction 1 as [t|t l u ls rest H L IH]; intros ls' rest' L' E.
  - destruct ls'; [|discriminate]. inversion L'; subst. split; reflexivity.
  - destruct ls' as [|l' ls']; [discriminate|]. inversion L' as [|? ? u' ? ? H' L'']; subst.
    destruct (first_line_fun _ _ _ _ _ H H') as [-> ->].
    injection E as E. destruct (IH _ _ L'' E) as [-> ->]. split; reflexivity.
Qed.

(** * Searching *)
Lemma strip_prefix_spec p t r : strip_prefix p t = Some r <-> t = p ++ r.
Proof.
  revert t. induction p as [|c p IH]; intros t; cbn.
  - split; congruence.
  - destruct t as [|x t]; [split; discriminate|].
    destruct (Z.eqb_spec c x) as [->|H].
    + rewrite IH. split; congruence.
    + split; congruence.
Qed.

Lemma find_char_spec c t a b : find_char c t = Some (a, b) <-> t = a ++ c :: b /\ ~ In c a.
Proof.
  revert a. induction t as [|x t IH]; intros a; cbn.
  - split; [discriminate|]. intros [H _]. destruct a; discriminate.
  - destruct (Z.eqb_spec x c) as [->|H].
    + split.
      * intros [= <- <-]. split; [reflexivity|tauto].
      * intros [E N]. destruct a as [|y a]; cbn in E; [first [congruence | injection E; intros; subst; first [reflexivity|contradiction]]|].
        injection E as -> _. exfalso. apply N. left. reflexivity.
    + destruct (find_char c t) as [[a' b']|].
      * split.
        -- intros [= <- <-]. destruct (proj1 (IH a') eq_refl) as [-> N].
           split; [reflexivity|]. intros [K|K]; [congruence|tauto].
        -- intros [E N]. destruct a as [|y a]; cbn in E; [first [congruence | injection E; intros; subst; first [reflexivity|contradiction]]|].
           injection E as -> ->. assert (K : Some (a', b') = Some (a, b)).
           { apply IH. split; [reflexivity|]. intros K. apply N. right. assumption. }
           injection K as -> ->. reflexivity.
      * split; [discriminate|]. intros [E N]. destruct a as [|y a]; cbn in E; [first [congruence | injection E; intros; subst; first [reflexivity|contradiction]]|].
        injection E as -> ->. assert (K : None = Some (a, b)).
        { apply IH. split; [reflexivity|]. intros K. apply N. right. assumption. }
        discriminate.
Qed.

Lemma find_char_none c t : find_char c t = None <-> ~ In c t.
Proof.
  induction t as [|x t IH]; cbn; [tauto|].
  destruct (Z.eqb_spec x c) as [->|H].
  - split; [discriminate|]. intros K. exfalso. tauto.
  - destruct (find_char c t) as [[a b]|]; [split; [discriminate|]|].
    + intros K. exfalso. assert (K' : ~ In c t) by tauto. apply IH in K'. discriminate.
    + split; [|reflexivity]. intros _ [K|K]; [congruence|]. tauto.
Qed.

Lemma rfind_char_none c t : rfind_char c t = None <-> ~ In c t.
Proof.
  induction t as [|x t IH]; cbn; [tauto|].
  destruct (rfind_char c t) as [[a b]|].
  - split; [discriminate|]. intros K. exfalso. assert (K' : ~ In c t) by tauto. apply IH in K'. discriminate.
  - destruct (Z.eqb_spec x c) as [->|H].
    + split; [discriminate|]. intros K. exfalso. tauto.
    + split; [|reflexivity]. intros _ [K|K]; [congruence|]. tauto.
Qed.

Lemma rfind_char_spec c t a b : rfind_char c t = Some (a, b) <-> t = a ++ c :: b /\ ~ In c b.
Proof.
  revert a. induction t as [|x t IH]; intros a; cbn.
  - split; [discriminate|]. intros [H _]. destruct a; discriminate.
  - destruct (rfind_char c t) as [[a' b']|] eqn:Er.
    + split.
      * intros [= <- <-]. destruct (proj1 (IH a') eq_refl) as [-> N]. split; [reflexivity|assumption].
      * intros [E N]. destruct a as [|y a]; cbn in E.
        -- injection E as -> ->. apply rfind_char_none in N. congruence.
        -- injection E as -> ->. assert (K : Some (a', b') = Some (a, b)) by (apply IH; split; [reflexivity|assumption]).
           injection K as -> ->. reflexivity.
    + apply rfind_char_none in Er. destruct (Z.eqb_spec x c) as [->|H].
      * split.
        -- intros [= <- <-]. split; [reflexivity|assumption].
        -- intros [E N]. destruct a as [|y a]; cbn in E; [first [congruence | injection E; intros; subst; first [reflexivity|contradiction]]|].
           injection E as -> ->. exfalso. apply Er, in_or_app. right. left. reflexivity.
      * split; [discriminate|]. intros [E N]. destruct a as [|y a]; cbn in E; [injection E as -> ->; congruence|].
        injection E as -> ->. exfalso. apply Er, in_or_app. right. left. reflexivity.
Qed.

Lemma skip_ws_spec t : skip_ws t = [] <-> blank t.
Proof.
  unfold blank. induction t as [|c t IH]; cbn.
  - split; [constructor|reflexivity].
  - unfold is_space. destruct (Z.eqb_spec c 32), (Z.leb_spec 9 c), (Z.leb_spec c 13); cbn;
    (split; [intros K | intros K; apply Forall_cons_1 in K as [K1 K2]; try (exfalso; lia)]);
    try (constructor; [lia|]); try (apply IH; assumption); try discriminate.
Qed.

Lemma text_eqb_spec a b : text_eqb a b = true <-> a = b.
Proof. unfold text_eqb. apply bool_decide_eq_true. Qed.

(** * Sorting *)
Lemma insert_by_perm {A} (le : A -> A -> bool) x l : Permutation (insert_by le x l) (x :: l).
Proof.
  induction l as [|y l IH]; cbn; [reflexivity|]. destruct (le x y); [reflexivity|].
  rewrite IH. apply perm_swap.
Qed.
Lemma sort_by_perm {A} (le : A -> A -> bool) l : Permutation (sort_by le l) l.
Proof.
  induction l as [|x l IH]; cbn; [reflexivity|]. fold (sort_by le l). rewrite insert_by_perm, IH. reflexivity.
Qed.

Section Sort.
Context {A : Type} (le : A -> A -> bool).
Hypothesis le_total : forall a b, le a b = true \/ le b a = true.
Hypothesis le_trans : forall a b c, le a b = true -> le b c = true -> le a c = true.
Hypothesis le_antisym : forall a b, le a b = true -> le b a = true -> a = b.

Lemma insert_by_sorted x l : StronglySorted (fun a b => le a b = true) l ->
  StronglySorted (fun a b => le a b = true) (insert_by le x l).
Proof using le_total le_trans.
  induction 1 as [|y l S IH F]; cbn; [repeat constructor|].
  destruct (le x y) eqn:E.
  - constructor; [constructor; assumption|]. constructor; [assumption|].
    eapply List.Forall_impl; [|exact F]. intros z Hz. eapply le_trans; eassumption.
  - constructor; [assumption|]. rewrite insert_by_perm. constructor; [|assumption].
    destruct (le_total x y) as [K|K]; [congruence|assumption].
Qed.
Lemma sort_by_sorted l : StronglySorted (fun a b => le a b = true) (sort_by le l).
Proof using le_total le_trans.
  induction l as [|x l IH]; cbn; [constructor|]. apply insert_by_sorted, IH.
Qed.

Lemma sorted_perm_unique l : StronglySorted (fun a b => le a b = true) l ->
  forall k, StronglySorted (fun a b => le a b = true) k -> Permutation l k -> l = k.
Proof using le_antisym.
  induction 1 as [|x l S IH F]; intros k Sk P.
  - apply Permutation_nil in P. congruence.
  - destruct k as [|y k]; [apply Permutation_sym, Permutation_nil in P; discriminate|].
    inversion Sk as [|? ? Sk' Fk]; subst. rewrite List.Forall_forall in F, Fk.
    assert (x = y) as ->.
    { assert (I1 : In x (y :: k)) by (eapply Permutation_in; [exact P|left; reflexivity]).
      assert (I2 : In y (x :: l)) by (eapply Permutation_in; [symmetry; exact P|left; reflexivity]).
      destruct I1 as [->|I1]; [reflexivity|]. destruct I2 as [->|I2]; [reflexivity|].
      apply le_antisym; auto. }
    f_equal. apply IH; [assumption|]. eapply Permutation_cons_inv. exact P.
Qed.

(** Sorting forgets the order of its input. *)
Lemma sort_by_unique l k : Permutation l k -> sort_by le l = sort_by le k.
Proof using le_total le_trans le_antisym.
  intros P. apply sorted_perm_unique; try apply sort_by_sorted.
  rewrite !sort_by_perm. assumption.
Qed.
End Sort.

Lemma lex_total a : forall b, lex_leb a b = true \/ lex_leb b a = true.
Proof.
  induction a as [|x a IH]; intros [|y b]; cbn; auto.
  destruct (Z.ltb_spec x y), (Z.ltb_spec y x); auto; try lia.
Qed.
Lemma lex_antisym a : forall b, lex_leb a b = true -> lex_leb b a = true -> a = b.
Proof.
  induction a as [|x a IH]; intros [|y b]; cbn; try discriminate; [reflexivity|].
  destruct (Z.ltb_spec x y), (Z.ltb_spec y x); try discriminate; try lia.
  intros H1 H2. f_equal; [lia|auto].
Qed.
Lemma lex_trans a : forall b c, lex_leb a b = true -> lex_leb b c = true -> lex_leb a c = true.
Proof.
  induction a as [|x a IH]; intros [|y b] [|z c]; cbn; try discriminate; [reflexivity..|].
  destruct (Z.ltb_spec x y), (Z.ltb_spec y x), (Z.ltb_spec y z), (Z.ltb_spec z y),
    (Z.ltb_spec x z), (Z.ltb_spec z x); try discriminate; try lia; auto. apply IH.
Qed.
Definition sort_text_unique l k := sort_by_unique lex_leb lex_total lex_trans lex_antisym l k.
