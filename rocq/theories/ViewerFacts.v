(** Proofs about the render manifest. *)
From Verif Require Import Base Config ConfigSpec Text ViewerImage Viewer ViewerSpec.
From Coq Require Import QArith Qround.
Local Open Scope Z_scope.
Local Opaque B.

Lemma bind_val {A B} (x : checked A) (f : A -> checked B) b : bind x f = Val b <-> exists a, x = Val a /\ f a = Val b.
Proof. destruct x; cbn [bind]; split; [eauto|intros (? & [= ->] & ?); done|done|intros (? & [=] & _)|done|intros (? & [=] & _)]. Qed.
Lemma value_spec o k v : value o k = Some v <-> exists a b, o = a ++ (k, v) :: b /\ forall u, (k, u) ∉ a.
Proof.
  induction o as [|[k' v'] o IH]; cbn [value].
  - split; [done|]. intros (a & b & E & _). by destruct a.
  - destruct (bool_decide_reflect (k' = k)) as [-> | N].
    + split.
      * intros [= ->]. exists [], o. split; [done|]. intros u. apply not_elem_of_nil.
      * intros (a & b & E & H). destruct a as [|c a]; [by injection E as -> ->|]. injection E as <- _.
        exfalso. apply (H v'). left.
    + rewrite IH. split.
      * intros (a & b & -> & H). exists ((k', v') :: a), b. split; [done|]. intros u. rewrite elem_of_cons.
        intros [E|E]; [congruence|by apply (H u)].
      * intros (a & b & E & H). destruct a as [|c a]; [injection E as <- <- <-; done|]. injection E as <- ->.
        exists a, b. split; [done|]. intros u Hu. apply (H u). by right.
Qed.
Lemma declared_nil v u : declared v [] u <-> v = u.
Proof. split; [by inversion 1|intros ->; constructor]. Qed.
Lemma declared_cons v k path u : declared v (k :: path) u <-> exists o w, v = JObj o /\ value o k = Some w /\ declared w path u.
Proof.
  split.
  - inversion 1; subst. eexists _, _. split; [done|]. split; [|done]. apply value_spec. eauto.
  - intros (o & w & -> & V & D). apply value_spec in V as (a & b & -> & H). by constructor.
Qed.
Lemma declared_step o k w path u : value o k = Some w -> (declared (JObj o) (k :: path) u <-> declared w path u).
Proof.
  intros V. rewrite declared_cons. split.
  - intros (o' & w' & [= <-] & V' & D). congruence.
  - intros D. eauto.
Qed.
Lemma declared_leaf o k u : declared (JObj o) [k] u <-> value o k = Some u.
Proof.
  rewrite declared_cons. setoid_rewrite declared_nil. split.
  - by intros (? & ? & [= <-] & V & <-).
  - eauto.
Qed.
Lemma via o k w path u : value o k = Some w -> declared w path u -> declared (JObj o) (k :: path) u.
Proof. intros V D. by apply (declared_step o k w path u V). Qed.
Lemma object_spec o k p : require_object o k = Val p <-> value o k = Some (JObj p).
Proof. unfold require_object. destruct (value o k) as [[]|]; split; congruence. Qed.
Lemma array_spec o k p : require_array o k = Val p <-> value o k = Some (JArr p).
Proof. unfold require_array. destruct (value o k) as [[]|]; split; congruence. Qed.
Lemma string_spec o k s : require_string o k = Val s <-> value o k = Some (JStr s) /\ s <> [].
Proof.
  unfold require_string. destruct (value o k) as [[]|]; try (split; [congruence|intros [? _]; congruence]).
  destruct (bool_decide_reflect (s0 = [])) as [E|E]; split; try congruence; intros H.
  - destruct H as [H ?]. injection H as ->. tauto.
  - by injection H as ->.
  - destruct H as [H _]. by injection H as ->.
Qed.
Lemma bool_spec o k b : require_bool o k = Val b <-> value o k = Some (JBool b).
Proof. unfold require_bool. destruct (value o k) as [[]|]; split; congruence. Qed.
Lemma number_spec o k q : require_number o k = Val q <-> value o k = Some (JNum (Fin q)).
Proof. unfold require_number. destruct (value o k) as [[| |[| |]| | |]|]; split; congruence. Qed.

Lemma integral_spec q : integral q = true <-> (q == inject_Z (Qfloor q))%Q.
Proof. unfold integral. rewrite Qeq_bool_iff. split; intros H; by symmetry. Qed.
Lemma floor_of q z : (q == inject_Z z)%Q -> Qfloor q = z.
Proof. intros H. rewrite H. apply Qfloor_Z. Qed.
Lemma integral_of q z : (q == inject_Z z)%Q -> integral q = true.
Proof. intros H. apply integral_spec. by rewrite (floor_of q z H). Qed.
Lemma le_of q z a : (q == inject_Z z)%Q -> Qle_bool (inject_Z a) q = (a <=? z).
Proof.
  intros H. apply eq_true_iff_eq. rewrite Qle_bool_iff, Z.leb_le, H. by rewrite <- Zle_Qle.
Qed.
Lemma ge_of q z a : (q == inject_Z z)%Q -> Qle_bool q (inject_Z a) = (z <=? a).
Proof.
  intros H. apply eq_true_iff_eq. rewrite Qle_bool_iff, Z.leb_le, H. by rewrite <- Zle_Qle.
Qed.
Lemma integer_spec lo hi o k z : require_integer lo hi o k = Val z <->
  exists q, value o k = Some (JNum (Fin q)) /\ (q == inject_Z z)%Q /\ lo <= z <= hi /\ Z.abs z <= 2 ^ 53 - 1.
Proof.
  unfold require_integer. rewrite bind_val. setoid_rewrite number_spec. change (2 ^ 53 - 1) with MAX_EXACT_JSON_INTEGER.
  split.
  - intros (q & V & H). exists q. split; [done|].
    destruct (integral q) eqn:I; [|done]. apply integral_spec in I. cbn [negb orb] in H.
    rewrite !(le_of _ _ _ I), !(ge_of _ _ _ I) in H.
    destruct (Z.leb_spec lo (Qfloor q)); [|done]. destruct (Z.leb_spec (Qfloor q) hi); [|done].
    destruct (Z.leb_spec (- MAX_EXACT_JSON_INTEGER) (Qfloor q)); [|done].
    destruct (Z.leb_spec (Qfloor q) MAX_EXACT_JSON_INTEGER); [|done]. cbn in H. injection H as <-.
    split; [done|]. unfold MAX_EXACT_JSON_INTEGER in *. lia.
  - intros (q & V & E & R & A). exists q. split; [done|]. rewrite (integral_of q z E), !(le_of _ _ _ E), !(ge_of _ _ _ E), (floor_of q z E).
    destruct (Z.leb_spec lo z); [|lia]. destruct (Z.leb_spec z hi); [|lia].
    destruct (Z.leb_spec (- MAX_EXACT_JSON_INTEGER) z); [|lia].
    destruct (Z.leb_spec z MAX_EXACT_JSON_INTEGER); [|lia]. done.
Qed.
Lemma channel_spec v z : channel v = Val z <-> is_channel v z.
Proof.
  unfold is_channel, channel. split.
  - destruct v as [| |[| |q]| | |]; try done. destruct (integral q) eqn:I; [|done]. apply integral_spec in I. cbn [negb orb].
    change (0%Q) with (inject_Z 0). change (255%Q) with (inject_Z 255). rewrite (le_of _ _ _ I), (ge_of _ _ _ I).
    destruct (Z.leb_spec 0 (Qfloor q)); [|done]. destruct (Z.leb_spec (Qfloor q) 255); [|done]. cbn. intros [= <-].
    exists q. auto.
  - intros (q & -> & E & R). rewrite (integral_of q z E). cbn [negb orb].
    change (0%Q) with (inject_Z 0). change (255%Q) with (inject_Z 255). rewrite (le_of _ _ _ E), (ge_of _ _ _ E), (floor_of q z E).
    destruct (Z.leb_spec 0 z); [|lia]. destruct (Z.leb_spec z 255); [|lia]. done.
Qed.
Lemma each_spec {A} (f : json -> checked A) (R : json -> A -> Prop) : (forall v a, f v = Val a <-> R v a) ->
  forall l r, each f l = Val r <-> Forall2 R l r.
Proof.
  intros H. induction l as [|v l IH]; intros r; cbn [each].
  - split; [intros [= <-]; constructor|by inversion 1].
  - rewrite bind_val. setoid_rewrite bind_val. split.
    + intros (a & E & t & Et & [= <-]). constructor; [by apply H|by apply IH].
    + inversion 1; subst. eexists. split; [by apply H|]. eexists. split; [by apply IH|done].
Qed.
Lemma length3 {A} (l : list A) : length l = 3%nat <-> exists a b c, l = [a; b; c].
Proof. split; [|by intros (? & ? & ? & ->)]. destruct l as [|a [|b [|c [|]]]]; try done. eauto. Qed.
Lemma length4 {A} (l : list A) : length l = 4%nat <-> exists a b c d, l = [a; b; c; d].
Proof. split; [|by intros (? & ? & ? & ? & ->)]. destruct l as [|a [|b [|c [|d [|]]]]]; try done. eauto 6. Qed.
Lemma finite_spec v q : finite_number v = Val q <-> v = JNum (Fin q).
Proof. unfold finite_number. destruct v as [| |[| |]| | |]; split; congruence. Qed.
Ltac inv2 := repeat match goal with H : Forall2 _ (_ :: _) _ |- _ => inversion H; clear H; subst | H : Forall2 _ [] _ |- _ => inversion H; clear H; subst end.
Lemma vector_spec o k x y z : require_vector o k = Val (x, y, z) <->
  value o k = Some (JArr [JNum (Fin x); JNum (Fin y); JNum (Fin z)]).
Proof.
  unfold require_vector. rewrite bind_val. setoid_rewrite array_spec. split.
  - intros (l & V & H). destruct (Nat.eqb_spec (length l) 3) as [E|]; [|done]. cbn [negb] in H.
    apply bind_val in H as (r & Er & H). apply (each_spec _ _ finite_spec) in Er.
    apply length3 in E as (a & b & c & ->). inv2. injection H as <- <- <-. done.
  - intros V. eexists. split; [done|]. done.
Qed.
Lemma color_spec o k c : require_color o k = Val c <-> exists r g b a, value o k = Some (JArr [r; g; b; a]) /\
    is_channel r (red c) /\ is_channel g (green c) /\ is_channel b (blue c) /\ is_channel a (alpha c).
Proof.
  unfold require_color. rewrite bind_val. setoid_rewrite array_spec. split.
  - intros (l & V & H). destruct (Nat.eqb_spec (length l) 4) as [E|]; [|done]. cbn [negb] in H.
    apply bind_val in H as (r & Er & H). apply (each_spec _ _ channel_spec) in Er.
    apply length4 in E as (a & b & d & e & ->). inv2. injection H as <-. cbn. eauto 10.
  - intros (r & g & b & a & V & R & G & Bl & A). eexists. split; [done|]. cbn [length Nat.eqb negb]. apply bind_val.
    exists [red c; green c; blue c; alpha c]. split; [|by destruct c].
    apply (each_spec _ _ channel_spec). auto.
Qed.
Lemma entry_spec v c : palette_entry v = Val c <-> is_rgb v c.
Proof.
  unfold is_rgb. split.
  - destruct v as [| | | |l|]; try done. cbn [palette_entry]. destruct (Nat.eqb_spec (length l) 3) as [E|]; [|done]. cbn [negb].
    intros H. apply bind_val in H as (r & Er & H). apply (each_spec _ _ channel_spec) in Er.
    apply length3 in E as (a & b & d & ->). inv2. injection H as <-. cbn. eauto 10.
  - intros (r & g & b & -> & R & G & Bl & A). cbn [palette_entry length Nat.eqb negb]. apply bind_val.
    exists [red c; green c; blue c]. split; [|destruct c; cbn in *; congruence].
    apply (each_spec _ _ channel_spec). auto.
Qed.

(** ** Only the named exceptions *)
Definition tame {A} (P : exn -> Prop) (x : checked A) : Prop :=
  match x with Val _ => True | Throws e => P e | Undef => False end.
Lemma tame_bind {A B} (P : exn -> Prop) (x : checked A) (f : A -> checked B) :
  tame P x -> (forall a, x = Val a -> tame P (f a)) -> tame P (bind x f).
Proof. destruct x; cbn; auto. Qed.
Section Tame.
Context (P : exn -> Prop) (HP : P InvalidArgument).
Lemma tame_object o k : tame P (require_object o k).
Proof using HP. unfold require_object. by destruct (value o k) as [[]|]. Qed.
Lemma tame_array o k : tame P (require_array o k).
Proof using HP. unfold require_array. by destruct (value o k) as [[]|]. Qed.
Lemma tame_string o k : tame P (require_string o k).
Proof using HP. unfold require_string. destruct (value o k) as [[]|]; try done. by case_match. Qed.
Lemma tame_bool o k : tame P (require_bool o k).
Proof using HP. unfold require_bool. by destruct (value o k) as [[]|]. Qed.
Lemma tame_number o k : tame P (require_number o k).
Proof using HP. unfold require_number. by destruct (value o k) as [[| |[| |]| | |]|]. Qed.
Lemma tame_integer lo hi o k : tame P (require_integer lo hi o k).
Proof using HP.
  unfold require_integer. apply tame_bind; [apply tame_number|]. intros q _.
  destruct (integral q) eqn:I; [|done]. apply integral_spec in I. cbn [negb orb].
  rewrite !(le_of _ _ _ I), !(ge_of _ _ _ I).
  destruct (lo <=? Qfloor q); [|done]. destruct (Qfloor q <=? hi); [|done]. cbn [negb orb andb]. by case_match.
Qed.
Lemma tame_each {A} (f : json -> checked A) l : (forall v, tame P (f v)) -> tame P (each f l).
Proof.
  intros H. induction l as [|v l IH]; cbn [each]; [done|]. apply tame_bind; [done|]. intros a _. by apply tame_bind.
Qed.
Lemma tame_channel v : tame P (channel v).
Proof using HP. unfold channel. destruct v as [| |[| |]| | |]; try done. by case_match. Qed.
Lemma tame_vector o k : tame P (require_vector o k).
Proof using HP.
  unfold require_vector. apply tame_bind; [apply tame_array|]. intros l _.
  destruct (Nat.eqb_spec (length l) 3) as [E|]; [|done]. cbn [negb]. apply tame_bind.
  - apply tame_each. intros v. unfold finite_number. by destruct v as [| |[| |]| | |].
  - intros r Er. apply (each_spec _ _ finite_spec) in Er. apply length3 in E as (a & b & d & ->). by inv2.
Qed.
Lemma tame_color o k : tame P (require_color o k).
Proof using HP.
  unfold require_color. apply tame_bind; [apply tame_array|]. intros l _.
  destruct (Nat.eqb_spec (length l) 4) as [E|]; [|done]. cbn [negb]. apply tame_bind; [apply tame_each, tame_channel|].
  intros r Er. apply (each_spec _ _ channel_spec) in Er. apply length4 in E as (a & b & d & e & ->). by inv2.
Qed.
Lemma tame_entry v : tame P (palette_entry v).
Proof using HP.
  destruct v as [| | | |l|]; try done. cbn [palette_entry].
  destruct (Nat.eqb_spec (length l) 3) as [E|]; [|done]. cbn [negb]. apply tame_bind; [apply tame_each, tame_channel|].
  intros r Er. apply (each_spec _ _ channel_spec) in Er. apply length3 in E as (a & b & d & ->). by inv2.
Qed.
End Tame.

Section Manifest.
Context (rl rf : Q -> fp) (parent_path : text -> text) (join : text -> text -> text)
        (weakly_canonical : text -> checked text).
Notation parse := (parse_document rl rf parent_path join weakly_canonical).

Lemma parse_tame path root : (forall p, weakly_canonical p <> Undef) ->
  tame (fun e => e = InvalidArgument \/ exists p, weakly_canonical p = Throws e) (parse path root).
Proof.
  intros U. set (P := fun e => _). assert (HP : P InvalidArgument) by (by left). unfold parse_document.
  repeat first
    [ progress cbv zeta
    | match goal with
      | |- tame _ (if ?c then _ else _) => destruct c
      | |- tame _ refuse => exact HP
      | |- tame _ (Val _) => exact Logic.I
      | |- tame _ (bind (weakly_canonical ?p) _) =>
          apply tame_bind; [destruct (weakly_canonical p) eqn:?; cbn; [exact Logic.I|right; eauto|by apply (U p)]|intros ? _]
      | |- tame _ (bind _ _) =>
          apply tame_bind; [first [by apply tame_object|by apply tame_string|by apply tame_bool|by apply tame_number
            |by apply tame_integer|by apply tame_color|by apply tame_vector|by apply tame_array
            |apply tame_each; intros; by apply tame_entry]|intros ? _]
      end ].
Qed.

Lemma ceil_eq n o : fceil (fmul rl (fpz n) (Fin o)) = sampled rl n o.
Proof. unfold sampled, fmul, fpz. destruct (rl (inject_Z n * o)%Q); done. Qed.
Lemma impractical_spec w h o : impractical rl w h o = false <->
  fp_lt (fpz INT32_MAX) (sampled rl w o) = false /\ fp_lt (fpz INT32_MAX) (sampled rl h o) = false /\
  fp_lt (fpz 268435456) (fmul rl (sampled rl w o) (sampled rl h o)) = false.
Proof. unfold impractical. rewrite !ceil_eq, !orb_false_iff. unfold MAX_SNAPSHOT_PIXELS. tauto. Qed.
Lemma area_spec w h n : 0 < w <= INT32_MAX -> 0 < h <= INT32_MAX ->
  (SIZE_MAX / h <? w) || (wrap64 (w * h) <? n) = false <-> n <= w * h.
Proof.
  intros Hw Hh. unfold SIZE_MAX, wrap64, two64, INT32_MAX in *. rewrite orb_false_iff, !Z.ltb_ge.
  rewrite Z.mod_small by nia. split; [tauto|]. intros H. split; [|done]. apply Z.div_le_lower_bound; nia.
Qed.

Lemma parse_sound path root m : parse path root = Val m -> declares rl rf parent_path join weakly_canonical path (JObj root) m.
Proof.
  intros H. unfold parse_document in H.
  apply bind_val in H as (schema & Es & H). destruct (Z.eqb_spec schema 1) as [-> |]; [|done]. cbn [negb] in H.
  apply bind_val in H as (fixture & Ef & H). apply bind_val in H as (topo & Et & H).
  apply bind_val in H as (renderer & Err & H). apply bind_val in H as (render & Er & H).
  apply bind_val in H as (geometry & Eg & H). apply bind_val in H as (style & Est & H).
  apply bind_val in H as (cam & Ec & H). apply bind_val in H as (checks & Ech & H).
  apply object_spec in Ef, Et, Err, Er, Eg, Est, Ec, Ech.
  apply bind_val in H as (rel & Erel & H). apply bind_val in H as (fp_ & Efp & H).
  apply bind_val in H as (entries & Een & H). apply bind_val in H as (palette & Epa & H).
  destruct (bool_decide_reflect (palette = [])) as [|Npa]; [done|].
  apply bind_val in H as (width & Ew & H). apply bind_val in H as (height & Eh & H).
  apply bind_val in H as (psize & Eps & H). apply bind_val in H as (lwidth & Elw & H).
  apply bind_val in H as (over & Eo & H).
  destruct ((width <=? 0) || (height <=? 0) || Qle_bool psize 0 || Qle_bool lwidth 0
     || negb (Qle_bool psize FLOAT_MAX) || negb (Qle_bool lwidth FLOAT_MAX)) eqn:C1; [done|].
  destruct (negb (Qle_bool 1 over) || negb (Qle_bool over 8)) eqn:C2; [done|].
  destruct (impractical rl width height over) eqn:C3; [done|].
  apply bind_val in H as (minimum & Em & H).
  destruct ((SIZE_MAX / height <? width) || (wrap64 (width * height) <? minimum)) eqn:C4; [done|].
  apply bind_val in H as (format & Efo & H). destruct (bool_decide_reflect (format = B "png")) as [-> |]; [|done]. cbn [negb] in H.
  apply bind_val in H as (sha & Esha & H).
  apply bind_val in H as (tv & Etv & H). apply bind_val in H as (te & Ete & H). apply bind_val in H as (tf & Etf & H).
  apply bind_val in H as (ts & Ets & H). apply bind_val in H as (tmin & Etmin & H). apply bind_val in H as (tmax & Etmax & H).
  apply bind_val in H as (cgal & Ecg & H). apply bind_val in H as (qt & Eqt & H).
  apply bind_val in H as (transp & Etr & H). apply bind_val in H as (expand & Eex & H).
  apply bind_val in H as (bg & Ebg & H).
  apply bind_val in H as (dv & Edv & H). apply bind_val in H as (de & Ede & H). apply bind_val in H as (df & Edf & H).
  apply bind_val in H as (vs & Evs & H). apply bind_val in H as (es & Ees & H).
  apply bind_val in H as (thr & Ethr & H). apply bind_val in H as (tol & Etol & H).
  apply bind_val in H as (flat & Efl & H). apply bind_val in H as (pc & Epc & H). apply bind_val in H as (ec & Eec & H).
  apply bind_val in H as (proj & Epr & H). apply bind_val in H as ([[px_ py_] pz_] & Epo & H).
  apply bind_val in H as ([[tx_ ty_] tz_] & Eta & H). apply bind_val in H as ([[ux_ uy_] uz_] & Eup & H).
  apply bind_val in H as (fov & Efov & H).
  destruct (negb (bool_decide (proj = B "perspective")) && negb (bool_decide (proj = B "orthographic"))) eqn:C5; [done|].
  destruct (negb (bool_decide (es = B "all")) && negb (bool_decide (es = B "screen_space_face_boundaries"))) eqn:C6; [done|].
  destruct (negb (bool_decide (vs = B "all")) && negb (bool_decide (vs = B "convex_hull"))) eqn:C7; [done|].
  destruct ((thr <? 0) || (765 <? thr)) eqn:C8; [done|]. destruct ((tol <? 0) || (765 <? tol)) eqn:C9; [done|].
  destruct (Qle_bool fov 0 || Qle_bool PI_DOUBLE fov) eqn:C10; [done|]. injection H as <-.
  apply array_spec in Een. apply (each_spec _ _ entry_spec) in Epa.
  apply integer_spec in Es, Ew, Eh, Em, Etv, Ete, Etf, Ets, Etmin, Etmax, Ethr, Etol.
  apply number_spec in Eps, Elw, Eo, Efov. apply string_spec in Erel, Efo, Esha, Ecg, Eqt, Evs, Ees, Epr.
  apply bool_spec in Etr, Eex, Edv, Ede, Edf, Efl. apply color_spec in Ebg, Epc, Eec. apply vector_spec in Epo, Eta, Eup.
  rewrite !orb_false_iff, !negb_false_iff in C1. destruct C1 as [[[[[W0 H0] P0] L0] P1] L1].
  rewrite !orb_false_iff, !negb_false_iff in C2. destruct C2 as [O1 O2].
  apply Z.leb_gt in W0, H0. apply Qle_bool_iff in P1, L1, O1, O2.
  assert (QN : forall a b, Qle_bool a b = false -> (b < a)%Q).
  { intros a b E. apply Qnot_le_lt. intros L. apply Qle_bool_iff in L. congruence. }
  apply QN in P0, L0. rewrite orb_false_iff in C10. destruct C10 as [F0 F1]. apply QN in F0, F1.
  apply impractical_spec in C3.
  assert (Wr : 0 < width <= INT32_MAX) by (destruct Ew as (? & _ & _ & ? & _); lia).
  assert (Hr : 0 < height <= INT32_MAX) by (destruct Eh as (? & _ & _ & ? & _); lia).
  apply (area_spec _ _ _ Wr Hr) in C4.
  assert (OR : forall (a b c : text), negb (bool_decide (a = b)) && negb (bool_decide (a = c)) = false -> a = b \/ a = c).
  { intros a b c. destruct (bool_decide_reflect (a = b)); [auto|]. destruct (bool_decide_reflect (a = c)); [auto|done]. }
  apply OR in C5, C6, C7. rewrite orb_false_iff, !Z.ltb_ge in C8. rewrite orb_false_iff, !Z.ltb_ge in C9.
  split; cbn [vm_fixture vm_sha256 vm_expected vm_cgal vm_qt vm_render tp_vertices tp_edges tp_faces tp_simplices tp_min tp_max
    rc_width rc_height rc_transparent rc_oversampling rc_expand rc_background rc_vertices rc_edges rc_faces rc_vertex_scope
    rc_edge_scope rc_point_size rc_line_width rc_threshold rc_tolerance rc_flat rc_point rc_edge rc_palette rc_camera rc_minimum
    cm_projection cm_position cm_target cm_up cm_fov];
  unfold says_integer, says_string, says_number, says_flag, says_color, says_vector, says_palette;
  repeat match goal with
    | H : _ /\ _ |- _ => destruct H
    | H : exists _, _ |- _ => destruct H
    end;
  cbv zeta; repeat match goal with |- _ /\ _ => split | |- exists _, _ => eexists end;
  first [ eassumption | reflexivity | repeat (eapply via; [eassumption|]); apply declared_here ].
Qed.
Lemma path2 v k l u : declared v [k; l] u -> exists o p, v = JObj o /\ value o k = Some (JObj p) /\ value p l = Some u.
Proof.
  intros D. apply declared_cons in D as (o & w & -> & V & D). apply declared_cons in D as (p & w' & -> & V' & D).
  apply declared_nil in D as ->. eauto.
Qed.
Lemma path3 v k l n u : declared v [k; l; n] u ->
  exists o p r, v = JObj o /\ value o k = Some (JObj p) /\ value p l = Some (JObj r) /\ value r n = Some u.
Proof.
  intros D. apply declared_cons in D as (o & w & -> & V & D). apply path2 in D as (p & r & -> & V1 & V2). eauto 10.
Qed.

Lemma parse_complete path root m : declares rl rf parent_path join weakly_canonical path (JObj root) m -> parse path root = Val m.
Proof.
  intros D. destruct m as [mf ms [tv te tf ts tmin tmax] mc mq [w h tr ov ex bg dv de df vs es ps lw th to fl pc ec pal
    [proj [[px_ py_] pz_] [[tx_ ty_] tz_] [[ux_ uy_] uz_] fov] mini]].
  destruct D as [Ds Dfi Dsh Dve Ded Dfa Dsi Dmi Dma Dcg Dqt Dwi Dhe Dtr Dex Dov Dfo Dfr Ddv Dde Ddf Dvs Des Dbg Dpo Deg Dpa
    Dps Dlw Dth Dto Dfl Dpr Dpos Dta Dup Dfov Dmin].
  cbn [vm_fixture vm_sha256 vm_expected vm_cgal vm_qt vm_render tp_vertices tp_edges tp_faces tp_simplices tp_min tp_max
    rc_width rc_height rc_transparent rc_oversampling rc_expand rc_background rc_vertices rc_edges rc_faces rc_vertex_scope
    rc_edge_scope rc_point_size rc_line_width rc_threshold rc_tolerance rc_flat rc_point rc_edge rc_palette rc_camera rc_minimum
    cm_projection cm_position cm_target cm_up cm_fov] in *.
  unfold says_integer, says_string, says_number, says_flag, says_color, says_vector, says_palette in *.
  assert (Ef : exists fixture, value root (B "fixture") = Some (JObj fixture)).
  { destruct Dsh as [Dsh _]. apply path2 in Dsh as (? & ? & [= <-] & ? & _). eauto. }
  destruct Ef as [fixture Ef].
  assert (Et : exists topo, value fixture (B "expected_topology") = Some (JObj topo)).
  { destruct Dve as (q & Dve & _). apply path3 in Dve as (? & ? & ? & [= <-] & E & ? & _).
    rewrite Ef in E. injection E as <-. eauto. }
  destruct Et as [topo Et].
  assert (Err : exists renderer, value root (B "renderer") = Some (JObj renderer)).
  { destruct Dcg as [Dcg _]. apply path2 in Dcg as (? & ? & [= <-] & ? & _). eauto. }
  destruct Err as [renderer Err].
  assert (Er : exists render, value root (B "render") = Some (JObj render)).
  { apply path2 in Dtr as (? & ? & [= <-] & ? & _). eauto. }
  destruct Er as [render Er].
  assert (Eg : exists geometry, value render (B "geometry") = Some (JObj geometry)).
  { apply path3 in Ddv as (? & ? & ? & [= <-] & E & ? & _). rewrite Er in E. injection E as <-. eauto. }
  destruct Eg as [geometry Eg].
  assert (Est : exists style, value render (B "style") = Some (JObj style)).
  { apply path3 in Dfl as (? & ? & ? & [= <-] & E & ? & _). rewrite Er in E. injection E as <-. eauto. }
  destruct Est as [style Est].
  assert (Ec : exists cam, value render (B "camera") = Some (JObj cam)).
  { apply path3 in Dpos as (? & ? & ? & [= <-] & E & ? & _). rewrite Er in E. injection E as <-. eauto. }
  destruct Ec as [cam Ec].
  assert (Ech : exists checks, value root (B "comparison") = Some (JObj checks)).
  { destruct Dmin as [(q & Dmin & _) _]. apply path2 in Dmin as (? & ? & [= <-] & ? & _). eauto. }
  destruct Ech as [checks Ech].
  repeat match goal with
    | H : _ /\ _ |- _ => destruct H
    | H : exists _, _ |- _ => destruct H
    | H : declared (JObj ?o) (?k :: ?l :: ?r) ?u, E : value ?o ?k = Some (JObj ?p) |- _ =>
        apply (declared_step o k (JObj p) (l :: r) u E) in H
    | H : declared (JObj ?o) [?k] ?u |- _ => apply declared_leaf in H
    end.
  assert (QN : forall a b, (b < a)%Q -> Qle_bool a b = false).
  { intros a b L. destruct (Qle_bool a b) eqn:E; [|done]. apply Qle_bool_iff in E. by apply Qle_not_lt in E. }
  assert (H0w : 0 < w) by assumption. assert (H1w : w <= INT32_MAX) by assumption.
  assert (H0h : 0 < h) by assumption. assert (H1h : h <= INT32_MAX) by assumption.
  assert (OR : forall (a b c : text), a = b \/ a = c -> negb (bool_decide (a = b)) && negb (bool_decide (a = c)) = false).
  { intros a b c Habc. apply andb_false_iff. rewrite !negb_false_iff, !bool_decide_eq_true. exact Habc. }
  unfold parse_document, require_int, require_size.
  repeat first
    [ apply bind_val; eexists; split;
      [ first [ apply object_spec; eassumption
              | apply integer_spec; eexists; split; [eassumption|split; [eassumption|split; [split; assumption|assumption]]]
              | apply string_spec; split; eassumption
              | eassumption
              | apply array_spec; eassumption
              | apply (each_spec _ _ entry_spec); eassumption
              | apply bool_spec; eassumption
              | apply number_spec; eassumption
              | apply vector_spec; eassumption
              | apply color_spec; do 4 eexists; split; [eassumption|split; [eassumption|split; [eassumption|split; eassumption]]] ] | cbv beta ]
    | match goal with
      | |- (if negb (1 =? 1) then _ else _) = _ => cbn [Z.eqb Pos.eqb negb]
      | |- (if bool_decide (pal = []) then _ else _) = _ => rewrite bool_decide_eq_false_2 by assumption
      | |- (if negb (bool_decide (?a = ?a)) then _ else _) = _ => rewrite (bool_decide_eq_true_2 (a = a)) by reflexivity; cbn [negb]
      | |- (if impractical ?rl ?a ?b ?c then _ else _) = _ =>
          rewrite (proj2 (impractical_spec a b c)) by (split; [assumption|split; assumption])
      | |- (if (SIZE_MAX / _ <? _) || _ then _ else _) = _ => rewrite (proj2 (area_spec _ _ _ (conj H0w H1w) (conj H0h H1h))) by assumption
      | |- (if negb (bool_decide _) && _ then _ else _) = _ => rewrite OR by assumption
      | |- (if ?c then _ else _) = _ =>
          let E := fresh in assert (E : c = false) by
            (rewrite ?orb_false_iff; repeat split;
             first [apply Z.leb_gt; assumption | apply Z.ltb_ge; assumption | apply QN; assumption
                   |apply negb_false_iff, Qle_bool_iff; assumption]);
          rewrite E; clear E
      end ].
  subst. reflexivity.
Qed.
End Manifest.
