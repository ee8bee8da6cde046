(** The sidecar reader accepts exactly the acceptable sidecars (C41, C42). *)
From Verif Require Import Base Config Text PersistSpec TextFacts Persist PersistFacts MetaSpec.
From Coq Require Import QArith_base.
Local Open Scope Z_scope.
Local Open Scope list_scope.

Lemma bind_val {A C} (x : checked A) (f : A -> checked C) y :
  bind x f = Val y <-> exists a, x = Val a /\ f a = Val y.
Proof.
  destruct x as [a|e|]; cbn; split; try discriminate.
  - eauto.
  - intros (b & [= <-] & H). exact H.
  - intros (b & H & _). discriminate.
  - intros (b & H & _). discriminate.
Qed.
Lemma require_val b u : require b = Val u <-> b = true.
Proof. unfold require. destruct b, u; split; congruence. Qed.

(** * The fields as a map *)
Lemma get_in values k v : NoDup (map fst values) -> get values k = Some v <-> In (k, v) values.
Proof.
  induction values as [|[k' v'] r IH]; intros ND; cbn [get map fst].
  - split; [discriminate|intros []].
  - cbn [map fst] in ND. apply stdpp.list.NoDup_cons in ND as [N ND].
    destruct (text_eqb k k') eqn:E.
    + apply text_eqb_spec in E as ->. split.
      * intros [= ->]. left. reflexivity.
      * intros [[= ->]|I]; [reflexivity|]. exfalso. apply N, elem_of_list_In, in_map_iff. exists (k', v). auto.
    + rewrite IH by assumption. split; [intros I; right; exact I|].
      intros [[= -> ->]|I]; [|exact I]. exfalso.
      assert (K : text_eqb k k = true) by (apply text_eqb_spec; reflexivity). congruence.
Qed.
Lemma contains_has values k : contains values k = true <-> has values k.
Proof.
  unfold contains, has. induction values as [|[k' v'] r IH]; cbn [get map fst].
  - cbn. split; [discriminate|intros []].
  - destruct (text_eqb k k') eqn:E.
    + apply text_eqb_spec in E as ->. split; [left; reflexivity|reflexivity].
    + rewrite IH. split; [intros I; right; exact I|]. intros [->|I]; [|exact I]. exfalso.
      assert (K : text_eqb k k = true) by (apply text_eqb_spec; reflexivity). congruence.
Qed.
Lemma contains_not values k : contains values k = false <-> ~ has values k.
Proof. rewrite <- contains_has. destruct (contains values k); split; congruence. Qed.
Lemma get_none values k : get values k = None <-> ~ has values k.
Proof.
  rewrite <- contains_not. unfold contains. destruct (get values k); split; congruence.
Qed.
Lemma in_has values k v : In (k, v) values -> has values k.
Proof. intros H. apply in_map_iff. exists (k, v). auto. Qed.

(** * Lines to fields *)
Lemma read_fields_spec fuel : forall input values out, (length input < fuel)%nat ->
  (read_fields fuel input values = Val out <->
   exists ls fs, lines input ls [] /\ Forall2 key_value_line ls fs /\ out = values ++ fs
     /\ NoDup (map fst fs) /\ Forall (fun kv => ~ has values (fst kv)) fs).
Proof.
  induction fuel as [|f IH]; intros input values out Hl; [lia|]. cbn [read_fields].
  destruct (getline input) as [[line rest]|] eqn:G.
  - apply getline_spec in G. assert (Hr : (length rest < f)%nat).
    { destruct G as [_ [->|(-> & Hne & ->)]].
      - rewrite app_length in Hl. cbn in Hl. lia.
      - destruct line; [congruence|]. cbn in Hl |- *. lia. }
    destruct (find_char EQ line) as [[k v]|] eqn:Ef.
    + apply find_char_spec in Ef as [-> Nk].
      destruct ((match k with [] => true | _ => false end) || (match v with [] => true | _ => false end)) eqn:Eb.
      * split; [discriminate|]. intros (ls & fs & L & F & _). exfalso.
        inversion L as [|? l u ls' ? G' L']; subst; [destruct G as [_ [E|(E & E' & _)]]; [destruct k; discriminate|symmetry in E; contradiction]|].
        destruct (first_line_fun _ _ _ _ _ G G') as [<- <-].
        inversion F as [|? [k' v'] ? fs' (E & Ek & Ev & Nk') F']; subst. cbn [fst snd] in *.
        assert (K : find_char EQ (k ++ EQ :: v) = Some (k', v')) by (apply find_char_spec; auto).
        rewrite (proj2 (find_char_spec EQ _ k v) (conj eq_refl Nk)) in K. injection K as -> ->.
        destruct k'; [congruence|]. destruct v'; [congruence|]. discriminate.
      * destruct (contains values k) eqn:Ec.
        -- split; [discriminate|]. intros (ls & fs & L & F & -> & ND & Fn). exfalso.
           inversion L as [|? l u ls' ? G' L']; subst; [destruct G as [_ [E|(E & E' & _)]]; [destruct k; discriminate|symmetry in E; contradiction]|].
           destruct (first_line_fun _ _ _ _ _ G G') as [<- <-].
           inversion F as [|? [k' v'] ? fs' (E & Ek & Ev & Nk') F']; subst. cbn [fst snd] in *.
           assert (K : find_char EQ (k ++ EQ :: v) = Some (k', v')) by (apply find_char_spec; auto).
           rewrite (proj2 (find_char_spec EQ _ k v) (conj eq_refl Nk)) in K. injection K as -> ->.
           apply Forall_cons_1 in Fn as [Fn _]. apply contains_has in Ec. exact (Fn Ec).
        -- rewrite IH by assumption. apply contains_not in Ec. split.
           ++ intros (ls & fs & L & F & -> & ND & Fn). exists ((k ++ EQ :: v) :: ls), ((k, v) :: fs).
              assert (Hh : forall x, has (values ++ [(k, v)]) x <-> has values x \/ x = k).
              { intros x. unfold has. rewrite map_app, in_app_iff. cbn. intuition congruence. }
              split; [econstructor; eassumption|]. split.
              { constructor; [|assumption]. cbn [fst snd]. split; [reflexivity|].
                destruct k; [discriminate|]. destruct v; [discriminate|]. split; [discriminate|]. split; [discriminate|assumption]. }
              split; [rewrite <- app_assoc; reflexivity|]. split.
              { cbn [map fst]. apply stdpp.list.NoDup_cons. split; [|assumption].
                intros K. apply elem_of_list_In, in_map_iff in K as (e & Ee & Ie).
                rewrite List.Forall_forall in Fn. apply (Fn e Ie). apply Hh. right. assumption. }
              { constructor; [exact Ec|]. eapply List.Forall_impl; [|exact Fn]. intros e He K. apply He, Hh. left. exact K. }
           ++ intros (ls & fs & L & F & -> & ND & Fn).
              inversion L as [|? l u ls' ? G' L']; subst; [destruct G as [_ [E|(E & E' & _)]]; [destruct k; discriminate|symmetry in E; contradiction]|].
              destruct (first_line_fun _ _ _ _ _ G G') as [<- <-].
              inversion F as [|? [k' v'] ? fs' (E & Ek & Ev & Nk') F']; subst. cbn [fst snd] in *.
              assert (K : find_char EQ (k ++ EQ :: v) = Some (k', v')) by (apply find_char_spec; auto).
              rewrite (proj2 (find_char_spec EQ _ k v) (conj eq_refl Nk)) in K. injection K as <- <-.
              exists ls', fs'. split; [assumption|]. split; [assumption|].
              split; [rewrite <- app_assoc; reflexivity|].
              cbn [map fst] in ND. apply stdpp.list.NoDup_cons in ND as [N ND]. split; [assumption|].
              apply Forall_cons_1 in Fn as [_ Fn]. rewrite List.Forall_forall in Fn |- *.
              intros e Ie K. unfold has in K. rewrite map_app, in_app_iff in K. destruct K as [K|[K|[]]].
              ** exact (Fn e Ie K).
              ** apply N, elem_of_list_In, in_map_iff. exists e. split; [cbn in K; congruence|assumption].
    + apply find_char_none in Ef. split; [discriminate|]. intros (ls & fs & L & F & _). exfalso.
      inversion L as [|? l u ls' ? G' L']; subst; [destruct G as [_ [E|(E & E' & _)]]; [destruct line; discriminate|symmetry in E; contradiction]|].
      destruct (first_line_fun _ _ _ _ _ G G') as [<- <-].
      inversion F as [|? [k' v'] ? fs' (E & _) F']; subst. apply Ef. cbn. apply in_or_app. right. left. reflexivity.
  - apply getline_none in G as ->. split.
    + intros [= <-]. exists [], []. split; [constructor|]. split; [constructor|]. split; [rewrite app_nil_r; reflexivity|].
      split; constructor.
    + intros (ls & fs & L & F & -> & _). inversion L as [|? l u ls' ? [_ G'] L']; subst.
      * inversion F; subst. rewrite app_nil_r. reflexivity.
      * destruct G' as [E|(E & E' & _)]; [destruct l; discriminate|congruence].
Qed.

Lemma read_fields_cases fuel : forall input values,
  (exists p, read_fields fuel input values = Val p) \/ read_fields fuel input values = Throws FilesystemError.
Proof.
  induction fuel as [|f IH]; intros input values; cbn [read_fields]; [eauto|].
  destruct (getline input) as [[line rest]|]; [|eauto].
  destruct (find_char EQ line) as [[k v]|]; [|auto].
  destruct (_ || _); [auto|]. destruct (contains values k); auto.
Qed.

(** * Field readers *)
Section Interpret.
Variables scan_double scan_long_double : text -> option (fp * text).
Variable values : list (text * text).
Hypothesis ND : NoDup (map fst values).

Lemma at_key_val k v : at_key values k = Val v <-> In (k, v) values.
Proof using ND.
  rewrite <- get_in by exact ND. unfold at_key. destruct (get values k); split; congruence.
Qed.
Lemma int_field_val k z : int_field values k = Val z <-> int_is values k z.
Proof using ND.
  unfold int_field, int_is. rewrite bind_val. setoid_rewrite at_key_val. setoid_rewrite parse_int_spec. reflexivity.
Qed.
Lemma dec_field_val k z : unsigned_field values k 10 = Val z <-> dec_is values k z.
Proof using ND.
  unfold unsigned_field, dec_is. rewrite bind_val. setoid_rewrite at_key_val.
  split; intros (v & I & H); exists v; (split; [exact I|]); apply parse_unsigned_spec; (exact H || lia).
Qed.
Lemma hex_field_val k z : unsigned_field values k 16 = Val z <-> hex_is values k z.
Proof using ND.
  unfold unsigned_field, hex_is. rewrite bind_val. setoid_rewrite at_key_val.
  split; intros (v & I & H); exists v; (split; [exact I|]); apply parse_unsigned_spec; (exact H || lia).
Qed.
Lemma float_field_val scan k x : float_field scan values k = Val x <-> exists q, x = Fin q /\ float_is values scan k q.
Proof using ND.
  unfold float_field, float_is, parse_floating. rewrite bind_val. setoid_rewrite at_key_val. split.
  - intros (v & I & H). destruct (scan v) as [[y rest]|] eqn:E; [|discriminate].
    destruct (skip_ws rest) eqn:Es; [|discriminate]. destruct y as [| |q]; cbn in H; try discriminate.
    injection H as <-. exists q. split; [reflexivity|]. exists v, rest. apply skip_ws_spec in Es. auto.
  - intros (q & -> & v & rest & I & E & Hb). exists v. split; [exact I|]. rewrite E.
    apply skip_ws_spec in Hb. rewrite Hb. reflexivity.
Qed.
Lemma fixed_field_val k e u : fixed_field values k e = Val u <-> In (k, e) values.
Proof using ND.
  unfold fixed_field. rewrite bind_val. setoid_rewrite at_key_val. setoid_rewrite require_val.
  setoid_rewrite text_eqb_spec. split; [intros (a & I & ->); exact I|eauto].
Qed.

Lemma int_is_has k z : int_is values k z -> has values k.
Proof using. intros (v & I & _). eapply in_has, I. Qed.
Lemma dec_is_has k z : dec_is values k z -> has values k.
Proof using. intros (v & I & _). eapply in_has, I. Qed.
Lemma hex_is_has k z : hex_is values k z -> has values k.
Proof using. intros (v & I & _). eapply in_has, I. Qed.
Lemma float_is_has s k z : float_is values s k z -> has values k.
Proof using. intros (v & r & I & _). eapply in_has, I. Qed.

Lemma parse_artifact_val v a : parse_artifact v = Val a <->
  v = match a with INITIAL_TRIANGULATION => B "initial-triangulation" | CHECKPOINT => B "checkpoint"
      | FINAL_TRIANGULATION => B "final-triangulation" end.
Proof using.
  unfold parse_artifact.
  destruct (text_eqb v (B "initial-triangulation")) eqn:E1;
  [apply text_eqb_spec in E1 as ->; split; [intros [= <-]; reflexivity|destruct a; [reflexivity|discriminate..]]|].
  destruct (text_eqb v (B "checkpoint")) eqn:E2;
  [apply text_eqb_spec in E2 as ->; split; [intros [= <-]; reflexivity|destruct a; [discriminate|reflexivity|discriminate]]|].
  destruct (text_eqb v (B "final-triangulation")) eqn:E3;
  [apply text_eqb_spec in E3 as ->; split; [intros [= <-]; reflexivity|destruct a; [discriminate..|reflexivity]]|].
  split; [discriminate|]. intros ->. destruct a; discriminate.
Qed.
Lemma parse_topology_val v a : parse_topology v = Val a <->
  v = match a with SPHERICAL => B "spherical" | TOROIDAL => B "toroidal" end.
Proof using.
  unfold parse_topology.
  destruct (text_eqb v (B "spherical")) eqn:E1;
  [apply text_eqb_spec in E1 as ->; split; [intros [= <-]; reflexivity|destruct a; [reflexivity|discriminate..]]|].
  destruct (text_eqb v (B "toroidal")) eqn:E2;
  [apply text_eqb_spec in E2 as ->; split; [intros [= <-]; reflexivity|destruct a; [discriminate|reflexivity]]|].
  split; [discriminate|]. intros ->. destruct a; discriminate.
Qed.

Lemma qle_false p q : Qle_bool p q = false <-> (q < p)%Q.
Proof using.
  rewrite <- not_true_iff_false, Qle_bool_iff. split; [apply Qnot_le_lt|].
  intros H K. eapply Qlt_not_le; eassumption.
Qed.

Lemma all_or_none a b c : negb (negb (b2z a + b2z b + b2z c =? 0) && negb (b2z a + b2z b + b2z c =? 3)) = true
  <-> a = b /\ b = c.
Proof using. destruct a, b, c; vm_compute; intuition congruence. Qed.
Lemma both_or_none a b : negb (negb (b2z a + b2z b =? 0) && negb (b2z a + b2z b =? 2)) = true <-> a = b.
Proof using. destruct a, b; vm_compute; intuition congruence. Qed.
Lemma together_eq a b : contains values a = contains values b <-> together values a b.
Proof using.
  clear ND scan_double scan_long_double. unfold together. rewrite <- !contains_has. destruct (contains values a), (contains values b); intuition congruence.
Qed.

Lemma guarded (c : bool) (x : checked unit) u : (if c then x else Val tt) = Val u <-> (c = true -> x = Val tt).
Proof using. destruct c, u; split; try tauto; try discriminate; intros H; auto. Qed.

Lemma bind_intro {A C} (x : checked A) (f : A -> checked C) a y : x = Val a -> f a = Val y -> bind x f = Val y.
Proof using. intros -> H. exact H. Qed.

Ltac step H name := apply bind_val in H as (name & ?Hn & H).

Lemma interpret_fields_sound p :
  interpret_fields scan_double scan_long_double values = Val p
  -> accepted scan_double scan_long_double values p.
Proof using ND.
  unfold interpret_fields. intros H.
  apply bind_val in H as (u0 & Hreq & H). apply require_val in Hreq.
  apply bind_val in H as (u1 & H1 & H). apply fixed_field_val in H1.
  apply bind_val in H as (u2 & H2 & H). apply fixed_field_val in H2.
  apply bind_val in H as (u3 & H3 & H). apply fixed_field_val in H3.
  apply bind_val in H as (u4 & H4 & H). apply fixed_field_val in H4.
  apply bind_val in H as (u5 & H5 & H). apply fixed_field_val in H5.
  apply bind_val in H as (av & Hav & H). apply at_key_val in Hav.
  apply bind_val in H as (artifact & Hart & H). apply parse_artifact_val in Hart.
  apply bind_val in H as (tv & Htv & H). apply at_key_val in Htv.
  apply bind_val in H as (topo & Htop & H). apply parse_topology_val in Htop.
  apply bind_val in H as (dim & Hdim & H). apply int_field_val in Hdim.
  apply bind_val in H as (ds & Hds & H). apply int_field_val in Hds.
  apply bind_val in H as (dt & Hdt & H). apply int_field_val in Hdt.
  apply bind_val in H as (nv & Hnv & H). apply int_field_val in Hnv.
  apply bind_val in H as (ne & Hne & H). apply int_field_val in Hne.
  apply bind_val in H as (nf & Hnf & H). apply int_field_val in Hnf.
  apply bind_val in H as (nc & Hnc & H). apply int_field_val in Hnc.
  apply bind_val in H as (mn & Hmn & H). apply int_field_val in Hmn.
  apply bind_val in H as (mx & Hmx & H). apply int_field_val in Hmx.
  apply bind_val in H as (u6 & H6 & H). apply require_val in H6.
  rewrite negb_true_iff, !orb_false_iff, !Z.ltb_ge, Z.leb_gt in H6.
  apply bind_val in H as (rad & Hrad & H). apply float_field_val in Hrad as (qr & -> & Hrad).
  apply bind_val in H as (spa & Hspa & H). apply float_field_val in Hspa as (qs & -> & Hspa).
  apply bind_val in H as (u7 & H7 & H). apply require_val in H7.
  rewrite negb_true_iff, orb_false_iff in H7. destruct H7 as [H7 H7'].
  cbn [fp_leb fp_zero] in H7'. apply qle_false in H7'.
  assert (H7q : (0 <= qr)%Q).
  { unfold fp_ltb0, fp_lt, fp_zero in H7. apply negb_false_iff in H7. apply Qle_bool_iff. exact H7. }
  apply bind_val in H as (u8 & H8 & H). apply require_val, all_or_none in H8 as [H8 H8'].
  apply bind_val in H as (u9 & H9 & H).
  apply bind_val in H as (u10 & H10 & H). apply require_val in H10. apply (proj1 (both_or_none _ _)) in H10.
  apply bind_val in H as (u11 & H11 & H).
  apply bind_val in H as (u12 & H12 & H).
  apply bind_val in H as (u13 & H13 & H). apply require_val in H13.
  apply bind_val in H as (u14 & H14 & H).
  apply bind_val in H as (thr & Hthr & H).
  apply bind_val in H as (u15 & H15 & H). apply require_val in H15. apply (proj1 (both_or_none _ _)) in H15.
  apply bind_val in H as (u16 & H16 & H).
  apply bind_val in H as (size & Hsize & H). apply dec_field_val in Hsize.
  apply bind_val in H as (digest & Hdigest & H). apply hex_field_val in Hdigest.
  apply bind_val in H as (seed & Hseed & H). apply dec_field_val in Hseed.
  apply bind_val in H as (ini & Hini & H). apply dec_field_val in Hini.
  apply bind_val in H as (tra & Htra & H). apply dec_field_val in Htra.
  apply bind_val in H as (pla & Hpla & H). apply hex_field_val in Hpla.
  apply bind_val in H as (fin & Hfin & H). apply hex_field_val in Hfin.
  injection H as <-.
  rewrite H8, H8' in H9. rewrite H10 in H11. rewrite H15 in H16.
  assert (A3 : has values (B "lambda") -> exists a, (exists q, a = Fin q /\ float_is values scan_long_double (B "alpha") q)
     /\ (exists q, float_is values scan_long_double (B "k") q) /\ (exists q, float_is values scan_long_double (B "lambda") q)
     /\ fp_leb a fp_half = false).
  { intros K. apply contains_has in K. rewrite K in H9. change (b2z true + b2z true + b2z true =? 3) with true in H9.
    cbv beta iota in H9.
    apply bind_val in H9 as (a & Ha & H9). apply float_field_val in Ha.
    apply bind_val in H9 as (k & Hk & H9). apply float_field_val in Hk as (qk & _ & Hk).
    apply bind_val in H9 as (l & Hl & H9). apply float_field_val in Hl as (ql & _ & Hl).
    apply require_val, negb_true_iff in H9. exists a. split; [exact Ha|]. split; [exists qk; exact Hk|]. split; [exists ql; exact Hl|exact H9]. }
  assert (R2 : has values (B "checkpoint_interval") -> (exists z, int_is values (B "configured_passes") z /\ 0 < z)
     /\ (exists z, int_is values (B "checkpoint_interval") z /\ 0 < z)).
  { intros K. apply contains_has in K. rewrite K in H11. change (b2z true + b2z true =? 2) with true in H11.
    cbv beta iota in H11.
    apply bind_val in H11 as (a & Ha & H11). apply int_field_val in Ha.
    apply bind_val in H11 as (? & Hr & H11). apply require_val, negb_true_iff, Z.leb_gt in Hr.
    apply bind_val in H11 as (b & Hb & H11). apply int_field_val in Hb.
    apply require_val, negb_true_iff, Z.leb_gt in H11. split; [exists a|exists b]; split; assumption. }
  assert (T2 : has values (B "transition_trace.count") -> (exists z, hex_is values (B "transition_trace.fnv1a64") z)
     /\ (exists z, dec_is values (B "transition_trace.count") z)).
  { intros K. apply contains_has in K. rewrite K in H16. change (b2z true + b2z true =? 2) with true in H16.
    cbv beta iota in H16.
    apply bind_val in H16 as (a & Ha & H16). apply hex_field_val in Ha.
    apply bind_val in H16 as (b & Hb & H16). apply dec_field_val in Hb. split; [exists a|exists b]; assumption. }
  rewrite forallb_forall in Hreq.
  apply together_eq in H8 as T8. apply together_eq in H8' as T8'. apply together_eq in H10 as T10.
  apply together_eq in H15 as T15.
  constructor; cbn [p_payload p_artifact p_seed p_init_stream p_trans_stream p_topology p_dimension p_vertices
    p_edges p_faces p_simplices p_min_time p_max_time p_threads p_placement p_fingerprint i_size i_digest].
  - exact ND.
  - apply List.Forall_forall. intros k Hk. apply contains_has, Hreq.
    unfold required_keys. cbn [In] in Hk |- *. tauto.
  - assumption.
  - assumption.
  - assumption.
  - assumption.
  - assumption.
  - rewrite <- Hart. assumption.
  - rewrite <- Htop. assumption.
  - assumption.
  - assumption.
  - assumption.
  - assumption.
  - assumption.
  - split; [assumption|lia].
  - split; [assumption|lia].
  - split; [assumption|lia].
  - split; [assumption|lia].
  - split; [assumption|lia].
  - split; [assumption|]. split; [assumption|lia].
  - exists ds. split; [assumption|lia].
  - exists dt. split; [assumption|lia].
  - exists qr. split; assumption.
  - exists qs. split; assumption.
  - split; assumption.
  - intros K. destruct A3 as (a & (q & -> & Ha) & _ & _ & L); [apply T8', T8, K|].
    exists q. split; [assumption|]. apply qle_false. exact L.
  - intros K. destruct A3 as (a & _ & Hk & _); [apply T8', K|]. exact Hk.
  - intros K. destruct A3 as (a & _ & _ & Hl & _); [exact K|]. exact Hl.
  - assumption.
  - intros K. apply R2, T10, K.
  - intros K. apply R2, K.
  - intros K. apply contains_has in K. rewrite K in H12.
    apply bind_val in H12 as (a & Ha & H12). apply int_field_val in Ha.
    apply require_val, negb_true_iff, Z.leb_gt in H12. exists a. split; assumption.
  - intros ->. cbn [is_checkpoint andb negb] in H13. rewrite negb_involutive in H13. apply contains_has, H13.
  - intros K. apply contains_has in K. rewrite K in H14.
    apply bind_val in H14 as (a & Ha & H14). apply int_field_val in Ha.
    apply require_val, negb_true_iff, Z.ltb_ge in H14. exists a. split; assumption.
  - destruct (get values (B "parallel.max_threads")) as [v|] eqn:Eg.
    + apply bind_val in Hthr as (n & Hn & Hthr). apply bind_val in Hthr as (? & Hr & Hthr).
      injection Hthr as <-. apply require_val, negb_true_iff, Z.eqb_neq in Hr.
      apply get_in in Eg; [|exact ND]. apply parse_unsigned_spec in Hn; [|lia].
      split; [exists v; auto|]. destruct Hn as [_ Hn]. lia.
    + injection Hthr as <-. apply get_none, Eg.
  - assumption.
  - intros K. apply T2, T15, K.
  - intros K. apply T2, K.
  - assumption.
  - assumption.
Qed.

Lemma has_at k : has values k -> exists v, In (k, v) values.
Proof using. unfold has. intros K. apply in_map_iff in K as ((k' & v) & <- & I). exists v. exact I. Qed.

Lemma interpret_fields_complete p :
  accepted scan_double scan_long_double values p ->
  interpret_fields scan_double scan_long_double values = Val p.
Proof using ND.
  intros A. destruct A as [ac_no_duplicate0 ac_build0 ac_resume0 ac_replay0 ac_start0 ac_engine0 ac_standard0 ac_artifact0 ac_topology0 ac_size0 ac_digest0 ac_seed0 ac_init0 ac_trans0 ac_dimension0 ac_vertices0 ac_edges0 ac_faces0 ac_simplices0 ac_times0 ac_desired_simplices0 ac_desired_timeslices0 ac_radius0 ac_spacing0 ac_action0 ac_alpha0 ac_k0 ac_lambda0 ac_run0 ac_passes0 ac_interval0 ac_attempts0 ac_checkpoint0 ac_completed0 ac_threads0 ac_transition0 ac_trace0 ac_count0 ac_placement0 ac_fingerprint0]. unfold interpret_fields.
  destruct p as [[size digest] art seed ini tra topo dim nv ne nf nc mn mx thr pla fin].
  cbn [p_payload p_artifact p_seed p_init_stream p_trans_stream p_topology p_dimension p_vertices
    p_edges p_faces p_simplices p_min_time p_max_time p_threads p_placement p_fingerprint i_size i_digest] in *.
  destruct ac_dimension0 as [Ddim Pdim]. destruct ac_vertices0 as [Dnv Pnv]. destruct ac_edges0 as [Dne Pne].
  destruct ac_faces0 as [Dnf Pnf]. destruct ac_simplices0 as [Dnc Pnc]. destruct ac_times0 as (Dmn & Dmx & Pt).
  destruct ac_desired_simplices0 as (ds & Dds & Pds). destruct ac_desired_timeslices0 as (dt & Ddt & Pdt).
  destruct ac_radius0 as (qr & Dr & Pr). destruct ac_spacing0 as (qs & Ds & Ps). destruct ac_action0 as [Ta Tk].
  eapply (bind_intro _ _ tt).
  { apply require_val, forallb_forall. intros k Hk. apply contains_has.
    rewrite !List.Forall_forall in ac_build0. unfold required_keys in Hk. cbn [In] in Hk.
    repeat (destruct Hk as [<-|Hk];
      [first [ eapply in_has; eassumption | eapply int_is_has; eassumption | eapply dec_is_has; eassumption
             | eapply hex_is_has; eassumption | eapply float_is_has; eassumption
             | apply ac_build0; cbn [In]; tauto ] |]). destruct Hk. }
  eapply (bind_intro _ _ tt); [apply fixed_field_val; assumption|].
  eapply (bind_intro _ _ tt); [apply fixed_field_val; assumption|].
  eapply (bind_intro _ _ tt); [apply fixed_field_val; assumption|].
  eapply (bind_intro _ _ tt); [apply fixed_field_val; assumption|].
  eapply (bind_intro _ _ tt); [apply fixed_field_val; assumption|].
  eapply bind_intro; [apply at_key_val; eassumption|].
  eapply (bind_intro _ _ art); [apply parse_artifact_val; reflexivity|].
  eapply bind_intro; [apply at_key_val; eassumption|].
  eapply (bind_intro _ _ topo); [apply parse_topology_val; reflexivity|].
  eapply bind_intro; [apply int_field_val; eassumption|].
  eapply bind_intro; [apply int_field_val; eassumption|].
  eapply bind_intro; [apply int_field_val; eassumption|].
  eapply bind_intro; [apply int_field_val; eassumption|].
  eapply bind_intro; [apply int_field_val; eassumption|].
  eapply bind_intro; [apply int_field_val; eassumption|].
  eapply bind_intro; [apply int_field_val; eassumption|].
  eapply bind_intro; [apply int_field_val; eassumption|].
  eapply bind_intro; [apply int_field_val; eassumption|].
  eapply (bind_intro _ _ tt).
  { apply require_val. rewrite negb_true_iff, !orb_false_iff, !Z.ltb_ge, Z.leb_gt. lia. }
  eapply bind_intro; [apply float_field_val; eexists; split; [reflexivity|eassumption]|].
  eapply bind_intro; [apply float_field_val; eexists; split; [reflexivity|eassumption]|].
  eapply (bind_intro _ _ tt).
  { apply require_val. rewrite negb_true_iff, orb_false_iff. split; [|apply qle_false; exact Ps].
    unfold fp_ltb0, fp_lt, fp_zero. apply negb_false_iff, Qle_bool_iff. exact Pr. }
  cbv zeta.
  apply together_eq in Ta as Ca. apply together_eq in Tk as Ck. apply together_eq in ac_run0 as Cr.
  apply together_eq in ac_transition0 as Ct.
  eapply (bind_intro _ _ tt); [apply require_val, all_or_none; auto|].
  eapply (bind_intro _ _ tt).
  { rewrite Ca, Ck. destruct (contains values (B "lambda")) eqn:El; [|reflexivity].
    change (b2z true + b2z true + b2z true =? 3) with true. cbv beta iota.
    apply contains_has in El. assert (Kk : has values (B "k")) by (apply Tk; exact El).
    assert (Ka : has values (B "alpha")) by (apply Ta; exact Kk).
    destruct (ac_alpha0 Ka) as (qa & Fa & Pa). destruct (ac_k0 Kk) as (qk & Fk). destruct (ac_lambda0 El) as (ql & Fl).
    eapply bind_intro; [apply float_field_val; eexists; split; [reflexivity|exact Fa]|].
    eapply bind_intro; [apply float_field_val; eexists; split; [reflexivity|exact Fk]|].
    eapply bind_intro; [apply float_field_val; eexists; split; [reflexivity|exact Fl]|].
    apply require_val, negb_true_iff, qle_false. exact Pa. }
  eapply (bind_intro _ _ tt); [apply require_val, both_or_none; auto|].
  eapply (bind_intro _ _ tt).
  { rewrite Cr. destruct (contains values (B "checkpoint_interval")) eqn:El; [|reflexivity].
    change (b2z true + b2z true =? 2) with true. cbv beta iota.
    apply contains_has in El. assert (Kk : has values (B "configured_passes")) by (apply ac_run0; exact El).
    destruct (ac_passes0 Kk) as (a & Fa & Pa). destruct (ac_interval0 El) as (b & Fb & Pb).
    eapply bind_intro; [apply int_field_val; exact Fa|].
    eapply (bind_intro _ _ tt); [apply require_val, negb_true_iff, Z.leb_gt; exact Pa|].
    eapply bind_intro; [apply int_field_val; exact Fb|].
    apply require_val, negb_true_iff, Z.leb_gt. exact Pb. }
  eapply (bind_intro _ _ tt).
  { destruct (contains values (B "configured_attempts")) eqn:El; [|reflexivity].
    apply contains_has in El. destruct (ac_attempts0 El) as (a & Fa & Pa).
    eapply bind_intro; [apply int_field_val; exact Fa|].
    apply require_val, negb_true_iff, Z.leb_gt. exact Pa. }
  eapply (bind_intro _ _ tt).
  { apply require_val. destruct art; try reflexivity. cbn [is_checkpoint andb]. rewrite negb_involutive.
    apply contains_has, ac_checkpoint0. reflexivity. }
  eapply (bind_intro _ _ tt).
  { destruct (contains values (B "completed_passes")) eqn:El; [|reflexivity].
    apply contains_has in El. destruct (ac_completed0 El) as (a & Fa & Pa).
    eapply bind_intro; [apply int_field_val; exact Fa|].
    apply require_val, negb_true_iff, Z.ltb_ge. exact Pa. }
  eapply (bind_intro _ _ thr).
  { destruct thr as [n|].
    - destruct ac_threads0 as ((v & Iv & Nv) & Pn).
      rewrite (proj2 (get_in values _ v ND) Iv).
      eapply bind_intro; [apply parse_unsigned_spec; [lia|exact Nv]|].
      eapply (bind_intro _ _ tt); [apply require_val, negb_true_iff, Z.eqb_neq; lia|reflexivity].
    - rewrite (proj2 (get_none values _) ac_threads0). reflexivity. }
  eapply (bind_intro _ _ tt); [apply require_val, both_or_none; auto|].
  eapply (bind_intro _ _ tt).
  { rewrite Ct. destruct (contains values (B "transition_trace.count")) eqn:El; [|reflexivity].
    change (b2z true + b2z true =? 2) with true. cbv beta iota.
    apply contains_has in El. assert (Kk : has values (B "transition_trace.fnv1a64")) by (apply ac_transition0; exact El).
    destruct (ac_trace0 Kk) as (a & Fa). destruct (ac_count0 El) as (b & Fb).
    eapply bind_intro; [apply hex_field_val; exact Fa|].
    eapply bind_intro; [apply dec_field_val; exact Fb|]. reflexivity. }
  eapply bind_intro; [apply dec_field_val; eassumption|].
  eapply bind_intro; [apply hex_field_val; eassumption|].
  eapply bind_intro; [apply dec_field_val; eassumption|].
  eapply bind_intro; [apply dec_field_val; eassumption|].
  eapply bind_intro; [apply dec_field_val; eassumption|].
  eapply bind_intro; [apply hex_field_val; eassumption|].
  eapply bind_intro; [apply hex_field_val; eassumption|].
  reflexivity.
Qed.
End Interpret.
