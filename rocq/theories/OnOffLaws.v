(** Consequences of the switch and duration rows for binary states, and the converse: natural values satisfy them. *)
From Verif Require Import Base BaseFacts MathModel Spec MathFacts MathTotal Structure StructureFacts Params Features Elements System SysSpec
  CtxFacts ReadTools InvestFacts OnOffFacts.

Definition bin (q : Q) : Prop := q == 0 \/ q == 1.

(** ** Switches *)
Section Switch.
  Variables (cx : ctx) (on son soff : nat -> Q) (nr : Q) (was : bool).
  Hypothesis Bon : forall t, (t < cx_n cx)%nat -> bin (on t).
  Hypothesis Bs : forall t, (t < cx_n cx)%nat -> bin (son t) /\ bin (soff t).
  Hypothesis R : switch_rows cx on son soff nr (q01 was).

  Lemma switch_step : forall t, (t < cx_n cx)%nat -> son t - soff t == on t - before was on t.
  Proof. intros [|t] Ht; simpl; [apply (sw_first _ _ _ _ _ _ R)|apply (sw_next _ _ _ _ _ _ R); auto]. Qed.
  Lemma before_bin : forall t, (t < cx_n cx)%nat -> bin (before was on t).
  Proof. intros [|t] Ht; simpl; [unfold bin; destruct was; simpl; [right|left]; reflexivity|apply Bon; lia]. Qed.

  Lemma switch_laws : forall t, (t < cx_n cx)%nat ->
    (son t == 1 <-> before was on t == 0 /\ on t == 1) /\ (soff t == 1 <-> before was on t == 1 /\ on t == 0)
    /\ bin (son t) /\ bin (soff t).
  Proof.
    intros t Ht. pose proof (switch_step t Ht) as S. pose proof (before_bin t Ht) as B. pose proof (Bon t Ht) as B1.
    destruct (Bs t Ht) as [B2 B3]. pose proof (sw_excl _ _ _ _ _ _ R t Ht) as E. unfold bin in *.
    repeat split; auto; intros; destruct B, B1, B2, B3; try lra.
  Qed.
End Switch.

Lemma sum_count : forall (p : nat -> bool) (g : nat -> Q) l, (forall t, In t l -> g t == q01 (p t)) ->
  Qsum (map g l) == inject_Z (Z.of_nat (length (filter p l))).
Proof.
  induction l as [|t l IH]; intros H; [reflexivity|]. cbn [map filter]. rewrite Qsum_cons, IH by (intros; apply H; simpl; auto).
  rewrite (H t (or_introl eq_refl)). destruct (p t); cbn [length q01].
  - rewrite Nat2Z.inj_succ, <- Z.add_1_r, inject_Z_plus. ring.
  - ring.
Qed.
Lemma starts_laws : forall cx on son soff nr was,
  (forall t, (t < cx_n cx)%nat -> bin (on t)) -> (forall t, (t < cx_n cx)%nat -> bin (son t) /\ bin (soff t)) ->
  switch_rows cx on son soff nr (q01 was) -> nr == inject_Z (Z.of_nat (starts was on (cx_n cx))).
Proof.
  intros cx on son soff nr was B1 B2 R. rewrite (sw_nr _ _ _ _ _ _ R). unfold sumn, starts. apply sum_count.
  intros t Ht. apply in_seq in Ht. destruct (switch_laws _ _ _ _ _ _ B1 B2 R t) as [[L1 L2] [_ [B _]]]; [lia|].
  destruct (Qeq_bool (before was on t) 0) eqn:E1, (Qeq_bool (on t) 1) eqn:E2; simpl.
  - apply L2. split; apply Qeq_bool_iff; auto.
  - destruct B as [B|B]; auto. destruct (L1 B) as [_ C]. apply Qeq_bool_neq in E2. contradiction.
  - destruct B as [B|B]; auto. destruct (L1 B) as [C _]. apply Qeq_bool_neq in E1. contradiction.
  - destruct B as [B|B]; auto. destruct (L1 B) as [C _]. apply Qeq_bool_neq in E1. contradiction.
Qed.

(** ** Durations *)
Lemma span_one : forall h t, span h t t == h t.
Proof. intros. unfold span. replace (S t - t)%nat with 1%nat by lia. simpl. ring. Qed.
Lemma span_S : forall h s t, (s <= t)%nat -> span h s (S t) == span h s t + h (S t).
Proof.
  intros h s t H. unfold span. replace (S (S t) - s)%nat with (S (S t - s)) by lia. rewrite seq_S, map_app, Qsum_app.
  replace (s + (S t - s))%nat with (S t) by lia. simpl. ring.
Qed.

Section Duration.
  Variables (cx : ctx) (b d : nat -> Q) (prev : Q) (dmin dmax : option param).
  Hypothesis B : forall t, (t < cx_n cx)%nat -> bin (b t).
  Hypothesis R : duration_rows cx b d prev dmin dmax.
  Hypothesis P : (1 <= cx_n cx)%nat.

  Lemma dur_off : forall t, (t < cx_n cx)%nat -> b t == 0 -> d t == 0.
  Proof.
    intros t Ht E. pose proof (du_off _ _ _ _ _ _ R t Ht). pose proof (du_nonneg _ _ _ _ _ _ R t Ht). rewrite E in *. lra.
  Qed.
  Lemma dur_first : b 0%nat == 1 -> d 0%nat == prev + dt cx 0.
  Proof. intros E. rewrite (du_first _ _ _ _ _ _ R), E. ring. Qed.
  Lemma dur_next : forall t, (S t < cx_n cx)%nat -> b (S t) == 1 -> d (S t) == d t + dt cx (S t).
  Proof.
    intros t Ht E. pose proof (du_up _ _ _ _ _ _ R t Ht). pose proof (du_low _ _ _ _ _ _ R t Ht) as L. rewrite E in L. lra.
  Qed.
  Lemma dur_run : forall s t, (t < cx_n cx)%nat -> is_run b s t -> d t == run_hours (dt cx) prev s t.
  Proof.
    intros s t Ht [L [On Bf]]. unfold run_hours. revert Ht On. induction t as [|t IH]; intros Ht On.
    - assert (s = 0%nat) by lia. subst. simpl Nat.eqb. cbv iota. rewrite dur_first by (apply On; lia). rewrite span_one. reflexivity.
    - destruct (Nat.eq_dec s (S t)) as [->|N].
      + simpl Nat.eqb. cbv iota. rewrite dur_next by (auto; apply On; lia). rewrite dur_off by (try lia; auto). rewrite span_one. ring.
      + rewrite dur_next by (auto; apply On; lia). rewrite span_S by lia. rewrite IH by (try lia; intros; apply On; lia). ring.
  Qed.
End Duration.

(** ** The converse: values that describe a pattern satisfy the rows *)
Fixpoint natural (b h : nat -> Q) (prev : Q) (t : nat) : Q :=
  b t * (h t + match t with O => prev | S k => natural b h prev k end).

Lemma natural_bounds : forall cx b prev, ctx_ok cx -> (forall t, (t < cx_n cx)%nat -> bin (b t)) ->
  (forall t, (t < cx_n cx)%nat -> 0 <= dt cx t) -> 0 <= prev ->
  forall t, (t < cx_n cx)%nat -> 0 <= natural b (dt cx) prev t /\ natural b (dt cx) prev t <= span (dt cx) 0 t + prev.
Proof.
  intros cx b prev CX B H0 P. induction t as [|t IH]; intros Ht.
  - rewrite span_one. simpl. specialize (H0 0%nat Ht). destruct (B 0%nat Ht) as [E|E]; rewrite E; lra.
  - rewrite span_S by lia. pose proof (H0 _ Ht). destruct IH as [I1 I2]; [lia|]. simpl natural.
    destruct (B _ Ht) as [E|E]; rewrite E; lra.
Qed.

Lemma Qsum_nonneg_prefix : forall cx t, ctx_ok cx -> (forall t, (t < cx_n cx)%nat -> 0 <= dt cx t) -> (t < cx_n cx)%nat ->
  span (dt cx) 0 t <= cx_total cx.
Proof.
  intros cx t CX H Ht. rewrite (ok_total _ CX).
  assert (E : Qsum (cx_dt cx) == sumn (cx_n cx) (dt cx)) by (apply Qsum_sumn; [apply (ok_n _ CX)|reflexivity]).
  rewrite E. unfold span, sumn. replace (S t - 0)%nat with (S t) by lia.
  replace (cx_n cx) with (S t + (cx_n cx - S t))%nat at 1 by lia. rewrite seq_app, map_app, Qsum_app.
  assert (0 <= Qsum (map (dt cx) (seq (0 + S t) (cx_n cx - S t)))).
  { apply Qsum_nonneg. intros q Hq. apply in_map_iff in Hq. destruct Hq as [i [<- Hi]]. apply in_seq in Hi. apply H. lia. }
  lra.
Qed.

Lemma natural_off : forall b h prev t, b t == 0 -> natural b h prev t == 0.
Proof. intros b h prev [|t] E; simpl; rewrite E; ring. Qed.

(** A binary pattern whose runs obey the limits satisfies the duration rows with the natural durations. *)
Lemma natural_rows : forall cx b prev dmin dmax, ctx_ok cx -> (forall t, (t < cx_n cx)%nat -> bin (b t)) ->
  (forall t, (t < cx_n cx)%nat -> 0 <= dt cx t) -> 0 <= prev ->
  (forall p t, dmax = Some p -> (t < cx_n cx)%nat -> natural b (dt cx) prev t <= value (cx_idx cx) p t) ->
  (forall p t, dmin = Some p -> (S t < cx_n cx)%nat -> b t == 1 -> b (S t) == 0 -> value (cx_idx cx) p t <= natural b (dt cx) prev t) ->
  (forall p t, dmin = Some p -> (S t < cx_n cx)%nat -> 0 <= value (cx_idx cx) p t) ->
  (forall p, dmin = Some p -> 0 < prev -> prev < value (cx_idx cx) p 0 -> b 0%nat == 1) ->
  duration_rows cx b (natural b (dt cx) prev) prev dmin dmax.
Proof.
  intros cx b prev dmin dmax CX B H0 P Mx Mn M0 In. pose proof (natural_bounds cx b prev CX B H0 P) as NB. constructor.
  - intros t Ht. apply NB; auto.
  - simpl. ring.
  - intros t Ht. simpl. pose proof (H0 _ Ht). destruct (NB t) as [N1 N2]; [lia|].
    destruct (B _ Ht) as [E|E]; rewrite E; lra.
  - intros t Ht. pose proof (H0 _ Ht). destruct (NB t) as [N1 N2]; [lia|].
    pose proof (Qsum_nonneg_prefix cx (S t) CX H0 Ht) as T. rewrite span_S in T by lia.
    simpl. destruct (B _ Ht) as [E|E]; rewrite E; lra.
  - intros t Ht. destruct (NB t Ht) as [N1 N2]. pose proof (Qsum_nonneg_prefix cx t CX H0 Ht) as T.
    destruct (B _ Ht) as [E|E]; [rewrite (natural_off _ _ _ _ E)|]; rewrite E; lra.
  - auto.
  - intros p Hp m _ _. split; [|eauto]. intros t Ht. destruct (NB t) as [N1 N2]; [lia|].
    pose proof (M0 p t Hp Ht). assert (Ht' : (t < cx_n cx)%nat) by lia.
    destruct (B t Ht') as [E|E], (B _ Ht) as [E'|E']; rewrite E, E'; try lra.
    specialize (Mn p t Hp Ht E E'). lra.
Qed.

(** ** Previous duration *)
Lemma last_pos_none : forall {A} (p : A -> bool) l, (forall a, In a l -> p a = false) -> last_pos p l = None.
Proof.
  induction l as [|a l IH]; intros H; auto. simpl. rewrite IH by (intros; apply H; simpl; auto).
  rewrite (H a (or_introl eq_refl)). auto.
Qed.
Lemma last_pos_all : forall {A} (p : A -> bool) l, (forall a, In a l -> p a = true) -> l <> [] -> last_pos p l = Some (length l - 1)%nat.
Proof.
  induction l as [|a l IH]; intros H N; [congruence|]. destruct l as [|b l].
  - simpl. rewrite (H a (or_introl eq_refl)). auto.
  - change (last_pos p (a :: b :: l)) with (match last_pos p (b :: l) with Some i => Some (S i) | None => if p a then Some 0%nat else None end).
    rewrite IH; [simpl; f_equal; lia|intros; apply H; simpl; auto|discriminate].
Qed.
Lemma isclose0_q01 : forall eps b, 0 <= eps -> eps < 1 -> isclose0 eps (q01 b) = negb b.
Proof.
  intros eps [|] H0 H1; unfold isclose0, q01; simpl negb.
  - apply not_true_iff_false. intros E. apply Qle_bool_iff in E. change (Qabs 1) with (1 # 1) in E. lra.
  - apply Qle_bool_iff. change (Qabs 0) with 0. auto.
Qed.
Lemma leading_all : forall s l, (forall b, In b l -> b = s) -> leading s l = length l.
Proof.
  induction l as [|b l IH]; intros H; auto. simpl. rewrite (H b (or_introl eq_refl)). rewrite eqb_reflx. f_equal. apply IH.
  intros; apply H; simpl; auto.
Qed.
Lemma leading_none : forall s l, (forall b, In b l -> b = negb s) -> leading s l = 0%nat.
Proof. intros s [|b l] H; auto. simpl. rewrite (H b (or_introl eq_refl)). destruct s; auto. Qed.
Lemma trailing_all : forall s l, (forall b, In b l -> b = s) -> trailing s l = length l.
Proof. intros s l H. unfold trailing. rewrite leading_all, rev_length; auto. intros b Hb. apply H. apply in_rev; auto. Qed.
Lemma trailing_none : forall s l, (forall b, In b l -> b = negb s) -> trailing s l = 0%nat.
Proof. intros s l H. unfold trailing. apply leading_none. intros b Hb. apply H. apply in_rev; auto. Qed.

Lemma py_last_all : forall {A} (l : list A), py_last (length l) l = l.
Proof. intros. unfold py_last. destruct (Nat.eqb (length l) 0); auto. rewrite Nat.sub_diag. auto. Qed.
Lemma map2_ones : forall l ds, (forall q, In q l -> q == 1) -> length l = length ds -> Qsum (map2 Qmult l ds) == Qsum ds.
Proof.
  induction l as [|q l IH]; intros [|d ds] H L; simpl in L; try discriminate; [reflexivity|]. cbn [map2]. rewrite !Qsum_cons.
  rewrite IH by (auto; intros; apply H; simpl; auto). rewrite (H q (or_introl eq_refl)). ring.
Qed.
Lemma map2_zeros : forall l ds, (forall q, In q l -> q == 0) -> Qsum (map2 Qmult l ds) == 0.
Proof.
  induction l as [|q l IH]; intros [|d ds] H; try reflexivity. cbn [map2]. rewrite Qsum_cons.
  rewrite IH by (intros; apply H; simpl; auto). rewrite (H q (or_introl eq_refl)). ring.
Qed.
Lemma Qsum_const : forall l d, (forall q, In q l -> q == d) -> Qsum l == inject_Z (Z.of_nat (length l)) * d.
Proof.
  induction l as [|q l IH]; intros d H; [simpl; ring|]. rewrite Qsum_cons, (IH d) by (intros; apply H; simpl; auto).
  assert (X : q == d) by (apply H; simpl; auto). cbn [length]. rewrite X. rewrite Nat2Z.inj_succ, <- Z.add_1_r, inject_Z_plus. ring.
Qed.

Lemma skipn_last_len : forall (ds : list Q) k, (k <= length ds)%nat -> length (skipn (length ds - k) ds) = k.
Proof. intros. rewrite skipn_length. lia. Qed.

Definition steady (l : list bool) : Prop := forall a b, In a l -> In b l -> a = b.

(** All ones: the sum runs over all of them. *)
Lemma consecutive_ones : forall eps l d q, 0 <= eps -> eps < 1 -> l <> [] -> (forall b, In b l -> b = true) ->
  consecutive_duration eps (NV (map q01 l)) d = Ok q -> q == last_hours d (length l).
Proof.
  intros eps l d q E0 E1 N A H. unfold consecutive_duration in H.
  assert (LP : last_pos (isclose0 eps) (map q01 l) = None).
  { apply last_pos_none. intros z Hz. apply in_map_iff in Hz. destruct Hz as [b [<- Hb]]. rewrite isclose0_q01 by auto.
    rewrite (A b Hb). auto. }
  assert (One : forall z, In z (map q01 l) -> z == 1).
  { intros z Hz. apply in_map_iff in Hz. destruct Hz as [b [<- Hb]]. rewrite (A b Hb). reflexivity. }
  rewrite LP in H. rewrite py_last_all in H. destruct d as [d|ds].
  - apply Ok_inj in H. subst q. simpl. rewrite <- (map_length q01 l). rewrite <- (map_length (fun b => b * d) (map q01 l)).
    apply Qsum_const. intros z Hz. apply in_map_iff in Hz. destruct Hz as [w [<- Hw]]. rewrite (One w Hw). ring.
  - rewrite map_length in H. destruct (Nat.ltb (length ds) (length l)) eqn:Lt; [discriminate|]. apply Nat.ltb_ge in Lt.
    apply bind_ok in H. destruct H as [r [Hr H]]. apply Ok_inj in H. subst q.
    unfold py_last in Hr. destruct (Nat.eqb (length l) 0) eqn:Z; [apply Nat.eqb_eq in Z; destruct l; [congruence|discriminate]|].
    unfold nmul in Hr. simpl in Hr. rewrite map_length, skipn_last_len, Nat.eqb_refl in Hr by auto. apply Ok_inj in Hr. subst r.
    simpl. apply map2_ones; auto. rewrite map_length, skipn_last_len; auto.
Qed.
(** All zeros. *)
Lemma consecutive_zeros : forall eps l d q, 0 <= eps -> eps < 1 -> l <> [] -> (forall b, In b l -> b = false) ->
  consecutive_duration eps (NV (map q01 l)) d = Ok q -> q == 0.
Proof.
  intros eps l d q E0 E1 N A H. unfold consecutive_duration in H.
  assert (Zr : forall z, In z (map q01 l) -> z == 0).
  { intros z Hz. apply in_map_iff in Hz. destruct Hz as [b [<- Hb]]. rewrite (A b Hb). reflexivity. }
  assert (LP : last_pos (isclose0 eps) (map q01 l) = Some (length (map q01 l) - 1)%nat).
  { apply last_pos_all. 2: destruct l; [congruence|discriminate].
    intros z Hz. apply in_map_iff in Hz. destruct Hz as [b [<- Hb]]. rewrite isclose0_q01 by auto. rewrite (A b Hb). auto. }
  rewrite LP in H. assert (K : S (length (map q01 l) - 1) = length (map q01 l)) by (destruct l; [congruence|simpl; lia]).
  rewrite K, py_last_all in H. destruct d as [d|ds].
  - apply Ok_inj in H. subst q. apply Qsum_zero. intros z Hz. apply in_map_iff in Hz. destruct Hz as [w [<- Hw]]. rewrite (Zr w Hw). ring.
  - destruct (Nat.ltb (length ds) (length (map q01 l))) eqn:Lt; [discriminate|]. apply Nat.ltb_ge in Lt.
    apply bind_ok in H. destruct H as [r [Hr H]]. apply Ok_inj in H. subst q.
    unfold nmul in Hr. simpl in Hr. unfold py_last in Hr. destruct (Nat.eqb (length (map q01 l)) 0) eqn:Z.
    + apply Nat.eqb_eq in Z. destruct l; [congruence|discriminate].
    + rewrite skipn_last_len, Nat.eqb_refl in Hr by auto. apply Ok_inj in Hr. subst r. simpl. apply map2_zeros; auto.
Qed.

Theorem consecutive_steady : forall eps l d q, 0 <= eps -> eps < 1 -> l <> [] -> steady l ->
  consecutive_duration eps (NV (map q01 l)) d = Ok q -> q == prior_hours d true l.
Proof.
  intros eps l d q E0 E1 N St H. destruct l as [|b l']; [congruence|]. set (l := b :: l') in *.
  assert (C : forall a, In a l -> a = b) by (intros a Ha; apply St; auto; simpl; auto).
  unfold prior_hours. destruct b.
  - rewrite trailing_all by auto. eapply consecutive_ones; eauto.
  - rewrite trailing_none by auto. rewrite (consecutive_zeros eps l d q) by auto. destruct d as [d|ds]; simpl; [ring|].
    rewrite Nat.sub_0_r, skipn_all. reflexivity.
Qed.

(** The complementary states. *)
Lemma q01_neg : forall l, map (fun q => 1 - q) (map q01 l) = map q01 (map negb l).
Proof. intros. rewrite !map_map. apply map_ext. intros [|]; reflexivity. Qed.
Lemma leading_negb : forall s l, leading s (map negb l) = leading (negb s) l.
Proof. induction l as [|b l IH]; simpl; auto. rewrite IH. destruct b, s; auto. Qed.
Lemma trailing_negb : forall s l, trailing s (map negb l) = trailing (negb s) l.
Proof. intros. unfold trailing. rewrite <- map_rev. apply leading_negb. Qed.
Lemma steady_negb : forall l, steady l -> steady (map negb l).
Proof.
  intros l H a b Ha Hb. apply in_map_iff in Ha. apply in_map_iff in Hb. destruct Ha as [x [<- Hx]], Hb as [y [<- Hy]].
  f_equal. auto.
Qed.
