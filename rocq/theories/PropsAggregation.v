(** C37: the index pairs of an aggregated calculation. *)
From Verif Require Import Base BaseFacts MathModel Structure Params Features Elements System Aggregation.

(** ** Specification *)

(** Step [i] belongs to period [i / period length], which has been assigned to a cluster. Two different steps are twins if their periods are in
    the same cluster and they are at the same place of their periods, but not at the first one. *)
Definition cluster_of (cl : clustering) (i : nat) : option nat := nth_error (cl_order cl) (i / cl_period cl).
Definition twins (cl : clustering) (i j : nat) : Prop :=
  i <> j /\ (i < cl_total cl)%nat /\ (j < cl_total cl)%nat /\ cluster_of cl i <> None /\ cluster_of cl i = cluster_of cl j
  /\ (i mod cl_period cl = j mod cl_period cl)%nat /\ (i mod cl_period cl <> 0)%nat.

(** ** Proof tools *)
Definition periods (order : list nat) (from k : nat) : list nat :=
  map fst (filter (fun pk : nat * nat => Nat.eqb k (snd pk)) (combine (seq from (length order)) order)).

Lemma periods_cons : forall a order from k, periods (a :: order) from k = (if Nat.eqb k a then [from] else []) ++ periods order (S from) k.
Proof. intros. unfold periods. cbn [length seq combine filter snd]. destruct (Nat.eqb k a); reflexivity. Qed.

Lemma append_to_spec : forall (g : nat -> list (list nat)) k v ids r, NoDup ids -> append_to k v (map (fun i => (i, g i)) ids) = Ok r ->
  r = map (fun i => (i, if Nat.eqb i k then g i ++ [v] else g i)) ids /\ In k ids.
Proof.
  intros g k v ids. induction ids as [|a ids IH]; intros r ND H; cbn [map append_to] in H; [discriminate|]. inversion ND as [|? ? N1 N2]; subst.
  destruct (Nat.eqb_spec k a) as [E|E].
  - inversion H; subst. split; [|left; reflexivity]. cbn [map]. rewrite Nat.eqb_refl. f_equal. apply map_ext_in. intros i Hi.
    destruct (Nat.eqb_spec i a); [subst; contradiction|reflexivity].
  - destruct (append_to k v (map _ ids)) as [r'|] eqn:R; [|discriminate]. cbn [bind] in H. inversion H; subst. destruct (IH r' N2 eq_refl) as [-> HI]. split; [|right; exact HI].
    cbn [map]. destruct (Nat.eqb_spec a k); [congruence|reflexivity].
Qed.

Lemma append_to_ok : forall (g : nat -> list (list nat)) k v ids, In k ids -> exists r, append_to k v (map (fun i => (i, g i)) ids) = Ok r.
Proof.
  intros g k v ids. induction ids as [|a ids IH]; intros H; [inversion H|]. cbn [map append_to]. destruct (Nat.eqb_spec k a); [eauto|].
  destruct H as [H|H]; [congruence|]. destruct (IH H) as [r ->]. cbn [bind]. eauto.
Qed.

Lemma cluster_fold : forall cl ids, NoDup ids -> forall order from g d,
  foldM (fun d pk => append_to (snd pk) (index_vector cl (fst pk)) d) (combine (seq from (length order)) order) (map (fun k => (k, g k)) ids) = Ok d ->
  d = map (fun k => (k, g k ++ map (index_vector cl) (periods order from k))) ids /\ incl order ids.
Proof.
  intros cl ids ND order. induction order as [|a order IH]; intros from g d H; cbn [length seq combine foldM] in H.
  - inversion H; subst. split; [|intros ? []]. apply map_ext. intros k. cbn. rewrite app_nil_r. reflexivity.
  - cbn [fst snd] in H. destruct (append_to a (index_vector cl from) _) as [r|] eqn:R; [|discriminate]. cbn [bind] in H.
    destruct (append_to_spec _ _ _ _ _ ND R) as [-> HI]. destruct (IH _ (fun i => if Nat.eqb i a then g i ++ [index_vector cl from] else g i) _ H) as [-> HO]. split.
    + apply map_ext. intros k. rewrite periods_cons. destruct (Nat.eqb k a); cbn [app map]; [rewrite <- app_assoc|]; reflexivity.
    + intros y [<-|Hy]; auto.
Qed.
Lemma cluster_fold_ok : forall cl ids, NoDup ids -> forall order from g, incl order ids ->
  exists d, foldM (fun d pk => append_to (snd pk) (index_vector cl (fst pk)) d) (combine (seq from (length order)) order) (map (fun k => (k, g k)) ids) = Ok d.
Proof.
  intros cl ids ND order. induction order as [|a order IH]; intros from g HI; cbn [length seq combine foldM]; [eauto|]. cbn [fst snd].
  destruct (append_to_ok g a (index_vector cl from) ids (HI a (or_introl eq_refl))) as [r R]. rewrite R. cbn [bind]. destruct (append_to_spec _ _ _ _ _ ND R) as [-> _].
  apply (IH _ (fun i => if Nat.eqb i a then g i ++ [index_vector cl from] else g i)). intros y Hy. apply HI. right. exact Hy.
Qed.

Lemma periods_In : forall order from k p, In p (periods order from k) <-> (from <= p)%nat /\ nth_error order (p - from) = Some k.
Proof.
  induction order as [|a order IH]; intros from k p; [cbn; split; [tauto|intros [_ H]; destruct (p - from)%nat; discriminate]|].
  rewrite periods_cons, in_app_iff, IH. split.
  - intros [H|[H1 H2]].
    + destruct (Nat.eqb_spec k a); [|destruct H]. destruct H as [<-|[]]. rewrite Nat.sub_diag. subst. cbn. auto.
    + replace (p - from)%nat with (S (p - S from)) by lia. cbn. split; [lia|exact H2].
  - intros [H1 H2]. destruct (Nat.eq_dec p from) as [->|NE].
    + rewrite Nat.sub_diag in H2. cbn in H2. inversion H2; subst. rewrite Nat.eqb_refl. left. left. reflexivity.
    + right. split; [lia|]. replace (p - from)%nat with (S (p - S from)) in H2 by lia. exact H2.
Qed.
Lemma periods_sorted : forall order from k p l, periods order from k = p :: l -> forall q, In q l -> (p < q)%nat.
Proof.
  induction order as [|a order IH]; intros from k p l H q Hq; [discriminate|]. rewrite periods_cons in H. destruct (Nat.eqb k a); cbn [app] in H.
  - inversion H; subst. apply periods_In in Hq. lia.
  - eapply IH; eauto.
Qed.

Lemma tl_seq : forall a n, tl (seq a n) = seq (S a) (n - 1).
Proof. intros a n. destruct n; cbn; [reflexivity|]. rewrite Nat.sub_0_r. reflexivity. Qed.
Lemma combine_seq_In : forall n m a b i j, In (i, j) (combine (seq a n) (seq b m)) <-> exists t, (t < n)%nat /\ (t < m)%nat /\ i = (a + t)%nat /\ j = (b + t)%nat.
Proof.
  induction n as [|n IH]; intros m a b i j; cbn [seq combine]; [split; [intros []|intros [t [H _]]; lia]|]. destruct m as [|m]; cbn [seq combine].
  - split; [intros []|intros [t [_ [H _]]]; lia].
  - cbn [In]. rewrite IH. split.
    + intros [H|[t [H1 [H2 [H3 H4]]]]]; [inversion H; exists 0%nat; lia|exists (S t); lia].
    + intros [t [H1 [H2 [H3 H4]]]]. destruct t as [|t]; [left; f_equal; lia|right; exists t; lia].
Qed.

Lemma vector_pairs_In : forall vs i j, In (i, j) (vector_pairs true vs) <->
  exists first others other, vs = first :: others /\ In other others /\ In (i, j) (combine (tl first) (tl other)).
Proof.
  intros vs i j. destruct vs as [|f [|o r]].
  - cbn. split; [tauto|intros [? [? [? [H _]]]]; discriminate].
  - cbn. split; [tauto|intros [? [? [? [H [H2 _]]]]]; inversion H; subst; inversion H2].
  - unfold vector_pairs. cbn [tl]. rewrite in_flat_map. split.
    + intros [x [H1 H2]]. exists f, (o :: r), x. auto.
    + intros [f' [r' [x [E [H1 H2]]]]]. inversion E; subst. exists x. auto.
Qed.

Lemma pairs_In : forall cl pairs i j, NoDup (cl_ids cl) -> (0 < cl_period cl)%nat -> equation_indices true cl = Ok pairs ->
  In (i, j) pairs <-> exists k p q l, In k (cl_ids cl) /\ periods (cl_order cl) 0 k = p :: l /\ In q l /\
    exists t, i = (p * cl_period cl + S t)%nat /\ j = (q * cl_period cl + S t)%nat /\ (S t < cl_period cl)%nat /\ (i < cl_total cl)%nat /\ (j < cl_total cl)%nat.
Proof.
  intros cl pairs i j ND L H. unfold equation_indices in H. destruct (cluster_indices cl) as [d|] eqn:D; [|discriminate]. cbn [bind] in H. inversion H; subst. clear H.
  unfold cluster_indices in D. apply (cluster_fold _ _ ND _ _ (fun _ => [])) in D. destruct D as [-> _]. rewrite in_flat_map. split.
  - intros [kv [H1 H2]]. apply in_map_iff in H1. destruct H1 as [k [<- Hk]]. cbn [snd app] in H2. apply vector_pairs_In in H2. destruct H2 as [first [others [other [E [HO HC]]]]].
    destruct (periods (cl_order cl) 0 k) as [|p l] eqn:P; [discriminate|]. cbn [map] in E. inversion E; subst. apply in_map_iff in HO. destruct HO as [q [<- Hq]].
    exists k, p, q, l. split; [exact Hk|]. split; [exact P|]. split; [exact Hq|]. unfold index_vector in HC. rewrite !tl_seq in HC. apply combine_seq_In in HC. destruct HC as [t [T1 [T2 [T3 T4]]]].
    exists t. lia.
  - intros [k [p [q [l [Hk [P [Hq [t [T1 [T2 [T3 [T4 T5]]]]]]]]]]]]. eexists. split; [apply in_map_iff; exists k; split; [reflexivity|exact Hk]|]. cbn [snd app]. rewrite P. cbn [map].
    apply vector_pairs_In. eexists _, _, _. split; [reflexivity|]. split; [apply in_map; exact Hq|]. unfold index_vector. rewrite !tl_seq. apply combine_seq_In. exists t. lia.
Qed.

Lemma place : forall L p t, (t < L)%nat -> ((p * L + t) / L = p /\ (p * L + t) mod L = t)%nat.
Proof.
  intros L p t H. split; [rewrite Nat.add_comm, Nat.div_add by lia; rewrite (Nat.div_small t L H); reflexivity|].
  rewrite Nat.add_comm, Nat.mod_add by lia. apply Nat.mod_small. exact H.
Qed.

(** ** C37 *)

(** Only twins are paired; any two twins are paired with each other or with the same third step (of the first period of their cluster), or one is
    that third step. *)
Theorem C37_pairs : forall cl pairs, NoDup (cl_ids cl) -> (0 < cl_period cl)%nat -> equation_indices true cl = Ok pairs ->
  (forall i j, In (i, j) pairs -> twins cl i j)
  /\ (forall i j, twins cl i j -> exists k, (k = i \/ In (k, i) pairs) /\ (k = j \/ In (k, j) pairs)).
Proof.
  intros cl pairs ND L H. pose proof (fun i j => pairs_In cl pairs i j ND L H) as PI. set (P := cl_period cl) in *. split.
  - intros i j HI. apply PI in HI. destruct HI as [k [p [q [l [Hk [E [Hq [t [T1 [T2 [T3 [T4 T5]]]]]]]]]]]].
    pose proof (periods_sorted _ _ _ _ _ E q Hq) as LT. destruct (place P p (S t) T3) as [A1 A2]. destruct (place P q (S t) T3) as [B1 B2].
    assert (Ip : In p (periods (cl_order cl) 0 k)) by (rewrite E; left; reflexivity). assert (Iq : In q (periods (cl_order cl) 0 k)) by (rewrite E; right; exact Hq).
    apply periods_In in Ip. apply periods_In in Iq. rewrite Nat.sub_0_r in Ip, Iq. destruct Ip as [_ Ip]. destruct Iq as [_ Iq].
    unfold twins, cluster_of. fold P. subst i j. rewrite A1, A2, B1, B2, Ip, Iq. repeat split; try assumption; try discriminate. nia.
  - intros i j [NE [Li [Lj [C1 [C2 [M1 M2]]]]]]. unfold cluster_of in C1, C2. fold P in C1, C2, M1, M2.
    destruct (nth_error (cl_order cl) (i / P)) as [k|] eqn:O1; [|congruence]. symmetry in C2.
    assert (Hk : In k (cl_ids cl)).
    { unfold equation_indices in H. destruct (cluster_indices cl) as [d|] eqn:D; [|discriminate]. unfold cluster_indices in D. apply (cluster_fold _ _ ND _ _ (fun _ => [])) in D.
      destruct D as [_ D]. apply D. eapply nth_error_In. exact O1. }
    assert (I1 : In (i / P)%nat (periods (cl_order cl) 0 k)) by (apply periods_In; rewrite Nat.sub_0_r; split; [lia|exact O1]).
    assert (I2 : In (j / P)%nat (periods (cl_order cl) 0 k)) by (apply periods_In; rewrite Nat.sub_0_r; split; [lia|exact C2]).
    destruct (periods (cl_order cl) 0 k) as [|p l] eqn:E; [inversion I1|]. pose proof (periods_sorted _ _ _ _ _ E) as LT.
    pose proof (Nat.div_mod i P ltac:(lia)) as Di. pose proof (Nat.div_mod j P ltac:(lia)) as Dj. pose proof (Nat.mod_upper_bound i P ltac:(lia)) as Ui.
    assert (X : forall m, (m < cl_total cl)%nat -> m mod P = i mod P -> In (m / P)%nat (p :: l) -> (p * P + i mod P)%nat = m \/ In ((p * P + i mod P)%nat, m) pairs).
    { intros m Lm Mm Hm. pose proof (Nat.div_mod m P ltac:(lia)) as Dm. destruct Hm as [Hm|Hm]; [left; nia|]. right. apply PI. exists k, p, (m / P)%nat, l.
      split; [exact Hk|]. split; [exact E|]. split; [exact Hm|]. exists (i mod P - 1)%nat. pose proof (LT _ Hm). nia. }
    exists (p * P + i mod P)%nat. split; apply X; auto.
Qed.
Print Assumptions C37_pairs.

(** The pairs can always be computed: tsam names every cluster it assigns. *)
Theorem C37_total : forall cl, NoDup (cl_ids cl) -> incl (cl_order cl) (cl_ids cl) -> exists pairs, equation_indices true cl = Ok pairs.
Proof.
  intros cl ND HI. unfold equation_indices, cluster_indices. destruct (cluster_fold_ok cl _ ND (cl_order cl) 0%nat (fun _ => []) HI) as [d ->]. cbn [bind]. eauto.
Qed.
Print Assumptions C37_total.

(** Three periods of four steps, the last cut short; the first and the last are in one cluster. *)
Definition cl_three : clustering := mkClustering [0; 1]%nat [1; 0; 1]%nat 4 11.
Example C37_applies : NoDup (cl_ids cl_three) /\ incl (cl_order cl_three) (cl_ids cl_three) /\ equation_indices true cl_three = Ok [(1, 9); (2, 10)]%nat /\ twins cl_three 2 10.
Proof.
  split; [repeat constructor; cbn; intuition lia|]. split; [intros a; cbn; intuition lia|]. split; [reflexivity|]. unfold twins, cluster_of; cbn. repeat split; try lia; discriminate.
Qed.
