(** When the translation of a built constraint succeeds, and when a construction is rejected. *)
From Verif Require Import Base BaseFacts MathModel Spec MathFacts.

(** The factor is not an empty array, every index named by the call exists in its variable, and a constant array is not a one-element array
    (which numpy broadcasts but [as_vector] refuses). *)
Definition call_in_range (c : call) : Prop :=
  match c with
  | AddS v f idx as_sum =>
      nlen f <> 0%nat
      /\ match idx with
         | None => True
         | Some l => Forall (fun j => (j < v_len v)%nat) l /\ (as_sum = true -> l = seq 0 (length l))
         end
  | AddC k => is_scalar k = true \/ nlen k <> 1%nat
  end.

(** A call that names at least one entry of a variable. *)
Definition call_names (c : call) : Prop :=
  match c with AddS v f None as_sum => v_len v <> 0%nat | AddS v f (Some l) as_sum => l <> [] | AddC k => False end.

Lemma mapM_total : forall {A B} (f : A -> res B) l, (forall a, In a l -> exists b, f a = Ok b) ->
  exists r, mapM f l = Ok r.
Proof.
  induction l as [|a l IH]; intros H; [exists []; reflexivity|].
  destruct (H a (or_introl eq_refl)) as [b E]. destruct IH as [r Er]; [intros; apply H; right; auto|].
  exists (b :: r). simpl. rewrite E. simpl. rewrite Er. reflexivity.
Qed.

Lemma summand_terms_total : forall v f idx b s i,
  mk_summand v f idx b = Ok s -> call_in_range (AddS v f idx b) -> (s_len s = 1 \/ i < s_len s)%nat ->
  exists ts, summand_terms s i = Ok ts.
Proof.
  intros v f idx b s i H [RF R] L. destruct (mk_summand_inv _ _ _ _ _ H) as [n [C [V [Ev [Ei [El Es]]]]]].
  pose proof (as_vector_length _ _ _ V) as LV.
  unfold summand_terms. rewrite Es, Ei, Ev, El in *.
  assert (RI : Forall (fun j => (j < v_len v)%nat) (idx_of v idx)).
  { destruct idx as [l|]; simpl in *; [tauto|]. apply Forall_forall. intros j Hj. apply in_seq in Hj. lia. }
  assert (One : forall pi pf, (pi < length (idx_of v idx))%nat -> (pf < n)%nat ->
     exists t, (ix <- of_option IndexError (nth_error (idx_of v idx) pi);;
                j <- pv_index v ix;;
                q <- of_option IndexError (nth_error (s_fvec s) pf);; Ok (q, v_label v, j)) = Ok t).
  { intros pi pf Hpi Hpf.
    destruct (nth_error (idx_of v idx) pi) as [ix|] eqn:E1; [|apply nth_error_None in E1; lia].
    assert (Hix : (ix < v_len v)%nat) by (rewrite Forall_forall in RI; apply RI; eapply nth_error_In; eauto).
    destruct (nth_error (s_fvec s) pf) as [q|] eqn:E2; [|apply nth_error_None in E2; lia].
    simpl. unfold pv_index. apply Nat.ltb_lt in Hix. rewrite Hix. simpl. eauto. }
  destruct b.
  - apply mapM_total. intros j Hj. apply One.
    + destruct idx as [l|]; simpl in *.
      * destruct R as [_ R]. rewrite (R eq_refl) in Hj. apply in_seq in Hj. lia.
      * apply in_seq in Hj. rewrite seq_length. lia.
    + apply check_length_spec in C. destruct idx as [l|]; simpl in *.
      * destruct R as [_ R]. rewrite (R eq_refl) in Hj. apply in_seq in Hj. lia.
      * apply in_seq in Hj. rewrite seq_length in C. lia.
  - apply check_length_spec in C.
    destruct (Nat.eqb n 1) eqn:En; [|destruct (Nat.eqb (length (idx_of v idx)) 1) eqn:Ei1].
    + apply Nat.eqb_eq in En. destruct (One 0%nat 0%nat) as [t ->]; [lia|lia|simpl; eauto].
    + apply Nat.eqb_eq in Ei1. apply Nat.eqb_neq in En. destruct (One 0%nat i) as [t ->]; [lia|lia|simpl; eauto].
    + apply Nat.eqb_neq in Ei1. apply Nat.eqb_neq in En. destruct (One i i) as [t ->]; [lia|lia|simpl; eauto].
Qed.

(** A summand over at least one entry gives at least one term. *)
Lemma summand_terms_some : forall s i ts, summand_terms s i = Ok ts -> s_idx s <> [] -> ts <> [].
Proof.
  intros s i ts H N. unfold summand_terms in H. destruct (s_sum s).
  - intros ->. apply mapM_length in H. destruct (s_idx s); [congruence|discriminate H].
  - destruct (Nat.eqb (s_len s) 1); [|destruct (Nat.eqb (length (s_idx s)) 1)];
      match type of H with bind ?m _ = _ => destruct m as [t|]; [|discriminate H] end; apply Ok_inj in H; subst ts; discriminate.
Qed.
Lemma lhs_terms_some : forall ss i ts s, lhs_terms ss i = Ok ts -> In s ss -> s_idx s <> [] -> nonempty ts = true.
Proof.
  intros ss i ts s H Hs N. unfold lhs_terms in H. destruct (mapM (fun s => summand_terms s i) ss) as [tss|] eqn:E; [|discriminate H]. cbn in H. apply Ok_inj in H. subst ts.
  revert tss E. induction ss as [|a ss IH]; intros tss E; [destruct Hs|]. cbn in E. destruct (summand_terms a i) as [t|] eqn:Ea; [|discriminate E]. cbn in E.
  destruct (mapM (fun s => summand_terms s i) ss) as [r|] eqn:Er; [|discriminate E]. cbn in E. apply Ok_inj in E. subst tss. cbn.
  destruct Hs as [-> |Hs]; [pose proof (summand_terms_some _ _ _ Ea N); destruct t; [congruence|reflexivity]|]. specialize (IH Hs r eq_refl). destruct t; [exact IH|reflexivity].
Qed.

(** A one-element constant array can only come from adding one. *)
Lemma bcast2_vec1 : forall f a b c, bcast2 f a b = Ok c -> is_scalar c = false -> nlen c = 1%nat ->
  (is_scalar a = false /\ nlen a = 1%nat) \/ (is_scalar b = false /\ nlen b = 1%nat).
Proof.
  intros f a b c H S L. destruct (bcast2_len _ _ _ _ H) as [A B].
  destruct a as [x|l]; destruct b as [y|m]; simpl in *; auto.
  - injection H as <-. discriminate.
  - right. split; auto. lia.
  - left. split; auto. lia.
  - left. split; auto. lia.
Qed.

Lemma const_not_vec1 : forall k label short calls c,
  build_constraint k label short calls = Ok c -> Forall call_in_range calls ->
  is_scalar (c_const c) = true \/ nlen (c_const c) <> 1%nat.
Proof.
  intros k label short calls c H R. unfold build_constraint in H.
  revert H. apply (foldM_inv apply_call (fun c => is_scalar (c_const c) = true \/ nlen (c_const c) <> 1%nat)).
  - intros s a s' Ha P E. unfold apply_call, to_res in E. rewrite Forall_forall in R. specialize (R _ Ha).
    destruct a as [v f idx b|q]; simpl in E.
    + unfold add_summand_st in E. destruct (mk_summand v f idx b); [|discriminate].
      destruct (update_length (c_len s) (s_len a)); [|discriminate]. simpl in E. inv_ok. simpl. auto.
    + unfold add_constant_st in E. destruct (nadd (c_const s) q) eqn:A; [|discriminate].
      destruct (update_length (c_len s) (nlen a)); [|discriminate]. simpl in E. inv_ok. simpl.
      destruct (is_scalar a) eqn:S; auto. right. intros L.
      destruct (bcast2_vec1 _ _ _ _ A S L) as [[? ?]|[? ?]]; simpl in R; intuition congruence.
  - simpl. auto.
Qed.

Theorem translate_total : forall k label short calls c,
  build_constraint k label short calls = Ok c -> Forall call_in_range calls -> Exists call_names calls ->
  exists rows, translate_constraint c = Ok rows.
Proof.
  intros k label short calls c H R EX. pose proof (const_not_vec1 _ _ _ _ _ H R) as CV.
  pose proof (build_built _ _ _ _ _ H) as [B1 B2 B3 B4 B5 B6 B7 _ B8].
  unfold translate_constraint.
  assert (AV : exists cv, as_vector (c_const c) (c_len c) = Ok cv).
  { destruct (c_const c) as [q|l]; simpl in *; [eauto|].
    destruct CV as [?|CV]; [discriminate|]. destruct B7 as [?|B7]; [lia|]. rewrite B7, Nat.eqb_refl. eauto. }
  destruct AV as [cv AV]. rewrite AV. simpl.
  apply mapM_total. intros i Hi. apply in_seq in Hi.
  assert (LT : exists ts, lhs_terms (c_summands c) i = Ok ts).
  { unfold lhs_terms.
    assert (X : exists tss, mapM (fun s => summand_terms s i) (c_summands c) = Ok tss).
    { apply mapM_total. intros s Hs. apply In_nth_error in Hs. destruct Hs as [p Hp].
      assert (exists a, nth_error (filter is_summand calls) p = Some a /\ mk_of a = Ok s) as [a [Ha Hm]].
      { clear - B4 Hp. revert p Hp. induction B4; intros [|p] Hp; simpl in *; try discriminate; eauto.
        injection Hp as <-. eauto. }
      apply nth_error_In in Ha. apply filter_In in Ha. destruct Ha as [Ha Hs].
      destruct a as [v f idx b|q]; [|discriminate]. simpl in Hm.
      eapply summand_terms_total; [exact Hm| |].
      - rewrite Forall_forall in R. apply (R _ Ha).
      - rewrite (mk_summand_len _ _ _ _ _ Hm). specialize (B5 _ Ha). lia. }
    destruct X as [tss ->]. simpl. eauto. }
  assert (NM : exists s, In s (c_summands c) /\ s_idx s <> []).
  { apply Exists_exists in EX. destruct EX as [a [Ha Na]]. destruct a as [v f idx b|q]; [|destruct Na].
    assert (HF : In (AddS v f idx b) (filter is_summand calls)) by (apply filter_In; auto). clear - B4 HF Na.
    induction B4 as [|a s al sl Hs HR IH]; [destruct HF|]. destruct HF as [-> |HF]; [|destruct (IH HF) as [s' [A B]]; exists s'; simpl; auto].
    exists s. split; [left; auto|]. simpl in Hs. destruct (mk_summand_inv _ _ _ _ _ Hs) as [n [_ [_ [_ [-> _]]]]].
    destruct idx as [l|]; simpl in *; [exact Na|]. destruct (v_len v); [congruence|discriminate]. }
  destruct NM as [s [Hs NM]]. destruct LT as [ts LT]. rewrite LT. simpl.
  rewrite (as_vector_nth _ _ _ i AV) by lia. simpl. rewrite (lhs_terms_some _ _ _ _ LT Hs NM). simpl. eauto.
Qed.

(** Two non-scalar parts of different lengths: rejected, wherever they occur. *)
Theorem incompatible_rejected : forall k label short calls a b,
  In a calls -> In b calls -> call_len a <> 1%nat -> call_len b <> 1%nat -> call_len a <> call_len b ->
  exists e, build_constraint k label short calls = Err e.
Proof.
  intros k label short calls a b Ha Hb La Lb N.
  destruct (build_constraint k label short calls) as [c|e] eqn:E; [|eauto].
  apply build_built in E. destruct E as [_ _ _ _ B5 _ _ _ _].
  pose proof (B5 a Ha). pose proof (B5 b Hb). exfalso. lia.
Qed.

Theorem rows_count : forall k label short calls c rows,
  build_constraint k label short calls = Ok c -> translate_constraint c = Ok rows ->
  (forall a, In a calls -> call_len a = 1%nat \/ call_len a = length rows)
  /\ (length rows = 1%nat \/ exists a, In a calls /\ call_len a = length rows).
Proof.
  intros k label short calls c rows H T. apply build_built in H. destruct H as [B1 B2 B3 B4 B5 B6 B7 _ B8].
  unfold translate_constraint in T. inv_ok. rewrite (mapM_length _ _ _ T), seq_length. auto.
Qed.

Lemma update_length_err : forall a b e, update_length a b = Err e -> (a <> 1 /\ b <> 1 /\ b <> a)%nat.
Proof.
  intros a b e H. unfold update_length in H. destruct (Nat.eqb a 1) eqn:E; [discriminate|].
  destruct (Nat.eqb b 1) eqn:E1; [discriminate|]. destruct (Nat.eqb b a) eqn:E2; [discriminate|].
  apply Nat.eqb_neq in E, E1, E2. auto.
Qed.

Theorem add_summand_err_unchanged : forall c v f idx b c' e,
  add_summand_st c v f idx b = (c', Some e) -> c' = c.
Proof.
  intros c v f idx b c' e H. unfold add_summand_st in H. destruct (mk_summand v f idx b); [|congruence].
  destruct (update_length (c_len c) (s_len a)); congruence.
Qed.

Theorem add_constant_err_scalar : forall c k c' e,
  is_scalar (c_const c) = true -> c_len c = nlen k \/ c_len c = 1%nat \/ is_scalar k = true ->
  add_constant_st c k = (c', e) -> e = None.
Proof.
  intros c k c' e S L H. unfold add_constant_st in H. destruct (c_const c) as [q|]; [|discriminate].
  destruct (nadd (NS q) k) as [q'|] eqn:E; [|destruct k; simpl in E; discriminate].
  assert (Lq : nlen q' = nlen k) by (destruct k; simpl in E; inv_ok; simpl; rewrite ?map_length; auto).
  assert (Sk : is_scalar k = true -> nlen k = 1%nat) by (destruct k; simpl; auto; discriminate).
  destruct (update_length (c_len c) (nlen q')) eqn:U; [congruence|].
  apply update_length_err in U. intuition lia.
Qed.

(** Rows without variables. *)
Lemma translate_rows_some : forall c rows r, translate_constraint c = Ok rows -> In r rows -> r_terms r <> [].
Proof.
  intros c rows r T H. unfold translate_constraint in T. apply bind_ok in T; destruct T as [cv [cvE T]]; cbv beta in T. destruct (mapM_In_inv _ _ _ _ T H) as [i [_ E]].
  apply bind_ok in E; destruct E as [ts [tsE E]]; cbv beta in E. apply bind_ok in E; destruct E as [q [qE E]]; cbv beta in E. apply bind_ok in E; destruct E as [g [gE E]]; cbv beta in E. apply Ok_inj in E; subst. cbn. intros ->. discriminate gE.
Qed.
Lemma numbers_summands : forall calls c c', foldM apply_call calls c = Ok c' -> (forall a, In a calls -> exists q, a = AddC q) -> c_summands c' = c_summands c.
Proof.
  induction calls as [|a calls IH]; intros c c' H A; [apply Ok_inj in H; subst; reflexivity|]. cbn [foldM] in H. apply bind_ok in H; destruct H as [d [dE H]]; cbv beta in H.
  rewrite (IH _ _ H) by (intros; apply A; right; auto). destruct (A a (or_introl eq_refl)) as [q ->]. unfold apply_call, to_res in dE. cbn [apply_call_st] in dE. unfold add_constant_st in dE.
  destruct (nadd (c_const c) q) as [k|e]; [|discriminate dE]. destruct (update_length (c_len c) (nlen k)) as [m|e]; [|discriminate dE]. apply Ok_inj in dE; subst. reflexivity.
Qed.
Lemma numbers_refused : forall k label short calls c,
  build_constraint k label short calls = Ok c -> (forall a, In a calls -> exists q, a = AddC q) -> (0 < c_len c)%nat ->
  exists e, translate_constraint c = Err e.
Proof.
  intros k label short calls c B A L. destruct (translate_constraint c) as [rows|e] eqn:T; [exfalso|eauto]. unfold build_constraint in B.
  pose proof (numbers_summands _ _ _ B A) as Z. cbn in Z. unfold translate_constraint in T. apply bind_ok in T; destruct T as [cv [cvE T]]; cbv beta in T. rewrite Z in T. destruct (c_len c) as [|n]; [lia|]. cbn [seq mapM] in T.
  apply bind_ok in T; destruct T as [r [rE T]]; cbv beta in T. unfold lhs_terms in rE. cbn [mapM bind List.concat] in rE. apply bind_ok in rE; destruct rE as [q [qE rE]]; cbv beta in rE. discriminate rE.
Qed.
