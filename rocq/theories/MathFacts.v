(** Meaning of constraints built by sequences of calls. *)
From Verif Require Import Base BaseFacts MathModel Spec.

(** A sum over explicitly chosen indices means what it says only for the selection 0..k-1
    (see [sum_over_indices_refuted]). *)
Definition plain (c : call) : Prop :=
  match c with
  | AddS _ _ (Some l) true => l = seq 0 (length l)
  | _ => True
  end.

Lemma lin_nil : forall x, lin x [] = 0.
Proof. reflexivity. Qed.
Lemma lin_app : forall x a b, lin x (a ++ b) == lin x a + lin x b.
Proof. intros. unfold lin. rewrite map_app. apply Qsum_app. Qed.
Lemma lin_concat : forall x l, lin x (List.concat l) == Qsum (map (lin x) l).
Proof. induction l; simpl; [reflexivity|]. rewrite lin_app, IHl. reflexivity. Qed.

Lemma check_length_spec : forall lf li n, check_length lf li = Ok n ->
  (li = lf /\ n = li) \/ (lf = 1 /\ n = li)%nat \/ (li = 1 /\ lf <> 1 /\ n = lf)%nat.
Proof.
  intros lf li n H. unfold check_length in H.
  destruct (Nat.eqb li lf) eqn:E1; [apply Nat.eqb_eq in E1; injection H as <-; auto|].
  destruct (Nat.eqb lf 1) eqn:E2; [apply Nat.eqb_eq in E2; injection H as <-; auto|].
  destruct (Nat.eqb li 1) eqn:E3; [apply Nat.eqb_eq in E3; injection H as <-|discriminate].
  apply Nat.eqb_neq in E2. right; right; auto.
Qed.

Definition idx_of (v : variable) (idx : option (list nat)) : list nat :=
  match idx with Some l => l | None => seq 0 (v_len v) end.

Lemma idx_of_length : forall v idx, length (idx_of v idx) = match idx with None => v_len v | Some l => length l end.
Proof. intros v [l|]; simpl; auto. apply seq_length. Qed.

Lemma mk_summand_inv : forall v f idx b s, mk_summand v f idx b = Ok s ->
  exists n, check_length (nlen f) (length (idx_of v idx)) = Ok n /\ as_vector f n = Ok (s_fvec s)
    /\ s_var s = v /\ s_idx s = idx_of v idx /\ s_len s = (if b then 1%nat else n) /\ s_sum s = b.
Proof.
  intros v f idx b s H. unfold mk_summand in H. fold (idx_of v idx) in H. inv_ok.
  exists a. simpl. auto 10.
Qed.

Lemma mk_summand_len : forall v f idx b s, mk_summand v f idx b = Ok s -> s_len s = call_len (AddS v f idx b).
Proof.
  intros v f idx b s H. apply mk_summand_inv in H. destruct H as [n [C [_ [_ [_ [L _]]]]]].
  rewrite L. destruct b; [reflexivity|]. cbn [call_len].
  rewrite idx_of_length in C. apply check_length_spec in C.
  destruct C as [[A ->]|[[A ->]|[A [B ->]]]].
  - rewrite A. destruct (Nat.eqb (nlen f) 1) eqn:E; auto.
  - rewrite A. reflexivity.
  - apply Nat.eqb_neq in B. rewrite B. reflexivity.
Qed.

Lemma nth_error_idx_of : forall v idx i j, nth_error (idx_of v idx) i = Some j ->
  j = match idx with None => i | Some l => nth i l 0%nat end.
Proof.
  intros v [l|] i j H; simpl in H.
  - symmetry. apply nth_error_nth; auto.
  - assert (L : (i < v_len v)%nat).
    { rewrite <- (seq_length (v_len v) 0). apply nth_error_Some. congruence. }
    rewrite (nth_error_nth' _ 0%nat) in H by (rewrite seq_length; auto).
    injection H as <-. rewrite seq_nth; auto.
Qed.

Lemma pick_spec : forall v idx i j n,
  nth_error (idx_of v idx) (if Nat.eqb n 1 then 0%nat else if Nat.eqb (length (idx_of v idx)) 1 then 0%nat else i) = Some j ->
  (n = 1 -> length (idx_of v idx) = 1)%nat -> j = pick v idx i.
Proof.
  intros v idx i j n H Hn.
  assert (H' : nth_error (idx_of v idx) (if Nat.eqb (length (idx_of v idx)) 1 then 0%nat else i) = Some j).
  { destruct (Nat.eqb n 1) eqn:E; auto. apply Nat.eqb_eq in E. rewrite (Hn E). exact H. }
  clear H Hn. pose proof (idx_of_length v idx) as L. apply nth_error_idx_of in H'. rewrite L in H'.
  destruct idx as [l|]; simpl.
  - destruct l as [|a [|b l]]; simpl in *; auto.
  - rewrite H'. destruct (Nat.eqb (v_len v) 1); auto.
Qed.

Lemma summand_terms_spec : forall x v f idx b s i ts,
  mk_summand v f idx b = Ok s -> plain (AddS v f idx b) ->
  summand_terms s i = Ok ts -> (s_len s = 1 \/ i < s_len s)%nat ->
  lin x ts == call_lhs x i (AddS v f idx b).
Proof.
  intros x v f idx b s i ts H P T R.
  destruct (mk_summand_inv _ _ _ _ _ H) as [n [C [V [Ev [Ei [El Es]]]]]].
  unfold summand_terms in T. rewrite Es, Ei, Ev, El in *. destruct b.
  - (* sum *)
    assert (HI : idx_of v idx = seq 0 (length (idx_of v idx))).
    { destruct idx as [l|]; simpl in *; auto. rewrite seq_length; auto. }
    set (m := length (idx_of v idx)) in *.
    assert (G : forall j, (j < m)%nat -> nth_error (seq 0 m) j = Some j).
    { intros j Hj. rewrite (nth_error_nth' _ 0%nat) by (rewrite seq_length; auto).
      rewrite seq_nth; auto. }
    assert (Hsum : lin x ts == sumn m (fun j => at_ f j * x (v_label v) j)).
    { unfold sumn. rewrite HI in T. clear HI H P R C.
      assert (Hlt : forall j, In j (seq 0 m) -> (j < m)%nat) by (intros j Hj; apply in_seq in Hj; lia).
      match type of T with mapM ?F _ = _ =>
        assert (X : forall l ts, (forall j, In j l -> (j < m)%nat) -> mapM F l = Ok ts ->
                    lin x ts == Qsum (map (fun j => at_ f j * x (v_label v) j) l)); [|exact (X _ _ Hlt T)]
      end.
      clear T ts Hlt. induction l as [|j l IH]; intros ts Hl T.
      - simpl in T. injection T as <-. simpl. reflexivity.
      - cbn [mapM] in T. inv_ok. simpl map.
        rewrite G in Heqo0 by (apply Hl; left; auto).
        injection Heqo0 as <-.
        unfold pv_index in E2. destruct (Nat.ltb j (v_len v)); [injection E2 as <-|discriminate].
        rewrite (as_vector_nth _ _ _ j V) in Heqo by (rewrite <- (as_vector_length _ _ _ V); apply nth_error_Some; congruence).
        injection Heqo as <-.
        change (lin x ((at_ f j, v_label v, j) :: a0)) with (at_ f j * x (v_label v) j + lin x a0).
        rewrite (IH _ (fun k hk => Hl k (or_intror hk)) E0). simpl. reflexivity. }
    rewrite Hsum. clear Hsum. destruct idx as [l|]; simpl call_lhs.
    + unfold m; simpl. unfold sumn. apply Qsum_map_eq. intros j Hj. apply in_seq in Hj.
      simpl in HI. assert (Ej : nth j l 0%nat = j).
      { rewrite HI. apply seq_nth. unfold m in *; simpl in *. lia. }
      rewrite Ej. reflexivity.
    + unfold m. rewrite idx_of_length. reflexivity.
  - (* single *)
    set (pf := if Nat.eqb n 1 then 0%nat else i).
    set (pi := if Nat.eqb n 1 then 0%nat else if Nat.eqb (length (idx_of v idx)) 1 then 0%nat else i).
    assert (T' : exists ix j q, nth_error (idx_of v idx) pi = Some ix /\ pv_index v ix = Ok j
                 /\ nth_error (s_fvec s) pf = Some q /\ ts = [(q, v_label v, j)]).
    { unfold pf, pi. destruct (Nat.eqb n 1); [|destruct (Nat.eqb (length (idx_of v idx)) 1)];
        inv_ok; eexists _, _, _; eauto. }
    destruct T' as [ix [j [q [H1 [H2 [H3 ->]]]]]].
    unfold pv_index in H2. destruct (Nat.ltb ix (v_len v)); [injection H2 as <-|discriminate].
    assert (Ej : ix = pick v idx i).
    { eapply pick_spec; [exact H1|]. intros Hn1. clear - C Hn1. apply check_length_spec in C. lia. }
    assert (Hpf : (pf < n)%nat).
    { unfold pf. destruct (Nat.eqb n 1) eqn:E.
      - apply Nat.eqb_eq in E. lia.
      - apply Nat.eqb_neq in E. destruct R; [lia|auto]. }
    rewrite (as_vector_nth _ _ _ _ V Hpf) in H3. injection H3 as <-.
    assert (Eq : at_ f pf = at_ f i).
    { unfold pf. destruct (Nat.eqb n 1) eqn:E; auto. apply Nat.eqb_eq in E. subst n.
      destruct f as [y|[|y [|z l]]]; simpl in *; auto; try discriminate. }
    subst ix. rewrite Eq. unfold lin, Qsum. cbn [map fold_right call_lhs]. ring.
Qed.

(** ** The invariant of a constraint under construction *)
Definition is_summand (c : call) : bool := match c with AddS _ _ _ _ => true | AddC _ => false end.

Definition mk_of (c : call) : res summand :=
  match c with AddS v f idx b => mk_summand v f idx b | AddC _ => Err TypeError end.

Record built (k : ckind) (label short : string) (done : list call) (c : constraint) : Prop := {
  b_label : c_label c = label;
  b_short : c_short c = or_str short label;
  b_kind : c_kind c = k;
  b_sums : Forall2 (fun a s => mk_of a = Ok s) (filter is_summand done) (c_summands c);
  b_lens : forall a, In a done -> call_len a = 1%nat \/ call_len a = c_len c;
  b_len1 : c_len c = 1%nat \/ exists a, In a done /\ call_len a = c_len c;
  b_const_len : nlen (c_const c) = 1%nat \/ nlen (c_const c) = c_len c;
  b_const_len1 : nlen (c_const c) = 1%nat \/ exists a, In a done /\ call_len a = nlen (c_const c);
  b_const : forall i, in_rng (c_const c) i -> at_ (c_const c) i == Qsum (map (call_rhs i) done)
}.

Lemma update_length_spec : forall cur new n, update_length cur new = Ok n ->
  (cur = 1 /\ n = new)%nat \/ (cur <> 1 /\ n = cur /\ (new = 1 \/ new = cur))%nat.
Proof.
  intros cur new n H. unfold update_length in H.
  destruct (Nat.eqb cur 1) eqn:E.
  - apply Nat.eqb_eq in E. injection H as <-. auto.
  - apply Nat.eqb_neq in E. destruct (Nat.eqb new 1) eqn:E1; simpl in H.
    + apply Nat.eqb_eq in E1. injection H as <-. right; auto.
    + destruct (Nat.eqb new cur) eqn:E2; [|discriminate]. apply Nat.eqb_eq in E2. injection H as <-. right; auto.
Qed.

Lemma apply_call_built : forall k label short done c a c',
  built k label short done c -> apply_call c a = Ok c' -> built k label short (done ++ [a]) c'.
Proof.
  intros k label short done c a c' B H. unfold apply_call, to_res, apply_call_st in H.
  destruct a as [v f idx s|q].
  - unfold add_summand_st in H. destruct (mk_summand v f idx s) as [sm|e] eqn:M; [|discriminate H].
    destruct (update_length (c_len c) (s_len sm)) as [n|e] eqn:U; [|discriminate H].
    simpl in H. injection H as <-.
    pose proof (mk_summand_len _ _ _ _ _ M) as L. rewrite L in U.
    destruct B as [B1 B2 B3 B4 B5 B6 B7 B7' B8].
    assert (Hlen : n = c_len c \/ c_len c = 1%nat) by (apply update_length_spec in U; intuition).
    constructor; simpl; auto.
    + rewrite filter_app. simpl. apply Forall2_app; auto.
    + intros a Ha. apply in_app_or in Ha. destruct Ha as [Ha|[<-|[]]].
      * specialize (B5 a Ha). intuition lia.
      * apply update_length_spec in U. intuition lia.
    + apply update_length_spec in U. destruct U as [[U1 U2]|[U1 [U2 U3]]].
      * right. exists (AddS v f idx s). split; [apply in_or_app; right; left; auto|auto].
      * subst n. destruct B6 as [B6|[a [Ha1 Ha2]]]; [auto|right; exists a; split; [apply in_or_app|]; auto].
    + intuition lia.
    + destruct B7' as [?|[a [? ?]]]; [auto|right; exists a; split; [apply in_or_app|]; auto].
    + intros i Hi. rewrite map_app, Qsum_app. simpl. rewrite B8 by auto. lra.
  - unfold add_constant_st in H. destruct (nadd (c_const c) q) as [q'|e] eqn:A; [|discriminate H].
    destruct (update_length (c_len c) (nlen q')) as [n|e] eqn:U; [|discriminate H].
    simpl in H. injection H as <-.
    destruct B as [B1 B2 B3 B4 B5 B6 B7 B7' B8].
    destruct (bcast2_len _ _ _ _ A) as [LA LB].
    pose proof (bcast2_len_c _ _ _ _ A) as LC.
    constructor; simpl; auto.
    + rewrite filter_app. simpl. rewrite app_nil_r. auto.
    + intros a Ha. apply in_app_or in Ha. apply update_length_spec in U.
      destruct Ha as [Ha|[<-|[]]].
      * specialize (B5 a Ha). intuition lia.
      * simpl. intuition lia.
    + apply update_length_spec in U. destruct U as [[U1 U2]|[U1 [U2 U3]]].
      * subst n. destruct LC as [LC|LC].
        -- left. rewrite LC. intuition lia.
        -- right. exists (AddC q). split; [apply in_or_app; right; left; auto|simpl; auto].
      * subst n. destruct B6 as [?|[a [? ?]]]; [auto|right; exists a; split; [apply in_or_app|]; auto].
    + apply update_length_spec in U. intuition lia.
    + destruct LC as [LC|LC]; rewrite LC.
      * destruct B7' as [?|[a [? ?]]]; [auto|right; exists a; split; [apply in_or_app|]; auto].
      * right. exists (AddC q). split; [apply in_or_app; right; left; auto|reflexivity].
    + intros i Hi. rewrite map_app, Qsum_app. simpl.
      rewrite (bcast2_at _ _ _ _ _ A Hi). rewrite B8; [lra|].
      apply in_rng_len. apply in_rng_len in Hi. intuition lia.
Qed.

Lemma foldM_built : forall k label short calls done c c',
  built k label short done c -> foldM apply_call calls c = Ok c' -> built k label short (done ++ calls) c'.
Proof.
  induction calls as [|a calls IH]; simpl; intros done c c' B H.
  - injection H as <-. rewrite app_nil_r. auto.
  - inv_ok. replace (done ++ a :: calls) with ((done ++ [a]) ++ calls) by (rewrite <- app_assoc; auto).
    eapply IH; [|eassumption]. eapply apply_call_built; eauto.
Qed.

Lemma build_built : forall k label short calls c,
  build_constraint k label short calls = Ok c -> built k label short calls c.
Proof.
  intros. unfold build_constraint in H. change calls with ([] ++ calls). eapply foldM_built; [|exact H].
  constructor; simpl; auto; try tauto. intros. reflexivity.
Qed.

(** ** Rows *)
Definition con_sat (x : asg) (c : constraint) : Prop :=
  exists rows, translate_constraint c = Ok rows /\ Forall (row_ok x) rows.

Definition rel (k : ckind) (a b : Q) : Prop := match k with KIneq => a <= b | _ => a == b end.

Lemma lhs_terms_spec : forall x i calls ss n ts,
  Forall2 (fun a s => mk_of a = Ok s) (filter is_summand calls) ss ->
  Forall plain calls ->
  (forall a, In a calls -> call_len a = 1%nat \/ call_len a = n) -> (i < n)%nat ->
  lhs_terms ss i = Ok ts -> lin x ts == Qsum (map (call_lhs x i) calls).
Proof.
  intros x i calls ss n ts H P L Hi T. unfold lhs_terms in T. inv_ok. rewrite lin_concat.
  revert ss a H E. induction calls as [|a calls IH]; intros ss tss H E.
  - simpl in H. inversion H; subst. simpl in E. injection E as <-. reflexivity.
  - inversion P as [|? ? Pa Pr]; subst.
    assert (Lr : forall b, In b calls -> call_len b = 1%nat \/ call_len b = n) by (intros; apply L; right; auto).
    destruct a as [v f idx b|k].
    + simpl in H. inversion H as [|? s ? ss' M F]; subst. simpl in E. inv_ok.
      simpl map. rewrite !Qsum_cons. rewrite (IH Pr Lr _ _ F E1).
      assert (Hl : lin x a == call_lhs x i (AddS v f idx b)).
      { eapply summand_terms_spec; eauto.
        rewrite (mk_summand_len _ _ _ _ _ M). specialize (L _ (or_introl eq_refl)). intuition lia. }
      rewrite Hl. reflexivity.
    + simpl in H. simpl map. rewrite Qsum_cons. rewrite (IH Pr Lr _ _ H E). simpl. lra.
Qed.

Theorem rows_spec : forall x k label short calls c rows,
  build_constraint k label short calls = Ok c -> Forall plain calls ->
  translate_constraint c = Ok rows ->
  length rows = c_len c /\
  forall i r, nth_error rows i = Some r ->
    r_eq r = match k with KIneq => false | _ => true end
    /\ lin x (r_terms r) == Qsum (map (call_lhs x i) calls)
    /\ r_rhs r == Qsum (map (call_rhs i) calls).
Proof.
  intros x k label short calls c rows H P T. apply build_built in H. destruct H as [B1 B2 B3 B4 B5 B6 B7 _ B8].
  unfold translate_constraint in T. inv_ok.
  split; [rewrite (mapM_length _ _ _ T); apply seq_length|].
  intros i r Hr. destruct (mapM_nth_inv _ _ _ _ _ T Hr) as [j [Hj Hf]].
  assert (Hi : (i < c_len c)%nat).
  { rewrite <- (seq_length (c_len c) 0). apply nth_error_Some. congruence. }
  rewrite (nth_error_nth' _ 0%nat) in Hj by (rewrite seq_length; auto).
  rewrite seq_nth in Hj by auto. injection Hj as <-. simpl in Hf. inv_ok. simpl.
  split; [rewrite B3; reflexivity|]. split.
  - eapply lhs_terms_spec; eauto.
  - rewrite (as_vector_nth _ _ _ _ E Hi) in Heqo. injection Heqo as <-.
    apply B8. eapply as_vector_rng; eauto.
Qed.

Lemma con_sat_elim : forall x k label short calls c,
  build_constraint k label short calls = Ok c -> Forall plain calls -> con_sat x c ->
  forall i, (i < c_len c)%nat -> rel k (Qsum (map (call_lhs x i) calls)) (Qsum (map (call_rhs i) calls)).
Proof.
  intros x k label short calls c H P [rows [T F]] i Hi.
  destruct (rows_spec x _ _ _ _ _ _ H P T) as [L R].
  destruct (nth_error rows i) as [r|] eqn:E; [|apply nth_error_None in E; lia].
  destruct (R i r E) as [Re [Rl Rr]].
  assert (O : row_ok x r) by (rewrite Forall_forall in F; apply F; eapply nth_error_In; eauto).
  unfold row_ok in O. rewrite Re in O. destruct k; simpl in *; rewrite <- Rl, <- Rr; auto.
Qed.

Lemma con_sat_intro : forall x k label short calls c rows,
  build_constraint k label short calls = Ok c -> Forall plain calls -> translate_constraint c = Ok rows ->
  (forall i, (i < c_len c)%nat -> rel k (Qsum (map (call_lhs x i) calls)) (Qsum (map (call_rhs i) calls))) ->
  con_sat x c.
Proof.
  intros x k label short calls c rows H P T R. exists rows. split; auto.
  destruct (rows_spec x _ _ _ _ _ _ H P T) as [L S]. apply Forall_forall. intros r Hr.
  apply In_nth_error in Hr. destruct Hr as [i E].
  destruct (S i r E) as [Re [Rl Rr]].
  assert (Hi : (i < c_len c)%nat) by (rewrite <- L; apply nth_error_Some; congruence).
  specialize (R i Hi). unfold row_ok. rewrite Re. destruct k; simpl in *; rewrite Rl, Rr; auto.
Qed.

(** ** Variables *)
Definition var_sat (x : asg) (v : variable) : Prop :=
  exists p, translate_variable v = Ok p /\ pvar_ok x p.

Lemma as_vector_opt_nth : forall a n l i, as_vector_opt a n = Ok l -> (i < n)%nat ->
  nth i l None = option_map (fun v => at_ v i) a.
Proof.
  intros [v|] n l i H Hi; simpl in H; inv_ok.
  - pose proof (as_vector_nth _ _ _ _ E Hi) as N. apply (map_nth_error Some) in N.
    erewrite nth_error_nth by eauto. reflexivity.
  - rewrite nth_repeat. reflexivity.
Qed.

Definition entry_of (v : variable) (i : nat) : pentry :=
  match v_fixed v with
  | Some f => mkPEntry (v_bin v) (Some (at_ f i)) None None
  | None => mkPEntry (v_bin v) None (option_map (fun a => at_ a i) (v_lb v)) (option_map (fun a => at_ a i) (v_ub v))
  end.

Lemma translate_variable_spec : forall v p, translate_variable v = Ok p ->
  pv_label p = v_label v /\ pv_entries p = map (entry_of v) (seq 0 (v_len v)).
Proof.
  intros v p H. unfold translate_variable in H. inv_ok. simpl. split; auto.
  apply map_ext_in. intros i Hi. apply in_seq in Hi. unfold entry_of.
  rewrite (as_vector_opt_nth _ _ _ i E), (as_vector_opt_nth _ _ _ i E0), (as_vector_opt_nth _ _ _ i E1) by lia.
  destruct (v_fixed v); reflexivity.
Qed.

Lemma var_sat_entry : forall x v, var_sat x v -> forall i, (i < v_len v)%nat -> entry_ok (entry_of v i) (x (v_label v) i).
Proof.
  intros x v [p [T O]] i Hi. destruct (translate_variable_spec _ _ T) as [L E].
  rewrite <- L. apply O. rewrite E. erewrite map_nth_error; [reflexivity|].
  rewrite (nth_error_nth' _ 0%nat) by (rewrite seq_length; auto). rewrite seq_nth; auto.
Qed.

Lemma var_sat_bin : forall x v, var_sat x v -> v_fixed v = None -> v_bin v = true ->
  forall i, (i < v_len v)%nat -> x (v_label v) i == 0 \/ x (v_label v) i == 1.
Proof.
  intros x v S F B i Hi. pose proof (var_sat_entry _ _ S i Hi) as E. unfold entry_of, entry_ok in E.
  rewrite F in E. simpl in E. apply E; auto.
Qed.

Lemma var_sat_lb : forall x v l, var_sat x v -> v_fixed v = None -> v_lb v = Some l ->
  forall i, (i < v_len v)%nat -> at_ l i <= x (v_label v) i.
Proof.
  intros x v l S F B i Hi. pose proof (var_sat_entry _ _ S i Hi) as E. unfold entry_of, entry_ok in E.
  rewrite F, B in E. simpl in E. apply E; auto.
Qed.

Lemma var_sat_ub : forall x v l, var_sat x v -> v_fixed v = None -> v_ub v = Some l ->
  forall i, (i < v_len v)%nat -> x (v_label v) i <= at_ l i.
Proof.
  intros x v l S F B i Hi. pose proof (var_sat_entry _ _ S i Hi) as E. unfold entry_of, entry_ok in E.
  rewrite F, B in E. simpl in E. apply E; auto.
Qed.

Lemma var_sat_fixed : forall x v l, var_sat x v -> v_fixed v = Some l ->
  forall i, (i < v_len v)%nat -> x (v_label v) i == at_ l i.
Proof.
  intros x v l S F i Hi. pose proof (var_sat_entry _ _ S i Hi) as E. unfold entry_of, entry_ok in E.
  rewrite F in E. simpl in E. auto.
Qed.
