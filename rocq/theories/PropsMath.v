(** Properties C23-C26: equations and variables as handed to the solver. *)
From Verif Require Import Base BaseFacts MathModel Spec MathFacts MathTotal.

(** *** C23 Equation assembly *)

(** For every sequence of calls that succeeds: row [i] reads
    "sum of the calls' left-hand sides at i  (= or <=)  sum of the constants at i". *)
Theorem C23_equation_assembly : forall x k label short calls c rows,
  build_constraint k label short calls = Ok c -> Forall plain calls -> translate_constraint c = Ok rows ->
  (forall a, In a calls -> call_len a = 1%nat \/ call_len a = length rows)
  /\ (length rows = 1%nat \/ exists a, In a calls /\ call_len a = length rows)
  /\ forall i r, nth_error rows i = Some r ->
       r_eq r = match k with KIneq => false | _ => true end
       /\ lin x (r_terms r) == Qsum (map (call_lhs x i) calls)
       /\ r_rhs r == Qsum (map (call_rhs i) calls).
Proof.
  intros x k label short calls c rows H P T. destruct (rows_count _ _ _ _ _ _ H T) as [A B].
  split; [exact A|]. split; [exact B|]. exact (proj2 (rows_spec x k label short calls c rows H P T)).
Qed.
Print Assumptions C23_equation_assembly.

(** The rows exist: translation cannot fail for calls whose indices lie inside their variables, if one of them names a variable. *)
Theorem C23_rows_exist : forall k label short calls c,
  build_constraint k label short calls = Ok c -> Forall call_in_range calls -> Exists call_names calls ->
  exists rows, translate_constraint c = Ok rows.
Proof. exact translate_total. Qed.
Print Assumptions C23_rows_exist.

Theorem C23_incompatible_rejected : forall k label short calls a b,
  In a calls -> In b calls -> call_len a <> 1%nat -> call_len b <> 1%nat -> call_len a <> call_len b ->
  exists e, build_constraint k label short calls = Err e.
Proof. exact incompatible_rejected. Qed.
Print Assumptions C23_incompatible_rejected.

(** Every row that is handed over speaks about a variable; an equation made of numbers alone is refused. *)
Theorem C23_rows_speak : forall c rows r, translate_constraint c = Ok rows -> In r rows -> r_terms r <> [].
Proof. exact translate_rows_some. Qed.
Print Assumptions C23_rows_speak.
Theorem C23_numbers_refused : forall k label short calls c,
  build_constraint k label short calls = Ok c -> (forall a, In a calls -> exists q, a = AddC q) -> (0 < c_len c)%nat ->
  exists e, translate_constraint c = Err e.
Proof. exact numbers_refused. Qed.
Print Assumptions C23_numbers_refused.

Definition ex_v : variable := mkVariable "v" "v" 3 false None None None true None.
Definition ex_w : variable := mkVariable "w" "w" 1 false None None None false None.
Definition ex_calls : list call :=
  [AddC (NS 5); AddS ex_v (NS 2) None false; AddS ex_w (NV [1; 2; 3]) None false;
   AddS ex_v (NS 1) None true; AddC (NV [1; 0; 7])].

Example C23_nonvacuous : exists c rows,
  build_constraint KIneq "e" "e" ex_calls = Ok c /\ Forall plain ex_calls /\ Forall call_in_range ex_calls /\ Exists call_names ex_calls
  /\ translate_constraint c = Ok rows /\ length rows = 3%nat.
Proof.
  eexists _, _. split; [vm_compute; reflexivity|]. split; [repeat constructor|].
  split; [repeat constructor; try discriminate; right; simpl; lia|]. split; [right; left; discriminate|].
  split; [vm_compute; reflexivity|]. reflexivity.
Qed.
Example C23_numbers_nonvacuous : exists c, build_constraint KEq "e" "e" [AddC (NS 5); AddC (NV [1; 2; 3])] = Ok c /\ (0 < c_len c)%nat /\ translate_constraint c = Err ValueError.
Proof. eexists. split; [vm_compute; reflexivity|]. split; [cbn; lia|vm_compute; reflexivity]. Qed.
Example C23_rejected_nonvacuous :
  build_constraint KEq "e" "e" [AddS ex_v (NS 1) None false; AddC (NV [1; 2])] = Err ValueError.
Proof. reflexivity. Qed.

(** *** C24 Rejected additions leave an equation unchanged *)

Definition C24_full : Prop := forall c a c' e, apply_call_st c a = (c', Some e) -> c' = c.

(** Refuted: add_constant changes the constant before it checks the length. *)
Theorem C24_failing_additions_refuted : ~ C24_full.
Proof.
  intros H.
  specialize (H (mkConstraint "e" "e" KEq [mkSummand ex_v [0;1;2]%nat [1;1;1] 3 false] (NS 0) 3)
                (AddC (NV [1; 2])) _ _ eq_refl). discriminate H.
Qed.
Print Assumptions C24_failing_additions_refuted.

(** The solver really sees the damage: after the rejected constant [1,2] the equation has no rows any more,
    translation raises. *)
Example C24_damage : exists c c' e,
  build_constraint KEq "e" "e" [AddS ex_v (NS 1) None false] = Ok c
  /\ apply_call_st c (AddC (NV [1; 2])) = (c', Some e)
  /\ (exists rows, translate_constraint c = Ok rows) /\ translate_constraint c' = Err PyException.
Proof.
  eexists _, _, _. split; [vm_compute; reflexivity|]. split; [vm_compute; reflexivity|].
  split; [eexists; vm_compute; reflexivity|vm_compute; reflexivity].
Qed.

(** What does hold: rejected summands never change anything, and a constant is never rejected when it is
    scalar or has the equation's length and no other constant array was added before. *)
Theorem C24_failing_additions_partial : forall c v f idx b c' e,
  apply_call_st c (AddS v f idx b) = (c', Some e) -> c' = c.
Proof. exact add_summand_err_unchanged. Qed.
Print Assumptions C24_failing_additions_partial.

Theorem C24_constant_accepted_partial : forall c k c' e,
  is_scalar (c_const c) = true -> c_len c = nlen k \/ c_len c = 1%nat \/ is_scalar k = true ->
  apply_call_st c (AddC k) = (c', e) -> e = None.
Proof. exact add_constant_err_scalar. Qed.
Print Assumptions C24_constant_accepted_partial.

Example C24_nonvacuous : exists c c' e,
  build_constraint KEq "e" "e" [AddS ex_v (NS 1) None false] = Ok c
  /\ apply_call_st c (AddS ex_v (NV [1; 2]) None false) = (c', Some e).
Proof. eexists _, _, _. split; vm_compute; reflexivity. Qed.

(** *** C25 Summing over chosen indices *)

Definition C25_full : Prop := forall x v f l s ts,
  mk_summand v f (Some l) true = Ok s -> summand_terms s 0 = Ok ts ->
  lin x ts == sumn (length l) (fun j => at_ f j * x (v_label v) (nth j l 0%nat)).

(** Refuted: indices [1;0] give x1 + x0 with the factors swapped; indices [1;1] sum twice entry 1 but with the
    second factor both times. *)
Theorem C25_sum_over_indices_refuted : ~ C25_full.
Proof.
  intros H.
  specialize (H (fun _ i => inject_Z (Z.of_nat i)) ex_v (NV [1; 2]) [1; 1]%nat _ _ eq_refl eq_refl).
  vm_compute in H. discriminate H.
Qed.
Print Assumptions C25_sum_over_indices_refuted.

(** It can also fail outright for perfectly valid indices. *)
Theorem C25_valid_indices_raise : exists v l s,
  Forall (fun j => (j < v_len v)%nat) l /\ mk_summand v (NS 1) (Some l) true = Ok s
  /\ summand_terms s 0 = Err IndexError.
Proof.
  exists ex_v, [2]%nat. eexists. split; [repeat constructor|]. split; vm_compute; reflexivity.
Qed.
Print Assumptions C25_valid_indices_raise.

(** Holds when the indices are 0..k-1 (in particular for the default: all indices). *)
Theorem C25_sum_over_indices_partial : forall x v f l s ts,
  mk_summand v f (Some l) true = Ok s -> summand_terms s 0 = Ok ts -> l = seq 0 (length l) ->
  lin x ts == sumn (length l) (fun j => at_ f j * x (v_label v) (nth j l 0%nat)).
Proof.
  intros x v f l s ts M T E. apply (summand_terms_spec x v f (Some l) true s 0 ts M E T).
  left. rewrite (mk_summand_len _ _ _ _ _ M). reflexivity.
Qed.
Print Assumptions C25_sum_over_indices_partial.

Theorem C25_sum_all : forall x v f s ts,
  mk_summand v f None true = Ok s -> summand_terms s 0 = Ok ts ->
  lin x ts == sumn (v_len v) (fun j => at_ f j * x (v_label v) j).
Proof.
  intros x v f s ts M T. apply (summand_terms_spec x v f None true s 0 ts M I T).
  left. rewrite (mk_summand_len _ _ _ _ _ M). reflexivity.
Qed.
Print Assumptions C25_sum_all.

Example C25_nonvacuous : exists s ts,
  mk_summand ex_v (NV [1; 2]) (Some [0; 1]%nat) true = Ok s /\ summand_terms s 0 = Ok ts /\ length ts = 2%nat.
Proof. eexists _, _. split; [|split]; vm_compute; reflexivity. Qed.

(** *** C26 Variable bounds reach the solver *)

Theorem C26_bounds : forall label len short bin lb ub v p x,
  mk_variable label len short bin None lb ub = Ok v -> translate_variable v = Ok p ->
  pvar_ok x p <->
  forall i, (i < len)%nat ->
    (bin = true -> x label i == 0 \/ x label i == 1)
    /\ (forall l, lb = Some l -> at_ l i <= x label i)
    /\ (forall u, ub = Some u -> x label i <= at_ u i).
Proof.
  intros label len short bin lb ub v p x M T. simpl in M. apply Ok_inj in M. subst v.
  destruct (translate_variable_spec _ _ T) as [L E]. simpl in L, E. split.
  - intros O i Hi.
    pose proof (var_sat_entry x _ (ex_intro _ p (conj T O)) i Hi) as W. unfold entry_of, entry_ok in W. simpl in W.
    destruct W as [W1 [W2 W3]]. split; auto. split.
    + intros l ->. apply W2. reflexivity.
    + intros u ->. apply W3. reflexivity.
  - intros H i e He. rewrite L. rewrite E in He.
    assert (Hi : (i < len)%nat).
    { rewrite <- (seq_length len 0), <- (map_length (entry_of (mkVariable label (or_str short label) len bin None lb ub false None))).
      apply nth_error_Some. congruence. }
    erewrite map_nth_error in He by (rewrite (nth_error_nth' _ 0%nat) by (rewrite seq_length; auto); reflexivity).
    rewrite seq_nth in He by auto. injection He as <-. unfold entry_of, entry_ok. simpl.
    destruct (H i Hi) as [A [B C]]. split; auto. split.
    + intros l Hl. destruct lb; simpl in Hl; [injection Hl as <-; auto|discriminate].
    + intros u Hu. destruct ub; simpl in Hu; [injection Hu as <-; auto|discriminate].
Qed.
Print Assumptions C26_bounds.

(** A fixed variable takes its value, and the value was checked against the bounds when constructed. *)
Theorem C26_fixed : forall label len short bin f lb ub v p x i,
  mk_variable label len short bin (Some f) lb ub = Ok v -> translate_variable v = Ok p -> pvar_ok x p ->
  (i < len)%nat -> x label i == at_ f i.
Proof.
  intros label len short bin f lb ub v p x i M T O Hi. simpl in M.
  apply bind_ok in M. destruct M as [a [_ M]]. apply bind_ok in M. destruct M as [b [_ M]].
  destruct (a && b)%bool; [|discriminate]. apply Ok_inj in M. subst v.
  exact (var_sat_fixed x _ f (ex_intro _ p (conj T O)) eq_refl i Hi).
Qed.
Print Assumptions C26_fixed.

Theorem C26_fixed_respects_bounds : forall label len short bin f lb ub v i,
  mk_variable label len short bin (Some f) lb ub = Ok v -> in_rng f i ->
  (forall l, lb = Some l -> in_rng l i -> at_ l i <= at_ f i)
  /\ (forall u, ub = Some u -> in_rng u i -> at_ f i <= at_ u i).
Proof.
  intros label len short bin f lb ub v i M R. simpl in M. inv_ok.
  destruct a, a0; try discriminate. split.
  - intros l -> Rl. eapply nall_le_at; eauto.
  - intros u -> Ru. eapply nall_le_at; eauto.
Qed.
Print Assumptions C26_fixed_respects_bounds.

Example C26_nonvacuous : exists v p,
  mk_variable "v" 3 "v" false None (Some (NS 0)) (Some (NV [1; 2; 3])) = Ok v /\ translate_variable v = Ok p
  /\ pvar_ok (fun _ i => inject_Z (Z.of_nat i)) p.
Proof.
  eexists _, _. split; [vm_compute; reflexivity|]. split; [vm_compute; reflexivity|].
  apply (C26_bounds "v" 3 "v" false (Some (NS 0)) (Some (NV [1; 2; 3])) _ _ _ eq_refl eq_refl).
  intros i Hi. destruct i as [|[|[|i]]]; [| | |lia];
  (split; [discriminate|split; intros q Hq; injection Hq as <-; simpl; unfold Qle; simpl; lia]).
Qed.
Example C26_fixed_nonvacuous : exists v,
  mk_variable "v" 2 "v" false (Some (NV [1; 2])) (Some (NS 0)) (Some (NV [1; 3])) = Ok v.
Proof. eexists; reflexivity. Qed.
