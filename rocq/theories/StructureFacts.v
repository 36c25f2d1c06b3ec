(** The model tree: what reaches the solver is exactly what is in the tree. *)
From Verif Require Import Base BaseFacts MathModel Spec MathFacts Structure.

(** All models of a tree, the root first. *)
Fixpoint flat (m : emodel) : list emodel := m :: flat_map flat (em_subs m).

Lemma emodel_ind' : forall (P : emodel -> Prop),
  (forall f l v c subs, Forall P subs -> P (EM f l v c subs)) -> forall m, P m.
Proof.
  intros P H. fix IH 1. intros [f l v c subs]. apply H.
  induction subs as [|s subs IHs]; constructor; auto.
Qed.

Lemma em_size_flat : forall m, em_size m = length (flat m).
Proof.
  apply emodel_ind'. intros f l v c subs IH. simpl. f_equal.
  induction IH as [|s subs E _ IHs]; simpl; auto. rewrite app_length. congruence.
Qed.

Lemma bfs_perm : forall fuel q, (length (flat_map flat q) <= fuel)%nat -> Permutation (bfs fuel q) (flat_map flat q).
Proof.
  induction fuel as [|k IH]; intros [|m q] H; simpl; auto.
  - simpl in H. destruct m; simpl in H. lia.
  - destruct m as [f l v c subs]. simpl in *. constructor.
    assert (P : Permutation (flat_map flat (q ++ subs)) (flat_map flat subs ++ flat_map flat q)).
    { rewrite flat_map_app. apply Permutation_app_comm. }
    eapply perm_trans; [apply IH|exact P].
    rewrite (Permutation_length P). rewrite app_length in *. lia.
Qed.

Lemma all_sub_models_perm : forall m, Permutation (all_sub_models m) (flat_map flat (em_subs m)).
Proof.
  intros m. apply bfs_perm. rewrite em_size_flat. destruct m; simpl. lia.
Qed.

Lemma system_sub_models_perm : forall ds, Permutation (system_sub_models ds) (flat_map flat ds).
Proof.
  intros ds. unfold system_sub_models. induction ds as [|d ds IH]; simpl; auto.
  assert (F : flat d = d :: flat_map flat (em_subs d)) by (destruct d; reflexivity).
  rewrite F. simpl. constructor.
  eapply perm_trans; [|apply Permutation_app; [apply all_sub_models_perm|exact IH]].
  rewrite !app_assoc. apply Permutation_app_tail. apply Permutation_app_comm.
Qed.

Lemma system_sub_models_In : forall ds m, In m (system_sub_models ds) <-> exists d, In d ds /\ In m (flat d).
Proof.
  intros. rewrite <- in_flat_map. split; apply Permutation_in; [|apply Permutation_sym]; apply system_sub_models_perm.
Qed.

(** Everything declared anywhere in the tree is satisfied by [x]. *)
Definition em_sat (x : asg) (m : emodel) : Prop :=
  forall m', In m' (flat m) -> Forall (var_sat x) (em_vars m') /\ Forall (con_sat x) (em_cons m').

Lemma flat_self : forall m, In m (flat m).
Proof. destruct m; simpl; auto. Qed.

Lemma em_sat_vars : forall x f l v c s, em_sat x (EM f l v c s) -> Forall (var_sat x) v.
Proof. intros x f l v c s H. exact (proj1 (H _ (flat_self _))). Qed.
Lemma em_sat_cons : forall x f l v c s, em_sat x (EM f l v c s) -> Forall (con_sat x) c.
Proof. intros x f l v c s H. exact (proj2 (H _ (flat_self _))). Qed.
Lemma em_sat_sub : forall x f l v c s m, em_sat x (EM f l v c s) -> In m s -> em_sat x m.
Proof.
  intros x f l v c s m H Hi m' Hm. apply H. simpl. right. apply in_flat_map. eauto.
Qed.
Lemma em_sat_intro : forall x f l v c s,
  Forall (var_sat x) v -> Forall (con_sat x) c -> Forall (em_sat x) s -> em_sat x (EM f l v c s).
Proof.
  intros x f l v c s V C S m Hm. simpl in Hm. destruct Hm as [<-|Hm]; [auto|].
  apply in_flat_map in Hm. destruct Hm as [d [Hd Hm]]. rewrite Forall_forall in S. eapply S; eauto.
Qed.

Lemma Forall_concat_rows : forall x (cs : list constraint) rss,
  mapM translate_constraint cs = Ok rss ->
  (Forall (row_ok x) (List.concat rss) <-> Forall (con_sat x) cs).
Proof.
  induction cs as [|c cs IH]; simpl; intros rss H; inv_ok; simpl.
  - split; constructor.
  - rewrite Forall_app. rewrite (IH _ E0). split.
    + intros [A B]. constructor; auto. exists a. auto.
    + intros H. inversion H as [|? ? [rows [T F]] ?]; subst. split; auto. congruence.
Qed.

Lemma Forall_vars_sat : forall x vs ps, mapM translate_variable vs = Ok ps ->
  (Forall (pvar_ok x) ps <-> Forall (var_sat x) vs).
Proof.
  induction vs as [|v vs IH]; simpl; intros ps H; inv_ok.
  - split; constructor.
  - split; intros H; inversion H as [|? ? H1 H2]; subst; constructor; try (apply (IH _ E0); auto).
    + exists a. auto.
    + destruct H1 as [p [T O]]. rewrite T in E. apply Ok_inj in E. subst. auto.
Qed.

Lemma translate_model_feasible : forall vs cs obj pm x, translate_model vs cs obj = Ok pm ->
  (feasible pm x <-> Forall (var_sat x) vs /\ Forall (con_sat x) cs).
Proof.
  intros vs cs obj pm x H. unfold translate_model in H. inv_ok. unfold feasible. simpl.
  rewrite Forall_app. rewrite (Forall_vars_sat _ _ _ E), (Forall_concat_rows _ _ _ E0), (Forall_concat_rows _ _ _ E1).
  split; intros [A B]; (split; [auto|]).
  - destruct B as [B1 B2]. rewrite Forall_forall in *. intros c Hc.
    destruct (c_kind c) eqn:K; [apply B1|apply B2|apply B1]; apply filter_In; rewrite K; auto.
  - rewrite !Forall_forall in *. split; intros c Hc; apply filter_In in Hc; apply B; tauto.
Qed.

Lemma Permutation_flat_map_l : forall {A B} (f : A -> list B) l m, Permutation l m -> Permutation (flat_map f l) (flat_map f m).
Proof.
  induction 1; simpl; auto.
  - apply Permutation_app_head; auto.
  - rewrite !app_assoc. apply Permutation_app_tail, Permutation_app_comm.
  - eapply perm_trans; eauto.
Qed.

Lemma system_translate_vars : forall ds vs, system_variables ds = Ok vs ->
  NoDup (map v_label vs) /\ Permutation vs (flat_map em_vars (flat_map flat ds)).
Proof.
  intros ds vs H. unfold system_variables in H. inv_ok. split; [apply nodup_str_NoDup; auto|].
  apply Permutation_flat_map_l, system_sub_models_perm.
Qed.
Lemma system_translate_cons : forall ds cs, system_constraints ds = Ok cs ->
  NoDup (map c_label cs) /\ Permutation cs (flat_map em_cons (flat_map flat ds)).
Proof.
  intros ds cs H. unfold system_constraints in H. inv_ok. split; [apply nodup_str_NoDup; auto|].
  apply Permutation_flat_map_l, system_sub_models_perm.
Qed.

Theorem system_feasible : forall ds obj pm x, system_translate ds obj = Ok pm ->
  (feasible pm x <-> Forall (em_sat x) ds).
Proof.
  intros ds obj pm x H. unfold system_translate in H. inv_ok.
  rewrite (translate_model_feasible _ _ _ _ _ H).
  destruct (system_translate_vars _ _ E) as [_ PV]. destruct (system_translate_cons _ _ E0) as [_ PC].
  split.
  - intros [V C]. apply Forall_forall. intros d Hd m Hm. rewrite Forall_forall in V, C.
    split; apply Forall_forall; intros y Hy;
    [apply V; eapply Permutation_in; [apply Permutation_sym, PV|] | apply C; eapply Permutation_in; [apply Permutation_sym, PC|]];
    apply in_flat_map; exists m; split; auto; apply in_flat_map; eauto.
  - intros S. rewrite Forall_forall in S. split; apply Forall_forall; intros y Hy.
    + eapply Permutation_in in Hy; [|exact PV]. apply in_flat_map in Hy. destruct Hy as [m [Hm Hy]].
      apply in_flat_map in Hm. destruct Hm as [d [Hd Hm]]. destruct (S d Hd m Hm) as [V _].
      rewrite Forall_forall in V. auto.
    + eapply Permutation_in in Hy; [|exact PC]. apply in_flat_map in Hy. destruct Hy as [m [Hm Hy]].
      apply in_flat_map in Hm. destruct Hm as [d [Hd Hm]]. destruct (S d Hd m Hm) as [_ C].
      rewrite Forall_forall in C. auto.
Qed.

(** ** Facts used to read builders *)
Lemma create_variable_spec : forall model label len bin fixed lb ub prev v,
  create_variable model label len bin fixed lb ub prev = Ok v ->
  v = mkVariable (vlabel model label) (or_str label (vlabel model label)) len bin fixed lb ub (Nat.ltb 1 len)
        (if Nat.ltb 1 len then prev else None).
Proof.
  intros model label len bin fixed lb ub prev v H. unfold create_variable in H.
  destruct (Nat.ltb 1 len) eqn:L.
  - unfold mk_variable_ts in H. inv_ok. unfold mk_variable in E0. destruct fixed; inv_ok; auto.
    destruct (a1 && a2)%bool; [|discriminate]. inv_ok. reflexivity.
  - unfold mk_variable in H. destruct fixed; inv_ok; auto.
    destruct (a && a0)%bool; [|discriminate]. inv_ok. reflexivity.
Qed.

Lemma mk_em_spec : forall f l v c s m, mk_em f l v c s = Ok m ->
  m = EM f l v c s /\ NoDup (map v_label v) /\ NoDup (map c_label c).
Proof.
  intros f l v c s m H. unfold mk_em in H. inv_ok. rewrite <- !nodup_str_NoDup. auto.
Qed.

Definition live (a : call) : Prop := call_len a <> 0%nat.

(** Row [i] of a finished equation holds at a satisfying point. *)
Lemma row_law : forall x k model label calls c n i,
  create_equation model label k calls = Ok c -> con_sat x c ->
  Forall plain calls -> Forall live calls -> Exists (fun a => call_len a = n) calls -> (i < n)%nat ->
  rel k (Qsum (map (call_lhs x i) calls)) (Qsum (map (call_rhs i) calls)).
Proof.
  intros x k model label calls c n i H S P L E Hi. unfold create_equation in H.
  eapply con_sat_elim; eauto. apply build_built in H. destruct H as [_ _ _ _ B5 B6 _ _ _].
  apply Exists_exists in E. destruct E as [a [Ha En]].
  destruct (B5 a Ha) as [B|B]; [|lia]. assert (n = 1)%nat by lia. subst n.
  destruct B6 as [B6|[b [Hb Lb]]]; [lia|]. rewrite Forall_forall in L. specialize (L b Hb). unfold live in L. lia.
Qed.

Lemma row_count : forall k model label calls c n,
  create_equation model label k calls = Ok c ->
  Forall (fun a => call_len a = 1%nat \/ call_len a = n) calls ->
  (c_len c = 1%nat \/ c_len c = n).
Proof.
  intros k model label calls c n H L. apply build_built in H. destruct H as [_ _ _ _ B5 B6 _ _ _].
  destruct B6 as [?|[b [Hb Lb]]]; auto. rewrite Forall_forall in L. destruct (L b Hb); lia.
Qed.
