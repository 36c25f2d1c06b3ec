(** The time series flixOpt collects are the parameters of DataSpec, and data returned to them is read by the builder. *)
From Coq Require Import String Permutation.
From Verif Require Import Base BaseFacts ReadTools MathModel Spec Structure Params Features Elements System SysSpec CtxFacts NavFacts BusFacts NameSpec NameFacts ValidSpec TotalEffects TotalSystem
  Aggregation Series Collect DataSpec.
Local Open Scope Q_scope.

(** ** Which series there are *)
Lemma effect_named_ok : forall es f, NoDup (map e_id es) -> In f es -> effect_named es (e_id f) = e_label f.
Proof. intros es f N H. unfold effect_named. rewrite (find_unique e_id es f N H). reflexivity. Qed.
Lemma flow_named_ok : forall c f, NoDup (map f_id (cp_flows c)) -> In f (cp_flows c) -> flow_named c (f_id f) = f_lab f.
Proof. intros c f N H. unfold flow_named. rewrite (find_unique f_id (cp_flows c) f N H). reflexivity. Qed.
Lemma dict_ts_In : forall v kp, In kp (effect_dict_ts v) <-> In kp (entries v).
Proof.
  intros v kp. unfold effect_dict_ts. change (Params.as_effect_dict v) with (entries v). rewrite in_app_iff, !filter_In. destruct (is_none (fst kp)); cbn [negb]; intuition congruence.
Qed.
Lemma opt_param_In : forall full label o l p, In (l, p) (opt_param full label o) <-> o = Some p /\ l = own full label.
Proof. intros full label [q|] l p; cbn [opt_param In]; [|intuition discriminate]. split; [intros [E|[]]; injection E as <- <-; auto|intros [E ->]; injection E as ->; auto]. Qed.

Section Given.
Variable fs : flow_system.
Hypothesis NE : NoDup (map e_id (fs_effects fs)).
Definition keyed (v : evalues) : Prop := forall i p, In (Some i, p) (entries v) -> exists f, In f (fs_effects fs) /\ e_id f = i.
Lemma value_params_In : forall full what v l p, keyed v -> (In (l, p) (value_params (fs_effects fs) full what v) <-> effect_value fs full what v l p).
Proof.
  intros full what v l p K. unfold value_params. rewrite in_map_iff. split.
  - intros [[k q] [E H]]. apply dict_ts_In in H. cbn [fst snd] in E. injection E as <- <-. destruct k as [i|]; [|apply ev_standard; exact H].
    destruct (K _ _ H) as [f [F <-]]. cbn [value_name]. rewrite (effect_named_ok _ _ NE F). apply ev_effect; auto.
  - intros H. destruct H as [p H|f p F H].
    + exists (None, p). split; [reflexivity|]. apply dict_ts_In. exact H.
    + exists (Some (e_id f), p). split; [|apply dict_ts_In; exact H]. cbn [fst snd value_name]. rewrite (effect_named_ok _ _ NE F). reflexivity.
Qed.
Lemma onoff_params_In : forall full o l p, keyed (oo_switch_eff o) -> keyed (oo_run_eff o) -> (In (l, p) (onoff_params (fs_effects fs) full (Some o)) <-> onoff_value fs full o l p).
Proof.
  intros full o l p K1 K2. cbn [onoff_params]. rewrite !in_app_iff, !opt_param_In, !value_params_In by assumption. split.
  - intros [H|[H|[[H ->]|[[H ->]|[[H ->]|[H ->]]]]]]; [apply ov_switch|apply ov_run|apply ov_on_min|apply ov_on_max|apply ov_off_min|apply ov_off_max]; exact H.
  - intros H. destruct H; auto 10.
Qed.
Lemma flow_params_In : forall c f l p, keyed (f_effects f) -> (forall o, f_onoff f = Some o -> keyed (oo_switch_eff o) /\ keyed (oo_run_eff o)) ->
  (In (l, p) (flow_params (fs_effects fs) c f) <-> flow_value fs c f l p).
Proof.
  intros c f l p K1 K2. unfold flow_params. cbv zeta. rewrite !in_app_iff, opt_param_In, value_params_In by assumption. cbn [In]. split.
  - intros [[E|[E|[]]]|[[H ->]|[H|H]]]; [injection E as <- <-; apply fv_min|injection E as <- <-; apply fv_max|apply fv_profile; exact H|apply fv_effects; exact H|].
    destruct (f_onoff f) as [o|] eqn:O; [|destruct H]. destruct (K2 _ eq_refl) as [A B]. apply onoff_params_In in H; auto. eapply fv_onoff; eauto.
  - intros H. destruct H as [| |p H|l p H|o l p O H]; auto.
    + right. right. right. destruct (K2 _ O) as [A B]. rewrite O. apply onoff_params_In; auto.
Qed.
Lemma comp_params_In : forall c l p, NoDup (map f_id (cp_flows c)) -> (forall o, cp_onoff c = Some o -> keyed (oo_switch_eff o) /\ keyed (oo_run_eff o)) ->
  (forall fss d i p, cp_kind c = Converter fss -> In d fss -> In (i, p) d -> exists f, In f (cp_flows c) /\ f_id f = i) ->
  (In (l, p) (comp_params (fs_effects fs) c) <-> comp_value fs c l p).
Proof.
  intros c l p NF K2 KF. unfold comp_params. rewrite in_app_iff. split.
  - intros [H|H].
    + destruct (cp_onoff c) as [o|] eqn:O; [|destruct H]. destruct (K2 _ eq_refl) as [A B]. apply onoff_params_In in H; auto. eapply cv_onoff; eauto.
    + unfold kind_params in H. cbv zeta in H. destruct (cp_kind c) as [|fss|segs|s|rel abs] eqn:K; [destruct H| | | |].
      * apply in_flat_map in H. destruct H as [d [D H]]. apply in_map_iff in H. destruct H as [[i q] [E H]]. cbn [fst snd] in E. injection E as <- <-.
        destruct (KF _ _ _ _ eq_refl D H) as [f [F <-]]. rewrite (flow_named_ok _ _ NF F). eapply cv_factor; eauto.
      * apply in_flat_map in H. destruct H as [[i s] [D H]]. apply in_flat_map in H. destruct H as [[a b] [I H]]. cbn [fst snd] in *.
        destruct H as [E|[E|[]]]; injection E as <- <-; [eapply cv_start|eapply cv_end]; eauto.
      * destruct H as [E|[E|[E|[E|[E|[]]]]]]; injection E as <- <-; [eapply cv_min_charge|eapply cv_max_charge|eapply cv_eta_charge|eapply cv_eta_discharge|eapply cv_loss]; eauto.
      * apply in_app_or in H. rewrite !opt_param_In in H. destruct H as [[H ->]|[H ->]]; [eapply cv_relative|eapply cv_absolute]; eauto.
  - intros H. destruct H as [o l p O H|fss d f p K D F H|segs i s p q K D H|segs i s p q K D H|s K|s K|s K|s K|s K|rel abs p K H|rel abs p K H].
    + left. destruct (K2 _ O) as [A B]. rewrite O. apply onoff_params_In; auto.
    + right. unfold kind_params. rewrite K. apply in_flat_map. exists d. split; auto. apply in_map_iff. exists (f_id f, p). cbn [fst snd]. rewrite (flow_named_ok _ _ NF F). auto.
    + right. unfold kind_params. rewrite K. apply in_flat_map. exists (i, s). split; auto. apply in_flat_map. exists (p, q). cbn. auto.
    + right. unfold kind_params. rewrite K. apply in_flat_map. exists (i, s). split; auto. apply in_flat_map. exists (p, q). cbn. auto.
    + right. unfold kind_params. rewrite K. cbn. auto.
    + right. unfold kind_params. rewrite K. cbn. auto.
    + right. unfold kind_params. rewrite K. cbn. auto.
    + right. unfold kind_params. rewrite K. cbn. auto.
    + right. unfold kind_params. rewrite K. cbn. auto 10.
    + right. unfold kind_params. rewrite K. apply in_or_app. left. apply opt_param_In. auto.
    + right. unfold kind_params. rewrite K. apply in_or_app. right. apply opt_param_In. auto.
Qed.
End Given.

Lemma filter_all : forall {A} (p : A -> bool) l, (forall a, In a l -> p a = true) -> filter p l = l.
Proof. intros A p l. induction l as [|a l IH]; intros H; auto. cbn [filter]. rewrite H by (left; auto). rewrite IH; auto. intros; apply H; right; auto. Qed.
Definition plain_params (ord : list nat -> list nat) (fs : flow_system) : list (string * param) :=
  let es := fs_effects fs in
  flat_map (comp_params es) (fs_comps fs) ++ flat_map (effect_params es) es ++ flat_map (fun cf => flow_params es (fst cf) (snd cf)) (all_flows fs) ++ flat_map bus_params (buses ord fs).
Lemma params_plain : forall ord fs, well_named fs -> system_params ord fs = plain_params ord fs.
Proof.
  intros ord fs W. unfold system_params, plain_params. cbv zeta. rewrite !filter_all; auto.
  - intros [c f] H. apply all_flows_In in H. destruct H as [Hc _]. apply sees_flow; auto.
  - intros e H. apply sees_effect; auto.
  - intros c H. apply sees_comp; auto.
Qed.
Lemma keyed_valid : forall fs v, valid_values fs v -> keyed fs v.
Proof.
  intros fs v [[K _] _] i p H. destruct (K (Some i)) as [e [He N]]; [apply in_map_iff; exists (Some i, p); auto|]. exists e. split; auto. cbn in N. apply Nat.eqb_eq in N. auto.
Qed.
Lemma valid_flow_ids : forall fs idx c, valid_data fs idx -> In c (fs_comps fs) -> NoDup (map f_id (cp_flows c)).
Proof.
  intros fs idx c V H. pose proof (vd_flows _ _ V) as N. induction (fs_comps fs) as [|d l IH]; [destruct H|]. cbn [flat_map] in N. rewrite map_app in N. apply NoDup_app_both in N. destruct H as [<-|H]; [apply N|apply IH; [exact H|apply N]].
Qed.
Lemma bus_dec : forall a b : bus, {a = b} + {a <> b}.
Proof. repeat decide equality. Qed.
Lemma used_buses_in : forall ord fs idx b, (forall l, Permutation (ord l) l) -> well_named fs -> valid_data fs idx -> used_bus fs b -> In b (buses ord fs).
Proof.
  intros ord fs idx b PO W V U. assert (N : NoDup (map (fun cf => f_id (snd cf)) (all_flows fs))).
  { pose proof (vd_flows _ _ V) as N. clear -N. unfold all_flows. replace (map (fun cf => f_id (snd cf)) (flat_map (fun c => map (fun f => (c, f)) (cp_flows c)) (fs_comps fs))) with (map f_id (flat_map cp_flows (fs_comps fs))); auto.
    clear N. induction (fs_comps fs) as [|c l IH]; auto. cbn [flat_map]. rewrite !map_app, IH, map_map. reflexivity. }
  pose proof U as [c [f [Hc [Hf Eb]]]]. unfold buses. apply in_map_iff. set (ids := ord (nodup Nat.eq_dec (map (fun cf => f_id (snd cf)) (all_flows fs)))).
  assert (Hi : In (f_id f) ids).
  { eapply Permutation_in; [apply Permutation_sym, PO|]. apply nodup_In. apply in_map_iff. exists (c, f). split; auto. apply all_flows_In; auto. }
  pose proof (bus_of_flow_unique fs c f N Hc Hf) as E. rewrite Eb in E. pose proof (fold_has fs ids [] _ _ Hi E) as H. apply in_map_iff in H. destruct H as [[k b'] [Hk H]]. simpl in Hk. subst k.
  destruct (fold_entries fs ids [] ltac:(simpl; tauto) _ _ H) as [L U']. exists (b_lab b, b'). split; [|exact H]. cbn [snd].
  destruct (bus_dec b' b) as [->|D]; auto. exfalso. destruct (wn_buses _ W _ _ U' U D) as [D' _]. congruence.
Qed.
Theorem params_given : forall ord fs idx l p, (forall l, Permutation (ord l) l) -> well_named fs -> valid_data fs idx -> own_factors fs -> (In (l, p) (system_params ord fs) <-> given fs l p).
Proof.
  intros ord fs idx l p PO W V OF. rewrite params_plain by exact W. unfold plain_params. cbv zeta. pose proof (vd_ids _ _ V) as NE. pose proof (vd_comps _ _ V) as VC.
  assert (KF : forall c f, In c (fs_comps fs) -> In f (cp_flows c) -> keyed fs (f_effects f) /\ forall o, f_onoff f = Some o -> keyed fs (oo_switch_eff o) /\ keyed fs (oo_run_eff o)).
  { intros c f Hc Hf. pose proof (vc_flows _ _ _ (VC _ Hc) _ Hf) as [_ A _ B _]. split; [apply keyed_valid; exact A|]. intros o O. destruct (B _ O) as [S R _ _ _]. split; apply keyed_valid; auto. }
  assert (KC : forall c, In c (fs_comps fs) -> forall o, cp_onoff c = Some o -> keyed fs (oo_switch_eff o) /\ keyed fs (oo_run_eff o)).
  { intros c Hc o O. destruct (vc_onoff _ _ _ (VC _ Hc) _ O) as [_ [_ [S R _ _ _]]]. split; apply keyed_valid; auto. }
  assert (CI : forall c, In c (fs_comps fs) -> (In (l, p) (comp_params (fs_effects fs) c) <-> comp_value fs c l p)).
  { intros c Hc. apply comp_params_In; auto; [eapply valid_flow_ids; eauto|apply KC; exact Hc|]. intros fss d i q K D H. eapply (proj1 OF); eauto. }
  rewrite !in_app_iff, !in_flat_map. split.
  - intros [[c [Hc H]]|[[e [He H]]|[[[c f] [Hcf H]]|[b [Hb H]]]]].
    + apply (CI c Hc) in H. eapply g_comp; eauto.
    + unfold effect_params in H. rewrite !in_app_iff, !opt_param_In, in_map_iff in H. destruct H as [[H ->]|[[H ->]|[[i q] [E H]]]]; [eapply g_min_hour; eauto|eapply g_max_hour; eauto|].
      cbn [fst snd] in E. injection E as <- <-. destruct (proj2 (ve_op _ _ (vd_effects _ _ V _ He)) _ _ H) as [[e' [He' N]] _]. cbn in N. apply Nat.eqb_eq in N. subst i.
      cbn [value_name]. rewrite (effect_named_ok _ _ NE He'). eapply (g_share fs e e'); eauto.
    + apply all_flows_In in Hcf. destruct Hcf as [Hc Hf]. cbn [fst snd] in H. destruct (KF c f Hc Hf) as [A B]. apply flow_params_In in H; auto. eapply g_flow; eauto.
    + apply opt_param_In in H. destruct H as [H ->]. eapply g_bus; eauto. eapply buses_used; eauto.
  - intros H. destruct H as [c l p Hc H|c f l p Hc Hf H|b p U H|e p He H|e p He H|e e' p He He' H].
    + left. exists c. split; auto. apply (CI c Hc). exact H.
    + right. right. left. exists (c, f). split; [apply all_flows_In; auto|]. destruct (KF c f Hc Hf) as [A B]. apply flow_params_In; auto.
    + right. right. right. exists b. split; [eapply used_buses_in; eauto|]. apply opt_param_In. auto.
    + right. left. exists e. split; auto. unfold effect_params. rewrite !in_app_iff, !opt_param_In. auto.
    + right. left. exists e. split; auto. unfold effect_params. rewrite !in_app_iff, !opt_param_In. auto.
    + right. left. exists e. split; auto. unfold effect_params. rewrite !in_app_iff. right. right. apply in_map_iff. exists (e_id e', p). split; auto. cbn [fst snd value_name]. rewrite (effect_named_ok _ _ NE He'). reflexivity.
Qed.

(** ** What is collected *)
Lemma varies_scalar : forall p, varies p <-> exists l, pdata p = NV l /\ make_scalar (pdata p) = Ok (NV l).
Proof.
  intros p. unfold varies. split.
  - intros [l [i [j [E [Hi [Hj N]]]]]]. exists l. split; auto. rewrite E. destruct l as [|q r]; [cbn in Hi; lia|]. cbn [make_scalar]. destruct (forallb (fun y => Qeq_bool y q) r) eqn:F; auto. exfalso. apply N.
    rewrite forallb_forall in F. assert (K : forall k, (k < length (q :: r))%nat -> nth k (q :: r) 0 == q).
    { intros k Hk. pose proof (nth_In (q :: r) 0 Hk) as X. destruct X as [X|X]; [rewrite <- X; reflexivity|]. apply F in X. apply Qeq_bool_iff in X. exact X. }
    rewrite (K i Hi), (K j Hj). reflexivity.
  - intros [l [E H]]. rewrite E in H. destruct l as [|q r]; [discriminate|]. cbn [make_scalar] in H. destruct (forallb (fun y => Qeq_bool y q) r) eqn:F; [discriminate|].
    assert (X : exists y, In y r /\ Qeq_bool y q = false).
    { clear -F. induction r as [|a r IH]; [discriminate|]. cbn [forallb] in F. destruct (Qeq_bool a q) eqn:A; [destruct (IH F) as [y [Y1 Y2]]; exists y; cbn; auto|exists a; cbn; auto]. }
    destruct X as [y [Y1 Y2]]. apply In_nth with (d := 0) in Y1. destruct Y1 as [i [Hi Ei]]. exists (q :: r), (S i), 0%nat. split; auto. split; [cbn; lia|]. split; [cbn; lia|]. cbn [nth]. rewrite Ei.
    intros Z. apply Qeq_bool_iff in Z. congruence.
Qed.
Lemma mk_ts_array : forall l p ts idx, mk_ts l p = Ok ts -> (is_array (set_idx idx ts) = true <-> varies p) /\ ts_label (set_idx idx ts) = l
  /\ (varies p -> active_data (set_idx idx ts) = active_of idx (pdata p)).
Proof.
  intros l p ts idx H. unfold mk_ts in H. destruct (make_scalar (pdata p)) as [d|] eqn:M; [|discriminate]. cbn [bind] in H.
  assert (D : ts_data ts = d /\ ts_label ts = l /\ ts_agg ts = None) by (destruct p; injection H as <-; auto). destruct D as [D1 [D2 D3]]. unfold is_array, active_data, set_idx. cbn [ts_data ts_label ts_agg ts_idx]. rewrite D1, D3.
  split; [|split; [exact D2|]].
  - rewrite varies_scalar. split.
    + intros A. destruct d as [q|v]; [discriminate|]. exists v. split; [|exact M]. destruct (pdata p) as [q|[|q r]]; cbn [make_scalar] in M; try discriminate. destruct (forallb _ _) in M; [discriminate|]. congruence.
    + intros [v [E F]]. rewrite M in F. injection F as ->. reflexivity.
  - intros Vp. apply varies_scalar in Vp. destruct Vp as [v [E F]]. rewrite M in F. injection F as ->. rewrite E. reflexivity.
Qed.
Lemma value_list : forall fs idx p l r, pdata p = NV l -> active_of idx (NV l) = Ok (NV r) -> length r = length (chosen_steps fs idx) -> r = map (value idx p) (seq 0 (steps fs idx)).
Proof.
  intros fs idx p l r E A L. assert (LS : length (chosen_steps fs idx) = steps fs idx) by (unfold chosen_steps, steps; destruct idx; [auto|apply seq_length]).
  apply (nth_ext _ _ 0 0); [rewrite map_length, seq_length; congruence|]. intros t Ht. rewrite L, LS in Ht.
  rewrite (nth_indep (map _ _) 0 (value idx p 0)) by (rewrite map_length, seq_length; exact Ht). rewrite map_nth, seq_nth by exact Ht. cbn [Nat.add]. unfold value. rewrite E. destruct idx as [ix|]; cbn [active_of selected] in *.
  - bnd A r' T. injection A as <-. destruct (take_idx_spec _ _ _ T) as [La Na]. cbn [steps] in Ht. rewrite (Na t 0) by lia.
    unfold take_idx in T. destruct (nth_error ix t) as [i|] eqn:X; [|apply nth_error_None in X; lia]. destruct (mapM_nth _ _ _ _ _ T X) as [b [Hb _]]. rewrite (nth_error_nth _ _ 0%nat X). apply nth_indep.
    apply nth_error_Some. destruct (nth_error l i); [discriminate|discriminate].
  - injection A as <-. apply nth_indep. rewrite L, LS. exact Ht.
Qed.
Theorem columns_given : forall ord fs idx l cols ws, (forall l, Permutation (ord l) l) -> well_named fs -> valid_data fs idx -> own_factors fs ->
  system_series ord fs idx = Ok l -> tsam_input fs idx l = Ok (cols, ws) ->
  NoDup (map fst cols) /\ (forall s v, In (s, v) cols <-> exists p, given fs s p /\ varies p /\ v = map (value idx p) (seq 0 (steps fs idx)))
  /\ map fst ws = map fst cols.
Proof.
  intros ord fs idx l cols ws PO W V OF S T. unfold system_series in S. bnd S tss M. injection S as <-. unfold tsam_input in T. bnd T a C. bnd T cols' F. injection T as <- <-.
  unfold collected in C. cbv zeta in C. destruct (nodup_str (map ts_label (filter is_array (map (set_idx idx) tss)))) eqn:ND; [|discriminate]. cbn [guard bind] in C. injection C as <-. apply nodup_str_NoDup in ND.
  assert (CL : forall ts c, column (length (chosen_steps fs idx)) ts = Ok c -> fst c = ts_label ts /\ active_data ts = Ok (NV (snd c)) /\ length (snd c) = length (chosen_steps fs idx)).
  { intros ts c H. unfold column in H. bnd H d A. destruct d as [q|v]; [discriminate|]. destruct (Nat.eqb (length v) _) eqn:E; [|discriminate]. cbn [guard bind] in H. injection H as <-. apply Nat.eqb_eq in E. auto. }
  unfold frame in F. assert (LB : map ts_label (filter is_array (map (set_idx idx) tss)) = map fst cols'); [|split; [rewrite <- LB; exact ND|split; [|unfold weights; rewrite map_map, <- LB; reflexivity]]].
  - clear -F CL. revert cols' F. induction (filter is_array _) as [|ts r IH]; intros cols' F; cbn [mapM] in F; [injection F as <-; reflexivity|].
    bnd F c E. bnd F cs E2. injection F as <-. cbn [map]. rewrite (IH _ E2). f_equal. symmetry. apply (CL _ _ E).
  - intros s v. split.
    + intros H. destruct (mapM_In_inv _ _ _ _ F H) as [ts [Hts E]]. destruct (CL _ _ E) as [C1 [C2 C3]]. cbn [fst snd] in *. apply filter_In in Hts. destruct Hts as [Hts A].
      apply in_map_iff in Hts. destruct Hts as [ts0 [<- Hts]]. destruct (mapM_In_inv _ _ _ _ M Hts) as [[l p] [Hp E0]]. cbn [fst snd] in E0. destruct (mk_ts_array _ _ _ idx E0) as [M1 [M2 M3]].
      exists p. apply M1 in A. rewrite C1, M2. split; [apply (params_given ord fs idx); auto|]. split; auto. specialize (M3 A). apply varies_scalar in A. destruct A as [v0 [A1 _]]. rewrite M3, A1 in C2. eapply value_list; eauto.
    + intros [p [G [A ->]]]. apply (params_given ord fs idx) in G; auto. destruct (mapM_In _ _ _ _ M G) as [ts [E0 Hts]]. cbn [fst snd] in E0. destruct (mk_ts_array _ _ _ idx E0) as [M1 [M2 M3]].
      assert (I : In (set_idx idx ts) (filter is_array (map (set_idx idx) tss))) by (apply filter_In; split; [apply in_map; exact Hts|apply M1; exact A]).
      destruct (mapM_In _ _ _ _ F I) as [[s' v'] [E I']]. destruct (CL _ _ E) as [C1 [C2 C3]]. cbn [fst snd] in *. specialize (M3 A). apply varies_scalar in A. destruct A as [v0 [A1 _]]. rewrite M3, A1 in C2.
      rewrite <- (value_list fs idx p v0 v' A1 C2 C3). rewrite C1, M2 in I'. exact I'.
Qed.

(** ** The parameters after a change of data *)
Section Given_re.
Variables (g : string -> param -> param) (fs : flow_system).
Hypothesis NE : NoDup (map e_id (fs_effects fs)).
Hypothesis NF : forall c, In c (fs_comps fs) -> NoDup (map f_id (cp_flows c)).
Let es := fs_effects fs.
Let fs' := re_system g fs.
Definition moved (R R' : string -> param -> Prop) : Prop := forall l p', R' l p' <-> exists p, R l p /\ p' = g l p.

Lemma re_entries : forall full what v, entries (re_values g es full what v) = map (fun kp => (fst kp, g (own full (value_name es (fst kp) what)) (snd kp))) (entries v).
Proof. intros full what [| p | l]; reflexivity. Qed.
Lemma re_effects_In : forall f', In f' (fs_effects fs') <-> exists f, In f es /\ f' = re_effect g es f.
Proof. intros f'. unfold fs', re_system. cbn [fs_effects]. rewrite in_map_iff. split; intros [f [A B]]; exists f; split; auto. Qed.
Lemma re_comps_In : forall c', In c' (fs_comps fs') <-> exists c, In c (fs_comps fs) /\ c' = re_comp g es c.
Proof. intros c'. unfold fs', re_system. cbn [fs_comps]. rewrite in_map_iff. split; intros [f [A B]]; exists f; split; auto. Qed.
Lemma re_flows : forall c, cp_flows (re_comp g es c) = map (re_flow g es c) (cp_flows c).
Proof. intros c. unfold cp_flows, re_comp. cbn [cp_in cp_out]. rewrite map_app. reflexivity. Qed.
Lemma moved_effect : forall e what v, moved (effect_value fs e what v) (effect_value fs' e what (re_values g es e what v)).
Proof.
  intros e what v l p'. split.
  - intros H. destruct H as [p' H|f' p' F H]; rewrite re_entries in H; apply in_map_iff in H; destruct H as [[k p] [E H]]; cbn [fst snd] in E; injection E as -> <-.
    + exists p. split; [apply ev_standard; exact H|reflexivity].
    + apply re_effects_In in F. destruct F as [f [F ->]]. cbn [re_effect e_id e_label] in *. exists p. split; [apply ev_effect; auto|]. cbn [value_name]. rewrite (effect_named_ok es f NE F). reflexivity.
  - intros [p [H ->]]. destruct H as [p H|f p F H].
    + apply ev_standard. rewrite re_entries. apply in_map_iff. exists (None, p). auto.
    + change (e_label f) with (e_label (re_effect g es f)). apply ev_effect; [apply re_effects_In; eauto|]. rewrite re_entries. apply in_map_iff. exists (Some (e_id f), p). split; [|exact H]. cbn [fst snd value_name re_effect e_id e_label].
      rewrite (effect_named_ok es f NE F). reflexivity.
Qed.
Lemma re_opt_Some : forall full label o p', re_opt g full label o = Some p' <-> exists p, o = Some p /\ p' = g (own full label) p.
Proof. intros full label [p|] p'; cbn [re_opt option_map]; split. - intros H; injection H as <-. eauto. - intros [q [H ->]]. injection H as <-. reflexivity. - discriminate. - intros [q [H _]]. discriminate. Qed.
Lemma moved_onoff : forall e o, moved (onoff_value fs e o) (onoff_value fs' e (re_onoff g es e o)).
Proof.
  intros e o l p'. split.
  - intros H. destruct H as [l p' H|l p' H|p' H|p' H|p' H|p' H]; cbn [re_onoff oo_switch_eff oo_run_eff oo_con_min oo_con_max oo_coff_min oo_coff_max] in H;
      try (apply moved_effect in H; destruct H as [p [H ->]]; exists p; split; [|reflexivity]); try (apply re_opt_Some in H; destruct H as [p [H ->]]; exists p; split; [|reflexivity]).
    + apply ov_switch; exact H. + apply ov_run; exact H. + apply ov_on_min; exact H. + apply ov_on_max; exact H. + apply ov_off_min; exact H. + apply ov_off_max; exact H.
  - intros [p [H ->]]. destruct H as [l p H|l p H|p H|p H|p H|p H].
    + apply ov_switch. apply moved_effect. eauto. + apply ov_run. apply moved_effect. eauto.
    + apply ov_on_min. apply re_opt_Some. eauto. + apply ov_on_max. apply re_opt_Some. eauto. + apply ov_off_min. apply re_opt_Some. eauto. + apply ov_off_max. apply re_opt_Some. eauto.
Qed.
Lemma moved_flow : forall c f, moved (flow_value fs c f) (flow_value fs' (re_comp g es c) (re_flow g es c f)).
Proof.
  intros c f l p'. change (flow_name c f) with (flow_full (cp_label c) (f_lab f)). split.
  - intros H. destruct H as [| |p' H|l p' H|o' l p' O H].
    + exists (f_relmin f). split; [exact (fv_min fs c f)|reflexivity].
    + exists (f_relmax f). split; [exact (fv_max fs c f)|reflexivity].
    + cbn [re_flow f_profile] in H. apply re_opt_Some in H. destruct H as [p [H ->]]. exists p. split; [exact (fv_profile fs c f p H)|reflexivity].
    + cbn [re_flow f_effects] in H. change (flow_name (re_comp g es c) (re_flow g es c f)) with (flow_full (cp_label c) (f_lab f)) in H. apply moved_effect in H. destruct H as [p [H ->]]. exists p. split; [apply fv_effects; exact H|reflexivity].
    + cbn [re_flow f_onoff] in O. destruct (f_onoff f) as [o|] eqn:FO; [|discriminate]. injection O as <-. change (flow_name (re_comp g es c) (re_flow g es c f)) with (flow_full (cp_label c) (f_lab f)) in H. apply moved_onoff in H.
      destruct H as [p [H ->]]. exists p. split; [eapply fv_onoff; eauto|reflexivity].
  - intros [p [H ->]]. destruct H as [| |p H|l p H|o l p O H].
    + exact (fv_min fs' (re_comp g es c) (re_flow g es c f)).
    + exact (fv_max fs' (re_comp g es c) (re_flow g es c f)).
    + apply (fv_profile fs' (re_comp g es c) (re_flow g es c f)). cbn [re_flow f_profile]. apply re_opt_Some. eauto.
    + apply fv_effects. cbn [re_flow f_effects]. change (flow_name (re_comp g es c) (re_flow g es c f)) with (flow_full (cp_label c) (f_lab f)). apply moved_effect. eauto.
    + apply fv_onoff with (o := re_onoff g es (flow_name c f) o); [cbn [re_flow f_onoff]; rewrite O; reflexivity|]. change (flow_name (re_comp g es c) (re_flow g es c f)) with (flow_name c f). apply moved_onoff. eauto.
Qed.
Lemma moved_comp : forall c, In c (fs_comps fs) -> moved (comp_value fs c) (comp_value fs' (re_comp g es c)).
Proof.
  intros c HC l p'. specialize (NF c HC). split.
  - intros H. destruct H as [o' l p' O H|fss' d' f' p' K D F H|segs' i l p q K S H|segs' i l p q K S H|s' K|s' K|s' K|s' K|s' K|rel' abs' p' K R|rel' abs' p' K R];
      cbn [re_comp cp_onoff cp_kind cp_label] in *; [|unfold re_kind in K; destruct (cp_kind c) as [|fss|segs|s|rel abs] eqn:CK; try discriminate K ..].
    + destruct (cp_onoff c) as [o|] eqn:CO; [|discriminate]. injection O as <-. apply moved_onoff in H. destruct H as [p [H ->]]. exists p. split; [eapply cv_onoff; eauto|reflexivity].
    + injection K as <-. apply in_map_iff in D. destruct D as [d [<- D]]. apply in_map_iff in H. destruct H as [[i p] [E H]]. cbn [fst snd] in E. injection E as E <-.
      change (mkComponent _ _ _ _ _ _) with (re_comp g es c) in F. rewrite re_flows in F. apply in_map_iff in F. destruct F as [f [<- F]]. cbn [re_flow f_id f_lab] in *. subst i. rewrite (flow_named_ok c f NF F). exists p. split; [eapply cv_factor; eauto|reflexivity].
    + injection K as <-. apply in_map_iff in S. destruct S as [[i0 l0] [E S]]. cbn [fst snd] in E. injection E as <- <-. apply in_map_iff in H. destruct H as [[a b] [E H]]. cbn [fst snd] in E. injection E as <- <-. exists a. split; [eapply cv_start; eauto|reflexivity].
    + injection K as <-. apply in_map_iff in S. destruct S as [[i0 l0] [E S]]. cbn [fst snd] in E. injection E as <- <-. apply in_map_iff in H. destruct H as [[a b] [E H]]. cbn [fst snd] in E. injection E as <- <-. exists b. split; [eapply cv_end; eauto|reflexivity].
    + injection K as <-. exists (st_relmin s). split; [apply cv_min_charge; auto|reflexivity].
    + injection K as <-. exists (st_relmax s). split; [apply cv_max_charge; auto|reflexivity].
    + injection K as <-. exists (st_eta_c s). split; [apply cv_eta_charge; auto|reflexivity].
    + injection K as <-. exists (st_eta_d s). split; [apply cv_eta_discharge; auto|reflexivity].
    + injection K as <-. exists (st_loss s). split; [apply cv_loss; auto|reflexivity].
    + injection K as <- <-. apply re_opt_Some in R. destruct R as [p [R ->]]. exists p. split; [eapply cv_relative; eauto|reflexivity].
    + injection K as <- <-. apply re_opt_Some in R. destruct R as [p [R ->]]. exists p. split; [eapply cv_absolute; eauto|reflexivity].
  - intros [p0 [H ->]]. change (cp_label c) with (cp_label (re_comp g es c)). destruct H as [o l p O H|fss d f p K D F H|segs i l p q K S H|segs i l p q K S H|s K|s K|s K|s K|s K|rel abs p K R|rel abs p K R].
    + apply cv_onoff with (o := re_onoff g es (cp_label c) o); [cbn [re_comp cp_onoff]; rewrite O; reflexivity|]. cbn [re_comp cp_label]. apply moved_onoff. eauto.
    + change (f_lab f) with (f_lab (re_flow g es c f)). change (cp_label c) with (cp_label (re_comp g es c)). eapply cv_factor; [cbn [re_comp cp_kind]; unfold re_kind; rewrite K; reflexivity|apply in_map; exact D| |].
      * rewrite re_flows. apply in_map. exact F.
      * apply in_map_iff. exists (f_id f, p). split; [|exact H]. cbn [fst snd re_flow f_id f_lab re_comp cp_label]. rewrite (flow_named_ok c f NF F). reflexivity.
    + eapply (cv_start fs' (re_comp g es c)); [cbn [re_comp cp_kind]; unfold re_kind; rewrite K; reflexivity|apply in_map_iff; exists (i, l); split; [reflexivity|exact S]|]. cbn [snd]. apply in_map_iff. exists (p, q). split; [reflexivity|exact H].
    + eapply (cv_end fs' (re_comp g es c)); [cbn [re_comp cp_kind]; unfold re_kind; rewrite K; reflexivity|apply in_map_iff; exists (i, l); split; [reflexivity|exact S]|]. cbn [snd]. apply in_map_iff. exists (p, q). split; [reflexivity|exact H].
    + assert (K' : cp_kind (re_comp g es c) = re_kind g c) by reflexivity. unfold re_kind in K'. rewrite K in K'. exact (cv_min_charge fs' (re_comp g es c) _ K').
    + assert (K' : cp_kind (re_comp g es c) = re_kind g c) by reflexivity. unfold re_kind in K'. rewrite K in K'. exact (cv_max_charge fs' (re_comp g es c) _ K').
    + assert (K' : cp_kind (re_comp g es c) = re_kind g c) by reflexivity. unfold re_kind in K'. rewrite K in K'. exact (cv_eta_charge fs' (re_comp g es c) _ K').
    + assert (K' : cp_kind (re_comp g es c) = re_kind g c) by reflexivity. unfold re_kind in K'. rewrite K in K'. exact (cv_eta_discharge fs' (re_comp g es c) _ K').
    + assert (K' : cp_kind (re_comp g es c) = re_kind g c) by reflexivity. unfold re_kind in K'. rewrite K in K'. exact (cv_loss fs' (re_comp g es c) _ K').
    + eapply (cv_relative fs' (re_comp g es c)); [cbn [re_comp cp_kind]; unfold re_kind; rewrite K; reflexivity|]. apply re_opt_Some. eauto.
    + eapply (cv_absolute fs' (re_comp g es c)); [cbn [re_comp cp_kind]; unfold re_kind; rewrite K; reflexivity|]. apply re_opt_Some. eauto.
Qed.
Lemma re_used : forall b', used_bus fs' b' <-> exists b, used_bus fs b /\ b' = re_bus g b.
Proof.
  intros b'. split.
  - intros [c' [f' [C [F <-]]]]. apply re_comps_In in C. destruct C as [c [C ->]]. rewrite re_flows in F. apply in_map_iff in F. destruct F as [f [<- F]]. exists (f_bus f). split; [exists c, f; auto|reflexivity].
  - intros [b [[c [f [C [F <-]]]] ->]]. exists (re_comp g es c), (re_flow g es c f). split; [apply re_comps_In; eauto|]. split; [rewrite re_flows; apply in_map; exact F|reflexivity].
Qed.
Theorem given_re : moved (given fs) (given fs').
Proof.
  intros l p'. split.
  - intros H. destruct H as [c' l p' C H|c' f' l p' C F H|b' p' U H|e' p' E H|e' p' E H|e' e2' p' E E2 H].
    + apply re_comps_In in C. destruct C as [c [C ->]]. apply (moved_comp c C) in H. destruct H as [p [H ->]]. exists p. split; [eapply g_comp; eauto|reflexivity].
    + apply re_comps_In in C. destruct C as [c [C ->]]. rewrite re_flows in F. apply in_map_iff in F. destruct F as [f [<- F]]. apply moved_flow in H. destruct H as [p [H ->]]. exists p. split; [eapply g_flow; eauto|reflexivity].
    + apply re_used in U. destruct U as [b [U ->]]. cbn [re_bus b_penalty b_lab] in *. apply re_opt_Some in H. destruct H as [p [H ->]]. exists p. split; [apply g_bus; auto|reflexivity].
    + apply re_effects_In in E. destruct E as [e [E ->]]. cbn [re_effect e_min_ph e_label] in *. apply re_opt_Some in H. destruct H as [p [H ->]]. exists p. split; [apply g_min_hour; auto|reflexivity].
    + apply re_effects_In in E. destruct E as [e [E ->]]. cbn [re_effect e_max_ph e_label] in *. apply re_opt_Some in H. destruct H as [p [H ->]]. exists p. split; [apply g_max_hour; auto|reflexivity].
    + apply re_effects_In in E. destruct E as [e [E ->]]. apply re_effects_In in E2. destruct E2 as [e2 [E2 ->]]. cbn [re_effect e_share_op e_label e_id] in *. apply in_map_iff in H. destruct H as [[k p] [Q H]]. cbn [fst snd] in Q. injection Q as -> <-.
      exists p. split; [apply g_share; auto|]. cbn [value_name]. fold es. rewrite (effect_named_ok es e2 NE E2). reflexivity.
  - intros [p0 [H ->]]. destruct H as [c l p C H|c f l p C F H|b p U H|e p E H|e p E H|e e2 p E E2 H].
    + apply g_comp with (c := re_comp g es c); [apply re_comps_In; eauto|]. apply (moved_comp c C). eauto.
    + apply g_flow with (c := re_comp g es c) (f := re_flow g es c f); [apply re_comps_In; eauto|rewrite re_flows; apply in_map; exact F|]. apply moved_flow. eauto.
    + change (b_lab b) with (b_lab (re_bus g b)). apply g_bus; [apply re_used; eauto|]. cbn [re_bus b_penalty b_lab]. apply re_opt_Some. eauto.
    + change (e_label e) with (e_label (re_effect g es e)). apply g_min_hour; [apply re_effects_In; eauto|]. cbn [re_effect e_min_ph e_label]. apply re_opt_Some. eauto.
    + change (e_label e) with (e_label (re_effect g es e)). apply g_max_hour; [apply re_effects_In; eauto|]. cbn [re_effect e_max_ph e_label]. apply re_opt_Some. eauto.
    + change (e_label e) with (e_label (re_effect g es e)). change (e_label e2) with (e_label (re_effect g es e2)). apply g_share; [apply re_effects_In; eauto|apply re_effects_In; eauto|]. cbn [re_effect e_share_op e_label e_id]. apply in_map_iff. exists (e_id e2, p).
      split; [|exact H]. cbn [fst snd value_name]. rewrite (effect_named_ok es e2 NE E2). reflexivity.
Qed.
End Given_re.

(** ** Reading returned data *)
Lemma upd_len : forall {A} (l : list A) i x, length (upd i x l) = length l.
Proof. induction l as [|a l IH]; intros [|i] x; cbn [upd length]; auto. Qed.
Lemma upd_nth : forall {A} (l : list A) i j x d, (i < length l)%nat -> nth j (upd i x l) d = if Nat.eqb i j then x else nth j l d.
Proof. induction l as [|a l IH]; intros i j x d H; [cbn in H; lia|]. destruct i as [|i], j as [|j]; cbn [upd nth Nat.eqb]; auto. apply IH. cbn in H. lia. Qed.
Lemma upd_In : forall {A} (l : list A) i x y, In y (upd i x l) -> y = x \/ In y l.
Proof. induction l as [|a l IH]; intros [|i] x y H; cbn [upd] in H; auto. - destruct H as [<-|H]; cbn; auto. - destruct H as [<-|H]; [cbn; auto|]. destruct (IH _ _ _ H); cbn; auto. Qed.
Lemma write_length : forall ix v old, length (write ix v old) = length old.
Proof. unfold write. intros ix v old. revert old. induction (combine ix v) as [|[i q] r IH]; intros old; cbn [fold_left fst snd]; [reflexivity|]. rewrite IH. apply upd_len. Qed.
Lemma write_In : forall ix v old q, In q (write ix v old) -> In q v \/ In q old.
Proof.
  unfold write. induction ix as [|i ix IH]; intros v old q H; [cbn in H; auto|]. destruct v as [|a v]; [cbn in H; auto|]. cbn [combine fold_left fst snd] in H.
  destruct (IH _ _ _ H) as [K|K]; [left; right; exact K|]. apply upd_In in K. destruct K as [->|K]; [left; left; auto|auto].
Qed.
Lemma write_other : forall ix v old j d, ~ In j ix -> (forall i, In i ix -> (i < length old)%nat) -> nth j (write ix v old) d = nth j old d.
Proof.
  unfold write. induction ix as [|i ix IH]; intros v old j d N R; [reflexivity|]. destruct v as [|a v]; [reflexivity|]. cbn [combine fold_left fst snd].
  rewrite IH; [rewrite upd_nth by (apply R; left; auto); destruct (Nat.eqb_spec i j); [subst; exfalso; apply N; left; auto|auto]|intros K; apply N; right; auto|]. intros k K. rewrite upd_len. apply R. right. auto.
Qed.
Lemma write_nth : forall ix v old t d, NoDup ix -> length v = length ix -> (forall i, In i ix -> (i < length old)%nat) -> (t < length ix)%nat -> nth (nth t ix 0%nat) (write ix v old) d = nth t v 0.
Proof.
  induction ix as [|i ix IH]; intros v old t d N L R T; [cbn in T; lia|]. destruct v as [|a v]; [discriminate|]. inversion N as [|? ? Ni N']; subst.
  change (write (i :: ix) (a :: v) old) with (write ix v (upd i a old)). assert (R' : forall k, In k ix -> (k < length (upd i a old))%nat) by (intros k K; rewrite upd_len; apply R; right; auto).
  destruct t as [|t]; cbn [nth].
  - rewrite write_other by auto. rewrite upd_nth by (apply R; left; auto). rewrite Nat.eqb_refl. reflexivity.
  - apply IH; auto. cbn in T. lia.
Qed.
Lemma shown_length : forall ix data l p, match pdata p with NS _ => shown ix data l p = p | NV old => exists new, pdata (shown ix data l p) = NV new /\ length new = length old /\ forall q, In q new -> In q old \/ exists v, assoc l data = Some v /\ In q v /\ varies p end.
Proof.
  intros ix data l p. unfold shown. destruct (pdata p) as [q|old] eqn:D; [reflexivity|]. destruct (make_scalar (NV old)) as [[q|o]|] eqn:M; [exists old; auto| |exists old; auto]. destruct (assoc l data) as [v|] eqn:A; [|exists old; auto].
  assert (V : varies p) by (apply varies_scalar; exists o; rewrite D; split; [|exact M]; destruct old as [|a r]; cbn [make_scalar] in M; [discriminate|]; destruct (forallb _ _) in M; [discriminate|]; congruence).
  assert (E : o = old) by (destruct old as [|a r]; cbn [make_scalar] in M; [discriminate|]; destruct (forallb _ _) in M; [discriminate|]; congruence). subst o.
  exists (write ix v old). split; [destruct p; reflexivity|]. split; [apply write_length|]. intros q H. apply write_In in H. destruct H; [right; eauto|auto].
Qed.
Lemma shown_kept : forall ix data l p, ~ varies p -> shown ix data l p = p.
Proof.
  intros ix data l p V. unfold shown. destruct (make_scalar (pdata p)) as [[q|o]|] eqn:M; auto. exfalso. apply V. apply varies_scalar. exists o. split; auto.
  destruct (pdata p) as [q|[|a r]]; cbn [make_scalar] in M; try discriminate. destruct (forallb _ _) in M; [discriminate|]. congruence.
Qed.
(** The chosen steps are different ones of the time axis. *)
Lemma shown_value : forall fs idx data l p v t, NoDup (chosen_steps fs idx) -> (forall i old, pdata p = NV old -> In i (chosen_steps fs idx) -> (i < length old)%nat) -> varies p ->
  assoc l data = Some v -> length v = steps fs idx -> (t < steps fs idx)%nat -> value idx (shown (chosen_steps fs idx) data l p) t = nth t v 0.
Proof.
  intros fs idx data l p v t N R V A L T. apply varies_scalar in V. destruct V as [old [D M]]. unfold shown. rewrite M, A.
  assert (LS : length (chosen_steps fs idx) = steps fs idx) by (unfold chosen_steps, steps; destruct idx; [auto|apply seq_length]).
  unfold value. assert (E : pdata (set_data p (NV (write (chosen_steps fs idx) v old))) = NV (write (chosen_steps fs idx) v old)) by (destruct p; reflexivity). rewrite E.
  assert (S : selected idx t = nth t (chosen_steps fs idx) 0%nat) by (unfold selected, chosen_steps; destruct idx; [auto|rewrite seq_nth; [auto|exact T]]). rewrite S.
  rewrite (write_nth _ v old t _ N); [reflexivity| | |]; try congruence. intros i Hi. exact (R i old D Hi).
Qed.
Lemma nodup_chosen : forall fs idx, (forall l, idx = Some l -> NoDup l) -> NoDup (chosen_steps fs idx).
Proof. intros fs [l|] H; cbn [chosen_steps]; [auto|apply seq_NoDup]. Qed.
Lemma range_chosen : forall fs idx i, valid_data fs idx -> In i (chosen_steps fs idx) -> (i < length (fs_times fs))%nat.
Proof. intros fs [l|] i V H; cbn [chosen_steps] in H; [eapply vd_chosen; eauto|apply in_seq in H; lia]. Qed.
