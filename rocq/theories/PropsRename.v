(** Claim C81: labels are only names. Giving other labels to components, flows, buses and effects changes no solution. *)
From Coq Require Import Permutation.
From Verif Require Import Base BaseFacts MathModel Spec Structure Params Features Elements Library System SysSpec AdmitSpec CtxFacts NavFacts PropsOnOff PropsComp PropsEffects PlanSpec Example
     TotalInvest PlanComp PlanSame PlanCheck ExamplePoints PropsPlan PropsRelax PropsSameData ValidSpec ValidCheck PropsTotal.

(** ** Specification *)

(** New labels for components, flows (given the old label of their component), buses and effects. *)
Record renaming := mkRen { rn_comp : string -> string; rn_flow : string -> string -> string; rn_bus : string -> string; rn_effect : string -> string }.

Section Renaming.
Variable R : renaming.
(** The same system with new labels; everything else stays. *)
Definition rename_bus (b : bus) : bus := mkBus (b_id b) (rn_bus R (b_lab b)) (b_penalty b).
Definition rename_flow (cl : string) (f : flow) : flow :=
  mkFlow (f_id f) (rn_flow R cl (f_lab f)) (rename_bus (f_bus f)) (f_size f) (f_profile f) (f_relmin f) (f_relmax f) (f_effects f) (f_onoff f)
    (f_fh_max f) (f_fh_min f) (f_lf_min f) (f_lf_max f) (f_prev f).
Definition rename_comp (c : component) : component :=
  mkComponent (rn_comp R (cp_label c)) (map (rename_flow (cp_label c)) (cp_in c)) (map (rename_flow (cp_label c)) (cp_out c)) (cp_onoff c) (cp_prevent c) (cp_kind c).
Definition rename_effect (e : effect) : effect :=
  mkEffect (e_id e) (rn_effect R (e_label e)) (e_std e) (e_obj e) (e_share_op e) (e_share_inv e) (e_min_op e) (e_max_op e) (e_min_inv e) (e_max_inv e)
    (e_min_ph e) (e_max_ph e) (e_min_tot e) (e_max_tot e).
Definition rename_system (fs : flow_system) : flow_system :=
  mkFS (fs_times fs) (fs_end fs) (fs_prev_dt fs) (map rename_effect (fs_effects fs)) (map rename_comp (fs_comps fs)).

(** Old and new full names of the components and flows. *)
Definition element_names (fs : flow_system) : list (string * string) :=
  flat_map (fun c => (cp_label c, cp_label (rename_comp c))
              :: map (fun f => (flow_name c f, flow_name (rename_comp c) (rename_flow (cp_label c) f))) (cp_flows c)) (fs_comps fs).
(** Old and new names of all quantities a plan may fix: rates, stored energies, states, starts, sizes, decisions, costs read
    off segments, excesses, totals of effects. *)
Definition quantity_names (fs : flow_system) : list (string * string) :=
  flat_map (fun nn : string * string => let (n, n') := nn in
       [(vlabel n "flow_rate", vlabel n' "flow_rate"); (vlabel n "charge_state", vlabel n' "charge_state");
        (oo n "on", oo n' "on"); (oo n "switchOn", oo n' "switchOn"); (inv n "size", inv n' "size"); (inv n "isInvested", inv n' "isInvested")]
       ++ map (fun e => (vlabel (cat [n; "__"; "SegmentedShares"]) (cat [e_label e; "_segmented"]),
                         vlabel (cat [n'; "__"; "SegmentedShares"]) (cat [e_label (rename_effect e); "_segmented"]))) (fs_effects fs)) (element_names fs)
  ++ flat_map (fun b => let b' := rename_bus b in
       [(vlabel (b_lab b) "excess_input", vlabel (b_lab b') "excess_input"); (vlabel (b_lab b) "excess_output", vlabel (b_lab b') "excess_output")]) (bus_list fs)
  ++ flat_map (fun e => let l := e_label e in let l' := e_label (rename_effect e) in
       [(vlabel (cat [l; "__"; "operation"]) "operation_sum_TS", vlabel (cat [l'; "__"; "operation"]) "operation_sum_TS");
        (vlabel (cat [l; "__"; "operation"]) "operation_sum", vlabel (cat [l'; "__"; "operation"]) "operation_sum");
        (vlabel (cat [l; "__"; "invest"]) "invest_sum", vlabel (cat [l'; "__"; "invest"]) "invest_sum");
        (vlabel (cat [l; "__"; "all"]) "all_sum", vlabel (cat [l'; "__"; "all"]) "all_sum")]) (fs_effects fs)
  ++ [(vlabel "Effects__penalty" "penalty_sum", vlabel "Effects__penalty" "penalty_sum")].
(** Two quantities share a name after the renaming only if they did before, and the other way round. *)
Definition keeps_apart (fs : flow_system) : Prop :=
  forall p q, In p (quantity_names fs) -> In q (quantity_names fs) -> (fst p = fst q <-> snd p = snd q).
(** [y] gives every quantity under its new name the value that [x] gives it under its old name. *)
Definition carried (fs : flow_system) (x y : asg) : Prop := forall a b t, In (a, b) (quantity_names fs) -> y b t = x a t.
End Renaming.

(** The plan of [y] for the renamed system is the plan of [x] under the new names. *)
Definition renamed_plan (R : renaming) (cf : config) (fs : flow_system) (idx : option (list nat)) (x y : asg) : Prop :=
  exists x0 y0, same_plan cf fs idx x x0 /\ carried R fs x0 y0 /\ same_plan cf (rename_system R fs) idx y0 y.

(** ** Facts *)

(** Two systems [fs] with plan [x] and [fs'] with plan [x'], equal but for names: [els] pairs the names of elements. *)
Section Linked.
Variables (cf : config) (fs fs' : flow_system) (idx : option (list nat)) (x x' : asg) (els : list (string * string)).
Notation n := (steps fs idx).

Record lbus (b b' : bus) : Prop := { lb_id : b_id b' = b_id b; lb_pen : b_penalty b' = b_penalty b; lb_ex : forall w t, w = "excess_input" \/ w = "excess_output" -> excess x' b' w t = excess x b w t }.
Record lflow (c c' : component) (f f' : flow) : Prop := {
  lf_same : f_id f' = f_id f /\ f_size f' = f_size f /\ f_prev f' = f_prev f;
  lf_numbers : f_fh_max f' = f_fh_max f /\ f_fh_min f' = f_fh_min f /\ f_lf_min f' = f_lf_min f /\ f_lf_max f' = f_lf_max f;
  lf_bus : lbus (f_bus f) (f_bus f');
  lf_data : f_profile f' = f_profile f /\ f_relmin f' = f_relmin f /\ f_relmax f' = f_relmax f /\ f_effects f' = f_effects f /\ f_onoff f' = f_onoff f;
  lf_name : In (flow_name c f, flow_name c' f') els }.
Record lcomp (c c' : component) : Prop := {
  lc_same : cp_prevent c' = cp_prevent c /\ cp_onoff c' = cp_onoff c /\ cp_kind c' = cp_kind c;
  lc_in : Forall2 (lflow c c') (cp_in c) (cp_in c');
  lc_out : Forall2 (lflow c c') (cp_out c) (cp_out c');
  lc_name : In (cp_label c, cp_label c') els }.
Record leff (e e' : effect) : Prop := {
  le_same : e_id e' = e_id e /\ e_std e' = e_std e /\ e_obj e' = e_obj e /\ e_share_op e' = e_share_op e /\ e_share_inv e' = e_share_inv e;
  le_min : e_min_op e' = e_min_op e /\ e_min_inv e' = e_min_inv e /\ e_min_tot e' = e_min_tot e /\ e_min_ph e' = e_min_ph e;
  le_max : e_max_op e' = e_max_op e /\ e_max_inv e' = e_max_inv e /\ e_max_tot e' = e_max_tot e /\ e_max_ph e' = e_max_ph e;
  le_tot : (forall t, op_at x' e' t = op_at x e t) /\ op_sum x' e' = op_sum x e /\ inv_sum x' e' = inv_sum x e /\ all_sum x' e' = all_sum x e;
  le_seg : forall a a', In (a, a') els -> seg_cost x' a' e' = seg_cost x a e }.
Record linked : Prop := {
  lk_time : fs_times fs' = fs_times fs /\ fs_end fs' = fs_end fs /\ fs_prev_dt fs' = fs_prev_dt fs;
  lk_els : forall a a' t, In (a, a') els ->
    (x' (vlabel a' "flow_rate") t = x (vlabel a "flow_rate") t /\ x' (vlabel a' "charge_state") t = x (vlabel a "charge_state") t)
    /\ (x' (oo a' "on") t = x (oo a "on") t /\ x' (oo a' "switchOn") t = x (oo a "switchOn") t)
    /\ (x' (inv a' "size") t = x (inv a "size") t /\ x' (inv a' "isInvested") t = x (inv a "isInvested") t);
  lk_pen : penalty_sum x' = penalty_sum x;
  lk_effects : Forall2 leff (fs_effects fs) (fs_effects fs');
  lk_comps : Forall2 lcomp (fs_comps fs) (fs_comps fs') }.

Hypothesis W : linked.
Hypothesis N1 : (0 < n)%nat.
Lemma l_steps : steps fs' idx = n. Proof. unfold steps. destruct (lk_time W) as [-> _]. reflexivity. Qed.
Lemma l_hours : forall t, hours fs' idx t = hours fs idx t.
Proof. intros t. unfold hours, stamp. rewrite l_steps. destruct (lk_time W) as [-> [-> _]]. reflexivity. Qed.
Lemma l_horizon : horizon fs' idx == horizon fs idx.
Proof. unfold horizon. rewrite l_steps. apply sumn_ext. intros t _. rewrite l_hours. reflexivity. Qed.
Lemma l_weighted : forall g g', (forall t, g' t = g t) -> sumn n (fun t => hours fs' idx t * g' t) == sumn n (fun t => hours fs idx t * g t).
Proof. intros g g' H. apply sumn_ext. intros t Ht. rewrite l_hours, H. reflexivity. Qed.
Lemma l_run : forall prior s t, run_hours (hours fs' idx) prior s t = run_hours (hours fs idx) prior s t.
Proof.
  intros prior s t. unfold run_hours, span. replace (map (hours fs' idx) (seq s (S t - s))) with (map (hours fs idx) (seq s (S t - s))); [reflexivity|].
  apply map_ext. intros i. symmetry. apply l_hours.
Qed.
Lemma l_limits : forall prior b dmin dmax, obeys_limits fs idx prior b dmin dmax -> obeys_limits fs' idx prior b dmin dmax.
Proof.
  intros prior b dmin dmax [A [B C]]. unfold obeys_limits. rewrite l_steps. split; [|split].
  - intros p' s t E Ht Rn. rewrite l_run. eauto.
  - intros p' s t E Ht Rn Z. rewrite l_run. eauto.
  - exact C.
Qed.
Lemma l_rules : forall states o on, onoff_rules fs idx states o on -> onoff_rules fs' idx states o on.
Proof.
  intros states o on [A [B [C [D E]]]]. unfold onoff_rules. rewrite l_steps. destruct (lk_time W) as [_ [_ ->]].
  assert (TH : sumn n (fun t => hours fs' idx t * on t) == sumn n (fun t => hours fs idx t * on t)) by (apply l_weighted; reflexivity).
  split; [|split; [|split; [exact C|split; apply l_limits; assumption]]]; intros q Hq; rewrite TH; auto.
Qed.
Lemma l_loss : forall p, any_loss fs' idx p = any_loss fs idx p. Proof. intros p. unfold any_loss. rewrite l_steps. reflexivity. Qed.
Lemma l_governed : forall c c' f f', lcomp c c' -> lflow c c' f f' -> governed fs' idx c' f' = governed fs idx c f.
Proof.
  intros c c' f f' WC WF. unfold governed, induced. destruct (lf_data _ _ _ _ WF) as [_ [_ [_ [_ ->]]]]. destruct (lc_same _ _ WC) as [-> [-> ->]]. destruct (lf_same _ _ _ _ WF) as [-> _].
  destruct (cp_kind c) as [ | | |s|r [p|]]; try reflexivity. rewrite l_loss. reflexivity.
Qed.
Lemma l_rate : forall c c' f f' t, lflow c c' f f' -> rate_of x' c' f' t = rate_of x c f t.
Proof. intros c c' f f' t WF. apply (lk_els W _ _ t (lf_name _ _ _ _ WF)). Qed.
Lemma l_on : forall c c' f f' t, lflow c c' f f' -> on_of x' c' f' t = on_of x c f t.
Proof. intros c c' f f' t WF. apply (lk_els W _ _ t (lf_name _ _ _ _ WF)). Qed.
Lemma l_sized : forall c c' f f', lcomp c c' -> lflow c c' f f' -> sized cf c' f' = sized cf c f.
Proof.
  intros c c' f f' WC WF. destruct (lf_same _ _ _ _ WF) as [I1 [S1 _]]. unfold sized. destruct (lc_same _ _ WC) as [_ [_ ->]]. pose proof (lc_in _ _ WC) as FI.
  destruct (cp_kind c); try exact S1. inversion FI as [|i i' r r' W1 F1 E1 E2]; [exact S1|]. inversion F1 as [|j j' q q' W2 F2 E3 E4]; [exact S1|].
  destruct (lf_same _ _ _ _ W1) as [_ [S2 _]]. destruct (lf_same _ _ _ _ W2) as [I2 [S3 _]]. rewrite I1, S1, I2, S2, S3. reflexivity.
Qed.
Lemma l_size : forall c c' f f', lcomp c c' -> lflow c c' f f' -> size_of cf x' c' f' = size_of cf x c f.
Proof. intros c c' f f' WC WF. unfold size_of. rewrite (l_sized _ _ _ _ WC WF). destruct (sized cf c f); [reflexivity|]. apply (lk_els W _ _ 0%nat (lf_name _ _ _ _ WF)). Qed.
Lemma l_prior : forall c c' f f', lflow c c' f f' -> prior_states cf f' = prior_states cf f.
Proof. intros c c' f f' WF. unfold prior_states. destruct (lf_same _ _ _ _ WF) as [_ [_ ->]]. reflexivity. Qed.
Lemma l_marks : forall a a' was, In (a, a') els -> onoff_marks x a was n -> onoff_marks x' a' was n.
Proof.
  intros a a' was H M t Ht. destruct (lk_els W a a' t H) as [_ [[E1 E2] _]]. rewrite E1, E2. destruct (M t Ht) as [M1 [M2 M3]]. split; [exact M1|]. split; [exact M2|].
  replace (before was (x' (oo a' "on")) t) with (before was (x (oo a "on")) t); [exact M3|]. destruct t as [|t]; [reflexivity|]. cbn [before]. symmetry. apply (lk_els W a a' t H).
Qed.

Lemma l_flow : forall c c' f f', lcomp c c' -> lflow c c' f f' -> flow_rule cf fs idx x c f -> flow_rule cf fs' idx x' c' f'.
Proof.
  intros c c' f f' WC WF [AL MK]. pose proof (l_governed _ _ _ _ WC WF) as G. pose proof (fun t => l_rate _ _ _ _ t WF) as RT. pose proof (fun t => l_on _ _ _ _ t WF) as ON.
  pose proof (l_sized _ _ _ _ WC WF) as SZ. pose proof (l_size _ _ _ _ WC WF) as SO. pose proof (l_prior _ _ _ _ WF) as PS.
  assert (RN : forall t, runs x' c' f' t = runs x c f t) by (intros t; unfold runs; rewrite ON; reflexivity).
  destruct (lf_data _ _ _ _ WF) as [D1 [D2 [D3 [D4 D5]]]]. destruct AL as [A1 A2 A3 A4 A5 A6 [A7 [A8 [A9 A10]]]].
  assert (LIM : forall t r, within_limits cf idx c f t r -> within_limits cf idx c' f' t r) by (intros t r; unfold within_limits, rel_min, rel_max; rewrite SZ, D1, D2, D3; auto).
  split; [constructor; rewrite ?l_steps, ?G|].
  - intros Z t Ht. rewrite RT. auto.
  - intros Z t Ht Rn. rewrite RT. rewrite RN in Rn. auto.
  - intros Z t Ht Rn. rewrite RT. rewrite RN in Rn. destruct (A3 Z t Ht Rn). auto.
  - intros o Z. rewrite PS. eapply onoff_rules_ext; [rewrite l_steps; exact N1| |exact (l_rules _ _ _ (A4 o Z))]. intros t _. cbv beta. rewrite RN. reflexivity.
  - intros iv E. rewrite SZ in E. destruct (lk_els W _ _ 0%nat (lf_name _ _ _ _ WF)) as [_ [_ [-> ->]]]. auto.
  - intros iv E t Ht. rewrite SZ in E. rewrite RT, RN, SO, D1, D2, D3. exact (A6 iv E t Ht).
  - cbv zeta. rewrite SO. assert (TT : sumn n (fun t => hours fs' idx t * rate_of x' c' f' t) == sumn n (fun t => hours fs idx t * rate_of x c f t)) by (apply l_weighted; exact RT).
    destruct (lf_numbers _ _ _ _ WF) as [-> [-> [-> ->]]]. split; [|split; [|split]]; intros q Hq; rewrite TT, ?l_horizon; auto.
  - rewrite G, l_steps. intros Z. replace (was_on cf f') with (was_on cf f) by (unfold was_on; rewrite PS; reflexivity). apply (l_marks (flow_name c f)); [exact (lf_name _ _ _ _ WF)|]. exact (MK Z).
Qed.

(** Components. *)
Lemma l_flows : forall c c', lcomp c c' -> Forall2 (lflow c c') (cp_flows c) (cp_flows c').
Proof. intros c c' WC. apply Forall2_app; [exact (lc_in _ _ WC)|exact (lc_out _ _ WC)]. Qed.
Lemma l_states : forall c c', lcomp c c' -> comp_states cf c' = comp_states cf c.
Proof.
  intros c c' WC. unfold comp_states. pose proof (l_flows _ _ WC) as FW.
  assert (FF : Forall2 (lflow c c') (filter gives_prev (cp_flows c)) (filter gives_prev (cp_flows c'))).
  { apply (F2_filter _ gives_prev gives_prev); [exact FW|]. intros f f' WF. unfold gives_prev. destruct (lf_same _ _ _ _ WF) as [_ [_ ->]]. reflexivity. }
  assert (EX : forall l l' j, Forall2 (lflow c c') l l' -> existsb (fun g => nth j (prior_states cf g) false) l' = existsb (fun g => nth j (prior_states cf g) false) l).
  { intros l l' j F. induction F as [|f f' l l' H F IH]; [reflexivity|]. cbn [existsb]. rewrite (l_prior _ _ _ _ H), IH. reflexivity. }
  inversion FF as [E1 E2|f f' l l' H F E1 E2]; [reflexivity|]. rewrite (l_prior _ _ _ _ H). apply map_ext. intros j. apply EX. rewrite E1, E2. exact FF.
Qed.
Lemma l_running : forall c c' p, lcomp c c' -> running_rule cf fs idx x c p -> running_rule cf fs' idx x' c' p.
Proof.
  intros c c' p WC [M [Z Rl]]. unfold running_rule. rewrite l_steps, (l_states _ _ WC). pose proof (fun t => lk_els W _ _ t (lc_name _ _ WC)) as EL. split; [exact (l_marks _ _ _ (lc_name _ _ WC) M)|split].
  - intros t Ht. destruct (EL t) as [_ [[-> _] _]]. rewrite (Z t Ht). pose proof (l_flows _ _ WC) as FW. split; intros H.
    + intros f' Hf'. destruct (F2_r _ _ _ _ FW Hf') as [f [Hf WF]]. rewrite (l_rate _ _ _ _ t WF). auto.
    + intros f Hf. destruct (F2_l _ _ _ _ FW Hf) as [f' [Hf' WF]]. rewrite <- (l_rate _ _ _ _ t WF). auto.
  - eapply onoff_rules_ext; [rewrite l_steps; exact N1| |exact (l_rules _ _ _ Rl)]. intros t _. destruct (EL t) as [_ [[-> _] _]]. reflexivity.
Qed.
Hypothesis IDS' : forall c, In c (fs_comps fs') -> NoDup (map f_id (cp_flows c)).
Lemma l_exclusion : forall c c', In c' (fs_comps fs') -> lcomp c c' -> exclusion_rule fs idx x c -> exclusion_rule fs' idx x' c'.
Proof.
  intros c c' Hc' WC EX f' g' t Hf' Hg' NE Pf Pg Ht. rewrite l_steps in Ht. pose proof (l_flows _ _ WC) as FW. destruct (lc_same _ _ WC) as [P _]. rewrite P in Pf, Pg.
  destruct (F2_r _ _ _ _ FW Hf') as [f [Hf WF]]. destruct (F2_r _ _ _ _ FW Hg') as [g [Hg WG]]. destruct (lf_same _ _ _ _ WF) as [I1 _]. destruct (lf_same _ _ _ _ WG) as [I2 _].
  rewrite (l_rate _ _ _ _ t WF), (l_rate _ _ _ _ t WG). rewrite I1 in Pf. rewrite I2 in Pg. apply EX; auto. intros E. apply NE. subst g. apply (NoDup_map_eq_ f_id (cp_flows c')); auto. congruence.
Qed.
Lemma l_weighted_flows : forall c c' fac l l' t, Forall2 (lflow c c') l l' -> weighted idx x' c' fac l' t == weighted idx x c fac l t.
Proof.
  intros c c' fac l l' t F. unfold weighted. apply (F2_sum _ _ _ _ _ F). intros f f' WF. unfold factor_of. destruct (lf_same _ _ _ _ WF) as [-> _]. rewrite (l_rate _ _ _ _ t WF). reflexivity.
Qed.
Lemma l_segmented : forall c c' segs, lcomp c c' -> segmented_rule fs idx x c segs -> segmented_rule fs' idx x' c' segs.
Proof.
  intros c c' segs WC H t Ht. rewrite l_steps in Ht. pose proof (l_flows _ _ WC) as FW. destruct (lc_same _ _ WC) as [_ [-> _]]. destruct (lk_els W _ _ t (lc_name _ _ WC)) as [_ [[-> _] _]].
  destruct (H t Ht) as [[k [w [W0 [W1 [P Q0]]]]]|[Q0 [Z Rt]]].
  - left. exists k, w. split; [exact W0|]. split; [exact W1|]. split; [|exact Q0]. intros f' Hf'. destruct (F2_r _ _ _ _ FW Hf') as [f [Hf WF]]. destruct (P f Hf) as [ab [N0 OP]].
    exists ab. unfold segments_of, on_piece in *. destruct (lf_same _ _ _ _ WF) as [-> _]. rewrite (l_rate _ _ _ _ t WF). auto.
  - right. split; [exact Q0|]. split; [exact Z|]. intros f' Hf'. destruct (F2_r _ _ _ _ FW Hf') as [f [Hf WF]]. rewrite (l_rate _ _ _ _ t WF). auto.
Qed.
Lemma l_storage : forall c c' s ch dis ch' dis', lcomp c c' -> lflow c c' ch ch' -> lflow c c' dis dis' -> storage_rule cf fs idx x c s ch dis -> storage_rule cf fs' idx x' c' s ch' dis'.
Proof.
  intros c c' s ch dis ch' dis' WC WF WG [B [LM [AL [I0 [IL [FX FM]]]]]]. pose proof (fun t => lk_els W _ _ t (lc_name _ _ WC)) as EL.
  assert (CH : forall t, charge x' c' t = charge x c t) by (intros t; apply EL). unfold storage_rule. rewrite l_steps.
  assert (CA : capacity x' c' s = capacity x c s) by (unfold capacity; destruct (st_cap s); [reflexivity|apply EL]).
  split; [|split; [|split; [|split; [|split; [|split]]]]].
  - intros t Ht. rewrite !CH, (l_rate _ _ _ _ t WF), (l_rate _ _ _ _ t WG), l_hours. exact (B t Ht).
  - intros t Ht. rewrite CH, CA. apply LM. exact Ht.
  - destruct (EL 0%nat) as [_ [_ [-> ->]]]. exact AL.
  - intros q. rewrite CH. apply I0.
  - rewrite !CH. exact IL.
  - rewrite CH. exact FX.
  - rewrite CH. exact FM.
Qed.
Lemma l_carries : forall c c' rel abs i o i' o', lflow c c' i i' -> lflow c c' o o' -> carries fs idx x c rel abs i o -> carries fs' idx x' c' rel abs i' o'.
Proof. intros c c' rel abs i o i' o' WI WO H t Ht. rewrite l_steps in Ht. rewrite (l_rate _ _ _ _ t WI), (l_rate _ _ _ _ t WO), (l_on _ _ _ _ t WI). exact (H t Ht). Qed.
Lemma l_transmission : forall c c' rel abs in1' out1' in2' out2', lcomp c c' ->
  (forall in1 out1 in2 out2, cp_in c = in1 :: opt_flow in2 -> cp_out c = out1 :: opt_flow out2 -> transmission_rule cf fs idx x c rel abs in1 out1 in2 out2) ->
  cp_in c' = in1' :: opt_flow in2' -> cp_out c' = out1' :: opt_flow out2' -> transmission_rule cf fs' idx x' c' rel abs in1' out1' in2' out2'.
Proof.
  intros c c' rel abs in1' out1' in2' out2' WC H I' O'. pose proof (lc_in _ _ WC) as FI. pose proof (lc_out _ _ WC) as FO. rewrite I' in FI. rewrite O' in FO.
  destruct (F2_cons_r _ _ _ _ FI) as [in1 [ti [EI [W1 FI2]]]]. destruct (F2_cons_r _ _ _ _ FO) as [out1 [to [EO [W2 FO2]]]].
  destruct (F2_opt_ _ _ _ FI2) as [in2 [-> R2]]. destruct (F2_opt_ _ _ _ FO2) as [out2 [-> R4]]. destruct (H in1 out1 in2 out2 EI EO) as [C1 C2].
  split; [exact (l_carries _ _ _ _ _ _ _ _ W1 W2 C1)|].
  destruct in2 as [i2|], in2' as [i2'|]; try contradiction; destruct out2 as [o2|], out2' as [o2'|]; try contradiction; cbn in R2, R4; try exact I.
  destruct C2 as [C2 S2]. split; [exact (l_carries _ _ _ _ _ _ _ _ R2 R4 C2)|].
  intros iv E'. rewrite (l_size _ _ _ _ WC W1), (l_size _ _ _ _ WC R2). apply (S2 iv). destruct (lf_same _ _ _ _ W1) as [_ [SZ _]]. congruence.
Qed.
Lemma l_own : forall c c', lcomp c c' -> own_rule cf fs idx x c -> own_rule cf fs' idx x' c'.
Proof.
  intros c c' WC H. unfold own_rule in *. destruct (lc_same _ _ WC) as [_ [_ ->]]. destruct (cp_kind c) as [|eqs|segs|s|rel abs].
  - exact I.
  - intros fac t Hf Ht. rewrite l_steps in Ht. rewrite (l_weighted_flows _ _ _ _ _ _ (lc_in _ _ WC)), (l_weighted_flows _ _ _ _ _ _ (lc_out _ _ WC)). apply H; assumption.
  - exact (l_segmented _ _ _ WC H).
  - intros ch' dis' I' O'. pose proof (lc_in _ _ WC) as FI. pose proof (lc_out _ _ WC) as FO. rewrite I' in FI. rewrite O' in FO.
    destruct (F2_cons_r _ _ _ _ FI) as [ch [ti [EI [W1 FI2]]]]. inversion FI2. subst ti. destruct (F2_cons_r _ _ _ _ FO) as [dis [to [EO [W2 FO2]]]]. inversion FO2. subst to.
    exact (l_storage _ _ _ _ _ _ _ WC W1 W2 (H ch dis EI EO)).
  - intros in1 out1 in2 out2 I' O'. exact (l_transmission _ _ _ _ _ _ _ _ WC H I' O').
Qed.

(** Investments, buses, effects. *)
Lemma l_comp_l : forall c, In c (fs_comps fs) -> exists c', In c' (fs_comps fs') /\ lcomp c c'.
Proof. intros c Hc. exact (F2_l _ _ _ _ (lk_comps W) Hc). Qed.
Lemma l_comp_r : forall c', In c' (fs_comps fs') -> exists c, In c (fs_comps fs) /\ lcomp c c'.
Proof. intros c Hc. exact (F2_r _ _ _ _ (lk_comps W) Hc). Qed.
Definition linv (a b : string * invest) : Prop := snd b = snd a /\ In (fst a, fst b) els.
Lemma l_investments : Forall2 linv (investments cf fs) (investments cf fs').
Proof.
  unfold investments. pose proof (lk_comps W) as FC. clear IDS'. induction FC as [|c c' l l' WC FC IH]; [constructor|]. cbn [flat_map]. apply Forall2_app; [|exact IH]. apply Forall2_app.
  - pose proof (l_flows _ _ WC) as FW. induction FW as [|f f' r r' WF FW IHF]; [constructor|]. cbn [flat_map]. apply Forall2_app; [|exact IHF]. unfold flow_investment. rewrite (l_sized _ _ _ _ WC WF).
    destruct (sized cf c f) as [q|iv]; [constructor|]. constructor; [split; [reflexivity|exact (lf_name _ _ _ _ WF)]|constructor].
  - unfold storage_investment. destruct (lc_same _ _ WC) as [_ [_ ->]]. destruct (cp_kind c) as [ | | |s| ]; try constructor. destruct (st_cap s); [constructor|]. constructor; [split; [reflexivity|exact (lc_name _ _ WC)]|constructor].
Qed.
Lemma l_eff_r : forall e', In e' (fs_effects fs') -> exists e, In e (fs_effects fs) /\ leff e e'.
Proof. intros e He. exact (F2_r _ _ _ _ (lk_effects W) He). Qed.
Lemma l_segments : forall a a' iv, In (a, a') els -> segments_rule fs x a iv -> segments_rule fs' x' a' iv.
Proof.
  intros a a' iv HA H spts eff E. cbv zeta. destruct (lk_els W a a' 0%nat HA) as [_ [_ [-> ->]]].
  assert (EF : forall e', In e' (fs_effects fs') -> exists e, In e (fs_effects fs) /\ e_id e = e_id e' /\ seg_cost x' a' e' = seg_cost x a e).
  { intros e' He'. destruct (l_eff_r e' He') as [e [He WE]]. destruct (le_same _ _ WE) as [I1 _]. exists e. split; [exact He|]. split; [congruence|]. exact (le_seg _ _ WE a a' HA). }
  destruct (H spts eff E) as [[k [w [W0 [W1 [P [Q0 Q1]]]]]]|[Q0 [Q1 [Q2 Q3]]]].
  - left. exists k, w. split; [exact W0|]. split; [exact W1|]. split; [exact P|]. split; [|exact Q1]. intros i l e' Hi He' Ei. destruct (EF e' He') as [e [He [Id ->]]]. apply (Q0 i l e Hi He). congruence.
  - right. split; [exact Q0|]. split; [exact Q1|]. split; [exact Q2|]. intros i l e' Hi He' Ei. destruct (EF e' He') as [e [He [Id ->]]]. apply (Q3 i l e Hi He). congruence.
Qed.
Lemma l_bus_r : forall b', used_bus fs' b' -> exists b, used_bus fs b /\ lbus b b'.
Proof.
  intros b' [c' [f' [Hc' [Hf' <-]]]]. destruct (l_comp_r c' Hc') as [c [Hc WC]]. destruct (F2_r _ _ _ _ (l_flows _ _ WC) Hf') as [f [Hf WF]]. exists (f_bus f). split; [exists c, f; auto|exact (lf_bus _ _ _ _ WF)].
Qed.
Lemma l_bus_l : forall b, used_bus fs b -> exists b', used_bus fs' b' /\ lbus b b'.
Proof.
  intros b' [c' [f' [Hc' [Hf' <-]]]]. destruct (l_comp_l c' Hc') as [c [Hc WC]]. destruct (F2_l _ _ _ _ (l_flows _ _ WC) Hf') as [f [Hf WF]]. exists (f_bus f). split; [exists c, f; auto|exact (lf_bus _ _ _ _ WF)].
Qed.
Lemma l_at_bus : forall (side : component -> list flow) b b' t, (forall c c', lcomp c c' -> Forall2 (lflow c c') (side c) (side c')) -> lbus b b' ->
  Qsum (map (fun c => Qsum (map (fun f => rate_of x' c f t) (filter (connected b') (side c)))) (fs_comps fs'))
  == Qsum (map (fun c => Qsum (map (fun f => rate_of x c f t) (filter (connected b) (side c)))) (fs_comps fs)).
Proof.
  intros side b b' t H LB. apply (F2_sum _ _ _ _ _ (lk_comps W)). intros c c' WC. apply (F2_sum (lflow c c')).
  - apply (F2_filter _ (connected b) (connected b')); [exact (H _ _ WC)|]. intros f f' WF. unfold connected. rewrite (lb_id _ _ (lf_bus _ _ _ _ WF)), (lb_id _ _ LB). reflexivity.
  - intros f f' WF. rewrite (l_rate _ _ _ _ t WF). reflexivity.
Qed.
Lemma l_bus : forall b b', lbus b b' -> bus_rule fs idx x b -> bus_rule fs' idx x' b'.
Proof.
  intros b b' AB H t Ht. rewrite l_steps in Ht. destruct (H t Ht) as [E P]. rewrite (lb_ex _ _ AB "excess_input") by auto. rewrite (lb_ex _ _ AB "excess_output") by auto. split; [|exact P]. unfold delivered, taken in *.
  rewrite (l_at_bus cp_out b b' t lc_out AB), (l_at_bus cp_in b b' t lc_in AB). exact E.
Qed.
Lemma l_names : forall k e e', leff e e' -> names (fs_effects fs') k e' = names (fs_effects fs) k e.
Proof.
  intros k e e' WE. destruct (le_same _ _ WE) as [I1 _]. unfold names. rewrite I1. destruct k as [i|]; [reflexivity|]. pose proof (lk_effects W) as F.
  induction F as [|a b l l' H F IH]; [reflexivity|]. cbn [find]. destruct (le_same _ _ H) as [I2 [-> _]]. destruct (e_std a); [rewrite I2; reflexivity|exact IH].
Qed.
Lemma l_cost : forall i v e e' t, leff e e' -> cost (fs_effects fs') i v e' t = cost (fs_effects fs) i v e t.
Proof. intros i v e e' t WE. unfold cost. f_equal. apply map_ext. intros kp. rewrite (l_names _ _ _ WE). reflexivity. Qed.
Lemma l_onoff_costs : forall a a' p e e' t, In (a, a') els -> leff e e' -> onoff_costs fs' idx x' a' p e' t = onoff_costs fs idx x a p e t.
Proof. intros a a' p e e' t HA WE. unfold onoff_costs. rewrite !(l_cost _ _ _ _ _ WE), l_hours. destruct (lk_els W a a' t HA) as [_ [[-> ->] _]]. reflexivity. Qed.
Lemma l_comp_costs : forall c c' e e' t, lcomp c c' -> leff e e' -> comp_costs fs' idx x' c' e' t == comp_costs fs idx x c e t.
Proof.
  intros c c' e e' t WC WE. unfold comp_costs. destruct (lc_same _ _ WC) as [_ [-> _]].
  assert (FL : Qsum (map (fun f => flow_costs fs' idx x' c' f e' t) (cp_flows c')) == Qsum (map (fun f => flow_costs fs idx x c f e t) (cp_flows c))).
  { apply (F2_sum _ _ _ _ _ (l_flows _ _ WC)). intros f f' WF. unfold flow_costs. destruct (lf_data _ _ _ _ WF) as [_ [_ [_ [-> _]]]]. rewrite (l_cost _ _ _ _ _ WE), (l_rate _ _ _ _ t WF), l_hours, (l_governed _ _ _ _ WC WF).
    destruct (governed fs idx c f) as [p|]; [|reflexivity]. rewrite (l_onoff_costs _ _ _ _ _ _ (lf_name _ _ _ _ WF) WE). reflexivity. }
  rewrite FL. destruct (cp_onoff c) as [p|]; [|reflexivity]. rewrite (l_onoff_costs _ _ _ _ _ _ (lc_name _ _ WC) WE). reflexivity.
Qed.
Lemma l_invest_costs : forall a a' iv e e', In (a, a') els -> leff e e' -> invest_costs fs' x' a' iv e' = invest_costs fs x a iv e.
Proof.
  intros a a' iv e e' HA WE. unfold invest_costs, seg_costs, made. rewrite !(l_cost _ _ _ _ _ WE), (le_seg _ _ WE a a' HA). destruct (le_same _ _ WE) as [-> _].
  destruct (lk_els W a a' 0%nat HA) as [_ [_ [-> ->]]]. reflexivity.
Qed.
Lemma l_bound : forall p t, option_map (fun p => value idx p t * hours fs' idx t) p = option_map (fun p => value idx p t * hours fs idx t) p.
Proof. intros [p|] t; [|reflexivity]. cbn. rewrite l_hours. reflexivity. Qed.
Lemma l_effect : forall e e', leff e e' -> effect_rule cf fs idx x e -> effect_rule cf fs' idx x' e'.
Proof.
  intros e e' WE [A1 [A2 [A3 [A4 [A5 [A6 [A7 [A8 [A9 [A10 A11]]]]]]]]]]. destruct (le_same _ _ WE) as [I1 _]. destruct (le_tot _ _ WE) as [OT [OS [IT AS]]].
  unfold effect_rule. rewrite l_steps, OS, IT, AS. destruct (le_min _ _ WE) as [-> [-> [-> ->]]]. destruct (le_max _ _ WE) as [-> [-> [-> ->]]].
  split; [|split; [|split; [|split; [exact A4|split; [exact A5|split; [exact A6|split; [exact A7|split; [exact A8|split; [exact A9|split; [exact A10|]]]]]]]]]].
  - intros t Ht. rewrite OT, (A1 t Ht).
    assert (C1 : Qsum (map (fun c => comp_costs fs' idx x' c e' t) (fs_comps fs')) == Qsum (map (fun c => comp_costs fs idx x c e t) (fs_comps fs))) by (apply (F2_sum _ _ _ _ _ (lk_comps W)); intros c c' WC; apply l_comp_costs; assumption).
    assert (C2 : op_from_effects fs' idx x' e' t == op_from_effects fs idx x e t).
    { unfold op_from_effects. apply (F2_sum _ _ _ _ _ (lk_effects W)). intros a a' H. destruct (le_same _ _ H) as [_ [_ [_ [-> _]]]]. destruct (le_tot _ _ H) as [-> _]. rewrite I1. reflexivity. }
    rewrite C1, C2. reflexivity.
  - rewrite A2. apply sumn_ext. intros t _. rewrite OT. reflexivity.
  - rewrite A3.
    assert (C1 : Qsum (map (fun ni => invest_costs fs' x' (fst ni) (snd ni) e') (investments cf fs')) == Qsum (map (fun ni => invest_costs fs x (fst ni) (snd ni) e) (investments cf fs))).
    { apply (F2_sum _ _ _ _ _ l_investments). intros a b [E HA]. rewrite E, (l_invest_costs _ _ _ _ _ HA WE). reflexivity. }
    assert (C2 : inv_from_effects fs' x' e' == inv_from_effects fs x e).
    { unfold inv_from_effects. apply (F2_sum _ _ _ _ _ (lk_effects W)). intros a a' H. destruct (le_same _ _ H) as [_ [_ [_ [_ ->]]]]. destruct (le_tot _ _ H) as [_ [_ [-> _]]]. rewrite I1. reflexivity. }
    rewrite C1, C2. reflexivity.
  - intros t Ht. rewrite OT, !l_bound. exact (A11 t Ht).
Qed.

Hypothesis OBJ : same_object fs.
Hypothesis OBJ' : same_object fs'.
Lemma l_price : forall b b', lbus b b' -> bus_price fs' idx x' b' == bus_price fs idx x b.
Proof.
  intros b b' AB. unfold bus_price. rewrite (lb_pen _ _ AB). destruct (b_penalty b) as [p|]; [|reflexivity]. rewrite l_steps. apply sumn_ext. intros t Ht.
  rewrite l_hours, (lb_ex _ _ AB "excess_input") by auto. rewrite (lb_ex _ _ AB "excess_output") by auto. reflexivity.
Qed.
Lemma l_partners : forall l', NoDup l' -> (forall b, In b l' -> used_bus fs' b) -> exists l, Forall2 lbus l l' /\ NoDup l /\ forall b, In b l -> used_bus fs b.
Proof.
  induction l' as [|b' l' IH]; intros ND U; [exists []; repeat constructor; intros b []|]. inversion ND as [|? ? N2 N3]; subst. destruct (IH N3 (fun b Hb => U b (or_intror Hb))) as [l [F [NL UL]]].
  destruct (l_bus_r b' (U b' (or_introl eq_refl))) as [b [Ub AB]]. exists (b :: l). split; [constructor; assumption|]. split.
  - constructor; [|exact NL]. intros Hb. destruct (F2_l _ _ _ _ F Hb) as [b2 [H2 AB2]]. apply N2. replace b' with b2; [exact H2|]. apply OBJ'; [apply U; right; exact H2|apply U; left; reflexivity|].
    rewrite (lb_id _ _ AB), (lb_id _ _ AB2). reflexivity.
  - intros q [<-|Hq]; auto.
Qed.
Lemma l_penalty : obeys cf fs idx x -> forall bl', NoDup bl' -> (forall b, In b bl' <-> used_bus fs' b) -> penalty_sum x' == Qsum (map (bus_price fs' idx x') bl').
Proof.
  intros O bl' ND U. destruct (l_partners bl' ND (fun b => proj1 (U b))) as [bl [F [NL UL]]]. rewrite (lk_pen W), (ob_penalty _ _ _ _ O bl NL).
  - symmetry. apply (F2_sum _ _ _ _ _ F). exact l_price.
  - intros b. split; [apply UL|]. intros Ub. destruct (l_bus_l b Ub) as [b' [Ub' AB]]. apply U in Ub'. destruct (F2_r _ _ _ _ F Ub') as [b0 [H0 AB0]].
    replace b with b0; [exact H0|]. apply OBJ; auto. rewrite <- (lb_id _ _ AB), <- (lb_id _ _ AB0). reflexivity.
Qed.
Lemma l_obeys : obeys cf fs idx x -> obeys cf fs' idx x'.
Proof.
  intros O. constructor.
  - intros c' f' Hc' Hf'. destruct (l_comp_r c' Hc') as [c [Hc WC]]. destruct (F2_r _ _ _ _ (l_flows _ _ WC) Hf') as [f [Hf WF]]. exact (l_flow c c' f f' WC WF (ob_flow _ _ _ _ O c f Hc Hf)).
  - intros c' p Hc' E'. destruct (l_comp_r c' Hc') as [c [Hc WC]]. apply (l_running c c' p WC). apply (ob_running _ _ _ _ O c p Hc). destruct (lc_same _ _ WC) as [_ [E _]]. congruence.
  - intros c' Hc'. destruct (l_comp_r c' Hc') as [c [Hc WC]]. exact (l_exclusion c c' Hc' WC (ob_exclusion _ _ _ _ O c Hc)).
  - intros c' Hc'. destruct (l_comp_r c' Hc') as [c [Hc WC]]. exact (l_own c c' WC (ob_own _ _ _ _ O c Hc)).
  - intros a' iv H. destruct (F2_r _ _ _ _ l_investments H) as [[a iv0] [Hi [E HA]]]. cbn [fst snd] in *. subst iv0. exact (l_segments _ _ _ HA (ob_segments _ _ _ _ O a iv Hi)).
  - intros b' Hb'. destruct (l_bus_r b' Hb') as [b [Hb AB]]. exact (l_bus b b' AB (ob_bus _ _ _ _ O b Hb)).
  - intros e' He'. destruct (l_eff_r e' He') as [e [He WE]]. exact (l_effect e e' WE (ob_effect _ _ _ _ O e He)).
  - exact (l_penalty O).
Qed.
End Linked.

Definition swap {A B} (p : A * B) : B * A := (snd p, fst p).
Lemma swap_in : forall {A B} (l : list (A * B)) a b, In (b, a) (map swap l) -> In (a, b) l.
Proof. intros A B l a b H. apply in_map_iff in H. destruct H as [[a0 b0] [E H]]. unfold swap in E. cbn in E. inversion E; subst. exact H. Qed.
Lemma in_swap : forall {A B} (l : list (A * B)) a b, In (a, b) l -> In (b, a) (map swap l).
Proof. intros A B l a b H. apply in_map_iff. exists (a, b). split; [reflexivity|exact H]. Qed.
Lemma linked_flip : forall fs fs' x x' els, linked fs fs' x x' els -> linked fs' fs x' x (map swap els).
Proof.
  intros fs fs' x x' els [[T1 [T2 T3]] E P FE FC].
  assert (LB : forall b b', lbus x x' b b' -> lbus x' x b' b) by (intros b b' [H1 H2 H3]; constructor; [congruence|congruence|intros w t Hw; symmetry; auto]).
  assert (LF : forall c c' f f', lflow x x' els c c' f f' -> lflow x' x (map swap els) c' c f' f).
  { intros c c' f f' [[A1 [A2 A3]] [B1 [B2 [B3 B4]]] C [D1 [D2 [D3 [D4 D5]]]] N]. constructor; auto; [repeat split; congruence..|]. apply in_swap. exact N. }
  split.
  - repeat split; congruence.
  - intros a a' t H. apply swap_in in H. destruct (E a' a t H) as [[E1 E2] [[E3 E4] [E5 E6]]]. repeat split; congruence.
  - congruence.
  - eapply F2_flip; [|exact FE]. intros e e' [[A1 [A2 [A3 [A4 A5]]]] [B1 [B2 [B3 B4]]] [C1 [C2 [C3 C4]]] [D1 [D2 [D3 D4]]] S0]. constructor.
    + repeat split; congruence.
    + repeat split; congruence.
    + repeat split; congruence.
    + split; [intros t; symmetry; apply D1|]. repeat split; congruence.
    + intros a a' H. apply swap_in in H. symmetry. apply S0. exact H.
  - eapply F2_flip; [|exact FC]. intros c c' [[A1 [A2 A3]] FI FO N]. constructor.
    + repeat split; congruence.
    + eapply F2_flip; [|exact FI]. apply LF.
    + eapply F2_flip; [|exact FO]. apply LF.
    + apply in_swap. exact N.
Qed.

Lemma F2_map : forall {A B} (P : A -> B -> Prop) (g : A -> B) l, (forall a, In a l -> P a (g a)) -> Forall2 P l (map g l).
Proof. induction l as [|a l IH]; intros H; [constructor|]. cbn [map]. constructor; [apply H; left; reflexivity|]. apply IH. intros b Hb. apply H. right. exact Hb. Qed.

Section Carry.
Variables (R : renaming) (fs : flow_system).
Notation fs' := (rename_system R fs).
Notation els := (element_names R fs).

Lemma els_comp : forall c, In c (fs_comps fs) -> In (cp_label c, cp_label (rename_comp R c)) els.
Proof. intros c Hc. apply in_flat_map. exists c. split; [exact Hc|left; reflexivity]. Qed.
Lemma els_flow : forall c f, In c (fs_comps fs) -> In f (cp_flows c) -> In (flow_name c f, flow_name (rename_comp R c) (rename_flow R (cp_label c) f)) els.
Proof. intros c f Hc Hf. apply in_flat_map. exists c. split; [exact Hc|right]. apply in_map_iff. exists f. split; [reflexivity|exact Hf]. Qed.

Lemma carried_linked : forall x x', carried R fs x x' -> linked fs fs' x x' els.
Proof.
  intros x x' C. unfold carried, quantity_names in C.
  assert (CE : forall a a' p q t, In (a, a') els -> In (p, q) ([(vlabel a "flow_rate", vlabel a' "flow_rate"); (vlabel a "charge_state", vlabel a' "charge_state");
        (oo a "on", oo a' "on"); (oo a "switchOn", oo a' "switchOn"); (inv a "size", inv a' "size"); (inv a "isInvested", inv a' "isInvested")]
       ++ map (fun e => (vlabel (cat [a; "__"; "SegmentedShares"]) (cat [e_label e; "_segmented"]),
                         vlabel (cat [a'; "__"; "SegmentedShares"]) (cat [e_label (rename_effect R e); "_segmented"]))) (fs_effects fs)) -> x' q t = x p t).
  { intros a a' p q t HA HP. apply C. apply in_app_iff. left. apply in_flat_map. exists (a, a'). split; [exact HA|exact HP]. }
  assert (CB : forall b t, used_bus fs b -> forall w, w = "excess_input" \/ w = "excess_output" -> x' (vlabel (b_lab (rename_bus R b)) w) t = x (vlabel (b_lab b) w) t).
  { intros b t Ub w Hw. apply used_bus_list in Ub. apply C. apply in_app_iff. right. apply in_app_iff. left. apply in_flat_map. exists b. split; [exact Ub|]. cbv zeta. destruct Hw as [-> | ->]; [left; reflexivity|right; left; reflexivity]. }
  assert (CF : forall e p q t, In e (fs_effects fs) -> In (p, q) (let l := e_label e in let l' := e_label (rename_effect R e) in
       [(vlabel (cat [l; "__"; "operation"]) "operation_sum_TS", vlabel (cat [l'; "__"; "operation"]) "operation_sum_TS");
        (vlabel (cat [l; "__"; "operation"]) "operation_sum", vlabel (cat [l'; "__"; "operation"]) "operation_sum");
        (vlabel (cat [l; "__"; "invest"]) "invest_sum", vlabel (cat [l'; "__"; "invest"]) "invest_sum");
        (vlabel (cat [l; "__"; "all"]) "all_sum", vlabel (cat [l'; "__"; "all"]) "all_sum")]) -> x' q t = x p t).
  { intros e p q t He Hp. apply C. do 2 (apply in_app_iff; right). apply in_app_iff. left. apply in_flat_map. exists e. split; [exact He|exact Hp]. }
  assert (LF : forall c f, In c (fs_comps fs) -> In f (cp_flows c) -> lflow x x' els c (rename_comp R c) f (rename_flow R (cp_label c) f)).
  { intros c f Hc Hf. constructor; try (repeat split; reflexivity); [|exact (els_flow c f Hc Hf)]. constructor; [reflexivity|reflexivity|]. intros w t Hw. unfold excess. cbn [rename_flow f_bus rename_bus b_penalty].
    destruct (b_penalty (f_bus f)); [|reflexivity]. apply (CB (f_bus f) t); [exists c, f; auto|exact Hw]. }
  split.
  - repeat split; reflexivity.
  - intros a a' t HA. repeat split; apply (CE a a'); try exact HA; apply in_app_iff; left; cbn; auto 8.
  - unfold penalty_sum. apply C. do 3 (apply in_app_iff; right). left. reflexivity.
  - cbn [fs_effects rename_system]. apply F2_map. intros e He. constructor; try (repeat split; reflexivity).
    + split; [intros t|split; [|split]]; apply (CF e); try exact He; cbn; auto 8.
    + intros a a' HA. unfold seg_cost. apply (CE a a'); [exact HA|]. apply in_app_iff. right. apply in_map_iff. exists e. split; [reflexivity|exact He].
  - cbn [fs_comps rename_system]. apply F2_map. intros c Hc. constructor.
    + repeat split; reflexivity.
    + cbn [rename_comp cp_in]. apply F2_map. intros f Hf. apply LF; [exact Hc|]. unfold cp_flows. apply in_app_iff. left. exact Hf.
    + cbn [rename_comp cp_out]. apply F2_map. intros f Hf. apply LF; [exact Hc|]. unfold cp_flows. apply in_app_iff. right. exact Hf.
    + exact (els_comp c Hc).
Qed.

(** A plan can be carried over in both directions when names stay apart. *)
Definition forward (x : asg) : asg := fun b t => match find (fun p => String.eqb (snd p) b) (quantity_names R fs) with Some p => x (fst p) t | None => 0 end.
Definition backward (y : asg) : asg := fun a t => match find (fun p => String.eqb (fst p) a) (quantity_names R fs) with Some p => y (snd p) t | None => 0 end.
Lemma forward_carried : keeps_apart R fs -> forall x, carried R fs x (forward x).
Proof.
  intros K x a b t H. unfold forward. destruct (find _ _) as [p|] eqn:E.
  - destruct (find_some _ _ E) as [Hp Ep]. apply String.eqb_eq in Ep. f_equal. apply (proj2 (K p (a, b) Hp H)). exact Ep.
  - exfalso. pose proof (find_none _ _ E _ H) as N. cbn in N. rewrite String.eqb_refl in N. discriminate.
Qed.
Lemma backward_carried : keeps_apart R fs -> forall y, carried R fs (backward y) y.
Proof.
  intros K y a b t H. unfold backward. destruct (find _ _) as [p|] eqn:E.
  - destruct (find_some _ _ E) as [Hp Ep]. apply String.eqb_eq in Ep. f_equal. symmetry. apply (proj1 (K p (a, b) Hp H)). exact Ep.
  - exfalso. pose proof (find_none _ _ E _ H) as N. cbn in N. rewrite String.eqb_refl in N. discriminate.
Qed.

(** Sensible data stay sensible. *)
Lemma sized_rename : forall cf c f, sized cf (rename_comp R c) (rename_flow R (cp_label c) f) = sized cf c f.
Proof. intros cf c f. unfold sized. cbn [rename_comp cp_kind cp_in]. destruct (cp_kind c); try reflexivity. destruct (cp_in c) as [|a [|b l]]; reflexivity. Qed.
Lemma flows_rename : forall c, cp_flows (rename_comp R c) = map (rename_flow R (cp_label c)) (cp_flows c).
Proof. intros c. unfold cp_flows. cbn [rename_comp cp_in cp_out]. rewrite map_app. reflexivity. Qed.
Lemma states_rename : forall cf c, comp_states cf (rename_comp R c) = comp_states cf c.
Proof.
  intros cf c. unfold comp_states. rewrite flows_rename. generalize (cp_flows c) as l. intros l.
  assert (FM : filter gives_prev (map (rename_flow R (cp_label c)) l) = map (rename_flow R (cp_label c)) (filter gives_prev l)).
  { induction l as [|f l IH]; [reflexivity|]. cbn [map filter]. change (gives_prev (rename_flow R (cp_label c) f)) with (gives_prev f). destruct (gives_prev f); [cbn [map]; rewrite IH; reflexivity|exact IH]. }
  rewrite FM. destruct (filter gives_prev l) as [|f r]; [reflexivity|]. cbn [map]. change (prior_states cf (rename_flow R (cp_label c) f)) with (prior_states cf f). apply map_ext. intros j.
  change (rename_flow R (cp_label c) f :: map (rename_flow R (cp_label c)) r) with (map (rename_flow R (cp_label c)) (f :: r)). generalize (f :: r). induction l0 as [|g l0 IH]; [reflexivity|]. cbn [map existsb]. rewrite IH. reflexivity.
Qed.
Lemma investment_rename : forall cf a' iv, In (a', iv) (investments cf fs') -> exists a, In (a, iv) (investments cf fs).
Proof.
  intros cf a' iv H. apply in_flat_map in H. destruct H as [c' [Hc' H]]. cbn [fs_comps rename_system] in Hc'. apply in_map_iff in Hc'. destruct Hc' as [c [<- Hc]]. apply in_app_iff in H. destruct H as [H|H].
  - apply in_flat_map in H. destruct H as [f' [Hf' H]]. rewrite flows_rename in Hf'. apply in_map_iff in Hf'. destruct Hf' as [f [<- Hf]]. unfold flow_investment in H. rewrite sized_rename in H.
    destruct (sized cf c f) as [q|iv0] eqn:E; [destruct H|]. destruct H as [H|[]]. inversion H; subst. exists (flow_name c f). apply in_flat_map. exists c. split; [exact Hc|]. apply in_app_iff. left. apply in_flat_map. exists f. split; [exact Hf|].
    unfold flow_investment. rewrite E. left. reflexivity.
  - unfold storage_investment in H. cbn [rename_comp cp_kind cp_label] in H. destruct (cp_kind c) as [ | | |s| ] eqn:E; try destruct H. destruct (st_cap s) as [q|iv0] eqn:E2; [destruct H|]. destruct H as [H|[]]. inversion H; subst.
    exists (cp_label c). apply in_flat_map. exists c. split; [exact Hc|]. apply in_app_iff. right. unfold storage_investment. rewrite E, E2. left. reflexivity.
Qed.
Lemma sensible_rename : forall cf idx, sensible cf fs idx -> distinct_buses fs' -> sensible cf fs' idx.
Proof.
  intros cf idx [S1 S2 S3 S4 S5 S6 S7 [S8 [S9 S10]]] DB.
  assert (CR : forall c', In c' (fs_comps fs') -> exists c, In c (fs_comps fs) /\ c' = rename_comp R c) by (intros c' Hc'; cbn [fs_comps rename_system] in Hc'; apply in_map_iff in Hc'; destruct Hc' as [c [E H]]; eauto).
  assert (FR : forall c f', In f' (cp_flows (rename_comp R c)) -> exists f, In f (cp_flows c) /\ f' = rename_flow R (cp_label c) f) by (intros c f' H; rewrite flows_rename in H; apply in_map_iff in H; destruct H as [f [E H]]; eauto).
  constructor.
  - exact S1.
  - exact S2.
  - exact DB.
  - intros c' Hc'. destruct (CR c' Hc') as [c [Hc ->]]. destruct (S4 c Hc) as [N K]. split; [exact N|]. cbn [rename_comp cp_kind]. destruct (cp_kind c) as [ | | |s|rel abs]; try exact I.
    + destruct K as [l [ch [dis [pr ->]]]]. exists (rn_comp R l), (rename_flow R l ch), (rename_flow R l dis), pr. reflexivity.
    + destruct K as [l [i1 [o1 [i2 [o2 [ob [pr ->]]]]]]]. exists (rn_comp R l), (rename_flow R l i1), (rename_flow R l o1), (option_map (rename_flow R l) i2), (option_map (rename_flow R l) o2), ob, pr.
      destruct i2, o2; reflexivity.
  - intros c' f' Hc' Hf'. destruct (CR c' Hc') as [c [Hc ->]]. destruct (FR c f' Hf') as [f [Hf ->]]. destruct (S5 c f Hc Hf) as [SF CF]. split; [|exact CF]. destruct SF as [P1 [P2 P3]]. split; [exact P1|]. split; [|exact P3].
    intros iv E. rewrite sized_rename in E. exact (P2 iv E).
  - intros c' p Hc' E. destruct (CR c' Hc') as [c [Hc ->]]. destruct (S6 c p Hc E) as [P1 [P2 [P3 P4]]]. split; [exact P1|]. split; [rewrite states_rename; exact P2|]. split.
    + rewrite flows_rename. replace (length (filter gives_number (map (rename_flow R (cp_label c)) (cp_flows c)))) with (length (filter gives_number (cp_flows c))); [exact P3|].
      generalize (cp_flows c) as l. induction l as [|f l IH]; [reflexivity|]. cbn [map filter]. change (gives_number (rename_flow R (cp_label c) f)) with (gives_number f). destruct (gives_number f); cbn [length]; auto.
    + intros f' t Hf' Ht. destruct (FR c f' Hf') as [f [Hf ->]]. rewrite sized_rename. exact (P4 f t Hf Ht).
  - intros c' s iv Hc' K E. destruct (CR c' Hc') as [c [Hc ->]]. exact (S7 c s iv Hc K E).
  - split; [|split].
    + unfold distinct_effects in *. cbn [fs_effects rename_system]. rewrite map_map. exact S8.
    + intros e' i d He' Hd. cbn [fs_effects rename_system] in He'. apply in_map_iff in He'. destruct He' as [e [<- He]]. exact (S9 e i d He Hd).
    + intros a' iv H. destruct (investment_rename _ _ _ H) as [a Ha]. exact (S10 a iv Ha).
Qed.
Lemma ids_rename : (forall c, In c (fs_comps fs) -> NoDup (map f_id (cp_flows c))) -> forall c, In c (fs_comps fs') -> NoDup (map f_id (cp_flows c)).
Proof. intros H c' Hc'. cbn [fs_comps rename_system] in Hc'. apply in_map_iff in Hc'. destruct Hc' as [c [<- Hc]]. rewrite flows_rename, map_map. exact (H c Hc). Qed.

(** Valid data stay valid. *)
Lemma find_std_rename : forall l, find e_std (map (rename_effect R) l) = option_map (rename_effect R) (find e_std l).
Proof. induction l as [|e l IH]; [reflexivity|]. cbn [map find]. change (e_std (rename_effect R e)) with (e_std e). destruct (e_std e); [reflexivity|exact IH]. Qed.
Lemma names_rename : forall k e, names (fs_effects fs') k (rename_effect R e) = names (fs_effects fs) k e.
Proof. intros [i|] e; [reflexivity|]. unfold names. cbn [fs_effects rename_system]. rewrite find_std_rename. destruct (find e_std (fs_effects fs)); reflexivity. Qed.
Lemma means_fwd : forall k e, means fs k e -> means fs' k (rename_effect R e).
Proof. intros k e [H1 H2]. split; [apply in_map; exact H1|rewrite names_rename; exact H2]. Qed.
Lemma means_bwd : forall k e', means fs' k e' -> exists e, means fs k e /\ e' = rename_effect R e.
Proof. intros k e' [H1 H2]. cbn [fs_effects rename_system] in H1. apply in_map_iff in H1. destruct H1 as [e [<- H1]]. rewrite names_rename in H2. exists e. repeat split; assumption. Qed.
Lemma addressed_rename : forall ks, well_addressed fs ks -> well_addressed fs' ks.
Proof.
  intros ks [A B]. split.
  - intros k Hk. destruct (A k Hk) as [e He]. exists (rename_effect R e). apply means_fwd. exact He.
  - clear A. induction B as [|k l H B IH]; [constructor|]. constructor; [|exact IH]. apply Forall_forall. intros k' Hk' e' [M1 M2]. rewrite Forall_forall in H.
    destruct (means_bwd _ _ M1) as [e [M1' E]]. subst e'. apply (H k' Hk' e). split; [exact M1'|]. destruct M2 as [I2 J2]. rewrite names_rename in J2. split; [exact (proj1 M1')|exact J2].
Qed.
Lemma values_rename : forall v, valid_values fs v -> valid_values fs' v.
Proof. intros v [A B]. split; [apply addressed_rename; exact A|exact B]. Qed.
Lemma numbers_rename : forall v, valid_numbers fs v -> valid_numbers fs' v.
Proof. intros v [A B]. split; [apply addressed_rename; exact A|exact B]. Qed.
Lemma onoff_rename : forall p past, valid_onoff fs p past -> valid_onoff fs' p past.
Proof. intros p past [A B C D E]. constructor; [apply values_rename; exact A|apply values_rename; exact B|exact C|exact D|exact E]. Qed.
Lemma invest_rename : forall iv, valid_invest fs iv -> valid_invest fs' iv.
Proof.
  intros iv [A B C D]. constructor; [apply numbers_rename; assumption..|]. intros spts eff E. destruct (D spts eff E) as [D1 [D2 [D3 D4]]]. split; [exact D1|]. split; [exact D2|]. split; [exact D3|].
  intros i l H. destruct (D4 i l H) as [[e M] L]. split; [exists (rename_effect R e); apply means_fwd; exact M|exact L].
Qed.
Lemma past_rename : forall cl l, given_past (map (rename_flow R cl) l) = given_past l.
Proof. intros cl l. unfold given_past. induction l as [|f l IH]; [reflexivity|]. cbn [map flat_map]. rewrite IH. reflexivity. Qed.
Lemma valid_flow_rename : forall cl f, valid_flow fs f -> valid_flow fs' (rename_flow R cl f).
Proof.
  intros cl f [A B C D E]. constructor; [exact A|apply values_rename; exact B|exact C| |].
  - intros p Hp. apply onoff_rename. exact (D p Hp).
  - intros iv Hi. apply invest_rename. exact (E iv Hi).
Qed.
Lemma map_nil : forall {A B} (g : A -> B) l, l <> [] -> map g l <> []. Proof. intros A B g [|a l] H; [contradiction|discriminate]. Qed.
Lemma valid_comp_rename : forall idx c, valid_comp fs idx c -> valid_comp fs' idx (rename_comp R c).
Proof.
  intros idx c [A B C D].
  assert (FR : forall f', In f' (cp_flows (rename_comp R c)) -> exists f, In f (cp_flows c) /\ f' = rename_flow R (cp_label c) f) by (intros f' H; rewrite flows_rename in H; apply in_map_iff in H; destruct H as [f [E H]]; eauto).
  assert (FF : forall f, In f (cp_flows c) -> In (rename_flow R (cp_label c) f) (cp_flows (rename_comp R c))) by (intros f H; rewrite flows_rename; apply in_map; exact H).
  constructor.
  - intros f' Hf'. destruct (FR f' Hf') as [f [Hf ->]]. apply valid_flow_rename. exact (A f Hf).
  - intros p Hp. rewrite flows_rename, past_rename. destruct (B p Hp) as [B1 [B2 B3]]. split; [apply map_nil; exact B1|]. split; [exact B2|]. apply onoff_rename. exact B3.
  - destruct C as [C|[C1 C2]]; [left; exact C|right]. split; [exact C1|]. intros i Hi. destruct (C2 i Hi) as [f [Hf E]]. exists (rename_flow R (cp_label c) f). split; [exact (FF f Hf)|exact E].
  - unfold valid_kind in *. cbn [rename_comp cp_kind]. destruct (cp_kind c) as [|eqs|segs|s|rel abs] eqn:K.
    + exact I.
    + destruct D as [D1 [D2 D3]]. split; [exact D1|]. split; [exact D2|]. intros d Hd. destruct (D3 d Hd) as [f [p [Hf Hp]]]. exists (rename_flow R (cp_label c) f), p. split; [exact (FF f Hf)|exact Hp].
    + destruct D as [D1 [D2 [k [D3 D4]]]]. split; [rewrite flows_rename; apply map_nil; exact D1|]. split; [exact D2|]. exists k. split; [exact D3|]. intros f' Hf'. destruct (FR f' Hf') as [f [Hf ->]]. exact (D4 f Hf).
    + destruct D as [[V1 V2 V3 V4 V5] [ch [dis [D1 D2]]]]. split; [constructor; auto; intros iv E; apply invest_rename; exact (V5 iv E)|]. exists (rename_flow R (cp_label c) ch), (rename_flow R (cp_label c) dis).
      cbn [rename_comp cp_in cp_out]. rewrite D1, D2. split; reflexivity.
    + destruct D as [D1 [D2 [D3 D4]]]. split; [exact D1|]. split; [exact D2|]. split.
      * destruct D3 as [[i [o [E1 E2]]]|[i [i' [o [o' [E1 E2]]]]]]; [left; exists (rename_flow R (cp_label c) i), (rename_flow R (cp_label c) o)|right; exists (rename_flow R (cp_label c) i), (rename_flow R (cp_label c) i'), (rename_flow R (cp_label c) o), (rename_flow R (cp_label c) o')];
          cbn [rename_comp cp_in cp_out]; rewrite E1, E2; split; reflexivity.
      * intros HA f' Hf'. cbn [rename_comp cp_in] in Hf'. apply in_map_iff in Hf'. destruct Hf' as [f [<- Hf]]. intros G. apply (D4 HA f Hf). rewrite <- G. unfold governed, induced. cbn [rename_flow f_onoff f_id rename_comp cp_onoff cp_prevent cp_kind]. rewrite K. reflexivity.
Qed.
Lemma valid_rename : forall idx, valid_data fs idx -> valid_data fs' idx.
Proof.
  intros idx [A B C D E F G H]. constructor; [exact A|exact B| | | | | |].
  - replace (map f_id (flat_map cp_flows (fs_comps fs'))) with (map f_id (flat_map cp_flows (fs_comps fs))); [exact C|]. cbn [fs_comps rename_system]. generalize (fs_comps fs) as l. induction l as [|c l IH]; [reflexivity|].
    cbn [map flat_map]. rewrite !map_app, IH, flows_rename, map_map. reflexivity.
  - cbn [fs_effects rename_system]. rewrite map_map. exact D.
  - intros e' He'. cbn [fs_effects rename_system] in He'. apply in_map_iff in He'. destruct He' as [e [<- He]]. destruct (E e He) as [V1 [V2 V3] [V4 V5]]. constructor; [exact V1| |].
    + split; [exact V2|]. intros k p Hp. destruct (V3 k p Hp) as [[e1 M] P]. split; [exists (rename_effect R e1); apply means_fwd; exact M|exact P].
    + split; [exact V4|]. intros k p Hp. destruct (V5 k p Hp) as [[e1 M] P]. split; [exists (rename_effect R e1); apply means_fwd; exact M|exact P].
  - destruct F as [e [He O]]. exists (rename_effect R e). split; [apply in_map; exact He|exact O].
  - intros c' Hc'. cbn [fs_comps rename_system] in Hc'. apply in_map_iff in Hc'. destruct Hc' as [c [<- Hc]]. apply valid_comp_rename. exact (G c Hc).
  - intros b' [c' [f' [Hc' [Hf' <-]]]]. cbn [fs_comps rename_system] in Hc'. apply in_map_iff in Hc'. destruct Hc' as [c [<- Hc]]. rewrite flows_rename in Hf'. apply in_map_iff in Hf'. destruct Hf' as [f [<- Hf]].
    apply (H (f_bus f)). exists c, f. auto.
Qed.
Lemma used_rename : forall b', used_bus fs' b' -> exists b, used_bus fs b /\ b' = rename_bus R b.
Proof.
  intros b' [c' [f' [Hc' [Hf' <-]]]]. cbn [fs_comps rename_system] in Hc'. apply in_map_iff in Hc'. destruct Hc' as [c [<- Hc]]. rewrite flows_rename in Hf'. apply in_map_iff in Hf'. destruct Hf' as [f [<- Hf]].
  exists (f_bus f). split; [exists c, f; auto|reflexivity].
Qed.
Lemma buses_rename : same_object fs -> well_named fs' -> distinct_buses fs'.
Proof.
  intros O WN. split.
  - intros b b' Hb Hb' E. destruct (used_rename b Hb) as [a [Ha ->]]. destruct (used_rename b' Hb') as [a' [Ha' ->]]. f_equal. apply O; auto.
  - intros b b' Hb Hb' E. destruct (Nat.eq_dec (b_id b) (b_id b')) as [Q0|Q0]; [exact Q0|]. exfalso. destruct (wn_buses _ WN b b' Hb Hb') as [U _]; [intros ->; apply Q0; reflexivity|]. apply U. exact E.
Qed.
End Carry.

Lemma same_plan_refl : forall cf fs idx x, same_plan cf fs idx x x.
Proof. intros cf fs idx x. constructor; intros; repeat split; intros; reflexivity. Qed.

(** ** C81 *)

(** The rules of the elements are the same under the new names. *)
Theorem C81_rules : forall R cf fs idx x y, sensible cf fs idx -> distinct_buses (rename_system R fs) ->
  (forall c, In c (fs_comps fs) -> NoDup (map f_id (cp_flows c))) -> carried R fs x y ->
  (obeys cf fs idx x <-> obeys cf (rename_system R fs) idx y).
Proof.
  intros R cf fs idx x y SE DB IDS C. pose proof (carried_linked R fs x y C) as L. pose proof (se_steps _ _ _ SE) as N.
  assert (N1 : (0 < steps fs idx)%nat) by lia. pose proof (proj1 (se_buses _ _ _ SE)) as O. split; intros H.
  - exact (l_obeys cf fs _ idx x y _ L N1 (ids_rename R fs IDS) O (proj1 DB) H).
  - exact (l_obeys cf _ fs idx y x _ (linked_flip _ _ _ _ _ L) N1 IDS (proj1 DB) O H).
Qed.
Print Assumptions C81_rules.

(** The full claim: a renaming that keeps names apart leaves the system accepted, with the same values of solutions. *)
Definition C81_full : Prop := forall R cf ord fs idx pm, (forall l, Permutation (ord l) l) -> build cf ord fs idx = Ok pm -> valid_data fs idx -> sensible cf fs idx ->
  distinct_buses (rename_system R fs) -> keeps_apart R fs ->
  exists pm', build cf ord (rename_system R fs) idx = Ok pm'
    /\ forall q, (exists x, feasible pm x /\ objective_value pm x == q) <-> (exists y, feasible pm' y /\ objective_value pm' y == q).

(** If names stay apart and the renamed system is accepted, the problem of the renamed system has the same solutions under the new names, with the same
    objective, in both directions. *)
Theorem C81_solutions_partial : forall R cf ord ord' fs idx pm pm', (forall l, Permutation (ord l) l) -> (forall l, Permutation (ord' l) l) ->
  build cf ord fs idx = Ok pm -> build cf ord' (rename_system R fs) idx = Ok pm' -> sensible cf fs idx -> distinct_buses (rename_system R fs) -> keeps_apart R fs ->
  (forall x, feasible pm x -> exists y, feasible pm' y /\ renamed_plan R cf fs idx x y /\ objective_value pm' y == objective_value pm x)
  /\ (forall y, feasible pm' y -> exists x, feasible pm x /\ renamed_plan R cf fs idx x y /\ objective_value pm x == objective_value pm' y).
Proof.
  intros R cf ord ord' fs idx pm pm' PO PO' B B' SE DB K. pose proof (sensible_rename R fs cf idx SE DB) as SE'. pose proof (fun c Hc => comp_ids _ _ _ _ _ c B Hc) as IDS.
  assert (OV : forall x x0 y0 y, same_plan cf fs idx x x0 -> carried R fs x0 y0 -> same_plan cf (rename_system R fs) idx y0 y -> objective_value pm' y == objective_value pm x).
  { intros x x0 y0 y SP C SP'. destruct (C21_objective _ _ _ _ _ x B) as [e [Fe Ox]]. destruct (C21_objective _ _ _ _ _ y B') as [e' [Fe' Oy]].
    assert (WE : leff x0 y0 (element_names R fs) e e').
    { pose proof (lk_effects _ _ _ _ _ (carried_linked R fs x0 y0 C)) as FE. revert Fe Fe'. induction FE as [|a b l l' H FE IH]; [discriminate|]. cbn [find]. destruct (le_same _ _ _ _ _ H) as [_ [_ [-> _]]].
      destruct (e_obj a); [intros E1 E2; inversion E1; inversion E2; subst; exact H|exact IH]. }
    pose proof (same_cost _ _ _ _ _ e SP ltac:(apply find_some in Fe; apply Fe)) as C1. pose proof (same_cost _ _ _ _ _ e' SP' ltac:(apply find_some in Fe'; apply Fe')) as C2.
    unfold plan_cost in C1, C2. rewrite Ox, Oy. rewrite C2, <- C1. destruct (le_tot _ _ _ _ _ WE) as [_ [-> [-> _]]]. rewrite (lk_pen _ _ _ _ _ (carried_linked R fs x0 y0 C)). reflexivity. }
  split.
  - intros x F. pose proof (C57_solutions _ _ _ _ _ _ PO B SE F) as O. pose proof (forward_carried R fs K x) as C.
    destruct (proj1 (C57_plans _ _ _ _ _ _ PO' B' SE') (proj1 (C81_rules R cf fs idx x _ SE DB IDS C) O)) as [y [SP F']].
    assert (SX : same_plan cf fs idx x x) by (apply same_plan_refl). exists y. split; [exact F'|]. split; [exists x, (forward R fs x); auto|]. eapply OV; eassumption.
  - intros y F. pose proof (C57_solutions _ _ _ _ _ _ PO' B' SE' F) as O. pose proof (backward_carried R fs K y) as C.
    destruct (proj1 (C57_plans _ _ _ _ _ _ PO B SE) (proj2 (C81_rules R cf fs idx _ y SE DB IDS C) O)) as [x [SP F']].
    assert (SX : same_plan cf (rename_system R fs) idx y y) by (apply same_plan_refl). apply same_plan_sym in SP. exists x. split; [exact F'|]. split; [exists (backward R fs y), y; auto|]. symmetry. eapply OV; eassumption.
Qed.
Print Assumptions C81_solutions_partial.

(** New labels that are chosen well (PropsTotal.v, C70) never make flixOpt refuse the system, so that for them the two
    problems exist and say the same. *)
Theorem C81_accepted_partial : forall R cf ord ord' fs idx, (forall l, Permutation (ord l) l) -> (forall l, Permutation (ord' l) l) ->
  valid_data fs idx -> sensible cf fs idx -> well_named fs -> well_named (rename_system R fs) -> keeps_apart R fs ->
  exists pm pm', build cf ord fs idx = Ok pm /\ build cf ord' (rename_system R fs) idx = Ok pm'
    /\ (forall q, (exists x, feasible pm x /\ objective_value pm x == q) <-> (exists y, feasible pm' y /\ objective_value pm' y == q)).
Proof.
  intros R cf ord ord' fs idx PO PO' V SE WN WN' K. destruct (C70_accepted_partial cf ord fs idx PO WN V) as [pm B].
  destruct (C70_accepted_partial cf ord' (rename_system R fs) idx PO' WN' (valid_rename R fs idx V)) as [pm' B']. exists pm, pm'. split; [exact B|]. split; [exact B'|].
  destruct (C81_solutions_partial R cf ord ord' fs idx pm pm' PO PO' B B' SE (buses_rename R fs (proj1 (se_buses _ _ _ SE)) WN') K) as [A1 A2]. intros q. split; intros [x [F Q0]].
  - destruct (A1 x F) as [y [F' [_ E]]]. exists y. split; [exact F'|]. rewrite E. exact Q0.
  - destruct (A2 x F) as [y [F' [_ E]]]. exists y. split; [exact F'|]. rewrite E. exact Q0.
Qed.
Print Assumptions C81_accepted_partial.

(** Every label of the first and second example system changed. *)
Definition new_labels : renaming :=
  mkRen (fun l => cat ["Unit."; l]) (fun c l => if String.eqb c "Storage" then cat [l; "."; l] else cat ["port."; l]) (fun l => cat ["Net."; l]) (fun l => cat ["sum."; l]).
Definition apart_b (l : list (string * string)) : bool :=
  forallb (fun p => forallb (fun q : string * string => Bool.eqb (String.eqb (fst p) (fst q)) (String.eqb (snd p) (snd q))) l) l.
Lemma apart_b_ok : forall R fs, apart_b (quantity_names R fs) = true -> keeps_apart R fs.
Proof.
  intros R fs H p q Hp Hq. unfold apart_b in H. rewrite forallb_forall in H. specialize (H p Hp). rewrite forallb_forall in H. specialize (H q Hq). apply Bool.eqb_prop in H.
  rewrite <- !String.eqb_eq, H. reflexivity.
Qed.
Example C81_applies : exists pm pm', build default_config id_ord fs0 None = Ok pm /\ build default_config id_ord (rename_system new_labels fs0) None = Ok pm'
  /\ sensible default_config fs0 None /\ distinct_buses (rename_system new_labels fs0) /\ keeps_apart new_labels fs0 /\ (exists x, feasible pm x)
  /\ map cp_label (fs_comps (rename_system new_labels fs0)) <> map cp_label (fs_comps fs0).
Proof.
  destruct x0_feasible as [pm [B F]]. destruct (build default_config id_ord (rename_system new_labels fs0) None) as [pm'|e] eqn:B'; [|vm_compute in B'; discriminate B'].
  exists pm, pm'. split; [exact B|]. split; [reflexivity|]. split; [exact sensible_0|]. split; [buses|]. split; [apply apart_b_ok; vm_compute; reflexivity|]. split; [exists x0; exact F|]. discriminate.
Qed.
Example C81_applies_1 : exists pm pm', build default_config id_ord fs1 idx1 = Ok pm /\ build default_config id_ord (rename_system new_labels fs1) idx1 = Ok pm'
  /\ sensible default_config fs1 idx1 /\ distinct_buses (rename_system new_labels fs1) /\ keeps_apart new_labels fs1 /\ (exists x, feasible pm x).
Proof.
  destruct x1_feasible as [pm [B F]]. destruct (build default_config id_ord (rename_system new_labels fs1) idx1) as [pm'|e] eqn:B'; [|vm_compute in B'; discriminate B'].
  exists pm, pm'. split; [exact B|]. split; [reflexivity|]. split; [exact sensible_1|]. split; [buses|]. split; [apply apart_b_ok; vm_compute; reflexivity|]. exists x1. exact F.
Qed.

Example C81_accepted_applies : valid_data fs1 idx1 /\ sensible default_config fs1 idx1 /\ well_named fs1 /\ well_named (rename_system new_labels fs1) /\ keeps_apart new_labels fs1.
Proof.
  destruct C70_applies as [_ [[A B] _]]. split; [exact B|]. split; [exact sensible_1|]. split; [exact A|]. split; [|apply apart_b_ok; vm_compute; reflexivity].
  assert (U : forall b, used_bus (rename_system new_labels fs1) b -> In b (map (rename_bus new_labels) [gas; heat; el; el2])).
  { intros b Hb. destruct (used_rename _ _ _ Hb) as [a [Ha ->]]. apply in_map. clear Hb. revert a Ha. all_buses. }
  apply (named_b_ok _ _ U). vm_compute. reflexivity.
Qed.

(** Not every renaming is harmless: calling the second of two storages "Tank_initial", next to the storage "Tank", leaves all
    names of quantities apart, but the system is refused. *)
Definition unlucky : renaming := mkRen (fun l => if String.eqb l "Tank2" then "Tank_initial"%string else l) (fun _ l => l) (fun l => l) (fun l => l).
Theorem C81_refuted : ~ C81_full.
Proof.
  intros H. destruct C70_other_label as [pm B]. assert (U : forall b, used_bus (fs_tanks "Tank2") b -> In b [heat]) by all_buses.
  destruct (H unlucky default_config id_ord (fs_tanks "Tank2") None pm) as [pm' [B' _]].
  - exact id_ord_perm.
  - exact B.
  - apply (valid_b_ok _ _ _ U). vm_compute. reflexivity.
  - apply sensible_check; [vm_compute; reflexivity|buses|]. intros c Hc. cbn [fs_tanks fs_comps In] in Hc.
    assert (ND : forall a b : nat, a <> b -> NoDup [a; b]) by (intros a b D; constructor; [intros [E|[]]; congruence|constructor; [intros []|constructor]]).
    destruct Hc as [<-|[<-|[<-|[]]]]; (split; [cbn [tank storage_ fl cp_prevent f_id Library.source]; first [apply ND; discriminate|constructor]|]).
    + exact I.
    + exists "Tank"%string, (fl 302 "ch" heat 10), (fl 303 "dis" heat 10), true. reflexivity.
    + exists "Tank2"%string, (fl 304 "ch" heat 10), (fl 305 "dis" heat 10), true. reflexivity.
  - buses.
  - apply apart_b_ok. vm_compute. reflexivity.
  - assert (E : build default_config id_ord (rename_system unlucky (fs_tanks "Tank2")) None = Err KeyError) by (vm_compute; reflexivity). rewrite E in B'. discriminate B'.
Qed.
Print Assumptions C81_refuted.
