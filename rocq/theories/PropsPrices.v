(** Claim C90: what a change of prices does to the optimum. The same plans stay possible, each of them becomes more expensive by exactly the change of
    prices times what it uses, and so the best plan reacts to prices the way economists expect: what becomes more expensive is not used more. In
    general this is wrong, because costs can themselves be limited from below. *)
From Coq Require Import Permutation.
From Verif Require Import Base BaseFacts MathModel Spec Structure Params Features Elements Library System SysSpec AdmitSpec CtxFacts NavFacts PropsOnOff PropsComp PropsEffects PlanSpec
     Example TotalInvest PlanComp PlanSame PlanSys PlanCheck ExamplePoints AggFacts SegWitness PropsPlan PropsRelax PropsSameData ValidSpec ValidCheck PropsTotal PropsRename PropsParts PropsUnits PropsSegWorse.

(** ** Specification *)

(** The system [fs], with new effects per flow hour: [P f] instead of what flow [f] had. *)
Section Reprice.
Variable P : flow -> evalues.
Definition p_flow (f : flow) : flow :=
  mkFlow (f_id f) (f_lab f) (f_bus f) (f_size f) (f_profile f) (f_relmin f) (f_relmax f) (P f) (f_onoff f) (f_fh_max f) (f_fh_min f) (f_lf_min f) (f_lf_max f) (f_prev f).
Definition p_comp (c : component) : component := mkComponent (cp_label c) (map p_flow (cp_in c)) (map p_flow (cp_out c)) (cp_onoff c) (cp_prevent c) (cp_kind c).
Definition repriced (fs : flow_system) : flow_system := mkFS (fs_times fs) (fs_end fs) (fs_prev_dt fs) (fs_effects fs) (map p_comp (fs_comps fs)).
End Reprice.

(** How much more of effect [e] one hour of flow [f] causes in step [t] at the new prices, and how much more of it the plan [x] causes altogether. *)
Definition rise (P : flow -> evalues) (fs : flow_system) (idx : option (list nat)) (e : effect) (f : flow) (t : nat) : Q :=
  cost (fs_effects fs) idx (P f) e t - cost (fs_effects fs) idx (f_effects f) e t.
Definition extra_at (P : flow -> evalues) (fs : flow_system) (idx : option (list nat)) (e : effect) (x : asg) (t : nat) : Q :=
  Qsum (map (fun c => Qsum (map (fun f => rise P fs idx e f t * rate_of x c f t * hours fs idx t) (cp_flows c))) (fs_comps fs)).
Definition extra (P : flow -> evalues) (fs : flow_system) (idx : option (list nat)) (e : effect) (x : asg) : Q := sumn (steps fs idx) (extra_at P fs idx e x).

(** Only prices in terms of [o] change: all other effects of a flow hour stay as they are. *)
Definition only_changes (P : flow -> evalues) (fs : flow_system) (idx : option (list nat)) (o : effect) : Prop :=
  forall e c f t, In e (fs_effects fs) -> e_id e <> e_id o -> In c (fs_comps fs) -> In f (cp_flows c) -> (t < steps fs idx)%nat -> rise P fs idx e f t == 0.
(** No limit depends on how much of [o] operation causes, and nothing is derived from it. *)
Definition unbounded (o : effect) : Prop :=
  (e_min_op o = None /\ e_max_op o = None) /\ (e_min_tot o = None /\ e_max_tot o = None) /\ (e_min_ph o = None /\ e_max_ph o = None) /\ e_share_op o = [].

Definition best_of (pm : pmodel) (x : asg) : Prop := feasible pm x /\ forall y, feasible pm y -> objective_value pm x <= objective_value pm y.

(** ** Parts of a plan do not depend on prices *)
Section Parts.
Variables (P : flow -> evalues) (cf : config) (fs : flow_system) (idx : option (list nat)).
Notation fs' := (repriced P fs).
Notation uf := (p_flow P).
Notation uc := (p_comp P).

Lemma p_flows : forall c, cp_flows (uc c) = map uf (cp_flows c). Proof. intros c. unfold cp_flows. cbn [p_comp cp_in cp_out]. rewrite map_app. reflexivity. Qed.
Lemma p_governed : forall c f, governed fs' idx (uc c) (uf f) = governed fs idx c f. Proof. reflexivity. Qed.
Lemma p_sized : forall c f, sized cf (uc c) (uf f) = sized cf c f.
Proof.
  intros c f. unfold sized. cbn [p_comp cp_kind cp_in p_flow f_size f_id]. destruct (cp_kind c); try reflexivity. destruct (cp_in c) as [|i1 [|i2 r]]; reflexivity.
Qed.
Lemma p_size_of : forall x c f, size_of cf x (uc c) (uf f) = size_of cf x c f.
Proof. intros x c f. unfold size_of. rewrite p_sized. reflexivity. Qed.
Hypothesis N1 : (0 < steps fs idx)%nat.
Lemma p_flow_rule : forall x c f, flow_rule cf fs' idx x (uc c) (uf f) <-> flow_rule cf fs idx x c f.
Proof.
  intros x c f. pose proof (p_sized c f) as SZ. pose proof (p_size_of x c f) as SO. split; intros [AL M].
  - split; [|exact M]. apply (allowed_transfer cf fs' fs idx x x (uc c) c (uf f) f); try reflexivity; try (repeat split; reflexivity); try assumption.
    + intros o E. exists o. split; [exact E|]. auto.
    + rewrite SZ. reflexivity.
    + intros iv E. exists iv. rewrite SZ. auto.
    + symmetry. exact SO.
  - split; [|exact M]. apply (allowed_transfer cf fs fs' idx x x c (uc c) f (uf f)); try reflexivity; try (repeat split; reflexivity); try assumption.
    + intros o E. exists o. split; [exact E|]. auto.
    + rewrite SZ. reflexivity.
    + intros iv E. exists iv. rewrite SZ in E. auto.
Qed.
Lemma p_states : forall c, comp_states cf (uc c) = comp_states cf c.
Proof.
  intros c. unfold comp_states. rewrite p_flows. generalize (cp_flows c) as l. intros l.
  assert (FM : filter gives_prev (map uf l) = map uf (filter gives_prev l)).
  { induction l as [|f l IH]; [reflexivity|]. cbn [map filter]. change (gives_prev (uf f)) with (gives_prev f). destruct (gives_prev f); [cbn [map]; rewrite IH; reflexivity|exact IH]. }
  rewrite FM. destruct (filter gives_prev l) as [|f r]; [reflexivity|]. cbn [map]. change (prior_states cf (uf f)) with (prior_states cf f). apply map_ext. intros j.
  change (uf f :: map uf r) with (map uf (f :: r)). generalize (f :: r). induction l0 as [|g l0 IH]; [reflexivity|]. cbn [map existsb]. rewrite IH. reflexivity.
Qed.
Lemma p_all : forall c (Q0 : flow -> Prop), (forall f', In f' (cp_flows (uc c)) -> Q0 f') <-> (forall f, In f (cp_flows c) -> Q0 (uf f)).
Proof.
  intros c Q0. rewrite p_flows. split; intros H; [intros f Hf; apply H, in_map, Hf|]. intros f' Hf'. apply in_map_iff in Hf'. destruct Hf' as [f [<- Hf]]. auto.
Qed.
Lemma p_idle : forall x c t, (forall f, In f (cp_flows (uc c)) -> rate_of x (uc c) f t == 0) <-> (forall f, In f (cp_flows c) -> rate_of x c f t == 0).
Proof. intros x c t. exact (p_all c (fun f => rate_of x (uc c) f t == 0)). Qed.
Lemma p_running : forall x c p, running_rule cf fs' idx x (uc c) p <-> running_rule cf fs idx x c p.
Proof.
  intros x c p. unfold running_rule. rewrite p_states. change (steps fs' idx) with (steps fs idx). change (cp_label (uc c)) with (cp_label c).
  assert (A : (forall t, (t < steps fs idx)%nat -> (x (oo (cp_label c) "on") t == 0 <-> (forall f, In f (cp_flows (uc c)) -> rate_of x (uc c) f t == 0)))
     <-> (forall t, (t < steps fs idx)%nat -> (x (oo (cp_label c) "on") t == 0 <-> (forall f, In f (cp_flows c) -> rate_of x c f t == 0)))).
  { split; intros H t Ht; specialize (H t Ht); [rewrite <- (p_idle x c t)|rewrite (p_idle x c t)]; exact H. }
  rewrite A. reflexivity.
Qed.
Hypothesis IDS : forall c, In c (fs_comps fs) -> NoDup (map f_id (cp_flows c)).
Lemma p_exclusion : forall x c, In c (fs_comps fs) -> (exclusion_rule fs' idx x (uc c) <-> exclusion_rule fs idx x c).
Proof.
  intros x c Hc. split; intros EX.
  - intros f g t Hf Hg NE Pf Pg Ht. change (rate_of x c f t) with (rate_of x (uc c) (uf f) t). change (rate_of x c g t) with (rate_of x (uc c) (uf g) t). apply EX; auto; try (rewrite p_flows; apply in_map; assumption).
    intros E. apply NE. apply (NoDup_map_eq_ f_id (cp_flows c)); auto. change (f_id f) with (f_id (uf f)). rewrite E. reflexivity.
  - intros f' g' t Hf' Hg' NE Pf Pg Ht. rewrite p_flows in Hf', Hg'. apply in_map_iff in Hf', Hg'. destruct Hf' as [f [<- Hf]]. destruct Hg' as [g [<- Hg]].
    apply (EX f g t); auto. intros E. apply NE. rewrite E. reflexivity.
Qed.
Lemma p_weighted : forall x c fac l t, weighted idx x (uc c) fac (map uf l) t = weighted idx x c fac l t.
Proof. intros x c fac l t. unfold weighted. rewrite map_map. reflexivity. Qed.
Lemma p_segmented : forall x c segs, segmented_rule fs' idx x (uc c) segs <-> segmented_rule fs idx x c segs.
Proof.
  intros x c segs. unfold segmented_rule. change (steps fs' idx) with (steps fs idx). change (cp_label (uc c)) with (cp_label c).
  assert (PP : forall k w t, (forall f, In f (cp_flows (uc c)) -> exists ab, nth_error (segments_of segs f) k = Some ab /\ on_piece idx x (uc c) f t w ab)
     <-> (forall f, In f (cp_flows c) -> exists ab, nth_error (segments_of segs f) k = Some ab /\ on_piece idx x c f t w ab)).
  { intros k w t. exact (p_all c (fun f => exists ab, nth_error (segments_of segs f) k = Some ab /\ on_piece idx x (uc c) f t w ab)). }
  split; intros H t Ht; destruct (H t Ht) as [[k [w [W0 [W1 [Q0 Q1]]]]]|[Q0 [Z Rt]]].
  - left. exists k, w. split; [exact W0|]. split; [exact W1|]. split; [apply PP, Q0|exact Q1].
  - right. rewrite <- (p_idle x c t). auto.
  - left. exists k, w. split; [exact W0|]. split; [exact W1|]. split; [apply PP, Q0|exact Q1].
  - right. rewrite (p_idle x c t). auto.
Qed.
Lemma p_transmission : forall x c rel abs in1 out1 in2 out2,
  transmission_rule cf fs' idx x (uc c) rel abs (uf in1) (uf out1) (option_map uf in2) (option_map uf out2) <-> transmission_rule cf fs idx x c rel abs in1 out1 in2 out2.
Proof.
  intros x c rel abs in1 out1 in2 out2. unfold transmission_rule. destruct in2 as [i2|], out2 as [o2|]; try reflexivity. cbn [option_map]. rewrite !p_size_of. reflexivity.
Qed.
Lemma p_opt : forall l o', map uf l = opt_flow o' -> exists o, l = opt_flow o /\ o' = option_map uf o.
Proof. intros [|f [|g r]] [f'|] E; cbn in E; try discriminate E; [exists None; auto|]. injection E as <-. exists (Some f). auto. Qed.
Lemma p_own : forall x c, own_rule cf fs' idx x (uc c) <-> own_rule cf fs idx x c.
Proof.
  intros x c. unfold own_rule. change (cp_kind (uc c)) with (cp_kind c). change (cp_in (uc c)) with (map uf (cp_in c)). change (cp_out (uc c)) with (map uf (cp_out c)).
  destruct (cp_kind c) as [|eqs|segs|s|rel abs].
  - reflexivity.
  - split; intros H fac t Hf Ht; specialize (H fac t Hf Ht); rewrite !p_weighted in *; exact H.
  - exact (p_segmented x c segs).
  - split; intros H ch dis EI EO.
    + apply (H (uf ch) (uf dis)); [rewrite EI|rewrite EO]; reflexivity.
    + destruct (cp_in c) as [|ch0 [|? ?]] eqn:I0; try discriminate EI. destruct (cp_out c) as [|dis0 [|? ?]] eqn:O0; try discriminate EO. cbn [map] in EI, EO. injection EI as <-. injection EO as <-.
      apply (H ch0 dis0); reflexivity.
  - split; intros H in1 out1 in2 out2 EI EO.
    + apply (p_transmission x c rel abs in1 out1 in2 out2). apply H; [rewrite EI|rewrite EO]; [destruct in2|destruct out2]; reflexivity.
    + destruct (cp_in c) as [|i1 ri] eqn:I0; [discriminate EI|]. destruct (cp_out c) as [|o1 ro] eqn:O0; [discriminate EO|]. cbn [map] in EI, EO. injection EI as <- EI. injection EO as <- EO.
      destruct (p_opt _ _ EI) as [i2 [-> ->]]. destruct (p_opt _ _ EO) as [o2 [-> ->]]. apply (p_transmission x c rel abs i1 o1 i2 o2). apply H; reflexivity.
Qed.
Lemma p_investments : investments cf fs' = investments cf fs.
Proof.
  unfold investments. change (fs_comps fs') with (map uc (fs_comps fs)). generalize (fs_comps fs). induction l as [|c l IH]; [reflexivity|]. cbn [map flat_map]. rewrite IH. f_equal.
  f_equal. rewrite p_flows. generalize (cp_flows c). induction l0 as [|f l0 IH0]; [reflexivity|]. cbn [map flat_map]. rewrite IH0. f_equal. unfold flow_investment. rewrite p_sized. reflexivity.
Qed.
Lemma p_used : forall b, used_bus fs' b <-> used_bus fs b.
Proof.
  intros b. split.
  - intros [c' [f' [Hc [Hf <-]]]]. change (fs_comps fs') with (map uc (fs_comps fs)) in Hc. apply in_map_iff in Hc. destruct Hc as [c [<- Hc]]. rewrite p_flows in Hf. apply in_map_iff in Hf. destruct Hf as [f [<- Hf]].
    exists c, f. auto.
  - intros [c [f [Hc [Hf <-]]]]. exists (uc c), (uf f). split; [apply in_map, Hc|]. split; [rewrite p_flows; apply in_map, Hf|reflexivity].
Qed.
Lemma p_sums : forall x b t, delivered fs' x b t = delivered fs x b t /\ taken fs' x b t = taken fs x b t.
Proof.
  intros x b t. assert (F : forall l, filter (connected b) (map uf l) = map uf (filter (connected b) l)).
  { induction l as [|f l IH]; [reflexivity|]. cbn [map filter]. change (connected b (uf f)) with (connected b f). rewrite IH. destruct (connected b f); reflexivity. }
  unfold delivered, taken. change (fs_comps fs') with (map uc (fs_comps fs)). rewrite !map_map. split; f_equal; apply map_ext_in; intros c Hc.
  - change (cp_out (uc c)) with (map uf (cp_out c)). rewrite F, map_map. reflexivity.
  - change (cp_in (uc c)) with (map uf (cp_in c)). rewrite F, map_map. reflexivity.
Qed.
Lemma p_bus_rule : forall x b, bus_rule fs' idx x b <-> bus_rule fs idx x b.
Proof. intros x b. split; intros H t Ht; specialize (H t Ht); destruct (p_sums x b t) as [E1 E2]; rewrite E1, E2 in *; exact H. Qed.
Lemma p_parts : forall x, obeys_parts cf idx fs' x <-> obeys_parts cf idx fs x.
Proof.
  intros x. unfold obeys_parts. rewrite p_investments. split; intros [O1 [O2 [O3 [O4 [O5 O6]]]]].
  - split; [intros c f Hc Hf; apply p_flow_rule, O1; [apply in_map, Hc|rewrite p_flows; apply in_map, Hf]|]. split; [intros c p Hc E; apply p_running, O2; [apply in_map, Hc|exact E]|].
    split; [intros c Hc; apply p_exclusion, O3; [exact Hc|apply in_map, Hc]|]. split; [intros c Hc; apply p_own, O4, in_map, Hc|]. split; [exact O5|]. intros b Ub. apply p_bus_rule, O6, p_used, Ub.
  - assert (IC : forall c', In c' (fs_comps fs') -> exists c, c' = uc c /\ In c (fs_comps fs)).
    { intros c' Hc'. apply in_map_iff in Hc'. destruct Hc' as [c [<- Hc]]. eauto. }
    split; [intros c' f' Hc' Hf'; destruct (IC c' Hc') as [c [-> Hc]]; rewrite p_flows in Hf'; apply in_map_iff in Hf'; destruct Hf' as [f [<- Hf]]; apply p_flow_rule; auto|].
    split; [intros c' p Hc' E; destruct (IC c' Hc') as [c [-> Hc]]; apply p_running; auto|]. split; [intros c' Hc'; destruct (IC c' Hc') as [c [-> Hc]]; apply p_exclusion; auto|].
    split; [intros c' Hc'; destruct (IC c' Hc') as [c [-> Hc]]; apply p_own; auto|]. split; [exact O5|]. intros b Ub. apply p_bus_rule, O6, p_used, Ub.
Qed.

(** What elements cost. *)
Lemma p_onoff_costs : forall x nm p e t, onoff_costs fs' idx x nm p e t = onoff_costs fs idx x nm p e t. Proof. reflexivity. Qed.
Lemma p_comp_costs : forall x c e t, comp_costs fs' idx x (uc c) e t
  == comp_costs fs idx x c e t + Qsum (map (fun f => rise P fs idx e f t * rate_of x c f t * hours fs idx t) (cp_flows c)).
Proof.
  intros x c e t. unfold comp_costs. rewrite p_flows, map_map. change (cp_onoff (uc c)) with (cp_onoff c). change (cp_label (uc c)) with (cp_label c).
  assert (S1 : Qsum (map (fun f => flow_costs fs' idx x (uc c) (uf f) e t) (cp_flows c))
     == Qsum (map (fun f => flow_costs fs idx x c f e t) (cp_flows c)) + Qsum (map (fun f => rise P fs idx e f t * rate_of x c f t * hours fs idx t) (cp_flows c))).
  { rewrite <- Qsum_plus. apply Qsum_map_eq. intros f _. unfold flow_costs, rise. rewrite p_governed. change (f_effects (uf f)) with (P f). change (hours fs' idx t) with (hours fs idx t).
    change (rate_of x (uc c) (uf f) t) with (rate_of x c f t). change (fs_effects fs') with (fs_effects fs). change (flow_name (uc c) (uf f)) with (flow_name c f).
    destruct (governed fs idx c f) as [p|]; [rewrite p_onoff_costs|]; ring. }
  rewrite S1. destruct (cp_onoff c) as [p|]; [rewrite p_onoff_costs|]; ring.
Qed.
Lemma p_costs : forall x e t, Qsum (map (fun c => comp_costs fs' idx x c e t) (fs_comps fs')) == Qsum (map (fun c => comp_costs fs idx x c e t) (fs_comps fs)) + extra_at P fs idx e x t.
Proof.
  intros x e t. unfold extra_at. change (fs_comps fs') with (map uc (fs_comps fs)). rewrite map_map, <- Qsum_plus. apply Qsum_map_eq. intros c _. apply p_comp_costs.
Qed.
Lemma p_same_parts : forall x y, same_parts cf fs' idx x y <-> same_parts cf fs idx x y.
Proof.
  assert (IC : forall c', In c' (fs_comps fs') -> exists c, c' = uc c /\ In c (fs_comps fs)).
  { intros c' Hc'. apply in_map_iff in Hc'. destruct Hc' as [c [<- Hc]]. eauto. }
  assert (IF : forall c f', In f' (cp_flows (uc c)) -> exists f, f' = uf f /\ In f (cp_flows c)).
  { intros c f' Hf'. rewrite p_flows in Hf'. apply in_map_iff in Hf'. destruct Hf' as [f [<- Hf]]. eauto. }
  assert (CI : forall c, In c (fs_comps fs) -> In (uc c) (fs_comps fs')) by (intros c; apply in_map).
  assert (FI : forall c f, In f (cp_flows c) -> In (uf f) (cp_flows (uc c))) by (intros c f H; rewrite p_flows; apply in_map, H).
  intros x y. split; intros [A1 A2 A3 A4 A5 A6]; rewrite ?p_investments in *.
  - constructor; try assumption.
    + intros c f t Hc Hf. exact (A1 (uc c) (uf f) t (CI c Hc) (FI c f Hf)).
    + intros c f t Hc Hf. exact (A2 (uc c) (uf f) t (CI c Hc) (FI c f Hf)).
    + intros c t Hc. exact (A3 (uc c) t (CI c Hc)).
    + intros c s t Hc. exact (A5 (uc c) s t (CI c Hc)).
    + intros b t Ub. apply A6, p_used, Ub.
  - constructor; rewrite ?p_investments; try assumption.
    + intros c' f' t Hc' Hf'. destruct (IC c' Hc') as [c [-> Hc]]. destruct (IF c f' Hf') as [f [-> Hf]]. exact (A1 c f t Hc Hf).
    + intros c' f' t Hc' Hf'. destruct (IC c' Hc') as [c [-> Hc]]. destruct (IF c f' Hf') as [f [-> Hf]]. exact (A2 c f t Hc Hf).
    + intros c' t Hc'. destruct (IC c' Hc') as [c [-> Hc]]. exact (A3 c t Hc).
    + intros c' s t Hc'. destruct (IC c' Hc') as [c [-> Hc]]. exact (A5 c s t Hc).
    + intros b t Ub. apply A6, p_used, Ub.
Qed.
Lemma p_bus_price : forall x b, bus_price fs' idx x b = bus_price fs idx x b. Proof. reflexivity. Qed.
Lemma p_own_names : own_names fs' = own_names fs.
Proof.
  unfold own_names. change (fs_effects fs') with (fs_effects fs). change (fs_comps fs') with (map uc (fs_comps fs)).
  assert (L : flat_map (fun c => cp_label c :: map (flow_name c) (cp_flows c)) (map uc (fs_comps fs)) = flat_map (fun c => cp_label c :: map (flow_name c) (cp_flows c)) (fs_comps fs)).
  { generalize (fs_comps fs). induction l as [|c l IH]; [reflexivity|]. cbn [map flat_map]. rewrite IH, p_flows, map_map. reflexivity. }
  rewrite L. f_equal. f_equal. unfold bus_list. change (fs_comps fs') with (map uc (fs_comps fs)). generalize (fs_comps fs). induction l as [|c l IH]; [reflexivity|]. cbn [map flat_map]. rewrite IH, p_flows, map_map. reflexivity.
Qed.
Lemma p_apart : totals_apart fs' <-> totals_apart fs.
Proof. unfold totals_apart. rewrite p_own_names. reflexivity. Qed.
End Parts.

(** ** From one system to another that differs in the operational amounts of one effect *)
Section Shift.
Variables (cf : config) (idx : option (list nat)) (A B : flow_system) (o : effect) (D : asg -> nat -> Q).
Hypothesis EF : fs_effects B = fs_effects A.
Hypothesis ST : steps B idx = steps A idx.
Hypothesis HR : forall t, hours B idx t = hours A idx t.
Hypothesis IV : investments cf B = investments cf A.
Hypothesis US : forall b, used_bus B b <-> used_bus A b.
Hypothesis PA : forall x, obeys_parts cf idx A x -> obeys_parts cf idx B x.
Hypothesis CO : forall x e t, In e (fs_effects A) -> (t < steps A idx)%nat -> Qsum (map (fun c => comp_costs B idx x c e t) (fs_comps B))
   == Qsum (map (fun c => comp_costs A idx x c e t) (fs_comps A)) + (if Nat.eqb (e_id e) (e_id o) then D x t else 0).
Hypothesis IO : In o (fs_effects A).
Hypothesis DE : distinct_effects A.
Hypothesis UB : unbounded o.
Hypothesis TA : totals_apart B.
Hypothesis N1 : (1 <= steps A idx)%nat.
Hypothesis TG : forall c rel p f, In c (fs_comps B) -> cp_kind c = TransmissionC rel (Some p) -> In f (cp_in c) -> governed B idx c f <> None.
Local Notation n := (steps A idx).

Lemma only_one : forall e, In e (fs_effects A) -> Nat.eqb (e_id e) (e_id o) = true -> e = o.
Proof. intros e He H. apply Nat.eqb_eq in H. apply (NoDup_map_eq_ e_id (fs_effects A)); auto. Qed.
Lemma price_shift : forall x b, bus_price B idx x b == bus_price A idx x b.
Proof.
  intros x b. unfold bus_price. rewrite ST. destruct (b_penalty b); [|reflexivity]. apply sumn_ext. intros t _. rewrite HR. reflexivity.
Qed.
Lemma shifted : forall x, obeys cf A idx x -> exists y, same_parts cf B idx x y /\ obeys cf B idx y /\ plan_cost y o == plan_cost x o + sumn n (D x).
Proof.
  intros x O. destruct TA as [NB NT].
  set (d e := fun t => if Nat.eqb (e_id e) (e_id o) then D x t else 0).
  set (op e t := op_at x e t + d e t). set (ops e := op_sum x e + sumn n (d e)). set (alls e := all_sum x e + sumn n (d e)).
  set (y := given (totals_table B op ops (inv_sum x) alls (penalty_sum x)) x). exists y.
  destruct (totals_known B op ops (inv_sum x) alls (penalty_sum x) x NT) as [R PE]. fold y in R, PE. rewrite EF in R.
  assert (SP : same_parts cf B idx x y).
  { apply agree_same. intros l t Hl. unfold y. rewrite given_out; [reflexivity|]. rewrite totals_fst. auto. }
  assert (dz : forall e t, Nat.eqb (e_id e) (e_id o) = false -> d e t = 0%Q) by (intros e t H; unfold d; rewrite H; reflexivity).
  assert (dzs : forall e, Nat.eqb (e_id e) (e_id o) = false -> sumn n (d e) == 0) by (intros e H; apply sumn_none; intros t _; rewrite dz by exact H; reflexivity).
  split; [exact SP|]. split.
  2:{ destruct (R o IO) as [_ [R2 [R3 _]]]. unfold plan_cost. rewrite R2, R3, PE. unfold ops, d. rewrite Nat.eqb_refl. change (fun t => D x t) with (D x). ring. }
  destruct (parts_same cf idx B x y SP ltac:(rewrite ST; exact N1) TG (PA x (obeys_obeys_parts _ _ _ _ O))) as [O1 [O2 [O3 [O4 [O5 O6]]]]]. constructor; auto.
  - rewrite EF. intros e He. destruct (R e He) as [R1 [R2 [R3 R4]]]. destruct (ob_effect _ _ _ _ O e He) as [E1 [E2 [E3 [E4 [E5 [E6 [E7 [E8 [E9 [E10 E11]]]]]]]]]].
    assert (FR : forall t, op_from_effects B idx y e t == op_from_effects A idx x e t).
    { intros t. unfold op_from_effects. rewrite EF. apply Qsum_map_eq. intros e' He'. apply Qsum_map_eq. intros kd Hkd. rewrite (proj1 (R e' He') t). unfold op.
      destruct (Nat.eqb (e_id e') (e_id o)) eqn:Q0; [rewrite (only_one e' He' Q0) in Hkd; destruct UB as [_ [_ [_ E0]]]; rewrite E0 in Hkd; destruct Hkd|].
      rewrite (dz e' t Q0). destruct (Nat.eqb (fst kd) (e_id e)); [|reflexivity]. rewrite Qplus_0_r. reflexivity. }
    assert (FI : inv_from_effects B y e == inv_from_effects A x e).
    { unfold inv_from_effects. rewrite EF. apply Qsum_map_eq. intros e' He'. apply Qsum_map_eq. intros kd Hkd. rewrite (proj1 (proj2 (proj2 (R e' He')))). reflexivity. }
    split; [|split; [|split; [|split]]].
    + intros t Ht. rewrite ST in Ht. rewrite R1. unfold op. rewrite (E1 t Ht), FR.
      assert (C1 : Qsum (map (fun c => comp_costs B idx y c e t) (fs_comps B)) == Qsum (map (fun c => comp_costs B idx x c e t) (fs_comps B))).
      { apply Qsum_map_eq. intros c Hc. apply (costs_same cf B idx x y SP); [exact Hc|rewrite ST; exact Ht]. }
      rewrite C1, (CO x e t He Ht). unfold d. ring.
    + rewrite R2, ST. unfold ops. rewrite E2, <- sumn_plus. apply sumn_ext. intros t Ht. rewrite R1. reflexivity.
    + rewrite R3, E3, FI, IV. apply Qplus_comp; [|reflexivity]. apply Qsum_map_eq. intros [nm iv] Hni. cbn [fst snd]. symmetry.
      assert (C2 : invest_costs B y nm iv e == invest_costs B x nm iv e) by (apply (icosts_same cf B idx x y SP); [rewrite IV; exact Hni|rewrite EF; exact He]).
      rewrite C2. unfold invest_costs. rewrite EF. reflexivity.
    + rewrite R2, R3, R4. unfold ops, alls. rewrite E4. ring.
    + destruct (Nat.eqb (e_id e) (e_id o)) eqn:Q0.
      * pose proof (only_one e He Q0) as ->. destruct UB as [[L1 L2] [[L3 L4] [[L5 L6] _]]]. rewrite L1, L2, L3, L4, L5, L6, R3. unfold at_least, at_most. cbn [option_map].
        split; [discriminate|]. split; [discriminate|]. split; [exact E7|]. split; [exact E8|]. split; [discriminate|]. split; [discriminate|]. intros t _. split; discriminate.
      * assert (Z : ops e == op_sum x e) by (unfold ops; rewrite dzs by exact Q0; ring). unfold at_least, at_most in *. rewrite R2, R3.
        split; [intros m Hm; rewrite Z; auto|]. split; [intros m Hm; rewrite Z; auto|]. split; [exact E7|]. split; [exact E8|]. split; [intros m Hm; rewrite Z; auto|]. split; [intros m Hm; rewrite Z; auto|].
        intros t Ht. rewrite ST in Ht. rewrite R1, !HR. unfold op. rewrite (dz e t Q0). destruct (E11 t Ht) as [F1 F2]. split; intros m Hm; rewrite Qplus_0_r; auto.
  - intros bl ND U. rewrite PE, (ob_penalty _ _ _ _ O bl ND) by (intros b; rewrite U; apply US). apply Qsum_map_eq. intros b Hb. rewrite (price_same cf B idx x y SP) by (apply U; exact Hb). symmetry. apply price_shift.
Qed.
End Shift.

(** ** The system with the new prices makes sense if the old one does *)
Lemma p_sensible : forall P cf fs idx, sensible cf fs idx -> sensible cf (repriced P fs) idx.
Proof.
  intros P cf fs idx [S1 S2 S3 S4 S5 S6 S7 S8].
  assert (IC : forall c', In c' (fs_comps (repriced P fs)) -> exists c, c' = p_comp P c /\ In c (fs_comps fs)).
  { intros c' Hc'. apply in_map_iff in Hc'. destruct Hc' as [c [<- Hc]]. eauto. }
  assert (IF : forall c f', In f' (cp_flows (p_comp P c)) -> exists f, f' = p_flow P f /\ In f (cp_flows c)).
  { intros c f' Hf'. rewrite p_flows in Hf'. apply in_map_iff in Hf'. destruct Hf' as [f [<- Hf]]. eauto. }
  constructor; try assumption.
  - destruct S3 as [A B]. split; intros b b' H H'; apply (p_used P fs) in H; apply (p_used P fs) in H'; [exact (A b b' H H')|exact (B b b' H H')].
  - intros c' Hc'. destruct (IC c' Hc') as [c [-> Hc]]. destruct (S4 c Hc) as [ND W]. split; [exact ND|]. change (cp_kind (p_comp P c)) with (cp_kind c). destruct (cp_kind c) as [|eqs|segs|s|rel abs]; try exact Logic.I.
    + destruct W as [label [ch [dis [pv ->]]]]. exists label, (p_flow P ch), (p_flow P dis), pv. reflexivity.
    + destruct W as [label [i1 [o1 [i2 [o2 [oo0 [pv ->]]]]]]]. exists label, (p_flow P i1), (p_flow P o1), (option_map (p_flow P) i2), (option_map (p_flow P) o2), oo0, pv. destruct i2, o2; reflexivity.
  - intros c' f' Hc' Hf'. destruct (IC c' Hc') as [c [-> Hc]]. destruct (IF c f' Hf') as [f [-> Hf]]. destruct (S5 c f Hc Hf) as [[A [B C]] D]. split; [|exact D].
    split; [exact A|]. split; [|exact C]. intros iv E. rewrite p_sized in E. exact (B iv E).
  - intros c' p Hc' E. destruct (IC c' Hc') as [c [-> Hc]]. destruct (S6 c p Hc E) as [A [B [C D]]]. split; [exact A|]. rewrite p_states. split; [exact B|]. split.
    + rewrite p_flows. revert C. generalize (cp_flows c) as l. intros l. assert (L : length (filter gives_number (map (p_flow P) l)) = length (filter gives_number l)); [|rewrite L; auto].
      induction l as [|f l IH]; [reflexivity|]. cbn [map filter]. change (gives_number (p_flow P f)) with (gives_number f). destruct (gives_number f); cbn [length]; rewrite IH; reflexivity.
    + intros f' t Hf' Ht. destruct (IF c f' Hf') as [f [-> Hf]]. rewrite p_sized. exact (D f t Hf Ht).
  - intros c' s iv Hc'. destruct (IC c' Hc') as [c [-> Hc]]. exact (S7 c s iv Hc).
  - rewrite p_investments. exact S8.
Qed.
Lemma extra_same : forall P cf fs idx e x y, same_parts cf fs idx x y -> extra P fs idx e y == extra P fs idx e x.
Proof.
  intros P cf fs idx e x y SP. unfold extra. apply sumn_ext. intros t Ht. unfold extra_at. apply Qsum_map_eq. intros c Hc. apply Qsum_map_eq. intros f Hf. rewrite (pp_rate _ _ _ _ _ SP c f t Hc Hf Ht). reflexivity.
Qed.
Lemma others_none : forall P fs idx o x e t, only_changes P fs idx o -> In e (fs_effects fs) -> (t < steps fs idx)%nat -> e_id e <> e_id o -> extra_at P fs idx e x t == 0.
Proof.
  intros P fs idx o x e t OC He Ht NE. unfold extra_at. apply Qsum_zero. intros v Hv. apply in_map_iff in Hv. destruct Hv as [c [<- Hc]]. apply Qsum_zero. intros v Hv. apply in_map_iff in Hv. destruct Hv as [f [<- Hf]].
  rewrite (OC e c f t He NE Hc Hf Ht). ring.
Qed.
Lemma same_parts_sym : forall cf fs idx x y, same_parts cf fs idx x y -> same_parts cf fs idx y x.
Proof.
  intros cf fs idx x y [A1 A2 A3 A4 A5 A6]. constructor.
  - intros c f t Hc Hf Ht. symmetry. auto.
  - intros c f t Hc Hf G Ht. destruct (A2 c f t Hc Hf G Ht). split; symmetry; assumption.
  - intros c t Hc G Ht. destruct (A3 c t Hc G Ht). split; symmetry; assumption.
  - intros name iv H. destruct (A4 name iv H) as [P1 [P2 P3]]. split; [symmetry; exact P1|]. split; [intros E; symmetry; auto|]. intros spts eff i l e H1 H2 H3 H4. symmetry. eapply P3; eauto.
  - intros c s t Hc K Ht. symmetry. eauto.
  - intros b t U Ht. destruct (A6 b t U Ht). split; symmetry; assumption.
Qed.

(** ** C90 *)

(** Whatever is possible at the old prices is possible at the new ones and the other way round, and the two solutions differ in cost by exactly the
    change of each price times the energy it applies to. *)
Theorem C90_plans_partial : forall P cf ord ord' fs idx pm pm' o, (forall l, Permutation (ord l) l) -> (forall l, Permutation (ord' l) l) ->
  build cf ord fs idx = Ok pm -> build cf ord' (repriced P fs) idx = Ok pm' -> sensible cf fs idx -> totals_apart fs ->
  find e_obj (fs_effects fs) = Some o -> only_changes P fs idx o -> unbounded o ->
  (forall x, feasible pm x -> exists y, feasible pm' y /\ same_parts cf fs idx x y /\ objective_value pm' y == objective_value pm x + extra P fs idx o x)
  /\ (forall y, feasible pm' y -> exists x, feasible pm x /\ same_parts cf fs idx x y /\ objective_value pm' y == objective_value pm x + extra P fs idx o x).
Proof.
  intros P cf ord ord' fs idx pm pm' o PO PO' B B' SE TA FO OC UB. pose proof (p_sensible P cf fs idx SE) as SE'. pose proof (find_some _ _ FO) as [IO _].
  assert (N0 : (0 < steps fs idx)%nat) by (pose proof (se_steps _ _ _ SE); lia). assert (N1 : (1 <= steps fs idx)%nat) by lia.
  assert (IDS : forall c, In c (fs_comps fs) -> NoDup (map f_id (cp_flows c))) by (intros c Hc; exact (PropsComp.comp_ids _ _ _ _ _ c B Hc)).
  pose proof (proj1 (se_effects _ _ _ SE)) as DE. pose proof (p_parts P cf fs idx N0 IDS) as PP. pose proof (p_costs P fs idx) as PC.
  assert (DZ : forall x e t, In e (fs_effects fs) -> (t < steps fs idx)%nat -> extra_at P fs idx e x t == (if Nat.eqb (e_id e) (e_id o) then extra_at P fs idx o x t else 0)).
  { intros x e t He Ht. destruct (Nat.eqb (e_id e) (e_id o)) eqn:Q0.
    - rewrite (only_one fs o IO DE e He Q0). reflexivity.
    - apply (others_none P fs idx o x e t OC He Ht). apply Nat.eqb_neq. exact Q0. }
  split.
  - intros x F. pose proof (C57_solutions _ _ _ _ _ _ PO B SE F) as O.
    assert (TG : forall c rel p f, In c (fs_comps (repriced P fs)) -> cp_kind c = TransmissionC rel (Some p) -> In f (cp_in c) -> governed (repriced P fs) idx c f <> None).
    { intros c' rel p f' Hc' K Hf'. apply in_map_iff in Hc'. destruct Hc' as [c [<- Hc]]. cbn [p_comp cp_in] in Hf'. apply in_map_iff in Hf'. destruct Hf' as [f [<- Hf]]. rewrite p_governed.
      exact (losses_governed _ _ _ _ _ _ B F (se_shape _ _ _ SE) c rel p f Hc K Hf). }
    destruct (shifted cf idx fs (repriced P fs) o (fun x t => extra_at P fs idx o x t) eq_refl eq_refl (fun _ => eq_refl) (p_investments P cf fs) (p_used P fs) (fun x => proj2 (PP x))
       ltac:(intros x0 e t He Ht; rewrite PC, (DZ x0 e t He Ht); reflexivity) IO DE UB (proj2 (p_apart P fs) TA) N1 TG x O) as [y [SP [OY CY]]].
    destruct (plan_completes _ _ _ _ _ _ PO' B' SE' OY) as [z [SZ FZ]]. exists z. split; [exact FZ|]. split.
    { apply p_same_parts in SP. eapply same_parts_trans; [exact SP|]. apply (p_same_parts P). exact (same_plan_parts _ _ _ _ _ SZ). }
    destruct (C21_objective _ _ _ _ _ x B) as [e [Fe Ox]]. destruct (C21_objective _ _ _ _ _ z B') as [e' [Fe' Oz]]. change (fs_effects (repriced P fs)) with (fs_effects fs) in Fe'.
    assert (e = o) by congruence. assert (e' = o) by congruence. subst e e'. rewrite Ox, Oz. change (plan_cost z o == plan_cost x o + extra P fs idx o x). rewrite (same_cost _ _ _ _ _ o SZ IO). exact CY.
  - intros x F. pose proof (C57_solutions _ _ _ _ _ _ PO' B' SE' F) as O.
    assert (TG : forall c rel p f, In c (fs_comps fs) -> cp_kind c = TransmissionC rel (Some p) -> In f (cp_in c) -> governed fs idx c f <> None).
    { intros c rel p f Hc K Hf. rewrite <- (p_governed P fs idx c f).
      exact (losses_governed _ _ _ _ _ _ B' F (se_shape _ _ _ SE') (p_comp P c) rel p (p_flow P f) (in_map (p_comp P) _ _ Hc) K (in_map (p_flow P) _ _ Hf)). }
    destruct (shifted cf idx (repriced P fs) fs o (fun x t => - extra_at P fs idx o x t) eq_refl eq_refl (fun _ => eq_refl) (eq_sym (p_investments P cf fs)) (fun b => iff_sym (p_used P fs b)) (fun x => proj1 (PP x))
       ltac:(intros x0 e t He Ht; rewrite PC, (DZ x0 e t He Ht); destruct (Nat.eqb (e_id e) (e_id o)); ring) IO DE UB TA N1 TG x O) as [y [SP [OY CY]]].
    destruct (plan_completes _ _ _ _ _ _ PO B SE OY) as [z [SZ FZ]]. exists z. split; [exact FZ|]. pose proof (same_parts_trans _ _ _ _ _ _ SP (same_plan_parts _ _ _ _ _ SZ)) as SX.
    split; [exact (same_parts_sym _ _ _ _ _ SX)|].
    destruct (C21_objective _ _ _ _ _ x B') as [e [Fe Ox]]. destruct (C21_objective _ _ _ _ _ z B) as [e' [Fe' Oz]]. change (fs_effects (repriced P fs)) with (fs_effects fs) in Fe.
    assert (e = o) by congruence. assert (e' = o) by congruence. subst e e'. rewrite Ox, Oz, (extra_same P cf fs idx o x z SX). change (plan_cost x o == plan_cost z o + extra P fs idx o x). rewrite (same_cost _ _ _ _ _ o SZ IO), CY.
    change (steps (repriced P fs) idx) with (steps fs idx). unfold extra. assert (NG : sumn (steps fs idx) (fun t => - extra_at P fs idx o x t) == - sumn (steps fs idx) (extra_at P fs idx o x)).
    { rewrite (sumn_ext _ (fun t => - extra_at P fs idx o x t) (fun t => (-1) * extra_at P fs idx o x t)) by (intros; ring). rewrite u_sumn. ring. }
    rewrite NG. ring.
Qed.
Print Assumptions C90_plans_partial.

(** The optimum moves by no more than what the old best plan costs more at the new prices, and by no less than what the new best plan does. So the new
    best plan uses less, measured by the change of prices, than the old one. *)
Theorem C90_demand_partial : forall P cf ord ord' fs idx pm pm' o x y, (forall l, Permutation (ord l) l) -> (forall l, Permutation (ord' l) l) ->
  build cf ord fs idx = Ok pm -> build cf ord' (repriced P fs) idx = Ok pm' -> sensible cf fs idx -> totals_apart fs ->
  find e_obj (fs_effects fs) = Some o -> only_changes P fs idx o -> unbounded o -> best_of pm x -> best_of pm' y ->
  objective_value pm x + extra P fs idx o y <= objective_value pm' y
  /\ objective_value pm' y <= objective_value pm x + extra P fs idx o x
  /\ extra P fs idx o y <= extra P fs idx o x.
Proof.
  intros P cf ord ord' fs idx pm pm' o x y PO PO' B B' SE TA FO OC UB [FX BX] [FY BY].
  destruct (C90_plans_partial P cf ord ord' fs idx pm pm' o PO PO' B B' SE TA FO OC UB) as [K1 K2].
  destruct (K1 x FX) as [y1 [F1 [_ E1]]]. destruct (K2 y FY) as [x1 [F2 [S2 E2]]]. rewrite <- (extra_same P cf fs idx o x1 y S2) in E2.
  specialize (BX x1 F2). specialize (BY y1 F1). split; [lra|]. split; lra.
Qed.
Print Assumptions C90_demand_partial.

(** Higher prices never make the best plan cheaper, as long as flows do not run backwards. *)
Theorem C90_dearer_partial : forall P cf ord ord' fs idx pm pm' o, (forall l, Permutation (ord l) l) -> (forall l, Permutation (ord' l) l) ->
  build cf ord fs idx = Ok pm -> build cf ord' (repriced P fs) idx = Ok pm' -> sensible cf fs idx -> totals_apart fs ->
  find e_obj (fs_effects fs) = Some o -> only_changes P fs idx o -> unbounded o ->
  (forall c f t, In c (fs_comps fs) -> In f (cp_flows c) -> (t < steps fs idx)%nat -> 0 <= rise P fs idx o f t) -> (forall t, (t < steps fs idx)%nat -> 0 <= hours fs idx t) ->
  forall y, feasible pm' y -> (forall c f t, In c (fs_comps fs) -> In f (cp_flows c) -> (t < steps fs idx)%nat -> 0 <= rate_of y c f t) ->
  exists x, feasible pm x /\ same_parts cf fs idx x y /\ objective_value pm x <= objective_value pm' y.
Proof.
  intros P cf ord ord' fs idx pm pm' o PO PO' B B' SE TA FO OC UB UP HR y FY RT.
  destruct (C90_plans_partial P cf ord ord' fs idx pm pm' o PO PO' B B' SE TA FO OC UB) as [_ K2]. destruct (K2 y FY) as [x [FX [SX E]]]. exists x. split; [exact FX|]. split; [exact SX|].
  rewrite E, <- (extra_same P cf fs idx o x y SX). assert (Z : 0 <= extra P fs idx o y); [|lra]. unfold extra, sumn, extra_at. apply Qsum_nonneg. intros v Hv. apply in_map_iff in Hv. destruct Hv as [t [<- Ht]]. apply in_seq in Ht.
  apply Qsum_nonneg. intros v Hv. apply in_map_iff in Hv. destruct Hv as [c [<- Hc]]. apply Qsum_nonneg. intros v Hv. apply in_map_iff in Hv. destruct Hv as [f [<- Hf]].
  apply Qmult_le_0_compat; [apply Qmult_le_0_compat|]; [apply (UP c f t)|apply (RT c f t)|apply HR]; auto; lia.
Qed.
Print Assumptions C90_dearer_partial.

(** If every hour of certain flows becomes dearer by the same amount and nothing else changes, the best plan uses no more of them. *)
Definition energy_of (sel : flow -> bool) (fs : flow_system) (idx : option (list nat)) (x : asg) : Q :=
  sumn (steps fs idx) (fun t => Qsum (map (fun c => Qsum (map (fun f => if sel f then rate_of x c f t * hours fs idx t else 0) (cp_flows c))) (fs_comps fs))).
Theorem C90_less_partial : forall P cf ord ord' fs idx pm pm' o (sel : flow -> bool) (k : Q) x y, (forall l, Permutation (ord l) l) -> (forall l, Permutation (ord' l) l) ->
  build cf ord fs idx = Ok pm -> build cf ord' (repriced P fs) idx = Ok pm' -> sensible cf fs idx -> totals_apart fs ->
  find e_obj (fs_effects fs) = Some o -> only_changes P fs idx o -> unbounded o -> 0 < k ->
  (forall c f t, In c (fs_comps fs) -> In f (cp_flows c) -> (t < steps fs idx)%nat -> rise P fs idx o f t == if sel f then k else 0) ->
  best_of pm x -> best_of pm' y -> energy_of sel fs idx y <= energy_of sel fs idx x.
Proof.
  intros P cf ord ord' fs idx pm pm' o sel k x y PO PO' B B' SE TA FO OC UB K RI BX BY.
  destruct (C90_demand_partial P cf ord ord' fs idx pm pm' o x y PO PO' B B' SE TA FO OC UB BX BY) as [_ [_ E]].
  assert (X : forall z, extra P fs idx o z == k * energy_of sel fs idx z).
  { intros z. unfold extra, energy_of. rewrite <- u_sumn. apply sumn_ext. intros t Ht. unfold extra_at. rewrite <- BaseFacts.Qsum_scale. apply Qsum_map_eq. intros c Hc. rewrite <- BaseFacts.Qsum_scale. apply Qsum_map_eq. intros f Hf.
    rewrite (RI c f t Hc Hf Ht). destruct (sel f); ring. }
  rewrite !X in E. apply (Qmult_le_l _ _ k K). exact E.
Qed.
Print Assumptions C90_less_partial.

(** *** Without conditions *)
Definition C90_full : Prop := forall P cf ord ord' fs idx pm pm' o, (forall l, Permutation (ord l) l) -> (forall l, Permutation (ord' l) l) ->
  build cf ord fs idx = Ok pm -> build cf ord' (repriced P fs) idx = Ok pm' -> sensible cf fs idx -> totals_apart fs ->
  find e_obj (fs_effects fs) = Some o -> only_changes P fs idx o ->
  (forall c f t, In c (fs_comps fs) -> In f (cp_flows c) -> (t < steps fs idx)%nat -> 0 <= rise P fs idx o f t) -> (forall t, (t < steps fs idx)%nat -> 0 <= hours fs idx t) ->
  forall y, feasible pm' y -> (forall c f t, In c (fs_comps fs) -> In f (cp_flows c) -> (t < steps fs idx)%nat -> 0 <= rate_of y c f t) ->
  exists x, feasible pm x /\ objective_value pm x <= objective_value pm' y.

(** Two sources for a demand of 4 in each of two hours: one costs 2 per unit, the price of the other one rises from 1 to 3. [lo] is a least amount of
    costs, if there is one. *)
Definition money (lo : option Q) : effect := mkEffect 0 "costs" true true [] [] lo None None None None None None None.
Definition per_hour (q : Q) : evalues := EVDict [(Some 0%nat, n1 q)].
Definition grid_at (p : Q) : flow := set_eff (per_hour p) (fl 181 "Q" gas 10).
Definition well_flow : flow := set_eff (per_hour 2) (fl 183 "Q" gas 10).
Definition need4 : flow := set_profile (Some (n1 1)) (fl 182 "Q" gas 4).
Definition fs_tariff (lo : option Q) (p : Q) : flow_system :=
  mkFS [0; 1] 2 (NS 1) [money lo] [Library.source "Grid" (grid_at p); Library.source "Well" well_flow; Library.sink "Need" need4].
Definition is_grid (f : flow) : bool := Nat.eqb (f_id f) 181.
Definition new_tariff (f : flow) : evalues := if is_grid f then per_hour 3 else f_effects f.
Lemma tariff_new : forall lo, repriced new_tariff (fs_tariff lo 1) = fs_tariff lo 3. Proof. reflexivity. Qed.
Definition on_grid (p : Q) : asg := of_table [
  ("Grid__Q_flow_rate", [4; 4]); ("Grid__Q_sumFlowHours", [8]); ("Need__Q_flow_rate", [4; 4]); ("Need__Q_sumFlowHours", [8]); ("costs__Grid__Q__effects_per_flow_hour", [4 * p; 4 * p]);
  ("costs__operation", [8 * p]); ("costs__operation_operation_sum_TS", [4 * p; 4 * p]); ("costs__operation_operation_sum", [8 * p]); ("costs__all_all_sum", [8 * p])].
Definition on_well : asg := of_table [
  ("Well__Q_flow_rate", [4; 4]); ("Well__Q_sumFlowHours", [8]); ("Need__Q_flow_rate", [4; 4]); ("Need__Q_sumFlowHours", [8]); ("costs__Well__Q__effects_per_flow_hour", [8; 8]);
  ("costs__operation", [16]); ("costs__operation_operation_sum_TS", [8; 8]); ("costs__operation_operation_sum", [16]); ("costs__all_all_sum", [16])].
Lemma tariff_buses : forall lo p b, used_bus (fs_tariff lo p) b -> b = gas.
Proof. intros lo p b [c [f [Hc [Hf E]]]]. cbn in Hc. destruct Hc as [<-|[<-|[<-|[]]]]; cbn in Hf; destruct Hf as [<-|[]]; symmetry; exact E. Qed.
Lemma tariff_sensible : forall lo, sensible default_config (fs_tariff lo 1) None.
Proof.
  intros lo. apply sensible_check; [vm_compute; reflexivity| |].
  - split; intros b b' H H' _; rewrite (tariff_buses _ _ b H), (tariff_buses _ _ b' H'); reflexivity.
  - intros c Hc. cbn in Hc. destruct Hc as [<-|[<-|[<-|[]]]]; cbn; split; try constructor; exact Logic.I.
Qed.
Lemma tariff_apart : forall lo, totals_apart (fs_tariff lo 1).
Proof.
  intros lo. split.
  - intros s H1 H2. assert (E : forallb (fun s => negb (existsb (String.eqb s) (total_names (fs_tariff lo 1)))) (own_names (fs_tariff lo 1)) = true) by (vm_compute; reflexivity).
    rewrite forallb_forall in E. specialize (E s H1). apply negb_true_iff in E. assert (X : existsb (String.eqb s) (total_names (fs_tariff lo 1)) = true) by (apply existsb_exists; exists s; split; [exact H2|apply String.eqb_refl]).
    congruence.
  - vm_compute. repeat constructor; simpl; intuition discriminate.
Qed.
Lemma tariff_only : forall lo, only_changes new_tariff (fs_tariff lo 1) None (money lo).
Proof. intros lo e c f t [<-|[]] NE. exfalso. apply NE. reflexivity. Qed.
Lemma tariff_rise : forall lo c f t, In c (fs_comps (fs_tariff lo 1)) -> In f (cp_flows c) -> rise new_tariff (fs_tariff lo 1) None (money lo) f t == if is_grid f then 2 else 0.
Proof. intros lo c f t Hc Hf. cbn in Hc. destruct Hc as [<-|[<-|[<-|[]]]]; cbn in Hf; destruct Hf as [<-|[]]; reflexivity. Qed.

(** What any plan of this system looks like. *)
Lemma tariff_plan : forall lo p x, obeys default_config (fs_tariff lo p) None x ->
  let g := x (vlabel "Grid__Q" "flow_rate") in let w := x (vlabel "Well__Q" "flow_rate") in
  (forall t, (t < 2)%nat -> 0 <= g t /\ 0 <= w t /\ g t + w t == 4)
  /\ op_sum x (money lo) == p * (g 0%nat + g 1%nat) + 2 * (w 0%nat + w 1%nat) /\ plan_cost x (money lo) == op_sum x (money lo).
Proof.
  intros lo p x O g w.
  assert (R : forall c f, In c (fs_comps (fs_tariff lo p)) -> In f (cp_flows c) -> governed (fs_tariff lo p) None c f = None -> forall t, (t < 2)%nat -> within_limits default_config None c f t (rate_of x c f t)).
  { intros c f Hc Hf G t Ht. exact (al_plain _ _ _ _ _ _ _ (proj1 (ob_flow _ _ _ _ O c f Hc Hf)) G t Ht). }
  assert (RG : forall t, (t < 2)%nat -> 0 <= g t).
  { intros t Ht. destruct (R (Library.source "Grid" (grid_at p)) (grid_at p) (or_introl eq_refl) (or_introl eq_refl) eq_refl t Ht) as [L _]. cbn in L. change (0 * 10 <= g t) in L. lra. }
  assert (RW : forall t, (t < 2)%nat -> 0 <= w t).
  { intros t Ht. destruct (R (Library.source "Well" well_flow) well_flow (or_intror (or_introl eq_refl)) (or_introl eq_refl) eq_refl t Ht) as [L _]. cbn in L. change (0 * 10 <= w t) in L. lra. }
  assert (RN : forall t, (t < 2)%nat -> x (vlabel "Need__Q" "flow_rate") t == 4).
  { intros t Ht. destruct (R (Library.sink "Need" need4) need4 (or_intror (or_intror (or_introl eq_refl))) (or_introl eq_refl) eq_refl t Ht) as [L1 L2]. cbn in L1, L2. change (1 * 4 <= x (vlabel "Need__Q" "flow_rate") t) in L1.
    change (x (vlabel "Need__Q" "flow_rate") t <= 1 * 4) in L2. lra. }
  assert (UG : used_bus (fs_tariff lo p) gas) by (exists (Library.sink "Need" need4), need4; cbn; tauto).
  assert (BAL : forall t, (t < 2)%nat -> g t + w t == 4).
  { intros t Ht. destruct (ob_bus _ _ _ _ O gas UG t Ht) as [E _]. change ((g t + 0 + ((w t + 0) + (0 + 0)) + 0 == 0 + (0 + ((x (vlabel "Need__Q" "flow_rate") t + 0) + 0)) + 0)) in E. rewrite (RN t Ht) in E. lra. }
  split; [intros t Ht; split; [|split]; auto|].
  destruct (ob_effect _ _ _ _ O (money lo) (or_introl eq_refl)) as [E1 [E2 [E3 _]]].
  assert (OP : forall t, (t < 2)%nat -> op_at x (money lo) t == p * g t + 2 * w t).
  { intros t Ht. rewrite (E1 t Ht). destruct t as [|[|t]]; [| |lia];
      unfold comp_costs, flow_costs, op_from_effects; cbn;
      match goal with |- context [hours (fs_tariff lo p) None ?t] => assert (HH : hours (fs_tariff lo p) None t == 1) by (vm_compute; reflexivity); rewrite HH;
        change (rate_of x (source "Grid" (grid_at p)) (grid_at p) t) with (g t); change (rate_of x (source "Well" well_flow) well_flow t) with (w t) end; ring. }
  assert (IZ : inv_sum x (money lo) == 0) by (rewrite E3; vm_compute; reflexivity).
  assert (PZ : penalty_sum x == 0).
  { rewrite (ob_penalty _ _ _ _ O [gas]); [vm_compute; reflexivity|constructor; [intros []|constructor]|]. intros b. split; [intros [<-|[]]; exact UG|intros H; left; symmetry; exact (tariff_buses lo p b H)]. }
  split.
  - rewrite E2. change (op_at x (money lo) 0%nat + (op_at x (money lo) 1%nat + 0) == p * (g 0%nat + g 1%nat) + 2 * (w 0%nat + w 1%nat)). rewrite !OP by lia. ring.
  - unfold plan_cost. rewrite IZ, PZ. ring.
Qed.

(** *** A case: the price of the grid rises from 1 to 3. The best plan moves from the grid to the well. *)
Lemma tariff_best : exists pm pm', build default_config id_ord (fs_tariff None 1) None = Ok pm /\ build default_config id_ord (repriced new_tariff (fs_tariff None 1)) None = Ok pm'
  /\ best_of pm (on_grid 1) /\ best_of pm' on_well /\ objective_value pm (on_grid 1) == 8 /\ objective_value pm' on_well == 16.
Proof.
  rewrite tariff_new. destruct (run_ok (build default_config id_ord (fs_tariff None 1) None) (on_grid 1)) as [pm [B F]]; [vm_compute; reflexivity|].
  destruct (run_ok (build default_config id_ord (fs_tariff None 3) None) on_well) as [pm' [B' F']]; [vm_compute; reflexivity|].
  assert (OV : forall z, objective_value pm z == plan_cost z (money None)) by (intros z; destruct (C21_objective _ _ _ _ _ z B) as [e [Fe Oz]]; injection Fe as <-; exact Oz).
  assert (OV' : forall z, objective_value pm' z == plan_cost z (money None)) by (intros z; destruct (C21_objective _ _ _ _ _ z B') as [e [Fe Oz]]; injection Fe as <-; exact Oz).
  assert (V1 : objective_value pm (on_grid 1) == 8) by (rewrite OV; vm_compute; reflexivity). assert (V2 : objective_value pm' on_well == 16) by (rewrite OV'; vm_compute; reflexivity).
  exists pm, pm'. split; [exact B|]. split; [exact B'|]. split; [|split; [|split; [exact V1|exact V2]]].
  - split; [exact F|]. intros y FY. rewrite V1, OV. destruct (tariff_plan None 1 y (C57_solutions _ _ _ _ _ _ id_ord_perm B (tariff_sensible None) FY)) as [PL [E1 E2]].
    destruct (PL 0%nat ltac:(lia)) as [G0 [W0 S0]]. destruct (PL 1%nat ltac:(lia)) as [G1 [W1 S1]]. rewrite E2, E1. lra.
  - split; [exact F'|]. intros y FY. rewrite V2, OV'. pose proof (p_sensible new_tariff _ _ _ (tariff_sensible None)) as SE. rewrite tariff_new in SE.
    destruct (tariff_plan None 3 y (C57_solutions _ _ _ _ _ _ id_ord_perm B' SE FY)) as [PL [E1 E2]].
    destruct (PL 0%nat ltac:(lia)) as [G0 [W0 S0]]. destruct (PL 1%nat ltac:(lia)) as [G1 [W1 S1]]. rewrite E2, E1. lra.
Qed.
Lemma money_unbounded : unbounded (money None). Proof. repeat split; reflexivity. Qed.

Example C90_applies : exists pm pm', build default_config id_ord (fs_tariff None 1) None = Ok pm /\ build default_config id_ord (repriced new_tariff (fs_tariff None 1)) None = Ok pm'
  /\ objective_value pm (on_grid 1) + extra new_tariff (fs_tariff None 1) None (money None) on_well <= objective_value pm' on_well
  /\ objective_value pm' on_well <= objective_value pm (on_grid 1) + extra new_tariff (fs_tariff None 1) None (money None) (on_grid 1)
  /\ energy_of is_grid (fs_tariff None 1) None on_well <= energy_of is_grid (fs_tariff None 1) None (on_grid 1)
  /\ (exists y, feasible pm' y /\ same_parts default_config (fs_tariff None 1) None (on_grid 1) y /\ objective_value pm' y == 24)
  /\ (exists x, feasible pm x /\ same_parts default_config (fs_tariff None 1) None x on_well /\ objective_value pm x <= objective_value pm' on_well).
Proof.
  destruct tariff_best as [pm [pm' [B [B' [BX [BY [V1 V2]]]]]]]. exists pm, pm'. split; [exact B|]. split; [exact B'|].
  destruct (C90_demand_partial _ _ _ _ _ _ _ _ _ _ _ id_ord_perm id_ord_perm B B' (tariff_sensible None) (tariff_apart None) eq_refl (tariff_only None) money_unbounded BX BY) as [D1 [D2 _]].
  split; [exact D1|]. split; [exact D2|]. split; [|split].
  - apply (C90_less_partial new_tariff default_config id_ord id_ord _ None pm pm' (money None) is_grid 2 _ _ id_ord_perm id_ord_perm B B' (tariff_sensible None) (tariff_apart None) eq_refl (tariff_only None) money_unbounded); [reflexivity| |exact BX|exact BY].
    intros c f t Hc Hf _. exact (tariff_rise None c f t Hc Hf).
  - destruct (C90_plans_partial _ _ _ _ _ _ _ _ _ id_ord_perm id_ord_perm B B' (tariff_sensible None) (tariff_apart None) eq_refl (tariff_only None) money_unbounded) as [K _].
    destruct (K _ (proj1 BX)) as [y [FY [SP E]]]. exists y. split; [exact FY|]. split; [exact SP|]. rewrite E, V1. vm_compute. reflexivity.
  - apply (C90_dearer_partial new_tariff default_config id_ord id_ord _ None pm pm' (money None) id_ord_perm id_ord_perm B B' (tariff_sensible None) (tariff_apart None) eq_refl (tariff_only None) money_unbounded).
    + intros c f t Hc Hf _. rewrite (tariff_rise None c f t Hc Hf). destruct (is_grid f); lra.
    + intros t Ht. destruct t as [|[|t]]; [vm_compute; discriminate|vm_compute; discriminate|cbn in Ht; lia].
    + exact (proj1 BY).
    + intros c f t Hc Hf Ht. cbn in Hc. destruct Hc as [<-|[<-|[<-|[]]]]; cbn in Hf; destruct Hf as [<-|[]]; (destruct t as [|[|t]]; [vm_compute; discriminate|vm_compute; discriminate|cbn in Ht; lia]).
Qed.
(** The numbers: at the old prices the grid supplies everything for 8, at the new prices the well does for 16, and the grid would cost 24. *)
Example C90_shown : energy_of is_grid (fs_tariff None 1) None (on_grid 1) == 8 /\ energy_of is_grid (fs_tariff None 1) None on_well == 0
  /\ extra new_tariff (fs_tariff None 1) None (money None) (on_grid 1) == 16 /\ extra new_tariff (fs_tariff None 1) None (money None) on_well == 0.
Proof. vm_compute. auto. Qed.

(** If at least 20 have to be spent, there is no plan at the old prices, because nothing in the system can cost that much. *)
Theorem C90_refuted : ~ C90_full.
Proof.
  intros Full. set (lo := Some 20).
  destruct (build default_config id_ord (fs_tariff lo 1) None) as [pm|] eqn:B; [|vm_compute in B; discriminate B].
  destruct (run_ok (build default_config id_ord (fs_tariff lo 3) None) (on_grid 3)) as [pm' [B' F']]; [vm_compute; reflexivity|].
  destruct (Full new_tariff default_config id_ord id_ord (fs_tariff lo 1) None pm pm' (money lo) id_ord_perm id_ord_perm B B' (tariff_sensible lo) (tariff_apart lo) eq_refl (tariff_only lo)) with (y := on_grid 3) as [x [F _]].
  - intros c f t Hc Hf _. rewrite (tariff_rise lo c f t Hc Hf). destruct (is_grid f); lra.
  - intros t Ht. destruct t as [|[|t]]; [vm_compute; discriminate|vm_compute; discriminate|cbn in Ht; lia].
  - exact F'.
  - intros c f t Hc Hf Ht. cbn in Hc. destruct Hc as [<-|[<-|[<-|[]]]]; cbn in Hf; destruct Hf as [<-|[]]; (destruct t as [|[|t]]; [vm_compute; discriminate|vm_compute; discriminate|cbn in Ht; lia]).
  - pose proof (C57_solutions _ _ _ _ _ _ id_ord_perm B (tariff_sensible lo) F) as O. destruct (tariff_plan lo 1 x O) as [PL [E1 _]].
    destruct (ob_effect _ _ _ _ O (money lo) (or_introl eq_refl)) as [_ [_ [_ [_ [LO _]]]]]. specialize (LO 20 eq_refl). rewrite E1 in LO.
    destruct (PL 0%nat ltac:(lia)) as [G0 [W0 S0]]. destruct (PL 1%nat ltac:(lia)) as [G1 [W1 S1]]. lra.
Qed.
Print Assumptions C90_refuted.
