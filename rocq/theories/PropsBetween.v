(** Claim C96: between two demands, two availabilities or two limits of an effect. If nothing has to be decided, what can be done at both ends can be done
    half way for half of both costs, so the best cost is convex: every further unit of demand costs at least as much as the one before, and so does
    every further unit of emissions that is saved. *)
From Coq Require Import Permutation.
From Verif Require Import Base BaseFacts MathModel Spec Structure Params Features Elements Library System SysSpec AdmitSpec CtxFacts NavFacts PropsOnOff PropsComp PropsEffects PlanSpec
     Example TotalInvest PlanComp PlanSame PlanSys PlanCheck ExamplePoints AggFacts SegWitness PropsPlan PropsRelax PropsSameData ValidSpec ValidCheck PropsTotal PropsRename PropsParts PropsUnits PropsMix PropsPrices PropsOptimum PropsBest.

(** ** Specification *)

(** The limits of a rate, relative to the size: a fixed profile, or a lower and an upper limit. *)
Record rate_limits : Type := mkRates { rl_profile : option param; rl_min : param; rl_max : param }.
(** The limits of an effect: operation, investment, per hour and in total. *)
Record effect_limits : Type := mkCaps { el_min_op : option Q; el_max_op : option Q; el_min_inv : option Q; el_max_inv : option Q;
  el_min_ph : option param; el_max_ph : option param; el_min_tot : option Q; el_max_tot : option Q }.
Record limits : Type := mkLimits { of_flow : component -> flow -> rate_limits; of_effect : effect -> effect_limits }.

(** The system [fs] with the limits [L] instead of those it had. *)
Definition l_flow (L : limits) (c : component) (f : flow) : flow :=
  mkFlow (f_id f) (f_lab f) (f_bus f) (f_size f) (rl_profile (of_flow L c f)) (rl_min (of_flow L c f)) (rl_max (of_flow L c f))
         (f_effects f) (f_onoff f) (f_fh_max f) (f_fh_min f) (f_lf_min f) (f_lf_max f) (f_prev f).
Definition l_comp (L : limits) (c : component) : component := mkComponent (cp_label c) (map (l_flow L c) (cp_in c)) (map (l_flow L c) (cp_out c)) (cp_onoff c) (cp_prevent c) (cp_kind c).
Definition l_effect (L : limits) (e : effect) : effect := let k := of_effect L e in
  mkEffect (e_id e) (e_label e) (e_std e) (e_obj e) (e_share_op e) (e_share_inv e) (el_min_op k) (el_max_op k) (el_min_inv k) (el_max_inv k) (el_min_ph k) (el_max_ph k) (el_min_tot k) (el_max_tot k).
Definition limited (L : limits) (fs : flow_system) : flow_system := mkFS (fs_times fs) (fs_end fs) (fs_prev_dt fs) (map (l_effect L) (fs_effects fs)) (map (l_comp L) (fs_comps fs)).

(** The smallest and the largest value in step [t]. *)
Definition lowest (idx : option (list nat)) (r : rate_limits) (t : nat) : Q := value idx (match rl_profile r with Some p => p | None => rl_min r end) t.
Definition highest (idx : option (list nat)) (r : rate_limits) (t : nat) : Q := value idx (match rl_profile r with Some p => p | None => rl_max r end) t.
(** The third limit is not stricter than the mean of the first two, with weight [w] on the second. *)
Definition floor_between (w : Q) (a b m : option Q) : Prop := forall k, m = Some k -> exists i j, a = Some i /\ b = Some j /\ k <= mix w i j.
Definition ceiling_between (w : Q) (a b m : option Q) : Prop := forall k, m = Some k -> exists i j, a = Some i /\ b = Some j /\ mix w i j <= k.
Definition at_time (idx : option (list nat)) (t : nat) (p : option param) : option Q := option_map (fun p => value idx p t) p.

(** The limits [M] are not stricter than the mean of [A] and [B]. Limits of rates may differ where the size of the flow is given. *)
Record between (w : Q) (cf : config) (fs : flow_system) (idx : option (list nat)) (A B M : limits) : Prop := {
  bt_rates : forall c f, In c (fs_comps fs) -> In f (cp_flows c) ->
     match sized cf c f with
     | SzInv _ => of_flow A c f = of_flow M c f /\ of_flow B c f = of_flow M c f
     | SzNum s => 0 <= given_size cf s /\ forall t, (t < steps fs idx)%nat ->
         lowest idx (of_flow M c f) t <= mix w (lowest idx (of_flow A c f) t) (lowest idx (of_flow B c f) t)
         /\ mix w (highest idx (of_flow A c f) t) (highest idx (of_flow B c f) t) <= highest idx (of_flow M c f) t
     end;
  bt_op : forall e, In e (fs_effects fs) -> floor_between w (el_min_op (of_effect A e)) (el_min_op (of_effect B e)) (el_min_op (of_effect M e))
     /\ ceiling_between w (el_max_op (of_effect A e)) (el_max_op (of_effect B e)) (el_max_op (of_effect M e));
  bt_inv : forall e, In e (fs_effects fs) -> floor_between w (el_min_inv (of_effect A e)) (el_min_inv (of_effect B e)) (el_min_inv (of_effect M e))
     /\ ceiling_between w (el_max_inv (of_effect A e)) (el_max_inv (of_effect B e)) (el_max_inv (of_effect M e));
  bt_tot : forall e, In e (fs_effects fs) -> floor_between w (el_min_tot (of_effect A e)) (el_min_tot (of_effect B e)) (el_min_tot (of_effect M e))
     /\ ceiling_between w (el_max_tot (of_effect A e)) (el_max_tot (of_effect B e)) (el_max_tot (of_effect M e));
  bt_ph : forall e t, In e (fs_effects fs) -> (t < steps fs idx)%nat ->
     floor_between w (at_time idx t (el_min_ph (of_effect A e))) (at_time idx t (el_min_ph (of_effect B e))) (at_time idx t (el_min_ph (of_effect M e)))
     /\ ceiling_between w (at_time idx t (el_max_ph (of_effect A e))) (at_time idx t (el_max_ph (of_effect B e))) (at_time idx t (el_max_ph (of_effect M e)));
  bt_hours : forall t, (t < steps fs idx)%nat -> 0 <= hours fs idx t
}.

(** ** Everything but the limits is the same *)
Section Parts.
Variables (L : limits) (cf : config) (fs : flow_system) (idx : option (list nat)).
Notation fs' := (limited L fs).
Notation uf := (l_flow L).
Notation uc := (l_comp L).
Notation ue := (l_effect L).

Lemma l_flows : forall c, cp_flows (uc c) = map (uf c) (cp_flows c). Proof. intros c. unfold cp_flows. cbn [l_comp cp_in cp_out]. rewrite map_app. reflexivity. Qed.
Lemma l_governed : forall c f, governed fs' idx (uc c) (uf c f) = governed fs idx c f. Proof. reflexivity. Qed.
Lemma l_sized : forall c f, sized cf (uc c) (uf c f) = sized cf c f.
Proof.
  intros c f. unfold sized. cbn [l_comp cp_kind cp_in l_flow f_size f_id]. destruct (cp_kind c); try reflexivity. destruct (cp_in c) as [|i1 [|i2 r]]; reflexivity.
Qed.
Lemma l_size_of : forall x c f, size_of cf x (uc c) (uf c f) = size_of cf x c f.
Proof. intros x c f. unfold size_of. rewrite l_sized. reflexivity. Qed.
Lemma l_states : forall c, comp_states cf (uc c) = comp_states cf c.
Proof.
  intros c. unfold comp_states. rewrite l_flows. generalize (cp_flows c) as l. intros l.
  assert (FM : filter gives_prev (map (uf c) l) = map (uf c) (filter gives_prev l)).
  { induction l as [|f l IH]; [reflexivity|]. cbn [map filter]. change (gives_prev (uf c f)) with (gives_prev f). destruct (gives_prev f); [cbn [map]; rewrite IH; reflexivity|exact IH]. }
  rewrite FM. destruct (filter gives_prev l) as [|f r]; [reflexivity|]. cbn [map]. change (prior_states cf (uf c f)) with (prior_states cf f). apply map_ext. intros j.
  change (uf c f :: map (uf c) r) with (map (uf c) (f :: r)). generalize (f :: r). induction l0 as [|g l0 IH]; [reflexivity|]. cbn [map existsb]. rewrite IH. reflexivity.
Qed.
Lemma l_all : forall c (Q0 : flow -> Prop), (forall f', In f' (cp_flows (uc c)) -> Q0 f') <-> (forall f, In f (cp_flows c) -> Q0 (uf c f)).
Proof.
  intros c Q0. rewrite l_flows. split; intros H; [intros f Hf; apply H, in_map, Hf|]. intros f' Hf'. apply in_map_iff in Hf'. destruct Hf' as [f [<- Hf]]. auto.
Qed.
Lemma l_idle : forall x c t, (forall f, In f (cp_flows (uc c)) -> rate_of x (uc c) f t == 0) <-> (forall f, In f (cp_flows c) -> rate_of x c f t == 0).
Proof. intros x c t. exact (l_all c (fun f => rate_of x (uc c) f t == 0)). Qed.
Lemma l_running : forall x c p, running_rule cf fs' idx x (uc c) p <-> running_rule cf fs idx x c p.
Proof.
  intros x c p. unfold running_rule. rewrite l_states. change (steps fs' idx) with (steps fs idx). change (cp_label (uc c)) with (cp_label c).
  assert (A : (forall t, (t < steps fs idx)%nat -> (x (oo (cp_label c) "on") t == 0 <-> (forall f, In f (cp_flows (uc c)) -> rate_of x (uc c) f t == 0)))
     <-> (forall t, (t < steps fs idx)%nat -> (x (oo (cp_label c) "on") t == 0 <-> (forall f, In f (cp_flows c) -> rate_of x c f t == 0)))).
  { split; intros H t Ht; specialize (H t Ht); [rewrite <- (l_idle x c t)|rewrite (l_idle x c t)]; exact H. }
  rewrite A. reflexivity.
Qed.
Hypothesis IDS : forall c, In c (fs_comps fs) -> NoDup (map f_id (cp_flows c)).
Lemma l_exclusion : forall x c, In c (fs_comps fs) -> (exclusion_rule fs' idx x (uc c) <-> exclusion_rule fs idx x c).
Proof.
  intros x c Hc. split; intros EX.
  - intros f g t Hf Hg NE Pf Pg Ht. change (rate_of x c f t) with (rate_of x (uc c) (uf c f) t). change (rate_of x c g t) with (rate_of x (uc c) (uf c g) t). apply EX; auto; try (rewrite l_flows; apply in_map; assumption).
    intros E. apply NE. apply (NoDup_map_eq_ f_id (cp_flows c)); auto. change (f_id f) with (f_id (uf c f)). rewrite E. reflexivity.
  - intros f' g' t Hf' Hg' NE Pf Pg Ht. rewrite l_flows in Hf', Hg'. apply in_map_iff in Hf', Hg'. destruct Hf' as [f [<- Hf]]. destruct Hg' as [g [<- Hg]].
    apply (EX f g t); auto. intros E. apply NE. rewrite E. reflexivity.
Qed.
Lemma l_weighted : forall x c fac l t, weighted idx x (uc c) fac (map (uf c) l) t = weighted idx x c fac l t.
Proof. intros x c fac l t. unfold weighted. rewrite map_map. reflexivity. Qed.
Lemma l_pieces : forall x c segs k w t, (forall f, In f (cp_flows (uc c)) -> exists ab, nth_error (segments_of segs f) k = Some ab /\ on_piece idx x (uc c) f t w ab)
     <-> (forall f, In f (cp_flows c) -> exists ab, nth_error (segments_of segs f) k = Some ab /\ on_piece idx x c f t w ab).
Proof. intros x c segs k w t. exact (l_all c (fun f => exists ab, nth_error (segments_of segs f) k = Some ab /\ on_piece idx x (uc c) f t w ab)). Qed.
Lemma l_segmented : forall x c segs, segmented_rule fs' idx x (uc c) segs <-> segmented_rule fs idx x c segs.
Proof.
  intros x c segs. unfold segmented_rule. change (steps fs' idx) with (steps fs idx). change (cp_label (uc c)) with (cp_label c).
  split; intros H t Ht; destruct (H t Ht) as [[k [w [W0 [W1 [Q0 Q1]]]]]|[Q0 [Z Rt]]].
  - left. exists k, w. split; [exact W0|]. split; [exact W1|]. split; [apply l_pieces, Q0|exact Q1].
  - right. rewrite <- (l_idle x c t). auto.
  - left. exists k, w. split; [exact W0|]. split; [exact W1|]. split; [apply l_pieces, Q0|exact Q1].
  - right. rewrite (l_idle x c t). auto.
Qed.
Lemma l_transmission : forall x c r a in1 out1 in2 out2,
  transmission_rule cf fs' idx x (uc c) r a (uf c in1) (uf c out1) (option_map (uf c) in2) (option_map (uf c) out2) <-> transmission_rule cf fs idx x c r a in1 out1 in2 out2.
Proof.
  intros x c r a in1 out1 in2 out2. unfold transmission_rule. destruct in2 as [i2|], out2 as [o2|]; try reflexivity. cbn [option_map]. rewrite !l_size_of. reflexivity.
Qed.
Lemma l_opt : forall c l o', map (uf c) l = opt_flow o' -> exists o, l = opt_flow o /\ o' = option_map (uf c) o.
Proof. intros c [|f [|g r]] [f'|] E; cbn in E; try discriminate E; [exists None; auto|]. injection E as <-. exists (Some f). auto. Qed.
Lemma l_own : forall x c, own_rule cf fs' idx x (uc c) <-> own_rule cf fs idx x c.
Proof.
  intros x c. unfold own_rule. change (cp_kind (uc c)) with (cp_kind c). change (cp_in (uc c)) with (map (uf c) (cp_in c)). change (cp_out (uc c)) with (map (uf c) (cp_out c)).
  destruct (cp_kind c) as [|eqs|segs|s|r a] eqn:K.
  - reflexivity.
  - split; intros H fac t Hf Ht; specialize (H fac t Hf Ht); rewrite !l_weighted in *; exact H.
  - exact (l_segmented x c segs).
  - split; intros H ch dis EI EO.
    + apply (H (uf c ch) (uf c dis)); [rewrite EI|rewrite EO]; reflexivity.
    + destruct (cp_in c) as [|ch0 [|? ?]] eqn:I0; try discriminate EI. destruct (cp_out c) as [|dis0 [|? ?]] eqn:O0; try discriminate EO. cbn [map] in EI, EO. injection EI as <-. injection EO as <-.
      apply (H ch0 dis0); reflexivity.
  - split; intros H in1 out1 in2 out2 EI EO.
    + apply (l_transmission x c r a in1 out1 in2 out2). apply H; [rewrite EI|rewrite EO]; [destruct in2|destruct out2]; reflexivity.
    + destruct (cp_in c) as [|i1 ri] eqn:I0; [discriminate EI|]. destruct (cp_out c) as [|o1 ro] eqn:O0; [discriminate EO|]. cbn [map] in EI, EO. injection EI as <- EI. injection EO as <- EO.
      destruct (l_opt _ _ _ EI) as [i2 [-> ->]]. destruct (l_opt _ _ _ EO) as [o2 [-> ->]]. apply (l_transmission x c r a i1 o1 i2 o2). apply H; reflexivity.
Qed.
Lemma l_investments : investments cf fs' = investments cf fs.
Proof.
  unfold investments. change (fs_comps fs') with (map uc (fs_comps fs)). generalize (fs_comps fs). induction l as [|c l IH]; [reflexivity|]. cbn [map flat_map]. rewrite IH. f_equal.
  f_equal. rewrite l_flows. generalize (cp_flows c). induction l0 as [|f l0 IH0]; [reflexivity|]. cbn [map flat_map]. rewrite IH0. f_equal. unfold flow_investment. rewrite l_sized. reflexivity.
Qed.
Lemma l_used : forall b, used_bus fs' b <-> used_bus fs b.
Proof.
  intros b. split.
  - intros [c' [f' [Hc [Hf <-]]]]. change (fs_comps fs') with (map uc (fs_comps fs)) in Hc. apply in_map_iff in Hc. destruct Hc as [c [<- Hc]]. rewrite l_flows in Hf. apply in_map_iff in Hf. destruct Hf as [f [<- Hf]].
    exists c, f. auto.
  - intros [c [f [Hc [Hf <-]]]]. exists (uc c), (uf c f). split; [apply in_map, Hc|]. split; [rewrite l_flows; apply in_map, Hf|reflexivity].
Qed.
Lemma l_sums : forall x b t, delivered fs' x b t = delivered fs x b t /\ taken fs' x b t = taken fs x b t.
Proof.
  intros x b t. assert (F : forall c l, filter (connected b) (map (uf c) l) = map (uf c) (filter (connected b) l)).
  { intros c. induction l as [|f l IH]; [reflexivity|]. cbn [map filter]. change (connected b (uf c f)) with (connected b f). rewrite IH. destruct (connected b f); reflexivity. }
  unfold delivered, taken. change (fs_comps fs') with (map uc (fs_comps fs)). rewrite !map_map. split; f_equal; apply map_ext_in; intros c Hc.
  - change (cp_out (uc c)) with (map (uf c) (cp_out c)). rewrite F, map_map. reflexivity.
  - change (cp_in (uc c)) with (map (uf c) (cp_in c)). rewrite F, map_map. reflexivity.
Qed.
Lemma l_bus_rule : forall x b, bus_rule fs' idx x b <-> bus_rule fs idx x b.
Proof. intros x b. split; intros H t Ht; specialize (H t Ht); destruct (l_sums x b t) as [E1 E2]; rewrite E1, E2 in *; exact H. Qed.
Lemma l_segments : forall x nm iv, segments_rule fs' x nm iv <-> segments_rule fs x nm iv.
Proof.
  intros x nm iv. assert (EE : forall (P : effect -> Prop), (forall e, In e (fs_effects fs') -> P e) <-> (forall e, In e (fs_effects fs) -> P (ue e))).
  { intros P. change (fs_effects fs') with (map ue (fs_effects fs)). split; intros H e He; [apply H, in_map, He|]. apply in_map_iff in He. destruct He as [e0 [<- He]]. auto. }
  unfold segments_rule. split; intros H spts eff E; specialize (H spts eff E); cbv zeta in *; (destruct H as [[k [w [W0 [W1 [P1 [P2 O1]]]]]]|[P1 [P2 [P3 P4]]]]; [left; exists k, w; repeat (split; [assumption|]); split; [|exact O1]|right; repeat (split; [assumption|])]).
  - intros i l e Hi He EI. exact (P2 i l (ue e) Hi (in_map ue _ _ He) EI).
  - intros i l e Hi He EI. exact (P4 i l (ue e) Hi (in_map ue _ _ He) EI).
  - intros i l e Hi He EI. apply in_map_iff in He. destruct He as [e0 [<- He]]. exact (P2 i l e0 Hi He EI).
  - intros i l e Hi He EI. apply in_map_iff in He. destruct He as [e0 [<- He]]. exact (P4 i l e0 Hi He EI).
Qed.

(** Costs. *)
Lemma l_names : forall k e, names (fs_effects fs') k (ue e) = names (fs_effects fs) k e.
Proof.
  intros k e. unfold names. destruct k as [i|]; [reflexivity|]. change (fs_effects fs') with (map ue (fs_effects fs)). induction (fs_effects fs) as [|a l IH]; [reflexivity|]. cbn [map find]. change (e_std (ue a)) with (e_std a).
  destruct (e_std a); [reflexivity|exact IH].
Qed.
Lemma l_cost : forall i v e t, cost (fs_effects fs') i v (ue e) t = cost (fs_effects fs) i v e t.
Proof. intros i v e t. unfold cost. f_equal. apply map_ext. intros kp. rewrite l_names. reflexivity. Qed.
Lemma l_onoff_costs : forall x nm p e t, onoff_costs fs' idx x nm p (ue e) t = onoff_costs fs idx x nm p e t.
Proof. intros. unfold onoff_costs. rewrite !l_cost. reflexivity. Qed.
Lemma l_comp_costs : forall x c e t, comp_costs fs' idx x (uc c) (ue e) t = comp_costs fs idx x c e t.
Proof.
  intros x c e t. unfold comp_costs. rewrite l_flows, map_map. change (cp_onoff (uc c)) with (cp_onoff c). change (cp_label (uc c)) with (cp_label c). f_equal.
  - f_equal. apply map_ext. intros f. unfold flow_costs. rewrite l_governed, l_cost. change (f_effects (uf c f)) with (f_effects f). change (hours fs' idx t) with (hours fs idx t). change (rate_of x (uc c) (uf c f) t) with (rate_of x c f t).
    change (flow_name (uc c) (uf c f)) with (flow_name c f). destruct (governed fs idx c f) as [p|]; [rewrite l_onoff_costs|]; reflexivity.
  - destruct (cp_onoff c) as [p|]; [apply l_onoff_costs|reflexivity].
Qed.
Lemma l_invest_costs : forall x nm iv e, invest_costs fs' x nm iv (ue e) = invest_costs fs x nm iv e.
Proof. intros. unfold invest_costs. rewrite !l_cost. reflexivity. Qed.

(** How effects add up. *)
Definition accounting (s : flow_system) (x : asg) (e : effect) : Prop :=
  (forall t, (t < steps s idx)%nat -> op_at x e t == Qsum (map (fun c => comp_costs s idx x c e t) (fs_comps s)) + op_from_effects s idx x e t)
  /\ op_sum x e == sumn (steps s idx) (fun t => op_at x e t)
  /\ inv_sum x e == Qsum (map (fun ni => invest_costs s x (fst ni) (snd ni) e) (investments cf s)) + inv_from_effects s x e
  /\ all_sum x e == op_sum x e + inv_sum x e.
Definition caps_hold (x : asg) (e : effect) (k : effect_limits) : Prop :=
  at_least (el_min_op k) (op_sum x e) /\ at_most (el_max_op k) (op_sum x e)
  /\ at_least (el_min_inv k) (inv_sum x e) /\ at_most (el_max_inv k) (inv_sum x e)
  /\ at_least (el_min_tot k) (op_sum x e + inv_sum x e) /\ at_most (el_max_tot k) (op_sum x e + inv_sum x e)
  /\ forall t, (t < steps fs idx)%nat ->
       at_least (option_map (fun p => value idx p t * hours fs idx t) (el_min_ph k)) (op_at x e t)
       /\ at_most (option_map (fun p => value idx p t * hours fs idx t) (el_max_ph k)) (op_at x e t).
Lemma l_accounting : forall x e, accounting fs' x (ue e) <-> accounting fs x e.
Proof.
  intros x e. unfold accounting. rewrite l_investments. change (steps fs' idx) with (steps fs idx).
  assert (C1 : forall t, Qsum (map (fun c => comp_costs fs' idx x c (ue e) t) (fs_comps fs')) = Qsum (map (fun c => comp_costs fs idx x c e t) (fs_comps fs))).
  { intros t. change (fs_comps fs') with (map uc (fs_comps fs)). rewrite map_map. f_equal. apply map_ext. intros c. apply l_comp_costs. }
  assert (C2 : forall t, op_from_effects fs' idx x (ue e) t = op_from_effects fs idx x e t).
  { intros t. unfold op_from_effects. change (fs_effects fs') with (map ue (fs_effects fs)). rewrite map_map. reflexivity. }
  assert (C3 : map (fun ni => invest_costs fs' x (fst ni) (snd ni) (ue e)) (investments cf fs) = map (fun ni => invest_costs fs x (fst ni) (snd ni) e) (investments cf fs)) by (apply map_ext; intros ni; apply l_invest_costs).
  assert (C4 : inv_from_effects fs' x (ue e) = inv_from_effects fs x e).
  { unfold inv_from_effects. change (fs_effects fs') with (map ue (fs_effects fs)). rewrite map_map. reflexivity. }
  rewrite C3, C4. split; intros [A1 A2]; (split; [|exact A2]); intros t Ht; specialize (A1 t Ht); rewrite C1, C2 in *; exact A1.
Qed.
Lemma l_effect_rule : forall x e, effect_rule cf fs' idx x (ue e) <-> accounting fs x e /\ caps_hold x e (of_effect L e).
Proof.
  intros x e. rewrite <- (l_accounting x e). split.
  - intros [A1 [A2 [A3 [A4 R]]]]. split; [exact (conj A1 (conj A2 (conj A3 A4)))|exact R].
  - intros [[A1 [A2 [A3 A4]]] R]. exact (conj A1 (conj A2 (conj A3 (conj A4 R)))).
Qed.

(** The rules that do not know limits. *)
Record rest (x : asg) : Prop := {
  rs_running : forall c p, In c (fs_comps fs) -> cp_onoff c = Some p -> running_rule cf fs idx x c p;
  rs_exclusion : forall c, In c (fs_comps fs) -> exclusion_rule fs idx x c;
  rs_own : forall c, In c (fs_comps fs) -> own_rule cf fs idx x c;
  rs_segments : forall name iv, In (name, iv) (investments cf fs) -> segments_rule fs x name iv;
  rs_bus : forall b, used_bus fs b -> bus_rule fs idx x b;
  rs_accounting : forall e, In e (fs_effects fs) -> accounting fs x e;
  rs_penalty : forall bl, NoDup bl -> (forall b, In b bl <-> used_bus fs b) -> penalty_sum x == Qsum (map (bus_price fs idx x) bl)
}.
Lemma l_obeys : forall x, obeys cf fs' idx x <-> (forall c f, In c (fs_comps fs) -> In f (cp_flows c) -> flow_rule cf fs' idx x (uc c) (uf c f)) /\ (forall e, In e (fs_effects fs) -> caps_hold x e (of_effect L e)) /\ rest x.
Proof.
  intros x. assert (CI : forall c, In c (fs_comps fs) -> In (uc c) (fs_comps fs')) by (intros c; apply in_map).
  assert (FI : forall c f, In f (cp_flows c) -> In (uf c f) (cp_flows (uc c))) by (intros c f H; rewrite l_flows; apply in_map, H).
  assert (EI : forall e, In e (fs_effects fs) -> In (ue e) (fs_effects fs')) by (intros e; apply in_map).
  assert (IC : forall c', In c' (fs_comps fs') -> exists c, c' = uc c /\ In c (fs_comps fs)) by (intros c' Hc'; apply in_map_iff in Hc'; destruct Hc' as [c [<- Hc]]; eauto).
  split.
  - intros [O1 O2 O3 O4 O5 O6 O7 O8]. rewrite l_investments in O5. split; [intros c f Hc Hf; apply O1; auto|]. split; [intros e He; exact (proj2 (proj1 (l_effect_rule x e) (O7 _ (EI e He))))|]. constructor.
    + intros c p Hc E. apply l_running, O2; auto.
    + intros c Hc. apply l_exclusion, O3; auto.
    + intros c Hc. apply l_own, O4; auto.
    + intros nm iv H. apply l_segments, O5, H.
    + intros b U. apply l_bus_rule, O6, l_used, U.
    + intros e He. exact (proj1 (proj1 (l_effect_rule x e) (O7 _ (EI e He)))).
    + intros bl ND U. apply (O8 bl ND). intros b. rewrite l_used. apply U.
  - intros [O1 [K [R1 R2 R3 R4 R5 R6 R7]]]. constructor.
    + intros c' f' Hc' Hf'. destruct (IC c' Hc') as [c [-> Hc]]. rewrite l_flows in Hf'. apply in_map_iff in Hf'. destruct Hf' as [f [<- Hf]]. auto.
    + intros c' p Hc' E. destruct (IC c' Hc') as [c [-> Hc]]. apply l_running, R1; auto.
    + intros c' Hc'. destruct (IC c' Hc') as [c [-> Hc]]. apply l_exclusion; auto.
    + intros c' Hc'. destruct (IC c' Hc') as [c [-> Hc]]. apply l_own; auto.
    + rewrite l_investments. intros nm iv H. apply l_segments; auto.
    + intros b U. apply l_bus_rule, R5, l_used, U.
    + intros e' He'. apply in_map_iff in He'. destruct He' as [e [<- He]]. apply l_effect_rule. auto.
    + intros bl ND U. apply (R7 bl ND). intros b. rewrite <- l_used. apply U.
Qed.
Lemma l_same_decisions : forall x y, same_decisions cf fs idx x y -> same_decisions cf fs' idx x y.
Proof.
  assert (IC : forall c', In c' (fs_comps fs') -> exists c, c' = uc c /\ In c (fs_comps fs)) by (intros c' Hc'; apply in_map_iff in Hc'; destruct Hc' as [c [<- Hc]]; eauto).
  assert (IF : forall c f', In f' (cp_flows (uc c)) -> exists f, f' = uf c f /\ In f (cp_flows c)) by (intros c f' Hf'; rewrite l_flows in Hf'; apply in_map_iff in Hf'; destruct Hf' as [f [<- Hf]]; eauto).
  intros x y [S1 S2 S3 S4 S5]. constructor; rewrite ?l_investments.
  - intros c' f' t Hc' Hf'. destruct (IC c' Hc') as [c [-> Hc]]. destruct (IF c f' Hf') as [f [-> Hf]]. exact (S1 c f t Hc Hf).
  - intros c' t Hc'. destruct (IC c' Hc') as [c [-> Hc]]. exact (S2 c t Hc).
  - exact S3.
  - intros c' segs t Hc' K Ht O. destruct (IC c' Hc') as [c [-> Hc]]. destruct (S4 c segs t Hc K Ht O) as (k & u & v & U0 & U1 & V0 & V1 & H). exists k, u, v. repeat (split; [assumption|]).
    intros f' Hf'. destruct (IF c f' Hf') as [f [-> Hf]]. exact (H f Hf).
  - intros nm iv spts eff H E O. destruct (S5 nm iv spts eff H E O) as (k & u & v & U0 & U1 & V0 & V1 & P1 & P2 & P3). exists k, u, v. repeat (split; [assumption|]).
    intros i l e' Hi He' EI. apply in_map_iff in He'. destruct He' as [e [<- He]]. exact (P3 i l e Hi He EI).
Qed.
End Parts.

(** ** Mixing plans of two systems *)
Lemma some_bounds : forall l : list Q, exists lo hi, forall q, In q l -> lo <= q /\ q <= hi.
Proof.
  induction l as [|a l [lo [hi H]]]; [exists 0, 0; intros q []|]. exists (if Qle_bool a lo then a else lo), (if Qle_bool hi a then a else hi).
  assert (X1 : (if Qle_bool a lo then a else lo) <= a /\ (if Qle_bool a lo then a else lo) <= lo).
  { destruct (Qle_bool a lo) eqn:E; [apply Qle_bool_iff in E; split; [apply Qle_refl|exact E]|]. split; [|apply Qle_refl]. destruct (Qlt_le_dec lo a) as [G|G]; [apply Qlt_le_weak, G|apply Qle_bool_iff in G; congruence]. }
  assert (X2 : a <= (if Qle_bool hi a then a else hi) /\ hi <= (if Qle_bool hi a then a else hi)).
  { destruct (Qle_bool hi a) eqn:E; [apply Qle_bool_iff in E; split; [apply Qle_refl|exact E]|]. split; [|apply Qle_refl]. destruct (Qlt_le_dec a hi) as [G|G]; [apply Qlt_le_weak, G|apply Qle_bool_iff in G; congruence]. }
  intros q [<-|Hq]; [tauto|]. destruct (H q Hq) as [H1 H2]. split; [apply Qle_trans with lo; tauto|apply Qle_trans with hi; tauto].
Qed.

Section Both.
Variables (cf : config) (fs : flow_system) (idx : option (list nat)) (w : Q) (A B M : limits) (x y : asg).
Hypothesis W0 : 0 <= w.
Hypothesis W1 : w <= 1.
Hypothesis BT : between w cf fs idx A B M.
Hypothesis IDS : forall c, In c (fs_comps fs) -> NoDup (map f_id (cp_flows c)).
Hypothesis EPS : 0 < cf_eps cf.
Hypothesis N1 : (1 <= steps fs idx)%nat.
Hypothesis OX : obeys cf (limited A fs) idx x.
Hypothesis OY : obeys cf (limited B fs) idx y.
Hypothesis SD : same_decisions cf fs idx x y.
Local Notation z := (blend w x y).

Lemma flow_to : forall L L' u c f, flow_rule cf (limited L fs) idx u (l_comp L c) (l_flow L c f) ->
  (forall t, (t < steps fs idx)%nat -> governed fs idx c f = None \/ runs u c f t = true -> within_limits cf idx (l_comp L' c) (l_flow L' c f) t (rate_of u c f t)) ->
  (forall iv, sized cf c f = SzInv iv -> of_flow L c f = of_flow L' c f) ->
  flow_rule cf (limited L' fs) idx u (l_comp L' c) (l_flow L' c f).
Proof.
  intros L L' u c f [[A1 A2 A3 A4 A5 A6 A7] MK] H E. split; [|exact MK]. constructor.
  - intros G t Ht. apply H; [exact Ht|left; exact G].
  - exact A2.
  - intros G t Ht R. split; [apply (A3 G t Ht R)|apply H; [exact Ht|right; exact R]].
  - exact A4.
  - intros iv SZ. rewrite l_sized in SZ. apply A5. rewrite l_sized. exact SZ.
  - intros iv SZ t Ht. rewrite l_sized in SZ. specialize (A6 iv ltac:(rewrite l_sized; exact SZ) t Ht). rewrite l_size_of in *. cbn [l_flow f_profile f_relmin f_relmax] in *. rewrite <- (E iv SZ). exact A6.
  - cbv zeta in *. rewrite l_size_of in *. exact A7.
Qed.
Lemma l_within : forall L c f t r, within_limits cf idx (l_comp L c) (l_flow L c f) t r
  <-> lowest idx (of_flow L c f) t * fst (size_range cf (sized cf c f)) <= r /\ r <= highest idx (of_flow L c f) t * snd (size_range cf (sized cf c f)).
Proof. intros L c f t r. unfold within_limits. rewrite l_sized. reflexivity. Qed.
Lemma rule_within : forall L u c f t, flow_rule cf (limited L fs) idx u (l_comp L c) (l_flow L c f) -> (t < steps fs idx)%nat -> governed fs idx c f = None \/ runs u c f t = true ->
  within_limits cf idx (l_comp L c) (l_flow L c f) t (rate_of u c f t).
Proof.
  intros L u c f t [[A1 A2 A3 _ _ _ _] _] Ht G. destruct (governed fs idx c f) as [o|] eqn:E.
  - destruct G as [G|G]; [discriminate G|]. apply (A3 ltac:(rewrite l_governed, E; discriminate) t Ht G).
  - exact (A1 ltac:(rewrite l_governed; exact E) t Ht).
Qed.

Definition wide (lo hi : Q) : limits :=
  mkLimits (fun c f => match sized cf c f with SzNum _ => mkRates None (PNum (NS lo)) (PNum (NS hi)) | SzInv _ => of_flow M c f end)
           (fun _ => mkCaps None None None None None None None None).
Lemma to_wide : forall lo hi L u, obeys cf (limited L fs) idx u ->
  (forall c f, In c (fs_comps fs) -> In f (cp_flows c) -> match sized cf c f with
     | SzNum s => 0 <= given_size cf s /\ forall t, (t < steps fs idx)%nat -> lo <= lowest idx (of_flow L c f) t /\ highest idx (of_flow L c f) t <= hi
     | SzInv _ => of_flow L c f = of_flow M c f end) ->
  obeys cf (limited (wide lo hi) fs) idx u.
Proof.
  intros lo hi L u O H. apply (l_obeys L cf fs idx IDS) in O. destruct O as [O1 [_ O3]]. apply (l_obeys (wide lo hi) cf fs idx IDS). split; [|split; [|exact O3]].
  - intros c f Hc Hf. specialize (H c f Hc Hf). apply (flow_to L); [exact (O1 c f Hc Hf)| |].
    + intros t Ht G. pose proof (rule_within L u c f t (O1 c f Hc Hf) Ht G) as WL. apply l_within in WL. apply l_within. unfold wide. cbn [of_flow]. destruct (sized cf c f) as [s|iv] eqn:SZ; rewrite ?SZ in *; [|rewrite <- H; exact WL].
      destruct H as [S0 H]. destruct (H t Ht) as [H1 H2]. destruct WL as [WL1 WL2]. cbn [size_range fst snd] in *. unfold lowest at 1, highest at 1. cbn [rl_profile rl_min rl_max]. unfold value. cbn [pdata].
      split; [apply Qle_trans with (2 := WL1)|apply Qle_trans with (1 := WL2)]; apply Qmult_le_compat_r; assumption.
    + intros iv SZ. unfold wide. cbn [of_flow]. rewrite SZ in *. exact H.
  - intros e He. unfold caps_hold, wide. cbn [of_effect el_min_op el_max_op el_min_inv el_max_inv el_min_ph el_max_ph el_min_tot el_max_tot option_map].
    repeat split; intros l E; discriminate E.
Qed.
Lemma both_wide : exists lo hi, obeys cf (limited (wide lo hi) fs) idx x /\ obeys cf (limited (wide lo hi) fs) idx y.
Proof.
  destruct (some_bounds (flat_map (fun c => flat_map (fun f => flat_map (fun t =>
      [lowest idx (of_flow A c f) t; highest idx (of_flow A c f) t; lowest idx (of_flow B c f) t; highest idx (of_flow B c f) t]) (seq 0 (steps fs idx))) (cp_flows c)) (fs_comps fs))) as [lo [hi H]].
  assert (K : forall c f t q, In c (fs_comps fs) -> In f (cp_flows c) -> (t < steps fs idx)%nat ->
     In q [lowest idx (of_flow A c f) t; highest idx (of_flow A c f) t; lowest idx (of_flow B c f) t; highest idx (of_flow B c f) t] -> lo <= q /\ q <= hi).
  { intros c f t q Hc Hf Ht Hq. apply H. apply in_flat_map. exists c. split; [exact Hc|]. apply in_flat_map. exists f. split; [exact Hf|]. apply in_flat_map. exists t. split; [apply in_seq; lia|exact Hq]. }
  exists lo, hi. split; [apply (to_wide lo hi A x OX)|apply (to_wide lo hi B y OY)]; intros c f Hc Hf; pose proof (bt_rates _ _ _ _ _ _ _ BT c f Hc Hf) as R; (destruct (sized cf c f) as [s|iv]; [|tauto]); (split; [apply R|]); intros t Ht;
    (split; [eapply proj1|eapply proj2]); apply (K c f t); try assumption; cbn [In]; tauto.
Qed.
Lemma mid_obeys : obeys cf (limited M fs) idx z.
Proof.
  destruct both_wide as [lo [hi [WX WY]]]. pose proof (z_obeys cf (limited (wide lo hi) fs) idx x y w W0 W1 WX WY (l_same_decisions _ cf fs idx x y SD) EPS N1) as WZ.
  apply (l_obeys (wide lo hi) cf fs idx IDS) in WZ. destruct WZ as [Z1 [_ Z3]].
  pose proof OX as OA. pose proof OY as OB. apply (l_obeys A cf fs idx IDS) in OA. apply (l_obeys B cf fs idx IDS) in OB. destruct OA as [A1 [A2 _]]. destruct OB as [B1 [B2 _]].
  apply (l_obeys M cf fs idx IDS). split; [|split; [|exact Z3]].
  - intros c f Hc Hf. pose proof (bt_rates _ _ _ _ _ _ _ BT c f Hc Hf) as R. apply (flow_to (wide lo hi)); [exact (Z1 c f Hc Hf)| |].
    + intros t Ht G. destruct (sized cf c f) as [s|iv] eqn:SZ.
      * assert (GX : (governed fs idx c f = None \/ runs x c f t = true) /\ (governed fs idx c f = None \/ runs y c f t = true)).
        { destruct (governed fs idx c f) as [o|] eqn:GO; [|auto]. destruct G as [G|G]; [discriminate G|].
          destruct (z_runs cf fs idx x y w SD c f t Hc Hf ltac:(rewrite GO; discriminate) Ht) as [E1 E2]. rewrite E2, <- E1. auto. }
        pose proof (rule_within A x c f t (A1 c f Hc Hf) Ht (proj1 GX)) as WA. pose proof (rule_within B y c f t (B1 c f Hc Hf) Ht (proj2 GX)) as WB. apply l_within in WA. apply l_within in WB. apply l_within. rewrite SZ in *. cbn [size_range fst snd] in *.
        destruct R as [S0 R]. destruct (R t Ht) as [R1 R2]. destruct WA as [P1 P2]. destruct WB as [Q1 Q2]. change (rate_of z c f t) with (mix w (rate_of x c f t) (rate_of y c f t)). split.
        -- eapply Qle_trans; [apply Qmult_le_compat_r; [exact R1|exact S0]|]. eapply Qle_trans; [|apply mix_le; [exact W0|exact W1|exact P1|exact Q1]]. apply Qle_lteq. right. unfold mix. ring.
        -- eapply Qle_trans; [|apply Qmult_le_compat_r; [exact R2|exact S0]]. eapply Qle_trans; [apply mix_le; [exact W0|exact W1|exact P2|exact Q2]|]. apply Qle_lteq. right. unfold mix. ring.
      * pose proof (rule_within (wide lo hi) z c f t (Z1 c f Hc Hf) Ht G) as WZ. apply l_within in WZ. apply l_within. unfold wide in WZ. cbn [of_flow] in WZ. rewrite SZ in *. exact WZ.
    + intros iv SZ. unfold wide. cbn [of_flow]. rewrite SZ. reflexivity.
  - intros e He. destruct (A2 e He) as [P1 [P2 [P3 [P4 [P5 [P6 P7]]]]]]. destruct (B2 e He) as [Q1 [Q2 [Q3 [Q4 [Q5 [Q6 Q7]]]]]].
    destruct (bt_op _ _ _ _ _ _ _ BT e He) as [K1 K2]. destruct (bt_inv _ _ _ _ _ _ _ BT e He) as [K3 K4]. destruct (bt_tot _ _ _ _ _ _ _ BT e He) as [K5 K6].
    assert (LL : forall a b m p q r, floor_between w a b m -> at_least a p -> at_least b q -> r == mix w p q -> at_least m r).
    { intros a b m p q r F HA HB E k Ek. destruct (F k Ek) as [i [j [Ei [Ej Lk]]]]. rewrite E. apply Qle_trans with (1 := Lk). apply mix_le; auto. }
    assert (UU : forall a b m p q r, ceiling_between w a b m -> at_most a p -> at_most b q -> r == mix w p q -> at_most m r).
    { intros a b m p q r F HA HB E k Ek. destruct (F k Ek) as [i [j [Ei [Ej Lk]]]]. rewrite E. apply Qle_trans with (2 := Lk). apply mix_le; auto. }
    assert (T : op_sum z e + inv_sum z e == mix w (op_sum x e + inv_sum x e) (op_sum y e + inv_sum y e)).
    { change (op_sum z e) with (mix w (op_sum x e) (op_sum y e)). change (inv_sum z e) with (mix w (inv_sum x e) (inv_sum y e)). unfold mix. ring. }
    split; [eapply LL; [exact K1|exact P1|exact Q1|reflexivity]|]. split; [eapply UU; [exact K2|exact P2|exact Q2|reflexivity]|]. split; [eapply LL; [exact K3|exact P3|exact Q3|reflexivity]|].
    split; [eapply UU; [exact K4|exact P4|exact Q4|reflexivity]|]. split; [eapply LL; [exact K5|exact P5|exact Q5|exact T]|]. split; [eapply UU; [exact K6|exact P6|exact Q6|exact T]|].
    intros t Ht. destruct (bt_ph _ _ _ _ _ _ _ BT e t He Ht) as [K7 K8]. destruct (P7 t Ht) as [P71 P72]. destruct (Q7 t Ht) as [Q71 Q72]. pose proof (bt_hours _ _ _ _ _ _ _ BT t Ht) as H0. split.
    + eapply LL; [|exact P71|exact Q71|reflexivity]. intros k Ek. destruct (el_min_ph (of_effect M e)) as [p|]; [|discriminate Ek]. injection Ek as <-.
      destruct (K7 _ eq_refl) as [i [j [Ei [Ej Lk]]]]. destruct (el_min_ph (of_effect A e)) as [pa|]; [|discriminate Ei]. destruct (el_min_ph (of_effect B e)) as [pb|]; [|discriminate Ej]. injection Ei as <-. injection Ej as <-.
      exists (value idx pa t * hours fs idx t), (value idx pb t * hours fs idx t). split; [reflexivity|]. split; [reflexivity|]. eapply Qle_trans; [apply Qmult_le_compat_r; [exact Lk|exact H0]|]. apply Qle_lteq. right. unfold mix. ring.
    + eapply UU; [|exact P72|exact Q72|reflexivity]. intros k Ek. destruct (el_max_ph (of_effect M e)) as [p|]; [|discriminate Ek]. injection Ek as <-.
      destruct (K8 _ eq_refl) as [i [j [Ei [Ej Lk]]]]. destruct (el_max_ph (of_effect A e)) as [pa|]; [|discriminate Ei]. destruct (el_max_ph (of_effect B e)) as [pb|]; [|discriminate Ej]. injection Ei as <-. injection Ej as <-.
      exists (value idx pa t * hours fs idx t), (value idx pb t * hours fs idx t). split; [reflexivity|]. split; [reflexivity|]. eapply Qle_trans; [|apply Qmult_le_compat_r; [exact Lk|exact H0]]. apply Qle_lteq. right. unfold mix. ring.
Qed.
End Both.

(** ** C96 *)
Lemma l_objective : forall L cf ord fs idx pm, build cf ord (limited L fs) idx = Ok pm -> exists e, find e_obj (fs_effects fs) = Some e /\ forall u, objective_value pm u == plan_cost u e.
Proof.
  intros L cf ord fs idx pm B. assert (F : find e_obj (fs_effects (limited L fs)) = option_map (l_effect L) (find e_obj (fs_effects fs))).
  { cbn [limited fs_effects]. induction (fs_effects fs) as [|a l IH]; [reflexivity|]. cbn [map find]. change (e_obj (l_effect L a)) with (e_obj a). destruct (e_obj a); [reflexivity|exact IH]. }
  destruct (C21_objective cf ord (limited L fs) idx pm (fun _ _ => 0) B) as [e' [Fe' _]]. rewrite F in Fe'. destruct (find e_obj (fs_effects fs)) as [e|]; [|discriminate Fe']. injection Fe' as E. exists e. split; [reflexivity|].
  intros u. destruct (C21_objective cf ord (limited L fs) idx pm u B) as [e2 [Fe2 Ou]]. rewrite F in Fe2. injection Fe2 as <-. exact Ou.
Qed.
Lemma l_ids : forall L cf ord fs idx pm, build cf ord (limited L fs) idx = Ok pm -> forall c, In c (fs_comps fs) -> NoDup (map f_id (cp_flows c)).
Proof.
  intros L cf ord fs idx pm B c Hc. pose proof (PropsComp.comp_ids cf ord (limited L fs) idx pm (l_comp L c) B (in_map _ _ _ Hc)) as N. rewrite l_flows, map_map in N. exact N.
Qed.

(** Solutions at both ends that take the same decisions give a solution in between: every quantity is the mean, and so is the cost. *)
Theorem C96_mixture : forall w A B M cf oa ob om fs idx pa pb pm x y,
  (forall l, Permutation (oa l) l) -> (forall l, Permutation (ob l) l) -> (forall l, Permutation (om l) l) ->
  build cf oa (limited A fs) idx = Ok pa -> build cf ob (limited B fs) idx = Ok pb -> build cf om (limited M fs) idx = Ok pm ->
  sensible cf (limited A fs) idx -> sensible cf (limited B fs) idx -> sensible cf (limited M fs) idx ->
  0 <= w -> w <= 1 -> between w cf fs idx A B M -> feasible pa x -> feasible pb y -> same_decisions cf fs idx x y ->
  exists z, feasible pm z /\ same_plan cf (limited M fs) idx (blend w x y) z /\ objective_value pm z == (1 - w) * objective_value pa x + w * objective_value pb y.
Proof.
  intros w A B M cf oa ob om fs idx pa pb pm x y PA PB PM BA BB BM SA SB SM W0 W1 BT FX FY SD.
  pose proof (C57_solutions _ _ _ _ _ _ PA BA SA FX) as OX. pose proof (C57_solutions _ _ _ _ _ _ PB BB SB FY) as OY. pose proof (se_steps _ _ _ SM) as N. change (steps (limited M fs) idx) with (steps fs idx) in N.
  pose proof (mid_obeys cf fs idx w A B M x y W0 W1 BT (l_ids _ _ _ _ _ _ BM) (proj1 (se_eps _ _ _ SM)) ltac:(lia) OX OY SD) as OZ.
  destruct (proj1 (C57_plans _ _ _ _ _ _ PM BM SM) OZ) as [z [SP F]]. exists z. split; [exact F|]. split; [exact SP|].
  destruct (l_objective _ _ _ _ _ _ BA) as [e [Fe VA]]. destruct (l_objective _ _ _ _ _ _ BB) as [e1 [Fe1 VB]]. destruct (l_objective _ _ _ _ _ _ BM) as [e2 [Fe2 VM]]. rewrite Fe in Fe1, Fe2. injection Fe1 as <-. injection Fe2 as <-.
  rewrite VA, VB, VM. pose proof (same_cost _ _ _ _ _ (l_effect M e) SP ltac:(apply in_map; apply find_some in Fe; apply Fe)) as C. change (plan_cost z e == plan_cost (blend w x y) e) in C. rewrite C.
  unfold plan_cost. change (op_sum (blend w x y) e) with (mix w (op_sum x e) (op_sum y e)). change (inv_sum (blend w x y) e) with (mix w (inv_sum x e) (inv_sum y e)). change (penalty_sum (blend w x y)) with (mix w (penalty_sum x) (penalty_sum y)). unfold mix. ring.
Qed.
Print Assumptions C96_mixture.

Lemma nothing_decided : forall cf fs idx x y, no_decisions cf fs idx -> same_decisions cf fs idx x y.
Proof.
  intros cf fs idx x y [D1 D2 D3]. constructor.
  - intros c f t Hc Hf G _. exfalso. apply G, D1; assumption.
  - intros c t Hc G _. exfalso. apply G, D2, Hc.
  - intros nm iv H O. destruct (D3 nm iv H) as [E _]. congruence.
  - intros c segs t Hc K. exfalso. exact (proj2 (D2 c Hc) segs K).
  - intros nm iv spts eff H E. destruct (D3 nm iv H) as [_ E']. congruence.
Qed.

(** Without decisions: if there are solutions at both ends, there is one in between, and the best cost there is at most the mean of the best costs at both
    ends. Half way, the second half of the way costs at least as much as the first one. *)
Theorem C96_convex : forall w A B M cf oa ob om fs idx pa pb pm,
  (forall l, Permutation (oa l) l) -> (forall l, Permutation (ob l) l) -> (forall l, Permutation (om l) l) ->
  build cf oa (limited A fs) idx = Ok pa -> build cf ob (limited B fs) idx = Ok pb -> build cf om (limited M fs) idx = Ok pm ->
  sensible cf (limited A fs) idx -> sensible cf (limited B fs) idx -> sensible cf (limited M fs) idx ->
  no_decisions cf fs idx -> 0 <= w -> w <= 1 -> between w cf fs idx A B M ->
  ((exists x, feasible pa x) -> (exists y, feasible pb y) -> exists z, feasible pm z)
  /\ forall qa qb qm, least pa qa -> least pb qb -> least pm qm -> qm <= (1 - w) * qa + w * qb /\ (w == 1 # 2 -> qm - qa <= qb - qm).
Proof.
  intros w A B M cf oa ob om fs idx pa pb pm PA PB PM BA BB BM SA SB SM ND W0 W1 BT.
  assert (K : forall x y, feasible pa x -> feasible pb y -> exists z, feasible pm z /\ objective_value pm z == (1 - w) * objective_value pa x + w * objective_value pb y).
  { intros x y FX FY. destruct (C96_mixture w A B M cf oa ob om fs idx pa pb pm x y PA PB PM BA BB BM SA SB SM W0 W1 BT FX FY (nothing_decided _ _ _ x y ND)) as (z & F & _ & E). eauto. }
  split; [intros [x FX] [y FY]; destruct (K x y FX FY) as [z [F _]]; eauto|].
  intros qa qb qm [[x [FX EX]] _] [[y [FY EY]] _] [_ LM]. destruct (K x y FX FY) as [z [F E]]. specialize (LM z F). rewrite E, EX, EY in LM. split; [exact LM|]. intros H. rewrite H in LM. lra.
Qed.
Print Assumptions C96_convex.

(** ** Examples *)

(** A clean source for 3 and a dirty one for 1 per unit, a demand of [d] in each of two hours and a limit [cap] of emissions. *)
Definition emission : effect := mkEffect 1 "CO2" false false [] [] None None None None None None None None.
Definition price : effect := mkEffect 0 "costs" true true [] [] None None None None None None None None.
Definition clean_flow : flow := set_eff (EVDict [(Some 0%nat, n1 3)]) (fl 181 "Q" gas 10).
Definition dirty_flow : flow := set_eff (EVDict [(Some 0%nat, n1 1); (Some 1%nat, n1 1)]) (fl 183 "Q" gas 10).
Definition fs_two : flow_system := mkFS [0; 1] 2 (NS 1) [price; emission] [Library.source "Clean" clean_flow; Library.source "Dirty" dirty_flow; Library.sink "Need" (fl 182 "Q" gas 1)].
Definition ends (d cap : Q) : limits :=
  mkLimits (fun _ f => mkRates (if Nat.eqb (f_id f) 182 then Some (n1 d) else f_profile f) (f_relmin f) (f_relmax f))
           (fun e => mkCaps None None None None None None None (if Nat.eqb (e_id e) 1 then Some cap else None)).
Definition supply (c d : Q) : asg := of_table [
  ("Clean__Q_flow_rate", [c; c]); ("Clean__Q_sumFlowHours", [2 * c]); ("Dirty__Q_flow_rate", [d; d]); ("Dirty__Q_sumFlowHours", [2 * d]); ("Need__Q_flow_rate", [c + d; c + d]); ("Need__Q_sumFlowHours", [2 * (c + d)]);
  ("costs__Clean__Q__effects_per_flow_hour", [3 * c; 3 * c]); ("costs__Dirty__Q__effects_per_flow_hour", [d; d]); ("CO2__Dirty__Q__effects_per_flow_hour", [d; d]);
  ("costs__operation", [2 * (3 * c + d)]); ("costs__operation_operation_sum_TS", [3 * c + d; 3 * c + d]); ("costs__operation_operation_sum", [2 * (3 * c + d)]); ("costs__all_all_sum", [2 * (3 * c + d)]);
  ("CO2__operation", [2 * d]); ("CO2__operation_operation_sum_TS", [d; d]); ("CO2__operation_operation_sum", [2 * d]); ("CO2__all_all_sum", [2 * d])].
Lemma two_buses : forall L b, used_bus (limited L fs_two) b -> b = gas.
Proof. intros L b [c [f [Hc [Hf E]]]]. cbn in Hc. destruct Hc as [<-|[<-|[<-|[]]]]; cbn in Hf; destruct Hf as [<-|[]]; symmetry; exact E. Qed.
Lemma two_sensible : forall d cap, sensible_b default_config (limited (ends d cap) fs_two) None = true -> sensible default_config (limited (ends d cap) fs_two) None.
Proof.
  intros d cap H. apply sensible_check; [exact H| |].
  - split; intros b b' U U' _; rewrite (two_buses _ b U), (two_buses _ b' U'); reflexivity.
  - intros c Hc. cbn in Hc. destruct Hc as [<-|[<-|[<-|[]]]]; cbn; split; try constructor; exact Logic.I.
Qed.
Lemma two_free : no_decisions default_config fs_two None.
Proof.
  constructor.
  - intros c f Hc Hf. cbn [fs_two fs_comps In] in Hc. destruct Hc as [<-|[<-|[<-|[]]]]; cbn in Hf; destruct Hf as [<-|[]]; reflexivity.
  - intros c Hc. cbn [fs_two fs_comps In] in Hc. destruct Hc as [<-|[<-|[<-|[]]]]; (split; [reflexivity|discriminate]).
  - intros nm iv H. destruct H.
Qed.
Lemma two_between : forall w d cap d' cap', between w default_config fs_two None (ends d cap) (ends d' cap') (ends (mix w d d') (mix w cap cap')).
Proof.
  intros w d cap d' cap'. constructor.
  - intros c f Hc Hf. cbn in Hc. destruct Hc as [<-|[<-|[<-|[]]]]; cbn in Hf; destruct Hf as [<-|[]]; cbn [sized]; (split; [vm_compute; discriminate|]; intros t _; unfold lowest, highest; cbn -[Qmult Qplus Qminus]; unfold mix; split; apply Qle_lteq; right; ring).
  - intros e _. split; intros k H; discriminate H.
  - intros e _. split; intros k H; discriminate H.
  - intros e _. split; [intros k H; discriminate H|]. cbn [ends of_effect el_max_tot]. intros k. destruct (Nat.eqb (e_id e) 1); [|discriminate]. intros H. injection H as <-. exists cap, cap'. repeat split. apply Qle_refl.
  - intros e t _ _. split; intros k H; discriminate H.
  - intros t Ht. destruct t as [|[|t]]; [vm_compute; discriminate|vm_compute; discriminate|cbn in Ht; lia].
Qed.

(** A demand of 2 with a limit of 8, a demand of 6 with a limit of 4, and half way a demand of 4 with a limit of 6. *)
Example C96_applies : exists pa pb pm qa qb qm,
  build default_config id_ord (limited (ends 2 8) fs_two) None = Ok pa /\ build default_config id_ord (limited (ends 6 4) fs_two) None = Ok pb
  /\ build default_config id_ord (limited (ends (mix (1 # 2) 2 6) (mix (1 # 2) 8 4)) fs_two) None = Ok pm
  /\ mix (1 # 2) 2 6 == 4 /\ mix (1 # 2) 8 4 == 6 /\ least pa qa /\ least pb qb /\ least pm qm /\ qm - qa <= qb - qm /\ qm <= 16.
Proof.
  assert (XA : exists pm, build default_config id_ord (limited (ends 2 8) fs_two) None = Ok pm /\ feasible pm (supply 0 2)) by (apply run_ok; vm_compute; reflexivity).
  assert (XB : exists pm, build default_config id_ord (limited (ends 6 4) fs_two) None = Ok pm /\ feasible pm (supply 4 2)) by (apply run_ok; vm_compute; reflexivity).
  destruct XA as [pa [BA FA]]. destruct XB as [pb [BB FB]]. destruct (built_of (limited (ends (mix (1 # 2) 2 6) (mix (1 # 2) 8 4)) fs_two) None ltac:(vm_compute; reflexivity)) as [pm BM].
  pose proof (two_sensible 2 8 ltac:(vm_compute; reflexivity)) as SA. pose proof (two_sensible 6 4 ltac:(vm_compute; reflexivity)) as SB. pose proof (two_sensible (mix (1 # 2) 2 6) (mix (1 # 2) 8 4) ltac:(vm_compute; reflexivity)) as SM.
  assert (OR : forall L, in_order (limited L fs_two)) by (intros L; exists (fun i => i); intros e i [<-|[<-|[]]] [[]|[]]).
  assert (FP : forall L, fair_penalties (limited L fs_two) None) by (intros L; apply (fair_check _ _ [gas]); [intros b U; rewrite (two_buses L b U); left; reflexivity|vm_compute; reflexivity]).
  destruct (C96_convex (1 # 2) _ _ _ _ _ _ _ _ _ _ _ _ id_ord_perm id_ord_perm id_ord_perm BA BB BM SA SB SM two_free ltac:(lra) ltac:(lra) (two_between _ _ _ _ _)) as [NE CV].
  destruct (proj1 (proj1 (C94_value _ _ _ _ _ id_ord_perm BA SA (OR _) (FP _))) (ex_intro _ _ FA)) as [qa LA].
  destruct (proj1 (proj1 (C94_value _ _ _ _ _ id_ord_perm BB SB (OR _) (FP _))) (ex_intro _ _ FB)) as [qb LB].
  destruct (proj1 (proj1 (C94_value _ _ _ _ _ id_ord_perm BM SM (OR _) (FP _))) (NE (ex_intro _ _ FA) (ex_intro _ _ FB))) as [qm LM].
  destruct (CV qa qb qm LA LB LM) as [C1 C2]. exists pa, pb, pm, qa, qb, qm. repeat (split; [first [assumption|reflexivity]|]). split; [apply C2; reflexivity|].
  pose proof (proj2 LA _ FA) as VA. pose proof (proj2 LB _ FB) as VB.
  assert (EA : match build default_config id_ord (limited (ends 2 8) fs_two) None with Ok m => Qeq_bool (objective_value m (supply 0 2)) 4 | Err _ => false end = true) by (vm_compute; reflexivity). rewrite BA in EA. apply Qeq_bool_iff in EA.
  assert (EB : match build default_config id_ord (limited (ends 6 4) fs_two) None with Ok m => Qeq_bool (objective_value m (supply 4 2)) 28 | Err _ => false end = true) by (vm_compute; reflexivity). rewrite BB in EB. apply Qeq_bool_iff in EB.
  lra.
Qed.

(** Decisions matter: a plant that runs at 10 or not at all meets a demand of 0 and one of 10, but none of 5. *)
Definition block : flow := set_onoff (Some default_onoff) (set_rel (n1 1) (n1 1) (fl 181 "Q" gas 10)).
Definition fs_block : flow_system := mkFS [0; 1] 2 (NS 1) [price] [Library.source "Plant" block; Library.sink "Need" (fl 182 "Q" gas 1)].
Definition block_on : asg := of_table [("Plant__Q_flow_rate", [10; 10]); ("Plant__Q_sumFlowHours", [20]); ("Plant__Q__OnOff_on", [1; 1]); ("Plant__Q__OnOff_totalOnHours", [2]); ("Plant__Q__OnOff_switchOn", [1; 0]);
  ("Plant__Q__OnOff_nrSwitchOn", [1]); ("Need__Q_flow_rate", [10; 10]); ("Need__Q_sumFlowHours", [20])].
Definition block_off : asg := of_table [].
Lemma block_buses : forall L b, used_bus (limited L fs_block) b -> b = gas.
Proof. intros L b [c [f [Hc [Hf E]]]]. cbn in Hc. destruct Hc as [<-|[<-|[]]]; cbn in Hf; destruct Hf as [<-|[]]; symmetry; exact E. Qed.
Lemma block_sensible : forall d, sensible_b default_config (limited (ends d 0) fs_block) None = true -> sensible default_config (limited (ends d 0) fs_block) None.
Proof.
  intros d H. apply sensible_check; [exact H| |].
  - split; intros b b' U U' _; rewrite (block_buses _ b U), (block_buses _ b' U'); reflexivity.
  - intros c Hc. cbn in Hc. destruct Hc as [<-|[<-|[]]]; cbn; split; try constructor; exact Logic.I.
Qed.
Example C96_decisions_matter : exists pa pb pm,
  build default_config id_ord (limited (ends 0 0) fs_block) None = Ok pa /\ build default_config id_ord (limited (ends 10 0) fs_block) None = Ok pb
  /\ build default_config id_ord (limited (ends 5 0) fs_block) None = Ok pm
  /\ sensible default_config (limited (ends 0 0) fs_block) None /\ sensible default_config (limited (ends 10 0) fs_block) None /\ sensible default_config (limited (ends 5 0) fs_block) None
  /\ between (1 # 2) default_config fs_block None (ends 0 0) (ends 10 0) (ends 5 0)
  /\ (exists x, feasible pa x) /\ (exists y, feasible pb y) /\ ~ exists z, feasible pm z.
Proof.
  assert (XA : exists pm, build default_config id_ord (limited (ends 0 0) fs_block) None = Ok pm /\ feasible pm block_off) by (apply run_ok; vm_compute; reflexivity).
  assert (XB : exists pm, build default_config id_ord (limited (ends 10 0) fs_block) None = Ok pm /\ feasible pm block_on) by (apply run_ok; vm_compute; reflexivity).
  destruct XA as [pa [BA FA]]. destruct XB as [pb [BB FB]]. destruct (built_of (limited (ends 5 0) fs_block) None ltac:(vm_compute; reflexivity)) as [pm BM].
  pose proof (block_sensible 0 ltac:(vm_compute; reflexivity)) as SA. pose proof (block_sensible 10 ltac:(vm_compute; reflexivity)) as SB. pose proof (block_sensible 5 ltac:(vm_compute; reflexivity)) as SM.
  exists pa, pb, pm. repeat (split; [first [assumption|reflexivity]|]). split; [|split; [now exists block_off|split; [now exists block_on|]]].
  - constructor.
    + intros c f Hc Hf. cbn in Hc. destruct Hc as [<-|[<-|[]]]; cbn in Hf; destruct Hf as [<-|[]]; cbn [sized]; (split; [vm_compute; discriminate|]; intros t _; unfold lowest, highest; cbn; split; vm_compute; discriminate).
    + intros e _. split; intros k H; discriminate H.
    + intros e _. split; intros k H; discriminate H.
    + intros e [<-|[]]. split; intros k H; discriminate H.
    + intros e t _ _. split; intros k H; discriminate H.
    + intros t Ht. destruct t as [|[|t]]; [vm_compute; discriminate|vm_compute; discriminate|cbn in Ht; lia].
  - intros [z F]. pose proof (C57_solutions _ _ _ _ _ _ id_ord_perm BM SM F) as O. set (fs := limited (ends 5 0) fs_block) in *.
    set (cp := Library.source "Plant" (l_flow (ends 5 0) (Library.source "Plant" block) block)). set (nd := Library.sink "Need" (l_flow (ends 5 0) (Library.sink "Need" (fl 182 "Q" gas 1)) (fl 182 "Q" gas 1))).
    pose proof (proj1 (ob_flow _ _ _ _ O cp _ (or_introl eq_refl) (or_introl eq_refl))) as AP. pose proof (proj1 (ob_flow _ _ _ _ O nd _ (or_intror (or_introl eq_refl)) (or_introl eq_refl))) as AN.
    pose proof (al_plain _ _ _ _ _ _ _ AN eq_refl 0%nat ltac:(cbn; lia)) as [N1 N2]. change (5 * 1 <= z (vlabel "Need__Q" "flow_rate") 0%nat) in N1. change (z (vlabel "Need__Q" "flow_rate") 0%nat <= 5 * 1) in N2.
    assert (UG : used_bus fs gas) by (exists nd, (l_flow (ends 5 0) (Library.sink "Need" (fl 182 "Q" gas 1)) (fl 182 "Q" gas 1)); split; [right; left; reflexivity|split; [left; reflexivity|reflexivity]]).
    destruct (ob_bus _ _ _ _ O gas UG 0%nat ltac:(cbn; lia)) as [E _].
    change ((z (vlabel "Plant__Q" "flow_rate") 0%nat + 0 + (0 + 0) + 0 == 0 + (z (vlabel "Need__Q" "flow_rate") 0%nat + 0 + 0) + 0)) in E.
    destruct (PlanSpec.runs z cp (l_flow (ends 5 0) (Library.source "Plant" block) block) 0%nat) eqn:R.
    + destruct (al_on _ _ _ _ _ _ _ AP ltac:(discriminate) 0%nat ltac:(cbn; lia) R) as [_ [L _]]. change (1 * 10 <= z (vlabel "Plant__Q" "flow_rate") 0%nat) in L. lra.
    + pose proof (al_off _ _ _ _ _ _ _ AP ltac:(discriminate) 0%nat ltac:(cbn; lia) R) as Z. change (z (vlabel "Plant__Q" "flow_rate") 0%nat == 0) in Z. lra.
Qed.
