(** Claim C98: the unit in which energy and power are given is free. Giving all sizes, rates and stored energies in another unit (MW for kW) changes no
    plan and no cost, if the two constants of the configuration (the smallest rate that counts as running, and the size of what has none) are given in the
    new unit as well. With the constants left as they are, this is wrong. *)
From Coq Require Import Permutation Qabs.
From Verif Require Import Base BaseFacts MathModel Spec Structure Params Features Elements Library System SysSpec AdmitSpec CtxFacts NavFacts PropsOnOff PropsComp PropsEffects PlanSpec Example
     TotalInvest PlanComp PlanSame PlanCheck ExamplePoints PropsPlan PropsRelax PropsSameData ValidSpec ValidCheck PropsTotal PropsRename PropsParts PropsUnits.

(** ** Specification *)

(** One old unit is [k] new ones. Amounts of energy and power are multiplied by [k] (and written with the smallest denominator), prices per unit are
    divided by it; [times] (PropsUnits.v) multiplies every number of a parameter. *)
Section Energy.
Variable k : Q.
Definition kq (q : Q) : Q := Qred (k * q).
Definition k_numeric (d : numeric) : numeric := match d with NS q => NS (kq q) | NV l => NV (map kq l) end.
Definition per_unit (v : evalues) : evalues :=
  match v with EVNone => EVNone | EVOne p => EVOne (times (/ k) p) | EVDict l => EVDict (map (fun kp => (fst kp, times (/ k) (snd kp))) l) end.
Definition k_invest (iv : invest) : invest :=
  mkInvest (option_map kq (iv_fixed iv)) (kq (iv_min iv)) (option_map kq (iv_max iv)) (iv_optional iv) (iv_fix iv) (per_unit (iv_spec iv))
    (match iv_seg iv with Some (s, eff) => Some (map (fun ab => (kq (fst ab), kq (snd ab))) s, eff) | None => None end) (iv_divest iv).
Definition k_size (s : fsize) : fsize := match s with SzNum q => SzNum (option_map kq q) | SzInv iv => SzInv (k_invest iv) end.
Definition k_bus (b : bus) : bus := mkBus (b_id b) (b_lab b) (option_map (times (/ k)) (b_penalty b)).
Definition k_flow (f : flow) : flow :=
  mkFlow (f_id f) (f_lab f) (k_bus (f_bus f)) (k_size (f_size f)) (f_profile f) (f_relmin f) (f_relmax f) (per_unit (f_effects f)) (f_onoff f)
    (option_map kq (f_fh_max f)) (option_map kq (f_fh_min f)) (f_lf_min f) (f_lf_max f) (option_map k_numeric (f_prev f)).
Definition k_storage (s : storage) : storage :=
  mkStorage (match st_cap s with CapNum q => CapNum (kq q) | CapInv iv => CapInv (k_invest iv) end) (st_relmin s) (st_relmax s)
    (match st_init s with ICNum q => ICNum (kq q) | i => i end) (option_map kq (st_fmin s)) (option_map kq (st_fmax s)) (st_eta_c s) (st_eta_d s) (st_loss s).
Definition k_kind (c : ckindc) : ckindc :=
  match c with
  | Plain => Plain
  | Converter eqs => Converter eqs
  | Segmented segs => Segmented (map (fun il : nat * list (param * param) => (fst il, map (fun ab => (times k (fst ab), times k (snd ab))) (snd il))) segs)
  | StorageC s => StorageC (k_storage s)
  | TransmissionC rel abs => TransmissionC rel (option_map (times k) abs)
  end.
Definition k_comp (c : component) : component := mkComponent (cp_label c) (map k_flow (cp_in c)) (map k_flow (cp_out c)) (cp_onoff c) (cp_prevent c) (k_kind (cp_kind c)).
Definition in_energy (fs : flow_system) : flow_system := mkFS (fs_times fs) (fs_end fs) (fs_prev_dt fs) (fs_effects fs) (map k_comp (fs_comps fs)).
Definition k_config (cf : config) : config := mkConfig (kq (cf_eps cf)) (kq (cf_big cf)).

(** [y] is the plan [x] in the new unit: rates, sizes, stored energies and excesses are [k] times what they were; states, starts, decisions and all effects
    are the same. *)
Record rescaled (cf : config) (fs : flow_system) (idx : option (list nat)) (x y : asg) : Prop := {
  rs_rate : forall c f t, In c (fs_comps fs) -> In f (cp_flows c) -> (t < steps fs idx)%nat -> rate_of y c f t == k * rate_of x c f t;
  rs_on : forall c f t, In c (fs_comps fs) -> In f (cp_flows c) -> governed fs idx c f <> None -> (t < steps fs idx)%nat ->
     on_of y c f t == on_of x c f t /\ y (oo (flow_name c f) "switchOn") t == x (oo (flow_name c f) "switchOn") t;
  rs_running : forall c t, In c (fs_comps fs) -> cp_onoff c <> None -> (t < steps fs idx)%nat ->
     y (oo (cp_label c) "on") t == x (oo (cp_label c) "on") t /\ y (oo (cp_label c) "switchOn") t == x (oo (cp_label c) "switchOn") t;
  rs_size : forall name iv, In (name, iv) (investments cf fs) -> y (inv name "size") 0%nat == k * x (inv name "size") 0%nat
     /\ (iv_optional iv = true -> y (inv name "isInvested") 0%nat == x (inv name "isInvested") 0%nat)
     /\ (forall spts eff i l e, iv_seg iv = Some (spts, eff) -> In (i, l) eff -> In e (fs_effects fs) -> e_id e = i -> seg_cost y name e == seg_cost x name e);
  rs_charge : forall c s t, In c (fs_comps fs) -> cp_kind c = StorageC s -> (t <= steps fs idx)%nat -> charge y c t == k * charge x c t;
  rs_excess : forall b t, used_bus fs b -> (t < steps fs idx)%nat ->
     excess y b "excess_input" t == k * excess x b "excess_input" t /\ excess y b "excess_output" t == k * excess x b "excess_output" t;
  rs_effect : forall e, In e (fs_effects fs) ->
     (forall t, (t < steps fs idx)%nat -> op_at y e t == op_at x e t) /\ op_sum y e == op_sum x e /\ inv_sum y e == inv_sum x e /\ all_sum y e == all_sum x e;
  rs_penalty : penalty_sum y == penalty_sum x
}.
End Energy.

(** No name stands for an amount of energy and for something else. *)
Definition energy_names (fs : flow_system) : list string :=
  flat_map (fun n => [vlabel n "flow_rate"; vlabel n "charge_state"; inv n "size"]) (labels_of fs) ++ flat_map (fun b => [vlabel (b_lab b) "excess_input"; vlabel (b_lab b) "excess_output"]) (bus_list fs).
Definition other_names (fs : flow_system) : list string :=
  flat_map (fun n => [oo n "on"; oo n "switchOn"; inv n "isInvested"] ++ map (fun e => vlabel (cat [n; "__"; "SegmentedShares"]) (cat [e_label e; "_segmented"])) (fs_effects fs)) (labels_of fs)
  ++ flat_map (fun e => let l := e_label e in [vlabel (cat [l; "__"; "operation"]) "operation_sum_TS"; vlabel (cat [l; "__"; "operation"]) "operation_sum"; vlabel (cat [l; "__"; "invest"]) "invest_sum"; vlabel (cat [l; "__"; "all"]) "all_sum"]) (fs_effects fs)
  ++ [vlabel "Effects__penalty" "penalty_sum"].
Definition energy_apart (fs : flow_system) : Prop := forall s, In s (energy_names fs) -> ~ In s (other_names fs).

(** ** Numbers *)
Section Numbers.
Variable k : Q.
Hypothesis KP : 0 < k.
Notation kq := (kq k).
Lemma kq_is : forall q, kq q == k * q. Proof. intros q. apply Qred_correct. Qed.
Lemma kq_zero : kq 0 = 0. Proof. unfold PropsEnergy.kq. rewrite (Qred_complete (k * 0) 0) by ring. reflexivity. Qed.
Lemma k_eq : forall a b, k * a == k * b <-> a == b. Proof. intros a b. apply cancel, KP. Qed.
Lemma k_le : forall a b, k * a <= k * b <-> a <= b. Proof. intros a b. apply cancel_le, KP. Qed.
Lemma k_nil : forall a, k * a == 0 <-> a == 0. Proof. intros a. rewrite <- (k_eq a 0), Qmult_0_r. reflexivity. Qed.
Lemma kq_nil : forall a, kq a == 0 <-> a == 0. Proof. intros a. rewrite kq_is. apply k_nil. Qed.
Lemma kq_truthy : forall a, truthy (kq a) = truthy a.
Proof. intros a. unfold truthy. f_equal. destruct (Qeq_bool (kq a) 0) eqn:E, (Qeq_bool a 0) eqn:F; try reflexivity; [apply Qeq_bool_eq in E; apply (proj1 (kq_nil a)) in E; apply Qeq_bool_neq in F; contradiction|apply Qeq_bool_eq in F; apply (proj2 (kq_nil a)) in F; apply Qeq_bool_neq in E; contradiction]. Qed.
Lemma kq_or : forall o d, or_num (option_map kq o) (kq d) = kq (or_num o d).
Proof. intros [q|] d; cbn [or_num option_map]; [rewrite kq_truthy; destruct (truthy q); reflexivity|reflexivity]. Qed.
Lemma kq_max : forall cf iv, max_size (k_config k cf) (k_invest k iv) = kq (max_size cf iv).
Proof. intros cf iv. unfold max_size. cbn [k_invest iv_fixed iv_max k_config cf_big]. rewrite kq_or, kq_or. reflexivity. Qed.
Lemma kq_range : forall cf s, fst (size_range (k_config k cf) (k_size k s)) == k * fst (size_range cf s) /\ snd (size_range (k_config k cf) (k_size k s)) == k * snd (size_range cf s).
Proof.
  intros cf [q|iv]; cbn [k_size size_range fst snd].
  - unfold given_size. cbn [k_config cf_big]. rewrite kq_or, kq_is. split; reflexivity.
  - cbn [k_invest iv_fixed iv_min]. destruct (iv_fixed iv); cbn [option_map fst snd]; [rewrite kq_is; split; reflexivity|]. rewrite kq_max, !kq_is. split; reflexivity.
Qed.
Lemma kq_fixed : forall iv, fixed_size (k_invest k iv) = option_map kq (fixed_size iv).
Proof.
  intros iv. unfold fixed_size. cbn [k_invest iv_fixed]. destruct (iv_fixed iv) as [q|]; [|reflexivity]. cbn [option_map]. pose proof (kq_truthy q) as T. unfold truthy in T.
  destruct (Qeq_bool (kq q) 0), (Qeq_bool q 0); try discriminate T; reflexivity.
Qed.
Lemma kq_allowed : forall cf iv s s' d, s' == k * s -> (allowed_size (k_config k cf) (k_invest k iv) s' d <-> allowed_size cf iv s d).
Proof.
  intros cf iv s s' d E. unfold allowed_size. rewrite kq_fixed, kq_max. cbn [k_invest iv_optional iv_min k_config cf_eps].
  destruct (fixed_size iv) as [q|], (iv_optional iv); cbn [option_map]; rewrite ?kq_is, E, ?k_eq, ?k_le, ?k_nil; reflexivity.
Qed.
Lemma kq_nonzero : forall cf q, nonzero_rate (k_config k cf) (kq q) = nonzero_rate cf q.
Proof.
  intros cf q. unfold nonzero_rate. f_equal. cbn [k_config cf_eps]. assert (A : Qabs (kq q) == k * Qabs q) by (rewrite kq_is, Qabs_Qmult, (Qabs_pos k) by lra; reflexivity).
  destruct (Qle_bool (Qabs (kq q)) (kq (cf_eps cf))) eqn:E, (Qle_bool (Qabs q) (cf_eps cf)) eqn:F; try reflexivity.
  - apply Qle_bool_iff in E. rewrite A, kq_is in E. apply (proj1 (k_le _ _)), Qle_bool_iff in E. congruence.
  - apply Qle_bool_iff in F. apply k_le in F. rewrite <- A, <- (kq_is (cf_eps cf)) in F. apply Qle_bool_iff in F. congruence.
Qed.
Lemma kq_states : forall cf f, prior_states (k_config k cf) (k_flow k f) = prior_states cf f.
Proof.
  intros cf f. unfold prior_states. cbn [k_flow f_prev]. destruct (f_prev f) as [[q|l]|]; cbn [option_map k_numeric]; [rewrite kq_nonzero; reflexivity| |reflexivity].
  rewrite map_map. apply map_ext. intros q. apply kq_nonzero.
Qed.
Lemma kq_comp_states : forall cf c, comp_states (k_config k cf) (k_comp k c) = comp_states cf c.
Proof.
  intros cf c. unfold comp_states. assert (FL : cp_flows (k_comp k c) = map (k_flow k) (cp_flows c)) by (unfold cp_flows; cbn [k_comp cp_in cp_out]; rewrite map_app; reflexivity). rewrite FL. generalize (cp_flows c) as l. intros l.
  assert (FM : filter gives_prev (map (k_flow k) l) = map (k_flow k) (filter gives_prev l)).
  { induction l as [|f l IH]; [reflexivity|]. cbn [map filter]. assert (E : gives_prev (k_flow k f) = gives_prev f) by (unfold gives_prev; cbn [k_flow f_prev]; destruct (f_prev f); reflexivity). rewrite E. destruct (gives_prev f); [cbn [map]; rewrite IH; reflexivity|exact IH]. }
  rewrite FM. destruct (filter gives_prev l) as [|f r]; [reflexivity|]. cbn [map]. rewrite kq_states. apply map_ext. intros j.
  change (k_flow k f :: map (k_flow k) r) with (map (k_flow k) (f :: r)). generalize (f :: r). induction l0 as [|g l0 IH]; [reflexivity|]. cbn [map existsb]. rewrite IH, kq_states. reflexivity.
Qed.
Lemma k_cost : forall es ix v e t, cost es ix (per_unit k v) e t == / k * cost es ix v e t.
Proof.
  intros es ix v e t. unfold cost. assert (EN : entries (per_unit k v) = map (fun kp => (fst kp, times (/ k) (snd kp))) (entries v)) by (destruct v; reflexivity).
  rewrite EN, map_map, <- BaseFacts.Qsum_scale. apply Qsum_map_eq. intros kp _. cbn [fst snd]. destruct (names es (fst kp) e); [apply value_times|ring].
Qed.
Lemma k_inverse : forall a b, / k * a * (k * b) == a * b. Proof. intros a b. field. lra. Qed.
End Numbers.

(** [x] and [y] under the names of [fs]: amounts of energy are [k] times what they were, everything else is equal. *)
Record strict_energy (k : Q) (fs : flow_system) (x y : asg) : Prop := {
  sk_el : forall nm, In nm (labels_of fs) -> forall t,
    (y (vlabel nm "flow_rate") t == k * x (vlabel nm "flow_rate") t /\ y (vlabel nm "charge_state") t == k * x (vlabel nm "charge_state") t)
    /\ (y (oo nm "on") t = x (oo nm "on") t /\ y (oo nm "switchOn") t = x (oo nm "switchOn") t)
    /\ (y (inv nm "size") t == k * x (inv nm "size") t /\ y (inv nm "isInvested") t = x (inv nm "isInvested") t);
  sk_seg : forall nm e, In nm (labels_of fs) -> In e (fs_effects fs) -> seg_cost y nm e = seg_cost x nm e;
  sk_ex : forall b w t, used_bus fs b -> w = "excess_input" \/ w = "excess_output" -> excess y b w t == k * excess x b w t;
  sk_tot : forall e, In e (fs_effects fs) -> (forall t, op_at y e t = op_at x e t) /\ op_sum y e = op_sum x e
    /\ inv_sum y e = inv_sum x e /\ all_sum y e = all_sum x e;
  sk_pen : penalty_sum y = penalty_sum x }.

Section Scale.
Variables (k : Q) (cf : config) (fs : flow_system) (idx : option (list nat)) (x y : asg).
Hypothesis KP : 0 < k.
Hypothesis ST : strict_energy k fs x y.
Hypothesis N1 : (0 < steps fs idx)%nat.
Notation es := (fs_effects fs).
Notation fs' := (in_energy k fs).
Notation cf' := (k_config k cf).
Notation kf := (k_flow k).
Notation kc := (k_comp k).
Notation kb := (k_bus k).

Lemma k_flows : forall c, cp_flows (kc c) = map kf (cp_flows c). Proof. intros c. unfold cp_flows. cbn [k_comp cp_in cp_out]. rewrite map_app. reflexivity. Qed.
Lemma k_loss : forall p, any_loss fs' idx (times k p) = any_loss fs idx p.
Proof.
  intros p. unfold any_loss. change (steps fs' idx) with (steps fs idx). induction (seq 0 (steps fs idx)) as [|t l IH]; [reflexivity|]. cbn [existsb]. rewrite IH. f_equal. f_equal. pose proof (value_times k idx p t) as V.
  destruct (Qeq_bool (value idx (times k p) t) 0) eqn:E, (Qeq_bool (value idx p t) 0) eqn:F; try reflexivity.
  - apply Qeq_bool_eq in E. apply Qeq_bool_neq in F. exfalso. apply F. rewrite V in E. apply (k_nil k KP), E.
  - apply Qeq_bool_eq in F. apply Qeq_bool_neq in E. exfalso. apply E. rewrite V. apply (k_nil k KP), F.
Qed.
Lemma k_governed : forall c f, governed fs' idx (kc c) (kf f) = governed fs idx c f.
Proof.
  intros c f. unfold governed. cbn [k_flow f_onoff]. destruct (f_onoff f) as [o|]; [reflexivity|].
  replace (induced fs' idx (kc c) (kf f)) with (induced fs idx c f); [reflexivity|].
  unfold induced. cbn [k_comp cp_onoff cp_prevent cp_kind k_flow f_id]. f_equal. destruct (cp_kind c) as [| | | |rl [p|]]; cbn [k_kind option_map]; try reflexivity. symmetry. apply k_loss.
Qed.
Lemma k_sized : forall c f, sized cf' (kc c) (kf f) = k_size k (sized cf c f).
Proof.
  intros c f. unfold sized. cbn [k_comp cp_kind cp_in k_flow f_size f_id]. destruct (cp_kind c); try reflexivity. cbn [k_kind]. destruct (cp_in c) as [|i1 [|i2 r]]; try reflexivity. cbn [map k_flow f_id f_size].
  destruct (Nat.eqb _ _); [|reflexivity]. destruct (f_size i1) as [q1|iv]; [reflexivity|]. destruct (f_size i2); [|reflexivity]. cbn [k_size]. unfold k_invest at 2. cbn [iv_fixed iv_min iv_max iv_optional iv_fix iv_spec iv_seg iv_divest option_map per_unit].
  rewrite (kq_max k KP), kq_zero. reflexivity.
Qed.
Lemma k_rate : forall c f t, In c (fs_comps fs) -> In f (cp_flows c) -> rate_of y (kc c) (kf f) t == k * rate_of x c f t.
Proof. intros c f t Hc Hf. apply (sk_el _ _ _ _ ST _ (label_flow fs c f Hc Hf) t). Qed.
Lemma k_on : forall c f t, In c (fs_comps fs) -> In f (cp_flows c) -> on_of y (kc c) (kf f) t = on_of x c f t.
Proof. intros c f t Hc Hf. apply (sk_el _ _ _ _ ST _ (label_flow fs c f Hc Hf) t). Qed.
Lemma k_size_of : forall c f, In c (fs_comps fs) -> In f (cp_flows c) -> size_of cf' y (kc c) (kf f) == k * size_of cf x c f.
Proof.
  intros c f Hc Hf. unfold size_of. rewrite k_sized. destruct (sized cf c f); cbn [k_size]; [|apply (sk_el _ _ _ _ ST _ (label_flow fs c f Hc Hf) 0%nat)].
  unfold given_size. cbn [k_config cf_big]. rewrite (kq_or k KP). apply kq_is.
Qed.
Lemma k_marks : forall nm was, In nm (labels_of fs) -> (onoff_marks y nm was (steps fs idx) <-> onoff_marks x nm was (steps fs idx)).
Proof.
  intros nm was H. assert (B : forall t, before was (y (oo nm "on")) t = before was (x (oo nm "on")) t) by (intros [|t]; [reflexivity|apply (sk_el _ _ _ _ ST _ H t)]).
  split; intros M t Ht; destruct (sk_el _ _ _ _ ST _ H t) as [_ [[E1 E2] _]]; specialize (M t Ht); rewrite E1, E2, B in *; exact M.
Qed.
Lemma k_within : forall c f t r r', r' == k * r -> (within_limits cf' idx (kc c) (kf f) t r' <-> within_limits cf idx c f t r).
Proof.
  intros c f t r r' E. unfold within_limits. rewrite k_sized. destruct (kq_range k KP cf (sized cf c f)) as [R1 R2]. change (rel_min idx (kf f) t) with (rel_min idx f t). change (rel_max idx (kf f) t) with (rel_max idx f t).
  rewrite R1, R2, E. rewrite <- (k_le k KP (rel_min idx f t * _) r), <- (k_le k KP r).
  assert (A : forall a b, a * (k * b) == k * (a * b)) by (intros; ring). rewrite !A. reflexivity.
Qed.
Lemma k_option_le : forall (o : option Q) (P P' : Q -> Prop), (forall q, P' (kq k q) <-> P q) -> ((forall q, option_map (kq k) o = Some q -> P' q) <-> (forall q, o = Some q -> P q)).
Proof. intros [q|] P P' H; cbn [option_map]; split; intros A r E; try discriminate E; injection E as <-; apply H, A; reflexivity. Qed.
Lemma sumn_k : forall n f g, (forall t, (t < n)%nat -> g t == k * f t) -> sumn n g == k * sumn n f.
Proof. intros n f g H. rewrite <- u_sumn. apply sumn_ext. exact H. Qed.
Lemma k_allowed : forall c f, In c (fs_comps fs) -> In f (cp_flows c) -> (flow_allowed cf' fs' idx y (kc c) (kf f) (runs y (kc c) (kf f)) <-> flow_allowed cf fs idx x c f (runs x c f)).
Proof.
  intros c f Hc Hf. pose proof (k_governed c f) as G. pose proof (k_sized c f) as SZ. pose proof (fun t => k_rate c f t Hc Hf) as RT. pose proof (k_size_of c f Hc Hf) as SO.
  assert (RN : forall t, runs y (kc c) (kf f) t = runs x c f t) by (intros t; unfold runs; rewrite (k_on c f t Hc Hf); reflexivity).
  destruct (sk_el _ _ _ _ ST _ (label_flow fs c f Hc Hf) 0%nat) as [_ [_ [X1 X2]]].
  assert (TT : sumn (steps fs idx) (fun t => hours fs' idx t * rate_of y (kc c) (kf f) t) == k * sumn (steps fs idx) (fun t => hours fs idx t * rate_of x c f t)) by (apply sumn_k; intros t _; rewrite (RT t); change (hours fs' idx t) with (hours fs idx t); ring).
  assert (Z : forall t, rate_of y (kc c) (kf f) t == 0 <-> rate_of x c f t == 0) by (intros t; rewrite (RT t); apply k_nil, KP).
  assert (EP : forall t, cf_eps cf' <= rate_of y (kc c) (kf f) t <-> cf_eps cf <= rate_of x c f t) by (intros t; rewrite (RT t); cbn [k_config cf_eps]; rewrite kq_is; apply k_le, KP).
  assert (WL : forall t, within_limits cf' idx (kc c) (kf f) t (rate_of y (kc c) (kf f) t) <-> within_limits cf idx c f t (rate_of x c f t)) by (intros t; apply k_within, RT).
  assert (AS : forall iv, allowed_size cf' (k_invest k iv) (y (inv (flow_name (kc c) (kf f)) "size") 0%nat) (y (inv (flow_name (kc c) (kf f)) "isInvested") 0%nat)
      <-> allowed_size cf iv (x (inv (flow_name c f) "size") 0%nat) (x (inv (flow_name c f) "isInvested") 0%nat)).
  { intros iv. change (flow_name (kc c) (kf f)) with (flow_name c f). rewrite X2. apply kq_allowed; [exact KP|exact X1]. }
  assert (A0 : forall a b, a * (k * b) == k * (a * b)) by (intros; ring).
  assert (US : forall t, match f_profile (kf f) with
      | Some p => rate_of y (kc c) (kf f) t == value idx p t * size_of cf' y (kc c) (kf f)
      | None => rate_of y (kc c) (kf f) t <= value idx (f_relmax (kf f)) t * size_of cf' y (kc c) (kf f)
          /\ (governed fs' idx (kc c) (kf f) = None \/ runs y (kc c) (kf f) t = true -> value idx (f_relmin (kf f)) t * size_of cf' y (kc c) (kf f) <= rate_of y (kc c) (kf f) t)
      end <-> match f_profile f with
      | Some p => rate_of x c f t == value idx p t * size_of cf x c f
      | None => rate_of x c f t <= value idx (f_relmax f) t * size_of cf x c f
          /\ (governed fs idx c f = None \/ runs x c f t = true -> value idx (f_relmin f) t * size_of cf x c f <= rate_of x c f t)
      end).
  { intros t. cbn [k_flow f_profile f_relmax f_relmin]. rewrite G, RN. destruct (f_profile f) as [p|]; rewrite (RT t), SO, ?A0; [apply k_eq, KP|]. rewrite !(k_le k KP). reflexivity. }
  assert (TO : let total := sumn (steps fs' idx) (fun t => hours fs' idx t * rate_of y (kc c) (kf f) t) in
      (forall q, f_fh_min (kf f) = Some q -> q <= total) /\ (forall q, f_fh_max (kf f) = Some q -> total <= q)
      /\ (forall q, f_lf_min (kf f) = Some q -> q * size_of cf' y (kc c) (kf f) * horizon fs' idx <= total)
      /\ (forall q, f_lf_max (kf f) = Some q -> total <= q * size_of cf' y (kc c) (kf f) * horizon fs' idx)
     <-> let total := sumn (steps fs idx) (fun t => hours fs idx t * rate_of x c f t) in
      (forall q, f_fh_min f = Some q -> q <= total) /\ (forall q, f_fh_max f = Some q -> total <= q)
      /\ (forall q, f_lf_min f = Some q -> q * size_of cf x c f * horizon fs idx <= total)
      /\ (forall q, f_lf_max f = Some q -> total <= q * size_of cf x c f * horizon fs idx)).
  { cbv zeta. change (steps fs' idx) with (steps fs idx). change (horizon fs' idx) with (horizon fs idx). cbn [k_flow f_fh_min f_fh_max f_lf_min f_lf_max].
    set (T := sumn (steps fs idx) (fun t => hours fs idx t * rate_of x c f t)) in *.
    rewrite (k_option_le (f_fh_min f) (fun q => q <= T) (fun q => q <= sumn (steps fs idx) (fun t => hours fs' idx t * rate_of y (kc c) (kf f) t))) by (intros q; rewrite TT, kq_is; apply k_le, KP).
    rewrite (k_option_le (f_fh_max f) (fun q => T <= q) (fun q => sumn (steps fs idx) (fun t => hours fs' idx t * rate_of y (kc c) (kf f) t) <= q)) by (intros q; rewrite TT, kq_is; apply k_le, KP).
    assert (A1 : forall q, q * size_of cf' y (kc c) (kf f) * horizon fs idx == k * (q * size_of cf x c f * horizon fs idx)) by (intros q; rewrite SO; ring).
    assert (L1 : (forall q, f_lf_min f = Some q -> q * size_of cf' y (kc c) (kf f) * horizon fs idx <= sumn (steps fs idx) (fun t => hours fs' idx t * rate_of y (kc c) (kf f) t))
       <-> (forall q, f_lf_min f = Some q -> q * size_of cf x c f * horizon fs idx <= T)) by (split; intros H q E; specialize (H q E); rewrite TT, A1, (k_le k KP) in *; exact H).
    assert (L2 : (forall q, f_lf_max f = Some q -> sumn (steps fs idx) (fun t => hours fs' idx t * rate_of y (kc c) (kf f) t) <= q * size_of cf' y (kc c) (kf f) * horizon fs idx)
       <-> (forall q, f_lf_max f = Some q -> T <= q * size_of cf x c f * horizon fs idx)) by (split; intros H q E; specialize (H q E); rewrite TT, A1, (k_le k KP) in *; exact H).
    rewrite L1, L2. reflexivity. }
  assert (RL : forall o, onoff_rules fs' idx (prior_states cf' (kf f)) o (fun t => q01 (runs y (kc c) (kf f) t)) <-> onoff_rules fs idx (prior_states cf f) o (fun t => q01 (runs x c f t))).
  { intros o. rewrite (kq_states k KP). change (onoff_rules fs' idx (prior_states cf f) o) with (onoff_rules fs idx (prior_states cf f) o). split; apply onoff_rules_ext; try exact N1; intros t _; cbv beta; rewrite RN; reflexivity. }
  clear X1 X2 TT SO RT. split; intros [B1 B2 B3 B4 B5 B6 B7]; constructor.
  - rewrite <- G. intros H t Ht. apply WL, B1; assumption.
  - rewrite <- G. intros H t Ht R. apply Z, B2; try assumption. rewrite RN. exact R.
  - rewrite <- G. intros H t Ht R. rewrite <- EP, <- WL. apply B3; try assumption. rewrite RN. exact R.
  - rewrite <- G. intros o H. apply RL, B4, H.
  - intros iv E. apply AS, B5. rewrite SZ, E. reflexivity.
  - intros iv E t Ht. apply US. apply (B6 (k_invest k iv)); [rewrite SZ, E; reflexivity|exact Ht].
  - apply TO, B7.
  - rewrite G. intros H t Ht. apply WL, B1; assumption.
  - rewrite G. intros H t Ht R. apply Z, B2; try assumption. rewrite <- RN. exact R.
  - rewrite G. intros H t Ht R. rewrite EP, WL. apply B3; try assumption. rewrite <- RN. exact R.
  - rewrite G. intros o H. apply RL, B4, H.
  - intros iv' E. rewrite SZ in E. destruct (sized cf c f) as [q|iv]; [discriminate E|]. injection E as <-. apply AS, B5. reflexivity.
  - intros iv' E t Ht. rewrite SZ in E. destruct (sized cf c f) as [q|iv]; [discriminate E|]. apply US. exact (B6 iv eq_refl t Ht).
  - apply TO, B7.
Qed.
Lemma k_flow_rule : forall c f, In c (fs_comps fs) -> In f (cp_flows c) -> (flow_rule cf' fs' idx y (kc c) (kf f) <-> flow_rule cf fs idx x c f).
Proof.
  intros c f Hc Hf. unfold flow_rule. rewrite (k_allowed c f Hc Hf), k_governed. change (flow_name (kc c) (kf f)) with (flow_name c f). change (steps fs' idx) with (steps fs idx).
  assert (W : was_on cf' (kf f) = was_on cf f) by (unfold was_on; rewrite (kq_states k KP); reflexivity). rewrite W, (k_marks _ _ (label_flow fs c f Hc Hf)). reflexivity.
Qed.
Lemma k_all : forall c (P : flow -> Prop), (forall f', In f' (cp_flows (kc c)) -> P f') <-> (forall f, In f (cp_flows c) -> P (kf f)).
Proof.
  intros c P. rewrite k_flows. split; intros H; [intros f Hf; apply H, in_map, Hf|]. intros f' Hf'. apply in_map_iff in Hf'. destruct Hf' as [f [<- Hf]]. auto.
Qed.
Lemma k_zero : forall c f t, In c (fs_comps fs) -> In f (cp_flows c) -> (rate_of y (kc c) (kf f) t == 0 <-> rate_of x c f t == 0).
Proof. intros c f t Hc Hf. rewrite (k_rate c f t Hc Hf). apply k_nil, KP. Qed.
Lemma k_idle : forall c t, In c (fs_comps fs) -> ((forall f, In f (cp_flows (kc c)) -> rate_of y (kc c) f t == 0) <-> (forall f, In f (cp_flows c) -> rate_of x c f t == 0)).
Proof. intros c t Hc. rewrite (k_all c (fun f => rate_of y (kc c) f t == 0)). split; intros H f Hf; apply (k_zero c f t Hc Hf), H, Hf. Qed.
Lemma k_running : forall c p, In c (fs_comps fs) -> (running_rule cf' fs' idx y (kc c) p <-> running_rule cf fs idx x c p).
Proof.
  intros c p Hc. pose proof (label_comp fs c Hc) as LB. pose proof (fun t => proj1 (proj1 (proj2 (sk_el _ _ _ _ ST _ LB t)))) as EL.
  unfold running_rule. rewrite (kq_comp_states k KP). change (steps fs' idx) with (steps fs idx). change (cp_label (kc c)) with (cp_label c).
  assert (A : (forall t, (t < steps fs idx)%nat -> (y (oo (cp_label c) "on") t == 0 <-> (forall f, In f (cp_flows (kc c)) -> rate_of y (kc c) f t == 0)))
     <-> (forall t, (t < steps fs idx)%nat -> (x (oo (cp_label c) "on") t == 0 <-> (forall f, In f (cp_flows c) -> rate_of x c f t == 0)))).
  { split; intros H t Ht; specialize (H t Ht); [rewrite <- (k_idle c t Hc), <- (EL t)|rewrite (k_idle c t Hc), (EL t)]; exact H. }
  assert (B : onoff_rules fs' idx (comp_states cf c) p (y (oo (cp_label c) "on")) <-> onoff_rules fs idx (comp_states cf c) p (x (oo (cp_label c) "on"))).
  { change (onoff_rules fs' idx (comp_states cf c) p (y (oo (cp_label c) "on"))) with (onoff_rules fs idx (comp_states cf c) p (y (oo (cp_label c) "on"))).
    split; apply onoff_rules_ext; try exact N1; intros t _; rewrite (EL t); reflexivity. }
  rewrite (k_marks _ _ LB), A, B. reflexivity.
Qed.
Hypothesis IDS : forall c, In c (fs_comps fs) -> NoDup (map f_id (cp_flows c)).
Lemma k_exclusion : forall c, In c (fs_comps fs) -> (exclusion_rule fs' idx y (kc c) <-> exclusion_rule fs idx x c).
Proof.
  intros c Hc. split; intros EX.
  - intros f g t Hf Hg NE Pf Pg Ht. rewrite <- (k_zero c f t Hc Hf), <- (k_zero c g t Hc Hg). apply EX; auto; try (rewrite k_flows; apply in_map; assumption).
    intros E. apply NE. apply (NoDup_map_eq_ f_id (cp_flows c)); auto. change (f_id f) with (f_id (kf f)). rewrite E. reflexivity.
  - intros f' g' t Hf' Hg' NE Pf Pg Ht. rewrite k_flows in Hf', Hg'. apply in_map_iff in Hf', Hg'. destruct Hf' as [f [<- Hf]]. destruct Hg' as [g [<- Hg]].
    rewrite (k_zero c f t Hc Hf), (k_zero c g t Hc Hg). apply EX; auto. intros E. apply NE. rewrite E. reflexivity.
Qed.
Lemma k_weighted : forall c fac l t, In c (fs_comps fs) -> incl l (cp_flows c) -> weighted idx y (kc c) fac (map kf l) t == k * weighted idx x c fac l t.
Proof.
  intros c fac l t Hc IN. unfold weighted. rewrite map_map, <- BaseFacts.Qsum_scale. apply Qsum_map_eq. intros f Hf. change (factor_of fac (kf f)) with (factor_of fac f).
  destruct (factor_of fac f); rewrite ?(k_rate c f t Hc (IN f Hf)); ring.
Qed.
Lemma k_segments_of : forall segs f, segments_of (map (fun il : nat * list (param * param) => (fst il, map (fun ab => (times k (fst ab), times k (snd ab))) (snd il))) segs) (kf f)
  = map (fun ab => (times k (fst ab), times k (snd ab))) (segments_of segs f).
Proof.
  intros segs f. unfold segments_of. change (f_id (kf f)) with (f_id f). induction segs as [|[i l] segs IH]; [reflexivity|]. cbn [map find fst snd]. destruct (Nat.eqb i (f_id f)); [reflexivity|exact IH].
Qed.
Lemma k_on_piece : forall c f t w ab, In c (fs_comps fs) -> In f (cp_flows c) -> (on_piece idx y (kc c) (kf f) t w (times k (fst ab), times k (snd ab)) <-> on_piece idx x c f t w ab).
Proof.
  intros c f t w ab Hc Hf. unfold on_piece. cbn [fst snd]. rewrite (k_rate c f t Hc Hf), !value_times, <- (k_eq k KP (rate_of x c f t)).
  assert (E : (1 - w) * (k * value idx (fst ab) t) + w * (k * value idx (snd ab) t) == k * ((1 - w) * value idx (fst ab) t + w * value idx (snd ab) t)) by ring. rewrite E. reflexivity.
Qed.
Lemma k_segmented : forall c segs, In c (fs_comps fs) ->
  (segmented_rule fs' idx y (kc c) (map (fun il : nat * list (param * param) => (fst il, map (fun ab => (times k (fst ab), times k (snd ab))) (snd il))) segs) <-> segmented_rule fs idx x c segs).
Proof.
  intros c segs Hc. pose proof (fun t => proj1 (proj1 (proj2 (sk_el _ _ _ _ ST _ (label_comp fs c Hc) t)))) as EL. unfold segmented_rule. change (steps fs' idx) with (steps fs idx). change (cp_label (kc c)) with (cp_label c). change (cp_onoff (kc c)) with (cp_onoff c).
  set (segs' := map _ segs).
  assert (P : forall j w t, (forall f, In f (cp_flows (kc c)) -> exists ab, nth_error (segments_of segs' f) j = Some ab /\ on_piece idx y (kc c) f t w ab)
     <-> (forall f, In f (cp_flows c) -> exists ab, nth_error (segments_of segs f) j = Some ab /\ on_piece idx x c f t w ab)).
  { intros j w t. rewrite (k_all c (fun f => exists ab, nth_error (segments_of segs' f) j = Some ab /\ on_piece idx y (kc c) f t w ab)). unfold segs'.
    split; intros H f Hf; destruct (H f Hf) as [ab [E OP]].
    - rewrite k_segments_of, nth_error_map in E. destruct (nth_error (segments_of segs f) j) as [ab0|]; [|discriminate E]. injection E as <-. exists ab0. split; [reflexivity|]. apply (k_on_piece c f t w ab0 Hc Hf), OP.
    - exists (times k (fst ab), times k (snd ab)). split; [rewrite k_segments_of, nth_error_map, E; reflexivity|]. apply (k_on_piece c f t w ab Hc Hf), OP. }
  split; intros H t Ht; destruct (H t Ht) as [[j [w [W0 [W1 [Q0 Q1]]]]]|[Q0 [Z Rt]]].
  - left. exists j, w. split; [exact W0|]. split; [exact W1|]. split; [apply P, Q0|]. rewrite <- (EL t). exact Q1.
  - right. rewrite <- (EL t), <- (k_idle c t Hc). auto.
  - left. exists j, w. split; [exact W0|]. split; [exact W1|]. split; [apply P, Q0|]. rewrite (EL t). exact Q1.
  - right. rewrite (EL t), (k_idle c t Hc). auto.
Qed.
Lemma k_storage_rule : forall c s ch dis, In c (fs_comps fs) -> In ch (cp_flows c) -> In dis (cp_flows c) ->
  (storage_rule cf' fs' idx y (kc c) (k_storage k s) (kf ch) (kf dis) <-> storage_rule cf fs idx x c s ch dis).
Proof.
  intros c s ch dis Hc H1 H2. pose proof (sk_el _ _ _ _ ST _ (label_comp fs c Hc)) as EL.
  assert (CH : forall t, charge y (kc c) t == k * charge x c t) by (intros t; apply EL).
  assert (CA : capacity y (kc c) (k_storage k s) == k * capacity x c s) by (unfold capacity; cbn [k_storage st_cap]; destruct (st_cap s); [apply kq_is|apply EL]).
  assert (CR : fst (cap_range cf' (st_cap (k_storage k s))) == k * fst (cap_range cf (st_cap s)) /\ snd (cap_range cf' (st_cap (k_storage k s))) == k * snd (cap_range cf (st_cap s))).
  { cbn [k_storage st_cap]. destruct (st_cap s) as [q|iv]; cbn [cap_range fst snd]; [rewrite kq_is; split; reflexivity|]. rewrite (kq_max k KP), kq_is. cbn [k_invest iv_fixed iv_min]. rewrite (kq_or k KP), kq_is. split; reflexivity. }
  destruct CR as [CR1 CR2]. destruct (EL 0%nat) as [_ [_ [X1 X2]]]. pose proof (fun t => k_rate c ch t Hc H1) as R1. pose proof (fun t => k_rate c dis t Hc H2) as R2.
  assert (A0 : forall a b, a * (k * b) == k * (a * b)) by (intros; ring).
  unfold storage_rule. change (steps fs' idx) with (steps fs idx). change (cp_label (kc c)) with (cp_label c).
  assert (Z1 : (forall t, (t < steps fs idx)%nat -> ~ value idx (st_eta_d (k_storage k s)) t == 0
       /\ charge y (kc c) (S t) == charge y (kc c) t * (1 - value idx (st_loss (k_storage k s)) t * hours fs' idx t) + rate_of y (kc c) (kf ch) t * value idx (st_eta_c (k_storage k s)) t * hours fs' idx t
          - rate_of y (kc c) (kf dis) t / value idx (st_eta_d (k_storage k s)) t * hours fs' idx t)
    <-> (forall t, (t < steps fs idx)%nat -> ~ value idx (st_eta_d s) t == 0
       /\ charge x c (S t) == charge x c t * (1 - value idx (st_loss s) t * hours fs idx t) + rate_of x c ch t * value idx (st_eta_c s) t * hours fs idx t
          - rate_of x c dis t / value idx (st_eta_d s) t * hours fs idx t)).
  { cbn [k_storage st_eta_c st_eta_d st_loss]. split; intros B t Ht; destruct (B t Ht) as [NZ B']; (split; [exact NZ|]); change (hours fs' idx t) with (hours fs idx t) in *.
    - apply (k_eq k KP). rewrite <- CH, B', (R1 t), (R2 t), CH. field. exact NZ.
    - rewrite CH, B', (R1 t), (R2 t), CH. field. exact NZ. }
  assert (Z2 : (forall t, (t <= steps fs idx)%nat ->
        value idx (st_relmin (k_storage k s)) t * capacity y (kc c) (k_storage k s) <= charge y (kc c) t /\ charge y (kc c) t <= value idx (st_relmax (k_storage k s)) t * capacity y (kc c) (k_storage k s)
        /\ value idx (st_relmin (k_storage k s)) t * fst (cap_range cf' (st_cap (k_storage k s))) <= charge y (kc c) t
        /\ charge y (kc c) t <= value idx (st_relmax (k_storage k s)) t * snd (cap_range cf' (st_cap (k_storage k s))))
    <-> (forall t, (t <= steps fs idx)%nat ->
        value idx (st_relmin s) t * capacity x c s <= charge x c t /\ charge x c t <= value idx (st_relmax s) t * capacity x c s
        /\ value idx (st_relmin s) t * fst (cap_range cf (st_cap s)) <= charge x c t
        /\ charge x c t <= value idx (st_relmax s) t * snd (cap_range cf (st_cap s)))).
  { split; intros B t Ht; specialize (B t Ht); rewrite CH, CA, CR1, CR2 in *; cbn [k_storage st_relmin st_relmax] in *; rewrite !A0, !(k_le k KP) in *; exact B. }
  assert (Z3 : (forall iv, st_cap (k_storage k s) = CapInv iv -> allowed_size cf' iv (y (inv (cp_label c) "size") 0%nat) (y (inv (cp_label c) "isInvested") 0%nat))
     <-> (forall iv, st_cap s = CapInv iv -> allowed_size cf iv (x (inv (cp_label c) "size") 0%nat) (x (inv (cp_label c) "isInvested") 0%nat))).
  { rewrite X2. cbn [k_storage st_cap]. destruct (st_cap s) as [q|iv0]; split; intros H iv E; try discriminate E; injection E as <-; apply (kq_allowed k KP cf iv0 _ _ _ X1); apply H; reflexivity. }
  assert (Z4 : (forall q, st_init (k_storage k s) = ICNum q -> charge y (kc c) 0 == q) <-> (forall q, st_init s = ICNum q -> charge x c 0 == q)).
  { cbn [k_storage st_init]. destruct (st_init s) as [|q0| |]; split; intros H q E; try discriminate E; injection E as <-; specialize (H _ eq_refl); [rewrite CH, kq_is in H; apply (proj1 (k_eq k KP _ _)), H|rewrite CH, H, kq_is; reflexivity]. }
  assert (Z5 : (st_init (k_storage k s) = ICLast -> charge y (kc c) (steps fs idx - 1) == charge y (kc c) 0) <-> (st_init s = ICLast -> charge x c (steps fs idx - 1) == charge x c 0)).
  { cbn [k_storage st_init]. rewrite !CH, (k_eq k KP). destruct (st_init s); split; intros H E; try discriminate E; apply H; reflexivity. }
  assert (NN : st_init (k_storage k s) <> ICNone <-> st_init s <> ICNone) by (cbn [k_storage st_init]; destruct (st_init s); split; intros H E; try discriminate E; apply H; reflexivity).
  assert (Z6 : (forall q, st_fmax (k_storage k s) = Some q -> charge y (kc c) (steps fs idx) <= q) <-> (forall q, st_fmax s = Some q -> charge x c (steps fs idx) <= q)).
  { cbn [k_storage st_fmax]. apply (k_option_le (st_fmax s) (fun q => charge x c (steps fs idx) <= q) (fun q => charge y (kc c) (steps fs idx) <= q)). intros q. rewrite kq_is, CH. apply k_le, KP. }
  assert (Z7 : (forall q, st_fmin (k_storage k s) = Some q -> q <= charge y (kc c) (steps fs idx)) <-> (forall q, st_fmin s = Some q -> q <= charge x c (steps fs idx))).
  { cbn [k_storage st_fmin]. apply (k_option_le (st_fmin s) (fun q => q <= charge x c (steps fs idx)) (fun q => q <= charge y (kc c) (steps fs idx))). intros q. rewrite kq_is, CH. apply k_le, KP. }
  rewrite Z1, Z2, Z3, Z4, Z5, NN, Z6, Z7. reflexivity.
Qed.
Lemma k_carries : forall c rel abs i o, In c (fs_comps fs) -> In i (cp_flows c) -> In o (cp_flows c) -> (carries fs' idx y (kc c) rel (option_map (times k) abs) (kf i) (kf o) <-> carries fs idx x c rel abs i o).
Proof.
  intros c rel abs i o Hc Hi Ho.
  assert (E : forall t, rate_of y (kc c) (kf i) t * (1 - lost idx rel t) - lost idx (option_map (times k) abs) t * (if option_map (times k) abs then on_of y (kc c) (kf i) t else 0)
     == k * (rate_of x c i t * (1 - lost idx rel t) - lost idx abs t * (if abs then on_of x c i t else 0))).
  { intros t. rewrite (k_rate c i t Hc Hi), (k_on c i t Hc Hi). destruct abs as [p|]; unfold lost; cbn [option_map]; rewrite ?value_times; ring. }
  split; intros H t Ht; specialize (H t Ht); rewrite E, (k_rate c o t Hc Ho), (k_eq k KP) in *; exact H.
Qed.
Lemma k_transmission : forall c rel abs in1 out1 in2 out2, In c (fs_comps fs) -> cp_in c = in1 :: opt_flow in2 -> cp_out c = out1 :: opt_flow out2 ->
  (transmission_rule cf' fs' idx y (kc c) rel (option_map (times k) abs) (kf in1) (kf out1) (option_map kf in2) (option_map kf out2) <-> transmission_rule cf fs idx x c rel abs in1 out1 in2 out2).
Proof.
  intros c rel abs in1 out1 in2 out2 Hc EI EO. unfold transmission_rule.
  assert (H1 : In in1 (cp_flows c)) by (unfold cp_flows; rewrite EI; left; reflexivity). assert (H2 : In out1 (cp_flows c)) by (unfold cp_flows; rewrite EO; apply in_app_iff; right; left; reflexivity).
  rewrite (k_carries c rel abs in1 out1 Hc H1 H2). destruct in2 as [i2|], out2 as [o2|]; try reflexivity. cbn [option_map opt_flow] in *.
  assert (H3 : In i2 (cp_flows c)) by (unfold cp_flows; rewrite EI; right; left; reflexivity). assert (H4 : In o2 (cp_flows c)) by (unfold cp_flows; rewrite EO; apply in_app_iff; right; right; left; reflexivity).
  rewrite (k_carries c rel abs i2 o2 Hc H3 H4).
  assert (SS : size_of cf' y (kc c) (kf in1) == size_of cf' y (kc c) (kf i2) <-> size_of cf x c in1 == size_of cf x c i2) by (rewrite (k_size_of c in1 Hc H1), (k_size_of c i2 Hc H3); apply k_eq, KP).
  assert (SZ : (forall iv, f_size (kf in1) = SzInv iv -> size_of cf' y (kc c) (kf in1) == size_of cf' y (kc c) (kf i2)) <-> (forall iv, f_size in1 = SzInv iv -> size_of cf x c in1 == size_of cf x c i2)).
  { cbn [k_flow f_size]. destruct (f_size in1) as [q|iv0]; cbn [k_size]; split; intros H iv E; try discriminate E; apply SS; exact (H _ eq_refl). }
  rewrite SZ. reflexivity.
Qed.
Lemma k_map_opt : forall l o', map kf l = opt_flow o' -> exists o, l = opt_flow o /\ o' = option_map kf o.
Proof. intros [|f [|g r]] [f'|] E; cbn in E; try discriminate E; [exists None; auto|]. injection E as <-. exists (Some f). auto. Qed.
Lemma k_own : forall c, In c (fs_comps fs) -> (own_rule cf' fs' idx y (kc c) <-> own_rule cf fs idx x c).
Proof.
  intros c Hc. unfold own_rule. change (cp_kind (kc c)) with (k_kind k (cp_kind c)). change (cp_in (kc c)) with (map kf (cp_in c)). change (cp_out (kc c)) with (map kf (cp_out c)).
  destruct (cp_kind c) as [|eqs|segs|s|rel abs]; cbn [k_kind].
  - reflexivity.
  - assert (A : forall fac t, weighted idx y (kc c) fac (map kf (cp_in c)) t == k * weighted idx x c fac (cp_in c) t) by (intros fac t; apply k_weighted; [exact Hc|intros f Hf; apply in_app_iff; left; exact Hf]).
    assert (B : forall fac t, weighted idx y (kc c) fac (map kf (cp_out c)) t == k * weighted idx x c fac (cp_out c) t) by (intros fac t; apply k_weighted; [exact Hc|intros f Hf; apply in_app_iff; right; exact Hf]).
    split; intros H fac t Hf Ht; specialize (H fac t Hf Ht); rewrite A, B, (k_eq k KP) in *; exact H.
  - exact (k_segmented c segs Hc).
  - split; intros H ch dis EI EO.
    + apply k_storage_rule; [exact Hc|unfold cp_flows; rewrite EI; left; reflexivity|unfold cp_flows; rewrite EO; apply in_app_iff; right; left; reflexivity|]. apply H; [rewrite EI|rewrite EO]; reflexivity.
    + destruct (cp_in c) as [|ch0 [|? ?]] eqn:I0; try discriminate EI. destruct (cp_out c) as [|dis0 [|? ?]] eqn:O0; try discriminate EO. cbn [map] in EI, EO. injection EI as <-. injection EO as <-.
      apply k_storage_rule; [exact Hc|unfold cp_flows; rewrite I0; left; reflexivity|unfold cp_flows; rewrite O0; apply in_app_iff; right; left; reflexivity|]. apply H; reflexivity.
  - split; intros H in1 out1 in2 out2 EI EO.
    + apply (k_transmission c rel abs in1 out1 in2 out2 Hc EI EO). apply H; [rewrite EI|rewrite EO]; [destruct in2|destruct out2]; reflexivity.
    + destruct (cp_in c) as [|i1 ri] eqn:I0; [discriminate EI|]. destruct (cp_out c) as [|o1 ro] eqn:O0; [discriminate EO|]. cbn [map] in EI, EO. injection EI as <- EI. injection EO as <- EO.
      destruct (k_map_opt _ _ EI) as [i2 [-> ->]]. destruct (k_map_opt _ _ EO) as [o2 [-> ->]]. apply (k_transmission c rel abs i1 o1 i2 o2 Hc I0 O0). apply H; reflexivity.
Qed.

(** Effects of elements. *)
Lemma k_onoff_costs : forall nm p e t, In nm (labels_of fs) -> onoff_costs fs' idx y nm p e t = onoff_costs fs idx x nm p e t.
Proof. intros nm p e t H. destruct (sk_el _ _ _ _ ST _ H t) as [_ [[E1 E2] _]]. unfold onoff_costs. rewrite E1, E2. reflexivity. Qed.
Lemma k_comp_costs : forall c e t, In c (fs_comps fs) -> comp_costs fs' idx y (kc c) e t == comp_costs fs idx x c e t.
Proof.
  intros c e t Hc. unfold comp_costs. rewrite k_flows, map_map. apply Qplus_comp.
  - apply Qsum_map_eq. intros f Hf. unfold flow_costs. rewrite k_governed, (k_rate c f t Hc Hf). apply Qplus_comp.
    + change (f_effects (kf f)) with (per_unit k (f_effects f)). change (fs_effects fs') with es. rewrite k_cost. change (hours fs' idx t) with (hours fs idx t). field. lra.
    + destruct (governed fs idx c f) as [p|]; [|reflexivity]. apply eq_Qeq. exact (k_onoff_costs _ p e t (label_flow fs c f Hc Hf)).
  - cbn [k_comp cp_onoff cp_label]. destruct (cp_onoff c) as [p|]; [|reflexivity]. apply eq_Qeq. exact (k_onoff_costs _ p e t (label_comp fs c Hc)).
Qed.
Definition k_pair (ni : string * invest) : string * invest := (fst ni, k_invest k (snd ni)).
Lemma k_investments : investments cf' fs' = map k_pair (investments cf fs).
Proof.
  unfold investments. change (fs_comps fs') with (map kc (fs_comps fs)). generalize (fs_comps fs). induction l as [|c l IH]; [reflexivity|]. cbn [map flat_map]. rewrite map_app, IH. f_equal.
  rewrite map_app. f_equal.
  - rewrite k_flows. generalize (cp_flows c). induction l0 as [|f l0 IH0]; [reflexivity|]. cbn [map flat_map]. rewrite map_app, IH0. f_equal. unfold flow_investment. rewrite k_sized. destruct (sized cf c f); reflexivity.
  - unfold storage_investment. cbn [k_comp cp_kind cp_label]. destruct (cp_kind c); try reflexivity. cbn [k_kind k_storage st_cap]. destruct (st_cap s); reflexivity.
Qed.
Lemma k_invest_costs : forall nm iv e, In nm (labels_of fs) -> In e es -> invest_costs fs' y nm (k_invest k iv) e == invest_costs fs x nm iv e.
Proof.
  intros nm iv e H He. destruct (sk_el _ _ _ _ ST _ H 0%nat) as [_ [_ [X1 X2]]]. unfold invest_costs. cbn [k_invest iv_fix iv_spec iv_divest]. change (fs_effects fs') with es. rewrite k_cost, X1.
  assert (M : made y nm (k_invest k iv) = made x nm iv) by (unfold made; cbn [k_invest iv_optional]; rewrite X2; reflexivity). rewrite M.
  assert (SG : seg_costs y nm (k_invest k iv) e = seg_costs x nm iv e).
  { unfold seg_costs. cbn [k_invest iv_seg]. destruct (iv_seg iv) as [[sp eff]|]; [|reflexivity]. f_equal. apply map_ext. intros il. destruct (Nat.eqb (fst il) (e_id e)); [|reflexivity]. exact (sk_seg _ _ _ _ ST nm e H He). }
  rewrite SG. field. lra.
Qed.
Lemma k_piece : forall l j w q q', q' == k * q -> (PropsEffects.piece (map (fun ab : Q * Q => (kq k (fst ab), kq k (snd ab))) l) j w q' <-> PropsEffects.piece l j w q).
Proof.
  intros l j w q q' E. unfold PropsEffects.piece. rewrite nth_error_map. destruct (nth_error l j) as [[a b]|]; cbn [option_map fst snd].
  - split; intros [a' [b' [N H]]]; injection N as <- <-; do 2 eexists; (split; [reflexivity|]).
    + rewrite E, !kq_is in H. apply (proj1 (k_eq k KP _ _)). rewrite H. ring.
    + rewrite E, H, !kq_is. ring.
  - split; intros [a' [b' [N H]]]; discriminate N.
Qed.
Lemma k_segments : forall nm iv, In nm (labels_of fs) -> (segments_rule fs' y nm (k_invest k iv) <-> segments_rule fs x nm iv).
Proof.
  intros nm iv H. destruct (sk_el _ _ _ _ ST _ H 0%nat) as [_ [_ [X1 X2]]]. unfold segments_rule. rewrite X2. cbn [k_invest iv_optional iv_seg]. change (fs_effects fs') with es. destruct (iv_seg iv) as [[sp eff]|]; [|split; intros _ ? ? E; discriminate E].
  assert (PC : forall j w, (forall i l e, In (i, l) eff -> In e es -> e_id e = i -> PropsEffects.piece l j w (seg_cost y nm e))
     <-> (forall i l e, In (i, l) eff -> In e es -> e_id e = i -> PropsEffects.piece l j w (seg_cost x nm e))).
  { intros j w. split; intros A i l e Hi He EI; specialize (A i l e Hi He EI); rewrite (sk_seg _ _ _ _ ST nm e H He) in *; exact A. }
  assert (ZC : (forall i (l : list (Q * Q)) e, In (i, l) eff -> In e es -> e_id e = i -> seg_cost y nm e == 0) <-> (forall i (l : list (Q * Q)) e, In (i, l) eff -> In e es -> e_id e = i -> seg_cost x nm e == 0)).
  { split; intros A i l e Hi He EI; specialize (A i l e Hi He EI); rewrite (sk_seg _ _ _ _ ST nm e H He) in *; exact A. }
  assert (XZ : y (inv nm "size") 0%nat == 0 <-> x (inv nm "size") 0%nat == 0) by (rewrite X1; apply k_nil, KP).
  split; intros A spts eff0 E; injection E as <- <-; specialize (A _ _ eq_refl); cbv zeta in *; rewrite ZC, XZ in *.
  - destruct A as [[j [w [W0 [W1 [Q0 [Q1 Q2]]]]]]|A]; [left; exists j, w; rewrite PC in Q1; rewrite (k_piece _ _ _ _ _ X1) in Q0; repeat (split; [assumption|]); assumption|right; exact A].
  - destruct A as [[j [w [W0 [W1 [Q0 [Q1 Q2]]]]]]|A]; [left; exists j, w; rewrite PC, (k_piece _ _ _ _ _ X1); repeat (split; [assumption|]); assumption|right; exact A].
Qed.

(** Buses. *)
Lemma k_used : forall b, used_bus fs b -> used_bus fs' (kb b).
Proof. intros b [c [f [Hc [Hf <-]]]]. exists (kc c), (kf f). split; [apply in_map, Hc|]. split; [rewrite k_flows; apply in_map, Hf|reflexivity]. Qed.
Lemma k_used_inv : forall b', used_bus fs' b' -> exists b, used_bus fs b /\ b' = kb b.
Proof.
  intros b' [c' [f' [Hc [Hf <-]]]]. change (fs_comps fs') with (map kc (fs_comps fs)) in Hc. apply in_map_iff in Hc. destruct Hc as [c [<- Hc]]. rewrite k_flows in Hf. apply in_map_iff in Hf. destruct Hf as [f [<- Hf]].
  exists (f_bus f). split; [exists c, f; auto|reflexivity].
Qed.
Lemma k_excess : forall b w t, used_bus fs b -> w = "excess_input" \/ w = "excess_output" -> excess y (kb b) w t == k * excess x b w t.
Proof. intros b w t Ub W. rewrite <- (sk_ex _ _ _ _ ST b w t Ub W). unfold excess. cbn [k_bus b_penalty b_lab]. destruct (b_penalty b); reflexivity. Qed.
Lemma k_sums : forall b t, delivered fs' y (kb b) t == k * delivered fs x b t /\ taken fs' y (kb b) t == k * taken fs x b t.
Proof.
  intros b t. assert (F : forall l, filter (connected (kb b)) (map kf l) = map kf (filter (connected b) l)).
  { induction l as [|f l IH]; [reflexivity|]. cbn [map filter]. change (connected (kb b) (kf f)) with (connected b f). rewrite IH. destruct (connected b f); reflexivity. }
  unfold delivered, taken. change (fs_comps fs') with (map kc (fs_comps fs)). rewrite !map_map, <- !BaseFacts.Qsum_scale. split; apply Qsum_map_eq; intros c Hc; rewrite <- BaseFacts.Qsum_scale.
  - change (cp_out (kc c)) with (map kf (cp_out c)). rewrite F, map_map. apply Qsum_map_eq. intros f Hf. apply filter_In in Hf. apply k_rate; [exact Hc|apply in_app_iff; right; apply Hf].
  - change (cp_in (kc c)) with (map kf (cp_in c)). rewrite F, map_map. apply Qsum_map_eq. intros f Hf. apply filter_In in Hf. apply k_rate; [exact Hc|apply in_app_iff; left; apply Hf].
Qed.
Lemma k_bus_rule : forall b, used_bus fs b -> (bus_rule fs' idx y (kb b) <-> bus_rule fs idx x b).
Proof.
  intros b Ub. assert (A : forall t, (delivered fs' y (kb b) t + excess y (kb b) "excess_input" t == taken fs' y (kb b) t + excess y (kb b) "excess_output" t
      /\ 0 <= excess y (kb b) "excess_input" t /\ 0 <= excess y (kb b) "excess_output" t)
    <-> (delivered fs x b t + excess x b "excess_input" t == taken fs x b t + excess x b "excess_output" t /\ 0 <= excess x b "excess_input" t /\ 0 <= excess x b "excess_output" t)).
  { intros t. destruct (k_sums b t) as [E1 E2]. rewrite E1, E2, !(k_excess b _ t Ub) by auto. rewrite <- !Qmult_plus_distr_r, (k_eq k KP), <- (k_le k KP 0 (excess x b "excess_input" t)), <- (k_le k KP 0 (excess x b "excess_output" t)), Qmult_0_r. reflexivity. }
  split; intros H t Ht; apply A, H, Ht.
Qed.
Lemma k_price : forall b, used_bus fs b -> bus_price fs' idx y (kb b) == bus_price fs idx x b.
Proof.
  intros b Ub. unfold bus_price. change (steps fs' idx) with (steps fs idx). cbn [k_bus b_penalty]. destruct (b_penalty b) as [p|]; cbn [option_map]; [|reflexivity].
  apply sumn_ext. intros t Ht. rewrite value_times, !(k_excess b _ t Ub) by auto. change (hours fs' idx t) with (hours fs idx t). field. lra.
Qed.
Lemma k_injective : same_object fs -> forall b b', used_bus fs b -> used_bus fs b' -> kb b = kb b' -> b = b'.
Proof. intros SO b b' Hb Hb' E. apply SO; [exact Hb|exact Hb'|]. change (b_id b) with (b_id (kb b)). rewrite E. reflexivity. Qed.
Lemma k_objects : same_object fs -> same_object fs'.
Proof.
  intros SO b b' Hb Hb' E. destruct (k_used_inv b Hb) as [b0 [U0 ->]]. destruct (k_used_inv b' Hb') as [b1 [U1 ->]]. rewrite (SO b0 b1 U0 U1 E). reflexivity.
Qed.
Lemma k_penalty_rule : same_object fs ->
  ((forall bl, NoDup bl -> (forall b, In b bl <-> used_bus fs' b) -> penalty_sum y == Qsum (map (bus_price fs' idx y) bl))
   <-> (forall bl, NoDup bl -> (forall b, In b bl <-> used_bus fs b) -> penalty_sum x == Qsum (map (bus_price fs idx x) bl))).
Proof.
  intros SO.
  assert (EQ : forall bl bl', NoDup bl -> (forall b, In b bl <-> used_bus fs b) -> NoDup bl' -> (forall b, In b bl' <-> used_bus fs' b) ->
     Qsum (map (bus_price fs' idx y) bl') == Qsum (map (bus_price fs idx x) bl)).
  { intros bl bl' ND UB ND' UB'. assert (P : Permutation bl' (map kb bl)).
    { apply NoDup_Permutation; [exact ND'| |].
      - clear ND' UB' bl'. assert (IN : forall b, In b bl -> used_bus fs b) by (intros b; apply UB). clear UB. induction ND as [|b l N ND IH]; [constructor|]. cbn [map]. constructor; [|apply IH; intros b0 H0; apply IN; right; exact H0].
        intros H. apply in_map_iff in H. destruct H as [b0 [E H0]]. apply N. rewrite <- (k_injective SO b0 b (IN _ (or_intror H0)) (IN _ (or_introl eq_refl)) E). exact H0.
      - intros b'. rewrite UB', in_map_iff. split; [intros H; destruct (k_used_inv b' H) as [b [Hb ->]]; exists b; split; [reflexivity|apply UB, Hb]|intros [b [<- Hb]]; apply k_used, UB, Hb]. }
    rewrite (Qsum_perm _ _ (Permutation_map (bus_price fs' idx y) P)), map_map. apply Qsum_map_eq. intros b Hb. apply k_price, UB, Hb. }
  rewrite (sk_pen _ _ _ _ ST). split; intros H bl ND UB.
  - destruct (some_buses fs' (k_objects SO)) as [bl' [ND' UB']]. rewrite (H bl' ND' UB'). apply EQ; assumption.
  - destruct (some_buses fs SO) as [bl' [ND' UB']]. rewrite (H bl' ND' UB'). symmetry. apply EQ; assumption.
Qed.

(** Totals of effects. *)
Lemma k_effect_rule : forall e, In e es -> (effect_rule cf' fs' idx y e <-> effect_rule cf fs idx x e).
Proof.
  intros e He. destruct (sk_tot _ _ _ _ ST e He) as [T1 [T2 [T3 T4]]]. unfold effect_rule. change (steps fs' idx) with (steps fs idx). rewrite T2, T3, T4.
  assert (O : forall t, Qsum (map (fun c => comp_costs fs' idx y c e t) (fs_comps fs')) + op_from_effects fs' idx y e t == Qsum (map (fun c => comp_costs fs idx x c e t) (fs_comps fs)) + op_from_effects fs idx x e t).
  { intros t. apply Qplus_comp; [change (fs_comps fs') with (map kc (fs_comps fs)); rewrite map_map; apply Qsum_map_eq; intros c Hc; apply k_comp_costs, Hc|]. unfold op_from_effects. change (fs_effects fs') with es. apply Qsum_map_eq. intros e' He'.
    apply Qsum_map_eq. intros kp _. rewrite (proj1 (sk_tot _ _ _ _ ST e' He') t). reflexivity. }
  assert (J : Qsum (map (fun ni => invest_costs fs' y (fst ni) (snd ni) e) (investments cf' fs')) + inv_from_effects fs' y e == Qsum (map (fun ni => invest_costs fs x (fst ni) (snd ni) e) (investments cf fs)) + inv_from_effects fs x e).
  { apply Qplus_comp; [rewrite k_investments, map_map; apply Qsum_map_eq; intros [nm iv] H; cbn [k_pair fst snd]; apply k_invest_costs; [exact (label_inv cf fs _ _ H)|exact He]|]. unfold inv_from_effects. change (fs_effects fs') with es. apply Qsum_map_eq. intros e' He'.
    apply Qsum_map_eq. intros kp _. rewrite (proj1 (proj2 (proj2 (sk_tot _ _ _ _ ST e' He')))). reflexivity. }
  assert (SM : sumn (steps fs idx) (fun t => op_at y e t) == sumn (steps fs idx) (fun t => op_at x e t)) by (apply sumn_ext; intros t _; rewrite (T1 t); reflexivity).
  rewrite J, SM.
  assert (Z1 : (forall t, (t < steps fs idx)%nat -> op_at y e t == Qsum (map (fun c => comp_costs fs' idx y c e t) (fs_comps fs')) + op_from_effects fs' idx y e t)
     <-> (forall t, (t < steps fs idx)%nat -> op_at x e t == Qsum (map (fun c => comp_costs fs idx x c e t) (fs_comps fs)) + op_from_effects fs idx x e t)) by (split; intros H t Ht; specialize (H t Ht); rewrite (T1 t), O in *; exact H).
  assert (Z5 : (forall t, (t < steps fs idx)%nat -> at_least (option_map (fun p => value idx p t * hours fs' idx t) (e_min_ph e)) (op_at y e t) /\ at_most (option_map (fun p => value idx p t * hours fs' idx t) (e_max_ph e)) (op_at y e t))
     <-> (forall t, (t < steps fs idx)%nat -> at_least (option_map (fun p => value idx p t * hours fs idx t) (e_min_ph e)) (op_at x e t) /\ at_most (option_map (fun p => value idx p t * hours fs idx t) (e_max_ph e)) (op_at x e t)))
    by (split; intros H t Ht; specialize (H t Ht); rewrite (T1 t) in *; exact H).
  rewrite Z1, Z5. reflexivity.
Qed.
Lemma k_obeys : same_object fs -> (obeys cf' fs' idx y <-> obeys cf fs idx x).
Proof.
  intros SO. assert (CR : forall c', In c' (fs_comps fs') -> exists c, In c (fs_comps fs) /\ c' = kc c) by (intros c' Hc'; change (fs_comps fs') with (map kc (fs_comps fs)) in Hc'; apply in_map_iff in Hc'; destruct Hc' as [c [E H]]; eauto).
  assert (CI : forall c, In c (fs_comps fs) -> In (kc c) (fs_comps fs')) by (intros c Hc; apply (in_map kc), Hc).
  assert (FI : forall c f, In f (cp_flows c) -> In (kf f) (cp_flows (kc c))) by (intros c f Hf; rewrite k_flows; apply in_map, Hf).
  split; intros [O1 O2 O3 O4 O5 O6 O7 O8]; constructor.
  - intros c f Hc Hf. apply k_flow_rule; auto.
  - intros c p Hc E. apply k_running; [exact Hc|]. apply O2; auto.
  - intros c Hc. apply k_exclusion; auto.
  - intros c Hc. apply k_own; auto.
  - intros nm iv H. apply k_segments; [exact (label_inv cf fs _ _ H)|]. apply O5. rewrite k_investments. exact (in_map k_pair _ _ H).
  - intros b Hb. apply k_bus_rule; [exact Hb|]. apply O6, k_used, Hb.
  - intros e He. apply k_effect_rule; [exact He|]. apply O7. exact He.
  - exact (proj1 (k_penalty_rule SO) O8).
  - intros c' f' Hc' Hf'. destruct (CR c' Hc') as [c [Hc ->]]. rewrite k_flows in Hf'. apply in_map_iff in Hf'. destruct Hf' as [f [<- Hf]]. apply k_flow_rule; auto.
  - intros c' p Hc' E. destruct (CR c' Hc') as [c [Hc ->]]. apply k_running; auto.
  - intros c' Hc'. destruct (CR c' Hc') as [c [Hc ->]]. apply k_exclusion; auto.
  - intros c' Hc'. destruct (CR c' Hc') as [c [Hc ->]]. apply k_own; auto.
  - intros nm iv' H. rewrite k_investments in H. apply in_map_iff in H. destruct H as [[nm0 iv] [E H]]. injection E as <- <-. apply k_segments; [exact (label_inv cf fs _ _ H)|]. exact (O5 _ _ H).
  - intros b' Hb'. destruct (k_used_inv b' Hb') as [b [Hb ->]]. apply k_bus_rule; auto.
  - intros e He. apply k_effect_rule; auto.
  - exact (proj2 (k_penalty_rule SO) O8).
Qed.
End Scale.

(** ** From a plan to its conversion and back *)
Definition an_energy (fs : flow_system) (nm : string) : bool := existsb (String.eqb nm) (energy_names fs).
Definition energy_forward (k : Q) (fs : flow_system) (x : asg) : asg := fun nm t => if an_energy fs nm then k * x nm t else x nm t.
Definition energy_backward (k : Q) (fs : flow_system) (y : asg) : asg := fun nm t => if an_energy fs nm then y nm t / k else y nm t.
Lemma an_energy_in : forall fs nm, an_energy fs nm = true <-> In nm (energy_names fs).
Proof.
  intros fs nm. unfold an_energy. rewrite existsb_exists. split; [intros [s [H E]]; apply String.eqb_eq in E; subst s; exact H|intros H; exists nm; split; [exact H|apply String.eqb_refl]].
Qed.
Lemma other_not : forall fs nm, energy_apart fs -> In nm (other_names fs) -> an_energy fs nm = false.
Proof. intros fs nm EA H. destruct (an_energy fs nm) eqn:E; [|reflexivity]. apply an_energy_in in E. destruct (EA nm E H). Qed.
Lemma names_strict : forall k fs x y, (forall nm t, In nm (energy_names fs) -> y nm t == k * x nm t) -> (forall nm t, In nm (other_names fs) -> y nm t = x nm t) -> strict_energy k fs x y.
Proof.
  intros k fs x y A B.
  assert (AE : forall n s t, In n (labels_of fs) -> In s [vlabel n "flow_rate"; vlabel n "charge_state"; inv n "size"] -> y s t == k * x s t).
  { intros n s t Hn Hs. apply A. apply in_app_iff. left. apply in_flat_map. exists n. split; assumption. }
  assert (BE : forall n s t, In n (labels_of fs) -> In s ([oo n "on"; oo n "switchOn"; inv n "isInvested"] ++ map (fun e => vlabel (cat [n; "__"; "SegmentedShares"]) (cat [e_label e; "_segmented"])) (fs_effects fs)) -> y s t = x s t).
  { intros n s t Hn Hs. apply B. apply in_app_iff. left. apply in_flat_map. exists n. split; assumption. }
  assert (BF : forall e s t, In e (fs_effects fs) -> In s (let l := e_label e in [vlabel (cat [l; "__"; "operation"]) "operation_sum_TS"; vlabel (cat [l; "__"; "operation"]) "operation_sum"; vlabel (cat [l; "__"; "invest"]) "invest_sum"; vlabel (cat [l; "__"; "all"]) "all_sum"]) -> y s t = x s t).
  { intros e s t He Hs. apply B. apply in_app_iff. right. apply in_app_iff. left. apply in_flat_map. exists e. split; assumption. }
  constructor.
  - intros nm H t. split; [split; apply (AE nm); auto; cbn [In]; auto|]. split; [split; apply (BE nm); auto; apply in_app_iff; left; cbn [In]; auto|]. split; [apply (AE nm); auto; cbn [In]; auto|apply (BE nm); auto; apply in_app_iff; left; cbn [In]; auto].
  - intros nm e H He. apply (BE nm _ _ H). apply in_app_iff. right. apply in_map_iff. exists e. auto.
  - intros b w t Ub W. unfold excess. destruct (b_penalty b); [|ring]. apply A. apply in_app_iff. right. apply in_flat_map. exists b. split; [apply used_bus_list, Ub|]. destruct W as [-> | ->]; [left|right; left]; reflexivity.
  - intros e He. split; [intros t; apply (BF e); [exact He|left; reflexivity]|]. split; [apply (BF e); [exact He|right; left; reflexivity]|]. split; apply (BF e); try exact He; cbn [In]; auto.
  - apply B. apply in_app_iff. right. apply in_app_iff. right. left. reflexivity.
Qed.
Lemma forward_energy : forall k fs x, energy_apart fs -> strict_energy k fs x (energy_forward k fs x).
Proof.
  intros k fs x EA. apply names_strict; intros nm t H; unfold energy_forward; [apply an_energy_in in H; rewrite H; reflexivity|rewrite (other_not fs nm EA H); reflexivity].
Qed.
Lemma backward_energy : forall k fs y, 0 < k -> energy_apart fs -> strict_energy k fs (energy_backward k fs y) y.
Proof.
  intros k fs y KP EA. apply names_strict; intros nm t H; unfold energy_backward; [apply an_energy_in in H; rewrite H; field; lra|rewrite (other_not fs nm EA H); reflexivity].
Qed.
Lemma strict_rescaled : forall k cf fs idx x x0 y0 y, 0 < k -> same_plan cf fs idx x x0 -> strict_energy k fs x0 y0 -> same_plan (k_config k cf) (in_energy k fs) idx y0 y -> rescaled k cf fs idx x y.
Proof.
  intros k cf fs idx x x0 y0 y KP [A1 A2 A3 A4 A5 A6 A7 A8] ST [B1 B2 B3 B4 B5 B6 B7 B8].
  assert (CI : forall c, In c (fs_comps fs) -> In (k_comp k c) (fs_comps (in_energy k fs))) by (intros c Hc; apply (in_map (k_comp k)), Hc).
  assert (FI : forall c f, In f (cp_flows c) -> In (k_flow k f) (cp_flows (k_comp k c))) by (intros c f Hf; rewrite k_flows; apply in_map, Hf).
  constructor.
  - intros c f t Hc Hf Ht. rewrite <- (A1 c f t Hc Hf Ht). etransitivity; [exact (B1 _ _ t (CI c Hc) (FI c f Hf) Ht)|]. exact (k_rate k fs x0 y0 ST c f t Hc Hf).
  - intros c f t Hc Hf G Ht. destruct (A2 c f t Hc Hf G Ht) as [<- <-]. destruct (sk_el _ _ _ _ ST _ (label_flow fs c f Hc Hf) t) as [_ [[E1 E2] _]].
    destruct (B2 _ _ t (CI c Hc) (FI c f Hf)) as [Q1 Q2]; [rewrite k_governed by exact KP; exact G|exact Ht|]. split; [etransitivity; [exact Q1|]|etransitivity; [exact Q2|]]; [apply eq_Qeq; exact E1|apply eq_Qeq; exact E2].
  - intros c t Hc G Ht. destruct (A3 c t Hc G Ht) as [<- <-]. destruct (sk_el _ _ _ _ ST _ (label_comp fs c Hc) t) as [_ [[E1 E2] _]].
    destruct (B3 _ t (CI c Hc)) as [Q1 Q2]; [exact G|exact Ht|]. split; [etransitivity; [exact Q1|]|etransitivity; [exact Q2|]]; [apply eq_Qeq; exact E1|apply eq_Qeq; exact E2].
  - intros nm iv H. destruct (A4 nm iv H) as [<- [P2 P3]]. pose proof (label_inv cf fs nm iv H) as LB. destruct (sk_el _ _ _ _ ST _ LB 0%nat) as [_ [_ [X1 X2]]].
    destruct (B4 nm (k_invest k iv)) as [Q1 [Q2 Q3]]; [rewrite k_investments by exact KP; exact (in_map (k_pair k) _ _ H)|]. split; [rewrite Q1; exact X1|]. split.
    + intros O. rewrite (Q2 O), X2. exact (P2 O).
    + intros spts eff i l e E Hi He EI. rewrite <- (P3 spts eff i l e E Hi He EI), <- (sk_seg _ _ _ _ ST nm e LB He).
      refine (Q3 _ eff i l e _ Hi He EI). cbn [k_invest iv_seg]. rewrite E. reflexivity.
  - intros c s t Hc K Ht. rewrite <- (A5 c s t Hc K Ht). etransitivity; [refine (B5 _ _ t (CI c Hc) _ Ht); cbn [k_comp cp_kind]; rewrite K; reflexivity|]. exact (proj2 (proj1 (sk_el _ _ _ _ ST _ (label_comp fs c Hc) t))).
  - intros b t Ub Ht. destruct (A6 b t Ub Ht) as [<- <-]. destruct (B6 _ t (k_used k fs b Ub) Ht) as [Q1 Q2].
    assert (EE : forall z w, excess z (k_bus k b) w t = excess z b w t) by (intros z w; unfold excess; cbn [k_bus b_penalty b_lab]; destruct (b_penalty b); reflexivity).
    rewrite !EE in Q1, Q2. rewrite Q1, Q2, !(sk_ex _ _ _ _ ST b _ t Ub) by auto. split; reflexivity.
  - intros e He. destruct (A7 e He) as [P1 [P2 [P3 P4]]]. destruct (B7 e He) as [Q1 [Q2 [Q3 Q4]]]. destruct (sk_tot _ _ _ _ ST e He) as [T1 [T2 [T3 T4]]].
    split; [intros t Ht; rewrite <- (P1 t Ht), <- (T1 t); exact (Q1 t Ht)|]. split; [rewrite <- P2, <- T2; exact Q2|]. split; [rewrite <- P3, <- T3; exact Q3|rewrite <- P4, <- T4; exact Q4].
  - rewrite <- A8, <- (sk_pen _ _ _ _ ST). exact B8.
Qed.

(** ** Data in other units stay as sensible and valid as they were *)
Section EnergyData.
Variables (k : Q) (fs : flow_system).
Hypothesis KP : 0 < k.
Local Notation es := (fs_effects fs).
Local Notation fs' := (in_energy k fs).
Local Notation kf := (k_flow k).
Local Notation kc := (k_comp k).
Lemma k_comp_of : forall c', In c' (fs_comps fs') -> exists c, In c (fs_comps fs) /\ c' = kc c.
Proof. intros c' Hc'. change (fs_comps fs') with (map kc (fs_comps fs)) in Hc'. apply in_map_iff in Hc'. destruct Hc' as [c [E H]]. eauto. Qed.
Lemma k_flow_of : forall c f', In f' (cp_flows (kc c)) -> exists f, In f (cp_flows c) /\ f' = kf f.
Proof. intros c f' H. rewrite k_flows in H. apply in_map_iff in H. destruct H as [f [E H]]. eauto. Qed.
Lemma per_entries : forall v, entries (per_unit k v) = map (fun kp => (fst kp, times (/ k) (snd kp))) (entries v).
Proof. intros [|p|l]; reflexivity. Qed.
Lemma numbers_energy : forall v, numbers v -> numbers (per_unit k v).
Proof.
  intros v N i p H. rewrite per_entries in H. apply in_map_iff in H. destruct H as [[k0 p0] [E H]]. injection E as <- <-. destruct (N k0 p0 H) as [q Q0]. destruct p0 as [d|d g w]; cbn [pdata] in Q0; subst d; eexists; reflexivity.
Qed.
Lemma gives_energy : forall f, gives_number (kf f) = gives_number f.
Proof. intros f. unfold gives_number. cbn [k_flow f_prev]. destruct (f_prev f) as [[q|l]|]; reflexivity. Qed.
Lemma sensible_energy : forall cf idx, k * cf_eps cf < 1 -> sensible cf fs idx -> sensible (k_config k cf) fs' idx.
Proof.
  intros cf idx KE [S1 S2 S3 S4 S5 S6 S7 [S8 [S9 S10]]].
  assert (MX : forall iv, 0 <= max_size cf iv -> 0 <= max_size (k_config k cf) (k_invest k iv)).
  { intros iv H. rewrite (kq_max k KP), kq_is. apply (k_le k KP) in H. rewrite Qmult_0_r in H. exact H. }
  constructor.
  - cbn [k_config cf_eps]. rewrite !kq_is. split; [|exact KE]. apply (Qmult_lt_0_compat k); [exact KP|apply S1].
  - exact S2.
  - destruct S3 as [O L]. split; [apply k_objects, O|]. intros b b' Hb Hb' E. destruct (k_used_inv k fs b Hb) as [b0 [U0 ->]]. destruct (k_used_inv k fs b' Hb') as [b1 [U1 ->]]. exact (L b0 b1 U0 U1 E).
  - intros c' Hc'. destruct (k_comp_of c' Hc') as [c [Hc ->]]. destruct (S4 c Hc) as [N K]. split; [exact N|]. cbn [k_comp cp_kind]. destruct (cp_kind c) as [ | | |s|rel abs]; try exact Logic.I.
    + destruct K as [l [ch [dis [pr ->]]]]. exists l, (kf ch), (kf dis), pr. reflexivity.
    + destruct K as [l [i1 [o1 [i2 [o2 [ob [pr ->]]]]]]]. exists l, (kf i1), (kf o1), (option_map kf i2), (option_map kf o2), ob, pr. destruct i2, o2; reflexivity.
  - intros c' f' Hc' Hf'. destruct (k_comp_of c' Hc') as [c [Hc ->]]. destruct (k_flow_of c f' Hf') as [f [Hf ->]]. destruct (S5 c f Hc Hf) as [[P1 [P2 P3]] CF]. split.
    + split; [exact P1|]. split.
      * intros iv E. rewrite k_sized in E by exact KP. destruct (sized cf c f) as [q|iv0]; [discriminate E|]. injection E as <-. destruct (P2 iv0 eq_refl) as [M R]. split; [exact (MX iv0 M)|exact R].
      * intros o E. rewrite k_governed in E by exact KP. exact (P3 o E).
    + intros o E. rewrite k_governed in E by exact KP. rewrite (kq_states k KP). exact (CF o E).
  - intros c' p Hc' E. destruct (k_comp_of c' Hc') as [c [Hc ->]]. destruct (S6 c p Hc E) as [P1 [P2 [P3 P4]]]. split; [exact P1|]. split; [rewrite (kq_comp_states k KP); exact P2|]. split.
    + rewrite k_flows. replace (length (filter gives_number (map kf (cp_flows c)))) with (length (filter gives_number (cp_flows c))); [exact P3|].
      generalize (cp_flows c) as l. induction l as [|f l IH]; [reflexivity|]. cbn [map filter]. rewrite gives_energy. destruct (gives_number f); cbn [length]; auto.
    + intros f' t Hf' Ht. destruct (k_flow_of c f' Hf') as [f [Hf ->]]. rewrite k_sized by exact KP. rewrite (proj2 (kq_range k KP cf (sized cf c f))). change (rel_max idx (kf f) t) with (rel_max idx f t).
      specialize (P4 f t Hf Ht). apply (k_le k KP) in P4. rewrite Qmult_0_r in P4. rewrite Qmult_assoc, (Qmult_comm (rel_max idx f t) k), <- Qmult_assoc. exact P4.
  - intros c' s' iv' Hc' K E. destruct (k_comp_of c' Hc') as [c [Hc ->]]. cbn [k_comp cp_kind] in K. destruct (cp_kind c) as [ | | |s|rel abs] eqn:KK; try discriminate K. injection K as <-. cbn [k_storage st_cap] in E.
    destruct (st_cap s) as [q|iv] eqn:EC; [discriminate E|]. injection E as <-. apply MX. exact (S7 c s iv Hc KK EC).
  - split; [exact S8|]. split; [exact S9|].
    intros nm iv' H. rewrite k_investments in H by exact KP. apply in_map_iff in H. destruct H as [[nm0 iv] [E H]]. injection E as <- <-. destruct (S10 nm0 iv H) as [M1 [M2 M3]]. repeat split; cbn [k_invest iv_fix iv_spec iv_divest]; [assumption|apply numbers_energy; assumption|assumption].
Qed.
End EnergyData.

(** ** C98 *)

(** Every solution of the problem of a system is, converted, a solution of the problem of the system given in the other unit, at the same cost, and the
    other way round. *)
Theorem C98_units : forall k cf ord ord' fs idx pm pm', 0 < k -> k * cf_eps cf < 1 -> (forall l, Permutation (ord l) l) -> (forall l, Permutation (ord' l) l) ->
  build cf ord fs idx = Ok pm -> build (k_config k cf) ord' (in_energy k fs) idx = Ok pm' -> sensible cf fs idx -> energy_apart fs ->
  (forall x, feasible pm x -> exists y, feasible pm' y /\ rescaled k cf fs idx x y /\ objective_value pm' y == objective_value pm x)
  /\ (forall y, feasible pm' y -> exists x, feasible pm x /\ rescaled k cf fs idx x y /\ objective_value pm' y == objective_value pm x).
Proof.
  intros k cf ord ord' fs idx pm pm' KP KE PO PO' B B' SE EA. pose proof (sensible_energy k fs KP cf idx KE SE) as SE'. pose proof (fun c Hc => comp_ids _ _ _ _ _ c B Hc) as IDS.
  pose proof (se_steps _ _ _ SE) as N. assert (N1 : (0 < steps fs idx)%nat) by lia. pose proof (proj1 (se_buses _ _ _ SE)) as O.
  assert (OV : forall x y, rescaled k cf fs idx x y -> objective_value pm' y == objective_value pm x).
  { intros x y C. destruct (C21_objective _ _ _ _ _ x B) as [e [Fe Ox]]. destruct (C21_objective _ _ _ _ _ y B') as [e' [Fe' Oy]].
    change (fs_effects (in_energy k fs)) with (fs_effects fs) in Fe'. rewrite Fe in Fe'. injection Fe' as <-.
    destruct (rs_effect _ _ _ _ _ _ C e ltac:(apply find_some in Fe; apply Fe)) as [_ [T2 [T3 _]]]. rewrite Ox, Oy, T2, T3, (rs_penalty _ _ _ _ _ _ C). reflexivity. }
  split.
  - intros x F. pose proof (C57_solutions _ _ _ _ _ _ PO B SE F) as OB. pose proof (forward_energy k fs x EA) as ST.
    destruct (proj1 (C57_plans _ _ _ _ _ _ PO' B' SE') (proj2 (k_obeys k cf fs idx x _ KP ST N1 IDS O) OB)) as [y [SP F']].
    assert (C : rescaled k cf fs idx x y) by (eapply strict_rescaled; [exact KP|apply same_plan_refl|exact ST|exact SP]). exists y. split; [exact F'|]. split; [exact C|exact (OV x y C)].
  - intros y F. pose proof (C57_solutions _ _ _ _ _ _ PO' B' SE' F) as OB. pose proof (backward_energy k fs y KP EA) as ST.
    destruct (proj1 (C57_plans _ _ _ _ _ _ PO B SE) (proj1 (k_obeys k cf fs idx _ y KP ST N1 IDS O) OB)) as [x [SP F']].
    assert (C : rescaled k cf fs idx x y) by (eapply strict_rescaled; [exact KP|apply same_plan_sym; exact SP|exact ST|apply same_plan_refl]). exists x. split; [exact F'|]. split; [exact C|exact (OV x y C)].
Qed.
Print Assumptions C98_units.

(** The best cost is the same, and the best plan stays the best. *)
Theorem C98_optimum : forall k cf ord ord' fs idx pm pm', 0 < k -> k * cf_eps cf < 1 -> (forall l, Permutation (ord l) l) -> (forall l, Permutation (ord' l) l) ->
  build cf ord fs idx = Ok pm -> build (k_config k cf) ord' (in_energy k fs) idx = Ok pm' -> sensible cf fs idx -> energy_apart fs ->
  (forall q, least pm q <-> least pm' q)
  /\ (forall x, optimal pm x -> exists y, optimal pm' y /\ rescaled k cf fs idx x y) /\ (forall y, optimal pm' y -> exists x, optimal pm x /\ rescaled k cf fs idx x y).
Proof.
  intros k cf ord ord' fs idx pm pm' KP KE PO PO' B B' SE EA. destruct (C98_units k cf ord ord' fs idx pm pm' KP KE PO PO' B B' SE EA) as [A1 A2]. split; [|split].
  - intros q. split; intros [[x [F V]] L]; (split; [|intros z Fz]).
    + destruct (A1 x F) as [y [F' [_ E]]]. exists y. split; [exact F'|]. rewrite E. exact V.
    + destruct (A2 z Fz) as [w [Fw [_ Ew]]]. rewrite Ew. exact (L w Fw).
    + destruct (A2 x F) as [y [F' [_ E]]]. exists y. split; [exact F'|]. rewrite <- E. exact V.
    + destruct (A1 z Fz) as [w [Fw [_ Ew]]]. rewrite <- Ew. exact (L w Fw).
  - intros x [F OP]. destruct (A1 x F) as [y [F' [C E]]]. exists y. split; [|exact C]. split; [exact F'|]. intros z Fz. destruct (A2 z Fz) as [w [Fw [_ Ew]]]. rewrite E, Ew. exact (OP w Fw).
  - intros y [F OP]. destruct (A2 y F) as [x [F' [C E]]]. exists x. split; [|exact C]. split; [exact F'|]. intros z Fz. destruct (A1 z Fz) as [w [Fw [_ Ew]]]. rewrite <- E, <- Ew. exact (OP w Fw).
Qed.
Print Assumptions C98_optimum.

(** From kW to W, with the two example systems. *)
Definition energy_apart_b (fs : flow_system) : bool := forallb (fun s => negb (existsb (String.eqb s) (other_names fs))) (energy_names fs).
Lemma energy_apart_ok : forall fs, energy_apart_b fs = true -> energy_apart fs.
Proof.
  intros fs H s Hs Ho. unfold energy_apart_b in H. rewrite forallb_forall in H. specialize (H s Hs). apply negb_true_iff in H. rewrite <- not_true_iff_false, existsb_exists in H. apply H. exists s. split; [exact Ho|apply String.eqb_refl].
Qed.
Example C98_applies : exists pm pm', build default_config id_ord fs0 None = Ok pm /\ build (k_config 1000 default_config) id_ord (in_energy 1000 fs0) None = Ok pm'
  /\ sensible default_config fs0 None /\ energy_apart fs0 /\ 1000 * cf_eps default_config < 1 /\ feasible pm x0 /\ exists y, feasible pm' y /\ rescaled 1000 default_config fs0 None x0 y /\ objective_value pm' y == objective_value pm x0.
Proof.
  destruct x0_feasible as [pm [B F]]. destruct (build (k_config 1000 default_config) id_ord (in_energy 1000 fs0) None) as [pm'|e] eqn:B'; [|vm_compute in B'; discriminate B'].
  assert (EA : energy_apart fs0) by (apply energy_apart_ok; vm_compute; reflexivity). assert (KE : 1000 * cf_eps default_config < 1) by reflexivity.
  exists pm, pm'. split; [exact B|]. split; [reflexivity|]. split; [exact sensible_0|]. split; [exact EA|]. split; [exact KE|]. split; [exact F|].
  exact (proj1 (C98_units 1000 default_config id_ord id_ord fs0 None pm pm' eq_refl KE id_ord_perm id_ord_perm B B' sensible_0 EA) x0 F).
Qed.
Example C98_applies_1 : exists pm pm', build default_config id_ord fs1 idx1 = Ok pm /\ build (k_config (1 # 1000) default_config) id_ord (in_energy (1 # 1000) fs1) idx1 = Ok pm'
  /\ sensible default_config fs1 idx1 /\ energy_apart fs1 /\ exists x, feasible pm x.
Proof.
  destruct x1_feasible as [pm [B F]]. destruct (build (k_config (1 # 1000) default_config) id_ord (in_energy (1 # 1000) fs1) idx1) as [pm'|e] eqn:B'; [|vm_compute in B'; discriminate B'].
  exists pm, pm'. split; [exact B|]. split; [reflexivity|]. split; [exact sensible_1|]. split; [apply energy_apart_ok; vm_compute; reflexivity|]. exists x1. exact F.
Qed.

(** With the constants of the configuration left as they are, the claim is wrong: a plant with on/off behaviour that meets a demand of 5 W does so if the
    data are in kW (0.005), but not if they are in MW (0.000005, below the 0.00001 that count as running). *)
Definition units_free : Prop := forall k cf ord fs idx pm pm', 0 < k -> (forall l, Permutation (ord l) l) -> build cf ord fs idx = Ok pm -> build cf ord (in_energy k fs) idx = Ok pm' ->
  sensible cf fs idx -> sensible cf (in_energy k fs) idx -> energy_apart fs -> (exists x, feasible pm x) -> exists y, feasible pm' y.
Definition lamp : flow := set_onoff (Some (mkOnOff EVNone EVNone None None None None None None None false)) (set_size_ (SzNum (Some 10)) (flow0 181 "Q" gas)).
Definition lamp_use : flow := set_profile (Some (n1 1)) (set_size_ (SzNum (Some (5 # 1000))) (flow0 182 "Q" gas)).
Definition fs_lamp : flow_system := mkFS [0; 1] 2 (NS 1) [costs] [Library.source "Plant" lamp; Library.sink "Need" lamp_use].
Definition lamp_on : asg := of_table [("Plant__Q_flow_rate", [5 # 1000; 5 # 1000]); ("Plant__Q_sumFlowHours", [10 # 1000]); ("Plant__Q__OnOff_on", [1; 1]); ("Plant__Q__OnOff_totalOnHours", [2]); ("Plant__Q__OnOff_switchOn", [1; 0]);
  ("Plant__Q__OnOff_nrSwitchOn", [1]); ("Need__Q_flow_rate", [5 # 1000; 5 # 1000]); ("Need__Q_sumFlowHours", [10 # 1000])].
Lemma lamp_sensible : forall fs, fs = fs_lamp \/ fs = in_energy (1 # 1000) fs_lamp -> sensible default_config fs None.
Proof.
  assert (UB : forall fs, fs = fs_lamp \/ fs = in_energy (1 # 1000) fs_lamp -> forall b, used_bus fs b -> b = gas).
  { intros fs HF b [c [f [Hc [Hf E]]]]. destruct HF as [-> | ->]; cbn in Hc; destruct Hc as [<-|[<-|[]]]; cbn in Hf; destruct Hf as [<-|[]]; symmetry; exact E. }
  intros fs HF. apply sensible_check.
  - destruct HF as [-> | ->]; vm_compute; reflexivity.
  - split; intros b b' U U' _; rewrite (UB fs HF b U), (UB fs HF b' U'); reflexivity.
  - intros c Hc. destruct HF as [-> | ->]; cbn in Hc; destruct Hc as [<-|[<-|[]]]; cbn; split; try constructor; exact Logic.I.
Qed.
Theorem C98_refuted : ~ units_free.
Proof.
  intros H. destruct (build default_config id_ord fs_lamp None) as [pm|e] eqn:B; [|vm_compute in B; discriminate B].
  destruct (build default_config id_ord (in_energy (1 # 1000) fs_lamp) None) as [pm'|e] eqn:B'; [|vm_compute in B'; discriminate B'].
  assert (F : feasible pm lamp_on).
  { assert (R : match build default_config id_ord fs_lamp None with Ok m => feasibleb m lamp_on | Err _ => false end = true) by (vm_compute; reflexivity). rewrite B in R. apply feasibleb_ok, R. }
  destruct (H (1 # 1000) default_config id_ord fs_lamp None pm pm' eq_refl id_ord_perm B B' (lamp_sensible _ (or_introl eq_refl)) (lamp_sensible _ (or_intror eq_refl)) ltac:(apply energy_apart_ok; vm_compute; reflexivity) (ex_intro _ _ F)) as [y Fy].
  pose proof (C57_solutions _ _ _ _ _ _ id_ord_perm B' (lamp_sensible _ (or_intror eq_refl)) Fy) as OB. clear H F B B' Fy pm pm'.
  set (fs := in_energy (1 # 1000) fs_lamp) in *. set (pl := k_comp (1 # 1000) (Library.source "Plant" lamp)). set (nd := k_comp (1 # 1000) (Library.sink "Need" lamp_use)).
  assert (H1 : In pl (fs_comps fs)) by (left; reflexivity). assert (H2 : In nd (fs_comps fs)) by (right; left; reflexivity).
  set (fl1 := k_flow (1 # 1000) lamp). set (fl2 := k_flow (1 # 1000) lamp_use).
  destruct (ob_flow _ _ _ _ OB pl fl1 H1 (or_introl eq_refl)) as [[_ OFF ONN _ _ _ _] _]. destruct (ob_flow _ _ _ _ OB nd fl2 H2 (or_introl eq_refl)) as [[PLN _ _ _ _ _ _] _].
  assert (G1 : governed fs None pl fl1 <> None) by (intros E; discriminate E).
  assert (G2 : governed fs None nd fl2 = None) by reflexivity.
  destruct (PLN G2 0%nat ltac:(cbn; lia)) as [L1 L2]. change (1 * (1 # 200000) <= y (vlabel "Need__Q" "flow_rate") 0%nat) in L1. change (y (vlabel "Need__Q" "flow_rate") 0%nat <= 1 * (1 # 200000)) in L2.
  assert (UG : used_bus fs gas) by (exists nd, fl2; split; [exact H2|split; [left; reflexivity|reflexivity]]).
  destruct (ob_bus _ _ _ _ OB gas UG 0%nat ltac:(cbn; lia)) as [E _].
  change ((y (vlabel "Plant__Q" "flow_rate") 0%nat + 0 + (0 + 0) + 0 == 0 + (y (vlabel "Need__Q" "flow_rate") 0%nat + 0 + 0) + 0)) in E.
  destruct (PlanSpec.runs y pl fl1 0%nat) eqn:R.
  - destruct (ONN G1 0%nat ltac:(cbn; lia) R) as [L _]. change ((1 # 100000) <= y (vlabel "Plant__Q" "flow_rate") 0%nat) in L. lra.
  - pose proof (OFF G1 0%nat ltac:(cbn; lia) R) as Z. change (y (vlabel "Plant__Q" "flow_rate") 0%nat == 0) in Z. lra.
Qed.
Print Assumptions C98_refuted.

(** With the smallest rate converted as well, the plant meets the demand in both units. *)
Example C98_lamp : exists pm', build (k_config (1 # 1000) default_config) id_ord (in_energy (1 # 1000) fs_lamp) None = Ok pm' /\ exists y, feasible pm' y /\ y "Plant__Q_flow_rate" 0%nat == 5 # 1000000.
Proof.
  assert (X : exists pm, build default_config id_ord fs_lamp None = Ok pm /\ feasible pm lamp_on) by (apply run_ok; vm_compute; reflexivity). destruct X as [pm [B F]].
  destruct (build (k_config (1 # 1000) default_config) id_ord (in_energy (1 # 1000) fs_lamp) None) as [pm'|e] eqn:B'; [|vm_compute in B'; discriminate B']. exists pm'. split; [reflexivity|].
  destruct (proj1 (C98_units (1 # 1000) default_config id_ord id_ord fs_lamp None pm pm' eq_refl eq_refl id_ord_perm id_ord_perm B B' (lamp_sensible _ (or_introl eq_refl)) ltac:(apply energy_apart_ok; vm_compute; reflexivity)) lamp_on F) as [y [F' [R _]]].
  exists y. split; [exact F'|]. pose proof (rs_rate _ _ _ _ _ _ R (Library.source "Plant" lamp) lamp 0%nat (or_introl eq_refl) (or_introl eq_refl) ltac:(cbn; lia)) as E.
  change (y "Plant__Q_flow_rate" 0%nat == (1 # 1000) * (5 # 1000)) in E. rewrite E. reflexivity.
Qed.
