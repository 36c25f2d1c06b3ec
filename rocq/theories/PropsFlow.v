(** C09-C11, C13, C14, C17, C18: what every feasible point of the generated program says about flows. *)
From Verif Require Import Base BaseFacts MathModel Spec MathFacts Structure StructureFacts Params Features Elements System SysSpec
  CtxFacts ReadTools InvestFacts OnOffFacts FlowFacts NavFacts Example ExamplePoints.

Lemma limits_range : forall cf fs idx cx s, ctx_for cf fs idx cx -> lo_size cx s = fst (size_range cf s) /\ hi_size cx s = snd (size_range cf s).
Proof.
  intros cf fs idx cx s C. unfold lo_size, hi_size, size_limits, size_range. destruct s as [q|i]; simpl.
  - unfold flow_size, given_size. rewrite (cf_big_ _ _ _ _ C). auto.
  - destruct (iv_fixed i) eqn:E; simpl; auto. unfold iv_minimum, iv_maximum, max_size. rewrite E, (cf_big_ _ _ _ _ C). auto.
Qed.
Lemma max_range : forall cf fs idx cx i, ctx_for cf fs idx cx -> iv_maximum cx i = max_size cf i.
Proof. intros cf fs idx cx i C. unfold iv_maximum, max_size. rewrite (cf_big_ _ _ _ _ C). auto. Qed.
Lemma used_range : forall cf fs idx cx x c f, ctx_for cf fs idx cx ->
  used_size x cx (flow_name c f) (effective cf fs idx c f) = size_of cf x c f.
Proof.
  intros. unfold used_size, size_of. simpl. destruct (sized cf c f); auto. unfold flow_size, given_size. rewrite (cf_big_ _ _ _ _ H). auto.
Qed.

(** ** C09 *)
Theorem C09_flow_limits : forall cf ord fs idx pm x c f t,
  build cf ord fs idx = Ok pm -> feasible pm x -> 0 <= cf_eps cf ->
  In c (fs_comps fs) -> In f (cp_flows c) -> governed fs idx c f = None -> f_profile f = None -> (t < steps fs idx)%nat ->
  value idx (f_relmin f) t * size_of cf x c f <= rate_of x c f t
  /\ rate_of x c f t <= value idx (f_relmax f) t * size_of cf x c f.
Proof.
  intros cf ord fs idx pm x c f t H F Ep Hc Hf G Pr Ht.
  destruct (flow_laws _ _ _ _ _ _ _ _ H F Ep Hc Hf) as [cx [C R]].
  assert (Ht' : (t < cx_n cx)%nat) by (rewrite (cf_n _ _ _ _ C); auto).
  unfold size_of. destruct (sized cf c f) as [q|i] eqn:S.
  - pose proof (fr_plain _ _ _ _ R G t Ht') as L.
    destruct (limits_range cf fs idx cx (f_size (effective cf fs idx c f)) C) as [L1 L2]. rewrite L1, L2 in L.
    unfold rel_lo, rel_hi in L. simpl in L. rewrite Pr, S in L. simpl in L. rewrite (cf_idx _ _ _ _ C) in L. exact L.
  - destruct (fr_inv _ _ _ _ R i S) as [_ [_ L]]. specialize (L t Ht'). simpl in L. rewrite Pr, G, (cf_idx _ _ _ _ C) in L.
    unfold rate_of. destruct L as [L1 L2]. auto.
Qed.
(** The limits also hold for the extreme sizes, whatever size is chosen. *)
Theorem C09_flow_limits_range : forall cf ord fs idx pm x c f t,
  build cf ord fs idx = Ok pm -> feasible pm x -> 0 <= cf_eps cf ->
  In c (fs_comps fs) -> In f (cp_flows c) -> governed fs idx c f = None -> f_profile f = None -> (t < steps fs idx)%nat ->
  value idx (f_relmin f) t * fst (size_range cf (sized cf c f)) <= rate_of x c f t
  /\ rate_of x c f t <= value idx (f_relmax f) t * snd (size_range cf (sized cf c f)).
Proof.
  intros cf ord fs idx pm x c f t H F Ep Hc Hf G Pr Ht.
  destruct (flow_laws _ _ _ _ _ _ _ _ H F Ep Hc Hf) as [cx [C R]].
  assert (Ht' : (t < cx_n cx)%nat) by (rewrite (cf_n _ _ _ _ C); auto).
  pose proof (fr_plain _ _ _ _ R G t Ht') as L.
  destruct (limits_range cf fs idx cx (f_size (effective cf fs idx c f)) C) as [L1 L2]. rewrite L1, L2 in L.
  unfold rel_lo, rel_hi in L. simpl in L. rewrite Pr in L. rewrite (cf_idx _ _ _ _ C) in L. exact L.
Qed.
Print Assumptions C09_flow_limits.
Print Assumptions C09_flow_limits_range.

(** The source and the sink of the examples have no on/off behaviour and no profile. *)
Example C09_applies : forall t, (t < 3)%nat ->
  value idx1 (n1 (1 # 5)) t * 5 <= x1 "ElDemand__Q_flow_rate" t /\ x1 "ElDemand__Q_flow_rate" t <= value idx1 (n1 1) t * 5.
Proof.
  intros t Ht. destruct x1_feasible as [pm [B F]].
  assert (E0 : 0 <= cf_eps default_config) by (vm_compute; discriminate).
  assert (Hc : In el_sink (fs_comps fs1)) by (simpl; tauto).
  exact (C09_flow_limits default_config id_ord fs1 idx1 pm x1 el_sink (hd (flow0 0 "" gas) (cp_in el_sink)) t B F E0
           Hc (or_introl eq_refl) eq_refl eq_refl Ht).
Qed.

(** ** C10 *)
Theorem C10_fixed_profile : forall cf ord fs idx pm x c f p t,
  build cf ord fs idx = Ok pm -> feasible pm x -> 0 <= cf_eps cf ->
  In c (fs_comps fs) -> In f (cp_flows c) -> governed fs idx c f = None -> f_profile f = Some p -> (t < steps fs idx)%nat ->
  rate_of x c f t == value idx p t * size_of cf x c f.
Proof.
  intros cf ord fs idx pm x c f p t H F Ep Hc Hf G Pr Ht.
  destruct (flow_laws _ _ _ _ _ _ _ _ H F Ep Hc Hf) as [cx [C R]].
  assert (Ht' : (t < cx_n cx)%nat) by (rewrite (cf_n _ _ _ _ C); auto).
  unfold size_of. destruct (sized cf c f) as [q|i] eqn:S.
  - pose proof (fr_plain _ _ _ _ R G t Ht') as L.
    destruct (limits_range cf fs idx cx (f_size (effective cf fs idx c f)) C) as [L1 L2]. rewrite L1, L2 in L.
    unfold rel_lo, rel_hi in L. simpl in L. rewrite Pr, S in L. simpl in L. rewrite (cf_idx _ _ _ _ C) in L. unfold rate_of. lra.
  - destruct (fr_inv _ _ _ _ R i S) as [_ [_ L]]. specialize (L t Ht'). simpl in L. rewrite Pr, (cf_idx _ _ _ _ C) in L.
    exact L.
Qed.
(** With on/off behaviour: the profile while on, nothing while off (given sizes); with an investment always the profile. *)
Theorem C10_fixed_profile_onoff : forall cf ord fs idx pm x c f p o t,
  build cf ord fs idx = Ok pm -> feasible pm x -> 0 <= cf_eps cf ->
  In c (fs_comps fs) -> In f (cp_flows c) -> governed fs idx c f = Some o -> f_profile f = Some p -> (t < steps fs idx)%nat ->
  match sized cf c f with
  | SzNum q => rate_of x c f t == on_of x c f t * (value idx p t * given_size cf q)
  | SzInv _ => rate_of x c f t == value idx p t * size_of cf x c f
  end.
Proof.
  intros cf ord fs idx pm x c f p o t H F Ep Hc Hf G Pr Ht.
  destruct (flow_laws _ _ _ _ _ _ _ _ H F Ep Hc Hf) as [cx [C R]].
  assert (Ht' : (t < cx_n cx)%nat) by (rewrite (cf_n _ _ _ _ C); auto).
  unfold size_of. destruct (sized cf c f) as [q|i] eqn:S.
  - destruct (fr_on _ _ _ _ R o G) as [_ [_ [_ [_ [_ [_ [_ L]]]]]]]. specialize (L t Ht').
    destruct (limits_range cf fs idx cx (f_size (effective cf fs idx c f)) C) as [L1 L2]. rewrite L1, L2 in L.
    unfold rel_lo, rel_hi in L. simpl in L. rewrite Pr, S in L. simpl in L. rewrite (cf_idx _ _ _ _ C) in L. unfold rate_of, on_of. lra.
  - destruct (fr_inv _ _ _ _ R i S) as [_ [_ L]]. specialize (L t Ht'). simpl in L. rewrite Pr, (cf_idx _ _ _ _ C) in L.
    exact L.
Qed.
Print Assumptions C10_fixed_profile.
Print Assumptions C10_fixed_profile_onoff.

Example C10_applies : x1 "HeatDemand__Q_flow_rate" 1%nat == 2 * 10.
Proof.
  destruct x1_feasible as [pm [B F]].
  assert (E0 : 0 <= cf_eps default_config) by (vm_compute; discriminate).
  assert (Hc : In heat_sink (fs_comps fs1)) by (simpl; tauto).
  exact (C10_fixed_profile default_config id_ord fs1 idx1 pm x1 heat_sink (hd (flow0 0 "" gas) (cp_in heat_sink)) _ 1%nat B F E0
           Hc (or_introl eq_refl) eq_refl eq_refl (le_S _ _ (le_n 2))).
Qed.

(** ** C11 *)
Lemma allowed_size_ok : forall cf iv q d,
  (if (iv_is_fixed iv && negb (iv_optional iv))%bool then q == or_num (iv_fixed iv) 0
   else (if iv_optional iv then 0 else iv_minimum iv) <= q /\ q <= max_size cf iv) ->
  (iv_optional iv = true -> (d == 0 \/ d == 1) /\
     if iv_is_fixed iv then q == d * or_num (iv_fixed iv) 0
     else q <= d * max_size cf iv /\ d * Qmax_ (cf_eps cf) (iv_minimum iv) <= q) ->
  allowed_size cf iv q d.
Proof.
  intros cf iv q d S O. unfold allowed_size, fixed_size.
  unfold iv_is_fixed, iv_minimum, or_num, truthy in *.
  destruct (iv_fixed iv) as [z|]; simpl in *.
  - destruct (Qeq_bool z 0) eqn:Z; simpl in *.
    + destruct (iv_optional iv); simpl in *; auto.
      destruct (O eq_refl) as [[D|D] [A B]]; rewrite D in *; [left; split; [lra|lra]|right].
      pose proof (Qmax_ge_l (cf_eps cf) (iv_min iv)). pose proof (Qmax_ge_r (cf_eps cf) (iv_min iv)). repeat split; lra.
    + destruct (iv_optional iv); simpl in *; auto.
      destruct (O eq_refl) as [[D|D] A]; rewrite D in *; [left|right]; split; lra.
  - destruct (iv_optional iv); simpl in *; auto.
    destruct (O eq_refl) as [[D|D] [A B]]; rewrite D in *; [left; split; lra|right].
    pose proof (Qmax_ge_l (cf_eps cf) (iv_min iv)). pose proof (Qmax_ge_r (cf_eps cf) (iv_min iv)). repeat split; lra.
Qed.

Theorem C11_investment_size : forall cf ord fs idx pm x c f iv,
  build cf ord fs idx = Ok pm -> feasible pm x -> 0 <= cf_eps cf ->
  In c (fs_comps fs) -> In f (cp_flows c) -> sized cf c f = SzInv iv ->
  allowed_size cf iv (x (inv (flow_name c f) "size") 0%nat) (x (inv (flow_name c f) "isInvested") 0%nat).
Proof.
  intros cf ord fs idx pm x c f iv H F Ep Hc Hf S.
  destruct (flow_laws _ _ _ _ _ _ _ _ H F Ep Hc Hf) as [cx [C R]].
  destruct (fr_inv _ _ _ _ R iv S) as [A [B _]]. rewrite (max_range _ _ _ _ iv C), ?(cf_eps_ _ _ _ _ C) in *.
  apply allowed_size_ok; auto.
Qed.
Print Assumptions C11_investment_size.

(** An optional investment of variable size, invested in this point. *)
Example C11_applies : allowed_size default_config boiler_inv (x0 "Boiler__Q_th__Investment_size" 0%nat)
                        (x0 "Boiler__Q_th__Investment_isInvested" 0%nat).
Proof.
  destruct x0_feasible as [pm [B F]].
  assert (E0 : 0 <= cf_eps default_config) by (vm_compute; discriminate).
  assert (Hc : In boiler (fs_comps fs0)) by (simpl; tauto). assert (Hf : In q_th (cp_flows boiler)) by (simpl; tauto).
  exact (C11_investment_size default_config id_ord fs0 None pm x0 boiler q_th boiler_inv B F E0 Hc Hf eq_refl).
Qed.

(** ** C13 *)
Theorem C13_onoff_coupling : forall cf ord fs idx pm x c f o t,
  build cf ord fs idx = Ok pm -> feasible pm x -> 0 <= cf_eps cf ->
  In c (fs_comps fs) -> In f (cp_flows c) -> governed fs idx c f = Some o -> (t < steps fs idx)%nat ->
  (on_of x c f t == 0 /\ rate_of x c f t == 0)
  \/ (on_of x c f t == 1 /\ cf_eps cf <= rate_of x c f t
      /\ (let lo := match f_profile f with Some p => p | None => f_relmin f end in
          let hi := match f_profile f with Some p => p | None => f_relmax f end in
          value idx lo t * fst (size_range cf (sized cf c f)) <= rate_of x c f t
          /\ rate_of x c f t <= value idx hi t * snd (size_range cf (sized cf c f))
          /\ value idx lo t * size_of cf x c f <= rate_of x c f t
          /\ rate_of x c f t <= value idx hi t * size_of cf x c f)).
Proof.
  intros cf ord fs idx pm x c f o t H F Ep Hc Hf G Ht.
  destruct (flow_laws _ _ _ _ _ _ _ _ H F Ep Hc Hf) as [cx [C R]].
  assert (Ht' : (t < cx_n cx)%nat) by (rewrite (cf_n _ _ _ _ C); auto).
  pose proof (fr_nonneg _ _ _ _ R o G t Ht') as NN.
  destruct (fr_on _ _ _ _ R o G) as [prev [rate [ab [_ [_ [_ [OO L]]]]]]]. specialize (L t Ht').
  pose proof (oo_bin _ _ _ _ _ _ _ OO t Ht') as B.
  destruct (limits_range cf fs idx cx (f_size (effective cf fs idx c f)) C) as [L1 L2]. rewrite L1, L2 in L.
  rewrite (cf_eps_ _ _ _ _ C), (cf_idx _ _ _ _ C) in L. simpl f_size in L.
  unfold rate_of, on_of. destruct L as [La [Lb Lc]]. destruct B as [B|B]; rewrite B in *; [left; split; lra|right].
  split; [lra|]. split; [lra|].
  assert (S : let lo := match f_profile f with Some p => p | None => f_relmin f end in
          let hi := match f_profile f with Some p => p | None => f_relmax f end in
          value idx lo t * size_of cf x c f <= x (vlabel (flow_name c f) "flow_rate") t
          /\ x (vlabel (flow_name c f) "flow_rate") t <= value idx hi t * size_of cf x c f).
  { unfold size_of. destruct (sized cf c f) as [q|i] eqn:S.
    - simpl in Lb, Lc. unfold rel_lo, rel_hi in *. simpl in Lb, Lc. destruct (f_profile f); simpl; split; lra.
    - destruct (fr_inv _ _ _ _ R i S) as [_ [_ I]]. specialize (I t Ht'). simpl in I. rewrite G, (cf_idx _ _ _ _ C) in I.
      destruct (f_profile f); simpl; [split; lra|]. destruct I as [I1 I2]. rewrite B in I2. split; lra. }
  unfold rel_lo, rel_hi in *. simpl in *. destruct (f_profile f); simpl in *; repeat split; try lra; try tauto.
Qed.
Print Assumptions C13_onoff_coupling.

Example C13_applies : governed fs0 None boiler q_th = Some boiler_oo /\ governed fs0 None sto (hd q_fu (cp_in sto)) = Some default_onoff
  /\ on_of x0 boiler q_th 1 == 1 /\ on_of x0 boiler q_th 2 == 0.
Proof. repeat split; vm_compute; reflexivity. Qed.

(** ** C14 *)
Lemma nonneg_sum_zero : forall l : list Q, (forall q, In q l -> 0 <= q) -> Qsum l <= 0 -> forall q, In q l -> q == 0.
Proof.
  induction l as [|a l IH]; intros N S q Hq; [destruct Hq|]. rewrite Qsum_cons in S.
  assert (A : 0 <= a) by (apply N; simpl; auto). assert (B : 0 <= Qsum l) by (apply Qsum_nonneg; intros; apply N; simpl; auto).
  destruct Hq as [<-|Hq]; [lra|]. apply IH; auto; [intros; apply N; simpl; auto|lra].
Qed.

Theorem C14_component_onoff : forall cf ord fs idx pm x c p t,
  build cf ord fs idx = Ok pm -> feasible pm x -> 0 < cf_eps cf ->
  In c (fs_comps fs) -> cp_onoff c = Some p -> (t < steps fs idx)%nat ->
  (forall f, In f (cp_flows c) -> exists o, governed fs idx c f = Some o)
  /\ (x (oo (cp_label c) "on") t == 0 \/ x (oo (cp_label c) "on") t == 1)
  /\ (x (oo (cp_label c) "on") t == 0 <-> forall f, In f (cp_flows c) -> rate_of x c f t == 0).
Proof.
  intros cf ord fs idx pm x c p t H F Ep Hc Hp Ht.
  assert (Ep' : 0 <= cf_eps cf) by lra.
  assert (GV : forall f, In f (cp_flows c) -> exists o, governed fs idx c f = Some o).
  { intros f _. unfold governed. destruct (f_onoff f); eauto. unfold induced. rewrite Hp. simpl. eauto. }
  split; auto.
  destruct (comp_onoff_laws _ _ _ _ _ _ _ _ H F Ep' Hc Hp) as [cx [fos [prev_on [C [FF [_ R]]]]]].
  assert (Ht' : (t < cx_n cx)%nat) by (rewrite (cf_n _ _ _ _ C); auto).
  pose proof (oo_bin _ _ _ _ _ _ _ R t Ht') as B. split; auto.
  assert (NN : forall f, In f (cp_flows c) -> 0 <= rate_of x c f t).
  { intros f Hf. destruct (GV f Hf) as [o G]. destruct (flow_laws _ _ _ _ _ _ _ _ H F Ep' Hc Hf) as [cx' [C' R']].
    apply (fr_nonneg _ _ _ _ R' o G t). rewrite (cf_n _ _ _ _ C'); auto. }
  pose proof (oo_coupled _ _ _ _ _ _ _ R t Ht') as K. destruct K as [K1 K2].
  assert (RS : rate_sum x (map fo_rate fos) t == Qsum (map (fun f => rate_of x c f t) (cp_flows c))).
  { rewrite (rate_sum_flows _ _ _ _ _ _ _ _ _ FF). reflexivity. }
  assert (K1' : x (oo (cp_label c) "on") t * cf_eps cf <= rate_sum x (map fo_rate fos) t).
  { rewrite <- (cf_eps_ _ _ _ _ C). destruct (map fo_rate fos) as [|v [|v' l]]; auto.
    destruct (map fo_bounds fos) as [|[lb ub] bl]; auto. destruct K1 as [K1 _]. unfold rate_sum. simpl. lra. }
  rewrite RS in K1', K2. split.
  - intros Z f Hf. rewrite Z in K2.
    apply (nonneg_sum_zero (map (fun f => rate_of x c f t) (cp_flows c))).
    + intros q Hq. apply in_map_iff in Hq. destruct Hq as [g [<- Hg]]. auto.
    + lra.
    + apply in_map_iff. eauto.
  - intros Z. assert (S0 : Qsum (map (fun f => rate_of x c f t) (cp_flows c)) == 0).
    { apply Qsum_zero. intros q Hq. apply in_map_iff in Hq. destruct Hq as [g [<- Hg]]. auto. }
    rewrite S0 in K1'. destruct B as [B|B]; auto. rewrite B in K1'. lra.
Qed.
Print Assumptions C14_component_onoff.

Example C14_applies : cp_onoff chp = Some unit_oo /\ x1 (oo (cp_label chp) "on") 0%nat == 1 /\ x1 (oo (cp_label chp) "on") 1%nat == 0.
Proof. repeat split; vm_compute; reflexivity. Qed.

(** ** C17 *)
Theorem C17_flow_totals : forall cf ord fs idx pm x c f,
  build cf ord fs idx = Ok pm -> feasible pm x -> 0 <= cf_eps cf -> In c (fs_comps fs) -> In f (cp_flows c) ->
  let total := x (vlabel (flow_name c f) "sumFlowHours") 0%nat in
  total == sumn (steps fs idx) (fun t => hours fs idx t * rate_of x c f t)
  /\ (forall q, f_fh_min f = Some q -> q <= total) /\ (forall q, f_fh_max f = Some q -> total <= q)
  /\ (forall q, f_lf_min f = Some q -> q * size_of cf x c f * horizon fs idx <= total)
  /\ (forall q, f_lf_max f = Some q -> total <= q * size_of cf x c f * horizon fs idx).
Proof.
  intros cf ord fs idx pm x c f H F Ep Hc Hf.
  destruct (flow_laws _ _ _ _ _ _ _ _ H F Ep Hc Hf) as [cx [C R]]. simpl.
  split.
  { rewrite (fr_sum _ _ _ _ R), (cf_n _ _ _ _ C). apply sumn_ext. intros t Ht. rewrite (cf_dt _ _ _ _ C t Ht). reflexivity. }
  split; [apply (fr_sum_min _ _ _ _ R)|]. split; [apply (fr_sum_max _ _ _ _ R)|].
  split; intros q Hq.
  - pose proof (fr_lf_min _ _ _ _ R q Hq) as L. rewrite (used_range _ _ _ _ _ _ _ C), (cf_total _ _ _ _ C) in L. lra.
  - pose proof (fr_lf_max _ _ _ _ R q Hq) as L. rewrite (used_range _ _ _ _ _ _ _ C), (cf_total _ _ _ _ C) in L. lra.
Qed.

Theorem C17_on_hours : forall cf ord fs idx pm x c f o,
  build cf ord fs idx = Ok pm -> feasible pm x -> 0 <= cf_eps cf -> In c (fs_comps fs) -> In f (cp_flows c) ->
  governed fs idx c f = Some o ->
  let total := x (oo (flow_name c f) "totalOnHours") 0%nat in
  total == sumn (steps fs idx) (fun t => hours fs idx t * on_of x c f t)
  /\ (forall q, oo_on_min o = Some q -> q <= total) /\ (forall q, oo_on_max o = Some q -> total <= q).
Proof.
  intros cf ord fs idx pm x c f o H F Ep Hc Hf G.
  destruct (flow_laws _ _ _ _ _ _ _ _ H F Ep Hc Hf) as [cx [C R]]. simpl.
  destruct (fr_on _ _ _ _ R o G) as [prev [rate [ab [_ [_ [_ [OO _]]]]]]].
  split.
  { rewrite (oo_total _ _ _ _ _ _ _ OO), (cf_n _ _ _ _ C). apply sumn_ext. intros t Ht. rewrite (cf_dt _ _ _ _ C t Ht). reflexivity. }
  split; [apply (oo_total_min _ _ _ _ _ _ _ OO)|apply (oo_total_max _ _ _ _ _ _ _ OO)].
Qed.
Theorem C17_component_on_hours : forall cf ord fs idx pm x c o,
  build cf ord fs idx = Ok pm -> feasible pm x -> 0 <= cf_eps cf -> In c (fs_comps fs) -> cp_onoff c = Some o ->
  let total := x (oo (cp_label c) "totalOnHours") 0%nat in
  total == sumn (steps fs idx) (fun t => hours fs idx t * x (oo (cp_label c) "on") t)
  /\ (forall q, oo_on_min o = Some q -> q <= total) /\ (forall q, oo_on_max o = Some q -> total <= q).
Proof.
  intros cf ord fs idx pm x c o H F Ep Hc G.
  destruct (comp_onoff_laws _ _ _ _ _ _ _ _ H F Ep Hc G) as [cx [fos [prev_on [C [_ [_ OO]]]]]]. simpl.
  split.
  { rewrite (oo_total _ _ _ _ _ _ _ OO), (cf_n _ _ _ _ C). apply sumn_ext. intros t Ht. rewrite (cf_dt _ _ _ _ C t Ht). reflexivity. }
  split; [apply (oo_total_min _ _ _ _ _ _ _ OO)|apply (oo_total_max _ _ _ _ _ _ _ OO)].
Qed.
Print Assumptions C17_flow_totals.
Print Assumptions C17_on_hours.
Print Assumptions C17_component_on_hours.

Example C17_applies : f_lf_max q_th = Some (9 # 10) /\ oo_on_max boiler_oo = Some 100 /\ oo_on_max unit_oo = Some 20
  /\ x0 "Boiler__Q_th_sumFlowHours" 0%nat == 22 /\ size_of default_config x0 boiler q_th == 20 /\ horizon fs0 None == 3.
Proof. repeat split; vm_compute; reflexivity. Qed.

(** ** C18 *)
Lemma Forall2_sum_two : forall (P : nat -> string -> Prop) ids ons (g : string -> Q) i j a b,
  Forall2 P ids ons -> (forall i l, P i l -> 0 <= g l) -> In i ids -> In j ids -> i <> j ->
  (forall l, P i l -> g l == a) -> (forall l, P j l -> g l == b) -> a + b <= Qsum (map g ons).
Proof.
  intros P ids ons g i j a b H. revert i j a b. induction H as [|k l ids ons Hk H IH]; intros i j a b N Hi Hj D A B; [destruct Hi|].
  cbn [map]. rewrite Qsum_cons.
  assert (One : forall i a, In i ids -> (forall l, P i l -> g l == a) -> a <= Qsum (map g ons)).
  { clear -H N. induction H as [|k l ids ons Hk H IH]; intros i a Hi A; [destruct Hi|]. cbn [map]. rewrite Qsum_cons.
    assert (Z : 0 <= Qsum (map g ons)).
    { apply Qsum_nonneg. intros q Hq. apply in_map_iff in Hq. destruct Hq as [s [<- Hs]]. destruct (Forall2_In_r _ _ _ _ H Hs) as [m [_ Hm]]. eauto. }
    destruct Hi as [<-|Hi]; [rewrite (A l Hk); lra|]. specialize (IH i a Hi A). specialize (N k l Hk). lra. }
  destruct Hi as [<-|Hi], Hj as [<-|Hj]; try congruence.
  - rewrite (A l Hk). specialize (One j b Hj B). lra.
  - rewrite (B l Hk). specialize (One i a Hi A). lra.
  - specialize (IH i j a b N Hi Hj D A B). specialize (N k l Hk). lra.
Qed.

Lemma same_id : forall cf ord fs idx pm c f g, build cf ord fs idx = Ok pm -> In c (fs_comps fs) ->
  In f (cp_flows c) -> In g (cp_flows c) -> f_id f = f_id g -> f = g.
Proof.
  intros cf ord fs idx pm c f g H Hc Hf Hg E. destruct (build_parts _ _ _ _ _ H) as [cx [cos [bos [em [obj P]]]]].
  pose proof (sy_ids _ _ _ _ _ _ _ _ _ _ P) as ND. unfold all_flows in ND.
  pose proof (NoDup_flat_map_part _ _ _ c ND Hc) as Y. cbv beta in Y. rewrite map_map in Y. simpl in Y.
  assert (A : find (fun o => Nat.eqb (f_id o) (f_id f)) (cp_flows c) = Some f) by (apply find_unique; auto).
  assert (B : find (fun o => Nat.eqb (f_id o) (f_id g)) (cp_flows c) = Some g) by (apply find_unique; auto).
  rewrite E in A. congruence.
Qed.

Theorem C18_exclusive_flows : forall cf ord fs idx pm x c f g t,
  build cf ord fs idx = Ok pm -> feasible pm x -> 0 <= cf_eps cf -> In c (fs_comps fs) ->
  In f (cp_flows c) -> In g (cp_flows c) -> f <> g -> In (f_id f) (cp_prevent c) -> In (f_id g) (cp_prevent c) ->
  (t < steps fs idx)%nat -> rate_of x c f t == 0 \/ rate_of x c g t == 0.
Proof.
  intros cf ord fs idx pm x c f g t H F Ep Hc Hf Hg D Pf Pg Ht.
  assert (NE : cp_prevent c <> []) by (intros E; rewrite E in Pf; destruct Pf).
  destruct (prevent_laws _ _ _ _ _ _ _ H F Hc NE) as [_ PV]. destruct (PV t Ht) as [ons [V S]].
  assert (GV : forall h, In h (cp_flows c) -> In (f_id h) (cp_prevent c) -> exists o, governed fs idx c h = Some o).
  { intros h _ Hp. unfold governed. destruct (f_onoff h); eauto. unfold induced.
    assert (X : existsb (Nat.eqb (f_id h)) (cp_prevent c) = true) by (apply existsb_exists; exists (f_id h); split; auto; apply Nat.eqb_refl).
    rewrite X, orb_true_r. simpl. eauto. }
  assert (CP : forall h, In h (cp_flows c) -> In (f_id h) (cp_prevent c) ->
                (on_of x c h t == 0 /\ rate_of x c h t == 0) \/ on_of x c h t == 1).
  { intros h Hh Hp. destruct (GV h Hh Hp) as [o G].
    destruct (C13_onoff_coupling _ _ _ _ _ _ _ _ _ _ H F Ep Hc Hh G Ht) as [A|[A _]]; auto. }
  destruct (CP f Hf Pf) as [[_ A]|A]; auto. destruct (CP g Hg Pg) as [[_ B]|B]; auto. exfalso.
  assert (X : 1 + 1 <= Qsum (map (fun l => x l t) ons)).
  { set (Rl := fun i l => In i (cp_prevent c) /\ exists f0, In f0 (cp_flows c) /\ f_id f0 = i /\ l = oo (flow_name c f0) "on").
    assert (V' : Forall2 Rl (cp_prevent c) ons).
    { assert (Gen : forall il ll, Forall2 (fun i l => exists f0, In f0 (cp_flows c) /\ f_id f0 = i /\ l = oo (flow_name c f0) "on") il ll ->
                incl il (cp_prevent c) -> Forall2 Rl il ll).
      { induction 1 as [|i l il ll Hi HF IH]; intros I; constructor.
        - split; auto. apply I; simpl; auto.
        - apply IH. intros z Hz. apply I; simpl; auto. }
      apply Gen; auto. intros ? ?; auto. }
    apply (Forall2_sum_two Rl _ _ (fun l => x l t) (f_id f) (f_id g) 1 1 V'); auto.
    - intros i l [Hi [h [Hh [<- ->]]]]. destruct (CP h Hh Hi) as [[Z _]|Z]; unfold on_of in Z; rewrite Z; lra.
    - intros E. apply D. exact (same_id _ _ _ _ _ _ _ _ H Hc Hf Hg E).
    - intros l [_ [h [Hh [E ->]]]]. rewrite (same_id _ _ _ _ _ _ _ _ H Hc Hh Hf E). exact A.
    - intros l [_ [h [Hh [E ->]]]]. rewrite (same_id _ _ _ _ _ _ _ _ H Hc Hh Hg E). exact B. }
  lra.
Qed.
Print Assumptions C18_exclusive_flows.

Example C18_applies : forall t, (t < 3)%nat -> x0 "Storage__ch_flow_rate" t == 0 \/ x0 "Storage__dis_flow_rate" t == 0.
Proof.
  intros t Ht. destruct x0_feasible as [pm [B F]].
  assert (E0 : 0 <= cf_eps default_config) by (vm_compute; discriminate).
  assert (Hc : In sto (fs_comps fs0)) by (simpl; tauto).
  apply (C18_exclusive_flows default_config id_ord fs0 None pm x0 sto (hd q_fu (cp_in sto)) (hd q_fu (cp_out sto)) t B F E0 Hc);
    simpl; auto. discriminate.
Qed.
