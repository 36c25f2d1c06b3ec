(** Claim C78: only what the data says counts, not how it is written down or where the time axis lies. *)
From Coq Require Import Permutation.
From Verif Require Import Base BaseFacts MathModel Spec Structure Params Features Elements Library System SysSpec AdmitSpec CtxFacts NavFacts PropsOnOff PropsComp PropsEffects PlanSpec Example
     TotalInvest PlanComp PlanComp PlanSame PlanCheck ExamplePoints PropsPlan PropsRelax.

(** ** Specification *)

(** Two calculations, each given by the time steps it covers, over [n] steps. *)
Section Alike.
Variables (idx idx' : option (list nat)) (n : nat).

(** The second parameter says the same as the first at every step. *)
Definition agree (p p' : param) : Prop := forall t, (t < n)%nat -> value idx' p' t == value idx p t.
(** At every step and at the end of the last one. *)
Definition agree_levels (p p' : param) : Prop := forall t, (t <= n)%nat -> value idx' p' t == value idx p t.
Definition alike_option {A} (R : A -> A -> Prop) (a b : option A) : Prop :=
  match a, b with None, None => True | Some p, Some p' => R p p' | _, _ => False end.
Definition agree_entry {K} (a b : K * param) : Prop := fst b = fst a /\ agree (snd a) (snd b).
Definition alike_values (v v' : evalues) : Prop := Forall2 agree_entry (entries v) (entries v').

Record alike_onoff (o o' : onoff) : Prop := {
  ao_effects : alike_values (oo_switch_eff o) (oo_switch_eff o') /\ alike_values (oo_run_eff o) (oo_run_eff o');
  ao_numbers : oo_on_min o' = oo_on_min o /\ oo_on_max o' = oo_on_max o /\ oo_sw_max o' = oo_sw_max o;
  ao_con : alike_option agree (oo_con_min o) (oo_con_min o') /\ alike_option agree (oo_con_max o) (oo_con_max o');
  ao_coff : alike_option agree (oo_coff_min o) (oo_coff_min o') /\ alike_option agree (oo_coff_max o) (oo_coff_max o')
}.
Record alike_bus (b b' : bus) : Prop := {
  ab_same : b_id b' = b_id b /\ b_lab b' = b_lab b;
  ab_penalty : alike_option agree (b_penalty b) (b_penalty b')
}.
Record alike_flow (f f' : flow) : Prop := {
  af_same : f_id f' = f_id f /\ f_lab f' = f_lab f /\ f_size f' = f_size f /\ f_prev f' = f_prev f;
  af_numbers : f_fh_max f' = f_fh_max f /\ f_fh_min f' = f_fh_min f /\ f_lf_min f' = f_lf_min f /\ f_lf_max f' = f_lf_max f;
  af_bus : alike_bus (f_bus f) (f_bus f');
  af_profile : alike_option agree (f_profile f) (f_profile f');
  af_limits : agree (f_relmin f) (f_relmin f') /\ agree (f_relmax f) (f_relmax f');
  af_effects : alike_values (f_effects f) (f_effects f');
  af_onoff : alike_option alike_onoff (f_onoff f) (f_onoff f')
}.
Record alike_storage (s s' : storage) : Prop := {
  as_same : st_cap s' = st_cap s /\ st_init s' = st_init s /\ st_fmin s' = st_fmin s /\ st_fmax s' = st_fmax s;
  as_levels : agree_levels (st_relmin s) (st_relmin s') /\ agree_levels (st_relmax s) (st_relmax s');
  as_rates : agree (st_eta_c s) (st_eta_c s') /\ agree (st_eta_d s) (st_eta_d s') /\ agree (st_loss s) (st_loss s')
}.
Definition alike_points (a b : param * param) : Prop := agree (fst a) (fst b) /\ agree (snd a) (snd b).
Definition alike_segments (a b : nat * list (param * param)) : Prop := fst b = fst a /\ Forall2 alike_points (snd a) (snd b).
Definition alike_kind (k k' : ckindc) : Prop :=
  match k, k' with
  | Plain, Plain => True
  | Converter eqs, Converter eqs' => Forall2 (Forall2 agree_entry) eqs eqs'
  | Params.Segmented segs, Params.Segmented segs' => Forall2 alike_segments segs segs'
  | StorageC s, StorageC s' => alike_storage s s'
  | TransmissionC rel abs, TransmissionC rel' abs' => alike_option agree rel rel' /\ alike_option agree abs abs'
  | _, _ => False
  end.
Record alike_comp (c c' : component) : Prop := {
  ac_same : cp_label c' = cp_label c /\ cp_prevent c' = cp_prevent c;
  ac_in : Forall2 alike_flow (cp_in c) (cp_in c');
  ac_out : Forall2 alike_flow (cp_out c) (cp_out c');
  ac_onoff : alike_option alike_onoff (cp_onoff c) (cp_onoff c');
  ac_kind : alike_kind (cp_kind c) (cp_kind c')
}.
Record alike_effect (e e' : effect) : Prop := {
  ae_same : e_id e' = e_id e /\ e_label e' = e_label e /\ e_std e' = e_std e /\ e_obj e' = e_obj e /\ e_share_inv e' = e_share_inv e;
  ae_shares : Forall2 agree_entry (e_share_op e) (e_share_op e');
  ae_min : e_min_op e' = e_min_op e /\ e_min_inv e' = e_min_inv e /\ e_min_tot e' = e_min_tot e /\ alike_option agree (e_min_ph e) (e_min_ph e');
  ae_max : e_max_op e' = e_max_op e /\ e_max_inv e' = e_max_inv e /\ e_max_tot e' = e_max_tot e /\ alike_option agree (e_max_ph e) (e_max_ph e')
}.
End Alike.

(** The calculations [fs], [idx] and [fs'], [idx'] say the same: as many steps, of the same lengths, and the same values of all
    parameters at all steps. Time stamps may differ, and numbers may be given as arrays. *)
Record same_data (fs : flow_system) (idx : option (list nat)) (fs' : flow_system) (idx' : option (list nat)) : Prop := {
  sd_steps : steps fs' idx' = steps fs idx;
  sd_hours : forall t, (t < steps fs idx)%nat -> hours fs' idx' t == hours fs idx t;
  sd_before : fs_prev_dt fs' = fs_prev_dt fs;
  sd_effects : Forall2 (alike_effect idx idx' (steps fs idx)) (fs_effects fs) (fs_effects fs');
  sd_comps : Forall2 (alike_comp idx idx' (steps fs idx)) (fs_comps fs) (fs_comps fs')
}.

(** ** Facts *)
Section Same.
Variables (cf : config) (fs fs' : flow_system) (idx idx' : option (list nat)) (x : asg).
Hypothesis W : same_data fs idx fs' idx'.
Hypothesis N1 : (0 < steps fs idx)%nat.
Notation n := (steps fs idx).
Notation agr := (agree idx idx' n).
Notation aflow := (alike_flow idx idx' n).
Notation acomp := (alike_comp idx idx' n).
Notation aeff := (alike_effect idx idx' n).
Notation aon := (alike_onoff idx idx' n).

Lemma s_steps : steps fs' idx' = n. Proof. exact (sd_steps _ _ _ _ W). Qed.
Lemma s_hours : forall t, (t < n)%nat -> hours fs' idx' t == hours fs idx t. Proof. exact (sd_hours _ _ _ _ W). Qed.
Lemma s_horizon : horizon fs' idx' == horizon fs idx.
Proof. unfold horizon. rewrite s_steps. apply sumn_ext. exact s_hours. Qed.
Lemma s_weighted : forall g g', (forall t, (t < n)%nat -> g' t == g t) -> sumn n (fun t => hours fs' idx' t * g' t) == sumn n (fun t => hours fs idx t * g t).
Proof. intros g g' H. apply sumn_ext. intros t Ht. rewrite (s_hours t Ht), (H t Ht). reflexivity. Qed.
Lemma s_run : forall prior s t, (t < n)%nat -> run_hours (hours fs' idx') prior s t == run_hours (hours fs idx) prior s t.
Proof.
  intros prior s t Ht. unfold run_hours, span. assert (E : Qsum (map (hours fs' idx') (seq s (S t - s))) == Qsum (map (hours fs idx) (seq s (S t - s)))).
  { apply Qsum_map_eq. intros i Hi. apply in_seq in Hi. apply s_hours. lia. }
  rewrite E. reflexivity.
Qed.

Lemma limits_alike : forall prior b dmin dmax dmin' dmax', alike_option agr dmin dmin' -> alike_option agr dmax dmax' ->
  obeys_limits fs idx prior b dmin dmax -> obeys_limits fs' idx' prior b dmin' dmax'.
Proof.
  intros prior b dmin dmax dmin' dmax' L U [A [B C]]. unfold obeys_limits. rewrite s_steps.
  split; [|split].
  - intros p' s t E Ht R. subst dmax'. destruct dmax as [p|]; [|contradiction]. rewrite (s_run _ _ _ Ht), (U t Ht). eauto.
  - intros p' s t E Ht R Z. subst dmin'. destruct dmin as [p|]; [|contradiction]. rewrite (s_run _ s t) by lia. rewrite (L t) by lia. eauto.
  - intros p' E P0 P1. subst dmin'. destruct dmin as [p|]; [|contradiction]. rewrite (L 0%nat N1) in P1. eauto.
Qed.
Lemma rules_alike : forall states o o' on, aon o o' -> onoff_rules fs idx states o on -> onoff_rules fs' idx' states o' on.
Proof.
  intros states o o' on [_ [H1 [H2 H3]] [H4 H5] [H6 H7]] [A [B [C [D E]]]]. unfold onoff_rules. rewrite s_steps, (sd_before _ _ _ _ W), H1, H2, H3.
  assert (TH : sumn n (fun t => hours fs' idx' t * on t) == sumn n (fun t => hours fs idx t * on t)) by (apply s_weighted; intros; reflexivity).
  split; [|split; [|split; [|split]]].
  - intros q Q'. rewrite TH. auto.
  - intros q Q'. rewrite TH. auto.
  - exact C.
  - eapply limits_alike; eassumption.
  - eapply limits_alike; eassumption.
Qed.
Lemma onoff_some_ : forall o o', alike_option aon o o' -> is_some o' = is_some o.
Proof. intros [o|] [o'|] H; try reflexivity; destruct H. Qed.
Lemma agree_refl_q : forall q, agr (PNum (NS q)) (PNum (NS q)). Proof. intros q t _. reflexivity. Qed.
Lemma default_alike : aon default_onoff default_onoff.
Proof. repeat constructor. Qed.
Lemma loss_alike : forall p p', agr p p' -> any_loss fs' idx' p' = any_loss fs idx p.
Proof.
  intros p p' A. unfold any_loss. rewrite s_steps. assert (K : forall l, (forall t, In t l -> (t < n)%nat) ->
    existsb (fun t => negb (Qeq_bool (value idx' p' t) 0)) l = existsb (fun t => negb (Qeq_bool (value idx p t) 0)) l).
  { induction l as [|t l IH]; intros H; [reflexivity|]. cbn [existsb]. rewrite IH by (intros; apply H; right; assumption). f_equal. f_equal. apply Qeq_bool_ext. apply A. apply H. left. reflexivity. }
  apply K. intros t Ht. apply in_seq in Ht. lia.
Qed.
Lemma governed_alike : forall c c' f f', acomp c c' -> aflow f f' -> alike_option aon (governed fs idx c f) (governed fs' idx' c' f').
Proof.
  intros c c' f f' WC WF. unfold governed. pose proof (af_onoff _ _ _ _ _ WF) as O. destruct (f_onoff f) as [o|], (f_onoff f') as [o'|]; try contradiction; [exact O|].
  replace (induced fs' idx' c' f') with (induced fs idx c f); [destruct (induced fs idx c f); cbn; auto using default_alike|].
  unfold induced. destruct (ac_same _ _ _ _ _ WC) as [_ P]. destruct (af_same _ _ _ _ _ WF) as [I _]. rewrite P, I, (onoff_some_ _ _ (ac_onoff _ _ _ _ _ WC)). f_equal.
  pose proof (ac_kind _ _ _ _ _ WC) as K. destruct (cp_kind c) as [ | | |s|r [p|]], (cp_kind c') as [ | | |s'|r' [p'|]]; try contradiction; try reflexivity.
  - symmetry. apply loss_alike. apply K.
  - destruct K as [_ []].
  - destruct K as [_ []].
Qed.
Lemma governed_none_ : forall c c' f f', acomp c c' -> aflow f f' -> (governed fs' idx' c' f' = None <-> governed fs idx c f = None).
Proof. intros c c' f f' WC WF. pose proof (governed_alike _ _ _ _ WC WF) as G. destruct (governed fs idx c f), (governed fs' idx' c' f'); try contradiction; split; congruence. Qed.
Lemma names_alike : forall c c' f f', acomp c c' -> aflow f f' -> flow_name c' f' = flow_name c f.
Proof. intros c c' f f' WC WF. unfold flow_name. destruct (ac_same _ _ _ _ _ WC) as [-> _]. destruct (af_same _ _ _ _ _ WF) as [_ [-> _]]. reflexivity. Qed.
Lemma rate_alike : forall c c' f f' t, acomp c c' -> aflow f f' -> rate_of x c' f' t = rate_of x c f t.
Proof. intros c c' f f' t WC WF. unfold rate_of. rewrite (names_alike _ _ _ _ WC WF). reflexivity. Qed.
Lemma on_alike : forall c c' f f' t, acomp c c' -> aflow f f' -> on_of x c' f' t = on_of x c f t.
Proof. intros c c' f f' t WC WF. unfold on_of. rewrite (names_alike _ _ _ _ WC WF). reflexivity. Qed.
Lemma sized_alike : forall c c' f f', acomp c c' -> aflow f f' -> sized cf c' f' = sized cf c f.
Proof.
  intros c c' f f' WC WF. destruct (af_same _ _ _ _ _ WF) as [I [_ [S _]]]. unfold sized. pose proof (ac_kind _ _ _ _ _ WC) as K. pose proof (ac_in _ _ _ _ _ WC) as FI.
  destruct (cp_kind c), (cp_kind c'); try contradiction; try exact S. inversion FI as [|i i' r r' W1 F1 E1 E2]; [exact S|]. inversion F1 as [|j j' q q' W2 F2 E3 E4]; [exact S|].
  destruct (af_same _ _ _ _ _ W1) as [_ [_ [S1 _]]]. destruct (af_same _ _ _ _ _ W2) as [I2 [_ [S2 _]]]. rewrite I, S, I2, S1, S2. reflexivity.
Qed.
Lemma size_alike : forall c c' f f', acomp c c' -> aflow f f' -> size_of cf x c' f' = size_of cf x c f.
Proof. intros c c' f f' WC WF. unfold size_of. rewrite (sized_alike _ _ _ _ WC WF), (names_alike _ _ _ _ WC WF). reflexivity. Qed.
Lemma rel_alike : forall f f' t, aflow f f' -> (t < n)%nat -> rel_min idx' f' t == rel_min idx f t /\ rel_max idx' f' t == rel_max idx f t.
Proof.
  intros f f' t WF Ht. pose proof (af_profile _ _ _ _ _ WF) as P. destruct (af_limits _ _ _ _ _ WF) as [L U]. unfold rel_min, rel_max.
  destruct (f_profile f), (f_profile f'); try contradiction; split; auto.
Qed.

Lemma flow_alike : forall c c' f f', acomp c c' -> aflow f f' -> flow_rule cf fs idx x c f -> flow_rule cf fs' idx' x c' f'.
Proof.
  intros c c' f f' WC WF [AL MK]. pose proof (governed_alike _ _ _ _ WC WF) as GW. pose proof (governed_none_ _ _ _ _ WC WF) as GN.
  pose proof (fun t => rate_alike _ _ _ _ t WC WF) as RT. pose proof (fun t => on_alike _ _ _ _ t WC WF) as ON. pose proof (names_alike _ _ _ _ WC WF) as NM.
  pose proof (sized_alike _ _ _ _ WC WF) as SZ. pose proof (size_alike _ _ _ _ WC WF) as SO. destruct (af_same _ _ _ _ _ WF) as [_ [_ [_ PV]]].
  assert (RN : forall t, runs x c' f' t = runs x c f t) by (intros t; unfold runs; rewrite ON; reflexivity).
  assert (PS : prior_states cf f' = prior_states cf f) by (unfold prior_states; rewrite PV; reflexivity).
  destruct AL as [A1 A2 A3 A4 A5 A6 [A7 [A8 [A9 A10]]]].
  assert (LIM : forall t r, (t < n)%nat -> within_limits cf idx c f t r -> within_limits cf idx' c' f' t r).
  { intros t r Ht. unfold within_limits. rewrite SZ. destruct (rel_alike f f' t WF Ht) as [-> ->]. auto. }
  split; [constructor|].
  - rewrite s_steps. intros G t Ht. rewrite RT. apply LIM; [exact Ht|]. apply A1; [apply GN; exact G|exact Ht].
  - rewrite s_steps. intros G t Ht R. rewrite RT. rewrite RN in R. apply A2; auto. intros G'. apply G. apply GN. exact G'.
  - rewrite s_steps. intros G t Ht R. rewrite RT. rewrite RN in R. destruct (A3 ltac:(intros G'; apply G; apply GN; exact G') t Ht R) as [E L]. split; [exact E|apply LIM; assumption].
  - intros o' G. rewrite G in GW. destruct (governed fs idx c f) as [o|] eqn:G0; [|contradiction]. cbn in GW. rewrite PS. pose proof (rules_alike _ _ _ _ GW (A4 o eq_refl)) as RW.
    eapply onoff_rules_ext; [rewrite s_steps; exact N1| |exact RW]. intros t _. cbv beta. rewrite RN. reflexivity.
  - intros iv E'. rewrite NM. rewrite SZ in E'. auto.
  - rewrite s_steps. intros iv E' t Ht. rewrite SZ in E'. rewrite RT, RN, SO. specialize (A6 iv E' t Ht). pose proof (af_profile _ _ _ _ _ WF) as P. destruct (af_limits _ _ _ _ _ WF) as [L U].
    destruct (f_profile f), (f_profile f'); try contradiction; [rewrite (P t Ht); exact A6|]. rewrite (L t Ht), (U t Ht). rewrite GN. exact A6.
  - cbv zeta. rewrite s_steps, SO. assert (TT : sumn n (fun t => hours fs' idx' t * rate_of x c' f' t) == sumn n (fun t => hours fs idx t * rate_of x c f t)) by (apply s_weighted; intros; rewrite RT; reflexivity).
    destruct (af_numbers _ _ _ _ _ WF) as [-> [-> [-> ->]]]. split; [|split; [|split]]; intros q Hq; rewrite TT, ?s_horizon; auto.
  - intros G. assert (G0 : governed fs idx c f <> None) by (intros G'; apply G; apply GN; exact G'). rewrite s_steps, NM. replace (was_on cf f') with (was_on cf f) by (unfold was_on; rewrite PS; reflexivity). exact (MK G0).
Qed.

(** Components. *)
Hypothesis IDS' : forall c, In c (fs_comps fs') -> NoDup (map f_id (cp_flows c)).

Lemma flows_alike : forall c c', acomp c c' -> Forall2 aflow (cp_flows c) (cp_flows c').
Proof. intros c c' WC. apply Forall2_app; [exact (ac_in _ _ _ _ _ WC)|exact (ac_out _ _ _ _ _ WC)]. Qed.
Lemma states_alike : forall c c', acomp c c' -> comp_states cf c' = comp_states cf c.
Proof.
  intros c c' WC. unfold comp_states. pose proof (flows_alike _ _ WC) as FW.
  assert (PV : forall f f', aflow f f' -> f_prev f' = f_prev f) by (intros f f' WF; apply (af_same _ _ _ _ _ WF)).
  assert (PS : forall f f', aflow f f' -> prior_states cf f' = prior_states cf f) by (intros f f' WF; unfold prior_states; rewrite (PV _ _ WF); reflexivity).
  assert (FF : Forall2 aflow (filter gives_prev (cp_flows c)) (filter gives_prev (cp_flows c'))).
  { apply (F2_filter _ gives_prev gives_prev); [exact FW|]. intros f f' WF. unfold gives_prev. rewrite (PV _ _ WF). reflexivity. }
  assert (EX : forall l l' j, Forall2 aflow l l' -> existsb (fun g => nth j (prior_states cf g) false) l' = existsb (fun g => nth j (prior_states cf g) false) l).
  { intros l l' j F. induction F as [|f f' l l' H F IH]; [reflexivity|]. cbn [existsb]. rewrite (PS _ _ H), IH. reflexivity. }
  inversion FF as [E1 E2|f f' l l' H F E1 E2]; [reflexivity|]. rewrite (PS _ _ H). apply map_ext. intros j. apply EX. rewrite E1, E2. exact FF.
Qed.
Lemma running_alike : forall c c' p', acomp c c' -> (forall p, cp_onoff c = Some p -> running_rule cf fs idx x c p) ->
  cp_onoff c' = Some p' -> running_rule cf fs' idx' x c' p'.
Proof.
  intros c c' p' WC RR E'. pose proof (ac_onoff _ _ _ _ _ WC) as O. rewrite E' in O. destruct (cp_onoff c) as [p|]; [|contradiction]. cbn in O.
  destruct (RR p eq_refl) as [M [Z R]]. destruct (ac_same _ _ _ _ _ WC) as [L _]. unfold running_rule. rewrite s_steps, L, (states_alike _ _ WC). split; [exact M|split].
  - intros t Ht. rewrite (Z t Ht). pose proof (flows_alike _ _ WC) as FW. split; intros H.
    + intros f' Hf'. destruct (F2_r _ _ _ _ FW Hf') as [f [Hf WF]]. rewrite (rate_alike _ _ _ _ t WC WF). apply H. exact Hf.
    + intros f Hf. destruct (F2_l _ _ _ _ FW Hf) as [f' [Hf' WF]]. rewrite <- (rate_alike _ _ _ _ t WC WF). apply H. exact Hf'.
  - exact (rules_alike _ _ _ _ O R).
Qed.
Lemma exclusion_alike : forall c c', In c' (fs_comps fs') -> acomp c c' -> exclusion_rule fs idx x c -> exclusion_rule fs' idx' x c'.
Proof.
  intros c c' Hc' WC EX f' g' t Hf' Hg' NE Pf Pg Ht. rewrite s_steps in Ht. pose proof (flows_alike _ _ WC) as FW. destruct (ac_same _ _ _ _ _ WC) as [_ P]. rewrite P in Pf, Pg.
  destruct (F2_r _ _ _ _ FW Hf') as [f [Hf WF]]. destruct (F2_r _ _ _ _ FW Hg') as [g [Hg WG]].
  destruct (af_same _ _ _ _ _ WF) as [I1 _]. destruct (af_same _ _ _ _ _ WG) as [I2 _].
  rewrite (rate_alike _ _ _ _ t WC WF), (rate_alike _ _ _ _ t WC WG). rewrite I1 in Pf. rewrite I2 in Pg.
  apply EX; auto. intros E. apply NE. subst g. apply (NoDup_map_eq_ f_id (cp_flows c')); auto. congruence.
Qed.
Lemma factor_alike : forall fac fac' f f', Forall2 (agree_entry idx idx' n) fac fac' -> f_id f' = f_id f -> alike_option agr (factor_of fac f) (factor_of fac' f').
Proof.
  intros fac fac' f f' F E. unfold factor_of. rewrite E. induction F as [|[k p] [k' p'] l l' [H1 H2] F IH]; [exact I|]. cbn [find fst snd] in *. subst k'. destruct (Nat.eqb k (f_id f)); [exact H2|exact IH].
Qed.
Lemma weighted_alike : forall c c' fac fac' l l' t, acomp c c' -> Forall2 (agree_entry idx idx' n) fac fac' -> Forall2 aflow l l' -> (t < n)%nat -> weighted idx' x c' fac' l' t == weighted idx x c fac l t.
Proof.
  intros c c' fac fac' l l' t WC FA F Ht. unfold weighted. apply (F2_sum _ _ _ _ _ F). intros f f' WF. pose proof (factor_alike _ _ f f' FA (proj1 (af_same _ _ _ _ _ WF))) as A.
  destruct (factor_of fac f), (factor_of fac' f'); try contradiction; [|reflexivity]. rewrite (rate_alike _ _ _ _ t WC WF), (A t Ht). reflexivity.
Qed.
Lemma piece_alike : forall segs segs' f f', Forall2 (alike_segments idx idx' n) segs segs' -> f_id f' = f_id f -> Forall2 (alike_points idx idx' n) (segments_of segs f) (segments_of segs' f').
Proof.
  intros segs segs' f f' F E. unfold segments_of. rewrite E. induction F as [|[k p] [k' p'] l l' [H1 H2] F IH]; [constructor|]. cbn [find fst snd] in *. subst k'. destruct (Nat.eqb k (f_id f)); [exact H2|exact IH].
Qed.
Lemma F2_nth : forall {A B} (R : A -> B -> Prop) l l' k a, Forall2 R l l' -> nth_error l k = Some a -> exists b, nth_error l' k = Some b /\ R a b.
Proof. intros A B R l l' k a F. revert k. induction F; intros [|k] E; try discriminate E; [inversion E; subst; exists y; split; [reflexivity|assumption]|]. exact (IHF k E). Qed.
Lemma segmented_alike : forall c c' segs segs', acomp c c' -> Forall2 (alike_segments idx idx' n) segs segs' -> segmented_rule fs idx x c segs -> segmented_rule fs' idx' x c' segs'.
Proof.
  intros c c' segs segs' WC FS H t Ht. rewrite s_steps in Ht. pose proof (flows_alike _ _ WC) as FW. destruct (ac_same _ _ _ _ _ WC) as [L _]. rewrite L.
  assert (O : cp_onoff c' <> None <-> cp_onoff c <> None) by (pose proof (ac_onoff _ _ _ _ _ WC) as O; destruct (cp_onoff c), (cp_onoff c'); try contradiction; split; congruence).
  destruct (H t Ht) as [[k [w [W0 [W1 [P Q0]]]]]|[Q0 [Z R]]].
  - left. exists k, w. split; [exact W0|]. split; [exact W1|]. split; [|intros X; apply Q0, O, X]. intros f' Hf'. destruct (F2_r _ _ _ _ FW Hf') as [f [Hf WF]]. destruct (P f Hf) as [ab [N0 OP]].
    destruct (F2_nth _ _ _ _ _ (piece_alike _ _ f f' FS (proj1 (af_same _ _ _ _ _ WF))) N0) as [ab' [N0' [P1 P2]]].
    exists ab'. split; [exact N0'|]. unfold on_piece in *. rewrite (rate_alike _ _ _ _ t WC WF), (P1 t Ht), (P2 t Ht). exact OP.
  - right. split; [apply O, Q0|]. split; [exact Z|]. intros f' Hf'. destruct (F2_r _ _ _ _ FW Hf') as [f [Hf WF]]. rewrite (rate_alike _ _ _ _ t WC WF). apply R. exact Hf.
Qed.
Lemma storage_alike : forall c c' s s' ch dis ch' dis', acomp c c' -> alike_storage idx idx' n s s' -> aflow ch ch' -> aflow dis dis' -> storage_rule cf fs idx x c s ch dis -> storage_rule cf fs' idx' x c' s' ch' dis'.
Proof.
  intros c c' s s' ch dis ch' dis' WC [[E1 [E2 [E3 E4]]] [L1 L2] [R1 [R2 R3]]] WF WG [B [LM [AL [I0 [IL [FX FM]]]]]]. destruct (ac_same _ _ _ _ _ WC) as [L _].
  assert (CH : forall t, charge x c' t = charge x c t) by (intros t; unfold charge; rewrite L; reflexivity). unfold storage_rule. rewrite s_steps, E1, E2, E3, E4.
  assert (CA : capacity x c' s' = capacity x c s) by (unfold capacity; rewrite E1, L; reflexivity).
  split; [|split; [|split; [|split; [|split; [|split]]]]].
  - intros t Ht. destruct (B t Ht) as [B1 B2]. rewrite !CH, (rate_alike _ _ _ _ t WC WF), (rate_alike _ _ _ _ t WC WG). rewrite (R1 t Ht), (R2 t Ht), (R3 t Ht), (s_hours t Ht). split; [exact B1|exact B2].
  - intros t Ht. rewrite CH, CA, (L1 t Ht), (L2 t Ht). apply LM. exact Ht.
  - rewrite L. exact AL.
  - intros q. rewrite CH. apply I0.
  - rewrite !CH. exact IL.
  - rewrite CH. exact FX.
  - rewrite CH. exact FM.
Qed.
Lemma lost_alike : forall p p' t, alike_option agr p p' -> (t < n)%nat -> lost idx' p' t == lost idx p t.
Proof. intros [p|] [p'|] t H Ht; try contradiction; [exact (H t Ht)|reflexivity]. Qed.
Lemma carries_alike : forall c c' rel abs rel' abs' i o i' o', acomp c c' -> alike_option agr rel rel' -> alike_option agr abs abs' -> aflow i i' -> aflow o o' ->
  carries fs idx x c rel abs i o -> carries fs' idx' x c' rel' abs' i' o'.
Proof.
  intros c c' rel abs rel' abs' i o i' o' WC A B WI WO H t Ht. rewrite s_steps in Ht. rewrite (rate_alike _ _ _ _ t WC WI), (rate_alike _ _ _ _ t WC WO), (lost_alike _ _ _ A Ht), (lost_alike _ _ _ B Ht). specialize (H t Ht).
  destruct abs, abs'; try contradiction; rewrite ?(on_alike _ _ _ _ t WC WI); exact H.
Qed.
Lemma F2_opt_ : forall (R : flow -> flow -> Prop) l o', Forall2 R l (opt_flow o') -> exists o, l = opt_flow o /\ alike_option R o o'.
Proof. intros R l [f'|] F; cbn in F; inversion F as [|f ? r ? H F2]; subst; [inversion F2; exists (Some f)|exists None]; split; auto. exact I. Qed.
Lemma transmission_alike : forall c c' rel abs rel' abs' in1' out1' in2' out2', acomp c c' -> alike_option agr rel rel' -> alike_option agr abs abs' ->
  (forall in1 out1 in2 out2, cp_in c = in1 :: opt_flow in2 -> cp_out c = out1 :: opt_flow out2 -> transmission_rule cf fs idx x c rel abs in1 out1 in2 out2) ->
  cp_in c' = in1' :: opt_flow in2' -> cp_out c' = out1' :: opt_flow out2' -> transmission_rule cf fs' idx' x c' rel' abs' in1' out1' in2' out2'.
Proof.
  intros c c' rel abs rel' abs' in1' out1' in2' out2' WC AR AB H I' O'. pose proof (ac_in _ _ _ _ _ WC) as FI. pose proof (ac_out _ _ _ _ _ WC) as FO. rewrite I' in FI. rewrite O' in FO.
  destruct (F2_cons_r _ _ _ _ FI) as [in1 [ti [EI [W1 FI2]]]]. destruct (F2_cons_r _ _ _ _ FO) as [out1 [to [EO [W2 FO2]]]].
  destruct (F2_opt_ _ _ _ FI2) as [in2 [-> R2]]. destruct (F2_opt_ _ _ _ FO2) as [out2 [-> R4]].
  destruct in2 as [i2|], in2' as [i2'|]; try contradiction; destruct out2 as [o2|], out2' as [o2'|]; try contradiction; cbn in R2, R4; rename R2 into W3; rename R4 into W4.
  - destruct (H in1 out1 (Some i2) (Some o2) EI EO) as [C1 [C2 S]]. split; [exact (carries_alike _ _ _ _ _ _ _ _ _ _ WC AR AB W1 W2 C1)|]. split; [exact (carries_alike _ _ _ _ _ _ _ _ _ _ WC AR AB W3 W4 C2)|].
    intros iv E'. rewrite (size_alike _ _ _ _ WC W1), (size_alike _ _ _ _ WC W3). apply (S iv). destruct (af_same _ _ _ _ _ W1) as [_ [_ [SZ _]]]. congruence.
  - destruct (H in1 out1 (Some i2) None EI EO) as [C1 _]. split; [exact (carries_alike _ _ _ _ _ _ _ _ _ _ WC AR AB W1 W2 C1)|exact I].
  - destruct (H in1 out1 None (Some o2) EI EO) as [C1 _]. split; [exact (carries_alike _ _ _ _ _ _ _ _ _ _ WC AR AB W1 W2 C1)|exact I].
  - destruct (H in1 out1 None None EI EO) as [C1 _]. split; [exact (carries_alike _ _ _ _ _ _ _ _ _ _ WC AR AB W1 W2 C1)|exact I].
Qed.
Lemma own_alike : forall c c', acomp c c' -> own_rule cf fs idx x c -> own_rule cf fs' idx' x c'.
Proof.
  intros c c' WC H. pose proof (ac_kind _ _ _ _ _ WC) as K. unfold own_rule in *. destruct (cp_kind c) as [|eqs|segs|s|rel abs], (cp_kind c') as [|eqs'|segs'|s'|rel' abs']; try contradiction; cbn in K.
  - exact I.
  - intros fac' t Hf Ht. rewrite s_steps in Ht. destruct (F2_r _ _ _ _ K Hf) as [fac [Hfac FA]].
    rewrite (weighted_alike _ _ _ _ _ _ _ WC FA (ac_in _ _ _ _ _ WC) Ht), (weighted_alike _ _ _ _ _ _ _ WC FA (ac_out _ _ _ _ _ WC) Ht). apply H; assumption.
  - exact (segmented_alike _ _ _ _ WC K H).
  - intros ch' dis' I' O'. pose proof (ac_in _ _ _ _ _ WC) as FI. pose proof (ac_out _ _ _ _ _ WC) as FO. rewrite I' in FI. rewrite O' in FO.
    destruct (F2_cons_r _ _ _ _ FI) as [ch [ti [EI [W1 FI2]]]]. inversion FI2. subst ti. destruct (F2_cons_r _ _ _ _ FO) as [dis [to [EO [W2 FO2]]]]. inversion FO2. subst to.
    exact (storage_alike _ _ _ _ _ _ _ _ WC K W1 W2 (H ch dis EI EO)).
  - destruct K as [K1 K2]. intros in1 out1 in2 out2 I' O'. exact (transmission_alike _ _ _ _ _ _ _ _ _ _ WC K1 K2 H I' O').
Qed.

(** Investments, buses, effects. *)
Lemma comps_l_ : forall c, In c (fs_comps fs) -> exists c', In c' (fs_comps fs') /\ acomp c c'.
Proof. intros c Hc. exact (F2_l _ _ _ _ (sd_comps _ _ _ _ W) Hc). Qed.
Lemma comps_r_ : forall c', In c' (fs_comps fs') -> exists c, In c (fs_comps fs) /\ acomp c c'.
Proof. intros c Hc. exact (F2_r _ _ _ _ (sd_comps _ _ _ _ W) Hc). Qed.
Lemma investments_alike : investments cf fs' = investments cf fs.
Proof.
  unfold investments. clear IDS'. pose proof (sd_comps _ _ _ _ W) as FC. induction FC as [|c c' l l' WC FC IH]; [reflexivity|]. cbn [flat_map]. rewrite IH. f_equal. f_equal.
  - pose proof (flows_alike _ _ WC) as FW. induction FW as [|f f' r r' WF FW IHF]; [reflexivity|]. cbn [flat_map]. rewrite IHF. f_equal. unfold flow_investment. rewrite (sized_alike _ _ _ _ WC WF), (names_alike _ _ _ _ WC WF). reflexivity.
  - unfold storage_investment. destruct (ac_same _ _ _ _ _ WC) as [L _]. pose proof (ac_kind _ _ _ _ _ WC) as K. destruct (cp_kind c), (cp_kind c'); try contradiction; try reflexivity. cbn in K. destruct K as [[-> _] _ _]. rewrite L. reflexivity.
Qed.
Lemma effect_r_ : forall e', In e' (fs_effects fs') -> exists e, In e (fs_effects fs) /\ aeff e e'.
Proof. intros e He. exact (F2_r _ _ _ _ (sd_effects _ _ _ _ W) He). Qed.
Lemma segments_alike : forall name iv, segments_rule fs x name iv -> segments_rule fs' x name iv.
Proof.
  intros name iv H spts eff E. cbv zeta.
  assert (EF : forall e', In e' (fs_effects fs') -> exists e, In e (fs_effects fs) /\ e_id e = e_id e' /\ seg_cost x name e' = seg_cost x name e).
  { intros e' He'. destruct (effect_r_ e' He') as [e [He WE]]. destruct (ae_same _ _ _ _ _ WE) as [I1 [L1 _]]. exists e. split; [exact He|]. split; [congruence|]. unfold seg_cost. rewrite L1. reflexivity. }
  destruct (H spts eff E) as [[k [w [W0 [W1 [P [Q0 Q1]]]]]]|[Q0 [Q1 [Q2 Q3]]]].
  - left. exists k, w. split; [exact W0|]. split; [exact W1|]. split; [exact P|]. split; [|exact Q1]. intros i l e' Hi He' Ei. destruct (EF e' He') as [e [He [Id ->]]]. apply (Q0 i l e Hi He). congruence.
  - right. split; [exact Q0|]. split; [exact Q1|]. split; [exact Q2|]. intros i l e' Hi He' Ei. destruct (EF e' He') as [e [He [Id ->]]]. apply (Q3 i l e Hi He). congruence.
Qed.
Notation abus := (alike_bus idx idx' n).
Lemma bus_r : forall b', used_bus fs' b' -> exists b, used_bus fs b /\ abus b b'.
Proof.
  intros b' [c' [f' [Hc' [Hf' <-]]]]. destruct (comps_r_ c' Hc') as [c [Hc WC]]. destruct (F2_r _ _ _ _ (flows_alike _ _ WC) Hf') as [f [Hf WF]]. exists (f_bus f). split; [exists c, f; auto|exact (af_bus _ _ _ _ _ WF)].
Qed.
Lemma bus_l : forall b, used_bus fs b -> exists b', used_bus fs' b' /\ abus b b'.
Proof.
  intros b' [c' [f' [Hc' [Hf' <-]]]]. destruct (comps_l_ c' Hc') as [c [Hc WC]]. destruct (F2_l _ _ _ _ (flows_alike _ _ WC) Hf') as [f [Hf WF]]. exists (f_bus f). split; [exists c, f; auto|exact (af_bus _ _ _ _ _ WF)].
Qed.
Lemma excess_alike : forall b b' w t, abus b b' -> excess x b' w t = excess x b w t.
Proof. intros b b' w t [[_ L] P]. unfold excess. rewrite L. destruct (b_penalty b), (b_penalty b'); try contradiction; reflexivity. Qed.
Lemma at_bus_ : forall (side : component -> list flow) b b' t, (forall c c', acomp c c' -> Forall2 aflow (side c) (side c')) -> abus b b' ->
  Qsum (map (fun c => Qsum (map (fun f => rate_of x c f t) (filter (connected b') (side c)))) (fs_comps fs'))
  == Qsum (map (fun c => Qsum (map (fun f => rate_of x c f t) (filter (connected b) (side c)))) (fs_comps fs)).
Proof.
  intros side b b' t H [[I1 _] _]. apply (F2_sum _ _ _ _ _ (sd_comps _ _ _ _ W)). intros c c' WC. apply (F2_sum aflow).
  - apply (F2_filter _ (connected b) (connected b')); [exact (H _ _ WC)|]. intros f f' WF. unfold connected. destruct (af_bus _ _ _ _ _ WF) as [[-> _] _]. rewrite I1. reflexivity.
  - intros f f' WF. rewrite (rate_alike _ _ _ _ t WC WF). reflexivity.
Qed.
Lemma bus_alike : forall b b', abus b b' -> bus_rule fs idx x b -> bus_rule fs' idx' x b'.
Proof.
  intros b b' AB H t Ht. rewrite s_steps in Ht. destruct (H t Ht) as [E P]. rewrite !(excess_alike _ _ _ _ AB). split; [|exact P]. unfold delivered, taken in *.
  rewrite (at_bus_ cp_out b b' t (ac_out idx idx' n) AB), (at_bus_ cp_in b b' t (ac_in idx idx' n) AB). exact E.
Qed.
Lemma names_effect_ : forall k e e', aeff e e' -> names (fs_effects fs') k e' = names (fs_effects fs) k e.
Proof.
  intros k e e' WE. destruct (ae_same _ _ _ _ _ WE) as [I1 _]. unfold names. destruct k as [i|]; [rewrite I1; reflexivity|]. rewrite I1. pose proof (sd_effects _ _ _ _ W) as F.
  induction F as [|a b l l' H F IH]; [reflexivity|]. cbn [find]. destruct (ae_same _ _ _ _ _ H) as [I2 [_ [-> _]]]. destruct (e_std a); [rewrite I2; reflexivity|exact IH].
Qed.
Lemma cost_alike : forall v v' e e' t, alike_values idx idx' n v v' -> aeff e e' -> (t < n)%nat -> cost (fs_effects fs') idx' v' e' t == cost (fs_effects fs) idx v e t.
Proof. intros v v' e e' t F WE Ht. unfold cost. apply (F2_sum _ _ _ _ _ F). intros a b [K V]. rewrite K, (names_effect_ _ _ _ WE). destruct (names _ _ _); [exact (V t Ht)|reflexivity]. Qed.
Lemma cost_same : forall v e e' t, aeff e e' -> cost (fs_effects fs') None v e' t = cost (fs_effects fs) None v e t.
Proof. intros v e e' t WE. unfold cost. f_equal. apply map_ext. intros kp. rewrite (names_effect_ _ _ _ WE). reflexivity. Qed.
Lemma onoff_costs_alike : forall name p p' e e' t, aon p p' -> aeff e e' -> (t < n)%nat -> onoff_costs fs' idx' x name p' e' t == onoff_costs fs idx x name p e t.
Proof. intros name p p' e e' t [[E1 E2] _ _ _] WE Ht. unfold onoff_costs. rewrite (cost_alike _ _ _ _ _ E1 WE Ht), (cost_alike _ _ _ _ _ E2 WE Ht), (s_hours t Ht). reflexivity. Qed.
Lemma comp_costs_alike : forall c c' e e' t, acomp c c' -> aeff e e' -> (t < n)%nat -> comp_costs fs' idx' x c' e' t == comp_costs fs idx x c e t.
Proof.
  intros c c' e e' t WC WE Ht. unfold comp_costs. destruct (ac_same _ _ _ _ _ WC) as [L _].
  assert (FL : Qsum (map (fun f => flow_costs fs' idx' x c' f e' t) (cp_flows c')) == Qsum (map (fun f => flow_costs fs idx x c f e t) (cp_flows c))).
  { apply (F2_sum _ _ _ _ _ (flows_alike _ _ WC)). intros f f' WF. unfold flow_costs. rewrite (cost_alike _ _ _ _ _ (af_effects _ _ _ _ _ WF) WE Ht), (rate_alike _ _ _ _ t WC WF), (s_hours t Ht).
    pose proof (governed_alike _ _ _ _ WC WF) as G. destruct (governed fs idx c f) as [p|], (governed fs' idx' c' f') as [p'|]; try contradiction; [|reflexivity].
    rewrite (names_alike _ _ _ _ WC WF), (onoff_costs_alike _ _ _ _ _ _ G WE Ht). reflexivity. }
  rewrite FL. pose proof (ac_onoff _ _ _ _ _ WC) as O. destruct (cp_onoff c) as [p|], (cp_onoff c') as [p'|]; try contradiction; [|reflexivity]. rewrite L, (onoff_costs_alike _ _ _ _ _ _ O WE Ht). reflexivity.
Qed.
Lemma invest_costs_alike : forall name iv e e', aeff e e' -> invest_costs fs' x name iv e' == invest_costs fs x name iv e.
Proof. intros name iv e e' WE. destruct (ae_same _ _ _ _ _ WE) as [I1 [L1 _]]. unfold invest_costs, seg_costs, seg_cost. rewrite !(cost_same _ _ _ _ WE), I1, L1. reflexivity. Qed.
Lemma bound_alike : forall p p' t, alike_option agr p p' -> (t < n)%nat ->
  forall q, (at_least (option_map (fun p => value idx p t * hours fs idx t) p) q -> at_least (option_map (fun p => value idx' p t * hours fs' idx' t) p') q)
         /\ (at_most (option_map (fun p => value idx p t * hours fs idx t) p) q -> at_most (option_map (fun p => value idx' p t * hours fs' idx' t) p') q).
Proof.
  intros [p|] [p'|] t A Ht q; try contradiction; [|split; intros _ l E; discriminate E].
  split; intros H l E; cbn in E; inversion E; subst l; rewrite (A t Ht), (s_hours t Ht); apply H; reflexivity.
Qed.
Lemma effect_alike : forall e e', aeff e e' -> effect_rule cf fs idx x e -> effect_rule cf fs' idx' x e'.
Proof.
  intros e e' WE [A1 [A2 [A3 [A4 [A5 [A6 [A7 [A8 [A9 [A10 A11]]]]]]]]]]. destruct (ae_same _ _ _ _ _ WE) as [I1 [L1 _]].
  assert (OA : forall a a' t, aeff a a' -> op_at x a' t = op_at x a t) by (intros a a' t H; unfold op_at; destruct (ae_same _ _ _ _ _ H) as [_ [-> _]]; reflexivity).
  assert (IA : forall a a', aeff a a' -> inv_sum x a' = inv_sum x a) by (intros a a' H; unfold inv_sum; destruct (ae_same _ _ _ _ _ H) as [_ [-> _]]; reflexivity).
  assert (OS : op_sum x e' = op_sum x e) by (unfold op_sum; rewrite L1; reflexivity). assert (AS : all_sum x e' = all_sum x e) by (unfold all_sum; rewrite L1; reflexivity).
  pose proof (fun t => OA e e' t WE) as OT. pose proof (IA e e' WE) as IT. unfold effect_rule. rewrite s_steps, OS, IT, AS.
  destruct (ae_min _ _ _ _ _ WE) as [-> [-> [-> N5]]]. destruct (ae_max _ _ _ _ _ WE) as [-> [-> [-> M5]]].
  split; [|split; [|split; [|split; [exact A4|split; [exact A5|split; [exact A6|split; [exact A7|split; [exact A8|split; [exact A9|split; [exact A10|]]]]]]]]]].
  - intros t Ht. rewrite OT, (A1 t Ht).
    assert (C1 : Qsum (map (fun c => comp_costs fs' idx' x c e' t) (fs_comps fs')) == Qsum (map (fun c => comp_costs fs idx x c e t) (fs_comps fs))) by (apply (F2_sum _ _ _ _ _ (sd_comps _ _ _ _ W)); intros c c' WC; apply comp_costs_alike; assumption).
    assert (C2 : op_from_effects fs' idx' x e' t == op_from_effects fs idx x e t).
    { unfold op_from_effects. apply (F2_sum _ _ _ _ _ (sd_effects _ _ _ _ W)). intros a a' H. rewrite I1. apply (F2_sum _ _ _ _ _ (ae_shares _ _ _ _ _ H)). intros k k' [K V]. rewrite K. destruct (Nat.eqb _ _); [|reflexivity]. rewrite (OA _ _ t H), (V t Ht). reflexivity. }
    rewrite C1, C2. reflexivity.
  - rewrite A2. apply sumn_ext. intros t _. rewrite OT. reflexivity.
  - rewrite A3, investments_alike.
    assert (C1 : Qsum (map (fun ni => invest_costs fs' x (fst ni) (snd ni) e') (investments cf fs)) == Qsum (map (fun ni => invest_costs fs x (fst ni) (snd ni) e) (investments cf fs))) by (apply Qsum_map_eq; intros a _; apply invest_costs_alike; assumption).
    assert (C2 : inv_from_effects fs' x e' == inv_from_effects fs x e).
    { unfold inv_from_effects. apply (F2_sum _ _ _ _ _ (sd_effects _ _ _ _ W)). intros a a' H. rewrite (IA _ _ H), I1. destruct (ae_same _ _ _ _ _ H) as [_ [_ [_ [_ ->]]]]. reflexivity. }
    rewrite C1, C2. reflexivity.
  - intros t Ht. destruct (A11 t Ht) as [B1 B2]. rewrite OT. split; [apply (bound_alike _ _ _ N5 Ht); exact B1|apply (bound_alike _ _ _ M5 Ht); exact B2].
Qed.

(** Penalties: the buses of one system stand for those of the other. *)
Hypothesis OBJ : same_object fs.
Hypothesis OBJ' : same_object fs'.
Lemma price_alike : forall b b', abus b b' -> bus_price fs' idx' x b' == bus_price fs idx x b.
Proof.
  intros b b' AB. unfold bus_price. pose proof (ab_penalty _ _ _ _ _ AB) as P. destruct (b_penalty b) as [p|] eqn:E, (b_penalty b') as [p'|] eqn:E'; try contradiction; [|reflexivity].
  rewrite s_steps. apply sumn_ext. intros t Ht. rewrite (P t Ht), (s_hours t Ht), !(excess_alike _ _ _ _ AB). reflexivity.
Qed.
Lemma partners : forall l', NoDup l' -> (forall b, In b l' -> used_bus fs' b) -> exists l, Forall2 abus l l' /\ NoDup l /\ forall b, In b l -> used_bus fs b.
Proof.
  induction l' as [|b' l' IH]; intros ND U; [exists []; repeat constructor; intros b []|]. inversion ND as [|? ? N2 N3]; subst. destruct (IH N3 (fun b Hb => U b (or_intror Hb))) as [l [F [NL UL]]].
  destruct (bus_r b' (U b' (or_introl eq_refl))) as [b [Ub AB]]. exists (b :: l). split; [constructor; assumption|]. split.
  - constructor; [|exact NL]. intros Hb. destruct (F2_l _ _ _ _ F Hb) as [b2 [H2 AB2]]. apply N2. replace b' with b2; [exact H2|]. apply OBJ'; [apply U; right; exact H2|apply U; left; reflexivity|].
    destruct AB as [[-> _] _]. destruct AB2 as [[-> _] _]. reflexivity.
  - intros q [<-|Hq]; auto.
Qed.
Lemma penalty_alike : obeys cf fs idx x -> forall bl', NoDup bl' -> (forall b, In b bl' <-> used_bus fs' b) -> penalty_sum x == Qsum (map (bus_price fs' idx' x) bl').
Proof.
  intros O bl' ND U. destruct (partners bl' ND (fun b => proj1 (U b))) as [bl [F [NL UL]]].
  rewrite (ob_penalty _ _ _ _ O bl NL).
  - symmetry. apply (F2_sum _ _ _ _ _ F). exact price_alike.
  - intros b. split; [apply UL|]. intros Ub. destruct (bus_l b Ub) as [b' [Ub' AB]]. apply U in Ub'. destruct (F2_r _ _ _ _ F Ub') as [b0 [H0 AB0]].
    replace b with b0; [exact H0|]. apply OBJ; auto. destruct AB as [[I1 _] _]. destruct AB0 as [[I2 _] _]. congruence.
Qed.
Lemma obeys_alike : obeys cf fs idx x -> obeys cf fs' idx' x.
Proof.
  intros O. constructor.
  - intros c' f' Hc' Hf'. destruct (comps_r_ c' Hc') as [c [Hc WC]]. destruct (F2_r _ _ _ _ (flows_alike _ _ WC) Hf') as [f [Hf WF]]. exact (flow_alike c c' f f' WC WF (ob_flow _ _ _ _ O c f Hc Hf)).
  - intros c' p' Hc' E'. destruct (comps_r_ c' Hc') as [c [Hc WC]]. exact (running_alike c c' p' WC (fun p => ob_running _ _ _ _ O c p Hc) E').
  - intros c' Hc'. destruct (comps_r_ c' Hc') as [c [Hc WC]]. exact (exclusion_alike c c' Hc' WC (ob_exclusion _ _ _ _ O c Hc)).
  - intros c' Hc'. destruct (comps_r_ c' Hc') as [c [Hc WC]]. exact (own_alike c c' WC (ob_own _ _ _ _ O c Hc)).
  - intros name iv H. rewrite investments_alike in H. exact (segments_alike _ _ (ob_segments _ _ _ _ O name iv H)).
  - intros b' Hb'. destruct (bus_r b' Hb') as [b [Hb AB]]. exact (bus_alike b b' AB (ob_bus _ _ _ _ O b Hb)).
  - intros e' He'. destruct (effect_r_ e' He') as [e [He WE]]. exact (effect_alike e e' WE (ob_effect _ _ _ _ O e He)).
  - exact (penalty_alike O).
Qed.
End Same.

(** The relation goes both ways. *)
Lemma F2_flip : forall {A B} (R : A -> B -> Prop) (S : B -> A -> Prop) l l', (forall a b, R a b -> S b a) -> Forall2 R l l' -> Forall2 S l' l.
Proof. intros A B R S l l' H F. induction F; constructor; auto. Qed.
Section Flip.
Variables (idx idx' : option (list nat)) (n : nat).
Lemma agree_flip : forall p p', agree idx idx' n p p' -> agree idx' idx n p' p. Proof. intros p p' H t Ht. symmetry. exact (H t Ht). Qed.
Lemma levels_flip : forall p p', agree_levels idx idx' n p p' -> agree_levels idx' idx n p' p. Proof. intros p p' H t Ht. symmetry. exact (H t Ht). Qed.
Lemma option_flip : forall {A} (R S : A -> A -> Prop) a b, (forall p q, R p q -> S q p) -> alike_option R a b -> alike_option S b a.
Proof. intros A R S [a|] [b|] H; cbn; auto. Qed.
Lemma entry_flip : forall {K} (a b : K * param), agree_entry idx idx' n a b -> agree_entry idx' idx n b a.
Proof. intros K a b [E H]. split; [symmetry; exact E|apply agree_flip; exact H]. Qed.
Lemma values_flip : forall v v', alike_values idx idx' n v v' -> alike_values idx' idx n v' v.
Proof. intros v v'. apply F2_flip. intros a b. apply entry_flip. Qed.
Lemma onoff_flip : forall o o', alike_onoff idx idx' n o o' -> alike_onoff idx' idx n o' o.
Proof.
  intros o o' [[A B] [C [D E]] [F G] [H J]].
  constructor; [split; apply values_flip; assumption|repeat split; symmetry; assumption| |]; split; eapply option_flip; try eassumption; apply agree_flip.
Qed.
Lemma bus_flip : forall b b', alike_bus idx idx' n b b' -> alike_bus idx' idx n b' b.
Proof. intros b b' [[A B] C]. constructor; [split; symmetry; assumption|eapply option_flip; [apply agree_flip|exact C]]. Qed.
Lemma flow_flip : forall f f', alike_flow idx idx' n f f' -> alike_flow idx' idx n f' f.
Proof.
  intros f f' [[A1 [A2 [A3 A4]]] [B1 [B2 [B3 B4]]] C D [E1 E2] F G].
  constructor; [repeat split; symmetry; assumption|repeat split; symmetry; assumption|apply bus_flip; exact C|eapply option_flip; [apply agree_flip|exact D]|split; apply agree_flip; assumption|apply values_flip; exact F|eapply option_flip; [apply onoff_flip|exact G]].
Qed.
Lemma kind_flip : forall k k', alike_kind idx idx' n k k' -> alike_kind idx' idx n k' k.
Proof.
  intros [|a|a|s|r a] [|a'|a'|s'|r' a'] H; try contradiction; cbn in *.
  - exact I.
  - revert H. apply F2_flip. intros l l'. apply F2_flip. intros p q. apply entry_flip.
  - revert H. apply F2_flip. intros [k l] [k' l'] [E F]. split; [symmetry; exact E|]. revert F. apply F2_flip. intros p q [P Q]. split; apply agree_flip; assumption.
  - destruct H as [[A1 [A2 [A3 A4]]] [B1 B2] [C1 [C2 C3]]]. constructor; [repeat split; symmetry; assumption|split; apply levels_flip; assumption|repeat split; apply agree_flip; assumption].
  - destruct H as [A B]. split; eapply option_flip; try eassumption; apply agree_flip.
Qed.
Lemma comp_flip : forall c c', alike_comp idx idx' n c c' -> alike_comp idx' idx n c' c.
Proof.
  intros c c' [[A B] C D E F]. constructor; [split; symmetry; assumption|revert C; apply F2_flip, flow_flip|revert D; apply F2_flip, flow_flip|eapply option_flip; [apply onoff_flip|exact E]|apply kind_flip; exact F].
Qed.
Lemma effect_flip : forall e e', alike_effect idx idx' n e e' -> alike_effect idx' idx n e' e.
Proof.
  intros e e' [[A1 [A2 [A3 [A4 A5]]]] B [C1 [C2 [C3 C4]]] [D1 [D2 [D3 D4]]]].
  constructor; [repeat split; symmetry; assumption|revert B; apply F2_flip; intros p q; apply entry_flip| |]; (split; [symmetry; assumption|]; split; [symmetry; assumption|]; split; [symmetry; assumption|]; eapply option_flip; try eassumption; apply agree_flip).
Qed.
End Flip.
Lemma same_data_flip : forall fs idx fs' idx', same_data fs idx fs' idx' -> same_data fs' idx' fs idx.
Proof.
  intros fs idx fs' idx' [A B C D E]. constructor.
  - symmetry. exact A.
  - rewrite A. intros t Ht. symmetry. exact (B t Ht).
  - symmetry. exact C.
  - rewrite A. revert D. apply F2_flip, effect_flip.
  - rewrite A. revert E. apply F2_flip, comp_flip.
Qed.

(** ** C78 *)

(** The two problems have the same solutions, up to bookkeeping: for every one there is one of the other problem with the
    same plan and the same objective. *)
Definition equivalent (cf : config) (fs : flow_system) (idx : option (list nat)) (pm : pmodel) (fs' : flow_system) (idx' : option (list nat)) (pm' : pmodel) : Prop :=
  (forall x, feasible pm x -> exists y, feasible pm' y /\ same_plan cf fs' idx' x y /\ objective_value pm' y == objective_value pm x)
  /\ (forall y, feasible pm' y -> exists x, feasible pm x /\ same_plan cf fs idx y x /\ objective_value pm x == objective_value pm' y).

Lemma one_way : forall cf ord ord' fs fs' idx idx' pm pm', (forall l, Permutation (ord l) l) -> (forall l, Permutation (ord' l) l) ->
  build cf ord fs idx = Ok pm -> build cf ord' fs' idx' = Ok pm' -> sensible cf fs idx -> sensible cf fs' idx' -> same_data fs idx fs' idx' ->
  forall x, feasible pm x -> exists y, feasible pm' y /\ same_plan cf fs' idx' x y /\ objective_value pm' y == objective_value pm x.
Proof.
  intros cf ord ord' fs fs' idx idx' pm pm' PO PO' B B' SE SE' W x F. pose proof (C57_solutions _ _ _ _ _ _ PO B SE F) as O.
  assert (N1 : (0 < steps fs idx)%nat) by (pose proof (se_steps _ _ _ SE); lia).
  pose proof (obeys_alike cf fs fs' idx idx' x W N1 (fun c Hc => comp_ids _ _ _ _ _ c B' Hc) (proj1 (se_buses _ _ _ SE)) (proj1 (se_buses _ _ _ SE')) O) as O'.
  destruct (proj1 (C57_plans _ _ _ _ _ _ PO' B' SE') O') as [y [SP F']]. exists y. split; [exact F'|]. split; [exact SP|].
  destruct (C21_objective _ _ _ _ _ x B) as [e [Fe Ox]]. destruct (C21_objective _ _ _ _ _ y B') as [e' [Fe' Oy]].
  assert (WE : alike_effect idx idx' (steps fs idx) e e').
  { pose proof (sd_effects _ _ _ _ W) as FE. revert Fe Fe'. induction FE as [|a b l l' H FE IH]; [discriminate|]. cbn [find]. destruct (ae_same _ _ _ _ _ H) as [_ [_ [_ [-> _]]]].
    destruct (e_obj a); [intros E1 E2; inversion E1; inversion E2; subst; exact H|exact IH]. }
  pose proof (same_cost _ _ _ _ _ e' SP ltac:(apply find_some in Fe'; apply Fe')) as SC. unfold plan_cost in SC. destruct (ae_same _ _ _ _ _ WE) as [_ [L _]].
  unfold op_sum, inv_sum in *. rewrite L in *. rewrite Ox, Oy, SC. reflexivity.
Qed.
Theorem C78_same_data : forall cf ord ord' fs fs' idx idx' pm pm', (forall l, Permutation (ord l) l) -> (forall l, Permutation (ord' l) l) ->
  build cf ord fs idx = Ok pm -> build cf ord' fs' idx' = Ok pm' -> sensible cf fs idx -> sensible cf fs' idx' -> same_data fs idx fs' idx' ->
  equivalent cf fs idx pm fs' idx' pm'.
Proof.
  intros cf ord ord' fs fs' idx idx' pm pm' PO PO' B B' SE SE' W. split.
  - exact (one_way _ _ _ _ _ _ _ _ _ PO PO' B B' SE SE' W).
  - exact (one_way _ _ _ _ _ _ _ _ _ PO' PO B' B SE' SE (same_data_flip _ _ _ _ W)).
Qed.
Print Assumptions C78_same_data.
(** A concrete case is shown in PropsWindow.v, [C78_applies]: all numbers written as arrays, all arrays as TimeSeriesData. *)
