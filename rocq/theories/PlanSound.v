(** Every solution of the program is a plan that obeys the rules. *)
From Coq Require Import String Ascii Permutation.
From Verif Require Import Base BaseFacts MathModel Spec MathFacts MathTotal Structure StructureFacts Params Features Elements Library System SysSpec
  AdmitSpec CtxFacts ReadTools InvestFacts OnOffFacts OnOffLaws OnOffAdmits FlowFacts NavFacts FlowAdmits ResultFacts AdmitFacts InvestAdmits SegFacts SegAdmits
  ClosedFacts GlueFacts ShareFacts ShareAdmits EffectFacts EffectLaws EffectAdmits AdmitNav BusFacts CompFacts CompAdmits PropsFlow PropsOnOff PropsAdmits PropsComp PropsEffects
  PlanSpec SegWitness PlanPieces PlanComp.

Lemma limits_durations : forall fs idx o, sound_limits fs idx o -> durations_ok fs o.
Proof.
  intros fs idx o S. split; intros p Hp.
  - assert (I : In p (limits_given o)) by (unfold limits_given; rewrite Hp; simpl; auto).
    destruct S as [_ [_ S]]; [intros Z; rewrite Z in I; destruct I|]. apply (S p I).
  - assert (I : In p (limits_given o)).
    { unfold limits_given. cbn [flat_map]. rewrite Hp. rewrite !in_app_iff. right. right. left. simpl. auto. }
    destruct S as [_ [_ S]]; [intros Z; rewrite Z in I; destruct I|]. apply (S p I).
Qed.
Lemma no_obeys : forall fs idx prior b, obeys_limits fs idx prior b None None.
Proof. intros. split; [discriminate|]. split; discriminate. Qed.

Lemma rules_of_laws : forall fs idx x e states o, (1 <= steps fs idx)%nat ->
  (forall q, oo_on_min o = Some q -> q <= sumn (steps fs idx) (fun t => hours fs idx t * x (oo e "on") t)) ->
  (forall q, oo_on_max o = Some q -> sumn (steps fs idx) (fun t => hours fs idx t * x (oo e "on") t) <= q) ->
  switching x e (List.last states false) (steps fs idx) (oo_sw_max o) -> consecutive_laws fs idx x e states o ->
  onoff_rules fs idx states o (x (oo e "on")).
Proof.
  intros fs idx x e states o N A B [_ [_ S]] [C1 C2]. split; auto. split; auto. split; auto. split.
  - destruct (oo_con_min o) as [p|] eqn:E1; [apply C1; left; discriminate|].
    destruct (oo_con_max o) as [p|] eqn:E2; [apply C1; right; discriminate|]. apply no_obeys.
  - assert (X : oo_coff_min o <> None \/ oo_coff_max o <> None ->
                obeys_limits fs idx (prior_hours (fs_prev_dt fs) false states) (fun t => 1 - x (oo e "on") t) (oo_coff_min o) (oo_coff_max o)).
    { intros U. destruct (C2 U) as [O [_ L]]. refine (limits_ext _ _ _ _ _ _ _ N _ L). intros i Hi. cbv beta. apply (O i Hi). }
    destruct (oo_coff_min o) as [p|] eqn:E1; [apply X; left; discriminate|].
    destruct (oo_coff_max o) as [p|] eqn:E2; [apply X; right; discriminate|]. apply no_obeys.
Qed.
Lemma marks_of : forall x e was n m, switching x e was n m -> (forall t, (t < n)%nat -> x (oo e "on") t == 0 \/ x (oo e "on") t == 1) -> onoff_marks x e was n.
Proof. intros x e was n m [S _] O t Ht. destruct (S t Ht) as [S1 [_ [S3 _]]]. auto. Qed.

Lemma flow_sound : forall cf ord fs idx pm x c f, build cf ord fs idx = Ok pm -> feasible pm x -> sensible cf fs idx ->
  In c (fs_comps fs) -> In f (cp_flows c) -> flow_rule cf fs idx x c f.
Proof.
  intros cf ord fs idx pm x c f B F SE Hc Hf. destruct (se_eps _ _ _ SE) as [E0' E1]. assert (E0 : 0 <= cf_eps cf) by lra.
  pose proof (se_steps _ _ _ SE) as N2. destruct (se_flow _ _ _ SE c f Hc Hf) as [[_ [_ SL]] CN].
  destruct (flow_laws _ _ _ _ _ _ _ _ B F E0 Hc Hf) as [cx [C R]].
  assert (ON : forall o t, governed fs idx c f = Some o -> (t < steps fs idx)%nat ->
     (on_of x c f t == 0 /\ rate_of x c f t == 0 /\ runs x c f t = false)
     \/ (on_of x c f t == 1 /\ runs x c f t = true /\ cf_eps cf <= rate_of x c f t /\ within_limits cf idx c f t (rate_of x c f t)
         /\ rel_min idx f t * size_of cf x c f <= rate_of x c f t /\ rate_of x c f t <= rel_max idx f t * size_of cf x c f)).
  { intros o t G Ht. destruct (C13_onoff_coupling _ _ _ _ _ _ _ _ _ _ B F E0 Hc Hf G Ht) as [[A A']|[A [A' [L1 [L2 [L3 L4]]]]]].
    - left. split; auto. split; auto. unfold runs. destruct (Qeq_bool (on_of x c f t) 1) eqn:Z; auto. apply Qeq_bool_eq in Z. rewrite A in Z. discriminate.
    - right. split; auto. split; [unfold runs; apply Qeq_bool_iff; auto|]. split; auto. split; [|auto]. split; auto. }
  split.
  - constructor.
    + intros G t Ht. assert (Ht' : (t < cx_n cx)%nat) by (rewrite (cf_n _ _ _ _ C); auto).
      pose proof (fr_plain _ _ _ _ R G t Ht') as L. destruct (limits_range cf fs idx cx (f_size (effective cf fs idx c f)) C) as [L1 L2].
      rewrite L1, L2, (cf_idx _ _ _ _ C) in L. unfold within_limits, rel_min, rel_max, rate_of.
      unfold rel_lo, rel_hi in L. cbn [effective f_profile f_relmin f_relmax f_size] in L. destruct (f_profile f); exact L.
    + intros G t Ht Z. destruct (governed fs idx c f) as [o|] eqn:Go; [|congruence]. destruct (ON o t eq_refl Ht) as [[_ [A _]]|[_ [A _]]]; [auto|congruence].
    + intros G t Ht Z. destruct (governed fs idx c f) as [o|] eqn:Go; [|congruence]. destruct (ON o t eq_refl Ht) as [[_ [_ A]]|[_ [_ [A [A' _]]]]]; [congruence|auto].
    + intros o G. apply (onoff_rules_ext fs idx (prior_states cf f) o (x (oo (flow_name c f) "on"))); [lia| |].
      * intros i Hi. change (x (oo (flow_name c f) "on") i) with (on_of x c f i).
        destruct (ON o i G Hi) as [[A [_ A']]|[A [A' _]]]; rewrite A, A'; reflexivity.
      * destruct (C17_on_hours _ _ _ _ _ _ _ _ _ B F E0 Hc Hf G) as [T1 [T2 T3]]. apply rules_of_laws; [lia| | | |].
        -- intros q Hq. unfold on_of in T1. rewrite <- T1. auto.
        -- intros q Hq. unfold on_of in T1. rewrite <- T1. auto.
        -- exact (C15_flow_switching _ _ _ _ _ _ _ _ _ B F E0 Hc Hf G).
        -- apply (C16_flow_consecutive_partial _ _ _ _ _ _ _ _ _ B F E0 E1 Hc Hf G); auto. apply limits_durations with idx. auto.
    + intros iv S. exact (C11_investment_size _ _ _ _ _ _ _ _ _ B F E0 Hc Hf S).
    + intros iv S t Ht. assert (Ht' : (t < cx_n cx)%nat) by (rewrite (cf_n _ _ _ _ C); auto).
      destruct (fr_inv _ _ _ _ R iv S) as [_ [_ I]]. specialize (I t Ht'). cbn [effective f_profile f_relmin f_relmax f_onoff] in I.
      rewrite (cf_idx _ _ _ _ C) in I. unfold rate_of, size_of. rewrite S. destruct (f_profile f) as [p|] eqn:Pr; [exact I|].
      destruct I as [I1 I2]. split; [exact I1|]. intros [G|G].
      * rewrite G in I2. exact I2.
      * destruct (governed fs idx c f) as [o|] eqn:Go; [|exact I2]. destruct (ON o t eq_refl Ht) as [[_ [_ A]]|[_ [_ [_ [_ [A _]]]]]]; [congruence|].
        unfold rel_min, size_of, rate_of in A. rewrite Pr, S in A. exact A.
    + destruct (C17_flow_totals _ _ _ _ _ _ _ _ B F E0 Hc Hf) as [T1 [T2 [T3 [T4 T5]]]]. cbv zeta in T1. cbv zeta.
      split; [|split; [|split]]; intros q Hq; rewrite <- T1; auto.
  - intros G. destruct (governed fs idx c f) as [o|] eqn:Go; [|congruence].
    apply marks_of with (oo_sw_max o); [exact (C15_flow_switching _ _ _ _ _ _ _ _ _ B F E0 Hc Hf Go)|].
    intros t Ht. destruct (ON o t eq_refl Ht) as [[A _]|[A _]]; auto.
Qed.

Lemma running_sound : forall cf ord fs idx pm x c p, build cf ord fs idx = Ok pm -> feasible pm x -> sensible cf fs idx ->
  In c (fs_comps fs) -> cp_onoff c = Some p -> running_rule cf fs idx x c p.
Proof.
  intros cf ord fs idx pm x c p B F SE Hc Hp. destruct (se_eps _ _ _ SE) as [E0' E1]. assert (E0 : 0 <= cf_eps cf) by lra.
  pose proof (se_steps _ _ _ SE) as N2. destruct (se_comp _ _ _ SE c p Hc Hp) as [SL [CT [GN _]]].
  assert (SW : switching x (cp_label c) (List.last (comp_states cf c) false) (steps fs idx) (oo_sw_max p)).
  { destruct (comp_onoff_laws _ _ _ _ _ _ _ _ B F E0 Hc Hp) as [cx [fos [prev_on [C [FF [Po R]]]]]].
    pose proof (comp_prevs _ _ _ _ _ _ _ (oo_long _ _ _ _ _ _ _ R) FF) as M. destruct (comp_prev_states _ _ _ _ M Po GN) as [-> W].
    apply (rows_switching _ _ _ _ _ _ _ _ _ _ C R). }
  split; [|split].
  - eapply marks_of; [exact SW|]. intros t Ht. apply (C14_component_onoff _ _ _ _ _ _ _ _ _ B F E0' Hc Hp Ht).
  - intros t Ht. apply (C14_component_onoff _ _ _ _ _ _ _ _ _ B F E0' Hc Hp Ht).
  - destruct (C17_component_on_hours _ _ _ _ _ _ _ _ B F E0 Hc Hp) as [T1 [T2 T3]]. apply rules_of_laws; [lia| | |exact SW|].
    + intros q Hq. rewrite <- T1. auto.
    + intros q Hq. rewrite <- T1. auto.
    + apply (C16_component_consecutive_partial _ _ _ _ _ _ _ _ B F E0 E1 Hc Hp); auto. apply limits_durations with idx. auto.
Qed.

Lemma own_sound : forall cf ord fs idx pm x c, (forall l, Permutation (ord l) l) -> build cf ord fs idx = Ok pm -> feasible pm x -> sensible cf fs idx ->
  In c (fs_comps fs) -> own_rule cf fs idx x c.
Proof.
  intros cf ord fs idx pm x c PO B F SE Hc. destruct (se_eps _ _ _ SE) as [E0' E1]. assert (E0 : 0 <= cf_eps cf) by lra.
  destruct (se_shape _ _ _ SE c Hc) as [_ SH]. unfold own_rule. destruct (cp_kind c) as [|eqs|segs|s|rel abs] eqn:K.
  - exact I.
  - intros factors t Hf Ht. eapply C05_conversion; eauto.
  - intros t Ht. eapply C07_segments; eauto.
  - intros ch dis Ei Eo. destruct SH as [label [ch' [dis' [prevent ->]]]]. cbn in Ei, Eo. injection Ei as ->. injection Eo as ->.
    destruct (storage_laws _ _ _ _ _ _ _ _ _ _ _ B F Hc) as [cx [C R]]. pose proof (cf_n _ _ _ _ C) as N.
    destruct (C04_partial _ _ _ _ _ _ _ _ _ _ _ B F Hc) as [D1 [D2 [D3 D4]]].
    split; [|split; [|split; [|auto]]].
    + intros t Ht. destruct (proj1 (C02_storage_balance _ _ _ _ _ _ _ _ _ _ _ B F Hc) t Ht) as [A1 [A2 _]]. auto.
    + intros t Ht. destruct (C03_storage_levels _ _ _ _ _ _ _ _ _ _ _ t B F Hc Ht) as [L1 L2]. split; auto. split; auto.
      assert (Ht' : (t <= cx_n cx)%nat) by (rewrite N; auto). pose proof (sr_bounds _ _ _ _ _ _ R t Ht') as L. rewrite (cf_idx _ _ _ _ C) in L. unfold charge. cbn [storage_ cp_label].
      unfold cap_limits, cap_range in *. destruct (st_cap s) as [q|iv]; cbn [fst snd] in *; auto.
      rewrite (max_range _ _ _ _ iv C) in L. exact L.
    + intros iv Hiv. exact (C11_storage_size _ _ _ _ _ _ _ _ _ _ _ _ B F Hc Hiv).
  - intros in1 out1 in2 out2 Ei Eo. destruct SH as [label [i1 [o1 [i2 [o2 [oo_ [prevent ->]]]]]]]. cbn in Ei, Eo.
    injection Ei as -> Ei. injection Eo as -> Eo.
    assert (i2 = in2) by (destruct i2, in2; simpl in Ei; congruence). assert (o2 = out2) by (destruct o2, out2; simpl in Eo; congruence). subst i2 o2.
    destruct (C08_transmission _ _ _ _ _ _ _ _ _ _ _ _ _ _ _ B F E0 Hc) as [T1 T2]. split; auto.
    destruct in2 as [i2|]; auto. destruct T2 as [o2 [-> [T2 [T3 _]]]]. auto.
Qed.

Theorem plan_sound : forall cf ord fs idx pm x, (forall l, Permutation (ord l) l) -> build cf ord fs idx = Ok pm -> sensible cf fs idx -> feasible pm x ->
  obeys cf fs idx x.
Proof.
  intros cf ord fs idx pm x PO B SE F. destruct (se_eps _ _ _ SE) as [E0' E1]. assert (E0 : 0 <= cf_eps cf) by lra. destruct (se_effects _ _ _ SE) as [DE [NL IN]].
  constructor.
  - intros. eapply flow_sound; eauto.
  - intros. eapply running_sound; eauto.
  - intros c Hc f g t Hf Hg D Pf Pg Ht. exact (C18_exclusive_flows _ _ _ _ _ _ _ _ _ _ B F E0 Hc Hf Hg D Pf Pg Ht).
  - intros. eapply own_sound; eauto.
  - intros name iv Hi spts eff Hs. exact (C20_segmented _ _ _ _ _ _ _ _ _ _ B F DE Hi Hs).
  - intros b Ub t Ht. exact (C01_bus_balance _ _ _ _ _ _ _ _ B F PO (se_buses _ _ _ SE) Ub Ht).
  - intros e He. destruct (C19_operation _ _ _ _ _ _ _ B F He) as [A1 A2]. destruct (C22_limits _ _ _ _ _ _ _ B F He) as [L1 [L2 [L3 [L4 [L5 [L6 [L7 L8]]]]]]].
    pose proof (C20_investment _ _ _ _ _ _ _ B F He DE NL IN) as I. repeat (split; auto).
  - intros bl ND U. exact (C21_penalty _ _ _ _ _ _ _ B F PO (se_buses _ _ _ SE) ND U).
Qed.
