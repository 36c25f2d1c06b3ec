(** From the specification's view of models to the models: which model declares a variable, and obeying it. *)
From Coq Require Import String.
From Verif Require Import Base BaseFacts MathModel Spec MathFacts MathTotal Structure StructureFacts PropsStructure Params Features Elements System SysSpec
  AdmitSpec CtxFacts ReadTools InvestFacts OnOffFacts OnOffLaws OnOffAdmits FlowFacts NavFacts FlowAdmits AdmitFacts InvestAdmits SegAdmits.

Lemma within_flat : forall m n, within m n <-> In n (flat m).
Proof.
  split.
  - intros H. induction H as [m|m s n Hs W IH]; [apply flat_self|]. destruct m; simpl in *. right. apply in_flat_map. eauto.
  - revert n. induction m as [f l v c s IH] using emodel_ind'. intros n Hn. simpl in Hn. destruct Hn as [<-|Hn]; [constructor|].
    apply in_flat_map in Hn. destruct Hn as [d [Hd Hn]]. rewrite Forall_forall in IH. eapply within_sub; [exact Hd|apply IH; auto].
Qed.
Lemma sat_respects : forall x m, em_sat x m -> respects x m.
Proof.
  intros x m S n W. apply within_flat in W. destruct (S n W) as [V C]. rewrite Forall_forall in V, C. split.
  - intros v p Hv T. destruct (V v Hv) as [p' [T' K]]. assert (p' = p) by congruence. subst. auto.
  - intros c rows Hc T. destruct (C c Hc) as [p' [T' K]]. assert (p' = rows) by congruence. subst. auto.
Qed.

Lemma declared_unique : forall cf ord fs idx pm bs l m m', build cf ord fs idx = Ok pm -> build_system cf ord fs idx = Ok bs ->
  declared_by bs l m -> declared_by bs l m' -> m = m'.
Proof.
  intros cf ord fs idx pm bs l m m' H B [[r [Hr W]] [v [Hv L]]] [[r' [Hr' W']] [v' [Hv' L']]].
  unfold build in H. rewrite B in H. simpl in H. destruct (C27_exactly_the_declared _ _ _ H) as [vs [cs [rss [P [_ [_ [_ [_ [N _]]]]]]]]].
  rewrite decl_vars_roots in P. apply Permutation_map with (f := v_label) in P. apply (Permutation_NoDup P) in N.
  assert (E : forall ms, map v_label (flat_map em_vars ms) = flat_map (fun m => map v_label (em_vars m)) ms).
  { induction ms as [|a ms IH]; [reflexivity|]. simpl. rewrite map_app, IH. reflexivity. }
  rewrite E in N. apply within_flat in W. apply within_flat in W'.
  refine (flat_map_owner (fun m => map v_label (em_vars m)) _ m m' l N _ _ _ _).
  - apply in_flat_map. eauto.
  - apply in_flat_map. eauto.
  - rewrite <- L. apply in_map; auto.
  - rewrite <- L'. apply in_map; auto.
Qed.

(** The models of a flow. *)
Lemma flow_at : forall cf ord fs idx pm bs c f, build cf ord fs idx = Ok pm -> build_system cf ord fs idx = Ok bs ->
  In c (fs_comps fs) -> In f (cp_flows c) ->
  exists cx fo a b l u rate sfh oo_ io csum clf, ctx_for cf fs idx cx
    /\ flow_parts cx (flow_name c f) (effective cf fs idx c f) fo a b l u rate sfh oo_ io csum clf
    /\ em_translates (fo_tree fo) /\ declared_by bs (vlabel (flow_name c f) "flow_rate") (fo_tree fo)
    /\ (forall o, oo_ = Some o -> em_translates (ot_tree o) /\ declared_by bs (oo (flow_name c f) "on") (ot_tree o)).
Proof.
  intros cf ord fs idx pm bs c f H B Hc Hf. destruct (flow_translates _ _ _ _ _ _ _ H Hc Hf) as [cx [fo [bs' [root [C [M [T [B' [Hr I]]]]]]]]].
  assert (bs' = bs) by congruence. subst bs'. destruct (flow_has_parts _ _ _ _ M) as [a [b [l [u [rate [sfh [oo_ [io [csum [clf P]]]]]]]]]].
  exists cx, fo, a, b, l, u, rate, sfh, oo_, io, csum, clf. split; auto. split; [exact P|]. split; auto.
  pose proof (fp_tree _ _ _ _ _ _ _ _ _ _ _ _ _ _ P) as ET. split.
  - split; [exists root; split; auto; apply within_flat; auto|]. rewrite ET. exists rate. split; [simpl; auto|].
    pose proof (fp_rate _ _ _ _ _ _ _ _ _ _ _ _ _ _ P) as R. apply create_variable_spec in R. subst rate. reflexivity.
  - intros o E. subst oo_. pose proof (fp_oo _ _ _ _ _ _ _ _ _ _ _ _ _ _ P) as O. simpl in ET.
    assert (IO : In (ot_tree o) (flat (fo_tree fo))) by (rewrite ET; simpl; right; apply in_or_app; left; apply flat_self).
    split; [eapply em_translates_flat; eauto|]. split; [exists root; split; auto; apply within_flat; eapply flat_trans; eauto|].
    destruct (f_onoff (effective cf fs idx c f)) as [p|]; simpl in O; [|discriminate]. bnd O o1 Eo. apply Ok_inj in O. injection O as ->.
    destruct (onoff_on _ _ _ _ _ _ _ Eo) as [L _]. exists (ot_on o). split; auto.
    clear - Eo. unfold onoff_model in Eo. rename Eo into H.
    bnd H bounds' Eb. bnd H u1 Elen. bnd H prev_on Ep0. bnd H on Eon. bnd H tot Etot. bnd H ctot Ectot. bnd H con Econ.
    bnd H vo Evo. destruct vo as [voff coff]. bnd H vd1 Ed1. destruct vd1 as [v1 k1]. bnd H vd2 Ed2. destruct vd2 as [v2 k2].
    bnd H vs3 Es3. destruct vs3 as [[v3 k3] sw]. bnd H sh1 Esh1. bnd H sh2 Esh2. bnd H m Em. apply Ok_inj in H. subst o.
    apply mk_em_spec in Em. destruct Em as [-> _]. simpl. auto.
Qed.

(** ** Labels under one name *)
Lemma app_assoc_s : forall a b c : string, ((a ++ b) ++ c = a ++ (b ++ c))%string.
Proof. induction a; intros; simpl; [reflexivity|f_equal; auto]. Qed.
Lemma vlabel_sub : forall e s w, vlabel (cat [e; "__"; s]) w = (e ++ ("__" ++ (s ++ ("_" ++ w))))%string.
Proof. intros. unfold vlabel, cat. cbn [fold_right]. rewrite !append_nil_r'. rewrite !app_assoc_s. reflexivity. Qed.
Lemma vlabel_own : forall e w, vlabel e w = (e ++ ("_" ++ w))%string.
Proof. intros. unfold vlabel, cat. cbn [fold_right]. rewrite !append_nil_r'. reflexivity. Qed.
Ltac apart := let H := fresh in intros H; try unfold oo in H; try unfold inv in H; try unfold seg in H;
  rewrite ?vlabel_sub, ?vlabel_own in H; apply append_inj_l in H; cbn in H; discriminate.
Lemma inv_oo : forall e w w', inv e w <> oo e w'.
Proof. intros. apart. Qed.
Lemma sum_oo : forall e w', vlabel e "sumFlowHours" <> oo e w'.
Proof. intros. apart. Qed.
Lemma sum_inv : forall e w', vlabel e "sumFlowHours" <> inv e w'.
Proof. intros. apart. Qed.
Lemma rate_sum_ne : forall e, vlabel e "flow_rate" <> vlabel e "sumFlowHours".
Proof. intros. apart. Qed.
Lemma seg_oo : forall e i w w', SegAdmits.seg e i w <> oo e w'.
Proof. intros. apart. Qed.
Lemma shares_oo : forall e w w', vlabel (cat [e; "__"; "SegmentedShares"]) w <> oo e w'.
Proof. intros. apart. Qed.

Lemma respects_sat : forall x m, em_translates m -> respects x m -> em_sat x m.
Proof.
  intros x m T R n Hn. destruct (T n Hn) as [TV TC]. apply within_flat in Hn. destruct (R n Hn) as [RV RC].
  rewrite Forall_forall in TV, TC. split; apply Forall_forall.
  - intros v Hv. destruct (TV v Hv) as [p Tp]. exists p. split; eauto.
  - intros c Hc. destruct (TC c Hc) as [p Tp]. exists p. split; eauto.
Qed.
