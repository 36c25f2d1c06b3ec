(** C56 for investments with segmented effects. *)
From Coq Require Import String Ascii.
From Verif Require Import Base BaseFacts MathModel Spec MathFacts MathTotal Structure StructureFacts Params Features Elements Library System SysSpec
  AdmitSpec CtxFacts ReadTools InvestFacts OnOffFacts OnOffLaws OnOffAdmits FlowFacts NavFacts FlowAdmits ResultFacts AdmitFacts InvestAdmits SegFacts SegAdmits
  ClosedFacts GlueFacts ShareAdmits EffectFacts AdmitNav PropsFlow PropsOnOff PropsAdmits PropsComp PropsEffects PlanSpec SegWitness PlanPieces
  Example ExamplePoints PlanSys PlanSound PlanSame PlanCheck PropsPlan.

(** Everything as in [x] except the flow hours, the bookkeeping of on/off states and the position on the segments of this flow. *)
Definition choices_agree (name : string) (x y : asg) : Prop :=
  forall l, l <> vlabel name "sumFlowHours" -> (forall w, In w AdmitSpec.onoff_names -> l <> oo name w) ->
    (forall i w, l <> vlabel (cat [name; "__"; cat ["Segment_"; nat_str i]]) w) -> y l = x l.

(** [segments_rule] (PlanSpec.v): the chosen size and the effect shares lie at one position on one of the pieces. *)
Theorem C56_flow_segments : forall cf ord fs idx pm bs m x c f b,
  build cf ord fs idx = Ok pm -> build_system cf ord fs idx = Ok bs -> 0 <= cf_eps cf -> cf_eps cf < 1 ->
  In c (fs_comps fs) -> In f (cp_flows c) -> declared_by bs (vlabel (flow_name c f) "flow_rate") m ->
  sound_flow cf fs idx c f -> (forall o, governed fs idx c f = Some o -> countable_for o (prior_states cf f)) ->
  flow_allowed cf fs idx x c f b -> (forall iv, sized cf c f = SzInv iv -> segments_rule fs x (flow_name c f) iv) ->
  exists y, choices_agree (flow_name c f) x y /\ (governed fs idx c f <> None -> forall t, on_of y c f t = q01 (b t)) /\ respects y m.
Proof.
  intros cf ord fs idx pm bs m x c f b H B E0 E1 Hc Hf D SF K A SG. set (nm := flow_name c f) in *.
  destruct (flow_at _ _ _ _ _ _ _ _ H B Hc Hf) as [cx [fo [a [b0 [l [u [rate [sfh [oo_ [io [csum [clf [C [P [T [DF _]]]]]]]]]]]]]]]].
  pose proof (declared_unique _ _ _ _ _ _ _ _ _ H B D DF) as ->.
  assert (IO : forall i, io = Some i -> exists iv, sized cf c f = SzInv iv /\ invest_seen fs nm iv i).
  { intros i Ei. subst io. pose proof (fp_io _ _ _ _ _ _ _ _ _ _ _ _ _ _ P) as Eio. simpl in Eio.
    destruct (sized cf c f) as [q|iv] eqn:Sz; [discriminate|]. destruct Eio as [pr [i' [_ [Ei Ei']]]]. injection Ei' as <-.
    exists iv. split; auto. eapply invest_is_seen; [apply (cf_effs _ _ _ _ C)|exact Ei]. }
  pose proof (fp_tree _ _ _ _ _ _ _ _ _ _ _ _ _ _ P) as ET.
  assert (Z : exists z, (forall l, (forall i w, In w segment_words -> l <> seg nm i w) -> z l = x l)
    /\ forall i, io = Some i -> forall y, (forall v, In v (decl (io_tree i)) -> y (v_label v) = z (v_label v)) -> Forall (em_sat y) (em_subs (io_tree i))).
  { destruct io as [i|]; [|exists x; split; [auto|discriminate]]. destruct (IO i eq_refl) as [iv [Sz IS]].
    destruct (is_subs _ _ _ _ IS x) as [z [Z1 Z2]]; [apply SG; auto| |exists z; split; [auto|intros i' Ei; injection Ei as <-; auto]].
    eapply em_translates_flat; [exact T|]. rewrite ET. simpl. right. rewrite flat_map_app, in_app_iff. right. simpl. rewrite app_nil_r. apply flat_self. }
  destruct Z as [z [Z1 Z2]].
  assert (A' : flow_allowed cf fs idx z c f b).
  { eapply flow_allowed_ext; [| |exact A].
    - apply Z1. intros i w Hw. apply seg_last; auto; fold nm; rewrite lastc_vlabel by discriminate; discriminate.
    - intros w Hw. apply Z1. intros i w' Hw'. apply (inv_seen_seg fs nm); auto. unfold inv_seen. fold nm. destruct Hw as [<-|[<-|[]]]; simpl; auto. }
  destruct (flow_complete cf fs idx cx c f fo a b0 l u rate sfh oo_ io csum clf z b C E0 E1 P T SF K A') as [y [Y1 [Y2 [Y3 Y4]]]].
  { intros y i OA Ei. apply (Z2 i Ei). intros v Hv. destruct (IO i Ei) as [iv [_ IS]]. destruct (is_decl _ _ _ _ IS v Hv) as [Hl|[k [w [Hw ->]]]].
    - apply OA; [apply (inv_seen_sum fs); auto|intros w _; apply (inv_seen_oo fs); auto].
    - apply OA; [apply seg_sum|intros w' _; apply seg_oo]. }
  exists y. split; [|split; [exact Y2|apply sat_respects; auto]].
  intros l0 L1 L2 L3. rewrite Y1 by assumption. apply Z1. intros i w _. apply L3.
Qed.
Print Assumptions C56_flow_segments.

(** The investment into the transmission line of the second system has segmented effects. *)
Example C56_segments_applies : let f := hd q_th (cp_in line) in exists pm bs m, build default_config id_ord fs1 idx1 = Ok pm /\ build_system default_config id_ord fs1 idx1 = Ok bs
  /\ (exists iv, sized default_config line f = SzInv iv /\ iv_seg iv <> None)
  /\ declared_by bs (vlabel (flow_name line f) "flow_rate") m
  /\ sound_flow default_config fs1 idx1 line f /\ (forall o, governed fs1 idx1 line f = Some o -> countable_for o (prior_states default_config f))
  /\ flow_allowed default_config fs1 idx1 x1 line f (PlanSpec.runs x1 line f)
  /\ (forall iv, sized default_config line f = SzInv iv -> segments_rule fs1 x1 (flow_name line f) iv).
Proof.
  cbv zeta. destruct x1_feasible as [pm [H F]]. destruct (builds _ _ _ _ _ H) as [bs B].
  assert (Hc : In line (fs_comps fs1)) by (simpl; auto). assert (Hf : In (hd q_th (cp_in line)) (cp_flows line)) by (simpl; auto).
  destruct (C56_model _ _ _ _ _ _ _ _ H B Hc Hf) as [m [D _]]. pose proof sensible_1 as SE.
  assert (OB : obeys default_config fs1 idx1 x1) by (eapply C57_solutions; [exact id_ord_perm|exact H|exact SE|exact F]).
  destruct (se_flow _ _ _ SE _ _ Hc Hf) as [S1 S2]. exists pm, bs, m. do 2 (split; [assumption|]).
  split; [exists line_inv; split; [reflexivity|discriminate]|]. split; [exact D|]. split; [exact S1|]. split; [exact S2|]. split; [apply (ob_flow _ _ _ _ OB _ _ Hc Hf)|].
  intros iv Sz. apply (ob_segments _ _ _ _ OB). unfold investments. apply in_flat_map. exists line. split; auto. apply in_or_app. left.
  apply in_flat_map. exists (hd q_th (cp_in line)). split; auto. unfold flow_investment. rewrite Sz. left. reflexivity.
Qed.
