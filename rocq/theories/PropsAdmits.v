(** C12, C16 (converse), C50, C56: what the constraints of flows and on/off parts do not exclude. *)
From Coq Require Import String.
From Verif Require Import Base BaseFacts MathModel Spec MathFacts MathTotal Structure StructureFacts Params Features Elements System SysSpec
  AdmitSpec CtxFacts ReadTools InvestFacts OnOffFacts OnOffLaws OnOffAdmits FlowFacts NavFacts FlowAdmits PropsFlow PropsOnOff AdmitFacts InvestAdmits SegFacts SegAdmits
  AdmitNav Example ExamplePoints.

(** ** C16: every pattern obeying the rules is admitted *)
Lemma rate_states : forall cf fs idx c f cx l u rate prev_on, ctx_for cf fs idx cx ->
  create_variable (flow_name c f) "flow_rate" (cx_n cx) false None l u (f_prev f) = Ok rate ->
  previous_on_values (cx_eps cx) [rate] = Ok prev_on -> prev_on = map q01 (prior_states cf f).
Proof.
  intros cf fs idx c f cx l u rate prev_on C R P. rewrite (cf_eps_ _ _ _ _ C) in P. apply create_variable_spec in R.
  assert (T : v_ts rate = true).
  { unfold previous_on_values in P. simpl in P. unfold prev_of in P. destruct (v_ts rate); [auto|discriminate]. }
  apply (flow_prev_states cf f rate); auto. subst rate. cbn [v_prev v_ts] in *. rewrite T. reflexivity.
Qed.

Lemma flow_onoff_exists : forall cf fs idx cx c f fo a b0 l u rate sfh out io csum clf o x b,
  ctx_for cf fs idx cx -> 0 <= cf_eps cf -> cf_eps cf < 1 ->
  flow_parts cx (flow_name c f) (effective cf fs idx c f) fo a b0 l u rate sfh (Some out) io csum clf -> em_translates (ot_tree out) ->
  governed fs idx c f = Some o ->
  (forall t, (t < steps fs idx)%nat -> b t = false -> rate_of x c f t == 0) ->
  (forall t, (t < steps fs idx)%nat -> b t = true -> cf_eps cf <= rate_of x c f t /\ within_limits cf idx c f t (rate_of x c f t)) ->
  sound_limits fs idx o -> countable_for o (prior_states cf f) -> onoff_rules fs idx (prior_states cf f) o (fun t => q01 (b t)) ->
  exists y, same_but_onoff (flow_name c f) x y /\ y (oo (flow_name c f) "on") = (fun t => q01 (b t))
    /\ y (oo (flow_name c f) "switchOn") = starting (was_on cf f) b /\ em_sat y (ot_tree out).
Proof.
  intros cf fs idx cx c f fo a b0 l u rate sfh out io csum clf o x b C E0 E1 P T G OFF ON SL K R.
  pose proof (cf_ok _ _ _ _ C) as CX.
  destruct P as [Erl Eab Erate Eoo _ _ _ _ _]. simpl in Erate, Eoo. rewrite G in Erate, Eoo. simpl in Eoo.
  bnd Eoo out' Eo. apply Ok_inj in Eoo. injection Eoo as ->.
  destruct (flow_rel_spec _ _ _ _ _ CX Erl) as [_ [Ga [Gb [A B]]]].
  destruct (flow_abs_spec _ _ _ _ _ _ _ CX Erl Eab) as [Gl [Gu [Fl [Fu [L U]]]]].
  assert (Lr : v_len rate = cx_n cx) by (apply create_variable_spec in Erate; subst rate; auto).
  assert (Nr : v_label rate = vlabel (flow_name c f) "flow_rate") by (apply create_variable_spec in Erate; subst rate; auto).
  assert (Lv : forall v, In v [rate] -> v_len v = cx_n cx) by (intros v [<-|[]]; auto).
  assert (Gd : forall bd, In bd [(l, u)] -> good (fst bd) /\ good (snd bd)) by (intros bd [<-|[]]; auto).
  destruct (onoff_built _ _ _ _ _ _ _ CX Lv Gd Eo) as [N2 [_ [_ [F _]]]].
  destruct (F (l, u) (or_introl eq_refl)) as [FU FL]. specialize (FL eq_refl). simpl in FU, FL.
  refine (onoff_witness cf fs idx cx true x _ o [rate] [(l, u)] out _ b C E0 E1 Lv Gd _ Eo T _ SL K R _).
  - intros v w [<-|[]] Hw. rewrite Nr. apply rate_not_onoff; auto.
  - intros prev_on Po. eapply rate_states; eauto.
  - intros y Yr Yo t Ht. specialize (Yr rate (or_introl eq_refl)). rewrite Nr in Yr |- *. rewrite Yo. unfold rate_sum. cbn [map]. rewrite !Qsum_cons, Nr, Yr.
    cbn [Qsum fold_right snd fst]. rewrite (cf_n _ _ _ _ C) in *. rewrite (cf_eps_ _ _ _ _ C).
    assert (Al : at_ l t == rel_min idx f t * fst (size_range cf (sized cf c f))).
    { rewrite L by (apply FL; auto). rewrite A; [|auto|apply (proj1 (Fl _) FL); auto].
      rewrite (proj1 (limits_range cf fs idx cx _ C)). unfold rel_lo, rel_min. simpl. rewrite (cf_idx _ _ _ _ C). destruct (f_profile f); reflexivity. }
    assert (Au : at_ u t == rel_max idx f t * snd (size_range cf (sized cf c f))).
    { rewrite U by (apply FU; auto). rewrite B; [|auto|apply (proj1 (Fu _) FU); auto].
      rewrite (proj2 (limits_range cf fs idx cx _ C)). unfold rel_hi, rel_max. simpl. rewrite (cf_idx _ _ _ _ C). destruct (f_profile f); reflexivity. }
    rewrite Al, Au. unfold rate_of in OFF, ON. destruct (b t) eqn:Eb; unfold q01.
    + destruct (ON t Ht Eb) as [O1 [O2 O3]]. repeat split; lra.
    + specialize (OFF t Ht Eb). repeat split; rewrite ?OFF; lra.
Qed.

Theorem C16_flow_admitted : forall cf ord fs idx pm bs m x c f o b,
  build cf ord fs idx = Ok pm -> build_system cf ord fs idx = Ok bs -> 0 <= cf_eps cf -> cf_eps cf < 1 ->
  In c (fs_comps fs) -> In f (cp_flows c) -> governed fs idx c f = Some o -> declared_by bs (oo (flow_name c f) "on") m ->
  (forall t, (t < steps fs idx)%nat -> b t = false -> rate_of x c f t == 0) ->
  (forall t, (t < steps fs idx)%nat -> b t = true -> cf_eps cf <= rate_of x c f t /\ within_limits cf idx c f t (rate_of x c f t)) ->
  sound_limits fs idx o -> countable_for o (prior_states cf f) ->
  onoff_rules fs idx (prior_states cf f) o (fun t => q01 (b t)) ->
  exists y, same_but_onoff (flow_name c f) x y /\ (forall t, on_of y c f t = q01 (b t)) /\ respects y m.
Proof.
  intros cf ord fs idx pm bs m x c f o b H B E0 E1 Hc Hf G D OFF ON SL K R.
  destruct (flow_at _ _ _ _ _ _ _ _ H B Hc Hf) as [cx [fo [a [b0 [l [u [rate [sfh [oo_ [io [csum [clf [C [P [T [_ DO]]]]]]]]]]]]]]]].
  pose proof (fp_oo _ _ _ _ _ _ _ _ _ _ _ _ _ _ P) as Eoo. simpl in Eoo. rewrite G in Eoo. simpl in Eoo. bnd Eoo out Eo. apply Ok_inj in Eoo. subst oo_.
  destruct (DO out eq_refl) as [TO DO'].
  pose proof (declared_unique _ _ _ _ _ _ _ _ _ H B D DO') as ->.
  destruct (flow_onoff_exists cf fs idx cx c f _ _ _ _ _ _ _ _ _ _ _ o x b C E0 E1 P TO G OFF ON SL K R) as [y [Y1 [Y2 [_ Y3]]]].
  exists y. split; auto. split; [|apply sat_respects; auto]. intros t. unfold on_of. rewrite Y2. reflexivity.
Qed.
Print Assumptions C16_flow_admitted.

(** ** Components *)
(** The pattern [b] of a component fits the rates of its flows. *)
Definition comp_pattern (cf : config) (fs : flow_system) (idx : option (list nat)) (x : asg) (c : component) (b : nat -> bool) : Prop :=
  forall t, (t < steps fs idx)%nat ->
    (b t = false -> forall f, In f (cp_flows c) -> rate_of x c f t == 0)
    /\ (b t = true -> cf_eps cf <= Qsum (map (fun f => rate_of x c f t) (cp_flows c))
          /\ forall f, In f (cp_flows c) -> (cp_flows c <> [f] /\ 0 <= rel_max idx f t * snd (size_range cf (sized cf c f)) /\ rate_of x c f t == 0)
               \/ within_limits cf idx c f t (rate_of x c f t)).

Lemma comp_at : forall cf ord fs idx pm bs c p, build cf ord fs idx = Ok pm -> build_system cf ord fs idx = Ok bs ->
  In c (fs_comps fs) -> cp_onoff c = Some p ->
  exists cx tr fos out, ctx_for cf fs idx cx /\ Forall2 (fo_for cf fs idx cx c) (cp_flows c) fos
    /\ onoff_model cx tr (cp_label c) p (map fo_rate fos) (map fo_bounds fos) = Ok out
    /\ em_translates (ot_tree out) /\ declared_by bs (oo (cp_label c) "on") (ot_tree out).
Proof.
  intros cf ord fs idx pm bs c p H B Hc Hp. destruct (build_parts _ _ _ _ _ H) as [cx [cos [bos [em [obj P]]]]].
  destruct (locate_comp _ _ _ _ _ _ _ _ _ _ P c Hc) as [o [oo_ [pm_ [so [Ho [Q S]]]]]].
  pose proof (sys_ctx _ _ _ _ _ _ _ _ _ _ P) as CF. pose proof (cf_ok _ _ _ _ CF) as CX.
  pose proof (fos_for _ _ _ _ _ _ _ _ _ _ CX Q) as FF.
  pose proof (pa_oo _ _ _ _ _ _ _ _ Q) as OO. rewrite Hp in OO. simpl in OO. bnd OO o1 Eo. apply Ok_inj in OO. subst oo_.
  eexists cx, _, (co_flows o), o1. split; auto. split; auto. split; [exact Eo|].
  pose proof (sy_build _ _ _ _ _ _ _ _ _ _ P) as B1. rewrite B in B1. apply Ok_inj in B1. subst bs.
  pose proof (system_translates _ _ _ (sy_translate _ _ _ _ _ _ _ _ _ _ P)) as T. rewrite Forall_forall in T.
  assert (IR : In (co_tree o) (em :: map co_tree cos ++ map fst bos)).
  { right. apply in_or_app. left. apply in_map; auto. }
  assert (IF : In (ot_tree o1) (flat (co_tree o))).
  { rewrite (pa_tree _ _ _ _ _ _ _ _ Q). simpl. right. apply in_flat_map. exists (ot_tree o1). split; [|apply flat_self].
    apply in_or_app; left. apply in_or_app; right. simpl. auto. }
  split; [eapply em_translates_flat; [apply T; exact IR|auto]|].
  split; [exists (co_tree o); split; [exact IR|apply within_flat; auto]|].
  destruct (onoff_on _ _ _ _ _ _ _ Eo) as [L _]. exists (ot_on o1). split; auto.
  clear - Eo. unfold onoff_model in Eo. rename Eo into H.
  bnd H bounds' Eb. bnd H u1 Elen. bnd H prev_on Ep0. bnd H on Eon. bnd H tot Etot. bnd H ctot Ectot. bnd H con Econ.
  bnd H vo Evo. destruct vo as [voff coff]. bnd H vd1 Ed1. destruct vd1 as [v1 k1]. bnd H vd2 Ed2. destruct vd2 as [v2 k2].
  bnd H vs3 Es3. destruct vs3 as [[v3 k3] sw]. bnd H sh1 Esh1. bnd H sh2 Esh2. bnd H m Em. apply Ok_inj in H. subst o1.
  apply mk_em_spec in Em. destruct Em as [-> _]. simpl. auto.
Qed.

Lemma comp_onoff_exists : forall cf fs idx cx tr c o fos out x b,
  ctx_for cf fs idx cx -> 0 <= cf_eps cf -> cf_eps cf < 1 -> Forall2 (fo_for cf fs idx cx c) (cp_flows c) fos ->
  onoff_model cx tr (cp_label c) o (map fo_rate fos) (map fo_bounds fos) = Ok out -> em_translates (ot_tree out) ->
  comp_pattern cf fs idx x c b -> (length (filter gives_number (cp_flows c)) <= 1)%nat ->
  sound_limits fs idx o -> countable_for o (comp_states cf c) ->
  onoff_rules fs idx (comp_states cf c) o (fun t => q01 (b t)) ->
  exists y, same_but_onoff (cp_label c) x y /\ y (oo (cp_label c) "on") = (fun t => q01 (b t))
    /\ y (oo (cp_label c) "switchOn") = starting (List.last (comp_states cf c) false) b /\ em_sat y (ot_tree out).
Proof.
  intros cf fs idx cx tr c o fos out x b C E0 E1 FF Eo T CP N SL K R. pose proof (cf_ok _ _ _ _ C) as CX.
  assert (LV : forall v, In v (map fo_rate fos) -> v_len v = cx_n cx).
  { intros v Hv. apply in_map_iff in Hv. destruct Hv as [fo [<- Hv]]. destruct (Forall2_In_r _ _ _ _ FF Hv) as [f [_ Sf]]. apply (fs_len _ _ _ _ Sf). }
  assert (GB : forall b, In b (map fo_bounds fos) -> good (fst b) /\ good (snd b)).
  { intros b1 Hb. apply in_map_iff in Hb. destruct Hb as [fo [<- Hb]]. destruct (Forall2_In_r _ _ _ _ FF Hb) as [f [_ Sf]]. apply (fs_good _ _ _ _ Sf). }
  destruct (onoff_built _ _ _ _ _ _ _ CX LV GB Eo) as [N2 [_ [_ [F _]]]].
  destruct (onoff_witness cf fs idx cx tr x (cp_label c) o (map fo_rate fos) (map fo_bounds fos) out (comp_states cf c) b) as [y [Y1 [Y2 [YS Y3]]]]; auto.
  - intros v w Hv Hw. apply in_map_iff in Hv. destruct Hv as [fo [<- Hv]]. destruct (Forall2_In_r _ _ _ _ FF Hv) as [f [_ Sf]].
    rewrite (fs_label _ _ _ _ Sf). apply rate_not_onoff; auto.
  - intros prev_on Po. rewrite (cf_eps_ _ _ _ _ C) in Po. pose proof (comp_prevs _ _ _ _ _ _ _ N2 FF) as M.
    destruct (comp_prev_states _ _ _ _ M Po N) as [-> _]. reflexivity.
  - intros y Yr Yo t Ht. rewrite Yo. pose proof Ht as Ht'. rewrite (cf_n _ _ _ _ C) in Ht. destruct (CP t Ht) as [OFF ON].
    assert (RS : rate_sum y (map fo_rate fos) t = Qsum (map (fun f => rate_of x c f t) (cp_flows c))).
    { rewrite <- (rate_sum_flows _ _ _ _ x c _ _ t FF). unfold rate_sum. f_equal. apply map_ext_in. intros v Hv. rewrite (Yr v Hv). reflexivity. }
    rewrite (cf_eps_ _ _ _ _ C).
    assert (UP : forall fl l, (forall f, In f fl -> In f (cp_flows c)) -> (forall o', In o' l -> In o' fos) -> Forall2 (fo_for cf fs idx cx c) fl l ->
        Qsum (map (fun b => at_ (snd b) t) (map fo_bounds l)) == Qsum (map (fun f => rel_max idx f t * snd (size_range cf (sized cf c f))) fl)).
    { intros fl l I1 I2 F2. induction F2 as [|f fo fl l Hf F2 IH]; [reflexivity|]. cbn [map]. rewrite !Qsum_cons, IH by (intros; try apply I1; try apply I2; simpl; auto).
      assert (IB : In (fo_bounds fo) (map fo_bounds fos)) by (apply in_map, I2; simpl; auto).
      rewrite (fs_hi _ _ _ _ Hf t Ht' (proj1 (F _ IB) t Ht')).
      rewrite (proj2 (limits_range cf fs idx cx _ C)). unfold rel_hi, rel_max. simpl. rewrite (cf_idx _ _ _ _ C). destruct (f_profile f); reflexivity. }
    specialize (UP _ _ (fun f h => h) (fun o' h => h) FF). rewrite RS, UP. clear UP. split.
    + assert (GEN : q01 (b t) * cf_eps cf <= Qsum (map (fun f => rate_of x c f t) (cp_flows c))).
      { destruct (b t) eqn:Eb; unfold q01; [destruct (ON eq_refl); lra|]. rewrite Qsum_zero; [lra|]. intros q Hq. apply in_map_iff in Hq.
        destruct Hq as [f [<- Hf]]. apply (OFF eq_refl f Hf). }
      destruct FF as [|f fo fl fos' Hf FF']; [exact GEN|]. cbn [map]. destruct FF' as [|f' fo' fl fos'' Hf' FF'']; [|exact GEN].
      cbn [map]. destruct (fo_bounds fo) as [lb ub] eqn:Ebd. cbn [map] in GEN. rewrite Qsum_cons in GEN. cbn [Qsum fold_right] in GEN.
      rewrite (Yr (fo_rate fo)) by (simpl; auto). rewrite (fs_label _ _ _ _ Hf). change (x _ t) with (rate_of x c f t). split; [lra|].
      assert (IB : In (fo_bounds fo) (map fo_bounds [fo])) by (simpl; auto).
      destruct (F _ IB) as [_ FL]. specialize (FL eq_refl). pose proof (fs_lo _ _ _ _ Hf t Ht' (FL t Ht')) as AL. rewrite Ebd in AL. cbn [fst] in AL.
      rewrite (proj1 (limits_range cf fs idx cx _ C)) in AL. unfold rel_lo in AL. simpl in AL. rewrite (cf_idx _ _ _ _ C) in AL.
      assert (AL' : at_ lb t == rel_min idx f t * fst (size_range cf (sized cf c f))) by (rewrite AL; unfold rel_min; destruct (f_profile f); reflexivity).
      rewrite AL'. destruct (b t) eqn:Eb; unfold q01.
      * destruct (ON eq_refl) as [_ W]. destruct (W f (or_introl eq_refl)) as [[W1 _]|[W1 W2]]; [congruence|lra].
      * rewrite (OFF eq_refl f (or_introl eq_refl)). lra.
    + destruct (b t) eqn:Eb; unfold q01.
      * destruct (ON eq_refl) as [_ W]. setoid_replace (1 * Qsum (map (fun f => rel_max idx f t * snd (size_range cf (sized cf c f))) (cp_flows c)))
          with (Qsum (map (fun f => rel_max idx f t * snd (size_range cf (sized cf c f))) (cp_flows c))) by ring.
        clear - W. assert (W' : forall f, In f (cp_flows c) -> rate_of x c f t <= rel_max idx f t * snd (size_range cf (sized cf c f))).
        { intros f Hf. destruct (W f Hf) as [[_ [W1 W2]]|[_ W1]]; lra. }
        clear W. induction (cp_flows c) as [|f l IH]; [apply Qle_refl|]. cbn [map]. rewrite !Qsum_cons. apply Qplus_le_compat; [apply W'; simpl; auto|].
        apply IH. intros; apply W'; simpl; auto.
      * rewrite Qsum_zero; [lra|]. intros q Hq. apply in_map_iff in Hq. destruct Hq as [f [<- Hf]]. apply (OFF eq_refl f Hf).
  - exists y. split; auto.
Qed.

Theorem C16_component_admitted : forall cf ord fs idx pm bs m x c o b,
  build cf ord fs idx = Ok pm -> build_system cf ord fs idx = Ok bs -> 0 <= cf_eps cf -> cf_eps cf < 1 ->
  In c (fs_comps fs) -> cp_onoff c = Some o -> declared_by bs (oo (cp_label c) "on") m ->
  comp_pattern cf fs idx x c b -> (length (filter gives_number (cp_flows c)) <= 1)%nat ->
  sound_limits fs idx o -> countable_for o (comp_states cf c) ->
  onoff_rules fs idx (comp_states cf c) o (fun t => q01 (b t)) ->
  exists y, same_but_onoff (cp_label c) x y /\ (forall t, y (oo (cp_label c) "on") t = q01 (b t)) /\ respects y m.
Proof.
  intros cf ord fs idx pm bs m x c o b H B E0 E1 Hc Hp D CP N SL K R.
  destruct (comp_at _ _ _ _ _ _ _ _ H B Hc Hp) as [cx [tr [fos [out [C [FF [Eo [T DO]]]]]]]].
  pose proof (declared_unique _ _ _ _ _ _ _ _ _ H B D DO) as ->.
  destruct (comp_onoff_exists cf fs idx cx tr c o fos out x b C E0 E1 FF Eo T CP N SL K R) as [y [Y1 [Y2 [_ Y3]]]].
  exists y. split; auto. split; [|apply sat_respects; auto]. intros t. rewrite Y2. reflexivity.
Qed.
Print Assumptions C16_component_admitted.

(** ** C50: bookkeeping without limits excludes no operation *)
Lemma no_limits_given : forall o, no_limits o -> limits_given o = [].
Proof. intros o [_ [_ [_ [A [B [C D]]]]]]. unfold limits_given. rewrite A, B, C, D. reflexivity. Qed.
Lemma no_limits_sound : forall fs idx o, no_limits o -> sound_limits fs idx o.
Proof. intros fs idx o N H. rewrite no_limits_given in H; auto. congruence. Qed.
Lemma no_limits_countable : forall o l, no_limits o -> countable_for o l.
Proof. intros o l [_ [_ [_ [A [B [C D]]]]]]. split; intros [E|E]; congruence. Qed.
Lemma no_limits_rules : forall fs idx states o on, no_limits o -> onoff_rules fs idx states o on.
Proof.
  intros fs idx states o on [A [B [C [D [E [F G]]]]]]. unfold onoff_rules, obeys_limits. rewrite A, B, C, D, E, F, G.
  repeat split; intros; discriminate.
Qed.

Theorem C50_flow : forall cf ord fs idx pm bs m x c f o,
  build cf ord fs idx = Ok pm -> build_system cf ord fs idx = Ok bs -> 0 <= cf_eps cf -> cf_eps cf < 1 ->
  In c (fs_comps fs) -> In f (cp_flows c) -> governed fs idx c f = Some o -> no_limits o ->
  declared_by bs (oo (flow_name c f) "on") m ->
  (forall t, (t < steps fs idx)%nat ->
     rate_of x c f t == 0 \/ (cf_eps cf <= rate_of x c f t /\ within_limits cf idx c f t (rate_of x c f t))) ->
  exists y, same_but_onoff (flow_name c f) x y /\ (forall t, on_of y c f t = if Qeq_bool (rate_of x c f t) 0 then 0 else 1) /\ respects y m.
Proof.
  intros cf ord fs idx pm bs m x c f o H B E0 E1 Hc Hf G N D S.
  destruct (C16_flow_admitted cf ord fs idx pm bs m x c f o (fun t => negb (Qeq_bool (rate_of x c f t) 0)) H B E0 E1 Hc Hf G D) as [y [Y1 [Y2 Y3]]].
  - intros t Ht E. apply Bool.negb_false_iff in E. apply Qeq_bool_iff in E. auto.
  - intros t Ht E. apply Bool.negb_true_iff in E. destruct (S t Ht) as [Z|Z]; auto. apply Qeq_bool_iff in Z. congruence.
  - apply no_limits_sound; auto.
  - apply no_limits_countable; auto.
  - apply no_limits_rules; auto.
  - exists y. split; auto. split; auto. intros t. rewrite Y2. destruct (Qeq_bool _ _); reflexivity.
Qed.
Theorem C50_component : forall cf ord fs idx pm bs m x c o,
  build cf ord fs idx = Ok pm -> build_system cf ord fs idx = Ok bs -> 0 <= cf_eps cf -> cf_eps cf < 1 ->
  In c (fs_comps fs) -> cp_onoff c = Some o -> no_limits o -> (length (filter gives_number (cp_flows c)) <= 1)%nat ->
  declared_by bs (oo (cp_label c) "on") m ->
  (forall t f, (t < steps fs idx)%nat -> In f (cp_flows c) ->
     (rate_of x c f t == 0 /\ 0 <= rel_max idx f t * snd (size_range cf (sized cf c f)))
     \/ (cf_eps cf <= rate_of x c f t /\ within_limits cf idx c f t (rate_of x c f t))) ->
  exists y, same_but_onoff (cp_label c) x y
    /\ (forall t, y (oo (cp_label c) "on") t = if forallb (fun f => Qeq_bool (rate_of x c f t) 0) (cp_flows c) then 0 else 1) /\ respects y m.
Proof.
  intros cf ord fs idx pm bs m x c o H B E0 E1 Hc Hp N G D S.
  destruct (C16_component_admitted cf ord fs idx pm bs m x c o (fun t => negb (forallb (fun f => Qeq_bool (rate_of x c f t) 0) (cp_flows c))) H B E0 E1 Hc Hp D) as [y [Y1 [Y2 Y3]]]; auto.
  - intros t Ht. split; intros E.
    + apply Bool.negb_false_iff in E. rewrite forallb_forall in E. intros f Hf. apply Qeq_bool_iff. auto.
    + assert (X : exists f, In f (cp_flows c) /\ ~ rate_of x c f t == 0).
      { clear - E. induction (cp_flows c) as [|f l IH]; [discriminate|]. simpl in E. destruct (Qeq_bool (rate_of x c f t) 0) eqn:Q.
        - destruct (IH E) as [g [Hg Ng]]. exists g. simpl; auto.
        - exists f. split; [simpl; auto|]. intros Z. apply Qeq_bool_iff in Z. congruence. }
      destruct X as [f0 [Hf0 N0]]. split.
      * assert (NN : forall f, In f (cp_flows c) -> 0 <= rate_of x c f t) by (intros f Hf; destruct (S t f Ht Hf) as [[Z _]|[Z _]]; lra).
        assert (F0 : cf_eps cf <= rate_of x c f0 t) by (destruct (S t f0 Ht Hf0) as [[Z _]|[Z _]]; [contradiction|auto]).
        clear - NN F0 Hf0 E0. induction (cp_flows c) as [|f l IH]; [destruct Hf0|]. cbn [map]. rewrite Qsum_cons.
        assert (NL : 0 <= Qsum (map (fun f => rate_of x c f t) l)).
        { assert (NN' : forall f, In f l -> 0 <= rate_of x c f t) by (intros; apply NN; simpl; auto). clear - NN'. induction l as [|g l IH]; [apply Qle_refl|].
          cbn [map]. rewrite Qsum_cons. pose proof (NN' g (or_introl eq_refl)). assert (0 <= Qsum (map (fun f => rate_of x c f t) l)) by (apply IH; intros; apply NN'; simpl; auto). lra. }
        destruct Hf0 as [->|Hf0]; [lra|]. pose proof (NN f (or_introl eq_refl)).
        assert (cf_eps cf <= Qsum (map (fun f => rate_of x c f t) l)) by (apply IH; auto; intros; apply NN; simpl; auto). lra.
      * intros f Hf. destruct (S t f Ht Hf) as [[Z Z1]|[_ Z]]; [left|right; auto]. split; [|auto].
        intros Q. rewrite Q in Hf0. destruct Hf0 as [<-|[]]. contradiction.
  - apply no_limits_sound; auto.
  - apply no_limits_countable; auto.
  - apply no_limits_rules; auto.
  - exists y. split; auto. split; auto. intros t. rewrite Y2. destruct (forallb _ _); reflexivity.
Qed.
Print Assumptions C50_flow.
Print Assumptions C50_component.

(** ** C56: the constraints of a flow admit whatever its parameters allow *)
Definition others_agree (name : string) (x y : asg) : Prop :=
  forall l, l <> vlabel name "sumFlowHours" -> (forall w, In w onoff_names -> l <> oo name w) -> y l = x l.

Lemma size_allowed_rows : forall cf fs idx cx iv q d, ctx_for cf fs idx cx -> 0 <= cf_eps cf -> 0 <= max_size cf iv -> allowed_size cf iv q d ->
  (if (iv_is_fixed iv && negb (iv_optional iv))%bool then q == or_num (iv_fixed iv) 0
   else (if iv_optional iv then 0 else iv_minimum iv) <= q /\ q <= iv_maximum cx iv)
  /\ (iv_optional iv = true ->
        (d == 0 \/ d == 1)
        /\ if iv_is_fixed iv then q == d * or_num (iv_fixed iv) 0
           else q <= d * iv_maximum cx iv /\ d * Qmax_ (cx_eps cx) (iv_minimum iv) <= q)
  /\ q <= max_size cf iv.
Proof.
  intros cf fs idx cx iv q d C E0 M A. rewrite (max_range _ _ _ _ iv C), (cf_eps_ _ _ _ _ C). unfold allowed_size, fixed_size in A.
  unfold iv_is_fixed, iv_minimum, max_size in *. unfold Qmax_.
  assert (MX : forall a b c : Q, a <= c -> b <= c -> 1 * (if Qle_bool a b then b else a) <= c).
  { intros a b z HA HB. destruct (Qle_bool a b); lra. }
  destruct (iv_fixed iv) as [z|]; simpl in *.
  - unfold truthy, or_num in *. destruct (Qeq_bool z 0) eqn:Z; unfold or_num, truthy in *; rewrite ?Z in *; simpl in *.
    + destruct (iv_optional iv); simpl.
      * destruct A as [[A1 A2]|[A1 [A2 [A3 A4]]]].
        -- split; [rewrite A2; lra|]. split; [|lra]. intros _. split; [auto|]. rewrite A1, A2. split; [lra|]. rewrite Qmult_0_l. lra.
        -- split; [lra|]. split; [|lra]. intros _. split; [auto|]. rewrite A1. split; [lra|]. apply MX; auto.
      * split; [auto|]. split; [discriminate|]. tauto.
    + destruct (iv_optional iv); simpl.
      * destruct A as [[A1 A2]|[A1 A2]].
        -- split; [rewrite A2; lra|]. split; [|lra]. intros _. split; [auto|]. rewrite A1, A2. lra.
        -- split; [rewrite A2; lra|]. split; [|lra]. intros _. split; [auto|]. rewrite A1, A2. lra.
      * split; [auto|]. split; [discriminate|]. lra.
  - destruct (iv_optional iv); simpl.
      * destruct A as [[A1 A2]|[A1 [A2 [A3 A4]]]].
        -- split; [rewrite A2; lra|]. split; [|lra]. intros _. split; [auto|]. rewrite A1, A2. split; [lra|]. rewrite Qmult_0_l. lra.
        -- split; [lra|]. split; [|lra]. intros _. split; [auto|]. rewrite A1. split; [lra|]. apply MX; auto.
      * split; [auto|]. split; [discriminate|]. tauto.
Qed.

Lemma flow_complete : forall cf fs idx cx c f fo a b0 l u rate sfh oo_ io csum clf x b,
  ctx_for cf fs idx cx -> 0 <= cf_eps cf -> cf_eps cf < 1 ->
  flow_parts cx (flow_name c f) (effective cf fs idx c f) fo a b0 l u rate sfh oo_ io csum clf -> em_translates (fo_tree fo) ->
  sound_flow cf fs idx c f -> (forall o, governed fs idx c f = Some o -> countable_for o (prior_states cf f)) ->
  flow_allowed cf fs idx x c f b ->
  (forall y i, others_agree (flow_name c f) x y -> io = Some i -> Forall (em_sat y) (em_subs (io_tree i))) ->
  exists y, others_agree (flow_name c f) x y /\ (governed fs idx c f <> None -> forall t, on_of y c f t = q01 (b t))
    /\ (governed fs idx c f <> None -> y (oo (flow_name c f) "switchOn") = starting (was_on cf f) b) /\ em_sat y (fo_tree fo).
Proof.
  intros cf fs idx cx c f fo a b0 l u rate sfh oo_ io csum clf x b C E0 E1 P T [SD [SI SO]] K A SUB.
  pose proof (cf_ok _ _ _ _ C) as CX. set (nm := flow_name c f) in *.
  set (total := sumn (steps fs idx) (fun t => hours fs idx t * rate_of x c f t)).
  set (x' := fun s => if String.eqb s (vlabel nm "sumFlowHours") then fun _ : nat => total else x s).
  assert (Xs : x' (vlabel nm "sumFlowHours") = fun _ => total) by (unfold x'; rewrite String.eqb_refl; reflexivity).
  assert (Xo : forall s, s <> vlabel nm "sumFlowHours" -> x' s = x s).
  { intros s Hs. unfold x'. destruct (String.eqb s (vlabel nm "sumFlowHours")) eqn:E; auto. apply String.eqb_eq in E. contradiction. }
  assert (Xr : x' (vlabel nm "flow_rate") = x (vlabel nm "flow_rate")) by (apply Xo, rate_sum_ne).
  assert (Y : exists y, same_but_onoff nm x' y /\ (governed fs idx c f <> None -> forall t, on_of y c f t = q01 (b t))
               /\ (governed fs idx c f <> None -> y (oo nm "switchOn") = starting (was_on cf f) b)
               /\ (forall k, oo_ = Some k -> em_sat y (ot_tree k))).
  { pose proof (fp_oo _ _ _ _ _ _ _ _ _ _ _ _ _ _ P) as Eoo. simpl in Eoo. destruct (governed fs idx c f) as [o|] eqn:G; simpl in Eoo.
    - bnd Eoo out Eo. apply Ok_inj in Eoo. subst oo_.
      assert (TO : em_translates (ot_tree out)).
      { eapply em_translates_flat; [exact T|]. rewrite (fp_tree _ _ _ _ _ _ _ _ _ _ _ _ _ _ P). simpl. right. apply in_or_app. left. apply flat_self. }
      assert (NG : governed fs idx c f <> None) by congruence.
      destruct (flow_onoff_exists cf fs idx cx c f _ _ _ _ _ _ _ _ _ _ _ o x' b C E0 E1 P TO G) as [y [Y1 [Y2 [YW Y3]]]].
      + intros t Ht Eb. unfold rate_of. fold nm. rewrite Xr. apply (al_off _ _ _ _ _ _ _ A NG t Ht Eb).
      + intros t Ht Eb. unfold rate_of. fold nm. rewrite Xr. apply (al_on _ _ _ _ _ _ _ A NG t Ht Eb).
      + apply SO; auto.
      + apply K; auto.
      + apply (al_rules _ _ _ _ _ _ _ A o G).
      + exists y. split; auto. split; [intros _ t; unfold on_of; fold nm; fold nm in Y2; rewrite Y2; reflexivity|]. split; [intros _; exact YW|]. intros k Ek. injection Ek as <-. auto.
    - exists x'. apply Ok_inj in Eoo. subst oo_. split; [intros s _; reflexivity|]. split; [congruence|]. split; [congruence|discriminate]. }
  destruct Y as [y [Y1 [Y2 [YW Y3]]]]. exists y.
  assert (Ys : y (vlabel nm "sumFlowHours") = fun _ => total) by (rewrite Y1; [exact Xs|intros; apply sum_oo]).
  assert (Yr : y (vlabel nm "flow_rate") = x (vlabel nm "flow_rate")) by (rewrite Y1; [exact Xr|intros; apply rate_not_onoff; auto]).
  assert (Yi : forall w, y (inv nm w) = x (inv nm w)).
  { intros w. rewrite Y1; [apply Xo; intros Z; symmetry in Z; revert Z; apply sum_inv|intros; apply inv_oo]. }
  assert (OA : others_agree nm x y).
  { intros s Hs Ho. rewrite Y1 by auto. apply Xo; auto. }
  split; auto. split; auto. split; auto.
  assert (D : flow_data cx (effective cf fs idx c f)).
  { intros p m Hp Em. simpl in Hp.
    assert (FD : full_data fs p) by (destruct (f_profile f); [subst p; auto|destruct SD; destruct Hp; subst p; auto]).
    destruct (ctx_full _ _ _ _ p C FD) as [a1 [E2 L2]]. assert (a1 = m) by congruence. subst. auto. }
  assert (N : cx_n cx = steps fs idx) by apply (cf_n _ _ _ _ C).
  assert (LR : forall s, lo_size cx s = fst (size_range cf s) /\ hi_size cx s = snd (size_range cf s)) by (intros; eapply limits_range; eauto).
  assert (US : used_size y cx nm (effective cf fs idx c f) = size_of cf x c f).
  { unfold nm. rewrite (used_range cf fs idx cx y c f C). unfold size_of. destruct (sized cf c f); auto. fold nm. rewrite Yi. reflexivity. }
  assert (RN : forall t, (t < steps fs idx)%nat -> governed fs idx c f <> None -> 0 <= rate_of x c f t).
  { intros t Ht NG. destruct (b t) eqn:Eb; [destruct (al_on _ _ _ _ _ _ _ A NG t Ht Eb); lra|].
    rewrite (al_off _ _ _ _ _ _ _ A NG t Ht Eb). apply Qle_refl. }
  refine (flow_admits y cx nm _ fo a b0 l u rate sfh oo_ io csum clf CX P T D _ Y3 (fun i Hi => SUB y i OA Hi)).
  constructor; simpl.
  - intros G t Ht. rewrite N in Ht. rewrite Yr. destruct (LR (sized cf c f)) as [-> ->].
    destruct (al_plain _ _ _ _ _ _ _ A G t Ht) as [B1 B2]. unfold rel_lo, rel_hi. simpl. rewrite (cf_idx _ _ _ _ C).
    unfold rel_min, rel_max in *. unfold rate_of in *. fold nm in B1, B2. destruct (f_profile f); auto.
  - intros p G t Ht. rewrite N in Ht. rewrite Yr. apply (RN t Ht). congruence.
  - intros iv Sz. rewrite !Yi. destruct (SI iv Sz) as [M0 MT].
    destruct (size_allowed_rows cf fs idx cx iv _ _ C E0 M0 (al_size _ _ _ _ _ _ _ A iv Sz)) as [Q1 [Q2 Q3]]. fold nm in Q1, Q2, Q3.
    split; [exact Q1|]. split; [exact Q2|]. intros t Ht. rewrite N in Ht. rewrite Yr, (cf_idx _ _ _ _ C).
    pose proof (al_used _ _ _ _ _ _ _ A iv Sz t Ht) as AU. unfold size_of in AU. rewrite Sz in AU. unfold rate_of in AU. fold nm in AU.
    destruct (f_profile f) as [p|]; [exact AU|]. destruct AU as [AU1 AU2]. split; [exact AU1|].
    destruct (governed fs idx c f) as [o|] eqn:G; [|apply AU2; auto]. rewrite (max_range _ _ _ _ iv C).
    change (y (oo nm "on") t) with (on_of y c f t). rewrite Y2 by discriminate. destruct (b t) eqn:Eb; unfold q01.
    + specialize (AU2 (or_intror eq_refl)). lra.
    + destruct (MT t Ht) as [M1 M2]. assert (RT : 0 <= x (vlabel nm "flow_rate") t) by (apply (RN t Ht); congruence).
      set (q := x (inv nm "size") 0%nat) in *. set (lo := value idx (f_relmin f) t) in *. set (hi := value idx (f_relmax f) t) in *.
      assert (J1 : lo * q <= lo * max_size cf iv) by (rewrite (Qmult_comm lo q), (Qmult_comm lo (max_size cf iv)); apply Qmult_le_compat_r; auto).
      assert (J2 : lo * max_size cf iv <= hi * max_size cf iv) by (apply Qmult_le_compat_r; auto). lra.
  - rewrite Ys. unfold total. rewrite N. apply sumn_ext. intros t Ht. rewrite Yr, (cf_dt _ _ _ _ C t Ht). reflexivity.
  - intros q Hq. rewrite Ys. apply (al_total _ _ _ _ _ _ _ A); auto.
  - intros q Hq. rewrite Ys. apply (al_total _ _ _ _ _ _ _ A); auto.
  - intros q Hq. rewrite Ys, US, (cf_total _ _ _ _ C). destruct (al_total _ _ _ _ _ _ _ A) as [_ [_ [_ Z]]]. specialize (Z q Hq). fold total in Z. lra.
  - intros q Hq. rewrite Ys, US, (cf_total _ _ _ _ C). destruct (al_total _ _ _ _ _ _ _ A) as [_ [_ [Z _]]]. specialize (Z q Hq). fold total in Z. lra.
Qed.

Theorem C56_flow : forall cf ord fs idx pm bs m x c f b,
  build cf ord fs idx = Ok pm -> build_system cf ord fs idx = Ok bs -> 0 <= cf_eps cf -> cf_eps cf < 1 ->
  In c (fs_comps fs) -> In f (cp_flows c) -> declared_by bs (vlabel (flow_name c f) "flow_rate") m ->
  sound_flow cf fs idx c f -> (forall o, governed fs idx c f = Some o -> countable_for o (prior_states cf f)) ->
  (forall iv, sized cf c f = SzInv iv -> iv_seg iv = None) ->
  flow_allowed cf fs idx x c f b ->
  exists y, others_agree (flow_name c f) x y /\ (governed fs idx c f <> None -> forall t, on_of y c f t = q01 (b t)) /\ respects y m.
Proof.
  intros cf ord fs idx pm bs m x c f b H B E0 E1 Hc Hf D SF K SG A.
  destruct (flow_at _ _ _ _ _ _ _ _ H B Hc Hf) as [cx [fo [a [b0 [l [u [rate [sfh [oo_ [io [csum [clf [C [P [T [DF _]]]]]]]]]]]]]]]].
  pose proof (declared_unique _ _ _ _ _ _ _ _ _ H B D DF) as ->.
  destruct (flow_complete cf fs idx cx c f fo a b0 l u rate sfh oo_ io csum clf x b C E0 E1 P T SF K A) as [y [Y1 [Y2 [_ Y3]]]].
  - intros y i _ Ei. subst io. pose proof (fp_io _ _ _ _ _ _ _ _ _ _ _ _ _ _ P) as Eio. simpl in Eio.
    destruct (sized cf c f) as [q|iv] eqn:Sz; [discriminate|]. destruct Eio as [pr [i' [_ [Ei Ei']]]]. injection Ei' as <-.
    apply invest_model_parts in Ei. destruct Ei as [size [b1 [cs1 [cs2 [subs [_ [_ [_ [H4 [H5 _]]]]]]]]]]. rewrite H5. simpl.
    unfold invest_shares in H4. rewrite (SG iv eq_refl) in H4. bnd H4 s1 X1. bnd H4 s2 X2. bnd H4 s3 X3. apply Ok_inj in H4.
    apply pair_equal_spec in H4. destruct H4 as [_ <-]. constructor.
  - exists y. split; auto. split; auto. apply sat_respects; auto.
Qed.
Print Assumptions C56_flow.

(** ** Every flow has such a model, and so does every on/off part *)
Theorem C56_model : forall cf ord fs idx pm bs c f, build cf ord fs idx = Ok pm -> build_system cf ord fs idx = Ok bs ->
  In c (fs_comps fs) -> In f (cp_flows c) ->
  exists m, declared_by bs (vlabel (flow_name c f) "flow_rate") m
    /\ (governed fs idx c f <> None -> exists s, within m s /\ declared_by bs (oo (flow_name c f) "on") s).
Proof.
  intros cf ord fs idx pm bs c f H B Hc Hf.
  destruct (flow_at _ _ _ _ _ _ _ _ H B Hc Hf) as [cx [fo [a [b0 [l [u [rate [sfh [oo_ [io [csum [clf [C [P [T [DF DO]]]]]]]]]]]]]]]].
  exists (fo_tree fo). split; auto. intros G. pose proof (fp_oo _ _ _ _ _ _ _ _ _ _ _ _ _ _ P) as Eoo. simpl in Eoo.
  destruct (governed fs idx c f) as [o|]; [|congruence]. simpl in Eoo. bnd Eoo out Eo. apply Ok_inj in Eoo. subst oo_.
  destruct (DO out eq_refl) as [_ D]. exists (ot_tree out). split; auto. apply within_flat. rewrite (fp_tree _ _ _ _ _ _ _ _ _ _ _ _ _ _ P).
  simpl. right. apply in_or_app. left. apply flat_self.
Qed.
Print Assumptions C56_model.
Theorem C56_component_model : forall cf ord fs idx pm bs c p, build cf ord fs idx = Ok pm -> build_system cf ord fs idx = Ok bs ->
  In c (fs_comps fs) -> cp_onoff c = Some p -> exists m, declared_by bs (oo (cp_label c) "on") m.
Proof. intros cf ord fs idx pm bs c p H B Hc Hp. destruct (comp_at _ _ _ _ _ _ _ _ H B Hc Hp) as [cx [tr [fos [out [_ [_ [_ [_ D]]]]]]]]. eauto. Qed.

(** ** Non-vacuity *)
Lemma builds : forall cf ord fs idx pm, build cf ord fs idx = Ok pm -> exists bs, build_system cf ord fs idx = Ok bs.
Proof. intros cf ord fs idx pm H. unfold build in H. destruct (build_system cf ord fs idx) as [bs|]; [eauto|discriminate]. Qed.
Ltac steps3 t Ht := destruct t as [|[|[|t]]]; [| | |exfalso; vm_compute in Ht; lia].

(** A boiler of size 50 runs at 20, stops for a step and starts again with 30; it was on for an hour before. *)
Definition boiler_b (t : nat) : bool := negb (Nat.eqb t 1).
Definition boiler_x : asg := fun l t =>
  if String.eqb l "Boiler__Q_th_flow_rate" then nth t [20; 0; 30] 0 else
  if String.eqb l "Boiler__Q_th__Investment_size" then 50 else
  if String.eqb l "Boiler__Q_th__Investment_isInvested" then 1 else 0.
Lemma run_of : forall (b : nat -> bool) s t, is_run (fun t => q01 (b t)) s t -> forall i, (s <= i <= t)%nat -> b i = true.
Proof. intros b s t [_ [H _]] i Hi. specialize (H i Hi). destruct (b i); auto. discriminate. Qed.
Lemma run_from : forall (b : nat -> bool) s t, is_run (fun t => q01 (b t)) (S s) t -> b s = false.
Proof. intros b s t [_ [_ H]]. specialize (H s eq_refl). destruct (b s); auto. discriminate. Qed.
Lemma boiler_rules : onoff_rules fs0 None (prior_states default_config q_th) boiler_oo (fun t => q01 (boiler_b t)).
Proof.
  split; [intros q E; injection E as <-; vm_compute; discriminate|]. split; [intros q E; injection E as <-; vm_compute; discriminate|].
  split; [intros q E; injection E as <-; vm_compute; discriminate|].
  split; (split; [|split]).
  - intros p s t E Ht R. injection E as <-. pose proof (proj1 R) as Hs. steps3 t Ht; steps3 s Hs; vm_compute; discriminate.
  - intros p s t E Ht R Z. injection E as <-. pose proof (proj1 R) as Hs. steps3 t Ht; steps3 s Hs; try (exfalso; lia); try (vm_compute in Z; discriminate);
      try (vm_compute; discriminate); exfalso; try (specialize (run_of _ _ _ R 1%nat); vm_compute; intuition lia); vm_compute in Ht; lia.
  - intros p E. injection E as <-. reflexivity.
  - intros p s t E. discriminate.
  - intros p s t E Ht R Z. injection E as <-. pose proof (proj1 R) as Hs. steps3 t Ht; steps3 s Hs; vm_compute; try discriminate; exfalso; lia.
  - intros p E. injection E as <-. vm_compute. discriminate.
Qed.
Lemma boiler_sound : sound_flow default_config fs0 None boiler q_th.
Proof.
  split; [split; exact I|]. split.
  - intros iv E. injection E as <-. split; [vm_compute; discriminate|]. intros t Ht. split; vm_compute; discriminate.
  - intros o E _. injection E as <-. split; [|split].
    + intros t Ht. steps3 t Ht; vm_compute; discriminate.
    + intros q [<-|[]]. discriminate.
    + intros p Hp. simpl in Hp. intuition subst; try exact I; vm_compute; discriminate.
Qed.
Lemma boiler_allowed : flow_allowed default_config fs0 None boiler_x boiler q_th boiler_b.
Proof.
  constructor.
  - discriminate.
  - intros _ t Ht. steps3 t Ht; intros E; try discriminate. reflexivity.
  - intros _ t Ht. steps3 t Ht; intros E; try discriminate; repeat split; vm_compute; discriminate.
  - intros o E. injection E as <-. exact boiler_rules.
  - intros iv E. injection E as <-. right. repeat split; vm_compute; discriminate.
  - intros iv E t Ht. injection E as <-. steps3 t Ht; (split; [vm_compute; discriminate|]); intros [Q|Q]; try discriminate; vm_compute; discriminate.
  - cbv zeta. repeat split; intros q E; try discriminate; injection E as <-; vm_compute; discriminate.
Qed.
Lemma boiler_countable : countable_for boiler_oo (prior_states default_config q_th).
Proof. split; intros _; left; vm_compute; intros a b [<-|[]] [<-|[]]; reflexivity. Qed.
Example C56_applies : exists pm bs m y, build default_config id_ord fs0 None = Ok pm /\ build_system default_config id_ord fs0 None = Ok bs
  /\ declared_by bs (vlabel (flow_name boiler q_th) "flow_rate") m
  /\ others_agree (flow_name boiler q_th) boiler_x y /\ (forall t, on_of y boiler q_th t = q01 (boiler_b t)) /\ respects y m.
Proof.
  destruct x0_feasible as [pm [H _]]. destruct (builds _ _ _ _ _ H) as [bs B].
  assert (Hc : In boiler (fs_comps fs0)) by (simpl; auto). assert (Hf : In q_th (cp_flows boiler)) by (simpl; auto).
  destruct (C56_model _ _ _ _ _ _ _ _ H B Hc Hf) as [m [D _]].
  destruct (C56_flow default_config id_ord fs0 None pm bs m boiler_x boiler q_th boiler_b H B ltac:(vm_compute; discriminate) ltac:(reflexivity) Hc Hf D boiler_sound)
    as [y [Y1 [Y2 Y3]]].
  - intros o E. injection E as <-. exact boiler_countable.
  - intros iv E. injection E as <-. reflexivity.
  - exact boiler_allowed.
  - exists pm, bs, m, y. do 4 (split; [auto|]). split; [apply Y2; discriminate|auto].
Qed.
Example C16_flow_admitted_applies : exists pm bs m y, build default_config id_ord fs0 None = Ok pm /\ build_system default_config id_ord fs0 None = Ok bs
  /\ declared_by bs (oo (flow_name boiler q_th) "on") m
  /\ same_but_onoff (flow_name boiler q_th) boiler_x y /\ (forall t, on_of y boiler q_th t = q01 (boiler_b t)) /\ respects y m.
Proof.
  destruct x0_feasible as [pm [H _]]. destruct (builds _ _ _ _ _ H) as [bs B].
  assert (Hc : In boiler (fs_comps fs0)) by (simpl; auto). assert (Hf : In q_th (cp_flows boiler)) by (simpl; auto).
  destruct (C56_model _ _ _ _ _ _ _ _ H B Hc Hf) as [m0 [_ X]]. destruct X as [m [_ D]]; [discriminate|].
  assert (G : governed fs0 None boiler q_th <> None) by discriminate.
  destruct (C16_flow_admitted default_config id_ord fs0 None pm bs m boiler_x boiler q_th boiler_oo boiler_b H B ltac:(vm_compute; discriminate) ltac:(reflexivity) Hc Hf eq_refl D)
    as [y [Y1 [Y2 Y3]]].
  - exact (al_off _ _ _ _ _ _ _ boiler_allowed G).
  - exact (al_on _ _ _ _ _ _ _ boiler_allowed G).
  - exact (proj2 (proj2 boiler_sound) _ eq_refl).
  - exact boiler_countable.
  - exact boiler_rules.
  - exists pm, bs, m, y. do 5 (split; [auto|]). auto.
Qed.

(** A unit runs, rests for a step and runs again: 50 in, 25 and 10 out. *)
Definition chp_x : asg := fun l t =>
  if String.eqb l "CHP__gas_flow_rate" then nth t [50; 0; 50] 0 else
  if String.eqb l "CHP__th_flow_rate" then nth t [25; 0; 25] 0 else
  if String.eqb l "CHP__el_flow_rate" then nth t [10; 0; 10] 0 else 0.
Example C16_component_admitted_applies : exists pm bs m y, build default_config id_ord fs1 idx1 = Ok pm /\ build_system default_config id_ord fs1 idx1 = Ok bs
  /\ declared_by bs (oo "CHP" "on") m /\ same_but_onoff "CHP" chp_x y /\ (forall t, y (oo "CHP" "on") t = q01 (boiler_b t)) /\ respects y m.
Proof.
  destruct x1_feasible as [pm [H _]]. destruct (builds _ _ _ _ _ H) as [bs B].
  assert (Hc : In chp (fs_comps fs1)) by (simpl; auto).
  destruct (C56_component_model _ _ _ _ _ _ chp _ H B Hc eq_refl) as [m D].
  destruct (C16_component_admitted default_config id_ord fs1 idx1 pm bs m chp_x chp unit_oo boiler_b H B ltac:(vm_compute; discriminate) ltac:(reflexivity) Hc eq_refl D)
    as [y [Y1 [Y2 Y3]]].
  - intros t Ht. assert (T : t = 0%nat \/ t = 1%nat \/ t = 2%nat) by (vm_compute in Ht; lia). clear Ht. split; intros E.
    + assert (t = 1%nat) by (destruct T as [->|[->| ->]]; [discriminate E|reflexivity|discriminate E]). subst t.
      intros f [<-|[<-|[<-|[]]]]; vm_compute; reflexivity.
    + destruct T as [->|[->| ->]]; [|discriminate E|]; (split; [vm_compute; discriminate|]); intros f [<-|[<-|[<-|[]]]]; right; split; vm_compute; discriminate.
  - vm_compute. lia.
  - intros _. split; [intros t Ht; steps3 t Ht; vm_compute; discriminate|]. split; [intros q [<-|[]]; discriminate|].
    intros p [<-|[]]. split; [exact I|]. intros t Ht. vm_compute. discriminate.
  - split; [intros _; right; exists 1%nat, 1%nat; repeat split; auto|simpl; intuition congruence].
  - split; [intros q E; discriminate|]. split; [intros q E; injection E as <-; vm_compute; discriminate|]. split; [intros q E; discriminate|].
    split; (split; [|split]).
    + intros p s t E Ht R. injection E as <-. pose proof (proj1 R) as Hs. steps3 t Ht; steps3 s Hs; vm_compute; discriminate.
    + intros p s t E. discriminate E.
    + intros p E. discriminate E.
    + intros p s t E. discriminate E.
    + intros p s t E. discriminate E.
    + intros p E. discriminate E.
  - exists pm, bs, m, y. do 5 (split; [auto|]). auto.
Qed.
(** Default on/off parameters have no limits; a transmission with absolute losses has them. *)
Example C50_applies : governed fs1 idx1 line (set_size_ (SzInv line_inv) (flow0 60 "in1" el)) = Some default_onoff /\ no_limits default_onoff
  /\ forall t, (t < steps fs1 idx1)%nat ->
     rate_of x1 line (set_size_ (SzInv line_inv) (flow0 60 "in1" el)) t == 0
     \/ (cf_eps default_config <= rate_of x1 line (set_size_ (SzInv line_inv) (flow0 60 "in1" el)) t
         /\ within_limits default_config idx1 line (set_size_ (SzInv line_inv) (flow0 60 "in1" el)) t (rate_of x1 line (set_size_ (SzInv line_inv) (flow0 60 "in1" el)) t)).
Proof.
  split; [reflexivity|]. split; [repeat split|]. intros t Ht. steps3 t Ht; try (left; reflexivity); right; (split; [|split]); vm_compute; discriminate.
Qed.
