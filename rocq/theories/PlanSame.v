(** The rules speak about the quantities of a plan only: the same plan obeys the same rules. *)
From Coq Require Import String Ascii.
From Verif Require Import Base BaseFacts MathModel Spec MathFacts Structure Params Features Elements Library System SysSpec
  AdmitSpec CtxFacts ReadTools NavFacts CompFacts PropsFlow PropsOnOff PropsAdmits PropsComp PropsEffects PlanSpec PlanPieces PlanComp.

Lemma same_plan_sym : forall cf fs idx x y, same_plan cf fs idx x y -> same_plan cf fs idx y x.
Proof.
  intros cf fs idx x y [A B C D E F G H]. constructor.
  - intros. symmetry. auto.
  - intros c f t Hc Hf Hg Ht. destruct (B c f t Hc Hf Hg Ht) as [B1 B2]. split; symmetry; auto.
  - intros c t Hc Hg Ht. destruct (C c t Hc Hg Ht) as [B1 B2]. split; symmetry; auto.
  - intros name iv Hi. destruct (D name iv Hi) as [D1 [D2 D3]]. split; [symmetry; auto|]. split; [intros O; symmetry; auto|].
    intros spts eff i l e Hs Hin He Ei. symmetry. eapply D3; eauto.
  - intros c s t Hc Hk Ht. symmetry. eapply E; eauto.
  - intros b t Ub Ht. destruct (F b t Ub Ht) as [B1 B2]. split; symmetry; auto.
  - intros e He. destruct (G e He) as [G1 [G2 [G3 G4]]]. split; [intros; symmetry; auto|]. repeat split; symmetry; auto.
  - symmetry. auto.
Qed.

Section Parts.
Context (cf : config) (fs : flow_system) (idx : option (list nat)) (x y : asg).
Hypothesis SP : same_parts cf fs idx x y.
Hypothesis N1 : (1 <= steps fs idx)%nat.
Notation n := (steps fs idx).

Lemma marks_same : forall e was, (forall t, (t < n)%nat -> y (oo e "on") t == x (oo e "on") t /\ y (oo e "switchOn") t == x (oo e "switchOn") t) ->
  onoff_marks x e was n -> onoff_marks y e was n.
Proof.
  intros e was E M t Ht. destruct (M t Ht) as [M1 [M2 M3]]. destruct (E t Ht) as [E1 E2].
  assert (EB : before was (y (oo e "on")) t == before was (x (oo e "on")) t).
  { destruct t as [|k]; [reflexivity|]. simpl. apply E. lia. }
  rewrite E1, E2, EB. auto.
Qed.

Lemma size_same : forall c f, In c (fs_comps fs) -> In f (cp_flows c) -> size_of cf y c f == size_of cf x c f.
Proof.
  intros c f Hc Hf. unfold size_of. destruct (sized cf c f) as [q|iv] eqn:E; [reflexivity|].
  apply (pp_size _ _ _ _ _ SP (flow_name c f) iv). unfold investments. apply in_flat_map. exists c. split; auto. apply in_app_iff. left.
  apply in_flat_map. exists f. split; auto. unfold flow_investment. rewrite E. simpl. auto.
Qed.
Lemma allowed_same : forall iv s s' d d', s' == s -> (iv_optional iv = true -> d' == d) -> allowed_size cf iv s d -> allowed_size cf iv s' d'.
Proof.
  intros iv s s' d d' Es Ed. unfold allowed_size. destruct (fixed_size iv), (iv_optional iv); try rewrite Es; auto;
    try (specialize (Ed eq_refl); rewrite Ed); auto.
Qed.
Lemma flow_same : forall c f, In c (fs_comps fs) -> In f (cp_flows c) -> flow_rule cf fs idx x c f -> flow_rule cf fs idx y c f.
Proof.
  intros c f Hc Hf [A M].
  assert (R : forall t, (t < n)%nat -> rate_of y c f t == rate_of x c f t) by (intros; apply (pp_rate _ _ _ _ _ SP); auto).
  assert (S : size_of cf y c f == size_of cf x c f) by (apply size_same; auto).
  assert (RU : governed fs idx c f <> None -> forall t, (t < n)%nat -> runs y c f t = runs x c f t).
  { intros G t Ht. unfold runs. apply Qeq_bool_ext. apply (pp_on _ _ _ _ _ SP); auto. }
  split.
  2:{ intros G. apply marks_same; auto. intros t Ht. apply (pp_on _ _ _ _ _ SP); auto. }
  destruct A as [A1 A2 A3 A4 A5 A6 A7]. constructor.
  - intros G t Ht. unfold within_limits in *. rewrite (R t Ht). auto.
  - intros G t Ht Z. rewrite (RU G t Ht) in Z. rewrite (R t Ht). auto.
  - intros G t Ht Z. rewrite (RU G t Ht) in Z. destruct (A3 G t Ht Z) as [B1 B2]. unfold within_limits in *. rewrite (R t Ht). auto.
  - intros o G. eapply onoff_rules_ext; [exact N1| |apply (A4 o G)]. intros t Ht. cbv beta. rewrite (RU ltac:(rewrite G; discriminate) t Ht). reflexivity.
  - intros iv Si. destruct (pp_size _ _ _ _ _ SP (flow_name c f) iv) as [S1 [S2 _]].
    { unfold investments. apply in_flat_map. exists c. split; auto. apply in_app_iff. left.
      apply in_flat_map. exists f. split; auto. unfold flow_investment. rewrite Si. simpl. auto. }
    eapply allowed_same; [exact S1|exact S2|]. auto.
  - intros iv Si t Ht. specialize (A6 iv Si t Ht). destruct (f_profile f) as [p|].
    + rewrite S, (R t Ht). exact A6.
    + destruct A6 as [B1 B2]. rewrite S, (R t Ht). split; auto. intros [G|Z]; [apply B2; auto|].
      destruct (governed fs idx c f) eqn:G; [|apply B2; auto]. apply B2. right. rewrite <- RU; auto. discriminate.
  - assert (T : sumn n (fun t => hours fs idx t * rate_of y c f t) == sumn n (fun t => hours fs idx t * rate_of x c f t)).
    { apply sumn_ext. intros t Ht. rewrite (R t Ht). reflexivity. }
    cbv zeta in *. destruct A7 as [B1 [B2 [B3 B4]]]. repeat split; intros q Hq; rewrite ?T, ?S; auto.
Qed.

Lemma running_same : forall c p, In c (fs_comps fs) -> cp_onoff c = Some p -> running_rule cf fs idx x c p -> running_rule cf fs idx y c p.
Proof.
  intros c p Hc Hp [M [Z R]].
  assert (O : forall t, (t < n)%nat -> y (oo (cp_label c) "on") t == x (oo (cp_label c) "on") t /\ y (oo (cp_label c) "switchOn") t == x (oo (cp_label c) "switchOn") t).
  { intros t Ht. apply (pp_running _ _ _ _ _ SP); auto. congruence. }
  split; [apply marks_same; auto|]. split.
  - intros t Ht. rewrite (proj1 (O t Ht)). rewrite (Z t Ht). split; intros A f Hf; [rewrite (pp_rate _ _ _ _ _ SP) by auto|rewrite <- (pp_rate _ _ _ _ _ SP) by auto]; auto.
  - eapply onoff_rules_ext; [exact N1| |exact R]. intros t Ht. symmetry. apply O. auto.
Qed.

Lemma weighted_same : forall c factors fl t, In c (fs_comps fs) -> incl fl (cp_flows c) -> (t < n)%nat -> weighted idx y c factors fl t == weighted idx x c factors fl t.
Proof.
  intros c factors fl t Hc I Ht. unfold weighted. apply Qsum_map_eq. intros f Hf. destruct (factor_of factors f); [|reflexivity].
  rewrite (pp_rate _ _ _ _ _ SP) by auto. reflexivity.
Qed.

Lemma capacity_same : forall c s, In c (fs_comps fs) -> cp_kind c = StorageC s -> capacity y c s == capacity x c s.
Proof.
  intros c s Hc Hk. unfold capacity. destruct (st_cap s) as [q|iv] eqn:E; [reflexivity|].
  apply (pp_size _ _ _ _ _ SP (cp_label c) iv). unfold investments. apply in_flat_map. exists c. split; auto. apply in_app_iff. right.
  unfold storage_investment. rewrite Hk, E. simpl. auto.
Qed.

(** Absolute losses are only possible with on/off behaviour of the inputs. *)
Hypothesis TG : forall c rel p f, In c (fs_comps fs) -> cp_kind c = TransmissionC rel (Some p) -> In f (cp_in c) -> governed fs idx c f <> None.

Lemma carries_same : forall c rel abs i o, In c (fs_comps fs) -> cp_kind c = TransmissionC rel abs -> In i (cp_in c) -> In o (cp_flows c) ->
  carries fs idx x c rel abs i o -> carries fs idx y c rel abs i o.
Proof.
  intros c rel abs i o Hc Hk Hi Ho C t Ht. assert (Hi' : In i (cp_flows c)) by (unfold cp_flows; apply in_app_iff; auto).
  rewrite !(pp_rate _ _ _ _ _ SP) by auto. rewrite (C t Ht). destruct abs as [p|]; [|reflexivity].
  rewrite (proj1 (pp_on _ _ _ _ _ SP c i t Hc Hi' (TG _ _ _ _ Hc Hk Hi) Ht)). reflexivity.
Qed.

Lemma own_same : forall c, In c (fs_comps fs) -> own_rule cf fs idx x c -> own_rule cf fs idx y c.
Proof.
  intros c Hc R. unfold own_rule in *. destruct (cp_kind c) as [|eqs|segs|s|rel abs] eqn:K.
  - exact I.
  - intros factors t Hf Ht. rewrite !weighted_same; auto; unfold cp_flows; intros f Hin; apply in_app_iff; auto.
  - intros t Ht. destruct (R t Ht) as [[k [w [W0 [W1 [P O]]]]]|[G [O Z]]].
    + left. exists k, w. split; auto. split; auto. split.
      * intros f Hf. destruct (P f Hf) as [ab [Hab Q]]. exists ab. split; auto. unfold on_piece in *. rewrite (pp_rate _ _ _ _ _ SP) by auto. exact Q.
      * intros G. rewrite (proj1 (pp_running _ _ _ _ _ SP c t Hc G Ht)). auto.
    + right. split; auto. split; [rewrite (proj1 (pp_running _ _ _ _ _ SP c t Hc G Ht)); auto|]. intros f Hf. rewrite (pp_rate _ _ _ _ _ SP) by auto. auto.
  - intros ch dis Ei Eo. destruct (R ch dis Ei Eo) as [R1 [R2 [R3 [R4 [R5 [R6 R7]]]]]].
    assert (CH : forall t, (t <= n)%nat -> charge y c t == charge x c t) by (intros t Ht; apply (pp_charge _ _ _ _ _ SP c s); auto).
    assert (Hch : In ch (cp_flows c)) by (unfold cp_flows; rewrite Ei; simpl; auto).
    assert (Hdis : In dis (cp_flows c)) by (unfold cp_flows; rewrite Ei, Eo; simpl; auto).
    split; [|split; [|split; [|split; [|split; [|split]]]]].
    + intros t Ht. destruct (R1 t Ht) as [A B]. split; auto. rewrite !CH by lia. rewrite !(pp_rate _ _ _ _ _ SP) by auto. exact B.
    + intros t Ht. rewrite (CH t Ht), (capacity_same c s Hc K). apply (R2 t Ht).
    + intros iv Hiv. destruct (pp_size _ _ _ _ _ SP (cp_label c) iv) as [S1 [S2 _]].
      { unfold investments. apply in_flat_map. exists c. split; auto. apply in_app_iff. right. unfold storage_investment. rewrite K, Hiv. simpl. auto. }
      eapply allowed_same; [exact S1|exact S2|]. auto.
    + intros q Hq. rewrite CH by lia. auto.
    + intros Z. rewrite !CH by lia. auto.
    + intros Z q Hq. rewrite CH by lia. auto.
    + intros Z q Hq. rewrite CH by lia. auto.
  - intros in1 out1 in2 out2 Ei Eo. destruct (R in1 out1 in2 out2 Ei Eo) as [R1 R2]. 
    assert (H1 : In in1 (cp_in c)) by (rewrite Ei; simpl; auto). assert (O1 : In out1 (cp_flows c)) by (unfold cp_flows; rewrite Eo; apply in_app_iff; simpl; auto).
    split; [eapply carries_same; eauto|]. destruct in2 as [i2|]; auto. destruct out2 as [o2|]; auto. destruct R2 as [R2 R3].
    assert (H2 : In i2 (cp_in c)) by (rewrite Ei; simpl; auto). assert (O2 : In o2 (cp_flows c)) by (unfold cp_flows; rewrite Eo; apply in_app_iff; simpl; auto).
    split; [eapply carries_same; eauto|]. intros iv Hiv. rewrite !size_same; auto; try (unfold cp_flows; apply in_app_iff; auto). eapply R3; eauto.
Qed.

Lemma segments_same : forall name iv, In (name, iv) (investments cf fs) -> segments_rule fs x name iv -> segments_rule fs y name iv.
Proof.
  intros name iv Hi R spts eff Hs. destruct (pp_size _ _ _ _ _ SP name iv Hi) as [S1 [S2 S3]]. cbv zeta.
  destruct (R spts eff Hs) as [[k [w [W0 [W1 [P [Q O]]]]]]|[O [Z [S Q]]]].
  - left. exists k, w. split; auto. split; auto. split; [destruct P as [a [b [P1 P2]]]; exists a, b; rewrite S1; auto|]. split.
    + intros i l e Hin He Ei. destruct (Q i l e Hin He Ei) as [a [b [P1 P2]]]. exists a, b. split; auto. rewrite (S3 _ _ _ _ _ Hs Hin He Ei). auto.
    + intros Ho. rewrite (S2 Ho). auto.
  - right. split; auto. rewrite (S2 O), S1. split; auto. split; auto. intros i l e Hin He Ei. rewrite (S3 _ _ _ _ _ Hs Hin He Ei). eauto.
Qed.

Lemma bus_same : forall b, used_bus fs b -> bus_rule fs idx x b -> bus_rule fs idx y b.
Proof.
  intros b Ub R t Ht. destruct (R t Ht) as [R1 [R2 R3]]. destruct (pp_excess _ _ _ _ _ SP b t Ub Ht) as [E1 E2].
  assert (D : delivered fs y b t == delivered fs x b t).
  { apply Qsum_map_eq. intros c Hc. apply Qsum_map_eq. intros f Hf. apply filter_In in Hf. apply (pp_rate _ _ _ _ _ SP); auto. unfold cp_flows. apply in_app_iff. tauto. }
  assert (T : taken fs y b t == taken fs x b t).
  { apply Qsum_map_eq. intros c Hc. apply Qsum_map_eq. intros f Hf. apply filter_In in Hf. apply (pp_rate _ _ _ _ _ SP); auto. unfold cp_flows. apply in_app_iff. tauto. }
  rewrite D, T, E1, E2. auto.
Qed.

Lemma costs_same : forall c e t, In c (fs_comps fs) -> (t < n)%nat -> comp_costs fs idx y c e t == comp_costs fs idx x c e t.
Proof.
  intros c e t Hc Ht. unfold comp_costs. apply Qplus_comp.
  - apply Qsum_map_eq. intros f Hf. unfold flow_costs. rewrite (pp_rate _ _ _ _ _ SP) by auto. destruct (governed fs idx c f) as [p|] eqn:G; [|reflexivity].
    unfold onoff_costs. assert (G' : governed fs idx c f <> None) by congruence. destruct (pp_on _ _ _ _ _ SP c f t Hc Hf G' Ht) as [O1 O2].
    unfold on_of in O1. rewrite O1, O2. reflexivity.
  - destruct (cp_onoff c) as [p|] eqn:P; [|reflexivity]. assert (P' : cp_onoff c <> None) by congruence. destruct (pp_running _ _ _ _ _ SP c t Hc P' Ht) as [O1 O2].
    unfold onoff_costs. rewrite O1, O2. reflexivity.
Qed.
Lemma icosts_same : forall name iv e, In (name, iv) (investments cf fs) -> In e (fs_effects fs) -> invest_costs fs y name iv e == invest_costs fs x name iv e.
Proof.
  intros name iv e Hi He. destruct (pp_size _ _ _ _ _ SP name iv Hi) as [S1 [S2 S3]].
  assert (M : made y name iv == made x name iv) by (unfold made; destruct (iv_optional iv); [auto|reflexivity]).
  assert (G : seg_costs y name iv e == seg_costs x name iv e).
  { unfold seg_costs. destruct (iv_seg iv) as [[spts eff]|] eqn:Es; [|reflexivity]. apply Qsum_map_eq. intros [i l] Hin. cbn [fst].
    destruct (Nat.eqb i (e_id e)) eqn:Ei; [|reflexivity]. apply Nat.eqb_eq in Ei. eapply S3; eauto. }
  unfold invest_costs. rewrite M, S1, G. reflexivity.
Qed.
Lemma exclusion_same : forall c, In c (fs_comps fs) -> exclusion_rule fs idx x c -> exclusion_rule fs idx y c.
Proof. intros c Hc R f g t Hf Hg D Pf Pg Ht. rewrite !(pp_rate _ _ _ _ _ SP) by auto. eapply R; eauto. Qed.
Lemma price_same : forall b, used_bus fs b -> bus_price fs idx y b == bus_price fs idx x b.
Proof.
  intros b Ub. unfold bus_price. destruct (b_penalty b); [|reflexivity].
  apply sumn_ext. intros t Ht. destruct (pp_excess _ _ _ _ _ SP b t Ub Ht) as [E1 E2]. rewrite E1, E2. reflexivity.
Qed.
End Parts.

Lemma same_plan_parts : forall cf fs idx x y, same_plan cf fs idx x y -> same_parts cf fs idx x y.
Proof. intros cf fs idx x y [A B C D E F G H]. constructor; assumption. Qed.
Lemma same_parts_sym : forall cf fs idx x y, same_parts cf fs idx x y -> same_parts cf fs idx y x.
Proof.
  intros cf fs idx x y [A B C D E F]. constructor.
  - intros. symmetry. auto.
  - intros c f t Hc Hf Hg Ht. destruct (B c f t Hc Hf Hg Ht) as [B1 B2]. split; symmetry; auto.
  - intros c t Hc Hg Ht. destruct (C c t Hc Hg Ht) as [B1 B2]. split; symmetry; auto.
  - intros name iv Hi. destruct (D name iv Hi) as [D1 [D2 D3]]. split; [symmetry; auto|]. split; [intros O; symmetry; auto|].
    intros spts eff i l e Hs Hin He Ei. symmetry. eapply D3; eauto.
  - intros c s t Hc Hk Ht. symmetry. eapply E; eauto.
  - intros b t Ub Ht. destruct (F b t Ub Ht) as [B1 B2]. split; symmetry; auto.
Qed.

Section Same.
Context (cf : config) (fs : flow_system) (idx : option (list nat)) (x y : asg).
Hypothesis SP : same_plan cf fs idx x y.
Hypothesis N1 : (1 <= steps fs idx)%nat.
Notation n := (steps fs idx).
Hypothesis TG : forall c rel p f, In c (fs_comps fs) -> cp_kind c = TransmissionC rel (Some p) -> In f (cp_in c) -> governed fs idx c f <> None.
Let PP : same_parts cf fs idx x y := same_plan_parts _ _ _ _ _ SP.

Lemma effect_same : forall e, In e (fs_effects fs) -> effect_rule cf fs idx x e -> effect_rule cf fs idx y e.
Proof.
  intros e He [R1 [R2 [R3 [R4 [R5 [R6 [R7 [R8 [R9 [R10 R11]]]]]]]]]]. destruct (sp_effect _ _ _ _ _ SP e He) as [E1 [E2 [E3 E4]]].
  assert (L : forall o a b, a == b -> at_least o b -> at_least o a) by (intros o a b Eab A l Hl; rewrite Eab; auto).
  assert (M : forall o a b, a == b -> at_most o b -> at_most o a) by (intros o a b Eab A l Hl; rewrite Eab; auto).
  assert (ES : op_sum y e + inv_sum y e == op_sum x e + inv_sum x e) by (rewrite E2, E3; reflexivity).
  split; [|split; [|split; [|split]]].
  - intros t Ht. rewrite (E1 t Ht), (R1 t Ht). apply Qplus_comp; [apply Qsum_map_eq; intros c Hc; symmetry; apply (costs_same cf fs idx x y PP); auto|].
    unfold op_from_effects. apply Qsum_map_eq. intros e' He'. apply Qsum_map_eq. intros [k p] _. cbn [fst snd]. destruct (Nat.eqb k (e_id e)); [|reflexivity].
    rewrite (proj1 (sp_effect _ _ _ _ _ SP e' He') t Ht). reflexivity.
  - rewrite E2, R2. apply sumn_ext. intros t Ht. symmetry. auto.
  - rewrite E3, R3. apply Qplus_comp; [apply Qsum_map_eq; intros [name iv] Hi; symmetry; apply (icosts_same cf fs idx x y PP); auto|].
    unfold inv_from_effects. apply Qsum_map_eq. intros e' He'. apply Qsum_map_eq. intros [k p] _. cbn [fst snd]. destruct (Nat.eqb k (e_id e)); [|reflexivity].
    destruct (sp_effect _ _ _ _ _ SP e' He') as [_ [_ [Z _]]]. rewrite Z. reflexivity.
  - rewrite E2, E3, E4. auto.
  - do 6 (split; [eauto|]). intros t Ht. destruct (R11 t Ht). split; eauto.
Qed.

Theorem obeys_same : obeys cf fs idx x -> obeys cf fs idx y.
Proof.
  intros [O1 O2 O3 O4 O5 O6 O7 O8]. constructor.
  - intros. apply (flow_same cf fs idx x y PP); auto.
  - intros. apply (running_same cf fs idx x y PP); auto.
  - intros. apply (exclusion_same cf fs idx x y PP); auto.
  - intros. apply (own_same cf fs idx x y PP); auto.
  - intros. apply (segments_same cf fs idx x y PP); auto.
  - intros. apply (bus_same cf fs idx x y PP); auto.
  - intros. apply effect_same; auto.
  - intros bl ND U. rewrite (sp_penalty _ _ _ _ _ SP), (O8 bl ND U). apply Qsum_map_eq. intros b Hb. symmetry. apply (price_same cf fs idx x y PP). apply U. exact Hb.
Qed.
End Same.

(** In a system whose program has a solution, the inputs of a transmission with absolute losses have on/off behaviour. *)
Lemma losses_governed : forall cf ord fs idx pm x, build cf ord fs idx = Ok pm -> feasible pm x -> well_formed fs ->
  forall c rel p f, In c (fs_comps fs) -> cp_kind c = TransmissionC rel (Some p) -> In f (cp_in c) -> governed fs idx c f <> None.
Proof.
  intros cf ord fs idx pm x H F WF c rel p f Hc K Hf. destruct (WF c Hc) as [_ SH]. rewrite K in SH.
  destruct (own_laws _ _ _ _ _ _ _ H F Hc) as [cx [tr [fos [on [so [CF [OR [FF [OM [S1 [S2 [S3 ON]]]]]]]]]]]].
  clear OR. unfold own_model in OM. rewrite K in OM. bnd OM k Ek. fin OM. simpl in S2.
  destruct (transmission_spec _ _ _ _ x _ _ _ _ _ _ CF FF Ek S2) as [[i1 [o1 [E1 [E2 D1]]]] [D2 SZ]].
  destruct SH as [label [in1 [out1 [in2 [out2 [oo_ [prevent ->]]]]]]]. cbn in Hf, E1, E2. injection E1 as <-.
  destruct Hf as [<-|Hf]; [apply D1; discriminate|]. destruct in2 as [i2|]; [|destruct Hf]. destruct Hf as [<-|[]].
  destruct (D2 i2 eq_refl) as [o2 [_ D]]. apply D. discriminate.
Qed.
