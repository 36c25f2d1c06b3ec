(** Flow systems with valid data keep valid data when modelling adds its defaults and when start values are handed over. *)
From Coq Require Import String Ascii Permutation.
From Verif Require Import Base BaseFacts MathModel Spec Structure Params Features Elements System SysSpec NameSpec CtxFacts NavFacts ValidSpec Tree Values Results Segmented PropsRepeat SegmentedFacts PropsSegmented TotalSystem.

(** ** What may change *)
Record flow_grown (f f' : flow) : Prop := {
  fg_look : flook f' = flook f;
  fg_limits : f_profile f' = f_profile f /\ f_relmin f' = f_relmin f /\ f_relmax f' = f_relmax f;
  fg_effects : f_effects f' = f_effects f;
  fg_onoff : f_onoff f' = f_onoff f \/ (f_onoff f = None /\ f_onoff f' = Some default_onoff);
  fg_size : f_size f' = f_size f \/ exists m, f_size f' = SzInv (mkInvest None 0 (Some m) true EVNone EVNone None EVNone)
}.
Record comp_grown (c c' : component) : Prop := {
  cg_label : cp_label c' = cp_label c;
  cg_in : Forall2 flow_grown (cp_in c) (cp_in c');
  cg_out : Forall2 flow_grown (cp_out c) (cp_out c');
  cg_onoff : cp_onoff c' = cp_onoff c;
  cg_prevent : cp_prevent c' = cp_prevent c;
  cg_kind : kind_like (cp_kind c) (cp_kind c')
}.
Definition grown (fs fs' : flow_system) : Prop := fs' = with_comps fs (fs_comps fs') /\ Forall2 comp_grown (fs_comps fs) (fs_comps fs').

Lemma flow_grown_refl : forall f, flow_grown f f.
Proof. intros f. constructor; auto. Qed.
Lemma flow_grown_trans : forall a b c, flow_grown a b -> flow_grown b c -> flow_grown a c.
Proof.
  intros a b c [A1 [A2 [A3 A4]] A5 A6 A7] [B1 [B2 [B3 B4]] B5 B6 B7]. constructor; try congruence.
  - repeat split; congruence.
  - destruct A6 as [A6|[A6 A6']], B6 as [B6|[B6 B6']]; try (left; congruence); try (right; split; congruence).
  - destruct B7 as [B7|[m B7]]; [|right; eauto]. destruct A7 as [A7|[m A7]]; [left; congruence|right; exists m; congruence].
Qed.
Lemma comp_grown_refl : forall c, comp_grown c c.
Proof. assert (R : forall l, Forall2 flow_grown l l) by (induction l; constructor; auto using flow_grown_refl). intros c. constructor; auto. apply kind_like_refl. Qed.
Lemma comp_grown_trans : forall a b c, comp_grown a b -> comp_grown b c -> comp_grown a c.
Proof.
  intros a b c [A1 A2 A3 A4 A5 A6] [B1 B2 B3 B4 B5 B6]. constructor; try congruence.
  - eapply Forall2_trans; eauto using flow_grown_trans.
  - eapply Forall2_trans; eauto using flow_grown_trans.
  - eapply kind_like_trans; eauto.
Qed.
Lemma grown_refl : forall fs, grown fs fs.
Proof. intros fs. split; [destruct fs; reflexivity|]. induction (fs_comps fs); constructor; auto using comp_grown_refl. Qed.
Lemma grown_trans : forall a b c, grown a b -> grown b c -> grown a c.
Proof.
  intros a b c [A1 A2] [B1 B2]. split; [rewrite B1; rewrite A1; reflexivity|]. eapply Forall2_trans; eauto using comp_grown_trans.
Qed.

(** ** Start values *)
Definition same_past (f f' : flow) : Prop := f_prev f' = f_prev f.
Record comp_same (c c' : component) : Prop := {
  cs_flows : Forall2 same_past (cp_flows c) (cp_flows c');
  cs_init : init_of c' = init_of c
}.
Definition comp_fresh (c : component) : Prop := (forall f, In f (cp_flows c) -> exists q, f_prev f = Some (NS q)) /\ forall i, init_of c = Some i -> exists q, i = ICNum q.
Definition fresh (fs : flow_system) : Prop := forall c, In c (fs_comps fs) -> comp_fresh c.

(** Room for one earlier state of each flow of a component. *)
Definition room (fs : flow_system) : Prop := forall c p ds, In c (fs_comps fs) -> cp_onoff c = Some p -> limits_duration p -> fs_prev_dt fs = NV ds -> (length (cp_flows c) <= length ds)%nat.

Lemma grown_flows : forall c c', comp_grown c c' -> Forall2 flow_grown (cp_flows c) (cp_flows c').
Proof. intros c c' G. apply Forall2_app; apply G. Qed.
Lemma grown_map : forall {A} (h : flow -> A), (forall f f', flow_grown f f' -> h f' = h f) -> forall l l', Forall2 flow_grown l l' -> map h l' = map h l.
Proof. intros A h H l l' F. induction F; [reflexivity|]. cbn [map]. rewrite IHF, (H _ _ H0). reflexivity. Qed.
Lemma look_parts : forall f f', flook f' = flook f -> f_id f' = f_id f /\ f_lab f' = f_lab f /\ f_bus f' = f_bus f.
Proof. intros f f' H. unfold flook in H. inversion H. auto. Qed.
Lemma grown_id : forall f f', flow_grown f f' -> f_id f' = f_id f. Proof. intros f f' G. apply (look_parts _ _ (fg_look _ _ G)). Qed.
Lemma grown_lab : forall f f', flow_grown f f' -> f_lab f' = f_lab f. Proof. intros f f' G. apply (look_parts _ _ (fg_look _ _ G)). Qed.
Lemma grown_bus : forall f f', flow_grown f f' -> f_bus f' = f_bus f. Proof. intros f f' G. apply (look_parts _ _ (fg_look _ _ G)). Qed.
Lemma F2_in : forall {A B} (R : A -> B -> Prop) l l' b, Forall2 R l l' -> In b l' -> exists a, In a l /\ R a b.
Proof. intros A B R l l' b F. induction F; intros [].  - subst. exists x. cbn; auto. - destruct (IHF H0) as [a [A1 A2]]. exists a. cbn; auto. Qed.

Lemma grown_used : forall fs fs', grown fs fs' -> forall b, used_bus fs' b -> used_bus fs b.
Proof.
  intros fs fs' [_ G] b [c' [f' [Hc [Hf <-]]]]. destruct (F2_in _ _ _ _ G Hc) as [c [Hc0 GC]]. destruct (F2_in _ _ _ _ (grown_flows _ _ GC) Hf) as [f [Hf0 GF]].
  exists c, f. repeat split; auto. symmetry. apply grown_bus. exact GF.
Qed.
Lemma grown_named : forall fs fs', grown fs fs' -> well_named fs -> well_named fs'.
Proof.
  intros fs fs' G W. pose proof (grown_used _ _ G) as U. destruct G as [E G].
  assert (TL : top_labels fs' = top_labels fs).
  { unfold top_labels. rewrite E. cbn [with_comps fs_effects fs_comps]. do 2 f_equal. clear -G. induction G; [reflexivity|]. cbn [map]. rewrite IHG, (cg_label _ _ H). reflexivity. }
  destruct W as [W1 W2 W3 W4 W5 W6]. constructor.
  - rewrite TL. exact W1.
  - intros b l Hb. rewrite TL. apply W2. auto.
  - intros b b' Hb Hb'. apply W3; auto.
  - rewrite E. exact W4.
  - intros c' Hc. destruct (F2_in _ _ _ _ G Hc) as [c [Hc0 GC]]. rewrite (cg_label _ _ GC). apply W5. exact Hc0.
  - intros c' Hc. destruct (F2_in _ _ _ _ G Hc) as [c [Hc0 GC]]. destruct (W6 _ Hc0) as [X Y]. rewrite (grown_map f_lab grown_lab _ _ (grown_flows _ _ GC)). split; [exact X|].
    intros f' l Hf. destruct (F2_in _ _ _ _ (grown_flows _ _ GC) Hf) as [f [Hf0 GF]]. rewrite (grown_lab _ _ GF). apply Y. exact Hf0.
Qed.

Section Valid.
Variables (fs fs' : flow_system) (idx : option (list nat)).
Hypothesis G : grown fs fs'.
Hypothesis S : Forall2 comp_same (fs_comps fs) (fs_comps fs') \/ (fresh fs' /\ room fs).
Hypothesis V : valid_data fs idx.

Lemma g_times : fs_times fs' = fs_times fs. Proof. destruct G as [E _]. rewrite E. reflexivity. Qed.
Lemma g_prev : fs_prev_dt fs' = fs_prev_dt fs. Proof. destruct G as [E _]. rewrite E. reflexivity. Qed.
Lemma g_effects : fs_effects fs' = fs_effects fs. Proof. destruct G as [E _]. rewrite E. reflexivity. Qed.
Lemma g_full : forall p, full_data fs p -> full_data fs' p. Proof. intros p. unfold full_data. rewrite g_times. auto. Qed.
Lemma g_fullo : forall p, full_opt fs p -> full_opt fs' p. Proof. intros p H q E. apply g_full. auto. Qed.
Lemma g_means : forall k e, means fs' k e <-> means fs k e. Proof. intros. unfold means. rewrite g_effects. reflexivity. Qed.
Lemma g_addressed : forall ks, well_addressed fs ks -> well_addressed fs' ks.
Proof.
  intros ks [A B]. split; [intros k Hk; destruct (A k Hk) as [e He]; exists e; apply g_means; exact He|].
  induction B; constructor; auto.
  - eapply Forall_impl; [|exact H]. cbv beta. intros k' H' e [X Y]. apply (H' e). split; apply g_means; assumption.
  - apply IHB. intros k Hk. apply A. right. exact Hk.
Qed.
Lemma g_values : forall v, valid_values fs v -> valid_values fs' v.
Proof. intros v [A B]. split; [apply g_addressed; exact A|]. intros k p H. apply g_full. eauto. Qed.
Lemma g_numbers : forall v, valid_numbers fs v -> valid_numbers fs' v.
Proof. intros v [A B]. split; [apply g_addressed; exact A|exact B]. Qed.
Lemma g_invest : forall iv, valid_invest fs iv -> valid_invest fs' iv.
Proof.
  intros iv [A B C D]. constructor; try (apply g_numbers; assumption). intros spts eff E. destruct (D _ _ E) as [D1 [D0 [D2 D3]]]. split; [exact D1|]. split; [exact D0|]. split; [exact D2|].
  intros i l H. destruct (D3 _ _ H) as [[e He] L]. split; [exists e; apply g_means; exact He|exact L].
Qed.
Lemma g_onoff : forall p past past', valid_onoff fs p past -> (limits_duration p -> forall ds, fs_prev_dt fs = NV ds -> (states_read past' <= length ds)%nat) -> valid_onoff fs' p past'.
Proof.
  intros p past past' [A B [C1 C2] [D1 D2] E] H. constructor; try (apply g_values; assumption).
  - split; apply g_fullo; assumption.
  - split; apply g_fullo; assumption.
  - rewrite g_prev. exact H.
Qed.
Lemma no_values : valid_values fs' EVNone. Proof. split; [split; [intros k []|constructor]|intros k p []]. Qed.
Lemma no_numbers : valid_numbers fs' EVNone. Proof. split; [split; [intros k []|constructor]|intros k p []]. Qed.
Lemma default_valid : forall past, valid_onoff fs' default_onoff past.
Proof.
  intros past. constructor; cbn; try exact no_values; try (split; intros q E; discriminate E).
  intros [H|[H|[H|H]]]; exfalso; apply H; reflexivity.
Qed.
Lemma optional_valid : forall m, valid_invest fs' (mkInvest None 0 (Some m) true EVNone EVNone None EVNone).
Proof. intros m. constructor; cbn; try exact no_numbers. intros spts eff E. discriminate E. Qed.

Lemma one_read : forall f, one_kind (given_past [f]) -> (1 <= states_read (given_past [f]))%nat.
Proof.
  intros f. unfold given_past. cbn [flat_map]. destruct (f_prev f) as [[q|q]|]; cbn [app states_read length]; try lia.
  intros [H|[k [K H]]]; inversion H as [|? ? [z Z] _]; subst; [discriminate Z|]. destruct Z as [Z L]. inversion Z. subst. exact K.
Qed.
Lemma g_flow : forall f f', flow_grown f f' -> (f_prev f' = f_prev f \/ exists q, f_prev f' = Some (NS q)) -> valid_flow fs f -> valid_flow fs' f'.
Proof.
  intros f f' GF P [[A1 [A2 A3]] B C D E]. destruct (fg_limits _ _ GF) as [L1 [L2 L3]].
  assert (R : forall p, f_onoff f = Some p -> limits_duration p -> forall ds, fs_prev_dt fs = NV ds -> (states_read (given_past [f']) <= length ds)%nat).
  { intros p Ep Lp ds Eds. pose proof (vo_past _ _ _ (D p Ep) Lp ds Eds) as X. destruct P as [P|[q P]].
    - unfold given_past in *. cbn [flat_map] in *. rewrite P. exact X.
    - pose proof (one_read f C). unfold given_past at 1. cbn [flat_map]. rewrite P. cbn. lia. }
  constructor.
  - rewrite L1, L2, L3. split; [apply g_fullo; exact A1|]. split; apply g_full; assumption.
  - rewrite (fg_effects _ _ GF). apply g_values. exact B.
  - destruct P as [P|[q P]].
    + unfold given_past in *. cbn [flat_map] in *. rewrite P. exact C.
    + left. unfold given_past. cbn [flat_map]. rewrite P. cbn. constructor; [eauto|constructor].
  - intros p Ep. destruct (fg_onoff _ _ GF) as [O|[O1 O2]].
    + rewrite O in Ep. eapply g_onoff; [exact (D p Ep)|exact (R p Ep)].
    + rewrite O2 in Ep. inversion Ep. subst p. apply default_valid.
  - intros iv Ei. destruct (fg_size _ _ GF) as [Z|[m Z]].
    + rewrite Z in Ei. apply g_invest. apply E. exact Ei.
    + rewrite Z in Ei. inversion Ei. subst iv. apply optional_valid.
Qed.

Lemma same_given : forall l l', Forall2 same_past l l' -> given_past l' = given_past l.
Proof. intros l l' H. induction H as [|f f' l l' P _ IH]; [reflexivity|]. unfold given_past in *. cbn [flat_map]. rewrite IH. unfold same_past in P. rewrite P. reflexivity. Qed.
Lemma fresh_given : forall l, (forall f, In f l -> exists q, f_prev f = Some (NS q)) -> Forall (fun a => exists q, a = NS q) (given_past l) /\ length (given_past l) = length l.
Proof.
  induction l as [|f l IH]; intros H; [split; [constructor|reflexivity]|]. destruct (IH (fun g Hg => H g (or_intror Hg))) as [A B]. destruct (H f (or_introl eq_refl)) as [q Q].
  unfold given_past in *. cbn [flat_map]. rewrite Q. cbn [app length]. split; [constructor; eauto|congruence].
Qed.
Lemma numbers_read : forall l, Forall (fun a => exists q, a = NS q) l -> (states_read l <= Nat.max 1 (length l))%nat.
Proof. intros l H. destruct H as [|a l [q ->] _]; cbn; lia. Qed.

Lemma g_any_loss : forall p, any_loss fs' idx p = any_loss fs idx p.
Proof. intros p. unfold any_loss. replace (steps fs' idx) with (steps fs idx); [reflexivity|]. unfold steps. rewrite g_times. reflexivity. Qed.
Lemma g_governed : forall c c' f f', comp_grown c c' -> flow_grown f f' -> governed fs idx c f <> None -> governed fs' idx c' f' <> None.
Proof.
  intros c c' f f' GC GF H. unfold governed in *. destruct (f_onoff f') eqn:O'; [discriminate|].
  destruct (fg_onoff _ _ GF) as [O|[O1 O2]]; [|congruence]. rewrite O' in O. rewrite <- O in H.
  replace (induced fs' idx c' f') with (induced fs idx c f); [exact H|]. unfold induced. rewrite (cg_onoff _ _ GC), (cg_prevent _ _ GC), (grown_id _ _ GF). f_equal.
  pose proof (cg_kind _ _ GC) as K. destruct (cp_kind c) as [ | | |s|r [p|]]; cbn in K; try (rewrite K; try rewrite g_any_loss; reflexivity). destruct K as [i K]. rewrite K. reflexivity.
Qed.

Lemma g_comp : forall c c', In c (fs_comps fs) -> comp_grown c c' -> comp_same c c' \/ (comp_fresh c' /\ room fs) -> valid_comp fs' idx c'.
Proof.
  intros c c' Hc GC SC. destruct (vd_comps _ _ V c Hc) as [A B C D]. pose proof (grown_flows _ _ GC) as GF.
  assert (PF : Forall2 (fun f f' => flow_grown f f' /\ (f_prev f' = f_prev f \/ exists q, f_prev f' = Some (NS q))) (cp_flows c) (cp_flows c')).
  { destruct SC as [SC|[[FR _] _]].
    - assert (SP : Forall2 same_past (cp_flows c) (cp_flows c')) by apply SC. clear -GF SP. induction GF; constructor; inversion SP; subst; auto.
    - clear -GF FR. revert FR. generalize (cp_flows c'), (cp_flows c), GF. clear. intros l' l F. induction F as [|f f' l l' H F IH]; intros H1; constructor.
      + split; [exact H|]. right. apply H1. left. reflexivity.
      + apply IH. intros g Hg. apply H1. right. exact Hg. }
  constructor.
  - intros f' Hf'. destruct (F2_in _ _ _ _ PF Hf') as [f [Hf [X Y]]]. eapply g_flow; eauto.
  - intros p Ep. rewrite (cg_onoff _ _ GC) in Ep. destruct (B p Ep) as [NE [OK VO]]. split; [|split].
    + intros Z. apply NE. rewrite Z in GF. inversion GF. reflexivity.
    + destruct SC as [SC|[[FR _] _]].
      * rewrite (same_given (cp_flows c) (cp_flows c')); [exact OK|apply SC].
      * left. apply fresh_given. exact FR.
    + eapply g_onoff; [exact VO|]. intros LD ds Eds. destruct SC as [SC|[[FR _] RO]].
      * rewrite (same_given (cp_flows c) (cp_flows c')); [exact (vo_past _ _ _ VO LD ds Eds)|apply SC].
      * destruct (fresh_given _ FR) as [FA FL]. pose proof (numbers_read _ FA) as NR. rewrite FL in NR.
        pose proof (RO c p ds Hc Ep LD Eds) as RL. assert (LL : length (cp_flows c') = length (cp_flows c)) by (clear -GF; induction GF; cbn; congruence).
        destruct (cp_flows c) as [|f0 l0] eqn:EF; [congruence|]. cbn [length] in *. lia.
  - rewrite (cg_prevent _ _ GC). destruct C as [C|[C1 C2]]; [left; exact C|right]. split; [exact C1|]. intros i Hi. destruct (C2 i Hi) as [f [Hf <-]].
    assert (X : In (f_id f) (map f_id (cp_flows c'))) by (rewrite (grown_map f_id grown_id _ _ GF); apply in_map; exact Hf). apply in_map_iff in X. destruct X as [f' [X1 X2]]. eauto.
  - pose proof (cg_kind _ _ GC) as K. pose proof (cg_in _ _ GC) as GI. pose proof (cg_out _ _ GC) as GO. unfold valid_kind in *. destruct (cp_kind c) as [ |fss|segs|s|rel abs] eqn:KC; cbn in K.
    + rewrite K. exact Logic.I.
    + rewrite K. destruct D as [D1 [D2 D3]]. split; [exact D1|]. split; [intros d k p H1 H2; apply g_full; eapply D2; eauto|].
      intros d H. destruct (D3 d H) as [f [p [Hf Hp]]].
      assert (X : In (f_id f) (map f_id (cp_flows c'))) by (rewrite (grown_map f_id grown_id _ _ GF); apply in_map; exact Hf). apply in_map_iff in X. destruct X as [f' [X1 X2]]. exists f', p. rewrite X1. split; assumption.
    + rewrite K. destruct D as [D1 [D2 [k [D0 D3]]]]. split; [intros Z; apply D1; rewrite Z in GF; inversion GF; reflexivity|]. split; [exact D2|]. exists k. split; [exact D0|]. intros f' Hf'.
      destruct (F2_in _ _ _ _ GF Hf') as [f [Hf X]]. destruct (D3 f Hf) as [s [S1 [S2 S3]]]. exists s. rewrite (grown_id _ _ X). split; [exact S1|]. split; [exact S2|].
      intros p q H. destruct (S3 p q H). split; apply g_full; assumption.
    + destruct K as [i K]. rewrite K. destruct D as [[[D1 D1'] [D2 [D3 D4]] D5 D6 D7] [ch [dis [E1 E2]]]]. split.
      * constructor; cbn [with_init st_relmin st_relmax st_eta_c st_eta_d st_loss st_init st_cap].
        -- unfold charge_data in *. rewrite g_times. split; assumption.
        -- repeat split; apply g_full; assumption.
        -- exact D5.
        -- destruct SC as [SC|[[_ FR] _]].
           ++ pose proof (cs_init _ _ SC) as I0. unfold init_of in I0. rewrite K, KC in I0. cbn in I0. inversion I0. congruence.
           ++ destruct (FR i) as [q ->]; [|discriminate]. unfold init_of. rewrite K. reflexivity.
        -- intros iv Ei. apply g_invest. apply D7. exact Ei.
      * rewrite E1 in GI. rewrite E2 in GO. inversion GI as [|? ? ? ? _ GI']; subst. inversion GI'; subst. inversion GO as [|? ? ? ? _ GO']; subst. inversion GO'; subst. eauto.
    + rewrite K. destruct D as [D1 [D2 [D3 D4]]]. split; [apply g_fullo; exact D1|]. split; [apply g_fullo; exact D2|]. split.
      * destruct D3 as [[i [o [E1 E2]]]|[i [i' [o [o' [E1 E2]]]]]]; rewrite E1 in GI; rewrite E2 in GO.
        -- left. inversion GI as [|? ? ? ? _ GI']; subst. inversion GI'; subst. inversion GO as [|? ? ? ? _ GO']; subst. inversion GO'; subst. eauto.
        -- right. inversion GI as [|? ? ? ? _ GI']; subst. inversion GI' as [|? ? ? ? _ GI2]; subst. inversion GI2; subst.
           inversion GO as [|? ? ? ? _ GO']; subst. inversion GO' as [|? ? ? ? _ GO2]; subst. inversion GO2; subst. eauto 8.
      * intros NA f' Hf'. destruct (F2_in _ _ _ _ GI Hf') as [f [Hf X]]. eapply g_governed; eauto.
Qed.

Lemma grown_valid : valid_data fs' idx.
Proof.
  pose proof V as [A B C D E F H I]. destruct G as [EG GC]. constructor.
  - unfold steps in *. rewrite g_times. exact A.
  - rewrite g_times. exact B.
  - replace (map f_id (flat_map cp_flows (fs_comps fs'))) with (map f_id (flat_map cp_flows (fs_comps fs))); [exact C|].
    clear -GC. induction GC as [|c c' l l' X _ IH]; [reflexivity|]. cbn [flat_map]. rewrite !map_app, IH, (grown_map f_id grown_id _ _ (grown_flows _ _ X)). reflexivity.
  - rewrite g_effects. exact D.
  - rewrite g_effects. intros e He. destruct (E e He) as [[X1 X2] [Y1 Y2] [Z1 Z2]]. constructor.
    + split; apply g_fullo; assumption.
    + split; [exact Y1|]. intros k p K. destruct (Y2 k p K) as [[e' M] P]. split; [exists e'; apply g_means; exact M|apply g_full; exact P].
    + split; [exact Z1|]. intros k a K. destruct (Z2 k a K) as [[e' M] P]. split; [exists e'; apply g_means; exact M|exact P].
  - rewrite g_effects. exact F.
  - intros c' Hc'. destruct S as [SS|[FR RM]].
    + assert (X : Forall2 (fun c c' => comp_grown c c' /\ comp_same c c') (fs_comps fs) (fs_comps fs')) by (clear -GC SS; induction GC; constructor; inversion SS; subst; auto).
      destruct (F2_in _ _ _ _ X Hc') as [c [Hc [Y Z]]]. apply (g_comp c c' Hc Y). left. exact Z.
    + destruct (F2_in _ _ _ _ GC Hc') as [c [Hc Y]]. apply (g_comp c c' Hc Y). right. split; [apply FR; exact Hc'|exact RM].
  - intros b Hb. apply g_fullo. apply I. apply (grown_used fs fs' G). exact Hb.
Qed.
End Valid.

(** ** Modelling and hand-over *)
Lemma eff_grown : forall nz cf c f, flow_grown f (eff_ nz cf c f).
Proof.
  intros nz cf c f. constructor; try reflexivity.
  - repeat split; reflexivity.
  - cbn. destruct (f_onoff f); [left; reflexivity|]. destruct (ind nz c f); [right; split; reflexivity|left; reflexivity].
  - cbn. unfold sized. destruct (cp_kind c); auto. destruct (cp_in c) as [|a [|b l]]; auto. destruct (Nat.eqb (f_id f) (f_id b)); auto. destruct (f_size a); auto. destruct (f_size b); auto. right. eauto.
Qed.
Lemma F2_map : forall {A B} (R : A -> B -> Prop) h l, (forall a, R a (h a)) -> Forall2 R l (map h l).
Proof. intros A B R h l H. induction l; cbn [map]; constructor; auto. Qed.
Lemma defaulted_grown : forall cf ord fs idx c, NoDup (map f_id (cp_flows c)) -> comp_grown c (defaulted cf ord fs idx c) /\ comp_same c (defaulted cf ord fs idx c).
Proof.
  assert (R : forall l, Forall2 same_past l l) by (induction l; constructor; auto; reflexivity).
  assert (RF : forall c, comp_grown c c /\ comp_same c c) by (intros c; split; [apply comp_grown_refl|constructor; auto]).
  intros cf ord fs idx c ND. unfold defaulted. destruct (make_ctx cf ord fs idx) as [cx|] eqn:E; [|auto]. destruct (prepared cx (visible_comp fs (cp_label c)) c) as [c'|] eqn:P; [|auto].
  destruct (make_ctx_spec _ _ _ _ _ E) as [_ [_ [_ [_ [_ [_ [_ [BG _]]]]]]]]. destruct (prepared_spec cf cx _ c c' BG ND P) as [nz [-> _]].
  split; constructor; cbn; try reflexivity.
  - apply F2_map. apply eff_grown.
  - apply F2_map. apply eff_grown.
  - apply kind_like_refl.
  - unfold cp_flows. cbn. rewrite <- map_app. apply F2_map. reflexivity.
Qed.
Lemma after_grown : forall cf ord fs idx, (forall c, In c (fs_comps fs) -> NoDup (map f_id (cp_flows c))) ->
  grown fs (after_modeling cf ord fs idx) /\ Forall2 comp_same (fs_comps fs) (fs_comps (after_modeling cf ord fs idx)).
Proof.
  assert (RS : forall l, Forall2 same_past l l) by (induction l; constructor; auto; reflexivity).
  intros cf ord fs idx ND. unfold after_modeling. set (k := comps_reached cf ord fs idx).
  assert (X : Forall2 (fun c c' => comp_grown c c' /\ comp_same c c') (fs_comps fs) (map (defaulted cf ord fs idx) (firstn k (fs_comps fs)) ++ skipn k (fs_comps fs))).
  { rewrite <- (firstn_skipn k (fs_comps fs)) at 1. apply Forall2_app.
    - assert (N1 : forall c, In c (firstn k (fs_comps fs)) -> NoDup (map f_id (cp_flows c))) by (intros c H; apply ND; rewrite <- (firstn_skipn k (fs_comps fs)); apply in_or_app; left; exact H).
      clear -N1. induction (firstn k (fs_comps fs)) as [|c l IH]; cbn [map]; constructor; [apply defaulted_grown; apply N1; left; reflexivity|apply IH; intros; apply N1; right; assumption].
    - induction (skipn k (fs_comps fs)) as [|c l IH]; constructor; [|exact IH]. split; [apply comp_grown_refl|]. constructor; auto. }
  cbn [with_comps fs_comps]. split; [split; [reflexivity|]|]; cbn [with_comps fs_comps]; clear -X; induction X as [|c c' l l' [H1 H2] _ IH]; constructor; auto.
Qed.
Lemma starts_grown : forall p i c, comp_grown c (with_starts p i c).
Proof.
  intros p i c. constructor; cbn; try reflexivity.
  - apply F2_map. intros f. constructor; cbn; auto.
  - apply F2_map. intros f. constructor; cbn; auto.
  - destruct (cp_kind c); cbn; eauto.
Qed.
Lemma transfer_ok : forall g n x fs, (2 <= n)%nat -> (1 + sg_over g <= n)%nat -> exists fs', transfer g n x fs = Ok fs' /\ grown fs fs' /\ fresh fs'.
Proof.
  intros g n x fs N O. unfold transfer, from_end.
  replace (Nat.ltb 1 n) with true by (symmetry; apply Nat.ltb_lt; lia). replace (Nat.leb (1 + sg_over g) n) with true by (symmetry; apply Nat.leb_le; lia).
  replace (Nat.ltb 1 (n + 1)) with true by (symmetry; apply Nat.ltb_lt; lia). replace (Nat.leb (1 + sg_over g) (n + 1)) with true by (symmetry; apply Nat.leb_le; lia). cbn [andb bind].
  assert (X : exists cs, mapM (fun c => Ok (with_starts (fun f => Some (NS (x (vlabel (flow_full (cp_label c) (f_lab f)) "flow_rate") (n - (1 + sg_over g))%nat)))
     (ICNum (x (vlabel (cp_label c) "charge_state") (n + 1 - (1 + sg_over g))%nat)) c)) (fs_comps fs) = Ok cs /\ Forall2 comp_grown (fs_comps fs) cs /\ forall c, In c cs -> comp_fresh c).
  { induction (fs_comps fs) as [|c l [cs [E [F G]]]]; [exists []; split; [reflexivity|]; split; [constructor|intros c []]|]. cbn [mapM bind]. rewrite E. cbn [bind]. eexists. split; [reflexivity|]. split; [constructor; [apply starts_grown|exact F]|].
    intros c' [<-|H]; [|auto]. split.
    - intros f Hf. unfold cp_flows in Hf. cbn in Hf. rewrite <- map_app in Hf. apply in_map_iff in Hf. destruct Hf as [f0 [<- _]]. cbn. eauto.
    - intros i. unfold init_of. cbn. destruct (cp_kind c); try discriminate. cbn. intros E'. inversion E'. eauto. }
  destruct X as [cs [E [F G]]]. rewrite E. cbn [bind]. eexists. split; [reflexivity|]. split; [split; [reflexivity|exact F]|exact G].
Qed.

Lemma fresh_same : forall fs fs', Forall2 comp_same (fs_comps fs) (fs_comps fs') -> fresh fs -> fresh fs'.
Proof.
  intros fs fs' S FR c' Hc'. destruct (F2_in _ _ _ _ S Hc') as [c [Hc [SP S3]]]. destruct (FR c Hc) as [X Y]. split.
  - intros f' Hf'. destruct (F2_in _ _ _ _ SP Hf') as [f [Hf P]]. rewrite P. apply X. exact Hf.
  - intros i Hi. apply Y. congruence.
Qed.
Lemma same_trans : forall l m n, Forall2 comp_same l m -> Forall2 comp_same m n -> Forall2 comp_same l n.
Proof.
  assert (P : forall l m n, Forall2 same_past l m -> Forall2 same_past m n -> Forall2 same_past l n) by (intros; eapply Forall2_trans; eauto; unfold same_past; congruence).
  intros. eapply Forall2_trans; eauto. intros a b c [A1 A3] [B1 B3]. constructor; eauto. congruence.
Qed.
Lemma same_refl : forall l, Forall2 comp_same l l.
Proof. assert (RS : forall l, Forall2 same_past l l) by (induction l; constructor; auto; reflexivity). induction l; constructor; auto. constructor; auto. Qed.
Lemma restored_same : forall fs fs', restored fs fs' -> Forall2 comp_same (fs_comps fs) (fs_comps fs').
Proof.
  intros fs fs' R. unfold restored in R. induction R as [|c c' l l' [_ [H1 H2]] _ IH]; constructor; auto. constructor; [|exact H1].
  clear -H2. revert H2. generalize (cp_flows c) as m. induction (cp_flows c') as [|f' l' IH]; intros [|f m] H; try discriminate; constructor.
  - inversion H. unfold same_past. assumption.
  - apply IH. inversion H. reflexivity.
Qed.

(** ** Accepting *)
Lemma comp_nodup : forall fs idx, valid_data fs idx -> forall c, In c (fs_comps fs) -> NoDup (map f_id (cp_flows c)).
Proof. intros fs idx V c Hc. exact (NoDup_flat_map_part _ _ _ c (vd_flows _ _ V) Hc). Qed.
Lemma grown_nodup : forall fs fs', grown fs fs' -> (forall c, In c (fs_comps fs) -> NoDup (map f_id (cp_flows c))) -> forall c, In c (fs_comps fs') -> NoDup (map f_id (cp_flows c)).
Proof. intros fs fs' [_ G] H c' Hc'. destruct (F2_in _ _ _ _ G Hc') as [c [Hc GC]]. rewrite (grown_map f_id grown_id _ _ (grown_flows _ _ GC)). auto. Qed.
