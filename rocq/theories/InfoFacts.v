(** Every variable the library creates knows whether it is a time series, and no part of a model is called "_self". *)
From Coq Require Import Ascii.
From Verif Require Import Base BaseFacts MathModel Structure StructureFacts Params Features Elements System SysSpec CtxFacts ReadTools
     InvestFacts OnOffFacts FlowFacts NavFacts SegFacts BusFacts ShareFacts EffectFacts PropsEffects Tree PropsTree Values Results ResultFacts Infos.

Definition ranged (v : variable) : Prop := v_ts v = Nat.ltb 1 (v_len v).
(** [K]: whether names are looked at. *)
Inductive shaped (K : Prop) : emodel -> Prop :=
| shaped_intro : forall f l vs cs subs, Forall ranged vs -> (forall s, In s subs -> (K -> em_label s <> "_self"%string) /\ shaped K s) -> shaped K (EM f l vs cs subs).

Section Shaped.
Variable K : Prop.

Lemma shaped_leaf : forall f l vs cs, Forall ranged vs -> shaped K (EM f l vs cs []).
Proof. intros. constructor; [assumption|intros s []]. Qed.
Lemma created_ranged : forall model label len bin fixed lb ub prev v, create_variable model label len bin fixed lb ub prev = Ok v -> ranged v.
Proof. intros model label len bin fixed lb ub prev v H. apply create_variable_spec in H. subst v. reflexivity. Qed.
Ltac ranges := repeat match goal with
  | |- Forall ranged [] => constructor
  | H : create_variable _ _ _ _ _ _ _ _ = Ok ?v |- Forall ranged (?v :: _) => constructor; [exact (created_ranged _ _ _ _ _ _ _ _ _ H)|]
  end.

Lemma shaped_segment : forall elem len i o, segment_model elem len i = Ok o -> shaped K (sg_tree o).
Proof.
  intros elem len i o H. unfold segment_model in H. bnd H s Es. bnd H l0 E0. bnd H l1 E1. bnd H c Ec. bnd H m Em. fin H. cbn [sg_tree].
  apply mk_em_spec in Em. destruct Em as [-> _]. apply shaped_leaf. ranges.
Qed.
Lemma shaped_multi : forall elem len pts outside m, multi_segments elem len pts outside = Ok m -> shaped K m.
Proof.
  intros elem len pts outside m H. unfold multi_segments in H. bnd H nseg En. bnd H segs Es. bnd H eqs Ee. bnd H sg Esg.
  apply mk_em_spec in H. destruct H as [-> _]. constructor; [constructor|]. intros s Hs. apply in_map_iff in Hs. destruct Hs as [o [<- Ho]].
  destruct (mapM_In_inv _ _ _ _ Es Ho) as [i [_ E]]. split; [|eapply shaped_segment; exact E].
  destruct (tidy_segment _ _ _ _ E) as [_ ->]. intros _. unfold cat. cbn [fold_right append]. discriminate.
Qed.
Lemma shaped_segmented_shares : forall cx elem size spts eff outside m shs,
  segmented_shares cx elem size spts eff outside = Ok (m, shs) -> shaped K m.
Proof.
  intros cx elem size spts eff outside m shs H. unfold segmented_shares in H. bnd H u Eu. bnd H vs Evs. bnd H ms Ems. bnd H sh Esh.
  bnd H mm Em. apply Ok_inj, pair_equal_spec in H. destruct H as [<- _]. apply mk_em_spec in Em. destruct Em as [-> _]. constructor.
  - rewrite Forall_forall. intros w Hw. apply in_map_iff in Hw. destruct Hw as [t [<- Ht]].
    destruct (mapM_In_inv _ _ _ _ Evs Ht) as [[i l] [_ E]]. cbv beta iota in E. bnd E lab El. bnd E v Ev. fin E. cbn [fst snd].
    eapply created_ranged; exact Ev.
  - intros s [<-|[]]. destruct (tidy_multi _ _ _ _ _ Ems) as [_ ->]. split; [intros _; discriminate|eapply shaped_multi; exact Ems].
Qed.
Lemma shaped_invest : forall cx tr elem iv dv a b pr on o, invest_model cx tr elem iv dv a b pr on = Ok o -> shaped K (io_tree o).
Proof.
  intros cx tr elem iv dv a b pr on o H. unfold invest_model in H. bnd H size Es. bnd H io Ei. destruct io as [inv cs1]. bnd H cs2 Ec.
  bnd H sh Esh. destruct sh as [shs subs]. bnd H m Em. fin H. cbn [io_tree]. apply mk_em_spec in Em. destruct Em as [-> _]. constructor.
  - constructor.
    + unfold invest_size in Es. destruct (_ && _)%bool; eapply created_ranged; exact Es.
    + unfold invest_optional in Ei. destruct (iv_optional iv); [|apply Ok_inj, pair_equal_spec in Ei; destruct Ei as [<- _]; constructor].
      bnd Ei v Ev. apply created_ranged in Ev.
      destruct (iv_is_fixed iv); [bnd Ei c Ecc|bnd Ei c1 Ec1; bnd Ei c2 Ec2]; apply Ok_inj, pair_equal_spec in Ei; destruct Ei as [<- _]; repeat constructor; exact Ev.
  - unfold invest_shares in Esh. bnd Esh s1 E1. bnd Esh s2 E2. bnd Esh s3 E3. destruct (iv_seg iv) as [[spts eff]|].
    + bnd Esh mm Emm. destruct mm as [m4 s4]. apply Ok_inj, pair_equal_spec in Esh. destruct Esh as [_ <-]. intros s [<-|[]].
      destruct (tidy_segmented_shares _ _ _ _ _ _ _ _ Emm) as [_ ->]. split; [intros _; discriminate|eapply shaped_segmented_shares; exact Emm].
    + apply Ok_inj, pair_equal_spec in Esh. destruct Esh as [_ <-]. intros s [].
Qed.
Lemma duration_ranged : forall cx tr full label b mn mx d, duration_model cx tr full label b mn mx = Ok d -> ranged (du_var d).
Proof.
  intros cx tr full label b mn mx d H. unfold duration_model in H. bnd H pv Epv. bnd H pv' Epv'. bnd H prev Eprev. bnd H mx' Emx.
  bnd H hh Ehh. bnd H dv Edv. bnd H c1 E1. bnd H c2a E2. bnd H c2b E3. bnd H cmin E4. bnd H dt0 E5. bnd H cf Ecf. fin H. cbn [du_var].
  eapply created_ranged; exact Edv.
Qed.
Lemma shaped_onoff : forall cx tr elem p vars bounds o, onoff_model cx tr elem p vars bounds = Ok o -> shaped K (ot_tree o).
Proof.
  intros cx tr elem p vars bounds o H. unfold onoff_model in H.
  bnd H bounds' Eb. bnd H u1 Elen. bnd H prev_on Ep0. bnd H on Eon. bnd H tot Etot. bnd H ctot Ectot. bnd H con Econ.
  bnd H vo Evo. destruct vo as [voff coff]. bnd H vd1 Ed1. destruct vd1 as [v1 k1]. bnd H vd2 Ed2. destruct vd2 as [v2 k2].
  bnd H vs3 Es3. destruct vs3 as [[v3 k3] sw]. bnd H sh1 Esh1. bnd H sh2 Esh2. bnd H m Em. fin H. cbn [ot_tree].
  apply mk_em_spec in Em. destruct Em as [-> _]. apply shaped_leaf. rewrite !Forall_app. repeat split.
  - ranges.
  - destruct (use_off p); [|apply Ok_inj, pair_equal_spec in Evo; destruct Evo as [<- _]; constructor].
    bnd Evo off Eoff. bnd Evo c Ec. apply Ok_inj, pair_equal_spec in Evo. destruct Evo as [<- _]. ranges.
  - destruct (use_con p); [|apply Ok_inj, pair_equal_spec in Ed1; destruct Ed1 as [<- _]; constructor].
    bnd Ed1 du Edu. apply Ok_inj, pair_equal_spec in Ed1. destruct Ed1 as [<- _].
    constructor; [eapply duration_ranged; exact Edu|constructor].
  - destruct (use_coff p); [|apply Ok_inj, pair_equal_spec in Ed2; destruct Ed2 as [<- _]; constructor].
    bnd Ed2 off Eoff. bnd Ed2 du Edu. apply Ok_inj, pair_equal_spec in Ed2. destruct Ed2 as [<- _].
    constructor; [eapply duration_ranged; exact Edu|constructor].
  - destruct (use_switch_on p); [|apply Ok_inj, pair_equal_spec in Es3; destruct Es3 as [Es3 _]; apply pair_equal_spec in Es3; destruct Es3 as [<- _]; constructor].
    bnd Es3 son Eson. bnd Es3 soff Esoff. bnd Es3 nr Enr. bnd Es3 u2 Ets. bnd Es3 ks Eks.
    apply Ok_inj, pair_equal_spec in Es3; destruct Es3 as [Es3 _]; apply pair_equal_spec in Es3; destruct Es3 as [<- _]. ranges.
Qed.
Lemma shaped_prevent : forall elem vars m, prevent_model elem vars = Ok m -> shaped K m.
Proof.
  intros elem vars m H. unfold prevent_model in H. bnd H u1 E1. bnd H u2 E2. bnd H c Ec. apply mk_em_spec in H. destruct H as [-> _].
  apply shaped_leaf. constructor.
Qed.
Lemma shaped_flow : forall cx tr comp f o, flow_model cx tr comp f = Ok o -> shaped K (fo_tree o).
Proof.
  intros cx tr comp f o H. unfold flow_model in H. bnd H rl Erl. bnd H ab Eab. bnd H rate Erate. bnd H oo_ Eoo. bnd H io Eio. bnd H sfh Esfh.
  bnd H cs Ecs. bnd H clf Eclf. bnd H s Es. bnd H m Em. fin H. cbn [fo_tree]. apply mk_em_spec in Em. destruct Em as [-> _]. constructor; [ranges|].
  intros s0 Hs. apply in_app_or in Hs. destruct Hs as [Hs|Hs].
  - destruct oo_ as [t|]; [|destruct Hs]. destruct Hs as [<-|[]]. destruct (f_onoff f) as [p|]; cbn [optM] in Eoo; [|discriminate]. bnd Eoo t' Et.
    apply Ok_inj in Eoo. apply (f_equal (fun o => match o with Some a => a | None => t end)) in Eoo. cbn in Eoo. subst t'.
    destruct (tidy_onoff _ _ _ _ _ _ _ Et) as [_ [-> _]]. split; [intros _; discriminate|eapply shaped_onoff; exact Et].
  - destruct io as [i|]; [|destruct Hs]. destruct Hs as [<-|[]]. destruct (f_size f) as [q|iv]; [discriminate|]. bnd Eio pr Epr. bnd Eio i' Ei. apply Ok_inj in Eio.
    apply (f_equal (fun o => match o with Some a => a | None => i end)) in Eio. cbn in Eio. subst i'.
    destruct (tidy_invest _ _ _ _ _ _ _ _ _ _ Ei) as [_ [-> _]]. split; [intros _; discriminate|eapply shaped_invest; exact Ei].
Qed.
Lemma shaped_own : forall cx tr c fos on so, own_model cx tr c fos on = Ok so ->
  Forall ranged (so_vars so) /\ forall s, In s (so_subs so) -> (K -> em_label s <> "_self"%string) /\ shaped K s.
Proof.
  intros cx tr c fos on so H. unfold own_model in H. destruct (cp_kind c).
  - fin H. split; [constructor|intros s []].
  - bnd H k Ek. fin H. split; [constructor|intros s []].
  - bnd H m Em. fin H. split; [constructor|]. intros s [<-|[]]. unfold segmented_model in Em. bnd Em pts Ep.
    destruct (tidy_multi _ _ _ _ _ Em) as [_ ->]. split; [intros _; discriminate|eapply shaped_multi; exact Em].
  - bnd H ch Ech. bnd H dis Edis. unfold storage_model in H. bnd H rl Erl. bnd H ru Eru. destruct (cap_limits cx (st_cap s)) as [lo hi].
    bnd H lb Elb. bnd H ub Eub. bnd H cs Ecs. bnd H nd End. bnd H ceq Eceq. bnd H loss Eloss. bnd H ec Eec. bnd H ed Eed. bnd H f1 Ef1.
    bnd H f2 Ef2. bnd H iv_ Einv. bnd H f3 Ef3. bnd H bal Ebal. bnd H io Eio. bnd H ends Eends. fin H. cbn [so_vars so_subs]. split; [ranges|].
    destruct (st_cap s) as [q|iv]; [apply Ok_inj in Eio; subst io; intros k []|]. bnd Eio i Ei. apply Ok_inj in Eio. subst io.
    intros k [<-|[]]. destruct (tidy_invest _ _ _ _ _ _ _ _ _ _ Ei) as [_ [-> _]]. split; [intros _; discriminate|eapply shaped_invest; exact Ei].
  - bnd H k Ek. fin H. split; [constructor|intros s []].
Qed.
Lemma shaped_comp : forall cx tr c g o oo_ pm so, comp_parts cx tr c g o oo_ pm so -> (forall f, f_lab (g f) = f_lab f) ->
  (K -> forall f, In f (cp_flows c) -> f_lab f <> "_self"%string) -> shaped K (co_tree o).
Proof.
  intros cx tr c g o oo_ pm so P G R. rewrite (pa_tree _ _ _ _ _ _ _ _ P).
  destruct (shaped_own _ _ _ _ _ _ (pa_own _ _ _ _ _ _ _ _ P)) as [V S]. constructor; [exact V|].
  intros s H. rewrite !in_app_iff in H. destruct H as [[H|[H|H]]|H]; [| | |exact (S s H)].
  - apply in_map_iff in H. destruct H as [fo [<- H]]. destruct (Forall2_In_r _ _ _ _ (pa_flows _ _ _ _ _ _ _ _ P) H) as [f [If F]].
    split; [|eapply shaped_flow; exact F]. intros k. rewrite (fn_label _ _ (tidy_flow _ _ _ _ _ F)), G. auto.
  - pose proof (pa_oo _ _ _ _ _ _ _ _ P) as O. destruct (cp_onoff c) as [p|]; cbn [optM] in O; [|fin O; destruct H].
    bnd O t Et. fin O. destruct H as [<-|[]]. destruct (tidy_onoff _ _ _ _ _ _ _ Et) as [_ [-> _]]. split; [intros _; discriminate|eapply shaped_onoff; exact Et].
  - pose proof (pa_pm _ _ _ _ _ _ _ _ P) as O. destruct (cp_prevent c); [subst pm; destruct H|]. destruct O as [ons [m [_ [O ->]]]].
    destruct H as [<-|[]]. destruct (tidy_prevent _ _ _ O) as [_ ->]. split; [intros _; discriminate|eapply shaped_prevent; exact O].
Qed.
Lemma shaped_bus : forall cx b i o bo, bus_model cx b i o = Ok bo -> shaped K (fst bo).
Proof.
  intros cx b i o bo H. unfold bus_model in H. destruct (b_penalty b) as [p|].
  - bnd H a Ea. bnd H pen Epen. bnd H ei Eei. bnd H eo Eeo. bnd H c Ec. bnd H m Em. fin H. apply mk_em_spec in Em. destruct Em as [-> _].
    apply shaped_leaf. ranges.
  - bnd H c Ec. bnd H m Em. fin H. apply mk_em_spec in Em. destruct Em as [-> _]. apply shaped_leaf. constructor.
Qed.

Lemma shaped_single : forall elem sh o, single_share elem sh = Ok o -> shaped K (ss_tree o).
Proof.
  intros elem sh o H. unfold single_share in H. bnd H u Eu. bnd H sv Esv. bnd H c Ec. bnd H m Em. fin H. cbn [ss_tree].
  apply mk_em_spec in Em. destruct Em as [-> _]. apply shaped_leaf. constructor; [|constructor]. clear -Esv.
  destruct (_ || _)%bool.
  - unfold mk_variable in Esv. apply Ok_inj in Esv. subst sv. reflexivity.
  - destruct (sh_var sh) as [v|]; [|discriminate]. unfold mk_variable_ts, assert_ in Esv.
    destruct (Nat.ltb 1 (v_len v)) eqn:L; [|discriminate]. cbn in Esv. apply Ok_inj in Esv. subst sv. unfold ranged. cbn [v_ts v_len]. rewrite L. reflexivity.
Qed.
Lemma share_not_self : forall sh, share_name_ok sh -> sh_name sh <> "_self"%string.
Proof. intros sh [_ [_ [_ H]]] E. apply H. rewrite E. reflexivity. Qed.
Lemma shaped_alloc : forall cx elem label ts tmin tmax phmin phmax shs o, share_alloc cx elem label ts tmin tmax phmin phmax shs = Ok o ->
  Forall share_name_ok shs -> shaped K (sa_tree o).
Proof.
  intros cx elem label ts tmin tmax phmin phmax shs o H F. unfold share_alloc in H. bnd H u Eu. bnd H s Es. bnd H st Est. bnd H singles Esi.
  bnd H u2 Eu2. bnd H csum Ecs. bnd H cts Ects. bnd H m Em. fin H. cbn [sa_tree]. apply mk_em_spec in Em. destruct Em as [-> _].
  constructor.
  - constructor; [unfold alloc_sum in Es; eapply created_ranged; exact Es|]. destruct ts; [|apply Ok_inj in Est; subst st; constructor].
    bnd Est v Ev. apply Ok_inj in Est. subst st. unfold alloc_ts in Ev. bnd Ev lb Elb. bnd Ev ub Eub. ranges.
  - intros k Hk. apply in_map_iff in Hk. destruct Hk as [[sh so] [<- Ho]]. destruct (mapM_In_inv _ _ _ _ Esi Ho) as [sh' [Hs E]].
    bnd E o Eo. apply Ok_inj, pair_equal_spec in E. destruct E as [-> ->]. cbn [snd]. rewrite Forall_forall in F. specialize (F sh Hs).
    destruct (tidy_single _ _ _ Eo (proj1 F)) as [_ ->]. split; [intros _; apply share_not_self; exact F|eapply shaped_single; exact Eo].
Qed.
Lemma shaped_effect : forall cx tre shs e m, effect_model cx tre shs e = Ok m -> Forall share_name_ok shs -> shaped K m.
Proof.
  intros cx tre shs e m H F. unfold effect_model in H. bnd H a Ea. bnd H b Eb. bnd H iv_ Ei. bnd H op Eo. bnd H al Eal.
  apply mk_em_spec in H. destruct H as [-> _].
  destruct (tidy_alloc _ _ _ _ _ _ _ _ _ _ Ei (Forall_filter _ _ _ F)) as [_ [L1 _]].
  destruct (tidy_alloc _ _ _ _ _ _ _ _ _ _ Eo (Forall_filter _ _ _ F)) as [_ [L2 _]].
  assert (F3 : Forall share_name_ok [mkShare TPen "operation" (Some (sa_sum op)) (NS 1) false; mkShare TPen "invest" (Some (sa_sum iv_)) (NS 1) false])
    by (repeat constructor; cbv; discriminate).
  destruct (tidy_alloc _ _ _ _ _ _ _ _ _ _ Eal F3) as [_ [L3 _]].
  constructor; [constructor|].
  intros s [<-|[<-|[<-|[]]]]; rewrite ?L1, ?L2, ?L3; (split; [intros _; discriminate|]); eapply shaped_alloc; try eassumption; apply Forall_filter; exact F.
Qed.
Lemma shaped_effects : forall cx tre shs em obj, effects_model cx tre shs = Ok (em, obj) -> Forall share_name_ok shs ->
  (K -> ~ In "_self"%string (map e_label (cx_effects cx))) -> shaped K em.
Proof.
  intros cx tre shs em obj H F P. unfold effects_model in H. bnd H bo Ebo. bnd H bi Ebi. bnd H ms Ems. bnd H pen Epen. bnd H oe Eoe.
  bnd H vo Evo. bnd H vi Evi. bnd H ob Eob. bnd H root Er. apply Ok_inj, pair_equal_spec in H. destruct H as [<- _].
  apply mk_em_spec in Er. destruct Er as [-> _].
  assert (A : Forall share_name_ok (List.concat bo ++ List.concat bi ++ shs)).
  { rewrite !Forall_app. repeat split; [| |exact F].
    - apply mapM_Forall2 in Ebo. clear -Ebo. induction Ebo as [| a b la lb H _ IH]; [constructor|]. cbn [List.concat]. apply Forall_app. split; [|exact IH].
      unfold between_op in H. apply mapM_Forall2 in H. clear -H. induction H as [| x y lx ly H _ IH]; constructor; [|exact IH].
      bnd H u Eu. bnd H v Ev. bnd H d Ed. fin H. apply cat2_ok. sfx.
    - apply mapM_Forall2 in Ebi. clear -Ebi. induction Ebi as [| a b la lb H _ IH]; [constructor|]. cbn [List.concat]. apply Forall_app. split; [|exact IH].
      unfold between_inv in H. apply mapM_Forall2 in H. clear -H. induction H as [| x y lx ly H _ IH]; constructor; [|exact IH].
      bnd H u Eu. bnd H v Ev. fin H. apply cat2_ok. sfx. }
  constructor; [constructor|]. intros s H. apply in_app_or in H. destruct H as [H|[<-|[]]].
  - destruct (mapM_In_inv _ _ _ _ Ems H) as [e [He E]]. split; [|eapply shaped_effect; [exact E|exact A]].
    destruct (tidy_effect _ _ _ _ _ E A) as [_ ->]. intros k C. apply (P k). rewrite <- C. apply in_map. exact He.
  - destruct (tidy_alloc _ _ _ _ _ _ _ _ _ _ Epen (Forall_filter _ _ _ A)) as [_ [-> _]]. split; [intros _; discriminate|].
    eapply shaped_alloc; [exact Epen|apply Forall_filter; exact A].
Qed.
End Shaped.
