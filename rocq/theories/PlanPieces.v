(** The parts of a program, each completed from a plan that obeys the rules. *)
From Coq Require Import String Ascii.
From Verif Require Import Base BaseFacts MathModel Spec MathFacts MathTotal Structure StructureFacts Params Features Elements Library System SysSpec
  AdmitSpec CtxFacts ReadTools InvestFacts OnOffFacts OnOffLaws OnOffAdmits FlowFacts NavFacts FlowAdmits ResultFacts AdmitFacts InvestAdmits SegFacts SegAdmits
  ClosedFacts GlueFacts ShareAdmits EffectFacts AdmitNav PropsFlow PropsOnOff PropsAdmits PropsComp PropsEffects PlanSpec SegWitness.

Lemma unique_label : forall (l : list variable) a b, NoDup (map v_label l) -> In a l -> In b l -> v_label a = v_label b -> a = b.
Proof.
  induction l as [|c l IH]; intros a b N Ha Hb E; [destruct Ha|]. simpl in N. inversion N as [|? ? N1 N2]; subst.
  destruct Ha as [<-|Ha], Hb as [<-|Hb]; auto.
  - exfalso. apply N1. rewrite E. apply in_map; auto.
  - exfalso. apply N1. rewrite <- E. apply in_map; auto.
Qed.

(** ** Variables that shares refer to *)
Lemma emit_shv : forall cx tgt elem name vals fac var l, emit cx tgt elem name vals fac var = Ok l -> incl (shv l) (ovar var).
Proof.
  intros cx tgt elem name vals fac var l H v Hv. unfold shv in Hv. apply in_flat_map in Hv. destruct Hv as [s [Hs Hv]].
  unfold emit in H. destruct (mapM_In_inv _ _ _ _ H Hs) as [kv [_ E]]. bnd E e Ee. bnd E f Ef. apply Ok_inj in E. subst s. exact Hv.
Qed.
Lemma emit_op_shv : forall cx tr elem name vals fac var l, emit_op cx tr elem name vals fac var = Ok l -> incl (shv l) [var].
Proof. intros cx tr elem name vals fac var l H. unfold emit_op in H. bnd H vs Ev. exact (emit_shv _ _ _ _ _ _ _ _ H). Qed.
Lemma emit_inv_shv : forall cx tr elem name vals fac var l, emit_inv cx tr elem name vals fac var = Ok l -> incl (shv l) (ovar var).
Proof. intros cx tr elem name vals fac var l H. unfold emit_inv in H. bnd H vs Ev. exact (emit_shv _ _ _ _ _ _ _ _ H). Qed.

Lemma onoff_shown : forall cx tr e p vars bounds o, onoff_model cx tr e p vars bounds = Ok o ->
  v_label (ot_on o) = oo e "on" /\ v_len (ot_on o) = cx_n cx
  /\ exists son, In son (decl (ot_tree o)) /\ v_label son = oo e "switchOn" /\ v_len son = cx_n cx /\ incl (shv (ot_shares o)) [ot_on o; son].
Proof.
  intros cx tr elem p vars bounds o H. unfold onoff_model in H.
  bnd H bs E1. bnd H u E2. bnd H po E3. bnd H on E4. bnd H tot E5. bnd H ctot E6. bnd H con E7.
  bnd H q1 E8. destruct q1 as [voff coff]. bnd H q2 E9. destruct q2 as [v1 k1]. bnd H q3 E10. destruct q3 as [v2 k2].
  bnd H q4 E11. destruct q4 as [[v3 k3] sw]. bnd H s1 E12. bnd H s2 E13. bnd H m E14. apply Ok_inj in H. subst o.
  apply mk_em_spec in E14. destruct E14 as [-> _]. cbn [ot_tree ot_on ot_shares]. rewrite decl_EM. simpl flat_map. rewrite app_nil_r.
  apply create_variable_spec in E4. split; [subst on; reflexivity|]. split; [subst on; reflexivity|].
  unfold use_switch_on in E11. cbn [orb] in E11. bnd E11 son Eson. bnd E11 soff Esoff. bnd E11 nr Enr. bnd E11 u2 Ets. bnd E11 ks Eks. apply Ok_inj in E11.
  apply pair_equal_spec in E11. destruct E11 as [E11 <-]. apply pair_equal_spec in E11. destruct E11 as [<- <-].
  exists son. apply create_variable_spec in Eson. split; [repeat rewrite in_app_iff; simpl; auto 10|]. split; [subst son; reflexivity|]. split; [subst son; reflexivity|].
  rewrite shv_app. apply incl_app; [intros v Hv; apply (emit_op_shv _ _ _ _ _ _ _ _ E12) in Hv; simpl in *; tauto|
    intros v Hv; apply (emit_op_shv _ _ _ _ _ _ _ _ E13) in Hv; simpl in *; tauto].
Qed.

(** Names of the variables through which the element called [nm] is seen from outside. *)
Definition seg_label (nm : string) (e : effect) : string := vlabel (cat [nm; "__"; "SegmentedShares"]) (cat [e_label e; "_segmented"]).
Definition inv_seen (fs : flow_system) (nm : string) : list string := inv nm "size" :: inv nm "isInvested" :: map (seg_label nm) (fs_effects fs).
Definition flow_seen (fs : flow_system) (nm : string) : list string := vlabel nm "flow_rate" :: oo nm "on" :: oo nm "switchOn" :: inv_seen fs nm.
Definition shown (ls : list string) (m : emodel) : list variable := filter (fun v => existsb (String.eqb (v_label v)) ls) (decl m).
Lemma shown_in : forall ls m v, In v (shown ls m) <-> In v (decl m) /\ In (v_label v) ls.
Proof.
  intros ls m v. unfold shown. rewrite filter_In, existsb_exists. split; intros [H K]; split; auto.
  - destruct K as [l [Hl E]]. apply String.eqb_eq in E. congruence.
  - exists (v_label v). split; auto. apply String.eqb_refl.
Qed.

Lemma multi_decl : forall elem len pts outside m, multi_segments elem len pts outside = Ok m ->
  forall v, In v (decl m) -> exists i w, In w segment_words /\ v_label v = seg elem i w.
Proof.
  intros elem len pts outside m H v Hv. unfold multi_segments in H. bnd H nseg En. bnd H segs Esegs. bnd H eqs Eeqs. bnd H single Esi.
  apply mk_em_spec in H. destruct H as [-> _]. rewrite decl_EM in Hv. simpl in Hv. apply in_flat_map in Hv. destruct Hv as [s [Hs Hv]].
  apply in_map_iff in Hs. destruct Hs as [s' [<- Hs]]. apply mapM_Forall2 in Esegs. destruct (Forall2_In_r _ _ _ _ Esegs Hs) as [i [_ Es]].
  unfold segment_model in Es. bnd Es s0 E0. bnd Es l0 El0. bnd Es l1 El1. bnd Es k Ek. bnd Es m Em.
  apply mk_em_spec in Em. destruct Em as [Em _]. apply Ok_inj in Es. subst s' m. cbn [sg_tree] in Hv. rewrite decl_EM in Hv. simpl in Hv.
  apply create_variable_spec in E0. apply create_variable_spec in El0. apply create_variable_spec in El1. exists i.
  destruct Hv as [<-|[<-|[<-|[]]]]; [exists "inSegment"|exists "lambda0"|exists "lambda1"]; (split; [simpl; auto|subst; reflexivity]).
Qed.

Record invest_seen (fs : flow_system) (elem : string) (iv : invest) (io : inv_out) : Prop := {
  is_size : v_label (io_size io) = inv elem "size" /\ v_len (io_size io) = 1%nat;
  is_made : if iv_optional iv then exists v, io_invested io = Some v /\ v_label v = inv elem "isInvested" /\ v_len v = 1%nat else io_invested io = None;
  is_shares : forall v, In v (shv (io_shares io)) -> In v (decl (io_tree io)) /\ In (v_label v) (inv_seen fs elem) /\ v_len v = 1%nat;
  is_seg : forall spts eff i l e, iv_seg iv = Some (spts, eff) -> In (i, l) eff -> In e (fs_effects fs) -> e_id e = i -> distinct_effects fs ->
     exists v, In v (decl (io_tree io)) /\ v_label v = seg_label elem e /\ v_len v = 1%nat;
  is_subs : forall x, segments_rule fs x elem iv -> em_translates (io_tree io) ->
     exists z, (forall l, (forall i w, In w segment_words -> l <> seg elem i w) -> z l = x l)
       /\ forall y, (forall v, In v (decl (io_tree io)) -> y (v_label v) = z (v_label v)) -> Forall (em_sat y) (em_subs (io_tree io));
  is_decl : forall v, In v (decl (io_tree io)) -> In (v_label v) (inv_seen fs elem) \/ exists i w, In w segment_words /\ v_label v = seg elem i w
}.

Lemma invest_is_seen : forall fs cx tr elem iv dv relmin relmax profile on io, cx_effects cx = fs_effects fs ->
  invest_model cx tr elem iv dv relmin relmax profile on = Ok io -> invest_seen fs elem iv io.
Proof.
  intros fs cx tr elem iv dv relmin relmax profile on io EF H.
  destruct (invest_closed _ _ _ _ _ _ _ _ _ _ H) as [_ [_ [_ IS]]].
  apply invest_model_parts in H. destruct H as [size [b [cs1 [cs2 [subs [H1 [H2 [_ [H4 [H5 [H6 H7]]]]]]]]]]].
  destruct (size_spec _ _ _ _ H1) as [Ls [Ns _]]. change (vlabel (model_full elem (Some "Investment")) "size") with (inv elem "size") in Ls.
  assert (MB : if iv_optional iv then exists v, b = Some v /\ v_label v = inv elem "isInvested" /\ v_len v = 1%nat else b = None).
  { pose proof (optional_spec (fun _ _ => 0) _ _ _ _ _ _ Ls Ns H2) as O. destruct (iv_optional iv); [|apply O].
    destruct O as [v [Eb [Lv [Nv _]]]]. exists v. auto. }
  assert (SUBS : (iv_seg iv = None /\ subs = []) \/ exists spts eff m shs, iv_seg iv = Some (spts, eff) /\ segmented_shares cx elem size spts eff b = Ok (m, shs) /\ subs = [m]
              /\ incl (shv (io_shares io)) (size :: ovar b ++ shv shs)).
  { unfold invest_shares in H4. bnd H4 s1 X1. bnd H4 s2 X2. bnd H4 s3 X3. destruct (iv_seg iv) as [[spts eff]|].
    2:{ apply Ok_inj in H4. apply pair_equal_spec in H4. destruct H4 as [_ <-]. auto. }
    right. bnd H4 ms4 X4. destruct ms4 as [m s4]. apply Ok_inj in H4. apply pair_equal_spec in H4. destruct H4 as [<- <-].
    exists spts, eff, m, s4. split; auto. split; auto. split; auto. rewrite !shv_app. intros v Hv. repeat rewrite in_app_iff in Hv. simpl. rewrite in_app_iff.
    destruct Hv as [Hv|[Hv|[Hv|Hv]]]; auto.
    - apply (emit_inv_shv _ _ _ _ _ _ _ _ X1) in Hv. auto.
    - destruct (iv_optional iv); [|apply Ok_inj in X2; subst s2; destruct Hv]. bnd X2 a Ea. bnd X2 a2 Ea2. apply Ok_inj in X2. subst s2. rewrite shv_app in Hv. apply in_app_or in Hv.
      destruct Hv as [Hv|Hv]; [apply (emit_inv_shv _ _ _ _ _ _ _ _ Ea) in Hv; destruct Hv|apply (emit_inv_shv _ _ _ _ _ _ _ _ Ea2) in Hv; auto].
    - apply (emit_inv_shv _ _ _ _ _ _ _ _ X3) in Hv. destruct Hv as [<-|[]]. auto. }
  assert (NOSEG : iv_seg iv = None -> incl (shv (io_shares io)) (size :: ovar b)).
  { intros NG. unfold invest_shares in H4. rewrite NG in H4. bnd H4 s1 X1. bnd H4 s2 X2. bnd H4 s3 X3.
    apply Ok_inj in H4. apply pair_equal_spec in H4. destruct H4 as [<- _]. rewrite !shv_app. intros v Hv. repeat rewrite in_app_iff in Hv. simpl.
    destruct Hv as [Hv|[Hv|Hv]].
    - apply (emit_inv_shv _ _ _ _ _ _ _ _ X1) in Hv. auto.
    - destruct (iv_optional iv); [|apply Ok_inj in X2; subst s2; destruct Hv]. bnd X2 a Ea. bnd X2 a2 Ea2. apply Ok_inj in X2. subst s2. rewrite shv_app in Hv. apply in_app_or in Hv.
      destruct Hv as [Hv|Hv]; [apply (emit_inv_shv _ _ _ _ _ _ _ _ Ea) in Hv; destruct Hv|apply (emit_inv_shv _ _ _ _ _ _ _ _ Ea2) in Hv; auto].
    - apply (emit_inv_shv _ _ _ _ _ _ _ _ X3) in Hv. destruct Hv as [<-|[]]. auto. }
  assert (SEGV : forall spts eff m shs, segmented_shares cx elem size spts eff b = Ok (m, shs) ->
     (forall v, In v (shv shs) -> In (v_label v) (inv_seen fs elem) /\ v_len v = 1%nat)
     /\ (forall v, In v (decl m) -> In (v_label v) (inv_seen fs elem) \/ exists i w, In w segment_words /\ v_label v = seg elem i w)
     /\ (forall i l e, In (i, l) eff -> In e (fs_effects fs) -> e_id e = i -> distinct_effects fs ->
           exists v, In v (decl m) /\ v_label v = seg_label elem e /\ v_len v = 1%nat)).
  { intros spts eff m shs X4. unfold segmented_shares in X4. bnd X4 u0 U0. bnd X4 vs Evs. bnd X4 ms Ems. bnd X4 shl Eshs. bnd X4 m' Em. apply Ok_inj in X4.
    apply pair_equal_spec in X4. destruct X4 as [<- <-]. apply mk_em_spec in Em. destruct Em as [-> _]. apply mapM_Forall2 in Evs.
    assert (VT : forall t, In t vs -> In (v_label (snd (fst t))) (inv_seen fs elem) /\ v_len (snd (fst t)) = 1%nat).
    { intros t Ht. destruct (Forall2_In_r _ _ _ _ Evs Ht) as [[i l] [Hi M]]. cbv beta in M. bnd M lab El. bnd M v Ev. apply Ok_inj in M. apply create_variable_spec in Ev.
      destruct (find_label _ _ _ El) as [e [He [Hid <-]]]. rewrite EF in He. rewrite <- M, Ev. cbn [fst snd v_label v_len]. split; auto. unfold inv_seen. do 2 right.
      apply in_map_iff. exists e. auto. }
    split; [|split].
    - intros v Hv. unfold shv in Hv. apply in_flat_map in Hv. destruct Hv as [s [Hs Hv]]. apply in_concat in Hs. destruct Hs as [ls [Hl Hs]].
      destruct (mapM_In_inv _ _ _ _ Eshs Hl) as [t [Ht E]]. assert (IV : In v (shv ls)) by (unfold shv; apply in_flat_map; eauto).
      apply (emit_shv _ _ _ _ _ _ _ _ E) in IV. destruct IV as [<-|[]]. apply VT; auto.
    - intros v Hv. rewrite decl_EM in Hv. simpl in Hv. rewrite app_nil_r in Hv. apply in_app_or in Hv. destruct Hv as [Hv|Hv].
      + left. apply in_map_iff in Hv. destruct Hv as [t [<- Ht]]. apply VT; auto.
      + right. eapply multi_decl; eauto.
    - intros i l e Hil He Hid DE. destruct (Forall2_In_l _ _ _ _ Evs Hil) as [t [Ht M]]. cbv beta in M. bnd M lab El. bnd M v Ev. apply Ok_inj in M.
      apply create_variable_spec in Ev. rewrite <- EF in He. rewrite (effect_label_spec cx (fst (i, l)) lab e) in Ev; auto.
      + exists v. split; [rewrite decl_EM; apply in_or_app; left; apply in_map_iff; exists t; subst t; auto|]. subst v. auto.
      + unfold distinct_ids. rewrite EF. exact DE.
      + simpl. rewrite Hid. apply Nat.eqb_refl. }
  assert (OB : forall v, In v (ovar b) -> v_label v = inv elem "isInvested" /\ v_len v = 1%nat).
  { intros v Hv. destruct (iv_optional iv); [|rewrite MB in Hv; destruct Hv]. destruct MB as [v' [Eb K]]; rewrite Eb in Hv. destruct Hv as [<-|[]]. auto. }
  assert (SN : In (inv elem "size") (inv_seen fs elem) /\ In (inv elem "isInvested") (inv_seen fs elem)) by (unfold inv_seen; simpl; auto 10).
  assert (BASE : forall v, In v (size :: ovar b) -> In (v_label v) (inv_seen fs elem) /\ v_len v = 1%nat).
  { intros v [<-|Hv]; [rewrite Ls; split; [apply SN|auto]|]. destruct (OB v Hv) as [-> ->]. split; [apply SN|auto]. }
  constructor.
  - rewrite H6. auto.
  - rewrite H7. exact MB.
  - intros v Hv. split; [apply IS; auto|]. destruct SUBS as [[NG _]|[spts [eff [m [shs [SG [SS [_ IC]]]]]]]].
    + apply BASE. apply NOSEG; auto.
    + apply IC in Hv. change (In v ((size :: ovar b) ++ shv shs)) in Hv. apply in_app_or in Hv. destruct Hv as [Hv|Hv]; [apply BASE; auto|].
      destruct (SEGV _ _ _ _ SS) as [K _]. apply K; auto.
  - intros spts eff i l e SG Hil He Hid DE. destruct SUBS as [[NG _]|[spts' [eff' [m [shs [SG' [SS [-> _]]]]]]]]; [congruence|].
    rewrite SG in SG'. inversion SG'; subst spts' eff'. destruct (SEGV _ _ _ _ SS) as [_ [_ K]]. destruct (K i l e Hil He Hid DE) as [v [V1 V2]].
    exists v. split; auto. rewrite H5, decl_EM. apply in_or_app. right. simpl. rewrite app_nil_r. auto.
  - intros x R T. rewrite H5 in T |- *. cbn [em_subs]. destruct SUBS as [[NG ->]|[spts [eff [m [shs [SG [SS [-> _]]]]]]]].
    + exists x. split; auto.
    + destruct (segshares_exist x fs cx elem iv size spts eff b m shs EF SG SS) as [z [Z1 Z2]]; auto.
      { eapply em_translates_sub; [exact T|simpl; auto]. }
      exists z. split; auto. intros y Y. constructor; [|constructor]. destruct (segshares_closed _ _ _ _ _ _ _ _ SS) as [CL _].
      apply (em_sat_agree z y m _ CL); auto. intros v Hv. apply agree_eq. apply Y. rewrite decl_EM. simpl. rewrite app_nil_r.
      destruct Hv as [Hv|Hv]; [rewrite !in_app_iff; auto|]. apply in_app_or in Hv. destruct Hv as [Hv|Hv]; [rewrite !in_app_iff; auto|].
      destruct Hv as [<-|Hv]; auto. right. apply in_or_app. left. destruct b; [exact Hv|destruct Hv].
  - intros v Hv. rewrite H5, decl_EM in Hv. apply in_app_or in Hv. destruct Hv as [Hv|Hv].
    + left. apply (BASE v). destruct Hv as [<-|Hv]; [left; auto|right]. destruct b; [exact Hv|destruct Hv].
    + destruct SUBS as [[NG ->]|[spts [eff [m [shs [SG [SS [-> _]]]]]]]]; [destruct Hv|]. simpl in Hv. rewrite app_nil_r in Hv.
      destruct (SEGV _ _ _ _ SS) as [_ [K _]]. apply K; auto.
Qed.

Lemma inv_seen_oo : forall fs nm l w, In l (inv_seen fs nm) -> l <> oo nm w.
Proof.
  intros fs nm l w [<-|[<-|H]]; try apply inv_oo. apply in_map_iff in H. destruct H as [e [<- _]]. apply shares_oo.
Qed.
Lemma inv_seen_last : forall fs nm l, In l (inv_seen fs nm) -> lastc l = Some "e"%char \/ lastc l = Some "d"%char.
Proof.
  intros fs nm l [<-|[<-|H]]; [left; apply lastc_vlabel; discriminate|right; apply lastc_vlabel; discriminate|].
  apply in_map_iff in H. destruct H as [e [<- _]]. right. apply segmented_last.
Qed.
Lemma inv_seen_seg : forall fs nm l e i w, In l (inv_seen fs nm) -> In w segment_words -> l <> seg e i w.
Proof. intros fs nm l e i w H Hw. apply seg_last; auto; destruct (inv_seen_last _ _ _ H) as [-> | ->]; discriminate. Qed.
Lemma inv_seen_sum : forall fs nm l, In l (inv_seen fs nm) -> l <> vlabel nm "sumFlowHours".
Proof.
  intros fs nm l [<-|[<-|H]]; try (intros Z; symmetry in Z; revert Z; apply sum_inv). apply in_map_iff in H. destruct H as [e [<- _]]. unfold seg_label. apart.
Qed.
Lemma seg_sum : forall e i w, seg e i w <> vlabel e "sumFlowHours".
Proof. intros. apart. Qed.

(** What a flow is allowed to do depends on its rate, size and investment decision only. *)
Lemma flow_allowed_ext : forall cf fs idx x z c f b, z (vlabel (flow_name c f) "flow_rate") = x (vlabel (flow_name c f) "flow_rate") ->
  (forall w, In w ["size"; "isInvested"] -> z (inv (flow_name c f) w) = x (inv (flow_name c f) w)) ->
  flow_allowed cf fs idx x c f b -> flow_allowed cf fs idx z c f b.
Proof.
  intros cf fs idx x z c f b R I [A1 A2 A3 A4 A5 A6 A7].
  assert (RR : rate_of z c f = rate_of x c f) by exact R.
  assert (I1 : z (inv (flow_name c f) "size") = x (inv (flow_name c f) "size")) by (apply I; simpl; auto).
  assert (I2 : z (inv (flow_name c f) "isInvested") = x (inv (flow_name c f) "isInvested")) by (apply I; simpl; auto).
  assert (SZ : size_of cf z c f = size_of cf x c f) by (unfold size_of; rewrite I1; reflexivity).
  constructor; rewrite ?RR, ?SZ, ?I1, ?I2; auto.
Qed.
Lemma marks_runs : forall x e was n t (b : nat -> bool), onoff_marks x e was n -> (forall i, (i < n)%nat -> b i = Qeq_bool (x (oo e "on") i) 1) -> (t < n)%nat ->
  q01 (b t) == x (oo e "on") t /\ starting was b t == x (oo e "switchOn") t.
Proof.
  intros x e was n t b M B Ht.
  assert (V : forall i, (i < n)%nat -> q01 (b i) == x (oo e "on") i).
  { intros i Hi. destruct (M i Hi) as [O _]. rewrite B by auto. destruct (Qeq_bool (x (oo e "on") i) 1) eqn:E.
    - apply Qeq_bool_eq in E. rewrite E. reflexivity.
    - destruct O as [O|O]; [rewrite O; reflexivity|]. apply Qeq_bool_neq in E. contradiction. }
  split; [apply V; auto|]. destruct (M t Ht) as [O [S K]].
  assert (P : q01 (match t with O => was | S k => b k end) == before was (x (oo e "on")) t).
  { destruct t as [|k]; [reflexivity|]. simpl. apply V. lia. }
  specialize (V t Ht). unfold starting. set (p := match t with O => was | S k => b k end) in *. rewrite <- P, <- V in K. clear P V.
  destruct p, (b t); simpl in *; destruct S as [S|S]; rewrite S; try reflexivity; exfalso.
  - apply K in S. destruct S as [S _]. discriminate S.
  - apply K in S. destruct S as [S _]. discriminate S.
  - assert (Z : x (oo e "switchOn") t == 1) by (apply K; split; reflexivity). rewrite S in Z. discriminate Z.
  - apply K in S. destruct S as [_ S]. discriminate S.
Qed.

Lemma flow_completes : forall cf fs idx cx c f fo a b0 l u rate sfh oo_ io csum clf x,
  ctx_for cf fs idx cx -> 0 <= cf_eps cf -> cf_eps cf < 1 ->
  flow_parts cx (flow_name c f) (effective cf fs idx c f) fo a b0 l u rate sfh oo_ io csum clf -> em_translates (fo_tree fo) ->
  NoDup (labels_of (fo_tree fo)) ->
  sound_flow cf fs idx c f -> (forall o, governed fs idx c f = Some o -> countable_for o (prior_states cf f)) ->
  flow_rule cf fs idx x c f -> (forall iv, sized cf c f = SzInv iv -> segments_rule fs x (flow_name c f) iv) ->
  completes x (mkPiece (fo_tree fo) [] (shown (flow_seen fs (flow_name c f)) (fo_tree fo))).
Proof.
  intros cf fs idx cx c f fo a b0 l u rate sfh oo_ io csum clf x C E0 E1 P T ND SF K [A MK] SG. set (nm := flow_name c f) in *.
  assert (IO : forall i, io = Some i -> exists iv, sized cf c f = SzInv iv /\ invest_seen fs nm iv i).
  { intros i Ei. subst io. pose proof (fp_io _ _ _ _ _ _ _ _ _ _ _ _ _ _ P) as Eio. simpl in Eio.
    destruct (sized cf c f) as [q|iv] eqn:Sz; [discriminate|]. destruct Eio as [pr [i' [_ [Ei Ei']]]]. injection Ei' as <-.
    exists iv. split; auto. eapply invest_is_seen; [apply (cf_effs _ _ _ _ C)|exact Ei]. }
  pose proof (fp_tree _ _ _ _ _ _ _ _ _ _ _ _ _ _ P) as ET.
  assert (Z : exists z, (forall l, (forall i w, In w segment_words -> l <> seg nm i w) -> z l = x l)
    /\ forall i, io = Some i -> forall y, (forall v, In v (decl (io_tree i)) -> y (v_label v) = z (v_label v)) -> Forall (em_sat y) (em_subs (io_tree i))).
  { destruct io as [i|]; [|exists x; split; [auto|discriminate]]. destruct (IO i eq_refl) as [iv [Sz IS]].
    destruct (is_subs _ _ _ _ IS x) as [z [Z1 Z2]]; [apply SG; auto| |exists z; split; [auto|intros i' Ei; injection Ei as <-; auto]].
    eapply em_translates_flat; [exact T|]. rewrite ET. simpl. right. rewrite flat_map_app, in_app_iff. right. simpl. rewrite app_nil_r. apply flat_self. }
  destruct Z as [z [Z1 Z2]].
  assert (A' : flow_allowed cf fs idx z c f (runs x c f)).
  { eapply flow_allowed_ext; [| |exact A].
    - apply Z1. intros i w Hw. apply seg_last; auto; fold nm; rewrite lastc_vlabel by discriminate; discriminate.
    - intros w Hw. apply Z1. intros i w' Hw'. apply (inv_seen_seg fs nm); auto. unfold inv_seen. fold nm. destruct Hw as [<-|[<-|[]]]; simpl; auto. }
  destruct (flow_complete cf fs idx cx c f fo a b0 l u rate sfh oo_ io csum clf z (runs x c f) C E0 E1 P T SF K A') as [y [Y1 [Y2 [Y3 Y4]]]].
  { intros y i OA Ei. apply (Z2 i Ei). intros v Hv. destruct (IO i Ei) as [iv [_ IS]]. destruct (is_decl _ _ _ _ IS v Hv) as [Hl|[k [w [Hw ->]]]].
    - apply OA; [apply (inv_seen_sum fs); auto|intros w _; apply (inv_seen_oo fs); auto].
    - apply OA; [apply seg_sum|intros w' _; apply seg_oo]. }
  exists y. split; auto. cbn [pc_uses pc_shows]. intros v [[]|Hv]. apply shown_in in Hv. destruct Hv as [Dv Lv]. simpl in Lv.
  assert (OO : forall w, In w ["on"; "switchOn"] -> v_label v = oo nm w -> governed fs idx c f <> None /\ v_len v = steps fs idx).
  { intros w Hw El. pose proof (fp_oo _ _ _ _ _ _ _ _ _ _ _ _ _ _ P) as Eoo. simpl in Eoo. destruct (governed fs idx c f) as [o|] eqn:G.
    - split; [discriminate|]. simpl in Eoo. bnd Eoo out Eo. apply Ok_inj in Eoo. subst oo_.
      destruct (onoff_shown _ _ _ _ _ _ _ Eo) as [L1 [L2 [son [S1 [S2 [S3 _]]]]]]. rewrite <- (cf_n _ _ _ _ C).
      assert (DO : incl (decl (ot_tree out)) (decl (fo_tree fo))).
      { intros v' Hv'. rewrite ET, decl_EM. apply in_or_app. right. simpl. rewrite in_app_iff. auto. }
      destruct Hw as [<-|[<-|[]]].
      + rewrite <- L2. f_equal. apply (unique_label _ _ _ ND Dv); [|rewrite El; auto]. apply DO. destruct (onoff_closed _ _ _ _ _ _ _ Eo) as [_ [I _]]. exact I.
      + rewrite <- S3. f_equal. apply (unique_label _ _ _ ND Dv); [apply DO; auto|rewrite El; auto].
    - exfalso. simpl in Eoo. apply Ok_inj in Eoo. subst oo_. rewrite ET, decl_EM in Dv. simpl in Dv.
      destruct Dv as [<-|[<-|Dv]].
      + pose proof (fp_rate _ _ _ _ _ _ _ _ _ _ _ _ _ _ P) as Er. apply create_variable_spec in Er. rewrite Er in El. cbn [v_label] in El. revert El. apply rate_not_onoff. simpl in *. tauto.
      + pose proof (fp_sfh _ _ _ _ _ _ _ _ _ _ _ _ _ _ P) as Er. apply create_variable_spec in Er. rewrite Er in El. cbn [v_label] in El. revert El. apply sum_oo.
      + destruct io as [i|]; [|destruct Dv]. simpl in Dv. rewrite app_nil_r in Dv. destruct (IO i eq_refl) as [iv [_ IS]].
        destruct (is_decl _ _ _ _ IS v Dv) as [Hl|[k [w' [Hw' El']]]]; [revert El; apply (inv_seen_oo fs); auto|rewrite El' in El; revert El; apply seg_oo]. }
  destruct Lv as [Lv|[Lv|[Lv|Lv]]].
  - apply agree_eq. rewrite <- Lv. rewrite Y1; [|apply rate_sum_ne|intros; apply rate_not_onoff; auto].
    apply Z1. intros i w Hw. apply seg_last; auto; rewrite lastc_vlabel by discriminate; discriminate.
  - destruct (OO "on") as [G N]; simpl; auto. intros t Ht. rewrite N in Ht. rewrite <- Lv. change (y (oo nm "on") t) with (on_of y c f t). rewrite Y2 by auto.
    apply (marks_runs x nm (was_on cf f) (steps fs idx) t (runs x c f)); auto.
  - destruct (OO "switchOn") as [G N]; simpl; auto. intros t Ht. rewrite N in Ht. rewrite <- Lv. unfold nm at 1. rewrite Y3 by auto.
    apply (marks_runs x nm (was_on cf f) (steps fs idx) t (runs x c f)); auto.
  - apply agree_eq. rewrite Y1; [|apply (inv_seen_sum fs); auto|intros w _; apply (inv_seen_oo fs); auto]. apply Z1. intros i w Hw. apply (inv_seen_seg fs nm); auto.
Qed.

(** ** What flows show *)
Definition present (n : nat) (l : string) (sh : list variable) : Prop := exists v, In v sh /\ v_label v = l /\ v_len v = n.
Definition inv_present (fs : flow_system) (nm : string) (iv : invest) (sh : list variable) : Prop :=
  present 1 (inv nm "size") sh /\ (iv_optional iv = true -> present 1 (inv nm "isInvested") sh)
  /\ forall spts eff i l e, iv_seg iv = Some (spts, eff) -> In (i, l) eff -> In e (fs_effects fs) -> e_id e = i -> distinct_effects fs -> present 1 (seg_label nm e) sh.
Lemma present_agree : forall x y n l sh t, present n l sh -> (forall v, In v sh -> agree x y v) -> (t < n)%nat -> y l t == x l t.
Proof. intros x y n l sh t [v [V1 [<- <-]]] A Ht. apply A; auto. Qed.

Lemma inv_presents : forall fs cx tr nm iv dv relmin relmax profile on io sh, cx_effects cx = fs_effects fs ->
  invest_model cx tr nm iv dv relmin relmax profile on = Ok io ->
  (forall v, In v (decl (io_tree io)) -> In (v_label v) (inv_seen fs nm) -> In v sh) -> inv_present fs nm iv sh.
Proof.
  intros fs cx tr nm iv dv relmin relmax profile on io sh EF H SH. pose proof (invest_is_seen _ _ _ _ _ _ _ _ _ _ _ EF H) as IS.
  destruct (invest_closed _ _ _ _ _ _ _ _ _ _ H) as [_ [D1 [D2 _]]]. split; [|split].
  - destruct (is_size _ _ _ _ IS) as [L N]. exists (io_size io). split; auto. apply SH; auto. rewrite L. unfold inv_seen. simpl. auto.
  - intros O. pose proof (is_made _ _ _ _ IS) as M. rewrite O in M. destruct M as [v [E [L N]]]. exists v. split; auto. apply SH; [|rewrite L; unfold inv_seen; simpl; auto].
    apply D2. rewrite E. simpl. auto.
  - intros spts eff i l e SG Hil He Hid DE. destruct (is_seg _ _ _ _ IS _ _ _ _ _ SG Hil He Hid DE) as [v [V1 [V2 V3]]]. exists v. split; auto.
    apply SH; auto. rewrite V2. unfold inv_seen. do 2 right. apply in_map. auto.
Qed.

Lemma flow_presents : forall fs cx tr comp f fo, cx_effects cx = fs_effects fs -> flow_model cx tr comp f = Ok fo ->
  let nm := flow_full comp (f_lab f) in let sh := shown (flow_seen fs nm) (fo_tree fo) in
  flow_vars_in sh fo /\ incl (shv (fo_shares fo)) sh /\ present (cx_n cx) (vlabel nm "flow_rate") sh
  /\ (f_onoff f <> None -> present (cx_n cx) (oo nm "on") sh /\ present (cx_n cx) (oo nm "switchOn") sh)
  /\ (forall iv, f_size f = SzInv iv -> inv_present fs nm iv sh).
Proof.
  intros fs cx tr comp f fo EF H nm sh. destruct (flow_closed _ _ _ _ _ H) as [_ [[V1 [V2 V3]] V4]]. unfold flow_model in H.
  bnd H rel0 E1. bnd H ab E2. bnd H rate E3. bnd H q4 E4. bnd H io E5. bnd H sfh E6. bnd H csum E7. bnd H clf E8. bnd H s E9. bnd H m E10.
  apply Ok_inj in H. apply mk_em_spec in E10. destruct E10 as [Em _].
  assert (ES : fo_shares fo = match q4 with Some o => ot_shares o | None => [] end ++ match io with Some i => io_shares i | None => [] end ++ s) by (subst fo; reflexivity).
  assert (ER : fo_rate fo = rate) by (subst fo; reflexivity). assert (EO : fo_on fo = option_map ot_on q4) by (subst fo; reflexivity).
  assert (EZ : fo_size fo = option_map io_size io) by (subst fo; reflexivity).
  assert (ET : fo_tree fo = m) by (subst fo; reflexivity). clear H.
  fold nm in E3, E4, E5, E9, Em. apply create_variable_spec in E3.
  assert (LR : v_label rate = vlabel nm "flow_rate" /\ v_len rate = cx_n cx) by (subst rate; split; reflexivity).
  assert (IR : In rate sh) by (apply shown_in; rewrite <- ER; split; auto; rewrite ER; rewrite (proj1 LR); unfold flow_seen; simpl; auto).
  assert (OO : forall q, q4 = Some q -> f_onoff f <> None /\ incl (ot_on q :: shv (ot_shares q)) sh /\ present (cx_n cx) (oo nm "on") sh /\ present (cx_n cx) (oo nm "switchOn") sh).
  { intros q ->. destruct (f_onoff f) as [p|]; simpl in E4; [|discriminate]. bnd E4 q' F. apply Ok_inj in E4. injection E4 as ->.
    destruct (onoff_shown _ _ _ _ _ _ _ F) as [A1 [A2 [son [B1 [B2 [B3 B4]]]]]]. destruct (onoff_closed _ _ _ _ _ _ _ F) as [_ [Don _]].
    assert (I : incl (decl (ot_tree q)) (decl (fo_tree fo))).
    { intros v Hv. rewrite ET, Em, decl_EM. apply in_or_app. right. simpl. rewrite in_app_iff. auto. }
    assert (I1 : In (ot_on q) sh) by (apply shown_in; split; [apply I; auto|rewrite A1; unfold flow_seen; simpl; auto]).
    assert (I2 : In son sh) by (apply shown_in; split; [apply I; auto|rewrite B2; unfold flow_seen; simpl; auto]).
    split; [discriminate|]. split; [|split; [exists (ot_on q); auto|exists son; auto]].
    intros v [<-|Hv]; auto. apply B4 in Hv. destruct Hv as [<-|[<-|[]]]; auto. }
  assert (IO : forall i, io = Some i -> incl (io_size i :: shv (io_shares i)) sh).
  { intros i ->. destruct (f_size f) as [|iv] eqn:Sz; [discriminate|]. bnd E5 pr F1. bnd E5 i' F2. apply Ok_inj in E5. injection E5 as ->.
    assert (I : incl (decl (io_tree i)) (decl (fo_tree fo))).
    { intros v Hv. rewrite ET, Em, decl_EM. apply in_or_app. right. rewrite flat_map_app, in_app_iff. right. simpl. rewrite app_nil_r. auto. }
    pose proof (invest_is_seen _ _ _ _ _ _ _ _ _ _ _ EF F2) as IS. destruct (invest_closed _ _ _ _ _ _ _ _ _ _ F2) as [_ [D1 _]].
    intros v [<-|Hv].
    - apply shown_in. split; auto. rewrite (proj1 (is_size _ _ _ _ IS)). unfold flow_seen, inv_seen. simpl. auto.
    - destruct (is_shares _ _ _ _ IS v Hv) as [S1 [S2 _]]. apply shown_in. split; auto. unfold flow_seen. simpl. auto. }
  split; [split; [rewrite ER; auto|split]|split; [|split; [exists rate; split; [auto|apply LR]|split]]].
  - rewrite EO. destruct q4 as [q|]; simpl; intros v Hv; [|destruct Hv]. destruct Hv as [<-|[]]. apply (OO q eq_refl). simpl. auto.
  - rewrite EZ. destruct io as [i|]; simpl; intros v Hv; [|destruct Hv]. destruct Hv as [<-|[]]. apply (IO i eq_refl). simpl. auto.
  - rewrite ES, !shv_app. intros v Hv. repeat rewrite in_app_iff in Hv. destruct Hv as [Hv|[Hv|Hv]].
    + destruct q4 as [q|]; [|destruct Hv]. apply (OO q eq_refl). simpl. auto.
    + destruct io as [i|]; [|destruct Hv]. apply (IO i eq_refl). simpl. auto.
    + apply (emit_op_shv _ _ _ _ _ _ _ _ E9) in Hv. destruct Hv as [<-|[]]. auto.
  - intros G. destruct q4 as [q|]; [apply (OO q eq_refl)|]. destruct (f_onoff f); simpl in E4; [bnd E4 z Ez; discriminate|congruence].
  - intros iv Sz. rewrite Sz in E5. bnd E5 pr F1. bnd E5 i F2. apply Ok_inj in E5. eapply inv_presents; [exact EF|exact F2|].
    intros v Hv Hl. apply shown_in. split; [|unfold flow_seen; simpl; auto]. rewrite ET, Em, decl_EM. apply in_or_app. right. rewrite flat_map_app, in_app_iff. right.
    rewrite <- E5. simpl. rewrite app_nil_r. auto.
Qed.
