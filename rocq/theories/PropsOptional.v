(** C12: an optional investment is not forced by its own parameters. *)
From Coq Require Import String.
From Verif Require Import Base BaseFacts MathModel Spec MathFacts MathTotal Structure StructureFacts Params Features Elements System SysSpec
  AdmitSpec CtxFacts ReadTools InvestFacts OnOffFacts OnOffLaws OnOffAdmits FlowFacts NavFacts FlowAdmits PropsFlow PropsOnOff AdmitFacts InvestAdmits SegFacts SegAdmits
  AdmitNav Example ExamplePoints PropsAdmits.

(** Nothing is invested and nothing flows. *)
Definition declined (fs : flow_system) (idx : option (list nat)) (y : asg) (c : component) (f : flow) : Prop :=
  y (inv (flow_name c f) "size") 0%nat == 0 /\ y (inv (flow_name c f) "isInvested") 0%nat == 0
  /\ forall t, (t < steps fs idx)%nat -> rate_of y c f t == 0.
(** [y] is [x] except for variables of the model [m] and of the on/off part of [name]. *)
Definition same_outside (m : emodel) (name : string) (x y : asg) : Prop :=
  forall l, (forall n, within m n -> ~ declares n l) -> (forall w, In w onoff_names -> l <> oo name w) -> y l = x l.

(** The claim in full: whatever the parameters, declining is compatible with all constraints created for the flow. *)
Definition C12_full : Prop := forall cf ord fs idx pm bs m x c f iv,
  build cf ord fs idx = Ok pm -> build_system cf ord fs idx = Ok bs -> 0 <= cf_eps cf -> cf_eps cf < 1 ->
  In c (fs_comps fs) -> In f (cp_flows c) -> sized cf c f = SzInv iv -> iv_optional iv = true ->
  declared_by bs (vlabel (flow_name c f) "flow_rate") m ->
  exists y, same_outside m (flow_name c f) x y /\ declined fs idx y c f /\ respects y m.

(** It fails without on/off behaviour: the limits of the rate are those of the smallest and largest size even if
    nothing is invested. *)
Theorem C12_forced : forall cf ord fs idx pm bs m y c f t,
  build cf ord fs idx = Ok pm -> build_system cf ord fs idx = Ok bs -> 0 <= cf_eps cf ->
  In c (fs_comps fs) -> In f (cp_flows c) -> governed fs idx c f = None ->
  declared_by bs (vlabel (flow_name c f) "flow_rate") m -> (t < steps fs idx)%nat ->
  0 < rel_min idx f t * fst (size_range cf (sized cf c f)) \/ rel_max idx f t * snd (size_range cf (sized cf c f)) < 0 ->
  respects y m -> ~ rate_of y c f t == 0.
Proof.
  intros cf ord fs idx pm bs m y c f t H B E0 Hc Hf G D Ht Pos R Z.
  destruct (flow_translates _ _ _ _ _ _ _ H Hc Hf) as [cx [fo [bs' [root [C [M [T [B' [Hr I]]]]]]]]]. assert (bs' = bs) by congruence. subst bs'.
  assert (DF : declared_by bs (vlabel (flow_name c f) "flow_rate") (fo_tree fo)).
  { destruct (flow_at _ _ _ _ _ _ _ _ H B Hc Hf) as [cx' [fo' [a' [b' [l' [u' [rate' [sfh' [oo' [io' [csum' [clf' [C' [P' [T' [D' _]]]]]]]]]]]]]]]].
    destruct (flow_has_parts _ _ _ _ M) as [a [b [l [u [rate [sfh [oo_ [io [csum [clf P]]]]]]]]]].
    split; [exists root; split; auto; apply within_flat; auto|]. rewrite (fp_tree _ _ _ _ _ _ _ _ _ _ _ _ _ _ P). exists rate.
    split; [simpl; auto|]. pose proof (fp_rate _ _ _ _ _ _ _ _ _ _ _ _ _ _ P) as Er. apply create_variable_spec in Er. subst rate. reflexivity. }
  pose proof (declared_unique _ _ _ _ _ _ _ _ _ H B D DF) as ->. apply respects_sat in R; auto.
  assert (Ep : 0 <= cx_eps cx) by (rewrite (cf_eps_ _ _ _ _ C); auto).
  pose proof (flow_spec y cx true (cp_label c) (effective cf fs idx c f) fo (cf_ok _ _ _ _ C) Ep M R) as FR.
  assert (Ht' : (t < cx_n cx)%nat) by (rewrite (cf_n _ _ _ _ C); auto).
  destruct (fr_plain _ _ _ _ FR G t Ht') as [F1 F2]. simpl in F1, F2. unfold rel_lo, rel_hi in *. simpl in F1, F2.
  destruct (limits_range cf fs idx cx (sized cf c f) C) as [L1 L2]. rewrite L1 in F1. rewrite L2 in F2. rewrite (cf_idx _ _ _ _ C) in *.
  unfold rel_min, rel_max, rate_of in *. change (flow_full (cp_label c) (f_lab f)) with (flow_name c f) in *. rewrite Z in F1, F2.
  destruct (f_profile f); destruct Pos; lra.
Qed.
Print Assumptions C12_forced.

(** An optional investment of 5 to 20 whose flow runs at 20 % at least: 1 flows at least, and 5 are bought at least. *)
Definition opt_q (mn : Q) : flow :=
  set_rel (n1 mn) (n1 1) (set_size_ (SzInv (mkInvest None 5 (Some 20) true EVNone EVNone None EVNone)) (flow0 94 "Q" gas)).
Definition fs_opt (mn : Q) : flow_system := mkFS [0; 1; 2] 3 (NS 1) [costs; co2] [Library.source "Opt" (opt_q mn); src].
Lemma opt_builds : exists pm bs, build default_config id_ord (fs_opt (1 # 5)) None = Ok pm /\ build_system default_config id_ord (fs_opt (1 # 5)) None = Ok bs.
Proof.
  destruct (build default_config id_ord (fs_opt (1 # 5)) None) as [pm|] eqn:E; [|vm_compute in E; discriminate].
  unfold build in E. destruct (build_system default_config id_ord (fs_opt (1 # 5)) None) as [bs|] eqn:E2; [|discriminate]. eauto.
Qed.
Theorem C12_full_refuted : ~ C12_full.
Proof.
  intros F. destruct opt_builds as [pm [bs [H B]]].
  assert (E0 : 0 <= cf_eps default_config) by (vm_compute; discriminate). assert (E1 : cf_eps default_config < 1) by (vm_compute; reflexivity).
  set (c := Library.source "Opt" (opt_q (1 # 5))). set (f := opt_q (1 # 5)).
  assert (Hc : In c (fs_comps (fs_opt (1 # 5)))) by (left; reflexivity). assert (Hf : In f (cp_flows c)) by (left; reflexivity).
  destruct (flow_at _ _ _ _ _ _ _ _ H B Hc Hf) as [cx [fo [a [b0 [l [u [rate [sfh [oo_ [io [csum [clf [C [P [T [D _]]]]]]]]]]]]]]]].
  destruct (F default_config id_ord (fs_opt (1 # 5)) None pm bs (fo_tree fo) (fun _ _ => 0) c f _ H B E0 E1 Hc Hf eq_refl eq_refl D) as [y [_ [[_ [_ Z]] R]]].
  assert (Ht : (0 < steps (fs_opt (1 # 5)) None)%nat) by (simpl; lia).
  apply (C12_forced _ _ _ _ _ _ _ y c f 0%nat H B E0 Hc Hf eq_refl D Ht); auto.
Qed.
Print Assumptions C12_full_refuted.

(** ** It holds if the limits leave room for a rate of zero: by on/off behaviour, or since the smallest rate is zero *)
Lemma zero_segments : forall y elem pts outside m, multi_segments elem 1 pts outside = Ok m -> em_translates m ->
  (forall v ps, In (v, ps) pts -> v_len v = 1%nat /\ y (v_label v) 0%nat == 0 /\ forall a b, In (a, b) ps -> nlen a = 1%nat /\ nlen b = 1%nat) ->
  (exists v, outside = Some v /\ v_len v = 1%nat /\ y (v_label v) 0%nat == 0) ->
  (forall v ps r i w, pts = (v, ps) :: r -> (i < length ps)%nat -> In w ["inSegment"; "lambda0"; "lambda1"] -> y (seg elem i w) 0%nat == 0) ->
  em_sat y m.
Proof.
  intros y elem pts outside m H T PV [v0 [-> [LO ZO]]] Z0. apply (segments_admit y elem 1 pts (Some v0) m); auto.
  - intros v ps Hp. destruct (PV v ps Hp) as [L [_ N]]. split; auto. intros a b Hab. destruct (N a b Hab). auto.
  - intros v Ev. injection Ev as <-. auto.
  - intros v1 ps1 r E t Ht. assert (t = 0%nat) by lia. subst t.
    assert (Z : forall i, (i < length ps1)%nat -> y (seg elem i "inSegment") 0%nat == 0 /\ y (seg elem i "lambda0") 0%nat == 0 /\ y (seg elem i "lambda1") 0%nat == 0).
    { intros i Hi. repeat split; apply (Z0 v1 ps1 r i _ E Hi); simpl; auto. }
    split; [|split].
    + intros i Hi. destruct (Z i Hi) as [Z1 [Z2 Z3]]. constructor; [left; exact Z1|rewrite Z2; apply Qle_refl|rewrite Z3; apply Qle_refl|rewrite Z1, Z2, Z3; reflexivity].
    + intros v ps Hp. destruct (PV v ps Hp) as [_ [Zv _]]. rewrite Zv. unfold seg_value, sumn. symmetry. apply Qsum_zero.
      intros q Hq. apply in_map_iff in Hq. destruct Hq as [i [<- Hi]]. apply in_seq in Hi. destruct (nth_error ps i) as [[a b]|]; [|reflexivity].
      destruct (Z i ltac:(lia)) as [_ [Z2 Z3]]. rewrite Z2, Z3. ring.
    + rewrite ZO. unfold sumn. apply Qsum_zero. intros q Hq. apply in_map_iff in Hq. destruct Hq as [i [<- Hi]].
      apply in_seq in Hi. apply Z. lia.
Qed.
Lemma seg_declared : forall elem len v ps r outside m i w, len <> 0%nat -> multi_segments elem len ((v, ps) :: r) outside = Ok m ->
  (i < length ps)%nat -> In w ["inSegment"; "lambda0"; "lambda1"] -> exists n u, In n (flat m) /\ In u (em_vars n) /\ v_label u = seg elem i w.
Proof.
  intros elem len v ps r outside m i w NZ H Hi Hw. unfold multi_segments in H. bnd H nseg En. bnd H segs Esegs. bnd H eqs Eeqs. bnd H single Esi.
  apply mk_em_spec in H. destruct H as [-> _]. apply Ok_inj in En. subst nseg. apply mapM_Forall2 in Esegs.
  destruct (Forall2_In_l _ _ _ i Esegs) as [s [Hs Es]]; [apply in_seq; lia|].
  unfold segment_model in Es. bnd Es s0 E0. bnd Es l0 El0. bnd Es l1 El1. bnd Es k Ek. bnd Es m Em.
  apply mk_em_spec in Em. destruct Em as [Em _]. apply Ok_inj in Es.
  apply create_variable_spec in E0. apply create_variable_spec in El0. apply create_variable_spec in El1.
  assert (I : forall u, In u [s0; l0; l1] -> exists n, In n (flat (EM (model_full elem (Some "MultipleSegments")) "MultipleSegments" [] (eqs ++ [single]) (map sg_tree segs))) /\ In u (em_vars n)).
  { intros u Hu. exists m. split; [|subst m; exact Hu]. simpl. right. apply in_flat_map. exists m. split; [|apply flat_self].
    apply in_map_iff. exists s. split; auto. subst s. reflexivity. }
  destruct Hw as [<-|[<-|[<-|[]]]].
  - destruct (I s0) as [n [N1 N2]]; [simpl; auto|]. exists n, s0. subst s0. auto.
  - destruct (I l0) as [n [N1 N2]]; [simpl; auto|]. exists n, l0. subst l0. auto.
  - destruct (I l1) as [n [N1 N2]]; [simpl; auto|]. exists n, l1. subst l1. auto.
Qed.

Theorem C12_declining_partial : forall cf ord fs idx pm bs m x c f iv,
  build cf ord fs idx = Ok pm -> build_system cf ord fs idx = Ok bs -> 0 <= cf_eps cf -> cf_eps cf < 1 ->
  In c (fs_comps fs) -> In f (cp_flows c) -> sized cf c f = SzInv iv -> iv_optional iv = true ->
  declared_by bs (vlabel (flow_name c f) "flow_rate") m ->
  sound_flow cf fs idx c f ->
  (forall q, f_fh_min f = Some q -> q <= 0) -> (forall q, f_fh_max f = Some q -> 0 <= q) ->
  match governed fs idx c f with
  | None => forall t, (t < steps fs idx)%nat ->
      rel_min idx f t * fst (size_range cf (SzInv iv)) <= 0 /\ 0 <= rel_max idx f t * snd (size_range cf (SzInv iv))
  | Some o => countable_for o (prior_states cf f) /\ onoff_rules fs idx (prior_states cf f) o (fun _ => 0)
  end ->
  exists y, same_outside m (flow_name c f) x y /\ declined fs idx y c f /\ respects y m.
Proof.
  intros cf ord fs idx pm bs m x c f iv H B E0 E1 Hc Hf Sz Op D SF FH1 FH2 GV.
  destruct (flow_at _ _ _ _ _ _ _ _ H B Hc Hf) as [cx [fo [a [b0 [l [u [rate [sfh [oo_ [io [csum [clf [C [P [T [DF _]]]]]]]]]]]]]]]].
  pose proof (declared_unique _ _ _ _ _ _ _ _ _ H B D DF) as ->. set (nm := flow_name c f) in *.
  set (labels := map v_label (flat_map em_vars (flat (fo_tree fo)))).
  set (z := fun s : string => if existsb (String.eqb s) labels then fun _ : nat => 0 else x s).
  assert (Zin : forall n v, In n (flat (fo_tree fo)) -> In v (em_vars n) -> z (v_label v) = fun _ => 0).
  { intros n v Hn Hv. unfold z. assert (X : existsb (String.eqb (v_label v)) labels = true).
    { apply existsb_exists. exists (v_label v). split; [|apply String.eqb_refl]. apply in_map. apply in_flat_map. eauto. }
    rewrite X. reflexivity. }
  assert (Zr : z (vlabel nm "flow_rate") = fun _ => 0).
  { destruct DF as [_ [v [Hv <-]]]. apply (Zin (fo_tree fo)); auto. apply flat_self. }
  pose proof (fp_io _ _ _ _ _ _ _ _ _ _ _ _ _ _ P) as Eio. simpl in Eio. rewrite Sz in Eio. destruct Eio as [pr [i [_ [Ei ->]]]].
  assert (Ii : In (io_tree i) (flat (fo_tree fo))).
  { rewrite (fp_tree _ _ _ _ _ _ _ _ _ _ _ _ _ _ P). simpl. right. apply in_flat_map. exists (io_tree i). split; [|apply flat_self]. apply in_or_app. right. simpl. auto. }
  pose proof Ei as Ei0. apply invest_model_parts in Ei0. destruct Ei0 as [size [b1 [cs1 [cs2 [subs [H1 [H2 [_ [H4 [H5 [H6 H7]]]]]]]]]]].
  destruct (size_spec _ _ _ _ H1) as [Ls [Ns _]].
  change (vlabel (model_full nm (Some "Investment")) "size") with (inv nm "size") in Ls.
  assert (Ib : exists v, b1 = Some v /\ v_label v = inv nm "isInvested" /\ v_len v = 1%nat).
  { unfold invest_optional in H2. rewrite Op in H2. bnd H2 v Ev. apply create_variable_spec in Ev. exists v.
    split; [|subst v; auto]. destruct (iv_is_fixed iv); [bnd H2 k1 Ek1|bnd H2 k1 Ek1; bnd H2 k2 Ek2];
      apply Ok_inj in H2; apply pair_equal_spec in H2; destruct H2; auto. }
  destruct Ib as [vb [-> [Lb Nb]]].
  assert (Vs : In size (em_vars (io_tree i)) /\ In vb (em_vars (io_tree i))) by (rewrite H5; simpl; auto). destruct Vs as [Vs Vb].
  assert (Zs : z (inv nm "size") = fun _ => 0) by (rewrite <- Ls; apply (Zin (io_tree i)); auto).
  assert (Zb : z (inv nm "isInvested") = fun _ => 0) by (rewrite <- Lb; apply (Zin (io_tree i)); auto).
  assert (TI : em_translates (io_tree i)) by (eapply em_translates_flat; eauto).
  assert (A : flow_allowed cf fs idx z c f (fun _ => false)).
  { constructor; unfold rate_of; fold nm; rewrite ?Zr, ?Zs, ?Zb.
    - intros G t Ht. rewrite G in GV. unfold within_limits. rewrite Sz. apply GV; auto.
    - intros _ t Ht _. reflexivity.
    - intros _ t Ht Q. discriminate.
    - intros o G. rewrite G in GV. apply GV.
    - intros iv' Sz'. assert (iv' = iv) by congruence. subst iv'. unfold allowed_size. rewrite Op. destruct (fixed_size iv); left; split; reflexivity.
    - intros iv' Sz' t Ht. unfold size_of. rewrite Sz. fold nm. rewrite Zs. destruct (f_profile f); [ring|]. split; [|intros _]; ring_simplify; apply Qle_refl.
    - assert (S0 : sumn (steps fs idx) (fun t => hours fs idx t * 0) == 0).
      { unfold sumn. apply Qsum_zero. intros q Hq. apply in_map_iff in Hq. destruct Hq as [t [<- _]]. ring. }
      cbv zeta. unfold size_of. rewrite Sz. fold nm. rewrite Zs. repeat split; intros q Hq; rewrite S0; auto; ring_simplify; apply Qle_refl. }
  destruct (flow_complete cf fs idx cx c f fo a b0 l u rate sfh oo_ (Some i) csum clf z (fun _ => false) C E0 E1 P T SF) as [y [Y1 [Y2 [_ Y3]]]]; auto.
  - intros o G. rewrite G in GV. apply GV.
  - intros y i' OA Ei'. injection Ei' as <-. fold nm in OA. rewrite H5. simpl.
    assert (Yi : forall w, y (inv nm w) = z (inv nm w)).
    { intros w. apply OA; [intros Q; symmetry in Q; revert Q; apply sum_inv|intros; apply inv_oo]. }
    unfold invest_shares in H4. bnd H4 s1 X1. bnd H4 s2 X2. bnd H4 s3 X3. destruct (iv_seg iv) as [[spts eff]|].
    2:{ apply Ok_inj in H4. apply pair_equal_spec in H4. destruct H4 as [_ <-]. constructor. }
    bnd H4 ms4 X4. destruct ms4 as [m s4]. apply Ok_inj in H4. apply pair_equal_spec in H4. destruct H4 as [_ <-].
    unfold segmented_shares in X4. bnd X4 u0 U0. bnd X4 vs Evs. bnd X4 ms Ems. bnd X4 shs Eshs. bnd X4 m' Em. apply Ok_inj in X4.
    apply pair_equal_spec in X4. destruct X4 as [<- _]. apply mk_em_spec in Em. destruct Em as [-> _].
    constructor; [|constructor].
    assert (Ish : In (EM (model_full nm (Some "SegmentedShares")) "SegmentedShares" (map (fun t => snd (fst t)) vs) [] [ms]) (flat (io_tree i))).
    { rewrite H5. simpl. right. left. reflexivity. }
    pose proof (em_translates_flat _ _ TI Ish) as TS.
    assert (VS : forall t, In t vs -> v_len (snd (fst t)) = 1%nat /\ y (v_label (snd (fst t))) = (fun _ => 0)
                 /\ v_bin (snd (fst t)) = false /\ v_fixed (snd (fst t)) = None /\ v_lb (snd (fst t)) = None /\ v_ub (snd (fst t)) = None
                 /\ forall a b, In (a, b) (snd t) -> nlen a = 1%nat /\ nlen b = 1%nat).
    { intros t Ht. destruct (mapM_In_inv _ _ _ _ Evs Ht) as [el0 [_ E]]. bnd E lab El. bnd E v Ev. apply Ok_inj in E.
      assert (Vt : In v (map (fun t => snd (fst t)) vs)) by (apply in_map_iff; exists t; split; auto; subst t; reflexivity).
      pose proof Ev as Ev0. apply create_variable_spec in Ev. subst t. cbn [fst snd].
      split; [subst v; reflexivity|]. split; [|split; [subst v; reflexivity|split; [subst v; reflexivity|split; [subst v; reflexivity|split; [subst v; reflexivity|]]]]].
      - rewrite OA.
        + apply (Zin (EM (model_full nm (Some "SegmentedShares")) "SegmentedShares" (map (fun t => snd (fst t)) vs) [] [ms])); [eapply flat_trans; eauto|exact Vt].
        + rewrite Ev. cbn [v_label]. change (model_full nm (Some "SegmentedShares")) with (cat [nm; "__"; "SegmentedShares"]). intros Q.
          rewrite vlabel_sub, vlabel_own in Q. apply append_inj_l in Q. cbn in Q. discriminate.
        + intros w _. rewrite Ev. cbn [v_label]. change (model_full nm (Some "SegmentedShares")) with (cat [nm; "__"; "SegmentedShares"]). apply shares_oo.
      - intros p q Hpq. apply in_map_iff in Hpq. destruct Hpq as [pq [Q _]]. unfold qpair in Q. injection Q as <- <-. auto. }
    apply em_sat_intro; [|constructor|constructor; [|constructor]].
    + apply Forall_forall. intros v Hv. pose proof (em_translates_vars _ _ _ _ _ TS) as TV. rewrite Forall_forall in TV. specialize (TV v Hv).
      apply in_map_iff in Hv. destruct Hv as [t [<- Ht]]. destruct (VS t Ht) as [_ [_ [K1 [K2 [K3 [K4 _]]]]]].
      apply var_sat_intro; auto; rewrite ?K1, ?K3, ?K4; discriminate.
    + assert (IM : In ms (flat (fo_tree fo))).
      { eapply flat_trans; [exact Ii|]. eapply flat_trans; [exact Ish|]. simpl. right. rewrite app_nil_r. apply flat_self. }
      refine (zero_segments y nm _ (Some vb) ms Ems (em_translates_flat _ _ T IM) _ _ _).
      * intros v ps Hp. apply in_app_or in Hp. destruct Hp as [Hp|[Hp|[]]].
        -- apply in_map_iff in Hp. destruct Hp as [t [Q Ht]]. injection Q as <- <-. destruct (VS t Ht) as [K1 [K2 [_ [_ [_ [_ K3]]]]]].
           rewrite K2. split; auto. split; [reflexivity|auto].
        -- injection Hp as <- <-. rewrite Ls, Yi, Zs. split; auto. split; [reflexivity|]. intros p q Hpq. apply in_map_iff in Hpq.
           destruct Hpq as [pq [Q _]]. unfold qpair in Q. injection Q as <- <-. auto.
      * exists vb. split; auto. split; auto. rewrite Lb, Yi, Zb. reflexivity.
      * intros v ps r i0 w Epts Hi0 Hw. rewrite Epts in Ems. destruct (seg_declared nm 1 v ps r (Some vb) ms i0 w ltac:(lia) Ems Hi0 Hw) as [n [v' [Hn [Hv Lv']]]].
        rewrite OA; [|unfold seg; apart|intros w' _; apply seg_oo]. rewrite <- Lv'. rewrite (Zin n v'); [reflexivity|eapply flat_trans; eauto|auto].
  - exists y. fold nm in Y1. split; [|split; [|apply sat_respects; auto]].
    + intros s Hs Ho. destruct (String.string_dec s (vlabel nm "sumFlowHours")) as [Q|Q].
      * exfalso. apply (Hs (fo_tree fo) (within_self _)). exists sfh. rewrite (fp_tree _ _ _ _ _ _ _ _ _ _ _ _ _ _ P). split; [simpl; auto|].
        pose proof (fp_sfh _ _ _ _ _ _ _ _ _ _ _ _ _ _ P) as Es. apply create_variable_spec in Es. subst sfh s. reflexivity.
      * rewrite Y1 by auto. unfold z. destruct (existsb (String.eqb s) labels) eqn:X; auto. exfalso. apply existsb_exists in X.
        destruct X as [s' [Hs' E]]. apply String.eqb_eq in E. subst s'. apply in_map_iff in Hs'. destruct Hs' as [v [<- Hv]].
        apply in_flat_map in Hv. destruct Hv as [n [Hn Hv]]. apply (Hs n); [apply within_flat; auto|exists v; auto].
    + assert (Yi : forall w, y (inv nm w) = z (inv nm w)).
      { intros w. apply Y1; [intros Q; symmetry in Q; revert Q; apply sum_inv|intros; apply inv_oo]. }
      split; [fold nm; rewrite Yi, Zs; reflexivity|]. split; [fold nm; rewrite Yi, Zb; reflexivity|].
      intros t Ht. unfold rate_of. fold nm. rewrite Y1; [rewrite Zr; reflexivity|apply rate_sum_ne|intros; apply rate_not_onoff; auto].
Qed.
Print Assumptions C12_declining_partial.

(** Not building the line of the second system: an optional investment with segmented costs whose flow has default on/off
    behaviour. *)
Example C12_applies : exists pm bs m y, build default_config id_ord fs1 idx1 = Ok pm /\ build_system default_config id_ord fs1 idx1 = Ok bs
  /\ declared_by bs (vlabel "Line__in1" "flow_rate") m /\ same_outside m "Line__in1" x1 y
  /\ declined fs1 idx1 y line (set_size_ (SzInv line_inv) (flow0 60 "in1" el)) /\ respects y m.
Proof.
  set (f := set_size_ (SzInv line_inv) (flow0 60 "in1" el)).
  destruct x1_feasible as [pm [H _]]. destruct (builds _ _ _ _ _ H) as [bs B].
  assert (Hc : In line (fs_comps fs1)) by (simpl; auto). assert (Hf : In f (cp_flows line)) by (left; reflexivity).
  destruct (C56_model _ _ _ _ _ _ _ _ H B Hc Hf) as [m [D _]].
  destruct (C12_declining_partial default_config id_ord fs1 idx1 pm bs m x1 line f line_inv H B ltac:(vm_compute; discriminate) ltac:(reflexivity) Hc Hf eq_refl eq_refl D)
    as [y [Y1 [Y2 Y3]]].
  - split; [split; exact I|]. split.
    + intros iv E. injection E as <-. split; [vm_compute; discriminate|]. intros t Ht. split; vm_compute; discriminate.
    + intros o E. injection E as <-. intros Q. exfalso. apply Q. reflexivity.
  - intros q E. discriminate E.
  - intros q E. discriminate E.
  - change (governed fs1 idx1 line f) with (Some default_onoff). split; [split; intros [Q|Q]; exfalso; apply Q; reflexivity|].
    apply no_limits_rules. repeat split.
  - exists pm, bs, m, y. do 5 (split; [auto|]). auto.
Qed.
