(** On/off parts and mutual exclusion of components, completed from a plan that obeys the rules. *)
From Coq Require Import String Ascii.
From Verif Require Import Base BaseFacts MathModel Spec MathFacts MathTotal Structure StructureFacts Params Features Elements Library System SysSpec
  AdmitSpec CtxFacts ReadTools InvestFacts OnOffFacts OnOffLaws OnOffAdmits FlowFacts NavFacts FlowAdmits ResultFacts AdmitFacts InvestAdmits SegFacts SegAdmits
  ClosedFacts GlueFacts ShareAdmits EffectFacts AdmitNav CompFacts CompAdmits PropsFlow PropsOnOff PropsAdmits PropsComp PropsEffects PlanSpec SegWitness PlanPieces.

(** ** Rules depend on the pattern within the horizon only *)
Lemma is_run_ext : forall (a b : nat -> Q) n s t, (forall i, (i < n)%nat -> a i == b i) -> (t < n)%nat -> is_run a s t -> is_run b s t.
Proof.
  intros a b n s t E Ht [R1 [R2 R3]]. split; auto. split.
  - intros i Hi. rewrite <- E by lia. auto.
  - intros k Hk. rewrite <- E by lia. auto.
Qed.
Lemma limits_ext : forall fs idx prior a b dmin dmax, (1 <= steps fs idx)%nat -> (forall i, (i < steps fs idx)%nat -> a i == b i) ->
  obeys_limits fs idx prior a dmin dmax -> obeys_limits fs idx prior b dmin dmax.
Proof.
  intros fs idx prior a b dmin dmax N E [L1 [L2 L3]]. assert (E' : forall i, (i < steps fs idx)%nat -> b i == a i) by (intros; symmetry; auto).
  split; [|split].
  - intros p s t Hp Ht R. apply L1; auto. eapply is_run_ext; [exact E'|exact Ht|exact R].
  - intros p s t Hp Ht R Z. apply (L2 p s t); auto; [eapply is_run_ext; [exact E'| |exact R]; lia|]. rewrite E by lia. auto.
  - intros p Hp P0 P1. rewrite <- E by lia. eapply L3; eauto.
Qed.
Lemma Qeq_bool_ext : forall a b c, a == b -> Qeq_bool a c = Qeq_bool b c.
Proof.
  intros a b c E. destruct (Qeq_bool a c) eqn:X, (Qeq_bool b c) eqn:Y; auto.
  - apply Qeq_bool_eq in X. apply Qeq_bool_neq in Y. exfalso. apply Y. rewrite <- E. auto.
  - apply Qeq_bool_eq in Y. apply Qeq_bool_neq in X. exfalso. apply X. rewrite E. auto.
Qed.
Lemma starts_ext : forall was a b n, (forall i, (i < n)%nat -> a i == b i) -> starts was a n = starts was b n.
Proof.
  intros was a b n E. unfold starts. f_equal. apply filter_ext_in. intros t Ht. apply in_seq in Ht.
  rewrite (Qeq_bool_ext (a t) (b t)) by (apply E; lia). f_equal. apply Qeq_bool_ext. destruct t as [|k]; [reflexivity|]. simpl. apply E. lia.
Qed.
Lemma onoff_rules_ext : forall fs idx states o a b, (1 <= steps fs idx)%nat -> (forall i, (i < steps fs idx)%nat -> a i == b i) ->
  onoff_rules fs idx states o a -> onoff_rules fs idx states o b.
Proof.
  intros fs idx states o a b N E [R1 [R2 [R3 [R4 R5]]]].
  assert (S : sumn (steps fs idx) (fun t => hours fs idx t * a t) == sumn (steps fs idx) (fun t => hours fs idx t * b t)).
  { apply sumn_ext. intros t Ht. rewrite E by auto. reflexivity. }
  split; [intros q Hq; rewrite <- S; auto|]. split; [intros q Hq; rewrite <- S; auto|].
  split; [intros q Hq; rewrite <- (starts_ext _ a b) by auto; auto|].
  split; [exact (limits_ext _ _ _ _ _ _ _ N E R4)|]. refine (limits_ext _ _ _ _ _ _ _ N _ R5). intros i Hi. cbv beta. rewrite (E i Hi). reflexivity.
Qed.

(** ** On/off parts of components *)
Lemma comp_governed : forall fs idx c f, cp_onoff c <> None -> governed fs idx c f <> None.
Proof. intros fs idx c f H. unfold governed, induced. destruct (f_onoff f); [discriminate|]. destruct (cp_onoff c); [simpl; discriminate|congruence]. Qed.

Lemma flow_states : forall cf fs idx x c f t, 0 < cf_eps cf -> flow_rule cf fs idx x c f -> governed fs idx c f <> None -> (t < steps fs idx)%nat ->
  (on_of x c f t == 0 /\ rate_of x c f t == 0)
  \/ (on_of x c f t == 1 /\ cf_eps cf <= rate_of x c f t /\ within_limits cf idx c f t (rate_of x c f t)).
Proof.
  intros cf fs idx x c f t E0 [A MK] G Ht. destruct (MK G t Ht) as [O _]. change (x (oo (flow_name c f) "on") t) with (on_of x c f t) in O.
  destruct (runs x c f t) eqn:Rn.
  - right. split; [apply Qeq_bool_eq in Rn; exact Rn|]. apply (al_on _ _ _ _ _ _ _ A G t Ht Rn).
  - left. split; [|apply (al_off _ _ _ _ _ _ _ A G t Ht Rn)]. destruct O as [O|O]; auto. apply Qeq_bool_neq in Rn. contradiction.
Qed.

Lemma comp_pattern_holds : forall cf fs idx x c p, 0 < cf_eps cf -> cp_onoff c = Some p -> (forall f, In f (cp_flows c) -> flow_rule cf fs idx x c f) ->
  running_rule cf fs idx x c p ->
  (forall f t, In f (cp_flows c) -> (t < steps fs idx)%nat -> 0 <= rel_max idx f t * snd (size_range cf (sized cf c f))) ->
  comp_pattern cf fs idx x c (fun t => Qeq_bool (x (oo (cp_label c) "on") t) 1).
Proof.
  intros cf fs idx x c p E0 Hp FR [MK [RU _]] RM t Ht. destruct (MK t Ht) as [O _]. split.
  - intros Eb. apply Qeq_bool_neq in Eb. apply (RU t Ht). destruct O; [auto|contradiction].
  - intros Eb. apply Qeq_bool_eq in Eb.
    assert (ST : forall f, In f (cp_flows c) -> rate_of x c f t == 0 \/ (cf_eps cf <= rate_of x c f t /\ within_limits cf idx c f t (rate_of x c f t))).
    { intros f Hf. destruct (flow_states cf fs idx x c f t E0 (FR f Hf)) as [[_ Z]|[_ Z]]; auto. apply comp_governed. congruence. }
    assert (NZ : ~ forall f, In f (cp_flows c) -> rate_of x c f t == 0).
    { intros Z. apply (RU t Ht) in Z. rewrite Eb in Z. discriminate Z. }
    split.
    + clear RM RU MK. revert ST NZ. generalize (cp_flows c). induction l as [|f l IH]; intros ST NZ; [exfalso; apply NZ; intros f []|]. cbn [map]. rewrite Qsum_cons.
      assert (S0 : 0 <= Qsum (map (fun f => rate_of x c f t) l)).
      { apply Qsum_nonneg. intros q Hq. apply in_map_iff in Hq. destruct Hq as [g [<- Hg]].
        destruct (ST g (or_intror Hg)) as [Z|[Z _]]; [rewrite Z; apply Qle_refl|lra]. }
      destruct (ST f (or_introl eq_refl)) as [Z|[Z _]]; [|lra].
      assert (cf_eps cf <= Qsum (map (fun f => rate_of x c f t) l)); [|lra].
      apply IH; [intros; apply ST; simpl; auto|]. intros ZZ. apply NZ. intros g [<-|Hg]; auto.
    + intros f Hf. destruct (ST f Hf) as [Z|[_ Z]]; [left|right; auto]. split; [|split; [apply RM; auto|auto]].
      intros E. apply NZ. intros g Hg. rewrite E in Hg. destruct Hg as [<-|[]]. auto.
Qed.

Definition comp_seen (c : component) : list string := [oo (cp_label c) "on"; oo (cp_label c) "switchOn"].
Lemma running_completes : forall cf fs idx cx tr c p fos out x,
  ctx_for cf fs idx cx -> sensible cf fs idx -> obeys cf fs idx x -> In c (fs_comps fs) -> cp_onoff c = Some p ->
  Forall2 (fo_for cf fs idx cx c) (cp_flows c) fos ->
  onoff_model cx tr (cp_label c) p (map fo_rate fos) (map fo_bounds fos) = Ok out -> em_translates (ot_tree out) -> NoDup (labels_of (ot_tree out)) ->
  completes x (mkPiece (ot_tree out) (map fo_rate fos) (shown (comp_seen c) (ot_tree out)))
  /\ incl (ot_on out :: shv (ot_shares out)) (shown (comp_seen c) (ot_tree out))
  /\ present (steps fs idx) (oo (cp_label c) "on") (shown (comp_seen c) (ot_tree out))
  /\ present (steps fs idx) (oo (cp_label c) "switchOn") (shown (comp_seen c) (ot_tree out)).
Proof.
  intros cf fs idx cx tr c p fos out x C SE OB Hc Hp FF Eo T ND. destruct (se_eps _ _ _ SE) as [E0 E1]. pose proof (se_steps _ _ _ SE) as N2.
  destruct (se_comp _ _ _ SE c p Hc Hp) as [SL [CT [GN RM]]]. pose proof (ob_running _ _ _ _ OB c p Hc Hp) as RR.
  set (b := fun t => Qeq_bool (x (oo (cp_label c) "on") t) 1).
  assert (MR : forall t, (t < steps fs idx)%nat -> q01 (b t) == x (oo (cp_label c) "on") t
             /\ starting (List.last (comp_states cf c) false) b t == x (oo (cp_label c) "switchOn") t).
  { intros t Ht. apply (marks_runs x (cp_label c) _ (steps fs idx)); auto. apply RR. }
  destruct (comp_onoff_exists cf fs idx cx tr c p fos out x b C ltac:(lra) E1 FF Eo T) as [y [Y1 [Y2 [Y3 Y4]]]]; auto.
  { apply comp_pattern_holds with p; auto. intros f Hf. apply (ob_flow _ _ _ _ OB); auto. }
  { eapply onoff_rules_ext; [|intros i Hi; symmetry; apply (MR i Hi)|apply RR]. lia. }
  destruct (onoff_shown _ _ _ _ _ _ _ Eo) as [A1 [A2 [son [B1 [B2 [B3 B4]]]]]]. destruct (onoff_closed _ _ _ _ _ _ _ Eo) as [_ [Don _]].
  assert (I1 : In (ot_on out) (shown (comp_seen c) (ot_tree out))) by (apply shown_in; split; auto; rewrite A1; simpl; auto).
  assert (I2 : In son (shown (comp_seen c) (ot_tree out))) by (apply shown_in; split; auto; rewrite B2; simpl; auto).
  split; [|split; [intros v [<-|Hv]; auto; apply B4 in Hv; destruct Hv as [<-|[<-|[]]]; auto|
    rewrite <- (cf_n _ _ _ _ C); split; [exists (ot_on out)|exists son]; auto]].
  exists y. split; auto. cbn [pc_uses pc_shows]. intros v [Hv|Hv].
  - apply in_map_iff in Hv. destruct Hv as [fo [<- Hv]]. destruct (Forall2_In_r _ _ _ _ FF Hv) as [f [_ Sf]]. apply agree_eq. rewrite (fs_label _ _ _ _ Sf).
    apply Y1. intros w Hw. apply rate_not_onoff; auto.
  - apply shown_in in Hv. destruct Hv as [Dv [Lv|[Lv|[]]]].
    + assert (v = ot_on out) by (apply (unique_label _ _ _ ND Dv Don); congruence). subst v. intros t Ht. rewrite A2, (cf_n _ _ _ _ C) in Ht.
      rewrite <- Lv, Y2. apply (MR t Ht).
    + assert (v = son) by (apply (unique_label _ _ _ ND Dv B1); congruence). subst v. intros t Ht. rewrite B3, (cf_n _ _ _ _ C) in Ht.
      rewrite <- Lv, Y3. apply (MR t Ht).
Qed.

(** ** Mutual exclusion *)
Lemma one_of : forall l : list Q, (forall q, In q l -> q == 0 \/ q == 1) -> ForallOrdPairs (fun a b => a == 0 \/ b == 0) l -> Qsum l <= 1.
Proof.
  induction l as [|a l IH]; intros B P; [vm_compute; discriminate|]. rewrite Qsum_cons. inversion P as [|? ? P1 P2]; subst.
  specialize (IH (fun q h => B q (or_intror h)) P2). destruct (B a (or_introl eq_refl)) as [Z|Z]; rewrite Z; [lra|].
  rewrite Qsum_zero; [lra|]. intros q Hq. rewrite Forall_forall in P1. destruct (P1 q Hq) as [Z'|Z']; auto. rewrite Z in Z'. discriminate Z'.
Qed.
Lemma prevent_completes : forall cf fs idx cx c fos x ons m,
  ctx_for cf fs idx cx -> sensible cf fs idx -> obeys cf fs idx x -> In c (fs_comps fs) ->
  Forall2 (fo_for cf fs idx cx c) (cp_flows c) fos ->
  mapM (fun i => o <- find_fo fos i ;; of_option AttributeError (fo_on o)) (cp_prevent c) = Ok ons ->
  prevent_model (cp_label c) ons = Ok m -> em_translates m -> em_sat x m.
Proof.
  intros cf fs idx cx c fos x ons m C SE OB Hc FF E1 E2 T. pose proof (se_steps _ _ _ SE) as N2. destruct (se_eps _ _ _ SE) as [E0 _].
  assert (V : Forall2 (fun i v => v_len v = cx_n cx /\ exists f, In f (cp_flows c) /\ f_id f = i /\ v_label v = oo (flow_name c f) "on" /\ governed fs idx c f <> None) (cp_prevent c) ons).
  { apply mapM_Forall2 in E1. eapply Forall2_impl_; [|exact E1]. intros i v Hv. cbv beta in Hv. bnd Hv fo Efo. apply nth_error_some in Hv.
    unfold find_fo in Efo. apply nth_error_some in Efo. apply find_some in Efo. destruct Efo as [Hin Ei]. apply Nat.eqb_eq in Ei.
    destruct (Forall2_In_r _ _ _ _ FF Hin) as [f [Hf Sf]].
    pose proof (fs_on _ _ _ _ Sf) as X. rewrite (fs_id _ _ _ _ Sf) in Ei. simpl in X. destruct (governed fs idx c f) eqn:G; [|congruence].
    destruct X as [v' [X1 [X2 [X3 X4]]]]. assert (v' = v) by congruence. subst v'. split; auto. exists f. rewrite G. repeat split; auto. discriminate. }
  apply (prevent_admits x (cp_label c) ons m (cx_n cx)); auto.
  - rewrite (cf_n _ _ _ _ C). auto.
  - intros v Hv. destruct (Forall2_In_r _ _ _ _ V Hv) as [i [_ [L _]]]. auto.
  - intros t Ht. rewrite (cf_n _ _ _ _ C) in Ht. apply Qle_trans with 1; [|vm_compute; discriminate].
    destruct (se_shape _ _ _ SE c Hc) as [NP _]. pose proof (ob_exclusion _ _ _ _ OB c Hc) as EX. unfold exclusion_rule in EX.
    pose proof (fun f Hf => ob_flow _ _ _ _ OB c f Hc Hf) as FR. apply one_of.
    + intros q Hq. apply in_map_iff in Hq. destruct Hq as [v [<- Hv]]. destruct (Forall2_In_r _ _ _ _ V Hv) as [i [_ [_ [f [Hf [_ [L G]]]]]]]. rewrite L.
      destruct (FR f Hf) as [_ MK]. apply (MK G t Ht).
    + assert (EX' : forall f g, In f (cp_flows c) -> In g (cp_flows c) -> In (f_id f) (cp_prevent c) -> In (f_id g) (cp_prevent c) -> f_id f <> f_id g ->
         rate_of x c f t == 0 \/ rate_of x c g t == 0).
      { intros f g Hf Hg If Ig NE. apply EX; auto. congruence. }
      clear EX E1 E2 T. revert NP V EX'. generalize (cp_prevent c). intros pl NP V. induction V as [|i v il vl [Lv [f [Hf [Fi [L G]]]]] V IH]; intros EX'; [constructor|].
      inversion NP as [|? ? NI NP']; subst. constructor.
      * apply Forall_forall. intros q Hq. apply in_map_iff in Hq. destruct Hq as [w [<- Hw]].
        destruct (Forall2_In_r _ _ _ _ V Hw) as [j [Hj [_ [g [Hg [Gj [L' G']]]]]]]. rewrite L, L'. subst j.
        assert (Z : rate_of x c f t == 0 \/ rate_of x c g t == 0).
        { apply EX'; simpl; auto. intros E. apply NI. rewrite E. auto. }
        change (x (oo (flow_name c f) "on") t) with (on_of x c f t). change (x (oo (flow_name c g) "on") t) with (on_of x c g t).
        destruct (flow_states cf fs idx x c f t E0 (FR f Hf) G Ht) as [[Z1 _]|[_ [Z1 _]]]; [auto|].
        destruct (flow_states cf fs idx x c g t E0 (FR g Hg) G' Ht) as [[Z2 _]|[_ [Z2 _]]]; [auto|]. exfalso. destruct Z; lra.
      * apply IH; auto. intros f' g' A1 A2 A3 A4. apply EX'; simpl; auto.
Qed.
