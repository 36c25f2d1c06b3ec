(** Whole systems, completed from a plan that obeys the rules. *)
From Coq Require Import String Ascii Permutation.
From Verif Require Import Base BaseFacts MathModel Spec MathFacts MathTotal Structure StructureFacts Params Features Elements Library System SysSpec
  AdmitSpec CtxFacts ReadTools InvestFacts OnOffFacts OnOffLaws OnOffAdmits FlowFacts NavFacts FlowAdmits ResultFacts AdmitFacts InvestAdmits SegFacts SegAdmits
  ClosedFacts GlueFacts ShareFacts ShareAdmits EffectFacts EffectLaws EffectAdmits AdmitNav BusFacts CompFacts CompAdmits PropsFlow PropsOnOff PropsAdmits PropsComp PropsEffects
  PlanSpec SegWitness PlanPieces PlanComp PlanOwn PlanEffects.

(** ** Lists *)
Lemma NoDup_app_l : forall {A} (a b : list A), NoDup (a ++ b) -> NoDup a.
Proof.
  induction a as [|c a IH]; intros b H; [constructor|]. simpl in H. inversion H as [|? ? N N']; subst. constructor; [|eapply IH; eauto].
  intros Z. apply N. apply in_or_app. auto.
Qed.
Lemma labels_sub : forall ds d, NoDup (map v_label (flat_map decl ds)) -> In d ds -> NoDup (labels_of d).
Proof.
  induction ds as [|a ds IH]; intros d N []; cbn [flat_map] in N; rewrite map_app in N.
  - subst a. apply NoDup_app_l in N. exact N.
  - apply IH; auto. apply NoDup_app_parts in N. apply N.
Qed.
Lemma labels_apart : forall ds1 d ds2 v, NoDup (map v_label (flat_map decl (ds1 ++ d :: ds2))) -> In v (flat_map decl (ds1 ++ ds2)) -> ~ In (v_label v) (labels_of d).
Proof.
  intros ds1 d ds2 v N Hv Hd. rewrite flat_map_app in N, Hv. cbn [flat_map] in N. rewrite !map_app in N.
  assert (P : Permutation (map v_label (flat_map decl ds1) ++ map v_label (decl d) ++ map v_label (flat_map decl ds2))
                (map v_label (decl d) ++ map v_label (flat_map decl ds1) ++ map v_label (flat_map decl ds2))).
  { rewrite !app_assoc. apply Permutation_app_tail. apply Permutation_app_comm. }
  apply (Permutation_NoDup P) in N. apply NoDup_app_parts in N. destruct N as [_ N]. apply (N _ Hd). rewrite <- map_app. apply in_map. exact Hv.
Qed.

(** ** Components *)

(** What a component shows of the plan. *)
Record comp_shows (cf : config) (fs : flow_system) (idx : option (list nat)) (c : component) (sh : list variable) : Prop := {
  cs_rate : forall f, In f (cp_flows c) -> present (steps fs idx) (vlabel (flow_name c f) "flow_rate") sh;
  cs_on : forall f, In f (cp_flows c) -> governed fs idx c f <> None ->
     present (steps fs idx) (oo (flow_name c f) "on") sh /\ present (steps fs idx) (oo (flow_name c f) "switchOn") sh;
  cs_inv : forall f iv, In f (cp_flows c) -> sized cf c f = SzInv iv -> inv_present fs (flow_name c f) iv sh;
  cs_running : cp_onoff c <> None -> present (steps fs idx) (oo (cp_label c) "on") sh /\ present (steps fs idx) (oo (cp_label c) "switchOn") sh;
  cs_charge : forall s, cp_kind c = StorageC s -> present (S (steps fs idx)) (vlabel (cp_label c) "charge_state") sh
     /\ forall iv, st_cap s = CapInv iv -> inv_present fs (cp_label c) iv sh
}.
Lemma present_incl : forall n l a b, present n l a -> incl a b -> present n l b.
Proof. intros n l a b [v [H K]] I. exists v. auto. Qed.
Lemma inv_present_incl : forall fs nm iv a b, inv_present fs nm iv a -> incl a b -> inv_present fs nm iv b.
Proof.
  intros fs nm iv a b [A [B C]] I. split; [eapply present_incl; eauto|]. split; [intros H; eapply present_incl; eauto|].
  intros. eapply present_incl; [|exact I]. eapply C; eauto.
Qed.

Lemma comp_completes : forall cf fs idx cx tr c o oo_ pmm so x, ctx_for cf fs idx cx -> sensible cf fs idx -> obeys cf fs idx x -> In c (fs_comps fs) ->
  (forall l, Permutation (cx_ord cx l) l) -> NoDup (map f_id (cp_flows c)) ->
  comp_parts cx tr c (effective cf fs idx c) o oo_ pmm so -> em_translates (co_tree o) -> NoDup (labels_of (co_tree o)) ->
  exists sh, completes x (mkPiece (co_tree o) [] sh) /\ incl sh (decl (co_tree o)) /\ closedT (decl (co_tree o)) (co_tree o)
    /\ comp_shows cf fs idx c sh /\ incl (shv (co_shares o)) sh /\ incl (map fo_rate (co_flows o)) sh.
Proof.
  intros cf fs idx cx tr c o oo_ pmm so x C SE OB Hc OR NI P T ND.
  destruct (se_eps _ _ _ SE) as [E0 E1]. pose proof (cf_ok _ _ _ _ C) as CX. pose proof (cf_n _ _ _ _ C) as N.
  pose proof (fos_for _ _ _ _ _ _ _ _ _ _ CX P) as FF.
  pose proof (pa_tree _ _ _ _ _ _ _ _ P) as ET. rewrite ET in *. clear ET.
  assert (TS : forall m, In m ((map fo_tree (co_flows o) ++ oo_tree oo_ ++ pmm) ++ so_subs so) -> em_translates m) by (intros m Hm; eapply em_translates_sub; eauto).
  assert (TO : em_translates (own_tree c so)).
  { intros m Hm. simpl in Hm. destruct Hm as [<-|Hm]; [exact (T _ (or_introl eq_refl))|]. apply (T m). simpl. right.
    rewrite flat_map_app. apply in_or_app. auto. }
  (* the labels *)
  assert (PM : Permutation (flat_map decl (own_tree c so :: map fo_tree (co_flows o) ++ oo_tree oo_ ++ pmm))
                 (decl (EM (cp_label c) (cp_label c) (so_vars so) (so_cons so) ((map fo_tree (co_flows o) ++ oo_tree oo_ ++ pmm) ++ so_subs so)))).
  { cbn [flat_map]. unfold own_tree. rewrite !decl_EM, <- !app_assoc. apply Permutation_app_head. rewrite !flat_map_app. rewrite (Permutation_app_comm (flat_map decl (so_subs so))).
    rewrite <- !app_assoc. reflexivity. }
  assert (ND' : NoDup (map v_label (flat_map decl (own_tree c so :: map fo_tree (co_flows o) ++ oo_tree oo_ ++ pmm)))).
  { eapply Permutation_NoDup; [|exact ND]. apply Permutation_map, Permutation_sym, PM. }

  set (fos := co_flows o) in *.
  set (own := mkPiece (own_tree c so) (own_uses fos (option_map ot_on oo_)) (shown (own_seen fs c) (own_tree c so))).
  set (fp := fun fo => mkPiece (fo_tree fo) [] (shown (flow_seen fs (em_full (fo_tree fo))) (fo_tree fo))).
  set (op := map (fun out => mkPiece (ot_tree out) (map fo_rate fos) (shown (comp_seen c) (ot_tree out))) (match oo_ with Some out => [out] | None => [] end)).
  set (pp := fun m => mkPiece m (flat_map (fun fo => ovar (fo_on fo)) fos) []).
  set (ps := own :: map fp fos ++ op ++ map pp pmm).
  (* flows *)
  assert (FL : forall fo, In fo fos -> exists f, In f (cp_flows c) /\ flow_model cx true (cp_label c) (effective cf fs idx c f) = Ok fo
             /\ em_full (fo_tree fo) = flow_name c f).
  { intros fo Hfo. destruct (Forall2_In_r _ _ _ _ (pa_flows _ _ _ _ _ _ _ _ P) Hfo) as [f [Hf M]]. exists f. split; auto. split; auto.
    destruct (flow_has_parts _ _ _ _ M) as [a [b0 [l [u [rate [sfh [q [io [csum [clf FP]]]]]]]]]]. rewrite (fp_tree _ _ _ _ _ _ _ _ _ _ _ _ _ _ FP). reflexivity. }
  assert (FD : forall fo, In fo fos -> completes x (fp fo) /\ closedT (decl (fo_tree fo)) (fo_tree fo)
             /\ flow_vars_in (pc_shows (fp fo)) fo /\ incl (shv (fo_shares fo)) (pc_shows (fp fo))).
  { intros fo Hfo. destruct (FL fo Hfo) as [f [Hf [M EN]]]. destruct (flow_presents fs _ _ _ _ _ (cf_effs _ _ _ _ C) M) as [V1 [V2 _]].
    cbn [effective f_lab] in V1, V2. fold (flow_name c f) in V1, V2. unfold fp. cbn [pc_shows]. rewrite EN. split; [|split; [apply (flow_closed _ _ _ _ _ M)|auto]].
    destruct (flow_has_parts _ _ _ _ M) as [a [b0 [l [u [rate [sfh [q [io [csum [clf FP]]]]]]]]]]. destruct (se_flow _ _ _ SE c f Hc Hf) as [S1 S2].
    eapply flow_completes; eauto.
    - lra.
    - apply TS. apply in_or_app. left. apply in_or_app. left. apply in_map. auto.
    - apply (labels_sub _ (fo_tree fo) ND'). right. apply in_or_app. left. apply in_map. auto.
    - apply (ob_flow _ _ _ _ OB); auto.
    - intros iv Sz. apply (ob_segments _ _ _ _ OB). unfold investments. apply in_flat_map. exists c. split; auto. apply in_or_app. left.
      apply in_flat_map. exists f. split; auto. unfold flow_investment. rewrite Sz. left. reflexivity. }
  (* the component's states *)
  assert (OD : forall out, oo_ = Some out -> completes x (mkPiece (ot_tree out) (map fo_rate fos) (shown (comp_seen c) (ot_tree out)))
             /\ closedT (decl (ot_tree out) ++ map fo_rate fos) (ot_tree out)
             /\ incl (ot_on out :: shv (ot_shares out)) (shown (comp_seen c) (ot_tree out))
             /\ present (steps fs idx) (oo (cp_label c) "on") (shown (comp_seen c) (ot_tree out))
             /\ present (steps fs idx) (oo (cp_label c) "switchOn") (shown (comp_seen c) (ot_tree out))).
  { intros out ->. pose proof (pa_oo _ _ _ _ _ _ _ _ P) as EO. destruct (cp_onoff c) as [p|] eqn:Hp; [|discriminate EO].
    cbn [optM] in EO. bnd EO out' Eo. apply Ok_inj in EO. injection EO as ->.
    destruct (running_completes cf fs idx cx tr c p fos out x C SE OB Hc Hp FF Eo) as [R1 [R2 [R3 R4]]].
    - apply TS. apply in_or_app. left. apply in_or_app. right. left. reflexivity.
    - apply (labels_sub _ (ot_tree out) ND'). right. apply in_or_app. right. left. reflexivity.
    - destruct (onoff_closed _ _ _ _ _ _ _ Eo) as [K _]. auto 6. }
  assert (OM : on_made cx c (option_map ot_on oo_)).
  { unfold on_made. pose proof (pa_oo _ _ _ _ _ _ _ _ P) as EO. destruct (cp_onoff c) as [p|] eqn:Hp.
    - cbn [optM] in EO. bnd EO out' Eo. apply Ok_inj in EO. subst oo_. exists (ot_on out'). split; auto.
      destruct (onoff_shown _ _ _ _ _ _ _ Eo) as [A1 [A2 _]]. auto.
    - cbn [optM] in EO. apply Ok_inj in EO. subst oo_. reflexivity. }
  (* the rest *)
  destruct (own_completes cf fs idx cx tr c fos (option_map ot_on oo_) so x C SE OB Hc OR FF NI OM (pa_own _ _ _ _ _ _ _ _ P) TO) as [W1 [W2 [W3 W4]]].
  assert (PD : forall m, In m pmm -> em_sat x m /\ closedT (flat_map (fun fo => ovar (fo_on fo)) fos) m).
  { intros m Hm. assert (Tm : em_translates m) by (apply TS; apply in_or_app; left; apply in_or_app; right; apply in_or_app; auto).
    pose proof (pa_pm _ _ _ _ _ _ _ _ P) as EP. destruct (cp_prevent c) as [|pi pl] eqn:CP; [subst pmm; destruct Hm|]. rewrite <- CP in EP.
    destruct EP as [ons [m' [M1 [M2 ->]]]]. destruct Hm as [<-|[]]. split; [eapply prevent_completes; eauto|].
    eapply closedT_mono; [|apply (prevent_closed _ _ _ M2)]. intros v Hv. destruct (mapM_In_inv _ _ _ _ M1 Hv) as [i [_ Ev]].
    bnd Ev fo Efo. apply nth_error_some in Ev. apply in_flat_map. exists fo. split; [eapply find_fo_In; eauto|]. rewrite Ev. left. reflexivity. }
  set (sh := flat_map pc_shows ps).
  assert (IP : forall p, In p ps -> incl (pc_shows p) sh) by (intros p Hp v Hv; apply in_flat_map; eauto).
  assert (Iown : In own ps) by (left; reflexivity).
  assert (Ifl : forall fo, In fo fos -> In (fp fo) ps) by (intros fo Hfo; right; apply in_or_app; left; apply in_map; auto).
  assert (Iop : forall out, oo_ = Some out -> In (mkPiece (ot_tree out) (map fo_rate fos) (shown (comp_seen c) (ot_tree out))) ps).
  { intros out ->. right. apply in_or_app. right. left. reflexivity. }
  assert (Ipp : forall m, In m pmm -> In (pp m) ps) by (intros m Hm; right; apply in_or_app; right; apply in_or_app; right; apply in_map; auto).
  assert (CASES : forall (Q : GlueFacts.piece -> Prop), Q own -> (forall fo, In fo fos -> Q (fp fo)) ->
            (forall out, oo_ = Some out -> Q (mkPiece (ot_tree out) (map fo_rate fos) (shown (comp_seen c) (ot_tree out)))) ->
            (forall m, In m pmm -> Q (pp m)) -> forall p, In p ps -> Q p).
  { intros Q Q1 Q2 Q3 Q4 p [<-|Hp]; auto. apply in_app_iff in Hp. destruct Hp as [Hp|Hp].
    - apply in_map_iff in Hp. destruct Hp as [fo [<- Hfo]]. auto.
    - apply in_app_iff in Hp. destruct Hp as [Hp|Hp].
      + apply in_map_iff in Hp. destruct Hp as [out [<- Ho]]. destruct oo_ as [out'|]; [|destruct Ho]. destruct Ho as [<-|[]]. auto.
      + apply in_map_iff in Hp. destruct Hp as [m [<- Hm]]. auto. }
  assert (TR : map pc_tree ps = own_tree c so :: map fo_tree fos ++ oo_tree oo_ ++ pmm).
  { unfold ps. cbn [map]. rewrite !map_app, !map_map. cbn [pc_tree fp pp]. rewrite map_id. unfold op. rewrite map_map. cbn [pc_tree own]. destruct oo_; reflexivity. }
  assert (SD : forall p, In p ps -> incl (pc_shows p) (decl (pc_tree p))).
  { apply (CASES (fun p => incl (pc_shows p) (decl (pc_tree p)))); [| | |intros m _ v []]; intros; intros v Hv; apply shown_in in Hv; apply Hv. }
  assert (RATE : forall fo, In fo fos -> In (fo_rate fo) (pc_shows (fp fo)) /\ incl (ovar (fo_on fo)) (pc_shows (fp fo)) /\ incl (ovar (fo_size fo)) (pc_shows (fp fo))).
  { intros fo Hfo. destruct (FD fo Hfo) as [_ [_ [V _]]]. exact V. }
  assert (CL : forall p, In p ps -> closedT (decl (pc_tree p) ++ pc_uses p) (pc_tree p)).
  { apply (CASES (fun p => closedT (decl (pc_tree p) ++ pc_uses p) (pc_tree p))).
    - exact W2.
    - intros fo Hfo. cbn [fp pc_tree pc_uses]. rewrite app_nil_r. apply (FD fo Hfo).
    - intros out Ho. apply (OD out Ho).
    - intros m Hm. cbn [pp pc_tree pc_uses]. eapply closedT_mono; [|apply (PD m Hm)]. intros v Hv. apply in_or_app. auto. }
  assert (US : forall p v, In p ps -> In v (pc_uses p) -> exists q, In q ps /\ In v (pc_shows q)).
  { intros p v Hp. revert p Hp v. apply (CASES (fun p => forall v, In v (pc_uses p) -> exists q, In q ps /\ In v (pc_shows q))).
    - intros v Hv. cbn [own pc_uses] in Hv. unfold own_uses in Hv. apply in_app_iff in Hv. destruct Hv as [Hv|Hv].
      + apply in_flat_map in Hv. destruct Hv as [fo [Hfo Hv]]. exists (fp fo). split; auto. destruct (RATE fo Hfo) as [R1 [R2 R3]].
        destruct Hv as [<-|Hv]; auto. apply in_app_iff in Hv. destruct Hv; auto.
      + destruct oo_ as [out|]; [|destruct Hv]. destruct Hv as [<-|[]]. eexists. split; [apply (Iop out eq_refl)|]. cbn [pc_shows].
        destruct (OD out eq_refl) as [_ [_ [R _]]]. apply R. left. reflexivity.
    - intros fo _ v [].
    - intros out Ho v Hv. cbn [pc_uses] in Hv. apply in_map_iff in Hv. destruct Hv as [fo [<- Hfo]]. exists (fp fo). split; auto. exact (proj1 (RATE fo Hfo)).
    - intros m _ v Hv. cbn [pp pc_uses] in Hv. apply in_flat_map in Hv. destruct Hv as [fo [Hfo Hv]]. exists (fp fo). split; auto. apply (proj1 (proj2 (RATE fo Hfo))). exact Hv. }
  assert (DP : forall p, In p ps -> incl (decl (pc_tree p)) (decl (EM (cp_label c) (cp_label c) (so_vars so) (so_cons so) ((map fo_tree fos ++ oo_tree oo_ ++ pmm) ++ so_subs so)))).
  { intros p Hp v Hv. eapply Permutation_in; [exact PM|]. rewrite <- TR. apply in_flat_map. exists (pc_tree p). split; auto. apply in_map. auto. }
  assert (SHD : incl sh (decl (EM (cp_label c) (cp_label c) (so_vars so) (so_cons so) ((map fo_tree fos ++ oo_tree oo_ ++ pmm) ++ so_subs so)))).
  { intros v Hv. apply in_flat_map in Hv. destruct Hv as [p [Hp Hv]]. apply (DP p Hp). apply (SD p Hp). exact Hv. }
  exists sh. split; [|split; [exact SHD|split; [|split; [|split]]]].
  - destruct (glue x ps) as [y [Y1 Y2]]; auto.
    + rewrite TR. exact ND'.
    + apply (CASES (completes x)); auto; [intros fo Hfo; apply (FD fo Hfo)|intros out Ho; apply (OD out Ho)|].
      intros m Hm. exists x. split; [apply (PD m Hm)|]. intros v _. apply agree_refl.
    + exists y. cbn [pc_tree pc_uses pc_shows]. split.
      * pose proof (Y2 own Iown) as Y. cbn [own pc_tree] in Y. apply em_sat_intro.
        -- eapply em_sat_vars; exact Y.
        -- eapply em_sat_cons; exact Y.
        -- apply Forall_forall. intros m Hm. apply in_app_iff in Hm. destruct Hm as [Hm|Hm]; [|eapply em_sat_sub; [exact Y|exact Hm]].
           assert (Hm' : In m (map pc_tree ps)) by (rewrite TR; right; exact Hm). apply in_map_iff in Hm'. destruct Hm' as [p [<- Hp]]. auto.
      * intros v [[]|Hv]. apply in_flat_map in Hv. destruct Hv as [p [Hp Hv]]. eapply Y1; eauto.
  - assert (K : forall p, In p ps -> closedT (decl (EM (cp_label c) (cp_label c) (so_vars so) (so_cons so) ((map fo_tree fos ++ oo_tree oo_ ++ pmm) ++ so_subs so))) (pc_tree p)).
    { intros p Hp. eapply closedT_mono; [|apply (CL p Hp)]. intros v Hv. apply in_app_iff in Hv. destruct Hv as [Hv|Hv]; [apply (DP p Hp); exact Hv|].
      destruct (US p v Hp Hv) as [q [Hq Hs]]. apply (DP q Hq). apply (SD q Hq). exact Hs. }
    pose proof (K own Iown) as Ko. cbn [own pc_tree] in Ko. apply closedT_EM.
    + apply (Ko (own_tree c so)). apply flat_self.
    + intros m Hm. apply in_app_iff in Hm. destruct Hm as [Hm|Hm].
      * assert (Hm' : In m (map pc_tree ps)) by (rewrite TR; right; exact Hm). apply in_map_iff in Hm'. destruct Hm' as [p [<- Hp]]. auto.
      * intros m' Hm'. apply Ko. simpl. right. apply in_flat_map. exists m. auto.
  - assert (FP : forall f, In f (cp_flows c) -> exists fo, In fo fos /\ flow_model cx true (cp_label c) (effective cf fs idx c f) = Ok fo
             /\ shown (flow_seen fs (flow_name c f)) (fo_tree fo) = pc_shows (fp fo)).
    { intros f Hf. destruct (Forall2_In_l _ _ _ _ (pa_flows _ _ _ _ _ _ _ _ P) Hf) as [fo [Hfo M]]. exists fo. split; auto. split; auto.
      destruct (flow_has_parts _ _ _ _ M) as [a [b0 [l [u [rate [sfh [q [io [csum [clf FP]]]]]]]]]]. cbn [fp pc_shows]. rewrite (fp_tree _ _ _ _ _ _ _ _ _ _ _ _ _ _ FP). reflexivity. }
    constructor.
    + intros f Hf. destruct (FP f Hf) as [fo [Hfo [M EN]]]. destruct (flow_presents fs _ _ _ _ _ (cf_effs _ _ _ _ C) M) as [_ [_ [V _]]].
      eapply present_incl; [rewrite <- N; exact V|]. cbn [effective f_lab]. fold (flow_name c f). rewrite EN. auto.
    + intros f Hf G. destruct (FP f Hf) as [fo [Hfo [M EN]]]. destruct (flow_presents fs _ _ _ _ _ (cf_effs _ _ _ _ C) M) as [_ [_ [_ [V _]]]].
      destruct (V G) as [V1 V2]. rewrite <- N. cbn [effective f_lab] in V1, V2. fold (flow_name c f) in V1, V2. rewrite EN in V1, V2. split; eapply present_incl; eauto.
    + intros f iv Hf Sz. destruct (FP f Hf) as [fo [Hfo [M EN]]]. destruct (flow_presents fs _ _ _ _ _ (cf_effs _ _ _ _ C) M) as [_ [_ [_ [_ V]]]].
      specialize (V iv Sz). cbn [effective f_lab] in V. fold (flow_name c f) in V. rewrite EN in V. eapply inv_present_incl; eauto.
    + intros NP. unfold on_made in OM. destruct (cp_onoff c) as [p|]; [|congruence]. destruct OM as [v [Ev _]]. destruct oo_ as [out|]; [|discriminate].
      destruct (OD out eq_refl) as [_ [_ [_ [R1 R2]]]]. split; (eapply present_incl; [eassumption|]); exact (IP _ (Iop out eq_refl)).
    + intros s Ks. destruct (W4 s Ks) as [X1 X2]. split; [eapply present_incl; [exact X1|]; exact (IP own Iown)|]. intros iv Hiv.
      eapply inv_present_incl; [exact (X2 iv Hiv)|]. exact (IP own Iown).
  - rewrite (pa_shares _ _ _ _ _ _ _ _ P), !shv_app. intros v Hv. apply in_app_iff in Hv. destruct Hv as [Hv|Hv]; [apply in_app_iff in Hv; destruct Hv as [Hv|Hv]|].
    + unfold shv in Hv. apply in_flat_map in Hv. destruct Hv as [s [Hs Hv]]. apply in_flat_map in Hs. destruct Hs as [fo [Hfo Hs]].
      apply (IP (fp fo) (Ifl fo Hfo)). destruct (FD fo Hfo) as [_ [_ [_ V]]]. apply V. apply in_flat_map. eauto.
    + destruct oo_ as [out|]; [|destruct Hv]. destruct (OD out eq_refl) as [_ [_ [V _]]]. apply (IP _ (Iop out eq_refl)). apply V. right. exact Hv.
    + apply (IP own Iown). apply W3. exact Hv.
  - intros v Hv. apply in_map_iff in Hv. destruct Hv as [fo [<- Hfo]]. apply (IP (fp fo) (Ifl fo Hfo)). exact (proj1 (RATE fo Hfo)).
Qed.

(** ** The whole *)
Lemma comps_pieces : forall cf fs idx x cs cos,
  Forall2 (fun c o => exists sh, completes x (mkPiece (co_tree o) [] sh) /\ incl sh (decl (co_tree o)) /\ closedT (decl (co_tree o)) (co_tree o)
    /\ comp_shows cf fs idx c sh /\ incl (shv (co_shares o)) sh /\ incl (map fo_rate (co_flows o)) sh) cs cos ->
  exists ps, map pc_tree ps = map co_tree cos
    /\ (forall p, In p ps -> pc_uses p = [] /\ completes x p /\ incl (pc_shows p) (decl (pc_tree p)) /\ closedT (decl (pc_tree p)) (pc_tree p))
    /\ (forall c, In c cs -> exists p, In p ps /\ comp_shows cf fs idx c (pc_shows p))
    /\ (forall o, In o cos -> exists p, In p ps /\ incl (shv (co_shares o)) (pc_shows p) /\ incl (map fo_rate (co_flows o)) (pc_shows p)).
Proof.
  intros cf fs idx x cs cos H. induction H as [|c o cs cos [sh [A [B [C [D [E F]]]]]] _ [ps [I1 [I2 [I3 I4]]]]].
  - exists []. split; [reflexivity|]. split; [|split]; intros ? [].
  - exists (mkPiece (co_tree o) [] sh :: ps). split; [cbn [map]; rewrite I1; reflexivity|]. split; [|split].
    + intros p [<-|Hp]; auto.
    + intros c' [<-|Hc]; [eexists; split; [left; reflexivity|exact D]|]. destruct (I3 c' Hc) as [p [Hp K]]. exists p. split; [right; auto|auto].
    + intros o' [<-|Hc]; [eexists; split; [left; reflexivity|auto]|]. destruct (I4 o' Hc) as [p [Hp K]]. exists p. split; [right; auto|auto].
Qed.
Lemma buses_pieces : forall fs idx x R (bl : list bus) bos,
  Forall2 (fun b bo => exists us, em_sat x (fst bo) /\ closedT (decl (fst bo) ++ us) (fst bo) /\ incl us R /\ incl (shv (snd bo)) (decl (fst bo))
    /\ (b_penalty b <> None -> present (steps fs idx) (vlabel (b_lab b) "excess_input") (decl (fst bo)) /\ present (steps fs idx) (vlabel (b_lab b) "excess_output") (decl (fst bo)))) bl bos ->
  exists ps, map pc_tree ps = map fst bos
    /\ (forall p, In p ps -> incl (pc_uses p) R /\ completes x p /\ incl (pc_shows p) (decl (pc_tree p)) /\ closedT (decl (pc_tree p) ++ pc_uses p) (pc_tree p))
    /\ (forall b, In b bl -> b_penalty b <> None -> exists p, In p ps /\
          present (steps fs idx) (vlabel (b_lab b) "excess_input") (pc_shows p) /\ present (steps fs idx) (vlabel (b_lab b) "excess_output") (pc_shows p))
    /\ (forall bo : emodel * list share, In bo bos -> exists p, In p ps /\ incl (shv (snd bo)) (pc_shows p)).
Proof.
  intros fs idx x R bl bos H. induction H as [|b bo bl bos [us [A [B [C [D E]]]]] _ [ps [I1 [I2 [I3 I4]]]]].
  - exists []. split; [reflexivity|]. split; [|split]; intros ? [].
  - exists (mkPiece (fst bo) us (decl (fst bo)) :: ps). split; [cbn [map]; rewrite I1; reflexivity|]. split; [|split].
    + intros p [<-|Hp]; auto. cbn [pc_uses pc_shows pc_tree]. split; auto. split; [|split; auto; intros v Hv; exact Hv].
      exists x. split; auto. intros v _. apply agree_refl.
    + intros b' [<-|Hb] NP; [eexists; split; [left; reflexivity|auto]|]. destruct (I3 b' Hb NP) as [p [Hp K]]. exists p. split; [right; auto|auto].
    + intros o' [<-|Hb]; [eexists; split; [left; reflexivity|auto]|]. destruct (I4 o' Hb) as [p [Hp K]]. exists p. split; [right; auto|auto].
Qed.

Theorem plan_completes : forall cf ord fs idx pm x, (forall l, Permutation (ord l) l) -> build cf ord fs idx = Ok pm -> sensible cf fs idx -> obeys cf fs idx x ->
  exists y, same_plan cf fs idx x y /\ feasible pm y.
Proof.
  intros cf ord fs idx pm x PO B SE OB. destruct (build_parts _ _ _ _ _ B) as [cx [cos [bos [em [obj P]]]]].
  pose proof (sys_ctx _ _ _ _ _ _ _ _ _ _ P) as C. pose proof (sy_n _ _ _ _ _ _ _ _ _ _ P) as N.
  pose proof (system_translates _ _ _ (sy_translate _ _ _ _ _ _ _ _ _ _ P)) as TR. rewrite Forall_forall in TR.
  pose proof (roots_nodup _ _ _ (sy_translate _ _ _ _ _ _ _ _ _ _ P)) as ND.
  set (roots := em :: map co_tree cos ++ map fst bos) in *.
  set (shs := flat_map co_shares cos ++ flat_map snd bos).
  assert (RO : forall l, Permutation (cx_ord cx l) l) by (rewrite (sy_ord _ _ _ _ _ _ _ _ _ _ P); auto).
  (* components *)
  assert (HC : Forall2 (fun c o => exists sh, completes x (mkPiece (co_tree o) [] sh) /\ incl sh (decl (co_tree o)) /\ closedT (decl (co_tree o)) (co_tree o)
    /\ comp_shows cf fs idx c sh /\ incl (shv (co_shares o)) sh /\ incl (map fo_rate (co_flows o)) sh) (fs_comps fs) cos).
  { assert (X : forall c o, In c (fs_comps fs) -> In o cos -> (exists oo pm so, comp_parts cx (visible_comp fs (cp_label c)) c (effective cf fs idx c) o oo pm so) ->
       exists sh, completes x (mkPiece (co_tree o) [] sh) /\ incl sh (decl (co_tree o)) /\ closedT (decl (co_tree o)) (co_tree o)
        /\ comp_shows cf fs idx c sh /\ incl (shv (co_shares o)) sh /\ incl (map fo_rate (co_flows o)) sh).
    { intros c o Hc Ho [oo_ [pm_ [so HP]]].
      assert (IR : In (co_tree o) roots) by (right; apply in_or_app; left; apply in_map; auto).
      assert (NI : NoDup (map f_id (cp_flows c))).
      { pose proof (NoDup_flat_map_part _ _ _ c (sy_ids _ _ _ _ _ _ _ _ _ _ P) Hc) as Y. cbv beta in Y. rewrite map_map in Y. exact Y. }
      exact (comp_completes cf fs idx cx _ c o oo_ pm_ so x C SE OB Hc RO NI HP (TR _ IR) (labels_sub _ _ ND IR)). }
    pose proof (sy_comps _ _ _ _ _ _ _ _ _ _ P) as SC. revert X SC. generalize (fs_comps fs), cos. intros l l' X SC. induction SC as [|c o l l' H _ IH]; constructor.
    - apply X; simpl; auto.
    - apply IH. intros; apply X; simpl; auto. }
  destruct (comps_pieces cf fs idx x _ _ HC) as [ps1 [T1 [A1 [A2 A3]]]].
  (* buses *)
  assert (HB : Forall2 (fun b bo => exists us, em_sat x (fst bo) /\ closedT (decl (fst bo) ++ us) (fst bo) /\ incl us (map fo_rate (flat_map co_flows cos)) /\ incl (shv (snd bo)) (decl (fst bo))
    /\ (b_penalty b <> None -> present (steps fs idx) (vlabel (b_lab b) "excess_input") (decl (fst bo)) /\ present (steps fs idx) (vlabel (b_lab b) "excess_output") (decl (fst bo)))) (buses ord fs) bos).
  { assert (X : forall b bo, In b (buses ord fs) -> In bo bos ->
       (exists i o, rates cos (bus_inputs fs b) = Ok i /\ rates cos (bus_outputs fs b) = Ok o /\ bus_model cx b i o = Ok bo) ->
       exists us, em_sat x (fst bo) /\ closedT (decl (fst bo) ++ us) (fst bo) /\ incl us (map fo_rate (flat_map co_flows cos)) /\ incl (shv (snd bo)) (decl (fst bo))
    /\ (b_penalty b <> None -> present (steps fs idx) (vlabel (b_lab b) "excess_input") (decl (fst bo)) /\ present (steps fs idx) (vlabel (b_lab b) "excess_output") (decl (fst bo)))).
    { intros b bo Hb Hbo [i [o [Ei [Eo Eb]]]].
      assert (IR : In (fst bo) roots) by (right; apply in_or_app; right; apply in_map; auto).
      destruct (bus_completes _ _ _ _ _ _ _ _ _ _ x b bo i o P (se_steps _ _ _ SE) (ob_bus _ _ _ _ OB b (buses_used _ _ _ Hb)) Ei Eo Eb (TR _ IR)) as [R1 [R2 [R3 R4]]].
      exists (i ++ o). split; [exact R1|]. split; [exact R2|]. split; [|split; auto].
      intros v Hv. apply in_app_iff in Hv. destruct Hv as [Hv|Hv]; [exact (rates_incl _ _ _ Ei v Hv)|exact (rates_incl _ _ _ Eo v Hv)]. }
    pose proof (sy_buses _ _ _ _ _ _ _ _ _ _ P) as SB. revert X SB. generalize (buses ord fs), bos. intros l l' X SB. induction SB as [|c o l l' H _ IH]; constructor.
    - apply X; simpl; auto.
    - apply IH. intros; apply X; simpl; auto. }
  destruct (buses_pieces fs idx x _ _ _ HB) as [ps2 [T2 [B1 [B2 B3]]]].
  (* effects *)
  destruct (effects_model_parts _ _ _ _ _ (sy_effects _ _ _ _ _ _ _ _ _ _ P)) as [bo [bi [ms [pen [oe [vo [vi E]]]]]]].
  assert (IS : forall v, In v (shv shs) -> exists q, In q (ps1 ++ ps2) /\ In v (pc_shows q)).
  { intros v Hv. unfold shs in Hv. rewrite shv_app in Hv. apply in_app_iff in Hv. unfold shv in Hv. destruct Hv as [Hv|Hv];
      apply in_flat_map in Hv; destruct Hv as [s [Hs Hv]]; apply in_flat_map in Hs; destruct Hs as [o [Ho Hs]].
    - destruct (A3 o Ho) as [p [Hp [K _]]]. exists p. split; [apply in_or_app; auto|]. apply K. apply in_flat_map. eauto.
    - destruct (B3 o Ho) as [p [Hp K]]. exists p. split; [apply in_or_app; auto|]. apply K. apply in_flat_map. eauto. }
  assert (SD : forall p, In p (ps1 ++ ps2) -> incl (pc_shows p) (decl (pc_tree p))).
  { intros p Hp. apply in_app_iff in Hp. destruct Hp as [Hp|Hp]; [apply (A1 p Hp)|apply (B1 p Hp)]. }
  assert (TT : map pc_tree (ps1 ++ ps2) = map co_tree cos ++ map fst bos) by (rewrite map_app, T1, T2; reflexivity).
  assert (EC : completes x (mkPiece em (shv shs) (shown (total_labels (fs_effects fs)) em))).
  { eapply effects_complete; eauto.
    - apply TR. left. reflexivity.
    - apply (labels_sub _ em ND). left. reflexivity.
    - intros v Hv. apply (labels_apart [] em (map co_tree cos ++ map fst bos) v ND). cbn [app]. destruct (IS v Hv) as [q [Hq Hs]].
      rewrite <- TT. apply in_flat_map. exists (pc_tree q). split; [apply in_map; auto|apply (SD q Hq); auto]. }
  destruct (effects_closed _ _ _ _ _ (sy_effects _ _ _ _ _ _ _ _ _ _ P)) as [CE _].
  set (ps := mkPiece em (shv shs) (shown (total_labels (fs_effects fs)) em) :: ps1 ++ ps2).
  assert (RS : forall v, In v (map fo_rate (flat_map co_flows cos)) -> exists q, In q ps /\ In v (pc_shows q)).
  { intros v Hv. apply in_map_iff in Hv. destruct Hv as [fo [<- Hfo]]. apply in_flat_map in Hfo. destruct Hfo as [o [Ho Hfo]].
    destruct (A3 o Ho) as [p [Hp [_ K]]]. exists p. split; [right; apply in_or_app; auto|]. apply K. apply in_map. auto. }
  destruct (glue x ps) as [y [Y1 Y2]].
  - unfold ps. cbn [map]. rewrite TT. exact ND.
  - intros p [<-|Hp]; auto. apply in_app_iff in Hp. destruct Hp as [Hp|Hp]; [apply (A1 p Hp)|apply (B1 p Hp)].
  - intros p [<-|Hp]; auto. intros v Hv. apply shown_in in Hv. apply Hv.
  - intros p [<-|Hp]; [exact CE|]. apply in_app_iff in Hp. destruct Hp as [Hp|Hp]; [|apply (B1 p Hp)]. destruct (A1 p Hp) as [U [_ [_ K]]]. rewrite U, app_nil_r. exact K.
  - intros p v [<-|Hp] Hv.
    + destruct (IS v Hv) as [q [Hq Hs]]. exists q. split; [right; auto|auto].
    + apply in_app_iff in Hp. destruct Hp as [Hp|Hp]; [destruct (A1 p Hp) as [U _]; rewrite U in Hv; destruct Hv|]. apply RS. apply (B1 p Hp). exact Hv.
  - exists y. split.
    + assert (CS : forall c, In c (fs_comps fs) -> exists sh, comp_shows cf fs idx c sh /\ forall v, In v sh -> agree x y v).
      { intros c Hc. destruct (A2 c Hc) as [p [Hp K]]. exists (pc_shows p). split; auto. intros v Hv. apply (Y1 p); auto. right. apply in_or_app. auto. }
      destruct (totals_present _ _ _ _ _ _ _ _ _ _ _ _ _ E (sy_eff _ _ _ _ _ _ _ _ _ _ P)) as [TP PP].
      assert (YE : forall v, In v (shown (total_labels (fs_effects fs)) em) -> agree x y v).
      { intros v Hv. apply (Y1 (mkPiece em (shv shs) (shown (total_labels (fs_effects fs)) em))); [left; reflexivity|exact Hv]. }
      assert (INV : forall name iv sh, inv_present fs name iv sh -> (forall v, In v sh -> agree x y v) ->
                y (inv name "size") 0%nat == x (inv name "size") 0%nat
                /\ (iv_optional iv = true -> y (inv name "isInvested") 0%nat == x (inv name "isInvested") 0%nat)
                /\ (forall spts eff i l e, iv_seg iv = Some (spts, eff) -> In (i, l) eff -> In e (fs_effects fs) -> e_id e = i -> seg_cost y name e == seg_cost x name e)).
      { intros name iv sh [I1 [I2 I3]] G. split; [eapply present_agree; eauto|]. split; [intros O; eapply present_agree; eauto|].
        intros spts eff i l e S1 S2 S3 S4. unfold seg_cost. destruct (se_effects _ _ _ SE) as [DE _].
        exact (present_agree x y 1 _ sh 0%nat (I3 spts eff i l e S1 S2 S3 S4 DE) G Nat.lt_0_1). }
      constructor.
      * intros c f t Hc Hf Ht. destruct (CS c Hc) as [sh [K G]]. unfold rate_of. eapply present_agree; [apply (cs_rate _ _ _ _ _ K f Hf)|auto|auto].
      * intros c f t Hc Hf Gv Ht. destruct (CS c Hc) as [sh [K G]]. destruct (cs_on _ _ _ _ _ K f Hf Gv) as [K1 K2]. split; [unfold on_of|]; eapply present_agree; eauto.
      * intros c t Hc Gv Ht. destruct (CS c Hc) as [sh [K G]]. destruct (cs_running _ _ _ _ _ K Gv) as [K1 K2]. split; eapply present_agree; eauto.
      * intros name iv Hi. unfold investments in Hi. apply in_flat_map in Hi. destruct Hi as [c [Hc Hi]]. destruct (CS c Hc) as [sh [K G]].
        apply in_app_iff in Hi. destruct Hi as [Hi|Hi].
        -- apply in_flat_map in Hi. destruct Hi as [f [Hf Hi]]. unfold flow_investment in Hi. destruct (sized cf c f) as [q|iv'] eqn:Sz; [destruct Hi|].
           destruct Hi as [Hi|[]]. injection Hi as <- <-. apply (INV _ _ sh); auto. apply (cs_inv _ _ _ _ _ K f iv' Hf Sz).
        -- unfold storage_investment in Hi. destruct (cp_kind c) eqn:Kc; try (destruct Hi; fail). destruct (st_cap _) as [q|iv'] eqn:Sc; [destruct Hi|].
           destruct Hi as [Hi|[]]. injection Hi as <- <-. apply (INV _ _ sh); auto. destruct (cs_charge _ _ _ _ _ K _ Kc) as [_ K2]. apply K2. exact Sc.
      * intros c s t Hc Kc Ht. destruct (CS c Hc) as [sh [K G]]. destruct (cs_charge _ _ _ _ _ K _ Kc) as [K1 _]. unfold charge. eapply present_agree; [exact K1|auto|lia].
      * intros b t Ub Ht. unfold excess. destruct (b_penalty b) as [p0|] eqn:Pb; [|split; reflexivity].
        assert (Hb : In b (buses ord fs)) by (apply buses_complete; auto; [apply (sy_ids _ _ _ _ _ _ _ _ _ _ P)|apply (se_buses _ _ _ SE)]).
        destruct (B2 b Hb ltac:(congruence)) as [p [Hp [K1 K2]]].
        assert (G : forall v, In v (pc_shows p) -> agree x y v) by (intros v Hv; apply (Y1 p); auto; right; apply in_or_app; auto).
        split; eapply present_agree; eauto.
      * intros e He. destruct (TP e He) as [K1 [K2 [K3 K4]]]. rewrite N in K1. unfold op_at, op_sum, inv_sum, all_sum.
        split; [intros t Ht; eapply present_agree; eauto|]. split; [|split]; eapply present_agree; eauto.
      * unfold penalty_sum. eapply present_agree; eauto.
    + apply (sy_feasible _ _ _ _ _ _ _ _ _ _ P). split; [|split].
      * apply (Y2 (mkPiece em (shv shs) (shown (total_labels (fs_effects fs)) em))). left. reflexivity.
      * apply Forall_forall. intros o Ho. assert (I : In (co_tree o) (map pc_tree ps1)) by (rewrite T1; apply in_map; auto).
        apply in_map_iff in I. destruct I as [p [<- Hp]]. apply Y2. right. apply in_or_app. auto.
      * apply Forall_forall. intros o Ho. assert (I : In (fst o) (map pc_tree ps2)) by (rewrite T2; apply in_map; auto).
        apply in_map_iff in I. destruct I as [p [<- Hp]]. apply Y2. right. apply in_or_app. auto.
Qed.
