(** The own constraints of components (conversion, segments, storage, transmission), completed from a plan that obeys the rules. *)
From Coq Require Import String Ascii Permutation.
From Verif Require Import Base BaseFacts MathModel Spec MathFacts MathTotal Structure StructureFacts Params Features Elements Library System SysSpec
  AdmitSpec CtxFacts ReadTools InvestFacts OnOffFacts OnOffLaws OnOffAdmits FlowFacts NavFacts FlowAdmits ResultFacts AdmitFacts InvestAdmits SegFacts SegAdmits
  ClosedFacts GlueFacts ShareAdmits EffectFacts AdmitNav CompFacts CompAdmits PropsFlow PropsOnOff PropsAdmits PropsComp PropsEffects PlanSpec SegWitness PlanPieces PlanComp.

(** ** Segmented conversion *)
Definition trunc (n : nat) (vp : variable * list (numeric * numeric)) : variable * list (numeric * numeric) := (fst vp, firstn n (snd vp)).
Lemma mapM_map : forall {A B C} (g : A -> B) (f : B -> res C) l, mapM f (map g l) = mapM (fun a => f (g a)) l.
Proof. induction l as [|a l IH]; simpl; auto. rewrite IH. reflexivity. Qed.
Lemma nth_firstn : forall {A} n (l : list A) i, (i < n)%nat -> nth_error (firstn n l) i = nth_error l i.
Proof. induction n as [|n IH]; intros l i H; [lia|]. destruct l as [|a l]; [destruct i; reflexivity|]. destruct i as [|i]; simpl; auto. apply IH. lia. Qed.
Lemma eqs_trunc : forall {C} (g : variable -> list (numeric * numeric) -> res C) n pts,
  mapM (fun vp : variable * list (numeric * numeric) => let (v, ps) := vp in used <- mapM (fun i => of_option IndexError (nth_error ps i)) (seq 0 n) ;; g v used) (map (trunc n) pts)
  = mapM (fun vp : variable * list (numeric * numeric) => let (v, ps) := vp in used <- mapM (fun i => of_option IndexError (nth_error ps i)) (seq 0 n) ;; g v used) pts.
Proof.
  intros C g n pts. rewrite mapM_map. apply mapM_ext. intros [v ps] _. unfold trunc. cbn [fst snd].
  erewrite (mapM_ext _ _ (seq 0 n)); [reflexivity|]. intros i Hi. apply in_seq in Hi. rewrite nth_firstn by lia. reflexivity.
Qed.
Lemma multi_trunc : forall elem len v0 ps0 r outside,
  multi_segments elem len (map (trunc (length ps0)) ((v0, ps0) :: r)) outside = multi_segments elem len ((v0, ps0) :: r) outside.
Proof.
  intros elem len v0 ps0 r outside.
  assert (E0 : match map (trunc (length ps0)) ((v0, ps0) :: r) with [] => Err PyException | (_, s) :: _ => Ok (length s) end = Ok (length ps0)).
  { cbn [map trunc fst snd]. rewrite firstn_all. reflexivity. }
  unfold multi_segments. rewrite E0. cbn [bind]. destruct (mapM (segment_model elem len) (seq 0 (length ps0))) as [segs|e]; [|reflexivity]. cbn [bind].
  rewrite (eqs_trunc (fun v used => create_equation (model_full elem (Some "MultipleSegments")) (cat ["lambda_"; v_label v]) KEq
                   (AddS v (NS (-1)) None false ::
                    flat_map (fun sp : Features.seg_out * (numeric * numeric) =>
                                [AddS (sg_l0 (fst sp)) (fst (snd sp)) None false;
                                 AddS (sg_l1 (fst sp)) (snd (snd sp)) None false])
                             (combine segs used)))). reflexivity.
Qed.
Lemma multi_lens : forall elem len pts v0 ps0 r outside m, (2 <= len)%nat -> pts = (v0, ps0) :: r -> multi_segments elem len pts outside = Ok m ->
  (forall v ps, In (v, ps) pts -> v_len v = len /\ forall a b, In (a, b) ps -> good a /\ good b) ->
  forall v ps a b, In (v, ps) pts -> In (a, b) (firstn (length ps0) ps) -> (nlen a = 1%nat \/ nlen a = len) /\ (nlen b = 1%nat \/ nlen b = len).
Proof.
  intros elem len pts v0 ps0 r outside m N2 EP H G v ps a b Hv Hab. unfold multi_segments in H. rewrite EP in H at 1. bnd H nseg En.
  bnd H segs Esegs. bnd H eqs Eeqs. apply Ok_inj in En. subst nseg. clear H. destruct (BaseFacts.mapM_In _ _ _ _ Eeqs Hv) as [k [Ek _]]. cbv beta iota in Ek.
  bnd Ek used Eu. apply In_nth_error in Hab. destruct Hab as [i Hi].
  assert (Li : (i < length ps0)%nat).
  { assert (i < length (firstn (length ps0) ps))%nat by (apply nth_error_Some; congruence). rewrite firstn_length in H. lia. }
  rewrite nth_firstn in Hi by auto.
  assert (Hs : nth_error (seq 0 (length ps0)) i = Some i).
  { rewrite (nth_error_nth' _ 0%nat) by (rewrite seq_length; auto). rewrite seq_nth by auto. reflexivity. }
  destruct (mapM_nth _ _ _ _ _ Eu Hs) as [ab [E1 E2]]. rewrite Hi in E1. simpl in E1. apply Ok_inj in E1. subst ab.
  destruct (mapM_nth _ _ _ _ _ Esegs Hs) as [sg [E3 E4]].
  set (terms := (v, NS (-1)) :: flat_map (fun sp : Features.seg_out * (numeric * numeric) => [(sg_l0 (fst sp), fst (snd sp)); (sg_l1 (fst sp), snd (snd sp))]) (combine segs used)).
  assert (ET : AddS v (NS (-1)) None false :: flat_map (fun sp : Features.seg_out * (numeric * numeric) =>
                [AddS (sg_l0 (fst sp)) (fst (snd sp)) None false; AddS (sg_l1 (fst sp)) (snd (snd sp)) None false]) (combine segs used)
             = map tcall terms ++ map qcall []).
  { rewrite app_nil_r. unfold terms. cbn [map tcall fst snd]. f_equal. generalize (combine segs used). induction l as [|q l IH]; [reflexivity|]. cbn [flat_map map app tcall fst snd]. rewrite IH. reflexivity. }
  rewrite ET in Ek. destruct (G v ps Hv) as [Lv GP].
  assert (TG : forall u c, In (u, c) terms -> v_len u = len /\ good c).
  { intros u c [E|Hc]; [inversion E; subst; split; [auto|apply good_NS]|]. apply in_flat_map in Hc. destruct Hc as [[sg' [a' b']] [Hc Hu]].
    pose proof (in_combine_l _ _ _ _ Hc) as C1. pose proof (in_combine_r _ _ _ _ Hc) as C2.
    destruct (mapM_In_inv _ _ _ _ Esegs C1) as [j [_ Ej]]. destruct (segment_spec (fun _ _ => 0) _ len _ _ ltac:(lia) Ej) as [_ [L0 [L1 _]]].
    destruct (mapM_In_inv _ _ _ _ Eu C2) as [j' [_ Ej']]. apply nth_error_some in Ej'. apply nth_error_In in Ej'. destruct (GP _ _ Ej') as [G1 G2].
    cbn [fst snd] in Hu. destruct Hu as [E|[E|[]]]; inversion E; subst; auto. }
  assert (IC : In (sg, (a, b)) (combine segs used)).
  { clear - E2 E4. revert used i E2 E4. induction segs as [|s segs IH]; intros used i E2 E4; [destruct i; discriminate|].
    destruct used as [|u used]; [destruct i; discriminate|]. destruct i as [|i]; simpl in *; [left; congruence|right; eapply IH; eauto]. }
  assert (I1 : In (sg_l0 sg, a) terms) by (right; apply in_flat_map; exists (sg, (a, b)); simpl; auto).
  assert (I2 : In (sg_l1 sg, b) terms) by (right; apply in_flat_map; exists (sg, (a, b)); simpl; auto).
  split; eapply (terms_lens _ _ _ terms [] _ _ N2 Ek TG); eauto.
Qed.

Lemma segmented_exists : forall cf fs idx cx x tr c fos on segs m, ctx_for cf fs idx cx -> (2 <= steps fs idx)%nat ->
  Forall2 (fo_for cf fs idx cx c) (cp_flows c) fos ->
  match cp_onoff c with Some _ => exists v, on = Some v /\ v_label v = oo (cp_label c) "on" /\ v_len v = cx_n cx | None => on = None end ->
  segmented_model cx tr c fos on segs = Ok m -> em_translates m -> segmented_rule fs idx x c segs ->
  exists y, (forall l, (forall i w, In w segment_words -> l <> seg (cp_label c) i w) -> y l = x l) /\ em_sat y m.
Proof.
  intros cf fs idx cx x tr c fos on segs m CF N2 FF ON H T R. pose proof (cf_ok _ _ _ _ CF) as CX. pose proof (cf_n _ _ _ _ CF) as N.
  unfold segmented_model in H. bnd H pts Ep.
  assert (PTS : Forall2 (fun o vp => exists s, lookup_nat segs (fo_id o) = Some s /\ fst vp = fo_rate o
     /\ Forall2 (fun pp ab => act cx tr (fst pp) = Ok (fst ab) /\ act cx tr (snd pp) = Ok (snd ab)) s (snd vp)) fos pts).
  { apply mapM_Forall2 in Ep. eapply Forall2_impl_; [|exact Ep]. intros o vp E. cbv beta in E. bnd E s Es. bnd E ps Eps. fin E.
    apply nth_error_some in Es. exists s. split; auto. split; auto. simpl. apply mapM_Forall2 in Eps. eapply Forall2_impl_; [|exact Eps].
    intros pp ab E. cbv beta in E. bnd E a Ea. bnd E b Eb. fin E. auto. }
  assert (PG : forall v ps, In (v, ps) pts -> v_len v = cx_n cx /\ forall a b, In (a, b) ps -> good a /\ good b).
  { intros v ps Hp. destruct (Forall2_In_r _ _ _ _ PTS Hp) as [o [Ho [s [_ [E F2]]]]]. simpl in *. subst v.
    destruct (Forall2_In_r _ _ _ _ FF Ho) as [f [_ Sf]]. split; [apply (fs_len _ _ _ _ Sf)|].
    intros a b Hab. destruct (Forall2_In_r _ _ _ _ F2 Hab) as [pp [_ [A1 A2]]]. simpl in *.
    destruct (act_spec _ _ _ _ CX A1) as [_ [G1 _]]. destruct (act_spec _ _ _ _ CX A2) as [_ [G2 _]]. auto. }
  assert (FL : forall vp, In vp pts -> exists f s, In f (cp_flows c) /\ segments_of segs f = s /\ v_label (fst vp) = vlabel (flow_name c f) "flow_rate"
     /\ Forall2 (fun pp ab => act cx tr (fst pp) = Ok (fst ab) /\ act cx tr (snd pp) = Ok (snd ab)) s (snd vp)).
  { intros vp Hp. destruct (Forall2_In_r _ _ _ _ PTS Hp) as [o [Ho [s [L [E F2]]]]]. destruct (Forall2_In_r _ _ _ _ FF Ho) as [f [Hf Sf]].
    exists f, s. split; auto. rewrite (fs_id _ _ _ _ Sf) in L. split; [|split; [rewrite E; apply (fs_label _ _ _ _ Sf)|auto]].
    unfold segments_of. unfold lookup_nat in L. simpl in L. destruct (find (fun p => Nat.eqb (fst p) (f_id f)) segs) as [[i l]|]; simpl in L; [|discriminate]. congruence. }
  destruct pts as [|[v0 ps0] r] eqn:EP; [unfold multi_segments in H; simpl in H; discriminate|]. rewrite <- EP in *.
  assert (ML : forall v ps a b, In (v, ps) pts -> In (a, b) (firstn (length ps0) ps) -> (nlen a = 1%nat \/ nlen a = cx_n cx) /\ (nlen b = 1%nat \/ nlen b = cx_n cx)).
  { eapply multi_lens; [lia|exact EP|exact H|exact PG]. }
  rewrite EP in H. rewrite <- multi_trunc in H. rewrite <- EP in H. set (pts' := map (trunc (length ps0)) pts) in *.
  assert (IP : forall v ps', In (v, ps') pts' -> exists ps, In (v, ps) pts /\ ps' = firstn (length ps0) ps).
  { intros v ps' Hv. apply in_map_iff in Hv. destruct Hv as [[u ps] [E Hv]]. inversion E; subst. exists ps. auto. }
  assert (LON : forall v, on = Some v -> cp_onoff c <> None /\ v_label v = oo (cp_label c) "on" /\ v_len v = cx_n cx).
  { intros v Ev. destruct (cp_onoff c); [|congruence]. destruct ON as [v' [E1 E2]]. assert (v' = v) by congruence. subst v'. split; [discriminate|auto]. }
  destruct (segments_exist x (cp_label c) (cx_n cx) pts' on m) as [y Y]; auto.
  - lia.
  - intros v ps' Hv. destruct (IP v ps' Hv) as [ps [Hp ->]]. split; [apply (PG v ps Hp)|]. intros a b Hab. eapply ML; eauto.
  - intros v Ev. apply (LON v Ev).
  - intros v i w Hv Hw. apply in_app_or in Hv. destruct Hv as [Hv|Hv].
    + apply in_map_iff in Hv. destruct Hv as [[u ps'] [<- Hv]]. destruct (IP u ps' Hv) as [ps [Hp _]]. destruct (FL _ Hp) as [f [s [_ [_ [L _]]]]].
      cbn [fst] in *. rewrite L. apply seg_last; auto; rewrite lastc_vlabel; discriminate.
    + destruct on as [v'|]; [|destruct Hv]. destruct Hv as [<-|[]]. destruct (LON v' eq_refl) as [_ [L _]]. rewrite L.
      apply seg_last; auto; unfold oo; rewrite lastc_vlabel; discriminate.
  - intros t Ht. assert (Ht' : (t < steps fs idx)%nat) by lia. destruct (R t Ht') as [[k [w [W0 [W1 [L LO]]]]]|[NO [Z L]]].
    + left. exists k, w. split; [|intros v Ev; destruct (LON v Ev) as [NE [-> _]]; auto]. split; auto. split; auto.
      assert (Lk : (k < length ps0)%nat).
      { destruct (FL (v0, ps0)) as [f [s [Hf [Es [_ F2]]]]]; [rewrite EP; left; auto|]. destruct (L f Hf) as [ab [Nk _]]. rewrite Es in Nk.
        cbn [snd] in F2. rewrite <- (Forall2_len _ _ _ F2). apply nth_error_Some. congruence. }
      intros v ps' Hv. destruct (IP v ps' Hv) as [ps [Hp ->]]. destruct (FL _ Hp) as [f [s [Hf [Es [Lb F2]]]]]. cbn [fst snd] in *.
      destruct (L f Hf) as [[pa pb] [Nk OP]]. rewrite Es in Nk. destruct (Forall2_nth_l _ _ _ _ _ F2 Nk) as [[a b] [Nk' [A1 A2]]]. cbn [fst snd] in *.
      exists a, b. rewrite nth_firstn by auto. split; auto. rewrite Lb. change (x (vlabel (flow_name c f) "flow_rate") t) with (rate_of x c f t).
      assert (Hab : In (a, b) (firstn (length ps0) ps)) by (apply nth_error_In with k; rewrite nth_firstn by auto; auto).
      destruct (ML v ps a b Hp Hab) as [La Lb'].
      rewrite (act_at _ _ _ _ _ CX A1 (fits_of_len _ _ La) Ht), (act_at _ _ _ _ _ CX A2 (fits_of_len _ _ Lb') Ht), (cf_idx _ _ _ _ CF). exact OP.
    + right. destruct (cp_onoff c) as [p|]; [|congruence]. destruct ON as [v [E1 [E2 _]]]. exists v. split; auto. split; [rewrite E2; auto|].
      intros u ps' Hv. destruct (IP u ps' Hv) as [ps [Hp _]]. destruct (FL _ Hp) as [f [s [Hf [_ [Lb _]]]]]. cbn [fst] in Lb. rewrite Lb. apply (L f Hf).
  - exists y. auto.
Qed.

(** ** What a component's own constraints mention *)
Lemma own_closed : forall cx tr c fos on so D, own_model cx tr c fos on = Ok so ->
  (forall f, In f fos -> flow_vars_in D f) -> incl (ovar on) D -> incl (so_vars so ++ flat_map decl (so_subs so)) D ->
  closes D (so_cons so) /\ (forall m, In m (so_subs so) -> closedT D m) /\ incl (shv (so_shares so)) (so_vars so ++ flat_map decl (so_subs so)).
Proof.
  intros cx tr c fos on s D E3 B2 B3 IS. unfold own_model in E3.
  assert (Hf : forall f, In f fos -> In (fo_rate f) D) by (intros f Hf; exact (proj1 (B2 f Hf))).
  assert (NIL : forall k, closes D k -> s = mkSto [] k [] [] ->
            closes D (so_cons s) /\ (forall m, In m (so_subs s) -> closedT D m) /\ incl (shv (so_shares s)) (so_vars s ++ flat_map decl (so_subs s))).
  { intros k Hk ->. cbn. split; auto. split; [intros m []|intros v []]. }
  destruct (cp_kind c) as [|fs|segs|st|rel abs].
  - apply Ok_inj in E3. eapply NIL; [apply closes_nil|auto].
  - bnd E3 k F. apply Ok_inj in E3. eapply NIL; [|symmetry; exact E3]. unfold converter_cons in F. bnd F u Fu. intros q Hq.
    destruct (mapM_In_inv _ _ _ _ F Hq) as [p [_ E]]. unfold conversion_eq in E. bnd E ins G1. bnd E outs G2.
    eapply eq_uses; [exact E|].
    assert (X : forall sg ids l, conv_calls cx tr fos (snd p) sg ids = Ok l -> incl (flat_map call_vars l) D).
    { intros sg ids l G v Hv. apply in_flat_map in Hv. destruct Hv as [a [Ha Hv]]. unfold conv_calls in G.
      destruct (mapM_In_inv _ _ _ _ G Ha) as [i [_ E']]. bnd E' pp P1. bnd E' aa P2. bnd E' ob P3. apply Ok_inj in E'. subst a.
      destruct Hv as [<-|[]]. apply Hf. eapply find_fo_In; eauto. }
    rewrite !flat_map_app. apply incl_app; [eapply X; eauto|]. apply incl_app; [eapply X; eauto|intros v []].
  - bnd E3 m' F. apply Ok_inj in E3. subst s. cbn [so_cons so_subs so_shares so_vars] in *. split; [apply closes_nil|]. split; [|intros v []].
    intros m [<-|[]]. unfold segmented_model in F. bnd F pts Fp. apply multi_closed in F. eapply closedT_mono; [|exact F].
    intros v Hv. apply in_app_iff in Hv. destruct Hv as [Hv|Hv]; [|apply in_app_iff in Hv; destruct Hv as [Hv|Hv]].
    + apply IS. cbn. rewrite app_nil_r. exact Hv.
    + apply in_map_iff in Hv. destruct Hv as [p [<- Hp]]. destruct (mapM_In_inv _ _ _ _ Fp Hp) as [f [Hfo E]].
      bnd E ss P1. bnd E ps P2. apply Ok_inj in E. subst p. apply Hf. auto.
    + apply B3. exact Hv.
  - bnd E3 ch F1. bnd E3 dis F2. apply nth_error_some in F1. apply nth_error_some in F2. apply nth_error_In in F1. apply nth_error_In in F2.
    apply storage_closed in E3. destruct E3 as [A [A' A'']]. split; [|split].
    + eapply closes_mono; [|exact A]. intros v [<-|[<-|Hv]]; auto.
    + intros m Hm. eapply closedT_mono; [|exact (A' m Hm)]. auto.
    + exact A''.
  - bnd E3 k F. apply Ok_inj in E3. eapply NIL; [|symmetry; exact E3].
    assert (T : forall nm fi fo q, In fi fos -> In fo fos -> transmission_eq cx tr (cp_label c) nm rel abs fi fo = Ok q -> incl (uses q) D).
    { intros nm fi fo q Hi Ho G. unfold transmission_eq in G. bnd G e G1. bnd G l G2. eapply eq_uses; [exact G|].
      rewrite flat_map_app. apply incl_app; [intros v [<-|[<-|[]]]; auto|].
      destruct abs as [p|]; [|apply Ok_inj in G2; subst l; intros v []]. bnd G2 on' G3. bnd G2 a G4. apply Ok_inj in G2. subst l.
      intros v [<-|[]]. apply (proj1 (proj2 (B2 fi Hi))). apply nth_error_some in G3. rewrite G3. simpl; auto. }
    unfold transmission_cons in F. bnd F in1 G1. bnd F out1 G2. bnd F c1 G3.
    assert (HI : forall k x, nth_error (firstn (length (cp_in c)) fos) k = Some x -> In x fos).
    { intros k' x N. apply nth_error_In in N. rewrite <- (firstn_skipn (length (cp_in c))). apply in_or_app. auto. }
    assert (HO : forall k x, nth_error (skipn (length (cp_in c)) fos) k = Some x -> In x fos).
    { intros k' x N. apply nth_error_In in N. rewrite <- (firstn_skipn (length (cp_in c))). apply in_or_app. auto. }
    apply nth_error_some in G1. apply nth_error_some in G2.
    destruct (nth_error (firstn (length (cp_in c)) fos) 1) as [in2|] eqn:N3.
    + bnd F out2 G4. bnd F c2 G5. apply nth_error_some in G4. destruct (fo_size in1) as [s1|] eqn:Z1.
      * bnd F s2 G6. bnd F c3 G7. apply Ok_inj in F. subst k. apply nth_error_some in G6.
        apply closes_cons; [eapply T; [| |exact G3]; eauto|]. apply closes_cons; [eapply T; [| |exact G5]; eauto|].
        apply closes_cons; [|apply closes_nil]. eapply eq_uses; [exact G7|].
        pose proof (proj2 (proj2 (B2 _ (HI _ _ G1)))) as W1. pose proof (proj2 (proj2 (B2 _ (HI _ _ N3)))) as W2. rewrite Z1 in W1. rewrite G6 in W2.
        intros v [<-|[<-|[]]]; [apply W1|apply W2]; simpl; auto.
      * apply Ok_inj in F. subst k. apply closes_cons; [eapply T; [| |exact G3]; eauto|]. apply closes_cons; [eapply T; [| |exact G5]; eauto|apply closes_nil].
    + apply Ok_inj in F. subst k. apply closes_cons; [eapply T; [| |exact G3]; eauto|apply closes_nil].
Qed.

(** ** Storages *)
Lemma storage_made : forall cx tr full s ch dis so, storage_model cx tr full s ch dis = Ok so ->
  (exists cs nd, so_vars so = [cs; nd] /\ v_label cs = vlabel full "charge_state" /\ v_len cs = (cx_n cx + 1)%nat /\ v_label nd = vlabel full "netto_discharge")
  /\ st_init s <> ICBad
  /\ match st_cap s with
     | CapNum _ => so_subs so = [] /\ so_shares so = []
     | CapInv iv => exists io cs rl ru, invest_model cx tr full iv cs rl ru None None = Ok io /\ so_subs so = [io_tree io] /\ so_shares so = io_shares io
     end.
Proof.
  intros cx tr full s ch dis o H. unfold storage_model in H. bnd H rl E1. bnd H ru E2. destruct (cap_limits cx (st_cap s)) as [lo hi].
  bnd H lb E3. bnd H ub E4. bnd H cs E5. bnd H nd E6. bnd H ceq E7. bnd H loss E8. bnd H ec E9. bnd H ed E10. bnd H f1 E11. bnd H f2 E12.
  bnd H iq E13. bnd H f3 E14. bnd H bal E15. bnd H io E16. bnd H ends E17. apply Ok_inj in H. subst o. cbn [so_vars so_cons so_subs so_shares].
  apply create_variable_spec in E5. apply create_variable_spec in E6. split; [|split].
  - exists cs, nd. split; auto. subst cs nd. cbn. auto.
  - intros Z. unfold storage_ends in E17. rewrite Z in E17. discriminate E17.
  - destruct (st_cap s) as [q|iv].
    + apply Ok_inj in E16. subst io. auto.
    + bnd E16 i G. apply Ok_inj in E16. subst io. exists i, cs, rl, ru. auto.
Qed.
Lemma nested_netto : forall cl fl s w, vlabel (cat [flow_full cl fl; "__"; s]) w <> vlabel cl "netto_discharge".
Proof.
  intros cl fl s w H. rewrite vlabel_sub, vlabel_own in H. unfold flow_full, cat in H. cbn [fold_right] in H. rewrite !append_nil_r', !app_assoc_s in H.
  apply append_inj_l in H. cbn in H. discriminate.
Qed.
Lemma rate_netto : forall cl fl, vlabel (flow_full cl fl) "flow_rate" <> vlabel cl "netto_discharge".
Proof. intros cl fl. unfold flow_full. apart. Qed.
Lemma inv_seen_netto : forall fs nm l, In l (inv_seen fs nm) -> l <> vlabel nm "netto_discharge".
Proof.
  intros fs nm l [<-|[<-|H]]; try apart. apply in_map_iff in H. destruct H as [e [<- _]]. unfold seg_label. apart.
Qed.

Lemma storage_exists : forall cf fs idx cx x tr c s ch dis cho diso so, ctx_for cf fs idx cx -> (2 <= steps fs idx)%nat -> 0 <= cf_eps cf ->
  v_label (fo_rate cho) = vlabel (flow_name c ch) "flow_rate" -> v_len (fo_rate cho) = cx_n cx ->
  v_label (fo_rate diso) = vlabel (flow_name c dis) "flow_rate" -> v_len (fo_rate diso) = cx_n cx ->
  storage_model cx tr (cp_label c) s cho diso = Ok so ->
  Forall v_translates (so_vars so) -> Forall c_translates (so_cons so) -> Forall em_translates (so_subs so) ->
  storage_rule cf fs idx x c s ch dis -> (forall iv, st_cap s = CapInv iv -> 0 <= max_size cf iv /\ segments_rule fs x (cp_label c) iv) ->
  exists y, (forall l, (forall i w, In w segment_words -> l <> seg (cp_label c) i w) -> l <> vlabel (cp_label c) "netto_discharge" -> y l = x l)
    /\ Forall (var_sat y) (so_vars so) /\ Forall (con_sat y) (so_cons so) /\ Forall (em_sat y) (so_subs so).
Proof.
  intros cf fs idx cx x tr c s ch dis cho diso so C N2 E0 Lc Nc Ld Nd H TV TC TS R IV. set (cl := cp_label c) in *.
  destruct (storage_made _ _ _ _ _ _ _ H) as [_ [NB MK]].
  assert (Z : exists z, (forall l, (forall i w, In w segment_words -> l <> seg cl i w) -> z l = x l)
     /\ forall y, (forall l, l <> vlabel cl "netto_discharge" -> y l = z l) -> Forall (em_sat y) (flat_map em_subs (so_subs so))).
  { destruct (st_cap s) as [q|iv] eqn:CP.
    - destruct MK as [-> _]. exists x. split; auto. intros y _. constructor.
    - destruct MK as [io [cs [rl [ru [EI [ES _]]]]]]. destruct (IV iv eq_refl) as [_ SR]. pose proof (invest_is_seen fs _ _ _ _ _ _ _ _ _ _ (cf_effs _ _ _ _ C) EI) as IS.
      destruct (is_subs _ _ _ _ IS x SR) as [z [Z1 Z2]]. { rewrite ES in TS. inversion TS; auto. }
      exists z. split; auto. intros y Hy. rewrite ES. cbn [flat_map]. rewrite app_nil_r. apply Z2. intros v Hv. apply Hy.
      destruct (is_decl _ _ _ _ IS v Hv) as [Hl|[i [w [_ ->]]]]; [apply (inv_seen_netto fs); auto|apart]. }
  destruct Z as [z [Z1 Z2]].
  set (y := fun l t => if String.eqb l (vlabel cl "netto_discharge") then x (v_label (fo_rate diso)) t - x (v_label (fo_rate cho)) t else z l t).
  assert (Y1 : forall l, l <> vlabel cl "netto_discharge" -> y l = z l).
  { intros l Hl. unfold y. apply String.eqb_neq in Hl. rewrite Hl. reflexivity. }
  assert (Y : forall l, lastc l = Some "e"%char \/ lastc l = Some "d"%char -> l <> vlabel cl "netto_discharge" -> y l = x l).
  { intros l La Hl. rewrite Y1 by auto. apply Z1. intros i w Hw. apply seg_last; auto; destruct La as [-> | ->]; discriminate. }
  assert (YR : forall f, y (vlabel (flow_name c f) "flow_rate") = x (vlabel (flow_name c f) "flow_rate")).
  { intros f. apply Y; [left; apply lastc_vlabel; discriminate|apply rate_netto]. }
  assert (YC : y (vlabel cl "charge_state") = x (vlabel cl "charge_state")).
  { apply Y; [left; apply lastc_vlabel; discriminate|]. apart. }
  assert (YS : y (inv cl "size") = x (inv cl "size")) by (apply Y; [left; apply lastc_vlabel; discriminate|apart]).
  assert (YI : y (inv cl "isInvested") = x (inv cl "isInvested")) by (apply Y; [right; apply lastc_vlabel; discriminate|apart]).
  pose proof (cf_n _ _ _ _ C) as N. pose proof (cf_ok _ _ _ _ C) as CX. destruct R as [R1 [R2 [R3 [R4 [R5 [R6 R7]]]]]].
  unfold charge, capacity in *. fold cl in R1, R2, R3, R4, R5, R6, R7.
  exists y. split.
  { intros l Hs Hn. rewrite Y1 by auto. apply Z1. auto. }
  refine (storage_admits y cx tr cl s cho diso so CX ltac:(lia) Nc Nd H TV TC TS _ (Z2 y Y1)). constructor.
  - intros t Ht. rewrite Lc, Ld, !YR. unfold y. rewrite String.eqb_refl, Lc, Ld. reflexivity.
  - intros t Ht. rewrite (cf_idx _ _ _ _ C), Lc, Ld, !YR, YC. rewrite N in Ht. destruct (R1 t Ht) as [A B]. split; auto.
    rewrite (dt_hours cf fs idx cx t C Ht). exact B.
  - intros t Ht. rewrite (cf_idx _ _ _ _ C), YC. rewrite N in Ht. destruct (R2 t Ht) as [_ [_ [A B]]].
    unfold cap_limits, cap_range in *. destruct (st_cap s) as [q|iv]; cbn [fst snd] in *; auto.
    rewrite (max_range _ _ _ _ iv C). unfold iv_minimum. auto.
  - intros iv CP q d. destruct (IV iv CP) as [M _]. pose proof (R3 iv CP) as A. unfold q, d. rewrite YS, YI, YC.
    destruct (size_allowed_rows cf fs idx cx iv _ _ C E0 M A) as [S1 [S2 _]]. split; auto. split; auto.
    intros t Ht. rewrite (cf_idx _ _ _ _ C). rewrite N in Ht. destruct (R2 t Ht) as [A1 [A2 _]]. rewrite CP in A1, A2. auto.
  - rewrite YC, N. destruct (st_init s); auto. symmetry. apply R5; reflexivity.
  - intros q. rewrite YC, N. intros; apply R6; auto.
  - intros q. rewrite YC, N. intros; apply R7; auto.
Qed.

(** ** A component's own part *)
Definition own_tree (c : component) (so : sto_out) : emodel := EM (cp_label c) (cp_label c) (so_vars so) (so_cons so) (so_subs so).
Definition own_uses (fos : list flow_out) (on : option variable) : list variable :=
  flat_map (fun o => fo_rate o :: ovar (fo_on o) ++ ovar (fo_size o)) fos ++ ovar on.
Definition own_seen (fs : flow_system) (c : component) : list string := vlabel (cp_label c) "charge_state" :: inv_seen fs (cp_label c).
Definition on_made (cx : ctx) (c : component) (on : option variable) : Prop :=
  match cp_onoff c with Some _ => exists v, on = Some v /\ v_label v = oo (cp_label c) "on" /\ v_len v = cx_n cx | None => on = None end.

Lemma transmission_laws : forall cf fs idx cx tr c rel abs fos k x, ctx_for cf fs idx cx -> Forall2 (fo_for cf fs idx cx c) (cp_flows c) fos ->
  NoDup (map f_id (cp_flows c)) -> cp_kind c = TransmissionC rel abs ->
  (exists label in1 out1 in2 out2 oo prevent, c = transmission label in1 out1 in2 out2 rel abs oo prevent) ->
  transmission_cons cx tr c fos rel abs = Ok k -> own_rule cf fs idx x c ->
  (forall j i o, nth_error (cp_in c) j = Some i -> nth_error (cp_out c) j = Some o -> direction_law fs idx x c rel abs i o)
  /\ (forall in1 in2 iv, nth_error (cp_in c) 0 = Some in1 -> nth_error (cp_in c) 1 = Some in2 -> sized cf c in1 = SzInv iv ->
        x (inv (flow_name c in1) "size") 0%nat == x (inv (flow_name c in2) "size") 0%nat).
Proof.
  intros cf fs idx cx tr c rel abs fos k x CF FF ND CK [label [in1 [out1 [in2 [out2 [oo_ [prevent EC]]]]]]] H R.
  assert (CI : cp_in c = in1 :: opt_flow in2) by (rewrite EC; reflexivity). assert (CO : cp_out c = out1 :: opt_flow out2) by (rewrite EC; reflexivity).
  unfold own_rule in R. rewrite CK in R. specialize (R _ _ _ _ CI CO). destruct R as [R1 R2].
  assert (GOV : forall fi fo i nm k1, fo_for cf fs idx cx c i fi -> transmission_eq cx tr (cp_label c) nm rel abs fi fo = Ok k1 -> abs <> None -> governed fs idx c i <> None).
  { intros fi fo i nm k1 Si E NA. unfold transmission_eq in E. bnd E e E1. bnd E l E2. destruct abs as [p|]; [|congruence]. bnd E2 o E3.
    apply nth_error_some in E3. destruct (fo_on_of _ _ _ _ x _ _ _ 0%nat Si) as [_ [_ G]]. apply (G _ E3). }
  assert (LAW : forall i o, (abs <> None -> governed fs idx c i <> None) -> carries fs idx x c rel abs i o -> direction_law fs idx x c rel abs i o).
  { intros i o G L. split; auto. intros t Ht. rewrite (L t Ht). unfold loss_at, lost. destruct abs as [p|]; [|ring].
    destruct (governed fs idx c i); [reflexivity|]. exfalso. apply G; [discriminate|reflexivity]. }
  destruct (Forall2_app_split _ _ _ _ FF) as [FI FO]. unfold transmission_cons in H. bnd H i1 E1. bnd H o1 E2. bnd H c1 E3. apply nth_error_some in E1.
  destruct (Forall2_nth_error _ _ _ _ _ FI E1) as [i1' [Hi1 Si1]]. rewrite CI in Hi1. injection Hi1 as <-.
  split.
  - intros [|j] i o Hi Ho; rewrite CI in Hi; rewrite CO in Ho; cbn [nth_error] in Hi, Ho.
    + injection Hi as <-. injection Ho as <-. apply LAW; auto. apply (GOV _ _ _ _ _ Si1 E3).
    + destruct in2 as [i2|]; [|destruct j; discriminate Hi]. destruct out2 as [o2|]; [|destruct j; discriminate Ho].
      destruct j as [|j]; [|destruct j; discriminate Hi]. injection Hi as <-. injection Ho as <-. destruct R2 as [R2 _]. apply LAW; auto.
      assert (N1 : nth_error (cp_in c) 1 = Some i2) by (rewrite CI; reflexivity).
      destruct (Forall2_nth_l _ _ _ _ _ FI N1) as [fi2 [E4 Si2]]. rewrite E4 in H. bnd H o2o E5. bnd H c2 E6. apply (GOV _ _ _ _ _ Si2 E6).
  - intros a b iv Ha Hb Sz. rewrite CI in Ha, Hb. injection Ha as <-. destruct in2 as [i2|]; [|discriminate Hb]. injection Hb as <-.
    assert (NE : f_id in1 <> f_id i2).
    { unfold cp_flows in ND. rewrite CI in ND. cbn in ND. inversion ND as [|? ? NI _]. intros Z. apply NI. left. auto. }
    destruct out2 as [o2|].
    2:{ assert (N1 : nth_error (cp_in c) 1 = Some i2) by (rewrite CI; reflexivity). destruct (Forall2_nth_l _ _ _ _ _ FI N1) as [fi2 [E4 _]]. rewrite E4 in H. bnd H o2o E5.
        apply nth_error_some in E5. destruct (Forall2_nth_error _ _ _ _ _ FO E5) as [o2' [Z _]]. rewrite CO in Z. discriminate Z. }
    destruct R2 as [_ R2]. unfold sized in Sz. rewrite CK, CI in Sz. cbn [opt_flow] in Sz. apply Nat.eqb_neq in NE. rewrite NE in Sz.
    specialize (R2 iv Sz). unfold size_of, sized in R2. rewrite CK, CI in R2. cbn [opt_flow] in R2. rewrite NE, Nat.eqb_refl, Sz in R2.
    destruct (f_size i2); exact R2.
Qed.

Lemma own_exists : forall cf fs idx cx tr c fos on so x, ctx_for cf fs idx cx -> sensible cf fs idx -> obeys cf fs idx x -> In c (fs_comps fs) ->
  (forall l, Permutation (cx_ord cx l) l) -> Forall2 (fo_for cf fs idx cx c) (cp_flows c) fos -> NoDup (map f_id (cp_flows c)) -> on_made cx c on ->
  own_model cx tr c fos on = Ok so -> em_translates (own_tree c so) ->
  exists w, em_sat w (own_tree c so)
    /\ forall l, (forall i s, In s segment_words -> l <> seg (cp_label c) i s) -> l <> vlabel (cp_label c) "netto_discharge" -> w l = x l.
Proof.
  intros cf fs idx cx tr c fos on so x C SE OB Hc OR FF ND ON H T. unfold own_tree in *. pose proof (em_translates_vars _ _ _ _ _ T) as TV.
  pose proof (em_translates_cons _ _ _ _ _ T) as TC. assert (TS : Forall em_translates (so_subs so)) by (apply Forall_forall; intros m Hm; eapply em_translates_sub; eauto).
  clear T. pose proof (se_steps _ _ _ SE) as N2. pose proof (cf_n _ _ _ _ C) as N. destruct (se_eps _ _ _ SE) as [E0 _].
  pose proof (ob_own _ _ _ _ OB c Hc) as R. destruct (se_shape _ _ _ SE c Hc) as [_ SH].
  assert (CONS : forall k, so = mkSto [] k [] [] -> Forall (con_sat x) k -> exists w, em_sat w (EM (cp_label c) (cp_label c) (so_vars so) (so_cons so) (so_subs so))
    /\ forall l, (forall i s, In s segment_words -> l <> seg (cp_label c) i s) -> l <> vlabel (cp_label c) "netto_discharge" -> w l = x l).
  { intros k -> K. exists x. split; auto. apply em_sat_intro; cbn; auto. }
  unfold own_model in H. destruct (cp_kind c) as [|eqs|segs|s|rel abs] eqn:CK.
  - apply Ok_inj in H. apply (CONS []); auto.
  - bnd H k Ek. apply Ok_inj in H. apply (CONS k); auto. subst so. cbn [so_cons] in TC. unfold converter_cons in Ek. bnd Ek u Eu.
    apply Forall_forall. intros q Hq. destruct (mapM_In_inv _ _ _ _ Ek Hq) as [[i factors] [Hp E]]. cbn [fst snd] in E.
    rewrite Forall_forall in TC. refine (conversion_admits cf fs idx cx x tr c fos i factors q C ltac:(lia) OR FF ND E (TC q Hq) _).
    intros t Ht. unfold own_rule in R. rewrite CK in R. apply R; [apply in_combine_r in Hp; exact Hp|lia].
  - bnd H m Em. apply Ok_inj in H. subst so. cbn [so_vars so_cons so_subs] in *. unfold own_rule in R. rewrite CK in R. inversion TS as [|? ? Tm _]; subst.
    destruct (segmented_exists cf fs idx cx x tr c fos on segs m C N2 FF ON Em Tm R) as [y [Y1 Y2]]. exists y. split; [|intros l Hl _; apply Y1; auto].
    apply em_sat_intro; auto.
  - destruct SH as [label [ch [dis [prevent EC]]]]. assert (CI : cp_in c = [ch]) by (rewrite EC; reflexivity). assert (CO : cp_out c = [dis]) by (rewrite EC; reflexivity).
    bnd H cho Ech. bnd H diso Edis. apply nth_error_some in Ech. apply nth_error_some in Edis.
    destruct (Forall2_nth_error _ _ _ _ _ FF Ech) as [f1 [H1 S1]]. destruct (Forall2_nth_error _ _ _ _ _ FF Edis) as [f2 [H2 S2]].
    unfold cp_flows in H1, H2. rewrite CI, CO in H1, H2. injection H1 as <-. injection H2 as <-.
    unfold own_rule in R. rewrite CK in R. specialize (R ch dis CI CO).
    destruct (storage_exists cf fs idx cx x tr c s ch dis cho diso so C N2 (Qlt_le_weak _ _ E0) (fs_label _ _ _ _ S1) (fs_len _ _ _ _ S1) (fs_label _ _ _ _ S2) (fs_len _ _ _ _ S2) H TV TC TS R)
      as [y [Y1 [Y2 [Y3 Y4]]]].
    + intros iv CP. split; [apply (se_store _ _ _ SE c s iv); auto|]. apply (ob_segments _ _ _ _ OB). unfold investments. apply in_flat_map. exists c. split; auto.
      apply in_or_app. right. unfold storage_investment. rewrite CK, CP. left. reflexivity.
    + exists y. split; auto. apply em_sat_intro; auto.
  - bnd H k Ek. apply Ok_inj in H. apply (CONS k); auto. subst so. cbn [so_cons] in TC.
    destruct (transmission_laws cf fs idx cx tr c rel abs fos k x C FF ND CK SH Ek R) as [D1 D2].
    eapply transmission_admits; eauto. lia.
Qed.

Lemma own_completes : forall cf fs idx cx tr c fos on so x, ctx_for cf fs idx cx -> sensible cf fs idx -> obeys cf fs idx x -> In c (fs_comps fs) ->
  (forall l, Permutation (cx_ord cx l) l) -> Forall2 (fo_for cf fs idx cx c) (cp_flows c) fos -> NoDup (map f_id (cp_flows c)) -> on_made cx c on ->
  own_model cx tr c fos on = Ok so -> em_translates (own_tree c so) ->
  completes x (mkPiece (own_tree c so) (own_uses fos on) (shown (own_seen fs c) (own_tree c so)))
  /\ closedT (decl (own_tree c so) ++ own_uses fos on) (own_tree c so)
  /\ incl (shv (so_shares so)) (shown (own_seen fs c) (own_tree c so))
  /\ forall s, cp_kind c = StorageC s -> present (S (steps fs idx)) (vlabel (cp_label c) "charge_state") (shown (own_seen fs c) (own_tree c so))
       /\ forall iv, st_cap s = CapInv iv -> inv_present fs (cp_label c) iv (shown (own_seen fs c) (own_tree c so)).
Proof.
  intros cf fs idx cx tr c fos on so x C SE OB Hc OR FF ND ON H T.
  destruct (own_exists cf fs idx cx tr c fos on so x C SE OB Hc OR FF ND ON H T) as [w [W1 W2]].
  set (sh := shown (own_seen fs c) (own_tree c so)).
  assert (ED : decl (own_tree c so) = so_vars so ++ flat_map decl (so_subs so)) by apply decl_EM.
  assert (CL : closes (decl (own_tree c so) ++ own_uses fos on) (so_cons so)
               /\ (forall m, In m (so_subs so) -> closedT (decl (own_tree c so) ++ own_uses fos on) m)
               /\ incl (shv (so_shares so)) (decl (own_tree c so))).
  { rewrite ED. apply (own_closed _ _ _ _ _ _ ((so_vars so ++ flat_map decl (so_subs so)) ++ own_uses fos on) H).
    - intros f Hf. assert (I : incl (fo_rate f :: ovar (fo_on f) ++ ovar (fo_size f)) (own_uses fos on)).
      { intros v Hv. unfold own_uses. apply in_or_app. left. apply in_flat_map. exists f. auto. }
      split; [|split]; [apply in_or_app; right; apply I; left; auto| |]; intros v Hv; apply in_or_app; right; apply I; right; apply in_or_app; auto.
    - intros v Hv. apply in_or_app. right. unfold own_uses. apply in_or_app. auto.
    - apply incl_appl, incl_refl. }
  destruct CL as [CL1 [CL2 CL3]]. split; [|split; [|split]].
  - exists w. split; auto. cbn [pc_uses pc_shows]. intros v Hv. apply agree_eq. apply W2; destruct Hv as [Hv|Hv].
    + intros i s Hs. unfold own_uses in Hv. apply in_app_or in Hv. destruct Hv as [Hv|Hv].
      * apply in_flat_map in Hv. destruct Hv as [o [Ho Hv]]. destruct (Forall2_In_r _ _ _ _ FF Ho) as [f [_ Sf]]. destruct Hv as [<-|Hv].
        { rewrite (fs_label _ _ _ _ Sf). apply seg_last; auto; rewrite lastc_vlabel; discriminate. }
        apply in_app_or in Hv. destruct Hv as [Hv|Hv].
        { pose proof (fs_on _ _ _ _ Sf) as X. destruct (f_onoff _); [destruct X as [v' [X1 [X2 _]]]|]; [|rewrite X in Hv; destruct Hv].
          rewrite X1 in Hv. destruct Hv as [<-|[]]. rewrite X2. apply seg_last; auto; unfold oo; rewrite lastc_vlabel; discriminate. }
        { pose proof (fs_size _ _ _ _ Sf) as X. destruct (f_size _); [rewrite X in Hv; destruct Hv|]. destruct X as [v' [X1 [X2 _]]].
          rewrite X1 in Hv. destruct Hv as [<-|[]]. rewrite X2. apply seg_last; auto; unfold inv; rewrite lastc_vlabel; discriminate. }
      * unfold on_made in ON. destruct (cp_onoff c); [destruct ON as [v' [E1 [E2 _]]]|subst on; destruct Hv].
        rewrite E1 in Hv. destruct Hv as [<-|[]]. rewrite E2. apply seg_last; auto; unfold oo; rewrite lastc_vlabel; discriminate.
    + intros i s Hs. apply shown_in in Hv. destruct Hv as [_ [<-|Hl]]; [apply seg_last; auto; rewrite lastc_vlabel; discriminate|].
      eapply inv_seen_seg; eauto.
    + unfold own_uses in Hv. apply in_app_or in Hv. destruct Hv as [Hv|Hv].
      * apply in_flat_map in Hv. destruct Hv as [o [Ho Hv]]. destruct (Forall2_In_r _ _ _ _ FF Ho) as [f [_ Sf]]. destruct Hv as [<-|Hv].
        { rewrite (fs_label _ _ _ _ Sf). apply rate_netto. }
        apply in_app_or in Hv. destruct Hv as [Hv|Hv].
        { pose proof (fs_on _ _ _ _ Sf) as X. destruct (f_onoff _); [destruct X as [v' [X1 [X2 _]]]|]; [|rewrite X in Hv; destruct Hv].
          rewrite X1 in Hv. destruct Hv as [<-|[]]. rewrite X2. apply nested_netto. }
        { pose proof (fs_size _ _ _ _ Sf) as X. destruct (f_size _); [rewrite X in Hv; destruct Hv|]. destruct X as [v' [X1 [X2 _]]].
          rewrite X1 in Hv. destruct Hv as [<-|[]]. rewrite X2. apply nested_netto. }
      * unfold on_made in ON. destruct (cp_onoff c); [destruct ON as [v' [E1 [E2 _]]]|subst on; destruct Hv].
        rewrite E1 in Hv. destruct Hv as [<-|[]]. rewrite E2. apart.
    + apply shown_in in Hv. destruct Hv as [_ [<-|Hl]]; [apart|]. eapply inv_seen_netto; eauto.
  - apply closedT_EM; auto.
  - intros v Hv. apply shown_in. split; [apply CL3; auto|]. right. unfold own_model in H. destruct (cp_kind c) as [|eqs|segs|s|rel abs].
    + apply Ok_inj in H. subst so. destruct Hv.
    + bnd H k Ek. apply Ok_inj in H. subst so. destruct Hv.
    + bnd H k Ek. apply Ok_inj in H. subst so. destruct Hv.
    + bnd H cho Ech. bnd H diso Edis. destruct (storage_made _ _ _ _ _ _ _ H) as [_ [_ MK]]. destruct (st_cap s) as [q|iv].
      * destruct MK as [_ Es]. rewrite Es in Hv. destruct Hv.
      * destruct MK as [io [cs [rl [ru [EI [_ Es]]]]]]. rewrite Es in Hv. pose proof (invest_is_seen fs _ _ _ _ _ _ _ _ _ _ (cf_effs _ _ _ _ C) EI) as IS.
        apply (is_shares _ _ _ _ IS v Hv).
    + bnd H k Ek. apply Ok_inj in H. subst so. destruct Hv.
  - intros s CK. unfold own_model in H. rewrite CK in H. bnd H cho Ech. bnd H diso Edis.
    destruct (storage_made _ _ _ _ _ _ _ H) as [[cs [nd [EV [L1 [L2 _]]]]] [_ MK]]. split.
    + exists cs. split; [|split; auto; rewrite L2, (cf_n _ _ _ _ C); lia]. apply shown_in. rewrite ED, EV. split; [left; auto|]. rewrite L1. left. auto.
    + intros iv CP. rewrite CP in MK. destruct MK as [io [cs' [rl [ru [EI [Es _]]]]]]. eapply inv_presents; [apply (cf_effs _ _ _ _ C)|exact EI|].
      intros v Hv Hl. apply shown_in. rewrite ED, Es. split; [apply in_or_app; right; cbn; rewrite app_nil_r; auto|right; auto].
Qed.
