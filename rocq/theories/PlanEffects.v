(** Buses and effects, completed from a plan that obeys the rules. *)
From Coq Require Import String Ascii Permutation.
From Verif Require Import Base BaseFacts MathModel Spec MathFacts MathTotal Structure StructureFacts Params Features Elements Library System SysSpec
  AdmitSpec CtxFacts ReadTools InvestFacts OnOffFacts OnOffLaws OnOffAdmits FlowFacts NavFacts FlowAdmits ResultFacts AdmitFacts InvestAdmits SegFacts SegAdmits
  ClosedFacts GlueFacts ShareFacts ShareAdmits EffectFacts EffectLaws EffectAdmits AdmitNav BusFacts CompFacts CompAdmits PropsFlow PropsOnOff PropsAdmits PropsComp PropsEffects
  PlanSpec SegWitness PlanPieces PlanComp.

(** ** Buses *)
Lemma rates_incl : forall cos ids vs, rates cos ids = Ok vs -> incl vs (map fo_rate (flat_map co_flows cos)).
Proof.
  intros cos ids vs H v Hv. unfold rates in H. destruct (mapM_In_inv _ _ _ _ H Hv) as [i [_ E]]. bnd E fo Efo. apply Ok_inj in E. subst v.
  apply in_map. eapply find_fo_In; eauto.
Qed.
Lemma bus_completes : forall cf ord fs idx pm cx cos bos em obj x b bo i o,
  sys_parts cf ord fs idx pm cx cos bos em obj -> (2 <= steps fs idx)%nat -> bus_rule fs idx x b ->
  rates cos (bus_inputs fs b) = Ok i -> rates cos (bus_outputs fs b) = Ok o -> bus_model cx b i o = Ok bo -> em_translates (fst bo) ->
  em_sat x (fst bo) /\ closedT (decl (fst bo) ++ i ++ o) (fst bo) /\ incl (shv (snd bo)) (decl (fst bo))
  /\ (b_penalty b <> None -> present (steps fs idx) (vlabel (b_lab b) "excess_input") (decl (fst bo)) /\ present (steps fs idx) (vlabel (b_lab b) "excess_output") (decl (fst bo))).
Proof.
  intros cf ord fs idx pm cx cos bos em obj x b bo i o P N2 R Ei Eo Eb T. pose proof (sy_n _ _ _ _ _ _ _ _ _ _ P) as N. split; [|split; [|split]].
  - refine (bus_admits x cx b i o bo (sy_ok _ _ _ _ _ _ _ _ _ _ P) ltac:(lia) _ Eb T _).
    + destruct (side_sum _ _ _ _ _ _ _ _ _ _ P cp_out x b i 0%nat ltac:(intros; apply in_or_app; auto) Ei) as [L1 _].
      destruct (side_sum _ _ _ _ _ _ _ _ _ _ P cp_in x b o 0%nat ltac:(intros; apply in_or_app; auto) Eo) as [L2 _].
      intros v Hv. apply in_app_or in Hv. destruct Hv; auto.
    + intros t Ht. rewrite N in Ht.
      destruct (side_sum _ _ _ _ _ _ _ _ _ _ P cp_out x b i t ltac:(intros; apply in_or_app; auto) Ei) as [_ S1].
      destruct (side_sum _ _ _ _ _ _ _ _ _ _ P cp_in x b o t ltac:(intros; apply in_or_app; auto) Eo) as [_ S2].
      rewrite S1, S2. exact (R t Ht).
  - destruct bo as [m sh]. apply (bus_closed _ _ _ _ _ _ Eb).
  - destruct bo as [m sh]. apply (bus_closed _ _ _ _ _ _ Eb).
  - intros NP. unfold bus_model in Eb. destruct (b_penalty b) as [p|]; [|congruence].
    bnd Eb a E1. bnd Eb pen E2. bnd Eb ei E3. bnd Eb eo E4. bnd Eb c E5. bnd Eb m' E6. apply Ok_inj in Eb. subst bo. cbn [fst].
    apply mk_em_spec in E6. destruct E6 as [-> _]. rewrite decl_EM. apply create_variable_spec in E3. apply create_variable_spec in E4.
    split; [exists ei|exists eo]; (split; [simpl; auto|]); subst; cbn; auto.
Qed.

(** ** Effects *)
Lemma single_fits : forall elem sh so n v, (2 <= n)%nat -> single_share elem sh = Ok so -> sh_var sh = Some v -> v_len v = n -> good (sh_factor sh) -> sh_as_sum sh = false ->
  fits n (sh_factor sh).
Proof.
  intros elem sh so n v N2 H V L G A. unfold single_share in H. rewrite V, A in H. bnd H u Eu. bnd H sv Esv. bnd H c Ec. clear H.
  cbn [orb] in Esv. rewrite L in Esv. replace (Nat.eqb n 1) with false in Esv by (symmetry; apply Nat.eqb_neq; lia).
  assert (Ls : v_len sv = n). { unfold mk_variable_ts in Esv. bnd Esv w Ew. apply Ok_inj in Esv. subst sv. reflexivity. }
  apply fits_of_len. apply (terms_lens KEq _ _ [(sv, NS (-1)); (v, sh_factor sh)] [] c n N2 Ec) with (v := v); [|simpl; auto].
  intros u' a [E|[E|[]]]; inversion E; subst; split; auto with num.
Qed.
Lemma alloc_fits : forall cx elem label ts tmin tmax a b shs o n, (2 <= n)%nat -> share_alloc cx elem label ts tmin tmax a b shs = Ok o ->
  forall sh v, In sh shs -> sh_var sh = Some v -> v_len v = n -> good (sh_factor sh) -> sh_as_sum sh = false -> fits n (sh_factor sh).
Proof.
  intros cx elem label ts tmin tmax a b shs o n N2 H sh v Hs V L G A. unfold share_alloc in H. bnd H u Eu. bnd H s Es. bnd H st Est. bnd H singles Esi. clear H.
  destruct (BaseFacts.mapM_In _ _ _ _ Esi Hs) as [so [E _]]. bnd E so' Es'. eapply single_fits; eauto.
Qed.

Section Books.
Variables (cf : config) (ord : list nat -> list nat) (fs : flow_system) (idx : option (list nat)) (pm : pmodel)
          (cx : ctx) (cos : list comp_out) (bos : list (emodel * list share)) (em : emodel) (obj : constraint).
Hypothesis P : sys_parts cf ord fs idx pm cx cos bos em obj.
Variables (bo bi : list (list share)) (ms : list emodel) (pen : sa_out) (oe : effect) (vo vi : variable).
Let shs := flat_map co_shares cos ++ flat_map snd bos.
Hypothesis E : effects_parts cx (visible_effect fs) shs em obj bo bi ms pen oe vo vi.
Let all := List.concat bo ++ List.concat bi ++ shs.
Let CX : ctx_ok cx := sy_ok _ _ _ _ _ _ _ _ _ _ P.
Hypothesis SE : sensible cf fs idx.
Variable x : asg.
Hypothesis OB : obeys cf fs idx x.
Hypothesis PO : forall l, Permutation (ord l) l.

Lemma shares_any : Forall (any_share (cx_n cx)) all.
Proof. apply (all_shares _ _ _ _ _ _ _ _ _ _ P _ _ _ _ _ _ _ E). Qed.
Lemma ops_fit : forall e, In e (fs_effects fs) -> fit_op (cx_n cx) (e_id e) all.
Proof.
  intros e He sh Hs X. pose proof shares_any as AS. rewrite Forall_forall in AS. rewrite <- (sy_eff _ _ _ _ _ _ _ _ _ _ P) in He.
  destruct (BaseFacts.mapM_In _ _ _ _ (ep_ms _ _ _ _ _ _ _ _ _ _ _ _ E) He) as [m [Em _]]. unfold effect_model in Em.
  bnd Em a Ea. bnd Em b Eb. bnd Em io Ei. bnd Em op Eo. clear Em.
  assert (N2 : (2 <= cx_n cx)%nat) by (rewrite (sy_n _ _ _ _ _ _ _ _ _ _ P); apply (se_steps _ _ _ SE)).
  destruct (AS _ Hs) as [[_ [A [G [v [V L]]]]]|[[[j T] _]|[T _]]]; [|unfold is_op in X; rewrite T in X; discriminate X|unfold is_op in X; rewrite T in X; discriminate X].
  eapply alloc_fits; eauto. apply filter_In. auto.
Qed.
Lemma inv_numbers : inv_scalar all.
Proof.
  destruct (se_effects _ _ _ SE) as [DE [NL IN]].
  destruct (proj2 (proj2 (comps_shares _ _ _ _ _ _ _ _ _ _ P))) as [S1 _]; [rewrite comp_invs_investments; exact IN|].
  destruct (concat_op _ _ _ _ CX (ep_bo _ _ _ _ _ _ _ _ _ _ _ _ E)) as [A0 _]. destruct (op_no_inv _ _ A0) as [S0 _].
  destruct (concat_inv _ _ _ (ep_bi _ _ _ _ _ _ _ _ _ _ _ _ E)) as [_ [_ C2]].
  unfold all, shs. apply inv_scalar_app; auto. apply inv_scalar_app.
  - intros i s Hs' _. apply C2; auto. rewrite (sy_eff _ _ _ _ _ _ _ _ _ _ P). intros e' He' i' d Hi. eapply NL; eauto.
  - apply inv_scalar_app; auto. destruct (bus_pen_shares _ _ _ _ _ _ _ _ _ _ P) as [BP _].
    intros i sh Hs X. rewrite Forall_forall in BP. destruct (BP _ Hs) as [T _]. unfold is_inv in X. rewrite T in X. discriminate.
Qed.

Lemma books_right : forall e, In e (fs_effects fs) -> effect_books cx x all e.
Proof.
  intros e He. destruct (ob_effect _ _ _ _ OB e He) as [R1 [R2 [R3 [R4 [R5 [R6 [R7 [R8 [R9 [R10 R11]]]]]]]]]].
  destruct (se_effects _ _ _ SE) as [DE [NL IN]]. pose proof (sy_eff _ _ _ _ _ _ _ _ _ _ P) as EF. pose proof (sy_n _ _ _ _ _ _ _ _ _ _ P) as N.
  pose proof (ops_fit e He) as FO. constructor; auto.
  - intros t Ht. assert (Ht' := Ht). rewrite N in Ht'. rewrite (R1 t Ht').
    unfold all, shs in *. apply fit_op_app in FO. destruct FO as [F1 FO]. apply fit_op_app in FO. destruct FO as [F2 FO].
    apply fit_op_app in FO. destruct FO as [F3 F4].
    destruct (concat_op _ _ _ _ CX (ep_bo _ _ _ _ _ _ _ _ _ _ _ _ E)) as [_ B1].
    destruct (concat_inv _ _ _ (ep_bi _ _ _ _ _ _ _ _ _ _ _ _ E)) as [A2 _].
    rewrite !sum_op_app, (B1 x e t Ht F1), (proj1 (proj2 (comps_shares _ _ _ _ _ _ _ _ _ _ P)) x e t Ht F3).
    rewrite (sum_op_other x t (e_id e) (List.concat bi)) by (eapply Forall_impl; [|exact A2]; auto).
    rewrite (sum_op_other x t (e_id e) (flat_map snd bos)) by (eapply Forall_impl; [|apply (bus_pen_shares _ _ _ _ _ _ _ _ _ _ P)]; eauto).
    rewrite (Qsum_map_eq (fun c => comp_op cx x (effective cf fs idx c) c e t) (fun c => comp_costs fs idx x c e t)) by (intros c _; eapply comp_op_costs; eauto).
    unfold op_from_effects, from_op. rewrite EF, (sy_idx _ _ _ _ _ _ _ _ _ _ P). ring.
  - rewrite N. exact R2.
  - rewrite R3. destruct (proj2 (proj2 (comps_shares _ _ _ _ _ _ _ _ _ _ P))) as [_ C1]; [rewrite comp_invs_investments; exact IN|].
    destruct (concat_op _ _ _ _ CX (ep_bo _ _ _ _ _ _ _ _ _ _ _ _ E)) as [A0 _]. destruct (op_no_inv _ _ A0) as [_ Z0].
    destruct (concat_inv _ _ _ (ep_bi _ _ _ _ _ _ _ _ _ _ _ _ E)) as [_ [B2 _]].
    assert (Z3 : EffectFacts.sum_inv x (e_id e) (flat_map snd bos) == 0).
    { apply sum_inv_other. eapply Forall_impl; [|apply (bus_pen_shares _ _ _ _ _ _ _ _ _ _ P)]. intros sh Hs. eauto. }
    unfold all, shs. rewrite !sum_inv_app, Z0, Z3, (B2 x e). rewrite (C1 x e); [|unfold distinct_ids; rewrite EF; exact DE|rewrite EF; auto].
    rewrite comp_invs_investments. unfold invs_costs, inv_from_effects, from_inv. rewrite EF. 
    change (fun ni : string * invest => inv_costs (fs_effects fs) x (fst ni) (snd ni) e) with (fun ni : string * invest => invest_costs fs x (fst ni) (snd ni) e). ring.
  - intros q Hq. rewrite R4. apply R9; auto.
  - intros q Hq. rewrite R4. apply R10; auto.
  - intros p t Hp Ht. rewrite N in Ht. rewrite (sy_idx _ _ _ _ _ _ _ _ _ _ P), (sy_dt _ _ _ _ _ _ _ _ _ _ P t Ht).
    destruct (R11 t Ht) as [A _]. apply A. rewrite Hp. reflexivity.
  - intros p t Hp Ht. rewrite N in Ht. rewrite (sy_idx _ _ _ _ _ _ _ _ _ _ P), (sy_dt _ _ _ _ _ _ _ _ _ _ P t Ht).
    destruct (R11 t Ht) as [_ A]. apply A. rewrite Hp. reflexivity.
Qed.

Lemma penalty_right : penalty_sum x == Qsum (map (worth x 0) (filter is_pen all)).
Proof.
  assert (FI : filter is_pen all = flat_map snd bos).
  { unfold all, shs. rewrite !filter_app.
    destruct (concat_op _ _ _ _ CX (ep_bo _ _ _ _ _ _ _ _ _ _ _ _ E)) as [A0 _].
    destruct (concat_inv _ _ _ (ep_bi _ _ _ _ _ _ _ _ _ _ _ _ E)) as [A2 _].
    destruct (comps_shares _ _ _ _ _ _ _ _ _ _ P) as [A3 _]. destruct (bus_pen_shares _ _ _ _ _ _ _ _ _ _ P) as [A4 _]. rewrite Forall_forall in *.
    rewrite (filter_none _ (List.concat bo)) by (intros s Hs; destruct (A0 _ Hs) as [[j T] _]; unfold is_pen; rewrite T; auto).
    rewrite (filter_none _ (List.concat bi)) by (intros s Hs; destruct (A2 _ Hs) as [[j T] _]; unfold is_pen; rewrite T; auto).
    rewrite (filter_all _ (flat_map snd bos)) by (intros s Hs; destruct (A4 _ Hs) as [T _]; unfold is_pen; rewrite T; auto).
    rewrite (filter_none _ (flat_map co_shares cos)); auto.
    intros s Hs. unfold is_pen. destruct (A3 _ Hs) as [[[j T] _]|[[j T] _]]; rewrite T; auto. }
  rewrite FI. destruct (bus_pen_shares _ _ _ _ _ _ _ _ _ _ P) as [BP BS].
  pose proof (sy_n _ _ _ _ _ _ _ _ _ _ P) as N. pose proof (se_steps _ _ _ SE) as N2.
  rewrite BS.
  2:{ intros sh Hs. apply in_flat_map in Hs. destruct Hs as [o [Ho Hs]].
      destruct (Forall2_In_r _ _ _ _ (sy_buses _ _ _ _ _ _ _ _ _ _ P) Ho) as [b [_ [i [o' [_ [_ M]]]]]]. eapply bus_fits; eauto. lia. }
  rewrite (ob_penalty _ _ _ _ OB (buses ord fs)).
  - apply Qsum_map_eq. intros b Hb. unfold bus_penalty, bus_price, excess. rewrite N, (sy_idx _ _ _ _ _ _ _ _ _ _ P). destruct (b_penalty b) as [p|]; [|reflexivity].
    apply sumn_ext. intros t Ht. rewrite (sy_dt _ _ _ _ _ _ _ _ _ _ P t Ht). reflexivity.
  - apply buses_nodup.
  - intros b. split; [apply buses_used|]. intros U. apply buses_complete; auto; [apply (sy_ids _ _ _ _ _ _ _ _ _ _ P)|apply (se_buses _ _ _ SE)].
Qed.

Lemma effects_complete : em_translates em -> NoDup (labels_of em) -> (forall v, In v (shv shs) -> ~ In (v_label v) (labels_of em)) ->
  completes x (mkPiece em (shv shs) (shown (total_labels (fs_effects fs)) em)).
Proof.
  intros T ND OUT. pose proof (sy_eff _ _ _ _ _ _ _ _ _ _ P) as EF.
  destruct (effects_admit x cx (visible_effect fs) shs em obj bo bi ms pen oe vo vi CX) as [w [W1 [W2 [W3 _]]]]; auto.
  - rewrite (sy_n _ _ _ _ _ _ _ _ _ _ P). apply (se_steps _ _ _ SE).
  - apply shares_any.
  - intros sh e Hs He X. apply (inv_numbers _ _ Hs X).
  - intros e He. apply books_right. rewrite <- EF. exact He.
  - apply penalty_right.
  - exists w. split; auto. cbn [pc_uses pc_shows]. intros v [Hv|Hv] t Ht.
    + rewrite W3; auto. reflexivity.
    + apply shown_in in Hv. destruct Hv as [_ Hl]. rewrite W2; [reflexivity|]. rewrite EF. exact Hl.
Qed.
End Books.

(** The totals are variables of the effects model. *)
Lemma alloc_vars : forall cx elem label ts tmin tmax a b shs o, share_alloc cx elem label ts tmin tmax a b shs = Ok o ->
  (exists s, In s (decl (sa_tree o)) /\ v_label s = vlabel (model_full elem (Some label)) (cat [label; "_sum"]) /\ v_len s = 1%nat)
  /\ (ts = true -> exists v, In v (decl (sa_tree o)) /\ v_label v = vlabel (model_full elem (Some label)) (cat [label; "_sum_TS"]) /\ v_len v = cx_n cx).
Proof.
  intros cx elem label ts tmin tmax a b shs o H. unfold share_alloc in H. bnd H u Eu. bnd H s Es. bnd H st Est. bnd H singles Esi. bnd H u2 Eu2.
  bnd H csum Ec. bnd H cts Ect. bnd H m Em. apply Ok_inj in H. subst o. cbn [sa_tree]. apply mk_em_spec in Em. destruct Em as [-> _]. rewrite decl_EM. split.
  - exists s. split; [simpl; auto|]. unfold alloc_sum in Es. apply create_variable_spec in Es. subst s. split; reflexivity.
  - intros ->. bnd Est v Ev. apply Ok_inj in Est. subst st. exists v. split; [simpl; auto|]. unfold alloc_ts in Ev. bnd Ev lb El. bnd Ev ub Eub.
    apply create_variable_spec in Ev. subst v. split; reflexivity.
Qed.
Lemma totals_present : forall cx tre shs em obj bo bi ms pen oe vo vi es,
  effects_parts cx tre shs em obj bo bi ms pen oe vo vi -> cx_effects cx = es ->
  (forall e, In e es ->
     present (cx_n cx) (vlabel (cat [e_label e; "__"; "operation"]) "operation_sum_TS") (shown (total_labels es) em)
     /\ present 1 (vlabel (cat [e_label e; "__"; "operation"]) "operation_sum") (shown (total_labels es) em)
     /\ present 1 (vlabel (cat [e_label e; "__"; "invest"]) "invest_sum") (shown (total_labels es) em)
     /\ present 1 (vlabel (cat [e_label e; "__"; "all"]) "all_sum") (shown (total_labels es) em))
  /\ present 1 (vlabel "Effects__penalty" "penalty_sum") (shown (total_labels es) em).
Proof.
  intros cx tre shs em obj bo bi ms pen oe vo vi es E EF. rewrite (ep_em _ _ _ _ _ _ _ _ _ _ _ _ E). split.
  - intros e He. assert (He' := He). rewrite <- EF in He'.
    destruct (BaseFacts.mapM_In _ _ _ _ (ep_ms _ _ _ _ _ _ _ _ _ _ _ _ E) He') as [m [Em Hm]].
    assert (D : incl (decl m) (decl (EM "Effects" "Effects" [] [] (ms ++ [sa_tree pen])))).
    { intros v Hv. rewrite decl_EM. apply in_flat_map. exists m. split; [apply in_or_app|]; auto. }
    assert (TL : forall l, In l [vlabel (cat [e_label e; "__"; "operation"]) "operation_sum_TS"; vlabel (cat [e_label e; "__"; "operation"]) "operation_sum";
                      vlabel (cat [e_label e; "__"; "invest"]) "invest_sum"; vlabel (cat [e_label e; "__"; "all"]) "all_sum"] -> In l (total_labels es)).
    { intros l Hl. unfold total_labels. apply in_or_app. left. apply in_flat_map. exists e. auto. }
    unfold effect_model in Em. bnd Em a Ea. bnd Em b Eb. bnd Em io Ei. bnd Em op Eo. bnd Em al Eal. apply mk_em_spec in Em. destruct Em as [-> _].
    rewrite decl_EM in D. cbn [app flat_map] in D. rewrite app_nil_r in D.
    destruct (alloc_vars _ _ _ _ _ _ _ _ _ _ Ei) as [[s1 [A1 [A2 A3]]] _].
    destruct (alloc_vars _ _ _ _ _ _ _ _ _ _ Eo) as [[s2 [B1 [B2 B3]]] TS]. destruct (TS eq_refl) as [s3 [C1 [C2 C3]]].
    destruct (alloc_vars _ _ _ _ _ _ _ _ _ _ Eal) as [[s4 [D1 [D2 D3]]] _].
    split; [exists s3|split; [exists s2|split; [exists s1|exists s4]]]; (split; [|split; auto]); apply shown_in.
    + split; [apply D; rewrite !in_app_iff; auto|]. apply TL. rewrite C2. simpl. auto.
    + split; [apply D; rewrite !in_app_iff; auto|]. apply TL. rewrite B2. simpl. auto.
    + split; [apply D; rewrite !in_app_iff; auto|]. apply TL. rewrite A2. simpl. auto.
    + split; [apply D; rewrite !in_app_iff; auto|]. apply TL. rewrite D2. simpl. auto 6.
  - destruct (alloc_vars _ _ _ _ _ _ _ _ _ _ (ep_pen _ _ _ _ _ _ _ _ _ _ _ _ E)) as [[s [A1 [A2 A3]]] _].
    exists s. split; [|split; auto]. apply shown_in. split.
    + rewrite decl_EM. apply in_flat_map. exists (sa_tree pen). split; [apply in_or_app; right; left; auto|auto].
    + rewrite A2. unfold total_labels. apply in_or_app. right. left. reflexivity.
Qed.
