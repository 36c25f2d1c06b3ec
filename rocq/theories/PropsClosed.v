(** C54: the program handed to the solver refers only to the variables it declares. *)
From Verif Require Import Base BaseFacts MathModel Spec MathFacts Structure StructureFacts Params Features Elements System SysSpec
  CtxFacts ReadTools NavFacts ClosedFacts Aggregation Example ExamplePoints.

Local Tactic Notation "bnd" hyp(H) ident(x) ident(E) := apply bind_ok in H; destruct H as [x [E H]]; cbv beta in H.

(** ** Specification *)

(** The program has a variable called [l] with an entry number [i]. *)
Definition declared (pm : pmodel) (l : string) (i : nat) : Prop :=
  exists p, In p (pm_vars pm) /\ pv_label p = l /\ (i < length (pv_entries p))%nat.
(** The linear expressions of a program: its rows and its objective. *)
Definition expression_of (pm : pmodel) (ts : list term) : Prop :=
  (exists r, In r (pm_rows pm) /\ ts = r_terms r) \/ ts = pm_obj pm.
Definition closed_program (pm : pmodel) : Prop :=
  NoDup (map pv_label (pm_vars pm)) /\
  forall ts, expression_of pm ts -> forall q l i, In (q, l, i) ts -> declared pm l i.

(** ** Proof *)
Lemma summand_terms_declared : forall s i ts q l j, summand_terms s i = Ok ts -> In (q, l, j) ts ->
  l = v_label (s_var s) /\ (j < v_len (s_var s))%nat.
Proof.
  intros s i ts q l j H Hi. unfold summand_terms in H.
  assert (ONE : forall a b t, (ix <- of_option IndexError (nth_error (s_idx s) a) ;; j <- pv_index (s_var s) ix ;;
                  q <- of_option IndexError (nth_error (s_fvec s) b) ;; Ok (q, v_label (s_var s), j)) = Ok t ->
                t = (q, l, j) -> l = v_label (s_var s) /\ (j < v_len (s_var s))%nat).
  { intros a b t E ->. bnd E ix E1. bnd E k E2. bnd E q' E3. apply Ok_inj in E. injection E as -> -> ->.
    unfold pv_index in E2. destruct (Nat.ltb ix (v_len (s_var s))) eqn:L; [|discriminate]. apply Ok_inj in E2. subst ix.
    apply Nat.ltb_lt in L. auto. }
  destruct (s_sum s).
  - destruct (mapM_In_inv _ _ _ _ H Hi) as [a [_ E]]. exact (ONE _ _ _ E eq_refl).
  - destruct (Nat.eqb (s_len s) 1); [|destruct (Nat.eqb (length (s_idx s)) 1)]; bnd H t E; apply Ok_inj in H; subst ts;
      destruct Hi as [Hi|[]]; eapply ONE; eauto.
Qed.

Lemma lhs_declared : forall ss i ts q l j, lhs_terms ss i = Ok ts -> In (q, l, j) ts ->
  exists v, In v (map s_var ss) /\ l = v_label v /\ (j < v_len v)%nat.
Proof.
  intros ss i ts q l j H Hi. unfold lhs_terms in H. bnd H tss E. apply Ok_inj in H. subst ts. apply in_concat in Hi.
  destruct Hi as [t [Ht Hi]]. destruct (mapM_In_inv _ _ _ _ E Ht) as [s [Hs F]]. destruct (summand_terms_declared _ _ _ _ _ _ F Hi) as [A B].
  exists (s_var s). split; auto. apply in_map. auto.
Qed.

Lemma translate_closed : forall ds obj pm, system_translate ds obj = Ok pm ->
  (forall d, In d ds -> closedT (roots_decl ds) d) -> incl (uses obj) (roots_decl ds) -> closed_program pm.
Proof.
  intros ds obj pm H C O. unfold system_translate in H. bnd H vs E1. bnd H cs E2.
  unfold system_variables in E1. bnd E1 u U. apply Ok_inj in E1. subst vs.
  unfold system_constraints in E2. bnd E2 u' U'. apply Ok_inj in E2. subst cs.
  unfold translate_model in H. bnd H pvs P1. bnd H eqs P2. bnd H ineqs P3. bnd H ob P4. apply Ok_inj in H. subst pm.
  assert (ND : NoDup (map v_label (flat_map em_vars (system_sub_models ds)))).
  { unfold guard in U. destruct (nodup_str _) eqn:N; [|discriminate]. apply nodup_str_NoDup. auto. }
  assert (V : forall v j, In v (roots_decl ds) -> (j < v_len v)%nat ->
    declared (mkPModel pvs (List.concat eqs ++ List.concat ineqs) ob) (v_label v) j).
  { intros v j Hv Hj. assert (Hv' : In v (flat_map em_vars (system_sub_models ds))).
    { unfold roots_decl in Hv. apply in_flat_map in Hv. destruct Hv as [d [Hd Hv]]. unfold decl in Hv. apply in_flat_map in Hv.
      destruct Hv as [m [Hm Hv]]. apply in_flat_map. exists m. split; auto. apply system_sub_models_In. eauto. }
    destruct (mapM_In _ _ _ _ P1 Hv') as [p [Ep Hp]].
    assert (SP : forall w p', translate_variable w = Ok p' -> pv_label p' = v_label w /\ length (pv_entries p') = v_len w).
    { intros w p' E. unfold translate_variable in E. bnd E a A1. bnd E b A2. bnd E c A3. apply Ok_inj in E. subst p'. cbn.
      rewrite map_length, seq_length. auto. }
    destruct (SP _ _ Ep) as [L1 L2]. exists p. cbn [pm_vars]. split; auto. split; auto. lia. }
  split.
  { cbn [pm_vars]. assert (EQ : map pv_label pvs = map v_label (flat_map em_vars (system_sub_models ds))); [|rewrite EQ; exact ND].
    apply mapM_Forall2 in P1. clear -P1. induction P1 as [|v p vs ps E F IH]; [reflexivity|]. cbn [map]. f_equal; auto.
    apply translate_variable_spec in E. tauto. }
  intros ts T q l i Hi.
  assert (X : forall ss k, lhs_terms ss k = Ok ts -> incl (map s_var ss) (roots_decl ds) ->
     declared (mkPModel pvs (List.concat eqs ++ List.concat ineqs) ob) l i).
  { intros ss k E I. destruct (lhs_declared _ _ _ _ _ _ E Hi) as [v [Hv [-> Hj]]]. apply V; auto. }
  destruct T as [[r [Hr ->]]| ->]; cbn [pm_rows pm_obj] in *.
  - assert (Y : forall f rss, mapM translate_constraint (filter f (flat_map em_cons (system_sub_models ds))) = Ok rss -> In r (List.concat rss) ->
      declared (mkPModel pvs (List.concat eqs ++ List.concat ineqs) ob) l i).
    { intros f rss E R. apply in_concat in R. destruct R as [rs [Hrs R]]. destruct (mapM_In_inv _ _ _ _ E Hrs) as [c [Hc F]].
      apply filter_In in Hc. destruct Hc as [Hc _]. apply in_flat_map in Hc. destruct Hc as [m [Hm Hc]].
      apply system_sub_models_In in Hm. destruct Hm as [d [Hd Hm]].
      unfold translate_constraint in F. bnd F cv F1. destruct (mapM_In_inv _ _ _ _ F R) as [k [_ G]]. bnd G tt' G1. bnd G rhs G2. bnd G ne G3.
      apply Ok_inj in G. subst r. cbn [r_terms] in *. eapply X; [exact G1|]. exact (C d Hd m Hm c Hc). }
    apply in_app_iff in Hr. destruct Hr as [Hr|Hr]; [exact (Y _ _ P2 Hr)|exact (Y _ _ P3 Hr)].
  - unfold translate_objective in P4. bnd P4 a A1. bnd P4 b A2. eapply X; [exact P4|exact O].
Qed.

(** ** Theorems *)

(** C54: whenever a calculation builds a program, every row and the objective refer only to declared variables, each by a label that
    names exactly one of them, and only to entries that variable has. *)
Theorem C54_closed : forall cf ord fs idx pm, build cf ord fs idx = Ok pm -> closed_program pm.
Proof.
  intros cf ord fs idx pm H. unfold build in H. bnd H b E. unfold build_system in E. bnd E cx E1. bnd E u E2. bnd E cos E3. cbv zeta in E.
  bnd E bos E4. bnd E eo E5. destruct eo as [em obj]. apply Ok_inj in E. subst b. unfold bs_roots in H. cbn [bs_effects bs_comps bs_buses bs_obj] in H.
  rewrite <- (app_nil_r (flat_map snd bos)) in E5.
  destruct (parts_closed _ _ _ _ _ _ [] E3 (bus_from _ _ _ _ _ E4) E5 (roots_decl (em :: map co_tree cos ++ map fst bos))) as [A B].
  - unfold roots_decl. cbn [flat_map]. apply incl_appl, incl_refl.
  - unfold roots_decl. cbn [flat_map]. rewrite flat_map_app. apply incl_appr, incl_appl, incl_refl.
  - unfold roots_decl. cbn [flat_map]. rewrite flat_map_app. apply incl_appr, incl_appr, incl_refl.
  - intros v [].
  - eapply translate_closed; eauto.
Qed.
Print Assumptions C54_closed.

Lemma all_variables_decl : forall m vs, em_all_variables m = Ok vs -> incl vs (decl m).
Proof.
  apply (emodel_ind' (fun m => forall vs, em_all_variables m = Ok vs -> incl vs (decl m))).
  intros f l v c subs IH vs H. rewrite decl_EM. cbn [em_all_variables] in H.
  assert (X : forall ss acc r, (forall s, In s ss -> In s subs) -> 
     foldM (fun acc s => vs <- em_all_variables s ;;
              _ <- guard (forallb (fun v => negb (mem_str (v_label v) (map v_label acc))) vs) KeyError ;; Ok (acc ++ vs)) ss acc = Ok r ->
     incl acc (v ++ flat_map decl subs) -> incl r (v ++ flat_map decl subs)).
  { induction ss as [|s ss IHs]; intros acc r Hs E I; cbn [foldM] in E.
    - apply Ok_inj in E. subst. auto.
    - bnd E a Ea. bnd Ea w E1. bnd Ea u E2. apply Ok_inj in Ea. subst a. eapply IHs; [|exact E|].
      + intros s' H'. apply Hs. right; auto.
      + apply incl_app; auto. rewrite Forall_forall in IH. pose proof (IH s (Hs s (or_introl eq_refl)) _ E1) as J.
        intros z Hz. apply in_or_app. right. apply in_flat_map. exists s. split; [apply Hs; left; auto|auto]. }
  eapply X; [|exact H|apply incl_appl, incl_refl]. auto.
Qed.

Lemma equate_closed : forall ap pairs v vs cs, equate_indices ap pairs v = Ok (vs, cs) -> closes (v :: vs) cs.
Proof.
  intros ap pairs v vs cs H. unfold equate_indices in H. destruct (_ && _)%bool.
  - bnd H k1 E1. bnd H k0 E2. bnd H c1 E3. bnd H c2 E4. bnd H c3 E5. apply Ok_inj in H. apply pair_equal_spec in H. destruct H as [<- <-]. close.
  - bnd H c E. apply Ok_inj in H. apply pair_equal_spec in H. destruct H as [<- <-]. close.
Qed.

Lemma aggregation_closed : forall ap cl sel comps cos am pen, aggregation_model ap cl sel comps cos = Ok (am, pen) ->
  closedT (decl am ++ flat_map decl (map co_tree cos)) am /\ incl (shv pen) (decl am).
Proof.
  intros ap cl sel comps cos am pen H. unfold aggregation_model in H. bnd H ch E1. bnd H pairs E2. bnd H vss E3. bnd H parts E4. bnd H m E5.
  cbv zeta in H. apply Ok_inj in H. apply pair_equal_spec in H. destruct H as [<- Hp]. apply mk_em_spec in E5. destruct E5 as [-> _].
  rewrite decl_EM. cbn [flat_map]. rewrite app_nil_r. split.
  - apply closedT_EM; [|intros m []]. intros c Hc. apply in_flat_map in Hc. destruct Hc as [[vs cs] [Hq Hc]]. cbn [snd] in Hc.
    destruct (mapM_In_inv _ _ _ _ E4 Hq) as [v [Hv E]]. apply equate_closed in E. intros w Hw. apply (E c Hc) in Hw. apply in_or_app.
    destruct Hw as [<-|Hw]; [right|left; apply in_flat_map; exists (vs, cs); auto].
    apply in_concat in Hv. destruct Hv as [l [Hl Hv]]. destruct (mapM_In_inv _ _ _ _ E3 Hl) as [[c0 o] [Hco F]].
    unfold relevant_variables in F. destruct (_ && _)%bool in F; [apply Ok_inj in F; subst l; destruct Hv|].
    bnd F al Fa. apply Ok_inj in F. subst l. apply filter_In in Hv. destruct Hv as [Hv _]. cbn [snd] in Fa. apply all_variables_decl in Fa.
    apply in_flat_map. exists (co_tree o). split; [|auto]. apply in_map.
    unfold chosen_components in E1. cbv zeta in E1. destruct sel as [[|l0 ls]|].
    + apply Ok_inj in E1. subst ch. eapply in_combine_r; eauto.
    + destruct (mapM_In_inv _ _ _ _ E1 Hco) as [lb [_ G]]. unfold of_option in G. destruct (find _ _) eqn:N in G; [|discriminate].
      apply Ok_inj in G. subst p. apply find_some in N. destruct N as [N _]. eapply in_combine_r; eauto.
    + apply Ok_inj in E1. subst ch. eapply in_combine_r; eauto.
  - subst pen. destruct (_ && _)%bool; [|intros v []]. intros v Hv. unfold shv in Hv. apply in_flat_map in Hv. destruct Hv as [s [Hs Hv]].
    apply in_map_iff in Hs. destruct Hs as [k [<- Hk]]. destruct Hv as [<-|[]]. exact Hk.
Qed.

(** The same for aggregated calculations. *)
Theorem C54_closed_aggregated : forall cf ord fs idx hpp ap cl sel pm, build_aggregated cf ord fs idx hpp ap cl sel = Ok pm -> closed_program pm.
Proof.
  intros cf ord fs idx hpp ap cl sel pm H. unfold build_aggregated in H. bnd H u0 E0. bnd H b E. unfold build_agg_system in E. bnd E cx E1. bnd E u E2.
  bnd E cos E3. cbv zeta in E. bnd E bos E4. bnd E ap' E6. destruct ap' as [am pen]. bnd E eo E5. destruct eo as [em obj]. apply Ok_inj in E. subst b.
  cbn [ab_roots ab_obj] in H. apply aggregation_closed in E6. destruct E6 as [A1 A2].
  set (ds := (em :: map co_tree cos ++ map fst bos) ++ [am]) in *.
  assert (I1 : incl (decl em) (roots_decl ds)) by (unfold roots_decl, ds; rewrite flat_map_app; apply incl_appl; cbn [flat_map]; apply incl_appl, incl_refl).
  assert (I2 : incl (flat_map decl (map co_tree cos)) (roots_decl ds))
    by (unfold roots_decl, ds; rewrite flat_map_app; apply incl_appl; cbn [flat_map]; rewrite flat_map_app; apply incl_appr, incl_appl, incl_refl).
  assert (I3 : incl (flat_map decl (map fst bos)) (roots_decl ds))
    by (unfold roots_decl, ds; rewrite flat_map_app; apply incl_appl; cbn [flat_map]; rewrite flat_map_app; apply incl_appr, incl_appr, incl_refl).
  assert (I4 : incl (decl am) (roots_decl ds))
    by (unfold roots_decl, ds; rewrite flat_map_app; apply incl_appr; cbn [flat_map]; rewrite app_nil_r; apply incl_refl).
  destruct (parts_closed _ _ _ _ _ _ pen E3 (bus_from _ _ _ _ _ E4) E5 (roots_decl ds)) as [A B]; auto.
  { eapply incl_tran; eauto. }
  eapply translate_closed; [exact H| |exact B]. intros d Hd. unfold ds in Hd. apply in_app_iff in Hd. destruct Hd as [Hd|[<-|[]]]; [apply A; exact Hd|].
  eapply closedT_mono; [|exact A1]. apply incl_app; auto.
Qed.
Print Assumptions C54_closed_aggregated.

(** What this means: the values of the declared entries decide feasibility and the value of the objective. *)
Theorem C54_determined : forall pm x y, closed_program pm -> (forall l i, declared pm l i -> x l i == y l i) ->
  (feasible pm x <-> feasible pm y) /\ objective_value pm x == objective_value pm y.
Proof.
  intros pm x y [_ C] A.
  assert (L : forall ts, expression_of pm ts -> lin x ts == lin y ts).
  { intros ts T. specialize (C ts T). clear T. unfold lin. induction ts as [|[[q l] i] ts IH]; [reflexivity|].
    cbn [map]. rewrite !Qsum_cons, IH by (intros q' l' i' H'; apply (C q' l' i'); right; auto).
    rewrite (A l i) by (apply (C q); left; auto). reflexivity. }
  assert (EO : forall e a b, a == b -> entry_ok e a -> entry_ok e b).
  { intros e a b E. unfold entry_ok. destruct (pe_fix e); [rewrite E; auto|]. intros [X [Y Z]]. repeat split.
    - intros K. destruct (X K) as [X'|X']; rewrite E in X'; auto.
    - intros k K. rewrite <- E. auto.
    - intros k K. rewrite <- E. auto. }
  assert (F : forall u v, (forall l i, declared pm l i -> u l i == v l i) -> (forall ts, expression_of pm ts -> lin u ts == lin v ts) ->
              feasible pm u -> feasible pm v).
  { intros u v A' L' [V R]. split.
    - rewrite Forall_forall in *. intros p Hp i e N. eapply EO; [|exact (V p Hp i e N)]. apply A'. exists p. split; auto. split; auto. apply nth_error_Some. congruence.
    - rewrite Forall_forall in *. intros r Hr. specialize (R r Hr). unfold row_ok in *.
      assert (Q := L' (r_terms r) (or_introl (ex_intro _ r (conj Hr eq_refl)))). destruct (r_eq r); rewrite <- Q; exact R. }
  split; [split|].
  - apply F; auto.
  - apply F; [intros l i H; symmetry; auto|intros ts T; symmetry; auto].
  - apply L. right; auto.
Qed.
Print Assumptions C54_determined.

(** A program with investments, on/off variables, segments and several effects, and a feasible point of it. *)
Example C54_applies : exists pm, build default_config id_ord fs1 idx1 = Ok pm /\ feasible pm x1 /\ closed_program pm.
Proof. destruct x1_feasible as [pm [B F]]. exists pm. split; [exact B|]. split; [exact F|]. exact (C54_closed _ _ _ _ _ B). Qed.
