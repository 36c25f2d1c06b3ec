(** Facts about the program of an aggregated calculation: it is the program of the full calculation with more equations. *)
From Verif Require Import Base BaseFacts MathModel Spec MathFacts MathTotal Structure StructureFacts Params Features Elements System SysSpec
  CtxFacts ReadTools InvestFacts OnOffFacts FlowFacts NavFacts CompFacts BusFacts ShareFacts EffectFacts PropsStructure EffectLaws ClosedFacts PropsClosed
  Aggregation AggSpec.

Local Tactic Notation "bnd" hyp(H) ident(x) ident(E) := apply bind_ok in H; destruct H as [x [E H]]; cbv beta in H.

(** ** Only the values of used variables matter *)
Definition agree (x y : asg) (v : variable) : Prop := forall i, x (v_label v) i == y (v_label v) i.

Lemma lin_agree : forall x y ss i ts, lhs_terms ss i = Ok ts -> (forall v, In v (map s_var ss) -> agree x y v) -> lin x ts == lin y ts.
Proof.
  intros x y ss i ts H A.
  assert (X : forall q l j, In (q, l, j) ts -> x l j == y l j).
  { intros q l j Hi. destruct (lhs_declared _ _ _ _ _ _ H Hi) as [v [Hv [-> _]]]. apply A. auto. }
  clear H A. unfold lin. induction ts as [|[[q l] j] ts IH]; [reflexivity|]. cbn [map]. rewrite !Qsum_cons, IH by (intros; eapply X; right; eauto).
  rewrite (X q l j) by (left; auto). reflexivity.
Qed.

Lemma con_sat_agree : forall x y c, con_sat x c -> (forall v, In v (uses c) -> agree x y v) -> con_sat y c.
Proof.
  intros x y c [rows [T F]] A. exists rows. split; auto. rewrite Forall_forall in *. intros r Hr. specialize (F r Hr).
  unfold translate_constraint in T. bnd T cv E1. destruct (mapM_In_inv _ _ _ _ T Hr) as [i [_ G]]. bnd G ts G1. bnd G rhs G2. bnd G ne G3. apply Ok_inj in G. subst r.
  unfold row_ok in *. cbn [r_eq r_terms r_rhs] in *. pose proof (lin_agree _ _ _ _ _ G1 A) as L. destruct (match c_kind c with KIneq => false | _ => true end);
  rewrite <- L; exact F.
Qed.
Lemma var_sat_agree : forall x y v, var_sat x v -> agree x y v -> var_sat y v.
Proof.
  intros x y v [p [T O]] A. exists p. split; auto. destruct (translate_variable_spec _ _ T) as [L _]. intros i e N. specialize (O i e N). rewrite L in *.
  pose proof (A i) as E. unfold entry_ok in *. destruct (pe_fix e); [rewrite <- E; auto|]. destruct O as [X [Y Z]]. repeat split.
  - intros K. destruct (X K) as [X'|X']; rewrite E in X'; auto.
  - intros k K. rewrite <- E. auto.
  - intros k K. rewrite <- E. auto.
Qed.
Lemma em_sat_agree : forall x y D m, closedT D m -> (forall v, In v D -> agree x y v) -> (forall v, In v (decl m) -> agree x y v) ->
  em_sat x m -> em_sat y m.
Proof.
  intros x y D m C A B S k Hk. destruct (S k Hk) as [V E]. rewrite Forall_forall in V, E. split; apply Forall_forall.
  - intros v Hv. eapply var_sat_agree; [apply V; auto|]. apply B. unfold decl. apply in_flat_map. eauto.
  - intros c Hc. eapply con_sat_agree; [apply E; auto|]. intros v Hv. apply A. exact (C k Hk c Hc v Hv).
Qed.

Lemma flat_map_twice : forall {A B C} (h : B -> list C) (k : A -> list B) l, flat_map h (flat_map k l) = flat_map (fun a => flat_map h (k a)) l.
Proof. induction l as [|a l IH]; [reflexivity|]. cbn [flat_map]. rewrite flat_map_app, IH. reflexivity. Qed.

(** ** All equations of a tree *)
Definition eqs (m : emodel) : list constraint := flat_map em_cons (flat m).
Lemma eqs_EM : forall f l v c s, eqs (EM f l v c s) = c ++ flat_map eqs s.
Proof.
  intros. unfold eqs. simpl. f_equal. induction s as [|a s IH]; simpl; auto. rewrite flat_map_app, IH. reflexivity.
Qed.

(** ** Shares that arrive later *)
Lemma filter_true : forall {A} (l : list A), filter (fun _ => true) l = l.
Proof. induction l; simpl; congruence. Qed.

Record alloc_parts (elem label : string) (shs : list share) (sa : sa_out) (s : variable) (c : constraint) (l : list (share * ss_out)) : Prop := {
  al_s : alloc_sum elem label None None = Ok s;
  al_sum : sa_sum sa = s;
  al_l : singles_of elem shs l;
  al_names : nodup_str (map sh_name shs) = true;
  al_c : create_equation (model_full elem (Some label)) (cat [label; "_sum"]) KEq (AddS s (NS (-1)) None false :: map scall l) = Ok c;
  al_tree : sa_tree sa = EM (model_full elem (Some label)) label [s] [c] (map (fun so : share * ss_out => ss_tree (snd so)) l)
}.
Lemma alloc_parts_ok : forall cx elem label shs sa, share_alloc cx elem label false None None None None shs = Ok sa ->
  exists s c l, alloc_parts elem label shs sa s c l.
Proof.
  intros cx elem label shs sa H. unfold share_alloc in H. bnd H u E1. bnd H s E2. bnd H st E3. bnd H l E4. bnd H u' E5. bnd H csum E6. bnd H cts E7.
  bnd H m E8. apply Ok_inj in H. subst sa. apply Ok_inj in E3. subst st. apply Ok_inj in E7. subst cts. apply mk_em_spec in E8. destruct E8 as [-> _].
  rewrite (filter_all _ l) in E6 by (intros a Ha; apply orb_true_r).
  exists s, csum, l. constructor; auto. unfold assert_, guard in E5. destruct (nodup_str _); auto. discriminate.
Qed.
Lemma alloc_parts_mk : forall cx elem label shs s c l,
  alloc_sum elem label None None = Ok s -> singles_of elem shs l -> nodup_str (map sh_name shs) = true ->
  create_equation (model_full elem (Some label)) (cat [label; "_sum"]) KEq (AddS s (NS (-1)) None false :: map scall l) = Ok c ->
  share_alloc cx elem label false None None None None shs
  = Ok (mkSA (EM (model_full elem (Some label)) label [s] [c] (map (fun so : share * ss_out => ss_tree (snd so)) l)) s None).
Proof.
  intros cx elem label shs s c l A B C D. unfold share_alloc. cbn [assert_ guard orb is_none andb bind]. rewrite A. cbn [bind]. unfold singles_of in B.
  rewrite B. cbn [bind]. rewrite C. cbn [assert_ guard bind]. rewrite (filter_all _ l) by (intros a Ha; apply orb_true_r). cbn [app].
  unfold scall in D. rewrite D. cbn [bind]. unfold mk_em. cbn [map nodup_str mem_str existsb negb andb]. reflexivity.
Qed.

Lemma NoDup_map_app_l : forall {A B} (f : A -> B) l m, NoDup (map f (l ++ m)) -> NoDup (map f l).
Proof. intros A B f l m H. rewrite map_app in H. apply NoDup_app_both in H. tauto. Qed.

Lemma alloc_prefix : forall cx elem label a b sa', share_alloc cx elem label false None None None None (a ++ b) = Ok sa' ->
  exists sa s c c' la lb, share_alloc cx elem label false None None None None a = Ok sa
    /\ alloc_parts elem label a sa s c la /\ alloc_parts elem label (a ++ b) sa' s c' (la ++ lb) /\ singles_of elem b lb.
Proof.
  intros cx elem label a b sa' H. apply alloc_parts_ok in H. destruct H as [s [c' [l [P1 P2 P3 P4 P5 P6]]]].
  unfold singles_of in P3. pose proof P3 as P3'. apply mapM_app in P3'. destruct P3' as [la [lb [L1 [L2 ->]]]].
  assert (ND : nodup_str (map sh_name a) = true).
  { apply nodup_str_NoDup. apply nodup_str_NoDup in P4. eapply NoDup_map_app_l; eauto. }
  assert (C : exists c, create_equation (model_full elem (Some label)) (cat [label; "_sum"]) KEq (AddS s (NS (-1)) None false :: map scall la) = Ok c).
  { rewrite map_app in P5. unfold create_equation, build_constraint in *. rewrite app_comm_cons in P5. apply foldM_app in P5.
    destruct P5 as [c [P5 _]]. eauto. }
  destruct C as [c C]. exists (mkSA (EM (model_full elem (Some label)) label [s] [c] (map (fun so : share * ss_out => ss_tree (snd so)) la)) s None), s, c, c', la, lb.
  split; [apply alloc_parts_mk; auto|]. split; [constructor; auto|]. split; [|exact L2]. constructor; auto.
Qed.

Lemma single_var_decl : forall elem sh o, single_share elem sh = Ok o -> decl (ss_tree o) = [ss_var o].
Proof.
  intros elem sh o H. unfold single_share in H. bnd H u E1. bnd H sv E2. bnd H c E3. bnd H m E4. apply Ok_inj in H. subst o.
  apply mk_em_spec in E4. destruct E4 as [-> _]. cbn [ss_tree ss_var]. rewrite decl_EM. reflexivity.
Qed.

(** Effect models see only the shares for their own effect. *)
Lemma effect_model_pen : forall cx tre a pen e, (forall s, In s pen -> sh_target s = TPen) ->
  effect_model cx tre (a ++ pen) e = effect_model cx tre a e.
Proof.
  intros cx tre a pen e H. unfold effect_model. rewrite !filter_app.
  rewrite (filter_none (is_inv (e_id e)) pen) by (intros s Hs; unfold is_inv; rewrite (H s Hs); auto).
  rewrite (filter_none (is_op (e_id e)) pen) by (intros s Hs; unfold is_op; rewrite (H s Hs); auto). rewrite !app_nil_r. reflexivity.
Qed.

Lemma mapM_ext_all : forall {A B} (f g : A -> res B) l, (forall a, f a = g a) -> mapM f l = mapM g l.
Proof. intros A B f g l H. induction l as [|a l IH]; simpl; auto. rewrite H, IH. reflexivity. Qed.

Lemma effects_prefix : forall cx tre a pen em' obj, effects_model cx tre (a ++ pen) = Ok (em', obj) -> (forall s, In s pen -> sh_target s = TPen) ->
  exists em ms sa sa' s c c' la lb,
    effects_model cx tre a = Ok (em, obj)
    /\ em = EM "Effects" "Effects" [] [] (ms ++ [sa_tree sa]) /\ em' = EM "Effects" "Effects" [] [] (ms ++ [sa_tree sa'])
    /\ (forall m, In m ms -> closedT (flat_map decl ms ++ shv a) m)
    /\ (exists pa, alloc_parts "Effects" "penalty" pa sa s c la /\ alloc_parts "Effects" "penalty" (pa ++ pen) sa' s c' (la ++ lb) /\ incl (shv pa) (shv a)
          /\ (forall sh, In sh pa -> In sh a))
    /\ singles_of "Effects" pen lb.
Proof.
  intros cx tre a pen em' obj H T. unfold effects_model in H. bnd H bo E1. bnd H bi E2. cbv zeta in H. bnd H ms E3. bnd H sa' E4. bnd H oe E5. bnd H vo E6.
  bnd H vi E7. bnd H ob E8. bnd H root E9. apply Ok_inj in H. apply pair_equal_spec in H. destruct H as [<- <-].
  assert (E3' : mapM (effect_model cx tre (List.concat bo ++ List.concat bi ++ a)) (cx_effects cx) = Ok ms).
  { rewrite <- E3. apply mapM_ext_all. intros e. rewrite !app_assoc. rewrite (effect_model_pen cx tre ((List.concat bo ++ List.concat bi) ++ a) pen e T). reflexivity. }
  assert (FP : forall z, filter is_pen (List.concat bo ++ List.concat bi ++ z) = filter is_pen z).
  { intros z. rewrite !filter_app.
    rewrite (filter_none is_pen (List.concat bo)), (filter_none is_pen (List.concat bi)); auto.
    - intros s Hs. apply in_concat in Hs. destruct Hs as [l [Hl Hs]]. destruct (mapM_In_inv _ _ _ _ E2 Hl) as [e [_ E]]. unfold between_inv in E.
      destruct (mapM_In_inv _ _ _ _ E Hs) as [kp [_ F]]. bnd F u1 F1. bnd F w F2. apply Ok_inj in F. subst s. reflexivity.
    - intros s Hs. apply in_concat in Hs. destruct Hs as [l [Hl Hs]]. destruct (mapM_In_inv _ _ _ _ E1 Hl) as [e [_ E]]. unfold between_op in E.
      destruct (mapM_In_inv _ _ _ _ E Hs) as [kp [_ F]]. bnd F u1 F1. bnd F w F2. bnd F q F3. apply Ok_inj in F. subst s. reflexivity. }
  rewrite FP, filter_app, (filter_all is_pen pen) in E4 by (intros s Hs; unfold is_pen; rewrite (T s Hs); auto).
  apply alloc_prefix in E4. destruct E4 as [sa [s [c [c' [la [lb [A1 [A2 [A3 A4]]]]]]]]].
  apply mk_em_spec in E9. destruct E9 as [-> _].
  exists (EM "Effects" "Effects" [] [] (ms ++ [sa_tree sa])), ms, sa, sa', s, c, c', la, lb.
  split; [|split; [auto|split; [auto|split; [|split; [|exact A4]]]]].
  - unfold effects_model. rewrite E1. cbn [bind]. rewrite E2. cbn [bind]. cbv zeta. rewrite E3'. cbn [bind]. rewrite FP, A1. cbn [bind]. rewrite E5. cbn [bind].
    rewrite E6. cbn [bind]. rewrite E7. cbn [bind]. rewrite (al_sum _ _ _ _ _ _ _ A2). rewrite (al_sum _ _ _ _ _ _ _ A3) in E8. rewrite E8. cbn [bind].
    unfold mk_em. cbn [map nodup_str guard bind]. reflexivity.
  - assert (EV : forall e, In e (cx_effects cx) ->
      (forall v, inv_sum_var e = Ok v -> In v (flat_map decl ms)) /\ (forall v, op_ts_var cx (tre (e_label e)) e = Ok v -> In v (flat_map decl ms))).
    { intros e He. destruct (mapM_In _ _ _ _ E3' He) as [k [Ek Hk]]. apply effect_closed in Ek. destruct Ek as [_ [_ [B C]]].
      split; intros v Hv; apply in_flat_map; exists k; auto. }
    intros m Hm. destruct (mapM_In_inv _ _ _ _ E3' Hm) as [e [He E]]. apply effect_closed in E. destruct E as [C _].
    eapply closedT_mono; [|exact C]. apply incl_app; [intros v Hv; apply in_or_app; left; apply in_flat_map; eauto|].
    rewrite !shv_app. apply incl_app; [|apply incl_app; [|apply incl_appr, incl_refl]]; apply incl_appl; intros v Hv;
      unfold shv in Hv; apply in_flat_map in Hv; destruct Hv as [sh [Hs Hv]]; apply in_concat in Hs; destruct Hs as [l [Hl Hs]].
    + destruct (mapM_In_inv _ _ _ _ E1 Hl) as [e' [He' E]]. unfold between_op in E. destruct (mapM_In_inv _ _ _ _ E Hs) as [kp [_ F]].
      bnd F u1 F1. bnd F w F2. bnd F q F3. apply Ok_inj in F. subst sh. destruct Hv as [<-|[]]. exact (proj2 (EV e' He') w F2).
    + destruct (mapM_In_inv _ _ _ _ E2 Hl) as [e' [He' E]]. unfold between_inv in E. destruct (mapM_In_inv _ _ _ _ E Hs) as [kp [_ F]].
      bnd F u1 F1. bnd F w F2. apply Ok_inj in F. subst sh. destruct Hv as [<-|[]]. exact (proj1 (EV e' He') w F2).
  - exists (filter is_pen a). split; auto. split; auto. split; [apply shv_filter|]. intros sh Hs. apply filter_In in Hs. tauto.
Qed.

(** ** Translating a part of a system *)
Lemma translate_part : forall ds ds' obj pm', system_translate ds' obj = Ok pm' ->
  incl (flat_map decl ds) (flat_map decl ds') -> NoDup (map v_label (flat_map decl ds)) -> NoDup (map c_label (flat_map eqs ds)) ->
  (forall c, In c (flat_map eqs ds) -> In c (flat_map eqs ds') \/ exists rows, translate_constraint c = Ok rows) ->
  exists pm, system_translate ds obj = Ok pm /\ pm_obj pm = pm_obj pm'.
Proof.
  intros ds ds' obj pm' H I NV NC C.
  assert (PV : forall d, Permutation (flat_map em_vars (system_sub_models d)) (flat_map decl d)).
  { intros d. eapply perm_trans; [apply Permutation_flat_map_l, system_sub_models_perm|]. unfold decl. rewrite flat_map_twice. apply Permutation_refl. }
  assert (PC : forall d, Permutation (flat_map em_cons (system_sub_models d)) (flat_map eqs d)).
  { intros d. eapply perm_trans; [apply Permutation_flat_map_l, system_sub_models_perm|]. unfold eqs. rewrite flat_map_twice. apply Permutation_refl. }
  unfold system_translate in H. bnd H vs E1. bnd H cs E2. unfold system_variables in E1. bnd E1 u U. apply Ok_inj in E1. subst vs.
  unfold system_constraints in E2. bnd E2 u' U'. apply Ok_inj in E2. subst cs.
  unfold translate_model in H. bnd H pvs P1. bnd H es P2. bnd H ineqs P3. bnd H ob P4. apply Ok_inj in H. subst pm'.
  unfold system_translate, system_variables, system_constraints.
  assert (N1 : nodup_str (map v_label (flat_map em_vars (system_sub_models ds))) = true).
  { apply nodup_str_NoDup. eapply Permutation_NoDup; [apply Permutation_map, Permutation_sym, PV|exact NV]. }
  assert (N2 : nodup_str (map c_label (flat_map em_cons (system_sub_models ds))) = true).
  { apply nodup_str_NoDup. eapply Permutation_NoDup; [apply Permutation_map, Permutation_sym, PC|exact NC]. }
  rewrite N1, N2. cbn [guard bind]. unfold translate_model.
  assert (TV : exists p, mapM translate_variable (flat_map em_vars (system_sub_models ds)) = Ok p).
  { apply mapM_total. intros v Hv. eapply Permutation_in in Hv; [|apply PV]. apply I in Hv.
    eapply Permutation_in in Hv; [|apply Permutation_sym, PV]. destruct (mapM_In _ _ _ _ P1 Hv) as [p [E _]]. eauto. }
  assert (TC : forall c, In c (flat_map em_cons (system_sub_models ds)) -> exists rows, translate_constraint c = Ok rows).
  { intros c Hc. eapply Permutation_in in Hc; [|apply PC]. destruct (C c Hc) as [Hc'|R]; auto.
    eapply Permutation_in in Hc'; [|apply Permutation_sym, PC].
    destruct (match c_kind c with KIneq => true | _ => false end) eqn:K.
    - assert (X : In c (filter (fun c => match c_kind c with KIneq => true | _ => false end) (flat_map em_cons (system_sub_models ds')))) by (apply filter_In; auto).
      destruct (mapM_In _ _ _ _ P3 X) as [r [E _]]. eauto.
    - assert (X : In c (filter (fun c => match c_kind c with KIneq => false | _ => true end) (flat_map em_cons (system_sub_models ds'))))
        by (apply filter_In; split; auto; destruct (c_kind c); auto; discriminate).
      destruct (mapM_In _ _ _ _ P2 X) as [r [E _]]. eauto. }
  destruct TV as [p ->]. cbn [bind].
  assert (T2 : forall f, exists r, mapM translate_constraint (filter f (flat_map em_cons (system_sub_models ds))) = Ok r).
  { intros f. apply mapM_total. intros c Hc. apply filter_In in Hc. apply TC. tauto. }
  destruct (T2 (fun c => match c_kind c with KIneq => false | _ => true end)) as [r1 ->].
  destruct (T2 (fun c => match c_kind c with KIneq => true | _ => false end)) as [r2 ->]. cbn [bind]. rewrite P4. cbn [bind]. eexists. split; reflexivity.
Qed.

(** ** Dropping the shares of the aggregation *)
(** The point [x] with the penalty total lowered by [d]. *)
Definition less_penalty (d : Q) (x : asg) : asg :=
  fun l i => if (String.eqb l pen_label && Nat.eqb i 0)%bool then x l i - d else x l i.

Lemma less_other : forall d x l i, l <> pen_label -> less_penalty d x l i = x l i.
Proof. intros d x l i H. unfold less_penalty. apply String.eqb_neq in H. rewrite H. reflexivity. Qed.
Lemma less_pen : forall d x, less_penalty d x pen_label 0%nat = x pen_label 0%nat - d.
Proof. intros. unfold less_penalty. rewrite String.eqb_refl. reflexivity. Qed.

Lemma pen_sum_shape : forall s, alloc_sum "Effects" "penalty" None None = Ok s ->
  v_label s = pen_label /\ v_len s = 1%nat /\ v_bin s = false /\ v_fixed s = None /\ v_lb s = None /\ v_ub s = None.
Proof. intros s H. unfold alloc_sum in H. apply create_variable_spec in H. subst s. repeat split. Qed.

Lemma free_sat : forall x y s, v_bin s = false -> v_fixed s = None -> v_lb s = None -> v_ub s = None -> var_sat x s -> var_sat y s.
Proof.
  intros x y s B F L U [p [T _]]. exists p. split; auto. destruct (translate_variable_spec _ _ T) as [_ E]. intros i e N. rewrite E in N.
  apply nth_error_In in N. apply in_map_iff in N. destruct N as [j [<- _]]. unfold entry_of, entry_ok. rewrite F, B, L, U. cbn. repeat split; discriminate.
Qed.

Lemma sum_lhs_app : forall x i a b, Qsum (map (call_lhs x i) (a ++ b)) == Qsum (map (call_lhs x i) a) + Qsum (map (call_lhs x i) b).
Proof. intros. rewrite map_app, Qsum_app. reflexivity. Qed.

(** The total of the penalties without the later shares. *)
Lemma drop_total : forall x s c c' la lb d,
  alloc_sum "Effects" "penalty" None None = Ok s ->
  create_equation (model_full "Effects" (Some "penalty")) (cat ["penalty"; "_sum"]) KEq (AddS s (NS (-1)) None false :: map scall la) = Ok c ->
  create_equation (model_full "Effects" (Some "penalty")) (cat ["penalty"; "_sum"]) KEq (AddS s (NS (-1)) None false :: map scall (la ++ lb)) = Ok c' ->
  (forall so, In so lb -> v_len (ss_var (snd so)) = 1%nat) ->
  (forall so, In so la -> v_label (ss_var (snd so)) <> pen_label) ->
  d == Qsum (map (fun so : share * ss_out => x (v_label (ss_var (snd so))) 0%nat) lb) ->
  con_sat x c' -> con_sat (less_penalty d x) c.
Proof.
  intros x s c c' la lb d Hs Hc Hc' L1 NL Hd S. destruct (pen_sum_shape _ Hs) as [Ls [Ns _]].
  unfold create_equation in *.
  assert (R : exists rows, translate_constraint c = Ok rows).
  { eapply translate_total; [exact Hc| |apply Exists_cons_hd; cbn; rewrite Ns; discriminate]. constructor; [split; [discriminate|exact I]|]. apply Forall_forall. intros a Ha. apply in_map_iff in Ha.
    destruct Ha as [so [<- _]]. split; [discriminate|exact I]. }
  destruct R as [rows R]. eapply con_sat_intro; [exact Hc| |exact R|].
  { constructor; [exact I|]. apply Forall_forall. intros a Ha. apply in_map_iff in Ha. destruct Ha as [so [<- _]]. exact I. }
  intros i Hi.
  assert (Hi' : (i < c_len c')%nat).
  { pose proof (build_built _ _ _ _ _ Hc) as B. pose proof (build_built _ _ _ _ _ Hc') as B'.
    assert (INC : forall a, In a (AddS s (NS (-1)) None false :: map scall la) -> In a (AddS s (NS (-1)) None false :: map scall (la ++ lb))).
    { intros a [<-|Ha]; [left; auto|right]. rewrite map_app. apply in_or_app. auto. }
    assert (POS : c_len c' = 0%nat -> c_len c = 0%nat).
    { intros Z. destruct (b_len1 _ _ _ _ _ B') as [Q|[a [Ha Q]]]; [lia|]. rewrite Z in Q.
      assert (Ha' : In a (AddS s (NS (-1)) None false :: map scall la)).
      { destruct Ha as [<-|Ha]; [left; auto|]. rewrite map_app in Ha. apply in_app_iff in Ha. destruct Ha as [Ha|Ha]; [right; auto|].
        apply in_map_iff in Ha. destruct Ha as [so [<- Hso]]. cbn in Q. rewrite (L1 so Hso) in Q. discriminate. }
      destruct (b_lens _ _ _ _ _ B a Ha') as [X|X]; lia. }
    destruct (b_len1 _ _ _ _ _ B) as [Q|[a [Ha Q]]].
    - destruct (c_len c') eqn:Z; [specialize (POS eq_refl)|]; lia.
    - destruct (b_lens _ _ _ _ _ B' a (INC a Ha)) as [X|X]; [|lia]. destruct (c_len c') eqn:Z; [specialize (POS eq_refl)|]; lia. }
  assert (P' : Forall plain (AddS s (NS (-1)) None false :: map scall (la ++ lb))).
  { constructor; [exact I|]. apply Forall_forall. intros a Ha. apply in_map_iff in Ha. destruct Ha as [so [<- _]]. exact I. }
  pose proof (con_sat_elim _ _ _ _ _ _ Hc' P' S i Hi') as E. unfold rel in *. cbn [map] in *. rewrite !Qsum_cons in *.
  assert (Z : forall l, Qsum (map (call_rhs i) (map scall l)) == 0).
  { induction l as [|a l IH]; [reflexivity|]. cbn [map]. rewrite Qsum_cons, IH. reflexivity. }
  rewrite Z in *. rewrite map_app, sum_lhs_app in E.
  assert (EB : Qsum (map (call_lhs x i) (map scall lb)) == d).
  { rewrite Hd, map_map. apply Qsum_map_eq. intros so Hso. unfold scall, call_lhs. rewrite at_NS, (pick_scalar _ _ (L1 so Hso)). ring. }
  assert (EA : Qsum (map (call_lhs (less_penalty d x) i) (map scall la)) == Qsum (map (call_lhs x i) (map scall la))).
  { rewrite !map_map. apply Qsum_map_eq. intros so Hso. unfold scall, call_lhs. rewrite less_other by auto. reflexivity. }
  rewrite EA. rewrite EB in E. unfold call_lhs, call_rhs in *. rewrite at_NS, (pick_scalar _ _ Ns), Ls in *. rewrite less_pen. lra.
Qed.

Ltac ends e H := cbn in H; repeat (destruct e as [|? e]; [discriminate H|]; cbn in H; first [discriminate H|injection H as _ H]).
Lemma op_label_other : forall e, vlabel (cat [e; "__"; "operation"]) "operation_sum" <> pen_label.
Proof. intros e H. ends e H. Qed.
Lemma inv_label_other : forall e, vlabel (cat [e; "__"; "invest"]) "invest_sum" <> pen_label.
Proof. intros e H. ends e H. Qed.

(** ** From the aggregated program to the full one *)
Definition corr_shares (ap : agg_params) (ks : list variable) : list share :=
  map (fun k => mkShare TPen (cat ["Aggregation_penalty__"; v_label k]) (Some k) (NS (ag_penalty ap)) true) ks.

Record agg_parts (cf : config) (ord : list nat -> list nat) (fs : flow_system) (idx : option (list nat)) (ap : agg_params) (cl : clustering)
       (sel : option (list string)) (pm' pm : pmodel) (cx : ctx) (cos : list comp_out) (am : emodel) (pen : list share) (em : emodel)
       (bts : list emodel) (obj : constraint) : Prop := {
  gp_build : build cf ord fs idx = Ok pm;
  gp_system : build_system cf ord fs idx = Ok (mkBuilt cx em cos bts obj);
  gp_agg : aggregation_model ap cl sel (fs_comps fs) cos = Ok (am, pen);
  gp_obj : pm_obj pm' = pm_obj pm;
  gp_comps : forall x, feasible pm' x -> Forall (fun o => em_sat x (co_tree o)) cos;
  gp_am : forall x, feasible pm' x -> em_sat x am;
  gp_lift : forall x, feasible pm' x -> feasible pm (less_penalty (Qsum (map (worth x 0) pen)) x)
}.

Lemma NoDup_perm_part : forall {A} (a b c : list A), Permutation a (b ++ c) -> NoDup a -> NoDup b.
Proof. intros A a b c P N. eapply Permutation_NoDup in P; eauto. apply NoDup_app_both in P. tauto. Qed.

Lemma pen_all_corr : forall ap cl sel comps cos am pen, aggregation_model ap cl sel comps cos = Ok (am, pen) ->
  exists ks, pen = corr_shares ap ks.
Proof.
  intros ap cl sel comps cos am pen H. unfold aggregation_model in H. bnd H ch E1. bnd H pairs E2. bnd H vss E3. bnd H parts E4. bnd H m E5.
  cbv zeta in H. apply Ok_inj in H. apply pair_equal_spec in H. destruct H as [_ <-]. destruct (_ && _)%bool; [eexists; reflexivity|exists []; reflexivity].
Qed.

Lemma agg_lift : forall cf ord fs idx hpp ap cl sel pm', build_aggregated cf ord fs idx hpp ap cl sel = Ok pm' ->
  exists pm cx cos am pen em bts obj, agg_parts cf ord fs idx ap cl sel pm' pm cx cos am pen em bts obj.
Proof.
  intros cf ord fs idx hpp ap cl sel pm' H. unfold build_aggregated in H. bnd H u0 E0. bnd H b E. unfold build_agg_system in E. bnd E cx E1. bnd E u E2.
  bnd E cos E3. cbv zeta in E. bnd E bos E4. bnd E ap' E6. destruct ap' as [am pen]. bnd E eo E5. destruct eo as [em' obj]. apply Ok_inj in E. subst b.
  cbn [ab_roots ab_obj] in H. destruct (pen_all_corr _ _ _ _ _ _ _ E6) as [ks Hks].
  assert (TP : forall s, In s pen -> sh_target s = TPen).
  { intros s Hs. rewrite Hks in Hs. apply in_map_iff in Hs. destruct Hs as [k [<- _]]. reflexivity. }
  rewrite app_assoc in E5. destruct (effects_prefix _ _ _ _ _ _ E5 TP) as [em [ms [sa [sa' [s [c [c' [la [lb [F1 [F2 [F3 [F4 [[pa [A1 [A2 [A3 A4]]]] F5]]]]]]]]]]]]]].
  remember (map co_tree cos ++ map fst bos) as rest eqn:HR.
  assert (TS : sa_tree sa = EM (model_full "Effects" (Some "penalty")) "penalty" [s] [c] (map (fun so : share * ss_out => ss_tree (snd so)) la)) by apply (al_tree _ _ _ _ _ _ _ A1).
  assert (TS' : sa_tree sa' = EM (model_full "Effects" (Some "penalty")) "penalty" [s] [c'] (map (fun so : share * ss_out => ss_tree (snd so)) (la ++ lb))) by apply (al_tree _ _ _ _ _ _ _ A2).
  pose proof (al_c _ _ _ _ _ _ _ A1) as EC. pose proof (al_c _ _ _ _ _ _ _ A2) as EC'. pose proof (al_s _ _ _ _ _ _ _ A1) as ES.
  set (tl := map (fun so : share * ss_out => ss_tree (snd so))) in *.
  assert (TLA : tl (la ++ lb) = tl la ++ tl lb) by (unfold tl; apply map_app).
  assert (DV : Permutation (flat_map decl ((em' :: rest) ++ [am])) (flat_map decl (em :: rest) ++ flat_map decl (tl lb) ++ decl am)).
  { rewrite flat_map_app. cbn [flat_map]. rewrite F2, F3, !decl_EM. cbn [app]. rewrite !flat_map_app. cbn [flat_map]. rewrite TS, TS', !decl_EM, TLA, flat_map_app, !app_nil_r.
    cbn [app]. rewrite <- !app_assoc. apply Permutation_app_head. cbn [app]. constructor. rewrite <- !app_assoc. apply Permutation_app_head.
    rewrite !app_assoc. apply Permutation_app_tail, Permutation_app_comm. }
  assert (DE : flat_map eqs (em :: rest) = flat_map eqs ms ++ (c :: flat_map eqs (tl la)) ++ flat_map eqs rest).
  { cbn [flat_map]. rewrite F2, eqs_EM. cbn [app]. rewrite flat_map_app. cbn [flat_map]. rewrite TS, eqs_EM, app_nil_r, <- app_assoc. reflexivity. }
  assert (DE' : flat_map eqs ((em' :: rest) ++ [am]) = flat_map eqs ms ++ (c' :: flat_map eqs (tl la) ++ flat_map eqs (tl lb)) ++ flat_map eqs rest ++ eqs am).
  { rewrite flat_map_app. cbn [flat_map]. rewrite F3, eqs_EM. cbn [app]. rewrite flat_map_app. cbn [flat_map]. rewrite TS', eqs_EM, TLA, flat_map_app, !app_nil_r, <- !app_assoc.
    cbn [app]. rewrite <- ?app_assoc. reflexivity. }
  assert (NDS : NoDup (map v_label (flat_map decl ((em' :: rest) ++ [am]))) /\ NoDup (map c_label (flat_map eqs ((em' :: rest) ++ [am])))).
  { unfold system_translate in H. bnd H vs H1. bnd H cs H2. apply system_translate_vars in H1. apply system_translate_cons in H2.
    destruct H1 as [N1 P1]. destruct H2 as [N2 P2]. rewrite flat_map_twice in P1. rewrite flat_map_twice in P2. split; [eapply Permutation_NoDup; [apply Permutation_map; exact P1|auto]|].
    eapply Permutation_NoDup; [apply Permutation_map; exact P2|auto]. }
  destruct NDS as [NV NC].
  assert (LC : c_label c = c_label c').
  { unfold create_equation in EC, EC'. rewrite (b_label _ _ _ _ _ (build_built _ _ _ _ _ EC)), (b_label _ _ _ _ _ (build_built _ _ _ _ _ EC')). reflexivity. }
  assert (NV0 : NoDup (map v_label (flat_map decl (em :: rest)))).
  { eapply NoDup_perm_part; [|exact NV]. rewrite <- map_app. apply Permutation_map. exact DV. }
  assert (T : exists pm, system_translate (em :: rest) obj = Ok pm /\ pm_obj pm = pm_obj pm').
  { eapply translate_part; [exact H| |exact NV0| |].
    - intros v Hv. eapply Permutation_in; [apply Permutation_sym, DV|]. apply in_or_app. auto.
    - eapply (NoDup_perm_part _ _ (map c_label (flat_map eqs (tl lb) ++ eqs am))); [|exact NC]. rewrite DE, DE', !map_app. cbn [map app]. rewrite LC, !map_app.
      apply Permutation_trans with (map c_label (flat_map eqs ms) ++ (c_label c' :: (map c_label (flat_map eqs (tl la)) ++ map c_label (flat_map eqs rest)) ++
        (map c_label (flat_map eqs (tl lb)) ++ map c_label (eqs am)))); [|rewrite <- !app_assoc; cbn [app]; rewrite <- ?app_assoc; apply Permutation_refl].
      apply Permutation_app_head. constructor. rewrite <- !app_assoc. apply Permutation_app_head.
      rewrite !app_assoc. apply Permutation_app_tail, Permutation_app_comm.
    - intros k Hk. rewrite DE in Hk. rewrite DE'. repeat (rewrite in_app_iff in Hk; cbn [In] in Hk).
      destruct Hk as [Hk|[[<-|Hk]|Hk]]; [left; apply in_or_app; auto| |left|left].
      + right. eapply translate_total; [exact EC| |apply Exists_cons_hd; cbn; rewrite (proj1 (proj2 (pen_sum_shape _ ES))); discriminate]. constructor; [split; [discriminate|exact I]|]. apply Forall_forall. intros a Ha. apply in_map_iff in Ha.
        destruct Ha as [so [<- _]]. split; [discriminate|exact I].
      + apply in_or_app. right. apply in_or_app. left. right. apply in_or_app. auto.
      + apply in_or_app. right. apply in_or_app. right. apply in_or_app. auto. }
  destruct T as [pm [T1 T2]]. exists pm, cx, cos, am, pen, em, (map fst bos), obj.
  assert (ESYS : build_system cf ord fs idx = Ok (mkBuilt cx em cos (map fst bos) obj)).
  { unfold build_system. rewrite E1. cbn [bind]. rewrite E2. cbn [bind]. rewrite E3. cbn [bind]. cbv zeta. rewrite E4. cbn [bind]. rewrite F1. reflexivity. }
  (* the variables other than the penalty total *)
  assert (OTH : forall v, In v (flat_map decl ms ++ flat_map decl (tl la) ++ flat_map decl rest) -> v_label v <> pen_label).
  { intros v Hv L. destruct (pen_sum_shape _ ES) as [Ls _]. rewrite <- Ls in L.
    assert (PD : Permutation (flat_map decl (em :: rest)) (s :: flat_map decl ms ++ flat_map decl (tl la) ++ flat_map decl rest)).
    { cbn [flat_map]. rewrite F2, decl_EM. cbn [app]. rewrite flat_map_app. cbn [flat_map]. rewrite TS, decl_EM, app_nil_r, <- app_assoc. cbn [app].
      apply Permutation_sym, Permutation_middle. }
    assert (N : NoDup (v_label s :: map v_label (flat_map decl ms ++ flat_map decl (tl la) ++ flat_map decl rest))).
    { eapply Permutation_NoDup; [|exact NV0]. change (v_label s :: map v_label ?l) with (map v_label (s :: l)). apply Permutation_map. exact PD. }
    inversion N as [|? ? N1 _]. apply N1. rewrite <- L. apply in_map. exact Hv. }
  assert (IR : forall o, In o cos -> incl (decl (co_tree o)) (flat_map decl rest)).
  { intros o Ho v Hv. rewrite HR, flat_map_app. apply in_or_app. left. apply in_flat_map. exists (co_tree o). split; auto. apply in_map. auto. }
  assert (IB : forall p, In p bos -> incl (decl (fst p)) (flat_map decl rest)).
  { intros p Hp v Hv. rewrite HR, flat_map_app. apply in_or_app. right. apply in_flat_map. exists (fst p). split; auto. apply in_map. auto. }
  assert (COMP : forall o, In o cos -> closedT (decl (co_tree o)) (co_tree o)
                /\ (forall f, In f (co_flows o) -> In (fo_rate f) (decl (co_tree o))) /\ incl (shv (co_shares o)) (decl (co_tree o))).
  { intros o Ho. destruct (mapM_In_inv _ _ _ _ E3 Ho) as [c0 [_ G]]. eapply comp_closed; eauto. }
  assert (RATE : incl (map fo_rate (flat_map co_flows cos)) (flat_map decl rest)).
  { intros v Hv. apply in_map_iff in Hv. destruct Hv as [f [<- Hf]]. apply in_flat_map in Hf. destruct Hf as [o [Ho Hf]].
    apply (IR o Ho). exact (proj1 (proj2 (COMP o Ho)) f Hf). }
  assert (SHV : incl (shv (flat_map co_shares cos ++ flat_map snd bos)) (flat_map decl rest)).
  { rewrite shv_app. apply incl_app; intros v Hv; unfold shv in Hv; apply in_flat_map in Hv; destruct Hv as [sh [Hs Hv]]; apply in_flat_map in Hs.
    - destruct Hs as [o [Ho Hs]]. apply (IR o Ho). apply (proj2 (proj2 (COMP o Ho))). unfold shv. apply in_flat_map. eauto.
    - destruct Hs as [[m shs] [Hp Hs]]. apply (IB _ Hp). destruct (bus_from _ _ _ _ _ E4 _ _ Hp) as [b0 [ins [outs [G _]]]].
      apply bus_closed in G. apply (proj2 G). unfold shv. apply in_flat_map. eauto. }
  constructor; auto.
  - unfold build. rewrite ESYS. cbn [bind]. unfold bs_roots. cbn [bs_effects bs_comps bs_buses bs_obj]. rewrite <- HR. exact T1.
  - intros x F. apply (system_feasible _ _ _ _ H) in F. rewrite Forall_forall in *. intros o Ho. apply F. apply in_or_app. left. right.
    rewrite HR. apply in_or_app. left. apply in_map. auto.
  - intros x F. apply (system_feasible _ _ _ _ H) in F. rewrite Forall_forall in *. apply F. apply in_or_app. right. left. auto.
  - intros x F. apply (system_feasible _ _ _ _ H) in F. apply (system_feasible _ _ _ _ T1). rewrite Forall_forall in *.
    set (d := Qsum (map (worth x 0) pen)).
    assert (AG : forall v, v_label v <> pen_label -> agree x (less_penalty d x) v) by (intros v Hv i; rewrite less_other by auto; reflexivity).
    assert (SAT' : em_sat x em') by (apply F; left; auto). rewrite F3 in SAT'.
    assert (SP : em_sat x (sa_tree sa')) by (eapply em_sat_sub; [exact SAT'|apply in_or_app; right; left; auto]). rewrite TS' in SP.
    assert (LB : forall so, In so lb -> v_len (ss_var (snd so)) = 1%nat /\ x (v_label (ss_var (snd so))) 0%nat == worth x 0 (fst so)).
    { intros so Hso. destruct (singles_fst _ _ _ F5) as [G1 G2]. assert (In (fst so) pen) as Hp by (rewrite <- G1; apply in_map; auto).
      assert (SL : share_len 1 (fst so)).
      { rewrite Hks in Hp. apply in_map_iff in Hp. destruct Hp as [k [<- _]]. reflexivity. }
      destruct (single_share_spec x "Effects" (fst so) (snd so) 1 ltac:(discriminate) SL (G2 so Hso)) as [L1 L2]. split; auto.
      apply L2; [|lia]. eapply em_sat_sub; [exact SP|]. rewrite TLA. apply in_or_app. right. unfold tl. apply in_map_iff. eauto. }
    assert (Hd : d == Qsum (map (fun so : share * ss_out => x (v_label (ss_var (snd so))) 0%nat) lb)).
    { unfold d. destruct (singles_fst _ _ _ F5) as [G1 _]. rewrite <- G1, map_map. apply Qsum_map_eq. intros so Hso. symmetry. apply LB. auto. }
    assert (SV : forall so, In so la -> In (ss_var (snd so)) (flat_map decl (tl la))).
    { intros so Hso. apply in_flat_map. exists (ss_tree (snd so)). split; [unfold tl; apply in_map_iff; eauto|].
      destruct (singles_fst _ _ _ (al_l _ _ _ _ _ _ _ A1)) as [_ G2]. rewrite (single_var_decl _ _ _ (G2 so Hso)). left; auto. }
    intros m Hm. destruct Hm as [<-|Hm].
    + rewrite F2. apply em_sat_intro; [constructor|constructor|]. apply Forall_forall. intros k Hk. apply in_app_iff in Hk. destruct Hk as [Hk|[<-|[]]].
      * eapply em_sat_agree; [exact (F4 k Hk)| | |].
        -- intros v Hv. apply AG, OTH. apply in_app_iff in Hv. destruct Hv as [Hv|Hv]; apply in_or_app; [auto|]. right. apply in_or_app. right. apply SHV. exact Hv.
        -- intros v Hv. apply AG, OTH. apply in_or_app. left. apply in_flat_map. eauto.
        -- eapply em_sat_sub; [exact SAT'|]. apply in_or_app. auto.
      * rewrite TS. destruct (pen_sum_shape _ ES) as [_ [_ [B1 [B2 [B3 B4]]]]].
        apply em_sat_intro.
        -- constructor; [|constructor]. eapply free_sat; eauto. exact (Forall_inv (em_sat_vars _ _ _ _ _ _ SP)).
        -- constructor; [|constructor]. eapply drop_total; [exact ES|exact EC|exact EC'| | |exact Hd|exact (Forall_inv (em_sat_cons _ _ _ _ _ _ SP))].
           ++ intros so Hso. apply LB. auto.
           ++ intros so Hso. apply OTH. apply in_or_app. right. apply in_or_app. left. auto.
        -- apply Forall_forall. intros k Hk. unfold tl in Hk. apply in_map_iff in Hk. destruct Hk as [so [<- Hso]].
           destruct (singles_fst _ _ _ (al_l _ _ _ _ _ _ _ A1)) as [G1 G2]. destruct (single_closed _ _ _ (G2 so Hso)) as [C1 _].
           eapply em_sat_agree; [exact C1| | |].
           ++ intros v Hv. apply AG, OTH. apply in_or_app. right. apply in_app_iff in Hv. apply in_or_app. destruct Hv as [Hv|Hv].
              ** left. apply in_flat_map. exists (ss_tree (snd so)). split; auto. unfold tl. apply in_map_iff. eauto.
              ** right. apply SHV. apply A3. unfold shv. apply in_flat_map. exists (fst so). split; auto. rewrite <- G1. apply in_map. auto.
           ++ intros v Hv. apply AG, OTH. apply in_or_app. right. apply in_or_app. left. apply in_flat_map. exists (ss_tree (snd so)). split; auto.
              unfold tl. apply in_map_iff. eauto.
           ++ eapply em_sat_sub; [exact SP|]. rewrite TLA. apply in_or_app. left. unfold tl. apply in_map_iff. eauto.
    + assert (SM : em_sat x m) by (apply F; apply in_or_app; left; right; auto).
      assert (DM : forall v, In v (decl m) -> agree x (less_penalty d x) v).
      { intros v Hv. apply AG, OTH. apply in_or_app. right. apply in_or_app. right. apply in_flat_map. eauto. }
      rewrite HR in Hm. apply in_app_iff in Hm. destruct Hm as [Hm|Hm]; apply in_map_iff in Hm.
      * destruct Hm as [o [<- Ho]]. eapply em_sat_agree; [exact (proj1 (COMP o Ho))|auto|auto|auto].
      * destruct Hm as [[m0 shs] [<- Hp]]. destruct (bus_from _ _ _ _ _ E4 _ _ Hp) as [b0 [ins [outs [G [G1 G2]]]]]. apply bus_closed in G.
        eapply em_sat_agree; [exact (proj1 G)| |auto|auto]. intros v Hv. apply in_app_iff in Hv. destruct Hv as [Hv|Hv]; [auto|].
        apply AG, OTH. apply in_or_app. right. apply in_or_app. right. apply RATE. apply in_app_iff in Hv. destruct Hv; auto.
Qed.

(** ** Which variables are equated *)
Lemma all_variables_complete : forall m vs, em_all_variables m = Ok vs -> incl (decl m) vs.
Proof.
  apply (emodel_ind' (fun m => forall vs, em_all_variables m = Ok vs -> incl (decl m) vs)).
  intros f l v c subs IH vs H. rewrite decl_EM. cbn [em_all_variables] in H.
  assert (X : forall ss acc r, (forall s, In s ss -> In s subs) ->
     foldM (fun acc s => vs <- em_all_variables s ;;
              _ <- guard (forallb (fun v => negb (mem_str (v_label v) (map v_label acc))) vs) KeyError ;; Ok (acc ++ vs)) ss acc = Ok r ->
     incl acc r /\ incl (flat_map decl ss) r).
  { induction ss as [|s ss IHs]; intros acc r Hs E; cbn [foldM] in E.
    - apply Ok_inj in E. subst. split; [apply incl_refl|intros z []].
    - bnd E a Ea. bnd Ea w E1. bnd Ea u E2. apply Ok_inj in Ea. subst a. destruct (IHs _ _ (fun s' H' => Hs s' (or_intror H')) E) as [A B].
      rewrite Forall_forall in IH. pose proof (IH s (Hs s (or_introl eq_refl)) _ E1) as J. split.
      + eapply incl_tran; [apply incl_appl, incl_refl|exact A].
      + cbn [flat_map]. apply incl_app; [|exact B]. eapply incl_tran; [exact J|]. eapply incl_tran; [apply incl_appr, incl_refl|exact A]. }
  destruct (X subs v vs (fun s H' => H') H) as [A B]. apply incl_app; auto.
Qed.

Lemma Forall2_combine : forall {A B} (R : A -> B -> Prop) l m a, Forall2 R l m -> In a l -> exists b, In (a, b) (combine l m) /\ R a b.
Proof.
  intros A B R l m a H. induction H as [|x y l m Hxy H IH]; intros Hi; [destruct Hi|]. destruct Hi as [<-|Hi]; [exists y; simpl; auto|].
  destruct (IH Hi) as [b [H1 H2]]. exists b. simpl. auto.
Qed.

Lemma chosen_In : forall sel comps cos ch c o, chosen_components sel comps cos = Ok ch -> NoDup (map cp_label comps) -> In (c, o) (combine comps cos) ->
  picked sel c -> exists o', In (c, o') ch /\ o' = o.
Proof.
  intros sel comps cos ch c o H ND Hi P. unfold chosen_components in H. cbv zeta in H. exists o. split; [|reflexivity].
  destruct sel as [[|l0 ls]|]; [apply Ok_inj in H; subst; auto| |apply Ok_inj in H; subst; auto]. unfold picked in P.
  destruct (mapM_In _ _ _ _ H P) as [[c' o'] [E Hc]]. unfold of_option in E. destruct (find _ _) as [p|] eqn:F; [|discriminate]. apply Ok_inj in E. subst p.
  apply find_some in F. destruct F as [F1 F2]. cbn [fst] in F2. apply String.eqb_eq in F2.
  assert (X : forall (l : list component) (m : list comp_out), NoDup (map cp_label l) -> In (c, o) (combine l m) -> In (c', o') (combine l m) ->
              cp_label c' = cp_label c -> (c', o') = (c, o)).
  { induction l as [|a l IH]; intros [|b m] N A B L; try destruct A. 
    - destruct B as [B|B]; [congruence|]. exfalso. inversion N as [|? ? N1 N2]; subst. apply N1. injection H0 as -> ->. rewrite <- L.
      apply in_map. eapply in_combine_l; eauto.
    - destruct B as [B|B].
      + exfalso. inversion N as [|? ? N1 N2]; subst. apply N1. injection B as -> ->. rewrite L. apply in_map. eapply in_combine_l; eauto.
      + inversion N; subst. eapply IH; eauto. }
  specialize (X _ _ ND Hi F1 F2). injection X as -> ->. exact Hc.
Qed.

Lemma equated_parts : forall ap cl sel comps cos am pen c o v, aggregation_model ap cl sel comps cos = Ok (am, pen) -> NoDup (map cp_label comps) ->
  In (c, o) (combine comps cos) -> picked sel c -> (is_storage c = false \/ ag_fix_storage ap = true) ->
  In v (decl (co_tree o)) -> v_ts v = true -> (ag_fix_all ap = true \/ v_bin v = true) ->
  exists pairs vs cs, equation_indices true cl = Ok pairs /\ equate_indices ap pairs v = Ok (vs, cs)
    /\ forall x, em_sat x am -> Forall (var_sat x) vs /\ Forall (con_sat x) cs.
Proof.
  intros ap cl sel comps cos am pen c o v H ND Hi P S Hv T B. unfold aggregation_model in H. bnd H ch E1. bnd H pairs E2. bnd H vss E3. bnd H parts E4.
  bnd H m E5. cbv zeta in H. apply Ok_inj in H. apply pair_equal_spec in H. destruct H as [<- _].
  destruct (chosen_In _ _ _ _ _ _ E1 ND Hi P) as [o' [Hc ->]].
  destruct (mapM_In _ _ _ _ E3 Hc) as [vs [F Hvs]]. unfold relevant_variables in F. cbn [fst snd] in F.
  assert (NS : (is_storage c && negb (ag_fix_storage ap))%bool = false) by (destruct S as [-> | ->]; [reflexivity|apply andb_false_r]).
  rewrite NS in F. bnd F al Fa. apply Ok_inj in F.
  assert (Hv' : In v (List.concat vss)).
  { apply in_concat. exists vs. split; auto. subst vs. apply filter_In. split; [eapply all_variables_complete; eauto|]. rewrite T.
    destruct B as [-> | ->]; [reflexivity|]. rewrite orb_true_r. reflexivity. }
  destruct (mapM_In _ _ _ _ E4 Hv') as [[nv nc] [G Hp]]. exists pairs, nv, nc. split; auto. split; auto.
  intros x SA. apply mk_em_spec in E5. destruct E5 as [-> _]. pose proof (em_sat_vars _ _ _ _ _ _ SA) as V. pose proof (em_sat_cons _ _ _ _ _ _ SA) as C.
  rewrite Forall_forall in V, C. split; apply Forall_forall; intros z Hz; [apply V|apply C]; apply in_flat_map; exists (nv, nc); auto.
Qed.

(** ** What equating says *)
Lemma pick_list : forall v l t, (t < length l)%nat -> pick v (Some l) t = nth t l 0%nat.
Proof. intros v l t H. unfold pick. destruct l as [|a [|b l]]; [simpl in H; lia| |reflexivity]. simpl in H. assert (t = 0)%nat by lia. subst. reflexivity. Qed.

Lemma pair_nth : forall (pairs : list (nat * nat)) k, (k < length pairs)%nat ->
  nth k (map fst pairs) 0%nat = fst (nth k pairs (0, 0)%nat) /\ nth k (map snd pairs) 0%nat = snd (nth k pairs (0, 0)%nat).
Proof.
  intros pairs k H. split.
  - change 0%nat with (fst (0, 0)%nat) at 1. apply map_nth.
  - change 0%nat with (snd (0, 0)%nat) at 1. apply map_nth.
Qed.

Definition keeps_equal (ap : agg_params) (v : variable) : Prop := v_bin v = false \/ ag_freedom ap <= 0.

Lemma equate_equal : forall ap pairs v vs cs x, equate_indices ap pairs v = Ok (vs, cs) -> keeps_equal ap v -> Forall (con_sat x) cs ->
  forall i j, In (i, j) pairs -> x (v_label v) i == x (v_label v) j.
Proof.
  intros ap pairs v vs cs x H K S i j Hi. unfold equate_indices in H.
  assert (Z : (v_bin v && negb (Qle_bool (ag_freedom ap) 0))%bool = false).
  { destruct K as [-> |K]; [reflexivity|]. apply Qle_bool_iff in K. rewrite K. apply andb_false_r. }
  rewrite Z in H. bnd H c E. apply Ok_inj in H. apply pair_equal_spec in H. destruct H as [_ <-]. apply Forall_inv in S.
  destruct (In_nth _ _ (0, 0)%nat Hi) as [k [Hk Nk]]. destruct (pair_nth pairs k Hk) as [N1 N2]. rewrite Nk in N1, N2. cbn [fst snd] in N1, N2.
  assert (R : rel KEq (Qsum (map (call_lhs x k) [AddS v (NS 1) (Some (map fst pairs)) false; AddS v (NS (-1)) (Some (map snd pairs)) false]))
                      (Qsum (map (call_rhs k) [AddS v (NS 1) (Some (map fst pairs)) false; AddS v (NS (-1)) (Some (map snd pairs)) false]))).
  { eapply (row_law x KEq _ _ _ c (length pairs)); [exact E|exact S| | | |exact Hk].
    - repeat constructor.
    - repeat constructor; unfold live; cbn; rewrite map_length; lia.
    - left. cbn. apply map_length. }
  unfold rel in R. cbn [map] in R. rewrite !Qsum_cons in R. unfold call_lhs, call_rhs in R. rewrite !at_NS in R. rewrite !pick_list in R by (rewrite map_length; auto).
  rewrite N1, N2 in R. change (Qsum []) with 0 in R. lra.
Qed.

(** Number of pairs at which [v] differs. *)
Lemma sumn_plus : forall n f g, sumn n (fun k => f k + g k) == sumn n f + sumn n g.
Proof.
  intros n f g. unfold sumn. induction (seq 0 n) as [|a l IH]; [reflexivity|]. cbn [map]. rewrite !Qsum_cons, IH. ring.
Qed.

Lemma count_le : forall (P : nat * nat -> bool) (g : nat -> Q) pairs s,
  (forall k, (k < length pairs)%nat -> 0 <= g (s + k)%nat /\ (P (nth k pairs (0, 0)%nat) = true -> 1 <= g (s + k)%nat)) ->
  inject_Z (Z.of_nat (length (filter P pairs))) <= Qsum (map g (seq s (length pairs))).
Proof.
  intros P g pairs. induction pairs as [|p l IH]; intros s H; [apply Qle_refl|]. cbn [length seq map filter]. rewrite Qsum_cons.
  assert (I : inject_Z (Z.of_nat (length (filter P l))) <= Qsum (map g (seq (S s) (length l)))).
  { apply IH. intros k Hk. specialize (H (S k) ltac:(cbn; lia)). cbn [nth] in H. replace (s + S k)%nat with (S s + k)%nat in H by lia. exact H. }
  destruct (H 0%nat ltac:(cbn; lia)) as [G0 G1]. rewrite Nat.add_0_r in *. cbn [nth] in G1. destruct (P p); cbn [length].
  - rewrite Nat2Z.inj_succ. unfold Z.succ. rewrite inject_Z_plus. specialize (G1 eq_refl). change (inject_Z 1) with 1. lra.
  - lra.
Qed.

Lemma equate_corrections : forall ap pairs v vs cs x, equate_indices ap pairs v = Ok (vs, cs) -> ~ keeps_equal ap v ->
  Forall (var_sat x) vs -> Forall (con_sat x) cs ->
  (forall k, (k < length pairs)%nat -> 0 <= x (korr "Korr1_" (v_label v)) k /\ 0 <= x (korr "Korr0_" (v_label v)) k)
  /\ inject_Z (Z.of_nat (deviations x (v_label v) pairs)) <= corrections x (v_label v) (length pairs)
  /\ corrections x (v_label v) (length pairs) <= inject_Z (py_round (ag_freedom ap / 100 * inject_Z (Z.of_nat (length pairs)))).
Proof.
  intros ap pairs v vs cs x H K SV S. unfold equate_indices in H.
  assert (Z : (v_bin v && negb (Qle_bool (ag_freedom ap) 0))%bool = true).
  { unfold keeps_equal in K. destruct (v_bin v); [|exfalso; auto]. destruct (Qle_bool (ag_freedom ap) 0) eqn:Q; [|reflexivity]. apply Qle_bool_iff in Q. exfalso; auto. }
  rewrite Z in H. bnd H k1 E1. bnd H k0 E0. bnd H c1 C1. bnd H c2 C2. bnd H c3 C3. apply Ok_inj in H. apply pair_equal_spec in H. destruct H as [<- <-].
  inversion SV as [|? ? V1 SV']; subst. apply Forall_inv in SV'. rename SV' into V0.
  inversion S as [|? ? S1 S']; subst. inversion S' as [|? ? S2 S'']; subst. apply Forall_inv in S''. rename S'' into S3.
  assert (L1 : v_label k1 = korr "Korr1_" (v_label v) /\ v_len k1 = length pairs /\ v_bin k1 = true /\ v_fixed k1 = None).
  { apply create_variable_spec in E1. subst k1. repeat split. }
  assert (L0 : v_label k0 = korr "Korr0_" (v_label v) /\ v_len k0 = length pairs /\ v_bin k0 = true /\ v_fixed k0 = None).
  { apply create_variable_spec in E0. subst k0. repeat split. }
  destruct L1 as [N1 [LL1 [B1 X1]]]. destruct L0 as [N0 [LL0 [B0 X0]]].
  assert (BIN1 : forall k, (k < length pairs)%nat -> x (korr "Korr1_" (v_label v)) k == 0 \/ x (korr "Korr1_" (v_label v)) k == 1).
  { intros k Hk. rewrite <- N1. apply var_sat_bin; auto. lia. }
  assert (BIN0 : forall k, (k < length pairs)%nat -> x (korr "Korr0_" (v_label v)) k == 0 \/ x (korr "Korr0_" (v_label v)) k == 1).
  { intros k Hk. rewrite <- N0. apply var_sat_bin; auto. lia. }
  assert (POS : forall k, (k < length pairs)%nat -> 0 <= x (korr "Korr1_" (v_label v)) k /\ 0 <= x (korr "Korr0_" (v_label v)) k).
  { intros k Hk. destruct (BIN1 k Hk), (BIN0 k Hk); lra. }
  split; [exact POS|]. split.
  - unfold deviations, corrections, sumn. apply count_le. cbn [Nat.add]. intros k Hk. destruct (POS k Hk) as [P1 P0]. split; [lra|]. intros D.
    destruct (pair_nth pairs k Hk) as [M1 M2].
    assert (R := row_law x KEq _ _ _ c1 (length pairs) k C1 S1). cbn [app] in R.
    assert (RR : rel KEq (Qsum (map (call_lhs x k) [AddS v (NS 1) (Some (map fst pairs)) false; AddS v (NS (-1)) (Some (map snd pairs)) false; AddS k1 (NS 1) None false; AddS k0 (NS (-1)) None false]))
                         (Qsum (map (call_rhs k) [AddS v (NS 1) (Some (map fst pairs)) false; AddS v (NS (-1)) (Some (map snd pairs)) false; AddS k1 (NS 1) None false; AddS k0 (NS (-1)) None false]))).
    { apply R; [| | |exact Hk].
      - repeat constructor.
      - repeat constructor; unfold live; cbn; rewrite ?map_length, ?LL1, ?LL0; lia.
      - left. cbn. apply map_length. }
    clear R. unfold rel in RR. cbn [map] in RR. rewrite !Qsum_cons in RR. unfold call_lhs, call_rhs in RR. rewrite !at_NS in RR.
    rewrite !pick_list in RR by (rewrite map_length; auto). rewrite !pick_all in RR by lia. rewrite M1, M2, N1, N0 in RR. change (Qsum []) with 0 in RR.
    unfold differs in D. apply negb_true_iff in D. apply Qeq_bool_neq in D.
    destruct (BIN1 k Hk) as [b1|b1], (BIN0 k Hk) as [b0|b0]; rewrite b1, b0 in *; try lra.
  - assert (R := row_law x KIneq _ _ _ c3 1%nat 0%nat C3 S3).
    assert (RR : rel KIneq (Qsum (map (call_lhs x 0%nat) [AddS k1 (NS 1) None true; AddS k0 (NS 1) None true;
                   AddC (NS (inject_Z (py_round (ag_freedom ap / 100 * inject_Z (Z.of_nat (length pairs))))))]))
                 (Qsum (map (call_rhs 0%nat) [AddS k1 (NS 1) None true; AddS k0 (NS 1) None true;
                   AddC (NS (inject_Z (py_round (ag_freedom ap / 100 * inject_Z (Z.of_nat (length pairs))))))]))).
    { apply R; [| | |lia].
      - repeat constructor.
      - repeat constructor; unfold live; cbn; discriminate.
      - left. reflexivity. }
    clear R. unfold rel in RR. cbn [map] in RR. rewrite !Qsum_cons in RR. unfold call_lhs, call_rhs in RR. rewrite at_NS in RR. change (Qsum []) with 0 in RR.
    rewrite LL1, LL0, N1, N0 in RR. unfold corrections. rewrite sumn_plus.
    assert (W : forall l, sumn (length pairs) (fun j => at_ (NS 1) j * x l j) == sumn (length pairs) (fun j => x l j)).
    { intros l. unfold sumn. apply Qsum_map_eq. intros a _. rewrite at_NS. ring. }
    rewrite !W in RR. cbv beta in *. change (fun j : nat => x (korr "Korr1_" (v_label v)) j) with (x (korr "Korr1_" (v_label v))) in RR. change (fun j : nat => x (korr "Korr0_" (v_label v)) j) with (x (korr "Korr0_" (v_label v))) in RR. lra.
Qed.
