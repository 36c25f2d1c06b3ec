(** The way of the data through an aggregated calculation succeeds, and only the data is changed. *)
From Coq Require Import String Permutation.
From Verif Require Import Base BaseFacts ReadTools MathModel Spec Structure Params Features Elements System SysSpec CtxFacts NavFacts BusFacts NameSpec NameFacts ValidSpec TotalEffects TotalSystem
  Aggregation Series Collect DataSpec CollectFacts CollectValid CollectNames.
Local Open Scope Q_scope.

(** ** Changing data twice *)
Section Twice.
Variables g h : string -> param -> param.
Local Notation gh := (fun l p => g l (h l p)).
Lemma effect_named_re : forall es0 es i, effect_named (map (re_effect h es0) es) i = effect_named es i.
Proof. intros es0 es i. unfold effect_named. rewrite find_map by reflexivity. destruct (find _ es); reflexivity. Qed.
Lemma value_name_re : forall es0 es k s, value_name (map (re_effect h es0) es) k s = value_name es k s.
Proof. intros es0 es [i|] s; [|reflexivity]. cbn [value_name]. rewrite effect_named_re. reflexivity. Qed.
Lemma find_map2 : forall {A B} (k : A -> B) (q : B -> bool) l, find q (map k l) = option_map k (find (fun a => q (k a)) l).
Proof. intros A B k q l. induction l as [|a l IH]; cbn [map find]; auto. destruct (q (k a)); auto. Qed.
Lemma flow_named_re : forall es0 c i, flow_named (re_comp h es0 c) i = flow_named c i.
Proof.
  intros es0 c i. unfold flow_named, cp_flows, re_comp. cbn [cp_in cp_out]. rewrite <- map_app, find_map2. cbn [re_flow f_id]. destruct (find _ (cp_in c ++ cp_out c)); reflexivity.
Qed.
Lemma re_opt2 : forall full label o, re_opt g full label (re_opt h full label o) = re_opt gh full label o.
Proof. intros full label [p|]; reflexivity. Qed.
Lemma re_values2 : forall es0 es full what v, re_values g (map (re_effect h es0) es) full what (re_values h es full what v) = re_values gh es full what v.
Proof. intros es0 es full what [|p|l]; cbn [re_values]; [reflexivity|reflexivity|]. rewrite map_map. f_equal. apply map_ext. intros [k p]. cbn [fst snd]. rewrite value_name_re. reflexivity. Qed.
Lemma re_onoff2 : forall es0 es full p, re_onoff g (map (re_effect h es0) es) full (re_onoff h es full p) = re_onoff gh es full p.
Proof. intros es0 es full p. unfold re_onoff. cbn [oo_switch_eff oo_run_eff oo_on_min oo_on_max oo_con_min oo_con_max oo_coff_min oo_coff_max oo_sw_max oo_force]. rewrite !re_values2, !re_opt2. reflexivity. Qed.
Lemma re_flow2 : forall es0 es c c' f, cp_label c' = cp_label c -> re_flow g (map (re_effect h es0) es) c' (re_flow h es c f) = re_flow gh es c f.
Proof.
  intros es0 es c c' f L. unfold re_flow. cbn [f_id f_lab f_bus f_size f_profile f_relmin f_relmax f_effects f_onoff f_fh_max f_fh_min f_lf_min f_lf_max f_prev]. rewrite L, re_values2, re_opt2.
  f_equal; [unfold re_bus; cbn [b_id b_lab b_penalty]; rewrite re_opt2; reflexivity|]. destruct (f_onoff f) as [o|]; [|reflexivity]. cbn [option_map]. rewrite re_onoff2. reflexivity.
Qed.
Lemma re_kind2 : forall es c, re_kind g (re_comp h es c) = re_kind gh c.
Proof.
  intros es c. unfold re_kind at 1. change (cp_kind (re_comp h es c)) with (re_kind h c). change (cp_label (re_comp h es c)) with (cp_label c). unfold re_kind. destruct (cp_kind c) as [|fss|segs|s|rel abs] eqn:K; try reflexivity.
  - f_equal. rewrite map_map. apply map_ext. intros d. rewrite map_map. apply map_ext. intros [i p]. cbn [fst snd]. rewrite flow_named_re. reflexivity.
  - f_equal. rewrite map_map. apply map_ext. intros [i l]. cbn [fst snd]. f_equal. rewrite map_map. apply map_ext. intros [p q]. reflexivity.
  - rewrite !re_opt2. reflexivity.
Qed.
Lemma re_comp2 : forall es0 es c, re_comp g (map (re_effect h es0) es) (re_comp h es c) = re_comp gh es c.
Proof.
  intros es0 es c. unfold re_comp at 1. rewrite re_kind2. unfold re_comp. cbn [cp_label cp_in cp_out cp_onoff cp_prevent]. rewrite !map_map. f_equal.
  - apply map_ext. intros f. apply re_flow2. reflexivity.
  - apply map_ext. intros f. apply re_flow2. reflexivity.
  - destruct (cp_onoff c) as [o|]; [|reflexivity]. cbn [option_map]. rewrite re_onoff2. reflexivity.
Qed.
Lemma re_system2 : forall fs, re_system g (re_system h fs) = re_system gh fs.
Proof.
  intros fs. unfold re_system. cbn [fs_times fs_end fs_prev_dt fs_effects fs_comps]. rewrite !map_map. f_equal.
  - apply map_ext. intros e. pose proof (value_name_re (fs_effects fs) (fs_effects fs)) as X. set (es' := map (re_effect h (fs_effects fs)) (fs_effects fs)) in *. clearbody es'. unfold re_effect.
    cbn [e_id e_label e_std e_obj e_share_op e_share_inv e_min_op e_max_op e_min_inv e_max_inv e_min_ph e_max_ph e_min_tot e_max_tot]. rewrite !re_opt2, map_map. f_equal. apply map_ext. intros [k p]. cbn [fst snd]. rewrite X. reflexivity.
  - apply map_ext. intros c. apply re_comp2.
Qed.
End Twice.

Lemma NoDup_fst_inj : forall {A B} (l : list (A * B)), NoDup (map fst l) -> forall a b b', In (a, b) l -> In (a, b') l -> b = b'.
Proof.
  intros A B l. induction l as [|[x y] l IH]; intros N a b b' H H'; [destruct H|]. inversion N as [|? ? X Y]; subst. destruct H as [E|H], H' as [E'|H']; [congruence| | |eapply IH; eauto]; exfalso; apply X.
  - injection E as -> ->. apply in_map_iff. exists (a, b'). auto.
  - injection E' as -> ->. apply in_map_iff. exists (a, b). auto.
Qed.

(** ** All arrays have the right length *)
Section Total.
Variables (fs : flow_system) (idx : option (list nat)).
Hypothesis W : well_named fs.
Hypothesis V : valid_data fs idx.
Hypothesis OF : own_factors fs.
Lemma given_data : forall l p, given fs l p -> full_data fs p \/ charge_data fs idx p /\ exists c s, In c (fs_comps fs) /\ cp_kind c = StorageC s /\ (p = st_relmin s \/ p = st_relmax s).
Proof.
  assert (EV : forall e what v l p, valid_values fs v -> effect_value fs e what v l p -> full_data fs p).
  { intros e what v l p [_ F] H. destruct H as [p H|f p _ H]; eapply F; eauto. }
  assert (OV : forall e o past l p, valid_onoff fs o past -> onoff_value fs e o l p -> full_data fs p).
  { intros e o past l p [A B [C1 C2] [D1 D2] _] H. destruct H as [l p H|l p H|p H|p H|p H|p H]; [eapply EV; [exact A|eauto]|eapply EV; [exact B|eauto]| | | |]; auto. }
  intros l p H. destruct H as [c l p C H|c f l p C F H|b p U H|e p E H|e p E H|e e2 p E E2 H].
  - destruct (vd_comps _ _ V c C) as [_ VO _ VK]. unfold valid_kind in VK.
    destruct H as [o l p O H|fss d f p K D F H|segs i l p q K S H|segs i l p q K S H|s K|s K|s K|s K|s K|rel abs p K R|rel abs p K R]; try rewrite K in VK.
    + left. eapply OV; [exact (proj2 (proj2 (VO o O)))|exact H].
    + left. eapply (proj2 VK); eauto.
    + left. destruct VK as [_ [ND [k [_ VK]]]]. destruct (proj2 OF c segs i l C K S) as [f [F <-]]. destruct (VK f F) as [s [S' [_ P]]]. rewrite (NoDup_fst_inj segs ND _ _ _ S S') in H. exact (proj1 (P _ _ H)).
    + left. destruct VK as [_ [ND [k [_ VK]]]]. destruct (proj2 OF c segs i l C K S) as [f [F <-]]. destruct (VK f F) as [s [S' [_ P]]]. rewrite (NoDup_fst_inj segs ND _ _ _ S S') in H. exact (proj2 (P _ _ H)).
    + right. destruct VK as [[[A B] _ _ _ _] _]. split; [exact A|]. exists c, s. auto.
    + right. destruct VK as [[[A B] _ _ _ _] _]. split; [exact B|]. exists c, s. auto.
    + left. apply VK. + left. apply VK. + left. apply VK.
    + left. apply (proj1 VK). exact R. + left. apply (proj1 (proj2 VK)). exact R.
  - left. destruct (vc_flows _ _ _ (vd_comps _ _ V c C) f F) as [[A1 [A2 A3]] B _ D _]. destruct H as [| |p H|l p H|o l p O H]; auto. + eapply EV; [exact B|eauto]. + eapply OV; [exact (D o O)|eauto].
  - left. exact (vd_buses _ _ V b U p H).
  - left. exact (proj1 (ve_hourly _ _ (vd_effects _ _ V e E)) p H).
  - left. exact (proj2 (ve_hourly _ _ (vd_effects _ _ V e E)) p H).
  - left. exact (proj2 (proj2 (ve_op _ _ (vd_effects _ _ V e E)) _ _ H)).
Qed.
Lemma given_range : forall l p i old, given fs l p -> pdata p = NV old -> In i (chosen_steps fs idx) -> (i < length old)%nat.
Proof.
  intros l p i old G D H. pose proof (range_chosen fs idx i V H) as R. destruct (given_data l p G) as [F|[[[q F]|[_ [o [F L]]]] _]]; [unfold full_data in F; rewrite D in F; lia|congruence|]. rewrite D in F. injection F as <-. lia.
Qed.
Lemma some_times : (0 < length (fs_times fs))%nat.
Proof.
  pose proof (vd_steps _ _ V) as S. pose proof (vd_chosen _ _ V) as C. unfold steps in S. destruct idx as [[|i r]|]; [cbn in S; lia| |lia]. specialize (C _ i eq_refl (or_introl eq_refl)). lia.
Qed.
Lemma mk_ts_total : forall l p, given fs l p -> exists ts, mk_ts l p = Ok ts.
Proof.
  intros l p G. assert (N : pdata p <> NV []).
  { intros E. pose proof some_times as T. destruct (given_data l p G) as [F|[[[q F]|[_ [o [F L]]]] _]]; [unfold full_data in F; rewrite E in F; cbn in F; lia|congruence|]. rewrite E in F. injection F as <-. cbn in L. lia. }
  unfold mk_ts. assert (M : exists d, make_scalar (pdata p) = Ok d).
  { destruct (pdata p) as [q|[|a r]]; [cbn; eauto|congruence|]. cbn [make_scalar]. destruct (forallb _ r); eauto. }
  destruct M as [d ->]. cbn [bind]. destruct p; eauto.
Qed.
Lemma series_total : forall ord, (forall l, Permutation (ord l) l) -> exists l, system_series ord fs idx = Ok l.
Proof.
  intros ord PO. unfold system_series. assert (G : forall lp, In lp (system_params ord fs) -> exists ts, mk_ts (fst lp) (snd lp) = Ok ts).
  { intros [l p] H. apply mk_ts_total. apply (params_given ord fs idx) in H; auto. }
  induction (system_params ord fs) as [|a r IH]; [cbn; eauto|]. cbn [mapM]. destruct (G a (or_introl eq_refl)) as [ts ->]. cbn [bind]. destruct IH as [l E]; [intros; apply G; right; auto|].
  destruct (mapM _ r) as [x|]; [|discriminate E]. cbn [bind]. eauto.
Qed.
Hypothesis OL : one_label_each fs.
Hypothesis SL : steady_limits fs.
Lemma input_total : forall ord l, (forall l, Permutation (ord l) l) -> system_series ord fs idx = Ok l -> exists cols ws, tsam_input fs idx l = Ok (cols, ws).
Proof.
  intros ord l PO S. unfold system_series in S. bnd S tss M. injection S as <-. unfold tsam_input, collected. cbv zeta.
  rewrite (proj2 (nodup_str_NoDup _) (clean_series _ _ idx (all_clean fs idx W V OF OL ord) M)). cbn [guard bind].
  assert (C : forall ts, In ts (filter is_array (map (set_idx idx) tss)) -> exists c, column (length (chosen_steps fs idx)) ts = Ok c).
  { intros ts H. apply filter_In in H. destruct H as [H A]. apply in_map_iff in H. destruct H as [t0 [<- H]]. destruct (mapM_In_inv _ _ _ _ M H) as [[s p] [Hp E]]. cbn [fst snd] in E. destruct (mk_ts_array _ _ _ idx E) as [X [_ Y]].
    apply X in A. specialize (Y A). unfold column. rewrite Y. apply (params_given ord fs idx) in Hp; auto.
    assert (F : full_data fs p). { destruct (given_data _ _ Hp) as [F|[_ [c [st [C [K [->| ->]]]]]]]; [exact F|exfalso; exact (proj1 (SL c st C K) A)|exfalso; exact (proj2 (SL c st C K) A)]. }
    apply varies_scalar in A. destruct A as [v [D _]]. unfold full_data in F. rewrite D in *. pose proof (vd_chosen _ _ V) as CH. unfold chosen_steps. destruct idx as [ix|]; cbn [active_of].
    - destruct (take_idx_total v ix) as [r T]; [intros i Hi; rewrite F; eapply CH; eauto|]. rewrite T. cbn [bind]. rewrite (proj1 (take_idx_spec _ _ _ T)), Nat.eqb_refl. cbn [guard bind]. eauto.
    - cbn [bind]. rewrite seq_length, F, Nat.eqb_refl. cbn [guard bind]. eauto. }
  unfold frame. induction (filter is_array (map (set_idx idx) tss)) as [|a r IH] in C |- *; [cbn; eauto|]. cbn [mapM]. destruct (C a (or_introl eq_refl)) as [c E]. rewrite E. cbn [bind].
  destruct IH as [cols [ws E2]]; [intros; apply C; right; auto|]. destruct (mapM (column _) r) as [x|]; [|discriminate E2]. cbn [bind]. eauto.
Qed.
End Total.
