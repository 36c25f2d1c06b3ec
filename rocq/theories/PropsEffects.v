(** C19-C22: what every feasible point of the generated program says about effects, penalties and the objective. *)
From Verif Require Import Base BaseFacts MathModel Spec MathFacts Structure StructureFacts Params Features Elements System Library SysSpec
  CtxFacts ReadTools InvestFacts OnOffFacts FlowFacts NavFacts CompFacts SegFacts BusFacts ShareFacts EffectFacts EffectLaws
  Example ExamplePoints PropsFlow PropsComp.

(** ** C19 *)
(** What effect [e] receives from the operation of other effects. *)
Definition op_from_effects (fs : flow_system) (idx : option (list nat)) (x : asg) (e : effect) (t : nat) : Q :=
  Qsum (map (fun e' => Qsum (map (fun kp : nat * param =>
      if Nat.eqb (fst kp) (e_id e) then value idx (snd kp) t * op_at x e' t else 0) (e_share_op e'))) (fs_effects fs)).

Lemma comp_op_costs : forall cf ord fs idx pm cx cos bos em obj x c e t, sys_parts cf ord fs idx pm cx cos bos em obj -> (t < steps fs idx)%nat ->
  comp_op cx x (effective cf fs idx c) c e t == comp_costs fs idx x c e t.
Proof.
  intros cf ord fs idx pm cx cos bos em obj x c e t P Ht. unfold comp_op, comp_costs, flow_op, flow_costs, onoff_costs, rate_of.
  rewrite (sy_eff _ _ _ _ _ _ _ _ _ _ P), (sy_idx _ _ _ _ _ _ _ _ _ _ P), (sy_dt _ _ _ _ _ _ _ _ _ _ P t Ht). reflexivity.
Qed.

Theorem C19_operation : forall cf ord fs idx pm x e, build cf ord fs idx = Ok pm -> feasible pm x -> In e (fs_effects fs) ->
  (forall t, (t < steps fs idx)%nat ->
     op_at x e t == Qsum (map (fun c => comp_costs fs idx x c e t) (fs_comps fs)) + op_from_effects fs idx x e t)
  /\ op_sum x e == sumn (steps fs idx) (fun t => op_at x e t).
Proof.
  intros cf ord fs idx pm x e H F He. destruct (build_parts _ _ _ _ _ H) as [cx [cos [bos [em [obj P]]]]].
  destruct (effects_model_parts _ _ _ _ _ (sy_effects _ _ _ _ _ _ _ _ _ _ P)) as [bo [bi [ms [pen [oe [vo [vi E]]]]]]].
  pose proof (sy_eff _ _ _ _ _ _ _ _ _ _ P) as EF. rewrite <- EF in He. rewrite <- (sy_n _ _ _ _ _ _ _ _ _ _ P). split.
  - intros t Ht. rewrite (op_law _ _ _ _ _ _ _ _ _ _ P _ _ _ _ _ _ _ E x e t F He Ht).
    rewrite (sy_n _ _ _ _ _ _ _ _ _ _ P) in Ht.
    rewrite (Qsum_map_eq _ (fun c => comp_costs fs idx x c e t)) by (intros c _; eapply comp_op_costs; eauto).
    unfold op_from_effects, from_op. rewrite EF, (sy_idx _ _ _ _ _ _ _ _ _ _ P). reflexivity.
  - destruct (effect_tree _ _ _ _ _ _ _ _ _ _ P _ _ _ _ _ _ _ E x e F He) as [m [Em S]].
    apply (effect_model_spec x _ _ _ _ _ (sy_ok _ _ _ _ _ _ _ _ _ _ P) (all_shares _ _ _ _ _ _ _ _ _ _ P _ _ _ _ _ _ _ E) Em S).
Qed.
Print Assumptions C19_operation.
Example C19_applies : op_at x0 costs 1 == Qsum (map (fun c => comp_costs fs0 None x0 c costs 1) (fs_comps fs0)) + op_from_effects fs0 None x0 costs 1.
Proof.
  destruct x0_feasible as [pm [B F]]. assert (He : In costs (fs_effects fs0)) by (cbn [fs0 fs_effects In]; tauto).
  assert (Ht : (1 < steps fs0 None)%nat) by (simpl; lia). exact (proj1 (C19_operation _ _ _ _ _ _ _ B F He) 1%nat Ht).
Qed.
Example C19_values : op_at x0 costs 1 == 422 # 5 /\ Qsum (map (fun c => comp_costs fs0 None x0 c costs 1) (fs_comps fs0)) == 80
  /\ op_from_effects fs0 None x0 costs 1 == 22 # 5.
Proof. repeat split; vm_compute; reflexivity. Qed.

(** ** C20 *)
Definition inv_from_effects (fs : flow_system) (x : asg) (e : effect) : Q :=
  Qsum (map (fun e' => Qsum (map (fun kd : nat * numeric =>
      if Nat.eqb (fst kd) (e_id e) then at_ (snd kd) 0 * inv_sum x e' else 0) (e_share_inv e'))) (fs_effects fs)).
(** Every effect object is registered once, and what an effect passes on to others per investment is a single number. *)
Definition distinct_effects (fs : flow_system) : Prop := NoDup (map e_id (fs_effects fs)).
Definition numeric_links (fs : flow_system) : Prop := forall e i d, In e (fs_effects fs) -> In (i, d) (e_share_inv e) -> exists q, d = NS q.

Lemma comp_invs_investments : forall cf fs idx, flat_map (fun c => comp_invs (effective cf fs idx c) c) (fs_comps fs) = investments cf fs.
Proof. reflexivity. Qed.

Theorem C20_investment : forall cf ord fs idx pm x e, build cf ord fs idx = Ok pm -> feasible pm x -> In e (fs_effects fs) ->
  distinct_effects fs -> numeric_links fs -> (forall name iv, In (name, iv) (investments cf fs) -> invest_numbers iv) ->
  inv_sum x e == Qsum (map (fun ni => invest_costs fs x (fst ni) (snd ni) e) (investments cf fs)) + inv_from_effects fs x e.
Proof.
  intros cf ord fs idx pm x e H F He DE NL IN. destruct (build_parts _ _ _ _ _ H) as [cx [cos [bos [em [obj P]]]]].
  destruct (effects_model_parts _ _ _ _ _ (sy_effects _ _ _ _ _ _ _ _ _ _ P)) as [bo [bi [ms [pen [oe [vo [vi E]]]]]]].
  pose proof (sy_eff _ _ _ _ _ _ _ _ _ _ P) as EF. rewrite <- EF in He.
  rewrite (inv_law _ _ _ _ _ _ _ _ _ _ P _ _ _ _ _ _ _ E x e F He).
  - rewrite comp_invs_investments. unfold invs_costs, inv_from_effects, from_inv. rewrite EF. reflexivity.
  - unfold distinct_ids. rewrite EF. exact DE.
  - rewrite comp_invs_investments. exact IN.
  - rewrite EF. intros e' He' i d Hi. eapply NL; eauto.
Qed.
Print Assumptions C20_investment.
Lemma distinct_effects_0 : distinct_effects fs0 /\ distinct_effects fs1.
Proof. split; unfold distinct_effects; cbv; repeat constructor; simpl; intuition discriminate. Qed.
Lemma numeric_links_0 : numeric_links fs0 /\ numeric_links fs1.
Proof.
  split; intros e i d He Hi; cbn [fs0 fs1 fs_effects In] in He; destruct He as [<-|[<-|[]]]; simpl in Hi; try contradiction;
    destruct Hi as [Hi|[]]; inversion Hi; eauto.
Qed.
Lemma invest_numbers_0 : (forall name iv, In (name, iv) (investments default_config fs0) -> invest_numbers iv)
  /\ (forall name iv, In (name, iv) (investments default_config fs1) -> invest_numbers iv).
Proof.
  split; intros name iv Hi; cbv in Hi; destruct Hi as [Hi|[Hi|[]]]; inversion Hi; subst; unfold invest_numbers, numbers, number; simpl;
    repeat split; intros; repeat match goal with H : _ \/ _ |- _ => destruct H as [H|H] end; try contradiction;
    try match goal with H : (_, _) = (_, _) |- _ => inversion H; subst end; eexists; reflexivity.
Qed.
Example C20_applies : inv_sum x0 costs
  == Qsum (map (fun ni => invest_costs fs0 x0 (fst ni) (snd ni) costs) (investments default_config fs0)) + inv_from_effects fs0 x0 costs.
Proof.
  destruct x0_feasible as [pm [B F]]. assert (He : In costs (fs_effects fs0)) by (cbn [fs0 fs_effects In]; tauto).
  exact (C20_investment _ _ _ _ _ _ _ B F He (proj1 distinct_effects_0) (proj1 numeric_links_0) (proj1 invest_numbers_0)).
Qed.
Example C20_values : inv_sum x0 costs == 152 /\ inv_from_effects fs0 x0 costs == 2
  /\ map (fun ni => (fst ni, Qred (invest_costs fs0 x0 (fst ni) (snd ni) costs))) (investments default_config fs0) = [("Boiler__Q_th", 50); ("Storage", 100)].
Proof. repeat split; vm_compute; reflexivity. Qed.

(** Every investment has its model in the program. *)
Lemma invest_located : forall cf ord fs idx pm x name iv, build cf ord fs idx = Ok pm -> feasible pm x -> In (name, iv) (investments cf fs) ->
  exists cx tr dv relmin relmax pr on io, cx_effects cx = fs_effects fs
    /\ invest_model cx tr name iv dv relmin relmax pr on = Ok io /\ em_sat x (io_tree io).
Proof.
  intros cf ord fs idx pm x name iv H F Hi. destruct (build_parts _ _ _ _ _ H) as [cx [cos [bos [em [obj P]]]]].
  unfold investments in Hi. apply in_flat_map in Hi. destruct Hi as [c [Hc Hi]]. apply in_app_or in Hi. destruct Hi as [Hi|Hi].
  - apply in_flat_map in Hi. destruct Hi as [f [Hf Hi]]. unfold flow_investment in Hi. destruct (sized cf c f) as [q|iv0] eqn:Sz; [destruct Hi|].
    destruct Hi as [Hi|[]]. inversion Hi; subst name iv0. clear Hi.
    destruct (locate_flow _ _ _ _ _ _ _ _ _ _ P c f Hc Hf) as [fo [M [_ [_ S]]]]. specialize (S x F).
    unfold flow_model in M. bnd M rl Erl. bnd M ab Eab. bnd M rate Erate. bnd M oo_ Eoo. bnd M io Eio. bnd M sfh Esfh. bnd M csum Ecsum. bnd M clf Eclf. bnd M s Es. bnd M m Em.
    apply mk_em_spec in Em. destruct Em as [Em _]. fin M. cbn [fo_tree] in S. cbn [effective f_size] in Eio. rewrite Sz in Eio. bnd Eio pr Epr. bnd Eio i Ei. fin Eio.
    exists cx, true, rate, (fst rl), (snd rl), pr, (option_map ot_on oo_), i. split; [apply (sy_eff _ _ _ _ _ _ _ _ _ _ P)|]. split; [exact Ei|].
    eapply em_sat_sub; [exact S|]. apply in_or_app. right. simpl; auto.
  - unfold storage_investment in Hi. destruct (cp_kind c) as [|fcs|segs|s|rel abs] eqn:K; try (destruct Hi; fail).
    destruct (st_cap s) as [q|iv0] eqn:Cap; [destruct Hi|]. destruct Hi as [Hi|[]]. inversion Hi; subst name iv0. clear Hi.
    destruct (own_laws _ _ _ _ _ _ _ H F Hc) as [cx' [tr [fos [on [so [CF [_ [_ [OM [_ [_ [S _]]]]]]]]]]]]. unfold own_model in OM. rewrite K in OM.
    bnd OM ch Ech. bnd OM dis Edis. unfold storage_model in OM. bnd OM rl Erl. bnd OM ru Eru. destruct (cap_limits cx' (st_cap s)) as [lo hi].
    bnd OM lb Elb. bnd OM ub Eub. bnd OM cs Ecs. bnd OM nd End. bnd OM ceq Eceq. bnd OM loss Eloss. bnd OM ec Eec. bnd OM ed Eed.
    bnd OM f1 Ef1. bnd OM f2 Ef2. bnd OM iv0 Einv. bnd OM f3 Ef3. bnd OM bal Ebal. bnd OM io Eio. bnd OM ends Eends. fin OM. cbn [so_subs] in S.
    rewrite Cap in Eio. bnd Eio i Ei. fin Eio. apply Forall_inv in S.
    exists cx', tr, cs, rl, ru, None, None, i. split; [apply (cf_effs _ _ _ _ CF)|]. auto.
Qed.

(** A segmented investment chooses one piece, the same for the size and for every effect, and one position on it; an
    optional one may be declined. *)
Definition piece (l : list (Q * Q)) (k : nat) (w q : Q) : Prop := exists a b, nth_error l k = Some (a, b) /\ q == (1 - w) * a + w * b.
Theorem C20_segmented : forall cf ord fs idx pm x name iv spts eff,
  build cf ord fs idx = Ok pm -> feasible pm x -> distinct_effects fs ->
  In (name, iv) (investments cf fs) -> iv_seg iv = Some (spts, eff) ->
  let size := x (inv name "size") 0%nat in let invested := x (inv name "isInvested") 0%nat in
  (exists k w, 0 <= w /\ w <= 1 /\ piece spts k w size
     /\ (forall i l e, In (i, l) eff -> In e (fs_effects fs) -> e_id e = i -> piece l k w (seg_cost x name e))
     /\ (iv_optional iv = true -> invested == 1))
  \/ (iv_optional iv = true /\ invested == 0 /\ size == 0
      /\ forall i l e, In (i, l) eff -> In e (fs_effects fs) -> e_id e = i -> seg_cost x name e == 0).
Proof.
  intros cf ord fs idx pm x name iv spts eff H F DE Hi SG size invested.
  destruct (invest_located _ _ _ _ _ _ _ _ H F Hi) as [cx [tr [dv [rmin [rmax [pr [on [io [EF [IM S]]]]]]]]]].
  apply invest_model_parts in IM. destruct IM as [sz [b [cs1 [cs2 [subs [H1 [H2 [_ [H4 [H5 _]]]]]]]]]].
  rewrite H5 in S. pose proof (em_sat_vars _ _ _ _ _ _ S) as V. pose proof (em_sat_cons _ _ _ _ _ _ S) as C.
  apply Forall_app in C. destruct C as [C1 _].
  destruct (size_spec _ _ _ _ H1) as [Ls [Ns _]]. pose proof (optional_spec x _ _ _ _ _ _ Ls Ns H2) as O.
  unfold invest_shares in H4. bnd H4 s1 E1. bnd H4 s2 E2. bnd H4 s3 E3. rewrite SG in H4. bnd H4 ms4 E4. destruct ms4 as [m s4].
  apply Ok_inj in H4. inversion H4 as [[X1 X2]]. clear X1. subst subs. clear H4.
  assert (S4 : em_sat x m) by (eapply em_sat_sub; [exact S|simpl; auto]).
  unfold segmented_shares in E4. bnd E4 u Eu. bnd E4 vs Evs. bnd E4 ms Ems. bnd E4 sl Esl. bnd E4 m0 Em0. apply Ok_inj in E4. inversion E4; subst m0 s4. clear E4.
  apply mk_em_spec in Em0. destruct Em0 as [-> _]. assert (SM : em_sat x ms) by (eapply em_sat_sub; [exact S4|simpl; auto]).
  apply mapM_Forall2 in Evs.
  assert (VS : forall t, In t vs -> v_len (snd (fst t)) = 1%nat).
  { intros t Ht. destruct (Forall2_In_r _ _ _ _ Evs Ht) as [el [_ M]]. cbv beta in M. bnd M lab El. bnd M v Ev. fin M. apply create_variable_spec in Ev. subst v. reflexivity. }
  assert (VE : forall i l e, In (i, l) eff -> In e (fs_effects fs) -> e_id e = i -> exists t, In t vs /\ x (v_label (snd (fst t))) 0%nat = seg_cost x name e /\ snd t = map qpair l).
  { intros i l e Hil He Hid. destruct (Forall2_In_l _ _ _ _ Evs Hil) as [t [Ht M]]. cbv beta in M. bnd M lab El. bnd M v Ev. apply Ok_inj in M. exists t. split; auto.
    apply create_variable_spec in Ev. rewrite <- EF in He. rewrite (effect_label_spec cx (fst (i, l)) lab e) in Ev; auto.
    - rewrite <- M, Ev. split; reflexivity.
    - unfold distinct_ids. rewrite EF. exact DE.
    - simpl. rewrite Hid. apply Nat.eqb_refl. }
  assert (OB : if iv_optional iv then exists v, b = Some v /\ v_label v = inv name "isInvested" /\ v_len v = 1%nat /\ (x (v_label v) 0%nat == 0 \/ x (v_label v) 0%nat == 1) else b = None).
  { destruct (iv_optional iv); [|apply O]. destruct O as [v [Eb [Lv [Nv O]]]]. exists v. split; auto. split; auto. split; auto.
    rewrite Lv. subst b. apply Forall_inv_tail, Forall_inv in V. destruct (O V C1) as [D _]. exact D. }
  destruct (multi_segments_spec x name 1 _ b ms 0 ltac:(discriminate) ltac:(lia) Ems SM) as [[k [w [W0 [W1 [ON OO]]]]]|[v [Ev [Z ALL]]]].
  - intros v ps Hv. apply in_app_or in Hv. destruct Hv as [Hv|[Hv|[]]].
    + apply in_map_iff in Hv. destruct Hv as [t [X Ht]]. inversion X; subst. split; [apply VS; auto|].
      intros a c Hac. destruct (Forall2_In_r _ _ _ _ Evs Ht) as [el [_ M]]. cbv beta in M. bnd M lab El. bnd M v Ev. fin M. simpl in Hac.
      apply in_map_iff in Hac. destruct Hac as [q [Y _]]. inversion Y; subst. split; apply good_NS.
    + inversion Hv; subst. split; auto. intros a c Hac. apply in_map_iff in Hac. destruct Hac as [q [Y _]]. inversion Y; subst. split; apply good_NS.
  - intros v Hv. destruct (iv_optional iv); [|congruence]. destruct OB as [v' [Y1 [Y2 [Y3 Y4]]]]. assert (v' = v) by congruence. subst v'. auto.
  - left. exists k, w. split; auto. split; auto. rewrite Forall_forall in ON.
    assert (PC : forall v l, In (v, map qpair l) (map (fun t => (snd (fst t), snd t)) vs ++ [(sz, map qpair spts)]) -> piece l k w (x (v_label v) 0%nat)).
    { intros v l Hv. destruct (ON _ Hv) as [a [c [Nk [_ [_ X]]]]]. simpl in Nk, X. rewrite nth_error_map in Nk.
      destruct (nth_error l k) as [[p q]|] eqn:NE; [|discriminate]. unfold qpair in Nk. simpl in Nk. inversion Nk; subst a c. simpl at_ in X. exists p, q. auto. }
    split. { unfold size. change (inv name "size") with (vlabel (model_full name (Some "Investment")) "size"). rewrite <- Ls. apply PC. apply in_or_app. simpl; auto. }
    split. { intros i l e Hil He Hid. destruct (VE i l e Hil He Hid) as [t [Ht [<- X]]]. apply PC. apply in_or_app. left. apply in_map_iff. exists t. rewrite X. auto. }
    intros Op. rewrite Op in OB. destruct OB as [v [Y1 [Y2 [Y3 Y4]]]]. unfold invested. rewrite <- Y2. auto.
  - right. destruct (iv_optional iv); [|congruence]. destruct OB as [v' [Y1 [Y2 [Y3 Y4]]]]. assert (v' = v) by congruence. subst v'.
    split; auto. split; [unfold invested; rewrite <- Y2; auto|]. split.
    + unfold size. change (inv name "size") with (vlabel (model_full name (Some "Investment")) "size"). rewrite <- Ls. apply (ALL sz (map qpair spts)). apply in_or_app; simpl; auto.
    + intros i l e Hil He Hid. destruct (VE i l e Hil He Hid) as [t [Ht [<- X]]]. apply (ALL (snd (fst t)) (snd t)). apply in_or_app. left. apply in_map_iff. eauto.
Qed.
Print Assumptions C20_segmented.
Example C20_segmented_applies :
  (exists k w, 0 <= w /\ w <= 1 /\ piece [(0, 10); (10, 50)] k w (x1 (inv "Line__in1" "size") 0%nat)
     /\ (forall i l e, In (i, l) [(0%nat, [(0, 20); (20, 60)])] -> In e (fs_effects fs1) -> e_id e = i -> piece l k w (seg_cost x1 "Line__in1" e))
     /\ (iv_optional line_inv = true -> x1 (inv "Line__in1" "isInvested") 0%nat == 1))
  \/ (iv_optional line_inv = true /\ x1 (inv "Line__in1" "isInvested") 0%nat == 0 /\ x1 (inv "Line__in1" "size") 0%nat == 0
      /\ forall i l e, In (i, l) [(0%nat, [(0, 20); (20, 60)])] -> In e (fs_effects fs1) -> e_id e = i -> seg_cost x1 "Line__in1" e == 0).
Proof.
  destruct x1_feasible as [pm [B F]]. assert (Hi : In ("Line__in1", line_inv) (investments default_config fs1)) by (left; reflexivity).
  exact (C20_segmented _ _ _ _ _ _ _ _ _ _ B F (proj2 distinct_effects_0) Hi eq_refl).
Qed.
Example C20_segmented_values : x1 (inv "Line__in1" "size") 0%nat == 6 /\ seg_cost x1 "Line__in1" costs == 12.
Proof. repeat split; vm_compute; reflexivity. Qed.

(** ** C21 *)
(** The price of the excess at a bus over the whole calculation. *)
Definition bus_price (fs : flow_system) (idx : option (list nat)) (x : asg) (b : bus) : Q :=
  match b_penalty b with
  | None => 0
  | Some p => sumn (steps fs idx) (fun t => value idx p t * hours fs idx t * (excess x b "excess_input" t + excess x b "excess_output" t))
  end.

Lemma dict_set_nodup : forall {A} k (v : A) d, NoDup (map fst d) -> NoDup (map fst (dict_set k v d)).
Proof.
  intros A k v. induction d as [|[k0 v0] d IH]; simpl; intros H; [repeat constructor; auto|]. inversion H as [|? ? N1 N2]; subst.
  destruct (String.eqb k k0) eqn:E; simpl; [constructor; auto|]. constructor; auto.
  intros X. apply in_map_iff in X. destruct X as [[k1 v1] [X1 X2]]. simpl in X1. subst k1. apply dict_set_In in X2. destruct X2 as [[-> _]|X2].
  - rewrite String.eqb_refl in E. discriminate.
  - apply N1. apply in_map_iff. exists (k0, v1). auto.
Qed.
Lemma buses_nodup : forall ord fs, NoDup (buses ord fs).
Proof.
  intros ord fs. unfold buses.
  set (step := fun (d : list (string * bus)) i => match bus_of_flow fs i with Some b => dict_set (b_lab b) b d | None => d end).
  assert (G : forall l d, NoDup (map fst d) -> (forall k b, In (k, b) d -> k = b_lab b) ->
     NoDup (map fst (fold_left step l d)) /\ (forall k b, In (k, b) (fold_left step l d) -> k = b_lab b)).
  { induction l as [|i l IH]; intros d N K; simpl; auto. apply IH.
    - unfold step. destruct (bus_of_flow fs i); auto. apply dict_set_nodup; auto.
    - intros k b Hb. unfold step in Hb. destruct (bus_of_flow fs i) as [b0|]; auto. apply dict_set_In in Hb. destruct Hb as [[-> ->]|Hb]; auto. }
  destruct (G (ord (nodup Nat.eq_dec (map (fun cf => f_id (snd cf)) (all_flows fs)))) [] ltac:(constructor) ltac:(simpl; tauto)) as [G1 G2].
  fold step. revert G1 G2. generalize (fold_left step (ord (nodup Nat.eq_dec (map (fun cf => f_id (snd cf)) (all_flows fs)))) []).
  clear. induction l as [|[k b] l IH]; intros N K; simpl in *; constructor.
  - inversion N as [|? ? N1 N2]; subst. intros X. apply N1. apply in_map_iff in X. destruct X as [[k' b'] [X1 X2]]. simpl in X1. subst b'.
    rewrite (K k b) by auto. apply in_map_iff. exists (k', b). split; auto.
  - inversion N; subst. apply IH; auto.
Qed.

Theorem C21_objective : forall cf ord fs idx pm x, build cf ord fs idx = Ok pm ->
  exists e, find e_obj (fs_effects fs) = Some e /\ objective_value pm x == op_sum x e + inv_sum x e + penalty_sum x.
Proof.
  intros cf ord fs idx pm x H. destruct (build_parts _ _ _ _ _ H) as [cx [cos [bos [em [obj P]]]]].
  destruct (effects_model_parts _ _ _ _ _ (sy_effects _ _ _ _ _ _ _ _ _ _ P)) as [bo [bi [ms [pen [oe [vo [vi E]]]]]]].
  exists oe. split; [|exact (objective_law _ _ _ _ _ _ _ _ _ _ P _ _ _ _ _ _ _ E x)].
  rewrite <- (sy_eff _ _ _ _ _ _ _ _ _ _ P). exact (ep_oe _ _ _ _ _ _ _ _ _ _ _ _ E).
Qed.
Print Assumptions C21_objective.
Example C21_objective_applies : exists pm, build default_config id_ord fs1 idx1 = Ok pm
  /\ objective_value pm x1 == op_sum x1 costs + inv_sum x1 costs + penalty_sum x1.
Proof.
  destruct x1_feasible as [pm [B F]]. exists pm. split; [exact B|]. destruct (C21_objective _ _ _ _ _ x1 B) as [e [E O]].
  cbv in E. inversion E; subst e. exact O.
Qed.
Example C21_values : op_sum x1 costs == 1321 # 9 /\ inv_sum x1 costs == 22 /\ penalty_sum x1 == 92300 # 9.
Proof. repeat split; vm_compute; reflexivity. Qed.

(** [bl]: the buses of the system, each once. *)
Theorem C21_penalty : forall cf ord fs idx pm x bl, build cf ord fs idx = Ok pm -> feasible pm x ->
  (forall l, Permutation (ord l) l) -> distinct_buses fs -> NoDup bl -> (forall b, In b bl <-> used_bus fs b) ->
  penalty_sum x == Qsum (map (bus_price fs idx x) bl).
Proof.
  intros cf ord fs idx pm x bl H F PO DB ND BL. destruct (build_parts _ _ _ _ _ H) as [cx [cos [bos [em [obj P]]]]].
  destruct (effects_model_parts _ _ _ _ _ (sy_effects _ _ _ _ _ _ _ _ _ _ P)) as [bo [bi [ms [pen [oe [vo [vi E]]]]]]].
  rewrite (penalty_law _ _ _ _ _ _ _ _ _ _ P _ _ _ _ _ _ _ E x F).
  assert (PB : Permutation (buses ord fs) bl).
  { apply NoDup_Permutation; [apply buses_nodup|exact ND|]. intros b. rewrite BL. split; [apply buses_used|].
    intros U. apply buses_complete; auto. apply (sy_ids _ _ _ _ _ _ _ _ _ _ P). }
  rewrite (Qsum_perm _ _ (Permutation_map (bus_penalty cx x) PB)). apply Qsum_map_eq. intros b Hb. unfold bus_penalty, bus_price, excess.
  rewrite (sy_n _ _ _ _ _ _ _ _ _ _ P), (sy_idx _ _ _ _ _ _ _ _ _ _ P). destruct (b_penalty b) as [p|]; [|reflexivity].
  apply sumn_ext. intros t Ht. rewrite (sy_dt _ _ _ _ _ _ _ _ _ _ P t Ht). reflexivity.
Qed.
Print Assumptions C21_penalty.
Example C21_penalty_applies : penalty_sum x1 == Qsum (map (bus_price fs1 idx1 x1) [gas; heat; el; el2]).
Proof.
  destruct x1_feasible as [pm [B F]]. assert (DB : distinct_buses fs1) by buses.
  apply (C21_penalty _ _ _ _ _ _ _ B F id_ord_perm DB); [repeat constructor; simpl; intuition discriminate|].
  intros b. rewrite used_bus_list. cbv [bus_list fs1 fs_comps flat_map gas_src chp line p2h heat_sink el_sink cp_flows cp_in cp_out map app
    set_eff set_size_ set_size set_rel set_profile set_prev set_limits flow0 f_bus In]. intuition.
Qed.

(** ** C22 *)
Definition at_least (o : option Q) (q : Q) : Prop := forall l, o = Some l -> l <= q.
Definition at_most (o : option Q) (q : Q) : Prop := forall l, o = Some l -> q <= l.
Theorem C22_limits : forall cf ord fs idx pm x e, build cf ord fs idx = Ok pm -> feasible pm x -> In e (fs_effects fs) ->
  at_least (e_min_op e) (op_sum x e) /\ at_most (e_max_op e) (op_sum x e)
  /\ at_least (e_min_inv e) (inv_sum x e) /\ at_most (e_max_inv e) (inv_sum x e)
  /\ all_sum x e == op_sum x e + inv_sum x e
  /\ at_least (e_min_tot e) (op_sum x e + inv_sum x e) /\ at_most (e_max_tot e) (op_sum x e + inv_sum x e)
  /\ forall t, (t < steps fs idx)%nat ->
       at_least (option_map (fun p => value idx p t * hours fs idx t) (e_min_ph e)) (op_at x e t)
       /\ at_most (option_map (fun p => value idx p t * hours fs idx t) (e_max_ph e)) (op_at x e t).
Proof.
  intros cf ord fs idx pm x e H F He. destruct (build_parts _ _ _ _ _ H) as [cx [cos [bos [em [obj P]]]]].
  destruct (effects_model_parts _ _ _ _ _ (sy_effects _ _ _ _ _ _ _ _ _ _ P)) as [bo [bi [ms [pen [oe [vo [vi E]]]]]]].
  pose proof (sy_eff _ _ _ _ _ _ _ _ _ _ P) as EF. rewrite <- EF in He.
  destruct (effect_tree _ _ _ _ _ _ _ _ _ _ P _ _ _ _ _ _ _ E x e F He) as [m [Em S]].
  destruct (effect_model_spec x _ _ _ _ _ (sy_ok _ _ _ _ _ _ _ _ _ _ P) (all_shares _ _ _ _ _ _ _ _ _ _ P _ _ _ _ _ _ _ E) Em S)
    as [_ [_ [_ [_ [A [M1 [M2 [M3 [M4 [M5 [M6 [M7 M8]]]]]]]]]]]].
  unfold at_least, at_most. do 4 (split; [assumption|]). split; [exact A|].
  split; [intros l Hl; rewrite <- A; auto|]. split; [intros l Hl; rewrite <- A; auto|].
  intros t Ht. rewrite <- (sy_n _ _ _ _ _ _ _ _ _ _ P) in Ht. rewrite (sy_idx _ _ _ _ _ _ _ _ _ _ P) in *.
  assert (D : dt cx t = hours fs idx t) by (apply (sy_dt _ _ _ _ _ _ _ _ _ _ P); rewrite <- (sy_n _ _ _ _ _ _ _ _ _ _ P); auto).
  rewrite <- D. split; intros l Hl.
  - destruct (e_min_ph e) as [p|]; [|discriminate]. simpl in Hl. inversion Hl; subst l. apply M7; auto.
  - destruct (e_max_ph e) as [p|]; [|discriminate]. simpl in Hl. inversion Hl; subst l. apply M8; auto.
Qed.
Print Assumptions C22_limits.
Example C22_applies : op_at x0 costs 1 <= 1000 /\ op_sum x0 costs + inv_sum x0 costs <= 5000.
Proof.
  destruct x0_feasible as [pm [B F]]. assert (He : In costs (fs_effects fs0)) by (cbn [fs0 fs_effects In]; tauto).
  assert (Ht : (1 < steps fs0 None)%nat) by (simpl; lia).
  destruct (C22_limits _ _ _ _ _ _ _ B F He) as [_ [_ [_ [_ [_ [_ [T P]]]]]]]. split; [|exact (T _ eq_refl)].
  eapply Qle_trans; [apply (proj2 (P 1%nat Ht) _ eq_refl)|vm_compute; discriminate].
Qed.
