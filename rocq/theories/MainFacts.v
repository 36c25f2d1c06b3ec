(** Facts about the main results: which investment models there are and what they are called. *)
From Verif Require Import Base BaseFacts MathModel MathFacts Spec Structure StructureFacts Params Features Elements System SysSpec CtxFacts ReadTools NavFacts Tree PropsTree
     Values Results ResultFacts Segmented PropsRepeat SegmentedFacts Skeleton MainResults.

(** ** Investment models in a tree *)
Definition invests (m : emodel) : list (string * emodel) := flat_map invest_children (flat m).
Lemma invests_eq : forall f l v c s, invests (EM f l v c s) = invest_children (EM f l v c s) ++ flat_map invests s.
Proof.
  intros f l v c s. unfold invests at 1. cbn [flat em_subs flat_map]. f_equal. unfold invests. induction s as [|a s IH]; [reflexivity|].
  cbn [flat_map]. rewrite flat_map_app, IH. reflexivity.
Qed.
Lemma investments_perm : forall b, Permutation (investments b) (flat_map invests (bs_roots b)).
Proof.
  intros b. unfold investments. induction (bs_roots b) as [|r l IH]; [constructor|].
  change (flat_map invests (r :: l)) with (invests r ++ flat_map invests l).
  change (flat_map (fun r => flat_map invest_children (r :: all_sub_models r)) (r :: l))
    with (flat_map invest_children (r :: all_sub_models r) ++ flat_map (fun r => flat_map invest_children (r :: all_sub_models r)) l). apply Permutation_app; [|exact IH].
  unfold invests. apply Permutation_flat_map. destruct r as [f lb v c s]. cbn [flat]. apply perm_skip, all_sub_models_perm.
Qed.

Definition sk_invest (s : sk) : bool := let 'SK l vs _ := s in (String.eqb l "Investment" && match vs with v :: _ => String.eqb v "size" | [] => false end)%bool.
Fixpoint inv_free (s : sk) : bool := let 'SK _ _ subs := s in forallb (fun s => negb (sk_invest s) && inv_free s)%bool subs.
Lemma sk_invest_ok : forall m, sk_invest (skel m) = is_invest m.
Proof. intros [f l v c s]. unfold is_invest. cbn. destruct v; reflexivity. Qed.
Lemma inv_free_none : forall m, inv_free (skel m) = true -> invests m = [].
Proof.
  intros m. induction m as [f l v c s IH] using em_ind2. intros H. rewrite invests_eq. cbn [skel inv_free] in H. rewrite forallb_forall in H.
  assert (A : forall a, In a s -> is_invest a = false /\ invests a = []).
  { intros a Ha. specialize (H (skel a) (in_map _ _ _ Ha)). apply andb_prop in H. destruct H as [H1 H2]. split; [|apply IH; auto].
    rewrite sk_invest_ok in H1. destruct (is_invest a); [discriminate|reflexivity]. }
  clear -A. unfold invest_children. cbn [em_subs em_full]. assert (B : filter is_invest s = []).
  { induction s as [|a s IH]; [reflexivity|]. cbn [filter]. rewrite (proj1 (A a (or_introl eq_refl))). apply IH. intros x Hx. apply A. right. exact Hx. }
  rewrite B. cbn [map app]. clear B. induction s as [|a s IH]; [reflexivity|]. cbn [flat_map]. rewrite (proj2 (A a (or_introl eq_refl))). apply IH. intros x Hx. apply A. right. exact Hx.
Qed.
Lemma children_app : forall f l v c a b, invest_children (EM f l v c (a ++ b)) = invest_children (EM f l v c a) ++ invest_children (EM f l v c b).
Proof. intros. unfold invest_children. cbn [em_subs em_full]. rewrite filter_app, map_app. reflexivity. Qed.
Lemma children_none : forall f l v c s, forallb (fun m => negb (is_invest m)) s = true -> invest_children (EM f l v c s) = [].
Proof.
  intros f l v c s H. unfold invest_children. cbn [em_subs em_full]. induction s as [|a s IH]; [reflexivity|]. cbn [forallb filter] in *. apply andb_prop in H. destruct H as [H1 H2].
  destruct (is_invest a); [discriminate|]. apply IH, H2.
Qed.

Lemma multi_free : forall n, inv_free (multi_sk n) = true.
Proof.
  intros n. unfold multi_sk. cbn [inv_free]. apply forallb_forall. intros s Hs. apply in_map_iff in Hs. destruct Hs as [i [<- _]]. cbn.
  rewrite ?Bool.andb_false_r. reflexivity.
Qed.
Lemma invest_free : forall es iv, inv_free (invest_sk es iv) = true.
Proof.
  intros es iv. unfold invest_sk. cbn [inv_free]. destruct (iv_seg iv) as [[a eff]|]; [|reflexivity]. unfold segshares_sk. cbn [forallb sk_invest inv_free].
  change (String.eqb "SegmentedShares" "Investment") with false. change (sk_invest (multi_sk _)) with false. rewrite multi_free. reflexivity.
Qed.
Lemma single_not_invest : forall elem name, sk_invest (single_sk elem name) = false.
Proof.
  intros elem name. unfold single_sk. cbn [sk_invest]. destruct (String.eqb_spec name "Investment") as [->|]; [|reflexivity]. reflexivity.
Qed.
Lemma alloc_free : forall elem label ts names, inv_free (alloc_sk elem label ts names) = true.
Proof.
  intros elem label ts names. unfold alloc_sk. cbn [inv_free]. apply forallb_forall. intros s Hs. apply in_map_iff in Hs. destruct Hs as [n [<- _]].
  rewrite single_not_invest. reflexivity.
Qed.
Lemma effects_free : forall es ks, inv_free (effects_sk es ks) = true.
Proof.
  intros es ks. unfold effects_sk. cbn [inv_free]. apply forallb_forall. intros s Hs. apply in_app_or in Hs. destruct Hs as [Hs|[<-|[]]].
  - apply in_map_iff in Hs. destruct Hs as [e [<- _]]. unfold effect_sk. cbn [sk_invest]. rewrite Bool.andb_false_r. cbn [negb andb inv_free forallb].
    rewrite !alloc_free. reflexivity.
  - rewrite alloc_free. reflexivity.
Qed.

(** ** Which investments a system has *)
Definition flow_invests (comp : string) (f : flow) : list string := match f_size f with SzInv _ => [flow_full comp (f_lab f)] | SzNum _ => [] end.
Definition own_invests (c : component) : list string :=
  match cp_kind c with StorageC s => match st_cap s with CapInv _ => [cp_label c] | CapNum _ => [] end | _ => [] end.
Definition comp_invests (c : component) : list string := flat_map (flow_invests (cp_label c)) (cp_flows c) ++ own_invests c.

(** The investment of the element [n]. *)
Definition sizes (n : string) (p : string * emodel) : Prop :=
  fst p = n /\ exists v rest, em_vars (snd p) = v :: rest /\ v_label v = inv n "size" /\ v_len v = 1%nat /\ v_bin v = false.

Lemma invest_sizes : forall cx tr elem iv dv rl ru pr on o, invest_model cx tr elem iv dv rl ru pr on = Ok o ->
  sizes elem (elem, io_tree o) /\ is_invest (io_tree o) = true /\ invests (io_tree o) = [].
Proof.
  intros cx tr elem iv dv rl ru pr on o H. destruct (invest_outline _ _ _ _ _ _ _ _ _ _ H) as [S _].
  assert (I : is_invest (io_tree o) = true) by (rewrite <- sk_invest_ok, S; reflexivity).
  assert (F : invests (io_tree o) = []) by (apply inv_free_none; rewrite S; apply invest_free).
  split; [|auto]. unfold invest_model in H. cbv zeta in H. bnd H size Esz. bnd H w Ew. destruct w as [inv_ cs1]. bnd H cs2 Ecs.
  bnd H w2 Ew2. destruct w2 as [shs subs]. bnd H m Em. fin H. cbn [io_tree]. apply mk_em_spec in Em. destruct Em as [-> _].
  split; [reflexivity|]. cbn [snd em_vars]. do 2 eexists. split; [reflexivity|]. unfold invest_size in Esz.
  destruct (_ && _)%bool; apply create_variable_spec in Esz; rewrite Esz; cbn [v_label v_len v_bin]; auto.
Qed.

Lemma flow_found : forall cx tr comp f o, flow_model cx tr comp f = Ok o ->
  Forall2 sizes (flow_invests comp f) (invests (fo_tree o)) /\ is_invest (fo_tree o) = false.
Proof.
  intros cx tr comp f o H. assert (NI : is_invest (fo_tree o) = false).
  { rewrite <- sk_invest_ok, (proj1 (flow_outline _ _ _ _ _ H)). unfold flow_sk. cbn. apply Bool.andb_false_r. }
  split; [|exact NI]. clear NI.
  unfold flow_model in H. cbv zeta in H. bnd H rl_ Erel. bnd H ab Eab. bnd H rt_ Er. bnd H oo_ Eoo. bnd H io Eio. bnd H sfh Es. bnd H c1 Ec1.
  bnd H clf Ecl. bnd H s Esh. bnd H m Em. fin H. cbn [fo_tree]. apply mk_em_spec in Em. destruct Em as [-> _].
  rewrite invests_eq, children_app, flat_map_app.
  assert (O1 : forallb (fun m => negb (is_invest m)) (match oo_ with Some o => [ot_tree o] | None => [] end) = true
     /\ flat_map invests (match oo_ with Some o => [ot_tree o] | None => [] end) = []).
  { destruct (f_onoff f) as [p|]; cbn [optM] in Eoo; [bnd Eoo o Eo; fin Eoo|fin Eoo; auto]. destruct (onoff_outline _ _ _ _ _ _ _ Eo) as [G1 _].
    cbn [forallb flat_map]. rewrite <- sk_invest_ok, G1, inv_free_none by (rewrite G1; reflexivity). auto. }
  destruct O1 as [O1 O2]. rewrite (children_none _ _ _ _ _ O1), O2. cbn [app]. unfold flow_invests.
  destruct (f_size f) as [q|iv]; [fin Eio; constructor|]. bnd Eio pr Epr. bnd Eio i Ei. fin Eio.
  destruct (invest_sizes _ _ _ _ _ _ _ _ _ _ Ei) as [A [B C]]. unfold invest_children. cbn [em_subs em_full filter flat_map]. rewrite B, C. cbn [map app].
  repeat constructor; try apply A.
Qed.

Lemma flows_found : forall cx comp fl fos (tr : flow -> bool), Forall2 (fun f o => flow_model cx (tr f) comp f = Ok o) fl fos ->
  Forall2 sizes (flat_map (flow_invests comp) fl) (flat_map invests (map fo_tree fos)) /\ forallb (fun m => negb (is_invest m)) (map fo_tree fos) = true.
Proof.
  intros cx comp fl fos tr H. induction H as [|f o l l' H _ [I1 I2]]; [split; [constructor|reflexivity]|]. destruct (flow_found _ _ _ _ _ H) as [A B].
  cbn [flat_map map forallb]. rewrite B, I2. split; [|reflexivity]. apply Forall2_app; auto.
Qed.

Lemma comp_found : forall cx trf trc c0 o, comp_model cx trf trc c0 = Ok o ->
  exists c, prepared cx (trc (cp_label c0)) c0 = Ok c /\ exists l, Permutation l (invests (co_tree o)) /\ Forall2 sizes (comp_invests c) l.
Proof.
  intros cx trf trc c0 o H. unfold comp_model in H. cbv zeta in H. bnd H c Ec. bnd H b Eb. bnd H so Eso. bnd H m Em. fin H. cbn [co_tree].
  exists c. split; [exact Ec|]. apply mk_em_spec in Em. destruct Em as [-> _].
  unfold base_model in Eb. bnd Eb fos Ef. bnd Eb oo_ Eoo. bnd Eb pm Epm. fin Eb. cbn [bo_flows bo_on bo_subs bo_shares] in *.
  apply mapM_Forall2 in Ef. destruct (flows_found cx _ _ _ (fun a => trf (flow_full (cp_label c) (f_lab a))) Ef) as [F1 F2].
  assert (O : forallb (fun m => negb (is_invest m)) (match oo_ with Some o => [ot_tree o] | None => [] end) = true
     /\ flat_map invests (match oo_ with Some o => [ot_tree o] | None => [] end) = []).
  { destruct (cp_onoff c) as [p|]; cbn [optM] in Eoo; [bnd Eoo o Eo; fin Eoo|fin Eoo; auto]. destruct (onoff_outline _ _ _ _ _ _ _ Eo) as [G1 _].
    cbn [forallb flat_map]. rewrite <- sk_invest_ok, G1, inv_free_none by (rewrite G1; reflexivity). auto. }
  assert (P : forallb (fun m => negb (is_invest m)) pm = true /\ flat_map invests pm = []).
  { destruct (cp_prevent c) as [|i r]; [fin Epm; auto|]. bnd Epm ons Eons. bnd Epm mm Emm. fin Epm. unfold prevent_model in Emm. cbv zeta in Emm.
    bnd Emm u1 Eu1. bnd Emm u2 Eu2. bnd Emm k Ek. apply mk_em_spec in Emm. destruct Emm as [-> _]. split; reflexivity. }
  destruct O as [O1 O2], P as [P1 P2].
  rewrite invests_eq, !flat_map_app, O2, P2, !app_nil_r.
  rewrite !children_app, (children_none _ _ _ _ _ F2), (children_none _ _ _ _ _ O1), (children_none _ _ _ _ _ P1). cbn [app].
  set (E := EM _ _ _ _ _).
  exists (flat_map invests (map fo_tree fos) ++ (invest_children E ++ flat_map invests (so_subs so))).
  split.
  { rewrite !app_assoc. apply Permutation_app_tail, Permutation_app_comm. }
  unfold comp_invests. apply Forall2_app; [exact F1|]. subst E. unfold own_invests. destruct (cp_kind c) as [| | |s|].
  - fin Eso. constructor.
  - bnd Eso k Ek. fin Eso. constructor.
  - bnd Eso k Ek. fin Eso. unfold segmented_model in Ek. bnd Ek pts Ep. pose proof (multi_outline _ _ _ _ _ Ek) as G. cbn [so_subs].
    unfold invest_children. cbn [em_subs em_full filter flat_map]. rewrite <- sk_invest_ok, G, inv_free_none by (rewrite G; apply multi_free). constructor.
  - bnd Eso ch Ech. bnd Eso dis Ed. unfold storage_model in Eso. cbv zeta in Eso. bnd Eso rl E1. bnd Eso ru E2. destruct (cap_limits cx (st_cap s)) as [lo hi].
    bnd Eso lb E3. bnd Eso ub E4. bnd Eso cs Ecs. bnd Eso nd End. bnd Eso ceq E5. bnd Eso loss_ E6. bnd Eso ec E7. bnd Eso ed E8. bnd Eso f1 E9. bnd Eso f2 E10. bnd Eso inv_ E11.
    bnd Eso f3 E12. bnd Eso bal E13. bnd Eso io Eio. bnd Eso ends E14. fin Eso. cbn [so_subs].
    destruct (st_cap s) as [q|iv]; [fin Eio; constructor|]. bnd Eio i Ei. fin Eio. destruct (invest_sizes _ _ _ _ _ _ _ _ _ _ Ei) as [A [B C]].
    unfold invest_children. cbn [em_subs em_full filter flat_map]. rewrite B, C. cbn [map app]. repeat constructor; apply A.
  - bnd Eso k Ek. fin Eso. constructor.
Qed.

(** All investment models of a system, with what they are called. *)
Lemma system_found : forall cf ord fs idx b, build_system cf ord fs idx = Ok b ->
  exists l, Permutation l (investments b) /\ Forall2 sizes (flat_map comp_invests (fs_comps (after_modeling cf ord fs idx))) l.
Proof.
  intros cf ord fs idx b H. pose proof H as H0. destruct (build_outline _ _ _ _ _ H) as [cx [cs [CX [P [_ [SB SE]]]]]].
  rewrite (after_prepared _ _ _ _ _ _ _ H CX P).
  unfold build_system in H. rewrite CX in H. cbn [bind] in H. bnd H u Eu. bnd H cos Ecos. cbv zeta in H. bnd H bos Ebos. bnd H w Ew. destruct w as [em obj]. fin H.
  cbn [bs_buses bs_effects] in SB, SE.
  assert (B1 : flat_map invests (map fst bos) = []).
  { clear -SB. revert SB. generalize (map fst bos). intros l. generalize (buses ord fs). intros bl. revert bl. induction l as [|m l IH]; intros [|b bl] H; cbn [map] in H; try discriminate; [reflexivity|].
    injection H as H1 H2. cbn [flat_map]. rewrite (IH _ H2), inv_free_none by (rewrite H1; reflexivity). reflexivity. }
  assert (E1 : invests em = []) by (apply inv_free_none; rewrite SE; apply effects_free).
  assert (C1 : exists l, Permutation l (flat_map invests (map co_tree cos)) /\ Forall2 sizes (flat_map comp_invests cs) l).
  { apply mapM_Forall2 in Ecos. clear -Ecos P. revert cs P. induction Ecos as [|c o cl ol H _ IH]; intros cs P; inversion P as [|? c' ? cs' P1 P2]; subst.
    - exists []. split; constructor.
    - destruct (IH _ P2) as [l [L1 L2]]. destruct (comp_found _ _ _ _ _ H) as [c2 [Q [l2 [M1 M2]]]].
      rewrite P1 in Q. apply Ok_inj in Q. subst c2. exists (l2 ++ l). cbn [map flat_map]. split; [apply Permutation_app; auto|apply Forall2_app; auto]. }
  destruct C1 as [l [L1 L2]]. exists l. split; [|exact L2]. eapply perm_trans; [exact L1|]. apply Permutation_sym.
  eapply perm_trans; [apply investments_perm|]. unfold bs_roots. cbn [bs_effects bs_comps bs_buses flat_map]. rewrite E1, flat_map_app, B1, app_nil_r. apply Permutation_refl.
Qed.

Lemma flat_map_ext_in_ : forall {A B} (f g : A -> list B) l, (forall a, In a l -> f a = g a) -> flat_map f l = flat_map g l.
Proof. intros A B f g l H. induction l as [|a l IH]; [reflexivity|]. cbn [flat_map]. rewrite H by (left; reflexivity). rewrite IH; [reflexivity|]. intros b Hb. apply H. right. exact Hb. Qed.

(** ** The same, in terms of the system before modelling *)
Definition comp_names (cf : config) (c : component) : list string :=
  flat_map (fun f => match sized cf c f with SzInv _ => [flow_name c f] | SzNum _ => [] end) (cp_flows c) ++ own_invests c.
Definition invest_names (cf : config) (fs : flow_system) : list string := flat_map (comp_names cf) (fs_comps fs).

Lemma prepared_invests : forall cf cx tr c0 c, cx_big cx = cf_big cf -> NoDup (map f_id (cp_flows c0)) -> prepared cx tr c0 = Ok c ->
  comp_invests c = comp_names cf c0 /\ comp_names cf c = comp_names cf c0.
Proof.
  intros cf cx tr c0 c B ND H. destruct (prepared_spec cf _ _ _ _ B ND H) as [nz [-> _]].
  assert (O : own_invests (map_comp (eff_ nz cf c0) c0) = own_invests c0) by reflexivity.
  assert (FL : cp_flows (map_comp (eff_ nz cf c0) c0) = map (eff_ nz cf c0) (cp_flows c0)) by (unfold cp_flows, map_comp; cbn; rewrite map_app; reflexivity).
  unfold comp_invests, comp_names. rewrite O, FL. split; f_equal.
  - rewrite flat_map_map_. apply flat_map_ext. intros f. unfold flow_invests, eff_. cbn. reflexivity.
  - rewrite flat_map_map_. apply flat_map_ext_in_. intros f Hf.
    replace (sized cf (map_comp (eff_ nz cf c0) c0) (eff_ nz cf c0 f)) with (sized cf c0 f); [reflexivity|].
    unfold sized at 2. unfold map_comp. cbn [set_flows cp_kind cp_in].
    destruct (cp_kind c0) as [| | | |r a] eqn:K; try reflexivity.
    destruct (cp_in c0) as [|in1 [|in2 rest]] eqn:I; try reflexivity. cbn [map].
    change (f_id (eff_ nz cf c0 f)) with (f_id f). change (f_id (eff_ nz cf c0 in2)) with (f_id in2).
    change (f_size (eff_ nz cf c0 in1)) with (sized cf c0 in1). change (f_size (eff_ nz cf c0 in2)) with (sized cf c0 in2). change (f_size (eff_ nz cf c0 f)) with (sized cf c0 f).
    destruct (Nat.eqb_spec (f_id f) (f_id in2)) as [E|]; [|reflexivity].
    assert (N12 : Nat.eqb (f_id in1) (f_id in2) = false).
    { unfold cp_flows in ND. rewrite I in ND. cbn in ND. inversion ND as [|? ? N1 _]; subst. apply Nat.eqb_neq. intros X. apply N1. left. auto. }
    destruct (sized cf c0 in1) as [q|iv] eqn:S1; [reflexivity|]. destruct (sized cf c0 in2) as [q|iv2] eqn:S2; [|reflexivity].
    exfalso. unfold sized in S1, S2. rewrite K, I in S1, S2. rewrite N12 in S1. rewrite Nat.eqb_refl, S1 in S2. destruct (f_size in2); discriminate.
Qed.

Definition flow_ids (fs : flow_system) : list nat := map (fun cf : component * flow => f_id (snd cf)) (all_flows fs).
Lemma comp_ids : forall fs c, NoDup (flow_ids fs) -> In c (fs_comps fs) -> NoDup (map f_id (cp_flows c)).
Proof.
  intros fs c ND Hc. pose proof (NoDup_flat_map_part _ _ _ c ND Hc) as Y. cbv beta in Y. rewrite map_map in Y. exact Y.
Qed.
Lemma ctx_big : forall cf ord fs idx cx, make_ctx cf ord fs idx = Ok cx -> cx_big cx = cf_big cf.
Proof. intros cf ord fs idx cx H. unfold make_ctx in H. bnd H w Ew. destruct w as [dt tot]. fin H. reflexivity. Qed.
Lemma after_names : forall cf ord fs idx, NoDup (flow_ids fs) -> invest_names cf (after_modeling cf ord fs idx) = invest_names cf fs.
Proof.
  intros cf ord fs idx ND. unfold invest_names, after_modeling. cbn [with_comps fs_comps]. rewrite flat_map_app.
  rewrite <- (firstn_skipn (comps_reached cf ord fs idx) (fs_comps fs)) at 3. rewrite flat_map_app. f_equal. rewrite flat_map_map_.
  apply flat_map_ext_in_. intros c Hc. unfold defaulted. destruct (make_ctx cf ord fs idx) as [cx|] eqn:CX; [|reflexivity].
  destruct (prepared cx _ c) as [c'|] eqn:P; [|reflexivity]. refine (proj2 (prepared_invests _ _ _ _ _ (ctx_big _ _ _ _ _ CX) _ P)).
  apply (comp_ids fs); auto. rewrite <- (firstn_skipn (comps_reached cf ord fs idx) (fs_comps fs)). apply in_or_app. left. exact Hc.
Qed.
Lemma built_names : forall cf ord fs idx b, build_system cf ord fs idx = Ok b ->
  NoDup (flow_ids fs) /\ flat_map comp_invests (fs_comps (after_modeling cf ord fs idx)) = invest_names cf fs.
Proof.
  intros cf ord fs idx b H. destruct (build_outline _ _ _ _ _ H) as [cx [cs [CX [P _]]]]. rewrite (after_prepared _ _ _ _ _ _ _ H CX P).
  assert (ND : NoDup (flow_ids fs)).
  { unfold build_system in H. rewrite CX in H. cbn [bind] in H. bnd H u Eu. unfold guard in Eu. destruct (no_dup_nat _) eqn:D in Eu; [|discriminate].
    apply no_dup_nat_NoDup in D. exact D. }
  split; [exact ND|]. unfold invest_names. pose proof (comp_ids fs) as CI. revert P CI. generalize (fs_comps fs). intros l P CI.
  induction P as [|c c' l l' H1 _ IH]; [reflexivity|]. cbn [flat_map]. rewrite IH by (intros; apply CI; [assumption|right; assumption]). f_equal.
  refine (proj1 (prepared_invests _ _ _ _ _ (ctx_big _ _ _ _ _ CX) _ H1)). apply CI; [exact ND|left; reflexivity].
Qed.
Lemma frame_ids_ : forall fs fs', same_frame fs fs' -> flow_ids fs' = flow_ids fs.
Proof. intros fs fs' SF. unfold flow_ids. exact (frame_ids fs fs' SF). Qed.

(** ** Labels of the sizes *)
Definition flab (m : emodel) : string := match em_vars m with v :: _ => v_label v | [] => "" end.
Lemma invest_has_var : forall m, is_invest m = true -> In (flab m) (map v_label (em_vars m)).
Proof. intros m H. unfold is_invest in H. unfold flab. destruct (em_vars m); [rewrite Bool.andb_false_r in H; discriminate|left; reflexivity]. Qed.
Lemma invests_by_child : forall s, Permutation (map (fun p => flab (snd p)) (flat_map invest_children [EM "" "" [] [] s] ++ flat_map invests s))
   (flat_map (fun m => (if is_invest m then [flab m] else []) ++ map (fun p => flab (snd p)) (invests m)) s).
Proof.
  intros s. rewrite map_app. cbn [flat_map]. rewrite app_nil_r. unfold invest_children at 1. cbn [em_subs em_full]. rewrite map_map. cbn [snd].
  induction s as [|a s IH]; [constructor|]. cbn [filter flat_map]. rewrite !map_app.
  destruct (is_invest a); cbn [map app].
  - constructor. eapply perm_trans; [|apply Permutation_app_head; exact IH]. rewrite !app_assoc. apply Permutation_app_tail, Permutation_app_comm.
  - eapply perm_trans; [|apply Permutation_app_head; exact IH]. rewrite !app_assoc. apply Permutation_app_tail, Permutation_app_comm.
Qed.
Lemma invests_labels : forall m, (NoDup (flat_map all_labels (em_subs m)) -> NoDup (map (fun p => flab (snd p)) (invests m)))
   /\ incl (map (fun p => flab (snd p)) (invests m)) (flat_map all_labels (em_subs m)).
Proof.
  intros m. induction m as [f l v c s IH] using em_ind2. cbn [em_subs]. rewrite invests_eq.
  assert (PR : Permutation (map (fun p => flab (snd p)) (invest_children (EM f l v c s) ++ flat_map invests s))
     (flat_map (fun m => (if is_invest m then [flab m] else []) ++ map (fun p => flab (snd p)) (invests m)) s)).
  { eapply perm_trans; [|apply invests_by_child]. cbn [flat_map]. rewrite app_nil_r, !map_app. unfold invest_children. cbn [em_subs em_full]. rewrite !map_map. cbn [snd]. apply Permutation_refl. }
  assert (IN : forall a, In a s -> (NoDup (all_labels a) -> NoDup ((if is_invest a then [flab a] else []) ++ map (fun p => flab (snd p)) (invests a)))
     /\ incl ((if is_invest a then [flab a] else []) ++ map (fun p => flab (snd p)) (invests a)) (all_labels a)).
  { intros a Ha. destruct (IH a Ha) as [I1 I2]. destruct a as [f' l' v' c' s']. rewrite all_labels_eq. cbn [em_subs] in I1, I2.
    pose proof (invest_has_var (EM f' l' v' c' s')) as V. cbn [em_vars] in V. split.
    - intros N. apply NoDup_app_parts in N as N'. destruct N' as [_ N']. specialize (I1 N').
      destruct (is_invest _); [|exact I1]. cbn [app]. constructor; [|exact I1]. intros X. apply I2 in X.
      apply (NoDup_app_disj _ _ _ N (V eq_refl)). exact X.
    - intros y Hy. apply in_app_or in Hy. apply in_or_app. destruct Hy as [Hy|Hy]; [|right; apply I2; exact Hy].
      destruct (is_invest _); [|destruct Hy]. destruct Hy as [<-|[]]. left. apply V. reflexivity. }
  split.
  - intros N. eapply Permutation_NoDup; [apply Permutation_sym; exact PR|]. eapply flat_map_part; [exact N|]. exact IN.
  - intros y Hy. apply (Permutation_in _ PR) in Hy. apply in_flat_map in Hy. destruct Hy as [a [Ha Hy]]. apply in_flat_map. exists a. split; [exact Ha|]. apply (IN a Ha). exact Hy.
Qed.
Lemma investments_distinct : forall b vs, system_variables (bs_roots b) = Ok vs -> NoDup (map (fun p => flab (snd p)) (investments b)).
Proof.
  intros b vs H. apply roots_labels in H. eapply Permutation_NoDup; [apply Permutation_map, Permutation_sym, investments_perm|].
  rewrite map_flat_map. eapply flat_map_part; [exact H|]. intros m _. destruct (invests_labels m) as [A B]. destruct m as [f l v c s]. rewrite all_labels_eq. cbn [em_subs] in A, B. split.
  - intros N. apply NoDup_app_parts in N. apply A. apply N.
  - intros y Hy. apply in_or_app. right. apply B. exact Hy.
Qed.

Lemma sizes_labels : forall ns l, Forall2 sizes ns l -> map (fun p => flab (snd p)) l = map (fun n => inv n "size") ns /\ map fst l = ns.
Proof.
  intros ns l H. induction H as [|n p ns l [H1 [v [rest [E [L _]]]]] _ [I1 I2]]; [split; reflexivity|]. cbn [map]. rewrite I1, I2, H1. split; [|reflexivity].
  unfold flab at 1. rewrite E, L. reflexivity.
Qed.

(** The investments of a model that was handed to the solver: distinct names, one for each investment of the system. *)
Lemma investments_spec : forall cf ord fs idx b vs, build_system cf ord fs idx = Ok b -> system_variables (bs_roots b) = Ok vs ->
  NoDup (invest_names cf fs) /\ exists ns, Permutation ns (invest_names cf fs) /\ Forall2 sizes ns (investments b).
Proof.
  intros cf ord fs idx b vs B V. destruct (system_found _ _ _ _ _ B) as [l [PL F]]. destruct (built_names _ _ _ _ _ B) as [_ N]. rewrite N in F.
  split.
  - destruct (sizes_labels _ _ F) as [E _]. pose proof (investments_distinct _ _ V) as D. apply (Permutation_NoDup (Permutation_map _ (Permutation_sym PL))) in D.
    rewrite E in D. apply NoDup_map_inv in D. exact D.
  - destruct (sizes_labels _ _ F) as [_ E]. exists (map fst (investments b)). split; [rewrite <- E; apply Permutation_map, Permutation_sym, PL|].
    assert (A : forall p, In p (investments b) -> sizes (fst p) p).
    { intros p Hp. apply (Permutation_in _ (Permutation_sym PL)) in Hp. destruct (Forall2_In_r _ _ _ _ F Hp) as [n [_ S]]. destruct S as [S1 S2]. rewrite S1. split; [exact S1|exact S2]. }
    clear -A. induction (investments b) as [|p l IH]; cbn [map]; constructor; [apply A; left; reflexivity|]. apply IH. intros q Hq. apply A. right. exact Hq.
Qed.
