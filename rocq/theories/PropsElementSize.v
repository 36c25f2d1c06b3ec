(** What the model of an element says about its size (C104). *)
From Coq Require Import Ascii String Permutation Lia.
From Verif Require Import Base BaseFacts MathModel Spec MathFacts Structure StructureFacts Params Features Elements Library System ReadTools
  Infos ElementSize PropsStructure ClosedFacts TotalAgg ResultFacts Example.

(** ** Specification *)

(** [m] is the model of an element of an accepted system, or a part of one. *)
Definition modelled (fs : flow_system) (m : emodel) : Prop :=
  exists cf ord idx b pm r, build_system cf ord fs idx = Ok b /\ system_translate (bs_roots b) (bs_obj b) = Ok pm /\ In r (bs_roots b) /\ In m (flat r).
(** The size of a model with its parts, counted in what it declares. *)
Definition rows_of (cs : list constraint) : nat := fold_right (fun c n => c_len c + n)%nat 0%nat cs.
Definition equations_in (m : emodel) : list constraint := filter is_equation (decl_cons m).
Definition inequations_in (m : emodel) : list constraint := filter is_ineq (decl_cons m).
Definition true_size (m : emodel) : element_size :=
  mkESize (length (equations_in m)) (rows_of (equations_in m)) (length (inequations_in m)) (rows_of (inequations_in m))
    (length (decl_vars m)) (fold_right (fun v n => v_len v + n)%nat 0%nat (decl_vars m)).
Definition size_told : Prop := forall fs m, modelled fs m -> overview_of_model_size m = Ok (true_size m).
(** The flat listing of the constraints of an element shows all of them. *)
Definition all_listed : Prop := forall fs m l c, modelled fs m -> flat_constraints m = Ok l -> In c (decl_cons m) -> In c l.

(** ** Recursion over a model *)
Lemma equations_total : forall m, NoDup (map c_label (decl_cons m)) -> em_all_equations m = Ok (equations_in m).
Proof.
  apply (emodel_ind' (fun m => NoDup (map c_label (decl_cons m)) -> em_all_equations m = Ok (equations_in m))).
  intros f l v c subs IH N. cbn [em_all_equations]. unfold equations_in. cbn [decl_cons] in N |- *. rewrite filter_app.
  assert (F : forall (P : constraint -> bool) ds, filter P (flat_map decl_cons ds) = flat_map (fun m => filter P (decl_cons m)) ds).
  { intros P. induction ds as [|d ds IHd]; cbn [flat_map]; [reflexivity|]. rewrite filter_app, IHd. reflexivity. }
  rewrite F. fold equations_in.
  assert (SUB : forall a b, NoDup (map c_label (a ++ b)) -> NoDup (map c_label (filter is_equation a ++ b))).
  { intros a b H. induction a as [|x a IHa]; [exact H|]. cbn [app map] in H. inversion H as [|? ? H1 H2]; subst. cbn [filter].
    destruct (is_equation x); [|exact (IHa H2)]. cbn [app map]. constructor; [|exact (IHa H2)]. intros Z. apply H1. apply in_map_iff in Z. destruct Z as [y [Y1 Y2]].
    apply in_map_iff. exists y. split; [exact Y1|]. apply in_app_or in Y2. apply in_or_app. destruct Y2 as [Y2 | Y2]; [left; apply filter_In in Y2; apply Y2|right; exact Y2]. }
  apply SUB in N. generalize dependent (filter is_equation c). intros own N.
  assert (X : forall ss acc, (forall s, In s ss -> In s subs) -> NoDup (map c_label (acc ++ flat_map decl_cons ss)) ->
     foldM (fun acc s => cs <- em_all_equations s ;;
              _ <- guard (forallb (fun c => negb (mem_str (c_label c) (map c_label acc))) cs) KeyError ;; Ok (acc ++ cs)) ss acc = Ok (acc ++ flat_map equations_in ss)).
  { induction ss as [|s ss IHs]; intros acc Hs ND; cbn [foldM flat_map]; [rewrite app_nil_r; reflexivity|]. cbn [flat_map] in ND.
    assert (N1 : NoDup (map c_label (decl_cons s))).
    { rewrite !map_app in ND. apply NoDup_parts in ND. destruct ND as [_ ND]. apply NoDup_parts in ND. apply ND. }
    rewrite Forall_forall in IH. rewrite (IH s (Hs s (or_introl eq_refl)) N1). cbn [bind].
    assert (G : forallb (fun c0 => negb (mem_str (c_label c0) (map c_label acc))) (equations_in s) = true).
    { apply forallb_forall. intros w Hw. destruct (mem_str (c_label w) (map c_label acc)) eqn:M; auto. exfalso. apply mem_str_In in M.
      rewrite map_app in ND. apply (NoDup_app_disj _ _ (c_label w) ND M). rewrite map_app. apply in_or_app. left. apply in_map. unfold equations_in in Hw. apply filter_In in Hw. apply Hw. }
    rewrite G. cbn [guard bind]. rewrite IHs; [rewrite app_assoc; reflexivity|intros; apply Hs; right; auto|].
    rewrite <- app_assoc. unfold equations_in. clear - ND. rewrite !map_app in *. revert ND. generalize (map c_label acc), (map c_label (flat_map decl_cons ss)). intros a z.
    assert (Q : forall u, NoDup (u ++ map c_label (decl_cons s) ++ z) -> NoDup (u ++ map c_label (filter is_equation (decl_cons s)) ++ z)).
    { induction (decl_cons s) as [|x r IHr]; intros u H; [exact H|]. cbn [map filter app] in H |- *. destruct (is_equation x).
      - cbn [map app]. change (c_label x :: ?t) with ([c_label x] ++ t) in H |- *. rewrite app_assoc in H |- *. apply IHr. exact H.
      - apply NoDup_remove_1 in H. apply IHr. exact H. }
    apply Q. }
  apply (X subs own); auto.
Qed.
Lemma own_inequations : forall m, NoDup (map c_label (decl_cons m)) -> em_all_inequations m = Ok (filter is_ineq (em_cons m)).
Proof.
  apply (emodel_ind' (fun m => NoDup (map c_label (decl_cons m)) -> em_all_inequations m = Ok (filter is_ineq (em_cons m)))).
  intros f l v c subs IH N. cbn [em_all_inequations em_cons]. cbn [decl_cons] in N.
  assert (X : forall ss, (forall s, In s ss -> In s subs) -> NoDup (map c_label (c ++ flat_map decl_cons ss)) ->
     foldM (fun acc s => cs <- em_all_inequations s ;;
              _ <- guard (forallb (fun c => negb (mem_str (c_label c) (map c_label acc))) cs) KeyError ;; Ok acc) ss (filter is_ineq c) = Ok (filter is_ineq c)).
  { induction ss as [|s ss IHs]; intros Hs ND; cbn [foldM]; [reflexivity|]. cbn [flat_map] in ND.
    assert (N1 : NoDup (map c_label (decl_cons s))).
    { rewrite !map_app in ND. apply NoDup_parts in ND. destruct ND as [_ ND]. apply NoDup_parts in ND. apply ND. }
    rewrite Forall_forall in IH. rewrite (IH s (Hs s (or_introl eq_refl)) N1). cbn [bind].
    assert (G : forallb (fun c0 => negb (mem_str (c_label c0) (map c_label (filter is_ineq c)))) (filter is_ineq (em_cons s)) = true).
    { apply forallb_forall. intros w Hw. destruct (mem_str (c_label w) (map c_label (filter is_ineq c))) eqn:M; auto. exfalso. apply mem_str_In in M.
      apply filter_In in Hw. apply in_map_iff in M. destruct M as [u [U1 U2]]. apply filter_In in U2.
      rewrite map_app in ND. apply (NoDup_app_disj _ _ (c_label w) ND); [rewrite <- U1; apply in_map, U2|]. rewrite map_app. apply in_or_app. left. apply in_map.
      destruct s as [sf sl sv sc st]. cbn [decl_cons]. apply in_or_app. left. apply Hw. }
    rewrite G. cbn [guard bind]. apply IHs; [intros; apply Hs; right; auto|]. rewrite !map_app in ND. rewrite map_app.
    clear - ND. revert ND. generalize (map c_label c), (map c_label (decl_cons s)), (map c_label (flat_map decl_cons ss)). intros a b z H.
    induction b as [|x b IHb]; [exact H|]. apply IHb. cbn [app] in H. apply NoDup_remove_1 in H. exact H. }
  apply (X subs); auto.
Qed.

(** The labels of a part of an accepted system are distinct. *)
Lemma part_distinct : forall fs m, modelled fs m -> NoDup (map c_label (decl_cons m)) /\ NoDup (map v_label (decl_vars m)).
Proof.
  intros fs m [cf [ord [idx [b [pm [r [_ [T [R F]]]]]]]]]. destruct (C27_exactly_the_declared _ _ _ T) as [vs [cs [rss [PV [_ [PC [_ [_ [NV [NC _]]]]]]]]]].
  apply (Permutation_NoDup (Permutation_map v_label PV)) in NV. apply (Permutation_NoDup (Permutation_map c_label PC)) in NC. clear PV PC T.
  assert (K : forall {A} (d : emodel -> list A) (lab : A -> string) (ds : list emodel), In r ds -> NoDup (map lab (flat_map d ds)) -> NoDup (map lab (d r))).
  { intros A d lab ds. induction ds as [|x ds IH]; intros I0 N; [destruct I0|]. cbn [flat_map] in N. rewrite map_app in N. apply NoDup_parts in N. destruct N as [N1 N2].
    destruct I0 as [-> | I0]; [exact N1|exact (IH I0 N2)]. }
  apply (K _ decl_vars v_label) in NV; [|exact R]. apply (K _ decl_cons c_label) in NC; [|exact R]. clear K R.
  revert F NV NC. revert r. apply (emodel_ind' (fun r => In m (flat r) -> NoDup (map v_label (decl_vars r)) -> NoDup (map c_label (decl_cons r)) -> NoDup (map c_label (decl_cons m)) /\ NoDup (map v_label (decl_vars m)))).
  intros f l v c subs IH F NV NC. cbn [flat em_subs] in F. destruct F as [<- | F]; [split; assumption|]. cbn [decl_vars decl_cons] in NV, NC. rewrite map_app in NV, NC.
  apply NoDup_parts in NV. destruct NV as [_ NV]. apply NoDup_parts in NC. destruct NC as [_ NC].
  induction IH as [|s subs P _ IHs]; [destruct F|]. cbn [flat_map] in F, NV, NC. rewrite map_app in NV, NC. apply NoDup_parts in NV. apply NoDup_parts in NC.
  apply in_app_or in F. destruct F as [F | F]; [apply P; tauto|apply IHs; tauto].
Qed.

(** ** C104 *)

(** The variables and the equations told are all that the element and its parts declare, but of the inequations only the element's own are told. *)
Theorem C104_lists_partial : forall fs m, modelled fs m ->
  flat_variables m = Ok (decl_vars m) /\ flat_constraints m = Ok (equations_in m) /\ em_all_inequations m = Ok (filter is_ineq (em_cons m)).
Proof.
  intros fs m H. destruct (part_distinct _ _ H) as [NC NV]. split; [|split; [exact (equations_total m NC)|exact (own_inequations m NC)]].
  unfold flat_variables. assert (D : decl m = decl_vars m) by (unfold decl; rewrite decl_vars_flat; reflexivity). rewrite <- D in *. exact (all_variables_total m NV).
Qed.
Print Assumptions C104_lists_partial.

(** The size is told of elements without any equation, inequations of their own or inequations in their parts, and of no element with an equation. *)
Theorem C104_size_partial : forall fs m, modelled fs m ->
  (decl_cons m = [] -> overview_of_model_size m = Ok (true_size m)) /\
  (equations_in m <> [] -> overview_of_model_size m = Err AttributeError).
Proof.
  intros fs m H. destruct (C104_lists_partial _ _ H) as [A [B C]]. unfold flat_variables, flat_constraints in *. unfold overview_of_model_size. rewrite A, B, C. cbn [bind]. split.
  - intros E. unfold true_size, equations_in, inequations_in. rewrite E. assert (E' : em_cons m = []) by (destruct m as [f l v c s]; cbn [decl_cons em_cons] in *; apply app_eq_nil in E; apply E).
    rewrite E'. reflexivity.
  - intros E. destruct (equations_in m) as [|c r]; [congruence|]. reflexivity.
Qed.
Print Assumptions C104_size_partial.

(** Every bus has an equation, and so has every component with a flow. So their size is never told. *)
Lemma equation_kind : forall model label calls c, create_equation model label KEq calls = Ok c -> is_equation c = true.
Proof. intros model label calls c H. unfold create_equation in H. apply build_built in H. unfold is_equation. rewrite (b_kind _ _ _ _ _ H). reflexivity. Qed.
Lemma has_equation : forall m c, In c (decl_cons m) -> is_equation c = true -> equations_in m <> [].
Proof. intros m c H E Z. assert (I0 : In c (equations_in m)) by (apply filter_In; auto). rewrite Z in I0. destruct I0. Qed.
Lemma bus_equation : forall cx b i o m s, bus_model cx b i o = Ok (m, s) -> equations_in m <> [].
Proof.
  intros cx b i o m s H. unfold bus_model in H. cbv zeta in H. destruct (b_penalty b) as [p|].
  - bnd H a E1. bnd H pen E2. bnd H ei E3. bnd H eo E4. bnd H c E5. bnd H m0 E6. apply Ok_inj in H. injection H as -> _. apply mk_em_spec in E6. destruct E6 as [-> _].
    apply (has_equation _ c); [left; reflexivity|exact (equation_kind _ _ _ _ E5)].
  - bnd H c E5. bnd H m0 E6. apply Ok_inj in H. injection H as -> _. apply mk_em_spec in E6. destruct E6 as [-> _].
    apply (has_equation _ c); [left; reflexivity|exact (equation_kind _ _ _ _ E5)].
Qed.
Lemma flow_equation : forall cx tr comp f o, flow_model cx tr comp f = Ok o -> exists c, In c (decl_cons (fo_tree o)) /\ is_equation c = true.
Proof.
  intros cx tr comp f o H. unfold flow_model in H. cbv zeta in H. bnd H rl E1. bnd H ab E2. bnd H v E3. bnd H ooo E4. bnd H io E5. bnd H sfh E6.
  bnd H cs E7. bnd H clf E8. bnd H s E9. bnd H m E10. apply Ok_inj in H. subst o. cbn [fo_tree]. apply mk_em_spec in E10. destruct E10 as [-> _].
  exists cs. split; [left; reflexivity|exact (equation_kind _ _ _ _ E7)].
Qed.
Lemma comp_equation : forall cx trf trc c o, comp_model cx trf trc c = Ok o -> co_flows o <> [] -> equations_in (co_tree o) <> [].
Proof.
  intros cx trf trc c0 o H. unfold comp_model in H. cbv zeta in H. bnd H c E1. bnd H b E2. bnd H so E3. bnd H m E4. apply Ok_inj in H. subst o.
  cbn [co_tree co_flows]. intros NE. apply mk_em_spec in E4. destruct E4 as [-> _]. clear E3. unfold base_model in E2. bnd E2 fos F1. bnd E2 ooo F2. bnd E2 pm F3. apply Ok_inj in E2. subst b.
  cbn [bo_flows bo_subs] in *. clear F2 F3. apply mapM_Forall2 in F1. destruct F1 as [|f fo l l' P F1]; [congruence|].
  destruct (flow_equation _ _ _ _ _ P) as [k [K1 K2]]. apply (has_equation _ k); [|exact K2]. cbn [decl_cons map app flat_map]. apply in_or_app. right. apply in_or_app. left. exact K1.
Qed.
Lemma system_equations : forall cf ord fs idx b, build_system cf ord fs idx = Ok b ->
  (forall m, In m (bs_buses b) -> equations_in m <> []) /\ (forall o, In o (bs_comps b) -> co_flows o <> [] -> equations_in (co_tree o) <> []).
Proof.
  intros cf ord fs idx b B. unfold build_system in B. bnd B cx E1. bnd B u E2. bnd B cos E3. cbv zeta in B. bnd B bos E4. bnd B eo E5. destruct eo as [em obj]. apply Ok_inj in B. subst b.
  cbn [bs_buses bs_comps]. split.
  - intros m Hm. apply in_map_iff in Hm. destruct Hm as [[m' sh] [<- Hm]]. cbn [fst]. apply mapM_Forall2 in E4. clear - E4 Hm.
    induction E4 as [|x y l l' P E4 IH]; [destruct Hm|]. destruct Hm as [-> | Hm]; [|exact (IH Hm)]. bnd P i Pi. bnd P o Po. exact (bus_equation _ _ _ _ _ _ P).
  - intros o Ho NE. apply mapM_Forall2 in E3. clear - E3 Ho NE. induction E3 as [|x y l l' P E3 IH]; [destruct Ho|]. destruct Ho as [-> | Ho]; [|exact (IH Ho)].
    exact (comp_equation _ _ _ _ _ P NE).
Qed.
Theorem C104_fails : forall cf ord fs idx b pm, build_system cf ord fs idx = Ok b -> system_translate (bs_roots b) (bs_obj b) = Ok pm ->
  (forall m, In m (bs_buses b) -> overview_of_model_size m = Err AttributeError) /\
  (forall o, In o (bs_comps b) -> co_flows o <> [] -> overview_of_model_size (co_tree o) = Err AttributeError).
Proof.
  intros cf ord fs idx b pm B T.
  assert (M : forall m, In m (bs_roots b) -> modelled fs m).
  { intros m Hm. exists cf, ord, idx, b, pm, m. split; [exact B|]. split; [exact T|]. split; [exact Hm|]. destruct m. left. reflexivity. }
  pose proof (system_equations _ _ _ _ _ B) as X.
  destruct X as [X1 X2]. split.
  - intros m Hm. apply (C104_size_partial fs m); [apply M; unfold bs_roots; right; apply in_or_app; right; exact Hm|exact (X1 m Hm)].
  - intros o Ho NE. apply (C104_size_partial fs (co_tree o)); [apply M; unfold bs_roots; right; apply in_or_app; left; apply in_map; exact Ho|exact (X2 o Ho NE)].
Qed.
Print Assumptions C104_fails.

(** A system with buses and components (Example.v) is accepted; the hypotheses above are met by all of its elements. *)
Lemma fs0_built : exists b pm, build_system default_config id_ord fs0 None = Ok b /\ system_translate (bs_roots b) (bs_obj b) = Ok pm /\
  (exists m r, bs_buses b = m :: r) /\ exists o c, In o (bs_comps b) /\ In c (decl_cons (co_tree o)) /\ is_equation c = false.
Proof.
  assert (X : match build_system default_config id_ord fs0 None with
              | Ok b => match system_translate (bs_roots b) (bs_obj b) with
                        | Ok _ => (negb (Nat.eqb (length (bs_buses b)) 0) && existsb (fun o => existsb (fun c => negb (is_equation c)) (decl_cons (co_tree o))) (bs_comps b))%bool
                        | Err _ => false end
              | Err _ => false end = true) by (vm_compute; reflexivity).
  destruct (build_system default_config id_ord fs0 None) as [b|]; [|discriminate]. destruct (system_translate (bs_roots b) (bs_obj b)) as [pm|] eqn:T; [|discriminate].
  apply andb_prop in X. destruct X as [X1 X2]. exists b, pm. split; [reflexivity|]. split; [exact T|]. split.
  - destruct (bs_buses b) as [|m r]; [discriminate X1|eauto].
  - apply existsb_exists in X2. destruct X2 as [o [O1 O2]]. apply existsb_exists in O2. destruct O2 as [c [C1 C2]]. exists o, c. split; [exact O1|]. split; [exact C1|].
    apply Bool.negb_true_iff in C2. exact C2.
Qed.
Lemma bus_example : forall cf ord fs idx b pm m, build_system cf ord fs idx = Ok b -> system_translate (bs_roots b) (bs_obj b) = Ok pm -> In m (bs_buses b) ->
  modelled fs m /\ equations_in m <> [] /\ overview_of_model_size m = Err AttributeError.
Proof.
  intros cf ord fs idx b pm m B T H. split; [|split; [apply (system_equations _ _ _ _ _ B); exact H|apply (C104_fails _ _ _ _ _ _ B T); exact H]].
  exists cf, ord, idx, b, pm, m. split; [exact B|]. split; [exact T|]. split; [unfold bs_roots; right; apply in_or_app; right; exact H|destruct m; left; reflexivity].
Qed.
Example C104_applies : exists m, modelled fs0 m /\ equations_in m <> [] /\ overview_of_model_size m = Err AttributeError.
Proof.
  destruct fs0_built as [b [pm [B [T [[m [r M]] _]]]]]. exists m. apply (bus_example _ _ _ _ _ _ _ B T). rewrite M. left. reflexivity.
Qed.
Theorem C104_refuted : ~ size_told.
Proof.
  intros R. destruct C104_applies as [m [H [_ F]]]. rewrite (R _ _ H) in F. discriminate.
Qed.
Print Assumptions C104_refuted.
Lemma comp_example : forall cf ord fs idx b pm o, build_system cf ord fs idx = Ok b -> system_translate (bs_roots b) (bs_obj b) = Ok pm -> In o (bs_comps b) -> modelled fs (co_tree o).
Proof.
  intros cf ord fs idx b pm o B T O. exists cf, ord, idx, b, pm, (co_tree o). split; [exact B|]. split; [exact T|].
  split; [unfold bs_roots; right; apply in_or_app; left; apply in_map; exact O|destruct (co_tree o); left; reflexivity].
Qed.
Theorem C104_listing_refuted : ~ all_listed.
Proof.
  intros R. destruct fs0_built as [b [pm [B [T [_ [o [c [O [C K]]]]]]]]]. pose proof (comp_example _ _ _ _ _ _ _ B T O) as Hm.
  destruct (C104_lists_partial _ _ Hm) as [_ [E _]]. assert (I0 := R _ _ _ c Hm E C). unfold equations_in in I0. apply filter_In in I0. destruct I0 as [_ I0]. congruence.
Qed.
Print Assumptions C104_listing_refuted.
