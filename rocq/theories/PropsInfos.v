(** C80: what a calculation says about its problem (sizes, lists of variables and constraints, lines printed) is true of the problem
    the solver gets. *)
From Coq Require Import Ascii String Permutation.
From Verif Require Import Base BaseFacts MathModel Spec MathFacts Structure StructureFacts Params Features Elements System Library SysSpec
     CtxFacts ReadTools InvestFacts OnOffFacts FlowFacts NavFacts CompFacts SegFacts BusFacts ShareFacts EffectFacts
     PropsEffects Tree PropsTree Values Results ResultFacts PropsResults Infos InfoFacts Example.

(** ** Specification *)

(** Everything in a nested listing. *)
Fixpoint listed {A} (t : tree (list A)) : list A :=
  match t with Leaf l => l | Node d => flat_map (fun kv => let '(_, u) := kv in listed u) d end.

(** The sizes that belong to a problem: counted on the problem itself. *)
Definition count {A} (f : A -> bool) (l : list A) : nat := List.length (filter f l).
Definition total (l : list nat) : nat := fold_right Nat.add 0%nat l.
Record sizes_right (pm : pmodel) (s : model_size) : Prop := {
  sz_vars : ms_vars s = List.length (pm_vars pm);
  sz_single_vars : ms_single_vars s = total (map (fun p => List.length (pv_entries p)) (pm_vars pm));
  sz_ts : ms_ts_vars s = count (fun p => Nat.ltb 1 (List.length (pv_entries p))) (pm_vars pm);
  sz_single_eqs : ms_single_eqs s = count r_eq (pm_rows pm);
  sz_single_ineqs : ms_single_ineqs s = count (fun r => negb (r_eq r)) (pm_rows pm);
  sz_rows : (ms_single_eqs s + ms_single_ineqs s)%nat = List.length (pm_rows pm)
}.

(** The listings name every variable of the problem once, every constraint once and the objective once. *)
Record complete_listing (b : built_system) (pm : pmodel) : Prop := {
  cl_vars : Permutation (map v_label (listed (variable_listing b))) (map pv_label (pm_vars pm));
  cl_rows : exists cs rss, Permutation (listed (constraint_listing b)) (bs_obj b :: cs) /\ mapM translate_constraint cs = Ok rss
              /\ Permutation (List.concat rss) (pm_rows pm) /\ translate_objective (bs_obj b) = Ok (pm_obj pm)
}.
(** The keys of the listing lead to what they name. *)
Definition listed_under (b : built_system) (path : list string) (name : string) : Prop :=
  exists l, extract (variable_listing b) path = Some (Leaf l) /\ In name (map v_label l).

(** The list of a model is filed under "_self", so nothing else may have this label. *)
Definition plain_listing (fs : flow_system) : Prop :=
  plain_labels fs /\ ~ In "_self"%string (map e_label (fs_effects fs))
  /\ forall c f, In c (fs_comps fs) -> In f (cp_flows c) -> f_lab f <> "_self"%string.

(** ** Proof *)
Lemma variable_out : forall v p, translate_variable v = Ok p -> pv_label p = v_label v /\ List.length (pv_entries p) = v_len v.
Proof.
  intros v p H. unfold translate_variable in H. bnd H a Ea. bnd H b Eb. bnd H c Ec. apply Ok_inj in H. subst p. cbn [pv_label pv_entries].
  split; [reflexivity|]. rewrite map_length, seq_length. reflexivity.
Qed.
Lemma constraint_out : forall c rows, translate_constraint c = Ok rows ->
  List.length rows = c_len c /\ Forall (fun r => r_eq r = is_equation c) rows.
Proof.
  intros c rows H. unfold translate_constraint in H. bnd H cv Ecv. split.
  - apply mapM_length in H. rewrite H, seq_length. reflexivity.
  - rewrite Forall_forall. intros r Hr. destruct (mapM_In_inv _ _ _ _ H Hr) as [i [_ E]]. bnd E ts Et. bnd E rhs Er. bnd E u Eu.
    apply Ok_inj in E. subst r. reflexivity.
Qed.
Lemma concat_len : forall cs rss, mapM translate_constraint cs = Ok rss -> List.length (List.concat rss) = sum_len cs.
Proof.
  induction cs as [|c cs IH]; intros rss H; cbn [mapM] in H.
  - apply Ok_inj in H. subst rss. reflexivity.
  - bnd H a Ea. bnd H r Er. apply Ok_inj in H. subst rss. cbn [List.concat sum_len fold_right]. rewrite app_length, (IH _ Er).
    destruct (constraint_out _ _ Ea) as [-> _]. reflexivity.
Qed.
Lemma concat_kind : forall k cs rss, mapM translate_constraint cs = Ok rss -> (forall c, In c cs -> is_equation c = k) ->
  Forall (fun r => r_eq r = k) (List.concat rss).
Proof.
  intros k. induction cs as [|c cs IH]; intros rss H K; cbn [mapM] in H.
  - apply Ok_inj in H. subst rss. constructor.
  - bnd H a Ea. bnd H r Er. apply Ok_inj in H. subst rss. cbn [List.concat]. apply Forall_app. split.
    + destruct (constraint_out _ _ Ea) as [_ F]. rewrite (K c (or_introl eq_refl)) in F. exact F.
    + apply (IH _ Er). intros d Hd. apply K. right. exact Hd.
Qed.
Lemma count_app : forall {A} (f : A -> bool) l m, count f (l ++ m) = (count f l + count f m)%nat.
Proof. intros. unfold count. rewrite filter_app, app_length. reflexivity. Qed.
Lemma count_all : forall {A} (f : A -> bool) l, Forall (fun a => f a = true) l -> count f l = List.length l.
Proof. intros A f l H. unfold count. induction H as [|a l H _ IH]; [reflexivity|]. cbn [filter]. rewrite H. cbn [List.length]. rewrite IH. reflexivity. Qed.
Lemma count_none : forall {A} (f : A -> bool) l, Forall (fun a => f a = false) l -> count f l = 0%nat.
Proof. intros A f l H. unfold count. induction H as [|a l H _ IH]; [reflexivity|]. cbn [filter]. rewrite H. exact IH. Qed.

Lemma listing_flat : forall {A} (own : emodel -> list A) m, tidy m -> shaped True m ->
  listed (em_listing own m) = flat_map own (flat m).
Proof.
  intros A own. apply (emodel_ind' (fun m => tidy m -> shaped True m -> listed (em_listing own m) = flat_map own (flat m))).
  intros f l vs cs subs IH T S. inversion T as [? ? ? ? ? N TS]; subst. inversion S as [? ? ? ? ? _ SS]; subst.
  cbn [em_listing]. rewrite str_dict_nodup.
  - cbn [listed flat_map flat em_subs]. f_equal. clear T S N. revert IH TS SS. induction subs as [|s subs IHs]; intros IH TS SS; [reflexivity|].
    cbn [map flat_map em_subs]. rewrite flat_map_app. f_equal.
    + apply (Forall_inv IH); [apply TS; left; reflexivity|apply SS; left; reflexivity].
    + apply IHs; [exact (Forall_inv_tail IH)| |]; intros k Hk; [apply TS|apply SS]; right; exact Hk.
  - cbn [map fst]. rewrite map_map. constructor.
    + intros H. apply in_map_iff in H. destruct H as [s [E H]]. cbn [fst] in E. apply (proj1 (SS s H) Logic.I). exact E.
    + apply NoDup_app_both in N. destruct N as [_ N]. exact N.
Qed.

Lemma roots_listing : forall {A} (own : emodel -> list A) ms, NoDup (map em_label ms) -> Forall (fun m => tidy m /\ shaped True m) ms ->
  listed (by_label own ms) = flat_map own (flat_map flat ms).
Proof.
  intros A own ms N F. unfold by_label. rewrite str_dict_nodup by (rewrite map_map; exact N). cbn [listed]. clear N.
  induction F as [|m ms [T S] _ IH]; [reflexivity|]. cbn [map flat_map]. rewrite flat_map_app, IH, listing_flat by assumption. reflexivity.
Qed.

Section Listing.
Variables (cf : config) (ord : list nat -> list nat) (fs : flow_system) (idx : option (list nat)) (pm : pmodel)
          (cx : ctx) (cos : list comp_out) (bos : list (emodel * list share)) (em : emodel) (obj : constraint).
Hypothesis P : sys_parts cf ord fs idx pm cx cos bos em obj.
Hypothesis PL : plain_listing fs.
Let b := mkBuilt cx em cos (map fst bos) obj.

Lemma comps_shaped : Forall (fun m => tidy m /\ shaped True m) (map co_tree cos).
Proof.
  rewrite Forall_forall. intros m Hm. apply in_map_iff in Hm. destruct Hm as [co [<- Hc]].
  destruct (Forall2_In_r _ _ _ _ (sy_comps _ _ _ _ _ _ _ _ _ _ P) Hc) as [c [Hcc [o1 [p1 [s1 Q]]]]]. split.
  - eapply tidy_comp; [exact Q|intros f; reflexivity|].
    split; [eapply comp_flow_labels; [exact P|exact Hcc]|]. intros f Hf. destruct PL as [PP _]. apply (proj2 (proj2 (proj2 PP)) c f Hcc Hf).
  - eapply shaped_comp; [exact Q|intros f; reflexivity|]. intros _ f Hf. apply (proj2 (proj2 PL) c f Hcc Hf).
Qed.
Lemma buses_shaped : Forall (fun m => tidy m /\ shaped True m) (map fst bos).
Proof.
  rewrite Forall_forall. intros m Hm. apply in_map_iff in Hm. destruct Hm as [bo [<- Hb]].
  destruct (Forall2_In_r _ _ _ _ (sy_buses _ _ _ _ _ _ _ _ _ _ P) Hb) as [c [_ [i [o [_ [_ Q]]]]]].
  split; [apply (tidy_bus _ _ _ _ _ Q)|apply (shaped_bus _ _ _ _ _ _ Q)].
Qed.
Lemma shares_named : Forall share_name_ok (flat_map co_shares cos ++ flat_map snd bos).
Proof.
  rewrite Forall_app. split; rewrite Forall_forall; intros s H; apply in_flat_map in H; destruct H as [a [Ha H]].
  - destruct (Forall2_In_r _ _ _ _ (sy_comps _ _ _ _ _ _ _ _ _ _ P) Ha) as [c [_ [o1 [p1 [s1 Q]]]]].
    pose proof (comp_names_ok _ _ _ _ _ _ _ _ Q) as F. rewrite Forall_forall in F. auto.
  - destruct (Forall2_In_r _ _ _ _ (sy_buses _ _ _ _ _ _ _ _ _ _ P) Ha) as [c [_ [i [o [_ [_ Q]]]]]].
    pose proof (bus_names_ok _ _ _ _ _ Q) as F. rewrite Forall_forall in F. auto.
Qed.
Lemma effects_shaped : tidy em /\ shaped True em.
Proof.
  split; [eapply effects_tidy; [exact P|exact (proj1 PL)]|].
  eapply shaped_effects; [apply (sy_effects _ _ _ _ _ _ _ _ _ _ P)|apply shares_named|].
  rewrite (sy_eff _ _ _ _ _ _ _ _ _ _ P). intros _. apply PL.
Qed.

Lemma listing_all : forall {A} (own : emodel -> list A),
  Permutation (listed (by_label own (map co_tree cos)) ++ listed (by_label own (map fst bos)) ++ listed (em_listing own em))
              (flat_map own (flat_map flat (bs_roots b))).
Proof.
  intros A own. rewrite !roots_listing.
  - destruct effects_shaped as [T S]. rewrite (listing_flat own em T S). unfold bs_roots. cbn [b bs_effects bs_comps bs_buses flat_map].
    rewrite !flat_map_app. rewrite app_assoc. apply Permutation_app_comm.
  - erewrite map_ext_in; [rewrite (bus_labels_eq _ _ _ _ _ _ _ _ _ _ P); apply bus_labels_nodup|]. reflexivity.
  - exact buses_shaped.
  - rewrite map_map. rewrite (comp_labels _ _ _ _ _ _ _ _ _ _ P). destruct PL as [[N _] _]. exact N.
  - exact comps_shaped.
Qed.

Lemma listing_placed : forall p m, placed b p m -> extract (variable_listing b) p = Some (em_listing em_vars m) /\ tidy m /\ shaped True m.
Proof.
  intros p m H. induction H as [co Hc| |m Hm|p m s Hp IH Hs]; unfold b in *; cbn [bs_comps bs_buses bs_effects] in *.
  - split.
    + unfold variable_listing, by_label. cbn [extract]. rewrite sget_cons. cbn [String.eqb Ascii.eqb Bool.eqb extract bs_comps].
      assert (N : NoDup (map fst (map (fun m => (em_label m, em_listing em_vars m)) (map co_tree cos)))).
      { rewrite !map_map. cbn [fst]. rewrite (comp_labels _ _ _ _ _ _ _ _ _ _ P). destruct PL as [[N _] _]. exact N. }
      rewrite str_dict_nodup by exact N.
      erewrite In_sget; [reflexivity|exact N|apply in_map_iff; exists (co_tree co); split; [reflexivity|apply in_map; exact Hc]].
    + pose proof comps_shaped as F. rewrite Forall_forall in F. apply F. apply in_map. exact Hc.
  - split; [reflexivity|apply effects_shaped].
  - split.
    + unfold variable_listing, by_label. cbn [extract]. rewrite !sget_cons. cbn [String.eqb Ascii.eqb Bool.eqb extract bs_buses].
      assert (N : NoDup (map fst (map (fun m => (em_label m, em_listing em_vars m)) (map fst bos)))).
      { rewrite map_map. cbn [fst]. rewrite (bus_labels_eq _ _ _ _ _ _ _ _ _ _ P). apply bus_labels_nodup. }
      rewrite str_dict_nodup by exact N.
      erewrite In_sget; [reflexivity|exact N|apply in_map_iff; exists m; split; [reflexivity|exact Hm]].
    + pose proof buses_shaped as F. rewrite Forall_forall in F. apply F. exact Hm.
  - destruct IH as [E [T S]]. split; [|split; [eapply tidy_subs; [exact T|exact Hs]|inversion S as [? ? ? ? ? _ SS]; subst; apply (SS s Hs)]].
    rewrite extract_app, E. destruct T as [f l vs cs subs N _]. inversion S as [? ? ? ? ? _ SS]; subst. cbn [em_subs] in Hs. cbn [em_listing extract].
    assert (ND : NoDup (map fst (("_self"%string, Leaf (em_vars (EM f l vs cs subs))) :: map (fun s => (em_label s, em_listing em_vars s)) subs))).
    { cbn [map fst]. rewrite map_map. constructor.
      - intros H. apply in_map_iff in H. destruct H as [k [E' H]]. cbn [fst] in E'. apply (proj1 (SS k H) Logic.I). exact E'.
      - apply NoDup_app_both in N. destruct N as [_ N]. exact N. }
    rewrite str_dict_nodup by exact ND.
    erewrite In_sget; [reflexivity|exact ND|right; apply in_map_iff; exists s; split; [reflexivity|exact Hs]].
Qed.
Lemma self_first : forall m, tidy m -> shaped True m -> extract (em_listing em_vars m) ["_self"%string] = Some (Leaf (em_vars m)).
Proof.
  intros m T S. destruct T as [f l vs cs subs N _]. inversion S as [? ? ? ? ? _ SS]; subst. cbn [em_listing extract].
  assert (ND : NoDup (map fst (("_self"%string, Leaf (em_vars (EM f l vs cs subs))) :: map (fun s => (em_label s, em_listing em_vars s)) subs))).
  { cbn [map fst]. rewrite map_map. constructor.
    - intros H. apply in_map_iff in H. destruct H as [k [E' H]]. cbn [fst] in E'. apply (proj1 (SS k H) Logic.I). exact E'.
    - apply NoDup_app_both in N. destruct N as [_ N]. exact N. }
  rewrite str_dict_nodup by exact ND. reflexivity.
Qed.
Lemma var_under : forall p m v, placed b p m -> In v (em_vars m) -> listed_under b (p ++ ["_self"%string]) (v_label v).
Proof.
  intros p m v H Hv. destruct (listing_placed p m H) as [E [T S]]. exists (em_vars m). split; [|apply in_map; exact Hv].
  rewrite extract_app, E. apply self_first; assumption.
Qed.
End Listing.

(** ** C80 *)
Theorem C80_sizes : forall cf ord fs idx b pm, build_system cf ord fs idx = Ok b -> build cf ord fs idx = Ok pm ->
  exists s, system_size b = Ok s /\ sizes_right pm s
    /\ exists cs, system_constraints (bs_roots b) = Ok cs /\ ms_ineqs s = count (fun c => match c_kind c with KIneq => true | _ => false end) cs
         /\ (ms_eqs s + ms_ineqs s)%nat = List.length cs.
Proof.
  intros cf ord fs idx b pm Hb Hp. destruct (build_parts _ _ _ _ _ Hp) as [cx [cos [bos [em [obj P]]]]].
  rewrite (sy_build _ _ _ _ _ _ _ _ _ _ P) in Hb. apply Ok_inj in Hb. subst b.
  pose proof (sy_translate _ _ _ _ _ _ _ _ _ _ P) as T. unfold system_translate in T. bnd T vs Ev. bnd T cs Ec.
  unfold system_size. unfold bs_roots. cbn [bs_effects bs_comps bs_buses]. rewrite Ev, Ec. cbn [bind]. eexists. split; [reflexivity|].
  assert (RG : Forall ranged vs).
  { destruct (system_translate_vars _ _ Ev) as [_ PV]. rewrite Forall_forall. intros v Hv. apply (Permutation_in _ PV) in Hv.
    apply in_flat_map in Hv. destruct Hv as [m [Hm Hv]]. apply in_flat_map in Hm. destruct Hm as [d [Hd Hm]].
    assert (SD : shaped False d).
    { destruct Hd as [<-|Hd].
      - eapply shaped_effects; [apply (sy_effects _ _ _ _ _ _ _ _ _ _ P)|eapply shares_named; exact P|intros []].
      - apply in_app_or in Hd. destruct Hd as [Hd|Hd].
        + apply in_map_iff in Hd. destruct Hd as [co [<- Hc]].
          destruct (Forall2_In_r _ _ _ _ (sy_comps _ _ _ _ _ _ _ _ _ _ P) Hc) as [c [Hcc [o1 [p1 [s1 Q]]]]].
          eapply shaped_comp; [exact Q|intros f; reflexivity|intros []].
        + apply in_map_iff in Hd. destruct Hd as [bo [<- Hb]].
          destruct (Forall2_In_r _ _ _ _ (sy_buses _ _ _ _ _ _ _ _ _ _ P) Hb) as [c [_ [i [o [_ [_ Q]]]]]]. exact (shaped_bus _ _ _ _ _ _ Q). }
    clear -SD Hm Hv. revert SD Hm. apply (emodel_ind' (fun d => shaped False d -> In m (flat d) -> ranged v)).
    intros f l w c subs IH S H. inversion S as [? ? ? ? ? RR SS]; subst. cbn [flat] in H. destruct H as [<-|H].
    - cbn [em_vars] in Hv. rewrite Forall_forall in RR. apply RR. exact Hv.
    - apply in_flat_map in H. destruct H as [k [Hk H]]. rewrite Forall_forall in IH. apply (IH k Hk); [apply (SS k Hk)|exact H]. }
  unfold translate_model in T. bnd T pvs Epv. bnd T e1 Ee1. bnd T e2 Ee2. bnd T o Eo. apply Ok_inj in T. subst pm.
  assert (K1 : Forall (fun r => r_eq r = true) (List.concat e1)).
  { eapply concat_kind; [exact Ee1|]. intros c Hc. apply filter_In in Hc. exact (proj2 Hc). }
  assert (K2 : Forall (fun r => r_eq r = false) (List.concat e2)).
  { eapply concat_kind; [exact Ee2|]. intros c Hc. apply filter_In in Hc. unfold is_equation. destruct (c_kind c); try reflexivity; destruct Hc; discriminate. }
  assert (L1 : ms_single_eqs (size_of vs cs) = List.length (List.concat e1)) by (rewrite (concat_len _ _ Ee1); reflexivity).
  assert (L2 : ms_single_ineqs (size_of vs cs) = List.length (List.concat e2)) by (rewrite (concat_len _ _ Ee2); reflexivity).
  split; [|exists cs; split; [reflexivity|split; [reflexivity|]]].
  2:{ cbn [size_of ms_eqs ms_ineqs]. clear. induction cs as [|c l IH]; [reflexivity|]. cbn [filter]. unfold is_equation at 1, is_ineq at 1. destruct (c_kind c); cbn [List.length]; lia. }
  constructor; cbn [pm_vars pm_rows].
  - apply mapM_length in Epv. rewrite Epv. reflexivity.
  - cbn [size_of ms_single_vars]. apply mapM_Forall2 in Epv. clear -Epv. induction Epv as [|v p vs ps H _ IH]; [reflexivity|].
    cbn [map total fold_right nr_of_single_variables]. destruct (variable_out _ _ H) as [_ ->]. f_equal. exact IH.
  - cbn [size_of ms_ts_vars]. apply mapM_Forall2 in Epv. clear -Epv RG. unfold count. induction Epv as [|v p vs ps H _ IH]; [reflexivity|].
    inversion RG as [|? ? R RR]; subst. cbn [filter]. destruct (variable_out _ _ H) as [_ ->]. rewrite <- R. destruct (v_ts v); cbn [List.length]; rewrite IH by exact RR; reflexivity.
  - rewrite L1, count_app, (count_all _ _ K1), (count_none _ _ K2). lia.
  - rewrite L2, count_app. rewrite count_none, count_all; [reflexivity| |].
    + eapply Forall_impl; [|exact K2]. cbn. intros r ->. reflexivity.
    + eapply Forall_impl; [|exact K1]. cbn. intros r ->. reflexivity.
  - rewrite L1, L2, app_length. reflexivity.
Qed.
Print Assumptions C80_sizes.

(** What C80 promises about the listings. *)
Definition C80_full : Prop := forall cf ord fs idx b pm, build_system cf ord fs idx = Ok b -> build cf ord fs idx = Ok pm -> complete_listing b pm.

Theorem C80_listing_partial : forall cf ord fs idx b pm, build_system cf ord fs idx = Ok b -> build cf ord fs idx = Ok pm -> plain_listing fs ->
  complete_listing b pm
  /\ (forall c f, In c (fs_comps fs) -> In f (cp_flows c) ->
        listed_under b ["Components"; cp_label c; f_lab f; "_self"]%string (vlabel (flow_name c f) "flow_rate"))
  /\ (forall bs, In bs (buses ord fs) -> b_penalty bs <> None ->
        listed_under b ["Buses"; b_lab bs; "_self"]%string (vlabel (b_lab bs) "excess_input")).
Proof.
  intros cf ord fs idx b pm Hb Hp PL. destruct (build_parts _ _ _ _ _ Hp) as [cx [cos [bos [em [obj P]]]]].
  rewrite (sy_build _ _ _ _ _ _ _ _ _ _ P) in Hb. apply Ok_inj in Hb. subst b.
  split; [|split].
  - pose proof (sy_translate _ _ _ _ _ _ _ _ _ _ P) as T. unfold system_translate in T. bnd T vs Ev. bnd T cs Ec.
    destruct (system_translate_vars _ _ Ev) as [_ PV]. destruct (system_translate_cons _ _ Ec) as [_ PC].
    unfold translate_model in T. bnd T pvs Epv. bnd T e1 Ee1. bnd T e2 Ee2. bnd T o Eo. apply Ok_inj in T. subst pm.
    constructor; cbn [pm_vars pm_rows pm_obj bs_obj].
    + replace (map pv_label pvs) with (map v_label vs).
      2: { apply mapM_Forall2 in Epv. clear -Epv. induction Epv as [|v p vs ps H _ IH]; [reflexivity|]. cbn [map]. rewrite IH. f_equal. symmetry. apply (variable_out _ _ H). }
      apply Permutation_map. eapply perm_trans; [|apply Permutation_sym; exact PV].
      eapply perm_trans; [|exact (listing_all _ _ _ _ _ _ _ _ _ _ P PL em_vars)].
      unfold variable_listing. cbn [listed flat_map bs_comps bs_buses bs_effects]. rewrite app_nil_r. apply Permutation_refl.
    + pose (eqs := filter (fun c : constraint => match c_kind c with KIneq => false | _ => true end) cs).
      pose (ins := filter (fun c : constraint => match c_kind c with KIneq => true | _ => false end) cs).
      exists (eqs ++ ins), (e1 ++ e2). split; [|split; [|split; [rewrite concat_app; apply Permutation_refl|exact Eo]]].
      * assert (PF : Permutation (eqs ++ ins) cs).
        { subst eqs ins. clear. induction cs as [|c cs IH]; [constructor|]. cbn [filter]. destruct (c_kind c); cbn [app].
          - constructor; exact IH.
          - eapply perm_trans; [apply Permutation_sym, Permutation_middle|]. constructor; exact IH.
          - constructor; exact IH. }
        eapply perm_trans; [|constructor; apply Permutation_sym; exact PF].
        eapply perm_trans; [|constructor; apply Permutation_sym; exact PC].
        eapply perm_trans; [|constructor; exact (listing_all _ _ _ _ _ _ _ _ _ _ P PL em_cons)].
        unfold constraint_listing. cbn [listed flat_map bs_comps bs_buses bs_effects bs_obj app]. rewrite app_nil_r.
        rewrite app_assoc. rewrite (app_assoc (listed (by_label em_cons (map co_tree cos)))). apply Permutation_sym, Permutation_middle.
      * subst eqs ins. clear -Ee1 Ee2. revert e1 e2 Ee1 Ee2. generalize (filter (fun c : constraint => match c_kind c with KIneq => true | _ => false end) cs) as m.
        generalize (filter (fun c : constraint => match c_kind c with KIneq => false | _ => true end) cs) as l. clear.
        induction l as [|c l IH]; intros m e1 e2 H1 H2; cbn [mapM app] in *.
        -- apply Ok_inj in H1. subst e1. exact H2.
        -- bnd H1 a Ea. bnd H1 r Er. apply Ok_inj in H1. subst e1. rewrite Ea. cbn [bind]. rewrite (IH _ _ _ Er H2). reflexivity.
  - intros c f Hc Hf. destruct (flow_placed _ _ _ _ _ _ _ _ _ _ P c f Hc Hf) as [fo [M PF]].
    destruct (flow_shape_ok _ _ _ _ _ (sy_ok _ _ _ _ _ _ _ _ _ _ P) M) as [S _]. destruct (fn_rate _ _ (tidy_flow _ _ _ _ _ M)) as [T1 _].
    pose proof (fs_label _ _ _ _ S) as L. change (vlabel (flow_name c f) "flow_rate") with (vlabel (flow_full (cp_label c) (f_lab (effective cf fs idx c f))) "flow_rate").
    rewrite <- L. exact (var_under _ _ _ _ _ _ _ _ _ _ P PL ["Components"; cp_label c; f_lab f]%string _ _ PF T1).
  - intros bs Hbs HP. destruct (Forall2_In_l _ _ _ _ (sy_buses _ _ _ _ _ _ _ _ _ _ P) Hbs) as [bo [Hbo [i [o [_ [_ Q]]]]]].
    destruct (tidy_bus _ _ _ _ _ Q) as [_ [L X]]. destruct (b_penalty bs); [|congruence]. destruct X as [_ [ei [eo [V [_ [E _]]]]]].
    rewrite <- E, <- L. apply (var_under _ _ _ _ _ _ _ _ _ _ P PL ["Buses"; em_label (fst bo)]%string (fst bo) ei); [|rewrite V; left; reflexivity].
    apply pl_bus. cbn [bs_buses]. apply in_map. exact Hbo.
Qed.
Print Assumptions C80_listing_partial.

(** A flow called "OnOff" in a component with on/off rules: the listing shows the rules instead of the flow. *)
Definition fs_lost : flow_system :=
  mkFS [0; 1; 2] 3 (NS 1) [costs]
    [mkComponent "Src" [] [set_prev (Some (NS 0)) (set_size_ (SzNum (Some 10)) (flow0 160 "OnOff" gas))] (Some unit_oo) [] Plain;
     Library.sink "Sink" (set_size_ (SzNum (Some 10)) (flow0 161 "Q" gas))].
Theorem C80_refuted : ~ C80_full.
Proof.
  intros F.
  assert (C : match build_system default_config id_ord fs_lost None, build default_config id_ord fs_lost None with
              | Ok b, Ok pm => Nat.eqb (List.length (listed (variable_listing b))) (List.length (pm_vars pm))
              | _, _ => true end = false) by (vm_compute; reflexivity).
  destruct (build_system default_config id_ord fs_lost None) as [b|] eqn:B; [|discriminate].
  destruct (build default_config id_ord fs_lost None) as [pm|] eqn:M; [|discriminate].
  destruct (F _ _ _ _ _ _ B M) as [V _]. apply Permutation_length in V. rewrite !map_length in V. rewrite V, Nat.eqb_refl in C. discriminate.
Qed.
Print Assumptions C80_refuted.

(** ** The line printed for a constraint *)

(** A summand that is shown stands for a block of terms of the row: for itself, or, with dots, for a sum that starts with it. *)
Definition stands_for (w : shown) (block : list term) : Prop :=
  hd_error block = Some (sw_factor w, sw_var w, sw_index w) /\ (sw_dots w = None -> List.length block = 1%nat).
(** Sums run over a whole variable. *)
Definition whole_sums (c : constraint) : Prop :=
  forall s, In s (c_summands c) -> s_sum s = true -> exists n, s_idx s = seq 0 (S n).

Theorem C80_shown : forall c r rest, translate_constraint c = Ok (r :: rest) -> whole_sums c ->
  exists d blocks, describe_constraint c 0 = Ok d
    /\ sr_label d = c_label c /\ sr_nr d = 1%nat /\ sr_of d = List.length (r :: rest)
    /\ sr_const d = r_rhs r /\ sr_equals d = r_eq r
    /\ Forall2 stands_for (sr_summands d) blocks /\ r_terms r = List.concat blocks.
Proof.
  intros c r rest H W. destruct (constraint_out _ _ H) as [N _]. unfold translate_constraint in H. bnd H cv Ecv.
  destruct (c_len c) as [|n] eqn:L; [cbn in N; discriminate|]. cbn [seq mapM] in H. bnd H r0 Er. bnd H rs Ers. apply Ok_inj in H.
  apply (f_equal (fun l => hd r0 l)) in H. cbn [hd] in H. subst r0. bnd Er ts Et. bnd Er rhs Erhs. bnd Er u Eu. apply Ok_inj in Er. subst r.
  unfold lhs_terms in Et. bnd Et blocks Eb. apply Ok_inj in Et. subst ts. cbn [r_terms r_rhs r_eq].
  assert (S : exists ss, mapM (fun s => describe_summand s 0) (c_summands c) = Ok ss /\ Forall2 stands_for ss blocks).
  { clear -Eb W. unfold whole_sums in W. revert blocks Eb W. induction (c_summands c) as [|s l IH]; intros blocks Eb W; cbn [mapM] in Eb.
    - apply Ok_inj in Eb. subst blocks. exists []. split; [reflexivity|constructor].
    - bnd Eb t Et. bnd Eb q Eq_. apply Ok_inj in Eb. subst blocks.
      destruct (IH _ Eq_ (fun s' Hs => W s' (or_intror Hs))) as [ss [E1 E2]].
      assert (D : exists w, describe_summand s 0 = Ok w /\ stands_for w t).
      { unfold summand_terms in Et. unfold describe_summand. destruct (s_sum s) eqn:SS.
        - destruct (W s (or_introl eq_refl) SS) as [n Ei]. rewrite Ei in *. cbn [seq mapM nth_error of_option bind] in *.
          bnd Et t0 E0. bnd Et tr Etr. apply Ok_inj in Et. subst t. bnd E0 j Ej. bnd E0 qq Eqq. apply Ok_inj in E0. subst t0. rewrite Eqq. cbn [bind].
          eexists. split; [reflexivity|]. unfold pv_index in Ej. destruct (Nat.ltb 0 (v_len (s_var s))); [|discriminate]. apply Ok_inj in Ej. subst j.
          split; [reflexivity|discriminate].
        - assert (Z : (if Nat.eqb (s_len s) 1 then 0%nat else 0%nat) = 0%nat) by (destruct (Nat.eqb (s_len s) 1); reflexivity). rewrite Z.
          assert (T : exists a, t = [a] /\ (ix <- of_option IndexError (nth_error (s_idx s) 0) ;; j <- pv_index (s_var s) ix ;;
                     q0 <- of_option IndexError (nth_error (s_fvec s) 0) ;; Ok (q0, v_label (s_var s), j)) = Ok a).
          { destruct (Nat.eqb (s_len s) 1); [|destruct (Nat.eqb (Datatypes.length (s_idx s)) 1)]; bnd Et a Ea; apply Ok_inj in Et; subst t; exists a; split; (reflexivity || exact Ea). }
          destruct T as [a [-> Ea]]. bnd Ea ix Ei. bnd Ea j Ej. bnd Ea qq Eqq. apply Ok_inj in Ea. subst a. rewrite Ei, Eqq. cbn [bind].
          eexists. split; [reflexivity|]. unfold pv_index in Ej. destruct (Nat.ltb ix (v_len (s_var s))); [|discriminate]. apply Ok_inj in Ej. subst j.
          split; [reflexivity|intros _; reflexivity]. }
      destruct D as [w [D1 D2]]. exists (w :: ss). split; [cbn [mapM]; rewrite D1; cbn [bind]; rewrite E1; reflexivity|constructor; assumption]. }
  destruct S as [ss [S1 S2]]. unfold describe_constraint. rewrite L. cbn [Nat.min]. rewrite S1. cbn [bind]. rewrite Ecv. cbn [bind]. rewrite Erhs. cbn [bind].
  eexists. exists blocks. split; [reflexivity|]. cbn [sr_label sr_nr sr_of sr_const sr_equals sr_summands]. repeat split; auto.
Qed.
Print Assumptions C80_shown.

(** The line for any row of a constraint, if it has no sums and summands with one variable index have one factor. *)
Definition row_by_row (c : constraint) : Prop :=
  forall s, In s (c_summands c) -> s_sum s = false /\ (s_len s = 1%nat \/ List.length (s_idx s) <> 1%nat).
Theorem C80_shown_rows : forall c rows k r, translate_constraint c = Ok rows -> nth_error rows k = Some r -> row_by_row c ->
  exists d, describe_constraint c k = Ok d
    /\ sr_label d = c_label c /\ sr_nr d = S k /\ sr_of d = List.length rows /\ sr_const d = r_rhs r /\ sr_equals d = r_eq r
    /\ r_terms r = map (fun w => (sw_factor w, sw_var w, sw_index w)) (sr_summands d).
Proof.
  intros c rows k r H R W. destruct (constraint_out _ _ H) as [N _]. assert (K : (k < c_len c)%nat) by (rewrite <- N; apply nth_error_Some; congruence).
  unfold translate_constraint in H. bnd H cv Ecv.
  assert (Ek : nth_error (seq 0 (c_len c)) k = Some k) by (rewrite (nth_error_nth' _ 0%nat) by (rewrite seq_length; exact K); rewrite seq_nth by exact K; reflexivity).
  destruct (mapM_nth _ _ _ _ _ H Ek) as [r0 [Er R0]]. rewrite R in R0. injection R0 as <-. bnd Er ts Et. bnd Er rhs Erhs. bnd Er u Eu. apply Ok_inj in Er. subst r.
  unfold lhs_terms in Et. bnd Et blocks Eb. apply Ok_inj in Et. subst ts. cbn [r_terms r_rhs r_eq].
  assert (D : exists ss, mapM (fun s => describe_summand s k) (c_summands c) = Ok ss /\ List.concat blocks = map (fun w => (sw_factor w, sw_var w, sw_index w)) ss).
  { clear -Eb W. unfold row_by_row in W. revert blocks Eb W. induction (c_summands c) as [|s l IH]; intros blocks Eb W; cbn [mapM] in Eb.
    - apply Ok_inj in Eb. subst blocks. exists []. split; reflexivity.
    - bnd Eb t Et. bnd Eb q Eq_. apply Ok_inj in Eb. subst blocks. destruct (IH _ Eq_ (fun s' Hs => W s' (or_intror Hs))) as [ss [E1 E2]].
      assert (D : exists w, describe_summand s k = Ok w /\ t = [(sw_factor w, sw_var w, sw_index w)]).
      { destruct (W s (or_introl eq_refl)) as [SS ONE]. unfold summand_terms in Et. unfold describe_summand. rewrite SS in *.
        assert (T : exists a, t = [a] /\ (ix <- of_option IndexError (nth_error (s_idx s) (if Nat.eqb (s_len s) 1 then 0 else k)) ;; j <- pv_index (s_var s) ix ;;
                   q0 <- of_option IndexError (nth_error (s_fvec s) (if Nat.eqb (s_len s) 1 then 0 else k)) ;; Ok (q0, v_label (s_var s), j)) = Ok a).
        { destruct (Nat.eqb (s_len s) 1) eqn:S1; [|destruct (Nat.eqb (Datatypes.length (s_idx s)) 1) eqn:S2].
          - bnd Et a Ea. apply Ok_inj in Et. subst t. exists a. split; [reflexivity|exact Ea].
          - exfalso. apply Nat.eqb_neq in S1. apply Nat.eqb_eq in S2. destruct ONE; contradiction.
          - bnd Et a Ea. apply Ok_inj in Et. subst t. exists a. split; [reflexivity|exact Ea]. }
        destruct T as [a [-> Ea]]. bnd Ea ix Ei. bnd Ea j Ej. bnd Ea qq Eqq. apply Ok_inj in Ea. subst a. cbv zeta. rewrite Ei, Eqq. cbn [bind].
        eexists. split; [reflexivity|]. unfold pv_index in Ej. destruct (Nat.ltb ix (v_len (s_var s))); [|discriminate]. apply Ok_inj in Ej. subst j. reflexivity. }
      destruct D as [w [D1 D2]]. exists (w :: ss). split; [cbn [mapM]; rewrite D1; cbn [bind]; rewrite E1; reflexivity|]. cbn [List.concat map]. rewrite D2, E2. reflexivity. }
  destruct D as [ss [S1 S2]]. unfold describe_constraint. replace (Nat.min k (c_len c - 1)) with k by lia. cbv zeta. rewrite S1. cbn [bind]. rewrite Ecv. cbn [bind]. rewrite Erhs. cbn [bind].
  eexists. split; [reflexivity|]. cbn [sr_label sr_nr sr_of sr_const sr_equals sr_summands]. split; [reflexivity|]. split; [lia|]. split; [symmetry; exact N|]. split; [reflexivity|]. split; [reflexivity|exact S2].
Qed.
Print Assumptions C80_shown_rows.
Example C80_shown_rows_nonvacuous : exists c rows r d, translate_constraint c = Ok rows /\ nth_error rows 2 = Some r /\ row_by_row c /\ describe_constraint c 2 = Ok d
  /\ r_terms r = [(5, "a"%string, 2%nat); (-1, "a"%string, 0%nat)] /\ sr_const d = 9.
Proof.
  pose (v := mkVariable "a" "a" 3 false None None None true None).
  pose (c := match build_constraint KIneq "sum" "sum" [AddS v (NV [3; 4; 5]) None false; AddS v (NS (-1)) (Some [0%nat]) false; AddC (NV [7; 8; 9])] with
             | Ok c => c | Err _ => new_constraint KEq "" "" end).
  exists c. do 3 eexists. split; [vm_compute; reflexivity|]. split; [reflexivity|]. split; [|vm_compute; repeat split].
  intros s [<-|[<-|[]]]; (split; [reflexivity|]); [right; discriminate|left; reflexivity].
Qed.

(** ** The theorems apply *)
Lemma plain_fs0 : plain_listing fs0.
Proof.
  split; [|split].
  - split; [|split; [|split]].
    1-2: repeat constructor; cbn; intuition discriminate.
    + cbn; intuition discriminate.
    + intros c f Hc Hf. cbv [fs0 fs_comps In] in Hc.
      repeat (destruct Hc as [<-|Hc]; [cbn [cp_flows cp_in cp_out boiler sto demand grid app In] in Hf;
        repeat (destruct Hf as [<-|Hf]; [cbn; intuition discriminate|]); destruct Hf|]); destruct Hc.
  - cbn; intuition discriminate.
  - intros c f Hc Hf. cbv [fs0 fs_comps In] in Hc.
    repeat (destruct Hc as [<-|Hc]; [cbn [cp_flows cp_in cp_out boiler sto demand grid app In] in Hf;
      repeat (destruct Hf as [<-|Hf]; [cbn; discriminate|]); destruct Hf|]); destruct Hc.
Qed.
Example C80_nonvacuous : exists b pm s, build_system default_config id_ord fs0 None = Ok b /\ build default_config id_ord fs0 None = Ok pm
  /\ complete_listing b pm /\ system_size b = Ok s /\ sizes_right pm s
  /\ listed_under b ["Components"; "Boiler"; "Q_th"; "_self"]%string "Boiler__Q_th_flow_rate"
  /\ (50 < List.length (listed (variable_listing b)))%nat /\ (60 < List.length (listed (constraint_listing b)))%nat.
Proof.
  assert (C : match build_system default_config id_ord fs0 None, build default_config id_ord fs0 None with
              | Ok b, Ok pm => (Nat.ltb 50 (List.length (listed (variable_listing b))) && Nat.ltb 60 (List.length (listed (constraint_listing b))))%bool
              | _, _ => false end = true) by (vm_compute; reflexivity).
  destruct (build_system default_config id_ord fs0 None) as [b|] eqn:B; [|discriminate].
  destruct (build default_config id_ord fs0 None) as [pm|] eqn:M; [|discriminate].
  apply andb_true_iff in C. destruct C as [C1 C2]. apply Nat.ltb_lt in C1. apply Nat.ltb_lt in C2.
  destruct (C80_sizes _ _ _ _ _ _ B M) as [s [S1 [S2 _]]]. destruct (C80_listing_partial _ _ _ _ _ _ B M plain_fs0) as [L [U _]].
  exists b, pm, s. split; [reflexivity|]. split; [reflexivity|]. split; [exact L|]. split; [exact S1|]. split; [exact S2|]. split; [|split; assumption].
  exact (U boiler q_th ltac:(cbn; tauto) ltac:(cbn; tauto)).
Qed.
Example C80_shown_nonvacuous : exists c r rest d, translate_constraint c = Ok (r :: rest) /\ whole_sums c /\ describe_constraint c 0 = Ok d
  /\ List.length (r_terms r) = 4%nat /\ List.length (sr_summands d) = 2%nat /\ r_rhs r = 7.
Proof.
  pose (v := mkVariable "a" "a" 3 false None None None true None).
  pose (c := match build_constraint KIneq "sum" "sum" [AddS v (NS 2) None true; AddS v (NS (-1)) (Some [1%nat]) false; AddC (NS 7)] with
             | Ok c => c | Err _ => new_constraint KEq "" "" end).
  exists c. do 3 eexists. split; [vm_compute; reflexivity|]. split; [|vm_compute; repeat split].
  intros s [<-|[<-|[]]] E; [exists 2%nat; vm_compute; reflexivity|vm_compute in E; discriminate].
Qed.
