(** C57, C58: the program handed to the solver describes exactly the plans that obey the rules of the elements, and its
    optimum is the cheapest of them. *)
From Coq Require Import String Ascii Permutation.
From Verif Require Import Base BaseFacts MathModel Spec Structure Params Features Elements Library System SysSpec
  AdmitSpec Example ExamplePoints PropsFlow PropsOnOff PropsComp PropsEffects PlanSpec PlanSys PlanSound PlanSame PlanCheck.

(** ** C57 *)

(** Whatever the values [x] of the quantities of a plan: the program admits this plan, with some values of its auxiliary
    variables, exactly if the plan obeys every rule of every element. *)
Theorem C57_plans : forall cf ord fs idx pm x, (forall l, Permutation (ord l) l) -> build cf ord fs idx = Ok pm -> sensible cf fs idx ->
  (obeys cf fs idx x <-> exists y, same_plan cf fs idx x y /\ feasible pm y).
Proof.
  intros cf ord fs idx pm x PO B SE. split; [intros O; exact (plan_completes _ _ _ _ _ _ PO B SE O)|].
  intros [y [SP F]]. pose proof (plan_sound _ _ _ _ _ _ PO B SE F) as O. pose proof (se_steps _ _ _ SE) as N.
  assert (N1 : (1 <= steps fs idx)%nat) by lia.
  exact (obeys_same cf fs idx y x (same_plan_sym _ _ _ _ _ SP) N1 (losses_governed _ _ _ _ _ _ B F (se_shape _ _ _ SE)) O).
Qed.
Print Assumptions C57_plans.

(** In particular every solution is a plan obeying the rules. *)
Theorem C57_solutions : forall cf ord fs idx pm x, (forall l, Permutation (ord l) l) -> build cf ord fs idx = Ok pm -> sensible cf fs idx ->
  feasible pm x -> obeys cf fs idx x.
Proof. exact plan_sound. Qed.
Print Assumptions C57_solutions.

(** ** C58 *)

(** What the user minimises: the totals of the objective effect [e] and the penalty. *)
Definition plan_cost (x : asg) (e : effect) : Q := op_sum x e + inv_sum x e + penalty_sum x.

Lemma same_cost : forall cf fs idx x y e, same_plan cf fs idx x y -> In e (fs_effects fs) -> plan_cost y e == plan_cost x e.
Proof.
  intros cf fs idx x y e SP He. destruct (sp_effect _ _ _ _ _ SP e He) as [_ [E1 [E2 _]]]. unfold plan_cost. rewrite E1, E2, (sp_penalty _ _ _ _ _ SP). reflexivity.
Qed.

(** A solution is optimal for the program exactly if it is, as a plan, at least as cheap as every plan obeying the rules. *)
Theorem C58_optimum : forall cf ord fs idx pm x, (forall l, Permutation (ord l) l) -> build cf ord fs idx = Ok pm -> sensible cf fs idx -> feasible pm x ->
  exists e, find e_obj (fs_effects fs) = Some e
    /\ ((forall y, feasible pm y -> objective_value pm x <= objective_value pm y)
        <-> (forall y, obeys cf fs idx y -> plan_cost x e <= plan_cost y e)).
Proof.
  intros cf ord fs idx pm x PO B SE F. destruct (C21_objective cf ord fs idx pm x B) as [e [Fe Ox]]. exists e. split; auto.
  assert (OV : forall y, objective_value pm y == plan_cost y e).
  { intros y. destruct (C21_objective cf ord fs idx pm y B) as [e' [Fe' Oy]]. assert (e' = e) by congruence. subst e'. exact Oy. }
  pose proof (find_some _ _ Fe) as [He _]. split.
  - intros M y Oy. destruct (plan_completes _ _ _ _ _ _ PO B SE Oy) as [z [SP Fz]]. rewrite <- (same_cost _ _ _ _ _ _ SP He). rewrite <- !OV. auto.
  - intros M y Fy. rewrite !OV. apply M. exact (plan_sound _ _ _ _ _ _ PO B SE Fy).
Qed.
Print Assumptions C58_optimum.

(** The program has a solution exactly if some plan obeys the rules; and the costs that plans obeying the rules can have
    are the objective values of the solutions. *)
Theorem C58_solvable : forall cf ord fs idx pm, (forall l, Permutation (ord l) l) -> build cf ord fs idx = Ok pm -> sensible cf fs idx ->
  ((exists y, feasible pm y) <-> (exists x, obeys cf fs idx x))
  /\ exists e, find e_obj (fs_effects fs) = Some e
       /\ forall q, (exists y, feasible pm y /\ objective_value pm y == q) <-> (exists x, obeys cf fs idx x /\ plan_cost x e == q).
Proof.
  intros cf ord fs idx pm PO B SE. split.
  - split; intros [x O]; [exists x; exact (plan_sound _ _ _ _ _ _ PO B SE O)|]. destruct (plan_completes _ _ _ _ _ _ PO B SE O) as [y [_ F]]. eauto.
  - destruct (C21_objective cf ord fs idx pm (fun _ _ => 0) B) as [e [Fe _]]. exists e. split; auto.
    assert (OV : forall y, objective_value pm y == plan_cost y e).
    { intros y. destruct (C21_objective cf ord fs idx pm y B) as [e' [Fe' Oy]]. assert (e' = e) by congruence. subst e'. exact Oy. }
    pose proof (find_some _ _ Fe) as [He _]. intros q. split; intros [x [O Q]].
    + exists x. split; [exact (plan_sound _ _ _ _ _ _ PO B SE O)|]. rewrite <- OV. exact Q.
    + destruct (plan_completes _ _ _ _ _ _ PO B SE O) as [y [SP F]]. exists y. split; auto. rewrite OV, (same_cost _ _ _ _ _ _ SP He). exact Q.
Qed.
Print Assumptions C58_solvable.

(** ** Examples *)

(** The names of the quantities of a plan; [forget] keeps their values and puts 77 everywhere else. *)
Definition plan_labels (cf : config) (fs : flow_system) : list string :=
  flat_map (fun c => flat_map (fun f => [vlabel (flow_name c f) "flow_rate"; oo (flow_name c f) "on"; oo (flow_name c f) "switchOn"]) (cp_flows c)
              ++ [oo (cp_label c) "on"; oo (cp_label c) "switchOn"; vlabel (cp_label c) "charge_state"]) (fs_comps fs)
  ++ flat_map (fun ni : string * invest => [inv (fst ni) "size"; inv (fst ni) "isInvested"]
              ++ map (fun e => vlabel (cat [fst ni; "__"; "SegmentedShares"]) (cat [e_label e; "_segmented"])) (fs_effects fs)) (investments cf fs)
  ++ flat_map (fun b => [vlabel (b_lab b) "excess_input"; vlabel (b_lab b) "excess_output"]) (bus_list fs)
  ++ flat_map (fun e => [vlabel (cat [e_label e; "__"; "operation"]) "operation_sum_TS"; vlabel (cat [e_label e; "__"; "operation"]) "operation_sum";
                         vlabel (cat [e_label e; "__"; "invest"]) "invest_sum"; vlabel (cat [e_label e; "__"; "all"]) "all_sum"]) (fs_effects fs)
  ++ [vlabel "Effects__penalty" "penalty_sum"].
Definition forget (cf : config) (fs : flow_system) (x : asg) : asg := fun l t => if existsb (String.eqb l) (plan_labels cf fs) then x l t else 77.

Lemma forget_keeps : forall cf fs x l t, In l (plan_labels cf fs) -> forget cf fs x l t = x l t.
Proof.
  intros cf fs x l t H. unfold forget. replace (existsb _ _) with true; auto. symmetry. apply existsb_exists. exists l. split; auto. apply String.eqb_refl.
Qed.
Lemma forget_same : forall cf fs idx x, same_plan cf fs idx x (forget cf fs x).
Proof.
  intros cf fs idx x.
  assert (KF : forall c f l t, In c (fs_comps fs) -> In f (cp_flows c) ->
            In l [vlabel (flow_name c f) "flow_rate"; oo (flow_name c f) "on"; oo (flow_name c f) "switchOn"] -> forget cf fs x l t = x l t).
  { intros c f l t Hc Hf Hl. apply forget_keeps. unfold plan_labels. apply in_app_iff. left. apply in_flat_map. exists c. split; auto. apply in_app_iff. left.
    apply in_flat_map. eauto. }
  assert (KC : forall c l t, In c (fs_comps fs) -> In l [oo (cp_label c) "on"; oo (cp_label c) "switchOn"; vlabel (cp_label c) "charge_state"] ->
            forget cf fs x l t = x l t).
  { intros c l t Hc Hl. apply forget_keeps. unfold plan_labels. apply in_app_iff. left. apply in_flat_map. exists c. split; auto. apply in_app_iff. right. auto. }
  assert (KI : forall name iv l t, In (name, iv) (investments cf fs) -> In l ([inv name "size"; inv name "isInvested"]
              ++ map (fun e => vlabel (cat [name; "__"; "SegmentedShares"]) (cat [e_label e; "_segmented"])) (fs_effects fs)) -> forget cf fs x l t = x l t).
  { intros name iv l t Hi Hl. apply forget_keeps. unfold plan_labels. apply in_app_iff. right. apply in_app_iff. left. apply in_flat_map. exists (name, iv). auto. }
  assert (KE : forall e l t, In e (fs_effects fs) -> In l [vlabel (cat [e_label e; "__"; "operation"]) "operation_sum_TS"; vlabel (cat [e_label e; "__"; "operation"]) "operation_sum";
                         vlabel (cat [e_label e; "__"; "invest"]) "invest_sum"; vlabel (cat [e_label e; "__"; "all"]) "all_sum"] -> forget cf fs x l t = x l t).
  { intros e l t He Hl. apply forget_keeps. unfold plan_labels. do 3 (apply in_app_iff; right). apply in_app_iff. left. apply in_flat_map. eauto. }
  assert (KB : forall b l t, used_bus fs b -> In l [vlabel (b_lab b) "excess_input"; vlabel (b_lab b) "excess_output"] -> forget cf fs x l t = x l t).
  { intros b l t Ub Hl. apply used_bus_list in Ub. apply forget_keeps. unfold plan_labels. do 2 (apply in_app_iff; right). apply in_app_iff. left. apply in_flat_map. eauto. }
  constructor.
  - intros c f t Hc Hf Ht. unfold rate_of. rewrite (KF c f) by (simpl; auto). reflexivity.
  - intros c f t Hc Hf G Ht. unfold on_of. rewrite !(KF c f) by (simpl; auto). split; reflexivity.
  - intros c t Hc G Ht. rewrite !(KC c) by (simpl; auto). split; reflexivity.
  - intros name iv Hi. rewrite !(KI name iv) by (try (exact Hi); simpl; auto). split; [reflexivity|]. split; [reflexivity|].
    intros spts eff i l e Es Hin He Ei. unfold seg_cost. rewrite (KI name iv); [reflexivity|exact Hi|]. apply in_app_iff. right. apply in_map_iff. eauto.
  - intros c s t Hc K Ht. unfold charge. rewrite (KC c) by (simpl; auto). reflexivity.
  - intros b t Ub Ht. unfold excess. destruct (b_penalty b); [|split; reflexivity]. rewrite !(KB b) by (simpl; auto). split; reflexivity.
  - intros e He. unfold op_at, op_sum, inv_sum, all_sum. rewrite !(KE e) by (simpl; auto). split; [|repeat split; reflexivity].
    intros t Ht. rewrite (KE e) by (simpl; auto). reflexivity.
  - unfold penalty_sum. rewrite forget_keeps; [reflexivity|]. unfold plan_labels. do 4 (apply in_app_iff; right). simpl. auto.
Qed.

Lemma sensible_0 : sensible default_config fs0 None.
Proof.
  apply sensible_check; [vm_compute; reflexivity|buses|]. intros c Hc. cbn [fs0 fs_comps In] in Hc.
  destruct Hc as [<-|[<-|[<-|[<-|[]]]]]; split; try exact I; try (repeat constructor; simpl; intuition discriminate).
  exists "Storage", (set_size_ (SzNum (Some 50)) (flow0 20 "ch" heat)), (set_size_ (SzNum (Some 60)) (flow0 21 "dis" heat)), true. reflexivity.
Qed.
Lemma sensible_1 : sensible default_config fs1 idx1.
Proof.
  apply sensible_check; [vm_compute; reflexivity|buses|]. intros c Hc. cbn [fs1 fs_comps In] in Hc.
  destruct Hc as [<-|[<-|[<-|[<-|[<-|[<-|[]]]]]]]; split; try exact I; try (repeat constructor; simpl; intuition discriminate).
  exists "Line", line_in1, line_out1, (Some line_in2), (Some line_out2), None, true. reflexivity.
Qed.

(** The plans of the solutions of the first two systems (storage, investments, on/off rules, excess; component on/off,
    segmented conversion, two-way transmission, segmented investment costs). With the auxiliary values forgotten they are
    no solutions any more, but still plans obeying the rules. *)
Example C57_applies : exists pm, build default_config id_ord fs0 None = Ok pm /\ sensible default_config fs0 None
  /\ obeys default_config fs0 None (forget default_config fs0 x0) /\ ~ feasible pm (forget default_config fs0 x0).
Proof.
  destruct x0_feasible as [pm [B F]]. exists pm. split; auto. split; [exact sensible_0|]. split.
  - apply (C57_plans _ _ _ _ _ _ id_ord_perm B sensible_0). exists x0. split; auto. apply same_plan_sym. apply forget_same.
  - intros F'. assert (Hc : In boiler (fs_comps fs0)) by (simpl; auto). assert (Hf : In q_th (cp_flows boiler)) by (simpl; auto).
    destruct (C15_flow_switching _ _ _ _ _ _ _ _ _ B F' ltac:(vm_compute; discriminate) Hc Hf eq_refl) as [S _].
    destruct (S 0%nat) as [_ [_ [_ [Z|Z]]]]; [vm_compute; lia|vm_compute in Z; discriminate..].
Qed.
Example C57_applies_2 : exists pm, build default_config id_ord fs1 idx1 = Ok pm /\ sensible default_config fs1 idx1
  /\ obeys default_config fs1 idx1 (forget default_config fs1 x1) /\ ~ feasible pm (forget default_config fs1 x1).
Proof.
  destruct x1_feasible as [pm [B F]]. exists pm. split; auto. split; [exact sensible_1|]. split.
  - apply (C57_plans _ _ _ _ _ _ id_ord_perm B sensible_1). exists x1. split; auto. apply same_plan_sym. apply forget_same.
  - intros F'. assert (Hc : In chp (fs_comps fs1)) by (simpl; auto).
    destruct (C15_component_switching_partial _ _ _ _ _ _ _ _ B F' ltac:(vm_compute; discriminate) Hc eq_refl) as [S _]; [vm_compute; lia|].
    destruct (S 0%nat) as [_ [_ [_ [Z|Z]]]]; [vm_compute; lia|vm_compute in Z; discriminate..].
Qed.
Example C58_applies : exists pm, build default_config id_ord fs1 idx1 = Ok pm /\ sensible default_config fs1 idx1 /\ feasible pm x1
  /\ find e_obj (fs_effects fs1) = Some costs /\ exists y, obeys default_config fs1 idx1 y /\ plan_cost y costs == objective_value pm x1.
Proof.
  destruct x1_feasible as [pm [B F]]. exists pm. split; auto. split; [exact sensible_1|]. split; auto. split; [reflexivity|].
  destruct (C58_solvable _ _ _ _ _ id_ord_perm B sensible_1) as [_ [e [Fe H]]]. injection Fe as <-. apply H. exists x1. split; [exact F|reflexivity].
Qed.
