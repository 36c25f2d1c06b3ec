(** Claim C70: flow systems with valid data and well-chosen labels are always accepted. The conditions are in ValidSpec.v
    and NameSpec.v. *)
From Coq Require Import String Ascii Permutation.
From Verif Require Import Base BaseFacts MathModel Spec Structure Params Features Elements Library System SysSpec NameSpec ValidSpec TotalSystem ValidCheck PlanSpec Example PropsPlan.

(** ** C70: no valid flow system is refused *)

(** Every label in use, flows with the label of their component. *)
Definition all_labels (fs : flow_system) (bl : list bus) : list string :=
  top_labels fs ++ map b_lab bl ++ flat_map (fun c => map (flow_name c) (cp_flows c)) (fs_comps fs).
(** The claim with labels that are only different from each other. *)
Definition C70_full : Prop := forall cf ord fs idx bl, (forall l, Permutation (ord l) l) -> NoDup bl -> (forall b, In b bl <-> used_bus fs b) ->
  NoDup (all_labels fs bl) -> valid_data fs idx -> exists pm, build cf ord fs idx = Ok pm.

(** With labels that neither equal nor continue each other: the problem can be written down, whatever order Python gives
    to sets. *)
Theorem C70_accepted_partial : forall cf ord fs idx, (forall l, Permutation (ord l) l) -> well_named fs -> valid_data fs idx ->
  exists pm, build cf ord fs idx = Ok pm.
Proof. intros cf ord fs idx PO. apply system_total. intros l x. split; apply Permutation_in; [|apply Permutation_sym]; apply PO. Qed.
Print Assumptions C70_accepted_partial.

(** With sensible data in addition, the problem says exactly what the user asked for: its solutions are the plans that
    obey the rules, and its optimal value is the lowest cost of such a plan. *)
Theorem C70_planned_partial : forall cf ord fs idx, (forall l, Permutation (ord l) l) -> well_named fs -> valid_data fs idx -> sensible cf fs idx ->
  exists pm e, build cf ord fs idx = Ok pm /\ find e_obj (fs_effects fs) = Some e
    /\ (forall x, obeys cf fs idx x <-> exists y, same_plan cf fs idx x y /\ feasible pm y)
    /\ (forall q, (exists y, feasible pm y /\ objective_value pm y == q) <-> exists x, obeys cf fs idx x /\ plan_cost x e == q).
Proof.
  intros cf ord fs idx PO W V SE. destruct (C70_accepted_partial cf ord fs idx PO W V) as [pm B].
  destruct (C58_solvable cf ord fs idx pm PO B SE) as [_ [e [Fe H]]]. exists pm, e. split; [exact B|]. split; [exact Fe|]. split; [|exact H].
  intros x. apply (C57_plans cf ord fs idx pm x PO B SE).
Qed.
Print Assumptions C70_planned_partial.

(** ** Examples *)
Ltac all_buses := intros b [c [f [Hc [Hf <-]]]]; cbn in Hc; repeat (destruct Hc as [<-|Hc]; [cbn in Hf; repeat (destruct Hf as [<-|Hf]; [cbn; tauto|]); contradiction|]); contradiction.

(** Investments, on/off rules, exclusion, storages, penalties; component on/off, two-way transmission, segments, a choice
    of steps; several previous values; the named converters. *)
Example C70_applies :
  (well_named fs0 /\ valid_data fs0 None) /\ (well_named fs1 /\ valid_data fs1 idx1) /\ (well_named fs2 /\ valid_data fs2 None) /\ (well_named fs3 /\ valid_data fs3 None).
Proof.
  split; [|split; [|split]].
  - assert (U : forall b, used_bus fs0 b -> In b [gas; heat]) by all_buses. split; [apply (named_b_ok _ _ U)|apply (valid_b_ok _ _ _ U)]; vm_compute; reflexivity.
  - assert (U : forall b, used_bus fs1 b -> In b [gas; heat; el; el2]) by all_buses. split; [apply (named_b_ok _ _ U)|apply (valid_b_ok _ _ _ U)]; vm_compute; reflexivity.
  - assert (U : forall b, used_bus fs2 b -> In b [gas; heat]) by all_buses. split; [apply (named_b_ok _ _ U)|apply (valid_b_ok _ _ _ U)]; vm_compute; reflexivity.
  - assert (U : forall b, used_bus fs3 b -> In b [gas; heat; el; amb]) by all_buses. split; [apply (named_b_ok _ _ U)|apply (valid_b_ok _ _ _ U)]; vm_compute; reflexivity.
Qed.
Example C70_planned_applies : well_named fs1 /\ valid_data fs1 idx1 /\ sensible default_config fs1 idx1.
Proof. destruct C70_applies as [_ [[A B] _]]. split; [exact A|]. split; [exact B|]. exact sensible_1. Qed.

(** A system where the second storage is called like the first one with "_initial" added: all labels differ and all data
    is valid, but both storages want to call a constraint "Tank_initial_charge_state". *)
Definition tank (lab : string) (i : nat) : component :=
  storage_ lab (fl i "ch" heat 10) (fl (S i) "dis" heat 10) (mkStorage (CapNum 20) (n1 0) (n1 1) (ICNum 0) None None (n1 1) (n1 1) (n1 0)) true.
Definition fs_tanks (second : string) : flow_system := mkFS [0; 1] 2 (NS 1) [costs] [source "Src" (fl 301 "Q" heat 10); tank "Tank" 302; tank second 304].

Theorem C70_refuted : ~ C70_full.
Proof.
  intros H. destruct (H default_config id_ord (fs_tanks "Tank_initial") None [heat]) as [pm B].
  - intros l. apply Permutation_refl.
  - repeat constructor; simpl; tauto.
  - intros b. split; [intros [<-|[]]|revert b; all_buses]. exists (source "Src" (fl 301 "Q" heat 10)), (fl 301 "Q" heat 10). split; [left; reflexivity|]. split; [left; reflexivity|reflexivity].
  - vm_compute. repeat constructor; simpl; intuition discriminate.
  - assert (U : forall b, used_bus (fs_tanks "Tank_initial") b -> In b [heat]) by all_buses. apply (valid_b_ok _ _ _ U). vm_compute. reflexivity.
  - assert (E : build default_config id_ord (fs_tanks "Tank_initial") None = Err KeyError) by (vm_compute; reflexivity). rewrite E in B. discriminate B.
Qed.
Print Assumptions C70_refuted.

(** With another label for the second storage the system is accepted. *)
Example C70_other_label : exists pm, build default_config id_ord (fs_tanks "Tank2") None = Ok pm.
Proof.
  assert (U : forall b, used_bus (fs_tanks "Tank2") b -> In b [heat]) by all_buses.
  apply C70_accepted_partial; [intros l; apply Permutation_refl|apply (named_b_ok _ _ U)|apply (valid_b_ok _ _ _ U)]; vm_compute; reflexivity.
Qed.
