(** Specification vocabulary for aggregated calculations (C38, C55). *)
From Verif Require Import Base MathModel Spec Structure Params Features Elements System SysSpec Aggregation.
Local Open Scope Q_scope.

(** The clustering is one of the time steps of the calculation. *)
Record clusters_steps (fs : flow_system) (idx : option (list nat)) (cl : clustering) : Prop := {
  cs_ids : NoDup (cl_ids cl);
  cs_period : (0 < cl_period cl)%nat;
  cs_total : cl_total cl = steps fs idx
}.

(** The component is among those to be clusterized; no list or an empty one stands for all. *)
Definition picked (sel : option (list string)) (c : component) : Prop :=
  match sel with None | Some [] => True | Some ls => In (cp_label c) ls end.
(** The component takes part in the aggregation. *)
Definition takes_part (fs : flow_system) (ap : agg_params) (sel : option (list string)) (c : component) : Prop :=
  In c (fs_comps fs) /\ picked sel c /\ (is_storage c = false \/ ag_fix_storage ap = true).

(** The labels of the binary state of a flow and of a component. *)
Definition flow_state (c : component) (f : flow) : string := oo (flow_name c f) "on".
Definition comp_state (c : component) : string := oo (cp_label c) "on".
(** [v] is the state of the component or of one of its flows; there is one where on/off parameters are given or needed. *)
Definition has_state (fs : flow_system) (idx : option (list nat)) (c : component) (v : string) : Prop :=
  (exists f, In f (cp_flows c) /\ governed fs idx c f <> None /\ v = flow_state c f) \/ (cp_onoff c <> None /\ v = comp_state c).

(** The number of pairs of steps at which the quantity [v] differs. *)
Definition differs (x : asg) (v : string) (p : nat * nat) : bool := negb (Qeq_bool (x v (fst p)) (x v (snd p))).
Definition deviations (x : asg) (v : string) (pairs : list (nat * nat)) : nat := length (filter (differs x v) pairs).

(** The corrections of [v], upwards and downwards at each of [n] pairs, and their sum. *)
Definition korr (which v : string) : string := vlabel "Aggregation__Model" (cat [which; v]).
Definition corrections (x : asg) (v : string) (n : nat) : Q := sumn n (fun k => x (korr "Korr1_" v) k + x (korr "Korr0_" v) k).

(** Two points that differ at most in the total of the penalties. *)
Definition pen_label : string := vlabel "Effects__penalty" "penalty_sum".
Definition same_but_penalty (x y : asg) : Prop := forall l i, l <> pen_label -> x l i == y l i.
