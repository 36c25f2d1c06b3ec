(** Specification vocabulary for what an aggregated calculation adds to the full one (C62). *)
From Verif Require Import Base MathModel Spec Structure Params Features Elements System SysSpec AdmitSpec Aggregation AggSpec.
Local Open Scope Q_scope.

(** The variable belongs to the component, to one of its flows or to a part of these. *)
Definition quantity_of (cf : config) (ord : list nat -> list nat) (fs : flow_system) (idx : option (list nat)) (c : component) (v : variable) : Prop :=
  exists bs o m, build_system cf ord fs idx = Ok bs /\ In (c, o) (combine (fs_comps fs) (bs_comps bs)) /\ within (co_tree o) m /\ In v (em_vars m).

(** The aggregation applies to a quantity of a component that takes part, has values for several steps, and is a yes/no quantity unless all
    quantities are to be aggregated. *)
Definition tied (cf : config) (ord : list nat -> list nat) (fs : flow_system) (idx : option (list nat)) (ap : agg_params) (sel : option (list string))
           (v : variable) : Prop :=
  exists c, takes_part fs ap sel c /\ quantity_of cf ord fs idx c v /\ v_ts v = true /\ (ag_fix_all ap = true \/ v_bin v = true).

(** A yes/no quantity may differ at some of the pairs if there is freedom. *)
Definition may_differ (ap : agg_params) (v : variable) : Prop := v_bin v = true /\ 0 < ag_freedom ap.
(** The number of deviations allowed: the percentage of the pairs, rounded as by Python's round. *)
Definition allowance (ap : agg_params) (pairs : list (nat * nat)) : Z := py_round (ag_freedom ap / 100 * inject_Z (Z.of_nat (length pairs))).

(** What the aggregation demands of a quantity. *)
Definition tied_rule (ap : agg_params) (pairs : list (nat * nat)) (x : asg) (v : variable) : Prop :=
  (may_differ ap v -> (Z.of_nat (deviations x (v_label v) pairs) <= allowance ap pairs)%Z)
  /\ (~ may_differ ap v -> forall i j, In (i, j) pairs -> x (v_label v) i == x (v_label v) j).

(** The two points have the same values for all variables of the program, but for the total of the penalties. *)
Definition agree_on (pm : pmodel) (x y : asg) : Prop :=
  forall p i, In p (pm_vars pm) -> pv_label p <> pen_label -> x (pv_label p) i == y (pv_label p) i.
