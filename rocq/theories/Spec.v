(** Specification vocabulary: assignments, feasibility of the program handed to the solver, and the meaning of
    equation-building calls. Nothing here refers to how the model computes its answers. *)
From Verif Require Import Base MathModel.

(** An assignment gives a value to every entry of every variable (by label). *)
Definition asg : Type := string -> nat -> Q.

Definition lin (x : asg) (ts : list term) : Q :=
  Qsum (map (fun t : term => let '(q, l, i) := t in q * x l i) ts).

Definition row_ok (x : asg) (r : row) : Prop :=
  if r_eq r then lin x (r_terms r) == r_rhs r else lin x (r_terms r) <= r_rhs r.

Definition entry_ok (e : pentry) (q : Q) : Prop :=
  match pe_fix e with
  | Some f => q == f
  | None =>
      (pe_bin e = true -> q == 0 \/ q == 1)
      /\ (forall l, pe_lb e = Some l -> l <= q)
      /\ (forall u, pe_ub e = Some u -> q <= u)
  end.

Definition pvar_ok (x : asg) (p : pvar) : Prop :=
  forall i e, nth_error (pv_entries p) i = Some e -> entry_ok e (x (pv_label p) i).

(** [x] satisfies everything that was handed to the solver. *)
Definition feasible (pm : pmodel) (x : asg) : Prop :=
  Forall (pvar_ok x) (pm_vars pm) /\ Forall (row_ok x) (pm_rows pm).

Definition objective_value (pm : pmodel) (x : asg) : Q := lin x (pm_obj pm).

(** ** Meaning of a call at row [i] *)

(** The entry of the variable used at row [i]: all entries by default, one entry broadcasts. *)
Definition pick (v : variable) (idx : option (list nat)) (i : nat) : nat :=
  match idx with
  | None => if Nat.eqb (v_len v) 1 then 0%nat else i
  | Some [j] => j
  | Some l => nth i l 0%nat
  end.

Definition sumn (n : nat) (f : nat -> Q) : Q := Qsum (map f (seq 0 n)).

Definition call_lhs (x : asg) (i : nat) (c : call) : Q :=
  match c with
  | AddS v f idx as_sum =>
      if as_sum then
        match idx with
        | None => sumn (v_len v) (fun j => at_ f j * x (v_label v) j)
        | Some l => sumn (length l) (fun j => at_ f j * x (v_label v) (nth j l 0%nat))
        end
      else at_ f i * x (v_label v) (pick v idx i)
  | AddC _ => 0
  end.

Definition call_rhs (i : nat) (c : call) : Q :=
  match c with AddS _ _ _ _ => 0 | AddC k => at_ k i end.

(** Number of rows a call asks for. *)
Definition call_len (c : call) : nat :=
  match c with
  | AddS v f idx as_sum =>
      if as_sum then 1 else
      let li := match idx with None => v_len v | Some l => length l end in
      if Nat.eqb (nlen f) 1 then li else nlen f
  | AddC k => nlen k
  end.
