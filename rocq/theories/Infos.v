(** Model of what a solved calculation says about its problem: math_modeling.py 269-316, 346-351, 404-409, 504-509, 531-592,
    structure.py 121-151, 196-201, 393-418, 439-452. *)
From Verif Require Import Base MathModel Structure Params Features Elements System Tree.

(** math_modeling.py 535-543 ['Model Size'] and 504-509 [describe_size]; 567-592 the counters. SystemModel overrides the three
    lists (structure.py 240-253), so they raise KeyError on a repeated label. An Equation is an Equation even if it is an
    objective (structure.py 226-232 filter by class). *)
Record model_size : Type := mkSize {
  ms_eqs : nat; ms_single_eqs : nat; ms_ineqs : nat; ms_single_ineqs : nat; ms_vars : nat; ms_single_vars : nat; ms_ts_vars : nat
}.
Definition is_equation (c : constraint) : bool := match c_kind c with KIneq => false | _ => true end.
Definition sum_len (cs : list constraint) : nat := fold_right (fun c n => c_len c + n)%nat 0%nat cs.
Definition size_of (vs : list variable) (cs : list constraint) : model_size :=
  let eqs := filter is_equation cs in
  let ineqs := filter is_ineq cs in
  mkSize (length eqs) (sum_len eqs) (length ineqs) (sum_len ineqs) (length vs) (nr_of_single_variables vs) (length (filter v_ts vs)).
Definition system_size (b : built_system) : res model_size :=
  vs <- system_variables (bs_roots b) ;; cs <- system_constraints (bs_roots b) ;; Ok (size_of vs cs).

(** structure.py 393-402 [description_of_variables], 406-415 [description_of_constraints] with structured=True: the own list
    under "_self", then each sub-model under its label, in one dict. The tree holds the variables and constraints; the lines
    printed for them are [describe_constraint] below. *)
Fixpoint em_listing {A} (own : emodel -> list A) (m : emodel) : tree (list A) :=
  Node (str_dict (("_self", Leaf (own m)) :: (let 'EM _ _ _ _ subs := m in map (fun s => (em_label s, em_listing own s)) subs))).

(** structure.py 121-132, 134-149: components and buses by the keys of the dicts of the flow system, which are their labels
    (flow_system.py 213-220, 262-270). There are no other models. *)
Definition by_label {A} (own : emodel -> list A) (ms : list emodel) : tree (list A) :=
  Node (str_dict (map (fun m => (em_label m, em_listing own m)) ms)).
Definition variable_listing (b : built_system) : tree (list variable) :=
  Node [("Components", by_label em_vars (map co_tree (bs_comps b)));
        ("Buses", by_label em_vars (bs_buses b));
        ("Effects", em_listing em_vars (bs_effects b));
        ("Others", Node [])].
Definition constraint_listing (b : built_system) : tree (list constraint) :=
  Node [("Components", by_label em_cons (map co_tree (bs_comps b)));
        ("Buses", by_label em_cons (bs_buses b));
        ("Objective", Leaf [bs_obj b]);
        ("Effects", em_listing em_cons (bs_effects b));
        ("Others", Node [])].

(** math_modeling.py 346-351 [Summand.description], 404-409 [SumOfSummand.description]: factor, variable and index shown, and
    for a sum whether further summands are indicated before and after it. *)
Record shown : Type := mkShown { sw_factor : Q; sw_var : string; sw_index : nat; sw_dots : option (bool * bool) }.
Definition describe_summand (s : summand) (at_ : nat) : res shown :=
  if s_sum s then
    ix <- of_option IndexError (nth_error (s_idx s) at_) ;;
    q <- of_option IndexError (nth_error (s_fvec s) 0) ;;
    Ok (mkShown q (v_label (s_var s)) ix (Some (Nat.ltb 0 ix, Nat.ltb ix (v_len (s_var s)))))
  else
    let i := if Nat.eqb (s_len s) 1 then 0%nat else at_ in
    ix <- of_option IndexError (nth_error (s_idx s) i) ;;
    q <- of_option IndexError (nth_error (s_fvec s) i) ;;
    Ok (mkShown q (v_label (s_var s)) ix None).

(** math_modeling.py 269-287, 303-316 [description]: label, [nr/length], constant, comparison, summands. The comparison of
    [is_objective] with the string 'objective' (273) is never true, so an objective is shown like an equation. Numbers are not
    rounded here. *)
Record shown_row : Type := mkShownRow {
  sr_label : string; sr_nr : nat; sr_of : nat; sr_const : Q; sr_equals : bool; sr_summands : list shown
}.
Definition describe_constraint (c : constraint) (at_ : nat) : res shown_row :=
  let nr := Nat.min at_ (c_len c - 1) in
  ss <- mapM (fun s => describe_summand s at_) (c_summands c) ;;
  cv <- as_vector (c_const c) (c_len c) ;;
  k <- of_option IndexError (nth_error cv nr) ;;
  Ok (mkShownRow (c_label c) (nr + 1) (c_len c) k (is_equation c) ss).
