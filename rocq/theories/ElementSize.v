(** Model of what the model of an element says about its own size and equations: structure.py 403-429, 459-467. *)
From Verif Require Import Base MathModel Structure Infos.

(** structure.py 459-467 [ElementModel.all_equations]: the own equations (435-437, by class), then those of the sub-models; a label met again: KeyError. *)
Fixpoint em_all_equations (m : emodel) : res (list constraint) :=
  let 'EM _ _ _ cs0 subs := m in
  let own := filter is_equation cs0 in
  foldM (fun acc s => cs <- em_all_equations s ;;
                      _ <- guard (forallb (fun c => negb (mem_str (c_label c) (map c_label acc))) cs) KeyError ;;
                      Ok (acc ++ cs)) subs own.

(** structure.py 404, 417: the flat listings of [description_of_variables] and [description_of_constraints] (structured=False). The variables and equations
    are listed here in place of the lines printed for them. *)
Definition flat_variables (m : emodel) : res (list variable) := em_all_variables m.
Definition flat_constraints (m : emodel) : res (list constraint) := em_all_equations m.

Record element_size : Type := mkESize { es_eqs : nat; es_single_eqs : nat; es_ineqs : nat; es_single_ineqs : nat; es_vars : nat; es_single_vars : nat }.
(** sum(eq.nr_of_single_equations for eq in ...) (lines 424, 426): neither Equation nor Inequation has such an attribute (math_modeling.py 118-316), so the sum of
    anything fails. *)
Definition single_rows (cs : list constraint) : res nat := match cs with [] => Ok 0%nat | _ :: _ => Err AttributeError end.
(** structure.py 420-429 [overview_of_model_size]. *)
Definition overview_of_model_size (m : emodel) : res element_size :=
  vs <- em_all_variables m ;; es <- em_all_equations m ;; is <- em_all_inequations m ;;
  e <- single_rows es ;; i <- single_rows is ;;
  Ok (mkESize (length es) e (length is) i (length vs) (nr_of_single_variables vs)).
