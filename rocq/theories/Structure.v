(** Model of flixOpt/structure.py: element models, their tree, and the system model. *)
From Verif Require Import Base MathModel.

(** structure.py 366-375 [ElementModel]: full label, label, own variables, own constraints, sub-models. *)
Inductive emodel : Type :=
| EM (full label : string) (vars : list variable) (cons : list constraint) (subs : list emodel).

Definition em_full (m : emodel) := let 'EM f _ _ _ _ := m in f.
Definition em_label (m : emodel) := let 'EM _ l _ _ _ := m in l.
Definition em_vars (m : emodel) := let 'EM _ _ v _ _ := m in v.
Definition em_cons (m : emodel) := let 'EM _ _ _ c _ := m in c.
Definition em_subs (m : emodel) := let 'EM _ _ _ _ s := m in s.

(** structure.py 493-499: label_full and label of a model of an element with label [elem] / full label [elem_full]. *)
Definition model_full (elem_full : string) (label : option string) : string :=
  match label with Some l => if String.eqb l "" then elem_full else cat [elem_full; "__"; l] | None => elem_full end.

(** f'{element_model.label_full}_{label}' (structure.py 523, 525, 542). *)
Definition vlabel (model : string) (label : string) : string := cat [model; "_"; label].

(** structure.py 530-552 [create_variable]. VariableTS iff length > 1; a Variable has no previous values. *)
Definition create_variable (model label : string) (len : nat) (bin : bool)
           (fixed lb ub prev : option numeric) : res variable :=
  if Nat.ltb 1 len then mk_variable_ts (vlabel model label) len label bin fixed lb ub prev
  else mk_variable (vlabel model label) len label bin fixed lb ub.

(** structure.py 518-527 [create_equation] followed by its add_summand/add_constant calls. *)
Definition create_equation (model label : string) (k : ckind) (calls : list call) : res constraint :=
  build_constraint k (vlabel model label) label calls.

(** structure.py 377-391 [add_variables], [add_constraints]: a label may be used once per model. Checked when the
    model is finished instead of at each addition; the outcome is an exception either way. *)
Definition mk_em (full label : string) (vars : list variable) (cons : list constraint) (subs : list emodel)
  : res emodel :=
  _ <- guard (nodup_str (map v_label vars)) PyException ;;
  _ <- guard (nodup_str (map c_label cons)) PyException ;;
  Ok (EM full label vars cons subs).

(** Number of models in a tree. *)
Fixpoint em_size (m : emodel) : nat :=
  let 'EM _ _ _ _ subs := m in S (fold_right (fun s n => em_size s + n)%nat 0%nat subs).

(** structure.py 478-485 [all_sub_models]: breadth first, the work list grows while it is processed. *)
Fixpoint bfs (fuel : nat) (q : list emodel) : list emodel :=
  match fuel, q with
  | S k, m :: r => m :: bfs k (r ++ em_subs m)
  | _, _ => []
  end.
Definition all_sub_models (m : emodel) : list emodel := bfs (em_size m) (em_subs m).

(** structure.py 234-238 [SystemModel.sub_models]. *)
Definition system_sub_models (direct : list emodel) : list emodel := direct ++ flat_map all_sub_models direct.

(** structure.py 205-224 [SystemModel.all_variables], [all_constraints]: KeyError on a repeated label. *)
Definition system_variables (direct : list emodel) : res (list variable) :=
  let vs := flat_map em_vars (system_sub_models direct) in
  _ <- guard (nodup_str (map v_label vs)) KeyError ;; Ok vs.
Definition system_constraints (direct : list emodel) : res (list constraint) :=
  let cs := flat_map em_cons (system_sub_models direct) in
  _ <- guard (nodup_str (map c_label cs)) KeyError ;; Ok cs.

(** calculation.py 150-162 with structure.py 226-257: what the SystemModel hands to pyomo. *)
Definition system_translate (direct : list emodel) (obj : constraint) : res pmodel :=
  vs <- system_variables direct ;;
  cs <- system_constraints direct ;;
  translate_model vs cs obj.

(** structure.py 439-476 [ElementModel.all_variables], [all_equations], [all_inequations].
    [all_inequations] checks the sub-models but never adds their inequations. *)
Fixpoint em_all_variables (m : emodel) : res (list variable) :=
  let 'EM _ _ vars _ subs := m in
  foldM (fun acc s => vs <- em_all_variables s ;;
                      _ <- guard (forallb (fun v => negb (mem_str (v_label v) (map v_label acc))) vs) KeyError ;;
                      Ok (acc ++ vs)) subs vars.
Definition is_ineq (c : constraint) : bool := match c_kind c with KIneq => true | _ => false end.
Fixpoint em_all_inequations (m : emodel) : res (list constraint) :=
  let 'EM _ _ _ cs0 subs := m in
  let own := filter is_ineq cs0 in
  foldM (fun acc s => cs <- em_all_inequations s ;;
                      _ <- guard (forallb (fun c => negb (mem_str (c_label c) (map c_label acc))) cs) KeyError ;;
                      Ok acc) subs own.
