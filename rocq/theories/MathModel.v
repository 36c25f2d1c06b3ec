(** Model of flixOpt/math_modeling.py: variables, constraints, and their translation to a pyomo model. *)
From Verif Require Import Base.

(** math_modeling.py 24-115 [Variable], [VariableTS].
    [v_ts] records the class (VariableTS or Variable); [v_prev] is [previous_values] (only on VariableTS).
    The result field is modelled separately (Results.v). *)
Record variable : Type := mkVariable {
  v_label : string;
  v_short : string;
  v_len : nat;
  v_bin : bool;
  v_fixed : option numeric;
  v_lb : option numeric;
  v_ub : option numeric;
  v_ts : bool;
  v_prev : option numeric
}.

(** math_modeling.py 29-68 [Variable.__init__]: a fixed value outside the bounds raises. *)
Definition mk_variable (label : string) (len : nat) (short : string) (bin : bool)
           (fixed lb ub : option numeric) : res variable :=
  let v := mkVariable label (or_str short label) len bin fixed lb ub false None in
  match fixed with
  | None => Ok v
  | Some f =>
      above <- match lb with None => Ok true | Some l => nall_le l f end ;;
      below <- match ub with None => Ok true | Some u => nall_le f u end ;;
      if (above && below)%bool then Ok v else Err PyException
  end.

(** math_modeling.py 89-115 [VariableTS.__init__]. *)
Definition mk_variable_ts (label : string) (len : nat) (short : string) (bin : bool)
           (fixed lb ub prev : option numeric) : res variable :=
  _ <- assert_ (Nat.ltb 1 len) ;;
  v <- mk_variable label len short bin fixed lb ub ;;
  Ok (mkVariable (v_label v) (v_short v) (v_len v) (v_bin v) (v_fixed v) (v_lb v) (v_ub v) true prev).

(** math_modeling.py 321-409 [Summand], [SumOfSummand] ([s_sum]). *)
Record summand : Type := mkSummand {
  s_var : variable;
  s_idx : list nat;
  s_fvec : list Q;
  s_len : nat;
  s_sum : bool
}.

(** math_modeling.py 353-381 [Summand._check_length]. *)
Definition check_length (len_f len_i : nat) : res nat :=
  if Nat.eqb len_i len_f then Ok len_i
  else if Nat.eqb len_f 1 then Ok len_i
  else if Nat.eqb len_i 1 then Ok len_f
  else Err PyException.

(** math_modeling.py 335-344 and 398-402 (a SumOfSummand sets its length to 1 afterwards). *)
Definition mk_summand (v : variable) (f : numeric) (idx : option (list nat)) (as_sum : bool) : res summand :=
  let ix := match idx with Some l => l | None => seq 0 (v_len v) end in
  n <- check_length (nlen f) (length ix) ;;
  fv <- as_vector f n ;;
  Ok (mkSummand v ix fv (if as_sum then 1%nat else n) as_sum).

(** math_modeling.py 118-318: kind of a constraint. An objective is an Equation with is_objective. *)
Inductive ckind : Set := KEq | KIneq | KObj.

Record constraint : Type := mkConstraint {
  c_label : string;
  c_short : string;
  c_kind : ckind;
  c_summands : list summand;
  c_const : numeric;
  c_len : nat
}.

(** math_modeling.py 124-141. *)
Definition new_constraint (k : ckind) (label short : string) : constraint :=
  mkConstraint label (or_str short label) k [] (NS 0) 1.

(** math_modeling.py 231-243 [_update_length]. *)
Definition update_length (cur new : nat) : res nat :=
  if Nat.eqb cur 1 then Ok new
  else if (Nat.eqb new 1 || Nat.eqb new cur)%bool then Ok cur
  else Err ValueError.

(** math_modeling.py 145-198 [add_summand] as a state transformer: the constraint after the call, and the
    exception if it raised. The summand is appended only after the length check. The isinstance check at 179
    is guaranteed by typing; a scalar index is passed as a one-element list (184-185). *)
Definition add_summand_st (c : constraint) (v : variable) (f : numeric) (idx : option (list nat))
           (as_sum : bool) : constraint * option exn :=
  match mk_summand v f idx as_sum with
  | Err e => (c, Some e)
  | Ok s =>
      match update_length (c_len c) (s_len s) with
      | Err e => (c, Some e)
      | Ok n => (mkConstraint (c_label c) (c_short c) (c_kind c) (c_summands c ++ [s]) (c_const c) n, None)
      end
  end.

(** math_modeling.py 200-226 [add_constant]: the constant is changed (219) before the length check (224). *)
Definition add_constant_st (c : constraint) (k : numeric) : constraint * option exn :=
  match nadd (c_const c) k with
  | Err e => (c, Some e)
  | Ok k' =>
      match update_length (c_len c) (nlen k') with
      | Err e => (mkConstraint (c_label c) (c_short c) (c_kind c) (c_summands c) k' (c_len c), Some e)
      | Ok n => (mkConstraint (c_label c) (c_short c) (c_kind c) (c_summands c) k' n, None)
      end
  end.

Definition to_res {A} (p : A * option exn) : res A :=
  match snd p with None => Ok (fst p) | Some e => Err e end.

(** A call on a constraint, as written in the do_modeling methods. *)
Inductive call : Type :=
| AddS (v : variable) (f : numeric) (idx : option (list nat)) (as_sum : bool)
| AddC (k : numeric).

Definition apply_call_st (c : constraint) (a : call) : constraint * option exn :=
  match a with
  | AddS v f idx s => add_summand_st c v f idx s
  | AddC k => add_constant_st c k
  end.

Definition apply_call (c : constraint) (a : call) : res constraint := to_res (apply_call_st c a).

(** A constraint built by a sequence of calls, stopping at the first exception. *)
Definition build_constraint (k : ckind) (label short : string) (calls : list call) : res constraint :=
  foldM apply_call calls (new_constraint k label short).

(** ** pyomo model: what the solver sees *)

(** One entry of a pyomo Var: fixed, or bounded. *)
Record pentry : Type := mkPEntry {
  pe_bin : bool;
  pe_fix : option Q;
  pe_lb : option Q;
  pe_ub : option Q
}.
Record pvar : Type := mkPVar { pv_label : string; pv_entries : list pentry }.

Definition term : Type := (Q * string * nat)%type.
Record row : Type := mkRow { r_terms : list term; r_eq : bool; r_rhs : Q }.
Record pmodel : Type := mkPModel { pm_vars : list pvar; pm_rows : list row; pm_obj : list term }.

(** math_modeling.py 1042-1066 [translate_variable]. *)
Definition translate_variable (v : variable) : res pvar :=
  lbs <- as_vector_opt (v_lb v) (v_len v) ;;
  ubs <- as_vector_opt (v_ub v) (v_len v) ;;
  fxs <- as_vector_opt (v_fixed v) (v_len v) ;;
  Ok (mkPVar (v_label v)
        (map (fun i =>
                match nth i fxs None with
                | Some q => mkPEntry (v_bin v) (Some q) None None
                | None => mkPEntry (v_bin v) None (nth i lbs None) (nth i ubs None)
                end)
             (seq 0 (v_len v)))).

(** pyomo indexing [pyomo_variable[i]]: KeyError outside the index set. *)
Definition pv_index (v : variable) (i : nat) : res nat :=
  if Nat.ltb i (v_len v) then Ok i else Err KeyError.

(** math_modeling.py 1129-1140 [_summand_math_expression] as a list of linear terms.
    For a SumOfSummand the loop variable j runs over the index VALUES and is used as a position (1132). *)
Definition summand_terms (s : summand) (i : nat) : res (list term) :=
  let v := s_var s in
  let one (pi pf : nat) : res term :=
    ix <- of_option IndexError (nth_error (s_idx s) pi) ;;
    j <- pv_index v ix ;;
    q <- of_option IndexError (nth_error (s_fvec s) pf) ;;
    Ok (q, v_label v, j) in
  if s_sum s then mapM (fun j => one j j) (s_idx s)
  else if Nat.eqb (s_len s) 1 then t <- one 0%nat 0%nat ;; Ok [t]
  else if Nat.eqb (length (s_idx s)) 1 then t <- one 0%nat i ;; Ok [t]
  else t <- one i i ;; Ok [t].

Definition lhs_terms (ss : list summand) (i : nat) : res (list term) :=
  ts <- mapM (fun s => summand_terms s i) ss ;; Ok (List.concat ts).

(** math_modeling.py 1068-1107 [translate_equation], [translate_inequation]. Without summands the rule compares two numbers
    and returns True or False, which pyomo refuses as a constraint (ValueError). A summand with factor zero counts as a summand. *)
Definition nonempty {A} (l : list A) : bool := match l with [] => false | _ => true end.
Definition translate_constraint (c : constraint) : res (list row) :=
  cv <- as_vector (c_const c) (c_len c) ;;
  mapM (fun i =>
          ts <- lhs_terms (c_summands c) i ;;
          rhs <- of_option IndexError (nth_error cv i) ;;
          _ <- guard (nonempty ts) ValueError ;;
          Ok (mkRow ts (match c_kind c with KIneq => false | _ => true end) rhs))
       (seq 0 (c_len c)).

(** math_modeling.py 1109-1127 [translate_objective]: the constant of the objective is not used. *)
Definition translate_objective (c : constraint) : res (list term) :=
  _ <- guard (match c_kind c with KObj => true | _ => false end) TypeError ;;
  _ <- guard (Nat.eqb (c_len c) 1) PyException ;;
  lhs_terms (c_summands c) 0.

(** math_modeling.py 1027-1040 [translate_model]; equations first, then inequations. Every Equation object among the
    constraints is an equation, even one flagged as objective (structure.py 226-232 filter by class). *)
Definition translate_model (vars : list variable) (constrs : list constraint) (obj : constraint) : res pmodel :=
  pvs <- mapM translate_variable vars ;;
  eqs <- mapM translate_constraint (filter (fun c => match c_kind c with KIneq => false | _ => true end) constrs) ;;
  ineqs <- mapM translate_constraint (filter (fun c => match c_kind c with KIneq => true | _ => false end) constrs) ;;
  o <- translate_objective obj ;;
  Ok (mkPModel pvs (List.concat eqs ++ List.concat ineqs) o).

(** math_modeling.py 484-502 [MathModel.add]: a stand-alone MathModel (SystemModel overrides the lists). *)
Record mathmodel : Type := mkMM { mm_vars : list variable; mm_constrs : list constraint; mm_obj : option constraint }.
Definition mm_init : mathmodel := mkMM [] [] None.
Inductive mm_arg : Type := ArgVar (v : variable) | ArgCon (c : constraint).
Definition mm_add (m : mathmodel) (a : mm_arg) : mathmodel :=
  match a with
  | ArgVar v => mkMM (mm_vars m ++ [v]) (mm_constrs m) (mm_obj m)
  | ArgCon c =>
      match c_kind c with
      | KObj => mkMM (mm_vars m) (mm_constrs m) (Some c)
      | _ => mkMM (mm_vars m) (mm_constrs m ++ [c]) (mm_obj m)
      end
  end.

(** math_modeling.py 567-593: size counters. *)
Definition nr_of_single_variables (vs : list variable) : nat := fold_right (fun v n => v_len v + n)%nat 0%nat vs.
Definition nr_of_single_constraints (k : ckind) (cs : list constraint) : nat :=
  fold_right (fun c n => (if match k, c_kind c with
                             | KIneq, KIneq => true
                             | KEq, KEq => true | KEq, KObj => false
                             | KObj, KObj => true | _, _ => false end then c_len c else 0) + n)%nat 0%nat cs.
