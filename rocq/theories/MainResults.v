(** Model of structure.py 165-196 ([SystemModel.main_results]) and of several calculations on one flow system
    (calculation.py 37-72, 150-175, structure.py 57-117). Elements of the flow system remember the model made for them last
    ([effect.model], [bus.model]: elements.py 67-69, 118-120, 240-242, effects.py 144-146), so the calculations share them. *)
From Verif Require Import Base MathModel Spec Structure Params Features Elements System Tree Values Results Segmented.

(** float(variable.result): a variable without result has None (TypeError); an array is no number (TypeError). *)
Definition py_float (l : leaf) : res Q := match l with LNum _ _ q => Ok q | _ => Err TypeError end.
(** np.sum(variable.result) > 1e-3: comparing None with a number is a TypeError (np.sum(None) is None). *)
Definition py_sum (l : leaf) : res Q := match l with LNone => Err TypeError | LNum _ _ q => Ok q | LArr _ q => Ok (Qsum q) end.
Definition above (q : Q) : bool := negb (Qle_bool q (1 # 1000)).

Definition first_var (m : emodel) : res variable := match em_vars m with v :: _ => Ok v | [] => Err AttributeError end.

(** isinstance(sub_model, InvestmentModel). Models carry no class here; an investment is the model called Investment whose first
    variable is called size. No other model is: PropsMain, [C67_own_partial], says which entries there are. *)
Definition is_invest (m : emodel) : bool :=
  (String.eqb (em_label m) "Investment" && match em_vars m with v :: _ => String.eqb (v_short v) "size" | [] => false end)%bool.
(** structure.py 184-187, 234-238: the investment models among all sub-models, each with the label of the element it belongs to,
    in the order in which they are visited (root by root, breadth first). *)
Definition invest_children (m : emodel) : list (string * emodel) := map (fun s => (em_full m, s)) (filter is_invest (em_subs m)).
Definition investments (b : built_system) : list (string * emodel) :=
  flat_map (fun r => flat_map invest_children (r :: all_sub_models r)) (bs_roots b).

(** structure.py 170-175: the entry of one effect ([unit] is its unit, which nothing else depends on). The sub-models of an effect's
    model are invest, operation and all (effects.py 149-178); the first variable of each is its sum (features.py 880-900). *)
Definition effect_key (unit : effect -> string) (e : effect) : string := cat [e_label e; " ["; unit e; "]"].
Definition sum_result (st : option asg) (m : emodel) : res Q := v <- first_var m ;; py_float (var_result st v).
Definition effect_entry (st : option asg) (m : emodel) : res (Q * Q * Q) :=
  match em_subs m with
  | [inv; op; all] => o <- sum_result st op ;; i <- sum_result st inv ;; a <- sum_result st all ;; Ok (o, i, a)
  | _ => Err AttributeError
  end.

(** structure.py 178-182: is there an excess at the bus? The second sum is taken only if the first is small. *)
Definition has_excess (st : option asg) (m : emodel) : res bool :=
  match em_vars m with
  | [ei; eo] => i <- py_sum (var_result st ei) ;; if above i then Ok true else o <- py_sum (var_result st eo) ;; Ok (above o)
  | _ => Err AttributeError
  end.
Definition bus_entry (st : option asg) (bm : bus * emodel) : res (list string) :=
  match b_penalty (fst bm) with
  | None => Ok []
  | Some _ => e <- has_excess st (snd bm) ;; Ok (if e then [b_lab (fst bm)] else [])
  end.

Record main : Type := mkMain {
  mn_effects : list (string * (Q * Q * Q));   (** 'Effects': operation, invest, sum *)
  mn_penalty : Q;
  mn_objective : Q;
  mn_excess : list string;                    (** 'buses with excess' *)
  mn_invested : list (string * Q);            (** 'Invest-Decisions', 'invested' *)
  mn_not_invested : list (string * Q)
}.

(** structure.py 165-196. [own]: this calculation's model; [shared]: the model that the effects and buses of the flow system refer to
    (None: one that was never solved, see [do_sop]). 'lower bound' is the solver's and left out. The objective of a model without
    result is not reached (the penalty raises before). *)
Definition main_results (ord : list nat -> list nat) (unit : effect -> string) (fs : flow_system) (own : system_model)
           (shared : option system_model) : res main :=
  sh <- of_option TypeError shared ;;
  effs <- mapM (fun em => r <- effect_entry (sm_state sh) (snd em) ;; Ok (effect_key unit (fst em), r))
            (combine (fs_effects fs) (em_subs (bs_effects (sm_built sh)))) ;;
  pen <- of_option AttributeError (nth_error (rev (em_subs (bs_effects (sm_built own)))) 0) ;;
  p <- sum_result (sm_state own) pen ;;
  x <- of_option TypeError (sm_state own) ;;
  bs <- mapM (bus_entry (sm_state sh)) (combine (buses ord fs) (bs_buses (sm_built sh))) ;;
  inv <- mapM (fun em => q <- sum_result (sm_state own) (snd em) ;; Ok (fst em, q)) (investments (sm_built own)) ;;
  Ok (mkMain (str_dict effs) p (objective_value (sm_prog own) x) (List.concat bs)
        (str_dict (filter (fun e => above (snd e)) inv)) (str_dict (filter (fun e => negb (above (snd e))) inv))).

(** ** Several calculations on one flow system *)
(** [se_calcs]: the calculations created, each with its time indices and its model. [se_owner]: the calculation modelled last. *)
Record session : Type := mkSession {
  se_fs : flow_system; se_calcs : list (option (list nat) * option system_model); se_owner : option nat }.
Definition new_session (fs : flow_system) (idxs : list (option (list nat))) : session :=
  mkSession fs (map (fun i => (i, None)) idxs) None.

Inductive sop : Type :=
| SModel (k : nat)                          (** calculation k: do_modeling() *)
| SSolve (k : nat) (answer : option asg)    (** calculation k: solve(); the solver's values, or None if the solver raises *)
| SMain (k : nat).                          (** calculation k: system_model.main_results *)

Fixpoint set_calc (k : nat) (m : option system_model) (l : list (option (list nat) * option system_model)) :=
  match l, k with
  | [], _ => []
  | (i, _) :: l, O => (i, m) :: l
  | c :: l, S k => c :: set_calc k m l
  end.
Definition model_of (s : session) (k : nat) : option system_model :=
  match nth_error (se_calcs s) k with Some (_, m) => m | None => None end.
Definition shared_model (s : session) : option system_model :=
  match se_owner s with Some k => model_of s k | None => None end.

(** calculation.py 150-155 [do_modeling] *)
Definition modelled (cf : config) (ord : list nat -> list nat) (fs : flow_system) (idx : option (list nat)) : res system_model :=
  b <- build_system cf ord fs idx ;; pm <- system_translate (bs_roots b) (bs_obj b) ;; a <- time_axis fs idx ;; Ok (mkSM b pm a None).

(** The session after a call and what the call returns (main results only). After a modelling that raises, the calculation cannot be
    solved and the elements refer to unfinished models; both are None here. solve() shows the main results at its end
    (structure.py 85-114), so it raises if they cannot be computed. A call on a calculation that was not created is not a program. *)
Definition do_sop (cf : config) (ord : list nat -> list nat) (unit : effect -> string) (s : session) (o : sop) : session * res (option main) :=
  match o with
  | SModel k =>
      match nth_error (se_calcs s) k with
      | None => (s, Err IndexError)
      | Some (idx, _) =>
          match modelled cf ord (se_fs s) idx with
          | Ok m => (mkSession (after_modeling cf ord (se_fs s) idx) (set_calc k (Some m) (se_calcs s)) (Some k), Ok None)
          | Err e => (mkSession (after_modeling cf ord (se_fs s) idx) (set_calc k None (se_calcs s)) None, Err e)
          end
      end
  | SSolve k answer =>
      match model_of s k with
      | None => (s, Err AttributeError)
      | Some m =>
          let m' := mkSM (sm_built m) (sm_prog m) (sm_axis m) answer in
          let s' := mkSession (se_fs s) (set_calc k (Some m') (se_calcs s)) (se_owner s) in
          (s', match answer with
               | None => Err PyException
               | Some _ => _ <- main_results ord unit (se_fs s') m' (shared_model s') ;; Ok None
               end)
      end
  | SMain k =>
      (s, match model_of s k with
          | None => Err AttributeError
          | Some m => r <- main_results ord unit (se_fs s) m (shared_model s) ;; Ok (Some r)
          end)
  end.
Definition session_after (cf : config) (ord : list nat -> list nat) (unit : effect -> string) (fs : flow_system) (idxs : list (option (list nat)))
           (l : list sop) : session := fold_left (fun s o => fst (do_sop cf ord unit s o)) l (new_session fs idxs).
