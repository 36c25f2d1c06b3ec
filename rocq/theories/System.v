(** Model of flixOpt/flow_system.py (registration, time data) and of the construction of the optimisation problem
    (structure.py 35-64, calculation.py 150-162). Time stamps are rational numbers of hours. *)
From Verif Require Import Base MathModel Structure Params Features Elements.

(** ** Configuration constants (config.yaml) *)
Record config : Type := mkConfig { cf_eps : Q; cf_big : Q }.
Definition default_config : config := mkConfig (1 # 100000) (10000000 # 1).

(** ** FlowSystem (flow_system.py 29-70) *)
Record flow_system : Type := mkFS {
  fs_times : list Q;
  fs_end : Q;
  fs_prev_dt : numeric;
  fs_effects : list effect;
  fs_comps : list component
}.
Definition fs_with_end (fs : flow_system) : list Q := fs_times fs ++ [fs_end fs].

(** [time_series[1:] - time_series[:-1]]. *)
Fixpoint diffs (l : list Q) : list Q :=
  match l with
  | a :: ((b :: _) as r) => (b - a) :: diffs r
  | _ => []
  end.

(** flow_system.py 51-70. [unit] is the length in hours of one unit of the array's datetime64 type: a number given as
    last_time_step_hours is added in that unit (58), while None repeats the last increment. utils.py 51-65: decreasing
    stamps are refused. *)
Definition mk_flow_system (times : list Q) (unit : Q) (last : option Q) (prev : option numeric) : res flow_system :=
  t1 <- of_option IndexError (nth_error (rev times) 0) ;;
  last' <- match last with
           | Some k => Ok (k * unit)
           | None => t2 <- of_option IndexError (nth_error (rev times) 1) ;; Ok (t1 - t2)
           end ;;
  prev' <- match prev with
           | Some p => Ok p
           | None => a <- of_option IndexError (nth_error times 0) ;; b <- of_option IndexError (nth_error times 1) ;;
                     Ok (NS (b - a))
           end ;;
  _ <- guard (forallb (fun d => Qle_bool 0 d) (diffs (times ++ [t1 + last']))) PyException ;;
  Ok (mkFS times (t1 + last') prev' [] []).

(** flow_system.py 277-288: which elements exist. *)
Definition all_flows (fs : flow_system) : list (component * flow) :=
  flat_map (fun c => map (fun f => (c, f)) (cp_flows c)) (fs_comps fs).
Definition flow_fulls (fs : flow_system) : list string :=
  map (fun cf : component * flow => flow_full (cp_label (fst cf)) (f_lab (snd cf))) (all_flows fs).
Definition bus_labels (fs : flow_system) : list string := map (fun cf => b_lab (f_bus (snd cf))) (all_flows fs).
Definition effect_labels (fs : flow_system) : list string := map e_label (fs_effects fs).

(** flow_system.py 287-288: in [all_elements] later groups hide earlier ones with the same label; hidden elements are
    not transformed. *)
Definition visible_comp (fs : flow_system) (l : string) : bool :=
  negb (mem_str l (effect_labels fs) || mem_str l (flow_fulls fs) || mem_str l (bus_labels fs))%bool.
Definition visible_effect (fs : flow_system) (l : string) : bool :=
  negb (mem_str l (flow_fulls fs) || mem_str l (bus_labels fs))%bool.
Definition visible_flow (fs : flow_system) (l : string) : bool := negb (mem_str l (bus_labels fs)).

(** flow_system.py 282-284 [buses]: a dict by label, filled in the iteration order of a set of flows ([ord], by flow
    id); for one label the last bus wins. *)
Fixpoint dict_set {A} (k : string) (v : A) (d : list (string * A)) : list (string * A) :=
  match d with
  | [] => [(k, v)]
  | (k', v') :: r => if String.eqb k k' then (k', v) :: r else (k', v') :: dict_set k v r
  end.
Definition bus_of_flow (fs : flow_system) (i : nat) : option bus :=
  option_map (fun cf => f_bus (snd cf)) (find (fun cf : component * flow => Nat.eqb (f_id (snd cf)) i) (all_flows fs)).
Definition buses (ord : list nat -> list nat) (fs : flow_system) : list bus :=
  map snd (fold_left (fun d i => match bus_of_flow fs i with Some b => dict_set (b_lab b) b d | None => d end)
             (ord (nodup Nat.eq_dec (map (fun cf => f_id (snd cf)) (all_flows fs)))) []).

(** ** Time data (flow_system.py 228-269) *)
Definition qsum_list (l : list Q) : Q := Qsum l.
Definition time_data (fs : flow_system) (idx : option (list nat)) : res (list Q * Q) :=
  let ix := match idx with Some l => l | None => seq 0 (length (fs_times fs)) end in
  ts <- take_idx (fs_times fs) ix ;;
  last <- of_option IndexError (nth_error (rev ix) 0) ;;
  e <- of_option IndexError (nth_error (fs_with_end fs) (last + 1)) ;;
  let dt := diffs (ts ++ [e]) in
  Ok (dt, qsum_list dt).

Definition make_ctx (cf : config) (ord : list nat -> list nat) (fs : flow_system) (idx : option (list nat)) : res ctx :=
  ' (dt, tot) <- time_data fs idx ;;
  Ok (mkCtx (length dt) dt tot (fs_prev_dt fs) idx (fs_effects fs) (cf_eps cf) (cf_big cf) ord).

(** ** Building (structure.py 57-64) *)

(** elements.py 79-83 [register_flows_in_bus]: the flows of a bus in order of registration. *)
Definition bus_inputs (fs : flow_system) (b : bus) : list nat :=
  flat_map (fun c => map f_id (filter (fun f => Nat.eqb (b_id (f_bus f)) (b_id b)) (cp_out c))) (fs_comps fs).
Definition bus_outputs (fs : flow_system) (b : bus) : list nat :=
  flat_map (fun c => map f_id (filter (fun f => Nat.eqb (b_id (f_bus f)) (b_id b)) (cp_in c))) (fs_comps fs).

Definition no_dup_nat (l : list nat) : bool := Nat.eqb (length (nodup Nat.eq_dec l)) (length l).

Record built_system : Type := mkBuilt {
  bs_cx : ctx;
  bs_effects : emodel;
  bs_comps : list comp_out;
  bs_buses : list emodel;
  bs_obj : constraint
}.
Definition bs_roots (b : built_system) : list emodel := bs_effects b :: map co_tree (bs_comps b) ++ bs_buses b.

(** structure.py 57-64 [SystemModel.do_modeling] after transform_data and activation of the indices (calculation.py
    150-158). A Flow object used twice gets two models with the same labels, which SystemModel refuses (KeyError, 205-224);
    the model refuses it here. *)
Definition build_system (cf : config) (ord : list nat -> list nat) (fs : flow_system) (idx : option (list nat))
  : res built_system :=
  cx <- make_ctx cf ord fs idx ;;
  _ <- guard (no_dup_nat (map (fun cf => f_id (snd cf)) (all_flows fs))) KeyError ;;
  cos <- mapM (comp_model cx (visible_flow fs) (visible_comp fs)) (fs_comps fs) ;;
  let fos := flat_map co_flows cos in
  let rates (ids : list nat) : res (list variable) := mapM (fun i => o <- find_fo fos i ;; Ok (fo_rate o)) ids in
  bos <- mapM (fun b => i <- rates (bus_inputs fs b) ;; o <- rates (bus_outputs fs b) ;; bus_model cx b i o)
              (buses ord fs) ;;
  ' (em, obj) <- effects_model cx (visible_effect fs) (flat_map co_shares cos ++ flat_map snd bos) ;;
  Ok (mkBuilt cx em cos (map fst bos) obj).

(** calculation.py 150-162 [FullCalculation.do_modeling] and math_modeling.py 1027-1040: the program given to pyomo. *)
Definition build (cf : config) (ord : list nat -> list nat) (fs : flow_system) (idx : option (list nat)) : res pmodel :=
  b <- build_system cf ord fs idx ;; system_translate (bs_roots b) (bs_obj b).

(** ** Registration (flow_system.py 72-107, 213-226; effects.py 277-286) *)
Definition add_effect (es : list effect) (e : effect) : res (list effect) :=
  _ <- guard (negb (e_std e && is_some (standard_effect es))%bool) PyException ;;
  _ <- guard (negb (e_obj e && is_some (objective_effect es))%bool) PyException ;;
  _ <- guard (negb (existsb (fun e' => Nat.eqb (e_id e') (e_id e)) es)) PyException ;;
  _ <- guard (negb (mem_str (e_label e) (map e_label es))) PyException ;;
  Ok (es ++ [e]).
Definition with_effects (fs : flow_system) (es : list effect) : flow_system :=
  mkFS (fs_times fs) (fs_end fs) (fs_prev_dt fs) es (fs_comps fs).
Definition with_comps (fs : flow_system) (cs : list component) : flow_system :=
  mkFS (fs_times fs) (fs_end fs) (fs_prev_dt fs) (fs_effects fs) cs.

(** flow_system.py 222: an element is looked up among string keys, which never matches; 225: the label must be new. *)
Definition add_component (fs : flow_system) (c : component) : res flow_system :=
  _ <- guard (negb (mem_str (cp_label c) (map cp_label (fs_comps fs) ++ effect_labels fs ++ flow_fulls fs ++ bus_labels fs)))
         PyException ;;
  Ok (with_comps fs (fs_comps fs ++ [c])).
Inductive element : Type := ElEffect (e : effect) | ElComp (c : component) | ElOther.
Definition add_element (fs : flow_system) (a : element) : res flow_system :=
  match a with
  | ElEffect e => es <- add_effect (fs_effects fs) e ;; Ok (with_effects fs es)
  | ElComp c => add_component fs c
  | ElOther => Err PyException
  end.
(** flow_system.py 87-103 [add_elements]: stops at the first exception; earlier elements stay. *)
Fixpoint add_elements (fs : flow_system) (l : list element) : flow_system * option exn :=
  match l with
  | [] => (fs, None)
  | a :: r => match add_element fs a with Ok fs' => add_elements fs' r | Err e => (fs, Some e) end
  end.
