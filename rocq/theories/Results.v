(** Model of how solver values become results and of how results are presented: math_modeling.py 520-526, 1006-1025,
    structure.py 153-163, 487-491 ([results]), calculation.py 121-162 (one calculation: modelling, solving, results),
    results.py 88-150, 401-470 (tables of flow rates). *)
From Verif Require Import Base MathModel Spec Structure Params Features Elements System Tree Values.

(** ** Writing results (math_modeling.py 1013-1025)
    np.fromiter with dtype int8 truncates towards zero; a single value becomes a numpy scalar. Trusted: after a successful
    solve pyomo knows a value for every variable. *)
Definition truncate (q : Q) : Z := Z.quot (Qnum q) (Zpos (Qden q)).
Definition written (v : variable) (x : asg) (i : nat) : Q :=
  if v_bin v then inject_Z (truncate (x (v_label v) i)) else x (v_label v) i.
Definition var_result (st : option asg) (v : variable) : leaf :=
  match st with
  | None => LNone
  | Some x => match map (written v x) (seq 0 (v_len v)) with
              | [q] => LNum true (v_bin v) q
              | l => LArr (if v_bin v then AInt else AFlt) l
              end
  end.

(** structure.py 487-491 [ElementModel.results]: variables by short label, then sub-models by label, in one dict. *)
Fixpoint em_results (st : option asg) (m : emodel) : tree leaf :=
  let 'EM _ _ vars _ subs := m in
  Node (str_dict (map (fun v => (v_short v, Leaf (var_result st v))) vars ++ map (fun s => (em_label s, em_results st s)) subs)).

(** structure.py 153-163 [SystemModel.results]. [axis]: time_series_with_end; [kd]: the kind of its entries. *)
Definition time_axis (fs : flow_system) (idx : option (list nat)) : res (list Q) :=
  let ix := match idx with Some l => l | None => seq 0 (length (fs_times fs)) end in
  ts <- take_idx (fs_times fs) ix ;;
  last <- of_option IndexError (nth_error (rev ix) 0) ;;
  e <- of_option IndexError (nth_error (fs_with_end fs) (last + 1)) ;;
  Ok (ts ++ [e]).
Definition system_results (b : built_system) (pm : pmodel) (kd : akind) (axis : list Q) (st : option asg) : list (string * tree leaf) :=
  [("Components", Node (str_dict (map (fun co => (em_label (co_tree co), em_results st (co_tree co))) (bs_comps b))));
   ("Effects", em_results st (bs_effects b));
   ("Buses", Node (str_dict (map (fun m => (em_label m, em_results st m)) (bs_buses b))));
   ("Others", Node []);
   ("Objective", Leaf (match st with None => LNone | Some x => LNum false false (objective_value pm x) end));
   ("Time", Leaf (LArr kd axis));
   ("Time intervals in hours", Leaf (LArr AFlt (cx_dt (bs_cx b))))].

(** ** One FullCalculation (calculation.py 37-72, 121-124, 150-175) *)
Record system_model : Type := mkSM { sm_built : built_system; sm_prog : pmodel; sm_axis : list Q; sm_state : option asg }.
Record calculation : Type := mkCalc { ca_model : option system_model; ca_cached : option (list (string * tree leaf)) }.
Definition new_calculation : calculation := mkCalc None None.

Inductive cop : Type :=
| DoModeling                      (** do_modeling() *)
| Solve (answer : option asg)     (** solve(): the solver's values, or None if the solver raises *)
| GetResults.                     (** results() *)

Definition sm_results (kd : akind) (s : system_model) : list (string * tree leaf) :=
  system_results (sm_built s) (sm_prog s) kd (sm_axis s) (sm_state s).

(** The state after a call and what the call returns (results only). Old results are deleted before the solver starts
    (math_modeling.py 523-524). results() keeps what it computed first (121-124). *)
Definition do_cop (cf : config) (ord : list nat -> list nat) (fs : flow_system) (idx : option (list nat)) (kd : akind)
           (c : calculation) (o : cop) : calculation * res (option (list (string * tree leaf))) :=
  match o with
  | DoModeling =>
      match (b <- build_system cf ord fs idx ;; pm <- system_translate (bs_roots b) (bs_obj b) ;; a <- time_axis fs idx ;; Ok (mkSM b pm a None)) with
      | Ok s => (mkCalc (Some s) (ca_cached c), Ok None)
      | Err e => (c, Err e)
      end
  | Solve answer =>
      match ca_model c with
      | None => (c, Err AttributeError)
      | Some s => (mkCalc (Some (mkSM (sm_built s) (sm_prog s) (sm_axis s) answer)) (ca_cached c),
                   match answer with Some _ => Ok None | None => Err PyException end)
      end
  | GetResults =>
      match ca_cached c, ca_model c with
      | Some r, _ => (c, Ok (Some r))
      | None, Some s => (mkCalc (Some s) (Some (sm_results kd s)), Ok (Some (sm_results kd s)))
      | None, None => (c, Err AttributeError)
      end
  end.
Definition calls (cf : config) (ord : list nat -> list nat) (fs : flow_system) (idx : option (list nat)) (kd : akind)
           (l : list cop) : calculation :=
  fold_left (fun c o => fst (do_cop cf ord fs idx kd c o)) l new_calculation.

(** ** Tables of flow rates (results.py 401-470). They are computed from loaded results, which equal the saved ones (C41);
    the saved description of the elements is taken from the elements directly. *)
Record flow_result : Type := mkFR { fr_full : string; fr_bus : string; fr_input : bool; fr_vars : tree leaf }.

(** results.py 421-432 [_create_flow_results], 415-419. *)
Definition flow_infos (c : component) : list (string * (string * bool)) :=
  str_dict (map (fun f => (f_lab f, (b_lab (f_bus f), true))) (cp_in c) ++ map (fun f => (f_lab f, (b_lab (f_bus f), false))) (cp_out c)).
Definition component_flows (t : tree leaf) (c : component) : res (list flow_result) :=
  fl <- mapM (fun kv : string * (string * bool) =>
                r <- of_option KeyError (extract t [fst kv]) ;;
                Ok (mkFR (flow_full (cp_label c) (fst kv)) (fst (snd kv)) (snd (snd kv)) r)) (flow_infos c) ;;
  Ok (filter fr_input fl ++ filter (fun f => negb (fr_input f)) fl).

(** results.py 88-98, 129-132 [flow_results]: by full label. *)
Definition flow_results (r : list (string * tree leaf)) (fs : flow_system) : res (list (string * flow_result)) :=
  fl <- mapM (fun c => t <- of_option KeyError (extract (Node r) ["Components"; cp_label c]) ;; component_flows t c) (fs_comps fs) ;;
  Ok (str_dict (map (fun f => (fr_full f, f)) (List.concat fl))).

(** [array * factor]; a table of scalars cannot be built (pandas: ValueError). *)
Definition column (f : Q) (t : option (tree leaf)) : res (list Q) :=
  match t with
  | Some (Leaf (LArr AInt l)) | Some (Leaf (LArr AFlt l)) => Ok (map (fun q => q * f) l)
  | Some _ => Err ValueError
  | None => Err KeyError
  end.

(** results.py 109-128 [_construct_bus_results] and 450-470 [BusResults.to_dataframe] with both factors given. *)
Definition bus_table (r : list (string * tree leaf)) (fs : flow_system) (label : string) (var : string) (inf outf : Q)
  : res (list (string * list Q)) :=
  fl <- flow_results r fs ;;
  bt <- of_option KeyError (extract (Node r) ["Buses"; label]) ;;
  let at_bus := filter (fun f => String.eqb label (fr_bus f)) (map snd fl) in
  ins <- mapM (fun f => c <- column inf (extract (fr_vars f) [var]) ;; Ok (fr_full f, c)) (filter (fun f => negb (fr_input f)) at_bus) ;;
  xi <- match extract bt ["excess_input"] with Some t => c <- column inf (Some t) ;; Ok [("Excess Input", c)] | None => Ok [] end ;;
  outs <- mapM (fun f => c <- column outf (extract (fr_vars f) [var]) ;; Ok (fr_full f, c)) (filter fr_input at_bus) ;;
  xo <- match extract bt ["excess_output"] with Some t => c <- column outf (Some t) ;; Ok [("Excess Output", c)] | None => Ok [] end ;;
  Ok (str_dict (str_dict (ins ++ xi) ++ str_dict (outs ++ xo))).
