(** Model of aggregated calculations: aggregation.py 161-217 (index pairs), 264-430 ([AggregationParameters], [AggregationModel]) and
    calculation.py 177-289 ([AggregatedCalculation]). The clustering itself (tsam) is an argument. *)
From Coq Require Import Qround.
From Verif Require Import Base MathModel Structure Params Features Elements System.

(** ** Index pairs (aggregation.py 161-217) *)

(** What tsam reports: the cluster ids (clusterPeriodNoOccur.keys()), the cluster of each period (clusterOrder), the number of steps of a
    period (len(stepIdx)) and of the whole time series (len(timeSeries)). *)
Record clustering : Type := mkClustering { cl_ids : list nat; cl_order : list nat; cl_period : nat; cl_total : nat }.

Definition index_vector (cl : clustering) (period : nat) : list nat :=
  let start := (period * cl_period cl)%nat in
  seq start (Nat.min (start + cl_period cl) (cl_total cl) - start).
Fixpoint append_to (k : nat) (v : list nat) (d : list (nat * list (list nat))) : res (list (nat * list (list nat))) :=
  match d with
  | [] => Err KeyError
  | (k', vs) :: r => if Nat.eqb k k' then Ok ((k', vs ++ [v]) :: r) else r' <- append_to k v r ;; Ok ((k', vs) :: r')
  end.
(** aggregation.py 161-184 [get_cluster_indices]. *)
Definition cluster_indices (cl : clustering) : res (list (nat * list (list nat))) :=
  foldM (fun d pk => append_to (snd pk) (index_vector cl (fst pk)) d) (combine (seq 0 (length (cl_order cl))) (cl_order cl))
        (map (fun k => (k, [])) (cl_ids cl)).
(** aggregation.py 186-217 [get_equation_indices]. *)
Definition vector_pairs (skip : bool) (vectors : list (list nat)) : list (nat * nat) :=
  match vectors with
  | first :: (_ :: _) as others =>
      let cut := if skip then @tl nat else fun v => v in
      flat_map (fun other => combine (cut first) (cut other)) (tl vectors)
  | _ => []
  end.
Definition equation_indices (skip : bool) (cl : clustering) : res (list (nat * nat)) :=
  d <- cluster_indices cl ;; Ok (flat_map (fun kv => vector_pairs skip (snd kv)) d).

(** ** AggregationModel (aggregation.py 264-430) *)
Record agg_params : Type := mkAgg { ag_fix_storage : bool; ag_fix_all : bool; ag_freedom : Q; ag_penalty : Q }.

(** Python's round: to the nearest integer, halves to the even one. *)
Definition py_round (q : Q) : Z :=
  let f := Qfloor q in
  match Qcompare (q - inject_Z f) (1 # 2) with
  | Lt => f
  | Gt => (f + 1)%Z
  | Eq => if Z.even f then f else (f + 1)%Z
  end.

Definition agg_full : string := model_full "Aggregation" (Some "Model").

(** aggregation.py 389-430 [equate_indices]: new variables and constraints. *)
Definition equate_indices (ap : agg_params) (pairs : list (nat * nat)) (v : variable) : res (list variable * list constraint) :=
  let lab p := cat [p; v_label v] in
  let eq_calls := [AddS v (NS 1) (Some (map fst pairs)) false; AddS v (NS (-1)) (Some (map snd pairs)) false] in
  if (v_bin v && negb (Qle_bool (ag_freedom ap) 0))%bool then
    k1 <- create_variable agg_full (lab "Korr1_") (length pairs) true None None None None ;;
    k0 <- create_variable agg_full (lab "Korr0_") (length pairs) true None None None None ;;
    eq <- create_equation agg_full (lab "Equate_indices_of_") KEq (eq_calls ++ [AddS k1 (NS 1) None false; AddS k0 (NS (-1)) None false]) ;;
    lock <- create_equation agg_full (lab "lock_K0andK1_") KIneq [AddS k0 (NS 1) None false; AddS k1 (NS 1) None false; AddC (NS (11 # 10))] ;;
    mx <- create_equation agg_full (lab "Nr_of_Corrections_") KIneq
            [AddS k1 (NS 1) None true; AddS k0 (NS 1) None true;
             AddC (NS (inject_Z (py_round (ag_freedom ap / 100 * inject_Z (Z.of_nat (length pairs))))))] ;;
    Ok ([k1; k0], [eq; lock; mx])
  else
    eq <- create_equation agg_full (lab "Equate_indices_of_") KEq eq_calls ;; Ok ([], [eq]).

(** aggregation.py 360-387 [do_modeling]. The components to clusterize are given by label, [None] or an empty list stand for all; a component
    that is not part of the flow system has no model (AttributeError). [cos] are the models of the components in the order of [comps]. *)
Definition is_storage (c : component) : bool := match cp_kind c with StorageC _ => true | _ => false end.
Definition chosen_components (sel : option (list string)) (comps : list component) (cos : list comp_out) : res (list (component * comp_out)) :=
  let all := combine comps cos in
  match sel with
  | None | Some [] => Ok all
  | Some ls => mapM (fun l => of_option AttributeError (find (fun co : component * comp_out => String.eqb (cp_label (fst co)) l) all)) ls
  end.
Definition relevant_variables (ap : agg_params) (co : component * comp_out) : res (list variable) :=
  if (is_storage (fst co) && negb (ag_fix_storage ap))%bool then Ok []
  else vs <- em_all_variables (co_tree (snd co)) ;;
       Ok (filter (fun v => v_ts v && (ag_fix_all ap || v_bin v))%bool vs).
Definition aggregation_model (ap : agg_params) (cl : clustering) (sel : option (list string)) (comps : list component) (cos : list comp_out)
  : res (emodel * list share) :=
  chosen <- chosen_components sel comps cos ;;
  pairs <- equation_indices true cl ;;
  vss <- mapM (relevant_variables ap) chosen ;;
  parts <- mapM (equate_indices ap pairs) (List.concat vss) ;;
  m <- mk_em agg_full "Model" (flat_map fst parts) (flat_map snd parts) [] ;;
  let shares := if (negb (Qle_bool (ag_freedom ap) 0) && negb (Qeq_bool (ag_penalty ap) 0))%bool
                then map (fun k => mkShare TPen (cat ["Aggregation_penalty__"; v_label k]) (Some k) (NS (ag_penalty ap)) true) (flat_map fst parts)
                else [] in
  Ok (m, shares).

(** ** AggregatedCalculation.do_modeling (calculation.py 218-279)

    The data of the flow system [fs] is the data the time series show when the model is built (PropsSeries, C29, C39); the checks made before the
    clustering are [agg_checks]. The penalty shares of the aggregation arrive after all others. Dividing by a numpy
    zero gives inf or nan, neither of which is_integer. *)
Definition all_same (l : list Q) : bool := match l with [] => true | a :: r => forallb (Qeq_bool a) r end.
Definition agg_checks (fs : flow_system) (idx : option (list nat)) (hours_per_period : Q) : res unit :=
  ' (dt, _) <- time_data fs idx ;;
  _ <- guard (all_same dt) ValueError ;;
  d0 <- of_option ValueError (nth_error dt 0) ;;
  _ <- guard (negb (Qeq_bool d0 0)) PyException ;;
  guard (Qeq_bool (inject_Z (Qfloor (hours_per_period / d0))) (hours_per_period / d0)) PyException.

Record agg_built : Type := mkAggBuilt { ab_roots : list emodel; ab_obj : constraint }.
Definition build_agg_system (cf : config) (ord : list nat -> list nat) (fs : flow_system) (idx : option (list nat))
           (ap : agg_params) (cl : clustering) (sel : option (list string)) : res agg_built :=
  cx <- make_ctx cf ord fs idx ;;
  _ <- guard (no_dup_nat (map (fun cf => f_id (snd cf)) (all_flows fs))) KeyError ;;
  cos <- mapM (comp_model cx (visible_flow fs) (visible_comp fs)) (fs_comps fs) ;;
  let fos := flat_map co_flows cos in
  let rates (ids : list nat) : res (list variable) := mapM (fun i => o <- find_fo fos i ;; Ok (fo_rate o)) ids in
  bos <- mapM (fun b => i <- rates (bus_inputs fs b) ;; o <- rates (bus_outputs fs b) ;; bus_model cx b i o)
              (buses ord fs) ;;
  ' (am, pen) <- aggregation_model ap cl sel (fs_comps fs) cos ;;
  ' (em, obj) <- effects_model cx (visible_effect fs) (flat_map co_shares cos ++ flat_map snd bos ++ pen) ;;
  Ok (mkAggBuilt ((em :: map co_tree cos ++ map fst bos) ++ [am]) obj).
Definition build_aggregated (cf : config) (ord : list nat -> list nat) (fs : flow_system) (idx : option (list nat)) (hours_per_period : Q)
           (ap : agg_params) (cl : clustering) (sel : option (list string)) : res pmodel :=
  _ <- agg_checks fs idx hours_per_period ;;
  b <- build_agg_system cf ord fs idx ap cl sel ;; system_translate (ab_roots b) (ab_obj b).
