(** Model of the way of the data of a flow system through an aggregated calculation: the time series the elements create (transform_data of
    elements.py, components.py, effects.py, interface.py), their collection (aggregation.py 220-260, calculation.py 217-276) and the return of
    the aggregated data. tsam is an argument. Series.v has the life of single time series, this file says which there are. *)
From Verif Require Import Base MathModel Structure Params Features Elements System Aggregation Series.

(** structure.py 502-515 [_create_time_series]: the label of a time series. *)
Definition ts_name (full label : string) : string := cat [full; "__"; label].
(** effects.py 194-206, 221-226: labels of values per effect. An effect that is not registered has no name here. *)
Definition effect_named (es : list effect) (i : nat) : string :=
  match find (fun e => Nat.eqb (e_id e) i) es with Some e => e_label e | None => "" end.
Definition value_name (es : list effect) (k : option nat) (suffix : string) : string :=
  match k with None => cat ["Standard_Effect_"; suffix] | Some i => cat [effect_named es i; "_"; suffix] end.
(** components.py 115-116: the label of a flow named in conversion factors. A flow of another component has no name here. *)
Definition flow_named (c : component) (i : nat) : string := match find (fun f => Nat.eqb (f_id f) i) (cp_flows c) with Some f => f_lab f | None => "" end.

(** ** The time series of an element, in the order of creation *)
Definition opt_param (full label : string) (p : option param) : list (string * param) := match p with Some q => [(ts_name full label, q)] | None => [] end.
(** effects.py 209-227. *)
Definition value_params (es : list effect) (full suffix : string) (v : evalues) : list (string * param) :=
  map (fun kp => (ts_name full (value_name es (fst kp) suffix), snd kp)) (effect_dict_ts v).
(** interface.py 153-172 [OnOffParameters.transform_data]. *)
Definition onoff_params (es : list effect) (full : string) (o : option onoff) : list (string * param) :=
  match o with
  | None => []
  | Some p => value_params es full "per_switch_on" (oo_switch_eff p) ++ value_params es full "per_running_hour" (oo_run_eff p)
      ++ opt_param full "consecutive_on_hours_min" (oo_con_min p) ++ opt_param full "consecutive_on_hours_max" (oo_con_max p)
      ++ opt_param full "consecutive_off_hours_min" (oo_coff_min p) ++ opt_param full "consecutive_off_hours_max" (oo_coff_max p)
  end.
(** elements.py 244-252 [Flow.transform_data]. *)
Definition flow_params (es : list effect) (c : component) (f : flow) : list (string * param) :=
  let full := flow_full (cp_label c) (f_lab f) in
  [(ts_name full "relative_minimum", f_relmin f); (ts_name full "relative_maximum", f_relmax f)]
  ++ opt_param full "fixed_relative_profile" (f_profile f) ++ value_params es full "per_flow_hour" (f_effects f) ++ onoff_params es full (f_onoff f).
(** elements.py 71-73 and components.py 94-118, 217-229, 316-319 [Component.transform_data] and its overrides. *)
Definition kind_params (c : component) : list (string * param) :=
  let full := cp_label c in
  match cp_kind c with
  | Plain => []
  | Converter fss => flat_map (map (fun kp => (ts_name full (cat [flow_named c (fst kp); "_factor"]), snd kp))) fss
  | Segmented segs => flat_map (fun ks => flat_map (fun pq => [(ts_name full "Stuetzstelle", fst pq); (ts_name full "Stuetzstelle", snd pq)]) (snd ks)) segs
  | StorageC s => [(ts_name full "relative_minimum_charge_state", st_relmin s); (ts_name full "relative_maximum_charge_state", st_relmax s);
                   (ts_name full "eta_charge", st_eta_c s); (ts_name full "eta_discharge", st_eta_d s); (ts_name full "relative_loss_per_hour", st_loss s)]
  | TransmissionC rel abs => opt_param full "relative_losses" rel ++ opt_param full "absolute_losses" abs
  end.
Definition comp_params (es : list effect) (c : component) : list (string * param) := onoff_params es (cp_label c) (cp_onoff c) ++ kind_params c.
(** effects.py 134-144 [Effect.transform_data]. *)
Definition effect_params (es : list effect) (e : effect) : list (string * param) :=
  opt_param (e_label e) "minimum_operation_per_hour" (e_min_ph e) ++ opt_param (e_label e) "maximum_operation_per_hour" (e_max_ph e)
  ++ map (fun kp => (ts_name (e_label e) (value_name es (Some (fst kp)) "specific_share_to_other_effects_operation"), snd kp)) (e_share_op e).
(** elements.py 122-125 [Bus.transform_data]. *)
Definition bus_params (b : bus) : list (string * param) := opt_param (b_lab b) "excess_penalty_per_flow_hour" (b_penalty b).

(** flow_system.py 105-107, 287-292 [transform_data], [all_time_series]: elements hidden by others with the same label have none. The flows come
    in the order of the components; the order of Python's set decides in the code, it only orders the columns given to tsam. *)
Definition system_params (ord : list nat -> list nat) (fs : flow_system) : list (string * param) :=
  let es := fs_effects fs in
  flat_map (comp_params es) (filter (fun c => visible_comp fs (cp_label c)) (fs_comps fs))
  ++ flat_map (effect_params es) (filter (fun e => visible_effect fs (e_label e)) es)
  ++ flat_map (fun cf => flow_params es (fst cf) (snd cf)) (filter (fun cf => visible_flow fs (flow_full (cp_label (fst cf)) (f_lab (snd cf)))) (all_flows fs))
  ++ flat_map bus_params (buses ord fs).

(** ** The collection (calculation.py 217-254, aggregation.py 220-254) *)
Definition system_series (ord : list nat -> list nat) (fs : flow_system) (idx : option (list nat)) : res (list tseries) :=
  l <- mapM (fun lp => mk_ts (fst lp) (snd lp)) (system_params ord fs) ;; Ok (map (set_idx idx) l).
(** The series that go into the aggregation; equal labels are refused. *)
Definition collected (l : list tseries) : res (list tseries) :=
  let a := filter is_array l in _ <- guard (nodup_str (map ts_label a)) AssertionError ;; Ok a.
(** calculation.py 253: pandas refuses columns whose length is not that of the index. *)
Definition column (n : nat) (ts : tseries) : res (string * list Q) :=
  d <- active_data ts ;;
  match d with
  | NV v => _ <- guard (Nat.eqb (length v) n) ValueError ;; Ok (ts_label ts, v)
  | NS _ => Err ValueError
  end.
Definition chosen_steps (fs : flow_system) (idx : option (list nat)) : list nat := match idx with Some l => l | None => seq 0 (length (fs_times fs)) end.
Definition frame (fs : flow_system) (idx : option (list nat)) (a : list tseries) : res (list (string * list Q)) :=
  mapM (column (length (chosen_steps fs idx))) a.

(** ** The return of the data (aggregation.py 256-260, core.py 125-134) *)

(** A function applied to every parameter under its label. *)
Section Remap.
Variable g : string -> param -> param.
Definition re_opt (full label : string) (p : option param) : option param := option_map (g (ts_name full label)) p.
Definition re_values (es : list effect) (full suffix : string) (v : evalues) : evalues :=
  match v with
  | EVNone => EVNone
  | EVOne p => EVOne (g (ts_name full (value_name es None suffix)) p)
  | EVDict l => EVDict (map (fun kp => (fst kp, g (ts_name full (value_name es (fst kp) suffix)) (snd kp))) l)
  end.
Definition re_onoff (es : list effect) (full : string) (p : onoff) : onoff :=
  mkOnOff (re_values es full "per_switch_on" (oo_switch_eff p)) (re_values es full "per_running_hour" (oo_run_eff p)) (oo_on_min p) (oo_on_max p)
    (re_opt full "consecutive_on_hours_min" (oo_con_min p)) (re_opt full "consecutive_on_hours_max" (oo_con_max p))
    (re_opt full "consecutive_off_hours_min" (oo_coff_min p)) (re_opt full "consecutive_off_hours_max" (oo_coff_max p)) (oo_sw_max p) (oo_force p).
Definition re_bus (b : bus) : bus := mkBus (b_id b) (b_lab b) (re_opt (b_lab b) "excess_penalty_per_flow_hour" (b_penalty b)).
Definition re_flow (es : list effect) (c : component) (f : flow) : flow :=
  let full := flow_full (cp_label c) (f_lab f) in
  mkFlow (f_id f) (f_lab f) (re_bus (f_bus f)) (f_size f) (re_opt full "fixed_relative_profile" (f_profile f))
    (g (ts_name full "relative_minimum") (f_relmin f)) (g (ts_name full "relative_maximum") (f_relmax f)) (re_values es full "per_flow_hour" (f_effects f))
    (option_map (re_onoff es full) (f_onoff f)) (f_fh_max f) (f_fh_min f) (f_lf_min f) (f_lf_max f) (f_prev f).
Definition re_kind (c : component) : ckindc :=
  let full := cp_label c in
  match cp_kind c with
  | Plain => Plain
  | Converter fss => Converter (map (map (fun kp => (fst kp, g (ts_name full (cat [flow_named c (fst kp); "_factor"])) (snd kp)))) fss)
  | Segmented segs => Segmented (map (fun ks => (fst ks, map (fun pq => (g (ts_name full "Stuetzstelle") (fst pq), g (ts_name full "Stuetzstelle") (snd pq))) (snd ks))) segs)
  | StorageC s => StorageC (mkStorage (st_cap s) (g (ts_name full "relative_minimum_charge_state") (st_relmin s))
      (g (ts_name full "relative_maximum_charge_state") (st_relmax s)) (st_init s) (st_fmin s) (st_fmax s)
      (g (ts_name full "eta_charge") (st_eta_c s)) (g (ts_name full "eta_discharge") (st_eta_d s)) (g (ts_name full "relative_loss_per_hour") (st_loss s)))
  | TransmissionC rel abs => TransmissionC (re_opt full "relative_losses" rel) (re_opt full "absolute_losses" abs)
  end.
Definition re_comp (es : list effect) (c : component) : component :=
  mkComponent (cp_label c) (map (re_flow es c) (cp_in c)) (map (re_flow es c) (cp_out c)) (option_map (re_onoff es (cp_label c)) (cp_onoff c)) (cp_prevent c) (re_kind c).
Definition re_effect (es : list effect) (e : effect) : effect :=
  mkEffect (e_id e) (e_label e) (e_std e) (e_obj e)
    (map (fun kp => (fst kp, g (ts_name (e_label e) (value_name es (Some (fst kp)) "specific_share_to_other_effects_operation")) (snd kp))) (e_share_op e))
    (e_share_inv e) (e_min_op e) (e_max_op e) (e_min_inv e) (e_max_inv e) (re_opt (e_label e) "minimum_operation_per_hour" (e_min_ph e))
    (re_opt (e_label e) "maximum_operation_per_hour" (e_max_ph e)) (e_min_tot e) (e_max_tot e).
Definition re_system (fs : flow_system) : flow_system :=
  mkFS (fs_times fs) (fs_end fs) (fs_prev_dt fs) (map (re_effect (fs_effects fs)) (fs_effects fs)) (map (re_comp (fs_effects fs)) (fs_comps fs)).
End Remap.

(** aggregation.py 256-260 [insert_data]: a series with array data whose label is a column shows that column instead. The column has an entry for
    each step of the calculation; here it is written to the places of these steps, so that reading the chosen steps gives the column. Two
    simplifications: the chosen steps are different from each other, and a constant column may count as a number. *)
Definition set_data (p : param) (d : numeric) : param := match p with PNum _ => PNum d | PTsd _ g w => PTsd d g w end.
Definition write (ix : list nat) (v old : list Q) : list Q := fold_left (fun l iv => upd (fst iv) (snd iv) l) (combine ix v) old.
Definition shown (ix : list nat) (data : list (string * list Q)) (l : string) (p : param) : param :=
  match make_scalar (pdata p), assoc l data with
  | Ok (NV old), Some v => set_data p (NV (write ix v old))
  | _, _ => p
  end.
Definition with_data (fs : flow_system) (idx : option (list nat)) (data : list (string * list Q)) : flow_system :=
  re_system (shown (chosen_steps fs idx) data) fs.

(** ** AggregatedCalculation.do_modeling as a whole (calculation.py 217-279)
    [tsam]: from the columns and their weights to the clusters and the aggregated columns (aggregation.py 69-99). *)
Definition tsam_input (fs : flow_system) (idx : option (list nat)) (l : list tseries) : res (list (string * list Q) * list (string * Q)) :=
  a <- collected l ;; cols <- frame fs idx a ;; Ok (cols, weights a).
Definition aggregated_run (cf : config) (ord : list nat -> list nat) (fs : flow_system) (idx : option (list nat)) (hpp : Q) (ap : agg_params)
           (tsam : list (string * list Q) -> list (string * Q) -> clustering * list (string * list Q)) (sel : option (list string)) : res pmodel :=
  l <- system_series ord fs idx ;;
  _ <- agg_checks fs idx hpp ;;
  ' (cols, ws) <- tsam_input fs idx l ;;
  let '(cl, data) := tsam cols ws in
  build_aggregated cf ord (if ag_fix_all ap then with_data fs idx data else fs) idx hpp ap cl sel.
