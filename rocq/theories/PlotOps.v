(** Plots of results: results.py 200-302 [CalculationResults.plot_operation], 304-362 [CalculationResults.plot_storage],
    plotting.py 20-195 [with_plotly], 197-313 [with_matplotlib]. Titles, layout, showing and saving of figures are left out. *)
From Verif Require Import Base MathModel Structure Params Features Elements System Tree Values Results Tables Plotting.

(** Colours are the name of a colour scale, which gives the [i]-th of [n] colours (plotly.express and matplotlib), or a list. *)
Inductive palette (C : Type) : Type := Scale (colour : nat -> nat -> C) | Listed (l : list C).
Arguments Scale {C}. Arguments Listed {C}.

(** A figure: nothing drawn; one bar or step line for each column; areas; stacked bars (Matplotlib); the table handed to
    [heat_map_data_from_df], whose work is modelled by [heat_map]. With the x-coordinates of the points. *)
Inductive figure (C : Type) : Type :=
| Blank
| Bars (at_ : list Q) (l : list (string * list Q * C))
| Steps (at_ : list Q) (l : list (string * list Q * C))
| Areas (at_ : list Q) (l : list (trace C))
| Stacked (at_ : list Q) (l : list (bar C * bar C))
| HeatOf (fm : frame).
Arguments Blank {C}. Arguments Bars {C}. Arguments Steps {C}. Arguments Areas {C}. Arguments Stacked {C}. Arguments HeatOf {C}.

(** DataFrame.empty: no columns or no rows. *)
Definition empty_frame (fm : frame) : bool := (Nat.eqb (length (fm_columns fm)) 0 || Nat.eqb (length (fm_index fm)) 0)%bool.

(** plotting.py 80-160 [with_plotly] without a figure to add to; of a scale, at least one colour is taken. *)
Definition with_plotly {C} (data : frame) (mode : string) (colours : palette C) : res (figure C) :=
  _ <- guard (existsb (String.eqb mode) ["bar"; "line"; "area"]) AssertionError ;;
  if empty_frame data then Ok Blank else
  let n := length (fm_columns data) in
  let l := match colours with Scale f => if Nat.ltb 1 n then map (fun i => f i n) (seq 0 n) else [f 0%nat n] | Listed l => l end in
  _ <- guard (Nat.eqb (length l) n) AssertionError ;;
  if String.eqb mode "bar" then Ok (Bars (fm_index data) (combine (fm_columns data) l))
  else if String.eqb mode "line" then Ok (Steps (fm_index data) (combine (fm_columns data) l))
  else trs <- area_traces (fm_columns data) l ;; Ok (Areas (fm_index data) trs).

(** plotting.py 250-296 [with_matplotlib] without a figure to add to. *)
Definition with_matplotlib {C} (data : frame) (mode : string) (colours : palette C) : res (figure C) :=
  _ <- guard (existsb (String.eqb mode) ["bar"; "line"]) AssertionError ;;
  let n := length (fm_columns data) in
  let l := match colours with Scale f => map (fun i => f i n) (seq 0 n) | Listed l => l end in
  _ <- guard (Nat.eqb (length l) n) AssertionError ;;
  if String.eqb mode "bar" then bars <- stacked_bars (length (fm_index data)) (fm_columns data) l ;; Ok (Stacked (fm_index data) bars)
  else Ok (Steps (fm_index data) (combine (fm_columns data) l)).

(** results.py 254-302 [plot_operation]; the threshold is the default of [to_dataframe] (results.py 139). *)
Definition plot_operation {C} (r : list (string * tree leaf)) (fs : flow_system) (label mode var : string) (colours : palette C) (engine : string) (invert : bool)
  : res (figure C) :=
  let heat := String.eqb mode "heatmap" in
  _ <- guard (negb (heat && match colours with Listed _ => true | Scale _ => false end)) ValueError ;;
  data <- to_dataframe r fs label var (if invert then 1 else -1) (if invert then -1 else 1) (Some (1 # 100000)) true ;;
  if String.eqb engine "plotly" then (if heat then Ok (HeatOf data) else with_plotly data mode colours)
  else if String.eqb engine "matplotlib" then (if heat then Ok (HeatOf data) else with_matplotlib data mode colours)
  else Err ValueError.

(** results.py 336-347 [plot_storage]: the operation, and a line with the charge state; a bus hides a component of its label. *)
Definition plot_storage {C} (r : list (string * tree leaf)) (fs : flow_system) (label var mode : string) (colours : palette C) (invert : bool)
  : res (figure C * (list Q * list Q)) :=
  fig <- plot_operation r fs label mode var colours "plotly" invert ;;
  times <- match extract (Node r) ["Time"] with Some (Leaf (LArr _ l)) => Ok l | _ => Err KeyError end ;;
  t <- match extract (Node r) ["Buses"; label] with
       | Some t => Ok t
       | None => _ <- of_option KeyError (component_of fs label) ;; of_option KeyError (extract (Node r) ["Components"; label])
       end ;;
  charge <- match extract t ["charge_state"] with Some (Leaf (LArr _ l)) => Ok l | Some (Leaf (LNum _ _ q)) => Ok [q] | _ => Err KeyError end ;;
  Ok (fig, (times, charge)).
