(** Model of what a clustering reports and draws: aggregation.py 107-140 [describe_clusters], [use_extreme_periods], 142-159 [plot], and the heat maps of
    plotting.py 316-471. Texts are built from the dictionary modelled here (clusters and extreme periods); their layout is not modelled, nor are figures beyond
    names, values, colours and kinds of lines, cells, ticks and the range of colours. *)
From Verif Require Import Base MathModel Structure Params Features Elements System Aggregation Tables Plotting PlotOps.

(** ** describe_clusters (aggregation.py 107-136) *)

(** str(indexVector[0]) + '...' + str(indexVector[-1]) (lines 110-113); of an empty vector there is no first entry. *)
Definition vector_text (v : list nat) : res string :=
  match v with [] => Err IndexError | a :: _ => Ok (cat [nat_str a; "..."; nat_str (List.last v 0%nat)]) end.
(** Lines 108-113: the dictionary [description]. *)
Definition cluster_texts (cl : clustering) : res (list (nat * list string)) :=
  d <- cluster_indices cl ;; mapM (fun kv => l <- mapM vector_text (snd kv) ;; Ok (fst kv, l)) d.

(** aggregation.py 138-140: one of the two lists of names is not empty. *)
Definition use_extreme_periods (high low : list string) : bool := match high, low with [], [] => false | _, _ => true end.

(** What tsam knows of an extreme period: its entries by name ('cluster_no', 'profile', 'column', ...), each with some content. *)
Definition period_info (A : Type) : Type := list (string * A).
(** del d['profile'] (line 119); without the entry: KeyError. *)
Definition without_profile {A} (d : period_info A) : res (period_info A) :=
  _ <- guard (existsb (fun e => String.eqb (fst e) "profile") d) KeyError ;; Ok (filter (fun e => negb (String.eqb (fst e) "profile")) d).
(** aggregation.py 115-121: the extreme periods as reported. The copy is a shallow one, so what is deleted is deleted from tsam's own dictionary; both the report
    and the new contents of tsam's dictionary are returned. The calls up to the first exception are not undone, which is not modelled: an error gives no new state. *)
Definition reported_extremes {A} (high low : list string) (known : list (string * period_info A)) : res (list (string * period_info A) * list (string * period_info A)) :=
  if use_extreme_periods high low then l <- mapM (fun kv => d <- without_profile (snd kv) ;; Ok (fst kv, d)) known ;; Ok (l, l) else Ok ([], known).
(** [describe_clusters] (aggregation.py 107-136): clusters, extreme periods, and what tsam holds afterwards. *)
Definition describe_clusters {A} (cl : clustering) (high low : list string) (known : list (string * period_info A))
  : res (list (nat * list string) * list (string * period_info A) * list (string * period_info A)) :=
  t <- cluster_texts cl ;; ' (e, k) <- reported_extremes high low known ;; Ok (t, e, k).

(** ** plot (aggregation.py 142-159) *)

Record line_trace (C : Type) : Type := mkLine { ln_name : string; ln_values : list Q; ln_colour : C; ln_dashed : bool }.
Arguments mkLine {C}. Arguments ln_name {C}. Arguments ln_values {C}. Arguments ln_colour {C}. Arguments ln_dashed {C}.
Definition renamed (before : string) (fm : frame) : frame := mkFrame (map (fun c => (cat [before; fst c], snd c)) (fm_columns fm)) (fm_index fm).
Definition lines_of {C} (dashed : bool) (g : figure C) : list (line_trace C) :=
  match g with Steps _ l => map (fun t => mkLine (fst (fst t)) (snd (fst t)) (snd t) dashed) l | _ => [] end.
(** The lines of the original table, then dashed (lines 151-153), and the lines of the aggregated one, added to the same figure (line 154). [with_plotly] of an
    empty table gives a new, empty figure (plotting.py 81-82), also if there is one to add to. *)
Definition plot_aggregation {C} (original aggregated : frame) (colour : nat -> nat -> C) : res (list (line_trace C)) :=
  g <- with_plotly (renamed "Original - " original) "line" (Scale colour) ;;
  g' <- with_plotly (renamed "Aggregated - " aggregated) "line" (Scale colour) ;;
  match g' with Blank => Ok [] | _ => Ok (lines_of true g ++ lines_of false g') end.

(** ** Heat maps (plotting.py 316-388 [heat_map_matplotlib], 391-471 [heat_map_plotly]) *)

(** A table: row labels, column labels, and the columns; a cell may be empty (NaN). *)
Record grid : Type := mkGrid { gr_rows : list string; gr_cols : list string; gr_data : list (list (option Q)) }.
(** DataFrame.min / max and Series.min / max: empty cells are left out; of nothing, nothing. *)
Definition least_of (l : list (option Q)) : option Q :=
  fold_right (fun c a => match c, a with Some p, Some q => Some (if Qle_bool p q then p else q) | Some p, None => Some p | None, _ => a end) None l.
Definition most_of (l : list (option Q)) : option Q :=
  fold_right (fun c a => match c, a with Some p, Some q => Some (if Qle_bool p q then q else p) | Some p, None => Some p | None, _ => a end) None l.
(** plotting.py 353, 433: data.min().min(), data.max().max(). *)
Definition colour_range (g : grid) : option Q * option Q := (least_of (map least_of (gr_data g)), most_of (map most_of (gr_data g))).

(** One cell of the drawing: the rectangle it fills, from left to right and from top to bottom, and its value. *)
Record drawn : Type := mkDrawn { dr_left : Q; dr_right : Q; dr_top : Q; dr_bottom : Q; dr_value : option Q }.
Definition num (n : nat) : Q := inject_Z (Z.of_nat n).
(** pcolormesh(data.values) with the y-axis turned over (lines 357-358): row [i] from [i] to [i + 1] below the upper edge, column [j] from [j] to [j + 1]. *)
Definition mesh (g : grid) : list drawn :=
  flat_map (fun jc => map (fun iv => mkDrawn (num (fst jc)) (num (fst jc) + 1) (num (fst iv)) (num (fst iv) + 1) (snd iv)) (combine (seq 0 (length (gr_rows g))) (snd jc)))
    (combine (seq 0 (length (gr_cols g))) (gr_data g)).
(** np.arange(len(labels)) + 0.5 with the labels (lines 361-364). *)
Definition ticks (labels : list string) : list (Q * string) := combine (map (fun i => num i + (1 # 2)) (seq 0 (length labels))) labels.
(** go.Heatmap(z = values, x = columns, y = index) with categories as axes (lines 436-463): for each cell the label of its column, of its row and its value. *)
Definition cells (g : grid) : list (string * string * option Q) :=
  flat_map (fun jc => map (fun iv => (fst jc, fst iv, snd iv)) (combine (gr_rows g) (snd jc))) (combine (gr_cols g) (gr_data g)).
