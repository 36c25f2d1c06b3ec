(** Model of the life of time series: core.py 98-182 [TimeSeries], structure.py 502-515 [_create_time_series],
    flow_system.py 105-107 [transform_data], 290-292 [all_time_series], and of aggregation.py 220-260
    [TimeSeriesCollection]. Objects live in a heap, so that a parameter object can be shared and a series can outlive the
    parameter it was made from. *)
From Verif Require Import Base MathModel Params.

(** core.py 98-110. *)
Record tseries : Type := mkTS {
  ts_label : string;
  ts_data : numeric;
  ts_weight : option Q;
  ts_group : option string;
  ts_idx : option (list nat);
  ts_agg : option numeric
}.

(** core.py 98-109 [TimeSeries.__init__]: group and weight come from a TimeSeriesData. *)
Definition mk_ts (label : string) (p : param) : res tseries :=
  d <- make_scalar (pdata p) ;;
  Ok (match p with
      | PNum _ => mkTS label d None None None None
      | PTsd _ g w => mkTS label d w g None None
      end).

(** core.py 111-119 [activate_indices] without aggregated data (no caller in the library passes any). *)
Definition set_idx (idx : option (list nat)) (ts : tseries) : tseries :=
  mkTS (ts_label ts) (ts_data ts) (ts_weight ts) (ts_group ts) idx (ts_agg ts).
Definition set_agg (a : option numeric) (ts : tseries) : tseries :=
  mkTS (ts_label ts) (ts_data ts) (ts_weight ts) (ts_group ts) (ts_idx ts) a.
Definition set_weight (w : option Q) (ts : tseries) : tseries :=
  mkTS (ts_label ts) (ts_data ts) w (ts_group ts) (ts_idx ts) (ts_agg ts).

(** core.py 111-119 with aggregated data: the indices are set before the length is checked. [len(None)] is a TypeError. *)
Definition activate_indices (ts : tseries) (idx : option (list nat)) (agg : option (list Q)) : tseries * option exn :=
  let ts1 := set_idx idx ts in
  match agg with
  | None => (ts1, None)
  | Some l =>
      match idx with
      | None => (ts1, Some TypeError)
      | Some ix =>
          if (Nat.eqb (length l) (length ix) || Nat.eqb (length l) 1)%bool then
            match make_scalar (NV l) with Ok d => (set_agg (Some d) ts1, None) | Err e => (ts1, Some e) end
          else (ts1, Some AssertionError)
      end
  end.

(** core.py 121-123 [clear_indices_and_aggregated_data]. *)
Definition clear_ts (ts : tseries) : tseries := set_agg None (set_idx None ts).

(** core.py 125-134 [active_data]. *)
Definition active_data (ts : tseries) : res numeric :=
  match ts_agg ts with Some a => Ok a | None => active_of (ts_idx ts) (ts_data ts) end.

(** core.py 136-139 [active_data_vector]: [len(None)] is a TypeError. *)
Definition active_data_vector (ts : tseries) : res (list Q) :=
  d <- active_data ts ;;
  match ts_idx ts with None => Err TypeError | Some ix => as_vector d (length ix) end.

(** core.py 145-147 [is_array]. *)
Definition is_array (ts : tseries) : bool := negb (is_scalar (ts_data ts)).

(** ** Elements and their parameters *)

(** A place that holds a parameter: an attribute of an element or of a parameter object, or a value in a dict. *)
Inductive slot : Type := SNone | SRaw (p : param) | SRef (i : nat).

(** An element: its full label, the places its transform_data() visits with the label used for each, and
    [used_time_series] (structure.py 351). *)
Record elem : Type := mkElem { el_label : string; el_slots : list (string * nat); el_used : list nat }.
Record world : Type := mkWorld { w_heap : list tseries; w_slots : list slot; w_elems : list elem }.
Definition w_init : world := mkWorld [] [] [].

Fixpoint upd {A} (i : nat) (x : A) (l : list A) : list A :=
  match l, i with
  | [], _ => []
  | _ :: r, O => x :: r
  | a :: r, S k => a :: upd k x r
  end.

(** Statements executed one after the other until one raises; the state reached by then stays. *)
Fixpoint run_steps {W A} (f : W -> A -> W * option exn) (l : list A) (w : W) : W * option exn :=
  match l with
  | [] => (w, None)
  | a :: r => match f w a with (w', None) => run_steps f r w' | (w', Some e) => (w', Some e) end
  end.

(** structure.py 502-515 [_create_time_series], called by element number [ei] for place [s] with label [suffix]. *)
Definition create_time_series (w : world) (c : nat * (string * nat)) : world * option exn :=
  let '(ei, (suffix, s)) := c in
  match nth_error (w_elems w) ei, nth_error (w_slots w) s with
  | Some e, Some (SRaw p) =>
      match mk_ts (cat [el_label e; "__"; suffix]) p with
      | Err x => (w, Some x)
      | Ok ts =>
          let i := length (w_heap w) in
          (mkWorld (w_heap w ++ [ts]) (upd s (SRef i) (w_slots w))
             (upd ei (mkElem (el_label e) (el_slots e) (el_used e ++ [i])) (w_elems w)), None)
      end
  | Some e, Some (SRef i) =>
      match nth_error (w_heap w) i with
      | Some ts => (mkWorld (upd i (clear_ts ts) (w_heap w)) (w_slots w) (w_elems w), None)
      | None => (w, None)
      end
  | _, _ => (w, None)
  end.

(** flow_system.py 105-107 [FlowSystem.transform_data]: every element transforms its parameters. *)
Definition visits (es : list elem) : list (nat * (string * nat)) :=
  flat_map (fun ne : nat * elem => map (fun sl => (fst ne, sl)) (el_slots (snd ne))) (combine (seq 0 (length es)) es).
Definition transform_data (w : world) : world * option exn := run_steps create_time_series (visits (w_elems w)) w.

(** flow_system.py 290-292 [all_time_series]. *)
Definition all_series (w : world) : list nat := flat_map el_used (w_elems w).

(** calculation.py 154-155, 219-220. *)
Definition map_heap (f : tseries -> tseries) (is : list nat) (h : list tseries) : list tseries :=
  fold_left (fun h i => match nth_error h i with Some ts => upd i (f ts) h | None => h end) is h.
Definition activate_all (idx : option (list nat)) (w : world) : world :=
  mkWorld (map_heap (set_idx idx) (all_series w) (w_heap w)) (w_slots w) (w_elems w).

(** ** TimeSeriesCollection (aggregation.py 220-260) *)

(** calculation.py 247-249: the series with array data. *)
Definition collection (w : world) : list nat :=
  filter (fun i => match nth_error (w_heap w) i with Some ts => is_array ts | None => false end) (all_series w).
Definition members (w : world) : list tseries :=
  flat_map (fun i => match nth_error (w_heap w) i with Some ts => [ts] | None => [] end) (collection w).

Definition same_group (g : string) (ts : tseries) : bool :=
  match ts_group ts with Some g' => String.eqb g' g | None => false end.
(** aggregation.py 236-248 [_calculate_aggregation_weigths]: [weight or 1]. *)
Definition new_weight (l : list tseries) (ts : tseries) : Q :=
  match ts_group ts with
  | Some g => 1 / inject_Z (Z.of_nat (length (filter (same_group g) l)))
  | None => or_num (ts_weight ts) 1
  end.
(** aggregation.py 221-231, 250-254: duplicate labels fail before any weight is changed. *)
Definition collect (w : world) : world * option exn :=
  let l := members w in
  if nodup_str (map ts_label l)
  then (mkWorld (map_heap (fun ts => set_weight (Some (new_weight l ts)) ts) (collection w) (w_heap w)) (w_slots w) (w_elems w), None)
  else (w, Some AssertionError).
(** The weights and data handed to tsam (aggregation.py 226-231). *)
Definition weights (l : list tseries) : list (string * Q) := map (fun ts => (ts_label ts, new_weight l ts)) l.

(** aggregation.py 256-260 [insert_data]. *)
Definition assoc {A} (k : string) (d : list (string * A)) : option A :=
  option_map snd (find (fun kv => String.eqb (fst kv) k) d).
Definition insert_ts (data : list (string * list Q)) (ts : tseries) : tseries :=
  match assoc (ts_label ts) data with Some v => set_agg (Some (NV v)) ts | None => ts end.
Definition insert_data (data : list (string * list Q)) (w : world) : world :=
  mkWorld (map_heap (insert_ts data) (collection w) (w_heap w)) (w_slots w) (w_elems w).

(** ** Calculations (calculation.py 150-155, 217-276)
    [data]: what tsam returns, if the parameters ask for aggregated data. *)
Definition full_calculation (idx : option (list nat)) (w : world) : world * option exn :=
  match transform_data w with
  | (w1, Some e) => (w1, Some e)
  | (w1, None) => (activate_all idx w1, None)
  end.
Definition aggregated_calculation (idx : option (list nat)) (data : option (list (string * list Q))) (w : world) : world * option exn :=
  match full_calculation idx w with
  | (w1, Some e) => (w1, Some e)
  | (w1, None) =>
      match collect w1 with
      | (w2, Some e) => (w2, Some e)
      | (w2, None) => (match data with Some d => insert_data d w2 | None => w2 end, None)
      end
  end.

(** ** Histories *)
Inductive sop : Type :=
| NewSlot (v : option param)               (** the user creates a parameter value *)
| SetSlot (s : nat) (v : option param)     (** the user assigns another value to a parameter *)
| AddElem (label : string) (slots : list (string * nat))  (** an element joins the flow system *)
| Transform | Activate (idx : option (list nat)) | Collect | Insert (data : list (string * list Q))
| RunFull (idx : option (list nat))
| RunAggregated (idx : option (list nat)) (data : option (list (string * list Q))).

Definition of_user (v : option param) : slot := match v with Some p => SRaw p | None => SNone end.
Definition do_sop (w : world) (o : sop) : world :=
  match o with
  | NewSlot v => mkWorld (w_heap w) (w_slots w ++ [of_user v]) (w_elems w)
  | SetSlot s v => mkWorld (w_heap w) (upd s (of_user v) (w_slots w)) (w_elems w)
  | AddElem label sl => mkWorld (w_heap w) (w_slots w) (w_elems w ++ [mkElem label sl []])
  | Transform => fst (transform_data w)
  | Activate idx => activate_all idx w
  | Collect => fst (collect w)
  | Insert d => insert_data d w
  | RunFull idx => fst (full_calculation idx w)
  | RunAggregated idx d => fst (aggregated_calculation idx d w)
  end.
Definition history (l : list sop) : world := fold_left do_sop l w_init.

(** What modelling reads from a place: [.active_data] of the series found there (None if there is no value). *)
Definition seen (w : world) (s : nat) : res (option numeric) :=
  match nth_error (w_slots w) s with
  | Some (SRef i) => ts <- of_option AttributeError (nth_error (w_heap w) i) ;; a <- active_data ts ;; Ok (Some a)
  | Some (SRaw _) => Err AttributeError
  | _ => Ok None
  end.
