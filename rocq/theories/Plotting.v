(** Model of the data preparation in plotting.py: stacked bars (197-315), stacked areas (122-160), [reshape_to_2d] (474-521) and
    [heat_map_data_from_df] (524-606). Drawing itself, colours by name, axes and legends are not modelled. *)
From Coq Require Import Qminmax Qround.
From Verif Require Import Base.

(** ** with_matplotlib, mode 'bar' (plotting.py 250-290)
    A table is a list of named columns. For every column two bars per step are drawn, for the parts above and below zero. *)
Definition table : Type := list (string * list Q).
Record bar (C : Type) : Type := mkBar { br_colour : C; br_label : string; br_bottom : list Q; br_height : list Q }.
Arguments mkBar {C}. Arguments br_colour {C}. Arguments br_label {C}. Arguments br_bottom {C}. Arguments br_height {C}.
Definition add2 (a b : list Q) : list Q := map (fun xy => fst xy + snd xy) (combine a b).
(** numpy's clip(0, None) and clip(None, 0). *)
Definition positive_part (v : list Q) : list Q := map (fun q => Qmax q 0) v.
Definition negative_part (v : list Q) : list Q := map (fun q => Qmin q 0) v.
Fixpoint stack {C : Type} (cols : table) (colours : list C) (pos neg : list Q) : list (bar C * bar C) :=
  match cols, colours with
  | (l, v) :: cols', c :: colours' =>
      let p := positive_part v in let n := negative_part v in
      (mkBar c l pos p, mkBar c "" neg n) :: stack cols' colours' (add2 pos p) (add2 neg n)
  | _, _ => []
  end.
(** The colours are given as a list, or taken from a colour map of as many colours as there are columns. *)
Definition stacked_bars {C : Type} (n : nat) (cols : table) (colours : list C) : res (list (bar C * bar C)) :=
  _ <- guard (Nat.eqb (length colours) (length cols)) AssertionError ;;
  Ok (stack cols colours (repeat 0 n) (repeat 0 n)).

(** ** with_plotly, mode 'area' (plotting.py 122-160): values next to zero become zero, columns are stacked above or below zero if they do not
    change sign and drawn as dashed lines otherwise. The order of the dashed ones is that of a Python set; here it is that of the table. *)
Inductive trace_kind : Type := Above | Below | Dashed.
Record trace (C : Type) : Type := mkTrace { tr_label : string; tr_data : list Q; tr_colour : C; tr_kind : trace_kind }.
Arguments mkTrace {C}. Arguments tr_label {C}. Arguments tr_data {C}. Arguments tr_colour {C}. Arguments tr_kind {C}.
Definition flush (q : Q) : Q := if (negb (Qle_bool q (- (1 # 100000))) && negb (Qle_bool (1 # 100000) q))%bool then 0 else q.
(** (df >= 0).all() and (df <= 0).all() of a column (plotting.py, area mode). *)
Definition up {C : Type} (c : string * list Q * C) : bool := forallb (fun q => Qle_bool 0 q) (snd (fst c)).
Definition down {C : Type} (c : string * list Q * C) : bool := forallb (fun q => Qle_bool q 0) (snd (fst c)).
Definition area_traces {C : Type} (cols : table) (colours : list C) : res (list (trace C)) :=
  _ <- guard (Nat.eqb (length colours) (length cols)) AssertionError ;;
  let d := combine (map (fun c => (fst c, map flush (snd c))) cols) colours in
  let show k (c : string * list Q * C) := mkTrace (fst (fst c)) (snd (fst c)) (snd c) k in
  Ok (map (fun c => show (if up c then Above else Below) c) (filter up d ++ filter down d)
      ++ map (show Dashed) (filter (fun c => negb (up c || down c)%bool) d)).

(** ** reshape_to_2d (plotting.py 474-521). [None]: the array is not one-dimensional; missing entries (NaN) are [None]. *)
Definition reshape {A} (cols k : nat) (l : list A) : list (list A) := map (fun c => firstn k (skipn (c * k) l)) (seq 0 cols).
Definition transpose {A} (d : A) (k : nat) (m : list (list A)) : list (list A) := map (fun r => map (fun row => nth r row d) m) (seq 0 k).
Definition reshape_to_2d (data : option (list Q)) (steps : Z) : res (list (list (option Q))) :=
  d <- of_option ValueError data ;;
  _ <- guard (negb (Z.eqb steps 0)) ZeroDivision ;;
  let total := Z.of_nat (length d) in
  let cols := (total / steps + if Z.eqb (total mod steps) 0 then 0 else 1)%Z in
  _ <- guard (Z.leb 0 (cols * steps - total)) ValueError ;;
  let padded := map Some d ++ repeat None (Z.to_nat (cols * steps - total)) in
  _ <- guard (Z.leb 0 cols && Z.leb 0 steps)%bool ValueError ;;
  Ok (transpose None (Z.to_nat steps) (reshape (Z.to_nat cols) (Z.to_nat steps) padded)).

(** ** heat_map_data_from_df (plotting.py 524-606)
    Time stamps are minutes since 1970-01-01 00:00, a Thursday. [name fmt t] is the text strftime gives for the format (weekdays: with Sunday as
    day 7). Minutes, quarters, hours, days start at whole multiples; a week is called by its Sunday. *)
Definition formats : list (string * string * (string * string)) :=
  [("YS", "W", ("%Y", "%W")); ("YS", "D", ("%Y", "%j")); ("YS", "h", ("%Y", "%j %H:00")); ("MS", "D", ("%Y-%m", "%d")); ("MS", "h", ("%Y-%m", "%d %H:00"));
   ("W", "D", ("%Y-w%W", "%w_%A")); ("W", "h", ("%Y-w%W", "%w_%A %H:00")); ("D", "h", ("%Y-%m-%d", "%H:00")); ("D", "15min", ("%Y-%m-%d", "%H:%MM"));
   ("h", "15min", ("%Y-%m-%d %H:00", "%M")); ("h", "min", ("%Y-%m-%d %H:00", "%M"))]%string.
Definition minutes (step : string) : option Z :=
  option_map snd (find (fun kv => String.eqb (fst kv) step) [("min", 1%Z); ("15min", 15%Z); ("h", 60%Z); ("D", 1440%Z); ("W", 10080%Z)]%string).
(** The number of the bucket of a time stamp, and the stamp that stands for a bucket. *)
Definition bucket (step : string) (m t : Z) : Z := if String.eqb step "W" then ((t / 1440 + 3) / 7)%Z else (t / m)%Z.
Definition bucket_stamp (step : string) (m b : Z) : Z := if String.eqb step "W" then ((b * 7 + 3) * 1440)%Z else (b * m)%Z.
Definition mean (l : list Q) : option Q := match l with [] => None | _ => Some (Qsum l / inject_Z (Z.of_nat (length l))) end.
(** pandas resample(...).mean(): from the first to the last bucket, empty ones are NaN. *)
Definition resample (step : string) (m : Z) (df : list (Z * Q)) : list (Z * option Q) :=
  match map (fun tq => bucket step m (fst tq)) df with
  | [] => []
  | b :: bs =>
      let lo := fold_left Z.min bs b in let hi := fold_left Z.max bs b in
      map (fun i => let k := (lo + Z.of_nat i)%Z in (k, mean (map snd (filter (fun tq => Z.eqb (bucket step m (fst tq)) k) df)))) (seq 0 (Z.to_nat (hi - lo + 1)))
  end.
Inductive fill : Type := NoFill | Forward | Backward.
Fixpoint ffill (prev : option Q) (l : list (Z * option Q)) : list (Z * option Q) :=
  match l with
  | [] => []
  | (k, v) :: r => let v' := match v with Some q => Some q | None => prev end in (k, v') :: ffill v' r
  end.
Definition filled (f : fill) (l : list (Z * option Q)) : list (Z * option Q) :=
  match f with NoFill => l | Forward => ffill None l | Backward => rev (ffill None (rev l)) end.
Fixpoint distinct_pairs (l : list (string * string)) : bool :=
  match l with [] => true | a :: r => (negb (existsb (fun b => String.eqb (fst a) (fst b) && String.eqb (snd a) (snd b)) r) && distinct_pairs r)%bool end.
(** The pivoted table is given by its entries; a pair of labels met twice is a ValueError. Pairs without entry are NaN. *)
Definition heat_map (name : string -> Z -> string) (df : list (Z * Q)) (periods step : string) (f : fill) : res (list (string * string * option Q)) :=
  m <- of_option KeyError (minutes step) ;;
  ff <- of_option AssertionError (find (fun e => String.eqb (fst (fst e)) periods && String.eqb (snd (fst e)) step)%bool formats) ;;
  let rows := map (fun kv => (name (snd (snd ff)) (bucket_stamp step m (fst kv)), name (fst (snd ff)) (bucket_stamp step m (fst kv)), snd kv)) (filled f (resample step m df)) in
  _ <- guard (distinct_pairs (map fst rows)) ValueError ;;
  Ok rows.
