(** Model of flow_system.py 295-351 [create_datetime_array]. *)
From Coq Require Import String Ascii ZArith.
From Verif Require Import Base.

(** Moments and intervals of numpy: datetime64 counts months ('Y', 'M') or seconds ('W', 'D', 'h', 'm', 's'); the unit a moment is written in is not
    kept, numpy moves to the finer unit of an operation without changing the moment. Units below the second are not modelled, neither is
    overflow of 64-bit integers. *)
Inductive stamp : Type := Months (m : Z) | Seconds (s : Z).
Inductive delta : Type := DMonths (m : Z) | DSeconds (s : Z).

(** [np.timedelta64(1, unit)]; an unknown unit is a TypeError. *)
Definition unit_delta (u : ascii) : res delta :=
  (if u =? "Y" then Ok (DMonths 12) else if u =? "M" then Ok (DMonths 1)
   else if u =? "W" then Ok (DSeconds 604800) else if u =? "D" then Ok (DSeconds 86400) else if u =? "h" then Ok (DSeconds 3600)
   else if u =? "m" then Ok (DSeconds 60) else if u =? "s" then Ok (DSeconds 1) else Err TypeError)%char.
Definition scale (k : Z) (d : delta) : delta := match d with DMonths m => DMonths (k * m) | DSeconds s => DSeconds (k * s) end.

(** [start + delta] of numpy. A number of months cannot be added to a moment given by day or finer (TypeError); a month to which seconds are added
    is its first second, which the calendar [first_second] gives. *)
Definition add (first_second : Z -> Z) (t : stamp) (d : delta) : res stamp :=
  match t, d with
  | Months m, DMonths k => Ok (Months (m + k))
  | Seconds s, DSeconds k => Ok (Seconds (s + k))
  | Months m, DSeconds k => Ok (Seconds (first_second m + k))
  | Seconds _, DMonths _ => Err TypeError
  end.

(** [str.isdigit] and [int] for ASCII strings: the empty string has no digits. *)
Definition digit (c : ascii) : option N :=
  let n := N_of_ascii c in if ((48 <=? n) && (n <=? 57))%N then Some (n - 48)%N else None.
Fixpoint all_digits (s : string) : bool :=
  match s with EmptyString => true | String c r => match digit c with Some _ => all_digits r | None => false end end.
Definition isdigit (s : string) : bool := match s with EmptyString => false | _ => all_digits s end.
Fixpoint int_from (acc : N) (s : string) : N :=
  match s with EmptyString => acc | String c r => int_from (match digit c with Some d => 10 * acc + d | None => acc end)%N r end.
Definition int_of (s : string) : N := int_from 0 s.

(** [freq[-1]] and [freq[:-1]]; IndexError for the empty string. *)
Fixpoint split_last (s : string) : res (string * ascii) :=
  match s with
  | EmptyString => Err IndexError
  | String c EmptyString => Ok (EmptyString, c)
  | String c r => ' (p, l) <- split_last r ;; Ok (String c p, l)
  end.

(** [np.arange(start, end, step)]: ceil((end - start) / step) moments; a step of zero is an error. All three in a common unit. *)
Definition arange_count (a b k : Z) : nat := Z.to_nat (- ((a - b) / k)).
Definition arange (first_second : Z -> Z) (t0 t1 : stamp) (d : delta) : res (list stamp) :=
  match d with
  | DMonths k =>
      match t0, t1 with
      | Months a, Months b => _ <- guard (negb (k =? 0)%Z) ValueError ;;
                              Ok (map (fun i => Months (a + Z.of_nat i * k)) (seq 0 (arange_count a b k)))
      | _, _ => Err TypeError
      end
  | DSeconds k =>
      let secs t := match t with Months m => first_second m | Seconds s => s end in
      _ <- guard (negb (k =? 0)%Z) ValueError ;;
      Ok (map (fun i => Seconds (secs t0 + Z.of_nat i * k)) (seq 0 (arange_count (secs t0) (secs t1) k)))
  end.

(** flow_system.py 330-351. [parse] is np.datetime64 of a string (ISO 8601), which is not modelled. [steps] is an int; 0 counts as not given, a
    negative number gives an empty array. *)
Definition create_datetime_array (parse : string -> res stamp) (first_second : Z -> Z) (start : string) (steps : option Z) (freq : string)
           (end_ : option string) : res (list stamp) :=
  ' (prefix, unit) <- split_last freq ;;
  let interval := if isdigit prefix then Z.of_N (int_of prefix) else 1%Z in
  d <- unit_delta unit ;;
  let step := scale interval d in
  t0 <- parse start ;;
  let by_steps := match steps with
                  | Some n => if (n =? 0)%Z then Err ValueError
                              else mapM (fun i => add first_second t0 (scale (Z.of_nat i) step)) (seq 0 (Z.to_nat n))
                  | None => Err ValueError
                  end in
  match end_ with
  | Some e => if String.eqb e "" then by_steps else t1 <- parse e ;; arange first_second t0 t1 step
  | None => by_steps
  end.
