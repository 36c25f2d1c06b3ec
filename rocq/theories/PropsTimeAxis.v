(** C48: generated time axes. *)
From Coq Require Import String Ascii ZArith DecimalString DecimalNat.
From Verif Require Import Base BaseFacts TimeAxis.

(** ** Specification *)

(** The frequency written as a number and a unit, as in "15m". *)
Definition written (n : nat) (u : ascii) : string := (NilEmpty.string_of_uint (Nat.to_uint n) ++ String u EmptyString)%string.
(** Units that have a fixed length, and units of the calendar. *)
Definition seconds_in (u : ascii) : option Z :=
  match u with
  | "s" => Some 1 | "m" => Some 60 | "h" => Some (60 * 60) | "D" => Some (24 * (60 * 60)) | "W" => Some (7 * (24 * (60 * 60)))
  | _ => None
  end%char%Z.
Definition months_in (u : ascii) : option Z := match u with "M" => Some 1 | "Y" => Some 12 | _ => None end%char%Z.
(** The second a moment begins with; [first_second] is the calendar. *)
Definition second (first_second : Z -> Z) (t : stamp) : Z := match t with Months m => first_second m | Seconds s => s end.
Definition no_end (e : option string) : Prop := e = None \/ e = Some EmptyString.

(** ** Proof tools *)
Lemma digits_int : forall d acc, int_from (N.of_nat acc) (NilEmpty.string_of_uint d) = N.of_nat (Nat.of_uint_acc d acc).
Proof.
  induction d; intros acc; cbn [NilEmpty.string_of_uint int_from Nat.of_uint_acc]; [reflexivity|..];
    rewrite <- IHd, Nat.tail_mul_spec; f_equal;
    match goal with |- context [digit ?c] => let v := eval compute in (digit c) in change (digit c) with v end; cbv beta iota; lia.
Qed.
Lemma digits_all : forall d, all_digits (NilEmpty.string_of_uint d) = true.
Proof. induction d; cbn [NilEmpty.string_of_uint all_digits]; [reflexivity|..]; cbn; exact IHd. Qed.
Lemma to_uint_not_nil : forall n, NilEmpty.string_of_uint (Nat.to_uint n) <> EmptyString.
Proof.
  intros n H. assert (X : Nat.to_uint n = Decimal.Nil) by (destruct (Nat.to_uint n); [reflexivity|discriminate..]).
  destruct n as [|n]; [discriminate|]. pose proof (Unsigned.of_to (S n)) as O. rewrite X in O. discriminate.
Qed.
Lemma written_int : forall n, isdigit (NilEmpty.string_of_uint (Nat.to_uint n)) = true /\ Z.of_N (int_of (NilEmpty.string_of_uint (Nat.to_uint n))) = Z.of_nat n.
Proof.
  intros n. split.
  - pose proof (digits_all (Nat.to_uint n)). pose proof (to_uint_not_nil n). unfold isdigit. destruct (NilEmpty.string_of_uint _); [congruence|exact H].
  - unfold int_of. change 0%N with (N.of_nat 0). rewrite digits_int. fold (Nat.of_uint (Nat.to_uint n)). rewrite Unsigned.of_to. apply nat_N_Z.
Qed.
Lemma split_last_app : forall p u, split_last (p ++ String u EmptyString)%string = Ok (p, u).
Proof.
  induction p as [|c p IH]; intros u; [reflexivity|]. cbn [append split_last]. rewrite IH. destruct (p ++ String u EmptyString)%string eqn:E; [|reflexivity].
  destruct p; discriminate.
Qed.

Definition tail (parse : string -> res stamp) (first_second : Z -> Z) (start : string) (steps : option Z) (end_ : option string) (step : delta) : res (list stamp) :=
  t0 <- parse start ;;
  let by_steps := match steps with
                  | Some n => if (n =? 0)%Z then Err ValueError
                              else mapM (fun i => add first_second t0 (scale (Z.of_nat i) step)) (seq 0 (Z.to_nat n))
                  | None => Err ValueError
                  end in
  match end_ with
  | Some e => if String.eqb e "" then by_steps else t1 <- parse e ;; arange first_second t0 t1 step
  | None => by_steps
  end.
Lemma create_written : forall parse fsec start steps n u end_,
  create_datetime_array parse fsec start steps (written n u) end_ = (d <- unit_delta u ;; tail parse fsec start steps end_ (scale (Z.of_nat n) d)).
Proof.
  intros. unfold create_datetime_array, written. rewrite split_last_app. cbn [bind]. destruct (written_int n) as [-> ->]. reflexivity.
Qed.
Lemma seconds_delta : forall u k, seconds_in u = Some k -> unit_delta u = Ok (DSeconds k).
Proof.
  intros u k H. destruct u as [b0 b1 b2 b3 b4 b5 b6 b7]. destruct b0, b1, b2, b3, b4, b5, b6, b7; try discriminate H; injection H as <-; reflexivity.
Qed.
Lemma months_delta : forall u k, months_in u = Some k -> unit_delta u = Ok (DMonths k).
Proof.
  intros u k H. destruct u as [b0 b1 b2 b3 b4 b5 b6 b7]. destruct b0, b1, b2, b3, b4, b5, b6, b7; try discriminate H; injection H as <-; reflexivity.
Qed.
Lemma mapM_pure : forall {A B} (f : A -> res B) (g : A -> B) l, (forall a, f a = Ok (g a)) -> mapM f l = Ok (map g l).
Proof. intros A B f g l H. induction l as [|a l IH]; simpl; [reflexivity|]. rewrite H, IH. reflexivity. Qed.
Lemma tail_no_end : forall parse fsec start n e step t0, parse start = Ok t0 -> no_end e -> n <> 0%Z ->
  tail parse fsec start (Some n) e step = mapM (fun i => add fsec t0 (scale (Z.of_nat i) step)) (seq 0 (Z.to_nat n)).
Proof. intros parse fsec start n e step t0 P E N. unfold tail. rewrite P. cbn [bind]. apply Z.eqb_neq in N. rewrite N. destruct E as [-> | ->]; reflexivity. Qed.
Lemma count_spec : forall a b k i, (0 < k)%Z -> ((i < arange_count a b k)%nat <-> (a + Z.of_nat i * k < b)%Z).
Proof.
  intros a b k i K. unfold arange_count. pose proof (Z.div_mod (a - b) k ltac:(lia)) as D. pose proof (Z.mod_pos_bound (a - b) k K) as M.
  set (q := ((a - b) / k)%Z) in *. set (r := ((a - b) mod k)%Z) in *. split; intros H.
  - assert (Z.of_nat i <= - q - 1)%Z by lia. assert (Z.of_nat i * k <= (- q - 1) * k)%Z by (apply Z.mul_le_mono_nonneg_r; lia). nia.
  - assert (X : (Z.of_nat i < - q)%Z) by nia. lia.
Qed.

(** ** Theorems *)

(** With a number of steps: the start and one moment per interval after it. *)
Theorem C48_steps : forall parse fsec start t0 n q u k e, parse start = Ok t0 -> no_end e -> (0 < n)%nat -> seconds_in u = Some k ->
  create_datetime_array parse fsec start (Some (Z.of_nat n)) (written q u) e
  = Ok (map (fun i => Seconds (second fsec t0 + Z.of_nat i * (Z.of_nat q * k))) (seq 0 n)).
Proof.
  intros parse fsec start t0 n q u k e P E N U. rewrite create_written, (seconds_delta _ _ U). cbn [bind]. rewrite (tail_no_end _ _ _ _ _ _ _ P E) by lia. rewrite Nat2Z.id.
  apply mapM_pure. intros i. destruct t0; reflexivity.
Qed.
Print Assumptions C48_steps.

(** Months and years count on from a start that is a month or a year, and are refused otherwise. *)
Theorem C48_steps_calendar : forall parse fsec start n q u k e, no_end e -> (0 < n)%nat -> months_in u = Some k ->
  (forall m, parse start = Ok (Months m) ->
     create_datetime_array parse fsec start (Some (Z.of_nat n)) (written q u) e = Ok (map (fun i => Months (m + Z.of_nat i * (Z.of_nat q * k))) (seq 0 n)))
  /\ (forall s, parse start = Ok (Seconds s) -> create_datetime_array parse fsec start (Some (Z.of_nat n)) (written q u) e = Err TypeError).
Proof.
  intros parse fsec start n q u k e E N U. split.
  - intros m P. rewrite create_written, (months_delta _ _ U). cbn [bind]. rewrite (tail_no_end _ _ _ _ _ _ _ P E) by lia. rewrite Nat2Z.id. apply mapM_pure. reflexivity.
  - intros s P. rewrite create_written, (months_delta _ _ U). cbn [bind]. rewrite (tail_no_end _ _ _ _ _ _ _ P E) by lia. rewrite Nat2Z.id. destruct n; [lia|reflexivity].
Qed.
Print Assumptions C48_steps_calendar.

(** With an end: all such moments before it, whatever number of steps is given. *)
Theorem C48_end : forall parse fsec start t0 steps q u k e t1, parse start = Ok t0 -> parse e = Ok t1 -> e <> EmptyString -> (0 < q)%nat -> seconds_in u = Some k ->
  exists n, create_datetime_array parse fsec start steps (written q u) (Some e)
            = Ok (map (fun i => Seconds (second fsec t0 + Z.of_nat i * (Z.of_nat q * k))) (seq 0 n))
    /\ forall i, (i < n)%nat <-> (second fsec t0 + Z.of_nat i * (Z.of_nat q * k) < second fsec t1)%Z.
Proof.
  intros parse fsec start t0 steps q u k e t1 P P1 NE Q U.
  assert (K : (0 < k)%Z). { clear - U. destruct u as [b0 b1 b2 b3 b4 b5 b6 b7]. destruct b0, b1, b2, b3, b4, b5, b6, b7; try discriminate U; injection U as <-; lia. }
  assert (K0 : (0 < Z.of_nat q * k)%Z) by nia.
  exists (arange_count (second fsec t0) (second fsec t1) (Z.of_nat q * k)). split; [|intros i; apply count_spec; exact K0].
  rewrite create_written, (seconds_delta _ _ U). cbn [bind]. unfold tail. rewrite P. cbn [bind]. apply String.eqb_neq in NE. rewrite NE, P1. cbn [bind arange scale].
  destruct (Z.of_nat q * k =? 0)%Z eqn:Z0; [apply Z.eqb_eq in Z0; lia|]. reflexivity.
Qed.
Print Assumptions C48_end.
Theorem C48_end_calendar : forall parse fsec start m steps q u k e m1, parse start = Ok (Months m) -> parse e = Ok (Months m1) -> e <> EmptyString -> (0 < q)%nat ->
  months_in u = Some k ->
  exists n, create_datetime_array parse fsec start steps (written q u) (Some e) = Ok (map (fun i => Months (m + Z.of_nat i * (Z.of_nat q * k))) (seq 0 n))
    /\ forall i, (i < n)%nat <-> (m + Z.of_nat i * (Z.of_nat q * k) < m1)%Z.
Proof.
  intros parse fsec start m steps q u k e m1 P P1 NE Q U.
  assert (K : (0 < k)%Z). { clear - U. destruct u as [b0 b1 b2 b3 b4 b5 b6 b7]. destruct b0, b1, b2, b3, b4, b5, b6, b7; try discriminate U; injection U as <-; lia. }
  assert (K0 : (0 < Z.of_nat q * k)%Z) by nia. exists (arange_count m m1 (Z.of_nat q * k)). split; [|intros i; apply count_spec; exact K0].
  rewrite create_written, (months_delta _ _ U). cbn [bind]. unfold tail. rewrite P. cbn [bind]. apply String.eqb_neq in NE. rewrite NE, P1. cbn [bind arange scale].
  destruct (Z.of_nat q * k =? 0)%Z eqn:Z0; [apply Z.eqb_eq in Z0; lia|]. reflexivity.
Qed.
Print Assumptions C48_end_calendar.

(** A unit without a number stands for one unit. But so does a unit with anything in front of it that is not a plain number: "1.5h" and "-2h" are
    read as "1h" without a warning. *)
Theorem C48_other_intervals : forall parse fsec start steps p u e, isdigit p = false ->
  create_datetime_array parse fsec start steps (p ++ String u EmptyString)%string e = create_datetime_array parse fsec start steps (written 1 u) e.
Proof.
  intros parse fsec start steps p u e D. rewrite create_written. unfold create_datetime_array. rewrite split_last_app. cbn [bind]. rewrite D. reflexivity.
Qed.
Print Assumptions C48_other_intervals.

(** Neither steps nor an end, or zero steps, is refused. *)
Theorem C48_refuses : forall parse fsec start t0 q u d e steps, parse start = Ok t0 -> unit_delta u = Ok d -> no_end e -> steps = None \/ steps = Some 0%Z ->
  create_datetime_array parse fsec start steps (written q u) e = Err ValueError.
Proof.
  intros parse fsec start t0 q u d e steps P U E S. rewrite create_written, U. cbn [bind]. unfold tail. rewrite P. cbn [bind]. destruct E as [-> | ->], S as [-> | ->]; reflexivity.
Qed.
Print Assumptions C48_refuses.

(** Quarters of an hour from a given moment, by number and until an end; months. *)
Definition parse0 (s : string) : res stamp :=
  if String.eqb s "2020-01-01" then Ok (Seconds 1577836800) else if String.eqb s "2020-01-01T01:00" then Ok (Seconds 1577840400)
  else if String.eqb s "2020-01" then Ok (Months 600) else Err ValueError.
Example C48_applies : written 15 "m" = "15m"
  /\ create_datetime_array parse0 (fun m => m) "2020-01-01" (Some 3%Z) "15m" None = Ok [Seconds 1577836800; Seconds 1577837700; Seconds 1577838600]
  /\ create_datetime_array parse0 (fun m => m) "2020-01-01" None "15m" (Some "2020-01-01T01:00")
     = Ok [Seconds 1577836800; Seconds 1577837700; Seconds 1577838600; Seconds 1577839500]
  /\ create_datetime_array parse0 (fun m => m) "2020-01" (Some 2%Z) "3M" None = Ok [Months 600; Months 603]
  /\ create_datetime_array parse0 (fun m => m) "2020-01-01" (Some 2%Z) "1.5h" None = Ok [Seconds 1577836800; Seconds 1577840400].
Proof. repeat split; vm_compute; reflexivity. Qed.
Example C48_hypotheses : parse0 "2020-01-01" = Ok (Seconds 1577836800) /\ no_end None /\ seconds_in "m" = Some 60%Z /\ months_in "M" = Some 1%Z /\ isdigit "1.5" = false
  /\ parse0 "2020-01" = Ok (Months 600) /\ (exists d, unit_delta "h" = Ok d).
Proof. repeat split; try reflexivity; [left; reflexivity|eexists; reflexivity]. Qed.
