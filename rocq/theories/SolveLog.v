(** Model of what a solved calculation shows of its results: structure.py 84-118 (the end of [SystemModel.solve]) with utils.py 68-83 [apply_formating]. *)
From Verif Require Import Base MathModel Spec Structure Params Features Elements System Tree Values Results Segmented MainResults.

(** The messages, in place of their texts. Numbers are written with two decimals by the code and kept as they are here. *)
Inductive said : Type :=
| SEffect (name : string) (operation invest sum : Q)   (** lines 86-92 *)
| STotals (penalty objective : Q)                      (** lines 94-100 *)
| SInvestments (lines : list (string * Q))             (** lines 102-113 *)
| WBus (label : string)                                (** lines 115-116 *)
| WPenalty (amount : Q).                               (** lines 118-119 *)

(** sorted(d, key=value, reverse=True) (utils.py 78): stable, the largest first. *)
Fixpoint put (e : string * Q) (l : list (string * Q)) : list (string * Q) :=
  match l with
  | [] => [e]
  | h :: t => if Qle_bool (snd h) (snd e) then e :: h :: t else h :: put e t
  end.
Definition by_value (d : list (string * Q)) : list (string * Q) := fold_right put [] d.
(** utils.py 68-83 with sort_by='value', as called in structure.py 103-112 on {'**'invested, '**'not_invested}. The other ways of sorting are used nowhere. *)
Definition investment_lines (r : main) : list (string * Q) := by_value (str_dict (mn_invested r ++ mn_not_invested r)).

(** structure.py 85-119. *)
Definition shown_main (r : main) : list said :=
  map (fun e => let '(o, i, a) := snd e in SEffect (fst e) o i a) (mn_effects r)
  ++ [STotals (mn_penalty r) (mn_objective r); SInvestments (investment_lines r)]
  ++ map WBus (mn_excess r)
  ++ (if Qle_bool (mn_penalty r) 10 then [] else [WPenalty (mn_penalty r)]).

(** structure.py 66-119: solve() of calculation [k] with the answer [x] of the solver, and what it shows at its end. The property main_results is computed anew for
    each message, from the same data. *)
Definition shown_by_solve (cf : config) (ord : list nat -> list nat) (unit : effect -> string) (s : session) (k : nat) (x : asg) : res (list said) :=
  let '(s', a) := do_sop cf ord unit s (SSolve k (Some x)) in
  _ <- a ;; m <- snd (do_sop cf ord unit s' (SMain k)) ;; r <- of_option TypeError m ;; Ok (shown_main r).
