(** Specification vocabulary for whole systems: what the user's data means at a time step of a calculation, how long a
    step is, and the names under which quantities appear in a solution. Independent of how the problem is built. *)
From Verif Require Import Base MathModel Spec Structure Params Features Elements System.

(** ** Time *)

(** The step of the flow system that step [t] of the calculation stands for. *)
Definition selected (idx : option (list nat)) (t : nat) : nat :=
  match idx with None => t | Some l => nth t l 0%nat end.

(** Number of steps of the calculation. *)
Definition steps (fs : flow_system) (idx : option (list nat)) : nat :=
  match idx with None => length (fs_times fs) | Some l => length l end.

(** The i-th time stamp of the system, the end of the last step included. *)
Definition stamp (fs : flow_system) (i : nat) : Q := nth i (fs_times fs ++ [fs_end fs]) 0.

(** Length of step [t]: up to the next selected stamp, for the last step up to the next stamp of the system. *)
Definition hours (fs : flow_system) (idx : option (list nat)) (t : nat) : Q :=
  stamp fs (if Nat.ltb (S t) (steps fs idx) then selected idx (S t) else S (selected idx t)) - stamp fs (selected idx t).

Definition horizon (fs : flow_system) (idx : option (list nat)) : Q := sumn (steps fs idx) (hours fs idx).

(** ** Data *)

(** The user's value of a parameter at step [t] of the calculation: a number holds for all steps, an array has one
    entry per step of the flow system (arrays shorter than needed are only accepted if constant: first entry). *)
Definition value (idx : option (list nat)) (p : param) (t : nat) : Q :=
  match pdata p with
  | NS q => q
  | NV l => nth (selected idx t) l (hd 0 l)
  end.

(** ** Names of solution variables *)
Definition flow_name (c : component) (f : flow) : string := flow_full (cp_label c) (f_lab f).
Definition rate_of (x : asg) (c : component) (f : flow) (t : nat) : Q := x (vlabel (flow_name c f) "flow_rate") t.

(** A variable of the on/off part of the element called [e]. *)
Definition oo (e : string) (what : string) : string := vlabel (cat [e; "__"; "OnOff"]) what.
(** A variable of the investment part of the element called [e]. *)
Definition inv (e : string) (what : string) : string := vlabel (cat [e; "__"; "Investment"]) what.

(** ** Which rules govern a flow *)

(** Sizes: zero counts as "not given"; a size that is not given is the configured big number. *)
Definition given_size (cf : config) (q : option Q) : Q := or_num q (cf_big cf).
Definition max_size (cf : config) (i : invest) : Q := or_num (iv_fixed i) (or_num (iv_max i) (cf_big cf)).

Definition any_loss (fs : flow_system) (idx : option (list nat)) (p : param) : bool :=
  existsb (fun t => negb (Qeq_bool (value idx p t) 0)) (seq 0 (steps fs idx)).

(** A flow has on/off behaviour if the user said so, or by default if its component has on/off parameters, if it is
    listed as not usable together with other flows, or if it belongs to a transmission with absolute losses. *)
Definition induced (fs : flow_system) (idx : option (list nat)) (c : component) (f : flow) : bool :=
  (is_some (cp_onoff c) || existsb (Nat.eqb (f_id f)) (cp_prevent c)
   || match cp_kind c with TransmissionC _ (Some p) => any_loss fs idx p | _ => false end)%bool.
Definition governed (fs : flow_system) (idx : option (list nat)) (c : component) (f : flow) : option onoff :=
  match f_onoff f with
  | Some p => Some p
  | None => if induced fs idx c f then Some default_onoff else None
  end.

(** The size of a flow is the given one; the second input of a transmission whose first input is an investment becomes
    an optional investment of the same maximum. *)
Definition sized (cf : config) (c : component) (f : flow) : fsize :=
  match cp_kind c, cp_in c with
  | TransmissionC _ _, in1 :: in2 :: _ =>
      if Nat.eqb (f_id f) (f_id in2) then
        match f_size in1, f_size in2 with
        | SzInv iv, SzNum _ => SzInv (mkInvest None 0 (Some (max_size cf iv)) true EVNone EVNone None EVNone)
        | _, _ => f_size f
        end
      else f_size f
  | _, _ => f_size f
  end.

(** The size in use: the given number or the invested size. *)
Definition size_of (cf : config) (x : asg) (c : component) (f : flow) : Q :=
  match sized cf c f with
  | SzNum q => given_size cf q
  | SzInv _ => x (inv (flow_name c f) "size") 0%nat
  end.
(** Smallest and largest possible size (a mandatory or fixed investment; zero as fixed size is taken literally here). *)
Definition size_range (cf : config) (s : fsize) : Q * Q :=
  match s with
  | SzNum q => (given_size cf q, given_size cf q)
  | SzInv i => match iv_fixed i with Some q => (q, q) | None => (iv_min i, max_size cf i) end
  end.

(** Sizes an investment may take; [d] is its isInvested value. *)
Definition fixed_size (i : invest) : option Q :=
  match iv_fixed i with Some q => if Qeq_bool q 0 then None else Some q | None => None end.
Definition allowed_size (cf : config) (i : invest) (size d : Q) : Prop :=
  match fixed_size i, iv_optional i with
  | Some q, false => size == q
  | Some q, true => (d == 0 /\ size == 0) \/ (d == 1 /\ size == q)
  | None, false => iv_min i <= size /\ size <= max_size cf i
  | None, true => (d == 0 /\ size == 0) \/ (d == 1 /\ cf_eps cf <= size /\ iv_min i <= size /\ size <= max_size cf i)
  end.

Definition on_of (x : asg) (c : component) (f : flow) (t : nat) : Q := x (oo (flow_name c f) "on") t.

(** Arrays given by the user have one entry per step of the flow system. *)
Definition full_data (fs : flow_system) (p : param) : Prop :=
  match pdata p with NS _ => True | NV l => length l = length (fs_times fs) end.

(** ** States before the first step *)
Definition nonzero_rate (cf : config) (q : Q) : bool := negb (Qle_bool (Qabs q) (cf_eps cf)).
(** Previous states of a flow, oldest first; without information the flow was off for one step. *)
Definition prior_states (cf : config) (f : flow) : list bool :=
  match f_prev f with
  | None => [false]
  | Some (NS q) => [nonzero_rate cf q]
  | Some (NV l) => map (nonzero_rate cf) l
  end.
Definition was_on (cf : config) (f : flow) : bool := List.last (prior_states cf f) false.
Definition q01 (b : bool) : Q := if b then 1 else 0.
(** The state before step [t]. *)
Definition before (was : bool) (on : nat -> Q) (t : nat) : Q := match t with O => q01 was | S k => on k end.
(** Number of steps that begin with a start. *)
Definition starts (was : bool) (on : nat -> Q) (n : nat) : nat :=
  length (filter (fun t => Qeq_bool (before was on t) 0 && Qeq_bool (on t) 1)%bool (seq 0 n)).

(** A component was on if one of its flows was. Its previous states, as far as previous values of flows are given. *)
Definition comp_was_on (cf : config) (c : component) : bool := existsb (was_on cf) (cp_flows c).
Definition gives_prev (f : flow) : bool := match f_prev f with None => false | Some _ => true end.
Definition gives_number (f : flow) : bool := match f_prev f with Some (NS _) => true | _ => false end.
Definition comp_states (cf : config) (c : component) : list bool :=
  match filter gives_prev (cp_flows c) with
  | [] => [false]
  | f :: r => map (fun j => existsb (fun g => nth j (prior_states cf g) false) (f :: r)) (seq 0 (length (prior_states cf f)))
  end.

(** Switching of the element called [e]: switch variables mark the changes of state, [n] steps. *)
Definition switching (x : asg) (e : string) (was : bool) (n : nat) (max : option Q) : Prop :=
  (forall t, (t < n)%nat ->
     (x (oo e "switchOn") t == 1 <-> before was (x (oo e "on")) t == 0 /\ x (oo e "on") t == 1)
     /\ (x (oo e "switchOff") t == 1 <-> before was (x (oo e "on")) t == 1 /\ x (oo e "on") t == 0)
     /\ (x (oo e "switchOn") t == 0 \/ x (oo e "switchOn") t == 1)
     /\ (x (oo e "switchOff") t == 0 \/ x (oo e "switchOff") t == 1))
  /\ x (oo e "nrSwitchOn") 0%nat == inject_Z (Z.of_nat (starts was (x (oo e "on")) n))
  /\ (forall q, max = Some q -> inject_Z (Z.of_nat (starts was (x (oo e "on")) n)) <= q).

(** Number of last entries equal to [s]; their hours, given one length for all previous steps or one for each. *)
Fixpoint leading (s : bool) (l : list bool) : nat :=
  match l with b :: r => if Bool.eqb b s then S (leading s r) else 0 | [] => 0 end%nat.
Definition trailing (s : bool) (l : list bool) : nat := leading s (rev l).
Definition last_hours (d : numeric) (k : nat) : Q :=
  match d with NS q => inject_Z (Z.of_nat k) * q | NV l => Qsum (skipn (length l - k) l) end.
(** Hours for which state [s] has lasted before the first step. *)
Definition prior_hours (d : numeric) (s : bool) (l : list bool) : Q := last_hours d (trailing s l).

(** ** Runs *)

(** Hours of the steps s..t. *)
Definition span (h : nat -> Q) (s t : nat) : Q := Qsum (map h (seq s (S t - s))).
(** The state [b] holds in steps s..t and not in step s-1. *)
Definition is_run (b : nat -> Q) (s t : nat) : Prop :=
  (s <= t)%nat /\ (forall i, (s <= i <= t)%nat -> b i == 1) /\ (forall k, s = S k -> b k == 0).
(** Hours since the beginning of the run s..t; [prior] hours before the first step count for a run starting there. *)
Definition run_hours (h : nat -> Q) (prior : Q) (s t : nat) : Q := (if Nat.eqb s 0 then prior else 0) + span h s t.

(** [d] counts the hours of the state [b]: nothing while it does not hold, else the hours since the run began. *)
Definition counts_hours (fs : flow_system) (idx : option (list nat)) (prior : Q) (b d : nat -> Q) : Prop :=
  (forall t, (t < steps fs idx)%nat -> b t == 0 -> d t == 0)
  /\ (forall s t, (t < steps fs idx)%nat -> is_run b s t -> d t == run_hours (hours fs idx) prior s t).
(** Limits on runs of the state [b]: none lasts longer than the maximum; one that ends inside the horizon has lasted the
    minimum (the values at the step in question), and one that is still too short before the first step goes on. *)
Definition obeys_limits (fs : flow_system) (idx : option (list nat)) (prior : Q) (b : nat -> Q) (dmin dmax : option param) : Prop :=
  (forall p s t, dmax = Some p -> (t < steps fs idx)%nat -> is_run b s t -> run_hours (hours fs idx) prior s t <= value idx p t)
  /\ (forall p s t, dmin = Some p -> (S t < steps fs idx)%nat -> is_run b s t -> b (S t) == 0 ->
        value idx p t <= run_hours (hours fs idx) prior s t)
  /\ (forall p, dmin = Some p -> 0 < prior -> prior < value idx p 0 -> b 0%nat == 1).

(** ** Components *)

(** Factor-weighted sum of the rates of [flows] of component [c] in one conversion equation (a dict from flows to
    factors; flows without an entry do not take part). *)
Definition factor_of (factors : list (nat * param)) (f : flow) : option param :=
  option_map snd (find (fun e => Nat.eqb (fst e) (f_id f)) factors).
Definition weighted (idx : option (list nat)) (x : asg) (c : component) (factors : list (nat * param)) (flows : list flow) (t : nat) : Q :=
  Qsum (map (fun f => match factor_of factors f with Some p => value idx p t * rate_of x c f t | None => 0 end) flows).

(** The segments of a flow in a segmented conversion. *)
Definition segments_of (segs : list (nat * list (param * param))) (f : flow) : list (param * param) :=
  match find (fun e => Nat.eqb (fst e) (f_id f)) segs with Some (_, l) => l | None => [] end.

(** Stored energy of storage [c] at the beginning of step [t] (step [steps] for the end). *)
Definition charge (x : asg) (c : component) (t : nat) : Q := x (vlabel (cp_label c) "charge_state") t.
(** The capacity in use. *)
Definition capacity (x : asg) (c : component) (s : storage) : Q :=
  match st_cap s with CapNum q => q | CapInv _ => x (inv (cp_label c) "size") 0%nat end.
(** What is left at step [t] of one unit stored at step [s]. *)
Definition kept (idx : option (list nat)) (fs : flow_system) (s : storage) (i t : nat) : Q :=
  fold_right Qmult 1 (map (fun j => 1 - value idx (st_loss s) j * hours fs idx j) (seq i (t - i))).

(** Energy that enters the store in step [i], net of what leaves it. *)
Definition net_stored (idx : option (list nat)) (fs : flow_system) (x : asg) (c : component) (s : storage) (ch dis : flow) (i : nat) : Q :=
  rate_of x c ch i * value idx (st_eta_c s) i * hours fs idx i - rate_of x c dis i / value idx (st_eta_d s) i * hours fs idx i.

(** The segment with end points [a] and [b]: flow [f] lies on it, at the fraction [w] of the way. *)
Definition on_piece (idx : option (list nat)) (x : asg) (c : component) (f : flow) (t : nat) (w : Q) (ab : param * param) : Prop :=
  rate_of x c f t == (1 - w) * value idx (fst ab) t + w * value idx (snd ab) t.

(** Losses of a transmission; none if not given. *)
Definition lost (idx : option (list nat)) (p : option param) (t : nat) : Q := match p with Some p => value idx p t | None => 0 end.

(** ** Buses *)

(** Buses of the system. Objects are told apart by [b_id]; [distinct_buses]: the same object is the same record (how
    objects are represented here) and different buses have different labels. *)
Definition used_bus (fs : flow_system) (b : bus) : Prop := exists c f, In c (fs_comps fs) /\ In f (cp_flows c) /\ f_bus f = b.
Definition same_object (fs : flow_system) : Prop := forall b b', used_bus fs b -> used_bus fs b' -> b_id b = b_id b' -> b = b'.
Definition distinct_buses (fs : flow_system) : Prop :=
  same_object fs /\ forall b b', used_bus fs b -> used_bus fs b' -> b_lab b = b_lab b' -> b_id b = b_id b'.

(** Rates delivered into and taken from bus [b] by all components. *)
Definition connected (b : bus) (f : flow) : bool := Nat.eqb (b_id (f_bus f)) (b_id b).
Definition delivered (fs : flow_system) (x : asg) (b : bus) (t : nat) : Q :=
  Qsum (map (fun c => Qsum (map (fun f => rate_of x c f t) (filter (connected b) (cp_out c)))) (fs_comps fs)).
Definition taken (fs : flow_system) (x : asg) (b : bus) (t : nat) : Q :=
  Qsum (map (fun c => Qsum (map (fun f => rate_of x c f t) (filter (connected b) (cp_in c)))) (fs_comps fs)).
(** Excess at a bus; there is none unless a penalty for it is given. *)
Definition excess (x : asg) (b : bus) (what : string) (t : nat) : Q :=
  match b_penalty b with None => 0 | Some _ => x (vlabel (b_lab b) what) t end.

(** ** Effects *)

(** Effect values given by the user: nothing, one number or array (for the standard effect), or one per effect. *)
Definition entries (v : evalues) : list (option nat * param) :=
  match v with EVNone => [] | EVOne p => [(None, p)] | EVDict l => l end.
(** The key of an entry names the effect [e]; no key means the standard effect. *)
Definition names (es : list effect) (k : option nat) (e : effect) : bool :=
  match k with
  | Some i => Nat.eqb i (e_id e)
  | None => match find e_std es with Some s => Nat.eqb (e_id s) (e_id e) | None => false end
  end.
(** What the values say about effect [e] at step [t]. *)
Definition cost (es : list effect) (idx : option (list nat)) (v : evalues) (e : effect) (t : nat) : Q :=
  Qsum (map (fun kp => if names es (fst kp) e then value idx (snd kp) t else 0) (entries v)).

(** Totals of effect [e] in a solution: operation in step [t], operation, invest, both. *)
Definition op_at (x : asg) (e : effect) (t : nat) : Q := x (vlabel (cat [e_label e; "__"; "operation"]) "operation_sum_TS") t.
Definition op_sum (x : asg) (e : effect) : Q := x (vlabel (cat [e_label e; "__"; "operation"]) "operation_sum") 0%nat.
Definition inv_sum (x : asg) (e : effect) : Q := x (vlabel (cat [e_label e; "__"; "invest"]) "invest_sum") 0%nat.
Definition all_sum (x : asg) (e : effect) : Q := x (vlabel (cat [e_label e; "__"; "all"]) "all_sum") 0%nat.
Definition penalty_sum (x : asg) : Q := x (vlabel "Effects__penalty" "penalty_sum") 0%nat.

(** Operational effects of the on/off rules [p] of the element called [name]: per start and per hour of running. *)
Definition onoff_costs (fs : flow_system) (idx : option (list nat)) (x : asg) (name : string) (p : onoff) (e : effect) (t : nat) : Q :=
  cost (fs_effects fs) idx (oo_switch_eff p) e t * x (oo name "switchOn") t
  + cost (fs_effects fs) idx (oo_run_eff p) e t * x (oo name "on") t * hours fs idx t.
(** Operational effects of a flow: per flow hour, and those of its on/off rules. *)
Definition flow_costs (fs : flow_system) (idx : option (list nat)) (x : asg) (c : component) (f : flow) (e : effect) (t : nat) : Q :=
  cost (fs_effects fs) idx (f_effects f) e t * rate_of x c f t * hours fs idx t
  + match governed fs idx c f with Some p => onoff_costs fs idx x (flow_name c f) p e t | None => 0 end.
Definition comp_costs (fs : flow_system) (idx : option (list nat)) (x : asg) (c : component) (e : effect) (t : nat) : Q :=
  Qsum (map (fun f => flow_costs fs idx x c f e t) (cp_flows c))
  + match cp_onoff c with Some p => onoff_costs fs idx x (cp_label c) p e t | None => 0 end.

(** All investments of a system with the name of the element they belong to. *)
Definition flow_investment (cf : config) (c : component) (f : flow) : list (string * invest) :=
  match sized cf c f with SzInv iv => [(flow_name c f, iv)] | SzNum _ => [] end.
Definition storage_investment (c : component) : list (string * invest) :=
  match cp_kind c with
  | StorageC s => match st_cap s with CapInv iv => [(cp_label c, iv)] | CapNum _ => [] end
  | _ => []
  end.
Definition investments (cf : config) (fs : flow_system) : list (string * invest) :=
  flat_map (fun c => flat_map (flow_investment cf c) (cp_flows c) ++ storage_investment c) (fs_comps fs).

(** Effects of an investment are single numbers. *)
Definition number (p : param) : Prop := exists q, pdata p = NS q.
Definition numbers (v : evalues) : Prop := forall k p, In (k, p) (entries v) -> number p.
Definition invest_numbers (iv : invest) : Prop := numbers (iv_fix iv) /\ numbers (iv_spec iv) /\ numbers (iv_divest iv).

(** The amount of effect [e] that a segmented investment assigns to the size it chooses. *)
Definition seg_cost (x : asg) (name : string) (e : effect) : Q :=
  x (vlabel (cat [name; "__"; "SegmentedShares"]) (cat [e_label e; "_segmented"])) 0%nat.
Definition seg_costs (x : asg) (name : string) (iv : invest) (e : effect) : Q :=
  match iv_seg iv with
  | Some (_, eff) => Qsum (map (fun il : nat * list (Q * Q) => if Nat.eqb (fst il) (e_id e) then seg_cost x name e else 0) eff)
  | None => 0
  end.
(** Effects of an investment: fixed ones if it is made (an optional one may be declined), ones per size, ones for
    declining, and segmented ones. *)
Definition made (x : asg) (name : string) (iv : invest) : Q := if iv_optional iv then x (inv name "isInvested") 0%nat else 1.
Definition invest_costs (fs : flow_system) (x : asg) (name : string) (iv : invest) (e : effect) : Q :=
  cost (fs_effects fs) None (iv_fix iv) e 0 * made x name iv
  + cost (fs_effects fs) None (iv_spec iv) e 0 * x (inv name "size") 0%nat
  + cost (fs_effects fs) None (iv_divest iv) e 0 * (1 - made x name iv)
  + seg_costs x name iv e.
