(** Specification vocabulary for what the constraints of a program do NOT exclude: which of them were created for an
    element, when a point obeys them, and the rules of on/off parts and flows as the user states them. *)
From Verif Require Import Base MathModel Spec Structure Params Features Elements System SysSpec.

(** ** The constraints created for an element *)

(** [n] is the model [m] itself or one of its sub-models, at any depth. *)
Inductive within (m : emodel) : emodel -> Prop :=
| within_self : within m m
| within_sub : forall s n, In s (em_subs m) -> within s n -> within m n.
(** [m] is the model in the system [bs] that declares the variable called [label]. *)
Definition declares (m : emodel) (label : string) : Prop := exists v, In v (em_vars m) /\ v_label v = label.
Definition declared_by (bs : built_system) (label : string) (m : emodel) : Prop :=
  (exists root, In root (bs_roots bs) /\ within root m) /\ declares m label.
(** [x] is allowed by all variables and constraints of [m] and its sub-models, as they are handed to the solver. *)
Definition respects (x : asg) (m : emodel) : Prop := forall n, within m n ->
  (forall v p, In v (em_vars n) -> translate_variable v = Ok p -> pvar_ok x p)
  /\ (forall c rows, In c (em_cons n) -> translate_constraint c = Ok rows -> Forall (row_ok x) rows).

(** ** On/off rules *)

(** Names of the variables of an on/off part. *)
Definition onoff_names : list string :=
  ["on"; "off"; "totalOnHours"; "consecutiveOnHours"; "consecutiveOffHours"; "switchOn"; "switchOff"; "nrSwitchOn"].
(** [y] and [x] agree except for the on/off variables of the element called [e]. *)
Definition same_but_onoff (e : string) (x y : asg) : Prop :=
  forall l, (forall w, In w onoff_names -> l <> oo e w) -> y l = x l.

(** The rules of an on/off part for a pattern [on]: total hours, number of starts, consecutive hours on and off. *)
Definition onoff_rules (fs : flow_system) (idx : option (list nat)) (states : list bool) (o : onoff) (on : nat -> Q) : Prop :=
  (forall q, oo_on_min o = Some q -> q <= sumn (steps fs idx) (fun t => hours fs idx t * on t))
  /\ (forall q, oo_on_max o = Some q -> sumn (steps fs idx) (fun t => hours fs idx t * on t) <= q)
  /\ (forall q, oo_sw_max o = Some q -> inject_Z (Z.of_nat (starts (List.last states false) on (steps fs idx))) <= q)
  /\ obeys_limits fs idx (prior_hours (fs_prev_dt fs) true states) on (oo_con_min o) (oo_con_max o)
  /\ obeys_limits fs idx (prior_hours (fs_prev_dt fs) false states) (fun t => 1 - on t) (oo_coff_min o) (oo_coff_max o).
(** Limits on durations that make sense: steps and previous steps have no negative length, limits have a value for every
    step and are not negative. *)
Definition limits_given (o : onoff) : list param :=
  flat_map (fun p => match p with Some p => [p] | None => [] end) [oo_con_min o; oo_con_max o; oo_coff_min o; oo_coff_max o].
Definition sound_limits (fs : flow_system) (idx : option (list nat)) (o : onoff) : Prop :=
  limits_given o <> [] ->
  (forall t, (t < steps fs idx)%nat -> 0 <= hours fs idx t)
  /\ (forall q, In q (nlist (fs_prev_dt fs)) -> 0 <= q)
  /\ (forall p, In p (limits_given o) -> full_data fs p /\ forall t, (t < steps fs idx)%nat -> 0 <= value idx p t).
(** On/off parameters without any limit: mere bookkeeping, effects included. *)
Definition no_limits (o : onoff) : Prop :=
  oo_on_min o = None /\ oo_on_max o = None /\ oo_sw_max o = None
  /\ oo_con_min o = None /\ oo_con_max o = None /\ oo_coff_min o = None /\ oo_coff_max o = None.

(** ** Flows *)

(** Relative limits of a flow at step [t]: a fixed profile replaces both. *)
Definition rel_min (idx : option (list nat)) (f : flow) (t : nat) : Q :=
  value idx (match f_profile f with Some p => p | None => f_relmin f end) t.
Definition rel_max (idx : option (list nat)) (f : flow) (t : nat) : Q :=
  value idx (match f_profile f with Some p => p | None => f_relmax f end) t.
(** The rate [r] is within the positive limits of flow [f] of component [c] at step [t], for the smallest and largest size. *)
Definition within_limits (cf : config) (idx : option (list nat)) (c : component) (f : flow) (t : nat) (r : Q) : Prop :=
  rel_min idx f t * fst (size_range cf (sized cf c f)) <= r /\ r <= rel_max idx f t * snd (size_range cf (sized cf c f)).

(** The schedule of flow [f] in [x] (rates, size, investment decision), with the on/off pattern [b] if it has on/off
    behaviour, is allowed by the parameters of the flow. *)
Record flow_allowed (cf : config) (fs : flow_system) (idx : option (list nat)) (x : asg) (c : component) (f : flow) (b : nat -> bool) : Prop := {
  al_plain : governed fs idx c f = None -> forall t, (t < steps fs idx)%nat -> within_limits cf idx c f t (rate_of x c f t);
  al_off : governed fs idx c f <> None -> forall t, (t < steps fs idx)%nat -> b t = false -> rate_of x c f t == 0;
  al_on : governed fs idx c f <> None -> forall t, (t < steps fs idx)%nat -> b t = true ->
      cf_eps cf <= rate_of x c f t /\ within_limits cf idx c f t (rate_of x c f t);
  al_rules : forall o, governed fs idx c f = Some o -> onoff_rules fs idx (prior_states cf f) o (fun t => q01 (b t));
  al_size : forall iv, sized cf c f = SzInv iv ->
      allowed_size cf iv (x (inv (flow_name c f) "size") 0%nat) (x (inv (flow_name c f) "isInvested") 0%nat);
  al_used : forall iv, sized cf c f = SzInv iv -> forall t, (t < steps fs idx)%nat ->
      match f_profile f with
      | Some p => rate_of x c f t == value idx p t * size_of cf x c f
      | None => rate_of x c f t <= value idx (f_relmax f) t * size_of cf x c f
          /\ (governed fs idx c f = None \/ b t = true -> value idx (f_relmin f) t * size_of cf x c f <= rate_of x c f t)
      end;
  al_total : let total := sumn (steps fs idx) (fun t => hours fs idx t * rate_of x c f t) in
      (forall q, f_fh_min f = Some q -> q <= total) /\ (forall q, f_fh_max f = Some q -> total <= q)
      /\ (forall q, f_lf_min f = Some q -> q * size_of cf x c f * horizon fs idx <= total)
      /\ (forall q, f_lf_max f = Some q -> total <= q * size_of cf x c f * horizon fs idx)
}.
(** Sensible data of a flow: a value for every step, and, where an investment decides the size, no negative sizes and
    relative limits in order. *)
Definition sound_flow (cf : config) (fs : flow_system) (idx : option (list nat)) (c : component) (f : flow) : Prop :=
  (match f_profile f with Some p => full_data fs p | None => full_data fs (f_relmin f) /\ full_data fs (f_relmax f) end)
  /\ (forall iv, sized cf c f = SzInv iv -> 0 <= max_size cf iv
        /\ forall t, (t < steps fs idx)%nat -> 0 <= value idx (f_relmin f) t /\ value idx (f_relmin f) t <= value idx (f_relmax f) t)
  /\ (forall o, governed fs idx c f = Some o -> sound_limits fs idx o).
