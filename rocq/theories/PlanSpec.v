(** What a user means by a plan for a flow system: the quantities it fixes, and the rules of the elements it has to obey.
    Nothing here refers to constraints or to how they are built. *)
From Verif Require Import Base MathModel Spec Structure Params Features Elements Library System SysSpec AdmitSpec PropsOnOff PropsComp PropsEffects.

(** ** Rules of single elements *)

(** The on/off values of the element called [e] are 0 or 1, and its switch-on values mark the steps that begin with a start. *)
Definition onoff_marks (x : asg) (e : string) (was : bool) (n : nat) : Prop := forall t, (t < n)%nat ->
  (x (oo e "on") t == 0 \/ x (oo e "on") t == 1)
  /\ (x (oo e "switchOn") t == 0 \/ x (oo e "switchOn") t == 1)
  /\ (x (oo e "switchOn") t == 1 <-> before was (x (oo e "on")) t == 0 /\ x (oo e "on") t == 1).
(** The pattern of running of flow [f]. *)
Definition runs (x : asg) (c : component) (f : flow) (t : nat) : bool := Qeq_bool (on_of x c f t) 1.

Definition flow_rule (cf : config) (fs : flow_system) (idx : option (list nat)) (x : asg) (c : component) (f : flow) : Prop :=
  flow_allowed cf fs idx x c f (runs x c f)
  /\ (governed fs idx c f <> None -> onoff_marks x (flow_name c f) (was_on cf f) (steps fs idx)).

(** A component with on/off parameters runs when one of its flows does. *)
Definition running_rule (cf : config) (fs : flow_system) (idx : option (list nat)) (x : asg) (c : component) (p : onoff) : Prop :=
  onoff_marks x (cp_label c) (List.last (comp_states cf c) false) (steps fs idx)
  /\ (forall t, (t < steps fs idx)%nat -> (x (oo (cp_label c) "on") t == 0 <-> forall f, In f (cp_flows c) -> rate_of x c f t == 0))
  /\ onoff_rules fs idx (comp_states cf c) p (x (oo (cp_label c) "on")).

Definition exclusion_rule (fs : flow_system) (idx : option (list nat)) (x : asg) (c : component) : Prop :=
  forall f g t, In f (cp_flows c) -> In g (cp_flows c) -> f <> g -> In (f_id f) (cp_prevent c) -> In (f_id g) (cp_prevent c) ->
    (t < steps fs idx)%nat -> rate_of x c f t == 0 \/ rate_of x c g t == 0.

Definition segmented_rule (fs : flow_system) (idx : option (list nat)) (x : asg) (c : component) (segs : list (nat * list (param * param))) : Prop :=
  forall t, (t < steps fs idx)%nat ->
  (exists k w, 0 <= w /\ w <= 1
     /\ (forall f, In f (cp_flows c) -> exists ab, nth_error (segments_of segs f) k = Some ab /\ on_piece idx x c f t w ab)
     /\ (cp_onoff c <> None -> x (oo (cp_label c) "on") t == 1))
  \/ (cp_onoff c <> None /\ x (oo (cp_label c) "on") t == 0 /\ forall f, In f (cp_flows c) -> rate_of x c f t == 0).

(** Capacities the relative limits of the charge state refer to besides the capacity in use: the smallest and the largest. *)
Definition cap_range (cf : config) (s : csize) : Q * Q :=
  match s with CapNum q => (q, q) | CapInv iv => (or_num (iv_fixed iv) (iv_min iv), max_size cf iv) end.
Definition storage_rule (cf : config) (fs : flow_system) (idx : option (list nat)) (x : asg) (c : component) (s : storage) (ch dis : flow) : Prop :=
  (forall t, (t < steps fs idx)%nat ->
     ~ value idx (st_eta_d s) t == 0
     /\ charge x c (S t) == charge x c t * (1 - value idx (st_loss s) t * hours fs idx t)
          + rate_of x c ch t * value idx (st_eta_c s) t * hours fs idx t
          - rate_of x c dis t / value idx (st_eta_d s) t * hours fs idx t)
  /\ (forall t, (t <= steps fs idx)%nat ->
        value idx (st_relmin s) t * capacity x c s <= charge x c t /\ charge x c t <= value idx (st_relmax s) t * capacity x c s
        /\ value idx (st_relmin s) t * fst (cap_range cf (st_cap s)) <= charge x c t
        /\ charge x c t <= value idx (st_relmax s) t * snd (cap_range cf (st_cap s)))
  /\ (forall iv, st_cap s = CapInv iv -> allowed_size cf iv (x (inv (cp_label c) "size") 0%nat) (x (inv (cp_label c) "isInvested") 0%nat))
  /\ (forall q, st_init s = ICNum q -> charge x c 0 == q)
  /\ (st_init s = ICLast -> charge x c (steps fs idx - 1) == charge x c 0)
  /\ (st_init s <> ICNone -> forall q, st_fmax s = Some q -> charge x c (steps fs idx) <= q)
  /\ (st_init s <> ICNone -> forall q, st_fmin s = Some q -> q <= charge x c (steps fs idx)).

Definition transmission_rule (cf : config) (fs : flow_system) (idx : option (list nat)) (x : asg) (c : component) (rel abs : option param)
           (in1 out1 : flow) (in2 out2 : option flow) : Prop :=
  carries fs idx x c rel abs in1 out1
  /\ match in2, out2 with
     | Some i2, Some o2 => carries fs idx x c rel abs i2 o2 /\ (forall iv, f_size in1 = SzInv iv -> size_of cf x c in1 == size_of cf x c i2)
     | _, _ => True
     end.

(** A component's own rule, by its kind. *)
Definition own_rule (cf : config) (fs : flow_system) (idx : option (list nat)) (x : asg) (c : component) : Prop :=
  match cp_kind c with
  | Plain => True
  | Converter eqs => forall factors t, In factors eqs -> (t < steps fs idx)%nat -> weighted idx x c factors (cp_in c) t == weighted idx x c factors (cp_out c) t
  | Segmented segs => segmented_rule fs idx x c segs
  | StorageC s => forall ch dis, cp_in c = [ch] -> cp_out c = [dis] -> storage_rule cf fs idx x c s ch dis
  | TransmissionC rel abs => forall in1 out1 in2 out2, cp_in c = in1 :: opt_flow in2 -> cp_out c = out1 :: opt_flow out2 ->
      transmission_rule cf fs idx x c rel abs in1 out1 in2 out2
  end.

(** A segmented investment chooses one piece, the same for the size and for every effect, and one position on it; an
    optional one may be declined. *)
Definition segments_rule (fs : flow_system) (x : asg) (name : string) (iv : invest) : Prop := forall spts eff, iv_seg iv = Some (spts, eff) ->
  let size := x (inv name "size") 0%nat in let invested := x (inv name "isInvested") 0%nat in
  (exists k w, 0 <= w /\ w <= 1 /\ PropsEffects.piece spts k w size
     /\ (forall i l e, In (i, l) eff -> In e (fs_effects fs) -> e_id e = i -> PropsEffects.piece l k w (seg_cost x name e))
     /\ (iv_optional iv = true -> invested == 1))
  \/ (iv_optional iv = true /\ invested == 0 /\ size == 0
      /\ forall i l e, In (i, l) eff -> In e (fs_effects fs) -> e_id e = i -> seg_cost x name e == 0).

Definition bus_rule (fs : flow_system) (idx : option (list nat)) (x : asg) (b : bus) : Prop := forall t, (t < steps fs idx)%nat ->
  delivered fs x b t + excess x b "excess_input" t == taken fs x b t + excess x b "excess_output" t
  /\ 0 <= excess x b "excess_input" t /\ 0 <= excess x b "excess_output" t.

Definition effect_rule (cf : config) (fs : flow_system) (idx : option (list nat)) (x : asg) (e : effect) : Prop :=
  (forall t, (t < steps fs idx)%nat ->
     op_at x e t == Qsum (map (fun c => comp_costs fs idx x c e t) (fs_comps fs)) + op_from_effects fs idx x e t)
  /\ op_sum x e == sumn (steps fs idx) (fun t => op_at x e t)
  /\ inv_sum x e == Qsum (map (fun ni => invest_costs fs x (fst ni) (snd ni) e) (investments cf fs)) + inv_from_effects fs x e
  /\ all_sum x e == op_sum x e + inv_sum x e
  /\ at_least (e_min_op e) (op_sum x e) /\ at_most (e_max_op e) (op_sum x e)
  /\ at_least (e_min_inv e) (inv_sum x e) /\ at_most (e_max_inv e) (inv_sum x e)
  /\ at_least (e_min_tot e) (op_sum x e + inv_sum x e) /\ at_most (e_max_tot e) (op_sum x e + inv_sum x e)
  /\ forall t, (t < steps fs idx)%nat ->
       at_least (option_map (fun p => value idx p t * hours fs idx t) (e_min_ph e)) (op_at x e t)
       /\ at_most (option_map (fun p => value idx p t * hours fs idx t) (e_max_ph e)) (op_at x e t).

(** ** Plans *)

(** The plan [x] obeys all rules of the system. *)
Record obeys (cf : config) (fs : flow_system) (idx : option (list nat)) (x : asg) : Prop := {
  ob_flow : forall c f, In c (fs_comps fs) -> In f (cp_flows c) -> flow_rule cf fs idx x c f;
  ob_running : forall c p, In c (fs_comps fs) -> cp_onoff c = Some p -> running_rule cf fs idx x c p;
  ob_exclusion : forall c, In c (fs_comps fs) -> exclusion_rule fs idx x c;
  ob_own : forall c, In c (fs_comps fs) -> own_rule cf fs idx x c;
  ob_segments : forall name iv, In (name, iv) (investments cf fs) -> segments_rule fs x name iv;
  ob_bus : forall b, used_bus fs b -> bus_rule fs idx x b;
  ob_effect : forall e, In e (fs_effects fs) -> effect_rule cf fs idx x e;
  ob_penalty : forall bl, NoDup bl -> (forall b, In b bl <-> used_bus fs b) -> penalty_sum x == Qsum (map (bus_price fs idx x) bl)
}.

(** [x] and [y] agree on what the elements of the system do: on all rates, states, starts, sizes, investment decisions, stored
    energies and excesses. *)
Record same_parts (cf : config) (fs : flow_system) (idx : option (list nat)) (x y : asg) : Prop := {
  pp_rate : forall c f t, In c (fs_comps fs) -> In f (cp_flows c) -> (t < steps fs idx)%nat -> rate_of y c f t == rate_of x c f t;
  pp_on : forall c f t, In c (fs_comps fs) -> In f (cp_flows c) -> governed fs idx c f <> None -> (t < steps fs idx)%nat ->
     on_of y c f t == on_of x c f t /\ y (oo (flow_name c f) "switchOn") t == x (oo (flow_name c f) "switchOn") t;
  pp_running : forall c t, In c (fs_comps fs) -> cp_onoff c <> None -> (t < steps fs idx)%nat ->
     y (oo (cp_label c) "on") t == x (oo (cp_label c) "on") t /\ y (oo (cp_label c) "switchOn") t == x (oo (cp_label c) "switchOn") t;
  pp_size : forall name iv, In (name, iv) (investments cf fs) -> y (inv name "size") 0%nat == x (inv name "size") 0%nat
     /\ (iv_optional iv = true -> y (inv name "isInvested") 0%nat == x (inv name "isInvested") 0%nat)
     /\ (forall spts eff i l e, iv_seg iv = Some (spts, eff) -> In (i, l) eff -> In e (fs_effects fs) -> e_id e = i -> seg_cost y name e == seg_cost x name e);
  pp_charge : forall c s t, In c (fs_comps fs) -> cp_kind c = StorageC s -> (t <= steps fs idx)%nat -> charge y c t == charge x c t;
  pp_excess : forall b t, used_bus fs b -> (t < steps fs idx)%nat ->
     excess y b "excess_input" t == excess x b "excess_input" t /\ excess y b "excess_output" t == excess x b "excess_output" t
}.

(** [x] and [y] are the same plan: they agree on all rates, states, starts, sizes, investment decisions, stored energies,
    excesses and effect totals. *)
Record same_plan (cf : config) (fs : flow_system) (idx : option (list nat)) (x y : asg) : Prop := {
  sp_rate : forall c f t, In c (fs_comps fs) -> In f (cp_flows c) -> (t < steps fs idx)%nat -> rate_of y c f t == rate_of x c f t;
  sp_on : forall c f t, In c (fs_comps fs) -> In f (cp_flows c) -> governed fs idx c f <> None -> (t < steps fs idx)%nat ->
     on_of y c f t == on_of x c f t /\ y (oo (flow_name c f) "switchOn") t == x (oo (flow_name c f) "switchOn") t;
  sp_running : forall c t, In c (fs_comps fs) -> cp_onoff c <> None -> (t < steps fs idx)%nat ->
     y (oo (cp_label c) "on") t == x (oo (cp_label c) "on") t /\ y (oo (cp_label c) "switchOn") t == x (oo (cp_label c) "switchOn") t;
  sp_size : forall name iv, In (name, iv) (investments cf fs) -> y (inv name "size") 0%nat == x (inv name "size") 0%nat
     /\ (iv_optional iv = true -> y (inv name "isInvested") 0%nat == x (inv name "isInvested") 0%nat)
     /\ (forall spts eff i l e, iv_seg iv = Some (spts, eff) -> In (i, l) eff -> In e (fs_effects fs) -> e_id e = i -> seg_cost y name e == seg_cost x name e);
  sp_charge : forall c s t, In c (fs_comps fs) -> cp_kind c = StorageC s -> (t <= steps fs idx)%nat -> charge y c t == charge x c t;
  sp_excess : forall b t, used_bus fs b -> (t < steps fs idx)%nat ->
     excess y b "excess_input" t == excess x b "excess_input" t /\ excess y b "excess_output" t == excess x b "excess_output" t;
  sp_effect : forall e, In e (fs_effects fs) ->
     (forall t, (t < steps fs idx)%nat -> op_at y e t == op_at x e t) /\ op_sum y e == op_sum x e /\ inv_sum y e == inv_sum x e /\ all_sum y e == all_sum x e;
  sp_penalty : penalty_sum y == penalty_sum x
}.

(** ** Data that makes sense *)
Definition well_formed (fs : flow_system) : Prop := forall c, In c (fs_comps fs) -> NoDup (cp_prevent c)
  /\ match cp_kind c with
     | StorageC s => exists label ch dis prevent, c = storage_ label ch dis s prevent
     | TransmissionC rel abs => exists label in1 out1 in2 out2 oo prevent, c = transmission label in1 out1 in2 out2 rel abs oo prevent
     | _ => True
     end.
Record sensible (cf : config) (fs : flow_system) (idx : option (list nat)) : Prop := {
  se_eps : 0 < cf_eps cf /\ cf_eps cf < 1;
  se_steps : (2 <= steps fs idx)%nat;
  se_buses : distinct_buses fs;
  se_shape : well_formed fs;
  se_flow : forall c f, In c (fs_comps fs) -> In f (cp_flows c) -> sound_flow cf fs idx c f
     /\ (forall o, governed fs idx c f = Some o -> countable_for o (prior_states cf f));
  se_comp : forall c p, In c (fs_comps fs) -> cp_onoff c = Some p ->
     sound_limits fs idx p /\ countable_for p (comp_states cf c) /\ (length (filter gives_number (cp_flows c)) <= 1)%nat
     /\ forall f t, In f (cp_flows c) -> (t < steps fs idx)%nat -> 0 <= rel_max idx f t * snd (size_range cf (sized cf c f));
  se_store : forall c s iv, In c (fs_comps fs) -> cp_kind c = StorageC s -> st_cap s = CapInv iv -> 0 <= max_size cf iv;
  se_effects : distinct_effects fs /\ numeric_links fs /\ forall name iv, In (name, iv) (investments cf fs) -> invest_numbers iv
}.
