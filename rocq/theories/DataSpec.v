(** Vocabulary for the data of a flow system: which parameters may vary in time, and how flixOpt labels them. *)
From Verif Require Import Base MathModel Params Features Elements System SysSpec.

(** The parameter [what] of the element called [e]. *)
Definition own (e what : string) : string := cat [e; "__"; what].
(** A value per effect is labelled with the effect it belongs to; without a key it is for the standard effect. *)
Inductive effect_value (fs : flow_system) (e what : string) (v : evalues) : string -> param -> Prop :=
| ev_standard : forall p, In (None, p) (entries v) -> effect_value fs e what v (own e (cat ["Standard_Effect_"; what])) p
| ev_effect : forall f p, In f (fs_effects fs) -> In (Some (e_id f), p) (entries v) -> effect_value fs e what v (own e (cat [e_label f; "_"; what])) p.
Inductive onoff_value (fs : flow_system) (e : string) (o : onoff) : string -> param -> Prop :=
| ov_switch : forall l p, effect_value fs e "per_switch_on" (oo_switch_eff o) l p -> onoff_value fs e o l p
| ov_run : forall l p, effect_value fs e "per_running_hour" (oo_run_eff o) l p -> onoff_value fs e o l p
| ov_on_min : forall p, oo_con_min o = Some p -> onoff_value fs e o (own e "consecutive_on_hours_min") p
| ov_on_max : forall p, oo_con_max o = Some p -> onoff_value fs e o (own e "consecutive_on_hours_max") p
| ov_off_min : forall p, oo_coff_min o = Some p -> onoff_value fs e o (own e "consecutive_off_hours_min") p
| ov_off_max : forall p, oo_coff_max o = Some p -> onoff_value fs e o (own e "consecutive_off_hours_max") p.
Inductive flow_value (fs : flow_system) (c : component) (f : flow) : string -> param -> Prop :=
| fv_min : flow_value fs c f (own (flow_name c f) "relative_minimum") (f_relmin f)
| fv_max : flow_value fs c f (own (flow_name c f) "relative_maximum") (f_relmax f)
| fv_profile : forall p, f_profile f = Some p -> flow_value fs c f (own (flow_name c f) "fixed_relative_profile") p
| fv_effects : forall l p, effect_value fs (flow_name c f) "per_flow_hour" (f_effects f) l p -> flow_value fs c f l p
| fv_onoff : forall o l p, f_onoff f = Some o -> onoff_value fs (flow_name c f) o l p -> flow_value fs c f l p.
Inductive comp_value (fs : flow_system) (c : component) : string -> param -> Prop :=
| cv_onoff : forall o l p, cp_onoff c = Some o -> onoff_value fs (cp_label c) o l p -> comp_value fs c l p
| cv_factor : forall fss d f p, cp_kind c = Converter fss -> In d fss -> In f (cp_flows c) -> In (f_id f, p) d -> comp_value fs c (own (cp_label c) (cat [f_lab f; "_factor"])) p
| cv_start : forall segs i l p q, cp_kind c = Params.Segmented segs -> In (i, l) segs -> In (p, q) l -> comp_value fs c (own (cp_label c) "Stuetzstelle") p
| cv_end : forall segs i l p q, cp_kind c = Params.Segmented segs -> In (i, l) segs -> In (p, q) l -> comp_value fs c (own (cp_label c) "Stuetzstelle") q
| cv_min_charge : forall s, cp_kind c = StorageC s -> comp_value fs c (own (cp_label c) "relative_minimum_charge_state") (st_relmin s)
| cv_max_charge : forall s, cp_kind c = StorageC s -> comp_value fs c (own (cp_label c) "relative_maximum_charge_state") (st_relmax s)
| cv_eta_charge : forall s, cp_kind c = StorageC s -> comp_value fs c (own (cp_label c) "eta_charge") (st_eta_c s)
| cv_eta_discharge : forall s, cp_kind c = StorageC s -> comp_value fs c (own (cp_label c) "eta_discharge") (st_eta_d s)
| cv_loss : forall s, cp_kind c = StorageC s -> comp_value fs c (own (cp_label c) "relative_loss_per_hour") (st_loss s)
| cv_relative : forall rel abs p, cp_kind c = TransmissionC rel abs -> rel = Some p -> comp_value fs c (own (cp_label c) "relative_losses") p
| cv_absolute : forall rel abs p, cp_kind c = TransmissionC rel abs -> abs = Some p -> comp_value fs c (own (cp_label c) "absolute_losses") p.
(** All parameters of a flow system that may vary in time, with their labels. *)
Inductive given (fs : flow_system) : string -> param -> Prop :=
| g_comp : forall c l p, In c (fs_comps fs) -> comp_value fs c l p -> given fs l p
| g_flow : forall c f l p, In c (fs_comps fs) -> In f (cp_flows c) -> flow_value fs c f l p -> given fs l p
| g_bus : forall b p, used_bus fs b -> b_penalty b = Some p -> given fs (own (b_lab b) "excess_penalty_per_flow_hour") p
| g_min_hour : forall e p, In e (fs_effects fs) -> e_min_ph e = Some p -> given fs (own (e_label e) "minimum_operation_per_hour") p
| g_max_hour : forall e p, In e (fs_effects fs) -> e_max_ph e = Some p -> given fs (own (e_label e) "maximum_operation_per_hour") p
| g_share : forall e e' p, In e (fs_effects fs) -> In e' (fs_effects fs) -> In (e_id e', p) (e_share_op e) ->
    given fs (own (e_label e) (cat [e_label e'; "_specific_share_to_other_effects_operation"])) p.

(** The data is an array in which not all entries are equal. *)
Definition varies (p : param) : Prop := exists l i j, pdata p = NV l /\ (i < length l)%nat /\ (j < length l)%nat /\ ~ nth i l 0 == nth j l 0.
(** Conversion factors and segments are given for flows of the converter. *)
Definition own_factors (fs : flow_system) : Prop :=
  (forall c fss d i p, In c (fs_comps fs) -> cp_kind c = Converter fss -> In d fss -> In (i, p) d -> exists f, In f (cp_flows c) /\ f_id f = i)
  /\ forall c segs i l, In c (fs_comps fs) -> cp_kind c = Params.Segmented segs -> In (i, l) segs -> exists f, In f (cp_flows c) /\ f_id f = i.
(** flixOpt calls all conversion factors of one flow the same, and all ends of segments; at most one of each kind varies. *)
Definition one_label_each (fs : flow_system) : Prop :=
  (forall c fss, In c (fs_comps fs) -> cp_kind c = Converter fss -> ForallOrdPairs (fun a b => varies (snd a) -> varies (snd b) -> fst a <> fst b) (List.concat fss))
  /\ (forall c segs, In c (fs_comps fs) -> cp_kind c = Params.Segmented segs ->
        ForallOrdPairs (fun p q => ~ (varies p /\ varies q)) (flat_map (fun ks => flat_map (fun pq => [fst pq; snd pq]) (snd ks)) segs))
  /\ forall e, In e (fs_effects fs) -> e_label e <> "Standard_Effect"%string.
(** The limits of charge states do not vary: their arrays are longer than the others by one entry. *)
Definition steady_limits (fs : flow_system) : Prop :=
  forall c s, In c (fs_comps fs) -> cp_kind c = StorageC s -> ~ varies (st_relmin s) /\ ~ varies (st_relmax s).
