(** Vocabulary for the acceptance of flow systems: data and labels with which a flow system can be calculated. Every
    condition is about what the user passes in. *)
From Verif Require Import Base MathModel Params Features Elements System SysSpec NameSpec.

(** ** Labels *)

(** Names flixOpt gives to parts of an element. *)
Definition part_names : list string :=
  ["OnOff"; "PreventSimultaneousUsage"; "MultipleSegments"; "Segment"; "Investment"; "SegmentedShares"]%string.
(** Labels next to each other in one problem; "Effects" is the label of the collection of effects. *)
Definition top_labels (fs : flow_system) : list string :=
  "Effects"%string :: map e_label (fs_effects fs) ++ map cp_label (fs_comps fs).
Record well_named (fs : flow_system) : Prop := {
  wn_top : ForallOrdPairs unrelated (top_labels fs);
  wn_bus : forall b l, used_bus fs b -> In l (top_labels fs) -> unrelated (b_lab b) l;
  wn_buses : forall b b', used_bus fs b -> used_bus fs b' -> b <> b' -> unrelated (b_lab b) (b_lab b');
  wn_effect : forall e, In e (fs_effects fs) -> tidy (e_label e);
  (** the label of a component is not empty and does not begin with an underscore *)
  wn_comp : forall c, In c (fs_comps fs) -> hd ""%string (words (cp_label c)) <> ""%string;
  wn_flow : forall c, In c (fs_comps fs) -> ForallOrdPairs unrelated (map f_lab (cp_flows c))
              /\ forall f l, In f (cp_flows c) -> In l part_names -> unrelated (f_lab f) l
}.

(** ** Data *)
Definition full_opt (fs : flow_system) (p : option param) : Prop := forall q, p = Some q -> full_data fs q.

(** Values per effect: every key means a registered effect, no two keys mean the same one. *)
Definition means (fs : flow_system) (k : option nat) (e : effect) : Prop := In e (fs_effects fs) /\ names (fs_effects fs) k e = true.
Definition well_addressed (fs : flow_system) (ks : list (option nat)) : Prop :=
  (forall k, In k ks -> exists e, means fs k e) /\ ForallOrdPairs (fun k k' => forall e, ~ (means fs k e /\ means fs k' e)) ks.
Definition valid_values (fs : flow_system) (v : evalues) : Prop :=
  well_addressed fs (map fst (entries v)) /\ forall k p, In (k, p) (entries v) -> full_data fs p.
Definition valid_numbers (fs : flow_system) (v : evalues) : Prop :=
  well_addressed fs (map fst (entries v)) /\ forall k p, In (k, p) (entries v) -> exists q, p = PNum (NS q).

(** Values before the first step: a number, or an array of earlier values. *)
Definition given_past (l : list flow) : list numeric := flat_map (fun f => match f_prev f with Some a => [a] | None => [] end) l.
(** All of them are numbers, or all of them are arrays of one length. *)
Definition one_kind (l : list numeric) : Prop :=
  Forall (fun a => exists q, a = NS q) l \/ exists k, (0 < k)%nat /\ Forall (fun a => exists q, a = NV q /\ length q = k) l.
(** The number of earlier states flixOpt reads from them. *)
Definition states_read (l : list numeric) : nat := match l with [] => 1%nat | NS _ :: _ => length l | NV q :: _ => length q end.

Definition limits_duration (p : onoff) : Prop :=
  oo_con_min p <> None \/ oo_con_max p <> None \/ oo_coff_min p <> None \/ oo_coff_max p <> None.
Record valid_onoff (fs : flow_system) (p : onoff) (past : list numeric) : Prop := {
  vo_switch : valid_values fs (oo_switch_eff p);
  vo_run : valid_values fs (oo_run_eff p);
  vo_con : full_opt fs (oo_con_min p) /\ full_opt fs (oo_con_max p);
  vo_coff : full_opt fs (oo_coff_min p) /\ full_opt fs (oo_coff_max p);
  (** the lengths of earlier steps are known as far as they are needed *)
  vo_past : limits_duration p -> forall ds, fs_prev_dt fs = NV ds -> (states_read past <= length ds)%nat
}.

Record valid_invest (fs : flow_system) (iv : invest) : Prop := {
  vi_fix : valid_numbers fs (iv_fix iv);
  vi_spec : valid_numbers fs (iv_spec iv);
  vi_divest : valid_numbers fs (iv_divest iv);
  (** segmented effects: some effect, each a registered one, with as many segments as the size has *)
  vi_seg : forall spts eff, iv_seg iv = Some (spts, eff) -> eff <> [] /\ spts <> [] /\ NoDup (map fst eff)
     /\ forall i l, In (i, l) eff -> (exists e, means fs (Some i) e) /\ length l = length spts
}.

Record valid_flow (fs : flow_system) (f : flow) : Prop := {
  vf_limits : full_opt fs (f_profile f) /\ full_data fs (f_relmin f) /\ full_data fs (f_relmax f);
  vf_effects : valid_values fs (f_effects f);
  vf_past : one_kind (given_past [f]);
  vf_onoff : forall p, f_onoff f = Some p -> valid_onoff fs p (given_past [f]);
  vf_invest : forall iv, f_size f = SzInv iv -> valid_invest fs iv
}.

(** Limits of the charge state: a number, or without a choice of steps an array with one entry for each step and one for
    the end. *)
Definition charge_data (fs : flow_system) (idx : option (list nat)) (p : param) : Prop :=
  (exists q, pdata p = NS q) \/ (idx = None /\ exists l, pdata p = NV l /\ length l = (length (fs_times fs) + 1)%nat).
Record valid_storage (fs : flow_system) (idx : option (list nat)) (s : storage) : Prop := {
  vs_limits : charge_data fs idx (st_relmin s) /\ charge_data fs idx (st_relmax s);
  vs_data : full_data fs (st_eta_c s) /\ full_data fs (st_eta_d s) /\ full_data fs (st_loss s);
  (** an efficiency of zero cannot be divided by *)
  vs_eta : forall q, In q (nlist (pdata (st_eta_d s))) -> ~ q == 0;
  vs_init : st_init s <> ICBad;
  vs_invest : forall iv, st_cap s = CapInv iv -> valid_invest fs iv
}.
Definition valid_kind (fs : flow_system) (idx : option (list nat)) (c : component) : Prop :=
  match cp_kind c with
  | Plain => True
  (** every equation has a factor for some flow of the converter *)
  | Converter fss => fss <> [] /\ (forall d k p, In d fss -> In (k, p) d -> full_data fs p) /\ forall d, In d fss -> exists f p, In f (cp_flows c) /\ In (f_id f, p) d
  | Params.Segmented segs => cp_flows c <> [] /\ NoDup (map fst segs)
      /\ exists k, (0 < k)%nat /\ forall f, In f (cp_flows c) -> exists s, In (f_id f, s) segs /\ length s = k /\ forall p q, In (p, q) s -> full_data fs p /\ full_data fs q
  | StorageC s => valid_storage fs idx s /\ exists ch dis, cp_in c = [ch] /\ cp_out c = [dis]
  | TransmissionC rel abs => full_opt fs rel /\ full_opt fs abs
      /\ ((exists i o, cp_in c = [i] /\ cp_out c = [o]) \/ exists i i' o o', cp_in c = [i; i'] /\ cp_out c = [o; o'])
      (** with absolute losses the inputs need an on/off state; flixOpt gives them one unless all losses are zero *)
      /\ (abs <> None -> forall f, In f (cp_in c) -> governed fs idx c f <> None)
  end.
Record valid_comp (fs : flow_system) (idx : option (list nat)) (c : component) : Prop := {
  vc_flows : forall f, In f (cp_flows c) -> valid_flow fs f;
  vc_onoff : forall p, cp_onoff c = Some p -> cp_flows c <> [] /\ one_kind (given_past (cp_flows c)) /\ valid_onoff fs p (given_past (cp_flows c));
  vc_prevent : cp_prevent c = [] \/ (2 <= length (cp_prevent c))%nat /\ forall i, In i (cp_prevent c) -> exists f, In f (cp_flows c) /\ f_id f = i;
  vc_kind : valid_kind fs idx c
}.

Record valid_effect (fs : flow_system) (e : effect) : Prop := {
  ve_hourly : full_opt fs (e_min_ph e) /\ full_opt fs (e_max_ph e);
  ve_op : NoDup (map fst (e_share_op e)) /\ forall k p, In (k, p) (e_share_op e) -> (exists e', means fs (Some k) e') /\ full_data fs p;
  ve_inv : NoDup (map fst (e_share_inv e)) /\ forall k a, In (k, a) (e_share_inv e) -> (exists e', means fs (Some k) e') /\ exists q, a = NS q
}.

Record valid_data (fs : flow_system) (idx : option (list nat)) : Prop := {
  vd_steps : (2 <= steps fs idx)%nat;
  vd_chosen : forall l i, idx = Some l -> In i l -> (i < length (fs_times fs))%nat;
  (** no two flows are one object, no two effects are one object *)
  vd_flows : NoDup (map f_id (flat_map cp_flows (fs_comps fs)));
  vd_ids : NoDup (map e_id (fs_effects fs));
  vd_effects : forall e, In e (fs_effects fs) -> valid_effect fs e;
  vd_objective : exists e, In e (fs_effects fs) /\ e_obj e = true;
  vd_comps : forall c, In c (fs_comps fs) -> valid_comp fs idx c;
  vd_buses : forall b, used_bus fs b -> full_opt fs (b_penalty b)
}.
