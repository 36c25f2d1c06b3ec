(** Model of core.py (time series data), interface.py (parameter classes) and the data of effects.py, elements.py,
    components.py: what the user passes in. *)
From Verif Require Import Base MathModel.

(** core.py 20-54 [TimeSeriesData]; core.py 69-71 [Numeric_TS]: a number, an array, or a TimeSeriesData. *)
Inductive param : Type :=
| PNum (d : numeric)
| PTsd (d : numeric) (group : option string) (weight : option Q).

Definition pdata (p : param) : numeric := match p with PNum d => d | PTsd d _ _ => d end.

(** core.py 52-53: group and weight exclude each other. *)
Definition mk_tsd (d : numeric) (group : option string) (weight : option Q) : res param :=
  match group, weight with
  | Some _, Some _ => Err PyException
  | _, _ => Ok (PTsd d group weight)
  end.

(** core.py 160-182 [make_scalar_if_possible]: data[0] of an empty array raises IndexError. *)
Definition make_scalar (a : numeric) : res numeric :=
  match a with
  | NS q => Ok (NS q)
  | NV [] => Err IndexError
  | NV (q :: r) => if forallb (fun y => Qeq_bool y q) r then Ok (NS q) else Ok (NV (q :: r))
  end.

(** core.py 125-134 [active_data] of a series without aggregated data. Indices are natural numbers
    (negative Python indices are not modelled). *)
Definition active_of (idx : option (list nat)) (d : numeric) : res numeric :=
  match d, idx with
  | NV l, Some ix => r <- take_idx l ix ;; Ok (NV r)
  | _, _ => Ok d
  end.

(** [x or default] for numbers: zero is falsy. *)
Definition truthy (q : Q) : bool := negb (Qeq_bool q 0).
Definition or_num (o : option Q) (d : Q) : Q :=
  match o with Some q => if truthy q then q else d | None => d end.

(** effects.py 184-191: values per effect. Keys are effects (by identity, a nat) or None (the standard effect). *)
Inductive evalues : Type :=
| EVNone
| EVOne (p : param)
| EVDict (l : list (option nat * param)).

(** effects.py 230-256 [as_effect_dict] (None counts as the empty dict: elements.py 228). *)
Definition as_effect_dict (v : evalues) : list (option nat * param) :=
  match v with EVNone => [] | EVOne p => [(None, p)] | EVDict l => l end.

(** effects.py 209-227 [effect_values_to_time_series]: the None entry moves to the end. *)
Definition is_none {A} (o : option A) : bool := match o with None => true | Some _ => false end.
Definition effect_dict_ts (v : evalues) : list (option nat * param) :=
  let l := as_effect_dict v in
  filter (fun kv => negb (is_none (fst kv))) l ++ filter (fun kv => is_none (fst kv)) l.

(** [values or {}] in the constructors (interface.py 72-76, 142-143): zero becomes {}, an array of several numbers
    has no truth value. *)
Definition or_empty (v : evalues) : res evalues :=
  match v with
  | EVOne (PNum (NS q)) => Ok (if truthy q then v else EVNone)
  | EVOne (PNum (NV [])) => Ok EVNone
  | EVOne (PNum (NV [q])) => Ok (if truthy q then v else EVNone)
  | EVOne (PNum (NV _)) => Err ValueError
  | _ => Ok v
  end.

(** interface.py 19-79 [InvestParameters]. *)
Record invest : Type := mkInvest {
  iv_fixed : option Q;
  iv_min : Q;
  iv_max : option Q;
  iv_optional : bool;
  iv_fix : evalues;
  iv_spec : evalues;
  iv_seg : option (list (Q * Q) * list (nat * list (Q * Q)));
  iv_divest : evalues
}.

(** interface.py 72-79: the constructor. *)
Definition mk_invest (fixed : option Q) (mn : Q) (mx : option Q) (optional : bool) (fix_ spec : evalues)
           (seg : option (list (Q * Q) * list (nat * list (Q * Q)))) (divest : evalues) : res invest :=
  f <- or_empty fix_ ;; d <- or_empty divest ;; s <- or_empty spec ;;
  Ok (mkInvest fixed mn mx optional f s seg d).

(** interface.py 97-151 [OnOffParameters]. *)
Record onoff : Type := mkOnOff {
  oo_switch_eff : evalues;
  oo_run_eff : evalues;
  oo_on_min : option Q;
  oo_on_max : option Q;
  oo_con_min : option param;
  oo_con_max : option param;
  oo_coff_min : option param;
  oo_coff_max : option param;
  oo_sw_max : option Q;
  oo_force : bool
}.
Definition mk_onoff (sw run : evalues) (omin omax : option Q) (cmin cmax fmin fmax : option param)
           (swmax : option Q) (force : bool) : res onoff :=
  s <- or_empty sw ;; r <- or_empty run ;;
  Ok (mkOnOff s r omin omax cmin cmax fmin fmax swmax force).

(** [OnOffParameters()] as created for flows by elements.py 463-471 and components.py 331-334. *)
Definition default_onoff : onoff := mkOnOff EVNone EVNone None None None None None None None false.

Definition is_some {A} (o : option A) : bool := match o with Some _ => true | None => false end.

(** interface.py 174-203. [effects_per_switch_on] is never None (constructor), so [use_switch_on] is always true. *)
Definition use_con (p : onoff) : bool := (is_some (oo_con_min p) || is_some (oo_con_max p))%bool.
Definition use_coff (p : onoff) : bool := (is_some (oo_coff_min p) || is_some (oo_coff_max p))%bool.
Definition use_off (p : onoff) : bool := use_coff p.
Definition use_switch_on (p : onoff) : bool :=
  (true || is_some (oo_sw_max p) || is_some (oo_on_min p) || is_some (oo_on_max p) || oo_force p)%bool.

(** effects.py 21-110 [Effect]. *)
Record effect : Type := mkEffect {
  e_id : nat;
  e_label : string;
  e_std : bool;
  e_obj : bool;
  e_share_op : list (nat * param);
  e_share_inv : list (nat * numeric);
  e_min_op : option Q; e_max_op : option Q;
  e_min_inv : option Q; e_max_inv : option Q;
  e_min_ph : option param; e_max_ph : option param;
  e_min_tot : option Q; e_max_tot : option Q
}.

(** elements.py 92-116 [Bus]. *)
Record bus : Type := mkBus { b_id : nat; b_lab : string; b_penalty : option param }.

(** elements.py 158-238 [Flow]: size is a number, None or InvestParameters. *)
Inductive fsize : Type := SzNum (q : option Q) | SzInv (i : invest).

Record flow : Type := mkFlow {
  f_id : nat;
  f_lab : string;
  f_bus : bus;
  f_size : fsize;
  f_profile : option param;
  f_relmin : param;
  f_relmax : param;
  f_effects : evalues;
  f_onoff : option onoff;
  f_fh_max : option Q;
  f_fh_min : option Q;
  f_lf_min : option Q;
  f_lf_max : option Q;
  f_prev : option numeric
}.

(** elements.py 259-262 [Flow._plausibility_checks]: comparing TimeSeriesData raises TypeError. *)
Definition flow_check (relmin relmax : param) : res unit :=
  match relmin, relmax with
  | PNum a, PNum b =>
      gt <- nany_gt a b ;; if gt then Err PyException else Ok tt
  | _, _ => Err TypeError
  end.
Definition mk_flow (f : flow) : res flow := _ <- flow_check (f_relmin f) (f_relmax f) ;; Ok f.

(** components.py 142-150: initial_charge_state is None, a number, 'lastValueOfSim' or something else. *)
Inductive initcharge : Type := ICNone | ICNum (q : Q) | ICLast | ICBad.
Inductive csize : Type := CapNum (q : Q) | CapInv (i : invest).

Record storage : Type := mkStorage {
  st_cap : csize;
  st_relmin : param;
  st_relmax : param;
  st_init : initcharge;
  st_fmin : option Q;
  st_fmax : option Q;
  st_eta_c : param;
  st_eta_d : param;
  st_loss : param
}.

(** elements.py 29-65 [Component] and its subclasses in components.py. Flows appear in the lists by value; identity is
    [f_id]. *)
Inductive ckindc : Type :=
| Plain
| Converter (factors : list (list (nat * param)))
| Segmented (segs : list (nat * list (param * param)))
| StorageC (s : storage)
| TransmissionC (rel abs : option param).

Record component : Type := mkComponent {
  cp_label : string;
  cp_in : list flow;
  cp_out : list flow;
  cp_onoff : option onoff;
  cp_prevent : list nat;
  cp_kind : ckindc
}.
Definition cp_flows (c : component) : list flow := cp_in c ++ cp_out c.
