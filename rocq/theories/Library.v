(** Model of the constructors of components.py and linear_converters.py: how the named components are put together from
    flows. Warnings about unusual values (linear_converters.py 287-326 [check_bounds]) only write to the log and are left
    out. *)
From Verif Require Import Base MathModel Structure Params Features Elements.

Definition flow_in (l : list flow) (i : nat) : bool := existsb (fun f => Nat.eqb (f_id f) i) l.

(** components.py 24-92 [LinearConverter.__init__] with [_plausibility_checks] (66-92). *)
Definition linear_converter (label : string) (ins outs : list flow) (oo : option onoff)
           (factors : list (list (nat * param))) (segs : list (nat * list (param * param))) : res component :=
  match factors, segs with
  | [], [] => Err PyException
  | _ :: _, _ :: _ => Err PyException
  | _ :: _, [] =>
      _ <- guard (Nat.ltb (length factors) (length (ins ++ outs))) PyException ;;
      _ <- guard (forallb (fun d => forallb (fun kp : nat * param => flow_in (ins ++ outs) (fst kp)) d) factors) PyException ;;
      Ok (mkComponent label ins outs oo [] (Converter factors))
  | [], _ :: _ =>
      _ <- guard (forallb (fun f => match f_size f with SzInv i => is_some (iv_fixed i) | SzNum _ => true end) (ins ++ outs))
             PyException ;;
      Ok (mkComponent label ins outs oo [] (Segmented segs))
  end.

(** A dict literal with two keys: a repeated key keeps the last value. *)
Definition dict2 (k1 : nat) (p1 : param) (k2 : nat) (p2 : param) : list (nat * param) :=
  if Nat.eqb k1 k2 then [(k1, p2)] else [(k1, p1); (k2, p2)].
Definition one : param := PNum (NS 1).

(** linear_converters.py 18-57. *)
Definition boiler_ (label : string) (eta : param) (q_fu q_th : flow) (oo : option onoff) : res component :=
  linear_converter label [q_fu] [q_th] oo [dict2 (f_id q_fu) eta (f_id q_th) one] [].

(** linear_converters.py 60-98. *)
Definition power2heat (label : string) (eta : param) (p_el q_th : flow) (oo : option onoff) : res component :=
  linear_converter label [p_el] [q_th] oo [dict2 (f_id p_el) eta (f_id q_th) one] [].

(** linear_converters.py 101-138. *)
Definition heat_pump (label : string) (cop : param) (p_el q_th : flow) (oo : option onoff) : res component :=
  linear_converter label [p_el] [q_th] oo [dict2 (f_id p_el) cop (f_id q_th) one] [].

(** linear_converters.py 141-179. A TimeSeriesData has no unary minus (TypeError). *)
Definition cooling_tower (label : string) (spec : param) (p_el q_th : flow) (oo : option onoff) : res component :=
  match spec with
  | PTsd _ _ _ => Err TypeError
  | PNum d => linear_converter label [p_el; q_th] [] oo [dict2 (f_id p_el) one (f_id q_th) (PNum (nmap Qopp d))] []
  end.

(** linear_converters.py 182-235; the sum of the efficiencies (235) fails for two TimeSeriesData and for arrays of
    different length. *)
Definition chp_ (label : string) (eta_th eta_el : param) (q_fu p_el q_th : flow) (oo : option onoff) : res component :=
  c <- linear_converter label [q_fu] [q_th; p_el] oo
         [dict2 (f_id q_fu) eta_th (f_id q_th) one; dict2 (f_id q_fu) eta_el (f_id p_el) one] [] ;;
  match eta_el, eta_th with
  | PNum a, PNum b => _ <- nadd a b ;; Ok c
  | _, _ => Err TypeError
  end.

(** linear_converters.py 238-284. Division by COP - 1 = 0 raises for numbers; for arrays numpy would produce inf, which
    no equation can hold: an error here. *)
Definition heat_pump_with_source (label : string) (cop : param) (p_el q_ab q_th : flow) (oo : option onoff) : res component :=
  match cop with
  | PTsd _ _ _ => Err TypeError
  | PNum d =>
      r <- ndiv d (nmap (fun q => q - 1) d) ;;
      linear_converter label [p_el; q_ab] [q_th] oo
        [dict2 (f_id p_el) cop (f_id q_th) one; dict2 (f_id q_ab) (PNum r) (f_id q_th) one] []
  end.

(** components.py 136-211 [Storage.__init__]. *)
Definition storage_ (label : string) (charging discharging : flow) (s : storage) (prevent : bool) : component :=
  mkComponent label [charging] [discharging] None (if prevent then [f_id charging; f_id discharging] else []) (StorageC s).

(** components.py 239-289 [Transmission.__init__] (its [_plausibility_checks] is never called). *)
Definition opt_flow (o : option flow) : list flow := match o with Some f => [f] | None => [] end.
Definition transmission (label : string) (in1 out1 : flow) (in2 out2 : option flow) (rel abs : option param)
           (oo : option onoff) (prevent : bool) : component :=
  mkComponent label (in1 :: opt_flow in2) (out1 :: opt_flow out2) oo
    (match in2 with Some f => if prevent then [f_id in1; f_id f] else [] | None => [] end) (TransmissionC rel abs).

(** components.py 540-610 [SourceAndSink], [Source], [Sink]. *)
Definition source_and_sink (label : string) (source sink : flow) (prevent : bool) : component :=
  mkComponent label [sink] [source] None (if prevent then [f_id sink; f_id source] else []) Plain.
Definition source (label : string) (f : flow) : component := mkComponent label [] [f] None [] Plain.
Definition sink (label : string) (f : flow) : component := mkComponent label [f] [] None [] Plain.
