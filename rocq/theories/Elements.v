(** Model of flixOpt/elements.py (flows, buses, components), components.py (converter, storage, transmission) and
    effects.py (effect models). *)
From Verif Require Import Base MathModel Structure Params Features.

(** ** Flows *)

(** elements.py 220: [size or BIG]. *)
Definition flow_size (cx : ctx) (q : option Q) : Q := or_num q (cx_big cx).

(** elements.py 408-414 [relative_flow_rate_bounds]. *)
Definition flow_rel_bounds (cx : ctx) (tr : bool) (f : flow) : res (numeric * numeric) :=
  match f_profile f with
  | None => a <- act cx tr (f_relmin f) ;; b <- act cx tr (f_relmax f) ;; Ok (a, b)
  | Some p => a <- act cx tr p ;; Ok (a, a)
  end.

(** elements.py 396-405 [absolute_flow_rate_bounds]. *)
Definition size_limits (cx : ctx) (s : fsize) : Q * Q :=
  match s with
  | SzNum q => (flow_size cx q, flow_size cx q)
  | SzInv iv => match iv_fixed iv with
                | Some q => (q, q)
                | None => (iv_minimum iv, iv_maximum cx iv)
                end
  end.
Definition flow_abs_bounds (cx : ctx) (tr : bool) (f : flow) : res (numeric * numeric) :=
  ' (a, b) <- flow_rel_bounds cx tr f ;;
  let (lo, hi) := size_limits cx (f_size f) in
  l <- nmul a (NS lo) ;; u <- nmul b (NS hi) ;; Ok (l, u).

Record flow_out : Type := mkFlowOut {
  fo_id : nat;
  fo_tree : emodel;
  fo_rate : variable;
  fo_on : option variable;
  fo_size : option variable;
  fo_bounds : numeric * numeric;
  fo_shares : list share
}.

(** elements.py 274-277 [Flow.label_full]. *)
Definition flow_full (comp flow : string) : string := cat [comp; "__"; flow].

(** elements.py 367-389 [_create_bounds_for_load_factor]. *)
Definition load_factor_cons (cx : ctx) (full : string) (f : flow) (sfh : variable) (size : option variable)
  : res (list constraint) :=
  let sz := match f_size f with SzNum q => flow_size cx q | SzInv _ => 0 end in
  c1 <- match f_lf_max f with
        | None => Ok []
        | Some lf =>
            c <- create_equation full "load_factor_max" KIneq
                   [AddS sfh (NS 1) None false;
                    match size with
                    | Some s => AddS s (NS (- (cx_total cx * lf))) None false
                    | None => AddC (NS (sz * (cx_total cx * lf)))
                    end] ;;
            Ok [c]
        end ;;
  c2 <- match f_lf_min f with
        | None => Ok []
        | Some lf =>
            c <- create_equation full "load_factor_min" KIneq
                   [AddS sfh (NS (-1)) None false;
                    match size with
                    | Some s => AddS s (NS (cx_total cx * lf)) None false
                    | None => AddC (NS (- (sz * (cx_total cx * lf))))
                    end] ;;
            Ok [c]
        end ;;
  Ok (c1 ++ c2).

(** elements.py 304-365 [FlowModel.do_modeling], [_create_shares]. *)
Definition flow_model (cx : ctx) (tr : bool) (comp : string) (f : flow) : res flow_out :=
  let full := flow_full comp (f_lab f) in
  rel <- flow_rel_bounds cx tr f ;;
  ab <- flow_abs_bounds cx tr f ;;
  rate <- create_variable full "flow_rate" (cx_n cx) false None
            (Some (match f_onoff f with None => fst ab | Some _ => NS 0 end))
            (match f_onoff f with None => Some (snd ab) | Some _ => None end)
            (f_prev f) ;;
  oo <- optM (fun p => onoff_model cx tr full p [rate] [ab]) (f_onoff f) ;;
  io <- match f_size f with
        | SzNum _ => Ok None
        | SzInv iv =>
            pr <- optM (act cx tr) (f_profile f) ;;
            i <- invest_model cx tr full iv rate (fst rel) (snd rel) pr (option_map ot_on oo) ;;
            Ok (Some i)
        end ;;
  sfh <- create_variable full "sumFlowHours" 1 false None (opt_num (f_fh_min f)) (opt_num (f_fh_max f)) None ;;
  csum <- create_equation full "sumFlowHours" KEq
            [AddS rate (NV (cx_dt cx)) None true; AddS sfh (NS (-1)) None false] ;;
  clf <- load_factor_cons cx full f sfh (option_map io_size io) ;;
  s <- emit_op cx tr full "effects_per_flow_hour" (f_effects f) (NV (cx_dt cx)) rate ;;
  m <- mk_em full (f_lab f) [rate; sfh] (csum :: clf)
         (match oo with Some o => [ot_tree o] | None => [] end ++ match io with Some i => [io_tree i] | None => [] end) ;;
  Ok (mkFlowOut (f_id f) m rate (option_map ot_on oo) (option_map io_size io) ab
        (match oo with Some o => ot_shares o | None => [] end ++
         match io with Some i => io_shares i | None => [] end ++ s)).

(** ** Components *)

(** Default parameters written into flows while modelling. *)
Definition with_default_onoff (f : flow) : flow :=
  match f_onoff f with
  | Some _ => f
  | None => mkFlow (f_id f) (f_lab f) (f_bus f) (f_size f) (f_profile f) (f_relmin f) (f_relmax f) (f_effects f)
              (Some default_onoff) (f_fh_max f) (f_fh_min f) (f_lf_min f) (f_lf_max f) (f_prev f)
  end.
Definition set_size (s : fsize) (f : flow) : flow :=
  mkFlow (f_id f) (f_lab f) (f_bus f) s (f_profile f) (f_relmin f) (f_relmax f) (f_effects f)
    (f_onoff f) (f_fh_max f) (f_fh_min f) (f_lf_min f) (f_lf_max f) (f_prev f).
Definition set_flows (c : component) (i o : list flow) : component :=
  mkComponent (cp_label c) i o (cp_onoff c) (cp_prevent c) (cp_kind c).
Definition map_flows (g : flow -> flow) (c : component) : component := set_flows c (map g (cp_in c)) (map g (cp_out c)).

(** elements.py 463-471: on/off defaults induced by the component or by mutual exclusion. *)
Definition mem_nat (i : nat) (l : list nat) : bool := existsb (Nat.eqb i) l.
Definition prepare_component (c : component) : component :=
  let c1 := match cp_onoff c with Some _ => map_flows with_default_onoff c | None => c end in
  map_flows (fun f => if mem_nat (f_id f) (cp_prevent c) then with_default_onoff f else f) c1.

Definition nany_nonzero (a : numeric) : bool := existsb (fun q => negb (Qeq_bool q 0)) (nlist a).

(** interface.py 22-32: defaults of InvestParameters (optional, minimum 0). *)
Definition invest_of_max (m : Q) : invest := mkInvest None 0 (Some m) true EVNone EVNone None EVNone.

(** components.py 330-341: a Transmission adds on/off defaults if there are absolute losses, and gives its second input
    an investment if the first one has one. *)
Definition prepare_transmission (cx : ctx) (tr : bool) (abs : option param) (c : component) : res component :=
  c1 <- match abs with
        | None => Ok c
        | Some p => a <- act cx tr p ;; Ok (if nany_nonzero a then map_flows with_default_onoff c else c)
        end ;;
  match cp_in c1 with
  | in1 :: in2 :: r =>
      match f_size in1, f_size in2 with
      | SzInv iv, SzNum _ =>
          Ok (set_flows c1 (in1 :: set_size (SzInv (invest_of_max (iv_maximum cx iv))) in2 :: r) (cp_out c1))
      | _, _ => Ok c1
      end
  | _ => Ok c1
  end.

Record comp_out : Type := mkCompOut { co_tree : emodel; co_flows : list flow_out; co_shares : list share }.

Definition find_fo (l : list flow_out) (i : nat) : res flow_out :=
  of_option AttributeError (find (fun o => Nat.eqb (fo_id o) i) l).

(** What ComponentModel.do_modeling (elements.py 473-489) creates. *)
Record base_out : Type := mkBase {
  bo_flows : list flow_out;
  bo_on : option variable;
  bo_subs : list emodel;
  bo_shares : list share
}.
Definition base_model (cx : ctx) (trf : string -> bool) (trc : bool) (c : component) : res base_out :=
  fos <- mapM (fun f => flow_model cx (trf (flow_full (cp_label c) (f_lab f))) (cp_label c) f) (cp_flows c) ;;
  oo <- optM (fun p => onoff_model cx trc (cp_label c) p (map fo_rate fos) (map fo_bounds fos)) (cp_onoff c) ;;
  pm <- match cp_prevent c with
        | [] => Ok []
        | _ =>
            ons <- mapM (fun i => o <- find_fo fos i ;; of_option AttributeError (fo_on o)) (cp_prevent c) ;;
            m <- prevent_model (cp_label c) ons ;; Ok [m]
        end ;;
  Ok (mkBase fos (option_map ot_on oo)
        (map fo_tree fos ++ match oo with Some o => [ot_tree o] | None => [] end ++ pm)
        (flat_map fo_shares fos ++ match oo with Some o => ot_shares o | None => [] end)).

(** Keys of a dict literal keyed by flow. *)
Definition lookup_nat {A} (l : list (nat * A)) (i : nat) : option A :=
  option_map snd (find (fun p => Nat.eqb (fst p) i) l).

(** components.py 381-405: one equation per dict of factors; the order in which Python iterates the two sets of used
    flows comes from the oracle [cx_ord]. *)
Definition conv_calls (cx : ctx) (tr : bool) (fos : list flow_out) (factors : list (nat * param)) (sign : bool)
           (ids : list nat) : res (list call) :=
  mapM (fun i =>
          p <- of_option KeyError (lookup_nat factors i) ;;
          a <- act cx tr p ;;
          o <- find_fo fos i ;;
          Ok (AddS (fo_rate o) (if sign then a else nmap Qopp a) None false)) ids.
Definition used_ids (cx : ctx) (flows : list flow) (factors : list (nat * param)) : list nat :=
  cx_ord cx (filter (fun i => mem_nat i (map fst factors)) (nodup Nat.eq_dec (map f_id flows))).
Definition conversion_eq (cx : ctx) (tr : bool) (c : component) (fos : list flow_out) (i : nat)
           (factors : list (nat * param)) : res constraint :=
  ins <- conv_calls cx tr fos factors true (used_ids cx (cp_in c) factors) ;;
  outs <- conv_calls cx tr fos factors false (used_ids cx (cp_out c) factors) ;;
  create_equation (cp_label c) (cat ["conversion_"; nat_str i]) KEq (ins ++ outs ++ [AddC (NS 0)]).
Definition converter_cons (cx : ctx) (tr : bool) (c : component) (fos : list flow_out)
           (factors : list (list (nat * param))) : res (list constraint) :=
  _ <- guard (match factors with [] => false | _ => true end) KeyError ;;
  mapM (fun p : nat * list (nat * param) => conversion_eq cx tr c fos (fst p) (snd p))
       (combine (seq 0 (length factors)) factors).

(** components.py 408-420: segmented conversion. *)
Definition segmented_model (cx : ctx) (tr : bool) (c : component) (fos : list flow_out) (on : option variable)
           (segs : list (nat * list (param * param))) : res emodel :=
  pts <- mapM (fun o =>
                 s <- of_option KeyError (lookup_nat segs (fo_id o)) ;;
                 ps <- mapM (fun p : param * param => a <- act cx tr (fst p) ;; b <- act cx tr (snd p) ;; Ok (a, b)) s ;;
                 Ok (fo_rate o, ps)) fos ;;
  multi_segments (cp_label c) (cx_n cx) pts on.

(** components.py 352-369 [TransmissionModel]: equations after the flows are modelled. [in2] without [out2] fails
    (None has no model); [on] missing while absolute losses are given fails (None.on). *)
Definition transmission_eq (cx : ctx) (tr : bool) (full name : string) (rel abs : option param)
           (fi fo : flow_out) : res constraint :=
  e <- match rel with None => Ok (NS 1) | Some p => a <- act cx tr p ;; Ok (nmap (fun q => 1 - q) a) end ;;
  l <- match abs with
       | None => Ok []
       | Some p => o <- of_option AttributeError (fo_on fi) ;; a <- act cx tr p ;;
                   Ok [AddS o (nmap Qopp a) None false]
       end ;;
  create_equation full name KEq ([AddS (fo_rate fi) e None false; AddS (fo_rate fo) (NS (-1)) None false] ++ l).
Definition transmission_cons (cx : ctx) (tr : bool) (c : component) (fos : list flow_out)
           (rel abs : option param) : res (list constraint) :=
  let ins := firstn (length (cp_in c)) fos in
  let outs := skipn (length (cp_in c)) fos in
  in1 <- of_option AttributeError (nth_error ins 0) ;;
  out1 <- of_option AttributeError (nth_error outs 0) ;;
  c1 <- transmission_eq cx tr (cp_label c) "direction_1" rel abs in1 out1 ;;
  match nth_error ins 1 with
  | None => Ok [c1]
  | Some in2 =>
      out2 <- of_option AttributeError (nth_error outs 1) ;;
      c2 <- transmission_eq cx tr (cp_label c) "direction_2" rel abs in2 out2 ;;
      match fo_size in1 with
      | None => Ok [c1; c2]
      | Some s1 =>
          s2 <- of_option AttributeError (fo_size in2) ;;
          c3 <- create_equation (cp_label c) "equal_size_in_both_directions" KEq
                  [AddS s1 (NS 1) None false; AddS s2 (NS (-1)) None false] ;;
          Ok [c1; c2; c3]
      end
  end.

(** ** Storage *)

(** components.py 518-530 [absolute_charge_state_bounds]: here the investment's minimum and maximum are used even for a
    fixed size. *)
Definition cap_limits (cx : ctx) (s : csize) : Q * Q :=
  match s with CapNum q => (q, q) | CapInv iv => (iv_minimum iv, iv_maximum cx iv) end.

(** components.py 487-516 [_model_initial_and_final_charge_state]; not called when initial_charge_state is None. *)
Definition storage_ends (cx : ctx) (full : string) (s : storage) (cs : variable) : res (list constraint) :=
  match st_init s with
  | ICNone => Ok []
  | _ =>
      c0 <- match st_init s with
            | ICNum q => create_equation full "initial_charge_state" KEq
                           [AddC (NS q); AddS cs (NS 1) (Some [0%nat]) false]
            | ICLast => create_equation full "initial_charge_state" KEq
                          [AddS cs (NS 1) (Some [0%nat]) false;
                           AddS cs (NS (-1)) (Some [(cx_n cx - 1)%nat]) false]
            | _ => Err PyException
            end ;;
      cmax <- match st_fmax s with
              | None => Ok []
              | Some q => c <- create_equation full "eq_final_charge_state_max" KIneq
                                 [AddS cs (NS 1) (Some [cx_n cx]) false; AddC (NS q)] ;; Ok [c]
              end ;;
      cmin <- match st_fmin s with
              | None => Ok []
              | Some q => c <- create_equation full "eq_charge_state_end_min" KIneq
                                 [AddS cs (NS (-1)) (Some [cx_n cx]) false; AddC (NS (- q))] ;; Ok [c]
              end ;;
      Ok (c0 :: cmax ++ cmin)
  end.

Record sto_out : Type := mkSto {
  so_vars : list variable;
  so_cons : list constraint;
  so_subs : list emodel;
  so_shares : list share
}.

(** components.py 434-485 [StorageModel.do_modeling] after the flows. *)
Definition storage_model (cx : ctx) (tr : bool) (full : string) (s : storage) (ch dis : flow_out) : res sto_out :=
  let n := cx_n cx in
  rl <- act cx tr (st_relmin s) ;;
  ru <- act cx tr (st_relmax s) ;;
  let (lo, hi) := cap_limits cx (st_cap s) in
  lb <- nmul rl (NS lo) ;;
  ub <- nmul ru (NS hi) ;;
  cs <- create_variable full "charge_state" (n + 1) false None (Some lb) (Some ub) None ;;
  nd <- create_variable full "netto_discharge" n false None None None None ;;
  ceq <- create_equation full "netto_discharge" KEq
           [AddS nd (NS 1) None false; AddS (fo_rate ch) (NS 1) None false; AddS (fo_rate dis) (NS (-1)) None false] ;;
  loss <- act cx tr (st_loss s) ;;
  ec <- act cx tr (st_eta_c s) ;;
  ed <- act cx tr (st_eta_d s) ;;
  f1 <- nmul loss (NV (cx_dt cx)) ;;
  f2 <- nmul (nmap Qopp ec) (NV (cx_dt cx)) ;;
  inv <- ndiv (NS 1) ed ;;
  f3 <- nmul inv (NV (cx_dt cx)) ;;
  bal <- create_equation full "charge_state" KEq
           [AddS cs (NS 1) (Some (seq 1 n)) false;
            AddS cs (nmap (fun q => q - 1) f1) (Some (seq 0 n)) false;
            AddS (fo_rate ch) f2 None false;
            AddS (fo_rate dis) f3 None false] ;;
  io <- match st_cap s with
        | CapNum _ => Ok None
        | CapInv iv => i <- invest_model cx tr full iv cs rl ru None None ;; Ok (Some i)
        end ;;
  ends <- storage_ends cx full s cs ;;
  Ok (mkSto [cs; nd] ([ceq; bal] ++ ends) (match io with Some i => [io_tree i] | None => [] end)
        (match io with Some i => io_shares i | None => [] end)).

(** One component: defaults, flows and component on/off (elements.py 460-489), then its own equations. *)
Definition prepared (cx : ctx) (tr : bool) (c : component) : res component :=
  match cp_kind c with
  | TransmissionC _ abs => c1 <- prepare_transmission cx tr abs c ;; Ok (prepare_component c1)
  | _ => Ok (prepare_component c)
  end.

Definition comp_model (cx : ctx) (trf : string -> bool) (trc : string -> bool) (c0 : component) : res comp_out :=
  let tr := trc (cp_label c0) in
  c <- prepared cx tr c0 ;;
  b <- base_model cx trf tr c ;;
  o <- match cp_kind c with
       | Plain => Ok (mkSto [] [] [] [])
       | Converter fs => k <- converter_cons cx tr c (bo_flows b) fs ;; Ok (mkSto [] k [] [])
       | Segmented segs => m <- segmented_model cx tr c (bo_flows b) (bo_on b) segs ;; Ok (mkSto [] [] [m] [])
       | StorageC s =>
           ch <- of_option AttributeError (nth_error (bo_flows b) 0) ;;
           dis <- of_option AttributeError (nth_error (bo_flows b) (length (cp_in c))) ;;
           storage_model cx tr (cp_label c) s ch dis
       | TransmissionC rel abs => k <- transmission_cons cx tr c (bo_flows b) rel abs ;; Ok (mkSto [] k [] [])
       end ;;
  m <- mk_em (cp_label c) (cp_label c) (so_vars o) (so_cons o) (bo_subs b ++ so_subs o) ;;
  Ok (mkCompOut m (bo_flows b) (bo_shares b ++ so_shares o)).

(** ** Buses *)

(** elements.py 424-451 [BusModel.do_modeling]; [ins] and [outs] are the flow rates registered at the bus. *)
Definition bus_model (cx : ctx) (b : bus) (ins outs : list variable) : res (emodel * list share) :=
  let full := b_lab b in
  let flows := map (fun v => AddS v (NS 1) None false) ins ++ map (fun v => AddS v (NS (-1)) None false) outs in
  match b_penalty b with
  | None =>
      c <- create_equation full "busBalance" KEq flows ;;
      m <- mk_em full (b_lab b) [] [c] [] ;; Ok (m, [])
  | Some p =>
      a <- act cx true p ;;
      pen <- nmul (NV (cx_dt cx)) a ;;
      ei <- create_variable full "excess_input" (cx_n cx) false None (Some (NS 0)) None None ;;
      eo <- create_variable full "excess_output" (cx_n cx) false None (Some (NS 0)) None None ;;
      c <- create_equation full "busBalance" KEq
             (flows ++ [AddS eo (NS (-1)) None false; AddS ei (NS 1) None false]) ;;
      m <- mk_em full (b_lab b) [ei; eo] [c] [] ;;
      Ok (m, [mkShare TPen (cat [b_lab b; "__excess_input"]) (Some ei) pen true;
              mkShare TPen (cat [b_lab b; "__excess_output"]) (Some eo) pen true])
  end.

(** ** Effects *)

(** Variables holding an effect's totals (created in effects.py 152-178). *)
Definition op_sum_var (e : effect) := alloc_sum (e_label e) "operation" (e_min_op e) (e_max_op e).
Definition inv_sum_var (e : effect) := alloc_sum (e_label e) "invest" (e_min_inv e) (e_max_inv e).
Definition op_ts_var (cx : ctx) (tr : bool) (e : effect) : res variable :=
  a <- optM (act cx tr) (e_min_ph e) ;; b <- optM (act cx tr) (e_max_ph e) ;;
  alloc_ts cx (e_label e) "operation" a b.

(** effects.py 392-410 [add_share_between_effects]; an unregistered target is a KeyError. *)
Definition registered (cx : ctx) (i : nat) : bool := existsb (fun e => Nat.eqb (e_id e) i) (cx_effects cx).
Definition between_op (cx : ctx) (tre : string -> bool) (e : effect) : res (list share) :=
  mapM (fun kp : nat * param =>
          _ <- guard (registered cx (fst kp)) KeyError ;;
          v <- op_ts_var cx (tre (e_label e)) e ;;
          a <- act cx (tre (e_label e)) (snd kp) ;;
          Ok (mkShare (TOp (fst kp)) (cat [e_label e; "_operation"]) (Some v) a false)) (e_share_op e).
Definition between_inv (cx : ctx) (e : effect) : res (list share) :=
  mapM (fun kp : nat * numeric =>
          _ <- guard (registered cx (fst kp)) KeyError ;;
          v <- inv_sum_var e ;;
          Ok (mkShare (TInv (fst kp)) (cat [e_label e; "_invest"]) (Some v) (snd kp) false)) (e_share_inv e).

Definition is_op (i : nat) (sh : share) : bool := match sh_target sh with TOp j => Nat.eqb j i | _ => false end.
Definition is_inv (i : nat) (sh : share) : bool := match sh_target sh with TInv j => Nat.eqb j i | _ => false end.
Definition is_pen (sh : share) : bool := match sh_target sh with TPen => true | _ => false end.

(** effects.py 152-181 [EffectModel]. *)
Definition effect_model (cx : ctx) (tre : string -> bool) (shs : list share) (e : effect) : res emodel :=
  let lab := e_label e in
  a <- optM (act cx (tre lab)) (e_min_ph e) ;;
  b <- optM (act cx (tre lab)) (e_max_ph e) ;;
  inv <- share_alloc cx lab "invest" false (e_min_inv e) (e_max_inv e) None None (filter (is_inv (e_id e)) shs) ;;
  op <- share_alloc cx lab "operation" true (e_min_op e) (e_max_op e) a b (filter (is_op (e_id e)) shs) ;;
  all <- share_alloc cx lab "all" false (e_min_tot e) (e_max_tot e) None None
           [mkShare TPen "operation" (Some (sa_sum op)) (NS 1) false;
            mkShare TPen "invest" (Some (sa_sum inv)) (NS 1) false] ;;
  mk_em lab lab [] [] [sa_tree inv; sa_tree op; sa_tree all].

(** effects.py 315-327 [EffectCollectionModel.do_modeling] with all shares known: the root model and the objective.
    Without an objective effect the dict lookup of None fails (KeyError). *)
Definition effects_model (cx : ctx) (tre : string -> bool) (shs : list share) : res (emodel * constraint) :=
  bo <- mapM (between_op cx tre) (cx_effects cx) ;;
  bi <- mapM (between_inv cx) (cx_effects cx) ;;
  let all := List.concat bo ++ List.concat bi ++ shs in
  ms <- mapM (effect_model cx tre all) (cx_effects cx) ;;
  pen <- share_alloc cx "Effects" "penalty" false None None None None (filter is_pen all) ;;
  oe <- of_option KeyError (objective_effect (cx_effects cx)) ;;
  vo <- op_sum_var oe ;;
  vi <- inv_sum_var oe ;;
  obj <- build_constraint KObj "OBJECTIVE" "OBJECTIVE"
           [AddS vo (NS 1) None false; AddS vi (NS 1) None false; AddS (sa_sum pen) (NS 1) None false] ;;
  root <- mk_em "Effects" "Effects" [] [] (ms ++ [sa_tree pen]) ;;
  Ok (root, obj).
