(** Model of flixOpt/features.py: investment, on/off, segments, shares, mutual exclusion. *)
From Verif Require Import Base MathModel Structure Params.

(** What a SystemModel knows while it is built (structure.py 35-55), the effects of the system, the configuration
    constants (config.yaml: EPSILON, BIG), and an oracle for the iteration order of Python sets of flows. *)
Record ctx : Type := mkCtx {
  cx_n : nat;
  cx_dt : list Q;
  cx_total : Q;
  cx_prev : numeric;
  cx_idx : option (list nat);
  cx_effects : list effect;
  cx_eps : Q;
  cx_big : Q;
  cx_ord : list nat -> list nat
}.

(** structure.py 502-515 [_create_time_series] followed by [.active_data]. An element that was never transformed (its
    label is hidden by another element, flow_system.py 287-288) still holds the raw value, which has no active_data. *)
Definition act (cx : ctx) (tr : bool) (p : param) : res numeric :=
  _ <- guard tr AttributeError ;;
  d <- make_scalar (pdata p) ;;
  active_of (cx_idx cx) d.

(** ** Shares *)
Inductive target : Type := TOp (e : nat) | TInv (e : nat) | TPen.
Record share : Type := mkShare {
  sh_target : target;
  sh_name : string;
  sh_var : option variable;
  sh_factor : numeric;
  sh_as_sum : bool
}.

(** effects.py 288-298. *)
Definition standard_effect (es : list effect) : option effect := find e_std es.
Definition objective_effect (es : list effect) : option effect := find e_obj es.

(** effects.py 343-346: which effect a key means. A missing standard effect fails in the assertion message
    (None.label: AttributeError). *)
Definition resolve (cx : ctx) (k : option nat) : res nat :=
  match k with
  | None => match standard_effect (cx_effects cx) with
            | Some e => Ok (e_id e)
            | None => Err AttributeError
            end
  | Some i => _ <- guard (existsb (fun e => Nat.eqb (e_id e) i) (cx_effects cx)) AssertionError ;; Ok i
  end.

(** effects.py 333-357 [_add_share_to_effects]: one share per entry. *)
Definition emit (cx : ctx) (tgt : nat -> target) (elem name : string) (vals : list (option nat * numeric))
           (factor : numeric) (v : option variable) : res (list share) :=
  mapM (fun kv : option nat * numeric =>
          e <- resolve cx (fst kv) ;;
          f <- nmul (snd kv) factor ;;
          Ok (mkShare (tgt e) (cat [elem; "__"; name]) v f false)) vals.

(** effects.py 259-260, 370-381 [add_share_to_operation]: the active data of every entry. *)
Definition op_values (cx : ctx) (tr : bool) (v : evalues) : res (list (option nat * numeric)) :=
  mapM (fun kv : option nat * param => d <- act cx tr (snd kv) ;; Ok (fst kv, d)) (effect_dict_ts v).
Definition emit_op (cx : ctx) (tr : bool) (elem name : string) (v : evalues) (factor : numeric)
           (var : variable) : res (list share) :=
  vs <- op_values cx tr v ;; emit cx TOp elem name vs factor (Some var).

(** interface.py 81-86 and effects.py 359-368 [add_share_to_invest]: raw values; TimeSeriesData cannot be multiplied.
    Without transformation a number is not yet a dict and has no items(). *)
Definition inv_values (tr : bool) (v : evalues) : res (list (option nat * numeric)) :=
  _ <- guard (tr || match v with EVOne _ => false | _ => true end)%bool AttributeError ;;
  mapM (fun kv : option nat * param =>
          match snd kv with PNum d => Ok (fst kv, d) | PTsd _ _ _ => Err TypeError end) (as_effect_dict v).
Definition emit_inv (cx : ctx) (tr : bool) (elem name : string) (v : evalues) (factor : Q)
           (var : option variable) : res (list share) :=
  vs <- inv_values tr v ;; emit cx TInv elem name vs (NS factor) var.

(** ** Segments *)

(** features.py 630-658 [SegmentModel]. *)
Record seg_out : Type := mkSeg { sg_tree : emodel; sg_in : variable; sg_l0 : variable; sg_l1 : variable }.
Definition segment_model (elem : string) (len i : nat) : res seg_out :=
  let label := cat ["Segment_"; nat_str i] in
  let full := model_full elem (Some label) in
  s <- create_variable full "inSegment" len true None None None None ;;
  l0 <- create_variable full "lambda0" len false None (Some (NS 0)) (Some (NS 1)) None ;;
  l1 <- create_variable full "lambda1" len false None (Some (NS 0)) (Some (NS 1)) None ;;
  c <- create_equation full "inSegment" KEq
         [AddS s (NS (-1)) None false; AddS l0 (NS 1) None false; AddS l1 (NS 1) None false] ;;
  m <- mk_em full label [s; l0; l1] [c] [] ;;
  Ok (mkSeg m s l0 l1).

(** features.py 686-729 [MultipleSegmentsModel.do_modeling]. The number of segments is taken from the first variable;
    longer lists of other variables are cut, shorter ones raise IndexError (687-689). [outside]: the variable that
    allows to be in no segment (the form [can_be_outside_segments=True] is not used by the library). *)
Definition multi_segments (elem : string) (len : nat) (pts : list (variable * list (numeric * numeric)))
           (outside : option variable) : res emodel :=
  let full := model_full elem (Some "MultipleSegments") in
  nseg <- match pts with [] => Err PyException | (_, s) :: _ => Ok (length s) end ;;
  segs <- mapM (segment_model elem len) (seq 0 nseg) ;;
  eqs <- mapM (fun vp : variable * list (numeric * numeric) =>
                 let (v, ps) := vp in
                 used <- mapM (fun i => of_option IndexError (nth_error ps i)) (seq 0 nseg) ;;
                 create_equation full (cat ["lambda_"; v_label v]) KEq
                   (AddS v (NS (-1)) None false ::
                    flat_map (fun sp : seg_out * (numeric * numeric) =>
                                [AddS (sg_l0 (fst sp)) (fst (snd sp)) None false;
                                 AddS (sg_l1 (fst sp)) (snd (snd sp)) None false])
                             (combine segs used))) pts ;;
  single <- create_equation full "in_single_Segment" KEq
              (map (fun s => AddS (sg_in s) (NS 1) None false) segs ++
               [match outside with Some v => AddS v (NS (-1)) None false | None => AddC (NS 1) end]) ;;
  mk_em full "MultipleSegments" [] (eqs ++ [single]) (map sg_tree segs).

(** features.py 849-909 [SegmentedSharesModel] for the size of an investment (a variable of length 1). Effects are
    dict keys; an effect that is not registered fails when its share is added. *)
Definition effect_label (cx : ctx) (i : nat) : res string :=
  of_option AssertionError (option_map e_label (find (fun e => Nat.eqb (e_id e) i) (cx_effects cx))).
Definition qpair (p : Q * Q) : numeric * numeric := (NS (fst p), NS (snd p)).
Definition segmented_shares (cx : ctx) (elem : string) (size : variable) (spts : list (Q * Q))
           (eff : list (nat * list (Q * Q))) (outside : option variable) : res (emodel * list share) :=
  let full := model_full elem (Some "SegmentedShares") in
  _ <- match eff with
       | [] => Err IndexError
       | (_, l) :: _ => assert_ (Nat.eqb (length spts) (length l))
       end ;;
  vs <- mapM (fun el : nat * list (Q * Q) =>
                lab <- effect_label cx (fst el) ;;
                v <- create_variable full (cat [lab; "_segmented"]) 1 false None None None None ;;
                Ok (fst el, v, map qpair (snd el))) eff ;;
  ms <- multi_segments elem 1
          (map (fun t => (snd (fst t), snd t)) vs ++ [(size, map qpair spts)]) outside ;;
  shs <- mapM (fun t => emit cx TInv elem "segmented_effects" [(Some (fst (fst t)), NS 1)] (NS 1)
                          (Some (snd (fst t)))) vs ;;
  m <- mk_em full "SegmentedShares" (map (fun t => snd (fst t)) vs) [] [ms] ;;
  Ok (m, List.concat shs).

(** ** Investment *)

(** interface.py 88-94 (the constructor's [maximum_size or BIG] included). *)
Definition iv_maximum (cx : ctx) (iv : invest) : Q := or_num (iv_fixed iv) (or_num (iv_max iv) (cx_big cx)).
Definition iv_minimum (iv : invest) : Q := or_num (iv_fixed iv) (iv_min iv).
(** Truth value of fixed_size. *)
Definition iv_is_fixed (iv : invest) : bool := match iv_fixed iv with Some q => truthy q | None => false end.

Record inv_out : Type := mkInvOut {
  io_tree : emodel;
  io_size : variable;
  io_invested : option variable;
  io_shares : list share
}.

(** features.py 63-69. *)
Definition invest_size (cx : ctx) (full : string) (iv : invest) : res variable :=
  if (iv_is_fixed iv && negb (iv_optional iv))%bool
  then create_variable full "size" 1 false (Some (NS (or_num (iv_fixed iv) 0))) None None None
  else create_variable full "size" 1 false None
         (Some (NS (if iv_optional iv then 0 else iv_minimum iv))) (Some (NS (iv_maximum cx iv))) None.

(** features.py 71-73, 119-136 [_create_bounds_for_optional_investment]. *)
Definition invest_optional (cx : ctx) (full : string) (iv : invest) (size : variable)
  : res (option variable * list constraint) :=
  if iv_optional iv then
    b <- create_variable full "isInvested" 1 true None None None None ;;
    if iv_is_fixed iv then
      c <- create_equation full "is_invested" KEq
             [AddS size (NS (-1)) None false; AddS b (NS (or_num (iv_fixed iv) 0)) None false] ;;
      Ok (Some b, [c])
    else
      c1 <- create_equation full "is_invested_ub" KIneq
              [AddS size (NS 1) None false; AddS b (NS (- iv_maximum cx iv)) None false] ;;
      c2 <- create_equation full "is_invested_lb" KIneq
              [AddS size (NS (-1)) None false; AddS b (NS (Qmax_ (cx_eps cx) (iv_minimum iv))) None false] ;;
      Ok (Some b, [c1; c2])
  else Ok (None, []).

(** features.py 138-170 [_create_bounds_for_defining_variable]. *)
Definition invest_bounds (cx : ctx) (full : string) (iv : invest) (size dv : variable) (relmin relmax : numeric)
           (profile : option numeric) (on : option variable) : res (list constraint) :=
  match profile with
  | Some p =>
      c <- create_equation full (cat ["fixed_"; v_label dv]) KEq
             [AddS dv (NS 1) None false; AddS size (nmap Qopp p) None false] ;;
      Ok [c]
  | None =>
      c1 <- create_equation full (cat ["ub_"; v_label dv]) KIneq
              [AddS dv (NS 1) None false; AddS size (nmap Qopp relmax) None false] ;;
      c2 <- match on with
            | None =>
                create_equation full (cat ["lb_"; v_label dv]) KIneq
                  [AddS dv (NS (-1)) None false; AddS size relmin None false]
            | Some o =>
                mega <- nmul relmax (NS (iv_maximum cx iv)) ;;
                create_equation full (cat ["lb_"; v_label dv]) KIneq
                  [AddS dv (NS (-1)) None false; AddS o mega None false; AddS size relmin None false; AddC mega]
            end ;;
      Ok [c1; c2]
  end.

(** features.py 80-117 [_create_shares]. *)
Definition invest_shares (cx : ctx) (tr : bool) (elem : string) (iv : invest) (size : variable)
           (invested : option variable) : res (list share * list emodel) :=
  s1 <- emit_inv cx tr elem "fix_effects" (iv_fix iv) 1 invested ;;
  s2 <- (if iv_optional iv then
           a <- emit_inv cx tr elem "divest_effects" (iv_divest iv) 1 None ;;
           b <- emit_inv cx tr elem "divest_cancellation_effects" (iv_divest iv) (-1) invested ;;
           Ok (a ++ b)
         else Ok []) ;;
  s3 <- emit_inv cx tr elem "specific_effects" (iv_spec iv) 1 (Some size) ;;
  match iv_seg iv with
  | Some (spts, eff) =>
      ' (m, s4) <- segmented_shares cx elem size spts eff invested ;;
      Ok (s1 ++ s2 ++ s3 ++ s4, [m])
  | None => Ok (s1 ++ s2 ++ s3, [])
  end.

(** features.py 61-78 [InvestmentModel.do_modeling]. [elem] is the full label of the element, [dv] the variable the
    size limits. *)
Definition invest_model (cx : ctx) (tr : bool) (elem : string) (iv : invest) (dv : variable)
           (relmin relmax : numeric) (profile : option numeric) (on : option variable) : res inv_out :=
  let full := model_full elem (Some "Investment") in
  size <- invest_size cx full iv ;;
  ' (inv, cs1) <- invest_optional cx full iv size ;;
  cs2 <- invest_bounds cx full iv size dv relmin relmax profile on ;;
  ' (shs, subs) <- invest_shares cx tr elem iv size inv ;;
  m <- mk_em full "Investment" (size :: match inv with Some b => [b] | None => [] end) (cs1 ++ cs2) subs ;;
  Ok (mkInvOut m size inv shs).

(** ** On/off *)

Definition isclose0 (eps q : Q) : bool := Qle_bool (Qabs q) eps.
Definition b2q (b : bool) : Q := if b then 1 else 0.

(** [variable.previous_values]: only VariableTS has it. *)
Definition prev_of (v : variable) : res (option numeric) :=
  if v_ts v then Ok (v_prev v) else Err AttributeError.

Fixpoint scalars (l : list numeric) : option (list Q) :=
  match l with
  | [] => Some []
  | NS q :: r => option_map (cons q) (scalars r)
  | NV _ :: _ => None
  end.
Fixpoint arrays (l : list numeric) : option (list (list Q)) :=
  match l with
  | [] => Some []
  | NV q :: r => option_map (cons q) (arrays r)
  | NS _ :: _ => None
  end.

(** features.py 546-570 [_previous_on_values]. np.array of numbers and arrays of one common length; anything else is
    refused by numpy (ValueError). Plain numbers of several variables form ONE array, read as a time series. *)
Definition previous_on_values (eps : Q) (vars : list variable) : res (list Q) :=
  ps <- mapM prev_of vars ;;
  let given := flat_map (fun o : option numeric => match o with Some p => [p] | None => [] end) ps in
  match given with
  | [] => Ok [0]
  | _ =>
      match scalars given with
      | Some qs => Ok (map (fun q => b2q (negb (isclose0 eps q))) qs)
      | None =>
          match arrays given with
          | Some (a :: r) =>
              _ <- guard (forallb (fun b => Nat.eqb (length b) (length a)) r) ValueError ;;
              Ok (map (fun j => b2q (existsb (fun b => negb (isclose0 eps (nth j b 0))) (a :: r)))
                      (seq 0 (length a)))
          | _ => Err ValueError
          end
      end
  end.

(** Python slice [l[-k:]]; for k = 0 it is the whole list. *)
Definition py_last {A} (k : nat) (l : list A) : list A :=
  if Nat.eqb k 0 then l else skipn (length l - k) l.

(** Position of the last element satisfying p. *)
Fixpoint last_pos {A} (p : A -> bool) (l : list A) : option nat :=
  match l with
  | [] => None
  | a :: r => match last_pos p r with
              | Some i => Some (S i)
              | None => if p a then Some 0%nat else None
              end
  end.

(** features.py 572-624 [get_consecutive_duration]. The "length of the last duration" is the POSITION of the last
    zero plus one (606). *)
Definition consecutive_duration (eps : Q) (binary dt : numeric) : res Q :=
  match binary, dt with
  | NS b, NS d => Ok (b * d)
  | NS b, NV ds => match rev ds with [] => Err IndexError | d :: _ => Ok (b * d) end
  | NV bs, NS d =>
      let k := match last_pos (isclose0 eps) bs with Some i => S i | None => length bs end in
      Ok (Qsum (map (fun b => b * d) (py_last k bs)))
  | NV bs, NV ds =>
      let k := match last_pos (isclose0 eps) bs with Some i => S i | None => length bs end in
      if Nat.ltb (length ds) k then Err TypeError
      else r <- nmul (NV (py_last k bs)) (NV (py_last k ds)) ;; Ok (Qsum (nlist r))
  end.

Definition nhead (a : numeric) : res Q :=
  match a with NS q => Ok q | NV (q :: _) => Ok q | NV [] => Err IndexError end.

Record dur_out : Type := mkDur { du_var : variable; du_cons : list constraint }.

(** Index ranges [time_indices[1:]] and [time_indices[0:-1]]. *)
Definition idx_next (n : nat) : list nat := seq 1 (n - 1).
Definition idx_prev (n : nat) : list nat := seq 0 (n - 1).

(** features.py 340-492 [_get_duration_in_hours]. *)
Definition duration_model (cx : ctx) (tr : bool) (full label : string) (b : variable)
           (dmin dmax : option param) : res dur_out :=
  let n := cx_n cx in
  pv <- prev_of b ;;
  pv' <- of_option TypeError pv ;;
  prev <- consecutive_duration (cx_eps cx) pv' (cx_prev cx) ;;
  let mega := cx_total cx + prev in
  mx <- optM (act cx tr) dmax ;;
  _ <- optM nhead mx ;;
  d <- create_variable full label n false None (Some (NS 0))
         (Some (match mx with Some u => u | None => NS mega end)) (Some (NS prev)) ;;
  let pre := v_label d in
  let dtl := tl (cx_dt cx) in
  c1 <- create_equation full (cat [pre; "_constraint_1"]) KIneq
          [AddS d (NS 1) None false; AddS b (NS (- mega)) None false] ;;
  c2a <- create_equation full (cat [pre; "_constraint_2a"]) KIneq
           [AddS d (NS 1) (Some (idx_next n)) false; AddS d (NS (-1)) (Some (idx_prev n)) false; AddC (NV dtl)] ;;
  c2b <- create_equation full (cat [pre; "_constraint_2b"]) KIneq
           [AddS d (NS (-1)) (Some (idx_next n)) false; AddS d (NS 1) (Some (idx_prev n)) false;
            AddS b (NS mega) (Some (idx_next n)) false; AddC (NV (map (fun q => - q + mega) dtl))] ;;
  cmin <- match dmin with
          | None => Ok []
          | Some p =>
              m <- act cx tr p ;;
              let used := match m with NS q => NS q | NV l => NV (removelast l) end in
              e1 <- create_equation full (cat [pre; "_minimum_duration"]) KIneq
                      [AddS d (NS (-1)) (Some (idx_prev n)) false;
                       AddS b (nmap Qopp used) (Some (idx_next n)) false;
                       AddS b used (Some (idx_prev n)) false] ;;
              first <- nhead m ;;
              if (negb (Qle_bool prev 0) && negb (Qle_bool first prev))%bool then
                e2 <- create_equation full (cat [pre; "_minimum_duration_inital"]) KEq
                        [AddS b (NS 1) (Some [0%nat]) false; AddC (NS 1)] ;;
                Ok [e1; e2]
              else Ok [e1]
          end ;;
  dt0 <- of_option IndexError (nth_error (cx_dt cx) 0) ;;
  cf <- create_equation full (cat [pre; "_initial"]) KEq
          [AddS d (NS 1) (Some [0%nat]) false; AddS b (NS (- (dt0 + prev))) (Some [0%nat]) false] ;;
  Ok (mkDur d ([c1; c2a; c2b] ++ cmin ++ [cf])).

(** features.py 273-320 [_add_on_constraints]; [bounds] are the defining bounds with the lower ones already raised to
    epsilon (207). *)
Definition on_constraints (cx : ctx) (full : string) (on : variable) (vars : list variable)
           (bounds : list (numeric * numeric)) : res (list constraint) :=
  let ix := Some (seq 0 (cx_n cx)) in
  match vars, bounds with
  | [], _ => Err AssertionError
  | [v], (lb, ub) :: _ =>
      l <- nmax (NS (cx_eps cx)) lb ;;
      c1 <- create_equation full "On_Constraint_1" KIneq
              [AddS v (NS (-1)) ix false; AddS on l ix false] ;;
      c2 <- create_equation full "On_Constraint_2" KIneq
              [AddS v (NS 1) ix false; AddS on (nmap Qopp ub) ix false] ;;
      Ok [c1; c2]
  | _, _ =>
      let k := inject_Z (Z.of_nat (length vars)) in
      total <- foldM (fun acc b => nadd acc (snd b)) bounds (NS 0) ;;
      c1 <- create_equation full "On_Constraint_1" KIneq
              (map (fun v => AddS v (NS (-1)) ix false) vars ++ [AddS on (NS (cx_eps cx)) ix false]) ;;
      c2 <- create_equation full "On_Constraint_2" KIneq
              (map (fun v => AddS v (NS (1 / k)) ix false) vars ++
               [AddS on (nmap (fun q => - (q / k)) total) ix false]) ;;
      Ok [c1; c2]
  end.

(** features.py 494-528 [_add_switch_constraints]. *)
Definition switch_constraints (cx : ctx) (full : string) (on son soff nr : variable) (prev_on : list Q)
  : res (list constraint) :=
  let n := cx_n cx in
  c1 <- create_equation full "Switch" KEq
          [AddS son (NS 1) (Some (idx_next n)) false; AddS soff (NS (-1)) (Some (idx_next n)) false;
           AddS on (NS (-1)) (Some (idx_next n)) false; AddS on (NS 1) (Some (idx_prev n)) false] ;;
  last <- match rev prev_on with [] => Err IndexError | q :: _ => Ok q end ;;
  c2 <- create_equation full "Initial_Switch" KEq
          [AddS son (NS 1) (Some [0%nat]) false; AddS soff (NS (-1)) (Some [0%nat]) false;
           AddS on (NS (-1)) (Some [0%nat]) false; AddC (NS (- last))] ;;
  c3 <- create_equation full "Switch_On_or_Off" KIneq
          [AddS son (NS 1) None false; AddS soff (NS 1) None false; AddC (NS (11 # 10))] ;;
  c4 <- create_equation full "NrSwitchOn" KEq
          [AddS nr (NS 1) None false; AddS son (NS (-1)) None true] ;;
  Ok [c1; c2; c3; c4].

Record oo_out : Type := mkOOOut { ot_tree : emodel; ot_on : variable; ot_shares : list share }.

Definition opt_num (o : option Q) : option numeric := option_map NS o.

(** features.py 207, 210-271 [OnOffModel.do_modeling]. *)
Definition onoff_model (cx : ctx) (tr : bool) (elem : string) (p : onoff) (vars : list variable)
           (bounds : list (numeric * numeric)) : res oo_out :=
  let full := model_full elem (Some "OnOff") in
  let n := cx_n cx in
  bounds' <- mapM (fun b : numeric * numeric => l <- nmax (fst b) (NS (cx_eps cx)) ;; Ok (l, snd b)) bounds ;;
  _ <- assert_ (Nat.eqb (length vars) (length bounds)) ;;
  prev_on <- previous_on_values (cx_eps cx) vars ;;
  on <- create_variable full "on" n true None None None (Some (NV prev_on)) ;;
  tot <- create_variable full "totalOnHours" 1 false None (opt_num (oo_on_min p)) (opt_num (oo_on_max p)) None ;;
  ctot <- create_equation full "totalOnHours" KEq
            [AddS on (NV (cx_dt cx)) None true; AddS tot (NS (-1)) None false] ;;
  con <- on_constraints cx full on vars bounds' ;;
  ' (voff, coff) <- (if use_off p then
                       off <- create_variable full "off" n true None None None
                                (Some (NV (map (fun q => 1 - q) prev_on))) ;;
                       c <- create_equation full "var_off" KEq
                              [AddS off (NS 1) (Some (seq 0 n)) false; AddS on (NS 1) (Some (seq 0 n)) false;
                               AddC (NS 1)] ;;
                       Ok ([off], [c])
                     else Ok ([], [])) ;;
  ' (v1, k1) <- (if use_con p then
                   du <- duration_model cx tr full "consecutiveOnHours" on (oo_con_min p) (oo_con_max p) ;;
                   Ok ([du_var du], du_cons du)
                 else Ok ([], [])) ;;
  ' (v2, k2) <- (if use_coff p then
                   off <- of_option AttributeError (nth_error voff 0) ;;
                   du <- duration_model cx tr full "consecutiveOffHours" off (oo_coff_min p) (oo_coff_max p) ;;
                   Ok ([du_var du], du_cons du)
                 else Ok ([], [])) ;;
  ' (v3, k3, sw) <- (if use_switch_on p then
                       son <- create_variable full "switchOn" n true None None None None ;;
                       soff <- create_variable full "switchOff" n true None None None None ;;
                       nr <- create_variable full "nrSwitchOn" 1 false None None (opt_num (oo_sw_max p)) None ;;
                       _ <- guard (v_ts on) AttributeError ;;
                       ks <- switch_constraints cx full on son soff nr prev_on ;;
                       Ok ([son; soff; nr], ks, Some son)
                     else Ok ([], [], None)) ;;
  s1 <- match sw with
        | Some son => emit_op cx tr elem "switch_on_effects" (oo_switch_eff p) (NS 1) son
        | None => Ok []
        end ;;
  s2 <- emit_op cx tr elem "running_hour_effects" (oo_run_eff p) (NV (cx_dt cx)) on ;;
  m <- mk_em full "OnOff" ([on; tot] ++ voff ++ v1 ++ v2 ++ v3) ([ctot] ++ con ++ coff ++ k1 ++ k2 ++ k3) [] ;;
  Ok (mkOOOut m on (s1 ++ s2)).

(** features.py 930-942 [PreventSimultaneousUsageModel]. *)
Definition prevent_model (elem : string) (vars : list variable) : res emodel :=
  let full := model_full elem (Some "PreventSimultaneousUsage") in
  _ <- assert_ (Nat.leb 2 (length vars)) ;;
  _ <- assert_ (forallb v_bin vars) ;;
  c <- create_equation full "prevent_simultaneous_use" KIneq
         (map (fun v => AddS v (NS 1) None false) vars ++ [AddC (NS (11 # 10))]) ;;
  mk_em full "PreventSimultaneousUsage" [] [c] [].

(** ** Share allocation *)

(** features.py 823-846 [SingleShareModel]. The variable's label is the model's full label; the equation's label is
    '{label_full}_{label_full}'. *)
Record ss_out : Type := mkSS { ss_tree : emodel; ss_var : variable }.
Definition single_share (elem : string) (sh : share) : res ss_out :=
  let full := model_full elem (Some (sh_name sh)) in
  _ <- assert_ (match sh_var sh with
                | Some v => negb (Nat.eqb (v_len v) 1 && sh_as_sum sh)%bool
                | None => true
                end) ;;
  sv <- (if (sh_as_sum sh
             || match sh_var sh with Some v => Nat.eqb (v_len v) 1 | None => is_scalar (sh_factor sh) end)%bool
         then mk_variable full 1 (sh_name sh) false None None None
         else match sh_var sh with
              | Some v => mk_variable_ts full (v_len v) (sh_name sh) false None None None None
              | None => Err PyException
              end) ;;
  c <- create_equation full full KEq
         (AddS sv (NS (-1)) None false ::
          [match sh_var sh with
           | None => AddC (if sh_as_sum sh then NS (- Qsum (nlist (sh_factor sh))) else nmap Qopp (sh_factor sh))
           | Some v => AddS v (sh_factor sh) None (sh_as_sum sh)
           end]) ;;
  m <- mk_em full (sh_name sh) [sv] [c] [] ;;
  Ok (mkSS m sv).

Record sa_out : Type := mkSA { sa_tree : emodel; sa_sum : variable; sa_sum_ts : option variable }.

(** features.py 763-783: the variables of a ShareAllocationModel. *)
Definition alloc_sum (elem label : string) (tmin tmax : option Q) : res variable :=
  create_variable (model_full elem (Some label)) (cat [label; "_sum"]) 1 false None (opt_num tmin) (opt_num tmax) None.
Definition alloc_ts (cx : ctx) (elem label : string) (phmin phmax : option numeric) : res variable :=
  lb <- optM (fun q => nmul q (NV (cx_dt cx))) phmin ;;
  ub <- optM (fun q => nmul q (NV (cx_dt cx))) phmax ;;
  create_variable (model_full elem (Some label)) (cat [label; "_sum_TS"]) (cx_n cx) false None lb ub None.

(** features.py 763-811 [ShareAllocationModel.do_modeling] followed by the [add_share] calls [shs] in order. The two
    equations grow while shares arrive; here they are written down once all shares are known. *)
Definition share_alloc (cx : ctx) (elem label : string) (ts : bool) (tmin tmax : option Q)
           (phmin phmax : option numeric) (shs : list share) : res sa_out :=
  let full := model_full elem (Some label) in
  _ <- assert_ (ts || (is_none phmin && is_none phmax))%bool ;;
  s <- alloc_sum elem label tmin tmax ;;
  st <- (if ts then v <- alloc_ts cx elem label phmin phmax ;; Ok (Some v) else Ok None) ;;
  singles <- mapM (fun sh => o <- single_share elem sh ;; Ok (sh, o)) shs ;;
  _ <- assert_ (nodup_str (map sh_name shs)) ;;
  let to_sum := filter (fun so : share * ss_out => (sh_as_sum (fst so) || negb ts)%bool) singles in
  let to_ts := filter (fun so : share * ss_out => negb (sh_as_sum (fst so) || negb ts)%bool) singles in
  csum <- create_equation full (cat [label; "_sum"]) KEq
            ([AddS s (NS (-1)) None false] ++
             match st with Some v => [AddS v (NS 1) None true] | None => [] end ++
             map (fun so : share * ss_out => AddS (ss_var (snd so)) (NS 1) None false) to_sum) ;;
  cts <- match st with
         | Some v =>
             c <- create_equation full (cat [label; "_time_series"]) KEq
                    (AddS v (NS (-1)) None false ::
                     map (fun so : share * ss_out => AddS (ss_var (snd so)) (NS 1) None false) to_ts) ;;
             Ok [c]
         | None => Ok []
         end ;;
  m <- mk_em full label (s :: match st with Some v => [v] | None => [] end) (csum :: cts)
         (map (fun so : share * ss_out => ss_tree (snd so)) singles) ;;
  Ok (mkSA m s st).
