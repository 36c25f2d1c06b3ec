(** Model of what modelling leaves behind in a flow system, and of SegmentedCalculation (calculation.py 307-620). *)
From Verif Require Import Base MathModel Spec Structure Params Features Elements System Tree Values Results.

(** ** What modelling leaves behind
    Modelling writes default on/off and investment parameters into flows (elements.py 463-471, components.py 330-341) and they stay
    there. Components are modelled one after the other (structure.py 57-64); the one whose modelling fails has got its defaults,
    later ones have not. *)
Definition defaulted (cf : config) (ord : list nat -> list nat) (fs : flow_system) (idx : option (list nat)) (c : component) : component :=
  match make_ctx cf ord fs idx with
  | Ok cx => match prepared cx (visible_comp fs (cp_label c)) c with Ok c' => c' | Err _ => c end
  | Err _ => c
  end.
Fixpoint reached {A} (fine : A -> bool) (l : list A) : nat :=
  match l with [] => 0%nat | a :: r => if fine a then S (reached fine r) else 1%nat end.
Definition is_ok {A} (r : res A) : bool := match r with Ok _ => true | Err _ => false end.
Definition comps_reached (cf : config) (ord : list nat -> list nat) (fs : flow_system) (idx : option (list nat)) : nat :=
  match make_ctx cf ord fs idx with
  | Ok cx => reached (fun c => is_ok (comp_model cx (visible_flow fs) (visible_comp fs) c)) (fs_comps fs)
  | Err _ => 0%nat
  end.
Definition after_modeling (cf : config) (ord : list nat -> list nat) (fs : flow_system) (idx : option (list nat)) : flow_system :=
  let k := comps_reached cf ord fs idx in
  with_comps fs (map (defaulted cf ord fs idx) (firstn k (fs_comps fs)) ++ skipn k (fs_comps fs)).

(** ** Start values *)
Definition with_prev (p : option numeric) (f : flow) : flow :=
  mkFlow (f_id f) (f_lab f) (f_bus f) (f_size f) (f_profile f) (f_relmin f) (f_relmax f) (f_effects f)
    (f_onoff f) (f_fh_max f) (f_fh_min f) (f_lf_min f) (f_lf_max f) p.
Definition with_init (i : initcharge) (s : storage) : storage :=
  mkStorage (st_cap s) (st_relmin s) (st_relmax s) i (st_fmin s) (st_fmax s) (st_eta_c s) (st_eta_d s) (st_loss s).
Definition with_starts (p : flow -> option numeric) (i : initcharge) (c : component) : component :=
  mkComponent (cp_label c) (map (fun f => with_prev (p f) f) (cp_in c)) (map (fun f => with_prev (p f) f) (cp_out c)) (cp_onoff c) (cp_prevent c)
    (match cp_kind c with StorageC s => StorageC (with_init i s) | k => k end).

(** calculation.py 351-359: the start values found when the calculation is created, by Flow object and by Storage. *)
Definition init_of (c : component) : option initcharge := match cp_kind c with StorageC s => Some (st_init s) | _ => None end.
Record starts_ : Type := mkStarts { sv_flows : list (nat * option numeric); sv_stores : list (string * initcharge) }.
Definition start_values (fs : flow_system) : starts_ :=
  mkStarts (map (fun cf : component * flow => (f_id (snd cf), f_prev (snd cf))) (all_flows fs))
    (flat_map (fun c => match init_of c with Some i => [(cp_label c, i)] | None => [] end) (fs_comps fs)).

(** ** The calculation (calculation.py 308-361) *)
Record segmented : Type := mkSegmented { sg_len : nat; sg_over : nat; sg_total : nat; sg_number : nat; sg_starts : starts_ }.
Definition mk_segmented (fs : flow_system) (seg overlap : nat) (time_indices : option (list nat)) : res segmented :=
  let total := match time_indices with Some l => length l | None => length (fs_times fs) end in
  _ <- guard (negb (Nat.eqb seg 0)) ZeroDivision ;;
  _ <- assert_ (Nat.ltb 2 seg) ;;
  _ <- assert_ (Nat.leb (seg + overlap) total) ;;
  Ok (mkSegmented seg overlap total ((total + seg - 1) / seg) (start_values fs)).

(** calculation.py 501-503 [_get_indices]: the time indices given by the user are not used. *)
Definition get_indices (g : segmented) (i : nat) : list nat :=
  let start := (i * sg_len g)%nat in
  seq start (Nat.min (start + sg_len g + sg_over g) (sg_total g) - start).

(** numpy: [a[-k]] of the result of a variable of [n] values; a single value is a number and has no index. *)
Definition from_end (n k : nat) : res nat :=
  if (Nat.ltb 1 n && Nat.leb k n)%bool then Ok (n - k)%nat else Err IndexError.

(** calculation.py 472-490 [_transfer_start_values] from the solution [x] of a segment of [n] steps. All flows have [n] values, so
    the first flow fails or none does. Result arrays of flow rates and charge states hold the solver's values (Results.v). *)
Definition transfer (g : segmented) (n : nat) (x : asg) (fs : flow_system) : res flow_system :=
  cs <- mapM (fun c =>
          i <- from_end n (1 + sg_over g) ;;
          j <- from_end (n + 1) (1 + sg_over g) ;;
          Ok (with_starts (fun f => Some (NS (x (vlabel (flow_full (cp_label c) (f_lab f)) "flow_rate") i)))
                (ICNum (x (vlabel (cp_label c) "charge_state") j)) c)) (fs_comps fs) ;;
  Ok (with_comps fs cs).

(** calculation.py 492-499 [_reset_start_values]. *)
Definition lookup_id {A} (i : nat) (l : list (nat * A)) : option A := option_map snd (find (fun p => Nat.eqb (fst p) i) l).
Definition reset (g : segmented) (fs : flow_system) : flow_system :=
  with_comps fs
    (map (fun c => with_starts (fun f => match lookup_id (f_id f) (sv_flows (sg_starts g)) with Some p => p | None => f_prev f end)
                     (match sget (cp_label c) (sv_stores (sg_starts g)) with Some i => i | None => ICNone end) c) (fs_comps fs)).

(** calculation.py 363-397 [do_modeling_and_solve]. [solver i pm]: the values the solver finds for the problem of the i-th segment,
    None if it raises. A finished segment keeps the system it was modelled from, its indices, problem and values. The state of the
    flow system and the finished segments are returned also when an exception ends the loop. *)
Record sub : Type := mkSub { sb_fs : flow_system; sb_idx : list nat; sb_prog : pmodel; sb_values : asg }.
Fixpoint seg_loop (cf : config) (ord : list nat -> list nat) (solver : nat -> pmodel -> option asg) (g : segmented) (todo i : nat)
         (fs : flow_system) (done : list sub) : flow_system * list sub * option exn :=
  match todo with
  | O => (fs, done, None)
  | S rest =>
      match (match rev done with [] => Ok fs | s :: _ => transfer g (length (sb_idx s)) (sb_values s) fs end) with
      | Err e => (fs, done, Some e)
      | Ok fs1 =>
          let ix := get_indices g i in
          let fs2 := after_modeling cf ord fs1 (Some ix) in
          match build cf ord fs1 (Some ix) with
          | Err e => (fs2, done, Some e)
          | Ok pm => match solver i pm with
                     | None => (fs2, done, Some PyException)
                     | Some x => seg_loop cf ord solver g rest (S i) fs2 (done ++ [mkSub fs1 ix pm x])
                     end
          end
      end
  end.
(** [done]: the segments of earlier runs of the same object (they stay in its list). *)
Definition seg_run (cf : config) (ord : list nat -> list nat) (solver : nat -> pmodel -> option asg) (g : segmented)
           (fs : flow_system) (done : list sub) : flow_system * list sub * option exn :=
  match seg_loop cf ord solver g (sg_number g) 0 fs done with
  | (fs', subs, None) => (reset g fs', subs, None)
  | r => r
  end.

(** ** Combined results (calculation.py 399-431, 519-620) *)

(** The values under one key are combined if all of them are dicts (key by key, with the keys of the first), or by [join] if none is. *)
Definition all_nodes {A} (l : list (tree A)) : option (list (list (string * tree A))) :=
  fold_right (fun t acc => match t, acc with Node d, Some r => Some (d :: r) | _, _ => None end) (Some []) l.
Definition all_leaves {A} (l : list (tree A)) : option (list A) :=
  fold_right (fun t acc => match t, acc with Leaf a, Some r => Some (a :: r) | _, _ => None end) (Some []) l.
Fixpoint combine_rec {A B} (join : list A -> option B) (t : tree A) (rest : list (tree A)) {struct t} : res (tree (option B)) :=
  match t with
  | Node d => match all_nodes rest with
              | Some ds => r <- mapM (fun kv => vs <- mapM (fun e => of_option KeyError (sget (fst kv) e)) ds ;;
                                                c <- combine_rec join (snd kv) vs ;; Ok (fst kv, c)) d ;;
                           Ok (Node r)
              | None => Ok (Leaf None)
              end
  | Leaf a => Ok (Leaf (match all_leaves rest with Some l => join (a :: l) | None => None end))
  end.
(** calculation.py 519-521 [_remove_none_values] and 524-530 [_remove_empty_dicts]. *)
Fixpoint drop_none {B} (t : tree (option B)) : option (tree B) :=
  match t with
  | Leaf o => option_map Leaf o
  | Node d => Some (Node (flat_map (fun kv => match drop_none (snd kv) with Some v => [(fst kv, v)] | None => [] end) d))
  end.
Fixpoint drop_empty {B} (t : tree B) : option (tree B) :=
  match t with
  | Leaf b => Some (Leaf b)
  | Node d => match flat_map (fun kv => match drop_empty (snd kv) with Some v => [(fst kv, v)] | None => [] end) d with
              | [] => None
              | d' => Some (Node d')
              end
  end.
Definition tidy_up {B} (t : tree (option B)) : list (string * tree B) :=
  match drop_none t with
  | Some u => match drop_empty u with Some (Node d) => d | _ => [] end
  | None => []
  end.
Definition combine_dicts {A B} (join : list A -> option B) (l : list (list (string * tree A))) : res (list (string * tree B)) :=
  match l with
  | [] => Err IndexError
  | d :: r => t <- combine_rec join (Node d) (map Node r) ;; Ok (tidy_up t)
  end.

(** calculation.py 561-592: arrays are cut to the segment length, except the last, and joined. np.concatenate of integer and float
    arrays gives floats. *)
Definition same_kind (a b : akind) : bool :=
  match a, b with AInt, AInt | AFlt, AFlt | ABool, ABool | ADate, ADate | ADatetime, ADatetime => true | _, _ => false end.
Fixpoint array_parts (l : list leaf) : option (list (akind * list Q)) :=
  match l with
  | [] => Some []
  | LArr k q :: r => option_map (cons (k, q)) (array_parts r)
  | _ => None
  end.
Fixpoint cut_all_but_last (n : nat) (l : list (list Q)) : list Q :=
  match l with
  | [] => []
  | [a] => a
  | a :: r => firstn n a ++ cut_all_but_last n r
  end.
Definition join_arrays (n : nat) (l : list leaf) : option leaf :=
  match array_parts l with
  | Some ((k, q) :: r) => Some (LArr (if forallb (fun p => same_kind k (fst p)) r then k else AFlt) (cut_all_but_last n (q :: map snd r)))
  | _ => None
  end.
(** calculation.py 594-620: numbers are collected in a list. *)
Fixpoint join_scalars (l : list leaf) : option (list leaf) :=
  match l with
  | [] => Some []
  | LNum np i q :: r => option_map (cons (LNum np i q)) (join_scalars r)
  | _ => None
  end.

(** calculation.py 422-431 [results]. Each segment's results are those of its own FullCalculation. *)
Definition sub_results (cf : config) (ord : list nat -> list nat) (kd : akind) (s : sub) : res (list (string * tree leaf)) :=
  r <- snd (do_cop cf ord (sb_fs s) (Some (sb_idx s)) kd
              (calls cf ord (sb_fs s) (Some (sb_idx s)) kd [DoModeling; Solve (Some (sb_values s))]) GetResults) ;;
  of_option AttributeError r.
Definition combined_arrays (cf : config) (ord : list nat -> list nat) (kd : akind) (g : segmented) (subs : list sub)
  : res (list (string * tree leaf)) :=
  rs <- mapM (sub_results cf ord kd) subs ;; combine_dicts (join_arrays (sg_len g)) rs.
Definition combined_scalars (cf : config) (ord : list nat -> list nat) (kd : akind) (subs : list sub)
  : res (list (string * tree (list leaf))) :=
  rs <- mapM (sub_results cf ord kd) subs ;; combine_dicts join_scalars rs.
