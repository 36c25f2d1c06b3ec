(** Model of the Python values that results and saved data consist of, and of the functions that convert and
    save them: structure.py 555-660 [copy_and_convert_datatypes], structure.py 267-304 [Interface.infos], utils.py 93-134
    [convert_numeric_lists_to_arrays]. *)
From Verif Require Import Base System Tree.

(** Element types of one-dimensional numpy arrays. [tolist()] of a datetime64 array gives datetime.date objects for units of
    days and more, datetime.datetime objects for finer units down to microseconds (flow_system.py 52-53 excludes finer ones). *)
Inductive akind : Set := AInt | AFlt | ABool | ADate | ADatetime.

(** Values. Numbers are exact; [np]: a numpy scalar, [int]: of an integer type. Times are rational numbers of hours; [VIso t] is
    the text isoformat() gives for time [t]. [VSeries]: a TimeSeries or TimeSeriesData with the data it stands for.
    [VObj]: an Interface, with its label if it is an Element, its classes, and its constructor arguments in the order infos()
    visits them, each with the answer to [np.all(value == default)]. [VOther]: any other object. *)
Inductive pyval : Type :=
| VNone
| VBool (b : bool)
| VNum (np int : bool) (q : Q)
| VStr (s : string)
| VIso (t : Q)
| VDatetime (t : Q)
| VDate (t : Q)
| VArr (k : akind) (l : list Q)
| VList (l : list pyval)
| VTuple (l : list pyval)
| VSet (l : list pyval)
| VDict (d : list (pyval * pyval))
| VSeries (v : pyval)
| VObj (label : option string) (cls : string) (args : list (string * (pyval * bool)))
| VOther.

(** Keys of a dict: Python compares numbers by value, True as 1; lists and dicts are not hashable. *)
Definition key_num (v : pyval) : option Q :=
  match v with VBool b => Some (if b then 1 else 0) | VNum _ _ q => Some q | _ => None end.
Definition key_eqb (a b : pyval) : bool :=
  match a, b with
  | VNone, VNone => true
  | VStr s, VStr t => String.eqb s t
  | VIso s, VIso t => Qeq_bool s t
  | _, _ => match key_num a, key_num b with Some p, Some q => Qeq_bool p q | _, _ => false end
  end.
Definition hashable (v : pyval) : bool :=
  match v with VList _ | VDict _ | VSet _ | VArr _ _ => false | _ => true end.

(** [d[k] = v]: an existing key keeps its place. *)
Fixpoint put (k v : pyval) (d : list (pyval * pyval)) : list (pyval * pyval) :=
  match d with
  | [] => [(k, v)]
  | (k', v') :: r => if key_eqb k k' then (k', v) :: r else (k', v') :: put k v r
  end.
Definition get (k : pyval) (d : list (pyval * pyval)) : option pyval :=
  option_map snd (find (fun kv => key_eqb (fst kv) k) d).
(** [dict(items)]. *)
Definition dict_of (items : list (pyval * pyval)) : list (pyval * pyval) :=
  fold_left (fun d kv => put (fst kv) (snd kv) d) items [].

(** isinstance(v, (int, float)): bool is an int, numpy.float64 a float, numpy integers are neither. *)
Definition is_number (v : pyval) : bool :=
  match v with VBool _ => true | VNum np int _ => negb (np && int)%bool | _ => false end.
Definition num_of (v : pyval) : Q := match key_num v with Some q => q | None => 0 end.
(** The element type numpy chooses for a list of such numbers. *)
Definition kind_of (l : list pyval) : akind :=
  match l with
  | [] => AFlt
  | _ => if forallb (fun v => match v with VBool _ => true | _ => false end) l then ABool
         else if existsb (fun v => match v with VNum _ false _ => true | _ => false end) l then AFlt else AInt
  end.
Definition np_array (l : list pyval) : pyval := VArr (kind_of l) (map num_of l).

(** ndarray.tolist(). *)
Definition item_of (k : akind) (q : Q) : pyval :=
  match k with
  | AInt => VNum false true q
  | AFlt => VNum false false q
  | ABool => VBool (negb (Qeq_bool q 0))
  | ADate => VDate q
  | ADatetime => VDatetime q
  end.

(** What becomes of one item of [tolist()]. *)
Definition conv_item (v : pyval) : res pyval :=
  match v with VDatetime t => Ok (VIso t) | VDate _ => Err TypeError | _ => Ok v end.
(** structure.py 632-644: an array. *)
Definition conv_array (np : bool) (k : akind) (l : list Q) : res pyval :=
  match np, k with
  | true, AInt | true, AFlt => Ok (VArr k l)
  | true, ABool => Ok (np_array (map (item_of k) l))
  | _, _ => r <- mapM conv_item (map (item_of k) l) ;; Ok (VList r)
  end.

(** structure.py 293-295: what infos() leaves out besides defaults. *)
Definition empty_coll (v : pyval) : bool :=
  match v with VDict [] | VList [] => true | _ => false end.

(** structure.py 603-658. [ul]: use_element_label. *)
Fixpoint conv (np ul : bool) (v : pyval) {struct v} : res pyval :=
  match v with
  | VNone | VBool _ | VStr _ | VIso _ => Ok v
  | VNum _ i q => Ok (VNum false i q)
  | VDatetime t => Ok (VIso t)
  | VDate _ | VOther => Err TypeError
  | VArr k l => conv_array np k l
  | VList l | VTuple l | VSet l =>
      if (np && forallb is_number l)%bool then Ok (np_array l)
      else r <- mapM (conv np ul) l ;; Ok (VList r)
  | VDict d =>
      r <- foldM (fun acc kv => k <- conv np true (fst kv) ;; a <- conv np ul (snd kv) ;;
                                _ <- guard (hashable k) TypeError ;; Ok (put k a acc)) d [] ;;
      Ok (VDict r)
  | VSeries a => conv np ul a
  | VObj label cls args =>
      match ul, label with
      | true, Some l => Ok (VStr l)
      | _, _ =>
          r <- mapM (fun na => if (snd (snd na) || empty_coll (fst (snd na)))%bool then Ok []
                               else a <- conv np ul (fst (snd na)) ;; Ok [(VStr (fst na), a)]) args ;;
          Ok (VDict ((VStr "class", VStr cls) :: List.concat r))
      end
  end.

(** ** JSON *)

(** What json.dump writes without complaint. *)
Fixpoint json_ok (v : pyval) : bool :=
  match v with
  | VNone | VBool _ | VStr _ | VIso _ => true
  | VNum np _ _ => negb np
  | VList l => forallb json_ok l
  | VDict d => forallb (fun kv => match fst kv with VNone | VBool _ | VStr _ | VIso _ | VNum false _ _ => json_ok (snd kv)
                                                  | _ => false end) d
  | _ => false
  end.

(** json.dump followed by json.load. Trusted: the text written for a number, string, bool or None reads back as the same value.
    Keys that are not strings become strings when written; such dicts are outside of the model (an error here). *)
Definition str_key (v : pyval) : bool := match v with VStr _ | VIso _ => true | _ => false end.
Fixpoint json_rt (v : pyval) : res pyval :=
  match v with
  | VNone | VBool _ | VStr _ | VIso _ => Ok v
  | VNum false i q => Ok v
  | VList l | VTuple l =>
      r <- mapM json_rt l ;; Ok (VList r)
  | VDict d =>
      r <- foldM (fun acc kv => a <- json_rt (snd kv) ;; _ <- guard (str_key (fst kv)) TypeError ;; Ok (put (fst kv) a acc)) d [] ;;
      Ok (VDict r)
  | _ => Err TypeError
  end.

(** utils.py 93-134. Items of a sequence that are no dicts, lists or tuples stay as they are, and so does a value of another type. *)
Fixpoint to_arrays (v : pyval) : pyval :=
  match v with
  | VDict d => VDict (map (fun kv => (fst kv, to_arrays (snd kv))) d)
  | VList [] | VTuple [] => VList []
  | VList l => if forallb is_number l then np_array l else VList (map to_arrays l)
  | VTuple l => VList (map to_arrays l)
  | _ => v
  end.

(** calculation.py 92-96 and results.py 56-59: what is loaded after saving [v]. *)
Definition reload (v : pyval) : res pyval := c <- conv false false v ;; j <- json_rt c ;; Ok (to_arrays j).

(** ** Results *)

(** A result entry: None before solving, else a number or an array (math_modeling.py 1017-1025). *)
Inductive leaf : Type :=
| LNone
| LNum (np int : bool) (q : Q)
| LArr (k : akind) (l : list Q).
Definition of_leaf (a : leaf) : pyval :=
  match a with LNone => VNone | LNum np i q => VNum np i q | LArr k l => VArr k l end.
(** The nested result dict as a Python value. *)
Fixpoint of_tree (t : tree leaf) : pyval :=
  match t with
  | Leaf a => of_leaf a
  | Node d => VDict (map (fun kv => (VStr (fst kv), of_tree (snd kv))) d)
  end.

(** results.py 73-75: the time axis of loaded results; a value that is not a list of ISO texts raises. *)
Definition parse_times (v : pyval) : res (list Q) :=
  match v with
  | VList l => mapM (fun a => match a with VIso t => Ok t | _ => Err TypeError end) l
  | _ => Err TypeError
  end.
