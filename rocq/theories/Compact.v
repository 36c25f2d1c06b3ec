(** Model of the short documentation of elements and flow systems: structure.py 661-712 [get_compact_representation], 305-317
    [Interface.to_json], elements.py 85-89 [Component.infos], 254-257 [Flow.infos], flow_system.py 131-161 [infos], [to_json]. *)
From Coq Require Import Qround Ascii String.
From Verif Require Import Base System Tree Values.

(** Rounding to an integer, halves to the even neighbour (numpy's rint and Python's text formatting; on exact numbers here). *)
Definition rint (q : Q) : Z :=
  let f := Qfloor q in
  match Qcompare (q - inject_Z f) (1 # 2) with
  | Lt => f
  | Gt => (f + 1)%Z
  | Eq => if Z.even f then f else (f + 1)%Z
  end.
Definition ten (d : nat) : Q := inject_Z (10 ^ Z.of_nat d).
(** np.around(q, decimals=d), and the number shown by the format '.df'. *)
Definition around (d : nat) (q : Q) : Q := inject_Z (rint (q * ten d)) / ten d.

(** What is said about a long array; [None] is nan. *)
Record summary : Type := mkSummary { su_min : Q; su_max : Q; su_mean : Q; su_median : Q; su_std : Q; su_len : nat; su_center : option Q }.
(** The document: plain values, arrays written out, arrays summarised, lists and dicts. *)
Inductive cval : Type :=
| CVal (v : pyval)
| CNums (l : list Q)
| CText (s : summary)
| CList (l : list cval)
| CDict (d : list (pyval * cval)).

(** np.min, np.max of a non-empty array; np.mean. *)
Fixpoint least (a : Q) (l : list Q) : Q := match l with [] => a | b :: r => least (if Qle_bool a b then a else b) r end.
Fixpoint greatest (a : Q) (l : list Q) : Q := match l with [] => a | b :: r => greatest (if Qle_bool a b then b else a) r end.
Definition count (l : list Q) : Q := inject_Z (Z.of_nat (length l)).
Definition mean (l : list Q) : Q := Qsum l / count l.
(** np.median: the value in the middle of the sorted array, or the mean of the two values there. *)
Fixpoint put_in (a : Q) (l : list Q) : list Q := match l with [] => [a] | b :: r => if Qle_bool a b then a :: l else b :: put_in a r end.
Definition sorted (l : list Q) : list Q := fold_right put_in [] l.
Definition median (l : list Q) : Q :=
  let s := sorted l in
  let n := length l in
  if Nat.even n then (nth (n / 2 - 1) s 0 + nth (n / 2) s 0) / 2 else nth (n / 2) s 0.
(** The square of np.std. *)
Definition variance (l : list Q) : Q := mean (map (fun q => (q - mean l) * (q - mean l)) l).
(** structure.py 692-699: normalized_center_of_mass; np.linspace(0, 1, n). *)
Definition linspace (n : nat) : list Q := map (fun i => inject_Z (Z.of_nat i) / inject_Z (Z.of_nat (n - 1))) (seq 0 n).
Definition center (l : list Q) : option Q :=
  if Qeq_bool (Qsum l) 0 then None else Some (Qsum (map (fun pq => fst pq * snd pq) (combine (linspace (length l)) l)) / Qsum l).

Section Format.
(** [root d]: the square root, shown with [d] decimals. [flags]: what np.around and the formats do with an array of truth values. *)
Variables (root : nat -> Q -> Q) (flags : list Q -> res cval) (threshold decimals : nat).

(** structure.py 701-709. np.around leaves integers as they are. Arrays have one dimension here. *)
Definition describe (k : akind) (l : list Q) : res cval :=
  match k with
  | ABool => flags l
  | _ =>
      match l with
      | a :: r =>
          if Nat.ltb threshold (length l) then
            Ok (CText (mkSummary (around decimals (least a r)) (around decimals (greatest a r)) (around decimals (mean l)) (around decimals (median l))
                                 (root decimals (variance l)) (length l) (option_map (around decimals) (center l))))
          else Ok (CNums (match k with AInt => l | _ => map (around decimals) l end))
      | [] => Ok (CNums [])
      end
  end.
(** structure.py 675-689. Keys of dicts are plain values, which stay as they are. *)
Fixpoint fmt (v : pyval) : res cval :=
  match v with
  | VArr k l => describe k l
  | VDict d => r <- mapM (fun kv => a <- fmt (snd kv) ;; Ok (fst kv, a)) d ;; Ok (CDict r)
  | VList l | VTuple l | VSet l => r <- mapM fmt l ;; Ok (CList r)
  | _ => Ok (CVal v)
  end.
(** structure.py 711-714. *)
Definition compact (v : pyval) : res cval := w <- conv true false v ;; fmt w.
End Format.

(** structure.py 267-304 [Interface.infos] of the object itself, also if it is an element. Elements among the arguments appear by
    label ([use_element_label=True]), arrays stay arrays. *)
Definition infos (v : pyval) : res (list (pyval * pyval)) :=
  match v with
  | VObj _ cls args => r <- conv true true (VObj None cls args) ;; match r with VDict d => Ok d | _ => Err TypeError end
  | _ => Err AttributeError
  end.
(** elements.py 254-257. *)
Definition flow_infos (inp : bool) (v : pyval) : res pyval := d <- infos v ;; Ok (VDict (put (VStr "is_input_in_component") (VBool inp) d)).
(** A component with the flows at its inputs and outputs. elements.py 85-89; [is_input_in_comp] (elements.py 279-281) of a flow is
    whether it is among the inputs: a flow at both sides is one object and counts as an input. *)
Record described : Type := mkDescribed { de_label : string; de_self : pyval; de_in : list (nat * pyval); de_out : list (nat * pyval) }.
Definition is_in (c : described) (f : nat * pyval) : bool := existsb (fun g => Nat.eqb (fst g) (fst f)) (de_in c).
Definition component_infos (c : described) : res pyval :=
  d <- infos (de_self c) ;;
  i <- mapM (fun f => flow_infos (is_in c f) (snd f)) (de_in c) ;;
  o <- mapM (fun f => flow_infos (is_in c f) (snd f)) (de_out c) ;;
  Ok (VDict (put (VStr "outputs") (VList o) (put (VStr "inputs") (VList i) d))).

(** str.upper() (letters a to z only) and the order of texts. *)
Definition up (a : ascii) : ascii := let n := nat_of_ascii a in if (Nat.leb 97 n && Nat.leb n 122)%bool then ascii_of_nat (n - 32) else a.
Fixpoint upper (s : string) : string := match s with EmptyString => EmptyString | String a r => String (up a) (upper r) end.
Definition str_leb (s t : string) : bool := match String.compare s t with Gt => false | _ => true end.
(** sorted(values, key=label.upper()): stable. *)
Fixpoint place {A} (key : A -> string) (a : A) (l : list A) : list A :=
  match l with [] => [a] | b :: r => if str_leb (key a) (key b) then a :: l else b :: place key a r end.
Definition sort_by {A} (key : A -> string) (l : list A) : list A := fold_right (place key) [] l.

(** flow_system.py 131-146: components, buses and effects as the dicts of the flow system hold them. *)
Definition section (l : list (string * res pyval)) : res pyval :=
  r <- mapM (fun x => v <- snd x ;; Ok (VStr (fst x), v)) (sort_by (fun x => upper (fst x)) l) ;; Ok (VDict (dict_of r)).
Definition element_infos (x : string * pyval) : string * res pyval := (fst x, d <- infos (snd x) ;; Ok (VDict d)).
Definition system_infos (comps : list described) (buses effects : list (string * pyval)) : res pyval :=
  c <- section (map (fun c => (de_label c, component_infos c)) comps) ;;
  b <- section (map element_infos buses) ;;
  e <- section (map element_infos effects) ;;
  Ok (VDict [(VStr "Components", c); (VStr "Buses", b); (VStr "Effects", e)]).
(** flow_system.py 148-161, structure.py 305-317: the documents before json.dump. *)
Definition system_document root flags (comps : list described) (buses effects : list (string * pyval)) : res cval :=
  i <- system_infos comps buses effects ;; compact root flags 50 2 i.
Definition element_document root flags (x : pyval) : res cval := d <- infos x ;; compact root flags 50 2 (VDict d).
