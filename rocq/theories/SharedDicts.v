(** Model of effects.py 209-256: effect values as Python objects. The user may pass one dict to several elements; transforming an element
    reads, and changes, the dict it was given. *)
From Verif Require Import Base MathModel Params.

(** What a dict holds for an effect: structure.py 502-515 [_create_time_series] keeps None and TimeSeries objects and wraps anything else.
    Clearing the indices of a TimeSeries that is already there (structure.py 510) is modelled in Series.v. *)
Inductive dval : Type := VNone | VRaw (p : param) | VSeries (p : param).
Definition create_ts (v : dval) : dval := match v with VNone => VNone | VRaw p => VSeries p | VSeries p => VSeries p end.

(** A dict, in insertion order; keys are effects or None for the standard effect. *)
Definition dict : Type := list (option nat * dval).
(** [d.pop(None, None)]: what it returns and what is left. *)
Definition pop_value (d : dict) : dval := match find (fun kv : option nat * dval => is_none (fst kv)) d with Some kv => snd kv | None => VNone end.
Definition pop_rest (d : dict) : dict := filter (fun kv => negb (is_none (fst kv))) d.

(** An attribute holding effect values (elements.py 228, interface.py 142-143, effects.py 88-99): None, a plain value, or a reference to a dict. *)
Inductive attr : Type := ANone | AVal (v : dval) | ADict (loc : nat).
(** All dicts, by location, and all attributes that hold effect values. *)
Record store : Type := mkStore { s_heap : list dict; s_attrs : list attr }.

Fixpoint upd {A} (l : list A) (i : nat) (a : A) : list A :=
  match l, i with
  | [], _ => []
  | _ :: r, O => a :: r
  | b :: r, S i => b :: upd r i a
  end.

(** effects.py 194-206 [nested_values_to_time_series] and 220-227: the new dict. The standard effect is put at the end, and left out if its value is
    None. *)
Definition new_dict (d : dict) : dict :=
  map (fun kv : option nat * dval => (fst kv, create_ts (snd kv))) (pop_rest d)
  ++ match pop_value d with VNone => [] | v => [(None, create_ts v)] end.

(** effects.py 209-227 [effect_values_to_time_series] for attribute [i], the result being assigned to the attribute (elements.py 248,
    interface.py 157-160, effects.py 142-144). [as_effect_dict] (effects.py 230-256) makes a dict of a plain value, which nobody else sees, but
    hands on a dict as it is; [pop] then removes the entry from the dict of the user. There are always enough attributes and locations
    ([None] otherwise). *)
Definition transform (i : nat) (s : store) : option store :=
  match nth_error (s_attrs s) i with
  | None => None
  | Some ANone => Some s
  | Some (AVal v) => Some (mkStore (s_heap s ++ [new_dict [(None, v)]]) (upd (s_attrs s) i (ADict (length (s_heap s)))))
  | Some (ADict l) =>
      match nth_error (s_heap s) l with
      | None => None
      | Some d => Some (mkStore (upd (s_heap s) l (pop_rest d) ++ [new_dict d]) (upd (s_attrs s) i (ADict (length (s_heap s)))))
      end
  end.
(** A history of transformations: calculation.py 153, 218 transforms every element (flow_system.py 105-107) each time a calculation is modelled, so
    attributes are transformed again and again, in the order of the elements. *)
Fixpoint transforms (is : list nat) (s : store) : option store :=
  match is with [] => Some s | i :: is => match transform i s with Some s' => transforms is s' | None => None end end.
