(** Model of registering elements: flow_system.py 72-107 [add_effects], [add_components], [add_elements], 213-226
    [_check_if_element_is_unique], elements.py 79-83 [register_flows_in_bus] with 128-134 [Bus.add_input/add_output].
    Buses are objects of their own, outside any flow system: several systems may use the same bus. A bus keeps the list of
    flows registered at it; the state holds these lists as (bus, flow) pairs in order of registration.
    Simplification: [register_component_in_flows] (elements.py 75-77) sets flow.comp; here a flow belongs to the component
    whose list it is in, which differs only if one Flow object is used by two components. *)
From Verif Require Import Base MathModel Structure Params Features Elements System.

Record registry : Type := mkReg {
  rg_systems : list flow_system;
  rg_in : list (nat * nat);
  rg_out : list (nat * nat)
}.

(** elements.py 79-83. *)
Definition register_flows (c : component) (r : registry) : registry :=
  mkReg (rg_systems r) (rg_in r ++ map (fun f => (b_id (f_bus f), f_id f)) (cp_out c))
    (rg_out r ++ map (fun f => (b_id (f_bus f), f_id f)) (cp_in c)).

Fixpoint set_nth {A} (k : nat) (x : A) (l : list A) : list A :=
  match l, k with
  | [], _ => []
  | _ :: r, O => x :: r
  | a :: r, S j => a :: set_nth j x r
  end.
Definition set_system (k : nat) (fs : flow_system) (r : registry) : registry :=
  mkReg (set_nth k fs (rg_systems r)) (rg_in r) (rg_out r).

(** flow_system.py 77-85 for one component, 72-75 for one effect, 97-103 for one element. *)
Definition register_component (k : nat) (r : registry) (c : component) : registry * option exn :=
  match nth_error (rg_systems r) k with
  | None => (r, Some AttributeError)
  | Some fs => match add_component fs c with
               | Ok fs' => (set_system k fs' (register_flows c r), None)
               | Err e => (r, Some e)
               end
  end.
Definition register_effect (k : nat) (r : registry) (e : effect) : registry * option exn :=
  match nth_error (rg_systems r) k with
  | None => (r, Some AttributeError)
  | Some fs => match add_effect (fs_effects fs) e with
               | Ok es => (set_system k (with_effects fs es) r, None)
               | Err x => (r, Some x)
               end
  end.
Definition register_element (k : nat) (r : registry) (a : element) : registry * option exn :=
  match a with
  | ElEffect e => register_effect k r e
  | ElComp c => register_component k r c
  | ElOther => (r, Some PyException)
  end.

(** A loop over the arguments, left by the first exception. *)
Fixpoint for_each {W A} (f : W -> A -> W * option exn) (l : list A) (w : W) : W * option exn :=
  match l with
  | [] => (w, None)
  | a :: r => match f w a with (w', None) => for_each f r w' | (w', Some e) => (w', Some e) end
  end.

Inductive rop : Type :=
| RSystem (times : list Q) (unit : Q) (last : option Q) (prev : option numeric)
| REffects (k : nat) (l : list effect)
| RComponents (k : nat) (l : list component)
| RElements (k : nat) (l : list element).

Definition do_rop (r : registry) (o : rop) : registry * option exn :=
  match o with
  | RSystem times u last prev =>
      match mk_flow_system times u last prev with
      | Ok fs => (mkReg (rg_systems r ++ [fs]) (rg_in r) (rg_out r), None)
      | Err e => (r, Some e)
      end
  | REffects k l => for_each (register_effect k) l r
  | RComponents k l => for_each (register_component k) l r
  | RElements k l => for_each (register_element k) l r
  end.
(** The caller catches exceptions and goes on. *)
Definition registered (l : list rop) : registry := fold_left (fun r o => fst (do_rop r o)) l (mkReg [] [] []).

(** The flows a bus knows (elements.py 118-119). *)
Definition at_bus (b : nat) (l : list (nat * nat)) : list nat :=
  map snd (filter (fun p => Nat.eqb (fst p) b) l).
