(** Model of the picture of a flow system: flow_system.py 109-128 ([network_infos]), 277-285 ([flows], [buses]), elements.py 279-281
    ([is_input_in_comp]), plotting.py 664-684 (nodes and edges are handed on as they are; pyvis refuses an edge between unknown nodes).
    The texts under 'infos' are left out. *)
From Verif Require Import Base Params Elements System Tree.

Inductive node_class : Type := ABus | AComponent.
(** 'label' and 'class' by label_full; components first, so that a bus of the same label takes the place of a component. *)
Definition nodes (ord : list nat -> list nat) (fs : flow_system) : list (string * (string * node_class)) :=
  str_dict (map (fun c => (cp_label c, (cp_label c, AComponent))) (fs_comps fs) ++ map (fun b => (b_lab b, (b_lab b, ABus))) (buses ord fs)).

(** A flow of the set of all flows with its component ([flow.comp], set when the component is added). *)
Definition flow_of_id (fs : flow_system) (i : nat) : option (component * flow) :=
  find (fun cf : component * flow => Nat.eqb (f_id (snd cf)) i) (all_flows fs).
Definition is_input_in_comp (c : component) (f : flow) : bool := existsb (fun g => Nat.eqb (f_id g) (f_id f)) (cp_in c).
(** 'label', 'start' and 'end' *)
Definition edge_of (c : component) (f : flow) : string * string * string :=
  if is_input_in_comp c f then (f_lab f, b_lab (f_bus f), cp_label c) else (f_lab f, cp_label c, b_lab (f_bus f)).
Definition edges (ord : list nat -> list nat) (fs : flow_system) : list (string * (string * string * string)) :=
  str_dict (flat_map (fun i => match flow_of_id fs i with
                               | Some (c, f) => [(flow_full (cp_label c) (f_lab f), edge_of c f)]
                               | None => []
                               end) (ord (nodup Nat.eq_dec (map (fun cf => f_id (snd cf)) (all_flows fs))))).
