(** Drawing the network: plotting.py 609-712 [visualize_network], called by flow_system.py 162-211 and results.py 362-399 (with the nodes and edges that
    were saved, which are read back as they are). Colours of fonts, the physics of the layout and the texts under 'infos' are left out. *)
From Coq Require Import String List Bool.
From Verif Require Import Base Params Elements System Tree Network.
Import ListNotations.
Open Scope string_scope.

(** A pyvis network: nodes (identifier, label, shape, colour) and arrows (from, to, label). *)
Record mark : Type := mkMark { mk_id : string; mk_label : string; mk_shape : string; mk_colour : string }.
Record net : Type := mkNet { nt_marks : list mark; nt_arrows : list (string * string * string); nt_height : string; nt_buttons : bool }.

(** 'class' as written in the infos (flow_system.py 113). *)
Definition class_text (c : node_class) : string := match c with ABus => "Bus" | AComponent => "Component" end.
(** plotting.py 670-671 *)
Definition shape_of (class : string) : res string := of_option KeyError (sget class [("Bus", "circle"); ("Component", "box")]).
Definition colour_of (class : string) : res string := of_option KeyError (sget class [("Bus", "#393E46"); ("Component", "#00ADB5")]).

(** pyvis: a node that is there is not added again; an arrow needs both ends (assert), and is added in a directed network even if there is one already. *)
Definition add_node (m : mark) (l : list mark) : list mark := if existsb (fun m' => String.eqb (mk_id m') (mk_id m)) l then l else (l ++ [m])%list.
Definition add_edge (marks : list mark) (e : string * string * string) (l : list (string * string * string)) : res (list (string * string * string)) :=
  let '(a, b, _) := e in
  _ <- guard (existsb (fun m => String.eqb (mk_id m) a) marks) AssertionError ;;
  _ <- guard (existsb (fun m => String.eqb (mk_id m) b) marks) AssertionError ;;
  Ok (l ++ [e])%list.

(** plotting.py 666-674, 676-684 *)
Fixpoint all_marks (ns : list (string * (string * string))) (l : list mark) : res (list mark) :=
  match ns with
  | [] => Ok l
  | (id, (label, class)) :: ns => s <- shape_of class ;; c <- colour_of class ;; all_marks ns (add_node (mkMark id label s c) l)
  end.
Fixpoint all_arrows (marks : list mark) (es : list (string * (string * string * string))) (l : list (string * string * string)) : res (list (string * string * string)) :=
  match es with
  | [] => Ok l
  | (_, (label, start, stop)) :: es => l' <- add_edge marks (start, stop, label) l ;; all_arrows marks es l'
  end.

(** What a call leaves behind: files written and files opened in the browser (whether that works or not, lines 700-712), in this order. *)
Inductive trace_of : Type := Wrote (path : string) (n : net) | Opened (path : string).

(** plotting.py 658-712. [installed]: pyvis can be imported. [can_write]: write_html does not raise for this path. [path]: None for False, None and ''.
    [controls]: None for False; the names of the controls are left out. *)
Definition visualize_network (installed : bool) (can_write : string -> bool) (ns : list (string * (string * string))) (es : list (string * (string * string * string)))
    (path : option string) (controls : bool) (show : bool) : list trace_of * res (option net) :=
  if negb installed then ([], Ok None) else
  match (marks <- all_marks ns [] ;; arrows <- all_arrows marks es [] ;; Ok (mkNet marks arrows (if controls then "800px" else "100%") controls)) with
  | Err e => ([], Err e)
  | Ok n =>
      match path, show with
      | None, false => ([], Ok (Some n))
      | _, _ =>
          let p := match path with Some p => p | None => "network.html" end in
          if can_write p then ((Wrote p n :: if show then [Opened p] else [])%list, Ok None) else ([], Err PyException)
      end
  end.

(** flow_system.py 208-211 *)
Definition draw_system (installed : bool) (can_write : string -> bool) (ord : list nat -> list nat) (fs : flow_system) (path : option string) (controls show : bool)
  : list trace_of * res (option net) :=
  visualize_network installed can_write (map (fun kv => (fst kv, (fst (snd kv), class_text (snd (snd kv))))) (nodes ord fs)) (edges ord fs) path controls show.
