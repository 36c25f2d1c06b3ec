(** Model of nested dictionaries with string keys (results, configurations) and of the functions working on them:
    results.py 482-540 [extract_single_result], [flatten_dict], config.py 14-29 [merge_configs]. *)
From Coq Require Import Ascii.
From Verif Require Import Base System.

(** A dict is a list of keys and values in insertion order, without repeated keys. *)
Inductive tree (A : Type) : Type :=
| Leaf (a : A)
| Node (d : list (string * tree A)).
Arguments Leaf {A} a.
Arguments Node {A} d.

Definition sget {A} (k : string) (d : list (string * A)) : option A :=
  option_map snd (find (fun kv => String.eqb k (fst kv)) d).
(** [dict(items)] and dict displays: a repeated key keeps its place and gets the last value. *)
Definition str_dict {A} (items : list (string * A)) : list (string * A) :=
  fold_left (fun d kv => dict_set (fst kv) (snd kv) d) items [].

(** results.py 482-492 [extract_single_result]. *)
Fixpoint extract {A} (v : tree A) (keys : list string) : option (tree A) :=
  match keys with
  | [] => Some v
  | k :: r => match v with
              | Node d => match sget k d with Some a => extract a r | None => None end
              | Leaf _ => None
              end
  end.

(** results.py 511-540 [flatten_dict]. [new_key not in items] compares a string with pairs and is always true, so the renaming
    branch (533-538) is never reached. *)
Definition join_key (parent k : string) : string := if String.eqb parent "" then k else cat [parent; "__"; k].
Fixpoint flatten {A} (parent : string) (v : tree A) : list (string * A) :=
  match v with
  | Leaf _ => []
  | Node d =>
      str_dict (flat_map (fun kv => match snd kv with
                                    | Leaf a => [(join_key parent (fst kv), a)]
                                    | Node _ => flatten (join_key parent (fst kv)) (snd kv)
                                    end) d)
  end.

(** config.py 14-29 [merge_configs]; the defaults are changed in place and returned. *)
Fixpoint merge {A} (dflt : list (string * tree A)) (o : tree A) : list (string * tree A) :=
  match o with
  | Leaf _ => dflt
  | Node items =>
      fold_left (fun d kv =>
                   match snd kv, sget (fst kv) d with
                   | Node _, Some (Node dd) => dict_set (fst kv) (Node (merge dd (snd kv))) d
                   | _, _ => dict_set (fst kv) (snd kv) d
                   end) items dflt
  end.
Definition merge_configs {A} (dflt user : list (string * tree A)) : list (string * tree A) := merge dflt (Node user).

(** utils.py 86-90 [label_is_valid]. *)
Fixpoint ends_with_underscore (s : string) : bool :=
  match s with
  | EmptyString => false
  | String c EmptyString => Ascii.eqb c "_"%char
  | String _ r => ends_with_underscore r
  end.
Definition starts_with2 (s : string) : bool :=
  match s with String c (String d _) => (Ascii.eqb c "_"%char && Ascii.eqb d "_"%char)%bool | _ => false end.
Fixpoint contains2 (s : string) : bool :=
  match s with
  | EmptyString => false
  | String _ r => (starts_with2 s || contains2 r)%bool
  end.
Definition label_is_valid (s : string) : bool :=
  negb ((match s with String c _ => Ascii.eqb c "_"%char | EmptyString => false end) || ends_with_underscore s || contains2 s)%bool.
