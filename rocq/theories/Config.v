(** Model of config.py: loading, validating, changing and exporting the global configuration. *)
From Coq Require Import String.
From Verif Require Import Base System.

(** What yaml.safe_load can return. Keys that are not strings, dates and NaN/inf are left out. *)
Inductive yv : Type :=
| YNone | YBool (b : bool) | YInt (z : Z) | YFloat (q : Q) | YStr (s : string) | YList (l : list yv) | YDict (d : list (string * yv)).

(** [d.get(k)] / [k in d] of a dict. *)
Definition yget (k : string) (d : list (string * yv)) : option yv := option_map snd (find (fun e => String.eqb (fst e) k) d).
(** [d[k] = v]: an existing key keeps its place. *)
Fixpoint yset (k : string) (v : yv) (d : list (string * yv)) : list (string * yv) :=
  match d with
  | [] => [(k, v)]
  | (k', v') :: r => if String.eqb k' k then (k', v) :: r else (k', v') :: yset k v r
  end.

(** config.py 14-29 [merge_configs]; the dict [defaults] is changed in place, here: returned. [fuel]: any number above the
    nesting depth of [overrides] (Python recurses on it). *)
Fixpoint merge_configs (fuel : nat) (defaults overrides : list (string * yv)) : list (string * yv) :=
  match fuel with
  | O => defaults
  | S n =>
      fold_left (fun acc (e : string * yv) =>
        let (key, value) := e in
        yset key (match value, yget key acc with
                  | YDict o, Some (YDict d) => YDict (merge_configs n d o)
                  | _, _ => value
                  end) acc) overrides defaults
  end.
(** Nesting depth. *)
Fixpoint depth (v : yv) : nat :=
  match v with
  | YDict d => S ((fix go (d : list (string * yv)) : nat := match d with [] => 0 | (_, v) :: r => Nat.max (depth v) (go r) end) d)
  | _ => 0
  end%nat.

(** config.py 64-85: the annotated checks. bool is a subclass of int. *)
Definition levels : list string := ["DEBUG"; "INFO"; "WARNING"; "ERROR"; "CRITICAL"].
Definition is_level (v : yv) : bool := match v with YStr s => existsb (String.eqb s) levels | _ => false end.
Definition is_str (v : yv) : bool := match v with YStr _ => true | _ => false end.
Definition is_bool (v : yv) : bool := match v with YBool _ => true | _ => false end.
Definition is_int (v : yv) : bool := match v with YInt _ | YBool _ => true | _ => false end.
Definition is_float (v : yv) : bool := match v with YFloat _ => true | _ => false end.
Definition logging_fields : list (string * (yv -> bool)) := [("level", is_level); ("file", is_str); ("rich", is_bool)].
Definition modeling_fields : list (string * (yv -> bool)) := [("BIG", is_int); ("EPSILON", is_float); ("BIG_BINARY_BOUND", is_int)].

Definition section : Type := list (string * yv).
(** config.py 32-53 [dataclass_from_dict_with_validation] of a class without nested classes: a missing entry is None; every
    assignment in __init__ is checked by config.py 56-62 [__setattr__]. Other entries of the dict are ignored. *)
Definition init_section (fields : list (string * (yv -> bool))) (data : list (string * yv)) : res section :=
  mapM (fun f : string * (yv -> bool) =>
          let v := match yget (fst f) data with Some v => v | None => YNone end in
          if snd f v then Ok (fst f, v) else Err AssertionError) fields.

(** A section of the configuration in force: an object of its class, or whatever stood in the file if that was no dict
    (config.py 44-51; ConfigSchema has no check for these two attributes). *)
Inductive part : Type := Section (s : section) | AsIs (v : yv).
(** config.py 88-95 [CONFIG]. *)
Record cfg : Type := mkCfg { cg_name : yv; cg_modeling : part; cg_logging : part }.
Definition no_cfg : cfg := mkCfg YNone (AsIs YNone) (AsIs YNone).

Definition init_part (fields : list (string * (yv -> bool))) (v : option yv) : res part :=
  match v with
  | Some (YDict d) => s <- init_section fields d ;; Ok (Section s)
  | Some v => Ok (AsIs v)
  | None => Ok (AsIs YNone)
  end.
(** config.py 32-53 for ConfigSchema. *)
Definition init_config (data : list (string * yv)) : res cfg :=
  lg <- init_part logging_fields (yget "logging" data) ;;
  md <- init_part modeling_fields (yget "modeling" data) ;;
  let name := match yget "config_name" data with Some v => v | None => YNone end in
  _ <- guard (is_str name) AssertionError ;;
  Ok (mkCfg name md lg).

(** config.py 225-241 [setup_logging] as called at the end of load_config: reads three attributes of the logging section and
    opens the log file ([can_open]: whether that works; its OSError is PyException here). *)
Definition setup (can_open : string -> bool) (lg : part) : option exn :=
  match lg with
  | AsIs _ => Some AttributeError
  | Section s => match yget "file" s with Some (YStr f) => if can_open f then None else Some PyException | _ => Some TypeError end
  end.

(** config.py 97-122 [load_config]: [file] is the parsed file, or the exception of finding or parsing it. *)
Definition load_config (can_open : string -> bool) (file : res yv) (st : cfg) : cfg * option exn :=
  match file with
  | Err e => (st, Some e)
  | Ok (YDict d) =>
      match init_config d with
      | Err e => (st, Some e)
      | Ok c => (c, setup can_open (cg_logging c))
      end
  | Ok _ => (st, Some AttributeError)
  end.

(** config.py 56-62: [CONFIG.modeling.NAME = v] and [CONFIG.logging.NAME = v]. A name that is no field is stored unchecked
    (left out: it changes no field); a section that is no object takes no attributes. *)
Definition set_field (fields : list (string * (yv -> bool))) (name : string) (v : yv) (p : part) : part * option exn :=
  match p with
  | AsIs _ => (p, Some AttributeError)
  | Section s =>
      match find (fun f : string * (yv -> bool) => String.eqb (fst f) name) fields with
      | Some f => if snd f v then (Section (yset name v s), None) else (p, Some AssertionError)
      | None => (p, None)
      end
  end.

(** config.py 124-143 [to_dict]: public attributes of the class in the order of their definition. *)
Definition part_value (p : part) : yv := match p with Section s => YDict s | AsIs v => v end.
Definition to_dict (c : cfg) : list (string * yv) :=
  [("config_name", cg_name c); ("modeling", part_value (cg_modeling c)); ("logging", part_value (cg_logging c))].

(** flixOpt/config.yaml. *)
Definition default_yaml : yv :=
  YDict [("config_name", YStr "flixOpt");
         ("logging", YDict [("level", YStr "INFO"); ("file", YStr "flixOpt.log"); ("rich", YBool false)]);
         ("modeling", YDict [("BIG", YInt 10000000); ("EPSILON", YFloat (1 # 100000)); ("BIG_BINARY_BOUND", YInt 100000)])].

(** What the problem builder reads: CONFIG.modeling.EPSILON and CONFIG.modeling.BIG (True is 1). *)
Definition ynum (v : yv) : option Q :=
  match v with YInt z => Some (inject_Z z) | YBool b => Some (if b then 1 else 0) | YFloat q => Some q | _ => None end.
Definition modelling (c : cfg) : res config :=
  match cg_modeling c with
  | AsIs _ => Err AttributeError
  | Section s =>
      match yget "EPSILON" s, yget "BIG" s with
      | Some e, Some b => match ynum e, ynum b with Some e, Some b => Ok (mkConfig e b) | _, _ => Err TypeError end
      | _, _ => Err AttributeError
      end
  end.
