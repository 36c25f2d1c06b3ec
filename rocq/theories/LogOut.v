(** Log messages: config.py 146-258 (the formatters, [setup_logging], [change_logging_level]) together with what Python's logging does with them: a
    logger passes a record on if its level is high enough, and so does every handler. Strings are texts of ASCII characters. Exceptions attached to a
    record are left out (flixOpt attaches none), and so are handlers of the root logger, which belong to the caller, and how rich renders a message. *)
From Coq Require Import Ascii String List Bool Arith.
From Verif Require Import Base.
Import ListNotations.
Open Scope string_scope.

(** config.py 244-250 [get_logging_level_by_name]; str.upper *)
Definition up_char (a : ascii) : ascii := let n := nat_of_ascii a in if andb (97 <=? n)%nat (n <=? 122)%nat then ascii_of_nat (n - 32) else a.
Fixpoint upper (s : string) : string := match s with EmptyString => EmptyString | String a s => String (up_char a) (upper s) end.
Definition level_by_name (name : string) : res nat :=
  let u := upper name in
  if u =? "DEBUG" then Ok 10%nat else if u =? "INFO" then Ok 20%nat else if u =? "WARNING" then Ok 30%nat else if u =? "ERROR" then Ok 40%nat
  else if u =? "CRITICAL" then Ok 50%nat else Err ValueError.

(** Where a handler writes to (config.py 188-222 [_get_logging_handler]), and its level (0: everything). *)
Inductive sink : Type := Rich | Console | LogFile (path : string).
Record handler : Type := mkHandler { h_sink : sink; h_level : nat }.
Record logger : Type := mkLogger { lg_level : nat; lg_handlers : list handler }.
(** logging.getLogger('flixOpt') at first *)
Definition new_logger : logger := mkLogger 0 [].

(** config.py 188-222. [can_open]: whether the log file can be opened (OSError is PyException here). *)
Definition get_logging_handler (can_open : string -> bool) (log_file : option string) (rich : bool) : res handler :=
  match log_file with
  | None => Ok (mkHandler (if rich then Rich else Console) 0)
  | Some f => _ <- guard (can_open f) PyException ;; Ok (mkHandler (LogFile f) 0)
  end.

(** config.py 225-241. [outer]: the root logger has handlers (then hasHandlers is True even if this logger has none). *)
Definition setup_logging (can_open : string -> bool) (outer : bool) (level : string) (log_file : option string) (rich : bool) (lg : logger) : logger * option exn :=
  match level_by_name level with
  | Err e => (lg, Some e)
  | Ok l =>
      let hs := if orb outer (negb (Nat.eqb (List.length (lg_handlers lg)) 0)) then [] else lg_handlers lg in
      match get_logging_handler can_open None rich with
      | Err e => (mkLogger l hs, Some e)
      | Ok h =>
          let hs := (hs ++ [h])%list in
          match log_file with
          | None => (mkLogger l hs, None)
          | Some f =>
              match get_logging_handler can_open (Some f) false with
              | Err e => (mkLogger l hs, Some e)
              | Ok h => (mkLogger l (hs ++ [h])%list, None)
              end
          end
      end
  end.

(** config.py 253-258 *)
Definition change_logging_level (level : string) (lg : logger) : logger * option exn :=
  match level_by_name level with
  | Err e => (lg, Some e)
  | Ok l => (mkLogger l (map (fun h => mkHandler (h_sink h) l) (lg_handlers lg)), None)
  end.

(** A record: its level as a number and by name, its time as formatted and its message. *)
Record log_record : Type := mkRecord { rc_level : nat; rc_name : string; rc_time : string; rc_text : string }.

(** str.split('\n') and '\n'.join *)
Definition nl : ascii := ascii_of_nat 10.
Fixpoint split_lines (s : string) : list string :=
  match s with
  | EmptyString => [""]
  | String a s => if Ascii.eqb a nl then "" :: split_lines s else match split_lines s with [] => [String a ""] | l :: ls => String a l :: ls end
  end.
Fixpoint join_lines (ls : list string) : string := match ls with [] => "" | [l] => l | l :: ls => l ++ String nl (join_lines ls) end.
(** str.splitlines: also at other line boundaries (ASCII: vertical tab, form feed, carriage return, the separators 28 to 30), a carriage return with a
    following line feed is one of them; no empty last line. *)
Definition boundary (a : ascii) : bool := let n := nat_of_ascii a in orb (andb (10 <=? n)%nat (n <=? 13)%nat) (andb (28 <=? n)%nat (n <=? 30)%nat).
Fixpoint splitlines (s : string) : list string :=
  match s with
  | EmptyString => []
  | String a s' =>
      if boundary a then
        "" :: match s' with
              | String b s'' => if andb (Nat.eqb (nat_of_ascii a) 13) (Nat.eqb (nat_of_ascii b) 10) then splitlines s'' else splitlines s'
              | EmptyString => []
              end
      else match splitlines s' with [] => [String a ""] | l :: ls => String a l :: ls end
  end.
(** str.ljust(n) *)
Fixpoint ljust (n : nat) (s : string) : string :=
  match n, s with
  | O, s => s
  | S n, EmptyString => String (ascii_of_nat 32) (ljust n "")
  | S n, String a s => String a (ljust n s)
  end.

(** config.py 146-162 [MultilineFormater.format] *)
Definition multiline (r : log_record) : string :=
  let message_lines := split_lines (rc_text r) in
  let log_prefix := rc_time r ++ " | " ++ ljust 8 (rc_name r) ++ " |" in
  let first_line := [log_prefix ++ " " ++ List.hd "" message_lines] in
  let lines := if (1 <? List.length message_lines)%nat then (first_line ++ map (fun line => (log_prefix ++ " " ++ line)%string) (List.tl message_lines))%list else first_line in
  join_lines lines.

(** config.py 165-185 [ColoredMultilineFormater.format] *)
Definition esc (s : string) : string := String (ascii_of_nat 27) s.
Definition reset : string := esc "[0m".
Definition colour_of_level (name : string) : string :=
  if name =? "DEBUG" then esc "[32m" else if name =? "INFO" then esc "[34m" else if name =? "WARNING" then esc "[33m" else if name =? "ERROR" then esc "[31m"
  else if name =? "CRITICAL" then esc "[1m" ++ esc "[31m" else reset.
Definition coloured (r : log_record) : string :=
  join_lines (map (fun line => colour_of_level (rc_name r) ++ line ++ reset) (splitlines (multiline r))).

Definition text_for (k : sink) (r : log_record) : string := match k with Rich => rc_text r | Console => coloured r | LogFile _ => multiline r end.
(** Logger.handle and Logger.callHandlers of Python's logging: what a message makes the handlers write, in their order. A level of 0 stands for that of the
    root logger ([root]). *)
Definition emit (root : nat) (lg : logger) (r : log_record) : list (sink * string) :=
  if ((if Nat.eqb (lg_level lg) 0 then root else lg_level lg) <=? rc_level r)%nat
  then map (fun h => (h_sink h, text_for (h_sink h) r)) (filter (fun h => (h_level h <=? rc_level r)%nat) (lg_handlers lg)) else [].

(** The calls a program can make, one after the other; each can fail, and the program can go on. *)
Inductive call : Type := Setup (can_open : string -> bool) (outer : bool) (level : string) (log_file : option string) (rich : bool) | Change (level : string).
Definition perform (c : call) (lg : logger) : logger * option exn :=
  match c with Setup co ou l f r => setup_logging co ou l f r lg | Change l => change_logging_level l lg end.
Definition after (cs : list call) (lg : logger) : logger := fold_left (fun lg c => fst (perform c lg)) cs lg.
