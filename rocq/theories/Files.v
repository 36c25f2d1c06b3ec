(** Model of saving a calculation to files and of loading it again: calculation.py 74-120, 164-172, 294-302, 433-477 and
    results.py 46-70. *)
From Verif Require Import Base System Tree Values.

(** ** JSON text *)

(** The text json.dump writes, cut into its smallest pieces; line breaks and spaces do not count. [TAtom v]: null, true, false, a
    number or a text. [TLine]: a line of a file that is not JSON. Trusted: the characters of one atom. *)
Inductive tok : Type := TOpen | TClose | TLeft | TRight | TComma | TColon | TAtom (v : pyval) | TLine (s : string).

(** json.dump (calculation.py 99, 103, 438, 444, 455): objects and lists with their items separated by commas. Keys that are no
    texts are outside of the model (see Values.v, [json_rt]). *)
Fixpoint sep (l : list (list tok)) : list tok :=
  match l with
  | [] => []
  | a :: r => a ++ match r with [] => [] | _ => TComma :: sep r end
  end.
Fixpoint dump (v : pyval) : list tok :=
  match v with
  | VList l => TLeft :: sep (map dump l) ++ [TRight]
  | VDict d => TOpen :: sep (map (fun kv => TAtom (fst kv) :: TColon :: dump (snd kv)) d) ++ [TClose]
  | _ => [TAtom v]
  end.

(** json.load (results.py 58, 64): reads from left to right and keeps the lists and objects that are still open. [MVal]: a value
    must follow ([true]: or the end of the list just opened), [MKey]: a key, [MColon]: a colon, [MEnd]: a comma or the end. *)
Inductive mode : Set := MVal (first : bool) | MKey (first : bool) | MColon | MEnd.
Inductive frame : Type := FArr (l : list pyval) | FObj (d : list (pyval * pyval)) (k : option pyval).
Record reader : Type := mkReader { rd_mode : mode; rd_open : list frame; rd_out : option pyval }.
Definition give (v : pyval) (s : list frame) : option reader :=
  match s with
  | [] => Some (mkReader MEnd [] (Some v))
  | FArr l :: r => Some (mkReader MEnd (FArr (v :: l) :: r) None)
  | FObj d (Some k) :: r => Some (mkReader MEnd (FObj ((k, v) :: d) None :: r) None)
  | FObj _ None :: _ => None
  end.
Definition read_tok (r : reader) (t : tok) : option reader :=
  match rd_mode r, rd_open r, t with
  | MVal _, s, TAtom v => give v s
  | MVal _, s, TLeft => Some (mkReader (MVal true) (FArr [] :: s) None)
  | MVal _, s, TOpen => Some (mkReader (MKey true) (FObj [] None :: s) None)
  | MVal true, FArr [] :: s, TRight => give (VList []) s
  | MKey _, FObj d None :: s, TAtom k => if str_key k then Some (mkReader MColon (FObj d (Some k) :: s) None) else None
  | MKey true, FObj [] None :: s, TClose => give (VDict []) s
  | MColon, s, TColon => Some (mkReader (MVal false) s None)
  | MEnd, FArr l :: s, TComma => Some (mkReader (MVal false) (FArr l :: s) None)
  | MEnd, FArr l :: s, TRight => give (VList (rev l)) s
  | MEnd, FObj d None :: s, TComma => Some (mkReader (MKey false) (FObj d None :: s) None)
  | MEnd, FObj d None :: s, TClose => give (VDict (dict_of (rev d))) s
  | _, _, _ => None
  end.
Fixpoint read_toks (r : reader) (l : list tok) : option reader :=
  match l with
  | [] => Some r
  | t :: l' => match read_tok r t with Some r' => read_toks r' l' | None => None end
  end.
Definition parse (l : list tok) : option pyval :=
  match read_toks (mkReader (MVal false) [] None) l with
  | Some (mkReader MEnd [] (Some v)) => Some v
  | _ => None
  end.

(** What is left of a text whose writing breaks off: a beginning of it, of its last atom or line perhaps only a part. *)
Inductive cut : list tok -> list tok -> Prop :=
| cut_here l : cut l []
| cut_atom a v l : cut (TAtom a :: l) [TAtom v]
| cut_line a v l : cut (TLine a :: l) [TLine v]
| cut_later t l s : cut l s -> cut (t :: l) (t :: s).

(** ** Files *)

(** A folder and the name of a file in it. Folders exist once _define_path_names has run (calculation.py 87). Names with a slash in
    them are outside of the model, and so are different spellings of the same folder. *)
Definition path : Set := (string * string)%type.
Definition path_eqb (p q : path) : bool := (String.eqb (fst p) (fst q) && String.eqb (snd p) (snd q))%bool.
Definition disk : Type := path -> option (list tok).
Definition set_file (p : path) (t : list tok) (d : disk) : disk := fun q => if path_eqb q p then Some t else d q.

(** calculation.py 89-92, 446; results.py 50-52 uses the same names. *)
Definition log_file (f n : string) : path := (f, cat [n; "_solver.log"]).
Definition data_file (f n : string) : path := (f, cat [n; "_data.json"]).
Definition results_file (f n : string) : path := (f, cat [n; "_results.json"]).
Definition infos_file (f n : string) : path := (f, cat [n; "_infos.yaml"]).
Definition extra_file (f n : string) : path := (f, cat [n; "_results_extra.json"]).

(** What happens to the disk: a file is opened for writing, which empties it; a piece of text is appended to it; or the program stops
    with an exception. Each file is closed before the next is opened (the with-blocks of calculation.py 97-123), so text that is still
    buffered when the process is killed belongs to the last file: the disk is then as after an earlier step of that file. *)
Inductive fop : Type := Create (p : path) | Append (p : path) (t : tok) | Raise (e : exn).
Definition do_op (d : disk) (o : fop) : disk :=
  match o with
  | Create p => set_file p [] d
  | Append p t => set_file p (match d p with Some l => l ++ [t] | None => [t] end) d
  | Raise _ => d
  end.
Definition do_ops (d : disk) (l : list fop) : disk := fold_left do_op l d.
Definition write (p : path) (l : list tok) : list fop := Create p :: map (Append p) l.

(** A solved calculation about to be saved: what results() and flow_system.infos() return, the further results of a
    SegmentedCalculation (calculation.py 447-454), the text yaml.dump writes or the exception raised before
    (calculation.py 108-123), and the lines the solver writes into its log, if it writes one. *)
Record job : Type := mkJob {
  jb_name : string; jb_log : option (list string); jb_results : pyval; jb_data : pyval; jb_extra : option (pyval * pyval);
  jb_infos : res (list string)
}.

(** calculation.py 97-99: the file is emptied, then the values are converted, then they are written. *)
Definition write_json (p : path) (v : pyval) (rest : list fop) : list fop :=
  match conv false false v with
  | Ok j => write p (dump j) ++ rest
  | Err e => [Create p; Raise e]
  end.
(** calculation.py 446-455. *)
Definition write_extra (p : path) (x : pyval * pyval) (rest : list fop) : list fop :=
  match conv false false (fst x), conv false false (snd x) with
  | Ok a, Ok b => write p (dump (VDict [(VStr "Individual Results", a); (VStr "Skalar Results", b)])) ++ rest
  | Err e, _ | _, Err e => [Create p; Raise e]
  end.
(** calculation.py 108-123, 459-474: everything is computed before the file is opened. *)
Definition write_infos (p : path) (i : res (list string)) : list fop :=
  match i with Ok l => write p (map TLine l) | Err e => [Raise e] end.

(** calculation.py 164-172, 294-302: the solver log, then calculation.py 95-123, 433-474. *)
Definition save_ops (f : string) (j : job) : list fop :=
  let n := jb_name j in
  match jb_log j with Some l => write (log_file f n) (map TLine l) | None => [] end ++
  write_json (results_file f n) (jb_results j)
    (write_json (data_file f n) (jb_data j)
       (match jb_extra j with Some x => write_extra (extra_file f n) x | None => fun r => r end
          (write_infos (infos_file f n) (jb_infos j)))).

(** What a run that may stop at any point has done of these steps: all of them or the first few of them; of the step it stopped in,
    a piece of an atom or of a line may have been written, which reads as some other atom or line. *)
Inductive stops : list fop -> list fop -> Prop :=
| stop_here l : stops l []
| stop_atom p a v l : stops (Append p (TAtom a) :: l) [Append p (TAtom v)]
| stop_line p a v l : stops (Append p (TLine a) :: l) [Append p (TLine v)]
| stop_later o l s : stops l s -> stops (o :: l) (o :: s).

(** ** Loading *)

(** results.py 46-66. [yaml]: yaml.safe_load, [None] if the text is no YAML. *)
Inductive load_error : Set := FileNotFound | BadYaml | BadJson.
Record loaded : Type := mkLoaded { ld_infos : pyval; ld_results : pyval; ld_data : pyval }.
Definition load (yaml : list tok -> option pyval) (d : disk) (f n : string) : loaded + load_error :=
  match d (infos_file f n) with
  | None => inr FileNotFound
  | Some ti =>
  match yaml ti with
  | None => inr BadYaml
  | Some i =>
  match d (results_file f n) with
  | None => inr FileNotFound
  | Some tr =>
  match parse tr with
  | None => inr BadJson
  | Some r =>
  match d (data_file f n) with
  | None => inr FileNotFound
  | Some td =>
  match parse td with
  | None => inr BadJson
  | Some a => inl (mkLoaded i (to_arrays r) (to_arrays a))
  end end end end end end.
