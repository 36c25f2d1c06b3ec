(** Reading the figures of a solver's presolve out of its log file. *)
From Coq Require Import String Ascii List NArith ZArith Bool.
From Verif Require Import Base.
Import ListNotations.
Open Scope string_scope.

(** A part of one of the three regular expressions in math_modeling.py 656-680:
    literal text, a group [(\d+)] or a group [(-?\d+)].  Simplification: the
    text is ASCII, so [\d] is one of the ten digits. *)
Inductive piece := Lit (s : string) | Num | Signed.

(** [\d] (math_modeling.py 657-680). *)
Definition is_digit (a : ascii) : bool :=
  let n := N_of_ascii a in (48 <=? n)%N && (n <=? 57)%N.

(** The longest run of digits at the start, and what follows it: what the
    greedy [\d+] takes (math_modeling.py 657-680). *)
Fixpoint take_digits (s : string) : string * string :=
  match s with
  | EmptyString => (EmptyString, EmptyString)
  | String a r =>
      if is_digit a then let (d, r') := take_digits r in (String a d, r')
      else (EmptyString, s)
  end.

(** A literal of the pattern (math_modeling.py 657-680): what follows it. *)
Fixpoint strip (t s : string) : option string :=
  match t, s with
  | EmptyString, _ => Some s
  | String a t', String b s' => if Ascii.eqb a b then strip t' s' else None
  | String _ _, EmptyString => None
  end.

(** The groups of a match at the very start of the text.  Python may give back
    digits taken by [\d+] when the rest of the pattern fails; in the three
    patterns every group is followed by a literal that starts with something
    other than a digit, or ends the pattern, so giving digits back never helps
    and is left out (math_modeling.py 656-660, 673, 680). *)
Fixpoint match_here (ps : list piece) (s : string) : option (list string) :=
  match ps with
  | [] => Some []
  | Lit t :: ps' => match strip t s with Some r => match_here ps' r | None => None end
  | Num :: ps' =>
      match take_digits s with
      | (EmptyString, _) => None
      | (d, r) => match match_here ps' r with Some g => Some (d :: g) | None => None end
      end
  | Signed :: ps' =>
      let (sg, s') := match s with
                      | String "-" s' => ("-", s')
                      | _ => ("", s)
                      end in
      match take_digits s' with
      | (EmptyString, _) => None
      | (d, r) =>
          match match_here ps' r with Some g => Some ((sg ++ d) :: g) | None => None end
      end
  end.

(** [re.search] (math_modeling.py 656, 673, 680): the leftmost match. *)
Fixpoint search (ps : list piece) (s : string) : option (list string) :=
  match match_here ps s with
  | Some g => Some g
  | None => match s with EmptyString => None | String _ r => search ps r end
  end.

(** [int] of a run of digits (math_modeling.py 663-685). *)
Fixpoint int_from (acc : N) (s : string) : N :=
  match s with
  | EmptyString => acc
  | String a r => int_from (10 * acc + (N_of_ascii a - 48)) r
  end.
Definition int_of (s : string) : Z := Z.of_N (int_from 0 s).

(** The line break inside the first pattern (math_modeling.py 657). *)
Definition newline : string := String "010" EmptyString.

(** math_modeling.py 657-658. *)
Definition gurobi_pattern : list piece :=
  [Lit "Presolved: "; Num; Lit " rows, "; Num; Lit " columns, "; Num;
   Lit (" nonzeros" ++ newline ++ "Variable types: "); Num; Lit " continuous, "; Num;
   Lit " integer ("; Num; Lit " binary)"].

(** math_modeling.py 673. *)
Definition cbc_rows_pattern : list piece :=
  [Lit "Presolve "; Num; Lit " ("; Signed; Lit ") rows, "; Num; Lit " ("; Signed;
   Lit ") columns and "; Num].

(** math_modeling.py 680. *)
Definition cbc_integers_pattern : list piece :=
  [Lit "Presolved problem has "; Num; Lit " integers ("; Num; Lit " of which binary)"].

(** The attributes of a SolverLog (math_modeling.py 616-623), [None] where
    Python keeps None. *)
Record presolved := mk_presolved {
  p_cols : option Z; p_continuous : option Z; p_integer : option Z;
  p_binary : option Z; p_rows : option Z; p_nonzeros : option Z }.

(** math_modeling.py 616-623. *)
Definition nothing_read : presolved := mk_presolved None None None None None None.

(** [match.group(i)] turned into a number; groups count from 1
    (math_modeling.py 663-685). *)
Definition group (g : list string) (i : nat) : Z := int_of (nth (i - 1) g "").

(** SolverLog.parse_infos (math_modeling.py 640-694), as a function of the
    solver's name and the content of the log file.  The warning for glpk is
    left out. *)
Definition parse_infos (solver log : string) : res presolved :=
  if String.eqb solver "gurobi" then
    match search gurobi_pattern log with
    | Some g =>
        Ok {| p_rows := Some (group g 1); p_cols := Some (group g 2);
              p_nonzeros := Some (group g 3); p_continuous := Some (group g 4);
              p_integer := Some (group g 5); p_binary := Some (group g 6) |}
    | None => Ok nothing_read
    end
  else if String.eqb solver "cbc" then
    let p := match search cbc_rows_pattern log with
             | Some g =>
                 {| p_rows := Some (group g 1); p_cols := Some (group g 3);
                    p_nonzeros := Some (group g 5); p_continuous := None;
                    p_integer := None; p_binary := None |}
             | None => nothing_read
             end in
    match search cbc_integers_pattern log with
    | Some g =>
        match p_cols p with
        | Some cols =>
            Ok {| p_rows := p_rows p; p_cols := p_cols p; p_nonzeros := p_nonzeros p;
                  p_continuous := Some (cols - group g 1)%Z;
                  p_integer := Some (group g 1); p_binary := Some (group g 2) |}
        | None => Err TypeError
        end
    | None => Ok p
    end
  else if String.eqb solver "glpk" then Ok nothing_read
  else Err PyException.

(** SolverLog.infos (math_modeling.py 626-637), the inner dict. *)
Definition infos (p : presolved) : list (string * option Z) :=
  [("cols", p_cols p); ("continuous", p_continuous p); ("integer", p_integer p);
   ("binary", p_binary p); ("rows", p_rows p); ("nonzeros", p_nonzeros p)].

(** The try/except around SolverLog in GurobiSolver.solve and GlpkSolver.solve
    (math_modeling.py 786-790, 962-966): [None] also when the file cannot be
    opened ([file = None]).  The later replacement of the log by
    gurobi_logtools (792-795) is not modelled. *)
Definition load_log (solver : string) (file : option string) : option presolved :=
  match file with
  | None => None
  | Some log => match parse_infos solver log with Ok p => Some p | Err _ => None end
  end.
