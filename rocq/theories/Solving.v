(** How a calculation hands its program to one of the five solvers and what the solver object keeps of the answer:
    math_modeling.py 475-529, 693-968, 1006-1011, calculation.py 60-93, 164-172, 294-302, structure.py 165-205. *)
From Coq Require Import String List QArith ZArith Bool.
From Verif Require Import Base MathModel Spec Files SolverLog.
Import ListNotations.
Open Scope string_scope.

(** The classes of solvers.py. *)
Inductive kind : Type := Gurobi | Cplex | Highs | Cbc | Glpk.

(** Solver.log: None, a SolverLog, a text that says the log is not read, or what gurobi_logtools made of the file. *)
Inductive log_report : Type := NoLog | Read (p : presolved) | NotRead | Tools (text : string).

(** A solver object (math_modeling.py 707-723 and the constructors 751-759, 816-824, 856-866, 909-917, 940-946).
    GlpkSolver has no time limit and only HighsSolver has threads. [so_logfile]: logfile_name, None after a calculation that saves nothing. *)
Record solver : Type := mkSolver {
  so_kind : kind; so_gap : Q; so_limit : Z; so_threads : Z; so_console : bool; so_logfile : option path;
  so_objective : option Q; so_bound : option Q; so_message : option string; so_log : log_report
}.
Definition new_solver (k : kind) (gap : Q) (limit threads : Z) (console : bool) (log : path) : solver :=
  mkSolver k gap limit threads console (Some log) None None None NoLog.

(** What is given to pyomo: the name of the solver, the program, the options, whether to show output, and the file for the log. *)
Inductive optval : Type := ONum (q : Q) | OInt (z : Z) | OText (s : string) | OFlag (b : bool) | OFile (p : path).
Record request : Type := mkRequest {
  rq_solver : string; rq_program : pmodel; rq_options : list (string * optval); rq_tee : bool; rq_log : option path }.

(** What pyomo gives back (oracle): the values of the variables, status, termination condition and message of the solver, the bound,
    and the content of the log file afterwards, if it can be opened. None: pyomo raises. *)
Record answer : Type := mkAnswer {
  an_values : asg; an_status : string; an_condition : string; an_message : string; an_bound : Q; an_log : option string }.

(** math_modeling.py 763-770, 828-835, 872-890, 921-928, 950-957. HiGHS is told the name of the log file as a text, which is 'None' (in
    the working directory, here the folder "") when there is none; its output is always shown (883). *)
Definition make_request (s : solver) (pm : pmodel) : request :=
  match so_kind s with
  | Gurobi => mkRequest "gurobi" pm [("mipgap", ONum (so_gap s)); ("TimeLimit", OInt (so_limit s))] (so_console s) (so_logfile s)
  | Cplex => mkRequest "cplex" pm [("mipgap", ONum (so_gap s)); ("timelimit", OInt (so_limit s))] (so_console s) (so_logfile s)
  | Highs => mkRequest "highs" pm
               [("mip_rel_gap", ONum (so_gap s)); ("time_limit", OInt (so_limit s));
                ("log_file", OFile (match so_logfile s with Some p => p | None => ("", "None") end));
                ("threads", OInt (so_threads s)); ("parallel", OText "on"); ("presolve", OText "on"); ("output_flag", OFlag true)]
               true None
  | Cbc => mkRequest "cbc" pm [("ratio", ONum (so_gap s)); ("sec", OInt (so_limit s))] (so_console s) (so_logfile s)
  | Glpk => mkRequest "glpk" pm [("mipgap", ONum (so_gap s))] (so_console s) (so_logfile s)
  end.

(** SolverLog(name, file) inside try/except (786-790, 962-966); opening None raises as well. *)
Definition read_log (name : string) (file : option path) (content : option string) : log_report :=
  match file with
  | None => NoLog
  | Some _ => match load_log name content with Some p => Read p | None => NoLog end
  end.

(** math_modeling.py 773-803, 837-840, 891-896, 929-932, 959-966: the solver object after an answer, whether a warning about the end of
    the solution is logged, and whether the call returns. [tools]: gurobi_logtools, None if it is not installed; it raises on a file it
    cannot read (794-795, only ImportError is caught). Warnings about the log file are not counted. *)
Definition take_answer (tools : option (option path -> option string)) (s : solver) (pm : pmodel) (a : answer) : solver * (bool * bool) :=
  let keep (m : string) (l : log_report) :=
    mkSolver (so_kind s) (so_gap s) (so_limit s) (so_threads s) (so_console s) (so_logfile s)
      (Some (objective_value pm (an_values a))) (Some (an_bound a)) (Some m) l in
  match so_kind s with
  | Gurobi =>
      let warn := negb (String.eqb (an_status a) "ok" && String.eqb (an_condition a) "optimal") in
      let l := read_log "gurobi" (so_logfile s) (an_log a) in
      match tools with
      | None => (keep (an_message a) l, (warn, true))
      | Some f => match f (so_logfile s) with
                  | Some t => (keep (an_message a) (Tools t), (warn, true))
                  | None => (keep (an_message a) l, (warn, false))
                  end
      end
  | Cplex => (keep "Not Implemented for CplexSolver yet" NotRead, (false, true))
  | Highs => (keep (an_condition a) NotRead, (negb (String.eqb (an_condition a) "optimal"), true))
  | Cbc => (keep "Not Implemented for CbcSolver yet" NotRead, (false, true))
  | Glpk => (keep (an_status a) (read_log "glpk" (so_logfile s) (an_log a)), (false, true))
  end.

(** A calculation: its name, the file for its log (calculation.py 69-74, 93), its translated program, the solver it was solved with last
    (MathModel.solver) and the values that are its results. *)
Record calc : Type := mkCalc {
  cl_name : string; cl_log : option path; cl_program : option pmodel; cl_solver : option nat; cl_state : option asg }.
Definition new_calc (name : string) : calc := mkCalc name None None None None.

(** Calculations and solvers of one program. [wo_trace]: what was asked of pyomo so far, with the numbers of calculation and solver. *)
Record world : Type := mkWorld { wo_calcs : list calc; wo_solvers : list solver; wo_trace : list (nat * nat * request) }.

Fixpoint update {A} (k : nat) (a : A) (l : list A) : list A :=
  match l, k with
  | [], _ => []
  | _ :: l, O => a :: l
  | b :: l, S k => b :: update k a l
  end.

(** do_modeling() of calculation k, with the program that comes out of it (None: it raises), and solve(solver s, save_results) with the
    answer of pyomo. [save]: the folder, None for False; True is the folder 'results/' (calculation.py 84-85). *)
Inductive op : Type :=
| Model (k : nat) (program : option pmodel)
| Solve (k s : nat) (save : option string) (ans : option answer).

(** calculation.py 82-93 *)
Definition log_path (name : string) (save : option string) (old : option path) : option path :=
  match save with Some f => Some (log_file f name) | None => old end.

(** calculation.py 166: solver.logfile_name = self._paths['log'] *)
Definition set_logfile (p : option path) (s : solver) : solver :=
  mkSolver (so_kind s) (so_gap s) (so_limit s) (so_threads s) (so_console s) p (so_objective s) (so_bound s) (so_message s) (so_log s).

(** PyomoModel._counter (1007): variables and constraints translated so far. Constraints without rows are not counted here; every program
    of a flow system has variables. *)
Definition untranslated (pm : pmodel) : bool :=
  match pm_vars pm, pm_rows pm with [], [] => true | _, _ => false end.

(** One call: the state afterwards and what it returns, a bool that says whether a warning about the end of the solution was logged.
    After a modelling that raises there is nothing to solve (as in MainResults.v). A fresh do_modeling makes a new SystemModel without solver
    (structure.py 33-58). solve(): paths, log file, MathModel.solve (520-526), PyomoModel.solve (1006-1025), the solver's own solve.
    The main results shown at its end (structure.py 89-124) may raise too; that is C67 and left out. *)
Definition do_call (tools : option (option path -> option string)) (w : world) (o : op) : world * res bool :=
  match o with
  | Model k program =>
      match nth_error (wo_calcs w) k with
      | None => (w, Err IndexError)
      | Some c => (mkWorld (update k (mkCalc (cl_name c) (cl_log c) program None None) (wo_calcs w)) (wo_solvers w) (wo_trace w),
                   match program with Some _ => Ok false | None => Err PyException end)
      end
  | Solve k j save ans =>
      match nth_error (wo_calcs w) k, nth_error (wo_solvers w) j with
      | Some c, Some s =>
          let p := log_path (cl_name c) save (cl_log c) in
          let s1 := set_logfile p s in
          match cl_program c with
          | None => (mkWorld (update k (mkCalc (cl_name c) p None (cl_solver c) (cl_state c)) (wo_calcs w)) (update j s1 (wo_solvers w)) (wo_trace w),
                     Err AttributeError)
          | Some pm =>
              let c1 st := mkCalc (cl_name c) p (Some pm) (Some j) st in
              if untranslated pm then
                (mkWorld (update k (c1 None) (wo_calcs w)) (update j s1 (wo_solvers w)) (wo_trace w), Err PyException)
              else
                let tr := (wo_trace w ++ [(k, j, make_request s1 pm)])%list in
                match ans with
                | None => (mkWorld (update k (c1 None) (wo_calcs w)) (update j s1 (wo_solvers w)) tr, Err PyException)
                | Some a =>
                    let '(s2, (warn, fine)) := take_answer tools s1 pm a in
                    (mkWorld (update k (c1 (if fine then Some (an_values a) else None)) (wo_calcs w)) (update j s2 (wo_solvers w)) tr,
                     if fine then Ok warn else Err PyException)
                end
          end
      | _, _ => (w, Err IndexError)
      end
  end.
Definition start (names : list string) (solvers : list solver) : world := mkWorld (map new_calc names) solvers [].
Definition after (tools : option (option path -> option string)) (names : list string) (solvers : list solver) (l : list op) : world :=
  fold_left (fun w o => fst (do_call tools w o)) l (start names solvers).

(** What a calculation tells about its solver: repr(solver) (729-738) in MathModel.infos (531-545), the log there, and 'lower bound' in the main
    results (structure.py 177). The formatting of the numbers is left out. AttributeError without a solver. *)
Record report : Type := mkReport {
  rp_class : kind; rp_gap : Q; rp_console : bool; rp_logfile : option path;
  rp_objective : option Q; rp_bound : option Q; rp_message : option string; rp_log : log_report }.
Definition tell (s : solver) : report :=
  mkReport (so_kind s) (so_gap s) (so_console s) (so_logfile s) (so_objective s) (so_bound s) (so_message s) (so_log s).
Definition reported (w : world) (k : nat) : res report :=
  c <- of_option IndexError (nth_error (wo_calcs w) k) ;;
  j <- of_option AttributeError (cl_solver c) ;;
  s <- of_option IndexError (nth_error (wo_solvers w) j) ;;
  Ok (tell s).
