(** C92: settings of a solver reach it in every call, and what is reported about a solve. *)
From Coq Require Import String List QArith ZArith Bool Lia.
From Verif Require Import Base MathModel Spec Files SolverLog Solving.
Import ListNotations.
Open Scope string_scope.
Open Scope list_scope.

(** ** Specification: what the history of calls says *)

(** The calls name calculations and solvers that exist. *)
Definition real (names : list string) (ss : list solver) (o : op) : Prop :=
  match o with
  | Model k _ => (k < length names)%nat
  | Solve k j _ _ => (k < length names)%nat /\ (j < length ss)%nat
  end.

(** The program of calculation [k]: that of its last do_modeling. *)
Definition program_of (k : nat) (l : list op) : option pmodel :=
  fold_left (fun p o => match o with Model k' q => if Nat.eqb k' k then q else p | Solve _ _ _ _ => p end) l None.
(** The folder calculation [k] was last told to save to. *)
Definition folder_of (k : nat) (l : list op) : option string :=
  fold_left (fun f o => match o with Solve k' _ (Some g) _ => if Nat.eqb k' k then Some g else f | _ => f end) l None.
(** The solver of the last solve of calculation [k] since it was modelled. *)
Definition solved_with (k : nat) (l : list op) : option nat :=
  fold_left (fun m o => match o with
                        | Model k' _ => if Nat.eqb k' k then None else m
                        | Solve k' j _ _ => if Nat.eqb k' k then Some j else m
                        end) l None.

(** What the five solvers call their settings. *)
Definition solver_name (k : kind) : string :=
  match k with Gurobi => "gurobi" | Cplex => "cplex" | Highs => "highs" | Cbc => "cbc" | Glpk => "glpk" end.
Definition gap_option (k : kind) : string :=
  match k with Gurobi | Cplex | Glpk => "mipgap" | Highs => "mip_rel_gap" | Cbc => "ratio" end.
Definition limit_option (k : kind) : option string :=
  match k with Gurobi => Some "TimeLimit" | Cplex => Some "timelimit" | Highs => Some "time_limit" | Cbc => Some "sec" | Glpk => None end.
Fixpoint option_named (n : string) (l : list (string * optval)) : option optval :=
  match l with [] => None | (m, v) :: l => if String.eqb m n then Some v else option_named n l end.

(** [r] passes on the settings [s] was created with. *)
Definition passes_on (s : solver) (r : request) : Prop :=
  rq_solver r = solver_name (so_kind s) /\
  option_named (gap_option (so_kind s)) (rq_options r) = Some (ONum (so_gap s)) /\
  (forall n, limit_option (so_kind s) = Some n -> option_named n (rq_options r) = Some (OInt (so_limit s))) /\
  (so_kind s = Highs -> option_named "threads" (rq_options r) = Some (OInt (so_threads s))) /\
  (so_kind s <> Highs -> rq_tee r = so_console s).
(** The file the log of [r] goes to. *)
Definition log_goes_to (k : kind) (r : request) : option path :=
  match k with
  | Highs => match option_named "log_file" (rq_options r) with Some (OFile p) => Some p | _ => None end
  | _ => rq_log r
  end.

(** The figures about the solve of [pm] that ended with [a]: the objective is that of the values found, the bound the solver's. *)
Definition shows (pm : pmodel) (a : answer) (r : report) : Prop :=
  rp_objective r = Some (objective_value pm (an_values a)) /\ rp_bound r = Some (an_bound a) /\
  rp_message r = Some (match rp_class r with
                       | Gurobi => an_message a | Highs => an_condition a | Glpk => an_status a
                       | Cplex => "Not Implemented for CplexSolver yet" | Cbc => "Not Implemented for CbcSolver yet"
                       end).

(** The log shown is what can be read from the log file of this solve (C84), if the solver's log is read at all. *)
Definition shows_log (tools : option (option path -> option string)) (a : answer) (r : report) : Prop :=
  let from (name : string) := match rp_logfile r, load_log name (an_log a) with Some _, Some p => Read p | _, _ => NoLog end in
  match rp_class r, tools with
  | Gurobi, None => rp_log r = from "gurobi"
  | Gurobi, Some f => exists t, f (rp_logfile r) = Some t /\ rp_log r = Tools t
  | Glpk, _ => rp_log r = from "glpk"
  | _, _ => rp_log r = NotRead
  end.

Definition not_of (k : nat) (o : op) : Prop := match o with Model k' _ | Solve k' _ _ _ => k' <> k end.
Definition not_with (j : nat) (o : op) : Prop := match o with Model _ _ => True | Solve _ j' _ _ => j' <> j end.

(** ** Invariants *)

Lemma update_same {A} (a : A) : forall l k, (k < length l)%nat -> nth_error (update k a l) k = Some a.
Proof. induction l as [|b l IH]; intros [|k] H; cbn in *; try lia; [reflexivity | apply IH; lia]. Qed.
Lemma update_other {A} (a : A) : forall l k i, i <> k -> nth_error (update k a l) i = nth_error l i.
Proof. induction l as [|b l IH]; intros [|k] [|i] H; cbn; try reflexivity; [congruence | apply IH; congruence]. Qed.
Lemma update_length {A} (a : A) : forall l k, length (update k a l) = length l.
Proof. induction l as [|b l IH]; intros [|k]; cbn; [reflexivity..|]; now rewrite IH. Qed.

Section History.
Variable tools : option (option path -> option string).
Variables (names : list string) (ss : list solver).

Definition settings_of (s : solver) : kind * Q * Z * Z * bool := (so_kind s, so_gap s, so_limit s, so_threads s, so_console s).

Record agrees (l : list op) (w : world) : Prop := {
  ag_len : length (wo_calcs w) = length names;
  ag_slen : length (wo_solvers w) = length ss;
  ag_calc : forall k name, nth_error names k = Some name -> exists c, nth_error (wo_calcs w) k = Some c /\ cl_name c = name /\
              cl_program c = program_of k l /\ cl_log c = option_map (fun f => log_file f name) (folder_of k l) /\
              (forall pm, program_of k l = Some pm -> cl_solver c = solved_with k l);
  ag_solver : forall j s, nth_error ss j = Some s -> exists s', nth_error (wo_solvers w) j = Some s' /\ settings_of s' = settings_of s
}.

Lemma after_snoc l o : after tools names ss (l ++ [o]) = fst (do_call tools (after tools names ss l) o).
Proof. unfold after. now rewrite fold_left_app. Qed.
Lemma program_snoc k l o : program_of k (l ++ [o]) =
  match o with Model k' q => if Nat.eqb k' k then q else program_of k l | Solve _ _ _ _ => program_of k l end.
Proof. unfold program_of. rewrite fold_left_app. reflexivity. Qed.
Lemma folder_snoc k l o : folder_of k (l ++ [o]) =
  match o with Solve k' _ (Some g) _ => if Nat.eqb k' k then Some g else folder_of k l | _ => folder_of k l end.
Proof. unfold folder_of. rewrite fold_left_app. reflexivity. Qed.
Lemma solved_snoc k l o : solved_with k (l ++ [o]) =
  match o with Model k' _ => if Nat.eqb k' k then None else solved_with k l
             | Solve k' j _ _ => if Nat.eqb k' k then Some j else solved_with k l end.
Proof. unfold solved_with. rewrite fold_left_app. reflexivity. Qed.

Lemma take_settings s pm a : settings_of (fst (take_answer tools s pm a)) = settings_of s.
Proof. unfold take_answer, settings_of. destruct (so_kind s) eqn:E; cbn; try now rewrite ?E. destruct tools as [f|]; [destruct (f _)|]; reflexivity. Qed.
Lemma take_kind s pm a : so_kind (fst (take_answer tools s pm a)) = so_kind s.
Proof. pose proof (take_settings s pm a) as H. unfold settings_of in H. now inversion H. Qed.

(** A solve, spelled out. *)
Lemma solve_shape w k j save ans c s : nth_error (wo_calcs w) k = Some c -> nth_error (wo_solvers w) j = Some s ->
  let p := log_path (cl_name c) save (cl_log c) in
  exists c' s' tr, fst (do_call tools w (Solve k j save ans)) = mkWorld (update k c' (wo_calcs w)) (update j s' (wo_solvers w)) tr /\
    cl_name c' = cl_name c /\ cl_log c' = p /\ cl_program c' = cl_program c /\
    (forall pm, cl_program c = Some pm -> cl_solver c' = Some j) /\ settings_of s' = settings_of s /\
    tr = wo_trace w ++ match cl_program c with
                       | Some pm => if untranslated pm then [] else [(k, j, make_request (set_logfile p s) pm)]
                       | None => [] end.
Proof.
  intros Hc Hs p. cbn [do_call]. rewrite Hc, Hs. fold p. destruct (cl_program c) as [pm|] eqn:Ep.
  - destruct (untranslated pm).
    + eexists _, _, _. split; [reflexivity|]. rewrite app_nil_r. repeat split; reflexivity.
    + destruct ans as [a|].
      * pose proof (take_settings (set_logfile p s) pm a) as T.
        destruct (take_answer tools (set_logfile p s) pm a) as [s2 [wn fine]]. cbn [fst] in *.
        eexists _, _, _. split; [reflexivity|]. repeat split; try reflexivity. now rewrite T.
      * eexists _, _, _. split; [reflexivity|]. repeat split; reflexivity.
  - eexists _, _, _. split; [reflexivity|]. rewrite app_nil_r. repeat split; try reflexivity. discriminate.
Qed.

Lemma agrees_after : forall l, Forall (real names ss) l -> agrees l (after tools names ss l).
Proof.
  induction l as [|o l IH] using rev_ind; intros R.
  - constructor; cbn.
    + apply map_length.
    + reflexivity.
    + intros k name H. exists (new_calc name). rewrite nth_error_map, H. cbn. repeat split; discriminate.
    + intros j s H. exists s. now split.
  - apply Forall_app in R. destruct R as [R Ro]. apply Forall_inv in Ro. specialize (IH R). rewrite after_snoc.
    set (w := after tools names ss l) in *. destruct IH as [L SL C SO]. destruct o as [k q | k j save ans]; cbn in Ro.
    + assert (K : exists nm, nth_error names k = Some nm).
      { destruct (nth_error names k) eqn:E; [eauto|]. apply nth_error_None in E. lia. }
      destruct K as [nm K]. destruct (C k nm K) as (c & Hc & N & P & G & S0).
      cbn [do_call]. rewrite Hc. cbn [fst]. constructor; cbn [wo_calcs wo_solvers].
      * rewrite update_length. exact L.
      * exact SL.
      * intros i name Hi. rewrite program_snoc, folder_snoc, solved_snoc. destruct (Nat.eqb_spec k i) as [<-|D].
        -- eexists. split; [apply update_same; lia|]. cbn. rewrite Hi in K. injection K as ->. repeat split; [exact N | exact G].
        -- destruct (C i name Hi) as (c' & Hc' & X). exists c'. split; [rewrite update_other; [exact Hc' | congruence] | exact X].
      * exact SO.
    + destruct Ro as [Rk Rj].
      assert (K : exists nm, nth_error names k = Some nm).
      { destruct (nth_error names k) eqn:E; [eauto|]. apply nth_error_None in E. lia. }
      destruct K as [nm K]. destruct (C k nm K) as (c & Hc & N & P & G & S0).
      assert (J : exists s, nth_error ss j = Some s).
      { destruct (nth_error ss j) eqn:E; [eauto|]. apply nth_error_None in E. lia. }
      destruct J as [s J]. destruct (SO j s J) as (s1 & Hs & T).
      destruct (solve_shape w k j save ans c s1 Hc Hs) as (c' & s' & tr & E & N' & L' & P' & S' & T' & _). rewrite E.
      constructor; cbn [wo_calcs wo_solvers].
      * rewrite update_length. exact L.
      * rewrite update_length. exact SL.
      * intros i name Hi. rewrite program_snoc, folder_snoc, solved_snoc. destruct (Nat.eqb_spec k i) as [<-|D].
        -- exists c'. split; [apply update_same; lia|]. rewrite Hi in K. injection K as ->. split; [congruence|]. split; [congruence|]. split.
           ++ rewrite L', N, G. destruct save; reflexivity.
           ++ intros pm HP. apply (S' pm). congruence.
        -- destruct (C i name Hi) as (c2 & Hc2 & X). exists c2. split; [rewrite update_other; [exact Hc2 | congruence] |]. destruct save; exact X.
      * intros i si Hi. destruct (Nat.eq_dec i j) as [->|D].
        -- exists s'. split; [apply update_same; lia|]. rewrite J in Hi. injection Hi as ->. congruence.
        -- destruct (SO i si Hi) as (s2 & H2 & X). exists s2. split; [rewrite update_other; [exact H2 | exact D] | exact X].
Qed.
End History.

Lemma make_passes s s' pm : settings_of s' = settings_of s -> passes_on s (make_request s' pm) /\ rq_program (make_request s' pm) = pm /\
  log_goes_to (so_kind s) (make_request s' pm) =
    match so_kind s with Highs => Some (match so_logfile s' with Some p => p | None => ("", "None") end) | _ => so_logfile s' end.
Proof.
  unfold settings_of. intros H. injection H as K G L T C. unfold passes_on, make_request. rewrite K.
  destruct (so_kind s) eqn:E; cbn; rewrite ?G, ?L, ?T, ?C; repeat split; try reflexivity; try congruence; intros n Hn; inversion Hn; subst; cbn; reflexivity.
Qed.

(** ** C92: what is asked of pyomo *)
(** After any history of calls, a solve asks pyomo once, for the program of this calculation and with the settings the solver was created
    with, whatever it was used for before. The log goes to the file of this calculation, never to the name given to the solver;
    without a folder there is no log, but HiGHS writes one to a file called None. *)
Theorem C92_asked : forall tools names ss l k j save ans name s pm,
  Forall (real names ss) l -> nth_error names k = Some name -> nth_error ss j = Some s ->
  program_of k l = Some pm -> pm_vars pm <> [] \/ pm_rows pm <> [] ->
  let l' := l ++ [Solve k j save ans] in
  exists r, wo_trace (after tools names ss l') = wo_trace (after tools names ss l) ++ [(k, j, r)] /\
    rq_program r = pm /\ passes_on s r /\
    log_goes_to (so_kind s) r =
      match folder_of k l', so_kind s with
      | Some f, _ => Some (log_file f name)
      | None, Highs => Some ("", "None")
      | None, _ => None
      end.
Proof.
  intros tools names ss l k j save ans name s pm R Hk Hj HP V l'.
  destruct (agrees_after tools names ss l R) as [L SL C SO].
  destruct (C k name Hk) as (c & Hc & N & P & G & _). destruct (SO j s Hj) as (s1 & Hs & T).
  destruct (solve_shape tools _ k j save ans c s1 Hc Hs) as (c' & s' & tr & E & _ & _ & _ & _ & _ & Etr).
  unfold l'. rewrite after_snoc, E. cbn [wo_trace]. rewrite P, HP in Etr.
  assert (U : untranslated pm = false) by (unfold untranslated; destruct (pm_vars pm), (pm_rows pm); (reflexivity || destruct V; congruence)).
  rewrite U in Etr. eexists. split; [exact Etr|].
  destruct (make_passes s (set_logfile (log_path (cl_name c) save (cl_log c)) s1) pm) as (A & B & D); [exact T|].
  split; [exact B|]. split; [exact A|]. rewrite D. cbn [so_logfile set_logfile]. rewrite folder_snoc, N, G, Nat.eqb_refl.
  destruct save as [f|]; cbn [log_path]; [now destruct (so_kind s)|]. destruct (folder_of k l); cbn; now destruct (so_kind s).
Qed.
Print Assumptions C92_asked.

(** A program without variables and rows is not given to pyomo at all: the solve raises. *)
Theorem C92_empty : forall tools names ss l k j save ans name s pm,
  Forall (real names ss) l -> nth_error names k = Some name -> nth_error ss j = Some s ->
  program_of k l = Some pm -> pm_vars pm = [] -> pm_rows pm = [] ->
  wo_trace (after tools names ss (l ++ [Solve k j save ans])) = wo_trace (after tools names ss l)
  /\ snd (do_call tools (after tools names ss l) (Solve k j save ans)) = Err PyException.
Proof.
  intros tools names ss l k j save ans name s pm R Hk Hj HP V W. destruct (agrees_after tools names ss l R) as [L SL C SO].
  destruct (C k name Hk) as (c & Hc & N & P & G & _). destruct (SO j s Hj) as (s1 & Hs & T).
  rewrite after_snoc. cbn [do_call]. rewrite Hc, Hs, P, HP. unfold untranslated. rewrite V, W. split; reflexivity.
Qed.
Print Assumptions C92_empty.

(** Modelling asks nothing. *)
Theorem C92_asked_once : forall tools names ss l k q,
  wo_trace (after tools names ss (l ++ [Model k q])) = wo_trace (after tools names ss l).
Proof. intros. rewrite after_snoc. cbn. destruct (nth_error _ k); reflexivity. Qed.
Print Assumptions C92_asked_once.

Definition ex_program (q : Q) : pmodel :=
  mkPModel [mkPVar "x" [mkPEntry false None (Some q) None]] [mkRow [(1%Q, "x", 0%nat)] false 9] [(2%Q, "x", 0%nat)].
Definition ex_answer (q : Q) (c : string) : answer := mkAnswer (fun _ _ => q) "ok" c "message" (2 * q) None.
Definition ex_highs : solver := new_solver Highs (1 # 100) 300 4 false ("", "highs.log").
Definition ex_cbc : solver := new_solver Cbc (1 # 50) 60 0 true ("", "cbc.log").

Example C92_asked_applies :
  let l := [Model 0 (Some (ex_program 1)); Model 1 (Some (ex_program 2)); Solve 0 0 (Some "out") (Some (ex_answer 1 "optimal"))] in
  Forall (real ["A"; "B"] [ex_highs; ex_cbc]) l /\ program_of 1 l = Some (ex_program 2) /\
  map (fun t => log_goes_to Highs (snd t)) (wo_trace (after None ["A"; "B"] [ex_highs; ex_cbc] (l ++ [Solve 1 0 None None]))) =
    [Some ("out", "A_solver.log"); Some ("", "None")] /\
  map (fun t => option_named "time_limit" (rq_options (snd t))) (wo_trace (after None ["A"; "B"] [ex_highs; ex_cbc] (l ++ [Solve 1 0 None None]))) =
    [Some (OInt 300); Some (OInt 300)].
Proof. split; [repeat constructor|]. split; [reflexivity|]. split; vm_compute; reflexivity. Qed.

Example C92_empty_applies :
  let l := [Model 0 (Some (mkPModel [] [] []))] in
  Forall (real ["A"] [ex_cbc]) l /\ program_of 0 l = Some (mkPModel [] [] []) /\ wo_trace (after None ["A"] [ex_cbc] (l ++ [Solve 0 0 None None])) = [].
Proof. split; [repeat constructor|]. split; reflexivity. Qed.

(** Full statement about the output: it is shown exactly if the user wants it. HiGHS always shows it (math_modeling.py 878, 883). *)
Definition C92_console_full : Prop :=
  forall tools names ss l k j save ans s pm,
  Forall (real names ss) l -> (k < length names)%nat -> nth_error ss j = Some s -> program_of k l = Some pm -> pm_vars pm <> [] ->
  exists r, wo_trace (after tools names ss (l ++ [Solve k j save ans])) = wo_trace (after tools names ss l) ++ [(k, j, r)] /\
    rq_tee r = so_console s.
Theorem C92_console_refuted : ~ C92_console_full.
Proof.
  intros F. destruct (F None ["A"] [ex_highs] [Model 0 (Some (ex_program 1))] 0%nat 0%nat None None ex_highs (ex_program 1)) as (r & E & T);
    [repeat constructor | cbn; lia | reflexivity | reflexivity | discriminate |].
  vm_compute in E. injection E as <-. discriminate T.
Qed.
Print Assumptions C92_console_refuted.

(** ** C92: what is reported about a solve *)

Lemma reported_is tools names ss l k name pm j s : Forall (real names ss) l -> nth_error names k = Some name -> program_of k l = Some pm ->
  solved_with k l = Some j -> nth_error (wo_solvers (after tools names ss l)) j = Some s ->
  reported (after tools names ss l) k = Ok (tell s).
Proof.
  intros R Hk HP HS Hj. destruct (agrees_after tools names ss l R) as [L SL C SO]. destruct (C k name Hk) as (c & Hc & N & P & G & S0).
  unfold reported. rewrite Hc. cbn. rewrite (S0 pm HP), HS. cbn. rewrite Hj. reflexivity.
Qed.

(** Calculations that were solved with the same solver object report the same figures, those of the last use of the solver: also the
    segments of a SegmentedCalculation, which share one. *)
Theorem C92_shared : forall tools names ss l k k' j pm pm',
  Forall (real names ss) l -> program_of k l = Some pm -> program_of k' l = Some pm' ->
  solved_with k l = Some j -> solved_with k' l = Some j -> (k < length names)%nat -> (k' < length names)%nat -> (j < length ss)%nat ->
  exists r, reported (after tools names ss l) k = Ok r /\ reported (after tools names ss l) k' = Ok r.
Proof.
  intros tools names ss l k k' j pm pm' R P P' W W' K K' J. destruct (agrees_after tools names ss l R) as [L SL C SO].
  assert (X : exists s, nth_error (wo_solvers (after tools names ss l)) j = Some s).
  { destruct (nth_error (wo_solvers (after tools names ss l)) j) eqn:E; [eauto|]. apply nth_error_None in E. lia. }
  destruct X as [s X]. destruct (nth_error names k) as [n|] eqn:Ek; [|apply nth_error_None in Ek; lia].
  destruct (nth_error names k') as [n'|] eqn:Ek'; [|apply nth_error_None in Ek'; lia].
  exists (tell s). split; [exact (reported_is tools names ss l k n pm j s R Ek P W X) | exact (reported_is tools names ss l k' n' pm' j s R Ek' P' W' X)].
Qed.
Print Assumptions C92_shared.

Lemma take_shows tools s pm a s2 warn : take_answer tools s pm a = (s2, (warn, true)) -> shows pm a (tell s2).
Proof.
  intros H. pose proof (take_kind tools s pm a) as K. rewrite H in K. cbn in K. unfold shows, tell. cbn. rewrite K.
  unfold take_answer in H. destruct (so_kind s); try (inversion H; subst; cbn; repeat split; reflexivity).
  destruct tools as [f|]; [destruct (f _)|]; inversion H; subst; cbn; repeat split; reflexivity.
Qed.

Lemma take_shows_log tools s pm a s2 warn : take_answer tools s pm a = (s2, (warn, true)) -> shows_log tools a (tell s2).
Proof.
  intros H. pose proof (take_kind tools s pm a) as K. rewrite H in K. cbn in K. unfold shows_log, tell. cbn. rewrite K.
  unfold take_answer, read_log in H. destruct (so_kind s); try (inversion H; subst; cbn; reflexivity).
  destruct tools as [f|]; [destruct (f (so_logfile s)) as [t|] eqn:F|]; inversion H; subst; cbn; [exists t; now split|].
  destruct (so_logfile s); [destruct (load_log _ _)|]; reflexivity.
Qed.

(** Calls that neither use solver [j] nor concern [k] change neither. *)
Lemma solver_stays tools j : forall w o, not_with j o -> nth_error (wo_solvers (fst (do_call tools w o))) j = nth_error (wo_solvers w) j.
Proof.
  intros w [k q | k i save ans] H; cbn [do_call not_with] in *.
  - destruct (nth_error (wo_calcs w) k); reflexivity.
  - destruct (nth_error (wo_calcs w) k) as [c|] eqn:Hc; [|reflexivity]. destruct (nth_error (wo_solvers w) i) as [s|] eqn:Hs; [|reflexivity].
    destruct (solve_shape tools w k i save ans c s Hc Hs) as (c' & s' & tr & E & _). cbn [do_call] in E. rewrite Hc, Hs in E. rewrite E. cbn.
    apply update_other. congruence.
Qed.
Lemma calc_stays tools k : forall w o, not_of k o -> nth_error (wo_calcs (fst (do_call tools w o))) k = nth_error (wo_calcs w) k.
Proof.
  intros w [k' q | k' i save ans] H; cbn [do_call not_of] in *.
  - destruct (nth_error (wo_calcs w) k'); [cbn; apply update_other; congruence | reflexivity].
  - destruct (nth_error (wo_calcs w) k') as [c|] eqn:Hc; [|reflexivity]. destruct (nth_error (wo_solvers w) i) as [s|] eqn:Hs; [|reflexivity].
    destruct (solve_shape tools w k' i save ans c s Hc Hs) as (c' & s' & tr & E & _). cbn [do_call] in E. rewrite Hc, Hs in E. rewrite E. cbn.
    apply update_other. congruence.
Qed.
Lemma solvers_stay tools names ss j : forall l2 l, Forall (not_with j) l2 ->
  nth_error (wo_solvers (after tools names ss (l ++ l2))) j = nth_error (wo_solvers (after tools names ss l)) j.
Proof.
  induction l2 as [|o l2 IH] using rev_ind; intros l H; [now rewrite app_nil_r|]. apply Forall_app in H. destruct H as [H H1]. apply Forall_inv in H1.
  rewrite app_assoc, after_snoc, solver_stays by exact H1. now apply IH.
Qed.
Lemma calcs_stay tools names ss k : forall l2 l, Forall (not_of k) l2 ->
  nth_error (wo_calcs (after tools names ss (l ++ l2))) k = nth_error (wo_calcs (after tools names ss l)) k.
Proof.
  induction l2 as [|o l2 IH] using rev_ind; intros l H; [now rewrite app_nil_r|]. apply Forall_app in H. destruct H as [H H1]. apply Forall_inv in H1.
  rewrite app_assoc, after_snoc, calc_stays by exact H1. now apply IH.
Qed.

(** The state right after a solve that returned. *)
Lemma solved_state tools names ss l k j save a warn name s pm :
  Forall (real names ss) l -> nth_error names k = Some name -> nth_error ss j = Some s -> program_of k l = Some pm ->
  snd (do_call tools (after tools names ss l) (Solve k j save (Some a))) = Ok warn ->
  exists c s2, nth_error (wo_calcs (after tools names ss (l ++ [Solve k j save (Some a)]))) k = Some c /\ cl_solver c = Some j /\
    cl_state c = Some (an_values a) /\
    nth_error (wo_solvers (after tools names ss (l ++ [Solve k j save (Some a)]))) j = Some s2 /\ shows pm a (tell s2) /\ so_kind s2 = so_kind s /\
    exists s1, so_kind s1 = so_kind s /\ take_answer tools s1 pm a = (s2, (warn, true)).
Proof.
  intros R Hk Hj HP. destruct (agrees_after tools names ss l R) as [L SL C SO].
  destruct (C k name Hk) as (c & Hc & N & P & G & S0). destruct (SO j s Hj) as (s1 & Hs & T).
  assert (K1 : so_kind s1 = so_kind s) by (unfold settings_of in T; now inversion T).
  assert (Lk : (k < length (wo_calcs (after tools names ss l)))%nat) by (apply nth_error_Some; congruence).
  assert (Lj : (j < length (wo_solvers (after tools names ss l)))%nat) by (apply nth_error_Some; congruence).
  rewrite after_snoc. cbn [do_call]. rewrite Hc, Hs, P, HP. destruct (untranslated pm); cbn; [discriminate|].
  set (sx := set_logfile (log_path (cl_name c) save (cl_log c)) s1).
  assert (Kx : so_kind sx = so_kind s) by exact K1.
  pose proof (take_kind tools sx pm a) as TK. destruct (take_answer tools sx pm a) as [s2 [wn fine]] eqn:E.
  cbn [fst snd] in TK |- *. destruct fine; [|discriminate]. intros H. injection H as <-. eexists _, s2. cbn [wo_calcs wo_solvers].
  split; [apply update_same; exact Lk|]. cbn. split; [reflexivity|]. split; [reflexivity|]. split; [apply update_same; exact Lj|].
  split; [exact (take_shows tools sx pm a s2 wn E)|]. split; [congruence|]. exists sx. split; [exact Kx | exact E].
Qed.

(** Full statement: a calculation reports the figures of its own last solve. *)
Definition C92_figures_full : Prop :=
  forall tools names ss l1 l2 k j save a warn pm,
  Forall (real names ss) (l1 ++ Solve k j save (Some a) :: l2) -> program_of k l1 = Some pm ->
  snd (do_call tools (after tools names ss l1) (Solve k j save (Some a))) = Ok warn ->
  Forall (not_of k) l2 ->
  exists r, reported (after tools names ss (l1 ++ Solve k j save (Some a) :: l2)) k = Ok r /\ shows pm a r.

(** False when the solver was used for another calculation since. *)
Theorem C92_figures_refuted : ~ C92_figures_full.
Proof.
  intros F.
  destruct (F None ["A"; "B"] [ex_highs] [Model 0 (Some (ex_program 1))]
              [Model 1 (Some (ex_program 2)); Solve 1 0 None (Some (ex_answer 2 "optimal"))] 0%nat 0%nat None (ex_answer 1 "optimal") false (ex_program 1)) as (r & E & S0).
  - repeat constructor.
  - reflexivity.
  - reflexivity.
  - repeat constructor; discriminate.
  - vm_compute in E. injection E as <-. destruct S0 as (O & _). vm_compute in O. discriminate O.
Qed.
Print Assumptions C92_figures_refuted.

(** It reports its own solve as long as its solver is not used again; its results are the values found, in any case. *)
Theorem C92_figures_partial : forall tools names ss l1 l2 k j save a warn pm,
  Forall (real names ss) (l1 ++ Solve k j save (Some a) :: l2) -> program_of k l1 = Some pm ->
  snd (do_call tools (after tools names ss l1) (Solve k j save (Some a))) = Ok warn ->
  Forall (not_of k) l2 ->
  let w := after tools names ss (l1 ++ Solve k j save (Some a) :: l2) in
  (exists c, nth_error (wo_calcs w) k = Some c /\ cl_state c = Some (an_values a)) /\
  (Forall (not_with j) l2 -> exists r, reported w k = Ok r /\ shows pm a r /\ shows_log tools a r).
Proof.
  intros tools names ss l1 l2 k j save a warn pm R HP O NK w.
  apply Forall_app in R. destruct R as [R1 R2]. pose proof (Forall_inv R2) as [Rk Rj].
  destruct (nth_error names k) as [name|] eqn:Ek; [|apply nth_error_None in Ek; lia].
  destruct (nth_error ss j) as [s|] eqn:Ej; [|apply nth_error_None in Ej; lia].
  destruct (solved_state tools names ss l1 k j save a warn name s pm R1 Ek Ej HP O) as (c & s2 & Hc & HS & Hst & Hs & SH & _ & s1 & _ & TA).
  assert (E : l1 ++ Solve k j save (Some a) :: l2 = (l1 ++ [Solve k j save (Some a)]) ++ l2) by now rewrite <- app_assoc.
  unfold w. rewrite E. split.
  - exists c. split; [now rewrite calcs_stay | exact Hst].
  - intros NJ. exists (tell s2). split; [|split; [exact SH | exact (take_shows_log tools s1 pm a s2 warn TA)]]. unfold reported. rewrite calcs_stay, Hc by exact NK. cbn. rewrite HS. cbn.
    rewrite solvers_stay, Hs by exact NJ. reflexivity.
Qed.
Print Assumptions C92_figures_partial.

(** Solves that end without an answer of the solver change no figures, even those of the solver they were made with. *)
Definition no_answer_from (j : nat) (o : op) : Prop := not_with j o \/ exists k save, o = Solve k j save None.
Definition same_figures (s s' : solver) : Prop :=
  so_kind s' = so_kind s /\ so_objective s' = so_objective s /\ so_bound s' = so_bound s /\ so_message s' = so_message s /\ so_log s' = so_log s.
Lemma figures_stay tools j : forall w o s, no_answer_from j o -> nth_error (wo_solvers w) j = Some s ->
  exists s', nth_error (wo_solvers (fst (do_call tools w o))) j = Some s' /\ same_figures s s'.
Proof.
  intros w o s [H|(k & save & ->)] E; [exists s; rewrite solver_stays by exact H; split; [exact E|repeat split]|].
  assert (L : (j < length (wo_solvers w))%nat) by (apply nth_error_Some; rewrite E; discriminate).
  cbn [do_call]. rewrite E. destruct (nth_error (wo_calcs w) k) as [c|]; [|exists s; split; [exact E|repeat split]].
  exists (set_logfile (log_path (cl_name c) save (cl_log c)) s). split; [|repeat split].
  destruct (cl_program c) as [pm|]; [destruct (untranslated pm)|]; cbn [fst wo_solvers]; apply update_same; exact L.
Qed.
Lemma figures_kept tools names ss j : forall l2 l s, Forall (no_answer_from j) l2 -> nth_error (wo_solvers (after tools names ss l)) j = Some s ->
  exists s', nth_error (wo_solvers (after tools names ss (l ++ l2))) j = Some s' /\ same_figures s s'.
Proof.
  induction l2 as [|o l2 IH] using rev_ind; intros l s H E; [exists s; rewrite app_nil_r; split; [exact E|repeat split]|]. apply Forall_app in H. destruct H as [H H1]. apply Forall_inv in H1.
  destruct (IH l s H E) as (s1 & E1 & F1 & F2 & F3 & F4 & F5). rewrite app_assoc, after_snoc. destruct (figures_stay tools j _ o s1 H1 E1) as (s2 & E2 & G1 & G2 & G3 & G4 & G5).
  exists s2. split; [exact E2|]. repeat split; congruence.
Qed.
Theorem C92_unanswered : forall tools names ss l1 l2 k j save a warn pm,
  Forall (real names ss) (l1 ++ Solve k j save (Some a) :: l2) -> program_of k l1 = Some pm ->
  snd (do_call tools (after tools names ss l1) (Solve k j save (Some a))) = Ok warn ->
  Forall (not_of k) l2 -> Forall (no_answer_from j) l2 ->
  exists r, reported (after tools names ss (l1 ++ Solve k j save (Some a) :: l2)) k = Ok r /\ shows pm a r.
Proof.
  intros tools names ss l1 l2 k j save a warn pm R HP O NK NJ.
  apply Forall_app in R. destruct R as [R1 R2]. pose proof (Forall_inv R2) as [Rk Rj].
  destruct (nth_error names k) as [name|] eqn:Ek; [|apply nth_error_None in Ek; lia].
  destruct (nth_error ss j) as [s|] eqn:Ej; [|apply nth_error_None in Ej; lia].
  destruct (solved_state tools names ss l1 k j save a warn name s pm R1 Ek Ej HP O) as (c & s2 & Hc & HS & Hst & Hs & SH & _).
  assert (E : l1 ++ Solve k j save (Some a) :: l2 = (l1 ++ [Solve k j save (Some a)]) ++ l2) by now rewrite <- app_assoc.
  rewrite E. destruct (figures_kept tools names ss j l2 _ s2 NJ Hs) as (s3 & E3 & F1 & F2 & F3 & F4 & _).
  exists (tell s3). split; [unfold reported; rewrite calcs_stay, Hc by exact NK; cbn; rewrite HS; cbn; rewrite E3; reflexivity|].
  destruct SH as (S1 & S2 & S3). unfold shows, tell in *. cbn [rp_objective rp_bound rp_message rp_class] in *. rewrite F1, F2, F3, F4. repeat split; assumption.
Qed.
Print Assumptions C92_unanswered.
Example C92_unanswered_applies :
  let l1 := [Model 0 (Some (ex_program 1)); Model 1 (Some (ex_program 2))] in
  let l2 := [Solve 1 0 (Some "out") None] in
  Forall (real ["A"; "B"] [ex_highs]) (l1 ++ Solve 0 0 None (Some (ex_answer 1 "optimal")) :: l2) /\ program_of 0 l1 = Some (ex_program 1) /\
  snd (do_call None (after None ["A"; "B"] [ex_highs] l1) (Solve 0 0 None (Some (ex_answer 1 "optimal")))) = Ok false /\
  Forall (not_of 0) l2 /\ Forall (no_answer_from 0) l2 /\ ~ Forall (not_with 0) l2.
Proof.
  cbn [List.app]. repeat split; try (repeat constructor; discriminate).
  - constructor; [right; exists 1%nat, (Some "out"); reflexivity|constructor].
  - intros H. apply Forall_inv in H. apply H. reflexivity.
Qed.

Example C92_figures_applies :
  let l1 := [Model 0 (Some (ex_program 1)); Model 1 (Some (ex_program 2))] in
  let l2 := [Solve 1 1 (Some "out") (Some (ex_answer 2 "infeasible"))] in
  Forall (real ["A"; "B"] [ex_highs; ex_cbc]) (l1 ++ Solve 0 0 None (Some (ex_answer 1 "maxTimeLimit")) :: l2) /\
  program_of 0 l1 = Some (ex_program 1) /\
  snd (do_call None (after None ["A"; "B"] [ex_highs; ex_cbc] l1) (Solve 0 0 None (Some (ex_answer 1 "maxTimeLimit")))) = Ok true /\
  Forall (not_of 0) l2 /\ Forall (not_with 0) l2 /\
  objective_value (ex_program 1) (an_values (ex_answer 1 "maxTimeLimit")) == 2.
Proof. cbn [List.app]. repeat split; try (repeat constructor; discriminate); reflexivity. Qed.

(** ** C92: warnings *)

(** Full statement: whoever gets a solution that is not the optimum is warned. *)
Definition C92_warned_full : Prop :=
  forall tools names ss l k j save a warn,
  Forall (real names ss) l -> (k < length names)%nat -> (j < length ss)%nat ->
  snd (do_call tools (after tools names ss l) (Solve k j save (Some a))) = Ok warn ->
  an_condition a <> "optimal" -> warn = true.

(** CBC (and CPLEX and GLPK) end without a word. *)
Theorem C92_warned_refuted : ~ C92_warned_full.
Proof.
  intros F. pose proof (F None ["A"] [ex_cbc] [Model 0 (Some (ex_program 1))] 0%nat 0%nat None (ex_answer 3 "maxTimeLimit") false) as X.
  assert (false = true) as D; [|discriminate D]. apply X; [repeat constructor | cbn; lia | cbn; lia | reflexivity | discriminate].
Qed.
Print Assumptions C92_warned_refuted.

(** With Gurobi and HiGHS the warning comes exactly if the solution is not reported as the optimum (Gurobi: or the status is not ok). *)
Theorem C92_warned_partial : forall tools names ss l k j save a warn s,
  Forall (real names ss) l -> (k < length names)%nat -> nth_error ss j = Some s ->
  snd (do_call tools (after tools names ss l) (Solve k j save (Some a))) = Ok warn ->
  match so_kind s with
  | Highs => warn = true <-> an_condition a <> "optimal"
  | Gurobi => warn = true <-> an_condition a <> "optimal" \/ an_status a <> "ok"
  | _ => warn = false
  end.
Proof.
  intros tools names ss l k j save a warn s R Hk Hj O.
  destruct (nth_error names k) as [name|] eqn:Ek; [|apply nth_error_None in Ek; lia].
  destruct (program_of k l) as [pm|] eqn:HP.
  2: { exfalso. destruct (agrees_after tools names ss l R) as [L SL C SO]. destruct (C k name Ek) as (c & Hc & N & P & G & S0).
       destruct (SO j s Hj) as (s1 & Hs & T). cbn [do_call] in O. rewrite Hc, Hs, P, HP in O. discriminate O. }
  destruct (solved_state tools names ss l k j save a warn name s pm R Ek Hj HP O) as (c & s2 & _ & _ & _ & _ & _ & _ & s1 & K & E).
  unfold take_answer in E. rewrite K in E. destruct (so_kind s).
  - assert (W : warn = negb (String.eqb (an_status a) "ok" && String.eqb (an_condition a) "optimal")).
    { destruct tools as [f|]; [destruct (f _)|]; now inversion E. }
    rewrite W. destruct (String.eqb_spec (an_status a) "ok") as [E1|E1], (String.eqb_spec (an_condition a) "optimal") as [E2|E2]; cbn;
      split; intros H; try reflexivity; try discriminate; try (destruct H; congruence); auto.
  - now inversion E.
  - inversion E. destruct (String.eqb_spec (an_condition a) "optimal"); cbn; split; intros; congruence.
  - now inversion E.
  - now inversion E.
Qed.
Print Assumptions C92_warned_partial.

Example C92_warned_applies :
  let l := [Model 0 (Some (ex_program 1)); Solve 0 0 None None] in
  Forall (real ["A"] [ex_highs]) l /\ nth_error [ex_highs] 0 = Some ex_highs /\
  snd (do_call None (after None ["A"] [ex_highs] l) (Solve 0 0 None (Some (ex_answer 3 "maxTimeLimit")))) = Ok true.
Proof. repeat split; try (repeat constructor); reflexivity. Qed.

(** Also for segments that share a solver: the first one reports the objective of the last. *)
Example C92_shared_applies :
  let l := [Model 0 (Some (ex_program 1)); Solve 0 0 None (Some (ex_answer 1 "optimal"));
            Model 1 (Some (ex_program 2)); Solve 1 0 None (Some (ex_answer 2 "optimal"))] in
  Forall (real ["Segment_1"; "Segment_2"] [ex_cbc]) l /\ program_of 0 l = Some (ex_program 1) /\ program_of 1 l = Some (ex_program 2) /\
  solved_with 0 l = Some 0%nat /\ solved_with 1 l = Some 0%nat /\
  match reported (after None ["Segment_1"; "Segment_2"] [ex_cbc] l) 0 with Ok r => option_map Qred (rp_objective r) = Some 4%Q | Err _ => False end.
Proof. repeat split; try (repeat constructor); reflexivity. Qed.
