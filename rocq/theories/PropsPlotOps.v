(** C89: what a plot of the operation of an element shows. *)
From Verif Require Import Base BaseFacts MathModel Spec MathFacts Structure StructureFacts Params Features Elements System Library SysSpec
     CtxFacts ReadTools BusFacts NavFacts CompFacts PropsComp Tree PropsTree Values Results PropsResults Register Example ExamplePoints Tables PropsTables Plotting PropsPlots PlotOps.
Require Import Qminmax Qabs.

(** ** Specification *)
(** The series a figure shows; the two bars of a column together show its value. *)
Definition drawn_series {C} (fig : figure C) : list (string * list Q) :=
  match fig with
  | Blank => []
  | Bars _ l | Steps _ l => map fst l
  | Areas _ l => map (fun tr => (tr_label tr, tr_data tr)) l
  | Stacked _ l => map (fun pm => (br_label (fst pm), add2 (br_height (fst pm)) (br_height (snd pm)))) l
  | HeatOf fm => fm_columns fm
  end.
Definition positions {C} (fig : figure C) : list Q :=
  match fig with Blank => [] | Bars a _ | Steps a _ | Areas a _ | Stacked a _ => a | HeatOf fm => fm_index fm end.
(** The value [d] is drawn for the value [q]: as it is, or in a plot of areas as zero if it is next to zero. *)
Definition draws (mode : string) (q d : Q) : Prop := d == q \/ (mode = "area"%string /\ small q /\ d == 0).
(** The row of values is drawn for the series [g], the last value up to the end of the last step. *)
Definition row_of (mode : string) (n : nat) (g : nat -> Q) (l : list Q) : Prop :=
  length l = S n /\ (forall t, (t < n)%nat -> draws mode (g t) (nth t l 0)) /\ draws mode (g (n - 1)%nat) (nth n l 0).
Definition worth_drawing (fs : flow_system) (idx : option (list nat)) (g : nat -> Q) : Prop := exists t, (t < steps fs idx)%nat /\ 1 # 100000 < Qabs (g t).
(** Every series with a value worth drawing is drawn once under its name, and nothing else. *)
Record plotted {C} (fs : flow_system) (idx : option (list nat)) (mode : string) (entry : string -> (nat -> Q) -> Prop) (fig : figure C) : Prop := {
  pl_once : NoDup (map fst (drawn_series fig));
  pl_all : forall name g, entry name g -> worth_drawing fs idx g -> exists l, In (name, l) (drawn_series fig) /\ row_of mode (steps fs idx) g l;
  pl_only : forall name l, In (name, l) (drawn_series fig) -> exists g, entry name g /\ worth_drawing fs idx g /\ row_of mode (steps fs idx) g l;
  pl_time : drawn_series fig <> [] -> in_time fs idx true (positions fig)
}.
Definition offered (engine mode : string) : Prop :=
  (engine = "plotly" /\ (mode = "bar" \/ mode = "line" \/ mode = "area"))%string \/ (engine = "matplotlib" /\ (mode = "bar" \/ mode = "line"))%string.
(** What is taken counts as negative if the plot is inverted, otherwise what is given. *)
Definition plots_right {C} (fs : flow_system) (idx : option (list nat)) (x : asg) (r : list (string * tree leaf)) (colour : nat -> nat -> C) : Prop :=
  forall engine mode invert, offered engine mode ->
  let plot l := plot_operation r fs l mode "flow_rate" (Scale colour) engine invert in
  let ki := if invert then 1 else -1 in let ko := if invert then -1 else 1 in
  (forall c, In c (fs_comps fs) -> exists fig, plot (cp_label c) = Ok fig /\ plotted fs idx mode (of_component x c ki ko) fig)
  /\ (forall b, used_bus fs b -> exists fig, plot (b_lab b) = Ok fig /\ plotted fs idx mode (of_bus fs x b ki ko) fig)
  /\ (forall c f, In c (fs_comps fs) -> In f (cp_flows c) -> exists fig, plot (flow_name c f) = Ok fig /\ plotted fs idx mode (of_flow x c f) fig)
  /\ forall l, (forall c, In c (fs_comps fs) -> cp_label c <> l) -> (forall b, used_bus fs b -> b_lab b <> l) ->
       (forall c f, In c (fs_comps fs) -> In f (cp_flows c) -> flow_name c f <> l) -> plot l = Err ValueError.

(** ** Proof *)
Lemma map_fst_combine : forall {A B} (a : list A) (b : list B), length b = length a -> map fst (combine a b) = a.
Proof. intros A B a. induction a as [|x a IH]; intros [|y b] L; try discriminate; [reflexivity|]. cbn [combine map fst]. f_equal. apply IH. injection L as L. exact L. Qed.
Lemma scale_length : forall {C} (f : nat -> nat -> C) n, n <> 0%nat -> length (if Nat.ltb 1 n then map (fun i => f i n) (seq 0 n) else [f 0%nat n]) = n.
Proof. intros C f n N. destruct (Nat.ltb 1 n) eqn:E; [rewrite map_length, seq_length; reflexivity|]. apply Nat.ltb_ge in E. cbn. lia. Qed.

(** The drawn series and the columns of the table, up to order. *)
Definition alike (mode : string) (a b : string * list Q) : Prop :=
  fst a = fst b /\ length (snd a) = length (snd b) /\ forall t, (t < length (snd a))%nat -> draws mode (nth t (snd a) 0) (nth t (snd b) 0).
Lemma alike_refl : forall mode l, Forall2 (alike mode) l l.
Proof. intros mode l. induction l as [|a l IH]; constructor; auto. split; [reflexivity|]. split; [reflexivity|]. intros t _. left. reflexivity. Qed.
Lemma area_permutation : forall {C} (cols : table) (colours : list C) trs, area_traces cols colours = Ok trs -> (forall c, In c cols -> exists q, In q (snd c) /\ ~ small q) ->
  exists cols', Permutation cols' cols /\ Forall2 (alike "area") cols' (map (fun tr => (tr_label tr, tr_data tr)) trs).
Proof.
  intros C cols colours trs H NZ. unfold area_traces in H. destruct (Nat.eqb _ _) eqn:L in H; [|discriminate H]. cbn [guard bind] in H. cbv zeta in H. injection H as <-. apply Nat.eqb_eq in L.
  set (d := combine _ colours).
  assert (ONE : forall c, In c d -> up c = true -> down c = true -> False).
  { intros [[l w] c] I U W. apply in_combine_l in I. apply in_map_iff in I. destruct I as [[l0 v] [E I]]. cbn [fst snd] in E. injection E as <- <-. destruct (NZ _ I) as [q [Q1 Q2]]. cbn [snd] in Q1.
    unfold up, down in U, W. rewrite forallb_forall in U, W. cbn [fst snd] in U, W.
    assert (F : In (flush q) (map flush v)) by (apply in_map; exact Q1). specialize (U _ F). specialize (W _ F). apply Qle_bool_iff in U, W. rewrite (proj2 (flush_drawn q) Q2) in U, W. apply Q2.
    assert (Z : q == 0) by (apply Qle_antisym; assumption). unfold small. rewrite Z. split; reflexivity. }
  assert (P : Permutation (filter up d ++ filter down d ++ filter (fun c => negb (up c || down c)%bool) d) d).
  { clear - ONE. revert ONE. generalize d. clear d. intros d. induction d as [|c d IH]; intros ONE; [constructor|]. specialize (IH ltac:(intros y Y; apply ONE; right; exact Y)).
    pose proof (ONE c (or_introl eq_refl)) as O. cbn [filter]. destruct (up c) eqn:U, (down c) eqn:W; cbn [orb negb].
    - destruct (O eq_refl eq_refl).
    - constructor. exact IH.
    - apply Permutation_sym. apply Permutation_cons_app. apply Permutation_sym. exact IH.
    - apply Permutation_sym. rewrite app_assoc. apply Permutation_cons_app. rewrite <- app_assoc. apply Permutation_sym. exact IH. }
  (* the columns in the order of the traces *)
  assert (FW : map fst d = map (fun c => (fst c, map flush (snd c))) cols) by (unfold d; apply map_fst_combine; rewrite map_length; exact L).
  assert (P2 : Permutation (map fst (filter up d ++ filter down d ++ filter (fun c => negb (up c || down c)%bool) d)) (map (fun c => (fst c, map flush (snd c))) cols))
    by (rewrite <- FW; apply Permutation_map; exact P).
  apply Permutation_map_inv in P2. destruct P2 as [cols' [E P3]]. exists cols'. split; [apply Permutation_sym; exact P3|].
  match goal with |- Forall2 _ _ ?r => replace r with (map (fun c : string * list Q => (fst c, map flush (snd c))) cols') end.
  - clear. induction cols' as [|[l v] cs IH]; [constructor|]. cbn [map fst snd]. constructor; [|exact IH]. split; [reflexivity|]. cbn [snd]. split; [rewrite map_length; reflexivity|].
    intros t T. rewrite part_nth by exact T. destruct (flush_drawn (nth t v 0)) as [A B]. unfold draws.
    destruct (Qlt_le_dec (- (1 # 100000)) (nth t v 0)) as [X|X].
    + destruct (Qlt_le_dec (nth t v 0) (1 # 100000)) as [Y|Y]; [right; split; [reflexivity|]; split; [split; assumption|apply A; split; assumption]|].
      left. rewrite B; [reflexivity|]. intros [_ S]. apply (Qlt_not_le _ _ S Y).
    + left. rewrite B; [reflexivity|]. intros [S _]. apply (Qlt_not_le _ _ S X).
  - rewrite <- E. rewrite !map_app, !map_map. cbn [tr_label tr_data]. rewrite <- app_assoc.
    f_equal; [apply map_ext; intros [[a b] c]; reflexivity|]. f_equal; apply map_ext; intros [[a b] c]; reflexivity.
Qed.

Lemma stack_alike : forall {C} mode cols (colours : list C) pos neg, length colours = length cols ->
  Forall2 (alike mode) cols (map (fun pm : bar C * bar C => (br_label (fst pm), add2 (br_height (fst pm)) (br_height (snd pm)))) (stack cols colours pos neg)).
Proof.
  intros C mode cols. induction cols as [|[l v] cols IH]; intros [|c colours] pos neg L; try discriminate L; [constructor|]. injection L as L.
  cbn [stack map fst snd br_label br_height]. constructor; [|apply IH; exact L]. split; [reflexivity|]. cbn [snd].
  assert (LL : length (add2 (positive_part v) (negative_part v)) = length v) by (rewrite add2_length; unfold positive_part, negative_part; rewrite !map_length; reflexivity).
  split; [auto|]. intros t T. left. rewrite add2_nth by (unfold positive_part, negative_part; rewrite !map_length; auto).
  unfold positive_part, negative_part. rewrite !part_nth by exact T. destruct (Q.max_spec (nth t v 0) 0) as [[A ->]|[A ->]], (Q.min_spec (nth t v 0) 0) as [[B ->]|[B ->]]; try ring.
  - exfalso. apply (Qlt_not_le _ _ A B).
  - exfalso. apply (Qlt_not_le _ _ B A).
Qed.
Lemma plots_frame : forall {C} (colour : nat -> nat -> C) fm engine mode n, offered engine mode ->
  (forall c, In c (fm_columns fm) -> length (snd c) = n) -> (fm_columns fm <> [] -> length (fm_index fm) = n) -> (0 < n)%nat ->
  (forall c, In c (fm_columns fm) -> exists q, In q (snd c) /\ ~ small q) ->
  exists fig, (if String.eqb engine "plotly" then (if String.eqb mode "heatmap" then Ok (HeatOf fm) else with_plotly fm mode (Scale colour))
               else if String.eqb engine "matplotlib" then (if String.eqb mode "heatmap" then Ok (HeatOf fm) else with_matplotlib fm mode (Scale colour)) else Err ValueError) = Ok fig
    /\ (exists cols, Permutation cols (fm_columns fm) /\ Forall2 (alike mode) cols (drawn_series fig)) /\ (drawn_series fig <> [] -> positions fig = fm_index fm).
Proof.
  intros C colour fm engine mode n OF LC LI NP NZ.
  assert (BLANK : fm_columns fm = [] -> (exists cols, Permutation cols (fm_columns fm) /\ Forall2 (alike mode) cols (drawn_series (@Blank C)))
                   /\ (drawn_series (@Blank C) <> [] -> positions (@Blank C) = fm_index fm)).
  { intros E. split; [exists []; rewrite E; split; constructor|intros H; destruct (H eq_refl)]. }
  assert (EMPTY : empty_frame fm = true -> fm_columns fm = []).
  { intros E. unfold empty_frame in E. apply orb_true_iff in E. destruct E as [E|E]; apply Nat.eqb_eq in E; [destruct (fm_columns fm); [reflexivity|discriminate E]|].
    destruct (fm_columns fm) as [|a l] eqn:F; [reflexivity|]. assert (length (fm_index fm) = n) by (apply LI; discriminate). lia. }
  assert (FULL : empty_frame fm = false -> length (fm_columns fm) <> 0%nat).
  { intros E F. unfold empty_frame in E. rewrite F in E. discriminate E. }
  assert (SAME : forall l : list C, length l = length (fm_columns fm) -> exists cols, Permutation cols (fm_columns fm) /\ Forall2 (alike mode) cols (map fst (combine (fm_columns fm) l))).
  { intros l L. rewrite map_fst_combine by exact L. exists (fm_columns fm). split; [apply Permutation_refl|apply alike_refl]. }
  destruct OF as [[-> M]|[-> M]].
  - change (String.eqb "plotly" "plotly") with true. cbv iota. assert (HM : String.eqb mode "heatmap" = false) by (destruct M as [-> |[-> | ->]]; reflexivity). rewrite HM.
    unfold with_plotly. assert (G : existsb (String.eqb mode) ["bar"; "line"; "area"]%string = true) by (destruct M as [-> |[-> | ->]]; reflexivity). rewrite G. cbn [guard bind].
    destruct (empty_frame fm) eqn:E; [exists Blank; split; [reflexivity|apply BLANK; apply EMPTY; reflexivity]|].
    cbv zeta. pose proof (scale_length colour _ (FULL eq_refl)) as SL. set (l := if Nat.ltb 1 _ then _ else _) in *. rewrite SL, Nat.eqb_refl. cbn [guard bind].
    destruct M as [-> |[-> | ->]].
    + change (String.eqb "bar" "bar") with true. cbv iota. eexists. split; [reflexivity|]. cbn [drawn_series positions]. split; [apply SAME; exact SL|auto].
    + change (String.eqb "line" "bar") with false. change (String.eqb "line" "line") with true. cbv iota. eexists. split; [reflexivity|]. cbn [drawn_series positions]. split; [apply SAME; exact SL|auto].
    + change (String.eqb "area" "bar") with false. change (String.eqb "area" "line") with false. cbv iota.
      destruct (C76_areas _ (fm_columns fm) l SL) as [trs [T _]]. rewrite T. cbn [bind]. eexists. split; [reflexivity|]. cbn [drawn_series positions].
      split; [apply (area_permutation _ _ _ T NZ)|auto].
  - change (String.eqb "matplotlib" "plotly") with false. change (String.eqb "matplotlib" "matplotlib") with true. cbv iota.
    assert (HM : String.eqb mode "heatmap" = false) by (destruct M as [-> | ->]; reflexivity). rewrite HM.
    unfold with_matplotlib. assert (G : existsb (String.eqb mode) ["bar"; "line"]%string = true) by (destruct M as [-> | ->]; reflexivity). rewrite G. cbn [guard bind].
    cbv zeta. set (l := map _ _). assert (SL : length l = length (fm_columns fm)) by (unfold l; rewrite map_length, seq_length; reflexivity). rewrite SL, Nat.eqb_refl. cbn [guard bind].
    destruct M as [-> | ->].
    + change (String.eqb "bar" "bar") with true. cbv iota.
      destruct (fm_columns fm) as [|c0 cs] eqn:FC.
      * destruct l as [|? ?]; [|discriminate SL]. unfold stacked_bars. cbn [length Nat.eqb guard bind stack]. eexists. split; [reflexivity|]. cbn [drawn_series positions map].
        split; [exists []; split; constructor|intros H; destruct (H eq_refl)].
      * rewrite <- FC in *. unfold stacked_bars. rewrite SL, Nat.eqb_refl. cbn [guard bind]. eexists. split; [reflexivity|]. cbn [drawn_series positions]. split; [|auto].
        exists (fm_columns fm). split; [apply Permutation_refl|]. apply stack_alike. exact SL.
    + change (String.eqb "line" "bar") with false. cbv iota. eexists. split; [reflexivity|]. cbn [drawn_series positions]. split; [apply SAME; exact SL|auto].
Qed.

(** Passing from a table to its plot. *)
Lemma draws_trans : forall mode g q d, q == g -> draws mode q d -> draws mode g d.
Proof. intros mode g q d E [D|[M [S D]]]; [left; rewrite D; exact E|right]. split; [exact M|]. split; [unfold small in *; rewrite <- E; exact S|exact D]. Qed.
Lemma row_trans : forall mode n g a b, (0 < n)%nat -> in_rows n true g (snd a) -> alike mode a b -> row_of mode n g (snd b).
Proof.
  intros mode n g a b NP [L [V E]] [_ [LL D]]. rewrite L in *. split; [auto|]. split.
  - intros t T. apply (draws_trans _ _ (nth t (snd a) 0)); [apply V; exact T|apply D; lia].
  - apply (draws_trans _ _ (nth n (snd a) 0)); [apply E; reflexivity|apply D; lia].
Qed.
Lemma over_not_small : forall q, 1 # 100000 < Qabs q -> ~ small q.
Proof. intros q H [A B]. apply (Qlt_not_le _ _ H). apply Qabs_Qle_condition. split; apply Qlt_le_weak; assumption. Qed.
Lemma shown_plotted : forall {C} (colour : nat -> nat -> C) fs idx engine mode entry fm, (2 <= steps fs idx)%nat -> offered engine mode -> shows fs idx (Some (1 # 100000)) true entry fm ->
  exists fig, (if String.eqb engine "plotly" then (if String.eqb mode "heatmap" then Ok (HeatOf fm) else with_plotly fm mode (Scale colour))
               else if String.eqb engine "matplotlib" then (if String.eqb mode "heatmap" then Ok (HeatOf fm) else with_matplotlib fm mode (Scale colour)) else Err ValueError) = Ok fig
    /\ plotted fs idx mode entry fig.
Proof.
  intros C colour fs idx engine mode entry fm LG OF [ON AL OY TM].
  destruct (plots_frame colour fm engine mode (S (steps fs idx)) OF) as [fig [E [[cols [P A]] T]]].
  - intros [name l] I. destruct (OY _ _ I) as [g [_ [_ [L _]]]]. exact L.
  - intros NE. apply (proj1 (TM NE)).
  - lia.
  - intros [name l] I. destruct (OY _ _ I) as [g [_ [[t [Ht O]] [L [V _]]]]]. exists (nth t l 0). cbn [snd]. split; [apply nth_In; lia|]. apply over_not_small. rewrite (V t Ht). exact O.
  - exists fig. split; [exact E|]. assert (NA : map fst cols = map fst (drawn_series fig)).
    { clear - A. induction A as [|a b l l' [H _] _ IH]; [reflexivity|]. cbn [map]. rewrite H, IH. reflexivity. }
    constructor.
    + rewrite <- NA. apply (Permutation_NoDup (l := map fst (fm_columns fm))); [apply Permutation_map, Permutation_sym; exact P|exact ON].
    + intros name g En O. destruct (AL name g En O) as [l [I R]]. apply (Permutation_in _ (Permutation_sym P)) in I.
      destruct (In_nth_error _ _ I) as [i N]. destruct (CompFacts.Forall2_nth_l _ _ _ _ _ A N) as [[name' l'] [N' K]].
      exists l'. pose proof (proj1 K) as K1. cbn [fst] in K1. subst name'. split; [apply (nth_error_In _ _ N')|]. apply (row_trans _ _ _ (name, l) (name, l')); [lia|exact R|exact K].
    + intros name l' I. destruct (In_nth_error _ _ I) as [i N]. destruct (NavFacts.Forall2_nth_error _ _ _ _ _ A N) as [[name' l] [N' K]].
      pose proof (proj1 K) as K1. cbn [fst] in K1. subst name'. apply nth_error_In in N'. apply (Permutation_in _ P) in N'. destruct (OY _ _ N') as [g [En [O R]]].
      exists g. split; [exact En|]. split; [exact O|]. apply (row_trans _ _ _ (name, l) (name, l')); [lia|exact R|exact K].
    + intros NE. rewrite (T NE). apply TM. intros Z. rewrite Z in P. apply Permutation_sym, Permutation_nil in P. subst cols. destruct (drawn_series fig); [apply NE; reflexivity|inversion A].
Qed.
Lemma tables_plots : forall {C} (colour : nat -> nat -> C) fs idx x r, (2 <= steps fs idx)%nat -> tables_right fs idx x r -> plots_right fs idx x r colour.
Proof.
  intros C colour fs idx x r LG T engine mode invert OF. cbv zeta. set (ki := if invert then 1 else -1). set (ko := if invert then -1 else 1).
  destruct (T ki ko (Some (1 # 100000)) true) as [T1 [T2 [T3 T4]]].
  assert (G : forall l fm entry, to_dataframe r fs l "flow_rate" ki ko (Some (1 # 100000)) true = Ok fm -> shows fs idx (Some (1 # 100000)) true entry fm ->
     exists fig, plot_operation r fs l mode "flow_rate" (Scale colour) engine invert = Ok fig /\ plotted fs idx mode entry fig).
  { intros l fm entry E SH. unfold plot_operation. cbv zeta. rewrite andb_false_r. cbn [negb guard bind]. fold ki ko. rewrite E. cbn [bind].
    apply (shown_plotted colour fs idx engine mode entry fm LG OF SH). }
  split; [|split; [|split]].
  - intros c Hc. destruct (T1 c Hc) as [fm [E SH]]. exact (G _ _ _ E SH).
  - intros b Hb. destruct (T2 b Hb) as [fm [E SH]]. exact (G _ _ _ E SH).
  - intros c f Hc Hf. destruct (T3 c f Hc Hf) as [fm [E SH]]. exact (G _ _ _ E SH).
  - intros l H1 H2 H3. unfold plot_operation. cbv zeta. rewrite andb_false_r. cbn [negb guard bind]. fold ki ko. rewrite (T4 l H1 H2 H3). reflexivity.
Qed.

(** Every plot shows what it should. Missing for the full claim: the names of C66 and the labels and histories of C28 and C49. *)
Theorem C89_plots_partial : forall C (colour : nat -> nat -> C) cf ord fs idx kd pm history x,
  build cf ord fs idx = Ok pm -> integral pm x -> (forall l, Permutation (ord l) l) ->
  plain_labels fs -> distinct_buses fs -> names_apart fs -> (2 <= steps fs idx)%nat ->
  In DoModeling history -> ~ In GetResults history ->
  exists r, results_after cf ord fs idx kd history x = Ok (Some r) /\ plots_right fs idx x r colour.
Proof.
  intros C colour cf ord fs idx kd pm history x H IN PO PL DB NP LG DM NG.
  destruct (C66_tables_partial _ _ _ _ kd _ history x H IN PO PL DB NP LG DM NG) as [r [R T]]. exists r. split; [exact R|]. apply tables_plots; assumption.
Qed.
Print Assumptions C89_plots_partial.

(** ** In the plot of a bus both sides balance *)

(** How far the drawn values reach above and below zero in a row. *)
Definition height {C} (fig : figure C) (t : nat) : Q := Qsum (map (fun s => Qmax (nth t (snd s) 0) 0) (drawn_series fig)).
Definition depth {C} (fig : figure C) (t : nat) : Q := Qsum (map (fun s => Qmax (- nth t (snd s) 0) 0) (drawn_series fig)).
Definition flows_at (fs : flow_system) (b : bus) : list (component * flow) := filter (fun p => connected b (snd p)) (all_flows fs).
(** What may be missing of each series: values next to zero are not drawn. The last two are the surplus and the deficit. *)
Definition blur (fs : flow_system) (b : bus) : Q := inject_Z (Z.of_nat (length (flows_at fs b) + 2)) * (1 # 100000).

Definition row_sum (t : nat) (l : list (string * list Q)) : Q := Qsum (map (fun nc => nth t (snd nc) 0) l).
Lemma height_depth : forall {C} (fig : figure C) t, height fig t - depth fig t == row_sum t (drawn_series fig).
Proof.
  intros C fig t. unfold height, depth, row_sum. induction (drawn_series fig) as [|a l IH]; [reflexivity|]. cbn [map]. rewrite !Qsum_cons, <- IH.
  destruct (Q.max_spec (nth t (snd a) 0) 0) as [[A ->]|[A ->]], (Q.max_spec (- nth t (snd a) 0) 0) as [[B ->]|[B ->]]; lra.
Qed.
Lemma count_step : forall {A} (a : A) l, inject_Z (Z.of_nat (length (a :: l))) == 1 + inject_Z (Z.of_nat (length l)).
Proof. intros A a l. cbn [length]. rewrite Nat2Z.inj_succ. unfold Z.succ. rewrite inject_Z_plus. ring. Qed.
Lemma draws_near : forall mode q d, draws mode q d -> Qabs (d - q) <= 1 # 100000.
Proof.
  intros mode q d [E|[_ [[A B] E]]]; apply Qabs_Qle_condition; lra.
Qed.
Lemma sum_alike : forall mode t a b, Forall2 (alike mode) a b -> (forall c, In c a -> (t < length (snd c))%nat) ->
  Qabs (row_sum t b - row_sum t a) <= inject_Z (Z.of_nat (length a)) * (1 # 100000).
Proof.
  intros mode t a b F. induction F as [|x y a b [_ [_ D]] F IH]; intros L; [vm_compute; discriminate|].
  specialize (IH (fun c I => L c (or_intror I))). specialize (D t (L x (or_introl eq_refl))). apply draws_near in D. rewrite count_step.
  unfold row_sum in *. cbn [map]. rewrite !Qsum_cons. apply Qabs_Qle_condition in D, IH. apply Qabs_Qle_condition. lra.
Qed.
Lemma sum_dropped : forall t n cols, (forall c, In c cols -> length (snd c) = n) -> (t < n)%nat ->
  Qabs (row_sum t (above (Some (1 # 100000)) cols) - row_sum t cols) + inject_Z (Z.of_nat (length (above (Some (1 # 100000)) cols))) * (1 # 100000)
    <= inject_Z (Z.of_nat (length cols)) * (1 # 100000).
Proof.
  intros t n cols L T. unfold above. induction cols as [|c cols IH]; [vm_compute; discriminate|]. specialize (IH (fun a I => L a (or_intror I))). cbn [filter].
  unfold row_sum in *. destruct (existsb _ (snd c)) eqn:E.
  - cbn [map]. rewrite !Qsum_cons, !count_step.
    set (k := filter _ cols) in *. setoid_replace (nth t (snd c) 0 + Qsum (map (fun nc : string * list Q => nth t (snd nc) 0) k) - (nth t (snd c) 0 + Qsum (map (fun nc : string * list Q => nth t (snd nc) 0) cols)))
      with (Qsum (map (fun nc : string * list Q => nth t (snd nc) 0) k) - Qsum (map (fun nc : string * list Q => nth t (snd nc) 0) cols)) by ring. lra.
  - cbn [map]. rewrite Qsum_cons, count_step.
    assert (X : exceeds (1 # 100000) (nth t (snd c) 0) = false).
    { destruct (exceeds _ _) eqn:X; [|reflexivity]. rewrite <- E. symmetry. apply existsb_exists. exists (nth t (snd c) 0). split; [|exact X]. apply nth_In. rewrite (L c (or_introl eq_refl)). exact T. }
    unfold exceeds in X. apply orb_false_iff in X. destruct X as [X1 X2]. apply negb_false_iff, Qle_bool_iff in X1. apply negb_false_iff, Qle_bool_iff in X2.
    set (k := filter _ cols) in *. set (sk := Qsum (map _ k)) in *. set (sc := Qsum (map _ cols)) in *. set (q := nth t (snd c) 0) in *.
    assert (M : Qabs (sk - (q + sc)) <= Qabs (sk - sc) + (1 # 100000)).
    { assert (N := Qle_refl (Qabs (sk - sc))). apply Qabs_Qle_condition in N. apply Qabs_Qle_condition. lra. }
    lra.
Qed.
Lemma indexed_rows : forall times cols fm, indexed times true cols = Ok fm -> forall t, (forall c, In c cols -> (t < length (snd c))%nat) ->
  row_sum t (fm_columns fm) == row_sum t cols /\ length (fm_columns fm) = length cols.
Proof.
  intros times cols fm H t L. unfold indexed in H. destruct cols as [|[a l] rest] eqn:EC; [injection H as <-; split; reflexivity|].
  destruct (forallb _ _) in H; [|discriminate H]. cbn [guard bind] in H. destruct (Nat.eqb (length l) 0); [injection H as <-; split; reflexivity|].
  rewrite <- EC in *. destruct (Nat.eqb (length l) _).
  - destruct (forallb _ _) in H; [|discriminate H]. cbn [guard bind] in H. injection H as <-. cbn [fm_columns]. split; [|apply map_length]. unfold row_sum. rewrite map_map. cbn [snd]. clear EC.
    induction cols as [|c cols IH]; [reflexivity|]. cbn [map]. rewrite !Qsum_cons. rewrite app_nth1 by (apply L; left; reflexivity). rewrite IH by (intros c0 I; apply L; right; exact I). reflexivity.
  - destruct (forallb _ _) in H; [|discriminate H]. cbn [guard bind] in H. injection H as <-. split; reflexivity.
Qed.
Lemma of_bus_table : forall r fs l var ki ko th cols fm, bus_table r fs l var ki ko = Ok cols -> to_dataframe r fs l var ki ko th true = Ok fm -> exists times, indexed times true (above th cols) = Ok fm.
Proof.
  intros r fs l var ki ko th cols fm B H. unfold to_dataframe in H. apply bind_ok in H. destruct H as [times [_ H]]. apply bind_ok in H. destruct H as [fl [FL H]].
  apply bind_ok in H. destruct H as [cols' [M H]]. exists times. replace cols with cols'; [exact H|].
  assert (BS : exists bt, extract (Node r) ["Buses"; l]%string = Some bt).
  { unfold bus_table in B. rewrite FL in B. cbn [bind] in B. destruct (extract (Node r) ["Buses"; l]%string) as [bt|]; [eauto|discriminate B]. }
  destruct BS as [bt E]. rewrite E in M. destruct (component_of fs l), (sget l fl); try discriminate M; congruence.
Qed.

Section Balanced.
Variables (cf : config) (ord : list nat -> list nat) (fs : flow_system) (idx : option (list nat)) (kd : akind) (pm : pmodel) (x : asg)
          (r : list (string * tree leaf)).
Hypothesis RP : reports cf ord fs idx kd pm x r.
Hypothesis ND : NoDup (map (fun p => flow_name (fst p) (snd p)) (all_flows fs)).
Hypothesis LONG : (2 <= steps fs idx)%nat.
Hypothesis DB : distinct_buses fs.
Hypothesis BC : forall b, used_bus fs b -> In b (buses ord fs).
Hypothesis TR : tables_right fs idx x r.
Hypothesis BB : forall b t, used_bus fs b -> (t < steps fs idx)%nat -> delivered fs x b t + excess x b "excess_input" t == taken fs x b t + excess x b "excess_output" t.

Lemma bus_plot : forall {C} (colour : nat -> nat -> C) engine mode invert b fig t, offered engine mode -> used_bus fs b ->
  plot_operation r fs (b_lab b) mode "flow_rate" (Scale colour) engine invert = Ok fig -> (t <= steps fs idx)%nat -> Qabs (height fig t - depth fig t) <= blur fs b.
Proof.
  intros C colour engine mode invert b fig t OF UB PL HT. set (ki := if invert then 1 else -1). set (ko := if invert then -1 else 1).
  destruct (TR ki ko (Some (1 # 100000)) true) as [_ [T2 _]]. destruct (T2 b UB) as [fm [E SH]]. clear T2.
  destruct (table_spec _ _ _ _ _ _ _ _ b RP ND LONG DB UB (BC b UB) ki ko) as [cols [BT [SU [NN [_ [_ NM]]]]]].
  destruct (TR ki ko None true) as [_ [T2 _]]. destruct (T2 b UB) as [fm0 [E0 SH0]]. clear T2.
  destruct (of_bus_table _ _ _ _ _ _ _ _ _ BT E) as [times I]. 
  assert (LC : forall c, In c cols -> length (snd c) = steps fs idx).
  { destruct (bus_table_spec _ _ _ _ _ _ _ _ RP ND LONG DB BC b ki ko UB) as [cols' [B' [_ [_ O]]]]. assert (cols' = cols) by congruence. subst cols'.
    intros [name l] J. destruct (O name l J) as [g [_ [L _]]]. exact L. }
  unfold plot_operation in PL. cbv zeta in PL. rewrite andb_false_r in PL. cbn [negb guard bind] in PL. fold ki ko in PL. rewrite E in PL. cbn [bind] in PL.
  destruct SH as [ON AL OY TM].
  destruct (plots_frame colour fm engine mode (S (steps fs idx)) OF) as [fig' [E' [[dc [P A]] _]]].
  - intros [name l] J. destruct (OY _ _ J) as [g [_ [_ [L _]]]]. exact L.
  - intros NE. apply (proj1 (TM NE)).
  - lia.
  - intros [name l] J. destruct (OY _ _ J) as [g [_ [[u [Hu O]] [L [V _]]]]]. exists (nth u l 0). cbn [snd]. split; [apply nth_In; lia|]. apply over_not_small. rewrite (V u Hu). exact O.
  - assert (fig' = fig) by congruence. subst fig'. rewrite height_depth.
    assert (LD : forall c, In c dc -> length (snd c) = S (steps fs idx)).
    { intros [name l] J. apply (Permutation_in _ P) in J. destruct (OY _ _ J) as [g [_ [_ [L _]]]]. exact L. }
    pose proof (sum_alike mode t dc _ A ltac:(intros c J; rewrite (LD c J); lia)) as S1.
    set (u := if Nat.eqb t (steps fs idx) then (t - 1)%nat else t).
    assert (HU : (u < steps fs idx)%nat) by (unfold u; destruct (Nat.eqb t (steps fs idx)) eqn:Z; [apply Nat.eqb_eq in Z|apply Nat.eqb_neq in Z]; lia).
    assert (PS : forall v l l', Permutation l l' -> row_sum v l == row_sum v l').
    { intros v l l' PP. unfold row_sum. apply Qsum_perm. apply Permutation_map. exact PP. }
    assert (S2 : row_sum t dc == row_sum u (fm_columns fm)).
    { rewrite (PS t _ _ P). unfold u. destruct (Nat.eqb t (steps fs idx)) eqn:Z; [|reflexivity]. apply Nat.eqb_eq in Z. unfold row_sum. apply Qsum_map_eq. intros [name l] J. cbn [snd].
      destruct (OY _ _ J) as [g [_ [_ [_ [V W]]]]]. rewrite Z. rewrite (W eq_refl). symmetry. apply V. lia. }
    assert (LA : forall c, In c (above (Some (1 # 100000)) cols) -> (u < length (snd c))%nat) by (intros c J; unfold above in J; apply filter_In in J; rewrite (LC c (proj1 J)); exact HU).
    destruct (indexed_rows _ _ _ I u LA) as [S3 LL].
    pose proof (sum_dropped u _ cols LC HU) as S4. pose proof (Permutation_length P) as LP. rewrite LP, LL in S1.
    assert (S5 : row_sum u cols == 0).
    { unfold row_sum. rewrite (SU u HU), (BB b u UB HU). unfold ki, ko. destruct invert; ring. }
    assert (LE : (length cols <= length (flows_at fs b) + 2)%nat).
    { rewrite <- (map_length fst cols). replace (length (flows_at fs b) + 2)%nat with (length (map (fun p => flow_name (fst p) (snd p)) (flows_at fs b) ++ ["Excess Input"; "Excess Output"]%string))
        by (rewrite app_length, map_length; reflexivity).
      apply NoDup_incl_length; [exact NN|]. intros n J. apply in_or_app. destruct (NM n J) as [[c [f [Hc [Hf [Hb ->]]]]]|[_ J']].
      - left. apply in_map_iff. exists (c, f). split; [reflexivity|]. apply filter_In. split; [apply all_flows_In; split; assumption|exact Hb].
      - right. destruct J' as [-> | ->]; cbn; auto. }
    assert (LQ : inject_Z (Z.of_nat (length cols)) <= inject_Z (Z.of_nat (length (flows_at fs b) + 2))) by (rewrite <- Zle_Qle; lia).
    unfold blur. set (A1 := row_sum t (drawn_series fig)) in *. set (A2 := row_sum t dc) in *. set (A3 := row_sum u (fm_columns fm)) in *.
    set (A4 := row_sum u (above _ cols)) in *. set (A5 := row_sum u cols) in *. set (N1 := inject_Z (Z.of_nat (length (above _ cols)))) in *.
    assert (N4 := Qle_refl (Qabs (A4 - A5))). apply Qabs_Qle_condition in N4. apply Qabs_Qle_condition in S1. apply Qabs_Qle_condition. lra.
Qed.
End Balanced.

(** In the plot of a bus the two sides reach equally far, up to the values too small to be drawn, in every row. *)
Theorem C89_balanced_partial : forall C (colour : nat -> nat -> C) cf ord fs idx kd pm history x,
  build cf ord fs idx = Ok pm -> feasible pm x -> integral pm x -> (forall l, Permutation (ord l) l) ->
  plain_labels fs -> distinct_buses fs -> names_apart fs -> (2 <= steps fs idx)%nat ->
  In DoModeling history -> ~ In GetResults history ->
  exists r, results_after cf ord fs idx kd history x = Ok (Some r) /\ forall engine mode invert b, offered engine mode -> used_bus fs b ->
    exists fig, plot_operation r fs (b_lab b) mode "flow_rate" (Scale colour) engine invert = Ok fig
      /\ forall t, (t <= steps fs idx)%nat -> Qabs (height fig t - depth fig t) <= blur fs b.
Proof.
  intros C colour cf ord fs idx kd pm history x H FE IN PO PL DB NP LG DM NG.
  destruct (C28_reports_partial _ _ _ _ kd _ history x H PL DM NG IN) as [r [R [RP _]]].
  destruct (C66_tables_partial _ _ _ _ kd _ history x H IN PO PL DB NP LG DM NG) as [r' [R' T]]. assert (r' = r) by congruence. subst r'.
  destruct (build_parts _ _ _ _ _ H) as [cx [cos [bos [em [obj P]]]]]. exists r. split; [exact R|]. intros engine mode invert b OF UB.
  destruct (tables_plots colour fs idx x r LG T engine mode invert OF) as [_ [P2 _]]. destruct (P2 b UB) as [fig [F _]]. exists fig. split; [exact F|]. intros t Ht.
  refine (bus_plot _ _ _ _ _ _ _ _ RP (flow_labels_distinct _ _ _ _ _ _ _ _ _ _ P) LG DB _ T _ colour engine mode invert b fig t OF UB F Ht).
  - intros b0 UB0. apply buses_complete; auto. apply (sy_ids _ _ _ _ _ _ _ _ _ _ P).
  - intros b0 t0 UB0 Ht0. destruct (C01_bus_balance _ _ _ _ _ _ _ _ H FE PO DB UB0 Ht0) as [B _]. exact B.
Qed.
Print Assumptions C89_balanced_partial.

(** ** The plot of a storage *)
Theorem C89_storage_partial : forall C (colour : nat -> nat -> C) cf ord fs idx kd pm history x,
  build cf ord fs idx = Ok pm -> integral pm x -> (forall l, Permutation (ord l) l) ->
  plain_labels fs -> distinct_buses fs -> names_apart fs -> (2 <= steps fs idx)%nat ->
  In DoModeling history -> ~ In GetResults history ->
  exists r, results_after cf ord fs idx kd history x = Ok (Some r) /\ forall mode invert c s, offered "plotly" mode -> In c (fs_comps fs) -> cp_kind c = StorageC s ->
    exists fig times level, plot_storage r fs (cp_label c) "flow_rate" mode (Scale colour) invert = Ok (fig, (times, level))
      /\ plot_operation r fs (cp_label c) mode "flow_rate" (Scale colour) "plotly" invert = Ok fig
      /\ in_time fs idx true times /\ length level = S (steps fs idx) /\ forall t, (t <= steps fs idx)%nat -> nth t level 0 == charge x c t.
Proof.
  intros C colour cf ord fs idx kd pm history x H IN PO PL DB NP LG DM NG.
  destruct (C28_reports_partial _ _ _ _ kd _ history x H PL DM NG IN) as [r [R [RP _]]].
  destruct (C66_tables_partial _ _ _ _ kd _ history x H IN PO PL DB NP LG DM NG) as [r' [R' T]]. assert (r' = r) by congruence. subst r'.
  exists r. split; [exact R|]. intros mode invert c s OF Hc K.
  destruct (tables_plots colour fs idx x r LG T "plotly" mode invert OF) as [P1 _]. destruct (P1 c Hc) as [fig [F _]].
  destruct (rp_time _ _ _ _ _ _ _ _ RP) as [times [ET [TL TS]]]. destruct (rp_charge _ _ _ _ _ _ _ _ RP c s Hc K) as [[a [EC HO]] _].
  unfold plot_storage. rewrite F. cbn [bind]. rewrite ET. cbn [bind].
  rewrite (no_bus _ _ _ _ _ _ _ _ RP) by (intros b UB X; apply (proj1 NP c b Hc UB); symmetry; exact X).
  rewrite (component_of_some _ (proj1 PL) c Hc). cbn [of_option bind].
  change ["Components"; cp_label c; "charge_state"]%string with (app ["Components"; cp_label c]%string ["charge_state"]%string) in EC. rewrite ResultFacts.extract_app in EC.
  destruct (extract (Node r) ["Components"; cp_label c]%string) as [t|]; [|discriminate EC]. cbn [of_option bind]. rewrite EC.
  assert (IT : in_time fs idx true times).
  { split; [exact TL|]. split; [intros t0 Ht; rewrite (proj1 (TS t0 Ht)); reflexivity|]. intros _. destruct (TS (steps fs idx - 1)%nat ltac:(lia)) as [T1 T2].
    rewrite <- T1, <- T2. replace (S (steps fs idx - 1)) with (steps fs idx) by lia. ring. }
  destruct a as [|ik sc q|ak l]; try destruct ak; cbn [holds] in HO; try contradiction; try (destruct HO as [HO _]; lia).
  all: cbn [bind]; exists fig, times, l; split; [reflexivity|]; split; [reflexivity|]; split; [exact IT|]; split; [apply HO|]; intros u Hu; apply HO; lia.
Qed.
Print Assumptions C89_storage_partial.

Definition plot_of (l mode engine : string) (invert : bool) : res (figure nat) :=
  match results_after default_config id_ord fs0 None ADatetime [DoModeling] x0 with
  | Ok (Some r) => plot_operation r fs0 l mode "flow_rate" (Scale (fun i _ => i)) engine invert
  | _ => Err KeyError
  end.
Definition shown (f : res (figure nat)) : list (string * list Q) := match f with Ok fig => map (fun s => (fst s, map Qred (snd s))) (drawn_series fig) | Err _ => [] end.
Example C89_applies : exists r, results_after default_config id_ord fs0 None ADatetime [DoModeling] x0 = Ok (Some r) /\ plots_right fs0 None x0 r (fun i _ => i)
  /\ (exists fig, plot_of "Heat" "area" "plotly" true = Ok fig /\ (forall t, (t <= 3)%nat -> Qabs (height fig t - depth fig t) <= 6 # 100000) /\ positions fig = [0; 1; 2; 3])
  /\ (exists fig times level, plot_storage r fs0 "Storage" "flow_rate" "bar" (Scale (fun i _ : nat => i)) false = Ok (fig, (times, level)) /\ map Qred level = [0; 45; 891 # 20; 83209 # 2000]).
Proof.
  destruct x0_integral as [pm [B I]]. destruct x0_feasible as [pm' [B' F]]. assert (pm' = pm) by congruence. subst pm'.
  assert (UB : used_bus fs0 heat) by (apply used_bus_list; simpl; tauto).
  assert (DB : distinct_buses fs0) by buses. assert (AP : names_apart fs0) by (apply apart_check; vm_compute; reflexivity).
  destruct (C89_plots_partial nat (fun i _ => i) _ _ _ _ ADatetime _ [DoModeling] x0 B I id_ord_perm (proj1 plain_0) DB AP ltac:(cbn; lia) (or_introl eq_refl)
     ltac:(intros [X|[]]; discriminate)) as [r [R P]].
  destruct (C89_balanced_partial nat (fun i _ => i) _ _ _ _ ADatetime _ [DoModeling] x0 B F I id_ord_perm (proj1 plain_0) DB AP ltac:(cbn; lia) (or_introl eq_refl)
     ltac:(intros [X|[]]; discriminate)) as [r' [R' BA]]. assert (r' = r) by congruence. subst r'.
  destruct (C89_storage_partial nat (fun i _ => i) _ _ _ _ ADatetime _ [DoModeling] x0 B I id_ord_perm (proj1 plain_0) DB AP ltac:(cbn; lia) (or_introl eq_refl)
     ltac:(intros [X|[]]; discriminate)) as [r' [R2 ST]]. assert (r' = r) by congruence. subst r'.
  exists r. split; [exact R|]. split; [exact P|]. split.
  - destruct (BA "plotly" "area" true heat)%string as [fig [PF BF]]; [left; split; [reflexivity|tauto]|exact UB|]. exists fig.
    assert (E : plot_of "Heat" "area" "plotly" true = Ok fig) by (unfold plot_of; rewrite R; exact PF). split; [exact E|]. split.
    + intros t Ht. apply (Qle_trans _ _ _ (BF t Ht)). vm_compute. discriminate.
    + assert (X : match plot_of "Heat" "area" "plotly" true with Ok fig => positions fig | Err _ => [] end = [0; 1; 2; 3]) by (vm_compute; reflexivity). rewrite E in X. exact X.
  - assert (X : match results_after default_config id_ord fs0 None ADatetime [DoModeling] x0 with Ok (Some r) =>
                  match plot_storage r fs0 "Storage" "flow_rate" "bar" (Scale (fun i _ : nat => i)) false with Ok (_, (_, l)) => map Qred l | Err _ => [] end | _ => [] end = [0; 45; 891 # 20; 83209 # 2000])
      by (vm_compute; reflexivity).
    rewrite R in X. destruct (plot_storage r fs0 "Storage" _ _ _ _) as [[fig [times level]]|]; [|discriminate X]. exists fig, times, level. split; [reflexivity|exact X].
Qed.
Example C89_shown : shown (plot_of "Heat" "area" "plotly" true)
  = [("Boiler__Q_th", [2; 20; 0; 0]); ("Storage__dis", [0; 0; 2; 2]); ("Excess Input", [58; 10; 18; 18]); ("Storage__ch", [-50; 0; 0; 0]); ("Demand__Q", [-10; -30; -20; -20])]%string
  /\ shown (plot_of "Boiler" "bar" "matplotlib" false) = [("Boiler__Q_fu", [-4; -40; 0; 0]); ("Boiler__Q_th", [2; 20; 0; 0])]%string.
Proof. split; vm_compute; reflexivity. Qed.

(** ** What is refused *)
Theorem C89_refused : forall C r fs l var mode (colours : palette C) engine invert,
  (forall cs, mode = "heatmap"%string -> colours = Listed cs -> plot_operation r fs l mode var colours engine invert = Err ValueError)
  /\ forall fm, to_dataframe r fs l var (if invert then 1 else -1) (if invert then -1 else 1) (Some (1 # 100000)) true = Ok fm -> mode <> "heatmap"%string ->
     (engine <> "plotly"%string -> engine <> "matplotlib"%string -> plot_operation r fs l mode var colours engine invert = Err ValueError)
     /\ (engine = "plotly"%string \/ engine = "matplotlib"%string -> ~ offered engine mode -> plot_operation r fs l mode var colours engine invert = Err AssertionError)
     /\ (forall cs, offered engine mode -> colours = Listed cs -> length cs <> length (fm_columns fm) -> fm_columns fm <> [] -> fm_index fm <> [] ->
          plot_operation r fs l mode var colours engine invert = Err AssertionError).
Proof.
  intros C r fs l var mode colours engine invert. split; [intros cs -> ->; reflexivity|]. intros fm E M. apply String.eqb_neq in M.
  assert (G : plot_operation r fs l mode var colours engine invert
    = if String.eqb engine "plotly" then with_plotly fm mode colours else if String.eqb engine "matplotlib" then with_matplotlib fm mode colours else Err ValueError).
  { unfold plot_operation. cbv zeta. rewrite M. cbn [andb negb guard bind]. rewrite E. reflexivity. }
  rewrite G. clear G. split; [|split].
  - intros A B. apply String.eqb_neq in A, B. rewrite A, B. reflexivity.
  - intros EN NO.
    assert (NB : String.eqb mode "bar" = false).
    { apply String.eqb_neq. intros ->. apply NO. destruct EN as [-> | ->]; [left|right]; split; auto. }
    assert (NL : String.eqb mode "line" = false).
    { apply String.eqb_neq. intros ->. apply NO. destruct EN as [-> | ->]; [left|right]; split; auto. }
    destruct EN as [-> | ->].
    + assert (NR : String.eqb mode "area" = false) by (apply String.eqb_neq; intros ->; apply NO; left; split; auto).
      cbn [String.eqb Ascii.eqb Bool.eqb]. unfold with_plotly. cbn [existsb]. rewrite NB, NL, NR. reflexivity.
    + unfold with_matplotlib. cbn [existsb]. rewrite NB, NL. reflexivity.
  - intros cs OF -> LC NE NI. apply Nat.eqb_neq in LC.
    assert (EF : empty_frame fm = false) by (unfold empty_frame; destruct (fm_columns fm), (fm_index fm); try contradiction; reflexivity).
    destruct OF as [[-> O]|[-> O]].
    + change (String.eqb "plotly" "plotly") with true. cbv iota. unfold with_plotly. replace (existsb (String.eqb mode) ["bar"; "line"; "area"]%string) with true by (destruct O as [-> |[-> | ->]]; reflexivity).
      cbn [guard bind]. rewrite EF. cbv zeta iota. rewrite LC. reflexivity.
    + change (String.eqb "matplotlib" "plotly") with false. change (String.eqb "matplotlib" "matplotlib") with true. cbv iota. unfold with_matplotlib.
      replace (existsb (String.eqb mode) ["bar"; "line"]%string) with true by (destruct O as [-> | ->]; reflexivity). cbn [guard bind]. cbv zeta iota. rewrite LC. reflexivity.
Qed.
Print Assumptions C89_refused.

(** Matplotlib cannot draw areas, the default mode: the claim for all documented modes of both engines is false. *)
Definition C89_every_mode : Prop := forall C (colour : nat -> nat -> C) cf ord fs idx kd pm history x,
  build cf ord fs idx = Ok pm -> integral pm x -> (forall l, Permutation (ord l) l) ->
  plain_labels fs -> distinct_buses fs -> names_apart fs -> (2 <= steps fs idx)%nat -> In DoModeling history -> ~ In GetResults history ->
  exists r, results_after cf ord fs idx kd history x = Ok (Some r) /\ forall engine mode invert b,
    (engine = "plotly" \/ engine = "matplotlib")%string -> (mode = "bar" \/ mode = "line" \/ mode = "area")%string -> used_bus fs b ->
    exists fig, plot_operation r fs (b_lab b) mode "flow_rate" (Scale colour) engine invert = Ok fig.
Theorem C89_refuted : ~ C89_every_mode.
Proof.
  intros FA. destruct x0_integral as [pm [B I]].
  assert (UB : used_bus fs0 heat) by (apply used_bus_list; simpl; tauto).
  assert (DB : distinct_buses fs0) by buses. assert (AP : names_apart fs0) by (apply apart_check; vm_compute; reflexivity).
  destruct (FA nat (fun i _ => i) _ _ _ _ ADatetime _ [DoModeling] x0 B I id_ord_perm (proj1 plain_0) DB AP ltac:(cbn; lia) (or_introl eq_refl)
     ltac:(intros [X|[]]; discriminate)) as [r [R P]].
  destruct (P "matplotlib" "area" true heat ltac:(auto) ltac:(auto) UB)%string as [fig E].
  assert (X : plot_of "Heat" "area" "matplotlib" true = Err AssertionError) by (vm_compute; reflexivity). unfold plot_of in X. rewrite R in X.
  change (b_lab heat) with "Heat"%string in E. rewrite E in X. discriminate X.
Qed.
Print Assumptions C89_refuted.

(** ** The form of a figure and its colours *)
Definition form_of {C} (engine mode : string) (fig : figure C) : Prop :=
  match fig with
  | Blank => engine = "plotly"%string
  | Bars _ _ => engine = "plotly"%string /\ mode = "bar"%string
  | Stacked _ _ => engine = "matplotlib"%string /\ mode = "bar"%string
  | Steps _ _ => mode = "line"%string
  | Areas _ _ => engine = "plotly"%string /\ mode = "area"%string
  | HeatOf _ => mode = "heatmap"%string
  end.
(** The colours for [n] series: those of the list, or as many of the scale. *)
Definition given {C} (colours : palette C) (n : nat) : list C := match colours with Scale f => map (fun i => f i n) (seq 0 n) | Listed l => l end.
(** Bars and lines take the colours in their order; areas, which are drawn in another order, take no others. *)
Definition coloured {C} (colours : palette C) (fig : figure C) : Prop :=
  match fig with
  | Blank | HeatOf _ => True
  | Bars _ l | Steps _ l => map snd l = given colours (length l)
  | Stacked _ l => map (fun pm => br_colour (fst pm)) l = given colours (length l) /\ map (fun pm => br_colour (snd pm)) l = given colours (length l)
  | Areas _ l => exists n, (n <= length l)%nat /\ forall tr, In tr l -> In (tr_colour tr) (given colours n)
  end.
Lemma scale_given : forall {C} (f : nat -> nat -> C) n, n <> 0%nat -> (if Nat.ltb 1 n then map (fun i => f i n) (seq 0 n) else [f 0%nat n]) = map (fun i => f i n) (seq 0 n).
Proof. intros C f n N. destruct (Nat.ltb 1 n) eqn:E; [reflexivity|]. apply Nat.ltb_ge in E. destruct n as [|[|n]]; [congruence|reflexivity|lia]. Qed.
Lemma stack_colours : forall {C} cols (colours : list C) pos neg, length colours = length cols ->
  map (fun pm => br_colour (fst pm)) (stack cols colours pos neg) = colours /\ map (fun pm => br_colour (snd pm)) (stack cols colours pos neg) = colours
  /\ length (stack cols colours pos neg) = length cols.
Proof.
  intros C cols. induction cols as [|[l v] cols IH]; intros [|c colours] pos neg L; try discriminate L; [repeat split; reflexivity|]. injection L as L.
  cbn [stack map fst snd br_colour length]. destruct (IH colours (add2 pos (positive_part v)) (add2 neg (negative_part v)) L) as (A & B & D). rewrite A, B, D. repeat split; reflexivity.
Qed.
Lemma map_snd_combine : forall {A B} (a : list A) (b : list B), length b = length a -> map snd (combine a b) = b /\ length (combine a b) = length a.
Proof.
  intros A B a. induction a as [|x a IH]; intros [|y b] L; try discriminate L; [split; reflexivity|]. injection L as L. cbn [combine map snd length].
  destruct (IH b L) as [E F]. rewrite E, F. split; reflexivity.
Qed.
Lemma parts_length : forall {A} (p q : A -> bool) l, (length l <= length (filter p l) + length (filter q l) + length (filter (fun a => negb (p a || q a)%bool) l))%nat.
Proof. intros A p q l. induction l as [|a l IH]; [cbn; lia|]. cbn [filter length]. destruct (p a), (q a); cbn [orb negb length]; lia. Qed.
Lemma area_colours : forall {C} cols (colours : list C) trs, area_traces cols colours = Ok trs ->
  (length cols <= length trs)%nat /\ forall tr, In tr trs -> In (tr_colour tr) colours.
Proof.
  intros C cols colours trs H. unfold area_traces in H. destruct (Nat.eqb _ _) eqn:L in H; [|discriminate H]. cbn [guard bind] in H. cbv zeta in H. injection H as <-. apply Nat.eqb_eq in L.
  set (d := combine _ colours). split.
  - rewrite !app_length, !map_length, app_length. pose proof (parts_length up down d) as P. assert (LD : length d = length cols) by (unfold d; rewrite combine_length, map_length; lia). lia.
  - assert (D : forall c, In c d -> In (snd c) colours) by (intros [a c] I; exact (in_combine_r _ _ _ _ I)).
    intros tr H. rewrite in_app_iff, !in_map_iff in H. destruct H as [(c & <- & I)|(c & <- & I)]; cbn [tr_colour]; apply D.
    + apply in_app_iff in I. destruct I as [I|I]; apply filter_In in I; exact (proj1 I).
    + apply filter_In in I. exact (proj1 I).
Qed.
(** Every figure is of the form asked for and has the colours asked for. *)
Theorem C89_form : forall C r fs l mode var (colours : palette C) engine invert fig, plot_operation r fs l mode var colours engine invert = Ok fig ->
  form_of engine mode fig /\ coloured colours fig.
Proof.
  intros C r fs l mode var colours engine invert fig H. unfold plot_operation in H. cbv zeta in H.
  destruct (guard _ ValueError) as [[]|] in H; [|discriminate H]. cbn [bind] in H. destruct (to_dataframe _ _ _ _ _ _ _ _) as [data|] in H; [|discriminate H]. cbn [bind] in H.
  destruct (String.eqb engine "plotly") eqn:P; [apply String.eqb_eq in P; subst engine|].
  - destruct (String.eqb mode "heatmap") eqn:HM; [apply String.eqb_eq in HM; subst mode; injection H as <-; split; [reflexivity|exact Logic.I]|].
    unfold with_plotly in H. destruct (existsb (String.eqb mode) ["bar"; "line"; "area"]%string) eqn:EM; [|discriminate H]. cbn [guard bind] in H.
    destruct (empty_frame data) eqn:EF; [injection H as <-; split; [reflexivity|exact Logic.I]|]. cbv zeta in H.
    assert (NZ : length (fm_columns data) <> 0%nat) by (intros Z; unfold empty_frame in EF; rewrite Z in EF; discriminate EF).
    match type of H with context [combine _ ?c] => assert (EL : c = given colours (length (fm_columns data))) by (destruct colours as [f|gl]; [apply scale_given; exact NZ|reflexivity]); rewrite EL in H end.
    destruct (Nat.eqb_spec (length (given colours (length (fm_columns data)))) (length (fm_columns data))) as [L|]; [|discriminate H]. cbn [guard bind] in H.
    destruct (map_snd_combine (fm_columns data) _ L) as [SC LC].
    destruct (String.eqb_spec mode "bar") as [->|NB]; [injection H as <-; split; [split; reflexivity|]; cbn [coloured]; rewrite LC; exact SC|].
    destruct (String.eqb_spec mode "line") as [->|NL]; [injection H as <-; split; [reflexivity|]; cbn [coloured]; rewrite LC; exact SC|].
    destruct (area_traces _ _) as [trs|] eqn:A in H; [|discriminate H]. injection H as <-. destruct (area_colours _ _ _ A) as [A1 A2]. split.
    + split; [reflexivity|]. cbn [existsb] in EM. destruct (String.eqb_spec mode "bar"); [congruence|]. destruct (String.eqb_spec mode "line"); [congruence|].
      destruct (String.eqb_spec mode "area"); [assumption|discriminate EM].
    + cbn [coloured]. exists (length (fm_columns data)). split; assumption.
  - destruct (String.eqb engine "matplotlib") eqn:M; [apply String.eqb_eq in M; subst engine|discriminate H].
    destruct (String.eqb mode "heatmap") eqn:HM; [apply String.eqb_eq in HM; subst mode; injection H as <-; split; [reflexivity|exact Logic.I]|].
    unfold with_matplotlib in H. destruct (existsb (String.eqb mode) ["bar"; "line"]%string) eqn:EM; [|discriminate H]. cbn [guard bind] in H. cbv zeta in H.
    change (match colours with Scale f => map (fun i => f i (length (fm_columns data))) (seq 0 (length (fm_columns data))) | Listed l => l end) with (given colours (length (fm_columns data))) in H.
    destruct (Nat.eqb_spec (length (given colours (length (fm_columns data)))) (length (fm_columns data))) as [L|]; [|discriminate H]. cbn [guard bind] in H.
    destruct (map_snd_combine (fm_columns data) _ L) as [SC LC].
    destruct (String.eqb_spec mode "bar") as [->|NB].
    + unfold stacked_bars in H. rewrite L, Nat.eqb_refl in H. cbn [guard bind] in H. injection H as <-. split; [split; reflexivity|]. cbn [coloured].
      destruct (stack_colours (fm_columns data) _ (repeat 0 (length (fm_index data))) (repeat 0 (length (fm_index data))) L) as (A & B & D). rewrite D, A, B. split; reflexivity.
    + injection H as <-. split; [|cbn [coloured]; rewrite LC; exact SC]. cbn [existsb] in EM. destruct (String.eqb_spec mode "bar"); [congruence|].
      destruct (String.eqb_spec mode "line"); [assumption|discriminate EM].
Qed.
Print Assumptions C89_form.
Example C89_form_applies : exists fig, plot_of "Boiler" "line" "plotly" false = Ok fig /\ (exists at_ l, fig = Steps at_ l /\ map snd l = [0; 1]%nat).
Proof. eexists. split; [vm_compute; reflexivity|]. eexists _, _. split; reflexivity. Qed.
