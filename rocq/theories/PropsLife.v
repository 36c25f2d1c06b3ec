(** C59: what one time series returns after any sequence of uses. *)
From Coq Require Import String.
From Verif Require Import Base BaseFacts MathModel Params System Spec SysSpec Structure Features CtxFacts Series PropsSeries.

(** ** Specification *)

(** Uses of a time series: activating indices, possibly with aggregated data, and resetting. A refused use raises; its
    caller may go on. *)
Inductive tsop : Type := Use (idx : option (list nat)) (agg : option (list Q)) | Reset.
Definition tstep (ts : tseries) (o : tsop) : tseries :=
  match o with Use idx agg => fst (activate_indices ts idx agg) | Reset => clear_ts ts end.
Definition traise (ts : tseries) (o : tsop) : option exn :=
  match o with Use idx agg => snd (activate_indices ts idx agg) | Reset => None end.
Definition trun (ts : tseries) (l : list tsop) : tseries := fold_left tstep l ts.

(** Aggregated data that can be accepted together with indices: one value per index, or a single one. *)
Definition fitting (ix : list nat) (l : list Q) : Prop := l <> [] /\ (length l = length ix \/ length l = 1%nat).
(** The use neither resets the series nor brings acceptable aggregated data. *)
Definition mere (o : tsop) : Prop :=
  match o with Reset => False | Use (Some ix) (Some l) => ~ fitting ix l | Use _ _ => True end.
(** The indices of the latest use; none before the first. *)
Definition latest (l : list tsop) : option (list nat) :=
  match rev l with Use ix _ :: _ => ix | _ => None end.

(** ** Proofs *)
Lemma activate_cases : forall ts idx agg, exists a e, activate_indices ts idx agg = (mkTS (ts_label ts) (ts_data ts) (ts_weight ts) (ts_group ts) idx a, e)
  /\ ((a = ts_agg ts /\ (forall ix l, idx = Some ix -> agg = Some l -> ~ fitting ix l))
      \/ exists ix l d, idx = Some ix /\ agg = Some l /\ fitting ix l /\ make_scalar (NV l) = Ok d /\ a = Some d /\ e = None).
Proof.
  intros ts idx agg. unfold activate_indices. destruct agg as [l|].
  - destruct idx as [ix|].
    + destruct (Nat.eqb (length l) (length ix) || Nat.eqb (length l) 1)%bool eqn:E.
      * assert (F : l <> [] -> fitting ix l).
        { intros NE. split; auto. apply orb_prop in E. destruct E as [E|E]; apply Nat.eqb_eq in E; auto. }
        destruct (make_scalar (NV l)) as [d|e] eqn:M.
        -- exists (Some d), None. split; [reflexivity|]. right. exists ix, l, d. repeat split; auto; try (apply F); destruct l; discriminate.
        -- exists (ts_agg ts), (Some e). split; [reflexivity|]. left. split; auto. intros ix' l' Ei El [NE _]. injection El as <-. destruct l as [|q r]; [congruence|].
           simpl in M. destruct (forallb _ r); discriminate.
      * exists (ts_agg ts), (Some AssertionError). split; [reflexivity|]. left. split; auto. intros ix' l' Ei El [NE F]. injection Ei as <-. injection El as <-.
        apply orb_false_elim in E. destruct E as [E1 E2]. apply Nat.eqb_neq in E1. apply Nat.eqb_neq in E2. tauto.
    + exists (ts_agg ts), (Some TypeError). split; [reflexivity|]. left. split; auto. discriminate.
  - exists (ts_agg ts), None. split; [reflexivity|]. left. split; auto. discriminate.
Qed.
Lemma mere_step : forall ts o, mere o -> exists idx, (exists agg, o = Use idx agg) /\ tstep ts o = mkTS (ts_label ts) (ts_data ts) (ts_weight ts) (ts_group ts) idx (ts_agg ts).
Proof.
  intros ts [idx agg|] M; [|destruct M]. exists idx. split; [eauto|]. simpl. destruct (activate_cases ts idx agg) as [a [e [-> [[-> _]|[ix [l [d [-> [-> [F _]]]]]]]]]]; [reflexivity|].
  simpl in M. tauto.
Qed.
Lemma latest_snoc : forall l o, latest (l ++ [o]) = match o with Use ix _ => ix | Reset => None end.
Proof. intros l o. unfold latest. rewrite rev_app_distr. simpl. destruct o; reflexivity. Qed.
Lemma mere_run : forall l ts, Forall mere l -> trun ts l = mkTS (ts_label ts) (ts_data ts) (ts_weight ts) (ts_group ts) (match l with [] => ts_idx ts | _ => latest l end) (ts_agg ts).
Proof.
  intros l. induction l as [|o l IH] using rev_ind; intros ts F; [destruct ts; reflexivity|].
  apply Forall_app in F. destruct F as [F1 F2]. inversion F2 as [|? ? M _]; subst. unfold trun. rewrite fold_left_app. simpl. fold (trun ts l). rewrite (IH ts F1).
  destruct (mere_step (mkTS (ts_label ts) (ts_data ts) (ts_weight ts) (ts_group ts) (match l with [] => ts_idx ts | _ => latest l end) (ts_agg ts)) o M) as [idx [[agg ->] E]].
  rewrite E. simpl. rewrite latest_snoc. destruct (l ++ [Use idx agg])%list eqn:Z; [destruct l; discriminate|]. reflexivity.
Qed.
Lemma trun_app : forall ts a b, trun ts (a ++ b) = trun (trun ts a) b.
Proof. intros. unfold trun. apply fold_left_app. Qed.
Lemma step_keeps : forall ts o, ts_label (tstep ts o) = ts_label ts /\ ts_data (tstep ts o) = ts_data ts /\ ts_weight (tstep ts o) = ts_weight ts /\ ts_group (tstep ts o) = ts_group ts.
Proof. intros ts [idx agg|]; simpl; [|auto]. destruct (activate_cases ts idx agg) as [a [e [-> _]]]. simpl. auto. Qed.
Lemma run_keeps : forall l ts, ts_label (trun ts l) = ts_label ts /\ ts_data (trun ts l) = ts_data ts /\ ts_weight (trun ts l) = ts_weight ts /\ ts_group (trun ts l) = ts_group ts.
Proof.
  induction l as [|o l IH]; intros ts; [auto|]. destruct (step_keeps ts o) as [A [B [C D]]]. destruct (IH (tstep ts o)) as [A' [B' [C' D']]].
  unfold trun in *. simpl. repeat split; congruence.
Qed.

(** ** Theorems *)

(** Using a series changes neither its label, nor the user's data, nor weight and group. *)
Theorem C59_data_kept : forall ts l,
  ts_label (trun ts l) = ts_label ts /\ ts_data (trun ts l) = ts_data ts /\ ts_weight (trun ts l) = ts_weight ts /\ ts_group (trun ts l) = ts_group ts.
Proof. intros. apply run_keeps. Qed.
Print Assumptions C59_data_kept.

(** Aggregated data, once accepted, are what the series returns until it is reset or gets other aggregated data - also
    after indices are activated without any. *)
Theorem C59_aggregated : forall ts pre ix l post, fitting ix l -> Forall mere post ->
  exists a, active_data (trun ts (pre ++ Use (Some ix) (Some l) :: post)) = Ok a /\ forall t, (t < length ix)%nat -> at_ a t == nth t l (hd 0 l).
Proof.
  intros ts pre ix l post F M. change (Use (Some ix) (Some l) :: post) with ([Use (Some ix) (Some l)] ++ post)%list. rewrite !trun_app.
  rewrite mere_run by auto. unfold active_data. cbn [ts_agg].
  change (trun (trun ts pre) [Use (Some ix) (Some l)]) with (fst (activate_indices (trun ts pre) (Some ix) (Some l))).
  destruct (activate_cases (trun ts pre) (Some ix) (Some l)) as [a [e [-> [[_ N]|[ix' [l' [d [Ei [El [_ [S [-> _]]]]]]]]]]]].
  { exfalso. exact (N _ _ eq_refl eq_refl F). }
  injection Ei as <-. injection El as <-. simpl. exists d. split; auto. intros t Ht. apply make_scalar_spec in S. destruct F as [NE FL].
  destruct S as [_ [[q [-> Q]]|[-> L]]].
  - change (at_ (NS q) t) with q. symmetry. destruct (Nat.lt_ge_cases t (length l)) as [Hl|Hl]; [apply Q, nth_In; auto|].
    rewrite nth_overflow by auto. apply Q. destruct l; [congruence|simpl; auto].
  - destruct FL as [FL|FL]; [|rewrite FL in L; lia]. rewrite at_NV by lia. rewrite (nth_indep l 0 (hd 0 l)) by lia. reflexivity.
Qed.
Print Assumptions C59_aggregated.

(** Without aggregated data since the latest reset (or creation) the series returns the user's values at the indices of the
    latest use, all of them if there is none; indices outside the data are an error. *)
Theorem C59_selected : forall label p ts pre post, mk_ts label p = Ok ts -> (pre = [] \/ exists pre', pre = (pre' ++ [Reset])%list) -> Forall mere post ->
  let idx := latest post in
  match active_data (trun ts (pre ++ post)) with
  | Ok a => forall t, (forall ix, idx = Some ix -> (t < length ix)%nat) -> covers p (selected idx t) -> at_ a t == value idx p t
  | Err _ => exists d ix i, pdata p = NV d /\ idx = Some ix /\ In i ix /\ (length d <= i)%nat
  end.
Proof.
  intros label p ts pre post MK PRE M idx. destruct (mk_ts_data _ _ _ MK) as [D [AG _]].
  assert (I0 : ts_idx ts = None) by (unfold mk_ts in MK; destruct (make_scalar (pdata p)); [|discriminate]; simpl in MK; injection MK as <-; destruct p; reflexivity).
  assert (E : active_data (trun ts (pre ++ post)) = active_of idx (ts_data ts)).
  { rewrite trun_app. rewrite mere_run by auto. unfold active_data. cbn [ts_agg ts_idx ts_data]. destruct (run_keeps pre ts) as [_ [-> _]].
    assert (Z : ts_agg (trun ts pre) = None /\ ts_idx (trun ts pre) = None).
    { destruct PRE as [->|[pre' ->]]; [auto|]. rewrite trun_app. split; reflexivity. }
    destruct Z as [-> ->]. unfold idx. destruct post; reflexivity. }
  rewrite E. apply make_scalar_spec in D. unfold covers, value. destruct (pdata p) as [q|v].
  - rewrite D. assert (A : active_of idx (NS q) = Ok (NS q)) by (destruct idx; reflexivity). rewrite A. simpl. reflexivity.
  - destruct D as [Ne [[q [-> Q]]|[-> L]]].
    + assert (A : active_of idx (NS q) = Ok (NS q)) by (destruct idx; reflexivity). rewrite A. simpl. intros t _ C. symmetry. apply Q. apply nth_In; auto.
    + destruct idx as [ix|]; simpl.
      * destruct (take_idx v ix) as [r|x] eqn:K; simpl.
        -- destruct (take_idx_spec _ _ _ K) as [Lr N]. intros t Ht C. specialize (Ht ix eq_refl). fold (at_ (NV r) t). rewrite at_NV by lia. rewrite (N t (hd 0 v)) by auto. reflexivity.
        -- assert (X : exists i, In i ix /\ (length v <= i)%nat).
           { clear - K. unfold take_idx in K. revert K. induction ix as [|i ix IH]; simpl; intros K; [discriminate|].
             destruct (nth_error v i) eqn:N; simpl in K.
             - destruct (mapM _ ix) eqn:Z; simpl in K; [discriminate|]. destruct (IH K) as [j [J1 J2]]. eauto.
             - exists i. split; auto. apply nth_error_None; auto. }
           destruct X as [i [X1 X2]]. exists v, ix, i. auto.
      * intros t _ C. fold (at_ (NV v) t). simpl selected in *. rewrite at_NV by auto. rewrite (nth_indep v (hd 0 v) 0); auto. reflexivity.
Qed.
Print Assumptions C59_selected.

(** Which uses are refused: aggregated data without indices or of the wrong length. Even then the new indices are in force. *)
Theorem C59_refused : forall ts idx agg, ts_idx (tstep ts (Use idx agg)) = idx
  /\ (traise ts (Use idx agg) = None <-> match agg, idx with None, _ => True | Some l, Some ix => fitting ix l | Some _, None => False end)
  /\ (traise ts (Use idx agg) <> None -> active_data (tstep ts (Use idx agg)) = active_data (tstep ts (Use idx None))).
Proof.
  intros ts idx agg. simpl. unfold activate_indices. destruct agg as [l|]; [|repeat split; auto; congruence]. destruct idx as [ix|].
  - destruct (Nat.eqb (length l) (length ix) || Nat.eqb (length l) 1)%bool eqn:E.
    + destruct l as [|q r]; simpl in *.
      * split; [reflexivity|]. split; [|reflexivity]. split; [discriminate|]. intros [NE _]. congruence.
      * assert (F : fitting ix (q :: r)).
        { split; [discriminate|]. apply orb_prop in E. simpl. destruct E as [E|E]; [left; destruct (length ix); [discriminate|apply Nat.eqb_eq in E; lia]|right; apply Nat.eqb_eq in E; lia]. }
        destruct (forallb _ r); simpl; (split; [reflexivity|]; split; [tauto|congruence]).
    + simpl. split; [reflexivity|]. split; [|reflexivity]. split; [discriminate|]. intros [NE F]. apply orb_false_elim in E. destruct E as [E1 E2].
      apply Nat.eqb_neq in E1. apply Nat.eqb_neq in E2. tauto.
  - simpl. split; [reflexivity|]. split; [|reflexivity]. split; [discriminate|tauto].
Qed.
Print Assumptions C59_refused.

(** Activating other indices without a reset keeps the aggregated data: asked for one value per index, the series then
    repeats a constant, or fails if the number of indices has changed. *)
Theorem C59_vector_after_reuse : forall ts pre ix l ix', fitting ix l ->
  let ts' := trun ts (pre ++ [Use (Some ix) (Some l); Use (Some ix') None]) in
  match active_data_vector ts' with
  | Ok v => length v = length ix' /\ forall t, (t < length ix')%nat -> (t < length l)%nat -> nth t v 0 == nth t l 0
  | Err e => e = PyException /\ length ix' <> length l
  end.
Proof.
  intros ts pre ix l ix' F ts'.
  assert (A : ts_idx ts' = Some ix' /\ exists d, make_scalar (NV l) = Ok d /\ active_data ts' = Ok d).
  { unfold ts'. rewrite trun_app.
    change (trun (trun ts pre) [Use (Some ix) (Some l); Use (Some ix') None]) with (tstep (fst (activate_indices (trun ts pre) (Some ix) (Some l))) (Use (Some ix') None)).
    destruct (activate_cases (trun ts pre) (Some ix) (Some l)) as [a [e [-> [[_ N]|[i [m [d [Ei [El [_ [S [-> _]]]]]]]]]]]].
    { exfalso. exact (N _ _ eq_refl eq_refl F). }
    injection Ei as <-. injection El as <-. simpl. split; auto. exists d. auto. }
  destruct A as [AI [d [S AD]]]. unfold active_data_vector. rewrite AD, AI. cbn [bind]. apply make_scalar_spec in S. destruct S as [NE [[q [-> Q]]|[-> L]]].
  - simpl. rewrite repeat_length. split; auto. intros t Ht Hl. rewrite (nth_indep _ 0 q) by (rewrite repeat_length; auto). rewrite nth_repeat. symmetry. apply Q, nth_In. auto.
  - simpl. destruct (Nat.eqb (length l) (length ix')) eqn:E.
    + apply Nat.eqb_eq in E. split; auto. intros. reflexivity.
    + apply Nat.eqb_neq in E. split; auto.
Qed.
Print Assumptions C59_vector_after_reuse.

Definition life_ts : tseries := mkTS "price" (NV [1; 2; 3; 4]) None None None None.
Definition life_ops : list tsop := [Use (Some [0; 1]%nat) (Some [5; 6]); Use (Some [1; 2; 3]%nat) (Some [7; 8])].
Example C59_applies : mk_ts "price" (PNum (NV [1; 2; 3; 4])) = Ok life_ts
  /\ fitting [0; 1]%nat [5; 6] /\ ~ fitting [1; 2; 3]%nat [7; 8]
  /\ active_data (trun life_ts life_ops) = Ok (NV [5; 6])
  /\ active_data_vector (trun life_ts life_ops) = Err PyException
  /\ active_data (trun life_ts (life_ops ++ [Reset; Use (Some [1; 3]%nat) None])) = Ok (NV [2; 4]).
Proof.
  split; [reflexivity|]. split; [split; [discriminate|left; reflexivity]|]. split; [intros [_ [F|F]]; discriminate F|]. repeat split.
Qed.
