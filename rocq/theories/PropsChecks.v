(** Claim C102: the two directions of a transmission belong together, and only the first of its flows decides on the investment. The check is written down but never made. *)
From Coq Require Import Permutation Qabs Lqa Lia.
From Verif Require Import Base BaseFacts MathModel Spec Structure Params Features Elements Library Checks System SysSpec AdmitSpec CtxFacts NavFacts PropsOnOff PropsComp PropsEffects PlanSpec Example
     TotalInvest PlanComp PlanSame PlanCheck ExamplePoints PropsPlan PropsRelax PropsTotal.

(** ** Specification *)

(** The second direction begins where the first one ends and ends where the first one begins. *)
Definition there_and_back (in1 out1 : flow) (in2 out2 : option flow) : Prop :=
  (forall f, in2 = Some f -> b_id (f_bus f) = b_id (f_bus out1)) /\ (forall f, out2 = Some f -> b_id (f_bus f) = b_id (f_bus in1)).
(** No flow except the first input is an investment. *)
Definition one_investment (out1 : flow) (in2 out2 : option flow) : Prop :=
  forall f iv, f = out1 \/ in2 = Some f \/ out2 = Some f -> f_size f <> SzInv iv.
(** What a component takes from and delivers to a bus. *)
Definition takes (x : asg) (c : component) (b : bus) (t : nat) : Q := Qsum (map (fun f => rate_of x c f t) (filter (connected b) (cp_in c))).
Definition delivers (x : asg) (c : component) (b : bus) (t : nat) : Q := Qsum (map (fun f => rate_of x c f t) (filter (connected b) (cp_out c))).

(** ** C102 *)

Lemma guard_ok : forall b e, guard b e = Ok tt <-> b = true.
Proof. intros [|] e; cbn; split; congruence. Qed.
(** The check, if it were made, accepts exactly the transmissions that fit. *)
Theorem C102_check : forall in1 out1 in2 out2, transmission_check in1 out1 in2 out2 = Ok tt <-> there_and_back in1 out1 in2 out2 /\ one_investment out1 in2 out2.
Proof.
  intros in1 out1 in2 out2. unfold transmission_check, there_and_back, one_investment.
  assert (INV : forall l, negb (existsb has_invest l) = true <-> forall f iv, In f l -> f_size f <> SzInv iv).
  { intros l. rewrite negb_true_iff. split.
    - intros H f iv Hf E. apply not_true_iff_false in H. apply H. apply existsb_exists. exists f. split; [exact Hf|]. unfold has_invest. rewrite E. reflexivity.
    - intros H. apply not_true_iff_false. intros X. apply existsb_exists in X. destruct X as [f [Hf E]]. unfold has_invest in E. destruct (f_size f) as [q|iv] eqn:S; [discriminate E|]. exact (H f iv Hf S). }
  assert (MEM : forall f, In f (out1 :: opt_flow in2 ++ opt_flow out2) <-> f = out1 \/ in2 = Some f \/ out2 = Some f).
  { assert (OF : forall o (f : flow), In f (opt_flow o) <-> o = Some f) by (intros [g|] f; cbn; [split; [intros [->|[]]; reflexivity|intros E; left; congruence]|split; [contradiction|discriminate]]).
    intros f. cbn [In]. rewrite in_app_iff, !OF. split; (intros [H|H]; [left; congruence|right; exact H]). }
  split.
  - intros H. apply bind_ok in H. destruct H as [[] [H1 H]]. apply bind_ok in H. destruct H as [[] [H2 H3]]. apply guard_ok in H3. split; [split|].
    + intros f ->. apply guard_ok in H1. apply Nat.eqb_eq in H1. exact H1.
    + intros f ->. apply guard_ok in H2. apply Nat.eqb_eq in H2. exact H2.
    + intros f iv Hf. apply (proj1 (INV _) H3). apply MEM. exact Hf.
  - intros [[H1 H2] H3]. assert (G1 : match in2 with Some f => guard (same_bus f out1) AssertionError | None => Ok tt end = Ok tt) by (destruct in2 as [f|]; [|reflexivity]; apply guard_ok, Nat.eqb_eq, H1; reflexivity).
    assert (G2 : match out2 with Some f => guard (same_bus f in1) AssertionError | None => Ok tt end = Ok tt) by (destruct out2 as [f|]; [|reflexivity]; apply guard_ok, Nat.eqb_eq, H2; reflexivity).
    rewrite G1, G2. cbn [bind]. apply guard_ok. apply INV. intros f iv Hf. apply H3. apply MEM. exact Hf.
Qed.
Print Assumptions C102_check.

(** A transmission that fits carries from one side to the other, less losses, in both directions. *)
Theorem C102_sides_partial : forall cf ord fs pm label in1 out1 i2 o2 rel abs oo prevent x t, (forall l, Permutation (ord l) l) -> build cf ord fs None = Ok pm -> sensible cf fs None ->
  let c := transmission label in1 out1 (Some i2) (Some o2) rel abs oo prevent in
  In c (fs_comps fs) -> transmission_check in1 out1 (Some i2) (Some o2) = Ok tt -> b_id (f_bus in1) <> b_id (f_bus out1) -> feasible pm x -> (t < steps fs None)%nat ->
  delivers x c (f_bus out1) t == takes x c (f_bus in1) t * (1 - lost None rel t) - lost None abs t * (if abs then on_of x c in1 t else 0)
  /\ delivers x c (f_bus in1) t == takes x c (f_bus out1) t * (1 - lost None rel t) - lost None abs t * (if abs then on_of x c i2 t else 0).
Proof.
  intros cf ord fs pm label in1 out1 i2 o2 rel abs oo prevent x t PO B SE c Hc CK NE F Ht. apply C102_check in CK. destruct CK as [[E1 E2] _]. specialize (E1 _ eq_refl). specialize (E2 _ eq_refl).
  pose proof (ob_own _ _ _ _ (C57_solutions _ _ _ _ _ _ PO B SE F) c Hc) as OW. unfold own_rule in OW. cbn [c transmission cp_kind] in OW. destruct (OW in1 out1 (Some i2) (Some o2) eq_refl eq_refl) as [C1 [C2 _]].
  unfold delivers, takes. cbn [c transmission cp_in cp_out opt_flow filter]. unfold connected. rewrite !Nat.eqb_refl, E1, E2, !Nat.eqb_refl.
  assert (N1 : Nat.eqb (b_id (f_bus in1)) (b_id (f_bus out1)) = false) by (apply Nat.eqb_neq; exact NE). assert (N2 : Nat.eqb (b_id (f_bus out1)) (b_id (f_bus in1)) = false) by (apply Nat.eqb_neq; intros X; apply NE; symmetry; exact X).
  rewrite ?N1, ?N2. fold c. split; cbn [map]; unfold Qsum; cbn [fold_right]; rewrite !Qplus_0_r; [exact (C1 t Ht)|exact (C2 t Ht)].
Qed.
Print Assumptions C102_sides_partial.

(** Its second direction has the size of the first one, at no extra cost: no investment of it except that of the first input has effects. *)
Theorem C102_costs_partial : forall cf ord fs pm label in1 out1 i2 o2 rel abs oo prevent x, (forall l, Permutation (ord l) l) -> build cf ord fs None = Ok pm -> sensible cf fs None ->
  let c := transmission label in1 out1 (Some i2) (Some o2) rel abs oo prevent in
  In c (fs_comps fs) -> transmission_check in1 out1 (Some i2) (Some o2) = Ok tt -> feasible pm x ->
  (forall iv, f_size in1 = SzInv iv -> size_of cf x c in1 == size_of cf x c i2)
  /\ forall nm iv e, In (nm, iv) (flat_map (flow_investment cf c) (cp_flows c)) -> nm = flow_name c in1 \/ invest_costs fs x nm iv e == 0.
Proof.
  intros cf ord fs pm label in1 out1 i2 o2 rel abs oo prevent x PO B SE c Hc CK F. apply C102_check in CK. destruct CK as [_ OI].
  pose proof (ob_own _ _ _ _ (C57_solutions _ _ _ _ _ _ PO B SE F) c Hc) as OW. unfold own_rule in OW. cbn [c transmission cp_kind] in OW. destruct (OW in1 out1 (Some i2) (Some o2) eq_refl eq_refl) as [_ [_ S2]]. split; [exact S2|].
  intros nm iv e H. apply in_flat_map in H. destruct H as [f [Hf H]]. unfold flow_investment in H. destruct (sized cf c f) as [q|iv0] eqn:E; [destruct H|]. destruct H as [H|[]]. injection H as <- <-.
  assert (W : f = in1 \/ f = i2 \/ f = out1 \/ f = o2) by (cbn in Hf; intuition congruence).
  assert (FREE : forall m, invest_costs fs x (flow_name c f) (mkInvest None 0 (Some m) true EVNone EVNone None EVNone) e == 0) by (intros m; unfold invest_costs, seg_costs, cost; cbn [iv_fix iv_spec iv_divest iv_seg entries map]; unfold Qsum; cbn [fold_right]; ring).
  unfold sized in E. cbn [c transmission cp_kind cp_in opt_flow] in E. destruct (Nat.eqb (f_id f) (f_id i2)) eqn:EI.
  - destruct (f_size in1) as [q1|iv1] eqn:S1.
    + destruct W as [-> | [-> | [-> | ->]]]; [left; reflexivity|exfalso; exact (OI i2 iv0 (or_intror (or_introl eq_refl)) E)|exfalso; exact (OI out1 iv0 (or_introl eq_refl) E)|exfalso; exact (OI o2 iv0 (or_intror (or_intror eq_refl)) E)].
    + destruct (f_size i2) as [q2|iv2] eqn:SI; [injection E as <-; right; apply FREE|]. exfalso. exact (OI i2 iv2 (or_intror (or_introl eq_refl)) SI).
  - destruct W as [-> | [-> | [-> | ->]]]; [left; reflexivity|exfalso; exact (OI i2 iv0 (or_intror (or_introl eq_refl)) E)|exfalso; exact (OI out1 iv0 (or_introl eq_refl) E)|exfalso; exact (OI o2 iv0 (or_intror (or_intror eq_refl)) E)].
Qed.
Print Assumptions C102_costs_partial.

(** A pipe between two buses, usable in both directions, whose size is to be found. *)
Definition coal : bus := mkBus 2 "Coal" None.
Definition per_size (q : Q) : fsize := SzInv (mkInvest None 0 (Some 20) false EVNone (EVOne (n1 q)) None EVNone).
Definition p_in1 : flow := set_size_ (per_size 3) (flow0 301 "in1" gas).
Definition p_out1 : flow := fl 302 "out1" coal 20.
Definition p_in2 : flow := fl 303 "in2" coal 20.
Definition p_out2 : flow := fl 304 "out2" gas 20.
Definition pipe_of (i2 o2 : flow) : component := transmission "Pipe" p_in1 p_out1 (Some i2) (Some o2) (Some (n1 (1 # 10))) None None false.
Definition fs_pipe_of (i2 o2 : flow) : flow_system := mkFS [0; 1] 2 (NS 1) [costs] [pipe_of i2 o2; Library.source "Src" (fl 305 "Q" gas 20); Library.sink "Need" (fl 306 "Q" coal 20)].
Definition table (in2 src : Q) : list (string * list Q) :=
  [("Pipe__in1_flow_rate", [10; 0]); ("Pipe__in1_sumFlowHours", [10]); ("Pipe__out1_flow_rate", [9; 0]); ("Pipe__out1_sumFlowHours", [9]); ("Pipe__in2_flow_rate", [in2; 0]); ("Pipe__in2_sumFlowHours", [in2]); ("Pipe__out2_flow_rate", [in2 * (9 # 10); 0]);
   ("Pipe__out2_sumFlowHours", [in2 * (9 # 10)]); ("Pipe__in1__Investment_size", [10]); ("Pipe__in2__Investment_size", [10]); ("Pipe__in2__Investment_isInvested", [1]); ("Src__Q_flow_rate", [src; 0]); ("Src__Q_sumFlowHours", [src]);
   ("Need__Q_flow_rate", [9; 0]); ("Need__Q_sumFlowHours", [9]); ("costs__Pipe__in1__specific_effects", [30])].
Definition bill (q : Q) : list (string * list Q) := [("costs__invest_invest_sum", [q]); ("costs__invest", [q]); ("costs__all_all_sum", [q])].
Definition plan_fit : asg := of_table (table 0 10 ++ bill 30).
Lemma pipe_sensible : forall i2 o2, (i2 = p_in2 \/ i2 = set_size_ (per_size 3) p_in2 \/ i2 = fl 303 "in2" gas 20) -> o2 = p_out2 -> sensible default_config (fs_pipe_of i2 o2) None.
Proof.
  intros i2 o2 H ->. apply sensible_check.
  - destruct H as [-> | [-> | ->]]; vm_compute; reflexivity.
  - assert (UB : forall b, used_bus (fs_pipe_of i2 p_out2) b -> In b [gas; coal]) by (destruct H as [-> | [-> | ->]]; all_buses).
    split; intros b b' U U' E; destruct (UB b U) as [<-|[<-|[]]]; destruct (UB b' U') as [<-|[<-|[]]]; try reflexivity; discriminate E.
  - intros c Hc. cbn in Hc. destruct Hc as [<-|[<-|[<-|[]]]]; cbn; split; try exact Logic.I; try constructor.
    exists "Pipe", p_in1, p_out1, (Some i2), (Some p_out2), None, false. reflexivity.
Qed.
Example C102_applies : exists pm, build default_config id_ord (fs_pipe_of p_in2 p_out2) None = Ok pm /\ feasible pm plan_fit /\ sensible default_config (fs_pipe_of p_in2 p_out2) None
  /\ In (pipe_of p_in2 p_out2) (fs_comps (fs_pipe_of p_in2 p_out2)) /\ transmission_check p_in1 p_out1 (Some p_in2) (Some p_out2) = Ok tt /\ b_id (f_bus p_in1) <> b_id (f_bus p_out1)
  /\ delivers plan_fit (pipe_of p_in2 p_out2) coal 0 == 9 /\ takes plan_fit (pipe_of p_in2 p_out2) gas 0 == 10 /\ size_of default_config plan_fit (pipe_of p_in2 p_out2) p_in2 == 10
  /\ length (flat_map (flow_investment default_config (pipe_of p_in2 p_out2)) (cp_flows (pipe_of p_in2 p_out2))) = 2%nat.
Proof.
  assert (R : exists pm, build default_config id_ord (fs_pipe_of p_in2 p_out2) None = Ok pm /\ feasible pm plan_fit) by (apply run_ok; vm_compute; reflexivity). destruct R as [pm [B F]]. exists pm.
  split; [exact B|]. split; [exact F|]. split; [apply pipe_sensible; auto|]. split; [left; reflexivity|]. split; [reflexivity|]. split; [discriminate|]. repeat split; vm_compute; reflexivity.
Qed.

(** The check is never made: a pipe whose second direction leads from one bus back to the same bus is accepted. *)
Definition transmissions_checked : Prop := forall cf ord fs idx pm label in1 out1 in2 out2 rel abs oo prevent, (forall l, Permutation (ord l) l) -> build cf ord fs idx = Ok pm ->
  In (transmission label in1 out1 in2 out2 rel abs oo prevent) (fs_comps fs) -> there_and_back in1 out1 in2 out2 /\ one_investment out1 in2 out2.
Definition p_loop : flow := fl 303 "in2" gas 20.
Definition plan_loop : asg := of_table (table 10 11 ++ bill 30).
Lemma loop_feasible : exists pm, build default_config id_ord (fs_pipe_of p_loop p_out2) None = Ok pm /\ feasible pm plan_loop.
Proof. apply run_ok. vm_compute. reflexivity. Qed.
Theorem C102_refuted : ~ transmissions_checked.
Proof.
  intros H. destruct loop_feasible as [pm [B _]]. destruct (H default_config id_ord _ None pm "Pipe" p_in1 p_out1 (Some p_loop) (Some p_out2) (Some (n1 (1 # 10))) None None false id_ord_perm B (or_introl eq_refl)) as [[X _] _].
  specialize (X _ eq_refl). discriminate X.
Qed.
Print Assumptions C102_refuted.
(** So a transmission need not carry from one side to the other: here energy is lost on the way from a bus to itself. *)
Definition carries_both_ways : Prop := forall cf ord fs pm label in1 out1 i2 o2 rel abs oo prevent x t, (forall l, Permutation (ord l) l) -> build cf ord fs None = Ok pm -> sensible cf fs None ->
  let c := transmission label in1 out1 (Some i2) (Some o2) rel abs oo prevent in
  In c (fs_comps fs) -> b_id (f_bus in1) <> b_id (f_bus out1) -> feasible pm x -> (t < steps fs None)%nat ->
  delivers x c (f_bus in1) t == takes x c (f_bus out1) t * (1 - lost None rel t) - lost None abs t * (if abs then on_of x c i2 t else 0).
Theorem C102_sides_refuted : ~ carries_both_ways.
Proof.
  intros H. destruct loop_feasible as [pm [B F]]. assert (SE : sensible default_config (fs_pipe_of p_loop p_out2) None) by (apply pipe_sensible; auto).
  pose proof (H default_config id_ord _ pm "Pipe" p_in1 p_out1 p_loop p_out2 (Some (n1 (1 # 10))) None None false plan_loop 0%nat id_ord_perm B SE (or_introl eq_refl) ltac:(discriminate) F ltac:(cbn; lia)) as X. vm_compute in X. discriminate X.
Qed.
Print Assumptions C102_sides_refuted.
(** And the second direction may cost extra. *)
Definition second_direction_free : Prop := forall cf ord fs pm label in1 out1 i2 o2 rel abs oo prevent x nm iv e, (forall l, Permutation (ord l) l) -> build cf ord fs None = Ok pm -> sensible cf fs None ->
  let c := transmission label in1 out1 (Some i2) (Some o2) rel abs oo prevent in
  In c (fs_comps fs) -> feasible pm x -> In e (fs_effects fs) -> In (nm, iv) (flat_map (flow_investment cf c) (cp_flows c)) -> nm = flow_name c in1 \/ invest_costs fs x nm iv e == 0.
Definition p_dear : flow := set_size_ (per_size 3) p_in2.
Definition plan_dear : asg := of_table (("costs__Pipe__in2__specific_effects", [30]) :: table 0 10 ++ bill 60).
Lemma dear_feasible : exists pm, build default_config id_ord (fs_pipe_of p_dear p_out2) None = Ok pm /\ feasible pm plan_dear.
Proof. apply run_ok. vm_compute. reflexivity. Qed.
Theorem C102_costs_refuted : ~ second_direction_free.
Proof.
  intros H. destruct dear_feasible as [pm [B F]]. assert (SE : sensible default_config (fs_pipe_of p_dear p_out2) None) by (apply pipe_sensible; auto).
  destruct (H default_config id_ord _ pm "Pipe" p_in1 p_out1 p_dear p_out2 (Some (n1 (1 # 10))) None None false plan_dear "Pipe__in2" (mkInvest None 0 (Some 20) false EVNone (EVOne (n1 3)) None EVNone) costs id_ord_perm B SE (or_introl eq_refl) F (or_introl eq_refl)) as [X|X];
    [right; left; reflexivity|discriminate X|vm_compute in X; discriminate X].
Qed.
Print Assumptions C102_costs_refuted.
