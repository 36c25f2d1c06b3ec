(** Claim C73: which aggregated calculations are accepted. *)
From Coq Require Import String Permutation Qround.
From Verif Require Import Base BaseFacts MathModel Spec Structure Params Features Elements Library System SysSpec CtxFacts ReadTools NameSpec ValidSpec NameFacts TotalSystem ValidCheck
  Aggregation AggSpec TotalAgg Example PropsPlan PropsTotal PropsAggregation PropsAggModel.
Local Open Scope Q_scope.

(** ** C73: aggregated calculations are accepted for even steps and whole periods *)

(** All steps of the calculation have one length. *)
Definition even_steps (fs : flow_system) (idx : option (list nat)) : Prop :=
  forall i j, (i < steps fs idx)%nat -> (j < steps fs idx)%nat -> hours fs idx i == hours fs idx j.
(** A period is a whole number of steps of the length of the first one. *)
Definition whole_periods (fs : flow_system) (idx : option (list nat)) (hpp : Q) : Prop :=
  ~ hours fs idx 0 == 0 /\ exists k : Z, hpp == inject_Z k * hours fs idx 0.
(** There is a time axis, and the chosen steps are on it. *)
Definition has_steps (fs : flow_system) (idx : option (list nat)) : Prop :=
  (2 <= steps fs idx)%nat /\ forall l i, idx = Some l -> In i l -> (i < length (fs_times fs))%nat.
(** "Aggregation" may be put in front of the labels of the system. *)
Definition name_free (fs : flow_system) : Prop :=
  (forall l, In l (top_labels fs) -> unrelated "Aggregation" l) /\ forall b, used_bus fs b -> unrelated "Aggregation" (b_lab b).
(** The components to be clusterized are named once each and belong to the system. *)
Definition chosen_ok (fs : flow_system) (sel : option (list string)) : Prop :=
  match sel with None => True | Some ls => NoDup ls /\ forall l, In l ls -> exists c, In c (fs_comps fs) /\ cp_label c = l end.
(** Every cluster to which a period is assigned is one of those named. *)
Definition known_clusters (cl : clustering) : Prop := incl (cl_order cl) (cl_ids cl).
(** Some two steps are twins; two different pairs of steps are. *)
Definition some_twins (cl : clustering) : Prop := exists i j, twins cl i j.
Definition more_twins (cl : clustering) : Prop := exists i j i' j', twins cl i j /\ twins cl i' j' /\ (i < j)%nat /\ (i' < j')%nat /\ (i, j) <> (i', j').

(** ** Proof tools *)
Lemma all_same_spec : forall l, all_same l = true <-> forall i j, (i < length l)%nat -> (j < length l)%nat -> nth i l 0 == nth j l 0.
Proof.
  intros [|a r]; cbn [all_same].
  - split; auto. intros _ i j Hi. cbn in Hi. lia.
  - split.
    + intros H. rewrite forallb_forall in H. assert (K : forall i, (i < length (a :: r))%nat -> nth i (a :: r) 0 == a).
      { intros i Hi. pose proof (nth_In (a :: r) 0 Hi) as X. destruct X as [X|X]; [rewrite <- X; reflexivity|]. apply H in X. apply Qeq_bool_iff in X. symmetry. exact X. }
      intros i j Hi Hj. rewrite (K i Hi), (K j Hj). reflexivity.
    + intros H. apply forallb_forall. intros x Hx. apply Qeq_bool_iff. apply In_nth with (d := 0) in Hx. destruct Hx as [i [Hi Ex]].
      specialize (H 0%nat (S i)). cbn [length nth] in H. rewrite Ex in H. apply H; lia.
Qed.
Lemma whole_spec : forall h d, ~ d == 0 -> (Qeq_bool (inject_Z (Qfloor (h / d))) (h / d) = true <-> exists k : Z, h == inject_Z k * d).
Proof.
  intros h d D. rewrite Qeq_bool_iff. split.
  - intros H. exists (Qfloor (h / d)). rewrite H. field. exact D.
  - intros [k K]. assert (E : h / d == inject_Z k) by (rewrite K; field; exact D). rewrite (Qfloor_comp _ _ E), Qfloor_Z. symmetry. exact E.
Qed.
Lemma checks_time : forall fs idx (hpp : Q) dts tot, time_data fs idx = Ok (dts, tot) ->
  length dts = steps fs idx /\ (1 <= steps fs idx)%nat /\ forall t, (t < steps fs idx)%nat -> nth t dts 0 = hours fs idx t.
Proof.
  intros fs idx hpp dts tot T. destruct (make_ctx default_config id_ord fs idx) as [cx|e] eqn:E; [|unfold make_ctx in E; rewrite T in E; discriminate].
  destruct (make_ctx_spec _ _ _ _ _ E) as [CK [CN [_ [H _]]]]. unfold make_ctx in E. rewrite T in E. cbn [bind] in E. injection E as <-. cbn [cx_n] in CN.
  split; [exact CN|]. split; [|exact H]. unfold time_data in T. cbv zeta in T. bnd T ts E1. bnd T l E2.
  assert (L : forall (A : Type) (l : list A) x, nth_error (rev l) 0 = Some x -> (1 <= length l)%nat).
  { intros A l0 x X. destruct l0; [discriminate|]. cbn. lia. }
  destruct (nth_error _ 0) as [q|] eqn:N in E2; [|discriminate]. apply L in N. unfold steps. destruct idx; [exact N|]. rewrite seq_length in N. exact N.
Qed.
Lemma checks_even : forall fs idx (hpp : Q) dts tot, time_data fs idx = Ok (dts, tot) -> (all_same dts = true <-> even_steps fs idx).
Proof.
  intros fs idx hpp dts tot T. destruct (checks_time fs idx hpp dts tot T) as [L [_ H]]. rewrite all_same_spec, L. unfold even_steps.
  split; intros K i j Hi Hj; specialize (K i j Hi Hj); rewrite (H i Hi), (H j Hj) in *; exact K.
Qed.
Lemma axis_total : forall fs idx, has_steps fs idx -> exists dts tot, time_data fs idx = Ok (dts, tot).
Proof.
  intros fs idx [S R]. destruct (ctx_total default_config id_ord fs idx S R) as [cx E]. unfold make_ctx in E. destruct (time_data fs idx) as [[dts tot]|e]; [eauto|discriminate].
Qed.

(** ** The theorems *)

(** What is accepted has even steps and whole periods. *)
Theorem C73_steps : forall cf ord fs idx hpp ap cl sel pm, build_aggregated cf ord fs idx hpp ap cl sel = Ok pm -> even_steps fs idx /\ whole_periods fs idx hpp.
Proof.
  intros cf ord fs idx hpp ap cl sel pm B. unfold build_aggregated in B. bnd B u E. clear B. unfold agg_checks in E. destruct (time_data fs idx) as [[dts tot]|e] eqn:T; [|discriminate]. cbn [bind] in E.
  destruct (checks_time fs idx hpp _ _ T) as [L [P H]]. pose proof (checks_even fs idx hpp _ _ T) as C. destruct (all_same dts); [|discriminate]. cbn [guard bind] in E. split; [apply C; reflexivity|].
  destruct dts as [|d0 r]; [cbn in L; lia|]. cbn [nth_error of_option bind] in E. specialize (H 0%nat P). cbn [nth] in H. unfold whole_periods. rewrite <- H.
  destruct (Qeq_bool d0 0) eqn:Z; [discriminate|]. cbn [negb guard bind] in E. assert (D : ~ d0 == 0) by (intros X; apply Qeq_bool_iff in X; congruence). split; [exact D|].
  apply (whole_spec hpp d0 D). destruct (Qeq_bool _ (hpp / d0)); [reflexivity|discriminate].
Qed.
Print Assumptions C73_steps.

(** Uneven steps and broken periods are refused, each with its own exception. *)
Theorem C73_uneven : forall cf ord fs idx hpp ap cl sel, has_steps fs idx -> ~ even_steps fs idx -> build_aggregated cf ord fs idx hpp ap cl sel = Err ValueError.
Proof.
  intros cf ord fs idx hpp ap cl sel HS N. destruct (axis_total fs idx HS) as [dts [tot T]]. unfold build_aggregated, agg_checks. rewrite T. cbn [bind].
  pose proof (checks_even fs idx hpp _ _ T) as C. destruct (all_same dts); [exfalso; apply N, C; reflexivity|]. reflexivity.
Qed.
Print Assumptions C73_uneven.
Theorem C73_broken_periods : forall cf ord fs idx hpp ap cl sel, has_steps fs idx -> even_steps fs idx -> ~ whole_periods fs idx hpp ->
  build_aggregated cf ord fs idx hpp ap cl sel = Err PyException.
Proof.
  intros cf ord fs idx hpp ap cl sel HS N W. destruct (axis_total fs idx HS) as [dts [tot T]]. unfold build_aggregated, agg_checks. rewrite T. cbn [bind].
  pose proof (checks_even fs idx hpp _ _ T) as C. apply C in N. rewrite N. cbn [guard bind]. destruct (checks_time fs idx hpp _ _ T) as [L [P H]]. specialize (H 0%nat P).
  destruct dts as [|d0 r]; [cbn in L; lia|]. cbn [nth_error of_option bind]. cbn [nth] in H. unfold whole_periods in W. rewrite <- H in W. destruct (Qeq_bool d0 0) eqn:Z; [reflexivity|]. cbn [negb guard bind].
  assert (D : ~ d0 == 0) by (intros X; apply Qeq_bool_iff in X; congruence). destruct (Qeq_bool _ (hpp / d0)) eqn:Q; [|reflexivity]. exfalso. apply W. split; [exact D|]. apply (whole_spec hpp d0 D). exact Q.
Qed.
Print Assumptions C73_broken_periods.

(** The claim as the documentation makes it: everything else is accepted. *)
Definition C73_full : Prop := forall cf ord fs idx hpp ap cl sel, (forall l, Permutation (ord l) l) -> well_named fs -> valid_data fs idx -> name_free fs ->
  even_steps fs idx -> whole_periods fs idx hpp -> clusters_steps fs idx cl -> known_clusters cl -> chosen_ok fs sel ->
  exists pm, build_aggregated cf ord fs idx hpp ap cl sel = Ok pm.
(** It holds if some steps are twins, and if deviations cost nothing or there is a second pair of twins. *)
Theorem C73_accepted_partial : forall cf ord fs idx hpp ap cl sel, (forall l, Permutation (ord l) l) -> well_named fs -> valid_data fs idx -> name_free fs ->
  even_steps fs idx -> whole_periods fs idx hpp -> clusters_steps fs idx cl -> known_clusters cl -> chosen_ok fs sel -> some_twins cl ->
  (ag_freedom ap <= 0 \/ ag_penalty ap == 0 \/ more_twins cl) -> exists pm, build_aggregated cf ord fs idx hpp ap cl sel = Ok pm.
Proof.
  intros cf ord fs idx hpp ap cl sel PO W V NF EV WP [ND P0 TT] KC CO [i0 [j0 T0]] PEN.
  destruct (C37_total cl ND KC) as [pairs EI]. destruct (C37_pairs cl pairs ND P0 EI) as [PT TP].
  apply (agg_total cf ord fs idx hpp ap cl sel pairs); auto.
  - intros l x. split; apply Permutation_in; [|apply Permutation_sym]; apply PO.
  - destruct (axis_total fs idx (conj (vd_steps _ _ V) (vd_chosen _ _ V))) as [dts [tot T]]. unfold agg_checks. rewrite T. cbn [bind].
    rewrite (proj2 (checks_even fs idx hpp _ _ T) EV). cbn [guard bind]. destruct (checks_time fs idx hpp _ _ T) as [L [P H]]. specialize (H 0%nat P).
    destruct dts as [|d0 r]; [cbn in L; lia|]. cbn [nth_error of_option bind]. cbn [nth] in H. unfold whole_periods in WP. rewrite <- H in WP. destruct WP as [D K].
    destruct (Qeq_bool d0 0) eqn:Z; [apply Qeq_bool_iff in Z; contradiction|]. cbn [negb guard bind]. rewrite (proj2 (whole_spec hpp d0 D) K). reflexivity.
  - destruct sel; [apply CO|constructor].
  - intros l Hl. destruct sel as [ls|]; [|destruct Hl]. destruct (proj2 CO l Hl) as [c [Hc <-]]. apply in_map. exact Hc.
  - intros i j Hij. destruct (PT i j Hij) as [_ [A [B _]]]. rewrite TT in A, B. auto.
  - destruct (TP _ _ T0) as [k [A B]]. destruct pairs; [|cbn; lia]. destruct T0 as [NE _]. destruct A as [A|[]], B as [B|[]]. congruence.
  - destruct PEN as [Z|[Z|[i [j [i' [j' [A [B [Lij [Lij' N]]]]]]]]]]; auto. right. right. destruct pairs as [|[a b] [|q r]]; [|exfalso|cbn; lia].
    + destruct (TP _ _ T0) as [k [X Y]]. destruct T0 as [NE _]. destruct X as [X|[]], Y as [Y|[]]. congruence.
    + assert (ONE : forall u v, twins cl u v -> (u < v)%nat -> (u, v) = (a, b) \/ (v, u) = (a, b)).
      { intros u v T LT. destruct (TP _ _ T) as [k [X Y]]. destruct X as [X|[X|[]]], Y as [Y|[Y|[]]]; [lia| | |]; subst.
        - left. congruence.
        - right. congruence.
        - exfalso. assert (u = v) by congruence. lia. }
      destruct (ONE _ _ A Lij) as [E1|E1], (ONE _ _ B Lij') as [E2|E2]; try congruence; injection E1 as <- <-; injection E2 as E2 E3; lia.
Qed.
Print Assumptions C73_accepted_partial.

(** ** Examples *)
Lemma fs_agg_uses : forall b, used_bus fs_agg b -> In b [gas].
Proof. all_buses. Qed.
Lemma name_free_b : forall fs bl, (forall b, used_bus fs b -> In b bl) -> forallb (unrelated_b "Aggregation") (top_labels fs ++ map b_lab bl) = true -> name_free fs.
Proof.
  intros fs bl U H. rewrite forallb_forall in H. split.
  - intros l Hl. apply unrelated_b_ok, H, in_or_app. auto.
  - intros b Hb. apply unrelated_b_ok, H, in_or_app. right. apply in_map, U, Hb.
Qed.
Lemma even_b : forall fs idx, forallb (fun i => Qeq_bool (hours fs idx i) (hours fs idx 0)) (seq 0 (steps fs idx)) = true -> even_steps fs idx.
Proof.
  intros fs idx H. rewrite forallb_forall in H. assert (K : forall i, (i < steps fs idx)%nat -> hours fs idx i == hours fs idx 0) by (intros i Hi; apply Qeq_bool_iff, H, in_seq; lia).
  intros i j Hi Hj. rewrite (K i Hi), (K j Hj). reflexivity.
Qed.
Lemma fs_agg_fine : well_named fs_agg /\ valid_data fs_agg None /\ name_free fs_agg /\ even_steps fs_agg None /\ whole_periods fs_agg None 2.
Proof.
  split; [apply (named_b_ok _ _ fs_agg_uses); vm_compute; reflexivity|]. split; [apply (valid_b_ok _ _ _ fs_agg_uses); vm_compute; reflexivity|].
  split; [apply (name_free_b _ _ fs_agg_uses); vm_compute; reflexivity|]. split; [apply even_b; vm_compute; reflexivity|]. split; [vm_compute; discriminate|]. exists 2%Z. vm_compute. reflexivity.
Qed.
(** Three periods of two hours in one cluster; deviations are allowed and cost. *)
Example C73_applies : (well_named fs_agg /\ valid_data fs_agg None /\ name_free fs_agg /\ even_steps fs_agg None /\ whole_periods fs_agg None 2)
  /\ clusters_steps fs_agg None cl_agg /\ known_clusters cl_agg /\ chosen_ok fs_agg (Some ["Sto"; "Src"]%string) /\ some_twins cl_agg /\ more_twins cl_agg
  /\ 0 < ag_freedom ap_free /\ exists pm, build_aggregated default_config id_ord fs_agg None 2 ap_free cl_agg (Some ["Sto"; "Src"]%string) = Ok pm.
Proof.
  destruct fs_agg_fine as [A [B [C [D E]]]]. assert (K : known_clusters cl_agg) by (intros a; cbn; tauto).
  assert (CO : chosen_ok fs_agg (Some ["Sto"; "Src"]%string)).
  { split; [apply nodup_str_NoDup; reflexivity|]. intros l [<-|[<-|[]]]; [exists agg_sto|exists agg_src]; cbn; auto. }
  assert (T : some_twins cl_agg) by (exists 3%nat, 5%nat; apply agg_twins).
  assert (M : more_twins cl_agg).
  { exists 3%nat, 5%nat, 1%nat, 3%nat. split; [apply agg_twins|]. split; [|repeat split; [lia|lia|discriminate]]. unfold twins, cluster_of. cbn. repeat split; try lia; discriminate. }
  split; [auto|]. split; [exact cl_agg_steps|]. split; [exact K|]. split; [exact CO|]. split; [exact T|]. split; [exact M|]. split; [reflexivity|].
  apply C73_accepted_partial; auto. exact cl_agg_steps.
Qed.
(** An axis with steps of one and two hours; periods of an hour and a half on an axis of one-hour steps. *)
Definition fs_uneven : flow_system := mkFS [0; 1; 3] 4 (NS 1) [costs] [agg_src; agg_sto; agg_sink].
Example C73_refuses : has_steps fs_uneven None /\ ~ even_steps fs_uneven None /\ has_steps fs_agg None /\ ~ whole_periods fs_agg None (3 # 2).
Proof.
  split; [split; [cbn; lia|intros l i X; discriminate X]|]. split; [intros H; specialize (H 0%nat 1%nat); vm_compute in H; specialize (H ltac:(lia) ltac:(lia)); discriminate H|].
  split; [split; [cbn; lia|intros l i X; discriminate X]|]. intros [_ [k K]]. assert (E : hours fs_agg None 0 == 1) by (vm_compute; reflexivity). rewrite E in K. rewrite Qmult_1_r in K. unfold Qeq in K. cbn in K. lia.
Qed.

(** One pair of twins and a price for deviations: the share of the price is summed over a variable with a single entry,
    which is refused. *)
Definition cl_pair : clustering := mkClustering [0; 1]%nat [0; 1; 0]%nat 2 6.
Theorem C73_refuted : ~ C73_full.
Proof.
  intros H. destruct fs_agg_fine as [A [B [C [D E]]]].
  assert (K : build_aggregated default_config id_ord fs_agg None 2 ap_free cl_pair None = Err AssertionError) by (vm_compute; reflexivity).
  assert (X : exists pm, build_aggregated default_config id_ord fs_agg None 2 ap_free cl_pair None = Ok pm).
  { apply H; auto.
    - constructor; [repeat constructor; cbn; intuition lia|cbn; lia|reflexivity].
    - intros a; cbn; tauto.
    - exact Logic.I. }
  destruct X as [pm X]. rewrite K in X. discriminate X.
Qed.
Print Assumptions C73_refuted.
