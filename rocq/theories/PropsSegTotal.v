(** Claim C71: flow systems with valid data stay valid in use, and segmented calculations of them run through. The
    conditions on data and labels are in ValidSpec.v and NameSpec.v. *)
From Coq Require Import String Ascii Permutation.
From Verif Require Import Base BaseFacts MathModel Spec Structure Params Features Elements Library System SysSpec NameSpec CtxFacts NavFacts ValidSpec Tree Values Results
     Segmented PropsRepeat SegmentedFacts PropsSegmented TotalSystem ValidCheck SegTotal PlanSpec Example PropsPlan PropsTotal PropsSegLaws PropsSegRuns.

(** ** Specification *)

(** The steps of the k-th segment of a horizon of [total] steps. *)
Definition segment_of (seg over total k : nat) : list nat := seq (k * seg) (Nat.min (k * seg + seg + over) total - k * seg).
(** Data with which every segment could be calculated on its own. *)
Definition valid_segments (fs : flow_system) (seg over total : nat) : Prop :=
  forall k, (k * seg < total)%nat -> valid_data fs (Some (segment_of seg over total k)).
(** Every segment that is followed by another one reaches to the step whose values are handed over. *)
Definition handed_over (seg over total : nat) : Prop :=
  forall k, (S k * seg < total)%nat -> (1 + over <= length (segment_of seg over total k))%nat.
(** Component on/off with limited durations: the lengths of earlier steps, if given one by one, are enough for one earlier
    state of each flow. *)
Definition enough_past (fs : flow_system) : Prop :=
  forall c p ds, In c (fs_comps fs) -> cp_onoff c = Some p -> limits_duration p -> fs_prev_dt fs = NV ds -> (length (cp_flows c) <= length ds)%nat.
(** The only exception that ends a run is that of the solver for the problem of some segment. *)
Definition ends_well (cf : config) (ord : list nat -> list nat) (solver : nat -> pmodel -> option asg) (seg over total : nat) (outcome : option exn) : Prop :=
  outcome = None \/ (outcome = Some PyException
    /\ exists fs_k k pm, build cf ord fs_k (Some (segment_of seg over total k)) = Ok pm /\ solver k pm = None).
(** The flow system after problems have been built for some choices of steps. *)
Definition after_all (cf : config) (ord : list nat -> list nat) (fs : flow_system) (choices : list (option (list nat))) : flow_system :=
  fold_left (after_modeling cf ord) choices fs.

(** ** A valid flow system stays accepted *)
Lemma all_grown : forall cf ord choices fs, (forall c, In c (fs_comps fs) -> NoDup (map f_id (cp_flows c))) ->
  grown fs (after_all cf ord fs choices) /\ Forall2 comp_same (fs_comps fs) (fs_comps (after_all cf ord fs choices)).
Proof.
  intros cf ord choices. induction choices as [|i l IH]; intros fs ND; [split; [apply grown_refl|apply same_refl]|]. cbn.
  destruct (after_grown cf ord fs i ND) as [G S]. destruct (IH _ (grown_nodup _ _ G ND)) as [G' S']. split; [eapply grown_trans; eauto|eapply same_trans; eauto].
Qed.
(** Whatever calculations were set up with it before, successfully or not. *)
Theorem C71_again : forall cf ord fs choices idx, (forall l, Permutation (ord l) l) -> well_named fs -> valid_data fs idx ->
  (exists pm, build cf ord (after_all cf ord fs choices) idx = Ok pm) /\ well_named (after_all cf ord fs choices) /\ valid_data (after_all cf ord fs choices) idx.
Proof.
  intros cf ord fs choices idx PO W V. destruct (all_grown cf ord choices fs (comp_nodup _ _ V)) as [G S].
  assert (W' : well_named (after_all cf ord fs choices)) by (eapply grown_named; eauto).
  assert (V' : valid_data (after_all cf ord fs choices) idx).
  { eapply grown_valid; [exact G|left; exact S|exact V]. }
  split; [|split; assumption]. apply C70_accepted_partial; assumption.
Qed.
Print Assumptions C71_again.

(** ** Segmented calculations *)
Lemma room_enough : forall fs, enough_past fs -> room fs. Proof. intros fs H. exact H. Qed.

Section Run.
Variables (cf : config) (ord : list nat -> list nat) (solver : nat -> pmodel -> option asg) (fs : flow_system) (seg over total : nat) (g : segmented).
Hypothesis PO : forall l, Permutation (ord l) l.
Hypothesis W : well_named fs.
Hypothesis V : valid_segments fs seg over total.
Hypothesis HO : handed_over seg over total.
Hypothesis EP : enough_past fs.
Hypothesis GL : sg_len g = seg.
Hypothesis GO : sg_over g = over.
Hypothesis GT : sg_total g = total.
Hypothesis S3 : (2 < seg)%nat.

Definition states (fs1 : flow_system) : Prop := grown fs fs1 /\ (Forall2 comp_same (fs_comps fs) (fs_comps fs1) \/ fresh fs1).
Lemma states_ok : forall fs1 idx, states fs1 -> valid_data fs idx -> well_named fs1 /\ valid_data fs1 idx.
Proof.
  intros fs1 idx [G S] VI. split; [eapply grown_named; eauto|]. eapply grown_valid; [exact G| |exact VI]. destruct S as [S|S]; [left; exact S|right; split; [exact S|exact EP]].
Qed.
Lemma states_after : forall fs1 idx idx', states fs1 -> valid_data fs idx -> states (after_modeling cf ord fs1 idx').
Proof.
  intros fs1 idx idx' ST VI. destruct (states_ok _ _ ST VI) as [_ V1]. destruct ST as [G S]. destruct (after_grown cf ord fs1 idx' (comp_nodup _ _ V1)) as [G' S'].
  split; [eapply grown_trans; eauto|]. destruct S as [S|S]; [left; eapply same_trans; eauto|right; eapply fresh_same; eauto].
Qed.
(** The last finished segment allows the hand-over. *)
Definition can_continue (done : list sub) : Prop := forall s r, rev done = s :: r -> (2 <= length (sb_idx s))%nat /\ (1 + over <= length (sb_idx s))%nat.

Lemma loop_ok : forall todo i fs1 done fs' subs o, states fs1 -> (todo = 0%nat \/ can_continue done) -> (forall k, (k < i + todo)%nat -> (k * seg < total)%nat) ->
  seg_loop cf ord solver g todo i fs1 done = (fs', subs, o) -> states fs' /\ ends_well cf ord solver seg over total o.
Proof.
  induction todo as [|rest IH]; intros i fs1 done fs' subs o ST CC K R.
  - cbn in R. inversion R; subst. split; [exact ST|left; reflexivity].
  - cbn [seg_loop] in R. destruct CC as [CC|CC]; [discriminate|]. pose proof (V i (K i ltac:(lia))) as VI.
    assert (X : exists fs2, (match rev done with [] => Ok fs1 | s :: _ => transfer g (length (sb_idx s)) (sb_values s) fs1 end) = Ok fs2 /\ states fs2).
    { destruct (rev done) as [|s r] eqn:E; [eauto|]. destruct (CC s r E) as [C1 C2]. rewrite <- GO in C2. destruct (transfer_ok g _ (sb_values s) fs1 C1 C2) as [fs2 [T [G' F']]].
      exists fs2. split; [exact T|]. split; [eapply grown_trans; [apply ST|exact G']|right; exact F']. }
    destruct X as [fs2 [E2 ST2]]. rewrite E2 in R. destruct (states_ok _ _ ST2 VI) as [W2 V2].
    assert (IX : get_indices g i = segment_of seg over total i) by (unfold get_indices, segment_of; rewrite GL, GO, GT; reflexivity). rewrite IX in R.
    destruct (C70_accepted_partial cf ord fs2 _ PO W2 V2) as [pm B]. rewrite B in R. pose proof (states_after fs2 _ (Some (segment_of seg over total i)) ST2 VI) as ST3.
    destruct (solver i pm) as [x|] eqn:SX.
    + apply (IH _ _ _ _ _ _ ST3) in R; [exact R| |intros k Hk; apply K; lia]. destruct rest as [|rest]; [left; reflexivity|right].
      intros s r E. rewrite rev_app_distr in E. cbn in E. inversion E; subst. cbn [sb_idx]. split.
      * exact (vd_steps _ _ VI).
      * apply HO. apply K. lia.
    + inversion R; subst. split; [exact ST3|]. right. split; [reflexivity|]. eauto 6.
Qed.
End Run.

(** Only the solver can fail, whatever values it returned for the segments before; and the flow system stays valid. *)
Theorem C71_runs_partial : forall cf ord solver fs seg over ti, (forall l, Permutation (ord l) l) -> (2 < seg)%nat -> (seg + over <= steps fs ti)%nat ->
  well_named fs -> valid_segments fs seg over (steps fs ti) -> handed_over seg over (steps fs ti) -> enough_past fs ->
  exists g, mk_segmented fs seg over ti = Ok g
    /\ forall fs_after subs outcome, seg_run cf ord solver g fs [] = (fs_after, subs, outcome) ->
         ends_well cf ord solver seg over (steps fs ti) outcome
         /\ well_named fs_after /\ forall idx, valid_data fs idx -> valid_data fs_after idx.
Proof.
  intros cf ord solver fs seg over ti PO S3 SO W V HO EP.
  assert (M : exists g, mk_segmented fs seg over ti = Ok g).
  { unfold mk_segmented, assert_, guard. replace (Nat.eqb seg 0) with false by (symmetry; apply Nat.eqb_neq; lia). replace (Nat.ltb 2 seg) with true by (symmetry; apply Nat.ltb_lt; lia).
    cbn [negb bind]. replace (Nat.leb (seg + over) _) with true; [eexists; reflexivity|]. symmetry. apply Nat.leb_le. unfold steps in SO. destruct ti; exact SO. }
  destruct M as [g M]. exists g. split; [exact M|]. intros fa subs o R. destruct (segmented_spec _ _ _ _ _ M) as [GL [GO [GT [_ [_ [_ [N1 N2]]]]]]]. rewrite GT in N2.
  assert (V0 : valid_data fs (Some (segment_of seg over (steps fs ti) 0))) by (apply V; lia).
  unfold seg_run in R. destruct (seg_loop cf ord solver g (sg_number g) 0 fs []) as [[fs' su] o'] eqn:L.
  pose proof L as L0. apply (loop_ok cf ord solver fs seg over (steps fs ti) g PO W V HO EP GL GO GT S3) in L0; cbn [Nat.add].
  - destruct L0 as [ST EW]. destruct o' as [e|].
    + injection R as <- <- <-. split; [exact EW|]. split; [exact (proj1 (states_ok fs W EP _ _ ST V0))|]. intros idx VI. exact (proj2 (states_ok fs W EP _ _ ST VI)).
    + injection R as <- <- <-. split; [left; reflexivity|].
      destruct (C70_accepted_partial cf ord fs _ PO W V0) as [pm B].
      assert (G : grown fs (reset g fs')).
      { eapply grown_trans; [apply ST|]. split; [reflexivity|]. unfold reset. cbn [with_comps fs_comps]. apply F2_map. intros c. apply starts_grown. }
      assert (SR : Forall2 comp_same (fs_comps fs) (fs_comps (reset g fs'))).
      { apply restored_same. apply (C35_restored_partial cf ord solver fs seg over ti g su _ None); [|exact M|unfold seg_run; rewrite L; reflexivity|left; reflexivity].
        pose proof (wn_top _ W) as WT. unfold top_labels in WT. inversion WT as [|? ? _ WT']; subst. clear -WT'.
        assert (X : ForallOrdPairs unrelated (map cp_label (fs_comps fs))) by (induction (map e_label (fs_effects fs)); [exact WT'|inversion WT'; subst; auto]).
        clear -X. induction X as [|a l H _ IH]; constructor; [|exact IH]. intros Ha. rewrite Forall_forall in H. specialize (H a Ha). destruct H as [H _]. apply H. reflexivity. }
      split; [eapply grown_named; eauto|]. intros idx VI. eapply grown_valid; [exact G|left; exact SR|exact VI].
  - split; [apply grown_refl|left; apply same_refl].
  - right. intros s r E. discriminate E.
  - intros k Hk. nia.
Qed.
Print Assumptions C71_runs_partial.

(** ** Windows of a valid horizon *)

(** Limits of charge states that are numbers, and inputs of transmissions with losses that have an on/off state in [idx]. *)
Definition numeric_levels (fs : flow_system) : Prop := forall c s, In c (fs_comps fs) -> cp_kind c = StorageC s ->
  (exists q, pdata (st_relmin s) = NS q) /\ exists q, pdata (st_relmax s) = NS q.
Definition lossy_governed (fs : flow_system) (idx : option (list nat)) : Prop := forall c rel p f, In c (fs_comps fs) -> cp_kind c = TransmissionC rel (Some p) ->
  In f (cp_in c) -> governed fs idx c f <> None.
Lemma window_valid : forall fs a n, valid_data fs None -> numeric_levels fs -> lossy_governed fs (Some (seq a n)) -> (2 <= n)%nat -> (a + n <= length (fs_times fs))%nat ->
  valid_data fs (Some (seq a n)).
Proof.
  intros fs a n [A B C D E F H I] NL LG N L. constructor; auto.
  - cbn. rewrite seq_length. exact N.
  - intros l i E1 Hi. inversion E1. subst l. apply in_seq in Hi. lia.
  - intros c Hc. destruct (H c Hc) as [H1 H2 H3 H4]. constructor; auto. unfold valid_kind in *. destruct (cp_kind c) as [ | | |s|rel abs] eqn:K; auto.
    + destruct H4 as [[X1 X2 X3 X4 X5] X6]. split; [|exact X6]. constructor; auto. destruct (NL c s Hc K) as [[q Q] [q' Q']]. split; left; eauto.
    + destruct H4 as [X1 [X2 [X3 X4]]]. split; [exact X1|]. split; [exact X2|]. split; [exact X3|]. intros NA f Hf. destruct abs as [p|]; [|congruence]. exact (LG c rel p f Hc K Hf).
Qed.
(** Any window of at least two steps can be calculated. *)
Theorem C71_window : forall cf ord fs a n, (forall l, Permutation (ord l) l) -> well_named fs -> valid_data fs None -> numeric_levels fs ->
  lossy_governed fs (Some (seq a n)) -> (2 <= n)%nat -> (a + n <= length (fs_times fs))%nat -> exists pm, build cf ord fs (Some (seq a n)) = Ok pm.
Proof. intros cf ord fs a n PO W V NL LG N L. apply C70_accepted_partial; auto. apply window_valid; auto. Qed.
Print Assumptions C71_window.

(** The claim for every valid flow system, without conditions on the segments. *)
Definition C71_full : Prop := forall cf ord solver fs seg over, (forall l, Permutation (ord l) l) -> (2 < seg)%nat -> (seg + over <= steps fs None)%nat ->
  well_named fs -> valid_data fs None ->
  exists g, mk_segmented fs seg over None = Ok g
    /\ forall fs_after subs outcome, seg_run cf ord solver g fs [] = (fs_after, subs, outcome) -> ends_well cf ord solver seg over (steps fs None) outcome.

(** With charge limits that are numbers, losses in every segment, a last segment of more than one step and overlaps not
    longer than what remains, a valid flow system can be calculated in segments. *)
Theorem C71_horizon_partial : forall cf ord solver fs seg over, (forall l, Permutation (ord l) l) -> (2 < seg)%nat -> (seg + over <= steps fs None)%nat ->
  well_named fs -> valid_data fs None -> numeric_levels fs -> enough_past fs ->
  (forall k, (k * seg < steps fs None)%nat -> lossy_governed fs (Some (segment_of seg over (steps fs None) k))) ->
  (forall k, (k * seg + 1 <> steps fs None)%nat) -> (forall k, (S k * seg < steps fs None)%nat -> (k * seg + 1 + over <= steps fs None)%nat) ->
  exists g, mk_segmented fs seg over None = Ok g
    /\ forall fs_after subs outcome, seg_run cf ord solver g fs [] = (fs_after, subs, outcome) -> ends_well cf ord solver seg over (steps fs None) outcome.
Proof.
  intros cf ord solver fs seg over PO S3 SO W V NL EP LG L2 HO.
  destruct (C71_runs_partial cf ord solver fs seg over None PO S3 SO W) as [g [M R]]; auto.
  - intros k Hk. specialize (LG k Hk). unfold segment_of in *. apply window_valid; auto; [specialize (L2 k); lia|]. change (length (fs_times fs)) with (steps fs None). lia.
  - intros k Hk. specialize (HO k Hk). unfold segment_of. rewrite seq_length. nia.
  - exists g. split; [exact M|]. intros fa subs o E. exact (proj1 (R _ _ _ E)).
Qed.
Print Assumptions C71_horizon_partial.

(** ** Examples *)

(** On/off rules with limited durations, ten steps in segments of four with one step of overlap; and a transmission with
    absolute losses that modelling gives default on/off rules. *)
Lemma run_buses : forall b, used_bus fs_run b -> In b [gas]. Proof. all_buses. Qed.
Lemma leak_buses : forall b, used_bus fs_leak b -> In b [gas; heat]. Proof. all_buses. Qed.
Example C71_run_applies : well_named fs_run /\ valid_segments fs_run 4 1 (steps fs_run None) /\ handed_over 4 1 (steps fs_run None) /\ enough_past fs_run.
Proof.
  split; [apply (named_b_ok _ _ run_buses); vm_compute; reflexivity|]. split; [|split].
  - intros k Hk. change (steps fs_run None) with 10%nat in *. destruct k as [|[|[|k]]]; [..|lia]; apply (valid_b_ok _ _ _ run_buses); vm_compute; reflexivity.
  - intros k Hk. change (steps fs_run None) with 10%nat in *. destruct k as [|[|k]]; [..|lia]; vm_compute; lia.
  - intros c p ds _ _ _ E. discriminate E.
Qed.
Example C71_leak_applies : well_named fs_leak /\ valid_segments fs_leak 3 0 (steps fs_leak None) /\ handed_over 3 0 (steps fs_leak None) /\ enough_past fs_leak.
Proof.
  split; [apply (named_b_ok _ _ leak_buses); vm_compute; reflexivity|]. split; [|split].
  - intros k Hk. change (steps fs_leak None) with 6%nat in *. destruct k as [|[|k]]; [..|lia]; apply (valid_b_ok _ _ _ leak_buses); vm_compute; reflexivity.
  - intros k Hk. change (steps fs_leak None) with 6%nat in *. destruct k as [|k]; [|lia]; vm_compute; lia.
  - intros c p ds _ _ _ E. discriminate E.
Qed.
Example C71_horizon_applies : well_named fs_run /\ valid_data fs_run None /\ numeric_levels fs_run /\ enough_past fs_run
  /\ (forall k, (k * 4 < steps fs_run None)%nat -> lossy_governed fs_run (Some (segment_of 4 1 (steps fs_run None) k)))
  /\ (forall k, (k * 4 + 1 <> steps fs_run None)%nat) /\ (forall k, (S k * 4 < steps fs_run None)%nat -> (k * 4 + 1 + 1 <= steps fs_run None)%nat).
Proof.
  destruct C71_run_applies as [W [_ [_ EP]]]. split; [exact W|]. split; [apply (valid_b_ok _ _ _ run_buses); vm_compute; reflexivity|].
  split; [intros c s [<-|[<-|[]]] K; discriminate K|]. split; [exact EP|]. split; [intros k _ c rel p f [<-|[<-|[]]] K; discriminate K|]. change (steps fs_run None) with 10%nat. split; intros; lia.
Qed.
Example C71_window_applies : exists pm, build default_config id_ord fs_run (Some (seq 3 5)) = Ok pm.
Proof.
  destruct C71_horizon_applies as [W [V [NL _]]]. apply C71_window; auto; [intros c rel p f [<-|[<-|[]]] K; discriminate K|cbn; lia].
Qed.

(** Ten steps in segments of three: the last segment has one step, and the duration of running cannot be modelled for it. *)
Theorem C71_refuted : ~ C71_full.
Proof.
  intros F. destruct C71_horizon_applies as [W [V _]].
  destruct (F default_config id_ord (fun _ _ => Some (fun _ _ => 0)) fs_run 3%nat 0%nat (fun l => Permutation_refl l) ltac:(lia) ltac:(cbn; lia) W V) as [g [M R]].
  destruct (seg_run default_config id_ord (fun _ _ => Some (fun _ _ => 0)) g fs_run []) as [[fa subs] o] eqn:E. specialize (R _ _ _ eq_refl).
  assert (C : match mk_segmented fs_run 3 0 None with Ok g => snd (seg_run default_config id_ord (fun _ _ => Some (fun _ _ => 0)) g fs_run []) | Err _ => None end = Some AttributeError) by (vm_compute; reflexivity).
  rewrite M, E in C. cbn [snd] in C. subst o. destruct R as [R|[R _]]; discriminate R.
Qed.
Print Assumptions C71_refuted.
