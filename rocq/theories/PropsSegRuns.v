(** C64: run times in the combined results of a segmented calculation. *)
From Verif Require Import Base BaseFacts MathModel Spec Structure Params Features Elements System Library SysSpec CtxFacts NavFacts PropsComp PropsFlow PropsOnOff
     PropsEffects Tree PropsTree Values Results Segmented PropsRepeat SegmentedFacts PropsSegmented PropsTrace PropsSegLaws Example ExamplePoints.

(** ** Within a segment *)
Lemma part_span : forall fs fsk a n s t, restarted fs fsk -> (t < n)%nat -> (a + n <= length (fs_times fs))%nat ->
  span (hours fsk (Some (seq a n))) s t = span (hours fs None) (a + s) (a + t).
Proof.
  intros fs fsk a n s t RS Ht HR. unfold span. replace (S (a + t) - (a + s))%nat with (S t - s)%nat by lia.
  rewrite <- (Nat.add_comm s a). f_equal.
  assert (G : forall m u, (u + m <= S t)%nat -> map (hours fsk (Some (seq a n))) (seq u m) = map (hours fs None) (seq (u + a) m)).
  { induction m as [|m IH]; intros u Hu; [reflexivity|]. cbn [seq map]. rewrite (part_hours fs fsk a n u RS ltac:(lia) HR), (IH (S u)) by lia.
    rewrite (Nat.add_comm a u). reflexivity. }
  destruct (Nat.le_gt_cases s (S t)) as [H|H]; [apply G; lia|]. replace (S t - s)%nat with 0%nat by lia. reflexivity.
Qed.

(** The segment [k] is responsible for the steps from [k * seg] up to [upto]. *)
Definition upto (seg over : nat) (fs : flow_system) (ti : option (list nat)) (subs : list sub) (k : nat) : nat :=
  if Nat.eqb (S k) (length subs) then steps fs ti else (k * seg + seg)%nat.

(** Runs of a flow that lie within one segment obey the limits of the user, if they begin after its first step or if it is the first segment;
    a run that came over a border counts one step before the border, of the length given for the steps before the horizon. *)
Theorem C64_partial : forall cf ord solver fs seg over ti g subs fs_after c f o k,
  let on := on_of (joined seg subs) c f in
  let prior := prior_hours (fs_prev_dt fs) true (prior_states cf f) in
  finished cf ord solver fs seg over ti g subs fs_after -> losses_throughout fs subs -> 0 <= cf_eps cf -> cf_eps cf < 1 ->
  (forall su, In su subs -> feasible (sb_prog su) (sb_values su)) ->
  (forall k, (S k < length subs)%nat -> (k * seg + seg + over <= steps fs ti)%nat) ->
  In c (fs_comps fs) -> In f (cp_flows c) -> governed fs None c f = Some o -> durations_ok fs o -> countable_for o (prior_states cf f) ->
  (k < length subs)%nat ->
  (forall p s t, oo_con_max o = Some p -> (k * seg <= s)%nat -> (t < upto seg over fs ti subs k)%nat -> (k = 0 \/ k * seg < s)%nat ->
     is_run on s t -> run_hours (hours fs None) prior s t <= value None p t)
  /\ (forall p s t, oo_con_min o = Some p -> (k * seg <= s)%nat -> (S t < upto seg over fs ti subs k)%nat -> (k = 0 \/ k * seg < s)%nat ->
     is_run on s t -> on (S t) == 0 -> value None p t <= run_hours (hours fs None) prior s t)
  /\ (forall p j t, oo_con_max o = Some p -> k = S j -> (k * seg <= t)%nat -> (t < upto seg over fs ti subs k)%nat ->
     cf_eps cf < Qabs (rate_of (joined seg subs) c f (k * seg - 1)%nat) -> (forall i, (k * seg <= i <= t)%nat -> on i == 1) ->
     last_hours (fs_prev_dt fs) 1 + span (hours fs None) (k * seg) t <= value None p t).
Proof.
  intros cf ord solver fs seg over ti g subs fs_after c f o k on prior F NA EP E1 FE FULL Hc Hf G DO CT K.
  destruct (fin_seg _ _ _ _ _ _ _ _ _ _ F) as [S1 [S2 [N [L1 L2]]]]. pose proof (fin_range _ _ _ _ _ _ _ _ _ _ F) as RNG.
  destruct (fin_exists subs k K) as [s0 E]. destruct (C63_problem _ _ _ _ _ _ _ _ _ _ _ _ F NA E) as [fsk [RS [B [I [K0 KS]]]]].
  pose proof (segment_losses _ _ _ _ _ _ _ _ _ _ F NA s0 (nth_error_In _ _ E)) as NL. rewrite I in B, NL.
  destruct (fin_sub _ _ _ _ _ _ _ _ _ _ F k s0 E) as [_ [_ [_ [_ V]]]].
  set (n := (Nat.min (k * seg + seg + over) (steps fs ti) - k * seg)%nat) in *. set (a := (k * seg)%nat) in *.
  assert (FEs : feasible (sb_prog s0) (sb_values s0)) by (apply FE; eapply nth_error_In; eauto).
  assert (UP : (upto seg over fs ti subs k <= a + n)%nat).
  { unfold upto, n, a. destruct (Nat.eqb_spec (S k) (length subs)) as [H|H]; [|specialize (FULL k ltac:(lia)); nia]. rewrite <- H in L1, L2. cbn in L1. nia. }
  assert (HR : (a + n <= length (fs_times fs))%nat) by (unfold n, a; nia).
  assert (HJ : forall l t', (a + t' < upto seg over fs ti subs k)%nat -> joined seg subs l (a + t')%nat = sb_values s0 l t').
  { intros l t' H. unfold joined, combined. assert (R : responsible seg subs (a + t') = k).
    { unfold responsible, upto, a in *. destruct (Nat.eqb_spec (S k) (length subs)) as [Q|Q].
      - assert (k <= (k * seg + t') / seg)%nat by (apply Nat.div_le_lower_bound; nia). lia.
      - replace ((k * seg + t') / seg)%nat with k by (apply (Nat.div_unique _ _ _ t'); lia). lia. }
    rewrite R, V. f_equal. unfold a. lia. }
  (* the laws of the segment, with its own view of the time before it *)
  assert (X : exists states, consecutive_laws fsk (Some (seq a n)) (sb_values s0) (flow_name c f) states o
    /\ (k = 0%nat -> states = prior_states cf f) /\ (forall j, k = S j -> states = [nonzero_rate cf (rate_of (joined seg subs) c f (a - 1)%nat)])).
  { destruct k as [|j] eqn:KK.
    - exists (prior_states cf f). specialize (K0 eq_refl). subst fsk. split; [|split; [reflexivity|discriminate]].
      rewrite <- (governed_any fs (Some (seq a n)) c f NL Hc) in G. exact (C16_flow_consecutive_partial _ _ _ _ _ _ _ _ _ B FEs EP E1 Hc Hf G DO CT).
    - destruct (part_comp fs fsk RS c Hc) as [p [i H]]. pose proof (part_flow p i c f Hf) as Hf2.
      rewrite <- (part_governed fs fsk a n NL p i c (p f) f Hc) in G.
      assert (JL : (S j < length subs)%nat) by exact K.
      destruct (KS j eq_refl (FULL j JL) _ H) as [HP _]. specialize (HP _ Hf2). cbn [with_prev f_prev] in HP.
      assert (PS : prior_states cf (with_prev (p f) f) = [nonzero_rate cf (rate_of (joined seg subs) c f (a - 1)%nat)]).
      { unfold prior_states. cbn [with_prev f_prev]. rewrite HP. do 2 f_equal.
        change (rate_of (values_of subs j) (with_starts p i c) (with_prev (p f) f) (seg - 1)) with (rate_of (values_of subs j) c f (seg - 1)).
        assert (D : ((a - 1) / seg = j)%nat) by (symmetry; apply (Nat.div_unique _ _ _ (seg - 1)); unfold a; nia).
        unfold rate_of, joined, combined, responsible. rewrite D, Nat.min_l by lia. f_equal. unfold a. nia. }
      exists (prior_states cf (with_prev (p f) f)). split; [|split; [discriminate|intros j' _; exact PS]].
      change (flow_name c f) with (flow_name (with_starts p i c) (with_prev (p f) f)).
      refine (C16_flow_consecutive_partial _ _ _ _ _ _ _ _ _ B FEs EP E1 H Hf2 G _ _).
      + destruct RS as [RE _]. destruct DO as [D1 D2]. unfold durations_ok, full_data in *. rewrite RE. cbn [with_comps fs_times]. split; assumption.
      + rewrite PS. split; intros _; left; intros b b' [<-|[]] [<-|[]]; reflexivity. }
  destruct X as [states [[CL _] [ST0 STS]]].
  assert (FP : fs_prev_dt fsk = fs_prev_dt fs) by (destruct RS as [RE _]; rewrite RE; reflexivity). rewrite FP in CL.
  assert (RUN : forall s t, (a <= s)%nat -> (t < upto seg over fs ti subs k)%nat -> is_run on s t ->
     (k = 0 \/ a < s)%nat -> is_run (sb_values s0 (oo (flow_name c f) "on")) (s - a) (t - a)).
  { intros s t H1 H2 [R1 [R2 R3]] H3. split; [lia|]. split.
    - intros i Hi. specialize (R2 (a + i)%nat ltac:(lia)). unfold on, on_of in R2. rewrite HJ in R2 by lia. exact R2.
    - intros u Hu. destruct s as [|s]; [lia|]. specialize (R3 s eq_refl). unfold on, on_of in R3. replace s with (a + u)%nat in R3 by lia. rewrite HJ in R3 by lia. exact R3. }
  assert (RH : forall s t, (a <= s)%nat -> (t < upto seg over fs ti subs k)%nat -> (s <= t)%nat -> (k = 0 \/ a < s)%nat ->
     run_hours (hours fsk (Some (seq a n))) (prior_hours (fs_prev_dt fs) true states) (s - a) (t - a) = run_hours (hours fs None) prior s t).
  { intros s t H1 H2 H3 H4. unfold run_hours. rewrite (part_span fs fsk a n (s - a) (t - a) RS ltac:(lia) HR).
    replace (a + (s - a))%nat with s by lia. replace (a + (t - a))%nat with t by lia. f_equal.
    destruct (Nat.eqb_spec (s - a) 0) as [Z|Z], (Nat.eqb_spec s 0) as [Z'|Z']; try reflexivity; try lia.
    rewrite (ST0 ltac:(lia)). reflexivity. }
  assert (SL : forall t, (t < upto seg over fs ti subs k)%nat -> (a <= t)%nat -> (t - a < steps fsk (Some (seq a n)))%nat) by (intros t H1 H2; cbn [steps]; rewrite seq_length; lia).
  split; [|split].
  - intros p s t P H1 H2 H3 R. destruct CL as [_ [LM _]]; [right; congruence|]. assert (s <= t)%nat by (destruct R; assumption).
    pose proof (LM p (s - a) (t - a) P (SL t H2 ltac:(lia)) (RUN s t H1 H2 R H3))%nat as W. rewrite (RH s t H1 H2 H H3), value_part in W by lia.
    replace (a + (t - a))%nat with t in W by lia. exact W.
  - intros p s t P H1 H2 H3 R Z. destruct CL as [_ [_ [LM _]]]; [left; congruence|]. assert (s <= t)%nat by (destruct R; assumption).
    assert (H2' : (t < upto seg over fs ti subs k)%nat) by lia.
    assert (SS : (S (t - a) < steps fsk (Some (seq a n)))%nat) by (cbn [steps]; rewrite seq_length; lia).
    assert (ZZ : sb_values s0 (oo (flow_name c f) "on") (S (t - a)) == 0).
    { unfold on, on_of in Z. replace (S t) with (a + S (t - a))%nat in Z by lia. rewrite HJ in Z by lia. exact Z. }
    pose proof (LM p (s - a) (t - a) P SS (RUN s t H1 H2' R H3) ZZ)%nat as W. rewrite (RH s t H1 H2' H H3), value_part in W by lia.
    replace (a + (t - a))%nat with t in W by lia. exact W.
  - intros p j t P KJ H1 H2 AB ON. destruct CL as [_ [LM _]]; [right; congruence|].
    assert (R : is_run (sb_values s0 (oo (flow_name c f) "on")) 0 (t - a)).
    { split; [lia|]. split; [|discriminate]. intros i Hi. specialize (ON (a + i)%nat ltac:(lia)). unfold on, on_of in ON. rewrite HJ in ON by lia. exact ON. }
    pose proof (LM p 0%nat (t - a)%nat P (SL t H2 ltac:(lia)) R) as W. rewrite value_part in W by lia. replace (a + (t - a))%nat with t in W by lia.
    unfold run_hours in W. cbn [Nat.eqb] in W. rewrite (part_span fs fsk a n 0 (t - a) RS ltac:(lia) HR), Nat.add_0_r in W. replace (a + (t - a))%nat with t in W by lia.
    rewrite (STS j KJ) in W. unfold nonzero_rate in W. destruct (Qle_bool _ _) eqn:Q; [apply Qle_bool_iff in Q; exfalso; lra|]. exact W.
Qed.
Print Assumptions C64_partial.

(** ** Over the borders *)

(** No run of a flow is longer than its maximum. *)
Definition C64_full : Prop := forall cf ord solver fs seg over ti g subs fs_after c f o p s t,
  let on := on_of (joined seg subs) c f in
  finished cf ord solver fs seg over ti g subs fs_after -> losses_throughout fs subs -> (forall l, Permutation (ord l) l) -> 0 < cf_eps cf -> cf_eps cf < 1 ->
  (forall su, In su subs -> feasible (sb_prog su) (sb_values su)) ->
  (forall k, (S k < length subs)%nat -> (k * seg + seg + over <= steps fs ti)%nat) ->
  In c (fs_comps fs) -> In f (cp_flows c) -> governed fs None c f = Some o -> durations_ok fs o -> countable_for o (prior_states cf f) ->
  oo_con_max o = Some p -> (t < steps fs ti)%nat -> is_run on s t ->
  run_hours (hours fs None) (prior_hours (fs_prev_dt fs) true (prior_states cf f)) s t <= value None p t.

(** A source that may run for three hours at a time. It runs in steps 1 to 3 in the first segment; the second segment knows of one step before it
    and lets the source run in steps 4 and 5. *)
Definition run_oo : onoff := mkOnOff EVNone EVNone None None None (Some (n1 3)) None None None false.
Definition run_q := set_onoff (Some run_oo) (fl 180 "Q" gas 10).
Definition run_src : component := source "Src" run_q.
Definition fs_run : flow_system := mkFS (map (fun t => inject_Z (Z.of_nat t)) (seq 0 10)) 10 (NS 1) [costs] [run_src; Library.sink "Snk" (fl 181 "D" gas 10)].
Definition run_values (on hours start stop : list Q) : asg := fun v t =>
  if existsb (String.eqb v) ["Src__Q_flow_rate"; "Src__Q__OnOff_on"; "Snk__D_flow_rate"] then nth t on 0
  else if existsb (String.eqb v) ["Src__Q_sumFlowHours"; "Src__Q__OnOff_totalOnHours"; "Snk__D_sumFlowHours"] then Qsum on
  else if String.eqb v "Src__Q__OnOff_consecutiveOnHours" then nth t hours 0
  else if String.eqb v "Src__Q__OnOff_switchOn" then nth t start 0
  else if String.eqb v "Src__Q__OnOff_switchOff" then nth t stop 0
  else if String.eqb v "Src__Q__OnOff_nrSwitchOn" then Qsum start
  else 0.
Definition run_solver : nat -> pmodel -> option asg := fun i _ =>
  Some (match i with
        | 0%nat => run_values [0; 1; 1; 1; 0; 0] [0; 1; 2; 3; 0; 0] [0; 1; 0; 0; 0; 0] [0; 0; 0; 0; 1; 0]
        | 1%nat => run_values [1; 1; 0; 0; 0; 0] [2; 3; 0; 0; 0; 0] [] [0; 0; 1; 0; 0; 0]
        | _ => run_values [] [] [] []
        end).
Lemma run_run : exists g subs fs_after, finished default_config id_ord run_solver fs_run 4 2 None g subs fs_after
  /\ length subs = 3%nat /\ (forall s, In s subs -> feasible (sb_prog s) (sb_values s)).
Proof.
  destruct (run_check_ok run_solver fs_run 4 2 None (fun subs => Nat.eqb (length subs) 3 && all_feasible subs)%bool) as [g [subs [fa [F H]]]];
    [vm_compute; reflexivity|].
  apply andb_prop in H. destruct H as [H1 H2]. exists g, subs, fa. split; [exact F|]. split; [apply Nat.eqb_eq; exact H1|apply all_feasible_ok; exact H2].
Qed.
Lemma run_lossless : no_absolute_losses fs_run.
Proof. intros c rel abs Hc K. cbn in Hc. destruct Hc as [<-|[<-|[]]]; cbn in K; discriminate. Qed.
Lemma run_joined : forall g subs fs_after, finished default_config id_ord run_solver fs_run 4 2 None g subs fs_after ->
  forall t, (t < 10)%nat -> on_of (joined 4 subs) run_src run_q t = nth t [0; 1; 1; 1; 1; 1; 0; 0; 0; 0] 0.
Proof.
  intros g subs fa F t Ht. destruct (joined_at _ _ _ _ _ _ _ _ _ _ t F Ht) as [_ [ET [TN [_ [s [E [_ HJ]]]]]]]. destruct (fin_sub _ _ _ _ _ _ _ _ _ _ F _ s E) as [_ [_ [SV _]]].
  unfold on_of. rewrite ET at 1. rewrite HJ. inversion SV as [SV']. clear -Ht. do 10 (destruct t as [|t]; [vm_compute; reflexivity|]). lia.
Qed.

Theorem C64_full_refuted : ~ C64_full.
Proof.
  intros A. destruct run_run as [g [subs [fa [F [L FE]]]]]. pose proof (run_joined _ _ _ F) as ON.
  assert (FULL : forall k, (S k < length subs)%nat -> (k * 4 + 4 + 2 <= steps fs_run None)%nat) by (intros k Hk; cbn [steps fs_run fs_times]; rewrite map_length, seq_length; lia).
  assert (W := A default_config id_ord run_solver fs_run 4%nat 2%nat None g subs fa run_src run_q run_oo (n1 3) 1%nat 5%nat F (lossless_throughout _ _ run_lossless) id_ord_perm eq_refl eq_refl FE FULL
    ltac:(cbn; tauto) ltac:(cbn; tauto) eq_refl ltac:(split; intros p H; discriminate) ltac:(split; intros _; left; intros b b' [<-|[]] [<-|[]]; reflexivity) eq_refl ltac:(cbn; lia)).
  assert (R : is_run (on_of (joined 4 subs) run_src run_q) 1 5).
  { split; [lia|]. split.
    - intros i Hi. rewrite ON by lia. do 6 (destruct i as [|i]; [try lia; reflexivity|]). lia.
    - intros k Hk. assert (k = 0%nat) by lia. subst k. rewrite ON by lia. reflexivity. }
  specialize (W R). vm_compute in W. apply W. reflexivity.
Qed.
Print Assumptions C64_full_refuted.

(** In the same calculation the run within the first segment obeys the limit, and so does what the second segment sees. *)
Example C64_applies : exists subs, length subs = 3%nat
  /\ run_hours (hours fs_run None) (prior_hours (fs_prev_dt fs_run) true (prior_states default_config run_q)) 1 3 == 3
  /\ is_run (on_of (joined 4 subs) run_src run_q) 1 3
  /\ last_hours (fs_prev_dt fs_run) 1 + span (hours fs_run None) 4 5 <= 3.
Proof.
  destruct run_run as [g [subs [fa [F [L FE]]]]]. exists subs. split; [exact L|]. split; [vm_compute; reflexivity|]. pose proof (run_joined _ _ _ F) as ON. split.
  - split; [lia|]. split; [|intros k Hk; assert (k = 0%nat) by lia; subst k; rewrite ON by lia; reflexivity].
    intros i Hi. rewrite ON by lia. do 6 (destruct i as [|i]; [try lia; reflexivity|]). lia.
  - assert (FULL : forall k, (S k < length subs)%nat -> (k * 4 + 4 + 2 <= steps fs_run None)%nat) by (intros k Hk; cbn [steps fs_run fs_times]; rewrite map_length, seq_length; lia).
    destruct (C64_partial _ _ _ _ _ _ _ _ _ _ run_src run_q run_oo 1%nat F (lossless_throughout _ _ run_lossless) ltac:(vm_compute; discriminate) eq_refl FE FULL
      ltac:(cbn; tauto) ltac:(cbn; tauto) eq_refl ltac:(split; intros p H; discriminate) ltac:(split; intros _; left; intros b b' [<-|[]] [<-|[]]; reflexivity) ltac:(lia)) as [_ [_ H]].
    refine (H (n1 3) 0%nat 5%nat eq_refl eq_refl _ _ _ _); [cbn; lia|unfold upto; rewrite L; cbn; lia| |].
    + assert (Z : rate_of (joined 4 subs) run_src run_q (1 * 4 - 1) = 1).
      { change (1 * 4 - 1)%nat with 3%nat. destruct (joined_at _ _ _ _ _ _ _ _ _ _ 3%nat F ltac:(cbn; lia)) as [_ [_ [_ [_ [s [E [_ HJ]]]]]]].
        destruct (fin_sub _ _ _ _ _ _ _ _ _ _ F _ s E) as [_ [_ [SV _]]]. inversion SV as [SV']. unfold rate_of. change 3%nat with (3 / 4 * 4 + 3 mod 4)%nat at 1. rewrite HJ, <- SV'. reflexivity. }
      rewrite Z. reflexivity.
    + intros i Hi. rewrite ON by lia. do 6 (destruct i as [|i]; [try lia; reflexivity|]). lia.
Qed.
