(** C33, C34, C35: segmented calculations cover the horizon, hand over the state and restore the system. *)
From Verif Require Import Base BaseFacts MathModel Spec Structure Params Features Elements System Library SysSpec CtxFacts NavFacts PropsComp Tree PropsTree
     Values Results Segmented PropsRepeat SegmentedFacts Example ExamplePoints.

(** ** Specification *)

(** A segmented calculation was created and run once, without an exception: its segments and the system afterwards. *)
Definition finished (cf : config) (ord : list nat -> list nat) (solver : nat -> pmodel -> option asg) (fs : flow_system)
           (seg over : nat) (ti : option (list nat)) (g : segmented) (subs : list sub) (fs_after : flow_system) : Prop :=
  mk_segmented fs seg over ti = Ok g /\ seg_run cf ord solver g fs [] = (fs_after, subs, None).

(** The steps the user asked for. *)
Definition requested (fs : flow_system) (ti : option (list nat)) : list nat :=
  match ti with Some l => l | None => seq 0 (length (fs_times fs)) end.
(** The steps of the segments in order; of all but the last only the first [seg], which are not part of the overlap. *)
Definition without_overlaps (seg : nat) (l : list (list nat)) : list nat := concat (map (firstn seg) (removelast l)) ++ last l [].

(** Step [t] of the combined solution belongs to segment [t / seg]; what follows the last segment belongs to it. *)
Definition responsible (seg : nat) (subs : list sub) (t : nat) : nat := Nat.min (t / seg) (length subs - 1).
Definition values_of (subs : list sub) (k : nat) : asg := match nth_error subs k with Some s => sb_values s | None => fun _ _ => 0 end.
Definition combined (seg : nat) (subs : list sub) (q : asg -> nat -> Q) (t : nat) : Q :=
  q (values_of subs (responsible seg subs t)) (t - responsible seg subs t * seg)%nat.

(** Same start values: previous flow rates of all flows and initial charge states of all storages. *)
Definition restored (fs fs' : flow_system) : Prop :=
  Forall2 (fun c c' => cp_label c' = cp_label c /\ init_of c' = init_of c
             /\ map (fun f => (f_id f, f_lab f, f_prev f)) (cp_flows c') = map (fun f => (f_id f, f_lab f, f_prev f)) (cp_flows c))
    (fs_comps fs) (fs_comps fs').

(** ** Runs *)
Lemma list_ext : forall {A} (l l' : list A), (forall i, nth_error l i = nth_error l' i) -> l = l'.
Proof.
  induction l as [|a l IH]; intros [|b l'] H; try reflexivity; try (specialize (H 0%nat); discriminate).
  pose proof (H 0%nat) as Z. inversion Z; subst. f_equal. apply IH. intros i. exact (H (S i)).
Qed.
Lemma seq_nth_error : forall n k, (k < n)%nat -> nth_error (seq 0 n) k = Some k.
Proof. intros n k H. rewrite (nth_error_nth' _ 0%nat) by (rewrite seq_length; exact H). rewrite seq_nth by exact H. reflexivity. Qed.
Lemma finished_trace : forall cf ord solver fs seg over ti g subs fs_after, finished cf ord solver fs seg over ti g subs fs_after ->
  exists fs', seg_trace cf ord solver g 0 fs subs fs' /\ length subs = sg_number g /\ fs_after = reset g fs'.
Proof.
  intros cf ord solver fs seg over ti g subs fs_after [M R]. destruct (segmented_spec _ _ _ _ _ M) as [_ [_ [_ [_ [_ [_ [N _]]]]]]].
  unfold seg_run in R. destruct (sg_number g) as [|n] eqn:E; [lia|]. destruct (seg_loop _ _ _ _ _ _ _ _) as [[fs' su] [e|]] eqn:L; [discriminate|].
  inversion R; subst. destruct (loop_trace _ _ _ _ _ _ _ _ L) as [T LN]. exists fs'. auto.
Qed.

Lemma fin_exists : forall (subs : list sub) k, (k < length subs)%nat -> exists s, nth_error subs k = Some s.
Proof. intros subs k H. destruct (nth_error subs k) eqn:E; [eauto|]. apply nth_error_None in E. lia. Qed.

Section Finished.
Variables (cf : config) (ord : list nat -> list nat) (solver : nat -> pmodel -> option asg) (fs : flow_system) (seg over : nat)
          (ti : option (list nat)) (g : segmented) (subs : list sub) (fs_after : flow_system).
Hypothesis FIN : finished cf ord solver fs seg over ti g subs fs_after.
Let total := steps fs ti.

Lemma fin_seg : (2 < seg)%nat /\ (seg + over <= total)%nat /\ (1 <= length subs)%nat /\ ((length subs - 1) * seg < total <= length subs * seg)%nat.
Proof.
  destruct (finished_trace _ _ _ _ _ _ _ _ _ _ FIN) as [fs' [_ [L _]]]. destruct FIN as [M _]. destruct (segmented_spec _ _ _ _ _ M) as [_ [_ [T [_ [A [B [N C]]]]]]].
  rewrite L. unfold total. rewrite <- T. auto.
Qed.
Lemma fin_sub : forall k s, nth_error subs k = Some s ->
  sb_idx s = seq (k * seg) (Nat.min (k * seg + seg + over) total - k * seg) /\ build cf ord (sb_fs s) (Some (sb_idx s)) = Ok (sb_prog s)
  /\ solver k (sb_prog s) = Some (sb_values s) /\ sys_like fs (sb_fs s) /\ values_of subs k = sb_values s.
Proof.
  intros k s E. destruct (finished_trace _ _ _ _ _ _ _ _ _ _ FIN) as [fs' [T _]]. destruct FIN as [M _].
  destruct (segmented_spec _ _ _ _ _ M) as [A1 [A2 [A3 _]]]. destruct (trace_nth _ _ _ _ _ _ _ _ T k s E) as [B1 [B2 B3]]. cbn [Nat.add] in *.
  unfold get_indices in B1. rewrite A1, A2, A3 in B1. split; [exact B1|]. split; [exact B2|]. split; [exact B3|]. split.
  - destruct (trace_like _ _ _ _ _ _ _ _ T) as [_ L]. apply L. eapply nth_error_In; eauto.
  - unfold values_of. rewrite E. reflexivity.
Qed.
Lemma fin_first : exists s, nth_error subs 0 = Some s /\ sb_fs s = fs.
Proof. destruct (finished_trace _ _ _ _ _ _ _ _ _ _ FIN) as [fs' [T _]]. apply (trace_first _ _ _ _ _ _ _ _ T). Qed.
Lemma fin_length : forall k s, nth_error subs k = Some s -> length (sb_idx s) = (Nat.min (k * seg + seg + over) total - k * seg)%nat /\ (k * seg < total)%nat.
Proof.
  intros k s E. destruct (fin_sub k s E) as [-> _]. rewrite seq_length. split; [reflexivity|].
  assert (k < length subs)%nat by (apply nth_error_Some; congruence). destruct fin_seg as [_ [_ [_ [H1 _]]]]. nia.
Qed.
Lemma fin_range : (total <= length (fs_times fs))%nat.
Proof.
  destruct fin_seg as [S1 [S2 [N [L1 L2]]]]. destruct (fin_exists subs (length subs - 1)%nat ltac:(lia)) as [s E].
  destruct (fin_sub _ _ E) as [I [B [_ [LK _]]]]. destruct (fin_length _ _ E) as [LN _]. destruct (build_parts _ _ _ _ _ B) as [cx [cos [bos [em [obj P]]]]].
  pose proof (sys_ctx _ _ _ _ _ _ _ _ _ _ P) as CF. set (m := length (sb_idx s)) in *.
  assert (T : (m - 1 < steps (sb_fs s) (Some (sb_idx s)))%nat) by (cbn [steps]; fold m; nia).
  pose proof (cf_rng _ _ _ _ CF (m - 1)%nat T) as R. cbn [selected] in R. rewrite I, seq_nth in R by nia. rewrite (sl_times _ _ LK) in R. nia.
Qed.

Lemma fin_indices : map sb_idx subs = map (fun k => seq (k * seg) (Nat.min (k * seg + seg + over) total - k * seg)) (seq 0 (length subs)).
Proof.
  apply list_ext. intros k. destruct (Nat.lt_ge_cases k (length subs)) as [H|H].
  - destruct (fin_exists subs k H) as [s E]. rewrite (map_nth_error sb_idx _ _ E). erewrite map_nth_error by (apply seq_nth_error; exact H).
    destruct (fin_sub k s E) as [-> _]. reflexivity.
  - rewrite (proj2 (nth_error_None _ _)), (proj2 (nth_error_None _ _)); [reflexivity| |]; rewrite map_length, ?seq_length; lia.
Qed.

Lemma fin_cover : without_overlaps seg (map sb_idx subs) = seq 0 total.
Proof.
  destruct fin_seg as [S1 [S2 [N [L1 L2]]]]. rewrite fin_indices. unfold without_overlaps.
  assert (E : seq 0 (length subs) = seq 0 (length subs - 1) ++ [(length subs - 1)%nat]).
  { replace (length subs) with (S (length subs - 1)) at 1 by lia. rewrite seq_S. reflexivity. }
  rewrite E, map_app. cbn [map]. rewrite removelast_last, last_last, map_map.
  rewrite (map_ext_in _ (fun k => seq (k * seg) seg)).
  - rewrite concat_blocks. replace total with ((length subs - 1) * seg + (total - (length subs - 1) * seg))%nat at 2 by lia. rewrite seq_app. f_equal. f_equal. nia.
  - intros k Hk. apply in_seq in Hk. rewrite firstn_seq. f_equal. nia.
Qed.

Lemma fin_handover : forall k s s', nth_error subs k = Some s -> nth_error subs (S k) = Some s' -> (k * seg + seg + over <= total)%nat ->
  forall c, In c (fs_comps (sb_fs s')) ->
    (forall f, In f (cp_flows c) -> f_prev f = Some (NS (rate_of (sb_values s) c f (seg - 1))))
    /\ (forall st, cp_kind c = StorageC st -> st_init st = ICNum (charge (sb_values s) c seg)).
Proof.
  intros k s s' E E' FULL c Hc. destruct (finished_trace _ _ _ _ _ _ _ _ _ _ FIN) as [fs' [T _]].
  pose proof (trace_next _ _ _ _ _ _ _ _ T k s s' E E') as TR. destruct (transfer_values _ _ _ _ _ TR c Hc) as [i [j [I [J [R1 R2]]]]].
  destruct (fin_length k s E) as [L _]. destruct fin_seg as [S1 _]. assert (SO : sg_over g = over) by (destruct FIN as [M _]; apply (segmented_spec _ _ _ _ _ M)).
  rewrite L, SO in I, J. unfold from_end in I, J.
  replace (Nat.min (k * seg + seg + over) total - k * seg)%nat with (seg + over)%nat in I, J by lia.
  destruct (_ && _)%bool in I; [|discriminate]. destruct (_ && _)%bool in J; [|discriminate].
  assert (i = seg - 1)%nat by (inversion I; lia). assert (j = seg)%nat by (inversion J; lia). subst i j. auto.
Qed.
End Finished.

(** ** C33 *)
Definition C33_full : Prop := forall cf ord solver fs seg over ti g subs fs_after, finished cf ord solver fs seg over ti g subs fs_after ->
  without_overlaps seg (map sb_idx subs) = requested fs ti.

Theorem C33_cover_partial : forall cf ord solver fs seg over ti g subs fs_after, finished cf ord solver fs seg over ti g subs fs_after ->
  (ti = None \/ exists m, ti = Some (seq 0 m)) ->
  without_overlaps seg (map sb_idx subs) = requested fs ti
  /\ (forall s, In s subs -> exists a n, sb_idx s = seq a n /\ (0 < n)%nat /\ (a + n <= length (fs_times fs))%nat).
Proof.
  intros cf ord solver fs seg over ti g subs fs_after F W. split.
  - rewrite (fin_cover _ _ _ _ _ _ _ _ _ _ F). destruct W as [->|[m ->]]; cbn [steps requested]; [reflexivity|rewrite seq_length; reflexivity].
  - intros s Hs. apply In_nth_error in Hs. destruct Hs as [k E]. destruct (fin_sub _ _ _ _ _ _ _ _ _ _ F k s E) as [I _]. destruct (fin_length _ _ _ _ _ _ _ _ _ _ F k s E) as [_ L].
    pose proof (fin_range _ _ _ _ _ _ _ _ _ _ F) as R. destruct (fin_seg _ _ _ _ _ _ _ _ _ _ F) as [S1 _]. eexists. eexists. split; [exact I|]. nia.
Qed.
Print Assumptions C33_cover_partial.

(** An example: a storage that is charged by one unit in each of ten steps. *)
Definition keep_ch := fl 171 "in" gas 10.
Definition keep_dis := fl 172 "out" gas 10.
Definition keep_sto : component := storage_ "Sto" keep_ch keep_dis (cyc_s (ICNum 0) None None) true.
Definition fs_keep : flow_system := mkFS (map (fun t => inject_Z (Z.of_nat t)) (seq 0 10)) 10 (NS 1) [costs] [source "Src" (fl 170 "Q" gas 10); keep_sto].
(** Values in a segment of [n] steps that begins with the charge state [a]. *)
Definition x_keep (a n : nat) : asg := fun v t =>
  if existsb (String.eqb v) ["Src__Q_flow_rate"; "Sto__in_flow_rate"; "Sto__in__OnOff_on"] then 1
  else if existsb (String.eqb v) ["Src__Q_sumFlowHours"; "Sto__in_sumFlowHours"; "Sto__in__OnOff_totalOnHours"] then inject_Z (Z.of_nat n)
  else if String.eqb v "Sto_netto_discharge" then -1
  else if String.eqb v "Sto_charge_state" then inject_Z (Z.of_nat (a + t))
  else if String.eqb v "Sto__in__OnOff_switchOn" then (if (Nat.eqb a 0 && Nat.eqb t 0)%bool then 1 else 0)
  else if String.eqb v "Sto__in__OnOff_nrSwitchOn" then (if Nat.eqb a 0 then 1 else 0)
  else 0.
Definition keep_solver (starts lens : list nat) : nat -> pmodel -> option asg := fun i _ => Some (x_keep (nth i starts 0%nat) (nth i lens 0%nat)).

(** Evaluates a run: the checks on its segments. *)
Definition run_check (solver : nat -> pmodel -> option asg) (fs : flow_system) (seg over : nat) (ti : option (list nat)) (ok : list sub -> bool) : bool :=
  match mk_segmented fs seg over ti with
  | Ok g => match seg_run default_config id_ord solver g fs [] with (_, subs, None) => ok subs | _ => false end
  | Err _ => false
  end.
Lemma run_check_ok : forall solver fs seg over ti ok, run_check solver fs seg over ti ok = true ->
  exists g subs fs_after, finished default_config id_ord solver fs seg over ti g subs fs_after /\ ok subs = true.
Proof.
  intros solver fs seg over ti ok H. unfold run_check in H. unfold finished. destruct (mk_segmented fs seg over ti) as [g|]; [|discriminate].
  destruct (seg_run default_config id_ord solver g fs []) as [[fa subs] [e|]] eqn:R; [discriminate|]. exists g, subs, fa. auto.
Qed.
Definition all_feasible (subs : list sub) : bool := forallb (fun s => feasibleb (sb_prog s) (sb_values s)) subs.
Lemma all_feasible_ok : forall subs, all_feasible subs = true -> forall s, In s subs -> feasible (sb_prog s) (sb_values s).
Proof.
  intros subs H s Hs. unfold all_feasible in H. rewrite forallb_forall in H. specialize (H s Hs).
  destruct (run_ok (Ok (sb_prog s)) (sb_values s) H) as [pm [E F]]. inversion E; subst. exact F.
Qed.

Lemma keep_run : exists g subs fs_after, finished default_config id_ord (keep_solver [0; 4; 8]%nat [6; 6; 2]%nat) fs_keep 4 2 None g subs fs_after
  /\ length subs = 3%nat /\ (forall s, In s subs -> feasible (sb_prog s) (sb_values s)).
Proof.
  destruct (run_check_ok (keep_solver [0; 4; 8]%nat [6; 6; 2]%nat) fs_keep 4 2 None (fun subs => Nat.eqb (length subs) 3 && all_feasible subs)%bool) as [g [subs [fa [F H]]]];
    [vm_compute; reflexivity|].
  apply andb_prop in H. destruct H as [H1 H2]. exists g, subs, fa. split; [exact F|]. split; [apply Nat.eqb_eq; exact H1|apply all_feasible_ok; exact H2].
Qed.
Example C33_applies : exists subs, without_overlaps 4 (map sb_idx subs) = seq 0 10 /\ length subs = 3%nat.
Proof.
  destruct keep_run as [g [subs [fa [F [L _]]]]]. exists subs. split; [|exact L].
  exact (proj1 (C33_cover_partial _ _ _ _ _ _ _ _ _ _ F (or_introl eq_refl))).
Qed.

(** Asked for steps 3 to 9 the segments cover steps 0 to 6 instead. *)
Theorem C33_refuted : ~ C33_full.
Proof.
  intros Full. destruct (run_check_ok (fun _ _ => Some (fun _ _ => 0)) fs_keep 4 0 (Some (seq 3 7))
    (fun subs => if list_eq_dec Nat.eq_dec (without_overlaps 4 (map sb_idx subs)) (seq 0 7) then true else false)) as [g [subs [fa [F H]]]]; [vm_compute; reflexivity|].
  specialize (Full _ _ _ _ _ _ _ _ _ _ F). destruct (list_eq_dec _ _ _) as [E|]; [|discriminate]. rewrite Full in E. discriminate.
Qed.
Print Assumptions C33_refuted.

(** ** C34 *)

(** A segment begins with what the one before reached at that time, if the earlier segment has its full length. *)
Theorem C34_handover_partial : forall cf ord solver fs seg over ti g subs fs_after k s s',
  finished cf ord solver fs seg over ti g subs fs_after -> nth_error subs k = Some s -> nth_error subs (S k) = Some s' ->
  (k * seg + seg + over <= steps fs ti)%nat ->
  (S (nth (seg - 1) (sb_idx s) 0) = nth 0 (sb_idx s') 0)%nat
  /\ map (fun c => (cp_label c, map f_lab (cp_flows c))) (fs_comps (sb_fs s')) = map (fun c => (cp_label c, map f_lab (cp_flows c))) (fs_comps fs)
  /\ forall c, In c (fs_comps (sb_fs s')) ->
       (forall f, In f (cp_flows c) -> f_prev f = Some (NS (rate_of (sb_values s) c f (seg - 1))))
       /\ (forall st, cp_kind c = StorageC st -> st_init st = ICNum (charge (sb_values s) c seg)).
Proof.
  intros cf ord solver fs seg over ti g subs fs_after k s s' F E E' FULL. split; [|split].
  - destruct (fin_sub _ _ _ _ _ _ _ _ _ _ F k s E) as [I _]. destruct (fin_sub _ _ _ _ _ _ _ _ _ _ F (S k) s' E') as [I' _].
    destruct (fin_length _ _ _ _ _ _ _ _ _ _ F (S k) s' E') as [_ L]. destruct (fin_seg _ _ _ _ _ _ _ _ _ _ F) as [S1 _]. rewrite I, I', !seq_nth by nia. nia.
  - destruct (fin_sub _ _ _ _ _ _ _ _ _ _ F (S k) s' E') as [_ [_ [_ [LK _]]]]. pose proof (sl_comps _ _ LK) as C. clear -C.
    induction C as [|c c' l l' H _ IH]; [reflexivity|]. cbn [map]. rewrite IH. f_equal.
    assert (X : map f_lab (cp_flows c') = map f_lab (cp_flows c)).
    { pose proof (cl_flows _ _ H) as Q. clear -Q. induction Q as [|f f' l l' [A _] _ IH]; [reflexivity|]. cbn. rewrite IH. unfold flook in A. congruence. }
    rewrite X. pose proof (cl_look _ _ H) as Y. unfold clook in Y. congruence.
  - apply (fin_handover _ _ _ _ _ _ _ _ _ _ F k s s' E E' FULL).
Qed.
Print Assumptions C34_handover_partial.

Lemma Forall2_nth_like : forall {A B} (R : A -> B -> Prop) l l' a, Forall2 R l l' -> In a l -> exists b, In b l' /\ R a b.
Proof. intros A B R l l' a H. induction H as [|x y l l' H _ IH]; intros I; [destruct I|]. destruct I as [<-|I]; [exists y; cbn; auto|]. destruct (IH I) as [b [Hb Q]]. exists b. cbn; auto. Qed.

(** The combined trajectory of a storage obeys the balance over the whole horizon, borders of segments included. *)
Theorem C34_trajectory_partial : forall cf ord solver fs seg over ti g subs fs_after label ch dis s prevent,
  let c := storage_ label ch dis s prevent in
  let level := combined seg subs (fun x => charge x c) in
  finished cf ord solver fs seg over ti g subs fs_after -> In c (fs_comps fs) ->
  (forall k, (S k < length subs)%nat -> (k * seg + seg + over <= steps fs ti)%nat) ->
  (forall su, In su subs -> feasible (sb_prog su) (sb_values su)) ->
  (forall q, st_init s = ICNum q -> level 0%nat == q)
  /\ (forall t, (t < steps fs ti)%nat ->
        level (S t) == level t * (1 - value None (st_loss s) t * hours fs None t)
          + combined seg subs (fun x => rate_of x c ch) t * value None (st_eta_c s) t * hours fs None t
          - combined seg subs (fun x => rate_of x c dis) t / value None (st_eta_d s) t * hours fs None t).
Proof.
  intros cf ord solver fs seg over ti g subs fs_after label ch dis s prevent c level F Hc FULL FE.
  destruct (fin_seg _ _ _ _ _ _ _ _ _ _ F) as [S1 [S2 [N [L1 L2]]]]. pose proof (fin_range _ _ _ _ _ _ _ _ _ _ F) as RNG. split.
  - intros q Q. destruct (fin_first _ _ _ _ _ _ _ _ _ _ F) as [su [E FS]]. destruct (fin_sub _ _ _ _ _ _ _ _ _ _ F 0%nat su E) as [I [B [_ [_ V]]]].
    assert (FEs : feasible (sb_prog su) (sb_values su)) by (apply FE; eapply nth_error_In; eauto).
    rewrite FS in B. destruct (C04_partial _ _ _ _ _ _ label ch dis s prevent B FEs Hc) as [I0 _]. specialize (I0 q Q).
    unfold level, combined, responsible. rewrite Nat.div_0_l by lia. cbn [Nat.min Nat.mul Nat.sub]. rewrite V. exact I0.
  - intros t Ht. set (k := (t / seg)%nat). pose proof (Nat.div_mod t seg ltac:(lia)) as DM. pose proof (Nat.mod_upper_bound t seg ltac:(lia)) as MB. fold k in DM.
    set (t' := (t mod seg)%nat) in *. assert (K : (k < length subs)%nat) by nia.
    assert (R : responsible seg subs t = k) by (unfold responsible; fold k; lia).
    destruct (fin_exists subs k K) as [su E]. destruct (fin_sub _ _ _ _ _ _ _ _ _ _ F k su E) as [I [B [_ [LK V]]]].
    assert (FEs : feasible (sb_prog su) (sb_values su)) by (apply FE; eapply nth_error_In; eauto).
    destruct (Forall2_nth_like _ _ _ c (sl_comps _ _ LK) Hc) as [c' [Hc' CL]].
    destruct (storage_like _ _ _ _ _ _ CL) as [ch' [dis' [i0 [EC [LC LD]]]]]. subst c'.
    set (n := (Nat.min (k * seg + seg + over) (steps fs ti) - k * seg)%nat) in *.
    assert (TN : (t' < n)%nat) by (unfold n; nia). assert (LI : length (sb_idx su) = n) by (rewrite I; apply seq_length).
    destruct (C02_storage_balance _ _ _ _ _ _ label ch' dis' (with_init i0 s) prevent B FEs Hc') as [BAL _].
    destruct (BAL t' ltac:(cbn [steps]; rewrite LI; exact TN)) as [_ [BL _]]. clear BAL.
    rewrite !(hours_like _ _ _ _ LK) in BL. rewrite I in BL. rewrite !value_part, !hours_part in BL by (try exact TN; unfold n; nia).
    replace (k * seg + t')%nat with t in BL by lia. cbn [with_init st_loss st_eta_c st_eta_d] in BL.
    assert (NX : level (S t) == charge (sb_values su) c (S t')).
    { unfold level, combined. destruct (Nat.lt_ge_cases (S t') seg) as [H|H]; [|destruct (Nat.eq_dec (S k) (length subs)) as [H'|H']].
      - assert (R' : responsible seg subs (S t) = k) by (unfold responsible; replace (S t / seg)%nat with k; [lia|]; apply (Nat.div_unique _ _ _ (S t')); lia).
        rewrite R', V. replace (S t - k * seg)%nat with (S t') by lia. reflexivity.
      - assert (R' : responsible seg subs (S t) = k) by (unfold responsible; assert (k <= S t / seg)%nat by (apply Nat.div_le_mono; lia); lia).
        rewrite R', V. replace (S t - k * seg)%nat with (S t') by lia. reflexivity.
      - assert (S t' = seg)%nat by lia.
        assert (D : (S t / seg = S k)%nat) by (symmetry; apply (Nat.div_unique _ _ _ 0); nia).
        assert (R' : responsible seg subs (S t) = S k) by (unfold responsible; rewrite D; lia). rewrite R'.
        replace (S t - S k * seg)%nat with 0%nat by nia. destruct (fin_exists subs (S k) ltac:(lia)) as [su' E'].
        destruct (fin_sub _ _ _ _ _ _ _ _ _ _ F (S k) su' E') as [_ [B' [_ [LK' V']]]]. rewrite V'.
        assert (FEs' : feasible (sb_prog su') (sb_values su')) by (apply FE; eapply nth_error_In; eauto).
        destruct (Forall2_nth_like _ _ _ c (sl_comps _ _ LK') Hc) as [c2 [Hc2 CL2]]. destruct (storage_like _ _ _ _ _ _ CL2) as [ch2 [dis2 [i2 [EC2 _]]]]. subst c2.
        destruct (fin_handover _ _ _ _ _ _ _ _ _ _ F k su su' E E' ltac:(apply FULL; lia) _ Hc2) as [_ HS]. specialize (HS _ eq_refl).
        destruct (C04_partial _ _ _ _ _ _ label ch2 dis2 (with_init i2 s) prevent B' FEs' Hc2) as [I0 _]. specialize (I0 _ HS).
        replace (S t') with seg by lia. exact I0. }
    rewrite NX. unfold level, combined. rewrite R, V. replace (t - k * seg)%nat with t' by lia.
    unfold rate_of, flow_name, charge in *. cbn [storage_ cp_label] in *. rewrite LC, LD in BL. exact BL.
Qed.
Print Assumptions C34_trajectory_partial.

Example C34_applies : exists subs, length subs = 3%nat
  /\ (forall t, (t < 10)%nat -> combined 4 subs (fun x => charge x keep_sto) (S t) == combined 4 subs (fun x => charge x keep_sto) t * 1
                   + combined 4 subs (fun x => rate_of x keep_sto keep_ch) t - combined 4 subs (fun x => rate_of x keep_sto keep_dis) t)
  /\ exists s', nth_error subs 1 = Some s' /\ forall st, In (cp_label keep_sto, StorageC st) (map (fun c => (cp_label c, cp_kind c)) (fs_comps (sb_fs s'))) -> st_init st = ICNum 4.
Proof.
  destruct keep_run as [g [subs [fa [F [L FE]]]]]. exists subs. split; [exact L|]. split.
  - assert (FULL : forall k, (S k < length subs)%nat -> (k * 4 + 4 + 2 <= steps fs_keep None)%nat) by (intros k Hk; cbn [steps fs_keep fs_times]; rewrite map_length, seq_length; lia).
    destruct (C34_trajectory_partial _ _ _ _ _ _ _ _ _ _ "Sto" keep_ch keep_dis (cyc_s (ICNum 0) None None) true F ltac:(cbn; tauto) FULL FE) as [_ T].
    intros t Ht. specialize (T t ltac:(cbn [steps fs_keep fs_times]; rewrite map_length, seq_length; exact Ht)). fold keep_sto in T. rewrite T.
    assert (HS : hours fs_keep None t == 1) by (do 10 (destruct t as [|t]; [vm_compute; reflexivity|]); lia).
    change (value None (st_loss (cyc_s (ICNum 0) None None)) t) with 0. change (value None (st_eta_c (cyc_s (ICNum 0) None None)) t) with 1.
    change (value None (st_eta_d (cyc_s (ICNum 0) None None)) t) with 1. rewrite HS. field.
  - destruct (fin_exists subs 0%nat ltac:(lia)) as [s E]. destruct (fin_exists subs 1%nat ltac:(lia)) as [s' E']. exists s'. split; [exact E'|].
    intros st Hs. apply in_map_iff in Hs. destruct Hs as [c [EC Hc]].
    destruct (C34_handover_partial _ _ _ _ _ _ _ _ _ _ 0%nat s s' F E E' ltac:(cbn; lia)) as [_ [_ H]]. destruct (H c Hc) as [_ H2].
    inversion EC as [[EL EK]]. rewrite (H2 st EK). unfold charge. rewrite EL.
    destruct (fin_sub _ _ _ _ _ _ _ _ _ _ F 0%nat s E) as [_ [_ [SV _]]]. inversion SV as [SV']. reflexivity.
Qed.

(** In general a truncated segment hands over the wrong moment: with 10 steps, length 4 and overlap 3 the second segment has only 6 steps and
    hands over what it reached one step too early; the combined charge state falls short of what was charged. *)
Definition C34_full : Prop := forall cf ord solver fs seg over ti g subs fs_after label ch dis s prevent,
  let c := storage_ label ch dis s prevent in
  let level := combined seg subs (fun x => charge x c) in
  finished cf ord solver fs seg over ti g subs fs_after -> In c (fs_comps fs) ->
  (forall su, In su subs -> feasible (sb_prog su) (sb_values su)) ->
  forall t, (t < steps fs ti)%nat ->
        level (S t) == level t * (1 - value None (st_loss s) t * hours fs None t)
          + combined seg subs (fun x => rate_of x c ch) t * value None (st_eta_c s) t * hours fs None t
          - combined seg subs (fun x => rate_of x c dis) t / value None (st_eta_d s) t * hours fs None t.
Theorem C34_refuted : ~ C34_full.
Proof.
  intros Full. destruct (run_check_ok (keep_solver [0; 4; 7]%nat [7; 6; 2]%nat) fs_keep 4 3 None
    (fun subs => all_feasible subs && negb (Qeq_bool (combined 4 subs (fun x => charge x keep_sto) 8) 8) && Qeq_bool (combined 4 subs (fun x => charge x keep_sto) 7) 7
                 && Qeq_bool (combined 4 subs (fun x => rate_of x keep_sto keep_ch) 7) 1 && Qeq_bool (combined 4 subs (fun x => rate_of x keep_sto keep_dis) 7) 0)%bool)
    as [g [subs [fa [F H]]]]; [vm_compute; reflexivity|].
  repeat (apply andb_prop in H; destruct H as [H ?]).
  specialize (Full _ _ _ _ _ _ _ _ _ _ "Sto" keep_ch keep_dis (cyc_s (ICNum 0) None None) true F ltac:(cbn; tauto) (all_feasible_ok _ H) 7%nat ltac:(cbn; lia)).
  fold keep_sto in Full. apply Qeq_bool_iff in H0, H1, H2. rewrite H0, H1, H2 in Full.
  apply Bool.negb_true_iff in H3. apply Qeq_bool_neq in H3. apply H3. rewrite Full. vm_compute. reflexivity.
Qed.
Print Assumptions C34_refuted.

(** ** C35 *)
Lemma find_first_In : forall {A B} (key : A -> nat) (val : A -> B) l a, NoDup (map key l) -> In a l ->
  lookup_id (key a) (map (fun x => (key x, val x)) l) = Some (val a).
Proof.
  intros A B key val l a N H. unfold lookup_id. induction l as [|b l IH]; [destruct H|]. cbn [map find fst]. inversion N; subst.
  destruct H as [->|H]; [rewrite Nat.eqb_refl; reflexivity|]. destruct (Nat.eqb_spec (key b) (key a)) as [E|E]; [|apply IH; assumption].
  exfalso. apply H2. rewrite E. apply in_map. exact H.
Qed.

Lemma reset_restored : forall cf ord fs idx pm seg over ti g fs', mk_segmented fs seg over ti = Ok g -> build cf ord fs idx = Ok pm ->
  NoDup (map cp_label (fs_comps fs)) -> sys_like fs fs' -> restored fs (reset g fs').
Proof.
  intros cf ord fs idx pm seg over ti g fs' M B ND L. destruct (segmented_spec _ _ _ _ _ M) as [_ [_ [_ [ST _]]]].
  destruct (build_parts _ _ _ _ _ B) as [cx [cos [bos [em [obj P]]]]]. pose proof (sy_ids _ _ _ _ _ _ _ _ _ _ P) as IDS.
  pose proof (sl_comps _ _ L) as C. unfold restored, reset. cbn [with_comps fs_comps]. rewrite ST. clear M ST B P cx cos bos em obj.
  assert (G : forall l l', Forall2 comp_like l l' -> (forall c, In c l -> In c (fs_comps fs)) ->
    Forall2 (fun c c' => cp_label c' = cp_label c /\ init_of c' = init_of c
             /\ map (fun f => (f_id f, f_lab f, f_prev f)) (cp_flows c') = map (fun f => (f_id f, f_lab f, f_prev f)) (cp_flows c)) l
     (map (fun c => with_starts (fun f => match lookup_id (f_id f) (sv_flows (start_values fs)) with Some p => p | None => f_prev f end)
                     (match sget (cp_label c) (sv_stores (start_values fs)) with Some i => i | None => ICNone end) c) l')); [|apply G; auto].
  clear C. intros l l' C. induction C as [|c c' l l' H C IH]; intros SUB; [constructor|]. cbn [map]. constructor; [|apply IH; intros; apply SUB; right; assumption].
  assert (LB : cp_label c' = cp_label c) by (pose proof (cl_look _ _ H) as Y; unfold clook in Y; congruence).
  assert (Hc : In c (fs_comps fs)) by (apply SUB; left; reflexivity). split; [exact LB|]. split.
  - unfold init_of. cbn [with_starts cp_kind]. pose proof (cl_kind _ _ H) as K. destruct (cp_kind c) as [| | |s|] eqn:EK; cbn in K; try (rewrite K; reflexivity).
    destruct K as [i ->]. rewrite LB. unfold start_values. cbn [sv_stores].
    assert (SG : sget (cp_label c) (flat_map (fun c0 => match init_of c0 with Some i => [(cp_label c0, i)] | None => [] end) (fs_comps fs)) = Some (st_init s)).
    { assert (IC : init_of c = Some (st_init s)) by (unfold init_of; rewrite EK; reflexivity). clear -ND Hc IC. revert ND Hc. induction (fs_comps fs) as [|d l IH]; intros ND Hc; [destruct Hc|].
      cbn [map] in ND. inversion ND; subst. cbn [flat_map]. destruct Hc as [->|Hc].
      - rewrite IC. cbn [app]. rewrite sget_cons, String.eqb_refl. reflexivity.
      - destruct (init_of d); cbn [app]; rewrite ?sget_cons; [|apply IH; assumption].
        destruct (String.eqb_spec (cp_label c) (cp_label d)) as [E|E]; [|apply IH; assumption]. exfalso. apply H1. rewrite <- E. apply in_map. exact Hc. }
    rewrite SG. reflexivity.
  - unfold cp_flows at 1. cbn [with_starts cp_in cp_out]. rewrite <- map_app. change (cp_in c' ++ cp_out c') with (cp_flows c'). rewrite map_map. cbn [with_prev f_id f_lab f_prev].
    assert (LF : forall f, In f (cp_flows c) -> lookup_id (f_id f) (sv_flows (start_values fs)) = Some (f_prev f)).
    { intros f Hf. unfold start_values. cbn [sv_flows].
      assert (IN : In (c, f) (all_flows fs)) by (unfold all_flows; apply in_flat_map; exists c; split; [exact Hc|apply in_map_iff; exists f; auto]).
      exact (find_first_In (fun p : component * flow => f_id (snd p)) (fun p => f_prev (snd p)) _ _ IDS IN). }
    pose proof (cl_flows _ _ H) as Q. clear -Q LF. induction Q as [|f f' l l' [A _] _ IH]; [reflexivity|]. cbn [map].
    rewrite IH by (intros; apply LF; right; assumption). f_equal. unfold flook in A. injection A as A1 A2 A3. rewrite A1, A2, (LF f (or_introl eq_refl)). reflexivity.
Qed.

Lemma after_restored : forall cf ord fs idx, restored fs (after_modeling cf ord fs idx).
Proof.
  intros cf ord fs idx. unfold restored, after_modeling. cbn [with_comps fs_comps]. generalize (comps_reached cf ord fs idx). intros k.
  assert (R : forall c, cp_label c = cp_label c /\ init_of c = init_of c
             /\ map (fun f => (f_id f, f_lab f, f_prev f)) (cp_flows c) = map (fun f => (f_id f, f_lab f, f_prev f)) (cp_flows c)) by auto.
  assert (DF : forall f, f_prev (with_default_onoff f) = f_prev f) by (intros f; unfold with_default_onoff; destruct (f_onoff f); reflexivity).
  assert (DT : forall f, (f_id (with_default_onoff f), f_lab (with_default_onoff f), f_prev (with_default_onoff f)) = (f_id f, f_lab f, f_prev f))
    by (intros f; unfold with_default_onoff; destruct (f_onoff f); reflexivity).
  assert (PC : forall c, map (fun f => (f_id f, f_lab f, f_prev f)) (cp_flows (prepare_component c)) = map (fun f => (f_id f, f_lab f, f_prev f)) (cp_flows c)).
  { intros c. rewrite prepare_component_flows, map_map. apply map_ext. intros f. destruct (_ || _)%bool; [apply DT|reflexivity]. }
  assert (D : forall c, cp_label (defaulted cf ord fs idx c) = cp_label c /\ init_of (defaulted cf ord fs idx c) = init_of c
             /\ map (fun f => (f_id f, f_lab f, f_prev f)) (cp_flows (defaulted cf ord fs idx c)) = map (fun f => (f_id f, f_lab f, f_prev f)) (cp_flows c)).
  { intros c. unfold defaulted. destruct (make_ctx cf ord fs idx) as [cx|]; [|apply R]. destruct (prepared cx (visible_comp fs (cp_label c)) c) as [c'|] eqn:Q; [|apply R].
    destruct (prepared_shape _ _ _ _ Q) as [_ [L K]]. split; [exact L|]. split; [unfold init_of; rewrite K; reflexivity|].
    unfold prepared in Q. destruct (cp_kind c); try (inversion Q; subst; apply PC).
    destruct (prepare_transmission cx (visible_comp fs (cp_label c)) abs c) as [c1|] eqn:T; [|discriminate]. cbn [bind] in Q. inversion Q; subst. rewrite PC.
    unfold prepare_transmission in T.
    destruct (match abs with None => Ok c | Some p => a <- act cx (visible_comp fs (cp_label c)) p ;; Ok (if nany_nonzero a then map_flows with_default_onoff c else c) end) as [c2|] eqn:E2; [|discriminate].
    cbn [bind] in T.
    assert (X : map (fun f => (f_id f, f_lab f, f_prev f)) (cp_flows c2) = map (fun f => (f_id f, f_lab f, f_prev f)) (cp_flows c)).
    { destruct abs as [p|]; [|inversion E2; subst; reflexivity]. destruct (act _ _ p) as [a|]; [|discriminate]. cbn [bind] in E2. inversion E2; subst.
      destruct (nany_nonzero a); [|reflexivity]. rewrite map_flows_flows, map_map. apply map_ext, DT. }
    rewrite <- X. destruct (cp_in c2) as [|in1 [|in2 r]] eqn:I; try (inversion T; subst; reflexivity). destruct (f_size in1), (f_size in2); inversion T; subst; try reflexivity.
    unfold cp_flows. cbn [set_flows cp_in cp_out]. rewrite I. reflexivity. }
  revert k. induction (fs_comps fs) as [|c l IH]; intros k; [destruct k; constructor|]. destruct k as [|k]; cbn [firstn skipn map app]; constructor; auto. apply (IH 0%nat).
Qed.

Definition C35_full : Prop := forall cf ord solver fs seg over ti g subs fs_after outcome, NoDup (map cp_label (fs_comps fs)) ->
  mk_segmented fs seg over ti = Ok g -> seg_run cf ord solver g fs [] = (fs_after, subs, outcome) -> restored fs fs_after.

(** The start values are restored if the run finishes, and are still there if it fails before the first segment is solved. *)
Theorem C35_restored_partial : forall cf ord solver fs seg over ti g subs fs_after outcome, NoDup (map cp_label (fs_comps fs)) ->
  mk_segmented fs seg over ti = Ok g -> seg_run cf ord solver g fs [] = (fs_after, subs, outcome) -> outcome = None \/ subs = [] -> restored fs fs_after.
Proof.
  intros cf ord solver fs seg over ti g subs fs_after outcome ND M R W. destruct outcome as [e|].
  - destruct W as [W| ->]; [discriminate|]. unfold seg_run in R. destruct (seg_loop _ _ _ _ _ _ _ _) as [[f su] [e'|]] eqn:L; [|discriminate]. inversion R; subst.
    destruct (loop_fails_first _ _ _ _ _ _ _ _ L) as [idx ->]. apply after_restored.
  - assert (F : finished cf ord solver fs seg over ti g subs fs_after) by (split; assumption).
    destruct (finished_trace _ _ _ _ _ _ _ _ _ _ F) as [fs' [T [_ ->]]]. destruct (fin_first _ _ _ _ _ _ _ _ _ _ F) as [s [E FS]].
    destruct (fin_sub _ _ _ _ _ _ _ _ _ _ F 0%nat s E) as [_ [B _]]. rewrite FS in B.
    apply (reset_restored _ _ _ _ _ _ _ _ _ _ M B ND). apply (trace_like _ _ _ _ _ _ _ _ T).
Qed.
Print Assumptions C35_restored_partial.
Example C35_applies : exists g subs fs_after, NoDup (map cp_label (fs_comps fs_keep)) /\ mk_segmented fs_keep 4 2 None = Ok g
  /\ seg_run default_config id_ord (keep_solver [0; 4; 8]%nat [6; 6; 2]%nat) g fs_keep [] = (fs_after, subs, None) /\ restored fs_keep fs_after /\ length subs = 3%nat.
Proof.
  destruct keep_run as [g [subs [fa [F [L _]]]]]. exists g, subs, fa. assert (ND : NoDup (map cp_label (fs_comps fs_keep))) by (repeat constructor; cbn; intuition discriminate).
  destruct F as [M R]. split; [exact ND|]. split; [exact M|]. split; [exact R|]. split; [|exact L].
  exact (C35_restored_partial _ _ _ _ _ _ _ _ _ _ _ ND M R (or_introl eq_refl)).
Qed.

(** If the second segment cannot be solved, the storage keeps the charge state handed over. *)
Definition failing_solver : nat -> pmodel -> option asg := fun i _ => match i with O => Some (x_keep 0 6) | _ => None end.
Theorem C35_refuted : ~ C35_full.
Proof.
  intros Full. destruct (mk_segmented fs_keep 4 2 None) as [g|] eqn:M; [|discriminate].
  destruct (seg_run default_config id_ord failing_solver g fs_keep []) as [[fa subs] o] eqn:R.
  assert (ND : NoDup (map cp_label (fs_comps fs_keep))) by (repeat constructor; cbn; intuition discriminate).
  specialize (Full _ _ _ _ _ _ _ _ _ _ _ ND M R).
  assert (C : match mk_segmented fs_keep 4 2 None with Ok g => map init_of (fs_comps (fst (fst (seg_run default_config id_ord failing_solver g fs_keep [])))) | Err _ => [] end
              = [None; Some (ICNum 4)]) by (vm_compute; reflexivity).
  rewrite M, R in C. cbn [fst] in C.
  assert (I : map init_of (fs_comps fa) = map init_of (fs_comps fs_keep)) by (clear -Full; induction Full as [|c c' l l' [_ [H _]] _ IH]; [reflexivity|]; cbn; rewrite H, IH; reflexivity).
  rewrite I in C. discriminate.
Qed.
Print Assumptions C35_refuted.
