(** C63: the combined results of a segmented calculation obey the laws of the system. *)
From Verif Require Import Base BaseFacts MathModel Spec Structure Params Features Elements System Library SysSpec CtxFacts NavFacts PropsComp PropsFlow PropsOnOff
     PropsEffects Tree PropsTree Values Results Segmented PropsRepeat SegmentedFacts PropsSegmented PropsTrace Example ExamplePoints.

(** ** Specification *)

(** The combined solution: every step is taken from the segment that is responsible for it. *)
Definition joined (seg : nat) (subs : list sub) : asg := fun l => combined seg subs (fun x => x l).

(** [fs'] is [fs] apart from start values: previous flow rates and initial charge states. *)
Definition restarted (fs fs' : flow_system) : Prop :=
  fs' = with_comps fs (fs_comps fs') /\ Forall2 (fun c c' => exists prev init, c' = with_starts prev init c) (fs_comps fs) (fs_comps fs').

(** A transmission with absolute losses has some in every segment. *)
Definition losses_throughout (fs : flow_system) (subs : list sub) : Prop :=
  full_losses fs /\ forall s, In s subs -> losses_too fs None (Some (sb_idx s)).

(** What holds in step [t] of a solution [x] whose sizes are those of [z]: balances of the buses, conversion, transmission and storage;
    limits of flows and charge states, profiles, on/off behaviour, exclusive flows, and what is charged to the effects. *)
Record step_laws (cf : config) (fs : flow_system) (idx : option (list nat)) (x z : asg) (t : nat) : Prop := {
  law_bus : forall b, distinct_buses fs -> used_bus fs b ->
    delivered fs x b t + excess x b "excess_input" t == taken fs x b t + excess x b "excess_output" t
    /\ 0 <= excess x b "excess_input" t /\ 0 <= excess x b "excess_output" t;
  law_conversion : forall c eqs factors, In c (fs_comps fs) -> cp_kind c = Converter eqs -> In factors eqs ->
    weighted idx x c factors (cp_in c) t == weighted idx x c factors (cp_out c) t;
  law_segments : forall c segs, In c (fs_comps fs) -> cp_kind c = Params.Segmented segs ->
    (exists k w, 0 <= w /\ w <= 1
       /\ (forall f, In f (cp_flows c) -> exists ab, nth_error (segments_of segs f) k = Some ab /\ on_piece idx x c f t w ab)
       /\ (cp_onoff c <> None -> x (oo (cp_label c) "on") t == 1))
    \/ (cp_onoff c <> None /\ x (oo (cp_label c) "on") t == 0 /\ forall f, In f (cp_flows c) -> rate_of x c f t == 0);
  law_transmission : forall label in1 out1 in2 out2 rel abs oo_ prevent, let c := transmission label in1 out1 in2 out2 rel abs oo_ prevent in
    let carried i := rate_of x c i t * (1 - lost idx rel t) - lost idx abs t * (if abs then on_of x c i t else 0) in
    In c (fs_comps fs) ->
    rate_of x c out1 t == carried in1 /\ (forall i2, in2 = Some i2 -> exists o2, out2 = Some o2 /\ rate_of x c o2 t == carried i2);
  law_levels : forall label ch dis s prevent, let c := storage_ label ch dis s prevent in In c (fs_comps fs) ->
    value idx (st_relmin s) t * capacity z c s <= charge x c t /\ charge x c t <= value idx (st_relmax s) t * capacity z c s
    /\ x (vlabel label "netto_discharge") t == rate_of x c dis t - rate_of x c ch t;
  law_limits : forall c f, In c (fs_comps fs) -> In f (cp_flows c) -> governed fs idx c f = None -> f_profile f = None ->
    value idx (f_relmin f) t * size_of cf z c f <= rate_of x c f t /\ rate_of x c f t <= value idx (f_relmax f) t * size_of cf z c f;
  law_profile : forall c f p, In c (fs_comps fs) -> In f (cp_flows c) -> governed fs idx c f = None -> f_profile f = Some p ->
    rate_of x c f t == value idx p t * size_of cf z c f;
  law_onoff : forall c f o, In c (fs_comps fs) -> In f (cp_flows c) -> governed fs idx c f = Some o ->
    (on_of x c f t == 0 /\ rate_of x c f t == 0)
    \/ (on_of x c f t == 1 /\ cf_eps cf <= rate_of x c f t
        /\ value idx (match f_profile f with Some p => p | None => f_relmin f end) t * size_of cf z c f <= rate_of x c f t
        /\ rate_of x c f t <= value idx (match f_profile f with Some p => p | None => f_relmax f end) t * size_of cf z c f);
  law_component : forall c p, In c (fs_comps fs) -> cp_onoff c = Some p ->
    (x (oo (cp_label c) "on") t == 0 \/ x (oo (cp_label c) "on") t == 1)
    /\ (x (oo (cp_label c) "on") t == 0 <-> forall f, In f (cp_flows c) -> rate_of x c f t == 0);
  law_exclusive : forall c f g, In c (fs_comps fs) -> In f (cp_flows c) -> In g (cp_flows c) -> f_id f <> f_id g ->
    In (f_id f) (cp_prevent c) -> In (f_id g) (cp_prevent c) -> rate_of x c f t == 0 \/ rate_of x c g t == 0;
  law_costs : forall e, In e (fs_effects fs) ->
    op_at x e t == Qsum (map (fun c => comp_costs fs idx x c e t) (fs_comps fs)) + op_from_effects fs idx x e t
}.

(** ** An ordinary calculation obeys the laws in every step *)
Theorem C63_full_calculation : forall cf ord fs idx pm x t,
  build cf ord fs idx = Ok pm -> feasible pm x -> (forall l, Permutation (ord l) l) -> 0 < cf_eps cf -> (t < steps fs idx)%nat ->
  step_laws cf fs idx x x t.
Proof.
  intros cf ord fs idx pm x t B F PO EP Ht. assert (EP' : 0 <= cf_eps cf) by lra. constructor.
  - intros b DB UB. eapply C01_bus_balance; eauto.
  - intros. eapply C05_conversion; eauto.
  - intros. eapply C07_segments; eauto.
  - intros label in1 out1 in2 out2 rel abs oo_ prevent c carried Hc.
    destruct (C08_transmission _ _ _ _ _ _ _ _ _ _ _ _ _ _ _ B F EP' Hc) as [C1 C2]. fold c in C1, C2. split; [exact (C1 t Ht)|].
    intros i2 E. rewrite E in C2. destruct C2 as [o2 [E2 [C2 _]]]. exists o2. split; [exact E2|exact (C2 t Ht)].
  - intros label ch dis s prevent c Hc. destruct (C03_storage_levels _ _ _ _ _ _ label ch dis s prevent t B F Hc ltac:(lia)) as [L1 L2].
    destruct (C02_storage_balance _ _ _ _ _ _ label ch dis s prevent B F Hc) as [L3 _]. destruct (L3 t Ht) as [_ [_ L4]]. auto.
  - intros. eapply C09_flow_limits; eauto.
  - intros. eapply C10_fixed_profile; eauto.
  - intros c f o Hc Hf G. destruct (C13_onoff_coupling _ _ _ _ _ _ _ _ _ _ B F EP' Hc Hf G Ht) as [L|[L1 [L2 [_ [_ [L3 L4]]]]]]; [left; exact L|right].
    repeat split; assumption.
  - intros c p Hc Hp. destruct (C14_component_onoff _ _ _ _ _ _ _ _ _ B F EP Hc Hp Ht) as [_ L]. exact L.
  - intros c f g Hc Hf Hg D P1 P2. eapply C18_exclusive_flows; eauto. intros ->. apply D. reflexivity.
  - intros e He. apply (C19_operation _ _ _ _ _ _ _ B F He). exact Ht.
Qed.
Print Assumptions C63_full_calculation.

(** ** A segment is a calculation of the original system with other start values *)
(** Same start values. *)
Definition same_starts (c c' : component) : Prop :=
  cp_label c' = cp_label c /\ init_of c' = init_of c
  /\ map (fun f => (f_id f, f_lab f, f_prev f)) (cp_flows c') = map (fun f => (f_id f, f_lab f, f_prev f)) (cp_flows c).
Lemma flows_starts : forall p i c, cp_flows (with_starts p i c) = map (fun f => with_prev (p f) f) (cp_flows c).
Proof. intros. unfold cp_flows. cbn. rewrite map_app. reflexivity. Qed.
Lemma same_starts_set : forall P i c c', comp_like c c' -> set_starts P i c' = c' -> same_starts c' (set_starts P i c).
Proof.
  intros P i c c' L E. pose proof (f_equal fst (f_equal fst (cl_look _ _ L))) as LB. cbn in LB. split; [cbn; congruence|]. split.
  - rewrite <- E. unfold init_of, set_starts. cbn. pose proof (cl_kind _ _ L) as K. destruct (cp_kind c); cbn in K; try (rewrite K; reflexivity).
    destruct K as [j ->]. reflexivity.
  - rewrite <- E at 1. unfold set_starts. rewrite !flows_starts, !map_map. cbn [with_prev f_id f_lab f_prev]. pose proof (cl_flows _ _ L) as F.
    clear -F. induction F as [|f f' l l' [H _] _ IH]; [reflexivity|]. cbn [map]. unfold flook in H. inversion H as [[H1 H2 H3]]. rewrite H1, H2, IH. reflexivity.
Qed.
Lemma comp_like_starts : forall p i c, comp_like c (with_starts p i c).
Proof.
  intros p i c. constructor; try reflexivity.
  - rewrite flows_starts. induction (cp_flows c); constructor; auto. split; [reflexivity|auto].
  - unfold clook. cbn. rewrite !map_map. reflexivity.
  - apply kind_starts.
Qed.

Lemma restart_build : forall cf ord idx fs fs', sys_like fs fs' -> keeping cf ord fs idx fs' -> (forall c, In c (fs_comps fs') -> NoDup (map f_id (cp_flows c))) ->
  exists fs2, restarted fs fs2 /\ Forall2 same_starts (fs_comps fs') (fs_comps fs2) /\ build cf ord fs2 idx = build cf ord fs' idx.
Proof.
  intros cf ord idx fs fs' L K ND. pose proof (sl_comps _ _ L) as CL. unfold keeping in K.
  assert (G : exists cs, Forall2 (fun c c' => exists prev init, c' = with_starts prev init c) (fs_comps fs) cs /\ Forall2 same_starts (fs_comps fs') cs
    /\ Forall2 comp_like (fs_comps fs) cs
    /\ forall cx vf vc, make_ctx cf ord fs idx = Ok cx -> mapM (comp_model cx vf vc) cs = mapM (comp_model cx vf vc) (fs_comps fs')).
  { revert CL ND. clear L. induction K as [|c c' l l' [K1 K2] K IH]; intros CL ND.
    - exists []. repeat split; constructor.
    - inversion CL as [|? ? ? ? C1 C2]; subst. destruct (IH C2 (fun d H => ND d (or_intror H))) as [cs [A1 [A2 [A3 A4]]]].
      destruct (starts_back c' (ND c' (or_introl eq_refl))) as [P [i SB]]. specialize (SB c' eq_refl eq_refl). exists (set_starts P i c :: cs).
      split; [constructor; [eexists; eexists; reflexivity|exact A1]|]. split; [constructor; [apply same_starts_set; assumption|exact A2]|].
      split; [constructor; [apply comp_like_starts|exact A3]|]. intros cx vf vc BG. cbn [mapM]. rewrite (A4 cx vf vc BG).
      assert (EQ : comp_model cx vf vc (set_starts P i c) = comp_model cx vf vc c'); [|rewrite EQ; reflexivity].
      pose proof (f_equal fst (f_equal fst (cl_look _ _ C1))) as LB. cbn in LB. unfold comp_model. change (cp_label (set_starts P i c)) with (cp_label c). rewrite LB.
      assert (PE : prepared cx (vc (cp_label c)) (set_starts P i c) = prepared cx (vc (cp_label c)) c'); [|rewrite PE; reflexivity].
      rewrite <- SB, <- (set_strip P i c), <- (set_strip P i c'), !prepared_starts, (K1 _ _ BG). reflexivity. }
  destruct G as [cs [A1 [A2 [A3 A4]]]]. exists (with_comps fs cs). split; [split; [reflexivity|exact A1]|]. split; [exact A2|].
  assert (L2 : sys_like fs (with_comps fs cs)) by (constructor; try reflexivity; exact A3).
  assert (FR : same_frame fs' (with_comps fs cs)).
  { pose proof (sys_like_frame _ _ L) as [F1 F2 F3 F4 F5]. pose proof (sys_like_frame _ _ L2) as [G1 G2 G3 G4 G5]. constructor; congruence. }
  apply (frame_build _ _ FR). intros cx E. apply A4. rewrite (frame_ctx _ _ (sys_like_frame _ _ L)) in E. exact E.
Qed.

(** Losses in a segment are losses in the horizon. *)
Lemma segment_loss : forall cf ord solver fs seg over ti g subs fs_after, finished cf ord solver fs seg over ti g subs fs_after ->
  forall s p, In s subs -> any_loss fs (Some (sb_idx s)) p = true -> any_loss fs None p = true.
Proof.
  intros cf ord solver fs seg over ti g subs fs_after F s p Hs A.
  destruct (In_nth_error _ _ Hs) as [k E]. destruct (fin_sub _ _ _ _ _ _ _ _ _ _ F k s E) as [I _]. pose proof (fin_range _ _ _ _ _ _ _ _ _ _ F) as RNG.
  unfold any_loss in *. apply existsb_exists in A. destruct A as [t [T V]]. apply in_seq in T. cbn [steps] in T. apply existsb_exists. exists (selected (Some (sb_idx s)) t). split.
  - apply in_seq. split; [lia|]. cbn [steps plus selected]. rewrite I in T |- *. rewrite seq_length in T. rewrite seq_nth by lia. lia.
  - exact V.
Qed.
Lemma segment_losses : forall cf ord solver fs seg over ti g subs fs_after, finished cf ord solver fs seg over ti g subs fs_after -> losses_throughout fs subs ->
  forall s, In s subs -> forall c rel p, In c (fs_comps fs) -> cp_kind c = TransmissionC rel (Some p) -> any_loss fs (Some (sb_idx s)) p = any_loss fs None p.
Proof.
  intros cf ord solver fs seg over ti g subs fs_after F [_ LT] s Hs c rel p Hc K.
  pose proof (segment_loss _ _ _ _ _ _ _ _ _ _ F s p Hs) as A. pose proof (LT s Hs c rel p Hc K) as B.
  destruct (any_loss fs (Some (sb_idx s)) p), (any_loss fs None p); try reflexivity; [symmetry; apply A; reflexivity|apply B; reflexivity].
Qed.

(** The problem of every segment is that of the original system, restricted to the steps of the segment, with other start values: in the first
    segment those given by the user, afterwards those reached in the previous segment. *)
Theorem C63_problem : forall cf ord solver fs seg over ti g subs fs_after k s,
  finished cf ord solver fs seg over ti g subs fs_after -> losses_throughout fs subs -> nth_error subs k = Some s ->
  exists fs_k, restarted fs fs_k /\ build cf ord fs_k (Some (sb_idx s)) = Ok (sb_prog s)
    /\ sb_idx s = seq (k * seg) (Nat.min (k * seg + seg + over) (steps fs ti) - k * seg)
    /\ (k = 0%nat -> fs_k = fs)
    /\ (forall j, k = S j -> (j * seg + seg + over <= steps fs ti)%nat -> forall c, In c (fs_comps fs_k) ->
          (forall f, In f (cp_flows c) -> f_prev f = Some (NS (rate_of (values_of subs j) c f (seg - 1))))
          /\ (forall st, cp_kind c = StorageC st -> st_init st = ICNum (charge (values_of subs j) c seg))).
Proof.
  intros cf ord solver fs seg over ti g subs fs_after k s F NA E. destruct (fin_sub _ _ _ _ _ _ _ _ _ _ F k s E) as [I [B [_ [L V]]]].
  destruct (Nat.eq_dec k 0) as [->|NZ].
  - destruct (fin_first _ _ _ _ _ _ _ _ _ _ F) as [s0 [E0 FS]]. assert (s0 = s) by congruence. subst s0. rewrite FS in B.
    exists fs. split; [split; [destruct fs; reflexivity|]|].
    + assert (IDS : forall c, In c (fs_comps fs) -> NoDup (map f_id (cp_flows c))) by (intros c Hc; eapply comp_ids; eauto). clear -IDS.
      assert (G : forall l, (forall c, In c l -> NoDup (map f_id (cp_flows c))) -> Forall2 (fun c c' => exists prev init, c' = with_starts prev init c) l l); [|apply G; exact IDS].
      induction l as [|c l IH]; intros H; constructor; [|apply IH; intros; apply H; right; assumption].
      destruct (starts_back c (H c (or_introl eq_refl))) as [P [i SB]]. exists (fun f => P (f_id f)), i. symmetry. apply (SB c eq_refl eq_refl).
    + split; [exact B|]. split; [exact I|]. split; [reflexivity|]. intros j J. discriminate.
  - assert (K : keeping cf ord fs (Some (sb_idx s)) (sb_fs s)).
    { destruct (finished_trace _ _ _ _ _ _ _ _ _ _ F) as [fs' [T _]]. destruct NA as [FL LT].
      refine (keeping_subs cf ord fs (Some (sb_idx s)) FL _ _ _ _ _ _ T (sys_like_refl fs) _ (keeping_refl _ _ _ _) s (nth_error_In _ _ E)).
      intros s' Hs' c rel p Hc Kc A. apply (LT s (nth_error_In _ _ E) c rel p Hc Kc). exact (segment_loss _ _ _ _ _ _ _ _ _ _ F s' p Hs' A). }
    destruct (restart_build cf ord (Some (sb_idx s)) fs (sb_fs s) L K) as [fs2 [R [SS BB]]]; [intros c Hc; eapply comp_ids; eauto|].
    exists fs2. split; [exact R|]. split; [rewrite BB; exact B|]. split; [exact I|]. split; [congruence|]. intros j J FULL c Hc. subst k.
    assert (JL : (j < length subs)%nat) by (assert (S j < length subs)%nat by (apply nth_error_Some; congruence); lia).
    destruct (fin_exists subs j JL) as [sj Ej]. destruct (fin_sub _ _ _ _ _ _ _ _ _ _ F j sj Ej) as [_ [_ [_ [_ Vj]]]]. rewrite Vj.
    pose proof (fin_handover _ _ _ _ _ _ _ _ _ _ F j sj s Ej E FULL) as HO.
    assert (X : exists c', In c' (fs_comps (sb_fs s)) /\ same_starts c' c).
    { clear -SS Hc. induction SS as [|a b l l' H _ IH]; [destruct Hc|]. destruct Hc as [<-|Hc]; [exists a; cbn; auto|]. destruct (IH Hc) as [c' [H1 H2]]. exists c'. cbn; auto. }
    destruct X as [c' [Hc' [X1 [X2 X3]]]]. destruct (HO c' Hc') as [H1 H2]. split.
    + intros f Hf. assert (J : In (f_id f, f_lab f, f_prev f) (map (fun f => (f_id f, f_lab f, f_prev f)) (cp_flows c'))) by (rewrite <- X3; apply (in_map (fun f => (f_id f, f_lab f, f_prev f))); exact Hf).
      apply in_map_iff in J. destruct J as [f' [J1 J2]]. inversion J1 as [[J3 J4 J5]]. rewrite (H1 f' J2). unfold rate_of, flow_name. rewrite X1, J4. reflexivity.
    + intros st K'. unfold init_of in X2. rewrite K' in X2. destruct (cp_kind c') eqn:K2; try discriminate. inversion X2 as [X4]. rewrite X4, (H2 _ eq_refl).
      unfold charge. rewrite X1. reflexivity.
Qed.
Print Assumptions C63_problem.

(** ** Laws of a part of the horizon *)
Section Part.
Variables (fs fs2 : flow_system) (a n : nat) (x J : asg) (t : nat).
Hypothesis NA : forall c rel p, In c (fs_comps fs) -> cp_kind c = TransmissionC rel (Some p) -> any_loss fs (Some (seq a n)) p = any_loss fs None p.
Hypothesis RS : restarted fs fs2.
Hypothesis Ht : (t < n)%nat.
Hypothesis HR : (a + n <= length (fs_times fs))%nat.
Hypothesis HJ : forall l, J l (a + t)%nat = x l t.
Let idx := Some (seq a n).

Lemma part_comp : forall c, In c (fs_comps fs) -> exists p i, In (with_starts p i c) (fs_comps fs2).
Proof.
  intros c Hc. destruct RS as [_ R]. destruct (Forall2_nth_like _ _ _ c R Hc) as [c' [Hc' [p [i ->]]]]. eauto.
Qed.
Lemma part_comps : forall {A} (h h' : component -> A), (forall p i c, In c (fs_comps fs) -> h (with_starts p i c) = h' c) -> map h (fs_comps fs2) = map h' (fs_comps fs).
Proof.
  intros A h h' H. destruct RS as [_ R]. clear - R H. induction R as [|c c' l l' [p [i ->]] R IH]; [reflexivity|]. cbn [map]. rewrite (H p i c (or_introl eq_refl)), IH; [reflexivity|].
  intros; apply H; right; assumption.
Qed.
Lemma part_effects : fs_effects fs2 = fs_effects fs. Proof. destruct RS as [E _]. rewrite E. reflexivity. Qed.
Lemma part_hours : hours fs2 idx t = hours fs None (a + t).
Proof.
  rewrite <- (hours_part fs a n t Ht HR). destruct RS as [E _]. rewrite E. reflexivity.
Qed.
Lemma part_value : forall p, value idx p t = value None p (a + t). Proof. intros p. apply value_part. exact Ht. Qed.
Lemma part_flow : forall p i c f, In f (cp_flows c) -> In (with_prev (p f) f) (cp_flows (with_starts p i c)).
Proof. intros p i c f Hf. rewrite flows_starts. apply (in_map (fun f => with_prev (p f) f)). exact Hf. Qed.
Lemma part_rate : forall p i c q f, rate_of x (with_starts p i c) (with_prev q f) t = rate_of J c f (a + t).
Proof. intros. unfold rate_of. rewrite HJ. reflexivity. Qed.
Lemma part_governed : forall p i c q f, In c (fs_comps fs) -> governed fs2 idx (with_starts p i c) (with_prev q f) = governed fs None c f.
Proof.
  intros p i c q f Hc. unfold governed. cbn [with_prev f_onoff]. destruct (f_onoff f); [reflexivity|].
  assert (E : induced fs2 idx (with_starts p i c) (with_prev q f) = induced fs None c f); [|rewrite E; reflexivity].
  unfold induced. cbn [with_starts cp_onoff cp_prevent cp_kind with_prev f_id]. destruct (cp_kind c) as [| | | |rel [pp|]] eqn:K; try reflexivity.
  rewrite <- (NA c _ _ Hc K). reflexivity.
Qed.
Lemma part_sized : forall cf p i c q f, sized cf (with_starts p i c) (with_prev q f) = sized cf c f.
Proof.
  intros cf p i c q f. unfold sized. cbn [with_starts cp_kind cp_in]. destruct (cp_kind c); try reflexivity.
  destruct (cp_in c) as [|f1 [|f2 r]]; reflexivity.
Qed.
Lemma part_size : forall cf p i c q f z, size_of cf z (with_starts p i c) (with_prev q f) = size_of cf z c f.
Proof. intros. unfold size_of. rewrite part_sized. reflexivity. Qed.
Lemma part_cost : forall es v e, cost es idx v e t = cost es None v e (a + t).
Proof. intros. unfold cost. f_equal. apply map_ext. intros kp. rewrite part_value. reflexivity. Qed.
Lemma part_onoff_costs : forall name o e, onoff_costs fs2 idx x name o e t = onoff_costs fs None J name o e (a + t).
Proof. intros. unfold onoff_costs. rewrite !part_cost, part_effects, part_hours, !HJ. reflexivity. Qed.
Lemma part_comp_costs : forall p i c e, In c (fs_comps fs) -> comp_costs fs2 idx x (with_starts p i c) e t = comp_costs fs None J c e (a + t).
Proof.
  intros p i c e Hc. unfold comp_costs. rewrite flows_starts, map_map.
  assert (E : map (fun f => flow_costs fs2 idx x (with_starts p i c) (with_prev (p f) f) e t) (cp_flows c) = map (fun f => flow_costs fs None J c f e (a + t)) (cp_flows c)).
  { apply map_ext. intros f. unfold flow_costs. rewrite part_rate, (part_governed p i c _ f Hc), part_hours, part_cost, part_effects. f_equal.
    destruct (governed fs None c f); [|reflexivity]. rewrite <- part_onoff_costs. reflexivity. }
  rewrite E. f_equal. cbn [with_starts cp_onoff cp_label]. destruct (cp_onoff c); [apply part_onoff_costs|reflexivity].
Qed.
Lemma part_filter : forall p b l, filter (connected b) (map (fun f => with_prev (p f) f) l) = map (fun f => with_prev (p f) f) (filter (connected b) l).
Proof.
  intros p b l. induction l as [|f l IH]; [reflexivity|]. cbn [map filter]. change (connected b (with_prev (p f) f)) with (connected b f).
  destruct (connected b f); cbn [map]; rewrite IH; reflexivity.
Qed.
Lemma part_delivered : forall b, delivered fs2 x b t = delivered fs J b (a + t).
Proof.
  intros b. unfold delivered. f_equal. apply part_comps. intros p i c Hc. f_equal. cbn [with_starts cp_out]. rewrite part_filter, map_map.
  apply map_ext. intros f. apply part_rate.
Qed.
Lemma part_taken : forall b, taken fs2 x b t = taken fs J b (a + t).
Proof.
  intros b. unfold taken. f_equal. apply part_comps. intros p i c Hc. f_equal. cbn [with_starts cp_in]. rewrite part_filter, map_map.
  apply map_ext. intros f. apply part_rate.
Qed.
Lemma part_excess : forall b w, excess x b w t = excess J b w (a + t).
Proof. intros. unfold excess. destruct (b_penalty b); [rewrite HJ; reflexivity|reflexivity]. Qed.
Lemma part_used : forall b, used_bus fs2 b <-> used_bus fs b.
Proof.
  intros b. split.
  - intros [c [f [Hc [Hf E]]]]. destruct RS as [_ R]. assert (X : exists c0 p i, In c0 (fs_comps fs) /\ c = with_starts p i c0).
    { clear -R Hc. induction R as [|u v l l' [p [i ->]] R IH]; [destruct Hc|]. destruct Hc as [<-|Hc]; [exists u, p, i; cbn; auto|].
      destruct (IH Hc) as [c0 [p' [i' [H1 H2]]]]. exists c0, p', i'. cbn; auto. }
    destruct X as [c0 [p [i [H0 ->]]]]. rewrite flows_starts in Hf. apply in_map_iff in Hf. destruct Hf as [f0 [<- Hf]]. exists c0, f0. auto.
  - intros [c [f [Hc [Hf E]]]]. destruct (part_comp c Hc) as [p [i H]]. exists (with_starts p i c), (with_prev (p f) f). split; [exact H|]. split; [apply part_flow; exact Hf|exact E].
Qed.
Lemma part_distinct : distinct_buses fs -> distinct_buses fs2.
Proof. intros [A B]. split; [intros b b' U U'|intros b b' U U']; apply part_used in U; apply part_used in U'; auto. Qed.
Lemma part_weighted : forall p i c factors l, weighted idx x (with_starts p i c) factors (map (fun f => with_prev (p f) f) l) t = weighted None J c factors l (a + t).
Proof.
  intros. unfold weighted. rewrite map_map. f_equal. apply map_ext. intros f. change (factor_of factors (with_prev (p f) f)) with (factor_of factors f).
  destruct (factor_of factors f); [|reflexivity]. rewrite part_rate, part_value. reflexivity.
Qed.
Lemma part_op : forall e, op_from_effects fs2 idx x e t = op_from_effects fs None J e (a + t).
Proof.
  intros e. unfold op_from_effects. rewrite part_effects. f_equal. apply map_ext. intros e'. f_equal. apply map_ext. intros kp.
  rewrite part_value. unfold op_at. rewrite HJ. reflexivity.
Qed.
Lemma part_lost : forall p, lost idx p t = lost None p (a + t). Proof. intros [p|]; [apply part_value|reflexivity]. Qed.

Lemma part_laws : forall cf z, step_laws cf fs2 idx x z t -> step_laws cf fs None J z (a + t).
Proof.
  intros cf z L. constructor.
  - intros b DB UB. pose proof (law_bus _ _ _ _ _ _ L b (part_distinct DB) (proj2 (part_used b) UB)) as H.
    rewrite part_delivered, part_taken, !part_excess in H. exact H.
  - intros c eqs factors Hc K Hf. destruct (part_comp c Hc) as [p [i H]].
    assert (K2 : cp_kind (with_starts p i c) = Converter eqs) by (cbn; rewrite K; reflexivity).
    pose proof (law_conversion _ _ _ _ _ _ L _ eqs factors H K2 Hf) as W. cbn [with_starts cp_in cp_out] in W. rewrite !part_weighted in W. exact W.
  - intros c segs Hc K. destruct (part_comp c Hc) as [p [i H]].
    assert (K2 : cp_kind (with_starts p i c) = Params.Segmented segs) by (cbn; rewrite K; reflexivity).
    destruct (law_segments _ _ _ _ _ _ L _ segs H K2) as [[k [w [W1 [W2 [W3 W4]]]]]|[W1 [W2 W3]]]; [left; exists k, w|right]; rewrite HJ.
    + split; [exact W1|]. split; [exact W2|]. split; [|exact W4]. intros f Hf. destruct (W3 _ (part_flow p i c f Hf)) as [ab [N P]].
      exists ab. split; [exact N|]. unfold on_piece in *. rewrite part_rate, !part_value in P. exact P.
    + split; [exact W1|]. split; [exact W2|]. intros f Hf. specialize (W3 _ (part_flow p i c f Hf)). rewrite part_rate in W3. exact W3.
  - intros label in1 out1 in2 out2 rel abs oo_ prevent c carried Hc. destruct (part_comp c Hc) as [p [i H]].
    assert (E : with_starts p i c = transmission label (with_prev (p in1) in1) (with_prev (p out1) out1) (option_map (fun f => with_prev (p f) f) in2)
                  (option_map (fun f => with_prev (p f) f) out2) rel abs oo_ prevent)
      by (unfold c; destruct in2, out2; reflexivity).
    assert (H2 := H). rewrite E in H2. destruct (law_transmission _ _ _ _ _ _ L _ _ _ _ _ _ _ _ _ H2) as [A B]. rewrite <- E in A, B.
    assert (CA : forall f, rate_of x (with_starts p i c) (with_prev (p f) f) t * (1 - lost idx rel t)
        - lost idx abs t * (if abs then on_of x (with_starts p i c) (with_prev (p f) f) t else 0) = carried f).
    { intros f. unfold carried. rewrite part_rate, !part_lost. unfold on_of. rewrite HJ. reflexivity. }
    rewrite CA, part_rate in A. split; [exact A|]. intros i2 E2. subst in2. destruct (B _ eq_refl) as [o2 [EO BB]]. destruct out2 as [o|]; [|discriminate]. inversion EO; subst o2.
    exists o. split; [reflexivity|]. rewrite CA, part_rate in BB. exact BB.
  - intros label ch dis s prevent c Hc. destruct (part_comp c Hc) as [p [i H]].
    assert (E : with_starts p i c = storage_ label (with_prev (p ch) ch) (with_prev (p dis) dis) (with_init i s) prevent) by (unfold c; destruct prevent; reflexivity).
    assert (H2 := H). rewrite E in H2. destruct (law_levels _ _ _ _ _ _ L _ _ _ _ _ H2) as [A [B C]]. rewrite <- E in A, B, C. rewrite !part_rate in C.
    cbn [with_init st_relmin st_relmax] in A, B. rewrite part_value in A, B. unfold charge. rewrite !HJ. split; [exact A|]. split; [exact B|exact C].
  - intros c f Hc Hf G P. destruct (part_comp c Hc) as [p [i H]]. rewrite <- (part_governed p i c (p f) f Hc) in G.
    pose proof (law_limits _ _ _ _ _ _ L _ _ H (part_flow p i c f Hf) G P) as W. cbn [with_prev f_relmin f_relmax] in W. rewrite !part_value, part_rate, part_size in W. exact W.
  - intros c f q Hc Hf G P. destruct (part_comp c Hc) as [p [i H]]. rewrite <- (part_governed p i c (p f) f Hc) in G.
    pose proof (law_profile _ _ _ _ _ _ L _ _ q H (part_flow p i c f Hf) G P) as W. rewrite !part_value, part_rate, part_size in W. exact W.
  - intros c f o Hc Hf G. destruct (part_comp c Hc) as [p [i H]]. rewrite <- (part_governed p i c (p f) f Hc) in G.
    pose proof (law_onoff _ _ _ _ _ _ L _ _ o H (part_flow p i c f Hf) G) as W. cbn [with_prev f_relmin f_relmax f_profile] in W.
    rewrite !part_value, part_rate, part_size in W. unfold on_of in *. rewrite HJ. exact W.
  - intros c o Hc K. destruct (part_comp c Hc) as [p [i H]]. destruct (law_component _ _ _ _ _ _ L _ o H K) as [A B]. rewrite HJ. split; [exact A|].
    rewrite (B : _ <-> _). split.
    + intros W f Hf. specialize (W _ (part_flow p i c f Hf)). rewrite part_rate in W. exact W.
    + intros W f Hf. rewrite flows_starts in Hf. apply in_map_iff in Hf. destruct Hf as [f0 [<- Hf]]. rewrite part_rate. apply W. exact Hf.
  - intros c f h Hc Hf Hh D P1 P2. destruct (part_comp c Hc) as [p [i H]].
    pose proof (law_exclusive _ _ _ _ _ _ L _ _ _ H (part_flow p i c f Hf) (part_flow p i c h Hh) D P1 P2) as W. rewrite !part_rate in W. exact W.
  - intros e He. rewrite <- part_effects in He. pose proof (law_costs _ _ _ _ _ _ L e He) as W. rewrite part_op in W.
    rewrite (part_comps _ (fun c => comp_costs fs None J c e (a + t))) in W by (intros; apply part_comp_costs; assumption). unfold op_at in *. rewrite HJ. exact W.
Qed.
End Part.

Lemma governed_any : forall fs idx c f, (forall c rel p, In c (fs_comps fs) -> cp_kind c = TransmissionC rel (Some p) -> any_loss fs idx p = any_loss fs None p) ->
  In c (fs_comps fs) -> governed fs idx c f = governed fs None c f.
Proof.
  intros fs idx c f NA Hc. unfold governed, induced. destruct (f_onoff f); [reflexivity|]. destruct (cp_kind c) as [| | | |rel [p|]] eqn:K; try reflexivity.
  rewrite (NA c _ _ Hc K). reflexivity.
Qed.
Lemma joined_at : forall cf ord solver fs seg over ti g subs fs_after t,
  finished cf ord solver fs seg over ti g subs fs_after -> (t < steps fs ti)%nat ->
  let k := (t / seg)%nat in let n := (Nat.min (k * seg + seg + over) (steps fs ti) - k * seg)%nat in
  responsible seg subs t = k /\ (t = k * seg + t mod seg)%nat /\ (t mod seg < n)%nat /\ (k * seg + n <= length (fs_times fs))%nat
  /\ exists s, nth_error subs k = Some s /\ values_of subs k = sb_values s /\ forall l, joined seg subs l (k * seg + t mod seg)%nat = sb_values s l (t mod seg).
Proof.
  intros cf ord solver fs seg over ti g subs fs_after t F Ht k n.
  destruct (fin_seg _ _ _ _ _ _ _ _ _ _ F) as [S1 [S2 [N [L1 L2]]]]. pose proof (fin_range _ _ _ _ _ _ _ _ _ _ F) as RNG.
  pose proof (Nat.div_mod t seg ltac:(lia)) as DM. pose proof (Nat.mod_upper_bound t seg ltac:(lia)) as MB. fold k in DM.
  set (t' := (t mod seg)%nat) in *. assert (K : (k < length subs)%nat) by nia.
  assert (R : responsible seg subs t = k) by (unfold responsible; fold k; lia). split; [exact R|]. split; [lia|]. split; [unfold n; nia|]. split; [unfold n; nia|].
  destruct (fin_exists subs k K) as [s E]. destruct (fin_sub _ _ _ _ _ _ _ _ _ _ F k s E) as [_ [_ [_ [_ V]]]]. exists s. split; [exact E|]. split; [exact V|].
  intros l. unfold joined, combined. replace (k * seg + t')%nat with t by lia. rewrite R, V. f_equal. lia.
Qed.

(** The combined solution obeys in every step of the horizon the laws of the original system, as the solution of a full calculation does; sizes
    are those chosen in the segment that is responsible for the step. *)
Theorem C63_laws : forall cf ord solver fs seg over ti g subs fs_after t,
  finished cf ord solver fs seg over ti g subs fs_after -> losses_throughout fs subs -> (forall l, Permutation (ord l) l) -> 0 < cf_eps cf ->
  (forall su, In su subs -> feasible (sb_prog su) (sb_values su)) -> (t < steps fs ti)%nat ->
  step_laws cf fs None (joined seg subs) (values_of subs (responsible seg subs t)) t.
Proof.
  intros cf ord solver fs seg over ti g subs fs_after t F NA PO EP FE Ht.
  destruct (joined_at _ _ _ _ _ _ _ _ _ _ _ F Ht) as [R [ET [TN [HR [s [E [V HJ]]]]]]].
  set (k := (t / seg)%nat) in *. set (t' := (t mod seg)%nat) in *.
  destruct (C63_problem _ _ _ _ _ _ _ _ _ _ _ _ F NA E) as [fsk [RS [B [I _]]]].
  pose proof (segment_losses _ _ _ _ _ _ _ _ _ _ F NA s (nth_error_In _ _ E)) as NL. rewrite I in NL. clear NA.
  rewrite R, V, ET at 1. rewrite I in B.
  apply (part_laws fs fsk (k * seg) (Nat.min (k * seg + seg + over) (steps fs ti) - k * seg) (sb_values s) (joined seg subs) t' NL RS TN HR HJ).
  eapply C63_full_calculation; eauto; [apply FE; eapply nth_error_In; eauto|]. cbn [steps]. rewrite seq_length. exact TN.
Qed.
Print Assumptions C63_laws.

(** *** Starts and stops, also at the borders of segments: the step before the border belongs to the previous segment. A flow that was on must have
    had a rate above the smallest number that counts as on; else the next segment takes it to have been off. *)
Theorem C63_switching : forall cf ord solver fs seg over ti g subs fs_after c f o,
  let J := joined seg subs in
  finished cf ord solver fs seg over ti g subs fs_after -> losses_throughout fs subs -> (forall l, Permutation (ord l) l) -> 0 < cf_eps cf ->
  (forall su, In su subs -> feasible (sb_prog su) (sb_values su)) ->
  (forall k, (S k < length subs)%nat -> (k * seg + seg + over <= steps fs ti)%nat) ->
  In c (fs_comps fs) -> In f (cp_flows c) -> governed fs None c f = Some o ->
  (forall t, (t < steps fs ti)%nat -> on_of J c f t == 1 -> cf_eps cf < rate_of J c f t) ->
  forall t, (t < steps fs ti)%nat ->
    (J (oo (flow_name c f) "switchOn") t == 1 <-> before (was_on cf f) (on_of J c f) t == 0 /\ on_of J c f t == 1)
    /\ (J (oo (flow_name c f) "switchOff") t == 1 <-> before (was_on cf f) (on_of J c f) t == 1 /\ on_of J c f t == 0)
    /\ (J (oo (flow_name c f) "switchOn") t == 0 \/ J (oo (flow_name c f) "switchOn") t == 1)
    /\ (J (oo (flow_name c f) "switchOff") t == 0 \/ J (oo (flow_name c f) "switchOff") t == 1).
Proof.
  intros cf ord solver fs seg over ti g subs fs_after c f o J F NA PO EP FE FULL Hc Hf G AB t Ht.
  assert (C63_laws_any : forall u, (u < steps fs ti)%nat -> step_laws cf fs None J (values_of subs (responsible seg subs u)) u) by (intros u Hu; eapply C63_laws; eauto).
  assert (EP' : 0 <= cf_eps cf) by lra.
  destruct (fin_seg _ _ _ _ _ _ _ _ _ _ F) as [S1 [S2 [N [L1 L2]]]].
  destruct (joined_at _ _ _ _ _ _ _ _ _ _ _ F Ht) as [R [ET [TN [HR [s [E [V HJ]]]]]]].
  pose proof (Nat.mod_upper_bound t seg ltac:(lia)) as MB. set (k := (t / seg)%nat) in *. set (t' := (t mod seg)%nat) in *.
  destruct (C63_problem _ _ _ _ _ _ _ _ _ _ _ _ F NA E) as [fsk [RS [B [I [K0 KS]]]]].
  pose proof (segment_losses _ _ _ _ _ _ _ _ _ _ F NA s (nth_error_In _ _ E)) as NL. rewrite I in B, NL.
  assert (FEs : feasible (sb_prog s) (sb_values s)) by (apply FE; eapply nth_error_In; eauto).
  set (n := (Nat.min (k * seg + seg + over) (steps fs ti) - k * seg)%nat) in *.
  assert (SON : forall w, J (oo (flow_name c f) w) t = sb_values s (oo (flow_name c f) w) t') by (intros w; unfold J; rewrite ET at 1; apply HJ).
  assert (X : exists was, switching (sb_values s) (flow_name c f) was n (oo_sw_max o) /\ (t' = 0%nat -> q01 was == before (was_on cf f) (on_of J c f) t)).
  { destruct k as [|j] eqn:K.
    - exists (was_on cf f). specialize (K0 eq_refl). subst fsk. rewrite <- (governed_any fs (Some (seq (0 * seg) n)) c f NL Hc) in G.
      split; [|intros T; replace t with 0%nat by lia; reflexivity].
      pose proof (C15_flow_switching _ _ _ _ _ _ _ _ _ B FEs EP' Hc Hf G) as SW. cbn [steps] in SW. rewrite seq_length in SW. exact SW.
    - destruct (part_comp fs fsk RS c Hc) as [p [i H]]. pose proof (part_flow p i c f Hf) as Hf2.
      rewrite <- (part_governed fs fsk (S j * seg) n NL p i c (p f) f Hc) in G.
      pose proof (C15_flow_switching _ _ _ _ _ _ _ _ _ B FEs EP' H Hf2 G) as SW. cbn [steps] in SW. rewrite seq_length in SW.
      exists (was_on cf (with_prev (p f) f)). split; [exact SW|]. intros T.
      assert (JL : (S j < length subs)%nat) by (apply nth_error_Some; congruence).
      destruct (KS j eq_refl (FULL j JL) _ H) as [HP _]. specialize (HP _ Hf2). cbn [with_prev f_prev] in HP.
      unfold was_on, prior_states. cbn [with_prev f_prev]. rewrite HP. cbn [last].
      set (u := (j * seg + (seg - 1))%nat). assert (TU : t = S u) by (unfold u; nia). rewrite TU. cbn [before].
      assert (Hu : (u < steps fs ti)%nat) by lia.
      change (rate_of (values_of subs j) (with_starts p i c) (with_prev (p f) f) (seg - 1)) with (rate_of (values_of subs j) c f (seg - 1)).
      assert (RJ : rate_of (values_of subs j) c f (seg - 1) = rate_of J c f u).
      { assert (D : (u / seg = j)%nat) by (symmetry; apply (Nat.div_unique _ _ _ (seg - 1)); unfold u; lia).
        unfold rate_of, J, joined, combined, responsible. rewrite D, Nat.min_l by lia. f_equal. unfold u. lia. }
      rewrite RJ. assert (GN : governed fs None c f = Some o) by (rewrite <- (part_governed fs fsk (S j * seg) n NL p i c (p f) f Hc); exact G).
      destruct (law_onoff _ _ _ _ _ _ (C63_laws_any u Hu) c f o Hc Hf GN) as [[O Z]|[O Z]]; fold J in O, Z.
      + rewrite O. unfold nonzero_rate. rewrite Z. destruct (Qle_bool (Qabs 0) (cf_eps cf)) eqn:Q; [reflexivity|]. exfalso.
        assert (Qabs 0 <= cf_eps cf) as W by exact EP'. apply Qle_bool_iff in W. congruence.
      + rewrite O. specialize (AB u Hu O). unfold nonzero_rate. destruct (Qle_bool (Qabs (rate_of J c f u)) (cf_eps cf)) eqn:Q; [|reflexivity]. exfalso.
        apply Qle_bool_iff in Q. rewrite Qabs_pos in Q by lra. lra. }
  destruct X as [was [[SW _] BF0]]. specialize (SW t' TN). rewrite !SON. unfold on_of at 2 4. rewrite SON.
  assert (BF : before was (sb_values s (oo (flow_name c f) "on")) t' == before (was_on cf f) (on_of J c f) t).
  { destruct t' as [|u'] eqn:T'; [apply BF0; reflexivity|]. cbn [before]. rewrite ET, Nat.add_succ_r. cbn [before]. unfold on_of, J, joined, combined.
    assert (D : ((k * seg + u') / seg = k)%nat) by (symmetry; apply (Nat.div_unique _ _ _ u'); lia).
    assert (KL : (k < length subs)%nat) by (apply nth_error_Some; congruence).
    assert (RR : responsible seg subs (k * seg + u') = k) by (unfold responsible; rewrite D; lia). rewrite RR, V. replace (k * seg + u' - k * seg)%nat with u' by lia. reflexivity. }
  rewrite <- BF. exact SW.
Qed.
Print Assumptions C63_switching.

Lemma lossless_throughout : forall fs subs, no_absolute_losses fs -> losses_throughout fs subs.
Proof. intros fs subs H. split; [apply lossless_full; exact H|]. intros s _. apply lossless_too. exact H. Qed.

(** Three segments of a storage that is charged from a source: in all ten steps the bus is balanced and the store is charged; charging starts
    in the first step and goes on over the borders of the segments. *)
Example C63_applies : exists g subs fs_after, finished default_config id_ord (keep_solver [0; 4; 8]%nat [6; 6; 2]%nat) fs_keep 4 2 None g subs fs_after
  /\ length subs = 3%nat /\ (forall t, (t < 10)%nat -> step_laws default_config fs_keep None (joined 4 subs) (values_of subs (responsible 4 subs t)) t)
  /\ (forall t, (t < 10)%nat -> delivered fs_keep (joined 4 subs) gas t == taken fs_keep (joined 4 subs) gas t)
  /\ (forall t, (t < 10)%nat -> (joined 4 subs "Sto__in__OnOff_switchOn" t == 1 <-> t = 0%nat)).
Proof.
  destruct keep_run as [g [subs [fa [F [L FE]]]]]. exists g, subs, fa. split; [exact F|]. split; [exact L|].
  assert (LAWS : forall t, (t < 10)%nat -> step_laws default_config fs_keep None (joined 4 subs) (values_of subs (responsible 4 subs t)) t).
  { intros t Ht. apply (C63_laws _ _ _ _ _ _ _ _ _ _ _ F (lossless_throughout _ _ keep_lossless) id_ord_perm ltac:(reflexivity) FE). exact Ht. }
  split; [exact LAWS|].
  assert (VAL : forall l t, (t < 10)%nat -> exists a n u, joined 4 subs l t = x_keep a n l u /\ (u < 6)%nat).
  { intros l t Ht. destruct (joined_at _ _ _ _ _ _ _ _ _ _ t F Ht) as [_ [ET [TN [_ [s [E [_ HJ]]]]]]]. destruct (fin_sub _ _ _ _ _ _ _ _ _ _ F _ s E) as [_ [_ [SV _]]].
    inversion SV as [SV']. exists (nth (t / 4) [0; 4; 8]%nat 0%nat), (nth (t / 4) [6; 6; 2]%nat 0%nat), (t mod 4)%nat.
    split; [rewrite ET at 1; rewrite HJ, <- SV'; reflexivity|]. pose proof (Nat.mod_upper_bound t 4 ltac:(lia)). lia. }
  split.
  - intros t Ht. assert (UB : used_bus fs_keep gas) by (exists keep_sto, keep_ch; cbn; tauto).
    assert (DB : distinct_buses fs_keep).
    { assert (U : forall b, used_bus fs_keep b -> b = gas) by (intros b [c [f [Hc [Hf E]]]]; cbn in Hc; destruct Hc as [<-|[<-|[]]]; cbn in Hf; intuition (subst; reflexivity)).
      split; [intros b b' H H' _|intros b b' H H' _]; rewrite (U b H), (U b' H'); reflexivity. }
    destruct (law_bus _ _ _ _ _ _ (LAWS t Ht) gas DB UB) as [H _]. unfold excess in H. cbn [gas b_penalty] in H. lra.
  - assert (FULL : forall k, (S k < length subs)%nat -> (k * 4 + 4 + 2 <= steps fs_keep None)%nat) by (intros k Hk; cbn [steps fs_keep fs_times]; rewrite map_length, seq_length; lia).
    intros t Ht.
    assert (ON : forall t, (t < 10)%nat -> on_of (joined 4 subs) keep_sto keep_ch t == 1).
    { intros u Hu. unfold on_of. destruct (VAL (oo (flow_name keep_sto keep_ch) "on") u Hu) as [a [n [v [-> _]]]]. reflexivity. }
    destruct (C63_switching _ _ _ _ _ _ _ _ _ _ keep_sto keep_ch default_onoff F (lossless_throughout _ _ keep_lossless) id_ord_perm ltac:(reflexivity) FE FULL ltac:(cbn; tauto) ltac:(cbn; tauto) eq_refl) with (t := t) as [H _];
      [|exact Ht|].
    + intros u Hu _. unfold rate_of. destruct (VAL (vlabel (flow_name keep_sto keep_ch) "flow_rate") u Hu) as [a [n [v [-> _]]]]. reflexivity.
    + change (oo (flow_name keep_sto keep_ch) "switchOn") with "Sto__in__OnOff_switchOn" in H. rewrite H. destruct t as [|u]; cbn [before].
      * split; [reflexivity|intros _; split; [reflexivity|apply ON; lia]].
      * split; [|discriminate]. intros [Z _]. rewrite (ON u ltac:(lia)) in Z. discriminate.
Qed.

(** The second segment continues with the charge state and the flow rates of the first. *)
Example C63_problem_applies : exists subs s fs_k, nth_error subs 1 = Some s /\ restarted fs_keep fs_k /\ build default_config id_ord fs_k (Some [4; 5; 6; 7; 8; 9]%nat) = Ok (sb_prog s)
  /\ forall c st, In c (fs_comps fs_k) -> cp_kind c = StorageC st -> cp_label c = "Sto" -> st_init st = ICNum 4.
Proof.
  destruct keep_run as [g [subs [fa [F [L FE]]]]]. destruct (fin_exists subs 1%nat ltac:(lia)) as [s E]. destruct (fin_exists subs 0%nat ltac:(lia)) as [s0 E0].
  destruct (C63_problem _ _ _ _ _ _ _ _ _ _ _ _ F (lossless_throughout _ _ keep_lossless) E) as [fsk [R [B [I [_ H]]]]]. exists subs, s, fsk. split; [exact E|]. split; [exact R|].
  split; [rewrite <- B, I; reflexivity|]. intros c st Hc K LB. destruct (H 0%nat eq_refl ltac:(cbn; lia) c Hc) as [_ H2]. rewrite (H2 st K). unfold charge. rewrite LB.
  destruct (fin_sub _ _ _ _ _ _ _ _ _ _ F 0%nat s0 E0) as [_ [_ [SV [_ ->]]]]. inversion SV as [SV']. reflexivity.
Qed.
Example C63_full_applies : exists pm, build default_config id_ord fs0 None = Ok pm /\ forall t, (t < 3)%nat -> step_laws default_config fs0 None x0 x0 t.
Proof.
  destruct x0_feasible as [pm [B F]]. exists pm. split; [exact B|]. intros t Ht. apply (C63_full_calculation _ _ _ _ _ _ t B F id_ord_perm ltac:(reflexivity)).
  assert (S3 : (3 <= steps fs0 None)%nat) by (apply Nat.leb_le; vm_compute; reflexivity). lia.
Qed.

(** A pipe that loses one unit in some steps of both segments while it is in use: the losses count in every step of the combined result. *)
Definition leak_in : flow := fl 170 "in" gas 10.
Definition leak_out : flow := fl 171 "out" heat 10.
Definition leak : component := transmission "Pipe" leak_in leak_out None None None (Some (na [1; 0; 1; 0; 0; 1])) None false.
Definition fs_leak : flow_system :=
  mkFS [0; 1; 2; 3; 4; 5] 6 (NS 1) [costs] [Library.source "Src" (fl 172 "Q" gas 10); leak; Library.sink "Snk" (fl 173 "D" heat 10)].
Definition leak_values (out start : list Q) : asg := fun v t =>
  if existsb (String.eqb v) ["Src__Q_flow_rate"; "Pipe__in_flow_rate"] then 2
  else if existsb (String.eqb v) ["Pipe__out_flow_rate"; "Snk__D_flow_rate"] then nth t out 0
  else if existsb (String.eqb v) ["Src__Q_sumFlowHours"; "Pipe__in_sumFlowHours"] then 6
  else if existsb (String.eqb v) ["Pipe__out_sumFlowHours"; "Snk__D_sumFlowHours"] then Qsum out
  else if existsb (String.eqb v) ["Pipe__in__OnOff_on"; "Pipe__out__OnOff_on"] then 1
  else if existsb (String.eqb v) ["Pipe__in__OnOff_totalOnHours"; "Pipe__out__OnOff_totalOnHours"] then 3
  else if existsb (String.eqb v) ["Pipe__in__OnOff_switchOn"; "Pipe__out__OnOff_switchOn"] then nth t start 0
  else if existsb (String.eqb v) ["Pipe__in__OnOff_nrSwitchOn"; "Pipe__out__OnOff_nrSwitchOn"] then Qsum start
  else 0.
Definition leak_solver : nat -> pmodel -> option asg := fun i _ =>
  Some (match i with 0%nat => leak_values [1; 2; 1] [1; 0; 0] | _ => leak_values [2; 2; 1] [] end).
Example C63_losses_apply : exists g subs fs_after, finished default_config id_ord leak_solver fs_leak 3 0 None g subs fs_after
  /\ length subs = 2%nat /\ losses_throughout fs_leak subs /\ (forall t, (t < 6)%nat ->
       rate_of (joined 3 subs) leak leak_out t == rate_of (joined 3 subs) leak leak_in t - nth t [1; 0; 1; 0; 0; 1] 0 * on_of (joined 3 subs) leak leak_in t).
Proof.
  destruct (run_check_ok leak_solver fs_leak 3 0 None (fun subs => Nat.eqb (length subs) 2 && all_feasible subs)%bool) as [g [subs [fa [F H]]]]; [vm_compute; reflexivity|].
  apply andb_prop in H. destruct H as [H1 H2]. exists g, subs, fa. split; [exact F|]. apply Nat.eqb_eq in H1. split; [exact H1|].
  assert (LT : losses_throughout fs_leak subs).
  { split.
    - intros c rel p [<-|[<-|[<-|[]]]] K; try discriminate K. injection K as _ <-. reflexivity.
    - intros s Hs c rel p [<-|[<-|[<-|[]]]] K _; try discriminate K. injection K as _ <-. destruct (In_nth_error _ _ Hs) as [k E].
      destruct (fin_sub _ _ _ _ _ _ _ _ _ _ F k s E) as [I _]. assert (k < 2)%nat by (rewrite <- H1; apply nth_error_Some; congruence).
      rewrite I. destruct k as [|[|k]]; [reflexivity|reflexivity|lia]. }
  split; [exact LT|]. intros t Ht. pose proof (C63_laws _ _ _ _ _ _ _ _ _ _ t F LT id_ord_perm ltac:(reflexivity) (all_feasible_ok subs H2) Ht) as L.
  destruct (law_transmission _ _ _ _ _ _ L "Pipe" leak_in leak_out None None None (Some (na [1; 0; 1; 0; 0; 1])) None false (or_intror (or_introl eq_refl))) as [A _].
  fold leak in A. cbn [lost] in A. rewrite A.
  assert (V : value None (na [1; 0; 1; 0; 0; 1]) t = nth t [1; 0; 1; 0; 0; 1] 0) by (do 6 (destruct t as [|t]; [reflexivity|]); lia).
  rewrite V. ring.
Qed.
