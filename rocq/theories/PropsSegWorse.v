(** Claim C88: splitting the horizon into segments never pays: what a segmented calculation has put together is a plan of the whole system, so the
    optimum of an ordinary calculation is not more expensive. In general this is wrong, because totals are limited per segment. *)
From Coq Require Import Permutation.
From Verif Require Import Base BaseFacts MathModel Spec Structure Params Features Elements System Library SysSpec AdmitSpec CtxFacts NavFacts PropsComp PropsFlow PropsOnOff
     PropsEffects Tree PropsTree Values Results Segmented PropsRepeat SegmentedFacts PropsSegmented PropsTrace Example PlanSpec PlanSame PlanSound PlanSys PlanCheck ExamplePoints PropsPlan
     PropsSegLaws PropsParts.

(** ** Specification *)

(** Nothing in the system reaches beyond a single step, apart from stored energy and from starts and stops: there are no investments, no limits on
    totals of flows or effects, no limits on hours or numbers of starts, no on/off parameters of whole components. Storages have constant relative
    limits and need not end where they started. *)
Record untied (cf : config) (fs : flow_system) : Prop := {
  un_invest : investments cf fs = [];
  un_flow : forall c f, In c (fs_comps fs) -> In f (cp_flows c) -> f_fh_min f = None /\ f_fh_max f = None /\ f_lf_min f = None /\ f_lf_max f = None;
  un_onoff : forall c f o, In c (fs_comps fs) -> In f (cp_flows c) -> governed fs None c f = Some o -> no_limits o;
  un_comp : forall c, In c (fs_comps fs) -> cp_onoff c = None;
  un_store : forall c s, In c (fs_comps fs) -> cp_kind c = StorageC s -> st_init s <> ICLast /\ number (st_relmin s) /\ number (st_relmax s);
  un_effect : forall e, In e (fs_effects fs) ->
     e_min_op e = None /\ e_max_op e = None /\ e_min_inv e = None /\ e_max_inv e = None /\ e_min_tot e = None /\ e_max_tot e = None
}.
(** The totals of the effects have names of their own. *)
Definition totals_apart (fs : flow_system) : Prop := (forall s, In s (own_names fs) -> ~ In s (total_names fs)) /\ NoDup (total_names fs).
(** Segments and their overlaps end within the horizon, except the last one. *)
Definition full_overlaps (seg over : nat) (subs : list sub) (n : nat) : Prop := forall k, (S k < length subs)%nat -> (k * seg + seg + over <= n)%nat.
(** A flow that is on has a rate above the smallest number that counts as on. *)
Definition clearly_on (cf : config) (fs : flow_system) (x : asg) : Prop := forall c f o t, In c (fs_comps fs) -> In f (cp_flows c) ->
  governed fs None c f = Some o -> (t < steps fs None)%nat -> on_of x c f t == 1 -> cf_eps cf < rate_of x c f t.
(** What the combined result costs: the effect [e] of all steps, and the penalties of the buses [bl]. *)
Definition result_cost (fs : flow_system) (x : asg) (e : effect) (bl : list bus) : Q :=
  sumn (steps fs None) (fun t => op_at x e t) + Qsum (map (bus_price fs None x) bl).
Definition all_buses (fs : flow_system) (bl : list bus) : Prop := NoDup bl /\ forall b, In b bl <-> used_bus fs b.

(** ** Proof *)
Lemma totals_known : forall fs op ops invs alls pen x, NoDup (total_names fs) -> let y := given (totals_table fs op ops invs alls pen) x in
  (forall e, In e (fs_effects fs) -> (forall t, op_at y e t = op e t) /\ op_sum y e = ops e /\ inv_sum y e = invs e /\ all_sum y e = alls e) /\ penalty_sum y = pen.
Proof.
  intros fs op ops invs alls pen x ND0 y. assert (ND : NoDup (map fst (totals_table fs op ops invs alls pen))) by (rewrite totals_fst; exact ND0). split.
  - intros e He. assert (T : forall p, In p [(vlabel (cat [e_label e; "__"; "operation"]) "operation_sum_TS", op e); (vlabel (cat [e_label e; "__"; "operation"]) "operation_sum", fun _ => ops e);
                      (vlabel (cat [e_label e; "__"; "invest"]) "invest_sum", fun _ => invs e); (vlabel (cat [e_label e; "__"; "all"]) "all_sum", fun _ => alls e)] -> In p (totals_table fs op ops invs alls pen)).
    { intros p Hp. unfold totals_table. apply in_app_iff. left. apply in_flat_map. exists e. auto. }
    split; [intros t; unfold op_at, y; apply (given_in _ _ _ (op e)); auto; apply T; simpl; auto|].
    split; [unfold op_sum, y; apply (given_in _ _ _ (fun _ => ops e)); auto; apply T; simpl; auto|].
    split; [unfold inv_sum, y; apply (given_in _ _ _ (fun _ => invs e)); auto; apply T; simpl; auto|].
    unfold all_sum, y; apply (given_in _ _ _ (fun _ => alls e)); auto; apply T; simpl; auto 10.
  - unfold penalty_sum, y. apply (given_in _ _ _ (fun _ => pen)); auto. unfold totals_table. apply in_app_iff. right. simpl. auto.
Qed.

Lemma number_value : forall p idx idx' t t', number p -> value idx p t = value idx' p t'.
Proof. intros p idx idx' t t' [q E]. unfold value. rewrite E. reflexivity. Qed.

Lemma same_id : forall l f h, NoDup (map f_id l) -> In f l -> In h l -> f_id f = f_id h -> f = h.
Proof.
  intros l f h ND Hf Hh E. induction l as [|a l IH]; [contradiction|]. cbn [map] in ND. inversion ND as [|? ? X Y]. subst.
  destruct Hf as [->|Hf], Hh as [->|Hh]; [reflexivity| | |auto]; exfalso; apply X; [rewrite E|rewrite <- E]; apply in_map; assumption.
Qed.

Section Worse.
Variables (cf : config) (ord : list nat -> list nat) (solver : nat -> pmodel -> option asg) (fs : flow_system) (seg over : nat) (g : segmented) (subs : list sub) (fs_after : flow_system).
Hypothesis F : finished cf ord solver fs seg over None g subs fs_after.
Hypothesis PO : forall l, Permutation (ord l) l.
Hypothesis SE : sensible cf fs None.
Hypothesis UN : untied cf fs.
Hypothesis LT : losses_throughout fs subs.
Hypothesis FE : forall s, In s subs -> feasible (sb_prog s) (sb_values s).
Hypothesis FULL : full_overlaps seg over subs (steps fs None).
Local Notation J := (joined seg subs).
Hypothesis CL : clearly_on cf fs J.
Local Notation n := (steps fs None).

Lemma eps_pos : 0 < cf_eps cf. Proof. exact (proj1 (se_eps _ _ _ SE)). Qed.
Lemma laws : forall t, (t < n)%nat -> step_laws cf fs None J (values_of subs (responsible seg subs t)) t.
Proof. intros t Ht. eapply C63_laws; eauto. apply eps_pos. Qed.
Lemma no_size : forall c f, In c (fs_comps fs) -> In f (cp_flows c) -> exists q, sized cf c f = SzNum q.
Proof.
  intros c f Hc Hf. destruct (sized cf c f) as [q|iv] eqn:E; [eauto|]. exfalso.
  assert (H : In (flow_name c f, iv) (investments cf fs)).
  { unfold investments. apply in_flat_map. exists c. split; [exact Hc|]. apply in_app_iff. left. apply in_flat_map. exists f. split; [exact Hf|].
    unfold flow_investment. rewrite E. left. reflexivity. }
  rewrite (un_invest _ _ UN) in H. exact H.
Qed.
Lemma no_cap : forall c s, In c (fs_comps fs) -> cp_kind c = StorageC s -> exists q, st_cap s = CapNum q.
Proof.
  intros c s Hc K. destruct (st_cap s) as [q|iv] eqn:E; [eauto|]. exfalso.
  assert (H : In (cp_label c, iv) (investments cf fs)).
  { unfold investments. apply in_flat_map. exists c. split; [exact Hc|]. apply in_app_iff. right. unfold storage_investment. rewrite K, E. left. reflexivity. }
  rewrite (un_invest _ _ UN) in H. exact H.
Qed.
Lemma governed_same : forall c f o, In c (fs_comps fs) -> In f (cp_flows c) -> governed fs None c f = Some o -> no_limits o.
Proof. intros. eapply un_onoff; eauto. Qed.

Lemma flow_part : forall c f, In c (fs_comps fs) -> In f (cp_flows c) -> flow_rule cf fs None J c f.
Proof.
  intros c f Hc Hf. destruct (no_size c f Hc Hf) as [q SZ]. pose proof eps_pos as EP.
  assert (WS : forall z, size_of cf z c f = given_size cf q) by (intros z; unfold size_of; rewrite SZ; reflexivity).
  assert (R1 : fst (size_range cf (sized cf c f)) = given_size cf q) by (rewrite SZ; reflexivity).
  assert (R2 : snd (size_range cf (sized cf c f)) = given_size cf q) by (rewrite SZ; reflexivity).
  assert (ST : forall o t, governed fs None c f = Some o -> (t < n)%nat ->
     (on_of J c f t == 0 /\ rate_of J c f t == 0 /\ runs J c f t = false)
     \/ (on_of J c f t == 1 /\ runs J c f t = true /\ cf_eps cf <= rate_of J c f t /\ within_limits cf None c f t (rate_of J c f t))).
  { intros o t G Ht. unfold within_limits, rel_min, rel_max. rewrite R1, R2. unfold runs.
    destruct (law_onoff _ _ _ _ _ _ (laws t Ht) c f o Hc Hf G) as [[A B]|[A [B [C D]]]].
    - left. split; [exact A|]. split; [exact B|]. destruct (Qeq_bool (on_of J c f t) 1) eqn:E; [|reflexivity]. apply Qeq_bool_iff in E. lra.
    - right. rewrite WS in C, D. split; [exact A|]. split; [apply Qeq_bool_iff; exact A|]. auto. }
  split.
  - constructor.
    + intros G t Ht. unfold within_limits, rel_min, rel_max. rewrite R1, R2. destruct (f_profile f) as [p|] eqn:P.
      * pose proof (law_profile _ _ _ _ _ _ (laws t Ht) c f p Hc Hf G P) as L. rewrite WS in L. rewrite L. split; apply Qle_refl.
      * pose proof (law_limits _ _ _ _ _ _ (laws t Ht) c f Hc Hf G P) as L. rewrite WS in L. exact L.
    + intros G t Ht Bf. destruct (governed fs None c f) as [o|] eqn:E; [|congruence]. destruct (ST o t eq_refl Ht) as [[_ [Z _]]|[_ [Z _]]]; [exact Z|congruence].
    + intros G t Ht Bt. destruct (governed fs None c f) as [o|] eqn:E; [|congruence]. destruct (ST o t eq_refl Ht) as [[_ [_ Z]]|[_ [_ Z]]]; [congruence|exact Z].
    + intros o G. destruct (un_onoff _ _ UN c f o Hc Hf G) as [A1 [A2 [A3 [A4 [A5 [A6 A7]]]]]]. unfold onoff_rules, obeys_limits. rewrite A1, A2, A3, A4, A5, A6, A7.
      split; [discriminate|]. split; [discriminate|]. split; [discriminate|]. split; (split; [discriminate|split; discriminate]).
    + intros iv E. congruence.
    + intros iv E. congruence.
    + destruct (un_flow _ _ UN c f Hc Hf) as [A1 [A2 [A3 A4]]]. rewrite A1, A2, A3, A4. cbv zeta. split; [discriminate|]. split; [discriminate|]. split; discriminate.
  - intros G t Ht. destruct (governed fs None c f) as [o|] eqn:E; [|congruence].
    destruct (C63_switching cf ord solver fs seg over None g subs fs_after c f o F LT PO EP FE FULL Hc Hf E) with (t := t) as [S1 [_ [S3 _]]];
      [intros u Hu; apply (CL c f o u Hc Hf E Hu)|exact Ht|].
    split; [|split; [exact S3|exact S1]]. destruct (ST o t eq_refl Ht) as [[Z _]|[Z _]]; [left; exact Z|right; exact Z].
Qed.

(** One step of a storage, seen from the segment responsible for it. *)
Lemma last_end : exists s k, nth_error subs k = Some s /\ S k = length subs
  /\ (forall l, J l n = sb_values s l (n - k * seg)%nat) /\ length (sb_idx s) = (n - k * seg)%nat /\ (k * seg < n)%nat.
Proof.
  destruct (fin_seg _ _ _ _ _ _ _ _ _ _ F) as [S1 [S2 [N [L1 L2]]]].
  destruct (fin_exists subs (length subs - 1) ltac:(lia)) as [s E]. exists s, (length subs - 1)%nat. split; [exact E|]. split; [lia|].
  destruct (fin_sub _ _ _ _ _ _ _ _ _ _ F _ s E) as [_ [_ [_ [_ V]]]]. destruct (fin_length _ _ _ _ _ _ _ _ _ _ F _ s E) as [LE LB].
  split; [|split; [rewrite LE; nia|nia]]. intros l. unfold joined, combined.
  assert (R : responsible seg subs n = (length subs - 1)%nat).
  { unfold responsible. assert (length subs - 1 <= n / seg)%nat by (apply Nat.div_le_lower_bound; nia). lia. }
  rewrite R, V. reflexivity.
Qed.

(** The problem of the last segment contains the storage, with an initial charge state if one was given. *)
Lemma storage_last : forall label ch dis s prevent, let c := storage_ label ch dis s prevent in In c (fs_comps fs) ->
  (value None (st_relmin s) n * capacity J c s <= charge J c n /\ charge J c n <= value None (st_relmax s) n * capacity J c s)
  /\ (st_init s <> ICNone -> forall q, st_fmax s = Some q -> charge J c n <= q) /\ (st_init s <> ICNone -> forall q, st_fmin s = Some q -> q <= charge J c n).
Proof.
  intros label ch dis s prevent c Hc. destruct (un_store _ _ UN c s Hc eq_refl) as [NL [NMIN NMAX]]. destruct (no_cap c s Hc eq_refl) as [q CAP].
  destruct last_end as [su [k [E [LK [JN [LE KN]]]]]]. destruct (C63_problem _ _ _ _ _ _ _ _ _ _ _ _ F LT E) as [fsk [RS [B [I [K0 KS]]]]].
  pose proof (FE su (nth_error_In _ _ E)) as FEs.
  assert (ST : steps fsk (Some (sb_idx su)) = (n - k * seg)%nat) by exact LE.
  assert (X : exists p i0, In (with_starts p i0 c) (fs_comps fsk) /\ (st_init s <> ICNone -> st_init (with_init i0 s) <> ICNone)).
  { destruct (Forall2_nth_like _ _ _ c (proj2 RS) Hc) as [c' [Hc' [p [i0 ->]]]]. destruct k as [|j].
    - rewrite K0 in * by reflexivity. clear p i0 Hc'.
      destruct (starts_back c) as [P [i SB]]; [|exists (fun f => P (f_id f)), i].
      + destruct (finished_trace _ _ _ _ _ _ _ _ _ _ F) as [fs' [T _]]. eapply comp_ids; eauto.
      + assert (EQ : with_starts (fun f => P (f_id f)) i c = c) by (apply (SB c eq_refl eq_refl)). rewrite EQ. split; [exact Hc|]. intros NI.
        assert (EK : StorageC (with_init i s) = StorageC s) by (change (cp_kind (with_starts (fun f => P (f_id f)) i c) = cp_kind c); rewrite EQ; reflexivity).
        injection EK as EK. rewrite EK. exact NI.
    - exists p, i0. split; [exact Hc'|]. intros _. destruct (KS j eq_refl (FULL j ltac:(lia)) _ Hc') as [_ H]. rewrite (H (with_init i0 s)); [discriminate|reflexivity]. }
  destruct X as [p [i0 [Hc' NI]]].
  assert (EQ : with_starts p i0 c = storage_ label (with_prev (p ch) ch) (with_prev (p dis) dis) (with_init i0 s) prevent) by (unfold c; destruct prevent; reflexivity).
  rewrite EQ in Hc'.
  destruct (C03_storage_levels _ _ _ _ _ _ _ _ _ _ _ (n - k * seg)%nat B FEs Hc' ltac:(rewrite ST; lia)) as [A1 A2].
  destruct (C04_partial _ _ _ _ _ _ _ _ _ _ _ B FEs Hc') as [_ [_ [A3 A4]]]. rewrite ST in A3, A4.
  unfold charge in *. cbn [storage_ cp_label] in *. cbn [c storage_ cp_label]. rewrite JN.
  cbn [with_init st_relmin st_relmax st_fmin st_fmax] in *. unfold capacity in *. cbn [with_init st_cap] in A1, A2. rewrite CAP in *.
  rewrite (number_value _ (Some (sb_idx su)) None _ n NMIN) in A1. rewrite (number_value _ (Some (sb_idx su)) None _ n NMAX) in A2. auto 10.
Qed.
Lemma storage_part : forall label ch dis s prevent, In (storage_ label ch dis s prevent) (fs_comps fs) ->
  storage_rule cf fs None J (storage_ label ch dis s prevent) s ch dis.
Proof.
  intros label ch dis s prevent. set (c := storage_ label ch dis s prevent). intros Hc.
  destruct (un_store _ _ UN c s Hc eq_refl) as [NL [NMIN NMAX]]. destruct (no_cap c s Hc eq_refl) as [q CAP].
  destruct (C34_trajectory_partial cf ord solver fs seg over None g subs fs_after label ch dis s prevent F Hc FULL FE) as [I0 BAL].
  destruct (storage_last label ch dis s prevent Hc) as [LN [FMAX FMIN]].
  split; [|split; [|split; [|split; [exact I0|split; [intros E; contradiction|split; assumption]]]]].
  - intros t Ht. split; [|exact (BAL t Ht)].
    destruct (joined_at _ _ _ _ _ _ _ _ _ _ _ F Ht) as [R [ET [TN [HR [su [E [V HJ]]]]]]]. set (k := (t / seg)%nat) in *. set (t' := (t mod seg)%nat) in *.
    destruct (C63_problem _ _ _ _ _ _ _ _ _ _ _ _ F LT E) as [fsk [RS [B [I _]]]].
    destruct (Forall2_nth_like _ _ _ c (proj2 RS) Hc) as [c' [Hc' [p [i0 ->]]]].
    assert (EQ : with_starts p i0 c = storage_ label (with_prev (p ch) ch) (with_prev (p dis) dis) (with_init i0 s) prevent) by (unfold c; destruct prevent; reflexivity).
    rewrite EQ in Hc'. destruct (C02_storage_balance _ _ _ _ _ _ _ _ _ _ _ B (FE su (nth_error_In _ _ E)) Hc') as [BL _].
    destruct (BL t') as [NZ _]; [cbn [steps]; rewrite I, seq_length; exact TN|]. rewrite I, value_part in NZ by exact TN. rewrite <- ET in NZ. exact NZ.
  - intros t Ht. assert (L : value None (st_relmin s) t * q <= charge J c t /\ charge J c t <= value None (st_relmax s) t * q).
    { unfold capacity in LN. rewrite CAP in LN. destruct (Nat.eq_dec t n) as [->|NE]; [exact LN|].
      destruct (law_levels _ _ _ _ _ _ (laws t ltac:(lia)) label ch dis s prevent Hc) as [A [B _]]. unfold capacity in A, B. rewrite CAP in A, B. auto. }
    unfold capacity, cap_range. rewrite CAP. cbn [fst snd]. destruct L. auto.
  - intros iv E. congruence.
Qed.

Lemma own_part : forall c, In c (fs_comps fs) -> own_rule cf fs None J c.
Proof.
  intros c Hc. destruct (se_shape _ _ _ SE c Hc) as [_ SH]. unfold own_rule. destruct (cp_kind c) as [|eqs|segs|s|rel abs] eqn:K.
  - exact Logic.I.
  - intros factors t Hf Ht. eapply (law_conversion _ _ _ _ _ _ (laws t Ht)); eauto.
  - intros t Ht. exact (law_segments _ _ _ _ _ _ (laws t Ht) c segs Hc K).
  - intros ch dis Ei Eo. destruct SH as [label [ch' [dis' [prevent ->]]]]. cbn in Ei, Eo. injection Ei as ->. injection Eo as ->. apply storage_part. exact Hc.
  - intros in1 out1 in2 out2 Ei Eo. destruct SH as [label [i1 [o1 [i2 [o2 [oo_ [prevent EC]]]]]]]. rewrite EC in Ei, Eo. cbn in Ei, Eo.
    injection Ei as -> Ei. injection Eo as -> Eo.
    assert (i2 = in2) by (destruct i2, in2; simpl in Ei; congruence). assert (o2 = out2) by (destruct o2, out2; simpl in Eo; congruence). subst i2 o2.
    subst c. assert (T : forall t, (t < n)%nat -> _) by (intros t Ht; exact (law_transmission _ _ _ _ _ _ (laws t Ht) _ _ _ _ _ _ _ _ _ Hc)). cbv zeta in T.
    split; [intros t Ht; exact (proj1 (T t Ht))|]. destruct in2 as [i2|]; [|exact Logic.I]. destruct out2 as [o2|]; [|exact Logic.I]. split.
    + intros t Ht. destruct (proj2 (T t Ht) i2 eq_refl) as [o [EO L]]. injection EO as <-. exact L.
    + intros iv E. exfalso. set (c := transmission label in1 out1 (Some i2) (Some o2) rel abs oo_ prevent) in *.
      destruct (no_size c in1 Hc (or_introl eq_refl)) as [q SZ].
      destruct (no_size c i2 Hc (or_intror (or_introl eq_refl))) as [q2 SZ2]. unfold sized, c in SZ, SZ2. cbn in SZ, SZ2. rewrite E in SZ, SZ2. rewrite Nat.eqb_refl in SZ2.
      destruct (Nat.eqb (f_id in1) (f_id i2)); destruct (f_size i2); discriminate.
Qed.

Lemma hourly_part : forall e t, In e (fs_effects fs) -> (t < n)%nat ->
  at_least (option_map (fun p => value None p t * hours fs None t) (e_min_ph e)) (op_at J e t)
  /\ at_most (option_map (fun p => value None p t * hours fs None t) (e_max_ph e)) (op_at J e t).
Proof.
  intros e t He Ht. destruct (joined_at _ _ _ _ _ _ _ _ _ _ _ F Ht) as [R [ET [TN [HR [su [E [V HJ]]]]]]]. set (k := (t / seg)%nat) in *. set (t' := (t mod seg)%nat) in *.
  destruct (C63_problem _ _ _ _ _ _ _ _ _ _ _ _ F LT E) as [fsk [RS [B [I _]]]].
  assert (He' : In e (fs_effects fsk)) by (rewrite (part_effects fs fsk RS); exact He).
  destruct (C22_limits _ _ _ _ _ _ e B (FE su (nth_error_In _ _ E)) He') as [_ [_ [_ [_ [_ [_ [_ H]]]]]]].
  assert (TS : (t' < steps fsk (Some (sb_idx su)))%nat) by (cbn [steps]; rewrite I, seq_length; exact TN).
  specialize (H t' TS). rewrite I in H. rewrite (part_hours fs fsk _ _ t' RS TN HR) in H. unfold op_at in *. rewrite <- HJ, <- ET in H.
  destruct H as [H1 H2]. split; [destruct (e_min_ph e) as [p|]|destruct (e_max_ph e) as [p|]]; cbn [option_map] in *; try assumption;
    rewrite value_part in * by exact TN; rewrite <- ET in *; assumption.
Qed.

Lemma obeys_joined : forall bl, all_buses fs bl -> totals_apart fs -> exists y, same_parts cf fs None J y
  /\ (forall e t, In e (fs_effects fs) -> op_at y e t = op_at J e t)
  /\ (forall e, In e (fs_effects fs) -> plan_cost y e == result_cost fs J e bl) /\ obeys cf fs None y.
Proof.
  intros bl [ND U] [NB NT].
  set (ops e := sumn n (fun t => op_at J e t)).
  set (y := given (totals_table fs (fun e t => op_at J e t) ops (fun _ => 0) ops (Qsum (map (bus_price fs None J) bl))) J). exists y.
  destruct (totals_known fs (fun e t => op_at J e t) ops (fun _ => 0) ops (Qsum (map (bus_price fs None J) bl)) J NT) as [R P]. fold y in R, P.
  assert (SP : same_parts cf fs None J y).
  { apply agree_same. intros l t Hl. unfold y. rewrite given_out; [reflexivity|]. rewrite totals_fst. auto. }
  split; [exact SP|]. split; [intros e t He; apply (proj1 (R e He))|]. split.
  { intros e He. destruct (R e He) as [_ [R2 [R3 _]]]. unfold plan_cost, result_cost. rewrite R2, R3, P. unfold ops. lra. }
  assert (N1 : (1 <= n)%nat) by (pose proof (se_steps _ _ _ SE); lia).
  assert (TG : forall c rel p f, In c (fs_comps fs) -> cp_kind c = TransmissionC rel (Some p) -> In f (cp_in c) -> governed fs None c f <> None).
  { destruct (fin_first _ _ _ _ _ _ _ _ _ _ F) as [s0 [E0 FS0]]. destruct (fin_sub _ _ _ _ _ _ _ _ _ _ F 0%nat s0 E0) as [I0 [B0 _]]. rewrite FS0 in B0.
    intros c rel p f Hc K Hf. pose proof (losses_governed _ _ _ _ _ _ B0 (FE s0 (nth_error_In _ _ E0)) (se_shape _ _ _ SE) c rel p f Hc K Hf) as G.
    rewrite (governed_any fs (Some (sb_idx s0)) c f) in G; [exact G|exact (segment_losses _ _ _ _ _ _ _ _ _ _ F LT s0 (nth_error_In _ _ E0))|exact Hc]. }
  assert (OP : obeys_parts cf None fs J).
  { split; [exact flow_part|]. split; [intros c p Hc E; rewrite (un_comp _ _ UN c Hc) in E; discriminate|]. split; [|split; [exact own_part|split]].
    - intros c Hc f h t Hf Hh NE P1 P2 Ht. apply (law_exclusive _ _ _ _ _ _ (laws t Ht) c f h Hc Hf Hh); auto. intros EI. apply NE.
      destruct (fin_first _ _ _ _ _ _ _ _ _ _ F) as [s0 [E0 FS0]]. destruct (fin_sub _ _ _ _ _ _ _ _ _ _ F 0%nat s0 E0) as [I0 [B0 _]]. rewrite FS0 in B0.
      pose proof (PropsComp.comp_ids _ _ _ _ _ c B0 Hc) as NDc. exact (same_id _ _ _ NDc Hf Hh EI).
    - intros name iv H. rewrite (un_invest _ _ UN) in H. contradiction.
    - intros b UB t Ht. exact (law_bus _ _ _ _ _ _ (laws t Ht) b (se_buses _ _ _ SE) UB). }
  destruct (parts_same cf None fs J y SP N1 TG OP) as [O1 [O2 [O3 [O4 [O5 O6]]]]]. constructor; auto.
  - intros e He. destruct (R e He) as [R1 [R2 [R3 R4]]]. destruct (un_effect _ _ UN e He) as [L1 [L2 [L3 [L4 [L5 L6]]]]].
    split; [|split; [|split; [|split]]].
    + intros t Ht. rewrite R1, (law_costs _ _ _ _ _ _ (laws t Ht) e He). apply Qplus_comp.
      * apply Qsum_map_eq. intros c Hc. symmetry. apply (costs_same cf fs None J y SP); auto.
      * unfold op_from_effects. apply Qsum_map_eq. intros e' He'. rewrite (proj1 (R e' He') t). reflexivity.
    + rewrite R2. apply sumn_ext. intros t Ht. rewrite R1. reflexivity.
    + rewrite R3, (un_invest _ _ UN). cbn [map Qsum fold_right]. rewrite Qplus_0_l. symmetry. unfold inv_from_effects. apply Qsum_zero. intros v Hv. apply in_map_iff in Hv. destruct Hv as [e' [<- He']].
      apply Qsum_zero. intros v Hv. apply in_map_iff in Hv. destruct Hv as [[k d] [<- _]]. destruct (Nat.eqb _ _); [|reflexivity]. rewrite (proj1 (proj2 (proj2 (R e' He')))). apply Qmult_0_r.
    + rewrite R2, R3, R4. lra.
    + rewrite L1, L2, L3, L4, L5, L6. unfold at_least, at_most. do 6 (split; [discriminate|]). intros t Ht. rewrite R1. apply hourly_part; auto.
  - intros bl' ND' U'. rewrite P. assert (PE : Permutation bl bl') by (apply NoDup_Permutation; auto; intros b; rewrite U, U'; reflexivity).
    rewrite (Qsum_perm _ _ (Permutation_map (bus_price fs None J) PE)). apply Qsum_map_eq. intros b Hb. symmetry. apply (price_same cf fs None J y SP). apply U'. exact Hb.
Qed.
End Worse.

Lemma same_parts_trans : forall cf fs idx x y z, same_parts cf fs idx x y -> same_parts cf fs idx y z -> same_parts cf fs idx x z.
Proof.
  intros cf fs idx x y z [A1 A2 A3 A4 A5 A6] [B1 B2 B3 B4 B5 B6]. constructor.
  - intros c f t Hc Hf Ht. rewrite (B1 c f t Hc Hf Ht). auto.
  - intros c f t Hc Hf G Ht. destruct (A2 c f t Hc Hf G Ht), (B2 c f t Hc Hf G Ht). split; etransitivity; eassumption.
  - intros c t Hc G Ht. destruct (A3 c t Hc G Ht), (B3 c t Hc G Ht). split; etransitivity; eassumption.
  - intros name iv H. destruct (A4 name iv H) as [P1 [P2 P3]], (B4 name iv H) as [Q1 [Q2 Q3]]. split; [etransitivity; eassumption|].
    split; [intros E; rewrite (Q2 E); auto|]. intros spts eff i l e H1 H2 H3 H4. rewrite (Q3 spts eff i l e H1 H2 H3 H4). eapply P3; eauto.
  - intros c s t Hc K Ht. rewrite (B5 c s t Hc K Ht). eauto.
  - intros b t U Ht. destruct (A6 b t U Ht), (B6 b t U Ht). split; etransitivity; eassumption.
Qed.

(** ** C88 *)

(** The combined result of a segmented calculation, whatever the solver returned for the segments, does what a solution of the ordinary calculation
    does, at the same cost. *)
Theorem C88_plan_partial : forall cf ord solver fs seg over g subs fs_after pm bl,
  finished cf ord solver fs seg over None g subs fs_after -> (forall l, Permutation (ord l) l) -> build cf ord fs None = Ok pm ->
  sensible cf fs None -> untied cf fs -> totals_apart fs -> losses_throughout fs subs -> (forall s, In s subs -> feasible (sb_prog s) (sb_values s)) ->
  full_overlaps seg over subs (steps fs None) -> clearly_on cf fs (joined seg subs) -> all_buses fs bl ->
  exists z e, find e_obj (fs_effects fs) = Some e /\ feasible pm z /\ same_parts cf fs None (joined seg subs) z
    /\ (forall e' t, In e' (fs_effects fs) -> (t < steps fs None)%nat -> op_at z e' t == op_at (joined seg subs) e' t)
    /\ objective_value pm z == result_cost fs (joined seg subs) e bl.
Proof.
  intros cf ord solver fs seg over g subs fs_after pm bl F PO B SE UN TA LT FE FULL CL AB.
  destruct (obeys_joined cf ord solver fs seg over g subs fs_after F PO SE UN LT FE FULL CL bl AB TA) as [y [SP [OPT [PC O]]]].
  destruct (plan_completes _ _ _ _ _ _ PO B SE O) as [z [SZ FZ]]. destruct (C21_objective cf ord fs None pm z B) as [e [Fe OZ]]. exists z, e.
  pose proof (find_some _ _ Fe) as [He _]. split; [exact Fe|]. split; [exact FZ|]. split; [exact (same_parts_trans _ _ _ _ _ _ SP (same_plan_parts _ _ _ _ _ SZ))|]. split.
  - intros e' t He' Ht. destruct (sp_effect _ _ _ _ _ SZ e' He') as [H _]. rewrite (H t Ht), (OPT e' t He'). reflexivity.
  - rewrite OZ. change (plan_cost z e == result_cost fs (joined seg subs) e bl). rewrite (same_cost _ _ _ _ _ _ SZ He). apply PC. exact He.
Qed.
Print Assumptions C88_plan_partial.

(** Therefore the optimum of the ordinary calculation never costs more than what the segments add up to. *)
Theorem C88_never_better_partial : forall cf ord solver fs seg over g subs fs_after pm bl z e,
  finished cf ord solver fs seg over None g subs fs_after -> (forall l, Permutation (ord l) l) -> build cf ord fs None = Ok pm ->
  sensible cf fs None -> untied cf fs -> totals_apart fs -> losses_throughout fs subs -> (forall s, In s subs -> feasible (sb_prog s) (sb_values s)) ->
  full_overlaps seg over subs (steps fs None) -> clearly_on cf fs (joined seg subs) -> all_buses fs bl ->
  find e_obj (fs_effects fs) = Some e -> (forall y, feasible pm y -> objective_value pm z <= objective_value pm y) ->
  objective_value pm z <= result_cost fs (joined seg subs) e bl.
Proof.
  intros cf ord solver fs seg over g subs fs_after pm bl z e F PO B SE UN TA LT FE FULL CL AB Fe M.
  destruct (C88_plan_partial _ _ _ _ _ _ _ _ _ _ _ F PO B SE UN TA LT FE FULL CL AB) as [y [e' [Fe' [FY [_ [_ OY]]]]]]. assert (e' = e) by congruence. subst e'.
  rewrite <- OY. apply M. exact FY.
Qed.
Print Assumptions C88_never_better_partial.

(** *** Without conditions *)
Definition C88_full : Prop := forall cf ord solver fs seg over g subs fs_after pm bl e,
  finished cf ord solver fs seg over None g subs fs_after -> (forall l, Permutation (ord l) l) -> build cf ord fs None = Ok pm -> sensible cf fs None ->
  (forall s, In s subs -> feasible (sb_prog s) (sb_values s)) -> all_buses fs bl -> find e_obj (fs_effects fs) = Some e ->
  exists z, feasible pm z /\ objective_value pm z <= result_cost fs (joined seg subs) e bl.

(** Energy may be bought up to a total of 3, and 1 is needed in each of six steps. Two segments of three steps may each use up the 3. *)
Definition cash : effect := mkEffect 0 "costs" true true [] [] None None None None None (Some (n1 100)) None None.
Definition need_in : flow := set_profile (Some (n1 1)) (fl 182 "Q" gas 1).
Definition quota : flow := set_limits (Some 3) None None None (fl 181 "Q" gas 10).
Definition fs_quota : flow_system := mkFS [0; 1; 2; 3; 4; 5] 6 (NS 1) [cash] [Library.source "Grid" quota; Library.sink "Need" need_in].
Definition quota_values : asg := of_table [("Grid__Q_flow_rate", [1; 1; 1]); ("Need__Q_flow_rate", [1; 1; 1]); ("Grid__Q_sumFlowHours", [3]); ("Need__Q_sumFlowHours", [3])].
Lemma quota_sensible : sensible default_config fs_quota None.
Proof.
  apply sensible_check; [vm_compute; reflexivity| |].
  - assert (U : forall b, used_bus fs_quota b -> b = gas) by (intros b [c [f [Hc [Hf E]]]]; cbn in Hc; destruct Hc as [<-|[<-|[]]]; cbn in Hf; intuition (subst; reflexivity)).
    split; intros b b' H H' _; rewrite (U b H), (U b' H'); reflexivity.
  - intros c Hc. cbn in Hc. destruct Hc as [<-|[<-|[]]]; cbn; split; try constructor; exact Logic.I.
Qed.
Lemma quota_buses : all_buses fs_quota [gas].
Proof.
  split; [constructor; [simpl; tauto|constructor]|]. intros b. split.
  - intros [<-|[]]. exists (Library.sink "Need" need_in), need_in. cbn. tauto.
  - intros [c [f [Hc [Hf E]]]]. cbn in Hc. destruct Hc as [<-|[<-|[]]]; cbn in Hf; destruct Hf as [<-|[]]; left; exact E.
Qed.
Theorem C88_refuted : ~ C88_full.
Proof.
  intros Full. destruct (run_check_ok (fun _ _ => Some quota_values) fs_quota 3 0 None all_feasible) as [g [subs [fa [F H]]]]; [vm_compute; reflexivity|].
  destruct (build default_config id_ord fs_quota None) as [pm|] eqn:B; [|vm_compute in B; discriminate].
  destruct (Full _ _ _ _ _ _ _ _ _ pm [gas] cash F id_ord_perm B quota_sensible (all_feasible_ok _ H) quota_buses eq_refl) as [z [FZ _]].
  pose proof (C57_solutions _ _ _ _ _ _ id_ord_perm B quota_sensible FZ) as O.
  set (src := Library.source "Grid" quota) in *. set (snk := Library.sink "Need" need_in) in *.
  destruct (ob_flow _ _ _ _ O src quota ltac:(cbn; tauto) ltac:(cbn; tauto)) as [A _]. destruct (al_total _ _ _ _ _ _ _ A) as [_ [T _]]. specialize (T 3 eq_refl).
  destruct (ob_flow _ _ _ _ O snk need_in ltac:(cbn; tauto) ltac:(cbn; tauto)) as [N _].
  assert (R : forall t, (t < 6)%nat -> rate_of z src quota t == 1).
  { intros t Ht. destruct (ob_bus _ _ _ _ O gas ltac:(exists snk, need_in; cbn; tauto) t Ht) as [BB _]. pose proof (al_plain _ _ _ _ _ _ _ N eq_refl t Ht) as W.
    destruct W as [W1 W2]. cbn in BB, W1, W2. unfold rate_of in BB, W1, W2 |- *. cbn in BB, W1, W2 |- *. unfold value, given_size in *. cbn in W1, W2. clear -BB W1 W2. lra. }
  assert (HH : forall t, (t < 6)%nat -> hours fs_quota None t == 1) by (intros t Ht; do 6 (destruct t as [|t]; [vm_compute; reflexivity|]); lia).
  assert (E : sumn (steps fs_quota None) (fun t => hours fs_quota None t * rate_of z src quota t) == sumn 6 (fun _ => 1)).
  { apply sumn_ext. intros t Ht. rewrite (R t Ht), (HH t Ht). reflexivity. }
  rewrite E in T. vm_compute in T. apply T. reflexivity.
Qed.
Print Assumptions C88_refuted.

(** *** Example: a storage bridges two steps within a segment, but nothing is stored for the next segment, which has not been looked at. *)
Definition grid_out : flow := set_eff (EVDict [(Some 0%nat, na [1; 5; 1; 5; 5; 5])]) (fl 181 "Q" gas 10).
Definition day_ch : flow := fl 183 "in" gas 10.
Definition day_dis : flow := fl 184 "out" gas 10.
Definition day_store : storage := mkStorage (CapNum 20) (n1 0) (n1 1) (ICNum 0) None (Some 20) (n1 1) (n1 1) (n1 0).
Definition day_sto : component := storage_ "Sto" day_ch day_dis day_store true.
Definition fs_day : flow_system := mkFS [0; 1; 2; 3; 4; 5] 6 (NS 1) [cash] [Library.source "Grid" grid_out; Library.sink "Need" need_in; day_sto].
Definition day_first : asg := of_table [
  ("Sto_charge_state", [0; 1; 0; 0]); ("Sto_netto_discharge", [-1; 1; 0]); ("costs__operation_operation_sum", [3]); 
  ("costs__operation_operation_sum_TS", [2; 0; 1]); ("costs__all_all_sum", [3]); ("costs__Grid__Q__effects_per_flow_hour", [2; 0; 1]); 
  ("costs__operation", [3]); ("Grid__Q_flow_rate", [2; 0; 1]); ("Grid__Q_sumFlowHours", [3]); ("Need__Q_flow_rate", [1; 1; 1]); 
  ("Need__Q_sumFlowHours", [3]); ("Sto__in_flow_rate", [1; 0; 0]); ("Sto__in_sumFlowHours", [1]); ("Sto__out_flow_rate", [0; 1; 0]); 
  ("Sto__out_sumFlowHours", [1]); ("Sto__in__OnOff_on", [1; 0; 0]); ("Sto__in__OnOff_totalOnHours", [1]); ("Sto__in__OnOff_switchOn", [1; 0; 0]); 
  ("Sto__in__OnOff_switchOff", [0; 1; 0]); ("Sto__in__OnOff_nrSwitchOn", [1]); ("Sto__out__OnOff_on", [0; 1; 0]); ("Sto__out__OnOff_totalOnHours", [1]); 
  ("Sto__out__OnOff_switchOn", [0; 1; 0]); ("Sto__out__OnOff_switchOff", [0; 0; 1]); ("Sto__out__OnOff_nrSwitchOn", [1])].
Definition day_second : asg := of_table [
  ("costs__operation_operation_sum", [15]); ("costs__operation_operation_sum_TS", [5; 5; 5]); ("costs__all_all_sum", [15]); 
  ("costs__Grid__Q__effects_per_flow_hour", [5; 5; 5]); ("costs__operation", [15]); ("Grid__Q_flow_rate", [1; 1; 1]); ("Grid__Q_sumFlowHours", [3]); 
  ("Need__Q_flow_rate", [1; 1; 1]); ("Need__Q_sumFlowHours", [3])].
Definition day_whole : asg := of_table [
  ("Sto_charge_state", [0; 1; 0; 3; 2; 1; 0]); ("Sto_netto_discharge", [-1; 1; -3; 1; 1; 1]); ("costs__operation_operation_sum", [6]); 
  ("costs__operation_operation_sum_TS", [2; 0; 4; 0; 0; 0]); ("costs__all_all_sum", [6]); ("costs__Grid__Q__effects_per_flow_hour", [2; 0; 4; 0; 0; 0]); 
  ("costs__operation", [6]); ("Grid__Q_flow_rate", [2; 0; 4; 0; 0; 0]); ("Grid__Q_sumFlowHours", [6]); ("Need__Q_flow_rate", [1; 1; 1; 1; 1; 1]); 
  ("Need__Q_sumFlowHours", [6]); ("Sto__in_flow_rate", [1; 0; 3; 0; 0; 0]); ("Sto__in_sumFlowHours", [4]); ("Sto__out_flow_rate", [0; 1; 0; 1; 1; 1]); 
  ("Sto__out_sumFlowHours", [4]); ("Sto__in__OnOff_on", [1; 0; 1; 0; 0; 0]); ("Sto__in__OnOff_totalOnHours", [2]); 
  ("Sto__in__OnOff_switchOn", [1; 0; 1; 0; 0; 0]); ("Sto__in__OnOff_switchOff", [0; 1; 0; 1; 0; 0]); ("Sto__in__OnOff_nrSwitchOn", [2]); 
  ("Sto__out__OnOff_on", [0; 1; 0; 1; 1; 1]); ("Sto__out__OnOff_totalOnHours", [4]); ("Sto__out__OnOff_switchOn", [0; 1; 0; 1; 0; 0]); 
  ("Sto__out__OnOff_switchOff", [0; 0; 1; 0; 0; 0]); ("Sto__out__OnOff_nrSwitchOn", [2])].
Definition day_solver : nat -> pmodel -> option asg := fun i _ => Some (match i with 0%nat => day_first | _ => day_second end).
Lemma day_buses : all_buses fs_day [gas].
Proof.
  split; [constructor; [simpl; tauto|constructor]|]. intros b. split.
  - intros [<-|[]]. exists (Library.sink "Need" need_in), need_in. cbn. tauto.
  - intros [c [f [Hc [Hf E]]]]. left. cbn in Hc. destruct Hc as [<-|[<-|[<-|[]]]]; cbn in Hf; intuition (subst; auto).
Qed.
Lemma day_sensible : sensible default_config fs_day None.
Proof.
  apply sensible_check; [vm_compute; reflexivity| |].
  - assert (U : forall b, used_bus fs_day b -> b = gas) by (intros b Hb; apply (proj2 day_buses) in Hb; destruct Hb as [<-|[]]; reflexivity).
    split; intros b b' H H' _; rewrite (U b H), (U b' H'); reflexivity.
  - intros c Hc. cbn in Hc. destruct Hc as [<-|[<-|[<-|[]]]]; cbn; (split; [|try exact Logic.I]); try (repeat constructor; simpl; intuition discriminate).
    exists "Sto", day_ch, day_dis, true. reflexivity.
Qed.
Lemma day_untied : untied default_config fs_day.
Proof.
  constructor.
  - reflexivity.
  - intros c f Hc Hf. cbn in Hc. destruct Hc as [<-|[<-|[<-|[]]]]; cbn in Hf; repeat (destruct Hf as [<-|Hf]; [auto|]); destruct Hf.
  - intros c f o Hc Hf G. cbn in Hc. destruct Hc as [<-|[<-|[<-|[]]]]; cbn in Hf;
      repeat (destruct Hf as [<-|Hf]; [vm_compute in G; first [discriminate G|injection G as <-; unfold no_limits; cbn; auto 10]|]); destruct Hf.
  - intros c Hc. cbn in Hc. destruct Hc as [<-|[<-|[<-|[]]]]; reflexivity.
  - intros c s Hc K. cbn in Hc. destruct Hc as [<-|[<-|[<-|[]]]]; try discriminate. injection K as <-. split; [discriminate|]. split; eexists; reflexivity.
  - intros e [<-|[]]. cbn. auto 10.
Qed.
Lemma day_apart : totals_apart fs_day.
Proof.
  split.
  - intros s H1 H2. assert (E : forallb (fun s => negb (existsb (String.eqb s) (total_names fs_day))) (own_names fs_day) = true) by (vm_compute; reflexivity).
    rewrite forallb_forall in E. specialize (E s H1). apply negb_true_iff in E. assert (X : existsb (String.eqb s) (total_names fs_day) = true) by (apply existsb_exists; exists s; split; [exact H2|apply String.eqb_refl]).
    congruence.
  - vm_compute. repeat constructor; simpl; intuition discriminate.
Qed.
Lemma day_lossless : no_absolute_losses fs_day.
Proof. intros c rel p Hc K. cbn in Hc. destruct Hc as [<-|[<-|[<-|[]]]]; discriminate. Qed.

Example C88_applies : exists g subs fs_after pm, finished default_config id_ord day_solver fs_day 3 0 None g subs fs_after /\ length subs = 2%nat
  /\ build default_config id_ord fs_day None = Ok pm
  /\ (exists z, feasible pm z /\ objective_value pm z == result_cost fs_day (joined 3 subs) cash [gas])
  /\ result_cost fs_day (joined 3 subs) cash [gas] == 18
  /\ feasible pm day_whole /\ objective_value pm day_whole == 6.
Proof.
  destruct (run_check_ok day_solver fs_day 3 0 None (fun subs => Nat.eqb (length subs) 2 && all_feasible subs)%bool) as [g [subs [fa [F H]]]]; [vm_compute; reflexivity|].
  apply andb_prop in H. destruct H as [H1 H2]. apply Nat.eqb_eq in H1.
  destruct (run_ok (build default_config id_ord fs_day None) day_whole) as [pm [B FW]]; [vm_compute; reflexivity|].
  assert (VAL : forall l t, (t < 6)%nat -> joined 3 subs l t = (if (t <? 3)%nat then day_first l t else day_second l (t - 3)%nat)).
  { intros l t Ht. destruct (joined_at _ _ _ _ _ _ _ _ _ _ t F Ht) as [_ [ET [TN [_ [s [E [_ HJ]]]]]]]. destruct (fin_sub _ _ _ _ _ _ _ _ _ _ F _ s E) as [_ [_ [SV _]]].
    injection SV as SV'. rewrite ET at 1. rewrite HJ, <- SV'. do 6 (destruct t as [|t]; [reflexivity|]). lia. }
  assert (CO : clearly_on default_config fs_day (joined 3 subs)).
  { intros c f o t Hc Hf G Ht. change (steps fs_day None) with 6%nat in Ht. unfold on_of, rate_of. rewrite !VAL by exact Ht. cbn in Hc.
    destruct Hc as [<-|[<-|[<-|[]]]]; cbn in Hf;
      repeat (destruct Hf as [<-|Hf]; [first [discriminate G|do 6 (destruct t as [|t]; [vm_compute; intros X; first [reflexivity|discriminate]|]); lia]|]); destruct Hf. }
  assert (FO : full_overlaps 3 0 subs (steps fs_day None)) by (intros k Hk; cbn; lia).
  exists g, subs, fa, pm. split; [exact F|]. split; [exact H1|]. split; [exact B|]. split; [|split; [|split; [exact FW|]]].
  - destruct (C88_plan_partial _ _ _ _ _ _ _ _ _ pm [gas] F id_ord_perm B day_sensible day_untied day_apart (lossless_throughout _ _ day_lossless) (all_feasible_ok _ H2) FO CO day_buses)
      as [z [e [Fe [FZ [_ [_ OZ]]]]]]. exists z. split; [exact FZ|]. injection Fe as <-. exact OZ.
  - unfold result_cost. change (steps fs_day None) with 6%nat.
    assert (E : sumn 6 (fun t => op_at (joined 3 subs) cash t) == sumn 6 (fun t => if (t <? 3)%nat then op_at day_first cash t else op_at day_second cash (t - 3)%nat)).
    { apply sumn_ext. intros t Ht. unfold op_at. rewrite VAL by exact Ht. destruct (t <? 3)%nat; reflexivity. }
    rewrite E. vm_compute. reflexivity.
  - destruct (C21_objective default_config id_ord fs_day None pm day_whole B) as [e [Fe O]]. injection Fe as <-. rewrite O. vm_compute. reflexivity.
Qed.
