(** Claim C94: the cost of the best plan is a number that belongs to the system. It exists when the system can be operated at all, it does not depend on
    which optimal solution is found, and it moves the right way when limits are widened, equipment is added or prices change. *)
From Coq Require Import Permutation Qabs Lqa.
From Verif Require Import Base BaseFacts MathModel Spec Structure Params Features Elements Library System SysSpec AdmitSpec CtxFacts PropsOnOff PropsComp PropsEffects PlanSpec
     Example PlanComp PlanSame PlanSys PlanCheck ExamplePoints AggFacts Segmented PropsSegmented SegWitness PropsPlan PropsParts PropsRelax ValidSpec ValidCheck PropsIdle PropsSegLaws PropsSegWorse PropsPrices PropsOptimum.

(** [least pm q] (PropsParts.v): some solution costs [q] and none costs less. *)

(** The best cost exists exactly if the system has a solution, and it is one number. *)
Theorem C94_value : forall cf ord fs idx pm, (forall l, Permutation (ord l) l) -> build cf ord fs idx = Ok pm -> sensible cf fs idx -> in_order fs -> fair_penalties fs idx ->
  ((exists x, feasible pm x) <-> exists q, least pm q) /\ (forall q q', least pm q -> least pm q' -> q == q')
  /\ forall x, best_of pm x <-> feasible pm x /\ least pm (objective_value pm x).
Proof.
  intros cf ord fs idx pm PO B SE OR FP. split; [split|split].
  - intros NE. destruct (C93_optimum cf ord fs idx pm PO B SE OR FP NE) as (x & F & M & _). exists (objective_value pm x). split; [exists x; split; [exact F|reflexivity]|exact M].
  - intros [q [[x [F _]] _]]. now exists x.
  - intros q q' [[x [F E]] L] [[x' [F' E']] L']. apply Qle_antisym; [rewrite <- E'; now apply L | rewrite <- E; now apply L'].
  - intros x. split.
    + intros [F M]. split; [exact F|]. split; [exists x; split; [exact F|reflexivity]|exact M].
    + intros [F [_ M]]. now split.
Qed.
Print Assumptions C94_value.

(** Wider limits (C72): the best cost still exists and is no higher. *)
Theorem C94_wider : forall cf ord ord' fs fs' idx pm pm', (forall l, Permutation (ord l) l) -> (forall l, Permutation (ord' l) l) ->
  build cf ord fs idx = Ok pm -> build cf ord' fs' idx = Ok pm' -> sensible cf fs idx -> sensible cf fs' idx -> in_order fs' -> fair_penalties fs' idx ->
  wider cf idx fs fs' -> no_zero_sizes cf fs -> no_zero_sizes cf fs' ->
  forall q, least pm q -> exists q', least pm' q' /\ q' <= q.
Proof.
  intros cf ord ord' fs fs' idx pm pm' PO PO' B B' SE SE' OR FP W NZ NZ' q [[x [F E]] _].
  destruct (C72_wider_partial cf ord ord' fs fs' idx pm pm' PO PO' B B' SE SE' W NZ NZ') as [K _]. destruct (K x F) as (y & FY & _ & EY).
  destruct (proj1 (proj1 (C94_value cf ord' fs' idx pm' PO' B' SE' OR FP)) (ex_intro _ y FY)) as [q' L]. exists q'. split; [exact L|]. rewrite <- E, <- EY. now apply L.
Qed.
Print Assumptions C94_wider.

(** One more component that may stand idle (C77). *)
Theorem C94_idle : forall cf ord ord' fs fs' c idx pm pm', (forall l, Permutation (ord l) l) -> (forall l, Permutation (ord' l) l) ->
  build cf ord fs idx = Ok pm -> build cf ord' fs' idx = Ok pm' -> sensible cf fs idx -> sensible cf fs' idx -> in_order fs' -> fair_penalties fs' idx -> well_named fs' ->
  (forall t, (t < steps fs idx)%nat -> 0 <= hours fs idx t) -> extended fs c fs' -> may_idle cf fs idx c -> unforced cf fs idx c ->
  forall q, least pm q -> exists q', least pm' q' /\ q' <= q.
Proof.
  intros cf ord ord' fs fs' c idx pm pm' PO PO' B B' SE SE' OR FP WN HP EX MI UF q [[x [F E]] _].
  destruct (C77_idle_partial cf ord ord' fs fs' c idx pm pm' PO PO' B B' SE SE' WN HP EX MI UF) as [K _]. destruct (K x F) as (y & FY & _ & _ & EY).
  destruct (proj1 (proj1 (C94_value cf ord' fs' idx pm' PO' B' SE' OR FP)) (ex_intro _ y FY)) as [q' L]. exists q'. split; [exact L|]. rewrite <- E, <- EY. now apply L.
Qed.
Print Assumptions C94_idle.

(** What the segments of a segmented calculation add up to (C88): the ordinary calculation has a best cost, which is no higher. *)
Theorem C94_segmented : forall cf ord solver fs seg over g subs fs_after pm bl,
  finished cf ord solver fs seg over None g subs fs_after -> (forall l, Permutation (ord l) l) -> build cf ord fs None = Ok pm ->
  sensible cf fs None -> in_order fs -> fair_penalties fs None ->
  untied cf fs -> totals_apart fs -> losses_throughout fs subs -> (forall s, In s subs -> feasible (sb_prog s) (sb_values s)) ->
  full_overlaps seg over subs (steps fs None) -> clearly_on cf fs (joined seg subs) -> all_buses fs bl ->
  exists q e, find e_obj (fs_effects fs) = Some e /\ least pm q /\ q <= result_cost fs (joined seg subs) e bl.
Proof.
  intros cf ord solver fs seg over g subs fs_after pm bl F PO B SE OR FP UN TA LT FE FULL CL AB.
  destruct (C88_plan_partial _ _ _ _ _ _ _ _ _ _ _ F PO B SE UN TA LT FE FULL CL AB) as (y & e & Fe & FY & _ & _ & OY).
  destruct (proj1 (proj1 (C94_value cf ord fs None pm PO B SE OR FP)) (ex_intro _ y FY)) as [q L]. exists q, e. split; [exact Fe|]. split; [exact L|]. rewrite <- OY. now apply L.
Qed.
Print Assumptions C94_segmented.

(** ** Prices *)
Lemma repriced_order : forall P fs, in_order fs -> in_order (repriced P fs).
Proof. intros P fs [rank H]. exists rank. exact H. Qed.
Lemma repriced_fair : forall P fs idx, fair_penalties fs idx -> fair_penalties (repriced P fs) idx.
Proof. intros P fs idx H b p t U E Ht. exact (H b p t (proj1 (p_used P fs b) U) E Ht). Qed.

(** A change of prices in terms of the minimised effect (C90): a best cost exists afterwards if it existed before, and the other way round. *)
Theorem C94_prices : forall P cf ord ord' fs idx pm pm' o, (forall l, Permutation (ord l) l) -> (forall l, Permutation (ord' l) l) ->
  build cf ord fs idx = Ok pm -> build cf ord' (repriced P fs) idx = Ok pm' -> sensible cf fs idx -> in_order fs -> fair_penalties fs idx -> totals_apart fs ->
  find e_obj (fs_effects fs) = Some o -> only_changes P fs idx o -> unbounded o ->
  ((exists q, least pm q) <-> exists q', least pm' q')
  /\ forall q q', least pm q -> least pm' q' -> (forall c f t, In c (fs_comps fs) -> In f (cp_flows c) -> (t < steps fs idx)%nat -> 0 <= rise P fs idx o f t) ->
     (forall t, (t < steps fs idx)%nat -> 0 <= hours fs idx t) ->
     (forall c f t, In c (fs_comps fs) -> In f (cp_flows c) -> (t < steps fs idx)%nat -> 0 <= rel_min idx f t * fst (size_range cf (sized cf c f))) -> q <= q'.
Proof.
  intros P cf ord ord' fs idx pm pm' o PO PO' B B' SE OR FP TA FO OC UB.
  destruct (C90_plans_partial P cf ord ord' fs idx pm pm' o PO PO' B B' SE TA FO OC UB) as [K1 K2]. split.
  - destruct (C94_value cf ord fs idx pm PO B SE OR FP) as [V _].
    destruct (C94_value cf ord' (repriced P fs) idx pm' PO' B' (p_sensible P cf fs idx SE) (repriced_order P fs OR) (repriced_fair P fs idx FP)) as [V' _].
    rewrite <- V, <- V'. split; intros [x F]; [destruct (K1 x F) as (y & FY & _) | destruct (K2 x F) as (y & FY & _)]; now exists y.
  - intros q q' [_ L] [[y [FY EY]] _] RI HO LO. destruct (K2 y FY) as (x & FX & SP & E).
    apply Qle_trans with (objective_value pm x); [now apply L|]. rewrite <- EY, E. assert (N : 0 <= extra P fs idx o x); [|lra].
    pose proof (C57_solutions cf ord fs idx pm x PO B SE FX) as O. unfold extra, sumn. apply Qsum_nonneg. intros z Hz. apply in_map_iff in Hz. destruct Hz as (t & <- & Ht). apply in_seq in Ht.
    assert (Lt : (t < steps fs idx)%nat) by lia. unfold extra_at. apply Qsum_nonneg. intros z Hz. apply in_map_iff in Hz. destruct Hz as (c & <- & Hc).
    apply Qsum_nonneg. intros z Hz. apply in_map_iff in Hz. destruct Hz as (f & <- & Hf). apply Qmult_le_0_compat; [|now apply HO]. apply Qmult_le_0_compat; [exact (RI c f t Hc Hf Lt)|].
    pose proof (LO c f t Hc Hf Lt) as L0. destruct (ob_flow _ _ _ _ O c f Hc Hf) as [AL _]. destruct (governed fs idx c f) as [oo_|] eqn:G.
    + destruct (PlanSpec.runs x c f t) eqn:R; [destruct (al_on _ _ _ _ _ _ _ AL) with (t := t) as [_ [X _]]; [congruence | exact Lt | exact R | lra]|].
      pose proof (al_off _ _ _ _ _ _ _ AL ltac:(congruence) t Lt R). lra.
    + destruct (al_plain _ _ _ _ _ _ _ AL G t Lt) as [X _]. lra.
Qed.
Print Assumptions C94_prices.

(** At prices in between (a part [w] of the way to the new ones) the best plan costs at least the mean of the best costs: one never gains by knowing only the mean price. *)
Theorem C94_between : forall P P' w cf ord ord' ord'' fs idx pm pmw pm' o, (forall l, Permutation (ord l) l) -> (forall l, Permutation (ord' l) l) -> (forall l, Permutation (ord'' l) l) ->
  build cf ord fs idx = Ok pm -> build cf ord' (repriced P fs) idx = Ok pmw -> build cf ord'' (repriced P' fs) idx = Ok pm' ->
  sensible cf fs idx -> totals_apart fs -> find e_obj (fs_effects fs) = Some o -> only_changes P fs idx o -> only_changes P' fs idx o -> unbounded o ->
  0 <= w -> w <= 1 -> (forall c f t, In c (fs_comps fs) -> In f (cp_flows c) -> (t < steps fs idx)%nat -> rise P fs idx o f t == w * rise P' fs idx o f t) ->
  forall q qw q', least pm q -> least pmw qw -> least pm' q' -> (1 - w) * q + w * q' <= qw.
Proof.
  intros P P' w cf ord ord' ord'' fs idx pm pmw pm' o PO PO' PO'' B BW B' SE TA FO OC OC' UB W0 W1 RI q qw q' [_ L] [[y [FY EY]] _] [_ L'].
  destruct (C90_plans_partial P cf ord ord' fs idx pm pmw o PO PO' B BW SE TA FO OC UB) as [_ K]. destruct (K y FY) as (x & FX & _ & E).
  destruct (C90_plans_partial P' cf ord ord'' fs idx pm pm' o PO PO'' B B' SE TA FO OC' UB) as [K' _]. destruct (K' x FX) as (z & FZ & _ & EZ).
  assert (X : extra P fs idx o x == w * extra P' fs idx o x).
  { unfold extra, sumn. rewrite <- BaseFacts.Qsum_scale. apply Qsum_map_eq. intros t Ht. apply in_seq in Ht. unfold extra_at. rewrite <- BaseFacts.Qsum_scale.
    apply Qsum_map_eq. intros c Hc. rewrite <- BaseFacts.Qsum_scale. apply Qsum_map_eq. intros f Hf. rewrite (RI c f t Hc Hf) by lia. ring. }
  specialize (L x FX). specialize (L' z FZ). rewrite EZ in L'. rewrite <- EY, E, X.
  assert (A : (1 - w) * q <= (1 - w) * objective_value pm x) by (rewrite !(Qmult_comm (1 - w)); apply Qmult_le_compat_r; lra).
  assert (C : w * q' <= w * (objective_value pm x + extra P' fs idx o x)) by (rewrite !(Qmult_comm w); apply Qmult_le_compat_r; lra).
  lra.
Qed.
Print Assumptions C94_between.

(** ** The cases meet the hypotheses *)
Lemma built_of : forall fs idx, (match build default_config id_ord fs idx with Ok _ => true | Err _ => false end) = true -> exists pm, build default_config id_ord fs idx = Ok pm.
Proof. intros fs idx H. destruct (build default_config id_ord fs idx) as [pm|]; [now exists pm|discriminate H]. Qed.
Lemma fair_check : forall fs idx bl, (forall b, used_bus fs b -> In b bl) ->
  forallb (fun b => match b_penalty b with Some p => forallb (fun t => Qle_bool 0 (value idx p t * hours fs idx t)) (seq 0 (steps fs idx)) | None => true end) bl = true -> fair_penalties fs idx.
Proof.
  intros fs idx bl H C b p t U E Ht. rewrite forallb_forall in C. specialize (C b (H b U)). rewrite E, forallb_forall in C. specialize (C t ltac:(apply in_seq; lia)). now apply Qle_bool_iff.
Qed.
Lemma buses_of : forall fs b, used_bus fs b -> In b (map f_bus (flat_map cp_flows (fs_comps fs))).
Proof. intros fs b (c & f & Hc & Hf & <-). apply in_map, in_flat_map. eauto. Qed.
Lemma fair_wide : fair_penalties fs_wide None.
Proof. apply (fair_check _ _ _ (buses_of _)). vm_compute. reflexivity. Qed.
Lemma fair_pump : fair_penalties fs_pump None.
Proof. apply (fair_check _ _ _ (buses_of _)). vm_compute. reflexivity. Qed.
Lemma order_wide : in_order fs_wide.
Proof.
  exists (fun i => if Nat.eqb i 1 then 0%nat else 1%nat). intros e i He H. cbn [fs_wide fs_effects In] in He. destruct He as [<-|[<-|[]]]; cbn in H.
  - destruct H as [[]|[]].
  - destruct H as [[<-|[]]|[<-|[]]]; cbn; lia.
Qed.
Lemma order_pump : in_order fs_pump.
Proof. destruct order_0 as [rank H]. exists rank. exact H. Qed.

(** The system of C72 with its wider limits and that of C77 with its heat pump: best costs exist, and each is no higher than that of the first system. *)
Example C94_applies : exists pm pw pp q qw qp, build default_config id_ord fs0 None = Ok pm /\ build default_config id_ord fs_wide None = Ok pw /\ build default_config id_ord fs_pump None = Ok pp
  /\ least pm q /\ least pw qw /\ least pp qp /\ qw <= q /\ qp <= q /\ q <= objective_value pm x0.
Proof.
  destruct x0_feasible as [pm [B F]]. destruct (built_of fs_wide None) as [pw BW]; [vm_compute; reflexivity|]. destruct (built_of fs_pump None) as [pp BP]; [vm_compute; reflexivity|].
  destruct (proj1 (proj1 (C94_value _ _ _ _ _ id_ord_perm B sensible_0 order_0 penalties_0)) (ex_intro _ x0 F)) as [q L].
  destruct (C94_wider _ _ _ _ _ _ _ _ id_ord_perm id_ord_perm B BW sensible_0 sensible_wide order_wide fair_wide wide_ok (proj1 no_zero_both) (proj2 no_zero_both) q L) as [qw [LW W]].
  destruct pump_rests as [R U]. assert (WN : well_named fs_pump) by (apply (named_b_ok _ _ pump_uses); vm_compute; reflexivity).
  assert (HP : forall t, (t < steps fs0 None)%nat -> 0 <= hours fs0 None t).
  { intros t Ht. change (steps fs0 None) with 3%nat in Ht. destruct t as [|[|[|t]]]; [| | |lia]; vm_compute; discriminate. }
  destruct (C94_idle _ _ _ _ _ _ _ _ _ id_ord_perm id_ord_perm B BP sensible_0 sensible_pump order_pump fair_pump WN HP pump_extends R U q L) as [qp [LP P]].
  exists pm, pw, pp, q, qw, qp. split; [exact B|]. split; [exact BW|]. split; [exact BP|]. split; [exact L|]. split; [exact LW|]. split; [exact LP|]. split; [exact W|]. split; [exact P|].
  destruct L as [_ L]. exact (L x0 F).
Qed.

(** The tariff of C90: from 1 to 3 per hour, and 2 in between. *)
Definition mid_tariff (f : flow) : evalues := if is_grid f then per_hour 2 else f_effects f.
Example C94_tariffs : exists pm pw pp q qw qp, build default_config id_ord (fs_tariff None 1) None = Ok pm /\ build default_config id_ord (repriced mid_tariff (fs_tariff None 1)) None = Ok pw
  /\ build default_config id_ord (repriced new_tariff (fs_tariff None 1)) None = Ok pp /\ least pm q /\ least pw qw /\ least pp qp
  /\ (1 - (1 # 2)) * q + (1 # 2) * qp <= qw /\ q <= qp.
Proof.
  destruct (run_ok (build default_config id_ord (fs_tariff None 1) None) (on_grid 1)) as [pm [B F]]; [vm_compute; reflexivity|].
  destruct (built_of (repriced mid_tariff (fs_tariff None 1)) None) as [pw BW]; [vm_compute; reflexivity|].
  destruct (built_of (repriced new_tariff (fs_tariff None 1)) None) as [pp BP]; [vm_compute; reflexivity|].
  assert (OR : in_order (fs_tariff None 1)) by (exists (fun i => i); intros e i [<-|[]] [[]|[]]).
  assert (FP : fair_penalties (fs_tariff None 1) None) by (apply (fair_check _ _ _ (buses_of _)); vm_compute; reflexivity).
  assert (OM : only_changes mid_tariff (fs_tariff None 1) None (money None)) by (intros e c f t [<-|[]] NE; exfalso; apply NE; reflexivity).
  assert (UB : unbounded (money None)) by (repeat split).
  destruct (proj1 (proj1 (C94_value _ _ _ _ _ id_ord_perm B (tariff_sensible None) OR FP)) (ex_intro _ _ F)) as [q L].
  destruct (C94_prices mid_tariff _ _ _ _ _ _ _ _ id_ord_perm id_ord_perm B BW (tariff_sensible None) OR FP (tariff_apart None) eq_refl OM UB) as [E1 _].
  destruct (C94_prices new_tariff _ _ _ _ _ _ _ _ id_ord_perm id_ord_perm B BP (tariff_sensible None) OR FP (tariff_apart None) eq_refl (tariff_only None) UB) as [E2 M].
  destruct (proj1 E1 (ex_intro _ q L)) as [qw LW]. destruct (proj1 E2 (ex_intro _ q L)) as [qp LP].
  exists pm, pw, pp, q, qw, qp. split; [exact B|]. split; [exact BW|]. split; [exact BP|]. split; [exact L|]. split; [exact LW|]. split; [exact LP|]. split.
  - apply (C94_between mid_tariff new_tariff (1 # 2) _ _ _ _ _ _ _ _ _ _ id_ord_perm id_ord_perm id_ord_perm B BW BP (tariff_sensible None) (tariff_apart None) eq_refl OM (tariff_only None) UB
             ltac:(discriminate) ltac:(discriminate)) with (q := q) (qw := qw) (q' := qp); try assumption.
    intros c f t Hc Hf Ht. cbn in Hc. destruct Hc as [<-|[<-|[<-|[]]]]; cbn in Hf; destruct Hf as [<-|[]]; reflexivity.
  - apply (M q qp L LP).
    + intros c f t Hc Hf Ht. rewrite (tariff_rise None c f t Hc Hf). destruct (is_grid f); discriminate.
    + intros t Ht. change (steps (fs_tariff None 1) None) with 2%nat in Ht. destruct t as [|[|t]]; [| |lia]; vm_compute; discriminate.
    + intros c f t Hc Hf Ht. cbn in Hc. destruct Hc as [<-|[<-|[<-|[]]]]; cbn in Hf; destruct Hf as [<-|[]]; vm_compute; discriminate.
Qed.

(** The day of C88 in two segments: together they cost 18, the best plan of the whole day at most 6. *)
Example C94_segmented_applies : exists g subs fs_after pm q, finished default_config id_ord day_solver fs_day 3 0 None g subs fs_after /\ build default_config id_ord fs_day None = Ok pm
  /\ least pm q /\ q <= result_cost fs_day (joined 3 subs) cash [gas] /\ q <= 6.
Proof.
  destruct (run_check_ok day_solver fs_day 3 0 None (fun subs => Nat.eqb (length subs) 2 && all_feasible subs)%bool) as [g [subs [fa [F H]]]]; [vm_compute; reflexivity|].
  apply andb_prop in H. destruct H as [H1 H2]. apply Nat.eqb_eq in H1.
  destruct (run_ok (build default_config id_ord fs_day None) day_whole) as [pm [B FW]]; [vm_compute; reflexivity|].
  assert (VAL : forall l t, (t < 6)%nat -> joined 3 subs l t = (if (t <? 3)%nat then day_first l t else day_second l (t - 3)%nat)).
  { intros l t Ht. destruct (joined_at _ _ _ _ _ _ _ _ _ _ t F Ht) as [_ [ET [TN [_ [s [E [_ HJ]]]]]]]. destruct (fin_sub _ _ _ _ _ _ _ _ _ _ F _ s E) as [_ [_ [SV _]]].
    injection SV as SV'. rewrite ET at 1. rewrite HJ, <- SV'. do 6 (destruct t as [|t]; [reflexivity|]). lia. }
  assert (CO : clearly_on default_config fs_day (joined 3 subs)).
  { intros c f o t Hc Hf G Ht. change (steps fs_day None) with 6%nat in Ht. unfold on_of, rate_of. rewrite !VAL by exact Ht. cbn in Hc.
    destruct Hc as [<-|[<-|[<-|[]]]]; cbn in Hf;
      repeat (destruct Hf as [<-|Hf]; [first [discriminate G|do 6 (destruct t as [|t]; [vm_compute; intros X; first [reflexivity|discriminate]|]); lia]|]); destruct Hf. }
  assert (FO : full_overlaps 3 0 subs (steps fs_day None)) by (intros k Hk; cbn; lia).
  assert (OR : in_order fs_day) by (exists (fun i => i); intros e i [<-|[]] [[]|[]]).
  assert (FP : fair_penalties fs_day None) by (apply (fair_check _ _ _ (buses_of _)); vm_compute; reflexivity).
  destruct (C94_segmented _ _ _ _ _ _ _ _ _ pm [gas] F id_ord_perm B day_sensible OR FP day_untied day_apart (lossless_throughout _ _ day_lossless) (all_feasible_ok _ H2) FO CO day_buses)
    as (q & e & Fe & L & M). injection Fe as <-. exists g, subs, fa, pm, q. split; [exact F|]. split; [exact B|]. split; [exact L|]. split; [exact M|].
  assert (V : match build default_config id_ord fs_day None with Ok m => Qeq_bool (objective_value m day_whole) 6 | Err _ => false end = true) by (vm_compute; reflexivity).
  rewrite B in V. apply Qeq_bool_iff in V. rewrite <- V. destruct L as [_ L]. exact (L day_whole FW).
Qed.
