(** C38 and C55: what an aggregated calculation equates, and what that costs. *)
From Verif Require Import Base BaseFacts MathModel MathFacts Spec Structure StructureFacts Params Features Elements System SysSpec CtxFacts ReadTools FlowFacts NavFacts
  ShareFacts CompFacts BusFacts EffectLaws Library Example ExamplePoints ClosedFacts PropsClosed PropsComp PropsEffects Aggregation AggSpec AggFacts PropsAggregation.
From Coq Require Import Qround.
Local Open Scope Q_scope.
Local Tactic Notation "bnd" hyp(H) ident(x) ident(E) := apply bind_ok in H; destruct H as [x [E H]]; cbv beta in H.

(** ** Locating the variables *)
Lemma onoff_ts : forall cx tr elem p vars bounds o, onoff_model cx tr elem p vars bounds = Ok o -> v_ts (ot_on o) = Nat.ltb 1 (cx_n cx).
Proof.
  intros cx tr elem p vars bounds o H. unfold onoff_model in H.
  bnd H bounds' Eb. bnd H u1 Elen. bnd H prev_on Ep0. bnd H on Eon. bnd H tot Etot. bnd H ctot Ectot. bnd H con Econ.
  bnd H vo Evo. destruct vo as [voff coff]. bnd H vd1 Ed1. destruct vd1 as [v1 k1]. bnd H vd2 Ed2. destruct vd2 as [v2 k2].
  bnd H vs3 Es3. destruct vs3 as [[v3 k3] sw]. bnd H sh1 Esh1. bnd H sh2 Esh2. bnd H m Em. apply Ok_inj in H. subst o. cbn [ot_on].
  apply create_variable_spec in Eon. subst on. reflexivity.
Qed.
Section Located.
Variables (cf : config) (ord : list nat -> list nat) (fs : flow_system) (idx : option (list nat)) (ap : agg_params) (cl : clustering)
          (sel : option (list string)) (hpp : Q) (pm' : pmodel).
Hypothesis B : build_aggregated cf ord fs idx hpp ap cl sel = Ok pm'.
Hypothesis ND : NoDup (map cp_label (fs_comps fs)).
Variable c : component.
Hypothesis TP : takes_part fs ap sel c.

Lemma comp_located : exists cx cos am pen o oo pm so,
  (exists em bts obj, build_system cf ord fs idx = Ok (mkBuilt cx em cos bts obj)) /\ In (c, o) (combine (fs_comps fs) cos) /\ aggregation_model ap cl sel (fs_comps fs) cos = Ok (am, pen) /\ (forall x, feasible pm' x -> em_sat x am)
  /\ ctx_ok cx /\ cx_n cx = steps fs idx
  /\ comp_parts cx (visible_comp fs (cp_label c)) c (effective cf fs idx c) o oo pm so.
Proof.
  destruct (agg_lift _ _ _ _ _ _ _ _ _ B) as [pm [cx [cos [am [pen [em [bts [obj G]]]]]]]]. destruct (build_parts _ _ _ _ _ (gp_build _ _ _ _ _ _ _ _ _ _ _ _ _ _ _ _ G))
    as [cx2 [cos2 [bos [em2 [obj2 P]]]]].
  pose proof (sy_build _ _ _ _ _ _ _ _ _ _ P) as S2. rewrite (gp_system _ _ _ _ _ _ _ _ _ _ _ _ _ _ _ _ G) in S2. injection S2 as <- <- <- _ <-.
  destruct TP as [Hc _]. destruct (Forall2_combine _ _ _ _ (sy_comps _ _ _ _ _ _ _ _ _ _ P) Hc) as [o [Ho [oo [pmm [so CP]]]]].
  exists cx, cos, am, pen, o, oo, pmm, so.
  split; [exists em, bts, obj; exact (gp_system _ _ _ _ _ _ _ _ _ _ _ _ _ _ _ _ G)|]. split; [exact Ho|]. split; [exact (gp_agg _ _ _ _ _ _ _ _ _ _ _ _ _ _ _ _ G)|].
  split; [exact (gp_am _ _ _ _ _ _ _ _ _ _ _ _ _ _ _ _ G)|]. split; [exact (sy_ok _ _ _ _ _ _ _ _ _ _ P)|]. split; [exact (sy_n _ _ _ _ _ _ _ _ _ _ P)|exact CP].
Qed.

(** A variable of the component that runs over the time steps. *)
Definition runs (v : variable) : Prop := exists cx em cos bts obj o,
  build_system cf ord fs idx = Ok (mkBuilt cx em cos bts obj) /\ In (c, o) (combine (fs_comps fs) cos) /\ In v (decl (co_tree o))
  /\ ((1 < steps fs idx)%nat -> v_ts v = true).

Lemma located_runs : forall cx cos o v, (exists em bts obj, build_system cf ord fs idx = Ok (mkBuilt cx em cos bts obj)) ->
  In (c, o) (combine (fs_comps fs) cos) -> In v (decl (co_tree o)) -> ((1 < steps fs idx)%nat -> v_ts v = true) -> runs v.
Proof. intros cx cos o v [em [bts [obj S]]] Ho Hv T. exists cx, em, cos, bts, obj, o. auto. Qed.

Lemma runs_equated : forall v x, runs v -> feasible pm' x -> (1 < steps fs idx)%nat -> (ag_fix_all ap = true \/ v_bin v = true) ->
  exists pairs vs cs, equation_indices true cl = Ok pairs /\ equate_indices ap pairs v = Ok (vs, cs) /\ Forall (var_sat x) vs /\ Forall (con_sat x) cs.
Proof.
  intros v x [cx [em [cos [bts [obj [o [S [Ho [Hv T]]]]]]]]] F L BB. destruct (agg_lift _ _ _ _ _ _ _ _ _ B) as [pm [cx2 [cos2 [am [pen [em2 [bts2 [obj2 G]]]]]]]].
  rewrite (gp_system _ _ _ _ _ _ _ _ _ _ _ _ _ _ _ _ G) in S. injection S as -> -> -> -> ->. destruct TP as [_ [Pk St]].
  destruct (equated_parts _ _ _ _ _ _ _ _ _ _ (gp_agg _ _ _ _ _ _ _ _ _ _ _ _ _ _ _ _ G) ND Ho Pk St Hv (T L) BB) as [pairs [vs [cs [E1 [E2 E3]]]]].
  exists pairs, vs, cs. split; auto. split; auto. apply E3. exact (gp_am _ _ _ _ _ _ _ _ _ _ _ _ _ _ _ _ G x F).
Qed.

Lemma flow_runs : forall f, In f (cp_flows c) ->
  (exists v, v_label v = vlabel (flow_name c f) "flow_rate" /\ v_bin v = false /\ runs v)
  /\ (governed fs idx c f <> None -> exists v, v_label v = flow_state c f /\ v_bin v = true /\ runs v).
Proof.
  intros f Hf. destruct comp_located as [cx [cos [am [pen [o [oo [pm [so [SY [Ho [A [AM [CX [N CP]]]]]]]]]]]]]].
  destruct (Forall2_combine _ _ _ _ (pa_flows _ _ _ _ _ _ _ _ CP) Hf) as [fo [Hfo FM]]. apply in_combine_r in Hfo.
  destruct (flow_shape_ok _ _ _ _ _ CX FM) as [SH _]. destruct (flow_closed _ _ _ _ _ FM) as [_ [[V1 [V2 V3]] _]].
  assert (D : forall v, In v (decl (fo_tree fo)) -> In v (decl (co_tree o))).
  { intros v Hv. rewrite (pa_tree _ _ _ _ _ _ _ _ CP). eapply decl_sub; [|exact Hv]. apply in_or_app. left. apply in_or_app. left. apply in_map. exact Hfo. }
  split.
  - exists (fo_rate fo). split; [exact (fs_label _ _ _ _ SH)|]. split.
    + unfold flow_model in FM. bnd FM rl Erl. bnd FM ab Eab. bnd FM rate Erate. bnd FM oo_ Eoo. bnd FM io Eio. bnd FM sfh Esfh. bnd FM csum Ecsum. bnd FM clf Eclf.
      bnd FM s Es. bnd FM m Em. apply Ok_inj in FM. subst fo. cbn [fo_rate]. apply create_variable_spec in Erate. subst rate. reflexivity.
    + eapply located_runs; eauto. intros L. rewrite (fs_ts _ _ _ _ SH), N. apply Nat.ltb_lt. exact L.
  - intros G. pose proof (fs_on _ _ _ _ SH) as O. change (f_onoff (effective cf fs idx c f)) with (governed fs idx c f) in O.
    destruct (governed fs idx c f) as [p|]; [|congruence]. destruct O as [v [O1 [O2 [O3 O4]]]]. exists v. split; [exact O2|]. split; [exact O4|].
    eapply located_runs; eauto. 
    + apply D. apply V2. rewrite O1. left. reflexivity.
    + intros L. unfold flow_model in FM. bnd FM rl Erl. bnd FM ab Eab. bnd FM rate Erate. bnd FM oo_ Eoo. bnd FM io Eio. bnd FM sfh Esfh. bnd FM csum Ecsum. bnd FM clf Eclf.
      bnd FM s Es. bnd FM m Em. apply Ok_inj in FM. subst fo. cbn [fo_on] in O1. destruct oo_ as [ot|]; [|discriminate]. injection O1 as <-.
      unfold optM in Eoo. destruct (f_onoff _) as [q|]; [|discriminate]. bnd Eoo o' Eo. apply Ok_inj in Eoo. injection Eoo as ->.
      rewrite (onoff_ts _ _ _ _ _ _ _ Eo), N. apply Nat.ltb_lt. exact L.
Qed.

Lemma comp_runs : cp_onoff c <> None -> exists v, v_label v = comp_state c /\ v_bin v = true /\ runs v.
Proof.
  intros G. destruct comp_located as [cx [cos [am [pen [o [oo [pm [so [SY [Ho [A [AM [CX [N CP]]]]]]]]]]]]]].
  pose proof (pa_oo _ _ _ _ _ _ _ _ CP) as PO. destruct (cp_onoff c) as [p|]; [|congruence]. cbn [optM] in PO. bnd PO ot Eo. apply Ok_inj in PO. subst oo.
  exists (ot_on ot). destruct (onoff_on _ _ _ _ _ _ _ Eo) as [O1 [O2 O3]]. split; [exact O1|]. split; [exact O3|]. eapply located_runs; eauto.
  - rewrite (pa_tree _ _ _ _ _ _ _ _ CP). eapply decl_sub; [|exact (proj1 (proj2 (onoff_closed _ _ _ _ _ _ _ Eo)))]. apply in_or_app. left. apply in_or_app. right.
    left. reflexivity.
  - intros L. rewrite (onoff_ts _ _ _ _ _ _ _ Eo), N. apply Nat.ltb_lt. exact L.
Qed.

Lemma state_runs : forall v, has_state fs idx c v -> exists w, v_label w = v /\ v_bin w = true /\ runs w.
Proof. intros v [[f [Hf [G ->]]]|[G ->]]; [apply flow_runs; auto|apply comp_runs; auto]. Qed.

Lemma storage_runs : is_storage c = true ->
  (exists v, v_label v = vlabel (cp_label c) "charge_state" /\ v_bin v = false /\ runs v)
  /\ (exists v, v_label v = vlabel (cp_label c) "netto_discharge" /\ v_bin v = false /\ runs v).
Proof.
  intros G. destruct comp_located as [cx [cos [am [pen [o [oo [pm [so [SY [Ho [A [AM [CX [N CP]]]]]]]]]]]]]].
  pose proof (pa_own _ _ _ _ _ _ _ _ CP) as PO. unfold own_model in PO. unfold is_storage in G. destruct (cp_kind c) as [| | |s|]; try discriminate.
  bnd PO ch Ech. bnd PO dis Edis. unfold storage_model in PO. bnd PO rl E1. bnd PO ru E2. destruct (cap_limits cx (st_cap s)) as [lo hi]. bnd PO lb E3. bnd PO ub E4.
  bnd PO cs Ecs. bnd PO nd End.
  assert (V : In cs (so_vars so) /\ In nd (so_vars so)).
  { repeat (let x := fresh "x" in let E := fresh "E" in apply bind_ok in PO; destruct PO as [x [E PO]]; cbv beta in PO). 
    repeat match type of PO with context [match ?p with (_, _) => _ end] => destruct p end. apply Ok_inj in PO. subst so. cbn [so_vars]. split; simpl; auto. }
  assert (D : forall v, In v (so_vars so) -> In v (decl (co_tree o))).
  { intros v Hv. rewrite (pa_tree _ _ _ _ _ _ _ _ CP). apply decl_own. exact Hv. }
  apply create_variable_spec in Ecs. apply create_variable_spec in End. destruct V as [V1 V2]. split; [exists cs|exists nd].
  - subst cs. split; [reflexivity|]. split; [reflexivity|]. eapply located_runs; eauto. intros L. cbn [v_ts]. apply Nat.ltb_lt. lia.
  - subst nd. split; [reflexivity|]. split; [reflexivity|]. eapply located_runs; eauto. intros L. cbn [v_ts]. apply Nat.ltb_lt. lia.
Qed.

(** Equal along the pairs means equal at twins. *)
Hypothesis CS : clusters_steps fs idx cl.
Lemma twins_equal : forall v x i j, runs v -> feasible pm' x -> (ag_fix_all ap = true \/ v_bin v = true) -> keeps_equal ap v -> twins cl i j ->
  x (v_label v) i == x (v_label v) j.
Proof.
  intros v x i j R F A K T. destruct CS as [C1 C2 C3].
  assert (L : (1 < steps fs idx)%nat) by (destruct T as [T1 [T2 [T3 _]]]; rewrite C3 in *; lia).
  destruct (runs_equated v x R F L A) as [pairs [vs [cs [E1 [E2 [E3 E4]]]]]]. pose proof (equate_equal _ _ _ _ _ _ E2 K E4) as EQ.
  destruct (proj2 (C37_pairs cl pairs C1 C2 E1) i j T) as [k [Hi Hj]].
  assert (X : forall a, k = a \/ In (k, a) pairs -> x (v_label v) k == x (v_label v) a) by (intros a [-> |Ha]; [reflexivity|auto]).
  rewrite <- (X i Hi). apply X. exact Hj.
Qed.
End Located.

(** ** C38 *)

(** Flow rates are the same at twin steps. *)
Theorem C38_flows : forall cf ord fs idx hpp ap cl sel pm x c f i j,
  build_aggregated cf ord fs idx hpp ap cl sel = Ok pm -> feasible pm x -> NoDup (map cp_label (fs_comps fs)) -> clusters_steps fs idx cl ->
  takes_part fs ap sel c -> In f (cp_flows c) -> ag_fix_all ap = true -> twins cl i j ->
  rate_of x c f i == rate_of x c f j.
Proof.
  intros cf ord fs idx hpp ap cl sel pm x c f i j B F ND CS TP Hf A T.
  destruct (proj1 (flow_runs _ _ _ _ _ _ _ _ _ B c TP f Hf)) as [v [L [Bn R]]]. unfold rate_of. rewrite <- L.
  eapply twins_equal; eauto. left. exact Bn.
Qed.
Print Assumptions C38_flows.

(** So are the charge state and the net discharge of storages, if storages are to be fixed. *)
Theorem C38_storages : forall cf ord fs idx hpp ap cl sel pm x c i j,
  build_aggregated cf ord fs idx hpp ap cl sel = Ok pm -> feasible pm x -> NoDup (map cp_label (fs_comps fs)) -> clusters_steps fs idx cl ->
  takes_part fs ap sel c -> is_storage c = true -> ag_fix_all ap = true -> twins cl i j ->
  charge x c i == charge x c j /\ x (vlabel (cp_label c) "netto_discharge") i == x (vlabel (cp_label c) "netto_discharge") j.
Proof.
  intros cf ord fs idx hpp ap cl sel pm x c i j B F ND CS TP S A T.
  destruct (storage_runs _ _ _ _ _ _ _ _ _ B c TP S) as [[v [L [Bn R]]] [w [L' [Bn' R']]]]. unfold charge. rewrite <- L, <- L'.
  split; eapply twins_equal; eauto; left; auto.
Qed.
Print Assumptions C38_storages.

(** Without freedom the states are the same at twin steps, whether all variables are aggregated or the binary ones only. *)
Theorem C38_states : forall cf ord fs idx hpp ap cl sel pm x c v i j,
  build_aggregated cf ord fs idx hpp ap cl sel = Ok pm -> feasible pm x -> NoDup (map cp_label (fs_comps fs)) -> clusters_steps fs idx cl ->
  takes_part fs ap sel c -> has_state fs idx c v -> ag_freedom ap <= 0 -> twins cl i j -> x v i == x v j.
Proof.
  intros cf ord fs idx hpp ap cl sel pm x c v i j B F ND CS TP S A T.
  destruct (state_runs _ _ _ _ _ _ _ _ _ B c TP v S) as [w [L [Bn R]]]. rewrite <- L. eapply twins_equal; eauto. right. exact A.
Qed.
Print Assumptions C38_states.

(** With freedom [p], the states may differ at [p] percent of the pairs, rounded to a whole number. *)
Lemma py_round_near : forall q, inject_Z (py_round q) <= q + (1 # 2).
Proof.
  intros q. unfold py_round. pose proof (Qfloor_le q) as L. set (f := Qfloor q) in *.
  assert (S1 : inject_Z (f + 1) == inject_Z f + 1) by (rewrite inject_Z_plus; reflexivity).
  destruct (Qcompare_spec (q - inject_Z f) (1 # 2)) as [E|E|E].
  - destruct (Z.even f); [lra|]. rewrite S1. lra.
  - lra.
  - rewrite S1. lra.
Qed.
Theorem C38_freedom_partial : forall cf ord fs idx hpp ap cl sel pm x c v,
  build_aggregated cf ord fs idx hpp ap cl sel = Ok pm -> feasible pm x -> NoDup (map cp_label (fs_comps fs)) -> clusters_steps fs idx cl ->
  takes_part fs ap sel c -> has_state fs idx c v -> 0 < ag_freedom ap -> (1 < steps fs idx)%nat ->
  exists pairs, equation_indices true cl = Ok pairs
    /\ inject_Z (Z.of_nat (deviations x v pairs)) <= ag_freedom ap / 100 * inject_Z (Z.of_nat (length pairs)) + (1 # 2).
Proof.
  intros cf ord fs idx hpp ap cl sel pm x c v B F ND CS TP S A L1.
  destruct (state_runs _ _ _ _ _ _ _ _ _ B c TP v S) as [w [L [Bn R]]]. destruct (runs_equated _ _ _ _ _ _ _ _ _ B ND c TP w x R F L1 (or_intror Bn)) as [pairs [vs [cs [E1 [E2 [E3 E4]]]]]].
  exists pairs. split; [exact E1|]. rewrite <- L.
  destruct (equate_corrections _ _ _ _ _ _ E2 ltac:(intros [K|K]; [congruence|lra]) E3 E4) as [_ [C2 C3]].
  pose proof (py_round_near (ag_freedom ap / 100 * inject_Z (Z.of_nat (length pairs)))). lra.
Qed.
Print Assumptions C38_freedom_partial.

(** What the documentation promises: at most the given percentage of the pairs. *)
Definition C38_full : Prop := forall cf ord fs idx hpp ap cl sel pm x c v pairs,
  build_aggregated cf ord fs idx hpp ap cl sel = Ok pm -> feasible pm x -> NoDup (map cp_label (fs_comps fs)) -> clusters_steps fs idx cl ->
  takes_part fs ap sel c -> has_state fs idx c v -> 0 < ag_freedom ap -> equation_indices true cl = Ok pairs ->
  inject_Z (Z.of_nat (deviations x v pairs)) <= ag_freedom ap / 100 * inject_Z (Z.of_nat (length pairs)).

(** *** An example: six hours, three periods of two hours in one cluster; a source that can be off, a storage and a sink *)
Definition agg_q : flow := set_onoff (Some (mkOnOff EVNone EVNone None None None None None None None false)) (fl 160 "Q" gas 10).
Definition agg_src : component := source "Src" agg_q.
Definition agg_ch := fl 161 "ch" gas 10. Definition agg_dis := fl 162 "dis" gas 10.
Definition agg_sto : component := storage_ "Sto" agg_ch agg_dis (cyc_s (ICNum 0) None None) false.
Definition agg_use : flow := fl 163 "Q" gas 10.
Definition agg_sink : component := Library.sink "Sink" agg_use.
Definition fs_agg : flow_system := mkFS [0; 1; 2; 3; 4; 5] 6 (NS 1) [costs] [agg_src; agg_sto; agg_sink].
Definition cl_agg : clustering := mkClustering [0%nat] [0; 0; 0]%nat 2%nat 6%nat.
Definition ap_fixed : agg_params := mkAgg true true 0 0.
Definition ap_free : agg_params := mkAgg false false 30 7.
Definition x_same_table : list (string * list Q) :=
[("Sto_charge_state", [(0 # 1); (0 # 1); (1 # 1); (0 # 1); (1 # 1); (0 # 1); (1 # 1)]);
   ("Sto_netto_discharge", [(0 # 1); (-1 # 1); (1 # 1); (-1 # 1); (1 # 1); (-1 # 1)]);
   ("Effects__penalty_penalty_sum", [(0 # 1)]);
   ("costs__invest_invest_sum", [(0 # 1)]);
   ("costs__operation_operation_sum", [(0 # 1)]);
   ("costs__operation_operation_sum_TS", [(0 # 1); (0 # 1); (0 # 1); (0 # 1); (0 # 1); (0 # 1)]);
   ("costs__all_all_sum", [(0 # 1)]);
   ("costs__operation", [(0 # 1)]);
   ("costs__invest", [(0 # 1)]);
   ("Src__Q_flow_rate", [(3 # 1); (4 # 1); (1 # 1); (4 # 1); (1 # 1); (4 # 1)]);
   ("Src__Q_sumFlowHours", [(17 # 1)]);
   ("Src__Q__OnOff_on", [(1 # 1); (1 # 1); (1 # 1); (1 # 1); (1 # 1); (1 # 1)]);
   ("Src__Q__OnOff_totalOnHours", [(6 # 1)]);
   ("Src__Q__OnOff_switchOn", [(1 # 1); (0 # 1); (0 # 1); (0 # 1); (0 # 1); (0 # 1)]);
   ("Src__Q__OnOff_switchOff", [(0 # 1); (0 # 1); (0 # 1); (0 # 1); (0 # 1); (0 # 1)]);
   ("Src__Q__OnOff_nrSwitchOn", [(1 # 1)]);
   ("Sto__ch_flow_rate", [(0 # 1); (1 # 1); (0 # 1); (1 # 1); (0 # 1); (1 # 1)]);
   ("Sto__ch_sumFlowHours", [(3 # 1)]);
   ("Sto__dis_flow_rate", [(0 # 1); (0 # 1); (1 # 1); (0 # 1); (1 # 1); (0 # 1)]);
   ("Sto__dis_sumFlowHours", [(2 # 1)]);
   ("Sink__Q_flow_rate", [(3 # 1); (3 # 1); (2 # 1); (3 # 1); (2 # 1); (3 # 1)]);
   ("Sink__Q_sumFlowHours", [(16 # 1)])].
Definition x_loose_table : list (string * list Q) :=
[("Sto_charge_state", [(0 # 1); (0 # 1); (1 # 1); (1 # 1); (1 # 1); (1 # 1); (1 # 1)]);
   ("Sto_netto_discharge", [(0 # 1); (-1 # 1); (0 # 1); (0 # 1); (0 # 1); (0 # 1)]);
   ("Aggregation__Model_Korr1_Src__Q__OnOff_on", [(0 # 1); (0 # 1)]);
   ("Aggregation__Model_Korr0_Src__Q__OnOff_on", [(1 # 1); (0 # 1)]);
   ("Aggregation__Model_Korr1_Src__Q__OnOff_switchOn", [(0 # 1); (0 # 1)]);
   ("Aggregation__Model_Korr0_Src__Q__OnOff_switchOn", [(0 # 1); (0 # 1)]);
   ("Aggregation__Model_Korr1_Src__Q__OnOff_switchOff", [(0 # 1); (0 # 1)]);
   ("Aggregation__Model_Korr0_Src__Q__OnOff_switchOff", [(0 # 1); (0 # 1)]);
   ("Effects__penalty_penalty_sum", [(7 # 1)]);
   ("costs__invest_invest_sum", [(0 # 1)]);
   ("costs__operation_operation_sum", [(0 # 1)]);
   ("costs__operation_operation_sum_TS", [(0 # 1); (0 # 1); (0 # 1); (0 # 1); (0 # 1); (0 # 1)]);
   ("costs__all_all_sum", [(0 # 1)]);
   ("Effects__Aggregation_penalty__Aggregation__Model_Korr1_Src__Q__OnOff_on", [(0 # 1)]);
   ("Effects__Aggregation_penalty__Aggregation__Model_Korr0_Src__Q__OnOff_on", [(7 # 1)]);
   ("Effects__Aggregation_penalty__Aggregation__Model_Korr1_Src__Q__OnOff_switchOn", [(0 # 1)]);
   ("Effects__Aggregation_penalty__Aggregation__Model_Korr0_Src__Q__OnOff_switchOn", [(0 # 1)]);
   ("Effects__Aggregation_penalty__Aggregation__Model_Korr1_Src__Q__OnOff_switchOff", [(0 # 1)]);
   ("Effects__Aggregation_penalty__Aggregation__Model_Korr0_Src__Q__OnOff_switchOff", [(0 # 1)]);
   ("costs__operation", [(0 # 1)]);
   ("costs__invest", [(0 # 1)]);
   ("Src__Q_flow_rate", [(1 # 1); (4 # 1); (0 # 1); (0 # 1); (1 # 1); (2 # 1)]);
   ("Src__Q_sumFlowHours", [(8 # 1)]);
   ("Src__Q__OnOff_on", [(1 # 1); (1 # 1); (0 # 1); (0 # 1); (1 # 1); (1 # 1)]);
   ("Src__Q__OnOff_totalOnHours", [(4 # 1)]);
   ("Src__Q__OnOff_switchOn", [(1 # 1); (0 # 1); (0 # 1); (0 # 1); (1 # 1); (0 # 1)]);
   ("Src__Q__OnOff_switchOff", [(0 # 1); (0 # 1); (1 # 1); (0 # 1); (0 # 1); (0 # 1)]);
   ("Src__Q__OnOff_nrSwitchOn", [(2 # 1)]);
   ("Sto__ch_flow_rate", [(0 # 1); (1 # 1); (0 # 1); (0 # 1); (0 # 1); (0 # 1)]);
   ("Sto__ch_sumFlowHours", [(1 # 1)]);
   ("Sto__dis_flow_rate", [(0 # 1); (0 # 1); (0 # 1); (0 # 1); (0 # 1); (0 # 1)]);
   ("Sto__dis_sumFlowHours", [(0 # 1)]);
   ("Sink__Q_flow_rate", [(1 # 1); (3 # 1); (0 # 1); (0 # 1); (1 # 1); (2 # 1)]);
   ("Sink__Q_sumFlowHours", [(7 # 1)])].
Definition x_same : asg := of_table x_same_table.
Example x_same_feasible : exists pm, build_aggregated default_config id_ord fs_agg None 2 ap_fixed cl_agg None = Ok pm /\ feasible pm x_same.
Proof. apply run_ok. vm_compute. reflexivity. Qed.
Definition x_loose : asg := of_table x_loose_table.
Example x_loose_feasible : exists pm, build_aggregated default_config id_ord fs_agg None 2 ap_free cl_agg None = Ok pm /\ feasible pm x_loose.
Proof. apply run_ok. vm_compute. reflexivity. Qed.
Lemma fs_agg_labels : NoDup (map cp_label (fs_comps fs_agg)).
Proof. apply nodup_str_NoDup. reflexivity. Qed.
Lemma cl_agg_steps : clusters_steps fs_agg None cl_agg.
Proof. constructor; [repeat constructor; simpl; tauto|simpl; lia|reflexivity]. Qed.
Lemma agg_twins : twins cl_agg 3 5.
Proof. unfold twins, cluster_of. cbn. repeat split; try lia; discriminate. Qed.

Example C38_applies : takes_part fs_agg ap_fixed None agg_src /\ takes_part fs_agg ap_fixed None agg_sto /\ has_state fs_agg None agg_src (flow_state agg_src agg_q)
  /\ rate_of x_same agg_src agg_q 3 == rate_of x_same agg_src agg_q 5 /\ ~ rate_of x_same agg_src agg_q 2 == rate_of x_same agg_src agg_q 3
  /\ charge x_same agg_sto 3 == charge x_same agg_sto 5 /\ ~ charge x_same agg_sto 4 == charge x_same agg_sto 5.
Proof.
  assert (T1 : takes_part fs_agg ap_fixed None agg_src) by (repeat split; simpl; auto).
  assert (T2 : takes_part fs_agg ap_fixed None agg_sto) by (repeat split; simpl; auto).
  destruct x_same_feasible as [pm [B F]]. split; [exact T1|]. split; [exact T2|].
  split; [left; exists agg_q; repeat split; [simpl; auto|discriminate]|].
  split; [exact (C38_flows _ _ _ _ _ _ _ _ _ _ _ _ _ _ B F fs_agg_labels cl_agg_steps T1 (or_introl eq_refl) eq_refl agg_twins)|].
  split; [vm_compute; discriminate|].
  split; [exact (proj1 (C38_storages _ _ _ _ _ _ _ _ _ _ _ _ _ B F fs_agg_labels cl_agg_steps T2 eq_refl eq_refl agg_twins))|vm_compute; discriminate].
Qed.
Example C38_states_applies : x_same (flow_state agg_src agg_q) 3%nat == x_same (flow_state agg_src agg_q) 5%nat.
Proof.
  destruct x_same_feasible as [pm [B F]]. eapply (C38_states _ _ _ _ _ _ _ _ _ _ agg_src _ _ _ B F fs_agg_labels cl_agg_steps); [repeat split; simpl; auto| | |exact agg_twins].
  - left. exists agg_q. repeat split; [simpl; auto|discriminate].
  - vm_compute. discriminate.
Qed.

(** 30 % of two pairs are 0.6 pairs, yet the source is on at step 1 and off at step 3. *)
Theorem C38_refuted : ~ C38_full.
Proof.
  intros C. destruct x_loose_feasible as [pm [B F]].
  specialize (C _ _ _ _ _ _ _ _ _ _ agg_src (flow_state agg_src agg_q) [(1, 3); (1, 5)]%nat B F fs_agg_labels cl_agg_steps).
  specialize (C ltac:(repeat split; simpl; auto) ltac:(left; exists agg_q; repeat split; [simpl; auto|discriminate]) eq_refl eq_refl).
  vm_compute in C. apply C. reflexivity.
Qed.
Print Assumptions C38_refuted.
Example C38_freedom_applies : exists pairs, equation_indices true cl_agg = Ok pairs
  /\ inject_Z (Z.of_nat (deviations x_loose (flow_state agg_src agg_q) pairs)) <= 30 / 100 * inject_Z (Z.of_nat (length pairs)) + (1 # 2).
Proof.
  destruct x_loose_feasible as [pm [B F]].
  refine (C38_freedom_partial _ _ _ _ _ _ _ _ _ _ agg_src _ B F fs_agg_labels cl_agg_steps _ _ eq_refl _); [repeat split; simpl; auto| |vm_compute; lia].
  left; exists agg_q; repeat split; [simpl; auto|discriminate].
Qed.

(** ** C55 *)

(** The correction variables and what they cost. *)
Definition freed (ap : agg_params) (v : variable) : bool := (v_bin v && negb (Qle_bool (ag_freedom ap) 0))%bool.
Lemma korr_parts : forall ap pairs v vs cs, equate_indices ap pairs v = Ok (vs, cs) ->
  if freed ap v
  then exists k1 k0, vs = [k1; k0] /\ v_label k1 = korr "Korr1_" (v_label v) /\ v_label k0 = korr "Korr0_" (v_label v) /\ v_len k1 = length pairs /\ v_len k0 = length pairs
  else vs = [].
Proof.
  intros ap pairs v vs cs H. unfold equate_indices in H. cbv zeta in H. unfold freed. destruct (_ && _)%bool.
  - bnd H k1 E1. bnd H k0 E2. bnd H c1 E3. bnd H c2 E4. bnd H c3 E5. apply Ok_inj in H. apply pair_equal_spec in H. destruct H as [<- _]. exists k1, k0.
    apply create_variable_spec in E1. apply create_variable_spec in E2. subst k1 k0. repeat split.
  - bnd H c1 E1. apply Ok_inj in H. apply pair_equal_spec in H. destruct H as [<- _]. reflexivity.
Qed.

Lemma korr_worth : forall ap pairs l parts x, mapM (equate_indices ap pairs) l = Ok parts ->
  Qsum (map (worth x 0) (corr_shares ap (flat_map fst parts)))
  == ag_penalty ap * Qsum (map (fun v => corrections x v (length pairs)) (map v_label (filter (freed ap) l))).
Proof.
  intros ap pairs l. induction l as [|v l IH]; intros parts x H; cbn [mapM] in H.
  - apply Ok_inj in H. subst parts. cbn. ring.
  - bnd H p E1. bnd H r E2. apply Ok_inj in H. subst parts. destruct p as [vs cs]. apply korr_parts in E1. cbn [flat_map fst]. unfold corr_shares in *.
    rewrite !map_app, Qsum_app, (IH _ x E2). cbn [filter]. destruct (freed ap v).
    + destruct E1 as [k1 [k0 [-> [L1 [L0 [N1 N0]]]]]]. cbn [map]. rewrite !Qsum_cons. change (Qsum []) with 0. unfold worth at 1 2. cbn [sh_var sh_as_sum sh_factor].
      rewrite L1, L0, N1, N0. 
      assert (C : corrections x (v_label v) (length pairs) == sumn (length pairs) (x (korr "Korr1_" (v_label v))) + sumn (length pairs) (x (korr "Korr0_" (v_label v))))
        by apply (sumn_plus (length pairs) (x (korr "Korr1_" (v_label v))) (x (korr "Korr0_" (v_label v)))).
      rewrite C.
      assert (X : forall f, sumn (length pairs) (fun j => at_ (NS (ag_penalty ap)) j * f j) == ag_penalty ap * sumn (length pairs) f).
      { intros f. unfold sumn. induction (seq 0 (length pairs)) as [|a s IHs]; [cbn; ring|]. cbn [map]. rewrite !Qsum_cons, IHs, at_NS. ring. }
      rewrite (X (x (korr "Korr1_" (v_label v)))), (X (x (korr "Korr0_" (v_label v)))). ring.
    + subst vs. cbn [map]. change (Qsum []) with 0. ring.
Qed.

Lemma pen_worth : forall ap cl sel comps cos am pen, aggregation_model ap cl sel comps cos = Ok (am, pen) ->
  exists pairs vss, equation_indices true cl = Ok pairs
    /\ (exists ch, chosen_components sel comps cos = Ok ch /\ mapM (relevant_variables ap) ch = Ok vss)
    /\ (forall x, Qsum (map (worth x 0) pen)
          == ag_penalty ap * Qsum (map (fun v => corrections x v (length pairs)) (map v_label (filter (freed ap) (List.concat vss)))))
    /\ (forall x v, em_sat x am -> In v (filter (freed ap) (List.concat vss)) ->
          inject_Z (Z.of_nat (deviations x (v_label v) pairs)) <= corrections x (v_label v) (length pairs)).
Proof.
  intros ap cl sel comps cos am pen H. unfold aggregation_model in H. bnd H ch E1. bnd H pairs E2. bnd H vss E3. bnd H parts E4. bnd H m E5.
  cbv zeta in H. apply Ok_inj in H. apply pair_equal_spec in H. destruct H as [<- <-]. exists pairs, vss. split; [exact E2|]. split; [eauto|]. split.
  - intros x. destruct (Qle_bool (ag_freedom ap) 0) eqn:Fr; cbn [negb andb].
    + rewrite (filter_none (freed ap)) by (intros v _; unfold freed; rewrite Fr; apply andb_false_r). cbn. ring.
    + destruct (Qeq_bool (ag_penalty ap) 0) eqn:Pe; cbn [negb].
      * apply Qeq_bool_iff in Pe. rewrite Pe. cbn. ring.
      * apply (korr_worth _ _ _ _ x E4).
  - intros x v S Hv. apply filter_In in Hv. destruct Hv as [Hv Fr]. destruct (mapM_In _ _ _ _ E4 Hv) as [[vs cs] [E Hp]].
    apply mk_em_spec in E5. destruct E5 as [-> _].
    assert (SV : Forall (var_sat x) vs /\ Forall (con_sat x) cs).
    { pose proof (em_sat_vars _ _ _ _ _ _ S) as V. pose proof (em_sat_cons _ _ _ _ _ _ S) as C. rewrite Forall_forall in V, C.
      split; apply Forall_forall; intros w Hw; [apply V|apply C]; apply in_flat_map; exists (vs, cs); auto. }
    destruct SV as [SV SC]. unfold freed in Fr. apply andb_true_iff in Fr. destruct Fr as [Bn Fr]. apply negb_true_iff in Fr.
    refine (proj1 (proj2 (equate_corrections _ _ _ _ _ _ E _ SV SC))). intros [K|K]; [congruence|]. apply Qle_bool_iff in K. congruence.
Qed.

Lemma relevant_In : forall ap sel comps cos ch vss c o v, chosen_components sel comps cos = Ok ch -> mapM (relevant_variables ap) ch = Ok vss ->
  NoDup (map cp_label comps) -> In (c, o) (combine comps cos) -> picked sel c -> (is_storage c = false \/ ag_fix_storage ap = true) ->
  In v (decl (co_tree o)) -> v_ts v = true -> v_bin v = true -> In v (List.concat vss).
Proof.
  intros ap sel comps cos ch vss c o v E1 E3 ND Hi P S Hv T Bn. destruct (chosen_In _ _ _ _ _ _ E1 ND Hi P) as [o' [Hc ->]].
  destruct (mapM_In _ _ _ _ E3 Hc) as [vs [F Hvs]]. unfold relevant_variables in F. cbn [fst snd] in F.
  assert (NS : (is_storage c && negb (ag_fix_storage ap))%bool = false) by (destruct S as [-> | ->]; [reflexivity|apply andb_false_r]).
  rewrite NS in F. bnd F al Fa. apply Ok_inj in F. apply in_concat. exists vs. split; auto. subst vs. apply filter_In.
  split; [eapply all_variables_complete; eauto|]. rewrite T, Bn, orb_true_r. reflexivity.
Qed.

(** Every solution of the aggregated program is one of the full program, with the same values but for the total of the penalties; the objective is
    higher by the price of the corrections. There are corrections for every state if there is freedom, and none of them comes for free. *)
Theorem C55_restricts : forall cf ord fs idx hpp ap cl sel pm',
  build_aggregated cf ord fs idx hpp ap cl sel = Ok pm' ->
  exists pm pairs (vs : list string), build cf ord fs idx = Ok pm /\ equation_indices true cl = Ok pairs
    /\ (ag_freedom ap <= 0 -> vs = [])
    /\ (forall c v, NoDup (map cp_label (fs_comps fs)) -> takes_part fs ap sel c -> has_state fs idx c v -> 0 < ag_freedom ap -> (1 < steps fs idx)%nat -> In v vs)
    /\ forall x, feasible pm' x ->
         let price := ag_penalty ap * Qsum (map (fun v => corrections x v (length pairs)) vs) in
         (forall v, In v vs -> inject_Z (Z.of_nat (deviations x v pairs)) <= corrections x v (length pairs))
         /\ exists y, feasible pm y /\ same_but_penalty x y /\ penalty_sum x == penalty_sum y + price
              /\ objective_value pm' x == objective_value pm y + price.
Proof.
  intros cf ord fs idx hpp ap cl sel pm' B. destruct (agg_lift _ _ _ _ _ _ _ _ _ B) as [pm [cx [cos [am [pen [em [bts [obj G]]]]]]]].
  destruct (pen_worth _ _ _ _ _ _ _ (gp_agg _ _ _ _ _ _ _ _ _ _ _ _ _ _ _ _ G)) as [pairs [vss [E1 [[ch [E2 E3]] [W D]]]]].
  exists pm, pairs, (map v_label (filter (freed ap) (List.concat vss))). split; [exact (gp_build _ _ _ _ _ _ _ _ _ _ _ _ _ _ _ _ G)|]. split; [exact E1|]. split.
  { intros K. apply Qle_bool_iff in K. rewrite (filter_none (freed ap)); [reflexivity|]. intros v _. unfold freed. rewrite K. apply andb_false_r. }
  split.
  { intros c v ND TP S Fr L. destruct (state_runs _ _ _ _ _ _ _ _ _ B c TP v S) as [w [<- [Bn [cx2 [em2 [cos2 [bts2 [obj2 [o [SY [Ho [Hw T]]]]]]]]]]]].
    rewrite (gp_system _ _ _ _ _ _ _ _ _ _ _ _ _ _ _ _ G) in SY. injection SY as <- <- <- <- <-. destruct TP as [_ [Pk St]].
    apply in_map. apply filter_In. split; [eapply relevant_In; eauto|]. unfold freed. rewrite Bn. cbn [andb]. apply negb_true_iff.
    destruct (Qle_bool (ag_freedom ap) 0) eqn:K; [|reflexivity]. apply Qle_bool_iff in K. lra. }
  intros x F price. split.
  { intros v Hv. apply in_map_iff in Hv. destruct Hv as [w [<- Hw]]. apply D; auto. exact (gp_am _ _ _ _ _ _ _ _ _ _ _ _ _ _ _ _ G x F). }
  set (y := less_penalty (Qsum (map (worth x 0) pen)) x).
  assert (P1 : penalty_sum x == penalty_sum y + price).
  { unfold penalty_sum, y. fold pen_label. rewrite less_pen, (W x). subst price. ring. }
  exists y. split; [exact (gp_lift _ _ _ _ _ _ _ _ _ _ _ _ _ _ _ _ G x F)|]. split; [intros l i Hl; unfold y; rewrite less_other; auto; reflexivity|].
  split; [exact P1|].
  unfold objective_value. rewrite (gp_obj _ _ _ _ _ _ _ _ _ _ _ _ _ _ _ _ G). fold (objective_value pm x) (objective_value pm y).
  destruct (C21_objective _ _ _ _ _ x (gp_build _ _ _ _ _ _ _ _ _ _ _ _ _ _ _ _ G)) as [e [Ee Ox]].
  destruct (C21_objective _ _ _ _ _ y (gp_build _ _ _ _ _ _ _ _ _ _ _ _ _ _ _ _ G)) as [e' [Ee' Oy]]. rewrite Ee in Ee'. injection Ee' as <-.
  rewrite Ox, Oy, P1. unfold op_sum, inv_sum, y. rewrite !less_other; [ring| |]; [apply inv_label_other|apply op_label_other].
Qed.
Print Assumptions C55_restricts.

(** So whatever bounds the objective of the full program from below bounds that of the aggregated one. *)
Theorem C55_bound : forall cf ord fs idx hpp ap cl sel pm' b,
  build_aggregated cf ord fs idx hpp ap cl sel = Ok pm' -> 0 <= ag_penalty ap ->
  (forall pm y, build cf ord fs idx = Ok pm -> feasible pm y -> b <= objective_value pm y) ->
  forall x, feasible pm' x -> b <= objective_value pm' x.
Proof.
  intros cf ord fs idx hpp ap cl sel pm' b B P L x F. destruct (C55_restricts _ _ _ _ _ _ _ _ _ B) as [pm [pairs [vs [B0 [_ [_ [_ R]]]]]]].
  destruct (R x F) as [C [y [Fy [_ [_ O]]]]]. rewrite O. specialize (L pm y B0 Fy).
  assert (Z : 0 <= Qsum (map (fun v => corrections x v (length pairs)) vs)).
  { clear - C. induction vs as [|v vs IH]; [apply Qle_refl|]. cbn [map]. rewrite Qsum_cons. specialize (IH (fun w Hw => C w (or_intror Hw))).
    specialize (C v (or_introl eq_refl)). assert (0 <= inject_Z (Z.of_nat (deviations x v pairs))) by (change 0 with (inject_Z 0); rewrite <- Zle_Qle; lia). lra. }
  pose proof (Qmult_le_0_compat _ _ P Z). lra.
Qed.
Print Assumptions C55_bound.

(** And whatever holds for the full program and does not mention the total of the penalties holds for the aggregated one; the balance of the buses,
    for instance. *)
Theorem C55_transfer : forall cf ord fs idx hpp ap cl sel pm' (L : asg -> Prop),
  build_aggregated cf ord fs idx hpp ap cl sel = Ok pm' ->
  (forall x y, same_but_penalty x y -> L y -> L x) ->
  (forall pm y, build cf ord fs idx = Ok pm -> feasible pm y -> L y) ->
  forall x, feasible pm' x -> L x.
Proof.
  intros cf ord fs idx hpp ap cl sel pm' L B I H x F. destruct (C55_restricts _ _ _ _ _ _ _ _ _ B) as [pm [pairs [vs [B0 [_ [_ [_ R]]]]]]].
  destruct (R x F) as [_ [y [Fy [S _]]]]. eapply I; eauto.
Qed.
Print Assumptions C55_transfer.

Lemma rate_label_other : forall e, vlabel e "flow_rate" <> pen_label.
Proof. intros e H. ends e H. Qed.
Lemma in_label_other : forall e, vlabel e "excess_input" <> pen_label.
Proof. intros e H. ends e H. Qed.
Lemma out_label_other : forall e, vlabel e "excess_output" <> pen_label.
Proof. intros e H. ends e H. Qed.
Theorem C55_bus_balance : forall cf ord fs idx hpp ap cl sel pm' x b t,
  build_aggregated cf ord fs idx hpp ap cl sel = Ok pm' -> feasible pm' x -> (forall l, Permutation (ord l) l) ->
  distinct_buses fs -> used_bus fs b -> (t < steps fs idx)%nat ->
  delivered fs x b t + excess x b "excess_input" t == taken fs x b t + excess x b "excess_output" t
  /\ 0 <= excess x b "excess_input" t /\ 0 <= excess x b "excess_output" t.
Proof.
  intros cf ord fs idx hpp ap cl sel pm' x b t B F PO DB UB Ht.
  refine (C55_transfer cf ord fs idx hpp ap cl sel pm' (fun x => delivered fs x b t + excess x b "excess_input" t == taken fs x b t + excess x b "excess_output" t
    /\ 0 <= excess x b "excess_input" t /\ 0 <= excess x b "excess_output" t) B _ _ x F).
  - clear x F. intros x y S [H1 [H2 H3]].
    assert (D : delivered fs x b t == delivered fs y b t).
    { unfold delivered. apply Qsum_map_eq. intros c _. apply Qsum_map_eq. intros f _. apply S. apply rate_label_other. }
    assert (T : taken fs x b t == taken fs y b t).
    { unfold taken. apply Qsum_map_eq. intros c _. apply Qsum_map_eq. intros f _. apply S. apply rate_label_other. }
    assert (X1 : excess x b "excess_input" t == excess y b "excess_input" t).
    { unfold excess. destruct (b_penalty b); [apply S; apply in_label_other|reflexivity]. }
    assert (X2 : excess x b "excess_output" t == excess y b "excess_output" t).
    { unfold excess. destruct (b_penalty b); [apply S; apply out_label_other|reflexivity]. }
    rewrite D, T, X1, X2. auto.
  - intros pm y B0 Fy. eapply C01_bus_balance; eauto.
Qed.
Print Assumptions C55_bus_balance.

(** One correction at a price of 7. *)
Example C55_applies : exists pm' pm y, build_aggregated default_config id_ord fs_agg None 2 ap_free cl_agg None = Ok pm' /\ feasible pm' x_loose
  /\ build default_config id_ord fs_agg None = Ok pm /\ feasible pm y /\ objective_value pm' x_loose == 7 /\ objective_value pm' x_loose == objective_value pm y + 7.
Proof.
  destruct x_loose_feasible as [pm' [B F]]. destruct (C55_restricts _ _ _ _ _ _ _ _ _ B) as [pm [pairs [vs [B0 [_ [_ [_ R]]]]]]].
  destruct (R x_loose F) as [_ [y [Fy [S [P O]]]]]. exists pm', pm, y. split; [exact B|]. split; [exact F|]. split; [exact B0|]. split; [exact Fy|].
  assert (O7 : objective_value pm' x_loose == 7).
  { assert (X : match build_aggregated default_config id_ord fs_agg None 2 ap_free cl_agg None with Ok p => Qeq_bool (objective_value p x_loose) 7 | Err _ => false end = true)
      by (vm_compute; reflexivity). rewrite B in X. apply Qeq_bool_iff. exact X. }
  split; [exact O7|].
  assert (Y : feasible pm y -> objective_value pm y == 0).
  { intros _. destruct (C21_objective _ _ _ _ _ y B0) as [e [Ee Oy]]. injection Ee as <-. rewrite Oy.
    assert (Z : penalty_sum y == 0).
    { rewrite (C21_penalty _ _ _ _ _ y [gas] B0 Fy).
      - vm_compute. reflexivity.
      - exact id_ord_perm.
      - buses.
      - repeat constructor; simpl; tauto.
      - intros b. rewrite used_bus_list. simpl. tauto. }
    assert (O1 : op_sum y costs == 0) by (unfold op_sum; rewrite <- (S _ 0%nat (op_label_other "costs")); vm_compute; reflexivity).
    assert (O2 : inv_sum y costs == 0) by (unfold inv_sum; rewrite <- (S _ 0%nat (inv_label_other "costs")); vm_compute; reflexivity).
    rewrite Z, O1, O2. reflexivity. }
  rewrite O7, (Y Fy). reflexivity.
Qed.

(** The full program costs nothing, so the aggregated one costs at least nothing. *)
Lemma fs_agg_free : forall pm y, build default_config id_ord fs_agg None = Ok pm -> feasible pm y -> objective_value pm y == 0.
Proof.
  intros pm y B F. destruct (C21_objective _ _ _ _ _ y B) as [e [Ee O]]. injection Ee as <-. rewrite O.
  assert (Z : penalty_sum y == 0).
  { rewrite (C21_penalty _ _ _ _ _ y [gas] B F); [vm_compute; reflexivity|exact id_ord_perm|buses|repeat constructor; simpl; tauto|].
    intros b. rewrite used_bus_list. simpl. tauto. }
  assert (O1 : op_sum y costs == 0).
  { destruct (C19_operation _ _ _ _ _ _ costs B F (or_introl eq_refl)) as [H1 ->]. unfold sumn.
    assert (X : forall t, (t < 6)%nat -> op_at y costs t == 0).
    { intros t Ht. rewrite (H1 t Ht). do 6 (destruct t as [|t]; [vm_compute; reflexivity|]). lia. }
    change (seq 0 (steps fs_agg None)) with [0; 1; 2; 3; 4; 5]%nat. cbn [map]. rewrite !Qsum_cons. change (Qsum []) with 0. rewrite !X by lia. reflexivity. }
  assert (O2 : inv_sum y costs == 0).
  { rewrite (C20_investment _ _ _ _ _ _ costs B F (or_introl eq_refl)); [vm_compute; reflexivity|repeat constructor; simpl; tauto| |].
    - intros e k v He Hk. destruct He as [<-|[]]. destruct Hk.
    - intros name iv H. vm_compute in H. contradiction. }
  rewrite Z, O1, O2. reflexivity.
Qed.
Example C55_bound_applies : forall pm', build_aggregated default_config id_ord fs_agg None 2 ap_free cl_agg None = Ok pm' -> forall x, feasible pm' x -> 0 <= objective_value pm' x.
Proof.
  intros pm' B. apply (C55_bound _ _ _ _ _ _ _ _ _ 0 B); [vm_compute; discriminate|]. intros pm y B0 F. rewrite (fs_agg_free _ _ B0 F). apply Qle_refl.
Qed.
