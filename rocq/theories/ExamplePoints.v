(** Feasible points of the example systems (found by tools/feasible_point.py), checked by computation. *)
From Verif Require Import Base BaseFacts MathModel Spec Structure Params Features Elements System Example.

Definition of_table (tab : list (string * list Q)) : asg := fun l i =>
  match find (fun e => String.eqb (fst e) l) tab with Some (_, v) => nth i v 0 | None => 0 end.

Definition entry_okb (e : pentry) (q : Q) : bool :=
  match pe_fix e with
  | Some f => Qeq_bool q f
  | None =>
      ((negb (pe_bin e) || Qeq_bool q 0 || Qeq_bool q 1)
       && match pe_lb e with Some l => Qle_bool l q | None => true end
       && match pe_ub e with Some u => Qle_bool q u | None => true end)%bool
  end.
Fixpoint entries_okb (x : asg) (l : string) (i : nat) (es : list pentry) : bool :=
  match es with [] => true | e :: r => (entry_okb e (x l i) && entries_okb x l (S i) r)%bool end.
Definition row_okb (x : asg) (r : row) : bool :=
  if r_eq r then Qeq_bool (lin x (r_terms r)) (r_rhs r) else Qle_bool (lin x (r_terms r)) (r_rhs r).
Definition feasibleb (pm : pmodel) (x : asg) : bool :=
  (forallb (fun p => entries_okb x (pv_label p) 0 (pv_entries p)) (pm_vars pm) && forallb (row_okb x) (pm_rows pm))%bool.

Lemma entry_okb_ok : forall e q, entry_okb e q = true -> entry_ok e q.
Proof.
  intros e q H. unfold entry_okb, entry_ok in *. destruct (pe_fix e); [apply Qeq_bool_iff; auto|].
  apply andb_prop in H. destruct H as [H H3]. apply andb_prop in H. destruct H as [H1 H2]. split; [|split].
  - intros B. rewrite B in H1. simpl in H1. apply orb_prop in H1. rewrite !Qeq_bool_iff in H1. auto.
  - intros l E. rewrite E in H2. apply Qle_bool_iff; auto.
  - intros u E. rewrite E in H3. apply Qle_bool_iff; auto.
Qed.
Lemma entries_okb_ok : forall x l es k, entries_okb x l k es = true ->
  forall i e, nth_error es i = Some e -> entry_ok e (x l (k + i)%nat).
Proof.
  induction es as [|a es IH]; intros k H i e E; [destruct i; discriminate|].
  simpl in H. apply andb_prop in H. destruct H as [H1 H2]. destruct i as [|i]; simpl in E.
  - inversion E; subst. rewrite Nat.add_0_r. apply entry_okb_ok; auto.
  - replace (k + S i)%nat with (S k + i)%nat by lia. apply IH; auto.
Qed.
Lemma feasibleb_ok : forall pm x, feasibleb pm x = true -> feasible pm x.
Proof.
  intros pm x H. unfold feasibleb in H. apply andb_prop in H. destruct H as [H1 H2]. rewrite forallb_forall in H1, H2.
  split; apply Forall_forall.
  - intros p Hp i e E. apply (entries_okb_ok x (pv_label p) (pv_entries p) 0 (H1 p Hp) i e E).
  - intros r Hr. specialize (H2 r Hr). unfold row_okb, row_ok in *. destruct (r_eq r); [apply Qeq_bool_iff|apply Qle_bool_iff]; auto.
Qed.

(** A built program together with a feasible point. *)
Definition run (r : res pmodel) (x : asg) : bool := match r with Ok pm => feasibleb pm x | Err _ => false end.
Lemma run_ok : forall r x, run r x = true -> exists pm, r = Ok pm /\ feasible pm x.
Proof. intros [pm|] x H; [|discriminate]. exists pm. split; auto. apply feasibleb_ok; auto. Qed.

Definition x0_table : list (string * list Q) :=
[("Storage_charge_state", [(0 # 1); (45 # 1); (891 # 20); (83209 # 2000)]);
   ("Storage_netto_discharge", [(-50 # 1); (0 # 1); (2 # 1)]);
   ("Heat_excess_input", [(58 # 1); (10 # 1); (18 # 1)]);
   ("Heat_excess_output", [(0 # 1); (0 # 1); (0 # 1)]);
   ("Effects__penalty_penalty_sum", [(8600 # 1)]);
   ("costs__invest_invest_sum", [(152 # 1)]);
   ("costs__operation_operation_sum", [(446 # 5)]);
   ("costs__operation_operation_sum_TS", [(24 # 5); (422 # 5); (0 # 1)]);
   ("costs__all_all_sum", [(1206 # 5)]);
   ("CO2__invest_invest_sum", [(20 # 1)]);
   ("CO2__operation_operation_sum", [(26 # 1)]);
   ("CO2__operation_operation_sum_TS", [(4 # 1); (22 # 1); (0 # 1)]);
   ("CO2__all_all_sum", [(46 # 1)]);
   ("Effects__Heat__excess_input", [(8600 # 1)]);
   ("Effects__Heat__excess_output", [(0 # 1)]);
   ("costs__CO2_invest", [(2 # 1)]);
   ("costs__Boiler__Q_th__fix_effects", [(10 # 1)]);
   ("costs__Boiler__Q_th__divest_effects", [(7 # 1)]);
   ("costs__Boiler__Q_th__divest_cancellation_effects", [(-7 # 1)]);
   ("costs__Boiler__Q_th__specific_effects", [(40 # 1)]);
   ("costs__Storage__specific_effects", [(100 # 1)]);
   ("costs__CO2_operation", [(4 # 5); (22 # 5); (0 # 1)]);
   ("costs__Grid__Q__effects_per_flow_hour", [(4 # 1); (80 # 1); (0 # 1)]);
   ("costs__Boiler__Q_th__switch_on_effects", [(0 # 1); (0 # 1); (0 # 1)]);
   ("costs__operation", [(446 # 5)]);
   ("costs__invest", [(152 # 1)]);
   ("CO2__Boiler__Q_th__specific_effects", [(20 # 1)]);
   ("CO2__Grid__Q__effects_per_flow_hour", [(2 # 1); (20 # 1); (0 # 1)]);
   ("CO2__Boiler__Q_th__running_hour_effects", [(2 # 1); (2 # 1); (0 # 1)]);
   ("CO2__operation", [(26 # 1)]);
   ("CO2__invest", [(20 # 1)]);
   ("Grid__Q_flow_rate", [(4 # 1); (40 # 1); (0 # 1)]);
   ("Grid__Q_sumFlowHours", [(44 # 1)]);
   ("Boiler__Q_fu_flow_rate", [(4 # 1); (40 # 1); (0 # 1)]);
   ("Boiler__Q_fu_sumFlowHours", [(44 # 1)]);
   ("Boiler__Q_th_flow_rate", [(2 # 1); (20 # 1); (0 # 1)]);
   ("Boiler__Q_th_sumFlowHours", [(22 # 1)]);
   ("Boiler__Q_th__OnOff_on", [(1 # 1); (1 # 1); (0 # 1)]);
   ("Boiler__Q_th__OnOff_totalOnHours", [(2 # 1)]);
   ("Boiler__Q_th__OnOff_off", [(0 # 1); (0 # 1); (1 # 1)]);
   ("Boiler__Q_th__OnOff_consecutiveOnHours", [(2 # 1); (3 # 1); (0 # 1)]);
   ("Boiler__Q_th__OnOff_consecutiveOffHours", [(0 # 1); (0 # 1); (1 # 1)]);
   ("Boiler__Q_th__OnOff_switchOn", [(0 # 1); (0 # 1); (0 # 1)]);
   ("Boiler__Q_th__OnOff_switchOff", [(0 # 1); (0 # 1); (1 # 1)]);
   ("Boiler__Q_th__OnOff_nrSwitchOn", [(0 # 1)]);
   ("Boiler__Q_th__Investment_size", [(20 # 1)]);
   ("Boiler__Q_th__Investment_isInvested", [(1 # 1)]);
   ("Storage__ch_flow_rate", [(50 # 1); (0 # 1); (0 # 1)]);
   ("Storage__ch_sumFlowHours", [(50 # 1)]);
   ("Storage__dis_flow_rate", [(0 # 1); (0 # 1); (2 # 1)]);
   ("Storage__dis_sumFlowHours", [(2 # 1)]);
   ("Storage__Investment_size", [(100 # 1)]);
   ("Storage__Investment_isInvested", [(1 # 1)]);
   ("Storage__ch__OnOff_on", [(1 # 1); (0 # 1); (0 # 1)]);
   ("Storage__ch__OnOff_totalOnHours", [(1 # 1)]);
   ("Storage__ch__OnOff_switchOn", [(1 # 1); (0 # 1); (0 # 1)]);
   ("Storage__ch__OnOff_switchOff", [(0 # 1); (1 # 1); (0 # 1)]);
   ("Storage__ch__OnOff_nrSwitchOn", [(1 # 1)]);
   ("Storage__dis__OnOff_on", [(0 # 1); (0 # 1); (1 # 1)]);
   ("Storage__dis__OnOff_totalOnHours", [(1 # 1)]);
   ("Storage__dis__OnOff_switchOn", [(0 # 1); (0 # 1); (1 # 1)]);
   ("Storage__dis__OnOff_switchOff", [(0 # 1); (0 # 1); (0 # 1)]);
   ("Storage__dis__OnOff_nrSwitchOn", [(1 # 1)]);
   ("Demand__Q_flow_rate", [(10 # 1); (30 # 1); (20 # 1)]);
   ("Demand__Q_sumFlowHours", [(60 # 1)])].
Definition x0 : asg := of_table x0_table.
Lemma x0_feasible : exists pm, build default_config id_ord fs0 None = Ok pm /\ feasible pm x0.
Proof. apply run_ok. vm_compute. reflexivity. Qed.

Definition x1_table : list (string * list Q) :=
[("Heat_excess_input", [(15 # 1); (8 # 1); (250 # 9)]);
   ("Heat_excess_output", [(0 # 1); (0 # 1); (0 # 1)]);
   ("El2_excess_input", [(0 # 1); (8 # 1); (1 # 1)]);
   ("El2_excess_output", [(0 # 1); (0 # 1); (0 # 1)]);
   ("Effects__penalty_penalty_sum", [(92300 # 9)]);
   ("costs__invest_invest_sum", [(22 # 1)]);
   ("costs__operation_operation_sum", [(1321 # 9)]);
   ("costs__operation_operation_sum_TS", [(122 # 1); (0 # 1); (223 # 9)]);
   ("costs__all_all_sum", [(1519 # 9)]);
   ("CO2__invest_invest_sum", [(0 # 1)]);
   ("CO2__operation_operation_sum", [(0 # 1)]);
   ("CO2__operation_operation_sum_TS", [(0 # 1); (0 # 1); (0 # 1)]);
   ("CO2__all_all_sum", [(0 # 1)]);
   ("Effects__Heat__excess_input", [(84200 # 9)]);
   ("Effects__Heat__excess_output", [(0 # 1)]);
   ("Effects__El2__excess_input", [(900 # 1)]);
   ("Effects__El2__excess_output", [(0 # 1)]);
   ("costs__CO2_invest", [(0 # 1)]);
   ("costs__Line__in1__fix_effects", [(10 # 1)]);
   ("costs__Line__in1__segmented_effects", [(12 # 1)]);
   ("costs__CO2_operation", [(0 # 1); (0 # 1); (0 # 1)]);
   ("costs__GasGrid__Q__effects_per_flow_hour", [(120 # 1); (0 # 1); (160 # 9)]);
   ("costs__CHP__switch_on_effects", [(0 # 1); (0 # 1); (5 # 1)]);
   ("costs__CHP__running_hour_effects", [(2 # 1); (0 # 1); (2 # 1)]);
   ("costs__operation", [(1321 # 9)]);
   ("costs__invest", [(22 # 1)]);
   ("CO2__operation", [(0 # 1)]);
   ("CO2__invest", [(0 # 1)]);
   ("GasGrid__Q_flow_rate", [(30 # 1); (0 # 1); (40 # 9)]);
   ("GasGrid__Q_sumFlowHours", [(620 # 9)]);
   ("CHP__gas_flow_rate", [(30 # 1); (0 # 1); (40 # 9)]);
   ("CHP__gas_sumFlowHours", [(620 # 9)]);
   ("CHP__th_flow_rate", [(15 # 1); (0 # 1); (20 # 9)]);
   ("CHP__th_sumFlowHours", [(310 # 9)]);
   ("CHP__el_flow_rate", [(6 # 1); (0 # 1); (10 # 9)]);
   ("CHP__el_sumFlowHours", [(128 # 9)]);
   ("CHP__OnOff_on", [(1 # 1); (0 # 1); (1 # 1)]);
   ("CHP__OnOff_totalOnHours", [(4 # 1)]);
   ("CHP__OnOff_consecutiveOnHours", [(3 # 1); (0 # 1); (2 # 1)]);
   ("CHP__OnOff_switchOn", [(0 # 1); (0 # 1); (1 # 1)]);
   ("CHP__OnOff_switchOff", [(0 # 1); (1 # 1); (0 # 1)]);
   ("CHP__OnOff_nrSwitchOn", [(1 # 1)]);
   ("CHP__gas__OnOff_on", [(1 # 1); (0 # 1); (1 # 1)]);
   ("CHP__gas__OnOff_totalOnHours", [(4 # 1)]);
   ("CHP__gas__OnOff_switchOn", [(1 # 1); (0 # 1); (1 # 1)]);
   ("CHP__gas__OnOff_switchOff", [(0 # 1); (1 # 1); (0 # 1)]);
   ("CHP__gas__OnOff_nrSwitchOn", [(2 # 1)]);
   ("CHP__th__OnOff_on", [(1 # 1); (0 # 1); (1 # 1)]);
   ("CHP__th__OnOff_totalOnHours", [(4 # 1)]);
   ("CHP__th__OnOff_switchOn", [(0 # 1); (0 # 1); (1 # 1)]);
   ("CHP__th__OnOff_switchOff", [(0 # 1); (1 # 1); (0 # 1)]);
   ("CHP__th__OnOff_nrSwitchOn", [(1 # 1)]);
   ("CHP__el__OnOff_on", [(1 # 1); (0 # 1); (1 # 1)]);
   ("CHP__el__OnOff_totalOnHours", [(4 # 1)]);
   ("CHP__el__OnOff_switchOn", [(1 # 1); (0 # 1); (1 # 1)]);
   ("CHP__el__OnOff_switchOff", [(0 # 1); (1 # 1); (0 # 1)]);
   ("CHP__el__OnOff_nrSwitchOn", [(2 # 1)]);
   ("Line__in1_flow_rate", [(6 # 1); (0 # 1); (10 # 9)]);
   ("Line__in1_sumFlowHours", [(128 # 9)]);
   ("Line__in2_flow_rate", [(0 # 1); (0 # 1); (0 # 1)]);
   ("Line__in2_sumFlowHours", [(0 # 1)]);
   ("Line__out1_flow_rate", [(22 # 5); (0 # 1); (0 # 1)]);
   ("Line__out1_sumFlowHours", [(44 # 5)]);
   ("Line__out2_flow_rate", [(0 # 1); (0 # 1); (0 # 1)]);
   ("Line__out2_sumFlowHours", [(0 # 1)]);
   ("Line__in1__OnOff_on", [(1 # 1); (0 # 1); (1 # 1)]);
   ("Line__in1__OnOff_totalOnHours", [(4 # 1)]);
   ("Line__in1__OnOff_switchOn", [(1 # 1); (0 # 1); (1 # 1)]);
   ("Line__in1__OnOff_switchOff", [(0 # 1); (1 # 1); (0 # 1)]);
   ("Line__in1__OnOff_nrSwitchOn", [(2 # 1)]);
   ("Line__in1__Investment_size", [(6 # 1)]);
   ("Line__in1__Investment_isInvested", [(1 # 1)]);
   ("Line__in2__OnOff_on", [(0 # 1); (0 # 1); (0 # 1)]);
   ("Line__in2__OnOff_totalOnHours", [(0 # 1)]);
   ("Line__in2__OnOff_switchOn", [(0 # 1); (0 # 1); (0 # 1)]);
   ("Line__in2__OnOff_switchOff", [(0 # 1); (0 # 1); (0 # 1)]);
   ("Line__in2__OnOff_nrSwitchOn", [(0 # 1)]);
   ("Line__in2__Investment_size", [(6 # 1)]);
   ("Line__in2__Investment_isInvested", [(1 # 1)]);
   ("Line__out1__OnOff_on", [(1 # 1); (0 # 1); (0 # 1)]);
   ("Line__out1__OnOff_totalOnHours", [(2 # 1)]);
   ("Line__out1__OnOff_switchOn", [(1 # 1); (0 # 1); (0 # 1)]);
   ("Line__out1__OnOff_switchOff", [(0 # 1); (1 # 1); (0 # 1)]);
   ("Line__out1__OnOff_nrSwitchOn", [(1 # 1)]);
   ("Line__out2__OnOff_on", [(0 # 1); (0 # 1); (0 # 1)]);
   ("Line__out2__OnOff_totalOnHours", [(0 # 1)]);
   ("Line__out2__OnOff_switchOn", [(0 # 1); (0 # 1); (0 # 1)]);
   ("Line__out2__OnOff_switchOff", [(0 # 1); (0 # 1); (0 # 1)]);
   ("Line__out2__OnOff_nrSwitchOn", [(0 # 1)]);
   ("Line__in1__SegmentedShares_costs_segmented", [(12 # 1)]);
   ("Line__in1__Segment_0_inSegment", [(1 # 1)]);
   ("Line__in1__Segment_0_lambda0", [(2 # 5)]);
   ("Line__in1__Segment_0_lambda1", [(3 # 5)]);
   ("Line__in1__Segment_1_inSegment", [(0 # 1)]);
   ("Line__in1__Segment_1_lambda0", [(0 # 1)]);
   ("Line__in1__Segment_1_lambda1", [(0 # 1)]);
   ("P2H__el_flow_rate", [(0 # 1); (7 # 1); (0 # 1)]);
   ("P2H__el_sumFlowHours", [(7 # 1)]);
   ("P2H__th_flow_rate", [(0 # 1); (12 # 1); (0 # 1)]);
   ("P2H__th_sumFlowHours", [(12 # 1)]);
   ("P2H__Segment_0_inSegment", [(1 # 1); (0 # 1); (1 # 1)]);
   ("P2H__Segment_0_lambda0", [(1 # 1); (0 # 1); (1 # 1)]);
   ("P2H__Segment_0_lambda1", [(0 # 1); (0 # 1); (0 # 1)]);
   ("P2H__Segment_1_inSegment", [(0 # 1); (1 # 1); (0 # 1)]);
   ("P2H__Segment_1_lambda0", [(0 # 1); (13 # 15); (0 # 1)]);
   ("P2H__Segment_1_lambda1", [(0 # 1); (2 # 15); (0 # 1)]);
   ("HeatDemand__Q_flow_rate", [(30 # 1); (20 # 1); (30 # 1)]);
   ("HeatDemand__Q_sumFlowHours", [(140 # 1)]);
   ("ElDemand__Q_flow_rate", [(22 # 5); (1 # 1); (1 # 1)]);
   ("ElDemand__Q_sumFlowHours", [(59 # 5)])].
Definition x1 : asg := of_table x1_table.
Lemma x1_feasible : exists pm, build default_config id_ord fs1 idx1 = Ok pm /\ feasible pm x1.
Proof. apply run_ok. vm_compute. reflexivity. Qed.

Definition x2_table : list (string * list Q) :=
[("Heat_excess_input", [(0 # 1); (0 # 1); (0 # 1)]);
   ("Heat_excess_output", [(0 # 1); (0 # 1); (0 # 1)]);
   ("Effects__penalty_penalty_sum", [(0 # 1)]);
   ("costs__invest_invest_sum", [(0 # 1)]);
   ("costs__operation_operation_sum", [(8 # 1)]);
   ("costs__operation_operation_sum_TS", [(6 # 1); (1 # 1); (1 # 1)]);
   ("costs__all_all_sum", [(8 # 1)]);
   ("CO2__invest_invest_sum", [(0 # 1)]);
   ("CO2__operation_operation_sum", [(0 # 1)]);
   ("CO2__operation_operation_sum_TS", [(0 # 1); (0 # 1); (0 # 1)]);
   ("CO2__all_all_sum", [(0 # 1)]);
   ("Effects__Heat__excess_input", [(0 # 1)]);
   ("Effects__Heat__excess_output", [(0 # 1)]);
   ("costs__CO2_invest", [(0 # 1)]);
   ("costs__CO2_operation", [(0 # 1); (0 # 1); (0 # 1)]);
   ("costs__Pump__switch_on_effects", [(5 # 1); (0 # 1); (0 # 1)]);
   ("costs__Pump__running_hour_effects", [(1 # 1); (1 # 1); (1 # 1)]);
   ("costs__operation", [(8 # 1)]);
   ("costs__invest", [(0 # 1)]);
   ("CO2__operation", [(0 # 1)]);
   ("CO2__invest", [(0 # 1)]);
   ("Src__Q_flow_rate", [(1 # 100000); (1 # 100000); (1 # 100000)]);
   ("Src__Q_sumFlowHours", [(3 # 100000)]);
   ("Src__Q__OnOff_on", [(1 # 1); (1 # 1); (1 # 1)]);
   ("Src__Q__OnOff_totalOnHours", [(3 # 1)]);
   ("Src__Q__OnOff_consecutiveOnHours", [(2 # 1); (3 # 1); (4 # 1)]);
   ("Src__Q__OnOff_switchOn", [(0 # 1); (0 # 1); (0 # 1)]);
   ("Src__Q__OnOff_switchOff", [(0 # 1); (0 # 1); (0 # 1)]);
   ("Src__Q__OnOff_nrSwitchOn", [(0 # 1)]);
   ("Pump__in_flow_rate", [(1 # 100000); (1 # 100000); (1 # 100000)]);
   ("Pump__in_sumFlowHours", [(3 # 100000)]);
   ("Pump__out_flow_rate", [(1 # 100000); (1 # 100000); (1 # 100000)]);
   ("Pump__out_sumFlowHours", [(3 # 100000)]);
   ("Pump__OnOff_on", [(1 # 1); (1 # 1); (1 # 1)]);
   ("Pump__OnOff_totalOnHours", [(3 # 1)]);
   ("Pump__OnOff_consecutiveOnHours", [(2 # 1); (3 # 1); (4 # 1)]);
   ("Pump__OnOff_switchOn", [(1 # 1); (0 # 1); (0 # 1)]);
   ("Pump__OnOff_switchOff", [(0 # 1); (0 # 1); (0 # 1)]);
   ("Pump__OnOff_nrSwitchOn", [(1 # 1)]);
   ("Pump__in__OnOff_on", [(1 # 1); (1 # 1); (1 # 1)]);
   ("Pump__in__OnOff_totalOnHours", [(3 # 1)]);
   ("Pump__in__OnOff_switchOn", [(0 # 1); (0 # 1); (0 # 1)]);
   ("Pump__in__OnOff_switchOff", [(0 # 1); (0 # 1); (0 # 1)]);
   ("Pump__in__OnOff_nrSwitchOn", [(0 # 1)]);
   ("Pump__out__OnOff_on", [(1 # 1); (1 # 1); (1 # 1)]);
   ("Pump__out__OnOff_totalOnHours", [(3 # 1)]);
   ("Pump__out__OnOff_switchOn", [(1 # 1); (0 # 1); (0 # 1)]);
   ("Pump__out__OnOff_switchOff", [(0 # 1); (0 # 1); (0 # 1)]);
   ("Pump__out__OnOff_nrSwitchOn", [(1 # 1)]);
   ("Sink__Q_flow_rate", [(1 # 100000); (1 # 100000); (1 # 100000)]);
   ("Sink__Q_sumFlowHours", [(3 # 100000)])].
Definition x2 : asg := of_table x2_table.
Lemma x2_feasible : exists pm, build default_config id_ord fs2 None = Ok pm /\ feasible pm x2.
Proof. apply run_ok. vm_compute. reflexivity. Qed.

Definition x3_table : list (string * list Q) :=
[("Bat_charge_state", [(5 # 1); (428573 # 69300); (200 # 33); (6 # 1)]);
   ("Bat_netto_discharge", [(-42769 # 31185); (1 # 100000); (0 # 1)]);
   ("Heat_excess_input", [(1699999 # 100000); (1474999 # 25000); (3999999 # 100000)]);
   ("Heat_excess_output", [(0 # 1); (0 # 1); (0 # 1)]);
   ("Effects__penalty_penalty_sum", [(1749999 # 100)]);
   ("costs__invest_invest_sum", [(0 # 1)]);
   ("costs__operation_operation_sum", [(392501 # 22500)]);
   ("costs__operation_operation_sum_TS", [(450001 # 45000); (58 # 9); (45001 # 45000)]);
   ("costs__all_all_sum", [(392501 # 22500)]);
   ("CO2__invest_invest_sum", [(0 # 1)]);
   ("CO2__operation_operation_sum", [(0 # 1)]);
   ("CO2__operation_operation_sum_TS", [(0 # 1); (0 # 1); (0 # 1)]);
   ("CO2__all_all_sum", [(0 # 1)]);
   ("Effects__Heat__excess_input", [(1749999 # 100)]);
   ("Effects__Heat__excess_output", [(0 # 1)]);
   ("costs__CO2_invest", [(0 # 1)]);
   ("costs__CO2_operation", [(0 # 1); (0 # 1); (0 # 1)]);
   ("costs__GasGrid__Q__effects_per_flow_hour", [(180001 # 45000); (40 # 9); (1 # 45000)]);
   ("costs__Kessel__switch_on_effects", [(5 # 1); (0 # 1); (0 # 1)]);
   ("costs__Kessel__running_hour_effects", [(1 # 1); (2 # 1); (1 # 1)]);
   ("costs__operation", [(392501 # 22500)]);
   ("costs__invest", [(0 # 1)]);
   ("CO2__operation", [(0 # 1)]);
   ("CO2__invest", [(0 # 1)]);
   ("GasGrid__Q_flow_rate", [(180001 # 90000); (10 # 9); (1 # 90000)]);
   ("GasGrid__Q_sumFlowHours", [(190001 # 45000)]);
   ("ElGrid__P_flow_rate", [(14876623 # 5925150); (0 # 1); (0 # 1)]);
   ("ElGrid__P_sumFlowHours", [(14876623 # 5925150)]);
   ("Air__Q_flow_rate", [(2 # 3); (0 # 1); (0 # 1)]);
   ("Air__Q_sumFlowHours", [(2 # 3)]);
   ("KWK__Q_fu_flow_rate", [(2 # 1); (0 # 1); (0 # 1)]);
   ("KWK__Q_fu_sumFlowHours", [(2 # 1)]);
   ("KWK__Q_th_flow_rate", [(1 # 1); (0 # 1); (0 # 1)]);
   ("KWK__Q_th_sumFlowHours", [(1 # 1)]);
   ("KWK__P_el_flow_rate", [(3 # 5); (0 # 1); (0 # 1)]);
   ("KWK__P_el_sumFlowHours", [(3 # 5)]);
   ("Kessel__Q_fu_flow_rate", [(1 # 90000); (10 # 9); (1 # 90000)]);
   ("Kessel__Q_fu_sumFlowHours", [(100001 # 45000)]);
   ("Kessel__Q_th_flow_rate", [(1 # 100000); (1 # 1); (1 # 100000)]);
   ("Kessel__Q_th_sumFlowHours", [(100001 # 50000)]);
   ("Kessel__OnOff_on", [(1 # 1); (1 # 1); (1 # 1)]);
   ("Kessel__OnOff_totalOnHours", [(4 # 1)]);
   ("Kessel__OnOff_consecutiveOnHours", [(1 # 1); (3 # 1); (4 # 1)]);
   ("Kessel__OnOff_switchOn", [(1 # 1); (0 # 1); (0 # 1)]);
   ("Kessel__OnOff_switchOff", [(0 # 1); (0 # 1); (0 # 1)]);
   ("Kessel__OnOff_nrSwitchOn", [(1 # 1)]);
   ("Kessel__Q_fu__OnOff_on", [(1 # 1); (1 # 1); (1 # 1)]);
   ("Kessel__Q_fu__OnOff_totalOnHours", [(4 # 1)]);
   ("Kessel__Q_fu__OnOff_switchOn", [(1 # 1); (0 # 1); (0 # 1)]);
   ("Kessel__Q_fu__OnOff_switchOff", [(0 # 1); (0 # 1); (0 # 1)]);
   ("Kessel__Q_fu__OnOff_nrSwitchOn", [(1 # 1)]);
   ("Kessel__Q_th__OnOff_on", [(1 # 1); (1 # 1); (1 # 1)]);
   ("Kessel__Q_th__OnOff_totalOnHours", [(4 # 1)]);
   ("Kessel__Q_th__OnOff_switchOn", [(1 # 1); (0 # 1); (0 # 1)]);
   ("Kessel__Q_th__OnOff_switchOff", [(0 # 1); (0 # 1); (0 # 1)]);
   ("Kessel__Q_th__OnOff_nrSwitchOn", [(1 # 1)]);
   ("Rod__P_el_flow_rate", [(20 # 19); (0 # 1); (0 # 1)]);
   ("Rod__P_el_sumFlowHours", [(20 # 19)]);
   ("Rod__Q_th_flow_rate", [(1 # 1); (0 # 1); (0 # 1)]);
   ("Rod__Q_th_sumFlowHours", [(1 # 1)]);
   ("HP__P_el_flow_rate", [(1 # 3); (1 # 100000); (0 # 1)]);
   ("HP__P_el_sumFlowHours", [(50003 # 150000)]);
   ("HP__Q_th_flow_rate", [(1 # 1); (1 # 25000); (0 # 1)]);
   ("HP__Q_th_sumFlowHours", [(12501 # 12500)]);
   ("WP__P_el_flow_rate", [(1 # 3); (0 # 1); (0 # 1)]);
   ("WP__P_el_sumFlowHours", [(1 # 3)]);
   ("WP__Q_ab_flow_rate", [(2 # 3); (0 # 1); (0 # 1)]);
   ("WP__Q_ab_sumFlowHours", [(2 # 3)]);
   ("WP__Q_th_flow_rate", [(1 # 1); (0 # 1); (0 # 1)]);
   ("WP__Q_th_sumFlowHours", [(1 # 1)]);
   ("KT__P_el_flow_rate", [(1 # 50); (0 # 1); (0 # 1)]);
   ("KT__P_el_sumFlowHours", [(1 # 50)]);
   ("KT__Q_th_flow_rate", [(1 # 1); (0 # 1); (0 # 1)]);
   ("KT__Q_th_sumFlowHours", [(1 # 1)]);
   ("Bat__ch_flow_rate", [(42769 # 31185); (0 # 1); (0 # 1)]);
   ("Bat__ch_sumFlowHours", [(42769 # 31185)]);
   ("Bat__dis_flow_rate", [(0 # 1); (1 # 100000); (0 # 1)]);
   ("Bat__dis_sumFlowHours", [(1 # 50000)]);
   ("Bat__ch__OnOff_on", [(1 # 1); (0 # 1); (0 # 1)]);
   ("Bat__ch__OnOff_totalOnHours", [(1 # 1)]);
   ("Bat__ch__OnOff_switchOn", [(1 # 1); (0 # 1); (0 # 1)]);
   ("Bat__ch__OnOff_switchOff", [(0 # 1); (1 # 1); (0 # 1)]);
   ("Bat__ch__OnOff_nrSwitchOn", [(1 # 1)]);
   ("Bat__dis__OnOff_on", [(0 # 1); (1 # 1); (0 # 1)]);
   ("Bat__dis__OnOff_totalOnHours", [(2 # 1)]);
   ("Bat__dis__OnOff_switchOn", [(0 # 1); (1 # 1); (0 # 1)]);
   ("Bat__dis__OnOff_switchOff", [(0 # 1); (0 # 1); (1 # 1)]);
   ("Bat__dis__OnOff_nrSwitchOn", [(1 # 1)]);
   ("Use__Q_flow_rate", [(20 # 1); (60 # 1); (40 # 1)]);
   ("Use__Q_sumFlowHours", [(180 # 1)])].
Definition x3 : asg := of_table x3_table.
Lemma x3_feasible : exists pm, build default_config id_ord fs3 None = Ok pm /\ feasible pm x3.
Proof. apply run_ok. vm_compute. reflexivity. Qed.

Definition x_twin_table : list (string * list Q) :=
[("Effects__penalty_penalty_sum", [(0 # 1)]);
   ("costs__invest_invest_sum", [(0 # 1)]);
   ("costs__operation_operation_sum", [(0 # 1)]);
   ("costs__operation_operation_sum_TS", [(0 # 1); (0 # 1)]);
   ("costs__all_all_sum", [(0 # 1)]);
   ("costs__operation", [(0 # 1)]);
   ("costs__invest", [(0 # 1)]);
   ("Src__Q_flow_rate", [(1 # 1); (0 # 1)]);
   ("Src__Q_sumFlowHours", [(1 # 1)]);
   ("Sink__Q_flow_rate", [(0 # 1); (0 # 1)]);
   ("Sink__Q_sumFlowHours", [(0 # 1)])].
Definition x_twin : asg := of_table x_twin_table.
Lemma x_twin_feasible : exists pm, build default_config id_ord fs_twin None = Ok pm /\ feasible pm x_twin.
Proof. apply run_ok. vm_compute. reflexivity. Qed.

Definition x_last_table : list (string * list Q) :=
[("Sto_charge_state", [(1 # 1); (1 # 1); (2 # 1)]);
   ("Sto_netto_discharge", [(0 # 1); (-1 # 1)]);
   ("Effects__penalty_penalty_sum", [(0 # 1)]);
   ("costs__invest_invest_sum", [(0 # 1)]);
   ("costs__operation_operation_sum", [(0 # 1)]);
   ("costs__operation_operation_sum_TS", [(0 # 1); (0 # 1)]);
   ("costs__all_all_sum", [(0 # 1)]);
   ("costs__operation", [(0 # 1)]);
   ("costs__invest", [(0 # 1)]);
   ("Src__Q_flow_rate", [(0 # 1); (1 # 1)]);
   ("Src__Q_sumFlowHours", [(1 # 1)]);
   ("Sto__ch_flow_rate", [(0 # 1); (1 # 1)]);
   ("Sto__ch_sumFlowHours", [(1 # 1)]);
   ("Sto__dis_flow_rate", [(0 # 1); (0 # 1)]);
   ("Sto__dis_sumFlowHours", [(0 # 1)])].
Definition x_last : asg := of_table x_last_table.
Lemma x_last_feasible : exists pm, build default_config id_ord (fs_cyc ICLast None None) None = Ok pm /\ feasible pm x_last.
Proof. apply run_ok. vm_compute. reflexivity. Qed.

Definition x_free_table : list (string * list Q) :=
[("Sto_charge_state", [(1 # 1); (1 # 1); (2 # 1)]);
   ("Sto_netto_discharge", [(0 # 1); (-1 # 1)]);
   ("Effects__penalty_penalty_sum", [(0 # 1)]);
   ("costs__invest_invest_sum", [(0 # 1)]);
   ("costs__operation_operation_sum", [(0 # 1)]);
   ("costs__operation_operation_sum_TS", [(0 # 1); (0 # 1)]);
   ("costs__all_all_sum", [(0 # 1)]);
   ("costs__operation", [(0 # 1)]);
   ("costs__invest", [(0 # 1)]);
   ("Src__Q_flow_rate", [(0 # 1); (1 # 1)]);
   ("Src__Q_sumFlowHours", [(1 # 1)]);
   ("Sto__ch_flow_rate", [(0 # 1); (1 # 1)]);
   ("Sto__ch_sumFlowHours", [(1 # 1)]);
   ("Sto__dis_flow_rate", [(0 # 1); (0 # 1)]);
   ("Sto__dis_sumFlowHours", [(0 # 1)])].
Definition x_free : asg := of_table x_free_table.
Lemma x_free_feasible : exists pm, build default_config id_ord (fs_cyc ICNone (Some 5) (Some 10)) None = Ok pm /\ feasible pm x_free.
Proof. apply run_ok. vm_compute. reflexivity. Qed.
