(** C62: an aggregated calculation is the full one with the ties of the aggregation added, and nothing else. *)
From Verif Require Import Base BaseFacts MathModel MathFacts Spec Structure StructureFacts Params Features Elements System SysSpec AdmitSpec AdmitNav ReadTools NavFacts
  ShareFacts ClosedFacts PropsClosed PropsEffects Example ExamplePoints Aggregation AggSpec AggFacts PropsAggregation PropsAggModel TieSpec AggBack.
Local Open Scope Q_scope.
Local Tactic Notation "bnd" hyp(H) ident(x) ident(E) := apply bind_ok in H; destruct H as [x [E H]]; cbv beta in H.

(** The price of the deviations of the quantities [vs]. *)
Definition deviation_price (ap : agg_params) (pairs : list (nat * nat)) (vs : list variable) (x : asg) : Q :=
  ag_penalty ap * Qsum (map (fun v => inject_Z (Z.of_nat (deviations x (v_label v) pairs))) vs).

(** ** Proof *)
Lemma tied_In : forall cf ord fs idx ap sel bs ch vss v, build_system cf ord fs idx = Ok bs -> NoDup (map cp_label (fs_comps fs)) ->
  chosen_components sel (fs_comps fs) (bs_comps bs) = Ok ch -> mapM (relevant_variables ap) ch = Ok vss ->
  (In v (List.concat vss) <-> tied cf ord fs idx ap sel v).
Proof.
  intros cf ord fs idx ap sel bs ch vss v B ND E1 E3. split.
  - intros Hv. destruct (relevant_sound _ _ _ _ _ _ _ E1 E3 Hv) as [c [o [A [P [S [Hd [T K]]]]]]]. exists c.
    split; [split; [exact (in_combine_l _ _ _ _ A)|auto]|]. split; [|auto]. unfold decl in Hd. apply in_flat_map in Hd. destruct Hd as [m [Hm Hv']].
    exists bs, o, m. split; [exact B|]. split; [exact A|]. split; [apply within_flat; exact Hm|exact Hv'].
  - intros [c [[_ [P S]] [[bs' [o [m [B' [Hi [W Hv]]]]]] [T K]]]]. rewrite B in B'. injection B' as <-. apply within_flat in W.
    destruct (chosen_In _ _ _ _ _ _ E1 ND Hi P) as [o' [Hc ->]].
    destruct (BaseFacts.mapM_In _ _ _ _ E3 Hc) as [vs [F Hvs]]. unfold relevant_variables in F. cbn [fst snd] in F.
    assert (NS' : (is_storage c && negb (ag_fix_storage ap))%bool = false) by (destruct S as [-> | ->]; [reflexivity|apply andb_false_r]).
    rewrite NS' in F. bnd F al Fa. apply Ok_inj in F. apply in_concat. exists vs. split; auto. subst vs. apply filter_In.
    split; [eapply all_variables_complete; [exact Fa|]; unfold decl; apply in_flat_map; eauto|]. rewrite T. cbn [andb]. destruct K as [-> | ->]; [reflexivity|apply orb_true_r].
Qed.

Lemma objective_agrees : forall cf ord fs idx pm x y d, build cf ord fs idx = Ok pm -> agree_on pm x y -> x pen_label 0%nat == y pen_label 0%nat + d ->
  objective_value pm x == objective_value pm y + d.
Proof.
  intros cf ord fs idx pm x y d B A P. set (y' := fun l i => if String.eqb l pen_label then x l i else y l i).
  assert (E : objective_value pm x == objective_value pm y').
  { apply (C54_determined pm x y' (C54_closed _ _ _ _ _ B)). intros l i [p [Hp [<- _]]]. unfold y'. destruct (String.eqb (pv_label p) pen_label) eqn:Q; [reflexivity|].
    apply A; auto. apply String.eqb_neq. exact Q. }
  destruct (C21_objective _ _ _ _ _ y' B) as [e [Ee Oy']]. destruct (C21_objective _ _ _ _ _ y B) as [e2 [Ee2 Oy]]. rewrite Ee in Ee2. injection Ee2 as <-.
  rewrite E, Oy', Oy.
  assert (N : forall l i, l <> pen_label -> y' l i = y l i) by (intros l i Hl; unfold y'; apply String.eqb_neq in Hl; rewrite Hl; reflexivity).
  unfold op_sum, inv_sum, penalty_sum. rewrite !N by (try apply op_label_other; apply inv_label_other).
  fold pen_label. assert (Y : y' pen_label 0%nat = x pen_label 0%nat) by (unfold y'; rewrite String.eqb_refl; reflexivity). rewrite Y, P. ring.
Qed.

(** A solution of the full program that obeys the ties becomes one of the aggregated program, with the same values but for the penalties, and conversely; the
    objective is higher by the price of the deviations. *)
Theorem C62_exact : forall cf ord fs idx hpp ap cl sel pm',
  build_aggregated cf ord fs idx hpp ap cl sel = Ok pm' -> NoDup (map cp_label (fs_comps fs)) ->
  exists pm pairs vs, build cf ord fs idx = Ok pm /\ equation_indices true cl = Ok pairs
    /\ NoDup (map v_label vs) /\ (forall v, In v vs <-> tied cf ord fs idx ap sel v /\ may_differ ap v)
    /\ (forall y, feasible pm y -> (forall v, tied cf ord fs idx ap sel v -> tied_rule ap pairs y v) ->
          exists x, feasible pm' x /\ agree_on pm x y /\ objective_value pm' x == objective_value pm y + deviation_price ap pairs vs y)
    /\ (forall x, feasible pm' x ->
          exists y, feasible pm y /\ (forall v, tied cf ord fs idx ap sel v -> tied_rule ap pairs y v)
            /\ agree_on pm x y /\ objective_value pm' x == objective_value pm y + deviation_price ap pairs vs y).
Proof.
  intros cf ord fs idx hpp ap cl sel pm' B ND.
  destruct (agg_back _ _ _ _ _ _ _ _ _ B) as [pm [bs [pairs [ch [vss [B0 [BS [OB [EI [E1 [E3 [NDV [NP BK]]]]]]]]]]]]].
  pose proof (fun v => tied_In cf ord fs idx ap sel bs ch vss v BS ND E1 E3) as TI.
  assert (OBJ : forall z, objective_value pm' z = objective_value pm z) by (intros z; unfold objective_value; rewrite OB; reflexivity).
  exists pm, pairs, (filter (freed ap) (List.concat vss)). split; [exact B0|]. split; [exact EI|]. split; [exact NDV|]. split; [|split].
  - intros v. rewrite filter_In, TI, keeps_or, differ_keeps. reflexivity.
  - intros y Fy R. destruct (BK y Fy (fun v Hv => R v (proj1 (TI v) Hv))) as [x [Fx [A P]]]. exists x. split; [exact Fx|]. split; [exact A|].
    rewrite OBJ. exact (objective_agrees _ _ _ _ _ x y _ B0 A P).
  - intros x F. destruct (agg_lift _ _ _ _ _ _ _ _ _ B) as [pm2 [cx [cos [am [pen [em [bts [obj G]]]]]]]].
    pose proof (gp_build _ _ _ _ _ _ _ _ _ _ _ _ _ _ _ _ G) as GB. rewrite B0 in GB. injection GB as <-.
    pose proof (gp_system _ _ _ _ _ _ _ _ _ _ _ _ _ _ _ _ G) as GS. rewrite BS in GS. injection GS as ->. cbn [bs_comps] in E1.
    pose proof (gp_agg _ _ _ _ _ _ _ _ _ _ _ _ _ _ _ _ G) as GA. pose proof (gp_am _ _ _ _ _ _ _ _ _ _ _ _ _ _ _ _ G x F) as SAM.
    destruct (pen_worth _ _ _ _ _ _ _ GA) as [pairs' [vss' [P1 [[ch' [P2 P3]] [W _]]]]]. rewrite EI in P1. injection P1 as <-. rewrite E1 in P2. injection P2 as <-.
    rewrite E3 in P3. injection P3 as <-. set (d := Qsum (map (worth x 0) pen)). set (y := less_penalty d x).
    assert (XY : forall l, l <> pen_label -> forall i, y l i == x l i) by (intros l Hl i; unfold y; rewrite less_other by auto; reflexivity).
    assert (DV : forall v, In v (List.concat vss) -> deviations y (v_label v) pairs = deviations x (v_label v) pairs).
    { intros v Hv. unfold deviations. f_equal. apply filter_ext. intros p. unfold differs. f_equal. pose proof (XY _ (NP v Hv) (fst p)) as Q1. pose proof (XY _ (NP v Hv) (snd p)) as Q2.
      rewrite Q1, Q2. reflexivity. }
    assert (EQ : forall v, In v (List.concat vss) -> exists ks cs, equate_indices ap pairs v = Ok (ks, cs) /\ Forall (var_sat x) ks /\ Forall (con_sat x) cs).
    { intros v Hv. pose proof (proj1 (TI v) Hv) as [c [[_ [Pk St]] [[bs' [o [m [B' [Hi [Wn Hm]]]]]] [T K]]]]. rewrite BS in B'. injection B' as <-. cbn [bs_comps] in Hi.
      apply within_flat in Wn. assert (Hd : In v (decl (co_tree o))) by (unfold decl; apply in_flat_map; eauto).
      destruct (equated_parts _ _ _ _ _ _ _ _ _ v GA ND Hi Pk St Hd T K) as [pairs2 [ks [cs [Q1 [Q2 Q3]]]]]. rewrite EI in Q1. injection Q1 as <-.
      exists ks, cs. split; [exact Q2|]. exact (Q3 x SAM). }
    assert (Hd : d == deviation_price ap pairs (filter (freed ap) (List.concat vss)) y).
    { unfold d, deviation_price. rewrite (W x), map_map. apply Qmult_comp; [reflexivity|]. apply Qsum_map_eq. intros v Hv. apply filter_In in Hv. destruct Hv as [Hv Fr].
      apply keeps_or in Fr. destruct (EQ v Hv) as [ks [cs [Q1 [Q2 Q3]]]]. rewrite (DV v Hv). exact (equate_exact _ _ _ _ _ _ Q1 Fr Q2 Q3). }
    exists y. split; [exact (gp_lift _ _ _ _ _ _ _ _ _ _ _ _ _ _ _ _ G x F)|]. split; [|split].
    + intros v Tv. assert (Hv := proj2 (TI v) Tv). destruct (EQ v Hv) as [ks [cs [Q1 [Q2 Q3]]]]. split.
      * intros MD. apply differ_keeps in MD. rewrite (DV v Hv). pose proof (equate_exact _ _ _ _ _ _ Q1 MD Q2 Q3) as X.
        destruct (equate_corrections _ _ _ _ _ _ Q1 MD Q2 Q3) as [_ [_ U]]. rewrite X, <- Zle_Qle in U. exact U.
      * intros MD i j Hij. rewrite !(XY _ (NP v Hv)). refine (equate_equal _ _ _ _ _ _ Q1 _ Q3 i j Hij).
        unfold may_differ in MD. unfold keeps_equal. destruct (v_bin v); [|auto]. right. destruct (Qlt_le_dec 0 (ag_freedom ap)); [exfalso; auto|auto].
    + intros p i _ Hl. symmetry. apply XY. exact Hl.
    + rewrite OBJ. apply (objective_agrees _ _ _ _ _ x y _ B0).
      * intros p i _ Hl. symmetry. apply XY. exact Hl.
      * rewrite <- Hd. unfold y. rewrite less_pen. ring.
Qed.
Print Assumptions C62_exact.

(** The aggregated program can be solved exactly if some solution of the full program obeys the ties. *)
Theorem C62_solvable : forall cf ord fs idx hpp ap cl sel pm',
  build_aggregated cf ord fs idx hpp ap cl sel = Ok pm' -> NoDup (map cp_label (fs_comps fs)) ->
  exists pm pairs, build cf ord fs idx = Ok pm /\ equation_indices true cl = Ok pairs
    /\ ((exists x, feasible pm' x) <-> exists y, feasible pm y /\ forall v, tied cf ord fs idx ap sel v -> tied_rule ap pairs y v).
Proof.
  intros cf ord fs idx hpp ap cl sel pm' B ND. destruct (C62_exact _ _ _ _ _ _ _ _ _ B ND) as [pm [pairs [vs [B0 [EI [_ [_ [U D]]]]]]]].
  exists pm, pairs. split; [exact B0|]. split; [exact EI|]. split.
  - intros [x F]. destruct (D x F) as [y [Fy [R _]]]. eauto.
  - intros [y [Fy R]]. destruct (U y Fy R) as [x [Fx _]]. eauto.
Qed.
Print Assumptions C62_solvable.

(** An optimum of the aggregated program is a solution of the full program that obeys the ties and is, together with the price of its deviations, the
    cheapest of these; and the cheapest of these is found by the aggregated program. *)
Theorem C62_optimum : forall cf ord fs idx hpp ap cl sel pm' x,
  build_aggregated cf ord fs idx hpp ap cl sel = Ok pm' -> NoDup (map cp_label (fs_comps fs)) -> feasible pm' x ->
  exists pm pairs vs y, build cf ord fs idx = Ok pm /\ equation_indices true cl = Ok pairs
    /\ NoDup (map v_label vs) /\ (forall v, In v vs <-> tied cf ord fs idx ap sel v /\ may_differ ap v)
    /\ feasible pm y /\ (forall v, tied cf ord fs idx ap sel v -> tied_rule ap pairs y v) /\ agree_on pm x y
    /\ objective_value pm' x == objective_value pm y + deviation_price ap pairs vs y
    /\ ((forall z, feasible pm' z -> objective_value pm' x <= objective_value pm' z)
        <-> (forall z, feasible pm z -> (forall v, tied cf ord fs idx ap sel v -> tied_rule ap pairs z v) ->
              objective_value pm y + deviation_price ap pairs vs y <= objective_value pm z + deviation_price ap pairs vs z)).
Proof.
  intros cf ord fs idx hpp ap cl sel pm' x B ND F. destruct (C62_exact _ _ _ _ _ _ _ _ _ B ND) as [pm [pairs [vs [B0 [EI [NV [IV [U D]]]]]]]].
  destruct (D x F) as [y [Fy [R [A O]]]]. exists pm, pairs, vs, y. do 8 (split; [assumption|]). split.
  - intros M z Fz Rz. destruct (U z Fz Rz) as [w [Fw [_ Ow]]]. rewrite <- O, <- Ow. apply M. exact Fw.
  - intros M z Fz. destruct (D z Fz) as [w [Fw [Rw [_ Ow]]]]. rewrite O, Ow. apply M; auto.
Qed.
Print Assumptions C62_optimum.

(** The point [x_loose] uses the freedom of one deviation: its counterpart in the full program obeys the ties and deviates at the price of 7. *)
Example C62_applies : exists pm pm' pairs vs y, build default_config id_ord fs_agg None = Ok pm /\ build_aggregated default_config id_ord fs_agg None 2 ap_free cl_agg None = Ok pm'
  /\ equation_indices true cl_agg = Ok pairs /\ feasible pm' x_loose /\ feasible pm y
  /\ (forall v, tied default_config id_ord fs_agg None ap_free None v -> tied_rule ap_free pairs y v)
  /\ agree_on pm x_loose y /\ deviation_price ap_free pairs vs y == 7
  /\ exists x, feasible pm' x /\ agree_on pm x y /\ objective_value pm' x == 7.
Proof.
  destruct x_loose_feasible as [pm' [B F]]. destruct (C62_exact _ _ _ _ _ _ _ _ _ B fs_agg_labels) as [pm [pairs [vs [B0 [EI [_ [_ [U D]]]]]]]].
  destruct (D x_loose F) as [y [Fy [R [A O]]]]. exists pm, pm', pairs, vs, y. do 7 (split; [assumption|]).
  assert (O7 : objective_value pm' x_loose == 7).
  { assert (X : match build_aggregated default_config id_ord fs_agg None 2 ap_free cl_agg None with Ok p => Qeq_bool (objective_value p x_loose) 7 | Err _ => false end = true)
      by (vm_compute; reflexivity). rewrite B in X. apply Qeq_bool_iff. exact X. }
  pose proof (fs_agg_free _ _ B0 Fy) as Z. split; [lra|]. destruct (U y Fy R) as [x [Fx [Ax Ox]]]. exists x. split; [exact Fx|]. split; [exact Ax|]. lra.
Qed.
(** The state of the source's flow is one of the quantities that may differ; its rate is not tied unless all quantities are. *)
Example C62_tied_applies :
  (exists v, tied default_config id_ord fs_agg None ap_free None v /\ may_differ ap_free v /\ v_label v = flow_state agg_src agg_q)
  /\ (exists v, tied default_config id_ord fs_agg None ap_fixed None v /\ ~ may_differ ap_fixed v /\ v_label v = vlabel (flow_name agg_src agg_q) "flow_rate").
Proof.
  assert (X : forall ap P, (forall v, P v = true -> v_ts v = true /\ (ag_fix_all ap = true \/ v_bin v = true)) -> takes_part fs_agg ap None agg_src ->
     match build_system default_config id_ord fs_agg None with
     | Ok bs => match bs_comps bs with o :: _ => existsb P (decl (co_tree o)) | [] => false end | Err _ => false end = true ->
     exists v, tied default_config id_ord fs_agg None ap None v /\ P v = true).
  { intros ap P H T E. destruct (build_system default_config id_ord fs_agg None) as [bs|] eqn:B; [|discriminate]. destruct (bs_comps bs) as [|o os] eqn:C; [discriminate|].
    apply existsb_exists in E. destruct E as [v [Hv Pv]]. exists v. split; [|exact Pv]. exists agg_src. split; [exact T|]. split; [|apply H; exact Pv].
    unfold decl in Hv. apply in_flat_map in Hv. destruct Hv as [m [Hm Hv]]. exists bs, o, m. split; [exact B|]. rewrite C. split; [left; reflexivity|].
    split; [apply within_flat; exact Hm|exact Hv]. }
  split.
  - destruct (X ap_free (fun v => v_ts v && v_bin v && String.eqb (v_label v) (flow_state agg_src agg_q))%bool) as [v [T P]].
    + intros v P. apply andb_prop in P. destruct P as [P _]. apply andb_prop in P. tauto.
    + repeat split; simpl; auto.
    + vm_compute. reflexivity.
    + apply andb_prop in P. destruct P as [P L]. apply andb_prop in P. destruct P as [_ Bn]. exists v. split; [exact T|]. split; [split; [exact Bn|reflexivity]|].
      apply String.eqb_eq. exact L.
  - destruct (X ap_fixed (fun v => v_ts v && String.eqb (v_label v) (vlabel (flow_name agg_src agg_q) "flow_rate"))%bool) as [v [T P]].
    + intros v P. apply andb_prop in P. destruct P as [P _]. split; [exact P|left; reflexivity].
    + repeat split; simpl; auto.
    + vm_compute. reflexivity.
    + apply andb_prop in P. destruct P as [_ L]. exists v. split; [exact T|]. split; [intros [_ K]; vm_compute in K; discriminate|]. apply String.eqb_eq. exact L.
Qed.
(** The point [x_same] is an optimum of its aggregated program. *)
Example C62_optimum_applies : exists pm pm' pairs y, build default_config id_ord fs_agg None = Ok pm /\ build_aggregated default_config id_ord fs_agg None 2 ap_fixed cl_agg None = Ok pm'
  /\ feasible pm' x_same /\ feasible pm y /\ (forall v, tied default_config id_ord fs_agg None ap_fixed None v -> tied_rule ap_fixed pairs y v)
  /\ (forall z, feasible pm' z -> objective_value pm' x_same <= objective_value pm' z).
Proof.
  destruct x_same_feasible as [pm' [B F]]. destruct (C62_optimum _ _ _ _ _ _ _ _ _ _ B fs_agg_labels F) as [pm [pairs [vs [y [B0 [EI [NV [IV [Fy [R [A [O M]]]]]]]]]]]].
  exists pm, pm', pairs, y. do 5 (split; [assumption|]). apply M. intros z Fz Rz.
  assert (N : forall w, deviation_price ap_fixed pairs vs w == 0) by (intros w; unfold deviation_price; change (ag_penalty ap_fixed) with 0; ring).
  rewrite !N, (fs_agg_free _ _ B0 Fy), (fs_agg_free _ _ B0 Fz). apply Qle_refl.
Qed.
