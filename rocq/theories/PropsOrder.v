(** C69: the order in which elements are added, and the order in which Python iterates its sets, do not change the
    optimisation problem. *)
From Verif Require Import Base BaseFacts MathModel Spec MathFacts Structure StructureFacts Params Features Elements System Library SysSpec
  ReadTools NavFacts BusFacts Example ExamplePoints PropsComp PropsRegister OrderFacts OrderBuild.

(** ** Specification *)

(** An iteration order of a set visits every member exactly once. *)
Definition visits_all (ord : list nat -> list nat) : Prop := forall l, Permutation (ord l) l.
(** Two programs ask for the same: the same assignments are allowed and have the same value. *)
Definition same_problem (pm pm' : pmodel) : Prop := forall x, (feasible pm x <-> feasible pm' x) /\ objective_value pm x == objective_value pm' x.
(** A best assignment of a program. *)
Definition best (pm : pmodel) (x : asg) : Prop := feasible pm x /\ forall y, feasible pm y -> objective_value pm x <= objective_value pm y.
(** A system without elements. *)
Definition no_elements (fs : flow_system) : Prop := fs_comps fs = [] /\ fs_effects fs = [].
Definition comps_of (l : list element) : list component := flat_map (fun a => match a with ElComp c => [c] | _ => [] end) l.
Definition effects_of (l : list element) : list effect := flat_map (fun a => match a with ElEffect e => [e] | _ => [] end) l.

(** The full claim: whenever the elements were accepted in two orders, both systems give the same problem, and a list that is
    accepted is accepted in every order. *)
Definition C69_full : Prop := forall cf ord ord' fs0 l l' fs idx pm, visits_all ord -> visits_all ord' -> no_elements fs0 -> Permutation l l' ->
  add_elements fs0 l = (fs, None) -> build cf ord fs idx = Ok pm ->
  exists fs' pm', add_elements fs0 l' = (fs', None) /\ build cf ord' fs' idx = Ok pm' /\ same_problem pm pm'.

(** ** Adding elements *)
Lemma add_elements_all : forall l fs fs', add_elements fs l = (fs', None) ->
  fs_times fs' = fs_times fs /\ fs_end fs' = fs_end fs /\ fs_prev_dt fs' = fs_prev_dt fs
  /\ fs_comps fs' = fs_comps fs ++ comps_of l /\ fs_effects fs' = fs_effects fs ++ effects_of l
  /\ (well_formed (fs_effects fs) -> well_formed (fs_effects fs')).
Proof.
  induction l as [|a l IH]; intros fs fs' H; cbn [add_elements] in H.
  - inversion H; subst. cbn. rewrite !app_nil_r. auto 10.
  - destruct a as [e|c|]; cbn [add_element] in H; [| |discriminate].
    + destruct (add_effect_spec (fs_effects fs) e) as [[A C]|[x [A C]]]; rewrite A in H; cbn [bind] in H; [|discriminate].
      destruct (IH _ _ H) as [T [E [P [Cc [Ee W]]]]]. cbn [with_effects fs_times fs_end fs_prev_dt fs_comps fs_effects] in *.
      split; [exact T|]. split; [exact E|]. split; [exact P|]. cbn [comps_of effects_of flat_map app] in *. split; [exact Cc|].
      split; [rewrite Ee, <- app_assoc; reflexivity|]. intros X. apply W, well_formed_add; auto.
    + unfold add_component in H. destruct (mem_str _ _); [discriminate|]. cbn [negb guard bind] in H.
      destruct (IH _ _ H) as [T [E [P [Cc [Ee W]]]]]. cbn [with_comps fs_times fs_end fs_prev_dt fs_comps fs_effects] in *.
      split; [exact T|]. split; [exact E|]. split; [exact P|]. cbn [comps_of effects_of flat_map app] in *.
      split; [rewrite Cc, <- app_assoc; reflexivity|]. split; [exact Ee|exact W].
Qed.
Lemma well_formed_nil : well_formed [].
Proof. repeat split; try constructor; intros e e' []. Qed.

(** ** C69: order of adding and of iterating *)
Theorem C69_order_partial : forall cf ord ord' fs0 l l' fs fs' idx pm, visits_all ord -> visits_all ord' -> no_elements fs0 -> Permutation l l' ->
  add_elements fs0 l = (fs, None) -> add_elements fs0 l' = (fs', None) -> distinct_buses fs ->
  build cf ord fs idx = Ok pm -> exists pm', build cf ord' fs' idx = Ok pm' /\ same_problem pm pm'.
Proof.
  intros cf ord ord' fs0 l l' fs fs' idx pm V V' [N1 N2] P A A' DB B.
  destruct (add_elements_all _ _ _ A) as [T [E [Pr [Cc [Ee W]]]]]. destruct (add_elements_all _ _ _ A') as [T' [E' [Pr' [Cc' [Ee' _]]]]].
  rewrite N1 in *. rewrite N2 in *. cbn [app] in *. destruct (W well_formed_nil) as [_ [W2 [W3 W4]]].
  apply (build_reordered cf ord ord' fs fs' idx V V'); auto. constructor; try congruence.
  - rewrite Cc, Cc'. apply Permutation_flat_map_l, P.
  - rewrite Ee, Ee'. apply Permutation_flat_map_l, P.
Qed.
Print Assumptions C69_order_partial.

(** The best assignments and the best value are the same. *)
Theorem C69_best_partial : forall cf ord ord' fs0 l l' fs fs' idx pm pm' x, visits_all ord -> visits_all ord' -> no_elements fs0 -> Permutation l l' ->
  add_elements fs0 l = (fs, None) -> add_elements fs0 l' = (fs', None) -> distinct_buses fs ->
  build cf ord fs idx = Ok pm -> build cf ord' fs' idx = Ok pm' -> (best pm x <-> best pm' x).
Proof.
  intros cf ord ord' fs0 l l' fs fs' idx pm pm' x V V' N P A A' DB B B'.
  destruct (C69_order_partial cf ord ord' fs0 l l' fs fs' idx pm V V' N P A A' DB B) as [q [Bq S]]. assert (q = pm') by congruence. subst q.
  unfold best. destruct (S x) as [F O]. split; intros [H1 H2].
  - split; [tauto|]. intros y Hy. rewrite <- O. destruct (S y) as [Fy Oy]. rewrite <- Oy. apply H2. tauto.
  - split; [tauto|]. intros y Hy. rewrite O. destruct (S y) as [Fy Oy]. rewrite Oy. apply H2. tauto.
Qed.
Print Assumptions C69_best_partial.

(** Elements whose labels never meet are accepted in every order. *)
Record no_clash (l : list element) : Prop := {
  nc_known : ~ In ElOther l;
  nc_comps : NoDup (map cp_label (comps_of l));
  nc_effects : well_formed (effects_of l);
  nc_apart : forall c, In c (comps_of l) -> ~ In (cp_label c) (map e_label (effects_of l))
     /\ forall d f, In d (comps_of l) -> In f (cp_flows d) -> cp_label c <> flow_name d f /\ cp_label c <> b_lab (f_bus f) }.
Lemma no_clash_perm : forall l l', Permutation l l' -> no_clash l -> no_clash l'.
Proof.
  intros l l' P [K C [W1 [W2 [W3 W4]]] A].
  assert (PC : Permutation (comps_of l) (comps_of l')) by (apply Permutation_flat_map_l, P).
  assert (PE : Permutation (effects_of l) (effects_of l')) by (apply Permutation_flat_map_l, P).
  pose proof (Permutation_sym PC) as PC'. pose proof (Permutation_sym PE) as PE'. constructor.
  - intros H. apply K. exact (Permutation_in _ (Permutation_sym P) H).
  - eapply Permutation_NoDup; [apply Permutation_map, PC|exact C].
  - repeat split.
    + eapply Permutation_NoDup; [apply Permutation_map, PE|exact W1].
    + eapply Permutation_NoDup; [apply Permutation_map, PE|exact W2].
    + intros e e' He He'. apply W3; eapply Permutation_in; eauto.
    + intros e e' He He'. apply W4; eapply Permutation_in; eauto.
  - intros c Hc. destruct (A c (Permutation_in _ PC' Hc)) as [A1 A2]. split.
    + intros H. apply A1. exact (Permutation_in _ (Permutation_map _ PE') H).
    + intros d f Hd Hf. apply A2; auto. exact (Permutation_in _ PC' Hd).
Qed.
Lemma well_formed_prefix : forall es e r, well_formed (es ++ e :: r) -> ~ conflicts es e.
Proof.
  intros es e r [W1 [W2 [W3 W4]]] C. rewrite map_app in W1, W2. cbn [map] in W1, W2. apply NoDup_remove_2 in W1, W2.
  assert (D : forall a, In a es -> a <> e). { intros a Ha ->. apply W2, in_or_app. left. apply in_map; auto. }
  destruct C as [[S [a [Ha Sa]]]|[[S [a [Ha Sa]]]|[C|C]]].
  - apply (D a Ha). apply W3; auto; apply in_or_app; simpl; auto.
  - apply (D a Ha). apply W4; auto; apply in_or_app; simpl; auto.
  - apply W2, in_or_app. auto.
  - apply W1, in_or_app. auto.
Qed.
Lemma accepted_from : forall l pre fs, fs_comps fs = comps_of pre -> fs_effects fs = effects_of pre -> no_clash (pre ++ l) -> exists fs', add_elements fs l = (fs', None).
Proof.
  induction l as [|a l IH]; intros pre fs Ec Ee N; cbn [add_elements]; [eauto|].
  assert (EA : pre ++ a :: l = (pre ++ [a]) ++ l) by (rewrite <- app_assoc; reflexivity).
  assert (CA : comps_of (pre ++ a :: l) = comps_of pre ++ comps_of (a :: l)) by apply flat_map_app.
  assert (FA : effects_of (pre ++ a :: l) = effects_of pre ++ effects_of (a :: l)) by apply flat_map_app.
  destruct a as [e|c|]; cbn [add_element].
  - destruct (add_effect_spec (fs_effects fs) e) as [[A C]|[x [A C]]]; rewrite A; cbn [bind].
    + rewrite EA in N. apply (IH (pre ++ [ElEffect e])); auto; cbn [with_effects fs_comps fs_effects]; unfold comps_of, effects_of; rewrite flat_map_app; cbn [flat_map app].
      * rewrite app_nil_r. exact Ec.
      * rewrite Ee. reflexivity.
    + exfalso. pose proof (nc_effects _ N) as W. rewrite FA in W. apply (well_formed_prefix _ _ _ W). rewrite <- Ee. exact C.
  - unfold add_component. destruct (mem_str _ _) eqn:M; cbn [negb guard bind].
    + exfalso. apply mem_str_In in M. assert (Hc : In c (comps_of (pre ++ ElComp c :: l))) by (rewrite CA; apply in_or_app; right; simpl; auto).
      destruct (nc_apart _ N c Hc) as [A1 A2]. pose proof (nc_comps _ N) as NC. rewrite CA, map_app in NC. cbn [comps_of flat_map app map] in NC.
      apply NoDup_remove_2 in NC.
      assert (AF : forall x, In x (all_flows fs) -> In (fst x) (comps_of (pre ++ ElComp c :: l)) /\ In (snd x) (cp_flows (fst x))).
      { intros [d f] H. apply all_flows_In in H. rewrite Ec in H. cbn [fst snd]. split; [|tauto]. rewrite CA. apply in_or_app. tauto. }
      rewrite !in_app_iff in M. destruct M as [M|[M|[M|M]]].
      * apply NC, in_or_app. left. rewrite <- Ec. exact M.
      * apply A1. rewrite FA, map_app. apply in_or_app. left. rewrite <- Ee. exact M.
      * unfold flow_fulls in M. apply in_map_iff in M. destruct M as [x [E H]]. destruct (AF x H) as [H1 H2]. destruct (A2 _ _ H1 H2) as [X _]. apply X. symmetry. exact E.
      * unfold bus_labels in M. apply in_map_iff in M. destruct M as [x [E H]]. destruct (AF x H) as [H1 H2]. destruct (A2 _ _ H1 H2) as [_ X]. apply X. symmetry. exact E.
    + rewrite EA in N. apply (IH (pre ++ [ElComp c])); auto; cbn [with_comps fs_comps fs_effects]; unfold comps_of, effects_of; rewrite flat_map_app; cbn [flat_map app].
      * rewrite Ec. reflexivity.
      * rewrite app_nil_r. exact Ee.
  - exfalso. apply (nc_known _ N), in_or_app. right. simpl. auto.
Qed.
Theorem C69_accepted_partial : forall fs0 l l', no_elements fs0 -> no_clash l -> Permutation l l' -> exists fs', add_elements fs0 l' = (fs', None).
Proof.
  intros fs0 l l' [N1 N2] N P. apply (accepted_from l' [] fs0); auto. exact (no_clash_perm _ _ P N).
Qed.
Print Assumptions C69_accepted_partial.

(** ** A case *)
Definition fs_blank : flow_system := mkFS [0; 1; 3; 4] 6 (NS 1) [] [].
Definition fs1_elements : list element := [ElEffect costs; ElEffect co2; ElComp gas_src; ElComp chp; ElComp line; ElComp p2h; ElComp heat_sink; ElComp el_sink].
Definition rev_ord (l : list nat) : list nat := rev l.
Lemma visits_all_id : visits_all id_ord.
Proof. intros l. apply Permutation_refl. Qed.
Lemma visits_all_rev : visits_all rev_ord.
Proof. intros l. apply Permutation_sym, Permutation_rev. Qed.
Example C69_case : exists fs' pm pm', add_elements fs_blank (rev fs1_elements) = (fs', None) /\ fs' <> fs1
  /\ build default_config id_ord fs1 idx1 = Ok pm /\ build default_config rev_ord fs' idx1 = Ok pm' /\ same_problem pm pm'.
Proof.
  destruct (add_elements fs_blank (rev fs1_elements)) as [fs' e] eqn:A'. assert (E : e = None) by (apply (f_equal snd) in A'; vm_compute in A'; congruence). subst e.
  assert (A : add_elements fs_blank fs1_elements = (fs1, None)) by reflexivity.
  destruct (build default_config id_ord fs1 idx1) as [pm|] eqn:B; [|apply (f_equal (fun r => match r with Ok _ => true | Err _ => false end)) in B; vm_compute in B; discriminate B].
  destruct (C69_order_partial default_config id_ord rev_ord fs_blank fs1_elements (rev fs1_elements) fs1 fs' idx1 pm visits_all_id visits_all_rev
    (conj eq_refl eq_refl) (Permutation_rev _) A A' ltac:(buses) B) as [pm' [B' S]].
  exists fs', pm, pm'. split; [reflexivity|]. split; [|auto]. intros X. rewrite X in A'.
  apply (f_equal (fun p => map cp_label (fs_comps (fst p)))) in A'. vm_compute in A'. discriminate A'.
Qed.
Example C69_accepted_case : no_clash fs1_elements.
Proof.
  constructor.
  - simpl. intuition discriminate.
  - apply nodup_str_NoDup. reflexivity.
  - repeat split.
    + apply nodup_str_NoDup. reflexivity.
    + repeat constructor; simpl; intuition discriminate.
    + intros e e' [<-|[<-|[]]] [<-|[<-|[]]]; simpl; congruence.
    + intros e e' [<-|[<-|[]]] [<-|[<-|[]]]; simpl; congruence.
  - intros c Hc. split.
    + intros H. apply mem_str_In in H. simpl in Hc. repeat (destruct Hc as [<-|Hc]; [vm_compute in H; discriminate|]). destruct Hc.
    + intros d f Hd Hf.
      assert (G : forallb (fun c => forallb (fun d => forallb (fun f => negb (String.eqb (cp_label c) (flow_name d f)) && negb (String.eqb (cp_label c) (b_lab (f_bus f))))%bool
                    (cp_flows d)) (comps_of fs1_elements)) (comps_of fs1_elements) = true) by (vm_compute; reflexivity).
      rewrite forallb_forall in G. specialize (G c Hc). rewrite forallb_forall in G. specialize (G d Hd). rewrite forallb_forall in G. specialize (G f Hf).
      apply andb_prop in G. destruct G as [G1 G2]. split; intros X; rewrite X, String.eqb_refl in *; discriminate.
Qed.

(** ** The full claim fails *)

(** Two buses of one label: the iteration order of a set of flows decides which of them is balanced. *)
Definition fs_blank2 : flow_system := mkFS [0; 1] 2 (NS 1) [] [].
Definition twin_elements : list element := [ElEffect costs; ElComp twin_src; ElComp twin_sink].
Lemma rows_hold : forall pm x, feasible pm x -> forallb (row_okb x) (pm_rows pm) = true.
Proof.
  intros pm x [_ F]. apply forallb_forall. intros r Hr. rewrite Forall_forall in F. specialize (F r Hr). unfold row_okb, row_ok in *.
  destruct (r_eq r); [apply Qeq_bool_iff|apply Qle_bool_iff]; exact F.
Qed.
Theorem C69_twin_buses : exists fs pm pm', add_elements fs_blank2 twin_elements = (fs, None)
  /\ build default_config id_ord fs None = Ok pm /\ build default_config rev_ord fs None = Ok pm' /\ feasible pm x_twin /\ ~ feasible pm' x_twin.
Proof.
  destruct x_twin_feasible as [pm [B F]]. destruct (build default_config rev_ord fs_twin None) as [pm'|] eqn:B'; [|vm_compute in B'; discriminate B'].
  exists fs_twin, pm, pm'. split; [reflexivity|]. split; [exact B|]. split; [exact B'|]. split; [exact F|]. intros F'. apply rows_hold in F'.
  assert (G : match build default_config rev_ord fs_twin None with Ok q => forallb (row_okb x_twin) (pm_rows q) | Err _ => true end = false) by (vm_compute; reflexivity).
  rewrite B' in G. congruence.
Qed.
Print Assumptions C69_twin_buses.

(** A component named like the bus of another one is accepted before it but not after it. *)
Definition shadow_sink : component := Library.sink "A" (fl 132 "Q" (mkBus 7 "B" None)).
Theorem C69_label_order : exists fs, add_elements fs_blank2 [ElEffect costs; ElComp shadow_sink; ElComp twin_src] = (fs, None)
  /\ snd (add_elements fs_blank2 [ElEffect costs; ElComp twin_src; ElComp shadow_sink]) = Some PyException.
Proof. eexists. split; vm_compute; reflexivity. Qed.
Print Assumptions C69_label_order.

Theorem C69_refuted : ~ C69_full.
Proof.
  intros H. destruct C69_twin_buses as [fs [pm [pm' [A [B [B' [F N]]]]]]].
  destruct (H default_config id_ord rev_ord fs_blank2 twin_elements twin_elements fs None pm visits_all_id visits_all_rev (conj eq_refl eq_refl) (Permutation_refl _) A B)
    as [fs' [q [A' [B2 S]]]]. assert (fs' = fs) by congruence. subst fs'. assert (q = pm') by congruence. subst q. apply N, S, F.
Qed.
Print Assumptions C69_refuted.
