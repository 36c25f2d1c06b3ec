(** What the rows of buses say. *)
From Verif Require Import Base BaseFacts MathModel Spec MathFacts Structure StructureFacts Params Features Elements System SysSpec
  CtxFacts ReadTools InvestFacts OnOffFacts FlowFacts NavFacts CompFacts.

Theorem bus_spec : forall x cx b ins outs bo t, ctx_ok cx -> (t < cx_n cx)%nat ->
  (forall v, In v (ins ++ outs) -> v_len v = cx_n cx) ->
  bus_model cx b ins outs = Ok bo -> em_sat x (fst bo) ->
  Qsum (map (fun v => x (v_label v) t) ins) + excess x b "excess_input" t
    == Qsum (map (fun v => x (v_label v) t) outs) + excess x b "excess_output" t
  /\ 0 <= excess x b "excess_input" t /\ 0 <= excess x b "excess_output" t.
Proof.
  intros x cx b ins outs bo t CX Ht L H S. pose proof (ok_pos _ CX) as NP. unfold bus_model in H. unfold excess.
  set (terms := map (fun v => (v, NS 1)) ins ++ map (fun v => (v, NS (-1))) outs).
  assert (FL : map (fun v => AddS v (NS 1) None false) ins ++ map (fun v => AddS v (NS (-1)) None false) outs = map tcall terms).
  { unfold terms. rewrite map_app, !map_map. reflexivity. }
  assert (SM : Qsum (map (fun va => at_ (snd va) t * x (v_label (fst va)) t) terms)
     == Qsum (map (fun v => x (v_label v) t) ins) - Qsum (map (fun v => x (v_label v) t) outs)).
  { unfold terms. rewrite map_app, Qsum_app, !map_map. cbn [fst snd].
    rewrite (Qsum_map_eq (fun v => at_ (NS 1) t * x (v_label v) t) (fun v => x (v_label v) t)) by (intros; rewrite at_NS; ring).
    rewrite (Qsum_map_eq (fun v => at_ (NS (-1)) t * x (v_label v) t) (fun v => -1 * x (v_label v) t)) by (intros; rewrite at_NS; ring).
    rewrite Qsum_scale. ring. }
  assert (T0 : forall v a, In (v, a) terms -> v_len v = cx_n cx /\ good a).
  { intros v a Hv. apply in_app_or in Hv. destruct Hv as [Hv|Hv]; apply in_map_iff in Hv; destruct Hv as [u [E Hu]]; inversion E; subst;
      (split; [apply L, in_or_app; auto|apply good_NS]). }
  rewrite FL in H. clear FL. destruct (b_penalty b) as [p|].
  - bnd H a Ea. bnd H pen Epen. bnd H ei Eei. bnd H eo Eeo. bnd H k Ek. bnd H m Em. fin H. apply mk_em_spec in Em. destruct Em as [-> _]. simpl in S.
    pose proof (em_sat_vars _ _ _ _ _ _ S) as V. pose proof (em_sat_cons _ _ _ _ _ _ S) as C. apply Forall_inv in C.
    pose proof (Forall_inv V) as V1. pose proof (Forall_inv (Forall_inv_tail V)) as V2. clear V.
    apply create_variable_spec in Eei. apply create_variable_spec in Eeo.
    assert (P1 : 0 <= x (v_label ei) t).
    { change 0 with (at_ (NS 0) t). apply var_sat_lb; [auto|subst; auto|subst; auto|subst; simpl; lia]. }
    assert (P2 : 0 <= x (v_label eo) t).
    { change 0 with (at_ (NS 0) t). apply var_sat_lb; [auto|subst; auto|subst; auto|subst; simpl; lia]. }
    assert (N1 : v_label ei = vlabel (b_lab b) "excess_input" /\ v_len ei = cx_n cx) by (subst; auto).
    assert (N2 : v_label eo = vlabel (b_lab b) "excess_output" /\ v_len eo = cx_n cx) by (subst; auto).
    clear Eei Eeo V1 V2. destruct N1 as [N1 L1]. destruct N2 as [N2 L2].
    replace (map tcall terms ++ [AddS eo (NS (-1)) None false; AddS ei (NS 1) None false])
      with (map tcall (terms ++ [(eo, NS (-1)); (ei, NS 1)]) ++ map qcall []) in Ek by (rewrite app_nil_r, map_app; reflexivity).
    assert (T : forall v a, In (v, a) (terms ++ [(eo, NS (-1)); (ei, NS 1)]) -> v_len v = cx_n cx /\ good a).
    { intros v q Hv. apply in_app_or in Hv. destruct Hv as [Hv|[Hv|[Hv|[]]]]; auto; inversion Hv; subst; (split; [auto|apply good_NS]). }
    destruct (terms_law x _ _ _ _ _ _ _ NP Ek C ltac:(destruct terms; discriminate) T) as [_ R]. specialize (R t Ht). unfold rel in R.
    rewrite map_app, Qsum_app, SM in R. cbn [map fst snd] in R. rewrite !Qsum_cons, !at_NS in R. cbn [Qsum fold_right] in R.
    rewrite <- N1, <- N2. split; [lra|auto].
  - bnd H k Ek. bnd H m Em. fin H. apply mk_em_spec in Em. destruct Em as [-> _]. simpl in S.
    pose proof (em_sat_cons _ _ _ _ _ _ S) as C. apply Forall_inv in C. split; [|split; apply Qle_refl].
    destruct terms as [|t0 tr] eqn:E.
    + simpl in SM. lra.
    + rewrite <- E in *. rewrite <- (app_nil_r (map tcall terms)) in Ek. change [] with (map qcall []) in Ek.
      destruct (terms_law x _ _ _ _ _ _ _ NP Ek C ltac:(rewrite E; discriminate) T0) as [_ R]. specialize (R t Ht). unfold rel in R.
      rewrite SM in R. cbn [Qsum fold_right map] in R. lra.
Qed.

(** ** The buses of the system *)
Lemma dict_set_In : forall {A} k (v : A) d k' v', In (k', v') (dict_set k v d) -> (k' = k /\ v' = v) \/ In (k', v') d.
Proof.
  induction d as [|[k0 v0] d IH]; simpl; intros k' v' H.
  - destruct H as [H|[]]. inversion H; auto.
  - destruct (String.eqb k k0) eqn:E.
    + apply String.eqb_eq in E. subst k0. destruct H as [H|H]; [inversion H; auto|auto].
    + destruct H as [H|H]; [auto|]. destruct (IH _ _ H); auto.
Qed.
Lemma dict_set_has : forall {A} k (v : A) d, In (k, v) (dict_set k v d).
Proof.
  induction d as [|[k0 v0] d IH]; simpl; auto. destruct (String.eqb k k0) eqn:E; simpl; auto. apply String.eqb_eq in E. subst. auto.
Qed.
Lemma dict_set_keep : forall {A} k (v : A) d k', In k' (map fst d) -> In k' (map fst (dict_set k v d)).
Proof.
  induction d as [|[k0 v0] d IH]; simpl; intros k' H; [tauto|]. destruct (String.eqb k k0) eqn:E; simpl; [auto|]. destruct H; auto.
Qed.

Lemma bus_of_flow_spec : forall fs i b, bus_of_flow fs i = Some b -> used_bus fs b.
Proof.
  intros fs i b H. unfold bus_of_flow in H. destruct (find _ _) as [[c f]|] eqn:E; [|discriminate]. simpl in H. inversion H; subst.
  apply find_some in E. destruct E as [E _]. apply all_flows_In in E. exists c, f. tauto.
Qed.
Lemma bus_of_flow_unique : forall fs c f, NoDup (map (fun cf => f_id (snd cf)) (all_flows fs)) -> In c (fs_comps fs) -> In f (cp_flows c) ->
  bus_of_flow fs (f_id f) = Some (f_bus f).
Proof.
  intros fs c f ND Hc Hf. unfold bus_of_flow.
  assert (H : In (c, f) (all_flows fs)) by (apply all_flows_In; auto).
  pose proof (find_unique (fun cf : component * flow => f_id (snd cf)) _ _ ND H) as E. simpl in E. rewrite E. reflexivity.
Qed.

Section Fold.
Variable fs : flow_system.
Let step (d : list (string * bus)) (i : nat) := match bus_of_flow fs i with Some b => dict_set (b_lab b) b d | None => d end.
Lemma fold_entries : forall l d, (forall k b, In (k, b) d -> k = b_lab b /\ used_bus fs b) ->
  forall k b, In (k, b) (fold_left step l d) -> k = b_lab b /\ used_bus fs b.
Proof.
  induction l as [|i l IH]; simpl; intros d I k b H; auto. apply (IH (step d i)) in H; auto. clear H k b.
  intros k b H. unfold step in H. destruct (bus_of_flow fs i) as [b0|] eqn:E; auto.
  apply dict_set_In in H. destruct H as [[-> ->]|H]; auto. split; auto. eapply bus_of_flow_spec; eauto.
Qed.
Lemma fold_keep : forall l d k, In k (map fst d) -> In k (map fst (fold_left step l d)).
Proof.
  induction l as [|i l IH]; simpl; intros d k H; auto. apply IH. unfold step. destruct (bus_of_flow fs i); auto. apply dict_set_keep; auto.
Qed.
Lemma fold_has : forall l d i b, In i l -> bus_of_flow fs i = Some b -> In (b_lab b) (map fst (fold_left step l d)).
Proof.
  induction l as [|j l IH]; simpl; intros d i b H E; [tauto|]. destruct H as [->|H]; [|eapply IH; eauto].
  apply fold_keep. unfold step. rewrite E. apply in_map_iff. exists (b_lab b, b). split; auto. apply dict_set_has.
Qed.
End Fold.

Theorem buses_complete : forall ord fs b, (forall l, Permutation (ord l) l) -> NoDup (map (fun cf => f_id (snd cf)) (all_flows fs)) ->
  distinct_buses fs -> used_bus fs b -> In b (buses ord fs).
Proof.
  intros ord fs b PO ND [OB DB] U. pose proof U as [c [f [Hc [Hf Eb]]]]. unfold buses. apply in_map_iff.
  set (ids := ord (nodup Nat.eq_dec (map (fun cf => f_id (snd cf)) (all_flows fs)))).
  assert (Hi : In (f_id f) ids).
  { eapply Permutation_in; [apply Permutation_sym, PO|]. apply nodup_In. apply in_map_iff. exists (c, f). split; auto. apply all_flows_In; auto. }
  pose proof (bus_of_flow_unique fs c f ND Hc Hf) as E. rewrite Eb in E.
  pose proof (fold_has fs ids [] _ _ Hi E) as H. apply in_map_iff in H. destruct H as [[k b'] [Hk H]]. simpl in Hk. subst k.
  destruct (fold_entries fs ids [] ltac:(simpl; tauto) _ _ H) as [L U'].
  exists (b_lab b, b'). split; [|exact H]. simpl. apply OB; auto.
Qed.
Theorem buses_used : forall ord fs b, In b (buses ord fs) -> used_bus fs b.
Proof.
  intros ord fs b H. unfold buses in H. apply in_map_iff in H. destruct H as [[k b'] [<- H]].
  apply (fold_entries fs _ []) in H; [tauto|simpl; tauto].
Qed.

(** ** Flows at a bus *)
Section Rates.
Variables (cf : config) (ord : list nat -> list nat) (fs : flow_system) (idx : option (list nat)) (pm : pmodel)
          (cx : ctx) (cos : list comp_out) (bos : list (emodel * list share)) (em : emodel) (obj : constraint).
Hypothesis P : sys_parts cf ord fs idx pm cx cos bos em obj.

Lemma rates_spec : forall pairs vs, (forall cf, In cf pairs -> In cf (all_flows fs)) ->
  rates cos (map (fun cf => f_id (snd cf)) pairs) = Ok vs ->
  Forall2 (fun cf v => v_label v = vlabel (flow_name (fst cf) (snd cf)) "flow_rate" /\ v_len v = cx_n cx) pairs vs.
Proof.
  induction pairs as [|[c f] pairs IH]; intros vs I H; unfold rates in H; simpl in H.
  - fin H. constructor.
  - bnd H v Ev. bnd H vs' Evs. fin H. bnd Ev fo Efo. fin Ev. constructor.
    + assert (A : In (c, f) (all_flows fs)) by (apply I; simpl; auto). apply all_flows_In in A. destruct A as [Hc Hf].
      destruct (locate_flow _ _ _ _ _ _ _ _ _ _ P c f Hc Hf) as [fo' [M [Ff _]]]. assert (fo' = fo) by congruence. subst fo'.
      destruct (flow_shape_ok _ _ _ _ _ (sy_ok _ _ _ _ _ _ _ _ _ _ P) M) as [Sh _].
      split; [rewrite (fs_label _ _ _ _ Sh); reflexivity|apply (fs_len _ _ _ _ Sh)].
    + apply IH; auto. intros; apply I; simpl; auto.
Qed.

Lemma side_sum : forall (side : component -> list flow) x b vs t, (forall c f, In f (side c) -> In f (cp_flows c)) ->
  rates cos (flat_map (fun c => map f_id (filter (connected b) (side c))) (fs_comps fs)) = Ok vs ->
  (forall v, In v vs -> v_len v = cx_n cx)
  /\ Qsum (map (fun v => x (v_label v) t) vs)
     == Qsum (map (fun c => Qsum (map (fun f => rate_of x c f t) (filter (connected b) (side c)))) (fs_comps fs)).
Proof.
  intros side x b vs t SD H.
  set (pairs := flat_map (fun c => map (fun f => (c, f)) (filter (connected b) (side c))) (fs_comps fs)).
  assert (E : flat_map (fun c => map f_id (filter (connected b) (side c))) (fs_comps fs) = map (fun cf => f_id (snd cf)) pairs).
  { unfold pairs. rewrite map_flat_map. apply flat_map_ext. intros c. rewrite map_map. reflexivity. }
  rewrite E in H.
  assert (F : Forall2 (fun cf v => v_label v = vlabel (flow_name (fst cf) (snd cf)) "flow_rate" /\ v_len v = cx_n cx) pairs vs).
  { apply rates_spec; auto. intros [c f] Hcf. apply in_flat_map in Hcf. destruct Hcf as [c' [Hc' Hcf]]. apply in_map_iff in Hcf.
    destruct Hcf as [f' [X Hf']]. inversion X; subst. apply filter_In in Hf'. apply all_flows_In. split; auto. apply SD; tauto. }
  split.
  - intros v Hv. destruct (Forall2_In_r _ _ _ _ F Hv) as [a [_ [_ L]]]. auto.
  - assert (Z : Qsum (map (fun v => x (v_label v) t) vs) == Qsum (map (fun cf => rate_of x (fst cf) (snd cf) t) pairs)).
    { clear -F. induction F as [|a v al vl [L _] _ IH]; [reflexivity|]. cbn [map]. rewrite !Qsum_cons, IH, L. reflexivity. }
    rewrite Z. unfold pairs. rewrite map_flat_map, flat_map_concat_map, Qsum_concat, map_map. apply Qsum_map_eq.
    intros c _. rewrite map_map. reflexivity.
Qed.
End Rates.

Theorem bus_laws : forall cf ord fs idx pm x b, build cf ord fs idx = Ok pm -> feasible pm x -> In b (buses ord fs) ->
  forall t, (t < steps fs idx)%nat ->
    delivered fs x b t + excess x b "excess_input" t == taken fs x b t + excess x b "excess_output" t
    /\ 0 <= excess x b "excess_input" t /\ 0 <= excess x b "excess_output" t.
Proof.
  intros cf ord fs idx pm x b H F Hb t Ht. destruct (build_parts _ _ _ _ _ H) as [cx [cos [bos [em [obj P]]]]].
  destruct (Forall2_In_l _ _ _ _ (sy_buses _ _ _ _ _ _ _ _ _ _ P) Hb) as [bo [Hbo [i [o [Ei [Eo Eb]]]]]].
  apply (sy_feasible _ _ _ _ _ _ _ _ _ _ P) in F. destruct F as [_ [_ F]]. rewrite Forall_forall in F. specialize (F bo Hbo).
  rewrite <- (sy_n _ _ _ _ _ _ _ _ _ _ P) in Ht.
  destruct (side_sum _ _ _ _ _ _ _ _ _ _ P cp_out x b i t ltac:(intros; apply in_or_app; auto) Ei) as [L1 S1].
  destruct (side_sum _ _ _ _ _ _ _ _ _ _ P cp_in x b o t ltac:(intros; apply in_or_app; auto) Eo) as [L2 S2].
  unfold delivered, taken. rewrite <- S1, <- S2. apply (bus_spec x cx b i o bo t); auto.
  - apply (sy_ok _ _ _ _ _ _ _ _ _ _ P).
  - intros v Hv. apply in_app_or in Hv. destruct Hv; auto.
Qed.
