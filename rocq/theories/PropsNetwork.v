(** C68: the picture of the network.

    Nodes and edges as returned by network_infos() (and drawn by visualize_network()). *)
From Verif Require Import Base BaseFacts Params Elements System SysSpec Tree PropsTree NavFacts BusFacts Network Library Spec MathModel PropsFlow Example ExamplePoints
     ResultFacts Register Skeleton PropsComp PropsTables.

(** ** Specification *)
(** Energy flows from the bus into the component, or from the component into the bus. *)
Definition drawn (es : list (string * (string * string * string))) (c : component) (f : flow) : Prop :=
  sget (flow_name c f) es = Some (f_lab f, b_lab (f_bus f), cp_label c).
Definition fed (es : list (string * (string * string * string))) (c : component) (f : flow) : Prop :=
  sget (flow_name c f) es = Some (f_lab f, cp_label c, b_lab (f_bus f)).

Record pictured (fs : flow_system) (ns : list (string * (string * node_class))) (es : list (string * (string * string * string))) : Prop := {
  pi_component : forall c, In c (fs_comps fs) -> sget (cp_label c) ns = Some (cp_label c, AComponent);
  pi_bus : forall b, used_bus fs b -> sget (b_lab b) ns = Some (b_lab b, ABus);
  pi_nodes : forall l v, sget l ns = Some v -> (exists c, In c (fs_comps fs) /\ cp_label c = l) \/ (exists b, used_bus fs b /\ b_lab b = l);
  pi_in : forall c f, In c (fs_comps fs) -> In f (cp_in c) -> drawn es c f;
  pi_out : forall c f, In c (fs_comps fs) -> In f (cp_out c) -> fed es c f;
  pi_edges : forall l v, sget l es = Some v -> exists c f, In c (fs_comps fs) /\ In f (cp_flows c) /\ flow_name c f = l
}.

(** Different objects have different names: components, flows (by component and label) and buses; no bus is called like a component. *)
Record names_differ (fs : flow_system) : Prop := {
  nd_comps : NoDup (map cp_label (fs_comps fs));
  nd_objects : NoDup (map (fun cf => f_id (snd cf)) (all_flows fs));
  nd_flows : NoDup (map (fun cf => flow_name (fst cf) (snd cf)) (all_flows fs));
  nd_buses : distinct_buses fs;
  nd_apart : forall c b, In c (fs_comps fs) -> used_bus fs b -> cp_label c <> b_lab b
}.

(** ** Proof *)
Lemma find_flow : forall fs c f, NoDup (map (fun cf => f_id (snd cf)) (all_flows fs)) -> In c (fs_comps fs) -> In f (cp_flows c) -> flow_of_id fs (f_id f) = Some (c, f).
Proof.
  intros fs c f ND Hc Hf. assert (H : In (c, f) (all_flows fs)) by (apply all_flows_In; auto). unfold flow_of_id. clear Hc Hf.
  induction (all_flows fs) as [|[c' f'] l IH]; [destruct H|]. cbn [find snd map] in *. inversion ND as [|? ? N1 N2]; subst.
  destruct H as [H|H]; [injection H as -> ->; rewrite Nat.eqb_refl; reflexivity|].
  destruct (Nat.eqb_spec (f_id f') (f_id f)) as [E|]; [|apply IH; assumption]. exfalso. apply N1. rewrite E. apply in_map_iff. exists (c, f). auto.
Qed.
Lemma flow_of_id_In : forall fs i c f, flow_of_id fs i = Some (c, f) -> In c (fs_comps fs) /\ In f (cp_flows c) /\ f_id f = i.
Proof.
  intros fs i c f H. unfold flow_of_id in H. apply find_some in H. destruct H as [H E]. apply all_flows_In in H. cbn [snd] in E. apply Nat.eqb_eq in E. tauto.
Qed.

Section Picture.
Variables (ord : list nat -> list nat) (fs : flow_system).
Hypothesis PO : forall l, Permutation (ord l) l.
Hypothesis OBJ : NoDup (map (fun cf => f_id (snd cf)) (all_flows fs)).
Hypothesis FN : NoDup (map (fun cf => flow_name (fst cf) (snd cf)) (all_flows fs)).

Let ids := ord (nodup Nat.eq_dec (map (fun cf : component * flow => f_id (snd cf)) (all_flows fs))).
Let raw := flat_map (fun i => match flow_of_id fs i with Some (c, f) => [(flow_full (cp_label c) (f_lab f), edge_of c f)] | None => [] end) ids.
Lemma raw_perm : Permutation raw (map (fun cf : component * flow => (flow_name (fst cf) (snd cf), edge_of (fst cf) (snd cf))) (all_flows fs)).
Proof.
  subst raw ids. eapply perm_trans; [apply Permutation_flat_map, PO|]. rewrite (nodup_fixed_point Nat.eq_dec OBJ).
  assert (F : forall cf, In cf (all_flows fs) -> flow_of_id fs (f_id (snd cf)) = Some cf).
  { intros [c f] H. apply all_flows_In in H. apply find_flow; tauto. }
  assert (G : forall l, incl l (all_flows fs) ->
    flat_map (fun i => match flow_of_id fs i with Some (c, f) => [(flow_full (cp_label c) (f_lab f), edge_of c f)] | None => [] end) (map (fun cf : component * flow => f_id (snd cf)) l)
    = map (fun cf : component * flow => (flow_name (fst cf) (snd cf), edge_of (fst cf) (snd cf))) l).
  { intros l. induction l as [|cf l IH]; intros I; [reflexivity|]. cbn [map flat_map]. rewrite (F cf (I cf (or_introl eq_refl))), IH by (intros x Hx; apply I; right; exact Hx).
    destruct cf as [c f]. reflexivity. }
  rewrite (G _ (incl_refl _)). apply Permutation_refl.
Qed.
Lemma raw_keys : NoDup (map fst raw).
Proof.
  eapply Permutation_NoDup; [apply Permutation_map, Permutation_sym, raw_perm|]. rewrite map_map. cbn [fst]. exact FN.
Qed.
Lemma edge_found : forall c f, In c (fs_comps fs) -> In f (cp_flows c) -> sget (flow_name c f) (edges ord fs) = Some (edge_of c f).
Proof.
  intros c f Hc Hf. change (edges ord fs) with (str_dict raw). rewrite (str_dict_nodup _ raw_keys). apply In_sget; [exact raw_keys|].
  apply (Permutation_in _ (Permutation_sym raw_perm)). apply in_map_iff. exists (c, f). split; [reflexivity|]. apply all_flows_In. auto.
Qed.
Lemma edge_only : forall l v, sget l (edges ord fs) = Some v -> exists c f, In c (fs_comps fs) /\ In f (cp_flows c) /\ flow_name c f = l /\ v = edge_of c f.
Proof.
  intros l v H. change (edges ord fs) with (str_dict raw) in H. rewrite (str_dict_nodup _ raw_keys) in H. apply sget_In in H.
  apply (Permutation_in _ raw_perm) in H. apply in_map_iff in H. destruct H as [[c f] [E H]]. apply all_flows_In in H. injection E as E1 E2. exists c, f. cbn [fst snd] in *. intuition congruence.
Qed.
Lemma edge_in : forall c f, In f (cp_in c) -> edge_of c f = (f_lab f, b_lab (f_bus f), cp_label c).
Proof.
  intros c f H. unfold edge_of. assert (E : is_input_in_comp c f = true) by (apply existsb_exists; exists f; split; [exact H|apply Nat.eqb_refl]). rewrite E. reflexivity.
Qed.
Lemma edge_out : forall c f, In c (fs_comps fs) -> In f (cp_out c) -> edge_of c f = (f_lab f, cp_label c, b_lab (f_bus f)).
Proof.
  intros c f Hc H. unfold edge_of. destruct (is_input_in_comp c f) eqn:E; [|reflexivity]. exfalso. apply existsb_exists in E. destruct E as [g [Hg E]]. apply Nat.eqb_eq in E.
  pose proof (NoDup_flat_map_part _ _ _ c OBJ Hc) as N. cbv beta in N. rewrite map_map in N. cbn [snd] in N. unfold cp_flows in N. rewrite map_app in N.
  apply (in_split g) in Hg. destruct Hg as [a [b_ Eg]]. rewrite Eg in N. rewrite map_app in N. cbn [map] in N. rewrite <- app_assoc in N. apply NoDup_remove_2 in N. apply N.
  apply in_or_app. right. apply in_or_app. right. rewrite E. apply in_map. exact H.
Qed.
End Picture.

Lemma bus_in : forall ord fs b, names_differ fs -> (forall l, Permutation (ord l) l) -> used_bus fs b -> In b (buses ord fs).
Proof. intros ord fs b N PO U. apply buses_complete; auto; apply N. Qed.

Theorem C68_network_partial : forall ord fs, (forall l, Permutation (ord l) l) -> names_differ fs -> pictured fs (nodes ord fs) (edges ord fs).
Proof.
  intros ord fs PO N. pose proof (nd_objects _ N) as OBJ. pose proof (nd_flows _ N) as FN.
  assert (BL : NoDup (map b_lab (buses ord fs))) by apply bus_labels_nodup.
  assert (NN : NoDup (map fst (map (fun c => (cp_label c, (cp_label c, AComponent))) (fs_comps fs) ++ map (fun b => (b_lab b, (b_lab b, ABus))) (buses ord fs)))).
  { rewrite map_app, !map_map. cbn [fst]. apply NoDup_app_intro; [apply N|exact BL|]. intros l H1 H2. apply in_map_iff in H1. apply in_map_iff in H2.
    destruct H1 as [c [<- Hc]], H2 as [b [E Hb]]. apply (nd_apart _ N c b Hc); [exact (buses_used _ _ _ Hb)|auto]. }
  assert (EN : nodes ord fs = map (fun c => (cp_label c, (cp_label c, AComponent))) (fs_comps fs) ++ map (fun b => (b_lab b, (b_lab b, ABus))) (buses ord fs)) by (unfold nodes; apply str_dict_nodup; exact NN).
  constructor.
  - intros c Hc. rewrite EN. apply In_sget; [exact NN|]. apply in_or_app. left. apply in_map_iff. exists c. auto.
  - intros b U. rewrite EN. apply In_sget; [exact NN|]. apply in_or_app. right. apply in_map_iff. exists b. split; [reflexivity|]. apply bus_in; auto.
  - intros l v H. rewrite EN in H. apply sget_In in H. apply in_app_or in H. destruct H as [H|H]; apply in_map_iff in H; destruct H as [a [E H]]; injection E as E _; [left|right]; exists a; split; auto.
    exact (buses_used _ _ _ H).
  - intros c f Hc Hf. unfold drawn. rewrite <- (edge_in c f Hf). apply edge_found; auto. apply in_or_app. left. exact Hf.
  - intros c f Hc Hf. unfold fed. rewrite <- (edge_out fs OBJ c f Hc Hf). apply edge_found; auto. apply in_or_app. right. exact Hf.
  - intros l v H. destruct (edge_only ord fs PO OBJ FN l v H) as [c [f [A [B [C _]]]]]. exists c, f. auto.
Qed.
Print Assumptions C68_network_partial.

(** Without the condition that no bus is called like a component the picture is wrong: the bus replaces the component. *)
Definition C68_full : Prop := forall cf ord fs idx pm, build cf ord fs idx = Ok pm -> (forall l, Permutation (ord l) l) -> distinct_buses fs ->
  pictured fs (nodes ord fs) (edges ord fs).
Theorem C68_refuted : ~ C68_full.
Proof.
  intros F. destruct (run_ok (build default_config id_ord fs_alike None) x_alike) as [pm [B _]]; [vm_compute; reflexivity|].
  assert (D : distinct_buses fs_alike) by buses.
  destruct (F _ _ _ _ _ B id_ord_perm D) as [P _ _ _ _ _]. specialize (P _ (or_introl eq_refl)).
  assert (C : sget "Gas" (nodes id_ord fs_alike) = Some ("Gas"%string, ABus)) by (vm_compute; reflexivity).
  change (cp_label (source "Gas" (fl 150 "Q" gas 10))) with "Gas"%string in P. rewrite C in P. discriminate P.
Qed.
Print Assumptions C68_refuted.

(** ** The ends of every edge are nodes, whatever the names are *)
Lemma str_dict_In : forall {A} (l : list (string * A)) k v, sget k (str_dict l) = Some v -> In (k, v) l.
Proof.
  intros A l k v H. apply sget_In in H. unfold str_dict in H.
  cut (forall acc : list (string * A), In (k, v) (fold_left (fun d kv => dict_set (fst kv) (snd kv) d) l acc) -> In (k, v) acc \/ In (k, v) l).
  { intros G. destruct (G [] H) as [[]|G']. exact G'. }
  clear H. induction l as [|[k' v'] l IH]; intros acc H; cbn [fold_left fst snd] in H; [auto|]. apply IH in H. destruct H as [H|H]; [|right; right; exact H].
  apply dict_set_In in H. destruct H as [[-> ->]|H]; [right; left; reflexivity|auto].
Qed.
Lemma str_dict_has : forall {A} (l : list (string * A)) k, In k (map fst l) -> exists v, sget k (str_dict l) = Some v.
Proof.
  intros A l k H. cut (In k (map fst (str_dict l))).
  { intros G. apply in_map_iff in G. destruct G as [[k' v] [E G]]. cbn [fst] in E. subst k'. exists v. apply In_sget; [apply str_dict_keys|exact G]. }
  unfold str_dict. cut (forall acc : list (string * A), In k (map fst acc) \/ In k (map fst l) -> In k (map fst (fold_left (fun d kv => dict_set (fst kv) (snd kv) d) l acc))).
  { intros G. apply G. right. exact H. }
  clear H. induction l as [|[k' v'] l IH]; intros acc H; cbn [fold_left fst snd map] in *; [destruct H as [H|[]]; exact H|]. apply IH. destruct H as [H|[<-|H]].
  - left. apply dict_set_keep. exact H.
  - left. apply in_map_iff. exists (k', v'). split; [reflexivity|apply dict_set_has].
  - right. exact H.
Qed.
Lemma bus_listed : forall ord fs i b, (forall l, Permutation (ord l) l) -> bus_of_flow fs i = Some b -> In i (map (fun cf => f_id (snd cf)) (all_flows fs)) ->
  In (b_lab b) (map b_lab (buses ord fs)).
Proof.
  intros ord fs i b PO E I. unfold buses. apply (nodup_In Nat.eq_dec) in I. apply (Permutation_in _ (Permutation_sym (PO _))) in I. revert I.
  set (step := fun (d : list (string * bus)) i => match bus_of_flow fs i with Some b => dict_set (b_lab b) b d | None => d end).
  assert (G : forall l d, (forall k b, In (k, b) d -> k = b_lab b) -> (In (b_lab b) (map fst d) \/ In i l) ->
     In (b_lab b) (map fst (fold_left step l d)) /\ (forall k b, In (k, b) (fold_left step l d) -> k = b_lab b)).
  { induction l as [|j l IH]; intros d K H; cbn [fold_left]; [destruct H as [H|[]]; auto|]. apply IH.
    - intros k c Hc. unfold step in Hc. destruct (bus_of_flow fs j) as [b0|]; auto. apply dict_set_In in Hc. destruct Hc as [[-> ->]|Hc]; auto.
    - destruct H as [H|[->|H]]; [left|left|right; exact H].
      + unfold step. destruct (bus_of_flow fs j); [|exact H]. apply dict_set_keep. exact H.
      + unfold step. rewrite E. apply in_map_iff. exists (b_lab b, b). split; [reflexivity|apply dict_set_has]. }
  intros I. destruct (G (ord (nodup Nat.eq_dec (map (fun cf => f_id (snd cf)) (all_flows fs)))) [] ltac:(intros ? ? []) (or_intror I)) as [G1 G2]. fold step.
  apply in_map_iff in G1. destruct G1 as [[k c] [E1 H1]]. cbn [fst] in E1. rewrite map_map. apply in_map_iff. exists (k, c). split; [|exact H1]. cbn [snd]. rewrite <- (G2 _ _ H1). exact E1.
Qed.
Theorem C68_edge_ends : forall ord fs l lab s e, (forall l, Permutation (ord l) l) -> sget l (edges ord fs) = Some (lab, s, e) ->
  (exists n, sget s (nodes ord fs) = Some n) /\ (exists n, sget e (nodes ord fs) = Some n).
Proof.
  intros ord fs l lab s e PO H. unfold edges in H. apply str_dict_In in H. apply in_flat_map in H. destruct H as [i [Hi H]].
  destruct (flow_of_id fs i) as [[c f]|] eqn:E; [|destruct H]. destruct H as [H|[]]. injection H as _ H.
  assert (C : exists n, sget (cp_label c) (nodes ord fs) = Some n).
  { unfold nodes. apply str_dict_has. rewrite map_app, !map_map. apply in_or_app. left. cbn [fst]. apply in_map. exact (proj1 (flow_of_id_In _ _ _ _ E)). }
  assert (B : exists n, sget (b_lab (f_bus f)) (nodes ord fs) = Some n).
  { unfold nodes. apply str_dict_has. rewrite map_app, !map_map. apply in_or_app. right. cbn [fst]. apply bus_listed with i; [exact PO| |].
    - unfold bus_of_flow. unfold flow_of_id in E. rewrite E. reflexivity.
    - apply (nodup_In Nat.eq_dec). apply (Permutation_in _ (PO _)). exact Hi. }
  unfold edge_of in H. destruct (is_input_in_comp c f); injection H as <- <- <-; auto.
Qed.
Print Assumptions C68_edge_ends.

(** ** Which way the flows of the named components run *)
Record directions (fs : flow_system) (es : list (string * (string * string * string))) : Prop := {
  di_source : forall l f, In (Library.source l f) (fs_comps fs) -> fed es (Library.source l f) f;
  di_sink : forall l f, In (Library.sink l f) (fs_comps fs) -> drawn es (Library.sink l f) f;
  di_both : forall l so si p, In (source_and_sink l so si p) (fs_comps fs) ->
    fed es (source_and_sink l so si p) so /\ drawn es (source_and_sink l so si p) si;
  di_storage : forall l ch dis s p, In (storage_ l ch dis s p) (fs_comps fs) -> drawn es (storage_ l ch dis s p) ch /\ fed es (storage_ l ch dis s p) dis;
  di_line : forall l i1 o1 i2 o2 rl_ ab oo p, In (transmission l i1 o1 i2 o2 rl_ ab oo p) (fs_comps fs) ->
    let c := transmission l i1 o1 i2 o2 rl_ ab oo p in
    drawn es c i1 /\ fed es c o1 /\ (forall f, i2 = Some f -> drawn es c f) /\ (forall f, o2 = Some f -> fed es c f);
  di_boiler : forall l eta fu th oo c, boiler_ l eta fu th oo = Ok c -> In c (fs_comps fs) -> drawn es c fu /\ fed es c th;
  di_p2h : forall l eta p th oo c, power2heat l eta p th oo = Ok c -> In c (fs_comps fs) -> drawn es c p /\ fed es c th;
  di_hp : forall l cop p th oo c, heat_pump l cop p th oo = Ok c -> In c (fs_comps fs) -> drawn es c p /\ fed es c th;
  (* a cooling tower takes the heat away: it draws both *)
  di_tower : forall l sp p th oo c, cooling_tower l sp p th oo = Ok c -> In c (fs_comps fs) -> drawn es c p /\ drawn es c th;
  di_chp : forall l et ee fu p th oo c, chp_ l et ee fu p th oo = Ok c -> In c (fs_comps fs) -> drawn es c fu /\ fed es c p /\ fed es c th;
  di_hps : forall l cop p ab th oo c, heat_pump_with_source l cop p ab th oo = Ok c -> In c (fs_comps fs) -> drawn es c p /\ drawn es c ab /\ fed es c th
}.
Lemma converter_sides : forall l ins outs oo fa sg c, linear_converter l ins outs oo fa sg = Ok c -> cp_in c = ins /\ cp_out c = outs.
Proof.
  intros l ins outs oo fa sg c H. unfold linear_converter in H. destruct fa, sg; try discriminate H.
  - destruct (guard _ _) in H; [|discriminate H]. cbn in H. injection H as <-. auto.
  - destruct (guard _ _) in H; [|discriminate H]. cbn in H. destruct (guard _ _) in H; [|discriminate H]. cbn in H. injection H as <-. auto.
Qed.
Theorem C68_directions : forall ord fs, (forall l, Permutation (ord l) l) -> names_differ fs -> directions fs (edges ord fs).
Proof.
  intros ord fs PO N. destruct (C68_network_partial ord fs PO N) as [_ _ _ I O _].
  assert (K : forall l ins outs oo fa sg c, linear_converter l ins outs oo fa sg = Ok c -> In c (fs_comps fs) ->
     (forall f, In f ins -> drawn (edges ord fs) c f) /\ (forall f, In f outs -> fed (edges ord fs) c f)).
  { intros l ins outs oo fa sg c H Hc. apply converter_sides in H. destruct H as [<- <-]. auto. }
  constructor.
  - intros l f Hc. apply (O _ _ Hc). left. reflexivity.
  - intros l f Hc. apply (I _ _ Hc). left. reflexivity.
  - intros l so si p Hc. split; [apply (O _ _ Hc)|apply (I _ _ Hc)]; left; reflexivity.
  - intros l ch dis s p Hc. split; [apply (I _ _ Hc)|apply (O _ _ Hc)]; left; reflexivity.
  - intros l i1 o1 i2 o2 rl_ ab oo p Hc. split; [apply (I _ _ Hc); left; reflexivity|]. split; [apply (O _ _ Hc); left; reflexivity|].
    split; intros f ->; [apply (I _ _ Hc)|apply (O _ _ Hc)]; right; left; reflexivity.
  - intros l eta fu th oo c H Hc. destruct (K _ _ _ _ _ _ _ H Hc) as [A B]. split; [apply A|apply B]; left; reflexivity.
  - intros l eta fu th oo c H Hc. destruct (K _ _ _ _ _ _ _ H Hc) as [A B]. split; [apply A|apply B]; left; reflexivity.
  - intros l eta fu th oo c H Hc. destruct (K _ _ _ _ _ _ _ H Hc) as [A B]. split; [apply A|apply B]; left; reflexivity.
  - intros l sp p th oo c H Hc. unfold cooling_tower in H. destruct sp; [|discriminate H]. destruct (K _ _ _ _ _ _ _ H Hc) as [A _]. split; apply A; cbn; auto.
  - intros l et ee fu p th oo c H Hc. unfold chp_ in H. destruct (linear_converter _ _ _ _ _ _) as [c'|] eqn:E in H; [|discriminate H]. cbn [bind] in H.
    assert (c' = c) as -> by (destruct ee, et; try discriminate H; destruct (nadd _ _) in H; [|discriminate H]; cbn in H; congruence).
    destruct (K _ _ _ _ _ _ _ E Hc) as [A B]. split; [apply A; left; reflexivity|]. split; apply B; cbn; auto.
  - intros l cop p ab th oo c H Hc. unfold heat_pump_with_source in H. destruct cop; [|discriminate H]. destruct (ndiv _ _) as [r|] in H; [|discriminate H]. cbn [bind] in H.
    destruct (K _ _ _ _ _ _ _ H Hc) as [A B]. split; [apply A; cbn; auto|]. split; [apply A; cbn; auto|apply B; left; reflexivity].
Qed.
Print Assumptions C68_directions.

(** A source-and-sink that must not do both at once delivers nothing or draws nothing. *)
Theorem C68_source_or_sink : forall cf ord fs idx pm x l so si t,
  build cf ord fs idx = Ok pm -> feasible pm x -> 0 <= cf_eps cf -> In (source_and_sink l so si true) (fs_comps fs) -> so <> si -> (t < steps fs idx)%nat ->
  rate_of x (source_and_sink l so si true) so t == 0 \/ rate_of x (source_and_sink l so si true) si t == 0.
Proof.
  intros cf ord fs idx pm x l so si t B F E Hc D Ht.
  apply (C18_exclusive_flows _ _ _ _ _ _ _ _ _ _ B F E Hc); auto; cbn; auto.
Qed.
Print Assumptions C68_source_or_sink.

(** ** The conditions are met *)
Definition buy := fl 160 "buy" el 10. Definition sell := fl 161 "sell" el 10.
Definition fs_both : flow_system :=
  mkFS [0; 1] 2 (NS 1) [costs]
    [source_and_sink "Grid" buy sell true; Library.source "Panel" (set_profile (Some (na [0; 6])) (fl 162 "P" el 1));
     Library.sink "House" (set_profile (Some (na [4; 2])) (fl 163 "P" el 1))].
Definition x_both : asg := of_table
  [("Grid__sell_flow_rate", [0; 4]); ("Grid__sell_sumFlowHours", [4]); ("Grid__buy_flow_rate", [4; 0]); ("Grid__buy_sumFlowHours", [4]);
   ("Grid__sell__OnOff_on", [0; 1]); ("Grid__sell__OnOff_totalOnHours", [1]); ("Grid__sell__OnOff_switchOn", [0; 1]); ("Grid__sell__OnOff_nrSwitchOn", [1]);
   ("Grid__buy__OnOff_on", [1; 0]); ("Grid__buy__OnOff_totalOnHours", [1]); ("Grid__buy__OnOff_switchOn", [1; 0]); ("Grid__buy__OnOff_switchOff", [0; 1]);
   ("Grid__buy__OnOff_nrSwitchOn", [1]); ("Panel__P_flow_rate", [0; 6]); ("Panel__P_sumFlowHours", [6]); ("House__P_flow_rate", [4; 2]);
   ("House__P_sumFlowHours", [6])]%string.
Lemma names_differ_both : names_differ fs_both.
Proof.
  constructor.
  - cbn. repeat constructor; cbn; intuition discriminate.
  - cbn. repeat constructor; cbn; intuition discriminate.
  - cbv. repeat constructor; cbn; intuition discriminate.
  - buses.
  - intros c b Hc [c' [f [Hc' [Hf <-]]]]. cbv [fs_both fs_comps In] in Hc, Hc'.
    assert (B : f_bus f = el) by (repeat (destruct Hc' as [<-|Hc']; [cbn in Hf; intuition (subst; reflexivity)|]); destruct Hc'). rewrite B.
    repeat (destruct Hc as [<-|Hc]; [discriminate|]). destruct Hc.
Qed.
Example C68_applies : drawn (edges id_ord fs_both) (source_and_sink "Grid" buy sell true) sell /\ fed (edges id_ord fs_both) (source_and_sink "Grid" buy sell true) buy
  /\ edges id_ord fs_both = [("Grid__sell", ("sell", "El", "Grid")); ("Grid__buy", ("buy", "Grid", "El")); ("Panel__P", ("P", "Panel", "El")); ("House__P", ("P", "El", "House"))]%string
  /\ nodes id_ord fs_both = [("Grid", ("Grid", AComponent)); ("Panel", ("Panel", AComponent)); ("House", ("House", AComponent)); ("El", ("El", ABus))]%string.
Proof.
  destruct (di_both _ _ (C68_directions id_ord fs_both id_ord_perm names_differ_both) "Grid" buy sell true (or_introl eq_refl)) as [A B].
  split; [exact B|]. split; [exact A|]. split; vm_compute; reflexivity.
Qed.
Example C68_source_or_sink_applies : (exists pm, build default_config id_ord fs_both None = Ok pm /\ feasible pm x_both) /\
  (x_both "Grid__buy_flow_rate" 0%nat == 4 /\ x_both "Grid__sell_flow_rate" 0%nat == 0) /\ (x_both "Grid__buy_flow_rate" 1%nat == 0 /\ x_both "Grid__sell_flow_rate" 1%nat == 4).
Proof.
  split; [|repeat split; vm_compute; reflexivity]. apply run_ok. vm_compute. reflexivity.
Qed.
(** Boiler, storage, transmission, combined heat and power: the systems used elsewhere meet the conditions as well. *)
Lemma names_differ_1 : names_differ fs1.
Proof.
  constructor.
  - cbn. repeat constructor; cbn; intuition discriminate.
  - cbn. repeat constructor; cbn; intuition discriminate.
  - cbv. repeat constructor; cbn; intuition discriminate.
  - buses.
  - intros c b Hc [c' [f [Hc' [Hf <-]]]] E. assert (X : existsb (fun c => existsb (fun cf => String.eqb (cp_label c) (b_lab (f_bus (snd cf)))) (all_flows fs1)) (fs_comps fs1) = true).
    { apply existsb_exists. exists c. split; [exact Hc|]. apply existsb_exists. exists (c', f). split; [apply all_flows_In; auto|apply String.eqb_eq; exact E]. }
    vm_compute in X. discriminate X.
Qed.
Example C68_applies_1 : pictured fs1 (nodes id_ord fs1) (edges id_ord fs1) /\ length (edges id_ord fs1) = length (all_flows fs1) /\ (6 <= length (nodes id_ord fs1))%nat.
Proof. split; [apply C68_network_partial; [exact id_ord_perm|exact names_differ_1]|]. split; [vm_compute; reflexivity|vm_compute; lia]. Qed.
