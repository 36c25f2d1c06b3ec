(** C28, C49: what a calculation reports after solving is what the solver decided; tables of a bus balance. *)
From Verif Require Import Base BaseFacts MathModel Spec MathFacts Structure StructureFacts Params Features Elements System Library SysSpec
     CtxFacts ReadTools InvestFacts OnOffFacts FlowFacts NavFacts CompFacts SegFacts BusFacts FlowAdmits PropsFlow PropsComp ShareFacts EffectFacts EffectLaws
     PropsEffects Tree PropsTree Values PropsValues Results ResultFacts Example ExamplePoints.

(** ** Specification *)

(** An entry of the results holds the [n] values of [g]: a number if there is one, otherwise an array. *)
Definition holds (n : nat) (g : nat -> Q) (a : leaf) : Prop :=
  match a with
  | LNum _ _ q => n = 1%nat /\ q == g 0%nat
  | LArr AInt l | LArr AFlt l => n <> 1%nat /\ length l = n /\ forall t, (t < n)%nat -> nth t l 0 == g t
  | _ => False
  end.
(** Under the keys [path] the results hold the [n] values of [g]. *)
Definition reported (r : list (string * tree leaf)) (path : list string) (n : nat) (g : nat -> Q) : Prop :=
  exists a, extract (Node r) path = Some (Leaf a) /\ holds n g a.

(** Components and effects have different labels, no effect is called like the penalty and no flow like one of the parts of a component. *)
Definition plain_labels (fs : flow_system) : Prop :=
  NoDup (map cp_label (fs_comps fs)) /\ NoDup (map e_label (fs_effects fs)) /\ ~ In "penalty" (map e_label (fs_effects fs))
  /\ forall c f, In c (fs_comps fs) -> In f (cp_flows c) ->
       ~ In (f_lab f) ["charge_state"; "netto_discharge"; "OnOff"; "PreventSimultaneousUsage"; "MultipleSegments"; "Investment"].

(** The user modelled, maybe solved before, did not ask for results yet, and the last run gave the values [x]. *)
Definition results_after (cf : config) (ord : list nat -> list nat) (fs : flow_system) (idx : option (list nat)) (kd : akind)
           (history : list cop) (x : asg) : res (option (list (string * tree leaf))) :=
  snd (do_cop cf ord fs idx kd (calls cf ord fs idx kd (history ++ [Solve (Some x)])) GetResults).

(** The values given to binary variables are exactly 0 or 1. *)
Definition integral (pm : pmodel) (x : asg) : Prop :=
  forall p i e, In p (pm_vars pm) -> nth_error (pv_entries p) i = Some e -> pe_bin e = true -> x (pv_label p) i == 0 \/ x (pv_label p) i == 1.

(** What a user looks up. *)
Record reports (cf : config) (ord : list nat -> list nat) (fs : flow_system) (idx : option (list nat)) (kd : akind) (pm : pmodel) (x : asg)
       (r : list (string * tree leaf)) : Prop := {
  rp_component : forall c, In c (fs_comps fs) -> extract (Node r) ["Components"; cp_label c] <> None;
  rp_flow : forall c f, In c (fs_comps fs) -> In f (cp_flows c) ->
    reported r ["Components"; cp_label c; f_lab f; "flow_rate"] (steps fs idx) (rate_of x c f);
  rp_on : forall c f p, In c (fs_comps fs) -> In f (cp_flows c) -> governed fs idx c f = Some p ->
    reported r ["Components"; cp_label c; f_lab f; "OnOff"; "on"] (steps fs idx) (on_of x c f);
  rp_size : forall c f iv, In c (fs_comps fs) -> In f (cp_flows c) -> sized cf c f = SzInv iv ->
    reported r ["Components"; cp_label c; f_lab f; "Investment"; "size"] 1 (x (inv (flow_name c f) "size"));
  rp_comp_on : forall c p, In c (fs_comps fs) -> cp_onoff c = Some p ->
    reported r ["Components"; cp_label c; "OnOff"; "on"] (steps fs idx) (x (oo (cp_label c) "on"));
  rp_charge : forall c s, In c (fs_comps fs) -> cp_kind c = StorageC s ->
    reported r ["Components"; cp_label c; "charge_state"] (S (steps fs idx)) (charge x c)
    /\ reported r ["Components"; cp_label c; "netto_discharge"] (steps fs idx) (x (vlabel (cp_label c) "netto_discharge"))
    /\ (forall iv, st_cap s = CapInv iv -> reported r ["Components"; cp_label c; "Investment"; "size"] 1 (x (inv (cp_label c) "size")));
  rp_excess : forall b what, In b (buses ord fs) -> b_penalty b <> None -> what = "excess_input" \/ what = "excess_output" ->
    reported r ["Buses"; b_lab b; what] (steps fs idx) (excess x b what);
  rp_no_excess : forall b, In b (buses ord fs) -> b_penalty b = None -> extract (Node r) ["Buses"; b_lab b] = Some (Node []);
  rp_buses : forall l, extract (Node r) ["Buses"; l] <> None -> exists b, In b (buses ord fs) /\ b_lab b = l;
  rp_effect : forall e, In e (fs_effects fs) ->
    reported r ["Effects"; e_label e; "operation"; "operation_sum_TS"] (steps fs idx) (op_at x e)
    /\ reported r ["Effects"; e_label e; "operation"; "operation_sum"] 1 (fun _ => op_sum x e)
    /\ reported r ["Effects"; e_label e; "invest"; "invest_sum"] 1 (fun _ => inv_sum x e)
    /\ reported r ["Effects"; e_label e; "all"; "all_sum"] 1 (fun _ => all_sum x e);
  rp_penalty : reported r ["Effects"; "penalty"; "penalty_sum"] 1 (fun _ => penalty_sum x);
  rp_objective : reported r ["Objective"] 1 (fun _ => objective_value pm x);
  rp_time : exists l, extract (Node r) ["Time"] = Some (Leaf (LArr kd l)) /\ length l = S (steps fs idx)
    /\ forall t, (t < steps fs idx)%nat -> nth t l 0 = stamp fs (selected idx t) /\ nth (S t) l 0 - nth t l 0 = hours fs idx t;
  rp_hours : exists l, extract (Node r) ["Time intervals in hours"] = Some (Leaf (LArr AFlt l)) /\ length l = steps fs idx
    /\ forall t, (t < steps fs idx)%nat -> nth t l 0 = hours fs idx t
}.

(** ** Proof *)
Lemma truncate_01 : forall q, q == 0 \/ q == 1 -> inject_Z (truncate q) == q.
Proof.
  intros [a d] H. unfold truncate. cbn [Qnum Qden]. unfold Qeq in *. cbn [Qnum Qden inject_Z] in *.
  destruct H as [H|H].
  - assert (a = 0)%Z by lia. subst. rewrite Z.quot_0_l by lia. lia.
  - assert (a = Z.pos d)%Z by lia. subst. rewrite Z.quot_same by lia. lia.
Qed.

Lemma var_holds : forall x v, (v_bin v = true -> forall t, (t < v_len v)%nat -> x (v_label v) t == 0 \/ x (v_label v) t == 1) ->
  holds (v_len v) (x (v_label v)) (var_result (Some x) v).
Proof.
  intros x v B. unfold var_result.
  assert (W : forall t, (t < v_len v)%nat -> written v x t == x (v_label v) t).
  { intros t Ht. unfold written. destruct (v_bin v); [apply truncate_01, B; auto|reflexivity]. }
  assert (L : length (map (written v x) (seq 0 (v_len v))) = v_len v) by (rewrite map_length, seq_length; reflexivity).
  assert (N : forall t, (t < v_len v)%nat -> nth t (map (written v x) (seq 0 (v_len v))) 0 == x (v_label v) t).
  { intros t Ht. rewrite <- (W t Ht). rewrite (nth_indep _ 0 (written v x 0%nat)) by lia. rewrite map_nth, seq_nth by lia. reflexivity. }
  destruct (map (written v x) (seq 0 (v_len v))) as [|q [|q' l]] eqn:E; cbn [length] in L.
  - destruct (v_bin v); cbn [holds]; rewrite <- L; repeat split; auto; intros; lia.
  - cbn [holds]. split; [auto|]. specialize (N 0%nat ltac:(lia)). exact N.
  - destruct (v_bin v); cbn [holds]; (split; [lia|split; [exact L|exact N]]).
Qed.

Lemma flow_labels_distinct : forall cf ord fs idx pm cx cos bos em obj, sys_parts cf ord fs idx pm cx cos bos em obj ->
  NoDup (map (fun p => flow_name (fst p) (snd p)) (all_flows fs)).
Proof.
  intros cf ord fs idx pm cx cos bos em obj P. pose proof (rates_distinct _ _ _ _ _ _ _ _ _ _ P) as N.
  assert (E : map (fun fo => v_label (fo_rate fo)) (flat_map co_flows cos)
              = map (fun n => vlabel n "flow_rate") (map (fun p => flow_name (fst p) (snd p)) (all_flows fs))).
  { pose proof (sy_comps _ _ _ _ _ _ _ _ _ _ P) as H. unfold all_flows. pose proof (sy_ok _ _ _ _ _ _ _ _ _ _ P) as CX. clear -H CX.
    induction H as [|c o cl ol [oo_ [pm_ [so Q]]] _ IH]; [reflexivity|]. cbn [flat_map]. rewrite !map_app, IH. f_equal.
    pose proof (pa_flows _ _ _ _ _ _ _ _ Q) as F. rewrite !map_map. cbn [fst snd].
    clear -F CX. induction F as [|f fo fl fos H _ IH]; [reflexivity|]. cbn [map]. rewrite IH. f_equal.
    destruct (flow_shape_ok _ _ _ _ _ CX H) as [S _]. rewrite (fs_label _ _ _ _ S). reflexivity. }
  rewrite E in N. clear E. apply NoDup_map_inv in N. exact N.
Qed.

Lemma comp_flow_labels : forall cf ord fs idx pm cx cos bos em obj c, sys_parts cf ord fs idx pm cx cos bos em obj -> In c (fs_comps fs) ->
  NoDup (map f_lab (cp_flows c)).
Proof.
  intros cf ord fs idx pm cx cos bos em obj c P Hc. pose proof (flow_labels_distinct _ _ _ _ _ _ _ _ _ _ P) as N.
  unfold all_flows in N. pose proof (NoDup_flat_map_part _ _ _ c N Hc) as N1. cbv beta in N1. rewrite map_map in N1. cbn [fst snd] in N1.
  unfold flow_name in N1. rewrite <- (map_map f_lab (fun l => flow_full (cp_label c) l)) in N1. apply NoDup_map_inv in N1. exact N1.
Qed.

(** A model of the system with the keys under which its results are found. *)
Inductive placed (b : built_system) : list string -> emodel -> Prop :=
| pl_comp co : In co (bs_comps b) -> placed b ["Components"; em_label (co_tree co)] (co_tree co)
| pl_effects : placed b ["Effects"] (bs_effects b)
| pl_bus m : In m (bs_buses b) -> placed b ["Buses"; em_label m] m
| pl_sub p m s : placed b p m -> In s (em_subs m) -> placed b (p ++ [em_label s]) s.

Lemma flat_In_sub : forall d m s, In m (flat d) -> In s (em_subs m) -> In s (flat d).
Proof.
  apply (emodel_ind' (fun d => forall m s, In m (flat d) -> In s (em_subs m) -> In s (flat d))).
  intros f l v c subs IH m s H Hs. cbn [flat] in *. cbn [em_subs] in *. destruct H as [<-|H].
  - right. apply in_flat_map. exists s. split; [exact Hs|apply flat_self].
  - right. apply in_flat_map in H. destruct H as [d [Hd H]]. apply in_flat_map. exists d. split; [exact Hd|].
    rewrite Forall_forall in IH. exact (IH d Hd m s H Hs).
Qed.
Lemma placed_all : forall b m p d, placed b p d -> In m (flat d) -> exists q, placed b q m.
Proof.
  intros b m p d. revert p. revert d. apply (emodel_ind' (fun d => forall p, placed b p d -> In m (flat d) -> exists q, placed b q m)).
  intros f l v c subs IH p Hp H. cbn [flat em_subs] in H. destruct H as [<-|H]; [exists p; exact Hp|].
  apply in_flat_map in H. destruct H as [d [Hd H]]. rewrite Forall_forall in IH. apply (IH d Hd (p ++ [em_label d])); [|exact H].
  eapply pl_sub; [exact Hp|exact Hd].
Qed.

Section Reported.
Variables (cf : config) (ord : list nat -> list nat) (fs : flow_system) (idx : option (list nat)) (pm : pmodel)
          (cx : ctx) (cos : list comp_out) (bos : list (emodel * list share)) (em : emodel) (obj : constraint).
Hypothesis P : sys_parts cf ord fs idx pm cx cos bos em obj.
Hypothesis PL : plain_labels fs.
Let b := mkBuilt cx em cos (map fst bos) obj.
Variables (kd : akind) (axis : list Q) (x : asg).
Let r := system_results b pm kd axis (Some x).

Lemma effects_tidy : tidy em.
Proof.
  destruct PL as [_ [N [E _]]]. eapply tidy_effects; [apply (sy_effects _ _ _ _ _ _ _ _ _ _ P)| | |].
  - rewrite Forall_app. split; rewrite Forall_forall; intros s H; apply in_flat_map in H; destruct H as [a [Ha H]].
    + destruct (Forall2_In_r _ _ _ _ (sy_comps _ _ _ _ _ _ _ _ _ _ P) Ha) as [c [_ [o1 [p1 [s1 Q]]]]].
      pose proof (comp_names_ok _ _ _ _ _ _ _ _ Q) as F. rewrite Forall_forall in F. auto.
    + destruct (Forall2_In_r _ _ _ _ (sy_buses _ _ _ _ _ _ _ _ _ _ P) Ha) as [c [_ [i [o [_ [_ Q]]]]]].
      pose proof (bus_names_ok _ _ _ _ _ Q) as F. rewrite Forall_forall in F. auto.
  - rewrite (sy_eff _ _ _ _ _ _ _ _ _ _ P). exact N.
  - rewrite (sy_eff _ _ _ _ _ _ _ _ _ _ P). exact E.
Qed.
Lemma comp_labels : map (fun o => em_label (co_tree o)) cos = map cp_label (fs_comps fs).
Proof.
  pose proof (sy_comps _ _ _ _ _ _ _ _ _ _ P) as H. clear -H. induction H as [|c o cl ol [o1 [p1 [s1 Q]]] _ IH]; [reflexivity|].
  cbn [map]. rewrite IH, (pa_tree _ _ _ _ _ _ _ _ Q). reflexivity.
Qed.
Lemma bus_labels_eq : map (fun m => em_label m) (map fst bos) = map b_lab (buses ord fs).
Proof.
  pose proof (sy_buses _ _ _ _ _ _ _ _ _ _ P) as H. clear -H. induction H as [|c o cl ol [i [o1 [_ [_ Q]]]] _ IH]; [reflexivity|].
  cbn [map]. rewrite IH. destruct (tidy_bus _ _ _ _ _ Q) as [_ [-> _]]. reflexivity.
Qed.
Lemma placed_spec : forall p m, placed b p m -> extract (Node r) p = Some (em_results (Some x) m) /\ tidy m.
Proof.
  intros p m H. induction H as [co Hc| |m Hm|p m s Hp IH Hs]; unfold b in *; cbn [bs_comps bs_buses bs_effects] in *.
  - split.
    + cbn [r extract system_results]. unfold r, system_results. rewrite sget_cons. cbn [String.eqb Ascii.eqb Bool.eqb extract bs_comps].
      rewrite str_dict_nodup by (rewrite map_map; cbn [fst]; rewrite comp_labels; apply PL).
      erewrite In_sget; [reflexivity| |apply in_map_iff; exists co; split; [reflexivity|exact Hc]].
      rewrite map_map. cbn [fst]. rewrite comp_labels. apply PL.
    + destruct (Forall2_In_r _ _ _ _ (sy_comps _ _ _ _ _ _ _ _ _ _ P) Hc) as [c [Hcc [o1 [p1 [s1 Q]]]]].
      eapply tidy_comp; [exact Q| |].
      * intros f. reflexivity.
      * split; [eapply comp_flow_labels; [exact P|exact Hcc]|]. intros f Hf. apply (proj2 (proj2 (proj2 PL)) c f Hcc Hf).
  - split; [reflexivity|apply effects_tidy].
  - split.
    + unfold r, system_results. cbn [extract]. rewrite !sget_cons. cbn [String.eqb Ascii.eqb Bool.eqb extract bs_buses].
      rewrite str_dict_nodup by (rewrite map_map; cbn [fst]; rewrite bus_labels_eq; apply bus_labels_nodup).
      erewrite In_sget; [reflexivity| |apply in_map_iff; exists m; split; [reflexivity|exact Hm]].
      rewrite map_map. cbn [fst]. rewrite bus_labels_eq. apply bus_labels_nodup.
    + apply in_map_iff in Hm. destruct Hm as [bo [<- Hb]].
      destruct (Forall2_In_r _ _ _ _ (sy_buses _ _ _ _ _ _ _ _ _ _ P) Hb) as [c [_ [i [o [_ [_ Q]]]]]].
      apply (tidy_bus _ _ _ _ _ Q).
  - destruct IH as [E T]. split; [|eapply tidy_subs; [exact T|exact Hs]]. rewrite extract_app, E. apply tidy_sub; assumption.
Qed.

Lemma placed_reported : forall p m v, placed b p m -> In v (em_vars m) ->
  (v_bin v = true -> forall t, (t < v_len v)%nat -> x (v_label v) t == 0 \/ x (v_label v) t == 1) ->
  reported r (p ++ [v_short v]) (v_len v) (x (v_label v)).
Proof.
  intros p m v Hp Hv B. destruct (placed_spec p m Hp) as [E T]. exists (var_result (Some x) v). split; [|apply var_holds; exact B].
  rewrite extract_app, E. apply tidy_var; assumption.
Qed.

Hypothesis IN : integral pm x.

Lemma placed_root : forall p m, placed b p m -> exists d, In d (em :: map co_tree cos ++ map fst bos) /\ In m (flat d).
Proof.
  intros p m H. induction H as [co Hc| |m Hm|p m s Hp IH Hs]; unfold b in *; cbn [bs_comps bs_buses bs_effects] in *.
  - exists (co_tree co). split; [right; apply in_or_app; left; apply in_map; exact Hc|apply flat_self].
  - exists em. split; [left; reflexivity|apply flat_self].
  - exists m. split; [right; apply in_or_app; right; exact Hm|apply flat_self].
  - destruct IH as [d [Hd H]]. exists d. split; [exact Hd|eapply flat_In_sub; [exact H|exact Hs]].
Qed.
Lemma program_var : forall p m v, placed b p m -> In v (em_vars m) -> exists pv, In pv (pm_vars pm) /\ translate_variable v = Ok pv.
Proof.
  intros p m v Hp Hv. destruct (placed_root p m Hp) as [d [Hd Hm]]. pose proof (sy_translate _ _ _ _ _ _ _ _ _ _ P) as T. unfold system_translate in T.
  bnd T vs Ev. bnd T cs Ec. unfold translate_model in T. bnd T pvs Epv. bnd T e1 Ee1. bnd T e2 Ee2. bnd T o Eo. apply Ok_inj in T. rewrite <- T. cbn [pm_vars].
  destruct (system_translate_vars _ _ Ev) as [_ PV]. assert (I : In v vs).
  { eapply Permutation_in; [apply Permutation_sym; exact PV|]. apply in_flat_map. exists m. split; [|exact Hv]. apply in_flat_map. exists d. split; assumption. }
  destruct (BaseFacts.mapM_In _ _ _ _ Epv I) as [pv [H1 H2]]. exists pv. split; assumption.
Qed.
Lemma translate_shape : forall v pv, translate_variable v = Ok pv -> pv_label pv = v_label v /\ length (pv_entries pv) = v_len v
  /\ forall i e, nth_error (pv_entries pv) i = Some e -> pe_bin e = v_bin v.
Proof.
  intros v pv H. unfold translate_variable in H. bnd H l1 E1. bnd H l2 E2. bnd H l3 E3. apply Ok_inj in H. subst pv. cbn [pv_label pv_entries].
  split; [reflexivity|]. split; [rewrite map_length, seq_length; reflexivity|]. intros i e H. apply nth_error_In in H. apply in_map_iff in H.
  destruct H as [j [<- _]]. destruct (nth j l3 None); reflexivity.
Qed.
Lemma tree_reported : forall p m v, placed b p m -> In v (em_vars m) -> reported r (p ++ [v_short v]) (v_len v) (x (v_label v)).
Proof.
  intros p m v Hp Hv. apply (placed_reported p m v Hp Hv). intros B t Ht. destruct (program_var p m v Hp Hv) as [pv [I T]].
  destruct (translate_shape _ _ T) as [L [N E]]. rewrite <- L. destruct (nth_error (pv_entries pv) t) as [e|] eqn:X.
  - apply (IN pv t e I X). rewrite (E t e X). exact B.
  - apply nth_error_None in X. lia.
Qed.
Lemma every_variable : forall pv, In pv (pm_vars pm) -> exists path, reported r path (length (pv_entries pv)) (x (pv_label pv)).
Proof.
  intros pv H. pose proof (sy_translate _ _ _ _ _ _ _ _ _ _ P) as T. unfold system_translate in T.
  bnd T vs Ev. bnd T cs Ec. unfold translate_model in T. bnd T pvs Epv. bnd T e1 Ee1. bnd T e2 Ee2. bnd T o Eo. apply Ok_inj in T. rewrite <- T in H. cbn [pm_vars] in H.
  destruct (mapM_In_inv _ _ _ _ Epv H) as [v [Hv Tv]]. destruct (system_translate_vars _ _ Ev) as [_ PV].
  apply (Permutation_in _ PV) in Hv. apply in_flat_map in Hv. destruct Hv as [m [Hm Hv]]. apply in_flat_map in Hm. destruct Hm as [d [Hd Hm]].
  destruct (translate_shape _ _ Tv) as [L [N _]].
  assert (PD : exists q, placed b q d).
  { destruct Hd as [<-|Hd]; [exists ["Effects"]; apply (pl_effects b)|]. apply in_app_or in Hd. destruct Hd as [Hd|Hd].
    - apply in_map_iff in Hd. destruct Hd as [co [<- Hd]]. eexists. apply (pl_comp b co). exact Hd.
    - eexists. apply (pl_bus b d). exact Hd. }
  destruct PD as [q Hq]. destruct (placed_all b m q d Hq Hm) as [q' Hq']. exists (q' ++ [v_short v]). rewrite L, N. apply (tree_reported _ _ _ Hq' Hv).
Qed.

Lemma comp_placed : forall c o o1 p1 s1, In o cos -> comp_parts cx (visible_comp fs (cp_label c)) c (effective cf fs idx c) o o1 p1 s1 ->
  placed b ["Components"; cp_label c] (co_tree o).
Proof.
  intros c o o1 p1 s1 Ho Q. replace (cp_label c) with (em_label (co_tree o)) by (rewrite (pa_tree _ _ _ _ _ _ _ _ Q); reflexivity).
  apply (pl_comp b). exact Ho.
Qed.
Lemma flow_placed : forall c f, In c (fs_comps fs) -> In f (cp_flows c) -> exists fo,
  flow_model cx true (cp_label c) (effective cf fs idx c f) = Ok fo /\ placed b ["Components"; cp_label c; f_lab f] (fo_tree fo).
Proof.
  intros c f Hc Hf. destruct (locate_comp _ _ _ _ _ _ _ _ _ _ P c Hc) as [o [o1 [p1 [s1 [Ho [Q _]]]]]].
  destruct (Forall2_In_l _ _ _ _ (pa_flows _ _ _ _ _ _ _ _ Q) Hf) as [fo [Hfo M]]. exists fo. split; [exact M|].
  pose proof (fn_label _ _ (tidy_flow _ _ _ _ _ M)) as L. change (f_lab f) with (f_lab (effective cf fs idx c f)). rewrite <- L.
  change (placed b (["Components"; cp_label c] ++ [em_label (fo_tree fo)]) (fo_tree fo)).
  eapply pl_sub; [eapply comp_placed; [exact Ho|exact Q]|]. rewrite (pa_tree _ _ _ _ _ _ _ _ Q). cbn [em_subs].
  apply in_or_app. left. apply in_or_app. left. apply in_map. exact Hfo.
Qed.
Lemma reported_ext : forall rr p n g h, (forall t, (t < n)%nat -> g t == h t) -> n <> 0%nat -> reported rr p n g -> reported rr p n h.
Proof.
  intros rr p n g h E N [a [X H]]. exists a. split; [exact X|]. destruct a as [| np i q| k l]; cbn [holds] in *; try exact H.
  - destruct H as [-> H]. split; [reflexivity|]. rewrite H. apply E. lia.
  - destruct k; try exact H; destruct H as [H1 [H2 H3]]; (split; [exact H1|split; [exact H2|]]); intros t Ht; rewrite (H3 t Ht); apply E; exact Ht.
Qed.
Lemma reported_at : forall p m v n nm, placed b p m -> In v (em_vars m) -> v_len v = n -> v_label v = nm ->
  reported r (p ++ [v_short v]) n (x nm).
Proof. intros p m v n nm Hp Hv <- <-. apply (tree_reported p m v Hp Hv). Qed.

Lemma alloc_vars : forall elem label ts tmin tmax phmin phmax shs o, share_alloc cx elem label ts tmin tmax phmin phmax shs = Ok o -> label <> ""%string ->
  em_label (sa_tree o) = label
  /\ (exists v, In v (em_vars (sa_tree o)) /\ v_short v = cat [label; "_sum"] /\ v_len v = 1%nat /\ v_label v = vlabel (cat [elem; "__"; label]) (cat [label; "_sum"]))
  /\ (ts = true -> exists v, In v (em_vars (sa_tree o)) /\ v_short v = cat [label; "_sum_TS"] /\ v_len v = cx_n cx
                             /\ v_label v = vlabel (cat [elem; "__"; label]) (cat [label; "_sum_TS"])).
Proof.
  intros elem label ts tmin tmax phmin phmax shs o H NE. unfold share_alloc in H. bnd H u Eu. bnd H s Es. bnd H st Est. bnd H singles Esi.
  bnd H u2 Eu2. bnd H csum Ecs. bnd H cts Ects. bnd H m Em. fin H. cbn [sa_tree sa_sum]. apply mk_em_spec in Em. destruct Em as [-> _].
  cbn [em_label em_vars]. split; [reflexivity|].
  assert (MF : model_full elem (Some label) = cat [elem; "__"; label]).
  { cbn [model_full]. destruct (String.eqb_spec label ""); [congruence|reflexivity]. }
  assert (NC : forall y, cat [label; y] <> ""%string).
  { intros y. unfold cat. cbn [fold_right]. destruct label; [congruence|discriminate]. }
  split.
  - exists s. unfold alloc_sum in Es. split; [left; reflexivity|]. pose proof Es as Es'. apply create_short in Es; [|apply NC].
    apply create_variable_spec in Es'. rewrite MF in Es'. split; [exact Es|]. rewrite Es'. split; reflexivity.
  - intros ->. bnd Est v Ev. apply Ok_inj in Est. subst st. exists v. split; [right; left; reflexivity|]. unfold alloc_ts in Ev. bnd Ev lb El. bnd Ev ub Eb.
    pose proof Ev as Ev'. apply create_short in Ev; [|apply NC]. apply create_variable_spec in Ev'. rewrite MF in Ev'. split; [exact Ev|]. rewrite Ev'. split; reflexivity.
Qed.

Hypothesis AX : time_axis fs idx = Ok axis.
Lemma axis_spec : length axis = S (steps fs idx) /\ cx_dt cx = diffs axis
  /\ forall t, (t < steps fs idx)%nat -> nth t axis 0 = stamp fs (selected idx t).
Proof.
  pose proof (sy_cx _ _ _ _ _ _ _ _ _ _ P) as M. unfold make_ctx in M. bnd M dtot Ed. destruct dtot as [dts tot]. apply Ok_inj in M.
  unfold time_data in Ed. pose proof AX as AY. unfold time_axis in AY. rewrite <- M. cbn [cx_dt].
  set (sel := match idx with Some l => l | None => seq 0 (length (fs_times fs)) end) in *.
  bnd AY ts Ets. bnd AY lst El. bnd AY en Ee. apply Ok_inj in AY. rewrite <- AY. rewrite Ets in Ed. cbn [bind] in Ed. rewrite El in Ed. cbn [bind] in Ed. rewrite Ee in Ed. cbn [bind] in Ed.
  apply Ok_inj, pair_equal_spec in Ed. destruct Ed as [<- _].
  assert (Lsel : length sel = steps fs idx) by (subst sel; destruct idx; simpl; [auto|apply seq_length]).
  assert (Nsel : forall t, (t < steps fs idx)%nat -> nth t sel 0%nat = selected idx t).
  { intros t Ht. subst sel. destruct idx; simpl in *; auto. rewrite seq_nth by auto. auto. }
  destruct (take_idx_spec _ _ _ Ets) as [La Na]. split; [rewrite app_length; cbn; lia|]. split; [reflexivity|].
  intros t Ht. rewrite app_nth1 by lia. rewrite (Na t 0) by lia. rewrite Nsel by exact Ht. unfold stamp. rewrite app_nth1; [reflexivity|].
  apply (cf_rng _ _ _ _ (sys_ctx _ _ _ _ _ _ _ _ _ _ P) t Ht).
Qed.

Theorem reports_ok : reports cf ord fs idx kd pm x r.
Proof.
  pose proof (sys_ctx _ _ _ _ _ _ _ _ _ _ P) as CF. pose proof (cf_ok _ _ _ _ CF) as CX. pose proof (cf_n _ _ _ _ CF) as CN.
  pose proof (ok_pos _ CX) as CP.
  constructor.
  - intros c Hc. destruct (locate_comp _ _ _ _ _ _ _ _ _ _ P c Hc) as [o [o1 [p1 [s1 [Ho [Q _]]]]]].
    destruct (placed_spec _ _ (comp_placed c o o1 p1 s1 Ho Q)) as [E _]. rewrite E. discriminate.
  - intros c f Hc Hf. destruct (flow_placed c f Hc Hf) as [fo [M PF]]. destruct (flow_shape_ok _ _ _ _ _ CX M) as [S _].
    pose proof (tidy_flow _ _ _ _ _ M) as T. destruct (fn_rate _ _ T) as [T1 [T2 _]].
    rewrite <- T2, <- CN. apply (reported_at ["Components"; cp_label c; f_lab f] _ _ _ _ PF T1); [apply (fs_len _ _ _ _ S)|apply (fs_label _ _ _ _ S)].
  - intros c f p Hc Hf G. destruct (flow_placed c f Hc Hf) as [fo [M PF]]. destruct (flow_shape_ok _ _ _ _ _ CX M) as [S _].
    pose proof (fs_on _ _ _ _ S) as O. cbn [effective f_onoff] in O. rewrite G in O. destruct O as [v [E [L [N _]]]].
    destruct (fn_on _ _ (tidy_flow _ _ _ _ _ M) v E) as [s [Hs [Ls [Hv Sv]]]]. rewrite <- Sv, <- Ls, <- CN.
    apply (reported_at ["Components"; cp_label c; f_lab f; em_label s] s v); [|exact Hv|exact N|rewrite ?Sv; exact L].
    change ["Components"; cp_label c; f_lab f; em_label s] with (["Components"; cp_label c; f_lab f] ++ [em_label s]). eapply pl_sub; [exact PF|exact Hs].
  - intros c f iv Hc Hf G. destruct (flow_placed c f Hc Hf) as [fo [M PF]]. destruct (flow_shape_ok _ _ _ _ _ CX M) as [S _].
    pose proof (fs_size _ _ _ _ S) as O. cbn [effective f_size] in O. rewrite G in O. destruct O as [v [E [L N]]].
    destruct (fn_size _ _ (tidy_flow _ _ _ _ _ M) v E) as [s [Hs [Ls [Hv Sv]]]]. rewrite <- Sv, <- Ls.
    apply (reported_at ["Components"; cp_label c; f_lab f; em_label s] s v); [|exact Hv|exact N|rewrite ?Sv; exact L].
    change ["Components"; cp_label c; f_lab f; em_label s] with (["Components"; cp_label c; f_lab f] ++ [em_label s]). eapply pl_sub; [exact PF|exact Hs].
  - intros c p Hc Hp. destruct (locate_comp _ _ _ _ _ _ _ _ _ _ P c Hc) as [o [o1 [p1 [s1 [Ho [Q _]]]]]].
    pose proof (comp_placed c o o1 p1 s1 Ho Q) as PC. pose proof (pa_oo _ _ _ _ _ _ _ _ Q) as OO. rewrite Hp in OO. cbn [optM] in OO. bnd OO t Et.
    apply Ok_inj in OO. subst o1. destruct (tidy_onoff _ _ _ _ _ _ _ Et) as [_ [Lt [It St]]]. destruct (onoff_on _ _ _ _ _ _ _ Et) as [L [N _]].
    rewrite <- St, <- Lt, <- CN. apply (reported_at ["Components"; cp_label c; em_label (ot_tree t)] (ot_tree t) (ot_on t)); [|exact It|exact N|rewrite ?St; exact L].
    change ["Components"; cp_label c; em_label (ot_tree t)] with (["Components"; cp_label c] ++ [em_label (ot_tree t)]).
    eapply pl_sub; [exact PC|]. rewrite (pa_tree _ _ _ _ _ _ _ _ Q). cbn [em_subs]. apply in_or_app. left. apply in_or_app. right. left. reflexivity.
  - intros c s Hc Hk. destruct (locate_comp _ _ _ _ _ _ _ _ _ _ P c Hc) as [o [o1 [p1 [s1 [Ho [Q _]]]]]].
    pose proof (comp_placed c o o1 p1 s1 Ho Q) as PC. pose proof (pa_own _ _ _ _ _ _ _ _ Q) as OM. unfold own_model in OM. rewrite Hk in OM.
    bnd OM ch Ech. bnd OM dis Edis. unfold storage_model in OM. bnd OM rl Erl. bnd OM ru Eru. destruct (cap_limits cx (st_cap s)) as [lo hi].
    bnd OM lb Elb. bnd OM ub Eub. bnd OM cs Ecs. bnd OM nd End. bnd OM ceq Eceq. bnd OM loss Eloss. bnd OM ec Eec. bnd OM ed Eed. bnd OM f1 Ef1.
    bnd OM f2 Ef2. bnd OM iv_ Einv. bnd OM f3 Ef3. bnd OM bal Ebal. bnd OM io Eio. bnd OM ends Eends. apply Ok_inj in OM. subst s1.
    pose proof Ecs as Ecs'. pose proof End as End'. apply create_short in Ecs; [|discriminate]. apply create_short in End; [|discriminate].
    apply create_variable_spec in Ecs'. apply create_variable_spec in End'.
    assert (V : em_vars (co_tree o) = [cs; nd]) by (rewrite (pa_tree _ _ _ _ _ _ _ _ Q); reflexivity). split; [|split].
    + rewrite <- Ecs. apply (reported_at ["Components"; cp_label c] _ cs _ _ PC); [rewrite V; left; reflexivity|rewrite Ecs'; cbn; lia|rewrite Ecs'; reflexivity].
    + rewrite <- End. apply (reported_at ["Components"; cp_label c] _ nd _ _ PC); [rewrite V; right; left; reflexivity|rewrite End'; cbn; lia|rewrite End'; reflexivity].
    + intros iv Hcap. rewrite Hcap in Eio. bnd Eio i Ei. apply Ok_inj in Eio. subst io. destruct (tidy_invest _ _ _ _ _ _ _ _ _ _ Ei) as [_ [Li [Is [Ss _]]]].
      apply invest_model_parts in Ei. destruct Ei as [size [b0 [cs1 [cs2 [subs [H1 [H2 [H3 [H4 [H5 [H6 H7]]]]]]]]]]].
      destruct (size_spec _ _ _ _ H1) as [Lz [Nz _]]. rewrite <- Ss, <- Li.
      apply (reported_at ["Components"; cp_label c; em_label (io_tree i)] (io_tree i) (io_size i)); [|exact Is|rewrite H6; assumption|rewrite ?Ss, H6; assumption].
      change ["Components"; cp_label c; em_label (io_tree i)] with (["Components"; cp_label c] ++ [em_label (io_tree i)]).
      eapply pl_sub; [exact PC|]. rewrite (pa_tree _ _ _ _ _ _ _ _ Q). cbn [em_subs so_subs]. apply in_or_app. right. left. reflexivity.
  - intros b0 what Hb Hp Hw. destruct (Forall2_In_l _ _ _ _ (sy_buses _ _ _ _ _ _ _ _ _ _ P) Hb) as [bo [Hbo [i [o [_ [_ Eb]]]]]].
    destruct (tidy_bus _ _ _ _ _ Eb) as [_ [Lb V]].
    assert (PB : placed b ["Buses"; b_lab b0] (fst bo)) by (rewrite <- Lb; apply (pl_bus b); apply in_map; exact Hbo).
    assert (EX : excess x b0 what = x (vlabel (b_lab b0) what)) by (unfold excess; destruct (b_penalty b0); [reflexivity|congruence]).
    rewrite EX. destruct (b_penalty b0) as [pn|]; [|congruence]. destruct V as [_ [ei [eo [V [A1 [A2 [A3 [A4 [A5 [A6 [A7 A8]]]]]]]]]]]. rewrite <- CN.
    destruct Hw as [-> | ->].
    + rewrite <- A1 at 1. apply (reported_at ["Buses"; b_lab b0] _ ei _ _ PB); [rewrite V; left; reflexivity|exact A3|exact A2].
    + rewrite <- A5 at 1. apply (reported_at ["Buses"; b_lab b0] _ eo _ _ PB); [rewrite V; right; left; reflexivity|exact A7|exact A6].
  - intros b0 Hb Hp. destruct (Forall2_In_l _ _ _ _ (sy_buses _ _ _ _ _ _ _ _ _ _ P) Hb) as [bo [Hbo [i [o [_ [_ Eb]]]]]].
    destruct (tidy_bus _ _ _ _ _ Eb) as [_ [Lb V]]. rewrite Hp in V. destruct V as [V1 V2].
    assert (PB : placed b ["Buses"; b_lab b0] (fst bo)) by (rewrite <- Lb; apply (pl_bus b); apply in_map; exact Hbo).
    destruct (placed_spec _ _ PB) as [E _]. rewrite E. destruct (fst bo) as [f l vs cs subs]. cbn [em_vars em_subs] in V1, V2. subst. reflexivity.
  - intros l Hl. destruct (in_dec string_dec l (map b_lab (buses ord fs))) as [I|I].
    + apply in_map_iff in I. destruct I as [b0 [E I]]. exists b0. split; assumption.
    + exfalso. apply Hl. unfold r, system_results. cbn [extract]. rewrite !sget_cons. cbn [String.eqb Ascii.eqb Bool.eqb extract bs_buses]. rewrite sget_none; [reflexivity|].
      assert (K : map fst (map (fun m => (em_label m, em_results (Some x) m)) (map fst bos)) = map b_lab (buses ord fs))
        by (rewrite map_map; cbn [fst]; apply bus_labels_eq).
      unfold b. cbn [bs_buses]. rewrite str_dict_nodup; rewrite K; [exact I|apply bus_labels_nodup].
  - intros e He. rewrite <- (sy_eff _ _ _ _ _ _ _ _ _ _ P) in He.
    destruct (effects_model_parts _ _ _ _ _ (sy_effects _ _ _ _ _ _ _ _ _ _ P)) as [bo [bi [ms [pen [oe [vo [vi E]]]]]]].
    destruct (BaseFacts.mapM_In _ _ _ _ (ep_ms _ _ _ _ _ _ _ _ _ _ _ _ E) He) as [m [Em Hm]].
    assert (LE : em_label m = e_label e).
    { unfold effect_model in Em. bnd Em a Ea. bnd Em bb Eb. bnd Em iv_ Ei. bnd Em op Eo. bnd Em al Eal. apply mk_em_spec in Em. destruct Em as [-> _]. reflexivity. }
    assert (PE : placed b ["Effects"; e_label e] m).
    { rewrite <- LE. change ["Effects"; em_label m] with (["Effects"] ++ [em_label m]). eapply pl_sub; [apply (pl_effects b)|].
      unfold b. cbn [bs_effects]. rewrite (ep_em _ _ _ _ _ _ _ _ _ _ _ _ E). cbn [em_subs]. apply in_or_app. left. exact Hm. }
    unfold effect_model in Em. bnd Em a Ea. bnd Em bb Eb. bnd Em iv_ Ei. bnd Em op Eo. bnd Em al Eal. apply mk_em_spec in Em. destruct Em as [-> _].
    destruct (alloc_vars _ _ _ _ _ _ _ _ _ Ei ltac:(discriminate)) as [LI [[v1 [I1 [I2 [I3 I4]]]] _]].
    destruct (alloc_vars _ _ _ _ _ _ _ _ _ Eo ltac:(discriminate)) as [LO [[v2 [O1 [O2 [O3 O4]]]] TS]].
    destruct (TS eq_refl) as [v3 [T1 [T2 [T3 T4]]]].
    destruct (alloc_vars _ _ _ _ _ _ _ _ _ Eal ltac:(discriminate)) as [LA [[v4 [A1 [A2 [A3 A4]]]] _]].
    assert (SUB : forall s, In s [sa_tree iv_; sa_tree op; sa_tree al] -> placed b ["Effects"; e_label e; em_label s] s).
    { intros s Hs. change ["Effects"; e_label e; em_label s] with (["Effects"; e_label e] ++ [em_label s]). eapply pl_sub; [exact PE|exact Hs]. }
    pose proof (SUB (sa_tree iv_) ltac:(left; reflexivity)) as S1. pose proof (SUB (sa_tree op) ltac:(right; left; reflexivity)) as S2.
    pose proof (SUB (sa_tree al) ltac:(right; right; left; reflexivity)) as S3. rewrite LI in S1. rewrite LO in S2. rewrite LA in S3.
    rewrite <- CN. repeat split.
    + pose proof (reported_at _ _ _ _ _ S2 T1 T3 T4) as R. rewrite T2 in R. exact R.
    + pose proof (reported_at _ _ _ _ _ S2 O1 O3 O4) as R. rewrite O2 in R. eapply reported_ext; [|discriminate|exact R].
      intros t Ht. assert (t = 0%nat) by lia. subst t. reflexivity.
    + pose proof (reported_at _ _ _ _ _ S1 I1 I3 I4) as R. rewrite I2 in R. eapply reported_ext; [|discriminate|exact R].
      intros t Ht. assert (t = 0%nat) by lia. subst t. reflexivity.
    + pose proof (reported_at _ _ _ _ _ S3 A1 A3 A4) as R. rewrite A2 in R. eapply reported_ext; [|discriminate|exact R].
      intros t Ht. assert (t = 0%nat) by lia. subst t. reflexivity.
  - destruct (effects_model_parts _ _ _ _ _ (sy_effects _ _ _ _ _ _ _ _ _ _ P)) as [bo [bi [ms [pen [oe [vo [vi E]]]]]]].
    destruct (alloc_vars _ _ _ _ _ _ _ _ _ (ep_pen _ _ _ _ _ _ _ _ _ _ _ _ E) ltac:(discriminate)) as [LI [[v1 [I1 [I2 [I3 I4]]]] _]].
    assert (PE : placed b ["Effects"; "penalty"] (sa_tree pen)).
    { rewrite <- LI. change ["Effects"; em_label (sa_tree pen)] with (["Effects"] ++ [em_label (sa_tree pen)]). eapply pl_sub; [apply (pl_effects b)|].
      unfold b. cbn [bs_effects]. rewrite (ep_em _ _ _ _ _ _ _ _ _ _ _ _ E). cbn [em_subs]. apply in_or_app. right. left. reflexivity. }
    pose proof (reported_at _ _ _ _ _ PE I1 I3 I4) as R. rewrite I2 in R. eapply reported_ext; [|discriminate|exact R].
    intros t Ht. assert (t = 0%nat) by lia. subst t. reflexivity.
  - exists (LNum false false (objective_value pm x)). split; [reflexivity|]. cbn [holds]. split; reflexivity.
  - destruct axis_spec as [L [D N]]. exists axis. split; [reflexivity|]. split; [exact L|]. intros t Ht. split; [apply N; exact Ht|].
    rewrite <- diffs_nth by lia. rewrite <- D. rewrite <- (cf_dt _ _ _ _ CF t Ht). reflexivity.
  - exists (cx_dt cx). split; [reflexivity|]. destruct axis_spec as [L [D N]]. split.
    + rewrite D. destruct axis as [|q l]; [discriminate|]. rewrite diffs_length. cbn in L. lia.
    + intros t Ht. rewrite <- (cf_dt _ _ _ _ CF t Ht). reflexivity.
Qed.
End Reported.

Lemma calls_snoc : forall cf ord fs idx kd l o, calls cf ord fs idx kd (l ++ [o]) = fst (do_cop cf ord fs idx kd (calls cf ord fs idx kd l) o).
Proof. intros. unfold calls. rewrite fold_left_app. reflexivity. Qed.

Lemma time_axis_total : forall cf ord fs idx cx, make_ctx cf ord fs idx = Ok cx -> exists a, time_axis fs idx = Ok a.
Proof.
  intros cf ord fs idx cx M. unfold make_ctx in M. bnd M d Ed. unfold time_data in Ed. unfold time_axis.
  set (sel := match idx with Some l => l | None => seq 0 (length (fs_times fs)) end) in *.
  bnd Ed ts Ets. bnd Ed lst El. bnd Ed en Ee. rewrite Ets. cbn [bind]. rewrite El. cbn [bind]. rewrite Ee. eexists. reflexivity.
Qed.

Lemma modelled : forall cf ord fs idx kd pm cx cos bos em obj axis l, sys_parts cf ord fs idx pm cx cos bos em obj -> time_axis fs idx = Ok axis ->
  ~ In GetResults l -> exists m, calls cf ord fs idx kd l = mkCalc m None
    /\ (In DoModeling l -> exists st, m = Some (mkSM (mkBuilt cx em cos (map fst bos) obj) pm axis st))
    /\ (forall s, m = Some s -> exists st, s = mkSM (mkBuilt cx em cos (map fst bos) obj) pm axis st).
Proof.
  intros cf ord fs idx kd pm cx cos bos em obj axis l P A. induction l as [|o l IH] using rev_ind; intros N.
  - exists None. split; [reflexivity|]. split; [intros []|discriminate].
  - destruct IH as [m [E [I1 I2]]]; [intros H; apply N, in_or_app; left; exact H|]. rewrite calls_snoc, E. destruct o as [|a|].
    + cbn [do_cop]. rewrite (sy_build _ _ _ _ _ _ _ _ _ _ P). cbn [bind]. unfold bs_roots. cbn [bs_effects bs_comps bs_buses bs_obj].
      rewrite (sy_translate _ _ _ _ _ _ _ _ _ _ P). cbn [bind]. rewrite A. cbn [bind fst ca_cached].
      eexists. split; [reflexivity|]. split; [intros _; eexists; reflexivity|]. intros s H.
      apply (f_equal (fun o => match o with Some a => a | None => s end)) in H. subst s. eexists. reflexivity.
    + cbn [do_cop ca_model]. destruct m as [s|].
      * destruct (I2 s eq_refl) as [st ->]. cbn [fst ca_cached sm_built sm_prog sm_axis]. eexists. split; [reflexivity|]. split; [intros _; eexists; reflexivity|].
        intros s H. apply (f_equal (fun o => match o with Some a => a | None => s end)) in H. subst s. eexists. reflexivity.
      * cbn [fst]. exists None. split; [reflexivity|]. split; [|discriminate]. intros H. apply in_app_or in H. destruct H as [H|[H|[]]]; [|discriminate].
        destruct (I1 H) as [st X]. discriminate.
    + exfalso. apply N, in_or_app. right. left. reflexivity.
Qed.

(** ** C28 *)
Theorem C28_reports_partial : forall cf ord fs idx kd pm history x,
  build cf ord fs idx = Ok pm -> plain_labels fs -> In DoModeling history -> ~ In GetResults history -> integral pm x ->
  exists r, results_after cf ord fs idx kd history x = Ok (Some r)
    /\ reports cf ord fs idx kd pm x r
    /\ forall v, In v (pm_vars pm) -> exists path, reported r path (length (pv_entries v)) (x (pv_label v)).
Proof.
  intros cf ord fs idx kd pm history x H PL D G IN. destruct (build_parts _ _ _ _ _ H) as [cx [cos [bos [em [obj P]]]]].
  destruct (time_axis_total _ _ _ _ _ (sy_cx _ _ _ _ _ _ _ _ _ _ P)) as [axis A].
  destruct (modelled _ _ _ _ kd _ _ _ _ _ _ _ history P A G) as [m [E [I1 _]]]. destruct (I1 D) as [st ->].
  exists (system_results (mkBuilt cx em cos (map fst bos) obj) pm kd axis (Some x)). split; [|split].
  - unfold results_after. rewrite calls_snoc, E. reflexivity.
  - apply (reports_ok _ _ _ _ _ _ _ _ _ _ P PL _ _ _ IN A).
  - intros v Hv. apply (every_variable _ _ _ _ _ _ _ _ _ _ P PL _ _ _ IN v Hv).
Qed.
Print Assumptions C28_reports_partial.

Definition bin01 (q : Q) : bool := (Qeq_bool q 0 || Qeq_bool q 1)%bool.
Definition integralb (pm : pmodel) (x : asg) : bool :=
  forallb (fun p => forallb (fun ie => (negb (pe_bin (snd ie)) || bin01 (x (pv_label p) (fst ie)))%bool)
                      (combine (seq 0 (length (pv_entries p))) (pv_entries p))) (pm_vars pm).
Lemma nth_combine : forall {A} (l : list A) s i e, nth_error l i = Some e -> In ((s + i)%nat, e) (combine (seq s (length l)) l).
Proof.
  induction l as [|a l IH]; intros s [|i] e H; cbn in H; try discriminate.
  - inversion H; subst. left. f_equal. lia.
  - right. replace (s + S i)%nat with (S s + i)%nat by lia. apply IH. exact H.
Qed.
Lemma integral_check : forall pm x, integralb pm x = true -> integral pm x.
Proof.
  intros pm x H p i e Hp Hi He. unfold integralb in H. rewrite forallb_forall in H. specialize (H p Hp). cbv beta in H.
  rewrite forallb_forall in H. specialize (H (i, e) (nth_combine _ 0 i e Hi)). cbn [fst snd] in H. rewrite He in H. cbn [negb orb] in H.
  unfold bin01 in H. apply Bool.orb_true_iff in H. destruct H as [H|H]; apply Qeq_bool_iff in H; auto.
Qed.
Lemma plain_0 : plain_labels fs0 /\ plain_labels fs1.
Proof.
  split; (split; [|split; [|split]]).
  1,2,5,6: repeat constructor; cbn; intuition discriminate.
  1,3: cbn; intuition discriminate.
  all: intros c f Hc Hf; cbn [In fs0 fs1 fs_comps] in Hc;
    repeat (destruct Hc as [<-|Hc]; [cbv [cp_flows cp_in cp_out grid boiler sto demand gas_src chp line p2h heat_sink el_sink app In] in Hf;
      repeat (destruct Hf as [<-|Hf]; [cbn; intuition discriminate|]); destruct Hf|]); destruct Hc.
Qed.
Lemma x0_integral : exists pm, build default_config id_ord fs0 None = Ok pm /\ integral pm x0.
Proof.
  destruct (build default_config id_ord fs0 None) as [pm|e] eqn:E.
  - exists pm. split; [reflexivity|]. apply integral_check.
    assert (C : match build default_config id_ord fs0 None with Ok pm => integralb pm x0 | Err _ => false end = true) by (vm_compute; reflexivity).
    rewrite E in C. exact C.
  - exfalso. assert (C : match build default_config id_ord fs0 None with Ok _ => true | Err _ => false end = true) by (vm_compute; reflexivity).
    rewrite E in C. discriminate.
Qed.
(** A first run without answer, a second with one. *)
Example C28_applies : exists pm r, results_after default_config id_ord fs0 None ADatetime [DoModeling; Solve None] x0 = Ok (Some r)
  /\ reports default_config id_ord fs0 None ADatetime pm x0 r.
Proof.
  destruct x0_integral as [pm [B I]].
  destruct (C28_reports_partial _ _ _ _ ADatetime _ [DoModeling; Solve None] x0 B (proj1 plain_0) (or_introl eq_refl)
     ltac:(intros [X|[X|[]]]; discriminate) I) as [r [R [RP _]]]. exists pm, r. split; assumption.
Qed.

(** The full claim has neither condition on the labels nor on the history, and holds for solver values within a tolerance. Each of the three
    extensions is false. *)
Definition C28_any_history : Prop := forall cf ord fs idx kd pm history x,
  build cf ord fs idx = Ok pm -> plain_labels fs -> In DoModeling history -> integral pm x ->
  exists r, results_after cf ord fs idx kd history x = Ok (Some r) /\ reports cf ord fs idx kd pm x r.
(** Asking for results before solving fixes the answer for all later questions. *)
Theorem C28_history_refuted : ~ C28_any_history.
Proof.
  intros F. destruct x0_integral as [pm [B I]].
  destruct (F _ _ _ _ ADatetime _ [DoModeling; GetResults] x0 B (proj1 plain_0) (or_introl eq_refl) I) as [r [R RP]].
  destruct (rp_objective _ _ _ _ _ _ _ _ RP) as [a [E H]].
  assert (C : match results_after default_config id_ord fs0 None ADatetime [DoModeling; GetResults] x0 with
              | Ok (Some r) => extract (Node r) ["Objective"] | _ => None end = Some (Leaf LNone)) by (vm_compute; reflexivity).
  rewrite R, E in C. apply (f_equal (fun o => match o with Some (Leaf a) => a | _ => LArr AInt [] end)) in C. subst a. exact H.
Qed.
Print Assumptions C28_history_refuted.

Definition C28_tolerance : Prop := forall cf ord fs idx kd pm history x c f p,
  build cf ord fs idx = Ok pm -> plain_labels fs -> In DoModeling history -> ~ In GetResults history ->
  In c (fs_comps fs) -> In f (cp_flows c) -> governed fs idx c f = Some p ->
  (forall t, (t < steps fs idx)%nat -> Qabs (on_of x c f t) <= 1 # 100000 \/ Qabs (on_of x c f t - 1) <= 1 # 100000) ->
  exists r g, results_after cf ord fs idx kd history x = Ok (Some r)
    /\ reported r ["Components"; cp_label c; f_lab f; "OnOff"; "on"] (steps fs idx) g
    /\ forall t, (t < steps fs idx)%nat -> Qabs (g t - on_of x c f t) <= 1 # 100000.
(** Values of binaries are cut off, not rounded: 0.999999 is reported as 0. *)
Definition x_almost : asg := fun n t => 999999 # 1000000.
Theorem C28_tolerance_refuted : ~ C28_tolerance.
Proof.
  intros F. destruct x0_integral as [pm [B _]].
  destruct (F _ _ _ _ ADatetime _ [DoModeling] x_almost boiler q_th boiler_oo B (proj1 plain_0) (or_introl eq_refl)
     ltac:(intros [X|[]]; discriminate) ltac:(right; left; reflexivity) ltac:(right; left; reflexivity) eq_refl
     ltac:(intros; right; vm_compute; discriminate)) as [r [g [R [[a [E H]] T]]]].
  assert (C : match results_after default_config id_ord fs0 None ADatetime [DoModeling] x_almost with
              | Ok (Some r) => extract (Node r) ["Components"; "Boiler"; "Q_th"; "OnOff"; "on"] | _ => None end = Some (Leaf (LArr AInt [0; 0; 0])))
    by (vm_compute; reflexivity).
  rewrite R in C. change (extract (Node r) ["Components"; "Boiler"; "Q_th"; "OnOff"; "on"] = Some (Leaf a)) in E. rewrite E in C.
  apply (f_equal (fun o => match o with Some (Leaf a) => a | _ => LNone end)) in C. subst a. cbn [holds] in H. destruct H as [_ [_ H]].
  specialize (H 0%nat ltac:(cbn; lia)). specialize (T 0%nat ltac:(cbn; lia)). cbn [nth] in H. rewrite <- H in T. revert T. vm_compute. intros T. apply T. reflexivity.
Qed.
Print Assumptions C28_tolerance_refuted.

Definition C28_any_labels : Prop := forall cf ord fs idx kd pm history x,
  build cf ord fs idx = Ok pm -> In DoModeling history -> ~ In GetResults history -> integral pm x ->
  exists r, results_after cf ord fs idx kd history x = Ok (Some r) /\ reports cf ord fs idx kd pm x r.
(** A flow of a storage labelled "charge_state" hides the charge state. *)
Definition odd_ch := fl 140 "charge_state" gas 10.
Definition odd_sto : component := storage_ "Sto" odd_ch cyc_dis (cyc_s (ICNum 0) None None) false.
Definition fs_odd : flow_system := mkFS [0; 1] 2 (NS 1) [costs] [source "Src" (fl 142 "Q" gas 10); odd_sto].
Theorem C28_labels_refuted : ~ C28_any_labels.
Proof.
  intros F. pose (x := fun (_ : string) (_ : nat) => 0).
  destruct (build default_config id_ord fs_odd None) as [pm|e] eqn:B.
  2:{ assert (C : match build default_config id_ord fs_odd None with Ok _ => true | Err _ => false end = true) by (vm_compute; reflexivity).
      rewrite B in C. discriminate. }
  destruct (F _ _ _ _ ADatetime _ [DoModeling] x B (or_introl eq_refl) ltac:(intros [X|[]]; discriminate)) as [r [R RP]].
  { intros p i en _ _ _. left. reflexivity. }
  destruct (rp_charge _ _ _ _ _ _ _ _ RP odd_sto (cyc_s (ICNum 0) None None) ltac:(right; left; reflexivity) eq_refl) as [[a [E H]] _].
  assert (C : match results_after default_config id_ord fs_odd None ADatetime [DoModeling] x with
              | Ok (Some r) => match extract (Node r) ["Components"; "Sto"; "charge_state"] with Some (Node _) => true | _ => false end | _ => false end = true)
    by (vm_compute; reflexivity).
  rewrite R in C. change (extract (Node r) ["Components"; "Sto"; "charge_state"] = Some (Leaf a)) in E. rewrite E in C. discriminate.
Qed.
Print Assumptions C28_labels_refuted.

(** ** C49 *)
Lemma mapM_map : forall {A B} (f : A -> res B) (h : A -> B) l, (forall a, In a l -> f a = Ok (h a)) -> mapM f l = Ok (map h l).
Proof.
  induction l as [|a l IH]; intros H; [reflexivity|]. cbn [mapM map]. rewrite (H a (or_introl eq_refl)). cbn [bind].
  rewrite IH by (intros; apply H; right; assumption). reflexivity.
Qed.
Lemma filter_map_ : forall {A B} (p : B -> bool) (g : A -> B) l, filter p (map g l) = map g (filter (fun a => p (g a)) l).
Proof. induction l as [|a l IH]; [reflexivity|]. cbn [map filter]. destruct (p (g a)); cbn [map]; rewrite IH; reflexivity. Qed.
Lemma filter_true : forall {A} (p : A -> bool) l, (forall a, In a l -> p a = true) -> filter p l = l.
Proof. induction l as [|a l IH]; intros H; [reflexivity|]. cbn [filter]. rewrite (H a (or_introl eq_refl)), IH; auto. intros; apply H; right; assumption. Qed.
Lemma filter_false : forall {A} (p : A -> bool) l, (forall a, In a l -> p a = false) -> filter p l = [].
Proof. induction l as [|a l IH]; intros H; [reflexivity|]. cbn [filter]. rewrite (H a (or_introl eq_refl)). apply IH. intros; apply H; right; assumption. Qed.
Lemma filter_flat_map : forall {A B} (p : B -> bool) (h : A -> list B) l, filter p (flat_map h l) = flat_map (fun a => filter p (h a)) l.
Proof. induction l as [|a l IH]; [reflexivity|]. cbn [flat_map]. rewrite filter_app, IH. reflexivity. Qed.
Lemma flat_map_ext_In : forall {A B} (g h : A -> list B) l, (forall a, In a l -> g a = h a) -> flat_map g l = flat_map h l.
Proof. induction l as [|a l IH]; intros H; [reflexivity|]. cbn [flat_map]. rewrite (H a (or_introl eq_refl)), IH; auto. intros; apply H; right; assumption. Qed.
Lemma concat_as : forall {A B} (h : A -> list B) l, List.concat (map h l) = flat_map h l.
Proof. induction l as [|a l IH]; [reflexivity|]. cbn [map List.concat flat_map]. rewrite IH. reflexivity. Qed.

Section Table.
Variables (cf : config) (ord : list nat -> list nat) (fs : flow_system) (idx : option (list nat)) (kd : akind) (pm : pmodel) (x : asg)
          (r : list (string * tree leaf)) (b : bus).
Hypothesis RP : reports cf ord fs idx kd pm x r.
Hypothesis ND : NoDup (map (fun p => flow_name (fst p) (snd p)) (all_flows fs)).
Hypothesis LONG : (2 <= steps fs idx)%nat.
Hypothesis DB : distinct_buses fs.
Hypothesis UB : used_bus fs b.
Hypothesis HB : In b (buses ord fs).

Definition sub_tree (path : list string) : tree leaf := match extract (Node r) path with Some t => t | None => Node [] end.
Definition fr (c : component) (i : bool) (f : flow) : flow_result :=
  mkFR (flow_name c f) (b_lab (f_bus f)) i (sub_tree ["Components"; cp_label c; f_lab f]).
Definition frs (c : component) : list flow_result := map (fr c true) (cp_in c) ++ map (fr c false) (cp_out c).

Lemma flow_found : forall c f, In c (fs_comps fs) -> In f (cp_flows c) ->
  extract (Node r) ["Components"; cp_label c] = Some (sub_tree ["Components"; cp_label c])
  /\ extract (sub_tree ["Components"; cp_label c]) [f_lab f] = Some (sub_tree ["Components"; cp_label c; f_lab f])
  /\ exists a, extract (sub_tree ["Components"; cp_label c; f_lab f]) ["flow_rate"] = Some (Leaf a) /\ holds (steps fs idx) (rate_of x c f) a.
Proof.
  intros c f Hc Hf. destruct (rp_flow _ _ _ _ _ _ _ _ RP c f Hc Hf) as [a [E H]]. unfold sub_tree.
  change ["Components"; cp_label c; f_lab f; "flow_rate"] with (["Components"; cp_label c; f_lab f] ++ ["flow_rate"]) in E. rewrite extract_app in E.
  destruct (extract (Node r) ["Components"; cp_label c; f_lab f]) as [t|] eqn:E1; [|discriminate].
  change ["Components"; cp_label c; f_lab f] with (["Components"; cp_label c] ++ [f_lab f]) in E1. rewrite extract_app in E1.
  destruct (extract (Node r) ["Components"; cp_label c]) as [t1|] eqn:E2; [|discriminate]. split; [reflexivity|]. split; [exact E1|]. exists a. split; assumption.
Qed.

Lemma labels_of : forall c, In c (fs_comps fs) -> NoDup (map f_lab (cp_flows c)).
Proof.
  intros c Hc. pose proof ND as N. unfold all_flows in N. pose proof (NoDup_flat_map_part _ _ _ c N Hc) as N1. cbv beta in N1.
  rewrite map_map in N1. cbn [fst snd] in N1. unfold flow_name in N1. rewrite <- (map_map f_lab (fun l => flow_full (cp_label c) l)) in N1.
  apply NoDup_map_inv in N1. exact N1.
Qed.

Lemma component_flows_eq : forall c, In c (fs_comps fs) -> component_flows (sub_tree ["Components"; cp_label c]) c = Ok (frs c).
Proof.
  intros c Hc. unfold component_flows, flow_infos. rewrite str_dict_nodup.
  2:{ rewrite map_app, !map_map. cbn [fst]. rewrite <- map_app. apply (labels_of c Hc). }
  rewrite (mapM_map _ (fun kv : string * (string * bool) => mkFR (flow_full (cp_label c) (fst kv)) (fst (snd kv)) (snd (snd kv)) (sub_tree ["Components"; cp_label c; fst kv]))).
  - cbn [bind]. f_equal. rewrite map_app, !map_map. cbn [fst snd]. rewrite !filter_app, !filter_map_. cbn [fr_input negb].
    rewrite (filter_true (fun a => true)) by auto. rewrite (filter_false (fun a => false)) by auto.
    rewrite (filter_true (fun a => true)) by auto. rewrite (filter_false (fun a => false)) by auto. cbn [map]. rewrite app_nil_r. reflexivity.
  - intros [l [bl i]] H. cbn [fst snd].
    assert (I : In l (map f_lab (cp_flows c))).
    { apply in_app_or in H. unfold cp_flows. rewrite map_app. apply in_or_app. destruct H as [H|H]; [left|right]; apply in_map_iff in H;
      destruct H as [f [E H]]; inversion E; subst; apply in_map; exact H. }
    apply in_map_iff in I. destruct I as [f [<- Hf]]. destruct (flow_found c f Hc Hf) as [_ [E _]]. rewrite E. reflexivity.
Qed.

Lemma comp_found : forall c, In c (fs_comps fs) -> extract (Node r) ["Components"; cp_label c] = Some (sub_tree ["Components"; cp_label c]).
Proof.
  intros c Hc. pose proof (rp_component _ _ _ _ _ _ _ _ RP c Hc) as H. unfold sub_tree. destruct (extract (Node r) ["Components"; cp_label c]); congruence.
Qed.

Lemma flow_results_eq : flow_results r fs = Ok (map (fun f => (fr_full f, f)) (flat_map frs (fs_comps fs))).
Proof.
  unfold flow_results. rewrite (mapM_map _ frs).
  - cbn [bind]. rewrite concat_as. f_equal. apply str_dict_nodup. rewrite map_map. cbn [fst]. pose proof ND as N. change (NoDup (map fr_full (flat_map frs (fs_comps fs)))).
    replace (map fr_full (flat_map frs (fs_comps fs))) with (map (fun p => flow_name (fst p) (snd p)) (all_flows fs)); [exact N|].
    unfold all_flows. rewrite !map_flat_map. apply flat_map_ext_In. intros c _. unfold frs, cp_flows. rewrite !map_app, !map_map. reflexivity.
  - intros c Hc. rewrite (comp_found c Hc). cbn [of_option bind]. apply component_flows_eq. exact Hc.
Qed.

Definition cells (f : Q) (a : option (tree leaf)) : list Q := match column f a with Ok l => l | Err _ => [] end.
Lemma holds_column : forall f g a, holds (steps fs idx) g a -> exists l, column f (Some (Leaf a)) = Ok l /\ length l = steps fs idx
  /\ forall t, (t < steps fs idx)%nat -> nth t l 0 == g t * f.
Proof.
  intros f g a H. pose proof LONG as LN.
  assert (G : forall l, length l = steps fs idx -> (forall t, (t < steps fs idx)%nat -> nth t l 0 == g t) ->
     length (map (fun q => q * f) l) = steps fs idx /\ forall t, (t < steps fs idx)%nat -> nth t (map (fun q => q * f) l) 0 == g t * f).
  { intros l L N. split; [rewrite map_length; exact L|]. intros t Ht.
    rewrite (nth_indep _ 0 (0 * f)) by (rewrite map_length; lia). rewrite (map_nth (fun q => q * f) l 0 t), (N t Ht). reflexivity. }
  destruct a as [|np i q|k l]; cbn [holds] in H; [destruct H|lia|].
  destruct k; try contradiction; destruct H as [_ [L N]]; (eexists; split; [reflexivity|exact (G l L N)]).
Qed.

(** The columns of the flows on one side of the bus. *)
Lemma side_columns : forall (side : component -> list flow) (i : bool) (k : Q), (forall c f, In f (side c) -> In f (cp_flows c)) ->
  (forall c, filter (fun f => Bool.eqb (fr_input f) i) (filter (fun f => String.eqb (b_lab b) (fr_bus f)) (frs c))
             = map (fr c i) (filter (fun f => String.eqb (b_lab b) (b_lab (f_bus f))) (side c))) ->
  exists cols, mapM (fun f => c <- column k (extract (fr_vars f) ["flow_rate"]) ;; Ok (fr_full f, c))
                 (filter (fun f => Bool.eqb (fr_input f) i) (filter (fun f => String.eqb (b_lab b) (fr_bus f)) (flat_map frs (fs_comps fs)))) = Ok cols
    /\ map fst cols = flat_map (fun c => map (flow_name c) (filter (connected b) (side c))) (fs_comps fs)
    /\ (forall t, (t < steps fs idx)%nat -> Qsum (map (fun nc => nth t (snd nc) 0) cols)
          == k * Qsum (map (fun c => Qsum (map (fun f => rate_of x c f t) (filter (connected b) (side c)))) (fs_comps fs)))
    /\ forall c f, In c (fs_comps fs) -> In f (side c) -> connected b f = true -> exists l, In (flow_name c f, l) cols /\ length l = steps fs idx
         /\ forall t, (t < steps fs idx)%nat -> nth t l 0 == k * rate_of x c f t.
Proof.
  intros side i k SD FS.
  assert (CN : forall c f, In c (fs_comps fs) -> In f (side c) -> String.eqb (b_lab b) (b_lab (f_bus f)) = connected b f).
  { intros c f Hc Hf. unfold connected. assert (U : used_bus fs (f_bus f)) by (exists c, f; split; [exact Hc|split; [apply SD; exact Hf|reflexivity]]).
    destruct (String.eqb_spec (b_lab b) (b_lab (f_bus f))) as [E|E].
    - symmetry. apply Nat.eqb_eq. symmetry. apply (proj2 DB b (f_bus f) UB U E).
    - symmetry. apply Nat.eqb_neq. intros X. apply E. f_equal. apply (proj1 DB); auto. }
  assert (L : filter (fun f => Bool.eqb (fr_input f) i) (filter (fun f => String.eqb (b_lab b) (fr_bus f)) (flat_map frs (fs_comps fs)))
              = flat_map (fun c => map (fr c i) (filter (connected b) (side c))) (fs_comps fs)).
  { rewrite !filter_flat_map. apply flat_map_ext_In. intros c Hc. rewrite FS. f_equal. apply filter_ext_in. intros f Hf. apply (CN c f Hc Hf). }
  rewrite L. clear L FS CN.
  assert (E : forall c f, In c (fs_comps fs) -> In f (side c) -> exists l, column k (extract (fr_vars (fr c i f)) ["flow_rate"]) = Ok l
     /\ length l = steps fs idx /\ forall t, (t < steps fs idx)%nat -> nth t l 0 == rate_of x c f t * k).
  { intros c f Hc Hf. destruct (flow_found c f Hc (SD c f Hf)) as [_ [_ [a [E H]]]]. cbn [fr fr_vars]. rewrite E. apply holds_column. exact H. }
  set (h := fun f : flow_result => (fr_full f, cells k (extract (fr_vars f) ["flow_rate"]))).
  exists (map h (flat_map (fun c => map (fr c i) (filter (connected b) (side c))) (fs_comps fs))). split; [|split; [|split]].
  - apply mapM_map. intros f H. apply in_flat_map in H. destruct H as [c [Hc H]]. apply in_map_iff in H. destruct H as [g [<- H]].
    apply filter_In in H. destruct H as [H _]. destruct (E c g Hc H) as [l [X _]]. unfold h, cells. rewrite X. reflexivity.
  - rewrite map_map, map_flat_map. apply flat_map_ext_In. intros c _. rewrite map_map. reflexivity.
  - intros t Ht. rewrite map_map, Qsum_flat, <- BaseFacts.Qsum_scale.
    apply Qsum_map_eq. intros c Hc. rewrite map_map, <- BaseFacts.Qsum_scale. apply Qsum_map_eq. intros f Hf.
    apply filter_In in Hf. destruct Hf as [Hf _]. destruct (E c f Hc Hf) as [l [X [_ N]]]. unfold h, cells. cbn [snd]. rewrite X, (N t Ht). ring.
  - intros c f Hc Hf Hb. destruct (E c f Hc Hf) as [l [X [LL N]]]. exists l. split; [|split; [exact LL|intros t Ht; rewrite (N t Ht); ring]].
    apply in_map_iff. exists (fr c i f). split; [unfold h, cells; rewrite X; reflexivity|]. apply in_flat_map. exists c. split; [exact Hc|].
    apply in_map. apply filter_In. split; assumption.
Qed.

Lemma bus_found : extract (Node r) ["Buses"; b_lab b] = Some (sub_tree ["Buses"; b_lab b]).
Proof.
  unfold sub_tree. destruct (b_penalty b) as [p|] eqn:E.
  - destruct (rp_excess _ _ _ _ _ _ _ _ RP b "excess_input" HB ltac:(congruence) (or_introl eq_refl)) as [a [X _]].
    change ["Buses"; b_lab b; "excess_input"] with (["Buses"; b_lab b] ++ ["excess_input"]) in X. rewrite extract_app in X.
    destruct (extract (Node r) ["Buses"; b_lab b]); [reflexivity|discriminate].
  - rewrite (rp_no_excess _ _ _ _ _ _ _ _ RP b HB E). reflexivity.
Qed.
Lemma excess_column : forall what name k, what = "excess_input" \/ what = "excess_output" ->
  exists cols, match extract (sub_tree ["Buses"; b_lab b]) [what] with Some t => c <- column k (Some t) ;; Ok [(name, c)] | None => Ok [] end = Ok cols
    /\ ((cols = [] /\ b_penalty b = None) \/ exists c, cols = [(name, c)] /\ b_penalty b <> None /\ length c = steps fs idx
          /\ forall t, (t < steps fs idx)%nat -> nth t c 0 == k * excess x b what t)
    /\ forall t, (t < steps fs idx)%nat -> Qsum (map (fun nc : string * list Q => nth t (snd nc) 0) cols) == k * excess x b what t.
Proof.
  intros what name k W. unfold sub_tree. destruct (b_penalty b) as [p|] eqn:E.
  - destruct (rp_excess _ _ _ _ _ _ _ _ RP b what HB ltac:(congruence) W) as [a [X H]].
    change ["Buses"; b_lab b; what] with (["Buses"; b_lab b] ++ [what]) in X. rewrite extract_app in X.
    destruct (extract (Node r) ["Buses"; b_lab b]) as [t|] eqn:Y; [|discriminate]. rewrite X. destruct (holds_column k _ _ H) as [l [C [LL N]]].
    rewrite C. cbn [bind]. exists [(name, l)]. split; [reflexivity|].
    split; [right; exists l; split; [reflexivity|split; [congruence|split; [exact LL|intros t0 Ht; rewrite (N t0 Ht); ring]]]|].
    intros t0 Ht. cbn [map snd]. rewrite Qsum_cons, (N t0 Ht). cbn. ring.
  - rewrite (rp_no_excess _ _ _ _ _ _ _ _ RP b HB E). cbn [extract sget]. exists []. split; [reflexivity|]. split; [left; split; reflexivity|].
    intros t Ht. unfold excess. rewrite E. cbn. ring.
Qed.

Lemma flow_name_long : forall c f s, contains2 s = false -> flow_name c f <> s.
Proof. intros c f s H E. rewrite <- E in H. unfold flow_name, flow_full in H. rewrite cat3, sep_contains in H. discriminate. Qed.

Lemma names_nodup : NoDup (flat_map (fun c => map (flow_name c) (filter (connected b) (cp_out c))) (fs_comps fs)
                           ++ flat_map (fun c => map (flow_name c) (filter (connected b) (cp_in c))) (fs_comps fs)).
Proof.
  pose proof ND as N. unfold all_flows in N. rewrite map_flat_map in N.
  assert (N2 : NoDup (flat_map (fun c => map (flow_name c) (cp_out c) ++ map (flow_name c) (cp_in c)) (fs_comps fs))).
  { eapply Permutation_NoDup; [|exact N]. clear. induction (fs_comps fs) as [|c l IH]; [constructor|]. cbn [flat_map].
    apply Permutation_app; [|exact IH]. rewrite map_map. cbn [fst snd]. unfold cp_flows. rewrite map_app. apply Permutation_app_comm. }
  assert (N3 : NoDup (flat_map (fun c => map (flow_name c) (cp_out c)) (fs_comps fs) ++ flat_map (fun c => map (flow_name c) (cp_in c)) (fs_comps fs))).
  { eapply Permutation_NoDup; [|exact N2]. clear. induction (fs_comps fs) as [|c l IH]; [constructor|]. cbn [flat_map].
    rewrite <- !app_assoc. apply Permutation_app_head. eapply perm_trans; [apply Permutation_app_head; exact IH|].
    rewrite !app_assoc. apply Permutation_app_tail, Permutation_app_comm. }
  assert (S : forall side, NoDup (flat_map (fun c => map (flow_name c) (side c)) (fs_comps fs)) ->
      NoDup (flat_map (fun c => map (flow_name c) (filter (connected b) (side c))) (fs_comps fs))).
  { intros side M. eapply flat_map_part; [exact M|]. intros c _. cbv beta. split.
    - intros Q. rewrite map_as_flat_map in Q |- *. clear -Q. induction (side c) as [|f l IH]; [constructor|]. cbn [flat_map app filter] in *.
      inversion Q as [|? ? Q1 Q2]; subst. destruct (connected b f); [|auto]. cbn [flat_map app]. constructor; [|auto].
      intros X. apply Q1. apply in_flat_map in X. destruct X as [g [X1 X2]]. apply filter_In in X1. apply in_flat_map. exists g. tauto.
    - intros n H. apply in_map_iff in H. destruct H as [f [<- H]]. apply filter_In in H. apply in_map. tauto. }
  destruct (NoDup_app_parts _ _ N3) as [M1 M2]. apply NoDup_app_intro; [apply S; exact M1|apply S; exact M2|].
  intros n H1 H2. apply (NoDup_app_disj _ _ n N3).
  - apply in_flat_map in H1. destruct H1 as [c [Hc H1]]. apply in_flat_map. exists c. split; [exact Hc|]. apply in_map_iff in H1.
    destruct H1 as [f [<- H1]]. apply filter_In in H1. apply in_map. tauto.
  - apply in_flat_map in H2. destruct H2 as [c [Hc H2]]. apply in_flat_map. exists c. split; [exact Hc|]. apply in_map_iff in H2.
    destruct H2 as [f [<- H2]]. apply filter_In in H2. apply in_map. tauto.
Qed.

Theorem table_spec : forall ki ko, exists cols, bus_table r fs (b_lab b) "flow_rate" ki ko = Ok cols
  /\ (forall t, (t < steps fs idx)%nat -> Qsum (map (fun nc : string * list Q => nth t (snd nc) 0) cols)
        == ki * (delivered fs x b t + excess x b "excess_input" t) + ko * (taken fs x b t + excess x b "excess_output" t))
  /\ NoDup (map fst cols)
  /\ (forall c f, In c (fs_comps fs) -> In f (cp_flows c) -> connected b f = true -> exists l, In (flow_name c f, l) cols /\ length l = steps fs idx
       /\ forall t, (t < steps fs idx)%nat -> (In f (cp_out c) -> nth t l 0 == ki * rate_of x c f t) /\ (In f (cp_in c) -> nth t l 0 == ko * rate_of x c f t))
  /\ (b_penalty b <> None -> forall what name k, (what, name, k) = ("excess_input", "Excess Input", ki) \/ (what, name, k) = ("excess_output", "Excess Output", ko) ->
        exists l, In (name, l) cols /\ length l = steps fs idx /\ forall t, (t < steps fs idx)%nat -> nth t l 0 == k * excess x b what t)
  /\ forall n, In n (map fst cols) -> (exists c f, In c (fs_comps fs) /\ In f (cp_flows c) /\ connected b f = true /\ n = flow_name c f)
       \/ (b_penalty b <> None /\ (n = "Excess Input" \/ n = "Excess Output"))%string.
Proof.
  intros ki ko.
  assert (FO : forall c, filter (fun f => Bool.eqb (fr_input f) false) (filter (fun f => String.eqb (b_lab b) (fr_bus f)) (frs c))
             = map (fr c false) (filter (fun f => String.eqb (b_lab b) (b_lab (f_bus f))) (cp_out c))).
  { intros c. unfold frs. rewrite !filter_app, !filter_map_. cbn [fr_input fr_bus fr Bool.eqb]. rewrite (filter_false (fun a => false)) by auto.
    rewrite (filter_true (fun a => true)) by auto. reflexivity. }
  assert (FI : forall c, filter (fun f => Bool.eqb (fr_input f) true) (filter (fun f => String.eqb (b_lab b) (fr_bus f)) (frs c))
             = map (fr c true) (filter (fun f => String.eqb (b_lab b) (b_lab (f_bus f))) (cp_in c))).
  { intros c. unfold frs. rewrite !filter_app, !filter_map_. cbn [fr_input fr_bus fr Bool.eqb]. rewrite (filter_false (fun a => false)) by auto.
    rewrite (filter_true (fun a => true)) by auto. cbn [map]. rewrite app_nil_r. reflexivity. }
  destruct (side_columns cp_out false ki ltac:(intros; apply in_or_app; auto) FO) as [c1 [E1 [N1 [S1 F1]]]].
  destruct (side_columns cp_in true ko ltac:(intros; apply in_or_app; auto) FI) as [c2 [E2 [N2 [S2 F2]]]].
  destruct (excess_column "excess_input" "Excess Input" ki (or_introl eq_refl)) as [x1 [X1 [Y1 Z1]]].
  destruct (excess_column "excess_output" "Excess Output" ko (or_intror eq_refl)) as [x2 [X2 [Y2 Z2]]].
  pose proof names_nodup as NN. rewrite <- N1, <- N2 in NN.
  assert (LF : forall n, In n (map fst c1) \/ In n (map fst c2) -> n <> "Excess Input"%string /\ n <> "Excess Output"%string).
  { intros n [H|H]; [rewrite N1 in H|rewrite N2 in H]; apply in_flat_map in H; destruct H as [c [_ H]]; apply in_map_iff in H;
      destruct H as [f [<- _]]; split; apply flow_name_long; reflexivity. }
  assert (NA : NoDup (map fst ((c1 ++ x1) ++ (c2 ++ x2)))).
  { rewrite !map_app. destruct (NoDup_app_parts _ _ NN) as [M1 M2].
    assert (M3 : NoDup (map fst (x1 ++ x2))) by (destruct Y1 as [[-> _]|[? [-> _]]], Y2 as [[-> _]|[? [-> _]]]; cbn; repeat constructor; cbn; intuition discriminate).
    assert (M4 : NoDup ((map fst c1 ++ map fst c2) ++ map fst (x1 ++ x2))).
    { apply NoDup_app_intro; [exact NN|exact M3|]. intros n H1 H2. apply in_app_or in H1. destruct (LF n H1) as [L1 L2].
      destruct Y1 as [[-> _]|[? [-> _]]], Y2 as [[-> _]|[? [-> _]]]; cbn in H2; intuition congruence. }
    rewrite map_app in M4. eapply Permutation_NoDup; [|exact M4]. rewrite <- !app_assoc. apply Permutation_app_head.
    rewrite !app_assoc. apply Permutation_app_tail, Permutation_app_comm. }
  exists ((c1 ++ x1) ++ (c2 ++ x2)). split; [|split; [|split; [exact NA|split; [|split]]]].
  - unfold bus_table. rewrite flow_results_eq. cbn [bind]. rewrite bus_found. cbn [of_option bind]. rewrite map_map. cbn [snd]. rewrite map_id.
    rewrite (filter_ext (fun f => negb (fr_input f)) (fun f => Bool.eqb (fr_input f) false)) by (intros a; destruct (fr_input a); reflexivity).
    rewrite E1. cbn [bind]. rewrite X1. cbn [bind].
    rewrite (filter_ext fr_input (fun f => Bool.eqb (fr_input f) true)) by (intros a; destruct (fr_input a); reflexivity).
    rewrite E2. cbn [bind]. rewrite X2. cbn [bind]. f_equal. pose proof NA as NA'. rewrite map_app in NA'. destruct (NoDup_app_parts _ _ NA') as [A1 A2].
    rewrite (str_dict_nodup (c1 ++ x1)) by exact A1. rewrite (str_dict_nodup (c2 ++ x2)) by exact A2. apply str_dict_nodup. exact NA.
  - intros t Ht. rewrite !map_app, !Qsum_app, (S1 t Ht), (S2 t Ht), (Z1 t Ht), (Z2 t Ht). unfold delivered, taken. ring.
  - intros c f Hc Hf Hb. unfold cp_flows in Hf. apply in_app_or in Hf.
    assert (DIS : In f (cp_in c) -> In f (cp_out c) -> False).
    { intros I O. pose proof (labels_of c Hc) as LL. unfold cp_flows in LL. rewrite map_app in LL.
      apply (NoDup_app_disj _ _ (f_lab f) LL); apply in_map; assumption. }
    destruct Hf as [Hf|Hf].
    + destruct (F2 c f Hc Hf Hb) as [l [I [L N]]]. exists l. split; [apply in_or_app; right; apply in_or_app; left; exact I|]. split; [exact L|].
      intros t Ht. split; [intros O; destruct (DIS Hf O)|intros _; apply (N t Ht)].
    + destruct (F1 c f Hc Hf Hb) as [l [I [L N]]]. exists l. split; [apply in_or_app; left; apply in_or_app; left; exact I|]. split; [exact L|].
      intros t Ht. split; [intros _; apply (N t Ht)|intros O; destruct (DIS O Hf)].
  - intros PN what name k [W|W]; inversion W; subst.
    + destruct Y1 as [[_ Y]|[l [-> [_ [L V]]]]]; [congruence|]. exists l. split; [apply in_or_app; left; apply in_or_app; right; left; reflexivity|]. split; assumption.
    + destruct Y2 as [[_ Y]|[l [-> [_ [L V]]]]]; [congruence|]. exists l. split; [apply in_or_app; right; apply in_or_app; right; left; reflexivity|]. split; assumption.
  - intros n Hn. rewrite !map_app, N1, N2 in Hn. apply in_app_or in Hn. destruct Hn as [Hn|Hn]; apply in_app_or in Hn; destruct Hn as [Hn|Hn].
    1,3: left; apply in_flat_map in Hn; destruct Hn as [c [Hc Hn]]; apply in_map_iff in Hn; destruct Hn as [f [<- Hf]]; apply filter_In in Hf; destruct Hf as [Hf Hb];
      exists c, f; (split; [exact Hc|]); (split; [apply in_or_app; auto|]); split; [exact Hb|reflexivity].
    + right. destruct Y1 as [[-> _]|[l [-> [Y _]]]]; [destruct Hn|]. destruct Hn as [<-|[]]. split; [exact Y|left; reflexivity].
    + right. destruct Y2 as [[-> _]|[l [-> [Y _]]]]; [destruct Hn|]. destruct Hn as [<-|[]]. split; [exact Y|right; reflexivity].
Qed.
End Table.

(** The table of a bus with the default signs (-1 for what is delivered, 1 for what is taken). Missing for the full claim: one-step
    calculations, for which no table can be made (C49_one_step_refuted), and the labels and histories of C28. *)
Theorem C49_table_partial : forall cf ord fs idx kd pm history x b,
  build cf ord fs idx = Ok pm -> feasible pm x -> integral pm x -> (forall l, Permutation (ord l) l) ->
  plain_labels fs -> distinct_buses fs -> used_bus fs b -> (2 <= steps fs idx)%nat ->
  In DoModeling history -> ~ In GetResults history ->
  exists r table, results_after cf ord fs idx kd history x = Ok (Some r) /\ bus_table r fs (b_lab b) "flow_rate" (-1) 1 = Ok table
    /\ (forall t, (t < steps fs idx)%nat -> Qsum (map (fun nc : string * list Q => nth t (snd nc) 0) table) == 0)
    /\ (forall c f, In c (fs_comps fs) -> In f (cp_flows c) -> connected b f = true ->
          exists l, In (flow_name c f, l) table /\ length l = steps fs idx
            /\ forall t, (t < steps fs idx)%nat -> (In f (cp_out c) -> nth t l 0 == - rate_of x c f t) /\ (In f (cp_in c) -> nth t l 0 == rate_of x c f t))
    /\ NoDup (map fst table).
Proof.
  intros cf ord fs idx kd pm history x b H F IN PO PL DB UB LG DM NG.
  destruct (C28_reports_partial _ _ _ _ kd _ history x H PL DM NG IN) as [r [R [RP _]]].
  destruct (build_parts _ _ _ _ _ H) as [cx [cos [bos [em [obj P]]]]].
  assert (HB : In b (buses ord fs)) by (apply buses_complete; auto; apply (sy_ids _ _ _ _ _ _ _ _ _ _ P)).
  destruct (table_spec _ _ _ _ _ _ _ _ b RP (flow_labels_distinct _ _ _ _ _ _ _ _ _ _ P) LG DB UB HB (-1) 1) as [cols [E [S [N [C _]]]]].
  exists r, cols. split; [exact R|]. split; [exact E|]. split; [|split; [|exact N]].
  - intros t Ht. rewrite (S t Ht). destruct (C01_bus_balance _ _ _ _ _ _ _ _ H F PO DB UB Ht) as [B _]. rewrite B. ring.
  - intros c f Hc Hf Hb. destruct (C c f Hc Hf Hb) as [l [I [L V]]]. exists l. split; [exact I|]. split; [exact L|]. intros t Ht.
    destruct (V t Ht) as [V1 V2]. split; intros W; [rewrite (V1 W)|rewrite (V2 W)]; ring.
Qed.
Print Assumptions C49_table_partial.

Example C49_applies : exists r table, results_after default_config id_ord fs0 None ADatetime [DoModeling] x0 = Ok (Some r)
  /\ bus_table r fs0 "Heat" "flow_rate" (-1) 1 = Ok table
  /\ map fst table = ["Boiler__Q_th"; "Storage__dis"; "Excess Input"; "Storage__ch"; "Demand__Q"; "Excess Output"]
  /\ forall t, (t < 3)%nat -> Qsum (map (fun nc : string * list Q => nth t (snd nc) 0) table) == 0.
Proof.
  destruct x0_integral as [pm [B I]]. destruct x0_feasible as [pm' [B' F]]. assert (pm' = pm) by congruence. subst pm'.
  assert (UB : used_bus fs0 heat) by (apply used_bus_list; simpl; tauto).
  assert (DB : distinct_buses fs0) by buses.
  destruct (C49_table_partial _ _ _ _ ADatetime _ [DoModeling] x0 heat B F I id_ord_perm (proj1 plain_0) DB UB ltac:(cbn; lia) (or_introl eq_refl)
     ltac:(intros [X|[]]; discriminate)) as [r [table [R [T [S _]]]]].
  exists r, table. split; [exact R|]. split; [exact T|]. split; [|exact S].
  assert (C : match results_after default_config id_ord fs0 None ADatetime [DoModeling] x0 with
              | Ok (Some r) => match bus_table r fs0 "Heat" "flow_rate" (-1) 1 with Ok t => map fst t | Err _ => [] end | _ => [] end
              = ["Boiler__Q_th"; "Storage__dis"; "Excess Input"; "Storage__ch"; "Demand__Q"; "Excess Output"]) by (vm_compute; reflexivity).
  rewrite R in C. change (b_lab heat) with "Heat"%string in T. rewrite T in C. exact C.
Qed.

(** A calculation of a single step reports numbers instead of arrays, of which no table can be made. *)
Definition C49_any_length : Prop := forall cf ord fs idx kd pm history x b,
  build cf ord fs idx = Ok pm -> feasible pm x -> integral pm x -> (forall l, Permutation (ord l) l) ->
  plain_labels fs -> distinct_buses fs -> used_bus fs b -> In DoModeling history -> ~ In GetResults history ->
  exists r table, results_after cf ord fs idx kd history x = Ok (Some r) /\ bus_table r fs (b_lab b) "flow_rate" (-1) 1 = Ok table
    /\ (forall t, (t < steps fs idx)%nat -> Qsum (map (fun nc : string * list Q => nth t (snd nc) 0) table) == 0).
Definition fs_one : flow_system :=
  mkFS [0; 1] 2 (NS 1) [costs] [source "Src" (fl 150 "Q" gas 10); Library.sink "Sink" (fl 151 "Q" gas 10)].
Definition x_one : asg := fun n t =>
  if existsb (String.eqb n) ["Src__Q_flow_rate"; "Src__Q_sumFlowHours"; "Sink__Q_flow_rate"; "Sink__Q_sumFlowHours"] then 3 else 0.
Theorem C49_one_step_refuted : ~ C49_any_length.
Proof.
  intros F. destruct (run_ok (build default_config id_ord fs_one (Some [0%nat])) x_one) as [pm [B FE]]; [vm_compute; reflexivity|].
  assert (I : integral pm x_one).
  { apply integral_check. assert (C : match build default_config id_ord fs_one (Some [0%nat]) with Ok pm => integralb pm x_one | Err _ => false end = true) by (vm_compute; reflexivity).
    rewrite B in C. exact C. }
  assert (P : plain_labels fs_one).
  { split; [|split; [|split]].
    1-2: repeat constructor; cbn; intuition discriminate.
    - cbn; intuition discriminate.
    - intros c f Hc Hf. cbv [fs_one fs_comps In] in Hc.
    repeat (destruct Hc as [<-|Hc]; [cbv [cp_flows cp_in cp_out source Library.sink app In] in Hf;
      repeat (destruct Hf as [<-|Hf]; [cbn; intuition discriminate|]); destruct Hf|]); destruct Hc. }
  assert (D : distinct_buses fs_one) by buses.
  assert (U : used_bus fs_one gas) by (apply used_bus_list; simpl; tauto).
  destruct (F _ _ _ _ ADatetime _ [DoModeling] x_one gas B FE I id_ord_perm P D U (or_introl eq_refl) ltac:(intros [X|[]]; discriminate))
    as [r [table [R [T _]]]].
  assert (C : match results_after default_config id_ord fs_one (Some [0%nat]) ADatetime [DoModeling] x_one with
              | Ok (Some r) => match bus_table r fs_one "Gas" "flow_rate" (-1) 1 with Ok _ => true | Err _ => false end | _ => true end = false)
    by (vm_compute; reflexivity).
  rewrite R in C. change (b_lab gas) with "Gas"%string in T. rewrite T in C. discriminate.
Qed.
Print Assumptions C49_one_step_refuted.
