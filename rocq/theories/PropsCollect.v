(** C74: the data of the system on its way through an aggregated calculation. *)
From Coq Require Import String Permutation.
From Verif Require Import Base BaseFacts ReadTools MathModel Spec Structure Params Features Elements Library System SysSpec CtxFacts NavFacts BusFacts NameSpec NameFacts ValidSpec TotalEffects TotalSystem ValidCheck
  Aggregation AggSpec PropsAggregation Series Collect DataSpec CollectFacts CollectValid CollectNames CollectTotal PropsTotal PropsAggModel PropsAggAccept Example ExamplePoints.
Local Open Scope Q_scope.

(** The columns are the parameters that vary, each once, under its own label and with the values of the steps of the calculation. *)
Definition the_varying (fs : flow_system) (idx : option (list nat)) (cols : list (string * list Q)) : Prop :=
  NoDup (map fst cols) /\ forall s v, In (s, v) cols <-> exists p, given fs s p /\ varies p /\ v = map (value idx p) (seq 0 (steps fs idx)).
(** The parameter [p] labelled [l] shows the column returned under that label, if it varies and there is one; otherwise it stays as it is. *)
Definition shows (fs : flow_system) (idx : option (list nat)) (data : list (string * list Q)) (l : string) (p p' : param) : Prop :=
  (forall v, varies p -> assoc l data = Some v -> length v = steps fs idx -> forall t, (t < steps fs idx)%nat -> value idx p' t = nth t v 0)
  /\ (~ varies p \/ assoc l data = None -> p' = p).
(** A system without its time-dependent data. *)
Definition blank (fs : flow_system) : flow_system := re_system (fun _ _ => PNum (NS 0)) fs.
(** Every column comes back with as many entries; without zeros if it had none, and not as all zeros if it had others. *)
Definition fair (cols data : list (string * list Q)) : Prop := forall s v, In (s, v) cols -> exists v', assoc s data = Some v' /\ length v' = length v
  /\ ((forall q, In q v -> ~ q == 0) -> forall q, In q v' -> ~ q == 0) /\ ((exists q, In q v /\ ~ q == 0) -> exists q, In q v' /\ ~ q == 0).

(** What a successful calculation did: the varying parameters went to the clustering, and the problem is that of the system with the returned data. *)
Theorem C74_columns : forall cf ord fs idx hpp ap tsam sel pm, (forall l, Permutation (ord l) l) -> well_named fs -> valid_data fs idx -> own_factors fs ->
  aggregated_run cf ord fs idx hpp ap tsam sel = Ok pm -> exists cols ws cl data, the_varying fs idx cols /\ map fst ws = map fst cols /\ tsam cols ws = (cl, data)
    /\ build_aggregated cf ord (if ag_fix_all ap then with_data fs idx data else fs) idx hpp ap cl sel = Ok pm.
Proof.
  intros cf ord fs idx hpp ap tsam sel pm PO W V OF R. unfold aggregated_run in R. bnd R l HS. bnd R u HC. bnd R cw T. destruct cw as [cols ws]. destruct (tsam cols ws) as [cl data] eqn:TS.
  destruct (columns_given ord fs idx l cols ws PO W V OF HS T) as [C1 [C2 C3]].
  exists cols, ws, cl, data. split; [exact (conj C1 C2)|auto].
Qed.
Print Assumptions C74_columns.

(** The returned data arrives at the parameters it is labelled with, and nothing else is changed. *)
Theorem C74_returned : forall fs idx data, valid_data fs idx -> own_factors fs -> (forall l, idx = Some l -> NoDup l) ->
  (forall l p, given fs l p -> exists p', given (with_data fs idx data) l p' /\ shows fs idx data l p p')
  /\ (forall l p', given (with_data fs idx data) l p' -> exists p, given fs l p /\ shows fs idx data l p p')
  /\ blank (with_data fs idx data) = blank fs.
Proof.
  intros fs idx data V OF N. set (g := shown (chosen_steps fs idx) data).
  assert (M : moved g (given fs) (given (with_data fs idx data))) by (apply given_re; [exact (vd_ids _ _ V)|intros c C; eapply valid_flow_ids; eauto]).
  assert (S : forall l p, given fs l p -> shows fs idx data l p (g l p)).
  { intros l p G. split.
    - intros v A B L t T. apply shown_value; auto; [apply nodup_chosen; exact N|]. intros i old D I. eapply given_range; eauto.
    - intros [A|A]; [apply shown_kept; exact A|]. unfold g, shown. rewrite A. destruct (make_scalar (pdata p)) as [[q|o]|]; reflexivity. }
  split; [|split].
  - intros l p G. exists (g l p). split; [apply M; eauto|auto].
  - intros l p' G. apply M in G. destruct G as [p [G ->]]. exists p. auto.
  - exact (re_system2 (fun _ _ => PNum (NS 0)) g fs).
Qed.
Print Assumptions C74_returned.

(** The full claim: a flow system with valid data and well-chosen labels can be aggregated. *)
Definition C74_full : Prop := forall cf ord fs idx hpp ap tsam sel, (forall l, Permutation (ord l) l) -> well_named fs -> valid_data fs idx -> own_factors fs -> (forall l, idx = Some l -> NoDup l) ->
  name_free fs -> even_steps fs idx -> whole_periods fs idx hpp -> chosen_ok fs sel ->
  (forall cols ws, the_varying fs idx cols -> clusters_steps fs idx (fst (tsam cols ws)) /\ known_clusters (fst (tsam cols ws)) /\ some_twins (fst (tsam cols ws)) /\ more_twins (fst (tsam cols ws)) /\ fair cols (snd (tsam cols ws))) ->
  exists pm, aggregated_run cf ord fs idx hpp ap tsam sel = Ok pm.
(** It holds if no two varying parameters have the same label and the limits of charge states do not vary. *)
Lemma value_in : forall fs idx l p t old, valid_data fs idx -> own_factors fs -> given fs l p -> pdata p = NV old -> (t < steps fs idx)%nat -> In (value idx p t) old.
Proof.
  intros fs idx l p t old V OF G D T. unfold value. rewrite D. apply nth_In. apply (given_range fs idx V OF l p (selected idx t) old G D). unfold selected, chosen_steps. destruct idx as [ix|]; [apply nth_In; exact T|apply in_seq; cbn in T; lia].
Qed.
Lemma with_data_valid : forall fs idx cols data, valid_data fs idx -> own_factors fs -> (forall l, idx = Some l -> NoDup l) -> the_varying fs idx cols -> fair cols data -> valid_data (with_data fs idx data) idx.
Proof.
  intros fs idx cols data V OF N [_ C] F. unfold with_data. set (g := shown (chosen_steps fs idx) data). apply valid_re; [| | |exact V].
  - intros l p. pose proof (shown_length (chosen_steps fs idx) data l p) as S. fold g in S. destruct (pdata p) as [q|o] eqn:D; [rewrite S; exact D|]. destruct S as [n [A [B _]]]. eauto.
  - intros c s q HC K I. assert (G : given fs (own (cp_label c) "eta_discharge") (st_eta_d s)) by (eapply g_comp; [exact HC|apply cv_eta_discharge; exact K]).
    assert (NZ : forall q, In q (nlist (pdata (st_eta_d s))) -> ~ q == 0). { pose proof (vc_kind _ _ _ (vd_comps _ _ V c HC)) as VK. unfold valid_kind in VK. rewrite K in VK. exact (vs_eta _ _ _ (proj1 VK)). }
    pose proof (shown_length (chosen_steps fs idx) data (own (cp_label c) "eta_discharge") (st_eta_d s)) as S. fold g in S. destruct (pdata (st_eta_d s)) as [q0|o] eqn:D; [rewrite S, D in I; auto|]. destruct S as [n [A [_ B]]]. rewrite A in I. cbn [nlist] in I, NZ.
    destruct (B q I) as [X|[v [X [Y Z]]]]; [auto|]. set (col := map (value idx (st_eta_d s)) (seq 0 (steps fs idx))).
    assert (IC : In (own (cp_label c) "eta_discharge", col) cols) by (apply C; exists (st_eta_d s); auto). destruct (F _ _ IC) as [v' [E [_ [P _]]]]. rewrite X in E. injection E as <-. apply P; auto.
    intros r R. unfold col in R. apply in_map_iff in R. destruct R as [t [<- T]]. apply in_seq in T. apply NZ. eapply value_in; eauto. lia.
  - intros c rel p HC K A. assert (G : given fs (own (cp_label c) "absolute_losses") p) by (eapply g_comp; [exact HC|eapply cv_absolute; eauto]).
    destruct (make_scalar (pdata p)) as [[q|o]|] eqn:M; try (unfold g, shown; rewrite M; exact A). assert (VP : varies p).
    { apply varies_scalar. exists o. split; auto. destruct (pdata p) as [q|[|a r]]; cbn [make_scalar] in M; try discriminate. destruct (forallb _ _) in M; [discriminate|]. congruence. }
    set (col := map (value idx p) (seq 0 (steps fs idx))). assert (IC : In (own (cp_label c) "absolute_losses", col) cols) by (apply C; exists p; auto). destruct (F _ _ IC) as [v' [E [L [_ P]]]].
    assert (LC : length v' = steps fs idx) by (rewrite L; unfold col; rewrite map_length, seq_length; reflexivity).
    unfold any_loss in A. apply existsb_exists in A. destruct A as [t [T Z]]. destruct P as [q [Q1 Q2]].
    { exists (value idx p t). split; [apply in_map; exact T|]. intros X. apply Qeq_bool_iff in X. rewrite X in Z. discriminate Z. }
    apply In_nth with (d := 0) in Q1. destruct Q1 as [t' [T' Q1]]. unfold any_loss. apply existsb_exists. exists t'. split; [apply in_seq; lia|]. unfold g.
    rewrite (shown_value fs idx data (own (cp_label c) "absolute_losses") p v' t'); auto; [|apply nodup_chosen; exact N|intros i old D I; eapply given_range; eauto|lia]. rewrite Q1.
    destruct (Qeq_bool q 0) eqn:X; [apply Qeq_bool_iff in X; contradiction|reflexivity].
Qed.
Theorem C74_accepted_partial : forall cf ord fs idx hpp ap tsam sel, (forall l, Permutation (ord l) l) -> well_named fs -> valid_data fs idx -> own_factors fs -> (forall l, idx = Some l -> NoDup l) ->
  name_free fs -> even_steps fs idx -> whole_periods fs idx hpp -> chosen_ok fs sel ->
  (forall cols ws, the_varying fs idx cols -> clusters_steps fs idx (fst (tsam cols ws)) /\ known_clusters (fst (tsam cols ws)) /\ some_twins (fst (tsam cols ws)) /\ more_twins (fst (tsam cols ws)) /\ fair cols (snd (tsam cols ws))) ->
  one_label_each fs -> steady_limits fs -> exists pm, aggregated_run cf ord fs idx hpp ap tsam sel = Ok pm.
Proof.
  intros cf ord fs idx hpp ap tsam sel PO W V OF N NF EV WP CO TS OL SL.
  destruct (series_total fs idx W V OF ord PO) as [l S]. destruct (input_total fs idx W V OF OL SL ord l PO S) as [cols [ws T]]. destruct (columns_given ord fs idx l cols ws PO W V OF S T) as [CA [CB _]]. pose proof (conj CA CB) as C.
  destruct (TS cols ws C) as [T1 [T2 [T3 [T4 T5]]]]. unfold aggregated_run. rewrite S. cbn [bind].
  assert (AC : agg_checks fs idx hpp = Ok tt).
  { destruct (C73_accepted_partial cf ord fs idx hpp ap (fst (tsam cols ws)) sel) as [pm R]; auto. unfold build_aggregated in R. destruct (agg_checks fs idx hpp) as [[]|]; [reflexivity|discriminate R]. }
  rewrite AC. cbn [bind]. rewrite T. cbn [bind]. destruct (tsam cols ws) as [cl data]. cbn [fst snd] in *. destruct (ag_fix_all ap); [|apply C73_accepted_partial; auto].
  apply C73_accepted_partial; auto.
  - apply named_re. exact W.
  - eapply with_data_valid; eauto.
  - destruct NF as [A B]. split; [intros x H; unfold with_data in H; rewrite re_top in H; auto|]. intros b' U. apply re_used in U. destruct U as [b [U ->]]. exact (B b U).
  - destruct T1. split; auto.
  - unfold chosen_ok in *. destruct sel as [ls|]; [|exact Logic.I]. destruct CO as [A B]. split; [exact A|]. intros x H. destruct (B x H) as [c [HC <-]]. exists (re_comp (shown (chosen_steps fs idx) data) (fs_effects fs) c). split; [apply re_comps_In; eauto|reflexivity].
Qed.
Print Assumptions C74_accepted_partial.

(** ** Examples *)

(** Six hours: a source with a price for each hour, a converter with a time-dependent efficiency, a storage whose losses vary, a demand profile. The
    clustering puts three periods of two hours into one cluster and returns the first period for all. *)
Definition v_price : param := PTsd (NV [1; 2; 3; 4; 5; 6]) None (Some (1 # 2)).
Definition v_demand : param := na [2; 3; 2; 4; 2; 5].
Definition v_eta : param := na [8 # 10; 9 # 10; 8 # 10; 7 # 10; 8 # 10; 9 # 10].
Definition v_q : flow := mkFlow 160 "Q" gas (SzNum (Some 10)) None (n1 0) (n1 1) (EVOne v_price) (Some (mkOnOff EVNone EVNone None None None None None None None false)) None None None None None.
Definition v_ch := fl 161 "ch" heat 10. Definition v_dis := fl 162 "dis" heat 10.
Definition v_sto : component := mkComponent "Sto" [v_ch] [v_dis] None [] (StorageC (mkStorage (CapNum 10) (n1 0) (n1 1) (ICNum 0) None None (n1 1) v_eta (na [0; 1 # 10; 0; 1 # 10; 0; 2 # 10]))).
Definition v_fu := fl 164 "Q_fu" gas 20. Definition v_th := fl 165 "Q_th" heat 20.
Definition v_boiler : component := mkComponent "Boiler" [v_fu] [v_th] None [] (Converter [[(164%nat, v_eta); (165%nat, n1 1)]]).
Definition v_use : flow := mkFlow 163 "Q" heat (SzNum (Some 1)) (Some v_demand) (n1 0) (n1 1) EVNone None None None None None None.
Definition fs_vary : flow_system := mkFS [0; 1; 2; 3; 4; 5] 6 (NS 1) [costs] [source "Src" v_q; v_boiler; v_sto; Library.sink "Sink" v_use].
Definition first_period (v : list Q) : list Q := map (fun t => nth (t mod 2) v 0) (seq 0 (length v)).
Definition tsam_first (cols : list (string * list Q)) (ws : list (string * Q)) : clustering * list (string * list Q) := (cl_agg, map (fun c => (fst c, first_period (snd c))) cols).
Lemma fs_vary_uses : forall b, used_bus fs_vary b -> In b [gas; heat].
Proof. all_buses. Qed.
Lemma fs_vary_fine : well_named fs_vary /\ valid_data fs_vary None /\ own_factors fs_vary /\ name_free fs_vary /\ even_steps fs_vary None /\ whole_periods fs_vary None 2 /\ chosen_ok fs_vary None /\ one_label_each fs_vary /\ steady_limits fs_vary.
Proof.
  split; [apply (named_b_ok _ _ fs_vary_uses); vm_compute; reflexivity|]. split; [apply (valid_b_ok _ _ _ fs_vary_uses); vm_compute; reflexivity|].
  assert (KC : forall c fss, In c (fs_comps fs_vary) -> cp_kind c = Converter fss -> c = v_boiler /\ fss = [[(164%nat, v_eta); (165%nat, n1 1)]]).
  { intros c fss H K. cbn in H. repeat (destruct H as [<-|H]; [try discriminate K; try (injection K as <-; auto)|]). contradiction. }
  assert (KS : forall c segs, In c (fs_comps fs_vary) -> cp_kind c <> Params.Segmented segs).
  { intros c segs H K. cbn in H. repeat (destruct H as [<-|H]; [discriminate K|]). contradiction. }
  split; [split|].
  - intros c fss d i p H K D I. destruct (KC c fss H K) as [-> ->]. destruct D as [<-|[]]. destruct I as [I|[I|[]]]; injection I as <- _; [exists v_fu|exists v_th]; cbn; auto.
  - intros c segs i l H K. exfalso. exact (KS _ _ H K).
  - split; [apply (name_free_b _ _ fs_vary_uses); vm_compute; reflexivity|]. split; [apply even_b; vm_compute; reflexivity|]. split; [split; [vm_compute; discriminate|]; exists 2%Z; vm_compute; reflexivity|]. split; [exact Logic.I|].
    split; [split; [|split]|].
    + intros c fss H K. destruct (KC c fss H K) as [-> ->]. cbn [concat app]. repeat constructor. cbn [fst]. intros _ _. discriminate.
    + intros c segs H K. exfalso. exact (KS _ _ H K).
    + intros e [<-|[]]. discriminate.
    + intros c s H K. cbn in H. repeat (destruct H as [<-|H]; [try discriminate K; try (injection K as <-; split; intros [l [i [j [D _]]]]; discriminate D)|]). contradiction.
Qed.
Lemma assoc_map : forall (h : list Q -> list Q) cols s v, NoDup (map fst cols) -> In (s, v) cols -> assoc s (map (fun c => (fst c, h (snd c))) cols) = Some (h v).
Proof.
  intros h cols s v. induction cols as [|[s0 v0] r IH]; intros N H; [destruct H|]. inversion N as [|? ? X Y]; subst. unfold assoc in *. cbn [map find fst snd]. destruct (String.eqb_spec s0 s) as [->|E].
  - destruct H as [H|H]; [injection H as <-; reflexivity|]. exfalso. apply X. apply in_map_iff. exists (s, v). auto.
  - destruct H as [H|H]; [injection H as -> ->; congruence|]. apply IH; auto.
Qed.
Definition fair_b (v v' : list Q) : bool :=
  (Nat.eqb (length v') (length v) && (existsb (fun q => Qeq_bool q 0) v || forallb (fun q => negb (Qeq_bool q 0)) v') && existsb (fun q => negb (Qeq_bool q 0)) v')%bool.
Lemma fair_b_ok : forall v v', fair_b v v' = true -> length v' = length v /\ ((forall q, In q v -> ~ q == 0) -> forall q, In q v' -> ~ q == 0) /\ ((exists q, In q v /\ ~ q == 0) -> exists q, In q v' /\ ~ q == 0).
Proof.
  intros v v' H. unfold fair_b in H. apply andb_prop in H. destruct H as [H C]. apply andb_prop in H. destruct H as [A B]. apply Nat.eqb_eq in A. split; [exact A|]. split.
  - intros N q Q1 Q2. apply orb_prop in B. destruct B as [B|B].
    + apply existsb_exists in B. destruct B as [r [R1 R2]]. apply Qeq_bool_iff in R2. exact (N r R1 R2).
    + rewrite forallb_forall in B. specialize (B q Q1). apply Qeq_bool_iff in Q2. rewrite Q2 in B. discriminate B.
  - intros _. apply existsb_exists in C. destruct C as [q [C1 C2]]. exists q. split; [exact C1|]. intros Q2. apply Qeq_bool_iff in Q2. rewrite Q2 in C2. discriminate C2.
Qed.
Lemma tsam_first_fair : forall cols ws, the_varying fs_vary None cols -> fair cols (snd (tsam_first cols ws)).
Proof.
  intros cols ws [N C] s v H. cbn [tsam_first snd]. exists (first_period v). split; [apply assoc_map; auto|]. apply C in H. destruct H as [p [G [VP ->]]]. destruct fs_vary_fine as [W [V [OF _]]].
  apply (params_given id_ord fs_vary None) in G; auto. assert (K : forallb (fun lp => match make_scalar (pdata (snd lp)) with Ok (NV _) => fair_b (map (value None (snd lp)) (seq 0 6)) (first_period (map (value None (snd lp)) (seq 0 6))) | _ => true end) (system_params id_ord fs_vary) = true) by (vm_compute; reflexivity).
  rewrite forallb_forall in K. specialize (K _ G). cbn [snd] in K. apply varies_scalar in VP. destruct VP as [o [_ M]]. rewrite M in K. exact (fair_b_ok _ _ K).
Qed.
Example C74_applies : (well_named fs_vary /\ valid_data fs_vary None /\ own_factors fs_vary /\ name_free fs_vary /\ even_steps fs_vary None /\ whole_periods fs_vary None 2 /\ chosen_ok fs_vary None /\ one_label_each fs_vary /\ steady_limits fs_vary)
  /\ (forall cols ws, the_varying fs_vary None cols -> clusters_steps fs_vary None (fst (tsam_first cols ws)) /\ known_clusters (fst (tsam_first cols ws)) /\ some_twins (fst (tsam_first cols ws)) /\ more_twins (fst (tsam_first cols ws))
        /\ fair cols (snd (tsam_first cols ws)))
  /\ (given fs_vary "Boiler__Q_fu_factor" v_eta /\ varies v_eta /\ given fs_vary "Src__Q__Standard_Effect_per_flow_hour" v_price /\ varies v_price)
  /\ exists pm, aggregated_run default_config id_ord fs_vary None 2 ap_fixed tsam_first None = Ok pm.
Proof.
  pose proof fs_vary_fine as F. destruct F as [A [B [C [D [E [G [H [I J]]]]]]]].
  assert (T : forall cols ws, the_varying fs_vary None cols -> clusters_steps fs_vary None (fst (tsam_first cols ws)) /\ known_clusters (fst (tsam_first cols ws)) /\ some_twins (fst (tsam_first cols ws)) /\ more_twins (fst (tsam_first cols ws))
        /\ fair cols (snd (tsam_first cols ws))).
  { intros cols ws VC. split; [constructor; [repeat constructor; simpl; tauto|simpl; lia|reflexivity]|]. split; [intros a; cbn; tauto|]. split; [exists 3%nat, 5%nat; apply agg_twins|].
    split; [|apply tsam_first_fair; exact VC]. exists 3%nat, 5%nat, 1%nat, 3%nat. split; [apply agg_twins|]. split; [|repeat split; [lia|lia|discriminate]]. unfold twins, cluster_of. cbn. repeat split; try lia; discriminate. }
  split; [exact (conj A (conj B (conj C (conj D (conj E (conj G (conj H (conj I J))))))))|]. split; [exact T|]. split.
  - split; [|split; [|split]].
    + apply (g_comp fs_vary v_boiler); [cbn; auto|]. apply (cv_factor fs_vary v_boiler _ [(164%nat, v_eta); (165%nat, n1 1)] v_fu v_eta eq_refl); cbn; auto.
    + eexists _, 0%nat, 1%nat. split; [reflexivity|]. split; [cbn; lia|]. split; [cbn; lia|]. vm_compute. discriminate.
    + apply (g_flow fs_vary (source "Src" v_q) v_q); [cbn; auto|cbn; auto|]. apply fv_effects. apply (ev_standard fs_vary (flow_name (source "Src" v_q) v_q) "per_flow_hour"). cbn. auto.
    + eexists _, 0%nat, 1%nat. split; [reflexivity|]. split; [cbn; lia|]. split; [cbn; lia|]. vm_compute. discriminate.
  - apply C74_accepted_partial; auto. intros l X. discriminate X.
Qed.

(** A CHP both of whose efficiencies vary: both become factors of its fuel flow, which have one label. *)
Definition v_el := fl 166 "P_el" gas 20.
Definition v_chp : component := mkComponent "CHP" [v_fu] [v_th; v_el] None [] (Converter [[(164%nat, v_eta); (165%nat, n1 1)]; [(164%nat, v_demand); (166%nat, n1 1)]]).
Definition fs_chp : flow_system := mkFS [0; 1; 2; 3; 4; 5] 6 (NS 1) [costs] [source "Src" v_q; v_chp; Library.sink "Sink" v_use].
Definition tsam_same (cols : list (string * list Q)) (ws : list (string * Q)) : clustering * list (string * list Q) := (cl_agg, map (fun c => (fst c, (fun v => v) (snd c))) cols).
Lemma fs_chp_uses : forall b, used_bus fs_chp b -> In b [gas; heat].
Proof. all_buses. Qed.
Lemma chp_is_library : chp_ "CHP" v_eta v_demand v_fu v_el v_th None = Ok v_chp.
Proof. vm_compute. reflexivity. Qed.
Theorem C74_refuted : ~ C74_full.
Proof.
  intros H. assert (K : aggregated_run default_config id_ord fs_chp None 2 ap_fixed tsam_same None = Err AssertionError) by (vm_compute; reflexivity).
  assert (X : exists pm, aggregated_run default_config id_ord fs_chp None 2 ap_fixed tsam_same None = Ok pm).
  { apply H; auto.
    - apply (named_b_ok _ _ fs_chp_uses); vm_compute; reflexivity.
    - apply (valid_b_ok _ _ _ fs_chp_uses); vm_compute; reflexivity.
    - split.
      + intros c fss d i p C K' D I. cbn in C. destruct C as [<-|[<-|[<-|[]]]]; try discriminate K'. injection K' as <-. destruct D as [<-|[<-|[]]]; (destruct I as [I|[I|[]]]; injection I as <- _); [exists v_fu|exists v_th|exists v_fu|exists v_el]; cbn; auto.
      + intros c segs i l C K'. cbn in C. destruct C as [<-|[<-|[<-|[]]]]; discriminate K'.
    - intros l X. discriminate X.
    - apply (name_free_b _ _ fs_chp_uses); vm_compute; reflexivity.
    - apply even_b; vm_compute; reflexivity.
    - split; [vm_compute; discriminate|]; exists 2%Z; vm_compute; reflexivity.
    - exact Logic.I.
    - intros cols ws [N C]. split; [constructor; [repeat constructor; simpl; tauto|simpl; lia|reflexivity]|]. split; [intros a; cbn; tauto|]. split; [exists 3%nat, 5%nat; apply agg_twins|]. split.
      + exists 3%nat, 5%nat, 1%nat, 3%nat. split; [apply agg_twins|]. split; [|repeat split; [lia|lia|discriminate]]. unfold twins, cluster_of. cbn. repeat split; try lia; discriminate.
      + intros s v I. exists v. split; [cbn [tsam_same snd]; exact (assoc_map (fun v => v) cols s v N I)|auto]. }
  destruct X as [pm X]. rewrite K in X. discriminate X.
Qed.
Print Assumptions C74_refuted.

(** A storage whose charge limits vary: their arrays have one entry too many for the table given to the clustering. *)
Definition v_sto_limits : component := mkComponent "Sto" [v_ch] [v_dis] None [] (StorageC (mkStorage (CapNum 10) (n1 0) (na [1; 1; 1; 1; 1; 1; 1 # 2]) (ICNum 0) None None (n1 1) (n1 1) (n1 0))).
Definition fs_limits : flow_system := mkFS [0; 1; 2; 3; 4; 5] 6 (NS 1) [costs] [source "Src" v_q; v_boiler; v_sto_limits; Library.sink "Sink" v_use].
Lemma fs_limits_uses : forall b, used_bus fs_limits b -> In b [gas; heat].
Proof. all_buses. Qed.
Example C74_limits : well_named fs_limits /\ valid_data fs_limits None /\ aggregated_run default_config id_ord fs_limits None 2 ap_fixed tsam_same None = Err ValueError.
Proof. split; [apply (named_b_ok _ _ fs_limits_uses); vm_compute; reflexivity|]. split; [apply (valid_b_ok _ _ _ fs_limits_uses); vm_compute; reflexivity|]. vm_compute. reflexivity. Qed.
