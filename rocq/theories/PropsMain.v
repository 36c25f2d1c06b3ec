(** C67: the main results that a calculation shows.

    Several calculations may be created on one flow system, modelled, solved and asked in any order ([session_after]). *)
From Verif Require Import Base BaseFacts MathModel MathFacts Spec Structure StructureFacts Params Features Elements System SysSpec CtxFacts ReadTools NavFacts Tree PropsTree
     Values Results ResultFacts PropsResults Segmented PropsRepeat SegmentedFacts Skeleton MainResults MainFacts Library Example ExamplePoints.

(** ** Specification *)
(** An investment is listed under its element's name, with its size, as invested if the size is above 1/1000, else as not invested;
    never in both lists. *)
Definition listed (r : main) (name : string) (size : Q) : Prop :=
  if Qle_bool size (1 # 1000)
  then sget name (mn_not_invested r) = Some size /\ sget name (mn_invested r) = None
  else sget name (mn_invested r) = Some size /\ sget name (mn_not_invested r) = None.

(** What the system invests in: flows, by component and label, and storages. *)
Inductive invested_in (cf : config) (fs : flow_system) : string -> Prop :=
| in_flow c f iv : In c (fs_comps fs) -> In f (cp_flows c) -> sized cf c f = SzInv iv -> invested_in cf fs (flow_name c f)
| in_storage c s iv : In c (fs_comps fs) -> cp_kind c = StorageC s -> st_cap s = CapInv iv -> invested_in cf fs (cp_label c).

Definition total_excess (x : asg) (b : bus) (what : string) (n : nat) : Q := Qsum (map (excess x b what) (seq 0 n)).

(** The part about this calculation's own program. *)
Record own_right (cf : config) (fs : flow_system) (pm : pmodel) (x : asg) (r : main) : Prop := {
  mo_penalty : mn_penalty r == penalty_sum x;
  mo_objective : mn_objective r == objective_value pm x;
  mo_listed : forall name, invested_in cf fs name -> listed r name (x (inv name "size") 0%nat);
  mo_only : forall name q, sget name (mn_invested r) = Some q \/ sget name (mn_not_invested r) = Some q -> invested_in cf fs name
}.
(** All of it: [x] the values found, [n] the number of steps. *)
Record main_right (cf : config) (ord : list nat -> list nat) (unit : effect -> string) (fs : flow_system) (n : nat) (pm : pmodel) (x : asg)
       (r : main) : Prop := {
  mr_effects : forall e, In e (fs_effects fs) -> sget (effect_key unit e) (mn_effects r) = Some (op_sum x e, inv_sum x e, all_sum x e);
  mr_only : forall key q, sget key (mn_effects r) = Some q -> exists e, In e (fs_effects fs) /\ effect_key unit e = key;
  mr_excess : forall l, In l (mn_excess r) <-> exists b, In b (buses ord fs) /\ b_lab b = l
                /\ (1 # 1000 < total_excess x b "excess_input" n \/ 1 # 1000 < total_excess x b "excess_output" n);
  mr_own : own_right cf fs pm x r
}.

(** Kinds of calls. *)
Definition models (k : nat) (o : sop) : Prop := o = SModel k.
Definition any_model (o : sop) : Prop := exists k, o = SModel k.
Definition solves (k : nat) (o : sop) : Prop := exists a, o = SSolve k a.

(** After any history [l1], calculation [k] (with time indices [idx]) is modelled successfully, later ([l2] in between) solved with
    the values [x], and neither modelled nor solved again ([l3]). Then its main results are right. *)
Definition C67_full : Prop := forall cf ord unit fs idxs l1 l2 l3 k idx x,
  nth_error idxs k = Some idx ->
  snd (do_sop cf ord unit (session_after cf ord unit fs idxs l1) (SModel k)) = Ok None ->
  (forall o, In o (l2 ++ l3) -> ~ models k o) -> (forall o, In o l3 -> ~ solves k o) ->
  NoDup (map (effect_key unit) (fs_effects fs)) ->
  exists pm, build cf ord (se_fs (session_after cf ord unit fs idxs l1)) idx = Ok pm /\ (feasible pm x -> exists r, snd (do_sop cf ord unit (session_after cf ord unit fs idxs (l1 ++ SModel k :: l2 ++ SSolve k (Some x) :: l3)) (SMain k)) = Ok (Some r)
    /\ main_right cf ord unit fs (steps fs idx) pm x r).

(** ** Proof: one model *)
Lemma above_spec : forall q, above q = true <-> 1 # 1000 < q.
Proof.
  intros q. unfold above. split; intros H.
  - apply Bool.negb_true_iff in H. apply Qnot_le_lt. intros X. apply Qle_bool_iff in X. congruence.
  - apply Bool.negb_true_iff. destruct (Qle_bool q (1 # 1000)) eqn:E; [|reflexivity]. apply Qle_bool_iff in E. exfalso. exact (Qlt_not_le _ _ H E).
Qed.
Lemma above_ext : forall a b, a == b -> above a = above b.
Proof.
  intros a b E. destruct (above a) eqn:A, (above b) eqn:B; auto; exfalso.
  - apply above_spec in A. rewrite E in A. apply above_spec in A. congruence.
  - apply above_spec in B. rewrite <- E in B. apply above_spec in B. congruence.
Qed.
Lemma sum_of_sums : forall x m v, first_var m = Ok v -> v_len v = 1%nat -> v_bin v = false -> sum_result (Some x) m = Ok (x (v_label v) 0%nat).
Proof. intros x m v F L B. unfold sum_result. rewrite F. cbn [bind]. unfold var_result, written. rewrite L, B. reflexivity. Qed.
Lemma sum_of_vars : forall x v, v_bin v = false -> exists q, py_sum (var_result (Some x) v) = Ok q /\ q == Qsum (map (x (v_label v)) (seq 0 (v_len v))).
Proof.
  intros x v B. unfold var_result. assert (E : map (written v x) (seq 0 (v_len v)) = map (x (v_label v)) (seq 0 (v_len v))).
  { apply map_ext. intros t. unfold written. rewrite B. reflexivity. }
  rewrite E, B. clear E. destruct (map _ _) as [|q [|q' l]]; eexists; (split; [reflexivity|]); try reflexivity. cbn. ring.
Qed.
Lemma alloc_sum_ok : forall cx elem label ts tmin tmax phmin phmax shs o x, share_alloc cx elem label ts tmin tmax phmin phmax shs = Ok o -> label <> ""%string ->
  sum_result (Some x) (sa_tree o) = Ok (x (vlabel (cat [elem; "__"; label]) (cat [label; "_sum"])) 0%nat).
Proof.
  intros cx elem label ts tmin tmax phmin phmax shs o x H N. unfold share_alloc in H. cbv zeta in H. bnd H u Eu. bnd H s Es. bnd H st Est. bnd H si Esi. bnd H u2 Eu2.
  bnd H c1 Ec1. bnd H c2 Ec2. bnd H m Em. fin H. cbn [sa_tree]. apply mk_em_spec in Em. destruct Em as [-> _]. unfold alloc_sum in Es. apply create_variable_spec in Es.
  rewrite (sum_of_sums x _ s); [|reflexivity|rewrite Es; reflexivity|rewrite Es; reflexivity]. rewrite Es. cbn [v_label]. do 3 f_equal.
  cbn [model_full]. destruct (String.eqb_spec label ""); [congruence|reflexivity].
Qed.
Lemma effect_entry_ok : forall cx tre shs e m x, effect_model cx tre shs e = Ok m -> effect_entry (Some x) m = Ok (op_sum x e, inv_sum x e, all_sum x e).
Proof.
  intros cx tre shs e m x H. unfold effect_model in H. cbv zeta in H. bnd H a Ea. bnd H b Eb. bnd H iv Ei. bnd H op Eo. bnd H al Eal.
  apply mk_em_spec in H. destruct H as [-> _]. unfold effect_entry. cbn [em_subs].
  rewrite (alloc_sum_ok _ _ _ _ _ _ _ _ _ _ x Eo), (alloc_sum_ok _ _ _ _ _ _ _ _ _ _ x Ei), (alloc_sum_ok _ _ _ _ _ _ _ _ _ _ x Eal) by discriminate. reflexivity.
Qed.
Lemma bus_entry_ok : forall cx b ins outs m shs x, bus_model cx b ins outs = Ok (m, shs) -> exists e : bool,
  bus_entry (Some x) (b, m) = Ok (if e then [b_lab b] else [])
  /\ (e = true <-> (1 # 1000 < total_excess x b "excess_input" (cx_n cx) \/ 1 # 1000 < total_excess x b "excess_output" (cx_n cx))).
Proof.
  intros cx b ins outs m shs x H. unfold bus_model in H. cbv zeta in H. unfold bus_entry, total_excess, excess. cbn [fst snd]. destruct (b_penalty b) as [p|].
  - bnd H a Ea. bnd H pen Ep. bnd H ei Ei. bnd H eo Eo. bnd H c Ec. bnd H mm Em. apply Ok_inj, pair_equal_spec in H. destruct H as [<- _]. apply mk_em_spec in Em. destruct Em as [-> _].
    apply create_variable_spec in Ei. apply create_variable_spec in Eo. unfold has_excess. cbn [em_vars].
    destruct (sum_of_vars x ei) as [i [Si Qi]]; [rewrite Ei; reflexivity|]. destruct (sum_of_vars x eo) as [o [So Qo]]; [rewrite Eo; reflexivity|].
    rewrite Si, So. cbn [bind].
    assert (Qi' : i == Qsum (map (fun t => x (vlabel (b_lab b) "excess_input") t) (seq 0 (cx_n cx)))) by (rewrite Qi, Ei; reflexivity).
    assert (Qo' : o == Qsum (map (fun t => x (vlabel (b_lab b) "excess_output") t) (seq 0 (cx_n cx)))) by (rewrite Qo, Eo; reflexivity).
    assert (Hi := above_spec i). assert (Ho := above_spec o). rewrite Qi' in Hi at 2. rewrite Qo' in Ho at 2.
    destruct (above i) eqn:Ai; cbn [bind].
    + exists true. split; [reflexivity|]. split; [intros _; left; apply Hi; reflexivity|reflexivity].
    + exists (above o). split; [reflexivity|]. split; [intros E; right; apply Ho; exact E|intros [E|E]; [apply Hi in E; discriminate|apply Ho; exact E]].
  - exists false. split; [reflexivity|]. split; [discriminate|].
    assert (Z : forall n, Qsum (map (fun _ : nat => 0) (seq 0 n)) == 0).
    { intros n. induction (seq 0 n) as [|a l IH]; [reflexivity|]. cbn [map Qsum fold_right]. change (0 + Qsum (map (fun _ : nat => 0) l) == 0). rewrite IH. reflexivity. }
    rewrite !Z. intros [X|X]; discriminate X.
Qed.

Lemma names_spec : forall cf fs n, In n (invest_names cf fs) <-> invested_in cf fs n.
Proof.
  intros cf fs n. unfold invest_names. rewrite in_flat_map. split.
  - intros [c [Hc H]]. unfold comp_names in H. apply in_app_or in H. destruct H as [H|H].
    + apply in_flat_map in H. destruct H as [f [Hf H]]. destruct (sized cf c f) as [|iv] eqn:S; [destruct H|]. destruct H as [<-|[]]. exact (in_flow _ _ c f iv Hc Hf S).
    + unfold own_invests in H. destruct (cp_kind c) eqn:K; try (destruct H; fail). destruct (st_cap s) as [|iv] eqn:S; [destruct H|]. destruct H as [<-|[]]. exact (in_storage _ _ c s iv Hc K S).
  - intros H. destruct H as [c f iv Hc Hf S|c s iv Hc K S]; exists c; (split; [exact Hc|]); unfold comp_names; apply in_or_app.
    + left. apply in_flat_map. exists f. rewrite S. split; [exact Hf|left; reflexivity].
    + right. unfold own_invests. rewrite K, S. left. reflexivity.
Qed.

Section OneModel.
Variables (cf : config) (ord : list nat -> list nat) (unit : effect -> string) (fs : flow_system) (idx : option (list nat)).
Variables (b : built_system) (pm : pmodel) (axis : list Q) (x : asg).
Hypothesis B : build_system cf ord fs idx = Ok b.
Hypothesis T : system_translate (bs_roots b) (bs_obj b) = Ok pm.
Let own := mkSM b pm axis (Some x).

Lemma built_inv : exists cx ms pen bos, make_ctx cf ord fs idx = Ok cx /\ em_subs (bs_effects b) = ms ++ [pen]
  /\ Forall2 (fun e m => effect_entry (Some x) m = Ok (op_sum x e, inv_sum x e, all_sum x e)) (fs_effects fs) ms
  /\ sum_result (Some x) pen = Ok (penalty_sum x)
  /\ bs_buses b = map fst bos
  /\ Forall2 (fun bu (bo : emodel * list share) => exists i o, bus_model cx bu i o = Ok bo) (buses ord fs) bos.
Proof.
  pose proof B as H. unfold build_system in H. bnd H cx Ecx. bnd H u Eu. bnd H cos Ecos. cbv zeta in H. bnd H bos Ebos. bnd H w Ew. destruct w as [em obj]. fin H.
  assert (CE : cx_effects cx = fs_effects fs). { unfold make_ctx in Ecx. bnd Ecx w Ew2. destruct w as [dt tot]. fin Ecx. reflexivity. }
  cbn [bs_effects bs_buses]. unfold effects_model in Ew. bnd Ew bo Ebo. bnd Ew bi Ebi. cbv zeta in Ew. bnd Ew ms Ems. bnd Ew pen Epen. bnd Ew oe Eoe. bnd Ew vo Evo. bnd Ew vi Evi.
  bnd Ew ob Eob. bnd Ew root Er. apply Ok_inj in Ew. apply pair_equal_spec in Ew. destruct Ew as [<- _]. apply mk_em_spec in Er. destruct Er as [-> _].
  exists cx, ms, (sa_tree pen), bos. split; [exact Ecx|]. split; [reflexivity|]. split; [|split; [|split; [reflexivity|]]].
  - rewrite CE in Ems. apply mapM_Forall2 in Ems. clear -Ems. induction Ems as [|e m l l' H _ IH]; constructor; auto. eapply effect_entry_ok; eauto.
  - rewrite (alloc_sum_ok _ _ _ _ _ _ _ _ _ _ x Epen) by discriminate. reflexivity.
  - apply mapM_Forall2 in Ebos. clear -Ebos. induction Ebos as [|bu bo l l' H _ IH]; constructor; auto. bnd H i Ei. bnd H o Eo. eauto.
Qed.

Lemma sizes_found : exists l, Permutation (map fst l) (invest_names cf fs) /\ NoDup (map fst l)
  /\ mapM (fun em => q <- sum_result (Some x) (snd em) ;; Ok (fst em, q)) (investments b) = Ok l
  /\ forall n q, In (n, q) l -> q = x (inv n "size") 0%nat.
Proof.
  pose proof T as T'. unfold system_translate in T'. bnd T' vs Ev. clear T'.
  destruct (investments_spec _ _ _ _ _ _ B Ev) as [ND [ns [PN F]]]. exists (map (fun n => (n, x (inv n "size") 0%nat)) ns).
  rewrite map_map. cbn [fst]. rewrite map_id. split; [exact PN|]. split; [eapply Permutation_NoDup; [apply Permutation_sym; exact PN|exact ND]|]. split.
  - clear -F. induction F as [|n p ns l S _ IH]; [reflexivity|]. cbn [mapM map]. destruct S as [S1 [v [rest [E [L [N Bi]]]]]].
    rewrite (sum_of_sums x (snd p) v); [|unfold first_var; rewrite E; reflexivity|exact N|exact Bi]. cbn [bind]. rewrite IH. cbn [bind]. rewrite L, S1. reflexivity.
  - intros n q H. apply in_map_iff in H. destruct H as [n' [E _]]. injection E as <- <-. reflexivity.
Qed.

Lemma split_lists : forall (l : list (string * Q)), NoDup (map fst l) -> (forall n q, In (n, q) l -> q = x (inv n "size") 0%nat) ->
  let yes := str_dict (filter (fun e => above (snd e)) l) in let no := str_dict (filter (fun e => negb (above (snd e))) l) in
  (forall n, In n (map fst l) -> if Qle_bool (x (inv n "size") 0%nat) (1 # 1000)
      then sget n no = Some (x (inv n "size") 0%nat) /\ sget n yes = None else sget n yes = Some (x (inv n "size") 0%nat) /\ sget n no = None)
  /\ (forall n q, sget n yes = Some q \/ sget n no = Some q -> In n (map fst l)).
Proof.
  intros l ND V. cbv zeta.
  assert (NF : forall p : string * Q -> bool, NoDup (map fst (filter p l))).
  { intros p. clear V. induction l as [|a l IH]; [constructor|]. cbn [filter map] in *. inversion ND as [|? ? N1 N2]; subst. destruct (p a); [|apply IH; exact N2].
    cbn [map]. constructor; [|apply IH; exact N2]. intros X. apply N1. apply in_map_iff in X. destruct X as [z [<- X]]. apply filter_In in X. apply in_map. apply X. }
  rewrite !str_dict_nodup by apply NF. split.
  - intros n Hn. apply in_map_iff in Hn. destruct Hn as [[n' q] [<- Hq]]. cbn [fst]. rewrite <- (V _ _ Hq).
    assert (O : forall p : string * Q -> bool, p (n', q) = false -> sget n' (filter p l) = None).
    { intros p Hp. apply sget_none. intros X. apply in_map_iff in X. destruct X as [[n2 q2] [E X]]. cbn [fst] in E. subst n2. apply filter_In in X. destruct X as [X1 X2].
      rewrite (V _ _ X1), <- (V _ _ Hq) in X2. congruence. }
    destruct (Qle_bool q (1 # 1000)) eqn:Q0; split.
    + apply In_sget; [apply NF|]. apply filter_In. split; [exact Hq|]. unfold above. cbn [snd]. rewrite Q0. reflexivity.
    + apply O. unfold above. cbn [snd]. rewrite Q0. reflexivity.
    + apply In_sget; [apply NF|]. apply filter_In. split; [exact Hq|]. unfold above. cbn [snd]. rewrite Q0. reflexivity.
    + apply O. unfold above. cbn [snd]. rewrite Q0. reflexivity.
  - intros n q [H|H]; apply sget_In in H; apply filter_In in H; destruct H as [H _]; apply in_map_iff; exists (n, q); auto.
Qed.

Lemma pen_last : forall ms pen, em_subs (bs_effects b) = ms ++ [pen] -> nth_error (rev (em_subs (bs_effects b))) 0 = Some pen.
Proof. intros ms pen ->. rewrite rev_unit. reflexivity. Qed.

(** Whatever model the elements refer to: if main results are shown, the part about the own program is right. *)
Lemma own_part : forall fs' sh r, main_results ord unit fs' own sh = Ok r -> own_right cf fs pm x r.
Proof.
  intros fs' sh r H. unfold main_results in H. destruct built_inv as [cx [ms [pen [bos [_ [E1 [_ [E2 _]]]]]]]].
  bnd H s Es. bnd H effs Ee. subst own. cbn [sm_built sm_state sm_prog] in H. rewrite (pen_last _ _ E1) in H. cbn [of_option bind] in H. rewrite E2 in H. cbn [of_option bind] in H.
  bnd H bs_ Eb. destruct sizes_found as [l [P1 [P2 [P3 P4]]]]. rewrite P3 in H. cbn [bind] in H. apply Ok_inj in H. subst r.
  destruct (split_lists l P2 P4) as [S1 S2]. constructor; cbn [mn_penalty mn_objective mn_invested mn_not_invested]; try reflexivity.
  - intros n Hn. unfold listed. cbn [mn_invested mn_not_invested]. apply S1. apply (Permutation_in _ (Permutation_sym P1)). apply names_spec. exact Hn.
  - intros n q Hq. apply names_spec. apply (Permutation_in _ P1). exact (S2 _ _ Hq).
Qed.

Lemma all_parts : forall fs', same_frame fs fs' -> NoDup (map (effect_key unit) (fs_effects fs)) ->
  exists r, main_results ord unit fs' own (Some own) = Ok r /\ main_right cf ord unit fs (steps fs idx) pm x r.
Proof.
  intros fs' SF ND. destruct built_inv as [cx [ms [pen [bos [CX [E1 [E3 [E2 [E4 E5]]]]]]]]].
  destruct (make_ctx_spec _ _ _ _ _ CX) as [_ [N _]].
  assert (EF : mapM (fun em => r <- effect_entry (Some x) (snd em) ;; Ok (effect_key unit (fst em), r)) (combine (fs_effects fs') (em_subs (bs_effects b)))
     = Ok (map (fun e => (effect_key unit e, (op_sum x e, inv_sum x e, all_sum x e))) (fs_effects fs))).
  { rewrite (sf_effects _ _ SF), E1. clear -E3. induction E3 as [|e m l l' H _ IH]; [destruct ([] ++ [pen]); reflexivity|]. cbn [app combine mapM fst snd map]. rewrite H. cbn [bind]. rewrite IH. reflexivity. }
  assert (EB : exists bl, mapM (bus_entry (Some x)) (combine (buses ord fs') (bs_buses b)) = Ok bl
     /\ Forall2 (fun bu l => exists e : bool, l = (if e then [b_lab bu] else [])
        /\ (e = true <-> (1 # 1000 < total_excess x bu "excess_input" (steps fs idx) \/ 1 # 1000 < total_excess x bu "excess_output" (steps fs idx)))) (buses ord fs) bl).
  { rewrite (frame_buses _ _ SF), E4, <- N. clear -E5. induction E5 as [|bu [m shs] l l' [i [o H]] _ [bl [I1 I2]]]; [exists []; split; [reflexivity|constructor]|].
    destruct (bus_entry_ok _ _ _ _ _ _ x H) as [e [H1 H2]]. exists ((if e then [b_lab bu] else []) :: bl). cbn [map fst combine mapM]. rewrite H1. cbn [bind]. rewrite I1.
    split; [reflexivity|]. constructor; [|exact I2]. exists e. auto. }
  destruct EB as [bl [EB1 EB2]]. destruct sizes_found as [l [P1 [P2 [P3 P4]]]].
  assert (R : exists r, main_results ord unit fs' own (Some own) = Ok r
     /\ mn_effects r = str_dict (map (fun e => (effect_key unit e, (op_sum x e, inv_sum x e, all_sum x e))) (fs_effects fs)) /\ mn_excess r = List.concat bl).
  { eexists. unfold main_results. subst own. cbn [of_option bind sm_built sm_state sm_prog]. rewrite EF. cbn [bind]. rewrite (pen_last _ _ E1). cbn [of_option bind]. rewrite E2.
    cbn [bind]. rewrite EB1. cbn [bind]. rewrite P3. cbn [bind]. split; [reflexivity|]. cbn [mn_effects mn_excess]. auto. }
  destruct R as [r [R1 [R2 R3]]]. exists r. split; [exact R1|]. pose proof (own_part _ _ _ R1) as OR.
  assert (NK : NoDup (map fst (map (fun e => (effect_key unit e, (op_sum x e, inv_sum x e, all_sum x e))) (fs_effects fs)))) by (rewrite map_map; exact ND).
  rewrite (str_dict_nodup _ NK) in R2. constructor; [| | |exact OR].
  - intros e He. rewrite R2. apply In_sget; [exact NK|]. apply in_map_iff. eauto.
  - intros key q H. rewrite R2 in H. apply sget_In in H. apply in_map_iff in H. destruct H as [e [H1 H2]]. exists e. split; [exact H2|]. congruence.
  - intros lb. rewrite R3. clear -EB2. induction EB2 as [|bu l0 bus_ bl [e [-> H]] _ IH]; [split; [intros []|intros [bu [[] _]]]|].
    cbn [List.concat]. rewrite in_app_iff, IH. split.
    + intros [X|[bu' [X1 X2]]]; [|exists bu'; split; [right; exact X1|exact X2]]. destruct e; [|destruct X]. destruct X as [<-|[]]. exists bu. split; [left; reflexivity|]. split; [reflexivity|]. apply H. reflexivity.
    + intros [bu' [[<-|X1] [X2 X3]]]; [left; apply H in X3; subst e; left; exact X2|right; exists bu'; auto].
Qed.
End OneModel.

(** ** Proof: any history *)
Section History.
Variables (cf : config) (ord : list nat -> list nat) (unit : effect -> string).
Definition run (s : session) (l : list sop) : session := fold_left (fun s o => fst (do_sop cf ord unit s o)) l s.
Definition ws (m : system_model) (st : option asg) : system_model := mkSM (sm_built m) (sm_prog m) (sm_axis m) st.

Lemma set_calc_same : forall m l k i o, nth_error l k = Some (i, o) -> nth_error (set_calc k m l) k = Some (i, m).
Proof. intros m l. induction l as [|[a b] l IH]; intros [|k] i o H; cbn in *; try discriminate; [congruence|]. exact (IH _ _ _ H). Qed.
Lemma set_calc_other : forall m l k j, j <> k -> nth_error (set_calc k m l) j = nth_error l j.
Proof. intros m l. induction l as [|[a b] l IH]; intros [|k] [|j] H; cbn; auto; try congruence. Qed.
Lemma set_calc_idx : forall m l k, map fst (set_calc k m l) = map fst l.
Proof. intros m l. induction l as [|[a b] l IH]; intros [|k]; cbn; auto. rewrite IH. reflexivity. Qed.

Lemma step_idx : forall s o, map fst (se_calcs (fst (do_sop cf ord unit s o))) = map fst (se_calcs s).
Proof.
  intros s [k|k a|k]; cbn [do_sop]; [| |reflexivity].
  - destruct (nth_error (se_calcs s) k) as [[idx m0]|]; [|reflexivity]. destruct (modelled _ _ _ _); cbn [fst se_calcs]; apply set_calc_idx.
  - destruct (model_of s k); [|reflexivity]. cbn [fst se_calcs]. apply set_calc_idx.
Qed.
Lemma run_idx : forall l s, map fst (se_calcs (run s l)) = map fst (se_calcs s).
Proof. induction l as [|o l IH]; intros s; [reflexivity|]. cbn [run fold_left]. fold (run (fst (do_sop cf ord unit s o)) l). rewrite IH. apply step_idx. Qed.

Lemma step_fs : forall s o, (exists idx, se_fs (fst (do_sop cf ord unit s o)) = after_modeling cf ord (se_fs s) idx) \/ se_fs (fst (do_sop cf ord unit s o)) = se_fs s.
Proof.
  intros s [k|k a|k]; cbn [do_sop]; [| |right; reflexivity].
  - destruct (nth_error (se_calcs s) k) as [[idx m0]|]; [|right; reflexivity]. left. exists idx. destruct (modelled _ _ _ _); reflexivity.
  - destruct (model_of s k); right; reflexivity.
Qed.
Lemma run_frame : forall l s, same_frame (se_fs s) (se_fs (run s l)).
Proof.
  induction l as [|o l IH]; intros s; [apply frame_refl|]. cbn [run fold_left]. fold (run (fst (do_sop cf ord unit s o)) l). eapply frame_trans; [|apply IH].
  destruct (step_fs s o) as [[idx E]| E]; rewrite E; [apply sys_like_frame, after_like|apply frame_refl].
Qed.
Lemma run_names : forall l s, NoDup (flow_ids (se_fs s)) -> invest_names cf (se_fs (run s l)) = invest_names cf (se_fs s).
Proof.
  induction l as [|o l IH]; intros s N; [reflexivity|]. cbn [run fold_left]. fold (run (fst (do_sop cf ord unit s o)) l).
  assert (SF : same_frame (se_fs s) (se_fs (fst (do_sop cf ord unit s o)))) by (apply (run_frame [o])).
  rewrite IH by (rewrite (frame_ids_ _ _ SF); exact N). destruct (step_fs s o) as [[idx E]| E]; rewrite E; [apply after_names; exact N|reflexivity].
Qed.

Lemma step_keeps : forall s o k m st, model_of s k = Some (ws m st) -> ~ models k o ->
  exists st', model_of (fst (do_sop cf ord unit s o)) k = Some (ws m st') /\ (~ solves k o -> st' = st) /\ (forall a, o = SSolve k a -> st' = a).
Proof.
  intros s o k m st M N. destruct o as [j|j a|j]; cbn [do_sop].
  - exists st. split; [|split; [auto|discriminate]]. assert (J : k <> j) by (intros ->; apply N; reflexivity). unfold model_of in *.
    destruct (nth_error (se_calcs s) j) as [[idx m0]|]; [|exact M]. destruct (modelled _ _ _ _); cbn [fst se_calcs]; rewrite set_calc_other by exact J; exact M.
  - destruct (Nat.eq_dec k j) as [<-|J].
    + exists a. rewrite M. cbn [fst]. split; [|split; [intros X; exfalso; apply X; exists a; reflexivity|intros a' E; congruence]].
      unfold model_of in *. cbn [se_calcs]. destruct (nth_error (se_calcs s) k) as [[idx m0]|] eqn:E; [|discriminate]. rewrite (set_calc_same _ _ _ _ _ E). reflexivity.
    + exists st. split; [|split; [auto|intros a' E; congruence]]. destruct (model_of s j); [|exact M]. unfold model_of in *. cbn [fst se_calcs]. rewrite set_calc_other by exact J. exact M.
  - exists st. split; [exact M|]. split; [auto|discriminate].
Qed.
Lemma run_keeps : forall l s k m st, model_of s k = Some (ws m st) -> (forall o, In o l -> ~ models k o) ->
  exists st', model_of (run s l) k = Some (ws m st') /\ ((forall o, In o l -> ~ solves k o) -> st' = st).
Proof.
  induction l as [|o l IH]; intros s k m st M N; [exists st; auto|]. cbn [run fold_left]. fold (run (fst (do_sop cf ord unit s o)) l).
  destruct (step_keeps s o k m st M (N o (or_introl eq_refl))) as [st1 [M1 [E1 _]]]. destruct (IH _ k m st1 M1 (fun o Ho => N o (or_intror Ho))) as [st2 [M2 E2]].
  exists st2. split; [exact M2|]. intros X. rewrite E2 by (intros o' Ho; apply X; right; exact Ho). apply E1. apply X. left. reflexivity.
Qed.
Lemma run_owner : forall l s, (forall o, In o l -> ~ any_model o) -> se_owner (run s l) = se_owner s /\ se_fs (run s l) = se_fs s.
Proof.
  induction l as [|o l IH]; intros s N; [auto|]. cbn [run fold_left]. fold (run (fst (do_sop cf ord unit s o)) l).
  destruct (IH (fst (do_sop cf ord unit s o)) (fun o Ho => N o (or_intror Ho))) as [-> ->]. destruct o as [j|j a|j]; cbn [do_sop]; [|destruct (model_of s j); auto|auto].
  exfalso. apply (N (SModel j) (or_introl eq_refl)). exists j. reflexivity.
Qed.
Lemma run_app : forall l l' s, run s (l ++ l') = run (run s l) l'. Proof. intros. apply fold_left_app. Qed.

(** The history of [C67_full]. *)
Variables (fs : flow_system) (idxs : list (option (list nat))) (l1 l2 l3 : list sop) (k : nat) (idx : option (list nat)) (x : asg).
Hypothesis K : nth_error idxs k = Some idx.
Let s1 := session_after cf ord unit fs idxs l1.
Let s4 := session_after cf ord unit fs idxs (l1 ++ SModel k :: l2 ++ SSolve k (Some x) :: l3).
Hypothesis OK : snd (do_sop cf ord unit s1 (SModel k)) = Ok None.
Hypothesis NM : forall o, In o (l2 ++ l3) -> ~ models k o.
Hypothesis NS_ : forall o, In o l3 -> ~ solves k o.

Lemma calc_idx : exists m0, nth_error (se_calcs s1) k = Some (idx, m0).
Proof.
  subst s1. assert (E : map fst (se_calcs (session_after cf ord unit fs idxs l1)) = idxs).
  { unfold session_after. fold (run (new_session fs idxs) l1). rewrite run_idx. unfold new_session. cbn [se_calcs]. rewrite map_map. cbn [fst]. apply map_id. }
  rewrite <- E in K. rewrite nth_error_map in K. destruct (nth_error _ k) as [[i m0]|]; [|discriminate]. cbn in K. injection K as ->. eauto.
Qed.
Lemma modelled_here : exists b pm axis, build_system cf ord (se_fs s1) idx = Ok b /\ system_translate (bs_roots b) (bs_obj b) = Ok pm
  /\ fst (do_sop cf ord unit s1 (SModel k)) = mkSession (after_modeling cf ord (se_fs s1) idx) (set_calc k (Some (mkSM b pm axis None)) (se_calcs s1)) (Some k).
Proof.
  destruct calc_idx as [m0 E]. pose proof OK as H. cbn [do_sop] in *. rewrite E in *. unfold modelled in *.
  destruct (build_system cf ord (se_fs s1) idx) as [b|]; [|discriminate]. cbn [bind] in *. destruct (system_translate (bs_roots b) (bs_obj b)) as [pm|]eqn:ET; [|discriminate]. cbn [bind] in *.
  destruct (time_axis _ _) as [a|]; [|discriminate]. cbn [bind] in *. exists b, pm, a. auto.
Qed.
Lemma final_model : exists b pm axis, build_system cf ord (se_fs s1) idx = Ok b /\ system_translate (bs_roots b) (bs_obj b) = Ok pm
  /\ model_of s4 k = Some (mkSM b pm axis (Some x))
  /\ ((forall o, In o (l2 ++ l3) -> ~ any_model o) -> se_owner s4 = Some k /\ se_fs s4 = after_modeling cf ord (se_fs s1) idx).
Proof.
  destruct modelled_here as [b [pm [axis [B [T E]]]]]. exists b, pm, axis. split; [exact B|]. split; [exact T|].
  assert (S4 : s4 = run (fst (do_sop cf ord unit (run (fst (do_sop cf ord unit s1 (SModel k))) l2) (SSolve k (Some x)))) l3).
  { subst s4 s1. unfold session_after. fold (run (new_session fs idxs)). rewrite fold_left_app. cbn [fold_left]. rewrite fold_left_app. reflexivity. }
  destruct calc_idx as [m0 EI]. set (s2 := fst (do_sop cf ord unit s1 (SModel k))) in *.
  assert (M2 : model_of s2 k = Some (ws (mkSM b pm axis None) None)).
  { rewrite E. unfold model_of. cbn [se_calcs]. rewrite (set_calc_same _ _ _ _ _ EI). reflexivity. }
  destruct (run_keeps l2 s2 k _ _ M2) as [st3 [M3 _]]; [intros o Ho; apply NM, in_or_app; left; exact Ho|].
  destruct (step_keeps _ (SSolve k (Some x)) k _ _ M3) as [st4 [M4 [_ E4]]]; [discriminate|]. specialize (E4 _ eq_refl). subst st4.
  destruct (run_keeps l3 _ k _ _ M4) as [st5 [M5 E5]]; [intros o Ho; apply NM, in_or_app; right; exact Ho|]. specialize (E5 NS_). subst st5.
  rewrite S4. split; [exact M5|]. intros NA.
  destruct (run_owner l3 (fst (do_sop cf ord unit (run s2 l2) (SSolve k (Some x))))) as [-> ->]; [intros o Ho; apply NA, in_or_app; right; exact Ho|].
  assert (Z : se_owner (fst (do_sop cf ord unit (run s2 l2) (SSolve k (Some x)))) = se_owner (run s2 l2)
     /\ se_fs (fst (do_sop cf ord unit (run s2 l2) (SSolve k (Some x)))) = se_fs (run s2 l2)).
  { cbn [do_sop]. rewrite M3. auto. }
  destruct Z as [-> ->]. destruct (run_owner l2 s2) as [-> ->]; [intros o Ho; apply NA, in_or_app; left; exact Ho|]. rewrite E. auto.
Qed.

Lemma here_frame : same_frame fs (se_fs s1).
Proof. exact (run_frame l1 (new_session fs idxs)). Qed.
Lemma here_invested : forall b, build_system cf ord (se_fs s1) idx = Ok b -> forall n, invested_in cf (se_fs s1) n <-> invested_in cf fs n.
Proof.
  intros b B n. rewrite <- !names_spec. destruct (built_names _ _ _ _ _ B) as [ND _]. rewrite (frame_ids_ _ _ here_frame) in ND.
  pose proof (run_names l1 (new_session fs idxs) ND) as E. change (se_fs (run (new_session fs idxs) l1)) with (se_fs s1) in E. rewrite E. reflexivity.
Qed.
Lemma right_here : forall b pm r, build_system cf ord (se_fs s1) idx = Ok b -> own_right cf (se_fs s1) pm x r -> own_right cf fs pm x r.
Proof.
  intros b pm r B [P1 P2 P3 P4]. constructor; auto.
  - intros n Hn. apply P3. apply (here_invested b B). exact Hn.
  - intros n q Hq. apply (here_invested b B). exact (P4 _ _ Hq).
Qed.
End History.

(** ** C67 *)

(** No other calculation is modelled after this one: solving raises nothing and the main results are right. *)
Theorem C67_main_partial : forall cf ord unit fs idxs l1 l2 l3 k idx x,
  nth_error idxs k = Some idx ->
  snd (do_sop cf ord unit (session_after cf ord unit fs idxs l1) (SModel k)) = Ok None ->
  (forall o, In o (l2 ++ l3) -> ~ any_model o) -> (forall o, In o l3 -> ~ solves k o) ->
  NoDup (map (effect_key unit) (fs_effects fs)) ->
  exists pm r, build cf ord (se_fs (session_after cf ord unit fs idxs l1)) idx = Ok pm
    /\ snd (do_sop cf ord unit (session_after cf ord unit fs idxs (l1 ++ SModel k :: l2)) (SSolve k (Some x))) = Ok None
    /\ snd (do_sop cf ord unit (session_after cf ord unit fs idxs (l1 ++ SModel k :: l2 ++ SSolve k (Some x) :: l3)) (SMain k)) = Ok (Some r)
    /\ main_right cf ord unit fs (steps fs idx) pm x r.
Proof.
  intros cf ord unit fs idxs l1 l2 l3 k idx x K OK NA NS_ ND.
  assert (NM : forall o, In o (l2 ++ l3) -> ~ models k o) by (intros o Ho X; apply (NA o Ho); exists k; exact X).
  destruct (final_model cf ord unit fs idxs l1 l2 l3 k idx x K OK NM NS_) as [b [pm [axis [B [T [M O]]]]]]. destruct (O NA) as [O1 O2].
  pose proof (here_frame cf ord unit fs idxs l1) as SF.
  assert (SF2 : same_frame (se_fs (session_after cf ord unit fs idxs l1)) (after_modeling cf ord (se_fs (session_after cf ord unit fs idxs l1)) idx)) by (apply sys_like_frame, after_like).
  destruct (all_parts cf ord unit _ idx b pm axis x B T _ SF2) as [r [R1 R2]]; [rewrite (sf_effects _ _ SF); exact ND|].
  exists pm, r. split; [unfold build; rewrite B; exact T|]. split; [|split].
  - assert (NM' : forall o, In o (l2 ++ []) -> ~ models k o) by (intros o Ho; apply NM; rewrite app_nil_r in Ho; apply in_or_app; left; exact Ho).
    destruct (final_model cf ord unit fs idxs l1 l2 [] k idx x K OK NM' (fun o Ho => match Ho with end)) as [b' [pm' [axis' [B' [T' [M' O']]]]]].
    destruct O' as [O1' O2']; [intros o Ho; apply NA; rewrite app_nil_r in Ho; apply in_or_app; left; exact Ho|].
    assert (E : session_after cf ord unit fs idxs (l1 ++ SModel k :: l2 ++ [SSolve k (Some x)])
       = fst (do_sop cf ord unit (session_after cf ord unit fs idxs (l1 ++ SModel k :: l2)) (SSolve k (Some x)))).
    { unfold session_after. change (l1 ++ SModel k :: l2 ++ [SSolve k (Some x)]) with (l1 ++ (SModel k :: l2) ++ [SSolve k (Some x)]). rewrite app_assoc, fold_left_app. reflexivity. }
    rewrite E in M', O1', O2'. clear E. set (s := session_after cf ord unit fs idxs (l1 ++ SModel k :: l2)) in *. cbn [do_sop] in *.
    destruct (model_of s k) as [m|] eqn:Em; [|unfold model_of in M', Em; cbn [fst] in M'; rewrite Em in M'; discriminate]. cbn [fst snd] in *.
    assert (Z : mkSM (sm_built m) (sm_prog m) (sm_axis m) (Some x) = mkSM b' pm' axis' (Some x)).
    { unfold model_of in M', Em. cbn [se_calcs] in M'. destruct (nth_error (se_calcs s) k) as [[i m0]|] eqn:En; [|discriminate]. rewrite (set_calc_same _ _ _ _ _ En) in M'. congruence. }
    unfold shared_model. cbn [se_fs se_owner] in O1', O2' |- *. rewrite O1', O2' in *. rewrite M', Z.
    destruct (all_parts cf ord unit _ idx b' pm' axis' x B' T' _ SF2) as [r' [R1' _]]; [rewrite (sf_effects _ _ SF); exact ND|]. rewrite R1'. reflexivity.
  - cbn [do_sop snd]. rewrite M. unfold shared_model. rewrite O1, M, O2, R1. reflexivity.
  - destruct R2 as [P1 P2 P3 P4]. constructor.
    + intros e He. apply P1. rewrite (sf_effects _ _ SF). exact He.
    + intros key q Hq. destruct (P2 _ _ Hq) as [e [He E]]. exists e. split; [|exact E]. rewrite <- (sf_effects _ _ SF). exact He.
    + intros lb. rewrite (P3 lb). rewrite (frame_buses _ _ SF). unfold steps. rewrite (sf_times _ _ SF). reflexivity.
    + exact (right_here cf ord unit fs idxs l1 idx x b pm r B P4).
Qed.
Print Assumptions C67_main_partial.

(** Other calculations may be modelled meanwhile: if main results are shown, then penalty, objective and investments in them are the
    calculation's own. *)
Theorem C67_own_partial : forall cf ord unit fs idxs l1 l2 l3 k idx x,
  nth_error idxs k = Some idx ->
  snd (do_sop cf ord unit (session_after cf ord unit fs idxs l1) (SModel k)) = Ok None ->
  (forall o, In o (l2 ++ l3) -> ~ models k o) -> (forall o, In o l3 -> ~ solves k o) ->
  exists pm, build cf ord (se_fs (session_after cf ord unit fs idxs l1)) idx = Ok pm /\ forall r,
    snd (do_sop cf ord unit (session_after cf ord unit fs idxs (l1 ++ SModel k :: l2 ++ SSolve k (Some x) :: l3)) (SMain k)) = Ok (Some r) ->
    own_right cf fs pm x r.
Proof.
  intros cf ord unit fs idxs l1 l2 l3 k idx x K OK NM NS_.
  destruct (final_model cf ord unit fs idxs l1 l2 l3 k idx x K OK NM NS_) as [b [pm [axis [B [T [M _]]]]]].
  exists pm. split; [unfold build; rewrite B; exact T|]. intros r H. cbn [do_sop snd] in H. rewrite M in H. bnd H r' Er. apply Ok_inj in H. injection H as <-.
  eapply right_here; [exact B|]. exact (own_part cf ord unit _ idx b pm axis x B T _ _ _ Er).
Qed.
Print Assumptions C67_own_partial.

Definition euro (e : effect) : string := if e_std e then "EUR" else "kg".
Lemma keys_0 : NoDup (map (effect_key euro) (fs_effects fs0)).
Proof. apply nodup_str_NoDup. reflexivity. Qed.
Lemma x0_here : exists pm, build default_config id_ord fs0 None = Ok pm /\ feasible pm x0. Proof. exact x0_feasible. Qed.

(** Modelling a second calculation before the first is solved: the first one's main results cannot be computed; its solve() raises. *)
Definition two_calcs : list (option (list nat)) := [None; None].
Theorem C67_refuted : ~ C67_full.
Proof.
  intros F. specialize (F default_config id_ord euro fs0 two_calcs [] [SModel 1] [] 0%nat None x0 eq_refl).
  assert (M : snd (do_sop default_config id_ord euro (session_after default_config id_ord euro fs0 two_calcs []) (SModel 0)) = Ok None) by (vm_compute; reflexivity).
  specialize (F M). destruct F as [pm [B F]].
  - intros o [<-|[]]. discriminate.
  - intros o [].
  - exact keys_0.
  - destruct x0_feasible as [pm' [B' Fe]]. change (se_fs (session_after default_config id_ord euro fs0 two_calcs [])) with fs0 in B.
    rewrite B' in B. apply Ok_inj in B. subst pm'. destruct (F Fe) as [r [R _]].
    assert (E : match snd (do_sop default_config id_ord euro (session_after default_config id_ord euro fs0 two_calcs ([] ++ SModel 0 :: [SModel 1] ++ SSolve 0 (Some x0) :: [])) (SMain 0))
                with Err TypeError => true | _ => false end = true) by (vm_compute; reflexivity).
    rewrite R in E. discriminate.
Qed.
Print Assumptions C67_refuted.
(** The call of solve() itself raises. *)
Example C67_solve_raises :
  snd (do_sop default_config id_ord euro (session_after default_config id_ord euro fs0 two_calcs [SModel 0; SModel 1]) (SSolve 0 (Some x0))) = Err TypeError.
Proof. vm_compute. reflexivity. Qed.

(** Modelling and solving a second calculation later: the first one shows the second one's effects. *)
Definition y0 (l : string) (t : nat) : Q := x0 l t + 7.
Example C67_shows_other :
  match snd (do_sop default_config id_ord euro (session_after default_config id_ord euro fs0 two_calcs [SModel 0; SSolve 0 (Some x0); SModel 1; SSolve 1 (Some y0)]) (SMain 0)) with
  | Ok (Some r) => sget (effect_key euro costs) (mn_effects r) = Some (op_sum y0 costs, inv_sum y0 costs, all_sum y0 costs)
                   /\ ~ op_sum y0 costs == op_sum x0 costs
  | _ => False
  end.
Proof. vm_compute. split; [reflexivity|discriminate]. Qed.

(** Not vacuous: another calculation was modelled and failed to be solved before; both are asked in between. *)
Definition mixed : list (option (list nat)) := [None; Some [1; 2]%nat].
Example C67_applies : exists pm r, build default_config id_ord (se_fs (session_after default_config id_ord euro fs0 mixed [SModel 1; SSolve 1 None])) None = Ok pm
  /\ snd (do_sop default_config id_ord euro (session_after default_config id_ord euro fs0 mixed ([SModel 1; SSolve 1 None] ++ SModel 0 :: [SMain 1; SSolve 0 None] ++ SSolve 0 (Some x0) :: [SMain 0; SSolve 1 None])) (SMain 0)) = Ok (Some r)
  /\ main_right default_config id_ord euro fs0 (steps fs0 None) pm x0 r
  /\ length (mn_invested r ++ mn_not_invested r) = 2%nat.
Proof.
  assert (M : snd (do_sop default_config id_ord euro (session_after default_config id_ord euro fs0 mixed [SModel 1; SSolve 1 None]) (SModel 0)) = Ok None) by (vm_compute; reflexivity).
  destruct (C67_main_partial default_config id_ord euro fs0 mixed [SModel 1; SSolve 1 None] [SMain 1; SSolve 0 None] [SMain 0; SSolve 1 None] 0%nat None x0 eq_refl M) as [pm [r [H1 [_ [H2 H3]]]]].
  - intros o [<-|[<-|[<-|[<-|[]]]]] [j E]; discriminate.
  - intros o [<-|[<-|[]]] [a E]; discriminate.
  - exact keys_0.
  - exists pm, r. split; [exact H1|]. split; [exact H2|]. split; [exact H3|].
    assert (E : match snd (do_sop default_config id_ord euro (session_after default_config id_ord euro fs0 mixed ([SModel 1; SSolve 1 None] ++ SModel 0 :: [SMain 1; SSolve 0 None] ++ SSolve 0 (Some x0) :: [SMain 0; SSolve 1 None])) (SMain 0))
                with Ok (Some r) => Nat.eqb (length (mn_invested r ++ mn_not_invested r)) 2 | _ => false end = true) by (vm_compute; reflexivity).
    rewrite H2 in E. apply Nat.eqb_eq. exact E.
Qed.
Example C67_own_applies : forall r,
  snd (do_sop default_config id_ord euro (session_after default_config id_ord euro fs0 two_calcs ([] ++ SModel 0 :: [] ++ SSolve 0 (Some x0) :: [SModel 1; SSolve 1 (Some y0)])) (SMain 0)) = Ok (Some r) ->
  mn_penalty r == penalty_sum x0.
Proof.
  assert (M : snd (do_sop default_config id_ord euro (session_after default_config id_ord euro fs0 two_calcs []) (SModel 0)) = Ok None) by (vm_compute; reflexivity).
  destruct (C67_own_partial default_config id_ord euro fs0 two_calcs [] [] [SModel 1; SSolve 1 (Some y0)] 0%nat None x0 eq_refl M) as [pm [_ H]].
  - intros o [<-|[<-|[]]] E; discriminate.
  - intros o [<-|[<-|[]]] [a E]; discriminate.
  - intros r R. apply (mo_penalty _ _ _ _ _ (H r R)).
Qed.
