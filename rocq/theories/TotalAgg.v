(** Aggregated calculations can always be written down for valid data, well-chosen labels and a clustering that fits. *)
From Verif Require Import Base BaseFacts MathModel Spec MathFacts MathTotal Structure StructureFacts Params Features Elements System SysSpec CtxFacts NavFacts BusFacts ResultFacts
  NameSpec NameFacts TotalFacts TotalFeatures TotalInvest TotalOnOff TotalShares TotalEffects TotalFlows TotalComps ValidSpec TotalSystem ClosedFacts LenFacts Aggregation.

(** ** The variables of one component *)
Lemma NoDup_parts : forall {A} (l m : list A), NoDup (l ++ m) -> NoDup l /\ NoDup m.
Proof.
  intros A l m. induction l as [|a l IH]; cbn [app]; intros N; [split; [constructor|auto]|]. inversion N; subst. destruct (IH H2). split; auto. constructor; auto. intros X. apply H1. apply in_or_app. auto.
Qed.
Lemma vs_decl : forall m, vs_of [m] = decl m.
Proof. intros m. unfold vs_of, decl. cbn [flat_map]. rewrite app_nil_r. reflexivity. Qed.
Lemma mem_str_In : forall s l, mem_str s l = true -> In s l.
Proof. intros s l H. unfold mem_str in H. apply existsb_exists in H. destruct H as [x [X E]]. apply String.eqb_eq in E. congruence. Qed.
Lemma all_variables_total : forall m, NoDup (map v_label (decl m)) -> em_all_variables m = Ok (decl m).
Proof.
  apply (emodel_ind' (fun m => NoDup (map v_label (decl m)) -> em_all_variables m = Ok (decl m))).
  intros f l v c subs IH N. rewrite decl_EM in *. cbn [em_all_variables].
  assert (X : forall ss acc, (forall s, In s ss -> In s subs) -> NoDup (map v_label (acc ++ flat_map decl ss)) ->
     foldM (fun acc s => vs <- em_all_variables s ;;
              _ <- guard (forallb (fun v => negb (mem_str (v_label v) (map v_label acc))) vs) KeyError ;; Ok (acc ++ vs)) ss acc = Ok (acc ++ flat_map decl ss)).
  { induction ss as [|s ss IHs]; intros acc Hs ND; cbn [foldM flat_map]; [rewrite app_nil_r; reflexivity|]. cbn [flat_map] in ND.
    assert (N1 : NoDup (map v_label (decl s))).
    { rewrite !map_app in ND. apply NoDup_parts in ND. destruct ND as [_ ND]. apply NoDup_parts in ND. apply ND. }
    rewrite Forall_forall in IH. rewrite (IH s (Hs s (or_introl eq_refl)) N1). cbn [bind].
    replace (forallb _ _) with true.
    - cbn [guard bind]. rewrite IHs; [rewrite app_assoc; reflexivity|intros; apply Hs; right; auto|rewrite <- app_assoc; exact ND].
    - symmetry. apply forallb_forall. intros w Hw. destruct (mem_str (v_label w) (map v_label acc)) eqn:M; auto. exfalso. apply mem_str_In in M.
      rewrite map_app in ND. apply (NoDup_app_disj _ _ (v_label w) ND M). rewrite map_app. apply in_or_app. left. apply in_map. exact Hw. }
  apply (X subs v); auto.
Qed.

(** ** One tied variable *)
Definition agg_lab (p l : string) : string := vlabel agg_full (cat [p; l]).
Definition korr_names : list string := ["Korr1_"; "Korr0_"]%string.
Definition tie_names : list string := ["Equate_indices_of_"; "lock_K0andK1_"; "Nr_of_Corrections_"]%string.
Lemma agg_lab_inj : forall ns p p' l l', ns = korr_names \/ ns = tie_names -> In p ns -> In p' ns -> agg_lab p l = agg_lab p' l' -> p = p' /\ l = l'.
Proof.
  intros ns p p' l l' NS_ P P' E. unfold agg_lab in E. apply vlabel_inj in E. apply (f_equal words) in E.
  destruct NS_ as [-> | ->]; cbn in P, P'.
  - change (cat ["Korr1_"%string; l]) with (cat ["Korr1"%string; "_"%string; l]) in *.
    destruct P as [<-|[<-|[]]], P' as [<-|[<-|[]]];
    repeat match goal with
    | E : context [cat ["Korr1_"%string; ?x]] |- _ => change (cat ["Korr1_"%string; x]) with (cat ["Korr1"%string; "_"%string; x]) in E
    | E : context [cat ["Korr0_"%string; ?x]] |- _ => change (cat ["Korr0_"%string; x]) with (cat ["Korr0"%string; "_"%string; x]) in E
    end; rewrite !words_us in E; cbn [words app] in E; try discriminate E; apply app_inv_head in E; apply words_inj in E; auto.
  - destruct P as [<-|[<-|[<-|[]]]], P' as [<-|[<-|[<-|[]]]];
    repeat match goal with
    | E : context [cat ["Equate_indices_of_"%string; ?x]] |- _ => change (cat ["Equate_indices_of_"%string; x]) with (cat ["Equate_indices_of"%string; "_"%string; x]) in E
    | E : context [cat ["lock_K0andK1_"%string; ?x]] |- _ => change (cat ["lock_K0andK1_"%string; x]) with (cat ["lock_K0andK1"%string; "_"%string; x]) in E
    | E : context [cat ["Nr_of_Corrections_"%string; ?x]] |- _ => change (cat ["Nr_of_Corrections_"%string; x]) with (cat ["Nr_of_Corrections"%string; "_"%string; x]) in E
    end; rewrite !words_us in E; try discriminate E; apply app_inv_head in E; apply words_inj in E; auto.
Qed.
Record tied_fine (n : nat) (v : variable) (o : list variable * list constraint) : Prop := {
  tf_vars : exists ps, incl ps korr_names /\ NoDup ps /\ map v_label (fst o) = map (fun p => agg_lab p (v_label v)) ps;
  tf_cons : exists ps, incl ps tie_names /\ NoDup ps /\ map c_label (snd o) = map (fun p => agg_lab p (v_label v)) ps;
  tf_var : Forall (fun k => var_ok k /\ v_len k = n) (fst o);
  tf_con : Forall con_ok (snd o)
}.
Lemma tied_ok : forall ap pairs v, (1 <= length pairs)%nat -> (forall i j, In (i, j) pairs -> (i < v_len v)%nat /\ (j < v_len v)%nat) ->
  exists o, equate_indices ap pairs v = Ok o /\ tied_fine (length pairs) v o.
Proof.
  intros ap pairs v L R. unfold equate_indices.
  assert (F1 : call_fit (length pairs) (AddS v (NS 1) (Some (map fst pairs)) false)).
  { apply fit_some; [|apply map_length|exact I]. apply Forall_forall. intros j J. apply in_map_iff in J. destruct J as [[a b] [<- J]]. apply (R _ _ J). }
  assert (F2 : call_fit (length pairs) (AddS v (NS (-1)) (Some (map snd pairs)) false)).
  { apply fit_some; [|apply map_length|exact I]. apply Forall_forall. intros j J. apply in_map_iff in J. destruct J as [[a b] [<- J]]. apply (R _ _ J). }
  destruct (v_bin v && negb (Qle_bool (ag_freedom ap) 0))%bool.
  - destruct (create_any agg_full (cat ["Korr1_"%string; v_label v]) (length pairs) true None None L I I) as [k1 [-> [I1 _]]]. cbn [bind].
    destruct (create_any agg_full (cat ["Korr0_"%string; v_label v]) (length pairs) true None None L I I) as [k0 [-> [I0 _]]]. cbn [bind].
    assert (G : forall q, call_fit (length pairs) (AddS k1 (NS q) None false) /\ call_fit (length pairs) (AddS k0 (NS q) None false)) by (intros q; split; apply fit_all; try apply I1; try apply I0; exact I).
    next_eq' (length pairs).
    next_eq' (length pairs).
    next_eq' 1%nat.
    eexists. split; [reflexivity|]. split; cbn [fst snd].
    + exists korr_names. split; [apply incl_refl|]. split; [repeat constructor; cbn; intuition discriminate|]. cbn [map korr_names]. rewrite (iv_lab _ _ _ I1), (iv_lab _ _ _ I0). reflexivity.
    + exists tie_names. split; [apply incl_refl|]. split; [repeat constructor; cbn; intuition discriminate|]. cbn [map tie_names]. rewrite El, El0, El1. reflexivity.
    + constructor; [split; [apply I1|apply (iv_len _ _ _ I1)]|constructor; [split; [apply I0|apply (iv_len _ _ _ I0)]|constructor]].
    + repeat constructor; assumption.
  - next_eq' (length pairs).
    eexists. split; [reflexivity|]. split; cbn [fst snd].
    + exists []. split; [intros ? []|]. split; [constructor|reflexivity].
    + exists ["Equate_indices_of_"%string]. split; [intros ? [<-|[]]; left; reflexivity|]. split; [repeat constructor; intros []|]. cbn [map]. rewrite El. reflexivity.
    + constructor.
    + repeat constructor; assumption.
Qed.

(** ** All tied variables *)
Lemma joined_labels : forall {A} (f : A -> string) (ns : list string) (vs : list variable) (os : list (list A)), ns = korr_names \/ ns = tie_names ->
  Forall2 (fun v o => exists ps, incl ps ns /\ NoDup ps /\ map f o = map (fun p => agg_lab p (v_label v)) ps) vs os -> NoDup (map v_label vs) ->
  NoDup (map f (List.concat os)) /\ forall s, In s (map f (List.concat os)) -> exists p v, In p ns /\ In v vs /\ s = agg_lab p (v_label v).
Proof.
  intros A f ns vs os C F. induction F as [|v o vs os [ps [IN [ND E]]] F IH]; cbn [map List.concat]; intros N; [split; [constructor|intros s []]|].
  inversion N as [|x y N1 N2]; subst. destruct (IH N2) as [I1 I2]. rewrite map_app, E.
  assert (ON : forall s, In s (map (fun p => agg_lab p (v_label v)) ps) -> exists p w, In p ns /\ In w (v :: vs) /\ s = agg_lab p (v_label w) /\ w = v).
  { intros s H. apply in_map_iff in H. destruct H as [p [<- P]]. exists p, v. split; [apply IN; exact P|]. split; [left; auto|auto]. }
  split.
  - apply NoDup_app_; auto.
    + clear -ND C IN. induction ps as [|p ps IH]; cbn [map]; constructor; inversion ND; subst.
      * intros H. apply in_map_iff in H. destruct H as [q [E Q]]. destruct (agg_lab_inj ns _ _ _ _ C (IN q (or_intror Q)) (IN p (or_introl eq_refl)) E) as [-> _]. auto.
      * apply IH; auto. intros q Q. apply IN. right. exact Q.
    + intros s S1 S2. destruct (ON _ S1) as [p [w [P [_ [-> ->]]]]]. destruct (I2 _ S2) as [q [u [Q [U E2]]]]. destruct (agg_lab_inj ns _ _ _ _ C P Q E2) as [_ EL].
      apply N1. rewrite EL. apply in_map. exact U.
  - intros s S. apply in_app_or in S. destruct S as [S|S]; [destruct (ON _ S) as [p [w [P [W [E1 _]]]]]; exists p, w; auto|]. destruct (I2 _ S) as [q [u [Q [U E2]]]]. exists q, u. split; auto. split; [right; auto|auto].
Qed.
Lemma agg_words : forall p l, exists r, words (agg_lab p l) = ["Aggregation"%string] ++ r.
Proof. intros p l. unfold agg_lab, vlabel. rewrite words_us. change (words agg_full) with ["Aggregation"; ""; "Model"]%string. eexists. reflexivity. Qed.

Lemma map_flat_map_ : forall {A B C} (f : B -> C) (g : A -> list B) l, map f (flat_map g l) = flat_map (fun a => map f (g a)) l.
Proof. intros A B C f g l. induction l as [|a l IH]; auto. cbn [flat_map]. rewrite map_app, IH. reflexivity. Qed.
Lemma ties_total : forall ap pairs vs, (1 <= length pairs)%nat -> NoDup (map v_label vs) ->
  (forall v i j, In v vs -> In (i, j) pairs -> (i < v_len v)%nat /\ (j < v_len v)%nat) ->
  exists parts, mapM (equate_indices ap pairs) vs = Ok parts
    /\ rooted [["Aggregation"%string]] (flat_map fst parts) (flat_map snd parts) /\ Forall (fun k => v_len k = length pairs) (flat_map fst parts).
Proof.
  intros ap pairs vs L ND R. destruct (mapM_ok (equate_indices ap pairs) (tied_fine (length pairs)) vs) as [parts [E F]].
  { intros v V. apply tied_ok; auto. }
  exists parts. split; [exact E|].
  assert (FV : Forall2 (fun v o => exists ps, incl ps korr_names /\ NoDup ps /\ map v_label o = map (fun p => agg_lab p (v_label v)) ps) vs (map fst parts)).
  { clear -F. induction F as [|v o vs os H F IH]; constructor; auto. apply (tf_vars _ _ _ H). }
  assert (FC : Forall2 (fun v o => exists ps, incl ps tie_names /\ NoDup ps /\ map c_label o = map (fun p => agg_lab p (v_label v)) ps) vs (map snd parts)).
  { clear -F. induction F as [|v o vs os H F IH]; constructor; auto. apply (tf_cons _ _ _ H). }
  assert (C1 : flat_map fst parts = List.concat (map fst parts)) by apply flat_map_concat_map. assert (C2 : flat_map snd parts = List.concat (map snd parts)) by apply flat_map_concat_map.
  destruct (joined_labels v_label korr_names vs _ (or_introl eq_refl) FV ND) as [V1 V2]. destruct (joined_labels c_label tie_names vs _ (or_intror eq_refl) FC ND) as [K1 K2].
  assert (AL : forall o, In o parts -> Forall (fun k => var_ok k /\ v_len k = length pairs) (fst o) /\ Forall con_ok (snd o)).
  { intros o O. destruct (Forall2_In_r _ _ _ _ F O) as [v [_ T]]. split; apply T. }
  split; [split|].
  - rewrite C1. split; auto. intros s S. destruct (V2 _ S) as [p [v [_ [_ ->]]]]. destruct (agg_words p (v_label v)) as [r Er]. exists ["Aggregation"%string], r. split; [left; auto|exact Er].
  - rewrite C2. split; auto. intros s S. destruct (K2 _ S) as [p [v [_ [_ ->]]]]. destruct (agg_words p (v_label v)) as [r Er]. exists ["Aggregation"%string], r. split; [left; auto|exact Er].
  - apply Forall_forall. intros k K. apply in_flat_map in K. destruct K as [o [O K]]. destruct (AL _ O) as [A _]. rewrite Forall_forall in A. apply (A _ K).
  - apply Forall_forall. intros k K. apply in_flat_map in K. destruct K as [o [O K]]. destruct (AL _ O) as [_ A]. rewrite Forall_forall in A. apply (A _ K).
  - apply Forall_forall. intros k K. apply in_flat_map in K. destruct K as [o [O K]]. destruct (AL _ O) as [A _]. rewrite Forall_forall in A. apply (A _ K).
Qed.

(** ** The chosen components and their variables *)
Lemma in_combine_F2 : forall {A B} (R : A -> B -> Prop) l m a b, Forall2 R l m -> In (a, b) (combine l m) -> In a l /\ In b m /\ R a b.
Proof.
  intros A B R l m a b F. induction F as [|x y l m H F IH]; cbn [combine]; [intros []|]. intros [E|E]; [injection E as <- <-; cbn; auto|]. destruct (IH E) as [I1 [I2 I3]]. cbn. auto.
Qed.
Lemma combine_labels : forall {B} (comps : list component) (cos : list B), length comps = length cos -> map (fun co => cp_label (fst co)) (combine comps cos) = map cp_label comps.
Proof. intros B. induction comps as [|c l IH]; intros [|o m] L; cbn in *; try discriminate; auto. f_equal. apply IH. congruence. Qed.
Definition known_labels (sel : option (list string)) (comps : list component) : Prop :=
  forall l, In l (match sel with Some ls => ls | None => [] end) -> In l (map cp_label comps).
Lemma chosen_total : forall sel comps cos, length comps = length cos -> NoDup (map cp_label comps) -> NoDup (match sel with Some ls => ls | None => [] end) -> known_labels sel comps ->
  exists ch, chosen_components sel comps cos = Ok ch /\ NoDup (map (fun co => cp_label (fst co)) ch) /\ forall p, In p ch -> In p (combine comps cos).
Proof.
  intros sel comps cos L ND NS_ K. assert (ALL : NoDup (map (fun co => cp_label (fst co)) (combine comps cos))) by (rewrite combine_labels; auto).
  unfold chosen_components. destruct sel as [[|l0 ls]|]; [exists (combine comps cos); auto| |exists (combine comps cos); auto].
  set (sl := l0 :: ls) in *. unfold known_labels in K. clearbody sl.
  destruct (mapM_ok (fun l => of_option AttributeError (find (fun co : component * comp_out => String.eqb (cp_label (fst co)) l) (combine comps cos)))
    (fun l p => cp_label (fst p) = l /\ In p (combine comps cos)) sl) as [ch [E F]].
  { intros l Hl. specialize (K l Hl). rewrite <- (combine_labels comps cos L) in K. apply in_map_iff in K. destruct K as [p [Ep Hp]].
    destruct (find _ _) as [q|] eqn:Fq; [|exfalso; pose proof (find_none _ _ Fq _ Hp) as Z; cbv beta in Z; rewrite Ep, String.eqb_refl in Z; discriminate].
    cbn [of_option]. exists q. apply find_some in Fq. destruct Fq as [F1 F2]. apply String.eqb_eq in F2. auto. }
  exists ch. split; [exact E|]. split.
  - replace (map (fun co => cp_label (fst co)) ch) with sl; [exact NS_|]. clear -F. induction F as [|l p sl ch [H _] F IH]; auto. cbn [map]. rewrite H, <- IH. reflexivity.
  - intros p Hp. destruct (Forall2_In_r _ _ _ _ F Hp) as [l [_ [_ H]]]. exact H.
Qed.
Lemma NoDup_map_filter : forall {A B} (f : A -> B) (p : A -> bool) l, NoDup (map f l) -> NoDup (map f (filter p l)).
Proof.
  intros A B f p l. induction l as [|a l IH]; cbn [map filter]; intros N; [constructor|]. inversion N; subst. destruct (p a); auto. cbn [map]. constructor; auto.
  intros X. apply H1. apply in_map_iff in X. destruct X as [b [E X]]. apply filter_In in X. rewrite <- E. apply in_map. apply X.
Qed.
Lemma relevant_total : forall ap co P, under [P] (map v_label (vs_of [co_tree (snd co)])) ->
  exists vs, relevant_variables ap co = Ok vs /\ under [P] (map v_label vs) /\ forall v, In v vs -> In v (decl (co_tree (snd co))) /\ v_ts v = true.
Proof.
  intros ap co P U. rewrite vs_decl in U. destruct U as [ND IN]. unfold relevant_variables. destruct (is_storage (fst co) && negb (ag_fix_storage ap))%bool.
  - exists []. split; [reflexivity|]. split; [split; [constructor|intros s []]|intros v []].
  - rewrite (all_variables_total _ ND). cbn [bind]. eexists. split; [reflexivity|]. split.
    + split; [apply NoDup_map_filter; exact ND|]. intros s S. apply in_map_iff in S. destruct S as [v [<- V]]. apply filter_In in V. apply IN. apply in_map. apply V.
    + intros v V. apply filter_In in V. destruct V as [V T]. apply andb_true_iff in T. split; [auto|apply T].
Qed.
Lemma under_concat : forall {A} (w : A -> list string) (l : list A) (vss : list (list variable)), Forall2 (fun a vs => under [w a] (map v_label vs)) l vss ->
  ForallOrdPairs (fun a b => split_ (w a) (w b)) l -> under (map w l) (map v_label (List.concat vss)).
Proof.
  intros A w l vss F. induction F as [|a vs l vss H F IH]; intros N; cbn [map List.concat]; [split; [constructor|intros s []]|]. inversion N as [|x y N1 N2]; subst. rewrite map_app.
  apply (under_app [w a] (map w l)); auto. intros P P' [<-|[]] I. apply in_map_iff in I. destruct I as [b [<- B]]. rewrite Forall_forall in N1. auto.
Qed.

(** ** The whole calculation *)
Lemma pen_words : forall l, words (cat ["Aggregation_penalty__"%string; l]) = ["Aggregation"; "penalty"; ""]%string ++ words l.
Proof. intros l. change (cat ["Aggregation_penalty__"%string; l]) with (cat ["Aggregation_penalty"%string; "__"%string; l]). rewrite words_us2. reflexivity. Qed.
Definition agg_clear (fs : flow_system) : Prop :=
  (forall l, In l (top_labels fs) -> unrelated "Aggregation" l) /\ forall b, used_bus fs b -> unrelated "Aggregation" (b_lab b).
Lemma tops_clear : forall ord fs, agg_clear fs -> apart (tops ord fs) [["Aggregation"%string]].
Proof.
  intros ord fs [T B] w w' Hw [<-|[]]. apply split_sym. unfold tops in Hw. apply in_app_or in Hw. destruct Hw as [Hw|Hw]; apply in_app_or in Hw; destruct Hw as [Hw|Hw].
  - apply in_map_iff in Hw. destruct Hw as [e [<- He]]. apply (unrelated_split "Aggregation"). apply T. apply top_effect. exact He.
  - destruct Hw as [<-|[]]. apply (unrelated_split "Aggregation" "Effects"). apply T. left. reflexivity.
  - apply in_map_iff in Hw. destruct Hw as [c [<- Hc]]. apply (unrelated_split "Aggregation"). apply T. apply top_comp. exact Hc.
  - apply in_map_iff in Hw. destruct Hw as [b [<- Hb]]. apply (unrelated_split "Aggregation"). apply B. eapply buses_used; eauto.
Qed.
Theorem agg_total : forall cf ord fs idx hpp ap cl sel pairs, (forall l x, In x (ord l) <-> In x l) -> well_named fs -> valid_data fs idx -> agg_clear fs ->
  agg_checks fs idx hpp = Ok tt -> NoDup (match sel with Some ls => ls | None => [] end) -> known_labels sel (fs_comps fs) ->
  equation_indices true cl = Ok pairs -> (forall i j, In (i, j) pairs -> (i < steps fs idx)%nat /\ (j < steps fs idx)%nat) -> (1 <= length pairs)%nat ->
  (ag_freedom ap <= 0 \/ ag_penalty ap == 0 \/ (2 <= length pairs)%nat) -> exists pm, build_aggregated cf ord fs idx hpp ap cl sel = Ok pm.
Proof.
  intros cf ord fs idx hpp ap cl sel pairs OR W V AC CH NSel KS EI RG L1 L2. destruct (system_stage cf ord fs idx OR W V) as [cx [cos [bos S]]].
  destruct (wn_parts fs W) as [_ [UC _]]. pose proof (stg_len _ _ _ _ _ _ _ S) as [N2 CN].
  unfold build_aggregated. rewrite CH. cbn [bind]. unfold build_agg_system. rewrite (stg_ctx _ _ _ _ _ _ _ S). cbn [bind]. rewrite (stg_ids _ _ _ _ _ _ _ S). cbn [guard bind].
  rewrite (stg_comps _ _ _ _ _ _ _ S). cbn [bind]. rewrite (stg_buses _ _ _ _ _ _ _ S). cbn [bind].
  pose proof (stg_comp _ _ _ _ _ _ _ S) as FC.
  destruct (chosen_total sel (fs_comps fs) cos) as [ch [Ech [NDc Inc]]]; auto; [eapply Forall2_length_; eauto|apply (FOP_NoDup _ _ unrelated_irrefl UC)|].
  assert (LC : forall o, In o cos -> longT (cx_n cx) (co_tree o)).
  { intros o Ho. destruct (mapM_In_inv _ _ _ _ (stg_comps _ _ _ _ _ _ _ S) Ho) as [c [_ E]]. eapply comp_long. exact E. }
  destruct (mapM_ok (relevant_variables ap) (fun co vs => under [words (cp_label (fst co))] (map v_label vs) /\ forall v, In v vs -> (cx_n cx <= v_len v)%nat) ch) as [vss [Ev Fv]].
  { intros [c o] Hco. destruct (in_combine_F2 _ _ _ _ _ FC (Inc _ Hco)) as [_ [Ho Rc]]. destruct (relevant_total ap (c, o) _ (rt_vars _ _ _ Rc)) as [vs [E [U I]]].
    exists vs. split; [exact E|]. split; [exact U|]. intros v Hv. destruct (I v Hv) as [D T]. apply (LC o Ho v D T). }
  assert (UV : under (map (fun co => words (cp_label (fst co))) ch) (map v_label (List.concat vss))).
  { apply (under_concat (fun co => words (cp_label (fst co)))); [eapply Forall2_weaken; [|exact Fv]; intros a b _ [H _]; exact H|].
    apply FOP_unmap in UC. clear -NDc Inc FC UC. induction ch as [|p ch IH]; constructor.
    - apply Forall_forall. intros q Hq. cbn [map] in NDc. inversion NDc as [|x y N1 N3]; subst. destruct p as [c o], q as [c' o']. cbn [fst].
      destruct (in_combine_F2 _ _ _ _ _ FC (Inc _ (or_introl eq_refl))) as [Hc _]. destruct (in_combine_F2 _ _ _ _ _ FC (Inc _ (or_intror Hq))) as [Hc' _].
      apply unrelated_split. apply (FOP_sym_in (fun a b => unrelated (cp_label a) (cp_label b)) _ (fun a b => unrelated_sym _ _) UC); auto. intros <-. apply N1. apply in_map_iff. exists (c, o'). auto.
    - cbn [map] in NDc. inversion NDc; subst. apply IH; auto. intros q Hq. apply Inc. right. exact Hq. }
  destruct (ties_total ap pairs (List.concat vss) L1 (un_nodup _ _ UV)) as [parts [Ep [Rp Lp]]].
  { intros v i j Hv Hij. apply in_concat in Hv. destruct Hv as [vs [Hvs Hv]]. destruct (Forall2_In_r _ _ _ _ Fv Hvs) as [co [_ [_ Lv]]]. specialize (Lv v Hv). destruct (RG i j Hij). lia. }
  unfold aggregation_model. rewrite Ech. cbn [bind]. rewrite EI. cbn [bind]. rewrite Ev. cbn [bind]. rewrite Ep. cbn [bind].
  rewrite mk_em_plain by (first [apply (un_nodup _ _ (rt_vars _ _ _ Rp))|apply (un_nodup _ _ (rt_cons _ _ _ Rp))]). cbn [bind].
  set (pen := if _ : bool then _ else _).
  assert (PW : forall sh, In sh pen -> exists k, In k (flat_map fst parts) /\ sh = mkShare TPen (cat ["Aggregation_penalty__"%string; v_label k]) (Some k) (NS (ag_penalty ap)) true /\ (2 <= length pairs)%nat).
  { intros sh H. unfold pen in H. destruct (negb (Qle_bool (ag_freedom ap) 0) && negb (Qeq_bool (ag_penalty ap) 0))%bool eqn:C; [|destruct H].
    apply in_map_iff in H. destruct H as [k [<- K]]. exists k. split; auto. split; auto. apply andb_true_iff in C. destruct C as [C1 C2]. apply negb_true_iff in C1, C2.
    destruct L2 as [Z|[Z|Z]]; auto; exfalso; [apply Qle_bool_iff in Z|apply Qeq_bool_iff in Z]; congruence. }
  assert (PN : NoDup (map sh_key pen)).
  { unfold pen. destruct (_ && _)%bool; [|constructor]. rewrite map_map. pose proof (un_nodup _ _ (rt_vars _ _ _ Rp)) as N. clear -N. induction (flat_map fst parts) as [|k l IH]; cbn [map]; constructor; cbn [map] in N; inversion N as [|x y N1 N3]; subst; auto.
    intros H. apply in_map_iff in H. destruct H as [k' [E K]]. apply (f_equal snd) in E. unfold sh_key in E. cbn [snd sh_name] in E. apply (f_equal words) in E. rewrite !pen_words in E. apply app_inv_head in E. apply words_inj in E. apply N1. rewrite <- E. apply in_map. exact K. }
  pose proof (tops_clear ord fs AC) as AP.
  destruct (stg_effects _ _ _ _ _ _ _ S pen) as [em [obj [Ee [Re Te]]]].
  { rewrite map_app. apply NoDup_app_; [apply (stg_keys _ _ _ _ _ _ _ S)|exact PN|]. intros k K K'. apply in_map_iff in K, K'. destruct K as [s [E1 H1]], K' as [s' [E2 H2]].
    destruct (stg_names _ _ _ _ _ _ _ S _ H1) as [_ [P [r [HP WP]]]]. destruct (PW _ H2) as [kk [_ [-> _]]]. subst k. apply (f_equal snd) in E2. unfold sh_key in E2. cbn [snd sh_name] in E2.
    rewrite <- E2, pen_words in WP. apply (AP P _ HP (or_introl eq_refl) r (["penalty"; ""]%string ++ words (v_label kk))). rewrite <- WP. reflexivity. }
  { intros sh H. destruct (PW _ H) as [k [K [-> LL]]]. rewrite Forall_forall in Lp. specialize (Lp _ K). split; [|cbn [sh_name]; rewrite pen_words; split; [cbn; auto|discriminate]].
    unfold share_ok. cbn [sh_target sh_as_sum sh_var sh_factor]. split; auto. exists k. split; auto. split; [lia|exact Logic.I]. }
  rewrite <- app_assoc in Ee. rewrite Ee. cbn [bind ab_roots ab_obj]. eapply translate_ok; [|exact Te]. rewrite vs_app, cs_app.
  apply rooted_app; [exact Re| |exact AP]. rewrite vs_node, cs_node. cbn [vs_of cs_of flat_map]. rewrite !app_nil_r. exact Rp.
Qed.
