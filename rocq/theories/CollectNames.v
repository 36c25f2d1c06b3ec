(** Time-varying parameters have different labels. *)
From Coq Require Import String Permutation.
From Verif Require Import Base BaseFacts ReadTools MathModel Spec Structure Params Features Elements System SysSpec CtxFacts NavFacts BusFacts NameSpec NameFacts ValidSpec TotalEffects TotalSystem
  Aggregation Series Collect DataSpec CollectFacts.
Local Open Scope Q_scope.

(** ** Pairs *)
Definition clear_of (a b : string * param) : Prop := varies (snd a) -> varies (snd b) -> fst a <> fst b.
Definition clean (l : list (string * param)) : Prop := ForallOrdPairs clear_of l.
Lemma FOP_app_intro : forall {A} (R : A -> A -> Prop) l m, ForallOrdPairs R l -> ForallOrdPairs R m -> (forall a b, In a l -> In b m -> R a b) -> ForallOrdPairs R (l ++ m).
Proof.
  intros A R l m L M H. induction L as [|a l F L IH]; [exact M|]. cbn [app]. constructor; [|apply IH; intros; apply H; [right; auto|auto]].
  apply Forall_app. split; [exact F|]. apply Forall_forall. intros b B. apply H; [left; auto|auto].
Qed.
Lemma FOP_flat : forall {A B} (R : B -> B -> Prop) (S : A -> A -> Prop) (h : A -> list B) l, (forall a, In a l -> ForallOrdPairs R (h a)) -> ForallOrdPairs S l ->
  (forall a b x y, In a l -> In b l -> S a b -> In x (h a) -> In y (h b) -> R x y) -> ForallOrdPairs R (flat_map h l).
Proof.
  intros A B R S h l H1 H2 H3. induction H2 as [|a l F L IH]; [constructor|]. cbn [flat_map]. apply FOP_app_intro.
  - apply H1. left. auto.
  - apply IH; [intros; apply H1; right; auto|]. intros a' b' x y I J. apply H3; right; auto.
  - intros x y X Y. apply in_flat_map in Y. destruct Y as [b [Hb Y]]. rewrite Forall_forall in F. apply (H3 a b); auto; [left; auto|right; auto].
Qed.
Lemma nodup_clean : forall l, NoDup (map fst l) -> clean l.
Proof.
  induction l as [|a l IH]; intros N; [constructor|]. inversion N as [|? ? X Y]; subst. constructor; [|apply IH; exact Y]. apply Forall_forall. intros b Hb _ _ E. apply X. rewrite E. apply in_map. exact Hb.
Qed.
Lemma clean_series : forall l tss idx, clean l -> mapM (fun lp => mk_ts (fst lp) (snd lp)) l = Ok tss -> NoDup (map ts_label (filter is_array (map (set_idx idx) tss))).
Proof.
  intros l tss idx C. revert tss. induction C as [|a l F C IH]; intros tss M; cbn [mapM] in M; [injection M as <-; constructor|]. bnd M ts T. bnd M r E. injection M as <-. cbn [map filter].
  specialize (IH _ E). destruct (mk_ts_array _ _ _ idx T) as [A [B _]]. destruct (is_array (set_idx idx ts)) eqn:I; [|exact IH]. cbn [map]. constructor; [|exact IH]. rewrite B. intros H. apply in_map_iff in H. destruct H as [t [L H]].
  apply filter_In in H. destruct H as [H I']. apply in_map_iff in H. destruct H as [t0 [<- H]]. destruct (mapM_In_inv _ _ _ _ E H) as [b [Hb T']]. destruct (mk_ts_array _ _ _ idx T') as [A' [B' _]].
  rewrite Forall_forall in F. apply (F b Hb); [apply A; auto|apply A'; auto|congruence].
Qed.

(** ** Within an element: by the last words *)
Definition ends (s : string) : list string := rev (words s).
Fixpoint splitb (a b : list string) : bool := match a, b with x :: a', y :: b' => (negb (String.eqb x y) || splitb a' b')%bool | _, _ => false end.
Lemma splitb_ok : forall a b, splitb a b = true -> split_ a b.
Proof.
  induction a as [|x a IH]; intros [|y b] H; try discriminate. cbn [splitb] in H. destruct (String.eqb_spec x y) as [->|N]; cbn [negb orb] in H; intros r r' E; cbn [app] in E; [injection E as E; exact (IH _ H _ _ E)|injection E as E _; contradiction].
Qed.
Lemma apartb_ok : forall A B, forallb (fun a => forallb (splitb a) B) A = true -> apart A B.
Proof. intros A B H w w' I J. rewrite forallb_forall in H. specialize (H w I). rewrite forallb_forall in H. apply splitb_ok. auto. Qed.
Record fit (full : string) (Es : list (list string)) (l : list (string * param)) : Prop := {
  ft_clean : clean l;
  ft_end : forall s p, In (s, p) l -> exists what E r, s = own full what /\ In E Es /\ ends what = E ++ r
}.
Lemma own_inj : forall e a b, own e a = own e b -> a = b.
Proof. intros e a b H. apply (f_equal words) in H. unfold own in H. rewrite !words_us2 in H. apply app_inv_head in H. apply words_inj. congruence. Qed.
Lemma fit_app : forall full Es Es' a b, fit full Es a -> fit full Es' b -> apart Es Es' -> fit full (Es ++ Es') (a ++ b).
Proof.
  intros full Es Es' a b [A A'] [B B'] AP. split.
  - apply FOP_app_intro; auto. intros [s p] [s' p'] H H' _ _ E. cbn [fst] in E. subst s'. destruct (A' _ _ H) as [w [X [r [-> [I Y]]]]]. destruct (B' _ _ H') as [w' [X' [r' [E [I' Y']]]]]. apply own_inj in E. subst w'.
    rewrite Y in Y'. exact (AP _ _ I I' _ _ Y').
  - intros s p H. apply in_app_or in H. destruct H as [H|H]; [destruct (A' _ _ H) as [w [X [r [Q [I Y]]]]]|destruct (B' _ _ H) as [w [X [r [Q [I Y]]]]]]; exists w, X, r; split; auto; split; auto; apply in_or_app; auto.
Qed.
Lemma fit_nil : forall full Es, fit full Es [].
Proof. intros. split; [constructor|intros s p []]. Qed.
Lemma fit_one : forall full label p, fit full [ends label] [(ts_name full label, p)].
Proof. intros. split; [constructor; constructor|]. intros s q [E|[]]. injection E as <- <-. exists label, (ends label), []. split; [reflexivity|]. split; [left; auto|]. rewrite app_nil_r. reflexivity. Qed.
Lemma fit_opt : forall full label o, fit full [ends label] (opt_param full label o).
Proof. intros full label [p|]; [apply fit_one|apply fit_nil]. Qed.
Lemma ends_us : forall a b, ends (cat [a; "_"; b]) = ends b ++ ends a.
Proof. intros a b. unfold ends. rewrite words_us. apply rev_app_distr. Qed.

Section Names.
Variables (fs : flow_system) (idx : option (list nat)).
Hypothesis W : well_named fs.
Hypothesis V : valid_data fs idx.
Hypothesis OF : own_factors fs.
Hypothesis OL : one_label_each fs.
Local Notation es := (fs_effects fs).
Lemma effect_labels : forall e e', In e es -> In e' es -> e_label e = e_label e' -> e = e'.
Proof.
  intros e e' H H' E. destruct (wn_parts fs W) as [P _]. apply FOP_unmap in P. clear -P H H' E. induction P as [|a l F P IH]; [destruct H|]. rewrite Forall_forall in F.
  destruct H as [->|H], H' as [->|H']; auto; exfalso; [destruct (F _ H')|destruct (F _ H)]; congruence.
Qed.
Lemma value_name_inj : forall suffix k k', (exists e, means fs k e) -> (exists e, means fs k' e) -> value_name es k suffix = value_name es k' suffix -> k = k'.
Proof.
  intros suffix k k' [e [M N]] [e' [M' N']] E. pose proof (vd_ids _ _ V) as NE.
  assert (X : forall i e, In e es -> names es (Some i) e = true -> value_name es (Some i) suffix = cat [e_label e; "_"; suffix] /\ i = e_id e).
  { intros i e0 I J. cbn [names] in J. apply Nat.eqb_eq in J. subst i. cbn [value_name]. rewrite (effect_named_ok es e0 NE I). auto. }
  assert (Y : value_name es None suffix = cat ["Standard_Effect"; "_"; suffix]) by reflexivity.
  assert (Z : forall a b, cat [a; "_"; suffix] = cat [b; "_"; suffix] -> a = b).
  { intros a b H. apply (f_equal words) in H. rewrite !words_us in H. apply app_inv_tail in H. apply words_inj. exact H. }
  destruct OL as [_ [_ NS_]]. destruct k as [i|], k' as [i'|]; auto.
  - destruct (X _ _ M N) as [A ->]. destruct (X _ _ M' N') as [A' ->]. rewrite A, A' in E. apply Z in E. rewrite (effect_labels _ _ M M' E). reflexivity.
  - destruct (X _ _ M N) as [A ->]. rewrite A, Y in E. apply Z in E. exfalso. exact (NS_ _ M E).
  - destruct (X _ _ M' N') as [A ->]. rewrite A, Y in E. apply Z in E. exfalso. exact (NS_ _ M' (eq_sym E)).
Qed.
Lemma addressed_nodup : forall ks, well_addressed fs ks -> NoDup ks.
Proof.
  intros ks [A B]. induction B as [|k ks F B IH]; constructor.
  - intros H. rewrite Forall_forall in F. destruct (A k (or_introl eq_refl)) as [e M]. exact (F k H e (conj M M)).
  - apply IH. intros k' K. apply A. right. exact K.
Qed.
Lemma nodup_names : forall ks suffix, NoDup ks -> (forall k, In k ks -> exists e, means fs k e) -> NoDup (map (fun k => value_name es k suffix) ks).
Proof.
  intros ks suffix N. induction N as [|k ks X N IH]; intros M; cbn [map]; constructor.
  - intros H. apply in_map_iff in H. destruct H as [k' [E H]]. apply X. rewrite (value_name_inj suffix k k'); auto; apply M; [left|right]; auto.
  - apply IH. intros; apply M; right; auto.
Qed.
Lemma fit_named : forall full suffix (l : list (option nat * param)), NoDup (map fst l) -> (forall k, In k (map fst l) -> exists e, means fs k e) ->
  fit full [ends suffix] (map (fun kp => (ts_name full (value_name es (fst kp) suffix), snd kp)) l).
Proof.
  intros full suffix l N M. split.
  - apply nodup_clean. rewrite map_map. cbn [fst]. rewrite <- (map_map fst (fun k => ts_name full (value_name es k suffix))). rewrite <- (map_map (fun k => value_name es k suffix) (ts_name full)).
    apply FinFun.Injective_map_NoDup; [intros a b; apply own_inj|]. apply nodup_names; auto.
  - intros s p H. apply in_map_iff in H. destruct H as [[k q] [E H]]. cbn [fst snd] in E. injection E as <- <-. exists (value_name es k suffix), (ends suffix). destruct k as [i|].
    + exists (ends (effect_named es i)). split; [reflexivity|]. split; [left; auto|]. cbn [value_name]. apply ends_us.
    + exists (ends "Standard_Effect"). split; [reflexivity|]. split; [left; auto|]. exact (ends_us "Standard_Effect" suffix).
Qed.
Lemma fit_values : forall full suffix v, valid_values fs v -> fit full [ends suffix] (value_params es full suffix v).
Proof.
  intros full suffix v [A _]. pose proof (addressed_nodup _ A) as N. unfold value_params. apply fit_named.
  - unfold effect_dict_ts. change (Params.as_effect_dict v) with (entries v).
    assert (P : Permutation (filter (fun kp => negb (is_none (fst kp))) (entries v) ++ filter (fun kp => is_none (fst kp)) (entries v)) (entries v)).
    { clear. induction (entries v) as [|[k p] l IH]; [constructor|]. cbn [filter fst]. destruct (is_none k); cbn [negb app]; [|constructor; exact IH]. apply Permutation_sym, Permutation_cons_app, Permutation_sym. exact IH. }
    eapply Permutation_NoDup; [apply Permutation_sym, Permutation_map; exact P|exact N].
  - intros k H. apply in_map_iff in H. destruct H as [kp [<- H]]. apply dict_ts_In in H. apply (proj1 A). apply in_map. exact H.
Qed.
Definition onoff_ends : list (list string) :=
  map ends ["per_switch_on"; "per_running_hour"; "consecutive_on_hours_min"; "consecutive_on_hours_max"; "consecutive_off_hours_min"; "consecutive_off_hours_max"]%string.
Ltac ap := apply apartb_ok; vm_compute; reflexivity.
Lemma fit_onoff : forall full o past, (forall p, o = Some p -> valid_onoff fs p past) -> fit full onoff_ends (onoff_params es full o).
Proof.
  intros full [p|] past H; [|apply fit_nil]. destruct (H p eq_refl) as [A B _ _ _]. unfold onoff_params, onoff_ends. cbn [map].
  apply (fit_app full [_] _); [apply fit_values; exact A| |ap]. apply (fit_app full [_] _); [apply fit_values; exact B| |ap].
  apply (fit_app full [_] _); [apply fit_opt| |ap]. apply (fit_app full [_] _); [apply fit_opt| |ap]. apply (fit_app full [_] _); [apply fit_opt|apply fit_opt|ap].
Qed.
Definition flow_ends : list (list string) := map ends ["relative_minimum"; "relative_maximum"; "fixed_relative_profile"; "per_flow_hour"]%string ++ onoff_ends.
Lemma fit_flow : forall c f, valid_flow fs f -> fit (flow_name c f) flow_ends (flow_params es c f).
Proof.
  intros c f [_ A _ B _]. unfold flow_params, flow_ends. cbn [map app]. change (flow_name c f) with (flow_full (cp_label c) (f_lab f)).
  apply (fit_app _ [_] _ [_] _); [apply fit_one| |ap]. apply (fit_app _ [_] _ [_] _); [apply fit_one| |ap].
  apply (fit_app _ [_] _); [apply fit_opt| |ap]. apply (fit_app _ [_] _); [apply fit_values; exact A| |ap]. eapply fit_onoff. exact B.
Qed.
Lemma flow_labels : forall c f f', In c (fs_comps fs) -> In f (cp_flows c) -> In f' (cp_flows c) -> f_lab f = f_lab f' -> f = f'.
Proof.
  intros c f f' HC H H' E. destruct (wn_flow _ W c HC) as [P _]. apply FOP_unmap in P. clear -P H H' E. induction P as [|a l F P IH]; [destruct H|]. rewrite Forall_forall in F.
  destruct H as [->|H], H' as [->|H']; auto; exfalso; [destruct (F _ H')|destruct (F _ H)]; congruence.
Qed.
Definition kind_ends : list (list string) :=
  map ends ["factor"; "Stuetzstelle"; "relative_minimum_charge_state"; "relative_maximum_charge_state"; "eta_charge"; "eta_discharge"; "relative_loss_per_hour"; "relative_losses"; "absolute_losses"]%string.
Lemma fit_incl : forall full Es Es' l, fit full Es l -> incl Es Es' -> fit full Es' l.
Proof. intros full Es Es' l [A B] I. split; auto. intros s p H. destruct (B _ _ H) as [w [X [r [Q [J Y]]]]]. exists w, X, r. auto. Qed.
Lemma FOP_impl_in : forall {A} (R R' : A -> A -> Prop) l, (forall a b, In a l -> In b l -> R a b -> R' a b) -> ForallOrdPairs R l -> ForallOrdPairs R' l.
Proof.
  intros A R R' l H P. induction P as [|a l F P IH]; constructor.
  - rewrite Forall_forall in *. intros b B. apply H; [left|right|]; auto.
  - apply IH. intros; apply H; auto; right; auto.
Qed.
Lemma fit_kind : forall c, In c (fs_comps fs) -> fit (cp_label c) kind_ends (kind_params c).
Proof.
  intros c HC. pose proof (valid_flow_ids fs idx c V HC) as NI. unfold kind_params. destruct OL as [OL1 [OL2 _]]. destruct (cp_kind c) as [|fss|segs|s|rel abs] eqn:K.
  - apply fit_nil.
  - apply fit_incl with (Es := [ends "factor"]); [|intros x [<-|[]]; cbn; auto]. assert (E : flat_map (map (fun kp : nat * param => (ts_name (cp_label c) (cat [flow_named c (fst kp); "_factor"]), snd kp))) fss
      = map (fun kp : nat * param => (ts_name (cp_label c) (cat [flow_named c (fst kp); "_factor"]), snd kp)) (List.concat fss)) by (rewrite concat_map, flat_map_concat_map; reflexivity). rewrite E. clear E.
    assert (IN : forall i p, In (i, p) (List.concat fss) -> exists f, In f (cp_flows c) /\ f_id f = i).
    { intros i p H. apply in_concat in H. destruct H as [d [D H]]. exact (proj1 OF c fss d i p HC K D H). }
    split.
    + unfold clean. apply FOP_map. eapply FOP_impl_in; [|exact (OL1 c fss HC K)]. intros [i p] [j q] H H' R X Y. cbn [fst snd] in *. specialize (R X Y). intros E. apply R.
      destruct (IN _ _ H) as [f [F <-]]. destruct (IN _ _ H') as [f' [F' <-]]. rewrite (flow_named_ok c f NI F), (flow_named_ok c f' NI F') in E. apply own_inj in E.
      assert (L : f_lab f = f_lab f'). { apply (f_equal words) in E. change (cat [f_lab f; "_factor"]) with (cat [f_lab f; "_"; "factor"]) in E. change (cat [f_lab f'; "_factor"]) with (cat [f_lab f'; "_"; "factor"]) in E. rewrite !words_us in E. apply app_inv_tail in E. apply words_inj. exact E. }
      rewrite (flow_labels c f f' HC F F' L). reflexivity.
    + intros s p H. apply in_map_iff in H. destruct H as [[i q] [E H]]. cbn [fst snd] in E. injection E as <- <-. exists (cat [flow_named c i; "_factor"]), (ends "factor"), (ends (flow_named c i)). split; [reflexivity|]. split; [left; auto|].
      exact (ends_us (flow_named c i) "factor").
  - apply fit_incl with (Es := [ends "Stuetzstelle"]); [|intros x [<-|[]]; cbn; auto].
    assert (E : flat_map (fun ks : nat * list (param * param) => flat_map (fun pq => [(ts_name (cp_label c) "Stuetzstelle", fst pq); (ts_name (cp_label c) "Stuetzstelle", snd pq)]) (snd ks)) segs
      = map (fun p => (ts_name (cp_label c) "Stuetzstelle", p)) (flat_map (fun ks => flat_map (fun pq => [fst pq; snd pq]) (snd ks)) segs)).
    { clear. induction segs as [|[i l] r IH]; [reflexivity|]. cbn [flat_map]. rewrite map_app, <- IH. f_equal. cbn [snd]. clear. induction l as [|[p q] l IH]; [reflexivity|]. cbn [flat_map]. rewrite map_app, <- IH. reflexivity. }
    rewrite E. clear E. split.
    + unfold clean. apply FOP_map. eapply FOP_impl; [|exact (OL2 c segs HC K)]. intros p q R X Y _. exact (R (conj X Y)).
    + intros s p H. apply in_map_iff in H. destruct H as [q [E H]]. injection E as <- <-. exists "Stuetzstelle"%string, (ends "Stuetzstelle"), []. split; [reflexivity|]. split; [left; auto|]. rewrite app_nil_r. reflexivity.
  - apply fit_incl with (Es := map ends ["relative_minimum_charge_state"; "relative_maximum_charge_state"; "eta_charge"; "eta_discharge"; "relative_loss_per_hour"]%string); [|intros x H; cbn [map In] in H; cbn [kind_ends map In]; unfold kind_ends; cbn [map In]; tauto]. cbn [map].
    apply (fit_app _ [_] _ [_] _); [apply fit_one| |ap]. apply (fit_app _ [_] _ [_] _); [apply fit_one| |ap]. apply (fit_app _ [_] _ [_] _); [apply fit_one| |ap]. apply (fit_app _ [_] _ [_] _); [apply fit_one|apply fit_one|ap].
  - apply fit_incl with (Es := map ends ["relative_losses"; "absolute_losses"]%string); [|intros x H; unfold kind_ends; cbn [map In] in *; tauto]. cbn [map]. apply (fit_app _ [_] _); [apply fit_opt|apply fit_opt|ap].
Qed.
Lemma fit_comp : forall c, In c (fs_comps fs) -> fit (cp_label c) (onoff_ends ++ kind_ends) (comp_params es c).
Proof. intros c HC. unfold comp_params. apply fit_app; [|apply fit_kind; exact HC|ap]. eapply fit_onoff. intros p P. exact (proj2 (proj2 (vc_onoff _ _ _ (vd_comps _ _ V c HC) p P))). Qed.
Definition effect_ends : list (list string) := map ends ["minimum_operation_per_hour"; "maximum_operation_per_hour"; "specific_share_to_other_effects_operation"]%string.
Lemma fit_effect : forall e, In e es -> fit (e_label e) effect_ends (effect_params es e).
Proof.
  intros e HE. destruct (ve_op _ _ (vd_effects _ _ V e HE)) as [N M]. unfold effect_params, effect_ends. cbn [map]. apply (fit_app _ [_] _); [apply fit_opt| |ap]. apply (fit_app _ [_] _); [apply fit_opt| |ap].
  rewrite <- (map_map (fun kp : nat * param => (Some (fst kp), snd kp)) (fun kp => (ts_name (e_label e) (value_name es (fst kp) "specific_share_to_other_effects_operation"), snd kp))). apply fit_named.
  - rewrite map_map. cbn [fst]. rewrite <- (map_map fst Some). apply FinFun.Injective_map_NoDup; [intros a b X; congruence|exact N].
  - intros k H. rewrite map_map in H. apply in_map_iff in H. destruct H as [[i p] [<- H]]. cbn [fst]. exact (proj1 (M _ _ H)).
Qed.

(** ** Between elements: by the first words *)
Lemma tidyb_ok : forall s, forallb (fun w => negb (String.eqb w "")) (words s) = true -> tidy s.
Proof. intros s H K. rewrite forallb_forall in H. specialize (H _ K). discriminate H. Qed.
Lemma tidy_us : forall a b, tidy a -> tidy b -> tidy (cat [a; "_"; b]).
Proof. intros a b A B. unfold tidy. rewrite words_us. intros H. apply in_app_or in H. destruct H; auto. Qed.
Ltac td := apply tidyb_ok; vm_compute; reflexivity.
Lemma effect_tidy : forall e what v l p, tidy what -> effect_value fs e what v l p -> exists w, l = own e w /\ tidy w.
Proof.
  intros e what v l p T H. destruct H as [p H|f p F H].
  - exists (cat ["Standard_Effect_"; what]). split; [reflexivity|]. change (cat ["Standard_Effect_"; what]) with (cat ["Standard_Effect"; "_"; what]). apply tidy_us; [td|exact T].
  - exists (cat [e_label f; "_"; what]). split; [reflexivity|]. apply tidy_us; [exact (wn_effect _ W f F)|exact T].
Qed.
Lemma onoff_tidy : forall e o l p, onoff_value fs e o l p -> exists w, l = own e w /\ tidy w.
Proof.
  intros e o l p H. destruct H as [l p H|l p H|p H|p H|p H|p H]; try (eapply effect_tidy; [|exact H]; td); (eexists; split; [reflexivity|td]).
Qed.
Lemma comp_tidy : forall c l p, comp_value fs c l p -> exists w, l = own (cp_label c) w /\ (tidy w \/ exists f, In f (cp_flows c) /\ w = cat [f_lab f; "_"; "factor"]).
Proof.
  intros c l p H. destruct H as [o l p O H|fss d f p K D F H|segs i l p q K S H|segs i l p q K S H|s K|s K|s K|s K|s K|rel abs p K R|rel abs p K R];
    try (eexists; split; [reflexivity|left; td]).
  - destruct (onoff_tidy _ _ _ _ H) as [w [E T]]. eauto.
  - eexists. split; [reflexivity|]. right. exists f. auto.
Qed.
Lemma comp_given : forall c l p, In c (fs_comps fs) -> In (l, p) (comp_params es c) -> comp_value fs c l p.
Proof.
  intros c l p HC H. apply comp_params_In in H; auto.
  - exact (vd_ids _ _ V).
  - eapply valid_flow_ids; eauto.
  - intros o O. destruct (vc_onoff _ _ _ (vd_comps _ _ V c HC) _ O) as [_ [_ [S R _ _ _]]]. split; apply keyed_valid; auto.
  - intros fss d i q K D Q. eapply (proj1 OF); eauto.
Qed.
Lemma comps_split : forall c c', In c (fs_comps fs) -> In c' (fs_comps fs) -> c = c' \/ split_ (words (cp_label c)) (words (cp_label c')).
Proof.
  intros c c' H H'. destruct (wn_parts fs W) as [_ [P _]]. apply FOP_unmap in P. clear -P H H'. induction P as [|a l F P IH]; [destruct H|]. rewrite Forall_forall in F.
  destruct H as [->|H], H' as [->|H']; auto; right; apply unrelated_split; [exact (F _ H')|]. destruct (F _ H) as [A [B C]]. split; auto.
Qed.
Lemma flow_starts : forall c f l p, valid_flow fs f -> In (l, p) (flow_params es c f) -> exists r, words l = words (cp_label c) ++ ""%string :: words (f_lab f) ++ ""%string :: r.
Proof.
  intros c f l p VF H. destruct (ft_end _ _ _ (fit_flow c f VF) _ _ H) as [w [_ [_ [-> _]]]]. exists (words w). unfold own. rewrite words_us2. change (flow_name c f) with (cat [cp_label c; "__"; f_lab f]). rewrite words_us2, <- app_assoc. reflexivity.
Qed.
Lemma starts : forall full Es l s p, fit full Es l -> In (s, p) l -> exists r, words s = words full ++ r.
Proof. intros full Es l s p [_ H] I. destruct (H _ _ I) as [w [_ [_ [-> _]]]]. unfold own. rewrite words_us2. eauto. Qed.
Lemma flow_valid : forall c f, In c (fs_comps fs) -> In f (cp_flows c) -> valid_flow fs f.
Proof. intros c f HC HF. exact (vc_flows _ _ _ (vd_comps _ _ V c HC) f HF). Qed.
Theorem all_clean : forall ord, clean (system_params ord fs).
Proof.
  intros ord. rewrite params_plain by exact W. unfold plain_params. cbv zeta. destruct (wn_parts fs W) as [PE [PC [PEC _]]].
  assert (SC : forall c s p, In c (fs_comps fs) -> In (s, p) (comp_params es c) -> exists r, words s = words (cp_label c) ++ r) by (intros c s p HC H; eapply starts; [apply fit_comp; exact HC|exact H]).
  assert (SE : forall e s p, In e es -> In (s, p) (effect_params es e) -> exists r, words s = words (e_label e) ++ r) by (intros e s p HE H; eapply starts; [apply fit_effect; exact HE|exact H]).
  assert (SF : forall c f s p, In c (fs_comps fs) -> In f (cp_flows c) -> In (s, p) (flow_params es c f) -> exists r, words s = words (cp_label c) ++ r).
  { intros c f s p HC HF H. destruct (flow_starts c f s p (flow_valid c f HC HF) H) as [r E]. rewrite E. eauto. }
  assert (SB : forall b s p, In (s, p) (bus_params b) -> exists r, words s = words (b_lab b) ++ r) by (intros b s p H; eapply starts; [apply fit_opt|exact H]).
  assert (GO : forall w w' (x y : string * param), split_ w w' -> (exists r, words (fst x) = w ++ r) -> (exists r, words (fst y) = w' ++ r) -> clear_of x y).
  { intros w w' x y S [r E] [r' E'] _ _ X. rewrite X in E. rewrite E in E'. exact (S _ _ E'). }
  apply FOP_app_intro; [|apply FOP_app_intro; [|apply FOP_app_intro|]|].
  - (* components *)
    apply FOP_flat with (S := fun c c' => split_ (words (cp_label c)) (words (cp_label c'))).
    + intros c HC. exact (ft_clean _ _ _ (fit_comp c HC)).
    + apply FOP_unmap in PC. eapply FOP_impl; [|exact PC]. intros a b. apply unrelated_split.
    + intros a b [s p] [s' p'] HA HB S H H'. eapply GO; [exact S|eapply SC; eauto|eapply SC; eauto].
  - (* effects *)
    apply FOP_flat with (S := fun c c' => split_ (words (e_label c)) (words (e_label c'))).
    + intros e HE. exact (ft_clean _ _ _ (fit_effect e HE)).
    + apply FOP_unmap in PE. eapply FOP_impl; [|exact PE]. intros a b. apply unrelated_split.
    + intros a b [s p] [s' p'] HA HB S H H'. eapply GO; [exact S|eapply SE; eauto|eapply SE; eauto].
  - (* flows *)
    apply FOP_flat with (S := fun x y => split_ (words (cp_label (fst x)) ++ ""%string :: words (f_lab (snd x)) ++ [""%string]) (words (cp_label (fst y)) ++ ""%string :: words (f_lab (snd y)) ++ [""%string])).
    + intros [c f] H. apply all_flows_In in H. destruct H as [HC HF]. exact (ft_clean _ _ _ (fit_flow c f (flow_valid c f HC HF))).
    + unfold all_flows. apply FOP_flat with (S := fun c c' => split_ (words (cp_label c)) (words (cp_label c'))).
      * intros c HC. apply FOP_map. cbn [fst snd]. pose proof (proj1 (wn_flow _ W c HC)) as PF. apply FOP_unmap in PF. eapply FOP_impl; [|exact PF]. intros a b U. apply split_app. apply (split_app [""%string]). apply split_more. apply unrelated_split. exact U.
      * apply FOP_unmap in PC. eapply FOP_impl; [|exact PC]. intros a b. apply unrelated_split.
      * intros a b x y _ _ S X Y. apply in_map_iff in X. destruct X as [f [<- _]]. apply in_map_iff in Y. destruct Y as [f' [<- _]]. cbn [fst snd]. apply split_more. exact S.
    + intros [c f] [c' f'] [s p] [s' p'] HA HB S H H'. apply all_flows_In in HA. destruct HA as [HC HF]. apply all_flows_In in HB. destruct HB as [HC' HF']. cbn [fst snd] in *.
      destruct (flow_starts c f s p (flow_valid c f HC HF) H) as [r E]. destruct (flow_starts c' f' s' p' (flow_valid c' f' HC' HF') H') as [r' E'].
      eapply GO; [exact S|exists r; cbn [fst]; rewrite E|exists r'; cbn [fst]; rewrite E']; rewrite <- app_assoc; cbn [app]; rewrite <- app_assoc; reflexivity.
  - (* buses *)
    apply FOP_flat with (S := fun c c' => split_ (words (b_lab c)) (words (b_lab c'))).
    + intros b _. exact (ft_clean _ _ _ (fit_opt _ _ _)).
    + apply bus_pairs. exact W.
    + intros a b [s p] [s' p'] HA HB S H H'. eapply GO; [exact S|eapply SB; eauto|eapply SB; eauto].
  - (* flows and buses *)
    intros [s p] [s' p'] H H'. apply in_flat_map in H. destruct H as [[c f] [HA H]]. apply all_flows_In in HA. destruct HA as [HC HF]. apply in_flat_map in H'. destruct H' as [b [HB H']]. cbn [fst snd] in H.
    eapply GO; [|eapply SF; eauto|eapply SB; eauto]. apply split_sym. apply unrelated_split. apply (wn_bus _ W); [eapply buses_used; eauto|]. unfold top_labels. right. apply in_or_app. right. apply in_map. exact HC.
  - (* effects, and flows and buses *)
    intros [s p] [s' p'] H H'. apply in_flat_map in H. destruct H as [e [HE H]]. apply in_app_or in H'. destruct H' as [H'|H']; apply in_flat_map in H'.
    + destruct H' as [[c f] [HA H']]. apply all_flows_In in HA. destruct HA as [HC HF]. cbn [fst snd] in H'. eapply GO; [|eapply SE; eauto|eapply SF; eauto]. apply unrelated_split. auto.
    + destruct H' as [b [HB H']]. eapply GO; [|eapply SE; eauto|eapply SB; eauto]. apply split_sym. apply unrelated_split. apply (wn_bus _ W); [eapply buses_used; eauto|]. unfold top_labels. right. apply in_or_app. left. apply in_map. exact HE.
  - (* components and all others *)
    intros [s p] [s' p'] H H'. apply in_flat_map in H. destruct H as [c [HC H]]. apply in_app_or in H'. destruct H' as [H'|H']; [|apply in_app_or in H'; destruct H' as [H'|H']]; apply in_flat_map in H'.
    + destruct H' as [e [HE H']]. eapply GO; [|eapply SC; eauto|eapply SE; eauto]. apply split_sym. apply unrelated_split. auto.
    + destruct H' as [[c' f] [HA H']]. apply all_flows_In in HA. destruct HA as [HC' HF]. cbn [fst snd] in H'. destruct (comps_split c c' HC HC') as [<-|S]; [|eapply GO; [exact S|eapply SC; eauto|eapply SF; eauto]].
      intros _ _ X. cbn [fst] in X. subst s'. destruct (flow_starts c f s p' (flow_valid c f HC HF) H') as [r E]. destruct (comp_tidy c s p (comp_given c s p HC H)) as [w [-> T]].
      unfold own in E. rewrite words_us2 in E. apply app_inv_head in E. injection E as E. destruct T as [T|[f' [HF' ->]]].
      * apply T. rewrite E. apply in_or_app. right. left. auto.
      * rewrite words_us in E. destruct (String.eqb_spec (f_lab f) (f_lab f')) as [L|L].
        -- rewrite L in E. apply app_inv_head in E. discriminate E.
        -- pose proof (proj1 (wn_flow _ W c HC)) as PF. apply FOP_unmap in PF. assert (U : split_ (words (f_lab f')) (words (f_lab f))).
           { apply unrelated_split. apply (FOP_sym_in (fun a b => unrelated (f_lab a) (f_lab b)) (cp_flows c)); auto; [|congruence]. intros a b [U1 [U2 U3]]. split; auto. }
           exact (U _ _ E).
    + destruct H' as [b [HB H']]. eapply GO; [|eapply SC; eauto|eapply SB; eauto]. apply split_sym. apply unrelated_split. apply (wn_bus _ W); [eapply buses_used; eauto|]. unfold top_labels. right. apply in_or_app. right. apply in_map. exact HC.
Qed.
End Names.
