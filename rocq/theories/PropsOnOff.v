(** C15, C16, C43, C44: switching, consecutive hours and states before the first step. *)
From Verif Require Import Base BaseFacts MathModel Spec MathFacts MathTotal Structure StructureFacts Params Features Elements System SysSpec
  CtxFacts ReadTools InvestFacts OnOffFacts OnOffLaws FlowFacts NavFacts Example ExamplePoints.

(** ** Previous states *)
Lemma rev_map_last : forall l q, nth_error (rev (map q01 l)) 0 = Some q -> l <> [] /\ q = q01 (List.last l false).
Proof.
  intros l q H. destruct l as [|b l] using rev_ind; [discriminate|]. rewrite last_last. rewrite map_app, rev_app_distr in H. simpl in H.
  injection H as <-. split; auto. intros C. apply app_eq_nil in C. destruct C; discriminate.
Qed.
Lemma map_seq_nth : forall (l : list Q) (g : Q -> bool), map (fun j => g (nth j l 0)) (seq 0 (length l)) = map g l.
Proof.
  intros l g. rewrite <- (map_map (fun j => nth j l 0) g). f_equal.
  induction l as [|a l IH]; simpl; auto. f_equal. rewrite <- seq_shift, map_map. exact IH.
Qed.

Lemma flow_prev_states : forall cf f rate prev_on, v_prev rate = f_prev f ->
  previous_on_values (cf_eps cf) [rate] = Ok prev_on -> prev_on = map q01 (prior_states cf f).
Proof.
  intros cf f rate prev_on E H. unfold previous_on_values in H. simpl in H. unfold prev_of in H. destruct (v_ts rate); [|discriminate].
  simpl in H. rewrite E in H. unfold prior_states. destruct (f_prev f) as [[q|l]|]; simpl in H; apply Ok_inj in H; subst; auto.
  rewrite <- (map_seq_nth l). rewrite map_map. apply map_ext. intros j. rewrite orb_false_r. reflexivity.
Qed.

Lemma given_map : forall fl, flat_map (fun o : option numeric => match o with Some p => [p] | None => [] end) (map f_prev fl)
  = map (fun f => match f_prev f with Some p => p | None => NS 0 end) (filter gives_prev fl).
Proof.
  induction fl as [|f fl IH]; simpl; auto. unfold gives_prev at 1. destruct (f_prev f) eqn:E; simpl; [rewrite E|]; rewrite <- IH; auto.
Qed.
Lemma scalars_all : forall l qs, scalars l = Some qs -> l = map NS qs.
Proof.
  induction l as [|[q|v] l IH]; intros qs H; simpl in H; try discriminate; [injection H as <-; auto|].
  destruct (scalars l); [|discriminate]. simpl in H. injection H as <-. simpl. rewrite (IH _ eq_refl). auto.
Qed.
Lemma arrays_all : forall l ls, arrays l = Some ls -> l = map NV ls.
Proof.
  induction l as [|[q|v] l IH]; intros ls H; simpl in H; try discriminate; [injection H as <-; auto|].
  destruct (arrays l); [|discriminate]. simpl in H. injection H as <-. simpl. rewrite (IH _ eq_refl). auto.
Qed.
Lemma numbers_all : forall fl qs, map (fun f => match f_prev f with Some p => p | None => NS 0 end) (filter gives_prev fl) = map NS qs ->
  filter gives_number fl = filter gives_prev fl.
Proof.
  induction fl as [|f fl IH]; intros qs H; simpl in *; auto. unfold gives_prev, gives_number in *. destruct (f_prev f) as [p|] eqn:E.
  - simpl in H. rewrite E in H. destruct qs as [|q qs]; [discriminate|]. simpl in H. injection H as -> H. f_equal. eauto.
  - eauto.
Qed.
Lemma existsb_filter : forall {A} (p g : A -> bool) l, (forall a, In a l -> g a = false -> p a = false) -> existsb p (filter g l) = existsb p l.
Proof.
  induction l as [|a l IH]; intros H; simpl; auto. rewrite <- IH by (intros; apply H; simpl; auto).
  destruct (g a) eqn:E; simpl; auto. rewrite (H a (or_introl eq_refl) E). auto.
Qed.
Lemma existsb_ext : forall {A} (p g : A -> bool) l, (forall a, In a l -> p a = g a) -> existsb p l = existsb g l.
Proof. induction l as [|a l IH]; intros H; simpl; auto. rewrite IH, (H a) by (try (intros; apply H); simpl; auto). auto. Qed.
Lemma last_nth : forall (l : list bool), List.last l false = nth (length l - 1) l false.
Proof.
  intros l. destruct l as [|b l] using rev_ind; auto. rewrite last_last, app_length. simpl.
  rewrite app_nth2 by lia. replace (length l + 1 - 1 - length l)%nat with 0%nat by lia. auto.
Qed.

Lemma comp_prev_states : forall cf c vars prev_on, mapM prev_of vars = Ok (map f_prev (cp_flows c)) ->
  previous_on_values (cf_eps cf) vars = Ok prev_on -> (length (filter gives_number (cp_flows c)) <= 1)%nat ->
  prev_on = map q01 (comp_states cf c) /\ List.last (comp_states cf c) false = comp_was_on cf c.
Proof.
  intros cf c vars prev_on M H N. unfold previous_on_values in H. rewrite M in H. cbn [bind] in H. rewrite given_map in H.
  unfold comp_states, comp_was_on. set (G := filter gives_prev (cp_flows c)) in *.
  assert (EX : existsb (was_on cf) (cp_flows c) = existsb (was_on cf) G).
  { symmetry. apply existsb_filter. intros f _ Hf. unfold was_on, prior_states, gives_prev in *. destruct (f_prev f); [discriminate|auto]. }
  rewrite EX. clear EX.
  assert (PG : forall f, In f G -> f_prev f <> None).
  { intros f Hf. apply filter_In in Hf. destruct Hf as [_ Hf]. unfold gives_prev in Hf. destruct (f_prev f); discriminate. }
  destruct G as [|f r] eqn:EG; [simpl in H; apply Ok_inj in H; subst; auto|].
  set (pv := fun f0 : flow => match f_prev f0 with Some p => p | None => NS 0 end) in *.
  destruct (map pv (f :: r)) as [|p0 ps] eqn:EM; [discriminate|]. rewrite <- EM in *. clear EM p0 ps.
  destruct (scalars (map pv (f :: r))) as [qs|] eqn:ES.
  - apply scalars_all in ES. apply Ok_inj in H. subst prev_on. fold pv in N.
    assert (FN : filter gives_number (cp_flows c) = f :: r) by (rewrite <- EG; apply (numbers_all _ qs); fold G; rewrite EG; exact ES).
    rewrite FN in N. destruct r; [|simpl in N; lia]. destruct qs as [|q [|]]; try discriminate.
    simpl in ES. injection ES as E1. unfold pv in E1. unfold was_on, prior_states.
    destruct (f_prev f) as [p|] eqn:E; [|exfalso; apply (PG f); simpl; auto]. subst p. simpl. rewrite E. simpl. rewrite !orb_false_r. auto.
  - destruct (arrays (map pv (f :: r))) as [ls|] eqn:EA; [|discriminate]. apply arrays_all in EA.
    destruct ls as [|a ls]; [discriminate|]. apply bind_ok in H. destruct H as [u [Hg H]]. apply Ok_inj in H. subst prev_on.
    unfold guard in Hg. destruct (forallb _ ls) eqn:FL; [|discriminate]. rewrite forallb_forall in FL.
    assert (AL : forall b, In b (a :: ls) -> length b = length a).
    { intros b [<-|Hb]; auto. apply Nat.eqb_eq. auto. }
    (* each flow's states are the nonzero entries of its array *)
    assert (ST : forall fl ls', map pv fl = map NV ls' -> (forall g, In g fl -> f_prev g <> None) ->
                   forall j, existsb (fun g => nth j (prior_states cf g) false) fl = existsb (fun b => nonzero_rate cf (nth j b 0)) ls' \/
                             exists b, In b ls' /\ (length b <= j)%nat).
    { clear. induction fl as [|g fl IH]; intros [|b ls'] E NN j; try discriminate; auto. simpl in E. injection E as E1 E2.
      unfold pv in E1. assert (NG := NN g (or_introl eq_refl)). destruct (f_prev g) as [p|] eqn:Eg; [|congruence]. subst p.
      destruct (IH ls' E2 (fun h Hh => NN h (or_intror Hh)) j) as [I|[b' [I1 I2]]]; [|right; exists b'; simpl; auto].
      destruct (Nat.lt_ge_cases j (length b)) as [L|L]; [|right; exists b; simpl; auto]. left. simpl. rewrite I. f_equal.
      unfold prior_states. rewrite Eg. rewrite (nth_indep _ false (nonzero_rate cf 0)) by (rewrite map_length; auto). apply map_nth. }
    assert (LF : forall g, In g (f :: r) -> length (prior_states cf g) = length a).
    { intros g Hg'. assert (I : In (pv g) (map NV (a :: ls))) by (rewrite <- EA; apply in_map; auto).
      apply in_map_iff in I. destruct I as [b [Eb Hb]]. unfold pv in Eb. unfold prior_states.
      assert (NG := PG g Hg'). destruct (f_prev g); [|congruence]. subst n. rewrite map_length. auto. }
    assert (J : forall j, (j < length a)%nat -> existsb (fun g => nth j (prior_states cf g) false) (f :: r) =
                    existsb (fun b => nonzero_rate cf (nth j b 0)) (a :: ls)).
    { intros j Hj. destruct (ST _ _ EA PG j) as [E|[b [Hb L]]]; auto. rewrite (AL b Hb) in L. lia. }
    rewrite (LF f (or_introl eq_refl)). split.
    + rewrite map_map. apply map_ext_in. intros j Hj. apply in_seq in Hj. rewrite J by lia. reflexivity.
    + rewrite last_nth, map_length, seq_length. destruct (length a) as [|k] eqn:La.
      * simpl nth. symmetry. apply not_true_iff_false. intros X. apply existsb_exists in X. destruct X as [g [Hg' X]].
        unfold was_on in X. specialize (LF g Hg'). destruct (prior_states cf g); [discriminate X|discriminate LF].
      * replace (S k - 1)%nat with k by lia. set (h := fun j => existsb _ _).
        rewrite (nth_indep _ false (h 0%nat)) by (rewrite map_length, seq_length; lia). rewrite map_nth, seq_nth by lia.
        unfold h. apply existsb_ext. intros g Hg'. unfold was_on. rewrite last_nth, (LF g Hg'). f_equal. simpl. lia.
Qed.

(** ** Laws of an on/off element *)
Lemma rows_switching : forall cf fs idx cx x e p states vars bounds, ctx_for cf fs idx cx ->
  onoff_rows x cx e p (map q01 states) vars bounds ->
  states <> [] /\ switching x e (List.last states false) (steps fs idx) (oo_sw_max p).
Proof.
  intros cf fs idx cx x e p states vars bounds C R. destruct (oo_switch _ _ _ _ _ _ _ R) as [last [E S]].
  apply rev_map_last in E. destruct E as [NE ->]. split; auto. rewrite <- (cf_n _ _ _ _ C).
  pose proof (oo_bin _ _ _ _ _ _ _ R) as B1. pose proof (oo_sbin _ _ _ _ _ _ _ R) as B2.
  pose proof (starts_laws _ _ _ _ _ _ B1 B2 S) as NR.
  split; [|split; [exact NR|]].
  - intros t Ht. exact (switch_laws _ _ _ _ _ _ B1 B2 S t Ht).
  - intros q Hq. rewrite <- NR. apply (oo_nr_max _ _ _ _ _ _ _ R q Hq).
Qed.

Lemma span_eq : forall g h s t, (forall i, (s <= i <= t)%nat -> g i = h i) -> span g s t = span h s t.
Proof. intros g h s t H. unfold span. f_equal. apply map_ext_in. intros i Hi. apply in_seq in Hi. apply H. lia. Qed.
Lemma run_hours_eq : forall g h p s t, (forall i, (s <= i <= t)%nat -> g i = h i) -> run_hours g p s t = run_hours h p s t.
Proof. intros. unfold run_hours. rewrite (span_eq g h) by auto. reflexivity. Qed.

Lemma rows_hours : forall cf fs idx cx b d prev prior dmin dmax, ctx_for cf fs idx cx ->
  (forall t, (t < cx_n cx)%nat -> bin (b t)) -> (2 <= cx_n cx)%nat ->
  duration_rows cx b d prev dmin dmax -> prev == prior -> (forall p, dmin = Some p -> full_data fs p) ->
  counts_hours fs idx prior b d /\ obeys_limits fs idx prior b dmin dmax.
Proof.
  intros cf fs idx cx b d prev prior dmin dmax C B N2 R PR FD.
  assert (NN : cx_n cx = steps fs idx) by apply (cf_n _ _ _ _ C).
  assert (RH : forall s t, (t < steps fs idx)%nat -> run_hours (hours fs idx) prior s t == run_hours (dt cx) prev s t).
  { intros s t Ht. rewrite (run_hours_eq (hours fs idx) (dt cx)).
    - unfold run_hours. destruct (Nat.eqb s 0); rewrite ?PR; reflexivity.
    - intros i Hi. symmetry. apply (cf_dt _ _ _ _ C). lia. }
  assert (DR : forall s t, (t < steps fs idx)%nat -> is_run b s t -> d t == run_hours (hours fs idx) prior s t).
  { intros s t Ht Hr. rewrite RH by auto. apply (dur_run cx b d prev dmin dmax R); auto; lia. }
  split; [split; auto|].
  - intros t Ht Hb. apply (dur_off cx b d prev dmin dmax R); auto. rewrite NN; auto.
  - split; [|split].
    + intros p s t Hp Ht Hr. rewrite <- (DR s t Ht Hr). rewrite <- (cf_idx _ _ _ _ C). apply (du_max _ _ _ _ _ _ R); auto. rewrite NN; auto.
    + intros p s t Hp Ht Hr Hb. destruct (ctx_full _ _ _ _ p C (FD p Hp)) as [m [Hm Lm]].
      destruct (du_min _ _ _ _ _ _ R p Hp m Hm (fits_len _ _ Lm)) as [D1 _]. rewrite <- NN in Ht. specialize (D1 t Ht).
      rewrite <- (DR s t) by (auto; lia). rewrite (cf_idx _ _ _ _ C) in D1. destruct Hr as [Hst [Hr _]].
      assert (H1 : b t == 1) by (apply Hr; lia). rewrite H1, Hb in D1. lra.
    + intros p Hp P0 P1. destruct (ctx_full _ _ _ _ p C (FD p Hp)) as [m [Hm Lm]].
      destruct (du_min _ _ _ _ _ _ R p Hp m Hm (fits_len _ _ Lm)) as [_ D2]. apply D2; rewrite PR; auto.
      rewrite (cf_idx _ _ _ _ C). auto.
Qed.

(** ** C15 *)
Theorem C15_flow_switching : forall cf ord fs idx pm x c f o,
  build cf ord fs idx = Ok pm -> feasible pm x -> 0 <= cf_eps cf ->
  In c (fs_comps fs) -> In f (cp_flows c) -> governed fs idx c f = Some o ->
  switching x (flow_name c f) (was_on cf f) (steps fs idx) (oo_sw_max o).
Proof.
  intros cf ord fs idx pm x c f o H F Ep Hc Hf G.
  destruct (flow_laws _ _ _ _ _ _ _ _ H F Ep Hc Hf) as [cx [C R]].
  destruct (fr_on _ _ _ _ R o G) as [prev_on [rate [ab [_ [Pv [Po [OO _]]]]]]].
  rewrite (cf_eps_ _ _ _ _ C) in Po. simpl in Pv. rewrite (flow_prev_states cf f rate prev_on Pv Po) in OO.
  destruct (rows_switching _ _ _ _ _ _ _ _ _ _ C OO) as [_ S]. exact S.
Qed.
Print Assumptions C15_flow_switching.

(** The boiler was on before the first step and stops in the last; the source of the third system was on, too. *)
Example C15_flow_applies : governed fs0 None boiler q_th = Some boiler_oo /\ was_on default_config q_th = true
  /\ governed fs2 None src src_q = Some start_oo /\ was_on default_config src_q = true
  /\ on_of x0 boiler q_th 1 == 1 /\ on_of x0 boiler q_th 2 == 0
  /\ x0 "Boiler__Q_th__OnOff_switchOff" 2%nat == 1 /\ x2 "Src__Q__OnOff_switchOn" 0%nat == 0.
Proof. repeat split; vm_compute; reflexivity. Qed.

Lemma comp_prevs : forall cf fs idx cx c fl fos, (2 <= cx_n cx)%nat -> Forall2 (fo_for cf fs idx cx c) fl fos ->
  mapM prev_of (map fo_rate fos) = Ok (map f_prev fl).
Proof.
  intros cf fs idx cx c fl fos N FF. induction FF as [|f fo fl fos Hf FF IH]; auto. simpl. unfold prev_of at 1.
  assert (B : Nat.ltb 1 (cx_n cx) = true) by (apply Nat.ltb_lt; lia).
  rewrite (fs_ts _ _ _ _ Hf), (fs_prev _ _ _ _ Hf), B. simpl. rewrite IH. reflexivity.
Qed.

(** The full claim for components: the state before the horizon is "on" exactly if a flow had a non-zero previous value. *)
Definition C15_component_full : Prop := forall cf ord fs idx pm x c p,
  build cf ord fs idx = Ok pm -> feasible pm x -> 0 <= cf_eps cf -> In c (fs_comps fs) -> cp_onoff c = Some p ->
  switching x (cp_label c) (comp_was_on cf c) (steps fs idx) (oo_sw_max p).
(** Two flows with the previous values 5 and 0: the component was on, but its first step is booked as a start. *)
Theorem C15_component_full_refuted : ~ C15_component_full.
Proof.
  intros A. destruct x2_feasible as [pm [B F]].
  assert (E0 : 0 <= cf_eps default_config) by (vm_compute; discriminate).
  assert (Hc : In pump (fs_comps fs2)) by (simpl; tauto).
  destruct (A default_config id_ord fs2 None pm x2 pump unit_oo B F E0 Hc eq_refl) as [S _].
  assert (L : (0 < steps fs2 None)%nat) by (apply Nat.ltb_lt; reflexivity).
  destruct (S 0%nat L) as [[S1 _] _].
  assert (X : x2 (oo (cp_label pump) "switchOn") 0%nat == 1) by (vm_compute; reflexivity).
  destruct (S1 X) as [Y _]. vm_compute in Y. discriminate.
Qed.
(** It holds if at most one flow gives its previous value as a single number (all others as arrays or not at all). *)
Theorem C15_component_switching_partial : forall cf ord fs idx pm x c p,
  build cf ord fs idx = Ok pm -> feasible pm x -> 0 <= cf_eps cf -> In c (fs_comps fs) -> cp_onoff c = Some p ->
  (length (filter gives_number (cp_flows c)) <= 1)%nat ->
  switching x (cp_label c) (comp_was_on cf c) (steps fs idx) (oo_sw_max p).
Proof.
  intros cf ord fs idx pm x c p H F Ep Hc Hp N.
  destruct (comp_onoff_laws _ _ _ _ _ _ _ _ H F Ep Hc Hp) as [cx [fos [prev_on [C [FF [Po R]]]]]].
  pose proof (comp_prevs _ _ _ _ _ _ _ (oo_long _ _ _ _ _ _ _ R) FF) as M.
  destruct (comp_prev_states _ _ _ _ M Po N) as [-> W].
  destruct (rows_switching _ _ _ _ _ _ _ _ _ _ C R) as [_ S]. rewrite W in S. exact S.
Qed.
Print Assumptions C15_component_full_refuted.
Print Assumptions C15_component_switching_partial.

Example C15_component_applies : cp_onoff chp = Some unit_oo /\ (length (filter gives_number (cp_flows chp)) <= 1)%nat
  /\ x1 (oo (cp_label chp) "on") 0%nat == 1 /\ x1 (oo (cp_label chp) "on") 1%nat == 0
  /\ x1 (oo (cp_label chp) "switchOff") 1%nat == 1.
Proof. repeat split; try (vm_compute; reflexivity). apply Nat.leb_le. reflexivity. Qed.

(** ** C44 *)

(** In the first step a component counts as starting exactly if it is on and none of its flows was on. *)
Definition C44_full : Prop := forall cf ord fs idx pm x c p,
  build cf ord fs idx = Ok pm -> feasible pm x -> 0 <= cf_eps cf -> In c (fs_comps fs) -> cp_onoff c = Some p ->
  (x (oo (cp_label c) "switchOn") 0%nat == 1 <->
   x (oo (cp_label c) "on") 0%nat == 1 /\ forall f, In f (cp_flows c) -> was_on cf f = false).
Theorem C44_full_refuted : ~ C44_full.
Proof.
  intros A. destruct x2_feasible as [pm [B F]].
  assert (E0 : 0 <= cf_eps default_config) by (vm_compute; discriminate).
  assert (Hc : In pump (fs_comps fs2)) by (simpl; tauto).
  destruct (A default_config id_ord fs2 None pm x2 pump unit_oo B F E0 Hc eq_refl) as [S1 _].
  assert (X : x2 (oo (cp_label pump) "switchOn") 0%nat == 1) by (vm_compute; reflexivity).
  destruct (S1 X) as [_ Y]. specialize (Y _ (or_introl eq_refl)). vm_compute in Y. discriminate.
Qed.
Theorem C44_component_was_on_partial : forall cf ord fs idx pm x c p,
  build cf ord fs idx = Ok pm -> feasible pm x -> 0 <= cf_eps cf -> In c (fs_comps fs) -> cp_onoff c = Some p ->
  (length (filter gives_number (cp_flows c)) <= 1)%nat ->
  (x (oo (cp_label c) "switchOn") 0%nat == 1 <->
   x (oo (cp_label c) "on") 0%nat == 1 /\ forall f, In f (cp_flows c) -> was_on cf f = false)
  /\ (x (oo (cp_label c) "switchOff") 0%nat == 1 <->
   x (oo (cp_label c) "on") 0%nat == 0 /\ exists f, In f (cp_flows c) /\ was_on cf f = true).
Proof.
  intros cf ord fs idx pm x c p H F Ep Hc Hp N.
  destruct (comp_onoff_laws _ _ _ _ _ _ _ _ H F Ep Hc Hp) as [cx [fos [prev_on [C [_ [_ R]]]]]].
  assert (L : (0 < steps fs idx)%nat) by (pose proof (oo_long _ _ _ _ _ _ _ R); rewrite (cf_n _ _ _ _ C) in *; lia).
  destruct (C15_component_switching_partial _ _ _ _ _ _ _ _ H F Ep Hc Hp N) as [S _].
  destruct (S 0%nat L) as [S1 [S2 _]]. cbn [before] in S1, S2.
  assert (Q0 : q01 (comp_was_on cf c) == 0 <-> forall f, In f (cp_flows c) -> was_on cf f = false).
  { unfold comp_was_on. split.
    - intros E f Hf. apply not_true_iff_false. intros W. rewrite (proj2 (existsb_exists _ _)) in E by eauto. vm_compute in E. discriminate.
    - intros W. replace (existsb (was_on cf) (cp_flows c)) with false; [reflexivity|]. symmetry. apply not_true_iff_false.
      intros E. apply existsb_exists in E. destruct E as [f [Hf E]]. rewrite W in E by auto. discriminate. }
  assert (Q1 : q01 (comp_was_on cf c) == 1 <-> exists f, In f (cp_flows c) /\ was_on cf f = true).
  { unfold comp_was_on. split.
    - intros E. apply existsb_exists. destruct (existsb _ _); auto. vm_compute in E. discriminate.
    - intros W. rewrite (proj2 (existsb_exists _ _) W). reflexivity. }
  rewrite Q0 in S1. rewrite Q1 in S2. tauto.
Qed.
Print Assumptions C44_full_refuted.
Print Assumptions C44_component_was_on_partial.
Example C44_applies : cp_onoff chp = Some unit_oo /\ (length (filter gives_number (cp_flows chp)) <= 1)%nat
  /\ length (cp_flows chp) = 3%nat.
Proof. repeat split; try (vm_compute; reflexivity). apply Nat.leb_le. reflexivity. Qed.

(** ** C43 *)

(** The duration computed from previous states is the time for which the last run of ones has lasted. *)
Definition C43_full : Prop := forall eps l d q, 0 <= eps -> eps < 1 -> l <> [] ->
  consecutive_duration eps (NV (map q01 l)) d = Ok q -> q == prior_hours d true l.
(** [0; 1; 1; 1] hourly: the code says 1 hour; [1; 1; 1; 0] gives 3 hours although the last state is "off". *)
Theorem C43_full_refuted : ~ C43_full.
Proof.
  intros A. assert (N : [false; true; true; true] <> []) by discriminate.
  assert (X : 1 == prior_hours (NS 1) true [false; true; true; true]).
  { apply (A (1 # 100000) [false; true; true; true] (NS 1) 1); auto; try (vm_compute; congruence). }
  vm_compute in X. discriminate.
Qed.
Example C43_trailing_zero : consecutive_duration (1 # 100000) (NV [1; 1; 1; 0]) (NS 1) = Ok 3.
Proof. reflexivity. Qed.
(** It is right if all previous states are equal (in particular for a single previous value, the default). *)
Theorem C43_previous_duration_partial : forall eps l d q, 0 <= eps -> eps < 1 -> l <> [] -> steady l ->
  consecutive_duration eps (NV (map q01 l)) d = Ok q -> q == prior_hours d true l.
Proof. exact consecutive_steady. Qed.
(** It is also right if all ones are at the end and there are at least as many zeros before them. *)
Lemma last_pos_app : forall {A} (p : A -> bool) l m, (forall a, In a m -> p a = false) -> last_pos p (l ++ m) = last_pos p l.
Proof. induction l as [|a l IH]; intros m H; simpl; [apply last_pos_none; auto|rewrite IH by auto; auto]. Qed.
Lemma leading_app : forall s k l, leading s (repeat s k ++ l) = (k + leading s l)%nat.
Proof. induction k; intros l; simpl; auto. rewrite eqb_reflx. f_equal. auto. Qed.
Lemma rev_repeat_ : forall {A} (a : A) k, rev (repeat a k) = repeat a k.
Proof.
  induction k; simpl; auto. rewrite IHk. clear. induction k; simpl; auto. f_equal. auto.
Qed.
Lemma trailing_recent : forall z k, trailing true (repeat false z ++ repeat true k) = k.
Proof.
  intros. unfold trailing. rewrite rev_app_distr, !rev_repeat_, leading_app. destruct z; simpl; lia.
Qed.
Lemma map_repeat_ : forall {A B} (g : A -> B) a k, map g (repeat a k) = repeat (g a) k.
Proof. induction k; simpl; congruence. Qed.
Lemma skipn_repeat : forall {A} (a : A) j k, skipn j (repeat a k) = repeat a (k - j).
Proof. induction j; intros k; simpl; [rewrite Nat.sub_0_r; auto|]. destruct k; simpl; auto. Qed.
Lemma skipn_skipn_ : forall {A} j k (l : list A), skipn j (skipn k l) = skipn (j + k) l.
Proof.
  induction k as [|k IH]; intros l; [rewrite Nat.add_0_r; auto|]. rewrite Nat.add_succ_r. destruct l; simpl; [destruct j; auto|auto].
Qed.
Lemma map2_app : forall (f : Q -> Q -> Q) a b c d, length a = length c -> map2 f (a ++ b) (c ++ d) = map2 f a c ++ map2 f b d.
Proof. induction a as [|x a IH]; intros b [|y c] d L; simpl in *; try discriminate; auto. f_equal. apply IH. lia. Qed.
Theorem C43_recent_start_partial : forall eps z k d q, 0 <= eps -> eps < 1 -> (1 <= z)%nat -> (k <= z)%nat ->
  consecutive_duration eps (NV (map q01 (repeat false z ++ repeat true k))) d = Ok q ->
  q == prior_hours d true (repeat false z ++ repeat true k).
Proof.
  intros eps z k d q E0 E1 Z K H. unfold prior_hours. rewrite trailing_recent.
  unfold consecutive_duration in H. rewrite map_app, !map_repeat_ in H. simpl q01 in H.
  assert (LP : last_pos (isclose0 eps) (repeat 0 z ++ repeat 1 k) = Some (z - 1)%nat).
  { rewrite last_pos_app.
    - assert (z = length (repeat 0 z)) by (rewrite repeat_length; auto). rewrite H0 at 2. apply last_pos_all.
      + intros a Ha. apply repeat_spec in Ha. subst. exact (isclose0_q01 eps false E0 E1).
      + destruct z; [lia|discriminate].
    - intros a Ha. apply repeat_spec in Ha. subst. exact (isclose0_q01 eps true E0 E1). }
  rewrite LP in H. replace (S (z - 1)) with z in H by lia.
  assert (PL : py_last z (repeat 0 z ++ repeat 1 k) = repeat 0 (z - k) ++ repeat 1 k).
  { unfold py_last. destruct (Nat.eqb z 0) eqn:Q; [apply Nat.eqb_eq in Q; lia|]. rewrite app_length, !repeat_length.
    replace (z + k - z)%nat with k by lia. rewrite skipn_app, !skipn_repeat, repeat_length.
    replace (k - z)%nat with 0%nat by lia. rewrite Nat.sub_0_r. reflexivity. }
  rewrite PL in H. destruct d as [d|ds].
  - apply Ok_inj in H. subst q. rewrite map_app, Qsum_app, !map_repeat_. simpl last_hours.
    rewrite (Qsum_const (repeat (0 * d) (z - k)) 0) by (intros y Hy; apply repeat_spec in Hy; subst; ring).
    rewrite (Qsum_const (repeat (1 * d) k) d) by (intros y Hy; apply repeat_spec in Hy; subst; ring).
    rewrite !repeat_length. ring.
  - destruct (Nat.ltb (length ds) z) eqn:Lt; [discriminate|]. apply Nat.ltb_ge in Lt.
    apply bind_ok in H. destruct H as [r [Hr H]]. apply Ok_inj in H. subst q.
    unfold py_last in Hr. destruct (Nat.eqb z 0) eqn:Q; [apply Nat.eqb_eq in Q; lia|]. unfold nmul in Hr. simpl in Hr.
    rewrite app_length, !repeat_length, skipn_length in Hr.
    replace (z - k + k)%nat with z in Hr by lia. replace (length ds - (length ds - z))%nat with z in Hr by lia.
    rewrite Nat.eqb_refl in Hr. apply Ok_inj in Hr. subst r. simpl nlist.
    rewrite <- (firstn_skipn (z - k) (skipn (length ds - z) ds)).
    rewrite map2_app by (rewrite repeat_length, firstn_length, skipn_length; lia).
    rewrite Qsum_app. rewrite map2_zeros by (intros y Hy; apply repeat_spec in Hy; subst; reflexivity).
    rewrite skipn_skipn_. replace (z - k + (length ds - z))%nat with (length ds - k)%nat by lia.
    rewrite map2_ones; [simpl; ring|intros y Hy; apply repeat_spec in Hy; subst; reflexivity|].
    rewrite repeat_length, skipn_length. lia.
Qed.
(** A history given as a single state (a number, not an array) counts the last step length. *)
Theorem C43_single_state : forall eps b d q, consecutive_duration eps (NS (q01 b)) d = Ok q -> q == prior_hours d true [b].
Proof.
  intros eps b d q H. destruct d as [d|ds]; cbn [consecutive_duration] in H.
  - apply Ok_inj in H. subst q. destruct b; unfold prior_hours, trailing; simpl; ring.
  - destruct (rev ds) as [|d r] eqn:R; [discriminate|]. apply Ok_inj in H. subst q.
    assert (D : ds = rev r ++ [d]) by (rewrite <- (rev_involutive ds), R; reflexivity). subst ds.
    unfold prior_hours, trailing, last_hours. rewrite app_length. cbn [length rev app]. destruct b; cbn [leading Bool.eqb q01].
    + replace (length (rev r) + 1 - 1)%nat with (length (rev r)) by lia. rewrite skipn_app, skipn_all, Nat.sub_diag. simpl. ring.
    + replace (length (rev r) + 1 - 0)%nat with (length (rev r ++ [d])) by (rewrite app_length; simpl; lia). rewrite skipn_all. simpl. ring.
Qed.
Print Assumptions C43_full_refuted.
Print Assumptions C43_single_state.
Print Assumptions C43_previous_duration_partial.
Print Assumptions C43_recent_start_partial.
Example C43_applies : consecutive_duration (1 # 100000) (NV (map q01 [true; true])) (NV [1; 2; 3]) = Ok 5
  /\ prior_hours (NV [1; 2; 3]) true [true; true] == 5
  /\ consecutive_duration (1 # 100000) (NV (map q01 (repeat false 2 ++ repeat true 1))) (NS 2) = Ok 2
  /\ consecutive_duration (1 # 100000) (NS (q01 true)) (NV [1; 2; 3]) = Ok 3.
Proof. repeat split; vm_compute; reflexivity. Qed.

(** ** C16 *)

(** Consecutive on and off hours of the element [e] with previous states [states]. *)
Definition consecutive_laws (fs : flow_system) (idx : option (list nat)) (x : asg) (e : string) (states : list bool) (o : onoff) : Prop :=
  (oo_con_min o <> None \/ oo_con_max o <> None ->
     let prior := prior_hours (fs_prev_dt fs) true states in
     counts_hours fs idx prior (x (oo e "on")) (x (oo e "consecutiveOnHours"))
     /\ obeys_limits fs idx prior (x (oo e "on")) (oo_con_min o) (oo_con_max o))
  /\ (oo_coff_min o <> None \/ oo_coff_max o <> None ->
     let prior := prior_hours (fs_prev_dt fs) false states in
     (forall t, (t < steps fs idx)%nat -> x (oo e "off") t == 1 - x (oo e "on") t)
     /\ counts_hours fs idx prior (x (oo e "off")) (x (oo e "consecutiveOffHours"))
     /\ obeys_limits fs idx prior (x (oo e "off")) (oo_coff_min o) (oo_coff_max o)).
(** Previous states from which the code reads the hours of the state [s] rightly: all equal, or a run of [s] at the end that
    is not longer than the run of the other state before it. *)
Definition countable (s : bool) (l : list bool) : Prop :=
  steady l \/ exists z k, l = repeat (negb s) z ++ repeat s k /\ (1 <= z)%nat /\ (k <= z)%nat.
Definition countable_for (o : onoff) (l : list bool) : Prop :=
  (oo_con_min o <> None \/ oo_con_max o <> None -> countable true l)
  /\ (oo_coff_min o <> None \/ oo_coff_max o <> None -> countable false l).
Lemma consecutive_countable : forall eps l d q, 0 <= eps -> eps < 1 -> l <> [] -> countable true l ->
  consecutive_duration eps (NV (map q01 l)) d = Ok q -> q == prior_hours d true l.
Proof.
  intros eps l d q E0 E1 NE [St|[z [k [-> [Z K]]]]] H; [eapply consecutive_steady; eauto|].
  eapply C43_recent_start_partial; eauto.
Qed.
Lemma countable_negb : forall l, countable false l -> countable true (map negb l).
Proof.
  intros l [St|[z [k [-> [Z K]]]]]; [left; apply steady_negb; auto|right]. exists z, k. rewrite map_app, !map_repeat_. auto.
Qed.
(** Minimum durations given as arrays have one entry per step. *)
Definition durations_ok (fs : flow_system) (o : onoff) : Prop :=
  (forall p, oo_con_min o = Some p -> full_data fs p) /\ (forall p, oo_coff_min o = Some p -> full_data fs p).

Lemma rows_consecutive : forall cf fs idx cx x e o states vars bounds, ctx_for cf fs idx cx -> 0 <= cf_eps cf -> cf_eps cf < 1 ->
  onoff_rows x cx e o (map q01 states) vars bounds -> countable_for o states -> durations_ok fs o ->
  consecutive_laws fs idx x e states o.
Proof.
  intros cf fs idx cx x e o states vars bounds C E0 E1 R [St1 St2] [D1 D2].
  destruct (rows_switching _ _ _ _ _ _ _ _ _ _ C R) as [NE _].
  assert (NN : cx_n cx = steps fs idx) by apply (cf_n _ _ _ _ C). split.
  - intros U prior. assert (UC : use_con o = true) by (unfold use_con; destruct (oo_con_min o), (oo_con_max o); simpl; auto; destruct U; congruence).
    destruct (oo_con _ _ _ _ _ _ _ R UC) as [prev [Ep DR]]. rewrite (cf_eps_ _ _ _ _ C), (cf_prev _ _ _ _ C) in Ep.
    apply (rows_hours cf fs idx cx _ _ prev); auto; try apply (oo_bin _ _ _ _ _ _ _ R); try apply (oo_long _ _ _ _ _ _ _ R).
    exact (consecutive_countable _ _ _ _ E0 E1 NE (St1 U) Ep).
  - intros U prior. assert (UC : use_coff o = true) by (unfold use_coff; destruct (oo_coff_min o), (oo_coff_max o); simpl; auto; destruct U; congruence).
    pose proof (oo_off _ _ _ _ _ _ _ R UC) as OF. split.
    { intros t Ht. destruct (OF t) as [_ S]; [rewrite NN; auto|]. lra. }
    destruct (oo_coff _ _ _ _ _ _ _ R UC) as [prev [Ep DR]]. rewrite (cf_eps_ _ _ _ _ C), (cf_prev _ _ _ _ C), q01_neg in Ep.
    assert (NE' : map negb states <> []) by (destruct states; [congruence|discriminate]).
    pose proof (consecutive_countable _ _ _ _ E0 E1 NE' (countable_negb _ (St2 U)) Ep) as PV. unfold prior_hours in PV. rewrite trailing_negb in PV.
    apply (rows_hours cf fs idx cx _ _ prev); auto; try apply (oo_long _ _ _ _ _ _ _ R).
    intros t Ht. destruct (OF t Ht); auto.
Qed.

Definition C16_full : Prop := forall cf ord fs idx pm x c f o,
  build cf ord fs idx = Ok pm -> feasible pm x -> 0 <= cf_eps cf -> cf_eps cf < 1 ->
  In c (fs_comps fs) -> In f (cp_flows c) -> governed fs idx c f = Some o -> durations_ok fs o ->
  consecutive_laws fs idx x (flow_name c f) (prior_states cf f) o.
(** On for three hours before the horizon (after an hour off): the code starts counting at one hour. *)
Theorem C16_full_refuted : ~ C16_full.
Proof.
  intros A. destruct x2_feasible as [pm [B F]].
  assert (E0 : 0 <= cf_eps default_config) by (vm_compute; discriminate). assert (E1 : cf_eps default_config < 1) by reflexivity.
  assert (Hc : In src (fs_comps fs2)) by (simpl; tauto). assert (Hf : In src_q (cp_flows src)) by (simpl; tauto).
  assert (D : durations_ok fs2 start_oo) by (split; intros p; simpl; intros E; [injection E as <-; exact I|discriminate]).
  destruct (A default_config id_ord fs2 None pm x2 src src_q start_oo B F E0 E1 Hc Hf eq_refl D) as [L _].
  destruct L as [[_ L] _]; [left; discriminate|].
  assert (P : (0 < steps fs2 None)%nat) by (apply Nat.ltb_lt; reflexivity).
  assert (X : is_run (x2 (oo (flow_name src src_q) "on")) 0 0).
  { split; [lia|]. split; [intros i Hi; assert (i = 0%nat) by lia; subst; vm_compute; reflexivity|discriminate]. }
  specialize (L 0%nat 0%nat P X). vm_compute in L. discriminate.
Qed.
(** It holds if the previous states are of the kind that the code can read, in particular for a single previous value or none. *)
Theorem C16_flow_consecutive_partial : forall cf ord fs idx pm x c f o,
  build cf ord fs idx = Ok pm -> feasible pm x -> 0 <= cf_eps cf -> cf_eps cf < 1 ->
  In c (fs_comps fs) -> In f (cp_flows c) -> governed fs idx c f = Some o -> durations_ok fs o ->
  countable_for o (prior_states cf f) -> consecutive_laws fs idx x (flow_name c f) (prior_states cf f) o.
Proof.
  intros cf ord fs idx pm x c f o H F Ep E1 Hc Hf G D St.
  destruct (flow_laws _ _ _ _ _ _ _ _ H F Ep Hc Hf) as [cx [C R]].
  destruct (fr_on _ _ _ _ R o G) as [prev_on [rate [ab [_ [Pv [Po [OO _]]]]]]].
  rewrite (cf_eps_ _ _ _ _ C) in Po. simpl in Pv. rewrite (flow_prev_states cf f rate prev_on Pv Po) in OO.
  exact (rows_consecutive _ _ _ _ _ _ _ _ _ _ C Ep E1 OO St D).
Qed.
Theorem C16_component_consecutive_partial : forall cf ord fs idx pm x c p,
  build cf ord fs idx = Ok pm -> feasible pm x -> 0 <= cf_eps cf -> cf_eps cf < 1 -> In c (fs_comps fs) -> cp_onoff c = Some p ->
  durations_ok fs p -> (length (filter gives_number (cp_flows c)) <= 1)%nat -> countable_for p (comp_states cf c) ->
  consecutive_laws fs idx x (cp_label c) (comp_states cf c) p.
Proof.
  intros cf ord fs idx pm x c p H F Ep E1 Hc Hp D N St.
  destruct (comp_onoff_laws _ _ _ _ _ _ _ _ H F Ep Hc Hp) as [cx [fos [prev_on [C [FF [Po R]]]]]].
  pose proof (comp_prevs _ _ _ _ _ _ _ (oo_long _ _ _ _ _ _ _ R) FF) as M.
  destruct (comp_prev_states _ _ _ _ M Po N) as [-> W].
  exact (rows_consecutive _ _ _ _ _ _ _ _ _ _ C Ep E1 R St D).
Qed.
Print Assumptions C16_full_refuted.
Print Assumptions C16_flow_consecutive_partial.
Print Assumptions C16_component_consecutive_partial.

(** The boiler was on for one previous step, has to run two hours at least and then stop for one hour at least. *)
Example C16_applies : governed fs0 None boiler q_th = Some boiler_oo /\ countable_for boiler_oo (prior_states default_config q_th)
  /\ durations_ok fs0 boiler_oo /\ prior_hours (fs_prev_dt fs0) true (prior_states default_config q_th) == 1
  /\ x0 "Boiler__Q_th__OnOff_consecutiveOnHours" 1%nat == 3 /\ x0 "Boiler__Q_th__OnOff_consecutiveOffHours" 2%nat == 1
  /\ durations_ok fs1 unit_oo /\ countable_for unit_oo (comp_states default_config chp).
Proof.
  split; [reflexivity|]. split; [split; intros _; left; vm_compute; intros a b [<-|[]] [<-|[]]; reflexivity|].
  split; [split; intros p E; injection E as <-; exact I|].
  split; [vm_compute; reflexivity|]. split; [vm_compute; reflexivity|]. split; [vm_compute; reflexivity|].
  split; [split; intros p E; discriminate|]. split; [|simpl; intuition congruence]. intros _. right. exists 1%nat, 1%nat. repeat split; auto.
Qed.
