(** A flow system stays well named and valid when the data of its parameters changes. *)
From Coq Require Import String Permutation.
From Verif Require Import Base BaseFacts ReadTools MathModel Spec Structure Params Features Elements System SysSpec CtxFacts NavFacts BusFacts NameSpec NameFacts ValidSpec TotalEffects TotalSystem
  Aggregation Series Collect DataSpec CollectFacts.
Local Open Scope Q_scope.

Section Valid_re.
Variables (g : string -> param -> param) (fs : flow_system) (idx : option (list nat)).
Local Notation es := (fs_effects fs).
Local Notation fs' := (re_system g fs).
Hypothesis keeps : forall l p, match pdata p with NS q => pdata (g l p) = NS q | NV o => exists n, pdata (g l p) = NV n /\ length n = length o end.

Lemma re_top : top_labels fs' = top_labels fs.
Proof. unfold top_labels, fs', re_system. cbn [fs_effects fs_comps]. rewrite !map_map. reflexivity. Qed.
Lemma named_re : well_named fs -> well_named fs'.
Proof.
  intros W. split.
  - rewrite re_top. apply W.
  - intros b' l U H. apply re_used in U. destruct U as [b [U ->]]. rewrite re_top in H. exact (wn_bus _ W b l U H).
  - intros b' b2' U U2 N. apply re_used in U. destruct U as [b [U ->]]. apply re_used in U2. destruct U2 as [b2 [U2 ->]]. apply (wn_buses _ W b b2 U U2). intros ->. apply N. reflexivity.
  - intros e' H. apply re_effects_In in H. destruct H as [e [H ->]]. exact (wn_effect _ W e H).
  - intros c' H. apply re_comps_In in H. destruct H as [c [H ->]]. exact (wn_comp _ W c H).
  - intros c' H. apply re_comps_In in H. destruct H as [c [H ->]]. destruct (wn_flow _ W c H) as [A B]. rewrite re_flows, map_map. split; [exact A|]. intros f' l F L. apply in_map_iff in F. destruct F as [f [<- F]]. exact (B f l F L).
Qed.
Lemma find_map : forall {A} (h : A -> A) (q : A -> bool) l, (forall a, q (h a) = q a) -> find q (map h l) = option_map h (find q l).
Proof. intros A h q l H. induction l as [|a l IH]; cbn [map find]; auto. rewrite H. destruct (q a); auto. Qed.
Lemma names_re : forall k e, names (fs_effects fs') k (re_effect g es e) = names es k e.
Proof. intros [i|] e; [reflexivity|]. cbn [names]. unfold re_system. cbn [fs_effects]. rewrite find_map by reflexivity.  destruct (find e_std es); reflexivity. Qed.
Lemma means_re : forall k e', means fs' k e' <-> exists e, means fs k e /\ e' = re_effect g es e.
Proof.
  intros k e'. unfold means. split.
  - intros [H M]. apply re_effects_In in H. destruct H as [e [H ->]]. rewrite names_re in M. exists e. auto.
  - intros [e [[H M] ->]]. split; [apply re_effects_In; eauto|]. rewrite names_re. exact M.
Qed.
Lemma addressed_re : forall ks, well_addressed fs ks -> well_addressed fs' ks.
Proof.
  intros ks [A B]. split.
  - intros k H. destruct (A k H) as [e M]. exists (re_effect g es e). apply means_re. eauto.
  - revert B. induction 1 as [|k ks F B IH]; constructor.
    + apply Forall_forall. intros k' K e' [M M']. rewrite Forall_forall in F. apply means_re in M. destruct M as [e [M ->]]. destruct M' as [_ M']. rewrite names_re in M'. apply (F k' K e). split; [exact M|]. split; [apply M|exact M'].
    + apply IH. intros k' K. apply A. right. exact K.
Qed.
Lemma full_re : forall l p, full_data fs p -> full_data fs' (g l p).
Proof. intros l p F. unfold full_data in *. specialize (keeps l p). destruct (pdata p) as [q|o]; [rewrite keeps; auto|]. destruct keeps as [n [-> L]]. rewrite L. exact F. Qed.
Lemma full_opt_re : forall full label o, full_opt fs o -> full_opt fs' (re_opt g full label o).
Proof. intros full label o F q H. apply re_opt_Some in H. destruct H as [p [-> ->]]. apply full_re. apply F. reflexivity. Qed.
Lemma values_re : forall full what v, valid_values fs v -> valid_values fs' (re_values g es full what v).
Proof.
  intros full what v [A F]. split.
  - rewrite re_entries, map_map. cbn [fst]. apply addressed_re. exact A.
  - intros k p' H. rewrite re_entries in H. apply in_map_iff in H. destruct H as [[k0 p] [E H]]. cbn [fst snd] in E. injection E as <- <-. apply full_re. eapply F; eauto.
Qed.
Lemma numbers_re : forall v, valid_numbers fs v -> valid_numbers fs' v.
Proof. intros v [A F]. split; [apply addressed_re; exact A|exact F]. Qed.
Lemma invest_re : forall iv, valid_invest fs iv -> valid_invest fs' iv.
Proof.
  intros iv [A B C D]. split; try (apply numbers_re; assumption). intros spts eff H. destruct (D _ _ H) as [D1 [D0 [D2 D3]]]. split; [exact D1|]. split; [exact D0|]. split; [exact D2|]. intros i l K. destruct (D3 i l K) as [[e M] L].
  split; [exists (re_effect g es e); apply means_re; eauto|exact L].
Qed.
Lemma re_limits : forall full p, limits_duration (re_onoff g es full p) <-> limits_duration p.
Proof.
  intros full p. unfold limits_duration, re_onoff. cbn [oo_con_min oo_con_max oo_coff_min oo_coff_max]. unfold re_opt.
  destruct (oo_con_min p), (oo_con_max p), (oo_coff_min p), (oo_coff_max p); cbn [option_map]; split; intros H; repeat destruct H as [H|H]; try congruence; auto; try (left; discriminate); try (right; left; discriminate); try (right; right; left; discriminate); try (right; right; right; discriminate).
Qed.
Lemma onoff_re : forall full p past, valid_onoff fs p past -> valid_onoff fs' (re_onoff g es full p) past.
Proof.
  intros full p past [A B [C1 C2] [D1 D2] E]. split; cbn [re_onoff oo_switch_eff oo_run_eff oo_con_min oo_con_max oo_coff_min oo_coff_max].
  - apply values_re; auto. - apply values_re; auto. - split; apply full_opt_re; auto. - split; apply full_opt_re; auto.
  - intros H. apply re_limits in H. exact (E H).
Qed.
Lemma past_re : forall c l, given_past (map (re_flow g es c) l) = given_past l.
Proof. intros c l. unfold given_past. induction l as [|f l IH]; [reflexivity|]. cbn [map flat_map]. rewrite IH. reflexivity. Qed.
Lemma flow_re : forall c f, valid_flow fs f -> valid_flow fs' (re_flow g es c f).
Proof.
  intros c f [[A1 [A2 A3]] B C D E]. split; cbn [re_flow f_profile f_relmin f_relmax f_effects f_onoff f_size].
  - split; [apply full_opt_re; auto|]. split; apply full_re; auto.
  - apply values_re; auto.
  - exact C.
  - intros p H. destruct (f_onoff f) as [o|] eqn:FO; [|discriminate]. injection H as <-. apply onoff_re. apply D. reflexivity.
  - intros iv H. apply invest_re. auto.
Qed.
Lemma charge_re : forall l p, charge_data fs idx p -> charge_data fs' idx (g l p).
Proof.
  intros l p [[q H]|[I [o [H L]]]]; specialize (keeps l p); rewrite H in keeps; [left; eauto|right]. split; auto. destruct keeps as [n [K M]]. exists n. split; [exact K|]. cbn. congruence.
Qed.
(** Two things must not get lost. *)
Hypothesis HE : forall c s q, In c (fs_comps fs) -> cp_kind c = StorageC s -> In q (nlist (pdata (g (own (cp_label c) "eta_discharge") (st_eta_d s)))) -> ~ q == 0.
Hypothesis HA : forall c rel p, In c (fs_comps fs) -> cp_kind c = TransmissionC rel (Some p) -> any_loss fs idx p = true -> any_loss fs idx (g (own (cp_label c) "absolute_losses") p) = true.
Lemma governed_re : forall c f, In c (fs_comps fs) -> governed fs idx c f <> None -> governed fs' idx (re_comp g es c) (re_flow g es c f) <> None.
Proof.
  intros c f HC G. unfold governed in *. cbn [re_flow f_onoff]. destruct (f_onoff f) as [o|]; [discriminate|]. cbn [option_map]. destruct (induced fs idx c f) eqn:I; [|congruence].
  assert (X : induced fs' idx (re_comp g es c) (re_flow g es c f) = true); [|rewrite X; discriminate]. unfold induced in *. cbn [re_comp re_flow cp_onoff cp_prevent f_id cp_kind].
  apply orb_true_iff in I. destruct I as [I|I]; apply orb_true_iff; [left|right].
  - apply orb_true_iff in I. destruct I as [I|I]; apply orb_true_iff; [left|right; exact I]. destruct (cp_onoff c); [reflexivity|discriminate].
  - unfold re_kind. destruct (cp_kind c) as [| | | |rel [p|]] eqn:K; try discriminate. cbn [re_opt option_map]. exact (HA c rel p HC K I).
Qed.
Lemma kind_re : forall c, In c (fs_comps fs) -> valid_kind fs idx c -> valid_kind fs' idx (re_comp g es c).
Proof.
  intros c HC V. unfold valid_kind in *. change (cp_kind (re_comp g es c)) with (re_kind g c). unfold re_kind. pose proof (fun s => HE c s) as HE'. pose proof (governed_re c) as GV. destruct (cp_kind c) as [|fss|segs|s|rel abs] eqn:K; auto.
  - destruct V as [N [F US]]. split; [destruct fss; [congruence|discriminate]|]. split.
    { intros d' k p' D H. apply in_map_iff in D. destruct D as [d [<- D]]. apply in_map_iff in H. destruct H as [[k0 p] [E H]]. cbn [fst snd] in E. injection E as <- <-. apply full_re. eapply F; eauto. }
    intros d' D. apply in_map_iff in D. destruct D as [d [<- D]]. destruct (US d D) as [f [p [Hf Hp]]]. rewrite re_flows. eexists. eexists. split; [apply in_map; exact Hf|]. apply in_map_iff. exists (f_id f, p). split; [reflexivity|exact Hp].
  - destruct V as [N [ND [k [KP F]]]]. rewrite re_flows. split; [destruct (cp_flows c); [congruence|discriminate]|]. rewrite map_map. cbn [fst]. split; [exact ND|]. exists k. split; [exact KP|]. intros f' H. apply in_map_iff in H. destruct H as [f [<- H]]. destruct (F f H) as [s [S [L P]]].
    exists (map (fun pq => (g (ts_name (cp_label c) "Stuetzstelle") (fst pq), g (ts_name (cp_label c) "Stuetzstelle") (snd pq))) s). split; [apply in_map_iff; exists (f_id f, s); auto|]. rewrite map_length. split; [exact L|].
    intros p' q' M. apply in_map_iff in M. destruct M as [[p q] [E M]]. cbn [fst snd] in E. injection E as <- <-. destruct (P p q M). split; apply full_re; auto.
  - destruct V as [[[A1 A2] [B1 [B2 B3]] C D E] [ch [dis [I O]]]]. split.
    + split; cbn [st_relmin st_relmax st_eta_c st_eta_d st_loss st_init st_cap]; auto.
      * split; apply charge_re; auto.
      * split; [apply full_re; auto|]. split; apply full_re; auto.
      * intros q H. exact (HE' s q HC eq_refl H).
      * intros iv H. apply invest_re. auto.
    + exists (re_flow g es c ch), (re_flow g es c dis). cbn [re_comp cp_in cp_out]. rewrite I, O. auto.
  - destruct V as [A [B [C D]]]. split; [apply full_opt_re; auto|]. split; [apply full_opt_re; auto|]. split.
    + cbn [re_comp cp_in cp_out]. destruct C as [[i [o [I O]]]|[i [i' [o [o' [I O]]]]]]; rewrite I, O; cbn [map]; [left|right]; repeat eexists.
    + intros H f' F. cbn [re_comp cp_in] in F. apply in_map_iff in F. destruct F as [f [<- F]]. apply GV; [exact HC|]. apply D; auto. intros ->. apply H. reflexivity.
Qed.
Theorem valid_re : valid_data fs idx -> valid_data fs' idx.
Proof.
  intros V. split.
  - exact (vd_steps _ _ V).
  - exact (vd_chosen _ _ V).
  - unfold re_system. cbn [fs_comps]. replace (map f_id (flat_map cp_flows (map (re_comp g (fs_effects fs)) (fs_comps fs)))) with (map f_id (flat_map cp_flows (fs_comps fs))); [exact (vd_flows _ _ V)|]. clear V HE HA.
    induction (fs_comps fs) as [|c l IH]; [reflexivity|]. cbn [map flat_map]. rewrite !map_app, IH. f_equal. rewrite re_flows, map_map. reflexivity.
  - unfold re_system. cbn [fs_effects]. rewrite map_map. exact (vd_ids _ _ V).
  - intros e' H. apply re_effects_In in H. destruct H as [e [H ->]]. destruct (vd_effects _ _ V e H) as [[A B] [C D] [E F]]. split; cbn [re_effect e_min_ph e_max_ph e_share_op e_share_inv].
    + split; apply full_opt_re; auto.
    + rewrite map_map. cbn [fst]. split; [exact C|]. intros k p' K. apply in_map_iff in K. destruct K as [[k0 p] [X K]]. cbn [fst snd] in X. injection X as <- <-. destruct (D _ _ K) as [[e' M] G]. split; [exists (re_effect g es e'); apply means_re; eauto|apply full_re; auto].
    + split; [exact E|]. intros k a K. destruct (F k a K) as [[e' M] G]. split; [exists (re_effect g es e'); apply means_re; eauto|exact G].
  - destruct (vd_objective _ _ V) as [e [H O]]. exists (re_effect g es e). split; [apply re_effects_In; eauto|exact O].
  - intros c' H. apply re_comps_In in H. destruct H as [c [H ->]]. pose proof (kind_re c H) as KR. destruct (vd_comps _ _ V c H) as [A B C D]. split.
    + rewrite re_flows. intros f' F. apply in_map_iff in F. destruct F as [f [<- F]]. apply flow_re. auto.
    + rewrite re_flows. intros p' P. cbn [re_comp cp_onoff] in P. destruct (cp_onoff c) as [p|]; [|discriminate]. injection P as <-. destruct (B p eq_refl) as [B1 [B2 B3]]. split; [destruct (cp_flows c); [congruence|discriminate]|]. rewrite past_re. split; [exact B2|]. apply onoff_re. exact B3.
    + rewrite re_flows. cbn [re_comp cp_prevent]. destruct C as [C|[C1 C2]]; [left; exact C|right]. split; [exact C1|]. intros i I. destruct (C2 i I) as [f [F <-]]. exists (re_flow g es c f). split; [apply in_map; exact F|reflexivity].
    + apply KR. exact D.
  - intros b' U. apply re_used in U. destruct U as [b [U ->]]. cbn [re_bus b_penalty]. apply full_opt_re. exact (vd_buses _ _ V b U).
Qed.
End Valid_re.
