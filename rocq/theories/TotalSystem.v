(** Whole flow systems can always be written down for valid data and well-chosen labels. *)
From Verif Require Import Base BaseFacts MathModel Spec MathFacts MathTotal Structure StructureFacts Params Features Elements System SysSpec CtxFacts NavFacts BusFacts ResultFacts
  NameSpec NameFacts TotalFacts TotalFeatures TotalInvest TotalOnOff TotalShares TotalEffects TotalFlows TotalComps ValidSpec.

Lemma mapped_flows : forall g c, cp_flows (map_comp g c) = map g (cp_flows c).
Proof. intros. unfold cp_flows, map_comp, set_flows. cbn. rewrite map_app. reflexivity. Qed.
Lemma FOP_map : forall {A B} (g : A -> B) (R : B -> B -> Prop) l, ForallOrdPairs (fun a b => R (g a) (g b)) l -> ForallOrdPairs R (map g l).
Proof. intros A B g R l F. induction F as [|a l H F IH]; cbn [map]; constructor; auto. rewrite Forall_forall in *. intros b Hb. apply in_map_iff in Hb. destruct Hb as [x [<- X]]. auto. Qed.
Lemma FOP_unmap : forall {A B} (g : A -> B) (R : B -> B -> Prop) l, ForallOrdPairs R (map g l) -> ForallOrdPairs (fun a b => R (g a) (g b)) l.
Proof. intros A B g R l. induction l as [|a l IH]; intros F; constructor; inversion F; subst; auto. rewrite Forall_forall in *. intros b Hb. apply H1. apply in_map. exact Hb. Qed.
Lemma FOP_impl : forall {A} (R R' : A -> A -> Prop) l, (forall a b, R a b -> R' a b) -> ForallOrdPairs R l -> ForallOrdPairs R' l.
Proof. intros A R R' l H F. induction F as [|a l Ha F IH]; constructor; auto. eapply Forall_impl; [|exact Ha]. auto. Qed.

(** ** From the user's data to what the parts need *)
Section Data.
Variables (fs : flow_system) (idx : option (list nat)) (cx : ctx) (cf : config).
Hypothesis CE : cx_effects cx = fs_effects fs.
Hypothesis CI : cx_idx cx = idx.
Hypothesis CN : cx_n cx = steps fs idx.
Hypothesis CP : cx_prev cx = fs_prev_dt fs.
Hypothesis CB : cx_big cx = cf_big cf.
Hypothesis CK : ctx_ok cx.
Hypothesis S2 : (2 <= steps fs idx)%nat.
Hypothesis RG : forall l i, idx = Some l -> In i l -> (i < length (fs_times fs))%nat.
Let N := length (fs_times fs).

Lemma got_ready : ready cx N.
Proof.
  split; [lia|apply (ok_n _ CK)|]. rewrite CI, CN. unfold steps. destruct idx as [l|] eqn:E; [|reflexivity]. split; auto.
  apply Forall_forall. intros i Hi. apply (RG l i); auto.
Qed.
Lemma full_fit : forall p, full_data fs p -> pfit N p.
Proof. intros p H. unfold full_data in H. unfold pfit. destruct (pdata p) as [q|l]; [exact Logic.I|exact H]. Qed.
Lemma full_fito : forall p, full_opt fs p -> pfito N p.
Proof. intros [p|] H; [apply full_fit, H; reflexivity|exact Logic.I]. Qed.
Lemma means_resolve : forall k e, means fs k e -> resolve cx k = Ok (e_id e).
Proof.
  intros [i|] e [He M]; unfold resolve, names in *; rewrite CE.
  - apply Nat.eqb_eq in M. subst i. replace (existsb _ _) with true; [reflexivity|]. symmetry. apply existsb_exists. exists e. rewrite Nat.eqb_refl. auto.
  - unfold standard_effect. destruct (find e_std (fs_effects fs)); [|discriminate M]. apply Nat.eqb_eq in M. rewrite M. reflexivity.
Qed.
Lemma resolve_means : forall k e i, means fs k e -> resolve cx k = Ok i -> e_id e = i.
Proof. intros k e i M R. rewrite (means_resolve _ _ M) in R. congruence. Qed.
Lemma addressed_keyed : NoDup (map e_id (fs_effects fs)) -> forall ks, well_addressed fs ks -> keyed cx ks.
Proof.
  intros ND ks [A B]. split.
  - intros k K. destruct (A _ K) as [e M]. exists (e_id e). apply means_resolve. exact M.
  - induction B as [|k ks H B IH]; cbn [map]; constructor.
    + intros X. apply in_map_iff in X. destruct X as [k' [E K']]. rewrite Forall_forall in H. destruct (A k (or_introl eq_refl)) as [e M]. destruct (A k' (or_intror K')) as [e' M'].
      assert (e_id e' = e_id e) by (apply (resolve_means k' e' _ M'); rewrite E; apply means_resolve; exact M).
      apply (H _ K' e). split; [exact M|]. destruct M as [He _], M' as [He' M']. split; auto. unfold names in *. destruct k' as [i|]; [rewrite <- H0; exact M'|].
      destruct (find e_std (fs_effects fs)); [rewrite <- H0; exact M'|exact M'].
    + apply IH. intros x X. apply A. right. exact X.
Qed.
Lemma means_known : forall i, (exists e, means fs (Some i) e) -> existsb (fun e => Nat.eqb (e_id e) i) (cx_effects cx) = true.
Proof. intros i [e [He M]]. rewrite CE. apply existsb_exists. exists e. split; auto. rewrite Nat.eqb_sym. exact M. Qed.

Hypothesis DI : NoDup (map e_id (fs_effects fs)).
Lemma values_ok : forall v, valid_values fs v -> keyed cx (map fst (as_effect_dict v)) /\ forall k q, In (k, q) (as_effect_dict v) -> pfit N q.
Proof. intros v [A B]. split; [apply addressed_keyed; auto|]. intros k q H. apply full_fit. apply (B k). exact H. Qed.
Lemma numbers_ok : forall v, valid_numbers fs v -> keyed cx (map fst (as_effect_dict v)) /\ plain_numbers v.
Proof. intros v [A B]. split; [apply addressed_keyed; auto|]. intros k q H. apply (B k). exact H. Qed.
Lemma invest_data : forall iv, valid_invest fs iv -> inv_data_ok cx iv.
Proof.
  intros iv [A B C D]. split; try apply numbers_ok; auto. intros spts eff E. destruct (D _ _ E) as [NE [SN [ND L]]]. split; auto. split; [|split].
  - intros i l H. destruct (L _ _ H) as [M Le]. split; [apply means_known; auto|lia].
  - destruct eff as [|[i l] eff]; [congruence|]. apply (L i l). left. reflexivity.
  - exact SN.
Qed.
Lemma past_eq : forall l, given_past l = given (map f_prev l).
Proof. induction l as [|f l IH]; auto. cbn [given_past flat_map map given]. unfold given_past, given in IH. rewrite IH. reflexivity. Qed.
Lemma kind_alike : forall l, one_kind l -> alike l.
Proof. intros l [H|H]; [left|right; exact H]. eapply Forall_impl; [|exact H]. intros a [q ->]. reflexivity. Qed.
Lemma onoff_data : forall p past, valid_onoff fs p past -> oo_base cx N p /\ hist_ok cx p past.
Proof.
  intros p past [A B [C1 C2] [D1 D2] E]. split.
  - split; [apply values_ok; auto|]. split; [apply values_ok; auto|]. repeat split; apply full_fito; auto.
  - intros U. rewrite CP. destruct (fs_prev_dt fs) as [q|ds] eqn:Ed; auto. apply (E); auto.
    unfold use_con, use_coff, is_some in U. unfold limits_duration. destruct (oo_con_min p), (oo_con_max p), (oo_coff_min p), (oo_coff_max p); cbn in U; try discriminate U;
      first [left; discriminate|right; left; discriminate|right; right; left; discriminate|right; right; right; discriminate].
Qed.
Lemma default_data : forall l, oo_base cx N default_onoff /\ hist_ok cx default_onoff l.
Proof. intros. split; [apply default_base|apply default_hist]. Qed.

(** ** The component as it is modelled *)
Lemma numbers_none : keyed cx (map fst (as_effect_dict EVNone)) /\ plain_numbers EVNone.
Proof. split; [split; [intros ? []|constructor]|intros ? ? []]. Qed.
Lemma sized_ok : forall c f, (forall g, In g (cp_flows c) -> valid_flow fs g) -> In f (cp_flows c) -> forall iv, sized cf c f = SzInv iv -> inv_data_ok cx iv.
Proof.
  intros c f V Hf iv S. unfold sized in S.
  assert (D : f_size f = SzInv iv -> inv_data_ok cx iv) by (intros E; apply invest_data, (vf_invest _ _ (V f Hf)); exact E).
  destruct (cp_kind c); auto. destruct (cp_in c) as [|a [|b r]]; auto. destruct (Nat.eqb (f_id f) (f_id b)); auto.
  destruct (f_size a); auto. destruct (f_size b); auto. injection S as <-. split; try apply numbers_none. intros ? ? H. discriminate H.
Qed.
Lemma effective_ok : forall c f, (forall g, In g (cp_flows c) -> valid_flow fs g) -> In f (cp_flows c) -> flow_data cx N (effective cf fs idx c f).
Proof.
  intros c f V Hf. destruct (V f Hf) as [[A1 [A2 A3]] B C D E]. assert (PE : given [f_prev f] = given_past [f]) by reflexivity. split; cbn [effective f_profile f_relmin f_relmax f_effects f_prev f_onoff f_size].
  - split; [apply full_fito; auto|]. split; apply full_fit; auto.
  - apply values_ok. exact B.
  - rewrite PE. apply kind_alike. exact C.
  - intros p G. unfold governed in G. rewrite PE. destruct (f_onoff f) as [q|] eqn:O.
    + injection G as <-. apply onoff_data. apply D. reflexivity.
    + destruct (induced fs idx c f); [|discriminate G]. injection G as <-. apply default_data.
  - intros iv S. eapply sized_ok; eauto.
Qed.

Lemma prepared_ok : forall c, NoDup (map f_id (cp_flows c)) -> (forall r p, cp_kind c = TransmissionC r (Some p) -> full_data fs p) ->
  prepared cx true c = Ok (map_comp (effective cf fs idx c) c).
Proof.
  intros c ND FD.
  assert (X : exists c', prepared cx true c = Ok c').
  { unfold prepared. destruct (cp_kind c) as [| | | |r abs] eqn:K; try (eexists; reflexivity). unfold prepare_transmission.
    assert (Y : exists c1, (match abs with None => Ok c | Some p => a <- act cx true p ;; Ok (if nany_nonzero a then map_flows with_default_onoff c else c) end) = Ok c1).
    { destruct abs as [p|]; [|eauto]. destruct (act_ok cx N p got_ready) as [a [-> _]]; [apply full_fit; eapply FD; reflexivity|]. cbn [bind]. eauto. }
    destruct Y as [c1 ->]. cbn [bind]. destruct (cp_in c1) as [|a [|b m]]; try (eexists; reflexivity). destruct (f_size a); try (eexists; reflexivity). destruct (f_size b); eexists; reflexivity. }
  destruct X as [c' E]. rewrite E. f_equal. destruct (prepared_spec cf cx true c c' CB ND E) as [nz [-> NZ]]. unfold map_comp.
  assert (EQ : forall f, eff_ nz cf c f = effective cf fs idx c f).
  { intros f. apply eff_effective. intros r p K. destruct (NZ r p K) as [a [Ea ->]]. unfold any_loss. rewrite <- CN, <- CI.
    destruct (act_ok cx N p got_ready) as [a' [Ea' F]]; [apply full_fit; eapply FD; exact K|]. assert (a' = a) by congruence. subst a'.
    apply (nany_value cx true p a CK Ea).
    - intros i Hi. apply in_rng_len. destruct a as [q|l]; cbn in F |- *; [left; reflexivity|right; lia].
    - intros _. destruct a as [q|l]; cbn in F |- *; auto. }
  rewrite !(map_ext _ _ EQ). reflexivity.
Qed.

Lemma mapped_past : forall c l, map f_prev (map (effective cf fs idx c) l) = map f_prev l.
Proof. intros. rewrite map_map. reflexivity. Qed.
Lemma part_reserved : forall w, In w reserved -> exists l, In l part_names /\ w = words l.
Proof.
  intros w H. assert (E : reserved = map words part_names) by reflexivity. rewrite E in H. apply in_map_iff in H. destruct H as [l [<- L]]. exists l. auto.
Qed.
Lemma comp_ready : forall c, NoDup (map f_id (cp_flows c)) -> valid_comp fs idx c -> hd ""%string (words (cp_label c)) <> ""%string ->
  ForallOrdPairs unrelated (map f_lab (cp_flows c)) -> (forall f l, In f (cp_flows c) -> In l part_names -> unrelated (f_lab f) l) ->
  comp_data cx N (map_comp (effective cf fs idx c) c).
Proof.
  intros c ND [VF VO VP VK] W1 W2 W3. split; rewrite ?mapped_flows.
  - exact W1.
  - intros f Hf. apply in_map_iff in Hf. destruct Hf as [g [<- Hg]]. apply effective_ok; auto.
  - apply FOP_map. cbn [effective f_lab]. apply FOP_unmap in W2. eapply FOP_impl; [|exact W2]. intros a b. apply unrelated_split.
  - intros f w Hf Hw. apply in_map_iff in Hf. destruct Hf as [g [<- Hg]]. cbn [effective f_lab]. destruct (part_reserved _ Hw) as [l [L ->]]. apply unrelated_split. auto.
  - rewrite map_map. exact ND.
  - intros p P. cbn in P. destruct (VO _ P) as [NE [K V]]. rewrite mapped_past, <- past_eq. destruct (onoff_data _ _ V). split; [|split; [auto|split; [apply kind_alike; auto|auto]]].
    intros E. apply map_eq_nil in E. auto.
  - cbn [map_comp set_flows cp_prevent]. destruct VP as [VP|[VP1 VP2]]; [left; exact VP|right]. split; auto. intros i Hi. destruct (VP2 _ Hi) as [f [Hf Ef]].
    exists (effective cf fs idx c f). split; [apply in_map; exact Hf|]. split; [exact Ef|]. cbn [effective f_onoff]. unfold governed. destruct (f_onoff f); [discriminate|].
    replace (induced fs idx c f) with true; [discriminate|]. symmetry. unfold induced. apply orb_true_iff. left. apply orb_true_iff. right. apply existsb_exists. exists i. split; auto. apply Nat.eqb_eq. exact Ef.
Qed.
Lemma lookup_dict : forall {A} (l : list (nat * A)) i a, NoDup (map fst l) -> In (i, a) l -> lookup_nat l i = Some a.
Proof.
  intros A l i a ND H. induction l as [|[j b] l IH]; [contradiction|]. cbn [map fst] in ND. inversion ND; subst. unfold lookup_nat. cbn [find fst]. destruct H as [E|H].
  - injection E as -> ->. rewrite Nat.eqb_refl. reflexivity.
  - destruct (Nat.eqb_spec j i) as [->|E]; [exfalso; apply H2; apply in_map_iff; exists (i, a); auto|]. apply IH; auto.
Qed.
Lemma charge_ok : forall p, charge_data fs idx p -> exists a, act cx true p = Ok a /\ fitn (cx_n cx + 1) a.
Proof.
  intros p H. unfold act. cbn [guard bind]. destruct H as [[q E]|[E0 [l [E L]]]]; rewrite E; cbn [make_scalar bind active_of].
  - exists (NS q). split; [destruct (cx_idx cx); reflexivity|exact Logic.I].
  - destruct l as [|q l]; [cbn in L; lia|]. cbn [make_scalar]. destruct (forallb (fun y => Qeq_bool y q) l); cbn [bind active_of]; rewrite ?CI, ?E0.
    + exists (NS q). split; [reflexivity|exact Logic.I].
    + exists (NV (q :: l)). split; [reflexivity|]. cbn [fitn]. rewrite L, CN, E0. reflexivity.
Qed.
Lemma kind_ready : forall c, valid_comp fs idx c -> kind_data cx N (map_comp (effective cf fs idx c) c).
Proof.
  intros c [VF VO VP VK]. unfold valid_kind in VK. unfold kind_data. cbn [map_comp set_flows cp_kind]. fold (map_comp (effective cf fs idx c) c). destruct (cp_kind c) as [|fss|segs|s|rel abs] eqn:K.
  - exact Logic.I.
  - destruct VK as [NE [F US]]. split; [exact NE|]. split; [intros d k p D P; apply full_fit; eapply F; eauto|].
    intros d D. destruct (US _ D) as [f [p [Hf Hp]]]. exists (effective cf fs idx c f), p. rewrite mapped_flows. split; [apply in_map; exact Hf|exact Hp].
  - destruct VK as [NE [ND [k [KP F]]]]. split; rewrite mapped_flows; [intros E; apply map_eq_nil in E; auto|].
    intros f Hf. apply in_map_iff in Hf. destruct Hf as [g [<- Hg]]. cbn [effective f_id]. destruct (F _ Hg) as [s [S1 [S3 S4]]]. exists s. split; [apply lookup_dict; auto|]. split.
    + intros f0 H0 s0 L0. apply nth_error_In in H0. apply in_map_iff in H0. destruct H0 as [g0 [<- Hg0]]. cbn [effective f_id] in L0. destruct (F _ Hg0) as [s' [S1' [S3' _]]].
      rewrite (lookup_dict _ _ _ ND S1') in L0. injection L0 as <-. lia.
    + split; [intros p q P; destruct (S4 _ _ P); split; apply full_fit; auto|]. intros ->. cbn in S3. lia.
  - destruct VK as [[[A1 A2] [B1 [B2 B3]] C D E] [ch [dis [I1 O1]]]]. split; [|unfold map_comp, set_flows; cbn; rewrite I1, O1; split; discriminate]. split.
    + destruct (charge_ok _ A1) as [a [E1 F1]]. destruct (charge_ok _ A2) as [b [E2 F2]]. exists a, b. auto.
    + split; [apply full_fit; auto|]. split; apply full_fit; auto.
    + exact C.
    + exact D.
    + intros iv H. apply invest_data. auto.
  - destruct VK as [R [A [SH ON]]]. split.
    + split; apply full_fito; auto.
    + unfold map_comp, set_flows. cbn. destruct SH as [[i [o [-> ->]]]|[i [i' [o [o' [-> ->]]]]]]; cbn; (split; [discriminate|split; [discriminate|lia]]).
    + intros NE i f Hi Hf. cbn [map_comp set_flows cp_in] in Hf. apply nth_error_In in Hf. apply in_map_iff in Hf. destruct Hf as [g [<- Hg]]. cbn [effective f_onoff]. apply ON; auto.
    + intros f g iv H0 H1 S. unfold map_comp, set_flows in H0, H1. cbn [cp_in] in H0, H1. destruct SH as [[i [o [EI _]]]|[i [i' [o [o' [EI _]]]]]]; rewrite EI in H0, H1; [discriminate H1|]. cbn [map nth_error] in H0, H1.
      injection H0 as <-. injection H1 as <-. cbn [effective f_size] in *. unfold sized in *. rewrite K, EI in *. rewrite Nat.eqb_refl.
      destruct (f_size i) as [q|w] eqn:Si; [|destruct (f_size i') as [q'|w'] eqn:Si'; eauto].
      destruct (Nat.eqb (f_id i) (f_id i')); discriminate S.
Qed.
End Data.

(** ** Labels *)
Lemma mem_str_none : forall s l, ~ In s l -> mem_str s l = false.
Proof. intros s l H. destruct (mem_str s l) eqn:E; auto. exfalso. apply H. unfold mem_str in E. apply existsb_exists in E. destruct E as [x [X E]]. apply String.eqb_eq in E. congruence. Qed.
Lemma unrelated_sym : forall a b, unrelated a b -> unrelated b a.
Proof. intros a b [A [B C]]. split; [congruence|auto]. Qed.
Lemma unrelated_irrefl : forall a, ~ unrelated a a.
Proof. intros a [A _]. congruence. Qed.
Lemma full_continued : forall c l, continued c (flow_full c l).
Proof. intros. exists (cat ["_"; l]). unfold flow_full. simpl. rewrite !append_nil. reflexivity. Qed.
Lemma full_other : forall c l, flow_full c l <> c.
Proof. intros c l H. apply (f_equal words) in H. unfold flow_full in H. rewrite words_us2 in H. apply (f_equal (@length string)) in H. rewrite app_length in H. cbn in H. lia. Qed.
Lemma FOP_app : forall {A} (R : A -> A -> Prop) l m, ForallOrdPairs R (l ++ m) -> ForallOrdPairs R l /\ ForallOrdPairs R m /\ forall a b, In a l -> In b m -> R a b.
Proof.
  intros A R l m. induction l as [|x l IH]; cbn [app]; intros F; [split; [constructor|split; [auto|intros ? ? []]]|]. inversion F; subst. destruct (IH H2) as [I1 [I2 I3]]. rewrite Forall_forall in H1.
  split; [constructor; auto; apply Forall_forall; intros y Y; apply H1; apply in_or_app; auto|]. split; auto. intros a b [<-|Ha] Hb; [apply H1; apply in_or_app; auto|auto].
Qed.
Lemma FOP_sym_in : forall {A} (R : A -> A -> Prop) l, (forall a b, R a b -> R b a) -> ForallOrdPairs R l -> forall a b, In a l -> In b l -> a <> b -> R a b.
Proof.
  intros A R l S F. induction F as [|x l H F IH]; [intros ? ? []|]. rewrite Forall_forall in H. intros a b [<-|Ha] [<-|Hb] N; auto. congruence.
Qed.
Lemma FOP_NoDup : forall {A} (R : A -> A -> Prop) l, (forall a, ~ R a a) -> ForallOrdPairs R l -> NoDup l.
Proof. intros A R l I F. induction F as [|x l H F IH]; constructor; auto. intros X. rewrite Forall_forall in H. apply (I x). auto. Qed.

Section Labels.
Variable fs : flow_system.
Hypothesis W : well_named fs.
Lemma wn_parts : ForallOrdPairs unrelated (map e_label (fs_effects fs)) /\ ForallOrdPairs unrelated (map cp_label (fs_comps fs))
  /\ (forall e c, In e (fs_effects fs) -> In c (fs_comps fs) -> unrelated (e_label e) (cp_label c))
  /\ (forall e, In e (fs_effects fs) -> unrelated "Effects"%string (e_label e)) /\ forall c, In c (fs_comps fs) -> unrelated "Effects"%string (cp_label c).
Proof.
  pose proof (wn_top _ W) as T. unfold top_labels in T. inversion T as [|x y H T2]; subst. apply FOP_app in T2. destruct T2 as [A [B C]]. rewrite Forall_forall in H.
  split; auto. split; auto. split; [intros; apply C; apply in_map; auto|]. split; intros; apply H; apply in_or_app; [left|right]; apply in_map; auto.
Qed.
Lemma bus_label_used : forall l, In l (bus_labels fs) -> exists b, used_bus fs b /\ l = b_lab b.
Proof.
  intros l H. unfold bus_labels in H. apply in_map_iff in H. destruct H as [[c f] [<- H]]. apply all_flows_In in H. destruct H as [Hc Hf]. exists (f_bus f). split; auto. exists c, f. auto.
Qed.
Lemma flow_full_of : forall l, In l (flow_fulls fs) -> exists c f, In c (fs_comps fs) /\ In f (cp_flows c) /\ l = flow_full (cp_label c) (f_lab f).
Proof. intros l H. unfold flow_fulls in H. apply in_map_iff in H. destruct H as [[c f] [<- H]]. apply all_flows_In in H. destruct H as [Hc Hf]. exists c, f. auto. Qed.
Lemma top_comp : forall c, In c (fs_comps fs) -> In (cp_label c) (top_labels fs).
Proof. intros c H. right. apply in_or_app. right. apply in_map. exact H. Qed.
Lemma top_effect : forall e, In e (fs_effects fs) -> In (e_label e) (top_labels fs).
Proof. intros c H. right. apply in_or_app. left. apply in_map. exact H. Qed.
Lemma sees_flow : forall c l, In c (fs_comps fs) -> visible_flow fs (flow_full (cp_label c) l) = true.
Proof.
  intros c l Hc. unfold visible_flow. rewrite mem_str_none; [reflexivity|]. intros H. apply bus_label_used in H. destruct H as [b [U E]].
  destruct (wn_bus _ W _ _ U (top_comp _ Hc)) as [_ [_ C]]. apply C. rewrite <- E. apply full_continued.
Qed.
Lemma sees_effect : forall e, In e (fs_effects fs) -> visible_effect fs (e_label e) = true.
Proof.
  intros e He. destruct wn_parts as [_ [_ [EC _]]]. unfold visible_effect. rewrite !mem_str_none; [reflexivity| |].
  - intros H. apply bus_label_used in H. destruct H as [b [U E]]. destruct (wn_bus _ W _ _ U (top_effect _ He)) as [D _]. congruence.
  - intros H. apply flow_full_of in H. destruct H as [c [f [Hc [_ E]]]]. destruct (EC _ _ He Hc) as [_ [_ C]]. apply C. rewrite E. apply full_continued.
Qed.
Lemma sees_comp : forall c, In c (fs_comps fs) -> visible_comp fs (cp_label c) = true.
Proof.
  intros c Hc. destruct wn_parts as [_ [CC [EC _]]]. unfold visible_comp. rewrite !mem_str_none; [reflexivity| | |].
  - intros H. apply bus_label_used in H. destruct H as [b [U E]]. destruct (wn_bus _ W _ _ U (top_comp _ Hc)) as [D _]. congruence.
  - intros H. apply flow_full_of in H. destruct H as [c' [f [Hc' [_ E]]]].
    destruct (string_dec (cp_label c') (cp_label c)) as [D|D]; [rewrite <- D in E; symmetry in E; exact (full_other _ _ E)|].
    assert (U : unrelated (cp_label c') (cp_label c)) by (apply (FOP_sym_in unrelated _ unrelated_sym CC); auto; apply in_map; auto).
    destruct U as [_ [U _]]. apply U. rewrite E. apply full_continued.
  - intros H. unfold effect_labels in H. apply in_map_iff in H. destruct H as [e [E He]]. destruct (EC _ _ He Hc) as [D _]. congruence.
Qed.
End Labels.

(** Labels of the buses in use are different. *)
Lemma dict_nodup : forall {A} k (v : A) d, NoDup (map fst d) -> NoDup (map fst (dict_set k v d)).
Proof.
  intros A k v d. induction d as [|[j w] d IH]; cbn [dict_set map fst]; intros N; [repeat constructor; auto|]. inversion N; subst. destruct (String.eqb k j) eqn:E; [constructor; auto|].
  cbn [map fst]. constructor; auto. intros X. apply in_map_iff in X. destruct X as [[a b] [Ea Eb]]. cbn in Ea. subst a. apply dict_set_In in Eb. destruct Eb as [[-> _]|Eb]; [rewrite String.eqb_refl in E; discriminate|].
  apply H1. apply in_map_iff. exists (j, b). auto.
Qed.
Lemma buses_nodup : forall ord fs, NoDup (map b_lab (buses ord fs)).
Proof.
  intros ord fs. unfold buses. set (l := ord _).
  assert (G : forall l d, NoDup (map fst d) -> NoDup (map fst (fold_left (fun d i => match bus_of_flow fs i with Some b => dict_set (b_lab b) b d | None => d end) l d))).
  { clear l. induction l as [|i l IH]; cbn [fold_left]; intros d N; auto. apply IH. destruct (bus_of_flow fs i); auto. apply dict_nodup. exact N. }
  specialize (G l [] (NoDup_nil _)). rewrite map_map. erewrite map_ext_in; [exact G|]. intros [k b] H. apply (fold_entries fs l []) in H; [|intros ? ? []]. cbn. symmetry. apply H.
Qed.
Lemma bus_pairs : forall ord fs, well_named fs -> ForallOrdPairs (fun a b => split_ (words (b_lab a)) (words (b_lab b))) (buses ord fs).
Proof.
  intros ord fs W. pose proof (buses_nodup ord fs) as N. assert (U : forall b, In b (buses ord fs) -> used_bus fs b) by (intros; eapply buses_used; eauto).
  induction (buses ord fs) as [|b l IH]; constructor.
  - apply Forall_forall. intros b' Hb. apply unrelated_split. apply (wn_buses _ W); try (apply U; cbn; auto). intros <-. cbn [map] in N. inversion N; subst. apply H1. apply in_map. exact Hb.
  - cbn [map] in N. inversion N; subst. apply IH; auto. intros; apply U; right; auto.
Qed.

(** ** Time *)
Lemma ctx_total : forall cf ord fs idx, (2 <= steps fs idx)%nat -> (forall l i, idx = Some l -> In i l -> (i < length (fs_times fs))%nat) -> exists cx, make_ctx cf ord fs idx = Ok cx.
Proof.
  intros cf ord fs idx S R. unfold make_ctx, time_data. set (ix := match idx with Some l => l | None => seq 0 (length (fs_times fs)) end).
  assert (B : forall i, In i ix -> (i < length (fs_times fs))%nat).
  { unfold ix. destruct idx as [l|]; intros i Hi; [apply (R l); auto|]. apply in_seq in Hi. lia. }
  assert (L : length ix = steps fs idx) by (unfold ix, steps; destruct idx; [auto|apply seq_length]).
  destruct (take_idx_total _ _ B) as [ts ->]. cbn [bind]. destruct (rev ix) as [|i r] eqn:E; [apply (f_equal (@length nat)) in E; rewrite rev_length in E; cbn in E; lia|]. cbn [nth_error of_option bind].
  assert (Hi : In i ix) by (apply in_rev; rewrite E; left; auto). specialize (B i Hi).
  destruct (nth_error (fs_with_end fs) (i + 1)) eqn:E2; [cbn [of_option bind]; eauto|]. exfalso. apply nth_error_None in E2. unfold fs_with_end in E2. rewrite app_length in E2. cbn in E2. lia.
Qed.

(** ** Everything together *)
Lemma under_nodup : forall Ps l, under Ps l -> NoDup l.
Proof. intros Ps l [A _]. exact A. Qed.
Lemma NoDup_nodup_str : forall l, NoDup l -> nodup_str l = true.
Proof. intros l H. apply nodup_str_NoDup. exact H. Qed.
Lemma translate_ok : forall ds obj Ps, rooted Ps (vs_of ds) (cs_of ds) -> (exists t, translate_objective obj = Ok t) -> exists pm, system_translate ds obj = Ok pm.
Proof.
  intros ds obj Ps [A B C D] [t T]. unfold system_translate, system_variables, system_constraints.
  assert (P1 : Permutation (flat_map em_vars (system_sub_models ds)) (vs_of ds)) by (apply Permutation_flat_map_l, system_sub_models_perm).
  assert (P2 : Permutation (flat_map em_cons (system_sub_models ds)) (cs_of ds)) by (apply Permutation_flat_map_l, system_sub_models_perm).
  rewrite (NoDup_nodup_str (map v_label _)) by (eapply Permutation_NoDup; [apply Permutation_sym, Permutation_map; exact P1|eapply under_nodup; eauto]). cbn [guard bind].
  rewrite (NoDup_nodup_str (map c_label _)) by (eapply Permutation_NoDup; [apply Permutation_sym, Permutation_map; exact P2|eapply under_nodup; eauto]). cbn [guard bind].
  unfold translate_model. rewrite Forall_forall in C, D.
  destruct (mapM_ok translate_variable (fun _ _ => True) (flat_map em_vars (system_sub_models ds))) as [pv [-> _]]; [intros v V; apply (Permutation_in _ P1) in V; destruct (C _ V) as [p ->]; eauto|]. cbn [bind].
  assert (K : forall g, exists r, mapM translate_constraint (filter g (flat_map em_cons (system_sub_models ds))) = Ok r).
  { intros g. destruct (mapM_ok translate_constraint (fun _ _ => True) (filter g (flat_map em_cons (system_sub_models ds)))) as [r [-> _]]; [|eauto].
    intros c Hc. apply filter_In in Hc. destruct Hc as [Hc _]. apply (Permutation_in _ P2) in Hc. destruct (D _ Hc) as [r ->]. eauto. }
  destruct (K (fun c => match c_kind c with KIneq => false | _ => true end)) as [e ->]. cbn [bind]. destruct (K (fun c => match c_kind c with KIneq => true | _ => false end)) as [i ->]. cbn [bind]. rewrite T. cbn [bind]. eauto.
Qed.
Lemma sgood_flat : forall {A B} cx (E : A -> list (list string)) (sh : B -> list share) (l : list A) (m : list B), Forall2 (fun a b => sgood cx (E a) (sh b)) l m ->
  ForallOrdPairs (fun a b => forall x, In x (E a) -> ~ In x (E b)) l -> sgood cx (flat_map E l) (flat_map sh m).
Proof.
  intros A B cx E sh l m F. induction F as [|a b l m H F IH]; intros N; cbn [flat_map]; [apply sgood_nil|]. inversion N; subst. apply sgood_app; auto.
  intros x X Y. apply in_flat_map in Y. destruct Y as [a' [Ha Y]]. rewrite Forall_forall in H2. exact (H2 _ Ha x X Y).
Qed.
Lemma Forall2_length_ : forall {A B} (R : A -> B -> Prop) l m, Forall2 R l m -> length l = length m.
Proof. intros A B R l m F. induction F; cbn; congruence. Qed.
Lemma Forall2_map_r : forall {A B C} (R : A -> C -> Prop) (g : B -> C) l m, Forall2 (fun a b => R a (g b)) l m -> Forall2 R l (map g m).
Proof. intros A B C R g l m F. induction F; cbn [map]; constructor; auto. Qed.
Lemma Forall2_weaken : forall {A B} (R R' : A -> B -> Prop) l m, (forall a b, In a l -> R a b -> R' a b) -> Forall2 R l m -> Forall2 R' l m.
Proof. intros A B R R' l m H F. induction F; constructor; [apply H; [left; auto|auto]|]. apply IHF. intros; apply H; [right; auto|auto]. Qed.
Lemma comp_words : forall c x, In x (words (cp_label c) :: paths c) -> exists r, x = words (cp_label c) ++ r.
Proof.
  intros c x [<-|H]; [exists []; rewrite app_nil_r; reflexivity|]. unfold paths in H. apply in_map_iff in H. destruct H as [f [<- _]]. eexists. reflexivity.
Qed.
Lemma tidy_start : forall s, tidy s -> starts_ok (cat [s; "_segmented"]) = true.
Proof.
  intros s T. unfold starts_ok. change (cat [s; "_segmented"]) with (cat [s; "_"; "segmented"]). rewrite words_us. destruct (words s) as [|w ws] eqn:E; [reflexivity|]. cbn [app hd].
  destruct (String.eqb_spec w "") as [->|]; [|reflexivity]. exfalso. apply T. rewrite E. left. reflexivity.
Qed.

(** What is known once components, buses and shares have been written down. *)
Definition tops (ord : list nat -> list nat) (fs : flow_system) : list (list string) :=
  (map (fun e => words (e_label e)) (fs_effects fs) ++ [["Effects"%string]]) ++ map (fun c => words (cp_label c)) (fs_comps fs) ++ map (fun b => words (b_lab b)) (buses ord fs).
Record stage (cf : config) (ord : list nat -> list nat) (fs : flow_system) (idx : option (list nat)) (cx : ctx) (cos : list comp_out) (bos : list (emodel * list share)) : Prop := {
  stg_ctx : make_ctx cf ord fs idx = Ok cx;
  stg_len : (2 <= cx_n cx)%nat /\ cx_n cx = steps fs idx;
  stg_ids : no_dup_nat (map (fun cf => f_id (snd cf)) (all_flows fs)) = true;
  stg_comps : mapM (comp_model cx (visible_flow fs) (visible_comp fs)) (fs_comps fs) = Ok cos;
  stg_buses : mapM (fun b => i <- mapM (fun i => o <- find_fo (flat_map co_flows cos) i ;; Ok (fo_rate o)) (bus_inputs fs b) ;;
                            o <- mapM (fun i => o <- find_fo (flat_map co_flows cos) i ;; Ok (fo_rate o)) (bus_outputs fs b) ;; bus_model cx b i o) (buses ord fs) = Ok bos;
  stg_comp : Forall2 (fun c o => rooted [words (cp_label c)] (vs_of [co_tree o]) (cs_of [co_tree o])) (fs_comps fs) cos;
  stg_keys : NoDup (map sh_key (flat_map co_shares cos ++ flat_map snd bos));
  stg_names : forall sh, In sh (flat_map co_shares cos ++ flat_map snd bos) -> (share_ok cx sh /\ In ""%string (words (sh_name sh)) /\ words (sh_name sh) <> [""%string])
               /\ exists P r, In P (tops ord fs) /\ words (sh_name sh) = P ++ r;
  stg_effects : forall pen, NoDup (map sh_key ((flat_map co_shares cos ++ flat_map snd bos) ++ pen)) ->
               (forall sh, In sh pen -> share_ok cx sh /\ In ""%string (words (sh_name sh)) /\ words (sh_name sh) <> [""%string]) ->
               exists em obj, effects_model cx (visible_effect fs) ((flat_map co_shares cos ++ flat_map snd bos) ++ pen) = Ok (em, obj)
                 /\ rooted (tops ord fs) (vs_of (em :: map co_tree cos ++ map fst bos)) (cs_of (em :: map co_tree cos ++ map fst bos)) /\ exists t, translate_objective obj = Ok t
}.
Theorem system_stage : forall cf ord fs idx, (forall l x, In x (ord l) <-> In x l) -> well_named fs -> valid_data fs idx -> exists cx cos bos, stage cf ord fs idx cx cos bos.
Proof.
  intros cf ord fs idx OR W V. destruct V as [S2 RG NF NI VE [oe [Ho Hob]] VC VB].
  destruct (ctx_total cf ord fs idx S2 RG) as [cx Ecx]. destruct (make_ctx_spec _ _ _ _ _ Ecx) as [CK [CN [CI [_ [_ [CE [_ [CB [CO CP]]]]]]]]].
  destruct (wn_parts fs W) as [UE [UC [UEC [UFE UFC]]]].
  pose proof (got_ready fs idx cx CI CN CK S2 RG) as R. set (N := length (fs_times fs)) in *.
  assert (ND : NoDup (map e_label (fs_effects fs))) by (apply (FOP_NoDup _ _ unrelated_irrefl UE)).
  assert (ST : setting cx N).
  { split; [exact R|split; rewrite CE; auto|]. rewrite CE. intros e He. apply tidy_start. apply (wn_effect _ W). exact He. }
  assert (EO : effects_ok cx N).
  { split; rewrite ?CE.
    - split; rewrite CE; auto.
    - intros e He. destruct (VE _ He) as [[A1 A2] [B1 B2] [C1 C2]]. split; [split; apply full_fito; auto|]. split; split; auto.
      + intros k p K. destruct (B2 _ _ K) as [M F]. split; [apply (means_known fs cx CE); auto|apply full_fit; auto].
      + intros k a K. destruct (C2 _ _ K) as [M [q ->]]. split; [apply (means_known fs cx CE); auto|reflexivity].
    - apply (wn_effect _ W).
    - apply FOP_unmap in UE. eapply FOP_impl; [|exact UE]. intros a b. apply unrelated_split.
    - intros e He. apply split_sym. apply (unrelated_split "Effects"). auto.
    - unfold objective_effect. destruct (find e_obj (fs_effects fs)) as [e|] eqn:E; [eauto|]. rewrite (find_none _ _ E _ Ho) in Hob. discriminate. }
  assert (AF : map (fun cf => f_id (snd cf)) (all_flows fs) = map f_id (flat_map cp_flows (fs_comps fs))).
  { unfold all_flows. clear. induction (fs_comps fs) as [|c l IH]; auto. cbn [flat_map]. rewrite !map_app, IH. f_equal. rewrite map_map. reflexivity. }
  assert (NDF : NoDup (map (fun cf => f_id (snd cf)) (all_flows fs))) by (rewrite AF; exact NF).
  assert (NN : no_dup_nat (map (fun cf => f_id (snd cf)) (all_flows fs)) = true) by (unfold no_dup_nat; apply Nat.eqb_eq; rewrite nodup_fixed_point; auto).
  (* components *)
  destruct (mapM_ok (comp_model cx (visible_flow fs) (visible_comp fs)) (fun c o => comp_fine cx (map_comp (effective cf fs idx c) c) o) (fs_comps fs)) as [cos [Ec Fc]].
  { intros c Hc. pose proof (NoDup_flat_map_part _ _ _ c NF Hc) as NC. destruct (wn_flow _ W c Hc) as [F1 F2]. pose proof (VC _ Hc) as VCc.
    eapply comp_ok; [exact ST| |apply sees_comp; auto| | | |].
    - intros l x. rewrite CO. apply OR.
    - apply (prepared_ok fs idx cx cf CI CN CB CK S2 RG); auto. intros r p K. pose proof (vc_kind _ _ _ VCc) as VK. unfold valid_kind in VK. rewrite K in VK. apply VK. reflexivity.
    - apply comp_ready; auto. apply (wn_comp _ W). exact Hc.
    - apply kind_ready; auto.
    - intros f _. apply (sees_flow fs W c (f_lab f) Hc). }
  assert (FL : forall o, In o (flat_map co_flows cos) -> v_len (fo_rate o) = cx_n cx).
  { intros o Ho'. apply in_flat_map in Ho'. destruct Ho' as [co [Hco Ho']]. destruct (Forall2_In_r _ _ _ _ Fc Hco) as [c [_ FI]]. destruct (Forall2_In_r _ _ _ _ (cf_flows _ _ _ FI) Ho') as [f [_ FF]]. apply (ff_rate _ _ _ _ FF). }
  assert (ID : forall c f, In c (fs_comps fs) -> In f (cp_flows c) -> exists o, find_fo (flat_map co_flows cos) (f_id f) = Ok o /\ v_len (fo_rate o) = cx_n cx).
  { intros c f Hc Hf. destruct (Forall2_In_l _ _ _ _ Fc Hc) as [co [Hco FI]]. pose proof (cf_flows _ _ _ FI) as FF. rewrite mapped_flows in FF.
    destruct (Forall2_In_l _ _ _ _ FF (in_map _ _ _ Hf)) as [o [Ho' F]]. unfold find_fo.
    destruct (find (fun o0 => Nat.eqb (fo_id o0) (f_id f)) (flat_map co_flows cos)) as [o'|] eqn:E.
    - exists o'. split; [reflexivity|]. apply FL. apply find_some in E. apply E.
    - exfalso. assert (X : In o (flat_map co_flows cos)) by (apply in_flat_map; eauto). pose proof (find_none _ _ E _ X) as Z. cbv beta in Z. rewrite (ff_id _ _ _ _ F) in Z. cbn [effective f_id] in Z. rewrite Nat.eqb_refl in Z. discriminate. }
  assert (RT : forall ids, (forall i, In i ids -> exists c f, In c (fs_comps fs) /\ In f (cp_flows c) /\ f_id f = i) ->
      exists vs, mapM (fun i => o <- find_fo (flat_map co_flows cos) i ;; Ok (fo_rate o)) ids = Ok vs /\ (forall v, In v vs -> v_len v = cx_n cx) /\ (ids <> [] -> vs <> [])).
  { intros ids H. destruct (mapM_ok (fun i => o <- find_fo (flat_map co_flows cos) i ;; Ok (fo_rate o)) (fun _ v => v_len v = cx_n cx) ids) as [vs [E F]].
    - intros i Hi. destruct (H _ Hi) as [c [f [Hc [Hf <-]]]]. destruct (ID _ _ Hc Hf) as [o [-> L]]. cbn [bind]. eauto.
    - exists vs. split; auto. split; [apply (Forall2_right _ _ _ _ F); auto|]. intros NE ->. inversion F. congruence. }
  (* buses *)
  destruct (mapM_ok (fun b => i <- mapM (fun i => o <- find_fo (flat_map co_flows cos) i ;; Ok (fo_rate o)) (bus_inputs fs b) ;;
                              o <- mapM (fun i => o <- find_fo (flat_map co_flows cos) i ;; Ok (fo_rate o)) (bus_outputs fs b) ;; bus_model cx b i o)
     (fun b r => rooted [words (b_lab b)] (vs_of [fst r]) (cs_of [fst r]) /\ sgood cx [words (b_lab b)] (snd r)) (buses ord fs)) as [bos [Eb Fb]].
  { intros b Hb. apply buses_used in Hb.
    destruct (RT (bus_inputs fs b)) as [vi [-> [Li NEi]]]; [intros i Hi; unfold bus_inputs in Hi; apply in_flat_map in Hi; destruct Hi as [c [Hc Hi]]; apply in_map_iff in Hi; destruct Hi as [f [<- Hf]]; apply filter_In in Hf; exists c, f; split; auto; split; auto; apply in_or_app; right; apply Hf|].
    destruct (RT (bus_outputs fs b)) as [vo [-> [Lo NEo]]]; [intros i Hi; unfold bus_outputs in Hi; apply in_flat_map in Hi; destruct Hi as [c [Hc Hi]]; apply in_map_iff in Hi; destruct Hi as [f [<- Hf]]; apply filter_In in Hf; exists c, f; split; auto; split; auto; apply in_or_app; left; apply Hf|].
    cbn [bind]. destruct (bus_ok cx N b vi vo R) as [m [shs [E [A B]]]].
    - apply full_fito. apply VB. exact Hb.
    - intros v Hv. apply in_app_or in Hv. destruct Hv; auto.
    - destruct Hb as [c [f [Hc [Hf <-]]]]. unfold cp_flows in Hf. apply in_app_or in Hf. intros Z. apply app_eq_nil in Z. destruct Z as [Z1 Z2]. destruct Hf as [Hf|Hf].
      + apply NEo; [|exact Z2]. intros Z. assert (X : In (f_id f) (bus_outputs fs (f_bus f))); [|rewrite Z in X; destruct X]. unfold bus_outputs. apply in_flat_map. exists c. split; auto. apply in_map, filter_In. split; auto. apply Nat.eqb_refl.
      + apply NEi; [|exact Z1]. intros Z. assert (X : In (f_id f) (bus_inputs fs (f_bus f))); [|rewrite Z in X; destruct X]. unfold bus_inputs. apply in_flat_map. exists c. split; auto. apply in_map, filter_In. split; auto. apply Nat.eqb_refl.
    - rewrite E. exists (m, shs). auto. }
  (* shares *)
  set (Ec' := fun c => words (cp_label c) :: paths (map_comp (effective cf fs idx c) c)).
  assert (PW : forall c x, In x (Ec' c) -> exists r, x = words (cp_label c) ++ r) by (intros c x X; apply (comp_words (map_comp (effective cf fs idx c) c) x X)).
  assert (SG1 : sgood cx (flat_map Ec' (fs_comps fs)) (flat_map co_shares cos)).
  { apply sgood_flat.
    - eapply Forall2_weaken; [|exact Fc]. intros c o _ FI. apply (cf_shares _ _ _ FI).
    - apply FOP_unmap in UC. eapply FOP_impl; [|exact UC]. intros a b U x X Y. apply PW in X, Y. destruct X as [r X], Y as [r' Y]. apply (unrelated_split _ _ U r r'). congruence. }
  assert (SG2 : sgood cx (flat_map (fun b => [words (b_lab b)]) (buses ord fs)) (flat_map snd bos)).
  { apply sgood_flat.
    - eapply Forall2_weaken; [|exact Fb]. intros b o _ [_ H]. exact H.
    - eapply FOP_impl; [|apply (bus_pairs ord fs W)]. intros a b U x [<-|[]] [E|[]]. apply (U [] []). rewrite E. reflexivity. }
  assert (SG : sgood cx (flat_map Ec' (fs_comps fs) ++ flat_map (fun b => [words (b_lab b)]) (buses ord fs)) (flat_map co_shares cos ++ flat_map snd bos)).
  { apply sgood_app; auto. intros x X Y. apply in_flat_map in X, Y. destruct X as [c [Hc X]], Y as [b [Hb [<-|[]]]]. apply PW in X. destruct X as [r X].
    apply buses_used in Hb. apply (unrelated_split _ _ (wn_bus _ W _ _ Hb (top_comp _ _ Hc)) [] r). rewrite app_nil_r. exact X. }
  assert (NE : forall E, In E (flat_map Ec' (fs_comps fs) ++ flat_map (fun b => [words (b_lab b)]) (buses ord fs)) -> E <> []).
  { intros E H. apply in_app_or in H. destruct H as [H|H]; apply in_flat_map in H; destruct H as [a [_ H]].
    - apply PW in H. destruct H as [r ->]. intros Z. apply app_eq_nil in Z. destruct Z as [Z _]. exact (words_ne _ Z).
    - destruct H as [<-|[]]. apply words_ne. }
  assert (SE : forall e, In e (cx_effects cx) -> visible_effect fs (e_label e) = true) by (rewrite CE; intros e He; apply sees_effect; auto).
  assert (R1 : rooted (map (fun c => words (cp_label c)) (fs_comps fs)) (vs_of (map co_tree cos)) (cs_of (map co_tree cos))).
  { apply rooted_join.
    - apply Forall2_map_r. eapply Forall2_weaken; [|exact Fc]. intros c o _ FI. apply (cf_tree _ _ _ FI).
    - apply FOP_unmap in UC. eapply FOP_impl; [|exact UC]. intros a b. apply unrelated_split. }
  assert (R2 : rooted (map (fun b => words (b_lab b)) (buses ord fs)) (vs_of (map fst bos)) (cs_of (map fst bos))).
  { apply rooted_join; [|apply bus_pairs; exact W]. apply Forall2_map_r. eapply Forall2_weaken; [|exact Fb]. intros b o _ [H _]. exact H. }
  assert (UB : forall b, In b (buses ord fs) -> used_bus fs b) by (intros; eapply buses_used; eauto).
  assert (TN : forall sh, In sh (flat_map co_shares cos ++ flat_map snd bos) -> exists P r, In P (tops ord fs) /\ words (sh_name sh) = P ++ r).
  { intros sh H. destruct (sg_ok _ _ _ SG _ H) as [_ [E [x [HE [Wn _]]]]]. apply in_app_or in HE. destruct HE as [HE|HE]; apply in_flat_map in HE; destruct HE as [z [Hz HE]].
    - apply PW in HE. destruct HE as [r HE]. exists (words (cp_label z)), (r ++ ""%string :: x). split; [|rewrite Wn, HE, <- app_assoc; reflexivity].
      unfold tops. apply in_or_app. right. apply in_or_app. left. apply in_map_iff. exists z. auto.
    - destruct HE as [<-|[]]. exists (words (b_lab z)), (""%string :: x). split; [|exact Wn]. unfold tops. apply in_or_app. right. apply in_or_app. right. apply in_map_iff. exists z. auto. }
  exists cx, cos, bos. split; auto.
  - split; [apply (rd_n _ _ R)|exact CN].
  - eapply Forall2_weaken; [|exact Fc]. intros c o _ FI. apply (cf_tree _ _ _ FI).
  - apply SG.
  - intros sh H. split; [eapply sgood_names; eauto|auto].
  - intros pen NP HP.
    destruct (effects_total_ cx N (visible_effect fs) _ R EO SE NP) as [em [obj [Ee [Re Oe]]]].
    { intros sh H. apply in_app_or in H. destruct H as [H|H]; [eapply sgood_names; eauto|auto]. }
    rewrite CE in Re. exists em, obj. split; [exact Ee|]. split; [|exact Oe].
    change (em :: map co_tree cos ++ map fst bos) with ([em] ++ (map co_tree cos ++ map fst bos)). rewrite !vs_app, !cs_app.
    unfold tops. apply rooted_app; [exact Re|apply rooted_app; [exact R1|exact R2|]|].
    * intros w w' Hw Hw'. apply in_map_iff in Hw, Hw'. destruct Hw as [c [<- Hc]], Hw' as [b [<- Hb]]. apply split_sym, unrelated_split. apply (wn_bus _ W); auto. apply top_comp. exact Hc.
    * intros w w' Hw Hw'. apply in_app_or in Hw, Hw'. destruct Hw as [Hw|[<-|[]]].
      ++ apply in_map_iff in Hw. destruct Hw as [e [<- He]]. destruct Hw' as [Hw'|Hw']; apply in_map_iff in Hw'; destruct Hw' as [z [<- Hz]].
        ** apply unrelated_split. auto.
        ** apply split_sym, unrelated_split. apply (wn_bus _ W); auto. apply top_effect. exact He.
      ++ destruct Hw' as [Hw'|Hw']; apply in_map_iff in Hw'; destruct Hw' as [z [<- Hz]].
        ** apply (unrelated_split "Effects"). auto.
        ** apply split_sym. apply (unrelated_split _ "Effects"). apply (wn_bus _ W); auto. left. reflexivity.
Qed.
Theorem system_total : forall cf ord fs idx, (forall l x, In x (ord l) <-> In x l) -> well_named fs -> valid_data fs idx -> exists pm, build cf ord fs idx = Ok pm.
Proof.
  intros cf ord fs idx OR W V. destruct (system_stage cf ord fs idx OR W V) as [cx [cos [bos S]]]. unfold build, build_system.
  rewrite (stg_ctx _ _ _ _ _ _ _ S). cbn [bind]. rewrite (stg_ids _ _ _ _ _ _ _ S). cbn [guard bind]. rewrite (stg_comps _ _ _ _ _ _ _ S). cbn [bind]. rewrite (stg_buses _ _ _ _ _ _ _ S). cbn [bind].
  destruct (stg_effects _ _ _ _ _ _ _ S []) as [em [obj [E [R T]]]]; [rewrite app_nil_r; apply (stg_keys _ _ _ _ _ _ _ S)|intros sh []|]. rewrite app_nil_r in E. rewrite E. cbn [bind].
  eapply translate_ok; [exact R|exact T].
Qed.
