(** Claim C91: when nothing connects the steps of the horizon, a segmented calculation finds the optimum: what the optimal segments are put together to
    is an optimal solution of the ordinary calculation. *)
From Coq Require Import Permutation.
From Verif Require Import Base BaseFacts MathModel Spec Structure Params Features Elements System Library SysSpec AdmitSpec CtxFacts NavFacts PropsComp PropsFlow PropsOnOff
     PropsEffects Tree PropsTree Values Results Segmented PropsRepeat SegmentedFacts PropsSegmented PropsTrace Example PlanSpec PlanSame PlanSound PlanSys PlanCheck ExamplePoints PropsPlan
     AggFacts SegWitness PropsSegLaws PropsParts PropsSegWorse PropsPrices.

(** ** Specification *)

(** Nothing connects two steps: as in C88, and there are no storages, no on/off behaviour of any kind and no transmissions with absolute losses. *)
Record memoryless (cf : config) (fs : flow_system) : Prop := {
  ml_untied : untied cf fs;
  ml_plain : forall c f, In c (fs_comps fs) -> In f (cp_flows c) -> governed fs None c f = None;
  ml_store : forall c s, In c (fs_comps fs) -> cp_kind c <> StorageC s;
  ml_loss : no_absolute_losses fs
}.

(** What step [t] costs: the effect [e], and the penalties of the buses [bl]. *)
Definition bus_price_at (fs : flow_system) (idx : option (list nat)) (x : asg) (b : bus) (t : nat) : Q :=
  match b_penalty b with
  | Some p => value idx p t * (excess x b "excess_input" t + excess x b "excess_output" t) * hours fs idx t
  | None => 0
  end.
Definition step_cost (fs : flow_system) (idx : option (list nat)) (x : asg) (e : effect) (bl : list bus) (t : nat) : Q :=
  op_at x e t + Qsum (map (fun b => bus_price_at fs idx x b t) bl).

(** What the effects pass on to [e] of the sums [iv]. *)
Definition passed_on (fs : flow_system) (iv : effect -> Q) (e : effect) : Q :=
  Qsum (map (fun e' => Qsum (map (fun kd : nat * numeric => if Nat.eqb (fst kd) (e_id e) then at_ (snd kd) 0 * iv e' else 0) (e_share_inv e'))) (fs_effects fs)).

Lemma prices_by_step : forall s idx w bl, sumn (steps s idx) (fun t => Qsum (map (fun b => bus_price_at s idx w b t) bl)) == Qsum (map (bus_price s idx w) bl).
Proof.
  intros s idx w bl. induction bl as [|b l IH]; [cbn [map Qsum fold_right]; apply sumn_none; reflexivity|]. cbn [map]. rewrite Qsum_cons, <- IH.
  rewrite (sumn_ext _ _ (fun t => bus_price_at s idx w b t + Qsum (map (fun b => bus_price_at s idx w b t) l))) by (intros; rewrite Qsum_cons; reflexivity).
  rewrite sumn_plus. apply Qplus_comp; [|reflexivity]. unfold bus_price, bus_price_at. destruct (b_penalty b); [apply sumn_ext; intros; ring|apply sumn_none; reflexivity].
Qed.
Lemma cost_by_step : forall s idx x e bl, sumn (steps s idx) (fun t => step_cost s idx x e bl t) == sumn (steps s idx) (fun t => op_at x e t) + Qsum (map (bus_price s idx x) bl).
Proof. intros. unfold step_cost. rewrite sumn_plus, prices_by_step. reflexivity. Qed.
Lemma plan_by_step : forall cf s idx x e bl, obeys cf s idx x -> all_buses s bl -> In e (fs_effects s) -> plan_cost x e == sumn (steps s idx) (fun t => step_cost s idx x e bl t) + inv_sum x e.
Proof.
  intros cf s idx x e bl O [ND U] He. rewrite cost_by_step. destruct (ob_effect _ _ _ _ O e He) as [_ [H _]]. pose proof (ob_penalty _ _ _ _ O bl ND U) as P. unfold plan_cost. rewrite H, P. ring.
Qed.

(** ** From laws of single steps to a plan *)
Section Steps.
Variables (cf : config) (s : flow_system) (idx : option (list nat)) (w : asg) (z : nat -> asg) (iv0 : effect -> Q).
Local Notation n := (steps s idx).
Hypothesis SE : sensible cf s idx.
Hypothesis NI : investments cf s = [].
Hypothesis NF : forall c f, In c (fs_comps s) -> In f (cp_flows c) -> f_fh_min f = None /\ f_fh_max f = None /\ f_lf_min f = None /\ f_lf_max f = None.
Hypothesis NG : forall c f, In c (fs_comps s) -> In f (cp_flows c) -> governed s idx c f = None.
Hypothesis NO : forall c, In c (fs_comps s) -> cp_onoff c = None.
Hypothesis NS' : forall c st, In c (fs_comps s) -> cp_kind c <> StorageC st.
Hypothesis NL : no_absolute_losses s.
Hypothesis NE : forall e, In e (fs_effects s) -> e_min_op e = None /\ e_max_op e = None /\ e_min_inv e = None /\ e_max_inv e = None /\ e_min_tot e = None /\ e_max_tot e = None.
Hypothesis TA : totals_apart s.
Hypothesis IDS : forall c, In c (fs_comps s) -> NoDup (map f_id (cp_flows c)).
Hypothesis L : forall t, (t < n)%nat -> step_laws cf s idx w (z t) t.
Hypothesis IV : forall e, In e (fs_effects s) -> iv0 e == passed_on s iv0 e.
Hypothesis HL : forall e t, In e (fs_effects s) -> (t < n)%nat -> at_least (option_map (fun p => value idx p t * hours s idx t) (e_min_ph e)) (op_at w e t)
  /\ at_most (option_map (fun p => value idx p t * hours s idx t) (e_max_ph e)) (op_at w e t).

Lemma s_size : forall c f, In c (fs_comps s) -> In f (cp_flows c) -> exists q, sized cf c f = SzNum q.
Proof.
  intros c f Hc Hf. destruct (sized cf c f) as [q|iv] eqn:E; [eauto|]. exfalso.
  assert (H : In (flow_name c f, iv) (investments cf s)).
  { unfold investments. apply in_flat_map. exists c. split; [exact Hc|]. apply in_app_iff. left. apply in_flat_map. exists f. split; [exact Hf|].
    unfold flow_investment. rewrite E. left. reflexivity. }
  rewrite NI in H. exact H.
Qed.
Lemma s_flow : forall c f, In c (fs_comps s) -> In f (cp_flows c) -> flow_rule cf s idx w c f.
Proof.
  intros c f Hc Hf. destruct (s_size c f Hc Hf) as [q SZ]. pose proof (NG c f Hc Hf) as G.
  assert (WS : forall y, size_of cf y c f = given_size cf q) by (intros y; unfold size_of; rewrite SZ; reflexivity).
  assert (R1 : fst (size_range cf (sized cf c f)) = given_size cf q) by (rewrite SZ; reflexivity).
  assert (R2 : snd (size_range cf (sized cf c f)) = given_size cf q) by (rewrite SZ; reflexivity).
  split; [|intros H; exfalso; apply H; exact G]. constructor; try (intros H; exfalso; apply H; exact G); try (intros iv E; congruence); try (intros o E; congruence).
  - intros _ t Ht. unfold within_limits, rel_min, rel_max. rewrite R1, R2. destruct (f_profile f) as [p|] eqn:P.
    + pose proof (law_profile _ _ _ _ _ _ (L t Ht) c f p Hc Hf G P) as LP. rewrite WS in LP. rewrite LP. split; apply Qle_refl.
    + pose proof (law_limits _ _ _ _ _ _ (L t Ht) c f Hc Hf G P) as LP. rewrite WS in LP. exact LP.
  - destruct (NF c f Hc Hf) as [A1 [A2 [A3 A4]]]. rewrite A1, A2, A3, A4. cbv zeta. split; [discriminate|]. split; [discriminate|]. split; discriminate.
Qed.
Lemma s_own : forall c, In c (fs_comps s) -> own_rule cf s idx w c.
Proof.
  intros c Hc. destruct (se_shape _ _ _ SE c Hc) as [_ SH]. unfold own_rule. destruct (cp_kind c) as [|eqs|segs|st|rel abs] eqn:K.
  - exact Logic.I.
  - intros factors t Hf Ht. eapply (law_conversion _ _ _ _ _ _ (L t Ht)); eauto.
  - intros t Ht. exact (law_segments _ _ _ _ _ _ (L t Ht) c segs Hc K).
  - exfalso. exact (NS' c st Hc K).
  - intros in1 out1 in2 out2 Ei Eo. destruct SH as [label [i1 [o1 [i2 [o2 [oo_ [prevent EC]]]]]]]. rewrite EC in Ei, Eo. cbn in Ei, Eo.
    injection Ei as -> Ei. injection Eo as -> Eo.
    assert (i2 = in2) by (destruct i2, in2; simpl in Ei; congruence). assert (o2 = out2) by (destruct o2, out2; simpl in Eo; congruence). subst i2 o2.
    subst c. assert (T : forall t, (t < n)%nat -> _) by (intros t Ht; exact (law_transmission _ _ _ _ _ _ (L t Ht) _ _ _ _ _ _ _ _ _ Hc)). cbv zeta in T.
    split; [intros t Ht; exact (proj1 (T t Ht))|]. destruct in2 as [i2|]; [|exact Logic.I]. destruct out2 as [o2|]; [|exact Logic.I]. split.
    + intros t Ht. destruct (proj2 (T t Ht) i2 eq_refl) as [o [EO LL]]. injection EO as <-. exact LL.
    + intros iv E. exfalso. set (c := transmission label in1 out1 (Some i2) (Some o2) rel abs oo_ prevent) in *.
      destruct (s_size c in1 Hc (or_introl eq_refl)) as [q SZ].
      destruct (s_size c i2 Hc (or_intror (or_introl eq_refl))) as [q2 SZ2]. unfold sized, c in SZ, SZ2. cbn in SZ, SZ2. rewrite E in SZ, SZ2. rewrite Nat.eqb_refl in SZ2.
      destruct (Nat.eqb (f_id in1) (f_id i2)); destruct (f_size i2); discriminate.
Qed.
Lemma steps_plan : forall bl, all_buses s bl -> exists y, same_parts cf s idx w y /\ obeys cf s idx y
  /\ (forall e, In e (fs_effects s) -> plan_cost y e == sumn n (fun t => step_cost s idx w e bl t) + iv0 e).
Proof.
  intros bl [ND U]. destruct TA as [NB NT].
  set (ops e := sumn n (fun t => op_at w e t)). set (pen := Qsum (map (bus_price s idx w) bl)).
  set (y := given (totals_table s (fun e t => op_at w e t) ops iv0 (fun e => ops e + iv0 e) pen) w). exists y.
  destruct (totals_known s (fun e t => op_at w e t) ops iv0 (fun e => ops e + iv0 e) pen w NT) as [R P]. fold y in R, P.
  assert (SP : same_parts cf s idx w y).
  { apply agree_same. intros l t Hl. unfold y. rewrite given_out; [reflexivity|]. rewrite totals_fst. auto. }
  split; [exact SP|]. split.
  2:{ intros e He. destruct (R e He) as [_ [R2 [R3 _]]]. unfold plan_cost. rewrite R2, R3, P. unfold ops, pen, step_cost. rewrite sumn_plus.
      rewrite prices_by_step, <- !Qplus_assoc. apply Qplus_comp; [reflexivity|apply Qplus_comm]. }
  assert (N1 : (1 <= n)%nat) by (pose proof (se_steps _ _ _ SE); lia).
  assert (TG : forall c rel p f, In c (fs_comps s) -> cp_kind c = TransmissionC rel (Some p) -> In f (cp_in c) -> governed s idx c f <> None).
  { intros c rel p f Hc K _. exfalso. pose proof (NL c rel (Some p) Hc K). discriminate. }
  assert (OP : obeys_parts cf idx s w).
  { split; [exact s_flow|]. split; [intros c p Hc E; rewrite (NO c Hc) in E; discriminate|]. split; [|split; [exact s_own|split]].
    - intros c Hc f h t Hf Hh NEQ P1 P2 Ht. apply (law_exclusive _ _ _ _ _ _ (L t Ht) c f h Hc Hf Hh); auto. intros EI. apply NEQ. exact (same_id _ _ _ (IDS c Hc) Hf Hh EI).
    - intros name iv H. rewrite NI in H. contradiction.
    - intros b UB t Ht. exact (law_bus _ _ _ _ _ _ (L t Ht) b (se_buses _ _ _ SE) UB). }
  destruct (parts_same cf idx s w y SP N1 TG OP) as [O1 [O2 [O3 [O4 [O5 O6]]]]]. constructor; auto.
  - intros e He. destruct (R e He) as [R1 [R2 [R3 R4]]]. destruct (NE e He) as [L1 [L2 [L3 [L4 [L5 L6]]]]].
    split; [|split; [|split; [|split]]].
    + intros t Ht. rewrite R1, (law_costs _ _ _ _ _ _ (L t Ht) e He). apply Qplus_comp.
      * apply Qsum_map_eq. intros c Hc. symmetry. apply (costs_same cf s idx w y SP); auto.
      * unfold op_from_effects. apply Qsum_map_eq. intros e' He'. rewrite (proj1 (R e' He') t). reflexivity.
    + rewrite R2. apply sumn_ext. intros t Ht. rewrite R1. reflexivity.
    + rewrite R3, NI. cbn [map Qsum fold_right]. rewrite Qplus_0_l, (IV e He). unfold passed_on, inv_from_effects. apply Qsum_map_eq. intros e' He'.
      rewrite (proj1 (proj2 (proj2 (R e' He')))). reflexivity.
    + rewrite R2, R3, R4. lra.
    + rewrite L1, L2, L3, L4, L5, L6. unfold at_least, at_most. do 6 (split; [discriminate|]). intros t Ht. rewrite R1. apply HL; auto.
  - intros bl' ND' U'. rewrite P. assert (PE : Permutation bl bl') by (apply NoDup_Permutation; auto; intros b; rewrite U, U'; reflexivity).
    unfold pen. rewrite (Qsum_perm _ _ (Permutation_map (bus_price s idx w) PE)). apply Qsum_map_eq. intros b Hb. symmetry. apply (price_same cf s idx w y SP). apply U'. exact Hb.
Qed.
End Steps.

(** ** From the horizon to a segment *)
Section Window.
Variables (cf : config) (fs fs2 : flow_system) (a m : nat).
Hypothesis ML : memoryless cf fs.
Hypothesis SE : sensible cf fs None.
Hypothesis RS : restarted fs fs2.
Hypothesis HR : (a + m <= length (fs_times fs))%nat.
Local Notation idx := (Some (seq a m)).

Lemma w_na : forall c rel p, In c (fs_comps fs) -> cp_kind c = TransmissionC rel (Some p) -> any_loss fs (Some (seq a m)) p = any_loss fs None p.
Proof. intros c rel p Hc K. pose proof (ml_loss _ _ ML c rel (Some p) Hc K). discriminate. Qed.
Lemma w_comp : forall c', In c' (fs_comps fs2) -> exists c p i, In c (fs_comps fs) /\ c' = with_starts p i c.
Proof.
  intros c Hc. destruct RS as [_ R]. clear -R Hc. induction R as [|u v l l' [p [i ->]] R IH]; [destruct Hc|]. destruct Hc as [<-|Hc]; [exists u, p, i; cbn; auto|].
  destruct (IH Hc) as [c0 [p' [i' [H1 H2]]]]. exists c0, p', i'. cbn; auto.
Qed.
Lemma w_flow : forall p i c f', In f' (cp_flows (with_starts p i c)) -> exists f, f' = with_prev (p f) f /\ In f (cp_flows c).
Proof. intros p i c f' H. rewrite flows_starts in H. apply in_map_iff in H. destruct H as [f [<- Hf]]. eauto. Qed.
Lemma w_governed : forall c' f', In c' (fs_comps fs2) -> In f' (cp_flows c') -> governed fs2 idx c' f' = None.
Proof.
  intros c' f' Hc Hf. destruct (w_comp c' Hc) as [c [p [i [Hc0 ->]]]]. destruct (w_flow p i c f' Hf) as [f [-> Hf0]].
  rewrite (part_governed fs fs2 a m w_na p i c (p f) f Hc0). exact (ml_plain _ _ ML c f Hc0 Hf0).
Qed.
Lemma w_kind : forall p i c, In c (fs_comps fs) -> cp_kind (with_starts p i c) = cp_kind c.
Proof. intros p i c Hc. cbn. destruct (cp_kind c) eqn:K; try reflexivity. exfalso. exact (ml_store _ _ ML c _ Hc K). Qed.
Lemma w_investments : investments cf fs2 = [].
Proof.
  rewrite <- (un_invest _ _ (ml_untied _ _ ML)). destruct RS as [_ R]. unfold investments. clear -R. induction R as [|u v l l' [p [i ->]] R IH]; [reflexivity|]. cbn [flat_map]. rewrite IH. f_equal. f_equal.
  - rewrite flows_starts. induction (cp_flows u) as [|f r IHr]; [reflexivity|]. cbn [map flat_map]. rewrite IHr. f_equal. unfold flow_investment. rewrite part_sized. reflexivity.
  - unfold storage_investment. cbn [with_starts cp_kind cp_label]. destruct (cp_kind u); reflexivity.
Qed.
Lemma w_losses : no_absolute_losses fs2.
Proof. intros c' rel abs Hc K. destruct (w_comp c' Hc) as [c [p [i [Hc0 ->]]]]. rewrite (w_kind p i c Hc0) in K. exact (ml_loss _ _ ML c rel abs Hc0 K). Qed.
Lemma w_store : forall c st, In c (fs_comps fs2) -> cp_kind c <> StorageC st.
Proof. intros c' st Hc K. destruct (w_comp c' Hc) as [c [p [i [Hc0 ->]]]]. rewrite (w_kind p i c Hc0) in K. exact (ml_store _ _ ML c st Hc0 K). Qed.
Lemma w_onoff : forall c, In c (fs_comps fs2) -> cp_onoff c = None.
Proof. intros c' Hc. destruct (w_comp c' Hc) as [c [p [i [Hc0 ->]]]]. exact (un_comp _ _ (ml_untied _ _ ML) c Hc0). Qed.
Lemma w_totals : forall c f, In c (fs_comps fs2) -> In f (cp_flows c) -> f_fh_min f = None /\ f_fh_max f = None /\ f_lf_min f = None /\ f_lf_max f = None.
Proof.
  intros c' f' Hc Hf. destruct (w_comp c' Hc) as [c [p [i [Hc0 ->]]]]. destruct (w_flow p i c f' Hf) as [f [-> Hf0]]. exact (un_flow _ _ (ml_untied _ _ ML) c f Hc0 Hf0).
Qed.
Lemma w_ids : (forall c, In c (fs_comps fs) -> NoDup (map f_id (cp_flows c))) -> forall c, In c (fs_comps fs2) -> NoDup (map f_id (cp_flows c)).
Proof. intros H c' Hc. destruct (w_comp c' Hc) as [c [p [i [Hc0 ->]]]]. rewrite flows_starts, map_map. exact (H c Hc0). Qed.
Lemma w_apart : totals_apart fs -> totals_apart fs2.
Proof.
  unfold totals_apart. assert (T : total_names fs2 = total_names fs) by (unfold total_names; rewrite (part_effects fs fs2 RS); reflexivity).
  assert (O : own_names fs2 = own_names fs).
  { unfold own_names. rewrite (part_effects fs fs2 RS). f_equal.
    - f_equal. destruct RS as [_ R]. clear -R. induction R as [|u v l l' [p [i ->]] R IH]; [reflexivity|]. cbn [flat_map]. rewrite IH. f_equal. rewrite flows_starts, map_map. reflexivity.
    - f_equal. unfold bus_list. destruct RS as [_ R]. clear -R. induction R as [|u v l l' [p [i ->]] R IH]; [reflexivity|]. cbn [flat_map]. rewrite IH. f_equal. rewrite flows_starts, map_map. reflexivity. }
  rewrite T, O. auto.
Qed.
Lemma w_transmission : forall p i c label in1 out1 in2 out2 rel abs oo_ prevent, In c (fs_comps fs) ->
  with_starts p i c = transmission label in1 out1 in2 out2 rel abs oo_ prevent ->
  exists i1 o1 i2 o2, in1 = with_prev (p i1) i1 /\ out1 = with_prev (p o1) o1 /\ in2 = option_map (fun f => with_prev (p f) f) i2
    /\ out2 = option_map (fun f => with_prev (p f) f) o2 /\ exists oo' pv', c = transmission label i1 o1 i2 o2 rel abs oo' pv'.
Proof.
  intros p i c label in1 out1 in2 out2 rel abs oo_ prevent Hc E. assert (K : cp_kind c = TransmissionC rel abs) by (rewrite <- (w_kind p i c Hc), E; reflexivity).
  destruct (se_shape _ _ _ SE c Hc) as [_ SH]. rewrite K in SH. destruct SH as [label' [i1 [o1 [i2 [o2 [oo' [pv' EC]]]]]]]. exists i1, o1, i2, o2. subst c.
  assert (E1 := f_equal cp_in E). assert (E2 := f_equal cp_out E). assert (E3 := f_equal cp_label E). cbn in E1, E2, E3. subst label'.
  injection E1 as <- E1. injection E2 as <- E2. split; [reflexivity|]. split; [reflexivity|].
  split; [destruct i2, in2; simpl in *; congruence|]. split; [destruct o2, out2; simpl in *; congruence|]. eauto.
Qed.

Lemma window_laws : forall x J z t, (t < m)%nat -> (forall l, J l (a + t)%nat = x l t) -> step_laws cf fs None J z (a + t) -> step_laws cf fs2 idx x z t.
Proof.
  intros x J z t Ht HJ L. constructor.
  - intros b _ UB. pose proof (law_bus _ _ _ _ _ _ L b (se_buses _ _ _ SE) (proj1 (part_used fs fs2 RS b) UB)) as H.
    rewrite (part_delivered fs fs2 a x J t RS HJ), (part_taken fs fs2 a x J t RS HJ), !(part_excess a x J t HJ). exact H.
  - intros c' eqs factors Hc K Hf. destruct (w_comp c' Hc) as [c [p [i [Hc0 ->]]]]. rewrite (w_kind p i c Hc0) in K.
    cbn [with_starts cp_in cp_out]. rewrite !(part_weighted a m x J t Ht HJ). exact (law_conversion _ _ _ _ _ _ L c eqs factors Hc0 K Hf).
  - intros c' segs Hc K. destruct (w_comp c' Hc) as [c [p [i [Hc0 ->]]]]. rewrite (w_kind p i c Hc0) in K.
    destruct (law_segments _ _ _ _ _ _ L c segs Hc0 K) as [[k [w [W1 [W2 [W3 W4]]]]]|[W1 _]].
    + left. exists k, w. split; [exact W1|]. split; [exact W2|]. split.
      * intros f' Hf. destruct (w_flow p i c f' Hf) as [f [-> Hf0]]. destruct (W3 f Hf0) as [ab [N P]]. exists ab. split; [exact N|].
        unfold on_piece in *. rewrite (part_rate a x J t HJ), !(part_value a m t Ht). exact P.
      * intros NE. exfalso. apply NE. exact (w_onoff _ Hc).
    + exfalso. apply W1. exact (un_comp _ _ (ml_untied _ _ ML) c Hc0).
  - intros label in1 out1 in2 out2 rel abs oo_ prevent c' carried Hc. destruct (w_comp c' Hc) as [c [p [i [Hc0 EC]]]].
    destruct (w_transmission p i c _ _ _ _ _ _ _ _ _ Hc0 (eq_sym EC)) as [i1 [o1 [i2 [o2 [-> [-> [-> [-> [oo' [pv' E]]]]]]]]]].
    assert (H2 := Hc0). rewrite E in H2. destruct (law_transmission _ _ _ _ _ _ L _ _ _ _ _ _ _ _ _ H2) as [A B]. rewrite <- E in A, B.
    assert (AN : abs = None). { apply (ml_loss _ _ ML c rel abs Hc0). rewrite E. reflexivity. }
    assert (CA : forall f, carried (with_prev (p f) f) = rate_of J c f (a + t) * (1 - lost None rel (a + t)) - lost None abs (a + t) * (if abs then on_of J c f (a + t) else 0)).
    { intros f. unfold carried. rewrite EC, (part_rate a x J t HJ), !(part_lost a m t Ht). rewrite AN. reflexivity. }
    rewrite !CA, EC, (part_rate a x J t HJ). split; [exact A|]. intros f' E2. destruct i2 as [i2|]; [|discriminate]. injection E2 as <-. destruct (B i2 eq_refl) as [o [EO BB]]. subst o2.
    exists (with_prev (p o) o). split; [reflexivity|]. rewrite CA, (part_rate a x J t HJ). exact BB.
  - intros label ch dis s prevent c Hc. exfalso. apply (w_store c s Hc). reflexivity.
  - intros c' f' Hc Hf _ P. destruct (w_comp c' Hc) as [c [p [i [Hc0 ->]]]]. destruct (w_flow p i c f' Hf) as [f [-> Hf0]]. cbn [with_prev f_relmin f_relmax f_profile] in *.
    rewrite !(part_value a m t Ht), (part_rate a x J t HJ), part_size. exact (law_limits _ _ _ _ _ _ L c f Hc0 Hf0 (ml_plain _ _ ML c f Hc0 Hf0) P).
  - intros c' f' q Hc Hf _ P. destruct (w_comp c' Hc) as [c [p [i [Hc0 ->]]]]. destruct (w_flow p i c f' Hf) as [f [-> Hf0]]. cbn [with_prev f_profile] in *.
    rewrite !(part_value a m t Ht), (part_rate a x J t HJ), part_size. exact (law_profile _ _ _ _ _ _ L c f q Hc0 Hf0 (ml_plain _ _ ML c f Hc0 Hf0) P).
  - intros c' f' o Hc Hf G. rewrite (w_governed c' f' Hc Hf) in G. discriminate.
  - intros c' o Hc E. rewrite (w_onoff c' Hc) in E. discriminate.
  - intros c' f' h' Hc Hf Hh D P1 P2. destruct (w_comp c' Hc) as [c [p [i [Hc0 ->]]]]. destruct (w_flow p i c f' Hf) as [f [-> Hf0]]. destruct (w_flow p i c h' Hh) as [h [-> Hh0]].
    rewrite !(part_rate a x J t HJ). exact (law_exclusive _ _ _ _ _ _ L c f h Hc0 Hf0 Hh0 D P1 P2).
  - intros e He. rewrite (part_effects fs fs2 RS) in He. pose proof (law_costs _ _ _ _ _ _ L e He) as W. rewrite (part_op fs fs2 a m x J t RS Ht HJ).
    rewrite (part_comps fs fs2 RS _ (fun c => comp_costs fs None J c e (a + t))) by (intros; apply (part_comp_costs fs fs2 a m x J t w_na RS Ht HR HJ); assumption).
    unfold op_at in *. rewrite <- HJ. exact W.
Qed.

Lemma window_sensible : (2 <= m)%nat -> sensible cf fs2 idx.
Proof.
  intros M. destruct SE as [S1 S2 S3 S4 S5 S6 S7 S8]. pose proof (part_effects fs fs2 RS) as PE.
  assert (FD : forall p, full_data fs p -> full_data fs2 p) by (intros p; destruct RS as [-> _]; exact (fun H => H)).
  constructor; try assumption.
  - cbn [steps]. rewrite seq_length. exact M.
  - exact (part_distinct fs fs2 RS S3).
  - intros c' Hc. destruct (w_comp c' Hc) as [c [p [i [Hc0 ->]]]]. destruct (S4 c Hc0) as [ND W]. split; [exact ND|]. rewrite (w_kind p i c Hc0).
    destruct (cp_kind c) as [|eqs|segs|st|rel abs] eqn:K; try exact Logic.I; [exfalso; exact (ml_store _ _ ML c st Hc0 K)|].
    destruct W as [label [i1 [o1 [i2 [o2 [oo' [pv' ->]]]]]]]. exists label, (with_prev (p i1) i1), (with_prev (p o1) o1), (option_map (fun f => with_prev (p f) f) i2), (option_map (fun f => with_prev (p f) f) o2), oo', pv'.
    destruct i2, o2; reflexivity.
  - intros c' f' Hc Hf. pose proof (w_governed c' f' Hc Hf) as G. split; [|intros o E; congruence]. split; [|split; [|intros o E; congruence]].
    + destruct (w_comp c' Hc) as [c [p [i [Hc0 ->]]]]. destruct (w_flow p i c f' Hf) as [f [-> Hf0]]. destruct (S5 c f Hc0 Hf0) as [[A _] _]. cbn [with_prev f_profile f_relmin f_relmax].
      destruct (f_profile f); [auto|]. destruct A. auto.
    + intros iv E. exfalso. assert (H : In (flow_name c' f', iv) (investments cf fs2)).
      { unfold investments. apply in_flat_map. exists c'. split; [exact Hc|]. apply in_app_iff. left. apply in_flat_map. exists f'. split; [exact Hf|]. unfold flow_investment. rewrite E. left. reflexivity. }
      rewrite w_investments in H. exact H.
  - intros c' p Hc E. rewrite (w_onoff c' Hc) in E. discriminate.
  - intros c' st iv Hc K. exfalso. exact (w_store c' st Hc K).
  - unfold distinct_effects, numeric_links. rewrite PE, w_investments. destruct S8 as [A [B _]]. split; [exact A|]. split; [exact B|]. intros name iv H. destruct H.
Qed.

Lemma window_cost : forall x J e bl t, (t < m)%nat -> (forall l, J l (a + t)%nat = x l t) -> step_cost fs2 idx x e bl t = step_cost fs None J e bl (a + t).
Proof.
  intros x J e bl t Ht HJ. unfold step_cost, op_at. rewrite HJ. f_equal. f_equal. apply map_ext. intros b. unfold bus_price_at. destruct (b_penalty b) as [p|]; [|reflexivity].
  rewrite (part_value a m t Ht), !(part_excess a x J t HJ), (part_hours fs fs2 a m t RS Ht HR). reflexivity.
Qed.
End Window.

(** ** Sums over pieces *)
Lemma sumn_add : forall n k f, sumn (n + k) f == sumn n f + sumn k (fun t => f (n + t)%nat).
Proof.
  intros n k f. unfold sumn. rewrite seq_app, map_app, Qsum_app. cbn [Nat.add].
  assert (X : seq n k = map (fun t => (n + t)%nat) (seq 0 k)); [|rewrite X, map_map; reflexivity].
  revert n. induction k as [|k IH]; intros n; [reflexivity|]. cbn [seq map]. rewrite Nat.add_0_r, (IH (S n)), <- seq_shift, map_map. f_equal. apply map_ext. intros t. lia.
Qed.
Lemma sumn_le : forall n f g, (forall t, (t < n)%nat -> f t <= g t) -> sumn n f <= sumn n g.
Proof.
  intros n f g. induction n as [|n IH]; intros H; [apply Qle_refl|]. replace (S n) with (n + 1)%nat by lia. rewrite !sumn_add. apply Qplus_le_compat; [apply IH; intros; apply H; lia|].
  unfold sumn. cbn [seq map]. rewrite !Qsum_cons, Nat.add_0_r. specialize (H n ltac:(lia)). cbn. lra.
Qed.
Lemma pieces_le : forall seg n f g k, (forall j, (j < k)%nat ->
    sumn (Nat.min seg (n - j * seg)) (fun t => f (j * seg + t)%nat) <= sumn (Nat.min seg (n - j * seg)) (fun t => g (j * seg + t)%nat)) ->
  sumn (Nat.min n (k * seg)) f <= sumn (Nat.min n (k * seg)) g.
Proof.
  intros seg n f g k. induction k as [|k IH]; intros H; [rewrite Nat.min_0_r; apply Qle_refl|].
  assert (I : sumn (Nat.min n (k * seg)) f <= sumn (Nat.min n (k * seg)) g) by (apply IH; intros; apply H; lia). specialize (H k ltac:(lia)).
  destruct (Nat.le_gt_cases n (k * seg)) as [C|C].
  - replace (Nat.min n (S k * seg)) with (Nat.min n (k * seg)) by nia. exact I.
  - replace (Nat.min n (k * seg)) with (k * seg)%nat in I by lia. replace (Nat.min n (S k * seg)) with (k * seg + Nat.min seg (n - k * seg))%nat by nia.
    rewrite !sumn_add. apply Qplus_le_compat; assumption.
Qed.
Lemma passed_add : forall fs f g e, passed_on fs (fun e => f e + g e) e == passed_on fs f e + passed_on fs g e.
Proof.
  intros fs f g e. unfold passed_on. rewrite <- Qsum_plus. apply Qsum_map_eq. intros e' _. rewrite <- Qsum_plus. apply Qsum_map_eq. intros [k d] _. cbn [fst snd]. destruct (Nat.eqb k (e_id e)); ring.
Qed.

(** ** C91 *)
Section Best.
Variables (cf : config) (ord : list nat -> list nat) (solver : nat -> pmodel -> option asg) (fs : flow_system) (seg over : nat) (g : segmented) (subs : list sub) (fs_after : flow_system).
Variables (pm : pmodel) (bl : list bus) (o : effect).
Hypothesis F : finished cf ord solver fs seg over None g subs fs_after.
Hypothesis PO : forall l, Permutation (ord l) l.
Hypothesis B : build cf ord fs None = Ok pm.
Hypothesis SE : sensible cf fs None.
Hypothesis ML : memoryless cf fs.
Hypothesis TA : totals_apart fs.
Hypothesis TWO : forall s, In s subs -> (2 <= length (sb_idx s))%nat.
Hypothesis BEST : forall s, In s subs -> best_of (sb_prog s) (sb_values s).
Hypothesis AB : all_buses fs bl.
Hypothesis OB : find e_obj (fs_effects fs) = Some o.
Local Notation n := (steps fs None).
Local Notation J := (joined seg subs).

Lemma b_ids : forall c, In c (fs_comps fs) -> NoDup (map f_id (cp_flows c)). Proof. intros c Hc. exact (comp_ids _ _ _ _ _ _ B Hc). Qed.

(** Whatever obeys the laws of the steps of a segment costs at least as much as the solution found for it. *)
Lemma segment_le : forall k s, nth_error subs k = Some s -> let a := (k * seg)%nat in let m := (Nat.min (a + seg + over) n - a)%nat in
  exists fsk, restarted fs fsk /\ (a + m <= length (fs_times fs))%nat
  /\ (forall t, (t < m)%nat -> step_laws cf fsk (Some (seq a m)) (sb_values s) (sb_values s) t)
  /\ (forall e t, In e (fs_effects fs) -> (t < m)%nat -> at_least (option_map (fun p => value None p (a + t) * hours fs None (a + t)) (e_min_ph e)) (op_at (sb_values s) e t)
        /\ at_most (option_map (fun p => value None p (a + t) * hours fs None (a + t)) (e_max_ph e)) (op_at (sb_values s) e t))
  /\ (forall e, In e (fs_effects fs) -> inv_sum (sb_values s) e == passed_on fs (inv_sum (sb_values s)) e)
  /\ forall w z iv, (forall t, (t < m)%nat -> step_laws cf fsk (Some (seq a m)) w (z t) t) ->
       (forall e t, In e (fs_effects fs) -> (t < m)%nat -> at_least (option_map (fun p => value None p (a + t) * hours fs None (a + t)) (e_min_ph e)) (op_at w e t)
        /\ at_most (option_map (fun p => value None p (a + t) * hours fs None (a + t)) (e_max_ph e)) (op_at w e t)) ->
       (forall e, In e (fs_effects fs) -> iv e == passed_on fs iv e) ->
       sumn m (fun t => step_cost fsk (Some (seq a m)) (sb_values s) o bl t) + inv_sum (sb_values s) o <= sumn m (fun t => step_cost fsk (Some (seq a m)) w o bl t) + iv o.
Proof.
  intros k s E a m. pose proof (ml_untied _ _ ML) as UN. pose proof (nth_error_In _ _ E) as Hs.
  destruct (C63_problem _ _ _ _ _ _ _ _ _ _ _ _ F (lossless_throughout fs subs (ml_loss _ _ ML)) E) as [fsk [RS [BK [I _]]]]. fold a m in I. exists fsk.
  pose proof (fin_range _ _ _ _ _ _ _ _ _ _ F) as RNG. destruct (fin_seg _ _ _ _ _ _ _ _ _ _ F) as [S1 [S2 [N [L1 L2]]]].
  assert (KL : (k < length subs)%nat) by (apply nth_error_Some; congruence). assert (AN : (a < n)%nat) by (unfold a; nia).
  assert (HR : (a + m <= length (fs_times fs))%nat) by (unfold m; lia).
  assert (M2 : (2 <= m)%nat) by (pose proof (TWO s Hs) as T; rewrite I, seq_length in T; exact T).
  destruct (BEST s Hs) as [FE MIN]. rewrite I in BK. pose proof (part_effects fs fsk RS) as PE.
  pose proof (window_sensible cf fs fsk a m ML SE RS M2) as SK. pose proof (C57_solutions _ _ _ _ _ _ PO BK SK FE) as OK.
  assert (ABK : all_buses fsk bl). { destruct AB as [ND U]. split; [exact ND|]. intros b. rewrite U. symmetry. apply part_used. exact RS. }
  assert (Ho : In o (fs_effects fsk)) by (rewrite PE; exact (proj1 (find_some _ _ OB))).
  assert (ST : steps fsk (Some (seq a m)) = m) by (cbn [steps]; apply seq_length).
  assert (HB : forall (p : param) t, (t < m)%nat -> value (Some (seq a m)) p t * hours fsk (Some (seq a m)) t = value None p (a + t) * hours fs None (a + t)).
  { intros p t Ht. rewrite (part_hours fs fsk a m t RS Ht HR), value_part by exact Ht. reflexivity. }
  split; [exact RS|]. split; [exact HR|]. split; [|split; [|split]].
  - intros t Ht. eapply C63_full_calculation; eauto; [exact (proj1 (se_eps _ _ _ SE))|rewrite ST; exact Ht].
  - intros e t He Ht. rewrite <- PE in He. destruct (C22_limits _ _ _ _ _ _ e BK FE He) as [_ [_ [_ [_ [_ [_ [_ H]]]]]]]. rewrite ST in H. specialize (H t Ht).
    destruct (e_min_ph e) as [p|], (e_max_ph e) as [q|]; cbn [option_map] in *; rewrite ?HB in H by exact Ht; exact H.
  - intros e He. rewrite <- PE in He. destruct (ob_effect _ _ _ _ OK e He) as [_ [_ [H _]]]. rewrite (w_investments cf fs fsk ML RS) in H. cbn [map Qsum fold_right] in H. rewrite Qplus_0_l in H.
    unfold inv_from_effects in H. rewrite PE in H. exact H.
  - intros w z iv L HL IV. destruct (steps_plan cf fsk (Some (seq a m)) w z iv SK (w_investments cf fs fsk ML RS) (w_totals cf fs fsk ML RS) (w_governed cf fs fsk a m ML RS)
      (w_onoff cf fs fsk ML RS) (w_store cf fs fsk ML RS) (w_losses cf fs fsk ML RS)) with (bl := bl) as [y [SP [OY PC]]]; try assumption.
    + intros e He. rewrite PE in He. exact (un_effect _ _ UN e He).
    + exact (w_apart fs fsk RS TA).
    + exact (w_ids fs fsk RS b_ids).
    + intros t Ht. rewrite ST in Ht. exact (L t Ht).
    + intros e He. rewrite PE in He. unfold passed_on. rewrite PE. exact (IV e He).
    + intros e t He Ht. rewrite PE in He. rewrite ST in Ht. specialize (HL e t He Ht). destruct (e_min_ph e) as [p|], (e_max_ph e) as [q|]; cbn [option_map] in *; rewrite ?HB by exact Ht; exact HL.
    + destruct (plan_completes _ _ _ _ _ _ PO BK SK OY) as [v [SV FV]]. specialize (MIN v FV).
      destruct (C21_objective cf ord fsk _ _ v BK) as [e1 [E1 O1]]. destruct (C21_objective cf ord fsk _ _ (sb_values s) BK) as [e2 [E2 O2]]. rewrite PE in E1, E2.
      assert (e1 = o) by congruence. assert (e2 = o) by congruence. subst e1 e2.
      change (objective_value (sb_prog s) v == plan_cost v o) in O1. change (objective_value (sb_prog s) (sb_values s) == plan_cost (sb_values s) o) in O2.
      rewrite O1, O2, (same_cost _ _ _ _ _ _ SV Ho), (PC o Ho), (plan_by_step _ _ _ _ _ _ OK ABK Ho), ST in MIN. exact MIN.
Qed.

Lemma full_limits : forall x, feasible pm x -> forall e t, In e (fs_effects fs) -> (t < n)%nat -> at_least (option_map (fun p => value None p t * hours fs None t) (e_min_ph e)) (op_at x e t)
  /\ at_most (option_map (fun p => value None p t * hours fs None t) (e_max_ph e)) (op_at x e t).
Proof. intros x FX e t He Ht. destruct (C22_limits _ _ _ _ _ _ e B FX He) as [_ [_ [_ [_ [_ [_ [_ H]]]]]]]. exact (H t Ht). Qed.

Lemma no_gain : forall iv, (forall e, In e (fs_effects fs) -> iv e == passed_on fs iv e) -> 0 <= iv o.
Proof.
  intros iv IV. destruct (fin_seg _ _ _ _ _ _ _ _ _ _ F) as [_ [_ [N _]]]. destruct (fin_exists subs 0%nat ltac:(lia)) as [s E].
  destruct (segment_le 0 s E) as [fsk [_ [_ [L [HL [IS H]]]]]]. specialize (H (sb_values s) (fun _ => sb_values s) (fun e => inv_sum (sb_values s) e + iv e) L HL).
  assert (X : forall e, In e (fs_effects fs) -> inv_sum (sb_values s) e + iv e == passed_on fs (fun e => inv_sum (sb_values s) e + iv e) e).
  { intros e He. rewrite passed_add, <- (IS e He), <- (IV e He). reflexivity. }
  specialize (H X). cbv beta in H. lra.
Qed.

Lemma piece_le : forall x k, feasible pm x -> (k < length subs)%nat ->
  sumn (Nat.min seg (n - k * seg)) (fun t => step_cost fs None J o bl (k * seg + t)) <= sumn (Nat.min seg (n - k * seg)) (fun t => step_cost fs None x o bl (k * seg + t)).
Proof.
  intros x k FX K. destruct (fin_exists subs k K) as [s E]. destruct (segment_le k s E) as [fsk [RS [HR [L [HL [IS H]]]]]].
  pose proof (fin_range _ _ _ _ _ _ _ _ _ _ F) as RNG. destruct (fin_seg _ _ _ _ _ _ _ _ _ _ F) as [S1 [S2 [N [L1 L2]]]].
  set (a := (k * seg)%nat) in *. set (m := (Nat.min (a + seg + over) n - a)%nat) in *. set (q := Nat.min seg (n - a)).
  assert (AN : (a < n)%nat) by (unfold a; nia). assert (QM : (q <= m)%nat) by (unfold q, m; lia).
  set (w := fun l t => if Nat.ltb t q then x l (a + t)%nat else sb_values s l t : Q).
  assert (W1 : forall t l, (t < q)%nat -> x l (a + t)%nat = w l t) by (intros t l Ht; unfold w; rewrite (proj2 (Nat.ltb_lt _ _) Ht); reflexivity).
  assert (W2 : forall t l, (q <= t)%nat -> w l t = sb_values s l t) by (intros t l Ht; unfold w; rewrite (proj2 (Nat.ltb_ge _ _) Ht); reflexivity).
  assert (NL := w_na cf fs a m ML).
  assert (HJ : forall t l, (t < q)%nat -> J l (a + t)%nat = sb_values s l t).
  { intros t l Ht. destruct (joined_at _ _ _ _ _ _ _ _ _ _ (a + t) F ltac:(unfold q in Ht; lia)) as [_ [_ [_ [_ [s' [E' [_ H']]]]]]].
    assert (D : ((a + t) / seg = k)%nat) by (unfold a; rewrite Nat.div_add_l by lia; rewrite Nat.div_small by (unfold q in Ht; lia); lia).
    assert (R : ((a + t) mod seg = t)%nat) by (unfold a; rewrite Nat.add_comm, Nat.mod_add by lia; apply Nat.mod_small; unfold q in Ht; lia).
    rewrite D, R in *. rewrite E in E'. injection E' as <-. exact (H' l). }
  assert (LW : forall t, (t < m)%nat -> step_laws cf fsk (Some (seq a m)) w ((fun t => if Nat.ltb t q then x else sb_values s) t) t).
  { intros t Ht. cbv beta. destruct (Nat.ltb t q) eqn:T.
    - apply Nat.ltb_lt in T. apply (window_laws cf fs fsk a m ML SE RS HR w x x t Ht); [intros l; apply W1; exact T|].
      eapply C63_full_calculation; eauto; [exact (proj1 (se_eps _ _ _ SE))|]. unfold q in T. lia.
    - apply Nat.ltb_ge in T. set (Z := fun l u => w l (u - a)%nat : Q).
      assert (HZ : forall l, Z l (a + t)%nat = w l t) by (intros l; unfold Z; f_equal; lia).
      apply (window_laws cf fs fsk a m ML SE RS HR w Z (sb_values s) t Ht HZ).
      apply (part_laws fs fsk a m (sb_values s) Z t NL RS Ht HR); [intros l; rewrite HZ; apply W2; exact T|]. exact (L t Ht). }
  assert (HW : forall e t, In e (fs_effects fs) -> (t < m)%nat -> at_least (option_map (fun p => value None p (a + t) * hours fs None (a + t)) (e_min_ph e)) (op_at w e t)
        /\ at_most (option_map (fun p => value None p (a + t) * hours fs None (a + t)) (e_max_ph e)) (op_at w e t)).
  { intros e t He Ht. destruct (Nat.lt_ge_cases t q) as [T|T].
    - unfold op_at. rewrite <- W1 by exact T. apply (full_limits x FX e (a + t) He). unfold q in T. lia.
    - unfold op_at. rewrite W2 by exact T. exact (HL e t He Ht). }
  specialize (H w _ (inv_sum (sb_values s)) LW HW IS).
  assert (P1 : forall v, sumn m (fun t => step_cost fsk (Some (seq a m)) v o bl t)
      == sumn q (fun t => step_cost fsk (Some (seq a m)) v o bl t) + sumn (m - q) (fun t => step_cost fsk (Some (seq a m)) v o bl (q + t))).
  { intros v. rewrite <- sumn_add. replace (q + (m - q))%nat with m by lia. reflexivity. }
  rewrite !P1 in H.
  assert (T2 : sumn (m - q) (fun t => step_cost fsk (Some (seq a m)) w o bl (q + t)) == sumn (m - q) (fun t => step_cost fsk (Some (seq a m)) (sb_values s) o bl (q + t))).
  { apply sumn_ext. intros t Ht. assert (TM : (q + t < m)%nat) by lia. set (Z := fun l u => w l (u - a)%nat : Q).
    rewrite (window_cost fs fsk a m RS HR w Z o bl (q + t) TM) by (intros l; unfold Z; f_equal; lia).
    rewrite (window_cost fs fsk a m RS HR (sb_values s) Z o bl (q + t) TM) by (intros l; unfold Z; replace (a + (q + t) - a)%nat with (q + t)%nat by lia; apply W2; lia). reflexivity. }
  rewrite T2 in H.
  assert (T1 : sumn q (fun t => step_cost fsk (Some (seq a m)) w o bl t) == sumn q (fun t => step_cost fs None x o bl (a + t))).
  { apply sumn_ext. intros t Ht. rewrite (window_cost fs fsk a m RS HR w x o bl t ltac:(lia)) by (intros l; apply W1; exact Ht). reflexivity. }
  assert (T0 : sumn q (fun t => step_cost fsk (Some (seq a m)) (sb_values s) o bl t) == sumn q (fun t => step_cost fs None J o bl (a + t))).
  { apply sumn_ext. intros t Ht. rewrite (window_cost fs fsk a m RS HR (sb_values s) J o bl t ltac:(lia)) by (intros l; apply HJ; exact Ht). reflexivity. }
  rewrite T1, T0 in H. lra.
Qed.

Lemma never_worse : forall x, feasible pm x -> result_cost fs J o bl <= objective_value pm x.
Proof.
  intros x FX. destruct (fin_seg _ _ _ _ _ _ _ _ _ _ F) as [S1 [S2 [N [L1 L2]]]]. pose proof (C57_solutions _ _ _ _ _ _ PO B SE FX) as OX.
  assert (Ho : In o (fs_effects fs)) by exact (proj1 (find_some _ _ OB)).
  destruct (C21_objective cf ord fs None pm x B) as [e1 [E1 O1]]. assert (e1 = o) by congruence. subst e1. change (objective_value pm x == plan_cost x o) in O1.
  rewrite O1, (plan_by_step _ _ _ _ _ _ OX AB Ho). unfold result_cost. rewrite <- cost_by_step.
  assert (P : sumn n (fun t => step_cost fs None J o bl t) <= sumn n (fun t => step_cost fs None x o bl t)).
  { replace n with (Nat.min n (length subs * seg)) by lia. apply pieces_le. intros j Hj. exact (piece_le x j FX Hj). }
  assert (0 <= inv_sum x o).
  { apply (no_gain (inv_sum x)). intros e He. destruct (ob_effect _ _ _ _ OX e He) as [_ [_ [H _]]]. rewrite (un_invest _ _ (ml_untied _ _ ML)) in H. cbn [map Qsum fold_right] in H.
    rewrite Qplus_0_l in H. exact H. }
  lra.
Qed.
End Best.

(** The combined result of the segments, completed by totals, is an optimal solution of the ordinary calculation, and what the result costs is the
    optimal cost. *)
Theorem C91_optimal : forall cf ord solver fs seg over g subs fs_after pm bl,
  finished cf ord solver fs seg over None g subs fs_after -> (forall l, Permutation (ord l) l) -> build cf ord fs None = Ok pm ->
  sensible cf fs None -> memoryless cf fs -> totals_apart fs -> full_overlaps seg over subs (steps fs None) -> all_buses fs bl ->
  (forall s, In s subs -> (2 <= length (sb_idx s))%nat) -> (forall s, In s subs -> best_of (sb_prog s) (sb_values s)) ->
  exists z e, find e_obj (fs_effects fs) = Some e /\ best_of pm z /\ same_parts cf fs None (joined seg subs) z
    /\ (forall e' t, In e' (fs_effects fs) -> (t < steps fs None)%nat -> op_at z e' t == op_at (joined seg subs) e' t)
    /\ objective_value pm z == result_cost fs (joined seg subs) e bl.
Proof.
  intros cf ord solver fs seg over g subs fs_after pm bl F PO B SE ML TA FULL AB TWO BEST.
  assert (CL : clearly_on cf fs (joined seg subs)). { intros c f o t Hc Hf G. rewrite (ml_plain _ _ ML c f Hc Hf) in G. discriminate. }
  destruct (C88_plan_partial _ _ _ _ _ _ _ _ _ _ _ F PO B SE (ml_untied _ _ ML) TA (lossless_throughout _ _ (ml_loss _ _ ML)) (fun s Hs => proj1 (BEST s Hs)) FULL CL AB)
    as [z [e [OB [FZ [SP [OPT OZ]]]]]].
  exists z, e. split; [exact OB|]. split; [|split; [exact SP|split; [exact OPT|exact OZ]]]. split; [exact FZ|]. intros y FY. rewrite OZ.
  exact (never_worse cf ord solver fs seg over g subs fs_after pm bl e F PO B SE ML TA TWO BEST AB OB y FY).
Qed.
Print Assumptions C91_optimal.

(** The other way round: every optimal solution of the ordinary calculation costs what the combined result costs. *)
Theorem C91_same_cost : forall cf ord solver fs seg over g subs fs_after pm bl x e,
  finished cf ord solver fs seg over None g subs fs_after -> (forall l, Permutation (ord l) l) -> build cf ord fs None = Ok pm ->
  sensible cf fs None -> memoryless cf fs -> totals_apart fs -> full_overlaps seg over subs (steps fs None) -> all_buses fs bl ->
  (forall s, In s subs -> (2 <= length (sb_idx s))%nat) -> (forall s, In s subs -> best_of (sb_prog s) (sb_values s)) ->
  find e_obj (fs_effects fs) = Some e -> best_of pm x -> objective_value pm x == result_cost fs (joined seg subs) e bl.
Proof.
  intros cf ord solver fs seg over g subs fs_after pm bl x e F PO B SE ML TA FULL AB TWO BEST OB [FX MX].
  destruct (C91_optimal _ _ _ _ _ _ _ _ _ _ _ F PO B SE ML TA FULL AB TWO BEST) as [z [e' [OB' [[FZ MZ] [_ [_ OZ]]]]]]. assert (e' = e) by congruence. subst e'.
  rewrite <- OZ. apply Qle_antisym; [apply MX; exact FZ|apply MZ; exact FX].
Qed.
Print Assumptions C91_same_cost.

(** *** A case: the price of the grid changes from hour to hour, a well costs 3 per unit; segments of 3 steps overlap by one. The segments use
    whatever is cheaper, which is the optimum of the whole horizon. *)
Definition spot : flow := set_eff (EVDict [(Some 0%nat, na [1; 5; 1; 5; 2; 5])]) (fl 181 "Q" gas 10).
Definition well3 : flow := set_eff (per_hour 3) (fl 183 "Q" gas 10).
Definition fs_spot : flow_system := mkFS [0; 1; 2; 3; 4; 5] 6 (NS 1) [money None] [Library.source "Grid" spot; Library.source "Well" well3; Library.sink "Need" need_in].
Definition spot_first : asg := of_table [
  ("Grid__Q_flow_rate", [1; 0; 1; 0]); ("Grid__Q_sumFlowHours", [2]); ("Well__Q_flow_rate", [0; 1; 0; 1]); ("Well__Q_sumFlowHours", [2]); ("Need__Q_flow_rate", [1; 1; 1; 1]); ("Need__Q_sumFlowHours", [4]);
  ("costs__Grid__Q__effects_per_flow_hour", [1; 0; 1; 0]); ("costs__Well__Q__effects_per_flow_hour", [0; 3; 0; 3]);
  ("costs__operation", [8]); ("costs__operation_operation_sum_TS", [1; 3; 1; 3]); ("costs__operation_operation_sum", [8]); ("costs__all_all_sum", [8])].
Definition spot_second : asg := of_table [
  ("Grid__Q_flow_rate", [0; 1; 0]); ("Grid__Q_sumFlowHours", [1]); ("Well__Q_flow_rate", [1; 0; 1]); ("Well__Q_sumFlowHours", [2]); ("Need__Q_flow_rate", [1; 1; 1]); ("Need__Q_sumFlowHours", [3]);
  ("costs__Grid__Q__effects_per_flow_hour", [0; 2; 0]); ("costs__Well__Q__effects_per_flow_hour", [3; 0; 3]);
  ("costs__operation", [8]); ("costs__operation_operation_sum_TS", [3; 2; 3]); ("costs__operation_operation_sum", [8]); ("costs__all_all_sum", [8])].
Definition spot_solver : nat -> pmodel -> option asg := fun i _ => Some (match i with 0%nat => spot_first | _ => spot_second end).
Definition cheapest (t : nat) : Q := nth t [1; 3; 1; 3; 2; 3] 0.
Lemma spot_buses : all_buses fs_spot [gas].
Proof.
  split; [constructor; [intros []|constructor]|]. intros b. split.
  - intros [<-|[]]. exists (Library.sink "Need" need_in), need_in. cbn. tauto.
  - intros [c [f [Hc [Hf E]]]]. left. cbn in Hc. destruct Hc as [<-|[<-|[<-|[]]]]; cbn in Hf; destruct Hf as [<-|[]]; exact E.
Qed.
Lemma spot_sensible : sensible default_config fs_spot None.
Proof.
  apply sensible_check; [vm_compute; reflexivity| |].
  - assert (U : forall b, used_bus fs_spot b -> b = gas) by (intros b Hb; apply (proj2 spot_buses) in Hb; destruct Hb as [<-|[]]; reflexivity).
    split; intros b b' H H' _; rewrite (U b H), (U b' H'); reflexivity.
  - intros c Hc. cbn in Hc. destruct Hc as [<-|[<-|[<-|[]]]]; cbn; split; try constructor; exact Logic.I.
Qed.
Lemma spot_memoryless : memoryless default_config fs_spot.
Proof.
  constructor; [constructor| | |].
  - reflexivity.
  - intros c f Hc Hf. cbn in Hc. destruct Hc as [<-|[<-|[<-|[]]]]; cbn in Hf; destruct Hf as [<-|[]]; auto.
  - intros c f o Hc Hf G. cbn in Hc. destruct Hc as [<-|[<-|[<-|[]]]]; cbn in Hf; destruct Hf as [<-|[]]; discriminate G.
  - intros c Hc. cbn in Hc. destruct Hc as [<-|[<-|[<-|[]]]]; reflexivity.
  - intros c s Hc K. cbn in Hc. destruct Hc as [<-|[<-|[<-|[]]]]; discriminate.
  - intros e [<-|[]]. cbn. auto 10.
  - intros c f Hc Hf. cbn in Hc. destruct Hc as [<-|[<-|[<-|[]]]]; cbn in Hf; destruct Hf as [<-|[]]; reflexivity.
  - intros c s Hc. cbn in Hc. destruct Hc as [<-|[<-|[<-|[]]]]; discriminate.
  - intros c rel p Hc K. cbn in Hc. destruct Hc as [<-|[<-|[<-|[]]]]; discriminate.
Qed.
Lemma spot_apart : totals_apart fs_spot.
Proof.
  split.
  - intros s H1 H2. assert (E : forallb (fun s => negb (existsb (String.eqb s) (total_names fs_spot))) (own_names fs_spot) = true) by (vm_compute; reflexivity).
    rewrite forallb_forall in E. specialize (E s H1). apply negb_true_iff in E. assert (X : existsb (String.eqb s) (total_names fs_spot) = true) by (apply existsb_exists; exists s; split; [exact H2|apply String.eqb_refl]).
    congruence.
  - vm_compute. repeat constructor; simpl; intuition discriminate.
Qed.
(** No step can cost less than the cheaper of the two sources. *)
Lemma spot_floor : forall x z u, (u < 6)%nat -> step_laws default_config fs_spot None x z u -> cheapest u <= step_cost fs_spot None x (money None) [gas] u.
Proof.
  intros x z u Hu L. set (g := x (vlabel "Grid__Q" "flow_rate") u). set (w := x (vlabel "Well__Q" "flow_rate") u). set (d := x (vlabel "Need__Q" "flow_rate") u).
  destruct (law_limits _ _ _ _ _ _ L (Library.source "Grid" spot) spot (or_introl eq_refl) (or_introl eq_refl) eq_refl eq_refl) as [G1 _]. change (0 * 10 <= g) in G1.
  destruct (law_limits _ _ _ _ _ _ L (Library.source "Well" well3) well3 (or_intror (or_introl eq_refl)) (or_introl eq_refl) eq_refl eq_refl) as [W1 _]. change (0 * 10 <= w) in W1.
  pose proof (law_profile _ _ _ _ _ _ L (Library.sink "Need" need_in) need_in (n1 1) (or_intror (or_intror (or_introl eq_refl))) (or_introl eq_refl) eq_refl eq_refl) as D1. change (d == 1 * 1) in D1.
  destruct (law_bus _ _ _ _ _ _ L gas (se_buses _ _ _ spot_sensible) (proj1 (proj2 spot_buses gas) (or_introl eq_refl))) as [E _].
  change ((g + 0 + ((w + 0) + (0 + 0)) + 0 == 0 + (0 + ((d + 0) + 0)) + 0)) in E.
  pose proof (law_costs _ _ _ _ _ _ L (money None) (or_introl eq_refl)) as C.
  assert (OP : op_at x (money None) u == nth u [1; 5; 1; 5; 2; 5] 0 * g + 3 * w).
  { rewrite C. unfold g, w. clear - Hu. do 6 (destruct u as [|u]; [unfold comp_costs, flow_costs, op_from_effects; cbn;
      match goal with |- context [hours fs_spot None ?t] => assert (HH : hours fs_spot None t == 1) by (vm_compute; reflexivity); rewrite HH;
        change (rate_of x (source "Grid" spot) spot t) with (x "Grid__Q_flow_rate" t); change (rate_of x (source "Well" well3) well3 t) with (x "Well__Q_flow_rate" t) end; ring|]). lia. }
  unfold step_cost. rewrite OP. change (Qsum (map (fun b => bus_price_at fs_spot None x b u) [gas])) with (0 + 0). unfold cheapest. clear OP C L. clearbody g w d.
  do 6 (destruct u as [|u]; [cbn [nth]; lra|]). lia.
Qed.

Example C91_applies : exists g subs fs_after pm, finished default_config id_ord spot_solver fs_spot 3 1 None g subs fs_after /\ length subs = 2%nat
  /\ build default_config id_ord fs_spot None = Ok pm /\ (forall s, In s subs -> best_of (sb_prog s) (sb_values s))
  /\ exists z, best_of pm z /\ same_parts default_config fs_spot None (joined 3 subs) z /\ objective_value pm z == 13.
Proof.
  destruct (run_check_ok spot_solver fs_spot 3 1 None (fun subs => Nat.eqb (length subs) 2 && all_feasible subs)%bool) as [g [subs [fa [F H]]]]; [vm_compute; reflexivity|].
  apply andb_prop in H. destruct H as [H1 H2]. apply Nat.eqb_eq in H1. pose proof (all_feasible_ok _ H2) as FE.
  destruct (build default_config id_ord fs_spot None) as [pm|] eqn:B; [|vm_compute in B; discriminate B].
  assert (FO : full_overlaps 3 1 subs (steps fs_spot None)). { intros k Hk. rewrite H1 in Hk. change (steps fs_spot None) with 6%nat. lia. }
  assert (POS : forall s, In s subs -> exists k, (k < 2)%nat /\ nth_error subs k = Some s).
  { intros s Hs. destruct (In_nth_error _ _ Hs) as [k E]. exists k. split; [|exact E]. rewrite <- H1. apply nth_error_Some. congruence. }
  assert (TWO : forall s, In s subs -> (2 <= length (sb_idx s))%nat).
  { intros s Hs. destruct (POS s Hs) as [k [K E]]. destruct (fin_sub _ _ _ _ _ _ _ _ _ _ F k s E) as [-> _]. rewrite seq_length. change (steps fs_spot None) with 6%nat. destruct k as [|[|k]]; cbn; lia. }
  assert (OPT : forall s, In s subs -> best_of (sb_prog s) (sb_values s)).
  { intros s Hs. split; [exact (FE s Hs)|]. intros y FY. destruct (POS s Hs) as [k [K E]]. destruct (fin_sub _ _ _ _ _ _ _ _ _ _ F k s E) as [_ [_ [SV _]]]. injection SV as SV.
    destruct (C63_problem _ _ _ _ _ _ _ _ _ _ _ _ F (lossless_throughout _ subs (ml_loss _ _ spot_memoryless)) E) as [fsk [RS [BK [I _]]]]. pose proof (TWO s Hs) as T2. rewrite I in BK, T2. rewrite seq_length in T2.
    set (a := (k * 3)%nat) in *. set (m := (Nat.min (a + 3 + 1) (steps fs_spot None) - a)%nat) in *.
    assert (HR : (a + m <= length (fs_times fs_spot))%nat) by (unfold m, a; change (steps fs_spot None) with 6%nat; change (length (fs_times fs_spot)) with 6%nat; lia).
    pose proof (window_sensible _ _ _ a m spot_memoryless spot_sensible RS T2) as SK. pose proof (part_effects _ _ RS) as PE.
    assert (Ho : In (money None) (fs_effects fsk)) by (rewrite PE; left; reflexivity).
    assert (AK : all_buses fsk [gas]). { destruct spot_buses as [ND U]. split; [exact ND|]. intros b. rewrite U. symmetry. apply part_used. exact RS. }
    assert (COST : forall v, feasible (sb_prog s) v -> objective_value (sb_prog s) v == sumn m (fun t => step_cost fsk (Some (seq a m)) v (money None) [gas] t)).
    { intros v FV. pose proof (C57_solutions _ _ _ _ _ _ id_ord_perm BK SK FV) as OV. destruct (C21_objective _ _ _ _ _ v BK) as [e [Fe O]]. rewrite PE in Fe. injection Fe as <-.
      change (objective_value (sb_prog s) v == plan_cost v (money None)) in O. rewrite O, (plan_by_step _ _ _ _ _ _ OV AK Ho). cbn [steps]. rewrite seq_length.
      destruct (ob_effect _ _ _ _ OV _ Ho) as [_ [_ [IZ _]]]. rewrite (w_investments _ _ _ spot_memoryless RS) in IZ. unfold inv_from_effects in IZ. rewrite PE in IZ. cbn in IZ. rewrite IZ. ring. }
    assert (LOW : sumn m (fun t => cheapest (a + t)) <= objective_value (sb_prog s) y).
    { rewrite (COST y FY). apply sumn_le. intros t Ht. set (Z := fun l u => y l (u - a)%nat : Q). assert (HZ : forall l, Z l (a + t)%nat = y l t) by (intros l; unfold Z; f_equal; lia).
      rewrite (window_cost _ _ a m RS HR y Z _ _ t Ht HZ). change (length (fs_times fs_spot)) with 6%nat in HR. apply (spot_floor Z y); [lia|].
      apply (part_laws _ _ a m y Z t (w_na _ _ a m spot_memoryless) RS Ht HR HZ). eapply C63_full_calculation; [exact BK|exact FY|exact id_ord_perm|reflexivity|]. cbn [steps]. rewrite seq_length. exact Ht. }
    assert (VAL : objective_value (sb_prog s) (sb_values s) == sumn m (fun t => cheapest (a + t))); [|rewrite VAL; exact LOW].
    destruct (C21_objective _ _ _ _ _ (sb_values s) BK) as [e [Fe O]]. rewrite PE in Fe. injection Fe as <-. rewrite O, <- SV. unfold m, a. destruct k as [|[|k]]; [vm_compute; reflexivity|vm_compute; reflexivity|lia]. }
  exists g, subs, fa, pm. split; [exact F|]. split; [exact H1|]. split; [reflexivity|]. split; [exact OPT|].
  destruct (C91_optimal _ _ _ _ _ _ _ _ _ pm [gas] F id_ord_perm B spot_sensible spot_memoryless spot_apart FO spot_buses TWO OPT) as [z [e [Fe [BZ [SP [_ OZ]]]]]]. injection Fe as <-.
  exists z. split; [exact BZ|]. split; [exact SP|]. rewrite OZ. unfold result_cost. change (steps fs_spot None) with 6%nat.
  assert (E : sumn 6 (fun t => op_at (joined 3 subs) (money None) t) == sumn 6 cheapest).
  { apply sumn_ext. intros t Ht. destruct (joined_at _ _ _ _ _ _ _ _ _ _ t F Ht) as [_ [ET [TN [_ [s [E [_ HJ]]]]]]]. destruct (fin_sub _ _ _ _ _ _ _ _ _ _ F _ s E) as [_ [_ [SV _]]].
    injection SV as SV. unfold op_at. rewrite ET at 1. rewrite HJ, <- SV. clear - Ht. do 6 (destruct t as [|t]; [vm_compute; reflexivity|]). lia. }
  rewrite E. vm_compute. reflexivity.
Qed.
