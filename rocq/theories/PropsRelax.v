(** Claim C72: widening limits never makes the best result worse. *)
From Coq Require Import Permutation.
From Verif Require Import Base BaseFacts MathModel Spec Structure Params Features Elements Library System SysSpec AdmitSpec CtxFacts NavFacts PropsOnOff PropsComp PropsEffects PlanSpec Example
     TotalInvest PlanCheck ExamplePoints PropsPlan.

(** ** Specification *)

(** Limits: the second one is wider, or absent. *)
Definition no_higher (a b : option Q) : Prop := forall q', b = Some q' -> exists q, a = Some q /\ q' <= q.
Definition no_lower (a b : option Q) : Prop := forall q', b = Some q' -> exists q, a = Some q /\ q <= q'.
Definition no_higher_at (idx : option (list nat)) (n : nat) (a b : option param) : Prop :=
  forall p', b = Some p' -> exists p, a = Some p /\ forall t, (t < n)%nat -> value idx p' t <= value idx p t.
Definition no_lower_at (idx : option (list nat)) (n : nat) (a b : option param) : Prop :=
  forall p', b = Some p' -> exists p, a = Some p /\ forall t, (t < n)%nat -> value idx p t <= value idx p' t.

Record wider_onoff (idx : option (list nat)) (n : nat) (o o' : onoff) : Prop := {
  wo_effects : oo_switch_eff o' = oo_switch_eff o /\ oo_run_eff o' = oo_run_eff o;
  wo_hours : no_higher (oo_on_min o) (oo_on_min o') /\ no_lower (oo_on_max o) (oo_on_max o');
  wo_starts : no_lower (oo_sw_max o) (oo_sw_max o');
  wo_con : no_higher_at idx n (oo_con_min o) (oo_con_min o') /\ no_lower_at idx n (oo_con_max o) (oo_con_max o');
  wo_coff : no_higher_at idx n (oo_coff_min o) (oo_coff_min o') /\ no_lower_at idx n (oo_coff_max o) (oo_coff_max o')
}.
Definition wider_option {A} (R : A -> A -> Prop) (a b : option A) : Prop :=
  match a, b with None, None => True | Some x, Some y => R x y | _, _ => False end.

(** A size as stated by the user; without one the flow is as large as flixOpt's largest number. *)
Definition stated (cf : config) (q : option Q) : Q := match q with Some q => q | None => cf_big cf end.
Definition stated_max (cf : config) (iv : invest) : Q := match iv_fixed iv with Some q => q | None => stated cf (iv_max iv) end.
Record wider_invest (cf : config) (iv iv' : invest) : Prop := {
  wi_same : iv_fixed iv' = iv_fixed iv /\ iv_optional iv' = iv_optional iv /\ iv_seg iv' = iv_seg iv
            /\ iv_fix iv' = iv_fix iv /\ iv_spec iv' = iv_spec iv /\ iv_divest iv' = iv_divest iv;
  wi_min : 0 <= iv_min iv' /\ iv_min iv' <= iv_min iv;
  wi_max : 0 <= stated_max cf iv /\ stated_max cf iv <= stated_max cf iv'
}.

(** Flows: limits of the rate, of flow hours and of the load factor. For given sizes the absolute limits are compared, for
    investments the relative ones. A fixed profile may be dropped if the limits contain it. *)
Record wider_flow (cf : config) (idx : option (list nat)) (n : nat) (c c' : component) (f f' : flow) : Prop := {
  wf_same : f_id f' = f_id f /\ f_lab f' = f_lab f /\ f_bus f' = f_bus f /\ f_effects f' = f_effects f /\ f_prev f' = f_prev f;
  wf_profile : f_profile f' = f_profile f \/ f_profile f' = None;
  wf_onoff : wider_option (wider_onoff idx n) (f_onoff f) (f_onoff f');
  wf_hours : no_higher (f_fh_min f) (f_fh_min f') /\ no_lower (f_fh_max f) (f_fh_max f');
  wf_size : match sized cf c f, sized cf c' f' with
    | SzNum s, SzNum s' =>
        (forall t, (t < n)%nat -> rel_min idx f' t * stated cf s' <= rel_min idx f t * stated cf s /\ rel_max idx f t * stated cf s <= rel_max idx f' t * stated cf s')
        /\ no_higher (option_map (fun q => q * stated cf s) (f_lf_min f)) (option_map (fun q => q * stated cf s') (f_lf_min f'))
        /\ no_lower (option_map (fun q => q * stated cf s) (f_lf_max f)) (option_map (fun q => q * stated cf s') (f_lf_max f'))
    | SzInv iv, SzInv iv' => wider_invest cf iv iv'
        /\ (forall t, (t < n)%nat -> 0 <= rel_min idx f' t /\ rel_min idx f' t <= rel_min idx f t /\ 0 <= rel_max idx f t /\ rel_max idx f t <= rel_max idx f' t)
        /\ no_higher (f_lf_min f) (f_lf_min f') /\ no_lower (f_lf_max f) (f_lf_max f')
    | _, _ => False
    end
}.
Record wider_storage (cf : config) (idx : option (list nat)) (n : nat) (s s' : storage) : Prop := {
  ws_same : st_eta_c s' = st_eta_c s /\ st_eta_d s' = st_eta_d s /\ st_loss s' = st_loss s /\ st_init s' = st_init s;
  ws_final : no_higher (st_fmin s) (st_fmin s') /\ no_lower (st_fmax s) (st_fmax s');
  ws_levels : match st_cap s, st_cap s' with
    | CapNum q, CapNum q' => forall t, (t <= n)%nat -> value idx (st_relmin s') t * q' <= value idx (st_relmin s) t * q /\ value idx (st_relmax s) t * q <= value idx (st_relmax s') t * q'
    | CapInv iv, CapInv iv' => wider_invest cf iv iv' /\ forall t, (t <= n)%nat -> 0 <= value idx (st_relmin s') t /\ value idx (st_relmin s') t <= value idx (st_relmin s) t
         /\ 0 <= value idx (st_relmax s) t /\ value idx (st_relmax s) t <= value idx (st_relmax s') t
    | _, _ => False
    end
}.
Record wider_comp (cf : config) (idx : option (list nat)) (n : nat) (c c' : component) : Prop := {
  wc_same : cp_label c' = cp_label c /\ cp_prevent c' = cp_prevent c;
  wc_in : Forall2 (wider_flow cf idx n c c') (cp_in c) (cp_in c');
  wc_out : Forall2 (wider_flow cf idx n c c') (cp_out c) (cp_out c');
  wc_onoff : wider_option (wider_onoff idx n) (cp_onoff c) (cp_onoff c');
  wc_kind : match cp_kind c, cp_kind c' with StorageC s, StorageC s' => wider_storage cf idx n s s' | k, k' => k' = k end
}.
Record wider_effect (idx : option (list nat)) (n : nat) (e e' : effect) : Prop := {
  we_same : e_id e' = e_id e /\ e_label e' = e_label e /\ e_std e' = e_std e /\ e_obj e' = e_obj e /\ e_share_op e' = e_share_op e /\ e_share_inv e' = e_share_inv e;
  we_min : no_higher (e_min_op e) (e_min_op e') /\ no_higher (e_min_inv e) (e_min_inv e') /\ no_higher (e_min_tot e) (e_min_tot e') /\ no_higher_at idx n (e_min_ph e) (e_min_ph e');
  we_max : no_lower (e_max_op e) (e_max_op e') /\ no_lower (e_max_inv e) (e_max_inv e') /\ no_lower (e_max_tot e) (e_max_tot e') /\ no_lower_at idx n (e_max_ph e) (e_max_ph e')
}.
(** [fs'] is [fs] with wider limits. *)
Record wider (cf : config) (idx : option (list nat)) (fs fs' : flow_system) : Prop := {
  wd_same : fs_times fs' = fs_times fs /\ fs_end fs' = fs_end fs /\ fs_prev_dt fs' = fs_prev_dt fs;
  wd_hours : forall t, (t < steps fs idx)%nat -> 0 <= hours fs idx t;
  wd_effects : Forall2 (wider_effect idx (steps fs idx)) (fs_effects fs) (fs_effects fs');
  wd_comps : Forall2 (wider_comp cf idx (steps fs idx)) (fs_comps fs) (fs_comps fs')
}.
(** No size and no maximum size is given as zero. *)
Definition not_zero (q : option Q) : Prop := forall v, q = Some v -> ~ v == 0.
Definition no_zero_sizes (cf : config) (fs : flow_system) : Prop := forall c, In c (fs_comps fs) ->
  (forall f, In f (cp_flows c) -> match sized cf c f with SzNum q => not_zero q | SzInv iv => not_zero (iv_fixed iv) /\ not_zero (iv_max iv) end)
  /\ forall s iv, cp_kind c = StorageC s -> st_cap s = CapInv iv -> not_zero (iv_fixed iv) /\ not_zero (iv_max iv).

(** ** Facts *)
Lemma or_not_zero : forall q d, not_zero q -> or_num q d = match q with Some v => v | None => d end.
Proof. intros [v|] d H; [|reflexivity]. cbn. unfold truthy. destruct (Qeq_bool v 0) eqn:E; [|reflexivity]. apply Qeq_bool_iff in E. exfalso. exact (H v eq_refl E). Qed.
Lemma given_stated : forall cf q, not_zero q -> given_size cf q = stated cf q.
Proof. intros. apply or_not_zero. assumption. Qed.
Lemma max_stated : forall cf iv, not_zero (iv_fixed iv) -> not_zero (iv_max iv) -> max_size cf iv = stated_max cf iv.
Proof. intros cf iv A B. unfold max_size, stated_max. rewrite (or_not_zero _ _ A). destruct (iv_fixed iv); [reflexivity|]. apply or_not_zero. exact B. Qed.

Lemma F2_r : forall {A B} (R : A -> B -> Prop) l l' b, Forall2 R l l' -> In b l' -> exists a, In a l /\ R a b.
Proof. intros A B R l l' b F. induction F; intros []; [subst; exists x; cbn; auto|]. destruct (IHF H0) as [a [H1 H2]]. exists a. cbn; auto. Qed.
Lemma F2_map_eq : forall {A B C} (R : A -> B -> Prop) (h : A -> C) (h' : B -> C) l l', Forall2 R l l' -> (forall a b, R a b -> h' b = h a) -> map h' l' = map h l.
Proof. intros A B C R h h' l l' F H. induction F; [reflexivity|]. cbn [map]. rewrite IHF, (H _ _ H0). reflexivity. Qed.
Lemma F2_sum : forall {A B} (R : A -> B -> Prop) (h : A -> Q) (h' : B -> Q) l l', Forall2 R l l' -> (forall a b, R a b -> h' b == h a) -> Qsum (map h' l') == Qsum (map h l).
Proof. intros A B R h h' l l' F H. induction F; [reflexivity|]. cbn. rewrite IHF, (H _ _ H0). reflexivity. Qed.

Lemma F2_l : forall {A B} (R : A -> B -> Prop) l l' a, Forall2 R l l' -> In a l -> exists b, In b l' /\ R a b.
Proof. intros A B R l l' a F. induction F; intros []; [subst; exists y; cbn; auto|]. destruct (IHF H0) as [b [H1 H2]]. exists b. cbn; auto. Qed.
Lemma F2_filter : forall {A B} (R : A -> B -> Prop) g g' l l', Forall2 R l l' -> (forall a b, R a b -> g' b = g a) -> Forall2 R (filter g l) (filter g' l').
Proof. intros A B R g g' l l' F H. induction F; [constructor|]. cbn [filter]. rewrite (H _ _ H0). destruct (g x); [constructor|]; assumption. Qed.
Lemma F2_flat_map : forall {A B C D} (R : A -> B -> Prop) (S : C -> D -> Prop) h h' l l', Forall2 R l l' -> (forall a b, R a b -> Forall2 S (h a) (h' b)) -> Forall2 S (flat_map h l) (flat_map h' l').
Proof. intros A B C D R S h h' l l' F H. induction F; [constructor|]. cbn [flat_map]. apply Forall2_app; auto. Qed.

Lemma F2_cons_r : forall {A B} (R : A -> B -> Prop) l b l', Forall2 R l (b :: l') -> exists a r, l = a :: r /\ R a b /\ Forall2 R r l'.
Proof. intros A B R l b l' F. inversion F. subst. eauto. Qed.
Lemma F2_opt : forall (R : flow -> flow -> Prop) l o', Forall2 R l (opt_flow o') -> exists o, l = opt_flow o /\ wider_option R o o'.
Proof. intros R l [f'|] F; cbn in F; inversion F as [|f ? r ? H F2]; subst; [inversion F2; exists (Some f)|exists None]; split; auto. exact I. Qed.

Lemma mul_le : forall a b c d, 0 <= a -> a <= b -> 0 <= c -> c <= d -> a * c <= b * d.
Proof. intros. apply Qle_trans with (b * c); [apply Qmult_le_compat_r; assumption|]. rewrite (Qmult_comm b c), (Qmult_comm b d). apply Qmult_le_compat_r; [assumption|]. lra. Qed.


Section Wider.
Variables (cf : config) (idx : option (list nat)) (fs fs' : flow_system) (x : asg).
Hypothesis W : wider cf idx fs fs'.
Hypothesis NZ : no_zero_sizes cf fs.
Hypothesis NZ' : no_zero_sizes cf fs'.
Hypothesis N2 : (0 < steps fs idx)%nat.
Let n := steps fs idx.

Lemma w_steps : steps fs' idx = steps fs idx. Proof. destruct (wd_same _ _ _ _ W) as [T _]. unfold steps. rewrite T. reflexivity. Qed.
Lemma w_hours : forall t, hours fs' idx t = hours fs idx t. Proof. destruct (wd_same _ _ _ _ W) as [T [E _]]. intros t. unfold hours, stamp. rewrite w_steps, T, E. reflexivity. Qed.
Lemma w_horizon : horizon fs' idx == horizon fs idx.
Proof. unfold horizon. rewrite w_steps. apply sumn_ext. intros t _. rewrite w_hours. reflexivity. Qed.
Lemma horizon_pos : 0 <= horizon fs idx.
Proof.
  unfold horizon, sumn. apply Qsum_nonneg. intros q Hq. apply in_map_iff in Hq. destruct Hq as [t [<- Ht]]. apply in_seq in Ht. apply (wd_hours _ _ _ _ W). lia.
Qed.

Lemma limits_wider : forall prior b dmin dmax dmin' dmax', no_higher_at idx n dmin dmin' -> no_lower_at idx n dmax dmax' ->
  obeys_limits fs idx prior b dmin dmax -> obeys_limits fs' idx prior b dmin' dmax'.
Proof.
  intros prior b dmin dmax dmin' dmax' L U [A [B C]]. unfold obeys_limits. rewrite w_steps.
  assert (RH : forall s t, run_hours (hours fs' idx) prior s t = run_hours (hours fs idx) prior s t) by (intros; unfold run_hours, span; f_equal; f_equal; apply map_ext; exact w_hours).
  split; [|split].
  - intros p' s t E Ht R. destruct (U p' E) as [p [E' V]]. rewrite RH. specialize (A p s t E' Ht R). specialize (V t Ht). lra.
  - intros p' s t E Ht R Z. destruct (L p' E) as [p [E' V]]. rewrite RH. specialize (B p s t E' Ht R Z). specialize (V t ltac:(unfold n; lia)). lra.
  - intros p' E P0 P1. destruct (L p' E) as [p [E' V]]. apply (C p E' P0). specialize (V 0%nat N2). lra.
Qed.
Lemma rules_wider : forall states o o' on, wider_onoff idx n o o' -> onoff_rules fs idx states o on -> onoff_rules fs' idx states o' on.
Proof.
  intros states o o' on [_ [H1 H2] H3 [H4 H5] [H6 H7]] [A [B [C [D E]]]]. unfold onoff_rules. rewrite w_steps. destruct (wd_same _ _ _ _ W) as [_ [_ PD]]. rewrite PD.
  assert (TH : sumn (steps fs idx) (fun t => hours fs' idx t * on t) == sumn (steps fs idx) (fun t => hours fs idx t * on t)) by (apply sumn_ext; intros t _; rewrite w_hours; reflexivity).
  split; [|split; [|split; [|split]]].
  - intros q' Q'. destruct (H1 q' Q') as [q [Q1 Q2]]. specialize (A q Q1). rewrite TH. lra.
  - intros q' Q'. destruct (H2 q' Q') as [q [Q1 Q2]]. specialize (B q Q1). rewrite TH. lra.
  - intros q' Q'. destruct (H3 q' Q') as [q [Q1 Q2]]. specialize (C q Q1). lra.
  - eapply limits_wider; eassumption.
  - eapply limits_wider; eassumption.
Qed.

Lemma allowed_wider : forall iv iv' size d, wider_invest cf iv iv' -> max_size cf iv = stated_max cf iv -> max_size cf iv' = stated_max cf iv' ->
  allowed_size cf iv size d -> allowed_size cf iv' size d.
Proof.
  intros iv iv' size d [[F [O _]] [M1 M2] [M3 M4]] E E' A. unfold allowed_size, fixed_size in *. rewrite F, O.
  destruct (iv_fixed iv) as [q|]; [destruct (Qeq_bool q 0)|]; destruct (iv_optional iv); rewrite ?E in *; rewrite ?E' in *; intuition lra.
Qed.
Lemma allowed_pos : forall iv iv' size d, wider_invest cf iv iv' -> allowed_size cf iv size d -> 0 <= size.
Proof.
  intros iv iv' size d [[F [O _]] [M1 M2] [M3 M4]] A. unfold allowed_size, fixed_size, stated_max in *.
  destruct (iv_fixed iv) as [q|]; [destruct (Qeq_bool q 0)|]; destruct (iv_optional iv); intuition lra.
Qed.

Lemma onoff_some : forall o o', wider_option (wider_onoff idx n) o o' -> is_some o' = is_some o.
Proof. intros [o|] [o'|] H; try reflexivity; destruct H. Qed.
Lemma same_onoff : forall o, wider_onoff idx n o o.
Proof.
  assert (H1 : forall a, no_higher a a) by (intros a q E; exists q; split; [exact E|lra]). assert (H2 : forall a, no_lower a a) by (intros a q E; exists q; split; [exact E|lra]).
  assert (H3 : forall a, no_higher_at idx n a a) by (intros a p E; exists p; split; [exact E|intros; lra]). assert (H4 : forall a, no_lower_at idx n a a) by (intros a p E; exists p; split; [exact E|intros; lra]).
  intros o. constructor; auto.
Qed.
Lemma w_loss : forall p, any_loss fs' idx p = any_loss fs idx p. Proof. intros p. unfold any_loss. rewrite w_steps. reflexivity. Qed.
Lemma governed_wider : forall c c' f f', wider_comp cf idx n c c' -> wider_flow cf idx n c c' f f' -> wider_option (wider_onoff idx n) (governed fs idx c f) (governed fs' idx c' f').
Proof.
  intros c c' f f' WC WF. unfold governed. pose proof (wf_onoff _ _ _ _ _ _ _ WF) as O. destruct (f_onoff f) as [o|], (f_onoff f') as [o'|]; try contradiction; [exact O|].
  replace (induced fs' idx c' f') with (induced fs idx c f); [destruct (induced fs idx c f); cbn; auto using same_onoff|].
  unfold induced. destruct (wc_same _ _ _ _ _ WC) as [_ P]. destruct (wf_same _ _ _ _ _ _ _ WF) as [I _]. rewrite P, I, (onoff_some _ _ (wc_onoff _ _ _ _ _ WC)). f_equal.
  pose proof (wc_kind _ _ _ _ _ WC) as K. destruct (cp_kind c) as [ | | |s|r [p|]], (cp_kind c') as [ | | |s'|r' [p'|]]; try discriminate K; try reflexivity. inversion K. rewrite w_loss. reflexivity.
Qed.
Lemma governed_none : forall c c' f f', wider_comp cf idx n c c' -> wider_flow cf idx n c c' f f' -> (governed fs' idx c' f' = None <-> governed fs idx c f = None).
Proof. intros c c' f f' WC WF. pose proof (governed_wider _ _ _ _ WC WF) as G. destruct (governed fs idx c f), (governed fs' idx c' f'); try contradiction; split; congruence. Qed.

Lemma names_wider : forall c c' f f', wider_comp cf idx n c c' -> wider_flow cf idx n c c' f f' -> flow_name c' f' = flow_name c f.
Proof. intros c c' f f' WC WF. unfold flow_name. destruct (wc_same _ _ _ _ _ WC) as [-> _]. destruct (wf_same _ _ _ _ _ _ _ WF) as [_ [-> _]]. reflexivity. Qed.
Lemma rate_wider : forall c c' f f' t, wider_comp cf idx n c c' -> wider_flow cf idx n c c' f f' -> rate_of x c' f' t = rate_of x c f t.
Proof. intros c c' f f' t WC WF. unfold rate_of. rewrite (names_wider _ _ _ _ WC WF). reflexivity. Qed.
Lemma on_wider : forall c c' f f' t, wider_comp cf idx n c c' -> wider_flow cf idx n c c' f f' -> on_of x c' f' t = on_of x c f t.
Proof. intros c c' f f' t WC WF. unfold on_of. rewrite (names_wider _ _ _ _ WC WF). reflexivity. Qed.

Lemma flow_wider : forall c c' f f', In c (fs_comps fs) -> In c' (fs_comps fs') -> In f (cp_flows c) -> In f' (cp_flows c') -> wider_comp cf idx n c c' -> wider_flow cf idx n c c' f f' ->
  flow_rule cf fs idx x c f -> flow_rule cf fs' idx x c' f'.
Proof.
  intros c c' f f' Hc Hc' Hf Hf' WC WF [AL MK]. pose proof (governed_wider _ _ _ _ WC WF) as GW. pose proof (governed_none _ _ _ _ WC WF) as GN.
  pose proof (fun t => rate_wider _ _ _ _ t WC WF) as RT. pose proof (fun t => on_wider _ _ _ _ t WC WF) as ON. pose proof (names_wider _ _ _ _ WC WF) as NM.
  destruct (wf_same _ _ _ _ _ _ _ WF) as [_ [_ [_ [_ PV]]]].
  assert (RN : forall t, runs x c' f' t = runs x c f t) by (intros t; unfold runs; rewrite ON; reflexivity).
  assert (PS : prior_states cf f' = prior_states cf f) by (unfold prior_states; rewrite PV; reflexivity).
  destruct (NZ c Hc) as [Z _]. specialize (Z f Hf). destruct (NZ' c' Hc') as [Z' _]. specialize (Z' f' Hf').
  pose proof (wf_size _ _ _ _ _ _ _ WF) as SZ. destruct AL as [A1 A2 A3 A4 A5 A6 [A7 [A8 [A9 A10]]]].
  assert (POS : forall iv, sized cf c f = SzInv iv -> 0 <= size_of cf x c f).
  { intros iv E. unfold size_of. rewrite E. rewrite E in SZ. destruct (sized cf c' f') as [|iv']; [contradiction|]. destruct SZ as [WI _]. exact (allowed_pos _ _ _ _ WI (A5 iv E)). }
  assert (LIM : forall t r, (t < n)%nat -> within_limits cf idx c f t r -> within_limits cf idx c' f' t r).
  { intros t r Ht [L U]. unfold within_limits, size_range in *. destruct (sized cf c f) as [s|iv], (sized cf c' f') as [s'|iv']; try contradiction.
    - destruct SZ as [SZ _]. specialize (SZ t Ht). cbn [fst snd] in *. rewrite (given_stated cf s Z) in *. rewrite (given_stated cf s' Z'). lra.
    - destruct SZ as [[[F _] [M1 M2] [M3 M4]] [RL _]]. destruct (RL t Ht) as [R1 [R2 [R3 R4]]]. rewrite (max_stated cf iv) in * by apply Z. rewrite (max_stated cf iv') by apply Z'. rewrite F.
      unfold stated_max in *. rewrite F in *. destruct (iv_fixed iv) as [q|]; cbn [fst snd] in *.
      + pose proof (mul_le _ _ q q R1 R2 M3 (Qle_refl q)). pose proof (mul_le _ _ q q R3 R4 M3 (Qle_refl q)). lra.
      + pose proof (mul_le _ _ _ _ R1 R2 M1 M2). pose proof (mul_le _ _ _ _ R3 R4 M3 M4). lra. }
  split; [constructor|].
  - rewrite w_steps. intros G t Ht. rewrite RT. apply LIM; [exact Ht|]. apply A1; [apply GN; exact G|exact Ht].
  - rewrite w_steps. intros G t Ht R. rewrite RT. rewrite RN in R. apply A2; auto. intros G'. apply G. apply GN. exact G'.
  - rewrite w_steps. intros G t Ht R. rewrite RT. rewrite RN in R. destruct (A3 ltac:(intros G'; apply G; apply GN; exact G') t Ht R) as [E L]. split; [exact E|apply LIM; assumption].
  - intros o' G. rewrite G in GW. destruct (governed fs idx c f) as [o|] eqn:G0; [|contradiction]. cbn in GW. rewrite PS. pose proof (rules_wider _ _ _ _ GW (A4 o eq_refl)) as RW.
    assert (FE : forall t, q01 (runs x c' f' t) = q01 (runs x c f t)) by (intros; rewrite RN; reflexivity). clear -RW FE.
    (* patterns that agree everywhere *)
    destruct RW as [R1 [R2 [R3 [R4 R5]]]].
    assert (S1 : sumn (steps fs' idx) (fun t => hours fs' idx t * q01 (runs x c' f' t)) == sumn (steps fs' idx) (fun t => hours fs' idx t * q01 (runs x c f t))) by (apply sumn_ext; intros t _; rewrite FE; reflexivity).
    assert (S2 : forall b, starts b (fun t => q01 (runs x c' f' t)) (steps fs' idx) = starts b (fun t => q01 (runs x c f t)) (steps fs' idx)).
    { intros b. unfold starts. f_equal. apply filter_ext. intros t. unfold before. destruct t; rewrite !FE; reflexivity. }
    assert (S3 : forall (h h' : nat -> Q) prior a b, (forall t, h' t = h t) -> obeys_limits fs' idx prior h a b -> obeys_limits fs' idx prior h' a b).
    { intros h h' prior a b E [X [Y Z]]. assert (RR : forall s t, is_run h' s t -> is_run h s t) by (intros s t [Q1 [Q2 Q3]]; split; [exact Q1|]; split; [intros i Hi; rewrite <- E; apply Q2; exact Hi|intros k Hk; rewrite <- E; apply Q3; exact Hk]).
      split; [|split]; intros; rewrite ?E in *; eauto. }
    split; [|split; [|split; [|split]]].
    + intros q Q0. rewrite S1. apply R1. exact Q0.
    + intros q Q0. rewrite S1. apply R2. exact Q0.
    + intros q Q0. rewrite S2. apply R3. exact Q0.
    + eapply S3; [|exact R4]. exact FE.
    + eapply S3; [|exact R5]. intros t. cbv beta. rewrite FE. reflexivity.
  - intros iv' E'. rewrite NM. rewrite E' in SZ, Z'. destruct (sized cf c f) as [s|iv] eqn:E; [contradiction|]. destruct SZ as [WI _].
    eapply allowed_wider; [exact WI|apply max_stated; apply Z|apply max_stated; apply Z'|]. apply A5. reflexivity.
  - rewrite w_steps. intros iv' E' t Ht. rewrite RT, RN. rewrite E' in SZ, Z'. destruct (sized cf c f) as [s|iv] eqn:E; [contradiction|]. destruct SZ as [WI [RL _]].
    assert (SO : size_of cf x c' f' = size_of cf x c f) by (unfold size_of; rewrite E, E', NM; reflexivity). rewrite SO. specialize (A6 iv eq_refl t Ht). specialize (POS iv eq_refl).
    destruct (RL t Ht) as [R1 [R2 [R3 R4]]]. unfold rel_min, rel_max in R1, R2, R3, R4.
    destruct (wf_profile _ _ _ _ _ _ _ WF) as [P|P]; rewrite P in *; destruct (f_profile f) as [p|]; try exact A6.
    + destruct A6 as [U L]. split; [pose proof (Qmult_le_compat_r _ _ _ R4 POS); lra|]. intros G. rewrite GN in G. specialize (L G). pose proof (Qmult_le_compat_r _ _ _ R2 POS). lra.
    + pose proof (Qmult_le_compat_r _ _ _ R4 POS). pose proof (Qmult_le_compat_r _ _ _ R2 POS). split; [lra|intros _; lra].
    + destruct A6 as [U L]. split; [pose proof (Qmult_le_compat_r _ _ _ R4 POS); lra|]. intros G. rewrite GN in G. specialize (L G). pose proof (Qmult_le_compat_r _ _ _ R2 POS). lra.
  - cbv zeta. rewrite w_steps. assert (TT : sumn (steps fs idx) (fun t => hours fs' idx t * rate_of x c' f' t) == sumn (steps fs idx) (fun t => hours fs idx t * rate_of x c f t)) by (apply sumn_ext; intros t _; rewrite w_hours, RT; reflexivity).
    destruct (wf_hours _ _ _ _ _ _ _ WF) as [H1 H2]. pose proof horizon_pos as HP.
    assert (LF : (forall q', f_lf_min f' = Some q' -> exists q, f_lf_min f = Some q /\ q' * size_of cf x c' f' <= q * size_of cf x c f)
              /\ (forall q', f_lf_max f' = Some q' -> exists q, f_lf_max f = Some q /\ q * size_of cf x c f <= q' * size_of cf x c' f')).
    { unfold size_of in *. rewrite NM. destruct (sized cf c f) as [s|iv], (sized cf c' f') as [s'|iv']; try contradiction.
      - destruct SZ as [_ [L U]]. rewrite (given_stated cf s Z), (given_stated cf s' Z'). split; intros q' E.
        + destruct (L (q' * stated cf s')) as [q0 [X Y]]; [rewrite E; reflexivity|]. destruct (f_lf_min f) as [q|]; [|discriminate]. exists q. split; [reflexivity|]. cbn in X. inversion X. subst q0. exact Y.
        + destruct (U (q' * stated cf s')) as [q0 [X Y]]; [rewrite E; reflexivity|]. destruct (f_lf_max f) as [q|]; [|discriminate]. exists q. split; [reflexivity|]. cbn in X. inversion X. subst q0. exact Y.
      - destruct SZ as [_ [_ [L U]]]. specialize (POS iv eq_refl). split; intros q' E; [destruct (L q' E) as [q [X Y]]|destruct (U q' E) as [q [X Y]]]; exists q; (split; [exact X|apply Qmult_le_compat_r; assumption]). }
    destruct LF as [L1 L2]. split; [|split; [|split]].
    + intros q' E. destruct (H1 q' E) as [q [X Y]]. specialize (A7 q X). rewrite TT. lra.
    + intros q' E. destruct (H2 q' E) as [q [X Y]]. specialize (A8 q X). rewrite TT. lra.
    + intros q' E. destruct (L1 q' E) as [q [X Y]]. specialize (A9 q X). rewrite w_horizon, TT. pose proof (Qmult_le_compat_r _ _ _ Y HP). lra.
    + intros q' E. destruct (L2 q' E) as [q [X Y]]. specialize (A10 q X). rewrite w_horizon, TT. pose proof (Qmult_le_compat_r _ _ _ Y HP). lra.
  - intros G. assert (G0 : governed fs idx c f <> None) by (intros G'; apply G; apply GN; exact G'). rewrite w_steps, NM. replace (was_on cf f') with (was_on cf f) by (unfold was_on; rewrite PS; reflexivity). exact (MK G0).
Qed.

(** Components. *)
Hypothesis IDS : forall c, In c (fs_comps fs) -> NoDup (map f_id (cp_flows c)).
Hypothesis IDS' : forall c, In c (fs_comps fs') -> NoDup (map f_id (cp_flows c)).

Lemma flows_wider : forall c c', wider_comp cf idx n c c' -> Forall2 (wider_flow cf idx n c c') (cp_flows c) (cp_flows c').
Proof. intros c c' WC. apply Forall2_app; [exact (wc_in _ _ _ _ _ WC)|exact (wc_out _ _ _ _ _ WC)]. Qed.
Lemma states_wider : forall c c', wider_comp cf idx n c c' -> comp_states cf c' = comp_states cf c.
Proof.
  intros c c' WC. unfold comp_states. pose proof (flows_wider _ _ WC) as FW.
  assert (PV : forall f f', wider_flow cf idx n c c' f f' -> f_prev f' = f_prev f) by (intros f f' WF; apply (wf_same _ _ _ _ _ _ _ WF)).
  assert (PS : forall f f', wider_flow cf idx n c c' f f' -> prior_states cf f' = prior_states cf f) by (intros f f' WF; unfold prior_states; rewrite (PV _ _ WF); reflexivity).
  assert (FF : Forall2 (wider_flow cf idx n c c') (filter gives_prev (cp_flows c)) (filter gives_prev (cp_flows c'))).
  { apply (F2_filter _ gives_prev gives_prev); [exact FW|]. intros f f' WF. unfold gives_prev. rewrite (PV _ _ WF). reflexivity. }
  assert (EX : forall l l' j, Forall2 (wider_flow cf idx n c c') l l' -> existsb (fun g => nth j (prior_states cf g) false) l' = existsb (fun g => nth j (prior_states cf g) false) l).
  { intros l l' j F. induction F as [|f f' l l' H F IH]; [reflexivity|]. cbn [existsb]. rewrite (PS _ _ H), IH. reflexivity. }
  inversion FF as [E1 E2|f f' l l' H F E1 E2]; [reflexivity|]. rewrite (PS _ _ H). apply map_ext. intros j. apply EX. rewrite E1, E2. exact FF.
Qed.
Lemma running_wider : forall c c' p', wider_comp cf idx n c c' -> (forall p, cp_onoff c = Some p -> running_rule cf fs idx x c p) ->
  cp_onoff c' = Some p' -> running_rule cf fs' idx x c' p'.
Proof.
  intros c c' p' WC RR E'. pose proof (wc_onoff _ _ _ _ _ WC) as O. rewrite E' in O. destruct (cp_onoff c) as [p|]; [|contradiction]. cbn in O.
  destruct (RR p eq_refl) as [M [Z R]]. destruct (wc_same _ _ _ _ _ WC) as [L _]. unfold running_rule. rewrite w_steps, L, (states_wider _ _ WC). split; [exact M|split].
  - intros t Ht. rewrite (Z t Ht). pose proof (flows_wider _ _ WC) as FW. split; intros H.
    + intros f' Hf'. destruct (F2_r _ _ _ _ FW Hf') as [f [Hf WF]]. rewrite (rate_wider _ _ _ _ t WC WF). apply H. exact Hf.
    + intros f Hf. destruct (F2_l _ _ _ _ FW Hf) as [f' [Hf' WF]]. rewrite <- (rate_wider _ _ _ _ t WC WF). apply H. exact Hf'.
  - exact (rules_wider _ _ _ _ O R).
Qed.
Lemma exclusion_wider : forall c c', In c' (fs_comps fs') -> wider_comp cf idx n c c' -> exclusion_rule fs idx x c -> exclusion_rule fs' idx x c'.
Proof.
  intros c c' Hc' WC EX f' g' t Hf' Hg' NE Pf Pg Ht. rewrite w_steps in Ht. pose proof (flows_wider _ _ WC) as FW. destruct (wc_same _ _ _ _ _ WC) as [_ P]. rewrite P in Pf, Pg.
  destruct (F2_r _ _ _ _ FW Hf') as [f [Hf WF]]. destruct (F2_r _ _ _ _ FW Hg') as [g [Hg WG]].
  destruct (wf_same _ _ _ _ _ _ _ WF) as [I1 _]. destruct (wf_same _ _ _ _ _ _ _ WG) as [I2 _].
  rewrite (rate_wider _ _ _ _ t WC WF), (rate_wider _ _ _ _ t WC WG). rewrite I1 in Pf. rewrite I2 in Pg.
  apply EX; auto. intros E. apply NE. subst g. apply (NoDup_map_eq_ f_id (cp_flows c')); auto. congruence.
Qed.
Lemma weighted_wider : forall c c' fac l l' t, wider_comp cf idx n c c' -> Forall2 (wider_flow cf idx n c c') l l' -> weighted idx x c' fac l' t == weighted idx x c fac l t.
Proof.
  intros c c' fac l l' t WC F. unfold weighted. apply (F2_sum _ _ _ _ _ F). intros f f' WF. unfold factor_of. destruct (wf_same _ _ _ _ _ _ _ WF) as [-> _]. rewrite (rate_wider _ _ _ _ t WC WF). reflexivity.
Qed.
Lemma segmented_wider : forall c c' segs, wider_comp cf idx n c c' -> segmented_rule fs idx x c segs -> segmented_rule fs' idx x c' segs.
Proof.
  intros c c' segs WC H t Ht. rewrite w_steps in Ht. pose proof (flows_wider _ _ WC) as FW. destruct (wc_same _ _ _ _ _ WC) as [L _]. rewrite L.
  assert (O : cp_onoff c' <> None <-> cp_onoff c <> None) by (pose proof (wc_onoff _ _ _ _ _ WC) as O; destruct (cp_onoff c), (cp_onoff c'); try contradiction; split; congruence).
  destruct (H t Ht) as [[k [w [W0 [W1 [P Q0]]]]]|[Q0 [Z R]]].
  - left. exists k, w. split; [exact W0|]. split; [exact W1|]. split; [|intros X; apply Q0, O, X]. intros f' Hf'. destruct (F2_r _ _ _ _ FW Hf') as [f [Hf WF]]. destruct (P f Hf) as [ab [N0 OP]].
    exists ab. unfold segments_of, on_piece in *. destruct (wf_same _ _ _ _ _ _ _ WF) as [-> _]. rewrite (rate_wider _ _ _ _ t WC WF). auto.
  - right. split; [apply O, Q0|]. split; [exact Z|]. intros f' Hf'. destruct (F2_r _ _ _ _ FW Hf') as [f [Hf WF]]. rewrite (rate_wider _ _ _ _ t WC WF). apply R. exact Hf.
Qed.
Lemma storage_wider : forall c c' s s' ch dis ch' dis', In c (fs_comps fs) -> In c' (fs_comps fs') -> wider_comp cf idx n c c' -> cp_kind c = StorageC s -> cp_kind c' = StorageC s' ->
  wider_storage cf idx n s s' -> wider_flow cf idx n c c' ch ch' -> wider_flow cf idx n c c' dis dis' -> storage_rule cf fs idx x c s ch dis -> storage_rule cf fs' idx x c' s' ch' dis'.
Proof.
  intros c c' s s' ch dis ch' dis' Hc Hc' WC K K' [[E1 [E2 [E3 E4]]] [F1 F2] LV] WF WG [B [LM [AL [I0 [IL [FX FM]]]]]]. destruct (wc_same _ _ _ _ _ WC) as [L _].
  assert (CH : forall t, charge x c' t = charge x c t) by (intros t; unfold charge; rewrite L; reflexivity). unfold storage_rule. rewrite w_steps.
  destruct (NZ c Hc) as [_ Z]. destruct (NZ' c' Hc') as [_ Z'].
  split; [|split; [|split; [|split; [|split; [|split]]]]].
  - intros t Ht. rewrite E1, E2, E3, !CH, w_hours, (rate_wider _ _ _ _ t WC WF), (rate_wider _ _ _ _ t WC WG). apply B. exact Ht.
  - intros t Ht. rewrite CH. destruct (LM t Ht) as [L1 [L2 [L3 L4]]]. unfold capacity in *. rewrite L. destruct (st_cap s) as [q|iv] eqn:C, (st_cap s') as [q'|iv'] eqn:C'; try contradiction.
    + destruct (LV t Ht). cbn [cap_range fst snd] in *. lra.
    + destruct LV as [WI LV]. destruct (LV t Ht) as [R1 [R2 [R3 R4]]]. pose proof (allowed_pos _ _ _ _ WI (AL iv eq_refl)) as POS.
      destruct (Z s iv K C) as [Z1 Z2]. destruct (Z' s' iv' K' C') as [Z1' Z2']. destruct WI as [[F _] [M1 M2] [M3 M4]]. cbn [cap_range fst snd] in *.
      rewrite (max_stated cf iv Z1 Z2) in *. rewrite (max_stated cf iv' Z1' Z2') in *. rewrite (or_not_zero _ _ Z1) in *. rewrite (or_not_zero _ _ Z1') in *.
      pose proof (Qmult_le_compat_r _ _ _ R2 POS). pose proof (Qmult_le_compat_r _ _ _ R4 POS). pose proof (mul_le _ _ _ _ R3 R4 M3 M4).
      assert (LO : value idx (st_relmin s') t * match iv_fixed iv' with Some v => v | None => iv_min iv' end <= value idx (st_relmin s) t * match iv_fixed iv with Some v => v | None => iv_min iv end).
      { unfold stated_max in *. rewrite F in *. destruct (iv_fixed iv); apply mul_le; auto using Qle_refl. }
      lra.
  - intros iv' C'. rewrite L. rewrite C' in LV. destruct (st_cap s) as [q|iv] eqn:C; [contradiction|]. destruct LV as [WI _]. destruct (Z s iv K C) as [Z1 Z2]. destruct (Z' s' iv' K' C') as [Z1' Z2'].
    eapply allowed_wider; [exact WI|apply max_stated; assumption|apply max_stated; assumption|]. apply AL. reflexivity.
  - intros q. rewrite E4, CH. apply I0.
  - rewrite E4, !CH. exact IL.
  - rewrite E4, CH. intros NI q' Q'. destruct (F2 q' Q') as [q [X Y]]. specialize (FX NI q X). lra.
  - rewrite E4, CH. intros NI q' Q'. destruct (F1 q' Q') as [q [X Y]]. specialize (FM NI q X). lra.
Qed.
Lemma carries_wider : forall c c' rel abs i o i' o', wider_comp cf idx n c c' -> wider_flow cf idx n c c' i i' -> wider_flow cf idx n c c' o o' ->
  carries fs idx x c rel abs i o -> carries fs' idx x c' rel abs i' o'.
Proof.
  intros c c' rel abs i o i' o' WC WI WO H t Ht. rewrite w_steps in Ht. rewrite (rate_wider _ _ _ _ t WC WI), (rate_wider _ _ _ _ t WC WO). specialize (H t Ht). destruct abs; rewrite ?(on_wider _ _ _ _ t WC WI); exact H.
Qed.
Lemma first_sized : forall c rel abs in1 in2 r, NoDup (map f_id (cp_flows c)) -> cp_kind c = TransmissionC rel abs -> cp_in c = in1 :: in2 :: r -> sized cf c in1 = f_size in1.
Proof.
  intros c rel abs in1 in2 r ND K I. unfold sized. rewrite K, I. unfold cp_flows in ND. rewrite I in ND. cbn in ND. inversion ND as [|? ? N1 _].
  destruct (Nat.eqb (f_id in1) (f_id in2)) eqn:E; [|reflexivity]. apply Nat.eqb_eq in E. exfalso. apply N1. left. symmetry. exact E.
Qed.
Lemma second_sized : forall c rel abs in1 in2 r iv, cp_kind c = TransmissionC rel abs -> cp_in c = in1 :: in2 :: r -> f_size in1 = SzInv iv -> exists iv2, sized cf c in2 = SzInv iv2.
Proof. intros c rel abs in1 in2 r iv K I E. unfold sized. rewrite K, I, Nat.eqb_refl, E. destruct (f_size in2); eauto. Qed.
Lemma transmission_wider : forall c c' rel abs in1' out1' in2' out2', In c (fs_comps fs) -> In c' (fs_comps fs') -> wider_comp cf idx n c c' -> cp_kind c = TransmissionC rel abs -> cp_kind c' = TransmissionC rel abs ->
  (forall in1 out1 in2 out2, cp_in c = in1 :: opt_flow in2 -> cp_out c = out1 :: opt_flow out2 -> transmission_rule cf fs idx x c rel abs in1 out1 in2 out2) ->
  cp_in c' = in1' :: opt_flow in2' -> cp_out c' = out1' :: opt_flow out2' -> transmission_rule cf fs' idx x c' rel abs in1' out1' in2' out2'.
Proof.
  intros c c' rel abs in1' out1' in2' out2' Hc Hc' WC K K' H I' O'. pose proof (wc_in _ _ _ _ _ WC) as FI. pose proof (wc_out _ _ _ _ _ WC) as FO. rewrite I' in FI. rewrite O' in FO.
  destruct (F2_cons_r _ _ _ _ FI) as [in1 [ti [EI [W1 FI2]]]]. destruct (F2_cons_r _ _ _ _ FO) as [out1 [to [EO [W2 FO2]]]].
  destruct (F2_opt _ _ _ FI2) as [in2 [-> R2]]. destruct (F2_opt _ _ _ FO2) as [out2 [-> R4]].
  destruct in2 as [i2|], in2' as [i2'|]; try contradiction; destruct out2 as [o2|], out2' as [o2'|]; try contradiction; cbn in R2, R4; rename R2 into W3; rename R4 into W4.
  - destruct (H in1 out1 (Some i2) (Some o2) EI EO) as [C1 [C2 S]]. split; [exact (carries_wider _ _ _ _ _ _ _ _ WC W1 W2 C1)|]. split; [exact (carries_wider _ _ _ _ _ _ _ _ WC W3 W4 C2)|].
    intros iv' E'. assert (S1' : sized cf c' in1' = SzInv iv') by (rewrite (first_sized _ _ _ _ _ _ (IDS' _ Hc') K' I'); exact E').
    pose proof (wf_size _ _ _ _ _ _ _ W1) as Z. rewrite S1' in Z. destruct (sized cf c in1) as [q|iv] eqn:S1; [contradiction|].
    assert (E : f_size in1 = SzInv iv) by (rewrite <- S1; symmetry; exact (first_sized _ _ _ _ _ _ (IDS _ Hc) K EI)).
    specialize (S iv E). destruct (second_sized _ _ _ _ _ _ _ K EI E) as [iv2 S2]. destruct (second_sized _ _ _ _ _ _ _ K' I' E') as [iv2' S2'].
    unfold size_of in *. rewrite S1, S2 in S. rewrite S1', S2'. rewrite (names_wider _ _ _ _ WC W1), (names_wider _ _ _ _ WC W3). exact S.
  - destruct (H in1 out1 (Some i2) None EI EO) as [C1 _]. split; [exact (carries_wider _ _ _ _ _ _ _ _ WC W1 W2 C1)|exact I].
  - destruct (H in1 out1 None (Some o2) EI EO) as [C1 _]. split; [exact (carries_wider _ _ _ _ _ _ _ _ WC W1 W2 C1)|exact I].
  - destruct (H in1 out1 None None EI EO) as [C1 _]. split; [exact (carries_wider _ _ _ _ _ _ _ _ WC W1 W2 C1)|exact I].
Qed.
Lemma own_wider : forall c c', In c (fs_comps fs) -> In c' (fs_comps fs') -> wider_comp cf idx n c c' -> own_rule cf fs idx x c -> own_rule cf fs' idx x c'.
Proof.
  intros c c' Hc Hc' WC H. pose proof (wc_kind _ _ _ _ _ WC) as KK. unfold own_rule in *. destruct (cp_kind c) as [|eqs|segs|s|rel abs] eqn:K; [| | |destruct (cp_kind c') as [| | |s'|] eqn:K'; try discriminate KK|].
  - rewrite KK. exact I.
  - rewrite KK. intros fac t Hf Ht. rewrite w_steps in Ht. rewrite (weighted_wider _ _ _ _ _ _ WC (wc_in _ _ _ _ _ WC)), (weighted_wider _ _ _ _ _ _ WC (wc_out _ _ _ _ _ WC)). apply H; assumption.
  - rewrite KK. exact (segmented_wider _ _ _ WC H).
  - intros ch' dis' I' O'. pose proof (wc_in _ _ _ _ _ WC) as FI. pose proof (wc_out _ _ _ _ _ WC) as FO. rewrite I' in FI. rewrite O' in FO.
    inversion FI as [|ch ? ti ? W1 FI2 EI E0]. inversion FI2. subst. inversion FO as [|dis ? to ? W2 FO2 EO E1]. inversion FO2. subst.
    eapply storage_wider; eauto.
  - rewrite KK. intros in1 out1 in2 out2 I' O'. eapply transmission_wider; eauto.
Qed.

(** Investments, buses, effects. *)
Lemma comps_l : forall c, In c (fs_comps fs) -> exists c', In c' (fs_comps fs') /\ wider_comp cf idx n c c'.
Proof. intros c Hc. exact (F2_l _ _ _ _ (wd_comps _ _ _ _ W) Hc). Qed.
Lemma comps_r : forall c', In c' (fs_comps fs') -> exists c, In c (fs_comps fs) /\ wider_comp cf idx n c c'.
Proof. intros c Hc. exact (F2_r _ _ _ _ (wd_comps _ _ _ _ W) Hc). Qed.
Definition inv_like (a b : string * invest) : Prop := fst b = fst a /\ wider_invest cf (snd a) (snd b).
Lemma investments_wider : Forall2 inv_like (investments cf fs) (investments cf fs').
Proof.
  unfold investments. apply (F2_flat_map (wider_comp cf idx n)); [exact (wd_comps _ _ _ _ W)|]. intros c c' WC. apply Forall2_app.
  - apply (F2_flat_map (wider_flow cf idx n c c')); [exact (flows_wider _ _ WC)|]. intros f f' WF. unfold flow_investment. pose proof (wf_size _ _ _ _ _ _ _ WF) as SZ.
    destruct (sized cf c f), (sized cf c' f'); try contradiction; constructor; [|constructor]. split; [exact (names_wider _ _ _ _ WC WF)|]. apply SZ.
  - unfold storage_investment. pose proof (wc_kind _ _ _ _ _ WC) as K. destruct (wc_same _ _ _ _ _ WC) as [L _]. destruct (cp_kind c) as [| | |s|]; try (rewrite K; constructor).
    destruct (cp_kind c') as [| | |s'|]; try discriminate K. destruct K as [_ _ LV]. destruct (st_cap s), (st_cap s'); try contradiction; constructor; [|constructor]. split; [exact L|]. apply LV.
Qed.
Lemma effect_l : forall e, In e (fs_effects fs) -> exists e', In e' (fs_effects fs') /\ wider_effect idx n e e'.
Proof. intros e He. exact (F2_l _ _ _ _ (wd_effects _ _ _ _ W) He). Qed.
Lemma effect_r : forall e', In e' (fs_effects fs') -> exists e, In e (fs_effects fs) /\ wider_effect idx n e e'.
Proof. intros e He. exact (F2_r _ _ _ _ (wd_effects _ _ _ _ W) He). Qed.
Lemma segments_wider : forall name iv iv', wider_invest cf iv iv' -> segments_rule fs x name iv -> segments_rule fs' x name iv'.
Proof.
  intros name iv iv' [[_ [O [SG _]]] _ _] H spts eff E. rewrite SG in E. cbv zeta. rewrite O.
  assert (EF : forall e', In e' (fs_effects fs') -> exists e, In e (fs_effects fs) /\ e_id e = e_id e' /\ seg_cost x name e' = seg_cost x name e).
  { intros e' He'. destruct (effect_r e' He') as [e [He WE]]. destruct (we_same _ _ _ _ WE) as [I1 [L1 _]]. exists e. split; [exact He|]. split; [congruence|]. unfold seg_cost. rewrite L1. reflexivity. }
  destruct (H spts eff E) as [[k [w [W0 [W1 [P [Q0 Q1]]]]]]|[Q0 [Q1 [Q2 Q3]]]].
  - left. exists k, w. split; [exact W0|]. split; [exact W1|]. split; [exact P|]. split; [|exact Q1]. intros i l e' Hi He' Ei. destruct (EF e' He') as [e [He [Id ->]]]. apply (Q0 i l e Hi He). congruence.
  - right. split; [exact Q0|]. split; [exact Q1|]. split; [exact Q2|]. intros i l e' Hi He' Ei. destruct (EF e' He') as [e [He [Id ->]]]. apply (Q3 i l e Hi He). congruence.
Qed.
Lemma bus_same : forall b, used_bus fs' b <-> used_bus fs b.
Proof.
  intros b. split; intros [c [f [Hc [Hf Hb]]]].
  - destruct (comps_r c Hc) as [c0 [Hc0 WC]]. destruct (F2_r _ _ _ _ (flows_wider _ _ WC) Hf) as [f0 [Hf0 WF]]. exists c0, f0. split; [exact Hc0|]. split; [exact Hf0|]. destruct (wf_same _ _ _ _ _ _ _ WF) as [_ [_ [E _]]]. congruence.
  - destruct (comps_l c Hc) as [c0 [Hc0 WC]]. destruct (F2_l _ _ _ _ (flows_wider _ _ WC) Hf) as [f0 [Hf0 WF]]. exists c0, f0. split; [exact Hc0|]. split; [exact Hf0|]. destruct (wf_same _ _ _ _ _ _ _ WF) as [_ [_ [E _]]]. congruence.
Qed.
Lemma at_bus : forall (side : component -> list flow) b t, (forall c c', wider_comp cf idx n c c' -> Forall2 (wider_flow cf idx n c c') (side c) (side c')) ->
  Qsum (map (fun c => Qsum (map (fun f => rate_of x c f t) (filter (connected b) (side c)))) (fs_comps fs'))
  == Qsum (map (fun c => Qsum (map (fun f => rate_of x c f t) (filter (connected b) (side c)))) (fs_comps fs)).
Proof.
  intros side b t H. apply (F2_sum _ _ _ _ _ (wd_comps _ _ _ _ W)). intros c c' WC. apply (F2_sum (wider_flow cf idx n c c')).
  - apply (F2_filter _ (connected b) (connected b)); [exact (H _ _ WC)|]. intros f f' WF. unfold connected. destruct (wf_same _ _ _ _ _ _ _ WF) as [_ [_ [-> _]]]. reflexivity.
  - intros f f' WF. rewrite (rate_wider _ _ _ _ t WC WF). reflexivity.
Qed.
Lemma bus_wider : forall b, bus_rule fs idx x b -> bus_rule fs' idx x b.
Proof.
  intros b H t Ht. rewrite w_steps in Ht. destruct (H t Ht) as [E P]. split; [|exact P]. unfold delivered, taken in *.
  rewrite (at_bus cp_out b t (wc_out cf idx n)), (at_bus cp_in b t (wc_in cf idx n)). exact E.
Qed.
Lemma names_effect : forall k e e', wider_effect idx n e e' -> names (fs_effects fs') k e' = names (fs_effects fs) k e.
Proof.
  intros k e e' WE. destruct (we_same _ _ _ _ WE) as [I1 _]. unfold names. destruct k as [i|]; [rewrite I1; reflexivity|]. rewrite I1. pose proof (wd_effects _ _ _ _ W) as F.
  induction F as [|a b l l' H F IH]; [reflexivity|]. cbn [find]. destruct (we_same _ _ _ _ H) as [I2 [_ [-> _]]]. destruct (e_std a); [rewrite I2; reflexivity|exact IH].
Qed.
Lemma cost_wider : forall i v e e' t, wider_effect idx n e e' -> cost (fs_effects fs') i v e' t = cost (fs_effects fs) i v e t.
Proof. intros i v e e' t WE. unfold cost. f_equal. apply map_ext. intros kp. rewrite (names_effect _ _ _ WE). reflexivity. Qed.
Lemma onoff_costs_wider : forall name p p' e e' t, wider_onoff idx n p p' -> wider_effect idx n e e' -> onoff_costs fs' idx x name p' e' t = onoff_costs fs idx x name p e t.
Proof. intros name p p' e e' t [[E1 E2] _ _ _ _] WE. unfold onoff_costs. rewrite E1, E2, !(cost_wider _ _ _ _ _ WE), w_hours. reflexivity. Qed.
Lemma comp_costs_wider : forall c c' e e' t, wider_comp cf idx n c c' -> wider_effect idx n e e' -> comp_costs fs' idx x c' e' t == comp_costs fs idx x c e t.
Proof.
  intros c c' e e' t WC WE. unfold comp_costs. destruct (wc_same _ _ _ _ _ WC) as [L _].
  assert (FL : Qsum (map (fun f => flow_costs fs' idx x c' f e' t) (cp_flows c')) == Qsum (map (fun f => flow_costs fs idx x c f e t) (cp_flows c))).
  { apply (F2_sum _ _ _ _ _ (flows_wider _ _ WC)). intros f f' WF. unfold flow_costs. destruct (wf_same _ _ _ _ _ _ _ WF) as [_ [_ [_ [-> _]]]]. rewrite (cost_wider _ _ _ _ _ WE), (rate_wider _ _ _ _ t WC WF), w_hours.
    pose proof (governed_wider _ _ _ _ WC WF) as G. destruct (governed fs idx c f) as [p|], (governed fs' idx c' f') as [p'|]; try contradiction; [|reflexivity].
    rewrite (names_wider _ _ _ _ WC WF), (onoff_costs_wider _ _ _ _ _ _ G WE). reflexivity. }
  rewrite FL. pose proof (wc_onoff _ _ _ _ _ WC) as O. destruct (cp_onoff c) as [p|], (cp_onoff c') as [p'|]; try contradiction; [|reflexivity]. rewrite L, (onoff_costs_wider _ _ _ _ _ _ O WE). reflexivity.
Qed.
Lemma invest_costs_wider : forall a b e e', inv_like a b -> wider_effect idx n e e' -> invest_costs fs' x (fst b) (snd b) e' == invest_costs fs x (fst a) (snd a) e.
Proof.
  intros a b e e' [N0 [[_ [O [SG [X1 [X2 X3]]]]] _ _]] WE. destruct (we_same _ _ _ _ WE) as [I1 [L1 _]]. unfold invest_costs, made, seg_costs, seg_cost. rewrite N0, O, SG, X1, X2, X3, !(cost_wider _ _ _ _ _ WE), I1, L1. reflexivity.
Qed.
Lemma at_least_wider : forall a b q q', no_higher a b -> q' == q -> at_least a q -> at_least b q'.
Proof. intros a b q q' H E A l Hl. destruct (H l Hl) as [k [X Y]]. specialize (A k X). lra. Qed.
Lemma at_most_wider : forall a b q q', no_lower a b -> q' == q -> at_most a q -> at_most b q'.
Proof. intros a b q q' H E A l Hl. destruct (H l Hl) as [k [X Y]]. specialize (A k X). lra. Qed.
Lemma effect_wider : forall e e', wider_effect idx n e e' -> effect_rule cf fs idx x e -> effect_rule cf fs' idx x e'.
Proof.
  intros e e' WE [A1 [A2 [A3 [A4 [A5 [A6 [A7 [A8 [A9 [A10 A11]]]]]]]]]]. destruct (we_same _ _ _ _ WE) as [I1 [L1 _]].
  assert (OA : forall a a' t, wider_effect idx n a a' -> op_at x a' t = op_at x a t) by (intros a a' t H; unfold op_at; destruct (we_same _ _ _ _ H) as [_ [-> _]]; reflexivity).
  assert (IA : forall a a', wider_effect idx n a a' -> inv_sum x a' = inv_sum x a) by (intros a a' H; unfold inv_sum; destruct (we_same _ _ _ _ H) as [_ [-> _]]; reflexivity).
  assert (OS : op_sum x e' = op_sum x e) by (unfold op_sum; rewrite L1; reflexivity). assert (AS : all_sum x e' = all_sum x e) by (unfold all_sum; rewrite L1; reflexivity).
  pose proof (fun t => OA e e' t WE) as OT. pose proof (IA e e' WE) as IT. unfold effect_rule. rewrite w_steps, OS, IT, AS.
  destruct (we_min _ _ _ _ WE) as [N1 [N3 [N4 N5]]]. destruct (we_max _ _ _ _ WE) as [M1 [M3 [M4 M5]]].
  split; [|split; [|split; [|split; [|split; [|split; [|split; [|split; [|split; [|split]]]]]]]]].
  - intros t Ht. rewrite OT, (A1 t Ht).
    assert (C1 : Qsum (map (fun c => comp_costs fs' idx x c e' t) (fs_comps fs')) == Qsum (map (fun c => comp_costs fs idx x c e t) (fs_comps fs))) by (apply (F2_sum _ _ _ _ _ (wd_comps _ _ _ _ W)); intros c c' WC; apply comp_costs_wider; assumption).
    assert (C2 : op_from_effects fs' idx x e' t == op_from_effects fs idx x e t).
    { unfold op_from_effects. apply (F2_sum _ _ _ _ _ (wd_effects _ _ _ _ W)). intros a a' H. rewrite (OA _ _ t H), I1. destruct (we_same _ _ _ _ H) as [_ [_ [_ [_ [-> _]]]]]. reflexivity. }
    rewrite C1, C2. reflexivity.
  - rewrite A2. apply sumn_ext. intros t _. rewrite OT. reflexivity.
  - rewrite A3.
    assert (C1 : Qsum (map (fun ni => invest_costs fs' x (fst ni) (snd ni) e') (investments cf fs')) == Qsum (map (fun ni => invest_costs fs x (fst ni) (snd ni) e) (investments cf fs))) by (apply (F2_sum _ _ _ _ _ investments_wider); intros a b H; apply invest_costs_wider; assumption).
    assert (C2 : inv_from_effects fs' x e' == inv_from_effects fs x e).
    { unfold inv_from_effects. apply (F2_sum _ _ _ _ _ (wd_effects _ _ _ _ W)). intros a a' H. rewrite (IA _ _ H), I1. destruct (we_same _ _ _ _ H) as [_ [_ [_ [_ [_ ->]]]]]. reflexivity. }
    rewrite C1, C2. reflexivity.
  - exact A4.
  - exact (at_least_wider _ _ _ _ N1 (Qeq_refl _) A5).
  - exact (at_most_wider _ _ _ _ M1 (Qeq_refl _) A6).
  - exact (at_least_wider _ _ _ _ N3 (Qeq_refl _) A7).
  - exact (at_most_wider _ _ _ _ M3 (Qeq_refl _) A8).
  - exact (at_least_wider _ _ _ _ N4 (Qeq_refl _) A9).
  - exact (at_most_wider _ _ _ _ M4 (Qeq_refl _) A10).
  - intros t Ht. destruct (A11 t Ht) as [B1 B2]. rewrite OT, w_hours. pose proof (wd_hours _ _ _ _ W t Ht) as HP. split.
    + refine (at_least_wider _ _ _ _ _ (Qeq_refl _) B1). intros q' E. destruct (e_min_ph e') as [p'|]; [|discriminate E]. destruct (N5 p' eq_refl) as [p [-> V]]. cbn in E. inversion E. subst q'.
      exists (value idx p t * hours fs idx t). split; [reflexivity|]. apply Qmult_le_compat_r; [apply V; exact Ht|exact HP].
    + refine (at_most_wider _ _ _ _ _ (Qeq_refl _) B2). intros q' E. destruct (e_max_ph e') as [p'|]; [|discriminate E]. destruct (M5 p' eq_refl) as [p [-> V]]. cbn in E. inversion E. subst q'.
      exists (value idx p t * hours fs idx t). split; [reflexivity|]. apply Qmult_le_compat_r; [apply V; exact Ht|exact HP].
Qed.
Lemma obeys_wider : obeys cf fs idx x -> obeys cf fs' idx x.
Proof.
  intros O. constructor.
  - intros c' f' Hc' Hf'. destruct (comps_r c' Hc') as [c [Hc WC]]. destruct (F2_r _ _ _ _ (flows_wider _ _ WC) Hf') as [f [Hf WF]].
    exact (flow_wider c c' f f' Hc Hc' Hf Hf' WC WF (ob_flow _ _ _ _ O c f Hc Hf)).
  - intros c' p' Hc' E'. destruct (comps_r c' Hc') as [c [Hc WC]]. exact (running_wider c c' p' WC (fun p => ob_running _ _ _ _ O c p Hc) E').
  - intros c' Hc'. destruct (comps_r c' Hc') as [c [Hc WC]]. exact (exclusion_wider c c' Hc' WC (ob_exclusion _ _ _ _ O c Hc)).
  - intros c' Hc'. destruct (comps_r c' Hc') as [c [Hc WC]]. exact (own_wider c c' Hc Hc' WC (ob_own _ _ _ _ O c Hc)).
  - intros name iv' H. destruct (F2_r _ _ _ _ investments_wider H) as [[name0 iv] [H0 [E WI]]]. cbn [fst snd] in *. subst name0. exact (segments_wider _ _ _ WI (ob_segments _ _ _ _ O name iv H0)).
  - intros b Hb. apply bus_wider. apply (ob_bus _ _ _ _ O). apply bus_same. exact Hb.
  - intros e' He'. destruct (effect_r e' He') as [e [He WE]]. exact (effect_wider e e' WE (ob_effect _ _ _ _ O e He)).
  - intros bl ND B. rewrite (ob_penalty _ _ _ _ O bl ND) by (intros b; rewrite B; apply bus_same). apply Qsum_map_eq. intros b _. unfold bus_price. rewrite w_steps. destruct (b_penalty b); [|reflexivity]. apply sumn_ext. intros t _. rewrite w_hours. reflexivity.
Qed.
End Wider.

(** ** C72 *)

(** Widening limits keeps every solution, at the same price: what was possible stays possible, and the best result of the
    system with the wider limits is at least as good as any result of the system with the narrower ones. *)
Theorem C72_wider_partial : forall cf ord ord' fs fs' idx pm pm', (forall l, Permutation (ord l) l) -> (forall l, Permutation (ord' l) l) ->
  build cf ord fs idx = Ok pm -> build cf ord' fs' idx = Ok pm' -> sensible cf fs idx -> sensible cf fs' idx ->
  wider cf idx fs fs' -> no_zero_sizes cf fs -> no_zero_sizes cf fs' ->
  (forall x, feasible pm x -> exists y, feasible pm' y /\ same_plan cf fs' idx x y /\ objective_value pm' y == objective_value pm x)
  /\ (forall best x, feasible pm' best -> (forall y, feasible pm' y -> objective_value pm' best <= objective_value pm' y) -> feasible pm x -> objective_value pm' best <= objective_value pm x).
Proof.
  intros cf ord ord' fs fs' idx pm pm' PO PO' B B' SE SE' W NZ NZ'.
  assert (K : forall x, feasible pm x -> exists y, feasible pm' y /\ same_plan cf fs' idx x y /\ objective_value pm' y == objective_value pm x).
  { intros x F. pose proof (C57_solutions _ _ _ _ _ _ PO B SE F) as O. assert (N2 : (0 < steps fs idx)%nat) by (pose proof (se_steps _ _ _ SE); lia).
    pose proof (obeys_wider cf idx fs fs' x W NZ NZ' N2 (fun c Hc => comp_ids _ _ _ _ _ c B Hc) (fun c Hc => comp_ids _ _ _ _ _ c B' Hc) O) as O'.
    destruct (proj1 (C57_plans _ _ _ _ _ _ PO' B' SE') O') as [y [SP F']]. exists y. split; [exact F'|]. split; [exact SP|].
    destruct (C21_objective _ _ _ _ _ x B) as [e [Fe Ox]]. destruct (C21_objective _ _ _ _ _ y B') as [e' [Fe' Oy]].
    assert (WE : wider_effect idx (steps fs idx) e e').
    { pose proof (wd_effects _ _ _ _ W) as FE. revert Fe Fe'. induction FE as [|a b l l' H FE IH]; [discriminate|]. cbn [find]. destruct (we_same _ _ _ _ H) as [_ [_ [_ [-> _]]]].
      destruct (e_obj a); [intros E1 E2; inversion E1; inversion E2; subst; exact H|exact IH]. }
    pose proof (same_cost _ _ _ _ _ e' SP ltac:(apply find_some in Fe'; apply Fe')) as SC. unfold plan_cost in SC. destruct (we_same _ _ _ _ WE) as [_ [L _]].
    unfold op_sum, inv_sum in *. rewrite L in *. rewrite Ox, Oy, SC. reflexivity. }
  split; [exact K|]. intros best x FB OPT F. destruct (K x F) as [y [F' [_ OV]]]. specialize (OPT y F'). lra.
Qed.
Print Assumptions C72_wider_partial.

(** The first system and one with wider limits: larger grid, investments between wider limits, fewer and looser on/off rules,
    a storage that may be filled completely, no limit on the total costs. *)
Definition wide_oo : onoff :=
  mkOnOff (EVOne (n1 3)) (EVDict [(Some 1%nat, n1 2)]) None (Some 200) (Some (n1 1)) (Some (n1 12)) (Some (n1 1)) None (Some 6) false.
Definition wide_inv : invest :=
  mkInvest None 2 (Some 250) true (EVOne (n1 10)) (EVDict [(Some 0%nat, n1 2); (Some 1%nat, n1 1)]) None (EVOne (n1 7)).
Definition wide_boiler : component :=
  mkComponent "Boiler" [q_fu] [set_prev (Some (NS 5)) (set_limits None None None (Some 1)
    (set_onoff (Some wide_oo) (set_size_ (SzInv wide_inv) (set_rel (n1 (1 # 20)) (n1 1) (flow0 11 "Q_th" heat)))))] None []
    (Converter [[(10%nat, n1 (1 # 2)); (11%nat, n1 1)]]).
Definition wide_sto : component :=
  mkComponent "Storage"
    [set_size_ (SzNum (Some 50)) (flow0 20 "ch" heat)] [set_size_ (SzNum (Some 70)) (flow0 21 "dis" heat)] None [20; 21]%nat
    (StorageC (mkStorage (CapInv (mkInvest None 0 (Some 120) true EVNone (EVOne (n1 1)) None EVNone)) (n1 0) (n1 1)
                 (ICNum 0) (Some 0) (Some 90) (n1 (9 # 10)) (n1 (8 # 10)) (n1 (1 # 100)))).
Definition wide_grid : component :=
  mkComponent "Grid" [] [set_eff (EVDict [(Some 0%nat, na [1; 2; 1]); (Some 1%nat, n1 (1 # 2))])
                           (set_size_ (SzNum (Some 1500)) (flow0 40 "Q" gas))] None [] Plain.
Definition wide_costs : effect := mkEffect 0 "costs" true true [] [] None None None None None (Some (n1 2000)) None None.
Definition fs_wide : flow_system := mkFS [0; 1; 2] 3 (NS 1) [wide_costs; co2] [wide_grid; wide_boiler; wide_sto; demand].
Ltac limit := intros ? E; first [discriminate E | inversion E; subst; eexists; split; [reflexivity|]; first [intros; vm_compute; discriminate | vm_compute; discriminate]].
Ltac same_flow := constructor; [cbn; repeat split | left; reflexivity | exact I | split; limit |
  cbn; split; [intros t Ht; split; vm_compute; discriminate | split; limit]].
Lemma wide_ok : wider default_config None fs0 fs_wide.
Proof.
  assert (ST : forall t, (t < 3)%nat -> t = 0%nat \/ t = 1%nat \/ t = 2%nat) by (intros; lia).
  constructor; [cbn; auto| | |].
  - intros t Ht. change (steps fs0 None) with 3%nat in Ht. destruct (ST t Ht) as [-> | [-> | ->]]; vm_compute; discriminate.
  - repeat constructor; cbn; try limit.
  - constructor; [|constructor; [|constructor; [|constructor; [|constructor]]]].
    + constructor; cbn [cp_label cp_prevent cp_in cp_out cp_onoff cp_kind grid wide_grid]; [split; reflexivity|constructor| |exact I|reflexivity].
      constructor; [|constructor]. same_flow.
    + constructor; cbn [cp_label cp_prevent cp_in cp_out cp_onoff cp_kind boiler wide_boiler]; [split; reflexivity| | |exact I|reflexivity].
      * constructor; [|constructor]. same_flow.
      * constructor; [|constructor]. constructor; [cbn; repeat split|left; reflexivity| |split; limit|].
        -- cbn. constructor; cbn; [split; reflexivity|split; limit|limit|split; limit|split; limit].
        -- cbn. split; [constructor; cbn; [repeat split|split; vm_compute; discriminate|split; vm_compute; discriminate]|]. split; [intros t Ht; repeat split; vm_compute; discriminate|]. split; limit.
    + constructor; cbn [cp_label cp_prevent cp_in cp_out cp_onoff cp_kind sto wide_sto]; [split; reflexivity| | |exact I|].
      * constructor; [|constructor]. same_flow.
      * constructor; [|constructor]. same_flow.
      * constructor; cbn; [repeat split|split; limit|]. split; [constructor; cbn; [repeat split|split; vm_compute; discriminate|split; vm_compute; discriminate]|]. intros t Ht. repeat split; vm_compute; discriminate.
    + constructor; [split; reflexivity| |constructor|exact I|reflexivity]. constructor; [|constructor]. constructor; [cbn; repeat split|left; reflexivity|exact I|split; limit|].
      cbn. split; [|split; limit]. intros t Ht. split; apply Qle_refl.
Qed.
Lemma sensible_wide : sensible default_config fs_wide None.
Proof.
  apply sensible_check; [vm_compute; reflexivity|buses|]. intros c Hc. cbn [fs_wide fs_comps In] in Hc.
  destruct Hc as [<-|[<-|[<-|[<-|[]]]]]; split; try exact I; try (repeat constructor; simpl; intuition discriminate).
  exists "Storage", (set_size_ (SzNum (Some 50)) (flow0 20 "ch" heat)), (set_size_ (SzNum (Some 70)) (flow0 21 "dis" heat)), true. reflexivity.
Qed.
Ltac no_zero := intros c Hc; cbn [fs0 fs_wide fs_comps In] in Hc; repeat (destruct Hc as [<-|Hc]; [split;
  [intros f Hf; cbn [cp_flows cp_in cp_out app In grid wide_grid boiler wide_boiler sto wide_sto demand] in Hf;
   repeat (destruct Hf as [<-|Hf]; [cbn; try split; intros v E; inversion E; subst; vm_compute; discriminate|]); destruct Hf
  |intros s iv K1 K2; try discriminate K1; inversion K1; subst s; inversion K2; subst iv; split; intros v E; inversion E; subst; vm_compute; discriminate]|]); destruct Hc.
Lemma no_zero_both : no_zero_sizes default_config fs0 /\ no_zero_sizes default_config fs_wide.
Proof. split; no_zero. Qed.
Example C72_applies : exists pm pm' y, build default_config id_ord fs0 None = Ok pm /\ build default_config id_ord fs_wide None = Ok pm'
  /\ feasible pm x0 /\ feasible pm' y /\ same_plan default_config fs_wide None x0 y /\ objective_value pm' y == objective_value pm x0.
Proof.
  destruct x0_feasible as [pm [B F]]. assert (B' : exists pm', build default_config id_ord fs_wide None = Ok pm').
  { destruct (build default_config id_ord fs_wide None) as [pm'|] eqn:E; [eauto|vm_compute in E; discriminate E]. }
  destruct B' as [pm' B']. exists pm, pm'.
  destruct (C72_wider_partial _ _ _ _ _ _ _ _ (fun l => Permutation_refl l) (fun l => Permutation_refl l) B B' sensible_0 sensible_wide wide_ok (proj1 no_zero_both) (proj2 no_zero_both)) as [K _].
  destruct (K x0 F) as [y [F' [SP OV]]]. exists y. exact (conj B (conj B' (conj F (conj F' (conj SP OV))))).
Qed.

(** Without the restriction on sizes given as zero the claim fails: a size of zero counts as unlimited, so that raising it to
    5 makes a demand of 10 impossible to meet. *)
Definition C72_full : Prop := forall cf ord ord' fs fs' idx pm pm', (forall l, Permutation (ord l) l) -> (forall l, Permutation (ord' l) l) ->
  build cf ord fs idx = Ok pm -> build cf ord' fs' idx = Ok pm' -> sensible cf fs idx -> sensible cf fs' idx -> wider cf idx fs fs' ->
  (exists x, feasible pm x) -> exists y, feasible pm' y.
Definition needs (s : Q) : flow_system := mkFS [0; 1] 2 (NS 1) [costs]
  [Library.source "Src" (set_size_ (SzNum (Some s)) (flow0 150 "Q" gas)); Library.sink "Sink" (set_size_ (SzNum (Some 10)) (set_profile (Some (n1 1)) (flow0 151 "Q" gas)))].
Definition x_needs : asg := fun n t =>
  if existsb (String.eqb n) ["Src__Q_flow_rate"; "Sink__Q_flow_rate"] then 10 else if existsb (String.eqb n) ["Src__Q_sumFlowHours"; "Sink__Q_sumFlowHours"] then 20 else 0.
Lemma needs_sensible : forall s, s = 0 \/ s = 5 -> sensible default_config (needs s) None.
Proof.
  intros s Hs. destruct Hs as [-> | ->]; (apply sensible_check; [vm_compute; reflexivity|buses|]); intros c Hc; cbn [needs fs_comps In] in Hc; destruct Hc as [<-|[<-|[]]]; split; try exact I; constructor.
Qed.
Lemma needs_wider : wider default_config None (needs 0) (needs 5).
Proof.
  constructor; [cbn; auto| | |].
  - intros t Ht. assert (T : t = 0%nat \/ t = 1%nat) by (cbn in Ht; lia). destruct T as [-> | ->]; vm_compute; discriminate.
  - repeat constructor; cbn; try limit.
  - constructor; [|constructor; [|constructor]].
    + constructor; [split; reflexivity|constructor| |exact I|reflexivity]. constructor; [|constructor]. same_flow.
    + constructor; [split; reflexivity| |constructor|exact I|reflexivity]. constructor; [|constructor]. same_flow.
Qed.
Theorem C72_refuted : ~ C72_full.
Proof.
  intros F. destruct (run_ok (build default_config id_ord (needs 0) None) x_needs) as [pm [B FE]]; [vm_compute; reflexivity|].
  assert (B' : exists pm', build default_config id_ord (needs 5) None = Ok pm').
  { destruct (build default_config id_ord (needs 5) None) as [pm'|] eqn:E; [eauto|vm_compute in E; discriminate E]. }
  destruct B' as [pm' B']. pose proof (needs_sensible 5 (or_intror eq_refl)) as S5.
  destruct (F _ _ _ _ _ _ _ _ (fun l => Permutation_refl l) (fun l => Permutation_refl l) B B' (needs_sensible 0 (or_introl eq_refl)) S5 needs_wider (ex_intro _ _ FE)) as [y FY].
  pose proof (C57_solutions _ _ _ _ _ _ (fun l => Permutation_refl l) B' S5 FY) as O. set (fs := needs 5) in *.
  set (src := Library.source "Src" (set_size_ (SzNum (Some 5)) (flow0 150 "Q" gas))). set (snk := Library.sink "Sink" (set_size_ (SzNum (Some 10)) (set_profile (Some (n1 1)) (flow0 151 "Q" gas)))).
  assert (H1 : In src (fs_comps fs)) by (left; reflexivity). assert (H2 : In snk (fs_comps fs)) by (right; left; reflexivity).
  destruct (ob_flow _ _ _ _ O src _ H1 (or_introl eq_refl)) as [A1 _]. destruct (ob_flow _ _ _ _ O snk _ H2 (or_introl eq_refl)) as [A2 _].
  assert (Ht : (0 < steps fs None)%nat) by (cbn; lia). destruct (al_plain _ _ _ _ _ _ _ A1 eq_refl 0%nat Ht) as [_ U]. destruct (al_plain _ _ _ _ _ _ _ A2 eq_refl 0%nat Ht) as [L _].
  assert (UB : used_bus fs gas) by (exists src, (set_size_ (SzNum (Some 5)) (flow0 150 "Q" gas)); split; [exact H1|split; [left; reflexivity|reflexivity]]).
  destruct (ob_bus _ _ _ _ O gas UB 0%nat Ht) as [BL _].
  set (r1 := y "Src__Q_flow_rate" 0%nat). set (r2 := y "Sink__Q_flow_rate" 0%nat).
  assert (U' : r1 <= 5) by (eapply Qle_trans; [exact U|vm_compute; discriminate]). assert (L' : 10 <= r2) by (eapply Qle_trans; [|exact L]; vm_compute; discriminate).
  assert (E : (r1 + 0) + (0 + 0) + 0 == 0 + ((r2 + 0) + 0) + 0) by exact BL. lra.
Qed.
Print Assumptions C72_refuted.
