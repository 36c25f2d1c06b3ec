(** Values of the on/off variables that belong to a pattern of running and standing, and that they satisfy everything an
    on/off model hands to the solver. *)
From Coq Require Import String.
From Verif Require Import Base BaseFacts MathModel Spec MathFacts MathTotal Structure StructureFacts Params Features Elements System SysSpec
  AdmitSpec CtxFacts ReadTools InvestFacts OnOffFacts OnOffLaws OnOffAdmits FlowFacts NavFacts FlowAdmits PropsOnOff.

(** ** Labels *)
Fixpoint lastc (s : string) : option Ascii.ascii :=
  match s with EmptyString => None | String c EmptyString => Some c | String _ r => lastc r end.
Lemma lastc_cons : forall c r, r <> EmptyString -> lastc (String c r) = lastc r.
Proof. intros c r H. destruct r; [congruence|reflexivity]. Qed.
Lemma append_ne : forall a b, b <> EmptyString -> (a ++ b)%string <> EmptyString.
Proof. intros a b H E. destruct a; simpl in E; congruence. Qed.
Lemma lastc_app : forall a b, b <> EmptyString -> lastc (a ++ b) = lastc b.
Proof. induction a as [|c a IH]; intros b H; auto. cbn [append]. rewrite lastc_cons by (apply append_ne; auto). auto. Qed.
Lemma lastc_vlabel : forall m l, l <> EmptyString -> lastc (vlabel m l) = lastc l.
Proof.
  intros m l H. unfold vlabel, cat. cbn [fold_right].
  assert (N : (l ++ "")%string <> EmptyString) by (destruct l; simpl; congruence).
  rewrite lastc_app by (apply append_ne; auto). rewrite lastc_app by auto. clear. induction l as [|c l IH]; auto. destruct l; auto.
Qed.
Lemma append_inj_l : forall p a b : string, (p ++ a)%string = (p ++ b)%string -> a = b.
Proof. induction p; intros a' b E; simpl in E; auto. injection E as E. auto. Qed.
Lemma append_nil_r' : forall s : string, (s ++ "")%string = s.
Proof. induction s; simpl; congruence. Qed.
Lemma vlabel_inj : forall m a b, vlabel m a = vlabel m b -> a = b.
Proof.
  intros m a b H. unfold vlabel, cat in H. cbn [fold_right] in H. apply append_inj_l in H. apply append_inj_l in H.
  rewrite !append_nil_r' in H. exact H.
Qed.

Lemma rate_not_onoff : forall m e w, In w onoff_names -> vlabel m "flow_rate" <> oo e w.
Proof.
  intros m e w H E. apply (f_equal lastc) in E. unfold oo in E.
  rewrite !lastc_vlabel in E; try discriminate; simpl in H; decompose [or] H; subst; try discriminate; contradiction.
Qed.

(** ** Runs *)
Lemma run_exists : forall (b : nat -> Q) n t, (forall i, (i < n)%nat -> bin (b i)) -> (t < n)%nat -> b t == 1 ->
  exists s, is_run b s t.
Proof.
  intros b n t B. induction t as [|t IH]; intros Ht E.
  - exists 0%nat. split; [lia|]. split; [|discriminate]. intros i Hi. assert (i = 0%nat) by lia. subst; auto.
  - assert (Ht' : (t < n)%nat) by lia. destruct (B t Ht') as [Z|O].
    + exists (S t). split; [lia|]. split; [intros i Hi; assert (i = S t) by lia; subst; auto|]. intros k K. injection K as <-. auto.
    + destruct (IH Ht' O) as [s [L [R Bf]]]. exists s. split; [lia|]. split; [|auto]. intros i Hi.
      destruct (Nat.eq_dec i (S t)) as [->|]; auto. apply R. lia.
Qed.
Lemma natural_run : forall b h prev s t, is_run b s t -> natural b h prev t == run_hours h prev s t.
Proof.
  intros b h prev s t [L [On Bf]]. unfold run_hours. induction t as [|t IH].
  - assert (s = 0%nat) by lia. subst. simpl. rewrite On by lia. rewrite span_one. ring.
  - simpl natural. destruct (Nat.eq_dec s (S t)) as [->|N].
    + rewrite On by lia. rewrite natural_off by (apply Bf; auto). rewrite span_one. simpl. ring.
    + rewrite On by lia. rewrite span_S by lia. rewrite IH by (try lia; intros; apply On; lia). ring.
Qed.

(** Limits on runs, as the user states them, give the rows of the duration model. *)
Lemma limits_rows : forall cf fs idx cx b prev prior dmin dmax, ctx_for cf fs idx cx ->
  (forall t, (t < cx_n cx)%nat -> bin (b t)) -> (forall t, (t < steps fs idx)%nat -> 0 <= hours fs idx t) ->
  prev == prior -> 0 <= prior ->
  (forall p t, dmin = Some p \/ dmax = Some p -> (t < steps fs idx)%nat -> 0 <= value idx p t) ->
  obeys_limits fs idx prior b dmin dmax ->
  duration_rows cx b (natural b (dt cx) prev) prev dmin dmax.
Proof.
  intros cf fs idx cx b prev prior dmin dmax C B H0 PP P0 NN [Mx [Mn M0]].
  pose proof (cf_ok _ _ _ _ C) as CX. pose proof (cf_n _ _ _ _ C) as N. pose proof (cf_idx _ _ _ _ C) as I.
  assert (RH : forall s t, (t < steps fs idx)%nat -> run_hours (hours fs idx) prior s t == run_hours (dt cx) prev s t).
  { intros s t Ht. rewrite (run_hours_eq (hours fs idx) (dt cx)).
    - unfold run_hours. destruct (Nat.eqb s 0); rewrite ?PP; reflexivity.
    - intros i Hi. symmetry. apply (cf_dt _ _ _ _ C). lia. }
  apply natural_rows; auto.
  - intros t Ht. rewrite (cf_dt _ _ _ _ C) by lia. apply H0. lia.
  - rewrite PP. auto.
  - intros p t Hp Ht. rewrite I. destruct (B t Ht) as [E|E].
    + rewrite natural_off by auto. apply NN; [right; auto|lia].
    + destruct (run_exists b (cx_n cx) t B Ht E) as [s R]. rewrite (natural_run _ _ _ _ _ R), <- RH by lia. apply Mx; auto. lia.
  - intros p t Hp Ht E1 E0. rewrite I. assert (Ht' : (t < cx_n cx)%nat) by lia.
    destruct (run_exists b (cx_n cx) t B Ht' E1) as [s R]. rewrite (natural_run _ _ _ _ _ R), <- RH by lia. apply Mn; auto. lia.
  - intros p t Hp Ht. rewrite I. apply NN; [left; auto|lia].
  - intros p Hp. rewrite PP, I. apply M0. auto.
Qed.

(** ** What can be read from an on/off model that has been built *)
Lemma on_fits : forall cx full on vars bounds bounds' cs,
  ctx_ok cx ->
  mapM (fun b : numeric * numeric => l <- nmax (fst b) (NS (cx_eps cx)) ;; Ok (l, snd b)) bounds = Ok bounds' ->
  length vars = length bounds -> (forall v, In v vars -> v_len v = cx_n cx) ->
  (forall b, In b bounds -> good (fst b) /\ good (snd b)) ->
  v_len on = cx_n cx -> on_constraints cx full on vars bounds' = Ok cs ->
  vars <> [] /\ forall b, In b bounds -> fits (cx_n cx) (snd b) /\ (length vars = 1%nat -> fits (cx_n cx) (fst b)).
Proof.
  intros cx full on vars bounds bounds' cs CX Rs Lv Nv G Lon H.
  pose proof (ok_pos _ CX) as Np. pose proof (raise_spec _ _ _ Rs) as R2.
  assert (Nz : seq 0 (cx_n cx) <> []) by (apply seq_ne; auto).
  unfold on_constraints in H. destruct vars as [|v vars]; [discriminate|].
  split; [discriminate|].
  destruct vars as [|w vars].
  - destruct bounds as [|b [|? ?]]; try discriminate. inversion R2 as [|? b' ? ? [Rl Rr] R2']; subst. inversion R2'; subst.
    destruct b as [lb ub], b' as [lb' ub']. simpl in Rl, Rr. subst ub'.
    bnd H l El. bnd H c1 E1. bnd H c2 E2. fin H.
    destruct (G _ (or_introl eq_refl)) as [G1 G2]. simpl in G1, G2.
    assert (Gl' : good lb') by (eapply good_bcast2; [exact Rl|auto|apply good_NS]).
    assert (Gl : good l) by (eapply good_bcast2; [exact El|apply good_NS|auto]).
    assert (Lw : v_len v = cx_n cx) by (apply Nv; left; auto).
    assert (F1 : fits (cx_n cx) l) by (eapply row_fits; [exact E1|live_tac|ex_tac|right; left; reflexivity]).
    assert (F2 : fits (cx_n cx) ub)
      by (apply (fits_nmap _ Qopp); eapply row_fits; [exact E2|live_tac|ex_tac|right; left; reflexivity]).
    destruct (fits_bcast2_inv _ _ _ _ _ El F1) as [_ F1'].
    destruct (fits_bcast2_inv _ _ _ _ _ Rl F1') as [F1'' _].
    intros b [<-|[]]; auto.
  - set (vs := v :: w :: vars) in *.
    assert (Hc : exists total c2,
       foldM (fun acc (b : numeric * numeric) => nadd acc (snd b)) bounds' (NS 0) = Ok total
       /\ create_equation full "On_Constraint_2" KIneq
              (map (fun v => AddS v (NS (1 / inject_Z (Z.of_nat (length vs)))) (Some (seq 0 (cx_n cx))) false) vs ++
               [AddS on (nmap (fun q => - (q / inject_Z (Z.of_nat (length vs)))) total) (Some (seq 0 (cx_n cx))) false]) = Ok c2).
    { bnd H total Et. bnd H c1 E1. bnd H c2 E2. fin H. eauto 10. }
    destruct Hc as [total [c2 [Et E2]]]. clear H.
    set (k := inject_Z (Z.of_nat (length vs))) in *.
    assert (Snd : map snd bounds' = map snd bounds).
    { clear - R2. induction R2 as [|b b' ? ? [_ E] _ IH]; simpl; congruence. }
    assert (Gb' : forall b, In b bounds' -> good (snd b)).
    { intros b Hb. apply (in_map snd) in Hb. rewrite Snd in Hb. apply in_map_iff in Hb. destruct Hb as [b0 [<- Hb]].
      apply G; auto. }
    pose proof (sum_ubs_good _ _ _ Gb' (good_NS 0) Et) as Gt.
    assert (L1 : Forall live (map (fun v => AddS v (NS (1 / k)) (Some (seq 0 (cx_n cx))) false) vs ++
               [AddS on (nmap (fun q => - (q / k)) total) (Some (seq 0 (cx_n cx))) false])).
    { apply Forall_app. split; [apply Forall_live_map; auto with num|]. live_tac. }
    assert (X1 : Exists (fun a => call_len a = cx_n cx) (map (fun v => AddS v (NS (1 / k)) (Some (seq 0 (cx_n cx))) false) vs ++
               [AddS on (nmap (fun q => - (q / k)) total) (Some (seq 0 (cx_n cx))) false])).
    { subst vs. apply Exists_cons_hd. simpl. apply seq_length. }
    assert (Ft : fits (cx_n cx) total).
    { apply (fits_nmap _ (fun q => - (q / k))). eapply row_fits; [exact E2|exact L1|exact X1|].
      apply in_or_app. right. left. reflexivity. }
    destruct (sum_ubs _ _ _ _ Gb' Et Ft) as [_ [Fb At]].
    intros b Hb; split; [|subst vs; simpl; lia].
    apply (in_map snd) in Hb. rewrite <- Snd in Hb. apply in_map_iff in Hb. destruct Hb as [b0 [<- Hb]]. auto.
Qed.

Lemma duration_prev : forall cx tr full label b dmin dmax du pv, duration_model cx tr full label b dmin dmax = Ok du ->
  prev_of b = Ok (Some pv) -> exists prev, consecutive_duration (cx_eps cx) pv (cx_prev cx) = Ok prev.
Proof.
  intros cx tr full label b dmin dmax du pv H P. unfold duration_model in H. bnd H pv0 Epv. bnd H pv' Epv'. bnd H prev Eprev.
  rewrite P in Epv. apply Ok_inj in Epv. subst pv0. simpl in Epv'. apply Ok_inj in Epv'. subst pv'. eauto.
Qed.

Lemma onoff_built : forall cx tr elem p vars bounds o,
  ctx_ok cx -> (forall v, In v vars -> v_len v = cx_n cx) -> (forall b, In b bounds -> good (fst b) /\ good (snd b)) ->
  onoff_model cx tr elem p vars bounds = Ok o ->
  (2 <= cx_n cx)%nat /\ vars <> [] /\ length vars = length bounds
  /\ (forall b, In b bounds -> fits (cx_n cx) (snd b) /\ (length vars = 1%nat -> fits (cx_n cx) (fst b)))
  /\ exists prev_on last, previous_on_values (cx_eps cx) vars = Ok prev_on /\ nth_error (rev prev_on) 0 = Some last
     /\ (use_con p = true -> exists prev, consecutive_duration (cx_eps cx) (NV prev_on) (cx_prev cx) = Ok prev)
     /\ (use_coff p = true -> exists prev,
           consecutive_duration (cx_eps cx) (NV (map (fun q => 1 - q) prev_on)) (cx_prev cx) = Ok prev).
Proof.
  intros cx tr elem p vars bounds o CX Lv G H. unfold onoff_model in H.
  bnd H bounds' Eb. bnd H u1 Elen. bnd H prev_on Ep0. bnd H on Eon. bnd H tot Etot. bnd H ctot Ectot. bnd H con Econ.
  bnd H vo Evo. destruct vo as [voff coff]. bnd H vd1 Ed1. destruct vd1 as [v1 k1]. bnd H vd2 Ed2. destruct vd2 as [v2 k2].
  bnd H vs3 Es3. destruct vs3 as [[v3 k3] sw]. clear H.
  unfold assert_ in Elen. destruct (Nat.eqb _ _) eqn:Elen' in Elen; [|discriminate]. apply Nat.eqb_eq in Elen'. clear Elen.
  apply create_variable_spec in Eon.
  unfold use_switch_on in Es3. cbn [orb] in Es3.
  bnd Es3 son Eson. bnd Es3 soff Esoff. bnd Es3 nr Enr. bnd Es3 u2 Ets. bnd Es3 ks Eks. clear Es3.
  unfold guard in Ets. destruct (v_ts on) eqn:Ts in Ets; [|discriminate]. clear Ets.
  assert (N2 : (2 <= cx_n cx)%nat) by (subst on; simpl in Ts; apply Nat.ltb_lt in Ts; lia).
  assert (Lon : v_len on = cx_n cx) by (subst on; auto).
  assert (Pon : prev_of on = Ok (Some (NV prev_on))).
  { subst on. unfold prev_of. simpl in *. rewrite Ts. reflexivity. }
  destruct (on_fits _ _ _ _ _ _ _ CX Eb Elen' Lv G Lon Econ) as [NE F].
  split; auto. split; auto. split; auto. split; auto.
  unfold switch_constraints in Eks. bnd Eks c1 E1. bnd Eks lq El.
  exists prev_on, lq. split; auto. split; [destruct (rev prev_on); [discriminate|]; simpl; congruence|]. split.
  - intros U. rewrite U in Ed1. bnd Ed1 du Edu. eapply duration_prev; eauto.
  - intros U. rewrite U in Ed2. unfold use_off in Evo. rewrite U in Evo.
    bnd Evo off Eoff. bnd Evo c Ec. apply Ok_inj in Evo. apply pair_equal_spec in Evo. destruct Evo as [<- <-].
    bnd Ed2 off' Eo. simpl in Eo. apply Ok_inj in Eo. subst off'. bnd Ed2 du Edu.
    apply create_variable_spec in Eoff. eapply duration_prev; [exact Edu|]. subst off on. unfold prev_of. simpl in *. rewrite Ts. reflexivity.
Qed.

(** ** The witness *)
Definition starting (was : bool) (b : nat -> bool) (t : nat) : Q :=
  q01 (negb (match t with O => was | S k => b k end) && b t)%bool.
Definition stopping (was : bool) (b : nat -> bool) (t : nat) : Q :=
  q01 ((match t with O => was | S k => b k end) && negb (b t))%bool.
Definition with_onoff (x : asg) (e : string) (n : nat) (h : nat -> Q) (was : bool) (p1 p0 : Q) (b : nat -> bool) : asg := fun l =>
  if String.eqb l (oo e "on") then fun t => q01 (b t)
  else if String.eqb l (oo e "off") then fun t => 1 - q01 (b t)
  else if String.eqb l (oo e "totalOnHours") then fun _ => sumn n (fun t => h t * q01 (b t))
  else if String.eqb l (oo e "consecutiveOnHours") then natural (fun t => q01 (b t)) h p1
  else if String.eqb l (oo e "consecutiveOffHours") then natural (fun t => 1 - q01 (b t)) h p0
  else if String.eqb l (oo e "switchOn") then starting was b
  else if String.eqb l (oo e "switchOff") then stopping was b
  else if String.eqb l (oo e "nrSwitchOn") then fun _ => sumn n (starting was b)
  else x l.

Lemma oo_eqb : forall e a b, String.eqb (oo e a) (oo e b) = String.eqb a b.
Proof.
  intros e a b. destruct (String.eqb a b) eqn:E.
  - apply String.eqb_eq in E. subst. apply String.eqb_refl.
  - apply String.eqb_neq in E. apply String.eqb_neq. intros C. apply E. exact (vlabel_inj _ _ _ C).
Qed.
Lemma with_other : forall x e n h was p1 p0 b l, (forall w, In w onoff_names -> l <> oo e w) -> with_onoff x e n h was p1 p0 b l = x l.
Proof.
  intros x e n h was p1 p0 b l H. unfold with_onoff.
  repeat match goal with |- context[String.eqb l (oo e ?w)] =>
    replace (String.eqb l (oo e w)) with false by (symmetry; apply String.eqb_neq; apply H; simpl; tauto) end.
  reflexivity.
Qed.
Ltac with_tac := unfold with_onoff; rewrite !oo_eqb; reflexivity.

Section Witness.
  Variables (x : asg) (e : string) (n : nat) (h : nat -> Q) (was : bool) (p1 p0 : Q) (b : nat -> bool).
  Notation y := (with_onoff x e n h was p1 p0 b).
  Lemma w_on : y (oo e "on") = fun t => q01 (b t). Proof. with_tac. Qed.
  Lemma w_off : y (oo e "off") = fun t => 1 - q01 (b t). Proof. with_tac. Qed.
  Lemma w_total : y (oo e "totalOnHours") = fun _ => sumn n (fun t => h t * q01 (b t)). Proof. with_tac. Qed.
  Lemma w_con : y (oo e "consecutiveOnHours") = natural (fun t => q01 (b t)) h p1. Proof. with_tac. Qed.
  Lemma w_coff : y (oo e "consecutiveOffHours") = natural (fun t => 1 - q01 (b t)) h p0. Proof. with_tac. Qed.
  Lemma w_son : y (oo e "switchOn") = starting was b. Proof. with_tac. Qed.
  Lemma w_soff : y (oo e "switchOff") = stopping was b. Proof. with_tac. Qed.
  Lemma w_nr : y (oo e "nrSwitchOn") = fun _ => sumn n (starting was b). Proof. with_tac. Qed.
End Witness.

Lemma q01_bin : forall b, bin (q01 b).
Proof. destruct b; [right|left]; reflexivity. Qed.
Lemma q01_bin' : forall b, bin (1 - q01 b).
Proof. destruct b; [left|right]; reflexivity. Qed.
Lemma starting_starts : forall was b n,
  sumn n (starting was b) == inject_Z (Z.of_nat (starts was (fun t => q01 (b t)) n)).
Proof.
  intros was b n. unfold sumn, starts. apply sum_count. intros t _. unfold starting, before.
  destruct t as [|k]; [destruct was, (b 0%nat)|destruct (b k), (b (S k))]; reflexivity.
Qed.
Lemma switch_witness : forall cx was b,
  switch_rows cx (fun t => q01 (b t)) (starting was b) (stopping was b) (sumn (cx_n cx) (starting was b)) (q01 was).
Proof.
  intros cx was b. constructor.
  - unfold starting, stopping. destruct was, (b 0%nat); reflexivity.
  - intros t _. unfold starting, stopping. destruct (b t), (b (S t)); reflexivity.
  - intros t _. unfold starting, stopping. destruct t as [|k]; [destruct was, (b 0%nat)|destruct (b k), (b (S k))]; vm_compute; discriminate.
  - reflexivity.
Qed.

Lemma prior_nonneg : forall d s l, (forall q, In q (nlist d) -> 0 <= q) -> 0 <= prior_hours d s l.
Proof.
  intros d s l H. unfold prior_hours, last_hours. destruct d as [q|ds].
  - specialize (H q (or_introl eq_refl)). apply Qmult_le_0_compat; auto. change 0 with (inject_Z 0). rewrite <- Zle_Qle. lia.
  - apply Qsum_nonneg. intros q Hq. apply H. simpl. rewrite <- (firstn_skipn (length ds - trailing s l) ds). apply in_or_app. auto.
Qed.

Lemma limits_data : forall cf fs idx cx dmin dmax, ctx_for cf fs idx cx ->
  (forall p, dmin = Some p \/ dmax = Some p -> full_data fs p) -> dur_data cx dmin dmax.
Proof.
  intros cf fs idx cx dmin dmax C F. split; intros p m Hp Hm; destruct (ctx_full _ _ _ _ p C) as [a [Ha La]]; auto;
    assert (a = m) by congruence; subst; auto. apply fits_len. auto.
Qed.

Theorem onoff_witness : forall cf fs idx cx tr x e o vars bounds out states b,
  ctx_for cf fs idx cx -> 0 <= cf_eps cf -> cf_eps cf < 1 ->
  (forall v, In v vars -> v_len v = cx_n cx) -> (forall bd, In bd bounds -> good (fst bd) /\ good (snd bd)) ->
  (forall v w, In v vars -> In w onoff_names -> v_label v <> oo e w) ->
  onoff_model cx tr e o vars bounds = Ok out -> em_translates (ot_tree out) ->
  (forall prev_on, previous_on_values (cx_eps cx) vars = Ok prev_on -> prev_on = map q01 states) ->
  sound_limits fs idx o -> countable_for o states -> onoff_rules fs idx states o (fun t => q01 (b t)) ->
  (forall y, (forall v, In v vars -> y (v_label v) = x (v_label v)) -> y (oo e "on") = (fun t => q01 (b t)) -> coupled y cx (oo e "on") vars bounds) ->
  exists y, (forall l, (forall w, In w onoff_names -> l <> oo e w) -> y l = x l) /\ y (oo e "on") = (fun t => q01 (b t))
    /\ y (oo e "switchOn") = starting (List.last states false) b /\ em_sat y (ot_tree out).
Proof.
  intros cf fs idx cx tr x e o vars bounds out states b C E0 E1 Lv G NL H T Pr SL [K1 K2] [R1 [R2 [R3 [R4 R5]]]] CP.
  pose proof (cf_ok _ _ _ _ C) as CX. pose proof (cf_n _ _ _ _ C) as N.
  destruct (onoff_built _ _ _ _ _ _ _ CX Lv G H) as [N2 [NE [LE [F [prev_on [last [Po [Hl [D1 D2]]]]]]]]].
  pose proof (Pr _ Po) as ->. destruct (rev_map_last _ _ Hl) as [NS ->].
  set (P1 := match consecutive_duration (cx_eps cx) (NV (map q01 states)) (cx_prev cx) with Ok q => q | Err _ => 0 end).
  set (P0 := match consecutive_duration (cx_eps cx) (NV (map (fun q => 1 - q) (map q01 states))) (cx_prev cx) with Ok q => q | Err _ => 0 end).
  set (was := List.last states false) in *.
  exists (with_onoff x e (cx_n cx) (dt cx) was P1 P0 b).
  split; [intros l Hl'; apply with_other; auto|]. split; [apply w_on|]. split; [apply w_son|].
  assert (US : use_con o = true -> limits_given o <> []).
  { unfold use_con, limits_given. destruct (oo_con_min o), (oo_con_max o); simpl; try discriminate. }
  assert (US0 : use_coff o = true -> limits_given o <> []).
  { unfold use_coff, limits_given. destruct (oo_con_min o), (oo_con_max o), (oo_coff_min o), (oo_coff_max o); simpl; try discriminate. }
  assert (SH : sumn (cx_n cx) (fun t => dt cx t * q01 (b t)) == sumn (steps fs idx) (fun t => hours fs idx t * q01 (b t))).
  { rewrite N. apply sumn_ext. intros t Ht. rewrite (cf_dt _ _ _ _ C) by auto. reflexivity. }
  assert (A1 : use_con o = true -> consecutive_duration (cx_eps cx) (NV (map q01 states)) (cx_prev cx) = Ok P1
                 /\ P1 == prior_hours (fs_prev_dt fs) true states).
  { intros U. destruct (D1 U) as [q Hq]. unfold P1. rewrite Hq. split; auto.
    rewrite (cf_eps_ _ _ _ _ C), (cf_prev _ _ _ _ C) in Hq. eapply consecutive_countable; eauto.
    apply K1. unfold use_con in U. destruct (oo_con_min o), (oo_con_max o); simpl in U; try discriminate; [left|left|right]; discriminate. }
  assert (A0 : use_coff o = true -> consecutive_duration (cx_eps cx) (NV (map (fun q => 1 - q) (map q01 states))) (cx_prev cx) = Ok P0
                 /\ P0 == prior_hours (fs_prev_dt fs) false states).
  { intros U. destruct (D2 U) as [q Hq]. unfold P0. rewrite Hq. split; auto.
    rewrite (cf_eps_ _ _ _ _ C), (cf_prev _ _ _ _ C), q01_neg in Hq.
    assert (NS' : map negb states <> []) by (destruct states; [congruence|discriminate]).
    assert (CF : countable true (map negb states)).
    { apply countable_negb. apply K2. unfold use_coff in U.
      destruct (oo_coff_min o), (oo_coff_max o); simpl in U; try discriminate; [left|left|right]; discriminate. }
    pose proof (consecutive_countable _ _ _ _ E0 E1 NS' CF Hq) as Z. unfold prior_hours in *. rewrite trailing_negb in Z. exact Z. }
  assert (DD : forall dmin dmax, (forall p, dmin = Some p \/ dmax = Some p -> In p (limits_given o)) -> dur_data cx dmin dmax).
  { intros dmin dmax I. eapply limits_data; eauto. intros p Hp. apply I in Hp.
    destruct SL as [_ [_ SL]]; [intros Z; rewrite Z in Hp; destruct Hp|]. apply SL; auto. }
  assert (I1 : forall p, oo_con_min o = Some p \/ oo_con_max o = Some p -> In p (limits_given o)).
  { unfold limits_given. intros p [Z|Z]; rewrite Z; simpl; rewrite ?in_app_iff; simpl; auto. }
  assert (I0 : forall p, oo_coff_min o = Some p \/ oo_coff_max o = Some p -> In p (limits_given o)).
  { unfold limits_given. intros p [Z|Z]; rewrite Z; simpl; rewrite ?in_app_iff; simpl; auto 10. }
  assert (TT : limits_given o <> [] -> 0 <= cx_total cx).
  { intros U. destruct (SL U) as [HH _]. rewrite (cf_total _ _ _ _ C). unfold horizon, sumn. apply Qsum_nonneg.
    intros q Hq. apply in_map_iff in Hq. destruct Hq as [t [<- Ht]]. apply in_seq in Ht. apply HH. lia. }
  apply (onoff_admits _ cx tr e o vars bounds out (map q01 states)); auto.
  - constructor; auto.
    + intros t _. rewrite w_on. apply q01_bin.
    + rewrite w_total, w_on. reflexivity.
    + intros q Hq. rewrite w_total, SH. auto.
    + intros q Hq. rewrite w_total, SH. auto.
    + apply CP; [|apply w_on]. intros v Hv. apply with_other. intros w Hw. apply NL; auto.
    + intros U t _. rewrite w_off, w_on. split; [apply q01_bin'|ring].
    + intros U. destruct (A1 U) as [Q1 Q2]. exists P1. split; auto. rewrite w_on, w_con. destruct (SL (US U)) as [S1 [S2 S3]].
      eapply limits_rows; eauto; [intros; apply q01_bin|apply prior_nonneg; auto|]. intros p t Hp Ht. apply S3; auto.
    + intros U. destruct (A0 U) as [Q1 Q2]. exists P0. split; auto. rewrite w_off, w_coff. destruct (SL (US0 U)) as [S1 [S2 S3]].
      eapply limits_rows; eauto; [intros; apply q01_bin'|apply prior_nonneg; auto|]. intros p t Hp Ht. apply S3; auto.
    + intros t _. rewrite w_son, w_soff. split; apply q01_bin.
    + exists (q01 was). split; auto. rewrite w_on, w_son, w_soff, w_nr. apply switch_witness.
    + intros q Hq. rewrite w_nr, starting_starts, N. auto.
  - intros prev U Hp. destruct (A1 U) as [Q1 Q2]. assert (prev = P1) by congruence. subst. rewrite Q2.
    pose proof (TT (US U)). destruct (SL (US U)) as [_ [S2 _]]. pose proof (prior_nonneg (fs_prev_dt fs) true states S2). lra.
  - intros prev U Hp. destruct (A0 U) as [Q1 Q2]. assert (prev = P0) by congruence. subst. rewrite Q2.
    pose proof (TT (US0 U)). destruct (SL (US0 U)) as [_ [S2 _]]. pose proof (prior_nonneg (fs_prev_dt fs) false states S2). lra.
Qed.

(** ** Which model declares a variable *)
Lemma flat_map_owner : forall {A B} (g : A -> list B) l a c z, NoDup (flat_map g l) -> In a l -> In c l -> In z (g a) -> In z (g c) -> a = c.
Proof.
  intros A B g l. induction l as [|d l IH]; intros a c z N Ha Hc Za Zc; [destruct Ha|]. simpl in N.
  assert (D : NoDup (flat_map g l) /\ forall w, In w (g d) -> ~ In w (flat_map g l)).
  { clear - N. induction (g d) as [|w r IH]; [split; auto|]. simpl in N. inversion N as [|? ? N1 N2]; subst.
    destruct (IH N2) as [I1 I2]. split; auto. intros v [<-|Hv]; auto. intros Z. apply N1. apply in_or_app. auto. }
  destruct D as [D1 D2]. destruct Ha as [<-|Ha], Hc as [<-|Hc]; auto.
  - exfalso. apply (D2 z Za). apply in_flat_map. eauto.
  - exfalso. apply (D2 z Zc). apply in_flat_map. eauto.
  - eapply IH; eauto.
Qed.
