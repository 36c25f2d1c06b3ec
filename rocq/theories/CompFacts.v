(** What the rows of components and buses say: storages, converters, transmissions, segmented converters, buses. *)
From Verif Require Import Base BaseFacts MathModel Spec MathFacts Structure StructureFacts Params Features Elements System SysSpec
  CtxFacts ReadTools InvestFacts OnOffFacts FlowFacts NavFacts.

(** The part of a component's model that belongs to its kind. *)
Theorem own_laws : forall cf ord fs idx pm x c, build cf ord fs idx = Ok pm -> feasible pm x -> In c (fs_comps fs) ->
  exists cx tr fos on so, ctx_for cf fs idx cx /\ cx_ord cx = ord
    /\ Forall2 (fo_for cf fs idx cx c) (cp_flows c) fos
    /\ own_model cx tr c fos on = Ok so
    /\ Forall (var_sat x) (so_vars so) /\ Forall (con_sat x) (so_cons so) /\ Forall (em_sat x) (so_subs so)
    /\ match cp_onoff c with
       | None => on = None
       | Some _ => exists v, on = Some v /\ v_label v = oo (cp_label c) "on" /\ v_len v = cx_n cx
       end.
Proof.
  intros cf ord fs idx pm x c H F Hc. destruct (build_parts _ _ _ _ _ H) as [cx [cos [bos [em [obj P]]]]].
  destruct (locate_comp _ _ _ _ _ _ _ _ _ _ P c Hc) as [o [oo_ [pm_ [so [Ho [Q S]]]]]]. specialize (S x F).
  pose proof (sys_ctx _ _ _ _ _ _ _ _ _ _ P) as CF. pose proof (cf_ok _ _ _ _ CF) as CX.
  exists cx, (visible_comp fs (cp_label c)), (co_flows o), (option_map ot_on oo_), so.
  split; auto. split; [apply (sy_ord _ _ _ _ _ _ _ _ _ _ P)|].
  split; [eapply fos_for; eauto|]. split; [apply (pa_own _ _ _ _ _ _ _ _ Q)|].
  rewrite (pa_tree _ _ _ _ _ _ _ _ Q) in S.
  split; [eapply em_sat_vars; eauto|]. split; [eapply em_sat_cons; eauto|].
  split.
  - apply Forall_forall. intros m Hm. eapply em_sat_sub; [exact S|]. apply in_or_app; auto.
  - pose proof (pa_oo _ _ _ _ _ _ _ _ Q) as OO. destruct (cp_onoff c) as [p|]; simpl in OO.
    + bnd OO o1 Eo. fin OO. simpl. destruct (onoff_on _ _ _ _ _ _ _ Eo) as [A [B _]]. eauto.
    + fin OO. reflexivity.
Qed.

(** ** Data *)
Lemma act_value : forall cx tr p a, ctx_ok cx -> act cx tr p = Ok a ->
  forall t, is_scalar a = true \/ (t < nlen a)%nat -> at_ a t == value (cx_idx cx) p t.
Proof.
  intros cx tr p a [A B C _] H. unfold act in H. inv_ok.
  pose proof (make_scalar_spec _ _ E0) as M. unfold value, active_of in *. destruct (pdata p) as [q|l].
  - subst a1. simpl in H. destruct (cx_idx cx); inv_ok; simpl; intros; reflexivity.
  - destruct M as [Ne [[q [-> M]]|[-> L]]].
    + assert (a = NS q) by (destruct (cx_idx cx); simpl in H; inv_ok; auto). subst. simpl.
      intros t _. symmetry. set (s := selected (cx_idx cx) t).
      destruct (Nat.lt_ge_cases s (length l)) as [Hl|Hl].
      * apply M. apply nth_In; auto.
      * rewrite nth_overflow by auto. destruct l; [congruence|]. apply M. left; auto.
    + destruct (cx_idx cx) as [ix|] eqn:I; cbn [bind] in H; inv_ok.
      * match goal with K : take_idx _ _ = Ok _ |- _ => destruct (take_idx_spec _ _ _ K) as [Lr T] end.
        intros t [X|Ht]; [discriminate|]. simpl in Ht. rewrite at_NV by lia. unfold selected. rewrite (T t (hd 0 l)) by lia. reflexivity.
      * intros t [X|Ht]; [discriminate|]. simpl in Ht. rewrite at_NV by lia. unfold selected.
        rewrite (nth_indep _ 0 (hd 0 l)) by lia. reflexivity.
Qed.

Lemma as_vector_covers : forall a n l, as_vector a n = Ok l -> forall t, (t < n)%nat -> is_scalar a = true \/ (t < nlen a)%nat.
Proof.
  intros [q|l] n r H t Ht; simpl in *; auto. destruct (Nat.eqb (length l) n) eqn:E; [|discriminate]. apply Nat.eqb_eq in E. right. lia.
Qed.
Lemma var_sat_lb_covers : forall x v l, var_sat x v -> v_lb v = Some l -> forall t, (t < v_len v)%nat -> is_scalar l = true \/ (t < nlen l)%nat.
Proof.
  intros x v l [p [T _]] E t Ht. unfold translate_variable in T. bnd T a Ea. rewrite E in Ea. simpl in Ea. bnd Ea b Eb.
  eapply as_vector_covers; eauto.
Qed.
Lemma var_sat_ub_covers : forall x v l, var_sat x v -> v_ub v = Some l -> forall t, (t < v_len v)%nat -> is_scalar l = true \/ (t < nlen l)%nat.
Proof.
  intros x v l [p [T _]] E t Ht. unfold translate_variable in T. bnd T a0 Ea0. bnd T a Ea. rewrite E in Ea. simpl in Ea. bnd Ea b Eb.
  eapply as_vector_covers; eauto.
Qed.
Lemma nmul_scalar : forall a q c, nmul a (NS q) = Ok c -> is_scalar c = is_scalar a /\ nlen c = nlen a
  /\ forall t, is_scalar c = true \/ (t < nlen c)%nat -> at_ c t == at_ a t * q.
Proof.
  intros a q c H. unfold nmul in H.
  assert (S : is_scalar c = is_scalar a /\ nlen c = nlen a).
  { destruct a as [z|l]; simpl in H; apply Ok_inj in H; subst c; simpl; auto. rewrite map_length. auto. }
  destruct S as [S1 S2]. split; auto. split; auto. intros t Ht. erewrite bcast2_at; eauto; [reflexivity|].
  apply in_rng_len. destruct Ht as [Ht|Ht]; auto. destruct c; [simpl; auto|discriminate].
Qed.

(** ** Storages *)
Record storage_rows (x : asg) (cx : ctx) (full : string) (s : storage) (ch dis : nat -> Q) : Prop := {
  sr_netto : forall t, (t < cx_n cx)%nat -> x (vlabel full "netto_discharge") t == dis t - ch t;
  sr_balance : forall t, (t < cx_n cx)%nat ->
     ~ value (cx_idx cx) (st_eta_d s) t == 0 /\
     x (vlabel full "charge_state") (S t) == x (vlabel full "charge_state") t * (1 - value (cx_idx cx) (st_loss s) t * dt cx t)
        + ch t * value (cx_idx cx) (st_eta_c s) t * dt cx t - dis t / value (cx_idx cx) (st_eta_d s) t * dt cx t;
  sr_bounds : forall t, (t <= cx_n cx)%nat ->
     value (cx_idx cx) (st_relmin s) t * fst (cap_limits cx (st_cap s)) <= x (vlabel full "charge_state") t
     /\ x (vlabel full "charge_state") t <= value (cx_idx cx) (st_relmax s) t * snd (cap_limits cx (st_cap s));
  sr_inv : forall iv, st_cap s = CapInv iv ->
     let q := x (inv full "size") 0%nat in let d := x (inv full "isInvested") 0%nat in
     (if (iv_is_fixed iv && negb (iv_optional iv))%bool then q == or_num (iv_fixed iv) 0
      else (if iv_optional iv then 0 else iv_minimum iv) <= q /\ q <= iv_maximum cx iv)
     /\ (iv_optional iv = true ->
           (d == 0 \/ d == 1)
           /\ if iv_is_fixed iv then q == d * or_num (iv_fixed iv) 0
              else q <= d * iv_maximum cx iv /\ d * Qmax_ (cx_eps cx) (iv_minimum iv) <= q)
     /\ forall t, (t <= cx_n cx)%nat ->
           value (cx_idx cx) (st_relmin s) t * q <= x (vlabel full "charge_state") t
           /\ x (vlabel full "charge_state") t <= value (cx_idx cx) (st_relmax s) t * q;
  sr_ends : match st_init s with
     | ICNone => True
     | ICNum q => x (vlabel full "charge_state") 0%nat == q
     | ICLast => x (vlabel full "charge_state") 0%nat == x (vlabel full "charge_state") (cx_n cx - 1)%nat
     | ICBad => False
     end;
  sr_fmax : forall q, st_init s <> ICNone -> st_fmax s = Some q -> x (vlabel full "charge_state") (cx_n cx) <= q;
  sr_fmin : forall q, st_init s <> ICNone -> st_fmin s = Some q -> q <= x (vlabel full "charge_state") (cx_n cx)
}.

Lemma act_at : forall cx tr p a t, ctx_ok cx -> act cx tr p = Ok a -> fits (cx_n cx) a -> (t < cx_n cx)%nat ->
  at_ a t == value (cx_idx cx) p t.
Proof. intros cx tr p a t CX H F Ht. destruct (act_spec _ _ _ _ CX H) as [_ [_ A]]. apply A; auto. Qed.

Theorem storage_spec : forall x cx tr full s ch dis so, ctx_ok cx ->
  v_len (fo_rate ch) = cx_n cx -> v_len (fo_rate dis) = cx_n cx ->
  storage_model cx tr full s ch dis = Ok so ->
  Forall (var_sat x) (so_vars so) -> Forall (con_sat x) (so_cons so) -> Forall (em_sat x) (so_subs so) ->
  storage_rows x cx full s (x (v_label (fo_rate ch))) (x (v_label (fo_rate dis))).
Proof.
  intros x cx tr full s ch dis so CX L1 L2 H V C SB. unfold storage_model in H.
  pose proof (ok_pos _ CX) as NP.
  bnd H rl Erl. bnd H ru Eru. destruct (cap_limits cx (st_cap s)) as [lo hi] eqn:CL.
  bnd H lb Elb. bnd H ub Eub. bnd H cs Ecs. bnd H nd End. bnd H ceq Eceq. bnd H loss Eloss. bnd H ec Eec. bnd H ed Eed.
  bnd H f1 Ef1. bnd H f2 Ef2. bnd H iv_ Eiv. bnd H f3 Ef3. bnd H bal Ebal. bnd H io Eio. bnd H ends Eends. fin H.
  simpl in V, C, SB. inversion V as [|? ? V1 V']; subst. inversion V' as [|? ? V2 _]; subst.
  inversion C as [|? ? C1 C']; subst. inversion C' as [|? ? C2 C3]; subst. clear V V' C C'.
  apply create_variable_spec in Ecs. apply create_variable_spec in End.
  assert (Lcs : v_len cs = (cx_n cx + 1)%nat) by (subst cs; auto).
  assert (Lnd : v_len nd = cx_n cx) by (subst nd; auto).
  assert (Ncs : v_label cs = vlabel full "charge_state") by (subst cs; auto).
  assert (Nnd : v_label nd = vlabel full "netto_discharge") by (subst nd; auto).
  assert (Bcs : v_lb cs = Some lb /\ v_ub cs = Some ub /\ v_fixed cs = None) by (subst cs; auto).
  destruct Bcs as [Blb [Bub Bfx]]. clear Ecs End.
  destruct (act_spec _ _ _ _ CX Erl) as [_ [Grl _]]. destruct (act_spec _ _ _ _ CX Eru) as [_ [Gru _]].
  destruct (act_spec _ _ _ _ CX Eloss) as [_ [Gl _]]. destruct (act_spec _ _ _ _ CX Eec) as [_ [Gc _]].
  destruct (act_spec _ _ _ _ CX Eed) as [_ [Gd _]].
  assert (GD : good (NV (cx_dt cx))) by (apply good_dt; auto).
  assert (G1 : good f1) by (eapply good_bcast2; eauto).
  assert (G2 : good f2) by (eapply good_bcast2; [exact Ef2|apply good_nmap; auto|auto]).
  assert (Gi : good iv_) by (apply ndiv_bcast in Eiv; eapply good_bcast2; [exact Eiv|apply good_NS|auto]).
  assert (G3 : good f3) by (eapply good_bcast2; eauto).
  (* charge state bounds and data at all charge states *)
  assert (CL1 : forall t, (t <= cx_n cx)%nat -> is_scalar rl = true \/ (t < nlen rl)%nat).
  { intros t Ht. destruct (nmul_scalar _ _ _ Elb) as [A [B _]]. rewrite <- A, <- B.
    eapply (var_sat_lb_covers x cs); eauto; lia. }
  assert (CL2 : forall t, (t <= cx_n cx)%nat -> is_scalar ru = true \/ (t < nlen ru)%nat).
  { intros t Ht. destruct (nmul_scalar _ _ _ Eub) as [A [B _]]. rewrite <- A, <- B.
    eapply (var_sat_ub_covers x cs); eauto; lia. }
  assert (RL : forall t, (t <= cx_n cx)%nat -> at_ rl t == value (cx_idx cx) (st_relmin s) t) by (intros; eapply act_value; eauto).
  assert (RU : forall t, (t <= cx_n cx)%nat -> at_ ru t == value (cx_idx cx) (st_relmax s) t) by (intros; eapply act_value; eauto).
  (* the balance *)
  assert (LV : Forall live [AddS cs (NS 1) (Some (seq 1 (cx_n cx))) false;
            AddS cs (nmap (fun q => q - 1) f1) (Some (seq 0 (cx_n cx))) false;
            AddS (fo_rate ch) f2 None false; AddS (fo_rate dis) f3 None false]).
  { repeat constructor; [apply live_some|apply live_some|apply live_none|apply live_none]; auto with num; try (apply seq_ne; auto); lia. }
  assert (EX : Exists (fun a => call_len a = cx_n cx) [AddS cs (NS 1) (Some (seq 1 (cx_n cx))) false;
            AddS cs (nmap (fun q => q - 1) f1) (Some (seq 0 (cx_n cx))) false;
            AddS (fo_rate ch) f2 None false; AddS (fo_rate dis) f3 None false]).
  { apply Exists_cons_hd. simpl. apply seq_length. }
  assert (F1 : fits (cx_n cx) f1).
  { apply (fits_nmap _ (fun q => q - 1)). eapply row_fits; [exact Ebal|exact LV|exact EX|]. simpl; auto. }
  assert (F2 : fits (cx_n cx) f2) by (eapply row_fits; [exact Ebal|exact LV|exact EX|]; simpl; auto).
  assert (F3 : fits (cx_n cx) f3) by (eapply row_fits; [exact Ebal|exact LV|exact EX|]; simpl; auto).
  destruct (fits_bcast2_inv _ _ _ _ _ Ef1 F1) as [Fl _].
  destruct (fits_bcast2_inv _ _ _ _ _ Ef2 F2) as [Fc _]. apply fits_nmap in Fc.
  destruct (fits_bcast2_inv _ _ _ _ _ Ef3 F3) as [Fi _].
  pose proof (ndiv_bcast _ _ _ Eiv) as Ei'. destruct (fits_bcast2_inv _ _ _ _ _ Ei' Fi) as [_ Fd].
  constructor.
  - intros t Ht. row Eceq C1 (cx_n cx) t R. rewrite Nnd in R. lra.
  - intros t Ht.
    assert (Vd : at_ ed t == value (cx_idx cx) (st_eta_d s) t) by (eapply act_at; eauto).
    assert (NZ : ~ value (cx_idx cx) (st_eta_d s) t == 0).
    { rewrite <- Vd. eapply ndiv_nz; eauto. }
    split; auto. row Ebal C2 (cx_n cx) t R. rewrite Ncs in R.
    rewrite nmap_at in R by auto.
    assert (A1 : at_ f1 t == value (cx_idx cx) (st_loss s) t * dt cx t).
    { unfold nmul in Ef1. rewrite (bcast2_at _ _ _ _ _ Ef1) by auto. rewrite at_dt by auto. rewrite (act_at _ _ _ _ _ CX Eloss Fl Ht). reflexivity. }
    assert (A2 : at_ f2 t == - (value (cx_idx cx) (st_eta_c s) t * dt cx t)).
    { unfold nmul in Ef2. rewrite (bcast2_at _ _ _ _ _ Ef2) by auto. rewrite at_dt by auto. rewrite nmap_at by auto.
      rewrite (act_at _ _ _ _ _ CX Eec Fc Ht). ring. }
    assert (A3 : at_ f3 t == / value (cx_idx cx) (st_eta_d s) t * dt cx t).
    { unfold nmul in Ef3. rewrite (bcast2_at _ _ _ _ _ Ef3) by auto. rewrite at_dt by auto.
      rewrite (bcast2_at _ _ _ _ _ Ei') by auto. rewrite at_NS, Vd. field. auto. }
    rewrite A1, A2, A3 in R. replace (1 + t)%nat with (S t) in R by lia. replace (0 + t)%nat with t in R by lia.
    unfold Qdiv. simpl in R.
    set (a := x (vlabel full "charge_state") (S t)) in *. set (b := x (vlabel full "charge_state") t) in *.
    set (i := / value (cx_idx cx) (st_eta_d s) t) in *. lra.
  - intros t Ht. rewrite CL. simpl. destruct (nmul_scalar _ _ _ Elb) as [A [B D]]. destruct (nmul_scalar _ _ _ Eub) as [A' [B' D']].
    split.
    + rewrite <- (RL t Ht). rewrite <- D by (rewrite A, B; auto).
      rewrite <- Ncs. eapply var_sat_lb; [exact V1|auto|auto|lia].
    + rewrite <- (RU t Ht). rewrite <- D' by (rewrite A', B'; auto).
      rewrite <- Ncs. eapply var_sat_ub; [exact V1|auto|auto|lia].
  - intros iv Hiv. rewrite Hiv in Eio. bnd Eio i Ei. fin Eio. simpl in SB. inversion SB as [|? ? S1 _]; subst.
    destruct (invest_spec x cx tr full iv cs rl ru None None i) as [I1 [I2 [I3 _]]]; auto; try discriminate; try lia.
    simpl. split; [exact I1|]. split; [exact I2|]. intros t Ht. specialize (I3 t). simpl in I3.
    rewrite <- (RL t Ht), <- (RU t Ht). destruct I3 as [I3 I4]; [lia|]. rewrite Ncs in *. split; auto.
  - unfold storage_ends in Eends. destruct (st_init s) eqn:SI; auto.
    + bnd Eends c0 Ec0. bnd Eends cmax Ecmax. bnd Eends cmin Ecmin. fin Eends. inversion C3 as [|? ? D1 D2]; subst.
      row Ec0 D1 1%nat 0%nat R. simpl in R; rewrite ?Ncs in R; lra.
    + bnd Eends c0 Ec0. bnd Eends cmax Ecmax. bnd Eends cmin Ecmin. fin Eends. inversion C3 as [|? ? D1 D2]; subst.
      row Ec0 D1 1%nat 0%nat R. simpl in R; rewrite ?Ncs in R; lra.
    + discriminate.
  - intros q SI Fq. unfold storage_ends in Eends. destruct (st_init s); try congruence; try discriminate;
    bnd Eends c0 Ec0; bnd Eends cmax Ecmax; bnd Eends cmin Ecmin; fin Eends; inversion C3 as [|? ? D1 D2]; subst;
    rewrite Fq in Ecmax; bnd Ecmax k Ek; fin Ecmax; inversion D2 as [|? ? D3 D4]; subst; row Ek D3 1%nat 0%nat R; simpl in R; rewrite ?Ncs in R; lra.
  - intros q SI Fq. unfold storage_ends in Eends. destruct (st_init s); try congruence; try discriminate;
    bnd Eends c0 Ec0; bnd Eends cmax Ecmax; bnd Eends cmin Ecmin; fin Eends; inversion C3 as [|? ? D1 D2]; subst;
    rewrite Fq in Ecmin; bnd Ecmin k Ek; fin Ecmin; apply Forall_app in D2; destruct D2 as [_ D2];
    inversion D2 as [|? ? D3 D4]; subst; row Ek D3 1%nat 0%nat R; simpl in R; rewrite ?Ncs in R; lra.
Qed.

(** ** Equations over whole variables *)
Definition tcall (va : variable * numeric) : call := AddS (fst va) (snd va) None false.
Definition qcall (q : Q) : call := AddC (NS q).

Lemma call_covers : forall k model label calls c v f n,
  create_equation model label k calls = Ok c -> In (AddS v f None false) calls -> good f -> v_len v = n -> n <> 0%nat ->
  (n <= call_len (AddS v f None false))%nat.
Proof.
  intros k model label calls c v f n H Hi G L NZ. unfold create_equation in H. apply build_built in H. destruct H as [_ _ _ B _ _ _ _ _].
  assert (Hf : In (AddS v f None false) (filter is_summand calls)) by (apply filter_In; auto).
  destruct (Forall2_In_l _ _ _ _ B Hf) as [s [_ E]]. simpl in E. apply mk_summand_inv in E. destruct E as [m [E _]].
  rewrite idx_of_length in E. apply check_length_spec in E. unfold good in G. simpl in *.
  destruct (Nat.eqb (nlen f) 1) eqn:X; [apply Nat.eqb_eq in X|apply Nat.eqb_neq in X]; lia.
Qed.

Lemma terms_law : forall x k model label terms qs c n, n <> 0%nat ->
  create_equation model label k (map tcall terms ++ map qcall qs) = Ok c -> con_sat x c -> terms <> [] ->
  (forall v a, In (v, a) terms -> v_len v = n /\ good a) ->
  (forall v a, In (v, a) terms -> fits n a)
  /\ forall t, (t < n)%nat -> rel k (Qsum (map (fun va => at_ (snd va) t * x (v_label (fst va)) t) terms)) (Qsum qs).
Proof.
  intros x k model label terms qs c n NZ H C NE T.
  assert (LV : Forall live (map tcall terms ++ map qcall qs)).
  { apply Forall_app. split; apply Forall_map, Forall_forall.
    - intros [v a] Hv. destruct (T v a Hv). apply live_none; simpl; [lia|auto].
    - intros q _. apply live_const, good_NS. }
  assert (PL : Forall plain (map tcall terms ++ map qcall qs)).
  { apply Forall_app. split; apply Forall_map, Forall_forall; intros; [apply plain_false|exact I]. }
  destruct terms as [|[v0 a0] terms]; [congruence|].
  destruct (T v0 a0 (or_introl eq_refl)) as [L0 G0].
  pose proof (call_covers _ _ _ _ _ v0 a0 n H (or_introl eq_refl) G0 L0 NZ) as CV.
  assert (EX : Exists (fun a => call_len a = call_len (tcall (v0, a0))) (map tcall ((v0, a0) :: terms) ++ map qcall qs)).
  { apply Exists_cons_hd. reflexivity. }
  split.
  - intros v a Hv. eapply fits_le; [exact CV|]. eapply row_fits; [exact H|exact LV|exact EX|].
    apply in_or_app. left. apply in_map_iff. exists (v, a). split; [reflexivity|exact Hv].
  - intros t Ht.
    assert (R := row_law x _ _ _ _ _ _ t H C PL LV EX (Nat.lt_le_trans _ _ _ Ht CV)).
    assert (A : Qsum (map (call_lhs x t) (map tcall ((v0, a0) :: terms) ++ map qcall qs))
                == Qsum (map (fun va => at_ (snd va) t * x (v_label (fst va)) t) ((v0, a0) :: terms))).
    { rewrite map_app, Qsum_app, !map_map.
      assert (Z : Qsum (map (fun q => call_lhs x t (qcall q)) qs) == 0) by (apply Qsum_zero; intros q Hq; apply in_map_iff in Hq; destruct Hq as [y [<- _]]; reflexivity).
      rewrite Z, Qplus_0_r. apply Qsum_map_eq. intros [v a] Hv. destruct (T v a Hv) as [L _]. cbn [call_lhs tcall fst snd].
      rewrite pick_all by lia. reflexivity. }
    assert (B : Qsum (map (call_rhs t) (map tcall ((v0, a0) :: terms) ++ map qcall qs)) == Qsum qs).
    { rewrite map_app, Qsum_app, !map_map.
      assert (Z : Qsum (map (fun va => call_rhs t (tcall va)) ((v0, a0) :: terms)) == 0)
        by (apply Qsum_zero; intros q Hq; apply in_map_iff in Hq; destruct Hq as [y [<- _]]; reflexivity).
      rewrite Z, Qplus_0_l. rewrite <- (map_id qs) at 2. apply Qsum_map_eq. intros q _. reflexivity. }
    unfold rel in *. destruct k; rewrite A, B in R; exact R.
Qed.

(** ** Conversion equations *)
Lemma conv_calls_terms : forall cx tr fos factors sign ids calls, ctx_ok cx ->
  conv_calls cx tr fos factors sign ids = Ok calls ->
  exists terms, calls = map tcall terms /\ Forall2 (fun i va => exists o p a, find_fo fos i = Ok o /\ lookup_nat factors i = Some p
     /\ act cx tr p = Ok a /\ fst va = fo_rate o /\ snd va = (if sign then a else nmap Qopp a)) ids terms.
Proof.
  intros cx tr fos factors sign ids calls CX H. unfold conv_calls in H. revert calls H.
  induction ids as [|i ids IH]; intros calls H; simpl in H.
  - fin H. exists []. split; [auto|constructor].
  - bnd H c E. bnd H cs Ecs. fin H. destruct (IH _ Ecs) as [terms [-> F]].
    bnd E p Ep. bnd E a Ea. bnd E o Eo. fin E. apply nth_error_some in Ep.
    exists ((fo_rate o, if sign then a else nmap Qopp a) :: terms). split; [reflexivity|]. constructor; auto.
    exists o, p, a. auto.
Qed.

Lemma Qsum_filter : forall {A} (p : A -> bool) (g : A -> Q) l, (forall a, In a l -> p a = false -> g a == 0) ->
  Qsum (map g (filter p l)) == Qsum (map g l).
Proof.
  intros A p g l. induction l as [|a l IH]; intros H; simpl; [reflexivity|].
  assert (I : Qsum (map g (filter p l)) == Qsum (map g l)) by (apply IH; intros; apply H; simpl; auto).
  destruct (p a) eqn:E; cbn [map]; rewrite ?Qsum_cons, I; [reflexivity|]. rewrite (H a (or_introl eq_refl) E). lra.
Qed.

Lemma mem_nat_In : forall i l, mem_nat i l = true <-> In i l.
Proof.
  intros i l. unfold mem_nat. rewrite existsb_exists. split.
  - intros [j [H E]]. apply Nat.eqb_eq in E. subst; auto.
  - intros H. exists i. split; auto. apply Nat.eqb_refl.
Qed.

Lemma lookup_none : forall {A} (l : list (nat * A)) i, lookup_nat l i = None <-> mem_nat i (map fst l) = false.
Proof.
  intros A l i. unfold lookup_nat, mem_nat. induction l as [|[j a] l IH]; simpl; [tauto|].
  destruct (Nat.eqb j i) eqn:E; simpl.
  - apply Nat.eqb_eq in E. subst. rewrite Nat.eqb_refl. simpl. split; discriminate.
  - rewrite Nat.eqb_sym, E. simpl. exact IH.
Qed.

(** One side of a conversion equation. *)
Lemma conv_side : forall cf fs idx cx x tr c fl fos factors sign calls t,
  ctx_for cf fs idx cx -> (forall l, Permutation (cx_ord cx l) l) -> (t < cx_n cx)%nat ->
  Forall2 (fo_for cf fs idx cx c) (cp_flows c) fos -> NoDup (map f_id (cp_flows c)) ->
  (forall f, In f fl -> In f (cp_flows c)) -> NoDup (map f_id fl) ->
  conv_calls cx tr fos factors sign (used_ids cx fl factors) = Ok calls ->
  exists terms, calls = map tcall terms
    /\ (forall v a, In (v, a) terms -> v_len v = cx_n cx /\ good a)
    /\ ((forall v a, In (v, a) terms -> fits (cx_n cx) a) ->
        Qsum (map (fun va => at_ (snd va) t * x (v_label (fst va)) t) terms)
        == (if sign then 1 else -1) * weighted idx x c factors fl t).
Proof.
  intros cf fs idx cx x tr c fl fos factors sign calls t CF PO Ht FF ND Sub NDl H.
  pose proof (cf_ok _ _ _ _ CF) as CX.
  destruct (conv_calls_terms _ _ _ _ _ _ _ CX H) as [terms [-> FT]]. exists terms. split; auto.
  assert (LOC : forall i o, find_fo fos i = Ok o -> exists f, In f (cp_flows c) /\ f_id f = i /\ fo_for cf fs idx cx c f o).
  { intros i o E. unfold find_fo in E. apply nth_error_some in E. apply find_some in E. destruct E as [Hi Ei]. apply Nat.eqb_eq in Ei.
    destruct (Forall2_In_r _ _ _ _ FF Hi) as [f [Hf Sf]]. exists f. split; auto. split; auto.
    pose proof (fs_id _ _ _ _ Sf) as X. simpl in X. congruence. }
  split.
  - intros v a Hv. destruct (Forall2_In_r _ _ _ _ FT Hv) as [i [_ [o [p [b [E1 [E2 [E3 [E4 E5]]]]]]]]]. simpl in *. subst.
    destruct (LOC _ _ E1) as [f [_ [_ Sf]]]. split; [apply (fs_len _ _ _ _ Sf)|].
    destruct (act_spec _ _ _ _ CX E3) as [_ [G _]]. destruct sign; auto. apply good_nmap; auto.
  - intros FI.
    set (val := fun i => match find (fun f => Nat.eqb (f_id f) i) (cp_flows c), lookup_nat factors i with
                         | Some f, Some p => value idx p t * rate_of x c f t | _, _ => 0 end).
    assert (A : Qsum (map (fun va => at_ (snd va) t * x (v_label (fst va)) t) terms)
                == Qsum (map (fun i => (if sign then 1 else -1) * val i) (used_ids cx fl factors))).
    { clear H. induction FT as [|i [v a] il tl [o [p [b [E1 [E2 [E3 [E4 E5]]]]]]] _ IH]; cbn [map]; [reflexivity|].
      rewrite !Qsum_cons, IH by (intros; eapply FI; simpl; eauto). simpl in E4, E5. subst v.
      destruct (LOC _ _ E1) as [f [Hf [Ei Sf]]]. unfold val at 2.
      rewrite <- Ei in E2 |- *. rewrite find_unique by auto. rewrite E2. cbn [fst snd].
      assert (Fb : fits (cx_n cx) b).
      { specialize (FI (fo_rate o) a (or_introl eq_refl)). subst a. destruct sign; auto. apply fits_nmap in FI; auto. }
      pose proof (act_at _ _ _ _ _ CX E3 Fb Ht) as V. rewrite (cf_idx _ _ _ _ CF) in V.
      rewrite (fs_label _ _ _ _ Sf). fold (flow_name c (effective cf fs idx c f)).
      change (flow_name c (effective cf fs idx c f)) with (flow_name c f). unfold rate_of.
      subst a. destruct sign; [rewrite V; ring|]. rewrite nmap_at by auto. rewrite V. ring. }
    rewrite A, Qsum_scale. unfold used_ids.
    rewrite (Qsum_perm _ _ (Permutation_map val (PO _))).
    rewrite nodup_fixed_point by auto.
    rewrite Qsum_filter.
    + rewrite map_map. unfold weighted. rewrite (Qsum_map_eq (fun f => val (f_id f)) (fun f => match factor_of factors f with Some p => value idx p t * rate_of x c f t | None => 0 end)); [reflexivity|].
      intros f Hf. unfold val, factor_of. rewrite find_unique by auto. unfold lookup_nat. destruct (find _ factors); reflexivity.
    + intros i _ E. unfold val. apply lookup_none in E. rewrite E. destruct (find _ _); reflexivity.
Qed.

Theorem conversion_spec : forall cf fs idx cx x tr c fos i factors k t,
  ctx_for cf fs idx cx -> (forall l, Permutation (cx_ord cx l) l) -> (t < cx_n cx)%nat ->
  Forall2 (fo_for cf fs idx cx c) (cp_flows c) fos -> NoDup (map f_id (cp_flows c)) ->
  conversion_eq cx tr c fos i factors = Ok k -> con_sat x k ->
  weighted idx x c factors (cp_in c) t == weighted idx x c factors (cp_out c) t.
Proof.
  intros cf fs idx cx x tr c fos i factors k t CF PO Ht FF ND H C. unfold conversion_eq in H.
  bnd H ins Ei. bnd H outs Eo. unfold cp_flows in ND. rewrite map_app in ND. destruct (NoDup_app_both _ _ ND) as [ND1 ND2].
  rewrite <- map_app in ND.
  destruct (conv_side _ _ _ _ x _ _ (cp_in c) _ _ _ _ t CF PO Ht FF ND ltac:(intros; apply in_or_app; auto) ND1 Ei) as [t1 [-> [L1 W1]]].
  destruct (conv_side _ _ _ _ x _ _ (cp_out c) _ _ _ _ t CF PO Ht FF ND ltac:(intros; apply in_or_app; auto) ND2 Eo) as [t2 [-> [L2 W2]]].
  rewrite app_assoc, <- map_app in H. change [AddC (NS 0)] with (map qcall [0]) in H.
  pose proof (ok_pos _ (cf_ok _ _ _ _ CF)) as NP.
  destruct (t1 ++ t2) as [|v0 r] eqn:E.
  - apply app_eq_nil in E. destruct E as [-> ->].
    assert (X1 : 0 == 1 * weighted idx x c factors (cp_in c) t) by (rewrite <- W1; [reflexivity|simpl; tauto]).
    assert (X2 : 0 == -1 * weighted idx x c factors (cp_out c) t) by (rewrite <- W2; [reflexivity|simpl; tauto]). lra.
  - rewrite <- E in H.
    assert (LL : forall v a, In (v, a) (t1 ++ t2) -> v_len v = cx_n cx /\ good a).
    { intros v a Hv. apply in_app_or in Hv. destruct Hv; [apply L1|apply L2]; auto. }
    destruct (terms_law x _ _ _ _ _ _ _ NP H C ltac:(rewrite E; discriminate) LL) as [FT R].
    specialize (R t Ht). simpl rel in R. rewrite map_app, Qsum_app in R.
    rewrite W1, W2 in R by (intros; eapply FT; apply in_or_app; eauto). simpl in R. lra.
Qed.

(** ** Transmissions *)
Definition loss_at (idx : option (list nat)) (p : option param) (t : nat) : Q := match p with Some p => value idx p t | None => 0 end.

Lemma transmission_eq_spec : forall x cx tr full name rl ab fi fo k t, ctx_ok cx -> (t < cx_n cx)%nat ->
  v_len (fo_rate fi) = cx_n cx -> v_len (fo_rate fo) = cx_n cx -> (forall v, fo_on fi = Some v -> v_len v = cx_n cx) ->
  transmission_eq cx tr full name rl ab fi fo = Ok k -> con_sat x k ->
  (ab <> None -> exists v, fo_on fi = Some v) /\
  x (v_label (fo_rate fo)) t == x (v_label (fo_rate fi)) t * (1 - loss_at (cx_idx cx) rl t)
     - loss_at (cx_idx cx) ab t * match fo_on fi with Some v => x (v_label v) t | None => 0 end.
Proof.
  intros x cx tr full name rl ab fi fo k t CX Ht L1 L2 L3 H C. unfold transmission_eq in H. bnd H e Ee. bnd H l El.
  pose proof (ok_pos _ CX) as NP.
  assert (Ge : good e /\ (fits (cx_n cx) e -> at_ e t == 1 - loss_at (cx_idx cx) rl t)).
  { destruct rl as [p|]; simpl.
    - bnd Ee a Ea. fin Ee. destruct (act_spec _ _ _ _ CX Ea) as [_ [G _]]. split; [apply good_nmap; auto|].
      intros F. apply fits_nmap in F. rewrite nmap_at by auto. rewrite (act_at _ _ _ _ _ CX Ea F Ht). reflexivity.
    - fin Ee. split; [apply good_NS|]. intros _. rewrite at_NS. ring. }
  destruct Ge as [Ge Ve].
  assert (P : exists terms, l = map tcall terms /\ (forall v a, In (v, a) terms -> v_len v = cx_n cx /\ good a)
     /\ (ab <> None -> exists v, fo_on fi = Some v)
     /\ ((forall v a, In (v, a) terms -> fits (cx_n cx) a) -> Qsum (map (fun va => at_ (snd va) t * x (v_label (fst va)) t) terms)
        == - (loss_at (cx_idx cx) ab t * match fo_on fi with Some v => x (v_label v) t | None => 0 end))).
  { destruct ab as [p|]; simpl.
    - bnd El o Eo. bnd El a Ea. fin El. apply nth_error_some in Eo. exists [(o, nmap Qopp a)].
      destruct (act_spec _ _ _ _ CX Ea) as [_ [G _]]. split; [reflexivity|]. split; [|split; [eauto|]].
      + intros v b [X|[]]. inversion X; subst. split; [auto|apply good_nmap; auto].
      + intros F. specialize (F _ _ (or_introl eq_refl)). apply fits_nmap in F. cbn [map fst snd]. rewrite Qsum_cons. cbn [Qsum fold_right].
        rewrite nmap_at by auto. rewrite (act_at _ _ _ _ _ CX Ea F Ht). rewrite Eo. ring.
    - fin El. exists []. split; [reflexivity|]. split; [simpl; tauto|]. split; [congruence|]. intros _. simpl. ring. }
  destruct P as [terms [-> [T1 [T2 T3]]]]. split; auto.
  change ([AddS (fo_rate fi) e None false; AddS (fo_rate fo) (NS (-1)) None false] ++ map tcall terms)
    with (map tcall ((fo_rate fi, e) :: (fo_rate fo, NS (-1)) :: terms)) in H.
  rewrite <- (app_nil_r (map tcall _)) in H. change [] with (map qcall []) in H.
  assert (T : forall v a, In (v, a) ((fo_rate fi, e) :: (fo_rate fo, NS (-1)) :: terms) -> v_len v = cx_n cx /\ good a).
  { intros v a [X|[X|X]]; [inversion X; subst; auto|inversion X; subst; split; [auto|apply good_NS]|auto]. }
  destruct (terms_law x _ _ _ _ _ _ _ NP H C ltac:(discriminate) T) as [FT R]. specialize (R t Ht). unfold rel in R.
  cbn [map fst snd] in R. rewrite !Qsum_cons in R.
  rewrite T3 in R by (intros; eapply FT; simpl; eauto). rewrite Ve in R by (eapply FT; simpl; eauto). rewrite at_NS in R.
  cbn [Qsum fold_right] in R. lra.
Qed.

Lemma fo_on_of : forall cf fs idx cx x c f o t, fo_for cf fs idx cx c f o ->
  (forall v, fo_on o = Some v -> v_len v = cx_n cx)
  /\ (match fo_on o with Some v => x (v_label v) t | None => 0 end = match governed fs idx c f with Some _ => on_of x c f t | None => 0 end)
  /\ (forall v, fo_on o = Some v -> governed fs idx c f <> None).
Proof.
  intros cf fs idx cx x c f o t H. pose proof (fs_on _ _ _ _ H) as X. simpl in X. destruct (governed fs idx c f).
  - destruct X as [v [X1 [X2 [X3 _]]]]. rewrite X1. split; [intros v' E; congruence|]. split; [rewrite X2; reflexivity|congruence].
  - rewrite X. split; [discriminate|]. split; [reflexivity|discriminate].
Qed.

Lemma Forall2_app_split : forall {A B} (P : A -> B -> Prop) l1 l2 m, Forall2 P (l1 ++ l2) m ->
  Forall2 P l1 (firstn (length l1) m) /\ Forall2 P l2 (skipn (length l1) m).
Proof.
  induction l1 as [|a l1 IH]; simpl; intros l2 m H; [split; [constructor|auto]|]. inversion H; subst. simpl.
  destruct (IH _ _ H4). split; auto.
Qed.
Lemma Forall2_nth_l : forall {A B} (P : A -> B -> Prop) l m i a, Forall2 P l m -> nth_error l i = Some a ->
  exists b, nth_error m i = Some b /\ P a b.
Proof.
  intros A B P l m i a H. revert i. induction H; intros i Hi; [destruct i; discriminate|].
  destruct i as [|i]; simpl in *; [inversion Hi; subst; eauto|auto].
Qed.

(** One direction of a transmission. *)
Definition direction_law (fs : flow_system) (idx : option (list nat)) (x : asg) (c : component) (rl ab : option param) (i o : flow) : Prop :=
  (ab <> None -> governed fs idx c i <> None) /\
  forall t, (t < steps fs idx)%nat ->
    rate_of x c o t == rate_of x c i t * (1 - loss_at idx rl t) - loss_at idx ab t * match governed fs idx c i with Some _ => on_of x c i t | None => 0 end.

Theorem transmission_spec : forall cf fs idx cx x tr c rl ab fos k, ctx_for cf fs idx cx ->
  Forall2 (fo_for cf fs idx cx c) (cp_flows c) fos -> transmission_cons cx tr c fos rl ab = Ok k -> Forall (con_sat x) k ->
  (exists in1 out1, nth_error (cp_in c) 0 = Some in1 /\ nth_error (cp_out c) 0 = Some out1 /\ direction_law fs idx x c rl ab in1 out1)
  /\ (forall in2, nth_error (cp_in c) 1 = Some in2 -> exists out2, nth_error (cp_out c) 1 = Some out2 /\ direction_law fs idx x c rl ab in2 out2)
  /\ (forall in1 in2 iv, nth_error (cp_in c) 0 = Some in1 -> nth_error (cp_in c) 1 = Some in2 -> sized cf c in1 = SzInv iv ->
        x (inv (flow_name c in1) "size") 0%nat == x (inv (flow_name c in2) "size") 0%nat).
Proof.
  intros cf fs idx cx x tr c rl ab fos k CF FF H C. pose proof (cf_ok _ _ _ _ CF) as CX. unfold transmission_cons in H.
  destruct (Forall2_app_split _ _ _ _ FF) as [FI FO].
  set (ins := firstn (length (cp_in c)) fos) in *. set (outs := skipn (length (cp_in c)) fos) in *.
  assert (DIR : forall fi fo i o name k1, fo_for cf fs idx cx c i fi -> fo_for cf fs idx cx c o fo ->
     transmission_eq cx tr (cp_label c) name rl ab fi fo = Ok k1 -> con_sat x k1 -> direction_law fs idx x c rl ab i o).
  { intros fi fo i o name k1 Si So E K.
    destruct (fo_on_of _ _ _ _ x _ _ _ 0%nat Si) as [Lon [_ G]].
    split.
    - intros NA. pose proof (ok_pos _ CX) as NP.
      destruct (transmission_eq_spec x cx tr _ _ _ _ _ _ _ 0%nat CX ltac:(lia) (fs_len _ _ _ _ Si) (fs_len _ _ _ _ So) Lon E K) as [A _].
      destruct (A NA) as [v Hv]. eapply G; eauto.
    - intros t Ht. rewrite <- (cf_n _ _ _ _ CF) in Ht.
      destruct (transmission_eq_spec x cx tr _ _ _ _ _ _ _ t CX Ht (fs_len _ _ _ _ Si) (fs_len _ _ _ _ So) Lon E K) as [_ A].
      destruct (fo_on_of _ _ _ _ x _ _ _ t Si) as [_ [V _]]. rewrite V in A.
      rewrite (fs_label _ _ _ _ Si), (fs_label _ _ _ _ So), (cf_idx _ _ _ _ CF) in A. exact A. }
  bnd H in1 Ein. bnd H out1 Eout. bnd H c1 Ec1. apply nth_error_some in Ein. apply nth_error_some in Eout.
  destruct (Forall2_nth_error _ _ _ _ _ FI Ein) as [i1 [Hi1 Si1]].
  destruct (Forall2_nth_error _ _ _ _ _ FO Eout) as [o1 [Ho1 So1]].
  assert (C1 : con_sat x c1).
  { destruct (nth_error ins 1) as [fi2|]; [bnd H out2 Eo2; bnd H c2 Ec2; destruct (fo_size in1); [bnd H s2 Es2; bnd H c3 Ec3|]|]; fin H; inversion C; auto. }
  split; [exists i1, o1; split; auto; split; auto; exact (DIR _ _ _ _ _ _ Si1 So1 Ec1 C1)|].
  assert (P : forall in2, nth_error (cp_in c) 1 = Some in2 -> exists fi2, nth_error ins 1 = Some fi2 /\ fo_for cf fs idx cx c in2 fi2)
    by (intros; eapply Forall2_nth_l; eauto).
  split.
  - intros in2 Hin2. destruct (P _ Hin2) as [fi2 [E2 Si2]]. rewrite E2 in H. bnd H out2 Eo2. bnd H c2 Ec2.
    apply nth_error_some in Eo2. destruct (Forall2_nth_error _ _ _ _ _ FO Eo2) as [o2 [Ho2 So2]]. exists o2. split; auto.
    assert (C2 : con_sat x c2) by (destruct (fo_size in1); [bnd H s2 Es2; bnd H c3 Ec3|]; fin H; inversion C as [|? ? _ C']; inversion C'; auto).
    exact (DIR _ _ _ _ _ _ Si2 So2 Ec2 C2).
  - intros in1' in2 iv H1 Hin2 Sz. assert (in1' = i1) by congruence. subst in1'. destruct (P _ Hin2) as [fi2 [E2 Si2]]. rewrite E2 in H.
    bnd H out2 Eo2. bnd H c2 Ec2. pose proof (fs_size _ _ _ _ Si1) as Z1. simpl in Z1. rewrite Sz in Z1.
    destruct Z1 as [s1 [Z1 [N1 L1]]]. rewrite Z1 in H. bnd H s2 Es2. bnd H c3 Ec3. fin H.
    apply nth_error_some in Es2. pose proof (fs_size _ _ _ _ Si2) as Z2. simpl in Z2. destruct (sized cf c in2); [congruence|].
    destruct Z2 as [s2' [Z2 [N2 L2]]]. assert (s2' = s2) by congruence. subst s2'.
    inversion C as [|? ? _ C']; subst. inversion C' as [|? ? _ C'']; subst. inversion C'' as [|? ? C3 _]; subst.
    row Ec3 C3 1%nat 0%nat R. rewrite N1, N2 in R. unfold flow_name. lra.
Qed.
