(** What the rows of a flow model say. *)
From Verif Require Import Base BaseFacts MathModel Spec MathFacts Structure StructureFacts Params Features Elements System SysSpec
  CtxFacts ReadTools InvestFacts OnOffFacts.

(** Relative limits as the user gave them: a fixed profile replaces both. *)
Definition rel_lo (idx : option (list nat)) (f : flow) (t : nat) : Q :=
  match f_profile f with Some p => value idx p t | None => value idx (f_relmin f) t end.
Definition rel_hi (idx : option (list nat)) (f : flow) (t : nat) : Q :=
  match f_profile f with Some p => value idx p t | None => value idx (f_relmax f) t end.

Lemma flow_rel_spec : forall cx tr f a b, ctx_ok cx -> flow_rel_bounds cx tr f = Ok (a, b) ->
  tr = true /\ good a /\ good b
  /\ (forall t, (t < cx_n cx)%nat -> in_rng a t -> at_ a t == rel_lo (cx_idx cx) f t)
  /\ (forall t, (t < cx_n cx)%nat -> in_rng b t -> at_ b t == rel_hi (cx_idx cx) f t).
Proof.
  intros cx tr f a b CX H. unfold flow_rel_bounds, rel_lo, rel_hi in *. destruct (f_profile f) as [p|].
  - bnd H q Eq_. apply Ok_inj in H. inversion H; subst. destruct (act_spec _ _ _ _ CX Eq_) as [T [G A]]. auto 10.
  - bnd H q Eq1. bnd H r Eq2. apply Ok_inj in H. inversion H; subst.
    destruct (act_spec _ _ _ _ CX Eq1) as [T [G A]]. destruct (act_spec _ _ _ _ CX Eq2) as [_ [G2 A2]]. auto 10.
Qed.

Definition lo_size (cx : ctx) (s : fsize) : Q := fst (size_limits cx s).
Definition hi_size (cx : ctx) (s : fsize) : Q := snd (size_limits cx s).

Lemma flow_abs_spec : forall cx tr f a b l u, ctx_ok cx -> flow_rel_bounds cx tr f = Ok (a, b) ->
  flow_abs_bounds cx tr f = Ok (l, u) ->
  good l /\ good u
  /\ (forall n, fits n l <-> fits n a) /\ (forall n, fits n u <-> fits n b)
  /\ (forall t, in_rng l t -> at_ l t == at_ a t * lo_size cx (f_size f))
  /\ (forall t, in_rng u t -> at_ u t == at_ b t * hi_size cx (f_size f)).
Proof.
  intros cx tr f a b l u CX R H. unfold flow_abs_bounds in H. rewrite R in H. cbn [bind] in H.
  unfold lo_size, hi_size. destruct (size_limits cx (f_size f)) as [lo hi]. simpl.
  bnd H l' El. bnd H u' Eu. apply Ok_inj in H. inversion H; subst.
  destruct (flow_rel_spec _ _ _ _ _ CX R) as [_ [Ga [Gb _]]].
  split; [eapply good_bcast2; [exact El|auto|apply good_NS]|].
  split; [eapply good_bcast2; [exact Eu|auto|apply good_NS]|].
  split; [intros n; split; intros F; [apply (fits_bcast2_inv _ _ _ _ _ El F)|eapply fits_bcast2; [exact El|auto|apply fits_NS]]|].
  split; [intros n; split; intros F; [apply (fits_bcast2_inv _ _ _ _ _ Eu F)|eapply fits_bcast2; [exact Eu|auto|apply fits_NS]]|].
  split; intros t Ht; [rewrite (bcast2_at _ _ _ _ _ El Ht)|rewrite (bcast2_at _ _ _ _ _ Eu Ht)]; rewrite at_NS; reflexivity.
Qed.

(** A size as the flow's equations use it: a variable of the investment part or a number. *)
Definition used_size (x : asg) (cx : ctx) (full : string) (f : flow) : Q :=
  match f_size f with SzNum q => flow_size cx q | SzInv _ => x (inv full "size") 0%nat end.

Record flow_rows (x : asg) (cx : ctx) (full : string) (f : flow) : Prop := {
  fr_plain : f_onoff f = None -> forall t, (t < cx_n cx)%nat ->
      rel_lo (cx_idx cx) f t * lo_size cx (f_size f) <= x (vlabel full "flow_rate") t
      /\ x (vlabel full "flow_rate") t <= rel_hi (cx_idx cx) f t * hi_size cx (f_size f);
  fr_nonneg : forall p, f_onoff f = Some p -> forall t, (t < cx_n cx)%nat -> 0 <= x (vlabel full "flow_rate") t;
  fr_on : forall p, f_onoff f = Some p -> exists prev_on rate ab,
      v_label rate = vlabel full "flow_rate" /\ v_prev rate = f_prev f
      /\ previous_on_values (cx_eps cx) [rate] = Ok prev_on /\ onoff_rows x cx full p prev_on [rate] [ab]
      /\ forall t, (t < cx_n cx)%nat ->
           x (oo full "on") t * cx_eps cx <= x (vlabel full "flow_rate") t
           /\ x (oo full "on") t * (rel_lo (cx_idx cx) f t * lo_size cx (f_size f)) <= x (vlabel full "flow_rate") t
           /\ x (vlabel full "flow_rate") t <= x (oo full "on") t * (rel_hi (cx_idx cx) f t * hi_size cx (f_size f));
  fr_inv : forall iv, f_size f = SzInv iv ->
      let q := x (inv full "size") 0%nat in let d := x (inv full "isInvested") 0%nat in
      (if (iv_is_fixed iv && negb (iv_optional iv))%bool then q == or_num (iv_fixed iv) 0
       else (if iv_optional iv then 0 else iv_minimum iv) <= q /\ q <= iv_maximum cx iv)
      /\ (iv_optional iv = true ->
            (d == 0 \/ d == 1)
            /\ if iv_is_fixed iv then q == d * or_num (iv_fixed iv) 0
               else q <= d * iv_maximum cx iv /\ d * Qmax_ (cx_eps cx) (iv_minimum iv) <= q)
      /\ forall t, (t < cx_n cx)%nat ->
           match f_profile f with
           | Some p => x (vlabel full "flow_rate") t == value (cx_idx cx) p t * q
           | None =>
               x (vlabel full "flow_rate") t <= value (cx_idx cx) (f_relmax f) t * q
               /\ match f_onoff f with
                  | None => value (cx_idx cx) (f_relmin f) t * q <= x (vlabel full "flow_rate") t
                  | Some _ => value (cx_idx cx) (f_relmin f) t * q
                              - value (cx_idx cx) (f_relmax f) t * iv_maximum cx iv * (1 - x (oo full "on") t)
                              <= x (vlabel full "flow_rate") t
                  end
           end;
  fr_sum : x (vlabel full "sumFlowHours") 0%nat == sumn (cx_n cx) (fun t => dt cx t * x (vlabel full "flow_rate") t);
  fr_sum_min : forall q, f_fh_min f = Some q -> q <= x (vlabel full "sumFlowHours") 0%nat;
  fr_sum_max : forall q, f_fh_max f = Some q -> x (vlabel full "sumFlowHours") 0%nat <= q;
  fr_lf_max : forall q, f_lf_max f = Some q ->
      x (vlabel full "sumFlowHours") 0%nat <= used_size x cx full f * (cx_total cx * q);
  fr_lf_min : forall q, f_lf_min f = Some q ->
      used_size x cx full f * (cx_total cx * q) <= x (vlabel full "sumFlowHours") 0%nat
}.

(** Shape of a flow model's outcome. *)
Record flow_shape (cx : ctx) (comp : string) (f : flow) (o : flow_out) : Prop := {
  fs_id : fo_id o = f_id f;
  fs_label : v_label (fo_rate o) = vlabel (flow_full comp (f_lab f)) "flow_rate";
  fs_len : v_len (fo_rate o) = cx_n cx;
  fs_prev : v_prev (fo_rate o) = if Nat.ltb 1 (cx_n cx) then f_prev f else None;
  fs_ts : v_ts (fo_rate o) = Nat.ltb 1 (cx_n cx);
  fs_on : match f_onoff f with
          | None => fo_on o = None
          | Some _ => exists v, fo_on o = Some v /\ v_label v = oo (flow_full comp (f_lab f)) "on" /\ v_len v = cx_n cx /\ v_bin v = true
          end;
  fs_size : match f_size f with
          | SzNum _ => fo_size o = None
          | SzInv _ => exists v, fo_size o = Some v /\ v_label v = inv (flow_full comp (f_lab f)) "size" /\ v_len v = 1%nat
          end;
  fs_good : good (fst (fo_bounds o)) /\ good (snd (fo_bounds o));
  fs_lo : forall t, (t < cx_n cx)%nat -> in_rng (fst (fo_bounds o)) t ->
            at_ (fst (fo_bounds o)) t == rel_lo (cx_idx cx) f t * lo_size cx (f_size f);
  fs_hi : forall t, (t < cx_n cx)%nat -> in_rng (snd (fo_bounds o)) t ->
            at_ (snd (fo_bounds o)) t == rel_hi (cx_idx cx) f t * hi_size cx (f_size f)
}.

Lemma onoff_on : forall cx tr elem p vars bounds o, onoff_model cx tr elem p vars bounds = Ok o ->
  v_label (ot_on o) = oo elem "on" /\ v_len (ot_on o) = cx_n cx /\ v_bin (ot_on o) = true.
Proof.
  intros cx tr elem p vars bounds o H. unfold onoff_model in H.
  bnd H bounds' Eb. bnd H u1 Elen. bnd H prev_on Ep0. bnd H on Eon. bnd H tot Etot. bnd H ctot Ectot. bnd H con Econ.
  bnd H vo Evo. destruct vo as [voff coff]. bnd H vd1 Ed1. destruct vd1 as [v1 k1]. bnd H vd2 Ed2. destruct vd2 as [v2 k2].
  bnd H vs3 Es3. destruct vs3 as [[v3 k3] sw]. bnd H sh1 Esh1. bnd H sh2 Esh2. bnd H m Em. fin H. simpl.
  apply create_variable_spec in Eon. subst on. auto.
Qed.

Lemma flow_shape_ok : forall cx tr comp f o, ctx_ok cx -> flow_model cx tr comp f = Ok o -> flow_shape cx comp f o /\ tr = true.
Proof.
  intros cx tr comp f o CX H. unfold flow_model in H.
  bnd H rl Erl. bnd H ab Eab. bnd H rate Erate. bnd H oo_ Eoo. bnd H io Eio. bnd H sfh Esfh. bnd H csum Ecsum.
  bnd H clf Eclf. bnd H s Es. bnd H m Em. fin H.
  destruct rl as [a b], ab as [l u].
  destruct (flow_rel_spec _ _ _ _ _ CX Erl) as [T [Ga [Gb [A B]]]].
  destruct (flow_abs_spec _ _ _ _ _ _ _ CX Erl Eab) as [Gl [Gu [Fl [Fu [L U]]]]].
  apply create_variable_spec in Erate. subst rate. split; auto.
  constructor; simpl; auto.
  - destruct (f_onoff f) as [p|]; simpl in Eoo; [|fin Eoo; reflexivity].
    bnd Eoo o Eo. fin Eoo. simpl. exists (ot_on o). split; auto. eapply onoff_on; eauto.
  - destruct (f_size f) as [q|iv]; [fin Eio; reflexivity|].
    bnd Eio pr Epr. bnd Eio i Ei. fin Eio. simpl. exists (io_size i). split; auto.
    apply invest_model_parts in Ei. destruct Ei as [size [b0 [cs1 [cs2 [subs [H1 [H2 [H3 [H4 [H5 [H6 H7]]]]]]]]]]].
    rewrite H6. destruct (size_spec _ _ _ _ H1) as [Ls [Ns _]]. auto.
  - intros t Ht R. rewrite L by auto. rewrite A; auto; [reflexivity|].
    apply (proj1 (Fl (S t))); auto. intros i Hi. revert R. rewrite !in_rng_len. lia.
  - intros t Ht R. rewrite U by auto. rewrite B; auto; [reflexivity|].
    apply (proj1 (Fu (S t))); auto. intros i Hi. revert R. rewrite !in_rng_len. lia.
Qed.

Lemma opt_num_some : forall o q, o = Some q -> opt_num o = Some (NS q).
Proof. intros o q ->. reflexivity. Qed.

Theorem flow_spec : forall x cx tr comp f o, ctx_ok cx -> 0 <= cx_eps cx ->
  flow_model cx tr comp f = Ok o -> em_sat x (fo_tree o) -> flow_rows x cx (flow_full comp (f_lab f)) f.
Proof.
  intros x cx tr comp f o CX Ep H S. unfold flow_model in H.
  bnd H rl Erl. bnd H ab Eab. bnd H rate Erate. bnd H oo_ Eoo. bnd H io Eio. bnd H sfh Esfh. bnd H csum Ecsum.
  bnd H clf Eclf. bnd H s Es. bnd H m Em. fin H. simpl in S.
  apply mk_em_spec in Em. destruct Em as [-> _].
  pose proof (em_sat_vars _ _ _ _ _ _ S) as V. pose proof (em_sat_cons _ _ _ _ _ _ S) as C.
  inversion V as [|? ? Vr V']; subst. inversion V' as [|? ? Vs _]; subst. clear V V'.
  inversion C as [|? ? Sc Clf]; subst. clear C.
  destruct rl as [a b], ab as [l u]. simpl fst in *; simpl snd in *.
  destruct (flow_rel_spec _ _ _ _ _ CX Erl) as [T [Ga [Gb [A B]]]].
  destruct (flow_abs_spec _ _ _ _ _ _ _ CX Erl Eab) as [Gl [Gu [Fl [Fu [L U]]]]].
  apply create_variable_spec in Erate. apply create_variable_spec in Esfh.
  set (full := flow_full comp (f_lab f)) in *.
  pose proof (ok_pos _ CX) as Np.
  assert (Lr : v_len rate = cx_n cx) by (subst rate; auto). assert (Nr : v_label rate = vlabel full "flow_rate") by (subst rate; auto).
  assert (Ls : v_len sfh = 1%nat) by (subst sfh; auto). assert (Ns : v_label sfh = vlabel full "sumFlowHours") by (subst sfh; auto).
  assert (Nz : v_len rate <> 0%nat) by lia.
  assert (Lo : forall t, (t < cx_n cx)%nat -> fits (cx_n cx) l -> at_ l t == rel_lo (cx_idx cx) f t * lo_size cx (f_size f)).
  { intros t Ht F. rewrite L by auto. rewrite A; auto; [reflexivity|]. apply (proj1 (Fl _) F); auto. }
  assert (Hi : forall t, (t < cx_n cx)%nat -> fits (cx_n cx) u -> at_ u t == rel_hi (cx_idx cx) f t * hi_size cx (f_size f)).
  { intros t Ht F. rewrite U by auto. rewrite B; auto; [reflexivity|]. apply (proj1 (Fu _) F); auto. }
  assert (On : match f_onoff f with
               | None => oo_ = None
               | Some p => exists o, oo_ = Some o /\ onoff_model cx tr full p [rate] [(l, u)] = Ok o /\ em_sat x (ot_tree o)
                    /\ v_label (ot_on o) = oo full "on" /\ v_len (ot_on o) = cx_n cx
               end).
  { destruct (f_onoff f) as [p|]; simpl in Eoo; [|fin Eoo; reflexivity].
    bnd Eoo o Eo. fin Eoo. exists o. split; auto. split; auto. split.
    - eapply em_sat_sub; [exact S|]. left; reflexivity.
    - destruct (onoff_on _ _ _ _ _ _ _ Eo) as [? [? ?]]; auto. }
  assert (SizeV : match f_size f with
                  | SzNum _ => io = None
                  | SzInv iv => exists i pr, io = Some i /\ optM (act cx tr) (f_profile f) = Ok pr
                       /\ invest_model cx tr full iv rate a b pr (option_map ot_on oo_) = Ok i /\ em_sat x (io_tree i)
                       /\ v_label (io_size i) = inv full "size" /\ v_len (io_size i) = 1%nat
                  end).
  { destruct (f_size f) as [q|iv]; [fin Eio; reflexivity|].
    bnd Eio pr Epr. bnd Eio i Ei. fin Eio. exists i, pr. split; auto. split; auto. split; auto. split.
    - eapply em_sat_sub; [exact S|]. apply in_or_app. right. left; reflexivity.
    - apply invest_model_parts in Ei. destruct Ei as [size [b0 [cs1 [cs2 [subs [H1 [H2 [H3 [H4 [H5 [H6 H7]]]]]]]]]]].
      rewrite H6. destruct (size_spec _ _ _ _ H1) as [? [? _]]. auto. }
  constructor.
  - intros N t Ht. rewrite N in *. subst rate.
    assert (F1 : fits (cx_n cx) l) by exact (var_sat_lb_fits _ _ _ Vr eq_refl).
    assert (F2 : fits (cx_n cx) u) by exact (var_sat_ub_fits _ _ _ Vr eq_refl).
    rewrite <- Lo, <- Hi by auto.
    split; [exact (var_sat_lb _ _ _ Vr eq_refl eq_refl t Ht)|exact (var_sat_ub _ _ _ Vr eq_refl eq_refl t Ht)].
  - intros p N t Ht. rewrite N in *. subst rate. exact (var_sat_lb _ _ _ Vr eq_refl eq_refl t Ht).
  - intros p N. rewrite N in On. destruct On as [o [-> [Eo [So _]]]].
    destruct (onoff_spec x cx tr full p [rate] [(l, u)] o CX Ep) as [_ [_ [_ [prev_on [P1 P2]]]]]; auto.
    { intros v [<-|[]]; auto. } { intros b0 [<-|[]]; auto. }
    exists prev_on, rate, (l, u). split; auto.
    split.
    { pose proof (oo_long _ _ _ _ _ _ _ P2). subst rate. simpl. destruct (Nat.ltb 1 (cx_n cx)) eqn:X; auto. apply Nat.ltb_ge in X. lia. }
    split; [exact P1|]. split; [exact P2|].
    intros t Ht. destruct (oo_fits _ _ _ _ _ _ _ P2 _ (or_introl eq_refl)) as [F2 F1]. specialize (F1 eq_refl). simpl in F1, F2.
    pose proof (oo_coupled _ _ _ _ _ _ _ P2) as oo_coupled0. specialize (oo_coupled0 t Ht). cbn [coupled] in oo_coupled0. unfold rate_sum in oo_coupled0. simpl in oo_coupled0.
    rewrite Nr in oo_coupled0. rewrite Lo, Hi in oo_coupled0 by auto. destruct oo_coupled0 as [[C1 C2] C3].
    split; [lra|]. split; [lra|]. lra.
  - intros iv N. rewrite N in SizeV. destruct SizeV as [i [pr [-> [Epr [Ei [Si _]]]]]].
    assert (Gp : forall p, pr = Some p -> good p).
    { intros p ->. destruct (f_profile f) as [pp|]; simpl in Epr; [|discriminate]. bnd Epr y Ey. apply Ok_inj in Epr. inversion Epr; subst.
      apply (act_spec _ _ _ _ CX Ey). }
    assert (Lon : forall o, option_map ot_on oo_ = Some o -> v_len o = v_len rate).
    { intros o Eo. destruct (f_onoff f) as [p|].
      - destruct On as [o1 [-> [_ [_ [_ L1]]]]]. simpl in Eo. injection Eo as <-. congruence.
      - rewrite On in Eo. discriminate. }
    destruct (invest_spec x cx tr full iv rate a b pr _ i Nz Ga Gb Gp Lon Ei Si) as [I1 [I2 [I3 I4]]].
    split; [exact I1|]. split; [exact I2|].
    intros t Ht. rewrite <- Lr in Ht. specialize (I3 t Ht). rewrite Nr in I3. rewrite Lr in Ht, I4.
    unfold rel_lo, rel_hi in A, B.
    destruct (f_profile f) as [pp|]; simpl in Epr.
    + bnd Epr y Ey. apply Ok_inj in Epr. subst pr. destruct (act_spec _ _ _ _ CX Ey) as [_ [_ Ay]].
      rewrite <- (Ay t Ht) by (apply I4; auto). exact I3.
    + apply Ok_inj in Epr. subst pr. destruct I4 as [F1 F2]. specialize (F1 t Ht). specialize (F2 t Ht).
      specialize (A t Ht F1). specialize (B t Ht F2). unfold invest_limit in I3.
      destruct I3 as [J1 J2]. rewrite B in J1. split; [exact J1|].
      destruct (f_onoff f) as [p|].
      * destruct On as [o [-> [_ [_ [No _]]]]]. simpl in J2. rewrite No, A, B in J2. exact J2.
      * rewrite On in J2. simpl in J2. rewrite A in J2. exact J2.
  - row Ecsum Sc 1%nat 0%nat R. rewrite Lr, Nr, Ns in R. rewrite sumn_dt in R by auto. lra.
  - intros q Q0. subst sfh. apply (var_sat_lb _ _ (NS q) Vs); [reflexivity|apply opt_num_some; auto|simpl; lia].
  - intros q Q0. subst sfh. apply (var_sat_ub _ _ (NS q) Vs); [reflexivity|apply opt_num_some; auto|simpl; lia].
  - clear Erate Esfh. intros q Q0. unfold load_factor_cons in Eclf. rewrite Q0 in Eclf. bnd Eclf k1 Ek1. bnd Ek1 c1 Ec1. fin Ek1.
    bnd Eclf k2 Ek2. fin Eclf. inversion Clf as [|? ? S1 _]; subst. unfold used_size.
    destruct (f_size f) as [z|iv].
    + subst io. simpl in Ec1. row Ec1 S1 1%nat 0%nat R. rewrite Ns in R. lra.
    + destruct SizeV as [i [pr [-> [_ [_ [_ [Ni Li]]]]]]]. simpl in Ec1.
      assert (Nzi : v_len (io_size i) <> 0%nat) by lia.
      row Ec1 S1 1%nat 0%nat R. rewrite Ns, Ni in R. lra.
  - clear Erate Esfh. intros q Q0. unfold load_factor_cons in Eclf. rewrite Q0 in Eclf. bnd Eclf k1 Ek1. bnd Eclf k2 Ek2. bnd Ek2 c1 Ec1. fin Ek2.
    fin Eclf. apply Forall_app in Clf. destruct Clf as [_ Clf]. inversion Clf as [|? ? S1 _]; subst. unfold used_size.
    destruct (f_size f) as [z|iv].
    + subst io. simpl in Ec1. row Ec1 S1 1%nat 0%nat R. rewrite Ns in R. lra.
    + destruct SizeV as [i [pr [-> [_ [_ [_ [Ni Li]]]]]]]. simpl in Ec1.
      assert (Nzi : v_len (io_size i) <> 0%nat) by lia.
      row Ec1 S1 1%nat 0%nat R. rewrite Ns, Ni in R. lra.
Qed.
