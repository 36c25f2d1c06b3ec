(** Every quantity of a component that is a time series has at least one value per time step. *)
From Verif Require Import Base BaseFacts MathModel Spec MathFacts Structure StructureFacts Params Features Elements System SysSpec
  CtxFacts ReadTools InvestFacts ClosedFacts.

Local Tactic Notation "bnd" hyp(H) ident(x) ident(E) := apply bind_ok in H; destruct H as [x [E H]]; cbv beta in H.

Definition long (n : nat) (v : variable) : Prop := v_ts v = true -> (n <= v_len v)%nat.
Definition longT (n : nat) (m : emodel) : Prop := forall v, In v (decl m) -> long n v.

Lemma created_long : forall n m l len bin fixed lb ub prev v, create_variable m l len bin fixed lb ub prev = Ok v -> (len = 1 \/ n <= len)%nat -> long n v.
Proof.
  intros n m l len bin fixed lb ub prev v H L T. apply create_variable_spec in H. subst v. cbn [v_len v_ts] in *.
  destruct (Nat.ltb_spec 1 len); [|discriminate T]. lia.
Qed.
Lemma longT_EM : forall n f l v c s, (forall w, In w v -> long n w) -> (forall m, In m s -> longT n m) -> longT n (EM f l v c s).
Proof.
  intros n f l v c s A B w H. rewrite decl_EM in H. apply in_app_or in H. destruct H as [H|H]; auto. apply in_flat_map in H. destruct H as [m [Hm H]]. exact (B m Hm w H).
Qed.
Ltac longs := intros w Hw; repeat match goal with H : In _ (_ :: _) |- _ => destruct H as [<-|H] | H : In _ [] |- _ => destruct H end;
  eapply created_long; try eassumption; lia.

Lemma segment_long : forall n elem len i s, segment_model elem len i = Ok s -> (len = 1 \/ n <= len)%nat -> longT n (sg_tree s).
Proof.
  intros n elem len i s H L. unfold segment_model in H. inv_ok.
  match goal with K : mk_em _ _ _ _ _ = Ok _ |- _ => apply mk_em_spec in K; destruct K as [K _]; subst end.
  cbn [sg_tree]. apply longT_EM; [longs|intros m []].
Qed.
Lemma multi_long : forall n elem len pts outside m, multi_segments elem len pts outside = Ok m -> (len = 1 \/ n <= len)%nat -> longT n m.
Proof.
  intros n elem len pts outside m H L. unfold multi_segments in H. bnd H k En. bnd H segs Es. bnd H eqs Ee. bnd H single Ei.
  apply mk_em_spec in H. destruct H as [-> _]. apply longT_EM; [intros w []|]. intros m Hm. apply in_map_iff in Hm. destruct Hm as [s [<- Hs]].
  destruct (mapM_In_inv _ _ _ _ Es Hs) as [i [_ E]]. exact (segment_long _ _ _ _ _ E L).
Qed.
Lemma segshares_long : forall n cx elem size spts eff outside m shs, segmented_shares cx elem size spts eff outside = Ok (m, shs) -> longT n m.
Proof.
  intros n cx elem size spts eff outside m shs H. unfold segmented_shares in H. bnd H u Eu. bnd H vs Ev. bnd H ms Em.
  bnd H sh Eh. bnd H m' Ek. apply Ok_inj in H. apply pair_equal_spec in H. destruct H as [<- <-].
  apply mk_em_spec in Ek. destruct Ek as [-> _]. apply longT_EM.
  - intros w Hw. apply in_map_iff in Hw. destruct Hw as [t [<- Ht]]. destruct (mapM_In_inv _ _ _ _ Ev Ht) as [[i l] [_ E]]. cbv beta iota in E. inv_ok. cbn. eapply created_long; [eassumption|auto].
  - intros k [<-|[]]. eapply multi_long; [exact Em|auto].
Qed.
Lemma invest_long : forall n cx tr elem iv dv relmin relmax profile on io, invest_model cx tr elem iv dv relmin relmax profile on = Ok io -> longT n (io_tree io).
Proof.
  intros n cx tr elem iv dv relmin relmax profile on io H. apply invest_model_parts in H.
  destruct H as [size [b [cs1 [cs2 [subs [H1 [H2 [H3 [H4 [H5 [H6 H7]]]]]]]]]]]. rewrite H5. clear H5 H6 H7. apply longT_EM.
  - intros w [<-|Hw].
    + unfold invest_size in H1. destruct (_ && _)%bool; exact (created_long n _ _ _ _ _ _ _ _ _ H1 (or_introl eq_refl)).
    + unfold invest_optional in H2. destruct (iv_optional iv); [|apply Ok_inj in H2; apply pair_equal_spec in H2; destruct H2 as [<- _]; destruct Hw].
      bnd H2 o Eo. assert (b = Some o) by (destruct (iv_is_fixed iv); inv_ok; apply pair_equal_spec in H2; destruct H2; auto). subst b. destruct Hw as [<-|[]]. eapply created_long; [exact Eo|auto].
  - intros m Hm. unfold invest_shares in H4. bnd H4 s1 E1. bnd H4 s2 E2. bnd H4 s3 E3. destruct (iv_seg iv) as [[spts eff]|].
    + bnd H4 p Ep. destruct p as [m' s4]. apply Ok_inj in H4. apply pair_equal_spec in H4. destruct H4 as [_ <-]. destruct Hm as [<-|[]]. exact (segshares_long n _ _ _ _ _ _ _ _ Ep).
    + apply Ok_inj in H4. apply pair_equal_spec in H4. destruct H4 as [_ <-]. destruct Hm.
Qed.
Lemma duration_long : forall cx tr full label b dmin dmax du, duration_model cx tr full label b dmin dmax = Ok du -> long (cx_n cx) (du_var du).
Proof.
  intros cx tr full label b dmin dmax du H. unfold duration_model in H.
  bnd H pv E1. bnd H pv' E2. bnd H prev E3. bnd H mx E4. bnd H u E5. bnd H d E6. bnd H c1 E7. bnd H c2a E8. bnd H c2b E9.
  bnd H cmin E10. bnd H dt0 E11. bnd H cf E12. apply Ok_inj in H. subst du. cbn [du_var]. eapply created_long; [exact E6|auto].
Qed.
Lemma onoff_long : forall cx tr elem p vars bounds o, onoff_model cx tr elem p vars bounds = Ok o -> longT (cx_n cx) (ot_tree o).
Proof.
  intros cx tr elem p vars bounds o H. unfold onoff_model in H.
  bnd H bs E1. bnd H u E2. bnd H po E3. bnd H on E4. bnd H tot E5. bnd H ctot E6. bnd H con E7.
  bnd H q1 E8. destruct q1 as [voff coff]. bnd H q2 E9. destruct q2 as [v1 k1]. bnd H q3 E10. destruct q3 as [v2 k2].
  bnd H q4 E11. destruct q4 as [[v3 k3] sw]. bnd H s1 E12. bnd H s2 E13. bnd H m E14. apply Ok_inj in H. subst o.
  apply mk_em_spec in E14. destruct E14 as [-> _]. cbn [ot_tree]. apply longT_EM; [|intros m []].
  intros w Hw. apply in_app_or in Hw. destruct Hw as [[<-|[<-|[]]]|Hw]; [eapply created_long; [exact E4|auto]|eapply created_long; [exact E5|auto]|].
  apply in_app_or in Hw. destruct Hw as [Hw|Hw].
  { destruct (use_off p); inv_ok; prs; [|destruct Hw]. destruct Hw as [<-|[]]. eapply created_long; [eassumption|auto]. }
  apply in_app_or in Hw. destruct Hw as [Hw|Hw].
  { destruct (use_con p); [|inv_ok; prs; destruct Hw]. bnd E9 du F. apply Ok_inj in E9. apply pair_equal_spec in E9. destruct E9 as [<- _]. destruct Hw as [<-|[]]. eapply duration_long. exact F. }
  apply in_app_or in Hw. destruct Hw as [Hw|Hw].
  { destruct (use_coff p); [|inv_ok; prs; destruct Hw]. bnd E10 off Fo. bnd E10 du F. apply Ok_inj in E10. apply pair_equal_spec in E10. destruct E10 as [<- _]. destruct Hw as [<-|[]]. eapply duration_long. exact F. }
  destruct (use_switch_on p); [|inv_ok; prs; destruct Hw]. bnd E11 son F1. bnd E11 soff F2. bnd E11 nr F3. bnd E11 u' F4. bnd E11 ks F5.
  apply Ok_inj in E11. apply pair_equal_spec in E11. destruct E11 as [E11 _]. apply pair_equal_spec in E11. destruct E11 as [<- _].
  destruct Hw as [<-|[<-|[<-|[]]]]; [eapply created_long; [exact F1|auto]|eapply created_long; [exact F2|auto]|eapply created_long; [exact F3|auto]].
Qed.
Lemma flow_long : forall cx tr comp f o, flow_model cx tr comp f = Ok o -> longT (cx_n cx) (fo_tree o).
Proof.
  intros cx tr comp f o H. unfold flow_model in H.
  bnd H rel0 E1. bnd H ab E2. bnd H rate E3. bnd H oo E4. bnd H io E5. bnd H sfh E6. bnd H csum E7. bnd H clf E8. bnd H s E9. bnd H m E10.
  apply Ok_inj in H. subst o. cbn [fo_tree]. apply mk_em_spec in E10. destruct E10 as [-> _]. apply longT_EM.
  - intros w [<-|[<-|[]]]; [eapply created_long; [exact E3|auto]|eapply created_long; [exact E6|auto]].
  - intros m Hm. apply in_app_or in Hm. destruct Hm as [Hm|Hm].
    + destruct oo as [q|]; [|destruct Hm]. destruct Hm as [<-|[]]. destruct (f_onoff f) as [p|]; simpl in E4; [|discriminate]. bnd E4 q' F. apply Ok_inj in E4. injection E4 as ->. eapply onoff_long. exact F.
    + destruct io as [q|]; [|destruct Hm]. destruct Hm as [<-|[]]. destruct (f_size f) as [|iv]; [discriminate|]. bnd E5 pr F1. bnd E5 i F2. apply Ok_inj in E5. injection E5 as ->. eapply invest_long. exact F2.
Qed.
Lemma base_long : forall cx trf trc c b, base_model cx trf trc c = Ok b -> forall m, In m (bo_subs b) -> longT (cx_n cx) m.
Proof.
  intros cx trf trc c b H. unfold base_model in H. bnd H fos E1. bnd H oo E2. bnd H pm E3. apply Ok_inj in H. subst b. cbn [bo_subs].
  intros m Hm. apply in_app_or in Hm. destruct Hm as [Hm|Hm]; [|apply in_app_or in Hm; destruct Hm as [Hm|Hm]].
  - apply in_map_iff in Hm. destruct Hm as [o [<- Ho]]. destruct (mapM_In_inv _ _ _ _ E1 Ho) as [f [_ E]]. eapply flow_long. exact E.
  - destruct oo as [q|]; [|destruct Hm]. destruct Hm as [<-|[]]. destruct (cp_onoff c) as [p|]; simpl in E2; [|discriminate]. bnd E2 q' G. apply Ok_inj in E2. injection E2 as ->. eapply onoff_long. exact G.
  - destruct (cp_prevent c) as [|i l]; [apply Ok_inj in E3; subst; destruct Hm|]. bnd E3 ons G1. bnd E3 m' G2. apply Ok_inj in E3. subst pm. destruct Hm as [<-|[]].
    unfold prevent_model in G2. bnd G2 u F1. bnd G2 u' F2. bnd G2 c' F3. apply mk_em_spec in G2. destruct G2 as [-> _]. apply longT_EM; [intros w []|intros k []].
Qed.
Lemma storage_long : forall cx tr full s ch dis o, storage_model cx tr full s ch dis = Ok o ->
  (forall v, In v (so_vars o) -> long (cx_n cx) v) /\ forall m, In m (so_subs o) -> longT (cx_n cx) m.
Proof.
  intros cx tr full s ch dis o H. unfold storage_model in H. bnd H rl E1. bnd H ru E2. destruct (cap_limits cx (st_cap s)) as [lo hi].
  bnd H lb E3. bnd H ub E4. bnd H cs E5. bnd H nd E6. bnd H ceq E7. bnd H loss E8. bnd H ec E9. bnd H ed E10. bnd H f1 E11. bnd H f2 E12.
  bnd H iq E13. bnd H f3 E14. bnd H bal E15. bnd H io E16. bnd H ends E17. apply Ok_inj in H. subst o. cbn [so_vars so_subs]. split.
  - intros v [<-|[<-|[]]]; [eapply created_long; [exact E5|lia]|eapply created_long; [exact E6|auto]].
  - intros m Hm. destruct io as [q|]; [|destruct Hm]. destruct Hm as [<-|[]]. destruct (st_cap s) as [|iv]; [discriminate|].
    bnd E16 i G. apply Ok_inj in E16. injection E16 as ->. eapply invest_long. exact G.
Qed.
Lemma comp_long : forall cx trf trc c o, comp_model cx trf trc c = Ok o -> longT (cx_n cx) (co_tree o).
Proof.
  intros cx trf trc c0 o H. unfold comp_model in H. bnd H c E1. bnd H b E2. bnd H s E3. bnd H m E4. apply Ok_inj in H. subst o.
  cbn [co_tree]. apply mk_em_spec in E4. destruct E4 as [-> _].
  assert (K : (forall v, In v (so_vars s) -> long (cx_n cx) v) /\ forall m, In m (so_subs s) -> longT (cx_n cx) m).
  { destruct (cp_kind c) as [|fs|segs|st|rel abs].
    - apply Ok_inj in E3. subst s. split; intros ? [].
    - bnd E3 k F. apply Ok_inj in E3. subst s. split; intros ? [].
    - bnd E3 m' F. apply Ok_inj in E3. subst s. cbn. split; [intros v []|]. intros m [<-|[]]. unfold segmented_model in F. bnd F pts Fp. eapply multi_long; [exact F|auto].
    - bnd E3 ch F1. bnd E3 dis F2. eapply storage_long. exact E3.
    - bnd E3 k F. apply Ok_inj in E3. subst s. split; intros ? []. }
  destruct K as [K1 K2]. apply longT_EM; auto. intros m Hm. apply in_app_or in Hm. destruct Hm as [Hm|Hm]; auto. eapply base_long; eauto.
Qed.
