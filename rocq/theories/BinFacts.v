(** The binary variables of a component are not fixed in advance. *)
From Verif Require Import Base BaseFacts MathModel Spec MathFacts Structure StructureFacts Params Features Elements System CtxFacts ReadTools InvestFacts ClosedFacts.
Local Open Scope Q_scope.
Local Tactic Notation "bnd" hyp(H) ident(x) ident(E) := apply bind_ok in H; destruct H as [x [E H]]; cbv beta in H.

Definition open_bin (v : variable) : Prop := v_bin v = true -> v_fixed v = None.
Definition openT (m : emodel) : Prop := forall v, In v (decl m) -> open_bin v.

Lemma created_open : forall m l n b fx lb ub pr v, create_variable m l n b fx lb ub pr = Ok v -> b = false \/ fx = None -> open_bin v.
Proof. intros m l n b fx lb ub pr v H D. apply create_variable_spec in H. subst v. intros Hb. cbn in *. destruct D as [D|D]; congruence. Qed.

Lemma openT_EM : forall f l v c s, Forall open_bin v -> (forall m, In m s -> openT m) -> openT (EM f l v c s).
Proof.
  intros f l v c s V S w Hw. rewrite decl_EM in Hw. apply in_app_iff in Hw. destruct Hw as [Hw|Hw].
  - rewrite Forall_forall in V. auto.
  - apply in_flat_map in Hw. destruct Hw as [m [Hm Hw]]. exact (S m Hm w Hw).
Qed.
Lemma mk_em_open : forall f l v c s m, mk_em f l v c s = Ok m -> Forall open_bin v -> (forall m, In m s -> openT m) -> openT m.
Proof. intros f l v c s m H V S. apply mk_em_spec in H. destruct H as [-> _]. apply openT_EM; auto. Qed.

Ltac opens := repeat (apply Forall_app; split); repeat first [apply Forall_nil | apply Forall_cons];
  try (eapply created_open; [eassumption|solve [left; reflexivity|right; reflexivity]]).
Ltac none := let m := fresh in intros m [].

Lemma segment_open : forall elem len i s, segment_model elem len i = Ok s -> openT (sg_tree s).
Proof.
  intros elem len i s H. unfold segment_model in H. bnd H a E1. bnd H b E2. bnd H c E3. bnd H d E4. bnd H m E5. apply Ok_inj in H. subst s. cbn [sg_tree].
  eapply mk_em_open; [exact E5|opens|none].
Qed.
Lemma multi_open : forall elem len pts outside m, multi_segments elem len pts outside = Ok m -> openT m.
Proof.
  intros elem len pts outside m H. unfold multi_segments in H. bnd H n En. bnd H segs Es. bnd H eqs Ee. bnd H single Ei.
  eapply mk_em_open; [exact H|constructor|]. intros k Hk. apply in_map_iff in Hk. destruct Hk as [s [<- Hs]].
  destruct (mapM_In_inv _ _ _ _ Es Hs) as [i [_ E]]. exact (segment_open _ _ _ _ E).
Qed.
Lemma segshares_open : forall cx elem size spts eff outside m shs, segmented_shares cx elem size spts eff outside = Ok (m, shs) -> openT m.
Proof.
  intros cx elem size spts eff outside m shs H. unfold segmented_shares in H. bnd H u Eu. bnd H vs Ev. bnd H ms Em.
  bnd H sh Eh. bnd H m' Ek. apply Ok_inj in H. apply pair_equal_spec in H. destruct H as [<- <-]. eapply mk_em_open; [exact Ek| |].
  - apply Forall_forall. intros v Hv. apply in_map_iff in Hv. destruct Hv as [t [<- Ht]]. destruct (mapM_In_inv _ _ _ _ Ev Ht) as [kv [_ E]].
    repeat (let x := fresh "x" in let F := fresh "F" in apply bind_ok in E; destruct E as [x [F E]]; cbv beta in E). apply Ok_inj in E. subst t. cbn [fst snd].
    eapply created_open; [eassumption|auto].
  - intros k [<-|[]]. eapply multi_open; eauto.
Qed.
Lemma invest_open : forall cx tr elem iv dv relmin relmax profile on io, invest_model cx tr elem iv dv relmin relmax profile on = Ok io -> openT (io_tree io).
Proof.
  intros cx tr elem iv dv relmin relmax profile on io H. apply invest_model_parts in H.
  destruct H as [size [b [cs1 [cs2 [subs [H1 [H2 [H3 [H4 [H5 [H6 H7]]]]]]]]]]]. rewrite H5. apply openT_EM.
  - constructor.
    + unfold invest_size in H1. destruct (_ && _)%bool; eapply created_open; eauto.
    + unfold invest_optional in H2. destruct (iv_optional iv).
      * bnd H2 o Eo. assert (b = Some o) as -> by (destruct (iv_is_fixed iv); inv_ok; congruence). opens.
      * apply Ok_inj in H2. apply pair_equal_spec in H2. destruct H2 as [<- _]. constructor.
  - intros m Hm. unfold invest_shares in H4. bnd H4 s1 E1. bnd H4 s2 E2. bnd H4 s3 E3. destruct (iv_seg iv) as [[spts eff]|].
    + bnd H4 p Ep. destruct p as [m0 s4]. apply Ok_inj in H4. apply pair_equal_spec in H4. destruct H4 as [_ <-]. destruct Hm as [<-|[]].
      eapply segshares_open; eauto.
    + apply Ok_inj in H4. apply pair_equal_spec in H4. destruct H4 as [_ <-]. destruct Hm.
Qed.
Lemma duration_open : forall cx tr full label b dmin dmax du, duration_model cx tr full label b dmin dmax = Ok du -> open_bin (du_var du).
Proof.
  intros cx tr full label b dmin dmax du H. unfold duration_model in H.
  bnd H pv E1. bnd H pv' E2. bnd H prev E3. bnd H mx E4. bnd H u E5. bnd H d E6. bnd H c1 E7. bnd H c2a E8. bnd H c2b E9.
  bnd H cmin E10. bnd H dt0 E11. bnd H cf E12. apply Ok_inj in H. subst du. cbn [du_var]. eapply created_open; eauto.
Qed.
Lemma onoff_open : forall cx tr elem p vars bounds o, onoff_model cx tr elem p vars bounds = Ok o -> openT (ot_tree o).
Proof.
  intros cx tr elem p vars bounds o H. unfold onoff_model in H.
  bnd H bs E1. bnd H u E2. bnd H po E3. bnd H on E4. bnd H tot E5. bnd H ctot E6. bnd H con E7.
  bnd H q1 E8. destruct q1 as [voff coff]. bnd H q2 E9. destruct q2 as [v1 k1]. bnd H q3 E10. destruct q3 as [v2 k2].
  bnd H q4 E11. destruct q4 as [[v3 k3] sw]. bnd H s1 E12. bnd H s2 E13. bnd H m E14. apply Ok_inj in H. subst o. cbn [ot_tree].
  eapply mk_em_open; [exact E14| |none]. repeat (apply Forall_app; split).
  - opens.
  - destruct (use_off p); inv_ok; prs; opens.
  - destruct (use_con p); [|inv_ok; prs; constructor]. bnd E9 du F. apply Ok_inj in E9. apply pair_equal_spec in E9. destruct E9 as [<- <-].
    constructor; [eapply duration_open; eauto|constructor].
  - destruct (use_coff p); [|inv_ok; prs; constructor]. bnd E10 off Fo. bnd E10 du F. apply Ok_inj in E10. apply pair_equal_spec in E10. destruct E10 as [<- <-].
    constructor; [eapply duration_open; eauto|constructor].
  - destruct (use_switch_on p); [|inv_ok; prs; constructor]. bnd E11 son F1. bnd E11 soff F2. bnd E11 nr F3. bnd E11 u' F4. bnd E11 ks F5.
    apply Ok_inj in E11. apply pair_equal_spec in E11. destruct E11 as [E11 <-]. apply pair_equal_spec in E11. destruct E11 as [<- <-]. opens.
Qed.
Lemma prevent_open : forall elem vars m, prevent_model elem vars = Ok m -> openT m.
Proof.
  intros elem vars m H. unfold prevent_model in H. bnd H u E1. bnd H u' E2. bnd H c E3. eapply mk_em_open; [exact H|constructor|none].
Qed.
Lemma flow_open : forall cx tr comp f o, flow_model cx tr comp f = Ok o -> openT (fo_tree o).
Proof.
  intros cx tr comp f o H. unfold flow_model in H.
  bnd H rel0 E1. bnd H ab E2. bnd H rate E3. bnd H oo E4. bnd H io E5. bnd H sfh E6. bnd H csum E7. bnd H clf E8. bnd H s E9. bnd H m E10.
  apply Ok_inj in H. subst o. cbn [fo_tree]. eapply mk_em_open; [exact E10|opens|]. intros k Hk. apply in_app_iff in Hk. destruct Hk as [Hk|Hk].
  - destruct oo as [q|]; [|destruct Hk]. destruct Hk as [<-|[]]. destruct (f_onoff f) as [p|]; simpl in E4; [|discriminate].
    bnd E4 q' F. apply Ok_inj in E4. injection E4 as ->. eapply onoff_open; eauto.
  - destruct io as [q|]; [|destruct Hk]. destruct Hk as [<-|[]]. destruct (f_size f) as [|iv]; [discriminate|]. bnd E5 pr F1. bnd E5 i F2.
    apply Ok_inj in E5. injection E5 as ->. eapply invest_open; eauto.
Qed.
Lemma base_open : forall cx trf trc c b, base_model cx trf trc c = Ok b -> forall m, In m (bo_subs b) -> openT m.
Proof.
  intros cx trf trc c b H. unfold base_model in H. bnd H fos E1. bnd H oo E2. bnd H pm E3. apply Ok_inj in H. subst b. cbn [bo_subs].
  intros m Hm. apply in_app_iff in Hm. destruct Hm as [Hm|Hm]; [|apply in_app_iff in Hm; destruct Hm as [Hm|Hm]].
  - apply in_map_iff in Hm. destruct Hm as [o [<- Ho]]. destruct (mapM_In_inv _ _ _ _ E1 Ho) as [f [_ E]]. eapply flow_open; eauto.
  - destruct oo as [q|]; [|destruct Hm]. destruct Hm as [<-|[]]. destruct (cp_onoff c) as [p|]; simpl in E2; [|discriminate]. bnd E2 q' G.
    apply Ok_inj in E2. injection E2 as ->. eapply onoff_open; eauto.
  - destruct (cp_prevent c) as [|i l]; [apply Ok_inj in E3; subst; destruct Hm|]. bnd E3 ons G1. bnd E3 m' G2. apply Ok_inj in E3. subst pm.
    destruct Hm as [<-|[]]. eapply prevent_open; eauto.
Qed.
Lemma storage_open : forall cx tr full s ch dis o, storage_model cx tr full s ch dis = Ok o ->
  Forall open_bin (so_vars o) /\ forall m, In m (so_subs o) -> openT m.
Proof.
  intros cx tr full s ch dis o H. unfold storage_model in H. bnd H rl E1. bnd H ru E2. destruct (cap_limits cx (st_cap s)) as [lo hi].
  bnd H lb E3. bnd H ub E4. bnd H cs E5. bnd H nd E6. bnd H ceq E7. bnd H loss E8. bnd H ec E9. bnd H ed E10. bnd H f1 E11. bnd H f2 E12.
  bnd H iq E13. bnd H f3 E14. bnd H bal E15. bnd H io E16. bnd H ends E17. apply Ok_inj in H. subst o. cbn [so_vars so_subs]. split; [opens|].
  intros m Hm. destruct io as [q|]; [|destruct Hm]. destruct Hm as [<-|[]]. destruct (st_cap s) as [|iv]; [discriminate|].
  bnd E16 i G. apply Ok_inj in E16. injection E16 as ->. eapply invest_open; eauto.
Qed.
Lemma comp_open : forall cx trf trc c o, comp_model cx trf trc c = Ok o -> openT (co_tree o).
Proof.
  intros cx trf trc c0 o H. unfold comp_model in H. bnd H c E1. bnd H b E2. bnd H s E3. bnd H m E4. apply Ok_inj in H. subst o. cbn [co_tree].
  assert (K : Forall open_bin (so_vars s) /\ forall m, In m (so_subs s) -> openT m).
  { destruct (cp_kind c) as [|fs|segs|st|rel abs].
    - apply Ok_inj in E3. subst s. split; [constructor|none].
    - bnd E3 k F. apply Ok_inj in E3. subst s. split; [constructor|none].
    - bnd E3 m' F. apply Ok_inj in E3. subst s. split; [constructor|]. intros k [<-|[]]. unfold segmented_model in F. bnd F pts Fp. eapply multi_open; eauto.
    - bnd E3 ch F1. bnd E3 dis F2. eapply storage_open; eauto.
    - bnd E3 k F. apply Ok_inj in E3. subst s. split; [constructor|none]. }
  destruct K as [K1 K2]. eapply mk_em_open; [exact E4|exact K1|]. intros k Hk. apply in_app_iff in Hk. destruct Hk as [Hk|Hk]; [eapply base_open; eauto|auto].
Qed.
