(** Buses, converters, transmissions, storages and the exclusion of flows do not exclude more than they say. *)
From Coq Require Import String Permutation.
From Verif Require Import Base BaseFacts MathModel Spec MathFacts Structure StructureFacts Params Features Elements System SysSpec
  CtxFacts ReadTools InvestFacts OnOffFacts FlowFacts NavFacts CompFacts BusFacts
  OnOffAdmits FlowAdmits InvestAdmits SegAdmits ClosedFacts.

(** Equations over whole variables: the factors fit, and the rows are all that is demanded. *)
Lemma terms_lens : forall k model label terms qs c n, (2 <= n)%nat ->
  create_equation model label k (map tcall terms ++ map qcall qs) = Ok c ->
  (forall v a, In (v, a) terms -> v_len v = n /\ good a) -> forall v a, In (v, a) terms -> nlen a = 1%nat \/ nlen a = n.
Proof.
  intros k model label terms qs c n N2 H T v a Hv. destruct (T v a Hv) as [L G].
  assert (Hi : In (AddS v a None false) (map tcall terms ++ map qcall qs)).
  { apply in_or_app. left. apply in_map_iff. exists (v, a). auto. }
  unfold create_equation in H. apply build_built in H. destruct H as [_ _ _ B _ _ _ _ _].
  assert (Hf : In (AddS v a None false) (filter is_summand (map tcall terms ++ map qcall qs))) by (apply filter_In; auto).
  destruct (Forall2_In_l _ _ _ _ B Hf) as [s [_ E]]. simpl in E. apply mk_summand_inv in E. destruct E as [m [E _]].
  rewrite idx_of_length in E. apply check_length_spec in E. cbn [option_map] in E. rewrite L in E. lia.
Qed.
Lemma fits_of_len : forall n a, nlen a = 1%nat \/ nlen a = n -> fits n a.
Proof. intros n a [E|E] i Hi; apply in_rng_len; lia. Qed.

Lemma terms_back : forall k model label terms qs c n, (2 <= n)%nat ->
  create_equation model label k (map tcall terms ++ map qcall qs) = Ok c ->
  (forall v a, In (v, a) terms -> v_len v = n /\ good a) ->
  (forall v a, In (v, a) terms -> fits n a)
  /\ forall x, c_translates c ->
       (forall t, (t < n)%nat -> rel k (Qsum (map (fun va => at_ (snd va) t * x (v_label (fst va)) t) terms)) (Qsum qs)) -> con_sat x c.
Proof.
  intros k model label terms qs c n N2 H T. pose proof (terms_lens _ _ _ _ _ _ _ N2 H T) as L. split.
  - intros v a Hv. apply fits_of_len. eauto.
  - intros x C R. refine (terms_admit x k model label terms qs c n ltac:(lia) H C _ R). intros v a Hv. split; [apply (T v a Hv)|eauto].
Qed.

(** ** Buses *)
Theorem bus_admits : forall x cx b ins outs bo, ctx_ok cx -> (2 <= cx_n cx)%nat ->
  (forall v, In v (ins ++ outs) -> v_len v = cx_n cx) ->
  bus_model cx b ins outs = Ok bo -> em_translates (fst bo) ->
  (forall t, (t < cx_n cx)%nat ->
     Qsum (map (fun v => x (v_label v) t) ins) + excess x b "excess_input" t
       == Qsum (map (fun v => x (v_label v) t) outs) + excess x b "excess_output" t
     /\ 0 <= excess x b "excess_input" t /\ 0 <= excess x b "excess_output" t) ->
  em_sat x (fst bo).
Proof.
  intros x cx b ins outs bo CX N2 L H T R. unfold bus_model in H. unfold excess in R.
  set (terms := map (fun v => (v, NS 1)) ins ++ map (fun v => (v, NS (-1))) outs).
  assert (FL : map (fun v => AddS v (NS 1) None false) ins ++ map (fun v => AddS v (NS (-1)) None false) outs = map tcall terms).
  { unfold terms. rewrite map_app, !map_map. reflexivity. }
  assert (SM : forall t, Qsum (map (fun va => at_ (snd va) t * x (v_label (fst va)) t) terms)
     == Qsum (map (fun v => x (v_label v) t) ins) - Qsum (map (fun v => x (v_label v) t) outs)).
  { intros t. unfold terms. rewrite map_app, Qsum_app, !map_map. cbn [fst snd].
    rewrite (Qsum_map_eq (fun v => at_ (NS 1) t * x (v_label v) t) (fun v => x (v_label v) t)) by (intros; rewrite at_NS; ring).
    rewrite (Qsum_map_eq (fun v => at_ (NS (-1)) t * x (v_label v) t) (fun v => -1 * x (v_label v) t)) by (intros; rewrite at_NS; ring).
    rewrite Qsum_scale. ring. }
  assert (T0 : forall v a, In (v, a) terms -> v_len v = cx_n cx /\ good a).
  { intros v a Hv. apply in_app_or in Hv. destruct Hv as [Hv|Hv]; apply in_map_iff in Hv; destruct Hv as [u [E Hu]]; inversion E; subst;
      (split; [apply L, in_or_app; auto|apply good_NS]). }
  rewrite FL in H. clear FL. destruct (b_penalty b) as [p|].
  - bnd H a Ea. bnd H pen Epen. bnd H ei Eei. bnd H eo Eeo. bnd H k Ek. bnd H m Em. fin H. apply mk_em_spec in Em. destruct Em as [-> _]. cbn [fst] in *.
    pose proof (em_translates_vars _ _ _ _ _ T) as V. pose proof (Forall_inv (em_translates_cons _ _ _ _ _ T)) as C.
    pose proof (Forall_inv V) as V1. pose proof (Forall_inv (Forall_inv_tail V)) as V2. clear V.
    apply create_variable_spec in Eei. apply create_variable_spec in Eeo.
    assert (N1 : v_label ei = vlabel (b_lab b) "excess_input" /\ v_len ei = cx_n cx /\ v_fixed ei = None /\ v_bin ei = false /\ v_lb ei = Some (NS 0) /\ v_ub ei = None) by (subst; auto 7).
    assert (N3 : v_label eo = vlabel (b_lab b) "excess_output" /\ v_len eo = cx_n cx /\ v_fixed eo = None /\ v_bin eo = false /\ v_lb eo = Some (NS 0) /\ v_ub eo = None) by (subst; auto 7).
    clear Eei Eeo. destruct N1 as [N1 [L1 [X1 [B1 [Y1 Z1]]]]]. destruct N3 as [N3 [L2 [X2 [B2 [Y2 Z2]]]]].
    apply em_sat_intro; [|constructor; [|constructor]|constructor].
    + constructor; [|constructor; [|constructor]]; (apply var_sat_intro; auto; [rewrite ?B1, ?B2; discriminate| |rewrite ?Z1, ?Z2; discriminate]); intros l i El Hi.
      * rewrite Y1 in El. injection El as <-. rewrite at_NS, N1. apply R. lia.
      * rewrite Y2 in El. injection El as <-. rewrite at_NS, N3. apply R. lia.
    + replace (map tcall terms ++ [AddS eo (NS (-1)) None false; AddS ei (NS 1) None false])
        with (map tcall (terms ++ [(eo, NS (-1)); (ei, NS 1)]) ++ map qcall []) in Ek by (rewrite app_nil_r, map_app; reflexivity).
      assert (TT : forall v a, In (v, a) (terms ++ [(eo, NS (-1)); (ei, NS 1)]) -> v_len v = cx_n cx /\ good a).
      { intros v q Hv. apply in_app_or in Hv. destruct Hv as [Hv|[Hv|[Hv|[]]]]; auto; inversion Hv; subst; (split; [auto|apply good_NS]). }
      apply (proj2 (terms_back _ _ _ _ _ _ _ N2 Ek TT) x C). intros t Ht. destruct (R t Ht) as [RR _]. unfold rel.
      rewrite map_app, Qsum_app, SM. cbn [map fst snd]. rewrite !Qsum_cons, !at_NS, N1, N3. cbn [Qsum fold_right]. lra.
  - bnd H k Ek. bnd H m Em. fin H. apply mk_em_spec in Em. destruct Em as [-> _]. cbn [fst] in *.
    pose proof (Forall_inv (em_translates_cons _ _ _ _ _ T)) as C.
    apply em_sat_intro; [constructor|constructor; [|constructor]|constructor].
    rewrite <- (app_nil_r (map tcall terms)) in Ek. change [] with (map qcall []) in Ek.
    apply (proj2 (terms_back _ _ _ _ _ _ _ N2 Ek T0) x C). intros t Ht. destruct (R t Ht) as [RR _]. unfold rel. rewrite SM. cbn [Qsum fold_right map]. lra.
Qed.

(** ** Exclusive flows *)
Theorem prevent_admits : forall x elem vars m n, (2 <= n)%nat -> (forall v, In v vars -> v_len v = n) ->
  prevent_model elem vars = Ok m -> em_translates m ->
  (forall t, (t < n)%nat -> Qsum (map (fun v => x (v_label v) t) vars) <= 11 # 10) -> em_sat x m.
Proof.
  intros x elem vars m n N2 L H T R. unfold prevent_model in H. bnd H u1 E1. bnd H u2 E2. bnd H c Ec. apply mk_em_spec in H. destruct H as [-> _].
  pose proof (Forall_inv (em_translates_cons _ _ _ _ _ T)) as C.
  apply em_sat_intro; [constructor|constructor; [|constructor]|constructor].
  replace (map (fun v => AddS v (NS 1) None false) vars ++ [AddC (NS (11 # 10))])
    with (map tcall (map (fun v => (v, NS 1)) vars) ++ map qcall [11 # 10]) in Ec by (rewrite map_map; reflexivity).
  refine (proj2 (terms_back _ _ _ _ _ _ _ N2 Ec _) x C _).
  - intros v a Hv. apply in_map_iff in Hv. destruct Hv as [u [E Hu]]. inversion E; subst. split; [auto|apply good_NS].
  - intros t Ht. unfold rel. rewrite map_map. cbn [fst snd].
    rewrite (Qsum_map_eq (fun v => at_ (NS 1) t * x (v_label v) t) (fun v => x (v_label v) t)) by (intros; rewrite at_NS; ring).
    specialize (R t Ht). cbn [Qsum fold_right]. rewrite Qplus_0_r. exact R.
Qed.

(** ** Converters *)
Theorem conversion_admits : forall cf fs idx cx x tr c fos i factors k,
  ctx_for cf fs idx cx -> (2 <= cx_n cx)%nat -> (forall l, Permutation (cx_ord cx l) l) ->
  Forall2 (fo_for cf fs idx cx c) (cp_flows c) fos -> NoDup (map f_id (cp_flows c)) ->
  conversion_eq cx tr c fos i factors = Ok k -> c_translates k ->
  (forall t, (t < cx_n cx)%nat -> weighted idx x c factors (cp_in c) t == weighted idx x c factors (cp_out c) t) -> con_sat x k.
Proof.
  intros cf fs idx cx x tr c fos i factors k CF N2 PO FF ND H C W. unfold conversion_eq in H.
  bnd H ins Ei. bnd H outs Eo. unfold cp_flows in ND. rewrite map_app in ND. destruct (NoDup_app_both _ _ ND) as [ND1 ND2].
  rewrite <- map_app in ND. pose proof (cf_ok _ _ _ _ CF) as CX.
  destruct (conv_calls_terms _ _ _ _ _ _ _ CX Ei) as [t1 [E1 _]]. destruct (conv_calls_terms _ _ _ _ _ _ _ CX Eo) as [t2 [E2 _]].
  assert (INJ : forall a b : list (variable * numeric), map tcall a = map tcall b -> a = b).
  { induction a as [|[v f] a IH]; intros [|[v' f'] b] E; try discriminate; auto. cbn [map tcall fst snd] in E. inversion E. f_equal. auto. }
  assert (S1 : forall t, (t < cx_n cx)%nat -> (forall v a, In (v, a) t1 -> v_len v = cx_n cx /\ good a)
     /\ ((forall v a, In (v, a) t1 -> fits (cx_n cx) a) -> Qsum (map (fun va => at_ (snd va) t * x (v_label (fst va)) t) t1) == 1 * weighted idx x c factors (cp_in c) t)).
  { intros t Ht. destruct (conv_side _ _ _ _ x _ _ (cp_in c) _ _ _ _ t CF PO Ht FF ND ltac:(intros; apply in_or_app; auto) ND1 Ei) as [t1' [E1' [L1 W1]]].
    rewrite E1 in E1'. apply INJ in E1'. subst t1'. auto. }
  assert (S2 : forall t, (t < cx_n cx)%nat -> (forall v a, In (v, a) t2 -> v_len v = cx_n cx /\ good a)
     /\ ((forall v a, In (v, a) t2 -> fits (cx_n cx) a) -> Qsum (map (fun va => at_ (snd va) t * x (v_label (fst va)) t) t2) == -1 * weighted idx x c factors (cp_out c) t)).
  { intros t Ht. destruct (conv_side _ _ _ _ x _ _ (cp_out c) _ _ _ _ t CF PO Ht FF ND ltac:(intros; apply in_or_app; auto) ND2 Eo) as [t2' [E2' [L2 W2]]].
    rewrite E2 in E2'. apply INJ in E2'. subst t2'. auto. }
  subst ins outs. rewrite app_assoc, <- map_app in H. change [AddC (NS 0)] with (map qcall [0]) in H.
  assert (LL : forall v a, In (v, a) (t1 ++ t2) -> v_len v = cx_n cx /\ good a).
  { intros v a Hv. apply in_app_or in Hv. destruct Hv; [apply (S1 0%nat)|apply (S2 0%nat)]; auto; lia. }
  destruct (terms_back _ _ _ _ _ _ _ N2 H LL) as [F B]. apply B; auto. intros t Ht. unfold rel. rewrite map_app, Qsum_app.
  rewrite (proj2 (S1 t Ht)), (proj2 (S2 t Ht)) by (intros; eapply F; apply in_or_app; eauto). rewrite (W t Ht). cbn [Qsum fold_right]. lra.
Qed.

(** ** Transmissions *)
Lemma transmission_eq_admits : forall x cx tr full name rl ab fi fo k, ctx_ok cx -> (2 <= cx_n cx)%nat ->
  v_len (fo_rate fi) = cx_n cx -> v_len (fo_rate fo) = cx_n cx -> (forall v, fo_on fi = Some v -> v_len v = cx_n cx) ->
  transmission_eq cx tr full name rl ab fi fo = Ok k -> c_translates k ->
  (forall t, (t < cx_n cx)%nat -> x (v_label (fo_rate fo)) t == x (v_label (fo_rate fi)) t * (1 - loss_at (cx_idx cx) rl t)
     - loss_at (cx_idx cx) ab t * match fo_on fi with Some v => x (v_label v) t | None => 0 end) -> con_sat x k.
Proof.
  intros x cx tr full name rl ab fi fo k CX N2 L1 L2 L3 H C R. unfold transmission_eq in H. bnd H e Ee. bnd H l El.
  pose proof (ok_pos _ CX) as NP.
  assert (Ge : good e /\ (fits (cx_n cx) e -> forall t, (t < cx_n cx)%nat -> at_ e t == 1 - loss_at (cx_idx cx) rl t)).
  { destruct rl as [p|]; simpl.
    - bnd Ee a Ea. fin Ee. destruct (act_spec _ _ _ _ CX Ea) as [_ [G _]]. split; [apply good_nmap; auto|].
      intros F t Ht. apply fits_nmap in F. rewrite nmap_at by auto. rewrite (act_at _ _ _ _ _ CX Ea F Ht). reflexivity.
    - fin Ee. split; [apply good_NS|]. intros _ t _. rewrite at_NS. ring. }
  destruct Ge as [Ge Ve].
  assert (P : exists terms, l = map tcall terms /\ (forall v a, In (v, a) terms -> v_len v = cx_n cx /\ good a)
     /\ ((forall v a, In (v, a) terms -> fits (cx_n cx) a) -> forall t, (t < cx_n cx)%nat -> Qsum (map (fun va => at_ (snd va) t * x (v_label (fst va)) t) terms)
        == - (loss_at (cx_idx cx) ab t * match fo_on fi with Some v => x (v_label v) t | None => 0 end))).
  { destruct ab as [p|]; simpl.
    - bnd El o Eo. bnd El a Ea. fin El. apply nth_error_some in Eo. exists [(o, nmap Qopp a)].
      destruct (act_spec _ _ _ _ CX Ea) as [_ [G _]]. split; [reflexivity|]. split.
      + intros v b [X|[]]. inversion X; subst. split; [auto|apply good_nmap; auto].
      + intros F t Ht. specialize (F _ _ (or_introl eq_refl)). apply fits_nmap in F. cbn [map fst snd]. rewrite Qsum_cons. cbn [Qsum fold_right].
        rewrite nmap_at by auto. rewrite (act_at _ _ _ _ _ CX Ea F Ht). rewrite Eo. ring.
    - fin El. exists []. split; [reflexivity|]. split; [simpl; tauto|]. intros _ t _. simpl. ring. }
  destruct P as [terms [-> [T1 T3]]].
  change ([AddS (fo_rate fi) e None false; AddS (fo_rate fo) (NS (-1)) None false] ++ map tcall terms)
    with (map tcall ((fo_rate fi, e) :: (fo_rate fo, NS (-1)) :: terms)) in H.
  rewrite <- (app_nil_r (map tcall _)) in H. change [] with (map qcall []) in H.
  assert (T : forall v a, In (v, a) ((fo_rate fi, e) :: (fo_rate fo, NS (-1)) :: terms) -> v_len v = cx_n cx /\ good a).
  { intros v a [X|[X|X]]; [inversion X; subst; auto|inversion X; subst; split; [auto|apply good_NS]|auto]. }
  destruct (terms_back _ _ _ _ _ _ _ N2 H T) as [F B]. apply B; auto. intros t Ht. unfold rel.
  cbn [map fst snd]. rewrite !Qsum_cons. rewrite T3 by (auto; intros; eapply F; simpl; eauto). rewrite Ve by (auto; eapply F; simpl; eauto). rewrite at_NS.
  cbn [Qsum fold_right]. specialize (R t Ht). lra.
Qed.

Theorem transmission_admits : forall cf fs idx cx x tr c rl ab fos k, ctx_for cf fs idx cx -> (2 <= cx_n cx)%nat ->
  Forall2 (fo_for cf fs idx cx c) (cp_flows c) fos -> transmission_cons cx tr c fos rl ab = Ok k -> Forall c_translates k ->
  (forall j i o, nth_error (cp_in c) j = Some i -> nth_error (cp_out c) j = Some o -> direction_law fs idx x c rl ab i o) ->
  (forall in1 in2 iv, nth_error (cp_in c) 0 = Some in1 -> nth_error (cp_in c) 1 = Some in2 -> sized cf c in1 = SzInv iv ->
        x (inv (flow_name c in1) "size") 0%nat == x (inv (flow_name c in2) "size") 0%nat) ->
  Forall (con_sat x) k.
Proof.
  intros cf fs idx cx x tr c rl ab fos k CF N2 FF H C D SZ. pose proof (cf_ok _ _ _ _ CF) as CX. unfold transmission_cons in H.
  destruct (Forall2_app_split _ _ _ _ FF) as [FI FO].
  set (ins := firstn (length (cp_in c)) fos) in *. set (outs := skipn (length (cp_in c)) fos) in *.
  assert (DIR : forall fi fo i o name k1, fo_for cf fs idx cx c i fi -> fo_for cf fs idx cx c o fo ->
     transmission_eq cx tr (cp_label c) name rl ab fi fo = Ok k1 -> c_translates k1 -> direction_law fs idx x c rl ab i o -> con_sat x k1).
  { intros fi fo i o name k1 Si So E K DL.
    destruct (fo_on_of _ _ _ _ x _ _ _ 0%nat Si) as [Lon _].
    refine (transmission_eq_admits x cx tr _ _ _ _ _ _ _ CX N2 (fs_len _ _ _ _ Si) (fs_len _ _ _ _ So) Lon E K _).
    intros t Ht. destruct (fo_on_of _ _ _ _ x _ _ _ t Si) as [_ [V _]]. rewrite V.
    rewrite (fs_label _ _ _ _ Si), (fs_label _ _ _ _ So), (cf_idx _ _ _ _ CF). apply DL. rewrite <- (cf_n _ _ _ _ CF). exact Ht. }
  bnd H in1 Ein. bnd H out1 Eout. bnd H c1 Ec1. apply nth_error_some in Ein. apply nth_error_some in Eout.
  destruct (Forall2_nth_error _ _ _ _ _ FI Ein) as [i1 [Hi1 Si1]].
  destruct (Forall2_nth_error _ _ _ _ _ FO Eout) as [o1 [Ho1 So1]].
  destruct (nth_error ins 1) as [fi2|] eqn:E2.
  - bnd H out2 Eo2. bnd H c2 Ec2. apply nth_error_some in Eo2.
    destruct (Forall2_nth_error _ _ _ _ _ FI E2) as [i2 [Hi2 Si2]]. destruct (Forall2_nth_error _ _ _ _ _ FO Eo2) as [o2 [Ho2 So2]].
    destruct (fo_size in1) as [s1|] eqn:ES.
    + bnd H s2 Es2. bnd H c3 Ec3. fin H. apply nth_error_some in Es2.
      inversion C as [|? ? K1 C']; subst. inversion C' as [|? ? K2 C'']; subst. inversion C'' as [|? ? K3 _]; subst.
      constructor; [exact (DIR _ _ _ _ _ _ Si1 So1 Ec1 K1 (D 0%nat _ _ Hi1 Ho1))|]. constructor; [exact (DIR _ _ _ _ _ _ Si2 So2 Ec2 K2 (D 1%nat _ _ Hi2 Ho2))|]. constructor; [|constructor].
      pose proof (fs_size _ _ _ _ Si1) as Z1. pose proof (fs_size _ _ _ _ Si2) as Z2. cbn [f_size] in Z1, Z2.
      destruct (f_size (effective cf fs idx c i1)) as [q|iv] eqn:Q1; [congruence|].
      destruct (f_size (effective cf fs idx c i2)) as [q|iv2] eqn:Q2; [congruence|].
      destruct Z1 as [z1 [A1 [A2 A3]]]. destruct Z2 as [z2 [B1 [B2 B3]]].
      assert (z1 = s1) by congruence. assert (z2 = s2) by congruence. subst z1 z2.
      specialize (SZ i1 i2 iv Hi1 Hi2 Q1). unfold flow_name in SZ. cbn [f_lab] in A2, B2.
      change (f_lab (effective cf fs idx c i1)) with (f_lab i1) in A2. change (f_lab (effective cf fs idx c i2)) with (f_lab i2) in B2.
      rowi Ec3 K3 1%nat i. assert (i = 0%nat) by lia. subst i. rewrite A2, B2. rewrite SZ. ring.
    + fin H. inversion C as [|? ? K1 C']; subst. inversion C' as [|? ? K2 C'']; subst.
      constructor; [exact (DIR _ _ _ _ _ _ Si1 So1 Ec1 K1 (D 0%nat _ _ Hi1 Ho1))|]. constructor; [exact (DIR _ _ _ _ _ _ Si2 So2 Ec2 K2 (D 1%nat _ _ Hi2 Ho2))|constructor].
  - fin H. inversion C as [|? ? K1 C']; subst. constructor; [exact (DIR _ _ _ _ _ _ Si1 So1 Ec1 K1 (D 0%nat _ _ Hi1 Ho1))|constructor].
Qed.

(** ** Storages *)
Lemma lb_vector : forall v l, v_translates v -> v_lb v = Some l -> is_scalar l = true \/ nlen l = v_len v.
Proof.
  intros v l [p T] E. unfold translate_variable in T. bnd T a Ea. rewrite E in Ea. simpl in Ea. bnd Ea b Eb. destruct l as [q|l]; [auto|].
  simpl in Eb. destruct (Nat.eqb (length l) (v_len v)) eqn:X; [|discriminate]. apply Nat.eqb_eq in X. auto.
Qed.
Lemma ub_vector : forall v l, v_translates v -> v_ub v = Some l -> is_scalar l = true \/ nlen l = v_len v.
Proof.
  intros v l [p T] E. unfold translate_variable in T. bnd T a0 Ea0. bnd T a Ea. rewrite E in Ea. simpl in Ea. bnd Ea b Eb. destruct l as [q|l]; [auto|].
  simpl in Eb. destruct (Nat.eqb (length l) (v_len v)) eqn:X; [|discriminate]. apply Nat.eqb_eq in X. auto.
Qed.
Lemma scalar_len : forall a, is_scalar a = true -> nlen a = 1%nat.
Proof. intros [q|l] H; [reflexivity|discriminate]. Qed.

Theorem storage_admits : forall x cx tr full s ch dis so, ctx_ok cx -> (2 <= cx_n cx)%nat ->
  v_len (fo_rate ch) = cx_n cx -> v_len (fo_rate dis) = cx_n cx ->
  storage_model cx tr full s ch dis = Ok so ->
  Forall v_translates (so_vars so) -> Forall c_translates (so_cons so) -> Forall em_translates (so_subs so) ->
  storage_rows x cx full s (x (v_label (fo_rate ch))) (x (v_label (fo_rate dis))) ->
  Forall (em_sat x) (flat_map em_subs (so_subs so)) ->
  Forall (var_sat x) (so_vars so) /\ Forall (con_sat x) (so_cons so) /\ Forall (em_sat x) (so_subs so).
Proof.
  intros x cx tr full s ch dis so CX N2 L1 L2 H V C SB R SS. unfold storage_model in H.
  pose proof (ok_pos _ CX) as NP.
  bnd H rl Erl. bnd H ru Eru. destruct (cap_limits cx (st_cap s)) as [lo hi] eqn:CL.
  bnd H lb Elb. bnd H ub Eub. bnd H cs Ecs. bnd H nd End. bnd H ceq Eceq. bnd H loss Eloss. bnd H ec Eec. bnd H ed Eed.
  bnd H f1 Ef1. bnd H f2 Ef2. bnd H iv_ Eiv. bnd H f3 Ef3. bnd H bal Ebal. bnd H io Eio. bnd H ends Eends. fin H.
  cbn [so_vars so_cons so_subs] in *. inversion V as [|? ? V1 V']; subst. inversion V' as [|? ? V2 _]; subst. simpl in C.
  inversion C as [|? ? C1 C']; subst. inversion C' as [|? ? C2 C3]; subst. clear V V' C C'.
  apply create_variable_spec in Ecs. apply create_variable_spec in End.
  assert (Lcs : v_len cs = (cx_n cx + 1)%nat) by (subst cs; auto).
  assert (Lnd : v_len nd = cx_n cx) by (subst nd; auto).
  assert (Ncs : v_label cs = vlabel full "charge_state") by (subst cs; auto).
  assert (Nnd : v_label nd = vlabel full "netto_discharge") by (subst nd; auto).
  assert (Bcs : v_lb cs = Some lb /\ v_ub cs = Some ub /\ v_fixed cs = None /\ v_bin cs = false) by (subst cs; auto).
  assert (Bnd : v_lb nd = None /\ v_ub nd = None /\ v_fixed nd = None /\ v_bin nd = false) by (subst nd; auto).
  destruct Bcs as [Blb [Bub [Bfx Bbn]]]. destruct Bnd as [Dlb [Dub [Dfx Dbn]]]. clear Ecs End.
  destruct (act_spec _ _ _ _ CX Erl) as [_ [Grl _]]. destruct (act_spec _ _ _ _ CX Eru) as [_ [Gru _]].
  destruct (act_spec _ _ _ _ CX Eloss) as [_ [Gl _]]. destruct (act_spec _ _ _ _ CX Eec) as [_ [Gc _]].
  destruct (act_spec _ _ _ _ CX Eed) as [_ [Gd _]].
  assert (GD : good (NV (cx_dt cx))) by (apply good_dt; auto).
  assert (G1 : good f1) by (eapply good_bcast2; eauto).
  assert (G2 : good f2) by (eapply good_bcast2; [exact Ef2|apply good_nmap; auto|auto]).
  assert (Gi : good iv_) by (apply ndiv_bcast in Eiv; eapply good_bcast2; [exact Eiv|apply good_NS|auto]).
  assert (G3 : good f3) by (eapply good_bcast2; eauto).
  destruct (nmul_scalar _ _ _ Elb) as [A [B D]]. destruct (nmul_scalar _ _ _ Eub) as [A' [B' D']].
  assert (W1 : is_scalar rl = true \/ nlen rl = (cx_n cx + 1)%nat).
  { destruct (lb_vector _ _ V1 Blb) as [X|X]; [left; rewrite <- A; auto|right; rewrite <- B, X; auto]. }
  assert (W2 : is_scalar ru = true \/ nlen ru = (cx_n cx + 1)%nat).
  { destruct (ub_vector _ _ V1 Bub) as [X|X]; [left; rewrite <- A'; auto|right; rewrite <- B', X; auto]. }
  assert (CL1 : forall t, (t <= cx_n cx)%nat -> is_scalar rl = true \/ (t < nlen rl)%nat) by (intros t Ht; destruct W1; [auto|right; lia]).
  assert (CL2 : forall t, (t <= cx_n cx)%nat -> is_scalar ru = true \/ (t < nlen ru)%nat) by (intros t Ht; destruct W2; [auto|right; lia]).
  assert (RL : forall t, (t <= cx_n cx)%nat -> at_ rl t == value (cx_idx cx) (st_relmin s) t) by (intros; eapply act_value; eauto).
  assert (RU : forall t, (t <= cx_n cx)%nat -> at_ ru t == value (cx_idx cx) (st_relmax s) t) by (intros; eapply act_value; eauto).
  assert (LV : Forall live [AddS cs (NS 1) (Some (seq 1 (cx_n cx))) false;
            AddS cs (nmap (fun q => q - 1) f1) (Some (seq 0 (cx_n cx))) false;
            AddS (fo_rate ch) f2 None false; AddS (fo_rate dis) f3 None false]).
  { repeat constructor; [apply live_some|apply live_some|apply live_none|apply live_none]; auto with num; try (apply seq_ne; auto); lia. }
  assert (EX : Exists (fun a => call_len a = cx_n cx) [AddS cs (NS 1) (Some (seq 1 (cx_n cx))) false;
            AddS cs (nmap (fun q => q - 1) f1) (Some (seq 0 (cx_n cx))) false;
            AddS (fo_rate ch) f2 None false; AddS (fo_rate dis) f3 None false]).
  { apply Exists_cons_hd. simpl. apply seq_length. }
  assert (F1 : fits (cx_n cx) f1).
  { apply (fits_nmap _ (fun q => q - 1)). eapply row_fits; [exact Ebal|exact LV|exact EX|]. simpl; auto. }
  assert (F2 : fits (cx_n cx) f2) by (eapply row_fits; [exact Ebal|exact LV|exact EX|]; simpl; auto).
  assert (F3 : fits (cx_n cx) f3) by (eapply row_fits; [exact Ebal|exact LV|exact EX|]; simpl; auto).
  destruct (fits_bcast2_inv _ _ _ _ _ Ef1 F1) as [Fl _].
  destruct (fits_bcast2_inv _ _ _ _ _ Ef2 F2) as [Fc _]. apply fits_nmap in Fc.
  destruct (fits_bcast2_inv _ _ _ _ _ Ef3 F3) as [Fi _].
  pose proof (ndiv_bcast _ _ _ Eiv) as Ei'. destruct (fits_bcast2_inv _ _ _ _ _ Ei' Fi) as [_ Fd].
  split; [|split].
  - constructor; [|constructor; [|constructor]].
    + apply var_sat_intro; auto; [rewrite Bbn; discriminate| |]; intros l i E Hi.
      * rewrite Blb in E. injection E as <-. assert (Hi' : (i <= cx_n cx)%nat) by lia. destruct (sr_bounds _ _ _ _ _ _ R i Hi') as [X _]. rewrite CL in X. cbn [fst] in X.
        rewrite D by (rewrite A, B; auto). rewrite (RL i Hi'), Ncs. exact X.
      * rewrite Bub in E. injection E as <-. assert (Hi' : (i <= cx_n cx)%nat) by lia. destruct (sr_bounds _ _ _ _ _ _ R i Hi') as [_ X]. rewrite CL in X. cbn [snd] in X.
        rewrite D' by (rewrite A', B'; auto). rewrite (RU i Hi'), Ncs. exact X.
    + apply var_sat_intro; auto; [rewrite Dbn; discriminate|rewrite Dlb; discriminate|rewrite Dub; discriminate].
  - cbn [app]. constructor; [|constructor].
    + rowi Eceq C1 (cx_n cx) t. rewrite Nnd, (sr_netto _ _ _ _ _ _ R t Hi). ring.
    + refine (con_sat_rows_n x _ _ _ _ _ (cx_n cx) Ebal C2 _ EX N2 _).
      * repeat constructor; apply plain_false.
      * intros t Ht.
        assert (Vd : at_ ed t == value (cx_idx cx) (st_eta_d s) t) by (eapply act_at; eauto).
        destruct (sr_balance _ _ _ _ _ _ R t Ht) as [NZ BAL].
        assert (A1 : at_ f1 t == value (cx_idx cx) (st_loss s) t * dt cx t).
        { unfold nmul in Ef1. rewrite (bcast2_at _ _ _ _ _ Ef1) by auto. rewrite at_dt by auto. rewrite (act_at _ _ _ _ _ CX Eloss Fl Ht). reflexivity. }
        assert (A2 : at_ f2 t == - (value (cx_idx cx) (st_eta_c s) t * dt cx t)).
        { unfold nmul in Ef2. rewrite (bcast2_at _ _ _ _ _ Ef2) by auto. rewrite at_dt by auto. rewrite nmap_at by auto.
          rewrite (act_at _ _ _ _ _ CX Eec Fc Ht). ring. }
        assert (A3 : at_ f3 t == / value (cx_idx cx) (st_eta_d s) t * dt cx t).
        { unfold nmul in Ef3. rewrite (bcast2_at _ _ _ _ _ Ef3) by auto. rewrite at_dt by auto.
          rewrite (bcast2_at _ _ _ _ _ Ei') by auto. rewrite at_NS, Vd. field. auto. }
        cbn [map call_lhs call_rhs rel]. rewrite !Qsum_cons. rewrite !pick_seq by (auto; lia). rewrite !pick_all by lia. rewrite at_NS.
        rewrite nmap_at by auto. rewrite A1, A2, A3. replace (1 + t)%nat with (S t) by lia. replace (0 + t)%nat with t by lia. rewrite Ncs.
        unfold rel. rewrite BAL. unfold Qdiv. cbn [Qsum fold_right]. ring.
    + unfold storage_ends in Eends. pose proof (sr_ends _ _ _ _ _ _ R) as RE. pose proof (sr_fmax _ _ _ _ _ _ R) as RX. pose proof (sr_fmin _ _ _ _ _ _ R) as RN.
      assert (EDS : forall cmax cmin c0, con_sat x c0 ->
         (match st_fmax s with None => Ok [] | Some q => c <- create_equation full "eq_final_charge_state_max" KIneq [AddS cs (NS 1) (Some [cx_n cx]) false; AddC (NS q)] ;; Ok [c] end) = Ok cmax ->
         (match st_fmin s with None => Ok [] | Some q => c <- create_equation full "eq_charge_state_end_min" KIneq [AddS cs (NS (-1)) (Some [cx_n cx]) false; AddC (NS (- q))] ;; Ok [c] end) = Ok cmin ->
         st_init s <> ICNone -> Forall c_translates (c0 :: cmax ++ cmin) -> Forall (con_sat x) (c0 :: cmax ++ cmin)).
      { intros cmax cmin c0 K0 Emax Emin NI TT. constructor; auto. inversion TT as [|? ? _ TT']; subst. apply Forall_app in TT'. destruct TT' as [TM TN]. apply Forall_app. split.
        - destruct (st_fmax s) as [q|] eqn:Q; [|fin Emax; constructor]. bnd Emax k Ek. fin Emax. inversion TM as [|? ? TK _]; subst. constructor; [|constructor].
          rowi Ek TK 1%nat i. rewrite Ncs. specialize (RX q NI eq_refl). lra.
        - destruct (st_fmin s) as [q|] eqn:Q; [|fin Emin; constructor]. bnd Emin k Ek. fin Emin. inversion TN as [|? ? TK _]; subst. constructor; [|constructor].
          rowi Ek TK 1%nat i. rewrite Ncs. specialize (RN q NI eq_refl). lra. }
      destruct (st_init s) eqn:SI.
      * fin Eends. constructor.
      * bnd Eends c0 Ec0. bnd Eends cmax Ecmax. bnd Eends cmin Ecmin. fin Eends. apply EDS; auto; [|discriminate]. inversion C3 as [|? ? K0 _]; subst.
        rowi Ec0 K0 1%nat i. rewrite Ncs, RE. lra.
      * bnd Eends c0 Ec0. bnd Eends cmax Ecmax. bnd Eends cmin Ecmin. fin Eends. apply EDS; auto; [|discriminate]. inversion C3 as [|? ? K0 _]; subst.
        rowi Ec0 K0 1%nat i. rewrite Ncs, RE. lra.
      * discriminate Eends.
  - destruct (st_cap s) as [q|iv] eqn:CP; [fin Eio; constructor|]. bnd Eio i Ei. fin Eio. constructor; [|constructor].
    inversion SB as [|? ? T1 _]; subst. simpl in SS. rewrite app_nil_r in SS.
    destruct (sr_inv _ _ _ _ _ _ R iv CP) as [I1 [I2 I3]].
    refine (invest_admits x cx tr full iv cs rl ru None None i (cx_n cx + 1) Lcs ltac:(lia) _ ltac:(discriminate) ltac:(discriminate) Ei T1 I1 I2 _ SS).
    + intros _. split; [destruct W1 as [W|W]; [left; apply scalar_len; auto|auto]|destruct W2 as [W|W]; [left; apply scalar_len; auto|auto]].
    + intros t Ht. rewrite Lcs in Ht. assert (Ht' : (t <= cx_n cx)%nat) by lia. destruct (I3 t Ht') as [X Y]. rewrite (RU t Ht'), (RL t Ht'), Ncs. auto.
Qed.
