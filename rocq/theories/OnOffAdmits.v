(** The on/off rows are not only necessary but sufficient: an assignment obeying them satisfies the whole on/off model. *)
From Verif Require Import Base BaseFacts MathModel Spec MathFacts MathTotal Structure StructureFacts Params Features Elements System SysSpec
  CtxFacts ReadTools InvestFacts OnOffFacts OnOffLaws.

(** Everything in the tree can be handed to the solver. *)
Definition v_translates (v : variable) : Prop := exists p, translate_variable v = Ok p.
Definition c_translates (c : constraint) : Prop := exists rows, translate_constraint c = Ok rows.
Definition em_translates (m : emodel) : Prop :=
  forall m', In m' (flat m) -> Forall v_translates (em_vars m') /\ Forall c_translates (em_cons m').

Lemma em_sat_translates : forall x m, em_sat x m -> em_translates m.
Proof.
  intros x m H m' Hm. destruct (H m' Hm) as [V C]. split; eapply Forall_impl; try eassumption.
  - intros v [p [P _]]. exists p; auto.
  - intros c [r [P _]]. exists r; auto.
Qed.

Lemma con_sat_rows : forall x k model label calls c n,
  create_equation model label k calls = Ok c -> c_translates c -> Forall plain calls ->
  Forall (fun a => call_len a = 1%nat \/ call_len a = n) calls -> n <> 0%nat ->
  (forall i, (i < n)%nat -> rel k (Qsum (map (call_lhs x i) calls)) (Qsum (map (call_rhs i) calls))) -> con_sat x c.
Proof.
  intros x k model label calls c n H [rows T] P L N R. eapply con_sat_intro; eauto. intros i Hi. apply R.
  destruct (row_count _ _ _ _ _ _ H L); lia.
Qed.

Lemma var_sat_intro : forall x v, v_translates v -> v_fixed v = None ->
  (v_bin v = true -> forall i, (i < v_len v)%nat -> bin (x (v_label v) i)) ->
  (forall l i, v_lb v = Some l -> (i < v_len v)%nat -> at_ l i <= x (v_label v) i) ->
  (forall l i, v_ub v = Some l -> (i < v_len v)%nat -> x (v_label v) i <= at_ l i) -> var_sat x v.
Proof.
  intros x v [p T] Fx B L U. exists p. split; auto. destruct (translate_variable_spec _ _ T) as [Lb E].
  intros i e He. rewrite E in He. rewrite nth_error_map in He. destruct (nth_error (seq 0 (v_len v)) i) as [j|] eqn:J; [|discriminate].
  assert (Hi : (i < v_len v)%nat) by (rewrite <- (seq_length (v_len v) 0); apply nth_error_Some; congruence).
  rewrite (nth_error_nth' _ 0%nat) in J by (rewrite seq_length; auto). rewrite seq_nth in J by auto. injection J as <-.
  injection He as <-. unfold entry_of, entry_ok. rewrite Fx. simpl. rewrite Lb.
  repeat split.
  - intros Hb. apply B; auto.
  - intros l Hl. destruct (v_lb v) as [lb|] eqn:El; [|discriminate]. injection Hl as <-. apply L; auto.
  - intros l Hl. destruct (v_ub v) as [lb|] eqn:El; [|discriminate]. injection Hl as <-. apply U; auto.
Qed.

Ltac len1 := match goal with
  | |- Forall _ [] => constructor
  | |- Forall _ (_ :: _) => constructor
  | |- _ => cbn [call_len nlen length Nat.eqb]; repeat rewrite seq_length; repeat rewrite map_length; cbn [v_len]; try tauto; try lia
  end.
(** [rowi E T n i]: to satisfy the equation built in [E] show each of its [n] rows. *)
Ltac rowi E T nn i :=
  let Hi := fresh "Hi" in
  refine (con_sat_rows _ _ _ _ _ _ nn E T _ _ _ _);
  [repeat constructor; try apply plain_false | repeat len1 | try lia
  |intros i Hi; cbn [map Qsum fold_right call_lhs call_rhs rel v_label v_len app flat_map];
   repeat first [ rewrite pick_one | rewrite pick_all by (simpl; auto; lia) | rewrite pick_scalar by (simpl; auto)
                | rewrite pick_seq by (simpl; auto; lia) ];
   repeat rewrite at_NS; cbn [v_label v_len]].

Lemma duration_admits : forall x cx tr full label b dmin dmax du pv prev,
  ctx_ok cx -> (2 <= cx_n cx)%nat -> v_len b = cx_n cx ->
  duration_model cx tr full label b dmin dmax = Ok du -> v_translates (du_var du) -> Forall c_translates (du_cons du) ->
  (forall p m, dmin = Some p -> act cx true p = Ok m -> nlen m = 1%nat \/ nlen m = cx_n cx) ->
  (forall p m, dmax = Some p -> act cx true p = Ok m -> fits (cx_n cx) m) ->
  prev_of b = Ok (Some pv) -> consecutive_duration (cx_eps cx) pv (cx_prev cx) = Ok prev ->
  (forall t, (t < cx_n cx)%nat -> bin (x (v_label b) t)) -> 0 <= cx_total cx + prev ->
  duration_rows cx (fun t => x (v_label b) t) (fun t => x (vlabel full label) t) prev dmin dmax ->
  var_sat x (du_var du) /\ Forall (con_sat x) (du_cons du).
Proof.
  intros x cx tr full label b dmin dmax du pv' prev' CX N Lb H V C Fmin Fmax Hpv Hprev Bb M0 R. unfold duration_model in H.
  bnd H pv0 Epv. bnd H pv Epv'. bnd H prev Eprev. bnd H mx Emx. bnd H u1 Ehd. bnd H d Ed.
  bnd H c1 E1. bnd H c2a E2a. bnd H c2b E2b. bnd H cmin Emin. bnd H dt0 Edt0. bnd H cf Ef. apply Ok_inj in H. subst du.
  simpl in V, C. unfold of_option in Epv'. destruct pv0; [apply Ok_inj in Epv'; subst n|discriminate].
  assert (pv = pv') by congruence. subst pv'. assert (prev = prev') by congruence. subst prev'. clear Hpv Hprev.
  apply create_variable_spec in Ed.
  assert (Ld : v_len d = cx_n cx) by (subst d; reflexivity).
  assert (Nd : v_label d = vlabel full label) by (subst d; reflexivity).
  inversion C as [|? ? S1 C']; subst. inversion C' as [|? ? S2a C'']; subst. inversion C'' as [|? ? S2b C3]; subst. clear C C' C''.
  apply Forall_app in C3. destruct C3 as [Cmin Cf]. inversion Cf as [|? ? Sf _]; subst. clear Cf.
  pose proof (ok_n _ CX) as OKn.
  assert (Ldt : length (tl (cx_dt cx)) = (cx_n cx - 1)%nat) by (destruct (cx_dt cx); simpl in *; lia).
  assert (Ltl : forall t, (S t < cx_n cx)%nat -> at_ (NV (tl (cx_dt cx))) t = dt cx (S t)).
  { intros t Ht. rewrite at_NV by lia. unfold dt. destruct (cx_dt cx); simpl; auto. destruct t; auto. }
  set (mega := cx_total cx + prev) in *.
  set (D := mkVariable _ _ _ _ _ _ _ _ _) in *.
  assert (LD : v_len D = cx_n cx) by reflexivity. assert (ND : v_label D = vlabel full label) by reflexivity.
  unfold idx_next, idx_prev in *. simpl du_var. simpl du_cons.
  assert (DO : forall t, (t < cx_n cx)%nat -> x (vlabel full label) t <= mega).
  { intros t Ht. pose proof (du_off _ _ _ _ _ _ R t Ht) as Z. pose proof (du_nonneg _ _ _ _ _ _ R t Ht) as Z'.
    fold mega in Z. destruct (Bb t Ht) as [B|B]; rewrite B in Z; lra. }
  split.
  { apply var_sat_intro; auto; try discriminate.
    - intros l i El Hi. injection El as <-. rewrite at_NS. rewrite ND. apply (du_nonneg _ _ _ _ _ _ R); auto.
    - intros l i El Hi. rewrite ND. cbn [v_ub D] in El. apply (f_equal (fun o => match o with Some a => a | None => NS 0 end)) in El. cbv beta iota in El. subst l. destruct dmax as [p|].
      + simpl in Emx. bnd Emx m Em. fin Emx.
        destruct (act_spec _ _ _ _ CX Em) as [-> [_ A]]. rewrite (A i Hi (Fmax p m eq_refl Em i Hi)).
        apply (du_max _ _ _ _ _ _ R p i eq_refl Hi).
      + simpl in Emx. apply Ok_inj in Emx. subst mx. rewrite at_NS. auto. }
  constructor; [|constructor; [|constructor; [|apply Forall_app; split; [|constructor; [|constructor]]]]].
  - rowi E1 S1 (cx_n cx) i. rewrite ND. pose proof (du_off _ _ _ _ _ _ R i Hi) as Z. fold mega in Z. cbv beta in Z. lra.
  - rowi E2a S2a (cx_n cx - 1)%nat i. rewrite ND, Ltl by lia. cbn [Nat.add].
    assert (Hs : (S i < cx_n cx)%nat) by lia. pose proof (du_up _ _ _ _ _ _ R i Hs) as Z. cbv beta in Z. lra.
  - rowi E2b S2b (cx_n cx - 1)%nat i. rewrite ND. rewrite at_map by lia. rewrite Ltl by lia. cbn [Nat.add].
    assert (Hs : (S i < cx_n cx)%nat) by lia. pose proof (du_low _ _ _ _ _ _ R i Hs) as Z. fold mega in Z. cbv beta in Z. lra.
  - destruct dmin as [p|]; [|apply Ok_inj in Emin; subst cmin; constructor].
    bnd Emin m Em. destruct (act_spec _ _ _ _ CX Em) as [-> [G A]].
    pose proof (Fmin p m eq_refl Em) as Lm. assert (F : fits (cx_n cx) m) by (apply fits_len; auto).
    destruct (du_min _ _ _ _ _ _ R p eq_refl m Em F) as [R1 R2].
    bnd Emin e1 Ee1. bnd Emin fst_ Efst. apply nhead_at in Efst.
    assert (Efst' : value (cx_idx cx) p 0 == fst_) by (rewrite <- A by (try apply F; lia); rewrite Efst; reflexivity).
    set (used := match m with NS q => NS q | NV l => NV (removelast l) end) in *.
    assert (U : (forall t, (S t < cx_n cx)%nat -> at_ used t = at_ m t) /\ (nlen used = 1%nat \/ nlen used = (cx_n cx - 1)%nat)).
    { subst used. destruct m as [q|l]; [split; [auto|left; auto]|].
      pose proof (act_vec_len _ _ _ _ CX N Em) as L2. simpl in Lm. split.
      - intros t Ht.
        specialize (F (S t) Ht). simpl in F. rewrite at_NV by (rewrite removelast_len; lia).
        rewrite at_NV by lia. apply removelast_nth. lia.
      - simpl. rewrite removelast_len. lia. }
    destruct U as [U LU].
    assert (FU : fits (cx_n cx - 1) used) by (apply fits_len; auto).
    assert (Cmin1 : c_translates e1).
    { destruct (_ && _)%bool in Emin; inv_ok; inversion Cmin; auto. }
    assert (K : con_sat x e1).
    { refine (con_sat_rows _ _ _ _ _ _ (cx_n cx - 1)%nat Ee1 Cmin1 _ _ _ _).
      - repeat constructor.
      - repeat (apply Forall_cons || apply Forall_nil); cbn [call_len]; repeat rewrite seq_length; rewrite ?nmap_len; cbn [nlen Nat.eqb]; try tauto;
          destruct (Nat.eqb (nlen used) 1); auto.
      - lia.
      - intros i Hi. cbn [map Qsum fold_right call_lhs call_rhs rel]. rewrite !pick_seq by lia. rewrite nmap_at by (apply FU; auto).
        rewrite at_NS. rewrite U by lia. rewrite A by (try apply F; lia). rewrite ND. cbn [Nat.add].
        assert (Hs : (S i < cx_n cx)%nat) by lia. specialize (R1 i Hs). simpl in R1. lra. }
    destruct (negb (Qle_bool prev 0) && negb (Qle_bool fst_ prev))%bool eqn:X.
    + bnd Emin e2 Ee2. fin Emin. inversion Cmin as [|? ? _ Cm2]; subst. inversion Cm2 as [|? ? Cm3 _]; subst.
      constructor; [exact K|constructor; [|constructor]].
      rowi Ee2 Cm3 1%nat i. apply andb_true_iff in X. destruct X as [X1 X2].
      apply negb_true_iff in X1, X2.
      assert (P1 : 0 < prev) by (apply Qnot_le_lt; intros Q; apply Qle_bool_iff in Q; congruence).
      assert (P2 : prev < at_ m 0) by (apply Qnot_le_lt; intros Q; apply Qle_bool_iff in Q; congruence).
      rewrite Efst' in R2. specialize (R2 P1 P2). lra.
    + fin Emin. constructor; [exact K|constructor].
  - rowi Ef Sf 1%nat i. rewrite ND.
    unfold of_option in Edt0. destruct (nth_error (cx_dt cx) 0) eqn:X; [|discriminate]. apply Ok_inj in Edt0. subst q.
    pose proof (du_first _ _ _ _ _ _ R) as Z. unfold dt in Z. rewrite (nth_error_nth _ _ 0 X) in Z. cbv beta in Z. lra.
Qed.

Lemma switch_admits : forall x cx full on son soff nr prev_on cs last,
  ctx_ok cx -> (2 <= cx_n cx)%nat -> v_len on = cx_n cx -> v_len son = cx_n cx -> v_len soff = cx_n cx -> v_len nr = 1%nat ->
  switch_constraints cx full on son soff nr prev_on = Ok cs -> Forall c_translates cs ->
  nth_error (rev prev_on) 0 = Some last ->
  switch_rows cx (x (v_label on)) (x (v_label son)) (x (v_label soff)) (x (v_label nr) 0%nat) last -> Forall (con_sat x) cs.
Proof.
  intros x cx full on son soff nr prev_on cs last CX N L1 L2 L3 L4 H C El' R. unfold switch_constraints in H.
  bnd H c1 E1. bnd H lq El. bnd H c2 E2. bnd H c3 E3. bnd H c4 E4. fin H.
  inversion C as [|? ? S1 C1]; subst. inversion C1 as [|? ? S2 C2]; subst. inversion C2 as [|? ? S3 C3]; subst.
  inversion C3 as [|? ? S4 _]; subst. clear C C1 C2 C3.
  assert (lq = last) by (destruct (rev prev_on); [discriminate|]; simpl in El'; congruence). subst lq.
  unfold idx_next, idx_prev in *. repeat (apply Forall_cons || apply Forall_nil).
  - rowi E1 S1 (cx_n cx - 1)%nat i. cbn [Nat.add]. assert (Hs : (S i < cx_n cx)%nat) by lia.
    pose proof (sw_next _ _ _ _ _ _ R i Hs). lra.
  - rowi E2 S2 1%nat i. pose proof (sw_first _ _ _ _ _ _ R). lra.
  - rowi E3 S3 (cx_n cx) i. pose proof (sw_excl _ _ _ _ _ _ R i Hi). lra.
  - rowi E4 S4 1%nat i. pose proof (sw_nr _ _ _ _ _ _ R) as Z.
    assert (X : sumn (v_len son) (fun j => at_ (NS (-1)) j * x (v_label son) j) == - sumn (cx_n cx) (x (v_label son))).
    { rewrite L2. unfold sumn. induction (seq 0 (cx_n cx)) as [|a l IH]; [reflexivity|]. cbn [map]. rewrite !Qsum_cons, IH, at_NS. ring. }
    rewrite X. assert (i = 0%nat) by lia. subst i. lra.
Qed.

Lemma call_len_f : forall v f idx n, nlen f = 1%nat \/ nlen f = n ->
  (match idx with None => v_len v | Some l => length l end = n) -> call_len (AddS v f idx false) = n.
Proof.
  intros v f idx n L H. cbn [call_len]. destruct (Nat.eqb (nlen f) 1) eqn:E; auto. apply Nat.eqb_neq in E. lia.
Qed.
Lemma create_lens : forall k model label calls c, create_equation model label k calls = Ok c ->
  forall a, In a calls -> call_len a = 1%nat \/ call_len a = c_len c.
Proof. intros k model label calls c H. apply build_built in H. destruct H as [_ _ _ _ B5 _ _ _ _]. exact B5. Qed.

(** Rows of an equation of which one part has [n] entries. *)
Lemma con_sat_rows_n : forall x k model label calls c n,
  create_equation model label k calls = Ok c -> c_translates c -> Forall plain calls ->
  Exists (fun a => call_len a = n) calls -> (2 <= n)%nat ->
  (forall i, (i < n)%nat -> rel k (Qsum (map (call_lhs x i) calls)) (Qsum (map (call_rhs i) calls))) -> con_sat x c.
Proof.
  intros x k model label calls c n H [rows T] P L N R. eapply con_sat_intro; eauto. intros i Hi. apply R.
  apply Exists_exists in L. destruct L as [a [Ha La]]. destruct (create_lens _ _ _ _ _ H a Ha); lia.
Qed.

Lemma on_admits : forall x cx full on vars bounds bounds' cs,
  ctx_ok cx -> (2 <= cx_n cx)%nat ->
  mapM (fun b : numeric * numeric => l <- nmax (fst b) (NS (cx_eps cx)) ;; Ok (l, snd b)) bounds = Ok bounds' ->
  length vars = length bounds -> (forall v, In v vars -> v_len v = cx_n cx) ->
  (forall b, In b bounds -> good (fst b) /\ good (snd b)) ->
  v_len on = cx_n cx -> (forall t, (t < cx_n cx)%nat -> bin (x (v_label on) t)) ->
  on_constraints cx full on vars bounds' = Ok cs -> Forall c_translates cs ->
  coupled x cx (v_label on) vars bounds -> Forall (con_sat x) cs.
Proof.
  intros x cx full on vars bounds bounds' cs CX N Rs Lv Nv G Lon Bin H C K.
  pose proof (ok_pos _ CX) as Np. pose proof (raise_spec _ _ _ Rs) as R2.
  assert (Nz : seq 0 (cx_n cx) <> []) by (apply seq_ne; auto).
  unfold on_constraints in H. destruct vars as [|v vars]; [discriminate|].
  destruct vars as [|w vars].
  - destruct bounds as [|b [|? ?]]; try discriminate. inversion R2 as [|? b' ? ? [Rl Rr] R2']; subst. inversion R2'; subst.
    destruct b as [lb ub], b' as [lb' ub']. simpl in Rl, Rr. subst ub'.
    bnd H l El. bnd H c1 E1. bnd H c2 E2. fin H.
    inversion C as [|? ? S1 C']; subst. inversion C' as [|? ? S2 _]; subst.
    destruct (G _ (or_introl eq_refl)) as [G1 G2]. simpl in G1, G2.
    assert (Gl' : good lb') by (eapply good_bcast2; [exact Rl|auto|apply good_NS]).
    assert (Gl : good l) by (eapply good_bcast2; [exact El|apply good_NS|auto]).
    assert (Lw : v_len v = cx_n cx) by (apply Nv; left; auto).
    assert (F1 : fits (cx_n cx) l) by (eapply row_fits; [exact E1|live_tac|ex_tac|right; left; reflexivity]).
    assert (F2 : fits (cx_n cx) ub)
      by (apply (fits_nmap _ Qopp); eapply row_fits; [exact E2|live_tac|ex_tac|right; left; reflexivity]).
    destruct (fits_bcast2_inv _ _ _ _ _ El F1) as [_ F1'].
    destruct (fits_bcast2_inv _ _ _ _ _ Rl F1') as [F1'' _].
    repeat (apply Forall_cons || apply Forall_nil).
    + refine (con_sat_rows_n _ _ _ _ _ _ (cx_n cx) E1 S1 _ _ N _); [repeat constructor|ex_tac|].
      intros i Hi. cbn [map Qsum fold_right call_lhs call_rhs rel]. rewrite !pick_seq by lia. rewrite at_NS. cbn [Nat.add].
      rewrite (bcast2_at _ _ _ _ _ El (F1 i Hi)). rewrite (bcast2_at _ _ _ _ _ Rl (F1' i Hi)). rewrite !at_NS.
      destruct (K i Hi) as [[K1 K2] K3]. unfold bin in *.
      destruct (Bin i Hi) as [B|B]; rewrite B in *; [lra|].
      assert (Qmax_ (cx_eps cx) (Qmax_ (at_ lb i) (cx_eps cx)) <= x (v_label v) i) by (repeat apply Qmax_lub; lra). lra.
    + refine (con_sat_rows_n _ _ _ _ _ _ (cx_n cx) E2 S2 _ _ N _); [repeat constructor|ex_tac|].
      intros i Hi. cbn [map Qsum fold_right call_lhs call_rhs rel]. rewrite !pick_seq by lia. rewrite at_NS. cbn [Nat.add].
      rewrite nmap_at by auto. destruct (K i Hi) as [_ K3]. unfold rate_sum in K3. simpl in K3. lra.
  - set (vs := v :: w :: vars) in *.
    assert (Hc : exists total c1 c2,
       foldM (fun acc (b : numeric * numeric) => nadd acc (snd b)) bounds' (NS 0) = Ok total
       /\ create_equation full "On_Constraint_1" KIneq
              (map (fun v => AddS v (NS (-1)) (Some (seq 0 (cx_n cx))) false) vs ++
               [AddS on (NS (cx_eps cx)) (Some (seq 0 (cx_n cx))) false]) = Ok c1
       /\ create_equation full "On_Constraint_2" KIneq
              (map (fun v => AddS v (NS (1 / inject_Z (Z.of_nat (length vs)))) (Some (seq 0 (cx_n cx))) false) vs ++
               [AddS on (nmap (fun q => - (q / inject_Z (Z.of_nat (length vs)))) total) (Some (seq 0 (cx_n cx))) false]) = Ok c2
       /\ cs = [c1; c2]).
    { bnd H total Et. bnd H c1 E1. bnd H c2 E2. fin H. eauto 10. }
    destruct Hc as [total [c1 [c2 [Et [E1 [E2 ->]]]]]]. clear H.
    inversion C as [|? ? S1 C']; subst. inversion C' as [|? ? S2 _]; subst.
    set (k := inject_Z (Z.of_nat (length vs))) in *.
    assert (Kp : 0 < k).
    { subst k. change 0 with (inject_Z 0). rewrite <- Zlt_Qlt. subst vs. simpl length. lia. }
    assert (Snd : map snd bounds' = map snd bounds).
    { clear - R2. induction R2 as [|b b' ? ? [_ E] _ IH]; simpl; congruence. }
    assert (Gb' : forall b, In b bounds' -> good (snd b)).
    { intros b Hb. apply (in_map snd) in Hb. rewrite Snd in Hb. apply in_map_iff in Hb. destruct Hb as [b0 [<- Hb]].
      apply G; auto. }
    pose proof (sum_ubs_good _ _ _ Gb' (good_NS 0) Et) as Gt.
    assert (L1 : Forall live (map (fun v => AddS v (NS (1 / k)) (Some (seq 0 (cx_n cx))) false) vs ++
               [AddS on (nmap (fun q => - (q / k)) total) (Some (seq 0 (cx_n cx))) false])).
    { apply Forall_app. split; [apply Forall_live_map; auto with num|]. live_tac. }
    assert (X1 : Exists (fun a => call_len a = cx_n cx) (map (fun v => AddS v (NS (1 / k)) (Some (seq 0 (cx_n cx))) false) vs ++
               [AddS on (nmap (fun q => - (q / k)) total) (Some (seq 0 (cx_n cx))) false])).
    { subst vs. apply Exists_cons_hd. simpl. apply seq_length. }
    assert (Ft : fits (cx_n cx) total).
    { apply (fits_nmap _ (fun q => - (q / k))). eapply row_fits; [exact E2|exact L1|exact X1|].
      apply in_or_app. right. left. reflexivity. }
    destruct (sum_ubs _ _ _ _ Gb' Et Ft) as [_ [Fb At]].
    assert (K' : forall t, (t < cx_n cx)%nat -> x (v_label on) t * cx_eps cx <= rate_sum x vs t
               /\ rate_sum x vs t <= x (v_label on) t * Qsum (map (fun b => at_ (snd b) t) bounds)) by (exact K).
    repeat (apply Forall_cons || apply Forall_nil).
    + refine (con_sat_rows_n _ _ _ _ _ _ (cx_n cx) E1 S1 _ _ N _);
        [apply Forall_app; split; [apply Forall_plain_map|repeat constructor]|subst vs; apply Exists_cons_hd; simpl; apply seq_length|].
      intros i Hi. cbn [rel]. rewrite !map_app, !Qsum_app. rewrite (Qsum_lhs_map _ _ _ _ (cx_n cx) Nv Hi), Qsum_rhs_map.
      cbn [map Qsum fold_right call_lhs call_rhs]. rewrite pick_seq by auto. rewrite at_NS. cbn [Nat.add].
      destruct (K' i Hi) as [K1 K2]. lra.
    + refine (con_sat_rows_n _ _ _ _ _ _ (cx_n cx) E2 S2 _ _ N _);
        [apply Forall_app; split; [apply Forall_plain_map|repeat constructor]|exact X1|].
      intros i Hi. cbn [rel]. rewrite !map_app, !Qsum_app. rewrite (Qsum_lhs_map _ _ _ _ (cx_n cx) Nv Hi), Qsum_rhs_map.
      cbn [map Qsum fold_right call_lhs call_rhs]. rewrite pick_seq by auto. cbn [Nat.add].
      rewrite nmap_at by auto. rewrite At by auto. rewrite at_NS.
      assert (SS : Qsum (map (fun b => at_ (snd b) i) bounds') = Qsum (map (fun b => at_ (snd b) i) bounds)).
      { rewrite <- (map_map snd (fun s => at_ s i) bounds'), Snd, map_map. reflexivity. }
      rewrite SS. set (U := Qsum (map (fun b => at_ (snd b) i) bounds)) in *.
      destruct (K' i Hi) as [K1 K2]. fold U in K2. set (r := rate_sum x vs i) in *. set (o := x (v_label on) i) in *.
      assert (Q4 : 1 / k * r + (- ((0 + U) / k) * o + 0) == (r - U * o) * / k) by (field; lra).
      rewrite Q4. assert (Ki : 0 <= / k) by (apply Qinv_le_0_compat; lra).
      assert (Q5 : (r - U * o) * / k <= 0 * / k) by (apply Qmult_le_compat_r; [lra|auto]). lra.
Qed.

(** What it takes for limits on durations to be usable. *)
Definition dur_data (cx : ctx) (dmin dmax : option param) : Prop :=
  (forall p m, dmin = Some p -> act cx true p = Ok m -> nlen m = 1%nat \/ nlen m = cx_n cx)
  /\ (forall p m, dmax = Some p -> act cx true p = Ok m -> fits (cx_n cx) m).

Theorem onoff_admits : forall x cx tr elem p vars bounds o prev_on,
  ctx_ok cx -> (forall v, In v vars -> v_len v = cx_n cx) -> (forall b, In b bounds -> good (fst b) /\ good (snd b)) ->
  dur_data cx (oo_con_min p) (oo_con_max p) -> dur_data cx (oo_coff_min p) (oo_coff_max p) ->
  onoff_model cx tr elem p vars bounds = Ok o -> em_translates (ot_tree o) ->
  previous_on_values (cx_eps cx) vars = Ok prev_on -> onoff_rows x cx elem p prev_on vars bounds ->
  (forall prev, use_con p = true -> consecutive_duration (cx_eps cx) (NV prev_on) (cx_prev cx) = Ok prev -> 0 <= cx_total cx + prev) ->
  (forall prev, use_coff p = true -> consecutive_duration (cx_eps cx) (NV (map (fun q => 1 - q) prev_on)) (cx_prev cx) = Ok prev -> 0 <= cx_total cx + prev) ->
  em_sat x (ot_tree o).
Proof.
  intros x cx tr elem p vars bounds o prev_on' CX Lv G D1 D2 H T Hp R M1 M2. unfold onoff_model in H.
  bnd H bounds' Eb. bnd H u1 Elen. bnd H prev_on Ep0. bnd H on Eon. bnd H tot Etot. bnd H ctot Ectot. bnd H con Econ.
  bnd H vo Evo. destruct vo as [voff coff]. bnd H vd1 Ed1. destruct vd1 as [v1 k1]. bnd H vd2 Ed2. destruct vd2 as [v2 k2].
  bnd H vs3 Es3. destruct vs3 as [[v3 k3] sw]. bnd H sh1 Esh1. bnd H sh2 Esh2. bnd H m Em. fin H. simpl in T |- *.
  apply mk_em_spec in Em. destruct Em as [-> _].
  assert (prev_on' = prev_on) by congruence. subst prev_on'. clear Hp.
  destruct (T _ (flat_self _)) as [V C]. simpl in V, C. clear T.
  unfold assert_ in Elen. destruct (Nat.eqb _ _) eqn:Elen' in Elen; [|discriminate]. apply Nat.eqb_eq in Elen'. clear Elen.
  apply create_variable_spec in Eon. apply create_variable_spec in Etot.
  change (vlabel (model_full elem (Some "OnOff"))) with (oo elem) in *.
  unfold use_switch_on in Es3. cbn [orb] in Es3.
  bnd Es3 son Eson. bnd Es3 soff Esoff. bnd Es3 nr Enr. bnd Es3 u2 Ets. bnd Es3 ks Eks. apply Ok_inj in Es3. inversion Es3; subst v3 k3 sw. clear Es3.
  apply create_variable_spec in Eson. apply create_variable_spec in Esoff. apply create_variable_spec in Enr.
  change (vlabel (model_full elem (Some "OnOff"))) with (oo elem) in *.
  unfold guard in Ets. destruct (v_ts on) eqn:Ts in Ets; [|discriminate]. clear Ets.
  assert (N2 : (2 <= cx_n cx)%nat) by (subst on; simpl in Ts; apply Nat.ltb_lt in Ts; lia).
  assert (Lon : v_len on = cx_n cx) by (subst on; auto). assert (Non : v_label on = oo elem "on") by (subst on; auto).
  assert (Pon : prev_of on = Ok (Some (NV prev_on))).
  { subst on. unfold prev_of. simpl in *. rewrite Ts. reflexivity. }
  change (Forall v_translates ([on; tot] ++ voff ++ v1 ++ v2 ++ [son; soff; nr])) in V.
  change (Forall c_translates ([ctot] ++ con ++ coff ++ k1 ++ k2 ++ ks)) in C.
  rewrite !Forall_app in V. rewrite !Forall_app in C. destruct V as [V0 [Voff [V1 [V2 V3]]]]. destruct C as [Ct [Cc [Coff [Ck1 [Ck2 Ck3]]]]].
  assert (Bon : forall t, (t < cx_n cx)%nat -> bin (x (v_label on) t)) by (rewrite Non; apply (oo_bin _ _ _ _ _ _ _ R)).
  assert (Soff : Forall (var_sat x) voff /\ Forall (con_sat x) coff
            /\ (use_coff p = true -> exists off, voff = [off] /\ v_label off = oo elem "off" /\ v_len off = cx_n cx
                 /\ prev_of off = Ok (Some (NV (map (fun q => 1 - q) prev_on))))).
  { unfold use_off in Evo. destruct (use_coff p) eqn:U.
    - bnd Evo off Eoff. bnd Evo c Ec. apply Ok_inj in Evo. inversion Evo; subst voff coff. clear Evo.
      apply create_variable_spec in Eoff. change (vlabel (model_full elem (Some "OnOff"))) with (oo elem) in *.
      inversion Voff as [|? ? To _]; subst. inversion Coff as [|? ? Tc _]; subst.
      pose proof (oo_off _ _ _ _ _ _ _ R U) as RO. split; [|split].
      + constructor; [|constructor]. apply var_sat_intro; auto; try discriminate. intros _ i Hi. simpl. apply RO. exact Hi.
      + constructor; [|constructor]. rowi Ec Tc (cx_n cx) i. cbn [Nat.add]. destruct (RO i Hi) as [_ Z]. lra.
      + intros _. eexists. split; [reflexivity|]. repeat split. unfold prev_of. simpl in *. rewrite Ts. reflexivity.
    - apply Ok_inj in Evo. inversion Evo; subst. repeat split; try constructor. discriminate. }
  destruct Soff as [SVo [SCo SO]].
  assert (Sd1 : Forall (var_sat x) v1 /\ Forall (con_sat x) k1).
  { destruct (use_con p) eqn:U; [|apply Ok_inj in Ed1; inversion Ed1; split; constructor].
    bnd Ed1 du Edu. apply Ok_inj in Ed1. inversion Ed1; subst v1 k1. inversion V1 as [|? ? Tv _]; subst.
    destruct (oo_con _ _ _ _ _ _ _ R U) as [prev [P1 P2]]. destruct D1 as [Da Db].
    destruct (duration_admits x cx _ _ _ _ _ _ _ _ _ CX N2 Lon Edu Tv Ck1 Da Db Pon P1 Bon (M1 _ eq_refl P1) P2). split; auto. }
  assert (Sd2 : Forall (var_sat x) v2 /\ Forall (con_sat x) k2).
  { destruct (use_coff p) eqn:U; [|apply Ok_inj in Ed2; inversion Ed2; split; constructor].
    destruct (SO eq_refl) as [off [-> [No [Lo Po]]]].
    bnd Ed2 off' Eo. simpl in Eo. apply Ok_inj in Eo. subst off'.
    bnd Ed2 du Edu. apply Ok_inj in Ed2. inversion Ed2; subst v2 k2. inversion V2 as [|? ? Tv _]; subst.
    destruct (oo_coff _ _ _ _ _ _ _ R U) as [prev [P1 P2]]. destruct D2 as [Da Db].
    assert (Bo : forall t, (t < cx_n cx)%nat -> bin (x (v_label off) t)).
    { rewrite No. intros t Ht. apply (oo_off _ _ _ _ _ _ _ R U t Ht). }
    rewrite <- No in P2.
    destruct (duration_admits x cx _ _ _ _ _ _ _ _ _ CX N2 Lo Edu Tv Ck2 Da Db Po P1 Bo (M2 _ eq_refl P1) P2). split; auto. }
  destruct Sd1 as [SV1 SC1], Sd2 as [SV2 SC2].
  destruct (oo_switch _ _ _ _ _ _ _ R) as [last [Hl Rs]].
  inversion V0 as [|? ? Ton V0']; subst. inversion V0' as [|? ? Ttot _]; subst.
  inversion V3 as [|? ? Tson V3']; subst. inversion V3' as [|? ? Tsoff V3'']; subst. inversion V3'' as [|? ? Tnr _]; subst.
  inversion Ct as [|? ? Tct _]; subst.
  set (ON := mkVariable (oo elem "on") _ _ _ _ _ _ _ _) in *.
  apply em_sat_intro; [| |constructor].
  - apply (proj2 (Forall_app _ [ON; _] _)). split; [|rewrite !Forall_app; repeat split; auto].
    + constructor; [|constructor; [|constructor]].
      * apply var_sat_intro; auto; try discriminate.
      * apply var_sat_intro; auto; try discriminate; simpl.
        -- intros l i El Hi. unfold opt_num in El. destruct (oo_on_min p) as [q|] eqn:E; [|discriminate]. injection El as <-. rewrite at_NS.
           assert (i = 0%nat) by lia. subst i. exact (oo_total_min _ _ _ _ _ _ _ R q E).
        -- intros l i El Hi. unfold opt_num in El. destruct (oo_on_max p) as [q|] eqn:E; [|discriminate]. injection El as <-. rewrite at_NS.
           assert (i = 0%nat) by lia. subst i. exact (oo_total_max _ _ _ _ _ _ _ R q E).
    + constructor; [|constructor; [|constructor; [|constructor]]].
      * apply var_sat_intro; auto; try discriminate. intros _ i Hi. apply (oo_sbin _ _ _ _ _ _ _ R i Hi).
      * apply var_sat_intro; auto; try discriminate. intros _ i Hi. apply (oo_sbin _ _ _ _ _ _ _ R i Hi).
      * apply var_sat_intro; auto; try discriminate; simpl.
        intros l i El Hi. unfold opt_num in El. destruct (oo_sw_max p) as [q|] eqn:E; [|discriminate]. injection El as <-. rewrite at_NS.
        assert (i = 0%nat) by lia. subst i. exact (oo_nr_max _ _ _ _ _ _ _ R q E).
  - apply (proj2 (Forall_app _ [ctot] _)). split; [|rewrite !Forall_app; repeat split; auto].
    + constructor; [|constructor]. rowi Ectot Tct 1%nat i.
      change (v_len ON) with (cx_n cx). change (v_label ON) with (oo elem "on").
      rewrite sumn_dt by auto. assert (i = 0%nat) by lia. subst i. pose proof (oo_total _ _ _ _ _ _ _ R). lra.
    + eapply on_admits; [exact CX|exact N2|exact Eb|exact Elen'|exact Lv|exact G|exact Lon|exact Bon|exact Econ|exact Cc|].
      exact (oo_coupled _ _ _ _ _ _ _ R).
    + eapply (switch_admits x cx _ ON); [exact CX|exact N2| | | | |exact Eks|exact Ck3|exact Hl|exact Rs]; reflexivity.
Qed.
