(** From the full program to the aggregated one: a solution of the full program that obeys the rules of the aggregation is completed. *)
From Verif Require Import Base BaseFacts MathModel MathFacts Spec Structure StructureFacts Params Features Elements System SysSpec CtxFacts ReadTools FlowFacts NavFacts
  ShareFacts CompFacts BusFacts EffectLaws ClosedFacts OnOffLaws OnOffAdmits FlowAdmits ShareAdmits GlueFacts PropsTree PlanSys PropsClosed PropsComp PropsEffects BinFacts Aggregation AggSpec AggFacts PropsAggregation PropsAggModel TieSpec.
From Coq Require Import Qround.
Local Open Scope Q_scope.
Local Tactic Notation "bnd" hyp(H) ident(x) ident(E) := apply bind_ok in H; destruct H as [x [E H]]; cbv beta in H.

(** ** Overriding a point *)
Definition ov (l : list (string * (nat -> Q))) (y : asg) : asg :=
  fun s i => match find (fun p => String.eqb (fst p) s) l with Some p => snd p i | None => y s i end.
Lemma ov_out : forall l y s, ~ In s (map fst l) -> ov l y s = y s.
Proof.
  intros l y s N. unfold ov. destruct (find _ l) as [p|] eqn:E; [|reflexivity]. apply find_some in E. destruct E as [Hp E]. apply String.eqb_eq in E.
  exfalso. apply N. rewrite <- E. apply in_map. exact Hp.
Qed.
Lemma ov_in : forall l y s f, NoDup (map fst l) -> In (s, f) l -> ov l y s = f.
Proof.
  intros l y s f. unfold ov. induction l as [|[a g] l IH]; intros N H; [destruct H|]. cbn [find fst]. cbn [map fst] in N. inversion N as [|? ? N1 N2]; subst.
  destruct H as [H|H].
  - injection H as -> ->. rewrite String.eqb_refl. reflexivity.
  - destruct (String.eqb_spec a s) as [-> |]; [|auto]. exfalso. apply N1. apply in_map_iff. exists (s, f). auto.
Qed.

(** ** Equating *)
Lemma index_range : forall k label short calls c rows v q l t, build_constraint k label short calls = Ok c -> translate_constraint c = Ok rows ->
  In (AddS v (NS q) (Some l) false) calls -> (length l = c_len c) -> (t < length l)%nat -> (nth t l 0 < v_len v)%nat.
Proof.
  intros k label short calls c rows v q l t H T Ha L Ht. apply build_built in H. destruct H as [_ _ _ B4 _ _ _ _ _].
  assert (S : exists s, mk_summand v (NS q) (Some l) false = Ok s /\ In s (c_summands c)).
  { assert (Hf : In (AddS v (NS q) (Some l) false) (filter is_summand calls)) by (apply filter_In; auto).
    clear - B4 Hf. induction B4 as [|a s al sl Hs HR IH]; [destruct Hf|]. destruct Hf as [-> |Hf]; [exists s; simpl; auto|].
    destruct (IH Hf) as [s' [A B]]. exists s'. simpl; auto. }
  destruct S as [s [Es Hs]]. unfold translate_constraint in T. bnd T cv Ecv.
  assert (Hseq : In t (seq 0 (c_len c))) by (apply in_seq; lia).
  destruct (BaseFacts.mapM_In _ _ _ _ T Hseq) as [r [Er _]]. bnd Er ts Ets. unfold lhs_terms in Ets. bnd Ets tss Etss.
  destruct (BaseFacts.mapM_In _ _ _ _ Etss Hs) as [tt [Et _]]. unfold mk_summand in Es.
  cbv zeta in Es. bnd Es n En. bnd Es fv Ef. apply Ok_inj in Es. subst s.
  assert (Hn : n = length l).
  { unfold check_length in En. cbn [nlen Nat.eqb] in En. destruct (Nat.eqb (length l) 1); apply Ok_inj in En; auto. }
  subst n. unfold summand_terms in Et. cbn [s_var s_idx s_fvec s_len s_sum] in Et.
  assert (R : forall pi pf u, (ix <- of_option IndexError (nth_error l pi) ;; j <- pv_index v ix ;; q <- of_option IndexError (nth_error fv pf) ;; Ok (q, v_label v, j)) = Ok u ->
              (nth pi l 0 < v_len v)%nat).
  { intros pi pf u E. bnd E ix E1. bnd E j E2. unfold pv_index in E2. unfold of_option in E1. destruct (nth_error l pi) as [z|] eqn:Z; [|discriminate].
    apply Ok_inj in E1. subst z. rewrite (nth_error_nth _ _ 0%nat Z). destruct (Nat.ltb_spec ix (v_len v)); [auto|discriminate]. }
  destruct (Nat.eqb_spec (length l) 1) as [E1|E1].
  - assert (t = 0)%nat by lia. subst t. bnd Et u Eu. exact (R _ _ _ Eu).
  - bnd Et u Eu. exact (R _ _ _ Eu).
Qed.

Lemma len_all : forall k m label calls c n, create_equation m label k calls = Ok c -> (forall a, In a calls -> call_len a = 1%nat \/ call_len a = n) ->
  (exists a, In a calls /\ call_len a = n) -> c_len c = n.
Proof.
  intros k m label calls c n H A [a [Ha E]]. apply build_built in H. destruct H as [_ _ _ _ B5 B6 _ _ _]. destruct (B5 a Ha) as [X|X]; [|congruence].
  destruct B6 as [Y|[b [Hb Y]]]; [congruence|]. destruct (A b Hb); congruence.
Qed.

(** The corrections that fit a point. *)
Definition up_at (y : asg) (v : string) (pairs : list (nat * nat)) (k : nat) : Q :=
  let p := nth k pairs (0, 0)%nat in if Qle_bool (y v (snd p)) (y v (fst p)) then 0 else 1.
Definition down_at (y : asg) (v : string) (pairs : list (nat * nat)) (k : nat) : Q :=
  let p := nth k pairs (0, 0)%nat in if Qle_bool (y v (fst p)) (y v (snd p)) then 0 else 1.

Lemma up_bin : forall y v pairs k, bin (up_at y v pairs k).
Proof. intros. unfold up_at, bin. cbv zeta. destruct (Qle_bool _ _); [left|right]; reflexivity. Qed.
Lemma down_bin : forall y v pairs k, bin (down_at y v pairs k).
Proof. intros. unfold down_at, bin. cbv zeta. destruct (Qle_bool _ _); [left|right]; reflexivity. Qed.
Lemma counted : forall y v pairs, (forall i j, In (i, j) pairs -> bin (y v i) /\ bin (y v j)) ->
  sumn (length pairs) (fun k => up_at y v pairs k + down_at y v pairs k) == inject_Z (Z.of_nat (deviations y v pairs)).
Proof.
  intros y v pairs. unfold sumn, deviations. 
  assert (X : forall l s, (forall i j, In (i, j) l -> bin (y v i) /\ bin (y v j)) ->
     forall g, (forall k, (k < length l)%nat -> g (s + k)%nat == (let p := nth k l (0, 0)%nat in if Qeq_bool (y v (fst p)) (y v (snd p)) then 0 else 1)) ->
     Qsum (map g (seq s (length l))) == inject_Z (Z.of_nat (length (filter (differs y v) l)))).
  { induction l as [|p l IH]; intros s B g G; [reflexivity|]. cbn [length seq map filter]. rewrite Qsum_cons.
    rewrite (IH (S s) (fun i j Hi => B i j (or_intror Hi)) g).
    2:{ intros k Hk. specialize (G (S k) ltac:(cbn; lia)). cbn [nth] in G. replace (s + S k)%nat with (S s + k)%nat in G by lia. exact G. }
    specialize (G 0%nat ltac:(cbn; lia)). rewrite Nat.add_0_r in G. cbn [nth] in G. cbv zeta in G. rewrite G. unfold differs at 2.
    destruct (Qeq_bool (y v (fst p)) (y v (snd p))); cbn [negb length]; [ring|].
    rewrite Nat2Z.inj_succ. unfold Z.succ. rewrite inject_Z_plus. change (inject_Z 1) with 1. ring. }
  intros B. apply X; [exact B|]. intros k Hk. cbn [Nat.add]. unfold up_at, down_at. cbv zeta.
  assert (Hp : In (nth k pairs (0, 0)%nat) pairs) by (apply nth_In; auto). destruct (nth k pairs (0, 0)%nat) as [i j]. cbn [fst snd].
  destruct (Qle_bool (y v j) (y v i)) eqn:E1; destruct (Qle_bool (y v i) (y v j)) eqn:E2; destruct (Qeq_bool (y v i) (y v j)) eqn:E3; try lra;
    rewrite ?Qle_bool_iff in *; rewrite ?Qeq_bool_iff in *.
  all: try (apply Qeq_bool_neq in E3).
  all: repeat match goal with
       | K : Qle_bool _ _ = false |- _ => let N := fresh "N" in assert (N := K); clear K; apply not_true_iff_false in N; rewrite Qle_bool_iff in N
       end; exfalso; first [apply E3; lra | lra | idtac].
  all: destruct (B _ _ Hp) as [[b1|b1] [b2|b2]]; lra.
Qed.

Lemma equate_admits : forall ap pairs v vs cs x, equate_indices ap pairs v = Ok (vs, cs) -> Forall v_translates vs -> Forall c_translates cs ->
  (keeps_equal ap v -> forall i j, In (i, j) pairs -> x (v_label v) i == x (v_label v) j) ->
  (~ keeps_equal ap v ->
     (forall i j, In (i, j) pairs -> (i < v_len v)%nat -> (j < v_len v)%nat -> bin (x (v_label v) i) /\ bin (x (v_label v) j))
     /\ inject_Z (Z.of_nat (deviations x (v_label v) pairs)) <= inject_Z (py_round (ag_freedom ap / 100 * inject_Z (Z.of_nat (length pairs))))
     /\ x (korr "Korr1_" (v_label v)) = up_at x (v_label v) pairs /\ x (korr "Korr0_" (v_label v)) = down_at x (v_label v) pairs) ->
  Forall (var_sat x) vs /\ Forall (con_sat x) cs.
Proof.
  intros ap pairs v vs cs x H TV TC KE KN. unfold equate_indices in H. cbv zeta in H.
  assert (LP : forall q f, call_len (AddS v (NS q) (Some (map f pairs)) false) = length pairs) by (intros; cbn; apply map_length).
  destruct (v_bin v && negb (Qle_bool (ag_freedom ap) 0))%bool eqn:Z.
  - assert (NK : ~ keeps_equal ap v).
    { apply andb_prop in Z. destruct Z as [Z1 Z2]. apply negb_true_iff in Z2. intros [K|K]; [congruence|]. apply Qle_bool_iff in K. congruence. }
    destruct (KN NK) as [BI [MX [K1 K0]]]. clear KE KN.
    bnd H k1 E1. bnd H k0 E0. bnd H c1 C1. bnd H c2 C2. bnd H c3 C3. apply Ok_inj in H. apply pair_equal_spec in H. destruct H as [<- <-].
    inversion TV as [|? ? TV1 TV']; subst. apply Forall_inv in TV'. rename TV' into TV0.
    inversion TC as [|? ? [r1 T1] TC']; subst. inversion TC' as [|? ? [r2 T2] TC'']; subst. apply Forall_inv in TC''. destruct TC'' as [r3 T3].
    assert (L1 : v_label k1 = korr "Korr1_" (v_label v) /\ v_len k1 = length pairs /\ v_bin k1 = true /\ v_fixed k1 = None /\ v_lb k1 = None /\ v_ub k1 = None).
    { apply create_variable_spec in E1. subst k1. repeat split. }
    assert (L0 : v_label k0 = korr "Korr0_" (v_label v) /\ v_len k0 = length pairs /\ v_bin k0 = true /\ v_fixed k0 = None /\ v_lb k0 = None /\ v_ub k0 = None).
    { apply create_variable_spec in E0. subst k0. repeat split. }
    destruct L1 as [N1 [LL1 [B1 [X1 [lb1 ub1]]]]]. destruct L0 as [N0 [LL0 [B0 [X0 [lb0 ub0]]]]].
    assert (CL1 : c_len c1 = length pairs).
    { eapply len_all; [exact C1| |eexists; split; [left; reflexivity|apply LP]].
      cbn [app]. intros a [<-|[<-|[<-|[<-|[]]]]]; right; rewrite ?LP; cbn; auto. }
    assert (CL2 : c_len c2 = length pairs).
    { eapply len_all; [exact C2| |eexists; split; [left; reflexivity|cbn; auto]].
      intros a [<-|[<-|[<-|[]]]]; cbn; auto. }
    assert (BIN : forall i j, In (i, j) pairs -> bin (x (v_label v) i) /\ bin (x (v_label v) j)).
    { intros i j Hi. destruct (In_nth _ _ (0, 0)%nat Hi) as [k [Hk Nk]]. destruct (pair_nth pairs k Hk) as [M1 M2]. rewrite Nk in M1, M2. cbn [fst snd] in M1, M2.
      apply BI; auto.
      - rewrite <- M1. eapply index_range; [exact C1|exact T1|left; reflexivity|rewrite map_length; auto|rewrite map_length; auto].
      - rewrite <- M2. eapply index_range; [exact C1|exact T1|right; left; reflexivity|rewrite map_length; auto|rewrite map_length; auto]. }
    assert (VAL : forall k, (k < length pairs)%nat ->
       x (v_label v) (nth k (map fst pairs) 0%nat) - x (v_label v) (nth k (map snd pairs) 0%nat) + up_at x (v_label v) pairs k - down_at x (v_label v) pairs k == 0
       /\ 0 <= up_at x (v_label v) pairs k /\ 0 <= down_at x (v_label v) pairs k /\ up_at x (v_label v) pairs k + down_at x (v_label v) pairs k <= 1).
    { intros k Hk. destruct (pair_nth pairs k Hk) as [M1 M2]. rewrite M1, M2. unfold up_at, down_at. cbv zeta.
      assert (Hp : In (nth k pairs (0, 0)%nat) pairs) by (apply nth_In; auto). destruct (nth k pairs (0, 0)%nat) as [i j]. cbn [fst snd].
      destruct (BIN _ _ Hp) as [[b1|b1] [b2|b2]];
        destruct (Qle_bool (x (v_label v) j) (x (v_label v) i)) eqn:Q1; destruct (Qle_bool (x (v_label v) i) (x (v_label v) j)) eqn:Q2;
        repeat match goal with
        | K : Qle_bool _ _ = true |- _ => apply Qle_bool_iff in K
        | K : Qle_bool _ _ = false |- _ => let N := fresh "N" in assert (N := K); clear K; apply not_true_iff_false in N; rewrite Qle_bool_iff in N
        end; repeat split; lra. }
    split.
    + constructor; [|constructor; [|constructor]].
      * apply var_sat_intro; auto; [|rewrite lb1; discriminate|rewrite ub1; discriminate].
        intros _ i _. rewrite N1, K1. apply up_bin.
      * apply var_sat_intro; auto; [|rewrite lb0; discriminate|rewrite ub0; discriminate].
        intros _ i _. rewrite N0, K0. apply down_bin.
    + constructor; [|constructor; [|constructor; [|constructor]]].
      * eapply con_sat_intro; [exact C1| |exact T1|]; [repeat constructor|]. intros k Hk. rewrite CL1 in Hk. unfold rel. cbn [app map]. rewrite !Qsum_cons.
        unfold call_lhs, call_rhs. rewrite !at_NS. rewrite !pick_list by (rewrite map_length; auto). rewrite !pick_all by lia.
        rewrite N1, N0, K1, K0. change (Qsum []) with 0. destruct (VAL k Hk) as [V _]. lra.
      * eapply con_sat_intro; [exact C2| |exact T2|]; [repeat constructor|]. intros k Hk. rewrite CL2 in Hk. unfold rel. cbn [app map]. rewrite !Qsum_cons.
        unfold call_lhs, call_rhs. rewrite !at_NS. rewrite !pick_all by lia. rewrite N1, N0, K1, K0. change (Qsum []) with 0. destruct (VAL k Hk) as [_ [V1 [V2 V3]]]. lra.
      * eapply con_sat_intro; [exact C3| |exact T3|]; [repeat constructor|]. intros k Hk. unfold rel. cbn [map]. rewrite !Qsum_cons.
        unfold call_lhs, call_rhs. rewrite at_NS. change (Qsum []) with 0. rewrite LL1, LL0, N1, N0, K1, K0.
        pose proof (counted x (v_label v) pairs BIN) as CO. rewrite (sumn_plus (length pairs) (up_at x (v_label v) pairs) (down_at x (v_label v) pairs)) in CO.
        assert (W : forall g, sumn (length pairs) (fun j => at_ (NS 1) j * g j) == sumn (length pairs) g).
        { intros g. unfold sumn. apply Qsum_map_eq. intros a _. rewrite at_NS. ring. }
        rewrite (W (up_at x (v_label v) pairs)), (W (down_at x (v_label v) pairs)). lra.
  - assert (YK : keeps_equal ap v).
    { apply andb_false_iff in Z. destruct Z as [Z|Z]; [left; auto|right]. apply negb_false_iff in Z. apply Qle_bool_iff. exact Z. }
    bnd H c E. apply Ok_inj in H. apply pair_equal_spec in H. destruct H as [<- <-]. split; [constructor|]. constructor; [|constructor].
    apply Forall_inv in TC. destruct TC as [rows T]. eapply con_sat_intro; [exact E| |exact T|]; [repeat constructor|].
    assert (CL : c_len c = length pairs).
    { eapply len_all; [exact E| |eexists; split; [left; reflexivity|apply LP]]. intros a [<-|[<-|[]]]; right; apply LP. }
    intros k Hk. rewrite CL in Hk. unfold rel. cbn [map]. rewrite !Qsum_cons. unfold call_lhs, call_rhs. rewrite !at_NS. rewrite !pick_list by (rewrite map_length; auto).
    destruct (pair_nth pairs k Hk) as [M1 M2]. rewrite M1, M2. change (Qsum []) with 0.
    assert (Hp : In (fst (nth k pairs (0, 0)%nat), snd (nth k pairs (0, 0)%nat)) pairs) by (rewrite <- surjective_pairing; apply nth_In; auto).
    rewrite (KE YK _ _ Hp). ring.
Qed.

(** In a solution there is one correction where the states differ, and none elsewhere. *)
Lemma count_eq : forall (P : nat * nat -> bool) (g : nat -> Q) pairs s,
  (forall k, (k < length pairs)%nat -> g (s + k)%nat == if P (nth k pairs (0, 0)%nat) then 1 else 0) ->
  Qsum (map g (seq s (length pairs))) == inject_Z (Z.of_nat (length (filter P pairs))).
Proof.
  intros P g pairs. induction pairs as [|p l IH]; intros s H; [reflexivity|]. cbn [length seq map filter]. rewrite Qsum_cons.
  rewrite (IH (S s)). 2:{ intros k Hk. specialize (H (S k) ltac:(cbn; lia)). cbn [nth] in H. replace (s + S k)%nat with (S s + k)%nat in H by lia. exact H. }
  specialize (H 0%nat ltac:(cbn; lia)). rewrite Nat.add_0_r in H. cbn [nth] in H. rewrite H. destruct (P p); cbn [length]; [|ring].
  rewrite Nat2Z.inj_succ. unfold Z.succ. rewrite inject_Z_plus. change (inject_Z 1) with 1. ring.
Qed.
Lemma equate_exact : forall ap pairs v vs cs x, equate_indices ap pairs v = Ok (vs, cs) -> ~ keeps_equal ap v ->
  Forall (var_sat x) vs -> Forall (con_sat x) cs -> corrections x (v_label v) (length pairs) == inject_Z (Z.of_nat (deviations x (v_label v) pairs)).
Proof.
  intros ap pairs v vs cs x H K SV S. unfold equate_indices in H. cbv zeta in H.
  assert (Z : (v_bin v && negb (Qle_bool (ag_freedom ap) 0))%bool = true).
  { unfold keeps_equal in K. destruct (v_bin v); [|exfalso; auto]. destruct (Qle_bool (ag_freedom ap) 0) eqn:Q; [|reflexivity]. apply Qle_bool_iff in Q. exfalso; auto. }
  rewrite Z in H. bnd H k1 E1. bnd H k0 E0. bnd H c1 C1. bnd H c2 C2. bnd H c3 C3. apply Ok_inj in H. apply pair_equal_spec in H. destruct H as [<- <-].
  inversion SV as [|? ? V1 SV']; subst. apply Forall_inv in SV'. rename SV' into V0.
  inversion S as [|? ? S1 S']; subst. inversion S' as [|? ? S2 S'']; subst. clear S''.
  assert (L1 : v_label k1 = korr "Korr1_" (v_label v) /\ v_len k1 = length pairs /\ v_bin k1 = true /\ v_fixed k1 = None).
  { apply create_variable_spec in E1. subst k1. repeat split. }
  assert (L0 : v_label k0 = korr "Korr0_" (v_label v) /\ v_len k0 = length pairs /\ v_bin k0 = true /\ v_fixed k0 = None).
  { apply create_variable_spec in E0. subst k0. repeat split. }
  destruct L1 as [N1 [LL1 [B1 X1]]]. destruct L0 as [N0 [LL0 [B0 X0]]].
  unfold corrections, sumn, deviations. apply count_eq. cbn [Nat.add]. intros k Hk.
  assert (BIN1 : x (korr "Korr1_" (v_label v)) k == 0 \/ x (korr "Korr1_" (v_label v)) k == 1) by (rewrite <- N1; apply var_sat_bin; auto; lia).
  assert (BIN0 : x (korr "Korr0_" (v_label v)) k == 0 \/ x (korr "Korr0_" (v_label v)) k == 1) by (rewrite <- N0; apply var_sat_bin; auto; lia).
  destruct (pair_nth pairs k Hk) as [M1 M2].
  assert (R1 : rel KEq (Qsum (map (call_lhs x k) ([AddS v (NS 1) (Some (map fst pairs)) false; AddS v (NS (-1)) (Some (map snd pairs)) false] ++ [AddS k1 (NS 1) None false; AddS k0 (NS (-1)) None false])))
                       (Qsum (map (call_rhs k) ([AddS v (NS 1) (Some (map fst pairs)) false; AddS v (NS (-1)) (Some (map snd pairs)) false] ++ [AddS k1 (NS 1) None false; AddS k0 (NS (-1)) None false])))).
  { eapply (row_law x KEq _ _ _ c1 (length pairs) k C1 S1); [| | |exact Hk].
    - repeat constructor.
    - repeat constructor; unfold live; cbn; rewrite ?map_length, ?LL1, ?LL0; lia.
    - left. cbn. apply map_length. }
  assert (R2 : rel KIneq (Qsum (map (call_lhs x k) [AddS k0 (NS 1) None false; AddS k1 (NS 1) None false; AddC (NS (11 # 10))]))
                         (Qsum (map (call_rhs k) [AddS k0 (NS 1) None false; AddS k1 (NS 1) None false; AddC (NS (11 # 10))]))).
  { eapply (row_law x KIneq _ _ _ c2 (length pairs) k C2 S2); [| | |exact Hk].
    - repeat constructor.
    - repeat constructor; unfold live; cbn; rewrite ?LL1, ?LL0; try lia.
    - left. cbn. exact LL0. }
  unfold rel in R1, R2. cbn [map app] in R1, R2. rewrite !Qsum_cons in R1, R2. unfold call_lhs, call_rhs in R1, R2. rewrite !at_NS in R1. rewrite !at_NS in R2.
  rewrite !pick_list in R1 by (rewrite map_length; auto). rewrite !pick_all in R1 by lia. rewrite !pick_all in R2 by lia.
  rewrite M1, M2, N1, N0 in R1. rewrite N1, N0 in R2. change (Qsum []) with 0 in R1, R2. rewrite ?Qsum_cons in R1; rewrite ?Qsum_cons in R2; change (Qsum []) with 0 in R1, R2. unfold differs.
  destruct (Qeq_bool _ _) eqn:D; cbn [negb].
  - apply Qeq_bool_iff in D. destruct BIN1 as [b1|b1], BIN0 as [b0|b0]; lra.
  - apply Qeq_bool_neq in D. destruct BIN1 as [b1|b1], BIN0 as [b0|b0]; try lra; exfalso; apply D; lra.
Qed.

(** ** Adding the shares of the aggregation *)
Lemma add_total : forall x y s c c' la lb d,
  alloc_sum "Effects" "penalty" None None = Ok s ->
  create_equation (model_full "Effects" (Some "penalty")) (cat ["penalty"; "_sum"]) KEq (AddS s (NS (-1)) None false :: map scall la) = Ok c ->
  create_equation (model_full "Effects" (Some "penalty")) (cat ["penalty"; "_sum"]) KEq (AddS s (NS (-1)) None false :: map scall (la ++ lb)) = Ok c' ->
  (forall so, In so lb -> v_len (ss_var (snd so)) = 1%nat) ->
  (forall so i, In so la -> x (v_label (ss_var (snd so))) i == y (v_label (ss_var (snd so))) i) ->
  x pen_label 0%nat == y pen_label 0%nat + d ->
  d == Qsum (map (fun so : share * ss_out => x (v_label (ss_var (snd so))) 0%nat) lb) ->
  c_translates c' -> con_sat y c -> con_sat x c'.
Proof.
  intros x y s c c' la lb d Hs Hc Hc' L1 NL Hp Hd [rows T] S. destruct (pen_sum_shape _ Hs) as [Ls [Ns _]].
  unfold create_equation in *.
  assert (P : forall l, Forall plain (AddS s (NS (-1)) None false :: map scall l)).
  { intros l. constructor; [exact I|]. apply Forall_forall. intros a Ha. apply in_map_iff in Ha. destruct Ha as [so [<- _]]. exact I. }
  eapply con_sat_intro; [exact Hc'|apply P|exact T|]. intros i Hi.
  assert (Hi' : (i < c_len c)%nat).
  { pose proof (build_built _ _ _ _ _ Hc) as B. pose proof (build_built _ _ _ _ _ Hc') as B'.
    assert (CASE : forall a, In a (AddS s (NS (-1)) None false :: map scall (la ++ lb)) -> In a (AddS s (NS (-1)) None false :: map scall la) \/ call_len a = 1%nat).
    { intros a [<-|Ha]; [left; left; auto|]. rewrite map_app in Ha. apply in_app_iff in Ha. destruct Ha as [Ha|Ha]; [left; right; auto|right].
      apply in_map_iff in Ha. destruct Ha as [so [<- Hso]]. cbn. auto. }
    assert (INC : forall a, In a (AddS s (NS (-1)) None false :: map scall la) -> In a (AddS s (NS (-1)) None false :: map scall (la ++ lb))).
    { intros a [<-|Ha]; [left; auto|right]. rewrite map_app. apply in_or_app. auto. }
    destruct (Nat.eq_dec (c_len c) 1) as [E1|E1].
    - assert (c_len c' = 1)%nat; [|lia]. destruct (b_len1 _ _ _ _ _ B') as [Q|[a [Ha Q]]]; [auto|]. destruct (CASE a Ha) as [Ha'|Ha']; [|congruence].
      destruct (b_lens _ _ _ _ _ B a Ha'); congruence.
    - destruct (b_len1 _ _ _ _ _ B) as [Q|[a [Ha Q]]]; [lia|]. destruct (b_lens _ _ _ _ _ B' a (INC a Ha)) as [X|X]; [congruence|]. lia. }
  pose proof (con_sat_elim _ _ _ _ _ _ Hc (P la) S i Hi') as E. unfold rel in *. cbn [map] in *. rewrite !Qsum_cons in *.
  assert (Z : forall l, Qsum (map (call_rhs i) (map scall l)) == 0).
  { induction l as [|a l IH]; [reflexivity|]. cbn [map]. rewrite Qsum_cons, IH. reflexivity. }
  rewrite Z in *. rewrite map_app, sum_lhs_app.
  assert (EB : Qsum (map (call_lhs x i) (map scall lb)) == d).
  { rewrite Hd, map_map. apply Qsum_map_eq. intros so Hso. unfold scall, call_lhs. rewrite at_NS, (pick_scalar _ _ (L1 so Hso)). ring. }
  assert (EA : Qsum (map (call_lhs x i) (map scall la)) == Qsum (map (call_lhs y i) (map scall la))).
  { rewrite !map_map. apply Qsum_map_eq. intros so Hso. unfold scall, call_lhs. rewrite (NL so _ Hso). reflexivity. }
  rewrite EA, EB. unfold call_lhs, call_rhs in *. rewrite at_NS, (pick_scalar _ _ Ns), Ls in *. rewrite Hp. lra.
Qed.

(** The variables to be equated belong to the components. *)
Lemma all_variables_sound : forall m vs, em_all_variables m = Ok vs -> incl vs (decl m).
Proof.
  apply (emodel_ind' (fun m => forall vs, em_all_variables m = Ok vs -> incl vs (decl m))).
  intros f l v c subs IH vs H. rewrite decl_EM. cbn [em_all_variables] in H.
  assert (X : forall ss acc r, (forall s, In s ss -> In s subs) ->
     foldM (fun acc s => vs <- em_all_variables s ;;
              _ <- guard (forallb (fun v => negb (mem_str (v_label v) (map v_label acc))) vs) KeyError ;; Ok (acc ++ vs)) ss acc = Ok r ->
     incl r (acc ++ flat_map decl ss)).
  { induction ss as [|s ss IHs]; intros acc r Hs E; cbn [foldM] in E.
    - apply Ok_inj in E. subst. cbn. rewrite app_nil_r. apply incl_refl.
    - bnd E a Ea. bnd Ea w E1. bnd Ea u E2. apply Ok_inj in Ea. subst a. pose proof (IHs _ _ (fun s' H' => Hs s' (or_intror H')) E) as A.
      rewrite Forall_forall in IH. pose proof (IH s (Hs s (or_introl eq_refl)) _ E1) as J. eapply incl_tran; [exact A|]. cbn [flat_map].
      intros z Hz. rewrite !in_app_iff in *. destruct Hz as [[Hz|Hz]|Hz]; auto. }
  exact (X subs v vs (fun s H' => H') H).
Qed.
Lemma chosen_sound : forall sel comps cos ch c o, chosen_components sel comps cos = Ok ch -> In (c, o) ch -> In (c, o) (combine comps cos) /\ picked sel c.
Proof.
  intros sel comps cos ch c o H Hi. unfold chosen_components in H. unfold picked. destruct sel as [[|l ls]|].
  - apply Ok_inj in H. subst. auto.
  - destruct (mapM_In_inv _ _ _ _ H Hi) as [lab [Hl E]]. unfold of_option in E. destruct (find _ _) as [p|] eqn:F; [|discriminate]. apply Ok_inj in E. subst p.
    apply find_some in F. destruct F as [F1 F2]. apply String.eqb_eq in F2. cbn [fst] in F2. split; [auto|]. rewrite F2. exact Hl.
  - apply Ok_inj in H. subst. auto.
Qed.
Lemma relevant_sound : forall ap sel comps cos ch vss v, chosen_components sel comps cos = Ok ch -> mapM (relevant_variables ap) ch = Ok vss -> In v (List.concat vss) ->
  exists c o, In (c, o) (combine comps cos) /\ picked sel c /\ (is_storage c = false \/ ag_fix_storage ap = true) /\ In v (decl (co_tree o))
    /\ v_ts v = true /\ (ag_fix_all ap = true \/ v_bin v = true).
Proof.
  intros ap sel comps cos ch vss v E1 E2 Hv. apply in_concat in Hv. destruct Hv as [vs [Hvs Hv]]. destruct (mapM_In_inv _ _ _ _ E2 Hvs) as [[c o] [Hc E]].
  destruct (chosen_sound _ _ _ _ _ _ E1 Hc) as [A B]. unfold relevant_variables in E. cbn [fst snd] in E.
  destruct (is_storage c && negb (ag_fix_storage ap))%bool eqn:G; [apply Ok_inj in E; subst vs; destruct Hv|]. bnd E al Ea. apply Ok_inj in E. subst vs.
  apply filter_In in Hv. destruct Hv as [Hv F]. apply andb_prop in F. destruct F as [F1 F2]. apply orb_prop in F2.
  exists c, o. repeat split; auto; [|apply (all_variables_sound _ _ Ea); auto].
  apply andb_false_iff in G. destruct G as [G|G]; [auto|]. apply negb_false_iff in G. auto.
Qed.

(** ** Completing a point *)
Definition kvals (y : asg) (pairs : list (nat * nat)) (l : list variable) : list (string * (nat -> Q)) :=
  flat_map (fun v => [(korr "Korr1_" (v_label v), up_at y (v_label v) pairs); (korr "Korr0_" (v_label v), down_at y (v_label v) pairs)]) l.
Lemma korr_labels : forall ap pairs y l parts, mapM (equate_indices ap pairs) l = Ok parts ->
  map v_label (flat_map fst parts) = map fst (kvals y pairs (filter (freed ap) l)).
Proof.
  intros ap pairs y l. induction l as [|v l IH]; intros parts H; cbn [mapM] in H.
  - apply Ok_inj in H. subst parts. reflexivity.
  - bnd H p E1. bnd H r E2. apply Ok_inj in H. subst parts. destruct p as [vs cs]. apply korr_parts in E1. cbn [flat_map fst filter].
    rewrite map_app, (IH _ E2). destruct (freed ap v).
    + destruct E1 as [k1 [k0 [-> [L1 [L0 _]]]]]. cbn [map kvals flat_map app fst]. rewrite L1, L0. reflexivity.
    + subst vs. reflexivity.
Qed.
Lemma keeps_or : forall ap v, freed ap v = true <-> ~ keeps_equal ap v.
Proof.
  intros ap v. unfold freed, keeps_equal. split.
  - intros H. apply andb_prop in H. destruct H as [H1 H2]. apply negb_true_iff in H2. intros [K|K]; [congruence|]. apply Qle_bool_iff in K. congruence.
  - intros K. destruct (v_bin v); [|exfalso; auto]. destruct (Qle_bool (ag_freedom ap) 0) eqn:Q; [|reflexivity]. apply Qle_bool_iff in Q. exfalso; auto.
Qed.
Lemma differ_keeps : forall ap v, may_differ ap v <-> ~ keeps_equal ap v.
Proof.
  intros ap v. unfold may_differ, keeps_equal. split.
  - intros [H1 H2] [K|K]; [congruence|lra].
  - intros K. destruct (v_bin v); [|exfalso; auto]. split; auto. destruct (Qlt_le_dec 0 (ag_freedom ap)); auto. exfalso; auto.
Qed.

Lemma program_labels : forall ds obj pm, system_translate ds obj = Ok pm -> forall p, In p (pm_vars pm) -> exists v, In v (flat_map decl ds) /\ v_label v = pv_label p.
Proof.
  intros ds obj pm H p Hp. unfold system_translate in H. bnd H vs Ev. bnd H cs Ec. unfold translate_model in H.
  bnd H pvs Ep. bnd H es Ee. bnd H ins Ei. bnd H o Eo. apply Ok_inj in H. subst pm. cbn [pm_vars] in Hp.
  destruct (mapM_In_inv _ _ _ _ Ep Hp) as [v [Hv E]]. exists v. split.
  - destruct (system_translate_vars _ _ Ev) as [_ P]. apply (Permutation_in _ P) in Hv. rewrite flat_map_twice in Hv. exact Hv.
  - symmetry. apply (proj1 (translate_variable_spec _ _ E)).
Qed.

Lemma worth_ext : forall x y t sh, (forall v, sh_var sh = Some v -> forall j, x (v_label v) j == y (v_label v) j) -> worth x t sh == worth y t sh.
Proof.
  intros x y t sh H. unfold worth. destruct (sh_var sh) as [v|]; [|reflexivity]. specialize (H v eq_refl). destruct (sh_as_sum sh).
  - unfold sumn. apply Qsum_map_eq. intros j _. rewrite H. reflexivity.
  - rewrite H. reflexivity.
Qed.

Lemma kvals_nodup : forall y pairs l, NoDup (map fst (kvals y pairs l)) -> NoDup (map v_label l).
Proof.
  intros y pairs l. induction l as [|v l IH]; intros NV1; [constructor|]. cbn [kvals flat_map map app fst] in NV1. cbn [map].
  inversion NV1 as [|? ? N1 N2]; subst. inversion N2 as [|? ? N3 N4]; subst. constructor; [|auto].
  intros Hv. apply N1. right. apply in_map_iff in Hv. destruct Hv as [w [E Hw]]. apply in_map_iff.
  exists (korr "Korr1_" (v_label w), up_at y (v_label w) pairs). split; [cbn [fst]; rewrite E; reflexivity|]. apply in_flat_map. exists w. split; auto. left. reflexivity.
Qed.
Lemma agg_back : forall cf ord fs idx hpp ap cl sel pm', build_aggregated cf ord fs idx hpp ap cl sel = Ok pm' ->
  exists pm bs pairs ch vss, build cf ord fs idx = Ok pm /\ build_system cf ord fs idx = Ok bs /\ pm_obj pm' = pm_obj pm
    /\ equation_indices true cl = Ok pairs /\ chosen_components sel (fs_comps fs) (bs_comps bs) = Ok ch /\ mapM (relevant_variables ap) ch = Ok vss
    /\ NoDup (map v_label (filter (freed ap) (List.concat vss))) /\ (forall v, In v (List.concat vss) -> v_label v <> pen_label)
    /\ forall y, feasible pm y -> (forall v, In v (List.concat vss) -> tied_rule ap pairs y v) ->
       exists x, feasible pm' x /\ agree_on pm x y
         /\ x pen_label 0%nat == y pen_label 0%nat + ag_penalty ap * Qsum (map (fun v => inject_Z (Z.of_nat (deviations y (v_label v) pairs))) (filter (freed ap) (List.concat vss))).
Proof.
  intros cf ord fs idx hpp ap cl sel pm' H. destruct (agg_lift _ _ _ _ _ _ _ _ _ H) as [pm0 [cx0 [cos0 [am0 [pen0 [em0 [bts0 [obj0 G]]]]]]]].
  pose proof (gp_build _ _ _ _ _ _ _ _ _ _ _ _ _ _ _ _ G) as GB. pose proof (gp_system _ _ _ _ _ _ _ _ _ _ _ _ _ _ _ _ G) as GS.
  pose proof (gp_obj _ _ _ _ _ _ _ _ _ _ _ _ _ _ _ _ G) as GO. clear G.
  unfold build_aggregated in H. bnd H u0 E0. bnd H b E. unfold build_agg_system in E. bnd E cx E1. bnd E u E2.
  bnd E cos E3. cbv zeta in E. bnd E bos E4. bnd E ap' E6. destruct ap' as [am pen]. bnd E eo E5. destruct eo as [em' obj]. apply Ok_inj in E. subst b.
  cbn [ab_roots ab_obj] in H. destruct (pen_all_corr _ _ _ _ _ _ _ E6) as [ks0 Hks].
  assert (TP : forall s, In s pen -> sh_target s = TPen).
  { intros s Hs. rewrite Hks in Hs. apply in_map_iff in Hs. destruct Hs as [k [<- _]]. reflexivity. }
  rewrite app_assoc in E5. destruct (effects_prefix _ _ _ _ _ _ E5 TP) as [em [ms [sa [sa' [s [c [c' [la [lb [F1 [F2 [F3 [F4 [[pa [A1 [A2 [A3 A4]]]] F5]]]]]]]]]]]]]].
  remember (map co_tree cos ++ map fst bos) as rest eqn:HR.
  assert (TS : sa_tree sa = EM (model_full "Effects" (Some "penalty")) "penalty" [s] [c] (map (fun so : share * ss_out => ss_tree (snd so)) la)) by apply (al_tree _ _ _ _ _ _ _ A1).
  assert (TS' : sa_tree sa' = EM (model_full "Effects" (Some "penalty")) "penalty" [s] [c'] (map (fun so : share * ss_out => ss_tree (snd so)) (la ++ lb))) by apply (al_tree _ _ _ _ _ _ _ A2).
  pose proof (al_c _ _ _ _ _ _ _ A1) as EC. pose proof (al_c _ _ _ _ _ _ _ A2) as EC'. pose proof (al_s _ _ _ _ _ _ _ A1) as ES.
  set (tl := map (fun so : share * ss_out => ss_tree (snd so))) in *.
  assert (TLA : tl (la ++ lb) = tl la ++ tl lb) by (unfold tl; apply map_app).
  assert (DV : Permutation (flat_map decl ((em' :: rest) ++ [am])) (flat_map decl (em :: rest) ++ flat_map decl (tl lb) ++ decl am)).
  { rewrite flat_map_app. cbn [flat_map]. rewrite F2, F3, !decl_EM. cbn [app]. rewrite !flat_map_app. cbn [flat_map]. rewrite TS, TS', !decl_EM, TLA, flat_map_app, !app_nil_r.
    cbn [app]. rewrite <- !app_assoc. apply Permutation_app_head. cbn [app]. constructor. rewrite <- !app_assoc. apply Permutation_app_head.
    rewrite !app_assoc. apply Permutation_app_tail, Permutation_app_comm. }
  assert (NV : NoDup (map v_label (flat_map decl ((em' :: rest) ++ [am])))).
  { unfold system_translate in H. bnd H vs H1. apply system_translate_vars in H1. destruct H1 as [N1 P1]. rewrite flat_map_twice in P1.
    eapply Permutation_NoDup; [apply Permutation_map; exact P1|auto]. }
  assert (NV1 : NoDup (map v_label (flat_map decl (em :: rest)) ++ map v_label (flat_map decl (tl lb)) ++ map v_label (decl am))).
  { rewrite <- !map_app. eapply Permutation_NoDup; [apply Permutation_map; exact DV|exact NV]. }
  assert (ESYS : build_system cf ord fs idx = Ok (mkBuilt cx em cos (map fst bos) obj)).
  { unfold build_system. rewrite E1. cbn [bind]. rewrite E2. cbn [bind]. rewrite E3. cbn [bind]. cbv zeta. rewrite E4. cbn [bind]. rewrite F1. reflexivity. }
  rewrite ESYS in GS. injection GS as <- <- <- <- <-.
  assert (T1 : system_translate (em :: rest) obj = Ok pm0).
  { unfold build in GB. rewrite ESYS in GB. cbn [bind] in GB. unfold bs_roots in GB. cbn [bs_effects bs_comps bs_buses bs_obj] in GB. rewrite <- HR in GB. exact GB. }
  pose proof (system_translates _ _ _ H) as TR. rewrite Forall_forall in TR.
  assert (AGG := E6). unfold aggregation_model in AGG. bnd AGG ch Ech. bnd AGG pairs Epa. bnd AGG vss Evs. bnd AGG parts Ept. bnd AGG amm Eam.
  cbv zeta in AGG. apply Ok_inj in AGG. apply pair_equal_spec in AGG. destruct AGG as [-> HPEN]. apply mk_em_spec in Eam. destruct Eam as [HAM _].
  set (fr := filter (freed ap) (List.concat vss)) in *.
  exists pm0, (mkBuilt cx em cos (map fst bos) obj), pairs, ch, vss. split; [exact GB|]. split; [exact ESYS|]. split; [exact GO|]. split; [exact Epa|].
  split; [exact Ech|]. split; [exact Evs|].
  assert (LAM : forall y, map v_label (decl am) = map fst (kvals y pairs fr)).
  { intros y. rewrite HAM, decl_EM. cbn [flat_map]. rewrite app_nil_r. apply (korr_labels ap pairs y _ _ Ept). }
  assert (IR : forall o, In o cos -> incl (decl (co_tree o)) (flat_map decl rest)).
  { intros o Ho v Hv. rewrite HR, flat_map_app. apply in_or_app. left. apply in_flat_map. exists (co_tree o). split; auto. apply in_map. auto. }
  assert (PD : Permutation (flat_map decl (em :: rest)) (s :: flat_map decl ms ++ flat_map decl (tl la) ++ flat_map decl rest)).
  { cbn [flat_map]. rewrite F2, decl_EM. cbn [app]. rewrite flat_map_app. cbn [flat_map]. rewrite TS, decl_EM, app_nil_r, <- app_assoc. cbn [app].
    apply Permutation_sym, Permutation_middle. }
  destruct (pen_sum_shape _ ES) as [Ls [Ns [B1 [B2 [B3 B4]]]]].
  assert (PNN : forall v, In v (flat_map decl ms ++ flat_map decl (tl la) ++ flat_map decl rest) -> v_label v <> pen_label).
  { intros v Hv L. rewrite <- Ls in L. assert (N : NoDup (v_label s :: map v_label (flat_map decl ms ++ flat_map decl (tl la) ++ flat_map decl rest))).
    { eapply Permutation_NoDup; [|exact (NoDup_app_l _ _ NV1)]. change (v_label s :: map v_label ?l) with (map v_label (s :: l)). apply Permutation_map. exact PD. }
    inversion N as [|? ? N1 _]. apply N1. rewrite <- L. apply in_map. exact Hv. }
  split.
  { pose proof (LAM (fun _ _ => 0)) as L. apply GlueFacts.NoDup_app_parts in NV1. destruct NV1 as [NV1 _]. apply GlueFacts.NoDup_app_parts in NV1. destruct NV1 as [NV1 _].
    rewrite L in NV1. exact (kvals_nodup _ _ _ NV1). }
  split.
  { intros v Hv. destruct (relevant_sound _ _ _ _ _ _ _ Ech Evs Hv) as [c0 [o [A [_ [_ [Hd _]]]]]]. apply in_combine_r in A. cbn [bs_comps] in A.
    apply PNN. apply in_or_app. right. apply in_or_app. right. exact (IR o A v Hd). }
  intros y FY RU. apply (system_feasible _ _ _ _ T1) in FY. rewrite Forall_forall in FY.
  (* the point *)
  set (K := kvals y pairs fr). set (x1 := ov K y).
  set (d := Qsum (map (worth x1 0) pen)).
  set (SH := map (fun so : share * ss_out => (v_label (ss_var (snd so)), fun _ : nat => worth x1 0 (fst so))) lb).
  set (x := ov (K ++ SH ++ [(pen_label, fun i => if Nat.eqb i 0 then y pen_label 0%nat + d else y pen_label i)]) y).
  destruct (singles_fst _ _ _ F5) as [G1 G2].
  assert (LSH : map fst SH = map v_label (flat_map decl (tl lb))).
  { unfold SH, tl. rewrite map_map. cbn [fst]. clear - G2. induction lb as [|so l IH]; [reflexivity|]. cbn [map flat_map].
    rewrite (single_var_decl _ _ _ (G2 so (or_introl eq_refl))). cbn [app map]. f_equal. apply IH. intros z Hz. apply G2. right. exact Hz. }
  assert (Hs : In s (flat_map decl (em :: rest))).
  { cbn [flat_map]. apply in_or_app. left. rewrite F2, decl_EM. cbn [app]. rewrite flat_map_app. apply in_or_app. right. cbn [flat_map]. rewrite TS, decl_EM. simpl. auto. }
  assert (KEYS : map fst (K ++ SH ++ [(pen_label, fun i => if Nat.eqb i 0 then y pen_label 0%nat + d else y pen_label i)])
                 = map v_label (decl am) ++ map v_label (flat_map decl (tl lb)) ++ [pen_label]).
  { rewrite !map_app, LSH. unfold K. rewrite <- LAM. reflexivity. }
  destruct (GlueFacts.NoDup_app_parts _ _ NV1) as [NVn DIS]. destruct (GlueFacts.NoDup_app_parts _ _ NVn) as [NVam DAM].
  assert (LBA : forall v, In v (flat_map decl (em :: rest)) -> ~ In (v_label v) (map v_label (decl am))).
  { intros v Hv N. apply (DIS _ (in_map v_label _ _ Hv)). apply in_or_app. auto. }
  assert (LBT : forall v, In v (flat_map decl (em :: rest)) -> ~ In (v_label v) (map v_label (flat_map decl (tl lb)))).
  { intros v Hv N. apply (DIS _ (in_map v_label _ _ Hv)). apply in_or_app. auto. }
  assert (NK : NoDup (map fst (K ++ SH ++ [(pen_label, fun i => if Nat.eqb i 0 then y pen_label 0%nat + d else y pen_label i)]))).
  { rewrite KEYS. apply NoDup_app_intro; [exact NVam| |].
    - apply NoDup_app_intro; [apply NoDup_app_l in NVn; exact NVn|constructor; [intros []|constructor]|].
      intros z Hz [<-|[]]. rewrite <- Ls in Hz. exact (LBT _ Hs Hz).
    - intros z Hz N. apply in_app_iff in N. destruct N as [N|[<-|[]]]; [exact (DAM _ N Hz)|]. rewrite <- Ls in Hz. exact (LBA _ Hs Hz). }
  assert (SAME : forall v, In v (flat_map decl (em :: rest)) -> v_label v <> pen_label -> x (v_label v) = y (v_label v)).
  { intros v Hv N. unfold x. apply ov_out. rewrite KEYS. intros Z. rewrite !in_app_iff in Z. destruct Z as [Z|[Z|[Z|[]]]];
      [exact (LBA _ Hv Z)|exact (LBT _ Hv Z)|auto]. }
  assert (XK : forall l f, In (l, f) K -> x l = f /\ x1 l = f).
  { intros l f Hl. split.
    - unfold x. apply ov_in; [exact NK|]. apply in_or_app. auto.
    - unfold x1. apply ov_in; [|exact Hl]. rewrite !map_app in NK. apply NoDup_app_l in NK. exact NK. }
  assert (XPEN : x pen_label = fun i => if Nat.eqb i 0 then y pen_label 0%nat + d else y pen_label i).
  { unfold x. apply ov_in; [exact NK|]. apply in_or_app. right. apply in_or_app. right. left. reflexivity. }
  assert (XSH : forall so, In so lb -> x (v_label (ss_var (snd so))) = fun _ : nat => worth x1 0 (fst so)).
  { intros so Hso. unfold x. apply ov_in; [exact NK|]. apply in_or_app. right. apply in_or_app. left. unfold SH. apply in_map_iff. exists so. auto. }
  assert (XAM : forall v, In v (decl am) -> x (v_label v) = x1 (v_label v)).
  { intros v Hv. assert (In (v_label v) (map fst K)) as Hk by (unfold K; rewrite <- LAM; apply in_map; exact Hv).
    apply in_map_iff in Hk. destruct Hk as [[l f] [E Hk]]. cbn [fst] in E. subst l. destruct (XK _ _ Hk) as [-> ->]. reflexivity. }
  (* the variables *)
  assert (IB : forall p, In p bos -> incl (decl (fst p)) (flat_map decl rest)).
  { intros p Hp v Hv. rewrite HR, flat_map_app. apply in_or_app. right. apply in_flat_map. exists (fst p). split; auto. apply in_map. auto. }
  assert (COMP : forall o, In o cos -> closedT (decl (co_tree o)) (co_tree o)
                /\ (forall f, In f (co_flows o) -> In (fo_rate f) (decl (co_tree o))) /\ incl (shv (co_shares o)) (decl (co_tree o))).
  { intros o Ho. destruct (mapM_In_inv _ _ _ _ E3 Ho) as [c0 [_ G]]. eapply comp_closed; eauto. }
  assert (RATE : incl (map fo_rate (flat_map co_flows cos)) (flat_map decl rest)).
  { intros v Hv. apply in_map_iff in Hv. destruct Hv as [f [<- Hf]]. apply in_flat_map in Hf. destruct Hf as [o [Ho Hf]].
    apply (IR o Ho). exact (proj1 (proj2 (COMP o Ho)) f Hf). }
  assert (SHV : incl (shv (flat_map co_shares cos ++ flat_map snd bos)) (flat_map decl rest)).
  { rewrite shv_app. apply incl_app; intros v Hv; unfold shv in Hv; apply in_flat_map in Hv; destruct Hv as [sh [Hsh Hv]]; apply in_flat_map in Hsh.
    - destruct Hsh as [o [Ho Hsh]]. apply (IR o Ho). apply (proj2 (proj2 (COMP o Ho))). unfold shv. apply in_flat_map. eauto.
    - destruct Hsh as [[m shs] [Hp Hsh]]. apply (IB _ Hp). destruct (bus_from _ _ _ _ _ E4 _ _ Hp) as [b0 [ins [outs [G _]]]].
      apply bus_closed in G. apply (proj2 G). unfold shv. apply in_flat_map. eauto. }
  assert (OTH : forall v, In v (flat_map decl ms ++ flat_map decl (tl la) ++ flat_map decl rest) -> agree y x v).
  { intros v Hv i. rewrite SAME; [reflexivity| |].
    - apply (Permutation_in _ (Permutation_sym PD)). right. exact Hv.
    - apply PNN. exact Hv. }
  assert (INR : forall v, In v (flat_map decl rest) -> x (v_label v) = y (v_label v)).
  { intros v Hv. apply SAME; [cbn [flat_map]; apply in_or_app; auto|]. apply PNN. apply in_or_app. right. apply in_or_app. auto. }
  (* the worth of the shares of the penalty *)
  assert (PVS : forall so, In so lb -> forall v, sh_var (fst so) = Some v -> In v (decl am)).
  { intros so Hso v Ev. assert (In (fst so) pen) as Hp by (rewrite <- G1; apply in_map; auto). rewrite <- HPEN in Hp. destruct (_ && _)%bool in Hp; [|destruct Hp].
    unfold corr_shares in Hp. apply in_map_iff in Hp. destruct Hp as [k [E Hk]]. rewrite <- E in Ev. cbn [sh_var] in Ev. injection Ev as <-.
    rewrite HAM, decl_EM. apply in_or_app. left. exact Hk. }
  assert (WX : forall so, In so lb -> worth x 0 (fst so) == worth x1 0 (fst so)).
  { intros so Hso. apply worth_ext. intros v Ev j. rewrite (XAM v); [reflexivity|]. eapply PVS; eauto. }
  assert (SL : forall so, In so lb -> share_len 1 (fst so) /\ easy_share 1 (fst so)).
  { intros so Hso. assert (In (fst so) pen) as Hp by (rewrite <- G1; apply in_map; auto). rewrite Hks in Hp. apply in_map_iff in Hp. destruct Hp as [k [<- _]].
    split; [reflexivity|]. unfold easy_share. cbn. discriminate. }
  assert (YR : forall o, In o cos -> em_sat y (co_tree o)).
  { intros o Ho. apply FY. right. rewrite HR. apply in_or_app. left. apply in_map. exact Ho. }
  assert (RS : forall v, In v (List.concat vss) -> In v (flat_map decl rest) /\ var_sat y v /\ open_bin v).
  { intros v Hv. destruct (relevant_sound _ _ _ _ _ _ _ Ech Evs Hv) as [c0 [o [A [_ [_ [Hd _]]]]]]. apply in_combine_r in A. split; [exact (IR o A v Hd)|].
    split.
    - unfold decl in Hd. apply in_flat_map in Hd. destruct Hd as [m' [Hm' Hv']]. destruct (YR o A m' Hm') as [V _]. rewrite Forall_forall in V. auto.
    - destruct (mapM_In_inv _ _ _ _ E3 A) as [c1 [_ G]]. exact (comp_open _ _ _ _ _ G v Hd). }
  assert (SAM : forall p v, In p parts -> equate_indices ap pairs v = Ok p -> In v (List.concat vss) -> Forall (var_sat x) (fst p) /\ Forall (con_sat x) (snd p)).
  { intros [vs cs] v Hp Ev Hv. destruct (RS v Hv) as [Hr [VS OB]]. pose proof (INR v Hr) as XY.
    assert (Tam : em_translates am) by (apply TR; apply in_or_app; right; left; reflexivity). rewrite HAM in Tam.
    pose proof (em_translates_vars _ _ _ _ _ Tam) as TV. pose proof (em_translates_cons _ _ _ _ _ Tam) as TC. rewrite Forall_forall in TV, TC.
    destruct (RU v Hv) as [R1 R2]. cbn [fst snd]. apply (equate_admits ap pairs v vs cs x Ev).
    - apply Forall_forall. intros w Hw. apply TV. apply in_flat_map. exists (vs, cs). auto.
    - apply Forall_forall. intros w Hw. apply TC. apply in_flat_map. exists (vs, cs). auto.
    - intros KE i j Hij. rewrite XY. apply R2; auto. intros D. apply differ_keeps in D. auto.
    - intros KN. assert (MD : may_differ ap v) by (apply differ_keeps; exact KN). assert (Hfr : In v fr) by (apply filter_In; split; [exact Hv|apply keeps_or; exact KN]).
      split; [|split; [|split]].
      + intros i j Hij Hi Hj. rewrite XY. split; apply (var_sat_bin _ _ VS); auto; try apply OB; apply MD.
      + rewrite <- Zle_Qle. unfold deviations, differs. rewrite XY. apply (R1 MD).
      + destruct (XK (korr "Korr1_" (v_label v)) (up_at y (v_label v) pairs)) as [-> _].
        * unfold K, kvals. apply in_flat_map. exists v. split; [exact Hfr|left; reflexivity].
        * unfold up_at. rewrite XY. reflexivity.
      + destruct (XK (korr "Korr0_" (v_label v)) (down_at y (v_label v) pairs)) as [-> _].
        * unfold K, kvals. apply in_flat_map. exists v. split; [exact Hfr|right; left; reflexivity].
        * unfold down_at. rewrite XY. reflexivity. }
  assert (Hd : d == ag_penalty ap * Qsum (map (fun v => inject_Z (Z.of_nat (deviations y (v_label v) pairs))) fr)).
  { destruct (pen_worth _ _ _ _ _ _ _ E6) as [pairs' [vss' [P1 [[ch' [P2 P3]] [P4 _]]]]]. rewrite Epa in P1. injection P1 as <-. rewrite Ech in P2. injection P2 as <-.
    rewrite Evs in P3. injection P3 as <-. unfold d. rewrite (P4 x1). fold fr. rewrite map_map. apply Qmult_comp; [reflexivity|]. apply Qsum_map_eq.
    intros v Hv. assert (Hv' := Hv). apply filter_In in Hv'. destruct Hv' as [Hv1 Hv2]. apply keeps_or in Hv2.
    destruct (BaseFacts.mapM_In _ _ _ _ Ept Hv1) as [p [Ep Hp]]. destruct (SAM p v Hp Ep Hv1) as [S1 S2]. destruct p as [vs cs].
    pose proof (equate_exact ap pairs v vs cs x Ep Hv2 S1 S2) as EX.
    assert (DE : deviations x (v_label v) pairs = deviations y (v_label v) pairs) by (unfold deviations, differs; rewrite (INR v (proj1 (RS v Hv1))); reflexivity).
    rewrite DE in EX. rewrite <- EX. unfold corrections.
    destruct (XK (korr "Korr1_" (v_label v)) (up_at y (v_label v) pairs)) as [-> ->];
      [unfold K, kvals; apply in_flat_map; exists v; split; [exact Hv|left; reflexivity]|].
    destruct (XK (korr "Korr0_" (v_label v)) (down_at y (v_label v) pairs)) as [-> ->];
      [unfold K, kvals; apply in_flat_map; exists v; split; [exact Hv|right; left; reflexivity]|]. reflexivity. }
  exists x. split; [|split].
  - apply (system_feasible _ _ _ _ H). apply Forall_forall. intros m Hm. apply in_app_iff in Hm. destruct Hm as [[<-|Hm]|[<-|[]]].
    + assert (Tem : em_translates em') by (apply TR; apply in_or_app; left; left; reflexivity).
      assert (Yem : em_sat y em) by (apply FY; left; reflexivity). rewrite F2 in Yem. rewrite F3. rewrite F3 in Tem.
      assert (Tsa : em_translates (sa_tree sa')) by (eapply em_translates_sub; [exact Tem|apply in_or_app; right; left; reflexivity]). rewrite TS' in Tsa.
      assert (Ysa : em_sat y (sa_tree sa)) by (eapply em_sat_sub; [exact Yem|apply in_or_app; right; left; reflexivity]). rewrite TS in Ysa.
      apply em_sat_intro; [constructor|constructor|]. apply Forall_forall. intros k Hk. apply in_app_iff in Hk. destruct Hk as [Hk|[<-|[]]].
      * eapply em_sat_agree; [exact (F4 k Hk)| | |].
        -- intros v Hv. apply OTH. apply in_app_iff in Hv. destruct Hv as [Hv|Hv]; apply in_or_app; [auto|]. right. apply in_or_app. right. apply SHV. exact Hv.
        -- intros v Hv. apply OTH. apply in_or_app. left. apply in_flat_map. eauto.
        -- eapply em_sat_sub; [exact Yem|]. apply in_or_app. auto.
      * rewrite TS'. apply em_sat_intro.
        -- constructor; [|constructor]. apply free_var_sat; auto. exact (Forall_inv (em_translates_vars _ _ _ _ _ Tsa)).
        -- constructor; [|constructor]. eapply (add_total x y s c c' la lb d ES EC EC').
           ++ intros so Hso. refine (proj1 (single_share_spec x "Effects" (fst so) (snd so) 1 _ (proj1 (SL so Hso)) (G2 so Hso))). discriminate.
           ++ intros so i Hso. symmetry. apply OTH. apply in_or_app. right. apply in_or_app. left. apply in_flat_map. exists (ss_tree (snd so)).
              split; [unfold tl; apply in_map_iff; eauto|]. destruct (singles_fst _ _ _ (al_l _ _ _ _ _ _ _ A1)) as [_ G2']. rewrite (single_var_decl _ _ _ (G2' so Hso)). left; auto.
           ++ rewrite XPEN. reflexivity.
           ++ unfold d. rewrite <- G1, map_map. apply Qsum_map_eq. intros so Hso. rewrite (XSH so Hso). reflexivity.
           ++ exact (Forall_inv (em_translates_cons _ _ _ _ _ Tsa)).
           ++ exact (Forall_inv (em_sat_cons _ _ _ _ _ _ Ysa)).
        -- rewrite TLA. apply Forall_forall. intros k Hk. apply in_app_iff in Hk. unfold tl in Hk. destruct Hk as [Hk|Hk]; apply in_map_iff in Hk; destruct Hk as [so [<- Hso]].
           ++ destruct (singles_fst _ _ _ (al_l _ _ _ _ _ _ _ A1)) as [G1' G2']. destruct (single_closed _ _ _ (G2' so Hso)) as [C1 _].
              eapply em_sat_agree; [exact C1| | |].
              ** intros v Hv. apply OTH. apply in_or_app. right. apply in_app_iff in Hv. apply in_or_app. destruct Hv as [Hv|Hv].
                 --- left. apply in_flat_map. exists (ss_tree (snd so)). split; auto. unfold tl. apply in_map_iff. eauto.
                 --- right. apply SHV. apply A3. unfold shv. apply in_flat_map. exists (fst so). split; auto. rewrite <- G1'. apply in_map. auto.
              ** intros v Hv. apply OTH. apply in_or_app. right. apply in_or_app. left. apply in_flat_map. exists (ss_tree (snd so)). split; auto.
                 unfold tl. apply in_map_iff. eauto.
              ** eapply em_sat_sub; [exact Ysa|]. unfold tl. apply in_map_iff. eauto.
           ++ refine (single_admits x "Effects" (fst so) (snd so) 1 _ (proj1 (SL so Hso)) (proj2 (SL so Hso)) (G2 so Hso) _ _).
              ** discriminate.
              ** eapply em_translates_sub; [exact Tsa|]. rewrite TLA. apply in_or_app. right. unfold tl. apply in_map_iff. eauto.
              ** intros t Ht. replace t with 0%nat by lia. rewrite (XSH so Hso). cbv beta. symmetry. apply WX. exact Hso.
    + assert (SM : em_sat y m) by (apply FY; right; auto).
      assert (DM : forall v, In v (decl m) -> agree y x v).
      { intros v Hv. apply OTH. apply in_or_app. right. apply in_or_app. right. apply in_flat_map. eauto. }
      rewrite HR in Hm. apply in_app_iff in Hm. destruct Hm as [Hm|Hm]; apply in_map_iff in Hm.
      * destruct Hm as [o [<- Ho]]. eapply em_sat_agree; [exact (proj1 (COMP o Ho))|auto|auto|auto].
      * destruct Hm as [[m0 shs] [<- Hp]]. destruct (bus_from _ _ _ _ _ E4 _ _ Hp) as [b0 [ins [outs [G [G1' G2']]]]]. apply bus_closed in G.
        eapply em_sat_agree; [exact (proj1 G)| |auto|auto]. intros v Hv. apply in_app_iff in Hv. destruct Hv as [Hv|Hv]; [auto|].
        apply OTH. apply in_or_app. right. apply in_or_app. right. apply RATE. apply in_app_iff in Hv. destruct Hv; auto.
    + rewrite HAM. apply em_sat_intro; [| |constructor]; apply Forall_forall; intros w Hw; apply in_flat_map in Hw; destruct Hw as [p [Hp Hw]];
        destruct (mapM_In_inv _ _ _ _ Ept Hp) as [v [Hv Ep]]; destruct (SAM p v Hp Ep Hv) as [S1 S2]; rewrite Forall_forall in S1, S2; auto.
  - intros p i Hp N. destruct (program_labels _ _ _ T1 p Hp) as [v [Hv E]]. rewrite <- E in *. rewrite (SAME v Hv N). reflexivity.
  - rewrite XPEN. cbn [Nat.eqb]. rewrite Hd. reflexivity.
Qed.
