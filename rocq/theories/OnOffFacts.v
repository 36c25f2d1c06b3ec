(** What the rows of an on/off model say. *)
From Verif Require Import Base BaseFacts MathModel Spec MathFacts Structure StructureFacts Params Features Elements System SysSpec CtxFacts ReadTools.

Lemma var_sat_ub_fits : forall x v u, var_sat x v -> v_ub v = Some u -> fits (v_len v) u.
Proof.
  intros x v u [p [T _]] H i Hi. unfold translate_variable in T. rewrite H in T. simpl in T. inv_ok.
  eapply as_vector_rng; eauto.
Qed.
Lemma var_sat_lb_fits : forall x v u, var_sat x v -> v_lb v = Some u -> fits (v_len v) u.
Proof.
  intros x v u [p [T _]] H i Hi. unfold translate_variable in T. rewrite H in T. simpl in T. inv_ok.
  eapply as_vector_rng; eauto.
Qed.

(** ** Duration *)

(** The rows of a duration model, read at a satisfying point: [b] is the state, [d] the consecutive hours. *)
Record duration_rows (cx : ctx) (b d : nat -> Q) (prev : Q) (dmin dmax : option param) : Prop := {
  du_nonneg : forall t, (t < cx_n cx)%nat -> 0 <= d t;
  du_first : d 0%nat == b 0%nat * (dt cx 0 + prev);
  du_up : forall t, (S t < cx_n cx)%nat -> d (S t) <= d t + dt cx (S t);
  du_low : forall t, (S t < cx_n cx)%nat -> d t + dt cx (S t) - (cx_total cx + prev) * (1 - b (S t)) <= d (S t);
  du_off : forall t, (t < cx_n cx)%nat -> d t <= (cx_total cx + prev) * b t;
  du_max : forall p t, dmax = Some p -> (t < cx_n cx)%nat -> d t <= value (cx_idx cx) p t;
  du_min : forall p, dmin = Some p -> forall m, act cx true p = Ok m -> fits (cx_n cx) m ->
           (forall t, (S t < cx_n cx)%nat -> value (cx_idx cx) p t * (b t - b (S t)) <= d t)
           /\ (0 < prev -> prev < value (cx_idx cx) p 0 -> b 0%nat == 1)
}.

Lemma removelast_len : forall {A} (l : list A), length (removelast l) = (length l - 1)%nat.
Proof.
  induction l as [|a [|b l] IH]; auto. change (removelast (a :: b :: l)) with (a :: removelast (b :: l)).
  cbn [length]. rewrite IH. simpl. lia.
Qed.
Lemma removelast_nth : forall (l : list Q) t, (S t < length l)%nat -> nth t (removelast l) 0 = nth t l 0.
Proof.
  induction l as [|a [|b l] IH]; intros t H; simpl in H; try lia.
  change (removelast (a :: b :: l)) with (a :: removelast (b :: l)). destruct t; auto.
  simpl. apply (IH t). simpl; lia.
Qed.

Lemma act_vec_len : forall cx tr p l, ctx_ok cx -> (2 <= cx_n cx)%nat -> act cx tr p = Ok (NV l) -> (2 <= length l)%nat.
Proof.
  intros cx tr p l [A B C _] N H. unfold act in H. inv_ok. apply make_scalar_spec in E0. unfold active_of in H.
  destruct (pdata p).
  - subst. destruct (cx_idx cx); inv_ok; discriminate.
  - destruct E0 as [_ [[q [-> _]]|[-> L]]]; [destruct (cx_idx cx); inv_ok; discriminate|].
    destruct (cx_idx cx) as [ix|] eqn:I; inv_ok.
    + injection H as ->. match goal with K : take_idx _ _ = Ok _ |- _ => destruct (take_idx_spec _ _ _ K) as [Lr _] end.
      rewrite Lr, (C _ eq_refl). auto.
    + injection H as <-. auto.
Qed.

Lemma nhead_at : forall a q, nhead a = Ok q -> at_ a 0%nat = q.
Proof. intros [y|[|y [|z l]]] q H; simpl in *; inv_ok; auto. Qed.

Lemma duration_spec : forall x cx tr full label b dmin dmax du,
  ctx_ok cx -> (2 <= cx_n cx)%nat -> v_len b = cx_n cx ->
  duration_model cx tr full label b dmin dmax = Ok du ->
  var_sat x (du_var du) -> Forall (con_sat x) (du_cons du) ->
  v_label (du_var du) = vlabel full label /\
  exists pv prev, prev_of b = Ok (Some pv) /\ consecutive_duration (cx_eps cx) pv (cx_prev cx) = Ok prev
    /\ duration_rows cx (fun t => x (v_label b) t) (fun t => x (vlabel full label) t) prev dmin dmax.
Proof.
  intros x cx tr full label b dmin dmax du CX N Lb H V C. unfold duration_model in H.
  bnd H pv0 Epv. bnd H pv Epv'. bnd H prev Eprev. bnd H mx Emx. bnd H u1 Ehd. bnd H d Ed.
  bnd H c1 E1. bnd H c2a E2a. bnd H c2b E2b. bnd H cmin Emin. bnd H dt0 Edt0. bnd H cf Ef. apply Ok_inj in H. subst du.
  simpl in V, C. unfold of_option in Epv'. destruct pv0; [apply Ok_inj in Epv'; subst n|discriminate].
  apply create_variable_spec in Ed.
  assert (Ld : v_len d = cx_n cx) by (subst d; reflexivity).
  assert (Nd : v_label d = vlabel full label) by (subst d; reflexivity).
  split; [exact Nd|].
  inversion C as [|? ? S1 C']; subst. inversion C' as [|? ? S2a C'']; subst. inversion C'' as [|? ? S2b C3]; subst. clear C C' C''.
  apply Forall_app in C3. destruct C3 as [Cmin Cf]. inversion Cf as [|? ? Sf _]; subst. clear Cf.
  pose proof (ok_n _ CX) as OKn.
  assert (Ldt : length (tl (cx_dt cx)) = (cx_n cx - 1)%nat) by (destruct (cx_dt cx); simpl in *; lia).
  assert (Gtl : forall g, good (NV (map g (tl (cx_dt cx))))) by (intros; unfold good; simpl; rewrite map_length; lia).
  assert (Gtl0 : good (NV (tl (cx_dt cx)))) by (unfold good; simpl; lia).
  assert (Ltl : forall t, (S t < cx_n cx)%nat -> at_ (NV (tl (cx_dt cx))) t = dt cx (S t)).
  { intros t Ht. rewrite at_NV by lia. unfold dt. destruct (cx_dt cx); simpl; auto. destruct t; auto. }
  assert (Ni : idx_next (cx_n cx) <> []) by (apply seq_ne; lia).
  assert (Pi : idx_prev (cx_n cx) <> []) by (apply seq_ne; lia).
  assert (Nb : v_len b <> 0%nat) by lia.
  exists pv, prev. split; [exact Epv|]. split; [exact Eprev|].
  set (mega := cx_total cx + prev) in *.
  set (D := mkVariable _ _ _ _ _ _ _ _ _) in *.
  assert (LD : v_len D = cx_n cx) by reflexivity. assert (ND : v_label D = vlabel full label) by reflexivity.
  assert (NzD : v_len D <> 0%nat) by lia.
  unfold idx_next, idx_prev in *.
  constructor.
  - intros t Ht. exact (var_sat_lb _ _ _ V eq_refl eq_refl t Ht).
  - row Ef Sf 1%nat 0%nat R. rewrite ND in R.
    unfold of_option in Edt0. destruct (nth_error (cx_dt cx) 0) eqn:X; [|discriminate]. apply Ok_inj in Edt0. subst q.
    unfold dt. rewrite (nth_error_nth _ _ 0 X). lra.
  - intros t Ht. row E2a S2a (cx_n cx - 1)%nat t R. rewrite ND, Ltl in R by lia.
    cbn [Nat.add] in R. lra.
  - intros t Ht. row E2b S2b (cx_n cx - 1)%nat t R. rewrite ND in R.
    rewrite at_map in R by lia. rewrite Ltl in R by lia. cbn [Nat.add] in R. fold mega. lra.
  - intros t Ht. row E1 S1 (cx_n cx) t R. rewrite ND in R. fold mega. lra.
  - intros p t -> Ht. simpl in Emx. bnd Emx m Em. fin Emx.
    assert (F : fits (cx_n cx) m) by (exact (var_sat_ub_fits _ _ _ V eq_refl)).
    destruct (act_spec _ _ _ _ CX Em) as [_ [_ A]]. rewrite <- (A t Ht (F t Ht)).
    exact (var_sat_ub _ _ _ V eq_refl eq_refl t Ht).
  - intros p -> m Hm F. bnd Emin m' Em. destruct (act_spec _ _ _ _ CX Em) as [-> [G A]].
    assert (m' = m) by congruence. subst m'.
    bnd Emin e1 Ee1. bnd Emin fst_ Efst. apply nhead_at in Efst.
    assert (Efst' : value (cx_idx cx) p 0 == fst_) by (rewrite <- A by (try apply F; lia); rewrite Efst; reflexivity).
    set (used := match m with NS q => NS q | NV l => NV (removelast l) end) in *.
    assert (U : (forall t, (S t < cx_n cx)%nat -> at_ used t = at_ m t) /\ good used).
    { subst used. destruct m as [q|l]; [split; [auto|discriminate]|].
      pose proof (act_vec_len _ _ _ _ CX N Em) as L2. split.
      - intros t Ht.
        specialize (F (S t) Ht). simpl in F. rewrite at_NV by (rewrite removelast_len; lia).
        rewrite at_NV by lia. apply removelast_nth. lia.
      - unfold good; simpl. rewrite removelast_len. lia. }
    destruct U as [U GU].
    assert (Cmin1 : con_sat x e1).
    { destruct (_ && _)%bool in Emin; inv_ok; inversion Cmin; auto. }
    split.
    + intros t Ht. row Ee1 Cmin1 (cx_n cx - 1)%nat t R.
      assert (FU : in_rng used t).
      { assert (X : fits (cx_n cx - 1) used) by (eapply row_fits; [exact Ee1|live_tac|ex_tac|right; right; left; reflexivity]).
        apply X. lia. }
      rewrite nmap_at in R by auto. rewrite U in R by auto. rewrite A in R by (try apply F; lia).
      rewrite ND in R. cbn [Nat.add] in R. lra.
    + intros P1 P2. destruct (negb (Qle_bool prev 0) && negb (Qle_bool fst_ prev))%bool eqn:X.
      * bnd Emin e2 Ee2. fin Emin. inversion Cmin as [|? ? _ Cm2]; subst. inversion Cm2 as [|? ? Cm3 _]; subst.
        row Ee2 Cm3 1%nat 0%nat R. lra.
      * exfalso. apply andb_false_iff in X. rewrite !negb_false_iff, !Qle_bool_iff in X. destruct X as [X|X]; lra.
Qed.

(** ** Coupling of the state with flow rates *)
Lemma Qmax_lub : forall x y z, x <= z -> y <= z -> Qmax_ x y <= z.
Proof. intros. unfold Qmax_. destruct (Qle_bool x y); auto. Qed.

Definition rate_sum (x : asg) (vars : list variable) (t : nat) : Q := Qsum (map (fun v => x (v_label v) t) vars).

Lemma sum_ubs : forall n bounds acc tot, (forall b, In b bounds -> good (snd b)) ->
  foldM (fun acc (b : numeric * numeric) => nadd acc (snd b)) bounds acc = Ok tot -> fits n tot ->
  fits n acc /\ (forall b, In b bounds -> fits n (snd b))
  /\ forall t, (t < n)%nat -> at_ tot t == at_ acc t + Qsum (map (fun b => at_ (snd b) t) bounds).
Proof.
  induction bounds as [|b bounds IH]; intros acc tot G H F; cbn [foldM] in H.
  - fin H. split; auto. split; [intros ? []|]. intros. simpl. lra.
  - bnd H s Es. destruct (IH _ _ (fun y Hy => G y (or_intror Hy)) H F) as [Fs [Fb As]].
    destruct (fits_bcast2_inv _ _ _ _ _ Es Fs) as [Fa Fbb]. split; auto. split; [intros y [<-|Hy]; auto|].
    intros t Ht. rewrite As by auto. rewrite (bcast2_at _ _ _ _ _ Es (Fs t Ht)). simpl. lra.
Qed.

Lemma sum_ubs_good : forall bounds acc tot, (forall b, In b bounds -> good (snd b)) -> good acc ->
  foldM (fun acc (b : numeric * numeric) => nadd acc (snd b)) bounds acc = Ok tot -> good tot.
Proof.
  induction bounds as [|b bounds IH]; intros acc tot G Ga H; cbn [foldM] in H; [fin H; auto|].
  bnd H s Es. eapply IH; [|eapply good_bcast2; eauto|exact H]; intros; apply G; [right|left]; auto.
Qed.

Lemma Qsum_lhs_map : forall x i (vars : list variable) q n, (forall v, In v vars -> v_len v = n) -> (i < n)%nat ->
  Qsum (map (call_lhs x i) (map (fun v => AddS v (NS q) (Some (seq 0 n)) false) vars)) == q * rate_sum x vars i.
Proof.
  intros x i vars q n L Hi. unfold rate_sum. induction vars as [|v vars IH]; [simpl; lra|].
  cbn [map]. rewrite !Qsum_cons. rewrite IH by (intros; apply L; right; auto).
  cbn [call_lhs]. rewrite pick_seq by auto. rewrite at_NS. simpl Nat.add. lra.
Qed.
Lemma Qsum_rhs_map : forall i (vars : list variable) q o,
  Qsum (map (call_rhs i) (map (fun v => AddS v (NS q) o false) vars)) == 0.
Proof. intros. induction vars; simpl; lra. Qed.
Lemma Forall_plain_map : forall (vars : list variable) f o, Forall plain (map (fun v => AddS v f o false) vars).
Proof. intros. apply Forall_forall. intros a Ha. apply in_map_iff in Ha. destruct Ha as [v [<- _]]. apply plain_false. Qed.
Lemma Forall_live_map : forall (vars : list variable) f l, l <> [] -> good f ->
  Forall live (map (fun v => AddS v f (Some l) false) vars).
Proof. intros. apply Forall_forall. intros a Ha. apply in_map_iff in Ha. destruct Ha as [v [<- _]]. apply live_some; auto. Qed.
Lemma Forall_live_map_none : forall (vars : list variable) f, good f -> (forall v, In v vars -> v_len v <> 0%nat) ->
  Forall live (map (fun v => AddS v f None false) vars).
Proof. intros. apply Forall_forall. intros a Ha. apply in_map_iff in Ha. destruct Ha as [v [<- Hv]]. apply live_none; auto. Qed.
Lemma Qsum_lhs_map_none : forall x i (vars : list variable) q n, (forall v, In v vars -> v_len v = n) -> (i < n)%nat ->
  Qsum (map (call_lhs x i) (map (fun v => AddS v (NS q) None false) vars)) == q * rate_sum x vars i.
Proof.
  intros x i vars q n L Hi. unfold rate_sum. induction vars as [|v vars IH]; [simpl; lra|].
  cbn [map]. rewrite !Qsum_cons. rewrite IH by (intros; apply L; right; auto).
  cbn [call_lhs]. rewrite pick_all by (rewrite (L v) by (left; auto); auto). rewrite at_NS. lra.
Qed.

(** [bounds] as given by the flows, before raising the lower ones to epsilon. *)
Definition coupled (x : asg) (cx : ctx) (on : string) (vars : list variable) (bounds : list (numeric * numeric)) : Prop :=
  forall t, (t < cx_n cx)%nat ->
  match vars, bounds with
  | [v], (lb, ub) :: _ =>
      x on t * cx_eps cx <= x (v_label v) t
      /\ x on t * at_ lb t <= x (v_label v) t
  | _, _ => x on t * cx_eps cx <= rate_sum x vars t
  end /\
  rate_sum x vars t <= x on t * Qsum (map (fun b => at_ (snd b) t) bounds).

Lemma raise_spec : forall eps bounds bounds',
  mapM (fun b : numeric * numeric => l <- nmax (fst b) (NS eps) ;; Ok (l, snd b)) bounds = Ok bounds' ->
  Forall2 (fun b b' => nmax (fst b) (NS eps) = Ok (fst b') /\ snd b' = snd b) bounds bounds'.
Proof.
  intros eps bounds bounds' H. apply mapM_Forall2 in H. induction H; constructor; auto.
  cbv beta in H. bnd H lo Elo. fin H. auto.
Qed.

Lemma on_coupled : forall x cx full on vars bounds bounds' cs,
  ctx_ok cx -> 0 <= cx_eps cx ->
  mapM (fun b : numeric * numeric => l <- nmax (fst b) (NS (cx_eps cx)) ;; Ok (l, snd b)) bounds = Ok bounds' ->
  length vars = length bounds -> (forall v, In v vars -> v_len v = cx_n cx) ->
  (forall b, In b bounds -> good (fst b) /\ good (snd b)) ->
  v_len on = cx_n cx -> (forall t, (t < cx_n cx)%nat -> x (v_label on) t == 0 \/ x (v_label on) t == 1) ->
  on_constraints cx full on vars bounds' = Ok cs -> Forall (con_sat x) cs ->
  vars <> [] /\ coupled x cx (v_label on) vars bounds
  /\ forall b, In b bounds -> fits (cx_n cx) (snd b) /\ (length vars = 1%nat -> fits (cx_n cx) (fst b)).
Proof.
  intros x cx full on vars bounds bounds' cs CX Ep Rs Lv Nv G Lon Bin H C.
  pose proof (ok_pos _ CX) as Np. pose proof (raise_spec _ _ _ Rs) as R2.
  assert (Nz : seq 0 (cx_n cx) <> []) by (apply seq_ne; auto).
  unfold on_constraints in H. destruct vars as [|v vars]; [discriminate|].
  split; [discriminate|].
  destruct vars as [|w vars].
  - (* one variable *)
    destruct bounds as [|b [|? ?]]; try discriminate. inversion R2 as [|? b' ? ? [Rl Rr] R2']; subst. inversion R2'; subst.
    destruct b as [lb ub], b' as [lb' ub']. simpl in Rl, Rr. subst ub'.
    bnd H l El. bnd H c1 E1. bnd H c2 E2. fin H.
    inversion C as [|? ? S1 C']; subst. inversion C' as [|? ? S2 _]; subst.
    destruct (G _ (or_introl eq_refl)) as [G1 G2]. simpl in G1, G2.
    assert (Gl' : good lb') by (eapply good_bcast2; [exact Rl|auto|apply good_NS]).
    assert (Gl : good l) by (eapply good_bcast2; [exact El|apply good_NS|auto]).
    assert (Lw : v_len v = cx_n cx) by (apply Nv; left; auto).
    assert (F1 : fits (cx_n cx) l) by (eapply row_fits; [exact E1|live_tac|ex_tac|right; left; reflexivity]).
    assert (F2 : fits (cx_n cx) ub)
      by (apply (fits_nmap _ Qopp); eapply row_fits; [exact E2|live_tac|ex_tac|right; left; reflexivity]).
    destruct (fits_bcast2_inv _ _ _ _ _ El F1) as [_ F1'].
    destruct (fits_bcast2_inv _ _ _ _ _ Rl F1') as [F1'' _].
    split; [|intros b [<-|[]]; auto].
    intros t Ht. cbn [coupled]. row E1 S1 (cx_n cx) t Q1. row E2 S2 (cx_n cx) t Q2. cbn [Nat.add] in *.
    rewrite nmap_at in Q2 by auto.
    rewrite (bcast2_at _ _ _ _ _ El (F1 t Ht)) in Q1. rewrite (bcast2_at _ _ _ _ _ Rl (F1' t Ht)) in Q1.
    rewrite at_NS in Q1. unfold rate_sum; simpl. split; [|lra].
    set (m := Qmax_ (cx_eps cx) (Qmax_ (at_ lb t) (cx_eps cx))) in *.
    assert (M1 : cx_eps cx <= m) by apply Qmax_ge_l.
    assert (M2 : at_ lb t <= m).
    { eapply Qle_trans; [apply Qmax_ge_l|apply Qmax_ge_r]. }
    destruct (Bin t Ht) as [B|B]; rewrite B in *; split; lra.
  - (* several *)
    set (vs := v :: w :: vars) in *.
    assert (Hc : exists total c1 c2,
       foldM (fun acc (b : numeric * numeric) => nadd acc (snd b)) bounds' (NS 0) = Ok total
       /\ create_equation full "On_Constraint_1" KIneq
              (map (fun v => AddS v (NS (-1)) (Some (seq 0 (cx_n cx))) false) vs ++
               [AddS on (NS (cx_eps cx)) (Some (seq 0 (cx_n cx))) false]) = Ok c1
       /\ create_equation full "On_Constraint_2" KIneq
              (map (fun v => AddS v (NS (1 / inject_Z (Z.of_nat (length vs)))) (Some (seq 0 (cx_n cx))) false) vs ++
               [AddS on (nmap (fun q => - (q / inject_Z (Z.of_nat (length vs)))) total) (Some (seq 0 (cx_n cx))) false]) = Ok c2
       /\ cs = [c1; c2]).
    { bnd H total Et. bnd H c1 E1. bnd H c2 E2. fin H. eauto 10. }
    destruct Hc as [total [c1 [c2 [Et [E1 [E2 ->]]]]]]. clear H.
    inversion C as [|? ? S1 C']; subst. inversion C' as [|? ? S2 _]; subst.
    set (k := inject_Z (Z.of_nat (length vs))) in *.
    assert (Kp : 0 < k).
    { subst k. change 0 with (inject_Z 0). rewrite <- Zlt_Qlt. subst vs. simpl length. lia. }
    assert (Snd : map snd bounds' = map snd bounds).
    { clear - R2. induction R2 as [|b b' ? ? [_ E] _ IH]; simpl; congruence. }
    assert (Gb' : forall b, In b bounds' -> good (snd b)).
    { intros b Hb. apply (in_map snd) in Hb. rewrite Snd in Hb. apply in_map_iff in Hb. destruct Hb as [b0 [<- Hb]].
      apply G; auto. }
    pose proof (sum_ubs_good _ _ _ Gb' (good_NS 0) Et) as Gt.
    assert (L1 : Forall live (map (fun v => AddS v (NS (1 / k)) (Some (seq 0 (cx_n cx))) false) vs ++
               [AddS on (nmap (fun q => - (q / k)) total) (Some (seq 0 (cx_n cx))) false])).
    { apply Forall_app. split; [apply Forall_live_map; auto with num|]. live_tac. }
    assert (X1 : Exists (fun a => call_len a = cx_n cx) (map (fun v => AddS v (NS (1 / k)) (Some (seq 0 (cx_n cx))) false) vs ++
               [AddS on (nmap (fun q => - (q / k)) total) (Some (seq 0 (cx_n cx))) false])).
    { subst vs. apply Exists_cons_hd. simpl. apply seq_length. }
    assert (Ft : fits (cx_n cx) total).
    { apply (fits_nmap _ (fun q => - (q / k))). eapply row_fits; [exact E2|exact L1|exact X1|].
      apply in_or_app. right. left. reflexivity. }
    destruct (sum_ubs _ _ _ _ Gb' Et Ft) as [_ [Fb At]].
    split; [|intros b Hb; split; [|subst vs; simpl; lia]].
    + intros t Ht. change (match vs with [v0] => match bounds with (lb, _) :: _ =>
         x (v_label on) t * cx_eps cx <= x (v_label v0) t /\ x (v_label on) t * at_ lb t <= x (v_label v0) t
         | [] => x (v_label on) t * cx_eps cx <= rate_sum x vs t end | _ => x (v_label on) t * cx_eps cx <= rate_sum x vs t end)
         with (x (v_label on) t * cx_eps cx <= rate_sum x vs t).
      assert (Q1 : rel KIneq (Qsum (map (call_lhs x t) (map (fun v => AddS v (NS (-1)) (Some (seq 0 (cx_n cx))) false) vs ++
               [AddS on (NS (cx_eps cx)) (Some (seq 0 (cx_n cx))) false])))
               (Qsum (map (call_rhs t) (map (fun v => AddS v (NS (-1)) (Some (seq 0 (cx_n cx))) false) vs ++
               [AddS on (NS (cx_eps cx)) (Some (seq 0 (cx_n cx))) false])))).
      { eapply row_law; [exact E1|exact S1| | | |exact Ht].
        - apply Forall_app; split; [apply Forall_plain_map|repeat constructor].
        - apply Forall_app; split; [apply Forall_live_map; auto with num|live_tac].
        - subst vs. apply Exists_cons_hd. simpl. apply seq_length. }
      assert (Q2 : rel KIneq (Qsum (map (call_lhs x t) (map (fun v => AddS v (NS (1 / k)) (Some (seq 0 (cx_n cx))) false) vs ++
               [AddS on (nmap (fun q => - (q / k)) total) (Some (seq 0 (cx_n cx))) false])))
               (Qsum (map (call_rhs t) (map (fun v => AddS v (NS (1 / k)) (Some (seq 0 (cx_n cx))) false) vs ++
               [AddS on (nmap (fun q => - (q / k)) total) (Some (seq 0 (cx_n cx))) false])))).
      { eapply row_law; [exact E2|exact S2| |exact L1|exact X1|exact Ht].
        apply Forall_app; split; [apply Forall_plain_map|repeat constructor]. }
      cbn [rel] in Q1, Q2. rewrite !map_app, !Qsum_app in Q1, Q2.
      rewrite (Qsum_lhs_map _ _ _ _ (cx_n cx) Nv Ht), Qsum_rhs_map in Q1.
      rewrite (Qsum_lhs_map _ _ _ _ (cx_n cx) Nv Ht), Qsum_rhs_map in Q2.
      cbn [map Qsum fold_right call_lhs call_rhs] in Q1, Q2. rewrite pick_seq in Q1, Q2 by auto.
      rewrite at_NS in Q1. rewrite nmap_at in Q2 by auto. cbn [Nat.add] in Q1, Q2. rewrite At in Q2 by auto.
      rewrite at_NS in Q2.
      assert (SS : Qsum (map (fun b => at_ (snd b) t) bounds') = Qsum (map (fun b => at_ (snd b) t) bounds)).
      { rewrite <- (map_map snd (fun s => at_ s t) bounds'), Snd, map_map. reflexivity. }
      rewrite SS in Q2. set (U := Qsum (map (fun b => at_ (snd b) t) bounds)) in *. set (r := rate_sum x vs t) in *.
      set (o := x (v_label on) t) in *. split; [lra|].
      assert (Q3 : k * (1 / k * r + (- ((0 + U) / k) * o + 0)) <= k * 0).
      { apply Qmult_le_l; [exact Kp|]. lra. }
      assert (Q4 : k * (1 / k * r + (- ((0 + U) / k) * o + 0)) == r - U * o) by (field; lra).
      rewrite Q4 in Q3. lra.
    + apply (in_map snd) in Hb. rewrite <- Snd in Hb. apply in_map_iff in Hb. destruct Hb as [b0 [<- Hb]]. auto.
Qed.

(** ** Switching *)
Record switch_rows (cx : ctx) (on son soff : nat -> Q) (nr last : Q) : Prop := {
  sw_first : son 0%nat - soff 0%nat == on 0%nat - last;
  sw_next : forall t, (S t < cx_n cx)%nat -> son (S t) - soff (S t) == on (S t) - on t;
  sw_excl : forall t, (t < cx_n cx)%nat -> son t + soff t <= 11 # 10;
  sw_nr : nr == sumn (cx_n cx) son
}.

Lemma switch_spec : forall x cx full on son soff nr prev_on cs,
  ctx_ok cx -> (2 <= cx_n cx)%nat -> v_len on = cx_n cx -> v_len son = cx_n cx -> v_len soff = cx_n cx -> v_len nr = 1%nat ->
  switch_constraints cx full on son soff nr prev_on = Ok cs -> Forall (con_sat x) cs ->
  exists last, nth_error (rev prev_on) 0 = Some last /\
  switch_rows cx (x (v_label on)) (x (v_label son)) (x (v_label soff)) (x (v_label nr) 0%nat) last.
Proof.
  intros x cx full on son soff nr prev_on cs CX N L1 L2 L3 L4 H C. unfold switch_constraints in H.
  bnd H c1 E1. bnd H lq El. bnd H c2 E2. bnd H c3 E3. bnd H c4 E4. fin H.
  inversion C as [|? ? S1 C1]; subst. inversion C1 as [|? ? S2 C2]; subst. inversion C2 as [|? ? S3 C3]; subst.
  inversion C3 as [|? ? S4 _]; subst. clear C C1 C2 C3.
  exists lq. split; [destruct (rev prev_on); [discriminate|]; simpl; congruence|].
  unfold idx_next, idx_prev in *. constructor.
  - row E2 S2 1%nat 0%nat R. lra.
  - intros t Ht. row E1 S1 (cx_n cx - 1)%nat t R. cbn [Nat.add] in R. lra.
  - intros t Ht. row E3 S3 (cx_n cx) t R. lra.
  - row E4 S4 1%nat 0%nat R. rewrite L2 in R.
    assert (X : sumn (cx_n cx) (fun j => -1 * x (v_label son) j) == -1 * sumn (cx_n cx) (x (v_label son)))
      by apply (Qsum_scale (-1) (x (v_label son))).
    change (fun j => -(1) * x (v_label son) j) with (fun j => -1 * x (v_label son) j) in R.
    assert (Y : sumn (cx_n cx) (fun j => at_ (NS (-1)) j * x (v_label son) j) == sumn (cx_n cx) (fun j => -1 * x (v_label son) j))
      by (apply sumn_ext; intros; rewrite at_NS; reflexivity).
    rewrite Y in R || idtac. rewrite X in R. lra.
Qed.

(** ** The whole on/off model *)
Record onoff_rows (x : asg) (cx : ctx) (elem : string) (p : onoff) (prev_on : list Q) (vars : list variable)
       (bounds : list (numeric * numeric)) : Prop := {
  oo_long : (2 <= cx_n cx)%nat;
  oo_bin : forall t, (t < cx_n cx)%nat -> x (oo elem "on") t == 0 \/ x (oo elem "on") t == 1;
  oo_total : x (oo elem "totalOnHours") 0%nat == sumn (cx_n cx) (fun t => dt cx t * x (oo elem "on") t);
  oo_total_min : forall q, oo_on_min p = Some q -> q <= x (oo elem "totalOnHours") 0%nat;
  oo_total_max : forall q, oo_on_max p = Some q -> x (oo elem "totalOnHours") 0%nat <= q;
  oo_vars : vars <> [];
  oo_coupled : coupled x cx (oo elem "on") vars bounds;
  oo_fits : forall b, In b bounds -> fits (cx_n cx) (snd b) /\ (length vars = 1%nat -> fits (cx_n cx) (fst b));
  oo_off : use_coff p = true -> forall t, (t < cx_n cx)%nat ->
             (x (oo elem "off") t == 0 \/ x (oo elem "off") t == 1) /\ x (oo elem "off") t + x (oo elem "on") t == 1;
  oo_con : use_con p = true -> exists prev,
             consecutive_duration (cx_eps cx) (NV prev_on) (cx_prev cx) = Ok prev
             /\ duration_rows cx (x (oo elem "on")) (x (oo elem "consecutiveOnHours")) prev (oo_con_min p) (oo_con_max p);
  oo_coff : use_coff p = true -> exists prev,
             consecutive_duration (cx_eps cx) (NV (map (fun q => 1 - q) prev_on)) (cx_prev cx) = Ok prev
             /\ duration_rows cx (x (oo elem "off")) (x (oo elem "consecutiveOffHours")) prev (oo_coff_min p) (oo_coff_max p);
  oo_sbin : forall t, (t < cx_n cx)%nat ->
             (x (oo elem "switchOn") t == 0 \/ x (oo elem "switchOn") t == 1)
             /\ (x (oo elem "switchOff") t == 0 \/ x (oo elem "switchOff") t == 1);
  oo_switch : exists last, nth_error (rev prev_on) 0 = Some last
             /\ switch_rows cx (x (oo elem "on")) (x (oo elem "switchOn")) (x (oo elem "switchOff"))
                  (x (oo elem "nrSwitchOn") 0%nat) last;
  oo_nr_max : forall q, oo_sw_max p = Some q -> x (oo elem "nrSwitchOn") 0%nat <= q
}.

Lemma sumn_dt : forall cx g, ctx_ok cx -> sumn (cx_n cx) (fun j => at_ (NV (cx_dt cx)) j * g j) == sumn (cx_n cx) (fun j => dt cx j * g j).
Proof. intros cx g CX. apply sumn_ext. intros t Ht. rewrite at_dt by auto. reflexivity. Qed.

Theorem onoff_spec : forall x cx tr elem p vars bounds o,
  ctx_ok cx -> 0 <= cx_eps cx ->
  (forall v, In v vars -> v_len v = cx_n cx) -> (forall b, In b bounds -> good (fst b) /\ good (snd b)) ->
  onoff_model cx tr elem p vars bounds = Ok o -> em_sat x (ot_tree o) ->
  v_label (ot_on o) = oo elem "on" /\ v_len (ot_on o) = cx_n cx /\ v_bin (ot_on o) = true
  /\ exists prev_on, previous_on_values (cx_eps cx) vars = Ok prev_on /\ onoff_rows x cx elem p prev_on vars bounds.
Proof.
  intros x cx tr elem p vars bounds o CX Ep Lv G H S. unfold onoff_model in H.
  bnd H bounds' Eb. bnd H u1 Elen. bnd H prev_on Ep0. bnd H on Eon. bnd H tot Etot. bnd H ctot Ectot. bnd H con Econ.
  bnd H vo Evo. destruct vo as [voff coff]. bnd H vd1 Ed1. destruct vd1 as [v1 k1]. bnd H vd2 Ed2. destruct vd2 as [v2 k2].
  bnd H vs3 Es3. destruct vs3 as [[v3 k3] sw]. bnd H sh1 Esh1. bnd H sh2 Esh2. bnd H m Em. fin H. simpl in S.
  apply mk_em_spec in Em. destruct Em as [-> _].
  pose proof (em_sat_vars _ _ _ _ _ _ S) as V. pose proof (em_sat_cons _ _ _ _ _ _ S) as C. clear S.
  unfold assert_ in Elen. destruct (Nat.eqb _ _) eqn:Elen' in Elen; [|discriminate]. apply Nat.eqb_eq in Elen'. clear Elen.
  apply create_variable_spec in Eon. apply create_variable_spec in Etot.
  change (vlabel (model_full elem (Some "OnOff"))) with (oo elem) in *.
  (* switching part *)
  unfold use_switch_on in Es3. cbn [orb] in Es3.
  bnd Es3 son Eson. bnd Es3 soff Esoff. bnd Es3 nr Enr. bnd Es3 u2 Ets. bnd Es3 ks Eks. apply Ok_inj in Es3. inversion Es3; subst v3 k3 sw. clear Es3.
  apply create_variable_spec in Eson. apply create_variable_spec in Esoff. apply create_variable_spec in Enr.
  change (vlabel (model_full elem (Some "OnOff"))) with (oo elem) in *.
  unfold guard in Ets. destruct (v_ts on) eqn:Ts in Ets; [|discriminate]. clear Ets.
  assert (N2 : (2 <= cx_n cx)%nat) by (subst on; simpl in Ts; apply Nat.ltb_lt in Ts; lia).
  assert (Lon : v_len on = cx_n cx) by (subst on; auto). assert (Non : v_label on = oo elem "on") by (subst on; auto).
  assert (Pon : prev_of on = Ok (Some (NV prev_on))).
  { subst on. unfold prev_of. simpl in *. rewrite Ts. reflexivity. }
  repeat (rewrite Forall_app in V; destruct V as [? V]). rename V into V3.
  match goal with K : Forall _ [on; tot] |- _ => inversion K as [|? ? Von Kt]; inversion Kt as [|? ? Vtot _]; clear K Kt end.
  inversion V3 as [|? ? Vson V3']; subst. inversion V3' as [|? ? Vsoff V3'']; subst. inversion V3'' as [|? ? Vnr _]; subst. clear V3 V3' V3''.
  rewrite !Forall_app in C. destruct C as [Ct [Cc [Coff [Ck1 [Ck2 Ck3]]]]]. inversion Ct as [|? ? Stot _]; subst. clear Ct.
  set (ON := mkVariable (oo elem "on") _ _ _ _ _ _ _ _) in *.
  split; [reflexivity|]. split; [reflexivity|]. split; [reflexivity|]. exists prev_on. split; [exact Ep0|].
  assert (Bin : forall t, (t < cx_n cx)%nat -> x (oo elem "on") t == 0 \/ x (oo elem "on") t == 1).
  { intros t Ht. exact (var_sat_bin _ _ Von eq_refl eq_refl t Ht). }
  destruct (on_coupled x cx _ ON vars bounds bounds' con CX Ep Eb Elen' Lv G eq_refl Bin Econ Cc) as [Ne [Cp Fi]].
  assert (Off : use_coff p = true -> exists off, voff = [off] /\ v_label off = oo elem "off" /\ v_len off = cx_n cx
             /\ prev_of off = Ok (Some (NV (map (fun q => 1 - q) prev_on)))
             /\ forall t, (t < cx_n cx)%nat -> (x (oo elem "off") t == 0 \/ x (oo elem "off") t == 1) /\ x (oo elem "off") t + x (oo elem "on") t == 1).
  { intros U. unfold use_off in Evo. rewrite U in Evo. bnd Evo off Eoff. bnd Evo c Ec. apply Ok_inj in Evo. inversion Evo; subst voff coff.
    apply create_variable_spec in Eoff. change (vlabel (model_full elem (Some "OnOff"))) with (oo elem) in *.
    exists off. split; [reflexivity|].
    match goal with K : Forall _ [off] |- _ => inversion K as [|? ? Voff _]; clear K end. subst off.
    split; [reflexivity|]. split; [reflexivity|]. split; [unfold prev_of; simpl; simpl in Ts; rewrite Ts; reflexivity|].
    intros t Ht. split; [exact (var_sat_bin _ _ Voff eq_refl eq_refl t Ht)|].
    inversion Coff as [|? ? So _]; subst. row Ec So (cx_n cx) t R. cbn [Nat.add] in R. change (v_label ON) with (oo elem "on") in R. lra. }
  constructor; auto.
  - row Ectot Stot 1%nat 0%nat R. change (v_len ON) with (cx_n cx) in R. change (v_label ON) with (oo elem "on") in R.
    rewrite sumn_dt in R by auto. lra.
  - intros q Q0. apply (var_sat_lb _ _ (NS q) Vtot); [reflexivity|simpl; unfold opt_num; rewrite Q0; reflexivity|simpl; lia].
  - intros q Q0. apply (var_sat_ub _ _ (NS q) Vtot); [reflexivity|simpl; unfold opt_num; rewrite Q0; reflexivity|simpl; lia].
  - intros U. destruct (Off U) as [off [_ [_ [_ [_ R]]]]]. exact R.
  - intros U. rewrite U in Ed1. bnd Ed1 du Edu. apply Ok_inj in Ed1. inversion Ed1; subst v1 k1.
    match goal with K : Forall _ [du_var du] |- _ => inversion K as [|? ? Vdu _]; clear K end. subst.
    destruct (duration_spec x _ _ _ _ _ _ _ _ CX N2 Lon Edu Vdu Ck1) as [_ [pv [prev [P1 [P2 P3]]]]].
    assert (pv = NV prev_on) by congruence. subst pv. exists prev. split; [exact P2|exact P3].
  - intros U. destruct (Off U) as [off [-> [No [Lo [Po _]]]]]. rewrite U in Ed2. bnd Ed2 off' Eo. simpl in Eo. apply Ok_inj in Eo. subst off'.
    bnd Ed2 du Edu. apply Ok_inj in Ed2. inversion Ed2; subst v2 k2.
    match goal with K : Forall _ [du_var du] |- _ => inversion K as [|? ? Vdu _]; clear K end. subst.
    destruct (duration_spec x _ _ _ _ _ _ _ _ CX N2 Lo Edu Vdu Ck2) as [_ [pv [prev [P1 [P2 P3]]]]].
    rewrite No in P3. assert (pv = NV (map (fun q => 1 - q) prev_on)) by congruence. subst pv. exists prev. split; [exact P2|exact P3].
  - intros t Ht. split; [exact (var_sat_bin _ _ Vson eq_refl eq_refl t Ht)|exact (var_sat_bin _ _ Vsoff eq_refl eq_refl t Ht)].
  - eapply switch_spec in Eks; eauto; exact Eks.
  - intros q Q0. apply (var_sat_ub _ _ (NS q) Vnr); [reflexivity|simpl; unfold opt_num; rewrite Q0; reflexivity|simpl; lia].
Qed.
