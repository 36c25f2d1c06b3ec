(** What the rows of shares and share allocations say. *)
From Verif Require Import Base BaseFacts MathModel Spec MathFacts Structure StructureFacts Params Features Elements System SysSpec
  CtxFacts ReadTools InvestFacts OnOffFacts FlowFacts NavFacts CompFacts.

(** The amount a share stands for. *)
Definition worth (x : asg) (t : nat) (sh : share) : Q :=
  match sh_var sh with
  | None => at_ (sh_factor sh) 0
  | Some v => if sh_as_sum sh then sumn (v_len v) (fun j => at_ (sh_factor sh) j * x (v_label v) j)
              else at_ (sh_factor sh) t * x (v_label v) t
  end.

(** A share with [n] entries. *)
Definition share_len (n : nat) (sh : share) : Prop :=
  match sh_var sh with
  | None => n = 1%nat /\ sh_as_sum sh = false
  | Some v => if sh_as_sum sh then n = 1%nat else good (sh_factor sh) /\ v_len v = n
  end.

Lemma single_share_spec : forall x elem sh o n, n <> 0%nat -> share_len n sh -> single_share elem sh = Ok o ->
  v_len (ss_var o) = n
  /\ (em_sat x (ss_tree o) ->
      (forall t, (t < n)%nat -> x (v_label (ss_var o)) t == worth x t sh)
      /\ (sh_var sh <> None -> sh_as_sum sh = false -> fits n (sh_factor sh))).
Proof.
  intros x elem sh o n NZ SL H. unfold single_share in H. bnd H u Eu. bnd H sv Esv. bnd H c Ec. bnd H m Em. fin H. simpl.
  unfold share_len in SL. unfold worth.
  assert (L : v_len sv = n).
  { destruct (sh_var sh) as [v|].
    - destruct (sh_as_sum sh); simpl in Esv.
      + unfold mk_variable in Esv. fin Esv. simpl. auto.
      + destruct SL as [_ <-]. destruct (Nat.eqb (v_len v) 1) eqn:E1.
        * apply Nat.eqb_eq in E1. unfold mk_variable in Esv. fin Esv. simpl. auto.
        * unfold mk_variable_ts in Esv. bnd Esv u0 Eu0. unfold mk_variable in Esv. simpl in Esv. fin Esv. reflexivity.
    - destruct SL as [-> SL]. destruct (sh_as_sum sh || is_scalar (sh_factor sh))%bool; [|discriminate].
      unfold mk_variable in Esv. fin Esv. reflexivity. }
  split; auto. intros S. apply mk_em_spec in Em. destruct Em as [-> _].
  pose proof (Forall_inv (em_sat_cons _ _ _ _ _ _ S)) as C1.
  destruct (sh_var sh) as [v|].
  - destruct (sh_as_sum sh) eqn:AS.
    + subst n. split; [|intros _ X; discriminate]. intros t Ht. assert (t = 0)%nat by lia. subst t.
      row Ec C1 1%nat 0%nat R. lra.
    + destruct SL as [G Lv].
      destruct (terms_law x KEq _ _ [(sv, NS (-1)); (v, sh_factor sh)] [] c n NZ Ec C1) as [F T]; [discriminate| |].
      { intros v0 a [X|[X|[]]]; inversion X; subst; split; auto with num. }
      split; [|intros _ _; eapply F; simpl; eauto]. intros t Ht. specialize (T t Ht). unfold rel in T.
      cbn [map fst snd] in T. rewrite !Qsum_cons in T. rewrite at_NS in T. simpl Qsum in T. lra.
  - destruct SL as [-> AS]. rewrite AS in *. split; [|congruence]. intros t Ht. assert (t = 0)%nat by lia. subst t.
    destruct (sh_factor sh) as [q|l]; [|discriminate]. simpl in Ec. row Ec C1 1%nat 0%nat R. simpl at_. lra.
Qed.

Lemma filter_all : forall {A} (p : A -> bool) l, (forall a, In a l -> p a = true) -> filter p l = l.
Proof. induction l as [|a l IH]; intros H; simpl; auto. rewrite H by (simpl; auto). f_equal. apply IH. intros; apply H; simpl; auto. Qed.
Lemma filter_none : forall {A} (p : A -> bool) l, (forall a, In a l -> p a = false) -> filter p l = [].
Proof. induction l as [|a l IH]; intros H; simpl; auto. rewrite H by (simpl; auto). apply IH. intros; apply H; simpl; auto. Qed.

Definition scall (so : share * ss_out) : call := AddS (ss_var (snd so)) (NS 1) None false.
Lemma scall_terms : forall l, map scall l = map tcall (map (fun so => (ss_var (snd so), NS 1)) l).
Proof. intros l. rewrite map_map. reflexivity. Qed.

(** Terms of an equation "-total + shares = 0". *)
Lemma total_law : forall x model label v (l : list (share * ss_out)) c n, n <> 0%nat -> v_len v = n ->
  create_equation model label KEq (AddS v (NS (-1)) None false :: map scall l) = Ok c -> con_sat x c ->
  (forall so, In so l -> v_len (ss_var (snd so)) = n) ->
  forall t, (t < n)%nat -> x (v_label v) t == Qsum (map (fun so => x (v_label (ss_var (snd so))) t) l).
Proof.
  intros x model label v l c n NZ Lv H C L t Ht. rewrite scall_terms in H.
  change (AddS v (NS (-1)) None false :: map tcall (map (fun so : share * ss_out => (ss_var (snd so), NS 1)) l))
    with (map tcall ((v, NS (-1)) :: map (fun so : share * ss_out => (ss_var (snd so), NS 1)) l)) in H.
  rewrite <- (app_nil_r (map tcall _)) in H.
  destruct (terms_law x KEq model label _ [] c n NZ H C) as [_ T]; [discriminate| |].
  { intros v0 a [X|X]; [inversion X; subst; auto with num|]. apply in_map_iff in X. destruct X as [so [X Hs]]. inversion X; subst. auto with num. }
  specialize (T t Ht). unfold rel in T. cbn [map fst snd] in T. rewrite Qsum_cons, at_NS in T. rewrite map_map in T. cbn [fst snd] in T.
  change (Qsum []) with 0 in T.
  assert (E : Qsum (map (fun so : share * ss_out => at_ (NS 1) t * x (v_label (ss_var (snd so))) t) l)
              == Qsum (map (fun so => x (v_label (ss_var (snd so))) t) l)).
  { apply Qsum_map_eq. intros a _. rewrite at_NS. lra. }
  rewrite E in T. lra.
Qed.

Definition singles_of (elem : string) (shs : list share) (l : list (share * ss_out)) : Prop :=
  mapM (fun sh => o <- single_share elem sh ;; Ok (sh, o)) shs = Ok l.
Lemma singles_fst : forall elem shs l, singles_of elem shs l -> map fst l = shs /\ forall so, In so l -> single_share elem (fst so) = Ok (snd so).
Proof.
  intros elem shs l H. unfold singles_of in H. apply mapM_Forall2 in H. induction H as [|sh so sl ol Hs _ [IH1 IH2]]; simpl; [split; [auto|tauto]|].
  bnd Hs o Eo. fin Hs. simpl. split; [congruence|]. intros so [<-|Hin]; auto.
Qed.

(** ** Allocation over time *)
Theorem alloc_ts_spec : forall x cx elem label tmin tmax phmin phmax shs o, ctx_ok cx ->
  (forall sh, In sh shs -> sh_as_sum sh = false /\ share_len (cx_n cx) sh) -> label <> ""%string ->
  share_alloc cx elem label true tmin tmax phmin phmax shs = Ok o -> em_sat x (sa_tree o) ->
  let full := cat [elem; "__"; label] in
  (forall t, (t < cx_n cx)%nat -> x (vlabel full (cat [label; "_sum_TS"])) t == Qsum (map (worth x t) shs))
  /\ (forall sh, In sh shs -> sh_var sh <> None -> fits (cx_n cx) (sh_factor sh))
  /\ x (vlabel full (cat [label; "_sum"])) 0%nat == sumn (cx_n cx) (fun t => x (vlabel full (cat [label; "_sum_TS"])) t)
  /\ (forall q, tmin = Some q -> q <= x (vlabel full (cat [label; "_sum"])) 0%nat)
  /\ (forall q, tmax = Some q -> x (vlabel full (cat [label; "_sum"])) 0%nat <= q)
  /\ (forall a t, phmin = Some a -> (t < cx_n cx)%nat -> in_rng a t /\ at_ a t * dt cx t <= x (vlabel full (cat [label; "_sum_TS"])) t)
  /\ (forall a t, phmax = Some a -> (t < cx_n cx)%nat -> in_rng a t /\ x (vlabel full (cat [label; "_sum_TS"])) t <= at_ a t * dt cx t)
  /\ sa_sum_ts o <> None /\ alloc_sum elem label tmin tmax = Ok (sa_sum o).
Proof.
  intros x cx elem label tmin tmax phmin phmax shs o CX SH NL H S full. pose proof (ok_pos _ CX) as NP.
  unfold share_alloc in H. bnd H u Eu. bnd H s Es. bnd H st Est. bnd H singles Esi. bnd H u2 Eu2. bnd H csum Ecs. bnd H cts Ects. bnd H m Em. fin H. cbn [sa_tree sa_sum sa_sum_ts] in *.
  bnd Est v Ev. fin Est.
  assert (FU : model_full elem (Some label) = full).
  { unfold model_full. destruct (String.eqb label "") eqn:X; auto. apply String.eqb_eq in X. congruence. }
  rewrite FU in *.
  destruct (singles_fst _ _ _ Esi) as [F1 F2].
  assert (AS : forall so, In so singles -> sh_as_sum (fst so) = false).
  { intros so Hso. apply SH. rewrite <- F1. apply in_map; auto. }
  rewrite (filter_none _ singles) in Ecs by (intros a Ha; rewrite (AS a Ha); auto).
  rewrite (filter_all _ singles) in Ects by (intros a Ha; rewrite (AS a Ha); auto).
  pose proof Es as Es0. unfold alloc_sum in Es. apply create_variable_spec in Es. unfold alloc_ts in Ev. bnd Ev lb Elb. bnd Ev ub Eub. apply create_variable_spec in Ev.
  rewrite FU in *.
  assert (Ls : v_len s = 1%nat /\ v_label s = vlabel full (cat [label; "_sum"]) /\ v_fixed s = None /\ v_lb s = opt_num tmin /\ v_ub s = opt_num tmax) by (subst s; auto 6).
  assert (Lv : v_len v = cx_n cx /\ v_label v = vlabel full (cat [label; "_sum_TS"]) /\ v_fixed v = None /\ v_lb v = lb /\ v_ub v = ub) by (subst v; auto 6).
  clear Es Ev. destruct Ls as [Ls [Ns [Fs [LBs UBs]]]]. destruct Lv as [Lv [Nv [Fv [LBv UBv]]]].
  bnd Ects c2 Ec2. apply Ok_inj in Ects; subst cts. apply mk_em_spec in Em. destruct Em as [-> _].
  pose proof (em_sat_vars _ _ _ _ _ _ S) as V. pose proof (em_sat_cons _ _ _ _ _ _ S) as C.
  pose proof (Forall_inv V) as V1. pose proof (Forall_inv (Forall_inv_tail V)) as V2. clear V.
  pose proof (Forall_inv C) as C1. pose proof (Forall_inv (Forall_inv_tail C)) as C2. clear C.
  assert (SP : forall so, In so singles -> v_len (ss_var (snd so)) = cx_n cx
             /\ (forall t, (t < cx_n cx)%nat -> x (v_label (ss_var (snd so))) t == worth x t (fst so))
             /\ (sh_var (fst so) <> None -> fits (cx_n cx) (sh_factor (fst so)))).
  { intros so Hso. assert (Hsh : In (fst so) shs) by (rewrite <- F1; apply in_map; auto).
    destruct (SH _ Hsh) as [A B]. destruct (single_share_spec x elem (fst so) (snd so) (cx_n cx) NP B (F2 so Hso)) as [L1 L2].
    destruct L2 as [L2 L3]. { eapply em_sat_sub; [exact S|]. apply in_map_iff. exists so; auto. }
    auto. }
  rewrite <- Nv, <- Ns.
  split.
  { intros t Ht. change (map (fun so : share * ss_out => AddS (ss_var (snd so)) (NS 1) None false) singles) with (map scall singles) in Ec2.
    rewrite (total_law x _ _ v singles c2 (cx_n cx) NP Lv Ec2 C2 (fun so Hso => proj1 (SP so Hso)) t Ht).
    rewrite <- F1, map_map. apply Qsum_map_eq. intros so Hso. apply SP; auto. }
  split.
  { intros sh Hsh. rewrite <- F1 in Hsh. apply in_map_iff in Hsh. destruct Hsh as [so [<- Hso]]. apply SP; auto. }
  split.
  { simpl in Ecs. row Ecs C1 1%nat 0%nat R.
    assert (E : sumn (v_len v) (fun j => at_ (NS 1) j * x (v_label v) j) == sumn (cx_n cx) (fun t => x (v_label v) t)).
    { rewrite Lv. apply sumn_ext. intros t _. rewrite at_NS. lra. }
    rewrite E in R. lra. }
  split. { intros q ->. apply (var_sat_lb x s (NS q) V1 Fs LBs 0%nat). lia. }
  split. { intros q ->. apply (var_sat_ub x s (NS q) V1 Fs UBs 0%nat). lia. }
  split.
  { intros a t -> Ht. simpl in Elb. bnd Elb b Eb. fin Elb. rewrite <- Lv in Ht.
    assert (R : in_rng b t). { apply in_rng_len. destruct (var_sat_lb_covers x v b V2 LBv t Ht) as [X|X]; auto. destruct b; [simpl; auto|discriminate]. }
    split. { assert (F : fits (v_len v) b). { intros i Hi. apply in_rng_len. destruct (var_sat_lb_covers x v b V2 LBv i Hi) as [X|X]; auto. destruct b; [simpl; auto|discriminate]. }
      destruct (fits_bcast2_inv _ _ _ _ _ Eb F) as [Fa _]. auto. }
    pose proof (var_sat_lb x v b V2 Fv LBv t Ht) as X. unfold nmul in Eb. rewrite (bcast2_at _ _ _ _ _ Eb R) in X. rewrite at_dt in X by (auto; lia). auto. }
  split.
  { intros a t -> Ht. simpl in Eub. bnd Eub b Eb. fin Eub. rewrite <- Lv in Ht.
    assert (R : in_rng b t). { apply in_rng_len. destruct (var_sat_ub_covers x v b V2 UBv t Ht) as [X|X]; auto. destruct b; [simpl; auto|discriminate]. }
    split. { assert (F : fits (v_len v) b). { intros i Hi. apply in_rng_len. destruct (var_sat_ub_covers x v b V2 UBv i Hi) as [X|X]; auto. destruct b; [simpl; auto|discriminate]. }
      destruct (fits_bcast2_inv _ _ _ _ _ Eb F) as [Fa _]. auto. }
    pose proof (var_sat_ub x v b V2 Fv UBv t Ht) as X. unfold nmul in Eb. rewrite (bcast2_at _ _ _ _ _ Eb R) in X. rewrite at_dt in X by (auto; lia). auto. }
  split; [discriminate|]. exact Es0.
Qed.

(** ** Allocation of single amounts *)
Theorem alloc_one_spec : forall x cx elem label tmin tmax shs o,
  (forall sh, In sh shs -> share_len 1 sh) -> label <> ""%string ->
  share_alloc cx elem label false tmin tmax None None shs = Ok o -> em_sat x (sa_tree o) ->
  let full := cat [elem; "__"; label] in
  x (vlabel full (cat [label; "_sum"])) 0%nat == Qsum (map (worth x 0) shs)
  /\ (forall q, tmin = Some q -> q <= x (vlabel full (cat [label; "_sum"])) 0%nat)
  /\ (forall q, tmax = Some q -> x (vlabel full (cat [label; "_sum"])) 0%nat <= q)
  /\ alloc_sum elem label tmin tmax = Ok (sa_sum o).
Proof.
  intros x cx elem label tmin tmax shs o SH NL H S full.
  unfold share_alloc in H. bnd H u Eu. bnd H s Es. bnd H st Est. bnd H singles Esi. bnd H u2 Eu2. bnd H csum Ecs. bnd H cts Ects. bnd H m Em. fin H. cbn [sa_tree sa_sum sa_sum_ts] in *.
  fin Est.
  assert (FU : model_full elem (Some label) = full).
  { unfold model_full. destruct (String.eqb label "") eqn:X; auto. apply String.eqb_eq in X. congruence. }
  rewrite FU in *.
  destruct (singles_fst _ _ _ Esi) as [F1 F2].
  rewrite (filter_all _ singles) in Ecs by (intros a Ha; apply orb_true_r).
  pose proof Es as Es0. unfold alloc_sum in Es. apply create_variable_spec in Es. rewrite FU in *.
  assert (Ls : v_len s = 1%nat /\ v_label s = vlabel full (cat [label; "_sum"]) /\ v_fixed s = None /\ v_lb s = opt_num tmin /\ v_ub s = opt_num tmax) by (subst s; auto 6).
  clear Es. destruct Ls as [Ls [Ns [Fs [LBs UBs]]]]. apply Ok_inj in Ects; subst cts. apply mk_em_spec in Em. destruct Em as [-> _].
  pose proof (em_sat_vars _ _ _ _ _ _ S) as V. pose proof (em_sat_cons _ _ _ _ _ _ S) as C.
  pose proof (Forall_inv V) as V1. pose proof (Forall_inv C) as C1. clear V C.
  assert (N1 : 1%nat <> 0%nat) by discriminate.
  assert (SP : forall so, In so singles -> v_len (ss_var (snd so)) = 1%nat
             /\ (forall t, (t < 1)%nat -> x (v_label (ss_var (snd so))) t == worth x t (fst so))).
  { intros so Hso. assert (Hsh : In (fst so) shs) by (rewrite <- F1; apply in_map; auto).
    destruct (single_share_spec x elem (fst so) (snd so) 1 N1 (SH _ Hsh) (F2 so Hso)) as [L1 L2].
    destruct L2 as [L2 L3]. { eapply em_sat_sub; [exact S|]. apply in_map_iff. exists so; auto. }
    auto. }
  rewrite <- Ns. split.
  { simpl app in Ecs. change (map (fun so : share * ss_out => AddS (ss_var (snd so)) (NS 1) None false) singles) with (map scall singles) in Ecs.
    rewrite (total_law x _ _ s singles csum 1 N1 Ls Ecs C1 (fun so Hso => proj1 (SP so Hso)) 0%nat) by lia.
    rewrite <- F1, map_map. apply Qsum_map_eq. intros so Hso. apply SP; auto. }
  split. { intros q ->. apply (var_sat_lb x s (NS q) V1 Fs LBs 0%nat). lia. }
  split; [|exact Es0]. intros q ->. apply (var_sat_ub x s (NS q) V1 Fs UBs 0%nat). lia.
Qed.
