(** Shares and share allocations do not exclude anything but wrong totals: a point whose totals are right satisfies them, once
    the variables of the single shares hold what the shares are worth. *)
From Coq Require Import String Permutation.
From Verif Require Import Base BaseFacts MathModel Spec MathFacts Structure StructureFacts Params Features Elements System SysSpec
  CtxFacts ReadTools InvestFacts OnOffFacts FlowFacts NavFacts CompFacts SegFacts BusFacts ShareFacts EffectFacts EffectLaws
  OnOffAdmits FlowAdmits SegAdmits ClosedFacts GlueFacts.

Lemma free_var_sat : forall x v, v_translates v -> v_fixed v = None -> v_bin v = false -> v_lb v = None -> v_ub v = None -> var_sat x v.
Proof. intros x v T F B L U. apply var_sat_intro; auto; [rewrite B; discriminate|rewrite L; discriminate|rewrite U; discriminate]. Qed.

Lemma single_shape : forall elem sh o, single_share elem sh = Ok o ->
  exists f l c, ss_tree o = EM f l [ss_var o] [c] []
    /\ v_fixed (ss_var o) = None /\ v_bin (ss_var o) = false /\ v_lb (ss_var o) = None /\ v_ub (ss_var o) = None
    /\ create_equation f f KEq
         (AddS (ss_var o) (NS (-1)) None false ::
          [match sh_var sh with
           | None => AddC (if sh_as_sum sh then NS (- Qsum (nlist (sh_factor sh))) else nmap Qopp (sh_factor sh))
           | Some v => AddS v (sh_factor sh) None (sh_as_sum sh)
           end]) = Ok c
    /\ (sh_var sh = None -> sh_as_sum sh = false -> is_scalar (sh_factor sh) = true).
Proof.
  intros elem sh o H. unfold single_share in H. bnd H u Eu. bnd H sv Esv. bnd H c Ec. bnd H m Em. apply Ok_inj in H. subst o.
  cbn [ss_tree ss_var]. apply mk_em_spec in Em. destruct Em as [-> _]. eexists _, _, c. split; [reflexivity|].
  assert (V : v_fixed sv = None /\ v_bin sv = false /\ v_lb sv = None /\ v_ub sv = None).
  { destruct (sh_as_sum sh || _)%bool.
    - unfold mk_variable in Esv. fin Esv. auto.
    - destruct (sh_var sh); [|discriminate]. unfold mk_variable_ts in Esv. bnd Esv u0 Eu0. unfold mk_variable in Esv. simpl in Esv. fin Esv. auto. }
  destruct V as [V1 [V2 [V3 V4]]]. do 4 (split; [auto|]). split; [exact Ec|].
  intros N A. rewrite N, A in Esv. destruct (is_scalar (sh_factor sh)); [reflexivity|discriminate].
Qed.

Definition easy_share (n : nat) (sh : share) : Prop :=
  sh_as_sum sh = false -> sh_var sh <> None -> (2 <= n)%nat \/ exists q, sh_factor sh = NS q.

Lemma single_admits : forall x elem sh o n, n <> 0%nat -> share_len n sh -> easy_share n sh ->
  single_share elem sh = Ok o -> em_translates (ss_tree o) ->
  (forall t, (t < n)%nat -> x (v_label (ss_var o)) t == worth x t sh) -> em_sat x (ss_tree o).
Proof.
  intros x elem sh o n NZ SL ES H T W. pose proof (proj1 (single_share_spec x _ _ _ _ NZ SL H)) as Lsv.
  destruct (single_shape _ _ _ H) as [f [l [c [ET [V1 [V2 [V3 [V4 [Ec SC]]]]]]]]]. rewrite ET in *. clear ET.
  pose proof (Forall_inv (em_translates_cons _ _ _ _ _ T)) as TC. pose proof (Forall_inv (em_translates_vars _ _ _ _ _ T)) as TV.
  apply em_sat_intro; [constructor; [apply free_var_sat; auto|constructor]| |constructor].
  constructor; [|constructor]. unfold share_len in SL. unfold worth in W.
  destruct (sh_var sh) as [v|] eqn:Ev.
  - destruct (sh_as_sum sh) eqn:AS.
    + subst n. specialize (W 0%nat ltac:(lia)). rowi Ec TC 1%nat i. assert (i = 0)%nat by lia. subst i. lra.
    + destruct SL as [G Lv].
      destruct ES as [N2|[q Eq]]; auto; [congruence| |].
      * refine (con_sat_rows_n x _ _ _ _ _ n Ec TC _ _ N2 _).
        -- repeat constructor; apply plain_false.
        -- left. cbn [call_len nlen Nat.eqb]. auto.
        -- intros i Hi. specialize (W i Hi). cbn [map call_lhs call_rhs rel]. rewrite !Qsum_cons. rewrite !pick_all by lia. rewrite at_NS.
           unfold rel. cbn [Qsum fold_right]. lra.
      * rewrite Eq in *. rowi Ec TC n i. specialize (W i Hi). rewrite at_NS in W. lra.
  - destruct SL as [-> AS]. rewrite AS in *. specialize (W 0%nat ltac:(lia)). specialize (SC eq_refl eq_refl).
    destruct (sh_factor sh) as [q|k]; [|discriminate]. cbn [nmap] in Ec.
    rowi Ec TC 1%nat i. assert (i = 0)%nat by lia. subst i. rewrite at_NS in W. lra.
Qed.

(** ** Allocations *)

(** What an allocation consists of. *)
Definition sa_own (o : sa_out) : list variable := sa_sum o :: ovar (sa_sum_ts o).
Definition ssv (so : share * ss_out) : variable := ss_var (snd so).

Lemma alloc_decl : forall cx elem label ts tmin tmax phmin phmax shs o,
  share_alloc cx elem label ts tmin tmax phmin phmax shs = Ok o ->
  exists singles, singles_of elem shs singles /\ decl (sa_tree o) = sa_own o ++ map ssv singles.
Proof.
  intros cx elem label ts tmin tmax phmin phmax shs o H. unfold share_alloc in H.
  bnd H u E1. bnd H s E2. bnd H st E3. bnd H singles E4. bnd H u' E5. bnd H csum E6. bnd H cts E7. bnd H m E8. apply Ok_inj in H. subst o.
  exists singles. split; [exact E4|]. apply mk_em_spec in E8. destruct E8 as [-> _]. unfold sa_own. cbn [sa_tree sa_sum sa_sum_ts]. rewrite decl_EM.
  f_equal. destruct (singles_fst _ _ _ E4) as [_ F]. clear - F. induction singles as [|so l IH]; [reflexivity|].
  cbn [map flat_map]. rewrite IH by (intros; apply F; simpl; auto). destruct (single_shape _ _ _ (F so (or_introl eq_refl))) as [f [lb [c [-> _]]]].
  rewrite decl_EM. reflexivity.
Qed.

Lemma single_len : forall elem sh o n, n <> 0%nat -> share_len n sh -> single_share elem sh = Ok o -> v_len (ss_var o) = n.
Proof. intros elem sh o n NZ SL H. exact (proj1 (single_share_spec (fun _ _ => 0) elem sh o n NZ SL H)). Qed.

Lemma total_admits : forall x model label v (l : list (share * ss_out)) c n, n <> 0%nat -> v_len v = n ->
  create_equation model label KEq (AddS v (NS (-1)) None false :: map scall l) = Ok c -> c_translates c ->
  (forall so, In so l -> v_len (ss_var (snd so)) = n) ->
  (forall t, (t < n)%nat -> x (v_label v) t == Qsum (map (fun so => x (v_label (ss_var (snd so))) t) l)) -> con_sat x c.
Proof.
  intros x model label v l c n NZ Lv H C L R. rewrite scall_terms in H.
  change (AddS v (NS (-1)) None false :: map tcall (map (fun so : share * ss_out => (ss_var (snd so), NS 1)) l))
    with (map tcall ((v, NS (-1)) :: map (fun so : share * ss_out => (ss_var (snd so), NS 1)) l)) in H.
  rewrite <- (app_nil_r (map tcall _)) in H. change [] with (map qcall []) in H.
  refine (terms_admit x KEq model label _ [] c n NZ H C _ _).
  - intros v0 a [X|X]; [inversion X; subst; auto|]. apply in_map_iff in X. destruct X as [so [X Hs]]. inversion X; subst. auto.
  - intros t Ht. unfold rel. cbn [map fst snd]. rewrite Qsum_cons, at_NS, map_map. cbn [fst snd]. rewrite (R t Ht).
    rewrite (Qsum_map_eq (fun so : share * ss_out => at_ (NS 1) t * x (v_label (ss_var (snd so))) t) (fun so => x (v_label (ss_var (snd so))) t))
      by (intros; rewrite at_NS; ring). cbn [Qsum fold_right]. ring.
Qed.

Theorem alloc_ts_admits : forall x cx elem label tmin tmax phmin phmax shs o, ctx_ok cx -> (2 <= cx_n cx)%nat ->
  (forall sh, In sh shs -> sh_as_sum sh = false /\ share_len (cx_n cx) sh) -> label <> ""%string ->
  share_alloc cx elem label true tmin tmax phmin phmax shs = Ok o -> em_translates (sa_tree o) ->
  let full := cat [elem; "__"; label] in
  (forall sh so t, In sh shs -> single_share elem sh = Ok so -> (t < cx_n cx)%nat -> x (v_label (ss_var so)) t == worth x t sh) ->
  (forall t, (t < cx_n cx)%nat -> x (vlabel full (cat [label; "_sum_TS"])) t == Qsum (map (worth x t) shs)) ->
  x (vlabel full (cat [label; "_sum"])) 0%nat == sumn (cx_n cx) (fun t => x (vlabel full (cat [label; "_sum_TS"])) t) ->
  (forall q, tmin = Some q -> q <= x (vlabel full (cat [label; "_sum"])) 0%nat) ->
  (forall q, tmax = Some q -> x (vlabel full (cat [label; "_sum"])) 0%nat <= q) ->
  (forall a t, phmin = Some a -> (t < cx_n cx)%nat -> in_rng a t -> at_ a t * dt cx t <= x (vlabel full (cat [label; "_sum_TS"])) t) ->
  (forall a t, phmax = Some a -> (t < cx_n cx)%nat -> in_rng a t -> x (vlabel full (cat [label; "_sum_TS"])) t <= at_ a t * dt cx t) ->
  em_sat x (sa_tree o).
Proof.
  intros x cx elem label tmin tmax phmin phmax shs o CX N2 SH NL H T full W WT WS B1 B2 B3 B4. pose proof (ok_pos _ CX) as NP.
  unfold share_alloc in H. bnd H u Eu. bnd H s Es. bnd H st Est. bnd H singles Esi. bnd H u2 Eu2. bnd H csum Ecs. bnd H cts Ects. bnd H m Em. fin H. cbn [sa_tree] in *.
  bnd Est v Ev. fin Est.
  assert (FU : model_full elem (Some label) = full).
  { unfold model_full. destruct (String.eqb label "") eqn:X; auto. apply String.eqb_eq in X. congruence. }
  rewrite FU in *.
  destruct (singles_fst _ _ _ Esi) as [F1 F2].
  assert (AS : forall so, In so singles -> sh_as_sum (fst so) = false).
  { intros so Hso. apply SH. rewrite <- F1. apply in_map; auto. }
  rewrite (filter_none _ singles) in Ecs by (intros a Ha; rewrite (AS a Ha); auto).
  rewrite (filter_all _ singles) in Ects by (intros a Ha; rewrite (AS a Ha); auto).
  unfold alloc_sum in Es. apply create_variable_spec in Es. unfold alloc_ts in Ev. bnd Ev lb Elb. bnd Ev ub Eub. apply create_variable_spec in Ev.
  rewrite FU in *.
  assert (Ls : v_len s = 1%nat /\ v_label s = vlabel full (cat [label; "_sum"]) /\ v_fixed s = None /\ v_bin s = false /\ v_lb s = opt_num tmin /\ v_ub s = opt_num tmax) by (subst s; auto 7).
  assert (Lv : v_len v = cx_n cx /\ v_label v = vlabel full (cat [label; "_sum_TS"]) /\ v_fixed v = None /\ v_bin v = false /\ v_lb v = lb /\ v_ub v = ub) by (subst v; auto 7).
  clear Es Ev. destruct Ls as [Ls [Ns [Fs [Bs [LBs UBs]]]]]. destruct Lv as [Lv [Nv [Fv [Bv [LBv UBv]]]]].
  bnd Ects c2 Ec2. apply Ok_inj in Ects; subst cts. apply mk_em_spec in Em. destruct Em as [-> _].
  pose proof (em_translates_vars _ _ _ _ _ T) as V. pose proof (em_translates_cons _ _ _ _ _ T) as C.
  pose proof (Forall_inv V) as V1. pose proof (Forall_inv (Forall_inv_tail V)) as V2. clear V.
  pose proof (Forall_inv C) as C1. pose proof (Forall_inv (Forall_inv_tail C)) as C2. clear C.
  rewrite <- Nv, <- Ns in *.
  assert (BD : forall b a, nmul a (NV (cx_dt cx)) = Ok b -> forall t, (t < cx_n cx)%nat -> in_rng a t /\ at_ b t == at_ a t * dt cx t).
  { intros b a Eb t Ht. assert (F : fits (cx_n cx) b).
    { unfold nmul in Eb. destruct (bcast2_len _ _ _ _ Eb) as [_ [A|A]]; simpl in A; rewrite (ok_n _ CX) in A; [|lia]. apply fits_len; auto. }
    destruct (fits_bcast2_inv _ _ _ _ _ Eb F) as [Fa _]. split; [auto|]. unfold nmul in Eb. rewrite (bcast2_at _ _ _ _ _ Eb (F t Ht)), at_dt by auto. reflexivity. }
  apply em_sat_intro.
  - constructor; [|constructor; [|constructor]].
    + apply var_sat_intro; auto; [rewrite Bs; discriminate| |]; intros l i E Hi; assert (i = 0)%nat by lia; subst i;
        [rewrite LBs in E; destruct tmin|rewrite UBs in E; destruct tmax]; try discriminate E; injection E as <-; rewrite at_NS; auto.
    + apply var_sat_intro; auto; [rewrite Bv; discriminate| |]; intros l i E Hi; rewrite Lv in Hi.
      * rewrite LBv in E. rewrite E in Elb. destruct phmin as [a|]; simpl in Elb; [|discriminate Elb]. bnd Elb b Eb. injection Elb as <-.
        destruct (BD _ _ Eb i Hi) as [R ->]. apply B3; auto.
      * rewrite UBv in E. rewrite E in Eub. destruct phmax as [a|]; simpl in Eub; [|discriminate Eub]. bnd Eub b Eb. injection Eub as <-.
        destruct (BD _ _ Eb i Hi) as [R ->]. apply B4; auto.
  - constructor; [|constructor; [|constructor]].
    + simpl in Ecs. rowi Ecs C1 1%nat i. assert (i = 0)%nat by lia. subst i.
      assert (E : sumn (v_len v) (fun j => at_ (NS 1) j * x (v_label v) j) == sumn (cx_n cx) (fun t => x (v_label v) t)).
      { rewrite Lv. apply sumn_ext. intros t _. rewrite at_NS. lra. }
      rewrite E. lra.
    + change (map (fun so : share * ss_out => AddS (ss_var (snd so)) (NS 1) None false) singles) with (map scall singles) in Ec2.
      refine (total_admits x _ _ v singles c2 (cx_n cx) NP Lv Ec2 C2 _ _).
      * intros so Hso. eapply single_len; [exact NP| |apply F2; exact Hso]. apply SH. rewrite <- F1. apply in_map; auto.
      * intros t Ht. rewrite (WT t Ht). rewrite <- F1, map_map. apply Qsum_map_eq. intros so Hso. symmetry. apply W; auto. rewrite <- F1. apply in_map; auto.
  - apply Forall_forall. intros m Hm. pose proof (em_translates_sub _ _ _ _ _ _ T Hm) as Tm. apply in_map_iff in Hm. destruct Hm as [so [<- Hso]].
    assert (Hsh : In (fst so) shs) by (rewrite <- F1; apply in_map; auto). destruct (SH _ Hsh) as [_ SL].
    refine (single_admits x elem (fst so) (snd so) (cx_n cx) NP SL _ (F2 so Hso) Tm _).
    + intros _ _. auto.
    + intros t Ht. apply W; auto.
Qed.

Theorem alloc_one_admits : forall x cx elem label tmin tmax shs o,
  (forall sh, In sh shs -> share_len 1 sh /\ easy_share 1 sh) -> label <> ""%string ->
  share_alloc cx elem label false tmin tmax None None shs = Ok o -> em_translates (sa_tree o) ->
  let full := cat [elem; "__"; label] in
  (forall sh so, In sh shs -> single_share elem sh = Ok so -> x (v_label (ss_var so)) 0%nat == worth x 0 sh) ->
  x (vlabel full (cat [label; "_sum"])) 0%nat == Qsum (map (worth x 0) shs) ->
  (forall q, tmin = Some q -> q <= x (vlabel full (cat [label; "_sum"])) 0%nat) ->
  (forall q, tmax = Some q -> x (vlabel full (cat [label; "_sum"])) 0%nat <= q) ->
  em_sat x (sa_tree o).
Proof.
  intros x cx elem label tmin tmax shs o SH NL H T full W WS B1 B2.
  unfold share_alloc in H. bnd H u Eu. bnd H s Es. bnd H st Est. bnd H singles Esi. bnd H u2 Eu2. bnd H csum Ecs. bnd H cts Ects. bnd H m Em. fin H. cbn [sa_tree] in *.
  fin Est.
  assert (FU : model_full elem (Some label) = full).
  { unfold model_full. destruct (String.eqb label "") eqn:X; auto. apply String.eqb_eq in X. congruence. }
  rewrite FU in *.
  destruct (singles_fst _ _ _ Esi) as [F1 F2].
  rewrite (filter_all _ singles) in Ecs by (intros a Ha; apply orb_true_r).
  unfold alloc_sum in Es. apply create_variable_spec in Es. rewrite FU in *.
  assert (Ls : v_len s = 1%nat /\ v_label s = vlabel full (cat [label; "_sum"]) /\ v_fixed s = None /\ v_bin s = false /\ v_lb s = opt_num tmin /\ v_ub s = opt_num tmax) by (subst s; auto 7).
  clear Es. destruct Ls as [Ls [Ns [Fs [Bs [LBs UBs]]]]]. apply Ok_inj in Ects; subst cts. apply mk_em_spec in Em. destruct Em as [-> _].
  pose proof (Forall_inv (em_translates_vars _ _ _ _ _ T)) as V1. pose proof (Forall_inv (em_translates_cons _ _ _ _ _ T)) as C1.
  assert (N1 : 1%nat <> 0%nat) by discriminate. rewrite <- Ns in *.
  apply em_sat_intro.
  - constructor; [|constructor].
    apply var_sat_intro; auto; [rewrite Bs; discriminate| |]; intros l i E Hi; assert (i = 0)%nat by lia; subst i;
        [rewrite LBs in E; destruct tmin|rewrite UBs in E; destruct tmax]; try discriminate E; injection E as <-; rewrite at_NS; auto.
  - constructor; [|constructor]. simpl app in Ecs.
    change (map (fun so : share * ss_out => AddS (ss_var (snd so)) (NS 1) None false) singles) with (map scall singles) in Ecs.
    refine (total_admits x _ _ s singles csum 1 N1 Ls Ecs C1 _ _).
    + intros so Hso. eapply single_len; [exact N1| |apply F2; exact Hso]. apply SH. rewrite <- F1. apply in_map; auto.
    + intros t Ht. assert (t = 0)%nat by lia. subst t. rewrite WS. rewrite <- F1, map_map. apply Qsum_map_eq. intros so Hso. symmetry. apply W; auto. rewrite <- F1. apply in_map; auto.
  - apply Forall_forall. intros m Hm. pose proof (em_translates_sub _ _ _ _ _ _ T Hm) as Tm. apply in_map_iff in Hm. destruct Hm as [so [<- Hso]].
    assert (Hsh : In (fst so) shs) by (rewrite <- F1; apply in_map; auto). destruct (SH _ Hsh) as [SL ES].
    refine (single_admits x elem (fst so) (snd so) 1 N1 SL ES (F2 so Hso) Tm _).
    intros t Ht. assert (t = 0)%nat by lia. subst t. apply W; auto.
Qed.
