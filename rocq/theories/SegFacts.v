(** What the rows of piecewise linear models say. *)
From Verif Require Import Base BaseFacts MathModel Spec MathFacts Structure StructureFacts Params Features Elements System SysSpec
  CtxFacts ReadTools InvestFacts OnOffFacts FlowFacts NavFacts CompFacts.

Lemma Qsum_single : forall l k v, nth_error l k = Some v -> (forall j w, j <> k -> nth_error l j = Some w -> w == 0) -> Qsum l == v.
Proof.
  induction l as [|a l IH]; intros k v H Z; [destruct k; discriminate|]. rewrite Qsum_cons. destruct k as [|k]; simpl in H.
  - inversion H; subst. rewrite Qsum_zero; [lra|]. intros q Hq. destruct (In_nth_error _ _ Hq) as [j Hj]. apply (Z (S j)); auto.
  - rewrite (IH k v H). + rewrite (Z 0%nat a); [lra|lia|reflexivity]. + intros j w Hj Hw. apply (Z (S j)); auto.
Qed.

(** Zero-one values that add up to one: exactly one is one. *)
Lemma one_hot : forall l, (forall q, In q l -> q == 0 \/ q == 1) -> Qsum l == 1 ->
  exists k v, nth_error l k = Some v /\ v == 1 /\ forall j w, j <> k -> nth_error l j = Some w -> w == 0.
Proof.
  induction l as [|a l IH]; intros B SU; [simpl in SU; lra|]. rewrite Qsum_cons in SU.
  destruct (B a (or_introl eq_refl)) as [A|A].
  - destruct IH as [k [v [H1 [H2 H3]]]]; [intros; apply B; simpl; auto|lra|]. exists (S k), v. split; auto. split; auto.
    intros [|j] w Hj Hw; simpl in Hw; [inversion Hw; subst; auto|]. apply (H3 j); auto.
  - exists 0%nat, a. split; auto. split; auto. intros [|j] w Hj Hw; [congruence|]. simpl in Hw.
    apply (Qsum_pos_zero l); [|lra|eapply nth_error_In; eauto]. intros q Hq. destruct (B q (or_intror Hq)) as [X|X]; lra.
Qed.
Lemma all_cold : forall l, (forall q, In q l -> q == 0 \/ q == 1) -> Qsum l == 0 -> forall q, In q l -> q == 0.
Proof. intros l B S. apply Qsum_pos_zero; [|lra]. intros q Hq. destruct (B q Hq) as [X|X]; lra. Qed.

(** One segment. *)
Lemma segment_spec : forall x elem len i s, len <> 0%nat -> segment_model elem len i = Ok s ->
  v_len (sg_in s) = len /\ v_len (sg_l0 s) = len /\ v_len (sg_l1 s) = len
  /\ (em_sat x (sg_tree s) -> forall t, (t < len)%nat ->
        (x (v_label (sg_in s)) t == 0 \/ x (v_label (sg_in s)) t == 1)
        /\ 0 <= x (v_label (sg_l0 s)) t /\ 0 <= x (v_label (sg_l1 s)) t
        /\ x (v_label (sg_l0 s)) t + x (v_label (sg_l1 s)) t == x (v_label (sg_in s)) t).
Proof.
  intros x elem len i s NZ H. unfold segment_model in H. bnd H s0 Es. bnd H l0 El0. bnd H l1 El1. bnd H k Ek. bnd H m Em.
  apply mk_em_spec in Em. destruct Em as [Em _]. apply Ok_inj in H. subst s. cbn [sg_in sg_l0 sg_l1 sg_tree].
  apply create_variable_spec in Es. apply create_variable_spec in El0. apply create_variable_spec in El1.
  assert (A : v_len s0 = len /\ v_len l0 = len /\ v_len l1 = len) by (subst; auto). destruct A as [A1 [A2 A3]].
  split; auto. split; auto. split; auto. intros S t Ht. subst m.
  pose proof (em_sat_vars _ _ _ _ _ _ S) as V. pose proof (em_sat_cons _ _ _ _ _ _ S) as C.
  inversion V as [|? ? V1 V']; subst x0 l. inversion V' as [|? ? V2 V'']; subst x0 l. inversion V'' as [|? ? V3 _]; subst x0 l.
  inversion C as [|? ? C1 _]; subst x0 l. clear V V' V'' C.
  split; [apply var_sat_bin; [auto|subst; auto|subst; auto|lia]|].
  split; [change 0 with (at_ (NS 0) t); apply var_sat_lb; [auto|subst; auto|subst; auto|lia]|].
  split; [change 0 with (at_ (NS 0) t); apply var_sat_lb; [auto|subst; auto|subst; auto|lia]|].
  clear Es El0 El1 V1 V2 V3. row Ek C1 len t R. lra.
Qed.

(** Points of a variable in the chosen segment [k] with the common weight [w]. *)
Definition on_segment (x : asg) (len t k : nat) (w : Q) (vp : variable * list (numeric * numeric)) : Prop :=
  exists a b, nth_error (snd vp) k = Some (a, b) /\ fits len a /\ fits len b
    /\ x (v_label (fst vp)) t == (1 - w) * at_ a t + w * at_ b t.

Theorem multi_segments_spec : forall x elem len pts outside m t, len <> 0%nat -> (t < len)%nat ->
  multi_segments elem len pts outside = Ok m -> em_sat x m ->
  (forall v ps, In (v, ps) pts -> v_len v = len /\ forall a b, In (a, b) ps -> good a /\ good b) ->
  (forall v, outside = Some v -> v_len v = len /\ (x (v_label v) t == 0 \/ x (v_label v) t == 1)) ->
  (exists k w, 0 <= w /\ w <= 1 /\ Forall (on_segment x len t k w) pts /\ (forall v, outside = Some v -> x (v_label v) t == 1))
  \/ (exists v, outside = Some v /\ x (v_label v) t == 0 /\ forall u ps, In (u, ps) pts -> x (v_label u) t == 0).
Proof.
  intros x elem len pts outside m t NZ Ht H S PG OB. unfold multi_segments in H. bnd H nseg En. bnd H segs Esegs. bnd H eqs Eeqs. bnd H single Esi.
  apply mk_em_spec in H. destruct H as [-> _]. clear En.
  pose proof (em_sat_cons _ _ _ _ _ _ S) as C. apply Forall_app in C. destruct C as [Ceq C1]. apply Forall_inv in C1.
  assert (SG : forall s, In s segs -> v_len (sg_in s) = len /\ v_len (sg_l0 s) = len /\ v_len (sg_l1 s) = len
    /\ (x (v_label (sg_in s)) t == 0 \/ x (v_label (sg_in s)) t == 1)
        /\ 0 <= x (v_label (sg_l0 s)) t /\ 0 <= x (v_label (sg_l1 s)) t
        /\ x (v_label (sg_l0 s)) t + x (v_label (sg_l1 s)) t == x (v_label (sg_in s)) t).
  { intros s Hs. destruct (mapM_In_inv _ _ _ _ Esegs Hs) as [i [_ Ei]]. destruct (segment_spec x _ _ _ _ NZ Ei) as [A [B [D E]]].
    split; auto. split; auto. split; auto. apply E; auto. eapply em_sat_sub; [exact S|]. apply in_map; auto. }
  assert (Nsegs : length segs = nseg) by (apply mapM_length in Esegs; rewrite seq_length in Esegs; auto).
  set (ins := map (fun s => x (v_label (sg_in s)) t) segs).
  assert (B01 : forall q, In q ins -> q == 0 \/ q == 1).
  { intros q Hq. apply in_map_iff in Hq. destruct Hq as [s [<- Hs]]. apply (SG s Hs). }
  (* the sum of the segment indicators *)
  assert (SUM : Qsum ins == match outside with Some v => x (v_label v) t | None => 1 end).
  { assert (I1 : forall l, Qsum (map (fun va => at_ (snd va) t * x (v_label (fst va)) t) (map (fun s => (sg_in s, NS 1)) l)) == Qsum (map (fun s => x (v_label (sg_in s)) t) l)).
    { intros l. rewrite map_map. apply Qsum_map_eq. intros s _. cbn [fst snd]. rewrite at_NS. ring. }
    destruct outside as [v|].
    - replace (map (fun s => AddS (sg_in s) (NS 1) None false) segs ++ [AddS v (NS (-1)) None false])
        with (map tcall (map (fun s => (sg_in s, NS 1)) segs ++ [(v, NS (-1))]) ++ map qcall []) in Esi
        by (rewrite app_nil_r, map_app, map_map; reflexivity).
      assert (T : forall u a, In (u, a) (map (fun s => (sg_in s, NS 1)) segs ++ [(v, NS (-1))]) -> v_len u = len /\ good a).
      { intros u a Hu. apply in_app_or in Hu. destruct Hu as [Hu|[Hu|[]]].
        - apply in_map_iff in Hu. destruct Hu as [s [E Hs]]. inversion E; subst u a. split; [apply (SG s Hs)|apply good_NS].
        - inversion Hu; subst u a. split; [apply (OB v eq_refl)|apply good_NS]. }
      destruct (terms_law x _ _ _ _ _ _ _ NZ Esi C1 ltac:(destruct (map (fun s => (sg_in s, NS 1)) segs); discriminate) T) as [_ R].
      specialize (R t Ht). unfold rel in R. rewrite map_app, Qsum_app, I1 in R. cbn [map fst snd Qsum fold_right] in R. rewrite at_NS in R.
      fold ins in R. lra.
    - destruct segs as [|s0 segs'].
      + exfalso. cbn [map app] in Esi. row Esi C1 1%nat 0%nat R. lra.
      + replace (map (fun s => AddS (sg_in s) (NS 1) None false) (s0 :: segs') ++ [AddC (NS 1)])
          with (map tcall (map (fun s => (sg_in s, NS 1)) (s0 :: segs')) ++ map qcall [1]) in Esi by (rewrite map_map; reflexivity).
        assert (T : forall u a, In (u, a) (map (fun s => (sg_in s, NS 1)) (s0 :: segs')) -> v_len u = len /\ good a).
        { intros u a Hu. apply in_map_iff in Hu. destruct Hu as [s [E Hs]]. inversion E; subst u a. split; [apply (SG s Hs)|apply good_NS]. }
        destruct (terms_law x _ _ _ _ _ _ _ NZ Esi C1 ltac:(discriminate) T) as [_ R].
        specialize (R t Ht). unfold rel in R. rewrite I1 in R. fold ins in R. rewrite R. simpl. ring. }
  (* each variable is the weighted sum of its points *)
  assert (LAM : forall v ps, In (v, ps) pts -> exists used, Forall2 (fun i u => nth_error ps i = Some u) (seq 0 nseg) used
     /\ (forall u, In u used -> fits len (fst u) /\ fits len (snd u))
     /\ x (v_label v) t == Qsum (map (fun sp : seg_out * (numeric * numeric) =>
            at_ (fst (snd sp)) t * x (v_label (sg_l0 (fst sp))) t + at_ (snd (snd sp)) t * x (v_label (sg_l1 (fst sp))) t) (combine segs used))).
  { intros v ps Hp. destruct (mapM_In _ _ _ _ Eeqs Hp) as [k [Ek Hk]]. cbv beta iota in Ek. bnd Ek used Eu.
    rewrite Forall_forall in Ceq. specialize (Ceq k Hk). destruct (PG v ps Hp) as [Lv Gps].
    assert (F2 : Forall2 (fun i u => nth_error ps i = Some u) (seq 0 nseg) used).
    { apply mapM_Forall2 in Eu. eapply Forall2_impl_; [|exact Eu]. intros i u E. exact (nth_error_some _ _ _ E). }
    assert (Lu : length used = length segs) by (apply Forall2_len in F2; rewrite seq_length in F2; congruence).
    exists used. split; auto.
    set (g := fun sp : seg_out * (numeric * numeric) => [(sg_l0 (fst sp), fst (snd sp)); (sg_l1 (fst sp), snd (snd sp))]).
    replace (AddS v (NS (-1)) None false :: flat_map (fun sp : seg_out * (numeric * numeric) =>
                                [AddS (sg_l0 (fst sp)) (fst (snd sp)) None false;
                                 AddS (sg_l1 (fst sp)) (snd (snd sp)) None false]) (combine segs used))
      with (map tcall ((v, NS (-1)) :: flat_map g (combine segs used)) ++ map qcall []) in Ek.
    2:{ rewrite app_nil_r. cbn [map]. f_equal. rewrite map_flat_map. reflexivity. }
    assert (T : forall u a, In (u, a) ((v, NS (-1)) :: flat_map g (combine segs used)) -> v_len u = len /\ good a).
    { intros u a [Hu|Hu]; [inversion Hu; subst; split; [auto|apply good_NS]|]. apply in_flat_map in Hu. destruct Hu as [[s [p q]] [Hc Hi]].
      destruct (SG s (in_combine_l _ _ _ _ Hc)) as [_ [A1 [A2 _]]].
      assert (In (p, q) ps).
      { destruct (Forall2_In_r _ _ _ _ F2 (in_combine_r _ _ _ _ Hc)) as [i [_ Hi']]. eapply nth_error_In; eauto. }
      destruct (Gps p q H) as [G1 G2]. destruct Hi as [Hi|[Hi|[]]]; inversion Hi; subst; auto. }
    destruct (terms_law x _ _ _ _ _ _ _ NZ Ek Ceq ltac:(discriminate) T) as [FT R].
    split.
    - intros u Hu. destruct (In_nth_error _ _ Hu) as [j Hj].
      assert (Hs : exists s, nth_error segs j = Some s).
      { destruct (nth_error segs j) eqn:E; eauto. apply nth_error_None in E. assert (nth_error used j <> None) by congruence. apply nth_error_Some in H. lia. }
      destruct Hs as [s Hs].
      assert (Hc : In (s, u) (combine segs used)).
      { clear -Hs Hj. revert used j Hs Hj. induction segs as [|a l IH]; intros [|b r] [|j] Hs Hj; simpl in *; try discriminate.
        - inversion Hs; inversion Hj; subst. auto.
        - right. eapply IH; eauto. }
      split; [apply (FT (sg_l0 s))|apply (FT (sg_l1 s))]; right; apply in_flat_map; exists (s, u); split; auto; simpl; auto.
    - specialize (R t Ht). unfold rel in R. cbn [map fst snd] in R. rewrite Qsum_cons, at_NS in R.
      assert (E : Qsum (map (fun va => at_ (snd va) t * x (v_label (fst va)) t) (flat_map g (combine segs used)))
        == Qsum (map (fun sp : seg_out * (numeric * numeric) =>
            at_ (fst (snd sp)) t * x (v_label (sg_l0 (fst sp))) t + at_ (snd (snd sp)) t * x (v_label (sg_l1 (fst sp))) t) (combine segs used))).
      { clear. induction (combine segs used) as [|sp l IH]; [reflexivity|]. cbn [flat_map]. rewrite map_app, Qsum_app, IH.
        cbn [map]. rewrite Qsum_cons. unfold g at 1. cbn [map fst snd]. rewrite !Qsum_cons. cbn [Qsum fold_right]. ring. }
      rewrite E in R. cbn [Qsum fold_right] in R. lra. }
  assert (CASES : match outside with Some v => x (v_label v) t == 0 \/ x (v_label v) t == 1 | None => True end) by (destruct outside as [v|]; [apply (OB v eq_refl)|auto]).
  assert (D : Qsum ins == 1 /\ (forall v, outside = Some v -> x (v_label v) t == 1) \/ exists v, outside = Some v /\ x (v_label v) t == 0).
  { destruct outside as [v|]; [|left; split; [auto|discriminate]]. destruct CASES as [X|X]; [right; eauto|left].
    split; [lra|]. intros v' E. inversion E; subst; auto. }
  destruct D as [[D O]|[v [-> X]]].
  - left. destruct (one_hot ins B01 D) as [k [q [Hk [Q1 Z]]]]. unfold ins in Hk. rewrite nth_error_map in Hk.
    destruct (nth_error segs k) as [s|] eqn:Es; [|discriminate]. simpl in Hk. inversion Hk; subst q. clear Hk.
    destruct (SG s (nth_error_In _ _ Es)) as [_ [_ [_ [_ [P0 [P1 PS]]]]]].
    exists k, (x (v_label (sg_l1 s)) t). split; auto. split; [lra|]. split; [|exact O].
    apply Forall_forall. intros [v ps] Hp. destruct (LAM v ps Hp) as [used [F2 [FU E]]].
    assert (Lu : length used = length segs) by (apply Forall2_len in F2; rewrite seq_length in F2; congruence).
    assert (Hu : exists u, nth_error used k = Some u).
    { destruct (nth_error used k) eqn:Y; eauto. apply nth_error_None in Y. assert (nth_error segs k <> None) by congruence. apply nth_error_Some in H. lia. }
    destruct Hu as [[a b] Hu]. exists a, b. simpl.
    destruct (Forall2_nth_error _ _ _ _ _ F2 Hu) as [i [Hi Hn]].
    assert (i = k). { apply nth_error_nth with (d := 0%nat) in Hi. rewrite seq_nth in Hi; [lia|]. rewrite <- Nsegs, <- Lu. apply nth_error_Some. congruence. }
    subst i. split; auto. destruct (FU _ (nth_error_In _ _ Hu)) as [Fa Fb]. split; auto. split; auto.
    rewrite E. rewrite (Qsum_single _ k (at_ a t * x (v_label (sg_l0 s)) t + at_ b t * x (v_label (sg_l1 s)) t)).
    + assert (Y : x (v_label (sg_l0 s)) t == 1 - x (v_label (sg_l1 s)) t) by lra. rewrite Y. ring.
    + rewrite nth_error_map.
      assert (Hc : nth_error (combine segs used) k = Some (s, (a, b))).
      { clear -Es Hu. revert used k Es Hu. induction segs as [|c l IH]; intros [|d r] [|k] Es Hu; simpl in *; try discriminate; [congruence|eauto]. }
      rewrite Hc. reflexivity.
    + intros j w Hj Hw. rewrite nth_error_map in Hw. destruct (nth_error (combine segs used) j) as [[s' u']|] eqn:Y; [|discriminate].
      simpl in Hw. inversion Hw; subst w.
      assert (Hs' : nth_error segs j = Some s').
      { clear -Y. revert used j Y. induction segs as [|c l IH]; intros [|d r] [|j] Y; simpl in *; try discriminate; [congruence|eauto]. }
      destruct (SG s' (nth_error_In _ _ Hs')) as [_ [_ [_ [_ [P0' [P1' PS']]]]]].
      assert (Z' : x (v_label (sg_in s')) t == 0). { apply (Z j); auto. unfold ins. rewrite nth_error_map, Hs'. reflexivity. }
      assert (Y0 : x (v_label (sg_l0 s')) t == 0) by lra. assert (Y1 : x (v_label (sg_l1 s')) t == 0) by lra. rewrite Y0, Y1. ring.
  - right. exists v. split; auto. split; auto. intros u ps Hp. destruct (LAM u ps Hp) as [used [_ [_ E]]]. rewrite E.
    apply Qsum_zero. intros q Hq. apply in_map_iff in Hq. destruct Hq as [[s p] [<- Hc]]. simpl.
    destruct (SG s (in_combine_l _ _ _ _ Hc)) as [_ [_ [_ [_ [P0' [P1' PS']]]]]].
    assert (Z' : x (v_label (sg_in s)) t == 0).
    { apply (all_cold ins B01); [lra|]. apply in_map_iff. exists s. split; auto. eapply in_combine_l; eauto. }
    assert (Y0 : x (v_label (sg_l0 s)) t == 0) by lra. assert (Y1 : x (v_label (sg_l1 s)) t == 0) by lra. rewrite Y0, Y1. ring.
Qed.

(** Segmented conversion. *)
Theorem segmented_spec : forall cf fs idx cx x tr c fos on segs m t, ctx_for cf fs idx cx -> (t < cx_n cx)%nat ->
  Forall2 (fo_for cf fs idx cx c) (cp_flows c) fos ->
  segmented_model cx tr c fos on segs = Ok m -> em_sat x m ->
  (forall v, on = Some v -> v_len v = cx_n cx /\ (x (v_label v) t == 0 \/ x (v_label v) t == 1)) ->
  (exists k w, 0 <= w /\ w <= 1
     /\ (forall f, In f (cp_flows c) -> exists ps a b, lookup_nat segs (f_id f) = Some ps /\ nth_error ps k = Some (a, b)
           /\ rate_of x c f t == (1 - w) * value idx a t + w * value idx b t)
     /\ (forall v, on = Some v -> x (v_label v) t == 1))
  \/ (exists v, on = Some v /\ x (v_label v) t == 0 /\ forall f, In f (cp_flows c) -> rate_of x c f t == 0).
Proof.
  intros cf fs idx cx x tr c fos on segs m t CF Ht FF H S OB. pose proof (cf_ok _ _ _ _ CF) as CX. pose proof (ok_pos _ CX) as NP.
  unfold segmented_model in H. bnd H pts Ep.
  assert (PTS : Forall2 (fun o vp => exists s, lookup_nat segs (fo_id o) = Some s /\ fst vp = fo_rate o
     /\ Forall2 (fun pp ab => act cx tr (fst pp) = Ok (fst ab) /\ act cx tr (snd pp) = Ok (snd ab)) s (snd vp)) fos pts).
  { apply mapM_Forall2 in Ep. eapply Forall2_impl_; [|exact Ep]. intros o vp E. cbv beta in E. bnd E s Es. bnd E ps Eps. fin E.
    apply nth_error_some in Es. exists s. split; auto. split; auto. simpl. apply mapM_Forall2 in Eps. eapply Forall2_impl_; [|exact Eps].
    intros pp ab E. cbv beta in E. bnd E a Ea. bnd E b Eb. fin E. auto. }
  assert (PG : forall v ps, In (v, ps) pts -> v_len v = cx_n cx /\ forall a b, In (a, b) ps -> good a /\ good b).
  { intros v ps Hp. destruct (Forall2_In_r _ _ _ _ PTS Hp) as [o [Ho [s [_ [E F2]]]]]. simpl in *. subst v.
    destruct (Forall2_In_r _ _ _ _ FF Ho) as [f [_ Sf]]. split; [apply (fs_len _ _ _ _ Sf)|].
    intros a b Hab. destruct (Forall2_In_r _ _ _ _ F2 Hab) as [pp [_ [A1 A2]]]. simpl in *.
    destruct (act_spec _ _ _ _ CX A1) as [_ [G1 _]]. destruct (act_spec _ _ _ _ CX A2) as [_ [G2 _]]. auto. }
  assert (FIND : forall f, In f (cp_flows c) -> exists o vp s, fo_for cf fs idx cx c f o /\ In vp pts /\ lookup_nat segs (f_id f) = Some s
     /\ x (v_label (fst vp)) t = rate_of x c f t
     /\ Forall2 (fun pp ab => act cx tr (fst pp) = Ok (fst ab) /\ act cx tr (snd pp) = Ok (snd ab)) s (snd vp)).
  { intros f Hf. destruct (Forall2_In_l _ _ _ _ FF Hf) as [o [Ho So]]. destruct (Forall2_In_l _ _ _ _ PTS Ho) as [vp [Hvp [s [L [E F2]]]]].
    exists o, vp, s. split; auto. split; auto. split; [rewrite (fs_id _ _ _ _ So) in L; exact L|]. split; auto.
    rewrite E, (fs_label _ _ _ _ So). reflexivity. }
  destruct (multi_segments_spec x _ _ _ _ _ t NP Ht H S PG OB) as [[k [w [W0 [W1 [ON O]]]]]|[v [Ev [X Z]]]].
  - left. exists k, w. split; auto. split; auto. split; auto. intros f Hf. destruct (FIND f Hf) as [o [[v ps] [s [So [Hvp [L [R F2]]]]]]].
    rewrite Forall_forall in ON. destruct (ON _ Hvp) as [a [b [Nk [Fa [Fb Eq]]]]]. simpl in *.
    destruct (Forall2_nth_error _ _ _ _ _ F2 Nk) as [[pa pb] [Nk' [A1 A2]]]. simpl in *.
    exists s, pa, pb. split; auto. split; auto. rewrite <- R, Eq.
    rewrite (act_at _ _ _ _ _ CX A1 Fa Ht), (act_at _ _ _ _ _ CX A2 Fb Ht), (cf_idx _ _ _ _ CF). reflexivity.
  - right. exists v. split; auto. split; auto. intros f Hf. destruct (FIND f Hf) as [o [[u ps] [s [So [Hvp [L [R F2]]]]]]].
    simpl in R. rewrite <- R. eapply Z; eauto.
Qed.
