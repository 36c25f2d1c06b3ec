(** Sufficiency of the rows of piecewise linear models. *)
From Coq Require Import String.
From Verif Require Import Base BaseFacts MathModel Spec MathFacts MathTotal Structure StructureFacts Params Features Elements System SysSpec
  CtxFacts ReadTools InvestFacts OnOffFacts OnOffLaws OnOffAdmits FlowFacts NavFacts CompFacts SegFacts FlowAdmits.

Lemma terms_admit : forall x k model label terms qs c n, n <> 0%nat ->
  create_equation model label k (map tcall terms ++ map qcall qs) = Ok c -> c_translates c ->
  (forall v a, In (v, a) terms -> v_len v = n /\ (nlen a = 1%nat \/ nlen a = n)) ->
  (forall t, (t < n)%nat -> rel k (Qsum (map (fun va => at_ (snd va) t * x (v_label (fst va)) t) terms)) (Qsum qs)) -> con_sat x c.
Proof.
  intros x k model label terms qs c n NZ H C T R.
  refine (con_sat_rows x k model label _ c n H C _ _ NZ _).
  - apply Forall_app. split; apply Forall_map, Forall_forall; intros; [apply plain_false|exact I].
  - apply Forall_app. split; apply Forall_map, Forall_forall.
    + intros [v a] Hv. destruct (T v a Hv) as [L A]. cbn [call_len tcall fst snd].
      destruct (Nat.eqb (nlen a) 1) eqn:E; [auto|]. apply Nat.eqb_neq in E. lia.
    + intros q _. simpl. auto.
  - intros t Ht. specialize (R t Ht).
    assert (A : Qsum (map (call_lhs x t) (map tcall terms ++ map qcall qs))
                == Qsum (map (fun va => at_ (snd va) t * x (v_label (fst va)) t) terms)).
    { rewrite map_app, Qsum_app, !map_map.
      assert (Z : Qsum (map (fun q => call_lhs x t (qcall q)) qs) == 0) by (apply Qsum_zero; intros q Hq; apply in_map_iff in Hq; destruct Hq as [y [<- _]]; reflexivity).
      rewrite Z, Qplus_0_r. apply Qsum_map_eq. intros [v a] Hv. destruct (T v a Hv) as [L _]. cbn [call_lhs tcall fst snd].
      rewrite pick_all by lia. reflexivity. }
    assert (B : Qsum (map (call_rhs t) (map tcall terms ++ map qcall qs)) == Qsum qs).
    { rewrite map_app, Qsum_app, !map_map.
      assert (Z : Qsum (map (fun va => call_rhs t (tcall va)) terms) == 0) by (apply Qsum_zero; intros q Hq; apply in_map_iff in Hq; destruct Hq as [y [<- _]]; reflexivity).
      rewrite Z, Qplus_0_l. rewrite (Qsum_map_eq _ (fun q => q)); [rewrite map_id; reflexivity|]. intros q _. cbn [call_rhs qcall]. rewrite at_NS. reflexivity. }
    destruct k; simpl in *; lra.
Qed.

(** Labels of the variables of the i-th segment. *)
Definition seg (elem : string) (i : nat) (w : string) : string := vlabel (cat [elem; "__"; cat ["Segment_"; nat_str i]]) w.

Record segment_values (x : asg) (elem : string) (i t : nat) : Prop := {
  sv_bin : bin (x (seg elem i "inSegment") t);
  sv_l0 : 0 <= x (seg elem i "lambda0") t;
  sv_l1 : 0 <= x (seg elem i "lambda1") t;
  sv_sum : x (seg elem i "lambda0") t + x (seg elem i "lambda1") t == x (seg elem i "inSegment") t
}.

Lemma segment_admits : forall x elem len i s, len <> 0%nat -> segment_model elem len i = Ok s ->
  v_len (sg_in s) = len /\ v_len (sg_l0 s) = len /\ v_len (sg_l1 s) = len
  /\ v_label (sg_in s) = seg elem i "inSegment" /\ v_label (sg_l0 s) = seg elem i "lambda0" /\ v_label (sg_l1 s) = seg elem i "lambda1"
  /\ (em_translates (sg_tree s) -> (forall t, (t < len)%nat -> segment_values x elem i t) -> em_sat x (sg_tree s)).
Proof.
  intros x elem len i s NZ H. unfold segment_model in H. bnd H s0 Es. bnd H l0 El0. bnd H l1 El1. bnd H k Ek. bnd H m Em.
  apply mk_em_spec in Em. destruct Em as [Em _]. apply Ok_inj in H. subst s. cbn [sg_in sg_l0 sg_l1 sg_tree].
  apply create_variable_spec in Es. apply create_variable_spec in El0. apply create_variable_spec in El1.
  assert (A : v_len s0 = len /\ v_len l0 = len /\ v_len l1 = len) by (subst; auto). destruct A as [A1 [A2 A3]].
  assert (B : v_label s0 = seg elem i "inSegment" /\ v_label l0 = seg elem i "lambda0" /\ v_label l1 = seg elem i "lambda1") by (subst; auto).
  destruct B as [B1 [B2 B3]]. do 6 (split; [auto|]). intros T V. subst m.
  pose proof (em_translates_vars _ _ _ _ _ T) as TV. pose proof (em_translates_cons _ _ _ _ _ T) as TC.
  inversion TV as [|? ? V1 V']; subst x0 l. inversion V' as [|? ? V2 V'']; subst x0 l. inversion V'' as [|? ? V3 _]; subst x0 l.
  inversion TC as [|? ? C1 _]; subst x0 l. clear TV V' V'' TC.
  apply em_sat_intro; [|constructor; [|constructor]|constructor].
  - constructor; [|constructor; [|constructor; [|constructor]]].
    + apply var_sat_intro; [auto|subst; auto|..].
      * intros _ t Ht. rewrite B1. rewrite A1 in Ht. apply (sv_bin _ _ _ _ (V t Ht)).
      * rewrite Es. discriminate.
      * rewrite Es. discriminate.
    + apply var_sat_intro; [auto|subst; auto|rewrite El0; discriminate|..]; rewrite A2; rewrite B2; intros q t Hq Ht;
        rewrite El0 in Hq; injection Hq as <-; rewrite at_NS; destruct (V t Ht) as [D E F G]; destruct D; lra.
    + apply var_sat_intro; [auto|subst; auto|rewrite El1; discriminate|..]; rewrite A3; rewrite B3; intros q t Hq Ht;
        rewrite El1 in Hq; injection Hq as <-; rewrite at_NS; destruct (V t Ht) as [D E F G]; destruct D; lra.
  - clear Es El0 El1 V1 V2 V3. rowi Ek C1 len t. rewrite B1, B2, B3. destruct (V t Hi) as [D E F G]. lra.
Qed.

(** The value that the points [ps] give for the chosen weights. *)
Definition seg_value (x : asg) (elem : string) (t nseg : nat) (ps : list (numeric * numeric)) : Q :=
  sumn nseg (fun i => match nth_error ps i with
                      | Some (a, b) => at_ a t * x (seg elem i "lambda0") t + at_ b t * x (seg elem i "lambda1") t
                      | None => 0 end).

Theorem segments_admit : forall x elem len pts outside m, len <> 0%nat ->
  multi_segments elem len pts outside = Ok m -> em_translates m ->
  (forall v ps, In (v, ps) pts -> v_len v = len /\ forall a b, In (a, b) ps -> (nlen a = 1%nat \/ nlen a = len) /\ (nlen b = 1%nat \/ nlen b = len)) ->
  (forall v, outside = Some v -> v_len v = len) ->
  (forall v0 ps0 r, pts = (v0, ps0) :: r -> forall t, (t < len)%nat ->
     (forall i, (i < length ps0)%nat -> segment_values x elem i t)
     /\ (forall v ps, In (v, ps) pts -> x (v_label v) t == seg_value x elem t (length ps0) ps)
     /\ sumn (length ps0) (fun i => x (seg elem i "inSegment") t) == match outside with Some v => x (v_label v) t | None => 1 end) ->
  em_sat x m.
Proof.
  intros x elem len pts outside m NZ H T PG OL V. unfold multi_segments in H. bnd H nseg En. bnd H segs Esegs. bnd H eqs Eeqs. bnd H single Esi.
  apply mk_em_spec in H. destruct H as [-> _].
  destruct pts as [|[v0 ps0] r]; [discriminate|]. apply Ok_inj in En. subst nseg. specialize (V v0 ps0 r eq_refl).
  pose proof (em_translates_cons _ _ _ _ _ T) as TC. apply Forall_app in TC. destruct TC as [TCeq TC1]. apply Forall_inv in TC1.
  assert (SG : Forall2 (fun i s => segment_model elem len i = Ok s) (seq 0 (length ps0)) segs) by (apply mapM_Forall2; auto).
  assert (SL : forall i s, segment_model elem len i = Ok s ->
     v_len (sg_in s) = len /\ v_len (sg_l0 s) = len /\ v_len (sg_l1 s) = len
     /\ v_label (sg_in s) = seg elem i "inSegment" /\ v_label (sg_l0 s) = seg elem i "lambda0" /\ v_label (sg_l1 s) = seg elem i "lambda1").
  { intros i s Hs. destruct (segment_admits x elem len i s NZ Hs) as [? [? [? [? [? [? _]]]]]]. auto 10. }
  assert (LEN : forall s, In s segs -> v_len (sg_in s) = len /\ v_len (sg_l0 s) = len /\ v_len (sg_l1 s) = len).
  { intros s Hs. destruct (Forall2_In_r _ _ _ _ SG Hs) as [i [_ Ei]]. destruct (SL i s Ei) as [? [? [? _]]]. auto. }
  assert (INS : forall t, Qsum (map (fun s => x (v_label (sg_in s)) t) segs) == sumn (length ps0) (fun i => x (seg elem i "inSegment") t)).
  { intros t. unfold sumn. clear -SG SL. induction SG as [|i s l l' E F IH]; [reflexivity|]. cbn [map]. rewrite !Qsum_cons, IH.
    destruct (SL i s E) as [_ [_ [_ [-> _]]]]. reflexivity. }
  assert (I1 : forall t l, Qsum (map (fun va => at_ (snd va) t * x (v_label (fst va)) t) (map (fun s => (sg_in s, NS 1)) l)) == Qsum (map (fun s => x (v_label (sg_in s)) t) l)).
  { intros t l. rewrite map_map. apply Qsum_map_eq. intros s _. cbn [fst snd]. rewrite at_NS. ring. }
  apply em_sat_intro.
  - constructor.
  - apply Forall_app. split.
    + apply Forall_forall. intros c Hc. destruct (mapM_In_inv _ _ _ _ Eeqs Hc) as [[v ps] [Hp Ek]]. cbv beta iota in Ek. bnd Ek used Eu.
      rewrite Forall_forall in TCeq. specialize (TCeq c Hc). destruct (PG v ps Hp) as [Lv Gps].
      assert (F2 : Forall2 (fun i u => nth_error ps i = Some u) (seq 0 (length ps0)) used).
      { apply mapM_Forall2 in Eu. eapply Forall2_impl_; [|exact Eu]. intros i u E. exact (nth_error_some _ _ _ E). }
      set (g := fun sp : seg_out * (numeric * numeric) => [(sg_l0 (fst sp), fst (snd sp)); (sg_l1 (fst sp), snd (snd sp))]).
      replace (AddS v (NS (-1)) None false :: flat_map (fun sp : seg_out * (numeric * numeric) =>
                                [AddS (sg_l0 (fst sp)) (fst (snd sp)) None false;
                                 AddS (sg_l1 (fst sp)) (snd (snd sp)) None false]) (combine segs used))
        with (map tcall ((v, NS (-1)) :: flat_map g (combine segs used)) ++ map qcall []) in Ek.
      2:{ rewrite app_nil_r. cbn [map]. f_equal. rewrite map_flat_map. reflexivity. }
      refine (terms_admit x _ _ _ _ _ _ len NZ Ek TCeq _ _).
      * intros u a [Hu|Hu]; [inversion Hu; subst; split; [auto|left; reflexivity]|]. apply in_flat_map in Hu. destruct Hu as [[s [p q]] [Hcm Hi]].
        destruct (LEN s (in_combine_l _ _ _ _ Hcm)) as [_ [A1 A2]].
        assert (In (p, q) ps).
        { destruct (Forall2_In_r _ _ _ _ F2 (in_combine_r _ _ _ _ Hcm)) as [i [_ Hi']]. eapply nth_error_In; eauto. }
        destruct (Gps p q H) as [G1 G2]. destruct Hi as [Hi|[Hi|[]]]; inversion Hi; subst; auto.
      * intros t Ht. destruct (V t Ht) as [_ [Vv _]]. specialize (Vv v ps Hp). unfold rel. cbn [map fst snd]. rewrite Qsum_cons, at_NS.
        assert (E : Qsum (map (fun va => at_ (snd va) t * x (v_label (fst va)) t) (flat_map g (combine segs used)))
                    == seg_value x elem t (length ps0) ps).
        { unfold seg_value, sumn. clear -SG SL F2. revert used F2. induction SG as [|i s l l' Es F IH]; intros used F2; inversion F2; subst; [reflexivity|].
          cbn [combine flat_map]. cbn [map]. rewrite map_app, Qsum_app, Qsum_cons, IH by auto. rewrite H1. destruct y as [a b]. unfold g. cbn [map fst snd].
          rewrite !Qsum_cons. destruct (SL i s Es) as [_ [_ [_ [_ [-> ->]]]]]. cbn [Qsum fold_right]. ring. }
        rewrite E, Vv. cbn [Qsum fold_right]. ring.
    + constructor; [|constructor]. destruct outside as [v|].
      * replace (map (fun s => AddS (sg_in s) (NS 1) None false) segs ++ [AddS v (NS (-1)) None false])
          with (map tcall (map (fun s => (sg_in s, NS 1)) segs ++ [(v, NS (-1))]) ++ map qcall []) in Esi
          by (rewrite app_nil_r, map_app, map_map; reflexivity).
        refine (terms_admit x _ _ _ _ _ _ len NZ Esi TC1 _ _).
        -- intros u a Hu. apply in_app_or in Hu. destruct Hu as [Hu|[Hu|[]]].
           ++ apply in_map_iff in Hu. destruct Hu as [s [E Hs]]. inversion E; subst u a. split; [apply (LEN s Hs)|left; reflexivity].
           ++ inversion Hu; subst u a. split; [apply (OL v eq_refl)|left; reflexivity].
        -- intros t Ht. destruct (V t Ht) as [_ [_ Vi]]. unfold rel. rewrite map_app, Qsum_app, I1. cbn [map fst snd]. rewrite at_NS. rewrite INS, Vi. cbn [Qsum fold_right]. ring.
      * replace (map (fun s => AddS (sg_in s) (NS 1) None false) segs ++ [AddC (NS 1)])
          with (map tcall (map (fun s => (sg_in s, NS 1)) segs) ++ map qcall [1]) in Esi by (rewrite map_map; reflexivity).
        refine (terms_admit x _ _ _ _ _ _ len NZ Esi TC1 _ _).
        -- intros u a Hu. apply in_map_iff in Hu. destruct Hu as [s [E Hs]]. inversion E; subst u a. split; [apply (LEN s Hs)|left; reflexivity].
        -- intros t Ht. destruct (V t Ht) as [_ [_ Vi]]. unfold rel. rewrite I1, INS, Vi. cbn [Qsum fold_right]. ring.
  - apply Forall_forall. intros s Hs. apply in_map_iff in Hs. destruct Hs as [s' [<- Hs]].
    destruct (Forall2_In_r _ _ _ _ SG Hs) as [i [Hi Ei]]. apply in_seq in Hi.
    destruct (segment_admits x elem len i s' NZ Ei) as [_ [_ [_ [_ [_ [_ K]]]]]]. apply K.
    + eapply em_translates_sub; [exact T|]. apply in_map; auto.
    + intros t Ht. apply (V t Ht). lia.
Qed.
