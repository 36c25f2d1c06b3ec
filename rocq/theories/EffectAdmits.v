(** Effects do not exclude anything but wrong totals and exceeded limits. *)
From Coq Require Import String Permutation.
From Verif Require Import Base BaseFacts MathModel Spec MathFacts Structure StructureFacts Params Features Elements System SysSpec
  CtxFacts ReadTools InvestFacts OnOffFacts FlowFacts NavFacts CompFacts SegFacts BusFacts ShareFacts EffectFacts EffectLaws
  OnOffAdmits FlowAdmits SegAdmits ClosedFacts GlueFacts ShareAdmits.

Definition slab (so : share * ss_out) : string := v_label (ssv so).

(** The allocation [o] is among the single shares [SS] and the totals [own]. *)
Definition alloc_in (elem label : string) (shs : list share) (SS : list (share * ss_out)) (own : list string) : Prop :=
  (forall sh so, In sh shs -> single_share elem sh = Ok so -> In (sh, so) SS)
  /\ In (vlabel (model_full elem (Some label)) (cat [label; "_sum"])) own.
Lemma alloc_in_mono : forall elem label shs SS own SS' own', incl SS SS' -> incl own own' ->
  alloc_in elem label shs SS own -> alloc_in elem label shs SS' own'.
Proof. intros elem label shs SS own SS' own' A B [C D]. split; eauto. Qed.

Lemma alloc_found : forall cx elem label ts tmin tmax phmin phmax shs o,
  share_alloc cx elem label ts tmin tmax phmin phmax shs = Ok o ->
  exists SS own, map v_label (decl (sa_tree o)) = own ++ map slab SS /\ alloc_in elem label shs SS own
    /\ (ts = true -> In (vlabel (model_full elem (Some label)) (cat [label; "_sum_TS"])) own).
Proof.
  intros cx elem label ts tmin tmax phmin phmax shs o H. destruct (alloc_decl _ _ _ _ _ _ _ _ _ _ H) as [singles [S D]].
  exists singles, (map v_label (sa_own o)). split; [rewrite D, map_app, map_map; reflexivity|]. split; [split|].
  - intros sh so Hs E. unfold singles_of in S. apply mapM_Forall2 in S. destruct (Forall2_In_l _ _ _ _ S Hs) as [p [Hp E']]. rewrite E in E'. cbn in E'.
    injection E' as <-. exact Hp.
  - pose proof (alloc_sum_is _ _ _ _ _ _ _ _ _ _ H) as E. unfold alloc_sum in E. apply create_variable_spec in E. unfold sa_own. simpl. left. rewrite E. reflexivity.
  - intros ->. destruct (alloc_ts_is _ _ _ _ _ _ _ _ _ H) as [v [E1 E2]]. unfold alloc_ts in E2. bnd E2 lb El. bnd E2 ub Eu. apply create_variable_spec in E2.
    unfold sa_own. rewrite E1. simpl. right. left. rewrite E2. reflexivity.
Qed.

(** The three allocations of an effect. *)
Record effect_allocs (cx : ctx) (tre : string -> bool) (shs : list share) (e : effect) (m : emodel) (a b : option numeric) (io op al : sa_out) : Prop := {
  ea_a : optM (act cx (tre (e_label e))) (e_min_ph e) = Ok a;
  ea_b : optM (act cx (tre (e_label e))) (e_max_ph e) = Ok b;
  ea_io : share_alloc cx (e_label e) "invest" false (e_min_inv e) (e_max_inv e) None None (filter (is_inv (e_id e)) shs) = Ok io;
  ea_op : share_alloc cx (e_label e) "operation" true (e_min_op e) (e_max_op e) a b (filter (is_op (e_id e)) shs) = Ok op;
  ea_al : share_alloc cx (e_label e) "all" false (e_min_tot e) (e_max_tot e) None None
           [mkShare TPen "operation" (Some (sa_sum op)) (NS 1) false; mkShare TPen "invest" (Some (sa_sum io)) (NS 1) false] = Ok al;
  ea_m : m = EM (e_label e) (e_label e) [] [] [sa_tree io; sa_tree op; sa_tree al]
}.
Definition effect_in (cx : ctx) (tre : string -> bool) (shs : list share) (e : effect) (m : emodel) (SS : list (share * ss_out)) (own : list string) : Prop :=
  exists a b io op al, effect_allocs cx tre shs e m a b io op al
    /\ alloc_in (e_label e) "invest" (filter (is_inv (e_id e)) shs) SS own
    /\ alloc_in (e_label e) "operation" (filter (is_op (e_id e)) shs) SS own
    /\ alloc_in (e_label e) "all" [mkShare TPen "operation" (Some (sa_sum op)) (NS 1) false; mkShare TPen "invest" (Some (sa_sum io)) (NS 1) false] SS own
    /\ In (vlabel (model_full (e_label e) (Some "operation")) "operation_sum_TS") own.
Lemma effect_in_mono : forall cx tre shs e m SS own SS' own', incl SS SS' -> incl own own' ->
  effect_in cx tre shs e m SS own -> effect_in cx tre shs e m SS' own'.
Proof.
  intros cx tre shs e m SS own SS' own' A B [a [b [io [op [al [E [I1 [I2 [I3 I4]]]]]]]]]. exists a, b, io, op, al.
  split; auto. do 3 (split; [eapply alloc_in_mono; eauto|]). auto.
Qed.

Lemma perm_parts : forall {A} (a b c d : list A), Permutation ((a ++ b) ++ (c ++ d)) ((a ++ c) ++ (b ++ d)).
Proof. intros A a b c d. rewrite <- !app_assoc. apply Permutation_app_head. rewrite !app_assoc. apply Permutation_app_tail. apply Permutation_app_comm. Qed.

Lemma effect_found : forall cx tre shs e m, effect_model cx tre shs e = Ok m ->
  exists SS own, Permutation (map v_label (decl m)) (own ++ map slab SS) /\ effect_in cx tre shs e m SS own.
Proof.
  intros cx tre shs e m H. unfold effect_model in H. bnd H a Ea. bnd H b Eb. bnd H io Ei. bnd H op Eo. bnd H al Eal.
  apply mk_em_spec in H. destruct H as [-> _].
  destruct (alloc_found _ _ _ _ _ _ _ _ _ _ Ei) as [S1 [o1 [D1 [A1 _]]]].
  destruct (alloc_found _ _ _ _ _ _ _ _ _ _ Eo) as [S2 [o2 [D2 [A2 T2]]]].
  destruct (alloc_found _ _ _ _ _ _ _ _ _ _ Eal) as [S3 [o3 [D3 [A3 _]]]].
  exists (S1 ++ S2 ++ S3), (o1 ++ o2 ++ o3). split.
  - rewrite decl_EM. cbn [app flat_map]. rewrite app_nil_r, !map_app, D1, D2, D3.
    eapply Permutation_trans; [apply Permutation_app_head; apply perm_parts|]. apply perm_parts.
  - exists a, b, io, op, al. split; [constructor; auto|].
    split; [eapply alloc_in_mono; [| |exact A1]; intros z Hz; rewrite !in_app_iff; auto|].
    split; [eapply alloc_in_mono; [| |exact A2]; intros z Hz; rewrite !in_app_iff; auto|].
    split; [eapply alloc_in_mono; [| |exact A3]; intros z Hz; rewrite !in_app_iff; auto|].
    rewrite !in_app_iff. right. left. apply T2. reflexivity.
Qed.

Lemma effects_found : forall cx tre shs es ms, mapM (effect_model cx tre shs) es = Ok ms ->
  exists SS own, Permutation (map v_label (flat_map decl ms)) (own ++ map slab SS)
    /\ Forall2 (fun e m => effect_in cx tre shs e m SS own) es ms.
Proof.
  intros cx tre shs es ms H. apply mapM_Forall2 in H. induction H as [|e m es ms Hm _ [S1 [o1 [P1 F1]]]].
  - exists [], []. split; [reflexivity|constructor].
  - destruct (effect_found _ _ _ _ _ Hm) as [S2 [o2 [P2 E2]]]. exists (S2 ++ S1), (o2 ++ o1). split.
    + cbn [flat_map]. rewrite !map_app. eapply Permutation_trans; [apply Permutation_app; [exact P2|exact P1]|]. apply perm_parts.
    + constructor; [eapply effect_in_mono; [| |exact E2]; intros z Hz; rewrite in_app_iff; auto|].
      clear - F1. induction F1; constructor; auto. eapply effect_in_mono; [| |eassumption]; intros z Hz; rewrite in_app_iff; auto.
Qed.

(** The point [x] with the variables of the single shares set to what the shares are worth. *)
Definition with_shares (x : asg) (SS : list (share * ss_out)) : asg := fun l t =>
  match find (fun so => String.eqb l (slab so)) SS with Some so => worth x t (fst so) | None => x l t end.
Lemma with_shares_in : forall x SS so t, NoDup (map slab SS) -> In so SS -> with_shares x SS (slab so) t = worth x t (fst so).
Proof.
  intros x SS so t N H. unfold with_shares. induction SS as [|s l IH]; [destruct H|]. cbn [map] in N. inversion N as [|? ? N1 N2]; subst. cbn [find].
  destruct H as [<-|H]; [rewrite String.eqb_refl; reflexivity|]. destruct (String.eqb (slab so) (slab s)) eqn:E; [|apply IH; auto].
  apply String.eqb_eq in E. exfalso. apply N1. rewrite <- E. apply in_map; auto.
Qed.
Lemma with_shares_out : forall x SS l t, ~ In l (map slab SS) -> with_shares x SS l t = x l t.
Proof.
  intros x SS l t H. unfold with_shares. induction SS as [|s r IH]; [reflexivity|]. cbn [map find] in *. destruct (String.eqb l (slab s)) eqn:E.
  - apply String.eqb_eq in E. exfalso. apply H. left. auto.
  - apply IH. intros X. apply H. right. auto.
Qed.
Lemma worth_ext : forall w x t sh, (forall v, sh_var sh = Some v -> forall j, w (v_label v) j = x (v_label v) j) -> worth w t sh == worth x t sh.
Proof.
  intros w x t sh H. unfold worth. destruct (sh_var sh) as [v|]; [|reflexivity]. destruct (sh_as_sum sh).
  - apply sumn_ext. intros j _. rewrite H by auto. reflexivity.
  - rewrite H by auto. reflexivity.
Qed.

(** The books of one effect are right. *)
Record effect_books (cx : ctx) (x : asg) (shs : list share) (e : effect) : Prop := {
  eb_op : forall t, (t < cx_n cx)%nat -> op_at x e t == sum_op x t (e_id e) shs;
  eb_ops : op_sum x e == sumn (cx_n cx) (fun t => op_at x e t);
  eb_inv : inv_sum x e == sum_inv x (e_id e) shs;
  eb_all : all_sum x e == op_sum x e + inv_sum x e;
  eb_l1 : forall q, e_min_op e = Some q -> q <= op_sum x e;
  eb_l2 : forall q, e_max_op e = Some q -> op_sum x e <= q;
  eb_l3 : forall q, e_min_inv e = Some q -> q <= inv_sum x e;
  eb_l4 : forall q, e_max_inv e = Some q -> inv_sum x e <= q;
  eb_l5 : forall q, e_min_tot e = Some q -> q <= all_sum x e;
  eb_l6 : forall q, e_max_tot e = Some q -> all_sum x e <= q;
  eb_l7 : forall p t, e_min_ph e = Some p -> (t < cx_n cx)%nat -> value (cx_idx cx) p t * dt cx t <= op_at x e t;
  eb_l8 : forall p t, e_max_ph e = Some p -> (t < cx_n cx)%nat -> op_at x e t <= value (cx_idx cx) p t * dt cx t
}.

Lemma one_effect_admits : forall x cx tre shs e m SS own, ctx_ok cx -> (2 <= cx_n cx)%nat -> Forall (any_share (cx_n cx)) shs ->
  (forall sh, In sh shs -> is_inv (e_id e) sh = true -> exists q, sh_factor sh = NS q) ->
  effect_in cx tre shs e m SS own -> em_translates m -> NoDup (own ++ map slab SS) ->
  (forall sh v, In sh shs -> sh_var sh = Some v -> ~ In (v_label v) (map slab SS)) ->
  effect_books cx x shs e -> em_sat (with_shares x SS) m.
Proof.
  intros x cx tre shs e m SS own CX N2 SS0 SC [a [b [io [op [al [E [I1 [I2 [I3 I4]]]]]]]]] T ND OUT BK.
  destruct E as [Ea Eb Ei Eo Eal ->]. set (w := with_shares x SS).
  destruct (NoDup_app_parts _ _ ND) as [NSS DIS]. rewrite Forall_forall in SS0.
  assert (OWN : forall l t, In l own -> w l t = x l t) by (intros l t Hl; apply with_shares_out, DIS; auto).
  assert (WW : forall sh t, In sh shs -> worth w t sh == worth x t sh).
  { intros sh t Hs. apply worth_ext. intros v Hv j. apply with_shares_out. eapply OUT; eauto. }
  assert (FU : forall l, model_full (e_label e) (Some l) = if String.eqb l "" then e_label e else cat [e_label e; "__"; l]) by reflexivity.
  rewrite !FU in *. cbn [String.eqb Ascii.eqb Bool.eqb] in *.
  apply em_sat_intro; [constructor|constructor|]. constructor; [|constructor; [|constructor; [|constructor]]].
  - assert (HI : forall sh, In sh (filter (is_inv (e_id e)) shs) -> share_len 1 sh /\ easy_share 1 sh).
    { intros sh Hs. apply filter_In in Hs. destruct Hs as [Hs X]. destruct (SC _ Hs X) as [q Eq]. unfold is_inv in X.
      destruct (SS0 _ Hs) as [[[j Tg] _]|[[_ [A V]]|[Tg _]]]; [rewrite Tg in X; discriminate| |rewrite Tg in X; discriminate].
      split; [|intros _ _; right; eauto]. unfold share_len. rewrite A, Eq. destruct (sh_var sh); auto. split; auto with num. }
    refine (alloc_one_admits w cx _ "invest" _ _ _ _ HI ltac:(discriminate) Ei (em_translates_sub _ _ _ _ _ _ T (or_introl eq_refl)) _ _ _ _).
    + intros sh so Hs Es. pose proof Hs as Hs0. apply filter_In in Hs. rewrite (WW sh 0%nat (proj1 Hs)).
      destruct I1 as [I1 _]. specialize (I1 sh so Hs0 Es). apply (with_shares_in x SS (sh, so) 0%nat NSS) in I1. unfold slab, ssv in I1. cbn [fst snd] in I1. unfold w. rewrite I1. reflexivity.
    + rewrite OWN by apply I1. etransitivity; [exact (eb_inv _ _ _ _ BK)|]. unfold sum_inv, invw. rewrite <- Qsum_if. apply Qsum_map_eq. intros sh Hs.
      apply filter_In in Hs. symmetry. apply WW. tauto.
    + intros q Hq. rewrite OWN by apply I1. apply (eb_l3 _ _ _ _ BK); auto.
    + intros q Hq. rewrite OWN by apply I1. apply (eb_l4 _ _ _ _ BK); auto.
  - assert (HO : forall sh, In sh (filter (is_op (e_id e)) shs) -> sh_as_sum sh = false /\ share_len (cx_n cx) sh).
    { intros sh Hs. apply filter_In in Hs. destruct Hs as [Hs X]. unfold is_op in X.
      destruct (SS0 _ Hs) as [[_ [A [G [v [V L]]]]]|[[[j Tg] _]|[Tg _]]]; [|rewrite Tg in X; discriminate|rewrite Tg in X; discriminate].
      split; auto. unfold share_len. rewrite V, A. auto. }
    refine (alloc_ts_admits w cx _ "operation" _ _ _ _ _ _ CX N2 HO ltac:(discriminate) Eo (em_translates_sub _ _ _ _ _ _ T (or_intror (or_introl eq_refl))) _ _ _ _ _ _ _).
    + intros sh so t Hs Es Ht. pose proof Hs as Hs0. apply filter_In in Hs. rewrite (WW sh t (proj1 Hs)).
      destruct I2 as [I2 _]. specialize (I2 sh so Hs0 Es). apply (with_shares_in x SS (sh, so) t NSS) in I2. unfold slab, ssv in I2. cbn [fst snd] in I2. unfold w. rewrite I2. reflexivity.
    + intros t Ht. rewrite OWN by exact I4. etransitivity; [exact (eb_op _ _ _ _ BK t Ht)|]. unfold sum_op, opw. rewrite <- Qsum_if. apply Qsum_map_eq. intros sh Hs.
      apply filter_In in Hs. symmetry. apply WW. tauto.
    + rewrite OWN by apply I2. etransitivity; [exact (eb_ops _ _ _ _ BK)|]. apply sumn_ext. intros t Ht. rewrite OWN by exact I4. reflexivity.
    + intros q Hq. rewrite OWN by apply I2. apply (eb_l1 _ _ _ _ BK); auto.
    + intros q Hq. rewrite OWN by apply I2. apply (eb_l2 _ _ _ _ BK); auto.
    + intros z t Hz Ht R. rewrite OWN by exact I4. subst a. destruct (e_min_ph e) as [p|] eqn:Ep; simpl in Ea; [|discriminate Ea]. bnd Ea z' Ez. apply Ok_inj in Ea. injection Ea as ->.
      destruct (act_spec _ _ _ _ CX Ez) as [_ [_ V]]. rewrite (V t Ht R). apply (eb_l7 _ _ _ _ BK); auto.
    + intros z t Hz Ht R. rewrite OWN by exact I4. subst b. destruct (e_max_ph e) as [p|] eqn:Ep; simpl in Eb; [|discriminate Eb]. bnd Eb z' Ez. apply Ok_inj in Eb. injection Eb as ->.
      destruct (act_spec _ _ _ _ CX Ez) as [_ [_ V]]. rewrite (V t Ht R). apply (eb_l8 _ _ _ _ BK); auto.
  - pose proof (alloc_sum_is _ _ _ _ _ _ _ _ _ _ Ei) as A1. pose proof (alloc_sum_is _ _ _ _ _ _ _ _ _ _ Eo) as A2.
    destruct (inv_sum_var_spec e _ A1) as [L1 M1]. destruct (op_sum_var_spec e _ A2) as [L2 M2].
    assert (HA : forall sh, In sh [mkShare TPen "operation" (Some (sa_sum op)) (NS 1) false; mkShare TPen "invest" (Some (sa_sum io)) (NS 1) false] -> share_len 1 sh /\ easy_share 1 sh).
    { intros sh [<-|[<-|[]]]; (split; [unfold share_len; cbn [sh_var sh_as_sum sh_factor]; auto with num|intros _ _; right; eexists; reflexivity]). }
    assert (WO : forall sh, In sh [mkShare TPen "operation" (Some (sa_sum op)) (NS 1) false; mkShare TPen "invest" (Some (sa_sum io)) (NS 1) false] -> worth w 0 sh == worth x 0 sh).
    { intros sh [<-|[<-|[]]]; apply worth_ext; intros v Hv j; injection Hv as <-; [rewrite M2|rewrite M1]; apply OWN; [apply I2|apply I1]. }
    refine (alloc_one_admits w cx _ "all" _ _ _ _ HA ltac:(discriminate) Eal (em_translates_sub _ _ _ _ _ _ T (or_intror (or_intror (or_introl eq_refl)))) _ _ _ _).
    + intros sh so Hs Es. rewrite (WO sh Hs). destruct I3 as [I3 _]. specialize (I3 sh so Hs Es). apply (with_shares_in x SS (sh, so) 0%nat NSS) in I3. unfold slab, ssv in I3. cbn [fst snd] in I3. unfold w. rewrite I3. reflexivity.
    + rewrite OWN by apply I3. etransitivity; [exact (eb_all _ _ _ _ BK)|]. cbn [map]. rewrite !Qsum_cons. rewrite !WO by (simpl; auto).
      unfold worth. cbn [sh_var sh_as_sum sh_factor]. rewrite !at_NS, M1, M2. unfold op_sum, inv_sum. cbn [Qsum fold_right]. ring.
    + intros q Hq. rewrite OWN by apply I3. apply (eb_l5 _ _ _ _ BK); auto.
    + intros q Hq. rewrite OWN by apply I3. apply (eb_l6 _ _ _ _ BK); auto.
Qed.

(** ** All effects *)
Lemma between_op_vars : forall cx tre es bo sh v, mapM (between_op cx tre) es = Ok bo -> In sh (List.concat bo) -> sh_var sh = Some v ->
  exists e, In e es /\ v_label v = vlabel (cat [e_label e; "__"; "operation"]) "operation_sum_TS".
Proof.
  intros cx tre es bo sh v H Hs Hv. apply mapM_Forall2 in H. apply in_concat in Hs. destruct Hs as [l [Hl Hs]].
  destruct (Forall2_In_r _ _ _ _ H Hl) as [e [He E]]. exists e. split; auto. unfold between_op in E. apply mapM_Forall2 in E.
  destruct (Forall2_In_r _ _ _ _ E Hs) as [[k p] [_ Ek]]. bnd Ek u Eu. bnd Ek v' Ev. bnd Ek a Ea. apply Ok_inj in Ek. subst sh. cbn [sh_var] in Hv. injection Hv as <-.
  apply (op_ts_var_spec _ _ _ _ Ev).
Qed.
Lemma between_inv_vars : forall cx es bi sh v, mapM (between_inv cx) es = Ok bi -> In sh (List.concat bi) -> sh_var sh = Some v ->
  exists e, In e es /\ v_label v = vlabel (cat [e_label e; "__"; "invest"]) "invest_sum".
Proof.
  intros cx es bi sh v H Hs Hv. apply mapM_Forall2 in H. apply in_concat in Hs. destruct Hs as [l [Hl Hs]].
  destruct (Forall2_In_r _ _ _ _ H Hl) as [e [He E]]. exists e. split; auto. unfold between_inv in E. apply mapM_Forall2 in E.
  destruct (Forall2_In_r _ _ _ _ E Hs) as [[k p] [_ Ek]]. bnd Ek u Eu. bnd Ek v' Ev. apply Ok_inj in Ek. subst sh. cbn [sh_var] in Hv. injection Hv as <-.
  apply (inv_sum_var_spec _ _ Ev).
Qed.

(** The names of the totals of the effects. *)
Definition total_labels (es : list effect) : list string :=
  flat_map (fun e => [vlabel (cat [e_label e; "__"; "operation"]) "operation_sum_TS"; vlabel (cat [e_label e; "__"; "operation"]) "operation_sum";
                      vlabel (cat [e_label e; "__"; "invest"]) "invest_sum"; vlabel (cat [e_label e; "__"; "all"]) "all_sum"]) es
  ++ [vlabel (cat ["Effects"; "__"; "penalty"]) "penalty_sum"].

Theorem effects_admit : forall x cx tre shs em obj bo bi ms pen oe vo vi, ctx_ok cx -> (2 <= cx_n cx)%nat ->
  effects_parts cx tre shs em obj bo bi ms pen oe vo vi ->
  let all := List.concat bo ++ List.concat bi ++ shs in
  Forall (any_share (cx_n cx)) all ->
  (forall sh e, In sh all -> In e (cx_effects cx) -> is_inv (e_id e) sh = true -> exists q, sh_factor sh = NS q) ->
  em_translates em -> NoDup (map v_label (decl em)) ->
  (forall v, In v (shv shs) -> ~ In (v_label v) (map v_label (decl em))) ->
  (forall e, In e (cx_effects cx) -> effect_books cx x all e) ->
  penalty_sum x == Qsum (map (worth x 0) (filter is_pen all)) ->
  exists w, em_sat w em /\ (forall l t, In l (total_labels (cx_effects cx)) -> w l t = x l t)
    /\ (forall v t, In v (shv shs) -> w (v_label v) t = x (v_label v) t)
    /\ incl (total_labels (cx_effects cx)) (map v_label (decl em)).
Proof.
  intros x cx tre shs em obj bo bi ms pen oe vo vi CX N2 E all SH SC T ND OUT BK PEN.
  destruct E as [Ebo Ebi Ems Epen _ _ _ _ Eem]. subst em. fold all in Ems, Epen.
  destruct (effects_found _ _ _ _ _ Ems) as [S1 [o1 [P1 F1]]].
  destruct (alloc_found _ _ _ _ _ _ _ _ _ _ Epen) as [S2 [o2 [D2 [A2 _]]]].
  set (SS := S1 ++ S2). set (own := o1 ++ o2).
  assert (PM : Permutation (map v_label (decl (EM "Effects" "Effects" [] [] (ms ++ [sa_tree pen])))) (own ++ map slab SS)).
  { rewrite decl_EM, flat_map_app. cbn [app flat_map]. rewrite app_nil_r, map_app, D2. unfold own, SS. rewrite map_app.
    eapply Permutation_trans; [apply Permutation_app_tail; exact P1|]. apply perm_parts. }
  assert (F1' : Forall2 (fun e m => effect_in cx tre all e m SS own) (cx_effects cx) ms).
  { clear - F1. subst SS own. induction F1; constructor; auto. eapply effect_in_mono; [| |eassumption]; intros z Hz; rewrite in_app_iff; auto. }
  assert (A2' : alloc_in "Effects" "penalty" (filter is_pen all) SS own).
  { eapply alloc_in_mono; [| |exact A2]; intros z Hz; unfold SS, own; rewrite in_app_iff; auto. }
  clear F1 A2 P1 D2 . clearbody SS own.
  pose proof (Permutation_NoDup PM ND) as ND'. destruct (NoDup_app_parts _ _ ND') as [NSS DIS].
  assert (TOT : incl (total_labels (cx_effects cx)) own).
  { intros l Hl. unfold total_labels in Hl. apply in_app_iff in Hl. destruct Hl as [Hl|[<-|[]]]; [|apply A2'].
    apply in_flat_map in Hl. destruct Hl as [e [He Hl]]. destruct (Forall2_In_l _ _ _ _ F1' He) as [m [_ [a [b [io [op [al [_ [I1 [I2 [I3 I4]]]]]]]]]]].
    destruct Hl as [<-|[<-|[<-|[<-|[]]]]]; [exact I4|apply I2|apply I1|apply I3]. }
  assert (SV : forall sh v, In sh all -> sh_var sh = Some v -> ~ In (v_label v) (map slab SS)).
  { intros sh v Hs Hv. unfold all in Hs. rewrite !in_app_iff in Hs. destruct Hs as [Hs|[Hs|Hs]].
    - destruct (between_op_vars _ _ _ _ _ _ Ebo Hs Hv) as [e [He ->]]. apply DIS, TOT. unfold total_labels. apply in_or_app. left. apply in_flat_map. exists e. simpl. auto.
    - destruct (between_inv_vars _ _ _ _ _ Ebi Hs Hv) as [e [He ->]]. apply DIS, TOT. unfold total_labels. apply in_or_app. left. apply in_flat_map. exists e. simpl. auto.
    - intros X. apply (OUT v).
      + unfold shv. apply in_flat_map. exists sh. rewrite Hv. simpl. auto.
      + apply (Permutation_in _ (Permutation_sym PM)). apply in_or_app. auto. }
  exists (with_shares x SS). split; [|split; [|split]].
  - apply em_sat_intro; [constructor|constructor|]. apply Forall_forall. intros m Hm. pose proof (em_translates_sub _ _ _ _ _ _ T Hm) as Tm.
    apply in_app_iff in Hm. destruct Hm as [Hm|[<-|[]]].
    + destruct (Forall2_In_r _ _ _ _ F1' Hm) as [e [He I]]. eapply one_effect_admits; eauto.
    + assert (HP : forall sh, In sh (filter is_pen all) -> share_len 1 sh /\ easy_share 1 sh).
      { intros sh Hs. apply filter_In in Hs. destruct Hs as [Hs X]. rewrite Forall_forall in SH. unfold is_pen in X.
        destruct (SH _ Hs) as [[[j Tg] _]|[[[j Tg] _]|[Tg [A [v [V L]]]]]]; [rewrite Tg in X; discriminate|rewrite Tg in X; discriminate|].
        split; [unfold share_len; rewrite V, A; reflexivity|intros X'; congruence]. }
      assert (WW : forall sh, In sh (filter is_pen all) -> worth (with_shares x SS) 0 sh == worth x 0 sh).
      { intros sh Hs. apply filter_In in Hs. apply worth_ext. intros v Hv j. apply with_shares_out. eapply SV; eauto. tauto. }
      refine (alloc_one_admits _ cx _ "penalty" _ _ _ _ HP ltac:(discriminate) Epen Tm _ _ _ _).
      * intros sh so Hs Es. rewrite (WW sh Hs). destruct A2' as [I3 _]. specialize (I3 sh so Hs Es). apply (with_shares_in x SS (sh, so) 0%nat NSS) in I3. unfold slab, ssv in I3. cbn [fst snd] in I3. rewrite I3. reflexivity.
      * rewrite with_shares_out by (apply DIS; apply A2'). etransitivity; [exact PEN|]. apply Qsum_map_eq. intros sh Hs. symmetry. auto.
      * discriminate.
      * discriminate.
  - intros l t Hl. apply with_shares_out. apply DIS, TOT. exact Hl.
  - intros v t Hv. unfold shv in Hv. apply in_flat_map in Hv. destruct Hv as [sh [Hs Hv]]. destruct (sh_var sh) as [v'|] eqn:Ev; [|destruct Hv].
    destruct Hv as [<-|[]]. apply with_shares_out. eapply SV; [|exact Ev]. unfold all. rewrite !in_app_iff. auto.
  - intros l Hl. apply (Permutation_in _ (Permutation_sym PM)). apply in_or_app. left. auto.
Qed.
