(** Effects, buses and the penalty can always be written down for shares that fit. *)
From Verif Require Import Base BaseFacts MathModel Spec MathFacts MathTotal Structure StructureFacts Params Features Elements ResultFacts NameSpec NameFacts TotalFacts TotalFeatures TotalInvest TotalOnOff.

(** ** Shares of many elements *)
Record sgood (cx : ctx) (Es : list (list string)) (shs : list share) : Prop := {
  sg_nodup : NoDup (map sh_key shs);
  sg_ok : forall sh, In sh shs -> share_ok cx sh /\ exists E x, In E Es /\ words (sh_name sh) = E ++ ""%string :: x /\ full_word x
}.
Lemma last_sep : forall E E' x x' : list string, ~ In ""%string x -> ~ In ""%string x' -> E ++ ""%string :: x = E' ++ ""%string :: x' -> E = E'.
Proof.
  induction E as [|e E IH]; intros [|e' E'] x x' X X' H; auto; simpl in H; injection H as J H.
  - exfalso. apply X. rewrite H. apply in_or_app. right. left. reflexivity.
  - exfalso. apply X'. rewrite <- H. apply in_or_app. right. left. reflexivity.
  - f_equal; [exact J|]. eapply IH; [exact X|exact X'|exact H].
Qed.
Lemma sgood_nil : forall cx Es, sgood cx Es [].
Proof. intros. split; [constructor|intros ? []]. Qed.
Lemma sgood_app : forall cx Es Es' a b, sgood cx Es a -> sgood cx Es' b -> (forall E, In E Es -> ~ In E Es') -> sgood cx (Es ++ Es') (a ++ b).
Proof.
  intros cx Es Es' a b [A B] [C D] N. split.
  - rewrite map_app. apply NoDup_app_; auto. intros k K K'. apply in_map_iff in K, K'. destruct K as [s [E S]]. destruct K' as [s' [E' S']].
    destruct (B _ S) as [_ [F [x [X [Ex [_ Fx]]]]]]. destruct (D _ S') as [_ [F' [y [Y [Ey [_ Fy]]]]]]. subst k. unfold sh_key in E'. injection E' as _ E'.
    rewrite E' in Ey. rewrite Ex in Ey. apply last_sep in Ey; auto. subst. exact (N _ X Y).
  - intros sh H. apply in_app_or in H. destruct H as [H|H]; [destruct (B _ H) as [S [F [x [X E]]]]|destruct (D _ H) as [S [F [x [X E]]]]];
      split; auto; exists F, x; split; auto; apply in_or_app; auto.
Qed.
Lemma sgood_more : forall cx Es Es' a, sgood cx Es a -> incl Es Es' -> sgood cx Es' a.
Proof. intros cx Es Es' a [A B] I. split; auto. intros sh H. destruct (B _ H) as [S [F [x [X E]]]]. split; auto. exists F, x. auto. Qed.
Lemma sgood_elem : forall cx elem xs shs, sfin cx elem xs shs -> Forall tidy xs -> sgood cx [words elem] shs.
Proof.
  intros cx elem xs shs [A B] T. split; auto. intros sh H. destruct (B _ H) as [S [x [X E]]]. split; auto. exists (words elem), (words x).
  rewrite Forall_forall in T. split; [left; auto|]. split; [rewrite E; apply words_us2|apply tidy_word; auto].
Qed.
Lemma sgood_join : forall {A} cx (w : A -> list string) (l : list A) (ss : list (list share)), Forall2 (fun a s => sgood cx [w a] s) l ss -> NoDup (map w l) ->
  sgood cx (map w l) (List.concat ss).
Proof.
  intros A cx w l ss F. induction F as [|a s l ss H F IH]; intros N; cbn [map List.concat]; [apply sgood_nil|]. inversion N; subst.
  apply (sgood_app cx [w a] (map w l)); auto. intros E [<-|[]]. auto.
Qed.

(** ** One share *)
Definition single_fit (n : nat) (sh : share) (L : nat) : Prop :=
  (L = 1%nat /\ sh_as_sum sh = true /\ exists v, sh_var sh = Some v /\ (2 <= v_len v)%nat /\ fitn (v_len v) (sh_factor sh))
  \/ (L = n /\ sh_as_sum sh = false /\ exists v, sh_var sh = Some v /\ v_len v = n /\ fitn n (sh_factor sh))
  \/ (L = 1%nat /\ sh_as_sum sh = false /\ is_scalar (sh_factor sh) = true /\ match sh_var sh with Some v => v_len v = 1%nat | None => True end).
Definition sname (elem : string) (sh : share) : string := model_full elem (Some (sh_name sh)).
Record ss_fine (elem : string) (sh : share) (L : nat) (o : ss_out) : Prop := {
  sf_var : is_var (ss_var o) (sname elem sh) L;
  sf_tree : exists c, ss_tree o = EM (sname elem sh) (sh_name sh) [ss_var o] [c] [] /\ c_label c = vlabel (sname elem sh) (sname elem sh) /\ con_ok c
}.
Lemma single_ok : forall elem n sh L, (2 <= n)%nat -> single_fit n sh L -> exists o, single_share elem sh = Ok o /\ ss_fine elem sh L o.
Proof.
  intros elem n sh L N H. unfold single_share. fold (sname elem sh). set (full := sname elem sh).
  destruct H as [[-> [S [v [V [LV F]]]]]|[[-> [S [v [V [LV F]]]]]|[-> [S [SC V]]]]]; rewrite ?S, ?V.
  - assert (Z : Nat.eqb (v_len v) 1 = false) by (apply Nat.eqb_neq; lia). rewrite Z. unfold assert_. cbn [andb negb guard bind orb].
    destruct (mk_variable_ok full 1 (sh_name sh) false None None I I) as [sv [E [Is _]]]. rewrite E. cbn [bind].
    next_eq' 1%nat. { constructor; [one_call'|]. constructor; [|constructor]. apply fit_sum; [lia|exact F]. }
    exists (mkSS (EM full (sh_name sh) [sv] [eq] []) sv). unfold mk_em. cbn [map nodup_str mem_str existsb negb andb guard bind].
    split; [reflexivity|]. split; [exact Is|]. exists eq. repeat split; auto.
  - assert (Z : Nat.eqb (v_len v) 1 = false) by (apply Nat.eqb_neq; lia). rewrite Z. unfold assert_. cbn [andb negb guard bind orb].
    destruct (mk_variable_ts_ok full (v_len v) (sh_name sh) false None None None) as [sv [E [Is _]]]; [lia|exact I|exact I|]. rewrite E. cbn [bind]. rewrite LV in Is.
    next_eq' n.
    exists (mkSS (EM full (sh_name sh) [sv] [eq] []) sv). unfold mk_em. cbn [map nodup_str mem_str existsb negb andb guard bind].
    split; [reflexivity|]. split; [exact Is|]. exists eq. repeat split; auto.
  - assert (C : (match sh_var sh with Some v => negb (Nat.eqb (v_len v) 1 && false) | None => true end) = true).
    { destruct (sh_var sh); auto. rewrite andb_false_r. reflexivity. }
    unfold assert_. rewrite C. cbn [guard bind].
    assert (C2 : (false || match sh_var sh with Some v => Nat.eqb (v_len v) 1 | None => is_scalar (sh_factor sh) end)%bool = true).
    { destruct (sh_var sh); cbn; auto. apply Nat.eqb_eq. exact V. }
    rewrite C2. destruct (mk_variable_ok full 1 (sh_name sh) false None None I I) as [sv [E [Is _]]]. rewrite E. cbn [bind].
    destruct (sh_factor sh) as [q|l]; [|discriminate SC].
    next_eq' 1%nat. { constructor; [one_call'|]. constructor; [|constructor]. destruct (sh_var sh); [apply fit_all; [auto|exact I]|exact I]. }
    exists (mkSS (EM full (sh_name sh) [sv] [eq] []) sv). unfold mk_em. cbn [map nodup_str mem_str existsb negb andb guard bind].
    split; [reflexivity|]. split; [exact Is|]. exists eq. repeat split; auto.
Qed.

(** ** A collection of shares *)
Definition ts_vars (ts : bool) (label : string) : list string := cat [label; "_sum"] :: (if ts then [cat [label; "_sum_TS"]] else []).
Definition ts_cons (ts : bool) (label : string) : list string := cat [label; "_sum"] :: (if ts then [cat [label; "_time_series"]] else []).
Record sa_fine (elem label : string) (ts : bool) (shs : list share) (o : sa_out) : Prop := {
  saf_sum : v_len (sa_sum o) = 1%nat;
  saf_vs : map v_label (vs_of [sa_tree o]) = map (vlabel (model_full elem (Some label))) (ts_vars ts label) ++ map (sname elem) shs;
  saf_cs : map c_label (cs_of [sa_tree o]) = map (vlabel (model_full elem (Some label))) (ts_cons ts label) ++ map (fun sh => vlabel (sname elem sh) (sname elem sh)) shs;
  saf_var : Forall var_ok (vs_of [sa_tree o]);
  saf_con : Forall con_ok (cs_of [sa_tree o])
}.
Lemma label_apart : forall label a b, a <> b -> cat [label; a] <> cat [label; b].
Proof. intros label a b N E. apply N. cbn [cat fold_right] in E. rewrite !append_nil in E. induction label as [|c s IH]; simpl in E; auto. injection E as E. auto. Qed.
Lemma vlabel_inj : forall m a b, vlabel m a = vlabel m b -> a = b.
Proof. intros m a b E. apply (f_equal words) in E. unfold vlabel in E. rewrite !words_us in E. apply app_inv_head in E. apply words_inj. exact E. Qed.
Lemma mk_em_plain : forall f l v c s, NoDup (map v_label v) -> NoDup (map c_label c) -> mk_em f l v c s = Ok (EM f l v c s).
Proof. intros f l v c s A B. unfold mk_em. apply nodup_str_NoDup in A, B. rewrite A, B. reflexivity. Qed.
Lemma Forall_In : forall {A} (Q : A -> Prop) l, (forall a, In a l -> Q a) -> Forall Q l.
Proof. intros. apply Forall_forall. auto. Qed.

Lemma share_alloc_ok : forall cx elem label (ts : bool) tmin tmax phmin phmax shs L, (2 <= cx_n cx)%nat -> length (cx_dt cx) = cx_n cx ->
  (ts = false -> phmin = None /\ phmax = None) -> fito (cx_n cx) phmin -> fito (cx_n cx) phmax ->
  L = (if ts then cx_n cx else 1%nat) -> (forall sh, In sh shs -> single_fit (cx_n cx) sh L /\ (ts = true -> sh_as_sum sh = false)) ->
  NoDup (map sh_name shs) ->
  exists o, share_alloc cx elem label ts tmin tmax phmin phmax shs = Ok o /\ sa_fine elem label ts shs o.
Proof.
  intros cx elem label ts tmin tmax phmin phmax shs L N2 DT PH F1 F2 EL SF ND. unfold share_alloc. set (full := model_full elem (Some label)). set (n := cx_n cx) in *.
  assert (A0 : (ts || (is_none phmin && is_none phmax))%bool = true) by (destruct ts; auto; destruct (PH eq_refl) as [-> ->]; reflexivity).
  unfold assert_. rewrite A0. cbn [guard bind].
  destruct (create_one full (cat [label; "_sum"]) false (opt_num tmin) (opt_num tmax)) as [s [Es [Is _]]]; [destruct tmin; exact I|destruct tmax; exact I|].
  unfold alloc_sum. fold full. rewrite Es. cbn [bind].
  assert (ST : exists st, (if ts then v <- alloc_ts cx elem label phmin phmax ;; Ok (Some v) else Ok None) = Ok st
     /\ (if ts then exists v, st = Some v /\ is_var v (vlabel full (cat [label; "_sum_TS"])) n else st = None)).
  { destruct ts; [|exists None; auto]. unfold alloc_ts. fold full. fold n.
    assert (OM : forall a, fito n a -> exists r, optM (fun q => nmul q (NV (cx_dt cx))) a = Ok r /\ fito n r).
    { intros [a|] F; cbn [optM]; [|exists None; auto]. destruct (nmul_fit n a (NV (cx_dt cx)) F DT) as [r [-> Fr]]. cbn. exists (Some r). auto. }
    destruct (OM _ F1) as [lb [-> G1]]. cbn [bind]. destruct (OM _ F2) as [ub [-> G2]]. cbn [bind].
    destruct (create_long full (cat [label; "_sum_TS"]) n false lb ub None) as [v [Ev [Iv _]]]; [lia|auto|auto|]. rewrite Ev. cbn [bind]. exists (Some v). split; auto. exists v. auto. }
  destruct ST as [st [-> St]]. cbn [bind].
  destruct (mapM_ok (fun sh => o <- single_share elem sh ;; Ok (sh, o)) (fun sh so => fst so = sh /\ ss_fine elem sh L (snd so)) shs) as [singles [Em Fm]].
  { intros sh Hs. destruct (single_ok elem n sh L) as [o [-> H]]; [lia|apply SF; auto|]. cbn. exists (sh, o). auto. }
  rewrite Em. cbn [bind]. apply nodup_str_NoDup in ND. rewrite ND. cbn [guard bind].
  assert (FS : forall so, In so singles -> ss_fine elem (fst so) L (snd so) /\ In (fst so) shs).
  { clear ND Em SF. intros so Hs. induction Fm as [|sh so' l m [<- H] F IH]; [contradiction|].
    destruct Hs as [<-|Hs]; [split; [auto|left; auto]|]. destruct (IH Hs). split; auto. right; auto. }
  assert (LS : forall so, In so singles -> v_len (ss_var (snd so)) = L) by (intros so Hs; apply (sf_var _ _ _ _ (proj1 (FS _ Hs)))).
  next_eq' 1%nat.
  { apply Forall_app. split; [calls'|]. apply Forall_app. split.
    - destruct ts; [destruct St as [v [-> Iv]]|subst st; constructor]. constructor; [|constructor]. apply fit_sum; [rewrite (iv_len _ _ _ Iv); lia|exact I].
    - apply Forall_In. intros a Ha. apply in_map_iff in Ha. destruct Ha as [so [<- Hs]]. apply filter_In in Hs. destruct Hs as [Hs T].
      destruct ts; [|apply fit_all; [rewrite (LS _ Hs); exact EL|exact I]].
      rewrite (proj2 (SF _ (proj2 (FS _ Hs))) eq_refl) in T. discriminate T. }
  assert (CT : exists cts, (match st with
         | Some v =>
             c <- create_equation full (cat [label; "_time_series"]) KEq
                    (AddS v (NS (-1)) None false ::
                     map (fun so : share * ss_out => AddS (ss_var (snd so)) (NS 1) None false) (filter (fun so : share * ss_out => negb (sh_as_sum (fst so) || negb ts)%bool) singles)) ;;
             Ok [c]
         | None => Ok []
         end) = Ok cts /\ Forall con_ok cts /\ map c_label cts = map (vlabel full) (if ts then [cat [label; "_time_series"]] else [])).
  { destruct ts; [destruct St as [v [-> Iv]]|subst st; exists []; auto].
    next_eq' n. { constructor; [one_call'|]. apply Forall_In. intros a Ha. apply in_map_iff in Ha. destruct Ha as [so [<- Hs]]. apply filter_In in Hs. apply fit_all; [rewrite (LS so); [exact EL|apply Hs]|exact I]. }
    exists [eq0]. repeat split; auto. cbn [map]. rewrite El0. reflexivity. }
  destruct CT as [cts [-> [Oc Lc]]]. cbn [bind].
  set (vs := s :: match st with Some v => [v] | None => [] end).
  assert (LV : map v_label vs = map (vlabel full) (ts_vars ts label)).
  { unfold vs, ts_vars. destruct ts; [destruct St as [v [-> Iv]]|subst st]; cbn [map]; rewrite (iv_lab _ _ _ Is); rewrite ?(iv_lab _ _ _ Iv); reflexivity. }
  assert (LC : map c_label (eq :: cts) = map (vlabel full) (ts_cons ts label)) by (unfold ts_cons; cbn [map]; rewrite El, Lc; reflexivity).
  assert (NDl : forall a b, a <> b -> NoDup (map (vlabel full) (cat [label; a] :: (if ts then [cat [label; b]] else [])))).
  { intros a b AB. destruct ts; cbn [map].
    - constructor; [|constructor; [intros []|constructor]]. intros [E|[]]. apply vlabel_inj in E. exact (label_apart _ _ _ AB (eq_sym E)).
    - constructor; [intros []|constructor]. }
  rewrite mk_em_plain; [|rewrite LV; apply NDl; discriminate|rewrite LC; apply NDl; discriminate]. cbn [bind].
  eexists. split; [reflexivity|].
  assert (VS : forall so, In so singles -> exists c, vs_of [ss_tree (snd so)] = [ss_var (snd so)] /\ cs_of [ss_tree (snd so)] = [c] /\ c_label c = vlabel (sname elem (fst so)) (sname elem (fst so)) /\ con_ok c).
  { intros so Hs. destruct (sf_tree _ _ _ _ (proj1 (FS _ Hs))) as [c [-> H]]. exists c. rewrite vs_node, cs_node. auto. }
  assert (SH : map fst singles = shs) by (clear -Fm; induction Fm as [|a b l m [E _] F IH]; simpl; congruence).
  assert (AL : map v_label (vs_of (map (fun so : share * ss_out => ss_tree (snd so)) singles)) = map (sname elem) shs
    /\ map c_label (cs_of (map (fun so : share * ss_out => ss_tree (snd so)) singles)) = map (fun sh => vlabel (sname elem sh) (sname elem sh)) shs
    /\ Forall var_ok (vs_of (map (fun so : share * ss_out => ss_tree (snd so)) singles)) /\ Forall con_ok (cs_of (map (fun so : share * ss_out => ss_tree (snd so)) singles))).
  { rewrite <- SH. clear -FS VS. induction singles as [|so l IH]; [cbn; auto|].
    destruct IH as [A [B [C D]]]; [intros; apply FS; right; auto|intros; apply VS; right; auto|]. destruct (VS _ (or_introl eq_refl)) as [c [V [W [X Y]]]].
    pose proof (sf_var _ _ _ _ (proj1 (FS _ (or_introl eq_refl)))) as Iv.
    cbn [map]. change (ss_tree (snd so) :: ?r) with ([ss_tree (snd so)] ++ r). rewrite vs_app, cs_app, !map_app, V, W, A, B. cbn [map app]. rewrite (iv_lab _ _ _ Iv), X.
    repeat split; auto; constructor; auto; apply Iv. }
  destruct AL as [A [B [C D]]].
  split; cbn [sa_sum sa_tree]; [apply Is| | | |]; rewrite ?vs_node, ?cs_node.
  - rewrite map_app, A. f_equal. exact LV.
  - rewrite map_app, B. f_equal. exact LC.
  - apply Forall_app. split; auto. unfold vs. constructor; [apply Is|]. destruct ts; [destruct St as [v [-> Iv]]; constructor; [apply Iv|constructor]|subst st; constructor].
  - apply Forall_app. split; auto.
Qed.
