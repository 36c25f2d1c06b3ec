(** The order in which terms, variables, constraints and models come does not matter for what the solver is given. *)
From Verif Require Import Base BaseFacts MathModel Spec MathFacts Structure StructureFacts Params Features Elements System SysSpec ReadTools.

(** ** Lists *)
Lemma mapM_perm : forall {A B} (f : A -> res B) l l' r, Permutation l l' -> mapM f l = Ok r -> exists r', mapM f l' = Ok r' /\ Permutation r r'.
Proof.
  intros A B f l l' r P. revert r. induction P; intros r H; simpl in *.
  - exists r. split; auto.
  - bnd H b Eb. bnd H s Es. fin H. destruct (IHP _ Es) as [s' [E' P']]. rewrite Eb. cbn. rewrite E'. cbn. eexists. split; [reflexivity|]. auto.
  - bnd H b Eb. bnd H t Et. bnd Et c Ec. bnd Et s Es. fin Et. fin H. rewrite Ec. cbn. rewrite Eb. cbn. rewrite Es. cbn. eexists. split; [reflexivity|]. constructor.
  - destruct (IHP1 _ H) as [r1 [E1 Q1]]. destruct (IHP2 _ E1) as [r2 [E2 Q2]]. exists r2. split; auto. eapply perm_trans; eauto.
Qed.
Lemma mapM_rel : forall {A B C} (f : A -> res B) (g : A -> res C) (R : B -> C -> Prop) l r,
  (forall a b, In a l -> f a = Ok b -> exists c, g a = Ok c /\ R b c) -> mapM f l = Ok r -> exists r', mapM g l = Ok r' /\ Forall2 R r r'.
Proof.
  induction l as [|a l IH]; simpl; intros r H E.
  - fin E. exists []. auto.
  - bnd E b Eb. bnd E s Es. fin E. destruct (H a b (or_introl eq_refl) Eb) as [c [Ec Rc]]. destruct (IH s (fun a b Ha => H a b (or_intror Ha)) Es) as [s' [Es' Rs]].
    rewrite Ec. cbn. rewrite Es'. cbn. eexists. split; [reflexivity|]. auto.
Qed.
(** A relation up to the order. *)
Definition perm_rel {A B} (R : A -> B -> Prop) (l : list A) (m : list B) : Prop := exists k, Forall2 R l k /\ Permutation k m.
Lemma Forall2_perm_l : forall {A B} (R : A -> B -> Prop) l l' m, Permutation l l' -> Forall2 R l m -> exists m', Forall2 R l' m' /\ Permutation m m'.
Proof.
  intros A B R l l' m P. revert m. induction P; intros m F.
  - inversion F; subst. exists []. auto.
  - inversion F as [|? y ? m1 Ry Fm]; subst. destruct (IHP _ Fm) as [m' [F' P']]. exists (y :: m'). auto.
  - inversion F as [|? b ? m1 Rb Fm]; subst. inversion Fm as [|? a ? m2 Ra Fm2]; subst. exists (a :: b :: m2). split; auto. constructor.
  - destruct (IHP1 _ F) as [m1 [F1 Q1]]. destruct (IHP2 _ F1) as [m2 [F2 Q2]]. exists m2. split; auto. eapply perm_trans; eauto.
Qed.
Lemma mapM_perm_rel : forall {A B C} (f : A -> res B) (g : A -> res C) (R : B -> C -> Prop) l l' r, Permutation l l' ->
  (forall a b, In a l -> f a = Ok b -> exists c, g a = Ok c /\ R b c) -> mapM f l = Ok r -> exists r', mapM g l' = Ok r' /\ perm_rel R r r'.
Proof.
  intros A B C f g R l l' r P H E. destruct (mapM_rel f g R l r H E) as [k [Ek F]]. destruct (mapM_perm g l l' k P Ek) as [r' [E' P']].
  exists r'. split; auto. exists k. auto.
Qed.
Lemma perm_rel_app : forall {A B} (R : A -> B -> Prop) l m l' m', perm_rel R l m -> perm_rel R l' m' -> perm_rel R (l ++ l') (m ++ m').
Proof. intros A B R l m l' m' [k [F P]] [k' [F' P']]. exists (k ++ k'). split; [apply Forall2_app; auto|apply Permutation_app; auto]. Qed.
Lemma perm_rel_perm_l : forall {A B} (R : A -> B -> Prop) l l' m, Permutation l l' -> perm_rel R l m -> perm_rel R l' m.
Proof. intros A B R l l' m P [k [F Q]]. destruct (Forall2_perm_l R l l' k P F) as [k' [F' P']]. exists k'. split; auto. eapply perm_trans; [apply Permutation_sym; exact P'|exact Q]. Qed.
Lemma perm_rel_perm_r : forall {A B} (R : A -> B -> Prop) l m m', Permutation m m' -> perm_rel R l m -> perm_rel R l m'.
Proof. intros A B R l m m' P [k [F Q]]. exists k. split; auto. eapply perm_trans; eauto. Qed.
Lemma perm_rel_refl : forall {A} (R : A -> A -> Prop) l, (forall a, R a a) -> perm_rel R l l.
Proof. intros A R l H. exists l. split; auto. induction l; auto. Qed.
Lemma perm_rel_map : forall {A B C} (R : A -> B -> Prop) (f : A -> C) (g : B -> C) l m, perm_rel R l m -> (forall a b, R a b -> f a = g b) -> Permutation (map f l) (map g m).
Proof.
  intros A B C R f g l m [k [F P]] H. eapply perm_trans; [|apply Permutation_map; exact P].
  assert (E : map f l = map g k) by (clear P; induction F; simpl; f_equal; auto). rewrite E. auto.
Qed.
Lemma perm_rel_flat_map : forall {A B C} (R : A -> B -> Prop) (f : A -> list C) (g : B -> list C) l m, perm_rel R l m ->
  (forall a b, R a b -> Permutation (f a) (g b)) -> Permutation (flat_map f l) (flat_map g m).
Proof.
  intros A B C R f g l m [k [F P]] H. eapply perm_trans; [|apply Permutation_flat_map_l; exact P]. clear P.
  induction F; simpl; auto. apply Permutation_app; auto.
Qed.
Lemma Permutation_filter_ : forall {A} (p : A -> bool) l m, Permutation l m -> Permutation (filter p l) (filter p m).
Proof.
  intros A p l m P. induction P; simpl; auto.
  - destruct (p x); auto.
  - destruct (p x), (p y); auto. constructor.
  - eapply perm_trans; eauto.
Qed.
Lemma nodup_str_perm : forall l m, Permutation l m -> nodup_str l = true -> nodup_str m = true.
Proof.
  intros l m P H. apply nodup_str_NoDup in H. apply nodup_str_NoDup. eapply Permutation_NoDup; eauto.
Qed.

(** ** Constraints *)
Record con_eqv (c d : constraint) : Prop := {
  ce_label : c_label d = c_label c; ce_kind : c_kind d = c_kind c; ce_len : c_len d = c_len c; ce_const : c_const d = c_const c;
  ce_terms : Permutation (c_summands c) (c_summands d) }.
Lemma con_eqv_refl : forall c, con_eqv c c. Proof. intros c. constructor; auto. Qed.

Lemma update_swap : forall n a b m k, update_length n a = Ok m -> update_length m b = Ok k ->
  exists m', update_length n b = Ok m' /\ update_length m' a = Ok k.
Proof.
  intros n a b m k H1 H2. unfold update_length in *.
  destruct (Nat.eqb_spec n 1) as [->|Hn].
  - apply Ok_inj in H1. subst m. exists b. split; auto. destruct (Nat.eqb_spec a 1) as [->|Ha].
    + apply Ok_inj in H2. subst k. destruct (Nat.eqb_spec b 1) as [->|]; auto. 
    + destruct (Nat.eqb_spec b 1) as [->|Hb]; simpl in H2; [apply Ok_inj in H2; subst k; auto|].
      destruct (Nat.eqb_spec b a) as [->|]; simpl in H2; [|discriminate]. apply Ok_inj in H2. subst k.
      rewrite Nat.eqb_refl, Bool.orb_true_r. auto.
  - destruct ((a =? 1) || (a =? n))%nat%bool eqn:Ea; [|discriminate]. apply Ok_inj in H1. subst m.
    destruct (Nat.eqb_spec n 1); [contradiction|]. destruct ((b =? 1) || (b =? n))%nat%bool eqn:Eb; [|discriminate]. apply Ok_inj in H2. subst k.
    exists n. split; auto. destruct (Nat.eqb_spec n 1); [contradiction|]. rewrite Ea. auto.
Qed.

(** Adding summands in another order. *)
Lemma apply_AddS_inv : forall c v f i s d, apply_call c (AddS v f i s) = Ok d -> exists u n, mk_summand v f i s = Ok u /\ update_length (c_len c) (s_len u) = Ok n
  /\ d = mkConstraint (c_label c) (c_short c) (c_kind c) (c_summands c ++ [u]) (c_const c) n.
Proof.
  intros c v f i s d H. unfold apply_call, to_res, apply_call_st, add_summand_st in H. destruct (mk_summand v f i s) as [u|]; [|discriminate].
  destruct (update_length (c_len c) (s_len u)) as [n|] eqn:U; [|discriminate]. simpl in H. apply Ok_inj in H. subst. exists u, n. auto.
Qed.
Lemma apply_AddS_intro : forall c v f i s u n, mk_summand v f i s = Ok u -> update_length (c_len c) (s_len u) = Ok n ->
  apply_call c (AddS v f i s) = Ok (mkConstraint (c_label c) (c_short c) (c_kind c) (c_summands c ++ [u]) (c_const c) n).
Proof. intros c v f i s u n M U. unfold apply_call, to_res, apply_call_st, add_summand_st. rewrite M. cbn. rewrite U. reflexivity. Qed.
Lemma apply_call_eqv : forall c d a c', con_eqv c d -> apply_call c a = Ok c' -> exists d', apply_call d a = Ok d' /\ con_eqv c' d'.
Proof.
  intros c d a c' [L K N C T] H. destruct a as [v f i s|k].
  - apply apply_AddS_inv in H. destruct H as [u [n [M [U ->]]]]. rewrite <- N in U. eexists. split; [apply apply_AddS_intro; eauto|].
    constructor; simpl; auto. apply Permutation_app_tail. auto.
  - unfold apply_call, to_res, apply_call_st, add_constant_st in *. rewrite C, N. destruct (nadd (c_const c) k) as [k'|]; [|discriminate].
    destruct (update_length (c_len c) (nlen k')) as [n|]; [|discriminate]. simpl in *. apply Ok_inj in H. subst. eexists. split; [reflexivity|]. constructor; simpl; auto.
Qed.
Lemma foldM_eqv : forall l c d c', con_eqv c d -> foldM apply_call l c = Ok c' -> exists d', foldM apply_call l d = Ok d' /\ con_eqv c' d'.
Proof.
  induction l as [|a l IH]; simpl; intros c d c' Q H; [exists d; split; auto; apply Ok_inj in H; subst; auto|].
  bnd H e Ee. destruct (apply_call_eqv _ _ _ _ Q Ee) as [e' [E' Q']]. rewrite E'. cbn. eauto.
Qed.
Definition is_term (a : call) : Prop := match a with AddS _ _ _ _ => True | AddC _ => False end.
Lemma con_eqv_trans : forall a b c, con_eqv a b -> con_eqv b c -> con_eqv a c.
Proof. intros a b c [? ? ? ? ?] [? ? ? ? ?]. constructor; try congruence. eapply perm_trans; eauto. Qed.
Lemma foldM_perm : forall l m, Permutation l m -> Forall is_term l -> forall c c', foldM apply_call l c = Ok c' -> exists d', foldM apply_call m c = Ok d' /\ con_eqv c' d'.
Proof.
  intros l m P. induction P as [|a l m P IH|a b l|l m k P1 IH1 P2 IH2]; intros T c c' H; simpl in *.
  - exists c'. split; auto. apply con_eqv_refl.
  - bnd H e Ee. rewrite Ee. cbn. apply (IH (Forall_inv_tail T) _ _ H).
  - bnd H e Ee. bnd H g Eg. pose proof (Forall_inv T) as Tb. pose proof (Forall_inv (Forall_inv_tail T)) as Ta.
    destruct b as [v f i s|]; [|destruct Tb]. destruct a as [v' f' i' s'|]; [|destruct Ta].
    apply apply_AddS_inv in Ee. destruct Ee as [u [n [M [U ->]]]]. apply apply_AddS_inv in Eg. destruct Eg as [u' [n' [M' [U' ->]]]]. simpl in U', H.
    destruct (update_swap _ _ _ _ _ U U') as [p [V V']]. rewrite (apply_AddS_intro _ _ _ _ _ _ _ M' V). cbn.
    rewrite (apply_AddS_intro (mkConstraint (c_label c) (c_short c) (c_kind c) (c_summands c ++ [u']) (c_const c) p) _ _ _ _ _ n' M V'). cbn.
    refine (foldM_eqv l _ _ _ _ H). constructor; simpl; auto. rewrite <- !app_assoc. apply Permutation_app_head. simpl. constructor.
  - destruct (IH1 T _ _ H) as [d [Ed Qd]]. destruct (IH2 (Permutation_Forall P1 T) _ _ Ed) as [d' [Ed' Qd']]. exists d'. split; auto. eapply con_eqv_trans; eauto.
Qed.
Lemma create_equation_perm : forall m n k pre l l' suf c, Permutation l l' -> Forall is_term l -> create_equation m n k (pre ++ l ++ suf) = Ok c ->
  exists c', create_equation m n k (pre ++ l' ++ suf) = Ok c' /\ con_eqv c c'.
Proof.
  intros m n k pre l l' suf c P T H. unfold create_equation, build_constraint in *.
  destruct (foldM_app _ _ _ _ _ H) as [c1 [E1 H1]]. destruct (foldM_app _ _ _ _ _ H1) as [c2 [E2 H2]].
  destruct (foldM_perm _ _ P T _ _ E2) as [d [Ed Qd]]. destruct (foldM_eqv _ _ _ _ Qd H2) as [d' [Ed' Qd']]. exists d'. split; auto.
  assert (J : forall (l1 l2 : list call) s s1, foldM apply_call l1 s = Ok s1 -> foldM apply_call (l1 ++ l2) s = foldM apply_call l2 s1).
  { induction l1 as [|a l1 IH]; simpl; intros l2 s s1 E; [apply Ok_inj in E; subst; auto|]. bnd E b Eb. rewrite Eb. cbn. eauto. }
  rewrite (J _ _ _ _ E1), (J _ _ _ _ Ed). exact Ed'.
Qed.

(** Translation of equivalent constraints. *)
Lemma lin_perm : forall x a b, Permutation a b -> lin x a == lin x b.
Proof. intros x a b P. unfold lin. apply Qsum_perm, Permutation_map, P. Qed.

Lemma nonempty_concat : forall {A} (l : list (list A)), nonempty (List.concat l) = existsb nonempty l.
Proof. intros A l. induction l as [|a l IH]; [reflexivity|]. cbn. destruct a; [exact IH|reflexivity]. Qed.
Lemma existsb_perm : forall {A} (f : A -> bool) a b, Permutation a b -> existsb f a = existsb f b.
Proof. intros A f a b P. induction P as [|x a b P IH|x y a|a b c P1 IH1 P2 IH2]; cbn; [reflexivity|rewrite IH; reflexivity|destruct (f x), (f y); reflexivity|congruence]. Qed.
Lemma lhs_terms_perm : forall ss ss' i ts, Permutation ss ss' -> lhs_terms ss i = Ok ts -> exists ts', lhs_terms ss' i = Ok ts' /\ nonempty ts' = nonempty ts /\ forall x, lin x ts == lin x ts'.
Proof.
  intros ss ss' i ts P H. unfold lhs_terms in *. bnd H r Er. fin H. destruct (mapM_perm _ _ _ _ P Er) as [r' [E' P']]. rewrite E'. cbn. eexists. split; [reflexivity|]. split; [rewrite !nonempty_concat; symmetry; apply existsb_perm, P'|].
  intros x. rewrite !lin_concat. apply Qsum_perm, Permutation_map, P'.
Qed.
Definition row_eqv (r s : row) : Prop := r_eq s = r_eq r /\ r_rhs s = r_rhs r /\ forall x, lin x (r_terms r) == lin x (r_terms s).
Lemma row_eqv_ok : forall x r s, row_eqv r s -> (row_ok x r <-> row_ok x s).
Proof. intros x r s [E [R L]]. unfold row_ok. rewrite E, R. destruct (r_eq r); rewrite (L x); reflexivity. Qed.
Lemma translate_constraint_eqv : forall c d rs, con_eqv c d -> translate_constraint c = Ok rs -> exists rs', translate_constraint d = Ok rs' /\ Forall2 row_eqv rs rs'.
Proof.
  intros c d rs [L K N C T] H. unfold translate_constraint in *. rewrite C, N, K. bnd H cv Ecv. rewrite Ecv. cbn.
  refine (mapM_rel _ _ _ _ _ _ H). intros i r _ E. bnd E ts Ets. bnd E q Eqq. bnd E ne Ene. fin E. destruct (lhs_terms_perm _ _ _ _ T Ets) as [ts' [E' [NE L']]].
  rewrite E'. cbn. rewrite Eqq. cbn. rewrite NE, Ene. cbn. eexists. split; [reflexivity|]. split; [|split]; simpl; auto.
Qed.
Lemma con_sat_eqv : forall x c d, con_eqv c d -> con_sat x c -> con_sat x d.
Proof.
  intros x c d Q [rs [T F]]. destruct (translate_constraint_eqv _ _ _ Q T) as [rs' [T' R]]. exists rs'. split; auto.
  clear T T'. induction R as [|r s rs rs' E R IH]; auto. constructor; [apply (row_eqv_ok x _ _ E); exact (Forall_inv F)|exact (IH (Forall_inv_tail F))].
Qed.
Lemma con_eqv_sym : forall c d, con_eqv c d -> con_eqv d c.
Proof. intros c d [? ? ? ? ?]. constructor; auto. apply Permutation_sym. auto. Qed.

(** ** Lists of models *)
Definition vars_of (ds : list emodel) : list variable := flat_map em_vars (flat_map flat ds).
Definition cons_of (ds : list emodel) : list constraint := flat_map em_cons (flat_map flat ds).
Definition sys_eqv (ds es : list emodel) : Prop := Permutation (vars_of ds) (vars_of es) /\ perm_rel con_eqv (cons_of ds) (cons_of es).
Lemma sys_eqv_refl : forall ds, sys_eqv ds ds.
Proof. intros ds. split; auto. apply perm_rel_refl, con_eqv_refl. Qed.
Lemma vars_of_app : forall a b, vars_of (a ++ b) = vars_of a ++ vars_of b.
Proof. intros. unfold vars_of. rewrite !flat_map_app. reflexivity. Qed.
Lemma cons_of_app : forall a b, cons_of (a ++ b) = cons_of a ++ cons_of b.
Proof. intros. unfold cons_of. rewrite !flat_map_app. reflexivity. Qed.
Lemma sys_eqv_app : forall a b a' b', sys_eqv a a' -> sys_eqv b b' -> sys_eqv (a ++ b) (a' ++ b').
Proof.
  intros a b a' b' [V C] [V' C']. split; rewrite ?vars_of_app, ?cons_of_app; [apply Permutation_app; auto|apply perm_rel_app; auto].
Qed.
Lemma sys_eqv_perm : forall ds es, Permutation ds es -> sys_eqv ds es.
Proof.
  intros ds es P. split.
  - apply Permutation_flat_map_l, Permutation_flat_map_l, P.
  - eapply perm_rel_perm_r; [|apply perm_rel_refl, con_eqv_refl]. apply Permutation_flat_map_l, Permutation_flat_map_l, P.
Qed.
Lemma perm_rel_trans : forall {A} (R : A -> A -> Prop) a b c, (forall x y z, R x y -> R y z -> R x z) -> perm_rel R a b -> perm_rel R b c -> perm_rel R a c.
Proof.
  intros A R a b c T [k [F P]] [k' [F' P']]. destruct (Forall2_perm_l R b k k' (Permutation_sym P) F') as [j [G Q]].
  exists j. split; [|eapply perm_trans; [apply Permutation_sym; exact Q|exact P']]. clear - T F G. revert j G. induction F; intros j G; inversion G; subst; constructor; eauto.
Qed.
Lemma sys_eqv_trans : forall a b c, sys_eqv a b -> sys_eqv b c -> sys_eqv a c.
Proof.
  intros a b c [V C] [V' C']. split; [eapply perm_trans; eauto|]. eapply perm_rel_trans; eauto. apply con_eqv_trans.
Qed.
Lemma sys_eqv_rel : forall ds es, perm_rel (fun d e => sys_eqv [d] [e]) ds es -> sys_eqv ds es.
Proof.
  intros ds es [k [F P]]. eapply sys_eqv_trans; [|apply sys_eqv_perm; exact P]. clear P. induction F as [|d e ds k Q F IH]; [apply sys_eqv_refl|].
  change (d :: ds) with ([d] ++ ds). change (e :: k) with ([e] ++ k). apply sys_eqv_app; auto.
Qed.
(** A model whose parts correspond. *)
Lemma sys_eqv_node : forall f l f' l' vs vs' cs cs' ss ss', Permutation vs vs' -> perm_rel con_eqv cs cs' -> sys_eqv ss ss' -> sys_eqv [EM f l vs cs ss] [EM f' l' vs' cs' ss'].
Proof.
  intros f l f' l' vs vs' cs cs' ss ss' V C [SV SC]. unfold sys_eqv, vars_of, cons_of in *. simpl. rewrite !app_nil_r. split; [apply Permutation_app; auto|apply perm_rel_app; auto].
Qed.

Lemma filter_eqv : forall (k : ckind -> bool) cs cs', perm_rel con_eqv cs cs' -> perm_rel con_eqv (filter (fun c => k (c_kind c)) cs) (filter (fun c => k (c_kind c)) cs').
Proof.
  intros k cs cs' [j [F P]]. exists (filter (fun c => k (c_kind c)) j). split; [|apply Permutation_filter_, P]. clear P.
  induction F as [|c d cs0 j Q F IH]; simpl; auto. rewrite (ce_kind _ _ Q). destruct (k (c_kind c)); auto.
Qed.
Lemma sat_eqv : forall x cs cs', perm_rel con_eqv cs cs' -> (Forall (con_sat x) cs <-> Forall (con_sat x) cs').
Proof.
  intros x cs cs' [j [F P]]. split; intros S.
  - eapply Permutation_Forall; [exact P|]. clear P. induction F as [|c d cs0 j Q F IH]; auto.
    constructor; [eapply con_sat_eqv; [exact Q|exact (Forall_inv S)]|exact (IH (Forall_inv_tail S))].
  - assert (S' : Forall (con_sat x) j) by (eapply Permutation_Forall; [apply Permutation_sym; exact P|exact S]). clear P S.
    induction F as [|c d cs0 j Q F IH]; auto. constructor; [eapply con_sat_eqv; [apply con_eqv_sym; exact Q|exact (Forall_inv S')]|exact (IH (Forall_inv_tail S'))].
Qed.

Theorem translate_eqv : forall ds es obj obj' pm, sys_eqv ds es -> con_eqv obj obj' -> system_translate ds obj = Ok pm ->
  exists pm', system_translate es obj' = Ok pm' /\ forall x, (feasible pm x <-> feasible pm' x) /\ objective_value pm x == objective_value pm' x.
Proof.
  intros ds es obj obj' pm [V C] QO H. unfold system_translate in *. bnd H vs Evs. bnd H cs Ecs.
  destruct (system_translate_vars _ _ Evs) as [NV PV]. destruct (system_translate_cons _ _ Ecs) as [NC PC].
  assert (PV' : Permutation vs (flat_map em_vars (system_sub_models es))).
  { eapply perm_trans; [exact PV|]. eapply perm_trans; [exact V|]. apply Permutation_sym. apply Permutation_flat_map_l, system_sub_models_perm. }
  assert (PC' : perm_rel con_eqv cs (flat_map em_cons (system_sub_models es))).
  { eapply perm_rel_perm_l; [apply Permutation_sym; exact PC|]. eapply perm_rel_perm_r; [|exact C]. apply Permutation_sym. apply Permutation_flat_map_l, system_sub_models_perm. }
  assert (Evs' : system_variables es = Ok (flat_map em_vars (system_sub_models es))).
  { unfold system_variables. replace (nodup_str _) with true; [reflexivity|]. symmetry. apply nodup_str_NoDup. eapply Permutation_NoDup; [apply Permutation_map, PV'|exact NV]. }
  assert (Ecs' : system_constraints es = Ok (flat_map em_cons (system_sub_models es))).
  { unfold system_constraints. replace (nodup_str _) with true; [reflexivity|]. symmetry. apply nodup_str_NoDup. eapply Permutation_NoDup; [|exact NC].
    eapply perm_rel_map; [exact PC'|]. intros a b Q. symmetry. apply Q. }
  rewrite Evs', Ecs'. cbn. set (vs' := flat_map em_vars (system_sub_models es)) in *. set (cs' := flat_map em_cons (system_sub_models es)) in *. clearbody vs' cs'.
  unfold translate_model in H |- *. bnd H pvs Epv. bnd H eqs Eeq. bnd H ins Ein. bnd H o Eo. fin H.
  destruct (mapM_perm _ _ _ _ PV' Epv) as [pvs' [Epv' PP]]. rewrite Epv'. cbn.
  assert (FP : forall k : ckind -> bool, perm_rel con_eqv (filter (fun c => k (c_kind c)) cs) (filter (fun c => k (c_kind c)) cs')).
  { intros k. exact (filter_eqv k _ _ PC'). }
  assert (TR : forall cs1 cs2 r, perm_rel con_eqv cs1 cs2 -> mapM translate_constraint cs1 = Ok r -> exists r', mapM translate_constraint cs2 = Ok r').
  { intros cs1 cs2 r [j [F P]] E. assert (J : exists r1, mapM translate_constraint j = Ok r1).
    { clear P. revert r E. induction F as [|c d c1 j Q F IH]; intros r E; [exists []; reflexivity|]. simpl in E. bnd E a Ea. bnd E b Eb.
      destruct (translate_constraint_eqv _ _ _ Q Ea) as [a' [Ea' _]]. destruct (IH _ Eb) as [b' Eb']. simpl. rewrite Ea'. cbn. rewrite Eb'. cbn. eauto. }
    destruct J as [r1 E1]. destruct (mapM_perm _ _ _ _ P E1) as [r' [E' _]]. eauto. }
  destruct (TR _ _ _ (FP (fun k => match k with KIneq => false | _ => true end)) Eeq) as [eqs' Eeq'].
  destruct (TR _ _ _ (FP (fun k => match k with KIneq => true | _ => false end)) Ein) as [ins' Ein'].
  cbv beta in Eeq', Ein'. rewrite Eeq'. cbn. rewrite Ein'. cbn.
  assert (OO : exists o', translate_objective obj' = Ok o' /\ forall x, lin x o == lin x o').
  { unfold translate_objective in *. rewrite (ce_kind _ _ QO), (ce_len _ _ QO). destruct (guard _ TypeError); [|discriminate]. cbn in *. destruct (guard _ PyException); [|discriminate]. cbn in *.
    destruct (lhs_terms_perm _ _ _ _ (ce_terms _ _ QO) Eo) as [o' [A [_ B]]]. exists o'. auto. }
  destruct OO as [o' [Eo' Lo]]. rewrite Eo'. cbn. eexists. split; [reflexivity|]. intros x. split; [|apply Lo].
  assert (T1 : translate_model vs cs obj = Ok (mkPModel pvs (List.concat eqs ++ List.concat ins) o)) by (unfold translate_model; rewrite Epv; cbn; rewrite Eeq; cbn; rewrite Ein; cbn; rewrite Eo; reflexivity).
  assert (T2 : translate_model vs' cs' obj' = Ok (mkPModel pvs' (List.concat eqs' ++ List.concat ins') o')) by (unfold translate_model; rewrite Epv'; cbn; rewrite Eeq'; cbn; rewrite Ein'; cbn; rewrite Eo'; reflexivity).
  rewrite (translate_model_feasible _ _ _ _ x T1), (translate_model_feasible _ _ _ _ x T2).
  assert (CS : Forall (con_sat x) cs <-> Forall (con_sat x) cs').
  { apply sat_eqv, PC'. }
  rewrite CS. split; intros [A B]; (split; [|exact B]); eapply Permutation_Forall; try exact A; [exact PV'|apply Permutation_sym; exact PV'].
Qed.
