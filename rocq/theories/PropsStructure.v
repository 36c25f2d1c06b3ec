(** C27: what reaches the solver. *)
From Verif Require Import Base BaseFacts MathModel Spec MathFacts Structure StructureFacts.

(** ** Specification: everything declared in a model tree, by plain recursion over the tree. *)
Fixpoint decl_vars (m : emodel) : list variable :=
  match m with EM _ _ vars _ subs => vars ++ flat_map decl_vars subs end.
Fixpoint decl_cons (m : emodel) : list constraint :=
  match m with EM _ _ _ cs0 subs => cs0 ++ flat_map decl_cons subs end.

Lemma decl_vars_flat : forall m, decl_vars m = flat_map em_vars (flat m).
Proof.
  apply emodel_ind'. intros f l v c subs IH. simpl. f_equal.
  induction IH as [|s subs E _ IHs]; simpl; auto. rewrite flat_map_app. congruence.
Qed.
Lemma decl_cons_flat : forall m, decl_cons m = flat_map em_cons (flat m).
Proof.
  apply emodel_ind'. intros f l v c subs IH. simpl. f_equal.
  induction IH as [|s subs E _ IHs]; simpl; auto. rewrite flat_map_app. congruence.
Qed.
Lemma decl_vars_roots : forall ds, flat_map decl_vars ds = flat_map em_vars (flat_map flat ds).
Proof.
  induction ds as [|d ds IH]; simpl; auto. rewrite flat_map_app, decl_vars_flat. congruence.
Qed.
Lemma decl_cons_roots : forall ds, flat_map decl_cons ds = flat_map em_cons (flat_map flat ds).
Proof.
  induction ds as [|d ds IH]; simpl; auto. rewrite flat_map_app, decl_cons_flat. congruence.
Qed.

Lemma filter_split_perm : forall {A} (f : A -> bool) l, Permutation (filter f l ++ filter (fun a => negb (f a)) l) l.
Proof.
  induction l as [|a l IH]; simpl; auto. destruct (f a); simpl.
  - constructor; auto.
  - eapply perm_trans; [apply Permutation_sym, Permutation_middle|]. constructor; auto.
Qed.

(** Exactly the declared variables and constraints are translated, each once, under unique labels. *)
Theorem C27_exactly_the_declared : forall roots obj pm, system_translate roots obj = Ok pm ->
  exists vs cs rss,
    Permutation vs (flat_map decl_vars roots) /\ mapM translate_variable vs = Ok (pm_vars pm) /\
    Permutation cs (flat_map decl_cons roots) /\ mapM translate_constraint cs = Ok rss /\
    pm_rows pm = List.concat rss /\
    NoDup (map v_label vs) /\ NoDup (map c_label cs) /\ translate_objective obj = Ok (pm_obj pm).
Proof.
  intros roots obj pm H. unfold system_translate in H. inv_ok.
  destruct (system_translate_vars _ _ E) as [NV PV]. destruct (system_translate_cons _ _ E0) as [NC PC].
  unfold translate_model in H. inv_ok. simpl.
  pose (f := fun c : constraint => match c_kind c with KIneq => false | _ => true end).
  assert (EG : filter (fun c : constraint => match c_kind c with KIneq => true | _ => false end) a0
               = filter (fun c => negb (f c)) a0).
  { apply filter_ext. intros c. unfold f. destruct (c_kind c); reflexivity. }
  assert (M : forall (l1 l2 : list constraint) r1 r2, mapM translate_constraint l1 = Ok r1 ->
              mapM translate_constraint l2 = Ok r2 -> mapM translate_constraint (l1 ++ l2) = Ok (r1 ++ r2)).
  { induction l1; simpl; intros l2 r1 r2 H1 H2; inv_ok; auto. rewrite E5. simpl. rewrite (IHl1 _ _ _ E6 H2). auto. }
  exists a, (filter f a0 ++ filter (fun c => negb (f c)) a0), (a2 ++ a3).
  rewrite decl_vars_roots, decl_cons_roots. split; [auto|]. split; [auto|].
  assert (PF := filter_split_perm f a0).
  split; [eapply perm_trans; eauto|]. split; [apply M; [auto|rewrite <- EG; auto]|].
  split; [rewrite concat_app; auto|]. split; [auto|]. split; [|auto].
  eapply Permutation_NoDup; [apply Permutation_map, Permutation_sym; exact PF|auto].
Qed.
Print Assumptions C27_exactly_the_declared.

(** A point is feasible for the solver exactly if it respects every declared variable and constraint. *)
Theorem C27_feasible : forall roots obj pm x, system_translate roots obj = Ok pm ->
  (feasible pm x <->
   (forall v, In v (flat_map decl_vars roots) -> exists p, translate_variable v = Ok p /\ pvar_ok x p) /\
   (forall c, In c (flat_map decl_cons roots) -> exists rs, translate_constraint c = Ok rs /\ Forall (row_ok x) rs)).
Proof.
  intros roots obj pm x H. destruct (C27_exactly_the_declared _ _ _ H) as
    [vs [cs [rss [PV [TV [PC [TC [R [_ [_ _]]]]]]]]]].
  unfold feasible. rewrite (Forall_vars_sat _ _ _ TV), R, (Forall_concat_rows _ _ _ TC).
  rewrite !Forall_forall. split; intros [A B]; split; intros z Hz.
  - apply A. eapply Permutation_in; [apply Permutation_sym|]; eauto.
  - apply B. eapply Permutation_in; [apply Permutation_sym|]; eauto.
  - apply A. eapply Permutation_in; eauto.
  - apply B. eapply Permutation_in; eauto.
Qed.
Print Assumptions C27_feasible.

(** A label declared twice anywhere in the trees makes the calculation fail with KeyError. *)
Theorem C27_duplicates_fail : forall roots obj,
  ~ NoDup (map v_label (flat_map decl_vars roots)) \/ ~ NoDup (map c_label (flat_map decl_cons roots)) ->
  system_translate roots obj = Err KeyError.
Proof.
  intros roots obj D. unfold system_translate.
  assert (Kv : forall vs, system_variables roots = Ok vs -> NoDup (map v_label (flat_map decl_vars roots))).
  { intros vs Hv. destruct (system_translate_vars _ _ Hv) as [N P]. rewrite decl_vars_roots.
    eapply Permutation_NoDup; [apply Permutation_map; exact P|auto]. }
  assert (Kc : forall cs, system_constraints roots = Ok cs -> NoDup (map c_label (flat_map decl_cons roots))).
  { intros vs Hv. destruct (system_translate_cons _ _ Hv) as [N P]. rewrite decl_cons_roots.
    eapply Permutation_NoDup; [apply Permutation_map; exact P|auto]. }
  destruct (system_variables roots) as [vs|e] eqn:EV; simpl.
  - destruct (system_constraints roots) as [cs|e] eqn:EC; simpl.
    + destruct D as [D|D]; exfalso; apply D; eauto.
    + unfold system_constraints in EC. unfold guard in EC. destruct (nodup_str _) in EC; simpl in EC; congruence.
  - unfold system_variables in EV. unfold guard in EV. destruct (nodup_str _) in EV; simpl in EV; congruence.
Qed.
Print Assumptions C27_duplicates_fail.

(** Non-vacuity: a tree of depth three translates, one with a repeated label deep down does not. *)
Definition ex_var (l : string) : variable := mkVariable l l 2 false None (Some (NS 0)) None true None.
Definition ex_con (l : string) (v : variable) : res constraint := build_constraint KIneq l l [AddS v (NS 1) None false; AddC (NV [1; 2])].
Definition ex_roots (deep : string) : res (list emodel) :=
  c1 <- ex_con "c1" (ex_var "a") ;; c2 <- ex_con "c2" (ex_var deep) ;;
  Ok [EM "r" "r" [ex_var "a"] [c1] [EM "s" "s" [ex_var "b"] [] [EM "t" "t" [ex_var deep] [c2] []]]].
Definition ex_obj : res constraint := build_constraint KObj "OBJECTIVE" "OBJECTIVE" [AddS (ex_var "a") (NS 1) None true].
Example C27_example :
  (exists pm, (r <- ex_roots "c" ;; o <- ex_obj ;; system_translate r o) = Ok pm
              /\ map pv_label (pm_vars pm) = ["a"; "b"; "c"] /\ length (pm_rows pm) = 4%nat)
  /\ (r <- ex_roots "a" ;; o <- ex_obj ;; system_translate r o) = Err KeyError.
Proof. split; [eexists; split; [vm_compute; reflexivity|split; reflexivity]|vm_compute; reflexivity]. Qed.
