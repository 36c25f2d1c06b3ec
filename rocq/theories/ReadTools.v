(** Tools for reading the rows of builder functions. *)
From Verif Require Import Base BaseFacts MathModel Spec MathFacts Structure StructureFacts Params Features Elements System SysSpec CtxFacts.

(** Named inversion of a bind. *)
Ltac bnd H x E := apply bind_ok in H; destruct H as [x [E H]]; cbv beta in H.
(** Split a pair bound by a pattern. *)
Ltac fin H := apply Ok_inj in H; subst.

Lemma live_none : forall v f, v_len v <> 0%nat -> good f -> live (AddS v f None false).
Proof. unfold live, good; simpl; intros. destruct (Nat.eqb (nlen f) 1); auto. Qed.
Lemma live_some : forall v f l, l <> [] -> good f -> live (AddS v f (Some l) false).
Proof. unfold live, good; simpl; intros. destruct l; [congruence|]. destruct (Nat.eqb (nlen f) 1); simpl; auto. Qed.
Lemma live_sum : forall v f i, live (AddS v f i true).
Proof. discriminate. Qed.
Lemma live_const : forall k, good k -> live (AddC k).
Proof. auto. Qed.

Lemma pick_all : forall v i, (i < v_len v)%nat -> pick v None i = i.
Proof. intros v i H. unfold pick. destruct (Nat.eqb (v_len v) 1) eqn:E; auto. apply Nat.eqb_eq in E. lia. Qed.
Lemma pick_scalar : forall v i, v_len v = 1%nat -> pick v None i = 0%nat.
Proof. intros v i H. unfold pick. rewrite H. reflexivity. Qed.
Lemma pick_one : forall v i j, pick v (Some [j]) i = j.
Proof. reflexivity. Qed.
Lemma pick_seq : forall v a k i, (i < k)%nat -> pick v (Some (seq a k)) i = (a + i)%nat.
Proof.
  intros v a k i H. unfold pick. destruct k as [|[|k]]; [lia| |].
  - simpl. lia.
  - change (seq a (S (S k))) with (a :: S a :: seq (S (S a)) k) at 1.
    change (nth i (seq a (S (S k))) 0%nat = (a + i)%nat). rewrite seq_nth; auto.
Qed.

(** All parts of a finished equation cover its rows. *)
Lemma row_lens : forall k model label calls c n,
  create_equation model label k calls = Ok c -> Forall live calls -> Exists (fun a => call_len a = n) calls ->
  forall a, In a calls -> call_len a = 1%nat \/ (n <= call_len a)%nat.
Proof.
  intros k model label calls c n H L E a Ha. unfold create_equation in H.
  apply build_built in H. destruct H as [_ _ _ _ B5 B6 _ _ _].
  apply Exists_exists in E. destruct E as [e [He En]].
  rewrite Forall_forall in L. pose proof (L _ Ha) as La. pose proof (L _ He) as Le. unfold live in *.
  destruct (B5 a Ha) as [?|A]; auto. destruct (B5 e He) as [X|X]; lia.
Qed.

Lemma fits_of_call : forall n v f idx, good f ->
  call_len (AddS v f idx false) = 1%nat \/ (n <= call_len (AddS v f idx false))%nat -> fits n f.
Proof.
  intros n v f idx G H i Hi. apply in_rng_len. unfold good in G. simpl in H.
  destruct (Nat.eqb (nlen f) 1) eqn:E; [apply Nat.eqb_eq in E|apply Nat.eqb_neq in E]; lia.
Qed.

Lemma live_good : forall v f idx, live (AddS v f idx false) -> good f.
Proof. unfold live, good; simpl; intros v f idx L G. rewrite G in L. simpl in L. auto. Qed.

Lemma row_fits : forall k model label calls c n v f idx,
  create_equation model label k calls = Ok c -> Forall live calls -> Exists (fun a => call_len a = n) calls ->
  In (AddS v f idx false) calls -> fits n f.
Proof.
  intros. eapply fits_of_call; [|eapply row_lens; eauto]. rewrite Forall_forall in H0. eapply live_good; eauto.
Qed.
Lemma row_fits_const : forall k model label calls c n q,
  create_equation model label k calls = Ok c -> Forall live calls -> Exists (fun a => call_len a = n) calls ->
  In (AddC q) calls -> fits n q.
Proof.
  intros k model label calls c n q H L E Hi i Hn. apply in_rng_len.
  pose proof (row_lens _ _ _ _ _ _ H L E _ Hi). rewrite Forall_forall in L. specialize (L _ Hi). unfold live in L. simpl in *. lia.
Qed.

Global Hint Resolve good_NS good_nmap good_dt fits_NS fits_dt : num.

Lemma seq_ne : forall a n, n <> 0%nat -> seq a n <> [].
Proof. intros a [|n] H; [congruence|discriminate]. Qed.

Ltac lens := simpl; repeat rewrite seq_length; simpl; try rewrite app_length; try lia; auto.

(** Goals [Forall live calls], [Forall plain calls], [Exists (call_len = n) calls]. *)
Ltac live1 :=
  match goal with
  | |- Forall _ [] => constructor
  | |- Forall _ (_ :: _) => constructor
  | |- live (AddS _ _ _ true) => apply live_sum
  | |- live (AddS _ _ None false) => apply live_none; [simpl; auto; try lia | eauto with num]
  | |- live (AddS _ _ (Some [_]) false) => apply live_some; [discriminate | eauto with num]
  | |- live (AddS _ _ (Some _) false) => apply live_some; [first [assumption | apply seq_ne; lia] | eauto with num]
  | |- live (AddC _) => apply live_const; eauto with num
  | |- plain (AddC _) => exact I
  | |- plain (AddS _ _ None _) => exact I
  | |- plain (AddS _ _ _ false) => first [exact I | simpl; destruct_match; exact I]
  end
with destruct_match := match goal with |- match ?l with _ => _ end => destruct l end.
Ltac live_tac := repeat live1.

Lemma plain_false : forall v f i, plain (AddS v f i false).
Proof. intros v f [l|]; exact I. Qed.
Ltac plain_tac := repeat constructor; try apply plain_false.

(** Which rows exist in an equation whose parts all have length 1. *)
Lemma scalar_row : forall x k model label calls c,
  create_equation model label k calls = Ok c -> con_sat x c ->
  Forall plain calls -> Forall live calls -> Exists (fun a => call_len a = 1%nat) calls ->
  rel k (Qsum (map (call_lhs x 0) calls)) (Qsum (map (call_rhs 0) calls)).
Proof. intros. eapply row_law; eauto. Qed.

Ltac ex_tac :=
  first [ apply Exists_cons_hd; simpl; repeat rewrite seq_length; first [reflexivity | lia | eassumption]
        | apply Exists_cons_tl; ex_tac ].

Lemma at_NS : forall q i, at_ (NS q) i = q.
Proof. reflexivity. Qed.

Ltac picks R :=
  repeat first
    [ rewrite pick_one in R
    | rewrite pick_all in R by (simpl; auto; lia)
    | rewrite pick_scalar in R by (simpl; auto)
    | rewrite pick_seq in R by (simpl; auto; lia) ].

Ltac row_simpl R :=
  cbn [map Qsum fold_right call_lhs call_rhs rel v_label v_len app flat_map] in R; picks R; repeat rewrite at_NS in R; cbn [v_label v_len] in R.

(** [row H C n i R]: row [i] of the equation built in [H] and satisfied by [C], which has at least [n] rows. *)
Ltac row H C n i R :=
  let P := fresh in let L := fresh in let E := fresh in
  match type of H with create_equation _ _ ?k ?calls = Ok ?c =>
    assert (P : Forall plain calls) by (repeat constructor; try apply plain_false);
    assert (L : Forall live calls) by live_tac;
    assert (E : Exists (fun a => call_len a = n) calls) by ex_tac;
    assert (R : rel k (Qsum (map (call_lhs _ i) calls)) (Qsum (map (call_rhs i) calls)))
      by (eapply row_law; [exact H|exact C|exact P|exact L|exact E|simpl; auto; try lia]);
    clear P L E; row_simpl R
  end.
