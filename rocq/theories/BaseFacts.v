(** Lemmas about Base. *)
From Coq Require Export Permutation.
From Verif Require Import Base.

Lemma bind_ok : forall {A B} (m : res A) (f : A -> res B) b,
  bind m f = Ok b -> exists a, m = Ok a /\ f a = Ok b.
Proof. intros A B [a|e] f b H; simpl in H; [eauto|discriminate]. Qed.

Lemma Ok_inj : forall {A} (a b : A), Ok a = Ok b -> a = b.
Proof. intros; congruence. Qed.

(** Decompose a successful computation: every bind gets an equation, every guard its condition. *)
Ltac inv1 :=
  match goal with
  | H : bind ?m ?f = Ok ?b |- _ =>
      let a := fresh "a" in let E := fresh "E" in
      apply bind_ok in H; destruct H as [a [E H]]; cbv beta in H
  | H : Ok ?a = Ok ?b |- _ => apply Ok_inj in H; first [subst b | subst a | idtac]
  | H : Err _ = Ok _ |- _ => discriminate H
  | H : assert_ ?b = Ok _ |- _ => unfold assert_ in H; destruct b eqn:?; [clear H|discriminate H]
  | H : guard ?b _ = Ok _ |- _ => unfold guard in H; destruct b eqn:?; [clear H|discriminate H]
  | H : of_option _ ?o = Ok _ |- _ => unfold of_option in H; destruct o eqn:?; [|discriminate H]
  end.
Ltac inv_ok := repeat inv1.

Lemma Forall2_len : forall {A B} (R : A -> B -> Prop) l m, Forall2 R l m -> length l = length m.
Proof. induction 1; simpl; auto. Qed.

Lemma mapM_Forall2 : forall {A B} (f : A -> res B) l r,
  mapM f l = Ok r -> Forall2 (fun a b => f a = Ok b) l r.
Proof.
  induction l; simpl; intros r H; inv_ok; constructor; auto.
Qed.

Lemma Forall2_mapM : forall {A B} (f : A -> res B) l r,
  Forall2 (fun a b => f a = Ok b) l r -> mapM f l = Ok r.
Proof.
  induction 1; simpl; auto. rewrite H; simpl. rewrite IHForall2. reflexivity.
Qed.

Lemma mapM_length : forall {A B} (f : A -> res B) l r, mapM f l = Ok r -> length r = length l.
Proof. intros. apply mapM_Forall2 in H. symmetry. eapply Forall2_len; eauto. Qed.

Lemma mapM_In : forall {A B} (f : A -> res B) l r a,
  mapM f l = Ok r -> In a l -> exists b, f a = Ok b /\ In b r.
Proof.
  induction l; simpl; intros r b H Hi; [tauto|]. inv_ok.
  destruct Hi as [->|Hi]; [eexists; split; eauto; left; auto|].
  destruct (IHl _ _ E0 Hi) as [c [? ?]]. exists c; split; auto. right; auto.
Qed.

Lemma mapM_In_inv : forall {A B} (f : A -> res B) l r b,
  mapM f l = Ok r -> In b r -> exists a, In a l /\ f a = Ok b.
Proof.
  induction l; simpl; intros r b H Hi; inv_ok; simpl in Hi; [tauto|].
  destruct Hi as [->|Hi]; [exists a; auto|].
  destruct (IHl _ _ E0 Hi) as [c [? ?]]. exists c; auto.
Qed.

Lemma mapM_nth : forall {A B} (f : A -> res B) l r i a,
  mapM f l = Ok r -> nth_error l i = Some a -> exists b, f a = Ok b /\ nth_error r i = Some b.
Proof.
  induction l; intros r i b H Hi; [destruct i; discriminate|].
  simpl in H. inv_ok. destruct i; simpl in *.
  - injection Hi as <-. eauto.
  - eauto.
Qed.

Lemma mapM_nth_inv : forall {A B} (f : A -> res B) l r i b,
  mapM f l = Ok r -> nth_error r i = Some b -> exists a, nth_error l i = Some a /\ f a = Ok b.
Proof.
  induction l; intros r i b H Hi; simpl in H; inv_ok; [destruct i; discriminate|].
  destruct i; simpl in *.
  - injection Hi as <-. eauto.
  - eauto.
Qed.

Lemma mapM_app : forall {A B} (f : A -> res B) l m r,
  mapM f (l ++ m) = Ok r -> exists r1 r2, mapM f l = Ok r1 /\ mapM f m = Ok r2 /\ r = r1 ++ r2.
Proof.
  induction l; simpl; intros.
  - exists [], r; auto.
  - inv_ok. apply IHl in E0. destruct E0 as [r1 [r2 [? [? ?]]]]. subst.
    exists (a0 :: r1), r2. rewrite E, H. simpl. auto.
Qed.

Lemma mapM_ext : forall {A B} (f g : A -> res B) l, (forall a, In a l -> f a = g a) -> mapM f l = mapM g l.
Proof.
  induction l; simpl; intros; auto. rewrite H by auto. rewrite IHl; auto.
Qed.

Lemma foldM_app : forall {A S} (f : S -> A -> res S) l m s r,
  foldM f (l ++ m) s = Ok r -> exists s', foldM f l s = Ok s' /\ foldM f m s' = Ok r.
Proof.
  induction l; simpl; intros; eauto. inv_ok. apply IHl in H. destruct H as [s' [? ?]].
  exists s'. rewrite E. simpl. auto.
Qed.

Lemma foldM_inv : forall {A S} (f : S -> A -> res S) (P : S -> Prop) l s r,
  (forall s a s', In a l -> P s -> f s a = Ok s' -> P s') -> P s -> foldM f l s = Ok r -> P r.
Proof.
  induction l; simpl; intros s r Hs H0 H; inv_ok; auto.
  eapply IHl; [| |eassumption].
  - intros. eapply Hs; eauto.
  - eapply Hs; eauto.
Qed.

(** ** Sums *)
Lemma Qsum_app : forall l m, Qsum (l ++ m) == Qsum l + Qsum m.
Proof. induction l; simpl; intros; [lra|]. rewrite IHl. lra. Qed.

Lemma Qsum_cons : forall a l, Qsum (a :: l) = a + Qsum l.
Proof. reflexivity. Qed.

Lemma Qsum_eq : forall l m, Forall2 Qeq l m -> Qsum l == Qsum m.
Proof. induction 1; simpl; [lra|]. rewrite H, IHForall2. lra. Qed.

Lemma Qsum_map_eq : forall {A} (f g : A -> Q) l,
  (forall a, In a l -> f a == g a) -> Qsum (map f l) == Qsum (map g l).
Proof.
  induction l; simpl; intros; [lra|]. rewrite H by auto. rewrite IHl by auto. lra.
Qed.

Lemma Qsum_map_le : forall {A} (f g : A -> Q) l,
  (forall a, In a l -> f a <= g a) -> Qsum (map f l) <= Qsum (map g l).
Proof.
  induction l; simpl; intros; [lra|].
  specialize (IHl (fun a h => H a (or_intror h))). specialize (H a (or_introl eq_refl)). lra.
Qed.

Lemma Qsum_scale : forall {A} c (f : A -> Q) l, Qsum (map (fun a => c * f a) l) == c * Qsum (map f l).
Proof. induction l; simpl; [lra|]. rewrite IHl. lra. Qed.

Lemma Qsum_plus : forall {A} (f g : A -> Q) l,
  Qsum (map (fun a => f a + g a) l) == Qsum (map f l) + Qsum (map g l).
Proof. induction l; simpl; [lra|]. rewrite IHl. lra. Qed.

Lemma Qsum_nonneg : forall l, (forall q, In q l -> 0 <= q) -> 0 <= Qsum l.
Proof.
  induction l; simpl; intros; [lra|].
  assert (0 <= a) by auto. assert (0 <= Qsum l) by auto. lra.
Qed.

Lemma Qsum_zero : forall l, (forall q, In q l -> q == 0) -> Qsum l == 0.
Proof.
  induction l; simpl; intros; [lra|]. rewrite (H a) by auto. rewrite IHl by auto. lra.
Qed.

Lemma Qsum_pos_zero : forall l, (forall q, In q l -> 0 <= q) -> Qsum l <= 0 -> forall q, In q l -> q == 0.
Proof.
  induction l; simpl; intros Hp Hs q Hq; [tauto|].
  assert (0 <= a) by auto. assert (0 <= Qsum l) by (apply Qsum_nonneg; auto).
  destruct Hq as [->|Hq]; [lra|]. apply IHl; auto. lra.
Qed.

Lemma Qsum_concat : forall l, Qsum (List.concat l) == Qsum (map Qsum l).
Proof. induction l; simpl; [lra|]. rewrite Qsum_app, IHl. lra. Qed.

Lemma Qsum_perm : forall l m, Permutation l m -> Qsum l == Qsum m.
Proof. induction 1; simpl; try lra. Qed.

(** ** Broadcasting *)
Lemma map2_length : forall {A B C} (f : A -> B -> C) l m, length l = length m -> length (map2 f l m) = length l.
Proof. induction l; destruct m; simpl; intros; try discriminate; auto. Qed.

Lemma nth_map2 : forall (f : Q -> Q -> Q) l m i, length l = length m -> (i < length l)%nat ->
  nth i (map2 f l m) 0 = f (nth i l 0) (nth i m 0).
Proof.
  induction l; destruct m; simpl; intros; try discriminate; try lia.
  destruct i; auto. apply IHl; lia.
Qed.

Lemma nth_map_0 : forall (f : Q -> Q) l i, (i < length l)%nat -> nth i (map f l) 0 = f (nth i l 0).
Proof. induction l; simpl; intros; [lia|]. destruct i; auto. apply IHl; lia. Qed.

Lemma at_NV : forall l i, (i < length l)%nat -> at_ (NV l) i = nth i l 0.
Proof. intros [|a [|b l]] i H; simpl in *; try lia; auto. destruct i; [auto|lia]. Qed.

Lemma at_NV_bc : forall l i, length l <> 1%nat -> at_ (NV l) i = nth i l 0.
Proof. intros [|a [|b l]] i H; simpl in *; try lia; auto. Qed.

Lemma at_map : forall (g : Q -> Q) l i, (length l = 1 \/ i < length l)%nat -> at_ (NV (map g l)) i = g (at_ (NV l) i).
Proof.
  intros g l i R. destruct (Nat.eq_dec (length l) 1) as [E|E].
  - destruct l as [|a [|b l]]; simpl in E; try discriminate. reflexivity.
  - rewrite !at_NV by (rewrite ?map_length; lia). apply nth_map_0. lia.
Qed.

Lemma bcast2_at : forall f a b c i, bcast2 f a b = Ok c -> in_rng c i ->
  at_ c i = f (at_ a i) (at_ b i).
Proof.
  intros f a b c i H R. destruct a as [x|l], b as [y|m]; cbn [bcast2] in H.
  - injection H as <-. reflexivity.
  - injection H as <-. unfold in_rng in R. rewrite map_length in R. rewrite at_map by auto. reflexivity.
  - injection H as <-. unfold in_rng in R. rewrite map_length in R.
    rewrite (at_map (fun x => f x y)) by auto. reflexivity.
  - destruct (Nat.eqb (length l) (length m)) eqn:E.
    + apply Nat.eqb_eq in E. injection H as <-. unfold in_rng in R. rewrite map2_length in R by auto.
      destruct (Nat.eq_dec (length l) 1) as [E1|E1].
      * destruct l as [|l0 [|l1 l]], m as [|m0 [|m1 m]]; simpl in E, E1; try discriminate. reflexivity.
      * rewrite !at_NV by (rewrite ?map2_length; lia). apply nth_map2; lia.
    + apply Nat.eqb_neq in E.
      destruct l as [|l0 [|l1 l]].
      * destruct m as [|m0 [|m1 m]]; try discriminate. injection H as <-. simpl in R. lia.
      * injection H as <-. unfold in_rng in R. rewrite map_length in R. rewrite at_map by auto. reflexivity.
      * destruct m as [|m0 [|m1 m]]; try discriminate.
        injection H as <-.
        change (f l0 m0 :: f l1 m0 :: map (fun x => f x m0) l) with (map (fun x => f x m0) (l0 :: l1 :: l)) in *.
        unfold in_rng in R. rewrite map_length in R.
        rewrite (at_map (fun x => f x m0)) by auto. reflexivity.
Qed.

Lemma bcast2_len : forall f a b c, bcast2 f a b = Ok c ->
  (nlen a = nlen c \/ nlen a = 1%nat) /\ (nlen b = nlen c \/ nlen b = 1%nat).
Proof.
  intros f a b c H. destruct a as [x|l], b as [y|m]; simpl in H.
  - injection H as <-; auto.
  - injection H as <-; simpl. rewrite map_length; auto.
  - injection H as <-; simpl. rewrite map_length; auto.
  - destruct (Nat.eqb (length l) (length m)) eqn:E.
    + apply Nat.eqb_eq in E. injection H as <-. simpl. rewrite map2_length; auto.
    + destruct l as [|l0 [|l1 l]], m as [|m0 [|m1 m]]; try discriminate; injection H as <-; simpl;
        rewrite ?map_length; auto.
Qed.

Lemma bcast2_len_c : forall f a b c, bcast2 f a b = Ok c -> nlen c = nlen a \/ nlen c = nlen b.
Proof.
  intros f a b c H. destruct a as [x|l], b as [y|m]; simpl in H.
  - injection H as <-; auto.
  - injection H as <-; simpl. rewrite map_length; auto.
  - injection H as <-; simpl. rewrite map_length; auto.
  - destruct (Nat.eqb (length l) (length m)) eqn:E.
    + apply Nat.eqb_eq in E. injection H as <-. simpl. rewrite map2_length; auto.
    + destruct l as [|l0 [|l1 l]], m as [|m0 [|m1 m]]; try discriminate; injection H as <-; simpl;
        rewrite ?map_length; auto.
Qed.

Lemma nmap_at : forall f a i, in_rng a i -> at_ (nmap f a) i = f (at_ a i).
Proof.
  intros f [x|l] i R; [reflexivity|]. unfold nmap. apply at_map. exact R.
Qed.

Lemma nmap_len : forall f a, nlen (nmap f a) = nlen a.
Proof. intros f [x|l]; simpl; rewrite ?map_length; auto. Qed.

Lemma as_vector_length : forall a n l, as_vector a n = Ok l -> length l = n.
Proof.
  intros [x|m] n l H; simpl in H.
  - injection H as <-. apply repeat_length.
  - destruct (Nat.eqb (length m) n) eqn:E; [|discriminate]. injection H as <-. apply Nat.eqb_eq; auto.
Qed.

Lemma as_vector_nth : forall a n l i, as_vector a n = Ok l -> (i < n)%nat -> nth_error l i = Some (at_ a i).
Proof.
  intros [x|m] n l i H L; simpl in H.
  - injection H as <-. simpl. apply nth_error_repeat; auto.
  - destruct (Nat.eqb (length m) n) eqn:E; [|discriminate]. injection H as <-. apply Nat.eqb_eq in E.
    rewrite at_NV by lia. apply nth_error_nth'. lia.
Qed.

Lemma as_vector_rng : forall a n l i, as_vector a n = Ok l -> (i < n)%nat -> in_rng a i.
Proof.
  intros [x|m] n l i H L; simpl in *; auto.
  destruct (Nat.eqb (length m) n) eqn:E; [|discriminate]. apply Nat.eqb_eq in E. lia.
Qed.

Lemma as_vector_nlen : forall a n l, as_vector a n = Ok l -> nlen a = n \/ is_scalar a = true.
Proof.
  intros [x|m] n l H; simpl in *; auto.
  destruct (Nat.eqb (length m) n) eqn:E; [|discriminate]. apply Nat.eqb_eq in E. auto.
Qed.

Lemma in_rng_len : forall a i, in_rng a i <-> (nlen a = 1%nat \/ (i < nlen a)%nat).
Proof. intros [x|l] i; simpl; intuition. Qed.

Lemma mem_str_In : forall s l, mem_str s l = true <-> In s l.
Proof.
  intros; unfold mem_str. rewrite existsb_exists. split.
  - intros [y [? E]]. apply String.eqb_eq in E. subst; auto.
  - intros H. exists s. split; auto. apply String.eqb_refl.
Qed.

Lemma nodup_str_NoDup : forall l, nodup_str l = true <-> NoDup l.
Proof.
  induction l; simpl.
  - split; auto. constructor.
  - rewrite andb_true_iff, negb_true_iff. rewrite IHl. split.
    + intros [H ?]. constructor; auto. rewrite <- mem_str_In. rewrite H. discriminate.
    + intros H. inversion H; subst. split; auto. destruct (mem_str a l) eqn:E; auto.
      apply mem_str_In in E. tauto.
Qed.

Lemma Qmax_ge_l : forall x y, x <= Qmax_ x y.
Proof. intros; unfold Qmax_. destruct (Qle_bool x y) eqn:E; [apply Qle_bool_iff in E|]; lra. Qed.
Lemma Qmax_ge_r : forall x y, y <= Qmax_ x y.
Proof.
  intros; unfold Qmax_. destruct (Qle_bool x y) eqn:E; [lra|].
  destruct (Qlt_le_dec y x); [lra|]. apply Qle_bool_iff in q. congruence.
Qed.
Lemma Qmax_case : forall x y, Qmax_ x y = x \/ Qmax_ x y = y.
Proof. intros; unfold Qmax_. destruct (Qle_bool x y); auto. Qed.

Lemma nall_le_at : forall a b i, nall_le a b = Ok true ->
  in_rng a i -> in_rng b i -> at_ a i <= at_ b i.
Proof.
  intros a b i H Ra Rb. unfold nall_le in H. inv_ok. rewrite forallb_forall in H.
  apply in_rng_len in Ra. apply in_rng_len in Rb.
  assert (R : in_rng a0 i).
  { apply in_rng_len. destruct (bcast2_len_c _ _ _ _ E) as [->| ->]; auto. }
  pose proof (bcast2_at _ _ _ _ _ E R) as A.
  assert (I : In (at_ a0 i) (nlist a0)).
  { destruct a0 as [q|l]; [left; reflexivity|]. cbn [nlist]. simpl in R. destruct (Nat.eq_dec (length l) 1) as [L|L].
    - destruct l as [|u [|w l]]; simpl in *; try lia; auto.
    - rewrite at_NV by lia. apply nth_In. lia. }
  apply H in I. rewrite A in I. destruct (Qle_bool (at_ a i) (at_ b i)) eqn:Q; [|discriminate].
  apply Qle_bool_iff; auto.
Qed.
