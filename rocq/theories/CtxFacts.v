(** Facts about the calculation context: step lengths and parameter data; tools for reading builders. *)
From Verif Require Import Base BaseFacts MathModel Spec MathFacts Structure StructureFacts Params Features Elements System SysSpec.

Record ctx_ok (cx : ctx) : Prop := {
  ok_n : length (cx_dt cx) = cx_n cx;
  ok_pos : cx_n cx <> 0%nat;
  ok_idx : forall l, cx_idx cx = Some l -> length l = cx_n cx;
  ok_total : cx_total cx == Qsum (cx_dt cx)
}.

Definition dt (cx : ctx) (t : nat) : Q := nth t (cx_dt cx) 0.

(** ** Lengths *)
Definition good (a : numeric) : Prop := nlen a <> 0%nat.
(** Usable at all positions below [n]. *)
Definition fits (n : nat) (a : numeric) : Prop := forall i, (i < n)%nat -> in_rng a i.

Lemma fits_rng : forall n a i, fits n a -> (i < n)%nat -> in_rng a i.
Proof. auto. Qed.
Lemma fits_len : forall n a, nlen a = 1%nat \/ nlen a = n -> fits n a.
Proof. intros n a [H|H] i Hi; apply in_rng_len; [left|right]; lia. Qed.
Lemma fits_le : forall n m a, (m <= n)%nat -> fits n a -> fits m a.
Proof. intros n m a H F i Hi. apply F. lia. Qed.
Lemma good_NS : forall q, good (NS q).
Proof. discriminate. Qed.
Lemma good_nmap : forall f a, good a -> good (nmap f a).
Proof. unfold good; intros. rewrite nmap_len. auto. Qed.
Lemma good_bcast2 : forall f a b c, bcast2 f a b = Ok c -> good a -> good b -> good c.
Proof. unfold good; intros. destruct (bcast2_len_c _ _ _ _ H) as [->| ->]; auto. Qed.
Lemma fits_nmap : forall n f a, fits n (nmap f a) <-> fits n a.
Proof. unfold fits; intros. split; intros H i Hi; specialize (H i Hi); rewrite in_rng_len in *; rewrite nmap_len in *; auto. Qed.
Lemma fits_NS : forall n q, fits n (NS q).
Proof. intros n q i _. exact I. Qed.
Lemma fits_bcast2 : forall n f a b c, bcast2 f a b = Ok c -> fits n a -> fits n b -> fits n c.
Proof.
  intros n f a b c H A B i Hi. specialize (A i Hi). specialize (B i Hi). rewrite in_rng_len in *.
  destruct (bcast2_len_c _ _ _ _ H) as [->| ->]; auto.
Qed.
Lemma fits_bcast2_inv : forall n f a b c, bcast2 f a b = Ok c -> fits n c -> fits n a /\ fits n b.
Proof.
  intros n f a b c H F. destruct (bcast2_len _ _ _ _ H) as [A B].
  split; intros i Hi; specialize (F i Hi); rewrite in_rng_len in *; lia.
Qed.
Lemma ndiv_bcast : forall a b c, ndiv a b = Ok c -> bcast2 Qdiv a b = Ok c.
Proof. intros a b c H. unfold ndiv in H. destruct (match b with NS y => _ | NV l => _ end); [discriminate|auto]. Qed.
Lemma ndiv_nz : forall a b c i, ndiv a b = Ok c -> in_rng b i -> nlen b <> 0%nat -> ~ at_ b i == 0.
Proof.
  intros a b c i H R G E. unfold ndiv in H. destruct b as [y|l].
  - simpl in *. apply Qeq_bool_iff in E. rewrite E in H. discriminate.
  - destruct (existsb _ l) eqn:X; [discriminate|].
    assert (C : existsb (fun y => Qeq_bool y 0) l = true).
    { apply existsb_exists. exists (at_ (NV l) i). split; [|apply Qeq_bool_iff; auto].
      destruct (Nat.eq_dec (length l) 1) as [L|L].
      - destruct l as [|u [|w l]]; simpl in *; try lia; auto.
      - simpl in R. rewrite at_NV by lia. apply nth_In. lia. }
    congruence.
Qed.

Lemma good_dt : forall cx, ctx_ok cx -> good (NV (cx_dt cx)).
Proof. intros cx [A B _ _]. unfold good; simpl. lia. Qed.
Lemma fits_dt : forall cx, ctx_ok cx -> fits (cx_n cx) (NV (cx_dt cx)).
Proof. intros cx [A B _ _]. apply fits_len. right; simpl. lia. Qed.
Lemma at_dt : forall cx t, ctx_ok cx -> (t < cx_n cx)%nat -> at_ (NV (cx_dt cx)) t = dt cx t.
Proof. intros cx t [A _ _ _] H. apply at_NV. lia. Qed.

(** ** Parameter data *)
Lemma make_scalar_spec : forall d a, make_scalar d = Ok a ->
  match d with
  | NS q => a = NS q
  | NV l => l <> [] /\ ((exists q, a = NS q /\ forall y, In y l -> y == q) \/ (a = NV l /\ (2 <= length l)%nat))
  end.
Proof.
  intros [q|[|q r]] a H; simpl in H; inv_ok; auto.
  split; [discriminate|]. destruct (forallb _ r) eqn:F; inv_ok.
  - left. exists q. split; auto. intros y [->|Hy]; [reflexivity|].
    rewrite forallb_forall in F. apply Qeq_bool_iff. auto.
  - right. split; auto. destruct r; simpl in *; [discriminate|lia].
Qed.

Lemma take_idx_spec : forall l ix r, take_idx l ix = Ok r ->
  length r = length ix /\ forall t d, (t < length ix)%nat -> nth t r 0 = nth (nth t ix 0%nat) l d.
Proof.
  intros l ix r H. unfold take_idx in H. split; [eapply mapM_length; eauto|].
  intros t d Ht. destruct (nth_error ix t) as [i|] eqn:E; [|apply nth_error_None in E; lia].
  destruct (mapM_nth _ _ _ _ _ H E) as [b [Hb Hr]]. inv_ok.
  rewrite (nth_error_nth _ _ 0 Hr). rewrite (nth_error_nth _ _ 0%nat E).
  symmetry. apply nth_error_nth; auto.
Qed.

Lemma act_spec : forall cx tr p a, ctx_ok cx -> act cx tr p = Ok a ->
  tr = true /\ good a /\
  forall t, (t < cx_n cx)%nat -> in_rng a t -> at_ a t == value (cx_idx cx) p t.
Proof.
  intros cx tr p a [A B C _] H. unfold act in H. inv_ok. split; auto.
  pose proof (make_scalar_spec _ _ E0) as M. unfold value, active_of, good in *. destruct (pdata p) as [q|l].
  - subst a1. simpl in H. destruct (cx_idx cx); inv_ok; simpl; (split; [discriminate|]); intros; reflexivity.
  - destruct M as [Ne [[q [-> M]]|[-> L]]].
    + assert (a = NS q) by (destruct (cx_idx cx); simpl in H; inv_ok; auto). subst. simpl.
      split; [discriminate|]. intros t Ht _. symmetry.
      set (s := selected (cx_idx cx) t).
      destruct (Nat.lt_ge_cases s (length l)) as [Hl|Hl].
      * apply M. apply nth_In; auto.
      * rewrite nth_overflow by auto. destruct l; [congruence|]. apply M. left; auto.
    + destruct (cx_idx cx) as [ix|] eqn:I; cbn [bind] in H; inv_ok.
      * match goal with K : take_idx _ _ = Ok _ |- _ => destruct (take_idx_spec _ _ _ K) as [Lr T] end. specialize (C _ eq_refl). simpl nlen.
        split; [lia|]. intros t Ht _. rewrite at_NV by lia. unfold selected. rewrite (T t (hd 0 l)) by lia. reflexivity.
      * split; [simpl; lia|]. intros t Ht R. simpl in R. rewrite at_NV by lia. unfold selected.
        rewrite (nth_indep _ 0 (hd 0 l)) by lia. reflexivity.
Qed.

(** ** Step lengths *)
Lemma diffs_length : forall a l, length (diffs (a :: l)) = length l.
Proof. intros a l; revert a. induction l as [|b l IH]; intros a; auto. change (S (length (diffs (b :: l))) = S (length l)). rewrite IH; auto. Qed.
Lemma diffs_nth : forall l t, (S t < length l)%nat -> nth t (diffs l) 0 = nth (S t) l 0 - nth t l 0.
Proof.
  induction l as [|a l IH]; intros t H; simpl in H; [lia|].
  destruct l as [|b l]; simpl in H; [lia|]. destruct t; [reflexivity|].
  change (nth t (diffs (b :: l)) 0 = nth (S t) (b :: l) 0 - nth t (b :: l) 0). apply IH. simpl; lia.
Qed.

Lemma rev_head_last : forall {A} (l : list A) a d, nth_error (rev l) 0 = Some a -> l <> [] /\ a = nth (length l - 1) l d.
Proof.
  intros A l a d H. destruct l as [|b l] using rev_ind; [discriminate|].
  rewrite rev_app_distr in H. simpl in H. injection H as ->. split; [intros C; apply app_eq_nil in C; destruct C; discriminate|].
  rewrite app_length; simpl. replace (length l + 1 - 1)%nat with (length l) by lia. rewrite app_nth2 by lia.
  replace (length l - length l)%nat with 0%nat by lia. reflexivity.
Qed.

Lemma Qsum_sumn : forall l n f, length l = n -> (forall t, (t < n)%nat -> nth t l 0 == f t) -> Qsum l == sumn n f.
Proof.
  unfold sumn. intros l n f L H. subst n. apply Qsum_eq.
  assert (G : forall k l, (forall t, (t < length l)%nat -> nth t l 0 == f (k + t)%nat) ->
              Forall2 Qeq l (map f (seq k (length l)))).
  { clear. intros k l; revert k. induction l as [|a l IH]; intros k H; simpl; constructor.
    - specialize (H 0%nat). simpl in H. rewrite Nat.add_0_r in H. apply H. lia.
    - apply IH. intros t Ht. specialize (H (S t)). simpl in H. rewrite H by lia. rewrite Nat.add_succ_r. reflexivity. }
  apply (G 0%nat). auto.
Qed.

Lemma sumn_ext : forall n f g, (forall t, (t < n)%nat -> f t == g t) -> sumn n f == sumn n g.
Proof. intros. unfold sumn. apply Qsum_map_eq. intros a Ha. apply in_seq in Ha. apply H. lia. Qed.

Theorem make_ctx_spec : forall cf ord fs ix cx, make_ctx cf ord fs ix = Ok cx ->
  ctx_ok cx /\ cx_n cx = steps fs ix /\ cx_idx cx = ix
  /\ (forall t, (t < steps fs ix)%nat -> dt cx t = hours fs ix t)
  /\ cx_total cx == horizon fs ix
  /\ cx_effects cx = fs_effects fs /\ cx_eps cx = cf_eps cf /\ cx_big cx = cf_big cf /\ cx_ord cx = ord
  /\ cx_prev cx = fs_prev_dt fs.
Proof.
  intros cf ord fs ix cx H. unfold make_ctx in H. inv_ok. destruct a as [dts tot]. inv_ok.
  unfold time_data in E. set (sel := match ix with Some l => l | None => seq 0 (length (fs_times fs)) end) in *. inv_ok.
  assert (Lsel : length sel = steps fs ix) by (subst sel; destruct ix; simpl; [auto|apply seq_length]).
  assert (Nsel : forall t, (t < steps fs ix)%nat -> nth t sel 0%nat = selected ix t).
  { intros t Ht. subst sel. destruct ix; simpl in *; auto. rewrite seq_nth by auto. auto. }
  destruct (take_idx_spec _ _ _ E0) as [La Na].
  destruct (rev_head_last _ _ 0%nat Heqo0) as [Ne Hl].
  injection E as <- <-. simpl cx_n. unfold qsum_list.
  set (ts := a ++ [q]).
  assert (Lts : length (diffs ts) = steps fs ix).
  { destruct ts as [|q0 r] eqn:X; subst ts; [apply app_eq_nil in X; destruct X; discriminate|].
    rewrite diffs_length. apply (f_equal (@length Q)) in X. rewrite app_length in X. simpl in X. lia. }
  assert (P : steps fs ix <> 0%nat).
  { rewrite <- Lsel. destruct sel; [congruence|discriminate]. }
  assert (IR : forall t, (t < steps fs ix)%nat -> (selected ix t < length (fs_times fs))%nat).
  { intros t Ht. rewrite <- (Nsel t Ht). unfold take_idx in E0.
    destruct (nth_error sel t) as [i|] eqn:X; [|apply nth_error_None in X; lia].
    destruct (mapM_nth _ _ _ _ _ E0 X) as [b [Hb _]]. inv_ok. rewrite (nth_error_nth _ _ 0%nat X).
    apply nth_error_Some. congruence. }
  assert (D : forall t, (t < steps fs ix)%nat -> nth t (diffs ts) 0 = hours fs ix t).
  { intros t Ht. unfold hours, stamp. subst ts.
    rewrite diffs_nth by (rewrite app_length; simpl; lia).
    assert (S0 : forall u, (u < steps fs ix)%nat -> nth u (a ++ [q]) 0 = nth (selected ix u) (fs_times fs ++ [fs_end fs]) 0).
    { intros u Hu. rewrite app_nth1 by lia. rewrite (Na u 0) by lia. rewrite Nsel by auto.
      rewrite app_nth1 by auto. reflexivity. }
    rewrite (S0 t Ht). f_equal.
    destruct (Nat.ltb (S t) (steps fs ix)) eqn:L.
    - apply Nat.ltb_lt in L. apply S0; auto.
    - apply Nat.ltb_ge in L. assert (t = steps fs ix - 1)%nat by lia. subst t.
      rewrite app_nth2 by lia. replace (S (steps fs ix - 1) - length a)%nat with 0%nat by lia. cbn [nth].
      rewrite Lsel in Hl. rewrite Nsel in Hl by lia. subst n. unfold fs_with_end in *.
      rewrite Nat.add_1_r in Heqo. symmetry. apply nth_error_nth; auto. }
  assert (T : Qsum (diffs ts) == horizon fs ix).
  { apply Qsum_sumn; auto. intros t Ht. rewrite D by auto. reflexivity. }
  repeat split; simpl; auto; try lia; try lra.
  intros l El. rewrite Lts. subst ix. reflexivity.
Qed.

Lemma make_ctx_rng : forall cf ord fs ix cx, make_ctx cf ord fs ix = Ok cx ->
  forall t, (t < steps fs ix)%nat -> (selected ix t < length (fs_times fs))%nat.
Proof.
  intros cf ord fs ix cx H t Ht. unfold make_ctx in H. inv_ok. destruct a as [dts tot]. inv_ok.
  unfold time_data in E. destruct ix as [l|]; simpl in *; auto. inv_ok. unfold take_idx in E0.
  destruct (nth_error l t) as [i|] eqn:X; [|apply nth_error_None in X; lia].
  destruct (mapM_nth _ _ _ _ _ E0 X) as [b [Hb _]]. inv_ok. rewrite (nth_error_nth _ _ 0%nat X). apply nth_error_Some. congruence.
Qed.

Lemma take_idx_total : forall l ix, (forall i, In i ix -> (i < length l)%nat) -> exists r, take_idx l ix = Ok r.
Proof.
  unfold take_idx. induction ix as [|i ix IH]; intros H; simpl; [eauto|].
  destruct (nth_error l i) eqn:E; [|apply nth_error_None in E; specialize (H i (or_introl eq_refl)); lia].
  simpl. destruct IH as [r ->]; [intros; apply H; simpl; auto|]. simpl. eauto.
Qed.

Lemma act_full : forall cx fs p, ctx_ok cx -> cx_n cx = steps fs (cx_idx cx) ->
  (forall t, (t < steps fs (cx_idx cx))%nat -> (selected (cx_idx cx) t < length (fs_times fs))%nat) ->
  full_data fs p -> exists a, act cx true p = Ok a /\ (nlen a = 1%nat \/ nlen a = cx_n cx).
Proof.
  intros cx fs p CX N R F. unfold act, full_data in *. simpl. pose proof (ok_pos _ CX) as NZ. pose proof (ok_idx _ CX) as IX.
  assert (NZ' : steps fs (cx_idx cx) <> 0%nat) by (rewrite <- N; auto).
  destruct (pdata p) as [q|l].
  - simpl. exists (NS q). split; [destruct (cx_idx cx); auto|auto].
  - assert (l <> []).
    { intros ->. simpl in F. specialize (R 0%nat). lia. }
    destruct (make_scalar (NV l)) as [d|e] eqn:E; [|destruct l; [congruence|]; simpl in E; destruct (forallb _ _); discriminate].
    simpl. apply make_scalar_spec in E. destruct E as [_ [[q [-> _]]|[-> L]]].
    + exists (NS q). split; [destruct (cx_idx cx); auto|auto].
    + unfold active_of. destruct (cx_idx cx) as [ix|] eqn:I.
      * destruct (take_idx_total l ix) as [r Hr].
        { intros i Hi. rewrite F. destruct (In_nth _ _ 0%nat Hi) as [t [Ht E]]. specialize (R t). simpl in R. rewrite E in R. auto. }
        rewrite Hr. simpl. exists (NV r). split; auto. right. simpl. destruct (take_idx_spec _ _ _ Hr) as [-> _]. auto.
      * exists (NV l). split; auto. right. simpl in *. congruence.
Qed.
