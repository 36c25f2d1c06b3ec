(** Investments, on/off models, segments and shares can always be written down for data that fits. *)
From Verif Require Import Base BaseFacts MathModel Spec MathFacts MathTotal Structure StructureFacts Params Features ResultFacts NameSpec NameFacts TotalFacts.

(** ** Small tools *)
Lemma mapM_ok : forall {A B} (f : A -> res B) (R : A -> B -> Prop) l, (forall a, In a l -> exists b, f a = Ok b /\ R a b) ->
  exists r, mapM f l = Ok r /\ Forall2 R l r.
Proof.
  induction l as [|a l IH]; intros H; simpl; [exists []; auto|].
  destruct (H a (or_introl eq_refl)) as [b [E Rb]]. rewrite E. cbn. destruct IH as [r [E2 F]]; [intros; apply H; right; auto|].
  rewrite E2. cbn. exists (b :: r). auto.
Qed.
Inductive sub {A} : list A -> list A -> Prop :=
| sub_nil : forall l, sub [] l
| sub_keep : forall a l m, sub l m -> sub (a :: l) (a :: m)
| sub_skip : forall a l m, sub l m -> sub l (a :: m).
Lemma sub_In : forall {A} (l m : list A) a, sub l m -> In a l -> In a m.
Proof. intros A l m a S. induction S; simpl; intros H; [destruct H|destruct H|]; auto. Qed.
Lemma sub_NoDup : forall {A} (l m : list A), sub l m -> NoDup m -> NoDup l.
Proof.
  intros A l m S. induction S; intros N; [constructor| |]; inversion N; subst; auto. constructor; auto. intros H. apply (sub_In _ _ _ S) in H. auto.
Qed.
Lemma sub_refl : forall {A} (l : list A), sub l l.
Proof. induction l; [apply sub_nil|apply sub_keep; auto]. Qed.
Lemma sub_app : forall {A} (a a' b b' : list A), sub a a' -> sub b b' -> sub (a ++ b) (a' ++ b').
Proof.
  intros A a a' b b' S T. induction S; simpl.
  - induction l; simpl; auto. apply sub_skip; auto.
  - apply sub_keep; auto.
  - apply sub_skip; auto.
Qed.
Lemma sub_map : forall {A B} (f : A -> B) l m, sub l m -> sub (map f l) (map f m).
Proof. intros A B f l m S. induction S; simpl; [apply sub_nil|apply sub_keep; auto|apply sub_skip; auto]. Qed.

(** ** The context *)
Record ready (cx : ctx) (N : nat) : Prop := {
  rd_n : (2 <= cx_n cx)%nat;
  rd_dt : length (cx_dt cx) = cx_n cx;
  rd_idx : match cx_idx cx with None => N = cx_n cx | Some ix => length ix = cx_n cx /\ Forall (fun i => (i < N)%nat) ix end
}.
Definition pfit (N : nat) (p : param) : Prop := fitn N (pdata p).
Definition pfito (N : nat) (p : option param) : Prop := match p with None => True | Some p => pfit N p end.

Lemma take_ok : forall l ix, Forall (fun i => (i < length l)%nat) ix -> exists r, take_idx l ix = Ok r /\ length r = length ix.
Proof.
  intros l ix F. unfold take_idx. induction F as [|i ix H F IH]; [exists []; auto|]. simpl.
  destruct (nth_error l i) eqn:E; [|apply nth_error_None in E; lia]. cbn. destruct IH as [r [E2 L]]. rewrite E2. cbn. exists (q :: r). simpl. auto.
Qed.
Lemma act_ok : forall cx N p, ready cx N -> pfit N p -> exists a, act cx true p = Ok a /\ fitn (cx_n cx) a.
Proof.
  intros cx N p [R1 R2 R3] F. unfold act, pfit in *. cbn [guard bind].
  assert (NZ : (0 < N)%nat).
  { destruct (cx_idx cx) as [[|i ix]|]; [destruct R3 as [R3 _]; simpl in R3; lia| |lia]. destruct R3 as [_ R3]. inversion R3; subst. lia. }
  destruct (pdata p) as [q|[|q l]]; simpl in F; [cbn; eexists; split; [reflexivity|exact I]|lia|].
  unfold make_scalar. destruct (forallb _ _); cbn [bind active_of].
  - eexists; split; [reflexivity|exact I].
  - destruct (cx_idx cx) as [ix|].
    + destruct R3 as [R3 R4]. destruct (take_ok (q :: l) ix) as [r [E L]]; [simpl; rewrite F; exact R4|]. rewrite E. cbn. eexists; split; [reflexivity|]. simpl. congruence.
    + eexists; split; [reflexivity|]. simpl. lia.
Qed.
Lemma act_opt_ok : forall cx N p, ready cx N -> pfito N p -> exists a, optM (act cx true) p = Ok a /\ fito (cx_n cx) a.
Proof.
  intros cx N [p|] R F; cbn [optM]; [|exists None; split; [reflexivity|exact I]]. destruct (act_ok _ _ _ R F) as [a [E G]]. rewrite E. cbn [bind]. exists (Some a). auto.
Qed.
Lemma create_any : forall m l len bin lb ub, (1 <= len)%nat -> fito len lb -> fito len ub ->
  exists v, create_variable m l len bin None lb ub None = Ok v /\ is_var v (vlabel m l) len /\ v_bin v = bin.
Proof.
  intros m l len bin lb ub L A B. destruct (Nat.eq_dec len 1) as [->|N]; [apply create_one; auto|].
  destruct (create_long m l len bin lb ub None) as [v [E [I [Z _]]]]; auto; [lia|]. eauto.
Qed.

(** ** Shares *)
Definition sh_key (sh : share) : option nat * string :=
  (match sh_target sh with TOp e => Some e | TInv e => Some e | TPen => None end, sh_name sh).
Definition share_ok (cx : ctx) (sh : share) : Prop :=
  match sh_target sh with
  | TOp e => existsb (fun e' => Nat.eqb (e_id e') e) (cx_effects cx) = true
       /\ sh_as_sum sh = false /\ exists v, sh_var sh = Some v /\ v_len v = cx_n cx /\ fitn (cx_n cx) (sh_factor sh)
  | TInv e => existsb (fun e' => Nat.eqb (e_id e') e) (cx_effects cx) = true
       /\ sh_as_sum sh = false /\ is_scalar (sh_factor sh) = true /\ match sh_var sh with Some v => v_len v = 1%nat | None => True end
  | TPen => sh_as_sum sh = true /\ exists v, sh_var sh = Some v /\ (2 <= v_len v)%nat /\ fitn (v_len v) (sh_factor sh)
  end.
(** Shares of the element [elem] under the names [xs]. *)
Record sfin (cx : ctx) (elem : string) (xs : list string) (shs : list share) : Prop := {
  sf_nodup : NoDup (map sh_key shs);
  sf_ok : forall sh, In sh shs -> share_ok cx sh /\ exists x, In x xs /\ sh_name sh = cat [elem; "__"; x]
}.
Lemma cat_inj : forall e x y, cat [e; "__"; x] = cat [e; "__"; y] -> x = y.
Proof. intros e x y E. apply (f_equal words) in E. rewrite !words_us2 in E. apply app_inv_head in E. injection E as E. apply words_inj. exact E. Qed.
Lemma sfin_nil : forall cx e xs, sfin cx e xs [].
Proof. intros. split; [constructor|intros ? []]. Qed.
Lemma sfin_app : forall cx e xs ys a b, sfin cx e xs a -> sfin cx e ys b -> (forall x, In x xs -> ~ In x ys) -> sfin cx e (xs ++ ys) (a ++ b).
Proof.
  intros cx e xs ys a b [A B] [C D] N. split.
  - rewrite map_app. apply NoDup_app_; auto. intros k K K'. apply in_map_iff in K, K'. destruct K as [s [E S]]. destruct K' as [s' [E' S']].
    destruct (B _ S) as [_ [x [X Ex]]]. destruct (D _ S') as [_ [y [Y Ey]]]. subst k. unfold sh_key in E'. injection E' as _ E'.
    rewrite Ex, Ey in E'. apply cat_inj in E'. subst. exact (N _ X Y).
  - intros sh H. apply in_app_or in H. destruct H as [H|H]; [destruct (B _ H) as [S [x [X E]]]|destruct (D _ H) as [S [x [X E]]]];
      split; auto; exists x; split; auto; apply in_or_app; auto.
Qed.

(** Every key names a registered effect, and no effect is named twice. *)
Definition keyed (cx : ctx) (ks : list (option nat)) : Prop :=
  (forall k, In k ks -> exists i, resolve cx k = Ok i) /\ NoDup (map (resolve cx) ks).
Lemma keyed_perm : forall cx a b, Permutation a b -> keyed cx a -> keyed cx b.
Proof.
  intros cx a b P [A B]. split; [intros k K; apply A; exact (Permutation_in _ (Permutation_sym P) K)|].
  exact (Permutation_NoDup (Permutation_map _ P) B).
Qed.
Lemma resolve_reg : forall cx k i, resolve cx k = Ok i -> existsb (fun e => Nat.eqb (e_id e) i) (cx_effects cx) = true.
Proof.
  intros cx [j|] i H; unfold resolve in H.
  - destruct (existsb (fun e => Nat.eqb (e_id e) j) (cx_effects cx)) eqn:E; [|discriminate]. cbn in H. injection H as <-. exact E.
  - unfold standard_effect in H. destruct (find e_std (cx_effects cx)) as [e|] eqn:E; [|discriminate]. injection H as <-.
    apply find_some in E. apply existsb_exists. exists e. split; [tauto|apply Nat.eqb_refl].
Qed.

Lemma emit_ok : forall cx tgt elem name vals factor v, keyed cx (map fst vals) ->
  (forall e, tgt e = TOp e) \/ (forall e, tgt e = TInv e) ->
  (forall kv, In kv vals -> exists f, nmul (snd kv) factor = Ok f /\ forall i, existsb (fun e => Nat.eqb (e_id e) i) (cx_effects cx) = true ->
     share_ok cx (mkShare (tgt i) (cat [elem; "__"; name]) v f false)) ->
  exists shs, emit cx tgt elem name vals factor v = Ok shs /\ sfin cx elem [name] shs.
Proof.
  intros cx tgt elem name vals factor v [K ND] T V. unfold emit. induction vals as [|[k a] vals IH]; [exists []; split; [reflexivity|apply sfin_nil]|].
  cbn [mapM fst snd]. destruct (K k (or_introl eq_refl)) as [i E]. cbn [map fst] in ND. inversion ND; subst. rewrite E in *. cbn [bind].
  destruct (V (k, a) (or_introl eq_refl)) as [f [F S]]. cbn [snd] in F. rewrite F. cbn [bind].
  destruct IH as [r [E2 [N2 O2]]]; [intros; apply K; right; auto|auto|intros; apply V; right; auto|].
  rewrite E2. cbn [bind]. eexists. split; [reflexivity|]. split.
  - cbn [map]. constructor; auto. intros I. apply H1. apply in_map_iff in I. destruct I as [sh [Ek I]].
    destruct (BaseFacts.mapM_In_inv _ _ _ _ E2 I) as [[k' a'] [I' Ev]]. cbn [fst snd] in Ev.
    destruct (resolve cx k') as [j|] eqn:Ej; [|discriminate]. cbn [bind] in Ev. destruct (nmul a' factor) as [f'|]; [|discriminate]. cbn [bind] in Ev.
    injection Ev as <-. unfold sh_key in Ek. cbn [sh_target sh_name] in Ek.
    assert (j = i). { destruct T as [T|T]; rewrite !T in Ek; congruence. }
    subst j. apply in_map_iff. exists k'. split; [congruence|]. apply in_map_iff. exists (k', a'). auto.
  - intros sh [<-|I]; [|apply O2; exact I]. split; [apply S; eapply resolve_reg; eauto|]. exists name. split; [left; auto|reflexivity].
Qed.

Lemma Forall2_map_fst : forall {A B C} (Q : A * B -> A * C -> Prop) l m, Forall2 Q l m -> (forall a b, Q a b -> fst b = fst a) -> map fst m = map fst l.
Proof. intros A B C Q l m F H. induction F as [|a b l m X F IH]; simpl; [reflexivity|]. rewrite IH, (H _ _ X). reflexivity. Qed.
Lemma Forall2_right : forall {A B} (Q : A -> B -> Prop) (P : B -> Prop) l m, Forall2 Q l m -> (forall a b, Q a b -> P b) -> forall b, In b m -> P b.
Proof. intros A B Q P l m F H. induction F as [|a b l m X F IH]; intros c [<-|I] || intros c []; eauto. Qed.

Lemma dict_ts_perm : forall v, Permutation (effect_dict_ts v) (as_effect_dict v).
Proof.
  intros v. unfold effect_dict_ts. induction (as_effect_dict v) as [|[k p] l IH]; simpl; auto.
  destruct (is_none k); simpl; [|constructor; exact IH]. eapply Permutation_trans; [apply Permutation_sym, Permutation_middle|]. constructor. exact IH.
Qed.
Lemma emit_op_ok : forall cx N elem name v factor var, ready cx N -> keyed cx (map fst (as_effect_dict v)) ->
  (forall k p, In (k, p) (as_effect_dict v) -> pfit N p) -> fitn (cx_n cx) factor -> v_len var = cx_n cx ->
  exists shs, emit_op cx true elem name v factor var = Ok shs /\ sfin cx elem [name] shs.
Proof.
  intros cx N elem name v factor var R K F FF L. unfold emit_op, op_values.
  destruct (mapM_ok (fun kv : option nat * param => d <- act cx true (snd kv) ;; Ok (fst kv, d))
              (fun kv kd => fst kd = fst kv /\ fitn (cx_n cx) (snd kd)) (effect_dict_ts v)) as [vs [E FA]].
  { intros [k p] I. apply (Permutation_in _ (dict_ts_perm v)) in I. cbn [fst snd]. destruct (act_ok _ _ _ R (F _ _ I)) as [a [-> Fa]]. cbn. exists (k, a). auto. }
  rewrite E. cbn [bind].
  assert (KS : map fst vs = map fst (effect_dict_ts v)).
  { eapply Forall2_map_fst; [exact FA|]. cbv beta. tauto. }
  apply emit_ok; [|left; reflexivity|].
  - rewrite KS. eapply keyed_perm; [|exact K]. apply Permutation_map, Permutation_sym, dict_ts_perm.
  - intros [k a] I. assert (Fa : fitn (cx_n cx) a).
    { apply (Forall2_right _ (fun b => _ (snd b)) _ _ FA) with (b := (k, a)); [cbv beta; tauto|exact I]. }
    destruct (nmul_fit _ _ _ Fa FF) as [f [Ef Ff]]. exists f. split; [exact Ef|]. intros i Hi. cbn. eauto 8.
Qed.
(** Plain numbers. *)
Definition plain_numbers (v : evalues) : Prop := forall k p, In (k, p) (as_effect_dict v) -> exists q, p = PNum (NS q).
Lemma emit_inv_ok : forall cx elem name v factor var, keyed cx (map fst (as_effect_dict v)) -> plain_numbers v ->
  (match var with Some x => v_len x = 1%nat | None => True end) ->
  exists shs, emit_inv cx true elem name v factor var = Ok shs /\ sfin cx elem [name] shs.
Proof.
  intros cx elem name v factor var K P L. unfold emit_inv, inv_values. cbn [orb guard bind].
  destruct (mapM_ok (fun kv : option nat * param => match snd kv with PNum d => Ok (fst kv, d) | PTsd _ _ _ => Err TypeError end)
              (fun kv kd => fst kd = fst kv /\ exists q, snd kd = NS q) (as_effect_dict v)) as [vs [E FA]].
  { intros [k p] I. destruct (P _ _ I) as [q ->]. cbn. exists (k, NS q). cbn. eauto. }
  rewrite E. cbn [bind].
  assert (KS : map fst vs = map fst (as_effect_dict v)).
  { eapply Forall2_map_fst; [exact FA|]. cbv beta. tauto. }
  apply emit_ok; [rewrite KS; exact K|right; reflexivity|].
  intros [k a] I. assert (Fa : exists q, a = NS q).
  { apply (Forall2_right _ (fun b => exists q, snd b = NS q) _ _ FA) with (b := (k, a)); [cbv beta; tauto|exact I]. }
  destruct Fa as [q ->]. cbn. eexists. split; [reflexivity|]. intros i Hi. cbn. auto.
Qed.
