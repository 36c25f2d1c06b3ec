(** Pieces of a problem that can always be written down: values that fit, variables, equations, models. *)
From Verif Require Import Base BaseFacts MathModel Spec MathFacts MathTotal Structure StructureFacts Params Features NameSpec NameFacts.

(** ** Values *)
Definition fitn (n : nat) (a : numeric) : Prop := match a with NS _ => True | NV l => length l = n end.
Definition fito (n : nat) (a : option numeric) : Prop := match a with None => True | Some a => fitn n a end.

Lemma map2_len : forall {A B C} (f : A -> B -> C) l m, length l = length m -> length (map2 f l m) = length l.
Proof. induction l as [|a l IH]; intros [|b m] H; simpl in *; try discriminate; auto. Qed.
Lemma bcast2_fit : forall f n a b, fitn n a -> fitn n b -> exists c, bcast2 f a b = Ok c /\ fitn n c.
Proof.
  intros f n [x|l] [y|m] A B; simpl in *; eauto.
  - eexists; split; [reflexivity|]. simpl. rewrite map_length. exact B.
  - eexists; split; [reflexivity|]. simpl. rewrite map_length. exact A.
  - rewrite A, B, Nat.eqb_refl. eexists; split; [reflexivity|]. simpl. rewrite map2_len; congruence.
Qed.
Lemma nmul_fit : forall n a b, fitn n a -> fitn n b -> exists c, nmul a b = Ok c /\ fitn n c.
Proof. intros. apply bcast2_fit; auto. Qed.
Lemma nadd_fit : forall n a b, fitn n a -> fitn n b -> exists c, nadd a b = Ok c /\ fitn n c.
Proof. intros. apply bcast2_fit; auto. Qed.
Lemma nmax_fit : forall n a b, fitn n a -> fitn n b -> exists c, nmax a b = Ok c /\ fitn n c.
Proof. intros. apply bcast2_fit; auto. Qed.
Lemma nmap_fit : forall n f a, fitn n a -> fitn n (nmap f a).
Proof. intros n f [x|l] A; simpl in *; auto. rewrite map_length. exact A. Qed.
Lemma as_vector_fit : forall n a, fitn n a -> exists l, as_vector a n = Ok l /\ length l = n.
Proof. intros n [x|l] A; simpl in *; [exists (repeat x n); split; auto; apply repeat_length|]. rewrite A, Nat.eqb_refl. eauto. Qed.
Lemma as_vector_opt_fit : forall n a, fito n a -> exists l, as_vector_opt a n = Ok l.
Proof. intros n [a|] A; simpl in *; eauto. destruct (as_vector_fit _ _ A) as [l [-> _]]. simpl. eauto. Qed.

(** ** Variables *)
Definition var_ok (v : variable) : Prop := exists p, translate_variable v = Ok p.
Record is_var (v : variable) (lab : string) (len : nat) : Prop := { iv_lab : v_label v = lab; iv_len : v_len v = len; iv_ok : var_ok v }.

Lemma mk_variable_ok : forall lab len short bin lb ub, fito len lb -> fito len ub ->
  exists v, mk_variable lab len short bin None lb ub = Ok v /\ is_var v lab len /\ v_bin v = bin /\ v_ts v = false /\ v_prev v = None.
Proof.
  intros lab len short bin lb ub A B. eexists. split; [reflexivity|]. repeat split; auto.
  unfold var_ok, translate_variable. cbn [v_lb v_ub v_len v_fixed v_label v_bin].
  destruct (as_vector_opt_fit _ _ A) as [l ->]. destruct (as_vector_opt_fit _ _ B) as [u ->]. cbn. eauto.
Qed.
Lemma mk_variable_ts_ok : forall lab len short bin lb ub prev, (1 < len)%nat -> fito len lb -> fito len ub ->
  exists v, mk_variable_ts lab len short bin None lb ub prev = Ok v /\ is_var v lab len /\ v_bin v = bin /\ v_ts v = true /\ v_prev v = prev.
Proof.
  intros lab len short bin lb ub prev L A B. unfold mk_variable_ts. apply Nat.ltb_lt in L. rewrite L. cbn.
  eexists. split; [reflexivity|]. repeat split; auto.
  unfold var_ok, translate_variable. cbn [v_lb v_ub v_len v_fixed v_label v_bin].
  destruct (as_vector_opt_fit _ _ A) as [l ->]. destruct (as_vector_opt_fit _ _ B) as [u ->]. cbn. eauto.
Qed.
Lemma create_long : forall m l len bin lb ub prev, (1 < len)%nat -> fito len lb -> fito len ub ->
  exists v, create_variable m l len bin None lb ub prev = Ok v /\ is_var v (vlabel m l) len /\ v_bin v = bin /\ v_ts v = true /\ v_prev v = prev.
Proof.
  intros m l len bin lb ub prev L A B. unfold create_variable. pose proof L as L'. apply Nat.ltb_lt in L'. rewrite L'.
  apply mk_variable_ts_ok; auto.
Qed.
Lemma create_one : forall m l bin lb ub, fito 1 lb -> fito 1 ub ->
  exists v, create_variable m l 1 bin None lb ub None = Ok v /\ is_var v (vlabel m l) 1 /\ v_bin v = bin.
Proof.
  intros m l bin lb ub A B. unfold create_variable. simpl Nat.ltb. cbv iota.
  destruct (mk_variable_ok (vlabel m l) 1 l bin lb ub A B) as [v [H [I [Z _]]]]. eauto.
Qed.
Lemma create_fixed : forall m l bin q, exists v, create_variable m l 1 bin (Some (NS q)) None None None = Ok v /\ is_var v (vlabel m l) 1.
Proof. intros. eexists. split; [reflexivity|]. repeat split; auto. eexists. reflexivity. Qed.

(** ** Equations *)
Definition con_ok (c : constraint) : Prop := exists r, translate_constraint c = Ok r.

(** A call that suits an equation of [n] rows: the summand has one row or [n] rows, its factor suits, its indices exist. *)
Definition call_fit (n : nat) (a : call) : Prop :=
  match a with
  | AddS v f idx true => idx = None /\ v_len v <> 0%nat /\ fitn (v_len v) f
  | AddS v f idx false =>
      Forall (fun j => (j < v_len v)%nat) (idx_of v idx) /\ fitn n f
      /\ (length (idx_of v idx) = 1%nat \/ length (idx_of v idx) = n)
  | AddC k => fitn n k
  end.

Record cinv (n : nat) (c : constraint) : Prop := {
  ci_len : c_len c = 1%nat \/ c_len c = n;
  ci_const : match c_const c with NS _ => True | NV l => length l = n /\ c_len c = n end;
  ci_some : forall s, In s (c_summands c) -> s_idx s <> [];
  ci_terms : forall s, In s (c_summands c) -> (s_len s = 1%nat \/ s_len s = c_len c)
     /\ forall i, (s_len s = 1 \/ i < s_len s)%nat -> exists ts, summand_terms s i = Ok ts
}.

Lemma update_fit : forall n cur new, (cur = 1 \/ cur = n)%nat -> (new = 1 \/ new = n)%nat ->
  exists r, update_length cur new = Ok r /\ (r = 1 \/ r = n)%nat /\ (cur = 1 \/ cur = r)%nat /\ (new = 1 \/ new = r)%nat.
Proof.
  intros n cur new A B. unfold update_length. destruct (Nat.eqb_spec cur 1) as [->|C]; [exists new; tauto|].
  destruct A as [->| ->]; [congruence|]. destruct B as [->| ->]; [exists n; simpl; tauto|].
  rewrite Nat.eqb_refl, orb_true_r. exists n. tauto.
Qed.

Lemma call_fit_step : forall n c a, (1 <= n)%nat -> cinv n c -> call_fit n a ->
  exists c', apply_call c a = Ok c' /\ cinv n c' /\ c_label c' = c_label c /\ c_kind c' = c_kind c
    /\ ((is_summand a = true \/ c_summands c <> []) -> c_summands c' <> []).
Proof.
  intros n c a N [L K SO T] F. unfold apply_call, to_res. destruct a as [v f idx b|k]; cbn [apply_call_st].
  - assert (SI : forall s, mk_summand v f idx b = Ok s -> s_idx s <> []).
    { intros s E. destruct (mk_summand_inv _ _ _ _ _ E) as [m [_ [_ [_ [-> _]]]]]. destruct b; cbn in F.
      - destruct F as [-> [Z _]]. cbn. destruct (v_len v); [congruence|discriminate].
      - destruct F as [_ [_ M]]. destruct (idx_of v idx); [cbn in M; lia|discriminate]. }
    assert (S_ : exists s, mk_summand v f idx b = Ok s /\ (s_len s = 1%nat \/ s_len s = n) /\ call_in_range (AddS v f idx b)).
    { unfold mk_summand. fold (idx_of v idx). destruct b; cbn in F.
      - destruct F as [-> [Z F]]. cbn [idx_of]. rewrite seq_length. unfold check_length.
        destruct f as [q|l]; cbn [nlen].
        + destruct (Nat.eqb_spec (v_len v) 1); cbn.
          * eexists; split; [reflexivity|]. cbn. auto.
          * eexists; split; [reflexivity|]. cbn. auto.
        + cbn in F. rewrite F, Nat.eqb_refl. cbn. rewrite F, Nat.eqb_refl. cbn. eexists; split; [reflexivity|]. cbn. split; auto.
      - destruct F as [R [F M]]. unfold check_length.
        assert (RI : match idx with None => True | Some l => Forall (fun j => (j < v_len v)%nat) l /\ (false = true -> l = seq 0 (length l)) end).
        { destruct idx; auto. split; auto. discriminate. }
        destruct f as [q|l]; cbn [nlen]; cbn in F.
        + assert (E : (if Nat.eqb (length (idx_of v idx)) 1 then Ok (length (idx_of v idx)) else if Nat.eqb 1 1 then Ok (length (idx_of v idx))
             else if Nat.eqb (length (idx_of v idx)) 1 then Ok 1%nat else Err PyException) = Ok (length (idx_of v idx))) by (destruct (Nat.eqb (length (idx_of v idx)) 1); reflexivity).
          rewrite E. cbn. eexists; split; [reflexivity|]. cbn. auto.
        + rewrite F. destruct (Nat.eqb_spec (length (idx_of v idx)) n) as [E|E].
          * rewrite E. cbn. rewrite F, Nat.eqb_refl. cbn. eexists; split; [reflexivity|]. cbn. split; auto. split; [lia|auto].
          * destruct M as [M|M]; [|congruence]. rewrite M. destruct (Nat.eqb_spec n 1) as [->|N1]; [congruence|]. cbn. rewrite F, Nat.eqb_refl. cbn.
            eexists; split; [reflexivity|]. cbn. split; auto. split; [lia|auto]. }
    destruct S_ as [s [E [SL R]]]. unfold add_summand_st. rewrite E.
    destruct (update_fit n (c_len c) (s_len s) L SL) as [r [U [R1 [R2 R3]]]]. rewrite U. cbn.
    eexists. split; [reflexivity|]. repeat split; cbn; auto.
    + destruct (c_const c); auto. destruct K as [K1 K2]. split; auto. destruct R2; [|congruence]. lia.
    + intros s0 H. apply in_app_or in H. destruct H as [H|[<-|[]]]; auto.
    + apply in_app_or in H. destruct H as [H|[<-|[]]]; auto. destruct (T _ H) as [[A|A] _]; auto. destruct R2 as [R2|R2]; [left; congruence|right; congruence].
    + apply in_app_or in H. destruct H as [H|[<-|[]]]; [apply (T _ H)|]. intros i I. eapply summand_terms_total; eauto.
    + intros _ Z. apply app_eq_nil in Z. destruct Z as [_ Z]. discriminate Z.
  - cbn in F. unfold add_constant_st.
    assert (KF : fitn n (c_const c)) by (destruct (c_const c); simpl; tauto).
    destruct (nadd_fit _ _ _ KF F) as [k' [E FK]]. rewrite E.
    assert (NL : (nlen k' = 1 \/ nlen k' = n)%nat) by (destruct k'; simpl in *; auto).
    destruct (update_fit n (c_len c) (nlen k') L NL) as [r [U [R1 [R2 R3]]]]. rewrite U. cbn.
    eexists. split; [reflexivity|]. repeat split; cbn; auto.
    + destruct k' as [q|l]; auto. simpl in FK, R3. split; auto. lia.
    + destruct (T _ H) as [[A|A] _]; auto. destruct R2 as [R2|R2]; [left; congruence|right; congruence].
    + apply (T _ H).
    + intros [Z|Z]; [discriminate Z|exact Z].
Qed.

Lemma cinv_ok : forall n c, (1 <= n)%nat -> cinv n c -> c_summands c <> [] -> con_ok c.
Proof.
  intros n c N [L K SO T] NE. unfold con_ok, translate_constraint.
  assert (A : exists cv, as_vector (c_const c) (c_len c) = Ok cv /\ length cv = c_len c).
  { apply as_vector_fit. destruct (c_const c); simpl; auto. destruct K. congruence. }
  destruct A as [cv [-> LC]]. cbn [bind]. apply mapM_total. intros i I. apply in_seq in I.
  assert (B : exists ts, lhs_terms (c_summands c) i = Ok ts).
  { unfold lhs_terms. destruct (mapM_total (fun s => summand_terms s i) (c_summands c)) as [r ->]; [|cbn; eauto].
    intros s Hs. destruct (T _ Hs) as [SL X]. apply X. destruct SL; [left; auto|right; lia]. }
  destruct B as [ts B]. assert (NT : nonempty ts = true) by (destruct (c_summands c) as [|s ss]; [congruence|]; apply (lhs_terms_some _ _ _ s B); [left; reflexivity|apply SO; left; reflexivity]).
  rewrite B. cbn [bind]. destruct (nth_error cv i) as [q|] eqn:E; [cbn; rewrite NT; cbn; eauto|]. apply nth_error_None in E. lia.
Qed.

Lemma build_fit : forall n k lab short calls, (1 <= n)%nat -> Forall (call_fit n) calls ->
  exists c, build_constraint k lab short calls = Ok c /\ cinv n c /\ c_label c = lab /\ c_kind c = k /\ (existsb is_summand calls = true -> c_summands c <> []).
Proof.
  intros n k lab short calls N F. unfold build_constraint.
  assert (G : forall calls c, Forall (call_fit n) calls -> cinv n c -> exists c', foldM apply_call calls c = Ok c' /\ cinv n c' /\ c_label c' = c_label c /\ c_kind c' = c_kind c
      /\ ((existsb is_summand calls = true \/ c_summands c <> []) -> c_summands c' <> [])).
  { clear calls F. induction calls as [|a calls IH]; intros c F I; [exists c; split; [reflexivity|split; [exact I|split; [reflexivity|split; [reflexivity|intros [Z|Z]; [discriminate Z|exact Z]]]]]|]. inversion F; subst.
    destruct (call_fit_step _ _ _ N I H1) as [c1 [E [I1 [L1 [K1 S1]]]]]. cbn [foldM]. rewrite E. cbn [bind].
    destruct (IH c1 H2 I1) as [c2 [E2 [I2 [L2 [K2 S2]]]]]. exists c2. split; [exact E2|split; [exact I2|split; [congruence|split; [congruence|]]]].
    intros Z. apply S2. destruct Z as [Z|Z]; [|right; apply S1; right; exact Z]. cbn in Z. apply orb_prop in Z. destruct Z as [Z|Z]; [right; apply S1; left; exact Z|left; exact Z]. }
  destruct (G calls (new_constraint k lab short) F) as [c [E [I [L [K SO]]]]]; [|exists c; split; [exact E|split; [exact I|split; [exact L|split; [exact K|intros Z; apply SO; left; exact Z]]]]].
  split; cbn; auto; intros s [].
Qed.
Lemma equation_ok : forall n m l k calls, (1 <= n)%nat -> Forall (call_fit n) calls -> existsb is_summand calls = true ->
  exists c, create_equation m l k calls = Ok c /\ c_label c = vlabel m l /\ con_ok c.
Proof.
  intros n m l k calls N F SU. destruct (build_fit n k (vlabel m l) l calls N F) as [c [E [I [L [_ SO]]]]].
  exists c. split; [exact E|]. split; auto. eapply cinv_ok; eauto.
Qed.

(** Calls that suit. *)
Lemma seq_lt : forall a n m, (a + n <= m)%nat -> Forall (fun j => (j < m)%nat) (seq a n).
Proof. intros a n m H. apply Forall_forall. intros j J. apply in_seq in J. lia. Qed.
Lemma fit_all : forall n v f, v_len v = n -> fitn n f -> call_fit n (AddS v f None false).
Proof. intros n v f L F. cbn. rewrite seq_length, L. repeat split; auto. apply seq_lt. lia. Qed.
Lemma fit_one : forall n v f, v_len v = 1%nat -> fitn n f -> call_fit n (AddS v f None false).
Proof. intros n v f L F. cbn. rewrite seq_length, L. repeat split; auto. apply seq_lt. lia. Qed.
Lemma fit_some : forall n v f l, Forall (fun j => (j < v_len v)%nat) l -> length l = n -> fitn n f -> call_fit n (AddS v f (Some l) false).
Proof. intros n v f l R L F. cbn. auto. Qed.
Lemma fit_at : forall n v f i, (i < v_len v)%nat -> fitn n f -> call_fit n (AddS v f (Some [i]) false).
Proof. intros n v f i R F. cbn. auto. Qed.
Lemma fit_sum : forall n v f, v_len v <> 0%nat -> fitn (v_len v) f -> call_fit n (AddS v f None true).
Proof. intros n v f R F. cbn. auto. Qed.

(** ** Models *)
Definition vs_of (ms : list emodel) : list variable := flat_map em_vars (flat_map flat ms).
Definition cs_of (ms : list emodel) : list constraint := flat_map em_cons (flat_map flat ms).
Record good (P : list string) (o : bool) (ws : list (list string)) (vs : list variable) (cs : list constraint) : Prop := {
  gd_vars : covers P o ws (map v_label vs);
  gd_cons : covers P o ws (map c_label cs);
  gd_var : Forall var_ok vs;
  gd_con : Forall con_ok cs
}.
Definition goods (P : list string) (ws : list (list string)) (ms : list emodel) : Prop := good P false ws (vs_of ms) (cs_of ms).

Lemma vs_app : forall a b, vs_of (a ++ b) = vs_of a ++ vs_of b.
Proof. intros. unfold vs_of. rewrite !flat_map_app. reflexivity. Qed.
Lemma cs_app : forall a b, cs_of (a ++ b) = cs_of a ++ cs_of b.
Proof. intros. unfold cs_of. rewrite !flat_map_app. reflexivity. Qed.
Lemma vs_node : forall f l v c s, vs_of [EM f l v c s] = v ++ vs_of s.
Proof. intros. unfold vs_of. simpl. rewrite app_nil_r. reflexivity. Qed.
Lemma cs_node : forall f l v c s, cs_of [EM f l v c s] = c ++ cs_of s.
Proof. intros. unfold cs_of. simpl. rewrite app_nil_r. reflexivity. Qed.

Lemma good_nil : forall P o ws, good P o ws [] [].
Proof. intros. split; try apply covers_nil; constructor. Qed.
Lemma good_app : forall P o o' ws ws' v c v' c', good P o ws v c -> good P o' ws' v' c' -> (o && o')%bool = false -> apart ws ws' ->
  good P (o || o') (ws ++ ws') (v ++ v') (c ++ c').
Proof.
  intros P o o' ws ws' v c v' c' [A B D E] [A' B' D' E'] O W. split; try rewrite map_app; try (apply covers_app; auto); apply Forall_app; auto.
Qed.
Lemma good_more : forall P o o' ws ws' v c, good P o ws v c -> (o = true -> o' = true) -> incl ws ws' -> good P o' ws' v c.
Proof. intros P o o' ws ws' v c [A B D E] O I. split; auto; eapply covers_more; eauto. Qed.
Lemma good_nest : forall P w o ws v c, good (P ++ ""%string :: w) o ws v c -> good P false [w] v c.
Proof. intros P w o ws v c [A B D E]. split; auto; eapply covers_nest; eauto. Qed.
Lemma good_short : forall P w r v c, good P false [w ++ r] v c -> good P false [w] v c.
Proof. intros P w r v c [A B D E]. split; auto; eapply covers_short; eauto. Qed.
Lemma goods_nil : forall P ws, goods P ws [].
Proof. intros. apply good_nil. Qed.
Lemma goods_app : forall P ws ws' a b, goods P ws a -> goods P ws' b -> apart ws ws' -> goods P (ws ++ ws') (a ++ b).
Proof. intros P ws ws' a b A B W. unfold goods. rewrite vs_app, cs_app. apply (good_app P false false); auto. Qed.
Lemma goods_more : forall P ws ws' a, goods P ws a -> incl ws ws' -> goods P ws' a.
Proof. intros P ws ws' a A I. eapply good_more; eauto. Qed.

(** The own names of a model are given by short labels that do not begin with an underscore. *)
Definition starts_ok (x : string) : bool := negb (String.eqb (hd ""%string (words x)) "").
Lemma good_own : forall m vs cs xs ys, map v_label vs = map (vlabel m) xs -> map c_label cs = map (vlabel m) ys ->
  NoDup xs -> NoDup ys -> forallb starts_ok (xs ++ ys) = true -> Forall var_ok vs -> Forall con_ok cs ->
  good (words m) true [] vs cs.
Proof.
  intros m vs cs xs ys A B X Y S V C. rewrite forallb_forall in S.
  assert (H : forall x, In x (xs ++ ys) -> hd ""%string (words x) <> ""%string).
  { intros x I E. specialize (S _ I). unfold starts_ok in S. rewrite E in S. discriminate. }
  split; auto; rewrite ?A, ?B; apply covers_own; auto; intros x I; apply H, in_or_app; auto.
Qed.
Lemma mk_em_ok : forall f l v c s o ws P, good P o ws v c -> mk_em f l v c s = Ok (EM f l v c s).
Proof.
  intros f l v c s o ws P [A B _ _]. unfold mk_em. apply cv_nodup in A, B. apply nodup_str_NoDup in A, B. rewrite A, B. reflexivity.
Qed.
Lemma words_full : forall e l, l <> ""%string -> words (model_full e (Some l)) = words e ++ ""%string :: words l.
Proof. intros e l H. unfold model_full. apply String.eqb_neq in H. rewrite H. apply words_us2. Qed.
(** A model [w] of the element [P] with sub-models that hang below the element too. *)
Lemma goods_model : forall P w f l v c s ws, words f = P ++ ""%string :: w -> good (words f) true [] v c -> goods P ws s -> apart [w] ws ->
  goods P (w :: ws) [EM f l v c s].
Proof.
  intros P w f l v c s ws E G S A. unfold goods. rewrite vs_node, cs_node. rewrite E in G. apply good_nest in G.
  apply (good_app P false false [w] ws); auto.
Qed.
