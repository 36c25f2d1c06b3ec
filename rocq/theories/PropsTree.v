(** Flattened results (C42) and merged configurations (C47). *)
From Coq Require Import Ascii.
From Verif Require Import Base BaseFacts System Tree.

(** ** Specification *)

(** The leaves of a nested dict with the keys leading to them. *)
Inductive has_leaf {A} : tree A -> list string -> A -> Prop :=
| hl_here a : has_leaf (Leaf a) [] a
| hl_below k v d p a : In (k, v) d -> has_leaf v p a -> has_leaf (Node d) (k :: p) a.

(** What every Python dict satisfies: no key twice. *)
Inductive is_dict {A} : tree A -> Prop :=
| id_leaf a : is_dict (Leaf a)
| id_node d : NoDup (map fst d) -> (forall k v, In (k, v) d -> is_dict v) -> is_dict (Node d).

(** A property of all keys, at every level. *)
Inductive all_keys {A} (P : string -> Prop) : tree A -> Prop :=
| ak_leaf a : all_keys P (Leaf a)
| ak_node d : (forall k v, In (k, v) d -> P k /\ all_keys P v) -> all_keys P (Node d).

(** ** Induction over trees *)
Lemma tree_ind2 : forall {A} (P : tree A -> Prop),
  (forall a, P (Leaf a)) -> (forall d, (forall k v, In (k, v) d -> P v) -> P (Node d)) -> forall t, P t.
Proof.
  intros A P HL HN. fix IH 1. intros [a | d]; [apply HL |]. apply HN.
  induction d as [| [k v] r IHd]; intros k' v' H; [destruct H |]. pose proof (IH v) as Hv.
  destruct H as [E | H]; [injection E as E1 E2; rewrite <- E2; exact Hv | exact (IHd k' v' H)].
Qed.

(** ** Dicts *)
Lemma dict_set_keys : forall {A} k (v : A) d, In k (map fst d) -> map fst (dict_set k v d) = map fst d.
Proof.
  induction d as [| [k' v'] r IH]; intros H; [destruct H |]. cbn [dict_set].
  destruct (String.eqb k k') eqn:E; [reflexivity |]. cbn [map fst]. f_equal. apply IH.
  destruct H as [H | H]; auto. cbn in H. subst. rewrite String.eqb_refl in E. discriminate.
Qed.
Lemma dict_set_new : forall {A} k (v : A) d, ~ In k (map fst d) -> dict_set k v d = d ++ [(k, v)].
Proof.
  induction d as [| [k' v'] r IH]; intros H; [reflexivity |]. cbn [dict_set].
  destruct (String.eqb_spec k k') as [E | E].
  - exfalso. apply H. left. auto.
  - cbn [app]. f_equal. apply IH. intros C. apply H. right. exact C.
Qed.
Lemma str_dict_nodup : forall {A} (l : list (string * A)), NoDup (map fst l) -> str_dict l = l.
Proof.
  intros A l. unfold str_dict.
  cut (forall (acc : list (string * A)), NoDup (map fst (acc ++ l)) ->
    fold_left (fun d kv => dict_set (fst kv) (snd kv) d) l acc = acc ++ l); [intros H N; exact (H [] N) |].
  induction l as [| [k v] r IH]; intros acc N; cbn [fold_left]; [rewrite app_nil_r; reflexivity |].
  cbn [fst snd]. rewrite dict_set_new.
  - rewrite IH; rewrite <- app_assoc; [reflexivity | exact N].
  - rewrite map_app in N. cbn [map fst] in N. apply NoDup_remove_2 in N. intros C. apply N. apply in_or_app. auto.
Qed.
Lemma sget_set : forall {A} k k' (v : A) d, sget k (dict_set k' v d) = if String.eqb k k' then Some v else sget k d.
Proof.
  unfold sget. induction d as [| [k2 v2] r IH]; cbn [dict_set find fst].
  - destruct (String.eqb k k') eqn:E; reflexivity.
  - destruct (String.eqb_spec k' k2) as [E | E].
    + subst. cbn [find fst]. destruct (String.eqb k k2) eqn:F; reflexivity.
    + cbn [find fst]. destruct (String.eqb_spec k k2) as [F | F].
      * subst. destruct (String.eqb_spec k2 k') as [G | G]; [congruence | reflexivity].
      * exact IH.
Qed.
Lemma sget_cons : forall {A} k k0 (v0 : A) r, sget k ((k0, v0) :: r) = if String.eqb k k0 then Some v0 else sget k r.
Proof. intros. unfold sget. cbn [find fst]. destruct (String.eqb k k0); reflexivity. Qed.
Lemma sget_In : forall {A} k (v : A) d, sget k d = Some v -> In (k, v) d.
Proof.
  unfold sget. induction d as [| [k2 v2] r IH]; cbn [find fst]; intros H; [discriminate |].
  destruct (String.eqb_spec k k2) as [E | E].
  - injection H as H. subst. left. reflexivity.
  - right. apply IH. exact H.
Qed.
Lemma In_sget : forall {A} k (v : A) d, NoDup (map fst d) -> In (k, v) d -> sget k d = Some v.
Proof.
  unfold sget. induction d as [| [k2 v2] r IH]; intros N H; [destruct H |]. inversion N as [| ? ? N1 N2]; subst. cbn [find fst].
  destruct H as [H | H].
  - injection H as H1 H2. subst. rewrite String.eqb_refl. reflexivity.
  - destruct (String.eqb_spec k k2) as [E | E].
    + subst. exfalso. apply N1. apply in_map_iff. exists (k2, v). auto.
    + apply IH; auto.
Qed.
Lemma sget_none : forall {A} k (d : list (string * A)), ~ In k (map fst d) -> sget k d = None.
Proof.
  intros A k d H. destruct (sget k d) eqn:E; [| reflexivity]. exfalso. apply H. apply in_map_iff.
  exists (k, a). split; [reflexivity | apply sget_In; exact E].
Qed.

(** ** C42: flattening *)

Fixpoint leaves {A} (t : tree A) : list (list string * A) :=
  match t with
  | Leaf a => [([], a)]
  | Node d => flat_map (fun kv => map (fun pa => (fst kv :: fst pa, snd pa)) (leaves (snd kv))) d
  end.
Lemma leaves_spec : forall {A} (t : tree A) p a, In (p, a) (leaves t) <-> has_leaf t p a.
Proof.
  intros A. induction t as [a0 | d IH] using tree_ind2; intros p a; cbn [leaves].
  - split; intros H.
    + destruct H as [H | []]. injection H as H1 H2. subst. constructor.
    + inversion H; subst. left. reflexivity.
  - rewrite in_flat_map. split.
    + intros ([k v] & H1 & H2). apply in_map_iff in H2. destruct H2 as ([p' a'] & E & H2). cbn [fst snd] in E.
      injection E as E1 E2. subst. econstructor; [exact H1 |]. apply (IH k v H1). exact H2.
    + intros H. inversion H as [| k v d' p' a' H1 H2]; subst. exists (k, v). split; [exact H1 |].
      apply in_map_iff. exists (p', a). split; [reflexivity |]. apply (IH k v H1). exact H2.
Qed.

Definition jp (parent : string) (p : list string) : string := fold_left join_key p parent.

Lemma NoDup_app_parts : forall {A} (l m : list A), NoDup (l ++ m) -> NoDup l /\ NoDup m.
Proof.
  induction l as [| a l IH]; intros m H; [split; [constructor | exact H] |].
  inversion H as [| ? ? N1 N2]; subst. destruct (IH m N2) as [A1 A2]. split; [| exact A2].
  constructor; [| exact A1]. intros C. apply N1. apply in_or_app. auto.
Qed.

Lemma flatten_leaves : forall {A} (t : tree A) d parent, t = Node d ->
  NoDup (map (fun pa => jp parent (fst pa)) (leaves t)) ->
  flatten parent t = map (fun pa => (jp parent (fst pa), snd pa)) (leaves t).
Proof.
  intros A. induction t as [a0 | d0 IH] using tree_ind2; intros d parent E N; [discriminate |]. clear E d.
  cbn [flatten leaves] in *.
  assert (F : flat_map (fun kv => match snd kv with
                                  | Leaf a => [(join_key parent (fst kv), a)]
                                  | Node _ => flatten (join_key parent (fst kv)) (snd kv)
                                  end) d0
            = map (fun pa => (jp parent (fst pa), snd pa))
                (flat_map (fun kv => map (fun pa => (fst kv :: fst pa, snd pa)) (leaves (snd kv))) d0)).
  { revert IH N. induction d0 as [| [k v] r IHr]; intros IH N; [reflexivity |].
    cbn [flat_map fst snd] in *. rewrite map_app in N. apply NoDup_app_parts in N. destruct N as [N1 N2].
    rewrite map_app. f_equal.
    - rewrite map_map. rewrite map_map in N1. cbn [fst snd jp fold_left] in *. destruct v as [a | d1].
      + reflexivity.
      + apply (IH k (Node d1) (or_introl eq_refl) d1 (join_key parent k) eq_refl). exact N1.
    - apply IHr; [| exact N2]. intros k' v' H. apply (IH k' v'). right. exact H. }
  rewrite F. apply str_dict_nodup. rewrite map_map. cbn [fst]. exact N.
Qed.

(** Joining with the separator. *)
Lemma append_assoc : forall a b c, ((a ++ b) ++ c = a ++ (b ++ c))%string.
Proof. induction a; intros; cbn; [reflexivity | f_equal; auto]. Qed.
Lemma append_nil_r : forall a, (a ++ "" = a)%string.
Proof. induction a; cbn; [reflexivity | f_equal; auto]. Qed.
Lemma cat3 : forall a b, cat [a; "__"; b] = (a ++ "__" ++ b)%string.
Proof. intros. unfold cat. cbn [fold_right]. rewrite append_nil_r. reflexivity. Qed.
Lemma append_ne : forall a b, a <> ""%string -> (a ++ b)%string <> ""%string.
Proof. destruct a; intros b H; [congruence | discriminate]. Qed.

Lemma jp_parent : forall p parent, parent <> ""%string -> (forall k, In k p -> k <> ""%string) -> p <> [] ->
  jp parent p = (parent ++ "__" ++ String.concat "__" p)%string.
Proof.
  unfold jp. induction p as [| k r IH]; intros parent NE K P; [congruence |]. cbn [fold_left]. unfold join_key at 2.
  destruct (String.eqb_spec parent "") as [E | _]; [congruence |]. rewrite cat3. destruct r as [| k2 r].
  - cbn. rewrite ?append_nil_r. reflexivity.
  - rewrite IH.
    + change (String.concat "__" (k :: k2 :: r)) with (k ++ "__" ++ String.concat "__" (k2 :: r))%string.
      rewrite !append_assoc. reflexivity.
    + apply append_ne. exact NE.
    + intros k' H. apply K. right. exact H.
    + discriminate.
Qed.
Lemma jp_top : forall p, (forall k, In k p -> k <> ""%string) -> jp "" p = String.concat "__" p.
Proof.
  intros [| k [| k2 r]] K; [reflexivity | cbn; reflexivity |].
  change (jp "" (k :: k2 :: r)) with (jp k (k2 :: r)). rewrite jp_parent.
  - reflexivity.
  - apply K. left. reflexivity.
  - intros k' H. apply K. right. exact H.
  - discriminate.
Qed.

Lemma leaf_keys : forall {A} P (t : tree A) p a, all_keys P t -> has_leaf t p a -> forall k, In k p -> P k.
Proof.
  intros A P t p a K H. induction H as [a | k v d p a H1 H2 IH]; intros k' I; [destruct I |].
  inversion K as [| d' K1]; subst. destruct (K1 k v H1) as [K2 K3]. destruct I as [I | I]; [subst; exact K2 | apply IH; auto].
Qed.

Lemma NoDup_map_inj : forall {A B} (f : A -> B) l, NoDup l -> (forall x y, In x l -> In y l -> f x = f y -> x = y) -> NoDup (map f l).
Proof.
  induction l as [| a l IH]; intros N I; cbn; [constructor |]. inversion N as [| ? ? N1 N2]; subst. constructor.
  - intros C. apply in_map_iff in C. destruct C as (b & E & C). apply N1.
    rewrite (I a b); [exact C | left; reflexivity | right; exact C | symmetry; exact E].
  - apply IH; [exact N2 |]. intros x y Hx Hy. apply I; right; auto.
Qed.

(** A dict has each path once. *)
Lemma NoDup_app_intro : forall {A} (l m : list A), NoDup l -> NoDup m -> (forall x, In x l -> ~ In x m) -> NoDup (l ++ m).
Proof.
  induction l as [| a l IH]; intros m N1 N2 D; [exact N2 |]. inversion N1 as [| ? ? N3 N4]; subst. cbn. constructor.
  - intros C. apply in_app_or in C. destruct C as [C | C]; [auto | apply (D a); [left; reflexivity | exact C]].
  - apply IH; auto. intros x Hx. apply D. right. exact Hx.
Qed.
Lemma paths_nodup : forall {A} (t : tree A), is_dict t -> NoDup (map fst (leaves t)).
Proof.
  intros A. induction t as [a | d IH] using tree_ind2; intros W; cbn [leaves]; [repeat constructor; intros [] |].
  inversion W as [| d' N K]; subst. clear W. revert IH N K.
  induction d as [| [k v] r IHr]; intros IH N K; [constructor |]. cbn [flat_map fst snd]. rewrite map_app.
  cbn [map fst] in N. inversion N as [| ? ? N1 N2]; subst. apply NoDup_app_intro.
  - rewrite map_map. cbn [fst]. rewrite <- (map_map fst (cons k)). apply NoDup_map_inj.
    + apply (IH k v); [left; reflexivity |]. apply (K k v). left. reflexivity.
    + intros x y _ _ E. injection E as E. exact E.
  - apply IHr; [| exact N2 |]; intros k' v' H; [apply (IH k' v') | apply (K k' v')]; right; exact H.
  - intros p H1 H2. apply in_map_iff in H1. destruct H1 as ([p1 a1] & E1 & H1). apply in_map_iff in H1.
    destruct H1 as ([q1 b1] & F1 & H1). cbn in F1, E1. injection F1 as F1 _.
    apply in_map_iff in H2. destruct H2 as ([p2 a2] & E2 & H2). apply in_flat_map in H2.
    destruct H2 as ([k2 v2] & I2 & H2). apply in_map_iff in H2. destruct H2 as ([q2 b2] & F2 & H2). cbn in F2, E2.
    injection F2 as F2 _. rewrite <- E1, <- F1, <- F2 in E2. injection E2 as E2 _. subst k2. apply N1.
    apply in_map_iff. exists (k, v2). auto.
Qed.

(** The full claim: one entry for each leaf, under the joined keys. *)
Definition C42_full : Prop := forall (A : Type) (d : list (string * tree A)), is_dict (Node d) ->
  (forall k a, In (k, a) (flatten "" (Node d)) <-> exists p, has_leaf (Node d) p a /\ k = String.concat "__" p) /\
  NoDup (map fst (flatten "" (Node d))).

Definition two_ways : list (string * tree Q) := [("a", Node [("b", Leaf 1)]); ("a__b", Leaf 2)].
Lemma two_ways_dict : is_dict (Node two_ways).
Proof.
  constructor.
  - repeat constructor; cbn; intuition discriminate.
  - intros k v H. cbn in H. destruct H as [H | [H | []]]; injection H as H1 H2; subst; constructor.
    + repeat constructor; intros [].
    + intros k v H. destruct H as [H | []]. injection H as H1 H2. subst. constructor.
Qed.

(** Two leaves may have the same joined key; then one of them is lost. *)
Theorem C42_refuted : ~ C42_full.
Proof.
  intros F. destruct (F Q two_ways two_ways_dict) as [H _]. destruct (H "a__b" 1) as [_ H1].
  assert (G : exists p, has_leaf (Node two_ways) p 1 /\ "a__b" = String.concat "__" p).
  { exists ["a"; "b"]. split; [| reflexivity].
    econstructor; [left; reflexivity |]. econstructor; [left; reflexivity |]. constructor. }
  apply H1 in G. vm_compute in G. destruct G as [G | []]. discriminate.
Qed.
Print Assumptions C42_refuted.

(** If no two leaves have the same joined key and no key is empty, every leaf is kept under its joined key, and there is
    nothing else. *)
Theorem C42_partial : forall (A : Type) (d : list (string * tree A)), is_dict (Node d) ->
  all_keys (fun k => k <> ""%string) (Node d) ->
  (forall p q a b, has_leaf (Node d) p a -> has_leaf (Node d) q b -> String.concat "__" p = String.concat "__" q -> p = q) ->
  (forall k a, In (k, a) (flatten "" (Node d)) <-> exists p, has_leaf (Node d) p a /\ k = String.concat "__" p) /\
  NoDup (map fst (flatten "" (Node d))).
Proof.
  intros A d W K I.
  assert (J : forall p a, In (p, a) (leaves (Node d)) -> jp "" p = String.concat "__" p).
  { intros p a H. apply jp_top. apply leaves_spec in H. exact (leaf_keys _ _ _ _ K H). }
  assert (N : NoDup (map (fun pa => jp "" (fst pa)) (leaves (Node d)))).
  { rewrite <- (map_map fst (jp "")). apply NoDup_map_inj; [apply paths_nodup; exact W |].
    intros p q H1 H2 E. apply in_map_iff in H1, H2. destruct H1 as ([p' a] & E1 & H1), H2 as ([q' b] & E2 & H2).
    cbn in E1, E2. subst. rewrite (J _ _ H1), (J _ _ H2) in E. apply (I p q a b); try (apply leaves_spec; assumption). exact E. }
  rewrite (flatten_leaves (Node d) d "" eq_refl N). split.
  - intros k a. rewrite in_map_iff. split.
    + intros ([p b] & E & H). cbn in E. injection E as E1 E2. subst. exists p. split; [apply leaves_spec; exact H |].
      apply (J _ _ H).
    + intros (p & H & E). apply leaves_spec in H. exists (p, a). cbn [fst snd]. rewrite (J _ _ H), E. auto.
  - rewrite map_map. exact N.
Qed.
Print Assumptions C42_partial.

(** Keys accepted by label_is_valid() cannot be confused. *)
Lemma valid_tail_start : forall k r, contains2 k = false -> ends_with_underscore k = false -> starts_with2 (k ++ r) = true ->
  k = ""%string.
Proof.
  intros k r C E P. destruct k as [| c1 [| c2 k]]; [reflexivity | |].
  - cbn in P, E. destruct r; [discriminate |]. apply andb_true_iff in P. destruct P as [P _]. rewrite P in E. discriminate.
  - cbn [contains2] in C. apply orb_false_iff in C. destruct C as [C _]. cbn in C, P. rewrite P in C. discriminate.
Qed.
Lemma ends_tail : forall c s, ends_with_underscore (String c s) = false -> ends_with_underscore s = false.
Proof. intros c [| c2 s] H; [reflexivity | exact H]. Qed.
Lemma contains_tail : forall c s, contains2 (String c s) = false -> contains2 s = false.
Proof. intros c s H. cbn [contains2] in H. apply orb_false_iff in H. tauto. Qed.
Lemma prefix_sep : forall r, starts_with2 ("__" ++ r) = true.
Proof. reflexivity. Qed.

Lemma sep_inj : forall k k' r r', contains2 k = false -> ends_with_underscore k = false ->
  contains2 k' = false -> ends_with_underscore k' = false ->
  (k ++ "__" ++ r = k' ++ "__" ++ r')%string -> k = k' /\ r = r'.
Proof.
  induction k as [| c k IH]; intros k' r r' C E C' E' H.
  - assert (F : k' = ""%string).
    { apply (valid_tail_start k' ("__" ++ r') C' E'). rewrite <- H. apply prefix_sep. }
    subst. cbn in H. injection H as H. auto.
  - destruct k' as [| c' k'].
    + assert (F : String c k = ""%string).
      { apply (valid_tail_start (String c k) ("__" ++ r) C E). rewrite H. apply prefix_sep. }
      discriminate.
    + cbn in H. injection H as H1 H2. subst.
      destruct (IH k' r r' (contains_tail _ _ C) (ends_tail _ _ E) (contains_tail _ _ C') (ends_tail _ _ E') H2).
      subst. auto.
Qed.
Lemma sep_contains : forall k r, contains2 (k ++ "__" ++ r) = true.
Proof.
  induction k as [| c k IH]; intros r; [reflexivity |].
  cbn [append contains2]. apply orb_true_iff. right. apply IH.
Qed.

Lemma valid_parts : forall k, label_is_valid k = true -> contains2 k = false /\ ends_with_underscore k = false.
Proof. unfold label_is_valid. intros k H. apply negb_true_iff in H. rewrite !orb_false_iff in H. tauto. Qed.

Lemma concat_inj : forall p q, (forall k, In k p -> label_is_valid k = true) -> (forall k, In k q -> label_is_valid k = true) ->
  p <> [] -> q <> [] -> String.concat "__" p = String.concat "__" q -> p = q.
Proof.
  induction p as [| k p IH]; intros q V W P Q H; [congruence |]. destruct q as [| k' q]; [congruence |].
  destruct (valid_parts k (V k (or_introl eq_refl))) as [C1 C2].
  destruct (valid_parts k' (W k' (or_introl eq_refl))) as [D1 D2].
  destruct p as [| k2 p], q as [| k2' q].
  - cbn in H. subst. reflexivity.
  - change (k = (k' ++ "__" ++ String.concat "__" (k2' :: q)))%string in H. rewrite H in C1. rewrite sep_contains in C1. discriminate.
  - change ((k ++ "__" ++ String.concat "__" (k2 :: p)) = k')%string in H. rewrite <- H in D1. rewrite sep_contains in D1. discriminate.
  - change ((k ++ "__" ++ String.concat "__" (k2 :: p)) = (k' ++ "__" ++ String.concat "__" (k2' :: q)))%string in H.
    destruct (sep_inj _ _ _ _ C1 C2 D1 D2 H) as [E1 E2]. subst. f_equal.
    apply IH; try discriminate; try exact E2.
    + intros x Hx. apply V. right. exact Hx.
    + intros x Hx. apply W. right. exact Hx.
Qed.

(** In particular nothing is lost if all keys are non-empty valid labels. *)
Theorem C42_valid_labels : forall (A : Type) (d : list (string * tree A)), is_dict (Node d) ->
  all_keys (fun k => k <> ""%string /\ label_is_valid k = true) (Node d) ->
  (forall k a, In (k, a) (flatten "" (Node d)) <-> exists p, has_leaf (Node d) p a /\ k = String.concat "__" p) /\
  NoDup (map fst (flatten "" (Node d))).
Proof.
  intros A d W K. apply C42_partial; [exact W | |].
  - clear W. revert K. generalize (Node d). intros t. induction t as [a | d0 IH] using tree_ind2; intros K; constructor.
    intros k v H. inversion K as [| d' K1]; subst. destruct (K1 k v H) as [[K2 _] K3]. split; [exact K2 | exact (IH k v H K3)].
  - intros p q a b H1 H2 E. apply concat_inj; try exact E.
    + intros k H. exact (proj2 (leaf_keys _ _ _ _ K H1 k H)).
    + intros k H. exact (proj2 (leaf_keys _ _ _ _ K H2 k H)).
    + inversion H1. discriminate.
    + inversion H2. discriminate.
Qed.
Print Assumptions C42_valid_labels.

Definition nested : list (string * tree Q) :=
  [("Boiler", Node [("Q_th", Node [("flow_rate", Leaf 5); ("OnOff", Node [("on", Leaf 1)])]); ("size", Leaf 3)]); ("Objective", Leaf 9)].
Example C42_nested :
  is_dict (Node nested) /\ all_keys (fun k => k <> ""%string /\ label_is_valid k = true) (Node nested) /\
  flatten "" (Node nested) =
    [("Boiler__Q_th__flow_rate", 5); ("Boiler__Q_th__OnOff__on", 1); ("Boiler__size", 3); ("Objective", 9)].
Proof.
  split; [| split].
  - repeat (constructor; [repeat constructor; cbn; intuition discriminate |];
      let H := fresh in intros ? ? H; cbn in H; repeat (destruct H as [H | H]; [injection H as <- <- |]); try contradiction;
      try apply id_leaf).
  - repeat (constructor; let H := fresh in intros ? ? H; cbn in H; repeat (destruct H as [H | H]; [injection H as <- <- |]);
      try contradiction; (split; [split; [discriminate | reflexivity] | try apply ak_leaf])).
  - vm_compute. reflexivity.
Qed.

(** ** C47: merging configurations *)

Lemma merge_get : forall {A} (user dflt : list (string * tree A)) k, NoDup (map fst user) ->
  sget k (merge dflt (Node user)) =
    match sget k user with
    | None => sget k dflt
    | Some (Node u) => match sget k dflt with Some (Node dd) => Some (Node (merge dd (Node u))) | _ => Some (Node u) end
    | Some (Leaf a) => Some (Leaf a)
    end.
Proof.
  intros A user dflt k. cbn [merge]. revert dflt.
  induction user as [| [k0 v0] r IH]; intros dflt N; [reflexivity |]. inversion N as [| ? ? N1 N2]; subst.
  cbn [fold_left fst snd]. rewrite IH by exact N2. rewrite sget_cons.
  destruct (String.eqb_spec k k0) as [E | E].
  - subst k0. rewrite (sget_none k r N1).
    destruct v0 as [a | u]; [rewrite sget_set, String.eqb_refl; reflexivity |].
    destruct (sget k dflt) as [[a | dd] |]; rewrite sget_set, String.eqb_refl; reflexivity.
  - assert (G : sget k (match v0, sget k0 dflt with
                        | Node _, Some (Node dd) => dict_set k0 (Node (merge dd v0)) dflt
                        | _, _ => dict_set k0 v0 dflt
                        end) = sget k dflt).
    { destruct (String.eqb_spec k k0) as [E' | E']; [congruence |].
      destruct v0 as [a | u]; [| destruct (sget k0 dflt) as [[a | dd] |]]; rewrite sget_set;
        destruct (String.eqb_spec k k0); congruence. }
    rewrite G. reflexivity.
Qed.

(** Where the user gives a value, it is used. *)
Theorem C47_user_value : forall (A : Type) (dflt user : list (string * tree A)) path a, is_dict (Node user) ->
  extract (Node user) path = Some (Leaf a) -> extract (Node (merge_configs dflt user)) path = Some (Leaf a).
Proof.
  intros A dflt user path a. unfold merge_configs. revert dflt user.
  induction path as [| k r IH]; intros dflt user W H; [discriminate |]. cbn [extract] in *.
  inversion W as [| d' N K]; subst. rewrite merge_get by exact N.
  destruct (sget k user) as [[b | u] |] eqn:E; [exact H | | discriminate].
  destruct (sget k dflt) as [[b | dd] |]; [exact H | | exact H].
  apply IH; [| exact H]. apply (K k). apply sget_In. exact E.
Qed.
Print Assumptions C47_user_value.

(** Elsewhere the default stays: at every place where the user gives nothing, neither there nor for something it is part of. *)
Theorem C47_default_value : forall (A : Type) (dflt user : list (string * tree A)) path, is_dict (Node user) ->
  extract (Node user) path = None ->
  (forall above below a, path = above ++ below -> extract (Node user) above <> Some (Leaf a)) ->
  extract (Node (merge_configs dflt user)) path = extract (Node dflt) path.
Proof.
  intros A dflt user path. unfold merge_configs. revert dflt user.
  induction path as [| k r IH]; intros dflt user W H L; [discriminate |]. cbn [extract] in *.
  inversion W as [| d' N K]; subst. rewrite merge_get by exact N.
  destruct (sget k user) as [[b | u] |] eqn:E.
  - exfalso. apply (L [k] r b eq_refl). cbn [extract]. rewrite E. reflexivity.
  - assert (L' : forall above below a, r = above ++ below -> extract (Node u) above <> Some (Leaf a)).
    { intros above below a F G. apply (L (k :: above) below a); [cbn; f_equal; exact F |]. cbn [extract]. rewrite E. exact G. }
    assert (W' : is_dict (Node u)) by (apply (K k); apply sget_In; exact E).
    destruct (sget k dflt) as [[b | dd] |].
    + destruct r; [discriminate |]. exact H.
    + apply IH; auto.
    + exact H.
  - reflexivity.
Qed.
Print Assumptions C47_default_value.

(** Nothing else appears. *)
Theorem C47_nothing_else : forall (A : Type) (dflt user : list (string * tree A)) path a, is_dict (Node user) ->
  extract (Node (merge_configs dflt user)) path = Some (Leaf a) ->
  extract (Node user) path = Some (Leaf a) \/ extract (Node dflt) path = Some (Leaf a).
Proof.
  intros A dflt user path a. unfold merge_configs. revert dflt user.
  induction path as [| k r IH]; intros dflt user W H; [discriminate |]. cbn [extract] in *.
  inversion W as [| d' N K]; subst. rewrite merge_get in H by exact N.
  destruct (sget k user) as [[b | u] |] eqn:E; [left; exact H | | right; exact H].
  destruct (sget k dflt) as [[b | dd] |]; [left; exact H | | left; exact H].
  apply IH; [| exact H]. apply (K k). apply sget_In. exact E.
Qed.
Print Assumptions C47_nothing_else.

Definition cfg_default : list (string * tree Q) := [("modeling", Node [("BIG", Leaf 10); ("EPSILON", Leaf (1 # 5))]); ("logging", Node [("rich", Leaf 0)])].
Definition cfg_user : list (string * tree Q) := [("modeling", Node [("BIG", Leaf 7)])].
Example C47_case :
  is_dict (Node cfg_user) /\ extract (Node cfg_user) ["modeling"; "BIG"] = Some (Leaf 7) /\
  extract (Node cfg_user) ["modeling"; "EPSILON"] = None /\
  merge_configs cfg_default cfg_user = [("modeling", Node [("BIG", Leaf 7); ("EPSILON", Leaf (1 # 5))]); ("logging", Node [("rich", Leaf 0)])].
Proof.
  split; [| repeat split].
  repeat (constructor; [repeat constructor; cbn; intuition discriminate |];
      let H := fresh in intros ? ? H; cbn in H; repeat (destruct H as [H | H]; [injection H as <- <- |]); try contradiction;
      try apply id_leaf).
Qed.
