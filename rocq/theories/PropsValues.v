(** Conversion to JSON types (C40) and saving and loading of results (C41). *)
From Verif Require Import Base BaseFacts System Tree Values PropsTree.

(** ** Specification *)

(** JSON: null, booleans, numbers, texts, lists, and dicts whose keys json.dump can write. Nothing from numpy, no objects. *)
Definition plain_key (k : pyval) : Prop :=
  match k with VNone | VBool _ | VStr _ | VIso _ | VNum false _ _ => True | _ => False end.
Inductive json : pyval -> Prop :=
| js_null : json VNone
| js_bool b : json (VBool b)
| js_num i q : json (VNum false i q)
| js_str s : json (VStr s)
| js_iso t : json (VIso t)
| js_list l : (forall v, In v l -> json v) -> json (VList l)
| js_dict d : (forall k v, In (k, v) d -> plain_key k /\ json v) -> json (VDict d).

(** Values that can be saved: everything except dates without time, foreign objects, and dicts whose keys are neither None, numbers,
    texts, times nor elements. Of an object only those arguments count that differ from their default and are not empty; an
    element that is replaced by its label ([ul]) counts as text. *)
Fixpoint savable_key (k : pyval) : bool :=
  match k with
  | VNone | VBool _ | VNum _ _ _ | VStr _ | VIso _ | VDatetime _ => true
  | VObj (Some _) _ _ => true
  | VSeries a => savable_key a
  | _ => false
  end.
Fixpoint savable (ul : bool) (v : pyval) : bool :=
  match v with
  | VDate _ | VOther => false
  | VArr ADate (_ :: _) => false
  | VList l | VTuple l | VSet l => forallb (savable ul) l
  | VDict d => forallb (fun kv => savable_key (fst kv) && savable ul (snd kv))%bool d
  | VSeries a => savable ul a
  | VObj label _ args =>
      if (ul && match label with Some _ => true | None => false end)%bool then true
      else forallb (fun na => snd (snd na) || empty_coll (fst (snd na)) || savable ul (fst (snd na)))%bool args
  | _ => true
  end.

(** The same with arrays of numbers left as they are ([np]). *)
Inductive data (np : bool) : pyval -> Prop :=
| dt_null : data np VNone
| dt_bool b : data np (VBool b)
| dt_num i q : data np (VNum false i q)
| dt_str s : data np (VStr s)
| dt_iso t : data np (VIso t)
| dt_list l : (forall v, In v l -> data np v) -> data np (VList l)
| dt_dict d : (forall k v, In (k, v) d -> plain_key k /\ data np v) -> data np (VDict d)
| dt_array k l : np = true -> k <> ADate -> k <> ADatetime -> data np (VArr k l).

(** The numbers in a value, in order (those in keys excepted); True and False are the numbers 1 and 0. *)
Definition truth (q : Q) : Q := if Qeq_bool q 0 then 0 else 1.
Fixpoint numbers (ul : bool) (v : pyval) : list Q :=
  match v with
  | VNum _ _ q => [q]
  | VBool b => [if b then 1 else 0]
  | VArr AInt l | VArr AFlt l => l
  | VArr ABool l => map truth l
  | VList l | VTuple l | VSet l => flat_map (numbers ul) l
  | VDict d => flat_map (fun kv => numbers ul (snd kv)) d
  | VSeries a => numbers ul a
  | VObj label _ args =>
      if (ul && match label with Some _ => true | None => false end)%bool then []
      else flat_map (fun na : string * (pyval * bool) => if snd (snd na) then [] else numbers ul (fst (snd na))) args
  | _ => []
  end.

(** The name a key gets; no two keys of a dict may get the same one. *)
Fixpoint key_name (k : pyval) {struct k} : pyval :=
  match k with
  | VNum _ i q => VNum false i q
  | VDatetime t => VIso t
  | VObj (Some l) _ _ => VStr l
  | VSeries a => key_name a
  | _ => k
  end.
Fixpoint separate (l : list pyval) : bool :=
  match l with
  | [] => true
  | a :: r => (forallb (fun b => negb (key_eqb (key_name b) (key_name a))) r && separate r)%bool
  end.
Fixpoint distinct_keys (ul : bool) (v : pyval) : bool :=
  match v with
  | VList l | VTuple l | VSet l => forallb (distinct_keys ul) l
  | VDict d => (separate (map fst d) && forallb (fun kv => distinct_keys ul (snd kv)) d)%bool
  | VSeries a => distinct_keys ul a
  | VObj _ _ args => forallb (fun na => distinct_keys ul (fst (snd na))) args
  | _ => true
  end.

(** ** Induction over values *)
Lemma value_ind2 : forall P : pyval -> Prop,
  P VNone -> (forall b, P (VBool b)) -> (forall np i q, P (VNum np i q)) -> (forall s, P (VStr s)) -> (forall t, P (VIso t)) ->
  (forall t, P (VDatetime t)) -> (forall t, P (VDate t)) -> (forall k l, P (VArr k l)) ->
  (forall l, Forall P l -> P (VList l)) -> (forall l, Forall P l -> P (VTuple l)) -> (forall l, Forall P l -> P (VSet l)) ->
  (forall d, Forall (fun kv => P (fst kv) /\ P (snd kv)) d -> P (VDict d)) -> (forall a, P a -> P (VSeries a)) ->
  (forall label cls args, Forall (fun na => P (fst (snd na))) args -> P (VObj label cls args)) -> P VOther -> forall v, P v.
Proof.
  intros P H1 H2 H3 H4 H5 H6 H7 H8 H9 H10 H11 H12 H13 H14 H15. fix IH 1. intros [ | | | | | | | | l | l | l | d | a | label cls args | ].
  1-8: auto.
  - apply H9. induction l; constructor; auto.
  - apply H10. induction l; constructor; auto.
  - apply H11. induction l; constructor; auto.
  - apply H12. induction d as [| [k a] r]; constructor; [split; apply IH | assumption].
  - apply H13. apply IH.
  - apply H14. induction args as [| [n [a b]] r]; constructor; [apply IH | assumption].
  - exact H15.
Qed.

(** ** Helpers *)
Lemma conv_key : forall k, savable_key k = true -> forall np, conv np true k = Ok (key_name k).
Proof.
  induction k using value_ind2; intros S np0; try discriminate; try reflexivity.
  - cbn [savable_key] in S. cbn [conv key_name]. apply IHk. exact S.
  - cbn [savable_key] in S. destruct label; [reflexivity | discriminate].
Qed.
Lemma key_plain : forall k, savable_key k = true -> plain_key (key_name k).
Proof.
  induction k using value_ind2; intros S; try discriminate; cbn; auto.
  cbn in S. destruct label; [exact I | discriminate].
Qed.
Lemma plain_hashable : forall k, plain_key k -> hashable k = true.
Proof. destruct k; cbn; intros H; auto; contradiction. Qed.

Lemma conv_list_false : forall ul l, conv false ul (VList l) = (r <- mapM (conv false ul) l ;; Ok (VList r)).
Proof. reflexivity. Qed.

Lemma array_items : forall k l, (match k with ADate => l = [] | _ => True end) ->
  exists r, conv_array false k l = Ok (VList r) /\ mapM conv_item (map (item_of k) l) = Ok r.
Proof.
  intros k l H. cut (exists r, mapM conv_item (map (item_of k) l) = Ok r).
  { intros [r E]. exists r. split; [| exact E]. destruct k; cbn [conv_array]; rewrite E; reflexivity. }
  destruct k; try (induction l as [| q l [r IH]]; [exists []; reflexivity |]; auto;
    cbn [map mapM item_of conv_item]; rewrite IH; eexists; reflexivity).
  subst. exists []. reflexivity.
Qed.

(** What a key that cannot be saved becomes, if anything. *)
Lemma bad_key : forall k np r, savable_key k = false -> conv np true k = Ok r -> hashable r = false.
Proof.
  induction k using value_ind2; intros np0 r S E; try discriminate; cbn [conv] in E.
  - unfold conv_array in E. destruct np0, k; try (apply Ok_inj in E; subst; reflexivity);
      (match type of E with bind ?m _ = _ => destruct m eqn:F; cbn [bind] in E; [apply Ok_inj in E; subst; reflexivity | discriminate] end).
  - destruct (np0 && forallb is_number l)%bool; [apply Ok_inj in E; subst; reflexivity |].
    destruct (mapM (conv np0 true) l); cbn [bind] in E; [apply Ok_inj in E; subst; reflexivity | discriminate].
  - destruct (np0 && forallb is_number l)%bool; [apply Ok_inj in E; subst; reflexivity |].
    destruct (mapM (conv np0 true) l); cbn [bind] in E; [apply Ok_inj in E; subst; reflexivity | discriminate].
  - destruct (np0 && forallb is_number l)%bool; [apply Ok_inj in E; subst; reflexivity |].
    destruct (mapM (conv np0 true) l); cbn [bind] in E; [apply Ok_inj in E; subst; reflexivity | discriminate].
  - match type of E with bind ?m _ = _ => destruct m eqn:F; cbn [bind] in E; [apply Ok_inj in E; subst; reflexivity | discriminate] end.
  - cbn in S. apply (IHk np0 r S E).
  - cbn in S. destruct label; [discriminate |].
    match type of E with bind ?m _ = _ => destruct m eqn:F; cbn [bind] in E; [apply Ok_inj in E; subst; reflexivity | discriminate] end.
Qed.

Lemma mapM_total : forall {A B} (f : A -> res B) l, (forall a, In a l -> exists b, f a = Ok b) -> exists r, mapM f l = Ok r.
Proof.
  induction l as [| a l IH]; intros H; [exists []; reflexivity |].
  destruct (H a (or_introl eq_refl)) as [b E]. destruct IH as [r F]; [intros x Hx; apply H; right; exact Hx |].
  exists (b :: r). cbn [mapM]. rewrite E, F. reflexivity.
Qed.
Lemma foldM_total : forall {A S} (f : S -> A -> res S) l s, (forall a s, In a l -> exists b, f s a = Ok b) -> exists r, foldM f l s = Ok r.
Proof.
  induction l as [| a l IH]; intros s H; [exists s; reflexivity |].
  destruct (H a s (or_introl eq_refl)) as [b E]. cbn [foldM]. rewrite E. cbn [bind]. apply IH. intros x s' Hx. apply H. right. exact Hx.
Qed.
Lemma foldM_each : forall {A S} (f : S -> A -> res S) l s r, foldM f l s = Ok r -> forall a, In a l -> exists s1 s2, f s1 a = Ok s2.
Proof.
  induction l as [| a l IH]; intros s r E x H; [destruct H |]. cbn [foldM] in E.
  destruct (f s a) as [s' | e] eqn:F; cbn [bind] in E; [| discriminate].
  destruct H as [H | H]; [subst; exists s, s'; exact F | exact (IH _ _ E x H)].
Qed.

(** ** C40 *)

(** Converting for saving succeeds exactly for the values that can be saved; others raise. *)
Lemma numbers_savable : forall ul l, forallb is_number l = true -> forallb (savable ul) l = true.
Proof.
  intros ul l H. rewrite forallb_forall in *. intros v Hv. specialize (H v Hv). destruct v; try discriminate; reflexivity.
Qed.
Theorem C40_raises : forall w ul v, savable ul v = true <-> exists r, conv w ul v = Ok r.
Proof.
  intros w ul. induction v using value_ind2; try (cbn; split; [eexists; reflexivity | reflexivity]);
    try (cbn; split; [discriminate | intros [r E]; discriminate]).
  - cbn [conv savable]. split.
    + intros S. destruct (array_items k l) as (r & E & F); [destruct k; auto; destruct l; [reflexivity | discriminate] |].
      destruct w; [| exists (VList r); exact E]. destruct k; cbn [conv_array]; try rewrite F; eexists; reflexivity.
    + intros [r E]. destruct k; auto. destruct l; [reflexivity |]. destruct w; discriminate.
  - cbn [conv savable]. destruct (w && forallb is_number l)%bool eqn:W; [split; [eexists; reflexivity | intros _; apply numbers_savable; apply andb_true_iff in W; apply W] |].
    rewrite forallb_forall. rewrite Forall_forall in H. split.
    + intros S. destruct (mapM_total (conv w ul) l) as [r E].
      { intros a Ha. apply (H a Ha). apply S. exact Ha. } exists (VList r). rewrite E. reflexivity.
    + intros [r E] a Ha. destruct (mapM (conv w ul) l) as [bs | e] eqn:F; [| discriminate].
      apply (H a Ha). destruct (mapM_In _ _ _ _ F Ha) as (b & E1 & _). eauto.
  - cbn [conv savable]. destruct (w && forallb is_number l)%bool eqn:W; [split; [eexists; reflexivity | intros _; apply numbers_savable; apply andb_true_iff in W; apply W] |].
    rewrite forallb_forall. rewrite Forall_forall in H. split.
    + intros S. destruct (mapM_total (conv w ul) l) as [r E].
      { intros a Ha. apply (H a Ha). apply S. exact Ha. } exists (VList r). rewrite E. reflexivity.
    + intros [r E] a Ha. destruct (mapM (conv w ul) l) as [bs | e] eqn:F; [| discriminate].
      apply (H a Ha). destruct (mapM_In _ _ _ _ F Ha) as (b & E1 & _). eauto.
  - cbn [conv savable]. destruct (w && forallb is_number l)%bool eqn:W; [split; [eexists; reflexivity | intros _; apply numbers_savable; apply andb_true_iff in W; apply W] |].
    rewrite forallb_forall. rewrite Forall_forall in H. split.
    + intros S. destruct (mapM_total (conv w ul) l) as [r E].
      { intros a Ha. apply (H a Ha). apply S. exact Ha. } exists (VList r). rewrite E. reflexivity.
    + intros [r E] a Ha. destruct (mapM (conv w ul) l) as [bs | e] eqn:F; [| discriminate].
      apply (H a Ha). destruct (mapM_In _ _ _ _ F Ha) as (b & E1 & _). eauto.
  - cbn [conv savable]. rewrite forallb_forall. rewrite Forall_forall in H. split.
    + intros S. match goal with |- exists r, bind ?m _ = _ => assert (T : exists x, m = Ok x) end.
      { apply foldM_total. intros [k a] s Ha. specialize (S _ Ha). cbn [fst snd] in *. apply andb_true_iff in S. destruct S as [S1 S2].
        rewrite (conv_key k S1). cbn [bind]. destruct (proj1 (proj2 (H _ Ha)) S2) as [r E]. cbn [snd] in E. rewrite E. cbn [bind].
        rewrite (plain_hashable _ (key_plain k S1)). cbn. eexists. reflexivity. }
      destruct T as [x E]. rewrite E. eexists. reflexivity.
    + intros [r E] [k a] Ha. cbn [fst snd].
      match type of E with bind ?m _ = _ => destruct m as [x | e] eqn:F; [| discriminate] end.
      destruct (foldM_each _ _ _ _ F _ Ha) as (s1 & s2 & G). cbn [fst snd] in G.
      destruct (conv w true k) as [k' | e] eqn:G1; cbn [bind] in G; [| discriminate].
      destruct (conv w ul a) as [a' | e] eqn:G2; cbn [bind] in G; [| discriminate].
      destruct (hashable k') eqn:G3; cbn [guard bind] in G; [| discriminate].
      apply andb_true_iff. split.
      * destruct (savable_key k) eqn:S; [reflexivity |]. rewrite (bad_key _ _ _ S G1) in G3. discriminate.
      * apply (proj2 (H _ Ha)). cbn [snd]. eauto.
  - cbn [conv savable]. exact IHv.
  - cbn [conv savable]. rewrite Forall_forall in H.
    assert (G : (exists r, bind (mapM (fun na : string * (pyval * bool) => if (snd (snd na) || empty_coll (fst (snd na)))%bool then Ok []
                               else a <- conv w ul (fst (snd na)) ;; Ok [(VStr (fst na), a)]) args)
                            (fun r => Ok (VDict ((VStr "class", VStr cls) :: List.concat r))) = Ok r)
                <-> forallb (fun na => snd (snd na) || empty_coll (fst (snd na)) || savable ul (fst (snd na)))%bool args = true).
    { rewrite forallb_forall. split.
      - intros [r E] na Ha. match type of E with bind ?m _ = _ => destruct m as [x | e] eqn:F; [| discriminate] end.
        destruct (mapM_In _ _ _ _ F Ha) as (b & E1 & _). cbn beta in E1.
        destruct (snd (snd na) || empty_coll (fst (snd na)))%bool eqn:G; [reflexivity |]. cbn [orb].
        apply (H _ Ha). destruct (conv w ul (fst (snd na))); [eauto | discriminate].
      - intros S. match goal with |- exists r, bind ?m _ = _ => assert (T : exists x, m = Ok x) end.
        { apply mapM_total. intros na Ha. specialize (S _ Ha).
          destruct (snd (snd na) || empty_coll (fst (snd na)))%bool eqn:G; [eauto |]. cbn [orb] in S.
          destruct (proj1 (H _ Ha) S) as [r E]. rewrite E. eexists. reflexivity. }
        destruct T as [x E]. rewrite E. eexists. reflexivity. }
    destruct ul, label; cbn [andb]; try (symmetry; exact G). split; [eauto | reflexivity].
Qed.
Print Assumptions C40_raises.

Lemma put_In : forall k v d k' v', In (k', v') (put k v d) -> (k' = k /\ v' = v) \/ In (k', v') d \/ (In k' (map fst d) /\ v' = v).
Proof.
  induction d as [| [k0 v0] r IH]; cbn [put]; intros k' v' H.
  - destruct H as [H | []]. injection H as <- <-. auto.
  - destruct (key_eqb k k0).
    + destruct H as [H | H]; [injection H as <- <- | right; left; right; exact H].
      right. right. split; [left; reflexivity | reflexivity].
    + destruct H as [H | H]; [right; left; left; exact H |]. destruct (IH _ _ H) as [[A B] | [A | [A B]]].
      * auto.
      * right. left. right. exact A.
      * right. right. split; [right; exact A | exact B].
Qed.

Lemma array_data : forall w l, w = true -> data w (np_array l).
Proof.
  intros w l W. unfold np_array. constructor; [exact W | |]; unfold kind_of; destruct l as [| a l]; try discriminate; destruct (forallb _ _); try discriminate; destruct (existsb _ _); discriminate.
Qed.
(** Whatever is converted consists of JSON types and, if wanted, arrays. *)
Theorem C40_types : forall w ul v r, conv w ul v = Ok r -> data w r.
Proof.
  intros w ul. induction v using value_ind2; intros r E; try (cbn in E; apply Ok_inj in E; subst; constructor; fail); try discriminate.
  - cbn [conv] in E. destruct (w && match k with AInt | AFlt | ABool => true | _ => false end)%bool eqn:W.
    { apply andb_true_iff in W. destruct W as [-> W]. destruct k; try discriminate W; cbn [conv_array] in E; apply Ok_inj in E; subst r.
      1-2: constructor; [reflexivity | discriminate | discriminate]. apply array_data. reflexivity. }
    assert (F : exists bs, mapM conv_item (map (item_of k) l) = Ok bs /\ r = VList bs).
    { destruct w, k; try discriminate W; cbn [conv_array] in E; destruct (mapM conv_item _) as [bs |] eqn:F; try discriminate;
        apply Ok_inj in E; eauto. }
    destruct F as (bs & F & ->). constructor. intros v Hv. destruct (mapM_In_inv _ _ _ _ F Hv) as (a & Ha & G).
    apply in_map_iff in Ha. destruct Ha as (q & <- & _). destruct k; cbn in G; try discriminate; apply Ok_inj in G; subst; constructor.
  - cbn [conv] in E. destruct (w && forallb is_number l)%bool eqn:W; [apply Ok_inj in E; subst r; apply array_data; apply andb_true_iff in W; apply W |].
    destruct (mapM (conv w ul) l) as [bs |] eqn:F; [| discriminate]. apply Ok_inj in E. subst.
    rewrite Forall_forall in H. constructor. intros v Hv. destruct (mapM_In_inv _ _ _ _ F Hv) as (a & Ha & G). exact (H a Ha v G).
  - cbn [conv] in E. destruct (w && forallb is_number l)%bool eqn:W; [apply Ok_inj in E; subst r; apply array_data; apply andb_true_iff in W; apply W |].
    destruct (mapM (conv w ul) l) as [bs |] eqn:F; [| discriminate]. apply Ok_inj in E. subst.
    rewrite Forall_forall in H. constructor. intros v Hv. destruct (mapM_In_inv _ _ _ _ F Hv) as (a & Ha & G). exact (H a Ha v G).
  - cbn [conv] in E. destruct (w && forallb is_number l)%bool eqn:W; [apply Ok_inj in E; subst r; apply array_data; apply andb_true_iff in W; apply W |].
    destruct (mapM (conv w ul) l) as [bs |] eqn:F; [| discriminate]. apply Ok_inj in E. subst.
    rewrite Forall_forall in H. constructor. intros v Hv. destruct (mapM_In_inv _ _ _ _ F Hv) as (a & Ha & G). exact (H a Ha v G).
  - cbn [conv] in E. match type of E with bind ?m _ = _ => destruct m as [x |] eqn:F; [| discriminate] end.
    cbn [bind] in E. apply Ok_inj in E. subst r. constructor. rewrite Forall_forall in H.
    assert (G : forall l0 acc, (forall kv, In kv l0 -> In kv d) ->
      (forall k v, In (k, v) acc -> plain_key k /\ data w v) ->
      foldM (fun acc kv => k <- conv w true (fst kv) ;; a <- conv w ul (snd kv) ;;
                                _ <- guard (hashable k) TypeError ;; Ok (put k a acc)) l0 acc = Ok x ->
      forall k v, In (k, v) x -> plain_key k /\ data w v).
    { induction l0 as [| [k a] r IH]; intros acc I A G; cbn [foldM] in G; [apply Ok_inj in G; subst; exact A |].
      cbn [fst snd] in G. destruct (conv w true k) as [k' | e] eqn:G1; cbn [bind] in G; [| discriminate].
      destruct (conv w ul a) as [a' | e] eqn:G2; cbn [bind] in G; [| discriminate].
      destruct (hashable k') eqn:G3; cbn [guard bind] in G; [| discriminate].
      refine (IH _ (fun kv Hk => I kv (or_intror Hk)) _ G).
      pose proof (proj2 (H _ (I _ (or_introl eq_refl))) a' G2) as J.
      assert (PK : plain_key k').
      { destruct (savable_key k) eqn:S; [| rewrite (bad_key _ _ _ S G1) in G3; discriminate].
        rewrite (conv_key k S) in G1. apply Ok_inj in G1. subst. apply key_plain. exact S. }
      intros k2 v2 H2. apply put_In in H2. destruct H2 as [[-> ->] | [H2 | [H2 ->]]]; [auto | exact (A _ _ H2) |].
      split; [| exact J]. apply in_map_iff in H2. destruct H2 as ([k3 v3] & <- & H3). exact (proj1 (A _ _ H3)). }
    apply (G d []); auto. intros k v [].
  - cbn [conv] in E. exact (IHv r E).
  - cbn [conv] in E. rewrite Forall_forall in H.
    assert (G : forall r, bind (mapM (fun na : string * (pyval * bool) => if (snd (snd na) || empty_coll (fst (snd na)))%bool then Ok []
                               else a <- conv w ul (fst (snd na)) ;; Ok [(VStr (fst na), a)]) args)
                            (fun r => Ok (VDict ((VStr "class", VStr cls) :: List.concat r))) = Ok r -> data w r).
    { intros r0 E0. match type of E0 with bind ?m _ = _ => destruct m as [x |] eqn:F; [| discriminate] end.
      cbn [bind] in E0. apply Ok_inj in E0. subst r0. constructor. intros k v [IN | IN]; [injection IN as <- <-; split; [exact I | constructor] |].
      apply in_concat in IN. destruct IN as (c & I1 & I2). destruct (mapM_In_inv _ _ _ _ F I1) as (na & Ha & G1). cbn beta in G1.
      destruct (snd (snd na) || empty_coll (fst (snd na)))%bool; [apply Ok_inj in G1; subst; destruct I2 |].
      destruct (conv w ul (fst (snd na))) as [a |] eqn:G2; [| discriminate]. cbn [bind] in G1. apply Ok_inj in G1. subst c.
      destruct I2 as [I2 | []]. injection I2 as <- <-. split; [exact I | exact (H na Ha a G2)]. }
    destruct ul; [destruct label; [apply Ok_inj in E; subst; constructor |] |]; exact (G r E).
Qed.
Print Assumptions C40_types.


Lemma data_json : forall v, data false v -> json v.
Proof.
  induction v using value_ind2; intros D; inversion D; subst; try (constructor; fail); try discriminate.
  - constructor. intros v Hv. rewrite Forall_forall in H. apply (H v Hv). match goal with Q : forall v, In v l -> data false v |- _ => exact (Q v Hv) end.
  - constructor. intros k v Hv. rewrite Forall_forall in H. match goal with Q : forall k v, In (k, v) d -> _ |- _ => destruct (Q k v Hv) as [Q1 Q2] end.
    split; [exact Q1 | exact (proj2 (H _ Hv) Q2)].
Qed.
(** Without arrays: JSON types only. *)
Theorem C40_json : forall ul v r, conv false ul v = Ok r -> json r.
Proof. intros ul v r E. apply data_json. exact (C40_types false ul v r E). Qed.
Print Assumptions C40_json.

(** Numbers stay the same and in the same order. *)
Lemma put_new : forall k v d, (forall k', In k' (map fst d) -> key_eqb k k' = false) -> put k v d = d ++ [(k, v)].
Proof.
  induction d as [| [k0 v0] r IH]; intros H; [reflexivity |]. cbn [put]. rewrite (H k0 (or_introl eq_refl)). cbn [app]. f_equal.
  apply IH. intros k' Hk. apply H. right. exact Hk.
Qed.

Lemma conv_dict_items : forall w ul d x,
  foldM (fun acc kv => k <- conv w true (fst kv) ;; a <- conv w ul (snd kv) ;;
                       _ <- guard (hashable k) TypeError ;; Ok (put k a acc)) d [] = Ok x ->
  separate (map fst d) = true ->
  Forall2 (fun kv kv' => fst kv' = key_name (fst kv) /\ conv w ul (snd kv) = Ok (snd kv')) d x.
Proof.
  intros w ul d x.
  cut (forall acc, (forall k k', In k (map fst d) -> In k' (map fst acc) -> key_eqb (key_name k) k' = false) ->
    separate (map fst d) = true ->
    foldM (fun acc kv => k <- conv w true (fst kv) ;; a <- conv w ul (snd kv) ;;
                       _ <- guard (hashable k) TypeError ;; Ok (put k a acc)) d acc = Ok x ->
    exists y, x = acc ++ y /\ Forall2 (fun kv kv' => fst kv' = key_name (fst kv) /\ conv w ul (snd kv) = Ok (snd kv')) d y).
  { intros H E S. destruct (H [] (fun k k' _ F => match F with end) S E) as (y & -> & F). exact F. }
  induction d as [| [k a] r IH]; intros acc N S E; cbn [foldM] in E.
  - apply Ok_inj in E. subst. exists []. rewrite app_nil_r. auto.
  - cbn [fst snd] in E. destruct (conv w true k) as [k' | e] eqn:G1; cbn [bind] in E; [| discriminate].
    destruct (conv w ul a) as [a' | e] eqn:G2; cbn [bind] in E; [| discriminate].
    destruct (hashable k') eqn:G3; cbn [guard bind] in E; [| discriminate].
    assert (K : k' = key_name k).
    { destruct (savable_key k) eqn:SK; [| rewrite (bad_key _ _ _ SK G1) in G3; discriminate].
      rewrite (conv_key k SK) in G1. apply Ok_inj in G1. auto. }
    subst k'. cbn [map fst separate] in S. apply andb_true_iff in S. destruct S as [S1 S2].
    rewrite put_new in E by (intros k' Hk; apply N; [left; reflexivity | exact Hk]).
    destruct (IH (acc ++ [(key_name k, a')])) as (y & -> & F); [| exact S2 | exact E |].
    + intros k2 k3 H2 H3. rewrite map_app in H3. apply in_app_or in H3. destruct H3 as [H3 | [<- | []]].
      * apply N; [right; exact H2 | exact H3].
      * rewrite forallb_forall in S1. specialize (S1 _ H2). apply negb_true_iff in S1. exact S1.
    + exists ((key_name k, a') :: y). rewrite <- app_assoc. split; [reflexivity |]. constructor; [split; [reflexivity | exact G2] | exact F].
Qed.

Lemma array_numbers : forall ul l, forallb is_number l = true -> numbers ul (np_array l) = flat_map (numbers false) l.
Proof.
  intros ul l H. assert (E : map num_of l = flat_map (numbers false) l).
  { clear ul. induction l as [| v l IH]; [reflexivity |]. cbn [forallb] in H. apply andb_true_iff in H. destruct H as [H1 H2]. cbn [map flat_map]. rewrite (IH H2).
    destruct v; try discriminate; reflexivity. }
  unfold np_array. rewrite <- E. unfold kind_of. destruct l as [| v l]; [reflexivity |]. destruct (forallb (fun v => match v with VBool _ => true | _ => false end) (v :: l)) eqn:B.
  - cbn [numbers]. clear E H. induction (v :: l) as [| u m IH]; [reflexivity |]. cbn [forallb] in B. apply andb_true_iff in B. destruct B as [B1 B2]. cbn [map]. rewrite (IH B2).
    destruct u; try discriminate. destruct b; reflexivity.
  - destruct (existsb _ _); reflexivity.
Qed.
Lemma plain_numbers : forall ul l, forallb is_number l = true -> flat_map (numbers false) l = flat_map (numbers ul) l.
Proof.
  intros ul l H. induction l as [| v l IH]; [reflexivity |]. cbn [forallb] in H. apply andb_true_iff in H. destruct H as [H1 H2]. cbn [flat_map]. rewrite (IH H2).
  destruct v; try discriminate; reflexivity.
Qed.
Lemma numbers_list : forall w ul l r, Forall (fun v => forall r, distinct_keys ul v = true -> conv w ul v = Ok r -> numbers false r = numbers ul v) l ->
  forallb (distinct_keys ul) l = true -> mapM (conv w ul) l = Ok r -> flat_map (numbers false) r = flat_map (numbers ul) l.
Proof.
  intros w ul l r H D E. apply mapM_Forall2 in E. revert H D. induction E as [| a b l r E1 E2 IH]; intros H D; [reflexivity |].
  cbn [flat_map forallb] in *. apply andb_true_iff in D. destruct D as [D1 D2]. inversion H as [| ? ? H1 H2]; subst.
  rewrite (H1 b D1 E1), IH; auto.
Qed.

Theorem C40_numbers : forall w ul v r, distinct_keys ul v = true -> conv w ul v = Ok r -> numbers false r = numbers ul v.
Proof.
  intros w ul. induction v using value_ind2; intros r D E; try (cbn in E; apply Ok_inj in E; subst; reflexivity); try discriminate.
  - cbn [conv] in E. clear D. destruct (w && match k with AInt | AFlt | ABool => true | _ => false end)%bool eqn:W.
    { apply andb_true_iff in W. destruct W as [-> W]. destruct k; try discriminate W; cbn [conv_array] in E; apply Ok_inj in E; subst r; try reflexivity.
      rewrite array_numbers by (apply forallb_forall; intros v Hv; apply in_map_iff in Hv; destruct Hv as (q & <- & _); reflexivity).
      cbn [numbers]. clear W. induction l as [| q l IH]; [reflexivity |]. cbn [map flat_map]. rewrite IH. cbn [item_of numbers app]. unfold truth. destruct (Qeq_bool q 0); reflexivity. }
    assert (F : exists bs, mapM conv_item (map (item_of k) l) = Ok bs /\ r = VList bs).
    { destruct w, k; try discriminate W; cbn [conv_array] in E; destruct (mapM conv_item _) as [bs |] eqn:F; try discriminate;
        apply Ok_inj in E; eauto. }
    destruct F as (bs & F & ->). cbn [numbers]. clear E W. revert bs F. induction l as [| q l IH]; intros bs F.
    + cbn in F. apply Ok_inj in F. subst. destruct k; reflexivity.
    + cbn [map mapM] in F. destruct (conv_item (item_of k q)) as [b |] eqn:F1; cbn [bind] in F; [| discriminate].
      destruct (mapM conv_item (map (item_of k) l)) as [bs' |] eqn:F2; cbn [bind] in F; [| discriminate].
      apply Ok_inj in F. subst bs. specialize (IH bs' eq_refl). cbn [flat_map]. rewrite IH.
      destruct k; cbn in F1; try discriminate; apply Ok_inj in F1; subst b; try reflexivity. cbn [numbers map app]. unfold truth. destruct (Qeq_bool q 0); reflexivity.
  - cbn [conv distinct_keys] in *. destruct (w && forallb is_number l)%bool eqn:W; [apply Ok_inj in E; subst r; rewrite array_numbers by (apply andb_true_iff in W; apply W); cbn [numbers]; apply andb_true_iff in W; apply plain_numbers; apply W |].
    destruct (mapM (conv w ul) l) as [bs |] eqn:F; [| discriminate]. apply Ok_inj in E. subst.
    cbn [numbers]. exact (numbers_list w ul l bs H D F).
  - cbn [conv distinct_keys] in *. destruct (w && forallb is_number l)%bool eqn:W; [apply Ok_inj in E; subst r; rewrite array_numbers by (apply andb_true_iff in W; apply W); cbn [numbers]; apply andb_true_iff in W; apply plain_numbers; apply W |].
    destruct (mapM (conv w ul) l) as [bs |] eqn:F; [| discriminate]. apply Ok_inj in E. subst.
    cbn [numbers]. exact (numbers_list w ul l bs H D F).
  - cbn [conv distinct_keys] in *. destruct (w && forallb is_number l)%bool eqn:W; [apply Ok_inj in E; subst r; rewrite array_numbers by (apply andb_true_iff in W; apply W); cbn [numbers]; apply andb_true_iff in W; apply plain_numbers; apply W |].
    destruct (mapM (conv w ul) l) as [bs |] eqn:F; [| discriminate]. apply Ok_inj in E. subst.
    cbn [numbers]. exact (numbers_list w ul l bs H D F).
  - cbn [conv distinct_keys] in *. apply andb_true_iff in D. destruct D as [D1 D2].
    match type of E with bind ?m _ = _ => destruct m as [x |] eqn:F; [| discriminate] end. cbn [bind] in E. apply Ok_inj in E. subst r.
    apply conv_dict_items in F; [| exact D1]. cbn [numbers]. clear D1. revert H D2.
    induction F as [| [k a] [k' a'] d x [F1 F2] F IH]; intros H D2; [reflexivity |]. cbn [flat_map forallb snd] in *.
    apply andb_true_iff in D2. destruct D2 as [D2 D3]. inversion H as [| ? ? [_ H1] H2]; subst.
    rewrite (H1 a' D2 F2), IH; auto.
  - cbn [conv distinct_keys numbers] in *. exact (IHv r D E).
  - cbn [conv distinct_keys] in *.
    assert (G : forall r, bind (mapM (fun na : string * (pyval * bool) => if (snd (snd na) || empty_coll (fst (snd na)))%bool then Ok []
                               else a <- conv w ul (fst (snd na)) ;; Ok [(VStr (fst na), a)]) args)
                            (fun r => Ok (VDict ((VStr "class", VStr cls) :: List.concat r))) = Ok r ->
        numbers false r = flat_map (fun na : string * (pyval * bool) => if snd (snd na) then [] else numbers ul (fst (snd na))) args).
    { intros r0 E0. match type of E0 with bind ?m _ = _ => destruct m as [x |] eqn:F; [| discriminate] end.
      cbn [bind] in E0. apply Ok_inj in E0. subst r0. cbn [numbers flat_map snd app]. apply mapM_Forall2 in F. clear E. revert H D.
      induction F as [| [n [a b]] c args x F1 F2 IH]; intros H D; [reflexivity |]. cbn [fst snd flat_map forallb List.concat] in *.
      apply andb_true_iff in D. destruct D as [D1 D2]. inversion H as [| ? ? H1 H2]; subst. cbn [fst snd] in H1.
      rewrite flat_map_app, IH by assumption. f_equal. destruct b; cbn [orb] in F1; [apply Ok_inj in F1; subst; reflexivity |].
      destruct (empty_coll a) eqn:EC.
      - apply Ok_inj in F1. subst. destruct a as [ | | | | | | | | [| ? ?] | | | [| ? ?] | | | ]; try discriminate; reflexivity.
      - destruct (conv w ul a) as [a' |] eqn:G2; [| discriminate]. cbn [bind] in F1. apply Ok_inj in F1. subst c.
        cbn [flat_map snd]. rewrite app_nil_r. exact (H1 a' D1 eq_refl). }
    cbn [numbers]. destruct ul; cbn [andb]; [destruct label; [apply Ok_inj in E; subst; reflexivity |] |]; exact (G r E).
Qed.
Print Assumptions C40_numbers.

Definition boiler_value : pyval :=
  VDict [(VObj (Some "costs") "Effect" [], VSeries (VArr AFlt [1; 2; 3]));
         (VStr "list", VTuple [VNum true true 4; VDatetime 5; VNone; VBool true]);
         (VStr "flow", VObj (Some "Q_th") "Flow" [("size", (VNum false true 7, false)); ("label", (VStr "Q_th", false)); ("meta", (VDict [], false))])].
Example C40_case :
  savable false boiler_value = true /\ distinct_keys false boiler_value = true /\ numbers false boiler_value = [1; 2; 3; 4; 1; 7] /\
  conv false false boiler_value = Ok (VDict
    [(VStr "costs", VList [VNum false false 1; VNum false false 2; VNum false false 3]);
     (VStr "list", VList [VNum false true 4; VIso 5; VNone; VBool true]);
     (VStr "flow", VDict [(VStr "class", VStr "Flow"); (VStr "size", VNum false true 7); (VStr "label", VStr "Q_th")])]).
Proof. repeat split. Qed.

Example C40_case_numpy :
  conv true false (VDict [(VStr "eta", VList [VNum false false (9 # 10); VBool true]); (VStr "profile", VSeries (VArr AFlt [1; 2; 3])); (VStr "on", VArr ABool [1; 0])])
  = Ok (VDict [(VStr "eta", VArr AFlt [9 # 10; 1]); (VStr "profile", VArr AFlt [1; 2; 3]); (VStr "on", VArr ABool [1; 0])]).
Proof. reflexivity. Qed.

(** A dict keyed by an element and by a text equal to its label loses an entry. *)
Example C40_colliding_keys :
  conv false false (VDict [(VObj (Some "costs") "Effect" [], VNum false true 1); (VStr "costs", VNum false true 2)])
  = Ok (VDict [(VStr "costs", VNum false true 2)]).
Proof. reflexivity. Qed.

(** ** C41 *)

(** What loading must give back for each entry: the same number, an array of the same kind with the same numbers, for time stamps the
    list of their ISO texts; dicts with the same keys in the same order. *)
Inductive same_results : tree leaf -> pyval -> Prop :=
| sr_none : same_results (Leaf LNone) VNone
| sr_num np i q : same_results (Leaf (LNum np i q)) (VNum false i q)
| sr_ints l : same_results (Leaf (LArr AInt l)) (VArr AInt l)
| sr_floats l : same_results (Leaf (LArr AFlt l)) (VArr AFlt l)
| sr_times l : same_results (Leaf (LArr ADatetime l)) (VList (map VIso l))
| sr_dict d d' : Forall2 (fun kv kv' => fst kv' = VStr (fst kv) /\ same_results (snd kv) (snd kv')) d d' ->
    same_results (Node d) (VDict d').

(** Entries a calculation can produce (PropsResults.v): numbers, non-empty arrays of numbers, times with a resolution finer than days. *)
Definition result_leaf (a : leaf) : Prop :=
  match a with LNone | LNum _ _ _ => True | LArr AInt l | LArr AFlt l => l <> [] | LArr ADatetime l => True | LArr _ _ => False end.
Inductive all_leaves {A} (P : A -> Prop) : tree A -> Prop :=
| al_leaf a : P a -> all_leaves P (Leaf a)
| al_node d : (forall k v, In (k, v) d -> all_leaves P v) -> all_leaves P (Node d).

Lemma separate_strings : forall l, NoDup l -> separate (map VStr l) = true.
Proof.
  induction l as [| a l IH]; intros N; [reflexivity |]. inversion N as [| ? ? N1 N2]; subst. cbn [map separate].
  rewrite (IH N2), andb_true_r. apply forallb_forall. intros b Hb. apply in_map_iff in Hb. destruct Hb as (s & <- & Hs). cbn.
  destruct (String.eqb_spec s a); [subst; contradiction | reflexivity].
Qed.

Fixpoint saved (t : tree leaf) : pyval :=
  match t with
  | Leaf (LArr ADatetime l) => VList (map VIso l)
  | Leaf (LArr k l) => VList (map (item_of k) l)
  | Leaf (LNum _ i q) => VNum false i q
  | Leaf LNone => VNone
  | Node d => VDict (map (fun kv => (VStr (fst kv), saved (snd kv))) d)
  end.

Lemma items_keep : forall k l, match k with AInt | AFlt => True | _ => False end -> mapM conv_item (map (item_of k) l) = Ok (map (item_of k) l).
Proof. intros k l H. destruct k; try contradiction; induction l as [| q l IH]; cbn [map mapM item_of conv_item bind]; auto; rewrite IH; reflexivity. Qed.
Lemma times_keep : forall l, mapM conv_item (map (item_of ADatetime) l) = Ok (map VIso l).
Proof. induction l as [| q l IH]; cbn [map mapM item_of conv_item bind]; auto; rewrite IH; reflexivity. Qed.

Lemma conv_saved : forall t, is_dict t -> all_leaves result_leaf t -> conv false false (of_tree t) = Ok (saved t).
Proof.
  induction t as [a | d IH] using tree_ind2; intros W L.
  - inversion L as [? R |]; subst. destruct a as [| np i q | k l]; try reflexivity. cbn [of_tree of_leaf conv saved].
    destruct k; cbn in R; try contradiction; cbn [conv_array]; [rewrite items_keep | rewrite items_keep | rewrite times_keep]; auto.
  - inversion W as [| d' N K]; subst. inversion L as [| ? L1]; subst. clear W L. cbn [of_tree conv saved].
    assert (E : forall acc, (forall k, In k (map fst d) -> ~ In (VStr k) (map fst acc)) -> (forall k, In k (map fst acc) -> exists s, k = VStr s) ->
      foldM (fun acc kv => k <- conv false true (fst kv) ;; a <- conv false false (snd kv) ;;
                       _ <- guard (hashable k) TypeError ;; Ok (put k a acc)) (map (fun kv => (VStr (fst kv), of_tree (snd kv))) d) acc
      = Ok (acc ++ map (fun kv => (VStr (fst kv), saved (snd kv))) d)).
    { induction d as [| [k v] r IHr]; intros acc F S; cbn [map foldM]; [rewrite app_nil_r; reflexivity |]. cbn [fst snd].
      cbn [map fst] in N. inversion N as [| ? ? N1 N2]; subst.
      rewrite (IH k v (or_introl eq_refl) (K k v (or_introl eq_refl)) (L1 k v (or_introl eq_refl))). cbn [conv bind hashable guard].
      rewrite put_new.
      2:{ intros k' Hk. destruct (S k' Hk) as [s ->]. cbn. destruct (String.eqb_spec k s) as [E | E]; [| reflexivity].
          subst. exfalso. apply (F s); [left; reflexivity | exact Hk]. }
      rewrite IHr; try (rewrite <- app_assoc; reflexivity).
      - intros k0 v0 H0. apply (IH k0 v0). right. exact H0.
      - exact N2.
      - intros k0 v0 H0. apply (K k0 v0). right. exact H0.
      - intros k0 v0 H0. apply (L1 k0 v0). right. exact H0.
      - intros k0 H0 C. rewrite map_app in C. apply in_app_or in C. destruct C as [C | [C | []]].
        + apply (F k0); [right; exact H0 | exact C].
        + cbn in C. injection C as C. subst. contradiction.
      - intros k0 H0. rewrite map_app in H0. apply in_app_or in H0. destruct H0 as [H0 | [<- | []]]; [apply S; exact H0 | eexists; reflexivity]. }
    rewrite (E []); [reflexivity | intros k _ [] | intros k []].
Qed.

Lemma json_atoms : forall l, (forall v, In v l -> json_rt v = Ok v) -> mapM json_rt l = Ok l.
Proof.
  induction l as [| a l IH]; intros H; [reflexivity |]. cbn [mapM]. rewrite (H a (or_introl eq_refl)). cbn [bind].
  rewrite IH; [reflexivity |]. intros v Hv. apply H. right. exact Hv.
Qed.

Lemma json_saved : forall t, is_dict t -> all_leaves result_leaf t -> json_rt (saved t) = Ok (saved t).
Proof.
  induction t as [a | d IH] using tree_ind2; intros W L.
  - inversion L as [? R |]; subst. destruct a as [| np i q | k l]; try reflexivity.
    assert (A : forall vs, (forall v, In v vs -> json_rt v = Ok v) -> json_rt (VList vs) = Ok (VList vs)).
    { intros vs H. cbn [json_rt]. rewrite (json_atoms vs H). reflexivity. }
    destruct k; cbn in R; try contradiction; cbn [saved]; apply A; intros v Hv; apply in_map_iff in Hv; destruct Hv as (q & <- & _); reflexivity.
  - inversion W as [| d' N K]; subst. inversion L as [| ? L1]; subst. clear W L. cbn [saved json_rt].
    assert (E : forall acc, (forall k, In k (map fst d) -> ~ In (VStr k) (map fst acc)) -> (forall k, In k (map fst acc) -> exists s, k = VStr s) ->
      foldM (fun acc kv => a <- json_rt (snd kv) ;; _ <- guard (str_key (fst kv)) TypeError ;; Ok (put (fst kv) a acc))
        (map (fun kv => (VStr (fst kv), saved (snd kv))) d) acc
      = Ok (acc ++ map (fun kv => (VStr (fst kv), saved (snd kv))) d)).
    { induction d as [| [k v] r IHr]; intros acc F S; cbn [map foldM]; [rewrite app_nil_r; reflexivity |]. cbn [fst snd].
      cbn [map fst] in N. inversion N as [| ? ? N1 N2]; subst.
      rewrite (IH k v (or_introl eq_refl) (K k v (or_introl eq_refl)) (L1 k v (or_introl eq_refl))). cbn [bind str_key guard].
      rewrite put_new.
      2:{ intros k' Hk. destruct (S k' Hk) as [s ->]. cbn. destruct (String.eqb_spec k s) as [E | E]; [| reflexivity].
          subst. exfalso. apply (F s); [left; reflexivity | exact Hk]. }
      rewrite IHr; try (rewrite <- app_assoc; reflexivity).
      - intros k0 v0 H0. apply (IH k0 v0). right. exact H0.
      - exact N2.
      - intros k0 v0 H0. apply (K k0 v0). right. exact H0.
      - intros k0 v0 H0. apply (L1 k0 v0). right. exact H0.
      - intros k0 H0 C. rewrite map_app in C. apply in_app_or in C. destruct C as [C | [C | []]].
        + apply (F k0); [right; exact H0 | exact C].
        + cbn in C. injection C as C. subst. contradiction.
      - intros k0 H0. rewrite map_app in H0. apply in_app_or in H0. destruct H0 as [H0 | [<- | []]]; [apply S; exact H0 | eexists; reflexivity]. }
    rewrite (E []); [reflexivity | intros k _ [] | intros k []].
Qed.

Lemma arrays_back : forall k l, match k with AInt | AFlt => True | _ => False end -> l <> [] ->
  to_arrays (VList (map (item_of k) l)) = VArr k l.
Proof.
  intros k l H NE. destruct l as [| q l]; [congruence |].
  assert (N : forallb is_number (map (item_of k) (q :: l)) = true).
  { apply forallb_forall. intros v Hv. apply in_map_iff in Hv. destruct Hv as (p & <- & _). destruct k; try contradiction; reflexivity. }
  cbn [map to_arrays]. cbn [map] in N. rewrite N. unfold np_array. cbn [kind_of].
  assert (M : map num_of (item_of k q :: map (item_of k) l) = q :: l).
  { destruct k; try contradiction; cbn; f_equal; clear; induction l as [| p l IH]; cbn; congruence. }
  rewrite M. destruct k; try contradiction.
  - cbn. assert (X : existsb (fun v => match v with VNum _ false _ => true | _ => false end) (map (item_of AInt) l) = false).
    { clear. induction l; cbn; auto. } rewrite X. reflexivity.
  - reflexivity.
Qed.

Lemma loaded_same : forall t, all_leaves result_leaf t -> same_results t (to_arrays (saved t)).
Proof.
  induction t as [a | d IH] using tree_ind2; intros L.
  - inversion L as [? R |]; subst. destruct a as [| np i q | k l]; try constructor.
    destruct k; cbn in R; try contradiction; cbn [saved].
    + rewrite arrays_back; auto. constructor.
    + rewrite arrays_back; auto. constructor.
    + assert (E : to_arrays (VList (map VIso l)) = VList (map VIso l)).
      { destruct l as [| q l]; [reflexivity |]. cbn [map to_arrays forallb is_number andb]. f_equal. f_equal.
        clear. induction l as [| p l IH]; cbn; congruence. }
      rewrite E. constructor.
  - inversion L as [| ? L1]; subst. cbn [saved to_arrays]. rewrite map_map. constructor. cbn [fst snd]. clear L. revert IH L1.
    induction d as [| [k v] r IHr]; intros IH L1; constructor.
    + cbn [fst snd]. split; [reflexivity |]. apply (IH k v); [left; reflexivity |]. apply (L1 k v). left. reflexivity.
    + apply IHr; intros k0 v0 H0; [apply (IH k0 v0) | apply (L1 k0 v0)]; right; exact H0.
Qed.

(** Saving and loading succeeds and gives back the same results. *)
Theorem C41_reload : forall t, is_dict t -> all_leaves result_leaf t ->
  exists v, reload (of_tree t) = Ok v /\ same_results t v.
Proof.
  intros t W L. exists (to_arrays (saved t)). unfold reload. rewrite (conv_saved t W L). cbn [bind]. rewrite (json_saved t W L).
  split; [reflexivity | apply loaded_same; exact L].
Qed.
Print Assumptions C41_reload.

(** The time axis is read back exactly. *)
Theorem C41_times : forall d l v, is_dict (Node d) -> all_leaves result_leaf (Node d) -> reload (of_tree (Node d)) = Ok v ->
  extract (Node d) ["Time"] = Some (Leaf (LArr ADatetime l)) ->
  exists v', (exists d', v = VDict d' /\ get (VStr "Time") d' = Some v') /\ parse_times v' = Ok l.
Proof.
  intros d l v W L E X. destruct (C41_reload _ W L) as (v0 & E0 & S). rewrite E in E0. apply Ok_inj in E0. subst v0.
  inversion S as [| | | | | d0 d' F]; subst. cbn [extract] in X. destruct (sget "Time" d) as [t |] eqn:G; [| discriminate].
  injection X as X. subst t. exists (VList (map VIso l)). split.
  - exists d'. split; [reflexivity |]. unfold get, sget in *. clear E W L S. induction F as [| [k a] [k' a'] d d' [F1 F2] F IH]; [discriminate |].
    cbn [find fst snd] in *. subst k'. cbn [key_eqb]. rewrite String.eqb_sym in G. destruct (String.eqb k "Time") eqn:Q.
    + injection G as G. subst a. inversion F2. reflexivity.
    + rewrite String.eqb_sym in Q. apply IH. exact G.
  - clear. cbn [parse_times]. induction l as [| q l IH]; cbn [map mapM bind]; auto. rewrite IH. reflexivity.
Qed.
Print Assumptions C41_times.

Definition saved_example : list (string * tree leaf) :=
  [("Components", Node [("Boiler", Node [("Q_th", Node [("flow_rate", Leaf (LArr AFlt [5; 7 # 2])); ("on", Leaf (LArr AInt [1; 0]))])])]);
   ("Objective", Leaf (LNum false false 12)); ("Time", Leaf (LArr ADatetime [0; 1; 2]))].
Example C41_case : is_dict (Node saved_example) /\ all_leaves result_leaf (Node saved_example) /\
  extract (Node saved_example) ["Time"] = Some (Leaf (LArr ADatetime [0; 1; 2])).
Proof.
  split; [| split; [| reflexivity]].
  - repeat (constructor; [repeat constructor; cbn; intuition discriminate |];
      let H := fresh in intros ? ? H; cbn in H; repeat (destruct H as [H | H]; [injection H as <- <- |]); try contradiction;
      try apply id_leaf).
  - repeat (apply al_node; let H := fresh in intros ? ? H; cbn in H; repeat (destruct H as [H | H]; [injection H as <- <- |]); try contradiction;
      try (apply al_leaf; cbn; (discriminate || exact I))).
Qed.

(** The full claim, for every kind of time axis: refuted by results with time stamps of a resolution of days or more. *)
Definition C41_full : Prop := forall t, is_dict t ->
  all_leaves (fun a => match a with LArr ADate _ => True | _ => result_leaf a end) t -> exists v, reload (of_tree t) = Ok v.
Theorem C41_refuted : ~ C41_full.
Proof.
  intros H. destruct (H (Node [("Time", Leaf (LArr ADate [0; 24; 48]))])) as [v E].
  - constructor; [repeat constructor; intros [] |]. intros k v [E | []]. injection E as <- <-. constructor.
  - constructor. intros k v [E | []]. injection E as <- <-. constructor. exact I.
  - discriminate.
Qed.
Print Assumptions C41_refuted.

(** ** Turning lists of numbers into arrays, for any nested data
    A non-empty list of numbers becomes an array of these numbers; all other lists and tuples become lists of their items, converted in
    the same way; dicts keep their keys in order; everything else stays. *)
Inductive arrayed : pyval -> pyval -> Prop :=
| ar_numbers l a : l <> [] -> (forall v, In v l -> is_number v = true) -> (exists k, a = VArr k (flat_map (numbers false) l)) -> arrayed (VList l) a
| ar_list l l' : l = [] \/ (exists v, In v l /\ is_number v = false) -> Forall2 arrayed l l' -> arrayed (VList l) (VList l')
| ar_tuple l l' : Forall2 arrayed l l' -> arrayed (VTuple l) (VList l')
| ar_dict d d' : Forall2 (fun kv kv' => fst kv' = fst kv /\ arrayed (snd kv) (snd kv')) d d' -> arrayed (VDict d) (VDict d')
| ar_other v : match v with VList _ | VTuple _ | VDict _ => False | _ => True end -> arrayed v v.
Lemma arrayed_map : forall l, Forall (fun v => arrayed v (to_arrays v)) l -> Forall2 arrayed l (map to_arrays l).
Proof. intros l H. induction H; constructor; auto. Qed.
Theorem C41_arrays : forall v, arrayed v (to_arrays v) /\ forall ul, numbers ul (to_arrays v) = numbers ul v.
Proof.
  intros v. split.
  - induction v using value_ind2; try (apply ar_other; exact I).
    + destruct l as [| a l]; [apply ar_list; [left; reflexivity | constructor] |]. change (to_arrays (VList (a :: l))) with (if forallb is_number (a :: l) then np_array (a :: l) else VList (map to_arrays (a :: l))).
      destruct (forallb is_number (a :: l)) eqn:N.
      * apply ar_numbers; [discriminate | apply forallb_forall; exact N |]. pose proof (array_numbers false (a :: l) N) as E. unfold np_array in *. exists (kind_of (a :: l)). f_equal.
        rewrite forallb_forall in N. clear E H. induction (a :: l) as [| u m IH]; [reflexivity |]. cbn [map flat_map]. rewrite IH by (intros w Hw; apply N; right; exact Hw).
        specialize (N u (or_introl eq_refl)). destruct u; try discriminate; reflexivity.
      * apply ar_list; [right | apply arrayed_map; exact H]. revert N. generalize (a :: l). clear. induction l as [| u m IH]; intros N; [discriminate |]. cbn [forallb] in N.
        destruct (is_number u) eqn:U; [destruct (IH N) as [v [V W]]; exists v; split; [right; exact V | exact W] | exists u; split; [left; reflexivity | exact U]].
    + destruct l as [| a l]; [apply ar_tuple; constructor |]. change (to_arrays (VTuple (a :: l))) with (VList (map to_arrays (a :: l))). apply ar_tuple. apply arrayed_map. exact H.
    + cbn [to_arrays]. apply ar_dict. induction H as [| [k a] d [_ H] F IH]; constructor; [split; [reflexivity | exact H] | exact IH].
  - intros ul. induction v using value_ind2; try reflexivity.
    + destruct l as [| a l]; [reflexivity |]. change (to_arrays (VList (a :: l))) with (if forallb is_number (a :: l) then np_array (a :: l) else VList (map to_arrays (a :: l))).
      destruct (forallb is_number (a :: l)) eqn:N; [rewrite (array_numbers ul _ N); apply plain_numbers; exact N |]. cbn [numbers].
      clear N. induction H as [| u m H F IH]; [reflexivity |]. cbn [map flat_map]. rewrite H. f_equal. exact IH.
    + destruct l as [| a l]; [reflexivity |]. change (to_arrays (VTuple (a :: l))) with (VList (map to_arrays (a :: l))). cbn [numbers].
      induction H as [| u m H F IH]; [reflexivity |]. cbn [map flat_map]. rewrite H. f_equal. exact IH.
    + cbn [to_arrays numbers]. induction H as [| [k a] d [_ H] F IH]; [reflexivity |]. cbn [map flat_map fst snd] in *. rewrite H. f_equal. exact IH.
Qed.
Print Assumptions C41_arrays.
Example C41_arrays_case : to_arrays (VDict [(VStr "a", VTuple [VList [VNum false true 1; VNum false true 2]; VStr "x"]); (VStr "b", VList [VNum false false 3; VNone])])
  = VDict [(VStr "a", VList [VArr AInt [1; 2]; VStr "x"]); (VStr "b", VList [VNum false false 3; VNone])].
Proof. reflexivity. Qed.
