(** C45: effect dictionaries of the user. *)
From Verif Require Import Base BaseFacts MathModel Params SharedDicts.

(** ** Specification *)

(** What a dict says about an effect ([None]: the standard effect): the numbers, whether they have been turned into a TimeSeries or not. *)
Definition dict_says (d : dict) (e : option nat) : option param :=
  match find (fun kv : option nat * dval => match fst kv, e with Some a, Some b => Nat.eqb a b | None, None => true | _, _ => false end) d with
  | Some (_, VRaw p) | Some (_, VSeries p) => Some p
  | _ => None
  end.
(** What attribute [i] says: a plain value is about the standard effect. *)
Definition says (s : store) (i : nat) (e : option nat) : option param :=
  match nth_error (s_attrs s) i with
  | Some (AVal v) => dict_says [(None, v)] e
  | Some (ADict l) => match nth_error (s_heap s) l with Some d => dict_says d e | None => None end
  | _ => None
  end.
(** The dict the user has at location [l]. *)
Definition user_dict (s : store) (l : nat) : option dict := nth_error (s_heap s) l.
(** References point to dicts. *)
Definition sound (s : store) : Prop := forall i l, nth_error (s_attrs s) i = Some (ADict l) -> (l < length (s_heap s))%nat.
(** The dict is given to attribute [i] only. *)
Definition only (s : store) (i : nat) : Prop :=
  forall l j, nth_error (s_attrs s) i = Some (ADict l) -> nth_error (s_attrs s) j = Some (ADict l) -> j = i.
Definition no_standard (d : dict) : Prop := forall v, ~ In (None, v) d.

(** The property: transformations, in any order and any number, leave the dicts of the user alone, and every attribute keeps its meaning. *)
Definition C45_full : Prop := forall s is s', sound s -> transforms is s = Some s' ->
  (forall l d, user_dict s l = Some d -> user_dict s' l = Some d) /\ (forall i e, says s' i e = says s i e).

(** One dict {None: 20} for two flows: the first gets the costs, the second none. *)
Definition d20 : dict := [(None, VRaw (PNum (NS 20)))].
Definition two_flows : store := mkStore [d20] [ADict 0; ADict 0].
Theorem C45_refuted : ~ C45_full.
Proof.
  intros C. assert (S : sound two_flows) by (intros [|[|i]] l H; inversion H; simpl; lia || (destruct i; discriminate)).
  destruct (transforms [0; 1]%nat two_flows) as [s'|] eqn:E; [|discriminate]. destruct (C _ _ _ S E) as [_ M]. specialize (M 1%nat None).
  vm_compute in E. inversion E; subst s'. vm_compute in M. discriminate.
Qed.
Print Assumptions C45_refuted.

(** ** Tools *)
Lemma upd_length : forall {A} (l : list A) i a, length (upd l i a) = length l.
Proof. induction l as [|b l IH]; intros [|i] a; simpl; auto. Qed.
Lemma upd_same : forall {A} (l : list A) i a b, nth_error l i = Some b -> nth_error (upd l i a) i = Some a.
Proof. induction l as [|c l IH]; intros [|i] a b H; simpl in *; try discriminate; eauto. Qed.
Lemma upd_other : forall {A} (l : list A) i j a, i <> j -> nth_error (upd l i a) j = nth_error l j.
Proof. induction l as [|c l IH]; intros [|i] [|j] a H; simpl; auto; try congruence. Qed.

Definition key_is (e : option nat) (k : option nat) : bool := match k, e with Some a, Some b => Nat.eqb a b | None, None => true | _, _ => false end.
Lemma says_find : forall d e, dict_says d e = match find (fun kv : option nat * dval => key_is e (fst kv)) d with
  | Some (_, VRaw p) | Some (_, VSeries p) => Some p | _ => None end.
Proof. reflexivity. Qed.

Lemma find_rest : forall d e, find (fun kv : option nat * dval => key_is (Some e) (fst kv)) (pop_rest d) = find (fun kv => key_is (Some e) (fst kv)) d.
Proof.
  induction d as [|[k v] d IH]; intros e; [reflexivity|]. unfold pop_rest in *. cbn [filter fst]. destruct k as [k|]; cbn [is_none negb find fst]; [|apply IH].
  destruct (key_is (Some e) (Some k)); auto.
Qed.
Lemma rest_says : forall d e, dict_says (pop_rest d) (Some e) = dict_says d (Some e).
Proof. intros d e. rewrite !says_find, find_rest. reflexivity. Qed.
Lemma rest_std : forall d, dict_says (pop_rest d) None = None.
Proof.
  intros d. rewrite says_find. destruct (find _ _) as [[k v]|] eqn:F; [|reflexivity]. apply find_some in F. destruct F as [F1 F2]. unfold pop_rest in F1.
  apply filter_In in F1. destruct F1 as [_ F1]. destruct k; simpl in *; discriminate.
Qed.
Lemma says_app : forall a b e, find (fun kv : option nat * dval => key_is e (fst kv)) (a ++ b)
  = match find (fun kv => key_is e (fst kv)) a with Some kv => Some kv | None => find (fun kv => key_is e (fst kv)) b end.
Proof. induction a as [|kv a IH]; intros b e; [reflexivity|]. cbn [app find]. destruct (key_is e (fst kv)); auto. Qed.
Lemma find_ts : forall d e, find (fun kv : option nat * dval => key_is e (fst kv)) (map (fun kv : option nat * dval => (fst kv, create_ts (snd kv))) d)
  = option_map (fun kv : option nat * dval => (fst kv, create_ts (snd kv))) (find (fun kv => key_is e (fst kv)) d).
Proof. induction d as [|kv d IH]; intros e; [reflexivity|]. cbn [map find fst]. destruct (key_is e (fst kv)); auto. Qed.

(** The new dict says what the old one said. *)
Lemma new_says : forall d e, dict_says (new_dict d) e = dict_says d e.
Proof.
  intros d e. rewrite !says_find. unfold new_dict. rewrite says_app, find_ts. destruct e as [e|].
  - rewrite find_rest. destruct (find _ d) as [[k v]|]; cbn [option_map fst snd].
    + destruct v; reflexivity.
    + destruct (pop_value d); reflexivity.
  - assert (N : find (fun kv : option nat * dval => key_is None (fst kv)) (pop_rest d) = None).
    { destruct (find _ _) as [[k v]|] eqn:F; [|reflexivity]. apply find_some in F. destruct F as [F1 F2]. unfold pop_rest in F1.
      apply filter_In in F1. destruct F1 as [_ F1]. destruct k; simpl in *; discriminate. }
    rewrite N. cbn [option_map]. unfold pop_value.
    assert (X : forall d, find (fun kv : option nat * dval => is_none (fst kv)) d = find (fun kv => key_is None (fst kv)) d).
    { clear. induction d as [|[k v] d IH]; [reflexivity|]. cbn [find fst]. destruct k; cbn; auto. }
    specialize (X d). set (a := find (fun kv : option nat * dval => is_none (fst kv)) d) in *. set (b := find (fun kv => key_is None (fst kv)) d) in *. clearbody a b. subst b.
    destruct a as [[k v]|]; [|reflexivity]. cbn [snd]. destruct v; reflexivity.
Qed.
Lemma rest_id : forall d, no_standard d -> pop_rest d = d.
Proof.
  intros d H. unfold pop_rest. induction d as [|[k v] d IH]; [reflexivity|]. cbn [filter fst]. destruct k as [k|].
  - cbn [is_none negb]. rewrite IH; [reflexivity|]. intros w Hw. apply (H w). right. exact Hw.
  - exfalso. apply (H v). left. reflexivity.
Qed.

Inductive step (i : nat) (s s' : store) : Prop :=
| StNone : nth_error (s_attrs s) i = Some ANone -> s' = s -> step i s s'
| StVal : forall v, nth_error (s_attrs s) i = Some (AVal v) ->
    s' = mkStore (s_heap s ++ [new_dict [(None, v)]]) (upd (s_attrs s) i (ADict (length (s_heap s)))) -> step i s s'
| StDict : forall l d, nth_error (s_attrs s) i = Some (ADict l) -> nth_error (s_heap s) l = Some d ->
    s' = mkStore (upd (s_heap s) l (pop_rest d) ++ [new_dict d]) (upd (s_attrs s) i (ADict (length (s_heap s)))) -> step i s s'.
Lemma transform_step : forall i s s', transform i s = Some s' -> step i s s'.
Proof.
  intros i s s' H. unfold transform in H. destruct (nth_error (s_attrs s) i) as [[|v|l]|] eqn:E; try discriminate.
  - inversion H; subst. apply StNone; auto.
  - inversion H; subst. eapply StVal; eauto.
  - destruct (nth_error (s_heap s) l) as [d|] eqn:F; [|discriminate]. inversion H; subst. eapply StDict; eauto.
Qed.
Lemma nth_last : forall {A} (l : list A) a, nth_error (l ++ [a]) (length l) = Some a.
Proof. intros. rewrite nth_error_app2, Nat.sub_diag by lia. reflexivity. Qed.

Lemma step_sound : forall i s s', step i s s' -> sound s -> sound s' /\ (length (s_heap s) <= length (s_heap s'))%nat.
Proof.
  intros i s s' [E ->|v E ->|l d E F ->] S; [split; auto| |]; cbn [s_heap s_attrs].
  - split; [|rewrite app_length; lia]. intros j k H. cbn [s_heap s_attrs] in *. rewrite app_length. cbn [length]. destruct (Nat.eq_dec i j) as [<-|N].
    + rewrite (upd_same _ _ _ _ E) in H. injection H as <-. lia.
    + rewrite upd_other in H by auto. specialize (S _ _ H). lia.
  - split; [|rewrite app_length, upd_length; lia]. intros j k H. cbn [s_heap s_attrs] in *. rewrite app_length, upd_length. cbn [length].
    destruct (Nat.eq_dec i j) as [<-|N].
    + rewrite (upd_same _ _ _ _ E) in H. injection H as <-. lia.
    + rewrite upd_other in H by auto. specialize (S _ _ H). lia.
Qed.

(** What one step does to what attributes say. *)
Lemma step_says : forall i s s' j e, step i s s' -> sound s ->
  says s' j e = says s j e
  \/ (e = None /\ i <> j /\ says s' j e = None /\ exists l, nth_error (s_attrs s) i = Some (ADict l) /\ nth_error (s_attrs s) j = Some (ADict l)).
Proof.
  intros i s s' j e [E ->|v E ->|l d E F ->] S; [left; reflexivity| |]; unfold says; cbn [s_heap s_attrs]; destruct (Nat.eq_dec i j) as [<-|N].
  - left. rewrite (upd_same _ _ _ _ E), E, nth_last. apply new_says.
  - left. rewrite upd_other by auto. destruct (nth_error (s_attrs s) j) as [[|w|k]|] eqn:J; auto. rewrite nth_error_app1 by (eapply S; eauto). reflexivity.
  - left. rewrite (upd_same _ _ _ _ E), E, F. rewrite <- (upd_length (s_heap s) l (pop_rest d)), nth_last. apply new_says.
  - rewrite upd_other by auto. destruct (nth_error (s_attrs s) j) as [[|w|k]|] eqn:J; auto. rewrite nth_error_app1 by (rewrite upd_length; eapply S; eauto).
    destruct (Nat.eq_dec l k) as [<-|K]; [|left; rewrite upd_other by auto; reflexivity]. rewrite (upd_same _ _ _ _ F), F. destruct e as [e|].
    + left. apply rest_says.
    + right. split; auto. split; auto. split; [apply rest_std|]. eauto.
Qed.
(** New references are never shared. *)
Lemma step_shared : forall i s s' a b l, step i s s' -> sound s -> a <> b -> nth_error (s_attrs s') a = Some (ADict l) -> nth_error (s_attrs s') b = Some (ADict l) ->
  nth_error (s_attrs s) a = Some (ADict l) /\ nth_error (s_attrs s) b = Some (ADict l) /\ (nth_error (s_attrs s) i = Some ANone \/ (i <> a /\ i <> b)).
Proof.
  intros i s s' a b l ST S N A B.
  assert (X : nth_error (s_attrs s) i = Some ANone /\ s' = s \/ s_attrs s' = upd (s_attrs s) i (ADict (length (s_heap s))) /\ exists o, nth_error (s_attrs s) i = Some o).
  { destruct ST as [E ->|v E ->|k d E F ->]; [left; auto|right|right]; split; eauto. }
  destruct X as [[E ->]|[U [o E]]]; [auto|]. rewrite U in A, B.
  destruct (Nat.eq_dec i a) as [<-|Na].
  - rewrite (upd_same _ _ _ _ E) in A. injection A as <-. rewrite upd_other in B by auto. specialize (S _ _ B). lia.
  - rewrite upd_other in A by auto. destruct (Nat.eq_dec i b) as [<-|Nb].
    + rewrite (upd_same _ _ _ _ E) in B. injection B as <-. specialize (S _ _ A). lia.
    + rewrite upd_other in B by auto. auto.
Qed.

Lemma transforms_ind : forall (P : store -> Prop), (forall i s s', P s -> sound s -> transform i s = Some s' -> P s') ->
  forall is s s', sound s -> P s -> transforms is s = Some s' -> P s' /\ sound s'.
Proof.
  intros P H is. induction is as [|i is IH]; intros s s' S HP T; cbn [transforms] in T; [inversion T; subst; auto|].
  destruct (transform i s) as [s1|] eqn:E; [|discriminate]. destruct (step_sound _ _ _ (transform_step _ _ _ E) S) as [S1 _]. eapply IH; eauto.
Qed.

(** ** Theorems *)

(** Whatever is shared, every attribute keeps its values for all effects given by name. *)
Theorem C45_named_effects_partial : forall s is s' i e, sound s -> transforms is s = Some s' -> says s' i (Some e) = says s i (Some e).
Proof.
  intros s is s' i e S T. refine (proj1 (transforms_ind (fun s1 => says s1 i (Some e) = says s i (Some e)) _ is s s' S eq_refl T)).
  intros j s1 s2 H S1 E. destruct (step_says _ _ _ i (Some e) (transform_step _ _ _ E) S1) as [X|[X _]]; [congruence|discriminate].
Qed.
Print Assumptions C45_named_effects_partial.

(** An attribute whose dict is given to no other attribute keeps its meaning. So does one given a plain value. *)
Theorem C45_unshared_partial : forall s is s' i e, sound s -> only s i -> transforms is s = Some s' -> says s' i e = says s i e.
Proof.
  intros s is s' i e S O T. refine (proj1 (proj1 (transforms_ind (fun s1 => says s1 i e = says s i e /\ only s1 i) _ is s s' S (conj eq_refl O) T))).
  intros j s1 s2 [H O1] S1 E. apply transform_step in E. split.
  - destruct (step_says _ _ _ i e E S1) as [X|[_ [N [_ [l [Lj Li]]]]]]; [congruence|]. exfalso. apply N. exact (O1 l j Li Lj).
  - intros l b A B. destruct (Nat.eq_dec i b) as [|N]; auto. destruct (step_shared _ _ _ i b l E S1 N A B) as [A1 [B1 _]]. exact (O1 l b A1 B1).
Qed.
Print Assumptions C45_unshared_partial.

(** A dict without an entry for the standard effect is not changed, and may be shared. *)
Theorem C45_dict_kept_partial : forall s is s' l d, sound s -> transforms is s = Some s' -> user_dict s l = Some d -> no_standard d ->
  user_dict s' l = Some d
  /\ forall i e, nth_error (s_attrs s) i = Some (ADict l) -> says s' i e = dict_says d e.
Proof.
  intros s is s' l d S T D NS.
  assert (K : user_dict s' l = Some d).
  { refine (proj1 (transforms_ind (fun s1 => user_dict s1 l = Some d) _ is s s' S D T)). clear - NS. intros j s1 s2 D S E. apply transform_step in E. unfold user_dict in *.
    assert (L : (l < length (s_heap s1))%nat) by (apply nth_error_Some; congruence).
    destruct E as [E ->|v E ->|k d' E F ->]; auto; cbn [s_heap].
    - rewrite nth_error_app1; auto.
    - rewrite nth_error_app1 by (rewrite upd_length; auto). destruct (Nat.eq_dec k l) as [->|N]; [|rewrite upd_other; auto].
      rewrite (upd_same _ _ _ _ F). rewrite D in F. injection F as <-. rewrite rest_id; auto. }
  split; [exact K|]. intros i e I.
  assert (SD : dict_says d None = None).
  { rewrite says_find. destruct (find _ d) as [[k v]|] eqn:F; [|reflexivity]. apply find_some in F. destruct F as [F1 F2]. destruct k; [discriminate|].
    exfalso. exact (NS v F1). }
  assert (I0 : says s i e = dict_says d e) by (unfold says; rewrite I; unfold user_dict in D; rewrite D; reflexivity).
  destruct e as [e|]; [rewrite (C45_named_effects_partial _ _ _ _ _ S T); exact I0|]. rewrite SD.
  refine (proj1 (transforms_ind (fun s1 => says s1 i None = None) _ is s s' S _ T)); [|congruence].
  intros j s1 s2 H S1 E. destruct (step_says _ _ _ i None (transform_step _ _ _ E) S1) as [X|[_ [_ [X _]]]]; congruence.
Qed.
Print Assumptions C45_dict_kept_partial.

(** What goes wrong: once one of two attributes that share a dict has been transformed, the other has lost the standard effect for good. *)
Theorem C45_loss : forall s is is' s' i j l, sound s -> i <> j -> nth_error (s_attrs s) i = Some (ADict l) -> nth_error (s_attrs s) j = Some (ADict l) ->
  In i is -> ~ In j is -> transforms (is ++ is') s = Some s' -> says s' j None = None.
Proof.
  intros s is is' s' i j l S N Hi Hj I J T.
  assert (Z : forall is s s', sound s -> transforms is s = Some s' -> says s j None = None -> says s' j None = None).
  { clear. intros is s s' S T H. refine (proj1 (transforms_ind (fun s1 => says s1 j None = None) _ is s s' S H T)).
    intros k s1 s2 H1 S1 E. destruct (step_says _ _ _ j None (transform_step _ _ _ E) S1) as [X|[_ [_ [X _]]]]; congruence. }
  revert s S Hi Hj T. induction is as [|a is IH]; intros s S Hi Hj T; [destruct I|]. cbn [app transforms] in T. destruct (transform a s) as [s1|] eqn:E; [|discriminate].
  pose proof (transform_step _ _ _ E) as ST. destruct (step_sound _ _ _ ST S) as [S1 _]. destruct (Nat.eq_dec a i) as [->|Na].
  - apply (Z _ _ _ S1 T). destruct ST as [X _|v X _|k d X F ->]; try congruence. rewrite Hi in X. injection X as <-. unfold says. cbn [s_heap s_attrs].
    rewrite upd_other, Hj by auto. rewrite nth_error_app1 by (rewrite upd_length; eapply S; eauto). rewrite (upd_same _ _ _ _ F). apply rest_std.
  - destruct I as [->|I]; [congruence|]. assert (Nj : a <> j) by (intros ->; apply J; left; reflexivity). apply (IH I (fun H => J (or_intror H)) s1 S1); [| |exact T].
    + destruct ST as [X ->|v X ->|k d X F ->]; cbn [s_attrs]; rewrite ?upd_other by auto; auto.
    + destruct ST as [X ->|v X ->|k d X F ->]; cbn [s_attrs]; rewrite ?upd_other by auto; auto.
Qed.
Print Assumptions C45_loss.

Lemma no_key : forall {A} (f : A -> bool) l, (forall a, In a l -> f a = false) -> filter f l = [].
Proof. induction l as [|a l IH]; intros H; [reflexivity|]. cbn [filter]. rewrite (H a (or_introl eq_refl)). apply IH. intros b Hb. apply H. right. exact Hb. Qed.
(** The values the optimisation is built from (Params.v) are those of a single transformation. *)
Theorem C45_first_transformation : forall v s i s', sound s -> i = length (s_attrs s) ->
  match v with
  | EVNone => True
  | EVOne p => transform i (mkStore (s_heap s) (s_attrs s ++ [AVal (VRaw p)])) = Some s'
  | EVDict l => NoDup (map fst l) /\ transform i (mkStore (s_heap s ++ [map (fun kp => (fst kp, VRaw (snd kp))) l]) (s_attrs s ++ [ADict (length (s_heap s))])) = Some s'
  end -> v <> EVNone ->
  exists k, nth_error (s_attrs s') i = Some (ADict k) /\ nth_error (s_heap s') k = Some (map (fun kp => (fst kp, VSeries (snd kp))) (effect_dict_ts v)).
Proof.
  intros v s i s' S -> H NN. destruct v as [|p|l]; [congruence| |].
  - apply transform_step in H. destruct H as [E ->|w E ->|k d E F ->]; cbn [s_attrs s_heap] in *; rewrite nth_last in E; try discriminate.
    injection E as <-. exists (length (s_heap s)). split; [eapply upd_same; apply nth_last|]. rewrite nth_last. reflexivity.
  - destruct H as [ND H]. apply transform_step in H. destruct H as [E ->|w E ->|k d E F ->]; cbn [s_attrs s_heap] in *; rewrite nth_last in E; try discriminate.
    injection E as <-. rewrite nth_last in F. injection F as <-. eexists. split; [eapply upd_same; apply nth_last|].
    rewrite <- (upd_length (s_heap s ++ _) (length (s_heap s)) (pop_rest (map (fun kp => (fst kp, VRaw (snd kp))) l))), nth_last. f_equal. unfold new_dict, effect_dict_ts. cbn [as_effect_dict].
    rewrite map_app. f_equal.
    + clear. unfold pop_rest. induction l as [|[k p] l IH]; [reflexivity|]. cbn [map filter fst snd]. destruct (negb (is_none k)); cbn [map fst snd create_ts]; rewrite IH; reflexivity.
    + unfold pop_value. clear - ND. induction l as [|[k p] l IH]; [reflexivity|]. cbn [map filter find fst snd]. inversion ND as [|? ? N1 N2]; subst. destruct k as [k|]; cbn [is_none].
      * apply IH. exact N2.
      * cbn [snd create_ts map fst]. rewrite no_key; [reflexivity|]. intros [k' p'] Hk. destruct k'; [reflexivity|]. exfalso. apply N1.
        cbn [fst]. change None with (fst (@None nat, p')). apply in_map. exact Hk.
Qed.
Print Assumptions C45_first_transformation.

(** Two flows share a dict with values for two effects, a third one has its own dict with the standard effect, a fourth one a number; two rounds. *)
Definition four_flows : store :=
  mkStore [[(Some 1%nat, VRaw (PNum (NS 3))); (Some 2%nat, VRaw (PNum (NS 4)))]; [(None, VRaw (PNum (NS 20))); (Some 1%nat, VRaw (PNum (NS 5)))]]
          [ADict 0; ADict 0; ADict 1; AVal (VRaw (PNum (NS 7)))].
Definition rounds : list nat := [0; 1; 2; 3; 0; 1; 2; 3]%nat.
Lemma four_sound : sound four_flows.
Proof. intros i l H. do 4 (destruct i as [|i]; [inversion H; simpl; lia|]). destruct i; discriminate. Qed.
Lemma four_only : only four_flows 2.
Proof. intros l j A B. injection A as <-. do 4 (destruct j as [|j]; [try reflexivity; discriminate|]). destruct j; discriminate. Qed.
Example C45_applies : exists s', transforms rounds four_flows = Some s'
  /\ says s' 1 (Some 2%nat) = Some (PNum (NS 4)) /\ says s' 2 None = Some (PNum (NS 20)) /\ says s' 3 None = Some (PNum (NS 7))
  /\ user_dict s' 0 = user_dict four_flows 0 /\ user_dict s' 1 <> user_dict four_flows 1.
Proof.
  destruct (transforms rounds four_flows) as [s'|] eqn:T; [|discriminate]. exists s'. split; [reflexivity|].
  split; [rewrite (C45_named_effects_partial _ _ _ 1%nat 2%nat four_sound T); reflexivity|].
  split; [rewrite (C45_unshared_partial _ _ _ 2%nat None four_sound four_only T); reflexivity|].
  vm_compute in T. inversion T; subst s'. repeat split. vm_compute. discriminate.
Qed.
Example C45_dict_kept_applies : no_standard [(Some 1%nat, VRaw (PNum (NS 3))); (Some 2%nat, VRaw (PNum (NS 4)))].
Proof. intros v H. simpl in H. intuition discriminate. Qed.
Example C45_loss_applies : exists s', transforms ([0] ++ [1])%nat two_flows = Some s' /\ says two_flows 1 None = Some (PNum (NS 20)) /\ says s' 1 None = None.
Proof.
  destruct (transforms ([0] ++ [1])%nat two_flows) as [s'|] eqn:T; [|discriminate]. exists s'. split; [reflexivity|]. split; [reflexivity|].
  eapply (C45_loss two_flows [0%nat] [1%nat] s' 0 1 0); try exact T; try reflexivity; try discriminate; simpl; auto; try lia.
  intros [|[|i]] l H; inversion H; simpl; lia || (destruct i; discriminate).
Qed.
Example C45_first_applies : exists s' k, transform 0 (mkStore [[(None, VRaw (PNum (NS 20))); (Some 1%nat, VRaw (PNum (NS 5)))]] [ADict 0]) = Some s'
  /\ nth_error (s_attrs s') 0 = Some (ADict k) /\ nth_error (s_heap s') k = Some [(Some 1%nat, VSeries (PNum (NS 5))); (None, VSeries (PNum (NS 20)))].
Proof.
  destruct (transform 0 (mkStore [[(None, VRaw (PNum (NS 20))); (Some 1%nat, VRaw (PNum (NS 5)))]] [ADict 0])) as [s'|] eqn:T; [|discriminate].
  assert (ND : NoDup (map fst [(@None nat, PNum (NS 20)); (Some 1%nat, PNum (NS 5))])) by (repeat constructor; simpl; intuition discriminate).
  destruct (C45_first_transformation (EVDict [(None, PNum (NS 20)); (Some 1%nat, PNum (NS 5))]) (mkStore [] []) 0 s') as [k [A B]];
    [intros i l H; destruct i; discriminate|reflexivity|split; [exact ND|exact T]|discriminate|]. exists s', k. auto.
Qed.

(** Transformations never fail. *)
Theorem C45_total : forall is s, sound s -> (forall i, In i is -> (i < length (s_attrs s))%nat) -> exists s', transforms is s = Some s'.
Proof.
  induction is as [|i is IH]; intros s S L; cbn [transforms]; [eauto|].
  assert (X : exists s1, transform i s = Some s1).
  { unfold transform. destruct (nth_error (s_attrs s) i) as [[|v|l]|] eqn:E; eauto.
    - destruct (nth_error (s_heap s) l) eqn:F; eauto. apply nth_error_None in F. specialize (S _ _ E). lia.
    - apply nth_error_None in E. specialize (L i (or_introl eq_refl)). lia. }
  destruct X as [s1 E]. rewrite E. destruct (step_sound _ _ _ (transform_step _ _ _ E) S) as [S1 _]. apply IH; auto. intros j Hj. specialize (L j (or_intror Hj)).
  apply transform_step in E. destruct E as [_ ->|v _ ->|l d _ _ ->]; auto; cbn [s_attrs]; rewrite upd_length; auto.
Qed.
Print Assumptions C45_total.
