(** Labels as lists of words: the names of variables and equations of one model never meet those of another. *)
From Verif Require Import Base BaseFacts ResultFacts NameSpec.

Lemma words_ne : forall s, words s <> [].
Proof. induction s as [|c r IH]; simpl; [discriminate|]. destruct (Ascii.eqb c us); [discriminate|]. destruct (words r); discriminate. Qed.

Lemma words_sep : forall a b, words (String.append a (String us b)) = words a ++ words b.
Proof.
  induction a as [|c r IH]; intros b; [reflexivity|]. simpl. rewrite IH. destruct (Ascii.eqb c us); [reflexivity|].
  pose proof (words_ne r). destruct (words r); [congruence|reflexivity].
Qed.
Lemma append_nil : forall s, String.append s "" = s.
Proof. induction s; simpl; congruence. Qed.
Lemma words_us : forall a b, words (cat [a; "_"; b]) = words a ++ words b.
Proof. intros. simpl. rewrite append_nil. apply words_sep. Qed.
Lemma words_us2 : forall a b, words (cat [a; "__"; b]) = words a ++ ""%string :: words b.
Proof. intros. simpl. rewrite append_nil. rewrite words_sep. reflexivity. Qed.

Lemma words_inj : forall a b, words a = words b -> a = b.
Proof.
  induction a as [|c r IH]; intros [|d q] H; auto.
  - simpl in H. destruct (Ascii.eqb d us).
    + injection H as H. exfalso. revert H. apply not_eq_sym, words_ne.
    + pose proof (words_ne q). destruct (words q); [congruence|]. discriminate.
  - simpl in H. destruct (Ascii.eqb c us).
    + injection H as H. exfalso. exact (words_ne _ H).
    + pose proof (words_ne r). destruct (words r); [congruence|]. discriminate.
  - simpl in H. destruct (Ascii.eqb c us) eqn:C; destruct (Ascii.eqb d us) eqn:D.
    + injection H as H. apply Ascii.eqb_eq in C, D. subst. f_equal. auto.
    + pose proof (words_ne q). destruct (words q); [congruence|]. discriminate.
    + pose proof (words_ne r). destruct (words r); [congruence|]. discriminate.
    + pose proof (words_ne r). pose proof (words_ne q). destruct (words r) eqn:R; [congruence|]. destruct (words q) eqn:Q_; [congruence|].
      injection H as -> -> ->. f_equal. apply IH. congruence.
Qed.

(** ** Decimal numbers are words *)
Definition unders (s : string) : Prop := exists t, words s = [t] /\ (s <> ""%string -> t <> ""%string).
Lemma words_cons : forall c r, Ascii.eqb c us = false -> exists w ws, words r = w :: ws /\ words (String c r) = String c w :: ws.
Proof. intros c r H. simpl. rewrite H. pose proof (words_ne r). destruct (words r) as [|w ws]; [congruence|]. eauto. Qed.
Lemma nat_str_aux_words : forall k n acc, words acc = [acc] -> words (nat_str_aux k n acc) = [nat_str_aux k n acc]
  /\ (k <> 0%nat -> nat_str_aux k n acc <> ""%string) /\ (acc <> ""%string -> nat_str_aux k n acc <> ""%string).
Proof.
  induction k as [|k IH]; intros n acc H; [simpl; repeat split; auto|]. cbn [nat_str_aux].
  assert (D : exists c, String.append (digit (n mod 10)) acc = String c acc /\ Ascii.eqb c us = false).
  { unfold digit. destruct (n mod 10)%nat as [|[|[|[|[|[|[|[|[|?]]]]]]]]]; cbn; eexists; split; reflexivity. }
  destruct D as [c [-> E]].
  assert (W : words (String c acc) = [String c acc]).
  { destruct (words_cons c acc E) as [w [ws [A B]]]. rewrite H in A. injection A as <- <-. exact B. }
  destruct (Nat.ltb n 10).
  - repeat split; auto; discriminate.
  - destruct (IH (n / 10)%nat (String c acc) W) as [A [_ B]]. repeat split; auto; intros _; apply B; discriminate.
Qed.
Lemma nat_str_words : forall n, words (nat_str n) = [nat_str n] /\ nat_str n <> ""%string.
Proof. intros n. destruct (nat_str_aux_words (S n) n "" eq_refl) as [A [B _]]. split; [exact A|apply B; discriminate]. Qed.

(** ** Lists of words *)
Definition full_word (w : list string) : Prop := w <> [] /\ ~ In ""%string w.
Lemma tidy_word : forall s, tidy s -> full_word (words s).
Proof. intros s H. split; [apply words_ne|exact H]. Qed.

(** Neither list begins with the other. *)
Definition split_ (w w' : list string) : Prop := forall r r', w ++ r <> w' ++ r'.
Lemma split_sym : forall w w', split_ w w' -> split_ w' w.
Proof. intros w w' H r r' E. exact (H r' r (eq_sym E)). Qed.
Lemma app_prefix : forall {A} (a b c d : list A), a ++ b = c ++ d -> (exists k, c = a ++ k) \/ (exists k, a = c ++ k).
Proof.
  induction a as [|x a IH]; intros b c d H; [left; exists c; reflexivity|].
  destruct c as [|y c]; [right; exists (x :: a); reflexivity|]. simpl in H. injection H as -> H.
  destruct (IH _ _ _ H) as [[k ->]|[k ->]]; [left|right]; exists k; reflexivity.
Qed.
Lemma words_app : forall s a b, words s = a ++ b -> a <> [] -> b <> [] -> exists p q, words p = a /\ words q = b /\ s = cat [p; "_"; q].
Proof.
  induction s as [|c r IH]; intros a b H Na Nb.
  - simpl in H. destruct a as [|x [|y a]]; [congruence| |discriminate]. simpl in H. injection H as <- H. congruence.
  - simpl in H. destruct (Ascii.eqb c us) eqn:C.
    + apply Ascii.eqb_eq in C. subst c. destruct a as [|x a]; [congruence|]. injection H as <- H.
      destruct a as [|y a].
      * simpl in H. exists ""%string, r. repeat split; auto. simpl. rewrite append_nil. reflexivity.
      * destruct (IH _ _ H) as [p [q [A [B D]]]]; [discriminate|auto|]. exists (String us p), q. simpl. rewrite A. repeat split; auto. rewrite D. reflexivity.
    + pose proof (words_ne r). destruct (words r) as [|w ws] eqn:R; [congruence|]. destruct a as [|x a]; [congruence|]. injection H as <- H.
      destruct (IH (w :: a) b) as [p [q [A [B D]]]]; [simpl; rewrite H; reflexivity|discriminate|auto|].
      exists (String c p), q. simpl. rewrite C, A. repeat split; auto. rewrite D. reflexivity.
Qed.
Lemma unrelated_split : forall a b, unrelated a b -> split_ (words a) (words b).
Proof.
  intros a b [N [C D]] r r' E. destruct (app_prefix _ _ _ _ E) as [[k H]|[k H]].
  - destruct k as [|x k]; [rewrite app_nil_r in H; apply words_inj in H; congruence|].
    destruct (words_app _ _ _ H) as [p [q [A [B F]]]]; [apply words_ne|discriminate|]. apply words_inj in A. subst p. apply C. exists q. exact F.
  - destruct k as [|x k]; [rewrite app_nil_r in H; apply words_inj in H; congruence|].
    destruct (words_app _ _ _ H) as [p [q [A [B F]]]]; [apply words_ne|discriminate|]. apply words_inj in A. subst p. apply D. exists q. exact F.
Qed.
Lemma split_head : forall a b w w', a <> b -> split_ (a :: w) (b :: w').
Proof. intros a b w w' H r r' E. simpl in E. congruence. Qed.
Lemma split_app : forall p w w', split_ w w' -> split_ (p ++ w) (p ++ w').
Proof. intros p w w' H r r' E. rewrite <- !app_assoc in E. apply app_inv_head in E. exact (H _ _ E). Qed.
Lemma split_more : forall w w' a b, split_ w w' -> split_ (w ++ a) (w' ++ b).
Proof. intros w w' a b H r r' E. rewrite <- !app_assoc in E. exact (H _ _ E). Qed.

(** ** Names of one model and of the models below it *)

(** A name of the model with words [P] itself, and a name of the model [w] below it. *)
Definition own (P : list string) (s : string) : Prop := exists a r, words s = P ++ a :: r /\ a <> ""%string.
Definition beneath (P w : list string) (s : string) : Prop := exists r, words s = P ++ ""%string :: w ++ r.

Record covers (P : list string) (o : bool) (ws : list (list string)) (ns : list string) : Prop := {
  cv_nodup : NoDup ns;
  cv_in : forall s, In s ns -> (o = true /\ own P s) \/ exists w, In w ws /\ beneath P w s
}.
Definition apart (ws ws' : list (list string)) : Prop := forall w w', In w ws -> In w' ws' -> split_ w w'.

Lemma covers_nil : forall P o ws, covers P o ws [].
Proof. intros. split; [constructor|intros s []]. Qed.
Lemma NoDup_app_ : forall {A} (l m : list A), NoDup l -> NoDup m -> (forall a, In a l -> ~ In a m) -> NoDup (l ++ m).
Proof.
  induction l as [|a l IH]; intros m L M D; simpl; auto. inversion L; subst. constructor.
  - rewrite in_app_iff. intros [X|X]; [auto|]. exact (D a (or_introl eq_refl) X).
  - apply IH; auto. intros b Hb. apply D. right. exact Hb.
Qed.
Lemma covers_app : forall P o o' ws ws' n n', covers P o ws n -> covers P o' ws' n' -> (o && o')%bool = false -> apart ws ws' ->
  covers P (o || o') (ws ++ ws') (n ++ n').
Proof.
  intros P o o' ws ws' n n' [A B] [C D] O AP. split.
  - apply NoDup_app_; auto. intros s H H'. destruct (B _ H) as [[-> [a [r [E N]]]]|[w [W [r E]]]]; destruct (D _ H') as [[-> [a' [r' [E' N']]]]|[w' [W' [r' E']]]].
    + discriminate.
    + rewrite E in E'. apply app_inv_head in E'. congruence.
    + rewrite E in E'. apply app_inv_head in E'. congruence.
    + rewrite E in E'. apply app_inv_head in E'. injection E' as E'. exact (AP _ _ W W' _ _ E').
  - intros s H. apply in_app_or in H. destruct H as [H|H].
    + destruct (B _ H) as [[-> X]|[w [W X]]]; [left; auto|right; exists w; split; auto; apply in_or_app; auto].
    + destruct (D _ H) as [[-> X]|[w [W X]]]; [left; split; auto; apply orb_true_r|right; exists w; split; auto; apply in_or_app; auto].
Qed.
Lemma covers_more : forall P o o' ws ws' n, covers P o ws n -> (o = true -> o' = true) -> incl ws ws' -> covers P o' ws' n.
Proof. intros P o o' ws ws' n [A B] O I. split; auto. intros s H. destruct (B _ H) as [[X Y]|[w [W X]]]; [left; auto|right; exists w; auto]. Qed.
Lemma covers_nest : forall P w o ws n, covers (P ++ ""%string :: w) o ws n -> covers P false [w] n.
Proof.
  intros P w o ws n [A B]. split; auto. intros s H. right. exists w. split; [left; auto|].
  destruct (B _ H) as [[_ [a [r [E _]]]]|[w' [_ [r E]]]]; rewrite <- app_assoc in E; simpl in E; eexists; exact E.
Qed.
Lemma covers_short : forall P w r n, covers P false [w ++ r] n -> covers P false [w] n.
Proof.
  intros P w r n [A B]. split; auto. intros s H. right. exists w. split; [left; auto|].
  destruct (B _ H) as [[X _]|[w' [[<-|[]] [q E]]]]; [discriminate|]. rewrite <- app_assoc in E. eexists; exact E.
Qed.
Lemma covers_own : forall P m l, words m = P -> NoDup l -> (forall x, In x l -> hd ""%string (words x) <> ""%string) ->
  covers P true [] (map (fun x => cat [m; "_"; x]) l).
Proof.
  intros P m l <- N H. split.
  - clear H. induction N as [|x l X N IH]; cbn [map]; constructor; auto. intros I. apply in_map_iff in I. destruct I as [y [E Y]].
    apply (f_equal words) in E. rewrite !words_us in E. apply app_inv_head, words_inj in E. congruence.
  - intros s I. apply in_map_iff in I. destruct I as [x [<- X]]. left. split; auto. specialize (H _ X). unfold own. rewrite (words_us m x).
    pose proof (words_ne x). destruct (words x) as [|a r] eqn:E; [congruence|]. exists a, r. split; [reflexivity|exact H].
Qed.
Lemma covers_perm : forall P o ws n n', Permutation n n' -> covers P o ws n -> covers P o ws n'.
Proof.
  intros P o ws n n' E [A B]. split; [exact (Permutation_NoDup E A)|]. intros s H. apply B. exact (Permutation_in _ (Permutation_sym E) H).
Qed.

Lemma apart_cons : forall w ws ws', (forall w', In w' ws' -> split_ w w') -> apart ws ws' -> apart (w :: ws) ws'.
Proof. intros w ws ws' A B v v' [<-|V] V'; auto. Qed.
Lemma apart_nil : forall ws, apart [] ws.
Proof. intros ws v v' []. Qed.
Lemma apart_nil_r : forall ws, apart ws [].
Proof. intros ws v v' _ []. Qed.
Lemma apart_sym : forall a b, apart a b -> apart b a.
Proof. intros a b H w w' W W'. apply split_sym. exact (H _ _ W' W). Qed.
