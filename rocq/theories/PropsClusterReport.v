(** Claim C100: the report on a clustering names every step exactly once, with the cluster it belongs to; it can be asked for again; and the comparison of original and aggregated data
    and the heat maps show what they are given. *)
From Coq Require Import Ascii String Lia Lqa.
From Verif Require Import Base BaseFacts MathModel Structure Params Features Elements System Aggregation Tables Plotting PlotOps ClusterReport NameFacts ResultFacts PropsAggregation.

(** ** Specification *)

(** The steps from [a] to [b], as written in the report. *)
Definition shown (a b : nat) : string := (nat_str a ++ "..." ++ nat_str b)%string.
(** The report says that the steps from [a] to [b] are a period of cluster [k]. *)
Definition says (d : list (nat * list string)) (k a b : nat) : Prop := exists l, In (k, l) d /\ In (shown a b) l.
(** All periods begin before the end of the data. *)
Definition fitting (cl : clustering) : Prop := forall p, (p < length (cl_order cl))%nat -> (0 < cl_period cl)%nat /\ (p * cl_period cl < cl_total cl)%nat.

(** The cell in row [i] and column [j] of a table. *)
Definition cell_at (g : grid) (i j : nat) (v : option Q) : Prop := exists col, nth_error (gr_data g) j = Some col /\ nth_error col i = Some v.
Definition rectangular (g : grid) : Prop := length (gr_data g) = length (gr_cols g) /\ forall col, In col (gr_data g) -> length col = length (gr_rows g).

(** ** Facts *)
Fixpoint no_dot (s : string) : bool := match s with EmptyString => true | String c r => (negb (Ascii.eqb c "."%char) && no_dot r)%bool end.
Lemma no_dot_app : forall a b, no_dot (a ++ b) = (no_dot a && no_dot b)%bool.
Proof. induction a as [|c a IH]; intros b; [reflexivity|]. cbn [String.append no_dot]. rewrite IH. apply Bool.andb_assoc. Qed.
Lemma digit_no_dot : forall n, no_dot (digit n) = true.
Proof. intros n. do 10 (destruct n as [|n]; [reflexivity|]). reflexivity. Qed.
Lemma aux_no_dot : forall fuel n acc, no_dot acc = true -> no_dot (nat_str_aux fuel n acc) = true.
Proof.
  induction fuel as [|k IH]; intros n acc H; [exact H|]. cbn [nat_str_aux]. assert (H' : no_dot (digit (n mod 10) ++ acc) = true) by (rewrite no_dot_app, digit_no_dot; exact H).
  destruct (Nat.ltb n 10); [exact H'|apply IH, H'].
Qed.
Lemma str_no_dot : forall n, no_dot (nat_str n) = true. Proof. intros n. apply aux_no_dot. reflexivity. Qed.
Lemma dot_split : forall a a' r r', no_dot a = true -> no_dot a' = true -> (a ++ String "." r)%string = (a' ++ String "." r')%string -> a = a' /\ r = r'.
Proof.
  induction a as [|c a IH]; intros [|c' a'] r r' N N' E; cbn [String.append] in E.
  - injection E as <-. auto.
  - injection E as <- _. discriminate N'.
  - injection E as -> _. discriminate N.
  - injection E as <- E. cbn [no_dot] in N, N'. apply Bool.andb_true_iff in N. apply Bool.andb_true_iff in N'. destruct (IH a' r r' (proj2 N) (proj2 N') E) as [-> ->]. auto.
Qed.
Lemma shown_inj : forall a b a' b', shown a b = shown a' b' -> a = a' /\ b = b'.
Proof.
  intros a b a' b' E. unfold shown in E. cbn [String.append] in E. destruct (dot_split _ _ _ _ (str_no_dot a) (str_no_dot a') E) as [E1 E2]. injection E2 as E2. split; apply nat_str_inj; assumption.
Qed.
Lemma mapM_nth : forall {A B} (f : A -> res B) l r, mapM f l = Ok r -> forall b, In b r <-> exists a, In a l /\ f a = Ok b.
Proof.
  intros A B f l. induction l as [|a l IH]; intros r H b; cbn [mapM] in H; [injection H as <-; split; [intros []|intros [a [[] _]]]|].
  destruct (f a) as [y|] eqn:E; [|discriminate H]. cbn [bind] in H. destruct (mapM f l) as [ys|] eqn:E2; [|discriminate H]. cbn [bind] in H. injection H as <-. split.
  - intros [<-|Hb]; [exists a; split; [left; reflexivity|exact E]|]. destruct (proj1 (IH ys eq_refl b) Hb) as [a' [Ha' Ea']]. exists a'. split; [right; exact Ha'|exact Ea'].
  - intros [a' [[<-|Ha'] Ea']]; [left; congruence|right; apply (IH ys eq_refl); exists a'; auto].
Qed.
Lemma mapM_all : forall {A B} (f : A -> res B) l, (exists r, mapM f l = Ok r) <-> forall a, In a l -> exists b, f a = Ok b.
Proof.
  intros A B f l. induction l as [|a l IH]; cbn [mapM].
  - split; [intros _ a []|intros _; eauto].
  - split.
    + intros [r H]. destruct (f a) as [y|] eqn:E; [|discriminate H]. cbn [bind] in H. destruct (mapM f l) as [ys|] eqn:E2; [|discriminate H]. intros a' [<-|Ha']; [eauto|]. apply (proj1 IH); eauto.
    + intros H. destruct (H a (or_introl eq_refl)) as [y ->]. cbn [bind]. destruct (proj2 IH) as [ys ->]; [intros a' Ha'; apply H; right; exact Ha'|]. cbn [bind]. eauto.
Qed.
Lemma last_seq : forall n a d, List.last (seq a (S n)) d = (a + n)%nat.
Proof. induction n as [|n IH]; intros a d; [cbn; lia|]. change (seq a (S (S n))) with (a :: seq (S a) (S n)). change (List.last (a :: seq (S a) (S n)) d) with (List.last (seq (S a) (S n)) d). rewrite IH. lia. Qed.
Lemma vector_shown : forall cl p s, vector_text (index_vector cl p) = Ok s <->
  (0 < cl_period cl)%nat /\ (p * cl_period cl < cl_total cl)%nat /\ s = shown (p * cl_period cl) (Nat.min (p * cl_period cl + cl_period cl) (cl_total cl) - 1).
Proof.
  intros cl p s. unfold index_vector. set (a := (p * cl_period cl)%nat). destruct (Nat.min (a + cl_period cl) (cl_total cl) - a)%nat as [|m] eqn:E.
  - cbn. split; [discriminate|]. intros [H1 [H2 _]]. lia.
  - change (vector_text (seq a (S m))) with (@Ok string (cat [nat_str a; "..."; nat_str (List.last (seq a (S m)) 0%nat)])). rewrite last_seq. unfold cat. cbn [fold_right]. rewrite append_nil.
    replace (Nat.min (a + cl_period cl) (cl_total cl) - 1)%nat with (a + m)%nat by lia. unfold shown. split.
    + intros H. injection H as <-. repeat split; lia.
    + intros [_ [_ ->]]. reflexivity.
Qed.

Lemma texts_are : forall cl d, NoDup (cl_ids cl) -> cluster_texts cl = Ok d -> incl (cl_order cl) (cl_ids cl) /\ map fst d = cl_ids cl
  /\ forall k l, In (k, l) d <-> In k (cl_ids cl) /\ mapM vector_text (map (index_vector cl) (periods (cl_order cl) 0 k)) = Ok l.
Proof.
  intros cl d ND H. unfold cluster_texts in H. destruct (cluster_indices cl) as [v|] eqn:D; [|discriminate H]. cbn [bind] in H. unfold cluster_indices in D. apply (cluster_fold _ _ ND _ _ (fun _ => [])) in D. destruct D as [-> IN].
  split; [exact IN|]. cbn [app] in H. split.
  - clear IN. revert d H. generalize (cl_ids cl) as ids. induction ids as [|i ids IH]; intros d H; cbn [map mapM] in H; [injection H as <-; reflexivity|]. cbn [fst snd] in H. destruct (mapM vector_text (map (index_vector cl) (periods (cl_order cl) 0 i))) as [l|]; [|discriminate H]. cbn [bind] in H.
    match type of H with bind ?X _ = _ => destruct X as [r|] eqn:R; [|discriminate H] end. cbn [bind] in H. injection H as <-. cbn [map fst]. f_equal. apply IH. reflexivity.
  - intros k l. rewrite (mapM_nth _ _ _ H (k, l)). split.
    + intros [[k' v] [Hv E]]. apply in_map_iff in Hv. destruct Hv as [i [Z Hi]]. injection Z as <- <-. cbn [fst snd] in E. destruct (mapM vector_text _) as [l'|] eqn:M; [|discriminate E]. cbn [bind] in E. injection E as <- <-. split; [exact Hi|exact M].
    + intros [Hk M]. exists (k, map (index_vector cl) (periods (cl_order cl) 0 k)). split; [apply in_map_iff; exists k; auto|]. cbn [fst snd]. rewrite M. reflexivity.
Qed.
Lemma says_iff : forall cl d, NoDup (cl_ids cl) -> cluster_texts cl = Ok d -> forall k a b, says d k a b <->
  exists p, nth_error (cl_order cl) p = Some k /\ (0 < cl_period cl)%nat /\ (p * cl_period cl < cl_total cl)%nat /\ a = (p * cl_period cl)%nat /\ b = (Nat.min (p * cl_period cl + cl_period cl) (cl_total cl) - 1)%nat.
Proof.
  intros cl d ND H k a b. destruct (texts_are cl d ND H) as [IN [_ T]]. split.
  - intros [l [Hl Hs]]. apply T in Hl. destruct Hl as [Hk M]. apply (mapM_nth _ _ _ M) in Hs. destruct Hs as [v [Hv Ev]]. apply in_map_iff in Hv. destruct Hv as [p [<- Hp]]. apply periods_In in Hp. destruct Hp as [_ Hp]. rewrite Nat.sub_0_r in Hp.
    apply vector_shown in Ev. destruct Ev as [E1 [E2 E3]]. apply shown_inj in E3. destruct E3 as [-> ->]. exists p. auto.
  - intros [p [Hp [L [B [-> ->]]]]]. assert (Hk : In k (cl_ids cl)) by (apply IN; exact (nth_error_In _ _ Hp)).
    assert (HM : exists l, mapM vector_text (map (index_vector cl) (periods (cl_order cl) 0 k)) = Ok l).
    { rewrite <- (proj1 (proj2 (texts_are cl d ND H))) in Hk. apply in_map_iff in Hk. destruct Hk as [[k' l] [E Hl]]. cbn in E. subst k'. apply T in Hl. exists l. apply Hl. }
    destruct HM as [l M]. exists l. split; [apply T; auto|]. apply (mapM_nth _ _ _ M). exists (index_vector cl p). split; [apply in_map, periods_In; rewrite Nat.sub_0_r; split; [lia|exact Hp]|]. apply vector_shown. auto.
Qed.

(** ** C100 *)

(** The report has an entry for each cluster, and it says of every step exactly once to which cluster it belongs. *)
Theorem C100_once : forall cl d t, NoDup (cl_ids cl) -> cluster_texts cl = Ok d -> (0 < cl_period cl)%nat -> (t < cl_total cl)%nat -> (t < length (cl_order cl) * cl_period cl)%nat ->
  map fst d = cl_ids cl /\ exists k a b, cluster_of cl t = Some k /\ (a <= t <= b)%nat /\ says d k a b /\ forall k' a' b', says d k' a' b' -> (a' <= t <= b')%nat -> k' = k /\ a' = a /\ b' = b.
Proof.
  intros cl d t ND H L T1 T2. split; [apply (texts_are cl d ND H)|]. set (p := (t / cl_period cl)%nat). assert (P1 : (p * cl_period cl <= t < p * cl_period cl + cl_period cl)%nat).
  { pose proof (Nat.div_mod t (cl_period cl) ltac:(lia)) as Q. pose proof (Nat.mod_upper_bound t (cl_period cl) ltac:(lia)). fold p in Q. nia. }
  assert (P2 : (p < length (cl_order cl))%nat) by (apply Nat.div_lt_upper_bound; lia). destruct (nth_error (cl_order cl) p) as [k|] eqn:E; [|apply nth_error_None in E; lia].
  exists k, (p * cl_period cl)%nat, (Nat.min (p * cl_period cl + cl_period cl) (cl_total cl) - 1)%nat. split; [exact E|]. split; [lia|]. split.
  - apply (says_iff cl d ND H). exists p. repeat split; auto. lia.
  - intros k' a' b' S HT. apply (says_iff cl d ND H) in S. destruct S as [p' [E' [_ [B' [-> ->]]]]]. assert (p' = p) by nia. subst p'. split; [congruence|auto].
Qed.
Print Assumptions C100_once.

(** What it says is true: the steps it names are a period of the cluster. *)
Theorem C100_true : forall cl d k a b, NoDup (cl_ids cl) -> cluster_texts cl = Ok d -> says d k a b -> (a <= b < cl_total cl)%nat /\ forall t, (a <= t <= b)%nat -> cluster_of cl t = Some k.
Proof.
  intros cl d k a b ND H S. apply (says_iff cl d ND H) in S. destruct S as [p [E [L [B [-> ->]]]]]. split; [lia|]. intros t Ht. unfold cluster_of. rewrite <- E. f_equal. symmetry. apply (Nat.div_unique _ _ _ (t - p * cl_period cl)); nia.
Qed.
Print Assumptions C100_true.

(** There is a report exactly if tsam's clusters are the ones it has named and every period begins before the end of the data. *)
Theorem C100_reported : forall cl, NoDup (cl_ids cl) -> ((exists d, cluster_texts cl = Ok d) <-> incl (cl_order cl) (cl_ids cl) /\ fitting cl).
Proof.
  intros cl ND. split.
  - intros [d H]. destruct (texts_are cl d ND H) as [IN [MF T]]. split; [exact IN|]. intros p Hp. destruct (nth_error (cl_order cl) p) as [k|] eqn:E; [|apply nth_error_None in E; lia].
    assert (Hk : In k (map fst d)) by (rewrite MF; apply IN; exact (nth_error_In _ _ E)). apply in_map_iff in Hk. destruct Hk as [[k' l] [Z Hl]]. cbn in Z. subst k'. apply T in Hl. destruct Hl as [_ M].
    destruct (proj1 (mapM_all vector_text _) (ex_intro _ l M) (index_vector cl p)) as [s Es]; [apply in_map, periods_In; rewrite Nat.sub_0_r; split; [lia|exact E]|]. apply vector_shown in Es. tauto.
  - intros [IN F]. unfold cluster_texts, cluster_indices. destruct (cluster_fold_ok cl _ ND (cl_order cl) 0%nat (fun _ => []) IN) as [v D]. rewrite D. cbn [bind]. apply (cluster_fold _ _ ND _ _ (fun _ => [])) in D. destruct D as [-> _]. apply mapM_all.
    intros [k v] Hv. apply in_map_iff in Hv. destruct Hv as [i [Z Hi]]. injection Z as <- <-. cbn [fst snd app]. destruct (proj2 (mapM_all vector_text (map (index_vector cl) (periods (cl_order cl) 0 i)))) as [l ->]; [|cbn [bind]; eauto].
    intros w Hw. apply in_map_iff in Hw. destruct Hw as [p [<- Hp]]. apply periods_In in Hp. destruct Hp as [_ Hp]. rewrite Nat.sub_0_r in Hp. destruct (F p) as [F1 F2]; [apply nth_error_Some; congruence|]. eexists. apply vector_shown. repeat split; auto.
Qed.
Print Assumptions C100_reported.

(** A day, a half day and a quarter: eleven steps in periods of four; the last period is shorter. *)
Definition cl_eleven : clustering := mkClustering [0; 1]%nat [0; 1; 0]%nat 4 11.
Example C100_applies : NoDup (cl_ids cl_eleven) /\ incl (cl_order cl_eleven) (cl_ids cl_eleven) /\ fitting cl_eleven /\ cluster_texts cl_eleven = Ok [(0%nat, ["0...3"; "8...10"]); (1%nat, ["4...7"])].
Proof.
  split; [repeat constructor; cbn; intuition discriminate|]. split; [intros x Hx; cbn in *; intuition|]. split; [|vm_compute; reflexivity].
  intros p Hp. cbn in *. lia.
Qed.

(** *** The report can be asked for again *)
Definition report_again : Prop := forall (A : Type) cl high low (known known' : list (string * period_info A)) t e, describe_clusters cl high low known = Ok (t, e, known') -> exists known'', describe_clusters cl high low known' = Ok (t, e, known'').
(** A first report deletes what a second one wants to leave out. *)
Theorem C100_again_refuted : ~ report_again.
Proof.
  intros H. destruct (H nat cl_eleven ["Heat"] [] [("Heat max.", [("stepNo", 1%nat); ("profile", 2%nat)])] [("Heat max.", [("stepNo", 1%nat)])] [(0%nat, ["0...3"; "8...10"]); (1%nat, ["4...7"])] [("Heat max.", [("stepNo", 1%nat)])] eq_refl) as [k E]. discriminate E.
Qed.
Print Assumptions C100_again_refuted.
(** In fact no second report succeeds once there are extreme periods; without peaks it is the same as the first. *)
Theorem C100_again_partial : forall (A : Type) cl high low (known known' : list (string * period_info A)) t e, describe_clusters cl high low known = Ok (t, e, known') ->
  (high = [] /\ low = [] -> describe_clusters cl high low known' = Ok (t, e, known')) /\ (~ (high = [] /\ low = []) -> known <> [] -> describe_clusters cl high low known' = Err KeyError).
Proof.
  intros A cl high low known known' t e H. unfold describe_clusters in *. destruct (cluster_texts cl) as [t'|]; [|discriminate H]. cbn [bind] in *. split.
  - intros [-> ->]. cbn in *. injection H as <- <- <-. reflexivity.
  - intros NE KN. unfold reported_extremes in *. assert (U : use_extreme_periods high low = true) by (destruct high; [destruct low; [exfalso; apply NE; auto|reflexivity]|reflexivity]). rewrite U in *.
    destruct known as [|[n d] known]; [contradiction|]. cbn [mapM fst snd] in H. unfold without_profile at 1 in H. destruct (existsb (fun e => String.eqb (fst e) "profile") d) eqn:EX; cbn [guard bind] in H; [|discriminate H].
    match type of H with context [mapM ?f known] => destruct (mapM f known) as [r|] eqn:R end; cbn [bind] in H; [|discriminate H]. injection H as <- <- <-. cbn [mapM fst snd]. unfold without_profile at 1.
    assert (NO : existsb (fun e : string * A => String.eqb (fst e) "profile") (filter (fun e => negb (String.eqb (fst e) "profile")) d) = false).
    { clear. induction d as [|[n a] d IH]; [reflexivity|]. cbn [filter fst]. destruct (String.eqb n "profile") eqn:E; cbn [negb]; [exact IH|]. cbn [existsb fst]. rewrite E. exact IH. }
    rewrite NO. reflexivity.
Qed.
Print Assumptions C100_again_partial.
Example C100_again_applies : describe_clusters cl_eleven [] [] [("Heat max.", [("profile", 2%nat)])] = Ok ([(0%nat, ["0...3"; "8...10"]); (1%nat, ["4...7"])], [], [("Heat max.", [("profile", 2%nat)])])
  /\ describe_clusters cl_eleven [] ["Heat"] [("Heat min.", [("profile", 2%nat); ("column", 3%nat)])] = Ok ([(0%nat, ["0...3"; "8...10"]); (1%nat, ["4...7"])], [("Heat min.", [("column", 3%nat)])], [("Heat min.", [("column", 3%nat)])]).
Proof. split; vm_compute; reflexivity. Qed.

(** *** The comparison of original and aggregated data *)
Lemma scale_length : forall {C} (colour : nat -> nat -> C) n, (0 < n)%nat -> (if Nat.ltb 1 n then map (fun i => colour i n) (seq 0 n) else [colour 0%nat n]) = map (fun i => colour i n) (seq 0 n).
Proof. intros C colour n H. destruct (Nat.ltb_spec 1 n); [reflexivity|]. assert (n = 1%nat) by lia. subst n. reflexivity. Qed.
Lemma steps_drawn : forall {C} (fm : frame) (colour : nat -> nat -> C), empty_frame fm = false ->
  with_plotly fm "line" (Scale colour) = Ok (Steps (fm_index fm) (combine (fm_columns fm) (map (fun i => colour i (length (fm_columns fm))) (seq 0 (length (fm_columns fm)))))).
Proof.
  intros C fm colour E. unfold with_plotly. cbn [existsb String.eqb guard bind]. assert (N : (0 < length (fm_columns fm))%nat).
  { unfold empty_frame in E. apply Bool.orb_false_iff in E. destruct E as [E _]. apply Nat.eqb_neq in E. lia. }
  change (existsb (String.eqb "line") ["bar"; "line"; "area"]) with true. cbn [guard bind]. rewrite E, (scale_length colour _ N), map_length, seq_length, Nat.eqb_refl. reflexivity.
Qed.
Lemma nth_combine : forall {A B} (l : list A) (l' : list B) i x, nth_error (combine l l') i = Some x <-> nth_error l i = Some (fst x) /\ nth_error l' i = Some (snd x).
Proof.
  intros A B l. induction l as [|a l IH]; intros [|b l'] [|i] [x y]; cbn [combine nth_error fst snd]; try (split; [discriminate|intros [? ?]; discriminate]).
  - split; [intros H; injection H as -> ->; auto|intros [H1 H2]; injection H1 as ->; injection H2 as ->; reflexivity].
  - apply (IH l' i (x, y)).
Qed.
Lemma nth_seq : forall n a i, nth_error (seq a n) i = if Nat.ltb i n then Some (a + i)%nat else None.
Proof.
  induction n as [|n IH]; intros a i; [destruct i; reflexivity|]. destruct i as [|i]; cbn [seq nth_error]; [rewrite Nat.add_0_r; reflexivity|]. rewrite IH. replace (S a + i)%nat with (a + S i)%nat by lia. reflexivity.
Qed.
(** For every column a dashed line with the original values and a full one with the aggregated values, under their own names; columns at the same place have the same colour. *)
Theorem C100_compared : forall {C} original aggregated (colour : nat -> nat -> C), empty_frame original = false -> empty_frame aggregated = false ->
  exists l, plot_aggregation original aggregated colour = Ok l /\ length l = (length (fm_columns original) + length (fm_columns aggregated))%nat
  /\ (forall i c v, nth_error (fm_columns original) i = Some (c, v) -> nth_error l i = Some (mkLine ("Original - " ++ c) v (colour i (length (fm_columns original))) true))
  /\ (forall i c v, nth_error (fm_columns aggregated) i = Some (c, v) -> nth_error l (length (fm_columns original) + i) = Some (mkLine ("Aggregated - " ++ c) v (colour i (length (fm_columns aggregated))) false)).
Proof.
  intros C o a colour Eo Ea. unfold plot_aggregation.
  assert (R : forall s fm, empty_frame (renamed s fm) = empty_frame fm) by (intros s fm; unfold empty_frame; cbn; rewrite map_length; reflexivity).
  rewrite (steps_drawn (renamed "Original - " o) colour), (steps_drawn (renamed "Aggregated - " a) colour) by (rewrite R; assumption). cbn [bind]. cbn [lines_of renamed fm_columns fm_index]. rewrite !map_length.
  set (L := fun (s : string) (d : bool) (fm : frame) => map (fun t : string * list Q * C => mkLine (fst (fst t)) (snd (fst t)) (snd t) d) (combine (map (fun c => (cat [s; fst c], snd c)) (fm_columns fm)) (map (fun i => colour i (length (fm_columns fm))) (seq 0 (length (fm_columns fm)))))).
  assert (LL : forall s d fm, length (L s d fm) = length (fm_columns fm)) by (intros s d fm; unfold L; rewrite map_length, combine_length, !map_length, seq_length; lia).
  assert (LN : forall s d fm i c v, nth_error (fm_columns fm) i = Some (c, v) -> nth_error (L s d fm) i = Some (mkLine (s ++ c) v (colour i (length (fm_columns fm))) d)).
  { intros s d fm i c v H. unfold L. assert (Hi : (i < length (fm_columns fm))%nat) by (apply nth_error_Some; congruence).
    assert (E : nth_error (combine (map (fun c => (cat [s; fst c], snd c)) (fm_columns fm)) (map (fun i => colour i (length (fm_columns fm))) (seq 0 (length (fm_columns fm))))) i = Some ((s ++ c)%string, v, colour i (length (fm_columns fm)))).
    { apply nth_combine. cbn [fst snd]. rewrite !nth_error_map, H, nth_seq. apply Nat.ltb_lt in Hi. rewrite Hi. cbn. rewrite append_nil. split; reflexivity. }
    rewrite nth_error_map, E. reflexivity. }
  exists (L "Original - " true o ++ L "Aggregated - " false a)%list. split; [reflexivity|]. split; [rewrite app_length, !LL; reflexivity|]. split.
  - intros i c v H. rewrite nth_error_app1; [apply LN, H|]. rewrite LL. apply nth_error_Some. congruence.
  - intros i c v H. rewrite nth_error_app2; rewrite LL; [|lia]. replace (length (fm_columns o) + i - length (fm_columns o))%nat with i by lia. apply LN, H.
Qed.
Print Assumptions C100_compared.
Example C100_compared_applies : let o := mkFrame [("Heat", [1; 2; 3]); ("Power", [4; 5; 6])] [0; 1; 2] in let a := mkFrame [("Heat", [2; 2; 2]); ("Power", [5; 5; 5])] [0; 1; 2] in
  empty_frame o = false /\ empty_frame a = false /\ plot_aggregation o a (fun i n => i) = Ok [mkLine "Original - Heat" [1; 2; 3] 0%nat true; mkLine "Original - Power" [4; 5; 6] 1%nat true; mkLine "Aggregated - Heat" [2; 2; 2] 0%nat false; mkLine "Aggregated - Power" [5; 5; 5] 1%nat false].
Proof. cbn. repeat split. Qed.

(** An empty aggregated table leaves an empty figure, whatever the original; with an empty original the aggregated lines are drawn alone. *)
Theorem C100_compared_empty : forall {C} original aggregated (colour : nat -> nat -> C),
  (empty_frame aggregated = true -> plot_aggregation original aggregated colour = Ok [])
  /\ (empty_frame original = true -> empty_frame aggregated = false -> exists l, plot_aggregation original aggregated colour = Ok l /\ length l = length (fm_columns aggregated)
      /\ forall i c v, nth_error (fm_columns aggregated) i = Some (c, v) -> nth_error l i = Some (mkLine ("Aggregated - " ++ c) v (colour i (length (fm_columns aggregated))) false)).
Proof.
  intros C o a colour.
  assert (R : forall s fm, empty_frame (renamed s fm) = empty_frame fm) by (intros s fm; unfold empty_frame; cbn; rewrite map_length; reflexivity).
  assert (B : forall fm, empty_frame fm = true -> with_plotly fm "line" (Scale colour) = Ok Blank) by (intros fm H; unfold with_plotly; cbn; rewrite H; reflexivity).
  split.
  - intros Ea. unfold plot_aggregation. rewrite (B (renamed "Aggregated - " a)) by (rewrite R; exact Ea).
    destruct (empty_frame o) eqn:Eo; [rewrite (B (renamed "Original - " o)) by (rewrite R; exact Eo)|rewrite (steps_drawn (renamed "Original - " o) colour) by (rewrite R; exact Eo)]; reflexivity.
  - intros Eo Ea. unfold plot_aggregation. rewrite (B (renamed "Original - " o)) by (rewrite R; exact Eo). rewrite (steps_drawn (renamed "Aggregated - " a) colour) by (rewrite R; exact Ea).
    cbn [bind lines_of app renamed fm_columns fm_index]. rewrite !map_length. eexists. split; [reflexivity|]. split; [rewrite map_length, combine_length, !map_length, seq_length; lia|].
    intros i c v H. assert (Hi : (i < length (fm_columns a))%nat) by (apply nth_error_Some; congruence).
    assert (E : nth_error (combine (map (fun c => (cat ["Aggregated - "; fst c], snd c)) (fm_columns a)) (map (fun i => colour i (length (fm_columns a))) (seq 0 (length (fm_columns a))))) i = Some (("Aggregated - " ++ c)%string, v, colour i (length (fm_columns a)))).
    { apply nth_combine. cbn [fst snd]. rewrite !nth_error_map, H, nth_seq. apply Nat.ltb_lt in Hi. rewrite Hi. cbn. rewrite append_nil. split; reflexivity. }
    rewrite nth_error_map, E. reflexivity.
Qed.
Print Assumptions C100_compared_empty.
Example C100_compared_empty_applies : let o := mkFrame [("Heat", [1; 2; 3])] [0; 1; 2] in let e := mkFrame [] [0; 1; 2] in
  empty_frame e = true /\ empty_frame o = false /\ plot_aggregation o e (fun i n => i) = Ok [] /\ plot_aggregation e o (fun i n => i) = Ok [mkLine "Aggregated - Heat" [1; 2; 3] 0%nat false].
Proof. cbn. repeat split. Qed.

(** *** Heat maps *)
Lemma least_spec : forall l, match least_of l with None => forall v, ~ In (Some v) l | Some m => In (Some m) l /\ forall v, In (Some v) l -> m <= v end.
Proof.
  induction l as [|[p|] l IH]; cbn [least_of fold_right]; [intros v []| |]; fold (least_of l) in *.
  - destruct (least_of l) as [q|].
    + destruct (Qle_bool p q) eqn:E; [apply Qle_bool_iff in E|assert (q < p) by (apply Qnot_le_lt; intros Z; apply Qle_bool_iff in Z; congruence)].
      * split; [left; reflexivity|]. intros v [Z|Hv]; [injection Z as <-; lra|]. pose proof (proj2 IH v Hv). lra.
      * split; [right; apply IH|]. intros v [Z|Hv]; [injection Z as <-; lra|apply IH, Hv].
    + split; [left; reflexivity|]. intros v [Z|Hv]; [injection Z as <-; lra|]. destruct (IH v Hv).
  - destruct (least_of l) as [q|].
    + split; [right; apply IH|]. intros v [Z|Hv]; [discriminate Z|apply IH, Hv].
    + intros v [Z|Hv]; [discriminate Z|exact (IH v Hv)].
Qed.
Lemma most_spec : forall l, match most_of l with None => forall v, ~ In (Some v) l | Some m => In (Some m) l /\ forall v, In (Some v) l -> v <= m end.
Proof.
  induction l as [|[p|] l IH]; cbn [most_of fold_right]; [intros v []| |]; fold (most_of l) in *.
  - destruct (most_of l) as [q|].
    + destruct (Qle_bool p q) eqn:E; [apply Qle_bool_iff in E|assert (q < p) by (apply Qnot_le_lt; intros Z; apply Qle_bool_iff in Z; congruence)].
      * split; [right; apply IH|]. intros v [Z|Hv]; [injection Z as <-; lra|apply IH, Hv].
      * split; [left; reflexivity|]. intros v [Z|Hv]; [injection Z as <-; lra|]. pose proof (proj2 IH v Hv). lra.
    + split; [left; reflexivity|]. intros v [Z|Hv]; [injection Z as <-; lra|]. destruct (IH v Hv).
  - destruct (most_of l) as [q|].
    + split; [right; apply IH|]. intros v [Z|Hv]; [discriminate Z|apply IH, Hv].
    + intros v [Z|Hv]; [discriminate Z|exact (IH v Hv)].
Qed.
Lemma cell_in : forall g v, (exists i j, cell_at g i j v) <-> exists col, In col (gr_data g) /\ In v col.
Proof.
  intros g v. split.
  - intros [i [j [col [H1 H2]]]]. exists col. split; eapply nth_error_In; eassumption.
  - intros [col [H1 H2]]. apply In_nth_error in H1. apply In_nth_error in H2. destruct H1 as [j H1]. destruct H2 as [i H2]. exists i, j, col. auto.
Qed.
(** The range of colours is that of the values: it begins at the least and ends at the greatest value of the table, and there is none if all cells are empty. *)
Theorem C100_range : forall g, match colour_range g with
  | (Some lo, Some hi) => (exists i j, cell_at g i j (Some lo)) /\ (exists i j, cell_at g i j (Some hi)) /\ forall i j v, cell_at g i j (Some v) -> lo <= v /\ v <= hi
  | (None, None) => forall i j v, ~ cell_at g i j (Some v)
  | _ => False
  end.
Proof.
  intros g. unfold colour_range. pose proof (least_spec (map least_of (gr_data g))) as L. pose proof (most_spec (map most_of (gr_data g))) as M.
  assert (LO : forall v col, In col (gr_data g) -> In (Some v) col -> exists m, In (Some m) (map least_of (gr_data g)) /\ m <= v).
  { intros v col Hc Hv. pose proof (least_spec col) as S. destruct (least_of col) as [m|] eqn:E; [|destruct (S v Hv)]. exists m. split; [apply in_map_iff; exists col; auto|apply S, Hv]. }
  assert (HI : forall v col, In col (gr_data g) -> In (Some v) col -> exists m, In (Some m) (map most_of (gr_data g)) /\ v <= m).
  { intros v col Hc Hv. pose proof (most_spec col) as S. destruct (most_of col) as [m|] eqn:E; [|destruct (S v Hv)]. exists m. split; [apply in_map_iff; exists col; auto|apply S, Hv]. }
  assert (LB : forall v, In (Some v) (map least_of (gr_data g)) -> exists col, In col (gr_data g) /\ In (Some v) col).
  { intros v H. apply in_map_iff in H. destruct H as [col [E Hc]]. exists col. split; [exact Hc|]. pose proof (least_spec col) as S. rewrite E in S. apply S. }
  assert (HB : forall v, In (Some v) (map most_of (gr_data g)) -> exists col, In col (gr_data g) /\ In (Some v) col).
  { intros v H. apply in_map_iff in H. destruct H as [col [E Hc]]. exists col. split; [exact Hc|]. pose proof (most_spec col) as S. rewrite E in S. apply S. }
  destruct (least_of (map least_of (gr_data g))) as [lo|]; destruct (most_of (map most_of (gr_data g))) as [hi|].
  - destruct L as [L1 L2]. destruct M as [M1 M2]. split; [apply cell_in, LB, L1|]. split; [apply cell_in, HB, M1|]. intros i j v H. destruct (proj1 (cell_in g (Some v)) (ex_intro _ i (ex_intro _ j H))) as [col [Hc Hv]].
    destruct (LO v col Hc Hv) as [a [A1 A2]]. destruct (HI v col Hc Hv) as [b [B1 B2]]. pose proof (L2 a A1). pose proof (M2 b B1). split; lra.
  - destruct L as [L1 _]. destruct (LB lo L1) as [col [Hc Hv]]. destruct (HI lo col Hc Hv) as [m [Hm _]]. exact (M m Hm).
  - destruct M as [M1 _]. destruct (HB hi M1) as [col [Hc Hv]]. destruct (LO hi col Hc Hv) as [m [Hm _]]. exact (L m Hm).
  - intros i j v H. destruct (proj1 (cell_in g (Some v)) (ex_intro _ i (ex_intro _ j H))) as [col [Hc Hv]]. destruct (LO v col Hc Hv) as [m [Hm _]]. exact (L m Hm).
Qed.
Print Assumptions C100_range.

Lemma num_le : forall a b, num a <= num b -> (a <= b)%nat. Proof. intros a b H. unfold num in H. rewrite <- Zle_Qle in H. lia. Qed.
Lemma num_S : forall a, num (S a) == num a + 1. Proof. intros a. unfold num. rewrite Nat2Z.inj_succ, <- Z.add_1_r, inject_Z_plus. reflexivity. Qed.
Lemma tick_at : forall labels x l, In (x, l) (ticks labels) <-> exists i, nth_error labels i = Some l /\ x = num i + (1 # 2).
Proof.
  intros labels x l. unfold ticks. split.
  - intros H. apply In_nth_error in H. destruct H as [i H]. apply nth_combine in H. destruct H as [H1 H2]. cbn [fst snd] in *. exists i. split; [exact H2|]. rewrite nth_error_map, nth_seq in H1. destruct (Nat.ltb i (length labels)); [|discriminate H1]. injection H1 as <-. reflexivity.
  - intros [i [H ->]]. apply (nth_error_In _ i). apply nth_combine. cbn [fst snd]. split; [|exact H]. rewrite nth_error_map, nth_seq. assert (Hi : (i < length labels)%nat) by (apply nth_error_Some; congruence). apply Nat.ltb_lt in Hi. rewrite Hi. reflexivity.
Qed.
Lemma in_between : forall labels i x l, In (x, l) (ticks labels) -> num i < x < num i + 1 -> nth_error labels i = Some l.
Proof.
  intros labels i x l H [B1 B2]. apply tick_at in H. destruct H as [m [H ->]]. replace i with m; [exact H|]. destruct (Nat.lt_trichotomy m i) as [Z|[Z|Z]]; [|exact Z|]; exfalso.
  - assert (num (S m) <= num i) by (unfold num; rewrite <- Zle_Qle; lia). rewrite num_S in H0. lra.
  - assert (num (S i) <= num m) by (unfold num; rewrite <- Zle_Qle; lia). rewrite num_S in H0. lra.
Qed.
Lemma drawn_at : forall g c, rectangular g -> In c (mesh g) <-> exists i j, cell_at g i j (dr_value c) /\ c = mkDrawn (num j) (num j + 1) (num i) (num i + 1) (dr_value c).
Proof.
  intros g c [R1 R2]. unfold mesh. rewrite in_flat_map. split.
  - intros [[j col] [Hj Hc]]. apply In_nth_error in Hj. destruct Hj as [j0 Hj]. apply nth_combine in Hj. cbn [fst snd] in *. destruct Hj as [J1 J2]. rewrite nth_seq in J1. destruct (Nat.ltb j0 _); [|discriminate J1]. injection J1 as <-. cbn [plus] in *.
    apply in_map_iff in Hc. destruct Hc as [[i v] [<- Hi]]. apply In_nth_error in Hi. destruct Hi as [i0 Hi]. apply nth_combine in Hi. cbn [fst snd dr_value] in *. destruct Hi as [I1 I2]. rewrite nth_seq in I1. destruct (Nat.ltb i0 _); [|discriminate I1]. injection I1 as <-. cbn [plus].
    exists i0, j0. split; [exists col; auto|reflexivity].
  - intros [i [j [[col [H1 H2]] E]]]. assert (Hj : (j < length (gr_cols g))%nat) by (rewrite <- R1; apply nth_error_Some; congruence). assert (Hi : (i < length (gr_rows g))%nat) by (rewrite <- (R2 col (nth_error_In _ _ H1)); apply nth_error_Some; congruence).
    exists (j, col). split; [apply (nth_error_In _ j), nth_combine; cbn [fst snd]; split; [|exact H1]; rewrite nth_seq; apply Nat.ltb_lt in Hj; rewrite Hj; reflexivity|].
    apply in_map_iff. exists (i, dr_value c). cbn [fst snd]. split; [symmetry; exact E|]. apply (nth_error_In _ i), nth_combine. cbn [fst snd]. split; [|exact H2]. rewrite nth_seq. apply Nat.ltb_lt in Hi. rewrite Hi. reflexivity.
Qed.
(** Every cell is drawn (Matplotlib): row by row from the top, and exactly under the label of its column and beside the label of its row. *)
Theorem C100_mesh : forall g c, rectangular g -> (In c (mesh g) <-> exists i j, cell_at g i j (dr_value c) /\ c = mkDrawn (num j) (num j + 1) (num i) (num i + 1) (dr_value c))
  /\ (In c (mesh g) -> exists i j r s, cell_at g i j (dr_value c) /\ nth_error (gr_rows g) i = Some r /\ nth_error (gr_cols g) j = Some s
      /\ (exists x, In (x, s) (ticks (gr_cols g)) /\ dr_left c < x < dr_right c) /\ (forall x l, In (x, l) (ticks (gr_cols g)) -> dr_left c < x < dr_right c -> l = s)
      /\ (exists y, In (y, r) (ticks (gr_rows g)) /\ dr_top c < y < dr_bottom c) /\ (forall y l, In (y, l) (ticks (gr_rows g)) -> dr_top c < y < dr_bottom c -> l = r)).
Proof.
  intros g c R. split; [exact (drawn_at g c R)|]. intros H. apply (drawn_at g c R) in H. destruct H as [i [j [CA E]]]. destruct CA as [col [H1 H2]]. destruct R as [R1 R2].
  assert (Hj : (j < length (gr_cols g))%nat) by (rewrite <- R1; apply nth_error_Some; congruence). assert (Hi : (i < length (gr_rows g))%nat) by (rewrite <- (R2 col (nth_error_In _ _ H1)); apply nth_error_Some; congruence).
  destruct (nth_error (gr_rows g) i) as [r|] eqn:Er; [|apply nth_error_None in Er; lia]. destruct (nth_error (gr_cols g) j) as [s|] eqn:Es; [|apply nth_error_None in Es; lia].
  exists i, j, r, s. split; [exists col; auto|]. split; [exact Er|]. split; [exact Es|]. rewrite E. cbn [dr_left dr_right dr_top dr_bottom]. split; [|split; [|split]].
  - exists (num j + (1 # 2)). split; [apply tick_at; exists j; auto|split; lra].
  - intros x l Hx B. pose proof (in_between _ _ _ _ Hx B). congruence.
  - exists (num i + (1 # 2)). split; [apply tick_at; exists i; auto|split; lra].
  - intros y l Hy B. pose proof (in_between _ _ _ _ Hy B). congruence.
Qed.
Print Assumptions C100_mesh.
(** Every cell is drawn (Plotly) under the names of its column and row. *)
Theorem C100_cells : forall g s r v, rectangular g -> In (s, r, v) (cells g) <-> exists i j, cell_at g i j v /\ nth_error (gr_rows g) i = Some r /\ nth_error (gr_cols g) j = Some s.
Proof.
  intros g s r v [R1 R2]. unfold cells. rewrite in_flat_map. split.
  - intros [[s' col] [Hj Hc]]. apply in_map_iff in Hc. destruct Hc as [[r' v'] [E Hi]]. cbn [fst snd] in *. injection E as <- <- <-. apply In_nth_error in Hj. destruct Hj as [j Hj]. apply nth_combine in Hj. cbn [fst snd] in Hj. destruct Hj as [J1 J2].
    apply In_nth_error in Hi. destruct Hi as [i Hi]. apply nth_combine in Hi. cbn [fst snd] in Hi. destruct Hi as [I1 I2]. exists i, j. split; [exists col; auto|auto].
  - intros [i [j [[col [H1 H2]] [Er Es]]]]. exists (s, col). split; [apply (nth_error_In _ j), nth_combine; auto|]. apply in_map_iff. exists (r, v). split; [reflexivity|]. cbn [snd]. apply (nth_error_In _ i), nth_combine. auto.
Qed.
Print Assumptions C100_cells.
Definition gr_two : grid := mkGrid ["00:00"; "12:00"] ["Monday"; "Tuesday"; "Sunday"] [[Some 3; Some (-(1))]; [None; Some 7]; [None; None]].
Example C100_heat_applies : rectangular gr_two /\ colour_range gr_two = (Some (-(1)), Some 7) /\ In (mkDrawn 1 2 1 2 (Some 7)) (mesh gr_two) /\ In ("Tuesday", "12:00", Some 7) (cells gr_two).
Proof.
  split; [split; [reflexivity|]; intros col Hc; cbn in Hc; repeat (destruct Hc as [<-|Hc]; [reflexivity|]); destruct Hc|]. split; [reflexivity|]. split; [cbn; tauto|]. cbn. tauto.
Qed.
