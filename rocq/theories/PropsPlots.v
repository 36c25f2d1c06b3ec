(** C75, C76: what plots show. *)
From Coq Require Import Qminmax Qround Permutation.
From Verif Require Import Base BaseFacts Plotting.
Local Open Scope Q_scope.

(** ** Stacked bars *)

(** The values of the first [i] columns in step [t], each cut by [cut], summed. *)
Definition below (cut : Q -> Q) (cols : table) (i t : nat) : Q := Qsum (map (fun c => cut (nth t (snd c) 0)) (firstn i cols)).
Definition above_zero (q : Q) : Q := Qmax q 0.
Definition under_zero (q : Q) : Q := Qmin q 0.
Lemma add2_nth : forall a b t, (t < length a)%nat -> length b = length a -> nth t (add2 a b) 0 == nth t a 0 + nth t b 0.
Proof.
  intros a. unfold add2. induction a as [|x a IH]; intros b t T L; [cbn in T; lia|]. destruct b as [|y b]; [discriminate|]. cbn [combine map]. destruct t as [|t]; cbn [nth fst snd]; [reflexivity|]. apply IH; [cbn in T; lia|cbn in L; lia].
Qed.
Lemma add2_length : forall a b, length b = length a -> length (add2 a b) = length a.
Proof. intros a b L. unfold add2. rewrite map_length, combine_length. lia. Qed.
Lemma part_nth : forall (h : Q -> Q) v t, (t < length v)%nat -> nth t (map h v) 0 = h (nth t v 0).
Proof. intros h v t T. rewrite (nth_indep _ 0 (h 0)) by (rewrite map_length; exact T). apply map_nth. Qed.
Lemma stack_spec : forall {C} (colours : list C) cols pos neg n, (forall c, In c cols -> length (snd c) = n) -> length pos = n -> length neg = n -> length colours = length cols ->
  length (stack cols colours pos neg) = length cols /\ forall i l v, nth_error cols i = Some (l, v) -> exists p m, nth_error (stack cols colours pos neg) i = Some (p, m)
    /\ nth_error colours i = Some (br_colour p) /\ br_colour m = br_colour p /\ br_label p = l /\ br_label m = ""%string
    /\ forall t, (t < n)%nat -> nth t (br_height p) 0 == above_zero (nth t v 0) /\ nth t (br_height m) 0 == under_zero (nth t v 0)
         /\ nth t (br_bottom p) 0 == nth t pos 0 + below above_zero cols i t /\ nth t (br_bottom m) 0 == nth t neg 0 + below under_zero cols i t.
Proof.
  intros C colours cols. revert colours. induction cols as [|[l0 v0] cols IH]; intros colours pos neg n HC HP HN HL.
  - destruct colours; [|discriminate]. split; [reflexivity|]. intros [|i] l v H; discriminate H.
  - destruct colours as [|c0 colours]; [discriminate|]. cbn [stack length]. pose proof (HC _ (or_introl eq_refl)) as L0. cbn [snd] in L0. cbv zeta.
    assert (LP : length (positive_part v0) = n) by (unfold positive_part; rewrite map_length; exact L0). assert (LN : length (negative_part v0) = n) by (unfold negative_part; rewrite map_length; exact L0).
    destruct (IH colours (add2 pos (positive_part v0)) (add2 neg (negative_part v0)) n) as [A B]; [intros c Hc; apply HC; right; exact Hc|rewrite add2_length; congruence|rewrite add2_length; congruence|cbn in HL; lia|].
    split; [rewrite A; reflexivity|]. intros i l v H. destruct i as [|i]; cbn [nth_error] in *.
    + injection H as <- <-. do 2 eexists. split; [reflexivity|]. cbn [br_colour br_label br_height br_bottom]. repeat split; auto.
      * unfold positive_part. rewrite part_nth by lia. reflexivity.
      * unfold negative_part. rewrite part_nth by lia. reflexivity.
      * unfold below. cbn. ring.
      * unfold below. cbn. ring.
    + destruct (B i l v H) as [p [m [B1 [B2 [B3 [B4 [B5 B6]]]]]]]. exists p, m. split; [exact B1|]. repeat (split; [assumption|]). intros t T. destruct (B6 t T) as [D1 [D2 [D3 D4]]]. split; [exact D1|]. split; [exact D2|]. split.
      * rewrite D3, add2_nth by congruence. unfold positive_part. rewrite part_nth by lia. unfold below. cbn [firstn map]. rewrite Qsum_cons. unfold above_zero. cbn [snd]. ring.
      * rewrite D4, add2_nth by congruence. unfold negative_part. rewrite part_nth by lia. unfold below. cbn [firstn map]. rewrite Qsum_cons. unfold under_zero. cbn [snd]. ring.
Qed.
(** Every column has two bars in its colour. In every step they reach from the top of the bars of the columns before it over the part of its value
    above zero, and from their bottom over the part below zero; the first ones start at zero. *)
Theorem C75_bars : forall C n cols (colours : list C), (forall c, In c cols -> length (snd c) = n) -> length colours = length cols ->
  exists bars, stacked_bars n cols colours = Ok bars /\ length bars = length cols /\ forall i l v, nth_error cols i = Some (l, v) -> exists p m, nth_error bars i = Some (p, m)
    /\ nth_error colours i = Some (br_colour p) /\ br_colour m = br_colour p /\ br_label p = l
    /\ forall t, (t < n)%nat -> nth t (br_height p) 0 == above_zero (nth t v 0) /\ nth t (br_height m) 0 == under_zero (nth t v 0)
         /\ nth t (br_bottom p) 0 == below above_zero cols i t /\ nth t (br_bottom m) 0 == below under_zero cols i t
         /\ nth t (br_height p) 0 + nth t (br_height m) 0 == nth t v 0.
Proof.
  intros C n cols colours HC HL. unfold stacked_bars. rewrite HL, Nat.eqb_refl. cbn [guard bind]. eexists. split; [reflexivity|].
  destruct (stack_spec colours cols (repeat 0 n) (repeat 0 n) n HC (repeat_length _ _) (repeat_length _ _) HL) as [A B]. split; [exact A|]. intros i l v H. destruct (B i l v H) as [p [m [B1 [B2 [B3 [B4 [_ B6]]]]]]].
  exists p, m. repeat (split; [assumption|]). intros t T. destruct (B6 t T) as [D1 [D2 [D3 D4]]]. assert (Z : nth t (repeat 0 n) 0 = 0) by (destruct (nth_in_or_default t (repeat 0 n) 0) as [I|I]; [apply repeat_spec in I; exact I|exact I]).
  rewrite Z in D3, D4. rewrite Qplus_0_l in D3, D4. repeat (split; [assumption|]). rewrite D1, D2. unfold above_zero, under_zero.
  destruct (Qlt_le_dec (nth t v 0) 0) as [X|X].
  - rewrite Q.max_r, Q.min_l by (apply Qlt_le_weak; exact X). ring.
  - rewrite Q.max_l, Q.min_r by exact X. ring.
Qed.
Print Assumptions C75_bars.
Example C75_bars_applies : exists bars, stacked_bars 2 [("a", [1; -2]); ("b", [3; -1])]%string ["red"; "blue"]%string = Ok bars /\ map (fun pm => br_bottom (snd pm)) bars = [[0; 0]; [0 + Qmin 1 0; 0 + Qmin (-2) 0]].
Proof. eexists. split; reflexivity. Qed.

(** ** Stacked areas *)
Definition small (q : Q) : Prop := - (1 # 100000) < q /\ q < 1 # 100000.
(** The drawn value: values next to zero are drawn as zero. *)
Definition drawn (q d : Q) : Prop := (small q -> d == 0) /\ (~ small q -> d = q).
Lemma flush_drawn : forall q, drawn q (flush q).
Proof.
  intros q. unfold flush, drawn, small. destruct (Qle_bool q (- (1 # 100000))) eqn:A; cbn [negb andb].
  - apply Qle_bool_iff in A. split; [intros [X _]|auto]. exfalso. apply (Qlt_not_le _ _ X A).
  - destruct (Qle_bool (1 # 100000) q) eqn:B; cbn [negb].
    + apply Qle_bool_iff in B. split; [intros [_ X]|auto]. exfalso. apply (Qlt_not_le _ _ X B).
    + split; [reflexivity|]. intros N. exfalso. apply N. split; apply Qnot_le_lt; intros X; apply Qle_bool_iff in X; congruence.
Qed.
(** The trace shows column [i] of the table. *)
Definition shows_column {C} (cols : table) (colours : list C) (i : nat) (tr : trace C) : Prop :=
  exists v, nth_error cols i = Some (tr_label tr, v) /\ nth_error colours i = Some (tr_colour tr) /\ Forall2 drawn v (tr_data tr).
Definition right_kind {C} (tr : trace C) : Prop :=
  match tr_kind tr with
  | Above => forall q, In q (tr_data tr) -> 0 <= q
  | Below => forall q, In q (tr_data tr) -> q <= 0
  | Dashed => (exists q, In q (tr_data tr) /\ q < 0) /\ exists q, In q (tr_data tr) /\ 0 < q
  end.
Lemma combine_nth_error : forall {A B} (a : list A) (b : list B) x y i, nth_error (combine a b) i = Some (x, y) <-> nth_error a i = Some x /\ nth_error b i = Some y.
Proof.
  intros A B a. induction a as [|p a IH]; intros b x y i; [destruct i; cbn; split; [discriminate|intros [H _]; discriminate|discriminate|intros [H _]; discriminate]|].
  destruct b as [|q b]; [destruct i; cbn; split; [discriminate|intros [_ H]; discriminate|discriminate|intros [_ H]; discriminate]|]. destruct i as [|i]; cbn [combine nth_error]; [|apply IH]. split; [intros H; injection H as -> ->; auto|intros [H K]; congruence].
Qed.
Lemma map_flush_drawn : forall v, Forall2 drawn v (map flush v).
Proof. induction v; constructor; [apply flush_drawn|assumption]. Qed.
Lemma column_shown : forall {C} cols (colours : list C) i d k, nth_error (combine (map (fun c => (fst c, map flush (snd c))) cols) colours) i = Some d ->
  shows_column cols colours i (mkTrace (fst (fst d)) (snd (fst d)) (snd d) k).
Proof.
  intros C cols colours i [[l w] c] k H. apply combine_nth_error in H. destruct H as [H1 H2]. cbn [fst snd]. rewrite nth_error_map in H1. destruct (nth_error cols i) as [[l0 v]|] eqn:E; [|discriminate]. cbn [option_map fst snd] in H1. injection H1 as <- <-.
  exists v. cbn [tr_label tr_data tr_colour]. split; [exact E|]. split; [exact H2|]. apply map_flush_drawn.
Qed.
(** Every trace shows a column, in its colour and with its values, above zero or below zero only if it stays there; every column is shown. *)
Theorem C76_areas : forall C cols (colours : list C), length colours = length cols -> exists trs, area_traces cols colours = Ok trs
  /\ (forall tr, In tr trs -> (exists i, shows_column cols colours i tr) /\ right_kind tr) /\ forall i, (i < length cols)%nat -> exists tr, In tr trs /\ shows_column cols colours i tr.
Proof.
  intros C cols colours HL. unfold area_traces. rewrite HL, Nat.eqb_refl. cbn [guard bind]. cbv zeta. eexists. split; [reflexivity|]. set (d := combine _ colours).
  
  assert (UP : forall c : string * list Q * C, up c = true -> forall q, In q (snd (fst c)) -> 0 <= q) by (intros c H q I; unfold up in H; rewrite forallb_forall in H; apply Qle_bool_iff; auto).
  assert (DN : forall c : string * list Q * C, down c = true -> forall q, In q (snd (fst c)) -> q <= 0) by (intros c H q I; unfold down in H; rewrite forallb_forall in H; apply Qle_bool_iff; auto).
  assert (NF : forall (b : Q -> bool) l, forallb b l = false -> exists q, In q l /\ b q = false).
  { intros b l. induction l as [|x l IH]; [discriminate|]. cbn [forallb]. destruct (b x) eqn:E; [intros H; destruct (IH H) as [q [I J]]; exists q; cbn; auto|intros _; exists x; cbn; auto]. }
  assert (IN : forall c, In c d -> exists i, nth_error d i = Some c) by (intros c H; apply In_nth_error; exact H).
  split.
  - intros tr H. apply in_app_or in H. destruct H as [H|H]; apply in_map_iff in H; destruct H as [c [<- H]].
    + assert (D : In c d /\ (up c = true \/ up c = false /\ down c = true)).
      { apply in_app_or in H. destruct H as [H|H]; apply filter_In in H; destruct H as [H K]; split; auto. destruct (up c) eqn:U; auto. }
      destruct D as [D K]. destruct (IN c D) as [i I]. split; [exists i; apply column_shown; exact I|]. unfold right_kind. cbn [tr_kind tr_data]. destruct K as [K|[K1 K2]]; [rewrite K; apply UP; exact K|rewrite K1; apply DN; exact K2].
    + apply filter_In in H. destruct H as [H K]. destruct (IN c H) as [i I]. split; [exists i; apply column_shown; exact I|]. unfold right_kind. cbn [tr_kind tr_data].
      destruct (up c) eqn:U; [discriminate K|]. destruct (down c) eqn:W; [discriminate K|]. unfold up in U. unfold down in W. destruct (NF _ _ U) as [a [A1 A2]]. destruct (NF _ _ W) as [b [B1 B2]].
      split; [exists a|exists b]; (split; [assumption|]); apply Qnot_le_lt; intros X; apply Qle_bool_iff in X; congruence.
  - intros i Hi. assert (E : exists c, nth_error d i = Some c).
    { destruct (nth_error d i) as [c|] eqn:E; [eauto|]. apply nth_error_None in E. unfold d in E. rewrite combine_length, map_length in E. lia. }
    destruct E as [c E]. pose proof (nth_error_In _ _ E) as I. destruct (up c) eqn:U; [|destruct (down c) eqn:W].
    + eexists. split; [apply in_or_app; left; apply in_map; apply in_or_app; left; apply filter_In; split; [exact I|exact U]|]. apply column_shown. exact E.
    + eexists. split; [apply in_or_app; left; apply in_map; apply in_or_app; right; apply filter_In; split; [exact I|exact W]|]. apply column_shown. exact E.
    + eexists. split; [apply in_or_app; right; apply in_map; apply filter_In; split; [exact I|rewrite U, W; reflexivity]|]. apply column_shown. exact E.
Qed.
Print Assumptions C76_areas.
(** Every column is drawn once. *)
Definition C76_once_full : Prop := forall C cols (colours : list C) trs, area_traces cols colours = Ok trs -> Permutation (map tr_label trs) (map fst cols).
(** True if every column has a value that is not next to zero. *)
Theorem C76_once_partial : forall C cols (colours : list C) trs, area_traces cols colours = Ok trs -> (forall c, In c cols -> exists q, In q (snd c) /\ ~ small q) -> Permutation (map tr_label trs) (map fst cols).
Proof.
  intros C cols colours trs H NZ. unfold area_traces in H. destruct (Nat.eqb _ _) eqn:L in H; [|discriminate H]. cbn [guard bind] in H. cbv zeta in H. injection H as <-. apply Nat.eqb_eq in L.
  set (d := combine _ colours). 
  rewrite map_app, !map_map. cbn [tr_label]. rewrite map_app. replace (map fst cols) with (map (fun c : string * list Q * C => fst (fst c)) d).
  - rewrite <- !map_app. apply Permutation_map. assert (ONE : forall c, In c d -> up c = true -> down c = true -> False).
    { intros [[l w] c] I U W. apply in_combine_l in I. apply in_map_iff in I. destruct I as [[l0 v] [E I]]. cbn [fst snd] in E. injection E as <- <-. destruct (NZ _ I) as [q [Q1 Q2]]. cbn [snd] in Q1. unfold up in U. unfold down in W. cbn [fst snd] in U, W. rewrite forallb_forall in U, W.
      assert (F : In (flush q) (map flush v)) by (apply in_map; exact Q1). specialize (U _ F). specialize (W _ F). apply Qle_bool_iff in U, W. rewrite (proj2 (flush_drawn q) Q2) in U, W. apply Q2. assert (Z : q == 0) by (apply Qle_antisym; assumption). unfold small. rewrite Z. split; reflexivity. }
    clear - ONE. revert ONE. generalize d. clear d. intros d. induction d as [|c d IH]; intros ONE; [constructor|]. specialize (IH ltac:(intros x X; apply ONE; right; exact X)). cbn [filter]. pose proof (ONE c (or_introl eq_refl)) as O. destruct (up c) eqn:U, (down c) eqn:W; cbn [orb negb app].
    + exfalso. auto.
    + constructor. exact IH.
    + rewrite <- app_assoc. apply Permutation_sym, Permutation_cons_app, Permutation_sym. rewrite app_assoc. exact IH.
    + rewrite <- app_assoc in *. apply Permutation_sym. rewrite app_assoc in *. apply Permutation_cons_app, Permutation_sym. exact IH.
  - unfold d. clear - L. revert colours L. induction cols as [|[l v] cols IH]; intros colours L; [reflexivity|]. destruct colours as [|c colours]; [discriminate L|]. cbn [map combine fst]. f_equal. apply IH. cbn in L. lia.
Qed.
Print Assumptions C76_once_partial.
(** A column of zeros counts as above and as below zero; it is drawn and named in the legend twice. *)
Theorem C76_once_refuted : ~ C76_once_full.
Proof. intros H. specialize (H nat [("a", [0; 0])]%string [7%nat] _ eq_refl). apply Permutation_length in H. discriminate H. Qed.
Print Assumptions C76_once_refuted.
Example C76_areas_applies : exists trs, area_traces [("a", [1; 1 # 1000000]); ("b", [1; -2]); ("c", [0; -1])]%string [1; 2; 3]%nat = Ok trs
  /\ map (fun tr => (tr_label tr, tr_kind tr, tr_data tr, tr_colour tr)) trs = [("a", Above, [1; 0], 1%nat); ("c", Below, [0; -1], 3%nat); ("b", Dashed, [1; -2], 2%nat)]%string.
Proof. eexists. split; [vm_compute; reflexivity|vm_compute; reflexivity]. Qed.

(** ** Arranging an array in columns *)
Lemma nth_firstn_lt : forall {A} (d : A) k r l, (r < k)%nat -> nth r (firstn k l) d = nth r l d.
Proof. intros A d k. induction k as [|k IH]; intros r l H; [lia|]. destruct l as [|x l]; [reflexivity|]. destruct r as [|r]; [reflexivity|]. cbn [firstn nth]. apply IH. lia. Qed.
Lemma nth_skipn_add : forall {A} (d : A) n r l, nth r (skipn n l) d = nth (n + r) l d.
Proof. intros A d n. induction n as [|n IH]; intros r l; [reflexivity|]. destruct l as [|x l]; [destruct r; reflexivity|]. cbn [skipn Nat.add nth]. apply IH. Qed.
Lemma nth_map_seq : forall {A} (h : nat -> A) d n i, (i < n)%nat -> nth i (map h (seq 0 n)) d = h i.
Proof. intros A h d n i H. rewrite (nth_indep _ d (h 0%nat)) by (rewrite map_length, seq_length; exact H). rewrite map_nth, seq_nth by exact H. reflexivity. Qed.
Lemma padded_nth : forall (d : list Q) n i, nth i (map Some d ++ repeat None n) None = nth_error d i.
Proof.
  induction d as [|x d IH]; intros n i; cbn [map app].
  - replace (nth_error [] i) with (@None Q) by (destruct i; reflexivity). destruct (nth_in_or_default i (repeat (@None Q) n) None) as [H|H]; [apply repeat_spec in H; exact H|exact H].
  - destruct i as [|i]; [reflexivity|]. cbn [nth nth_error]. apply IH.
Qed.
(** Every array fits into columns of [k] steps, for every [k] above zero. Column [c] holds the steps from [c * k] on; only the last column can have
    entries without value. *)
Theorem C75_layout : forall d k, (0 < k)%nat -> exists m cols, reshape_to_2d (Some d) (Z.of_nat k) = Ok m /\ length m = k /\ (forall row, In row m -> length row = cols)
  /\ (length d <= cols * k < length d + k)%nat /\ forall r c, (r < k)%nat -> (c < cols)%nat -> nth c (nth r m []) None = nth_error d (c * k + r).
Proof.
  intros d k K. unfold reshape_to_2d. cbn [of_option bind]. replace (Z.of_nat k =? 0)%Z with false by (symmetry; apply Z.eqb_neq; lia). cbn [negb guard bind]. cbv zeta.
  set (n := Z.of_nat (length d)). set (cols := (n / Z.of_nat k + (if (n mod Z.of_nat k =? 0)%Z then 0 else 1))%Z).
  assert (B : (n <= cols * Z.of_nat k < n + Z.of_nat k)%Z /\ (0 <= cols)%Z).
  { pose proof (Z.div_mod n (Z.of_nat k) ltac:(lia)) as E. pose proof (Z.mod_pos_bound n (Z.of_nat k) ltac:(lia)) as M. pose proof (Z.div_pos n (Z.of_nat k) ltac:(lia) ltac:(lia)) as P. unfold cols. destruct (n mod Z.of_nat k =? 0)%Z eqn:E0; [apply Z.eqb_eq in E0|apply Z.eqb_neq in E0]; nia. }
  destruct B as [B P]. clearbody cols. replace (0 <=? cols * Z.of_nat k - n)%Z with true by (symmetry; apply Z.leb_le; lia). cbn [guard bind].
  replace (0 <=? cols)%Z with true by (symmetry; apply Z.leb_le; lia). replace (0 <=? Z.of_nat k)%Z with true by (symmetry; apply Z.leb_le; lia). cbn [andb guard bind].
  rewrite Nat2Z.id. eexists. exists (Z.to_nat cols). split; [reflexivity|]. split; [unfold transpose; rewrite map_length, seq_length; reflexivity|]. split; [|split].
  - intros row H. unfold transpose in H. apply in_map_iff in H. destruct H as [r [<- _]]. unfold reshape. rewrite !map_length, seq_length. reflexivity.
  - subst n. split; [apply Nat2Z.inj_le|apply Nat2Z.inj_lt]; rewrite ?Nat2Z.inj_add, Nat2Z.inj_mul, Z2Nat.id by exact P; lia.
  - intros r c R C. unfold transpose. rewrite nth_map_seq by exact R. unfold reshape. rewrite map_map, nth_map_seq by exact C. rewrite nth_firstn_lt by exact R. rewrite nth_skipn_add. apply padded_nth.
Qed.
Print Assumptions C75_layout.
Theorem C75_layout_refused : (forall steps, reshape_to_2d None steps = Err ValueError) /\ (forall d, reshape_to_2d (Some d) 0 = Err ZeroDivision) /\ forall d steps, (steps < 0)%Z -> reshape_to_2d (Some d) steps = Err ValueError.
Proof.
  split; [reflexivity|]. split; [reflexivity|]. intros d steps S0. unfold reshape_to_2d. cbn [of_option bind]. replace (steps =? 0)%Z with false by (symmetry; apply Z.eqb_neq; lia). cbn [negb guard bind]. cbv zeta.
  destruct (Z.leb 0 (_ * steps - _)); cbn [guard bind]; [|reflexivity]. replace (0 <=? steps)%Z with false by (symmetry; apply Z.leb_gt; lia). rewrite andb_false_r. reflexivity.
Qed.
Print Assumptions C75_layout_refused.
Example C75_layout_applies : reshape_to_2d (Some [1; 2; 3; 4; 5]) 2 = Ok [[Some 1; Some 3; Some 5]; [Some 2; Some 4; None]].
Proof. vm_compute. reflexivity. Qed.

(** ** Heat maps *)

(** The calendar: the length of a step in minutes, where the steps start (weeks on Mondays, the last one before 1970 is 29 December; 1 January is a
    Thursday), the steps of two stamps are the same, and the stamp that names a step (its start; for a week its Sunday). *)
Definition span (step : string) : option Z :=
  if String.eqb step "min" then Some 1%Z else if String.eqb step "15min" then Some 15%Z else if String.eqb step "h" then Some 60%Z
  else if String.eqb step "D" then Some 1440%Z else if String.eqb step "W" then Some 10080%Z else None.
Definition origin (step : string) : Z := if String.eqb step "W" then (-4320)%Z else 0%Z.
Definition in_step (step : string) (m b t : Z) : Prop := (origin step + b * m <= t < origin step + (b + 1) * m)%Z.
Definition called (step : string) (m b : Z) : Z := (origin step + b * m + if String.eqb step "W" then 8640 else 0)%Z.
Lemma minutes_span : forall step, minutes step = span step.
Proof. intros step. unfold minutes, span. cbn [find fst snd]. rewrite !(String.eqb_sym _ step). repeat (destruct (String.eqb step _); [reflexivity|]). reflexivity. Qed.
Lemma span_week : forall step m, span step = Some m -> (0 < m)%Z /\ (String.eqb step "W" = true -> m = 10080%Z).
Proof.
  intros step m H. unfold span in H. destruct (String.eqb step "W") eqn:W.
  - apply String.eqb_eq in W. subst step. cbn in H. injection H as <-. split; [lia|auto].
  - repeat (destruct (String.eqb step _) in H; [injection H as <-; split; [lia|discriminate]|]). discriminate H.
Qed.
Lemma bucket_in_step : forall step m b t, span step = Some m -> (bucket step m t = b <-> in_step step m b t).
Proof.
  intros step m b t H. destruct (span_week _ _ H) as [P W]. unfold bucket, in_step, origin. destruct (String.eqb step "W").
  - rewrite (W eq_refl). pose proof (Z.div_mod t 1440 ltac:(lia)) as E. pose proof (Z.mod_pos_bound t 1440 ltac:(lia)). pose proof (Z.div_mod (t / 1440 + 3) 7 ltac:(lia)) as F. pose proof (Z.mod_pos_bound (t / 1440 + 3) 7 ltac:(lia)). split; intros; lia.
  - pose proof (Z.div_mod t m ltac:(lia)) as E. pose proof (Z.mod_pos_bound t m ltac:(lia)). split; intros; nia.
Qed.
Lemma bucket_called : forall step m b, span step = Some m -> bucket_stamp step m b = called step m b.
Proof. intros step m b H. destruct (span_week _ _ H) as [_ W]. unfold bucket_stamp, called, origin. destruct (String.eqb step "W"); [rewrite (W eq_refl); lia|lia]. Qed.

(** The value of a cell: the mean of the data of step [b], none if there are none. *)
Definition cell_value (step : string) (m : Z) (df : list (Z * Q)) (b : Z) (v : option Q) : Prop :=
  exists part rest, Permutation df (part ++ rest) /\ (forall tq, In tq part -> in_step step m b (fst tq)) /\ (forall tq, In tq rest -> ~ in_step step m b (fst tq))
    /\ match v with Some x => part <> [] /\ x * inject_Z (Z.of_nat (length part)) == Qsum (map snd part) | None => part = [] end.
Lemma split_filter : forall {A} (h : A -> bool) l, Permutation l (filter h l ++ filter (fun x => negb (h x)) l).
Proof. intros A h l. induction l as [|x l IH]; [constructor|]. cbn [filter]. destruct (h x); cbn [negb app]; [constructor; exact IH|apply Permutation_cons_app; exact IH]. Qed.
Lemma mean_value : forall step m df b, span step = Some m -> cell_value step m df b (mean (map snd (filter (fun tq => Z.eqb (bucket step m (fst tq)) b) df))).
Proof.
  intros step m df b H. exists (filter (fun tq => Z.eqb (bucket step m (fst tq)) b) df), (filter (fun tq => negb (Z.eqb (bucket step m (fst tq)) b)) df). split; [apply split_filter|]. split; [|split].
  - intros tq I. apply filter_In in I. destruct I as [_ I]. apply Z.eqb_eq in I. apply (bucket_in_step step m b _ H). exact I.
  - intros tq I J. apply filter_In in I. destruct I as [_ I]. apply (bucket_in_step step m b _ H) in J. apply Z.eqb_eq in J. rewrite J in I. discriminate I.
  - destruct (filter _ df) as [|x l]; [reflexivity|]. cbn [map mean]. split; [discriminate|]. cbn [length map]. rewrite map_length. field. intros Z0. change 0 with (inject_Z 0) in Z0. apply (proj1 (inject_Z_injective _ _)) in Z0. lia.
Qed.
Lemma fold_min : forall l a, (fold_left Z.min l a <= a)%Z /\ (forall x, In x l -> (fold_left Z.min l a <= x)%Z) /\ In (fold_left Z.min l a) (a :: l).
Proof.
  induction l as [|y l IH]; intros a; cbn [fold_left]; [split; [lia|split; [intros x []|left; reflexivity]]|]. destruct (IH (Z.min a y)) as [A [B C]]. split; [lia|]. split; [intros x [<-|I]; [lia|auto]|].
  destruct C as [C|C]; [|right; right; exact C]. destruct (Z.min_dec a y) as [E|E]; rewrite E in C; [left; rewrite C at 1; rewrite E; reflexivity|right; left; rewrite E; exact C].
Qed.
Lemma fold_max : forall l a, (a <= fold_left Z.max l a)%Z /\ (forall x, In x l -> (x <= fold_left Z.max l a)%Z) /\ In (fold_left Z.max l a) (a :: l).
Proof.
  induction l as [|y l IH]; intros a; cbn [fold_left]; [split; [lia|split; [intros x []|left; reflexivity]]|]. destruct (IH (Z.max a y)) as [A [B C]]. split; [lia|]. split; [intros x [<-|I]; [lia|auto]|].
  destruct C as [C|C]; [|right; right; exact C]. destruct (Z.max_dec a y) as [E|E]; rewrite E in C; [left; rewrite C at 1; rewrite E; reflexivity|right; left; rewrite E; exact C].
Qed.
(** The steps from the first to the last one with data. *)
Definition steps_of (step : string) (m : Z) (df : list (Z * Q)) (bs : list Z) : Prop :=
  (df = [] /\ bs = []) \/ exists lo n, bs = map (fun i => (lo + Z.of_nat i)%Z) (seq 0 n) /\ (forall tq, In tq df -> exists b, In b bs /\ in_step step m b (fst tq))
    /\ (exists tq, In tq df /\ in_step step m (hd 0%Z bs) (fst tq)) /\ exists tq, In tq df /\ in_step step m (last bs 0%Z) (fst tq).
Lemma last_map_seq : forall (h : nat -> Z) n d, last (map h (seq 0 (S n))) d = h n.
Proof. intros h n d. rewrite seq_S, map_app. cbn [map Nat.add]. apply last_last. Qed.
Lemma resample_spec : forall step m df, span step = Some m -> steps_of step m df (map fst (resample step m df)) /\ forall kv, In kv (resample step m df) -> cell_value step m df (fst kv) (snd kv).
Proof.
  intros step m df H. unfold resample. destruct df as [|[t0 q0] df]; [cbn; split; [left; auto|intros kv []]|]. cbn [map fst]. cbv zeta.
  set (b := bucket step m t0). set (bs := map (fun tq => bucket step m (fst tq)) df). destruct (fold_min bs b) as [A1 [A2 A3]]. destruct (fold_max bs b) as [B1 [B2 B3]]. set (lo := fold_left Z.min bs b) in *. set (hi := fold_left Z.max bs b) in *.
  assert (LH : (lo <= hi)%Z) by lia. split.
  - right. exists lo, (Z.to_nat (hi - lo + 1)). split; [rewrite map_map; reflexivity|]. rewrite map_map. cbn [fst].
    assert (HAS : forall x, In x (b :: bs) -> exists tq, In tq ((t0, q0) :: df) /\ in_step step m x (fst tq)).
    { intros x [<-|I]; [exists (t0, q0); split; [left; reflexivity|apply (bucket_in_step _ _ _ _ H); reflexivity]|]. unfold bs in I. apply in_map_iff in I. destruct I as [tq [<- I]]. exists tq. split; [right; exact I|apply (bucket_in_step _ _ _ _ H); reflexivity]. }
    assert (N : Z.to_nat (hi - lo + 1) = S (Z.to_nat (hi - lo))) by lia. split; [|split].
    + intros tq I. exists (bucket step m (fst tq)). split; [|apply (bucket_in_step _ _ _ _ H); reflexivity].
      assert (R : (lo <= bucket step m (fst tq) <= hi)%Z). { destruct I as [<-|I]; [cbn [fst]; fold b; lia|]. assert (J : In (bucket step m (fst tq)) bs) by (unfold bs; apply in_map_iff; eauto). specialize (A2 _ J). specialize (B2 _ J). lia. }
      apply in_map_iff. exists (Z.to_nat (bucket step m (fst tq) - lo)). split; [lia|]. apply in_seq. lia.
    + rewrite N. cbn [seq map hd]. rewrite Z.add_0_r. apply HAS. exact A3.
    + rewrite N, last_map_seq. replace (lo + Z.of_nat (Z.to_nat (hi - lo)))%Z with hi by lia. apply HAS. exact B3.
  - intros kv I. apply in_map_iff in I. destruct I as [i [<- _]]. cbn [fst snd]. apply mean_value. exact H.
Qed.
Lemma distinct_pairs_ok : forall l, distinct_pairs l = true <-> NoDup l.
Proof.
  induction l as [|[x y] l IH]; cbn [distinct_pairs]; [split; [constructor|reflexivity]|]. rewrite andb_true_iff, IH, negb_true_iff, NoDup_cons_iff. split; intros [A B]; split; auto.
  - intros I. apply Bool.not_true_iff_false in A. apply A. apply existsb_exists. exists (x, y). cbn [fst snd]. rewrite !String.eqb_refl. auto.
  - apply Bool.not_true_iff_false. intros E. apply existsb_exists in E. destruct E as [[x' y'] [I E]]. cbn [fst snd] in E. apply andb_true_iff in E. destruct E as [E1 E2]. apply String.eqb_eq in E1, E2. subst. auto.
Qed.
(** The text for a step and a period. *)
Definition cell (name : string -> Z -> string) (fmt : string * string) (stamp : Z) : string * string := (name (snd fmt) stamp, name (fst fmt) stamp).
(** Filling: an empty cell takes the value of the nearest earlier cell with one; the cells are listed in the order of time. *)
Inductive carried : option Q -> list (option Q) -> list (option Q) -> Prop :=
| ca_end : forall p, carried p [] []
| ca_some : forall p q l l', carried (Some q) l l' -> carried p (Some q :: l) (Some q :: l')
| ca_none : forall p l l', carried p l l' -> carried p (None :: l) (p :: l').
Definition filling (f : fill) (l l' : list (option Q)) : Prop := match f with NoFill => l' = l | Forward => carried None l l' | Backward => carried None (rev l) (rev l') end.
Lemma ffill_carried : forall l p, map fst (ffill p l) = map fst l /\ carried p (map snd l) (map snd (ffill p l)).
Proof. induction l as [|[k v] l IH]; intros p; cbn [ffill map fst snd]; [split; [reflexivity|constructor]|]. destruct v as [q|]; cbn [map fst snd]; destruct (IH (Some q)) as [A B] || destruct (IH p) as [A B]; (split; [f_equal; exact A|constructor; exact B]). Qed.
Lemma filled_filling : forall f l, map fst (filled f l) = map fst l /\ filling f (map snd l) (map snd (filled f l)).
Proof.
  intros [| |] l; cbn [filled filling]; [auto|apply ffill_carried|]. destruct (ffill_carried (rev l) None) as [A B]. split; [rewrite map_rev, A, map_rev, rev_involutive; reflexivity|]. rewrite <- !map_rev, rev_involutive. exact B.
Qed.
(** A heat map has one cell for every step from the first to the last one with data, no two in the same place, and the cell shows the mean of exactly
    the data of its step, or is empty or filled. *)
Theorem C75_heat : forall name df periods step f rows, heat_map name df periods step f = Ok rows -> exists m fmt bs vs, span step = Some m /\ In (periods, step, fmt) formats
  /\ steps_of step m df bs /\ map fst rows = map (fun b => cell name fmt (called step m b)) bs /\ NoDup (map fst rows)
  /\ Forall2 (cell_value step m df) bs vs /\ filling f vs (map snd rows).
Proof.
  intros name df periods step f rows H. unfold heat_map in H. rewrite minutes_span in H. destruct (span step) as [m|] eqn:M; [|discriminate H]. cbn [of_option bind] in H.
  destruct (find _ formats) as [[[a b] fmt]|] eqn:F; [|discriminate H]. cbn [of_option bind] in H. cbv zeta in H. destruct (distinct_pairs _) eqn:D; [|discriminate H]. cbn [guard bind] in H. injection H as <-. apply find_some in F. destruct F as [F1 F2]. cbn [fst snd] in F2. apply andb_true_iff in F2. destruct F2 as [E1 E2]. apply String.eqb_eq in E1, E2. subst a b.
  destruct (resample_spec step m df M) as [S1 S2]. destruct (filled_filling f (resample step m df)) as [G1 G2].
  exists m, fmt, (map fst (resample step m df)), (map snd (resample step m df)). split; [reflexivity|]. split; [exact F1|]. split; [exact S1|]. split; [|split; [|split]].
  - rewrite <- G1, !map_map. apply map_ext. intros kv. cbn [fst snd]. unfold cell. rewrite (bucket_called _ _ _ M). reflexivity.
  - apply distinct_pairs_ok. exact D.
  - clear - S2. revert S2. generalize (resample step m df). intros l. induction l as [|kv l IH]; intros S2; cbn [map]; constructor; [apply S2; left; reflexivity|apply IH; intros x X; apply S2; right; exact X].
  - rewrite map_map. cbn [snd]. exact G2.
Qed.
Print Assumptions C75_heat.
(** Every listed combination is accepted when the texts tell the steps between the first and the last datum apart; no other is accepted. *)
Definition covered (step : string) (m : Z) (df : list (Z * Q)) (b : Z) : Prop :=
  (exists tq, In tq df /\ (fst tq < origin step + (b + 1) * m)%Z) /\ exists tq, In tq df /\ (origin step + b * m <= fst tq)%Z.
Theorem C75_heat_accepted : forall name df periods step f fmt m, In (periods, step, fmt) formats -> span step = Some m ->
  (forall b b', covered step m df b -> covered step m df b' -> cell name fmt (called step m b) = cell name fmt (called step m b') -> b = b') -> exists rows, heat_map name df periods step f = Ok rows.
Proof.
  intros name df periods step f fmt m F M INJ. unfold heat_map. rewrite minutes_span, M. cbn [of_option bind].
  assert (E : find (fun e => (String.eqb (fst (fst e)) periods && String.eqb (snd (fst e)) step)%bool) formats = Some (periods, step, fmt)).
  { unfold formats in *. cbn [In] in F. repeat (destruct F as [F|F]; [injection F as <- <- <-; reflexivity|]). destruct F. }
  rewrite E. cbn [of_option bind fst snd]. cbv zeta. match goal with |- context [distinct_pairs ?l] => assert (D : distinct_pairs l = true) end; [|rewrite D; cbn [guard bind]; eauto].
  apply distinct_pairs_ok. destruct (filled_filling f (resample step m df)) as [G _]. destruct (resample_spec step m df M) as [S1 _].
  rewrite map_map. cbn [fst]. rewrite (map_ext _ (fun kv : Z * option Q => cell name fmt (called step m (fst kv)))) by (intros kv; unfold cell; rewrite (bucket_called _ _ _ M); reflexivity).
  rewrite <- (map_map fst (fun b => cell name fmt (called step m b))), G. destruct (span_week _ _ M) as [P _]. destruct S1 as [[_ ->]|[lo [n [-> [_ [[t1 [T1 U1]] [t2 [T2 U2]]]]]]]]; [constructor|]. destruct n as [|n]; [constructor|].
  rewrite last_map_seq in U2. cbn [seq map hd] in U1. unfold in_step in U1, U2.
  assert (COV : forall i, In i (seq 0 (S n)) -> covered step m df (lo + Z.of_nat i)) by (intros i I; apply in_seq in I; split; [exists t1|exists t2]; (split; [assumption|nia])).
  assert (ND : forall l : list nat, NoDup l -> (forall i, In i l -> covered step m df (lo + Z.of_nat i)) -> NoDup (map (fun b => cell name fmt (called step m b)) (map (fun i => (lo + Z.of_nat i)%Z) l))).
  { intros l N. induction N as [|i l NI N IH]; intros CV; cbn [map]; constructor; [|apply IH; intros k K; apply CV; right; exact K]. intros I. apply in_map_iff in I. destruct I as [b [E' I]]. apply in_map_iff in I. destruct I as [k [<- I]].
    apply INJ in E'; [|apply CV; right; exact I|apply CV; left; reflexivity]. apply NI. replace i with k by lia. exact I. }
  apply ND; [apply seq_NoDup|exact COV].
Qed.
Print Assumptions C75_heat_accepted.
Theorem C75_heat_refused : forall name df periods step f rows, heat_map name df periods step f = Ok rows -> exists fmt, In (periods, step, fmt) formats.
Proof. intros name df periods step f rows H. destruct (C75_heat _ _ _ _ _ _ H) as [m [fmt [bs [vs [_ [A _]]]]]]. eauto. Qed.
Print Assumptions C75_heat_refused.
(** With filling no cell stays empty. *)
Lemma carried_full : forall p l l', carried p l l' -> (p <> None \/ hd_error l <> Some None) -> forall v, In v l' -> v <> None.
Proof.
  intros p l l' H. induction H as [p|p q l l' H IH|p l l' H IH]; intros N v I; [destruct I| |].
  - destruct I as [<-|I]; [discriminate|]. apply IH; [left; discriminate|exact I].
  - destruct N as [N|N]; [|cbn in N; congruence]. destruct I as [<-|I]; [exact N|]. apply IH; [left; exact N|exact I].
Qed.
Lemma has_value : forall step m df b v tq, cell_value step m df b v -> In tq df -> in_step step m b (fst tq) -> v <> None.
Proof. intros step m df b v tq [part [rest [P [A [B C]]]]] I J ->. apply (Permutation_in _ P) in I. apply in_app_or in I. destruct I as [I|I]; [rewrite C in I; destruct I|exact (B _ I J)]. Qed.
Lemma Forall2_last_ : forall {A B} (R : A -> B -> Prop) l l' d d', Forall2 R l l' -> l <> [] -> R (last l d) (last l' d').
Proof.
  intros A B R l l' d d' H. induction H as [|x y l l' E H IH]; intros N; [congruence|]. destruct H as [|x' y' l l' E' H]; [exact E|]. change (R (last (x' :: l) d) (last (y' :: l') d')). apply IH. discriminate.
Qed.
Theorem C75_filled : forall name df periods step f rows, heat_map name df periods step f = Ok rows -> f <> NoFill -> forall s p v, In (s, p, v) rows -> v <> None.
Proof.
  intros name df periods step f rows H NF s p v I. destruct (C75_heat _ _ _ _ _ _ H) as [m [fmt [bs [vs [_ [_ [S1 [_ [_ [F G]]]]]]]]]]. assert (J : In v (map snd rows)) by (apply in_map_iff; exists (s, p, v); auto).
  destruct S1 as [[_ ->]|[lo [n [_ [_ [[t1 [T1 U1]] [t2 [T2 U2]]]]]]]].
  - inversion F; subst vs. assert (E : forall q l, carried q [] l -> l = []) by (intros q l C; inversion C; reflexivity). destruct f; cbn [filling rev] in G; [congruence| |]; apply E in G; [rewrite G in J; destruct J|]. apply in_rev in J. rewrite G in J. destruct J.
  - destruct f; cbn [filling] in G; [congruence| |].
    + apply (carried_full _ _ _ G); [right|exact J]. destruct F as [|b w bs vs F0 F]; [cbn; discriminate|]. cbn [hd hd_error] in *. intros E. injection E as ->. exact (has_value _ _ _ _ _ _ F0 T1 U1 eq_refl).
    + apply (carried_full _ _ _ G); [right|apply in_rev in J; exact J]. destruct vs as [|w vs] using rev_ind; [cbn; discriminate|]. rewrite rev_app_distr. cbn [rev app hd_error]. intros E. injection E as ->.
      assert (N : bs <> []) by (intros ->; inversion F; destruct vs; discriminate). pose proof (Forall2_last_ _ _ _ 0%Z None F N) as L. rewrite last_last in L. exact (has_value _ _ _ _ _ _ L T2 U2 eq_refl).
Qed.
Print Assumptions C75_filled.
(** Two values in the first hour, none in the second, one in the third. *)
Definition hour_name (fmt : string) (t : Z) : string := if String.eqb fmt "%H:00" then String (Ascii.ascii_of_nat (Z.to_nat (t / 60 mod 24))) "" else "day"%string.
Example C75_heat_applies : heat_map hour_name [(0%Z, 1); (30%Z, 3); (150%Z, 5)] "D" "h" NoFill = Ok [(String (Ascii.ascii_of_nat 0) "", "day", Some (4 # 2)); (String (Ascii.ascii_of_nat 1) "", "day", None); (String (Ascii.ascii_of_nat 2) "", "day", Some (5 # 1))]%string
  /\ heat_map hour_name [(0%Z, 1); (30%Z, 3); (150%Z, 5)] "D" "h" Forward = Ok [(String (Ascii.ascii_of_nat 0) "", "day", Some (4 # 2)); (String (Ascii.ascii_of_nat 1) "", "day", Some (4 # 2)); (String (Ascii.ascii_of_nat 2) "", "day", Some (5 # 1))]%string.
Proof. split; vm_compute; reflexivity. Qed.
Example C75_accepted_applies : exists rows, heat_map hour_name [(0%Z, 1); (30%Z, 3); (150%Z, 5)] "D" "h" Backward = Ok rows.
Proof.
  apply (C75_heat_accepted _ _ _ _ _ ("%Y-%m-%d", "%H:00")%string 60%Z); [cbn; tauto|reflexivity|]. assert (R : forall b, covered "h" 60 [(0%Z, 1); (30%Z, 3); (150%Z, 5)] b -> b = 0%Z \/ b = 1%Z \/ b = 2%Z).
  { intros b [[x [X1 X2]] [y [Y1 Y2]]]. cbn [origin String.eqb] in *. assert (0 <= fst x)%Z by (cbn in X1; intuition; subst x; cbn; lia). assert (fst y <= 150)%Z by (cbn in Y1; intuition; subst y; cbn; lia). unfold origin in X2, Y2. cbn in X2, Y2. lia. }
  intros b b' B B'. apply R in B, B'. intros E. destruct B as [-> | [-> | ->]], B' as [-> | [-> | ->]]; try reflexivity; vm_compute in E; discriminate E.
Qed.
