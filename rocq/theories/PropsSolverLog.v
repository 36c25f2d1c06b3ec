(** C84: the presolve figures shown after a calculation are the ones written in
    the solver's log, and which logs cannot be read. *)
From Coq Require Import String Ascii List NArith ZArith Bool Lia.
From Verif Require Import Base SolverLog.
Import ListNotations.
Open Scope string_scope.

(** * Vocabulary *)

(** The decimal digits. *)
Definition digit (k : N) : ascii := ascii_of_N (48 + k).

(** [numeral d n]: the text [d] is a decimal spelling of [n]. *)
Inductive numeral : string -> N -> Prop :=
| numeral_one k : (k < 10)%N -> numeral (String (digit k) "") k
| numeral_more d n k : numeral d n -> (k < 10)%N ->
    numeral (d ++ String (digit k) "") (10 * n + k).

(** The same with an optional minus sign in front. *)
Definition signed_numeral (d : string) : Prop :=
  exists e n, numeral e n /\ (d = e \/ d = "-" ++ e).

(** The two lines gurobi writes after its presolve. *)
Definition gurobi_text (rows cols nonzeros continuous integer binary : string) : string :=
  "Presolved: " ++ rows ++ " rows, " ++ cols ++ " columns, " ++ nonzeros ++ " nonzeros"
  ++ newline ++ "Variable types: " ++ continuous ++ " continuous, " ++ integer
  ++ " integer (" ++ binary ++ " binary)".

(** The line cbc writes about the size of the problem after its presolve. *)
Definition cbc_rows_text (rows less_rows cols less_cols nonzeros : string) : string :=
  "Presolve " ++ rows ++ " (" ++ less_rows ++ ") rows, " ++ cols ++ " (" ++ less_cols
  ++ ") columns and " ++ nonzeros.

(** The line cbc writes about integer variables. *)
Definition cbc_integers_text (integer binary : string) : string :=
  "Presolved problem has " ++ integer ++ " integers (" ++ binary ++ " of which binary)".

(** The text does not go on with a digit. *)
Definition no_digit_next (s : string) : Prop :=
  forall k r, (k < 10)%N -> s <> String (digit k) r.

(** [gurobi_at log a r c z k i b]: after the first characters [a], the two
    lines stand in the log with these six numbers. *)
Definition gurobi_at (log a : string) (r c z k i b : N) : Prop :=
  exists sr sc sz sk si sb rest,
    numeral sr r /\ numeral sc c /\ numeral sz z /\ numeral sk k /\ numeral si i /\
    numeral sb b /\ log = a ++ gurobi_text sr sc sz sk si sb ++ rest.

(** The same for the two lines of cbc. *)
Definition cbc_rows_at (log a : string) (r c z : N) : Prop :=
  exists sr lr sc lc sz rest,
    numeral sr r /\ signed_numeral lr /\ numeral sc c /\ signed_numeral lc /\
    numeral sz z /\ no_digit_next rest /\ log = a ++ cbc_rows_text sr lr sc lc sz ++ rest.
Definition cbc_integers_at (log a : string) (i b : N) : Prop :=
  exists si sb rest,
    numeral si i /\ numeral sb b /\ log = a ++ cbc_integers_text si sb ++ rest.

Definition gives (o : option Z) (n : N) : Prop := o = Some (Z.of_N n).

(** * Strings *)

Lemma sapp_assoc a b c : (a ++ b) ++ c = a ++ (b ++ c).
Proof. induction a; cbn; congruence. Qed.
Lemma sapp_nil a : a ++ "" = a.
Proof. induction a; cbn; congruence. Qed.
Lemma slen_app a b : String.length (a ++ b) = (String.length a + String.length b)%nat.
Proof. induction a; cbn; congruence. Qed.

Fixpoint all_digits (s : string) : Prop :=
  match s with EmptyString => True | String a r => is_digit a = true /\ all_digits r end.

Lemma all_digits_app a b : all_digits (a ++ b) <-> all_digits a /\ all_digits b.
Proof. induction a; cbn; tauto. Qed.

Lemma digit_ok k : (k < 10)%N -> is_digit (digit k) = true /\ N_of_ascii (digit k) = (48 + k)%N.
Proof.
  intros H. assert (E : N_of_ascii (digit k) = (48 + k)%N)
    by (unfold digit; apply N_ascii_embedding; lia).
  split; [|exact E]. unfold is_digit. rewrite E.
  apply andb_true_intro; split; apply N.leb_le; lia.
Qed.

Lemma is_digit_digit a : is_digit a = true ->
  (N_of_ascii a - 48 < 10)%N /\ a = digit (N_of_ascii a - 48).
Proof.
  unfold is_digit. intros H. apply andb_prop in H as [L U].
  apply N.leb_le in L, U. split; [lia|].
  unfold digit. replace (48 + (N_of_ascii a - 48))%N with (N_of_ascii a) by lia.
  symmetry. apply ascii_N_embedding.
Qed.

Lemma no_digit_next_iff s :
  no_digit_next s <-> match s with EmptyString => True | String a _ => is_digit a = false end.
Proof.
  unfold no_digit_next. split.
  - intros H. destruct s as [|a r]; [exact Logic.I|].
    destruct (is_digit a) eqn:E; [|reflexivity].
    apply is_digit_digit in E as [L E]. exfalso. apply (H _ r L). f_equal. exact E.
  - intros H k r L ->. apply digit_ok in L as [L _]. congruence.
Qed.

Lemma int_from_app acc a b : int_from acc (a ++ b) = int_from (int_from acc a) b.
Proof. revert acc. induction a; cbn [append int_from]; auto. Qed.

Lemma numeral_facts d n : numeral d n -> d <> "" /\ all_digits d /\ int_from 0 d = n.
Proof.
  induction 1 as [k L|d n k M IH L]; apply digit_ok in L as [D E].
  - split; [discriminate|]. cbn [all_digits int_from]. rewrite D, E. split; [auto|]. lia.
  - destruct IH as (Z & A & V). split; [destruct d; discriminate|].
    rewrite all_digits_app, int_from_app, V. cbn [all_digits int_from]. rewrite D, E.
    split; [auto|]. lia.
Qed.

Lemma numeral_snoc e d n : numeral e n -> all_digits d -> numeral (e ++ d) (int_from n d).
Proof.
  revert e n. induction d as [|a d IH]; intros e n M A.
  - rewrite sapp_nil. exact M.
  - destruct A as [D A]. apply is_digit_digit in D as [L D].
    replace (e ++ String a d) with ((e ++ String a "") ++ d)
      by (rewrite sapp_assoc; reflexivity).
    cbn [int_from]. apply IH; [|exact A]. rewrite D at 1. apply numeral_more; assumption.
Qed.

Lemma numeral_of d : d <> "" -> all_digits d -> numeral d (int_from 0 d).
Proof.
  destruct d as [|a d]; [congruence|]. intros _ [D A].
  apply is_digit_digit in D as [L D].
  change (String a d) with (String a "" ++ d). rewrite int_from_app.
  apply numeral_snoc; [|exact A]. cbn [int_from].
  replace (10 * 0 + (N_of_ascii a - 48))%N with (N_of_ascii a - 48)%N by lia.
  rewrite D at 1. apply numeral_one, L.
Qed.

Lemma numeral_unique d n m : numeral d n -> numeral d m -> n = m.
Proof. intros A B. apply numeral_facts in A, B. intuition congruence. Qed.

(** * The matcher *)

(** [reads ps g t]: the text [t] is an instance of the pattern with groups [g]. *)
Inductive reads : list piece -> list string -> string -> Prop :=
| reads_nil : reads [] [] ""
| reads_lit s ps g t : reads ps g t -> reads (Lit s :: ps) g (s ++ t)
| reads_num d ps g t : d <> "" -> all_digits d -> reads ps g t ->
    reads (Num :: ps) (d :: g) (d ++ t)
| reads_signed sg d ps g t : sg = "" \/ sg = "-" -> d <> "" -> all_digits d ->
    reads ps g t -> reads (Signed :: ps) ((sg ++ d) :: g) ((sg ++ d) ++ t).

(** Every group ends at a literal that does not start with a digit, or ends the
    pattern. *)
Fixpoint ends_well (ps : list piece) : bool :=
  match ps with
  | [] => true
  | Lit _ :: ps' => ends_well ps'
  | _ :: ps' =>
      match ps' with
      | [] => true
      | Lit (String a _) :: _ => negb (is_digit a) && ends_well ps'
      | _ => false
      end
  end.

(** The pattern ends in a group. *)
Fixpoint open_end (ps : list piece) : bool :=
  match ps with
  | [] => false
  | [Lit _] => false
  | [_] => true
  | _ :: ps' => open_end ps'
  end.

Lemma strip_ok t s r : strip t s = Some r <-> s = t ++ r.
Proof.
  revert s. induction t as [|a t IH]; intros s; cbn.
  - split; congruence.
  - destruct s as [|b s]; [split; discriminate|].
    destruct (Ascii.eqb_spec a b) as [->|N].
    + rewrite IH. split; congruence.
    + split; congruence.
Qed.

Lemma take_digits_ok s : forall d r, take_digits s = (d, r) ->
  s = d ++ r /\ all_digits d /\ no_digit_next r.
Proof.
  induction s as [|a s IH]; cbn [take_digits]; intros d r E.
  - injection E as <- <-. repeat split; auto. apply no_digit_next_iff. exact Logic.I.
  - destruct (is_digit a) eqn:D.
    + destruct (take_digits s) as [d' r'] eqn:T. injection E as <- <-.
      destruct (IH _ _ eq_refl) as (-> & A & N). cbn. auto.
    + injection E as <- <-. repeat split; auto. apply no_digit_next_iff. exact D.
Qed.

Lemma take_digits_app d r : all_digits d -> no_digit_next r -> take_digits (d ++ r) = (d, r).
Proof.
  intros A N. induction d as [|a d IH]; cbn [append take_digits].
  - apply no_digit_next_iff in N. destruct r as [|b r]; [reflexivity|].
    cbn [take_digits]. rewrite N. reflexivity.
  - destruct A as [D A]. rewrite D, (IH A). reflexivity.
Qed.

Lemma match_here_ok ps : forall s g, match_here ps s = Some g ->
  exists t r, s = t ++ r /\ reads ps g t /\ (open_end ps = true -> no_digit_next r).
Proof.
  induction ps as [|p ps IH]; intros s g M; cbn [match_here] in M.
  - injection M as <-. exists "", s. repeat split; [constructor|discriminate].
  - destruct p as [l| |].
    + destruct (strip l s) as [s'|] eqn:E; [|discriminate].
      apply strip_ok in E as ->. destruct (IH _ _ M) as (t & r & -> & R & O).
      exists (l ++ t), r. rewrite sapp_assoc. repeat split; [constructor; exact R|].
      destruct ps; [discriminate|exact O].
    + destruct (take_digits s) as [d s'] eqn:E.
      apply take_digits_ok in E as (-> & A & N).
      destruct d as [|a d]; [discriminate|].
      destruct (match_here ps s') as [g'|] eqn:M'; [|discriminate]. injection M as <-.
      destruct (IH _ _ M') as (t & r & -> & R & O).
      exists (String a d ++ t), r. rewrite sapp_assoc. repeat split.
      * constructor; [discriminate|exact A|exact R].
      * destruct ps; [|exact O]. intros _. inversion R; subst. exact N.
    + assert (S : exists sg s', (sg = "" \/ sg = "-") /\ s = sg ++ s' /\
                match s with String "-" s' => ("-", s') | _ => ("", s) end = (sg, s')).
      { destruct s as [|c s]; [exists "", ""; auto|].
        destruct (ascii_dec c "-") as [->|N]; [exists "-", s; auto|].
        exists "", (String c s). split; [auto|]. split; [reflexivity|].
        destruct c as [[] [] [] [] [] [] [] []]; try reflexivity. congruence. }
      destruct S as (sg & s' & SG & -> & E). rewrite E in M.
      destruct (take_digits s') as [d s''] eqn:E'.
      apply take_digits_ok in E' as (-> & A & N).
      destruct d as [|a d]; [discriminate|].
      destruct (match_here ps s'') as [g'|] eqn:M'; [|discriminate]. injection M as <-.
      destruct (IH _ _ M') as (t & r & -> & R & O).
      exists ((sg ++ String a d) ++ t), r. rewrite !sapp_assoc. repeat split.
      * rewrite <- sapp_assoc. constructor; [exact SG|discriminate|exact A|exact R].
      * destruct ps; [|exact O]. intros _. inversion R; subst. exact N.
Qed.

Lemma reads_starts ps g t r :
  match ps with [] => no_digit_next r | Lit (String a _) :: _ => is_digit a = false | _ => False end ->
  reads ps g t -> no_digit_next (t ++ r).
Proof.
  intros H R. destruct ps as [|p ps]; inversion R; subst.
  - exact H.
  - destruct s as [|a s]; [contradiction|]. apply no_digit_next_iff. exact H.
  - contradiction.
  - contradiction.
Qed.

Lemma match_here_all ps g t : reads ps g t -> forall r, ends_well ps = true ->
  (open_end ps = true -> no_digit_next r) -> match_here ps (t ++ r) = Some g.
Proof.
  assert (NX : forall p ps g t r, p = Num \/ p = Signed -> reads ps g t ->
             ends_well (p :: ps) = true -> (open_end (p :: ps) = true -> no_digit_next r) ->
             ends_well ps = true /\ (open_end ps = true -> no_digit_next r) /\
             no_digit_next (t ++ r)).
  { intros p ps0 g0 t0 r P R W O.
    assert (W' : match ps0 with [] => true | Lit (String a _) :: _ => negb (is_digit a) && ends_well ps0
                 | _ => false end = true) by (destruct P as [-> | ->]; exact W).
    destruct ps0 as [|q ps0].
    - split; [reflexivity|]. split; [discriminate|]. inversion R; subst.
      apply O. destruct P as [-> | ->]; reflexivity.
    - destruct q as [[|a l]| |]; try discriminate.
      apply andb_prop in W' as [D W']. apply negb_true_iff in D.
      split; [exact W'|]. split.
      + intros H. apply O. destruct P as [-> | ->]; exact H.
      + apply (reads_starts (Lit (String a l) :: ps0) g0); [exact D|exact R]. }
  induction 1 as [|s ps g t R IH|d ps g t Z A R IH|sg d ps g t SG Z A R IH]; intros r W O.
  - reflexivity.
  - cbn [match_here]. rewrite sapp_assoc.
    rewrite (proj2 (strip_ok s (s ++ t ++ r) (t ++ r)) eq_refl). apply IH.
    + exact W.
    + intros H. apply O. destruct ps; [discriminate|]. exact H.
  - destruct (NX Num ps g t r (or_introl eq_refl) R W O) as (W' & O' & N).
    cbn [match_here]. rewrite sapp_assoc, (take_digits_app d _ A N).
    destruct d as [|a d]; [congruence|]. rewrite (IH r W' O'). reflexivity.
  - destruct (NX Signed ps g t r (or_intror eq_refl) R W O) as (W' & O' & N).
    assert (S : match (sg ++ d) ++ t ++ r with String "-" s' => ("-", s') | _ => ("", (sg ++ d) ++ t ++ r) end
                = (sg, d ++ t ++ r)).
    { destruct SG as [-> | ->]; [|reflexivity].
      destruct d as [|c d]; [congruence|]. destruct A as [D _]. cbn [append].
      destruct c as [[] [] [] [] [] [] [] []]; try reflexivity. discriminate. }
    cbn [match_here]. rewrite sapp_assoc, S, (take_digits_app d _ A N).
    destruct d as [|a d]; [congruence|]. rewrite (IH r W' O'). reflexivity.
Qed.

(** The search finds the first instance of the pattern. *)
Lemma search_some ps : ends_well ps = true -> forall s g, search ps s = Some g ->
  exists a t r, s = a ++ t ++ r /\ reads ps g t /\ (open_end ps = true -> no_digit_next r) /\
    forall a' g' t' r', s = a' ++ t' ++ r' -> reads ps g' t' ->
      (open_end ps = true -> no_digit_next r') -> (String.length a <= String.length a')%nat.
Proof.
  intros W. induction s as [|c s IH]; intros g F; cbn [search] in F.
  - destruct (match_here ps "") as [g0|] eqn:M; [|discriminate]. injection F as ->.
    destruct (match_here_ok _ _ _ M) as (t & r & E & R & O).
    exists "", t, r. repeat split; auto. intros. cbn. lia.
  - destruct (match_here ps (String c s)) as [g0|] eqn:M.
    + injection F as ->. destruct (match_here_ok _ _ _ M) as (t & r & E & R & O).
      exists "", t, r. repeat split; auto. intros. cbn. lia.
    + destruct (IH g F) as (a & t & r & E & R & O & L).
      exists (String c a), t, r. repeat split; auto.
      * cbn. congruence.
      * intros a' g' t' r' E' R' O'. destruct a' as [|c' a'].
        -- cbn [append] in E'. rewrite E' in M. rewrite (match_here_all _ _ _ R' r' W O') in M.
           discriminate.
        -- cbn [append] in E'. injection E' as _ E'. cbn. apply le_n_S. eapply L; eauto.
Qed.

Lemma search_none ps : ends_well ps = true -> forall s, search ps s = None ->
  forall a g t r, s = a ++ t ++ r -> reads ps g t ->
    (open_end ps = true -> no_digit_next r) -> False.
Proof.
  intros W s. induction s as [|c s IH]; intros F a g t r E R O; cbn [search] in F.
  - destruct (match_here ps "") eqn:M; [discriminate|].
    destruct a; [|discriminate]. cbn [append] in E. rewrite E in M.
    rewrite (match_here_all _ _ _ R r W O) in M. discriminate.
  - destruct (match_here ps (String c s)) eqn:M; [discriminate|].
    destruct a as [|c' a]; cbn [append] in E.
    + rewrite E in M. rewrite (match_here_all _ _ _ R r W O) in M. discriminate.
    + injection E as _ E. eapply IH; eauto.
Qed.

Ltac inv_reads :=
  repeat match goal with
  | H : reads (_ :: _) _ _ |- _ => inversion H; subst; clear H
  | H : reads [] _ _ |- _ => inversion H; subst; clear H
  end.

Lemma signed_ok sg d : sg = "" \/ sg = "-" -> d <> "" -> all_digits d -> signed_numeral (sg ++ d).
Proof.
  intros S Z A. exists d, (int_from 0 d). split; [apply numeral_of; assumption|].
  destruct S as [-> | ->]; auto.
Qed.

Lemma signed_back d : signed_numeral d -> exists sg e, (sg = "" \/ sg = "-") /\ e <> "" /\
  all_digits e /\ d = sg ++ e.
Proof.
  intros (e & n & M & H). apply numeral_facts in M as (Z & A & _).
  destruct H as [-> | ->]; [exists "", e|exists "-", e]; auto.
Qed.

Ltac norm := cbn [append]; rewrite ?sapp_assoc; cbn [append]; rewrite ?sapp_nil.

Lemma gurobi_reads t g : reads gurobi_pattern g t <->
  exists sr sc sz sk si sb, g = [sr; sc; sz; sk; si; sb] /\
    (forall d, In d g -> d <> "" /\ all_digits d) /\ t = gurobi_text sr sc sz sk si sb.
Proof.
  unfold gurobi_pattern, gurobi_text. split.
  - intros R. inv_reads. do 6 eexists. split; [reflexivity|]. split.
    + cbn [In]. intros x H. intuition (subst; auto).
    + norm. reflexivity.
  - intros (sr & sc & sz & sk & si & sb & -> & D & ->).
    assert (D1 := D sr). assert (D2 := D sc). assert (D3 := D sz). assert (D4 := D sk).
    assert (D5 := D si). assert (D6 := D sb). cbn [In] in *. clear D.
    replace (" nonzeros" ++ newline ++ "Variable types: " ++ sk ++ " continuous, " ++ si
      ++ " integer (" ++ sb ++ " binary)") with ((" nonzeros" ++ newline ++ "Variable types: ")
      ++ sk ++ " continuous, " ++ si ++ " integer (" ++ sb ++ " binary)")
      by (rewrite !sapp_assoc; reflexivity).
    replace " binary)" with (" binary)" ++ "") at 2 by reflexivity.
    repeat first [apply reads_lit | apply reads_num; [tauto|tauto|] | apply reads_nil].
Qed.

Lemma rows_reads t g : reads cbc_rows_pattern g t <->
  exists sr lr sc lc sz, g = [sr; lr; sc; lc; sz] /\
    (sr <> "" /\ all_digits sr) /\ signed_numeral lr /\ (sc <> "" /\ all_digits sc) /\
    signed_numeral lc /\ (sz <> "" /\ all_digits sz) /\ t = cbc_rows_text sr lr sc lc sz.
Proof.
  unfold cbc_rows_pattern, cbc_rows_text. split.
  - intros R. inv_reads. do 5 eexists. split; [reflexivity|].
    repeat match goal with |- _ /\ _ => split end; try assumption;
      try (apply signed_ok; assumption). norm. reflexivity.
  - intros (sr & lr & sc & lc & sz & -> & [Z1 A1] & G1 & [Z2 A2] & G2 & [Z3 A3] & ->).
    apply signed_back in G1 as (g1 & e1 & S1 & Y1 & B1 & ->).
    apply signed_back in G2 as (g2 & e2 & S2 & Y2 & B2 & ->).
    replace sz with (sz ++ "") at 2 by apply sapp_nil.
    repeat first [apply reads_lit | apply reads_num; [assumption|assumption|]
                 | apply reads_signed; [assumption|assumption|assumption|] | apply reads_nil].
Qed.

Lemma integers_reads t g : reads cbc_integers_pattern g t <->
  exists si sb, g = [si; sb] /\ (si <> "" /\ all_digits si) /\ (sb <> "" /\ all_digits sb) /\
    t = cbc_integers_text si sb.
Proof.
  unfold cbc_integers_pattern, cbc_integers_text. split.
  - intros R. inv_reads. do 2 eexists. split; [reflexivity|].
    repeat match goal with |- _ /\ _ => split end; try assumption. norm. reflexivity.
  - intros (si & sb & -> & [Z1 A1] & [Z2 A2] & ->).
    replace " of which binary)" with (" of which binary)" ++ "") by reflexivity.
    repeat first [apply reads_lit | apply reads_num; [assumption|assumption|] | apply reads_nil].
Qed.

Lemma gurobi_at_reads log a r c z k i b : gurobi_at log a r c z k i b ->
  exists g t rest, reads gurobi_pattern g t /\ log = a ++ t ++ rest.
Proof.
  intros (sr & sc & sz & sk & si & sb & rest & M1 & M2 & M3 & M4 & M5 & M6 & E).
  exists [sr; sc; sz; sk; si; sb], (gurobi_text sr sc sz sk si sb), rest. split; [|exact E].
  apply gurobi_reads. do 6 eexists. split; [reflexivity|]. split; [|reflexivity].
  apply numeral_facts in M1, M2, M3, M4, M5, M6. cbn [In].
  intros d H. intuition (subst; auto).
Qed.

Lemma rows_at_reads log a r c z : cbc_rows_at log a r c z ->
  exists g t rest, reads cbc_rows_pattern g t /\ no_digit_next rest /\ log = a ++ t ++ rest.
Proof.
  intros (sr & lr & sc & lc & sz & rest & M1 & G1 & M2 & G2 & M3 & N & E).
  exists [sr; lr; sc; lc; sz], (cbc_rows_text sr lr sc lc sz), rest.
  split; [|split; [exact N|exact E]].
  apply numeral_facts in M1, M2, M3.
  apply rows_reads. exists sr, lr, sc, lc, sz. tauto.
Qed.

Lemma integers_at_reads log a i b : cbc_integers_at log a i b ->
  exists g t rest, reads cbc_integers_pattern g t /\ log = a ++ t ++ rest.
Proof.
  intros (si & sb & rest & M1 & M2 & E).
  exists [si; sb], (cbc_integers_text si sb), rest. split; [|exact E].
  apply numeral_facts in M1, M2. apply integers_reads. exists si, sb. tauto.
Qed.

Lemma gurobi_search log :
  match search gurobi_pattern log with
  | Some g => exists a r c z k i b, gurobi_at log a r c z k i b /\
      map int_of g = map Z.of_N [r; c; z; k; i; b] /\
      forall a' r' c' z' k' i' b', gurobi_at log a' r' c' z' k' i' b' ->
        (String.length a <= String.length a')%nat
  | None => forall a r c z k i b, ~ gurobi_at log a r c z k i b
  end.
Proof.
  destruct (search gurobi_pattern log) as [g|] eqn:F.
  - destruct (search_some gurobi_pattern eq_refl _ _ F) as (a & t & rest & E & R & _ & L).
    apply gurobi_reads in R as (sr & sc & sz & sk & si & sb & -> & D & ->).
    assert (M : forall d, In d [sr; sc; sz; sk; si; sb] -> numeral d (int_from 0 d))
      by (intros d H; apply D in H as [? ?]; apply numeral_of; assumption).
    exists a. do 6 eexists. split; [|split; [reflexivity|]].
    + exists sr, sc, sz, sk, si, sb, rest. cbn [In] in M. repeat split; auto 10.
    + intros a' r' c' z' k' i' b' H. apply gurobi_at_reads in H as (g' & t' & rest' & R' & E').
      eapply L; eauto. discriminate.
  - intros a r c z k i b H. apply gurobi_at_reads in H as (g' & t' & rest' & R' & E').
    eapply (search_none gurobi_pattern eq_refl _ F); eauto. discriminate.
Qed.

Lemma rows_search log :
  match search cbc_rows_pattern log with
  | Some g => exists a r c z, cbc_rows_at log a r c z /\
      group g 1 = Z.of_N r /\ group g 3 = Z.of_N c /\ group g 5 = Z.of_N z /\
      forall a' r' c' z', cbc_rows_at log a' r' c' z' -> (String.length a <= String.length a')%nat
  | None => forall a r c z, ~ cbc_rows_at log a r c z
  end.
Proof.
  destruct (search cbc_rows_pattern log) as [g|] eqn:F.
  - destruct (search_some cbc_rows_pattern eq_refl _ _ F) as (a & t & rest & E & R & O & L).
    apply rows_reads in R as (sr & lr & sc & lc & sz & -> & [Z1 A1] & G1 & [Z2 A2] & G2 & [Z3 A3] & ->).
    exists a, (int_from 0 sr), (int_from 0 sc), (int_from 0 sz). split; [|do 3 (split; [reflexivity|])].
    + exists sr, lr, sc, lc, sz, rest. pose proof (numeral_of _ Z1 A1).
      pose proof (numeral_of _ Z2 A2). pose proof (numeral_of _ Z3 A3). specialize (O eq_refl). tauto.
    + intros a' r' c' z' H. apply rows_at_reads in H as (g' & t' & rest' & R' & N' & E').
      eapply L; eauto.
  - intros a r c z H. apply rows_at_reads in H as (g' & t' & rest' & R' & N' & E').
    eapply (search_none cbc_rows_pattern eq_refl _ F); eauto.
Qed.

Lemma integers_search log :
  match search cbc_integers_pattern log with
  | Some g => exists a i b, cbc_integers_at log a i b /\
      group g 1 = Z.of_N i /\ group g 2 = Z.of_N b /\
      forall a' i' b', cbc_integers_at log a' i' b' -> (String.length a <= String.length a')%nat
  | None => forall a i b, ~ cbc_integers_at log a i b
  end.
Proof.
  destruct (search cbc_integers_pattern log) as [g|] eqn:F.
  - destruct (search_some cbc_integers_pattern eq_refl _ _ F) as (a & t & rest & E & R & _ & L).
    apply integers_reads in R as (si & sb & -> & [Z1 A1] & [Z2 A2] & ->).
    exists a, (int_from 0 si), (int_from 0 sb). split; [|do 2 (split; [reflexivity|])].
    + exists si, sb, rest. pose proof (numeral_of _ Z1 A1). pose proof (numeral_of _ Z2 A2). tauto.
    + intros a' i' b' H. apply integers_at_reads in H as (g' & t' & rest' & R' & E').
      eapply L; eauto. discriminate.
  - intros a i b H. apply integers_at_reads in H as (g' & t' & rest' & R' & E').
    eapply (search_none cbc_integers_pattern eq_refl _ F); eauto. discriminate.
Qed.

(** * The theorems *)

(** Reading a gurobi log never fails.  If the two lines stand somewhere in it,
    the six figures are those of the first place where they stand; otherwise no
    figure is given. *)
Theorem C84_gurobi : forall log, exists p, parse_infos "gurobi" log = Ok p /\
  ((p = nothing_read /\ forall a r c z k i b, ~ gurobi_at log a r c z k i b) \/
   exists a r c z k i b, gurobi_at log a r c z k i b /\
     (forall a' r' c' z' k' i' b', gurobi_at log a' r' c' z' k' i' b' ->
        (String.length a <= String.length a')%nat) /\
     gives (p_rows p) r /\ gives (p_cols p) c /\ gives (p_nonzeros p) z /\
     gives (p_continuous p) k /\ gives (p_integer p) i /\ gives (p_binary p) b).
Proof.
  intros log. unfold parse_infos. cbn [String.eqb Ascii.eqb Bool.eqb].
  pose proof (gurobi_search log) as S. destruct (search gurobi_pattern log) as [g|].
  - destruct S as (a & r & c & z & k & i & b & H & V & L).
    eexists. split; [reflexivity|]. right. exists a, r, c, z, k, i, b.
    do 6 (destruct g as [|? g]; [discriminate|]). destruct g; [|discriminate].
    cbn [map] in V. injection V as V1 V2 V3 V4 V5 V6.
    split; [exact H|]. split; [exact L|].
    unfold gives, group. cbn [p_rows p_cols p_nonzeros p_continuous p_integer p_binary nth Nat.sub].
    rewrite V1, V2, V3, V4, V5, V6. tauto.
  - eexists. split; [reflexivity|]. left. split; [reflexivity|exact S].
Qed.
Print Assumptions C84_gurobi.

(** Reading a cbc log: figures of the problem's size, if given, are those of the
    first line about it; figures about integer variables likewise; the number of
    continuous variables is the difference.  Reading fails, with a TypeError,
    exactly when there is a line about integer variables and none about the
    size. *)
Theorem C84_cbc : forall log,
  match parse_infos "cbc" log with
  | Ok p =>
      ((p_rows p = None /\ p_cols p = None /\ p_nonzeros p = None /\
        forall a r c z, ~ cbc_rows_at log a r c z) \/
       exists a r c z, cbc_rows_at log a r c z /\
         (forall a' r' c' z', cbc_rows_at log a' r' c' z' ->
            (String.length a <= String.length a')%nat) /\
         gives (p_rows p) r /\ gives (p_cols p) c /\ gives (p_nonzeros p) z) /\
      ((p_integer p = None /\ p_binary p = None /\ p_continuous p = None /\
        forall a i b, ~ cbc_integers_at log a i b) \/
       exists a i b c, cbc_integers_at log a i b /\
         (forall a' i' b', cbc_integers_at log a' i' b' ->
            (String.length a <= String.length a')%nat) /\
         gives (p_integer p) i /\ gives (p_binary p) b /\ gives (p_cols p) c /\
         p_continuous p = Some (Z.of_N c - Z.of_N i)%Z)
  | Err e => e = TypeError /\ (exists a i b, cbc_integers_at log a i b) /\
      forall a r c z, ~ cbc_rows_at log a r c z
  end.
Proof.
  intros log. unfold parse_infos. cbn [String.eqb Ascii.eqb Bool.eqb].
  pose proof (rows_search log) as SR. pose proof (integers_search log) as SI.
  destruct (search cbc_rows_pattern log) as [g|];
    destruct (search cbc_integers_pattern log) as [h|];
    cbn [p_rows p_cols p_nonzeros p_continuous p_integer p_binary nothing_read].
  - destruct SR as (a & r & c & z & H & V1 & V2 & V3 & L).
    destruct SI as (a' & i & b & H' & W1 & W2 & L').
    rewrite V1, V2, V3, W1, W2. split; right.
    + exists a, r, c, z. unfold gives. tauto.
    + exists a', i, b, c. unfold gives. tauto.
  - destruct SR as (a & r & c & z & H & V1 & V2 & V3 & L).
    rewrite V1, V2, V3. split; [right|left; tauto].
    exists a, r, c, z. unfold gives. tauto.
  - destruct SI as (a' & i & b & H' & W1 & W2 & L'). split; [reflexivity|]. split; [|exact SR].
    exists a', i, b. exact H'.
  - split; left; tauto.
Qed.
Print Assumptions C84_cbc.

(** For glpk no figure is given; any other name is refused. *)
Theorem C84_others : forall solver log,
  parse_infos "glpk" log = Ok nothing_read /\
  (solver <> "gurobi" -> solver <> "cbc" -> solver <> "glpk" ->
   parse_infos solver log = Err PyException).
Proof.
  intros s log. split; [reflexivity|]. intros A B C. unfold parse_infos.
  rewrite <- String.eqb_neq in A, B, C. rewrite A, B, C. reflexivity.
Qed.
Print Assumptions C84_others.

(** The figures reported are those that were read. A log that is not there, is of an unknown solver or cannot be read gives no figures
    (not even empty ones), and the calculation goes on. *)
Theorem C84_reported : forall solver log,
  load_log solver None = None /\
  (forall p, load_log solver (Some log) = Some p <-> parse_infos solver log = Ok p) /\
  (solver <> "gurobi" -> solver <> "cbc" -> solver <> "glpk" -> load_log solver (Some log) = None).
Proof.
  intros s log. split; [reflexivity|]. unfold load_log. split.
  - intros p. destruct (parse_infos s log) as [q|]; split; intros H; try discriminate H; congruence.
  - intros A B C. rewrite (proj2 (C84_others s log) A B C). reflexivity.
Qed.
Print Assumptions C84_reported.
Example C84_reported_applies : load_log "highs" (Some "Presolved: 3 rows") = None /\ load_log "glpk" (Some "GLPK") = Some nothing_read.
Proof. split; reflexivity. Qed.

(** Whatever the log says before and after: in a gurobi log the first place
    where the two lines stand gives the figures shown after the calculation. *)
Theorem C84_surroundings : forall before sr sc sz sk si sb after r c z k i b,
  numeral sr r -> numeral sc c -> numeral sz z -> numeral sk k -> numeral si i -> numeral sb b ->
  (forall a r' c' z' k' i' b',
     gurobi_at (before ++ gurobi_text sr sc sz sk si sb ++ after) a r' c' z' k' i' b' ->
     (String.length before <= String.length a)%nat) ->
  exists p, load_log "gurobi" (Some (before ++ gurobi_text sr sc sz sk si sb ++ after)) = Some p /\
    infos p = [("cols", Some (Z.of_N c)); ("continuous", Some (Z.of_N k));
               ("integer", Some (Z.of_N i)); ("binary", Some (Z.of_N b));
               ("rows", Some (Z.of_N r)); ("nonzeros", Some (Z.of_N z))].
Proof.
  intros before sr sc sz sk si sb after r c z k i b M1 M2 M3 M4 M5 M6 F.
  set (log := before ++ gurobi_text sr sc sz sk si sb ++ after) in *.
  assert (RD : reads gurobi_pattern [sr; sc; sz; sk; si; sb] (gurobi_text sr sc sz sk si sb)).
  { apply gurobi_reads. do 6 eexists. split; [reflexivity|]. split; [|reflexivity].
    pose proof (numeral_facts _ _ M1). pose proof (numeral_facts _ _ M2).
    pose proof (numeral_facts _ _ M3). pose proof (numeral_facts _ _ M4).
    pose proof (numeral_facts _ _ M5). pose proof (numeral_facts _ _ M6).
    cbn [In]. intros d H'. intuition (subst; auto). }
  assert (SE : search gurobi_pattern log = Some [sr; sc; sz; sk; si; sb]).
  { assert (G : forall bf s, s = bf ++ gurobi_text sr sc sz sk si sb ++ after ->
        (forall a g t rest, s = a ++ t ++ rest -> reads gurobi_pattern g t ->
           (String.length bf <= String.length a)%nat) ->
        search gurobi_pattern s = Some [sr; sc; sz; sk; si; sb]).
    { induction bf as [|ch bf IH]; intros s E Q.
      - assert (MH : match_here gurobi_pattern s = Some [sr; sc; sz; sk; si; sb])
          by (rewrite E; exact (match_here_all _ _ _ RD after eq_refl (fun H => ltac:(discriminate H)))).
        destruct s; cbn [search]; rewrite MH; reflexivity.
      - destruct s as [|c0 s]; [discriminate|]. cbn [append] in E. injection E as -> E.
        cbn [search]. destruct (match_here gurobi_pattern (String ch s)) eqn:MH.
        + destruct (match_here_ok _ _ _ MH) as (t & rest & E' & R' & _).
          specialize (Q "" _ t rest E' R'). cbn in Q. lia.
        + apply (IH s E). intros a g t rest E' R'.
          specialize (Q (String ch a) g t rest). cbn [append String.length] in Q.
          rewrite E' in Q. specialize (Q eq_refl R'). lia. }
    apply (G before); [reflexivity|]. intros a g t rest E R.
    apply gurobi_reads in R as (tr & tc & tz & tk & ti & tb & -> & D & ->).
    apply (F a (int_from 0 tr) (int_from 0 tc) (int_from 0 tz) (int_from 0 tk) (int_from 0 ti) (int_from 0 tb)).
    assert (M : forall d, In d [tr; tc; tz; tk; ti; tb] -> numeral d (int_from 0 d))
      by (intros d H; apply D in H as [? ?]; apply numeral_of; assumption).
    exists tr, tc, tz, tk, ti, tb, rest. cbn [In] in M. repeat split; auto 10. }
  unfold load_log, parse_infos. cbn [String.eqb Ascii.eqb Bool.eqb]. rewrite SE.
  eexists. split; [reflexivity|]. unfold infos, group, int_of.
  cbn [p_rows p_cols p_nonzeros p_continuous p_integer p_binary nth Nat.sub].
  apply numeral_facts in M1 as (_ & _ & ->), M2 as (_ & _ & ->), M3 as (_ & _ & ->),
    M4 as (_ & _ & ->), M5 as (_ & _ & ->), M6 as (_ & _ & ->). reflexivity.
Qed.
Print Assumptions C84_surroundings.

(** * The cases occur *)

Definition gurobi_log : string :=
  "Optimize a model with 285 rows, 292 columns and 878 nonzeros" ++ newline
  ++ "Variable types: 202 continuous, 90 integer (90 binary)" ++ newline
  ++ "Presolve removed 154 rows and 172 columns" ++ newline
  ++ gurobi_text "131" "120" "339" "53" "67" "67" ++ newline ++ "Root relaxation".

Example C84_gurobi_applies :
  exists p, load_log "gurobi" (Some gurobi_log) = Some p /\
    infos p = [("cols", Some 120%Z); ("continuous", Some 53%Z); ("integer", Some 67%Z);
               ("binary", Some 67%Z); ("rows", Some 131%Z); ("nonzeros", Some 339%Z)].
Proof. eexists. split; vm_compute; reflexivity. Qed.

Definition cbc_log : string :=
  "Welcome to the CBC MILP Solver" ++ newline
  ++ cbc_rows_text "1623" "-1079" "1430" "-1078" "4296" ++ " (-3306) elements" ++ newline
  ++ cbc_integers_text "862" "862" ++ newline.

Example C84_cbc_applies :
  parse_infos "cbc" cbc_log =
    Ok (mk_presolved (Some 1430%Z) (Some 568%Z) (Some 862%Z) (Some 862%Z) (Some 1623%Z) (Some 4296%Z)) /\
  parse_infos "cbc" (cbc_integers_text "862" "862") = Err TypeError.
Proof. split; vm_compute; reflexivity. Qed.

(** The hypotheses of [C84_surroundings] are met. *)
Example C84_surroundings_applies :
  exists p, load_log "gurobi" (Some ("Presolve time" ++ gurobi_text "1" "20" "3" "4" "5" "6" ++ "!")) = Some p /\
    infos p = [("cols", Some 20%Z); ("continuous", Some 4%Z); ("integer", Some 5%Z);
               ("binary", Some 6%Z); ("rows", Some 1%Z); ("nonzeros", Some 3%Z)].
Proof.
  assert (D : forall k, (k < 10)%N -> numeral (String (digit k) "") k) by (apply numeral_one).
  refine (C84_surroundings "Presolve time" "1" "20" "3" "4" "5" "6" "!" 1 20 3 4 5 6
    (D 1%N eq_refl) (numeral_more "2" 2 0 (D 2%N eq_refl) eq_refl) (D 3%N eq_refl)
    (D 4%N eq_refl) (D 5%N eq_refl) (D 6%N eq_refl) _).
  intros a r c z k i b (sr & sc & sz & sk & si & sb & rest & _ & _ & _ & _ & _ & _ & E).
  do 13 (destruct a as [|? a]; [exfalso; discriminate E|
         cbn [append] in E; injection E as _ E]).
  cbn. lia.
Qed.
