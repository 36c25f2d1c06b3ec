(** Claim C97: log messages reach the console and the log file exactly once, from the level on that was asked for last, line by line. *)
From Coq Require Import Ascii String List Bool Arith Lia.
From Verif Require Import Base LogOut.
Import ListNotations.
Open Scope string_scope.

(** ** Specification *)

(** The names of levels and their numbers; capitals do not matter. *)
Definition level_names : list (string * nat) := [("DEBUG", 10); ("INFO", 20); ("WARNING", 30); ("ERROR", 40); ("CRITICAL", 50)]%nat.
Definition small_or_capital (a b : ascii) : Prop := a = b \/ (65 <= nat_of_ascii b <= 90 /\ nat_of_ascii a = nat_of_ascii b + 32)%nat.
Fixpoint spelled (s t : string) : Prop :=
  match s, t with "", "" => True | String a s, String b t => small_or_capital a b /\ spelled s t | _, _ => False end.
Definition means (name : string) (l : nat) : Prop := exists n, In (n, l) level_names /\ spelled name n.

(** What has been asked for so far: a level, one of the two kinds of console, and perhaps a log file. *)
Record wanted : Type := mkWanted { w_level : nat; w_rich : bool; w_file : option string }.
Definition unreadable (can_open : string -> bool) (f : option string) : Prop := exists p, f = Some p /\ can_open p = false.
Inductive asks : call -> wanted -> wanted -> Prop :=
| a_setup : forall co ou name l f r w, means name l -> ~ unreadable co f -> asks (Setup co ou name f r) w (mkWanted l r f)
| a_no_file : forall co ou name l f r w, means name l -> unreadable co f -> asks (Setup co ou name f r) w (mkWanted l r None)
| a_change : forall name l w, means name l -> asks (Change name) w (mkWanted l (w_rich w) (w_file w))
| a_unknown : forall c name w, (exists co ou f r, c = Setup co ou name f r) \/ c = Change name -> (forall l, ~ means name l) -> asks c w w.
(** Importing flixOpt sets up the logging; then any calls follow. *)
Inductive history : list call -> wanted -> Prop :=
| h_import : forall co ou name l f r w w', means name l -> asks (Setup co ou name f r) w w' -> history [Setup co ou name f r] w'
| h_more : forall cs c w w', history cs w -> asks c w w' -> history (cs ++ [c]) w'.
Definition places (w : wanted) : list sink := (if w_rich w then Rich else Console) :: match w_file w with Some f => [LogFile f] | None => [] end.

(** [ls] are the lines of the text [s]. *)
Fixpoint has (P : ascii -> Prop) (s : string) : Prop := match s with "" => False | String a s => P a \/ has P s end.
Definition line_feed (a : ascii) : Prop := nat_of_ascii a = 10%nat.
(** The other characters at which Python ends a line. *)
Definition other_end (a : ascii) : Prop := In (nat_of_ascii a) [11; 12; 13; 28; 29; 30]%nat.
Definition lines_of (s : string) (ls : list string) : Prop := ls <> [] /\ (forall l, In l ls -> ~ has line_feed l) /\ s = String.concat (String (ascii_of_nat 10) "") ls.

(** ** Levels *)
Lemma up_small : forall a b, up_char a = b -> (65 <= nat_of_ascii b <= 90)%nat -> small_or_capital a b.
Proof.
  intros a b E R. unfold up_char in E. destruct (andb (97 <=? nat_of_ascii a)%nat (nat_of_ascii a <=? 122)%nat) eqn:D.
  - right. split; [exact R|]. apply andb_prop in D. destruct D as [D1 D2]. apply Nat.leb_le in D1, D2. rewrite <- E. rewrite nat_ascii_embedding by lia. lia.
  - left. exact E.
Qed.
Lemma small_up : forall a b, small_or_capital a b -> (65 <= nat_of_ascii b <= 90)%nat -> up_char a = b.
Proof.
  intros a b [->|[R E]] R'; unfold up_char.
  - replace (97 <=? nat_of_ascii b)%nat with false by (symmetry; apply Nat.leb_gt; lia). reflexivity.
  - replace (97 <=? nat_of_ascii a)%nat with true by (symmetry; apply Nat.leb_le; lia). replace (nat_of_ascii a <=? 122)%nat with true by (symmetry; apply Nat.leb_le; lia). cbn [andb].
    replace (nat_of_ascii a - 32)%nat with (nat_of_ascii b) by lia. apply ascii_nat_embedding.
Qed.
Fixpoint capitals_only (s : string) : Prop := match s with "" => True | String a s => (65 <= nat_of_ascii a <= 90)%nat /\ capitals_only s end.
Lemma spelled_upper : forall t s, capitals_only t -> (spelled s t <-> upper s = t).
Proof.
  induction t as [|b t IH]; intros [|a s] C; cbn; split; intros H; try discriminate; try contradiction; auto.
  - destruct C as [C1 C2]. destruct H as [H1 H2]. rewrite (small_up a b H1 C1). f_equal. apply IH; auto.
  - destruct C as [C1 C2]. injection H as H1 H2. split; [apply up_small; assumption|apply IH; auto].
Qed.
Lemma names_capital : forall n l, In (n, l) level_names -> capitals_only n.
Proof. intros n l H. cbn in H. repeat (destruct H as [H|H]; [injection H as <- <-; cbn; lia|]). destruct H. Qed.
Lemma level_meant : forall name l, level_by_name name = Ok l <-> means name l.
Proof.
  intros name l. unfold means. split.
  - unfold level_by_name. intros H.
    repeat match type of H with (if ?b =? ?t then _ else _) = _ => destruct (String.eqb_spec b t) as [E|_]; [exists t; injection H as <-; split; [cbn; tauto|apply spelled_upper; [cbn; lia|exact E]]|] end. discriminate H.
  - intros [n [Hn S]]. apply spelled_upper in S; [|eapply names_capital; exact Hn]. unfold level_by_name. rewrite S. cbn in Hn.
    repeat (destruct Hn as [Hn|Hn]; [injection Hn as <- <-; reflexivity|]). destruct Hn.
Qed.
Lemma level_unknown : forall name, (forall l, ~ means name l) -> level_by_name name = Err ValueError.
Proof.
  intros name H. destruct (level_by_name name) as [l|e] eqn:E; [exfalso; exact (H l (proj1 (level_meant _ _) E))|].
  unfold level_by_name in E. repeat match type of E with (if ?b then _ else _) = _ => destruct b end; congruence.
Qed.
Lemma meant_positive : forall name l, means name l -> (1 <= l)%nat.
Proof. intros name l [n [H _]]. cbn in H. repeat (destruct H as [H|H]; [injection H as <- <-; lia|]). destruct H. Qed.

(** ** Histories *)
Definition agrees (lg : logger) (w : wanted) : Prop :=
  lg_level lg = w_level w /\ (1 <= w_level w)%nat /\ map h_sink (lg_handlers lg) = places w /\ forall h, In h (lg_handlers lg) -> (h_level h <= lg_level lg)%nat.
Lemma setup_is : forall co ou name l f r lg, means name l ->
  setup_logging co ou name f r lg = let c := mkHandler (if r then Rich else Console) 0 in
    match f with None => (mkLogger l [c], None) | Some p => if co p then (mkLogger l [c; mkHandler (LogFile p) 0], None) else (mkLogger l [c], Some PyException) end.
Proof.
  intros co ou name l f r lg M. unfold setup_logging. rewrite (proj2 (level_meant _ _) M).
  assert (E : (if orb ou (negb (Nat.eqb (List.length (lg_handlers lg)) 0)) then [] else lg_handlers lg) = []).
  { destruct ou; [reflexivity|]. destruct (lg_handlers lg); reflexivity. }
  rewrite E. cbn. destruct f as [p|]; [|reflexivity]. destruct (co p); reflexivity.
Qed.
Lemma setup_agrees : forall co ou name l f r lg, means name l -> (~ unreadable co f -> agrees (fst (setup_logging co ou name f r lg)) (mkWanted l r f))
  /\ (unreadable co f -> agrees (fst (setup_logging co ou name f r lg)) (mkWanted l r None)).
Proof.
  intros co ou name l f r lg M. pose proof (meant_positive _ _ M) as P. rewrite (setup_is _ _ _ _ _ _ _ M). split; intros U.
  - destruct f as [p|]; [destruct (co p) eqn:E; [|exfalso; apply U; exists p; auto]|]; repeat split; try exact P; cbn; intros h H;
      repeat (destruct H as [<-|H]; [cbn; lia|]); destruct H.
  - destruct U as [p [-> E]]. cbn. rewrite E. repeat split; [exact P|]. intros h [<-|[]]. cbn. lia.
Qed.
Lemma asks_agrees : forall c w w' lg, asks c w w' -> agrees lg w -> agrees (fst (perform c lg)) w'.
Proof.
  intros c w w' lg A G. destruct A as [co ou name l f r w M U|co ou name l f r w M U|name l w M|c name w C N].
  - apply setup_agrees; assumption.
  - apply setup_agrees; assumption.
  - cbn [perform]. unfold change_logging_level. rewrite (proj2 (level_meant _ _) M). cbn [fst]. destruct G as (G1 & G2 & G3 & G4). repeat split; cbn [lg_level lg_handlers w_level].
    + eapply meant_positive; exact M.
    + rewrite map_map. cbn. rewrite <- (map_id (map h_sink (lg_handlers lg))) in G3. rewrite map_map in G3. exact G3.
    + intros h H. apply in_map_iff in H. destruct H as [h' [<- _]]. cbn. lia.
  - destruct C as [(co & ou & f & r & ->)| ->]; cbn [perform]; unfold setup_logging, change_logging_level; rewrite (level_unknown _ N); exact G.
Qed.
Lemma history_agrees : forall cs w, history cs w -> agrees (after cs new_logger) w.
Proof.
  intros cs w H. induction H as [co ou name l f r w w' M A|cs c w w' H IH A].
  - cbn [after fold_left perform]. inversion A as [? ? ? l' ? ? ? M' U|? ? ? l' ? ? ? M' U| |? name' ? C N]; subst; try (apply setup_agrees; assumption).
    exfalso. destruct C as [(co' & ou' & f' & r' & C)|C]; [|discriminate C]. injection C as <- <- <- <- <-. exact (N l M).
  - unfold after. rewrite fold_left_app. cbn [fold_left]. eapply asks_agrees; [exact A|exact IH].
Qed.

(** After any calls, a message is written once to the console and once to the log file if its level is at least the one asked for last, and nowhere
    otherwise. *)
Theorem C97_once : forall cs w root r, history cs w ->
  emit root (after cs new_logger) r = if (w_level w <=? rc_level r)%nat then map (fun k => (k, text_for k r)) (places w) else [].
Proof.
  intros cs w root r H. destruct (history_agrees cs w H) as (G1 & G2 & G3 & G4). unfold emit. rewrite G1. replace (Nat.eqb (w_level w) 0) with false by (symmetry; apply Nat.eqb_neq; lia).
  destruct (Nat.leb_spec (w_level w) (rc_level r)) as [L|_]; [|reflexivity]. rewrite <- G3, map_map.
  assert (E : filter (fun h => (h_level h <=? rc_level r)%nat) (lg_handlers (after cs new_logger)) = lg_handlers (after cs new_logger)); [|rewrite E; reflexivity].
  assert (K : forall h, In h (lg_handlers (after cs new_logger)) -> (h_level h <=? rc_level r)%nat = true) by (intros h Hh; apply Nat.leb_le; specialize (G4 h Hh); lia).
  revert K. generalize (lg_handlers (after cs new_logger)). intros hs K. induction hs as [|h hs IH]; [reflexivity|]. cbn. rewrite (K h (or_introl eq_refl)). f_equal. apply IH. intros h' Hh'. apply K. now right.
Qed.
Print Assumptions C97_once.

(** Every list of calls that begins with a known level has one history; a call fails exactly if the level is unknown, and then nothing changes, or if the
    log file cannot be opened, and then messages go to the console only. *)
Theorem C97_calls : (forall co ou name l f r cs, means name l -> exists w, history (Setup co ou name f r :: cs) w)
  /\ (forall cs w w', history cs w -> history cs w' -> w = w')
  /\ (forall c name lg, (exists co ou f r, c = Setup co ou name f r) \/ c = Change name -> (forall l, ~ means name l) -> perform c lg = (lg, Some ValueError))
  /\ (forall name l lg, means name l -> snd (perform (Change name) lg) = None)
  /\ (forall co ou name l f r lg, means name l -> (unreadable co f -> snd (perform (Setup co ou name f r) lg) = Some PyException) /\ (~ unreadable co f -> snd (perform (Setup co ou name f r) lg) = None)).
Proof.
  assert (UN : forall name l l', means name l -> means name l' -> l = l') by (intros name l l' M M'; apply level_meant in M, M'; congruence).
  assert (RD : forall co f, unreadable co f \/ ~ unreadable co f).
  { intros co [p|]; [destruct (co p) eqn:E; [right; intros [q [H H']]; injection H as <-; congruence|left; exists p; auto]|right; intros [q [H _]]; discriminate H]. }
  assert (MD : forall name, (exists l, means name l) \/ forall l, ~ means name l).
  { intros name. destruct (level_by_name name) as [l|e] eqn:E; [left; exists l; apply level_meant; exact E|right; intros l M; apply level_meant in M; congruence]. }
  assert (AD : forall c w w1 w2, asks c w w1 -> asks c w w2 -> w1 = w2).
  { intros c w w1 w2 A1 A2. destruct A1 as [co ou name l f r w M U|co ou name l f r w M U|name l w M|c name w C N].
    - inversion A2 as [? ? ? l' ? ? ? M' U'|? ? ? l' ? ? ? M' U'| |? name' ? C' N']; subst; [now rewrite (UN _ _ _ M M')|contradiction|exfalso].
      destruct C' as [(? & ? & ? & ? & C')|C']; [|discriminate C']. injection C' as <- <- <- <- <-. exact (N' l M).
    - inversion A2 as [? ? ? l' ? ? ? M' U'|? ? ? l' ? ? ? M' U'| |? name' ? C' N']; subst; [contradiction|now rewrite (UN _ _ _ M M')|exfalso].
      destruct C' as [(? & ? & ? & ? & C')|C']; [|discriminate C']. injection C' as <- <- <- <- <-. exact (N' l M).
    - inversion A2 as [| |? l' ? M'|? name' ? C' N']; subst; [now rewrite (UN _ _ _ M M')|exfalso]. destruct C' as [(? & ? & ? & ? & C')|C']; [discriminate C'|]. injection C' as <-. exact (N' l M).
    - inversion A2 as [? ? ? l' ? ? ? M' U'|? ? ? l' ? ? ? M' U'|? l' ? M'|? name' ? C' N']; subst; try reflexivity; exfalso;
        (destruct C as [(? & ? & ? & ? & C)|C]; [try discriminate C; injection C as <- <- <- <- <-|try discriminate C; injection C as <-]); exact (N l' M'). }
  split; [|split; [|split; [|split]]].
  - intros co ou name l f r cs M. assert (X : exists w, history [Setup co ou name f r] w).
    { destruct (RD co f) as [U|U]; [exists (mkWanted l r None)|exists (mkWanted l r f)]; apply h_import with (l := l) (w := mkWanted 0 r None); auto; [apply a_no_file|apply a_setup]; assumption. }
    change (Setup co ou name f r :: cs) with ([Setup co ou name f r] ++ cs)%list. revert X. generalize [Setup co ou name f r]. induction cs as [|c cs IH]; intros pre [w H]; [rewrite app_nil_r; eauto|].
    replace (pre ++ c :: cs)%list with ((pre ++ [c]) ++ cs)%list by (rewrite <- app_assoc; reflexivity). apply IH.
    destruct c as [co' ou' name' f' r'|name'].
    + destruct (MD name') as [[l' M']|N']; [destruct (RD co' f') as [U|U]|]; eexists; (apply h_more with (1 := H)); [apply a_no_file|apply a_setup|apply a_unknown with (name := name')]; eauto 8.
    + destruct (MD name') as [[l' M']|N']; eexists; (apply h_more with (1 := H)); [apply a_change|apply a_unknown with (name := name')]; eauto.
  - assert (NE : forall cs w, history cs w -> cs <> []) by (intros cs w H; destruct H; [discriminate|destruct cs; discriminate]).
    intros cs w w' H. revert w'. induction H as [co ou name l f r w w1 M A|cs c w w1 H IH A]; intros w2 H2.
    + inversion H2 as [co' ou' name' l' f' r' w0 ? M' A'|cs' c' w0 ? H' A' E]; subst.
      * inversion A as [? ? ? la ? ? ? Ma Ua|? ? ? la ? ? ? Ma Ua| |? na ? Ca Na]; subst; inversion A' as [? ? ? lb ? ? ? Mb Ub|? ? ? lb ? ? ? Mb Ub| |? nb ? Cb Nb]; subst; try contradiction; try now rewrite (UN _ _ _ Ma Mb).
        all: try (destruct Cb as [(? & ? & ? & ? & Cb)|Cb]; [|discriminate Cb]; injection Cb as <- <- <- <- <-; exfalso; exact (Nb l M)).
        all: destruct Ca as [(? & ? & ? & ? & Ca)|Ca]; [|discriminate Ca]; injection Ca as <- <- <- <- <-; exfalso; exact (Na l M).
      * exfalso. destruct cs' as [|x [|y cs']]; [exact (NE _ _ H' eq_refl)|discriminate E|discriminate E].
    + inversion H2 as [co' ou' name' l' f' r' w0 ? M' A' E|cs' c' w0 ? H' A' E]; subst.
      * exfalso. destruct cs as [|x [|y cs]]; [exact (NE _ _ H eq_refl)|discriminate E|discriminate E].
      * apply app_inj_tail in E. destruct E as [-> ->]. rewrite (IH _ H') in *. eapply AD; eassumption.
  - intros c name lg C N. destruct C as [(co & ou & f & r & ->)| ->]; cbn [perform]; unfold setup_logging, change_logging_level; rewrite (level_unknown _ N); reflexivity.
  - intros name l lg M. cbn [perform]. unfold change_logging_level. rewrite (proj2 (level_meant _ _) M). reflexivity.
  - intros co ou name l f r lg M. cbn [perform]. rewrite (setup_is _ _ _ _ _ _ _ M). split.
    + intros [p [-> E]]. cbn. rewrite E. reflexivity.
    + intros U. destruct f as [p|]; [|reflexivity]. cbn. destruct (co p) eqn:E; [reflexivity|]. exfalso. apply U. exists p. auto.
Qed.
Print Assumptions C97_calls.

(** ** Texts *)
Lemma nl_10 : forall a, Ascii.eqb a nl = true <-> line_feed a.
Proof.
  intros a. unfold line_feed. split; intros H; [apply Ascii.eqb_eq in H; subst; reflexivity|]. apply Ascii.eqb_eq. rewrite <- (ascii_nat_embedding a), H. reflexivity.
Qed.
Lemma join_concat : forall ls, join_lines ls = String.concat (String (ascii_of_nat 10) "") ls.
Proof. induction ls as [|l [|m ls] IH]; [reflexivity|reflexivity|]. change (join_lines (l :: m :: ls)) with (l ++ String nl (join_lines (m :: ls))). rewrite IH. reflexivity. Qed.
Lemma split_one : forall l, ~ has line_feed l -> split_lines l = [l].
Proof.
  induction l as [|a l IH]; intros H; [reflexivity|]. cbn [has] in H. cbn [split_lines]. destruct (Ascii.eqb a nl) eqn:E; [exfalso; apply H; left; apply nl_10; exact E|]. rewrite IH by auto. reflexivity.
Qed.
Lemma split_more : forall l s, ~ has line_feed l -> split_lines (l ++ String nl s) = l :: split_lines s.
Proof.
  induction l as [|a l IH]; intros s H; [reflexivity|]. cbn [has] in H. change (String a l ++ String nl s) with (String a (l ++ String nl s)). cbn [split_lines]. destruct (Ascii.eqb a nl) eqn:E; [exfalso; apply H; left; apply nl_10; exact E|]. rewrite IH by auto. reflexivity.
Qed.
Lemma split_join : forall ls, ls <> [] -> (forall l, In l ls -> ~ has line_feed l) -> split_lines (join_lines ls) = ls.
Proof.
  induction ls as [|l [|m ls] IH]; intros N H; [congruence| |].
  - apply split_one, H. now left.
  - change (join_lines (l :: m :: ls)) with (l ++ String nl (join_lines (m :: ls))). rewrite split_more by (apply H; now left). rewrite IH; [reflexivity|discriminate|]. intros l' Hl'. apply H. now right.
Qed.
Lemma lines_split : forall s ls, lines_of s ls <-> ls = split_lines s.
Proof.
  intros s ls. split.
  - intros (N & H & ->). rewrite <- join_concat. symmetry. apply split_join; assumption.
  - intros ->. assert (X : split_lines s <> [] /\ (forall l, In l (split_lines s) -> ~ has line_feed l) /\ s = join_lines (split_lines s)); [|rewrite join_concat in X; exact X].
    induction s as [|a s [N [H J]]].
    + split; [discriminate|]. split; [intros l [<-|[]] []|reflexivity].
    + cbn [split_lines]. destruct (Ascii.eqb a nl) eqn:E.
      * split; [discriminate|]. split; [intros l [<-|Hl]; [intros []|apply H, Hl]|]. apply Ascii.eqb_eq in E. subst a. destruct (split_lines s) as [|m ls]; [congruence|].
        change (join_lines ("" :: m :: ls)) with ("" ++ String nl (join_lines (m :: ls))). rewrite <- J. reflexivity.
      * destruct (split_lines s) as [|m ls]; [congruence|]. split; [discriminate|]. split.
        -- intros l [<-|Hl]; [|apply H; now right]. cbn. intros [L|L]; [apply nl_10 in L; congruence|exact (H m (or_introl eq_refl) L)].
        -- destruct ls as [|k ls]; [cbn in J |- *; congruence|]. change (join_lines (String a m :: k :: ls)) with (String a (m ++ String nl (join_lines (k :: ls)))). f_equal. exact J.
Qed.
Lemma has_app : forall P s t, has P (s ++ t) <-> has P s \/ has P t.
Proof. induction s as [|a s IH]; intros t; cbn; [tauto|]. rewrite IH. tauto. Qed.
Fixpoint spaces (n : nat) : string := match n with O => "" | S n => String (ascii_of_nat 32) (spaces n) end.
Lemma app_empty : forall s, s ++ "" = s.
Proof. induction s as [|a s IH]; [reflexivity|]. cbn. now rewrite IH. Qed.
Lemma ljust_is : forall n s, ljust n s = s ++ spaces (n - String.length s).
Proof.
  induction n as [|n IH]; intros s; [cbn; symmetry; apply app_empty|].
  destruct s as [|a s]; cbn; rewrite IH; cbn; [|reflexivity]. rewrite Nat.sub_0_r. reflexivity.
Qed.
Lemma spaces_no : forall (P : ascii -> Prop) n, ~ P (ascii_of_nat 32) -> ~ has P (spaces n).
Proof. intros P n N. induction n as [|n IH]; cbn; [tauto|]. intros [H|H]; auto. Qed.
(** The beginning of each line: the time, and the level in a column of eight characters. *)
Definition beginning (r : log_record) : string := rc_time r ++ " | " ++ (rc_name r ++ spaces (8 - String.length (rc_name r))) ++ " | ".
Lemma app_assoc_s : forall a b c : string, (a ++ b) ++ c = a ++ b ++ c.
Proof. induction a as [|x a IH]; intros b c; [reflexivity|]. cbn. now rewrite IH. Qed.
Lemma multiline_is : forall r, multiline r = join_lines (map (fun l => beginning r ++ l) (split_lines (rc_text r))).
Proof.
  intros r. unfold multiline. f_equal. rewrite ljust_is.
  assert (E : forall l, (rc_time r ++ " | " ++ (rc_name r ++ spaces (8 - String.length (rc_name r))) ++ " |") ++ " " ++ l = beginning r ++ l) by (intros l; unfold beginning; rewrite !app_assoc_s; reflexivity).
  assert (N : split_lines (rc_text r) <> []) by (apply (proj2 (lines_split (rc_text r) _) eq_refl)).
  destruct (split_lines (rc_text r)) as [|l ls]; [congruence|]. cbn [List.hd List.tl List.length map]. rewrite E. destruct ls as [|m ls]; [reflexivity|]. cbn [List.length]. cbn [Nat.ltb Nat.leb app].
  f_equal. apply map_ext. intros x. apply E.
Qed.
Lemma beginning_no : forall (P : ascii -> Prop) r, ~ P (ascii_of_nat 32) -> ~ P (ascii_of_nat 124) -> ~ has P (rc_time r) -> ~ has P (rc_name r) -> ~ has P (beginning r).
Proof.
  intros P r P1 P2 T N. unfold beginning. rewrite !has_app. intros [H|[H|[[H|H]|H]]]; [exact (T H)| |exact (N H)|exact (spaces_no P _ P1 H)|]; cbn in H; destruct H as [H|[H|[H|[]]]]; auto.
Qed.

(** In the log file, every line of the message is one line, after the time and the level. *)
Theorem C97_file : forall r p ls, ~ has line_feed (rc_time r) -> ~ has line_feed (rc_name r) -> lines_of (rc_text r) ls -> lines_of (text_for (LogFile p) r) (map (fun l => beginning r ++ l) ls).
Proof.
  intros r p ls T N L. apply lines_split in L. subst ls. cbn [text_for]. rewrite multiline_is. apply lines_split. symmetry.
  apply split_join; [intros E; apply map_eq_nil in E; exact (proj1 (proj2 (lines_split (rc_text r) _) eq_refl) E)|].
  intros l Hl. apply in_map_iff in Hl. destruct Hl as [m [<- Hm]]. rewrite has_app. intros [H|H].
  - revert H. apply beginning_no; [discriminate|discriminate|exact T|exact N].
  - exact (proj1 (proj2 (proj2 (lines_split (rc_text r) _) eq_refl)) m Hm H).
Qed.
Print Assumptions C97_file.
(** Every text has its lines, and only one list of them, so nothing of the message is lost. *)
Theorem C97_lines : forall s, exists ls, lines_of s ls /\ forall ls', lines_of s ls' -> ls' = ls.
Proof. intros s. exists (split_lines s). split; [now apply lines_split|]. intros ls' H. now apply lines_split in H. Qed.
Print Assumptions C97_lines.

(** Colours on the console. *)
Definition code (s : string) : string := String (ascii_of_nat 27) s.
Definition level_colours : list (string * string) :=
  [("DEBUG", code "[32m"); ("INFO", code "[34m"); ("WARNING", code "[33m"); ("ERROR", code "[31m"); ("CRITICAL", code "[1m" ++ code "[31m")].
Lemma bound_is : forall a, boundary a = true <-> line_feed a \/ other_end a.
Proof.
  intros a. unfold boundary, line_feed, other_end. generalize (nat_of_ascii a). intros n. cbn [In]. rewrite orb_true_iff, !andb_true_iff, !Nat.leb_le. lia.
Qed.
Lemma splits_one : forall l, l <> "" -> ~ has line_feed l -> ~ has other_end l -> splitlines l = [l].
Proof.
  induction l as [|a l IH]; intros N H O; [congruence|]. cbn in H, O. cbn [splitlines]. destruct (boundary a) eqn:E; [apply bound_is in E; tauto|]. destruct l as [|b l]; [reflexivity|]. rewrite IH; [reflexivity|discriminate|tauto|tauto].
Qed.
Lemma splits_more : forall l s, ~ has line_feed l -> ~ has other_end l -> splitlines (l ++ String nl s) = l :: splitlines s.
Proof.
  induction l as [|a l IH]; intros s H O.
  - change ("" ++ String nl s) with (String nl s). cbn [splitlines]. destruct s; reflexivity.
  - cbn in H, O. change (String a l ++ String nl s) with (String a (l ++ String nl s)). cbn [splitlines]. destruct (boundary a) eqn:E; [apply bound_is in E; tauto|]. rewrite IH by tauto. reflexivity.
Qed.
Lemma splits_join : forall ls, (forall l, In l ls -> l <> "" /\ ~ has line_feed l /\ ~ has other_end l) -> splitlines (join_lines ls) = ls.
Proof.
  induction ls as [|l [|m ls] IH]; intros H; [reflexivity| |].
  - destruct (H l (or_introl eq_refl)) as (A & B & C). apply splits_one; assumption.
  - change (join_lines (l :: m :: ls)) with (l ++ String nl (join_lines (m :: ls))). destruct (H l (or_introl eq_refl)) as (A & B & C). rewrite splits_more by assumption. rewrite IH; [reflexivity|]. intros l' Hl'. apply H. now right.
Qed.
Lemma lines_other : forall s l, In l (split_lines s) -> has other_end l -> has other_end s.
Proof.
  induction s as [|a s IH]; intros l Hl O.
  - destruct Hl as [<-|[]]. destruct O.
  - cbn [split_lines] in Hl. cbn [has]. destruct (Ascii.eqb a nl); [destruct Hl as [<-|Hl]; [destruct O|right; eauto]|].
    destruct (split_lines s) as [|m ls]; [destruct Hl as [<-|[]]; destruct O as [O|[]]; now left|]. destruct Hl as [<-|Hl]; [destruct O as [O|O]; [now left|right; eapply IH; [now left|exact O]]|right; eapply IH; [right; exact Hl|exact O]].
Qed.

(** On the console, the same lines are written, each in the colour of its level, if the message has no other ends of lines. *)
Theorem C97_console : forall r c ls, (forall s, s = rc_time r \/ s = rc_name r -> ~ has line_feed s) -> (forall s, s = rc_time r \/ s = rc_name r \/ s = rc_text r -> ~ has other_end s) ->
  In (rc_name r, c) level_colours -> lines_of (rc_text r) ls -> lines_of (text_for Console r) (map (fun l => c ++ (beginning r ++ l) ++ code "[0m") ls).
Proof.
  intros r c ls LF OE C L. apply lines_split in L. subst ls. cbn [text_for]. unfold coloured.
  assert (K : forall l, In l (split_lines (rc_text r)) -> beginning r ++ l <> "" /\ ~ has line_feed (beginning r ++ l) /\ ~ has other_end (beginning r ++ l)).
  { intros l Hl. split; [|split].
    - unfold beginning. destruct (rc_time r); discriminate.
    - rewrite has_app. intros [H|H]; [revert H; apply beginning_no; [discriminate|discriminate|apply LF; auto|apply LF; auto]|exact (proj1 (proj2 (proj2 (lines_split (rc_text r) _) eq_refl)) l Hl H)].
    - rewrite has_app. intros [H|H]; [revert H; apply beginning_no; [cbn; intuition discriminate|cbn; intuition discriminate|apply OE; auto|apply OE; auto]|exact (OE (rc_text r) ltac:(auto) (lines_other _ _ Hl H))]. }
  rewrite multiline_is, splits_join by (intros l Hl; apply in_map_iff in Hl; destruct Hl as [m [<- Hm]]; apply K, Hm). rewrite map_map.
  assert (CE : colour_of_level (rc_name r) = c) by (cbn in C; repeat (destruct C as [C|C]; [injection C as C1 C2; rewrite <- C1, <- C2; reflexivity|]); destruct C). rewrite CE.
  assert (CN : ~ has line_feed c) by (cbn in C; repeat (destruct C as [C|C]; [injection C as C1 C2; rewrite <- C2; cbn; intuition discriminate|]); destruct C).
  apply lines_split. symmetry. apply split_join; [intros E; apply map_eq_nil in E; exact (proj1 (proj2 (lines_split (rc_text r) _) eq_refl) E)|].
  intros l Hl. apply in_map_iff in Hl. destruct Hl as [m [<- Hm]]. rewrite has_app, has_app. intros [H|[H|H]]; [exact (CN H)|exact (proj1 (proj2 (K m Hm)) H)|]. cbn in H. intuition discriminate.
Qed.
Print Assumptions C97_console.

(** ** Examples *)
Definition works (_ : string) : bool := true.
Definition some_calls : list call := [Setup works false "INFO" (Some "flixOpt.log") false; Change "debug"; Change "loud"; Setup (fun _ => false) true "warning" (Some "elsewhere.log") true; Change "Error"; Setup works true "INFO" (Some "new.log") false].
Lemma no_loud : forall l, ~ means "loud" l.
Proof. intros l M. apply level_meant in M. discriminate M. Qed.
Lemma known : forall s l, level_by_name s = Ok l -> means s l.
Proof. intros s l H. now apply level_meant. Qed.
Example C97_applies : history some_calls (mkWanted 20 false (Some "new.log")).
Proof.
  unfold some_calls. change (history (((((([Setup works false "INFO" (Some "flixOpt.log") false] ++ [Change "debug"]) ++ [Change "loud"]) ++ [Setup (fun _ => false) true "warning" (Some "elsewhere.log") true]) ++ [Change "Error"]) ++ [Setup works true "INFO" (Some "new.log") false])) (mkWanted 20 false (Some "new.log"))).
  assert (R : forall f, ~ unreadable works f) by (intros f [p [_ H]]; discriminate H).
  eapply h_more; [|apply a_setup; [apply known; reflexivity|apply R]]. eapply h_more; [|apply a_change; apply known; reflexivity].
  eapply h_more; [|apply a_no_file; [apply known; reflexivity|exists "elsewhere.log"; auto]]. eapply h_more; [|apply a_unknown with (name := "loud"); [now right|exact no_loud]].
  eapply h_more; [|apply a_change; apply known; reflexivity]. eapply h_import with (w := mkWanted 0 false None); [apply known; reflexivity|apply a_setup; [apply known; reflexivity|apply R]].
Qed.
Definition two_lines : log_record := mkRecord 30 "WARNING" "2024-01-01 00:00:00" ("first" ++ String (ascii_of_nat 10) "second").
Example C97_shown : emit 30 (after some_calls new_logger) two_lines =
  [(Console, coloured two_lines); (LogFile "new.log", "2024-01-01 00:00:00 | WARNING  | first" ++ String (ascii_of_nat 10) "2024-01-01 00:00:00 | WARNING  | second")]
  /\ emit 30 (after some_calls new_logger) (mkRecord 10 "DEBUG" "" "hidden") = [].
Proof. split; vm_compute; reflexivity. Qed.
(** With another end of a line, the console shows more lines than the message has, and only the first of them begins with time and level. *)
Example C97_other_ends : split_lines ("a" ++ String (ascii_of_nat 13) "b") = ["a" ++ String (ascii_of_nat 13) "b"]
  /\ List.length (split_lines (coloured (mkRecord 30 "WARNING" "12:00" ("a" ++ String (ascii_of_nat 13) "b")))) = 2%nat.
Proof. split; vm_compute; reflexivity. Qed.
