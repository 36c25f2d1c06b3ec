(** Weights of segments that belong to a chosen segment and a position on it, and that they satisfy everything a segment
    model hands to the solver. *)
From Coq Require Import String Ascii.
From Verif Require Import Base BaseFacts MathModel Spec MathFacts MathTotal Structure StructureFacts Params Features Elements System SysSpec
  AdmitSpec CtxFacts ReadTools InvestFacts OnOffFacts OnOffLaws OnOffAdmits FlowFacts NavFacts FlowAdmits ResultFacts AdmitFacts SegFacts SegAdmits
  ClosedFacts GlueFacts ShareAdmits PlanSpec.

Lemma append_inj_r : forall a b s : string, (a ++ s)%string = (b ++ s)%string -> a = b.
Proof.
  assert (L : forall a b : string, String.length (a ++ b) = (String.length a + String.length b)%nat) by (induction a; intros; simpl; auto).
  induction a as [|c a IH]; intros b s H.
  - destruct b as [|d b]; auto. apply (f_equal String.length) in H. rewrite !L in H. simpl in H. lia.
  - destruct b as [|d b].
    + apply (f_equal String.length) in H. rewrite !L in H. simpl in H. lia.
    + simpl in H. injection H as -> H. f_equal. eapply IH; eauto.
Qed.
Lemma seg_inj : forall e i j w, seg e i w = seg e j w -> i = j.
Proof.
  intros e i j w H. unfold seg, vlabel, cat in H. cbn [fold_right] in H. apply append_inj_r in H. rewrite !append_nil_r' in H.
  apply append_inj_l in H. apply append_inj_l in H. apply append_inj_l in H. apply nat_str_inj; auto.
Qed.
Lemma seg_words : forall e i j w w', In w ["inSegment"; "lambda0"; "lambda1"] -> In w' ["inSegment"; "lambda0"; "lambda1"] ->
  seg e i w = seg e j w' -> w = w'.
Proof.
  intros e i j w w' H H' E. apply (f_equal lastc) in E. unfold seg in E. simpl in H, H'.
  rewrite !lastc_vlabel in E by (intros Z; subst; intuition discriminate).
  intuition (subst; auto; try discriminate E).
Qed.

Lemma finite_choice : forall {A} (P : nat -> A -> Prop) n, A -> (forall t, (t < n)%nat -> exists a, P t a) -> exists f, forall t, (t < n)%nat -> P t (f t).
Proof.
  intros A P n d. induction n as [|n IH]; intros H; [exists (fun _ => d); lia|].
  destruct IH as [f Hf]; [intros; apply H; lia|]. destruct (H n) as [a Ha]; [lia|].
  exists (fun t => if Nat.eqb t n then a else f t). intros t Ht. destruct (Nat.eqb_spec t n) as [->|]; auto. apply Hf. lia.
Qed.
Lemma sumn_single : forall n k (f g : nat -> Q), (k < n)%nat -> g k == f k -> (forall i, (i < n)%nat -> i <> k -> g i == 0) -> sumn n g == f k.
Proof.
  intros n k f g. induction n as [|n IH]; intros Hk E Z; [lia|]. assert (SS : sumn (S n) g == sumn n g + g n) by (unfold sumn; rewrite seq_S, map_app, Qsum_app; simpl; ring).
  rewrite SS. destruct (Nat.eq_dec k n) as [->|N].
  - rewrite E. setoid_replace (sumn n g) with 0; [ring|]. unfold sumn. apply Qsum_zero. intros q Hq. apply in_map_iff in Hq.
    destruct Hq as [i [<- Hi]]. apply in_seq in Hi. apply Z; lia.
  - rewrite IH; auto; [|lia]. rewrite (Z n); [ring|lia|auto].
Qed.
Lemma sumn_none : forall n (g : nat -> Q), (forall i, (i < n)%nat -> g i == 0) -> sumn n g == 0.
Proof. intros n g Z. unfold sumn. apply Qsum_zero. intros q Hq. apply in_map_iff in Hq. destruct Hq as [i [<- Hi]]. apply in_seq in Hi. apply Z; lia. Qed.

(** ** The witness *)
Definition chosen (ch : nat -> option (nat * Q)) (t i : nat) (g : Q -> Q) : Q :=
  match ch t with Some (k, w) => if Nat.eqb i k then g w else 0 | None => 0 end.
Definition at_seg (elem w l : string) (nseg : nat) : option nat := find (fun i => String.eqb l (seg elem i w)) (seq 0 nseg).
Definition with_segments (x : asg) (elem : string) (nseg : nat) (ch : nat -> option (nat * Q)) : asg := fun l =>
  match at_seg elem "inSegment" l nseg with Some i => fun t => chosen ch t i (fun _ => 1) | None =>
  match at_seg elem "lambda0" l nseg with Some i => fun t => chosen ch t i (fun w => 1 - w) | None =>
  match at_seg elem "lambda1" l nseg with Some i => fun t => chosen ch t i (fun w => w) | None => x l end end end.

Lemma at_seg_same : forall e w n i, (i < n)%nat -> at_seg e w (seg e i w) n = Some i.
Proof.
  intros e w n i Hi. unfold at_seg. destruct (find _ _) as [j|] eqn:F.
  - apply find_some in F. destruct F as [_ F]. apply String.eqb_eq in F. apply seg_inj in F. congruence.
  - exfalso. apply find_none with (x := i) in F; [|apply in_seq; lia]. rewrite String.eqb_refl in F. discriminate.
Qed.
Lemma at_seg_none : forall e w l n, (forall i, l <> seg e i w) -> at_seg e w l n = None.
Proof.
  intros e w l n H. unfold at_seg. destruct (find _ _) as [j|] eqn:F; auto. apply find_some in F. destruct F as [_ F]. apply String.eqb_eq in F.
  destruct (H j F).
Qed.
Lemma seg_out : forall x e n ch l, (forall i w, In w ["inSegment"; "lambda0"; "lambda1"] -> l <> seg e i w) -> with_segments x e n ch l = x l.
Proof. intros x e n ch l H. unfold with_segments. rewrite !at_seg_none; auto; intros i; apply H; simpl; auto. Qed.
Lemma seg_in1 : forall x e n ch i, (i < n)%nat -> with_segments x e n ch (seg e i "inSegment") = fun t => chosen ch t i (fun _ => 1).
Proof. intros x e n ch i Hi. unfold with_segments. rewrite at_seg_same; auto. Qed.
Lemma seg_in2 : forall x e n ch i, (i < n)%nat -> with_segments x e n ch (seg e i "lambda0") = fun t => chosen ch t i (fun w => 1 - w).
Proof.
  intros x e n ch i Hi. unfold with_segments. rewrite (at_seg_none e "inSegment"), at_seg_same; auto.
  intros j E. apply seg_words in E; [discriminate|simpl; auto|simpl; auto].
Qed.
Lemma seg_in3 : forall x e n ch i, (i < n)%nat -> with_segments x e n ch (seg e i "lambda1") = fun t => chosen ch t i (fun w => w).
Proof.
  intros x e n ch i Hi. unfold with_segments. rewrite (at_seg_none e "inSegment"), (at_seg_none e "lambda0"), at_seg_same; auto;
  intros j E; apply seg_words in E; try discriminate; simpl; auto.
Qed.

(** All variables lie on the same segment [k] at the same position [w]. *)
Definition on_segment (x : asg) (t : nat) (pts : list (variable * list (numeric * numeric))) (k : nat) (w : Q) : Prop :=
  0 <= w /\ w <= 1 /\ forall v ps, In (v, ps) pts -> exists a b, nth_error ps k = Some (a, b) /\ x (v_label v) t == (1 - w) * at_ a t + w * at_ b t.

Theorem segments_exist : forall x elem len pts outside m, len <> 0%nat ->
  multi_segments elem len pts outside = Ok m -> em_translates m ->
  (forall v ps, In (v, ps) pts -> v_len v = len /\ forall a b, In (a, b) ps -> (nlen a = 1%nat \/ nlen a = len) /\ (nlen b = 1%nat \/ nlen b = len)) ->
  (forall v, outside = Some v -> v_len v = len) ->
  (forall v i w, In v (map fst pts ++ ovar outside) -> In w ["inSegment"; "lambda0"; "lambda1"] -> v_label v <> seg elem i w) ->
  (forall t, (t < len)%nat ->
     (exists k w, on_segment x t pts k w /\ (forall v, outside = Some v -> x (v_label v) t == 1))
     \/ (exists v, outside = Some v /\ x (v_label v) t == 0 /\ forall v ps, In (v, ps) pts -> x (v_label v) t == 0)) ->
  exists y, (forall l, (forall i w, In w ["inSegment"; "lambda0"; "lambda1"] -> l <> seg elem i w) -> y l = x l) /\ em_sat y m.
Proof.
  intros x elem len pts outside m NZ H T PG OL NL V.
  destruct pts as [|[v0 ps0] r] eqn:EP; [unfold multi_segments in H; simpl in H; discriminate|]. rewrite <- EP in *.
  assert (CH : exists ch : nat -> option (nat * Q), forall t, (t < len)%nat ->
     match ch t with
     | Some (k, w) => (k < length ps0)%nat /\ on_segment x t pts k w /\ (forall v, outside = Some v -> x (v_label v) t == 1)
     | None => exists v, outside = Some v /\ x (v_label v) t == 0 /\ forall v ps, In (v, ps) pts -> x (v_label v) t == 0 end).
  { apply (finite_choice (fun t c => match c with
     | Some (k, w) => (k < length ps0)%nat /\ on_segment x t pts k w /\ (forall v, outside = Some v -> x (v_label v) t == 1)
     | None => exists v, outside = Some v /\ x (v_label v) t == 0 /\ forall v ps, In (v, ps) pts -> x (v_label v) t == 0 end)); [exact None|].
    intros t Ht. destruct (V t Ht) as [[k [w [A B]]]|A]; [|exists None; exact A]. exists (Some (k, w)). split; auto.
    destruct A as [_ [_ A]]. destruct (A v0 ps0) as [a [b [E _]]]; [rewrite EP; left; auto|]. apply nth_error_Some. congruence. }
  destruct CH as [ch CH]. exists (with_segments x elem (length ps0) ch). split; [intros l Hl; apply seg_out; auto|].
  assert (KV : forall v, In v (map fst pts ++ ovar outside) -> with_segments x elem (length ps0) ch (v_label v) = x (v_label v)).
  { intros v Hv. apply seg_out. intros i w Hw. apply NL; auto. }
  assert (KO : forall v, outside = Some v -> with_segments x elem (length ps0) ch (v_label v) = x (v_label v)).
  { intros v Hv. apply KV. apply in_or_app. right. rewrite Hv. simpl; auto. }
  assert (KP : forall v ps, In (v, ps) pts -> with_segments x elem (length ps0) ch (v_label v) = x (v_label v)).
  { intros v ps Hv. apply KV. apply in_or_app. left. apply (in_map fst) in Hv. exact Hv. }
  apply (segments_admit _ elem len pts outside m NZ H T PG OL). intros v0' ps0' r' EP' t Ht. rewrite EP in EP'. inversion EP'; subst v0' ps0' r'. clear EP'.
  specialize (CH t Ht). split; [|split].
  - intros i Hi. constructor; rewrite ?seg_in1, ?seg_in2, ?seg_in3 by auto; unfold chosen; destruct (ch t) as [[k w]|].
    + destruct (Nat.eqb i k); [right; reflexivity|left; reflexivity].
    + left; reflexivity.
    + destruct CH as [_ [[W0 [W1 _]] _]]. destruct (Nat.eqb i k); lra.
    + apply Qle_refl.
    + destruct CH as [_ [[W0 [W1 _]] _]]. destruct (Nat.eqb i k); lra.
    + apply Qle_refl.
    + destruct (Nat.eqb i k); ring.
    + ring.
  - intros v ps Hv. rewrite (KP v ps Hv). unfold seg_value. destruct (ch t) as [[k w]|] eqn:Ec.
    + destruct CH as [Hk [[W0 [W1 A]] _]]. destruct (A v ps Hv) as [a [b [E X]]].
      symmetry. rewrite X. apply (sumn_single (length ps0) k (fun _ => (1 - w) * at_ a t + w * at_ b t)); auto.
      * cbv beta. rewrite E, seg_in2, seg_in3 by auto. unfold chosen. rewrite Ec, Nat.eqb_refl. ring.
      * intros i Hi Nk. destruct (nth_error ps i) as [[a' b']|]; [|reflexivity]. rewrite seg_in2, seg_in3 by auto. unfold chosen. rewrite Ec.
        apply Nat.eqb_neq in Nk. rewrite Nk. ring.
    + destruct CH as [v1 [_ [_ Z]]]. rewrite (Z v ps Hv). symmetry. apply sumn_none. intros i Hi.
      destruct (nth_error ps i) as [[a' b']|]; [|reflexivity]. rewrite seg_in2, seg_in3 by auto. unfold chosen. rewrite Ec. ring.
  - destruct (ch t) as [[k w]|] eqn:Ec.
    + destruct CH as [Hk [_ O]].
      transitivity 1.
      * apply (sumn_single (length ps0) k (fun _ => 1)); auto.
        -- cbv beta. rewrite seg_in1 by auto. unfold chosen. rewrite Ec, Nat.eqb_refl. reflexivity.
        -- intros i Hi Nk. rewrite seg_in1 by auto. unfold chosen. rewrite Ec. apply Nat.eqb_neq in Nk. rewrite Nk. reflexivity.
      * destruct outside as [v|]; [|reflexivity]. rewrite (KO v eq_refl). symmetry. apply O; auto.
    + destruct CH as [v1 [O [Z _]]]. rewrite O. rewrite (KO v1 O), Z. apply sumn_none. intros i Hi. rewrite seg_in1 by auto. unfold chosen. rewrite Ec. reflexivity.
Qed.

(** ** Segmented effects of investments *)
Lemma find_label : forall cx i lab, effect_label cx i = Ok lab -> exists e, In e (cx_effects cx) /\ e_id e = i /\ e_label e = lab.
Proof.
  intros cx i lab H. unfold effect_label in H. destruct (find (fun e => Nat.eqb (e_id e) i) (cx_effects cx)) as [e|] eqn:F; simpl in H; [|discriminate].
  apply Ok_inj in H. apply find_some in F. destruct F as [F1 F2]. apply Nat.eqb_eq in F2. eauto.
Qed.
Definition segment_words : list string := ["inSegment"; "lambda0"; "lambda1"].
Lemma seg_last : forall e i w l, In w segment_words -> lastc l <> Some "t"%char -> lastc l <> Some "0"%char -> lastc l <> Some "1"%char -> l <> seg e i w.
Proof.
  intros e i w l Hw A B C E. subst l. unfold seg in *. simpl in Hw. rewrite lastc_vlabel in * by (intros Z; subst; intuition discriminate).
  destruct Hw as [<-|[<-|[<-|[]]]]; simpl in *; congruence.
Qed.
Lemma cat2 : forall a b, cat [a; b] = (a ++ b)%string.
Proof. intros a b. unfold cat. cbn [fold_right]. rewrite append_nil_r'. reflexivity. Qed.
Lemma segmented_last : forall m lab, lastc (vlabel m (cat [lab; "_segmented"])) = Some "d"%char.
Proof.
  intros m lab. rewrite lastc_vlabel; rewrite cat2; [|apply append_ne; discriminate]. rewrite lastc_app by discriminate. reflexivity.
Qed.

Theorem segshares_exist : forall x fs cx elem iv size spts eff outside m shs,
  cx_effects cx = fs_effects fs -> iv_seg iv = Some (spts, eff) ->
  segmented_shares cx elem size spts eff outside = Ok (m, shs) -> em_translates m ->
  v_len size = 1%nat -> v_label size = inv elem "size" ->
  (if iv_optional iv then exists v, outside = Some v /\ v_label v = inv elem "isInvested" /\ v_len v = 1%nat else outside = None) ->
  segments_rule fs x elem iv ->
  exists y, (forall l, (forall i w, In w segment_words -> l <> seg elem i w) -> y l = x l) /\ em_sat y m.
Proof.
  intros x fs cx elem iv size spts eff outside m shs EF SG H T Ls Ns O R. specialize (R spts eff SG). cbv zeta in R.
  unfold segmented_shares in H. bnd H u Eu. bnd H vs Evs. bnd H ms Ems. bnd H sl Esl. bnd H m0 Em0. apply Ok_inj in H. apply pair_equal_spec in H. destruct H as [<- _].
  apply mk_em_spec in Em0. destruct Em0 as [-> _]. apply mapM_Forall2 in Evs.
  assert (VT : forall t, In t vs -> exists i l e, In (i, l) eff /\ In e (fs_effects fs) /\ e_id e = i /\ snd t = map qpair l
     /\ v_len (snd (fst t)) = 1%nat /\ v_label (snd (fst t)) = vlabel (cat [elem; "__"; "SegmentedShares"]) (cat [e_label e; "_segmented"])
     /\ v_fixed (snd (fst t)) = None /\ v_bin (snd (fst t)) = false /\ v_lb (snd (fst t)) = None /\ v_ub (snd (fst t)) = None).
  { intros t Ht. destruct (Forall2_In_r _ _ _ _ Evs Ht) as [[i l] [Hi M]]. cbv beta in M. bnd M lab El. bnd M v Ev. apply Ok_inj in M. apply create_variable_spec in Ev.
    destruct (find_label _ _ _ El) as [e [He [Hid <-]]]. rewrite EF in He. exists i, l, e. rewrite <- M, Ev. simpl. auto 15. }
  destruct (segments_exist x elem 1 (map (fun t => (snd (fst t), snd t)) vs ++ [(size, map qpair spts)]) outside ms) as [y [Y1 Y2]]; auto.
  - eapply em_translates_sub; [exact T|simpl; auto].
  - intros v ps Hv. apply in_app_or in Hv. destruct Hv as [Hv|[Hv|[]]].
    + apply in_map_iff in Hv. destruct Hv as [t [E Ht]]. inversion E; subst v ps. destruct (VT t Ht) as [i [l [e [_ [_ [_ [-> [L _]]]]]]]]. split; auto.
      intros a b Hab. apply in_map_iff in Hab. destruct Hab as [q [Z _]]. inversion Z; subst. simpl. auto.
    + inversion Hv; subst v ps. split; auto. intros a b Hab. apply in_map_iff in Hab. destruct Hab as [q [Z _]]. inversion Z; subst. simpl. auto.
  - intros v Hv. destruct (iv_optional iv); [|congruence]. destruct O as [v' [E [_ L]]]. congruence.
  - intros v i w Hv Hw. apply in_app_or in Hv. destruct Hv as [Hv|Hv].
    + rewrite map_app, map_map in Hv. apply in_app_or in Hv. destruct Hv as [Hv|[<-|[]]].
      * apply in_map_iff in Hv. destruct Hv as [t [<- Ht]]. cbn [fst]. destruct (VT t Ht) as [i' [l [e [_ [_ [_ [_ [_ [-> _]]]]]]]]].
        apply seg_last; auto; rewrite segmented_last; discriminate.
      * cbn [fst]. rewrite Ns. apply seg_last; auto; unfold inv; rewrite lastc_vlabel; discriminate.
    + destruct outside as [v'|]; [|destruct Hv]. destruct Hv as [<-|[]]. destruct (iv_optional iv); [|congruence]. destruct O as [v2 [E [N _]]]. injection E as <-.
      rewrite N. apply seg_last; auto; unfold inv; rewrite lastc_vlabel; discriminate.
  - intros t Ht. assert (t = 0%nat) by lia. subst t. destruct R as [[k [w [W0 [W1 [PS [PE PO]]]]]]|[Op [I0 [S0 PE]]]].
    + left. exists k, w. split.
      * split; auto. split; auto. intros v ps Hv. apply in_app_or in Hv. destruct Hv as [Hv|[Hv|[]]].
        -- apply in_map_iff in Hv. destruct Hv as [t [E Htt]]. inversion E; subst v ps. destruct (VT t Htt) as [i [l [e [Hi [He [Hid [-> [_ [-> _]]]]]]]]].
           destruct (PE i l e Hi He Hid) as [a [b [Nk X]]]. exists (NS a), (NS b). split; [|exact X]. rewrite nth_error_map, Nk. reflexivity.
        -- inversion Hv; subst v ps. destruct PS as [a [b [Nk X]]]. exists (NS a), (NS b). rewrite Ns. split; [|exact X]. rewrite nth_error_map, Nk. reflexivity.
      * intros v Hv. destruct (iv_optional iv); [|congruence]. destruct O as [v' [E [N _]]]. assert (v' = v) by congruence. subst v'. rewrite N. apply PO; auto.
    + right. rewrite Op in O. destruct O as [v [E [N _]]]. exists v. split; auto. split; [rewrite N; auto|]. intros v1 ps Hv. apply in_app_or in Hv. destruct Hv as [Hv|[Hv|[]]].
      * apply in_map_iff in Hv. destruct Hv as [t [E' Htt]]. inversion E'; subst v1 ps. destruct (VT t Htt) as [i [l [e [Hi [He [Hid [_ [_ [-> _]]]]]]]]].
        apply (PE i l e Hi He Hid).
      * inversion Hv; subst v1 ps. rewrite Ns. auto.
  - exists y. split; auto. apply em_sat_intro; [|constructor|constructor; auto]. apply Forall_forall. intros v Hv.
    pose proof (em_translates_vars _ _ _ _ _ T) as TV. rewrite Forall_forall in TV. specialize (TV v Hv).
    apply in_map_iff in Hv. destruct Hv as [t [<- Ht]]. destruct (VT t Ht) as [i [l [e [_ [_ [_ [_ [_ [_ [F1 [F2 [F3 F4]]]]]]]]]]]].
    apply free_var_sat; auto.
Qed.
