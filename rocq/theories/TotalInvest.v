(** Segments, segmented shares and investments can always be written down for data that fits. *)
From Verif Require Import Base BaseFacts MathModel Spec MathFacts MathTotal Structure StructureFacts Params Features ResultFacts NameSpec NameFacts TotalFacts TotalFeatures.

Ltac fits := first [exact I | assumption | apply nmap_fit; fits | apply nmap_fit; assumption | cbn; assumption | cbn; lia].
Ltac len := first [eassumption | eapply iv_len; eassumption | (erewrite iv_len by eassumption; lia)].
Ltac one_call :=
  first [ solve [eapply fit_all; [len | fits]]
        | solve [eapply fit_one; [len | fits]]
        | solve [exact I] | solve [cbn; exact I] | solve [cbn; fits] ].
Ltac calls := repeat (apply Forall_cons; [try one_call|]); try apply Forall_nil.
(** Write down the next equation; [n] is its number of rows. *)
Ltac next_eq n :=
  match goal with |- context [create_equation ?m ?l ?k ?cs] =>
    let c := fresh "eq" in let E := fresh "Eq" in let L := fresh "El" in let O := fresh "Eo" in
    destruct (equation_ok n m l k cs) as [c [E [L O]]]; [try lia|try solve [calls]|try first [reflexivity | solve [rewrite existsb_app; cbn [existsb is_summand orb]; rewrite ?Bool.orb_true_r; reflexivity]]|rewrite E; cbn [bind]]
  end.

Section Elem.
Variable elem : string.
Let P := words elem.

Lemma apart1 : forall a b, a <> b -> apart [[a]] [[b]].
Proof. intros a b H w w' [<-|[]] [<-|[]]. apply split_head. exact H. Qed.

(** ** Segments *)
Record seg_fine (len : nat) (i : nat) (s : seg_out) : Prop := {
  sgf_tree : goods P [["Segment"%string; nat_str i]] [sg_tree s];
  sgf_in : v_len (sg_in s) = len;
  sgf_l0 : v_len (sg_l0 s) = len;
  sgf_l1 : v_len (sg_l1 s) = len
}.
Lemma segment_ok : forall len i, (1 <= len)%nat -> exists s, segment_model elem len i = Ok s /\ seg_fine len i s.
Proof.
  intros len i L. unfold segment_model. set (full := model_full elem (Some (cat ["Segment_"; nat_str i]))).
  destruct (create_any full "inSegment" len true None None L I I) as [s [E [Is _]]]. rewrite E. cbn [bind].
  destruct (create_any full "lambda0" len false (Some (NS 0)) (Some (NS 1)) L I I) as [l0 [E0 [I0 _]]]. rewrite E0. cbn [bind].
  destruct (create_any full "lambda1" len false (Some (NS 0)) (Some (NS 1)) L I I) as [l1 [E1 [I1 _]]]. rewrite E1. cbn [bind].
  next_eq len.
  assert (G : good (words full) true [] [s; l0; l1] [eq]).
  { apply good_own with (xs := ["inSegment"; "lambda0"; "lambda1"]) (ys := ["inSegment"]); try reflexivity.
    - cbn [map]. rewrite (iv_lab _ _ _ Is), (iv_lab _ _ _ I0), (iv_lab _ _ _ I1). reflexivity.
    - cbn [map]. rewrite El. reflexivity.
    - apply nodup_str_NoDup. reflexivity.
    - apply nodup_str_NoDup. reflexivity.
    - repeat constructor; eapply iv_ok; eassumption.
    - repeat constructor; assumption. }
  rewrite (mk_em_ok _ _ _ _ _ _ _ _ G). cbn [bind]. eexists. split; [reflexivity|]. split; cbn [sg_tree sg_in sg_l0 sg_l1]; try (eapply iv_len; eassumption).
  apply goods_model with (ws := []); auto.
  - unfold full. rewrite words_full by discriminate. unfold P. f_equal. f_equal. change (cat ["Segment_"; nat_str i]) with (cat ["Segment"; "_"; nat_str i]).
    rewrite words_us. rewrite (proj1 (nat_str_words i)). reflexivity.
  - apply goods_nil.
  - apply apart_nil_r.
Qed.
Lemma goods_join : forall {A} (w : A -> list string) (l : list A) (ms : list emodel), Forall2 (fun a m => goods P [w a] [m]) l ms -> NoDup l ->
  (forall a b, In a l -> In b l -> a <> b -> split_ (w a) (w b)) -> goods P (map w l) ms.
Proof.
  intros A w l ms F N S. induction F as [|a m l ms H F IH]; [apply goods_nil|]. inversion N; subst. cbn [map]. change (m :: ms) with ([m] ++ ms).
  apply (goods_app P [w a] (map w l)); auto.
  - apply IH; auto. intros x y X Y. apply S; right; auto.
  - intros x y [<-|[]] Y. apply in_map_iff in Y. destruct Y as [b [<- B]]. apply S; [left; auto|right; auto|]. intros ->. auto.
Qed.
Lemma goods_stem : forall st ws ms, goods P ws ms -> (forall w, In w ws -> exists r, w = st ++ r) -> goods P [st] ms.
Proof.
  intros st ws ms [A B D E] H.
  assert (C : forall ns, covers P false ws ns -> covers P false [st] ns).
  { intros ns [X Y]. split; auto. intros s Hs. right. exists st. split; [left; auto|]. destruct (Y _ Hs) as [[Z _]|[w [W [r Er]]]]; [discriminate|].
    destruct (H _ W) as [q ->]. rewrite <- app_assoc in Er. eexists; exact Er. }
  split; auto.
Qed.

(** ** Several segments *)
Lemma multi_ok : forall len pts outside, (1 <= len)%nat -> pts <> [] -> NoDup (map (fun t => v_label (fst t)) pts) ->
  (forall v ps, In (v, ps) pts -> v_len v = len /\ (length (snd (hd (v, ps) pts)) <= length ps)%nat /\ forall a b, In (a, b) ps -> fitn len a /\ fitn len b) -> (forall v ps, In (v, ps) pts -> ps <> []) ->
  (match outside with Some v => v_len v = len | None => True end) ->
  exists m, multi_segments elem len pts outside = Ok m /\ goods P [["MultipleSegments"%string]; ["Segment"%string]] [m].
Proof.
  intros len pts outside L NE ND F NP O. unfold multi_segments. set (full := model_full elem (Some "MultipleSegments"%string)).
  destruct pts as [|[v0 ps0] pts0] eqn:Ep; [congruence|]. rewrite <- Ep in *. cbn [bind].
  set (nseg := length ps0).
  destruct (mapM_ok (segment_model elem len) (seg_fine len) (seq 0 nseg)) as [segs [Es Fs]]; [intros i _; apply segment_ok; auto|].
  rewrite Es. cbn [bind].
  assert (SV : forall s, In s segs -> v_len (sg_in s) = len /\ v_len (sg_l0 s) = len /\ v_len (sg_l1 s) = len).
  { apply (Forall2_right _ _ _ _ Fs). intros i s [A B C D]. auto. }
  match goal with |- context [mapM ?f pts] => destruct (mapM_ok f (fun vp c => c_label c = vlabel full (cat ["lambda_"; v_label (fst vp)]) /\ con_ok c) pts) as [eqs [Ee Fe]] end.
  { intros [v ps] Hv. destruct (F v ps Hv) as [Lv [Lp Fp]].
    assert (Lps : (nseg <= length ps)%nat). { rewrite Ep in Lp. cbn in Lp. exact Lp. }
    assert (U : exists used, mapM (fun i => of_option IndexError (nth_error ps i)) (seq 0 nseg) = Ok used /\ Forall2 (fun i x => In x ps) (seq 0 nseg) used).
    { apply mapM_ok. intros i Hi. apply in_seq in Hi. destruct (nth_error ps i) eqn:Ei; [|apply nth_error_None in Ei; lia]. cbn. exists p. split; auto. eapply nth_error_In; eauto. }
    destruct U as [used [-> Fu]]. cbn [bind].
    match goal with |- context [create_equation ?m ?l ?k ?cs] => destruct (equation_ok len m l k cs) as [c [E [Lc Oc]]] end; auto.
    - constructor; [apply fit_all; auto; exact I|]. apply Forall_forall. intros a Ha. apply in_flat_map in Ha. destruct Ha as [[s [x y]] [Hs Ha]].
      pose proof (in_combine_l _ _ _ _ Hs) as Hl. pose proof (in_combine_r _ _ _ _ Hs) as Hr. destruct (SV _ Hl) as [_ [B C]].
      apply (Forall2_right _ (fun x => In x ps) _ _ Fu) in Hr; [|auto]. destruct (Fp _ _ Hr) as [Fx Fy]. cbn [fst snd] in Ha.
      destruct Ha as [<-|[<-|[]]]; apply fit_all; auto.
    - exists c. auto. }
  rewrite Ee. cbn [bind].
  assert (SG : segs <> []).
  { intros ->. inversion Fs as [Z|]. subst nseg. assert (Z' : ps0 <> []) by (apply (NP v0); rewrite Ep; left; reflexivity). destruct ps0; [congruence|discriminate Z]. }
  match goal with |- context [create_equation ?m ?l ?k ?cs] => destruct (equation_ok len m l k cs) as [c [E [Lc Oc]]]; [exact L| |destruct segs; [congruence|reflexivity]|] end.
  { apply Forall_app. split.
    - apply Forall_forall. intros a Ha. apply in_map_iff in Ha. destruct Ha as [s [<- Hs]]. destruct (SV _ Hs) as [A _]. apply fit_all; auto; exact I.
    - constructor; [|constructor]. destruct outside; [apply fit_all; auto; exact I|exact I]. }
  rewrite E. cbn [bind].
  assert (ML : map c_label eqs = map (vlabel full) (map (fun t => cat ["lambda_"; v_label (fst t)]) pts)).
  { clear -Fe. induction Fe as [|a b l m [H _] Fe IH]; cbn [map]; [reflexivity|]. rewrite IH, H. reflexivity. }
  assert (G : good (words full) true [] [] (eqs ++ [c])).
  { apply good_own with (xs := []) (ys := map (fun t => cat ["lambda_"; v_label (fst t)]) pts ++ ["in_single_Segment"]).
    - reflexivity.
    - rewrite !map_app, ML. cbn [map]. rewrite Lc. reflexivity.
    - constructor.
    - apply NoDup_app_.
      + rewrite <- (map_map (fun t : variable * list (numeric * numeric) => v_label (fst t)) (fun l => cat ["lambda_"; l])). apply FinFun.Injective_map_NoDup; auto.
        intros x y Exy. apply (f_equal words) in Exy. change (words (cat ["lambda"; "_"; x]) = words (cat ["lambda"; "_"; y])) in Exy.
        rewrite !words_us in Exy. apply app_inv_head, words_inj in Exy. exact Exy.
      + repeat constructor. intros [].
      + intros x Hx [Hy|[]]. subst x. apply in_map_iff in Hx. destruct Hx as [t [Et _]]. discriminate Et.
    - cbn [app]. rewrite forallb_app. apply andb_true_intro. split; [|reflexivity]. apply forallb_forall. intros x Hx. apply in_map_iff in Hx. destruct Hx as [t [<- _]]. reflexivity.
    - constructor.
    - apply Forall_app. split; [|repeat constructor; auto]. apply Forall_forall. apply (Forall2_right _ _ _ _ Fe). tauto. }
  rewrite (mk_em_ok _ _ _ _ _ _ _ _ G). eexists. split; [reflexivity|].
  apply goods_model; auto.
  - unfold full. rewrite words_full by discriminate. reflexivity.
  - apply goods_stem with (ws := map (fun i => ["Segment"%string; nat_str i]) (seq 0 nseg)).
    + apply goods_join; [|apply seq_NoDup|].
      * clear -Fs. induction Fs as [|i s l m H Fs IH]; cbn [map]; constructor; auto. apply (sgf_tree _ _ _ H).
      * intros a b _ _ N. apply (split_app ["Segment"%string]). apply split_head. intros X. apply N, nat_str_inj, X.
    + intros w Hw. apply in_map_iff in Hw. destruct Hw as [i [<- _]]. exists [nat_str i]. reflexivity.
  - apply apart1. discriminate.
Qed.

(** ** Segmented effects of an investment *)
Definition effs_ok (cx : ctx) : Prop := NoDup (map e_id (cx_effects cx)) /\ NoDup (map e_label (cx_effects cx)).
Definition seg_data_ok (cx : ctx) (spts : list (Q * Q)) (eff : list (nat * list (Q * Q))) : Prop :=
  NoDup (map fst eff) /\ (forall i l, In (i, l) eff -> existsb (fun e => Nat.eqb (e_id e) i) (cx_effects cx) = true /\ (length spts <= length l)%nat)
  /\ match eff with [] => False | (_, l) :: _ => length l = length spts end /\ spts <> [].

Lemma effect_label_ok : forall cx i, existsb (fun e => Nat.eqb (e_id e) i) (cx_effects cx) = true ->
  exists e, effect_label cx i = Ok (e_label e) /\ In e (cx_effects cx) /\ e_id e = i.
Proof.
  intros cx i H. unfold effect_label. destruct (find (fun e => Nat.eqb (e_id e) i) (cx_effects cx)) as [e|] eqn:E.
  - apply find_some in E. destruct E as [E1 E2]. apply Nat.eqb_eq in E2. exists e. cbn. auto.
  - exfalso. apply existsb_exists in H. destruct H as [e [A B]]. rewrite (find_none _ _ E e A) in B. discriminate.
Qed.
Lemma NoDup_map_eq_ : forall {A B} (f : A -> B) l a b, NoDup (map f l) -> In a l -> In b l -> f a = f b -> a = b.
Proof.
  induction l as [|x l IH]; intros a b N A_ B_ E; [destruct A_|]. inversion N; subst. destruct A_ as [->|A_]; destruct B_ as [->|B_]; auto.
  - exfalso. apply H1. rewrite E. apply in_map. auto.
  - exfalso. apply H1. rewrite <- E. apply in_map. auto.
Qed.
Lemma words_seg : forall l, words (cat [l; "_segmented"]) = words l ++ ["segmented"%string].
Proof. intros l. change (cat [l; "_segmented"]) with (cat [l; "_"; "segmented"]). apply words_us. Qed.

Lemma segmented_shares_ok : forall cx size spts eff outside, effs_ok cx -> (forall e, In e (cx_effects cx) -> starts_ok (cat [e_label e; "_segmented"]) = true) ->
  seg_data_ok cx spts eff ->
  is_var size (vlabel (model_full elem (Some "Investment"%string)) "size") 1 -> (match outside with Some v => v_len v = 1%nat | None => True end) ->
  exists m shs, segmented_shares cx elem size spts eff outside = Ok (m, shs)
    /\ goods P [["SegmentedShares"%string]; ["MultipleSegments"%string]; ["Segment"%string]] [m] /\ sfin cx elem ["segmented_effects"%string] shs.
Proof.
  intros cx size spts eff outside [EI EL] ST [ND [R [HD NS_]]] SZ O. unfold segmented_shares. set (full := model_full elem (Some "SegmentedShares"%string)).
  assert (G0 : match eff with [] => Err IndexError | (_, l) :: _ => assert_ (Nat.eqb (length spts) (length l)) end = Ok tt).
  { destruct eff as [|[i l] eff]; [destruct HD|]. rewrite HD. unfold assert_. rewrite Nat.eqb_refl. reflexivity. }
  rewrite G0. cbn [bind].
  match goal with |- context [mapM ?f eff] => destruct (mapM_ok f (fun el t => fst (fst t) = fst el /\ snd t = map qpair (snd el)
     /\ exists e, In e (cx_effects cx) /\ e_id e = fst el /\ is_var (snd (fst t)) (vlabel full (cat [e_label e; "_segmented"])) 1) eff) as [vs [Ev Fv]] end.
  { intros [i l] Hi. destruct (R _ _ Hi) as [Re _]. destruct (effect_label_ok cx i Re) as [e [El [Ein Eid]]]. cbn [fst snd]. rewrite El. cbn [bind].
    destruct (create_one full (cat [e_label e; "_segmented"]) false None None I I) as [v [E [Iv _]]]. rewrite E. cbn [bind].
    eexists. split; [reflexivity|]. cbn [fst snd]. repeat split; auto. exists e. auto. }
  rewrite Ev. cbn [bind].
  (* variables and effects *)
  assert (VE : forall t, In t vs -> exists l e, In (fst (fst t), l) eff /\ snd t = map qpair l /\ In e (cx_effects cx) /\ e_id e = fst (fst t)
       /\ is_var (snd (fst t)) (vlabel full (cat [e_label e; "_segmented"])) 1).
  { clear -Fv. induction Fv as [|[i l] t eff vs H Fv IH]; intros t' [<-|Ht] || intros t' [].
    - destruct H as [A [B [e [C [D E]]]]]. cbn [fst snd] in *. exists l, e. rewrite A. repeat split; auto; try apply E. left; auto.
    - destruct (IH _ Ht) as [l' [e [A B]]]. exists l', e. split; [right; exact A|exact B]. }
  assert (NV : NoDup (map (fun t : nat * variable * list (numeric * numeric) => fst (fst t)) vs)).
  { assert (X : map (fun t : nat * variable * list (numeric * numeric) => fst (fst t)) vs = map fst eff).
    { clear -Fv. induction Fv as [|a b l m [H _] Fv IH]; cbn [map]; [reflexivity|]. rewrite IH, H. reflexivity. }
    rewrite X. exact ND. }
  assert (NLs : NoDup (map (fun t : nat * variable * list (numeric * numeric) => v_label (snd (fst t))) vs)).
  { clear -NV VE EL EI ST. induction vs as [|t vs IH]; cbn [map]; constructor; inversion NV; subst.
    - intros I. apply in_map_iff in I. destruct I as [t' [E It]]. destruct (VE t (or_introl eq_refl)) as [_ [e [_ [_ [Ie [Ei Iv]]]]]].
      destruct (VE t' (or_intror It)) as [_ [e' [_ [_ [Ie' [Ei' Iv']]]]]]. rewrite (iv_lab _ _ _ Iv), (iv_lab _ _ _ Iv') in E.
      unfold vlabel in E. apply (f_equal words) in E. rewrite !words_us, !words_seg in E. apply app_inv_head in E. apply app_inv_tail in E. apply words_inj in E.
      apply (NoDup_map_eq_ _ _ _ _ EL Ie' Ie) in E. subst e'. apply H1. rewrite <- Ei, Ei'. apply in_map_iff. exists t'. auto.
    - apply IH; auto. intros t' It. apply VE. right; auto. }
  set (lab := fun t : nat * variable * list (numeric * numeric) => v_label (snd (fst t))) in *.
  destruct (multi_ok 1 (map (fun t => (snd (fst t), snd t)) vs ++ [(size, map qpair spts)]) outside) as [ms [Em Gm]]; auto.
  { destruct vs; discriminate. }
  { rewrite map_app, map_map. cbn [map fst]. apply NoDup_app_; [exact NLs|repeat constructor; intros []|].
    intros x Hx [Hs|[]]. subst x. apply in_map_iff in Hx. destruct Hx as [t [Et It]]. destruct (VE _ It) as [_ [e [_ [_ [_ [_ Iv]]]]]].
    cbn [fst] in Et. rewrite (iv_lab _ _ _ SZ) in Et. rewrite (iv_lab _ _ _ Iv) in Et. unfold vlabel, full in Et. apply (f_equal words) in Et. rewrite !words_us, !words_full in Et by discriminate.
    rewrite <- !app_assoc in Et. apply app_inv_head in Et. discriminate Et. }
  { assert (HL : forall d, length (snd (hd d (map (fun t : nat * variable * list (numeric * numeric) => (snd (fst t), snd t)) vs ++ [(size, map qpair spts)]))) = length spts).
    { intros d. destruct eff as [|[i l] eff]; [destruct HD|]. inversion Fv; subst. destruct H1 as [_ [B _]]. cbn. rewrite B, map_length. exact HD. }
    intros v ps H. rewrite HL. apply in_app_or in H. destruct H as [H|[H|[]]].
    - apply in_map_iff in H. destruct H as [t [E It]]. injection E as <- <-. destruct (VE _ It) as [l [e [A [B [_ [_ Iv]]]]]]. destruct (R _ _ A) as [_ Ll].
      rewrite B. split; [apply Iv|]. rewrite map_length. split; [exact Ll|]. intros a b Hab. apply in_map_iff in Hab. destruct Hab as [[x y] [E _]]. injection E as <- <-. split; exact I.
    - injection H as <- <-. split; [apply SZ|]. rewrite map_length. split; [lia|]. intros a b Hab. apply in_map_iff in Hab. destruct Hab as [[x y] [E _]]. injection E as <- <-. split; exact I. }
  { intros v ps H. assert (LP : length ps <> 0%nat); [|intros ->; apply LP; reflexivity]. assert (LS : length spts <> 0%nat) by (destruct spts; [congruence|discriminate]).
    apply in_app_or in H. destruct H as [H|[H|[]]].
    - apply in_map_iff in H. destruct H as [t [E It]]. injection E as <- <-. destruct (VE _ It) as [l [e [A [B _]]]]. destruct (R _ _ A) as [_ Ll]. rewrite B, map_length. lia.
    - injection H as <- <-. rewrite map_length. exact LS. }
  rewrite Em. cbn [bind].
  assert (SH : exists shs, mapM (fun t : nat * variable * list (numeric * numeric) => emit cx TInv elem "segmented_effects" [(Some (fst (fst t)), NS 1)] (NS 1) (Some (snd (fst t)))) vs = Ok shs
     /\ map (fun s => sh_key s) (List.concat shs) = map (fun t => (Some (fst (fst t)), cat [elem; "__"; "segmented_effects"])) vs
     /\ forall sh, In sh (List.concat shs) -> share_ok cx sh /\ sh_name sh = cat [elem; "__"; "segmented_effects"]).
  { clear -VE R. induction vs as [|t vs IH]; [exists []; cbn; split; [reflexivity|split; [reflexivity|intros sh []]]|]. destruct IH as [r [E [K S]]]; [intros; apply VE; right; auto|].
    destruct (VE t (or_introl eq_refl)) as [l [e [A [_ [Ie [Ei Iv]]]]]]. destruct (R _ _ A) as [Re _].
    assert (EE : emit cx TInv elem "segmented_effects" [(Some (fst (fst t)), NS 1)] (NS 1) (Some (snd (fst t)))
       = Ok [mkShare (TInv (fst (fst t))) (cat [elem; "__"; "segmented_effects"]) (Some (snd (fst t))) (NS (1 * 1)) false]).
    { unfold emit. cbn [mapM fst snd]. unfold resolve. rewrite Re. reflexivity. }
    cbn [mapM]. rewrite EE. cbn [bind]. rewrite E. cbn [bind]. eexists. split; [reflexivity|]. cbn [List.concat app map]. split.
    - f_equal. exact K.
    - intros sh [<-|Hs]; [|apply S; exact Hs]. cbn. repeat split; auto. apply Iv. }
  destruct SH as [shs [Es [Ks Ss]]]. rewrite Es. cbn [bind].
  assert (G : good (words full) true [] (map (fun t : nat * variable * list (numeric * numeric) => snd (fst t)) vs) []).
  { assert (SE : forall t, In t vs -> exists x, v_label (snd (fst t)) = vlabel full x /\ starts_ok x = true).
    { intros t It. destruct (VE _ It) as [_ [e [_ [_ [Ie [_ Iv]]]]]]. exists (cat [e_label e; "_segmented"]). split; [apply Iv|apply ST; auto]. }
    split; try apply covers_nil; [|apply Forall_forall; intros v Hv; apply in_map_iff in Hv; destruct Hv as [t [<- It]]; destruct (VE _ It) as [_ [e [_ [_ [_ [_ Iv]]]]]]; apply Iv|constructor].
    rewrite map_map. split; [exact NLs|]. intros s Hs. left. split; auto. apply in_map_iff in Hs. destruct Hs as [t [<- It]]. destruct (SE _ It) as [x [-> Sx]].
    unfold own, vlabel. rewrite words_us. unfold starts_ok in Sx. pose proof (words_ne x) as Wx. destruct (words x) as [|a r]; [congruence|]. exists a, r. split; auto. intros ->. discriminate Sx. }
  rewrite (mk_em_ok _ _ _ _ _ _ _ _ G). cbn [bind]. eexists _, _. split; [reflexivity|]. split.
  - apply goods_model; auto.
    + unfold full. rewrite words_full by discriminate. reflexivity.
    + intros w w' [<-|[]] [<-|[<-|[]]]; apply split_head; discriminate.
  - split.
    + change (NoDup (map (fun s => sh_key s) (List.concat shs))). rewrite Ks.
      rewrite <- (map_map (fun t : nat * variable * list (numeric * numeric) => fst (fst t)) (fun i => (Some i, cat [elem; "__"; "segmented_effects"]))).
      apply FinFun.Injective_map_NoDup; auto. intros x y E. congruence.
    + intros sh Hs. destruct (Ss _ Hs) as [A B]. split; auto. exists "segmented_effects"%string. split; [left; auto|exact B].
Qed.

(** ** Investments *)
Record inv_data_ok (cx : ctx) (iv : invest) : Prop := {
  id_fix : keyed cx (map fst (as_effect_dict (iv_fix iv))) /\ plain_numbers (iv_fix iv);
  id_spec : keyed cx (map fst (as_effect_dict (iv_spec iv))) /\ plain_numbers (iv_spec iv);
  id_divest : keyed cx (map fst (as_effect_dict (iv_divest iv))) /\ plain_numbers (iv_divest iv);
  id_seg : forall spts eff, iv_seg iv = Some (spts, eff) -> seg_data_ok cx spts eff
}.
Definition inv_names : list string := ["fix_effects"; "divest_effects"; "divest_cancellation_effects"; "specific_effects"; "segmented_effects"]%string.
Definition inv_words : list (list string) := [["Investment"%string]; ["SegmentedShares"%string]; ["MultipleSegments"%string]; ["Segment"%string]].
Record inv_fine (cx : ctx) (o : inv_out) : Prop := {
  if_tree : goods P inv_words [io_tree o];
  if_size : v_len (io_size o) = 1%nat;
  if_shares : sfin cx elem inv_names (io_shares o)
}.
Lemma sfin_more : forall cx xs ys shs, sfin cx elem xs shs -> incl xs ys -> sfin cx elem ys shs.
Proof. intros cx xs ys shs [A B] H. split; auto. intros sh Hs. destruct (B _ Hs) as [S [x [X E]]]. split; auto. exists x. auto. Qed.

Lemma invest_ok : forall cx iv dv relmin relmax profile on L, (1 <= L)%nat -> effs_ok cx ->
  (forall e, In e (cx_effects cx) -> starts_ok (cat [e_label e; "_segmented"]) = true) -> inv_data_ok cx iv ->
  v_len dv = L -> fitn L relmin -> fitn L relmax -> fito L profile -> (match on with Some o => v_len o = L | None => True end) ->
  exists o, invest_model cx true elem iv dv relmin relmax profile on = Ok o /\ inv_fine cx o.
Proof.
  intros cx iv dv relmin relmax profile on L L1 EO ST ID DV F1 F2 FP ON. unfold invest_model. set (full := model_full elem (Some "Investment"%string)).
  (* the size *)
  assert (S1 : exists size, invest_size cx full iv = Ok size /\ is_var size (vlabel full "size") 1).
  { unfold invest_size. destruct (iv_is_fixed iv && negb (iv_optional iv))%bool; [apply create_fixed|].
    destruct (create_one full "size" false (Some (NS (if iv_optional iv then 0 else iv_minimum iv))) (Some (NS (iv_maximum cx iv))) I I) as [v [E [Iv _]]]. eauto. }
  destruct S1 as [size [E1 Is]]. rewrite E1. cbn [bind].
  assert (S2 : exists b cs, invest_optional cx full iv size = Ok (b, cs)
     /\ (match b with Some v => is_var v (vlabel full "isInvested") 1 | None => True end)
     /\ Forall con_ok cs /\ exists ys, sub ys ["is_invested"; "is_invested_ub"; "is_invested_lb"]%string /\ map c_label cs = map (vlabel full) ys).
  { unfold invest_optional. destruct (iv_optional iv); [|exists None, []; repeat split; auto; exists []; split; [constructor|reflexivity]].
    destruct (create_one full "isInvested" true None None I I) as [b [E [Ib _]]]. rewrite E. cbn [bind]. destruct (iv_is_fixed iv).
    - next_eq 1%nat. exists (Some b), [eq]. repeat split; auto; try apply Ib. exists ["is_invested"%string]. split; [repeat constructor|]. cbn [map]. rewrite El. reflexivity.
    - next_eq 1%nat. next_eq 1%nat. exists (Some b), [eq; eq0]. repeat split; auto; try apply Ib. exists ["is_invested_ub"; "is_invested_lb"]%string.
      split; [apply sub_skip; repeat constructor|]. cbn [map]. rewrite El, El0. reflexivity. }
  destruct S2 as [b [cs1 [E2 [Ib [C1 [ys1 [Y1 M1]]]]]]]. rewrite E2. cbn [bind].
  set (bnames := [cat ["fixed_"; v_label dv]; cat ["ub_"; v_label dv]; cat ["lb_"; v_label dv]]).
  assert (S3 : exists cs, invest_bounds cx full iv size dv relmin relmax profile on = Ok cs /\ Forall con_ok cs
     /\ exists ys, sub ys bnames /\ map c_label cs = map (vlabel full) ys).
  { unfold invest_bounds. destruct profile as [p|].
    - next_eq L. exists [eq]. repeat split; auto. exists [cat ["fixed_"; v_label dv]]. split; [repeat constructor|]. cbn [map]. rewrite El. reflexivity.
    - next_eq L. destruct on as [o|].
      + destruct (nmul_fit L relmax (NS (iv_maximum cx iv)) F2 I) as [mega [Em Fm]]. rewrite Em. cbn [bind]. next_eq L.
        exists [eq; eq0]. repeat split; auto. exists [cat ["ub_"; v_label dv]; cat ["lb_"; v_label dv]]. split; [apply sub_skip; repeat constructor|]. cbn [map]. rewrite El, El0. reflexivity.
      + next_eq L. exists [eq; eq0]. repeat split; auto. exists [cat ["ub_"; v_label dv]; cat ["lb_"; v_label dv]]. split; [apply sub_skip; repeat constructor|]. cbn [map]. rewrite El, El0. reflexivity. }
  destruct S3 as [cs2 [E3 [C2 [ys2 [Y2 M2]]]]]. rewrite E3. cbn [bind].
  assert (OB : match b with Some v => v_len v = 1%nat | None => True end) by (destruct b; auto; apply Ib).
  assert (S4 : exists shs subs, invest_shares cx true elem iv size b = Ok (shs, subs) /\ sfin cx elem inv_names shs
     /\ goods P [["SegmentedShares"%string]; ["MultipleSegments"%string]; ["Segment"%string]] subs).
  { unfold invest_shares. destruct ID as [[K1 P1] [K2 P2] [K3 P3] SG].
    destruct (emit_inv_ok cx elem "fix_effects" (iv_fix iv) 1 b K1 P1 OB) as [s1 [A1 B1]]. rewrite A1. cbn [bind].
    assert (X2 : exists s2, (if iv_optional iv then
           a <- emit_inv cx true elem "divest_effects" (iv_divest iv) 1 None ;;
           b0 <- emit_inv cx true elem "divest_cancellation_effects" (iv_divest iv) (-1) b ;;
           Ok (a ++ b0)
         else Ok []) = Ok s2 /\ sfin cx elem ["divest_effects"; "divest_cancellation_effects"]%string s2).
    { destruct (iv_optional iv); [|exists []; split; auto; apply sfin_nil].
      destruct (emit_inv_ok cx elem "divest_effects" (iv_divest iv) 1 None K3 P3 I) as [a [Aa Ba]]. rewrite Aa. cbn [bind].
      destruct (emit_inv_ok cx elem "divest_cancellation_effects" (iv_divest iv) (-1) b K3 P3 OB) as [c [Ac Bc]]. rewrite Ac. cbn [bind].
      eexists. split; [reflexivity|]. apply (sfin_app _ _ ["divest_effects"%string] ["divest_cancellation_effects"%string]); auto. intros x [<-|[]] [X|[]]; discriminate X. }
    destruct X2 as [s2 [A2 B2]]. rewrite A2. cbn [bind].
    destruct (emit_inv_ok cx elem "specific_effects" (iv_spec iv) 1 (Some size) K2 P2) as [s3 [A3 B3]]; [apply Is|]. rewrite A3. cbn [bind].
    assert (B123 : sfin cx elem ["fix_effects"; "divest_effects"; "divest_cancellation_effects"; "specific_effects"]%string (s1 ++ s2 ++ s3)).
    { apply (sfin_app _ _ ["fix_effects"%string] ["divest_effects"; "divest_cancellation_effects"; "specific_effects"]%string); auto.
      - apply (sfin_app _ _ ["divest_effects"; "divest_cancellation_effects"]%string ["specific_effects"%string]); auto.
        intros x X [Y|[]]; subst x. destruct X as [X|[X|[]]]; discriminate X.
      - intros x [<-|[]] X. destruct X as [X|[X|[X|[]]]]; discriminate X. }
    destruct (iv_seg iv) as [[spts eff]|] eqn:SE.
    - destruct (segmented_shares_ok cx size spts eff b EO ST (SG _ _ eq_refl) Is OB) as [m [s4 [A4 [G4 B4]]]]. rewrite A4. cbn [bind].
      eexists _, _. split; [reflexivity|]. split; auto.
      replace (s1 ++ s2 ++ s3 ++ s4) with ((s1 ++ s2 ++ s3) ++ s4) by (rewrite <- !app_assoc; reflexivity).
      apply (sfin_app _ _ ["fix_effects"; "divest_effects"; "divest_cancellation_effects"; "specific_effects"]%string ["segmented_effects"%string]); auto.
      intros x X [Y|[]]; subst x. destruct X as [X|[X|[X|[X|[]]]]]; discriminate X.
    - eexists _, _. split; [reflexivity|]. split; [|apply goods_nil]. eapply sfin_more; [exact B123|]. intros x X. unfold inv_names. cbn in *. tauto. }
  destruct S4 as [shs [subs [E4 [SF GS]]]]. rewrite E4. cbn [bind].
  assert (G : good (words full) true [] (size :: match b with Some b => [b] | None => [] end) (cs1 ++ cs2)).
  { apply good_own with (xs := "size"%string :: match b with Some _ => ["isInvested"%string] | None => [] end) (ys := ys1 ++ ys2).
    - cbn [map]. rewrite (iv_lab _ _ _ Is). f_equal. destruct b; auto. cbn [map]. rewrite (iv_lab _ _ _ Ib). reflexivity.
    - rewrite !map_app, M1, M2. reflexivity.
    - apply nodup_str_NoDup. destruct b; reflexivity.
    - apply (sub_NoDup _ (["is_invested"; "is_invested_ub"; "is_invested_lb"]%string ++ bnames)); [apply sub_app; auto|].
      unfold bnames. apply nodup_str_NoDup. cbn. rewrite ?String.eqb_refl. reflexivity.
    - rewrite forallb_app. apply andb_true_intro. split; [destruct b; reflexivity|]. apply forallb_forall. intros x X.
      apply (sub_In _ (["is_invested"; "is_invested_ub"; "is_invested_lb"]%string ++ bnames)) in X; [|apply sub_app; auto].
      unfold bnames in X. cbn [app] in X. destruct X as [<-|[<-|[<-|[<-|[<-|[<-|[]]]]]]]; reflexivity.
    - constructor; [apply Is|]. destruct b; [constructor; [apply Ib|constructor]|constructor].
    - apply Forall_app. auto. }
  rewrite (mk_em_ok _ _ _ _ _ _ _ _ G). cbn [bind]. eexists. split; [reflexivity|]. split; cbn [io_tree io_size io_shares]; auto.
  - apply goods_model; auto.
    + unfold full. rewrite words_full by discriminate. reflexivity.
    + intros w w' [<-|[]] W. cbn in W. destruct W as [<-|[<-|[<-|[]]]]; apply split_head; discriminate.
  - apply Is.
Qed.
End Elem.
