(** C52, C53: what a segmented calculation leaves behind in the flow system and in itself. *)
From Verif Require Import Base BaseFacts MathModel Spec Structure Params Features Elements System Library SysSpec CtxFacts NavFacts PropsComp Tree PropsTree
     Values Results Segmented PropsRepeat SegmentedFacts PropsSegmented Example ExamplePoints.

(** ** Proof tools: components without start values *)
Definition strip (c : component) : component := with_starts (fun _ => None) ICNone c.
Definition set_starts (P : nat -> option numeric) (i : initcharge) (c : component) : component := with_starts (fun f => P (f_id f)) i c.

Lemma with_starts_twice : forall p i q j c, with_starts (fun f => p (f_id f)) i (with_starts q j c) = with_starts (fun f => p (f_id f)) i c.
Proof.
  intros p i q j c. unfold with_starts. cbn. rewrite !map_map. f_equal. destruct (cp_kind c); reflexivity.
Qed.
Lemma strip_starts : forall p i c, strip (with_starts p i c) = strip c.
Proof. intros. unfold strip. apply (with_starts_twice (fun _ => None)). Qed.
Lemma set_strip : forall P i c, set_starts P i (strip c) = set_starts P i c.
Proof. intros. unfold set_starts, strip. apply with_starts_twice. Qed.

(** Preparing a component does not look at start values and does not change them. *)
Lemma default_prev : forall p f, with_default_onoff (with_prev p f) = with_prev p (with_default_onoff f).
Proof. intros p f. unfold with_default_onoff. cbn [with_prev f_onoff]. destruct (f_onoff f); reflexivity. Qed.
Lemma map_flows_starts : forall (h : flow -> flow) P i c, (forall f, f_id (h f) = f_id f) -> (forall p f, h (with_prev p f) = with_prev p (h f)) ->
  map_flows h (set_starts P i c) = set_starts P i (map_flows h c).
Proof.
  intros h P i c HI HP. unfold map_flows, set_starts, with_starts. cbn. unfold set_flows. cbn. rewrite !map_map. f_equal; apply map_ext; intros f; rewrite HP, HI; reflexivity.
Qed.
Lemma prepare_component_starts : forall P i c, prepare_component (set_starts P i c) = set_starts P i (prepare_component c).
Proof.
  intros P i c. unfold prepare_component. change (cp_onoff (set_starts P i c)) with (cp_onoff c). change (cp_prevent (set_starts P i c)) with (cp_prevent c).
  assert (H : forall d, map_flows (fun f => if mem_nat (f_id f) (cp_prevent c) then with_default_onoff f else f) (set_starts P i d)
                        = set_starts P i (map_flows (fun f => if mem_nat (f_id f) (cp_prevent c) then with_default_onoff f else f) d)).
  { intros d. apply map_flows_starts.
    - intros f. destruct (mem_nat _ _); [apply default_id|reflexivity].
    - intros p f. cbn [with_prev f_id]. destruct (mem_nat _ _); [apply default_prev|reflexivity]. }
  destruct (cp_onoff c); [|apply H].
  rewrite (map_flows_starts with_default_onoff) by (apply default_id || apply default_prev). apply H.
Qed.
Lemma set_starts_kind : forall P i c, (forall s, cp_kind c <> StorageC s) -> cp_kind (set_starts P i c) = cp_kind c.
Proof. intros P i c H. cbn. destruct (cp_kind c) eqn:E; try reflexivity. exfalso. eapply H. reflexivity. Qed.
Definition rmap {A B} (h : A -> B) (r : res A) : res B := match r with Ok a => Ok (h a) | Err e => Err e end.

Lemma prepare_transmission_starts : forall cx tr abs P i c,
  prepare_transmission cx tr abs (set_starts P i c) = rmap (set_starts P i) (prepare_transmission cx tr abs c).
Proof.
  intros cx tr abs P i c. unfold prepare_transmission.
  assert (E : (match abs with None => Ok (set_starts P i c) | Some p => a <- act cx tr p ;; Ok (if nany_nonzero a then map_flows with_default_onoff (set_starts P i c) else set_starts P i c) end)
            = rmap (set_starts P i) (match abs with None => Ok c | Some p => a <- act cx tr p ;; Ok (if nany_nonzero a then map_flows with_default_onoff c else c) end)).
  { destruct abs as [p|]; [|reflexivity]. destruct (act cx tr p) as [a|]; [|reflexivity]. cbn [bind rmap]. destruct (nany_nonzero a); [|reflexivity].
    rewrite (map_flows_starts with_default_onoff) by (apply default_id || apply default_prev). reflexivity. }
  rewrite E. destruct (match abs with None => Ok c | Some p => a <- act cx tr p ;; Ok (if nany_nonzero a then map_flows with_default_onoff c else c) end) as [d|]; [|reflexivity].
  cbn [bind rmap]. change (cp_in (set_starts P i d)) with (map (fun f => with_prev (P (f_id f)) f) (cp_in d)).
  destruct (cp_in d) as [|in1 [|in2 r]] eqn:I; cbn [map rmap]; try reflexivity. cbn [with_prev f_size].
  destruct (f_size in1), (f_size in2); cbn [rmap]; try reflexivity.
Qed.
Lemma prepared_starts : forall cx tr P i c, prepared cx tr (set_starts P i c) = rmap (set_starts P i) (prepared cx tr c).
Proof.
  intros cx tr P i c. unfold prepared. change (cp_kind (set_starts P i c)) with (match cp_kind c with StorageC s => StorageC (with_init i s) | k => k end).
  destruct (cp_kind c) eqn:K; cbn [rmap]; try (rewrite prepare_component_starts; reflexivity).
  rewrite prepare_transmission_starts. destruct (prepare_transmission cx tr abs c) as [d|]; [|reflexivity]. cbn [rmap bind]. rewrite prepare_component_starts. reflexivity.
Qed.

(** [c'] is [c] apart from start values and defaults that would be added to [c] for the steps [idx] anyway. *)
Section Keeps.
Variables (cf : config) (ord : list nat -> list nat) (fs : flow_system) (idx : option (list nat)).
Definition keeps (c c' : component) : Prop := forall cx tr, make_ctx cf ord fs idx = Ok cx -> prepared cx tr (strip c') = prepared cx tr (strip c).
Lemma keeps_refl : forall c, keeps c c. Proof. intros c cx tr _. reflexivity. Qed.
Lemma keeps_starts : forall c c' p i, keeps c c' -> keeps c (with_starts p i c').
Proof. intros c c' p i K cx tr B. rewrite strip_starts. apply K. exact B. Qed.
Lemma strip_loss : forall c rel p, cp_kind (strip c) = TransmissionC rel (Some p) -> cp_kind c = TransmissionC rel (Some p).
Proof. intros c rel p E. unfold strip in E. cbn in E. destruct (cp_kind c); try discriminate E. exact E. Qed.
Lemma like_loss : forall c c' rel p, kind_like (cp_kind c) (cp_kind c') -> cp_kind c' = TransmissionC rel (Some p) -> cp_kind c = TransmissionC rel (Some p).
Proof. intros c c' rel p K E. destruct (cp_kind c); cbn in K; try congruence. destruct K as [j K]. congruence. Qed.

Hypothesis FL : full_losses fs.
Lemma keeps_prepared : forall c c' c'' idx1 cx1 tr, In c (fs_comps fs) -> keeps c c' -> kind_like (cp_kind c) (cp_kind c') ->
  make_ctx cf ord fs idx1 = Ok cx1 -> losses_too fs idx1 idx -> prepared cx1 tr c' = Ok c'' -> keeps c c''.
Proof.
  intros c c' c'' idx1 cx1 tr Hc K KL M1 LT P cx tr1 M. rewrite <- (K cx tr1 M).
  pose proof (prepared_starts cx1 tr (fun _ => None) ICNone c') as S1. rewrite P in S1. cbn [rmap] in S1.
  change (set_starts (fun _ => None) ICNone c') with (strip c') in S1. change (set_starts (fun _ => None) ICNone c'') with (strip c'') in S1.
  apply (prepared_absorb _ _ _ _ _ _ S1); [rewrite (ctx_big _ _ _ _ _ M), (ctx_big _ _ _ _ _ M1); reflexivity|].
  intros rel p a' a E A' N A. apply strip_loss in E. pose proof (like_loss _ _ _ _ KL E) as E0. pose proof (FL c rel p Hc E0) as FD.
  rewrite (loss_seen _ _ _ _ _ _ _ _ M FD A). rewrite (loss_seen _ _ _ _ _ _ _ _ M1 FD A') in N. exact (LT c rel p Hc E0 N).
Qed.

Definition keeping (fs' : flow_system) : Prop := Forall2 (fun c c' => keeps c c' /\ kind_like (cp_kind c) (cp_kind c')) (fs_comps fs) (fs_comps fs').
Lemma keeping_refl : keeping fs.
Proof. unfold keeping. induction (fs_comps fs); constructor; auto. split; [apply keeps_refl|apply kind_like_refl]. Qed.

Lemma keeping_after : forall fs' idx', sys_like fs fs' -> losses_too fs idx' idx -> keeping fs' -> keeping (after_modeling cf ord fs' idx').
Proof.
  intros fs' idx' SL LT K. pose proof (sys_like_frame _ _ SL) as SF. unfold keeping, after_modeling in *. cbn [with_comps fs_comps]. generalize (comps_reached cf ord fs' idx'). intros k.
  assert (G : forall l l', Forall2 (fun c c' => keeps c c' /\ kind_like (cp_kind c) (cp_kind c')) l l' -> (forall c, In c l -> In c (fs_comps fs)) ->
    forall k, Forall2 (fun c c' => keeps c c' /\ kind_like (cp_kind c) (cp_kind c')) l (map (defaulted cf ord fs' idx') (firstn k l') ++ skipn k l')); [|apply G; auto].
  intros l l' F. induction F as [|c c' l l' [H1 H2] F IH]; intros NA j; [destruct j; constructor|]. destruct j as [|j]; cbn [firstn skipn map app].
  - constructor; [split; assumption|exact F].
  - constructor; [|apply IH; intros; apply NA; right; assumption]. unfold defaulted. rewrite (frame_ctx _ _ SF). destruct (make_ctx cf ord fs idx') as [cx|] eqn:E; [|split; assumption].
    destruct (prepared cx (visible_comp fs' (cp_label c')) c') as [c''|] eqn:P; [|split; assumption].
    destruct (prepared_shape _ _ _ _ P) as [_ [_ KK]]. split; [|rewrite KK; exact H2].
    exact (keeps_prepared c c' c'' idx' cx _ (NA c (or_introl eq_refl)) H1 H2 E LT P).
Qed.
Lemma kind_starts : forall p i c, kind_like (cp_kind c) (cp_kind (with_starts p i c)).
Proof. intros p i c. cbn. destruct (cp_kind c); cbn; eauto. Qed.
Lemma keeping_transfer : forall g n x fs1 fs2, keeping fs1 -> transfer g n x fs1 = Ok fs2 -> keeping fs2.
Proof.
  intros g n x fs1 fs2 K H. unfold transfer in H. destruct (mapM _ (fs_comps fs1)) as [cs|] eqn:M; [|discriminate]. cbn [bind] in H. inversion H; subst.
  unfold keeping in *. cbn [with_comps fs_comps]. clear H. revert cs M. induction K as [|c c' l l' [H1 H2] F IH]; intros cs M; cbn [mapM] in M.
  - inversion M; subst. constructor.
  - destruct (from_end n (1 + sg_over g)); [|discriminate]. destruct (from_end (n + 1) (1 + sg_over g)); [|discriminate]. cbn [bind] in M, IH.
    destruct (mapM _ l') as [r|] eqn:R; [|discriminate]. cbn [bind] in M. inversion M; subst. constructor; [|apply IH; reflexivity].
    split; [apply keeps_starts; exact H1|eapply kind_like_trans; [exact H2|apply kind_starts]].
Qed.
Lemma keeping_trace : forall solver g i fs1 subs fs', seg_trace cf ord solver g i fs1 subs fs' -> sys_like fs fs1 ->
  (forall s, In s subs -> losses_too fs (Some (sb_idx s)) idx) -> keeping fs1 -> keeping fs'.
Proof.
  intros solver g i fs1 subs fs' T. induction T as [i fs1 pm x B S1|i fs1 pm x fs2 rest fs' B S1 TR T IH]; intros SL LT K.
  - apply keeping_after; [exact SL| |exact K]. apply (LT _ (or_introl eq_refl)).
  - apply IH.
    + eapply sys_like_trans; [exact SL|]. eapply sys_like_trans; [apply after_like|exact (transfer_like _ _ _ _ _ TR)].
    + intros s Hs. apply LT. right. exact Hs.
    + eapply keeping_transfer; [|exact TR]. apply keeping_after; [exact SL| |exact K]. apply (LT _ (or_introl eq_refl)).
Qed.
Lemma keeping_subs : forall solver g i fs1 subs fs', seg_trace cf ord solver g i fs1 subs fs' -> sys_like fs fs1 ->
  (forall s, In s subs -> losses_too fs (Some (sb_idx s)) idx) -> keeping fs1 -> forall s, In s subs -> keeping (sb_fs s).
Proof.
  intros solver g i fs1 subs fs' T. induction T as [i fs1 pm x B S1|i fs1 pm x fs2 rest fs' B S1 TR T IH]; intros SL LT K s Hs.
  - destruct Hs as [<-|[]]. exact K.
  - destruct Hs as [<-|Hs]; [exact K|]. apply IH; [| | |exact Hs].
    + eapply sys_like_trans; [exact SL|]. eapply sys_like_trans; [apply after_like|exact (transfer_like _ _ _ _ _ TR)].
    + intros s' Hs'. apply LT. right. exact Hs'.
    + eapply keeping_transfer; [|exact TR]. apply keeping_after; [exact SL| |exact K]. apply (LT _ (or_introl eq_refl)).
Qed.
End Keeps.


Lemma starts_back : forall c, NoDup (map f_id (cp_flows c)) -> exists P i, forall c', init_of c' = init_of c ->
  map (fun f => (f_id f, f_prev f)) (cp_flows c') = map (fun f => (f_id f, f_prev f)) (cp_flows c) -> set_starts P i c' = c'.
Proof.
  intros c ND. exists (fun id => match find (fun f => Nat.eqb (f_id f) id) (cp_flows c) with Some f => f_prev f | None => None end).
  exists (match init_of c with Some i => i | None => ICNone end). intros c' I E.
  assert (PF : forall f, In f (cp_flows c) -> find (fun g => Nat.eqb (f_id g) (f_id f)) (cp_flows c) = Some f).
  { clear -ND. induction (cp_flows c) as [|a l IH]; intros f [].
    - subst. cbn. rewrite Nat.eqb_refl. reflexivity.
    - cbn [map] in ND. inversion ND; subst. cbn [find]. destruct (Nat.eqb (f_id a) (f_id f)) eqn:Q; [|apply IH; assumption].
      apply Nat.eqb_eq in Q. exfalso. apply H2. rewrite Q. apply in_map. exact H. }
  assert (PP : forall f', In f' (cp_flows c') -> match find (fun g => Nat.eqb (f_id g) (f_id f')) (cp_flows c) with Some f => f_prev f | None => None end = f_prev f').
  { intros f' Hf. assert (J : In (f_id f', f_prev f') (map (fun f => (f_id f, f_prev f)) (cp_flows c))) by (rewrite <- E; apply (in_map (fun f => (f_id f, f_prev f))); exact Hf).
    apply in_map_iff in J. destruct J as [f [J1 J2]]. apply pair_equal_spec in J1. destruct J1 as [J3 J4]. rewrite <- J3, (PF _ J2). exact J4. }
  assert (M : forall l, (forall f', In f' l -> In f' (cp_flows c')) -> map (fun f => with_prev (match find (fun g => Nat.eqb (f_id g) (f_id f)) (cp_flows c) with Some f0 => f_prev f0 | None => None end) f) l = l).
  { intros l H. rewrite <- (map_id l) at 2. apply map_ext_in. intros f Hf. rewrite (PP f (H f Hf)). destruct f; reflexivity. }
  unfold set_starts, with_starts. rewrite !M by (intros f Hf; unfold cp_flows; apply in_or_app; auto).
  destruct c' as [lab inn out onoff prev kind]. cbn [cp_label cp_in cp_out cp_onoff cp_prevent cp_kind]. f_equal. destruct kind; try reflexivity. rewrite <- I. cbn. destruct s; reflexivity.
Qed.

(** ** C52 *)
Definition C52_full : Prop := forall cf ord solver fs seg over ti g subs fs_after idx,
  finished cf ord solver fs seg over ti g subs fs_after -> NoDup (map cp_label (fs_comps fs)) -> build cf ord fs_after idx = build cf ord fs idx.

(** After a finished segmented calculation every later calculation of the flow system hands the solver the problem it would have handed before,
    if it covers some of the absolute losses of every transmission for which the segments did. *)
Theorem C52_no_trace_partial : forall cf ord solver fs seg over ti g subs fs_after idx,
  finished cf ord solver fs seg over ti g subs fs_after -> NoDup (map cp_label (fs_comps fs)) ->
  full_losses fs -> (forall s, In s subs -> losses_too fs (Some (sb_idx s)) idx) ->
  build cf ord fs_after idx = build cf ord fs idx.
Proof.
  intros cf ord solver fs seg over ti g subs fs_after idx F ND FL LT. destruct F as [M R].
  pose proof (C35_restored_partial _ _ _ _ _ _ _ _ _ _ _ ND M R (or_introl eq_refl)) as RS.
  assert (F : finished cf ord solver fs seg over ti g subs fs_after) by (split; assumption).
  destruct (finished_trace _ _ _ _ _ _ _ _ _ _ F) as [fs' [T [_ EA]]].
  pose proof (keeping_trace cf ord fs idx FL _ _ _ _ _ _ T (sys_like_refl fs) LT (keeping_refl cf ord fs idx)) as K. destruct (trace_like _ _ _ _ _ _ _ _ T) as [LK _].
  assert (LA : sys_like fs fs_after) by (rewrite EA; eapply sys_like_trans; [exact LK|apply reset_like]).
  apply frame_build; [apply sys_like_frame; exact LA|]. intros cx E.
  assert (KA : keeping cf ord fs idx fs_after).
  { rewrite EA. unfold keeping, reset in *. cbn [with_comps fs_comps]. clear -K. induction K as [|c c' l l' [H1 H2] _ IH]; cbn [map]; constructor; auto.
    split; [apply keeps_starts; exact H1|eapply kind_like_trans; [exact H2|apply kind_starts]]. }
  assert (IDS : forall c, In c (fs_comps fs) -> NoDup (map f_id (cp_flows c))).
  { assert (B0 : exists pm, build cf ord fs (Some (get_indices g 0)) = Ok pm) by (inversion T; subst; eauto). destruct B0 as [pm B0].
    destruct (build_parts _ _ _ _ _ B0) as [cx0 [cos [bos [em [obj P]]]]]. pose proof (sy_ids _ _ _ _ _ _ _ _ _ _ P) as N. intros c Hc.
    pose proof (NoDup_flat_map_part _ _ _ c N Hc) as Y. cbv beta in Y. rewrite map_map in Y. exact Y. }
  clear EA K. unfold restored in RS. unfold keeping in KA. pose proof (sl_comps _ _ LA) as CL.
  assert (G : forall l l', Forall2 (fun c c' => cp_label c' = cp_label c /\ init_of c' = init_of c
             /\ map (fun f => (f_id f, f_lab f, f_prev f)) (cp_flows c') = map (fun f => (f_id f, f_lab f, f_prev f)) (cp_flows c)) l l' ->
     Forall2 (fun c c' => keeps cf ord fs idx c c' /\ kind_like (cp_kind c) (cp_kind c')) l l' -> Forall2 comp_like l l' ->
     (forall c, In c l -> NoDup (map f_id (cp_flows c))) ->
     mapM (comp_model cx (visible_flow fs) (visible_comp fs)) l' = mapM (comp_model cx (visible_flow fs) (visible_comp fs)) l); [|apply G; assumption].
  clear -E. intros l l' F1. induction F1 as [|c c' l l' [A1 [A2 A3]] F1 IH]; intros F2 F3 IDS; [reflexivity|]. inversion F2 as [|? ? ? ? [K KK] F2']; subst. inversion F3 as [|? ? ? ? CL F3']; subst.
  cbn [mapM]. rewrite (IH F2' F3' (fun c0 H => IDS c0 (or_intror H))).
  assert (EQ : comp_model cx (visible_flow fs) (visible_comp fs) c' = comp_model cx (visible_flow fs) (visible_comp fs) c); [|rewrite EQ; reflexivity].
  unfold comp_model. rewrite A1.
  assert (PE : prepared cx (visible_comp fs (cp_label c)) c' = prepared cx (visible_comp fs (cp_label c)) c); [|rewrite PE; reflexivity].
  set (tr := visible_comp fs (cp_label c)).
  (* Both are their stripped versions with the same start values put back. *)
  assert (X : exists P i, set_starts P i c' = c' /\ set_starts P i c = c).
  { assert (ids : map (fun f => (f_id f, f_prev f)) (cp_flows c') = map (fun f => (f_id f, f_prev f)) (cp_flows c)).
    { pose proof (f_equal (map (fun y => (fst (fst y), snd y))) A3) as A4. rewrite !map_map in A4. exact A4. }
    destruct (starts_back c (IDS c (or_introl eq_refl))) as [P [i X]]. exists P, i. split; apply X; auto. }
  destruct X as [P [i [X1 X2]]]. rewrite <- X1, <- X2, <- (set_strip P i c'), <- (set_strip P i c), !prepared_starts. rewrite (K cx tr E). reflexivity.
Qed.
Print Assumptions C52_no_trace_partial.

(** A later calculation of all steps is always unaffected. *)
Theorem C52_all_steps : forall cf ord solver fs seg over ti g subs fs_after,
  finished cf ord solver fs seg over ti g subs fs_after -> NoDup (map cp_label (fs_comps fs)) -> full_losses fs ->
  build cf ord fs_after None = build cf ord fs None.
Proof.
  intros cf ord solver fs seg over ti g subs fs_after F ND FL. apply (C52_no_trace_partial _ _ _ _ _ _ _ _ _ _ _ F ND FL). intros s Hs c rel p Hc K A.
  destruct (In_nth_error _ _ Hs) as [k E]. destruct (fin_sub _ _ _ _ _ _ _ _ _ _ F k s E) as [I _]. pose proof (fin_range _ _ _ _ _ _ _ _ _ _ F) as RNG.
  unfold any_loss in *. apply existsb_exists in A. destruct A as [t [T V]]. apply in_seq in T. cbn [steps] in T. apply existsb_exists. exists (selected (Some (sb_idx s)) t). split.
  - apply in_seq. split; [lia|]. cbn [steps plus selected]. rewrite I in T |- *. rewrite seq_length in T. rewrite seq_nth by lia. lia.
  - exact V.
Qed.
Print Assumptions C52_all_steps.

(** A storage that is charged over three segments: the full calculation of the ten steps afterwards is the one asked for before, and so is one
    of the steps 3 to 5. *)
Lemma keep_lossless : no_absolute_losses fs_keep.
Proof. intros c rel abs Hc K. cbn in Hc. destruct Hc as [<-|[<-|[]]]; cbn in K; discriminate K. Qed.
Example C52_applies : exists fs_after g subs, finished default_config id_ord (keep_solver [0; 4; 8]%nat [6; 6; 2]%nat) fs_keep 4 2 None g subs fs_after
  /\ length subs = 3%nat /\ is_ok (build default_config id_ord fs_keep None) = true /\ build default_config id_ord fs_after None = build default_config id_ord fs_keep None
  /\ build default_config id_ord fs_after (Some [3; 4; 5]%nat) = build default_config id_ord fs_keep (Some [3; 4; 5]%nat).
Proof.
  destruct keep_run as [g [subs [fa [F [L _]]]]]. exists fa, g, subs. split; [exact F|]. split; [exact L|]. split; [vm_compute; reflexivity|].
  assert (ND : NoDup (map cp_label (fs_comps fs_keep))) by (repeat constructor; cbn; intuition discriminate).
  split; apply (C52_no_trace_partial _ _ _ _ _ _ _ _ _ _ _ F ND (lossless_full _ keep_lossless)); intros; apply lossless_too; exact keep_lossless.
Qed.

(** A pipe that loses something in the first two of four steps. After a segmented calculation the last two steps can be calculated on their own,
    before it they cannot: the flows of the pipe have kept the on/off parameters they got for the losses. *)
Theorem C52_refuted : ~ C52_full.
Proof.
  intros Full. set (sv := fun (_ : nat) (_ : pmodel) => Some (fun (_ : string) (_ : nat) => 0)).
  destruct (mk_segmented fs_pipe 4 0 None) as [g|] eqn:G; [|vm_compute in G; discriminate G].
  destruct (seg_run default_config id_ord sv g fs_pipe []) as [[fa subs] e] eqn:R.
  assert (CK : match mk_segmented fs_pipe 4 0 None with Ok g => match seg_run default_config id_ord sv g fs_pipe [] with
     | (fa, subs, None) => (is_ok (build default_config id_ord fa (Some [2; 3]%nat)) && negb (is_ok (build default_config id_ord fs_pipe (Some [2; 3]%nat))))%bool | _ => false end | _ => false end = true)
    by (vm_compute; reflexivity).
  rewrite G, R in CK. destruct e; [discriminate CK|].
  assert (F : finished default_config id_ord sv fs_pipe 4 0 None g subs fa) by (split; assumption).
  rewrite (Full _ _ _ _ _ _ _ _ _ _ (Some [2; 3]%nat) F) in CK; [destruct (is_ok _); discriminate CK|]. repeat constructor; cbn; intuition discriminate.
Qed.
Print Assumptions C52_refuted.

(** ** C53: running the same segmented calculation a second time *)
Definition C53_full : Prop := forall cf ord solver solver2 fs seg over ti g subs fs_after fs2 subs2 s s',
  finished cf ord solver fs seg over ti g subs fs_after -> seg_run cf ord solver2 g fs_after subs = (fs2, subs2, None) ->
  nth_error subs 0 = Some s -> nth_error subs2 (length subs) = Some s' -> sb_prog s' = sb_prog s.

(** The second run keeps the segments of the first one and appends as many again. *)
Theorem C53_second_run_partial : forall cf ord solver solver2 fs seg over ti g subs fs_after fs2 subs2,
  finished cf ord solver fs seg over ti g subs fs_after -> seg_run cf ord solver2 g fs_after subs = (fs2, subs2, None) ->
  exists again, subs2 = subs ++ again /\ map sb_idx again = map sb_idx subs.
Proof.
  intros cf ord solver solver2 fs seg over ti g subs fs_after fs2 subs2 F R.
  destruct (finished_trace _ _ _ _ _ _ _ _ _ _ F) as [fs' [T [L _]]]. pose proof F as [M _]. destruct (segmented_spec _ _ _ _ _ M) as [_ [_ [_ [_ [_ [_ [N _]]]]]]].
  destruct (exists_last (l := subs)) as [d [s E]]; [intros ->; cbn in L; lia|]. unfold seg_run in R. destruct (sg_number g) as [|n] eqn:NN; [lia|].
  destruct (seg_loop _ _ _ _ _ _ _ _) as [[fl su] [e|]] eqn:LP; [discriminate|]. inversion R; subst su fs2. rewrite E in LP.
  destruct (loop_trace_after _ _ _ _ _ _ _ _ _ _ _ LP) as [fs1 [rest [_ [S2 [T2 L2]]]]]. exists rest. split; [rewrite S2, E, <- app_assoc; reflexivity|].
  apply list_ext. intros k. rewrite !nth_error_map. destruct (nth_error rest k) as [a|] eqn:A.
  - assert (K : (k < length rest)%nat) by (apply nth_error_Some; congruence). destruct (nth_error subs k) as [b|] eqn:B; [|apply nth_error_None in B; lia].
    cbn. f_equal. destruct (trace_nth _ _ _ _ _ _ _ _ T2 k a A) as [X _]. destruct (trace_nth _ _ _ _ _ _ _ _ T k b B) as [Y _]. congruence.
  - apply nth_error_None in A. assert (B : nth_error subs k = None) by (apply nth_error_None; lia). rewrite B. reflexivity.
Qed.
Print Assumptions C53_second_run_partial.

(** It begins where the first one ended: the storage is full from the start of the second run. *)
Theorem C53_refuted : ~ C53_full.
Proof.
  intros Full.
  set (s1 := keep_solver [0; 5]%nat [5; 5]%nat). set (s2 := keep_solver [10; 15]%nat [5; 5]%nat).
  destruct (mk_segmented fs_keep 5 0 None) as [g|] eqn:G; [|vm_compute in G; discriminate].
  destruct (seg_run default_config id_ord s1 g fs_keep []) as [[fa subs] e] eqn:R1. destruct (seg_run default_config id_ord s2 g fa subs) as [[f2 subs2] e2] eqn:R2.
  assert (CK : match mk_segmented fs_keep 5 0 None with Ok g => match seg_run default_config id_ord s1 g fs_keep [] with
     | (fa, subs, None) => match seg_run default_config id_ord s2 g fa subs with
       | (_, subs2, None) => match nth_error subs 0, nth_error subs2 (length subs) with
                             | Some s, Some s' => (feasibleb (sb_prog s) (x_keep 0 5) && negb (feasibleb (sb_prog s') (x_keep 0 5)))%bool | _, _ => false end
       | _ => false end | _ => false end | _ => false end = true) by (vm_compute; reflexivity).
  rewrite G, R1 in CK. destruct e; [discriminate|]. rewrite R2 in CK. destruct e2; [discriminate|].
  destruct (nth_error subs 0) as [s|] eqn:A; [|discriminate]. destruct (nth_error subs2 (length subs)) as [s'|] eqn:B; [|discriminate].
  assert (F : finished default_config id_ord s1 fs_keep 5 0 None g subs fa) by (split; assumption).
  rewrite (Full _ _ _ _ _ _ _ _ _ _ _ _ _ _ _ F R2 A B) in CK. destruct (feasibleb (sb_prog s) (x_keep 0 5)); discriminate.
Qed.
Print Assumptions C53_refuted.

Example C53_applies : exists g subs fa f2 subs2, finished default_config id_ord (keep_solver [0; 5]%nat [5; 5]%nat) fs_keep 5 0 None g subs fa
  /\ seg_run default_config id_ord (keep_solver [10; 15]%nat [5; 5]%nat) g fa subs = (f2, subs2, None) /\ length subs2 = 4%nat.
Proof.
  set (s1 := keep_solver [0; 5]%nat [5; 5]%nat). set (s2 := keep_solver [10; 15]%nat [5; 5]%nat).
  destruct (mk_segmented fs_keep 5 0 None) as [g|] eqn:G; [|vm_compute in G; discriminate].
  destruct (seg_run default_config id_ord s1 g fs_keep []) as [[fa subs] e] eqn:R1. destruct (seg_run default_config id_ord s2 g fa subs) as [[f2 subs2] e2] eqn:R2.
  assert (CK : match mk_segmented fs_keep 5 0 None with Ok g => match seg_run default_config id_ord s1 g fs_keep [] with
     | (fa, subs, None) => match seg_run default_config id_ord s2 g fa subs with (_, subs2, None) => Nat.eqb (length subs2) 4 | _ => false end | _ => false end | _ => false end = true)
    by (vm_compute; reflexivity).
  rewrite G, R1 in CK. destruct e; [discriminate|]. rewrite R2 in CK. destruct e2; [discriminate|]. apply Nat.eqb_eq in CK. exists g, subs, fa, f2, subs2. repeat split; assumption.
Qed.
