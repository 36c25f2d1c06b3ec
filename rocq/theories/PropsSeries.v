(** C29: what data a calculation sees after any history. C39: aggregation weights. *)
From Verif Require Import Base BaseFacts MathModel Params System Spec SysSpec Structure Features CtxFacts Series.

(** ** Specification *)

(** The values the user gave, by place, latest assignment last. *)
Definition user_values (l : list sop) : list (option param) :=
  fold_left (fun vs o => match o with NewSlot v => vs ++ [v] | SetSlot s v => upd s v vs | _ => vs end) l [].

(** The user's data has an entry for step [i] of the flow system. *)
Definition covers (p : param) (i : nat) : Prop := match pdata p with NS _ => True | NV l => (i < length l)%nat end.

(** ** Lists and heaps *)
Lemma upd_length : forall {A} i (x : A) l, length (upd i x l) = length l.
Proof. intros A i x l. revert i. induction l as [|a l IH]; intros [|i]; simpl; auto. Qed.
Lemma nth_error_upd : forall {A} i j (x : A) l,
  nth_error (upd i x l) j = if Nat.eqb i j then (match nth_error l j with Some _ => Some x | None => None end) else nth_error l j.
Proof.
  intros A i j x l. revert i j. induction l as [|a l IH]; intros i j.
  - destruct i, j; simpl; auto. destruct (Nat.eqb i j); auto.
  - destruct i, j; simpl; auto.
Qed.
Lemma map_heap_spec : forall f, (forall ts, f (f ts) = f ts) -> forall is h i,
  nth_error (map_heap f is h) i = if in_dec Nat.eq_dec i is then option_map f (nth_error h i) else nth_error h i.
Proof.
  intros f F is. induction is as [|k is IH]; intros h i; [reflexivity|].
  change (map_heap f (k :: is) h) with (map_heap f is (match nth_error h k with Some ts => upd k (f ts) h | None => h end)).
  rewrite IH. destruct (nth_error h k) as [ts|] eqn:K.
  - rewrite nth_error_upd. destruct (Nat.eqb k i) eqn:E.
    + apply Nat.eqb_eq in E. subst k. rewrite K. cbn [option_map]. rewrite F. destruct (in_dec Nat.eq_dec i is); destruct (in_dec Nat.eq_dec i (i :: is)) as [J|J]; auto;
        exfalso; apply J; simpl; auto.
    + apply Nat.eqb_neq in E. destruct (in_dec Nat.eq_dec i is) as [I|I]; destruct (in_dec Nat.eq_dec i (k :: is)) as [J|J]; auto; exfalso.
      * apply J; simpl; auto.
      * simpl in J. tauto.
  - destruct (in_dec Nat.eq_dec i is) as [I|I]; destruct (in_dec Nat.eq_dec i (k :: is)) as [J|J]; auto.
    + exfalso. apply J; simpl; auto.
    + destruct J as [->|J]; [|tauto]. rewrite K. reflexivity.
Qed.

(** ** Invariant *)
Definition slot_inv (w : world) (uv : list (option param)) (s : nat) : Prop :=
  match nth_error (w_slots w) s with
  | None => nth_error uv s = None
  | Some SNone => nth_error uv s = Some None
  | Some (SRaw p) => nth_error uv s = Some (Some p)
  | Some (SRef i) => exists p ts, nth_error uv s = Some (Some p) /\ nth_error (w_heap w) i = Some ts
                       /\ make_scalar (pdata p) = Ok (ts_data ts) /\ In i (all_series w)
  end.
Definition inv (w : world) (uv : list (option param)) : Prop := length (w_slots w) = length uv /\ forall s, slot_inv w uv s.

(** Heap changes that keep the data of every series. *)
Definition same_data (h h' : list tseries) : Prop :=
  forall i ts, nth_error h i = Some ts -> exists ts', nth_error h' i = Some ts' /\ ts_data ts' = ts_data ts.
Lemma inv_heap : forall w h' es uv, inv w uv -> same_data (w_heap w) h' -> (forall i, In i (all_series w) -> In i (flat_map el_used es)) ->
  inv (mkWorld h' (w_slots w) es) uv.
Proof.
  intros w h' es uv [L I] D U. split; [exact L|]. intros s. specialize (I s). unfold slot_inv in *. cbn [w_slots w_heap].
  destruct (nth_error (w_slots w) s) as [[|p|i]|]; auto. destruct I as [p [ts [A [B [C E]]]]].
  destruct (D _ _ B) as [ts' [B' D']]. exists p, ts'. rewrite D'. auto.
Qed.
Lemma same_data_map : forall f is h, (forall ts, f (f ts) = f ts) -> (forall ts, ts_data (f ts) = ts_data ts) -> same_data h (map_heap f is h).
Proof.
  intros f is h F D i ts H. rewrite (map_heap_spec f F). rewrite H. destruct (in_dec _ _ _); simpl; eauto.
Qed.
Lemma same_data_upd : forall i ts0 h ts', nth_error h i = Some ts0 -> ts_data ts' = ts_data ts0 -> same_data h (upd i ts' h).
Proof.
  intros i ts0 h ts' H D j ts J. rewrite nth_error_upd. destruct (Nat.eqb i j) eqn:E; eauto.
  apply Nat.eqb_eq in E. subst j. rewrite J. exists ts'. split; auto. congruence.
Qed.

Lemma insert_ts_idem : forall d ts, insert_ts d (insert_ts d ts) = insert_ts d ts.
Proof. intros d ts. unfold insert_ts. destruct (assoc (ts_label ts) d) eqn:E; simpl; rewrite E; reflexivity. Qed.
Lemma or_num_idem : forall o, or_num (Some (or_num o 1)) 1 = or_num o 1.
Proof. intros [q|]; simpl; auto. destruct (truthy q) eqn:E; simpl; rewrite ?E; auto. Qed.
Lemma weight_idem : forall l ts, set_weight (Some (new_weight l (set_weight (Some (new_weight l ts)) ts))) (set_weight (Some (new_weight l ts)) ts)
  = set_weight (Some (new_weight l ts)) ts.
Proof.
  intros l ts. unfold set_weight, new_weight. simpl. destruct (ts_group ts); auto. do 2 f_equal. unfold or_num. destruct (ts_weight ts) as [q|]; auto.
  destruct (truthy q) eqn:E; rewrite ?E; auto.
Qed.
Lemma insert_ts_data : forall d ts, ts_data (insert_ts d ts) = ts_data ts.
Proof. intros d ts. unfold insert_ts. destruct (assoc _ d); reflexivity. Qed.

Lemma mk_ts_data : forall lab p ts, mk_ts lab p = Ok ts -> make_scalar (pdata p) = Ok (ts_data ts) /\ ts_agg ts = None /\ ts_label ts = lab.
Proof. intros lab p ts H. unfold mk_ts in H. inv_ok. destruct p; inv_ok; auto. Qed.

Lemma used_upd : forall es ei e e' i, nth_error es ei = Some e -> (forall j, In j (el_used e) -> In j (el_used e')) ->
  In i (flat_map el_used es) -> In i (flat_map el_used (upd ei e' es)).
Proof.
  induction es as [|a es IH]; intros ei e e' i H U I; [destruct ei; discriminate|]. destruct ei as [|ei]; simpl in *.
  - inversion H; subst a. apply in_or_app. apply in_app_or in I. destruct I as [I|I]; auto.
  - apply in_or_app. apply in_app_or in I. destruct I as [I|I]; auto. right. eapply IH; eauto.
Qed.
Lemma used_upd_new : forall es ei e e' i, nth_error es ei = Some e -> In i (el_used e') -> In i (flat_map el_used (upd ei e' es)).
Proof.
  induction es as [|a es IH]; intros ei e e' i H I; [destruct ei; discriminate|]. destruct ei as [|ei]; simpl in *; apply in_or_app; auto.
  right. eapply IH; eauto.
Qed.

Lemma create_inv : forall w c uv, inv w uv -> inv (fst (create_time_series w c)) uv.
Proof.
  intros w [ei [suf s]] uv I. unfold create_time_series. destruct (nth_error (w_elems w) ei) as [e|] eqn:E; [|exact I].
  destruct (nth_error (w_slots w) s) as [[|p|i]|] eqn:S; try exact I.
  - destruct (mk_ts (cat [el_label e; "__"; suf]) p) as [ts|x] eqn:M; [|exact I]. cbn [fst].
    destruct I as [L I]. split; [cbn [w_slots]; rewrite upd_length; exact L|]. intros s'. unfold slot_inv. cbn [w_slots w_heap].
    rewrite nth_error_upd. destruct (Nat.eqb s s') eqn:X.
    + apply Nat.eqb_eq in X. subst s'. rewrite S. specialize (I s). unfold slot_inv in I. rewrite S in I.
      destruct (mk_ts_data _ _ _ M) as [D _]. exists p, ts. split; auto. split; [rewrite nth_error_app2, Nat.sub_diag by lia; reflexivity|].
      split; auto. unfold all_series. cbn [w_elems]. eapply used_upd_new; eauto. simpl. apply in_or_app. simpl; auto.
    + specialize (I s'). unfold slot_inv in I. destruct (nth_error (w_slots w) s') as [[|p'|i]|]; auto.
      destruct I as [p' [ts' [A [B [C D]]]]]. exists p', ts'. split; auto. split; [rewrite nth_error_app1; auto; apply nth_error_Some; congruence|].
      split; auto. unfold all_series in *. cbn [w_elems]. eapply used_upd; eauto. simpl. intros j Hj. apply in_or_app. auto.
  - destruct (nth_error (w_heap w) i) as [ts|] eqn:H; [|exact I]. cbn [fst]. apply inv_heap; auto. eapply same_data_upd; eauto.
Qed.

Lemma run_steps_inv : forall {W A} (f : W -> A -> W * option exn) (P : W -> Prop), (forall w a, P w -> P (fst (f w a))) ->
  forall l w, P w -> P (fst (run_steps f l w)).
Proof.
  intros W A f P F. induction l as [|a l IH]; intros w H; simpl; auto. specialize (F w a H). destruct (f w a) as [w' [x|]]; simpl in *; auto.
Qed.

Lemma transform_inv : forall w uv, inv w uv -> inv (fst (transform_data w)) uv.
Proof. intros w uv I. unfold transform_data. apply (run_steps_inv _ (fun w => inv w uv)); auto. intros. apply create_inv; auto. Qed.
Lemma activate_inv : forall idx w uv, inv w uv -> inv (activate_all idx w) uv.
Proof. intros idx w uv I. apply inv_heap; auto. apply same_data_map; reflexivity. Qed.
Lemma collect_inv : forall w uv, inv w uv -> inv (fst (collect w)) uv.
Proof.
  intros w uv I. unfold collect. destruct (nodup_str _); auto. cbn [fst]. apply inv_heap; auto. apply same_data_map; [apply weight_idem|reflexivity].
Qed.
Lemma insert_inv : forall d w uv, inv w uv -> inv (insert_data d w) uv.
Proof. intros d w uv I. apply inv_heap; auto. apply same_data_map; [apply insert_ts_idem|apply insert_ts_data]. Qed.
Lemma full_inv : forall idx w uv, inv w uv -> inv (fst (full_calculation idx w)) uv.
Proof.
  intros idx w uv I. unfold full_calculation. pose proof (transform_inv w uv I) as T. destruct (transform_data w) as [w1 [x|]]; simpl in *; auto.
  apply activate_inv; auto.
Qed.
Lemma aggregated_inv : forall idx d w uv, inv w uv -> inv (fst (aggregated_calculation idx d w)) uv.
Proof.
  intros idx d w uv I. unfold aggregated_calculation. pose proof (full_inv idx w uv I) as T. destruct (full_calculation idx w) as [w1 [x|]]; simpl in *; auto.
  pose proof (collect_inv w1 uv T) as C. destruct (collect w1) as [w2 [x|]]; simpl in *; auto. destruct d; auto. apply insert_inv; auto.
Qed.

Lemma history_inv : forall l, inv (history l) (user_values l).
Proof.
  assert (G : forall l w uv, inv w uv -> inv (fold_left do_sop l w)
     (fold_left (fun vs o => match o with NewSlot v => vs ++ [v] | SetSlot s v => upd s v vs | _ => vs end) l uv)).
  { induction l as [|o l IH]; intros w uv I; cbn [fold_left]; auto. apply IH. destruct o as [v|s v|lab sl| |idx| |d|idx|idx d]; cbn [do_sop].
    - destruct I as [L I]. split; [cbn [w_slots]; rewrite !app_length, L; reflexivity|]. intros s. specialize (I s). unfold slot_inv in *. cbn [w_slots w_heap].
      destruct (Nat.lt_trichotomy s (length uv)) as [C|[C|C]].
      + rewrite !nth_error_app1 by lia. exact I.
      + subst s. rewrite nth_error_app2, <- L, Nat.sub_diag by lia. rewrite nth_error_app2, L, Nat.sub_diag by lia. destruct v; reflexivity.
      + rewrite (proj2 (nth_error_None (w_slots w ++ _) s)) by (rewrite app_length; simpl; lia). apply nth_error_None. rewrite app_length; simpl; lia.
    - destruct I as [L I]. split; [cbn [w_slots]; rewrite !upd_length; auto|]. intros s'. specialize (I s'). unfold slot_inv in *. cbn [w_slots w_heap].
      rewrite !nth_error_upd. destruct (Nat.eqb s s') eqn:E; auto.
      destruct (nth_error (w_slots w) s') eqn:X.
      + destruct (nth_error uv s') eqn:Y; [destruct v; reflexivity|]. exfalso. apply nth_error_None in Y.
        assert (s' < length (w_slots w))%nat by (apply nth_error_Some; congruence). lia.
      + destruct (nth_error uv s') eqn:Y; auto. apply nth_error_None in X. assert (s' < length uv)%nat by (apply nth_error_Some; congruence). lia.
    - apply inv_heap; auto.
      + intros i ts Hi. eauto.
      + intros i Hi. rewrite flat_map_app. apply in_or_app. auto.
    - apply transform_inv; auto.
    - apply activate_inv; auto.
    - apply collect_inv; auto.
    - apply insert_inv; auto.
    - apply full_inv; auto.
    - apply aggregated_inv; auto. }
  intros l. apply G. split; [reflexivity|]. intros s. unfold slot_inv. destruct s; reflexivity.
Qed.

(** ** After transforming, nothing of earlier calculations is left *)
Definition fresh (w : world) (s : nat) : Prop :=
  match nth_error (w_slots w) s with
  | Some (SRef i) => match nth_error (w_heap w) i with Some ts => ts_agg ts = None | None => True end
  | Some (SRaw _) => False
  | _ => True
  end.

Lemma create_elems : forall w c, length (w_elems (fst (create_time_series w c))) = length (w_elems w).
Proof.
  intros w [ei [suf s]]. unfold create_time_series. destruct (nth_error (w_elems w) ei); auto. destruct (nth_error (w_slots w) s) as [[|p|i]|]; auto.
  - destruct (mk_ts _ p); simpl; auto. apply upd_length.
  - destruct (nth_error (w_heap w) i); auto.
Qed.
Lemma create_fresh_keep : forall w c s, fresh w s -> fresh (fst (create_time_series w c)) s.
Proof.
  intros w [ei [suf s0]] s F. unfold create_time_series. destruct (nth_error (w_elems w) ei) as [e|]; auto. destruct (nth_error (w_slots w) s0) as [[|p|i]|] eqn:S; auto.
  - destruct (mk_ts _ p) as [ts|x] eqn:M; auto. cbn [fst]. unfold fresh in *. cbn [w_slots w_heap]. rewrite nth_error_upd.
    destruct (Nat.eqb s0 s) eqn:E.
    + apply Nat.eqb_eq in E. subst s0. rewrite S in F. destruct F.
    + destruct (nth_error (w_slots w) s) as [[|p'|i]|]; auto.
      destruct (nth_error (w_heap w ++ [ts]) i) as [ts'|] eqn:H; auto. destruct (Nat.lt_ge_cases i (length (w_heap w))) as [C|C].
      * rewrite nth_error_app1 in H by auto. rewrite H in F. auto.
      * rewrite nth_error_app2 in H by auto. destruct (i - length (w_heap w))%nat as [|k]; simpl in H; [|destruct k; discriminate].
        inversion H; subst ts'. apply (mk_ts_data _ _ _ M).
  - destruct (nth_error (w_heap w) i) as [ts|] eqn:H; auto. cbn [fst]. unfold fresh in *. cbn [w_slots w_heap].
    destruct (nth_error (w_slots w) s) as [[|p'|j]|]; auto. rewrite nth_error_upd. destruct (Nat.eqb i j) eqn:E; auto.
    destruct (nth_error (w_heap w) j); reflexivity.
Qed.
Lemma create_fresh : forall w ei suf s w', (ei < length (w_elems w))%nat -> create_time_series w (ei, (suf, s)) = (w', None) -> fresh w' s.
Proof.
  intros w ei suf s w' L H. unfold create_time_series in H. destruct (nth_error (w_elems w) ei) as [e|] eqn:E; [|apply nth_error_None in E; lia].
  destruct (nth_error (w_slots w) s) as [[|p|i]|] eqn:S.
  - inversion H; subst. unfold fresh. rewrite S. exact I.
  - destruct (mk_ts _ p) as [ts|x] eqn:M; [|discriminate]. inversion H; subst. unfold fresh. cbn [w_slots w_heap].
    rewrite nth_error_upd, Nat.eqb_refl, S, nth_error_app2, Nat.sub_diag by lia. simpl. apply (mk_ts_data _ _ _ M).
  - destruct (nth_error (w_heap w) i) as [ts|] eqn:Hh; inversion H; subst; unfold fresh; cbn [w_slots w_heap]; rewrite S.
    + rewrite nth_error_upd, Nat.eqb_refl, Hh. reflexivity.
    + rewrite Hh. exact I.
  - inversion H; subst. unfold fresh. rewrite S. exact I.
Qed.
Lemma steps_fresh : forall l w w' s, run_steps create_time_series l w = (w', None) ->
  (exists ei suf, In (ei, (suf, s)) l /\ (ei < length (w_elems w))%nat) \/ fresh w s -> fresh w' s.
Proof.
  induction l as [|c l IH]; intros w w' s H D; simpl in H.
  - inversion H; subst. destruct D as [[ei [suf [[] _]]]|D]; auto.
  - destruct (create_time_series w c) as [w1 [x|]] eqn:C; [discriminate|]. apply (IH w1 w' s H).
    pose proof (create_elems w c) as EL. pose proof (create_fresh_keep w c s) as K. rewrite C in EL, K. simpl in EL, K.
    destruct D as [[ei [suf [[->|I] L]]]|D]; auto.
    + right. eapply create_fresh; eauto.
    + left. exists ei, suf. rewrite EL. auto.
Qed.
Lemma In_combine_seq : forall {A} (l : list A) n a k, nth_error l k = Some a -> In ((n + k)%nat, a) (combine (seq n (length l)) l).
Proof.
  intros A. induction l as [|b l IH]; intros n a k H; [destruct k; discriminate|]. destruct k; simpl in *.
  - inversion H; subst. rewrite Nat.add_0_r. auto.
  - right. replace (n + S k)%nat with (S n + k)%nat by lia. apply IH; auto.
Qed.
Lemma visited : forall es e suf s, In e es -> In (suf, s) (el_slots e) -> exists ei, In (ei, (suf, s)) (visits es) /\ (ei < length es)%nat.
Proof.
  intros es e suf s He Hs. destruct (In_nth_error _ _ He) as [k K]. exists k. split; [|apply nth_error_Some; congruence].
  unfold visits. apply in_flat_map. exists (k, e). split; [apply (In_combine_seq es 0 e k K)|]. simpl. apply in_map_iff. exists (suf, s). auto.
Qed.

(** The value read at a place of an element of the system. *)
Lemma seen_after : forall l idx w1, transform_data (history l) = (w1, None) ->
  forall e suf s, In e (w_elems (history l)) -> In (suf, s) (el_slots e) ->
  match nth_error (user_values l) s with
  | Some (Some p) => exists d, make_scalar (pdata p) = Ok d /\ seen (activate_all idx w1) s = (a <- active_of idx d ;; Ok (Some a))
  | _ => seen (activate_all idx w1) s = Ok None
  end.
Proof.
  intros l idx w1 T e suf s He Hs. pose proof (transform_inv _ _ (history_inv l)) as I. pose proof T as T'. unfold transform_data in T'. rewrite T in I. cbn [fst] in I.
  assert (F : fresh w1 s). { eapply steps_fresh; [exact T'|]. left. destruct (visited _ _ _ _ He Hs) as [ei [V1 V2]]. eauto. }
  destruct I as [_ I]. specialize (I s). unfold slot_inv, fresh in *. unfold seen, activate_all. cbn [w_slots w_heap].
  destruct (nth_error (w_slots w1) s) as [[|p|i]|] eqn:S; [rewrite I; auto|destruct F| |rewrite I; auto].
  destruct I as [p [ts [U [H [M IN]]]]]. rewrite U. exists (ts_data ts). split; auto. rewrite H in F.
  rewrite map_heap_spec by reflexivity. destruct (in_dec Nat.eq_dec i (all_series w1)); [|tauto]. rewrite H. simpl. unfold active_data. simpl. rewrite F. reflexivity.
Qed.

(** ** C29: after any history, a calculation sees the user's current data at the selected steps. *)
Theorem C29_selected_data : forall l idx w, full_calculation idx (history l) = (w, None) ->
  forall e suf s, In e (w_elems (history l)) -> In (suf, s) (el_slots e) ->
  match nth_error (user_values l) s with
  | Some (Some p) =>
      match seen w s with
      | Ok (Some a) => forall t, (forall ix, idx = Some ix -> (t < length ix)%nat) -> covers p (selected idx t) -> at_ a t == value idx p t
      | Ok None => False
      | Err _ => exists d ix i, pdata p = NV d /\ idx = Some ix /\ In i ix /\ (length d <= i)%nat
      end
  | _ => seen w s = Ok None
  end.
Proof.
  intros l idx w H e suf s He Hs. unfold full_calculation in H. destruct (transform_data (history l)) as [w1 [x|]] eqn:T; [discriminate|]. inversion H; subst w. clear H.
  pose proof (seen_after l idx w1 T e suf s He Hs) as S. destruct (nth_error (user_values l) s) as [[p|]|]; auto. destruct S as [d [M S]]. rewrite S.
  apply make_scalar_spec in M. unfold covers, value. destruct (pdata p) as [q|v].
  - subst d. assert (A : active_of idx (NS q) = Ok (NS q)) by (destruct idx; reflexivity). rewrite A. simpl. reflexivity.
  - destruct M as [Ne [[q [-> M]]|[-> L]]].
    + assert (A : active_of idx (NS q) = Ok (NS q)) by (destruct idx; reflexivity). rewrite A. simpl. intros t _ C. symmetry. apply M. apply nth_In; auto.
    + destruct idx as [ix|]; simpl.
      * destruct (take_idx v ix) as [r|x] eqn:K; simpl.
        -- destruct (take_idx_spec _ _ _ K) as [Lr N]. intros t Ht C. specialize (Ht ix eq_refl). fold (at_ (NV r) t). rewrite at_NV by lia. rewrite (N t (hd 0 v)) by auto. reflexivity.
        -- assert (X : exists i, In i ix /\ (length v <= i)%nat).
           { clear - K. unfold take_idx in K. revert K. induction ix as [|i ix IH]; simpl; intros K; [discriminate|].
             destruct (nth_error v i) eqn:N; simpl in K.
             - destruct (mapM _ ix) eqn:Z; simpl in K; [discriminate|]. destruct (IH K) as [j [J1 J2]]. eauto.
             - exists i. split; auto. apply nth_error_None; auto. }
           destruct X as [i [X1 X2]]. exists v, ix, i. auto.
      * intros t _ C. fold (at_ (NV v) t). simpl selected in *. rewrite at_NV by auto. rewrite (nth_indep v (hd 0 v) 0); auto. reflexivity.
Qed.
Print Assumptions C29_selected_data.

(** Non-vacuity: an aggregated calculation on steps 0 and 2, then a new price, then a calculation on steps 1 and 3: both
    calculations succeed and each sees its own data. *)
Definition hist0 : list sop :=
  [NewSlot (Some (PNum (NV [1; 2; 3; 4]))); NewSlot (Some (PNum (NS 5))); NewSlot (Some (PTsd (NV [7; 8; 9; 9]) (Some "g") None)); NewSlot None;
   AddElem "Boiler" [("eta", 0%nat); ("price", 1%nat)]; AddElem "Grid" [("demand", 2%nat); ("limit", 3%nat)]].
Definition hist1 : list sop :=
  hist0 ++ [RunAggregated (Some [0; 2]%nat) (Some [("Boiler__eta", [10; 20]); ("Grid__demand", [30; 40])]); SetSlot 1 (Some (PNum (NV [6; 6; 5; 6])))].
Example C29_example :
  exists w, full_calculation (Some [1; 3]%nat) (history hist1) = (w, None) /\ length (w_elems (history hist1)) = 2%nat
  /\ seen w 0 = Ok (Some (NV [2; 4])) /\ seen w 1 = Ok (Some (NV [6; 6])) /\ seen w 2 = Ok (Some (NV [8; 9])) /\ seen w 3 = Ok None.
Proof. eexists. split; [vm_compute; reflexivity|]. repeat split; vm_compute; reflexivity. Qed.

(** The same in terms of the problem builder: what it reads is what a first calculation on fresh data would read. *)
Theorem C29_history_independent : forall l idx w cx, full_calculation idx (history l) = (w, None) -> cx_idx cx = idx ->
  forall e suf s p, In e (w_elems (history l)) -> In (suf, s) (el_slots e) -> nth_error (user_values l) s = Some (Some p) ->
  seen w s = (a <- act cx true p ;; Ok (Some a)).
Proof.
  intros l idx w cx H X e suf s p He Hs U. unfold full_calculation in H. destruct (transform_data (history l)) as [w1 [x|]] eqn:T; [discriminate|]. inversion H; subst w. clear H.
  pose proof (seen_after l idx w1 T e suf s He Hs) as S. rewrite U in S. destruct S as [d [M S]]. rewrite S. unfold act. rewrite X. simpl. rewrite M. reflexivity.
Qed.
Print Assumptions C29_history_independent.

(** ** Labels of series *)
Definition sig (w : world) : list (string * list (string * nat)) := map (fun e => (el_label e, el_slots e)) (w_elems w).
Definition linv (w : world) : Prop :=
  forall s i, nth_error (w_slots w) s = Some (SRef i) ->
  exists ts lab sl suf, nth_error (w_heap w) i = Some ts /\ In (lab, sl) (sig w) /\ In (suf, s) sl /\ ts_label ts = cat [lab; "__"; suf].
Definition same_label (h h' : list tseries) : Prop :=
  forall i ts, nth_error h i = Some ts -> exists ts', nth_error h' i = Some ts' /\ ts_label ts' = ts_label ts.
Lemma linv_heap : forall w h', linv w -> same_label (w_heap w) h' -> linv (mkWorld h' (w_slots w) (w_elems w)).
Proof.
  intros w h' L D s i S. destruct (L s i S) as [ts [lab [sl [suf [A [B [C E]]]]]]]. destruct (D _ _ A) as [ts' [A' E']].
  exists ts', lab, sl, suf. rewrite E'. auto.
Qed.
Lemma same_label_map : forall f is h, (forall ts, f (f ts) = f ts) -> (forall ts, ts_label (f ts) = ts_label ts) -> same_label h (map_heap f is h).
Proof.
  intros f is h F D i ts H. rewrite (map_heap_spec f F). rewrite H. destruct (in_dec _ _ _); simpl; eauto.
Qed.
Lemma map_upd_same : forall {A B} (g : A -> B) l k x y, nth_error l k = Some x -> g y = g x -> map g (upd k y l) = map g l.
Proof.
  intros A B g. induction l as [|a l IH]; intros k x y H G; [destruct k; discriminate|]. destruct k; simpl in *.
  - inversion H; subst. rewrite G. reflexivity.
  - f_equal. eapply IH; eauto.
Qed.
Lemma create_sig : forall w c, sig (fst (create_time_series w c)) = sig w.
Proof.
  intros w [ei [suf s]]. unfold create_time_series. destruct (nth_error (w_elems w) ei) as [e|] eqn:E; auto. destruct (nth_error (w_slots w) s) as [[|p|i]|]; auto.
  - destruct (mk_ts _ p); auto. unfold sig. cbn [fst w_elems]. eapply map_upd_same; eauto.
  - destruct (nth_error (w_heap w) i); auto.
Qed.
Definition call_ok (w : world) (c : nat * (string * nat)) : Prop :=
  exists lab sl, nth_error (sig w) (fst c) = Some (lab, sl) /\ In (snd c) sl.
Lemma create_linv : forall w c, linv w -> call_ok w c -> linv (fst (create_time_series w c)).
Proof.
  intros w c L O. assert (SG := create_sig w c). destruct c as [ei [suf s]]. destruct O as [lab [sl [O1 O2]]]. cbn [fst snd] in *.
  unfold create_time_series in *. destruct (nth_error (w_elems w) ei) as [e|] eqn:E; auto.
  destruct (nth_error (w_slots w) s) as [[|p|i]|] eqn:S; auto.
  - destruct (mk_ts (cat [el_label e; "__"; suf]) p) as [ts|x] eqn:M; auto. cbn [fst] in *. intros s' i H. cbn [w_slots w_heap] in *.
    rewrite nth_error_upd in H. destruct (Nat.eqb s s') eqn:X.
    + apply Nat.eqb_eq in X. subst s'. rewrite S in H. inversion H; subst i. exists ts, lab, sl, suf. split; [rewrite nth_error_app2, Nat.sub_diag by lia; reflexivity|].
      rewrite SG. split; [eapply nth_error_In; eauto|]. split; auto. destruct (mk_ts_data _ _ _ M) as [_ [_ ->]].
      unfold sig in O1. rewrite nth_error_map, E in O1. inversion O1; subst. reflexivity.
    + destruct (L s' i H) as [ts' [lab' [sl' [suf' [A B]]]]]. exists ts', lab', sl', suf'. rewrite SG. split; auto.
      rewrite nth_error_app1; auto. apply nth_error_Some; congruence.
  - destruct (nth_error (w_heap w) i) as [ts|] eqn:H; auto. cbn [fst]. apply linv_heap; auto.
    intros j ts' J. rewrite nth_error_upd. destruct (Nat.eqb i j) eqn:X; eauto. apply Nat.eqb_eq in X. subst j. rewrite J. eexists. split; eauto. simpl. congruence.
Qed.
Lemma steps_linv : forall l w, linv w -> (forall c, In c l -> call_ok w c) ->
  linv (fst (run_steps create_time_series l w)) /\ sig (fst (run_steps create_time_series l w)) = sig w.
Proof.
  induction l as [|c l IH]; intros w L O; simpl; auto. pose proof (create_linv w c L (O c (or_introl eq_refl))) as L1. pose proof (create_sig w c) as G.
  destruct (create_time_series w c) as [w1 [x|]]; cbn [fst] in *; auto. rewrite <- G. apply IH; auto. intros c' Hc. unfold call_ok. rewrite G. apply O. simpl; auto.
Qed.
Lemma combine_seq_In : forall {A} (l : list A) n k a, In (k, a) (combine (seq n (length l)) l) -> (n <= k)%nat /\ nth_error l (k - n) = Some a.
Proof.
  intros A. induction l as [|b l IH]; intros n k a H; simpl in H; [destruct H|]. destruct H as [H|H].
  - inversion H; subst. rewrite Nat.sub_diag. auto.
  - apply IH in H. destruct H as [H1 H2]. split; [lia|]. replace (k - n)%nat with (S (k - S n)) by lia. exact H2.
Qed.
Lemma visits_ok : forall w c, In c (visits (w_elems w)) -> call_ok w c.
Proof.
  intros w c H. unfold visits in H. apply in_flat_map in H. destruct H as [[k e] [H1 H2]]. apply in_map_iff in H2. destruct H2 as [x [<- H2]].
  apply combine_seq_In in H1. destruct H1 as [_ H1]. rewrite Nat.sub_0_r in H1. exists (el_label e), (el_slots e). cbn [fst snd] in *. split; auto.
  unfold sig. rewrite nth_error_map, H1. reflexivity.
Qed.
Lemma transform_linv : forall w, linv w -> linv (fst (transform_data w)) /\ sig (fst (transform_data w)) = sig w.
Proof. intros w L. apply steps_linv; auto. intros c. apply visits_ok. Qed.
Lemma activate_linv : forall idx w, linv w -> linv (activate_all idx w).
Proof. intros idx w L. apply linv_heap; auto. apply same_label_map; reflexivity. Qed.
Lemma collect_linv : forall w, linv w -> linv (fst (collect w)) /\ sig (fst (collect w)) = sig w.
Proof.
  intros w L. unfold collect. destruct (nodup_str _); auto. cbn [fst]. split; [|reflexivity]. apply linv_heap; auto. apply same_label_map; [apply weight_idem|reflexivity].
Qed.
Lemma insert_linv : forall d w, linv w -> linv (insert_data d w).
Proof.
  intros d w L. apply linv_heap; auto. apply same_label_map; [apply insert_ts_idem|]. intros ts. unfold insert_ts. destruct (assoc _ d); reflexivity.
Qed.
Lemma full_linv : forall idx w, linv w -> linv (fst (full_calculation idx w)) /\ sig (fst (full_calculation idx w)) = sig w.
Proof.
  intros idx w L. unfold full_calculation. pose proof (transform_linv w L) as T. destruct (transform_data w) as [w1 [x|]]; cbn [fst] in *; auto.
  destruct T as [T1 T2]. split; auto. apply activate_linv; auto.
Qed.
Lemma aggregated_linv : forall idx d w, linv w -> linv (fst (aggregated_calculation idx d w)) /\ sig (fst (aggregated_calculation idx d w)) = sig w.
Proof.
  intros idx d w L. unfold aggregated_calculation. pose proof (full_linv idx w L) as [T G]. destruct (full_calculation idx w) as [w1 [x|]]; cbn [fst] in *; auto.
  pose proof (collect_linv w1 T) as [C G2]. destruct (collect w1) as [w2 [x|]]; cbn [fst] in *; [split; congruence || auto|].
  destruct d; split; try congruence; auto. apply insert_linv; auto. change (sig (insert_data l w2)) with (sig w2). congruence.
Qed.
Lemma history_linv : forall l, linv (history l).
Proof.
  assert (G : forall l w, linv w -> linv (fold_left do_sop l w)).
  { induction l as [|o l IH]; intros w L; cbn [fold_left]; auto. apply IH. destruct o as [v|s v|lab sl| |idx| |d|idx|idx d]; cbn [do_sop].
    - intros s i H. cbn [w_slots w_heap] in *. destruct (Nat.lt_ge_cases s (length (w_slots w))) as [C|C].
      + rewrite nth_error_app1 in H by auto. apply (L s i H).
      + rewrite nth_error_app2 in H by auto. destruct (s - length (w_slots w))%nat as [|k]; [|destruct k; discriminate]. destruct v; discriminate.
    - intros s' i H. cbn [w_slots w_heap] in *. rewrite nth_error_upd in H. destruct (Nat.eqb s s'); [|apply (L s' i H)].
      destruct (nth_error (w_slots w) s'); [|discriminate]. destruct v; discriminate.
    - intros s i H. cbn [w_slots w_heap] in *. destruct (L s i H) as [ts [lab' [sl' [suf [A [B C]]]]]]. exists ts, lab', sl', suf. split; auto. split; auto.
      unfold sig. cbn [w_elems]. rewrite map_app. apply in_or_app. auto.
    - apply transform_linv; auto.
    - apply activate_linv; auto.
    - apply collect_linv; auto.
    - apply insert_linv; auto.
    - apply full_linv; auto.
    - apply aggregated_linv; auto. }
  intros l. apply G. intros s i H. destruct s; discriminate.
Qed.

(** Aggregated calculations: array data is replaced by what the aggregation delivers for its label, numbers stay. The
    label is that of an element the parameter belongs to, with the parameter's name. *)
Theorem C29_aggregated_data : forall l idx data w, aggregated_calculation idx (Some data) (history l) = (w, None) ->
  forall e suf s p, In e (w_elems (history l)) -> In (suf, s) (el_slots e) -> nth_error (user_values l) s = Some (Some p) ->
  exists i ts, nth_error (w_slots w) s = Some (SRef i) /\ nth_error (w_heap w) i = Some ts /\
  (exists e' suf', In e' (w_elems (history l)) /\ In (suf', s) (el_slots e') /\ ts_label ts = cat [el_label e'; "__"; suf']) /\
  match ts_data ts with
  | NS q => seen w s = Ok (Some (NS q)) /\ (forall j, covers p j -> q == match pdata p with NS r => r | NV v => nth j v 0 end)
  | NV v => pdata p = NV v /\ match assoc (ts_label ts) data with Some d => seen w s = Ok (Some (NV d)) | None => seen w s = (a <- active_of idx (NV v) ;; Ok (Some a)) end
  end.
Proof.
  intros l idx data w H e suf s p He Hs U.
  assert (LB : forall i ts, nth_error (w_slots w) s = Some (SRef i) -> nth_error (w_heap w) i = Some ts ->
     exists e' suf', In e' (w_elems (history l)) /\ In (suf', s) (el_slots e') /\ ts_label ts = cat [el_label e'; "__"; suf']).
  { pose proof (aggregated_linv idx (Some data) _ (history_linv l)) as [LV SG]. rewrite H in LV, SG. cbn [fst] in LV, SG. intros i ts Hi Ht.
    destruct (LV s i Hi) as [ts' [lab [sl [suf' [A [B [C D]]]]]]]. assert (ts' = ts) by congruence. subst ts'. rewrite SG in B. unfold sig in B. apply in_map_iff in B.
    destruct B as [e' [B1 B2]]. inversion B1; subst. eauto. }
  unfold aggregated_calculation, full_calculation in H.
  destruct (transform_data (history l)) as [w1 [x|]] eqn:T; [discriminate|]. set (w2 := activate_all idx w1) in *.
  destruct (collect w2) as [w3 [x|]] eqn:C; [discriminate|]. inversion H; subst w. clear H.
  pose proof (transform_inv _ _ (history_inv l)) as I. pose proof T as T'. unfold transform_data in T'. rewrite T in I. cbn [fst] in I.
  assert (F : fresh w1 s). { eapply steps_fresh; [exact T'|]. left. destruct (visited _ _ _ _ He Hs) as [ei [V1 V2]]. eauto. }
  destruct I as [_ I]. specialize (I s). unfold slot_inv, fresh in *.
  destruct (nth_error (w_slots w1) s) as [[|p0|i]|] eqn:S; [congruence|destruct F| |congruence].
  destruct I as [p' [ts [U' [Hh [M IN]]]]]. assert (p' = p) by congruence. subst p'. clear U'. rewrite Hh in F.
  unfold collect in C. destruct (nodup_str _); [|discriminate]. apply (f_equal fst) in C. cbn [fst] in C. subst w3.
  assert (H2 : nth_error (w_heap w2) i = Some (set_idx idx ts)).
  { unfold w2, activate_all. cbn [w_heap]. rewrite map_heap_spec by reflexivity. destruct (in_dec Nat.eq_dec i (all_series w1)); [|tauto]. rewrite Hh. reflexivity. }
  set (l2 := members w2) in *. set (h3 := map_heap (fun ts => set_weight (Some (new_weight l2 ts)) ts) (collection w2) (w_heap w2)) in *.
  set (w3 := mkWorld h3 (w_slots w2) (w_elems w2)) in *.
  assert (CI : In i (collection w2) <-> is_array ts = true).
  { unfold collection. rewrite filter_In. rewrite H2. change (all_series w2) with (all_series w1). unfold is_array. simpl. tauto. }
  exists i. destruct (ts_data ts) as [q|v] eqn:D.
  - exists (set_idx idx ts). split; [exact S|].
    assert (NI : ~ In i (collection w2)) by (rewrite CI; unfold is_array; rewrite D; discriminate).
    assert (H3 : nth_error h3 i = Some (set_idx idx ts)).
    { unfold h3. rewrite map_heap_spec by apply weight_idem. destruct (in_dec Nat.eq_dec i (collection w2)); tauto. }
    assert (NI3 : ~ In i (collection w3)).
    { unfold collection. rewrite filter_In. cbn [w3 w_heap]. rewrite H3. unfold is_array. simpl. rewrite D. simpl. intros [_ X]; discriminate. }
    assert (H4 : nth_error (w_heap (insert_data data w3)) i = Some (set_idx idx ts)).
    { unfold insert_data. cbn [w_heap]. rewrite map_heap_spec by apply insert_ts_idem. destruct (in_dec Nat.eq_dec i (collection w3)); [tauto|]. exact H3. }
    split; [exact H4|]. split; [apply (LB i); [exact S|exact H4]|]. cbn [set_idx ts_data]. rewrite D. split.
    + unfold seen. change (w_slots (insert_data data w3)) with (w_slots w1). rewrite S, H4. cbn [of_option bind].
      unfold active_data, set_idx. cbn [ts_agg ts_idx ts_data]. rewrite F, D. destruct idx; reflexivity.
    + rewrite ?D in M. apply make_scalar_spec in M. unfold covers. intros j Cj. destruct (pdata p) as [r|v].
      * inversion M. reflexivity.
      * destruct M as [_ [[q' [E M]]|[E _]]]; [|discriminate]. inversion E; subst q'. symmetry. apply M. apply nth_In; auto.
  - assert (IC : In i (collection w2)) by (rewrite CI; unfold is_array; rewrite D; reflexivity).
    set (ts3 := set_weight (Some (new_weight l2 (set_idx idx ts))) (set_idx idx ts)).
    assert (H3 : nth_error h3 i = Some ts3).
    { unfold h3. rewrite map_heap_spec by apply weight_idem. destruct (in_dec Nat.eq_dec i (collection w2)); [|tauto]. rewrite H2. reflexivity. }
    assert (IC3 : In i (collection w3)).
    { unfold collection. rewrite filter_In. cbn [w3 w_heap]. rewrite H3. split; [exact IN|]. unfold is_array, ts3. simpl. rewrite D. reflexivity. }
    exists (insert_ts data ts3). split; [exact S|].
    assert (H4 : nth_error (w_heap (insert_data data w3)) i = Some (insert_ts data ts3)).
    { unfold insert_data. cbn [w_heap]. rewrite map_heap_spec by apply insert_ts_idem. destruct (in_dec Nat.eq_dec i (collection w3)); [|tauto]. cbn [w3 w_heap]. rewrite H3. reflexivity. }
    split; [exact H4|]. split; [apply (LB i); [exact S|exact H4]|]. rewrite insert_ts_data. cbn [ts3 set_weight set_idx ts_data]. rewrite D. split.
    + apply make_scalar_spec in M. destruct (pdata p) as [r|v']; [discriminate|]. destruct M as [_ [[q' [E _]]|[E _]]]; congruence.
    + assert (LB' : ts_label (insert_ts data ts3) = ts_label ts3) by (unfold insert_ts; destruct (assoc (ts_label ts3) data); reflexivity). rewrite LB'.
      unfold seen. change (w_slots (insert_data data w3)) with (w_slots w1). rewrite S, H4. cbn [of_option bind].
      unfold insert_ts. destruct (assoc (ts_label ts3) data) as [d|]; [reflexivity|].
      unfold active_data, ts3. cbn [set_weight set_idx ts_agg ts_idx ts_data]. rewrite F, D. reflexivity.
Qed.
Print Assumptions C29_aggregated_data.

Example C29_aggregated_example :
  exists w, aggregated_calculation None (Some [("Boiler__eta", [10; 20; 10; 20]); ("Grid__demand", [30; 40; 30; 40]); ("Boiler__price", [5; 5; 6; 6])]) (history hist1) = (w, None)
  /\ seen w 0 = Ok (Some (NV [10; 20; 10; 20])) /\ seen w 1 = Ok (Some (NV [5; 5; 6; 6])) /\ seen w 2 = Ok (Some (NV [30; 40; 30; 40])).
Proof. eexists. split; [vm_compute; reflexivity|]. repeat split; vm_compute; reflexivity. Qed.

(** ** C39: aggregation weights. [collected] are the series with array data of a calculation. *)
Definition group_sum (g : string) (l : list tseries) (wts : list (string * Q)) : Q :=
  Qsum (map (fun ts => match assoc (ts_label ts) wts with Some q => q | None => 0 end) (filter (same_group g) l)).
Definition weight_given (ts : tseries) (wts : list (string * Q)) : option Q := assoc (ts_label ts) wts.

(** The full claim. *)
Definition C39_full : Prop := forall l, nodup_str (map ts_label l) = true ->
  (forall g ts, In ts l -> ts_group ts = Some g -> group_sum g l (weights l) == 1) /\
  (forall ts q, In ts l -> ts_group ts = None -> ts_weight ts = Some q -> weight_given ts (weights l) = Some q) /\
  (forall ts, In ts l -> ts_group ts = None -> ts_weight ts = None -> weight_given ts (weights l) = Some 1).

Lemma assoc_weights : forall l0 l ts, In ts l -> NoDup (map ts_label l) -> assoc (ts_label ts) (map (fun ts => (ts_label ts, new_weight l0 ts)) l) = Some (new_weight l0 ts).
Proof.
  intros l0. induction l as [|a l IH]; intros ts H N; [destruct H|]. inversion N; subst. unfold assoc in *. simpl. destruct H as [->|H].
  - rewrite String.eqb_refl. reflexivity.
  - destruct (String.eqb (ts_label a) (ts_label ts)) eqn:E; [|apply IH; auto]. apply String.eqb_eq in E. exfalso. apply H2. rewrite E. apply in_map; auto.
Qed.

Lemma Qsum_const : forall {A} (f : A -> Q) c l, (forall a, In a l -> f a == c) -> Qsum (map f l) == inject_Z (Z.of_nat (length l)) * c.
Proof.
  intros A f c. induction l as [|a l IH]; intros H; cbn [map].
  - change (Qsum []) with 0. simpl. ring.
  - rewrite Qsum_cons, (H a) by (simpl; auto). rewrite IH by (intros; apply H; simpl; auto). cbn [length]. rewrite Nat2Z.inj_succ, <- Z.add_1_l, inject_Z_plus. ring.
Qed.

Theorem C39_weights_partial : forall l, nodup_str (map ts_label l) = true ->
  (forall g ts, In ts l -> ts_group ts = Some g -> group_sum g l (weights l) == 1) /\
  (forall ts q, In ts l -> ts_group ts = None -> ts_weight ts = Some q -> ~ q == 0 -> weight_given ts (weights l) = Some q) /\
  (forall ts, In ts l -> ts_group ts = None -> ts_weight ts = None -> weight_given ts (weights l) = Some 1).
Proof.
  intros l N. apply nodup_str_NoDup in N. split; [|split].
  - intros g ts Hin G. unfold group_sum. set (n := length (filter (same_group g) l)).
    assert (P : (0 < n)%nat). { unfold n. destruct (filter (same_group g) l) eqn:F; simpl; [|lia]. assert (In ts []) as []. rewrite <- F. apply filter_In. split; auto.
      unfold same_group. rewrite G. apply String.eqb_refl. }
    rewrite (Qsum_const _ (1 / inject_Z (Z.of_nat n))).
    + fold n. field. intros X. assert (Y : inject_Z (Z.of_nat n) == inject_Z 0) by exact X. unfold Qeq in Y. simpl in Y. lia.
    + intros a Ha. apply filter_In in Ha. destruct Ha as [A1 A2]. unfold weights. rewrite assoc_weights by auto. unfold new_weight.
      unfold same_group in A2. destruct (ts_group a) as [g'|]; [|discriminate]. apply String.eqb_eq in A2. subst g'. reflexivity.
  - intros ts q Hin G W Z. unfold weight_given, weights. rewrite assoc_weights by auto. unfold new_weight. rewrite G, W. unfold or_num, truthy.
    destruct (Qeq_bool q 0) eqn:E; [|reflexivity]. apply Qeq_bool_iff in E. contradiction.
  - intros ts Hin G W. unfold weight_given, weights. rewrite assoc_weights by auto. unfold new_weight. rewrite G, W. reflexivity.
Qed.
Print Assumptions C39_weights_partial.
Example C39_example :
  let l := [mkTS "a" (NV [1; 2]) None (Some "g") None None; mkTS "b" (NV [1; 3]) None (Some "g") None None;
            mkTS "c" (NV [1; 4]) (Some (1 # 4)) None None None; mkTS "d" (NV [1; 5]) None None None None] in
  nodup_str (map ts_label l) = true /\ group_sum "g" l (weights l) == 1 /\ map snd (weights l) = [1 / 2; 1 / 2; 1 # 4; 1].
Proof. repeat split; vm_compute; reflexivity. Qed.

(** An explicit weight of zero ("ignore this series") becomes one. *)
Theorem C39_refuted : ~ C39_full.
Proof.
  intros F. destruct (F [mkTS "price" (NV [1; 2]) (Some 0) None None None] eq_refl) as [_ [H _]].
  specialize (H _ 0 (or_introl eq_refl) eq_refl eq_refl). discriminate.
Qed.
Print Assumptions C39_refuted.
