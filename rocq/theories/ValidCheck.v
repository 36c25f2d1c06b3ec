(** A decision procedure for the conditions of ValidSpec, used to show that concrete systems meet them. *)
From Verif Require Import Base BaseFacts MathModel Params Features Elements System SysSpec NavFacts ResultFacts NameSpec NameFacts ValidSpec TotalSystem.

Fixpoint prefix_b (a b : list string) : bool :=
  match a, b with [], _ => true | x :: a', y :: b' => (String.eqb x y && prefix_b a' b')%bool | _ :: _, [] => false end.
Definition unrelated_b (a b : string) : bool := (negb (prefix_b (words a) (words b)) && negb (prefix_b (words b) (words a)))%bool.
Fixpoint pairs_b {A} (r : A -> A -> bool) (l : list A) : bool := match l with [] => true | a :: m => (forallb (r a) m && pairs_b r m)%bool end.
Lemma prefix_app : forall a r, prefix_b a (a ++ r) = true.
Proof. induction a as [|x a IH]; intros r; [reflexivity|]. cbn. rewrite String.eqb_refl, IH. reflexivity. Qed.
Lemma unrelated_b_ok : forall a b, unrelated_b a b = true -> unrelated a b.
Proof.
  intros a b H. unfold unrelated_b in H. apply andb_true_iff in H. destruct H as [A B]. apply negb_true_iff in A, B. split; [|split].
  - intros ->. rewrite <- (app_nil_r (words b)) in A at 2. rewrite prefix_app in A. discriminate.
  - intros [r ->]. rewrite words_us, prefix_app in A. discriminate.
  - intros [r ->]. rewrite words_us, prefix_app in B. discriminate.
Qed.
Lemma pairs_b_ok : forall {A} (r : A -> A -> bool) (R : A -> A -> Prop), (forall a b, r a b = true -> R a b) -> forall l, pairs_b r l = true -> ForallOrdPairs R l.
Proof.
  intros A r R H l. induction l as [|a l IH]; intros E; constructor; cbn in E; apply andb_true_iff in E; destruct E as [E1 E2]; auto. rewrite forallb_forall in E1. apply Forall_forall. auto.
Qed.

Definition nodup_b (l : list nat) : bool := pairs_b (fun a b => negb (Nat.eqb a b)) l.
Lemma nodup_b_ok : forall l, nodup_b l = true -> NoDup l.
Proof.
  intros l H. apply (FOP_NoDup (fun a b : nat => a <> b)); [congruence|]. eapply pairs_b_ok; [|exact H]. intros a b E. apply negb_true_iff in E. apply Nat.eqb_neq. exact E.
Qed.

Section Check.
Variables (fs : flow_system) (idx : option (list nat)).
Definition full_b (p : param) : bool := match pdata p with NS _ => true | NV l => Nat.eqb (length l) (length (fs_times fs)) end.
Definition full_ob (p : option param) : bool := match p with Some q => full_b q | None => true end.
Lemma full_b_ok : forall p, full_b p = true -> full_data fs p.
Proof. intros p H. unfold full_b, full_data in *. destruct (pdata p); [exact Logic.I|]. apply Nat.eqb_eq. exact H. Qed.
Lemma full_ob_ok : forall p, full_ob p = true -> full_opt fs p.
Proof. intros [p|] H q E; [|discriminate]. injection E as <-. apply full_b_ok. exact H. Qed.

(** The identity of the effect a key means. *)
Definition key_id (k : option nat) : option nat :=
  match k with
  | Some i => if existsb (fun e => Nat.eqb (e_id e) i) (fs_effects fs) then Some i else None
  | None => option_map e_id (find e_std (fs_effects fs))
  end.
Definition ids_of (ks : list (option nat)) : list nat := flat_map (fun k => match key_id k with Some i => [i] | None => [] end) ks.
Definition known_b (k : option nat) : bool := is_some (key_id k).
Lemma known_ok : forall k, known_b k = true -> exists e, means fs k e.
Proof.
  intros k H. unfold known_b, key_id in H. destruct k as [i|].
  - destruct (existsb _ _) eqn:E; [|discriminate]. apply existsb_exists in E. destruct E as [e [He E]]. exists e. split; auto. cbn. rewrite Nat.eqb_sym. exact E.
  - destruct (find e_std (fs_effects fs)) as [e|] eqn:E; [|discriminate]. exists e. split; [apply find_some in E; tauto|]. unfold names. rewrite E. apply Nat.eqb_refl.
Qed.
Lemma means_id : forall k e, means fs k e -> key_id k = Some (e_id e).
Proof.
  intros [i|] e [He M]; unfold names, key_id in *.
  - apply Nat.eqb_eq in M. subst i. replace (existsb _ _) with true; [reflexivity|]. symmetry. apply existsb_exists. exists e. rewrite Nat.eqb_refl. auto.
  - destruct (find e_std (fs_effects fs)); [|discriminate]. apply Nat.eqb_eq in M. cbn. congruence.
Qed.
Definition addressed_b (ks : list (option nat)) : bool := (forallb known_b ks && nodup_b (ids_of ks))%bool.
Lemma addressed_ok : forall ks, addressed_b ks = true -> well_addressed fs ks.
Proof.
  intros ks H. apply andb_true_iff in H. destruct H as [A B]. rewrite forallb_forall in A. split; [intros k K; apply known_ok; auto|].
  apply nodup_b_ok in B. clear A. induction ks as [|k ks IH]; constructor.
  - apply Forall_forall. intros k' K' e [M M']. unfold ids_of in B. cbn [flat_map] in B. rewrite (means_id _ _ M) in B. cbn [app] in B. inversion B; subst. apply H1. apply in_flat_map.
    exists k'. split; auto. rewrite (means_id _ _ M'). left. reflexivity.
  - apply IH. unfold ids_of in B. cbn [flat_map] in B. destruct (key_id k); [cbn [app] in B; inversion B; auto|exact B].
Qed.
Definition values_b (v : evalues) : bool := (addressed_b (map fst (entries v)) && forallb (fun kp => full_b (snd kp)) (entries v))%bool.
Definition numbers_b (v : evalues) : bool :=
  (addressed_b (map fst (entries v)) && forallb (fun kp : option nat * param => match snd kp with PNum (NS _) => true | _ => false end) (entries v))%bool.
Lemma values_b_ok : forall v, values_b v = true -> valid_values fs v.
Proof.
  intros v H. apply andb_true_iff in H. destruct H as [A B]. split; [apply addressed_ok; auto|]. rewrite forallb_forall in B. intros k p P. apply full_b_ok. apply (B (k, p)). exact P.
Qed.
Lemma numbers_b_ok : forall v, numbers_b v = true -> valid_numbers fs v.
Proof.
  intros v H. apply andb_true_iff in H. destruct H as [A B]. split; [apply addressed_ok; auto|]. rewrite forallb_forall in B. intros k p P. specialize (B _ P). cbn in B. destruct p as [[q|l]|]; try discriminate. eauto.
Qed.

Definition kind_b (l : list numeric) : bool :=
  (forallb (fun a => match a with NS _ => true | _ => false end) l
   || match l with
      | NV q :: _ => (negb (Nat.eqb (length q) 0) && forallb (fun a => match a with NV r => Nat.eqb (length r) (length q) | _ => false end) l)%bool
      | _ => false
      end)%bool.
Lemma kind_b_ok : forall l, kind_b l = true -> one_kind l.
Proof.
  intros l H. apply orb_true_iff in H. destruct H as [H|H].
  - left. rewrite forallb_forall in H. apply Forall_forall. intros a Ha. specialize (H _ Ha). destruct a; [eauto|discriminate].
  - right. destruct l as [|[q|q] l]; try discriminate. apply andb_true_iff in H. destruct H as [A B]. exists (length q). split; [apply negb_true_iff, Nat.eqb_neq in A; lia|].
    rewrite forallb_forall in B. apply Forall_forall. intros a Ha. specialize (B _ Ha). destruct a as [z|r]; [discriminate|]. apply Nat.eqb_eq in B. eauto.
Qed.
Definition onoff_b (p : onoff) (past : list numeric) : bool :=
  (values_b (oo_switch_eff p) && values_b (oo_run_eff p) && full_ob (oo_con_min p) && full_ob (oo_con_max p) && full_ob (oo_coff_min p) && full_ob (oo_coff_max p)
   && match fs_prev_dt fs with NS _ => true | NV ds => Nat.leb (states_read past) (length ds) end)%bool.
Ltac ands H := repeat (match type of H with (_ && _)%bool = true => apply andb_true_iff in H; let H' := fresh "K" in destruct H as [H H'] end).
Lemma onoff_b_ok : forall p past, onoff_b p past = true -> valid_onoff fs p past.
Proof.
  intros p past H. unfold onoff_b in H. ands H. split; try (apply values_b_ok; assumption); try (split; apply full_ob_ok; assumption).
  intros _ ds E. rewrite E in K. apply Nat.leb_le. exact K.
Qed.
Definition invest_b (iv : invest) : bool :=
  (numbers_b (iv_fix iv) && numbers_b (iv_spec iv) && numbers_b (iv_divest iv)
   && match iv_seg iv with
      | None => true
      | Some (spts, eff) => (negb (Nat.eqb (length eff) 0) && negb (Nat.eqb (length spts) 0) && nodup_b (map fst eff) && forallb (fun il : nat * list (Q * Q) => (known_b (Some (fst il)) && Nat.eqb (length (snd il)) (length spts))%bool) eff)%bool
      end)%bool.
Lemma invest_b_ok : forall iv, invest_b iv = true -> valid_invest fs iv.
Proof.
  intros iv H. unfold invest_b in H. ands H. split; try (apply numbers_b_ok; assumption). intros spts eff E. rewrite E in K. ands K. split; [|split; [|split]].
  - intros ->. discriminate K.
  - intros ->. discriminate.
  - apply nodup_b_ok. assumption.
  - intros i l Hl. match goal with F : forallb _ _ = true |- _ => rewrite forallb_forall in F; specialize (F _ Hl); apply andb_true_iff in F; destruct F as [F1 F2] end. cbn [fst snd] in F1, F2.
    split; [apply known_ok; exact F1|apply Nat.eqb_eq; exact F2].
Qed.
Definition flow_b (f : flow) : bool :=
  (full_ob (f_profile f) && full_b (f_relmin f) && full_b (f_relmax f) && values_b (f_effects f) && kind_b (given_past [f])
   && match f_onoff f with Some p => onoff_b p (given_past [f]) | None => true end
   && match f_size f with SzInv iv => invest_b iv | SzNum _ => true end)%bool.
Lemma flow_b_ok : forall f, flow_b f = true -> valid_flow fs f.
Proof.
  intros f H. unfold flow_b in H. ands H. split; try (apply values_b_ok; assumption); try (apply kind_b_ok; assumption).
  - split; [apply full_ob_ok; assumption|]. split; apply full_b_ok; assumption.
  - intros p E. rewrite E in K0. apply onoff_b_ok. exact K0.
  - intros iv E. rewrite E in K. apply invest_b_ok. exact K.
Qed.
Definition charge_b (p : param) : bool := match pdata p with NS _ => true | NV l => (is_none idx && Nat.eqb (length l) (length (fs_times fs) + 1))%bool end.
Lemma charge_b_ok : forall p, charge_b p = true -> charge_data fs idx p.
Proof.
  intros p H. unfold charge_b in H. destruct (pdata p) as [q|l] eqn:E; [left; eauto|right]. apply andb_true_iff in H. destruct H as [A B]. split; [destruct idx; [discriminate|reflexivity]|]. exists l. split; auto. apply Nat.eqb_eq. exact B.
Qed.
Definition storage_b (s : storage) : bool :=
  (charge_b (st_relmin s) && charge_b (st_relmax s) && full_b (st_eta_c s) && full_b (st_eta_d s) && full_b (st_loss s)
   && forallb (fun q => negb (Qeq_bool q 0)) (nlist (pdata (st_eta_d s))) && match st_init s with ICBad => false | _ => true end
   && match st_cap s with CapInv iv => invest_b iv | CapNum _ => true end)%bool.
Lemma storage_b_ok : forall s, storage_b s = true -> valid_storage fs idx s.
Proof.
  intros s H. unfold storage_b in H. ands H. split.
  - split; apply charge_b_ok; assumption.
  - split; [apply full_b_ok; assumption|]. split; apply full_b_ok; assumption.
  - rewrite forallb_forall in K1. intros q Hq E. specialize (K1 _ Hq). apply Qeq_bool_iff in E. rewrite E in K1. discriminate.
  - destruct (st_init s); discriminate.
  - intros iv E. rewrite E in K. apply invest_b_ok. exact K.
Qed.
Definition kindof_b (c : component) : bool :=
  match cp_kind c with
  | Plain => true
  | Converter fss => (negb (Nat.eqb (length fss) 0) && forallb (forallb (fun kp : nat * param => full_b (snd kp))) fss
      && forallb (fun d => existsb (fun f => existsb (fun kp : nat * param => Nat.eqb (fst kp) (f_id f)) d) (cp_flows c)) fss)%bool
  | Params.Segmented segs =>
      (negb (Nat.eqb (length (cp_flows c)) 0) && nodup_b (map fst segs) && Nat.ltb 0 (length (snd (hd (0%nat, []) segs)))
       && forallb (fun f => existsb (fun s : nat * list (param * param) => (Nat.eqb (fst s) (f_id f)
                                 && Nat.eqb (length (snd s)) (length (snd (hd (0%nat, []) segs))) && forallb (fun pq => (full_b (fst pq) && full_b (snd pq))%bool) (snd s))%bool) segs) (cp_flows c))%bool
  | StorageC s => (storage_b s && Nat.eqb (length (cp_in c)) 1 && Nat.eqb (length (cp_out c)) 1)%bool
  | TransmissionC rel abs =>
      (full_ob rel && full_ob abs
       && match cp_in c, cp_out c with [_], [_] => true | [_; _], [_; _] => true | _, _ => false end
       && match abs with None => true | Some _ => forallb (fun f => is_some (governed fs idx c f)) (cp_in c) end)%bool
  end.
Lemma kindof_b_ok : forall c, kindof_b c = true -> valid_kind fs idx c.
Proof.
  intros c H. unfold kindof_b in H. unfold valid_kind. destruct (cp_kind c) as [|fss|segs|s|rel abs].
  - exact Logic.I.
  - ands H. split; [intros ->; discriminate H|]. split.
    + intros d k p D P. rewrite forallb_forall in K0. specialize (K0 _ D). rewrite forallb_forall in K0. apply full_b_ok. apply (K0 (k, p) P).
    + intros d D. rewrite forallb_forall in K. specialize (K _ D). apply existsb_exists in K. destruct K as [f [Hf K]]. apply existsb_exists in K. destruct K as [[k p] [Hp K]]. apply Nat.eqb_eq in K. cbn in K. subst k. eauto.
  - ands H. split; [intros E; rewrite E in H; discriminate H|]. split; [apply nodup_b_ok; assumption|]. exists (length (snd (hd (0%nat, []) segs))). split; [apply Nat.ltb_lt; assumption|]. intros f Hf.
    rewrite forallb_forall in K. specialize (K _ Hf). apply existsb_exists in K. destruct K as [[i s] [Hs K]]. cbn [fst snd] in K. ands K. apply Nat.eqb_eq in K. subst i. exists s. split; auto. split; [apply Nat.eqb_eq; assumption|].
    intros p q P. match goal with F : forallb _ s = true |- _ => rewrite forallb_forall in F; specialize (F _ P); apply andb_true_iff in F; destruct F end. split; apply full_b_ok; assumption.
  - ands H. split; [apply storage_b_ok; exact H|]. destruct (cp_in c) as [|a [|]]; try discriminate. destruct (cp_out c) as [|b [|]]; try discriminate. eauto.
  - ands H. split; [apply full_ob_ok; auto|]. split; [apply full_ob_ok; auto|]. split.
    + destruct (cp_in c) as [|a [|a' [|]]], (cp_out c) as [|b [|b' [|]]]; try discriminate; [left; eauto|right; do 4 eexists; eauto].
    + intros NE f Hf. destruct abs as [p|]; [|congruence]. rewrite forallb_forall in K. specialize (K _ Hf). destruct (governed fs idx c f); discriminate.
Qed.
Definition comp_b (c : component) : bool :=
  (forallb flow_b (cp_flows c)
   && match cp_onoff c with None => true | Some p => (negb (Nat.eqb (length (cp_flows c)) 0) && kind_b (given_past (cp_flows c)) && onoff_b p (given_past (cp_flows c)))%bool end
   && match cp_prevent c with [] => true | _ => (Nat.leb 2 (length (cp_prevent c)) && forallb (fun i => existsb (fun f => Nat.eqb (f_id f) i) (cp_flows c)) (cp_prevent c))%bool end
   && kindof_b c)%bool.
Lemma comp_b_ok : forall c, comp_b c = true -> valid_comp fs idx c.
Proof.
  intros c H. unfold comp_b in H. ands H. split.
  - rewrite forallb_forall in H. intros f Hf. apply flow_b_ok; auto.
  - intros p E. rewrite E in K1. ands K1. split; [intros Z; rewrite Z in K1; discriminate K1|]. split; [apply kind_b_ok; assumption|apply onoff_b_ok; assumption].
  - destruct (cp_prevent c) as [|i l]; [left; reflexivity|right]. apply andb_true_iff in K0. destruct K0 as [A B]. split; [apply Nat.leb_le; exact A|]. rewrite forallb_forall in B. intros j J. specialize (B _ J).
    apply existsb_exists in B. destruct B as [f [Hf E]]. apply Nat.eqb_eq in E. eauto.
  - apply kindof_b_ok. exact K.
Qed.
Definition effect_b (e : effect) : bool :=
  (full_ob (e_min_ph e) && full_ob (e_max_ph e) && nodup_b (map fst (e_share_op e)) && forallb (fun kp : nat * param => (known_b (Some (fst kp)) && full_b (snd kp))%bool) (e_share_op e)
   && nodup_b (map fst (e_share_inv e)) && forallb (fun kp : nat * numeric => (known_b (Some (fst kp)) && match snd kp with NS _ => true | _ => false end)%bool) (e_share_inv e))%bool.
Lemma effect_b_ok : forall e, effect_b e = true -> valid_effect fs e.
Proof.
  intros e H. unfold effect_b in H. ands H. rewrite forallb_forall in K, K1. split.
  - split; apply full_ob_ok; assumption.
  - split; [apply nodup_b_ok; assumption|]. intros k p P. specialize (K1 _ P). apply andb_true_iff in K1. destruct K1. split; [apply known_ok; assumption|apply full_b_ok; assumption].
  - split; [apply nodup_b_ok; assumption|]. intros k a P. specialize (K _ P). apply andb_true_iff in K. destruct K as [K5 K6]. split; [apply known_ok; exact K5|]. cbn in K6. destruct a; [eauto|discriminate].
Qed.
Definition valid_b (bl : list bus) : bool :=
  (Nat.leb 2 (steps fs idx) && match idx with Some l => forallb (fun i => Nat.ltb i (length (fs_times fs))) l | None => true end
   && nodup_b (map f_id (flat_map cp_flows (fs_comps fs))) && nodup_b (map e_id (fs_effects fs)) && forallb effect_b (fs_effects fs) && existsb e_obj (fs_effects fs)
   && forallb comp_b (fs_comps fs) && forallb (fun b => full_ob (b_penalty b)) bl)%bool.
Lemma valid_b_ok : forall bl, (forall b, used_bus fs b -> In b bl) -> valid_b bl = true -> valid_data fs idx.
Proof.
  intros bl U H. unfold valid_b in H. ands H. rewrite forallb_forall in K, K0, K2. split.
  - apply Nat.leb_le. assumption.
  - intros l i E Hi. rewrite E in K5. rewrite forallb_forall in K5. apply Nat.ltb_lt. auto.
  - apply nodup_b_ok. assumption.
  - apply nodup_b_ok. assumption.
  - intros e He. apply effect_b_ok. auto.
  - apply existsb_exists in K1. destruct K1 as [e [He O]]. eauto.
  - intros c Hc. apply comp_b_ok. auto.
  - intros b Ub. apply full_ob_ok. apply K. auto.
Qed.
Definition tidy_b (s : string) : bool := forallb (fun w => negb (String.eqb w "")) (words s).
Definition named_b (bl : list bus) : bool :=
  (pairs_b unrelated_b (top_labels fs) && pairs_b unrelated_b (map b_lab bl) && forallb (fun b => forallb (unrelated_b (b_lab b)) (top_labels fs)) bl
   && forallb (fun e => tidy_b (e_label e)) (fs_effects fs) && forallb (fun c => negb (String.eqb (hd ""%string (words (cp_label c))) "")) (fs_comps fs)
   && forallb (fun c => (pairs_b unrelated_b (map f_lab (cp_flows c)) && forallb (fun f => forallb (unrelated_b (f_lab f)) part_names) (cp_flows c))%bool) (fs_comps fs))%bool.
Lemma named_b_ok : forall bl, (forall b, used_bus fs b -> In b bl) -> named_b bl = true -> well_named fs.
Proof.
  intros bl U H. unfold named_b in H. ands H. rewrite forallb_forall in K, K0, K1, K2. split.
  - apply (pairs_b_ok _ _ unrelated_b_ok). assumption.
  - intros b l Ub Hl. specialize (K2 _ (U _ Ub)). rewrite forallb_forall in K2. apply unrelated_b_ok. auto.
  - intros b b' Ub Ub' D. apply (pairs_b_ok _ _ unrelated_b_ok) in K3. apply FOP_unmap in K3.
    apply (FOP_sym_in (fun a b => unrelated (b_lab a) (b_lab b)) bl); auto. intros x y. apply unrelated_sym.
  - intros e He T. specialize (K1 _ He). unfold tidy_b in K1. rewrite forallb_forall in K1. specialize (K1 _ T). discriminate K1.
  - intros c Hc T. specialize (K0 _ Hc). rewrite T in K0. discriminate K0.
  - intros c Hc. specialize (K _ Hc). apply andb_true_iff in K. destruct K as [A B]. split; [apply (pairs_b_ok _ _ unrelated_b_ok); exact A|]. rewrite forallb_forall in B. intros f l Hf Hl. specialize (B _ Hf).
    rewrite forallb_forall in B. apply unrelated_b_ok. auto.
Qed.
End Check.
