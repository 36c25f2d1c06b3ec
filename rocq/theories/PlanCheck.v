(** Checking by computation that a concrete system is sensible; used for the examples only. *)
From Coq Require Import String Ascii.
From Verif Require Import Base BaseFacts MathModel Spec Structure Params Features Elements Library System SysSpec
  AdmitSpec OnOffLaws PropsOnOff PropsComp PropsEffects PlanSpec.

Definition full_b (fs : flow_system) (p : param) : bool := match pdata p with NS _ => true | NV l => Nat.eqb (length l) (length (fs_times fs)) end.
Definition all_steps (fs : flow_system) (idx : option (list nat)) (p : nat -> bool) : bool := forallb p (seq 0 (steps fs idx)).
Definition limits_b (fs : flow_system) (idx : option (list nat)) (o : onoff) : bool :=
  match limits_given o with
  | [] => true
  | l => (all_steps fs idx (fun t => Qle_bool 0 (hours fs idx t)) && forallb (Qle_bool 0) (nlist (fs_prev_dt fs))
          && forallb (fun p => full_b fs p && all_steps fs idx (fun t => Qle_bool 0 (value idx p t))) l)%bool
  end.
Definition flow_b (cf : config) (fs : flow_system) (idx : option (list nat)) (c : component) (f : flow) : bool :=
  ((match f_profile f with Some p => full_b fs p | None => full_b fs (f_relmin f) && full_b fs (f_relmax f) end)
   && match sized cf c f with
      | SzInv iv => Qle_bool 0 (max_size cf iv)
          && all_steps fs idx (fun t => Qle_bool 0 (value idx (f_relmin f) t) && Qle_bool (value idx (f_relmin f) t) (value idx (f_relmax f) t))
      | SzNum _ => true
      end
   && match governed fs idx c f with Some o => limits_b fs idx o | None => true end)%bool.
Definition blist_eqb (a b : list bool) : bool := if list_eq_dec Bool.bool_dec a b then true else false.
Definition count_b (s : bool) (l : list bool) : bool :=
  (forallb (Bool.eqb (hd true l)) l
   || existsb (fun z => Nat.leb (length l - z) z && blist_eqb l (repeat (negb s) z ++ repeat s (length l - z)))
        (seq 1 (length l)))%bool.
Definition count_for_b (o : onoff) (l : list bool) : bool :=
  ((negb (is_some (oo_con_min o) || is_some (oo_con_max o)) || count_b true l)
   && (negb (is_some (oo_coff_min o) || is_some (oo_coff_max o)) || count_b false l))%bool.
Definition flow_ok_b (cf : config) (fs : flow_system) (idx : option (list nat)) (c : component) (f : flow) : bool :=
  (flow_b cf fs idx c f && match governed fs idx c f with Some o => count_for_b o (prior_states cf f) | None => true end)%bool.
Definition comp_ok_b (cf : config) (fs : flow_system) (idx : option (list nat)) (c : component) : bool :=
  match cp_onoff c with
  | None => true
  | Some p => (limits_b fs idx p && count_for_b p (comp_states cf c) && Nat.leb (length (filter gives_number (cp_flows c))) 1
      && forallb (fun f => all_steps fs idx (fun t => Qle_bool 0 (rel_max idx f t * snd (size_range cf (sized cf c f))))) (cp_flows c))%bool
  end.
Definition store_ok_b (cf : config) (c : component) : bool :=
  match cp_kind c with StorageC s => match st_cap s with CapInv iv => Qle_bool 0 (max_size cf iv) | CapNum _ => true end | _ => true end.
Definition number_b (p : param) : bool := match pdata p with NS _ => true | NV _ => false end.
Definition numbers_b (v : evalues) : bool := forallb (fun kp : option nat * param => number_b (snd kp)) (entries v).
Definition invest_b (iv : invest) : bool := (numbers_b (iv_fix iv) && numbers_b (iv_spec iv) && numbers_b (iv_divest iv))%bool.
Definition links_b (fs : flow_system) : bool :=
  forallb (fun e => forallb (fun kd : nat * numeric => match snd kd with NS _ => true | NV _ => false end) (e_share_inv e)) (fs_effects fs).
Definition distinct_b (l : list nat) : bool := if list_eq_dec Nat.eq_dec (nodup Nat.eq_dec l) l then true else false.
Definition sensible_b (cf : config) (fs : flow_system) (idx : option (list nat)) : bool :=
  (negb (Qle_bool (cf_eps cf) 0) && negb (Qle_bool 1 (cf_eps cf)) && Nat.leb 2 (steps fs idx)
   && forallb (fun c => forallb (flow_ok_b cf fs idx c) (cp_flows c) && comp_ok_b cf fs idx c && store_ok_b cf c) (fs_comps fs)
   && distinct_b (map e_id (fs_effects fs)) && links_b fs && forallb (fun ni : string * invest => invest_b (snd ni)) (investments cf fs))%bool.

Ltac bools := repeat match goal with
  | H : (_ && _)%bool = true |- _ => let A := fresh "B" in apply andb_prop in H; destruct H as [A H]
  end.

Lemma all_steps_spec : forall fs idx p, all_steps fs idx p = true -> forall t, (t < steps fs idx)%nat -> p t = true.
Proof. intros fs idx p H t Ht. unfold all_steps in H. rewrite forallb_forall in H. apply H. apply in_seq. lia. Qed.
Lemma full_spec : forall fs p, full_b fs p = true -> full_data fs p.
Proof. intros fs p. unfold full_b, full_data. destruct (pdata p); auto. apply Nat.eqb_eq. Qed.
Lemma limits_spec : forall fs idx o, limits_b fs idx o = true -> sound_limits fs idx o.
Proof.
  intros fs idx o H NE. unfold limits_b in H. destruct (limits_given o) as [|p0 l] eqn:E; [congruence|]. rewrite <- E in *. clear E. apply andb_prop in H. destruct H as [H H3].
  apply andb_prop in H. destruct H as [H1 H2]. split; [|split].
  - intros t Ht. apply Qle_bool_iff. exact (all_steps_spec _ _ _ H1 t Ht).
  - intros q Hq. apply Qle_bool_iff. rewrite forallb_forall in H2. apply H2. exact Hq.
  - intros p Hp. rewrite forallb_forall in H3. specialize (H3 p Hp). bools. split; [apply full_spec; auto|].
    intros t Ht. apply Qle_bool_iff. exact (all_steps_spec _ _ _ H3 t Ht).
Qed.
Lemma flow_b_spec : forall cf fs idx c f, flow_b cf fs idx c f = true -> sound_flow cf fs idx c f.
Proof.
  intros cf fs idx c f H. unfold flow_b in H. apply andb_prop in H. destruct H as [H H3]. apply andb_prop in H. destruct H as [H1 H2]. split; [|split].
  - destruct (f_profile f); [apply full_spec; auto|]. bools. split; apply full_spec; auto.
  - intros iv E. rewrite E in H2. bools. split; [apply Qle_bool_iff; auto|]. intros t Ht. pose proof (all_steps_spec _ _ _ H2 t Ht) as Z. cbv beta in Z. bools.
    split; apply Qle_bool_iff; auto.
  - intros o E. rewrite E in H3. apply limits_spec. auto.
Qed.
Lemma count_spec : forall s l, count_b s l = true -> countable s l.
Proof.
  intros s l H. unfold count_b in H. apply orb_prop in H. destruct H as [H|H].
  - left. rewrite forallb_forall in H. intros a b Ha Hb. pose proof (H a Ha) as A. pose proof (H b Hb) as B. apply Bool.eqb_prop in A. apply Bool.eqb_prop in B. congruence.
  - right. apply existsb_exists in H. destruct H as [z [Hz H]]. apply in_seq in Hz. bools. exists z, (length l - z)%nat. apply Nat.leb_le in B.
    unfold blist_eqb in H. destruct (list_eq_dec _ _ _) as [E|]; [|discriminate]. split; auto. split; [lia|exact B].
Qed.
Lemma count_for_spec : forall o l, count_for_b o l = true -> countable_for o l.
Proof.
  intros o l H. unfold count_for_b in H. bools. split; intros U; apply count_spec.
  - destruct (oo_con_min o), (oo_con_max o); simpl in B; auto. destruct U; congruence.
  - destruct (oo_coff_min o), (oo_coff_max o); simpl in H; auto. destruct U; congruence.
Qed.
Lemma numbers_spec : forall v, numbers_b v = true -> numbers v.
Proof.
  intros v H k p Hin. unfold numbers_b in H. rewrite forallb_forall in H. specialize (H _ Hin). cbn in H. unfold number_b in H. unfold number.
  destruct (pdata p); [eauto|discriminate].
Qed.
Lemma sensible_check : forall cf fs idx, sensible_b cf fs idx = true -> distinct_buses fs -> well_formed fs -> sensible cf fs idx.
Proof.
  intros cf fs idx H DB WF. unfold sensible_b in H. do 6 (apply andb_prop in H; destruct H as [H ?Z]). rename Z into B5, Z0 into B4, Z1 into B3, Z2 into B2, Z3 into B1, Z4 into B0. rename H into B. rewrite forallb_forall in B2.
  assert (LT : forall a b, negb (Qle_bool b a) = true -> a < b).
  { intros a b Z. apply Qnot_le_lt. intros L. apply Qle_bool_iff in L. rewrite L in Z. discriminate. }
  constructor; auto.
  - apply Nat.leb_le. auto.
  - intros c f Hc Hf. specialize (B2 c Hc). apply andb_prop in B2. destruct B2 as [B2 _]. apply andb_prop in B2. destruct B2 as [B2 _]. rewrite forallb_forall in B2. specialize (B2 f Hf).
    unfold flow_ok_b in B2. bools. split; [apply flow_b_spec; auto|]. intros o G. rewrite G in B2. apply count_for_spec. auto.
  - intros c p Hc Hp. specialize (B2 c Hc). apply andb_prop in B2. destruct B2 as [B2 _]. apply andb_prop in B2. destruct B2 as [_ B2]. unfold comp_ok_b in B2. rewrite Hp in B2. bools.
    split; [apply limits_spec; auto|]. split; [apply count_for_spec; auto|]. split; [apply Nat.leb_le; auto|]. intros f t Hf Ht. rewrite forallb_forall in B2. cbv beta in B2.
    apply Qle_bool_iff. exact (all_steps_spec _ _ _ (B2 f Hf) t Ht).
  - intros c s iv Hc Hk Hs. specialize (B2 c Hc). apply andb_prop in B2. destruct B2 as [_ B2]. unfold store_ok_b in B2. rewrite Hk, Hs in B2. apply Qle_bool_iff. auto.
  - split; [|split].
    + unfold distinct_b in B3. destruct (list_eq_dec _ _ _) as [E|]; [|discriminate]. unfold distinct_effects. rewrite <- E. apply NoDup_nodup.
    + intros e i d He Hin. unfold links_b in B4. rewrite forallb_forall in B4. specialize (B4 e He). rewrite forallb_forall in B4. specialize (B4 _ Hin). cbn in B4.
      destruct d; [eauto|discriminate].
    + intros name iv Hi. rewrite forallb_forall in B5. specialize (B5 _ Hi). cbn in B5. unfold invest_b in B5. bools. split; [|split]; apply numbers_spec; auto.
Qed.
