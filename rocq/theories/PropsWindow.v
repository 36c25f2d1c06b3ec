(** Claim C79: moving the time axis changes nothing, and calculating with chosen time steps is calculating with the system cut
    down to these steps. *)
From Coq Require Import Permutation.
From Verif Require Import Base BaseFacts MathModel Spec Structure Params Features Elements Library System SysSpec AdmitSpec CtxFacts NavFacts PropsOnOff PropsComp PropsEffects PlanSpec Example
     TotalInvest PlanComp PlanSame PlanCheck ExamplePoints PropsPlan PropsRelax NameSpec ValidSpec ValidCheck PropsTotal PropsSameData.

(** ** Specification *)

(** The same system with other time stamps, and with [g] applied to all parameters; [h] to the limits of the charge state, which
    also hold at the end of the last step. *)
Section Remap.
Variables (g h : param -> param).
Definition re_entry {K} (kp : K * param) : K * param := (fst kp, g (snd kp)).
Definition re_values (v : evalues) : evalues := match v with EVNone => EVNone | EVOne p => EVOne (g p) | EVDict l => EVDict (map re_entry l) end.
Definition re_onoff (o : onoff) : onoff :=
  mkOnOff (re_values (oo_switch_eff o)) (re_values (oo_run_eff o)) (oo_on_min o) (oo_on_max o) (option_map g (oo_con_min o)) (option_map g (oo_con_max o))
    (option_map g (oo_coff_min o)) (option_map g (oo_coff_max o)) (oo_sw_max o) (oo_force o).
Definition re_bus (b : bus) : bus := mkBus (b_id b) (b_lab b) (option_map g (b_penalty b)).
Definition re_flow (f : flow) : flow :=
  mkFlow (f_id f) (f_lab f) (re_bus (f_bus f)) (f_size f) (option_map g (f_profile f)) (g (f_relmin f)) (g (f_relmax f)) (re_values (f_effects f))
    (option_map re_onoff (f_onoff f)) (f_fh_max f) (f_fh_min f) (f_lf_min f) (f_lf_max f) (f_prev f).
Definition re_storage (s : storage) : storage :=
  mkStorage (st_cap s) (h (st_relmin s)) (h (st_relmax s)) (st_init s) (st_fmin s) (st_fmax s) (g (st_eta_c s)) (g (st_eta_d s)) (g (st_loss s)).
Definition re_points (ab : param * param) : param * param := (g (fst ab), g (snd ab)).
Definition re_kind (k : ckindc) : ckindc :=
  match k with
  | Plain => Plain
  | Converter eqs => Converter (map (map re_entry) eqs)
  | Params.Segmented segs => Params.Segmented (map (fun s => (fst s, map re_points (snd s))) segs)
  | StorageC s => StorageC (re_storage s)
  | TransmissionC rel abs => TransmissionC (option_map g rel) (option_map g abs)
  end.
Definition re_comp (c : component) : component :=
  mkComponent (cp_label c) (map re_flow (cp_in c)) (map re_flow (cp_out c)) (option_map re_onoff (cp_onoff c)) (cp_prevent c) (re_kind (cp_kind c)).
Definition re_effect (e : effect) : effect :=
  mkEffect (e_id e) (e_label e) (e_std e) (e_obj e) (map re_entry (e_share_op e)) (e_share_inv e) (e_min_op e) (e_max_op e) (e_min_inv e) (e_max_inv e)
    (option_map g (e_min_ph e)) (option_map g (e_max_ph e)) (e_min_tot e) (e_max_tot e).
Definition remapped (times : list Q) (end_ : Q) (fs : flow_system) : flow_system :=
  mkFS times end_ (fs_prev_dt fs) (map re_effect (fs_effects fs)) (map re_comp (fs_comps fs)).
End Remap.

(** All time stamps are moved by [d]. *)
Definition shifted (d : Q) (fs : flow_system) : flow_system :=
  mkFS (map (fun q => q + d) (fs_times fs)) (fs_end fs + d) (fs_prev_dt fs) (fs_effects fs) (fs_comps fs).

(** A parameter, and a limit of the charge state, cut down to the steps [ix]. *)
Definition with_data (p : param) (d : numeric) : param := match p with PNum _ => PNum d | PTsd _ gr w => PTsd d gr w end.
Definition cut (ix : list nat) (p : param) : param :=
  match pdata p with NS _ => p | NV l => with_data p (NV (map (fun i => nth i l (hd 0 l)) ix)) end.
Definition cut_level (ix : list nat) (p : param) : param := cut (ix ++ [S (List.last ix 0%nat)]) p.
(** The system cut down to the steps [ix]: it ends where the last of them ends. *)
Definition window (ix : list nat) (fs : flow_system) : flow_system :=
  remapped (cut ix) (cut_level ix) (map (stamp fs) ix) (stamp fs (S (List.last ix 0%nat))) fs.

(** ** Facts *)
Section Facts.
Variables (cf : config) (g h : param -> param) (fs : flow_system) (idx idx' : option (list nat)) (times : list Q) (end_ : Q).
Notation fs' := (remapped g h times end_ fs).
Notation n := (steps fs idx).
Hypothesis N1 : (0 < n)%nat.
Hypothesis ST : steps fs' idx' = n.
Hypothesis HR : forall t, (t < n)%nat -> hours fs' idx' t == hours fs idx t.
Hypothesis AG : forall p, agree idx idx' n p (g p).
Hypothesis LV : forall c s, In c (fs_comps fs) -> cp_kind c = StorageC s -> agree_levels idx idx' n (st_relmin s) (h (st_relmin s)) /\ agree_levels idx idx' n (st_relmax s) (h (st_relmax s)).

Lemma F2_map : forall {A} (R : A -> A -> Prop) (k : A -> A) l, (forall a, In a l -> R a (k a)) -> Forall2 R l (map k l).
Proof. intros A R k l. induction l as [|a l IH]; intros H; constructor; [apply H; left; reflexivity|apply IH; intros; apply H; right; assumption]. Qed.
Lemma m_opt : forall p, alike_option (agree idx idx' n) p (option_map g p). Proof. intros [p|]; [exact (AG p)|exact I]. Qed.
Lemma m_entries : forall v, entries (re_values g v) = map (re_entry g) (entries v). Proof. intros [|p|l]; reflexivity. Qed.
Lemma m_entry : forall {K} (kp : K * param), agree_entry idx idx' n kp (re_entry g kp). Proof. intros K kp. split; [reflexivity|apply AG]. Qed.
Lemma m_values : forall v, alike_values idx idx' n v (re_values g v).
Proof. intros v. unfold alike_values. rewrite m_entries. apply F2_map. intros kp _. apply m_entry. Qed.
Lemma m_onoff : forall o, alike_onoff idx idx' n o (re_onoff g o).
Proof. intros o. constructor; cbn; [split; apply m_values|repeat split|split; apply m_opt|split; apply m_opt]. Qed.
Lemma m_flow : forall f, alike_flow idx idx' n f (re_flow g f).
Proof.
  intros f. constructor; cbn; [repeat split|repeat split|constructor; cbn; [split; reflexivity|apply m_opt]|apply m_opt|split; apply AG|apply m_values|].
  destruct (f_onoff f) as [o|]; [apply m_onoff|exact I].
Qed.
Lemma m_comp : forall c, In c (fs_comps fs) -> alike_comp idx idx' n c (re_comp g h c).
Proof.
  intros c Hc. constructor; cbn [re_comp cp_label cp_prevent cp_in cp_out cp_onoff cp_kind].
  - split; reflexivity.
  - apply F2_map. intros f _. apply m_flow.
  - apply F2_map. intros f _. apply m_flow.
  - destruct (cp_onoff c) as [o|]; [apply m_onoff|exact I].
  - destruct (cp_kind c) as [|eqs|segs|s|rel abs] eqn:K; cbn [re_kind alike_kind].
    + exact I.
    + apply F2_map. intros d _. apply F2_map. intros kp _. apply m_entry.
    + apply F2_map. intros s _. split; [reflexivity|]. apply F2_map. intros ab _. split; apply AG.
    + constructor; cbn; [repeat split|exact (LV c s Hc K)|repeat split; apply AG].
    + split; apply m_opt.
Qed.
Lemma m_effect : forall e, alike_effect idx idx' n e (re_effect g e).
Proof. intros e. constructor; cbn; [repeat split|apply F2_map; intros kp _; apply m_entry| |]; (split; [reflexivity|]; split; [reflexivity|]; split; [reflexivity|apply m_opt]). Qed.
Lemma m_same : same_data fs idx fs' idx'.
Proof.
  constructor; [exact ST|exact HR|reflexivity| |].
  - apply F2_map. intros e _. apply m_effect.
  - apply F2_map. exact m_comp.
Qed.

(** Sensible and valid data stay so, and so do names. *)
Hypothesis FD : forall p, full_data fs p -> full_data fs' (g p).
Lemma m_flows : forall c, cp_flows (re_comp g h c) = map (re_flow g) (cp_flows c). Proof. intros c. unfold cp_flows. cbn. symmetry. apply map_app. Qed.
Lemma m_used : forall b', used_bus fs' b' <-> exists b, used_bus fs b /\ b' = re_bus g b.
Proof.
  intros b'. split.
  - intros [c' [f' [Hc' [Hf' <-]]]]. cbn in Hc'. apply in_map_iff in Hc'. destruct Hc' as [c [<- Hc]]. rewrite m_flows in Hf'. apply in_map_iff in Hf'. destruct Hf' as [f [<- Hf]]. exists (f_bus f). split; [exists c, f; auto|reflexivity].
  - intros [b [[c [f [Hc [Hf <-]]]] ->]]. exists (re_comp g h c), (re_flow g f). split; [apply in_map; exact Hc|]. split; [rewrite m_flows; apply in_map; exact Hf|reflexivity].
Qed.
Lemma m_distinct : distinct_buses fs -> distinct_buses fs'.
Proof.
  intros [A B]. split; intros b1 b2 H1 H2; apply m_used in H1; apply m_used in H2; destruct H1 as [a1 [U1 ->]]; destruct H2 as [a2 [U2 ->]]; cbn; intros E; [f_equal; apply A; assumption|apply B; assumption].
Qed.
Lemma m_prior : forall f, prior_states cf (re_flow g f) = prior_states cf f. Proof. reflexivity. Qed.
Lemma m_comp_states : forall c, In c (fs_comps fs) -> comp_states cf (re_comp g h c) = comp_states cf c.
Proof. intros c Hc. exact (states_alike cf fs idx idx' _ _ (m_comp c Hc)). Qed.
Lemma m_in : forall c', In c' (fs_comps fs') -> exists c, In c (fs_comps fs) /\ c' = re_comp g h c.
Proof. intros c' H. apply in_map_iff in H. destruct H as [c [<- Hc]]. exists c. auto. Qed.
Lemma m_in_flow : forall c f', In f' (cp_flows (re_comp g h c)) -> exists f, In f (cp_flows c) /\ f' = re_flow g f.
Proof. intros c f' H. rewrite m_flows in H. apply in_map_iff in H. destruct H as [f [<- Hf]]. exists f. auto. Qed.
Lemma m_limits : forall o, limits_given (re_onoff g o) = map g (limits_given o).
Proof. intros o. unfold limits_given. cbn. destruct (oo_con_min o), (oo_con_max o), (oo_coff_min o), (oo_coff_max o); reflexivity. Qed.
Lemma m_sound_limits : forall o o', limits_given o' = map g (limits_given o) -> sound_limits fs idx o -> sound_limits fs' idx' o'.
Proof.
  intros o o' E H NE. rewrite E in NE. destruct H as [A [B C]]; [intros Z; apply NE; rewrite Z; reflexivity|]. rewrite ST. split; [intros t Ht; rewrite (HR t Ht); auto|]. split; [exact B|].
  intros p' Hp'. rewrite E in Hp'. apply in_map_iff in Hp'. destruct Hp' as [p [<- Hp]]. destruct (C p Hp) as [F V]. split; [apply FD; exact F|]. intros t Ht. rewrite (AG p t Ht). auto.
Qed.
Lemma m_governed : forall c f, In c (fs_comps fs) -> governed fs' idx' (re_comp g h c) (re_flow g f) = option_map (re_onoff g) (governed fs idx c f).
Proof.
  intros c f Hc. unfold governed. cbn [re_flow f_onoff]. destruct (f_onoff f) as [o|]; [reflexivity|]. cbn [option_map].
  assert (E : induced fs' idx' (re_comp g h c) (re_flow g f) = induced fs idx c f).
  { unfold induced. cbn [re_comp cp_onoff cp_prevent cp_kind re_flow f_id]. f_equal; [f_equal; destruct (cp_onoff c); reflexivity|]. destruct (cp_kind c) as [| | | |rel [abs|]]; try reflexivity. cbn. exact (loss_alike fs fs' idx idx' m_same N1 abs _ (AG abs)). }
  change (mkFlow (f_id f) (f_lab f) (re_bus g (f_bus f)) (f_size f) (option_map g (f_profile f)) (g (f_relmin f)) (g (f_relmax f)) (re_values g (f_effects f)) (option_map (re_onoff g) (f_onoff f)) (f_fh_max f) (f_fh_min f) (f_lf_min f) (f_lf_max f) (f_prev f)) with (re_flow g f).
  rewrite E. destruct (induced fs idx c f); reflexivity.
Qed.
Lemma m_countable : forall o l, countable_for o l -> countable_for (re_onoff g o) l.
Proof.
  intros o l [A B]. assert (N : forall p : option param, option_map g p <> None -> p <> None) by (intros [p|] H E; [discriminate E|apply H; reflexivity]).
  split; cbn; intros [Z|Z]; [apply A; left|apply A; right|apply B; left|apply B; right]; apply N; exact Z.
Qed.
Lemma m_sensible : sensible cf fs idx -> sensible cf fs' idx'.
Proof.
  intros [A B C D E F G H]. constructor.
  - exact A.
  - rewrite ST. exact B.
  - exact (m_distinct C).
  - intros c' Hc'. destruct (m_in _ Hc') as [c [Hc ->]]. destruct (D c Hc) as [D1 D2]. split; [exact D1|]. cbn [re_comp cp_kind]. destruct (cp_kind c) as [| | |s|rel abs]; try exact I; cbn [re_kind].
    + destruct D2 as [label [ch [dis [prevent ->]]]]. exists label, (re_flow g ch), (re_flow g dis), prevent. reflexivity.
    + destruct D2 as [label [in1 [out1 [in2 [out2 [oo [prevent ->]]]]]]]. exists label, (re_flow g in1), (re_flow g out1), (option_map (re_flow g) in2), (option_map (re_flow g) out2), (option_map (re_onoff g) oo), prevent.
      destruct in2, out2; reflexivity.
  - intros c' f' Hc' Hf'. destruct (m_in _ Hc') as [c [Hc ->]]. destruct (m_in_flow _ _ Hf') as [f [Hf ->]]. destruct (E c f Hc Hf) as [[E1 [E2 E3]] E4]. pose proof (sized_alike cf fs idx idx' _ _ _ _ (m_comp c Hc) (m_flow f)) as SZ. split; [split; [|split]|].
    + cbn. destruct (f_profile f) as [p|]; cbn; [apply FD; exact E1|destruct E1; split; apply FD; assumption].
    + rewrite SZ, ST. intros iv Ei. destruct (E2 iv Ei) as [E5 E6]. split; [exact E5|]. intros t Ht. cbn [re_flow f_relmin f_relmax]. rewrite (AG _ t Ht), (AG (f_relmax f) t Ht). auto.
    + intros o' Eo. rewrite (m_governed c f Hc) in Eo. destruct (governed fs idx c f) as [o|]; [|discriminate Eo]. cbn in Eo. inversion Eo. subst o'. exact (m_sound_limits o _ (m_limits o) (E3 o eq_refl)).
    + intros o' Eo. rewrite (m_governed c f Hc) in Eo. destruct (governed fs idx c f) as [o|]; [|discriminate Eo]. cbn in Eo. inversion Eo. subst o'. rewrite m_prior. exact (m_countable o _ (E4 o eq_refl)).
  - intros c' p' Hc' Ep. destruct (m_in _ Hc') as [c [Hc ->]]. cbn [re_comp cp_onoff] in Ep. destruct (cp_onoff c) as [p|] eqn:Ec; [|discriminate Ep]. cbn in Ep. inversion Ep. subst p'. destruct (F c p Hc Ec) as [F1 [F2 [F3 F4]]].
    split; [exact (m_sound_limits p _ (m_limits p) F1)|]. split; [|split].
    + rewrite (m_comp_states c Hc). exact (m_countable p _ F2).
    + rewrite m_flows. clear -F3. assert (K : forall l, length (filter gives_number (map (re_flow g) l)) = length (filter gives_number l)) by (induction l as [|f l IH]; [reflexivity|]; cbn [map filter]; change (gives_number (re_flow g f)) with (gives_number f); destruct (gives_number f); cbn [length]; rewrite IH; reflexivity).
      rewrite K. exact F3.
    + intros f' t Hf' Ht. rewrite ST in Ht. destruct (m_in_flow _ _ Hf') as [f [Hf ->]]. rewrite (sized_alike cf fs idx idx' _ _ _ _ (m_comp c Hc) (m_flow f)). destruct (rel_alike fs idx idx' _ _ t (m_flow f) Ht) as [_ ->]. auto.
  - intros c' s' iv Hc' K Ci. destruct (m_in _ Hc') as [c [Hc ->]]. cbn [re_comp cp_kind] in K. destruct (cp_kind c) as [| | |s|] eqn:Kc; try discriminate K. cbn in K. inversion K. subst s'. exact (G c s iv Hc Kc Ci).
  - destruct H as [H1 [H2 H3]]. split; [|split].
    + unfold distinct_effects. cbn. rewrite map_map. exact H1.
    + intros e' i d He' Hi. cbn in He'. apply in_map_iff in He'. destruct He' as [e [<- He]]. exact (H2 e i d He Hi).
    + intros name iv Hi. rewrite (investments_alike cf fs fs' idx idx' m_same) in Hi. exact (H3 name iv Hi).
Qed.

Hypothesis ET : forall p q, full_data fs p -> In q (nlist (pdata (g p))) -> In q (nlist (pdata p)).
Hypothesis CD : forall p, charge_data fs idx p -> charge_data fs' idx' (h p).
Hypothesis CH : forall l i, idx' = Some l -> In i l -> (i < length times)%nat.
Lemma m_names : forall k e, names (map (re_effect g) (fs_effects fs)) k (re_effect g e) = names (fs_effects fs) k e.
Proof. intros [i|] e; [reflexivity|]. unfold names. induction (fs_effects fs) as [|a l IH]; [reflexivity|]. cbn [map find]. change (e_std (re_effect g a)) with (e_std a). destruct (e_std a); [reflexivity|exact IH]. Qed.
Lemma m_means : forall k e, means fs k e -> means fs' k (re_effect g e).
Proof. intros k e [A B]. split; [apply in_map; exact A|]. cbn [remapped fs_effects]. rewrite m_names. exact B. Qed.
Lemma m_means_r : forall k e', means fs' k e' -> exists e, e' = re_effect g e /\ means fs k e.
Proof. intros k e' [A B]. cbn in A. apply in_map_iff in A. destruct A as [e [<- He]]. exists e. split; [reflexivity|]. split; [exact He|]. rewrite <- m_names. exact B. Qed.
Lemma FOP_weaken : forall {A} (R S : A -> A -> Prop) l, (forall a b, R a b -> S a b) -> ForallOrdPairs R l -> ForallOrdPairs S l.
Proof. intros A R S l H F. induction F as [|a l H1 F IH]; constructor; [|exact IH]. eapply Forall_impl; [|exact H1]. auto. Qed.
Lemma m_addressed : forall ks, well_addressed fs ks -> well_addressed fs' ks.
Proof.
  intros ks [A B]. split; [intros k Hk; destruct (A k Hk) as [e He]; exists (re_effect g e); exact (m_means k e He)|].
  revert B. apply FOP_weaken. intros k k' H e' [M1 M2]. destruct (m_means_r _ _ M1) as [e [-> M]]. destruct M2 as [_ M2]. cbn [remapped fs_effects] in M2. rewrite m_names in M2. apply (H e). split; [exact M|]. split; [apply M|exact M2].
Qed.
Lemma m_fst : forall {K} (l : list (K * param)), map fst (map (re_entry g) l) = map fst l. Proof. intros K l. rewrite map_map. reflexivity. Qed.
Lemma m_full_opt : forall p, full_opt fs p -> full_opt fs' (option_map g p).
Proof. intros [p|] H q E; [|discriminate E]. cbn in E. inversion E. subst q. apply FD. exact (H p eq_refl). Qed.
Lemma m_valid_values : forall v, valid_values fs v -> valid_values fs' (re_values g v).
Proof.
  intros v [A B]. split; rewrite m_entries; [rewrite m_fst; exact (m_addressed _ A)|]. intros k p' H. apply in_map_iff in H. destruct H as [[k0 p] [E H]]. inversion E. subst. apply FD. exact (B k p H).
Qed.
Lemma m_valid_numbers : forall v, valid_numbers fs v -> valid_numbers fs' v.
Proof. intros v [A B]. split; [exact (m_addressed _ A)|exact B]. Qed.
Lemma m_valid_onoff : forall o past, valid_onoff fs o past -> valid_onoff fs' (re_onoff g o) past.
Proof.
  intros o past [A B [C1 C2] [D1 D2] E]. constructor; cbn; [apply m_valid_values; exact A|apply m_valid_values; exact B|split; apply m_full_opt; assumption|split; apply m_full_opt; assumption|].
  intros L. apply E. unfold limits_duration in *. cbn in L. assert (N : forall p : option param, option_map g p <> None -> p <> None) by (intros [p|] H Z; [discriminate Z|apply H; reflexivity]). destruct L as [L|[L|[L|L]]]; apply N in L; auto.
Qed.
Lemma m_valid_invest : forall iv, valid_invest fs iv -> valid_invest fs' iv.
Proof.
  intros iv [A B C D]. constructor; try (apply m_valid_numbers; assumption). intros spts eff E. destruct (D spts eff E) as [D1 [D0 [D2 D3]]]. split; [exact D1|]. split; [exact D0|]. split; [exact D2|].
  intros i l H. destruct (D3 i l H) as [[e He] L]. split; [exists (re_effect g e); exact (m_means _ _ He)|exact L].
Qed.
Lemma m_past : forall l, given_past (map (re_flow g) l) = given_past l.
Proof. induction l as [|f l IH]; [reflexivity|]. cbn [map given_past flat_map]. unfold given_past in IH. rewrite IH. reflexivity. Qed.
Lemma m_valid_flow : forall f, valid_flow fs f -> valid_flow fs' (re_flow g f).
Proof.
  intros f [[A [B C]] D E F G]. constructor; cbn [re_flow f_profile f_relmin f_relmax f_effects f_onoff f_size].
  - split; [apply m_full_opt; exact A|split; apply FD; assumption].
  - apply m_valid_values. exact D.
  - exact E.
  - intros p' Ep. destruct (f_onoff f) as [p|]; [|discriminate Ep]. cbn in Ep. inversion Ep. subst p'. exact (m_valid_onoff _ _ (F p eq_refl)).
  - intros iv Ei. apply m_valid_invest. exact (G iv Ei).
Qed.
Lemma m_valid_comp : forall c, In c (fs_comps fs) -> valid_comp fs idx c -> valid_comp fs' idx' (re_comp g h c).
Proof.
  intros c Hc [A B C D]. constructor.
  - intros f' Hf'. destruct (m_in_flow _ _ Hf') as [f [Hf ->]]. exact (m_valid_flow f (A f Hf)).
  - intros p' Ep. cbn [re_comp cp_onoff] in Ep. destruct (cp_onoff c) as [p|]; [|discriminate Ep]. cbn in Ep. inversion Ep. subst p'. destruct (B p eq_refl) as [B1 [B2 B3]]. rewrite m_flows, m_past. split; [destruct (cp_flows c); [contradiction|discriminate]|]. split; [exact B2|exact (m_valid_onoff _ _ B3)].
  - cbn [re_comp cp_prevent]. destruct C as [C|[C1 C2]]; [left; exact C|right]. split; [exact C1|]. intros i Hi. destruct (C2 i Hi) as [f [Hf E]]. exists (re_flow g f). rewrite m_flows. split; [apply in_map; exact Hf|exact E].
  - unfold valid_kind in *. cbn [re_comp cp_kind]. destruct (cp_kind c) as [|eqs|segs|s|rel abs] eqn:K; cbn [re_kind].
    + exact I.
    + destruct D as [D1 [D2 D3]]. split; [destruct eqs; [contradiction|discriminate]|]. split.
      { intros d' k p' Hd Hk. apply in_map_iff in Hd. destruct Hd as [d [<- Hd]]. apply in_map_iff in Hk. destruct Hk as [[k0 p] [E Hk]]. inversion E. subst. apply FD. exact (D2 d k p Hd Hk). }
      intros d' Hd. apply in_map_iff in Hd. destruct Hd as [d [<- Hd]]. destruct (D3 d Hd) as [f [p [Hf Hp]]]. exists (re_flow g f), (g p). fold (re_comp g h c). rewrite m_flows. split; [apply in_map; exact Hf|]. apply in_map_iff. exists (f_id f, p). split; [reflexivity|exact Hp].
    + destruct D as [D1 [D2 [k [D0 D3]]]]. fold (re_comp g h c). rewrite m_flows. split; [destruct (cp_flows c); [contradiction|discriminate]|]. split; [rewrite map_map; exact D2|]. exists k. split; [exact D0|]. intros f' Hf'. apply in_map_iff in Hf'. destruct Hf' as [f [<- Hf]].
      destruct (D3 f Hf) as [s [S1 [S2 S3]]]. exists (map (re_points g) s). split; [|split].
      * apply in_map_iff. exists (f_id f, s). split; [reflexivity|exact S1].
      * rewrite map_length. exact S2.
      * intros p' q' H. apply in_map_iff in H. destruct H as [[p q] [E H]]. inversion E. subst. destruct (S3 p q H). cbn. split; apply FD; assumption.
    + destruct D as [[[D1 D2] [D3 [D4 D5]] D6 D7 D8] [ch [dis [E1 E2]]]]. split.
      * constructor; cbn; [split; apply CD; assumption|repeat split; apply FD; assumption| |exact D7|intros iv Ei; apply m_valid_invest; exact (D8 iv Ei)]. intros q Hq. apply D6. exact (ET _ _ D4 Hq).
      * exists (re_flow g ch), (re_flow g dis). cbn [re_comp cp_in cp_out]. rewrite E1, E2. split; reflexivity.
    + destruct D as [D1 [D2 [D3 D4]]]. split; [apply m_full_opt; exact D1|]. split; [apply m_full_opt; exact D2|]. split.
      * cbn [re_comp cp_in cp_out]. destruct D3 as [[i [o [-> ->]]]|[i [i' [o [o' [-> ->]]]]]]; [left; exists (re_flow g i), (re_flow g o); split; reflexivity|right; exists (re_flow g i), (re_flow g i'), (re_flow g o), (re_flow g o'); split; reflexivity].
      * intros NA f' Hf'. cbn [re_comp cp_in] in Hf'. apply in_map_iff in Hf'. destruct Hf' as [f [<- Hf]].
        change (governed fs' idx' (re_comp g h c) (re_flow g f) <> None). rewrite (m_governed c f Hc). assert (NA0 : abs <> None) by (destruct abs; [discriminate|exfalso; apply NA; reflexivity]). specialize (D4 NA0 f Hf). destruct (governed fs idx c f); [discriminate|contradiction].
Qed.
Lemma m_valid : valid_data fs idx -> valid_data fs' idx'.
Proof.
  intros [A B C D E F G H]. constructor.
  - rewrite ST. exact A.
  - exact CH.
  - cbn. replace (map f_id (flat_map cp_flows (map (re_comp g h) (fs_comps fs)))) with (map f_id (flat_map cp_flows (fs_comps fs))); [exact C|]. clear.
    induction (fs_comps fs) as [|c l IH]; [reflexivity|]. cbn [map flat_map]. rewrite !map_app, IH, m_flows, map_map. reflexivity.
  - cbn. rewrite map_map. exact D.
  - intros e' He'. cbn in He'. apply in_map_iff in He'. destruct He' as [e [<- He]]. destruct (E e He) as [[E1 E2] [E3 E4] [E5 E6]]. constructor; cbn.
    + split; apply m_full_opt; assumption.
    + rewrite m_fst. split; [exact E3|]. intros k p' Hk. apply in_map_iff in Hk. destruct Hk as [[k0 p] [Z Hk]]. inversion Z. subst. destruct (E4 k p Hk) as [[e1 M] Fp]. split; [exists (re_effect g e1); exact (m_means _ _ M)|apply FD; exact Fp].
    + split; [exact E5|]. intros k a Hk. destruct (E6 k a Hk) as [[e1 M] Q1]. split; [exists (re_effect g e1); exact (m_means _ _ M)|exact Q1].
  - destruct F as [e [He Ho]]. exists (re_effect g e). split; [apply in_map; exact He|exact Ho].
  - intros c' Hc'. destruct (m_in _ Hc') as [c [Hc ->]]. exact (m_valid_comp c Hc (G c Hc)).
  - intros b' Hb'. apply m_used in Hb'. destruct Hb' as [b [Hb ->]]. cbn. apply m_full_opt. exact (H b Hb).
Qed.
Lemma m_named : well_named fs -> well_named fs'.
Proof.
  assert (T : top_labels fs' = top_labels fs) by (unfold top_labels; cbn; rewrite !map_map; reflexivity).
  intros [A B C D E F]. constructor.
  - rewrite T. exact A.
  - rewrite T. intros b' l Hb'. apply m_used in Hb'. destruct Hb' as [b [Hb ->]]. exact (B b l Hb).
  - intros b1 b2 H1 H2 NE. apply m_used in H1. apply m_used in H2. destruct H1 as [a1 [U1 ->]]. destruct H2 as [a2 [U2 ->]]. apply (C a1 a2 U1 U2). intros Z. apply NE. rewrite Z. reflexivity.
  - intros e' He'. cbn in He'. apply in_map_iff in He'. destruct He' as [e [<- He]]. exact (D e He).
  - intros c' Hc'. destruct (m_in _ Hc') as [c [Hc ->]]. exact (E c Hc).
  - intros c' Hc'. destruct (m_in _ Hc') as [c [Hc ->]]. destruct (F c Hc) as [F1 F2]. rewrite m_flows, map_map. split; [exact F1|]. intros f' l Hf'. apply in_map_iff in Hf'. destruct Hf' as [f [<- Hf]]. exact (F2 f l Hf).
Qed.
(** Both systems are accepted, and their problems are equivalent. *)
Lemma m_all : forall ord, (forall l, Permutation (ord l) l) -> well_named fs -> valid_data fs idx -> sensible cf fs idx ->
  exists pm pm', build cf ord fs idx = Ok pm /\ build cf ord fs' idx' = Ok pm' /\ equivalent cf fs idx pm fs' idx' pm'.
Proof.
  intros ord PO WN V SE. destruct (C70_accepted_partial cf ord fs idx PO WN V) as [pm B]. destruct (C70_accepted_partial cf ord fs' idx' PO (m_named WN) (m_valid V)) as [pm' B'].
  exists pm, pm'. split; [exact B|]. split; [exact B'|]. exact (C78_same_data _ _ _ _ _ _ _ _ _ PO PO B B' SE (m_sensible SE) m_same).
Qed.
End Facts.

(** ** The time axis is moved *)
Lemma re_entry_id : forall {K} (l : list (K * param)), map (re_entry (fun p => p)) l = l.
Proof. intros K l. induction l as [|[k p] l IH]; [reflexivity|]. cbn [map]. rewrite IH. reflexivity. Qed.
Lemma opt_id : forall {A} (f : A -> A) o, (forall a, f a = a) -> option_map f o = o. Proof. intros A f [a|] H; cbn; [rewrite H|]; reflexivity. Qed.
Lemma map_same : forall {A} (f : A -> A) l, (forall a, f a = a) -> map f l = l. Proof. intros A f l H. induction l as [|a l IH]; cbn; [reflexivity|rewrite H, IH; reflexivity]. Qed.
Lemma re_values_id : forall v, re_values (fun p => p) v = v. Proof. intros [|p|l]; cbn; [reflexivity|reflexivity|rewrite re_entry_id; reflexivity]. Qed.
Lemma re_onoff_id : forall o, re_onoff (fun p => p) o = o. Proof. intros [a b c d e f g h i j]. unfold re_onoff. cbn. rewrite !re_values_id, !opt_id by reflexivity. reflexivity. Qed.
Lemma re_flow_id : forall f, re_flow (fun p => p) f = f.
Proof. intros [i l [bi bl bp] s pr a b v o q1 q2 q3 q4 pv]. unfold re_flow, re_bus. cbn. rewrite re_values_id, !(opt_id (fun p => p)) by reflexivity. rewrite (opt_id _ o re_onoff_id). reflexivity. Qed.
Lemma re_kind_id : forall k, re_kind (fun p => p) (fun p => p) k = k.
Proof.
  intros [|eqs|segs|s|rel abs]; cbn.
  - reflexivity.
  - rewrite map_same; [reflexivity|]. intros l. apply re_entry_id.
  - rewrite map_same; [reflexivity|]. intros [i l]. cbn. rewrite map_same; [reflexivity|]. intros [a b]. reflexivity.
  - destruct s. reflexivity.
  - rewrite !opt_id by reflexivity. reflexivity.
Qed.
Lemma re_comp_id : forall c, re_comp (fun p => p) (fun p => p) c = c.
Proof. intros [l i o oo p k]. unfold re_comp. cbn. rewrite re_kind_id, !(map_same _ _ re_flow_id), (opt_id _ oo re_onoff_id). reflexivity. Qed.
Lemma re_effect_id : forall e, re_effect (fun p => p) e = e.
Proof. intros [a b c d e f g h i j k l m o]. unfold re_effect. cbn. rewrite re_entry_id, !opt_id by reflexivity. reflexivity. Qed.
Lemma shifted_eq : forall d fs, shifted d fs = remapped (fun p => p) (fun p => p) (map (fun q => q + d) (fs_times fs)) (fs_end fs + d) fs.
Proof. intros d fs. unfold shifted, remapped. rewrite (map_same _ _ re_effect_id), (map_same _ _ re_comp_id). reflexivity. Qed.
Lemma stamp_shifted : forall d fs i, (i <= length (fs_times fs))%nat -> stamp (shifted d fs) i == stamp fs i + d.
Proof.
  intros d fs i Hi. unfold stamp. cbn. replace (map (fun q => q + d) (fs_times fs) ++ [fs_end fs + d]) with (map (fun q => q + d) (fs_times fs ++ [fs_end fs])) by (rewrite map_app; reflexivity).
  rewrite (nth_indep _ 0 (0 + d)) by (rewrite map_length, app_length; cbn; lia). rewrite (map_nth (fun q => q + d)). reflexivity.
Qed.
Lemma selected_in : forall fs idx t, valid_data fs idx -> (t < steps fs idx)%nat -> (selected idx t < length (fs_times fs))%nat.
Proof. intros fs [l|] t V Ht; [|exact Ht]. apply (vd_chosen _ _ V l _ eq_refl). cbn in *. apply nth_In. exact Ht. Qed.
Lemma hours_shifted : forall d fs idx t, valid_data fs idx -> (t < steps fs idx)%nat -> hours (shifted d fs) idx t == hours fs idx t.
Proof.
  intros d fs idx t V Ht. unfold hours. assert (E : steps (shifted d fs) idx = steps fs idx) by (unfold steps; cbn; rewrite map_length; reflexivity). rewrite E.
  assert (A := selected_in fs idx t V Ht). destruct (Nat.ltb_spec (S t) (steps fs idx)) as [L|L]; rewrite !stamp_shifted; try ring; try lia.
  assert (B := selected_in fs idx (S t) V L). lia.
Qed.

Theorem C79_shift : forall cf ord d fs idx, (forall l, Permutation (ord l) l) -> well_named fs -> valid_data fs idx -> sensible cf fs idx ->
  exists pm pm', build cf ord fs idx = Ok pm /\ build cf ord (shifted d fs) idx = Ok pm' /\ equivalent cf fs idx pm (shifted d fs) idx pm'.
Proof.
  intros cf ord d fs idx PO WN V SE. assert (LT : length (fs_times (shifted d fs)) = length (fs_times fs)) by (cbn; apply map_length).
  assert (ST : steps (shifted d fs) idx = steps fs idx) by (unfold steps; rewrite LT; reflexivity).
  assert (HR := fun t => hours_shifted d fs idx t V). assert (N1 : (0 < steps fs idx)%nat) by (pose proof (vd_steps _ _ V); lia).
  revert LT ST HR. rewrite shifted_eq. intros LT ST HR. refine (m_all cf (fun p => p) (fun p => p) fs idx idx _ _ N1 ST HR _ _ _ _ _ _ ord PO WN V SE).
  - intros p t Ht. reflexivity.
  - intros c s Hc K. split; intros t Ht; reflexivity.
  - intros p H. unfold full_data in *. rewrite LT. exact H.
  - intros p q _ H. exact H.
  - intros p H. unfold charge_data in *. rewrite LT. exact H.
  - intros l i E Hi. rewrite map_length. exact (vd_chosen _ _ V l i E Hi).
Qed.
Print Assumptions C79_shift.
(** A system with gaps in the chosen steps, moved by three days. *)
Example C79_shift_applies : exists pm pm' y, build default_config id_ord fs1 idx1 = Ok pm /\ build default_config id_ord (shifted 72 fs1) idx1 = Ok pm'
  /\ feasible pm x1 /\ feasible pm' y /\ same_plan default_config (shifted 72 fs1) idx1 x1 y /\ objective_value pm' y == objective_value pm x1.
Proof.
  destruct C70_planned_applies as [WN [V SE]]. destruct (C79_shift default_config id_ord 72 fs1 idx1 (fun l => Permutation_refl l) WN V SE) as [pm [pm' [B [B' [E _]]]]].
  destruct x1_feasible as [pm1 [B1 F]]. rewrite B in B1. inversion B1. subst pm1. destruct (E x1 F) as [y [Fy [S O]]]. exists pm, pm', y. auto 7.
Qed.

(** ** Chosen steps *)
Lemma cut_pdata : forall ix p, pdata (cut ix p) = match pdata p with NS q => NS q | NV l => NV (map (fun i => nth i l (hd 0 l)) ix) end.
Proof. intros ix p. unfold cut. destruct (pdata p) eqn:E; [exact E|]. destruct p; reflexivity. Qed.
Lemma nth_map_ : forall {A B} (f : A -> B) l i d e, (i < length l)%nat -> nth i (map f l) e = f (nth i l d).
Proof. intros A B f l i d e H. rewrite (nth_indep _ e (f d)) by (rewrite map_length; exact H). apply map_nth. Qed.
Lemma cut_agree : forall ix p, agree (Some ix) None (length ix) p (cut ix p).
Proof.
  intros ix p t Ht. unfold value. rewrite cut_pdata. destruct (pdata p) as [q|l]; [reflexivity|]. change (selected None t) with t.
  rewrite (nth_map_ _ _ _ 0%nat) by exact Ht. reflexivity.
Qed.
Lemma last_nth : forall (l : list nat) d, List.last l d = nth (length l - 1) l d.
Proof.
  intros l d. induction l as [|a l IH]; [reflexivity|]. destruct l as [|b l]; [reflexivity|]. change (List.last (a :: b :: l) d) with (List.last (b :: l) d). rewrite IH.
  replace (length (a :: b :: l) - 1)%nat with (S (length (b :: l) - 1)) by (cbn; lia). reflexivity.
Qed.
Lemma window_stamp : forall ix fs i, (i <= length ix)%nat -> stamp (window ix fs) i = stamp fs (if Nat.ltb i (length ix) then nth i ix 0%nat else S (List.last ix 0%nat)).
Proof.
  intros ix fs i Hi. unfold stamp at 1. cbn [window remapped fs_times fs_end]. destruct (Nat.ltb_spec i (length ix)) as [L|L].
  - rewrite app_nth1 by (rewrite map_length; exact L). apply nth_map_. exact L.
  - rewrite app_nth2 by (rewrite map_length; exact L). rewrite map_length. replace (i - length ix)%nat with 0%nat by lia. reflexivity.
Qed.
Lemma window_steps : forall ix fs, steps (window ix fs) None = steps fs (Some ix). Proof. intros ix fs. cbn. apply map_length. Qed.
Lemma window_hours : forall ix fs t, (t < length ix)%nat -> hours (window ix fs) None t == hours fs (Some ix) t.
Proof.
  intros ix fs t Ht. unfold hours. rewrite window_steps. cbn [steps selected]. rewrite !window_stamp by (destruct (Nat.ltb_spec (S t) (length ix)); lia).
  replace (Nat.ltb t (length ix)) with true by (symmetry; apply Nat.ltb_lt; exact Ht). destruct (Nat.ltb_spec (S t) (length ix)) as [L|L].
  - replace (Nat.ltb (S t) (length ix)) with true by (symmetry; apply Nat.ltb_lt; exact L). reflexivity.
  - replace (Nat.ltb (S t) (length ix)) with false by (symmetry; apply Nat.ltb_ge; exact L). rewrite last_nth. replace (length ix - 1)%nat with t by lia. reflexivity.
Qed.

Theorem C79_window_partial : forall cf ord fs ix, (forall l, Permutation (ord l) l) -> well_named fs -> valid_data fs (Some ix) -> sensible cf fs (Some ix) ->
  exists pm pm', build cf ord fs (Some ix) = Ok pm /\ build cf ord (window ix fs) None = Ok pm' /\ equivalent cf fs (Some ix) pm (window ix fs) None pm'.
Proof.
  intros cf ord fs ix PO WN V SE. assert (N1 : (0 < steps fs (Some ix))%nat) by (pose proof (vd_steps _ _ V); lia).
  assert (CN : forall p, charge_data fs (Some ix) p -> exists q, pdata p = NS q) by (intros p [H|[H _]]; [exact H|discriminate H]).
  assert (CL : forall p, (exists q, pdata p = NS q) -> cut_level ix p = p) by (intros p [q E]; unfold cut_level, cut; rewrite E; reflexivity).
  refine (m_all cf (cut ix) (cut_level ix) fs (Some ix) None _ _ N1 (window_steps ix fs) (window_hours ix fs) (cut_agree ix) _ _ _ _ _ ord PO WN V SE).
  - intros c s Hc K. pose proof (vc_kind _ _ _ (vd_comps _ _ V c Hc)) as D. unfold valid_kind in D. rewrite K in D. destruct D as [D _]. destruct (vs_limits _ _ _ D) as [D1 D2].
    rewrite !CL by (apply CN; assumption). destruct (CN _ D1) as [q1 E1]. destruct (CN _ D2) as [q2 E2]. split; intros t Ht; unfold value; rewrite ?E1, ?E2; reflexivity.
  - intros p H. unfold full_data in *. rewrite cut_pdata. destruct (pdata p) as [q|l]; [exact I|]. cbn. rewrite !map_length. reflexivity.
  - intros p q H Hq. unfold full_data in H. rewrite cut_pdata in Hq. destruct (pdata p) as [q0|l]; [exact Hq|]. cbn in Hq |- *. apply in_map_iff in Hq. destruct Hq as [i [<- Hi]]. apply nth_In. rewrite H. exact (vd_chosen _ _ V ix i eq_refl Hi).
  - intros p H. rewrite CL by (apply CN; exact H). left. exact (CN p H).
  - intros l i E. discriminate E.
Qed.
Print Assumptions C79_window_partial.
(** Converters with segments, a line with losses, steps of different lengths. *)
Example C79_window_applies : exists pm pm' y, build default_config id_ord fs1 (Some [1; 2; 3]%nat) = Ok pm /\ build default_config id_ord (window [1; 2; 3]%nat fs1) None = Ok pm'
  /\ feasible pm x1 /\ feasible pm' y /\ same_plan default_config (window [1; 2; 3]%nat fs1) None x1 y /\ objective_value pm' y == objective_value pm x1.
Proof.
  destruct C70_planned_applies as [WN [V SE]]. destruct (C79_window_partial default_config id_ord fs1 [1; 2; 3]%nat (fun l => Permutation_refl l) WN V SE) as [pm [pm' [B [B' [E _]]]]].
  destruct x1_feasible as [pm1 [B1 F]]. unfold idx1 in B1. rewrite B in B1. inversion B1. subst pm1. destruct (E x1 F) as [y [Fy [S O]]]. exists pm, pm', y. auto 7.
Qed.

(** In general choosing steps does not work: a storage with limits of its charge state that change over time is accepted when
    all steps are calculated, and so is the system cut down by hand; with chosen steps the calculation fails. *)
Definition C79_window_full : Prop := forall cf ord fs ix pm pm', (forall l, Permutation (ord l) l) -> well_named fs -> valid_data fs None -> valid_data (window ix fs) None ->
  (forall i, In i ix -> (i < length (fs_times fs))%nat) -> build cf ord fs None = Ok pm -> build cf ord (window ix fs) None = Ok pm' ->
  exists pm'', build cf ord fs (Some ix) = Ok pm''.
Definition fs_levels : flow_system := mkFS [0; 1; 2] 3 (NS 1) [costs] [Library.source "Src" (fl 301 "Q" heat 10);
  storage_ "Tank" (fl 302 "ch" heat 10) (fl 303 "dis" heat 10) (mkStorage (CapNum 20) (na [0; 0; 1 # 10; 1 # 10]) (n1 1) (ICNum 0) None None (n1 1) (n1 1) (n1 0)) true].
Theorem C79_refuted : ~ C79_window_full.
Proof.
  assert (U : forall b, used_bus fs_levels b -> In b [heat]) by all_buses.
  assert (U' : forall b, used_bus (window [1; 2]%nat fs_levels) b -> In b [heat]) by all_buses.
  assert (P : forall l : list nat, Permutation (id_ord l) l) by (intros l; apply Permutation_refl).
  assert (WN : well_named fs_levels) by (apply (named_b_ok _ _ U); vm_compute; reflexivity).
  assert (WN' : well_named (window [1; 2]%nat fs_levels)) by (apply (named_b_ok _ _ U'); vm_compute; reflexivity).
  assert (V : valid_data fs_levels None) by (apply (valid_b_ok _ _ _ U); vm_compute; reflexivity).
  assert (V' : valid_data (window [1; 2]%nat fs_levels) None) by (apply (valid_b_ok _ _ _ U'); vm_compute; reflexivity).
  intros H. destruct (C70_accepted_partial default_config id_ord _ _ (fun l => Permutation_refl l) WN V) as [pm B]. destruct (C70_accepted_partial default_config id_ord _ _ (fun l => Permutation_refl l) WN' V') as [pm' B'].
  destruct (H default_config id_ord fs_levels [1; 2]%nat pm pm' (fun l => Permutation_refl l) WN V V') as [pm'' B'']; [intros i [<-|[<-|[]]]; cbn; lia|exact B|exact B'|].
  assert (E : match build default_config id_ord fs_levels (Some [1; 2]%nat) with Ok _ => False | Err _ => True end) by (vm_compute; exact I). rewrite B'' in E. exact E.
Qed.
Print Assumptions C79_refuted.

(** ** A case for C78: all numbers written as arrays, all arrays as TimeSeriesData with a weight. *)
Definition spell (n : nat) (p : param) : param := match pdata p with NS q => PNum (NV (repeat q n)) | NV l => PTsd (NV l) None (Some (1 # 2)) end.
Definition fs_spelled : flow_system := remapped (spell 3) (spell 4) [0; 1; 2] 3 fs0.
Lemma spell_agree : forall n p t, (t < n)%nat -> value None (spell n p) t == value None p t.
Proof.
  intros n p t Ht. unfold value, spell. destruct (pdata p) as [q|l]; cbn [pdata]; [|reflexivity]. rewrite (nth_indep _ _ q) by (rewrite repeat_length; exact Ht). rewrite nth_repeat. reflexivity.
Qed.
Example C78_applies : same_data fs0 None fs_spelled None /\ exists pm pm' y, build default_config id_ord fs0 None = Ok pm /\ build default_config id_ord fs_spelled None = Ok pm'
  /\ feasible pm x0 /\ feasible pm' y /\ same_plan default_config fs_spelled None x0 y /\ objective_value pm' y == objective_value pm x0.
Proof.
  assert (W : same_data fs0 None fs_spelled None).
  { apply m_same; [reflexivity|intros t Ht; reflexivity|intros p t Ht; apply spell_agree; exact Ht|].
    intros c s Hc K. split; intros t Ht; apply spell_agree; change (steps fs0 None) with 3%nat in Ht; lia. }
  split; [exact W|]. destruct x0_feasible as [pm [B F]]. assert (N1 : (0 < steps fs0 None)%nat) by (cbn; lia).
  assert (SE : sensible default_config fs_spelled None).
  { refine (m_sensible default_config (spell 3) (spell 4) fs0 None None [0; 1; 2] 3 N1 _ _ _ _ _ sensible_0); [reflexivity|intros t Ht; reflexivity|intros p t Ht; apply spell_agree; exact Ht| |].
    - intros c s Hc K. split; intros t Ht; apply spell_agree; change (steps fs0 None) with 3%nat in Ht; lia.
    - intros p H. unfold full_data, spell in *. destruct (pdata p) as [q|l]; [reflexivity|exact H]. }
  assert (B' : exists pm', build default_config id_ord fs_spelled None = Ok pm').
  { destruct (build default_config id_ord fs_spelled None) as [pm'|] eqn:E; [eauto|]. assert (X : match build default_config id_ord fs_spelled None with Ok _ => True | Err _ => False end) by (vm_compute; exact I). rewrite E in X. contradiction. }
  destruct B' as [pm' B']. destruct (C78_same_data _ _ _ _ _ _ _ _ _ (fun l => Permutation_refl l) (fun l => Permutation_refl l) B B' sensible_0 SE W) as [K _].
  destruct (K x0 F) as [y [Fy [S O]]]. exists pm, pm', y. auto 7.
Qed.
