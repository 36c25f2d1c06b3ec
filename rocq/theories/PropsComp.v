(** C01-C08, C11 (storages): what every feasible point of the generated program says about buses, storages, converters
    and transmissions. *)
From Verif Require Import Base BaseFacts MathModel Spec MathFacts Structure StructureFacts Params Features Elements System Library SysSpec
  CtxFacts ReadTools InvestFacts OnOffFacts FlowFacts NavFacts CompFacts SegFacts BusFacts Example ExamplePoints PropsFlow.

(** ** C01 *)
Theorem C01_bus_balance : forall cf ord fs idx pm x b t,
  build cf ord fs idx = Ok pm -> feasible pm x -> (forall l, Permutation (ord l) l) ->
  distinct_buses fs -> used_bus fs b -> (t < steps fs idx)%nat ->
  delivered fs x b t + excess x b "excess_input" t == taken fs x b t + excess x b "excess_output" t
  /\ 0 <= excess x b "excess_input" t /\ 0 <= excess x b "excess_output" t.
Proof.
  intros cf ord fs idx pm x b t H F PO DB UB Ht. destruct (build_parts _ _ _ _ _ H) as [cx [cos [bos [em [obj P]]]]].
  eapply bus_laws; eauto. apply buses_complete; auto. apply (sy_ids _ _ _ _ _ _ _ _ _ _ P).
Qed.
Print Assumptions C01_bus_balance.

Lemma id_ord_perm : forall l, Permutation (id_ord l) l.
Proof. intros. apply Permutation_refl. Qed.

Definition bus_list (fs : flow_system) : list bus := flat_map (fun c => map f_bus (cp_flows c)) (fs_comps fs).
Lemma used_bus_list : forall fs b, used_bus fs b <-> In b (bus_list fs).
Proof.
  intros fs b. unfold used_bus, bus_list. rewrite in_flat_map. split.
  - intros [c [f [Hc [Hf E]]]]. exists c. split; auto. apply in_map_iff. eauto.
  - intros [c [Hc H]]. apply in_map_iff in H. destruct H as [f [E Hf]]. eauto.
Qed.
Lemma distinct_buses_check : forall fs l, bus_list fs = l ->
  (forall b b', In b l -> In b' l -> b_id b = b_id b' -> b = b') -> (forall b b', In b l -> In b' l -> b_lab b = b_lab b' -> b_id b = b_id b') ->
  distinct_buses fs.
Proof.
  intros fs l <- H1 H2. split; intros b b' U U' E; apply used_bus_list in U; apply used_bus_list in U'; auto.
Qed.
Ltac buses := eapply distinct_buses_check; [cbv; reflexivity| |]; intros b b' Hb Hb' E; cbn [In] in Hb, Hb';
  repeat match goal with H : _ \/ _ |- _ => destruct H as [<-|H] end; try contradiction; first [reflexivity|discriminate E].

(** Excess at the heat bus of the second system. *)
Example C01_applies : forall t, (t < 3)%nat ->
  delivered fs1 x1 heat t + excess x1 heat "excess_input" t == taken fs1 x1 heat t + excess x1 heat "excess_output" t.
Proof.
  intros t Ht. destruct x1_feasible as [pm [B F]].
  assert (UB : used_bus fs1 heat) by (apply used_bus_list; simpl; tauto).
  assert (DB : distinct_buses fs1) by buses.
  exact (proj1 (C01_bus_balance _ _ _ _ _ _ _ _ B F id_ord_perm DB UB Ht)).
Qed.
Example C01_values : delivered fs1 x1 heat 0 == 15 /\ taken fs1 x1 heat 0 == 30 /\ excess x1 heat "excess_input" 0 == 15.
Proof. repeat split; vm_compute; reflexivity. Qed.

(** Two buses with the same label: the balance of one of them is not part of the program. *)
Theorem C01_same_label : exists pm, build default_config id_ord fs_twin None = Ok pm /\ feasible pm x_twin
  /\ used_bus fs_twin twin_a /\ b_penalty twin_a = None /\ delivered fs_twin x_twin twin_a 0 == 1 /\ taken fs_twin x_twin twin_a 0 == 0.
Proof.
  destruct x_twin_feasible as [pm [B F]]. exists pm. split; [exact B|]. split; [exact F|].
  split; [apply used_bus_list; simpl; tauto|]. repeat split; vm_compute; reflexivity.
Qed.
Print Assumptions C01_same_label.

(** ** C02 *)
Lemma storage_laws : forall cf ord fs idx pm x label ch dis s prevent,
  build cf ord fs idx = Ok pm -> feasible pm x -> In (storage_ label ch dis s prevent) (fs_comps fs) ->
  exists cx, ctx_for cf fs idx cx /\
    storage_rows x cx label s (rate_of x (storage_ label ch dis s prevent) ch) (rate_of x (storage_ label ch dis s prevent) dis).
Proof.
  intros cf ord fs idx pm x label ch dis s prevent H F Hc.
  destruct (own_laws _ _ _ _ _ _ _ H F Hc) as [cx [tr [fos [on [so [CF [_ [FF [OM [S1 [S2 [S3 _]]]]]]]]]]]].
  exists cx. split; auto. unfold own_model in OM. simpl in OM. bnd OM a Ea. bnd OM b Eb.
  simpl in FF. inversion FF as [|? o1 ? l1 F1 FF1]; subst. inversion FF1 as [|? o2 ? l2 F2 FF2]; subst. simpl in Ea, Eb.
  apply Ok_inj in Ea. apply Ok_inj in Eb. subst a b.
  pose proof (storage_spec x cx tr label s o1 o2 so (cf_ok _ _ _ _ CF) (fs_len _ _ _ _ F1) (fs_len _ _ _ _ F2) OM S1 S2 S3) as R.
  rewrite (fs_label _ _ _ _ F1), (fs_label _ _ _ _ F2) in R. exact R.
Qed.

Lemma dt_hours : forall cf fs idx cx t, ctx_for cf fs idx cx -> (t < steps fs idx)%nat -> dt cx t == hours fs idx t.
Proof. intros cf fs idx cx t C Ht. rewrite (cf_dt _ _ _ _ C t); [reflexivity|exact Ht]. Qed.

Lemma kept_step : forall idx fs s i t, (i <= t)%nat ->
  kept idx fs s i (S t) == kept idx fs s i t * (1 - value idx (st_loss s) t * hours fs idx t).
Proof.
  intros idx fs s i t L. unfold kept. replace (S t - i)%nat with (S (t - i)) by lia. rewrite seq_S, map_app.
  replace (i + (t - i))%nat with t by lia. generalize (map (fun j => 1 - value idx (st_loss s) j * hours fs idx j) (seq i (t - i))).
  induction l as [|a l IH]; simpl in *; [lra|]. rewrite IH. lra.
Qed.
Lemma kept_self : forall idx fs s t, kept idx fs s t t == 1.
Proof. intros. unfold kept. rewrite Nat.sub_diag. reflexivity. Qed.
Lemma Qsum_scale : forall {A} (f : A -> Q) g k l, (forall a, In a l -> g a == f a * k) -> Qsum (map g l) == Qsum (map f l) * k.
Proof.
  induction l as [|a l IH]; intros H; [reflexivity|]. cbn [map]. rewrite !Qsum_cons, IH, (H a (or_introl eq_refl)); [lra|].
  intros b Hb. apply H. simpl; auto.
Qed.

Theorem C02_storage_balance : forall cf ord fs idx pm x label ch dis s prevent,
  let c := storage_ label ch dis s prevent in
  build cf ord fs idx = Ok pm -> feasible pm x -> In c (fs_comps fs) ->
  (forall t, (t < steps fs idx)%nat ->
     ~ value idx (st_eta_d s) t == 0
     /\ charge x c (S t) == charge x c t * (1 - value idx (st_loss s) t * hours fs idx t)
          + rate_of x c ch t * value idx (st_eta_c s) t * hours fs idx t
          - rate_of x c dis t / value idx (st_eta_d s) t * hours fs idx t
     /\ x (vlabel label "netto_discharge") t == rate_of x c dis t - rate_of x c ch t)
  /\ (forall t, (t <= steps fs idx)%nat ->
        charge x c t == kept idx fs s 0 t * charge x c 0
                        + Qsum (map (fun i => net_stored idx fs x c s ch dis i * kept idx fs s (S i) t) (seq 0 t))).
Proof.
  intros cf ord fs idx pm x label ch dis s prevent c H F Hc.
  destruct (storage_laws _ _ _ _ _ _ _ _ _ _ _ H F Hc) as [cx [CF R]]. fold c in R.
  assert (ST : forall t, (t < steps fs idx)%nat ->
     ~ value idx (st_eta_d s) t == 0
     /\ charge x c (S t) == charge x c t * (1 - value idx (st_loss s) t * hours fs idx t)
          + rate_of x c ch t * value idx (st_eta_c s) t * hours fs idx t
          - rate_of x c dis t / value idx (st_eta_d s) t * hours fs idx t
     /\ x (vlabel label "netto_discharge") t == rate_of x c dis t - rate_of x c ch t).
  { intros t Ht. assert (Ht' : (t < cx_n cx)%nat) by (rewrite (cf_n _ _ _ _ CF); auto).
    destruct (sr_balance _ _ _ _ _ _ R t Ht') as [Z B]. pose proof (sr_netto _ _ _ _ _ _ R t Ht') as N.
    rewrite (cf_idx _ _ _ _ CF) in *. split; [exact Z|]. split; [|exact N].
    unfold charge. simpl. rewrite B. rewrite (dt_hours _ _ _ _ _ CF Ht). reflexivity. }
  split; [exact ST|]. induction t as [|t IH]; intros Ht.
  - simpl. rewrite kept_self. unfold Qsum; simpl. lra.
  - assert (Ht' : (t < steps fs idx)%nat) by lia. destruct (ST t Ht') as [_ [B _]]. rewrite B, IH by lia.
    rewrite seq_S, map_app. rewrite Qsum_app. cbn [map]. rewrite Qsum_cons. change (0 + t)%nat with t.
    rewrite (kept_step idx fs s 0 t) by lia.
    rewrite (Qsum_scale (fun i => net_stored idx fs x c s ch dis i * kept idx fs s (S i) t)
               (fun i => net_stored idx fs x c s ch dis i * kept idx fs s (S i) (S t)) (1 - value idx (st_loss s) t * hours fs idx t)).
    + rewrite kept_self. unfold net_stored. unfold Qsum; simpl. ring.
    + intros i Hi. apply in_seq in Hi. rewrite (kept_step idx fs s (S i) t) by lia. ring.
Qed.
Print Assumptions C02_storage_balance.

Example C02_applies : forall t, (t <= 3)%nat ->
  charge x3 bat t == kept None fs3 bat_s 0 t * charge x3 bat 0
                     + Qsum (map (fun i => net_stored None fs3 x3 bat bat_s bat_ch bat_dis i * kept None fs3 bat_s (S i) t) (seq 0 t)).
Proof.
  intros t Ht. destruct x3_feasible as [pm [B F]]. assert (Hc : In bat (fs_comps fs3)) by (cbn [fs3 fs_comps In]; tauto).
  exact (proj2 (C02_storage_balance _ _ _ _ _ _ "Bat" bat_ch bat_dis bat_s true B F Hc) t Ht).
Qed.
Example C02_values : charge x3 bat 0 == 5 /\ Qlt 0 (rate_of x3 bat bat_ch 0) /\ Qlt 5 (charge x3 bat 1) /\ charge x3 bat 3 == 6
  /\ hours fs3 None 1 == 2.
Proof. repeat split; vm_compute; reflexivity. Qed.

(** ** C03 *)
Theorem C03_storage_levels : forall cf ord fs idx pm x label ch dis s prevent t,
  let c := storage_ label ch dis s prevent in
  build cf ord fs idx = Ok pm -> feasible pm x -> In c (fs_comps fs) -> (t <= steps fs idx)%nat ->
  value idx (st_relmin s) t * capacity x c s <= charge x c t /\ charge x c t <= value idx (st_relmax s) t * capacity x c s.
Proof.
  intros cf ord fs idx pm x label ch dis s prevent t c H F Hc Ht.
  destruct (storage_laws _ _ _ _ _ _ _ _ _ _ _ H F Hc) as [cx [CF R]]. fold c in R.
  assert (Ht' : (t <= cx_n cx)%nat) by (rewrite (cf_n _ _ _ _ CF); auto). unfold capacity, charge. simpl.
  destruct (st_cap s) as [q|iv] eqn:E.
  - pose proof (sr_bounds _ _ _ _ _ _ R t Ht') as B. rewrite E, (cf_idx _ _ _ _ CF) in B. exact B.
  - destruct (sr_inv _ _ _ _ _ _ R iv E) as [_ [_ B]]. specialize (B t Ht'). rewrite (cf_idx _ _ _ _ CF) in B. exact B.
Qed.
Print Assumptions C03_storage_levels.

(** A given capacity with minimum levels that change over time. *)
Example C03_applies : value None (st_relmin bat_s) 3 * capacity x3 bat bat_s <= charge x3 bat 3.
Proof.
  destruct x3_feasible as [pm [B F]]. assert (Hc : In bat (fs_comps fs3)) by (cbn [fs3 fs_comps In]; tauto).
  assert (Ht : (3 <= steps fs3 None)%nat) by (simpl; lia).
  exact (proj1 (C03_storage_levels _ _ _ _ _ _ "Bat" bat_ch bat_dis bat_s true 3 B F Hc Ht)).
Qed.
Example C03_values : value None (st_relmin bat_s) 3 * capacity x3 bat bat_s == 4 /\ charge x3 bat 3 == 6.
Proof. repeat split; vm_compute; reflexivity. Qed.
(** An invested capacity. *)
Definition sto_ch : flow := set_size_ (SzNum (Some 50)) (flow0 20 "ch" heat).
Definition sto_dis : flow := set_size_ (SzNum (Some 60)) (flow0 21 "dis" heat).
Definition sto_iv : invest := mkInvest None 0 (Some 100) true EVNone (EVOne (n1 1)) None EVNone.
Definition sto_s : storage := mkStorage (CapInv sto_iv) (n1 0) (n1 (9 # 10)) (ICNum 0) (Some 1) (Some 80) (n1 (9 # 10)) (n1 (8 # 10)) (n1 (1 # 100)).
Example sto_built : sto = storage_ "Storage" sto_ch sto_dis sto_s true.
Proof. reflexivity. Qed.
Example C03_applies_invest : charge x0 sto 3 <= value None (st_relmax sto_s) 3 * capacity x0 sto sto_s.
Proof.
  destruct x0_feasible as [pm [B F]]. assert (Hc : In (storage_ "Storage" sto_ch sto_dis sto_s true) (fs_comps fs0)) by (cbn [fs0 fs_comps In]; rewrite <- sto_built; tauto).
  assert (Ht : (3 <= steps fs0 None)%nat) by (simpl; lia).
  exact (proj2 (C03_storage_levels _ _ _ _ _ _ _ _ _ _ _ 3 B F Hc Ht)).
Qed.

(** C11 for storages. *)
Theorem C11_storage_size : forall cf ord fs idx pm x label ch dis s prevent iv,
  let c := storage_ label ch dis s prevent in
  build cf ord fs idx = Ok pm -> feasible pm x -> In c (fs_comps fs) -> st_cap s = CapInv iv ->
  allowed_size cf iv (x (inv label "size") 0%nat) (x (inv label "isInvested") 0%nat).
Proof.
  intros cf ord fs idx pm x label ch dis s prevent iv c H F Hc E.
  destruct (storage_laws _ _ _ _ _ _ _ _ _ _ _ H F Hc) as [cx [CF R]]. fold c in R.
  destruct (sr_inv _ _ _ _ _ _ R iv E) as [A [B _]]. rewrite (max_range _ _ _ _ iv CF), ?(cf_eps_ _ _ _ _ CF) in *.
  apply allowed_size_ok; auto.
Qed.
Print Assumptions C11_storage_size.
Example C11_storage_applies : allowed_size default_config sto_iv (x0 "Storage__Investment_size" 0%nat) (x0 "Storage__Investment_isInvested" 0%nat).
Proof.
  destruct x0_feasible as [pm [B F]]. assert (Hc : In (storage_ "Storage" sto_ch sto_dis sto_s true) (fs_comps fs0)) by (cbn [fs0 fs_comps In]; rewrite <- sto_built; tauto).
  exact (C11_storage_size _ _ _ _ _ _ _ _ _ _ _ _ B F Hc eq_refl).
Qed.

(** ** C04 *)
Definition C04_full : Prop := forall cf ord fs idx pm x label ch dis s prevent,
  let c := storage_ label ch dis s prevent in
  build cf ord fs idx = Ok pm -> feasible pm x -> In c (fs_comps fs) ->
  (forall q, st_init s = ICNum q -> charge x c 0 == q)
  /\ (st_init s = ICLast -> charge x c (steps fs idx) == charge x c 0)
  /\ (forall q, st_fmax s = Some q -> charge x c (steps fs idx) <= q)
  /\ (forall q, st_fmin s = Some q -> q <= charge x c (steps fs idx)).

(** A storage with 'lastValueOfSim' that starts at 1 and ends at 2. *)
Theorem C04_refuted : ~ C04_full.
Proof.
  intros Full. destruct x_last_feasible as [pm [B F]].
  assert (Hc : In (cyc ICLast None None) (fs_comps (fs_cyc ICLast None None))) by (simpl; tauto).
  destruct (Full _ _ _ _ _ _ "Sto" cyc_ch cyc_dis (cyc_s ICLast None None) false B F Hc) as [_ [L _]]. specialize (L eq_refl). vm_compute in L. discriminate.
Qed.
Print Assumptions C04_refuted.
(** A storage without initial charge state, whose final charge state must be between 5 and 10 and is 2. *)
Theorem C04_final_bounds_refuted : ~ (forall cf ord fs idx pm x label ch dis s prevent q,
  build cf ord fs idx = Ok pm -> feasible pm x -> In (storage_ label ch dis s prevent) (fs_comps fs) ->
  st_fmin s = Some q -> q <= charge x (storage_ label ch dis s prevent) (steps fs idx)).
Proof.
  intros Full. destruct x_free_feasible as [pm [B F]].
  assert (Hc : In (cyc ICNone (Some 5) (Some 10)) (fs_comps (fs_cyc ICNone (Some 5) (Some 10)))) by (simpl; tauto).
  specialize (Full _ _ _ _ _ _ "Sto" cyc_ch cyc_dis (cyc_s ICNone (Some 5) (Some 10)) false 5 B F Hc eq_refl). vm_compute in Full. apply Full. reflexivity.
Qed.
Print Assumptions C04_final_bounds_refuted.

(** What does hold: the numeric initial value; the final limits when an initial value is given; with 'lastValueOfSim' the
    level before the last step (not after it) is the initial one. *)
Theorem C04_partial : forall cf ord fs idx pm x label ch dis s prevent,
  let c := storage_ label ch dis s prevent in
  build cf ord fs idx = Ok pm -> feasible pm x -> In c (fs_comps fs) ->
  (forall q, st_init s = ICNum q -> charge x c 0 == q)
  /\ (st_init s = ICLast -> charge x c (steps fs idx - 1) == charge x c 0)
  /\ (st_init s <> ICNone -> forall q, st_fmax s = Some q -> charge x c (steps fs idx) <= q)
  /\ (st_init s <> ICNone -> forall q, st_fmin s = Some q -> q <= charge x c (steps fs idx)).
Proof.
  intros cf ord fs idx pm x label ch dis s prevent c H F Hc.
  destruct (storage_laws _ _ _ _ _ _ _ _ _ _ _ H F Hc) as [cx [CF R]]. fold c in R.
  pose proof (sr_ends _ _ _ _ _ _ R) as E. rewrite (cf_n _ _ _ _ CF) in E. unfold charge. simpl.
  split; [intros q Q; rewrite Q in E; exact E|]. split; [intros Q; rewrite Q in E; symmetry; exact E|].
  rewrite <- (cf_n _ _ _ _ CF).
  split; intros NI q Q; [exact (sr_fmax _ _ _ _ _ _ R q NI Q)|exact (sr_fmin _ _ _ _ _ _ R q NI Q)].
Qed.
Print Assumptions C04_partial.
Example C04_applies : charge x3 bat 0 == 5 /\ 6 <= charge x3 bat 3 /\ charge x3 bat 3 <= 18.
Proof.
  destruct x3_feasible as [pm [B F]]. assert (Hc : In bat (fs_comps fs3)) by (cbn [fs3 fs_comps In]; tauto).
  destruct (C04_partial _ _ _ _ _ _ "Bat" bat_ch bat_dis bat_s true B F Hc) as [I [_ [M N]]]. split; [exact (I _ eq_refl)|].
  assert (NI : st_init bat_s <> ICNone) by discriminate. split; [exact (N NI _ eq_refl)|exact (M NI _ eq_refl)].
Qed.

(** ** C05 *)
Lemma comp_ids : forall cf ord fs idx pm c, build cf ord fs idx = Ok pm -> In c (fs_comps fs) -> NoDup (map f_id (cp_flows c)).
Proof.
  intros cf ord fs idx pm c H Hc. destruct (build_parts _ _ _ _ _ H) as [cx [cos [bos [em [obj P]]]]].
  pose proof (sy_ids _ _ _ _ _ _ _ _ _ _ P) as ND. unfold all_flows in ND.
  pose proof (NoDup_flat_map_part _ _ _ c ND Hc) as Y. cbv beta in Y. rewrite map_map in Y. exact Y.
Qed.

Lemma combine_seq : forall {A} (l : list A) i k a, nth_error l i = Some a -> In ((k + i)%nat, a) (combine (seq k (length l)) l).
Proof.
  induction l as [|e l IH]; intros [|i] k a E; simpl in *; try discriminate.
  - injection E as ->. left. rewrite Nat.add_0_r. reflexivity.
  - right. replace (k + S i)%nat with (S k + i)%nat by lia. apply IH. exact E.
Qed.

Theorem C05_conversion : forall cf ord fs idx pm x c eqs factors t,
  build cf ord fs idx = Ok pm -> feasible pm x -> (forall l, Permutation (ord l) l) -> In c (fs_comps fs) ->
  cp_kind c = Converter eqs -> In factors eqs -> (t < steps fs idx)%nat ->
  weighted idx x c factors (cp_in c) t == weighted idx x c factors (cp_out c) t.
Proof.
  intros cf ord fs idx pm x c eqs factors t H F PO Hc K Hf Ht.
  destruct (own_laws _ _ _ _ _ _ _ H F Hc) as [cx [tr [fos [on [so [CF [OR [FF [OM [S1 [S2 [S3 _]]]]]]]]]]]].
  assert (PO' : forall l, Permutation (cx_ord cx l) l) by (rewrite OR; exact PO). clear OR.
  unfold own_model in OM. rewrite K in OM. bnd OM k Ek. fin OM. simpl in S2. unfold converter_cons in Ek. bnd Ek u Eu.
  assert (HI : exists i, In (i, factors) (combine (seq 0 (length eqs)) eqs)).
  { destruct (In_nth_error _ _ Hf) as [i Ei]. exists i. exact (combine_seq _ _ 0%nat _ Ei). }
  destruct HI as [i HI]. destruct (mapM_In _ _ _ _ Ek HI) as [kc [E Hk]]. simpl in E.
  rewrite Forall_forall in S2. specialize (S2 kc Hk).
  assert (Ht' : (t < cx_n cx)%nat) by (rewrite (cf_n _ _ _ _ CF); auto).
  exact (conversion_spec cf fs idx cx x tr c fos i factors kc t CF PO' Ht' FF (comp_ids _ _ _ _ _ _ H Hc) E S2).
Qed.
Print Assumptions C05_conversion.

Example C05_applies : forall t, (t < 3)%nat ->
  weighted idx1 x1 chp [(50%nat, na [1 # 4; 1 # 5; 1 # 5; 1 # 4]); (52%nat, n1 1)] (cp_in chp) t
  == weighted idx1 x1 chp [(50%nat, na [1 # 4; 1 # 5; 1 # 5; 1 # 4]); (52%nat, n1 1)] (cp_out chp) t.
Proof.
  intros t Ht. destruct x1_feasible as [pm [B F]]. assert (Hc : In chp (fs_comps fs1)) by (cbn [fs1 fs_comps In]; tauto).
  exact (C05_conversion _ _ _ _ _ _ _ _ _ t B F id_ord_perm Hc eq_refl (or_intror (or_introl eq_refl)) Ht).
Qed.
Example C05_values :
  weighted idx1 x1 chp [(50%nat, na [1 # 4; 1 # 5; 1 # 5; 1 # 4]); (52%nat, n1 1)] (cp_in chp) 0 == 6.
Proof. vm_compute. reflexivity. Qed.

(** ** C06 *)
Lemma lc_kind : forall label ins outs oo factors c, linear_converter label ins outs oo factors [] = Ok c ->
  cp_label c = label /\ cp_in c = ins /\ cp_out c = outs /\ cp_kind c = Converter factors.
Proof.
  intros label ins outs oo factors c H. unfold linear_converter in H. destruct factors as [|d r]; [discriminate|].
  bnd H u Eu. bnd H v Ev. fin H. auto.
Qed.
Lemma factor_of_dict2 : forall k1 p1 k2 p2 f, k1 <> k2 ->
  factor_of (dict2 k1 p1 k2 p2) f = if Nat.eqb k1 (f_id f) then Some p1 else if Nat.eqb k2 (f_id f) then Some p2 else None.
Proof.
  intros k1 p1 k2 p2 f N. unfold dict2. apply Nat.eqb_neq in N. rewrite N. unfold factor_of. simpl.
  destruct (Nat.eqb k1 (f_id f)); [reflexivity|]. destruct (Nat.eqb k2 (f_id f)); reflexivity.
Qed.
Lemma value_one : forall idx t, value idx one t == 1.
Proof. reflexivity. Qed.
Lemma value_opp : forall idx d t, value idx (PNum (nmap Qopp d)) t == - value idx (PNum d) t.
Proof.
  intros idx [q|l] t; simpl; unfold value; simpl; [reflexivity|].
  destruct l as [|a l]; [destruct (selected idx t); reflexivity|]. cbn [hd map].
  change (- a :: map Qopp l) with (map Qopp (a :: l)). rewrite map_nth. reflexivity.
Qed.
Lemma map2_self : forall {A B C} (f : A -> B -> C) g l, map2 f l (map g l) = map (fun a => f a (g a)) l.
Proof. induction l as [|a l IH]; [reflexivity|]. cbn [map map2]. rewrite IH. reflexivity. Qed.
Lemma value_ratio : forall idx d r t, ndiv d (nmap (fun q => q - 1) d) = Ok r ->
  value idx (PNum r) t == value idx (PNum d) t / (value idx (PNum d) t - 1) /\ ~ value idx (PNum d) t - 1 == 0.
Proof.
  intros idx d r t H. unfold ndiv in H. destruct d as [q|l]; simpl in H.
  - destruct (Qeq_bool (q - 1) 0) eqn:E; [discriminate|]. apply Ok_inj in H. subst r. unfold value; simpl. split; [reflexivity|].
    apply Qeq_bool_neq. exact E.
  - destruct (existsb (fun y => Qeq_bool y 0) (map (fun q => q - 1) l)) eqn:E; [discriminate|]. rewrite map_length, Nat.eqb_refl in H.
    apply Ok_inj in H. subst r. rewrite map2_self. unfold value; simpl.
    destruct l as [|a l]; [destruct (selected idx t); (split; [reflexivity|intros Z; vm_compute in Z; discriminate])|].
    cbn [hd map]. change (a / (a - 1) :: map (fun a0 : Q => a0 / (a0 - 1)) l) with (map (fun a0 : Q => a0 / (a0 - 1)) (a :: l)).
    rewrite (map_nth (fun a0 : Q => a0 / (a0 - 1)) (a :: l) a). split; [reflexivity|]. intros Z.
    assert (X : existsb (fun y => Qeq_bool y 0) (map (fun q => q - 1) (a :: l)) = true); [|congruence].
    apply existsb_exists. exists (nth (selected idx t) (a :: l) a - 1). split; [|apply Qeq_bool_iff; exact Z].
    apply in_map_iff. eexists. split; [reflexivity|].
    destruct (nth_in_or_default (selected idx t) (a :: l) a) as [I|I]; [exact I|rewrite I; left; reflexivity].
Qed.

(** One input and one output named in an equation. *)
Lemma pair_law : forall cf ord fs idx pm x c eqs fi fo p q t,
  build cf ord fs idx = Ok pm -> feasible pm x -> (forall l, Permutation (ord l) l) -> In c (fs_comps fs) ->
  cp_kind c = Converter eqs -> In (dict2 (f_id fi) p (f_id fo) q) eqs -> In fi (cp_in c) -> In fo (cp_out c) -> (t < steps fs idx)%nat ->
  value idx p t * rate_of x c fi t == value idx q t * rate_of x c fo t.
Proof.
  intros cf ord fs idx pm x c eqs fi fo p q t H F PO Hc K Hd Hi Ho Ht.
  pose proof (C05_conversion _ _ _ _ _ _ _ _ _ _ H F PO Hc K Hd Ht) as E.
  pose proof (comp_ids _ _ _ _ _ _ H Hc) as ND. unfold cp_flows in ND. rewrite map_app in ND.
  assert (DJ : forall a b, In a (cp_in c) -> In b (cp_out c) -> f_id a <> f_id b).
  { intros a b Ha Hb Eab. apply (in_map f_id) in Ha. apply (in_map f_id) in Hb. rewrite <- Eab in Hb. revert ND Ha Hb. generalize (f_id a).
    generalize (map f_id (cp_in c)). induction l as [|z l IH]; simpl; intros k ND Ha Hb; [destruct Ha|]. inversion ND; subst.
    destruct Ha as [->|Ha]; [|eauto]. apply H2. apply in_or_app; auto. }
  assert (N : f_id fi <> f_id fo) by auto.
  destruct (NoDup_app_both _ _ ND) as [N1 N2].
  assert (One : forall fl f (w : Q), In f fl -> NoDup (map f_id fl) ->
            (forall g, In g fl -> f_id g <> f_id f -> match factor_of (dict2 (f_id fi) p (f_id fo) q) g with Some p => value idx p t * rate_of x c g t | None => 0 end == 0) ->
            match factor_of (dict2 (f_id fi) p (f_id fo) q) f with Some p => value idx p t * rate_of x c f t | None => 0 end == w ->
            weighted idx x c (dict2 (f_id fi) p (f_id fo) q) fl t == w).
  { intros fl f w Hf NDf Z V. unfold weighted. destruct (In_nth_error _ _ Hf) as [k Ek].
    erewrite Qsum_single with (k := k); [exact V|rewrite nth_error_map, Ek; reflexivity|].
    intros j w' Nj Ej. rewrite nth_error_map in Ej. destruct (nth_error fl j) as [g|] eqn:Eg; [|discriminate].
    simpl in Ej. assert (Eg' : Some w' = Some w') by reflexivity. injection Ej as <-. apply Z; [eapply nth_error_In; eauto|].
    intros Eid. apply Nj. apply (proj1 (NoDup_nth_error (map f_id fl)) NDf); [rewrite map_length; apply nth_error_Some; congruence|].
    rewrite !nth_error_map, Ek, Eg. simpl. congruence. }
  rewrite (One (cp_in c) fi (value idx p t * rate_of x c fi t)) in E; auto.
  - rewrite (One (cp_out c) fo (value idx q t * rate_of x c fo t)) in E; auto.
    + intros g Hg Ng. rewrite factor_of_dict2 by auto. destruct (Nat.eqb (f_id fi) (f_id g)) eqn:E1.
      * apply Nat.eqb_eq in E1. destruct (DJ fi g Hi Hg E1).
      * destruct (Nat.eqb (f_id fo) (f_id g)) eqn:E2; [|reflexivity]. apply Nat.eqb_eq in E2. congruence.
    + rewrite factor_of_dict2 by auto. apply Nat.eqb_neq in N. rewrite N, Nat.eqb_refl. reflexivity.
  - intros g Hg Ng. rewrite factor_of_dict2 by auto. destruct (Nat.eqb (f_id fi) (f_id g)) eqn:E1.
    + apply Nat.eqb_eq in E1. congruence.
    + destruct (Nat.eqb (f_id fo) (f_id g)) eqn:E2; [|reflexivity]. apply Nat.eqb_eq in E2. destruct (DJ g fo Hg Ho (eq_sym E2)).
  - rewrite factor_of_dict2 by auto. rewrite Nat.eqb_refl. reflexivity.
Qed.

Section Named.
Variables (cf : config) (ord : list nat -> list nat) (fs : flow_system) (idx : option (list nat)) (pm : pmodel) (x : asg).
Hypothesis (B : build cf ord fs idx = Ok pm) (F : feasible pm x) (PO : forall l, Permutation (ord l) l).

Lemma ratio_law : forall label ins outs oo factors c fi fo eta t, linear_converter label ins outs oo factors [] = Ok c ->
  In c (fs_comps fs) -> In (dict2 (f_id fi) eta (f_id fo) one) factors -> In fi ins -> In fo outs -> (t < steps fs idx)%nat ->
  rate_of x c fo t == value idx eta t * rate_of x c fi t.
Proof.
  intros label ins outs oo factors c fi fo eta t M Hc Hd Hi Ho Ht. destruct (lc_kind _ _ _ _ _ _ M) as [_ [I [O K]]]. subst ins outs.
  rewrite (pair_law _ _ _ _ _ _ _ _ _ _ _ _ t B F PO Hc K Hd Hi Ho Ht), value_one. ring.
Qed.

Theorem C06_boiler : forall label eta q_fu q_th oo c t, boiler_ label eta q_fu q_th oo = Ok c -> In c (fs_comps fs) ->
  (t < steps fs idx)%nat -> rate_of x c q_th t == value idx eta t * rate_of x c q_fu t.
Proof. intros label eta q_fu q_th oo c t M Hc Ht. exact (ratio_law _ _ _ _ _ _ q_fu q_th eta t M Hc (or_introl eq_refl) (or_introl eq_refl) (or_introl eq_refl) Ht). Qed.
Theorem C06_power2heat : forall label eta p_el q_th oo c t, power2heat label eta p_el q_th oo = Ok c -> In c (fs_comps fs) ->
  (t < steps fs idx)%nat -> rate_of x c q_th t == value idx eta t * rate_of x c p_el t.
Proof. intros label eta p_el q_th oo c t M Hc Ht. exact (ratio_law _ _ _ _ _ _ p_el q_th eta t M Hc (or_introl eq_refl) (or_introl eq_refl) (or_introl eq_refl) Ht). Qed.
Theorem C06_heat_pump : forall label cop p_el q_th oo c t, heat_pump label cop p_el q_th oo = Ok c -> In c (fs_comps fs) ->
  (t < steps fs idx)%nat -> rate_of x c q_th t == value idx cop t * rate_of x c p_el t.
Proof. intros label cop p_el q_th oo c t M Hc Ht. exact (ratio_law _ _ _ _ _ _ p_el q_th cop t M Hc (or_introl eq_refl) (or_introl eq_refl) (or_introl eq_refl) Ht). Qed.
Theorem C06_chp : forall label eta_th eta_el q_fu p_el q_th oo c t, chp_ label eta_th eta_el q_fu p_el q_th oo = Ok c -> In c (fs_comps fs) ->
  (t < steps fs idx)%nat ->
  rate_of x c q_th t == value idx eta_th t * rate_of x c q_fu t /\ rate_of x c p_el t == value idx eta_el t * rate_of x c q_fu t.
Proof.
  intros label eta_th eta_el q_fu p_el q_th oo c t M Hc Ht. unfold chp_ in M. bnd M c' Ec.
  assert (c' = c) by (destruct eta_el, eta_th; try discriminate; bnd M z Ez; fin M; reflexivity). subst c'.
  split; [exact (ratio_law _ _ _ _ _ _ q_fu q_th eta_th t Ec Hc (or_introl eq_refl) (or_introl eq_refl) (or_introl eq_refl) Ht)|exact (ratio_law _ _ _ _ _ _ q_fu p_el eta_el t Ec Hc (or_intror (or_introl eq_refl)) (or_introl eq_refl) (or_intror (or_introl eq_refl)) Ht)].
Qed.
Theorem C06_cooling_tower : forall label spec p_el q_th oo c t, cooling_tower label spec p_el q_th oo = Ok c -> In c (fs_comps fs) ->
  (t < steps fs idx)%nat -> rate_of x c p_el t == value idx spec t * rate_of x c q_th t.
Proof.
  intros label spec p_el q_th oo c t M Hc Ht. unfold cooling_tower in M. destruct spec as [d|]; [|discriminate].
  destruct (lc_kind _ _ _ _ _ _ M) as [_ [I [O K]]].
  pose proof (comp_ids _ _ _ _ _ _ B Hc) as ND. unfold cp_flows in ND. rewrite I, O in ND. simpl in ND.
  assert (N : f_id p_el <> f_id q_th) by (inversion ND as [|? ? N _]; intros E; apply N; simpl; auto).
  pose proof (C05_conversion _ _ _ _ _ _ _ _ _ _ B F PO Hc K (or_introl eq_refl) Ht) as E.
  unfold weighted in E. rewrite I, O in E. cbn [map] in E. rewrite !Qsum_cons in E. rewrite !factor_of_dict2 in E by auto.
  rewrite !Nat.eqb_refl in E. apply Nat.eqb_neq in N. rewrite N in E. unfold Qsum in E. cbn [fold_right] in E.
  rewrite value_opp, value_one in E. lra.
Qed.
(** The source heat follows from the coefficient of performance; energy is conserved (unless the coefficient is 0, when
    electricity is converted to nothing). *)
Theorem C06_heat_pump_with_source : forall label cop p_el q_ab q_th oo c t, heat_pump_with_source label cop p_el q_ab q_th oo = Ok c ->
  In c (fs_comps fs) -> (t < steps fs idx)%nat ->
  rate_of x c q_th t == value idx cop t * rate_of x c p_el t
  /\ (~ value idx cop t == 0 -> rate_of x c q_th t == rate_of x c p_el t + rate_of x c q_ab t).
Proof.
  intros label cop p_el q_ab q_th oo c t M Hc Ht. unfold heat_pump_with_source in M. destruct cop as [d|]; [|discriminate].
  bnd M r Er.
  assert (E1 : rate_of x c q_th t == value idx (PNum d) t * rate_of x c p_el t) by exact (ratio_law _ _ _ _ _ _ p_el q_th _ t M Hc (or_introl eq_refl) (or_introl eq_refl) (or_introl eq_refl) Ht).
  assert (E2 : rate_of x c q_th t == value idx (PNum r) t * rate_of x c q_ab t) by exact (ratio_law _ _ _ _ _ _ q_ab q_th _ t M Hc (or_intror (or_introl eq_refl)) (or_intror (or_introl eq_refl)) (or_introl eq_refl) Ht).
  split; [exact E1|]. intros NZ. destruct (value_ratio idx d r t Er) as [V N]. rewrite V in E2.
  set (k := value idx (PNum d) t) in *. set (p := rate_of x c p_el t) in *. set (a := rate_of x c q_ab t) in *.
  assert (E3 : k * ((k - 1) * p) == k * a).
  { assert (E4 : k * p == k / (k - 1) * a) by (rewrite <- E1; exact E2).
    transitivity ((k - 1) * (k * p)); [ring|]. rewrite E4. field. intros Z. apply N. rewrite Z. reflexivity. }
  apply Qmult_inj_l in E3; auto. rewrite E1, <- E3. ring.
Qed.
End Named.
Print Assumptions C06_boiler.
Print Assumptions C06_power2heat.
Print Assumptions C06_heat_pump.
Print Assumptions C06_chp.
Print Assumptions C06_cooling_tower.
Print Assumptions C06_heat_pump_with_source.

(** All six converters in one system, in operation. *)
Example C06_applies : forall t, (t < 3)%nat ->
  rate_of x3 kessel kes_th t == (9 # 10) * rate_of x3 kessel kes_fu t
  /\ rate_of x3 rod rod_th t == (95 # 100) * rate_of x3 rod rod_el t
  /\ rate_of x3 hp hp_th t == nth t [3; 4; 3] 3 * rate_of x3 hp hp_el t
  /\ rate_of x3 kwk kwk_el t == nth t [3 # 10; 4 # 10; 3 # 10] (3 # 10) * rate_of x3 kwk kwk_fu t
  /\ rate_of x3 kt kt_el t == (1 # 50) * rate_of x3 kt kt_th t
  /\ rate_of x3 wp wp_th t == rate_of x3 wp wp_el t + rate_of x3 wp wp_ab t.
Proof.
  intros t Ht. destruct x3_feasible as [pm [B F]].
  assert (HC : forall c, In c [kwk; kessel; rod; hp; wp; kt] -> In c (fs_comps fs3)) by (intros c; cbn [fs3 fs_comps In]; tauto).
  split; [|split; [|split; [|split; [|split]]]].
  - exact (C06_boiler _ _ _ _ _ _ B F id_ord_perm "Kessel" (n1 (9 # 10)) kes_fu kes_th (Some unit_oo) kessel t eq_refl (HC kessel ltac:(simpl; tauto)) Ht).
  - exact (C06_power2heat _ _ _ _ _ _ B F id_ord_perm "Rod" (n1 (95 # 100)) rod_el rod_th None rod t eq_refl (HC rod ltac:(simpl; tauto)) Ht).
  - exact (C06_heat_pump _ _ _ _ _ _ B F id_ord_perm "HP" (na [3; 4; 3]) hp_el hp_th None hp t eq_refl (HC hp ltac:(simpl; tauto)) Ht).
  - exact (proj2 (C06_chp _ _ _ _ _ _ B F id_ord_perm "KWK" (n1 (1 # 2)) (na [3 # 10; 4 # 10; 3 # 10]) kwk_fu kwk_el kwk_th None kwk t eq_refl (HC kwk ltac:(simpl; tauto)) Ht)).
  - exact (C06_cooling_tower _ _ _ _ _ _ B F id_ord_perm "KT" (n1 (1 # 50)) kt_el kt_th None kt t eq_refl (HC kt ltac:(simpl; tauto)) Ht).
  - apply (proj2 (C06_heat_pump_with_source _ _ _ _ _ _ B F id_ord_perm "WP" (na [3; 4; 5]) wp_el wp_ab wp_th None wp t eq_refl (HC wp ltac:(simpl; tauto)) Ht)).
    do 3 (destruct t as [|t]; [vm_compute; discriminate|]). lia.
Qed.
Example C06_values : Qlt 0 (rate_of x3 kessel kes_th 1) /\ Qlt 0 (rate_of x3 rod rod_th 0) /\ Qlt 0 (rate_of x3 hp hp_th 0)
  /\ Qlt 0 (rate_of x3 kwk kwk_el 0) /\ Qlt 0 (rate_of x3 kt kt_th 0) /\ Qlt 0 (rate_of x3 wp wp_ab 0).
Proof. repeat split; vm_compute; reflexivity. Qed.

(** ** C07 *)
Theorem C07_segments : forall cf ord fs idx pm x c segs t,
  build cf ord fs idx = Ok pm -> feasible pm x -> 0 <= cf_eps cf -> In c (fs_comps fs) -> cp_kind c = Segmented segs -> (t < steps fs idx)%nat ->
  (exists k w, 0 <= w /\ w <= 1
     /\ (forall f, In f (cp_flows c) -> exists ab, nth_error (segments_of segs f) k = Some ab /\ on_piece idx x c f t w ab)
     /\ (cp_onoff c <> None -> x (oo (cp_label c) "on") t == 1))
  \/ (cp_onoff c <> None /\ x (oo (cp_label c) "on") t == 0 /\ forall f, In f (cp_flows c) -> rate_of x c f t == 0).
Proof.
  intros cf ord fs idx pm x c segs t H F Ep Hc K Ht.
  destruct (own_laws _ _ _ _ _ _ _ H F Hc) as [cx [tr [fos [on [so [CF [OR [FF [OM [S1 [S2 [S3 ON]]]]]]]]]]]].
  clear OR. unfold own_model in OM. rewrite K in OM. bnd OM m Em. fin OM. simpl in S3. apply Forall_inv in S3.
  assert (Ht' : (t < cx_n cx)%nat) by (rewrite (cf_n _ _ _ _ CF); auto).
  assert (OB : forall v, on = Some v -> v_len v = cx_n cx /\ (x (v_label v) t == 0 \/ x (v_label v) t == 1)).
  { intros v Ev. destruct (cp_onoff c) as [p|] eqn:Ep'; [|congruence]. destruct ON as [v' [E1 [E2 E3]]].
    assert (v' = v) by congruence. subst v'. split; auto. rewrite E2.
    destruct (comp_onoff_laws _ _ _ _ _ _ _ _ H F Ep Hc Ep') as [cx' [fos' [prev [CF' [_ [_ R]]]]]].
    apply (oo_bin _ _ _ _ _ _ _ R). rewrite (cf_n _ _ _ _ CF'). exact Ht. }
  destruct (segmented_spec cf fs idx cx x tr c fos on segs m t CF Ht' FF Em S3 OB) as [[k [w [W0 [W1 [L LO]]]]]|[v [Ev [Z L]]]].
  - left. exists k, w. split; auto. split; auto. split.
    2: { intros N. destruct (cp_onoff c); [|congruence]. destruct ON as [v [E1 [E2 _]]]. rewrite <- E2. exact (LO v E1). }
    intros f Hf. destruct (L f Hf) as [ps [a [b [E1 [E2 E3]]]]].
    exists (a, b). split; auto. unfold segments_of. unfold lookup_nat in E1.
    destruct (find (fun p => Nat.eqb (fst p) (f_id f)) segs) as [[i l]|]; simpl in E1; [|discriminate]. injection E1 as ->. exact E2.
  - right. destruct (cp_onoff c); [|congruence]. destruct ON as [v' [E1 [E2 _]]]. assert (v' = v) by congruence. subst v'.
    split; [discriminate|]. split; auto. rewrite <- E2. exact Z.
Qed.
Print Assumptions C07_segments.

Example C07_applies : forall t, (t < 3)%nat -> exists k w, 0 <= w /\ w <= 1
  /\ (forall f, In f (cp_flows p2h) -> exists ab,
       nth_error (segments_of [(70%nat, [(n1 0, n1 5); (n1 5, n1 20)]); (71%nat, [(n1 0, n1 10); (n1 10, n1 25)])] f) k = Some ab
       /\ on_piece idx1 x1 p2h f t w ab)
  /\ (cp_onoff p2h <> None -> x1 (oo (cp_label p2h) "on") t == 1).
Proof.
  intros t Ht. destruct x1_feasible as [pm [B F]]. assert (Hc : In p2h (fs_comps fs1)) by (cbn [fs1 fs_comps In]; tauto).
  assert (E0 : 0 <= cf_eps default_config) by (vm_compute; discriminate).
  destruct (C07_segments _ _ _ _ _ _ _ _ t B F E0 Hc eq_refl Ht) as [L|[N _]]; [exact L|]. destruct (N eq_refl).
Qed.

(** ** C08 *)
Definition carries (fs : flow_system) (idx : option (list nat)) (x : asg) (c : component) (rel abs : option param) (i o : flow) : Prop :=
  forall t, (t < steps fs idx)%nat ->
    rate_of x c o t == rate_of x c i t * (1 - lost idx rel t) - lost idx abs t * (if abs then on_of x c i t else 0).

Lemma direction_carries : forall fs idx x c rel abs i o, direction_law fs idx x c rel abs i o -> carries fs idx x c rel abs i o.
Proof.
  intros fs idx x c rel abs i o [G L] t Ht. rewrite (L t Ht). unfold loss_at, lost. destruct abs as [p|].
  - destruct (governed fs idx c i) as [g|] eqn:Eg; [reflexivity|]. exfalso. apply G; [discriminate|reflexivity].
  - ring.
Qed.

Theorem C08_transmission : forall cf ord fs idx pm x label in1 out1 in2 out2 rel abs oo_ prevent,
  let c := transmission label in1 out1 in2 out2 rel abs oo_ prevent in
  build cf ord fs idx = Ok pm -> feasible pm x -> 0 <= cf_eps cf -> In c (fs_comps fs) ->
  carries fs idx x c rel abs in1 out1
  /\ match in2 with
     | None => True
     | Some i2 => exists o2, out2 = Some o2 /\ carries fs idx x c rel abs i2 o2
         /\ (forall iv, f_size in1 = SzInv iv -> size_of cf x c in1 == size_of cf x c i2)
         /\ (prevent = true -> forall t, (t < steps fs idx)%nat -> rate_of x c in1 t == 0 \/ rate_of x c i2 t == 0)
     end.
Proof.
  intros cf ord fs idx pm x label in1 out1 in2 out2 rel abs oo_ prevent c H F Ep Hc.
  destruct (own_laws _ _ _ _ _ _ _ H F Hc) as [cx [tr [fos [on [so [CF [OR [FF [OM [S1 [S2 [S3 ON]]]]]]]]]]]].
  clear OR. unfold own_model in OM. simpl in OM. bnd OM k Ek. fin OM. simpl in S2.
  destruct (transmission_spec _ _ _ _ x _ _ _ _ _ _ CF FF Ek S2) as [[i1 [o1 [E1 [E2 D1]]]] [D2 SZ]]. simpl in E1, E2.
  injection E1 as <-. injection E2 as <-. split; [apply direction_carries; exact D1|].
  destruct in2 as [i2|]; [|exact I]. destruct (D2 i2 eq_refl) as [o2 [E3 D]]. exists o2.
  pose proof (comp_ids _ _ _ _ _ _ H Hc) as ND.
  assert (N12 : f_id in1 <> f_id i2) by (simpl in ND; inversion ND as [|? ? N _]; intros E; apply N; rewrite E; simpl; auto).
  split; [destruct out2; simpl in E3; congruence|]. split; [apply direction_carries; exact D|]. split.
  - intros iv Eiv. assert (S1' : sized cf c in1 = SzInv iv).
    { unfold sized. simpl. apply Nat.eqb_neq in N12. rewrite N12. exact Eiv. }
    pose proof (SZ in1 i2 iv eq_refl eq_refl S1') as Z. unfold size_of. rewrite S1'.
    assert (S2' : exists iv2, sized cf c i2 = SzInv iv2).
    { unfold sized. simpl. rewrite Nat.eqb_refl, Eiv. destruct (f_size i2); eauto. }
    destruct S2' as [iv2 ->]. exact Z.
  - intros P t Ht. eapply (C18_exclusive_flows cf ord fs idx pm x c in1 i2 t H F Ep Hc); auto.
    + simpl; auto.
    + simpl; auto.
    + intros E. apply N12. rewrite E. reflexivity.
    + simpl. rewrite P. simpl; auto.
    + simpl. rewrite P. simpl; auto.
Qed.
Print Assumptions C08_transmission.

Definition line_in1 := set_size_ (SzInv line_inv) (flow0 60 "in1" el). Definition line_in2 := flow0 61 "in2" el2.
Definition line_out1 := flow0 62 "out1" el2. Definition line_out2 := flow0 63 "out2" el.
Definition line_rel := Some (n1 (1 # 10)). Definition line_abs := Some (na [1; 1; 2; 1]).
Example C08_applies :
  carries fs1 idx1 x1 line line_rel line_abs line_in1 line_out1 /\ carries fs1 idx1 x1 line line_rel line_abs line_in2 line_out2
  /\ size_of default_config x1 line line_in1 == size_of default_config x1 line line_in2
  /\ forall t, (t < 3)%nat -> rate_of x1 line line_in1 t == 0 \/ rate_of x1 line line_in2 t == 0.
Proof.
  destruct x1_feasible as [pm [B F]].
  assert (Hc : In (transmission "Line" line_in1 line_out1 (Some line_in2) (Some line_out2) line_rel line_abs None true) (fs_comps fs1))
    by (cbn [fs1 fs_comps In]; unfold line; tauto).
  assert (E0 : 0 <= cf_eps default_config) by (vm_compute; discriminate).
  destruct (C08_transmission _ _ _ _ _ _ _ _ _ _ _ _ _ _ _ B F E0 Hc) as [A [o2 [Eo [C [D E]]]]]. injection Eo as <-.
  split; [exact A|]. split; [exact C|]. split; [exact (D _ eq_refl)|exact (E eq_refl)].
Qed.
Example C08_values : rate_of x1 line line_in1 0 == 6 /\ rate_of x1 line line_out1 0 == (22 # 5) /\ lost idx1 line_abs 0 == 1
  /\ size_of default_config x1 line line_in2 == 6.
Proof. repeat split; vm_compute; reflexivity. Qed.
