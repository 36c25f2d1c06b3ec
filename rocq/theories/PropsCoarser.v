(** Claim C101: where nothing is switched on and off, a finer time grid makes no difference. Every plan of the fine system can be evened out over the steps of the coarse one,
    at the same cost, so the least costs are the same. Wrong where something is switched: on the finer grid it can run for a part of a step. *)
From Coq Require Import Permutation Qabs Lqa Lia.
From Verif Require Import Base BaseFacts MathModel Spec Structure Params Features Elements Library System SysSpec AdmitSpec CtxFacts NavFacts PropsOnOff PropsComp PropsEffects PlanSpec Example
     TotalInvest PlanComp PlanSame PlanCheck ExamplePoints PropsPlan PropsRelax PropsSameData ValidSpec ValidCheck PropsTotal PropsWindow PropsParts PropsUnits PropsFiner.

(** ** Specification *)

(** Sum over the [k] fine steps that make up step [t]. *)
Definition over (k : nat) (f : nat -> Q) (t : nat) : Q := Qsum (map (fun j => f (k * t + j)%nat) (seq 0 k)).

(** Nothing is switched on and off: no on/off parameters, no flows that exclude each other, no segments of conversion, no losses while a transmission is used. *)
Record unswitched (fs : flow_system) : Prop := {
  un_flow : forall c f, In c (fs_comps fs) -> In f (cp_flows c) -> f_onoff f = None;
  un_comp : forall c, In c (fs_comps fs) -> cp_onoff c = None /\ cp_prevent c = [];
  un_kind : forall c, In c (fs_comps fs) -> match cp_kind c with Params.Segmented _ => False | TransmissionC _ abs => abs = None | _ => True end
}.

(** The plan [x] for the coarse system is the plan [y] for the fine system evened out: every rate is the mean of the rates of the fine steps. *)
Record evened_out (k : nat) (cf : config) (fs : flow_system) (y x : asg) : Prop := {
  eo_rate : forall c f t, In c (fs_comps fs) -> In f (cp_flows c) -> (t < steps fs None)%nat -> rate_of x c f t == over k (rate_of y c f) t / nq k;
  eo_size : forall name iv, In (name, iv) (investments cf fs) -> x (inv name "size") 0%nat == y (inv name "size") 0%nat;
  eo_charge : forall c s t, In c (fs_comps fs) -> cp_kind c = StorageC s -> (t <= steps fs None)%nat -> charge x c t == charge y c (k * t);
  eo_effect : forall e, In e (fs_effects fs) -> op_sum x e == op_sum y e /\ inv_sum x e == inv_sum y e;
  eo_penalty : penalty_sum x == penalty_sum y
}.

(** ** Facts *)

Definition coarser (k : nat) (y : asg) : asg := fun nm t =>
  if String.eqb (ending nm) "tate" then y nm (k * t)%nat
  else if String.eqb (ending nm) "m_TS" then over k (y nm) t
  else if (String.eqb (ending nm) "rate" || String.eqb (ending nm) "nput" || String.eqb (ending nm) "tput")%bool then over k (y nm) t / nq k
  else y nm t.

Lemma map_seq_from : forall (f : nat -> Q) a r m, map f (seq (a + m) r) = map (fun j => f (a + j)%nat) (seq m r).
Proof. intros f a. induction r as [|r IH]; intros m; [reflexivity|]. cbn [seq map]. f_equal. rewrite <- Nat.add_succ_r. apply IH. Qed.
Section Over.
Variable k : nat.
Hypothesis KP : (0 < k)%nat.
Lemma over_ext : forall f g t, (forall j, (j < k)%nat -> f (k * t + j)%nat == g (k * t + j)%nat) -> over k f t == over k g t.
Proof. intros f g t H. apply Qsum_map_eq. intros j Hj. apply in_seq in Hj. apply H. exact (proj2 Hj). Qed.
Lemma over_scale : forall a f t, over k (fun u => a * f u) t == a * over k f t.
Proof. intros a f t. unfold over. rewrite <- BaseFacts.Qsum_scale. reflexivity. Qed.
Lemma over_add : forall f g t, over k (fun u => f u + g u) t == over k f t + over k g t.
Proof. intros f g t. unfold over. rewrite <- Qsum_plus. reflexivity. Qed.
Lemma over_const : forall a t, over k (fun _ => a) t == nq k * a.
Proof. intros a t. unfold over. apply (Qsum_seq k 0 (fun _ => a)). intros. reflexivity. Qed.
Lemma Qsum_le_ : forall (f g : nat -> Q) l, (forall a, In a l -> f a <= g a) -> Qsum (map f l) <= Qsum (map g l).
Proof. intros f g. induction l as [|a l IH]; intros H; [cbn; lra|]. pose proof (H a (or_introl eq_refl)). specialize (IH (fun b Hb => H b (or_intror Hb))). unfold Qsum in *. cbn. lra. Qed.
Lemma over_le : forall f g t, (forall j, (j < k)%nat -> f (k * t + j)%nat <= g (k * t + j)%nat) -> over k f t <= over k g t.
Proof. intros f g t H. apply Qsum_le_. intros j Hj. apply in_seq in Hj. apply H. exact (proj2 Hj). Qed.
Lemma over_sum : forall {A} (F : A -> nat -> Q) l t, over k (fun u => Qsum (map (fun a => F a u) l)) t == Qsum (map (fun a => over k (F a) t) l).
Proof.
  intros A F l t. induction l as [|a l IH]; [rewrite (over_ext _ (fun _ => 0)) by (intros; reflexivity); rewrite over_const; cbn; ring|].
  rewrite (over_ext _ (fun u => F a u + Qsum (map (fun a => F a u) l))) by (intros; reflexivity). rewrite over_add, IH. reflexivity.
Qed.
Lemma sumn_over : forall n f, sumn (k * n) f == sumn n (over k f).
Proof.
  induction n as [|n IH]; intros f; [rewrite Nat.mul_0_r; reflexivity|]. rewrite sumn_S, <- IH. unfold sumn. rewrite Nat.mul_succ_r, seq_app, map_app, Qsum_app. apply Qplus_inj_l. cbn [Nat.add].
  unfold over.
  rewrite <- (Nat.add_0_r (k * n)) at 1. rewrite map_seq_from. reflexivity.
Qed.
Lemma mean_le : forall f a t, (forall j, (j < k)%nat -> f (k * t + j)%nat <= a) -> over k f t / nq k <= a.
Proof. intros f a t H. apply Qle_shift_div_r; [apply k_pos, KP|]. rewrite Qmult_comm, <- (over_const a t). apply over_le. exact H. Qed.
Lemma mean_ge : forall f a t, (forall j, (j < k)%nat -> a <= f (k * t + j)%nat) -> a <= over k f t / nq k.
Proof. intros f a t H. apply Qle_shift_div_l; [apply k_pos, KP|]. rewrite Qmult_comm, <- (over_const a t). apply over_le. exact H. Qed.
Lemma mean_eq : forall f a t, (forall j, (j < k)%nat -> f (k * t + j)%nat == a) -> over k f t / nq k == a.
Proof. intros f a t H. rewrite (over_ext _ (fun _ => a)) by exact H. rewrite over_const. field. apply k_nz, KP. Qed.
End Over.

Section Evened.
Variable k : nat.
Hypothesis KP : (0 < k)%nat.
Variables (fs : flow_system) (cf : config) (y : asg).
Notation n := (steps fs None).
Notation fs' := (split_steps k fs).
Notation rc := (re_comp (spread k) (fun p => p)).
Notation rf := (re_flow (spread k)).
Notation rb := (re_bus (spread k)).
Notation re := (re_effect (spread k)).
Notation z := (coarser k y).
Hypothesis SE : sensible cf fs None.
Hypothesis SP : splittable fs.
Hypothesis UN : unswitched fs.

Lemma z_plain : forall nm t, ending nm <> "tate" -> ending nm <> "m_TS" -> ending nm <> "rate" -> ending nm <> "nput" -> ending nm <> "tput" -> z nm t = y nm t.
Proof.
  intros nm t A B C D E. unfold coarser. rewrite (proj2 (String.eqb_neq _ _) A), (proj2 (String.eqb_neq _ _) B), (proj2 (String.eqb_neq _ _) C), (proj2 (String.eqb_neq _ _) D), (proj2 (String.eqb_neq _ _) E). reflexivity.
Qed.
Ltac plain := rewrite z_plain by (rewrite ?ending_oo, ?ending_inv, ?ending_seg, ?ending_var by (apply Nat.leb_le; reflexivity); vm_compute; discriminate).
Lemma z_size : forall e, z (inv e "size") 0%nat = y (inv e "size") 0%nat. Proof. intros e. plain. reflexivity. Qed.
Lemma z_made : forall e, z (inv e "isInvested") 0%nat = y (inv e "isInvested") 0%nat. Proof. intros e. plain. reflexivity. Qed.
Lemma z_seg : forall nm e, seg_cost z nm e = seg_cost y nm e. Proof. intros nm e. unfold seg_cost. plain. reflexivity. Qed.
Lemma z_op_sum : forall e, op_sum z e = op_sum y e. Proof. intros e. unfold op_sum. plain. reflexivity. Qed.
Lemma z_inv_sum : forall e, inv_sum z e = inv_sum y e. Proof. intros e. unfold inv_sum. plain. reflexivity. Qed.
Lemma z_all_sum : forall e, all_sum z e = all_sum y e. Proof. intros e. unfold all_sum. plain. reflexivity. Qed.
Lemma z_penalty : penalty_sum z = penalty_sum y. Proof. unfold penalty_sum. plain. reflexivity. Qed.
Lemma z_rate : forall c f t, rate_of z c f t = over k (rate_of y (rc c) (rf f)) t / nq k.
Proof. intros c f t. unfold rate_of, coarser. rewrite ending_var by (apply Nat.leb_le; reflexivity). reflexivity. Qed.
Lemma z_op : forall e t, op_at z e t = over k (op_at y (re e)) t.
Proof. intros e t. unfold op_at, coarser. rewrite ending_var by (apply Nat.leb_le; reflexivity). reflexivity. Qed.
Lemma z_charge : forall c t, charge z c t = charge y (rc c) (k * t).
Proof. intros c t. unfold charge, coarser. rewrite ending_var by (apply Nat.leb_le; reflexivity). reflexivity. Qed.
Lemma z_excess : forall b w t, w = "excess_input" \/ w = "excess_output" -> excess z b w t == over k (excess y (rb b) w) t / nq k.
Proof.
  intros b w t H. unfold excess. cbn [re_bus b_penalty b_lab]. destruct (b_penalty b); cbn [option_map].
  - destruct H as [-> | ->]; unfold coarser; rewrite ending_var by (apply Nat.leb_le; reflexivity); reflexivity.
  - symmetry. apply mean_eq; [exact KP|]. intros. reflexivity.
Qed.

(** Fine steps of step [t]. *)
Lemma in_step : forall t j, (t < n)%nat -> (j < k)%nat -> (k * t + j < k * n)%nat. Proof. intros t j H J. nia. Qed.
Lemma of_step : forall t j, (j < k)%nat -> ((k * t + j) / k)%nat = t. Proof. intros t j J. apply (div_at k t j J). Qed.
Lemma v_step : forall p t j, (j < k)%nat -> value None (spread k p) (k * t + j) = value None p t. Proof. intros p t j J. rewrite (v_spread k KP), of_step by exact J. reflexivity. Qed.
Lemma h_step : forall t j, (t < n)%nat -> (j < k)%nat -> hours fs' None (k * t + j) == hours fs None t / nq k.
Proof. intros t j H J. rewrite (f_hours k KP fs) by (apply in_step; assumption). rewrite of_step by exact J. reflexivity. Qed.
Lemma z_hours : forall f t, (t < n)%nat -> over k (fun u => hours fs' None u * f u) t == hours fs None t * (over k f t / nq k).
Proof.
  intros f t H. rewrite (over_ext k _ (fun u => hours fs None t / nq k * f u)) by (intros j J; cbv beta; rewrite h_step by assumption; reflexivity). rewrite over_scale. field. apply k_nz, KP.
Qed.
Lemma z_total : forall f, sumn (k * n) (fun u => hours fs' None u * f u) == sumn n (fun t => hours fs None t * (over k f t / nq k)).
Proof. intros f. rewrite sumn_over. apply sumn_ext. intros t Ht. apply z_hours, Ht. Qed.

Lemma not_governed : forall c f, In c (fs_comps fs) -> In f (cp_flows c) -> governed fs None c f = None.
Proof.
  intros c f Hc Hf. unfold governed. rewrite (un_flow _ UN c f Hc Hf). unfold induced. destruct (un_comp _ UN c Hc) as [-> ->]. pose proof (un_kind _ UN c Hc) as K. cbn. destruct (cp_kind c) as [| | |s|r a]; try reflexivity. subst a. reflexivity.
Qed.
Lemma z_size_of : forall c f, size_of cf z c f = size_of cf y (rc c) (rf f).
Proof. intros c f. unfold size_of. rewrite f_sized. change (flow_name (rc c) (rf f)) with (flow_name c f). destruct (sized cf c f); [reflexivity|]. apply z_size. Qed.

Lemma z_flow : forall c f, In c (fs_comps fs) -> In f (cp_flows c) -> flow_rule cf fs' None y (rc c) (rf f) -> flow_rule cf fs None z c f.
Proof.
  intros c f Hc Hf [AL _]. pose proof (not_governed c f Hc Hf) as G0. pose proof (proj2 (f_none k KP fs c f) G0) as G1.
  destruct AL as [A1 _ _ _ A5 A6 [A7 [A8 [A9 A10]]]]. rewrite f_steps in A1, A6, A7, A8, A9, A10. split; [constructor|].
  - intros _ t Ht. rewrite z_rate.
    assert (W : forall j, (j < k)%nat -> within_limits cf None c f t (rate_of y (rc c) (rf f) (k * t + j))).
    { intros j J. pose proof (A1 G1 _ (in_step t j Ht J)) as L. unfold within_limits in *. rewrite f_sized in L. destruct (f_rel k KP f (k * t + j)) as [E1 E2]. rewrite E1, E2, of_step in L by exact J. exact L. }
    split; [apply mean_ge|apply mean_le]; try exact KP; intros j J; apply (W j J).
  - intros G. destruct (G G0).
  - intros G. destruct (G G0).
  - intros o G. rewrite G0 in G. discriminate G.
  - intros iv E. specialize (A5 iv). rewrite f_sized in A5. change (flow_name (rc c) (rf f)) with (flow_name c f) in A5. rewrite z_size, z_made. exact (A5 E).
  - intros iv E t Ht. rewrite z_rate, z_size_of. specialize (A6 iv). rewrite f_sized in A6. specialize (A6 E). cbn [re_flow f_profile f_relmin f_relmax] in A6. destruct (f_profile f) as [p|]; cbn [option_map] in A6.
    + apply mean_eq; [exact KP|]. intros j J. pose proof (A6 _ (in_step t j Ht J)) as L. rewrite v_step in L by exact J. exact L.
    + split; [apply mean_le; [exact KP|]|intros _; apply mean_ge; [exact KP|]]; intros j J; destruct (A6 _ (in_step t j Ht J)) as [L1 L2]; rewrite !v_step in * by exact J; [exact L1|]. apply L2. left. exact G1.
  - cbv zeta. assert (TT : sumn n (fun t => hours fs None t * rate_of z c f t) == sumn (k * n) (fun u => hours fs' None u * rate_of y (rc c) (rf f) u)) by (rewrite z_total; apply sumn_ext; intros t _; rewrite z_rate; reflexivity).
    rewrite z_size_of. cbn [re_flow f_fh_min f_fh_max f_lf_min f_lf_max] in A7, A8, A9, A10. pose proof (f_horizon k KP fs) as HZ.
    split; [|split; [|split]]; intros q Hq; rewrite TT, <- ?HZ; auto.
  - intros G. destruct (G G0).
Qed.
Lemma z_weights : forall c fac l t, weighted None z c fac l t == over k (weighted None y (rc c) (map (re_entry (spread k)) fac) (map rf l)) t / nq k.
Proof.
  intros c fac l t. unfold weighted. rewrite (over_ext k _ (fun u => Qsum (map (fun f => match option_map (spread k) (factor_of fac f) with Some p => value None p u * rate_of y (rc c) (rf f) u | None => 0 end) l)))
    by (intros j _; rewrite map_map; apply Qsum_map_eq; intros f _; rewrite f_factor; reflexivity).
  rewrite over_sum. unfold Qdiv. rewrite Qmult_comm, <- BaseFacts.Qsum_scale. apply Qsum_map_eq. intros f _. destruct (factor_of fac f) as [p|]; cbn [option_map].
  - assert (E : over k (fun u => value None (spread k p) u * rate_of y (rc c) (rf f) u) t == over k (fun u => value None p t * rate_of y (rc c) (rf f) u) t) by (apply over_ext; intros j J; rewrite v_step by exact J; reflexivity).
    rewrite E, over_scale, z_rate. field. apply k_nz, KP.
  - rewrite over_const. ring.
Qed.
Lemma z_storage : forall c s ch dis, In c (fs_comps fs) -> cp_kind c = StorageC s -> storage_rule cf fs' None y (rc c) (re_storage (spread k) (fun p => p) s) (rf ch) (rf dis) -> storage_rule cf fs None z c s ch dis.
Proof.
  intros c s ch dis Hc K [B [LM [AL [I0 [IL [FX FM]]]]]]. destruct (sp_stores _ SP c s Hc K) as [LS [[r0 R0] [[r1 R1] NL]]]. pose proof (k_nz k KP) as NZ.
  rewrite f_steps in B, LM, FX, FM. cbn [re_storage st_relmin st_relmax st_eta_c st_eta_d st_loss st_cap st_init st_fmin st_fmax] in *. change (cp_label (rc c)) with (cp_label c) in AL.
  assert (V0 : forall t, value None (st_relmin s) t = r0) by (intros t; unfold value; rewrite R0; reflexivity). assert (V1 : forall t, value None (st_relmax s) t = r1) by (intros t; unfold value; rewrite R1; reflexivity).
  assert (CA : capacity z c s = capacity y (rc c) (re_storage (spread k) (fun p => p) s)) by (unfold capacity; cbn [re_storage st_cap]; destruct (st_cap s); [reflexivity|]; change (cp_label (rc c)) with (cp_label c); rewrite z_size; reflexivity).
  unfold storage_rule. rewrite CA. split; [|split; [|split; [|split; [|split; [|split]]]]].
  - intros t Ht. assert (E0 : (k * t + 0 < k * n)%nat) by (apply in_step; assumption). pose proof (proj1 (B _ E0)) as NE. rewrite v_step in NE by exact KP. split; [exact NE|]. rewrite !z_charge, !z_rate, (LS t Ht).
    set (h := hours fs None t). set (a := value None (st_eta_c s) t). set (d := value None (st_eta_d s) t) in *.
    set (g := fun u => a * h / nq k * rate_of y (rc c) (rf ch) u + - (h / nq k / d) * rate_of y (rc c) (rf dis) u).
    assert (UP : forall j, (j <= k)%nat -> charge y (rc c) (k * t + j) == charge y (rc c) (k * t) + Qsum (map (fun i => g (k * t + i)%nat) (seq 0 j))).
    { induction j as [|j IH]; intros J; [rewrite Nat.add_0_r; cbn; ring|]. rewrite seq_S, map_app, Qsum_app, Nat.add_succ_r. destruct (B _ (in_step t j Ht J)) as [_ BL]. rewrite BL, !v_step, (LS t Ht), h_step, IH by (assumption || lia). fold a d h. unfold g. cbn. field. split; assumption. }
    replace (k * S t)%nat with (k * t + k)%nat by lia. rewrite (UP k) by lia. fold (over k g t). unfold g. rewrite over_add, !over_scale. field. split; assumption.
  - intros t Ht. rewrite z_charge, V0, V1. pose proof (LM (k * t)%nat ltac:(nia)) as L. rewrite V0, V1 in L. exact L.
  - intros iv E. rewrite z_size, z_made. exact (AL iv E).
  - intros q Eq. rewrite z_charge, Nat.mul_0_r. auto.
  - intros E. destruct (NL E).
  - intros NI q Eq. rewrite z_charge. eauto.
  - intros NI q Eq. rewrite z_charge. eauto.
Qed.
Lemma z_carries : forall c rel i o, carries fs' None y (rc c) (option_map (spread k) rel) None (rf i) (rf o) -> carries fs None z c rel None i o.
Proof.
  intros c rel i o H t Ht. rewrite !z_rate. assert (E : over k (rate_of y (rc c) (rf o)) t == over k (fun u => (1 - lost None rel t) * rate_of y (rc c) (rf i) u) t).
  { apply over_ext. intros j J. pose proof (H (k * t + j)%nat ltac:(rewrite f_steps; apply in_step; assumption)) as L. rewrite L. cbn [lost]. destruct rel as [p|]; cbn [option_map lost]; rewrite ?v_step by exact J; ring. }
  rewrite E, over_scale. cbn [lost]. field. apply k_nz, KP.
Qed.
Lemma z_own : forall c, In c (fs_comps fs) -> own_rule cf fs' None y (rc c) -> own_rule cf fs None z c.
Proof.
  intros c Hc H. pose proof (un_kind _ UN c Hc) as UK. unfold own_rule in *. cbn [re_comp cp_kind cp_in cp_out] in H. destruct (cp_kind c) as [|eqs|segs|s|rel abs] eqn:K; cbn [re_kind] in H.
  - exact Logic.I.
  - intros fac t Hf Ht. rewrite !z_weights. rewrite (over_ext k _ (weighted None y (rc c) (map (re_entry (spread k)) fac) (map rf (cp_out c)))); [reflexivity|]. intros j J. apply H; [apply in_map; exact Hf|]. rewrite f_steps. apply in_step; assumption.
  - destruct UK.
  - intros ch dis I' O'. rewrite I', O' in H. exact (z_storage c s ch dis Hc K (H _ _ eq_refl eq_refl)).
  - subst abs. intros in1 out1 in2 out2 I' O'. rewrite I', O' in H. assert (OM : forall o, map rf (opt_flow o) = opt_flow (option_map rf o)) by (intros [o|]; reflexivity).
    destruct (H (rf in1) (rf out1) (option_map rf in2) (option_map rf out2)) as [C1 C2]; [cbn [map]; rewrite OM; reflexivity|cbn [map]; rewrite OM; reflexivity|]. split; [exact (z_carries _ _ _ _ C1)|].
    destruct in2 as [i2|], out2 as [o2|]; try exact Logic.I. cbn [option_map] in C2. destruct C2 as [C2 S2]. split; [exact (z_carries _ _ _ _ C2)|]. intros iv E. rewrite !z_size_of. exact (S2 iv E).
Qed.
Lemma z_segments : forall nm iv, segments_rule fs' y nm iv -> segments_rule fs z nm iv.
Proof.
  intros nm iv H spts eff E. cbv zeta. rewrite z_size, z_made.
  assert (EF : forall e, In e (fs_effects fs) -> In (re e) (fs_effects fs')) by (intros e He; apply in_map, He).
  assert (SC : forall e, seg_cost z nm e = seg_cost y nm (re e)) by (intros e; rewrite z_seg; reflexivity).
  destruct (H spts eff E) as [[j [w [W0 [W1 [P [Q0 Q1]]]]]]|[Q0 [Q1 [Q2 Q3]]]].
  - left. exists j, w. split; [exact W0|]. split; [exact W1|]. split; [exact P|]. split; [|exact Q1]. intros i l e Hi He Ei. rewrite SC. exact (Q0 i l (re e) Hi (EF e He) Ei).
  - right. split; [exact Q0|]. split; [exact Q1|]. split; [exact Q2|]. intros i l e Hi He Ei. rewrite SC. exact (Q3 i l (re e) Hi (EF e He) Ei).
Qed.
Lemma z_at_bus : forall (side : component -> list flow) b t, (forall c, side (rc c) = map rf (side c)) ->
  Qsum (map (fun c => Qsum (map (fun f => rate_of z c f t) (filter (connected b) (side c)))) (fs_comps fs))
  == over k (fun u => Qsum (map (fun c => Qsum (map (fun f => rate_of y c f u) (filter (connected (rb b)) (side c)))) (fs_comps fs'))) t / nq k.
Proof.
  intros side b t S. rewrite (over_ext k _ (fun u => Qsum (map (fun c => Qsum (map (fun f => rate_of y (rc c) (rf f) u) (filter (connected b) (side c)))) (fs_comps fs)))).
  - rewrite over_sum. unfold Qdiv. rewrite Qmult_comm, <- BaseFacts.Qsum_scale. apply Qsum_map_eq. intros c _. rewrite over_sum, <- BaseFacts.Qsum_scale. apply Qsum_map_eq. intros f _. rewrite z_rate. unfold Qdiv. rewrite Qmult_comm. reflexivity.
  - intros j _. cbn [split_steps remapped fs_comps]. rewrite map_map. apply Qsum_map_eq. intros c _. rewrite S.
    assert (FM : forall l, filter (connected (rb b)) (map rf l) = map rf (filter (connected b) l)).
    { induction l as [|f l IH]; [reflexivity|]. cbn [map filter]. change (connected (rb b) (rf f)) with (connected b f). destruct (connected b f); cbn [map]; rewrite IH; reflexivity. }
    rewrite FM, map_map. reflexivity.
Qed.
Lemma z_bus : forall b, bus_rule fs' None y (rb b) -> bus_rule fs None z b.
Proof.
  intros b H t Ht. rewrite !z_excess by auto. unfold delivered, taken. rewrite (z_at_bus cp_out b t), (z_at_bus cp_in b t) by reflexivity.
  assert (HB : forall j, (j < k)%nat -> delivered fs' y (rb b) (k * t + j) + excess y (rb b) "excess_input" (k * t + j) == taken fs' y (rb b) (k * t + j) + excess y (rb b) "excess_output" (k * t + j)
     /\ 0 <= excess y (rb b) "excess_input" (k * t + j) /\ 0 <= excess y (rb b) "excess_output" (k * t + j)) by (intros j J; apply H; rewrite f_steps; apply in_step; assumption).
  split; [|split; (apply mean_ge; [exact KP|]); intros j J; apply (HB j J)].
  fold (delivered fs' y (rb b)). fold (taken fs' y (rb b)).
  assert (E : over k (delivered fs' y (rb b)) t + over k (excess y (rb b) "excess_input") t == over k (taken fs' y (rb b)) t + over k (excess y (rb b) "excess_output") t).
  { rewrite <- !over_add. apply over_ext. intros j J. apply (HB j J). }
  unfold delivered, taken in E. unfold Qdiv. rewrite <- !Qmult_plus_distr_l. rewrite E. reflexivity.
Qed.
Lemma z_comp_costs : forall c e t, In c (fs_comps fs) -> (t < n)%nat -> comp_costs fs None z c e t == over k (comp_costs fs' None y (rc c) (re e)) t.
Proof.
  intros c e t Hc Ht. destruct (un_comp _ UN c Hc) as [O _]. unfold comp_costs. rewrite O.
  rewrite (over_ext k _ (fun u => Qsum (map (fun f => flow_costs fs' None y (rc c) (rf f) (re e) u) (cp_flows c)))) by (intros j _; cbn [re_comp cp_onoff]; rewrite O; cbn [option_map]; rewrite Qplus_0_r; fold (rc c); rewrite m_flows, map_map; reflexivity).
  rewrite over_sum, Qplus_0_r. apply Qsum_map_eq. intros f Hf. unfold flow_costs. rewrite (not_governed c f Hc Hf), z_rate.
  assert (E : over k (fun u => flow_costs fs' None y (rc c) (rf f) (re e) u) t == over k (fun u => cost (fs_effects fs) None (f_effects f) e t * (hours fs None t / nq k) * rate_of y (rc c) (rf f) u) t).
  2:{ unfold flow_costs in E. rewrite E, over_scale. field. apply k_nz, KP. }
  apply over_ext. unfold flow_costs. intros j J. rewrite (proj2 (f_none k KP fs c f) (not_governed c f Hc Hf)). cbn [re_flow f_effects]. rewrite (f_cost k KP), of_step, h_step by assumption. fold (rf f). ring.
Qed.
Lemma z_effect : forall e, effect_rule cf fs' None y (re e) -> effect_rule cf fs None z e.
Proof.
  intros e [A1 [A2 [A3 [A4 [A5 [A6 [A7 [A8 [A9 [A10 A11]]]]]]]]]]. pose proof (k_nz k KP) as NZ. rewrite f_steps in A1, A2, A11. rewrite f_investments in A3.
  assert (IA : forall a, inv_sum z a = inv_sum y (re a)) by (intros a; rewrite z_inv_sum; reflexivity).
  assert (OS : op_sum z e = op_sum y (re e)) by (rewrite z_op_sum; reflexivity). assert (AS : all_sum z e = all_sum y (re e)) by (rewrite z_all_sum; reflexivity).
  unfold effect_rule. rewrite OS, IA, AS. split; [|split; [|split; [|split; [exact A4|split; [exact A5|split; [exact A6|split; [exact A7|split; [exact A8|split; [exact A9|split; [exact A10|]]]]]]]]]].
  - intros t Ht. rewrite z_op. rewrite (over_ext k _ (fun u => Qsum (map (fun c => comp_costs fs' None y (rc c) (re e) u) (fs_comps fs)) + op_from_effects fs' None y (re e) u)).
    2:{ intros j J. rewrite (A1 _ (in_step t j Ht J)). cbn [split_steps remapped fs_comps]. rewrite map_map. reflexivity. }
    rewrite over_add, over_sum. apply Qplus_comp.
    + apply Qsum_map_eq. intros c Hc. symmetry. apply z_comp_costs; assumption.
    + unfold op_from_effects. rewrite (over_ext k _ (fun u => Qsum (map (fun e' => Qsum (map (fun kp : nat * param => if Nat.eqb (fst kp) (e_id e) then value None (snd kp) t * op_at y (re e') u else 0) (e_share_op e'))) (fs_effects fs)))).
      * rewrite over_sum. apply Qsum_map_eq. intros a _. rewrite over_sum. apply Qsum_map_eq. intros kp _. destruct (Nat.eqb _ _); [rewrite over_scale, z_op; reflexivity|rewrite over_const; ring].
      * intros j J. cbn [split_steps remapped fs_effects]. rewrite map_map. apply Qsum_map_eq. intros a _. cbn [re_effect e_share_op]. rewrite map_map. apply Qsum_map_eq. intros kp _. cbn [re_entry fst snd]. change (e_id (re e)) with (e_id e). destruct (Nat.eqb _ _); [|reflexivity]. rewrite v_step by exact J. reflexivity.
  - rewrite A2, sumn_over. apply sumn_ext. intros t _. rewrite z_op. reflexivity.
  - rewrite A3. apply Qplus_comp.
    + apply Qsum_map_eq. intros [nm iv] _. cbn [fst snd]. unfold invest_costs, seg_costs, made. rewrite !f_fixed, z_size, z_made, z_seg. reflexivity.
    + unfold inv_from_effects. cbn [split_steps remapped fs_effects]. rewrite map_map. apply Qsum_map_eq. intros a _. rewrite IA. reflexivity.
  - intros t Ht. rewrite z_op. cbn [re_effect e_min_ph e_max_ph] in A11.
    assert (OC : forall p, over k (fun u => value None (spread k p) u * hours fs' None u) t == value None p t * hours fs None t).
    { intros p. rewrite (over_ext k _ (fun _ => value None p t * (hours fs None t / nq k))) by (intros j J; rewrite v_step, h_step by assumption; reflexivity). rewrite over_const. field. exact NZ. }
    split; intros l E.
    + destruct (e_min_ph e) as [p|]; [|discriminate E]. injection E as <-. rewrite <- OC. apply over_le. intros j J. exact (proj1 (A11 _ (in_step t j Ht J)) _ eq_refl).
    + destruct (e_max_ph e) as [p|]; [|discriminate E]. injection E as <-. rewrite <- OC. apply over_le. intros j J. exact (proj2 (A11 _ (in_step t j Ht J)) _ eq_refl).
Qed.
Lemma z_price : forall b, bus_price fs None z b == bus_price fs' None y (rb b).
Proof.
  intros b. unfold bus_price. cbn [re_bus b_penalty]. destruct (b_penalty b) as [p|] eqn:E; cbn [option_map]; [|reflexivity]. rewrite f_steps, sumn_over. apply sumn_ext. intros t Ht. rewrite !z_excess by auto.
  assert (E1 : over k (fun u => value None (spread k p) u * hours fs' None u * (excess y (rb b) "excess_input" u + excess y (rb b) "excess_output" u)) t
    == over k (fun u => value None p t * (hours fs None t / nq k) * (excess y (rb b) "excess_input" u + excess y (rb b) "excess_output" u)) t) by (apply over_ext; intros j J; rewrite v_step, h_step by assumption; reflexivity).
  unfold re_bus in E1. rewrite E in E1. cbn [option_map] in E1. unfold re_bus. rewrite E. cbn [option_map]. rewrite E1, over_scale, over_add. field. apply k_nz, KP.
Qed.
Lemma z_obeys : obeys cf fs' None y -> obeys cf fs None z.
Proof.
  intros O. assert (CI : forall c, In c (fs_comps fs) -> In (rc c) (fs_comps fs')) by (intros c Hc; apply in_map, Hc). constructor.
  - intros c f Hc Hf. apply (z_flow c f Hc Hf). apply (ob_flow _ _ _ _ O); [exact (CI c Hc)|]. rewrite m_flows. apply in_map, Hf.
  - intros c p Hc E. destruct (un_comp _ UN c Hc) as [N _]. rewrite N in E. discriminate E.
  - intros c Hc f g t _ _ _ P. destruct (un_comp _ UN c Hc) as [_ N]. rewrite N in P. destruct P.
  - intros c Hc. exact (z_own c Hc (ob_own _ _ _ _ O _ (CI c Hc))).
  - intros nm iv H. apply z_segments, (ob_segments _ _ _ _ O). rewrite f_investments. exact H.
  - intros b Hb. apply z_bus, (ob_bus _ _ _ _ O). apply m_used. exists b. auto.
  - intros e He. apply z_effect, (ob_effect _ _ _ _ O). apply in_map, He.
  - intros bl ND U. rewrite z_penalty. rewrite (ob_penalty _ _ _ _ O (map rb bl)).
    + rewrite map_map. apply Qsum_map_eq. intros b _. symmetry. apply z_price.
    + assert (INJ : forall l, (forall b, In b l -> used_bus fs b) -> NoDup l -> NoDup (map rb l)).
      { induction l as [|b l IH]; intros UL NL; [constructor|]. inversion NL as [|? ? N1 N2]; subst. cbn [map]. constructor; [|apply IH; [intros q Hq; apply UL; right; exact Hq|exact N2]]. intros H. apply in_map_iff in H. destruct H as [b0 [E H0]]. apply N1.
        replace b with b0; [exact H0|]. apply (proj1 (se_buses _ _ _ SE)); [apply UL; right; exact H0|apply UL; left; reflexivity|]. exact (f_equal b_id E). }
      apply INJ; [intros b Hb; apply U, Hb|exact ND].
    + intros b'. split.
      * intros H. apply in_map_iff in H. destruct H as [b [<- Hb]]. apply m_used. exists b. split; [apply U, Hb|reflexivity].
      * intros H. destruct (proj1 (m_used _ _ _ _ _ _) H) as [b [Hb ->]]. apply in_map, U, Hb.
Qed.
End Evened.

(** ** C101 *)

(** Every plan of the fine system can be evened out, at the same cost. *)
Theorem C101_evened_partial : forall k cf ord ord' fs pm pm', (0 < k)%nat -> (forall l, Permutation (ord l) l) -> (forall l, Permutation (ord' l) l) ->
  build cf ord fs None = Ok pm -> build cf ord' (split_steps k fs) None = Ok pm' -> sensible cf fs None -> splittable fs -> unswitched fs ->
  forall y, feasible pm' y -> exists x, feasible pm x /\ evened_out k cf fs y x /\ objective_value pm x == objective_value pm' y.
Proof.
  intros k cf ord ord' fs pm pm' KP PO PO' B B' SE SP UN y F. pose proof (f_sensible k KP fs cf SE) as SE'.
  pose proof (z_obeys k KP fs cf y SE SP UN (C57_solutions _ _ _ _ _ _ PO' B' SE' F)) as OB. destruct (proj1 (C57_plans _ _ _ _ _ _ PO B SE) OB) as [x [[S1 S2 S3 S4 S5 S6 S7 S8] F']].
  assert (C : evened_out k cf fs y x).
  { constructor.
    - intros c f t Hc Hf Ht. rewrite (S1 c f t Hc Hf Ht), z_rate. reflexivity.
    - intros nm iv H. destruct (S4 nm iv H) as [Q1 _]. rewrite Q1, z_size. reflexivity.
    - intros c s t Hc K Ht. rewrite (S5 c s t Hc K Ht), z_charge. reflexivity.
    - intros e He. destruct (S7 e He) as [_ [Q2 [Q3 _]]]. rewrite Q2, Q3, z_op_sum, z_inv_sum. split; reflexivity.
    - rewrite S8, z_penalty. reflexivity. }
  exists x. split; [exact F'|]. split; [exact C|]. destruct (C21_objective _ _ _ _ _ x B) as [e [Fe Ox]]. destruct (C21_objective _ _ _ _ _ y B') as [e' [Fe' Oy]].
  rewrite find_obj, Fe in Fe'. injection Fe' as <-. assert (He : In e (fs_effects fs)) by (apply find_some in Fe; apply Fe). destruct (eo_effect _ _ _ _ _ C e He) as [T2 T3].
  change (op_sum y (re_effect (spread k) e)) with (op_sum y e) in Oy. change (inv_sum y (re_effect (spread k) e)) with (inv_sum y e) in Oy. rewrite Ox, Oy, T2, T3, (eo_penalty _ _ _ _ _ C). reflexivity.
Qed.
Print Assumptions C101_evened_partial.

(** The least costs on the two grids are the same: a number is the least cost on one of them if it is the least cost on the other. *)
Theorem C101_equal_partial : forall k cf ord ord' fs pm pm' q, (0 < k)%nat -> (forall l, Permutation (ord l) l) -> (forall l, Permutation (ord' l) l) ->
  build cf ord fs None = Ok pm -> build cf ord' (split_steps k fs) None = Ok pm' -> sensible cf fs None -> splittable fs -> unswitched fs ->
  (least pm q <-> least pm' q) /\ ((exists x, feasible pm x) <-> exists y, feasible pm' y).
Proof.
  intros k cf ord ord' fs pm pm' q KP PO PO' B B' SE SP UN. pose proof (C99_finer_partial k cf ord ord' fs pm pm' KP PO PO' B B' SE SP) as DOWN. pose proof (C101_evened_partial k cf ord ord' fs pm pm' KP PO PO' B B' SE SP UN) as UP. split; split.
  - intros [[x [F V]] L]. split; [destruct (DOWN x F) as [y [F' [_ E]]]; exists y; split; [exact F'|]; rewrite E; exact V|]. intros y Fy. destruct (UP y Fy) as [x' [F' [_ E]]]. rewrite <- E. exact (L x' F').
  - intros [[y [F V]] L]. split; [destruct (UP y F) as [x [F' [_ E]]]; exists x; split; [exact F'|]; rewrite E; exact V|]. intros x Fx. destruct (DOWN x Fx) as [y' [F' [_ E]]]. rewrite <- E. exact (L y' F').
  - intros [x F]. destruct (DOWN x F) as [y [F' _]]. exists y. exact F'.
  - intros [y F]. destruct (UP y F) as [x [F' _]]. exists x. exact F'.
Qed.
Print Assumptions C101_equal_partial.

(** With valid data and labels both systems are accepted, so nothing else is needed. *)
Theorem C101_accepted_partial : forall k cf ord fs, (0 < k)%nat -> (forall l, Permutation (ord l) l) -> well_named fs -> valid_data fs None -> sensible cf fs None -> splittable fs -> unswitched fs ->
  exists pm pm', build cf ord fs None = Ok pm /\ build cf ord (split_steps k fs) None = Ok pm'
    /\ (forall q, least pm q <-> least pm' q) /\ ((exists x, feasible pm x) <-> exists y, feasible pm' y).
Proof.
  intros k cf ord fs KP PO WN V SE SP UN. destruct (C99_accepted_partial k cf ord fs KP PO WN V SE SP) as [pm [pm' [B [B' _]]]]. exists pm, pm'. split; [exact B|]. split; [exact B'|].
  pose proof (fun q => C101_equal_partial k cf ord ord fs pm pm' q KP PO PO B B' SE SP UN) as E. split; [intros q; apply (E q)|apply (E 0)].
Qed.
Print Assumptions C101_accepted_partial.

(** A power plant whose price rises, a store and a demand, two hours split into half hours. The fine plan fills the store faster in the first half hour than in the second; evened out it costs the same. *)
Definition works : flow := set_eff (EVOne (na [1; 4])) (fl 201 "Q" gas 30).
Definition works_tank : component := storage_ "Tank" (fl 202 "ch" gas 15) (fl 203 "dis" gas 15) (mkStorage (CapNum 20) (n1 0) (n1 1) (ICNum 0) (Some 0) (Some 5) (n1 1) (n1 1) (n1 0)) false.
Definition works_need : flow := set_profile (Some (na [1; 2])) (fl 204 "Q" gas 10).
Definition fs_works : flow_system := mkFS [0; 1] 2 (NS 1) [costs] [Library.source "Mill" works; works_tank; Library.sink "Need" works_need].
Definition uneven : asg := of_table [("Mill__Q_flow_rate", [25; 15; 10; 10]); ("Mill__Q_sumFlowHours", [30]); ("Tank__ch_flow_rate", [15; 5; 0; 0]); ("Tank__ch_sumFlowHours", [10]); ("Tank__dis_flow_rate", [0; 0; 10; 10]); ("Tank__dis_sumFlowHours", [10]);
  ("Tank_charge_state", [0; 15 # 2; 10; 5; 0]); ("Tank_netto_discharge", [-(15); -(5); 10; 10]); ("Need__Q_flow_rate", [10; 10; 20; 20]); ("Need__Q_sumFlowHours", [30]); ("costs__operation_operation_sum_TS", [25 # 2; 15 # 2; 20; 20]);
  ("costs__operation_operation_sum", [60]); ("costs__Mill__Q__effects_per_flow_hour", [25 # 2; 15 # 2; 20; 20]); ("costs__operation", [60]); ("costs__all_all_sum", [60])].
Lemma uneven_feasible : exists pm, build default_config id_ord (split_steps 2 fs_works) None = Ok pm /\ feasible pm uneven.
Proof. apply run_ok. vm_compute. reflexivity. Qed.
Lemma works_sensible : sensible default_config fs_works None.
Proof.
  apply sensible_check.
  - vm_compute. reflexivity.
  - assert (UB : forall b, used_bus fs_works b -> In b [gas]) by all_buses. split; intros b b' U U' _; destruct (UB b U) as [<-|[]]; destruct (UB b' U') as [<-|[]]; reflexivity.
  - intros c Hc. cbn in Hc. destruct Hc as [<-|[<-|[<-|[]]]]; cbn; split; try constructor; try exact Logic.I. exists "Tank", (fl 202 "ch" gas 15), (fl 203 "dis" gas 15), false. reflexivity.
Qed.
Lemma works_splittable : splittable fs_works.
Proof.
  constructor.
  - intros c f o Hc Hf E. cbn in Hc. destruct Hc as [<-|[<-|[<-|[]]]]; cbn in Hf; repeat (destruct Hf as [<-|Hf]; [discriminate E|]); destruct Hf.
  - intros c o Hc E. cbn in Hc. destruct Hc as [<-|[<-|[<-|[]]]]; discriminate E.
  - intros c s Hc E. cbn in Hc. destruct Hc as [<-|[<-|[<-|[]]]]; try discriminate E. injection E as <-. split; [intros; reflexivity|]. split; [exists 0; reflexivity|]. split; [exists 1; reflexivity|discriminate].
Qed.
Lemma works_unswitched : unswitched fs_works.
Proof.
  constructor.
  - intros c f Hc Hf. cbn in Hc. destruct Hc as [<-|[<-|[<-|[]]]]; cbn in Hf; repeat (destruct Hf as [<-|Hf]; [reflexivity|]); destruct Hf.
  - intros c Hc. cbn in Hc. destruct Hc as [<-|[<-|[<-|[]]]]; split; reflexivity.
  - intros c Hc. cbn in Hc. destruct Hc as [<-|[<-|[<-|[]]]]; exact Logic.I.
Qed.
Example C101_applies : exists pm pm', build default_config id_ord fs_works None = Ok pm /\ build default_config id_ord (split_steps 2 fs_works) None = Ok pm'
  /\ sensible default_config fs_works None /\ splittable fs_works /\ unswitched fs_works /\ feasible pm' uneven /\ objective_value pm' uneven == 60
  /\ exists x, feasible pm x /\ rate_of x (Library.source "Mill" works) works 0 == 20 /\ charge x works_tank 1 == 10 /\ objective_value pm x == 60.
Proof.
  destruct uneven_feasible as [pm' [B' F]]. assert (OV : objective_value pm' uneven == 60).
  { assert (R : match build default_config id_ord (split_steps 2 fs_works) None with Ok m => Qeq_bool (objective_value m uneven) 60 | Err _ => false end = true) by (vm_compute; reflexivity). rewrite B' in R. apply Qeq_bool_iff, R. }
  assert (BB : exists pm, build default_config id_ord fs_works None = Ok pm) by (eexists; vm_compute; reflexivity). destruct BB as [pm B].
  exists pm, pm'. split; [exact B|]. split; [exact B'|]. split; [exact works_sensible|]. split; [exact works_splittable|]. split; [exact works_unswitched|]. split; [exact F|]. split; [exact OV|].
  destruct (C101_evened_partial 2 default_config id_ord id_ord fs_works pm pm' ltac:(lia) id_ord_perm id_ord_perm B B' works_sensible works_splittable works_unswitched uneven F) as [x [F' [C E]]]. exists x. split; [exact F'|].
  split; [rewrite (eo_rate _ _ _ _ _ C (Library.source "Mill" works) works 0%nat) by (cbn; auto || lia); vm_compute; reflexivity|].
  split; [rewrite (eo_charge _ _ _ _ _ C works_tank _ 1%nat (or_intror (or_introl eq_refl)) eq_refl) by (cbn; lia); vm_compute; reflexivity|]. rewrite E. exact OV.
Qed.

(** Its data and labels are valid. *)
Example C101_accepts : well_named fs_works /\ valid_data fs_works None.
Proof.
  assert (U : forall b, used_bus fs_works b -> In b [gas]) by all_buses. split; [apply (named_b_ok _ _ U); vm_compute; reflexivity|apply (valid_b_ok _ _ _ U); vm_compute; reflexivity].
Qed.

(** In general the claim is wrong: a plant that is either off or at full load can deliver in half an hour what it must not exceed, but not in an hour. *)
Definition finer_makes_no_difference : Prop := forall k cf ord fs pm pm' q, (0 < k)%nat -> (forall l, Permutation (ord l) l) -> build cf ord fs None = Ok pm -> build cf ord (split_steps k fs) None = Ok pm' ->
  sensible cf fs None -> splittable fs -> (least pm q <-> least pm' q) /\ ((exists x, feasible pm x) <-> exists y, feasible pm' y).
Definition stiff_oo : onoff := mkOnOff EVNone EVNone None None None None None None None false.
Definition stiff : flow := set_limits (Some 5) (Some 5) None None (set_rel (n1 1) (n1 1) (set_prev (Some (NS 0)) (set_onoff (Some stiff_oo) (fl 205 "Q" gas 10)))).
Definition stiff_plant : component := Library.source "Plant" stiff.
Definition fs_stiff : flow_system := mkFS [0; 1] 2 (NS 1) [costs] [stiff_plant; Library.sink "Need" (fl 206 "Q" gas 10)].
Definition stiff_plan : asg := of_table [("Plant__Q_flow_rate", [10; 0; 0; 0]); ("Plant__Q_sumFlowHours", [5]); ("Plant__Q__OnOff_on", [1; 0; 0; 0]); ("Plant__Q__OnOff_totalOnHours", [1 # 2]); ("Plant__Q__OnOff_switchOn", [1; 0; 0; 0]); ("Plant__Q__OnOff_switchOff", [0; 1; 0; 0]); ("Plant__Q__OnOff_nrSwitchOn", [1]);
   ("Need__Q_flow_rate", [10; 0; 0; 0]); ("Need__Q_sumFlowHours", [5])].
Lemma stiff_feasible : exists pm, build default_config id_ord (split_steps 2 fs_stiff) None = Ok pm /\ feasible pm stiff_plan.
Proof. apply run_ok. vm_compute. reflexivity. Qed.
Lemma stiff_sensible : sensible default_config fs_stiff None.
Proof.
  apply sensible_check.
  - vm_compute. reflexivity.
  - assert (UB : forall b, used_bus fs_stiff b -> In b [gas]) by all_buses. split; intros b b' U U' _; destruct (UB b U) as [<-|[]]; destruct (UB b' U') as [<-|[]]; reflexivity.
  - intros c Hc. cbn in Hc. destruct Hc as [<-|[<-|[]]]; cbn; split; try constructor; exact Logic.I.
Qed.
Lemma stiff_splittable : splittable fs_stiff.
Proof.
  constructor.
  - intros c f o Hc Hf E. cbn in Hc. destruct Hc as [<-|[<-|[]]]; cbn in Hf; repeat (destruct Hf as [<-|Hf]; [try discriminate E; injection E as <-; reflexivity|]); destruct Hf.
  - intros c o Hc E. cbn in Hc. destruct Hc as [<-|[<-|[]]]; discriminate E.
  - intros c s Hc E. cbn in Hc. destruct Hc as [<-|[<-|[]]]; discriminate E.
Qed.
Theorem C101_refuted : ~ finer_makes_no_difference.
Proof.
  intros H. destruct stiff_feasible as [pm' [B' F]]. destruct (build default_config id_ord fs_stiff None) as [pm|e] eqn:B; [|vm_compute in B; discriminate B].
  destruct (H 2%nat default_config id_ord fs_stiff pm pm' 0 ltac:(lia) id_ord_perm B B' stiff_sensible stiff_splittable) as [_ [_ X]]. destruct (X (ex_intro _ _ F)) as [x Fx].
  pose proof (C57_solutions _ _ _ _ _ _ id_ord_perm B stiff_sensible Fx) as OB. clear H X F B B' Fx pm pm'.
  destruct (ob_flow _ _ _ _ OB stiff_plant stiff (or_introl eq_refl) (or_introl eq_refl)) as [[_ A2 A3 _ _ _ [A7 [A8 _]]] _].
  assert (G : governed fs_stiff None stiff_plant stiff <> None) by (cbn; discriminate).
  assert (R : forall t, (t < 2)%nat -> rate_of x stiff_plant stiff t == 0 \/ rate_of x stiff_plant stiff t == 10).
  { intros t Ht. destruct (runs x stiff_plant stiff t) eqn:E; [right|left; exact (A2 G t Ht E)]. destruct (A3 G t Ht E) as [_ [L1 L2]]. unfold within_limits in *. cbn in L1, L2. unfold value in L1, L2. cbn in L1, L2. lra. }
  pose proof (A7 5 eq_refl) as L. pose proof (A8 5 eq_refl) as U. unfold sumn, hours, stamp in L, U. cbn [fs_stiff fs_times fs_end steps length seq map Qsum fold_right selected nth app Nat.ltb Nat.leb] in L, U.
  destruct (R 0%nat ltac:(lia)) as [R0|R0]; destruct (R 1%nat ltac:(lia)) as [R1|R1]; rewrite R0, R1 in L, U; revert L U; vm_compute; intros L U; try (apply L; reflexivity); try (apply U; reflexivity).
Qed.
Print Assumptions C101_refuted.
