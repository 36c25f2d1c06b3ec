(** Claim C77: adding equipment that may stand idle never makes the best result worse. *)
From Coq Require Import String Permutation.
From Verif Require Import Base BaseFacts MathModel Spec Structure Params Features Elements Library System SysSpec AdmitSpec NameSpec NameFacts ValidSpec ValidCheck CtxFacts NavFacts PropsOnOff PropsComp PropsEffects
     PlanSpec Example PlanCheck PlanSame PlanSound PlanSys TotalSystem ExamplePoints PropsPlan PropsTotal PropsRelax.

(** ** Specification *)

(** The system with the component [c] added. *)
Definition extended (fs : flow_system) (c : component) (fs' : flow_system) : Prop :=
  exists l1 l2, fs_comps fs = l1 ++ l2 /\ fs' = mkFS (fs_times fs) (fs_end fs) (fs_prev_dt fs) (fs_effects fs) (l1 ++ c :: l2).

(** On/off rules that allow to stay off: no minimum of running hours, no limit on the time without running. *)
Definition may_rest (o : onoff) : Prop :=
  (forall q, oo_on_min o = Some q -> q <= 0) /\ (forall q, oo_on_max o = Some q -> 0 <= q) /\ (forall q, oo_sw_max o = Some q -> 0 <= q) /\ oo_coff_max o = None.
(** An investment that may be declined at no cost. *)
Definition may_decline (iv : invest) : Prop := iv_optional iv = true /\ entries (iv_divest iv) = [].
Record flow_rests (cf : config) (fs : flow_system) (idx : option (list nat)) (c : component) (f : flow) : Prop := {
  (** a rate of zero is within the limits of a flow of given size without on/off behaviour *)
  fr_limits : governed fs idx c f = None -> forall q t, sized cf c f = SzNum q -> (t < steps fs idx)%nat -> within_limits cf idx c f t 0;
  fr_onoff : forall o, governed fs idx c f = Some o -> may_rest o /\ was_on cf f = false;
  fr_size : match sized cf c f with SzNum q => 0 <= given_size cf q | SzInv iv => may_decline iv end;
  fr_hours : (forall q, f_fh_min f = Some q -> q <= 0) /\ forall q, f_fh_max f = Some q -> 0 <= q;
  fr_load : (forall q, f_lf_min f = Some q -> q <= 0) /\ forall q, f_lf_max f = Some q -> 0 <= q
}.
Record storage_rests (cf : config) (fs : flow_system) (idx : option (list nat)) (s : storage) : Prop := {
  sr_eta : forall t, (t < steps fs idx)%nat -> ~ value idx (st_eta_d s) t == 0;
  sr_levels : match st_cap s with
    | CapNum q => forall t, (t <= steps fs idx)%nat -> value idx (st_relmin s) t * q <= 0 /\ 0 <= value idx (st_relmax s) t * q
    | CapInv iv => may_decline iv /\ forall t, (t <= steps fs idx)%nat -> 0 <= value idx (st_relmax s) t * max_size cf iv
    end;
  sr_init : forall q, st_init s = ICNum q -> q == 0;
  sr_final : (forall q, st_fmax s = Some q -> 0 <= q) /\ forall q, st_fmin s = Some q -> q <= 0
}.
Record may_idle (cf : config) (fs : flow_system) (idx : option (list nat)) (c : component) : Prop := {
  mi_flows : forall f, In f (cp_flows c) -> flow_rests cf fs idx c f;
  mi_onoff : forall p, cp_onoff c = Some p -> may_rest p /\ List.last (comp_states cf c) false = false;
  mi_kind : match cp_kind c with
    | StorageC s => storage_rests cf fs idx s
    (** segments that are left while off, or one that begins at zero for all flows *)
    | Params.Segmented segs => cp_onoff c <> None \/ exists k, forall f, In f (cp_flows c) -> exists ab, nth_error (segments_of segs f) k = Some ab /\ forall t, (t < steps fs idx)%nat -> value idx (fst ab) t == 0
    | _ => True
    end
}.
(** No minimum for a size that may be chosen: the limits of the rate and of the stored energy would force the investment. *)
Definition unforced (cf : config) (fs : flow_system) (idx : option (list nat)) (c : component) : Prop :=
  (forall f iv t, In f (cp_flows c) -> governed fs idx c f = None -> sized cf c f = SzInv iv -> (t < steps fs idx)%nat -> within_limits cf idx c f t 0)
  /\ forall s iv t, cp_kind c = StorageC s -> st_cap s = CapInv iv -> (t <= steps fs idx)%nat -> value idx (st_relmin s) t * fst (cap_range cf (st_cap s)) <= 0.
(** The component does nothing: no rates, no running, no starts, no size, nothing stored. *)
Definition idle (cf : config) (fs : flow_system) (idx : option (list nat)) (y : asg) (c : component) : Prop :=
  (forall f t, In f (cp_flows c) -> (t < steps fs idx)%nat -> rate_of y c f t == 0)
  /\ (forall name iv, In (name, iv) (flat_map (flow_investment cf c) (cp_flows c) ++ storage_investment c) -> y (inv name "size") 0%nat == 0 /\ y (inv name "isInvested") 0%nat == 0).

(** ** Facts *)
Lemma rest_rules : forall fs idx states o on, (forall t, on t == 0) -> List.last states false = false -> may_rest o -> onoff_rules fs idx states o on.
Proof.
  intros fs idx states o on Z L [R1 [R2 [R3 R4]]]. assert (T : sumn (steps fs idx) (fun t => hours fs idx t * on t) == 0).
  { unfold sumn. apply Qsum_zero. intros q Hq. apply in_map_iff in Hq. destruct Hq as [t [<- _]]. rewrite (Z t). ring. }
  assert (NR : forall s t, ~ is_run on s t) by (intros s t [A [B _]]; specialize (B s ltac:(lia)); rewrite (Z s) in B; discriminate B).
  assert (P : prior_hours (fs_prev_dt fs) true states == 0).
  { unfold prior_hours. assert (TR : trailing true states = 0%nat).
    { unfold trailing. destruct states as [|b states] using rev_ind; [reflexivity|]. rewrite last_last in L. subst b. rewrite rev_app_distr. reflexivity. }
    rewrite TR. unfold last_hours. destruct (fs_prev_dt fs) as [q|l]; [cbn; ring|]. rewrite Nat.sub_0_r, skipn_all. reflexivity. }
  split; [intros q E; rewrite T; exact (R1 q E)|]. split; [intros q E; rewrite T; exact (R2 q E)|]. split; [|split].
  - intros q E. unfold starts. replace (filter _ _) with (@nil nat); [cbn; exact (R3 q E)|]. symmetry. generalize (seq 0 (steps fs idx)). intros l. induction l as [|t l IH]; [reflexivity|]. cbn [filter]. assert (F : Qeq_bool (on t) 1 = false). { destruct (Qeq_bool (on t) 1) eqn:E1; [|reflexivity]. apply Qeq_bool_iff in E1. rewrite (Z t) in E1. discriminate E1. } rewrite F, andb_false_r. exact IH.
  - split; [intros p s t _ _ R; exfalso; exact (NR s t R)|]. split; [intros p s t _ _ R; exfalso; exact (NR s t R)|]. intros p _ H _. rewrite P in H. exfalso. exact (Qlt_irrefl _ H).
  - split; [intros p s t E; congruence|]. split; [intros p s t _ _ _ H; rewrite (Z (S t)) in H; discriminate H|]. intros p _ _ _. rewrite (Z 0%nat). reflexivity.
Qed.
Lemma rest_marks : forall y e was n, (forall t, y (oo e "on") t == 0) -> (forall t, y (oo e "switchOn") t == 0) -> onoff_marks y e was n.
Proof. intros y e was n A B t _. split; [left; apply A|]. split; [left; apply B|]. rewrite (A t), (B t). split; [intros H; discriminate H|intros [_ H]; discriminate H]. Qed.

Fixpoint begins (p l : list string) : bool :=
  match p, l with [], _ => true | a :: p, b :: l => (String.eqb a b && begins p l)%bool | _, [] => false end.
Lemma begins_app : forall p r, begins p (p ++ r) = true.
Proof. induction p as [|a p IH]; intros r; [reflexivity|]. cbn. rewrite String.eqb_refl. apply IH. Qed.
Lemma begins_inv : forall p l, begins p l = true -> exists r, l = p ++ r.
Proof. induction p as [|a p IH]; intros l H; [exists l; reflexivity|]. destruct l as [|b l]; [discriminate H|]. cbn in H. apply andb_true_iff in H. destruct H as [E H]. apply String.eqb_eq in E. subst b. destruct (IH l H) as [r ->]. exists r. reflexivity. Qed.

Lemma words_flow : forall c f w, exists r, words (vlabel (flow_name c f) w) = words (cp_label c) ++ r.
Proof. intros. unfold vlabel, flow_name, flow_full. rewrite words_us, words_us2, <- app_assoc. eexists. reflexivity. Qed.
Lemma words_part : forall a p w, exists r, words (vlabel (cat [a; "__"; p]) w) = words a ++ r.
Proof. intros. unfold vlabel. rewrite words_us, words_us2, <- app_assoc. eexists. reflexivity. Qed.
Lemma words_flow_part : forall c f p w, exists r, words (vlabel (cat [flow_name c f; "__"; p]) w) = words (cp_label c) ++ r.
Proof. intros. destruct (words_part (flow_name c f) p w) as [r E]. rewrite E. unfold flow_name, flow_full. rewrite words_us2, <- app_assoc. eexists. reflexivity. Qed.
Lemma words_var : forall a w, exists r, words (vlabel a w) = words a ++ r.
Proof. intros. unfold vlabel. rewrite words_us. eexists. reflexivity. Qed.

Lemma Qsum_insert : forall {A} (h : A -> Q) l1 c l2, Qsum (map h (l1 ++ c :: l2)) == Qsum (map h (l1 ++ l2)) + h c.
Proof. intros. rewrite !map_app, !Qsum_app. cbn [map]. rewrite Qsum_cons. ring. Qed.

Section Idle.
Variables (cf : config) (idx : option (list nat)) (fs : flow_system) (c : component) (l1 l2 : list component) (x : asg).
Hypothesis HC : fs_comps fs = l1 ++ l2.
Local Notation fs' := (mkFS (fs_times fs) (fs_end fs) (fs_prev_dt fs) (fs_effects fs) (l1 ++ c :: l2)).
Hypothesis W : well_named fs'.
Hypothesis D : distinct_buses fs'.

(** The buses only [c] is connected to, and the labels whose variables are set to zero. *)
Definition known (b : bus) : bool := existsb (fun g => Nat.eqb (b_id (f_bus g)) (b_id b)) (flat_map cp_flows (fs_comps fs)).
Definition quiet : list string := cp_label c :: map (fun f => b_lab (f_bus f)) (filter (fun f => negb (known (f_bus f))) (cp_flows c)).
Definition y : asg := fun l => if existsb (fun z => begins (words z) (words l)) quiet then fun _ => 0 else x l.

Lemma in_ext : forall c0, In c0 (fs_comps fs) -> In c0 (l1 ++ c :: l2).
Proof. intros c0 H. rewrite HC in H. apply in_app_or in H. apply in_or_app. destruct H; [left|right; right]; assumption. Qed.
Lemma ext_in : forall c0, In c0 (l1 ++ c :: l2) -> c0 = c \/ In c0 (fs_comps fs).
Proof. intros c0 H. rewrite HC. apply in_app_or in H. destruct H as [H|[<-|H]]; auto; right; apply in_or_app; auto. Qed.
Lemma c_in : In c (fs_comps fs').
Proof. cbn. apply in_or_app. right. left. reflexivity. Qed.
Lemma used_ext : forall b, used_bus fs b -> used_bus fs' b.
Proof. intros b [c0 [f [Hc [Hf E]]]]. exists c0, f. split; [apply in_ext; exact Hc|auto]. Qed.
Lemma known_used : forall b, used_bus fs' b -> (known b = true <-> used_bus fs b).
Proof.
  intros b U. unfold known. rewrite existsb_exists. split.
  - intros [g [I E]]. apply in_flat_map in I. destruct I as [c0 [Hc Hg]]. apply Nat.eqb_eq in E. exists c0, g. split; [exact Hc|]. split; [exact Hg|]. apply (proj1 D); [exists c0, g; split; [apply in_ext; exact Hc|auto]|exact U|exact E].
  - intros [c0 [f [Hc [Hf <-]]]]. exists f. split; [apply in_flat_map; eauto|apply Nat.eqb_refl].
Qed.
Lemma quiet_unrelated : forall a, unrelated (cp_label c) a -> (forall b, used_bus fs' b -> known b = false -> unrelated (b_lab b) a) -> forall z, In z quiet -> unrelated z a.
Proof.
  intros a A B z [<-|I]; [exact A|]. apply in_map_iff in I. destruct I as [f [<- I]]. apply filter_In in I. destruct I as [I K]. apply B; [exists c, f; split; [exact c_in|auto]|]. apply negb_true_iff. exact K.
Qed.
Lemma keep : forall a l, (forall z, In z quiet -> unrelated z a) -> (exists r, words l = words a ++ r) -> y l = x l.
Proof.
  intros a l U [r E]. unfold y. destruct (existsb _ quiet) eqn:X; [|reflexivity]. exfalso. apply existsb_exists in X. destruct X as [z [I X]]. apply begins_inv in X. destruct X as [r' X]. rewrite E in X. exact (unrelated_split _ _ (U z I) r' r (eq_sym X)).
Qed.
Lemma zero : forall l, (exists r, words l = words (cp_label c) ++ r) -> y l = fun _ => 0.
Proof. intros l [r E]. unfold y, quiet. cbn [existsb]. rewrite E, begins_app. reflexivity. Qed.
Lemma un_comp : forall c0, In c0 (fs_comps fs) -> forall z, In z quiet -> unrelated z (cp_label c0).
Proof.
  intros c0 H. apply quiet_unrelated.
  - destruct (wn_parts _ W) as [_ [P _]]. cbn [fs_comps] in P. rewrite map_app in P. cbn [map] in P. apply FOP_app in P. destruct P as [_ [P Q]]. inversion P as [|? ? P1 _]; subst. rewrite Forall_forall in P1. rewrite HC in H. apply in_app_or in H. destruct H as [H|H].
    + apply unrelated_sym. apply Q; [apply in_map; exact H|left; reflexivity].
    + apply P1. apply in_map. exact H.
  - intros b U _. apply (wn_bus _ W); [exact U|]. apply top_comp. cbn [fs_comps]. apply in_ext. exact H.
Qed.
Lemma un_effect : forall e, In e (fs_effects fs) -> forall z, In z quiet -> unrelated z (e_label e).
Proof.
  intros e H. apply quiet_unrelated.
  - destruct (wn_parts _ W) as [_ [_ [P _]]]. apply unrelated_sym. apply P; [exact H|exact c_in].
  - intros b U _. apply (wn_bus _ W); [exact U|]. apply top_effect. exact H.
Qed.
Lemma un_effects : forall z, In z quiet -> unrelated z "Effects".
Proof.
  apply quiet_unrelated.
  - destruct (wn_parts _ W) as [_ [_ [_ [_ P]]]]. apply unrelated_sym. apply P. exact c_in.
  - intros b U _. apply (wn_bus _ W); [exact U|]. left. reflexivity.
Qed.
Lemma un_bus : forall b, used_bus fs b -> forall z, In z quiet -> unrelated z (b_lab b).
Proof.
  intros b U. apply quiet_unrelated.
  - apply unrelated_sym. apply (wn_bus _ W); [apply used_ext; exact U|]. apply top_comp. exact c_in.
  - intros b' U' K. apply (wn_buses _ W); [exact U'|apply used_ext; exact U|]. intros ->. apply (known_used b U') in U. congruence.
Qed.
Lemma kept_inv : forall name iv p w, In (name, iv) (investments cf fs) -> y (vlabel (cat [name; "__"; p]) w) = x (vlabel (cat [name; "__"; p]) w).
Proof.
  intros name iv p w H. unfold investments in H. apply in_flat_map in H. destruct H as [c0 [Hc H]]. apply (keep (cp_label c0) _ (un_comp c0 Hc)). apply in_app_or in H. destruct H as [H|H].
  - apply in_flat_map in H. destruct H as [f [_ H]]. unfold flow_investment in H. destruct (sized cf c0 f); [destruct H|]. destruct H as [H|[]]. injection H as <- _. apply words_flow_part.
  - unfold storage_investment in H. destruct (cp_kind c0) as [| | |s|]; try destruct H. destruct (st_cap s); [destruct H|]. destruct H as [H|[]]. injection H as <- _. apply words_part.
Qed.
Lemma y_same : same_plan cf fs idx x y.
Proof.
  constructor.
  - intros c0 f t Hc _ _. unfold rate_of. rewrite (keep _ _ (un_comp c0 Hc) (words_flow c0 f _)). reflexivity.
  - intros c0 f t Hc _ _ _. unfold on_of, oo. rewrite !(keep _ _ (un_comp c0 Hc) (words_flow_part c0 f _ _)). split; reflexivity.
  - intros c0 t Hc _ _. unfold oo. rewrite !(keep _ _ (un_comp c0 Hc) (words_part _ _ _)). split; reflexivity.
  - intros name iv H. unfold inv. rewrite !(kept_inv name iv _ _ H). split; [reflexivity|]. split; [reflexivity|]. intros. unfold seg_cost. rewrite (kept_inv name iv _ _ H). reflexivity.
  - intros c0 s t Hc _ _. unfold charge. rewrite (keep _ _ (un_comp c0 Hc) (words_var _ _)). reflexivity.
  - intros b t U _. unfold excess. destruct (b_penalty b); [|split; reflexivity]. rewrite !(keep _ _ (un_bus b U) (words_var _ _)). split; reflexivity.
  - intros e He. unfold op_at, op_sum, inv_sum, all_sum. rewrite !(keep _ _ (un_effect e He) (words_part _ _ _)). repeat split; reflexivity.
  - unfold penalty_sum. rewrite (keep "Effects" _ un_effects); [reflexivity|]. eexists. reflexivity.
Qed.

(** The new component. *)
Lemma z_rate : forall f t, rate_of y c f t = 0. Proof. intros. unfold rate_of. rewrite (zero _ (words_flow c f _)). reflexivity. Qed.
Lemma z_foo : forall f w t, y (oo (flow_name c f) w) t = 0. Proof. intros. unfold oo. rewrite (zero _ (words_flow_part c f _ _)). reflexivity. Qed.
Lemma z_oo : forall w t, y (oo (cp_label c) w) t = 0. Proof. intros. unfold oo. rewrite (zero _ (words_part _ _ _)). reflexivity. Qed.
Lemma z_charge : forall t, charge y c t = 0. Proof. intros. unfold charge. rewrite (zero _ (words_var _ _)). reflexivity. Qed.
Lemma z_inv : forall name iv p w t, In (name, iv) (flat_map (flow_investment cf c) (cp_flows c) ++ storage_investment c) -> y (vlabel (cat [name; "__"; p]) w) t = 0.
Proof.
  intros name iv p w t H. rewrite zero; [reflexivity|]. apply in_app_or in H. destruct H as [H|H].
  - apply in_flat_map in H. destruct H as [f [_ H]]. unfold flow_investment in H. destruct (sized cf c f); [destruct H|]. destruct H as [H|[]]. injection H as <- _. apply words_flow_part.
  - unfold storage_investment in H. destruct (cp_kind c) as [| | |s|]; try destruct H. destruct (st_cap s); [destruct H|]. destruct H as [H|[]]. injection H as <- _. apply words_part.
Qed.
Hypothesis M : may_idle cf fs idx c.
Hypothesis UF : unforced cf fs idx c.
Hypothesis HP : forall t, (t < steps fs idx)%nat -> 0 <= hours fs idx t.

Lemma declines : forall name iv, In (name, iv) (flat_map (flow_investment cf c) (cp_flows c) ++ storage_investment c) -> may_decline iv.
Proof.
  intros name iv H. apply in_app_or in H. destruct H as [H|H].
  - apply in_flat_map in H. destruct H as [f [Hf H]]. pose proof (fr_size _ _ _ _ _ (mi_flows _ _ _ _ M f Hf)) as S0. unfold flow_investment in H. destruct (sized cf c f); [destruct H|]. destruct H as [H|[]]. injection H as _ <-. exact S0.
  - pose proof (mi_kind _ _ _ _ M) as K. unfold storage_investment in H. destruct (cp_kind c) as [| | |s|]; try destruct H. pose proof (sr_levels _ _ _ _ K) as L. destruct (st_cap s); [destruct H|]. destruct H as [H|[]]. injection H as _ <-. apply L.
Qed.
Lemma horizon_nonneg : 0 <= horizon fs idx.
Proof. unfold horizon, sumn. apply Qsum_nonneg. intros q Hq. apply in_map_iff in Hq. destruct Hq as [t [<- Ht]]. apply in_seq in Ht. apply HP. lia. Qed.
Lemma declined_size : forall iv s d, may_decline iv -> s == 0 -> d == 0 -> allowed_size cf iv s d.
Proof. intros iv s d [O _] S0 D0. unfold allowed_size. rewrite O. destruct (fixed_size iv); left; split; assumption. Qed.
Lemma flow_idle : forall f, In f (cp_flows c) -> flow_rule cf fs idx y c f.
Proof.
  intros f Hf. destruct (mi_flows _ _ _ _ M f Hf) as [R1 R2 R3 [R4 R5] [R6 R7]]. assert (OFF : forall t, runs y c f t = false) by (intros t; unfold runs, on_of; rewrite z_foo; reflexivity).
  assert (SZ : forall iv w t, sized cf c f = SzInv iv -> y (inv (flow_name c f) w) t = 0).
  { intros iv w t E. unfold inv. apply (z_inv _ iv). apply in_or_app. left. apply in_flat_map. exists f. split; [exact Hf|]. unfold flow_investment. rewrite E. left. reflexivity. }
  assert (T : sumn (steps fs idx) (fun t => hours fs idx t * rate_of y c f t) == 0) by (unfold sumn; apply Qsum_zero; intros q Hq; apply in_map_iff in Hq; destruct Hq as [t [<- _]]; rewrite z_rate; ring).
  assert (SO : 0 <= size_of cf y c f) by (unfold size_of; destruct (sized cf c f) as [q|iv] eqn:E; [exact R3|rewrite (SZ iv _ _ eq_refl); apply Qle_refl]).
  split; [constructor|].
  - intros G t Ht. rewrite z_rate. destruct (sized cf c f) as [q|iv] eqn:E; [exact (R1 G q t eq_refl Ht)|exact (proj1 UF f iv t Hf G E Ht)].
  - intros _ t _ _. rewrite z_rate. reflexivity.
  - intros _ t _ H. rewrite OFF in H. discriminate H.
  - intros o G. destruct (R2 o G) as [A B]. apply rest_rules; [intros t; rewrite OFF; reflexivity|exact B|exact A].
  - intros iv E. rewrite E in R3. apply declined_size; [exact R3|rewrite (SZ iv _ _ E); reflexivity|rewrite (SZ iv _ _ E); reflexivity].
  - intros iv E t Ht. assert (S0 : size_of cf y c f = 0) by (unfold size_of; rewrite E; apply (SZ iv _ _ E)). rewrite S0, z_rate. destruct (f_profile f); [ring|]. split; [|intros _]; ring_simplify; apply Qle_refl.
  - cbv zeta. pose proof horizon_nonneg as HN. split; [intros q E; rewrite T; exact (R4 q E)|]. split; [intros q E; rewrite T; exact (R5 q E)|]. split; intros q E; rewrite T.
    + specialize (R6 q E). assert (0 <= (- q) * size_of cf y c f * horizon fs idx) by (repeat apply Qmult_le_0_compat; try assumption; lra). lra.
    + specialize (R7 q E). repeat apply Qmult_le_0_compat; assumption.
  - intros _. apply rest_marks; intros t; rewrite z_foo; reflexivity.
Qed.
Lemma running_idle : forall p, cp_onoff c = Some p -> running_rule cf fs idx y c p.
Proof.
  intros p E. destruct (mi_onoff _ _ _ _ M p E) as [A B]. split; [apply rest_marks; intros t; rewrite z_oo; reflexivity|]. split.
  - intros t _. rewrite z_oo. split; [intros _ f _; rewrite z_rate; reflexivity|reflexivity].
  - apply rest_rules; [intros t; rewrite z_oo; reflexivity|exact B|exact A].
Qed.
Lemma exclusion_idle : exclusion_rule fs idx y c.
Proof. intros f g t _ _ _ _ _ _. left. rewrite z_rate. reflexivity. Qed.
Lemma weighted_idle : forall factors l t, weighted idx y c factors l t == 0.
Proof. intros. unfold weighted. apply Qsum_zero. intros q Hq. apply in_map_iff in Hq. destruct Hq as [f [<- _]]. destruct (factor_of factors f); [rewrite z_rate; ring|reflexivity]. Qed.
Lemma carries_idle : forall rel abs i o, carries fs idx y c rel abs i o.
Proof. intros rel abs i o t _. unfold on_of. rewrite !z_rate, z_foo. destruct abs; ring. Qed.
Lemma storage_idle : forall s ch dis, cp_kind c = StorageC s -> storage_rule cf fs idx y c s ch dis.
Proof.
  intros s ch dis K. pose proof (mi_kind _ _ _ _ M) as R. rewrite K in R. destruct R as [R1 R2 R3 [R4 R5]].
  assert (SZ : forall iv w t, st_cap s = CapInv iv -> y (inv (cp_label c) w) t = 0).
  { intros iv w t E. unfold inv. apply (z_inv _ iv). apply in_or_app. right. unfold storage_investment. rewrite K, E. left. reflexivity. }
  repeat split.
  - apply R1. assumption.
  - rewrite !z_charge, !z_rate. field. apply R1. assumption.
  - rewrite z_charge. unfold capacity. destruct (st_cap s) as [q|iv] eqn:E; [apply R2; assumption|]. rewrite (SZ iv _ _ eq_refl). ring_simplify. apply Qle_refl.
  - rewrite z_charge. unfold capacity. destruct (st_cap s) as [q|iv] eqn:E; [apply R2; assumption|]. rewrite (SZ iv _ _ eq_refl). ring_simplify. apply Qle_refl.
  - rewrite z_charge. destruct (st_cap s) as [q|iv] eqn:E; [apply R2; assumption|]. rewrite <- E. apply (proj2 UF s iv t K E). assumption.
  - rewrite z_charge. destruct (st_cap s) as [q|iv] eqn:E; [apply R2; assumption|]. apply R2. assumption.
  - intros iv E. rewrite E in R2. apply declined_size; [apply R2|rewrite (SZ iv _ _ E); reflexivity|rewrite (SZ iv _ _ E); reflexivity].
  - intros q E. rewrite z_charge. symmetry. apply R3. exact E.
  - intros _. rewrite !z_charge. reflexivity.
  - intros _ q E. rewrite z_charge. apply R4. exact E.
  - intros _ q E. rewrite z_charge. apply R5. exact E.
Qed.
Lemma own_idle : own_rule cf fs idx y c.
Proof.
  pose proof (mi_kind _ _ _ _ M) as R. unfold own_rule. destruct (cp_kind c) as [|eqs|segs|s|rel abs] eqn:K.
  - exact Logic.I.
  - intros factors t _ _. rewrite !weighted_idle. reflexivity.
  - intros t Ht. destruct R as [R|[k R]].
    + right. split; [exact R|]. split; [rewrite z_oo; reflexivity|]. intros f _. rewrite z_rate. reflexivity.
    + destruct (cp_onoff c) as [p|] eqn:E.
      * right. split; [congruence|]. split; [rewrite z_oo; reflexivity|]. intros f _. rewrite z_rate. reflexivity.
      * left. exists k, 0. split; [apply Qle_refl|]. split; [discriminate|]. split; [|intros N; congruence]. intros f Hf. destruct (R f Hf) as [ab [A B]]. exists ab. split; [exact A|]. unfold on_piece. rewrite z_rate, (B t Ht). ring.
  - intros ch dis _ _. apply storage_idle. exact K.
  - intros in1 out1 in2 out2 EI EO. split; [apply carries_idle|]. destruct in2 as [i2|]; [|exact Logic.I]. destruct out2 as [o2|]; [|exact Logic.I]. split; [apply carries_idle|]. intros iv E.
    assert (SI : forall f iv', In f (cp_flows c) -> sized cf c f = SzInv iv' -> size_of cf y c f = 0).
    { intros f iv' Hf E'. unfold size_of. rewrite E'. unfold inv. apply (z_inv _ iv'). apply in_or_app. left. apply in_flat_map. exists f. split; [exact Hf|]. unfold flow_investment. rewrite E'. left. reflexivity. }
    assert (I1 : In in1 (cp_flows c)) by (unfold cp_flows; rewrite EI; left; reflexivity). assert (I2 : In i2 (cp_flows c)) by (unfold cp_flows; rewrite EI; right; left; reflexivity).
    assert (S2 : exists iv', sized cf c i2 = SzInv iv' \/ exists q, f_size i2 = SzNum q /\ sized cf c i2 = SzInv iv').
    { unfold sized. rewrite K, EI. cbn [opt_flow]. rewrite Nat.eqb_refl, E. destruct (f_size i2) as [q|iv2]; [eexists; left; reflexivity|eexists; left; reflexivity]. }
    assert (S1 : exists iv', sized cf c in1 = SzInv iv').
    { unfold sized. rewrite K, EI. cbn [opt_flow]. destruct (Nat.eqb (f_id in1) (f_id i2)); [rewrite E; destruct (f_size i2); eauto|eauto]. }
    destruct S1 as [iv1 S1]. destruct S2 as [iv2 S2]. assert (S3 : sized cf c i2 = SzInv iv2) by (destruct S2 as [S2|[q [_ S2]]]; exact S2). rewrite (SI _ _ I1 S1), (SI _ _ I2 S3). reflexivity.
Qed.
Lemma Qsum_all_zero : forall {A} (h : A -> Q) l, (forall a, In a l -> h a == 0) -> Qsum (map h l) == 0.
Proof. intros A h l H. apply Qsum_zero. intros q Hq. apply in_map_iff in Hq. destruct Hq as [a [<- I]]. auto. Qed.
Lemma costs_idle : forall e t, comp_costs fs idx y c e t == 0.
Proof.
  intros e t. assert (OC : forall name p, (forall w, y (oo name w) t = 0) -> onoff_costs fs idx y name p e t == 0) by (intros name p Z; unfold onoff_costs; rewrite !Z; ring).
  unfold comp_costs. rewrite Qsum_all_zero.
  - destruct (cp_onoff c) as [p|]; [rewrite OC by (intros w; apply z_oo)|]; ring.
  - intros f _. unfold flow_costs. rewrite z_rate. destruct (governed fs idx c f) as [p|]; [rewrite OC by (intros w; apply z_foo)|]; ring.
Qed.
Lemma icosts_idle : forall name iv e, In (name, iv) (flat_map (flow_investment cf c) (cp_flows c) ++ storage_investment c) -> invest_costs fs y name iv e == 0.
Proof.
  intros name iv e H. destruct (declines name iv H) as [O V]. unfold invest_costs, made, inv. rewrite O, !(z_inv name iv _ _ _ H). unfold cost at 3. rewrite V. unfold seg_costs. assert (SC : seg_cost y name e == 0) by (unfold seg_cost; rewrite (z_inv name iv _ _ _ H); reflexivity).
  destruct (iv_seg iv) as [[spts eff]|]; [rewrite (Qsum_all_zero _ eff) by (intros il _; destruct (Nat.eqb _ _); [exact SC|reflexivity])|]; cbn [map]; change (Qsum []) with 0; ring.
Qed.
Lemma investments_ext : forall h : string * invest -> Q, (forall ni, In ni (flat_map (flow_investment cf c) (cp_flows c) ++ storage_investment c) -> h ni == 0) ->
  Qsum (map h (investments cf fs')) == Qsum (map h (investments cf fs)).
Proof.
  intros h Z. unfold investments. cbn [fs_comps]. rewrite HC, !flat_map_app. cbn [flat_map]. rewrite !map_app, !Qsum_app.
  assert (Z1 : Qsum (map h (flat_map (flow_investment cf c) (cp_flows c))) == 0) by (apply Qsum_all_zero; intros a I; apply Z; apply in_or_app; left; exact I).
  assert (Z2 : Qsum (map h (storage_investment c)) == 0) by (apply Qsum_all_zero; intros a I; apply Z; apply in_or_app; right; exact I). rewrite Z1, Z2. ring.
Qed.
Lemma in_investments : forall name iv, In (name, iv) (investments cf fs') -> In (name, iv) (investments cf fs) \/ In (name, iv) (flat_map (flow_investment cf c) (cp_flows c) ++ storage_investment c).
Proof. intros name iv H. unfold investments in H. apply in_flat_map in H. destruct H as [c0 [Hc H]]. apply ext_in in Hc. destruct Hc as [->|Hc]; [right; exact H|left]. apply in_flat_map. eauto. Qed.
Lemma new_excess : forall b w t, used_bus fs' b -> known b = false -> excess y b w t == 0.
Proof.
  intros b w t U K. unfold excess. destruct (b_penalty b); [|reflexivity]. assert (Q0 : In (b_lab b) quiet).
  { destruct U as [c0 [f [Hc [Hf E]]]]. apply ext_in in Hc. destruct Hc as [->|Hc].
    - right. apply in_map_iff. exists f. rewrite E. split; [reflexivity|]. apply filter_In. split; [exact Hf|]. rewrite E, K. reflexivity.
    - exfalso. assert (U : used_bus fs b) by (exists c0, f; auto). apply (known_used b (used_ext b U)) in U. congruence. }
  destruct (words_var (b_lab b) w) as [r E]. unfold y. assert (X : existsb (fun z => begins (words z) (words (vlabel (b_lab b) w))) quiet = true) by (apply existsb_exists; exists (b_lab b); split; [exact Q0|rewrite E; apply begins_app]). rewrite X. reflexivity.
Qed.
Lemma idle_sum : forall b t (g : component -> list flow), (forall c0, incl (g c0) (cp_flows c0)) ->
  Qsum (map (fun c0 => Qsum (map (fun f => rate_of y c0 f t) (filter (connected b) (g c0)))) (l1 ++ c :: l2)) == Qsum (map (fun c0 => Qsum (map (fun f => rate_of y c0 f t) (filter (connected b) (g c0)))) (fs_comps fs)).
Proof. intros b t g _. rewrite (Qsum_insert _ l1 c l2), HC. rewrite (Qsum_all_zero _ (filter (connected b) (g c))) by (intros f _; rewrite z_rate; reflexivity). ring. Qed.
Lemma new_none : forall b g c0, known b = false -> In c0 (fs_comps fs) -> incl g (cp_flows c0) -> filter (connected b) g = [].
Proof.
  intros b g c0 K Hc. induction g as [|f g IH]; intros H; [reflexivity|]. cbn [filter]. destruct (connected b f) eqn:E.
  - exfalso. unfold known in K. apply Bool.not_true_iff_false in K. apply K. apply existsb_exists. exists f. split; [apply in_flat_map; exists c0; split; [exact Hc|apply H; left; reflexivity]|exact E].
  - apply IH. intros a A. apply H. right. exact A.
Qed.
Lemma in_flows_in : forall c0, incl (cp_in c0) (cp_flows c0). Proof. intros c0 f H. unfold cp_flows. apply in_or_app. auto. Qed.
Lemma out_flows_in : forall c0, incl (cp_out c0) (cp_flows c0). Proof. intros c0 f H. unfold cp_flows. apply in_or_app. auto. Qed.
Lemma bus_idle : forall b, used_bus fs' b -> (used_bus fs b -> bus_rule fs idx y b) -> bus_rule fs' idx y b.
Proof.
  intros b U O t Ht. unfold delivered, taken. cbn [fs_comps]. rewrite (idle_sum b t cp_out out_flows_in), (idle_sum b t cp_in in_flows_in). destruct (known b) eqn:K.
  - apply O; [apply (known_used b U); exact K|exact Ht].
  - rewrite !new_excess by assumption. rewrite !Qsum_all_zero; [split; [reflexivity|split; apply Qle_refl]| |]; intros c0 Hc; (rewrite (new_none b _ c0 K Hc); [reflexivity|]); [apply in_flows_in|apply out_flows_in].
Qed.
Lemma flow_ext : forall c0 f, flow_rule cf fs idx y c0 f -> flow_rule cf fs' idx y c0 f.
Proof. intros c0 f [[A1 A2 A3 A4 A5 A6 A7] B]. split; [constructor; [exact A1|exact A2|exact A3|exact A4|exact A5|exact A6|exact A7]|exact B]. Qed.
Lemma obeys_idle : obeys cf fs idx y -> obeys cf fs' idx y.
Proof.
  intros O. constructor.
  - intros c0 f Hc Hf. apply ext_in in Hc. destruct Hc as [->|Hc]; apply flow_ext; [exact (flow_idle f Hf)|exact (ob_flow _ _ _ _ O c0 f Hc Hf)].
  - intros c0 p Hc E. apply ext_in in Hc. destruct Hc as [->|Hc]; [exact (running_idle p E)|exact (ob_running _ _ _ _ O c0 p Hc E)].
  - intros c0 Hc. apply ext_in in Hc. destruct Hc as [->|Hc]; [exact exclusion_idle|exact (ob_exclusion _ _ _ _ O c0 Hc)].
  - intros c0 Hc. apply ext_in in Hc. destruct Hc as [->|Hc]; [exact own_idle|exact (ob_own _ _ _ _ O c0 Hc)].
  - intros name iv H. apply in_investments in H. destruct H as [H|H]; [exact (ob_segments _ _ _ _ O name iv H)|]. destruct (declines name iv H) as [OP _]. intros spts eff E. right. split; [exact OP|]. unfold inv. rewrite !(z_inv name iv _ _ _ H). split; [reflexivity|]. split; [reflexivity|]. intros i l e _ _ _. unfold seg_cost. rewrite (z_inv name iv _ _ _ H). reflexivity.
  - intros b U. apply (bus_idle b U). exact (ob_bus _ _ _ _ O b).
  - intros e He. destruct (ob_effect _ _ _ _ O e He) as [E1 [E2 [E3 E4]]]. split; [|split; [exact E2|split; [|exact E4]]].
    + intros t Ht. cbn [fs_comps]. rewrite (E1 t Ht). change (op_from_effects fs' idx y e t) with (op_from_effects fs idx y e t). rewrite (Qsum_insert _ l1 c l2), HC. change (comp_costs fs' idx y c e t) with (comp_costs fs idx y c e t). rewrite costs_idle. change (fun c0 => comp_costs fs' idx y c0 e t) with (fun c0 => comp_costs fs idx y c0 e t). ring.
    + rewrite E3. change (inv_from_effects fs' y e) with (inv_from_effects fs y e). change (fun ni : string * invest => invest_costs fs' y (fst ni) (snd ni) e) with (fun ni : string * invest => invest_costs fs y (fst ni) (snd ni) e).
      rewrite investments_ext; [reflexivity|]. intros [name iv] H. apply icosts_idle. exact H.
  - intros bl ND B. rewrite (ob_penalty _ _ _ _ O (filter known bl)).
    + change (bus_price fs' idx y) with (bus_price fs idx y). assert (Z : forall b, In b bl -> known b = false -> bus_price fs idx y b == 0).
      { intros b I K. apply B in I. unfold bus_price. destruct (b_penalty b); [|reflexivity]. unfold sumn. apply Qsum_all_zero. intros t _. rewrite !new_excess by assumption. ring. }
      clear - Z. induction bl as [|b bl IH]; [reflexivity|]. cbn [filter map]. rewrite Qsum_cons. specialize (IH ltac:(intros a A; apply Z; right; exact A)). destruct (known b) eqn:K; [cbn [map]; rewrite Qsum_cons, IH; reflexivity|]. rewrite (Z b (or_introl eq_refl) K), IH. ring.
    + apply NoDup_filter. exact ND.
    + intros b. rewrite filter_In. split; [intros [I K]; apply (known_used b); [apply B; exact I|exact K]|]. intros U. split; [apply B; apply used_ext; exact U|apply known_used; [apply used_ext; exact U|exact U]].
Qed.
Lemma y_idle : idle cf fs idx y c.
Proof. split; [intros f t _ _; rewrite z_rate; reflexivity|]. intros name iv H. unfold inv. rewrite !(z_inv name iv _ _ _ H). split; reflexivity. Qed.
End Idle.

Lemma same_plan_trans : forall cf fs idx x y z, same_plan cf fs idx x y -> same_plan cf fs idx y z -> same_plan cf fs idx x z.
Proof.
  intros cf fs idx x y z [A1 A2 A3 A4 A5 A6 A7 A8] [B1 B2 B3 B4 B5 B6 B7 B8]. constructor.
  - intros. rewrite B1, A1 by assumption. reflexivity.
  - intros c0 f t H1 H2 H3 H4. destruct (A2 c0 f t H1 H2 H3 H4), (B2 c0 f t H1 H2 H3 H4). split; etransitivity; eassumption.
  - intros c0 t H1 H2 H3. destruct (A3 c0 t H1 H2 H3), (B3 c0 t H1 H2 H3). split; etransitivity; eassumption.
  - intros name iv H. destruct (A4 name iv H) as [P1 [P2 P3]], (B4 name iv H) as [Q1 [Q2 Q3]]. split; [etransitivity; eassumption|]. split; [intros O; rewrite (Q2 O); auto|]. intros. etransitivity; [eapply Q3; eassumption|eapply P3; eassumption].
  - intros c0 s t H1 H2 H3. rewrite (B5 c0 s t H1 H2 H3). eapply A5; eassumption.
  - intros b t H1 H2. destruct (A6 b t H1 H2), (B6 b t H1 H2). split; etransitivity; eassumption.
  - intros e He. destruct (A7 e He) as [P1 [P2 [P3 P4]]], (B7 e He) as [Q1 [Q2 [Q3 Q4]]]. split; [intros t Ht; rewrite (Q1 t Ht); auto|]. repeat split; etransitivity; eassumption.
  - rewrite B8. exact A8.
Qed.
Section Restrict.
Variables (cf : config) (idx : option (list nat)) (fs : flow_system) (c : component) (l1 l2 : list component).
Hypothesis HC : fs_comps fs = l1 ++ l2.
Local Notation fs' := (mkFS (fs_times fs) (fs_end fs) (fs_prev_dt fs) (fs_effects fs) (l1 ++ c :: l2)).
Lemma restricted : forall u v, same_plan cf fs' idx u v -> same_plan cf fs idx u v.
Proof.
  intros u v [A1 A2 A3 A4 A5 A6 A7 A8]. assert (IN : forall c0, In c0 (fs_comps fs) -> In c0 (fs_comps fs')) by (intros c0 H; exact (in_ext fs c l1 l2 HC c0 H)). constructor.
  - intros c0 f t Hc. exact (A1 c0 f t (IN c0 Hc)).
  - intros c0 f t Hc. exact (A2 c0 f t (IN c0 Hc)).
  - intros c0 t Hc. exact (A3 c0 t (IN c0 Hc)).
  - intros name iv H. apply A4. unfold investments in *. apply in_flat_map in H. destruct H as [c0 [Hc H]]. apply in_flat_map. exists c0. split; [apply IN; exact Hc|exact H].
  - intros c0 s t Hc. exact (A5 c0 s t (IN c0 Hc)).
  - intros b t U. exact (A6 b t (used_ext fs c l1 l2 HC b U)).
  - exact A7.
  - exact A8.
Qed.
Lemma idle_same : forall u v, may_idle cf fs idx c -> same_plan cf fs' idx u v -> idle cf fs idx u c -> idle cf fs idx v c.
Proof.
  intros u v M S0 [I1 I2]. assert (CI : In c (fs_comps fs')) by (cbn; apply in_or_app; right; left; reflexivity). split.
  - intros f t Hf Ht. rewrite (sp_rate _ _ _ _ _ S0 c f t CI Hf Ht). auto.
  - intros name iv H. assert (HI : In (name, iv) (investments cf fs')) by (unfold investments; apply in_flat_map; exists c; auto). destruct (sp_size _ _ _ _ _ S0 name iv HI) as [P1 [P2 _]]. destruct (I2 name iv H) as [Q1 Q2]. split; [rewrite P1; exact Q1|].
    rewrite (P2 (proj1 (declines cf idx fs c M name iv H))). exact Q2.
Qed.
End Restrict.

(** ** C77 *)

(** A component that may stand idle, with labels of its own, keeps every solution of the system it is added to, at the same price and with the
    new component idle; so the best result is at least as good as any result without it. *)
Theorem C77_idle_partial : forall cf ord ord' fs fs' c idx pm pm', (forall l, Permutation (ord l) l) -> (forall l, Permutation (ord' l) l) ->
  build cf ord fs idx = Ok pm -> build cf ord' fs' idx = Ok pm' -> sensible cf fs idx -> sensible cf fs' idx -> well_named fs' ->
  (forall t, (t < steps fs idx)%nat -> 0 <= hours fs idx t) -> extended fs c fs' -> may_idle cf fs idx c -> unforced cf fs idx c ->
  (forall x, feasible pm x -> exists y, feasible pm' y /\ same_plan cf fs idx x y /\ idle cf fs idx y c /\ objective_value pm' y == objective_value pm x)
  /\ (forall best x, feasible pm' best -> (forall y, feasible pm' y -> objective_value pm' best <= objective_value pm' y) -> feasible pm x -> objective_value pm' best <= objective_value pm x).
Proof.
  intros cf ord ord' fs fs' c idx pm pm' PO PO' B B' SE SE' W HP [l1 [l2 [HC ->]]] M UF.
  assert (K : forall x, feasible pm x -> exists y, feasible pm' y /\ same_plan cf fs idx x y /\ idle cf fs idx y c /\ objective_value pm' y == objective_value pm x).
  { intros x F. pose proof (plan_sound _ _ _ _ _ _ PO B SE F) as O. pose proof (se_steps _ _ _ SE) as N. pose proof (se_buses _ _ _ SE') as DB.
    pose proof (y_same cf idx fs c l1 l2 x HC W DB) as SP. assert (N1 : (1 <= steps fs idx)%nat) by lia.
    pose proof (obeys_same cf fs idx x _ SP N1 (losses_governed _ _ _ _ _ _ B F (se_shape _ _ _ SE)) O) as OY.
    pose proof (obeys_idle cf idx fs c l1 l2 x HC DB M UF HP OY) as O'. destruct (plan_completes _ _ _ _ _ _ PO' B' SE' O') as [z [SZ FZ]].
    exists z. split; [exact FZ|]. split; [|split].
    - apply (same_plan_trans _ _ _ _ _ _ SP). exact (restricted cf idx fs c l1 l2 HC _ _ SZ).
    - exact (idle_same cf idx fs c l1 l2 _ _ M SZ (y_idle cf idx fs c x)).
    - destruct (C21_objective _ _ _ _ _ x B) as [e [Fe Ox]]. destruct (C21_objective _ _ _ _ _ z B') as [e' [Fe' Oz]]. cbn [fs_effects] in Fe'. assert (e' = e) by congruence. subst e'. pose proof (find_some _ _ Fe) as [He _].
      pose proof (same_cost _ _ _ _ _ e SP He) as S1. pose proof (same_cost _ _ _ _ _ e SZ He) as S2. unfold plan_cost in S1, S2. rewrite Ox, Oz, S2, S1. reflexivity. }
  split; [exact K|]. intros best x FB OPT F. destruct (K x F) as [z [F' [_ [_ OV]]]]. specialize (OPT z F'). lra.
Qed.
Print Assumptions C77_idle_partial.

(** The first system and a heat pump with on/off rules, an investment and a bus of its own. *)
Definition power : bus := mkBus 3 "Power" (Some (n1 100)).
Definition pump_oo : onoff := mkOnOff (EVOne (n1 3)) (EVDict [(Some 1%nat, n1 2)]) None (Some 2) (Some (n1 2)) (Some (n1 10)) (Some (n1 1)) None (Some 4) false.
Definition pump_inv : invest := mkInvest None 5 (Some 50) true (EVOne (n1 10)) (EVDict [(Some 0%nat, n1 2); (Some 1%nat, n1 1)]) None EVNone.
Definition pump : component :=
  mkComponent "HeatPump" [set_limits (Some 100) None None None (flow0 90 "P" power)] [set_onoff (Some pump_oo) (set_size_ (SzInv pump_inv) (set_rel (n1 (1 # 10)) (n1 1) (flow0 91 "Q" heat)))] None []
    (Converter [[(90%nat, n1 3); (91%nat, n1 1)]]).
Definition fs_pump : flow_system := mkFS [0; 1; 2] 3 (NS 1) [costs; co2] [grid; boiler; pump; sto; demand].
Lemma pump_uses : forall b, used_bus fs_pump b -> In b [gas; heat; power].
Proof. all_buses. Qed.
Lemma pump_rests : may_idle default_config fs0 None pump /\ unforced default_config fs0 None pump.
Proof.
  split; [constructor|split].
  - intros f Hf. cbn in Hf. destruct Hf as [<-|[<-|[]]]; constructor; cbn.
    + intros _ q t E _. split; vm_compute; discriminate.
    + intros o E. discriminate E.
    + vm_compute; discriminate.
    + split; intros q E; inversion E; subst; vm_compute; discriminate.
    + split; intros q E; discriminate E.
    + intros E. discriminate E.
    + intros o E. injection E as <-. split; [|reflexivity]. repeat split; cbn; intros q E; inversion E; subst; vm_compute; discriminate.
    + split; reflexivity.
    + split; intros q E; discriminate E.
    + split; intros q E; discriminate E.
  - intros p E. discriminate E.
  - exact Logic.I.
  - intros f iv t Hf G E _. cbn in Hf. destruct Hf as [<-|[<-|[]]]; [discriminate E|discriminate G].
  - intros s iv t K. discriminate K.
Qed.
Lemma sensible_pump : sensible default_config fs_pump None.
Proof.
  apply sensible_check; [vm_compute; reflexivity|buses|]. intros c Hc. cbn [fs_pump fs_comps In] in Hc.
  destruct Hc as [<-|[<-|[<-|[<-|[<-|[]]]]]]; split; try exact Logic.I; try (repeat constructor; simpl; intuition discriminate).
  exists "Storage"%string, (set_size_ (SzNum (Some 50)) (flow0 20 "ch" heat)), (set_size_ (SzNum (Some 60)) (flow0 21 "dis" heat)), true. reflexivity.
Qed.
Lemma pump_extends : extended fs0 pump fs_pump.
Proof. exists [grid; boiler], [sto; demand]. split; reflexivity. Qed.
Example C77_applies : exists pm pm' z, build default_config id_ord fs0 None = Ok pm /\ build default_config id_ord fs_pump None = Ok pm'
  /\ feasible pm x0 /\ feasible pm' z /\ same_plan default_config fs0 None x0 z /\ idle default_config fs0 None z pump /\ objective_value pm' z == objective_value pm x0.
Proof.
  destruct x0_feasible as [pm [B F]]. assert (B' : exists pm', build default_config id_ord fs_pump None = Ok pm').
  { destruct (build default_config id_ord fs_pump None) as [pm'|] eqn:E; [eauto|vm_compute in E; discriminate E]. }
  destruct B' as [pm' B']. exists pm, pm'. destruct pump_rests as [R U].
  assert (WN : well_named fs_pump) by (apply (named_b_ok _ _ pump_uses); vm_compute; reflexivity).
  assert (HP : forall t, (t < steps fs0 None)%nat -> 0 <= hours fs0 None t) by (intros t Ht; change (steps fs0 None) with 3%nat in Ht; assert (T : t = 0%nat \/ t = 1%nat \/ t = 2%nat) by lia; destruct T as [-> | [-> | ->]]; vm_compute; discriminate).
  destruct (C77_idle_partial _ _ _ _ _ _ _ _ _ (fun l => Permutation_refl l) (fun l => Permutation_refl l) B B' sensible_0 sensible_pump WN HP pump_extends R U) as [K _].
  destruct (K x0 F) as [z [F' [SP [ID OV]]]]. exists z. exact (conj B (conj B' (conj F (conj F' (conj SP (conj ID OV)))))).
Qed.

(** An optional investment can be declined; yet without on/off behaviour the limits of the rate, for the smallest size, hold also if it is
    declined. Such a supply, added where nobody needs it, makes a system unsolvable. *)
Definition C77_full : Prop := forall cf ord ord' fs fs' c idx pm pm', (forall l, Permutation (ord l) l) -> (forall l, Permutation (ord' l) l) ->
  build cf ord fs idx = Ok pm -> build cf ord' fs' idx = Ok pm' -> sensible cf fs idx -> sensible cf fs' idx -> well_named fs' ->
  (forall t, (t < steps fs idx)%nat -> 0 <= hours fs idx t) -> extended fs c fs' -> may_idle cf fs idx c ->
  (exists x, feasible pm x) -> exists y, feasible pm' y.
Definition lone : bus := mkBus 5 "Lone" None.
Definition spare : component := Library.source "Spare" (set_rel (n1 (1 # 2)) (n1 1) (set_size_ (SzInv (mkInvest None 4 (Some 10) true (EVOne (n1 1)) EVNone None EVNone)) (flow0 160 "Q" lone))).
Definition fs_spare : flow_system := mkFS [0; 1] 2 (NS 1) [costs] (fs_comps (needs 10) ++ [spare]).
Lemma spare_uses : forall b, used_bus fs_spare b -> In b [gas; lone].
Proof. all_buses. Qed.
Theorem C77_refuted : ~ C77_full.
Proof.
  intros F. destruct (run_ok (build default_config id_ord (needs 10) None) x_needs) as [pm [B FE]]; [vm_compute; reflexivity|].
  assert (B' : exists pm', build default_config id_ord fs_spare None = Ok pm').
  { destruct (build default_config id_ord fs_spare None) as [pm'|] eqn:E; [eauto|vm_compute in E; discriminate E]. }
  destruct B' as [pm' B'].
  assert (S0 : sensible default_config (needs 10) None) by (apply sensible_check; [vm_compute; reflexivity|buses|]; intros c Hc; cbn [needs fs_comps In] in Hc; destruct Hc as [<-|[<-|[]]]; split; try exact Logic.I; constructor).
  assert (S1 : sensible default_config fs_spare None) by (apply sensible_check; [vm_compute; reflexivity|buses|]; intros c Hc; cbn [fs_spare needs fs_comps app In] in Hc; destruct Hc as [<-|[<-|[<-|[]]]]; split; try exact Logic.I; constructor).
  assert (HP : forall t, (t < steps (needs 10) None)%nat -> 0 <= hours (needs 10) None t) by (intros t Ht; assert (T : t = 0%nat \/ t = 1%nat) by (cbn in Ht; lia); destruct T as [-> | ->]; vm_compute; discriminate).
  assert (WN : well_named fs_spare) by (apply (named_b_ok _ _ spare_uses); vm_compute; reflexivity).
  assert (EX : extended (needs 10) spare fs_spare) by (exists (fs_comps (needs 10)), []; split; reflexivity).
  assert (MI : may_idle default_config (needs 10) None spare).
  { constructor; [|intros p E; discriminate E|exact Logic.I]. intros f Hf. cbn in Hf. destruct Hf as [<-|[]]. constructor; cbn; [intros _ q t E; discriminate E|intros o E; discriminate E|split; reflexivity|split; intros q E; discriminate E|split; intros q E; discriminate E]. }
  destruct (F _ _ _ _ _ _ _ _ _ (fun l => Permutation_refl l) (fun l => Permutation_refl l) B B' S0 S1 WN HP EX MI (ex_intro _ _ FE)) as [z FZ].
  pose proof (plan_sound _ _ _ _ _ _ (fun l => Permutation_refl l) B' S1 FZ) as O. assert (HS : In spare (fs_comps fs_spare)) by (right; right; left; reflexivity).
  assert (Ht : (0 < steps fs_spare None)%nat) by (cbn; lia). destruct (ob_flow _ _ _ _ O spare _ HS (or_introl eq_refl)) as [A _]. destruct (al_plain _ _ _ _ _ _ _ A eq_refl 0%nat Ht) as [L _].
  assert (U : used_bus fs_spare lone) by (eexists; eexists; split; [exact HS|split; [left; reflexivity|reflexivity]]). destruct (ob_bus _ _ _ _ O lone U 0%nat Ht) as [BL _].
  set (r := z "Spare__Q_flow_rate"%string 0%nat). assert (L' : 2 <= r) by (eapply Qle_trans; [|exact L]; vm_compute; discriminate).
  assert (E : (0 + (0 + ((r + 0) + 0))) + 0 == (0 + (0 + (0 + 0))) + 0) by exact BL. lra.
Qed.
Print Assumptions C77_refuted.
