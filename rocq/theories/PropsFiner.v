(** Claim C99: a finer time grid never makes the best result worse. If every step is split into [k] steps of the same length with the same data, every plan
    of the coarse system can be carried out in the fine one, at the same cost. Wrong for storages that lose energy over time. *)
From Coq Require Import Permutation Qabs Lqa Lia.
From Verif Require Import Base BaseFacts MathModel Spec Structure Params Features Elements Library System SysSpec AdmitSpec CtxFacts NavFacts PropsOnOff PropsComp PropsEffects PlanSpec Example
     TotalInvest PlanComp PlanSame PlanCheck ExamplePoints PropsPlan PropsRelax PropsSameData ValidSpec ValidCheck PropsTotal PropsWindow PropsParts PropsUnits.

(** ** Specification *)

(** Every entry of a parameter is repeated [k] times; a number stays a number. *)
Definition spread (k : nat) (p : param) : param :=
  match pdata p with NS _ => p | NV l => with_data p (NV (flat_map (fun q => repeat q k) l)) end.
(** The beginning of fine step [i]: [k] fine steps of the same length make up a step. *)
Definition nq (n : nat) : Q := inject_Z (Z.of_nat n).
Definition fine_stamp (k : nat) (fs : flow_system) (i : nat) : Q :=
  stamp fs (i / k) + (nq (i mod k) / nq k) * (stamp fs (S (i / k)) - stamp fs (i / k)).
(** The system on the finer grid: every step of it split into [k], with the data of that step. The limits of charge states stay as they are. *)
Definition split_steps (k : nat) (fs : flow_system) : flow_system :=
  remapped (spread k) (fun p => p) (map (fine_stamp k fs) (seq 0 (k * length (fs_times fs)))) (fs_end fs) fs.

(** No start has a price of its own; storages lose nothing over time, have the same limits at all times, and are not asked to come back to where they began. *)
Record splittable (fs : flow_system) : Prop := {
  sp_flows : forall c f o, In c (fs_comps fs) -> In f (cp_flows c) -> f_onoff f = Some o -> entries (oo_switch_eff o) = [];
  sp_comps : forall c o, In c (fs_comps fs) -> cp_onoff c = Some o -> entries (oo_switch_eff o) = [];
  sp_stores : forall c s, In c (fs_comps fs) -> cp_kind c = StorageC s ->
     (forall t, (t < steps fs None)%nat -> value None (st_loss s) t == 0) /\ number (st_relmin s) /\ number (st_relmax s) /\ st_init s <> ICLast
}.

(** The plan [y] for the fine system does in every fine step what [x] does in the step it is part of. *)
Record carried_out (k : nat) (cf : config) (fs : flow_system) (x y : asg) : Prop := {
  co_rate : forall c f t, In c (fs_comps fs) -> In f (cp_flows c) -> (t < k * steps fs None)%nat -> rate_of y c f t == rate_of x c f (t / k);
  co_size : forall name iv, In (name, iv) (investments cf fs) -> y (inv name "size") 0%nat == x (inv name "size") 0%nat;
  co_charge : forall c s t, In c (fs_comps fs) -> cp_kind c = StorageC s -> (t <= steps fs None)%nat -> charge y c (k * t) == charge x c t;
  co_effect : forall e, In e (fs_effects fs) -> op_sum y e == op_sum x e /\ inv_sum y e == inv_sum x e;
  co_penalty : penalty_sum y == penalty_sum x
}.

(** ** Facts *)

(** The plan for the fine system. Stored energies change evenly within a step, costs are spread evenly, starts are at the beginning of steps. *)
Definition ending (s : string) : string := substring (String.length s - 4) 4 s.
Definition finer (k : nat) (x : asg) : asg := fun nm t =>
  if String.eqb (ending nm) "tate" then x nm (t / k)%nat + (nq (t mod k) / nq k) * (x nm (S (t / k)) - x nm (t / k)%nat)
  else if String.eqb (ending nm) "m_TS" then x nm (t / k)%nat / nq k
  else if String.eqb (ending nm) "chOn" then (if Nat.eqb (t mod k) 0 then x nm (t / k)%nat else 0)
  else x nm (t / k)%nat.

Lemma append_assoc_ : forall a b c, ((a ++ b) ++ c)%string = (a ++ (b ++ c))%string.
Proof. induction a as [|h a IH]; intros b c; cbn; [reflexivity|]. rewrite IH. reflexivity. Qed.
Lemma append_length_ : forall a b, String.length (a ++ b)%string = (String.length a + String.length b)%nat.
Proof. induction a as [|h a IH]; intros b; cbn; [reflexivity|]. rewrite IH. reflexivity. Qed.
Lemma append_nil_ : forall a, (a ++ "")%string = a.
Proof. induction a as [|h a IH]; cbn; [reflexivity|]. rewrite IH. reflexivity. Qed.
Lemma substring_app_ : forall a b m n, substring (String.length a + m) n (a ++ b) = substring m n b.
Proof. induction a as [|h a IH]; intros b m n; cbn; [reflexivity|]. apply IH. Qed.
Lemma ending_app : forall a b, (4 <= String.length b)%nat -> ending (a ++ b) = ending b.
Proof. intros a b H. unfold ending. rewrite append_length_. replace (String.length a + String.length b - 4)%nat with (String.length a + (String.length b - 4))%nat by lia. apply substring_app_. Qed.

Lemma ending_var : forall m l, (3 <= String.length l)%nat -> ending (vlabel m l) = ending ("_" ++ l).
Proof. intros m l H. unfold vlabel, cat. cbn [fold_right]. rewrite append_nil_. apply ending_app. rewrite append_length_. cbn [String.length]. lia. Qed.
Lemma ending_oo : forall e l, ending (oo e l) = ending ("__OnOff_" ++ l).
Proof.
  intros e l. unfold oo, vlabel, cat. cbn [fold_right]. rewrite !append_nil_, !append_assoc_. rewrite ending_app; [reflexivity|]. rewrite !append_length_. cbn [String.length]. lia.
Qed.
Lemma ending_inv : forall e l, ending (inv e l) = ending ("__Investment_" ++ l).
Proof.
  intros e l. unfold inv, vlabel, cat. cbn [fold_right]. rewrite !append_nil_, !append_assoc_. rewrite ending_app; [reflexivity|]. rewrite !append_length_. cbn [String.length]. lia.
Qed.
Lemma ending_seg : forall n l, ending (vlabel (cat [n; "__"; "SegmentedShares"]) (cat [l; "_segmented"])) = "nted".
Proof.
  intros n l. rewrite ending_var.
  - unfold cat. cbn [fold_right]. rewrite append_nil_, <- append_assoc_. rewrite ending_app by (cbn; lia). reflexivity.
  - unfold cat. cbn [fold_right]. rewrite !append_length_. cbn [String.length]. lia.
Qed.

(** Sums over the fine steps. *)
Lemma sumn_S : forall n f, sumn (S n) f == sumn n f + f n.
Proof. intros n f. unfold sumn. rewrite seq_S, map_app, Qsum_app. cbn. ring. Qed.
Lemma Qsum_seq : forall k a f, (forall j, (j < k)%nat -> f (a + j)%nat == f a) -> Qsum (map f (seq a k)) == nq k * f a.
Proof.
  intros k a f H. induction k as [|k IH]; [cbn; unfold nq; cbn; ring|]. rewrite seq_S, map_app, Qsum_app, IH by (intros; apply H; lia). cbn [map]. unfold Qsum at 1. cbn [fold_right].
  rewrite (H k) by lia. unfold nq. rewrite Nat2Z.inj_succ, <- Z.add_1_r, inject_Z_plus. ring.
Qed.
Section Grid.
Variable k : nat.
Hypothesis KP : (0 < k)%nat.
Lemma k_pos : 0 < nq k. Proof. unfold nq. change 0 with (inject_Z 0). rewrite <- Zlt_Qlt. lia. Qed.
Lemma k_nz : ~ nq k == 0. Proof. pose proof k_pos. lra. Qed.
Lemma div_at : forall q r, (r < k)%nat -> ((k * q + r) / k = q /\ (k * q + r) mod k = r)%nat.
Proof. intros q r H. split; symmetry; [apply (Nat.div_unique _ _ _ r)|apply (Nat.mod_unique _ _ q)]; auto. Qed.
Lemma div_0 : (0 / k = 0)%nat. Proof. apply Nat.div_0_l. lia. Qed.
Lemma div_in : forall t n, (t < k * n)%nat -> (t / k < n)%nat. Proof. intros t n H. apply Nat.div_lt_upper_bound; lia. Qed.
Lemma at_div : forall t, t = (k * (t / k) + t mod k)%nat. Proof. intros t. apply Nat.div_mod. lia. Qed.
Lemma mod_in : forall t, (t mod k < k)%nat. Proof. intros t. apply Nat.mod_upper_bound. lia. Qed.
Lemma step_in : forall t, (S (t mod k) < k)%nat -> (S t / k = t / k /\ S t mod k = S (t mod k))%nat.
Proof. intros t H. rewrite (at_div t) at 1 3. rewrite <- Nat.add_succ_r. apply div_at. exact H. Qed.
Lemma step_out : forall t, ~ (S (t mod k) < k)%nat -> (S t = k * S (t / k) /\ S t / k = S (t / k) /\ S t mod k = 0 /\ S (t mod k) = k)%nat.
Proof.
  intros t H. pose proof (mod_in t). assert (E : S t = (k * S (t / k) + 0)%nat) by (pose proof (at_div t); lia). split; [lia|]. rewrite E. destruct (div_at (S (t / k)) 0 KP) as [A B]. split; [|split]; auto. lia.
Qed.
Lemma seq_grid : forall f (g : nat -> Q) m s, (forall t, (k * s <= t < k * (s + m))%nat -> f t == g (t / k)%nat) -> Qsum (map f (seq (k * s) (k * m))) == nq k * Qsum (map g (seq s m)).
Proof.
  intros f g m s. induction m as [|m IH]; intros H; [rewrite Nat.mul_0_r; cbn; ring|]. rewrite seq_S, map_app, Qsum_app. replace (k * S m)%nat with (k * m + k)%nat by lia. rewrite seq_app, map_app, Qsum_app, IH by (intros t Ht; apply H; lia).
  replace (k * s + k * m)%nat with (k * (s + m))%nat by lia. assert (E : forall j, (j < k)%nat -> f (k * (s + m) + j)%nat == g (s + m)%nat) by (intros j Hj; rewrite H by lia; destruct (div_at (s + m) j Hj) as [-> _]; reflexivity).
  pose proof (E 0%nat KP) as E0. rewrite Nat.add_0_r in E0. rewrite (Qsum_seq k) by (intros j Hj; rewrite E, E0 by exact Hj; reflexivity). rewrite E0. cbn. ring.
Qed.
Lemma sumn_grid : forall n f g, (forall t, (t < k * n)%nat -> f t == g (t / k)%nat) -> sumn (k * n) f == nq k * sumn n g.
Proof. intros n f g H. pose proof (seq_grid f g n 0) as S0. rewrite Nat.mul_0_r in S0. apply S0. intros t Ht. apply H. lia. Qed.

Lemma nth_spread : forall (l : list Q) t d, nth t (flat_map (fun q => repeat q k) l) d = nth (t / k) l d.
Proof.
  induction l as [|a l IH]; intros t d; cbn [flat_map]; [destruct t, ((_ / k)%nat); reflexivity|]. destruct (Nat.lt_ge_cases t k) as [L|G].
  - rewrite app_nth1 by (rewrite repeat_length; exact L). rewrite Nat.div_small by exact L. cbn [nth]. apply nth_error_nth. rewrite nth_error_repeat by exact L. reflexivity.
  - rewrite app_nth2 by (rewrite repeat_length; exact G). rewrite repeat_length, IH. replace (t / k)%nat with (S ((t - k) / k)); [reflexivity|].
    replace t with (t - k + 1 * k)%nat at 2 by lia. rewrite Nat.div_add by lia. lia.
Qed.
Lemma hd_spread : forall l : list Q, hd 0 (flat_map (fun q => repeat q k) l) = hd 0 l.
Proof. intros [|a l]; [reflexivity|]. cbn [flat_map]. destruct k; [lia|reflexivity]. Qed.
Lemma spread_data : forall p, pdata (spread k p) = match pdata p with NS q => NS q | NV l => NV (flat_map (fun q => repeat q k) l) end.
Proof. intros p. unfold spread. destruct (pdata p) eqn:E; [exact E|]. destruct p; reflexivity. Qed.
Lemma v_spread : forall p t, value None (spread k p) t = value None p (t / k).
Proof. intros p t. unfold value. rewrite spread_data. destruct (pdata p) as [q|l]; [reflexivity|]. cbn [selected]. rewrite nth_spread, hd_spread. reflexivity. Qed.
Lemma flat_length : forall l : list Q, length (flat_map (fun q => repeat q k) l) = (k * length l)%nat.
Proof. induction l as [|a l IH]; [cbn; lia|]. cbn [flat_map length]. rewrite app_length, repeat_length, IH. lia. Qed.

Variable fs : flow_system.
Notation n := (steps fs None).
Notation fs' := (split_steps k fs).
Notation rc := (re_comp (spread k) (fun p => p)).
Notation rf := (re_flow (spread k)).
Notation ro := (re_onoff (spread k)).
Notation re := (re_effect (spread k)).
Lemma f_steps : steps fs' None = (k * n)%nat. Proof. cbn. rewrite map_length, seq_length. reflexivity. Qed.
Lemma h_is : forall fs t, hours fs None t = stamp fs (S t) - stamp fs t.
Proof. intros g t. unfold hours. cbn [selected]. destruct (Nat.ltb _ _); reflexivity. Qed.
Lemma f_stamp : forall i, (i <= k * n)%nat -> stamp fs' i == fine_stamp k fs i.
Proof.
  intros i H. unfold stamp at 1. cbn [split_steps remapped fs_times fs_end]. destruct (Nat.lt_ge_cases i (k * n)) as [L|G].
  - rewrite app_nth1 by (rewrite map_length, seq_length; exact L). rewrite (nth_map_ _ _ _ 0%nat) by (rewrite seq_length; exact L). rewrite seq_nth by exact L. reflexivity.
  - assert (i = (k * n)%nat) by lia. subst i. rewrite app_nth2 by (rewrite map_length, seq_length; cbn [steps]; lia). rewrite map_length, seq_length. cbn [steps]. rewrite Nat.sub_diag. cbn [nth].
    unfold fine_stamp. rewrite <- (Nat.add_0_r (k * length (fs_times fs))). destruct (div_at (length (fs_times fs)) 0 KP) as [-> ->]. unfold stamp at 1. rewrite app_nth2, Nat.sub_diag by lia. cbn [nth]. unfold nq at 1. cbn. field. exact k_nz.
Qed.
Lemma f_hours : forall t, (t < k * n)%nat -> hours fs' None t == hours fs None (t / k) / nq k.
Proof.
  intros t H. rewrite !h_is, !f_stamp by lia. unfold fine_stamp. pose proof k_nz as NZ. destruct (Nat.lt_ge_cases (S (t mod k)) k) as [L|G].
  - destruct (step_in t L) as [-> ->]. assert (E : nq (S (t mod k)) == nq (t mod k) + 1) by (unfold nq; rewrite Nat2Z.inj_succ, <- Z.add_1_r, inject_Z_plus; reflexivity). rewrite E. field. exact NZ.
  - destruct (step_out t ltac:(lia)) as [_ [-> [-> K]]]. assert (E : nq k == nq (t mod k) + 1) by (rewrite <- K at 1; unfold nq; rewrite Nat2Z.inj_succ, <- Z.add_1_r, inject_Z_plus; reflexivity).
    assert (E' : nq (t mod k) == nq k - 1) by lra. rewrite E'. unfold nq at 1. cbn [Z.of_nat inject_Z]. field. exact NZ.
Qed.
Lemma f_weighted : forall f g, (forall t, (t < k * n)%nat -> f t == g (t / k)%nat) -> sumn (k * n) (fun t => hours fs' None t * f t) == sumn n (fun t => hours fs None t * g t).
Proof.
  intros f g H. pose proof k_nz as NZ. rewrite (sumn_grid n _ (fun t => hours fs None t * g t / nq k)).
  - unfold sumn. rewrite <- BaseFacts.Qsum_scale. apply Qsum_map_eq. intros t _. field. exact NZ.
  - intros t Ht. rewrite (f_hours t Ht), (H t Ht). field. exact NZ.
Qed.
Lemma f_horizon : horizon fs' None == horizon fs None.
Proof.
  unfold horizon. rewrite f_steps. transitivity (sumn (k * n) (fun t => hours fs' None t * 1)); [apply sumn_ext; intros; ring|]. rewrite (f_weighted (fun _ => 1) (fun _ => 1)) by (intros; reflexivity). apply sumn_ext. intros. ring.
Qed.
End Grid.

(** What the plan does. *)
Section Plan.
Variable k : nat.
Hypothesis KP : (0 < k)%nat.
Variables (fs : flow_system) (cf : config) (x : asg).
Notation n := (steps fs None).
Notation fs' := (split_steps k fs).
Notation rc := (re_comp (spread k) (fun p => p)).
Notation rf := (re_flow (spread k)).
Notation ro := (re_onoff (spread k)).
Notation re := (re_effect (spread k)).
Notation y := (finer k x).
Lemma y_plain : forall nm t, ending nm <> "tate" -> ending nm <> "m_TS" -> ending nm <> "chOn" -> y nm t = x nm (t / k)%nat.
Proof. intros nm t A B C. unfold finer. rewrite (proj2 (String.eqb_neq _ _) A), (proj2 (String.eqb_neq _ _) B), (proj2 (String.eqb_neq _ _) C). reflexivity. Qed.
Ltac plain := rewrite y_plain by (rewrite ?ending_oo, ?ending_inv, ?ending_seg, ?ending_var by (apply Nat.leb_le; reflexivity); vm_compute; discriminate).
Lemma y_rate : forall c f t, rate_of y c f t = rate_of x c f (t / k). Proof. intros c f t. unfold rate_of. plain. reflexivity. Qed.
Lemma y_on : forall e t, y (oo e "on") t = x (oo e "on") (t / k)%nat. Proof. intros e t. plain. reflexivity. Qed.
Lemma y_size : forall e, y (inv e "size") 0%nat = x (inv e "size") 0%nat. Proof. intros e. plain. rewrite div_0 by exact KP. reflexivity. Qed.
Lemma y_made : forall e, y (inv e "isInvested") 0%nat = x (inv e "isInvested") 0%nat. Proof. intros e. plain. rewrite div_0 by exact KP. reflexivity. Qed.
Lemma y_seg : forall nm e, seg_cost y nm e = seg_cost x nm e. Proof. intros nm e. unfold seg_cost. plain. rewrite div_0 by exact KP. reflexivity. Qed.
Lemma y_op_sum : forall e, op_sum y e = op_sum x e. Proof. intros e. unfold op_sum. plain. rewrite div_0 by exact KP. reflexivity. Qed.
Lemma y_inv_sum : forall e, inv_sum y e = inv_sum x e. Proof. intros e. unfold inv_sum. plain. rewrite div_0 by exact KP. reflexivity. Qed.
Lemma y_all_sum : forall e, all_sum y e = all_sum x e. Proof. intros e. unfold all_sum. plain. rewrite div_0 by exact KP. reflexivity. Qed.
Lemma y_penalty : penalty_sum y = penalty_sum x. Proof. unfold penalty_sum. plain. rewrite div_0 by exact KP. reflexivity. Qed.
Lemma y_excess : forall b w t, w = "excess_input" \/ w = "excess_output" -> excess y (re_bus (spread k) b) w t = excess x b w (t / k).
Proof. intros b w t H. unfold excess. cbn [re_bus b_penalty b_lab]. destruct (b_penalty b); [|reflexivity]. cbn [option_map]. destruct H as [-> | ->]; plain; reflexivity. Qed.
Lemma y_op : forall e t, op_at y e t = op_at x e (t / k) / nq k.
Proof. intros e t. unfold op_at, finer. rewrite ending_var by (apply Nat.leb_le; reflexivity). reflexivity. Qed.
Lemma y_start : forall e t, y (oo e "switchOn") t = if Nat.eqb (t mod k) 0 then x (oo e "switchOn") (t / k)%nat else 0.
Proof. intros e t. unfold finer. rewrite ending_oo. reflexivity. Qed.
Lemma y_charge : forall c t, charge y c t = charge x c (t / k) + (nq (t mod k) / nq k) * (charge x c (S (t / k)) - charge x c (t / k)).
Proof. intros c t. unfold charge, finer. rewrite ending_var by (apply Nat.leb_le; reflexivity). reflexivity. Qed.
Lemma y_level : forall c t, charge y c (k * t) == charge x c t.
Proof. intros c t. rewrite y_charge. rewrite <- (Nat.add_0_r (k * t)). destruct (div_at k t 0 KP) as [-> ->]. unfold nq at 1. cbn. field. apply k_nz, KP. Qed.

(** On/off behaviour. *)
Lemma marks_fine : forall e was m, onoff_marks x e was m -> onoff_marks y e was (k * m).
Proof.
  intros e was m H t Ht. destruct (H _ (div_in k KP _ _ Ht)) as [A [B C]]. rewrite y_start. split; [rewrite y_on; exact A|]. destruct (Nat.eqb (t mod k) 0) eqn:Z.
  - apply Nat.eqb_eq in Z. split; [exact B|]. rewrite C, y_on. assert (E : before was (y (oo e "on")) t = before was (x (oo e "on")) (t / k)); [|rewrite E; reflexivity].
    pose proof (at_div k KP t) as D. rewrite Z, Nat.add_0_r in D. destruct t as [|t]; [rewrite div_0 by exact KP; reflexivity|]. destruct (S t / k)%nat as [|q]; [lia|]. cbn [before]. rewrite y_on. f_equal.
    assert (T : t = (k * q + (k - 1))%nat) by lia. rewrite T. apply div_at; lia.
  - apply Nat.eqb_neq in Z. split; [left; reflexivity|]. split; [intros X; exfalso; discriminate X|]. intros [X1 X2]. exfalso. destruct t as [|t]; [apply Z, Nat.mod_0_l; lia|]. cbn [before] in X1. rewrite y_on in X1, X2.
    destruct (Nat.lt_ge_cases (S (t mod k)) k) as [L|G].
    + destruct (step_in k KP t L) as [E _]. rewrite E in X2. rewrite X1 in X2. discriminate X2.
    + destruct (step_out k KP t ltac:(lia)) as [_ [_ [E _]]]. exact (Z E).
Qed.
Lemma starts_fine : forall was (b b' : nat -> Q) m, (forall t, b' t = b (t / k)%nat) -> starts was b' (k * m) = starts was b m.
Proof.
  intros was b b' m E. induction m as [|m IH]; [rewrite Nat.mul_0_r; reflexivity|]. unfold starts in *. rewrite seq_S, filter_app, app_length, <- IH. replace (k * S m)%nat with (k * m + k)%nat by lia. rewrite seq_app, filter_app, app_length. f_equal.
  cbn [Nat.add]. set (P := fun t => (Qeq_bool (before was b' t) 0 && Qeq_bool (b' t) 1)%bool).
  assert (P0 : P (k * m)%nat = (Qeq_bool (before was b m) 0 && Qeq_bool (b m) 1)%bool).
  { unfold P. rewrite E. pose proof (div_at k m 0 KP) as [D _]. rewrite Nat.add_0_r in D. rewrite D. f_equal. f_equal. destruct m as [|m]; [rewrite Nat.mul_0_r; reflexivity|]. destruct (k * S m)%nat as [|t] eqn:T; [lia|]. cbn [before]. rewrite E. f_equal.
    assert (T' : t = (k * m + (k - 1))%nat) by lia. rewrite T'. apply div_at; lia. }
  assert (PN : forall j, (0 < j < k)%nat -> P (k * m + j)%nat = false).
  { intros j Hj. unfold P. rewrite E. destruct (div_at k m j ltac:(lia)) as [-> _]. destruct j as [|j]; [lia|]. rewrite Nat.add_succ_r. cbn [before]. rewrite E. destruct (div_at k m j ltac:(lia)) as [-> _].
    destruct (Qeq_bool (b m) 0) eqn:Z; [|reflexivity]. apply Qeq_bool_iff in Z. cbn [andb]. apply not_true_iff_false. rewrite Qeq_bool_iff. lra. }
  assert (PT : forall j a, (a = k * m + j)%nat -> forall r, (0 < j)%nat -> (j + r <= k)%nat -> filter P (seq a r) = []).
  { intros j a Ea r. revert j a Ea. induction r as [|r IHr]; intros j a Ea H1 H2; [reflexivity|]. cbn [seq filter]. rewrite Ea, PN by lia. apply (IHr (S j)); lia. }
  assert (SQ : forall a r, (0 < r)%nat -> seq a r = a :: seq (S a) (r - 1)) by (intros a [|r] Hr; [lia|]; cbn [seq]; rewrite Nat.sub_succ, Nat.sub_0_r; reflexivity).
  rewrite (SQ _ k KP). cbn [filter]. fold P. change (Qeq_bool (before was b' (k * m)) 0 && Qeq_bool (b' (k * m)%nat) 1)%bool with (P (k * m)%nat). rewrite P0, (PT 1%nat (S (k * m))) by lia. destruct (_ && _)%bool; reflexivity.
Qed.
Lemma run_fine : forall (b b' : nat -> Q) s t, (forall t, b' t = b (t / k)%nat) -> is_run b' s t -> exists s0, s = (k * s0)%nat /\ is_run b s0 (t / k)%nat.
Proof.
  intros b b' s t E [L [R P]]. assert (Z : (s mod k = 0)%nat).
  { destruct s as [|s]; [apply Nat.mod_0_l; lia|]. destruct (Nat.lt_ge_cases (S (s mod k)) k) as [I1|G]; [|apply step_out; lia].
    exfalso. specialize (P s eq_refl). pose proof (R (S s) ltac:(lia)) as R1. rewrite E in P, R1. destruct (step_in k KP s I1) as [D _]. rewrite D, P in R1. discriminate R1. }
  pose proof (at_div k KP s) as D. rewrite Z, Nat.add_0_r in D. exists (s / k)%nat. split; [exact D|]. pose proof (Nat.div_le_mono s t k ltac:(lia) L) as LE. split; [exact LE|]. split.
  - intros i Hi. pose proof (R (k * i)%nat) as Ri. rewrite E in Ri. pose proof (div_at k i 0 KP) as [Di _]. rewrite Nat.add_0_r in Di. rewrite Di in Ri. apply Ri. pose proof (at_div k KP t). split; nia.
  - intros q Eq. assert (S1 : s = S (k * q + (k - 1))) by (rewrite D, Eq; lia). specialize (P _ S1). rewrite E in P. destruct (div_at k q (k - 1) ltac:(lia)) as [Dq _]. rewrite Dq in P. exact P.
Qed.
Lemma span_whole : forall s q, (s <= q < n)%nat -> span (hours fs' None) (k * s) (k * q + (k - 1)) == span (hours fs None) s q.
Proof.
  intros s q H. unfold span. replace (S (k * q + (k - 1)) - k * s)%nat with (k * (S q - s))%nat by nia. rewrite (seq_grid k KP _ (fun t => hours fs None t / nq k)).
  - rewrite <- BaseFacts.Qsum_scale. apply Qsum_map_eq. intros t _. field. apply k_nz, KP.
  - intros t Ht. apply f_hours; [exact KP|]. nia.
Qed.
Lemma span_part : forall s t, (forall t, (t < n)%nat -> 0 <= hours fs None t) -> (k * s <= t < k * n)%nat -> span (hours fs' None) (k * s) t <= span (hours fs None) s (t / k).
Proof.
  intros s t HP H. pose proof (div_in k KP t n ltac:(lia)) as D. pose proof (mod_in k KP t) as M. pose proof (at_div k KP t) as A.
  assert (L : (s <= t / k)%nat) by (apply Nat.div_le_lower_bound; lia). rewrite <- (span_whole s (t / k)) by lia. unfold span. replace (S (k * (t / k) + (k - 1)) - k * s)%nat with ((S t - k * s) + (k - 1 - t mod k))%nat by lia.
  rewrite seq_app, map_app, Qsum_app. assert (0 <= Qsum (map (hours fs' None) (seq (k * s + (S t - k * s)) (k - 1 - t mod k)))); [|lra]. apply Qsum_nonneg. intros q Hq. apply in_map_iff in Hq. destruct Hq as [i [<- Hi]]. apply in_seq in Hi.
  rewrite (f_hours k KP) by nia. apply Qle_shift_div_l; [apply k_pos, KP|]. rewrite Qmult_0_l. apply HP. apply div_in; [exact KP|nia].
Qed.
Lemma limits_fine : forall prior (b b' : nat -> Q) dmin dmax, (forall t, b' t = b (t / k)%nat) -> (dmax <> None -> forall t, (t < n)%nat -> 0 <= hours fs None t) ->
  obeys_limits fs None prior b dmin dmax -> obeys_limits fs' None prior b' (option_map (spread k) dmin) (option_map (spread k) dmax).
Proof.
  intros prior b b' dmin dmax E HP [A [B C]]. unfold obeys_limits. rewrite f_steps. split; [|split].
  - intros p' s t Ep Ht R. destruct dmax as [p|]; [|discriminate Ep]. injection Ep as <-. destruct (run_fine b b' s t E R) as [s0 [-> R0]]. rewrite (v_spread k KP). pose proof (A p s0 (t / k)%nat eq_refl (div_in k KP _ _ Ht) R0) as X.
    unfold run_hours in *. pose proof (span_part s0 t (HP ltac:(discriminate)) ltac:(destruct R; lia)) as SP. assert (EQ : Nat.eqb (k * s0) 0 = Nat.eqb s0 0) by (destruct s0; [rewrite Nat.mul_0_r; reflexivity|]; destruct (k * S s0)%nat eqn:T; [lia|reflexivity]). rewrite EQ. lra.
  - intros p' s t Ep Ht R Z. destruct dmin as [p|]; [|discriminate Ep]. injection Ep as <-. destruct (run_fine b b' s t E R) as [s0 [-> R0]]. rewrite (v_spread k KP).
    assert (OUT : ~ (S (t mod k) < k)%nat). { intros L. destruct (step_in k KP t L) as [D _]. pose proof (proj1 (proj2 R) t ltac:(destruct R; lia)) as R1. rewrite E in Z, R1. rewrite D, R1 in Z. discriminate Z. }
    destruct (step_out k KP t OUT) as [T1 [T2 [_ T4]]]. rewrite E, T2 in Z. pose proof (B p s0 (t / k)%nat eq_refl ltac:(nia) R0 Z) as X. unfold run_hours in *. assert (TT : t = (k * (t / k) + (k - 1))%nat) by lia. rewrite TT at 2. rewrite span_whole by (destruct R0; nia).
    assert (EQ : Nat.eqb (k * s0) 0 = Nat.eqb s0 0) by (destruct s0; [rewrite Nat.mul_0_r; reflexivity|]; destruct (k * S s0)%nat eqn:T; [lia|reflexivity]). rewrite EQ. exact X.
  - intros p' Ep P0 P1. destruct dmin as [p|]; [|discriminate Ep]. injection Ep as <-. rewrite (v_spread k KP), div_0 in P1 by exact KP. rewrite E, div_0 by exact KP. exact (C p eq_refl P0 P1).
Qed.
Lemma rules_fine : forall states o (b b' : nat -> Q), (forall t, b' t = b (t / k)%nat) -> sound_limits fs None o -> onoff_rules fs None states o b -> onoff_rules fs' None states (ro o) b'.
Proof.
  intros states o b b' E SL [A [B [C [D F]]]]. unfold onoff_rules. rewrite f_steps. cbn [re_onoff oo_on_min oo_on_max oo_sw_max oo_con_min oo_con_max oo_coff_min oo_coff_max]. change (fs_prev_dt fs') with (fs_prev_dt fs).
  assert (HP : oo_con_max o <> None \/ oo_coff_max o <> None -> forall t, (t < n)%nat -> 0 <= hours fs None t).
  { intros H. apply SL. unfold limits_given. cbn [flat_map]. destruct (oo_con_min o), (oo_con_max o), (oo_coff_min o), (oo_coff_max o); try discriminate. destruct H as [H|H]; congruence. }
  assert (TH : sumn (k * n) (fun t => hours fs' None t * b' t) == sumn n (fun t => hours fs None t * b t)) by (apply f_weighted; [exact KP|]; intros; rewrite E; reflexivity).
  split; [intros q Hq; rewrite TH; auto|]. split; [intros q Hq; rewrite TH; auto|]. split; [intros q Hq; rewrite (starts_fine _ b b' _ E); auto|].
  split; eapply limits_fine; eauto. intros t. cbv beta. rewrite E. reflexivity.
Qed.
End Plan.

(** The rules of the elements. *)
Section Rules.
Variable k : nat.
Hypothesis KP : (0 < k)%nat.
Variables (fs : flow_system) (cf : config) (x : asg).
Notation n := (steps fs None).
Notation fs' := (split_steps k fs).
Notation rc := (re_comp (spread k) (fun p => p)).
Notation rf := (re_flow (spread k)).
Notation ro := (re_onoff (spread k)).
Notation re := (re_effect (spread k)).
Notation y := (finer k x).
Hypothesis SE : sensible cf fs None.
Hypothesis SP : splittable fs.

Lemma f_sized : forall c f, sized cf (rc c) (rf f) = sized cf c f.
Proof. intros c f. unfold sized. cbn [re_comp cp_kind cp_in]. destruct (cp_kind c); try reflexivity. cbn [re_kind]. destruct (cp_in c) as [|i [|j r]]; reflexivity. Qed.
Lemma f_size_of : forall c f, size_of cf y (rc c) (rf f) = size_of cf x c f.
Proof. intros c f. unfold size_of. rewrite f_sized. change (flow_name (rc c) (rf f)) with (flow_name c f). destruct (sized cf c f); [reflexivity|]. apply y_size, KP. Qed.
Lemma f_loss : forall p, any_loss fs' None (spread k p) = any_loss fs None p.
Proof.
  intros p. unfold any_loss. rewrite f_steps. apply eq_iff_eq_true. rewrite !existsb_exists. split.
  - intros [t [Ht H]]. apply in_seq in Ht. exists (t / k)%nat. split; [apply in_seq; pose proof (div_in k KP t n ltac:(lia)); lia|]. rewrite (v_spread k KP) in H. exact H.
  - intros [t [Ht H]]. apply in_seq in Ht. exists (k * t + 0)%nat. split; [apply in_seq; nia|]. rewrite (v_spread k KP). destruct (div_at k t 0 KP) as [-> _]. exact H.
Qed.
Lemma f_governed : forall c f, governed fs' None (rc c) (rf f) = option_map ro (governed fs None c f).
Proof.
  intros c f. unfold governed. cbn [re_flow f_onoff]. destruct (f_onoff f) as [o|]; [reflexivity|]. cbn [option_map].
  replace (induced fs' None (rc c) (rf f)) with (induced fs None c f); [destruct (induced fs None c f); reflexivity|].
  unfold induced. cbn [re_comp cp_onoff cp_prevent cp_kind re_flow f_id]. destruct (cp_onoff c); cbn [option_map is_some]; [reflexivity|]. f_equal. destruct (cp_kind c) as [| | |s|r [p|]]; cbn [re_kind option_map]; try reflexivity. symmetry. apply f_loss.
Qed.
Lemma f_none : forall c f, governed fs' None (rc c) (rf f) = None <-> governed fs None c f = None.
Proof. intros c f. rewrite f_governed. destruct (governed fs None c f); cbn; split; congruence. Qed.
Lemma f_rel : forall f t, rel_min None (rf f) t = rel_min None f (t / k) /\ rel_max None (rf f) t = rel_max None f (t / k).
Proof. intros f t. unfold rel_min, rel_max. cbn [re_flow f_profile f_relmin f_relmax]. destruct (f_profile f); cbn [option_map]; rewrite !(v_spread k KP); auto. Qed.
Lemma f_within : forall c f t r, within_limits cf None c f (t / k) r -> within_limits cf None (rc c) (rf f) t r.
Proof. intros c f t r. unfold within_limits. rewrite f_sized. destruct (f_rel f t) as [-> ->]. auto. Qed.

Lemma f_flow : forall c f, In c (fs_comps fs) -> In f (cp_flows c) -> flow_rule cf fs None x c f -> flow_rule cf fs' None y (rc c) (rf f).
Proof.
  intros c f Hc Hf [AL MK]. destruct (se_flow _ _ _ SE c f Hc Hf) as [[_ [_ SL]] _]. pose proof (f_none c f) as GN. pose proof (fun t => div_in k KP t n) as D.
  assert (RN : forall t, runs y (rc c) (rf f) t = runs x c f (t / k)) by (intros t; unfold runs, on_of; rewrite y_on; reflexivity).
  assert (RT : forall t, rate_of y (rc c) (rf f) t = rate_of x c f (t / k)) by (intros t; rewrite y_rate; reflexivity).
  destruct AL as [A1 A2 A3 A4 A5 A6 [A7 [A8 [A9 A10]]]]. split; [constructor|].
  - rewrite f_steps. intros G t Ht. rewrite RT. apply f_within, A1; [apply GN, G|apply D, Ht].
  - rewrite f_steps. intros G t Ht R. rewrite RT. rewrite RN in R. apply A2; [intros G'; apply G, GN, G'|apply D, Ht|exact R].
  - rewrite f_steps. intros G t Ht R. rewrite RT. rewrite RN in R. destruct (A3 ltac:(intros G'; apply G, GN, G') _ (D t Ht) R) as [E L]. split; [exact E|apply f_within, L].
  - intros o' G. rewrite f_governed in G. destruct (governed fs None c f) as [o|] eqn:G0; [|discriminate G]. injection G as <-. change (prior_states cf (rf f)) with (prior_states cf f).
    apply (rules_fine k KP fs (prior_states cf f) o (fun t => q01 (runs x c f t)) _); [intros t; cbv beta; rewrite RN; reflexivity|exact (SL o eq_refl)|exact (A4 o eq_refl)].
  - intros iv E. rewrite f_sized in E. change (flow_name (rc c) (rf f)) with (flow_name c f). rewrite y_size, y_made by exact KP. exact (A5 iv E).
  - rewrite f_steps. intros iv E t Ht. rewrite f_sized in E. rewrite RT, RN, f_size_of. specialize (A6 iv E _ (D t Ht)). cbn [re_flow f_profile f_relmin f_relmax]. destruct (f_profile f); cbn [option_map]; rewrite !(v_spread k KP); [exact A6|].
    destruct A6 as [B1 B2]. split; [exact B1|]. intros [G|G]; apply B2; [left; apply GN, G|right; exact G].
  - cbv zeta. rewrite f_steps, f_size_of. assert (TT : sumn (k * n) (fun t => hours fs' None t * rate_of y (rc c) (rf f) t) == sumn n (fun t => hours fs None t * rate_of x c f t)) by (apply f_weighted; [exact KP|]; intros; rewrite RT; reflexivity).
    cbn [re_flow f_fh_min f_fh_max f_lf_min f_lf_max]. split; [|split; [|split]]; intros q Hq; rewrite TT, ?(f_horizon k KP); auto.
  - intros G. rewrite f_steps. change (flow_name (rc c) (rf f)) with (flow_name c f). change (was_on cf (rf f)) with (was_on cf f). apply marks_fine; [exact KP|]. apply MK. intros G'. apply G, GN, G'.
Qed.

Lemma f_states : forall c, comp_states cf (rc c) = comp_states cf c.
Proof.
  intros c. unfold comp_states. rewrite m_flows.
  assert (FM : forall l, filter gives_prev (map rf l) = map rf (filter gives_prev l)).
  { induction l as [|f l IH]; [reflexivity|]. cbn [map filter]. change (gives_prev (rf f)) with (gives_prev f). destruct (gives_prev f); cbn [map]; rewrite IH; reflexivity. }
  rewrite FM. destruct (filter gives_prev (cp_flows c)) as [|f l]; [reflexivity|]. cbn [map]. change (prior_states cf (rf f)) with (prior_states cf f). apply map_ext. intros j. cbn [existsb]. change (prior_states cf (rf f)) with (prior_states cf f). f_equal.
  induction l as [|g l IH]; [reflexivity|]. cbn [map existsb]. change (prior_states cf (rf g)) with (prior_states cf g). rewrite IH. reflexivity.
Qed.
Lemma f_running : forall c p, In c (fs_comps fs) -> cp_onoff c = Some p -> running_rule cf fs None x c p -> running_rule cf fs' None y (rc c) (ro p).
Proof.
  intros c p Hc E [M [Z R]]. destruct (se_comp _ _ _ SE c p Hc E) as [SL _]. unfold running_rule. rewrite f_steps, f_states. change (cp_label (rc c)) with (cp_label c). split; [apply marks_fine; assumption|split].
  - intros t Ht. rewrite y_on, (Z _ (div_in k KP _ _ Ht)). split; intros H.
    + intros f' Hf'. destruct (m_in_flow _ _ _ _ Hf') as [f [Hf ->]]. rewrite y_rate. exact (H f Hf).
    + intros f Hf. rewrite <- (H (rf f)); [rewrite y_rate; reflexivity|]. rewrite m_flows. apply in_map, Hf.
  - refine (rules_fine k KP fs _ p (x (oo (cp_label c) "on")) _ _ SL R). intros t. apply y_on.
Qed.
Lemma f_exclusion : forall c, exclusion_rule fs None x c -> NoDup (map f_id (cp_flows c)) -> exclusion_rule fs' None y (rc c).
Proof.
  intros c EX ND f' g' t Hf' Hg' NE Pf Pg Ht. rewrite f_steps in Ht. destruct (m_in_flow _ _ _ _ Hf') as [f [Hf ->]]. destruct (m_in_flow _ _ _ _ Hg') as [g [Hg ->]]. rewrite !y_rate.
  apply (EX f g); auto; [congruence|exact (div_in k KP _ _ Ht)].
Qed.
Lemma f_factor : forall fac f, factor_of (map (re_entry (spread k)) fac) (rf f) = option_map (spread k) (factor_of fac f).
Proof. intros fac f. unfold factor_of. cbn [re_flow f_id]. induction fac as [|[i p] l IH]; [reflexivity|]. cbn [map find re_entry fst snd]. destruct (Nat.eqb i (f_id f)); [reflexivity|exact IH]. Qed.
Lemma f_weights : forall c fac l t, weighted None y (rc c) (map (re_entry (spread k)) fac) (map rf l) t = weighted None x c fac l (t / k).
Proof.
  intros c fac l t. unfold weighted. rewrite map_map. f_equal. apply map_ext. intros f. rewrite f_factor. destruct (factor_of fac f); cbn [option_map]; [|reflexivity]. rewrite (v_spread k KP), y_rate. reflexivity.
Qed.
Lemma f_pieces : forall segs f, segments_of (map (fun s => (fst s, map (re_points (spread k)) (snd s))) segs) (rf f) = map (re_points (spread k)) (segments_of segs f).
Proof. intros segs f. unfold segments_of. cbn [re_flow f_id]. induction segs as [|[i p] l IH]; [reflexivity|]. cbn [map find fst snd]. destruct (Nat.eqb i (f_id f)); [reflexivity|exact IH]. Qed.
Lemma f_segmented : forall c segs, segmented_rule fs None x c segs -> segmented_rule fs' None y (rc c) (map (fun s => (fst s, map (re_points (spread k)) (snd s))) segs).
Proof.
  intros c segs H t Ht. rewrite f_steps in Ht. change (cp_label (rc c)) with (cp_label c). rewrite y_on.
  assert (O : cp_onoff (rc c) <> None <-> cp_onoff c <> None) by (cbn [re_comp cp_onoff]; destruct (cp_onoff c); cbn; split; congruence).
  destruct (H _ (div_in k KP _ _ Ht)) as [[j [w [W0 [W1 [P Q0]]]]]|[Q0 [Z R]]].
  - left. exists j, w. split; [exact W0|]. split; [exact W1|]. split; [|intros X; apply Q0, O, X]. intros f' Hf'. destruct (m_in_flow _ _ _ _ Hf') as [f [Hf ->]]. destruct (P f Hf) as [ab [N0 OP]].
    exists (re_points (spread k) ab). split; [rewrite f_pieces; apply map_nth_error, N0|]. unfold on_piece, re_points in *. cbn [fst snd]. rewrite !(v_spread k KP), y_rate. exact OP.
  - right. split; [apply O, Q0|]. split; [exact Z|]. intros f' Hf'. destruct (m_in_flow _ _ _ _ Hf') as [f [Hf ->]]. rewrite y_rate. exact (R f Hf).
Qed.

Lemma even : forall a b w : Q, 0 <= w -> w <= 1 -> forall l u, l <= a -> l <= b -> a <= u -> b <= u -> l <= a + w * (b - a) /\ a + w * (b - a) <= u.
Proof. intros a b w W0 W1 l u A B C D. split; nra. Qed.
Lemma share_in : forall t, 0 <= nq (t mod k) / nq k /\ nq (t mod k) / nq k <= 1.
Proof.
  intros t. pose proof (k_pos k KP) as P. split; [apply Qle_shift_div_l; [exact P|]; rewrite Qmult_0_l|apply Qle_shift_div_r; [exact P|]; rewrite Qmult_1_l]; unfold nq.
  - change 0 with (inject_Z 0). rewrite <- Zle_Qle. lia.
  - rewrite <- Zle_Qle. pose proof (mod_in k KP t). lia.
Qed.
Lemma f_storage : forall c s ch dis, In c (fs_comps fs) -> cp_kind c = StorageC s -> storage_rule cf fs None x c s ch dis ->
  storage_rule cf fs' None y (rc c) (re_storage (spread k) (fun p => p) s) (rf ch) (rf dis).
Proof.
  intros c s ch dis Hc K [B [LM [AL [I0 [IL [FX FM]]]]]]. destruct (sp_stores _ SP c s Hc K) as [LS [[r0 R0] [[r1 R1] NL]]]. pose proof (k_nz k KP) as NZ. pose proof (k_pos k KP) as KQ.
  unfold storage_rule. rewrite f_steps. cbn [re_storage st_relmin st_relmax st_eta_c st_eta_d st_loss st_cap st_init st_fmin st_fmax]. change (cp_label (rc c)) with (cp_label c). change (charge y (rc c)) with (charge y c).
  assert (V0 : forall t, value None (st_relmin s) t = r0) by (intros t; unfold value; rewrite R0; reflexivity). assert (V1 : forall t, value None (st_relmax s) t = r1) by (intros t; unfold value; rewrite R1; reflexivity).
  assert (CA : capacity y (rc c) (re_storage (spread k) (fun p => p) s) = capacity x c s) by (unfold capacity; cbn [re_storage st_cap]; destruct (st_cap s); [reflexivity|]; change (cp_label (rc c)) with (cp_label c); rewrite y_size by exact KP; reflexivity).
  rewrite CA. pose proof (y_level k KP x c 0) as L0. rewrite Nat.mul_0_r in L0. pose proof (y_level k KP x c n) as LN.
  split; [|split; [|split; [|split; [|split; [|split]]]]].
  - intros t Ht. pose proof (div_in k KP _ _ Ht) as D. destruct (B _ D) as [NE BL]. rewrite !(v_spread k KP), !y_rate. split; [exact NE|]. change (rate_of x (rc c) (rf ch) (t / k)) with (rate_of x c ch (t / k)). change (rate_of x (rc c) (rf dis) (t / k)) with (rate_of x c dis (t / k)).
    rewrite (f_hours k KP fs t Ht), (LS _ D). rewrite (LS _ D) in BL. set (h := hours fs None (t / k)) in *.
    assert (GO : charge y c (S t) == charge y c t + (charge x c (S (t / k)) - charge x c (t / k)) / nq k).
    { rewrite !y_charge. destruct (Nat.lt_ge_cases (S (t mod k)) k) as [L|G].
      - destruct (step_in k KP t L) as [-> ->]. assert (E : nq (S (t mod k)) == nq (t mod k) + 1) by (unfold nq; rewrite Nat2Z.inj_succ, <- Z.add_1_r, inject_Z_plus; reflexivity). rewrite E. field. exact NZ.
      - destruct (step_out k KP t ltac:(lia)) as [_ [-> [-> KK]]]. assert (E : nq k == nq (t mod k) + 1) by (rewrite <- KK at 1; unfold nq; rewrite Nat2Z.inj_succ, <- Z.add_1_r, inject_Z_plus; reflexivity).
        assert (E' : nq (t mod k) == nq k - 1) by lra. rewrite E'. unfold nq at 1. cbn [Z.of_nat inject_Z]. field. exact NZ. }
    rewrite GO, BL. field. split; assumption.
  - intros t Ht. rewrite V0, V1. assert (X : forall t, (t <= n)%nat -> r0 * capacity x c s <= charge x c t /\ charge x c t <= r1 * capacity x c s /\ r0 * fst (cap_range cf (st_cap s)) <= charge x c t /\ charge x c t <= r1 * snd (cap_range cf (st_cap s))) by (intros u Hu; pose proof (LM u Hu) as Y; rewrite V0, V1 in Y; exact Y).
    destruct (Nat.lt_ge_cases t (k * n)) as [L|G].
    + pose proof (div_in k KP _ _ L) as D. destruct (X (t / k)%nat ltac:(lia)) as [X1 [X2 [X3 X4]]]. destruct (X (S (t / k)) ltac:(lia)) as [Z1 [Z2 [Z3 Z4]]]. destruct (share_in t) as [W0 W1]. rewrite y_charge.
      destruct (even (charge x c (t / k)) (charge x c (S (t / k))) _ W0 W1 _ _ X1 Z1 X2 Z2) as [Q1 Q2]. destruct (even (charge x c (t / k)) (charge x c (S (t / k))) _ W0 W1 _ _ X3 Z3 X4 Z4) as [Q3 Q4]. auto.
    + assert (t = (k * n)%nat) by lia. subst t. rewrite LN. apply X. lia.
  - intros iv E. rewrite y_size, y_made by exact KP. exact (AL iv E).
  - intros q Eq. rewrite L0. auto.
  - intros E. destruct (NL E).
  - intros NI q Eq. rewrite LN. eauto.
  - intros NI q Eq. rewrite LN. eauto.
Qed.
Lemma f_carries : forall c rel abs i o, carries fs None x c rel abs i o -> carries fs' None y (rc c) (option_map (spread k) rel) (option_map (spread k) abs) (rf i) (rf o).
Proof.
  intros c rel abs i o H t Ht. rewrite f_steps in Ht. specialize (H _ (div_in k KP _ _ Ht)). rewrite !y_rate. change (rate_of x (rc c) (rf o) (t / k)) with (rate_of x c o (t / k)). change (rate_of x (rc c) (rf i) (t / k)) with (rate_of x c i (t / k)). rewrite H. unfold on_of. rewrite y_on.
  destruct rel, abs; cbn [option_map lost]; rewrite ?(v_spread k KP); reflexivity.
Qed.
Lemma opt_map_flow : forall l o', map rf l = opt_flow o' -> exists o, l = opt_flow o /\ o' = option_map rf o.
Proof. intros [|f [|g l]] [f'|] H; try discriminate H; [exists None|exists (Some f)]; cbn in *; [auto|]. injection H as <-. auto. Qed.
Lemma f_own : forall c, In c (fs_comps fs) -> own_rule cf fs None x c -> own_rule cf fs' None y (rc c).
Proof.
  intros c Hc H. unfold own_rule in *. cbn [re_comp cp_kind cp_in cp_out]. destruct (cp_kind c) as [|eqs|segs|s|rel abs] eqn:K; cbn [re_kind].
  - exact Logic.I.
  - intros fac' t Hf Ht. rewrite f_steps in Ht. apply in_map_iff in Hf. destruct Hf as [fac [<- Hf]]. rewrite !f_weights. exact (H fac _ Hf (div_in k KP _ _ Ht)).
  - exact (f_segmented c segs H).
  - intros ch' dis' I' O'. destruct (cp_in c) as [|ch [|? ?]] eqn:EI; try discriminate I'. destruct (cp_out c) as [|dis [|? ?]] eqn:EO; try discriminate O'. injection I' as <-. injection O' as <-. exact (f_storage c s ch dis Hc K (H ch dis eq_refl eq_refl)).
  - intros in1' out1' in2' out2' I' O'. destruct (cp_in c) as [|in1 r1] eqn:EI; [discriminate I'|]. destruct (cp_out c) as [|out1 r2] eqn:EO; [discriminate O'|]. cbn [map] in I', O'. injection I' as <- I'. injection O' as <- O'.
    destruct (opt_map_flow _ _ I') as [in2 [-> ->]]. destruct (opt_map_flow _ _ O') as [out2 [-> ->]]. destruct (H in1 out1 in2 out2 eq_refl eq_refl) as [C1 C2]. split; [exact (f_carries _ _ _ _ _ C1)|].
    destruct in2 as [i2|], out2 as [o2|]; try exact Logic.I. cbn [option_map]. destruct C2 as [C2 S2]. split; [exact (f_carries _ _ _ _ _ C2)|]. intros iv E. rewrite !f_size_of. exact (S2 iv E).
Qed.
End Rules.

(** Buses, effects, the whole plan. *)
Section Whole.
Variable k : nat.
Hypothesis KP : (0 < k)%nat.
Variables (fs : flow_system) (cf : config) (x : asg).
Notation n := (steps fs None).
Notation fs' := (split_steps k fs).
Notation rc := (re_comp (spread k) (fun p => p)).
Notation rf := (re_flow (spread k)).
Notation ro := (re_onoff (spread k)).
Notation rb := (re_bus (spread k)).
Notation re := (re_effect (spread k)).
Notation y := (finer k x).
Hypothesis SE : sensible cf fs None.
Hypothesis SP : splittable fs.

Lemma f_investments : investments cf fs' = investments cf fs.
Proof.
  unfold investments. cbn [split_steps remapped fs_comps]. induction (fs_comps fs) as [|c l IH]; [reflexivity|]. cbn [map flat_map]. rewrite IH. f_equal. f_equal.
  - rewrite m_flows. induction (cp_flows c) as [|f r IHr]; [reflexivity|]. cbn [map flat_map]. rewrite IHr. f_equal. unfold flow_investment. rewrite f_sized. reflexivity.
  - unfold storage_investment. cbn [re_comp cp_kind cp_label]. destruct (cp_kind c); reflexivity.
Qed.
Lemma f_segments : forall nm iv, segments_rule fs x nm iv -> segments_rule fs' y nm iv.
Proof.
  intros nm iv H spts eff E. cbv zeta. rewrite y_size, y_made by exact KP.
  assert (EF : forall e', In e' (fs_effects fs') -> exists e, In e (fs_effects fs) /\ e' = re e) by (intros e' He'; cbn [split_steps remapped fs_effects] in He'; apply in_map_iff in He'; destruct He' as [e [<- He]]; exists e; auto).
  assert (SC : forall e, seg_cost y nm (re e) = seg_cost x nm e) by (intros e; rewrite y_seg by exact KP; reflexivity).
  destruct (H spts eff E) as [[j [w [W0 [W1 [P [Q0 Q1]]]]]]|[Q0 [Q1 [Q2 Q3]]]].
  - left. exists j, w. split; [exact W0|]. split; [exact W1|]. split; [exact P|]. split; [|exact Q1]. intros i l e' Hi He' Ei. destruct (EF e' He') as [e [He ->]]. rewrite SC. exact (Q0 i l e Hi He Ei).
  - right. split; [exact Q0|]. split; [exact Q1|]. split; [exact Q2|]. intros i l e' Hi He' Ei. destruct (EF e' He') as [e [He ->]]. rewrite SC. exact (Q3 i l e Hi He Ei).
Qed.
Lemma f_at_bus : forall (side : component -> list flow) b t, (forall c, side (rc c) = map rf (side c)) ->
  Qsum (map (fun c => Qsum (map (fun f => rate_of y c f t) (filter (connected (rb b)) (side c)))) (fs_comps fs'))
  = Qsum (map (fun c => Qsum (map (fun f => rate_of x c f (t / k)) (filter (connected b) (side c)))) (fs_comps fs)).
Proof.
  intros side b t S. cbn [split_steps remapped fs_comps]. rewrite map_map. f_equal. apply map_ext. intros c. rewrite S. f_equal. induction (side c) as [|f l IH]; [reflexivity|]. cbn [map filter]. change (connected (rb b) (rf f)) with (connected b f).
  destruct (connected b f); cbn [map]; rewrite IH; [|reflexivity]. rewrite y_rate. reflexivity.
Qed.
Lemma f_bus : forall b, bus_rule fs None x b -> bus_rule fs' None y (rb b).
Proof.
  intros b H t Ht. rewrite f_steps in Ht. destruct (H _ (div_in k KP _ _ Ht)) as [E P]. rewrite !y_excess by auto. split; [|exact P]. unfold delivered, taken in *.
  rewrite (f_at_bus cp_out b t), (f_at_bus cp_in b t) by reflexivity. exact E.
Qed.
Lemma f_names : forall i e, names (fs_effects fs') i (re e) = names (fs_effects fs) i e.
Proof.
  intros [i|] e; [reflexivity|]. unfold names. cbn [split_steps remapped fs_effects]. induction (fs_effects fs) as [|a l IH]; [reflexivity|]. cbn [map find]. change (e_std (re a)) with (e_std a). destruct (e_std a); [reflexivity|exact IH].
Qed.
Lemma f_cost : forall v e t, cost (fs_effects fs') None (re_values (spread k) v) (re e) t = cost (fs_effects fs) None v e (t / k).
Proof.
  intros v e t. unfold cost. replace (entries (re_values (spread k) v)) with (map (re_entry (spread k)) (entries v)) by (destruct v; reflexivity). rewrite map_map. f_equal. apply map_ext. intros kp. cbn [re_entry fst snd]. rewrite f_names, (v_spread k KP). reflexivity.
Qed.
Lemma f_fixed : forall v e t, cost (fs_effects fs') None v (re e) t = cost (fs_effects fs) None v e t.
Proof. intros v e t. unfold cost. f_equal. apply map_ext. intros kp. rewrite f_names. reflexivity. Qed.
Lemma f_onoff_costs : forall nm p e t, (t < k * n)%nat -> entries (oo_switch_eff p) = [] -> onoff_costs fs' None y nm (ro p) (re e) t == onoff_costs fs None x nm p e (t / k) / nq k.
Proof.
  intros nm p e t Ht Z. pose proof (k_nz k KP) as NZ. unfold onoff_costs. cbn [re_onoff oo_switch_eff oo_run_eff]. rewrite !f_cost, y_on, (f_hours k KP fs t Ht).
  assert (C0 : cost (fs_effects fs) None (oo_switch_eff p) e (t / k) == 0) by (unfold cost; rewrite Z; reflexivity). rewrite C0. field. exact NZ.
Qed.
Lemma f_comp_costs : forall c e t, In c (fs_comps fs) -> (t < k * n)%nat -> comp_costs fs' None y (rc c) (re e) t == comp_costs fs None x c e (t / k) / nq k.
Proof.
  intros c e t Hc Ht. pose proof (k_nz k KP) as NZ. unfold comp_costs. rewrite m_flows, map_map.
  assert (FL : Qsum (map (fun f => flow_costs fs' None y (rc c) (rf f) (re e) t) (cp_flows c)) == Qsum (map (fun f => flow_costs fs None x c f e (t / k)) (cp_flows c)) / nq k).
  { unfold Qdiv. rewrite Qmult_comm, <- BaseFacts.Qsum_scale. apply Qsum_map_eq. intros f Hf. unfold flow_costs. rewrite (f_governed k KP). cbn [re_flow f_effects]. rewrite f_cost, y_rate, (f_hours k KP fs t Ht).
    change (rate_of x (rc c) (rf f) (t / k)) with (rate_of x c f (t / k)). change (flow_name (rc c) (rf f)) with (flow_name c f). destruct (governed fs None c f) as [p|] eqn:G; cbn [option_map]; [|field; exact NZ].
    rewrite f_onoff_costs; [field; exact NZ|exact Ht|]. unfold governed in G. destruct (f_onoff f) as [o|] eqn:O; [injection G as <-; exact (sp_flows _ SP c f o Hc Hf O)|]. destruct (induced fs None c f); [|discriminate G]. injection G as <-. reflexivity. }
  rewrite FL. cbn [re_comp cp_onoff cp_label]. destruct (cp_onoff c) as [p|] eqn:O; cbn [option_map]; [|field; exact NZ]. rewrite f_onoff_costs; [field; exact NZ|exact Ht|exact (sp_comps _ SP c p Hc O)].
Qed.
Lemma f_bounds : forall p t q, (t < k * n)%nat ->
  (at_least (option_map (fun p => value None p (t / k) * hours fs None (t / k)) p) q -> at_least (option_map (fun p => value None p t * hours fs' None t) (option_map (spread k) p)) (q / nq k))
  /\ (at_most (option_map (fun p => value None p (t / k) * hours fs None (t / k)) p) q -> at_most (option_map (fun p => value None p t * hours fs' None t) (option_map (spread k) p)) (q / nq k)).
Proof.
  intros [p|] t q Ht; [|split; intros _ l E; discriminate E]. pose proof (k_nz k KP) as NZ. pose proof (k_pos k KP) as KQ. split; intros H l E; cbn [option_map] in E; injection E as <-; specialize (H _ eq_refl); rewrite (v_spread k KP), (f_hours k KP fs t Ht); unfold Qdiv; rewrite Qmult_assoc;
    (apply Qmult_le_compat_r; [exact H|apply Qlt_le_weak, Qinv_lt_0_compat, KQ]).
Qed.
Lemma f_effect : forall e, effect_rule cf fs None x e -> effect_rule cf fs' None y (re e).
Proof.
  intros e [A1 [A2 [A3 [A4 [A5 [A6 [A7 [A8 [A9 [A10 A11]]]]]]]]]]. pose proof (k_nz k KP) as NZ.
  assert (OA : forall a t, op_at y (re a) t = op_at x a (t / k) / nq k) by (intros a t; rewrite y_op; reflexivity).
  assert (IA : forall a, inv_sum y (re a) = inv_sum x a) by (intros a; rewrite y_inv_sum by exact KP; reflexivity).
  assert (OS : op_sum y (re e) = op_sum x e) by (rewrite y_op_sum by exact KP; reflexivity). assert (AS : all_sum y (re e) = all_sum x e) by (rewrite y_all_sum by exact KP; reflexivity).
  unfold effect_rule. rewrite f_steps, OS, IA, AS. cbn [re_effect e_min_op e_max_op e_min_inv e_max_inv e_min_tot e_max_tot e_min_ph e_max_ph].
  split; [|split; [|split; [|split; [exact A4|split; [exact A5|split; [exact A6|split; [exact A7|split; [exact A8|split; [exact A9|split; [exact A10|]]]]]]]]]].
  - intros t Ht. rewrite OA, (A1 _ (div_in k KP _ _ Ht)).
    assert (C1 : Qsum (map (fun c => comp_costs fs' None y c (re e) t) (fs_comps fs')) == Qsum (map (fun c => comp_costs fs None x c e (t / k)) (fs_comps fs)) / nq k).
    { unfold Qdiv. rewrite Qmult_comm, <- BaseFacts.Qsum_scale. cbn [split_steps remapped fs_comps]. rewrite map_map. apply Qsum_map_eq. intros c Hc. pose proof (f_comp_costs c e t Hc Ht) as FC. etransitivity; [exact FC|]. field. exact NZ. }
    assert (C2 : op_from_effects fs' None y (re e) t == op_from_effects fs None x e (t / k) / nq k).
    { unfold op_from_effects. unfold Qdiv. rewrite Qmult_comm, <- BaseFacts.Qsum_scale. cbn [split_steps remapped fs_effects]. rewrite map_map. apply Qsum_map_eq. intros a _. cbn [re_effect e_share_op]. rewrite map_map, <- BaseFacts.Qsum_scale. apply Qsum_map_eq. intros kp _.
      cbn [re_entry fst snd]. change (e_id (re e)) with (e_id e). destruct (Nat.eqb _ _); [|ring]. rewrite (v_spread k KP). fold (re a). rewrite OA. field. exact NZ. }
    rewrite C1, C2. field. exact NZ.
  - rewrite A2. rewrite (sumn_grid k KP n _ (fun t => op_at x e t / nq k)) by (intros t _; rewrite OA; reflexivity). unfold sumn. rewrite <- BaseFacts.Qsum_scale. apply Qsum_map_eq. intros t _. field. exact NZ.
  - rewrite A3, f_investments.
    assert (C1 : Qsum (map (fun ni => invest_costs fs' y (fst ni) (snd ni) (re e)) (investments cf fs)) == Qsum (map (fun ni => invest_costs fs x (fst ni) (snd ni) e) (investments cf fs))).
    { apply Qsum_map_eq. intros [nm iv] _. cbn [fst snd]. unfold invest_costs, seg_costs, made. rewrite !f_fixed, y_size, y_made, y_seg by exact KP. reflexivity. }
    assert (C2 : inv_from_effects fs' y (re e) == inv_from_effects fs x e).
    { unfold inv_from_effects. cbn [split_steps remapped fs_effects]. rewrite map_map. apply Qsum_map_eq. intros a _. rewrite IA. reflexivity. }
    rewrite C1, C2. reflexivity.
  - intros t Ht. destruct (A11 _ (div_in k KP _ _ Ht)) as [B1 B2]. rewrite OA. split; [apply (proj1 (f_bounds (e_min_ph e) t _ Ht)); exact B1|apply (proj2 (f_bounds (e_max_ph e) t _ Ht)); exact B2].
Qed.
Lemma f_price : forall b, bus_price fs' None y (rb b) == bus_price fs None x b.
Proof.
  intros b. unfold bus_price. cbn [re_bus b_penalty]. destruct (b_penalty b) as [p|] eqn:E; cbn [option_map]; [|reflexivity]. rewrite f_steps.
  transitivity (sumn (k * n) (fun t => hours fs' None t * (value None (spread k p) t * (excess y (rb b) "excess_input" t + excess y (rb b) "excess_output" t)))); [apply sumn_ext; intros; ring|].
  rewrite (f_weighted k KP fs _ (fun t => value None p t * (excess x b "excess_input" t + excess x b "excess_output" t))) by (intros t _; rewrite (v_spread k KP), !y_excess by auto; reflexivity). apply sumn_ext. intros. ring.
Qed.
Lemma f_penalty : obeys cf fs None x -> forall bl', NoDup bl' -> (forall b, In b bl' <-> used_bus fs' b) -> penalty_sum y == Qsum (map (bus_price fs' None y) bl').
Proof.
  intros O bl' ND U.
  assert (PR : forall l', (forall b, In b l' -> used_bus fs' b) -> exists l, l' = map rb l /\ forall b, In b l -> used_bus fs b).
  { induction l' as [|b' l' IH]; intros H; [exists []; split; [reflexivity|intros b []]|]. destruct (IH (fun b Hb => H b (or_intror Hb))) as [l [-> HL]]. destruct (proj1 (m_used _ _ _ _ _ _) (H b' (or_introl eq_refl))) as [b [Hb ->]]. exists (b :: l). split; [reflexivity|]. intros q [<-|Hq]; auto. }
  destruct (PR bl' (fun b => proj1 (U b))) as [bl [-> UL]]. rewrite y_penalty by exact KP. rewrite (ob_penalty _ _ _ _ O bl).
  - rewrite map_map. apply Qsum_map_eq. intros b _. symmetry. apply f_price.
  - exact (NoDup_map_inv _ _ ND).
  - intros b. split; [apply UL|]. intros Ub. assert (Ub' : used_bus fs' (rb b)) by (apply m_used; exists b; auto). apply U in Ub'. apply in_map_iff in Ub'. destruct Ub' as [b0 [E H0]]. replace b with b0; [exact H0|]. apply (proj1 (se_buses _ _ _ SE)); auto. exact (f_equal b_id E).
Qed.
Lemma f_obeys : (forall c, In c (fs_comps fs) -> NoDup (map f_id (cp_flows c))) -> obeys cf fs None x -> obeys cf fs' None y.
Proof.
  intros IDS O. constructor.
  - intros c' f' Hc' Hf'. destruct (m_in _ _ _ _ _ _ Hc') as [c [Hc ->]]. destruct (m_in_flow _ _ _ _ Hf') as [f [Hf ->]]. exact (f_flow k KP fs cf x SE c f Hc Hf (ob_flow _ _ _ _ O c f Hc Hf)).
  - intros c' p' Hc' E'. destruct (m_in _ _ _ _ _ _ Hc') as [c [Hc ->]]. cbn [re_comp cp_onoff] in E'. destruct (cp_onoff c) as [p|] eqn:Ec; [|discriminate E']. injection E' as <-. exact (f_running k KP fs cf x SE c p Hc Ec (ob_running _ _ _ _ O c p Hc Ec)).
  - intros c' Hc'. destruct (m_in _ _ _ _ _ _ Hc') as [c [Hc ->]]. exact (f_exclusion k KP fs x c (ob_exclusion _ _ _ _ O c Hc) (IDS c Hc)).
  - intros c' Hc'. destruct (m_in _ _ _ _ _ _ Hc') as [c [Hc ->]]. exact (f_own k KP fs cf x SP c Hc (ob_own _ _ _ _ O c Hc)).
  - intros nm iv H. rewrite f_investments in H. exact (f_segments nm iv (ob_segments _ _ _ _ O nm iv H)).
  - intros b' Hb'. destruct (proj1 (m_used _ _ _ _ _ _) Hb') as [b [Hb ->]]. exact (f_bus b (ob_bus _ _ _ _ O b Hb)).
  - intros e' He'. cbn [split_steps remapped fs_effects] in He'. apply in_map_iff in He'. destruct He' as [e [<- He]]. exact (f_effect e (ob_effect _ _ _ _ O e He)).
  - exact (f_penalty O).
Qed.

(** The fine system makes sense if the coarse one does. *)
Lemma f_full : forall p, full_data fs p -> full_data fs' (spread k p).
Proof. intros p H. unfold full_data in *. rewrite spread_data. destruct (pdata p); [exact Logic.I|]. rewrite flat_length by exact KP. rewrite H. cbn [split_steps remapped fs_times]. rewrite map_length, seq_length. reflexivity. Qed.
Lemma f_sound : forall o, sound_limits fs None o -> sound_limits fs' None (ro o).
Proof.
  intros o SL H. rewrite m_limits in *. destruct (SL ltac:(intros E; apply H; rewrite E; reflexivity)) as [A [B C]]. split; [|split].
  - intros t Ht. rewrite f_steps in Ht. rewrite (f_hours k KP fs t Ht). apply Qle_shift_div_l; [apply k_pos, KP|]. rewrite Qmult_0_l. apply A, (div_in k KP), Ht.
  - exact B.
  - intros p' Hp'. apply in_map_iff in Hp'. destruct Hp' as [p [<- Hp]]. destruct (C p Hp) as [C1 C2]. split; [apply f_full, C1|]. intros t Ht. rewrite f_steps in Ht. rewrite (v_spread k KP). apply C2, (div_in k KP), Ht.
Qed.
Lemma f_sensible : sensible cf fs' None.
Proof.
  destruct SE as [A B C D E F G H]. constructor.
  - exact A.
  - rewrite f_steps. nia.
  - exact (m_distinct _ _ _ _ _ C).
  - intros c' Hc'. destruct (m_in _ _ _ _ _ _ Hc') as [c [Hc ->]]. destruct (D c Hc) as [D1 D2]. split; [exact D1|]. cbn [re_comp cp_kind]. destruct (cp_kind c) as [| | |s|rel abs]; try exact Logic.I; cbn [re_kind].
    + destruct D2 as [label [ch [dis [prevent ->]]]]. exists label, (rf ch), (rf dis), prevent. reflexivity.
    + destruct D2 as [label [in1 [out1 [in2 [out2 [oo [prevent ->]]]]]]]. exists label, (rf in1), (rf out1), (option_map rf in2), (option_map rf out2), (option_map ro oo), prevent. destruct in2, out2; reflexivity.
  - intros c' f' Hc' Hf'. destruct (m_in _ _ _ _ _ _ Hc') as [c [Hc ->]]. destruct (m_in_flow _ _ _ _ Hf') as [f [Hf ->]]. destruct (E c f Hc Hf) as [[E1 [E2 E3]] E4]. split; [split; [|split]|].
    + cbn [re_flow f_profile f_relmin f_relmax]. destruct (f_profile f) as [p|]; cbn [option_map]; [apply f_full; exact E1|destruct E1; split; apply f_full; assumption].
    + rewrite f_sized, f_steps. intros iv Ei. destruct (E2 iv Ei) as [E5 E6]. split; [exact E5|]. intros t Ht. cbn [re_flow f_relmin f_relmax]. rewrite !(v_spread k KP). apply E6, (div_in k KP), Ht.
    + intros o' Eo. rewrite (f_governed k KP) in Eo. destruct (governed fs None c f) as [o|]; [|discriminate Eo]. injection Eo as <-. exact (f_sound o (E3 o eq_refl)).
    + intros o' Eo. rewrite (f_governed k KP) in Eo. destruct (governed fs None c f) as [o|]; [|discriminate Eo]. injection Eo as <-. rewrite m_prior. exact (m_countable _ o _ (E4 o eq_refl)).
  - intros c' p' Hc' Ep. destruct (m_in _ _ _ _ _ _ Hc') as [c [Hc ->]]. cbn [re_comp cp_onoff] in Ep. destruct (cp_onoff c) as [p|] eqn:Ec; [|discriminate Ep]. injection Ep as <-. destruct (F c p Hc Ec) as [F1 [F2 [F3 F4]]].
    split; [exact (f_sound p F1)|]. split; [|split].
    + rewrite f_states. exact (m_countable _ p _ F2).
    + rewrite m_flows. assert (K : forall l, length (filter gives_number (map rf l)) = length (filter gives_number l)) by (clear; induction l as [|f l IH]; [reflexivity|]; cbn [map filter]; change (gives_number (rf f)) with (gives_number f); destruct (gives_number f); cbn [length]; rewrite IH; reflexivity).
      rewrite K. exact F3.
    + intros f' t Hf' Ht. rewrite f_steps in Ht. destruct (m_in_flow _ _ _ _ Hf') as [f [Hf ->]]. rewrite f_sized. destruct (f_rel k KP f t) as [_ ->]. apply F4; [exact Hf|apply (div_in k KP), Ht].
  - intros c' s' iv Hc' K Ci. destruct (m_in _ _ _ _ _ _ Hc') as [c [Hc ->]]. cbn [re_comp cp_kind] in K. destruct (cp_kind c) as [| | |s|] eqn:Kc; try discriminate K. injection K as <-. exact (G c s iv Hc Kc Ci).
  - destruct H as [H1 [H2 H3]]. split; [|split].
    + unfold distinct_effects. cbn. rewrite map_map. exact H1.
    + intros e' i d He' Hi. cbn in He'. apply in_map_iff in He'. destruct He' as [e [<- He]]. exact (H2 e i d He Hi).
    + intros nm iv Hi. rewrite f_investments in Hi. exact (H3 nm iv Hi).
Qed.
End Whole.

(** ** C99 *)

Lemma find_obj : forall k fs, find e_obj (fs_effects (split_steps k fs)) = option_map (re_effect (spread k)) (find e_obj (fs_effects fs)).
Proof.
  intros k fs. cbn [split_steps remapped fs_effects]. induction (fs_effects fs) as [|a l IH]; [reflexivity|]. cbn [map find]. change (e_obj (re_effect (spread k) a)) with (e_obj a). destruct (e_obj a); [reflexivity|exact IH].
Qed.
(** Every plan of the coarse system can be carried out in the fine one, at the same cost. *)
Theorem C99_finer_partial : forall k cf ord ord' fs pm pm', (0 < k)%nat -> (forall l, Permutation (ord l) l) -> (forall l, Permutation (ord' l) l) ->
  build cf ord fs None = Ok pm -> build cf ord' (split_steps k fs) None = Ok pm' -> sensible cf fs None -> splittable fs ->
  forall x, feasible pm x -> exists y, feasible pm' y /\ carried_out k cf fs x y /\ objective_value pm' y == objective_value pm x.
Proof.
  intros k cf ord ord' fs pm pm' KP PO PO' B B' SE SP x F. pose proof (f_sensible k KP fs cf SE) as SE'. pose proof (fun c Hc => comp_ids _ _ _ _ _ c B Hc) as IDS.
  pose proof (f_obeys k KP fs cf x SE SP IDS (C57_solutions _ _ _ _ _ _ PO B SE F)) as OB. destruct (proj1 (C57_plans _ _ _ _ _ _ PO' B' SE') OB) as [y [[S1 S2 S3 S4 S5 S6 S7 S8] F']].
  assert (CI : forall c, In c (fs_comps fs) -> In (re_comp (spread k) (fun p => p) c) (fs_comps (split_steps k fs))) by (intros c Hc; apply in_map, Hc).
  assert (EI : forall e, In e (fs_effects fs) -> In (re_effect (spread k) e) (fs_effects (split_steps k fs))) by (intros e He; apply in_map, He).
  assert (C : carried_out k cf fs x y).
  { constructor.
    - intros c f t Hc Hf Ht. etransitivity; [exact (S1 _ _ t (CI c Hc) ltac:(rewrite m_flows; apply in_map, Hf) ltac:(rewrite f_steps; exact Ht))|]. rewrite y_rate. reflexivity.
    - intros nm iv H. destruct (S4 nm iv) as [Q1 _]; [rewrite f_investments; exact H|]. rewrite Q1, y_size by exact KP. reflexivity.
    - intros c s t Hc K Ht. etransitivity; [refine (S5 _ _ (k * t)%nat (CI c Hc) _ _); [cbn [re_comp cp_kind]; rewrite K; reflexivity|rewrite f_steps; nia]|]. exact (y_level k KP x c t).
    - intros e He. destruct (S7 _ (EI e He)) as [_ [Q2 [Q3 _]]]. split; [etransitivity; [exact Q2|]; rewrite y_op_sum by exact KP; reflexivity|etransitivity; [exact Q3|]; rewrite y_inv_sum by exact KP; reflexivity].
    - rewrite S8, y_penalty by exact KP. reflexivity. }
  exists y. split; [exact F'|]. split; [exact C|]. destruct (C21_objective _ _ _ _ _ x B) as [e [Fe Ox]]. destruct (C21_objective _ _ _ _ _ y B') as [e' [Fe' Oy]].
  rewrite find_obj, Fe in Fe'. injection Fe' as <-. assert (He : In e (fs_effects fs)) by (apply find_some in Fe; apply Fe). destruct (co_effect _ _ _ _ _ C e He) as [T2 T3]. change (op_sum y (re_effect (spread k) e)) with (op_sum y e) in Oy. change (inv_sum y (re_effect (spread k) e)) with (inv_sum y e) in Oy.
  rewrite Ox, Oy, T2, T3, (co_penalty _ _ _ _ _ C). reflexivity.
Qed.
Print Assumptions C99_finer_partial.

(** The least cost on the finer grid is at most the least cost on the coarse one. *)
Theorem C99_best_partial : forall k cf ord ord' fs pm pm' q q', (0 < k)%nat -> (forall l, Permutation (ord l) l) -> (forall l, Permutation (ord' l) l) ->
  build cf ord fs None = Ok pm -> build cf ord' (split_steps k fs) None = Ok pm' -> sensible cf fs None -> splittable fs ->
  least pm q -> least pm' q' -> q' <= q.
Proof.
  intros k cf ord ord' fs pm pm' q q' KP PO PO' B B' SE SP [[x [F V]] _] [_ L]. destruct (C99_finer_partial k cf ord ord' fs pm pm' KP PO PO' B B' SE SP x F) as [y [F' [_ E]]]. rewrite <- V, <- E. exact (L y F').
Qed.
Print Assumptions C99_best_partial.

(** *** The finer system is accepted *)
Section Accepted.
Variables (k : nat) (fs : flow_system).
Hypothesis KP : (0 < k)%nat.
Hypothesis SP : splittable fs.
Notation fs' := (split_steps k fs).
Notation rc := (re_comp (spread k) (fun p => p)).
Notation rf := (re_flow (spread k)).
Lemma a_full : forall p, full_data fs p -> full_data fs' (spread k p). Proof. exact (f_full k KP fs). Qed.
Lemma a_full_opt : forall p, full_opt fs p -> full_opt fs' (option_map (spread k) p).
Proof. intros [p|] H q E; [|discriminate E]. injection E as <-. apply a_full. exact (H p eq_refl). Qed.
Lemma a_flow : forall f, valid_flow fs f -> valid_flow fs' (rf f). Proof. intros f. unfold split_steps. apply m_valid_flow. exact a_full. Qed.
Lemma a_invest : forall iv, valid_invest fs iv -> valid_invest fs' iv. Proof. intros iv. unfold split_steps. apply m_valid_invest. Qed.
Lemma a_onoff : forall o past, valid_onoff fs o past -> valid_onoff fs' (re_onoff (spread k) o) past. Proof. intros o past. unfold split_steps. apply m_valid_onoff. exact a_full. Qed.
Lemma a_means : forall i e, means fs i e -> means fs' i (re_effect (spread k) e). Proof. intros i e. unfold split_steps. apply m_means. Qed.
Lemma a_entries : forall p q, In q (nlist (pdata (spread k p))) -> In q (nlist (pdata p)).
Proof.
  intros p q. rewrite spread_data. destruct (pdata p) as [a|l]; [auto|]. cbn [nlist]. intros H. apply in_flat_map in H. destruct H as [a [Ha H]]. apply repeat_spec in H. rewrite H. exact Ha.
Qed.
Lemma a_comp : forall c, In c (fs_comps fs) -> valid_comp fs None c -> valid_comp fs' None (rc c).
Proof.
  intros c Hc [A B C D]. constructor.
  - intros f' Hf'. destruct (m_in_flow _ _ _ _ Hf') as [f [Hf ->]]. exact (a_flow f (A f Hf)).
  - intros p' Ep. cbn [re_comp cp_onoff] in Ep. destruct (cp_onoff c) as [p|]; [|discriminate Ep]. injection Ep as <-. destruct (B p eq_refl) as [B1 [B2 B3]]. rewrite m_flows, m_past. split; [destruct (cp_flows c); [contradiction|discriminate]|]. split; [exact B2|exact (a_onoff _ _ B3)].
  - cbn [re_comp cp_prevent]. destruct C as [C|[C1 C2]]; [left; exact C|right]. split; [exact C1|]. intros i Hi. destruct (C2 i Hi) as [f [Hf E]]. exists (rf f). rewrite m_flows. split; [apply in_map; exact Hf|exact E].
  - pose proof (sp_stores fs SP c) as ST. pose proof (f_governed k KP fs c) as GV. unfold valid_kind in *. cbn [re_comp cp_kind]. destruct (cp_kind c) as [|eqs|segs|s|rel abs] eqn:K; cbn [re_kind].
    + exact Logic.I.
    + destruct D as [D1 [D2 D3]]. split; [destruct eqs; [contradiction|discriminate]|]. split.
      { intros d' i p' Hd Hk. apply in_map_iff in Hd. destruct Hd as [d [<- Hd]]. apply in_map_iff in Hk. destruct Hk as [[i0 p] [E Hk]]. inversion E. subst. apply a_full. exact (D2 d i p Hd Hk). }
      intros d' Hd. apply in_map_iff in Hd. destruct Hd as [d [<- Hd]]. destruct (D3 d Hd) as [f [p [Hf Hp]]]. exists (rf f), (spread k p). fold (rc c). rewrite m_flows. split; [apply in_map; exact Hf|]. apply in_map_iff. exists (f_id f, p). split; [reflexivity|exact Hp].
    + destruct D as [D1 [D2 [m [D0 D3]]]]. fold (rc c). rewrite m_flows. split; [destruct (cp_flows c); [contradiction|discriminate]|]. split; [rewrite map_map; exact D2|]. exists m. split; [exact D0|]. intros f' Hf'. apply in_map_iff in Hf'. destruct Hf' as [f [<- Hf]].
      destruct (D3 f Hf) as [s [S1 [S2 S3]]]. exists (map (re_points (spread k)) s). split; [|split].
      * apply in_map_iff. exists (f_id f, s). split; [reflexivity|exact S1].
      * rewrite map_length. exact S2.
      * intros p' q' H. apply in_map_iff in H. destruct H as [[p q] [E H]]. inversion E. subst. destruct (S3 p q H). cbn. split; apply a_full; assumption.
    + destruct (ST s Hc eq_refl) as [_ [NM [NX _]]]. destruct D as [[_ [D3 [D4 D5]] D6 D7 D8] [ch [dis [E1 E2]]]]. split.
      * constructor; cbn; [split; left; assumption|repeat split; apply a_full; assumption| |exact D7|intros iv Ei; apply a_invest; exact (D8 iv Ei)]. intros q Hq. apply D6. exact (a_entries _ _ Hq).
      * exists (rf ch), (rf dis). cbn [re_comp cp_in cp_out]. rewrite E1, E2. split; reflexivity.
    + destruct D as [D1 [D2 [D3 D4]]]. split; [apply a_full_opt; exact D1|]. split; [apply a_full_opt; exact D2|]. split.
      * cbn [re_comp cp_in cp_out]. destruct D3 as [[i [o [-> ->]]]|[i [i' [o [o' [-> ->]]]]]]; [left; exists (rf i), (rf o); split; reflexivity|right; exists (rf i), (rf i'), (rf o), (rf o'); split; reflexivity].
      * intros NA f' Hf'. cbn [re_comp cp_in] in Hf'. apply in_map_iff in Hf'. destruct Hf' as [f [<- Hf]].
        assert (NA0 : abs <> None) by (destruct abs; [discriminate|exfalso; apply NA; reflexivity]). specialize (D4 NA0 f Hf). change (governed fs' None (rc c) (rf f) <> None). rewrite (GV f). destruct (governed fs None c f); [discriminate|contradiction].
Qed.
Lemma a_valid : valid_data fs None -> valid_data fs' None.
Proof.
  intros [A B C D E F G H]. constructor.
  - rewrite f_steps. nia.
  - intros l i Z. discriminate Z.
  - cbn. replace (map f_id (flat_map cp_flows (map rc (fs_comps fs)))) with (map f_id (flat_map cp_flows (fs_comps fs))); [exact C|]. clear.
    induction (fs_comps fs) as [|c l IH]; [reflexivity|]. cbn [map flat_map]. rewrite !map_app, IH, m_flows, map_map. reflexivity.
  - cbn. rewrite map_map. exact D.
  - intros e' He'. cbn in He'. apply in_map_iff in He'. destruct He' as [e [<- He]]. destruct (E e He) as [[E1 E2] [E3 E4] [E5 E6]]. constructor; cbn.
    + split; apply a_full_opt; assumption.
    + rewrite m_fst. split; [exact E3|]. intros i p' Hk. apply in_map_iff in Hk. destruct Hk as [[i0 p] [Z Hk]]. inversion Z. subst. destruct (E4 i p Hk) as [[e1 M] Fp]. split; [exists (re_effect (spread k) e1); exact (a_means _ _ M)|apply a_full; exact Fp].
    + split; [exact E5|]. intros i a Hk. destruct (E6 i a Hk) as [[e1 M] Q1]. split; [exists (re_effect (spread k) e1); exact (a_means _ _ M)|exact Q1].
  - destruct F as [e [He Ho]]. exists (re_effect (spread k) e). split; [apply in_map; exact He|exact Ho].
  - intros c' Hc'. destruct (m_in _ _ _ _ _ _ Hc') as [c [Hc ->]]. exact (a_comp c Hc (G c Hc)).
  - intros b' Hb'. apply m_used in Hb'. destruct Hb' as [b [Hb ->]]. cbn. apply a_full_opt. exact (H b Hb).
Qed.
End Accepted.

(** With valid data and labels the finer system is accepted too, so if there is a plan at all, there is one on the finer grid. *)
Theorem C99_accepted_partial : forall k cf ord fs, (0 < k)%nat -> (forall l, Permutation (ord l) l) -> well_named fs -> valid_data fs None -> sensible cf fs None -> splittable fs ->
  exists pm pm', build cf ord fs None = Ok pm /\ build cf ord (split_steps k fs) None = Ok pm'
    /\ forall x, feasible pm x -> exists y, feasible pm' y /\ carried_out k cf fs x y /\ objective_value pm' y == objective_value pm x.
Proof.
  intros k cf ord fs KP PO WN V SE SP. destruct (C70_accepted_partial cf ord fs None PO WN V) as [pm B].
  assert (WN' : well_named (split_steps k fs)) by (unfold split_steps; apply m_named; exact WN).
  destruct (C70_accepted_partial cf ord (split_steps k fs) None PO WN' (a_valid k fs KP SP V)) as [pm' B']. exists pm, pm'. split; [exact B|]. split; [exact B'|]. exact (C99_finer_partial k cf ord ord fs pm pm' KP PO PO B B' SE SP).
Qed.
Print Assumptions C99_accepted_partial.

(** A power plant that must run for at least two hours, a store and a demand, two hours, split into half hours and into steps of ten minutes. *)
Definition mill_oo : onoff := mkOnOff EVNone (EVOne (n1 2)) None None (Some (n1 2)) (Some (n1 10)) None None (Some 3) false.
Definition mill : flow := set_prev (Some (NS 0)) (set_onoff (Some mill_oo) (set_eff (EVOne (na [1; 4])) (fl 191 "Q" gas 30))).
Definition mill_tank : component := storage_ "Tank" (fl 192 "ch" gas 15) (fl 193 "dis" gas 15) (mkStorage (CapNum 20) (n1 0) (n1 1) (ICNum 0) (Some 0) (Some 5) (n1 1) (n1 1) (n1 0)) false.
Definition fs_mill : flow_system := mkFS [0; 1] 2 (NS 1) [costs] [Library.source "Mill" mill; mill_tank; Library.sink "Need" (set_profile (Some (na [1; 2])) (fl 194 "Q" gas 10))].
Definition mill_plan : asg := of_table [("Mill__Q_flow_rate", [20; 10]); ("Mill__Q_sumFlowHours", [30]); ("Mill__Q__OnOff_on", [1; 1]); ("Mill__Q__OnOff_totalOnHours", [2]); ("Mill__Q__OnOff_consecutiveOnHours", [1; 2]);
  ("Mill__Q__OnOff_switchOn", [1; 0]); ("Mill__Q__OnOff_switchOff", [0; 0]); ("Mill__Q__OnOff_nrSwitchOn", [1]); ("Tank__ch_flow_rate", [10; 0]); ("Tank__ch_sumFlowHours", [10]); ("Tank__dis_flow_rate", [0; 10]); ("Tank__dis_sumFlowHours", [10]);
  ("Tank_charge_state", [0; 10; 0]); ("Tank_netto_discharge", [-(10); 10]); ("Need__Q_flow_rate", [10; 20]); ("Need__Q_sumFlowHours", [30]); ("costs__operation_operation_sum_TS", [22; 42]); ("costs__operation_operation_sum", [64]);
  ("costs__Mill__Q__effects_per_flow_hour", [20; 40]); ("costs__Mill__Q__running_hour_effects", [2; 2]); ("costs__operation", [64]); ("costs__all_all_sum", [64])].
Lemma mill_feasible : exists pm, build default_config id_ord fs_mill None = Ok pm /\ feasible pm mill_plan.
Proof. apply run_ok. vm_compute. reflexivity. Qed.
Lemma mill_sensible : sensible default_config fs_mill None.
Proof.
  apply sensible_check.
  - vm_compute. reflexivity.
  - assert (UB : forall b, used_bus fs_mill b -> In b [gas]) by all_buses. split; intros b b' U U' _; destruct (UB b U) as [<-|[]]; destruct (UB b' U') as [<-|[]]; reflexivity.
  - intros c Hc. cbn in Hc. destruct Hc as [<-|[<-|[<-|[]]]]; cbn; split; try constructor; try exact Logic.I. exists "Tank", (fl 192 "ch" gas 15), (fl 193 "dis" gas 15), false. reflexivity.
Qed.
Lemma mill_splittable : splittable fs_mill.
Proof.
  constructor.
  - intros c f o Hc Hf E. cbn in Hc. destruct Hc as [<-|[<-|[<-|[]]]]; cbn in Hf; repeat (destruct Hf as [<-|Hf]; [try discriminate E; injection E as <-; reflexivity|]); destruct Hf.
  - intros c o Hc E. cbn in Hc. destruct Hc as [<-|[<-|[<-|[]]]]; discriminate E.
  - intros c s Hc E. cbn in Hc. destruct Hc as [<-|[<-|[<-|[]]]]; try discriminate E. injection E as <-. split; [intros; reflexivity|]. split; [exists 0; reflexivity|]. split; [exists 1; reflexivity|discriminate].
Qed.
Example C99_applies : forall k, k = 2%nat \/ k = 6%nat -> exists pm pm', build default_config id_ord fs_mill None = Ok pm /\ build default_config id_ord (split_steps k fs_mill) None = Ok pm'
  /\ sensible default_config fs_mill None /\ splittable fs_mill /\ feasible pm mill_plan /\ objective_value pm mill_plan == 64
  /\ exists y, feasible pm' y /\ carried_out k default_config fs_mill mill_plan y /\ objective_value pm' y == 64.
Proof.
  intros k HK. destruct mill_feasible as [pm [B F]]. assert (OV : objective_value pm mill_plan == 64).
  { assert (R : match build default_config id_ord fs_mill None with Ok m => Qeq_bool (objective_value m mill_plan) 64 | Err _ => false end = true) by (vm_compute; reflexivity). rewrite B in R. apply Qeq_bool_iff, R. }
  assert (BB : exists pm', build default_config id_ord (split_steps k fs_mill) None = Ok pm') by (destruct HK as [-> | ->]; eexists; vm_compute; reflexivity). destruct BB as [pm' B'].
  exists pm, pm'. split; [exact B|]. split; [exact B'|]. split; [exact mill_sensible|]. split; [exact mill_splittable|]. split; [exact F|]. split; [exact OV|].
  destruct (C99_finer_partial k default_config id_ord id_ord fs_mill pm pm' ltac:(destruct HK as [-> | ->]; lia) id_ord_perm id_ord_perm B B' mill_sensible mill_splittable mill_plan F) as [y [F' [C E]]]. exists y. split; [exact F'|]. split; [exact C|]. rewrite E. exact OV.
Qed.

(** Its data and labels are valid. *)
Example C99_accepts : well_named fs_mill /\ valid_data fs_mill None.
Proof.
  assert (U : forall b, used_bus fs_mill b -> In b [gas]) by all_buses. split; [apply (named_b_ok _ _ U); vm_compute; reflexivity|apply (valid_b_ok _ _ _ U); vm_compute; reflexivity].
Qed.

(** In general the claim is wrong: what a store loses in an hour is a share of what it held at the beginning of the hour, which is more than it loses in two half hours. A store that loses half of its content per hour
    is nearly empty after two hours, as asked for, but not after four half hours. *)
Definition finer_never_worse : Prop := forall k cf ord fs pm pm' x, (0 < k)%nat -> (forall l, Permutation (ord l) l) -> build cf ord fs None = Ok pm -> build cf ord (split_steps k fs) None = Ok pm' ->
  sensible cf fs None -> feasible pm x -> exists y, feasible pm' y /\ objective_value pm' y <= objective_value pm x.
Definition leak_ch : flow := set_profile (Some (n1 0)) (fl 195 "ch" gas 10).
Definition leak_dis : flow := set_profile (Some (n1 0)) (fl 196 "dis" gas 10).
Definition leak_s : storage := mkStorage (CapNum 20) (n1 0) (n1 1) (ICNum 4) None (Some 1) (n1 1) (n1 1) (n1 (1 # 2)).
Definition leak : component := storage_ "Tank" leak_ch leak_dis leak_s false.
Definition fs_leak : flow_system := mkFS [0; 1] 2 (NS 1) [costs] [leak].
Definition leak_plan : asg := of_table [("Tank_charge_state", [4; 2; 1])].
Lemma leak_feasible : exists pm, build default_config id_ord fs_leak None = Ok pm /\ feasible pm leak_plan.
Proof. apply run_ok. vm_compute. reflexivity. Qed.
Lemma leak_sensible : sensible default_config fs_leak None.
Proof.
  apply sensible_check.
  - vm_compute. reflexivity.
  - assert (UB : forall b, used_bus fs_leak b -> In b [gas]) by all_buses. split; intros b b' U U' _; destruct (UB b U) as [<-|[]]; destruct (UB b' U') as [<-|[]]; reflexivity.
  - intros c Hc. cbn in Hc. destruct Hc as [<-|[]]; cbn; split; try constructor. exists "Tank", leak_ch, leak_dis, false. reflexivity.
Qed.
Theorem C99_refuted : ~ finer_never_worse.
Proof.
  intros H. destruct leak_feasible as [pm [B F]]. destruct (build default_config id_ord (split_steps 2 fs_leak) None) as [pm'|e] eqn:B'; [|vm_compute in B'; discriminate B'].
  destruct (H 2%nat default_config id_ord fs_leak pm pm' leak_plan ltac:(lia) id_ord_perm B B' leak_sensible F) as [y [Fy _]]. assert (KP : (0 < 2)%nat) by lia.
  pose proof (C57_solutions _ _ _ _ _ _ id_ord_perm B' (f_sensible 2 KP fs_leak default_config leak_sensible) Fy) as OB. clear H F B B' Fy pm pm'.
  set (c := re_comp (spread 2) (fun p => p) leak). assert (Hc : In c (fs_comps (split_steps 2 fs_leak))) by (left; reflexivity).
  pose proof (ob_own _ _ _ _ OB c Hc) as OW. unfold own_rule in OW. cbn [c re_comp leak storage_ cp_kind re_kind] in OW. specialize (OW _ _ eq_refl eq_refl). destruct OW as [BL [_ [_ [I0 [_ [FX _]]]]]].
  assert (Z : forall f t, In f (cp_flows c) -> (t < 4)%nat -> rate_of y c f t == 0).
  { intros f t Hf Ht. destruct (ob_flow _ _ _ _ OB c f Hc Hf) as [[PL _ _ _ _ _ _] _]. assert (W : within_limits default_config None c f t (rate_of y c f t)).
    { apply PL; [|exact Ht]. cbn in Hf. destruct Hf as [<-|[<-|[]]]; reflexivity. }
    destruct W as [W1 W2]. cbn in Hf. destruct Hf as [<-|[<-|[]]]; unfold rel_min, rel_max, value in W1, W2; cbn in W1, W2; lra. }
  pose proof (I0 4 eq_refl) as C0. pose proof (FX ltac:(discriminate) 1 eq_refl) as CE. change (steps (split_steps 2 fs_leak) None) with 4%nat in *.
  assert (ST : forall t, (t < 4)%nat -> charge y c (S t) == charge y c t * (3 # 4)).
  { intros t Ht. destruct (BL t Ht) as [_ E]. rewrite E. pose proof (Z (re_flow (spread 2) leak_ch) t (or_introl eq_refl) Ht) as Z1. pose proof (Z (re_flow (spread 2) leak_dis) t (or_intror (or_introl eq_refl)) Ht) as Z2.
    rewrite Z1, Z2. rewrite (f_hours 2 KP fs_leak t Ht). assert (HH : hours fs_leak None (t / 2) == 1) by (destruct t as [|[|[|[|t]]]]; [reflexivity|reflexivity|reflexivity|reflexivity|lia]). rewrite HH.
    assert (G : forall q, q * (1 - (1 # 2) * (1 / nq 2)) + 0 * 1 * (1 / nq 2) - 0 / 1 * (1 / nq 2) == q * (3 # 4)) by (intros q; assert (N2 : 1 / nq 2 == 1 # 2) by reflexivity; assert (N0 : 0 / 1 == 0) by reflexivity; rewrite N2, N0; ring). exact (G (charge y c t)). }
  pose proof (ST 0%nat ltac:(lia)) as T0. pose proof (ST 1%nat ltac:(lia)) as T1. pose proof (ST 2%nat ltac:(lia)) as T2. pose proof (ST 3%nat ltac:(lia)) as T3. rewrite T2, T1, T0, C0 in T3. rewrite T3 in CE. vm_compute in CE. apply CE. reflexivity.
Qed.
Print Assumptions C99_refuted.

(** Nor does it hold without losses for a store that is to end as it began: the code compares the beginning with the level one step before the end, and that is another time on a finer grid. *)
Definition finer_without_losses : Prop := forall k cf ord fs pm pm' x, (0 < k)%nat -> (forall l, Permutation (ord l) l) -> build cf ord fs None = Ok pm -> build cf ord (split_steps k fs) None = Ok pm' ->
  sensible cf fs None -> (forall c s t, In c (fs_comps fs) -> cp_kind c = StorageC s -> (t < steps fs None)%nat -> value None (st_loss s) t == 0) ->
  feasible pm x -> exists y, feasible pm' y /\ objective_value pm' y <= objective_value pm x.
Definition loop_s : storage := mkStorage (CapNum 20) (n1 0) (n1 1) ICLast None None (n1 1) (n1 1) (n1 0).
Definition loop : component := storage_ "Tank" (fl 197 "ch" gas 10) (fl 198 "dis" gas 10) loop_s false.
Definition loop_use : flow := set_profile (Some (na [0; 1])) (fl 199 "Q" gas 10).
Definition fs_loop : flow_system := mkFS [0; 1] 2 (NS 1) [costs] [loop; Library.sink "Need" loop_use].
Definition loop_plan : asg := of_table [("Tank_charge_state", [10; 10; 0]); ("Tank__dis_flow_rate", [0; 10]); ("Tank__dis_sumFlowHours", [10]); ("Tank_netto_discharge", [0; 10]); ("Need__Q_flow_rate", [0; 10]); ("Need__Q_sumFlowHours", [10])].
Lemma loop_feasible : exists pm, build default_config id_ord fs_loop None = Ok pm /\ feasible pm loop_plan.
Proof. apply run_ok. vm_compute. reflexivity. Qed.
Lemma loop_sensible : sensible default_config fs_loop None.
Proof.
  apply sensible_check.
  - vm_compute. reflexivity.
  - assert (UB : forall b, used_bus fs_loop b -> In b [gas]) by all_buses. split; intros b b' U U' _; destruct (UB b U) as [<-|[]]; destruct (UB b' U') as [<-|[]]; reflexivity.
  - intros c Hc. cbn in Hc. destruct Hc as [<-|[<-|[]]]; cbn; split; try constructor; try exact Logic.I. exists "Tank", (fl 197 "ch" gas 10), (fl 198 "dis" gas 10), false. reflexivity.
Qed.
Theorem C99_cycle_refuted : ~ finer_without_losses.
Proof.
  intros H. destruct loop_feasible as [pm [B F]]. destruct (build default_config id_ord (split_steps 2 fs_loop) None) as [pm'|e] eqn:B'; [|vm_compute in B'; discriminate B'].
  destruct (H 2%nat default_config id_ord fs_loop pm pm' loop_plan ltac:(lia) id_ord_perm B B' loop_sensible) as [y [Fy _]]; [|exact F|].
  { intros c s t Hc E _. cbn in Hc. destruct Hc as [<-|[<-|[]]]; [|discriminate E]. injection E as <-. reflexivity. }
  assert (KP : (0 < 2)%nat) by lia. pose proof (C57_solutions _ _ _ _ _ _ id_ord_perm B' (f_sensible 2 KP fs_loop default_config loop_sensible) Fy) as OB. clear H F B B' Fy pm pm'.
  set (c := re_comp (spread 2) (fun p => p) loop). set (d := re_comp (spread 2) (fun p => p) (Library.sink "Need" loop_use)). assert (Hc : In c (fs_comps (split_steps 2 fs_loop))) by (left; reflexivity). assert (Hd : In d (fs_comps (split_steps 2 fs_loop))) by (right; left; reflexivity).
  set (ch := re_flow (spread 2) (fl 197 "ch" gas 10)). set (dis := re_flow (spread 2) (fl 198 "dis" gas 10)). set (use := re_flow (spread 2) loop_use).
  pose proof (ob_own _ _ _ _ OB c Hc) as OW. unfold own_rule in OW. cbn [c re_comp loop storage_ cp_kind re_kind] in OW. specialize (OW _ _ eq_refl eq_refl). destruct OW as [BL [_ [_ [_ [IL _]]]]]. fold ch dis c in BL. specialize (IL eq_refl). fold c in IL.
  assert (UB : used_bus (split_steps 2 fs_loop) gas) by (exists c, ch; split; [exact Hc|split; [left; reflexivity|reflexivity]]). pose proof (ob_bus _ _ _ _ OB gas UB) as BB.
  destruct (ob_flow _ _ _ _ OB d use Hd (or_introl eq_refl)) as [[PL _ _ _ _ _ _] _]. specialize (PL eq_refl). change (steps (split_steps 2 fs_loop) None) with 4%nat in *.
  assert (ST : forall t, (t < 4)%nat -> charge y c (S t) == charge y c t - rate_of y d use t * (1 # 2)).
  { intros t Ht. destruct (BL t Ht) as [_ E]. rewrite E. destruct (BB t Ht) as [E2 _]. unfold excess in E2. cbn [b_penalty gas] in E2. rewrite (f_hours 2 KP fs_loop t Ht). assert (HH : hours fs_loop None (t / 2) == 1) by (destruct t as [|[|[|[|t]]]]; [reflexivity|reflexivity|reflexivity|reflexivity|lia]). rewrite HH.
    assert (E3 : rate_of y c dis t == rate_of y c ch t + rate_of y d use t).
    { change (delivered (split_steps 2 fs_loop) y gas t) with (rate_of y c dis t + 0 + (0 + 0)) in E2. change (taken (split_steps 2 fs_loop) y gas t) with (rate_of y c ch t + 0 + (rate_of y d use t + 0 + 0)) in E2. lra. }
    rewrite E3. assert (G : forall q a b, q * (1 - 0 * (1 / nq 2)) + a * 1 * (1 / nq 2) - (a + b) / 1 * (1 / nq 2) == q - b * (1 # 2)) by (intros q a b; assert (N2 : 1 / nq 2 == 1 # 2) by reflexivity; rewrite N2; field). exact (G _ _ _). }
  destruct (PL 0%nat ltac:(lia)) as [P1 P2]. destruct (PL 1%nat ltac:(lia)) as [P3 P4]. destruct (PL 2%nat ltac:(lia)) as [P5 P6].
  pose proof (ST 0%nat ltac:(lia)) as T0. pose proof (ST 1%nat ltac:(lia)) as T1. pose proof (ST 2%nat ltac:(lia)) as T2. unfold rel_min, rel_max, value in P1, P2, P3, P4, P5, P6. cbn in P1, P2, P3, P4, P5, P6. change (4 - 1)%nat with 3%nat in IL. lra.
Qed.
Print Assumptions C99_cycle_refuted.
