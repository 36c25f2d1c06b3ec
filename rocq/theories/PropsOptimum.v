(** Claim C93: a system that can be operated at all has a best way to be operated. The objective of all solutions is bounded below, so no solver
    will ever find the problem of a flow system unbounded, and the smallest objective is attained. *)
From Coq Require Import Permutation Qabs Lqa.
From Verif Require Import Base BaseFacts MathModel Spec Structure Params Features Elements Library System SysSpec AdmitSpec CtxFacts PropsOnOff PropsComp PropsEffects PlanSpec
     Example PlanComp PlanSame PlanSys PlanCheck ExamplePoints SegWitness PropsPlan PropsParts Attain.

(** ** Specification *)

(** There is an order of the effects in which each passes on only to later ones. The constructor of an effect takes existing effects only
    (effects.py 55-110), so the reverse order of creation is one, unless the dicts are changed afterwards. *)
Definition in_order (fs : flow_system) : Prop := exists rank : nat -> nat, forall e i, In e (fs_effects fs) ->
  In i (map fst (e_share_op e)) \/ In i (map fst (e_share_inv e)) -> (rank (e_id e) < rank i)%nat.
(** Nobody is paid for imbalance. *)
Definition fair_penalties (fs : flow_system) (idx : option (list nat)) : Prop :=
  forall b p t, used_bus fs b -> b_penalty b = Some p -> (t < steps fs idx)%nat -> 0 <= value idx p t * hours fs idx t.

(** ** Bounded quantities *)
Section Bounded.
Variable P : asg -> Prop.
Definition bdd (v : asg -> Q) : Prop := exists b, forall x, P x -> Qabs (v x) <= b.

Lemma bdd_const q : bdd (fun _ => q).
Proof. exists (Qabs q). intros. lra. Qed.
Lemma bdd_eq v w : bdd v -> (forall x, P x -> w x == v x) -> bdd w.
Proof. intros [b B] E. exists b. intros x Hx. rewrite (E x Hx). now apply B. Qed.
Lemma bdd_plus v w : bdd v -> bdd w -> bdd (fun x => v x + w x).
Proof.
  intros [b B] [c C]. exists (b + c). intros x Hx. pose proof (Qabs_triangle (v x) (w x)). specialize (B x Hx). specialize (C x Hx). lra.
Qed.
Lemma bdd_mult v w : bdd v -> bdd w -> bdd (fun x => v x * w x).
Proof.
  intros [b B] [c C]. exists (b * c). intros x Hx. rewrite Qabs_Qmult. specialize (B x Hx). specialize (C x Hx).
  pose proof (Qabs_nonneg (v x)). pose proof (Qabs_nonneg (w x)).
  apply Qle_trans with (b * Qabs (w x)); [apply Qmult_le_compat_r; assumption|]. rewrite !(Qmult_comm b). apply Qmult_le_compat_r; [assumption | lra].
Qed.
Lemma bdd_range v lo hi : (forall x, P x -> lo <= v x /\ v x <= hi) -> bdd v.
Proof.
  intros H. exists (Qabs lo + Qabs hi). intros x Hx. destruct (H x Hx) as [L U]. apply Qabs_Qle_condition. pose proof (Qle_Qabs hi). pose proof (Qabs_nonneg lo).
  pose proof (Qabs_nonneg hi). assert (- Qabs lo <= lo) by (pose proof (Qle_Qabs (- lo)); rewrite Qabs_opp in *; lra). split; lra.
Qed.
Lemma bdd_01 v : (forall x, P x -> v x == 0 \/ v x == 1) -> bdd v.
Proof. intros H. apply (bdd_range v 0 1). intros x Hx. destruct (H x Hx); lra. Qed.
Lemma bdd_sum {A} (f : A -> asg -> Q) l : (forall a, In a l -> bdd (f a)) -> bdd (fun x => Qsum (map (fun a => f a x) l)).
Proof.
  induction l as [|a l IH]; intros H; [exact (bdd_const 0)|]. apply (bdd_eq (fun x => f a x + Qsum (map (fun a => f a x) l))).
  - apply bdd_plus; [apply H; now left | apply IH; intros; apply H; now right].
  - intros x _. cbn [map]. rewrite Qsum_cons. reflexivity.
Qed.
Lemma bdd_sumn (f : nat -> asg -> Q) n : (forall t, (t < n)%nat -> bdd (f t)) -> bdd (fun x => sumn n (fun t => f t x)).
Proof. intros H. unfold sumn. apply (bdd_sum f). intros t Ht. apply in_seq in Ht. apply H. lia. Qed.
End Bounded.

(** ** All plans of a system *)
Section Plans.
Variables (cf : config) (fs : flow_system) (idx : option (list nat)).
Hypothesis SE : sensible cf fs idx.
Local Notation B := (bdd (obeys cf fs idx)).

Lemma rate_bdd c f t : In c (fs_comps fs) -> In f (cp_flows c) -> (t < steps fs idx)%nat -> B (fun x => rate_of x c f t).
Proof.
  intros Hc Hf Ht. set (lo := rel_min idx f t * fst (size_range cf (sized cf c f))). set (hi := rel_max idx f t * snd (size_range cf (sized cf c f))).
  apply (bdd_range _ _ (- (Qabs lo)) (Qabs hi)). intros x O. destruct (ob_flow _ _ _ _ O c f Hc Hf) as [AL _].
  pose proof (Qle_Qabs hi). pose proof (Qabs_nonneg lo). pose proof (Qabs_nonneg hi). assert (- Qabs lo <= lo) by (pose proof (Qle_Qabs (- lo)); rewrite Qabs_opp in *; lra).
  destruct (governed fs idx c f) as [o|] eqn:G.
  - destruct (runs x c f t) eqn:R.
    + destruct (al_on _ _ _ _ _ _ _ AL) with (t := t) as [_ [L U]]; [congruence | exact Ht | exact R |]. fold lo in L. fold hi in U. split; lra.
    + pose proof (al_off _ _ _ _ _ _ _ AL ltac:(congruence) t Ht R) as Z. split; lra.
  - destruct (al_plain _ _ _ _ _ _ _ AL G t Ht) as [L U]. fold lo in L. fold hi in U. split; lra.
Qed.
Lemma on_bdd c f t : In c (fs_comps fs) -> In f (cp_flows c) -> governed fs idx c f <> None -> (t < steps fs idx)%nat ->
  B (fun x => x (oo (flow_name c f) "on") t) /\ B (fun x => x (oo (flow_name c f) "switchOn") t).
Proof.
  intros Hc Hf G Ht. split; apply bdd_01; intros x O; destruct (ob_flow _ _ _ _ O c f Hc Hf) as [_ M]; destruct (M G t Ht) as (A & C & _); assumption.
Qed.
Lemma running_bdd c p t : In c (fs_comps fs) -> cp_onoff c = Some p -> (t < steps fs idx)%nat ->
  B (fun x => x (oo (cp_label c) "on") t) /\ B (fun x => x (oo (cp_label c) "switchOn") t).
Proof.
  intros Hc Hp Ht. split; apply bdd_01; intros x O; destruct (ob_running _ _ _ _ O c p Hc Hp) as [M _]; destruct (M t Ht) as (A & C & _); assumption.
Qed.

Lemma size_allowed x name iv : obeys cf fs idx x -> In (name, iv) (investments cf fs) ->
  allowed_size cf iv (x (inv name "size") 0%nat) (x (inv name "isInvested") 0%nat).
Proof.
  intros O H. unfold investments in H. apply in_flat_map in H. destruct H as (c & Hc & H). apply in_app_iff in H. destruct H as [H|H].
  - apply in_flat_map in H. destruct H as (f & Hf & H). unfold flow_investment in H. destruct (sized cf c f) as [q|iv'] eqn:Es; [destruct H|].
    destruct H as [H|[]]. injection H as <- <-. destruct (ob_flow _ _ _ _ O c f Hc Hf) as [AL _]. exact (al_size _ _ _ _ _ _ _ AL iv' Es).
  - unfold storage_investment in H. destruct (cp_kind c) eqn:Ek; try destruct H. destruct (st_cap s) as [q|iv'] eqn:Ec; [destruct H|].
    destruct H as [H|[]]. injection H as <- <-. destruct (se_shape _ _ _ SE c Hc) as [_ WF]. rewrite Ek in WF. destruct WF as (lab & ch & dis & pr & E).
    pose proof (ob_own _ _ _ _ O c Hc) as OW. unfold own_rule in OW. rewrite Ek in OW.
    destruct (OW ch dis) as (_ & _ & A & _); [rewrite E; reflexivity..|]. exact (A iv' Ec).
Qed.
Lemma size_bdd name iv : In (name, iv) (investments cf fs) -> B (fun x => x (inv name "size") 0%nat).
Proof.
  intros H. set (q := match fixed_size iv with Some q => q | None => 0 end). set (b := Qabs q + Qabs (iv_min iv) + Qabs (max_size cf iv)).
  apply (bdd_range _ _ (- b) b). intros x O. pose proof (size_allowed x name iv O H) as A. unfold allowed_size in A.
  assert (N : forall z, 0 <= Qabs z /\ - Qabs z <= z /\ z <= Qabs z).
  { intros z. pose proof (Qle_Qabs z). pose proof (Qabs_nonneg z). pose proof (Qle_Qabs (- z)). rewrite Qabs_opp in *. repeat split; lra. }
  destruct (N q) as (q1 & q2 & q3), (N (iv_min iv)) as (m1 & m2 & m3), (N (max_size cf iv)) as (x1 & x2 & x3). unfold b, q in *.
  destruct (fixed_size iv) as [z|], (iv_optional iv); [destruct A as [[_ A]|[_ A]] | | destruct A as [[_ A]|(_ & _ & A1 & A2)] | destruct A as [A1 A2]]; split; lra.
Qed.
Lemma made_bdd name iv : In (name, iv) (investments cf fs) -> B (fun x => made x name iv).
Proof.
  intros H. apply bdd_01. intros x O. unfold made. destruct (iv_optional iv) eqn:E; [|right; reflexivity].
  pose proof (size_allowed x name iv O H) as A. unfold allowed_size in A. rewrite E in A. destruct (fixed_size iv); destruct A as [[A _]|[A _]]; auto.
Qed.

Definition reach (l : list (Q * Q)) : Q := Qsum (map (fun ab => Qabs (fst ab) + Qabs (snd ab)) l).
Lemma sum_part : forall (l : list Q) q, (forall a, In a l -> 0 <= a) -> In q l -> q <= Qsum l.
Proof.
  induction l as [|a l IH]; intros q N H; [destruct H|]. rewrite Qsum_cons. assert (0 <= Qsum l) by (apply Qsum_nonneg; intros; apply N; now right).
  destruct H as [->|H]; [lra|]. pose proof (N a (or_introl eq_refl)). specialize (IH q ltac:(intros; apply N; now right) H). lra.
Qed.
Lemma piece_reach l k w q : 0 <= w -> w <= 1 -> PropsEffects.piece l k w q -> - reach l <= q /\ q <= reach l.
Proof.
  intros W0 W1 (a & b & E & Eq). apply nth_error_In in E.
  assert (L : Qabs a + Qabs b <= reach l).
  { unfold reach. apply sum_part; [intros z Hz; apply in_map_iff in Hz; destruct Hz as (ab & <- & _); pose proof (Qabs_nonneg (fst ab)); pose proof (Qabs_nonneg (snd ab)); lra|].
    apply in_map_iff. exists (a, b). now split. }
  assert (T : Qabs q <= Qabs a + Qabs b).
  { rewrite Eq. eapply Qle_trans; [apply Qabs_triangle|]. rewrite !Qabs_Qmult, (Qabs_pos (1 - w)), (Qabs_pos w) by lra.
    pose proof (Qabs_nonneg a). pose proof (Qabs_nonneg b).
    assert ((1 - w) * Qabs a <= 1 * Qabs a) by (apply Qmult_le_compat_r; lra). assert (w * Qabs b <= 1 * Qabs b) by (apply Qmult_le_compat_r; lra). lra. }
  pose proof (Qle_Qabs q). pose proof (Qle_Qabs (- q)). rewrite Qabs_opp in *. split; lra.
Qed.
Lemma seg_bdd name iv spts eff i l e : In (name, iv) (investments cf fs) -> iv_seg iv = Some (spts, eff) -> In (i, l) eff -> In e (fs_effects fs) -> e_id e = i ->
  B (fun x => seg_cost x name e).
Proof.
  intros H Es Hl He Ei. apply (bdd_range _ _ (- reach l) (reach l)). intros x O.
  destruct (ob_segments _ _ _ _ O name iv H spts eff Es) as [(k & w & W0 & W1 & _ & A & _)|(_ & _ & _ & A)].
  - exact (piece_reach l k w _ W0 W1 (A i l e Hl He Ei)).
  - specialize (A i l e Hl He Ei). assert (0 <= reach l).
    { unfold reach. apply Qsum_nonneg. intros z Hz. apply in_map_iff in Hz. destruct Hz as (ab & <- & _). pose proof (Qabs_nonneg (fst ab)). pose proof (Qabs_nonneg (snd ab)). lra. }
    split; lra.
Qed.

Lemma onoff_costs_bdd name p e t : B (fun x => x (oo name "on") t) -> B (fun x => x (oo name "switchOn") t) -> B (fun x => onoff_costs fs idx x name p e t).
Proof.
  intros H1 H2. unfold onoff_costs. apply bdd_plus.
  - apply bdd_mult; [apply bdd_const | exact H2].
  - apply bdd_mult; [apply bdd_mult; [apply bdd_const | exact H1] | apply bdd_const].
Qed.
Lemma comp_costs_bdd c e t : In c (fs_comps fs) -> (t < steps fs idx)%nat -> B (fun x => comp_costs fs idx x c e t).
Proof.
  intros Hc Ht. unfold comp_costs. apply bdd_plus.
  - apply (bdd_sum _ (fun f x => flow_costs fs idx x c f e t)). intros f Hf. unfold flow_costs. apply bdd_plus.
    + apply bdd_mult; [apply bdd_mult; [apply bdd_const | exact (rate_bdd c f t Hc Hf Ht)] | apply bdd_const].
    + destruct (governed fs idx c f) as [o|] eqn:G; [|apply bdd_const]. destruct (on_bdd c f t Hc Hf ltac:(congruence) Ht). now apply onoff_costs_bdd.
  - destruct (cp_onoff c) as [p|] eqn:E; [|apply bdd_const]. destruct (running_bdd c p t Hc E Ht). now apply onoff_costs_bdd.
Qed.
Lemma invest_costs_bdd name iv e : In (name, iv) (investments cf fs) -> In e (fs_effects fs) -> B (fun x => invest_costs fs x name iv e).
Proof.
  intros H He. unfold invest_costs. pose proof (made_bdd name iv H) as M. pose proof (size_bdd name iv H) as Z. repeat apply bdd_plus.
  - apply bdd_mult; [apply bdd_const | exact M].
  - apply bdd_mult; [apply bdd_const | exact Z].
  - apply bdd_mult; [apply bdd_const|]. apply (bdd_eq _ (fun x => 1 + (-(1)) * made x name iv)); [|intros; ring].
    apply bdd_plus; [apply bdd_const | apply bdd_mult; [apply bdd_const | exact M]].
  - unfold seg_costs. destruct (iv_seg iv) as [[spts eff]|] eqn:Es; [|apply bdd_const].
    apply (bdd_sum _ (fun il x => if Nat.eqb (fst il) (e_id e) then seg_cost x name e else 0)). intros [i l] Hl. cbn [fst].
    destruct (Nat.eqb_spec i (e_id e)) as [->|]; [|apply bdd_const]. exact (seg_bdd name iv spts eff _ l e H Es Hl He eq_refl).
Qed.

Hypothesis OR : in_order fs.
Lemma effects_bdd e : In e (fs_effects fs) -> (forall t, (t < steps fs idx)%nat -> B (fun x => op_at x e t)) /\ B (fun x => inv_sum x e).
Proof.
  destruct OR as [rank R]. assert (G : forall n e, In e (fs_effects fs) -> (rank (e_id e) < n)%nat ->
            (forall t, (t < steps fs idx)%nat -> B (fun x => op_at x e t)) /\ B (fun x => inv_sum x e)).
  { clear e. induction n as [|n IH]; intros e He L; [lia|]. split.
    - intros t Ht. apply (bdd_eq _ (fun x => Qsum (map (fun c => comp_costs fs idx x c e t) (fs_comps fs)) + op_from_effects fs idx x e t));
        [|intros x O; exact (proj1 (ob_effect _ _ _ _ O e He) t Ht)].
      apply bdd_plus; [apply (bdd_sum _ (fun c x => comp_costs fs idx x c e t)); intros c Hc; now apply comp_costs_bdd|].
      unfold op_from_effects. apply (bdd_sum _ (fun e' x => Qsum (map (fun kp : nat * param => if Nat.eqb (fst kp) (e_id e) then value idx (snd kp) t * op_at x e' t else 0) (e_share_op e')))).
      intros e' He'. apply (bdd_sum _ (fun (kp : nat * param) x => if Nat.eqb (fst kp) (e_id e) then value idx (snd kp) t * op_at x e' t else 0)).
      intros [k p] Hk. cbn [fst snd]. destruct (Nat.eqb_spec k (e_id e)) as [->|]; [|apply bdd_const].
      assert (D : (rank (e_id e') < rank (e_id e))%nat) by (apply R; [exact He' | left; exact (in_map fst _ _ Hk)]).
      apply bdd_mult; [apply bdd_const|]. destruct (IH e' He') as [X _]; [lia|]. now apply X.
    - apply (bdd_eq _ (fun x => Qsum (map (fun ni => invest_costs fs x (fst ni) (snd ni) e) (investments cf fs)) + inv_from_effects fs x e));
        [|intros x O; destruct (ob_effect _ _ _ _ O e He) as (_ & _ & X & _); exact X].
      apply bdd_plus; [apply (bdd_sum _ (fun ni x => invest_costs fs x (fst ni) (snd ni) e)); intros [nm iv] Hn; now apply invest_costs_bdd|].
      unfold inv_from_effects. apply (bdd_sum _ (fun e' x => Qsum (map (fun kd : nat * numeric => if Nat.eqb (fst kd) (e_id e) then at_ (snd kd) 0 * inv_sum x e' else 0) (e_share_inv e')))).
      intros e' He'. apply (bdd_sum _ (fun (kd : nat * numeric) x => if Nat.eqb (fst kd) (e_id e) then at_ (snd kd) 0 * inv_sum x e' else 0)).
      intros [k p] Hk. cbn [fst snd]. destruct (Nat.eqb_spec k (e_id e)) as [->|]; [|apply bdd_const].
      assert (D : (rank (e_id e') < rank (e_id e))%nat) by (apply R; [exact He' | right; exact (in_map fst _ _ Hk)]).
      apply bdd_mult; [apply bdd_const|]. destruct (IH e' He') as [_ X]; [lia|]. exact X. }
  intros He. exact (G (S (rank (e_id e))) e He ltac:(lia)).
Qed.
Lemma total_bdd e : In e (fs_effects fs) -> B (fun x => op_sum x e).
Proof.
  intros He. apply (bdd_eq _ (fun x => sumn (steps fs idx) (fun t => op_at x e t))); [|intros x O; destruct (ob_effect _ _ _ _ O e He) as (_ & X & _); exact X].
  apply (bdd_sumn _ (fun t x => op_at x e t)). exact (proj1 (effects_bdd e He)).
Qed.

Hypothesis FP : fair_penalties fs idx.
Lemma penalty_nonneg x : obeys cf fs idx x -> 0 <= penalty_sum x.
Proof.
  intros O. destruct (some_buses fs (proj1 (se_buses _ _ _ SE))) as (bl & ND & IN). rewrite (ob_penalty _ _ _ _ O bl ND IN). apply Qsum_nonneg.
  intros q Hq. apply in_map_iff in Hq. destruct Hq as (b & <- & Hb). apply IN in Hb. unfold bus_price. destruct (b_penalty b) as [p|] eqn:E; [|lra].
  unfold sumn. apply Qsum_nonneg. intros q Hq. apply in_map_iff in Hq. destruct Hq as (t & <- & Ht). apply in_seq in Ht. assert (Lt : (t < steps fs idx)%nat) by lia.
  destruct (ob_bus _ _ _ _ O b Hb t Lt) as (_ & E1 & E2). apply Qmult_le_0_compat; [exact (FP b p t Hb E Lt) | lra].
Qed.
End Plans.

(** ** C93 *)

(** All solutions stay within limits that depend on the data only: rates, sizes, the effects of every step and their sums; and no solution costs less
    than a certain amount. *)
Theorem C93_limits : forall cf ord fs idx pm, (forall l, Permutation (ord l) l) -> build cf ord fs idx = Ok pm -> sensible cf fs idx -> in_order fs ->
  exists b, forall x, feasible pm x ->
    (forall c f t, In c (fs_comps fs) -> In f (cp_flows c) -> (t < steps fs idx)%nat -> Qabs (rate_of x c f t) <= b)
    /\ (forall name iv, In (name, iv) (investments cf fs) -> Qabs (x (inv name "size") 0%nat) <= b)
    /\ (forall e, In e (fs_effects fs) -> Qabs (op_sum x e) <= b /\ Qabs (inv_sum x e) <= b).
Proof.
  intros cf ord fs idx pm PO BU SE OR.
  assert (M : forall (A : Type) (l : list A) (f : A -> asg -> Q), (forall a, In a l -> bdd (obeys cf fs idx) (f a)) ->
            exists b, forall x a, obeys cf fs idx x -> In a l -> Qabs (f a x) <= b).
  { intros A l f. induction l as [|a l IH]; intros H; [exists 0; intros ? ? _ []|]. destruct IH as [b Hb]; [intros; apply H; now right|].
    destruct (H a (or_introl eq_refl)) as [c Hc]. exists (Qabs b + Qabs c). intros x a' O [<-|Ha].
    - specialize (Hc x O). pose proof (Qle_Qabs c). pose proof (Qabs_nonneg b). lra.
    - specialize (Hb x a' O Ha). pose proof (Qle_Qabs b). pose proof (Qabs_nonneg c). lra. }
  destruct (M _ (flat_map (fun c => flat_map (fun f => map (fun t => (c, f, t)) (seq 0 (steps fs idx))) (cp_flows c)) (fs_comps fs))
              (fun cft x => rate_of x (fst (fst cft)) (snd (fst cft)) (snd cft))) as [b1 H1].
  { intros [[c f] t] H. apply in_flat_map in H. destruct H as (c' & Hc & H). apply in_flat_map in H. destruct H as (f' & Hf & H).
    apply in_map_iff in H. destruct H as (t' & E & Ht). injection E as <- <- <-. apply in_seq in Ht. cbn. apply rate_bdd; auto. lia. }
  destruct (M _ (investments cf fs) (fun ni x => x (inv (fst ni) "size") 0%nat)) as [b2 H2].
  { intros [nm iv] H. exact (size_bdd cf fs idx SE nm iv H). }
  destruct (M _ (fs_effects fs) (fun e x => op_sum x e)) as [b3 H3]; [intros e He; exact (total_bdd cf fs idx SE OR e He)|].
  destruct (M _ (fs_effects fs) (fun e x => inv_sum x e)) as [b4 H4]; [intros e He; exact (proj2 (effects_bdd cf fs idx SE OR e He))|].
  exists (Qabs b1 + Qabs b2 + Qabs b3 + Qabs b4). intros x F. pose proof (C57_solutions cf ord fs idx pm x PO BU SE F) as O.
  pose proof (Qle_Qabs b1). pose proof (Qle_Qabs b2). pose proof (Qle_Qabs b3). pose proof (Qle_Qabs b4).
  pose proof (Qabs_nonneg b1). pose proof (Qabs_nonneg b2). pose proof (Qabs_nonneg b3). pose proof (Qabs_nonneg b4). split; [|split].
  - intros c f t Hc Hf Ht. assert (L : Qabs (rate_of x c f t) <= b1).
    { apply (H1 x (c, f, t) O). apply in_flat_map. exists c. split; [exact Hc|]. apply in_flat_map. exists f. split; [exact Hf|]. apply in_map. apply in_seq. lia. }
    lra.
  - intros nm iv Hn. pose proof (H2 x (nm, iv) O Hn) as L. cbn [fst] in L. lra.
  - intros e He. pose proof (H3 x e O He). pose proof (H4 x e O He). split; lra.
Qed.
Print Assumptions C93_limits.

(** The problem is never unbounded. *)
Theorem C93_bounded : forall cf ord fs idx pm, (forall l, Permutation (ord l) l) -> build cf ord fs idx = Ok pm -> sensible cf fs idx ->
  in_order fs -> fair_penalties fs idx -> exists b, forall x, feasible pm x -> b <= objective_value pm x.
Proof.
  intros cf ord fs idx pm PO BU SE OR FP. destruct (C93_limits cf ord fs idx pm PO BU SE OR) as [b H]. exists (- b - b). intros x F.
  destruct (C21_objective cf ord fs idx pm x BU) as [e [Fe Ox]]. pose proof (find_some _ _ Fe) as [He _]. rewrite Ox.
  destruct (H x F) as (_ & _ & E). destruct (E e He) as [E1 E2]. pose proof (penalty_nonneg cf fs idx SE FP x (C57_solutions cf ord fs idx pm x PO BU SE F)).
  apply Qabs_Qle_condition in E1. apply Qabs_Qle_condition in E2. lra.
Qed.
Print Assumptions C93_bounded.

(** A system that has a solution has an optimal one, and among the plans that obey the rules there is a cheapest. *)
Theorem C93_optimum : forall cf ord fs idx pm, (forall l, Permutation (ord l) l) -> build cf ord fs idx = Ok pm -> sensible cf fs idx ->
  in_order fs -> fair_penalties fs idx -> (exists x, feasible pm x) ->
  exists x, feasible pm x /\ (forall y, feasible pm y -> objective_value pm x <= objective_value pm y)
    /\ exists e, find e_obj (fs_effects fs) = Some e /\ obeys cf fs idx x /\ forall y, obeys cf fs idx y -> plan_cost x e <= plan_cost y e.
Proof.
  intros cf ord fs idx pm PO BU SE OR FP NE. destruct (program_attains pm NE (C93_bounded cf ord fs idx pm PO BU SE OR FP)) as (x & F & M).
  exists x. split; [exact F|]. split; [exact M|]. destruct (C58_optimum cf ord fs idx pm x PO BU SE F) as (e & Fe & OP). exists e. split; [exact Fe|].
  split; [exact (C57_solutions cf ord fs idx pm x PO BU SE F)|]. now apply OP.
Qed.
Print Assumptions C93_optimum.

(** ** The cases meet the hypotheses *)

(** CO2 is passed on to costs, the heat bus has a penalty, both investments and on-off behaviour occur. *)
Lemma order_0 : in_order fs0.
Proof.
  exists (fun i => if Nat.eqb i 1 then 0%nat else 1%nat). intros e i He H. cbn [fs0 fs_effects In] in He. destruct He as [<-|[<-|[]]]; cbn in H.
  - destruct H as [[]|[]].
  - destruct H as [[<-|[]]|[<-|[]]]; cbn; lia.
Qed.
Lemma penalties_0 : fair_penalties fs0 None.
Proof.
  intros b p t (c & f & Hc & Hf & E) Hp Ht. change (steps fs0 None) with 3%nat in Ht. assert (X : b = gas \/ b = heat).
  { cbn [fs0 fs_comps In] in Hc. destruct Hc as [<-|[<-|[<-|[<-|[]]]]]; cbn in Hf.
    - destruct Hf as [<-|[]]. left. now rewrite <- E.
    - destruct Hf as [<-|[<-|[]]]; [left|right]; now rewrite <- E.
    - destruct Hf as [<-|[<-|[]]]; right; now rewrite <- E.
    - destruct Hf as [<-|[]]. right. now rewrite <- E. }
  destruct X as [-> | ->]; [discriminate Hp|]. cbn in Hp. injection Hp as <-. destruct t as [|[|[|t]]]; [| | |lia]; apply Qle_bool_iff; reflexivity.
Qed.
Example C93_applies : exists pm x, build default_config id_ord fs0 None = Ok pm /\ sensible default_config fs0 None /\ in_order fs0 /\ fair_penalties fs0 None
  /\ feasible pm x0 /\ feasible pm x /\ (forall y, feasible pm y -> objective_value pm x <= objective_value pm y) /\ objective_value pm x <= objective_value pm x0.
Proof.
  destruct x0_feasible as [pm [BU F]].
  destruct (C93_optimum default_config id_ord fs0 None pm id_ord_perm BU sensible_0 order_0 penalties_0 (ex_intro _ x0 F)) as (x & Fx & M & _).
  exists pm, x. split; [exact BU|]. split; [exact sensible_0|]. split; [exact order_0|]. split; [exact penalties_0|]. split; [exact F|]. split; [exact Fx|]. split; [exact M|].
  exact (M x0 F).
Qed.

(** ** Both conditions are needed *)

(** A direction in which one can go on for ever. *)
Definition ray_entry (e : pentry) (q : Q) : bool :=
  match pe_fix e with
  | Some _ => Qeq_bool q 0
  | None => (if pe_bin e then Qeq_bool q 0 else true) && (match pe_lb e with Some _ => Qle_bool 0 q | None => true end)
            && (match pe_ub e with Some _ => Qle_bool q 0 | None => true end)
  end.
Definition ray_b (pm : pmodel) (d : asg) : bool :=
  forallb (fun v => forallb (fun ie => ray_entry (snd ie) (d (pv_label v) (fst ie))) (combine (seq 0 (length (pv_entries v))) (pv_entries v))) (pm_vars pm)
  && forallb (fun r => if r_eq r then Qeq_bool (lin d (r_terms r)) 0 else Qle_bool (lin d (r_terms r)) 0) (pm_rows pm)
  && Qeq_bool (lin d (pm_obj pm)) (-(2)).
Definition along (x d : asg) (q : Q) : asg := fun l i => x l i + q * d l i.
Lemma lin_along x d q ts : lin (along x d q) ts == lin x ts + q * lin d ts.
Proof.
  induction ts as [|[[a l] i] ts IH]; [unfold lin; cbn; ring|].
  assert (C : forall z, lin z ((a, l, i) :: ts) == a * z l i + lin z ts) by (intros z; unfold lin; cbn [map]; rewrite Qsum_cons; reflexivity).
  rewrite !C, IH. unfold along. ring.
Qed.
Lemma ray_feasible pm x d q : 0 <= q -> feasible pm x -> ray_b pm d = true -> feasible pm (along x d q) /\ objective_value pm (along x d q) == objective_value pm x - 2 * q.
Proof.
  intros Q0 [FV FR] R. apply andb_true_iff in R. destruct R as [R RO]. apply andb_true_iff in R. destruct R as [RV RR].
  apply Qeq_bool_iff in RO. rewrite forallb_forall in RV, RR. rewrite Forall_forall in FV, FR. split; [split; apply Forall_forall|].
  - intros v Hv i e N. specialize (FV v Hv i e N). specialize (RV v Hv). rewrite forallb_forall in RV. specialize (RV (i, e)).
    assert (I : In (i, e) (combine (seq 0 (length (pv_entries v))) (pv_entries v))).
    { assert (G : forall (l : list pentry) k i, nth_error l i = Some e -> In ((k + i)%nat, e) (combine (seq k (length l)) l)).
      { clear. induction l as [|a l IH]; intros k [|i] N; try discriminate N; cbn in N.
        - injection N as ->. left. f_equal. lia.
        - right. replace (k + S i)%nat with (S k + i)%nat by lia. now apply IH. }
      exact (G _ 0%nat i N). }
    specialize (RV I). cbn [fst snd] in RV. unfold entry_ok, ray_entry, along in *. destruct (pe_fix e) as [z|].
    + apply Qeq_bool_iff in RV. rewrite RV, FV. ring.
    + apply andb_true_iff in RV. destruct RV as [RV RU]. apply andb_true_iff in RV. destruct RV as [RB RL]. destruct FV as (FB & FL & FU). repeat split.
      * intros Eb. rewrite Eb in RB. apply Qeq_bool_iff in RB. destruct (FB Eb) as [Z|Z]; [left|right]; rewrite RB, Z; ring.
      * intros z Ez. rewrite Ez in RL. apply Qle_bool_iff in RL. specialize (FL z Ez). pose proof (Qmult_le_0_compat _ _ Q0 RL). lra.
      * intros z Ez. rewrite Ez in RU. apply Qle_bool_iff in RU. specialize (FU z Ez). assert (N0 : 0 <= - d (pv_label v) i) by lra. pose proof (Qmult_le_0_compat _ _ Q0 N0). lra.
  - intros r Hr. specialize (FR r Hr). specialize (RR r Hr). unfold row_ok in *. destruct (r_eq r).
    + apply Qeq_bool_iff in RR. rewrite lin_along, RR, FR. ring.
    + apply Qle_bool_iff in RR. rewrite lin_along. assert (N0 : 0 <= - lin d (r_terms r)) by lra. pose proof (Qmult_le_0_compat _ _ Q0 N0). lra.
  - unfold objective_value. rewrite lin_along, RO. ring.
Qed.
Lemma ray_unbounded pm x d : feasible pm x -> ray_b pm d = true -> forall b, exists y, feasible pm y /\ objective_value pm y < b.
Proof.
  intros F R b. set (v := objective_value pm x). exists (along x d (Qabs v + Qabs b + 1)).
  pose proof (Qabs_nonneg v). pose proof (Qabs_nonneg b). pose proof (Qle_Qabs v). pose proof (Qle_Qabs (- b)). rewrite Qabs_opp in *.
  destruct (ray_feasible pm x d (Qabs v + Qabs b + 1) ltac:(lra) F R) as [F' E]. split; [exact F'|]. rewrite E. fold v. lra.
Qed.

Definition supplied (b : bus) : list component :=
  [Library.source "Src" (set_size_ (SzNum (Some 10)) (flow0 150 "Q" b)); Library.sink "Sink" (set_size_ (SzNum (Some 10)) (set_profile (Some (n1 1)) (flow0 151 "Q" b)))].
Definition supply : asg := of_table [("Src__Q_flow_rate", [10; 10]); ("Sink__Q_flow_rate", [10; 10]); ("Src__Q_sumFlowHours", [20]); ("Sink__Q_sumFlowHours", [20])].
(** Costs are passed on to CO2, CO2 to energy and energy to costs: only circles of two are noticed (effects.py 112-132). *)
Definition passing (i : nat) (l : string) (o : bool) (next : nat) : effect := mkEffect i l o o [(next, n1 1)] [] None None None None None None None None.
Definition fs_circle : flow_system := mkFS [0; 1] 2 (NS 1) [passing 0 "costs" true 1; passing 1 "CO2" false 2; passing 2 "Energy" false 0] (supplied gas).
Definition d_circle : asg := of_table [
  ("costs__operation_operation_sum", [-(2)]); ("costs__operation_operation_sum_TS", [-(1); -(1)]); ("costs__all_all_sum", [-(2)]); ("costs__Energy_operation", [-(1); -(1)]); ("costs__operation", [-(2)]);
  ("CO2__operation_operation_sum", [-(2)]); ("CO2__operation_operation_sum_TS", [-(1); -(1)]); ("CO2__all_all_sum", [-(2)]); ("CO2__costs_operation", [-(1); -(1)]); ("CO2__operation", [-(2)]);
  ("Energy__operation_operation_sum", [-(2)]); ("Energy__operation_operation_sum_TS", [-(1); -(1)]); ("Energy__all_all_sum", [-(2)]); ("Energy__CO2_operation", [-(1); -(1)]); ("Energy__operation", [-(2)])].
(** A bus that pays for imbalance. *)
Definition paid : bus := mkBus 3 "Paid" (Some (n1 (-(1)))).
Definition fs_paid : flow_system := mkFS [0; 1] 2 (NS 1) [mkEffect 0 "costs" true true [] [] None None None None None None None None] (supplied paid).
Definition d_paid : asg := of_table [
  ("Paid_excess_input", [1; 0]); ("Paid_excess_output", [1; 0]); ("Effects__Paid__excess_input", [-(1)]); ("Effects__Paid__excess_output", [-(1)]); ("Effects__penalty_penalty_sum", [-(2)])].
Definition ray_run (fs : flow_system) (d : asg) : bool := match build default_config id_ord fs None with Ok pm => ray_b pm d | Err _ => false end.

Lemma supplied_sensible fs b : fs = fs_circle /\ b = gas \/ fs = fs_paid /\ b = paid -> sensible default_config fs None.
Proof.
  intros [[-> ->]|[-> ->]]; (apply sensible_check; [vm_compute; reflexivity|buses|]); intros c Hc; cbn [fs_circle fs_paid fs_comps supplied In] in Hc;
    destruct Hc as [<-|[<-|[]]]; split; try exact Logic.I; constructor.
Qed.

(** Without an order of the effects a system may be unbounded, although nothing in it costs anything. *)
Theorem C93_circle : exists pm, build default_config id_ord fs_circle None = Ok pm /\ sensible default_config fs_circle None /\ fair_penalties fs_circle None
  /\ ~ in_order fs_circle /\ forall b, exists y, feasible pm y /\ objective_value pm y < b.
Proof.
  assert (X : exists pm, build default_config id_ord fs_circle None = Ok pm /\ feasible pm supply) by (apply run_ok; vm_compute; reflexivity).
  destruct X as [pm [BU F]]. assert (R : ray_run fs_circle d_circle = true) by (vm_compute; reflexivity). unfold ray_run in R. rewrite BU in R.
  exists pm. split; [exact BU|]. split; [exact (supplied_sensible _ gas (or_introl (conj eq_refl eq_refl)))|]. split; [|split].
  - intros b p t (c & f & Hc & Hf & E) Hp Ht. cbn in Hc. destruct Hc as [<-|[<-|[]]]; cbn in Hf; destruct Hf as [<-|[]]; cbn in E; subst b; discriminate Hp.
  - intros [rank H].
    pose proof (H (passing 0 "costs" true 1) 1%nat ltac:(cbn; auto) ltac:(cbn; auto)) as A. pose proof (H (passing 1 "CO2" false 2) 2%nat ltac:(cbn; auto) ltac:(cbn; auto)) as C.
    pose proof (H (passing 2 "Energy" false 0) 0%nat ltac:(cbn; auto) ltac:(cbn; auto)) as D. cbn in A, C, D. lia.
  - exact (ray_unbounded pm supply d_circle F R).
Qed.
Print Assumptions C93_circle.

(** With a negative penalty as well. *)
Theorem C93_paid : exists pm, build default_config id_ord fs_paid None = Ok pm /\ sensible default_config fs_paid None /\ in_order fs_paid
  /\ ~ fair_penalties fs_paid None /\ forall b, exists y, feasible pm y /\ objective_value pm y < b.
Proof.
  assert (X : exists pm, build default_config id_ord fs_paid None = Ok pm /\ feasible pm supply) by (apply run_ok; vm_compute; reflexivity).
  destruct X as [pm [BU F]]. assert (R : ray_run fs_paid d_paid = true) by (vm_compute; reflexivity). unfold ray_run in R. rewrite BU in R.
  exists pm. split; [exact BU|]. split; [exact (supplied_sensible _ paid (or_intror (conj eq_refl eq_refl)))|]. split; [|split].
  - exists (fun i => i). intros e i [<-|[]] [[]|[]].
  - intros H. assert (U : used_bus fs_paid paid) by (eexists _, _; split; [left; reflexivity|]; split; [left; reflexivity|reflexivity]).
    specialize (H paid (n1 (-(1))) 0%nat U eq_refl ltac:(cbn; lia)). apply H. reflexivity.
  - exact (ray_unbounded pm supply d_paid F R).
Qed.
Print Assumptions C93_paid.
