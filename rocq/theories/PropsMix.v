(** Claim C86: two solutions of a problem that take the same yes/no decisions can be mixed in any proportion; the mixture is a
    solution and costs what the proportions say. Without yes/no decisions in the system this holds for any two solutions. *)
From Coq Require Import Permutation.
From Verif Require Import Base BaseFacts MathModel Spec Structure Params Features Elements Library System SysSpec AdmitSpec CtxFacts NavFacts PropsOnOff PropsComp PropsEffects PlanSpec Example
     TotalInvest PlanComp PlanSame PlanCheck ExamplePoints PropsPlan PropsRename PropsParts.

(** ** Specification *)

(** The mixture: every quantity is the weighted mean of the quantities of [x] and [y], with weight [w] on [y]. *)
Definition mix (w a b : Q) : Q := (1 - w) * a + w * b.
Definition blend (w : Q) (x y : asg) : asg := fun name t => mix w (x name t) (y name t).

(** [x] and [y] take the same decisions: the same flows and components run at the same time, the same optional investments are
    made, and segmented conversions and segmented investments use the same segments. *)
Record same_decisions (cf : config) (fs : flow_system) (idx : option (list nat)) (x y : asg) : Prop := {
  sd_on : forall c f t, In c (fs_comps fs) -> In f (cp_flows c) -> governed fs idx c f <> None -> (t < steps fs idx)%nat -> on_of y c f t == on_of x c f t;
  sd_running : forall c t, In c (fs_comps fs) -> cp_onoff c <> None -> (t < steps fs idx)%nat -> y (oo (cp_label c) "on") t == x (oo (cp_label c) "on") t;
  sd_invest : forall name iv, In (name, iv) (investments cf fs) -> iv_optional iv = true -> y (inv name "isInvested") 0%nat == x (inv name "isInvested") 0%nat;
  sd_piece : forall c segs t, In c (fs_comps fs) -> cp_kind c = Params.Segmented segs -> (t < steps fs idx)%nat -> (cp_onoff c <> None -> x (oo (cp_label c) "on") t == 1) ->
     exists k u v, 0 <= u /\ u <= 1 /\ 0 <= v /\ v <= 1
       /\ forall f, In f (cp_flows c) -> exists ab, nth_error (segments_of segs f) k = Some ab /\ on_piece idx x c f t u ab /\ on_piece idx y c f t v ab;
  sd_segment : forall name iv spts eff, In (name, iv) (investments cf fs) -> iv_seg iv = Some (spts, eff) -> (iv_optional iv = true -> x (inv name "isInvested") 0%nat == 1) ->
     exists k u v, 0 <= u /\ u <= 1 /\ 0 <= v /\ v <= 1
       /\ PropsEffects.piece spts k u (x (inv name "size") 0%nat) /\ PropsEffects.piece spts k v (y (inv name "size") 0%nat)
       /\ forall i l e, In (i, l) eff -> In e (fs_effects fs) -> e_id e = i -> PropsEffects.piece l k u (seg_cost x name e) /\ PropsEffects.piece l k v (seg_cost y name e)
}.

(** A system without decisions: nothing is switched, no investment is optional, nothing is segmented. *)
Record no_decisions (cf : config) (fs : flow_system) (idx : option (list nat)) : Prop := {
  nd_flow : forall c f, In c (fs_comps fs) -> In f (cp_flows c) -> governed fs idx c f = None;
  nd_comp : forall c, In c (fs_comps fs) -> cp_onoff c = None /\ forall segs, cp_kind c <> Params.Segmented segs;
  nd_invest : forall name iv, In (name, iv) (investments cf fs) -> iv_optional iv = false /\ iv_seg iv = None
}.

(** ** Facts *)
Lemma mix_same : forall w a b, b == a -> mix w a b == a. Proof. intros w a b E. unfold mix. rewrite E. ring. Qed.
Lemma mix_const : forall w a, mix w a a == a. Proof. intros w a. unfold mix. ring. Qed.
Lemma mix_le : forall w a b c d, 0 <= w -> w <= 1 -> a <= c -> b <= d -> mix w a b <= mix w c d.
Proof. intros w a b c d W0 W1 H1 H2. unfold mix. assert (A : 0 <= (1 - w) * (c - a)) by (apply Qmult_le_0_compat; lra). assert (B : 0 <= w * (d - b)) by (apply Qmult_le_0_compat; lra). lra. Qed.
Local Instance mix_proper : Proper (Qeq ==> Qeq ==> Qeq ==> Qeq) mix.
Proof. intros w w' Ew a a' Ea b b' Eb. unfold mix. rewrite Ew, Ea, Eb. reflexivity. Qed.
Lemma Qsum_mix : forall {A} w (f g h : A -> Q) l, (forall a, In a l -> f a == mix w (g a) (h a)) -> Qsum (map f l) == mix w (Qsum (map g l)) (Qsum (map h l)).
Proof.
  intros A w f g h l H. unfold mix. rewrite <- !BaseFacts.Qsum_scale. induction l as [|a l IH]; [cbn; ring|]. cbn [map]. rewrite !Qsum_cons, (H a (or_introl eq_refl)), IH by (intros b Hb; apply H; right; exact Hb). unfold mix. ring.
Qed.
Lemma sumn_mix : forall w n (f g h : nat -> Q), (forall t, (t < n)%nat -> f t == mix w (g t) (h t)) -> sumn n f == mix w (sumn n g) (sumn n h).
Proof. intros w n f g h H. unfold sumn. apply Qsum_mix. intros t Ht. apply H. apply in_seq in Ht. lia. Qed.

Section Mix.
Variables (cf : config) (fs : flow_system) (idx : option (list nat)) (x y : asg) (w : Q).
Hypothesis W0 : 0 <= w.
Hypothesis W1 : w <= 1.
Hypothesis OX : obeys cf fs idx x.
Hypothesis OY : obeys cf fs idx y.
Hypothesis SD : same_decisions cf fs idx x y.
Hypothesis EPS : 0 < cf_eps cf.
Hypothesis N1 : (1 <= steps fs idx)%nat.
Local Notation z := (blend w x y).

Lemma z_rate : forall c f t, rate_of z c f t = mix w (rate_of x c f t) (rate_of y c f t). Proof. reflexivity. Qed.
Lemma z_on : forall c f t, In c (fs_comps fs) -> In f (cp_flows c) -> governed fs idx c f <> None -> (t < steps fs idx)%nat -> on_of z c f t == on_of x c f t.
Proof. intros c f t Hc Hf G Ht. apply mix_same. exact (sd_on _ _ _ _ _ SD c f t Hc Hf G Ht). Qed.
Lemma z_runs : forall c f t, In c (fs_comps fs) -> In f (cp_flows c) -> governed fs idx c f <> None -> (t < steps fs idx)%nat -> runs z c f t = runs x c f t /\ runs y c f t = runs x c f t.
Proof. intros c f t Hc Hf G Ht. unfold runs. rewrite (z_on c f t Hc Hf G Ht), (sd_on _ _ _ _ _ SD c f t Hc Hf G Ht). auto. Qed.
Lemma z_size : forall c f, size_of cf z c f == mix w (size_of cf x c f) (size_of cf y c f).
Proof. intros c f. unfold size_of. destruct (sized cf c f); [symmetry; apply mix_const|reflexivity]. Qed.
Lemma le_mix : forall a b c, a <= b -> a <= c -> a <= mix w b c.
Proof. intros a b c H1 H2. rewrite <- (mix_const w a). apply mix_le; assumption. Qed.
Lemma mix_le_ : forall a b c, b <= a -> c <= a -> mix w b c <= a.
Proof. intros a b c H1 H2. rewrite <- (mix_const w a). apply mix_le; assumption. Qed.
Lemma z_allowed_size : forall iv a b da db, (iv_optional iv = true -> db == da) -> allowed_size cf iv a da -> allowed_size cf iv b db -> allowed_size cf iv (mix w a b) (mix w da db).
Proof.
  intros iv a b da db D. unfold allowed_size. destruct (fixed_size iv) as [q|], (iv_optional iv).
  - specialize (D eq_refl). intros [[A1 A2]|[A1 A2]] [[B1 B2]|[B1 B2]]; try (exfalso; rewrite A1, B1 in D; lra).
    + left. rewrite (mix_same w da db D). split; [exact A1|]. rewrite <- A2. apply mix_same. rewrite B2, A2. reflexivity.
    + right. rewrite (mix_same w da db D). split; [exact A1|]. rewrite <- A2. apply mix_same. rewrite B2, A2. reflexivity.
  - intros A B. rewrite <- A. apply mix_same. rewrite A, B. reflexivity.
  - specialize (D eq_refl). intros [[A1 A2]|[A1 A2]] [[B1 B2]|[B1 B2]]; try (exfalso; rewrite A1, B1 in D; lra).
    + left. rewrite (mix_same w da db D). split; [exact A1|]. rewrite <- A2. apply mix_same. rewrite B2, A2. reflexivity.
    + right. rewrite (mix_same w da db D). split; [exact A1|]. destruct A2 as [A2 [A3 A4]]. destruct B2 as [B2 [B3 B4]]. split; [apply le_mix; assumption|]. split; [apply le_mix|apply mix_le_]; assumption.
  - intros [A1 A2] [B1 B2]. split; [apply le_mix|apply mix_le_]; assumption.
Qed.
Lemma investment_in : forall c f iv, In c (fs_comps fs) -> In f (cp_flows c) -> sized cf c f = SzInv iv -> In (flow_name c f, iv) (investments cf fs).
Proof.
  intros c f iv Hc Hf E. apply in_flat_map. exists c. split; [exact Hc|]. apply in_app_iff. left. apply in_flat_map. exists f. split; [exact Hf|]. unfold flow_investment. rewrite E. left. reflexivity.
Qed.
Lemma store_in : forall c s iv, In c (fs_comps fs) -> cp_kind c = StorageC s -> st_cap s = CapInv iv -> In (cp_label c, iv) (investments cf fs).
Proof. intros c s iv Hc K E. apply in_flat_map. exists c. split; [exact Hc|]. apply in_app_iff. right. unfold storage_investment. rewrite K, E. left. reflexivity. Qed.

(** On/off values and starts. *)
Lemma z_marks : forall nm was, (forall t, (t < steps fs idx)%nat -> y (oo nm "on") t == x (oo nm "on") t) -> onoff_marks x nm was (steps fs idx) -> onoff_marks y nm was (steps fs idx) -> onoff_marks z nm was (steps fs idx).
Proof.
  intros nm was E MX MY t Ht. destruct (MX t Ht) as [A1 [A2 A3]]. destruct (MY t Ht) as [B1 [B2 B3]].
  assert (EB : before was (y (oo nm "on")) t == before was (x (oo nm "on")) t) by (destruct t as [|t]; [reflexivity|apply E; lia]).
  assert (EZ : before was (z (oo nm "on")) t == before was (x (oo nm "on")) t) by (destruct t as [|t]; [reflexivity|apply mix_same, E; lia]).
  assert (ES : y (oo nm "switchOn") t == x (oo nm "switchOn") t).
  { rewrite EB, (E t Ht) in B3. destruct A2 as [A2|A2], B2 as [B2|B2]; rewrite A2, B2; try reflexivity; exfalso.
    - apply B3 in B2. apply A3 in B2. rewrite A2 in B2. lra.
    - apply A3 in A2. apply B3 in A2. rewrite B2 in A2. lra. }
  change (z (oo nm "on") t) with (mix w (x (oo nm "on") t) (y (oo nm "on") t)). change (z (oo nm "switchOn") t) with (mix w (x (oo nm "switchOn") t) (y (oo nm "switchOn") t)).
  rewrite EZ, (mix_same w _ _ (E t Ht)), (mix_same w _ _ ES). auto.
Qed.
Lemma z_flow_rule : forall c f, In c (fs_comps fs) -> In f (cp_flows c) -> flow_rule cf fs idx z c f.
Proof.
  intros c f Hc Hf. destruct (ob_flow _ _ _ _ OX c f Hc Hf) as [[A1 A2 A3 A4 A5 A6 A7] AM]. destruct (ob_flow _ _ _ _ OY c f Hc Hf) as [[B1 B2 B3 B4 B5 B6 B7] BM].
  split; [|intros G; apply z_marks; [intros t Ht; exact (sd_on _ _ _ _ _ SD c f t Hc Hf G Ht)|exact (AM G)|exact (BM G)]].
  constructor.
  - intros G t Ht. rewrite z_rate. destruct (A1 G t Ht) as [P1 P2]. destruct (B1 G t Ht) as [Q1 Q2]. split; [apply le_mix|apply mix_le_]; assumption.
  - intros G t Ht R. destruct (z_runs c f t Hc Hf G Ht) as [E1 E2]. rewrite E1 in R. rewrite z_rate. rewrite <- (A2 G t Ht R). apply mix_same. rewrite (A2 G t Ht R). apply B2; [exact G|exact Ht|]. rewrite E2. exact R.
  - intros G t Ht R. destruct (z_runs c f t Hc Hf G Ht) as [E1 E2]. rewrite E1 in R. destruct (A3 G t Ht R) as [P1 [P2 P3]]. rewrite <- E2 in R. destruct (B3 G t Ht R) as [Q1 [Q2 Q3]].
    split; [|split]; rewrite z_rate; first [apply le_mix|apply mix_le_]; assumption.
  - intros o G. eapply onoff_rules_ext; [exact N1| |exact (A4 o G)]. intros t Ht. cbv beta. rewrite (proj1 (z_runs c f t Hc Hf ltac:(rewrite G; discriminate) Ht)). reflexivity.
  - intros iv E. apply z_allowed_size; [intros O; exact (sd_invest _ _ _ _ _ SD _ iv (investment_in c f iv Hc Hf E) O)|exact (A5 iv E)|exact (B5 iv E)].
  - intros iv E t Ht. specialize (A6 iv E t Ht). specialize (B6 iv E t Ht). pose proof (z_size c f) as ZS. destruct (f_profile f) as [p|].
    + rewrite z_rate, ZS. unfold mix in *. rewrite A6, B6. ring.
    + destruct A6 as [P1 P2]. destruct B6 as [Q1 Q2]. rewrite z_rate, ZS. split.
      * apply Qle_trans with (mix w (value idx (f_relmax f) t * size_of cf x c f) (value idx (f_relmax f) t * size_of cf y c f)); [apply mix_le; assumption|]. unfold mix. apply Qle_lteq. right. ring.
      * intros C. apply Qle_trans with (mix w (value idx (f_relmin f) t * size_of cf x c f) (value idx (f_relmin f) t * size_of cf y c f)); [unfold mix; apply Qle_lteq; right; ring|].
        assert (CX : governed fs idx c f = None \/ runs x c f t = true /\ runs y c f t = true).
        { destruct (governed fs idx c f) as [o|] eqn:G; [right|left; reflexivity]. destruct (z_runs c f t Hc Hf ltac:(rewrite G; discriminate) Ht) as [E1 E2]. destruct C as [C|C]; [discriminate C|]. rewrite E2, <- E1. auto. }
        apply mix_le; [exact W0|exact W1|apply P2|apply Q2]; (destruct CX as [CX|[CX1 CX2]]; [left; exact CX|right; assumption]).
  - cbv zeta in *. assert (T : sumn (steps fs idx) (fun t => hours fs idx t * rate_of z c f t) == mix w (sumn (steps fs idx) (fun t => hours fs idx t * rate_of x c f t)) (sumn (steps fs idx) (fun t => hours fs idx t * rate_of y c f t))).
    { apply sumn_mix. intros t _. rewrite z_rate. unfold mix. ring. }
    destruct A7 as [P1 [P2 [P3 P4]]]. destruct B7 as [Q1 [Q2 [Q3 Q4]]].
    split; [intros q E; rewrite T; apply le_mix; auto|]. split; [intros q E; rewrite T; apply mix_le_; auto|]. split; intros q E; rewrite T, z_size.
    + apply Qle_trans with (mix w (q * size_of cf x c f * horizon fs idx) (q * size_of cf y c f * horizon fs idx)); [unfold mix; apply Qle_lteq; right; ring|apply mix_le; auto].
    + apply Qle_trans with (mix w (q * size_of cf x c f * horizon fs idx) (q * size_of cf y c f * horizon fs idx)); [apply mix_le; auto|unfold mix; apply Qle_lteq; right; ring].
Qed.
(** A switched flow that is off has no rate, one that is on has a positive rate. *)
Lemma rate_sign : forall u c f t, obeys cf fs idx u -> In c (fs_comps fs) -> In f (cp_flows c) -> governed fs idx c f <> None -> (t < steps fs idx)%nat ->
  (rate_of u c f t == 0 /\ runs u c f t = false) \/ (0 < rate_of u c f t /\ runs u c f t = true).
Proof.
  intros u c f t O Hc Hf G Ht. destruct (ob_flow _ _ _ _ O c f Hc Hf) as [[_ A2 A3 _ _ _ _] _]. destruct (runs u c f t) eqn:R.
  - right. destruct (A3 G t Ht R) as [P _]. split; [lra|reflexivity].
  - left. split; [exact (A2 G t Ht R)|reflexivity].
Qed.
Lemma zero_same : forall c f t, In c (fs_comps fs) -> In f (cp_flows c) -> governed fs idx c f <> None -> (t < steps fs idx)%nat -> (rate_of z c f t == 0 <-> rate_of x c f t == 0) .
Proof.
  intros c f t Hc Hf G Ht. destruct (z_runs c f t Hc Hf G Ht) as [_ E]. rewrite z_rate.
  destruct (rate_sign x c f t OX Hc Hf G Ht) as [[P1 P2]|[P1 P2]], (rate_sign y c f t OY Hc Hf G Ht) as [[Q1 Q2]|[Q1 Q2]]; try congruence.
  - rewrite (mix_same w (rate_of x c f t)); [reflexivity|]. rewrite P1, Q1. reflexivity.
  - split; intros H; exfalso; [|lra]. unfold mix in H. destruct (Qlt_le_dec 0 w) as [L|L].
    + assert (0 < w * rate_of y c f t) by (apply Qmult_lt_0_compat; assumption). assert (0 <= (1 - w) * rate_of x c f t) by (apply Qmult_le_0_compat; lra). lra.
    + assert (Z : w == 0) by lra. rewrite Z in H. lra.
Qed.
Lemma comp_governed : forall c f, cp_onoff c <> None -> governed fs idx c f <> None.
Proof. intros c f H. unfold governed, induced. destruct (f_onoff f); [discriminate|]. destruct (cp_onoff c); [discriminate|congruence]. Qed.
Lemma prevent_governed : forall c f, In (f_id f) (cp_prevent c) -> governed fs idx c f <> None.
Proof.
  intros c f H. unfold governed, induced. destruct (f_onoff f); [discriminate|]. replace (existsb (Nat.eqb (f_id f)) (cp_prevent c)) with true; [destruct (is_some (cp_onoff c)); discriminate|].
  symmetry. apply existsb_exists. exists (f_id f). split; [exact H|apply Nat.eqb_refl].
Qed.
Lemma z_running : forall c p, In c (fs_comps fs) -> cp_onoff c = Some p -> running_rule cf fs idx z c p.
Proof.
  intros c p Hc E. assert (NO : cp_onoff c <> None) by (rewrite E; discriminate). destruct (ob_running _ _ _ _ OX c p Hc E) as [A1 [A2 A3]]. destruct (ob_running _ _ _ _ OY c p Hc E) as [B1 [B2 B3]].
  pose proof (fun t Ht => sd_running _ _ _ _ _ SD c t Hc NO Ht) as S0. pose proof (fun t Ht => mix_same w _ _ (S0 t Ht)) as S1. split; [exact (z_marks _ _ S0 A1 B1)|]. split.
  - intros t Ht. change (z (oo (cp_label c) "on") t) with (mix w (x (oo (cp_label c) "on") t) (y (oo (cp_label c) "on") t)). rewrite (S1 t Ht), (A2 t Ht).
    split; intros H f Hf; [apply (zero_same c f t Hc Hf (comp_governed c f NO) Ht)|apply (zero_same c f t Hc Hf (comp_governed c f NO) Ht)]; auto.
  - eapply onoff_rules_ext; [exact N1| |exact A3]. intros t Ht. symmetry. exact (S1 t Ht).
Qed.
Lemma z_exclusion : forall c, In c (fs_comps fs) -> exclusion_rule fs idx z c.
Proof.
  intros c Hc f g t Hf Hg NE Pf Pg Ht. rewrite (zero_same c f t Hc Hf (prevent_governed c f Pf) Ht), (zero_same c g t Hc Hg (prevent_governed c g Pg) Ht). exact (ob_exclusion _ _ _ _ OX c Hc f g t Hf Hg NE Pf Pg Ht).
Qed.

(** Kinds of components. *)
Lemma z_weighted : forall c fac l t, weighted idx z c fac l t == mix w (weighted idx x c fac l t) (weighted idx y c fac l t).
Proof. intros c fac l t. unfold weighted. apply Qsum_mix. intros f _. destruct (factor_of fac f); [|symmetry; apply mix_const]. rewrite z_rate. unfold mix. ring. Qed.
Lemma z_own : forall c, In c (fs_comps fs) -> own_rule cf fs idx z c.
Proof.
  intros c Hc. pose proof (ob_own _ _ _ _ OX c Hc) as A. pose proof (ob_own _ _ _ _ OY c Hc) as B. unfold own_rule in *. destruct (cp_kind c) as [|eqs|segs|s|rel abs] eqn:K.
  - exact I.
  - intros fac t Hf Ht. rewrite !z_weighted. unfold mix. rewrite (A fac t Hf Ht), (B fac t Hf Ht). reflexivity.
  - intros t Ht. assert (SEG : (cp_onoff c <> None -> x (oo (cp_label c) "on") t == 1) -> exists k w', 0 <= w' /\ w' <= 1
        /\ (forall f, In f (cp_flows c) -> exists ab, nth_error (segments_of segs f) k = Some ab /\ on_piece idx z c f t w' ab)).
    { intros H. destruct (sd_piece _ _ _ _ _ SD c segs t Hc K Ht H) as [k [u [v [U0 [U1 [V0 [V1 P]]]]]]]. exists k, (mix w u v). split; [apply le_mix; assumption|]. split; [apply mix_le_; assumption|].
      intros f Hf. destruct (P f Hf) as [ab [E [P1 P2]]]. exists ab. split; [exact E|]. unfold on_piece in *. rewrite z_rate. unfold mix. rewrite P1, P2. ring. }
    destruct (cp_onoff c) as [p|] eqn:EO.
    + assert (NO : cp_onoff c <> None) by (rewrite EO; discriminate). pose proof (mix_same w _ _ (sd_running _ _ _ _ _ SD c t Hc NO Ht)) as ZO. change (mix w (x (oo (cp_label c) "on") t) (y (oo (cp_label c) "on") t)) with (z (oo (cp_label c) "on") t) in ZO.
      rewrite ZO. destruct (A t Ht) as [[k [u [U0 [U1 [P O1]]]]]|[_ [O0 R0]]].
      * left. destruct (SEG (fun _ => O1 NO)) as [k' [w' [X0 [X1 X2]]]]. exists k', w'. do 3 (split; [assumption|]). intros _. first [exact (O1 NO)|rewrite ZO; exact (O1 NO)].
      * right. split; [discriminate|]. split; [exact O0|]. intros f Hf. apply (zero_same c f t Hc Hf (comp_governed c f NO) Ht). exact (R0 f Hf).
    + left. destruct SEG as [k' [w' [X0 [X1 X2]]]]; [intros N; contradiction N; reflexivity|]. exists k', w'. do 3 (split; [assumption|]). intros N. exfalso. apply N. reflexivity.
  - intros ch dis EI EO. destruct (A ch dis EI EO) as [A1 [A2 [A3 [A4 [A5 [A6 A7]]]]]]. destruct (B ch dis EI EO) as [B1 [B2 [B3 [B4 [B5 [B6 B7]]]]]].
    assert (CH : forall t, charge z c t = mix w (charge x c t) (charge y c t)) by reflexivity.
    assert (CA : capacity z c s == mix w (capacity x c s) (capacity y c s)) by (unfold capacity; destruct (st_cap s); [symmetry; apply mix_const|reflexivity]).
    split; [|split; [|split; [|split; [|split; [|split]]]]].
    + intros t Ht. destruct (A1 t Ht) as [NZ E1]. destruct (B1 t Ht) as [_ E2]. split; [exact NZ|]. rewrite !CH, !z_rate. unfold mix. rewrite E1, E2. field. exact NZ.
    + intros t Ht. destruct (A2 t Ht) as [P1 [P2 [P3 P4]]]. destruct (B2 t Ht) as [Q1 [Q2 [Q3 Q4]]]. rewrite CH, CA. split; [|split; [|split]].
      * apply Qle_trans with (mix w (value idx (st_relmin s) t * capacity x c s) (value idx (st_relmin s) t * capacity y c s)); [unfold mix; apply Qle_lteq; right; ring|apply mix_le; assumption].
      * apply Qle_trans with (mix w (value idx (st_relmax s) t * capacity x c s) (value idx (st_relmax s) t * capacity y c s)); [apply mix_le; assumption|unfold mix; apply Qle_lteq; right; ring].
      * apply le_mix; assumption.
      * apply mix_le_; assumption.
    + intros iv E. apply z_allowed_size; [intros O; exact (sd_invest _ _ _ _ _ SD _ iv (store_in c s iv Hc K E) O)|exact (A3 iv E)|exact (B3 iv E)].
    + intros q E. rewrite CH, <- (A4 q E). apply mix_same. rewrite (A4 q E). exact (B4 q E).
    + intros E. rewrite !CH. unfold mix. rewrite (A5 E), (B5 E). reflexivity.
    + intros N q E. rewrite CH. apply mix_le_; auto.
    + intros N q E. rewrite CH. apply le_mix; auto.
  - intros in1 out1 in2 out2 EI EO. destruct (A in1 out1 in2 out2 EI EO) as [A1 A2]. destruct (B in1 out1 in2 out2 EI EO) as [B1 B2].
    assert (CR : forall i o, carries fs idx x c rel abs i o -> carries fs idx y c rel abs i o -> carries fs idx z c rel abs i o).
    { intros i o X Y t Ht. specialize (X t Ht). specialize (Y t Ht). rewrite !z_rate. change (on_of z c i t) with (mix w (on_of x c i t) (on_of y c i t)). unfold mix. rewrite X, Y. destruct abs; ring. }
    split; [exact (CR _ _ A1 B1)|]. destruct in2 as [i2|], out2 as [o2|]; try exact I. destruct A2 as [A2 A3]. destruct B2 as [B2 B3]. split; [exact (CR _ _ A2 B2)|].
    intros iv E. rewrite !z_size. unfold mix. rewrite (A3 iv E), (B3 iv E). reflexivity.
Qed.
Lemma z_segments : forall nm iv, In (nm, iv) (investments cf fs) -> segments_rule fs z nm iv.
Proof.
  intros nm iv H spts eff E. cbv zeta. change (z (inv nm "size") 0%nat) with (mix w (x (inv nm "size") 0%nat) (y (inv nm "size") 0%nat)).
  assert (ZI : iv_optional iv = true -> z (inv nm "isInvested") 0%nat == x (inv nm "isInvested") 0%nat) by (intros O; apply mix_same; exact (sd_invest _ _ _ _ _ SD nm iv H O)).
  destruct (ob_segments _ _ _ _ OX nm iv H spts eff E) as [[k0 [u0 [_ [_ [_ [_ O1]]]]]]|[OP [O0 [S0 C0]]]].
  - left. destruct (sd_segment _ _ _ _ _ SD nm iv spts eff H E O1) as [k [u [v [U0 [U1 [V0 [V1 [P1 [P2 P3]]]]]]]]]. exists k, (mix w u v). split; [apply le_mix; assumption|]. split; [apply mix_le_; assumption|].
    assert (PM : forall l a b, PropsEffects.piece l k u a -> PropsEffects.piece l k v b -> PropsEffects.piece l k (mix w u v) (mix w a b)).
    { intros l a b [p [q [E1 H1]]] [p' [q' [E2 H2]]]. rewrite E1 in E2. injection E2 as <- <-. exists p, q. split; [exact E1|]. unfold mix. rewrite H1, H2. ring. }
    split; [apply PM; assumption|]. split; [|intros OP; rewrite (ZI OP); exact (O1 OP)].
    intros i l e Hi He EI. destruct (P3 i l e Hi He EI) as [Q1 Q2]. exact (PM l _ _ Q1 Q2).
  - right. destruct (ob_segments _ _ _ _ OY nm iv H spts eff E) as [[k0 [u0 [_ [_ [_ [_ O1]]]]]]|[_ [O0' [S0' C0']]]].
    + exfalso. pose proof (sd_invest _ _ _ _ _ SD nm iv H OP) as Q0. rewrite (O1 OP), O0 in Q0. lra.
    + split; [exact OP|]. split; [rewrite (ZI OP); exact O0|]. split; [rewrite <- S0; apply mix_same; rewrite S0, S0'; reflexivity|].
      intros i l e Hi He EI. change (seg_cost z nm e) with (mix w (seg_cost x nm e) (seg_cost y nm e)). rewrite <- (C0 i l e Hi He EI). apply mix_same. rewrite (C0 i l e Hi He EI), (C0' i l e Hi He EI). reflexivity.
Qed.

(** Buses and effects. *)
Lemma z_excess : forall b what t, excess z b what t == mix w (excess x b what t) (excess y b what t).
Proof. intros b what t. unfold excess. destruct (b_penalty b); [reflexivity|]. symmetry. apply mix_const. Qed.
Lemma z_bus : forall b, used_bus fs b -> bus_rule fs idx z b.
Proof.
  intros b Ub t Ht. destruct (ob_bus _ _ _ _ OX b Ub t Ht) as [A1 [A2 A3]]. destruct (ob_bus _ _ _ _ OY b Ub t Ht) as [B1 [B2 B3]]. rewrite !z_excess. split; [|split; apply le_mix; assumption].
  assert (D : delivered fs z b t == mix w (delivered fs x b t) (delivered fs y b t)) by (unfold delivered; apply Qsum_mix; intros c _; apply Qsum_mix; intros f _; reflexivity).
  assert (T : taken fs z b t == mix w (taken fs x b t) (taken fs y b t)) by (unfold taken; apply Qsum_mix; intros c _; apply Qsum_mix; intros f _; reflexivity).
  rewrite D, T. unfold mix. transitivity ((1 - w) * (delivered fs x b t + excess x b "excess_input" t) + w * (delivered fs y b t + excess y b "excess_input" t)); [ring|]. rewrite A1, B1. ring.
Qed.
Lemma z_onoff_costs : forall nm p e t, onoff_costs fs idx z nm p e t == mix w (onoff_costs fs idx x nm p e t) (onoff_costs fs idx y nm p e t).
Proof. intros. unfold onoff_costs, blend, mix. ring. Qed.
Lemma z_comp_costs : forall c e t, comp_costs fs idx z c e t == mix w (comp_costs fs idx x c e t) (comp_costs fs idx y c e t).
Proof.
  intros c e t. unfold comp_costs. assert (F : Qsum (map (fun f => flow_costs fs idx z c f e t) (cp_flows c)) == mix w (Qsum (map (fun f => flow_costs fs idx x c f e t) (cp_flows c))) (Qsum (map (fun f => flow_costs fs idx y c f e t) (cp_flows c)))).
  { apply Qsum_mix. intros f _. unfold flow_costs. rewrite z_rate. destruct (governed fs idx c f) as [p|]; [rewrite z_onoff_costs|]; unfold mix; ring. }
  rewrite F. destruct (cp_onoff c) as [p|]; [rewrite z_onoff_costs|]; unfold mix; ring.
Qed.
Lemma z_invest_costs : forall nm iv e, invest_costs fs z nm iv e == mix w (invest_costs fs x nm iv e) (invest_costs fs y nm iv e).
Proof.
  intros nm iv e. unfold invest_costs. assert (M : made z nm iv == mix w (made x nm iv) (made y nm iv)) by (unfold made; destruct (iv_optional iv); [reflexivity|symmetry; apply mix_const]).
  assert (S : seg_costs z nm iv e == mix w (seg_costs x nm iv e) (seg_costs y nm iv e)).
  { unfold seg_costs. destruct (iv_seg iv) as [[sp eff]|]; [|symmetry; apply mix_const]. apply Qsum_mix. intros il _. destruct (Nat.eqb (fst il) (e_id e)); [reflexivity|symmetry; apply mix_const]. }
  rewrite M, S. unfold blend, mix. ring.
Qed.
Lemma z_effect : forall e, In e (fs_effects fs) -> effect_rule cf fs idx z e.
Proof.
  intros e He. destruct (ob_effect _ _ _ _ OX e He) as [A1 [A2 [A3 [A4 [A5 [A6 [A7 [A8 [A9 [A10 A11]]]]]]]]]]. destruct (ob_effect _ _ _ _ OY e He) as [B1 [B2 [B3 [B4 [B5 [B6 [B7 [B8 [B9 [B10 B11]]]]]]]]]].
  assert (O : op_sum z e = mix w (op_sum x e) (op_sum y e)) by reflexivity. assert (V : inv_sum z e = mix w (inv_sum x e) (inv_sum y e)) by reflexivity.
  assert (T : op_sum z e + inv_sum z e == mix w (op_sum x e + inv_sum x e) (op_sum y e + inv_sum y e)) by (rewrite O, V; unfold mix; ring).
  assert (L : forall o a b c, c == mix w a b -> at_least o a -> at_least o b -> at_least o c) by (intros o a b c E P Q0 l El; rewrite E; apply le_mix; auto).
  assert (M : forall o a b c, c == mix w a b -> at_most o a -> at_most o b -> at_most o c) by (intros o a b c E P Q0 l El; rewrite E; apply mix_le_; auto).
  split; [|split; [|split; [|split; [|split; [|split; [|split; [|split; [|split; [|split]]]]]]]]].
  - intros t Ht. change (op_at z e t) with (mix w (op_at x e t) (op_at y e t)). rewrite (A1 t Ht), (B1 t Ht).
    rewrite (Qsum_mix w (fun c => comp_costs fs idx z c e t) (fun c => comp_costs fs idx x c e t) (fun c => comp_costs fs idx y c e t)) by (intros c _; apply z_comp_costs).
    assert (F : op_from_effects fs idx z e t == mix w (op_from_effects fs idx x e t) (op_from_effects fs idx y e t)).
    { unfold op_from_effects. apply Qsum_mix. intros e' _. apply Qsum_mix. intros kp _. destruct (Nat.eqb (fst kp) (e_id e)); [|symmetry; apply mix_const]. change (op_at z e' t) with (mix w (op_at x e' t) (op_at y e' t)). unfold mix. ring. }
    rewrite F. unfold mix. ring.
  - rewrite O, (sumn_mix w (steps fs idx) (fun t => op_at z e t) (fun t => op_at x e t) (fun t => op_at y e t)) by (intros t _; reflexivity). unfold mix. rewrite A2, B2. reflexivity.
  - rewrite V, A3, B3. rewrite (Qsum_mix w (fun ni => invest_costs fs z (fst ni) (snd ni) e) (fun ni => invest_costs fs x (fst ni) (snd ni) e) (fun ni => invest_costs fs y (fst ni) (snd ni) e)) by (intros ni _; apply z_invest_costs).
    assert (F : inv_from_effects fs z e == mix w (inv_from_effects fs x e) (inv_from_effects fs y e)).
    { unfold inv_from_effects. apply Qsum_mix. intros e' _. apply Qsum_mix. intros kp _. destruct (Nat.eqb (fst kp) (e_id e)); [|symmetry; apply mix_const]. change (inv_sum z e') with (mix w (inv_sum x e') (inv_sum y e')). unfold mix. ring. }
    rewrite F. unfold mix. ring.
  - rewrite T. change (all_sum z e) with (mix w (all_sum x e) (all_sum y e)). unfold mix. rewrite A4, B4. reflexivity.
  - eapply L; [rewrite O; reflexivity|exact A5|exact B5].
  - eapply M; [rewrite O; reflexivity|exact A6|exact B6].
  - eapply L; [rewrite V; reflexivity|exact A7|exact B7].
  - eapply M; [rewrite V; reflexivity|exact A8|exact B8].
  - eapply L; [exact T|exact A9|exact B9].
  - eapply M; [exact T|exact A10|exact B10].
  - intros t Ht. destruct (A11 t Ht) as [P1 P2]. destruct (B11 t Ht) as [Q1 Q2]. split; [eapply L; [|exact P1|exact Q1]|eapply M; [|exact P2|exact Q2]]; reflexivity.
Qed.
Lemma z_obeys : obeys cf fs idx z.
Proof.
  constructor; [exact z_flow_rule|exact z_running|exact z_exclusion|exact z_own|exact z_segments|exact z_bus|exact z_effect|].
  intros bl ND UB. change (penalty_sum z) with (mix w (penalty_sum x) (penalty_sum y)). rewrite (ob_penalty _ _ _ _ OX bl ND UB), (ob_penalty _ _ _ _ OY bl ND UB). symmetry. apply Qsum_mix.
  intros b _. unfold bus_price. destruct (b_penalty b); [|symmetry; apply mix_const]. apply sumn_mix. intros t _. rewrite !z_excess. unfold mix. ring.
Qed.
End Mix.

(** ** C86 *)

Theorem C86_mixture : forall cf ord fs idx pm x y w, (forall l, Permutation (ord l) l) -> build cf ord fs idx = Ok pm -> sensible cf fs idx ->
  feasible pm x -> feasible pm y -> same_decisions cf fs idx x y -> 0 <= w -> w <= 1 ->
  exists z, feasible pm z /\ same_plan cf fs idx (blend w x y) z /\ objective_value pm z == (1 - w) * objective_value pm x + w * objective_value pm y.
Proof.
  intros cf ord fs idx pm x y w PO B SE FX FY SD W0 W1. pose proof (C57_solutions _ _ _ _ _ _ PO B SE FX) as OX. pose proof (C57_solutions _ _ _ _ _ _ PO B SE FY) as OY.
  pose proof (se_steps _ _ _ SE) as N. assert (N1 : (1 <= steps fs idx)%nat) by lia.
  pose proof (z_obeys cf fs idx x y w W0 W1 OX OY SD (proj1 (se_eps _ _ _ SE)) N1) as OZ. destruct (proj1 (C57_plans _ _ _ _ _ _ PO B SE) OZ) as [z [SP F]]. exists z. split; [exact F|]. split; [exact SP|].
  destruct (C21_objective _ _ _ _ _ x B) as [e [Fe Ox]]. destruct (C21_objective _ _ _ _ _ y B) as [e1 [Fe1 Oy]]. destruct (C21_objective _ _ _ _ _ z B) as [e2 [Fe2 Oz]]. rewrite Fe in Fe1, Fe2. injection Fe1 as <-. injection Fe2 as <-.
  pose proof (same_cost _ _ _ _ _ e SP ltac:(apply find_some in Fe; apply Fe)) as C. unfold plan_cost in C. rewrite Oz, C, Ox, Oy.
  change (op_sum (blend w x y) e) with (mix w (op_sum x e) (op_sum y e)). change (inv_sum (blend w x y) e) with (mix w (inv_sum x e) (inv_sum y e)). change (penalty_sum (blend w x y)) with (mix w (penalty_sum x) (penalty_sum y)). unfold mix. ring.
Qed.
Print Assumptions C86_mixture.

(** Without decisions any two solutions can be mixed. *)
Theorem C86_linear : forall cf ord fs idx pm x y w, (forall l, Permutation (ord l) l) -> build cf ord fs idx = Ok pm -> sensible cf fs idx ->
  no_decisions cf fs idx -> feasible pm x -> feasible pm y -> 0 <= w -> w <= 1 ->
  exists z, feasible pm z /\ same_plan cf fs idx (blend w x y) z /\ objective_value pm z == (1 - w) * objective_value pm x + w * objective_value pm y.
Proof.
  intros cf ord fs idx pm x y w PO B SE [D1 D2 D3] FX FY W0 W1. apply (C86_mixture cf ord fs idx pm x y w PO B SE FX FY); [|exact W0|exact W1]. constructor.
  - intros c f t Hc Hf G _. exfalso. apply G, D1; assumption.
  - intros c t Hc G _. exfalso. apply G, D2, Hc.
  - intros nm iv H O. destruct (D3 nm iv H) as [E _]. congruence.
  - intros c segs t Hc K. exfalso. exact (proj2 (D2 c Hc) segs K).
  - intros nm iv spts eff H E. destruct (D3 nm iv H) as [_ E']. congruence.
Qed.
Print Assumptions C86_linear.

(** From any solution a better one with the same decisions can be approached step by step: every step of the way is a solution
    and improves. So a solution that nothing close to it improves is the best one with its decisions. *)
Theorem C86_improvement : forall cf ord fs idx pm x y w, (forall l, Permutation (ord l) l) -> build cf ord fs idx = Ok pm -> sensible cf fs idx ->
  feasible pm x -> feasible pm y -> same_decisions cf fs idx x y -> objective_value pm y < objective_value pm x -> 0 < w -> w <= 1 ->
  exists z, feasible pm z /\ same_plan cf fs idx (blend w x y) z /\ objective_value pm z < objective_value pm x.
Proof.
  intros cf ord fs idx pm x y w PO B SE FX FY SD L W0 W1. destruct (C86_mixture cf ord fs idx pm x y w PO B SE FX FY SD ltac:(lra) W1) as [z [F [SP E]]]. exists z. split; [exact F|]. split; [exact SP|]. rewrite E.
  assert (0 < w * (objective_value pm x - objective_value pm y)) by (apply Qmult_lt_0_compat; lra). lra.
Qed.
Print Assumptions C86_improvement.

(** Optimal solutions with the same decisions can be mixed and stay optimal. *)
Theorem C86_optima : forall cf ord fs idx pm x y w, (forall l, Permutation (ord l) l) -> build cf ord fs idx = Ok pm -> sensible cf fs idx ->
  feasible pm x -> feasible pm y -> (forall u, feasible pm u -> objective_value pm x <= objective_value pm u) -> (forall u, feasible pm u -> objective_value pm y <= objective_value pm u) ->
  same_decisions cf fs idx x y -> 0 <= w -> w <= 1 ->
  exists z, feasible pm z /\ same_plan cf fs idx (blend w x y) z /\ forall u, feasible pm u -> objective_value pm z <= objective_value pm u.
Proof.
  intros cf ord fs idx pm x y w PO B SE FX FY MX MY SD W0 W1. destruct (C86_mixture cf ord fs idx pm x y w PO B SE FX FY SD W0 W1) as [z [F [SP E]]]. exists z. split; [exact F|]. split; [exact SP|].
  intros u Fu. rewrite E. change (mix w (objective_value pm x) (objective_value pm y) <= objective_value pm u). rewrite <- (mix_const w (objective_value pm u)). apply mix_le; auto.
Qed.
Print Assumptions C86_optima.

(** ** Examples *)

(** Two different solutions of the first example system with the same decisions: in the second one the boiler is smaller and the
    storage is charged less. *)
Definition x0b_table : list (string * list Q) :=
[("Storage_charge_state", [(0 # 1); (9 # 1); (891 # 100); (38209 # 10000)]);
   ("Storage_netto_discharge", [(-10 # 1); (0 # 1); (4 # 1)]);
   ("Heat_excess_input", [(37 # 2); (15 # 1); (16 # 1)]);
   ("Heat_excess_output", [(0 # 1); (0 # 1); (0 # 1)]);
   ("Effects__penalty_penalty_sum", [(4950 # 1)]);
   ("costs__invest_invest_sum", [(103 # 2)]);
   ("costs__operation_operation_sum", [(671 # 10)]);
   ("costs__operation_operation_sum_TS", [(37 # 10); (317 # 5); (0 # 1)]);
   ("costs__all_all_sum", [(593 # 5)]);
   ("CO2__invest_invest_sum", [(15 # 1)]);
   ("CO2__operation_operation_sum", [(41 # 2)]);
   ("CO2__operation_operation_sum_TS", [(7 # 2); (17 # 1); (0 # 1)]);
   ("CO2__all_all_sum", [(71 # 2)]);
   ("Effects__Heat__excess_input", [(4950 # 1)]);
   ("Effects__Heat__excess_output", [(0 # 1)]);
   ("costs__CO2_invest", [(3 # 2)]);
   ("costs__Boiler__Q_th__fix_effects", [(10 # 1)]);
   ("costs__Boiler__Q_th__divest_effects", [(7 # 1)]);
   ("costs__Boiler__Q_th__divest_cancellation_effects", [(-7 # 1)]);
   ("costs__Boiler__Q_th__specific_effects", [(30 # 1)]);
   ("costs__Storage__specific_effects", [(10 # 1)]);
   ("costs__CO2_operation", [(7 # 10); (17 # 5); (0 # 1)]);
   ("costs__Grid__Q__effects_per_flow_hour", [(3 # 1); (60 # 1); (0 # 1)]);
   ("costs__Boiler__Q_th__switch_on_effects", [(0 # 1); (0 # 1); (0 # 1)]);
   ("costs__operation", [(671 # 10)]);
   ("costs__invest", [(103 # 2)]);
   ("CO2__Boiler__Q_th__specific_effects", [(15 # 1)]);
   ("CO2__Grid__Q__effects_per_flow_hour", [(3 # 2); (15 # 1); (0 # 1)]);
   ("CO2__Boiler__Q_th__running_hour_effects", [(2 # 1); (2 # 1); (0 # 1)]);
   ("CO2__operation", [(41 # 2)]);
   ("CO2__invest", [(15 # 1)]);
   ("Grid__Q_flow_rate", [(3 # 1); (30 # 1); (0 # 1)]);
   ("Grid__Q_sumFlowHours", [(33 # 1)]);
   ("Boiler__Q_fu_flow_rate", [(3 # 1); (30 # 1); (0 # 1)]);
   ("Boiler__Q_fu_sumFlowHours", [(33 # 1)]);
   ("Boiler__Q_th_flow_rate", [(3 # 2); (15 # 1); (0 # 1)]);
   ("Boiler__Q_th_sumFlowHours", [(33 # 2)]);
   ("Boiler__Q_th__OnOff_on", [(1 # 1); (1 # 1); (0 # 1)]);
   ("Boiler__Q_th__OnOff_totalOnHours", [(2 # 1)]);
   ("Boiler__Q_th__OnOff_off", [(0 # 1); (0 # 1); (1 # 1)]);
   ("Boiler__Q_th__OnOff_consecutiveOnHours", [(2 # 1); (3 # 1); (0 # 1)]);
   ("Boiler__Q_th__OnOff_consecutiveOffHours", [(0 # 1); (0 # 1); (1 # 1)]);
   ("Boiler__Q_th__OnOff_switchOn", [(0 # 1); (0 # 1); (0 # 1)]);
   ("Boiler__Q_th__OnOff_switchOff", [(0 # 1); (0 # 1); (1 # 1)]);
   ("Boiler__Q_th__OnOff_nrSwitchOn", [(0 # 1)]);
   ("Boiler__Q_th__Investment_size", [(15 # 1)]);
   ("Boiler__Q_th__Investment_isInvested", [(1 # 1)]);
   ("Storage__ch_flow_rate", [(10 # 1); (0 # 1); (0 # 1)]);
   ("Storage__ch_sumFlowHours", [(10 # 1)]);
   ("Storage__dis_flow_rate", [(0 # 1); (0 # 1); (4 # 1)]);
   ("Storage__dis_sumFlowHours", [(4 # 1)]);
   ("Storage__Investment_size", [(10 # 1)]);
   ("Storage__Investment_isInvested", [(1 # 1)]);
   ("Storage__ch__OnOff_on", [(1 # 1); (0 # 1); (0 # 1)]);
   ("Storage__ch__OnOff_totalOnHours", [(1 # 1)]);
   ("Storage__ch__OnOff_switchOn", [(1 # 1); (0 # 1); (0 # 1)]);
   ("Storage__ch__OnOff_switchOff", [(0 # 1); (1 # 1); (0 # 1)]);
   ("Storage__ch__OnOff_nrSwitchOn", [(1 # 1)]);
   ("Storage__dis__OnOff_on", [(0 # 1); (0 # 1); (1 # 1)]);
   ("Storage__dis__OnOff_totalOnHours", [(1 # 1)]);
   ("Storage__dis__OnOff_switchOn", [(0 # 1); (0 # 1); (1 # 1)]);
   ("Storage__dis__OnOff_switchOff", [(0 # 1); (0 # 1); (0 # 1)]);
   ("Storage__dis__OnOff_nrSwitchOn", [(1 # 1)]);
   ("Demand__Q_flow_rate", [(10 # 1); (30 # 1); (20 # 1)]);
   ("Demand__Q_sumFlowHours", [(60 # 1)])].
Definition x0b : asg := of_table x0b_table.
Lemma x0b_feasible : exists pm, build default_config id_ord fs0 None = Ok pm /\ feasible pm x0b.
Proof. apply run_ok. vm_compute. reflexivity. Qed.
Lemma below_3 : forall t, (t < 3)%nat -> t = 0%nat \/ t = 1%nat \/ t = 2%nat. Proof. intros. lia. Qed.
Lemma same_decisions_0 : same_decisions default_config fs0 None x0 x0b.
Proof.
  constructor.
  - intros c f t Hc Hf G Ht. change (steps fs0 None) with 3%nat in Ht. apply below_3 in Ht. cbn [fs0 fs_comps In] in Hc.
    destruct Hc as [<-|[<-|[<-|[<-|[]]]]]; cbn in Hf; (decompose [or] Hf; try contradiction; subst f); try (exfalso; apply G; reflexivity); (decompose [or] Ht; subst t; vm_compute; reflexivity).
  - intros c t Hc N. exfalso. apply N. cbn [fs0 fs_comps In] in Hc. destruct Hc as [<-|[<-|[<-|[<-|[]]]]]; reflexivity.
  - intros nm iv H _. change (investments default_config fs0) with [("Boiler__Q_th", boiler_inv); ("Storage", mkInvest None 0 (Some 100) true EVNone (EVOne (n1 1)) None EVNone)] in H.
    destruct H as [H|[H|[]]]; injection H as <- <-; vm_compute; reflexivity.
  - intros c segs t Hc K. exfalso. cbn [fs0 fs_comps In] in Hc. destruct Hc as [<-|[<-|[<-|[<-|[]]]]]; discriminate K.
  - intros nm iv sp eff H E. exfalso. change (investments default_config fs0) with [("Boiler__Q_th", boiler_inv); ("Storage", mkInvest None 0 (Some 100) true EVNone (EVOne (n1 1)) None EVNone)] in H.
    destruct H as [H|[H|[]]]; injection H as <- <-; discriminate E.
Qed.
(** The mixture half and half, and that it improves on the first solution. *)
Example C86_applies : exists pm, build default_config id_ord fs0 None = Ok pm /\ sensible default_config fs0 None /\ feasible pm x0 /\ feasible pm x0b
  /\ same_decisions default_config fs0 None x0 x0b /\ objective_value pm x0b < objective_value pm x0
  /\ exists z, feasible pm z /\ objective_value pm z == (1 # 2) * objective_value pm x0 + (1 # 2) * objective_value pm x0b /\ objective_value pm z < objective_value pm x0.
Proof.
  destruct x0_feasible as [pm [B F]]. destruct x0b_feasible as [pm' [B' F']]. rewrite B in B'. injection B' as <-. exists pm.
  assert (L : objective_value pm x0b < objective_value pm x0).
  { destruct (build default_config id_ord fs0 None) as [p|e] eqn:E; [injection B as <-|discriminate B]. revert E. generalize (@eq_refl bool true). 
    assert (X : (match build default_config id_ord fs0 None with Ok q => negb (Qle_bool (objective_value q x0) (objective_value q x0b)) | Err _ => false end) = true) by (vm_compute; reflexivity).
    intros _ E. rewrite E in X. apply negb_true_iff in X. apply Qnot_le_lt. intros N. apply Qle_bool_iff in N. congruence. }
  split; [exact B|]. split; [exact sensible_0|]. split; [exact F|]. split; [exact F'|]. split; [exact same_decisions_0|]. split; [exact L|].
  destruct (C86_mixture default_config id_ord fs0 None pm x0 x0b (1 # 2) id_ord_perm B sensible_0 F F' same_decisions_0 ltac:(discriminate) ltac:(discriminate)) as [z [Fz [_ E]]].
  exists z. split; [exact Fz|]. split; [rewrite E; ring|]. rewrite E. lra.
Qed.

(** A system without decisions: a source, a source whose size is to be chosen, and a demand. *)
Definition mix_a : component := mkComponent "A" [] [set_eff (EVOne (n1 1)) (set_size_ (SzNum (Some 20)) (flow0 50 "Q" heat))] None [] Plain.
Definition mix_b : component := mkComponent "B" [] [set_eff (EVOne (n1 3)) (set_size_ (SzInv (mkInvest None 0 (Some 100) false EVNone (EVOne (n1 2)) None EVNone)) (flow0 51 "Q" heat))] None [] Plain.
Definition fs_mix : flow_system := mkFS [0; 1; 2] 3 (NS 1) [costs] [mix_a; mix_b; demand].
Definition xm_table : list (string * list Q) :=
[("Heat_excess_input", [(0 # 1); (0 # 1); (20 # 1)]);
   ("Heat_excess_output", [(0 # 1); (0 # 1); (0 # 1)]);
   ("Effects__penalty_penalty_sum", [(2000 # 1)]);
   ("costs__invest_invest_sum", [(20 # 1)]);
   ("costs__operation_operation_sum", [(80 # 1)]);
   ("costs__operation_operation_sum_TS", [(30 # 1); (50 # 1); (0 # 1)]);
   ("costs__all_all_sum", [(100 # 1)]);
   ("Effects__Heat__excess_input", [(2000 # 1)]);
   ("Effects__Heat__excess_output", [(0 # 1)]);
   ("costs__B__Q__specific_effects", [(20 # 1)]);
   ("costs__A__Q__effects_per_flow_hour", [(0 # 1); (20 # 1); (0 # 1)]);
   ("costs__B__Q__effects_per_flow_hour", [(30 # 1); (30 # 1); (0 # 1)]);
   ("costs__operation", [(80 # 1)]);
   ("costs__invest", [(20 # 1)]);
   ("A__Q_flow_rate", [(0 # 1); (20 # 1); (0 # 1)]);
   ("A__Q_sumFlowHours", [(20 # 1)]);
   ("B__Q_flow_rate", [(10 # 1); (10 # 1); (0 # 1)]);
   ("B__Q_sumFlowHours", [(20 # 1)]);
   ("B__Q__Investment_size", [(10 # 1)]);
   ("Demand__Q_flow_rate", [(10 # 1); (30 # 1); (20 # 1)]);
   ("Demand__Q_sumFlowHours", [(60 # 1)])].
Definition ym_table : list (string * list Q) :=
[("Heat_excess_input", [(10 # 1); (25 # 1); (20 # 1)]);
   ("Heat_excess_output", [(0 # 1); (0 # 1); (0 # 1)]);
   ("Effects__penalty_penalty_sum", [(5500 # 1)]);
   ("costs__invest_invest_sum", [(0 # 1)]);
   ("costs__operation_operation_sum", [(5 # 1)]);
   ("costs__operation_operation_sum_TS", [(0 # 1); (5 # 1); (0 # 1)]);
   ("costs__all_all_sum", [(5 # 1)]);
   ("Effects__Heat__excess_input", [(5500 # 1)]);
   ("Effects__Heat__excess_output", [(0 # 1)]);
   ("costs__B__Q__specific_effects", [(0 # 1)]);
   ("costs__A__Q__effects_per_flow_hour", [(0 # 1); (5 # 1); (0 # 1)]);
   ("costs__B__Q__effects_per_flow_hour", [(0 # 1); (0 # 1); (0 # 1)]);
   ("costs__operation", [(5 # 1)]);
   ("costs__invest", [(0 # 1)]);
   ("A__Q_flow_rate", [(0 # 1); (5 # 1); (0 # 1)]);
   ("A__Q_sumFlowHours", [(5 # 1)]);
   ("B__Q_flow_rate", [(0 # 1); (0 # 1); (0 # 1)]);
   ("B__Q_sumFlowHours", [(0 # 1)]);
   ("B__Q__Investment_size", [(0 # 1)]);
   ("Demand__Q_flow_rate", [(10 # 1); (30 # 1); (20 # 1)]);
   ("Demand__Q_sumFlowHours", [(60 # 1)])].
Definition xm : asg := of_table xm_table.
Definition ym : asg := of_table ym_table.
Lemma sensible_mix : sensible default_config fs_mix None.
Proof.
  apply sensible_check; [vm_compute; reflexivity|buses|]. intros c Hc. cbn [fs_mix fs_comps In] in Hc.
  destruct Hc as [<-|[<-|[<-|[]]]]; split; try exact I; try (repeat constructor; simpl; intuition discriminate).
Qed.
Lemma no_decisions_mix : no_decisions default_config fs_mix None.
Proof.
  constructor.
  - intros c f Hc Hf. cbn [fs_mix fs_comps In] in Hc. destruct Hc as [<-|[<-|[<-|[]]]]; cbn in Hf; destruct Hf as [<-|[]]; reflexivity.
  - intros c Hc. cbn [fs_mix fs_comps In] in Hc. destruct Hc as [<-|[<-|[<-|[]]]]; (split; [reflexivity|discriminate]).
  - intros nm iv H. change (investments default_config fs_mix) with [("B__Q", mkInvest None 0 (Some 100) false EVNone (EVOne (n1 2)) None EVNone)] in H. destruct H as [H|[]]. injection H as <- <-. split; reflexivity.
Qed.
Example C86_applies_linear : exists pm, build default_config id_ord fs_mix None = Ok pm /\ sensible default_config fs_mix None /\ no_decisions default_config fs_mix None
  /\ feasible pm xm /\ feasible pm ym /\ ~ xm "A__Q_flow_rate" 1%nat == ym "A__Q_flow_rate" 1%nat.
Proof.
  assert (X : exists pm, build default_config id_ord fs_mix None = Ok pm /\ feasible pm xm) by (apply run_ok; vm_compute; reflexivity).
  assert (Y : exists pm, build default_config id_ord fs_mix None = Ok pm /\ feasible pm ym) by (apply run_ok; vm_compute; reflexivity).
  destruct X as [pm [B F]]. destruct Y as [pm' [B' F']]. rewrite B in B'. injection B' as <-. exists pm. split; [exact B|]. split; [exact sensible_mix|]. split; [exact no_decisions_mix|]. split; [exact F|]. split; [exact F'|]. vm_compute. discriminate.
Qed.
