(** Claim C83: groups of components that share no bus can be optimised separately. *)
From Coq Require Import Permutation.
From Verif Require Import Base BaseFacts MathModel Spec Structure Params Features Elements Library System SysSpec AdmitSpec CtxFacts NavFacts EffectFacts AggFacts PropsFlow PropsOnOff
     PropsComp PropsEffects PlanSpec Example TotalInvest PlanComp PlanSame PlanSound PlanSys PlanCheck ExamplePoints PropsPlan.

(** ** Specification *)

(** The system with the components [cs] only: same time steps, same effects. *)
Definition part (fs : flow_system) (cs : list component) : flow_system := mkFS (fs_times fs) (fs_end fs) (fs_prev_dt fs) (fs_effects fs) cs.

(** No limit is given for the effect. *)
Definition unlimited (e : effect) : Prop :=
  e_min_op e = None /\ e_max_op e = None /\ e_min_inv e = None /\ e_max_inv e = None /\ e_min_ph e = None /\ e_max_ph e = None /\ e_min_tot e = None /\ e_max_tot e = None.
(** No effect passes anything on to itself, be it by way of others: there is an order in which effects only pass on to later ones. *)
Definition no_loops (fs : flow_system) : Prop := exists rank : nat -> nat, forall e, In e (fs_effects fs) ->
  (forall k p, In (k, p) (e_share_op e) -> (rank (e_id e) < rank k)%nat) /\ (forall k d, In (k, d) (e_share_inv e) -> (rank (e_id e) < rank k)%nat).

(** The names of the quantities of components and buses, and the names of the totals. *)
Definition own_names (fs : flow_system) : list string :=
  flat_map (fun n => [vlabel n "flow_rate"; vlabel n "charge_state"; oo n "on"; oo n "switchOn"; inv n "size"; inv n "isInvested"]
                     ++ map (fun e => vlabel (cat [n; "__"; "SegmentedShares"]) (cat [e_label e; "_segmented"])) (fs_effects fs))
           (flat_map (fun c => cp_label c :: map (flow_name c) (cp_flows c)) (fs_comps fs))
  ++ flat_map (fun b => [vlabel (b_lab b) "excess_input"; vlabel (b_lab b) "excess_output"]) (bus_list fs).
Definition total_names (fs : flow_system) : list string :=
  flat_map (fun e => [vlabel (cat [e_label e; "__"; "operation"]) "operation_sum_TS"; vlabel (cat [e_label e; "__"; "operation"]) "operation_sum";
                      vlabel (cat [e_label e; "__"; "invest"]) "invest_sum"; vlabel (cat [e_label e; "__"; "all"]) "all_sum"]) (fs_effects fs)
  ++ [vlabel "Effects__penalty" "penalty_sum"].

(** The components of [fs] are those of [A] and [B], which have no bus and no name in common. *)
Record separate (fs : flow_system) (A B : list component) : Prop := {
  in_comps : fs_comps fs = A ++ B;
  in_buses : forall a b, used_bus (part fs A) a -> used_bus (part fs B) b -> b_id a <> b_id b;
  in_loops : no_loops fs;
  in_names : (forall s, In s (own_names (part fs A)) -> ~ In s (own_names (part fs B)))
     /\ (forall s, In s (own_names fs) -> ~ In s (total_names fs)) /\ NoDup (total_names fs)
}.
(** No limit is set on any effect. *)
Definition no_effect_limits (fs : flow_system) : Prop := forall e, In e (fs_effects fs) -> unlimited e.

(** In the plan [x] the components of [A] do what they do in [xa] and those of [B] what they do in [xb]; its totals are the
    sums of the totals of the two. *)
Record joins (cf : config) (fs : flow_system) (idx : option (list nat)) (A B : list component) (x xa xb : asg) : Prop := {
  jo_left : same_parts cf (part fs A) idx x xa;
  jo_right : same_parts cf (part fs B) idx x xb;
  jo_totals : forall e, In e (fs_effects fs) -> (forall t, (t < steps fs idx)%nat -> op_at x e t == op_at xa e t + op_at xb e t)
     /\ op_sum x e == op_sum xa e + op_sum xb e /\ inv_sum x e == inv_sum xa e + inv_sum xb e /\ all_sum x e == all_sum xa e + all_sum xb e;
  jo_penalty : penalty_sum x == penalty_sum xa + penalty_sum xb
}.

(** [q] is the optimum of the problem: some solution has that objective value and none has a smaller one. *)
Definition least (pm : pmodel) (q : Q) : Prop := (exists x, feasible pm x /\ objective_value pm x == q) /\ forall y, feasible pm y -> q <= objective_value pm y.

(** ** Totals of effects that pass on to others *)

Section Totals.
Variables (es : list effect) (rank : nat -> nat) (sh : effect -> effect -> Q).
Hypothesis RK : forall e' e, In e' es -> (rank (e_id e) <= rank (e_id e'))%nat -> sh e' e == 0.

Fixpoint tot (k : nat) (d : effect -> Q) (e : effect) : Q :=
  match k with O => 0 | S k' => d e + Qsum (map (fun e' => sh e' e * tot k' d e') es) end.
Lemma tot_stable : forall d k e, (rank (e_id e) < k)%nat -> tot (S k) d e == tot k d e.
Proof.
  intros d. induction k as [|k IH]; intros e H; [lia|].
  change (tot (S (S k)) d e) with (d e + Qsum (map (fun e' => sh e' e * tot (S k) d e') es)). change (tot (S k) d e) with (d e + Qsum (map (fun e' => sh e' e * tot k d e') es)).
  apply Qplus_comp; [reflexivity|]. apply Qsum_map_eq. intros e' He'.
  destruct (le_lt_dec (rank (e_id e)) (rank (e_id e'))) as [L|L]; [rewrite (RK e' e He' L); lra|]. rewrite IH by lia. reflexivity.
Qed.
Definition height : nat := S (list_max (map (fun e => rank (e_id e)) es)).
Lemma height_ok : forall e, In e es -> (rank (e_id e) < height)%nat.
Proof.
  intros e He. unfold height. pose proof (proj1 (list_max_le (map (fun e => rank (e_id e)) es) _) (le_n _)) as F. rewrite Forall_forall in F.
  specialize (F (rank (e_id e)) (in_map (fun e => rank (e_id e)) _ _ He)). lia.
Qed.
Definition total (d : effect -> Q) (e : effect) : Q := tot height d e.
Lemma total_eq : forall d e, In e es -> total d e == d e + Qsum (map (fun e' => sh e' e * total d e') es).
Proof. intros d e He. unfold total. rewrite <- (tot_stable d height e (height_ok e He)) at 1. reflexivity. Qed.
Lemma totals_unique : forall d u v, (forall e, In e es -> u e == d e + Qsum (map (fun e' => sh e' e * u e') es)) ->
  (forall e, In e es -> v e == d e + Qsum (map (fun e' => sh e' e * v e') es)) -> forall e, In e es -> u e == v e.
Proof.
  intros d u v U V. assert (P : forall k e, In e es -> (rank (e_id e) < k)%nat -> u e == v e).
  { induction k as [|k IH]; intros e He H; [lia|]. rewrite (U e He), (V e He). apply Qplus_comp; [reflexivity|]. apply Qsum_map_eq. intros e' He'.
    destruct (le_lt_dec (rank (e_id e)) (rank (e_id e'))) as [L|L]; [rewrite (RK e' e He' L); lra|]. rewrite (IH e' He') by lia. reflexivity. }
  intros e He. apply (P (S (rank (e_id e)))); auto.
Qed.
End Totals.

Definition op_share (idx : option (list nat)) (t : nat) (e' e : effect) : Q :=
  Qsum (map (fun kp : nat * param => if Nat.eqb (fst kp) (e_id e) then value idx (snd kp) t else 0) (e_share_op e')).
Definition inv_share (e' e : effect) : Q :=
  Qsum (map (fun kd : nat * numeric => if Nat.eqb (fst kd) (e_id e) then at_ (snd kd) 0 else 0) (e_share_inv e')).
Lemma op_from_share : forall fs idx x e t, op_from_effects fs idx x e t == Qsum (map (fun e' => op_share idx t e' e * op_at x e' t) (fs_effects fs)).
Proof.
  intros. unfold op_from_effects. apply Qsum_map_eq. intros e' _. unfold op_share. rewrite Qmult_comm, <- BaseFacts.Qsum_scale. apply Qsum_map_eq. intros kp _.
  destruct (Nat.eqb (fst kp) (e_id e)); lra.
Qed.
Lemma inv_from_share : forall fs x e, inv_from_effects fs x e == Qsum (map (fun e' => inv_share e' e * inv_sum x e') (fs_effects fs)).
Proof.
  intros. unfold inv_from_effects. apply Qsum_map_eq. intros e' _. unfold inv_share. rewrite Qmult_comm, <- BaseFacts.Qsum_scale. apply Qsum_map_eq. intros kp _.
  destruct (Nat.eqb (fst kp) (e_id e)); lra.
Qed.

(** ** Buses *)

Fixpoint once (l : list bus) : list bus :=
  match l with [] => [] | b :: r => if existsb (fun b' => Nat.eqb (b_id b') (b_id b)) r then once r else b :: once r end.
Lemma once_incl : forall l b, In b (once l) -> In b l.
Proof. induction l as [|a l IH]; intros b H; [exact H|]. cbn in H. destruct (existsb _ l); [right; auto|]. destruct H as [->|H]; [left; reflexivity|right; auto]. Qed.
Lemma once_ok : forall l, (forall b b', In b l -> In b' l -> b_id b = b_id b' -> b = b') -> NoDup (once l) /\ forall b, In b (once l) <-> In b l.
Proof.
  induction l as [|a l IH]; intros S; [split; [constructor|tauto]|]. destruct IH as [ND IN]; [intros b b' H H'; apply S; simpl; auto|].
  cbn. destruct (existsb (fun b' => Nat.eqb (b_id b') (b_id a)) l) eqn:E.
  - split; [exact ND|]. intros b. rewrite IN. apply existsb_exists in E. destruct E as [a' [H1 H2]]. apply Nat.eqb_eq in H2. assert (a' = a) by (apply S; simpl; auto). subst a'. split; [auto|].
    intros [->|H]; auto.
  - split; [|intros b; simpl; rewrite IN; tauto]. constructor; [|exact ND]. intros H. apply once_incl in H.
    assert (T : existsb (fun b' => Nat.eqb (b_id b') (b_id a)) l = true) by (apply existsb_exists; exists a; split; auto; apply Nat.eqb_refl). congruence.
Qed.
Lemma some_buses : forall fs, same_object fs -> exists bl, NoDup bl /\ forall b, In b bl <-> used_bus fs b.
Proof.
  intros fs S. exists (once (bus_list fs)). destruct (once_ok (bus_list fs)) as [ND IN]; [intros b b' H H'; apply S; apply used_bus_list; auto|].
  split; [exact ND|]. intros b. rewrite IN. symmetry. apply used_bus_list.
Qed.

(** The rules of a component do not depend on the other components. *)
Lemma onoff_alone : forall fs cs idx p prev runs, onoff_rules fs idx p prev runs <-> onoff_rules (part fs cs) idx p prev runs.
Proof. intros. split; intros H; destruct H; constructor; assumption. Qed.
Lemma flow_alone : forall cf fs cs idx x c f, flow_rule cf fs idx x c f <-> flow_rule cf (part fs cs) idx x c f.
Proof.
  intros. split; intros [H M]; (split; [|exact M]); destruct H; constructor; try assumption; intros o G; apply (onoff_alone fs cs); auto.
Qed.
Lemma running_alone : forall cf fs cs idx x c p, running_rule cf fs idx x c p <-> running_rule cf (part fs cs) idx x c p.
Proof. intros. split; intros [M [Z R]]; (split; [exact M|split; [exact Z|]]); apply (onoff_alone fs cs); exact R. Qed.

(** ** Parts of a system *)

Section Split.
Variables (cf : config) (fs : flow_system) (idx : option (list nat)) (A B : list component).
Hypothesis D : separate fs A B.
Hypothesis NL : no_effect_limits fs.
Hypothesis SO : same_object fs.
Notation n := (steps fs idx).
Hypothesis N1 : (1 <= n)%nat.
Hypothesis TG : forall c rel p f, In c (fs_comps fs) -> cp_kind c = TransmissionC rel (Some p) -> In f (cp_in c) -> governed fs idx c f <> None.

Lemma comps_in : forall c, In c (fs_comps fs) <-> In c A \/ In c B.
Proof. intros c. rewrite (in_comps _ _ _ D). apply in_app_iff. Qed.
Lemma used_in : forall b, used_bus fs b <-> used_bus (part fs A) b \/ used_bus (part fs B) b.
Proof.
  intros b. unfold used_bus. split.
  - intros [c [f [Hc H]]]. apply comps_in in Hc. destruct Hc as [Hc|Hc]; [left|right]; exists c, f; auto.
  - intros [[c [f [Hc H]]]|[c [f [Hc H]]]]; exists c, f; (split; [apply comps_in; auto|exact H]).
Qed.
Lemma investments_in : investments cf fs = investments cf (part fs A) ++ investments cf (part fs B).
Proof. unfold investments. rewrite (in_comps _ _ _ D), flat_map_app. reflexivity. Qed.
Lemma tg_left : forall c rel p f, In c (fs_comps (part fs A)) -> cp_kind c = TransmissionC rel (Some p) -> In f (cp_in c) -> governed (part fs A) idx c f <> None.
Proof. intros c rel p f Hc. apply (TG c rel p f). apply comps_in. left. exact Hc. Qed.
Lemma tg_right : forall c rel p f, In c (fs_comps (part fs B)) -> cp_kind c = TransmissionC rel (Some p) -> In f (cp_in c) -> governed (part fs B) idx c f <> None.
Proof. intros c rel p f Hc. apply (TG c rel p f). apply comps_in. right. exact Hc. Qed.

Lemma no_flows : forall x (side : component -> list flow) (cs : list component) b t,
  (forall c f, In c cs -> In f (side c) -> b_id (f_bus f) <> b_id b) ->
  Qsum (map (fun c => Qsum (map (fun f => rate_of x c f t) (filter (connected b) (side c)))) cs) == 0.
Proof.
  intros x side cs b t H. apply Qsum_zero. intros q Hq. apply in_map_iff in Hq. destruct Hq as [c [<- Hc]]. apply Qsum_zero. intros q Hq. apply in_map_iff in Hq.
  destruct Hq as [f [<- Hf]]. apply filter_In in Hf. destruct Hf as [Hf C]. exfalso. apply (H c f Hc Hf). apply Nat.eqb_eq. exact C.
Qed.
Lemma delivered_in : forall x b t, delivered fs x b t == delivered (part fs A) x b t + delivered (part fs B) x b t.
Proof. intros. unfold delivered. rewrite (in_comps _ _ _ D), map_app, Qsum_app. reflexivity. Qed.
Lemma taken_in : forall x b t, taken fs x b t == taken (part fs A) x b t + taken (part fs B) x b t.
Proof. intros. unfold taken. rewrite (in_comps _ _ _ D), map_app, Qsum_app. reflexivity. Qed.
Lemma side_flow : forall (side : component -> list flow) c f, side = cp_in \/ side = cp_out -> In f (side c) -> In f (cp_flows c).
Proof. intros side c f [-> | ->] H; unfold cp_flows; apply in_app_iff; auto. Qed.
Lemma away_left : forall x b t, used_bus (part fs A) b -> delivered (part fs B) x b t == 0 /\ taken (part fs B) x b t == 0.
Proof.
  intros x b t U. split; apply no_flows; intros c f Hc Hf E; apply (in_buses _ _ _ D b (f_bus f) U); auto; exists c, f;
    (split; [exact Hc|split; [|reflexivity]]); [eapply (side_flow cp_out)|eapply (side_flow cp_in)]; auto.
Qed.
Lemma away_right : forall x b t, used_bus (part fs B) b -> delivered (part fs A) x b t == 0 /\ taken (part fs A) x b t == 0.
Proof.
  intros x b t U. split; apply no_flows; intros c f Hc Hf E; apply (in_buses _ _ _ D (f_bus f) b); auto; exists c, f;
    (split; [exact Hc|split; [|reflexivity]]); [eapply (side_flow cp_out)|eapply (side_flow cp_in)]; auto.
Qed.
Lemma bus_left : forall x b, used_bus (part fs A) b -> bus_rule fs idx x b <-> bus_rule (part fs A) idx x b.
Proof.
  intros x b U. split; intros R t Ht; destruct (R t Ht) as [R1 R2]; split; auto; destruct (away_left x b t U) as [Z1 Z2].
  - rewrite delivered_in, taken_in, Z1, Z2 in R1. lra.
  - rewrite delivered_in, taken_in, Z1, Z2. lra.
Qed.
Lemma bus_right : forall x b, used_bus (part fs B) b -> bus_rule fs idx x b <-> bus_rule (part fs B) idx x b.
Proof.
  intros x b U. split; intros R t Ht; destruct (R t Ht) as [R1 R2]; split; auto; destruct (away_right x b t U) as [Z1 Z2].
  - rewrite delivered_in, taken_in, Z1, Z2 in R1. lra.
  - rewrite delivered_in, taken_in, Z1, Z2. lra.
Qed.

(** The rules of components, investments and buses hold for both parts exactly if they hold for the whole. *)
Definition obeys_parts (s : flow_system) (x : asg) : Prop :=
  (forall c f, In c (fs_comps s) -> In f (cp_flows c) -> flow_rule cf s idx x c f)
  /\ (forall c p, In c (fs_comps s) -> cp_onoff c = Some p -> running_rule cf s idx x c p)
  /\ (forall c, In c (fs_comps s) -> exclusion_rule s idx x c) /\ (forall c, In c (fs_comps s) -> own_rule cf s idx x c)
  /\ (forall name iv, In (name, iv) (investments cf s) -> segments_rule s x name iv) /\ (forall b, used_bus s b -> bus_rule s idx x b).
Lemma obeys_obeys_parts : forall s x, obeys cf s idx x -> obeys_parts s x.
Proof. intros s x [O1 O2 O3 O4 O5 O6 O7 O8]. unfold obeys_parts. auto 10. Qed.
Lemma parts_same : forall s x y, same_parts cf s idx x y -> (1 <= steps s idx)%nat ->
  (forall c rel p f, In c (fs_comps s) -> cp_kind c = TransmissionC rel (Some p) -> In f (cp_in c) -> governed s idx c f <> None) ->
  obeys_parts s x -> obeys_parts s y.
Proof.
  intros s x y P N T [O1 [O2 [O3 [O4 [O5 O6]]]]]. split; [|split; [|split; [|split; [|split]]]].
  - intros. apply (flow_same cf s idx x y P); auto.
  - intros. apply (running_same cf s idx x y P); auto.
  - intros. apply (exclusion_same cf s idx x y P); auto.
  - intros. apply (own_same cf s idx x y P); auto.
  - intros. apply (segments_same cf s idx x y P); auto.
  - intros. apply (bus_same cf s idx x y P); auto.
Qed.
Lemma parts_both : forall x, obeys_parts fs x <-> obeys_parts (part fs A) x /\ obeys_parts (part fs B) x.
Proof.
  intros x. split.
  - intros [O1 [O2 [O3 [O4 [O5 O6]]]]]. split; (split; [|split; [|split; [|split; [|split]]]]).
    + intros c f Hc Hf. apply flow_alone. apply (O1 c f); auto. apply comps_in. auto.
    + intros c p Hc Hf. apply running_alone. apply (O2 c p); auto. apply comps_in. auto.
    + intros c Hc. apply (O3 c); auto. apply comps_in. auto.
    + intros c Hc. apply (O4 c); auto. apply comps_in. auto.
    + intros name iv Hi. apply (O5 name iv). rewrite investments_in. apply in_app_iff. auto.
    + intros b U. apply (bus_left x b U). apply O6. apply used_in. auto.
    + intros c f Hc Hf. apply flow_alone. apply (O1 c f); auto. apply comps_in. auto.
    + intros c p Hc Hf. apply running_alone. apply (O2 c p); auto. apply comps_in. auto.
    + intros c Hc. apply (O3 c); auto. apply comps_in. auto.
    + intros c Hc. apply (O4 c); auto. apply comps_in. auto.
    + intros name iv Hi. apply (O5 name iv). rewrite investments_in. apply in_app_iff. auto.
    + intros b U. apply (bus_right x b U). apply O6. apply used_in. auto.
  - intros [[O1 [O2 [O3 [O4 [O5 O6]]]]] [P1 [P2 [P3 [P4 [P5 P6]]]]]]. split; [|split; [|split; [|split; [|split]]]].
    + intros c f Hc Hf. apply comps_in in Hc. destruct Hc as [Hc|Hc]; [apply (flow_alone cf fs A); apply (O1 c f)|apply (flow_alone cf fs B); apply (P1 c f)]; auto.
    + intros c p Hc Hf. apply comps_in in Hc. destruct Hc as [Hc|Hc]; [apply (running_alone cf fs A); apply (O2 c p)|apply (running_alone cf fs B); apply (P2 c p)]; auto.
    + intros c Hc. apply comps_in in Hc. destruct Hc as [Hc|Hc]; [apply (O3 c)|apply (P3 c)]; auto.
    + intros c Hc. apply comps_in in Hc. destruct Hc as [Hc|Hc]; [apply (O4 c)|apply (P4 c)]; auto.
    + intros name iv Hi. rewrite investments_in in Hi. apply in_app_iff in Hi. destruct Hi as [Hi|Hi]; [apply (O5 name iv)|apply (P5 name iv)]; auto.
    + intros b U. apply used_in in U. destruct U as [U|U]; [apply (bus_left x b U)|apply (bus_right x b U)]; auto.
Qed.

(** The costs add. *)
Section Joined.
Variables x xa xb : asg.
Hypothesis J : joins cf fs idx A B x xa xb.
Lemma costs_add : forall e t, (t < n)%nat -> Qsum (map (fun c => comp_costs fs idx x c e t) (fs_comps fs))
  == Qsum (map (fun c => comp_costs (part fs A) idx xa c e t) A) + Qsum (map (fun c => comp_costs (part fs B) idx xb c e t) B).
Proof.
  intros e t Ht. rewrite (in_comps _ _ _ D), map_app, Qsum_app. apply Qplus_comp; apply Qsum_map_eq; intros c Hc; symmetry.
  - apply (costs_same cf (part fs A) idx x xa (jo_left _ _ _ _ _ _ _ _ J)); auto.
  - apply (costs_same cf (part fs B) idx x xb (jo_right _ _ _ _ _ _ _ _ J)); auto.
Qed.
Lemma icosts_add : forall e, In e (fs_effects fs) -> Qsum (map (fun ni => invest_costs fs x (fst ni) (snd ni) e) (investments cf fs))
  == Qsum (map (fun ni => invest_costs (part fs A) xa (fst ni) (snd ni) e) (investments cf (part fs A)))
     + Qsum (map (fun ni => invest_costs (part fs B) xb (fst ni) (snd ni) e) (investments cf (part fs B))).
Proof.
  intros e He. rewrite investments_in, map_app, Qsum_app. apply Qplus_comp; apply Qsum_map_eq; intros [name iv] Hi; symmetry.
  - apply (icosts_same cf (part fs A) idx x xa (jo_left _ _ _ _ _ _ _ _ J)); auto.
  - apply (icosts_same cf (part fs B) idx x xb (jo_right _ _ _ _ _ _ _ _ J)); auto.
Qed.
Lemma prices_add : forall bl bla blb, NoDup bl -> (forall b, In b bl <-> used_bus fs b) -> NoDup bla -> (forall b, In b bla <-> used_bus (part fs A) b) ->
  NoDup blb -> (forall b, In b blb <-> used_bus (part fs B) b) ->
  Qsum (map (bus_price fs idx x) bl) == Qsum (map (bus_price (part fs A) idx xa) bla) + Qsum (map (bus_price (part fs B) idx xb) blb).
Proof.
  intros bl bla blb ND U NA UA NB UB. assert (P : Permutation bl (bla ++ blb)).
  { apply NoDup_Permutation; [exact ND| |].
    - revert NA UA. clear -NB UB D. intros NA UA. assert (X : forall b, In b bla -> ~ In b blb) by (intros b Ha Hb; apply (in_buses _ _ _ D b b); [apply UA|apply UB|]; auto).
      clear UA. induction bla as [|a l IH]; [exact NB|]. inversion NA. cbn. constructor; [rewrite in_app_iff; intros [H'|H']; [auto|apply (X a); simpl; auto]|]. apply IH; auto. intros b Hb. apply X. simpl. auto.
    - intros b. rewrite in_app_iff, U, UA, UB. apply used_in. }
  rewrite (Qsum_perm _ _ (Permutation_map (bus_price fs idx x) P)), map_app, Qsum_app. apply Qplus_comp; apply Qsum_map_eq; intros b Hb; symmetry.
  - apply (price_same cf (part fs A) idx x xa (jo_left _ _ _ _ _ _ _ _ J)). apply UA. exact Hb.
  - apply (price_same cf (part fs B) idx x xb (jo_right _ _ _ _ _ _ _ _ J)). apply UB. exact Hb.
Qed.

Lemma part_objects : same_object (part fs A) /\ same_object (part fs B).
Proof. split; intros b b' H H'; apply SO; apply used_in; auto. Qed.

Lemma joined_obeys : obeys cf (part fs A) idx xa -> obeys cf (part fs B) idx xb -> obeys cf fs idx x.
Proof.
  intros OA OB.
  assert (P : obeys_parts fs x).
  { apply parts_both. split.
    - apply (parts_same (part fs A) xa x); [apply same_parts_sym; exact (jo_left _ _ _ _ _ _ _ _ J)|exact N1|exact tg_left|apply obeys_obeys_parts; exact OA].
    - apply (parts_same (part fs B) xb x); [apply same_parts_sym; exact (jo_right _ _ _ _ _ _ _ _ J)|exact N1|exact tg_right|apply obeys_obeys_parts; exact OB]. }
  destruct P as [O1 [O2 [O3 [O4 [O5 O6]]]]]. constructor; auto.
  - intros e He. destruct (ob_effect _ _ _ _ OA e He) as [A1 [A2 [A3 [A4 _]]]]. destruct (ob_effect _ _ _ _ OB e He) as [B1 [B2 [B3 [B4 _]]]].
    destruct (jo_totals _ _ _ _ _ _ _ _ J e He) as [T1 [T2 [T3 T4]]]. destruct (NL e He) as [L1 [L2 [L3 [L4 [L5 [L6 [L7 L8]]]]]]].
    split; [|split; [|split; [|split]]].
    + intros t Ht. rewrite (T1 t Ht), (A1 t Ht), (B1 t Ht), (costs_add e t Ht), !op_from_share. cbn [fs_comps fs_effects part].
      assert (E : Qsum (map (fun e' => op_share idx t e' e * op_at x e' t) (fs_effects fs))
        == Qsum (map (fun e' => op_share idx t e' e * op_at xa e' t) (fs_effects fs)) + Qsum (map (fun e' => op_share idx t e' e * op_at xb e' t) (fs_effects fs))).
      { rewrite <- Qsum_plus. apply Qsum_map_eq. intros e' He'. rewrite (proj1 (jo_totals _ _ _ _ _ _ _ _ J e' He') t Ht). lra. }
      rewrite E. lra.
    + rewrite T2, A2, B2, <- sumn_plus. apply sumn_ext. intros t Ht. symmetry. auto.
    + rewrite T3, A3, B3, (icosts_add e He), !inv_from_share. cbn [fs_comps fs_effects part].
      assert (E : Qsum (map (fun e' => inv_share e' e * inv_sum x e') (fs_effects fs))
        == Qsum (map (fun e' => inv_share e' e * inv_sum xa e') (fs_effects fs)) + Qsum (map (fun e' => inv_share e' e * inv_sum xb e') (fs_effects fs))).
      { rewrite <- Qsum_plus. apply Qsum_map_eq. intros e' He'. rewrite (proj1 (proj2 (proj2 (jo_totals _ _ _ _ _ _ _ _ J e' He')))). lra. }
      rewrite E. lra.
    + rewrite T2, T3, T4, A4, B4. lra.
    + rewrite L1, L2, L3, L4, L5, L6, L7, L8. unfold at_least, at_most. cbn. do 6 (split; [discriminate|]). intros t _. split; discriminate.
  - intros bl ND U. destruct part_objects as [SA SB]. destruct (some_buses _ SA) as [bla [NA UA]]. destruct (some_buses _ SB) as [blb [NB UB]].
    rewrite (jo_penalty _ _ _ _ _ _ _ _ J), (ob_penalty _ _ _ _ OA bla NA UA), (ob_penalty _ _ _ _ OB blb NB UB). symmetry. apply prices_add; auto.
Qed.
End Joined.

(** *** Assignments by name *)
Definition given (tab : list (string * (nat -> Q))) (x : asg) : asg := fun l t => match find (fun p => String.eqb (fst p) l) tab with Some p => snd p t | None => x l t end.
Lemma given_in : forall tab x l v t, NoDup (map fst tab) -> In (l, v) tab -> given tab x l t = v t.
Proof.
  intros tab x l v t ND H. unfold given. induction tab as [|[a w] tab IH]; [contradiction|]. cbn [map fst] in ND. inversion ND as [|? ? X Y]. subst. cbn [find fst].
  destruct H as [H|H]; [injection H as -> ->; rewrite String.eqb_refl; reflexivity|]. destruct (String.eqb_spec a l) as [->|NE]; [|auto].
  exfalso. apply X. apply in_map_iff. exists (l, v). auto.
Qed.
Lemma given_out : forall tab x l t, ~ In l (map fst tab) -> given tab x l t = x l t.
Proof.
  intros tab x l t H. unfold given. destruct (find _ tab) as [p|] eqn:E; [|reflexivity]. exfalso. apply H. apply find_some in E. destruct E as [E1 E2].
  apply String.eqb_eq in E2. apply in_map_iff. exists p. auto.
Qed.
Definition totals_table (op : effect -> nat -> Q) (ops invs alls : effect -> Q) (pen : Q) : list (string * (nat -> Q)) :=
  flat_map (fun e => [(vlabel (cat [e_label e; "__"; "operation"]) "operation_sum_TS", op e); (vlabel (cat [e_label e; "__"; "operation"]) "operation_sum", fun _ => ops e);
                      (vlabel (cat [e_label e; "__"; "invest"]) "invest_sum", fun _ => invs e); (vlabel (cat [e_label e; "__"; "all"]) "all_sum", fun _ => alls e)]) (fs_effects fs)
  ++ [(vlabel "Effects__penalty" "penalty_sum", fun _ => pen)].
Lemma totals_fst : forall op ops invs alls pen, map fst (totals_table op ops invs alls pen) = total_names fs.
Proof.
  intros. unfold totals_table, total_names. rewrite map_app. f_equal. induction (fs_effects fs) as [|e l IH]; [reflexivity|]. cbn [flat_map]. rewrite map_app, IH. reflexivity.
Qed.
Lemma totals_read : forall op ops invs alls pen x, let y := given (totals_table op ops invs alls pen) x in
  (forall e, In e (fs_effects fs) -> (forall t, op_at y e t = op e t) /\ op_sum y e = ops e /\ inv_sum y e = invs e /\ all_sum y e = alls e) /\ penalty_sum y = pen.
Proof.
  intros op ops invs alls pen x y. assert (ND : NoDup (map fst (totals_table op ops invs alls pen))) by (rewrite totals_fst; apply (in_names _ _ _ D)). split.
  - intros e He. assert (T : forall p, In p [(vlabel (cat [e_label e; "__"; "operation"]) "operation_sum_TS", op e); (vlabel (cat [e_label e; "__"; "operation"]) "operation_sum", fun _ => ops e);
                      (vlabel (cat [e_label e; "__"; "invest"]) "invest_sum", fun _ => invs e); (vlabel (cat [e_label e; "__"; "all"]) "all_sum", fun _ => alls e)] -> In p (totals_table op ops invs alls pen)).
    { intros p Hp. unfold totals_table. apply in_app_iff. left. apply in_flat_map. exists e. auto. }
    split; [intros t; unfold op_at, y; apply (given_in _ _ _ (op e)); auto; apply T; simpl; auto|].
    split; [unfold op_sum, y; apply (given_in _ _ _ (fun _ => ops e)); auto; apply T; simpl; auto|].
    split; [unfold inv_sum, y; apply (given_in _ _ _ (fun _ => invs e)); auto; apply T; simpl; auto|].
    unfold all_sum, y; apply (given_in _ _ _ (fun _ => alls e)); auto; apply T; simpl; auto 10.
  - unfold penalty_sum, y. apply (given_in _ _ _ (fun _ => pen)); auto. unfold totals_table. apply in_app_iff. right. simpl. auto.
Qed.

Lemma element_own : forall s c m l, In c (fs_comps s) -> (m = cp_label c \/ exists f, In f (cp_flows c) /\ m = flow_name c f) ->
  In l ([vlabel m "flow_rate"; vlabel m "charge_state"; oo m "on"; oo m "switchOn"; inv m "size"; inv m "isInvested"]
        ++ map (fun e => vlabel (cat [m; "__"; "SegmentedShares"]) (cat [e_label e; "_segmented"])) (fs_effects s)) -> In l (own_names s).
Proof.
  intros s c m l Hc Hm Hl. unfold own_names. apply in_app_iff. left. apply in_flat_map. exists m. split; [|exact Hl]. apply in_flat_map. exists c. split; [exact Hc|].
  destruct Hm as [-> | [f [Hf ->]]]; [left; reflexivity|right]. apply in_map. exact Hf.
Qed.
Lemma investment_of : forall s name iv, In (name, iv) (investments cf s) -> exists c, In c (fs_comps s) /\ (name = cp_label c \/ exists f, In f (cp_flows c) /\ name = flow_name c f).
Proof.
  intros s name iv H. unfold investments in H. apply in_flat_map in H. destruct H as [c [Hc H]]. exists c. split; [exact Hc|]. apply in_app_iff in H. destruct H as [H|H].
  - apply in_flat_map in H. destruct H as [f [Hf H]]. right. exists f. split; [exact Hf|]. unfold flow_investment in H. destruct (sized cf c f); [contradiction|]. destruct H as [H|[]]. congruence.
  - left. unfold storage_investment in H. destruct (cp_kind c) as [| | |st|]; try contradiction. destruct (st_cap st); [contradiction|]. destruct H as [H|[]]. congruence.
Qed.
(** Assignments that agree on the names of a system's own quantities agree on what its elements do. *)
Lemma agree_same : forall s x y, (forall l t, In l (own_names s) -> y l t == x l t) -> same_parts cf s idx x y.
Proof.
  intros s x y H. constructor.
  - intros c f t Hc Hf Ht. unfold rate_of. apply H. apply (element_own s c (flow_name c f)); [exact Hc|right; eauto|simpl; auto].
  - intros c f t Hc Hf _ Ht. unfold on_of. split; apply H; (apply (element_own s c (flow_name c f)); [exact Hc|right; eauto|simpl; auto]).
  - intros c t Hc _ Ht. split; apply H; (apply (element_own s c (cp_label c)); [exact Hc|left; reflexivity|simpl; auto]).
  - intros name iv Hi. destruct (investment_of s name iv Hi) as [c [Hc Hn]].
    split; [apply H; apply (element_own s c name); auto; simpl; auto 10|]. split; [intros _; apply H; apply (element_own s c name); auto; simpl; auto 10|].
    intros spts eff i l e _ _ He _. unfold seg_cost. apply H. apply (element_own s c name); auto. apply in_app_iff. right.
    apply (in_map (fun e => vlabel (cat [name; "__"; "SegmentedShares"]) (cat [e_label e; "_segmented"]))). exact He.
  - intros c st t Hc _ Ht. unfold charge. apply H. apply (element_own s c (cp_label c)); [exact Hc|left; reflexivity|simpl; auto].
  - intros b t U Ht. unfold excess. destruct (b_penalty b); [|split; reflexivity]. apply used_bus_list in U.
    split; apply H; unfold own_names; apply in_app_iff; right; apply in_flat_map; exists b; (split; [exact U|simpl; auto]).
Qed.
Lemma own_in : forall l, In l (own_names (part fs A)) \/ In l (own_names (part fs B)) -> In l (own_names fs).
Proof.
  intros l H. unfold own_names in *. unfold bus_list in *. rewrite (in_comps _ _ _ D), !flat_map_app. rewrite !in_app_iff in *. cbn [part fs_comps fs_effects] in H. tauto.
Qed.

(** Every pair of plans of the parts can be joined. *)
Lemma can_join : forall xa xb, exists x, joins cf fs idx A B x xa xb.
Proof.
  intros xa xb. destruct (in_names _ _ _ D) as [NA [NB ND]].
  set (x0 := fun l t => if existsb (String.eqb l) (own_names (part fs A)) then xa l t else xb l t).
  set (tab := totals_table (fun e t => op_at xa e t + op_at xb e t) (fun e => op_sum xa e + op_sum xb e) (fun e => inv_sum xa e + inv_sum xb e)
                (fun e => all_sum xa e + all_sum xb e) (penalty_sum xa + penalty_sum xb)).
  exists (given tab x0). assert (O : forall l t, In l (own_names fs) -> given tab x0 l t = x0 l t).
  { intros l t Hl. apply given_out. unfold tab. rewrite totals_fst. auto. }
  destruct (totals_read (fun e t => op_at xa e t + op_at xb e t) (fun e => op_sum xa e + op_sum xb e) (fun e => inv_sum xa e + inv_sum xb e)
                (fun e => all_sum xa e + all_sum xb e) (penalty_sum xa + penalty_sum xb) x0) as [T P]. fold tab in T, P.
  constructor.
  - apply same_parts_sym. apply agree_same. intros l t Hl. rewrite O by (apply own_in; auto). unfold x0.
    replace (existsb (String.eqb l) (own_names (part fs A))) with true; [reflexivity|]. symmetry. apply existsb_exists. exists l. split; [exact Hl|apply String.eqb_refl].
  - apply same_parts_sym. apply agree_same. intros l t Hl. rewrite O by (apply own_in; auto). unfold x0.
    destruct (existsb (String.eqb l) (own_names (part fs A))) eqn:E; [|reflexivity]. exfalso. apply existsb_exists in E. destruct E as [l' [H1 H2]]. apply String.eqb_eq in H2. subst l'.
    apply (NA l H1 Hl).
  - intros e He. destruct (T e He) as [T1 [T2 [T3 T4]]]. rewrite T2, T3, T4. split; [intros t _; rewrite T1; reflexivity|]. repeat split; reflexivity.
  - rewrite P. reflexivity.
Qed.

(** Every plan of the whole can be split. *)
Definition own_plan (cs : list component) (rank : nat -> nat) (bl : list bus) (x : asg) : asg :=
  let op e t := total (fs_effects fs) rank (op_share idx t) (fun e => Qsum (map (fun c => comp_costs (part fs cs) idx x c e t) cs)) e in
  let ops e := sumn n (fun t => op e t) in
  let invs e := total (fs_effects fs) rank inv_share (fun e => Qsum (map (fun ni => invest_costs (part fs cs) x (fst ni) (snd ni) e) (investments cf (part fs cs)))) e in
  given (totals_table op ops invs (fun e => ops e + invs e) (Qsum (map (bus_price (part fs cs) idx x) bl))) x.

Section Own.
Variables (rank : nat -> nat).
Hypothesis RK : forall e, In e (fs_effects fs) ->
  (forall k p, In (k, p) (e_share_op e) -> (rank (e_id e) < rank k)%nat) /\ (forall k d, In (k, d) (e_share_inv e) -> (rank (e_id e) < rank k)%nat).
Lemma op_ranked : forall t e' e, In e' (fs_effects fs) -> (rank (e_id e) <= rank (e_id e'))%nat -> op_share idx t e' e == 0.
Proof.
  intros t e' e He' L. apply Qsum_zero. intros q Hq. apply in_map_iff in Hq. destruct Hq as [[k p] [<- Hk]]. cbn [fst snd]. destruct (Nat.eqb_spec k (e_id e)) as [->|NE]; [|reflexivity].
  pose proof (proj1 (RK e' He') _ _ Hk). lia.
Qed.
Lemma inv_ranked : forall e' e, In e' (fs_effects fs) -> (rank (e_id e) <= rank (e_id e'))%nat -> inv_share e' e == 0.
Proof.
  intros e' e He' L. apply Qsum_zero. intros q Hq. apply in_map_iff in Hq. destruct Hq as [[k p] [<- Hk]]. cbn [fst snd]. destruct (Nat.eqb_spec k (e_id e)) as [->|NE]; [|reflexivity].
  pose proof (proj2 (RK e' He') _ _ Hk). lia.
Qed.

Lemma own_plan_ok : forall cs bl x, (forall l, In l (own_names (part fs cs)) -> In l (own_names fs)) -> same_object (part fs cs) ->
  (forall c rel p f, In c (fs_comps (part fs cs)) -> cp_kind c = TransmissionC rel (Some p) -> In f (cp_in c) -> governed (part fs cs) idx c f <> None) ->
  NoDup bl -> (forall b, In b bl <-> used_bus (part fs cs) b) -> obeys_parts (part fs cs) x ->
  let y := own_plan cs rank bl x in same_parts cf (part fs cs) idx x y /\ obeys cf (part fs cs) idx y.
Proof.
  intros cs bl x ON S T ND U O y. destruct (in_names _ _ _ D) as [_ [NB _]].
  assert (SP : same_parts cf (part fs cs) idx x y).
  { apply agree_same. intros l t Hl. unfold y, own_plan. cbv zeta. rewrite given_out; [reflexivity|]. rewrite totals_fst. auto. }
  split; [exact SP|].
  destruct (totals_read (fun e t => total (fs_effects fs) rank (op_share idx t) (fun e => Qsum (map (fun c => comp_costs (part fs cs) idx x c e t) cs)) e)
    (fun e => sumn n (fun t => total (fs_effects fs) rank (op_share idx t) (fun e => Qsum (map (fun c => comp_costs (part fs cs) idx x c e t) cs)) e))
    (fun e => total (fs_effects fs) rank inv_share (fun e => Qsum (map (fun ni => invest_costs (part fs cs) x (fst ni) (snd ni) e) (investments cf (part fs cs)))) e)
    (fun e => sumn n (fun t => total (fs_effects fs) rank (op_share idx t) (fun e => Qsum (map (fun c => comp_costs (part fs cs) idx x c e t) cs)) e)
              + total (fs_effects fs) rank inv_share (fun e => Qsum (map (fun ni => invest_costs (part fs cs) x (fst ni) (snd ni) e) (investments cf (part fs cs)))) e)
    (Qsum (map (bus_price (part fs cs) idx x) bl)) x) as [R P].
  match type of P with penalty_sum ?z = _ => change z with y in R, P end.
  destruct (parts_same (part fs cs) x y SP N1 T O) as [O1 [O2 [O3 [O4 [O5 O6]]]]]. constructor; auto.
  - intros e He. cbn [part fs_effects] in He. destruct (R e He) as [R1 [R2 [R3 R4]]]. destruct (NL e He) as [L1 [L2 [L3 [L4 [L5 [L6 [L7 L8]]]]]]].
    split; [|split; [|split; [|split]]].
    + intros t Ht. rewrite R1, (total_eq _ _ _ (op_ranked t) _ e He), op_from_share. cbn [part fs_comps fs_effects]. apply Qplus_comp.
      * apply Qsum_map_eq. intros c Hc. symmetry. apply (costs_same cf (part fs cs) idx x y SP); auto.
      * apply Qsum_map_eq. intros e' He'. rewrite (proj1 (R e' He') t). reflexivity.
    + rewrite R2. apply sumn_ext. intros t Ht. rewrite R1. reflexivity.
    + rewrite R3, (total_eq _ _ _ inv_ranked _ e He), inv_from_share. cbn [part fs_comps fs_effects]. apply Qplus_comp.
      * apply Qsum_map_eq. intros [name iv] Hi. symmetry. apply (icosts_same cf (part fs cs) idx x y SP); auto.
      * apply Qsum_map_eq. intros e' He'. rewrite (proj1 (proj2 (proj2 (R e' He')))). reflexivity.
    + rewrite R2, R3, R4. reflexivity.
    + rewrite L1, L2, L3, L4, L5, L6, L7, L8. unfold at_least, at_most. cbn. do 6 (split; [discriminate|]). intros t _. split; discriminate.
  - intros bl' ND' U'. rewrite P. assert (PE : Permutation bl bl') by (apply NoDup_Permutation; auto; intros b; rewrite U, U'; reflexivity).
    rewrite (Qsum_perm _ _ (Permutation_map (bus_price (part fs cs) idx x) PE)). apply Qsum_map_eq. intros b Hb. symmetry. apply (price_same cf (part fs cs) idx x y SP). apply U'. exact Hb.
Qed.

Lemma can_split : forall x, obeys cf fs idx x -> exists xa xb, joins cf fs idx A B x xa xb /\ obeys cf (part fs A) idx xa /\ obeys cf (part fs B) idx xb.
Proof.
  intros x O. destruct (proj1 (parts_both x) (obeys_obeys_parts _ _ O)) as [PA PB]. destruct part_objects as [SA SB].
  destruct (some_buses _ SA) as [bla [NA UA]]. destruct (some_buses _ SB) as [blb [NB UB]]. destruct (some_buses _ SO) as [bl [ND U]].
  destruct (own_plan_ok A bla x (fun l H => own_in l (or_introl H)) SA tg_left NA UA PA) as [SPA OA].
  destruct (own_plan_ok B blb x (fun l H => own_in l (or_intror H)) SB tg_right NB UB PB) as [SPB OB].
  set (xa := own_plan A rank bla x) in *. set (xb := own_plan B rank blb x) in *.
  exists xa, xb. split; [|auto]. 
  assert (T : forall e, In e (fs_effects fs) -> (forall t, (t < n)%nat -> op_at x e t == op_at xa e t + op_at xb e t) /\ inv_sum x e == inv_sum xa e + inv_sum xb e).
  { split.
    - intros t Ht. apply (totals_unique (fs_effects fs) rank (op_share idx t) (op_ranked t) (fun e => Qsum (map (fun c => comp_costs fs idx x c e t) (fs_comps fs)))
        (fun e => op_at x e t) (fun e => op_at xa e t + op_at xb e t)); auto.
      + intros e0 He0. destruct (ob_effect _ _ _ _ O e0 He0) as [E _]. rewrite (E t Ht), op_from_share. reflexivity.
      + intros e0 He0. destruct (ob_effect _ _ _ _ OA e0 He0) as [EA _]. destruct (ob_effect _ _ _ _ OB e0 He0) as [EB _].
        rewrite (EA t Ht), (EB t Ht), !op_from_share. cbn [part fs_comps fs_effects].
        assert (C : Qsum (map (fun c => comp_costs fs idx x c e0 t) (fs_comps fs))
                    == Qsum (map (fun c => comp_costs (part fs A) idx xa c e0 t) A) + Qsum (map (fun c => comp_costs (part fs B) idx xb c e0 t) B)).
        { rewrite (in_comps _ _ _ D), map_app, Qsum_app. apply Qplus_comp; apply Qsum_map_eq; intros c Hc; symmetry.
          - apply (costs_same cf (part fs A) idx x xa SPA); auto.
          - apply (costs_same cf (part fs B) idx x xb SPB); auto. }
        rewrite C. assert (E : Qsum (map (fun e' => op_share idx t e' e0 * (op_at xa e' t + op_at xb e' t)) (fs_effects fs))
          == Qsum (map (fun e' => op_share idx t e' e0 * op_at xa e' t) (fs_effects fs)) + Qsum (map (fun e' => op_share idx t e' e0 * op_at xb e' t) (fs_effects fs))).
        { rewrite <- Qsum_plus. apply Qsum_map_eq. intros e' He'. lra. }
        rewrite E. lra.
    - apply (totals_unique (fs_effects fs) rank inv_share inv_ranked (fun e => Qsum (map (fun ni => invest_costs fs x (fst ni) (snd ni) e) (investments cf fs)))
        (fun e => inv_sum x e) (fun e => inv_sum xa e + inv_sum xb e)); auto.
      + intros e0 He0. destruct (ob_effect _ _ _ _ O e0 He0) as [_ [_ [E _]]]. rewrite E, inv_from_share. reflexivity.
      + intros e0 He0. destruct (ob_effect _ _ _ _ OA e0 He0) as [_ [_ [EA _]]]. destruct (ob_effect _ _ _ _ OB e0 He0) as [_ [_ [EB _]]].
        rewrite EA, EB, !inv_from_share. cbn [part fs_comps fs_effects].
        assert (C : Qsum (map (fun ni => invest_costs fs x (fst ni) (snd ni) e0) (investments cf fs))
                    == Qsum (map (fun ni => invest_costs (part fs A) xa (fst ni) (snd ni) e0) (investments cf (part fs A)))
                       + Qsum (map (fun ni => invest_costs (part fs B) xb (fst ni) (snd ni) e0) (investments cf (part fs B)))).
        { rewrite investments_in, map_app, Qsum_app. apply Qplus_comp; apply Qsum_map_eq; intros [name iv] Hi; symmetry.
          - apply (icosts_same cf (part fs A) idx x xa SPA); auto.
          - apply (icosts_same cf (part fs B) idx x xb SPB); auto. }
        rewrite C. assert (E : Qsum (map (fun e' => inv_share e' e0 * (inv_sum xa e' + inv_sum xb e')) (fs_effects fs))
          == Qsum (map (fun e' => inv_share e' e0 * inv_sum xa e') (fs_effects fs)) + Qsum (map (fun e' => inv_share e' e0 * inv_sum xb e') (fs_effects fs))).
        { rewrite <- Qsum_plus. apply Qsum_map_eq. intros e' He'. lra. }
        rewrite E. lra. }
  assert (T' : forall e, In e (fs_effects fs) -> op_sum x e == op_sum xa e + op_sum xb e).
  { intros e He. destruct (ob_effect _ _ _ _ O e He) as [_ [E _]]. destruct (ob_effect _ _ _ _ OA e He) as [_ [EA _]]. destruct (ob_effect _ _ _ _ OB e He) as [_ [EB _]].
    rewrite E, EA, EB, <- sumn_plus. apply sumn_ext. intros t Ht. apply (proj1 (T e He)). exact Ht. }
  constructor; auto.
  - intros e He. destruct (T e He) as [T1 T2]. split; [exact T1|]. split; [auto|]. split; [exact T2|].
    destruct (ob_effect _ _ _ _ O e He) as [_ [_ [_ [E _]]]]. destruct (ob_effect _ _ _ _ OA e He) as [_ [_ [_ [EA _]]]]. destruct (ob_effect _ _ _ _ OB e He) as [_ [_ [_ [EB _]]]].
    rewrite E, EA, EB, T2, (T' e He). lra.
  - rewrite (ob_penalty _ _ _ _ O bl ND U), (ob_penalty _ _ _ _ OA bla NA UA), (ob_penalty _ _ _ _ OB blb NB UB).
    assert (P : Permutation bl (bla ++ blb)).
    { apply NoDup_Permutation; [exact ND| |].
      - revert NA UA. clear -NB UB D. intros NA UA. assert (X : forall b, In b bla -> ~ In b blb) by (intros b Ha Hb; apply (in_buses _ _ _ D b b); [apply UA|apply UB|]; auto).
        clear UA. induction bla as [|a l IH]; [exact NB|]. inversion NA. cbn. constructor; [rewrite in_app_iff; intros [H'|H']; [auto|apply (X a); simpl; auto]|]. apply IH; auto. intros b Hb. apply X. simpl. auto.
      - intros b. rewrite in_app_iff, U, UA, UB. apply used_in. }
    rewrite (Qsum_perm _ _ (Permutation_map (bus_price fs idx x) P)), map_app, Qsum_app. apply Qplus_comp; apply Qsum_map_eq; intros b Hb; symmetry.
    + apply (price_same cf (part fs A) idx x xa SPA). apply UA. exact Hb.
    + apply (price_same cf (part fs B) idx x xb SPB). apply UB. exact Hb.
Qed.
End Own.
End Split.

(** ** Theorems *)

Section Theorems.
Variables (cf : config) (ord orda ordb : list nat -> list nat) (fs : flow_system) (idx : option (list nat)) (A B : list component) (pm pma pmb : pmodel).
Hypothesis PO : forall l, Permutation (ord l) l.
Hypothesis POA : forall l, Permutation (orda l) l.
Hypothesis POB : forall l, Permutation (ordb l) l.
Hypothesis BU : build cf ord fs idx = Ok pm.
Hypothesis BUA : build cf orda (part fs A) idx = Ok pma.
Hypothesis BUB : build cf ordb (part fs B) idx = Ok pmb.
Hypothesis SE : sensible cf fs idx.
Hypothesis D : separate fs A B.
Hypothesis NL : no_effect_limits fs.

Lemma sensible_part : forall cs, (forall c, In c cs -> In c (fs_comps fs)) -> sensible cf (part fs cs) idx.
Proof.
  clear - SE. intros cs I. destruct SE as [S1 S2 [S3 S3'] S4 S5 S6 S7 [S8 [S9 S10]]].
  assert (U : forall b, used_bus (part fs cs) b -> used_bus fs b) by (intros b [c [f [Hc H]]]; exists c, f; auto).
  assert (V : forall q, In q (investments cf (part fs cs)) -> In q (investments cf fs)).
  { intros q H. unfold investments in *. apply in_flat_map in H. destruct H as [c [Hc H]]. apply in_flat_map. exists c. auto. }
  constructor; auto.
  - split; [intros b b' H H'; apply S3; auto|intros b b' H H'; apply S3'; auto].
  - intros c Hc. apply S4. auto.
  - intros c f Hc Hf. apply (S5 c f); auto.
  - intros c p Hc Hp. apply (S6 c p); auto.
  - intros c st iv Hc. apply (S7 c st iv). auto.
  - split; [exact S8|]. split; [exact S9|]. intros name iv Hi. apply (S10 name iv). auto.
Qed.
Lemma sensible_left : sensible cf (part fs A) idx.
Proof. apply sensible_part. intros c Hc. apply (comps_in fs A B D). auto. Qed.
Lemma sensible_right : sensible cf (part fs B) idx.
Proof. apply sensible_part. intros c Hc. apply (comps_in fs A B D). auto. Qed.
Lemma one_step : (1 <= steps fs idx)%nat.
Proof. pose proof (se_steps _ _ _ SE). lia. Qed.
Lemma governed_whole : forall x, obeys cf fs idx x ->
  forall c rel p f, In c (fs_comps fs) -> cp_kind c = TransmissionC rel (Some p) -> In f (cp_in c) -> governed fs idx c f <> None.
Proof. intros x O. destruct (proj1 (C57_plans _ _ _ _ _ _ PO BU SE) O) as [y [_ F]]. exact (losses_governed _ _ _ _ _ _ BU F (se_shape _ _ _ SE)). Qed.
Lemma governed_parts : forall xa xb, obeys cf (part fs A) idx xa -> obeys cf (part fs B) idx xb ->
  forall c rel p f, In c (fs_comps fs) -> cp_kind c = TransmissionC rel (Some p) -> In f (cp_in c) -> governed fs idx c f <> None.
Proof.
  intros xa xb OA OB c rel p f Hc. apply (comps_in fs A B D) in Hc.
  destruct (proj1 (C57_plans _ _ _ _ _ _ POA BUA sensible_left) OA) as [y [_ F]]. destruct (proj1 (C57_plans _ _ _ _ _ _ POB BUB sensible_right) OB) as [z [_ G]].
  destruct Hc as [Hc|Hc].
  - exact (losses_governed _ _ _ _ _ _ BUA F (se_shape _ _ _ sensible_left) c rel p f Hc).
  - exact (losses_governed _ _ _ _ _ _ BUB G (se_shape _ _ _ sensible_right) c rel p f Hc).
Qed.
End Theorems.

(** Plans of the whole are joined plans of the parts. *)
Theorem C83_plans : forall cf ord orda ordb fs idx A B pm pma pmb,
  (forall l, Permutation (ord l) l) -> (forall l, Permutation (orda l) l) -> (forall l, Permutation (ordb l) l) ->
  build cf ord fs idx = Ok pm -> build cf orda (part fs A) idx = Ok pma -> build cf ordb (part fs B) idx = Ok pmb ->
  sensible cf fs idx -> separate fs A B -> no_effect_limits fs ->
  (forall x, obeys cf fs idx x <-> exists xa xb, joins cf fs idx A B x xa xb /\ obeys cf (part fs A) idx xa /\ obeys cf (part fs B) idx xb)
  /\ forall xa xb, exists x, joins cf fs idx A B x xa xb.
Proof.
  intros cf ord orda ordb fs idx A B pm pma pmb PO POA POB BU BUA BUB SE D NL.
  assert (SO : same_object fs) by apply (se_buses _ _ _ SE). pose proof (one_step cf fs idx SE) as N1. split; [|exact (can_join cf fs idx A B D)].
  intros x. split.
  - intros O. destruct (in_loops _ _ _ D) as [rank RK].
    exact (can_split cf fs idx A B D NL SO N1 (governed_whole cf ord fs idx pm PO BU SE x O) rank RK x O).
  - intros [xa [xb [J [OA OB]]]].
    apply (joined_obeys cf fs idx A B D NL SO N1 (governed_parts cf orda ordb fs idx A B pma pmb POA POB BUA BUB SE D xa xb OA OB) x xa xb J OA OB).
Qed.
Print Assumptions C83_plans.

(** The whole can be solved exactly if both parts can. *)
Theorem C83_solvable : forall cf ord orda ordb fs idx A B pm pma pmb,
  (forall l, Permutation (ord l) l) -> (forall l, Permutation (orda l) l) -> (forall l, Permutation (ordb l) l) ->
  build cf ord fs idx = Ok pm -> build cf orda (part fs A) idx = Ok pma -> build cf ordb (part fs B) idx = Ok pmb ->
  sensible cf fs idx -> separate fs A B -> no_effect_limits fs ->
  ((exists x, feasible pm x) <-> (exists x, feasible pma x) /\ exists x, feasible pmb x).
Proof.
  intros cf ord orda ordb fs idx A B pm pma pmb PO POA POB BU BUA BUB SE D NL.
  destruct (C83_plans cf ord orda ordb fs idx A B pm pma pmb PO POA POB BU BUA BUB SE D NL) as [P J].
  rewrite (proj1 (C58_solvable _ _ _ _ _ PO BU SE)), (proj1 (C58_solvable _ _ _ _ _ POA BUA (sensible_left cf fs idx A B SE D))),
    (proj1 (C58_solvable _ _ _ _ _ POB BUB (sensible_right cf fs idx A B SE D))). split.
  - intros [x O]. apply P in O. destruct O as [xa [xb [_ [OA OB]]]]. eauto.
  - intros [[xa OA] [xb OB]]. destruct (J xa xb) as [x Jx]. exists x. apply P. eauto.
Qed.
Print Assumptions C83_solvable.

(** The optimum of the whole is the sum of the optima of the parts. *)
Theorem C83_optimum : forall cf ord orda ordb fs idx A B pm pma pmb,
  (forall l, Permutation (ord l) l) -> (forall l, Permutation (orda l) l) -> (forall l, Permutation (ordb l) l) ->
  build cf ord fs idx = Ok pm -> build cf orda (part fs A) idx = Ok pma -> build cf ordb (part fs B) idx = Ok pmb ->
  sensible cf fs idx -> separate fs A B -> no_effect_limits fs ->
  forall q, least pm q <-> exists qa qb, q == qa + qb /\ least pma qa /\ least pmb qb.
Proof.
  intros cf ord orda ordb fs idx A B pm pma pmb PO POA POB BU BUA BUB SE D NL.
  destruct (C83_plans cf ord orda ordb fs idx A B pm pma pmb PO POA POB BU BUA BUB SE D NL) as [P JJ].
  destruct (C58_solvable _ _ _ _ _ PO BU SE) as [_ [e [Fe V]]]. destruct (C58_solvable _ _ _ _ _ POA BUA (sensible_left cf fs idx A B SE D)) as [_ [ea [Fa VA]]].
  destruct (C58_solvable _ _ _ _ _ POB BUB (sensible_right cf fs idx A B SE D)) as [_ [eb [Fb VB]]].
  cbn [part fs_effects] in Fa, Fb. assert (ea = e) by congruence. assert (eb = e) by congruence. subst ea eb. pose proof (find_some _ _ Fe) as [He _].
  assert (CO : forall x xa xb, joins cf fs idx A B x xa xb -> plan_cost x e == plan_cost xa e + plan_cost xb e).
  { intros x xa xb J. destruct (jo_totals _ _ _ _ _ _ _ _ J e He) as [_ [T1 [T2 _]]]. unfold plan_cost. rewrite T1, T2, (jo_penalty _ _ _ _ _ _ _ _ J). lra. }
  assert (LE : forall (m : pmodel) s, (forall q, (exists y, feasible m y /\ objective_value m y == q) <-> (exists x, obeys cf s idx x /\ plan_cost x e == q)) ->
    forall q, least m q <-> (exists x, obeys cf s idx x /\ plan_cost x e == q) /\ forall x, obeys cf s idx x -> q <= plan_cost x e).
  { clear. intros m s V q. unfold least. rewrite V. split; intros [E L]; (split; [exact E|]).
    - intros x O. destruct (proj2 (V (plan_cost x e))) as [y [F Q]]; [exists x; split; [exact O|reflexivity]|]. rewrite <- Q. auto.
    - intros y F. destruct (proj1 (V (objective_value m y))) as [x [O Q]]; [exists y; split; [exact F|reflexivity]|]. rewrite <- Q. auto. }
  intros q. rewrite (LE pm fs V q). split.
  - intros [[x [O Q]] L]. destruct (proj1 (P x) O) as [xa [xb [J [OA OB]]]]. exists (plan_cost xa e), (plan_cost xb e).
    split; [rewrite <- Q; apply CO; exact J|]. rewrite (LE pma _ VA), (LE pmb _ VB).
    assert (M : forall ya yb, obeys cf (part fs A) idx ya -> obeys cf (part fs B) idx yb -> q <= plan_cost ya e + plan_cost yb e).
    { intros ya yb HA HB. destruct (JJ ya yb) as [y Jy]. rewrite <- (CO _ _ _ Jy). apply L. apply P. eauto. }
    rewrite (CO _ _ _ J) in Q. split; (split; [eexists; split; [eassumption|reflexivity]|]); intros y Oy.
    + specialize (M y xb Oy OB). lra.
    + specialize (M xa y OA Oy). lra.
  - intros [qa [qb [Q [LA LB]]]]. apply (LE pma _ VA) in LA. apply (LE pmb _ VB) in LB. destruct LA as [[xa [OA QA]] LA]. destruct LB as [[xb [OB QB]] LB]. split.
    + destruct (JJ xa xb) as [x J]. exists x. split; [apply P; eauto|]. rewrite (CO _ _ _ J), QA, QB. lra.
    + intros x O. destruct (proj1 (P x) O) as [ya [yb [J [HA HB]]]]. rewrite (CO _ _ _ J). specialize (LA ya HA). specialize (LB yb HB). lra.
Qed.
Print Assumptions C83_optimum.

(** ** Example: a heating system and a power supply with nothing in common *)
Definition euros : effect := mkEffect 0 "costs" true true [] [] None None None None None None None None.
Definition power : bus := mkBus 7 "Power" (Some (n1 50)).
Definition wind : component := mkComponent "Wind" [] [set_eff (EVDict [(Some 1%nat, n1 (1 # 10)); (None, n1 2)]) (set_size_ (SzNum (Some 8)) (flow0 60 "P" power))] None [] Plain.
Definition load : component := mkComponent "Load" [set_size_ (SzNum (Some 10)) (set_profile (Some (na [1; 1 # 2; 1])) (flow0 61 "P" power))] [] None [] Plain.
Definition fs_two : flow_system := mkFS [0; 1; 2] 3 (NS 1) [euros; co2] ([grid; boiler; sto; demand] ++ [wind; load]).
Definition heat_side : list component := [grid; boiler; sto; demand].
Definition power_side : list component := [wind; load].
Definition xb_table : list (string * list Q) :=
[("Power_excess_input", [(2 # 1); (0 # 1); (2 # 1)]);
   ("Power_excess_output", [(0 # 1); (0 # 1); (0 # 1)]);
   ("Effects__penalty_penalty_sum", [(200 # 1)]);
   ("costs__invest_invest_sum", [(0 # 1)]);
   ("costs__operation_operation_sum", [(2121 # 50)]);
   ("costs__operation_operation_sum_TS", [(404 # 25); (101 # 10); (404 # 25)]);
   ("costs__all_all_sum", [(2121 # 50)]);
   ("CO2__invest_invest_sum", [(0 # 1)]);
   ("CO2__operation_operation_sum", [(21 # 10)]);
   ("CO2__operation_operation_sum_TS", [(4 # 5); (1 # 2); (4 # 5)]);
   ("CO2__all_all_sum", [(21 # 10)]);
   ("Effects__Power__excess_input", [(200 # 1)]);
   ("Effects__Power__excess_output", [(0 # 1)]);
   ("costs__CO2_invest", [(0 # 1)]);
   ("costs__CO2_operation", [(4 # 25); (1 # 10); (4 # 25)]);
   ("costs__Wind__P__effects_per_flow_hour", [(16 # 1); (10 # 1); (16 # 1)]);
   ("costs__operation", [(2121 # 50)]);
   ("costs__invest", [(0 # 1)]);
   ("CO2__Wind__P__effects_per_flow_hour", [(4 # 5); (1 # 2); (4 # 5)]);
   ("CO2__operation", [(21 # 10)]);
   ("CO2__invest", [(0 # 1)]);
   ("Wind__P_flow_rate", [(8 # 1); (5 # 1); (8 # 1)]);
   ("Wind__P_sumFlowHours", [(21 # 1)]);
   ("Load__P_flow_rate", [(10 # 1); (5 # 1); (10 # 1)]);
   ("Load__P_sumFlowHours", [(25 # 1)])].
Lemma power_feasible : exists pm, build default_config id_ord (part fs_two power_side) None = Ok pm /\ feasible pm (of_table xb_table).
Proof. apply run_ok. vm_compute. reflexivity. Qed.
Lemma heat_feasible : exists pm, build default_config id_ord (part fs_two heat_side) None = Ok pm /\ feasible pm x0.
Proof. apply run_ok. vm_compute. reflexivity. Qed.

(** Checking that two sides have nothing in common. *)
Definition disjoint_b (l m : list string) : bool := forallb (fun a => negb (existsb (String.eqb a) m)) l.
Fixpoint once_b (l : list string) : bool := match l with [] => true | a :: r => (negb (existsb (String.eqb a) r) && once_b r)%bool end.
Definition separate_b (fs : flow_system) (A B : list component) : bool :=
  (forallb (fun a => forallb (fun b => negb (Nat.eqb (b_id a) (b_id b))) (bus_list (part fs B))) (bus_list (part fs A))
   && disjoint_b (own_names (part fs A)) (own_names (part fs B)) && disjoint_b (own_names fs) (total_names fs) && once_b (total_names fs))%bool.
Lemma disjoint_b_ok : forall l m, disjoint_b l m = true -> forall s, In s l -> ~ In s m.
Proof.
  intros l m H s Hs Hm. unfold disjoint_b in H. rewrite forallb_forall in H. specialize (H s Hs).
  assert (T : existsb (String.eqb s) m = true) by (apply existsb_exists; exists s; split; [exact Hm|apply String.eqb_refl]). rewrite T in H. discriminate.
Qed.
Lemma once_b_ok : forall l, once_b l = true -> NoDup l.
Proof.
  induction l as [|a l IH]; intros H; constructor; cbn in H; apply andb_prop in H; destruct H as [H1 H2]; [|auto]. intros Ha.
  assert (T : existsb (String.eqb a) l = true) by (apply existsb_exists; exists a; split; [exact Ha|apply String.eqb_refl]). rewrite T in H1. discriminate.
Qed.
Lemma separate_check : forall fs A B, fs_comps fs = A ++ B -> no_loops fs -> separate_b fs A B = true -> separate fs A B.
Proof.
  intros fs A B C L H. unfold separate_b in H. apply andb_prop in H. destruct H as [H H4]. apply andb_prop in H. destruct H as [H H3]. apply andb_prop in H. destruct H as [H1 H2].
  constructor; auto.
  - intros a b Ha Hb. apply used_bus_list in Ha, Hb. rewrite forallb_forall in H1. specialize (H1 a Ha). rewrite forallb_forall in H1. specialize (H1 b Hb).
    destruct (Nat.eqb_spec (b_id a) (b_id b)); [discriminate|assumption].
  - split; [apply disjoint_b_ok; exact H2|]. split; [apply disjoint_b_ok; exact H3|]. apply once_b_ok. exact H4.
Qed.
Lemma one_loop_free : no_loops fs_two.
Proof.
  exists (fun k => match k with 0%nat => 1%nat | _ => 0%nat end). intros e He. cbn in He. destruct He as [<-|[<-|[]]]; cbn; split; intros k p H; try contradiction; destruct H as [H|[]]; injection H as <- _; auto.
Qed.
Lemma two_sensible : sensible default_config fs_two None.
Proof.
  apply sensible_check; [vm_compute; reflexivity|buses|]. intros c Hc. cbn [fs_two fs_comps app In] in Hc.
  destruct Hc as [<-|[<-|[<-|[<-|[<-|[<-|[]]]]]]]; split; try exact I; try (repeat constructor; simpl; intuition discriminate).
  exists "Storage", (set_size_ (SzNum (Some 50)) (flow0 20 "ch" heat)), (set_size_ (SzNum (Some 60)) (flow0 21 "dis" heat)), true. reflexivity.
Qed.
Lemma two_separate : separate fs_two heat_side power_side.
Proof. apply separate_check; [reflexivity|exact one_loop_free|vm_compute; reflexivity]. Qed.
Lemma two_unlimited : no_effect_limits fs_two.
Proof. intros e He. cbn in He. destruct He as [<-|[<-|[]]]; unfold unlimited; cbn; auto 10. Qed.
Example C83_applies : exists pm pma pmb, build default_config id_ord fs_two None = Ok pm /\ build default_config id_ord (part fs_two heat_side) None = Ok pma
  /\ build default_config id_ord (part fs_two power_side) None = Ok pmb /\ sensible default_config fs_two None /\ separate fs_two heat_side power_side /\ no_effect_limits fs_two
  /\ (exists x, feasible pma x) /\ (exists x, feasible pmb x) /\ exists x, feasible pm x.
Proof.
  destruct heat_feasible as [pma [BA FA]]. destruct power_feasible as [pmb [BB FB]]. destruct (build default_config id_ord fs_two None) as [pm|] eqn:BU.
  2:{ exfalso. apply (f_equal (fun r => match r with Ok _ => true | Err _ => false end)) in BU. vm_compute in BU. discriminate. }
  pose proof two_sensible as SE. pose proof two_separate as SP. pose proof two_unlimited as NL.
  exists pm, pma, pmb. do 6 (split; [first [reflexivity | assumption]|]). split; [exists x0; exact FA|]. split; [eexists; exact FB|].
  apply (C83_solvable default_config id_ord id_ord id_ord fs_two None heat_side power_side pm pma pmb id_ord_perm id_ord_perm id_ord_perm BU BA BB SE SP NL).
  split; [exists x0; exact FA|eexists; exact FB].
Qed.

(** ** With a limit on an effect the parts are no longer independent: together they have to keep it. *)
Definition C83_even_with_limits : Prop := forall cf ord orda ordb fs idx A B pm pma pmb,
  (forall l, Permutation (ord l) l) -> (forall l, Permutation (orda l) l) -> (forall l, Permutation (ordb l) l) ->
  build cf ord fs idx = Ok pm -> build cf orda (part fs A) idx = Ok pma -> build cf ordb (part fs B) idx = Ok pmb ->
  sensible cf fs idx -> separate fs A B ->
  ((exists x, feasible pm x) <-> (exists x, feasible pma x) /\ exists x, feasible pmb x).
Definition capped : effect := mkEffect 0 "costs" true true [] [] None None None None None None None (Some 3).
Definition park (i : nat) (lab buslab : string) : component :=
  mkComponent lab [] [set_eff (EVOne (n1 1)) (set_size_ (SzNum (Some 1)) (set_profile (Some (n1 1)) (flow0 i "P" (mkBus i buslab (Some (n1 1))))))] None [] Plain.
Definition fs_capped : flow_system := mkFS [0; 1] 2 (NS 1) [capped] ([park 70 "North" "BusN"] ++ [park 71 "South" "BusS"]).
Definition north_table : list (string * list Q) :=
[("BusN_excess_input", [(0 # 1); (0 # 1)]);
   ("BusN_excess_output", [(1 # 1); (1 # 1)]);
   ("Effects__penalty_penalty_sum", [(2 # 1)]);
   ("costs__invest_invest_sum", [(0 # 1)]);
   ("costs__operation_operation_sum", [(2 # 1)]);
   ("costs__operation_operation_sum_TS", [(1 # 1); (1 # 1)]);
   ("costs__all_all_sum", [(2 # 1)]);
   ("Effects__BusN__excess_input", [(0 # 1)]);
   ("Effects__BusN__excess_output", [(2 # 1)]);
   ("costs__North__P__effects_per_flow_hour", [(1 # 1); (1 # 1)]);
   ("costs__operation", [(2 # 1)]);
   ("costs__invest", [(0 # 1)]);
   ("North__P_flow_rate", [(1 # 1); (1 # 1)]);
   ("North__P_sumFlowHours", [(2 # 1)])].
Definition south_table : list (string * list Q) :=
[("BusS_excess_input", [(0 # 1); (0 # 1)]);
   ("BusS_excess_output", [(1 # 1); (1 # 1)]);
   ("Effects__penalty_penalty_sum", [(2 # 1)]);
   ("costs__invest_invest_sum", [(0 # 1)]);
   ("costs__operation_operation_sum", [(2 # 1)]);
   ("costs__operation_operation_sum_TS", [(1 # 1); (1 # 1)]);
   ("costs__all_all_sum", [(2 # 1)]);
   ("Effects__BusS__excess_input", [(0 # 1)]);
   ("Effects__BusS__excess_output", [(2 # 1)]);
   ("costs__South__P__effects_per_flow_hour", [(1 # 1); (1 # 1)]);
   ("costs__operation", [(2 # 1)]);
   ("costs__invest", [(0 # 1)]);
   ("South__P_flow_rate", [(1 # 1); (1 # 1)]);
   ("South__P_sumFlowHours", [(2 # 1)])].
Lemma north_feasible : exists pm, build default_config id_ord (part fs_capped [park 70 "North" "BusN"]) None = Ok pm /\ feasible pm (of_table north_table).
Proof. apply run_ok. vm_compute. reflexivity. Qed.
Lemma south_feasible : exists pm, build default_config id_ord (part fs_capped [park 71 "South" "BusS"]) None = Ok pm /\ feasible pm (of_table south_table).
Proof. apply run_ok. vm_compute. reflexivity. Qed.
Lemma capped_sensible : sensible default_config fs_capped None.
Proof.
  apply sensible_check; [vm_compute; reflexivity|buses|]. intros c Hc. cbn [fs_capped fs_comps app In] in Hc.
  destruct Hc as [<-|[<-|[]]]; split; try exact I; try (repeat constructor; simpl; intuition discriminate).
Qed.
Lemma capped_separate : separate fs_capped [park 70 "North" "BusN"] [park 71 "South" "BusS"].
Proof.
  apply separate_check; [reflexivity| |vm_compute; reflexivity]. exists (fun k => k). intros e He. cbn in He. destruct He as [<-|[]]; cbn; split; contradiction.
Qed.
Lemma capped_built : exists pm, build default_config id_ord fs_capped None = Ok pm.
Proof. vm_compute. eexists. reflexivity. Qed.
Theorem C83_limits_matter : ~ C83_even_with_limits.
Proof.
  intros H. destruct capped_built as [pm BU]. destruct north_feasible as [pma [BA FA]]. destruct south_feasible as [pmb [BB FB]].
  destruct (proj2 (H default_config id_ord id_ord id_ord fs_capped None _ _ pm pma pmb id_ord_perm id_ord_perm id_ord_perm BU BA BB capped_sensible capped_separate)) as [x F].
  { split; eexists; [exact FA|exact FB]. }
  assert (E : In capped (fs_effects fs_capped)) by (simpl; auto).
  destruct (C19_operation _ _ _ _ _ _ capped BU F E) as [OP SU]. destruct (C22_limits _ _ _ _ _ _ capped BU F E) as [_ [_ [_ [_ [_ [_ [MX _]]]]]]].
  assert (IV : inv_sum x capped == 0).
  { rewrite (C20_investment _ _ _ _ _ _ capped BU F E); [vm_compute; reflexivity| | |]; apply (se_effects _ _ _ capped_sensible). }
  assert (R : forall c t, In c (fs_comps fs_capped) -> (t < 2)%nat -> forall f, In f (cp_flows c) -> rate_of x c f t == 1).
  { intros c t Hc Ht f Hf. assert (E1 : governed fs_capped None c f = None /\ f_profile f = Some (n1 1) /\ size_of default_config x c f == 1).
    { cbn in Hc. destruct Hc as [<-|[<-|[]]]; cbn in Hf; destruct Hf as [<-|[]]; repeat split; vm_compute; reflexivity. }
    destruct E1 as [G [P S]]. rewrite (C10_fixed_profile _ _ _ _ _ _ c f (n1 1) t BU F ltac:(vm_compute; discriminate) Hc Hf G P Ht), S. vm_compute. reflexivity. }
  assert (T : forall t, (t < 2)%nat -> op_at x capped t == 2).
  { intros t Ht. rewrite (OP t Ht). cbn [fs_capped fs_comps app map].
    pose proof (R (park 70 "North" "BusN") t ltac:(simpl; auto) Ht _ (or_introl eq_refl)) as R1. pose proof (R (park 71 "South" "BusS") t ltac:(simpl; auto) Ht _ (or_introl eq_refl)) as R2.
    assert (Z : op_from_effects fs_capped None x capped t == 0) by reflexivity. rewrite Z.
    assert (K : forall c f, In c (fs_comps fs_capped) -> cp_flows c = [f] -> comp_costs fs_capped None x c capped t == rate_of x c f t * hours fs_capped None t).
    { intros c f Hc Hf. unfold comp_costs, flow_costs. rewrite Hf. cbn in Hc. destruct Hc as [<-|[<-|[]]]; cbn in Hf; injection Hf as <-; cbn [map Qsum fold_right];
        (replace (governed fs_capped None _ _) with (@None onoff) by reflexivity); cbn [cp_onoff park]; unfold cost; cbn; lra. }
    rewrite !Qsum_cons. rewrite (K _ _ (or_introl eq_refl) eq_refl), (K _ _ (or_intror (or_introl eq_refl)) eq_refl), R1, R2.
    assert (HT : hours fs_capped None t == 1) by (destruct t as [|[|t]]; [reflexivity|reflexivity|lia]). rewrite HT. vm_compute. reflexivity. }
  assert (SUM : op_sum x capped == 4).
  { rewrite SU. change (steps fs_capped None) with 2%nat. rewrite (sumn_ext 2 _ (fun _ => 2) T). vm_compute. reflexivity. }
  specialize (MX 3 eq_refl). rewrite IV, SUM in MX. vm_compute in MX. apply MX. reflexivity.
Qed.
Print Assumptions C83_limits_matter.
