(** Which flows can be made (C106). *)
From Coq Require Import Qabs Lqa Lia.
From Verif Require Import Base BaseFacts MathModel Params Features Elements FlowInit Example.

(** ** Specification *)

(** Data for [n] steps: a number for all of them, or one for each. *)
Definition for_steps (n : nat) (a : numeric) : Prop := match a with NS _ => True | NV l => length l = n end.
Definition at_step (a : numeric) (t : nat) : Q := match a with NS q => q | NV l => nth t l 0 end.
(** Limits of a flow over [n] steps, given in any of the documented ways; the minimum is never above the maximum. *)
Definition limits_fit (n : nat) (f : flow) : Prop := for_steps n (pdata (f_relmin f)) /\ for_steps n (pdata (f_relmax f)).
Definition limits_agree (n : nat) (f : flow) : Prop := forall t, (t < n)%nat -> at_step (pdata (f_relmin f)) t <= at_step (pdata (f_relmax f)) t.
Definition plain (p : param) : Prop := match p with PNum _ => True | PTsd _ _ _ => False end.
(** No size was given (or 0, or the number that stands for none). *)
Definition without_size (big : Q) (f : flow) : Prop :=
  match f_size f with SzNum None => True | SzNum (Some q) => q == 0 \/ q == big | SzInv _ => False end.

(** What the checks are for: a flow can be made exactly if the limits agree. *)
Definition accepted_exactly : Prop := forall big n f, (0 < n)%nat -> 0 < big -> limits_fit n f -> (new_flow big f = Ok f <-> limits_agree n f).
(** The same without TimeSeriesData as limits. *)
Definition accepted_exactly_plain : Prop :=
  forall big n f, (0 < n)%nat -> 0 < big -> limits_fit n f -> plain (f_relmin f) -> plain (f_relmax f) -> (new_flow big f = Ok f <-> limits_agree n f).

(** ** Comparing *)
Lemma any_nth : forall (P : Q -> bool) l, existsb P l = true <-> exists t, (t < length l)%nat /\ P (nth t l 0) = true.
Proof.
  intros P l. rewrite existsb_exists. split.
  - intros [x [H E]]. apply (In_nth _ _ 0) in H. destruct H as [t [T N]]. exists t. rewrite N. auto.
  - intros [t [T E]]. exists (nth t l 0). split; [apply nth_In; exact T|exact E].
Qed.
Lemma map2_nth : forall (f : Q -> Q -> Q) l m t, length l = length m -> (t < length l)%nat -> nth t (map2 f l m) 0 = f (nth t l 0) (nth t m 0).
Proof.
  intros f. induction l as [|x l IH]; intros [|y m] t L T; cbn [length] in *; try lia. destruct t as [|t]; [reflexivity|]. cbn [map2 nth]. apply IH; lia.
Qed.
Lemma map2_len : forall (f : Q -> Q -> Q) l m, length l = length m -> length (map2 f l m) = length l.
Proof. intros f. induction l as [|x l IH]; intros [|y m] L; cbn [length map2] in *; try lia. rewrite IH; lia. Qed.
Lemma map_nth_lt : forall (f : Q -> Q) l t, (t < length l)%nat -> nth t (map f l) 0 = f (nth t l 0).
Proof. intros f. induction l as [|x l IH]; intros [|t] T; cbn [length map nth] in *; try lia; [reflexivity|]. apply IH. lia. Qed.
Lemma gt_spec : forall n a b, (0 < n)%nat -> for_steps n a -> for_steps n b ->
  exists g, nany_gt a b = Ok g /\ (g = true <-> exists t, (t < n)%nat /\ at_step b t < at_step a t).
Proof.
  intros n a b P A B. unfold nany_gt.
  assert (C : forall x y, Qeq_bool (if Qle_bool x y then 0 else 1) 1 = true <-> y < x).
  { intros x y. destruct (Qle_bool x y) eqn:E; cbn; [apply Qle_bool_iff in E; split; [discriminate|lra]|]. split; [|reflexivity]. intros _. apply Qnot_le_lt. intros Z. apply Qle_bool_iff in Z. congruence. }
  destruct a as [x|l], b as [y|m]; cbn [for_steps] in A, B; cbn [bcast2 at_step].
  - eexists. split; [reflexivity|]. cbn [nlist existsb]. rewrite Bool.orb_false_r, C. split; [intros H; exists 0%nat; auto|intros [t [_ H]]; exact H].
  - eexists. split; [reflexivity|]. cbn [nlist]. rewrite any_nth, map_length, B. split; intros [t [T H]]; exists t; (split; [exact T|]);
      [rewrite map_nth_lt in H by lia; apply C; exact H|rewrite map_nth_lt by lia; apply C; exact H].
  - eexists. split; [reflexivity|]. cbn [nlist]. rewrite any_nth, map_length, A. split; intros [t [T H]]; exists t; (split; [exact T|]);
      [rewrite map_nth_lt in H by lia; apply C; exact H|rewrite map_nth_lt by lia; apply C; exact H].
  - rewrite A, B, Nat.eqb_refl. cbn [bind]. eexists. split; [reflexivity|]. cbn [nlist]. rewrite any_nth, map2_len by congruence. rewrite A.
    split; intros [t [T H]]; exists t; (split; [exact T|]); [rewrite map2_nth in H by congruence; apply C; exact H|rewrite map2_nth by congruence; apply C; exact H].
Qed.
Lemma big_spec : forall big f, 0 < big -> (size_is_big big (f_size f) = true <-> without_size big f).
Proof.
  intros big f P. unfold size_is_big, without_size. destruct (f_size f) as [[q|]|i]; [| |split; [discriminate|intros []]].
  - unfold or_num, truthy. destruct (Qeq_bool q 0) eqn:E; cbn.
    + apply Qeq_bool_iff in E. split; [auto|]. intros _. apply Qeq_bool_iff. reflexivity.
    + apply Qeq_bool_neq in E. rewrite Qeq_bool_iff. split; [auto|]. intros [H | H]; [contradiction|exact H].
  - cbn. split; [auto|]. intros _. apply Qeq_bool_iff. reflexivity.
Qed.

(** ** C106 *)

(** A minimum above the maximum at some step is refused, whatever else is given. *)
Theorem C106_refused : forall big n f, (0 < n)%nat -> limits_fit n f -> plain (f_relmin f) -> plain (f_relmax f) -> ~ limits_agree n f -> new_flow big f = Err PyException.
Proof.
  intros big n f P [A B] Pa Pb D. unfold new_flow, flow_check. destruct (f_relmin f) as [a|] eqn:Ea; [|destruct Pa]. destruct (f_relmax f) as [b|] eqn:Eb; [|destruct Pb]. cbn [pdata] in *.
  destruct (gt_spec n a b P A B) as [g [G S0]]. rewrite G. cbn [bind]. destruct g; [reflexivity|]. exfalso. apply D. intros t T. rewrite Ea, Eb. cbn [pdata].
  apply Qnot_lt_le. intros L. assert (false = true) by (apply S0; exists t; auto). discriminate.
Qed.
Print Assumptions C106_refused.

(** Otherwise the flow is made if it has no fixed profile or a size. *)
Theorem C106_accepted_partial : forall big n f, (0 < n)%nat -> 0 < big -> limits_fit n f -> plain (f_relmin f) -> plain (f_relmax f) -> f_profile f = None \/ ~ without_size big f ->
  (new_flow big f = Ok f <-> limits_agree n f).
Proof.
  intros big n f P PB [A B] Pa Pb W. unfold new_flow, flow_check, limits_agree. destruct (f_relmin f) as [a|] eqn:Ea; [|destruct Pa]. destruct (f_relmax f) as [b|] eqn:Eb; [|destruct Pb]. cbn [pdata] in *.
  destruct (gt_spec n a b P A B) as [g [G S0]]. rewrite G. cbn [bind].
  assert (Z : (size_is_big big (f_size f) && match f_profile f with Some _ => true | None => false end)%bool = false).
  { destruct W as [-> | W]; [apply Bool.andb_false_r|]. destruct (size_is_big big (f_size f)) eqn:E; [|reflexivity]. exfalso. apply W. apply big_spec; assumption. }
  destruct g; cbn [bind].
  - split; [discriminate|]. intros H. destruct (proj1 S0 eq_refl) as [t [T L]]. specialize (H t T). lra.
  - rewrite Z. cbn [bind]. split; [|reflexivity]. intros _ t T. apply Qnot_lt_le. intros L. assert (false = true) by (apply S0; exists t; auto). discriminate.
Qed.
Print Assumptions C106_accepted_partial.

(** A flow with a fixed profile and no size cannot be made: the warning about it fails. *)
Theorem C106_profile : forall big n f, (0 < n)%nat -> 0 < big -> limits_fit n f -> plain (f_relmin f) -> plain (f_relmax f) -> limits_agree n f -> f_profile f <> None -> without_size big f ->
  new_flow big f = Err AttributeError.
Proof.
  intros big n f P PB [A B] Pa Pb LA PR W. unfold new_flow, flow_check. unfold limits_agree in LA. destruct (f_relmin f) as [a|] eqn:Ea; [|destruct Pa]. destruct (f_relmax f) as [b|] eqn:Eb; [|destruct Pb].
  cbn [pdata] in *. destruct (gt_spec n a b P A B) as [g [G S0]]. rewrite G. cbn [bind]. destruct g.
  - exfalso. destruct (proj1 S0 eq_refl) as [t [T L]]. specialize (LA t T). lra.
  - cbn [bind]. apply (big_spec big f PB) in W. rewrite W. destruct (f_profile f); [reflexivity|congruence].
Qed.
Print Assumptions C106_profile.

Definition load : flow := set_profile (Some (PNum (NV [1; 2; 3]))) (flow0 1 "load" heat).
Definition banded : flow := set_rel (PTsd (NV [0; 0; 0]) None None) (PNum (NS 1)) (fl 1 "banded" heat 10).
Lemma load_limits : limits_fit 3 load /\ limits_agree 3 load.
Proof. split; [split; exact Logic.I|]. intros t _. cbn. lra. Qed.
Theorem C106_plain_refuted : ~ accepted_exactly_plain.
Proof.
  intros R. destruct load_limits as [A B]. assert (X : new_flow 10000000 load = Ok load) by (apply (R 10000000 3%nat load); [lia|lra|exact A|exact Logic.I|exact Logic.I|exact B]). vm_compute in X. discriminate.
Qed.
Print Assumptions C106_plain_refuted.
(** Limits given as TimeSeriesData cannot be compared. *)
Theorem C106_refuted : ~ accepted_exactly.
Proof.
  intros R. assert (X : new_flow 10000000 banded = Ok banded).
  { apply (R 10000000 3%nat banded); [lia|lra|split; [reflexivity|exact Logic.I]|]. intros t T. cbn. destruct t as [|[|[|t]]]; [lra|lra|lra|lia]. }
  vm_compute in X. discriminate.
Qed.
Print Assumptions C106_refuted.

(** The hypotheses are met: a flow with limits for three steps, one with a profile and a size, one with limits the wrong way round at the last step, and the load above. *)
Definition limited : flow := set_rel (PNum (NV [0; 1 # 2; 1])) (PNum (NS 1)) (fl 1 "limited" heat 10).
Definition turned : flow := set_rel (PNum (NV [0; 1 # 2; 1])) (PNum (NV [1; 1; 1 # 2])) (fl 1 "turned" heat 10).
Example C106_applies : (limits_fit 3 limited /\ limits_agree 3 limited /\ new_flow 10000000 limited = Ok limited)
  /\ (let f := set_size_ (SzNum (Some 1)) load in limits_fit 3 f /\ limits_agree 3 f /\ ~ without_size 10000000 f /\ new_flow 10000000 f = Ok f)
  /\ (limits_fit 3 turned /\ ~ limits_agree 3 turned /\ new_flow 10000000 turned = Err PyException)
  /\ (without_size 10000000 load /\ f_profile load <> None).
Proof.
  split; [|split; [|split]].
  - split; [split; [reflexivity|exact Logic.I]|]. split; [|reflexivity]. intros t T. cbn. destruct t as [|[|[|t]]]; [lra|lra|lra|lia].
  - split; [split; exact Logic.I|]. split; [intros t _; cbn; lra|]. split; [|reflexivity]. cbn. intros [H | H]; lra.
  - split; [split; reflexivity|]. split; [|reflexivity]. intros H. specialize (H 2%nat ltac:(lia)). cbn in H. lra.
  - split; [exact Logic.I|discriminate].
Qed.
