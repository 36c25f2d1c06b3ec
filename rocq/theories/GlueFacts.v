(** Putting together points that satisfy parts of a program: what a model demands depends only on the variables it declares
    and the variables its equations use. *)
From Coq Require Import String.
From Verif Require Import Base BaseFacts MathModel Spec MathFacts Structure StructureFacts Params Features Elements System SysSpec
  CtxFacts ReadTools InvestFacts ClosedFacts PropsClosed.

(** [y] has the values of [x] for the variable [v]. *)
Definition agree (x y : asg) (v : variable) : Prop := forall i, (i < v_len v)%nat -> y (v_label v) i == x (v_label v) i.

Lemma agree_refl : forall x v, agree x x v.
Proof. intros x v i _. reflexivity. Qed.
Lemma agree_eq : forall x y v, y (v_label v) = x (v_label v) -> agree x y v.
Proof. intros x y v E i _. rewrite E. reflexivity. Qed.

Lemma entry_ok_eq : forall e a b, a == b -> entry_ok e a -> entry_ok e b.
Proof.
  intros e a b E. unfold entry_ok. destruct (pe_fix e); [rewrite E; auto|]. intros [X [Y Z]]. repeat split.
  - intros K. destruct (X K) as [X'|X']; rewrite E in X'; auto.
  - intros l L. rewrite <- E. auto.
  - intros l L. rewrite <- E. auto.
Qed.
Lemma var_sat_agree : forall x y v, agree x y v -> var_sat x v -> var_sat y v.
Proof.
  intros x y v A [p [T K]]. exists p. split; auto. destruct (translate_variable_spec _ _ T) as [L E]. intros i e He.
  apply entry_ok_eq with (x (pv_label p) i); [|apply K; auto]. rewrite L. symmetry. apply A.
  rewrite E in He.
  assert (Hi : (i < length (map (entry_of v) (seq 0 (v_len v))))%nat) by (apply nth_error_Some; congruence).
  rewrite map_length, seq_length in Hi. exact Hi.
Qed.
Lemma con_sat_agree : forall x y c, (forall v, In v (uses c) -> agree x y v) -> con_sat x c -> con_sat y c.
Proof.
  intros x y c A [rows [T K]]. exists rows. split; auto. rewrite Forall_forall in *. intros r Hr. specialize (K r Hr).
  assert (L : lin y (r_terms r) == lin x (r_terms r)).
  { unfold translate_constraint in T. bnd T cv Ecv. destruct (mapM_In_inv _ _ _ _ T Hr) as [i [_ E]]. bnd E ts E1. bnd E q E2. bnd E ne E3. apply Ok_inj in E. subst r.
    cbn [r_terms]. assert (D : forall q l j, In (q, l, j) ts -> y l j == x l j).
    { intros q' l j Hj. destruct (lhs_declared _ _ _ _ _ _ E1 Hj) as [v [Hv [-> Lj]]]. apply A; auto. }
    clear - D. unfold lin. induction ts as [|[[q l] i] ts IH]; [reflexivity|]. cbn [map]. rewrite !Qsum_cons.
    rewrite IH by (intros; eapply D; right; eauto). rewrite (D q l i) by (left; auto). reflexivity. }
  unfold row_ok in *. destruct (r_eq r); rewrite L; auto.
Qed.
Lemma em_sat_agree : forall x y m D, closedT D m -> (forall v, In v (decl m) \/ In v D -> agree x y v) -> em_sat x m -> em_sat y m.
Proof.
  intros x y m D C A S m' Hm. destruct (S m' Hm) as [V K]. rewrite Forall_forall in V, K. split; apply Forall_forall.
  - intros v Hv. apply var_sat_agree with x; auto. apply A. left. unfold decl. apply in_flat_map. eauto.
  - intros c Hc. apply con_sat_agree with x; auto. intros v Hv. apply A. right. exact (C m' Hm c Hc v Hv).
Qed.

(** A part of a program: its model, the variables it uses from elsewhere, the variables others may use. *)
Record piece : Type := mkPiece { pc_tree : emodel; pc_uses : list variable; pc_shows : list variable }.

(** [x] can be completed to a point that satisfies the piece, without touching what it uses and what it shows. *)
Definition completes (x : asg) (p : piece) : Prop :=
  exists w, em_sat w (pc_tree p) /\ forall v, In v (pc_uses p) \/ In v (pc_shows p) -> agree x w v.

Definition labels_of (m : emodel) : list string := map v_label (decl m).

Lemma labels_flat : forall ps, map v_label (flat_map decl (map pc_tree ps)) = flat_map (fun p => labels_of (pc_tree p)) ps.
Proof. induction ps as [|p ps IH]; [reflexivity|]. cbn [map flat_map]. rewrite map_app, IH. reflexivity. Qed.

Lemma NoDup_app_parts : forall {A} (a b : list A), NoDup (a ++ b) -> NoDup b /\ forall z, In z a -> ~ In z b.
Proof.
  induction a as [|c a IH]; intros b H; [split; auto|]. simpl in H. inversion H as [|? ? N N']; subst. destruct (IH b N') as [I1 I2].
  split; auto. intros z [<-|Hz]; auto. intros Z. apply N. apply in_or_app. auto.
Qed.

Lemma glue_gen : forall x ps, NoDup (map v_label (flat_map decl (map pc_tree ps))) ->
  (forall p, In p ps -> completes x p) ->
  exists y, (forall l, ~ In l (map v_label (flat_map decl (map pc_tree ps))) -> y l = x l)
    /\ forall p, In p ps -> exists w, em_sat w (pc_tree p) /\ (forall v, In v (pc_uses p) \/ In v (pc_shows p) -> agree x w v)
         /\ forall l, In l (labels_of (pc_tree p)) -> y l = w l.
Proof.
  intros x ps. induction ps as [|p ps IH]; intros N C; [exists x; split; [auto|intros p []]|].
  cbn [map flat_map] in N. rewrite map_app in N. destruct (NoDup_app_parts _ _ N) as [N1 N2].
  destruct (IH N1 (fun q Hq => C q (or_intror Hq))) as [y [Y1 Y2]]. destruct (C p (or_introl eq_refl)) as [w [W1 W2]].
  exists (fun l => if in_dec string_dec l (labels_of (pc_tree p)) then w l else y l). split.
  - intros l Hl. cbn [map flat_map] in Hl. rewrite map_app, in_app_iff in Hl. destruct (in_dec _ _ _) as [I|I]; [destruct Hl; left; exact I|].
    apply Y1. intros Z. apply Hl. right. exact Z.
  - intros q [<-|Hq].
    + exists w. split; auto. split; auto. intros l Hl. destruct (in_dec _ _ _); [reflexivity|contradiction].
    + destruct (Y2 q Hq) as [w' [A1 [A2 A3]]]. exists w'. split; auto. split; auto. intros l Hl. destruct (in_dec _ _ _) as [I|I]; [|auto].
      exfalso. apply (N2 l I). rewrite labels_flat. apply in_flat_map. eauto.
Qed.

Lemma glue : forall x ps, NoDup (map v_label (flat_map decl (map pc_tree ps))) ->
  (forall p, In p ps -> completes x p) ->
  (forall p, In p ps -> incl (pc_shows p) (decl (pc_tree p))) ->
  (forall p, In p ps -> closedT (decl (pc_tree p) ++ pc_uses p) (pc_tree p)) ->
  (forall p v, In p ps -> In v (pc_uses p) -> exists q, In q ps /\ In v (pc_shows q)) ->
  exists y, (forall p v, In p ps -> In v (pc_shows p) -> agree x y v) /\ forall p, In p ps -> em_sat y (pc_tree p).
Proof.
  intros x ps N C S K U. destruct (glue_gen x ps N C) as [y [_ Y]]. exists y.
  assert (A : forall p v, In p ps -> In v (pc_shows p) -> agree x y v).
  { intros p v Hp Hv. destruct (Y p Hp) as [w [W1 [W2 W3]]]. intros i Hi. rewrite W3; [apply (W2 v (or_intror Hv) i Hi)|].
    apply in_map. apply (S p Hp v Hv). }
  split; auto. intros p Hp. destruct (Y p Hp) as [w [W1 [W2 W3]]].
  assert (B : forall v, In v (decl (pc_tree p)) -> agree w y v) by (intros v Hv; apply agree_eq; apply W3; apply in_map; auto).
  apply em_sat_agree with w (decl (pc_tree p) ++ pc_uses p); auto. intros v [Hv|Hv]; auto.
  apply in_app_iff in Hv. destruct Hv as [Hv|Hv]; auto. destruct (U p v Hp Hv) as [q [Hq Hs]]. intros i Hi.
  rewrite (A q v Hq Hs i Hi). symmetry. apply (W2 v (or_introl Hv) i Hi).
Qed.

(** The labels of the variables of a translated program are distinct. *)
Lemma roots_nodup : forall ds obj pm, system_translate ds obj = Ok pm -> NoDup (map v_label (flat_map decl ds)).
Proof.
  intros ds obj pm H. unfold system_translate in H. bnd H vs E1. destruct (system_translate_vars _ _ E1) as [N P].
  apply Permutation_map with (f := v_label) in P. apply (Permutation_NoDup P) in N.
  assert (E : flat_map decl ds = flat_map em_vars (flat_map flat ds)).
  { unfold decl. clear. induction ds as [|d ds IH]; [reflexivity|]. cbn [flat_map]. rewrite flat_map_app, IH. reflexivity. }
  rewrite E. exact N.
Qed.
