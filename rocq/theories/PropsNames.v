(** Names of flows (C103): no two flows of an accepted system have the same full name; labels with reserved characters are
    only complained about. *)
From Coq Require Import Ascii String Permutation Qabs Lqa Lia.
From Verif Require Import Base BaseFacts MathModel Spec Structure StructureFacts Params Features Elements Library System SysSpec Tree ReadTools
  ClosedFacts FlowFacts PropsRepeat PropsStructure PropsTree Example PropsTotal ExamplePoints.

(** ** Model *)

(** structure.py 338-352 [Element.__init__]: the label kept and the number of critical messages logged. The text of the
    message is left out. *)
Definition element_init (label : string) : res (string * nat) := Ok (label, if label_is_valid label then 0%nat else 1%nat).

(** ** Specification *)

(** The full names of all flows, in the order in which the components were added. *)
Definition full_names (fs : flow_system) : list string := map (fun cf => flow_name (fst cf) (snd cf)) (all_flows fs).
(** No label of a component or a flow begins or ends with an underscore or has two in a row. *)
Definition proper_labels (fs : flow_system) : Prop :=
  forall c f, In (c, f) (all_flows fs) -> label_is_valid (cp_label c) = true /\ label_is_valid (f_lab f) = true.
(** Labels that are distinct where the user sees them: no two components with one label, no two flows of a component. *)
Definition distinct_labels (fs : flow_system) : Prop :=
  NoDup (map cp_label (fs_comps fs)) /\ forall c, In c (fs_comps fs) -> NoDup (map f_lab (cp_flows c)).

(** The claims one would expect of the message "cannot be used as a label": no element and no system with such a label. *)
Definition element_refused : Prop := forall l r, element_init l = Ok r -> label_is_valid l = true.
Definition system_refused : Prop := forall cf ord fs idx pm, build cf ord fs idx = Ok pm -> proper_labels fs.
(** And of the names of flows. *)
Definition distinct_suffice : Prop := forall fs, distinct_labels fs -> NoDup (full_names fs).

(** ** Parts of lists *)
Definition part {A} (a b : list A) : Prop := exists r, Permutation b (a ++ r).
Lemma part_nil : forall {A} (b : list A), part [] b. Proof. intros A b. exists b. apply Permutation_refl. Qed.
Lemma part_app : forall {A} (a b a' b' : list A), part a b -> part a' b' -> part (a ++ a') (b ++ b').
Proof.
  intros A a b a' b' [r R] [r' R']. exists (r ++ r')%list. rewrite R, R'. rewrite <- !app_assoc. apply Permutation_app_head.
  rewrite !app_assoc. apply Permutation_app_tail, Permutation_app_comm.
Qed.
Lemma part_after : forall {A} (x a b : list A), part a b -> part a (x ++ b).
Proof. intros A x a b H. exact (part_app [] x a b (part_nil x) H). Qed.
Lemma part_before : forall {A} (x a b : list A), part a b -> part a (b ++ x).
Proof. intros A x a b H. rewrite <- (app_nil_r a). exact (part_app a b [] x H (part_nil x)). Qed.
Lemma part_flat : forall {A B C} (f : A -> list C) (g : B -> list C) l l', Forall2 (fun x y => part (f x) (g y)) l l' -> part (flat_map f l) (flat_map g l').
Proof. intros A B C f g l l' H. induction H as [|x y l l' P H IH]; [apply part_nil|]. cbn [flat_map]. exact (part_app _ _ _ _ P IH). Qed.
Lemma part_nodup : forall {A} (a b : list A), part a b -> NoDup b -> NoDup a.
Proof.
  intros A a b [r R] N. apply (Permutation_NoDup R) in N. clear R. induction a as [|x a IH]; [constructor|]. inversion N as [|? ? N1 N2]; subst.
  constructor; [|exact (IH N2)]. intros C. apply N1, in_or_app. auto.
Qed.

(** ** The rates among the declared variables *)
Definition vnames (m : emodel) : list string := map v_label (decl m).
Lemma flow_part : forall cx tr comp f o, flow_model cx tr comp f = Ok o -> part [vlabel (flow_full comp (f_lab f)) "flow_rate"] (vnames (fo_tree o)).
Proof.
  intros cx tr comp f o H. unfold flow_model in H. cbv zeta in H. bnd H rl E1. bnd H ab E2. bnd H v E3. bnd H ooo E4. bnd H io E5. bnd H sfh E6.
  bnd H cs E7. bnd H clf E8. bnd H s E9. bnd H m E10. apply Ok_inj in H. subst o. cbn [fo_tree]. apply mk_em_spec in E10. destruct E10 as [-> _].
  unfold vnames. rewrite decl_EM. cbn [app map]. rewrite (create_variable_spec _ _ _ _ _ _ _ _ _ E3) at 1. cbn [v_label].
  eexists. cbn [app]. apply Permutation_refl.
Qed.
Lemma comp_part : forall cx trf trc c o, comp_model cx trf trc c = Ok o ->
  part (map (fun f => vlabel (flow_name c f) "flow_rate") (cp_flows c)) (vnames (co_tree o)).
Proof.
  intros cx trf trc c0 o H. unfold comp_model in H. cbv zeta in H. bnd H c E1. bnd H b E2. bnd H so E3. bnd H m E4. apply Ok_inj in H. subst o.
  cbn [co_tree]. apply mk_em_spec in E4. destruct E4 as [-> _]. unfold vnames. rewrite decl_EM, map_app. apply part_after.
  rewrite flat_map_app, map_app. apply part_before. clear E3.
  destruct (prepared_shape _ _ _ _ E1) as [K [L _]].
  assert (EQ : map (fun f => vlabel (flow_name c0 f) "flow_rate") (cp_flows c0) = map (fun f => vlabel (flow_full (cp_label c) (f_lab f)) "flow_rate") (cp_flows c)).
  { assert (X : map flook (cp_flows c0) = map flook (cp_flows c)).
    { unfold clook in K. injection K as _ K1 K2. unfold cp_flows. rewrite !map_app. congruence. }
    rewrite L. unfold flow_name. clear - X. revert X. generalize (cp_flows c). induction (cp_flows c0) as [|f l IH]; intros [|f' l'] X; try discriminate; [reflexivity|].
    cbn [map] in X |- *. injection X as _ X2 _ X4. rewrite X2, (IH l' X4). reflexivity. }
  rewrite EQ. clear EQ K L E1. unfold base_model in E2. bnd E2 fos F1. bnd E2 ooo F2. bnd E2 pm F3. apply Ok_inj in E2. subst b. cbn [bo_subs].
  rewrite flat_map_app, map_app. apply part_before. apply mapM_Forall2 in F1. clear F2 F3.
  induction F1 as [|f o l l' P H IH]; [apply part_nil|]. cbn [map flat_map]. rewrite map_app.
  exact (part_app [_] _ _ _ (flow_part _ _ _ _ _ P) IH).
Qed.

(** ** C103 *)

(** An accepted system has no two flows of the same full name. *)
Theorem C103_distinct : forall cf ord fs idx pm, build cf ord fs idx = Ok pm -> NoDup (full_names fs).
Proof.
  intros cf ord fs idx pm H. unfold build in H. bnd H b E. unfold build_system in E. bnd E cx E1. bnd E u E2. bnd E cos E3. cbv zeta in E.
  bnd E bos E4. bnd E eo E5. destruct eo as [em obj]. apply Ok_inj in E. subst b. unfold bs_roots in H. cbn [bs_effects bs_comps bs_buses bs_obj] in H.
  destruct (C27_exactly_the_declared _ _ _ H) as [vs [cs [rss [PV [_ [_ [_ [_ [NV _]]]]]]]]].
  apply (NoDup_map_inv (fun l => vlabel l "flow_rate")).
  eapply part_nodup; [|exact NV]. clear NV.
  assert (P : part (map (fun l => vlabel l "flow_rate") (full_names fs)) (flat_map vnames (map co_tree cos))).
  { unfold full_names, all_flows. apply mapM_Forall2 in E3. clear - E3. induction E3 as [|c o l l' P H IH]; [apply part_nil|].
    cbn [flat_map map]. rewrite !map_app. apply part_app; [|exact IH]. rewrite !map_map. cbn [fst snd]. exact (comp_part _ _ _ _ _ P). }
  assert (X : map v_label (flat_map decl_vars (em :: map co_tree cos ++ map fst bos)) = (vnames em ++ flat_map vnames (map co_tree cos) ++ map v_label (flat_map decl_vars (map fst bos)))%list).
  { assert (D : forall ds, map v_label (flat_map decl_vars ds) = flat_map vnames ds).
    { induction ds as [|d ds IH]; [reflexivity|]. cbn [flat_map]. rewrite map_app, IH. unfold vnames, decl. rewrite decl_vars_flat. reflexivity. }
    rewrite !D. cbn [flat_map]. rewrite flat_map_app. reflexivity. }
  destruct (part_after (vnames em) _ _ (part_before (map v_label (flat_map decl_vars (map fst bos))) _ _ P)) as [r R].
  exists r. rewrite <- R, <- X. apply Permutation_map. exact PV.
Qed.
Print Assumptions C103_distinct.

(** So a full name stands for one flow. *)
Theorem C103_one_flow : forall cf ord fs idx pm c f c' f', build cf ord fs idx = Ok pm -> In (c, f) (all_flows fs) -> In (c', f') (all_flows fs) ->
  flow_name c f = flow_name c' f' -> c = c' /\ f = f'.
Proof.
  intros cf ord fs idx pm c f c' f' H I1 I2 E. apply C103_distinct in H. unfold full_names in H. revert H I1 I2. induction (all_flows fs) as [|p l IH]; intros N I1 I2; [destruct I1|].
  cbn [map] in N. inversion N as [|? ? N1 N2]; subst.
  destruct I1 as [-> | I1], I2 as [I2 | I2].
  - injection I2 as -> ->. auto.
  - exfalso. apply N1. cbn [fst snd]. rewrite E. apply in_map_iff. exists (c', f'). auto.
  - subst p. exfalso. apply N1. cbn [fst snd]. rewrite <- E. apply in_map_iff. exists (c, f). auto.
  - exact (IH N2 I1 I2).
Qed.
Print Assumptions C103_one_flow.

(** With proper labels the full name determines both labels, so distinct labels give distinct names. *)
Lemma flow_full_concat : forall a b, flow_full a b = String.concat "__" [a; b].
Proof.
  assert (X : forall s : string, (s ++ "")%string = s) by (induction s as [|h s IH]; cbn; [|rewrite IH]; reflexivity).
  intros. unfold flow_full, cat. cbn. rewrite X. reflexivity.
Qed.
Theorem C103_labels_partial : forall fs c f c' f', proper_labels fs -> In (c, f) (all_flows fs) -> In (c', f') (all_flows fs) ->
  flow_name c f = flow_name c' f' -> cp_label c = cp_label c' /\ f_lab f = f_lab f'.
Proof.
  intros fs c f c' f' P I1 I2 E. destruct (P c f I1) as [A1 A2]. destruct (P c' f' I2) as [B1 B2]. unfold flow_name in E. rewrite !flow_full_concat in E.
  assert (X : [cp_label c; f_lab f] = [cp_label c'; f_lab f']).
  { apply concat_inj; try discriminate; try exact E; intros k [K | [K | []]]; subst k; assumption. }
  injection X as X1 X2. auto.
Qed.
Print Assumptions C103_labels_partial.
Theorem C103_proper_partial : forall fs, proper_labels fs -> distinct_labels fs -> NoDup (full_names fs).
Proof.
  intros fs P [D1 D2].
  assert (K : forall c f c' f', In (c, f) (all_flows fs) -> In (c', f') (all_flows fs) -> flow_name c f = flow_name c' f' -> cp_label c = cp_label c' /\ f_lab f = f_lab f')
    by (intros; eapply C103_labels_partial; eauto).
  clear P. unfold full_names. revert D1 D2 K. unfold all_flows. induction (fs_comps fs) as [|c l IH]; intros D1 D2 K; [constructor|].
  cbn [flat_map] in K |- *. rewrite map_app. cbn [map] in D1. inversion D1 as [|? ? N1 N2]; subst.
  assert (A : NoDup (map (fun cf => flow_name (fst cf) (snd cf)) (map (fun f => (c, f)) (cp_flows c)))).
  { rewrite map_map. cbn [fst snd]. assert (NF : NoDup (map f_lab (cp_flows c))) by (apply D2; left; reflexivity).
    assert (KF : forall f f', In f (cp_flows c) -> In f' (cp_flows c) -> flow_name c f = flow_name c f' -> f_lab f = f_lab f').
    { intros f f' I1 I2 E. apply (K c f c f'); [apply in_or_app; left; apply in_map; exact I1|apply in_or_app; left; apply in_map; exact I2|exact E]. }
    clear - NF KF. induction (cp_flows c) as [|f r IH]; [constructor|]. cbn [map] in NF |- *. inversion NF as [|? ? M1 M2]; subst. constructor.
    - intros C. apply in_map_iff in C. destruct C as [g [G1 G2]]. apply M1. apply in_map_iff. exists g. split; [|exact G2].
      apply KF; [right; exact G2|left; reflexivity|exact G1].
    - apply IH; [exact M2|]. intros g g' I1 I2. apply KF; right; assumption. }
  assert (B : NoDup (map (fun cf => flow_name (fst cf) (snd cf)) (flat_map (fun c => map (fun f => (c, f)) (cp_flows c)) l))).
  { apply IH; [exact N2|intros c' H'; apply D2; right; exact H'|]. intros c1 f1 c2 f2 I1 I2. apply K; apply in_or_app; right; assumption. }
  assert (C : forall n, In n (map (fun cf => flow_name (fst cf) (snd cf)) (map (fun f => (c, f)) (cp_flows c))) ->
    ~ In n (map (fun cf => flow_name (fst cf) (snd cf)) (flat_map (fun c => map (fun f => (c, f)) (cp_flows c)) l))).
  { intros n I1 I2. apply in_map_iff in I1. destruct I1 as [[c1 f1] [E1 I1]]. apply in_map_iff in I2. destruct I2 as [[c2 f2] [E2 I2]]. cbn [fst snd] in E1, E2.
    assert (X : cp_label c1 = cp_label c2) by (apply (K c1 f1 c2 f2); [apply in_or_app; auto|apply in_or_app; auto|congruence]).
    apply in_map_iff in I1. destruct I1 as [g [G _]]. injection G as -> _. apply N1. rewrite X. apply in_flat_map in I2. destruct I2 as [c3 [I3 I4]].
    apply in_map_iff in I4. destruct I4 as [g' [G' _]]. injection G' as -> _. apply in_map. exact I3. }
  clear K. induction (map (fun cf => flow_name (fst cf) (snd cf)) (map (fun f => (c, f)) (cp_flows c))) as [|n r IHr]; [exact B|].
  inversion A as [|? ? A1 A2]; subst. cbn [app]. constructor.
  - intros I1. apply in_app_or in I1. destruct I1 as [I1 | I1]; [exact (A1 I1)|]. exact (C n (or_introl eq_refl) I1).
  - apply IHr; [exact A2|]. intros m I1. apply C. right. exact I1.
Qed.
Print Assumptions C103_proper_partial.

(** The label "A__B" is accepted with a message, and so is a system with it. *)
Definition fs_reserved : flow_system :=
  mkFS [0; 1] 2 (NS 1) [costs] [Library.source "A__B" (fl 401 "C" gas 10); Library.sink "D" (fl 402 "E" gas 10)].
Definition fs_clash : flow_system :=
  mkFS [0; 1] 2 (NS 1) [costs] [Library.source "A" (fl 401 "B__C" gas 10); Library.sink "A__B" (fl 402 "C" gas 10)].
Lemma reserved_ok : exists pm, build default_config id_ord fs_reserved None = Ok pm.
Proof. eexists. vm_compute. reflexivity. Qed.
Theorem C103_refuted : ~ element_refused /\ ~ system_refused.
Proof.
  split; intros R.
  - assert (A := R "A__B"%string _ eq_refl). vm_compute in A. discriminate.
  - destruct reserved_ok as [pm B]. destruct (R _ _ _ _ _ B (Library.source "A__B" (fl 401 "C" gas 10)) (fl 401 "C" gas 10) (or_introl eq_refl)) as [A _].
    vm_compute in A. discriminate.
Qed.
Print Assumptions C103_refuted.
(** Different labels with reserved characters can give one name; the system is refused then. *)
Theorem C103_clash_refuted : ~ distinct_suffice.
Proof.
  intros R. assert (N : NoDup (full_names fs_clash)).
  { apply R. split; [repeat constructor; cbn; intuition discriminate|]. intros c [<- | [<- | []]]; repeat constructor; cbn; intuition discriminate. }
  vm_compute in N. inversion N as [|? ? N1 _]; subst. apply N1. left. reflexivity.
Qed.
Print Assumptions C103_clash_refuted.
Example C103_clash_refused : build default_config id_ord fs_clash None = Err KeyError.
Proof. vm_compute. reflexivity. Qed.

(** The theorems apply to an accepted system with proper labels, and to one with a reserved label. *)
Definition fs_proper : flow_system :=
  mkFS [0; 1] 2 (NS 1) [costs] [Library.source "A" (fl 401 "C" gas 10); Library.sink "D_E" (fl 402 "C" gas 10)].
Example C103_applies : proper_labels fs_proper /\ distinct_labels fs_proper /\ full_names fs_proper = ["A__C"; "D_E__C"]%string /\
  (exists pm, build default_config id_ord fs_proper None = Ok pm) /\ (exists pm, build default_config id_ord fs_reserved None = Ok pm).
Proof.
  split; [|split; [|split; [reflexivity|split; [eexists; vm_compute; reflexivity|exact reserved_ok]]]].
  - intros c f [H | [H | []]]; injection H as <- <-; split; vm_compute; reflexivity.
  - split; [repeat constructor; cbn; intuition discriminate|]. intros c [<- | [<- | []]]; repeat constructor; cbn; intuition discriminate.
Qed.
