(** Sufficiency: assignments that obey the rules of a flow satisfy everything its model hands to the solver. *)
From Verif Require Import Base BaseFacts MathModel Spec MathFacts MathTotal Structure StructureFacts Params Features Elements System SysSpec
  CtxFacts ReadTools InvestFacts OnOffFacts OnOffLaws OnOffAdmits FlowFacts NavFacts.

(** ** Whatever is built can be translated *)
Lemma mapM_In : forall {A B} (f : A -> res B) l r a, mapM f l = Ok r -> In a l -> exists b, f a = Ok b.
Proof.
  induction l as [|c l IH]; intros r a H Ha; [destruct Ha|]. simpl in H. apply bind_ok in H. destruct H as [b [Hb H]].
  apply bind_ok in H. destruct H as [bs [Hbs _]]. destruct Ha as [<-|Ha]; eauto.
Qed.
Lemma system_translates : forall ds obj pm, system_translate ds obj = Ok pm -> Forall em_translates ds.
Proof.
  intros ds obj pm H. unfold system_translate in H. bnd H vs Ev. bnd H cs Ec. unfold translate_model in H.
  bnd H pvs Ep. bnd H eqs Ee. bnd H ins Ei. clear H.
  destruct (system_translate_vars _ _ Ev) as [_ PV]. destruct (system_translate_cons _ _ Ec) as [_ PC].
  apply Forall_forall. intros d Hd m Hm. split; apply Forall_forall; intros y Hy.
  - apply (mapM_In _ _ _ _ Ep). eapply Permutation_in; [apply Permutation_sym, PV|].
    apply in_flat_map; exists m; split; auto; apply in_flat_map; eauto.
  - assert (I : In y cs). { eapply Permutation_in; [apply Permutation_sym, PC|].
    apply in_flat_map; exists m; split; auto; apply in_flat_map; eauto. }
    destruct (c_kind y) eqn:K.
    + apply (mapM_In _ _ _ _ Ee). apply filter_In. rewrite K. auto.
    + apply (mapM_In _ _ _ _ Ei). apply filter_In. rewrite K. auto.
    + apply (mapM_In _ _ _ _ Ee). apply filter_In. rewrite K. auto.
Qed.
Lemma em_translates_sub : forall f l v c s m, em_translates (EM f l v c s) -> In m s -> em_translates m.
Proof. intros f l v c s m H Hi m' Hm. apply H. simpl. right. apply in_flat_map. eauto. Qed.
Lemma em_translates_vars : forall f l v c s, em_translates (EM f l v c s) -> Forall v_translates v.
Proof. intros f l v c s H. exact (proj1 (H _ (flat_self _))). Qed.
Lemma em_translates_cons : forall f l v c s, em_translates (EM f l v c s) -> Forall c_translates c.
Proof. intros f l v c s H. exact (proj2 (H _ (flat_self _))). Qed.

(** The flow's model is part of the system, and can be translated. *)
Lemma flat_trans : forall a b c, In b (flat a) -> In c (flat b) -> In c (flat a).
Proof.
  intros a. induction a as [f l v c s IH] using emodel_ind'. intros b d Hb Hd. simpl in Hb. destruct Hb as [<-|Hb]; auto.
  apply in_flat_map in Hb. destruct Hb as [m [Hm Hb]]. simpl. right. apply in_flat_map. exists m. split; auto.
  rewrite Forall_forall in IH. eapply IH; eauto.
Qed.
Lemma em_translates_flat : forall a b, em_translates a -> In b (flat a) -> em_translates b.
Proof. intros a b H Hb m Hm. apply H. eapply flat_trans; eauto. Qed.

Lemma flow_translates : forall cf ord fs idx pm c f, build cf ord fs idx = Ok pm -> In c (fs_comps fs) -> In f (cp_flows c) ->
  exists cx fo bs root, ctx_for cf fs idx cx /\ flow_model cx true (cp_label c) (effective cf fs idx c f) = Ok fo
    /\ em_translates (fo_tree fo) /\ build_system cf ord fs idx = Ok bs /\ In root (bs_roots bs) /\ In (fo_tree fo) (flat root).
Proof.
  intros cf ord fs idx pm c f H Hc Hf.
  destruct (build_parts _ _ _ _ _ H) as [cx [cos [bos [em [obj P]]]]].
  destruct (locate_comp _ _ _ _ _ _ _ _ _ _ P c Hc) as [o [oo_ [pm_ [so [Ho [Q S]]]]]].
  destruct (Forall2_In_l _ _ _ _ (pa_flows _ _ _ _ _ _ _ _ Q) Hf) as [fo [Hfo M]].
  assert (IF : In (fo_tree fo) (flat (co_tree o))).
  { rewrite (pa_tree _ _ _ _ _ _ _ _ Q). simpl. right. apply in_flat_map. exists (fo_tree fo). split; [|apply flat_self].
    apply in_or_app; left. apply in_or_app; left. apply in_map; auto. }
  pose proof (sy_build _ _ _ _ _ _ _ _ _ _ P) as B1.
  exists cx, fo, (mkBuilt cx em cos (map fst bos) obj), (co_tree o). split; [eapply sys_ctx; eauto|]. split; auto.
  pose proof (system_translates _ _ _ (sy_translate _ _ _ _ _ _ _ _ _ _ P)) as T. rewrite Forall_forall in T.
  assert (IR : In (co_tree o) (em :: map co_tree cos ++ map fst bos)).
  { right. apply in_or_app. left. apply in_map; auto. }
  split; [eapply em_translates_flat; [apply T; exact IR|auto]|]. split; auto.
Qed.
