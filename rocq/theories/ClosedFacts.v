(** Every equation of the program refers to variables the program declares. *)
From Verif Require Import Base BaseFacts MathModel Spec MathFacts Structure StructureFacts Params Features Elements System SysSpec
  CtxFacts ReadTools InvestFacts.

Local Tactic Notation "bnd" hyp(H) ident(x) ident(E) := apply bind_ok in H; destruct H as [x [E H]]; cbv beta in H.

Definition uses (c : constraint) : list variable := map s_var (c_summands c).
Definition decl (m : emodel) : list variable := flat_map em_vars (flat m).
Definition call_vars (a : call) : list variable := match a with AddS v _ _ _ => [v] | AddC _ => [] end.
Definition ovar (o : option variable) : list variable := match o with Some v => [v] | None => [] end.
Definition shv (l : list share) : list variable := flat_map (fun s => ovar (sh_var s)) l.

(** All variables used by the equations [cs] (by the equations of the tree [m]) are in [D]. *)
Definition closes (D : list variable) (cs : list constraint) : Prop := forall c, In c cs -> incl (uses c) D.
Definition closedT (D : list variable) (m : emodel) : Prop := forall m', In m' (flat m) -> closes D (em_cons m').

Lemma decl_EM : forall f l v c s, decl (EM f l v c s) = v ++ flat_map decl s.
Proof.
  intros. unfold decl. simpl. f_equal. induction s as [|a s IH]; simpl; auto. rewrite flat_map_app, IH. reflexivity.
Qed.
Lemma decl_own : forall m v, In v (em_vars m) -> In v (decl m).
Proof. intros [f l vs c s] v H. rewrite decl_EM. apply in_or_app. auto. Qed.
Lemma decl_sub : forall f l vs c s m v, In m s -> In v (decl m) -> In v (decl (EM f l vs c s)).
Proof. intros. rewrite decl_EM. apply in_or_app. right. apply in_flat_map. eauto. Qed.

Lemma uses_calls : forall k label short calls c, build_constraint k label short calls = Ok c ->
  incl (uses c) (flat_map call_vars calls).
Proof.
  intros k label short calls c H. apply build_built in H. destruct H as [_ _ _ F _ _ _ _ _]. intros v Hv.
  unfold uses in Hv. apply in_map_iff in Hv. destruct Hv as [s [<- Hs]].
  assert (X : forall l ss, Forall2 (fun a s => mk_of a = Ok s) l ss -> In s ss -> exists a, In a l /\ mk_of a = Ok s).
  { clear. induction 1 as [|a s' l ss E F IH]; simpl; [tauto|]. intros [->|Hs]; [exists a; auto|].
    destruct (IH Hs) as [b [? ?]]. exists b; auto. }
  destruct (X _ _ F Hs) as [a [Ha E]]. apply filter_In in Ha. destruct Ha as [Ha Hi]. apply in_flat_map. exists a. split; auto.
  destruct a as [v f idx b|q]; [|discriminate Hi]. simpl in E. apply mk_summand_inv in E.
  simpl. left. destruct E as [? [? E]]. symmetry. intuition.
Qed.

Lemma closes_nil : forall D, closes D [].
Proof. intros D c H. destruct H. Qed.
Lemma closes_cons : forall D c cs, incl (uses c) D -> closes D cs -> closes D (c :: cs).
Proof. intros D c cs A B c' [<-|H]; auto. Qed.
Lemma closes_app : forall D a b, closes D a -> closes D b -> closes D (a ++ b).
Proof. intros D a b A B c H. apply in_app_iff in H. destruct H; auto. Qed.
Lemma closes_mono : forall D D' cs, incl D D' -> closes D cs -> closes D' cs.
Proof. intros D D' cs I A c H v Hv. apply I. exact (A c H v Hv). Qed.
Lemma eq_uses : forall D k m l calls c, create_equation m l k calls = Ok c -> incl (flat_map call_vars calls) D -> incl (uses c) D.
Proof. intros D k m l calls c H I. eapply incl_tran; [eapply uses_calls; exact H|exact I]. Qed.
Lemma closedT_EM : forall D f l v c s, closes D c -> (forall m, In m s -> closedT D m) -> closedT D (EM f l v c s).
Proof.
  intros D f l v c s A B m' H. simpl in H. destruct H as [<-|H]; auto. apply in_flat_map in H. destruct H as [m [Hm H]].
  exact (B m Hm m' H).
Qed.
Lemma closedT_mono : forall D D' m, incl D D' -> closedT D m -> closedT D' m.
Proof. intros D D' m I A m' H. eapply closes_mono; eauto. Qed.

(** Solving inclusions between explicit lists. *)
Ltac mem :=
  repeat match goal with
         | H : In _ (_ ++ _) |- _ => apply in_app_iff in H; destruct H as [H|H]
         | H : In _ (_ :: _) |- _ => destruct H as [H|H]
         | H : In _ [] |- _ => destruct H
         | H : _ = ?v |- In ?v _ => subst
         end.
Ltac memg := repeat first [assumption | apply in_or_app; first [left; solve [memg] | right; solve [memg]]
                          | left; reflexivity | right; solve [memg] | solve [eauto] ].
Ltac inc := let v := fresh "v" in let H := fresh "H" in intros v H; simpl in H; repeat rewrite in_app_iff in *; simpl in *;
  repeat rewrite in_app_iff in *; simpl in *; intuition (subst; auto).
Ltac close :=
  repeat first [ apply closes_nil | apply closes_app
               | apply closes_cons; [eapply eq_uses; [eassumption|inc]|] ].

Ltac prs := repeat match goal with H : (_, _) = (_, _) |- _ => apply pair_equal_spec in H; destruct H; subst end.

(** ** Features *)
Lemma segment_closed : forall elem len i s, segment_model elem len i = Ok s ->
  closedT (decl (sg_tree s)) (sg_tree s)
  /\ In (sg_in s) (decl (sg_tree s)) /\ In (sg_l0 s) (decl (sg_tree s)) /\ In (sg_l1 s) (decl (sg_tree s)).
Proof.
  intros elem len i s H. unfold segment_model in H. inv_ok.
  match goal with K : mk_em _ _ _ _ _ = Ok _ |- _ => apply mk_em_spec in K; destruct K as [K _]; subst end.
  cbn [sg_tree sg_in sg_l0 sg_l1]. rewrite decl_EM. split; [|simpl; auto 6].
  apply closedT_EM; [close|]. intros m [].
Qed.

Lemma multi_closed : forall elem len pts outside m, multi_segments elem len pts outside = Ok m ->
  closedT (decl m ++ map fst pts ++ ovar outside) m.
Proof.
  intros elem len pts outside m H. unfold multi_segments in H. bnd H n En. bnd H segs Es. bnd H eqs Ee. bnd H single Ei.
  apply mk_em_spec in H. destruct H as [-> _]. rewrite decl_EM.
  assert (SEG : forall s, In s segs -> closedT (decl (sg_tree s)) (sg_tree s)
            /\ In (sg_in s) (decl (sg_tree s)) /\ In (sg_l0 s) (decl (sg_tree s)) /\ In (sg_l1 s) (decl (sg_tree s))).
  { intros s Hs. destruct (mapM_In_inv _ _ _ _ Es Hs) as [i [_ E]]. exact (segment_closed _ _ _ _ E). }
  assert (SUB : forall s v, In s segs -> In v (decl (sg_tree s)) -> In v (flat_map decl (map sg_tree segs))).
  { intros s v Hs Hv. apply in_flat_map. exists (sg_tree s). split; auto. apply in_map. auto. }
  simpl app. apply closedT_EM.
  - apply closes_app.
    + intros c Hc. destruct (mapM_In_inv _ _ _ _ Ee Hc) as [[v ps] [Hv E]]. cbv beta iota in E. bnd E used Eu.
      eapply eq_uses; [exact E|]. intros w Hw. simpl in Hw. destruct Hw as [<-|Hw].
      { apply in_or_app. right. apply in_or_app. left. apply in_map_iff. exists (v, ps). auto. }
      apply in_flat_map in Hw. destruct Hw as [l [Hl Hw]]. apply in_flat_map in Hl. destruct Hl as [[s p] [Hs Hl]].
      apply in_combine_l in Hs. destruct (SEG s Hs) as [_ [_ [L0 L1]]]. simpl in Hl.
      destruct Hl as [<-|[<-|[]]]; simpl in Hw; destruct Hw as [<-|[]]; apply in_or_app; left; eauto.
    + apply closes_cons; [|apply closes_nil]. eapply eq_uses; [exact Ei|]. intros w Hw. apply in_flat_map in Hw.
      destruct Hw as [a [Ha Hw]]. apply in_app_iff in Ha. destruct Ha as [Ha|[<-|[]]].
      * apply in_map_iff in Ha. destruct Ha as [s [<- Hs]]. simpl in Hw. destruct Hw as [<-|[]].
        apply in_or_app. left. destruct (SEG s Hs) as [_ [I _]]. eauto.
      * destruct outside as [o|]; simpl in Hw; [|tauto]. apply in_or_app. right. apply in_or_app. right. exact Hw.
  - intros m Hm. apply in_map_iff in Hm. destruct Hm as [s [<- Hs]]. eapply closedT_mono; [|exact (proj1 (SEG s Hs))].
    intros v Hv. apply in_or_app. left. eauto.
Qed.

Lemma emit_shv : forall cx tgt elem name vals factor v l, emit cx tgt elem name vals factor v = Ok l -> incl (shv l) (ovar v).
Proof.
  intros cx tgt elem name vals factor v l H w Hw. unfold shv in Hw. apply in_flat_map in Hw. destruct Hw as [s [Hs Hw]].
  unfold emit in H. destruct (mapM_In_inv _ _ _ _ H Hs) as [kv [_ E]]. inv_ok. exact Hw.
Qed.
Lemma emit_op_shv : forall cx tr elem name v f var l, emit_op cx tr elem name v f var = Ok l -> incl (shv l) [var].
Proof. intros cx tr elem name v f var l H. unfold emit_op in H. inv_ok. eapply emit_shv in H. exact H. Qed.
Lemma emit_inv_shv : forall cx tr elem name v f var l, emit_inv cx tr elem name v f var = Ok l -> incl (shv l) (ovar var).
Proof. intros cx tr elem name v f var l H. unfold emit_inv in H. inv_ok. eapply emit_shv in H. exact H. Qed.
Lemma shv_app : forall a b, shv (a ++ b) = shv a ++ shv b.
Proof. intros. unfold shv. apply flat_map_app. Qed.

Lemma segshares_closed : forall cx elem size spts eff outside m shs,
  segmented_shares cx elem size spts eff outside = Ok (m, shs) ->
  closedT (decl m ++ size :: ovar outside) m /\ incl (shv shs) (decl m).
Proof.
  intros cx elem size spts eff outside m shs H. unfold segmented_shares in H. bnd H u Eu. bnd H vs Ev. bnd H ms Em.
  bnd H sh Eh. bnd H m' Ek. apply Ok_inj in H. apply pair_equal_spec in H. destruct H as [<- <-].
  apply mk_em_spec in Ek. destruct Ek as [-> _]. rewrite decl_EM. simpl flat_map. rewrite app_nil_r. split.
  - apply closedT_EM; [apply closes_nil|]. intros k [<-|[]]. apply multi_closed in Em. eapply closedT_mono; [|exact Em].
    rewrite map_app, map_map. intros v Hv. cbn [map fst] in Hv. repeat rewrite in_app_iff in *. simpl in *. intuition.
  - intros w Hw. unfold shv in Hw. apply in_flat_map in Hw. destruct Hw as [s [Hs Hw]]. apply in_concat in Hs.
    destruct Hs as [l [Hl Hs]]. destruct (mapM_In_inv _ _ _ _ Eh Hl) as [t [Ht E]]. apply emit_shv in E.
    apply in_or_app. left. assert (w = snd (fst t)).
    { assert (X : In w (shv l)) by (unfold shv; apply in_flat_map; eauto). apply E in X. simpl in X. destruct X as [X|[]]; auto. }
    subst w. apply in_map_iff. eauto.
Qed.

Lemma invest_closed : forall cx tr elem iv dv relmin relmax profile on io,
  invest_model cx tr elem iv dv relmin relmax profile on = Ok io ->
  closedT (decl (io_tree io) ++ dv :: ovar on) (io_tree io)
  /\ In (io_size io) (decl (io_tree io)) /\ incl (ovar (io_invested io)) (decl (io_tree io))
  /\ incl (shv (io_shares io)) (decl (io_tree io)).
Proof.
  intros cx tr elem iv dv relmin relmax profile on io H. apply invest_model_parts in H.
  destruct H as [size [b [cs1 [cs2 [subs [H1 [H2 [H3 [H4 [H5 [H6 H7]]]]]]]]]]]. rewrite H5, H6, H7, decl_EM. clear H5 H6 H7.
  assert (Hs : (subs = [] \/ exists m, subs = [m] /\ closedT (decl m ++ size :: ovar b) m)
               /\ incl (shv (io_shares io)) (size :: ovar b ++ flat_map decl subs)).
  { unfold invest_shares in H4. bnd H4 s1 E1. bnd H4 s2 E2. bnd H4 s3 E3.
    assert (S12 : incl (shv s1 ++ shv s2 ++ shv s3) (size :: ovar b)).
    { apply emit_inv_shv in E1. apply emit_inv_shv in E3. destruct (iv_optional iv).
      - bnd E2 p Ep. bnd E2 q Eqq. apply Ok_inj in E2. subst s2. apply emit_inv_shv in Ep. apply emit_inv_shv in Eqq. rewrite shv_app.
        intros v Hv. repeat rewrite in_app_iff in Hv. simpl. destruct Hv as [Hv|[[Hv|Hv]|Hv]].
        + right. auto. + apply Ep in Hv. destruct Hv. + right. auto. + apply E3 in Hv. simpl in Hv. tauto.
      - apply Ok_inj in E2. subst s2. intros v Hv. repeat rewrite in_app_iff in Hv. simpl in *. destruct Hv as [Hv|[[]|Hv]]; auto.
        apply E3 in Hv. simpl in Hv. tauto. }
    destruct (iv_seg iv) as [[spts eff]|].
    - bnd H4 p Ep. destruct p as [m s4]. apply Ok_inj in H4. apply pair_equal_spec in H4. destruct H4 as [<- <-].
      apply segshares_closed in Ep. destruct Ep as [C I]. split; [right; eauto|]. rewrite !shv_app.
      simpl flat_map. rewrite app_nil_r. intros v Hv. rewrite !app_assoc in Hv. apply in_app_iff in Hv. destruct Hv as [Hv|Hv].
      + rewrite <- app_assoc in Hv. apply S12 in Hv. simpl in *. rewrite in_app_iff. tauto.
      + simpl. rewrite in_app_iff. auto.
    - apply Ok_inj in H4. apply pair_equal_spec in H4. destruct H4 as [<- <-]. split; [left; auto|]. rewrite !shv_app.
      simpl flat_map. rewrite app_nil_r. exact S12. }
  destruct Hs as [Hsub Hsh].
  assert (HB : (match b with Some v => [v] | None => [] end) = ovar b) by (destruct b; reflexivity). rewrite HB.
  split; [|split; [left; auto|split; [intros v Hv; simpl; rewrite in_app_iff; auto|intros v Hv; apply Hsh in Hv; exact Hv]]].
  apply closedT_EM.
  - apply closes_app.
    + unfold invest_optional in H2. destruct (iv_optional iv); [|apply Ok_inj in H2; apply pair_equal_spec in H2; destruct H2 as [<- <-]; apply closes_nil].
      bnd H2 o Eo. destruct (iv_is_fixed iv); inv_ok; apply pair_equal_spec in H2; destruct H2; subst; close.
    + unfold invest_bounds in H3. destruct profile.
      * inv_ok; close.
      * bnd H3 c1 E1. bnd H3 c2 E2. apply Ok_inj in H3. subst cs2. destruct on; inv_ok; close.
  - intros m Hm. destruct Hsub as [->|[m' [-> C]]]; [destruct Hm|]. destruct Hm as [<-|[]].
    eapply closedT_mono; [|exact C]. simpl. rewrite app_nil_r. intros v Hv. repeat rewrite in_app_iff in *. simpl in *.
    repeat rewrite in_app_iff. tauto.
Qed.

Lemma duration_closed : forall cx tr full label b dmin dmax du,
  duration_model cx tr full label b dmin dmax = Ok du -> closes [du_var du; b] (du_cons du).
Proof.
  intros cx tr full label b dmin dmax du H. unfold duration_model in H.
  bnd H pv E1. bnd H pv' E2. bnd H prev E3. bnd H mx E4. bnd H u E5. bnd H d E6. bnd H c1 E7. bnd H c2a E8. bnd H c2b E9.
  bnd H cmin E10. bnd H dt0 E11. bnd H cf E12. apply Ok_inj in H. subst du. cbn [du_var du_cons].
  assert (X : closes [d; b] cmin).
  { destruct dmin as [p|]; [|apply Ok_inj in E10; subst; close]. bnd E10 m F1. bnd E10 e1 F2. bnd E10 ff F3.
    destruct (_ && _)%bool; inv_ok; close. }
  change ([c1; c2a; c2b] ++ cmin ++ [cf]) with (c1 :: c2a :: c2b :: cmin ++ [cf]). close. exact X.
Qed.

Lemma onoff_closed : forall cx tr elem p vars bounds o, onoff_model cx tr elem p vars bounds = Ok o ->
  closedT (decl (ot_tree o) ++ vars) (ot_tree o) /\ In (ot_on o) (decl (ot_tree o)) /\ incl (shv (ot_shares o)) (decl (ot_tree o)).
Proof.
  intros cx tr elem p vars bounds o H. unfold onoff_model in H.
  bnd H bs E1. bnd H u E2. bnd H po E3. bnd H on E4. bnd H tot E5. bnd H ctot E6. bnd H con E7.
  bnd H q1 E8. destruct q1 as [voff coff]. bnd H q2 E9. destruct q2 as [v1 k1]. bnd H q3 E10. destruct q3 as [v2 k2].
  bnd H q4 E11. destruct q4 as [[v3 k3] sw]. bnd H s1 E12. bnd H s2 E13. bnd H m E14. apply Ok_inj in H. subst o.
  apply mk_em_spec in E14. destruct E14 as [-> _]. cbn [ot_tree ot_on ot_shares]. rewrite decl_EM. simpl flat_map. rewrite app_nil_r.
  set (D := [on; tot] ++ voff ++ v1 ++ v2 ++ v3).
  assert (I0 : incl [on; tot] D) by (apply incl_appl, incl_refl).
  assert (I1 : incl voff D) by (apply incl_appr, incl_appl, incl_refl).
  assert (I2 : incl v1 D) by (apply incl_appr, incl_appr, incl_appl, incl_refl).
  assert (I3 : incl v2 D) by (apply incl_appr, incl_appr, incl_appr, incl_appl, incl_refl).
  assert (I4 : incl v3 D) by (apply incl_appr, incl_appr, incl_appr, incl_appr, incl_refl).
  clearbody D. assert (On : In on D) by (apply I0; simpl; auto). assert (To : In tot D) by (apply I0; simpl; auto).
  split; [apply closedT_EM; [|intros m []]|].
  - apply closes_app; [close|]. apply closes_app; [|apply closes_app; [|apply closes_app; [|apply closes_app]]].
    + unfold on_constraints in E7. destruct vars as [|v [|w vs]]; [discriminate| |].
      * destruct bs as [|[lb ub] bs'].
        { inv_ok. unfold map in E0, E. close. }
        inv_ok. close.
      * assert (X : forall k l f, incl (flat_map call_vars (map (fun v0 => AddS v0 (NS k) (Some (seq 0 (cx_n cx))) false) (v :: w :: vs) ++ [AddS on f l false])) (D ++ v :: w :: vs)).
        { intros k l f z Hz. rewrite flat_map_app in Hz. apply in_app_iff in Hz. destruct Hz as [Hz|Hz].
          - apply in_flat_map in Hz. destruct Hz as [a [Ha Hz]]. apply in_map_iff in Ha. destruct Ha as [y [<- Hy]].
            destruct Hz as [<-|[]]. apply in_or_app. auto.
          - simpl in Hz. destruct Hz as [<-|[]]. apply in_or_app. auto. }
        destruct bs as [|[lb ub] bs']; bnd E7 tot0 Et; bnd E7 c1 F1; bnd E7 c2 F2; apply Ok_inj in E7; subst con;
          (apply closes_cons; [eapply eq_uses; [exact F1|apply X]|apply closes_cons; [eapply eq_uses; [exact F2|apply X]|apply closes_nil]]).
    + destruct (use_off p); inv_ok; prs; [|close]. assert (In a D) by (apply I1; simpl; auto). close.
    + destruct (use_con p); [|inv_ok; prs; close]. bnd E9 du F. apply Ok_inj in E9. apply pair_equal_spec in E9. destruct E9 as [<- <-].
      apply duration_closed in F. eapply closes_mono; [|exact F]. intros z [<-|[<-|[]]]; apply in_or_app; left; auto.
      apply I2. simpl; auto.
    + destruct (use_coff p); [|inv_ok; prs; close]. bnd E10 off Fo. bnd E10 du F. apply Ok_inj in E10. apply pair_equal_spec in E10. destruct E10 as [<- <-].
      apply duration_closed in F. eapply closes_mono; [|exact F]. intros z [<-|[<-|[]]]; apply in_or_app; left; auto.
      * apply I3. simpl; auto.
      * apply I1. unfold of_option in Fo. destruct (nth_error voff 0) eqn:N; [|discriminate]. apply Ok_inj in Fo. subst. eapply nth_error_In; eauto.
    + destruct (use_switch_on p); [|inv_ok; prs; close]. bnd E11 son F1. bnd E11 soff F2. bnd E11 nr F3. bnd E11 u' F4. bnd E11 ks F5.
      apply Ok_inj in E11. apply pair_equal_spec in E11. destruct E11 as [E11 <-]. apply pair_equal_spec in E11. destruct E11 as [<- <-].
      assert (In son D) by (apply I4; simpl; auto). assert (In soff D) by (apply I4; simpl; auto). assert (In nr D) by (apply I4; simpl; auto).
      unfold switch_constraints in F5. inv_ok. close.
  - split; auto. rewrite shv_app. intros v Hv. apply in_app_iff in Hv. destruct Hv as [Hv|Hv].
    + destruct (use_switch_on p); [|inv_ok; prs; inv_ok; destruct Hv]. bnd E11 son F1. bnd E11 soff F2. bnd E11 nr F3. bnd E11 u' F4. bnd E11 ks F5.
      apply Ok_inj in E11. apply pair_equal_spec in E11. destruct E11 as [E11 <-]. apply pair_equal_spec in E11. destruct E11 as [<- <-].
      apply emit_op_shv in E12. apply E12 in Hv. destruct Hv as [<-|[]]. apply I4. simpl; auto.
    + apply emit_op_shv in E13. apply E13 in Hv. destruct Hv as [<-|[]]. auto.
Qed.

Lemma prevent_closed : forall elem vars m, prevent_model elem vars = Ok m -> closedT vars m.
Proof.
  intros elem vars m H. unfold prevent_model in H. bnd H u E1. bnd H u' E2. bnd H c E3. apply mk_em_spec in H. destruct H as [-> _].
  apply closedT_EM; [|intros m []]. apply closes_cons; [|apply closes_nil]. eapply eq_uses; [exact E3|]. intros v Hv.
  rewrite flat_map_app in Hv. apply in_app_iff in Hv. destruct Hv as [Hv|Hv]; [|destruct Hv].
  apply in_flat_map in Hv. destruct Hv as [a [Ha Hv]]. apply in_map_iff in Ha. destruct Ha as [w [<- Hw]]. destruct Hv as [<-|[]]. auto.
Qed.

(** ** Elements *)
Definition flow_vars_in (D : list variable) (o : flow_out) : Prop :=
  In (fo_rate o) D /\ incl (ovar (fo_on o)) D /\ incl (ovar (fo_size o)) D.

Lemma flow_closed : forall cx tr comp f o, flow_model cx tr comp f = Ok o ->
  closedT (decl (fo_tree o)) (fo_tree o) /\ flow_vars_in (decl (fo_tree o)) o /\ incl (shv (fo_shares o)) (decl (fo_tree o)).
Proof.
  intros cx tr comp f o H. unfold flow_model in H.
  bnd H rel0 E1. bnd H ab E2. bnd H rate E3. bnd H oo E4. bnd H io E5. bnd H sfh E6. bnd H csum E7. bnd H clf E8. bnd H s E9. bnd H m E10.
  apply Ok_inj in H. subst o. unfold flow_vars_in. cbn [fo_tree fo_rate fo_on fo_size fo_shares].
  apply mk_em_spec in E10. destruct E10 as [-> _]. rewrite decl_EM.
  set (D := [rate; sfh] ++ _).
  assert (Hr : In rate D) by (simpl; auto). assert (Hh : In sfh D) by (simpl; auto).
  assert (Ho : forall q, oo = Some q -> incl (decl (ot_tree q)) D /\ closedT D (ot_tree q) /\ In (ot_on q) D /\ incl (shv (ot_shares q)) D).
  { intros q ->. destruct (f_onoff f) as [p|]; simpl in E4; [|discriminate]. bnd E4 q' F. apply Ok_inj in E4. injection E4 as ->.
    apply onoff_closed in F. destruct F as [A [B C]].
    assert (I : incl (decl (ot_tree q)) D).
    { intros v Hv. unfold D. apply in_or_app. right. apply in_flat_map. exists (ot_tree q). split; auto. simpl; auto. }
    split; auto. split; [eapply closedT_mono; [|exact A]; intros v Hv; apply in_app_iff in Hv; destruct Hv as [Hv|[<-|[]]]; auto|].
    split; auto. eapply incl_tran; eauto. }
  assert (Hi : forall q, io = Some q -> incl (decl (io_tree q)) D /\ closedT D (io_tree q) /\ In (io_size q) D /\ incl (shv (io_shares q)) D).
  { intros q ->. destruct (f_size f) as [|iv]; [discriminate|]. bnd E5 pr F1. bnd E5 i F2. apply Ok_inj in E5. injection E5 as ->.
    apply invest_closed in F2. destruct F2 as [A [B [C C']]].
    assert (I : incl (decl (io_tree q)) D).
    { intros v Hv. unfold D. apply in_or_app. right. apply in_flat_map. exists (io_tree q). split; auto. apply in_or_app; right; simpl; auto. }
    split; auto. split; [|split; auto; eapply incl_tran; eauto].
    eapply closedT_mono; [|exact A]. intros v Hv. apply in_app_iff in Hv. destruct Hv as [Hv|[<-|Hv]]; auto.
    destruct oo as [q0|]; simpl in Hv; [|tauto]. destruct Hv as [<-|[]]. exact (proj1 (proj2 (proj2 (Ho _ eq_refl)))). }
  clearbody D.
  assert (Hz : incl (ovar (option_map io_size io)) D).
  { destruct io as [q|]; simpl; intros v Hv; [|destruct Hv]. destruct Hv as [<-|[]]. exact (proj1 (proj2 (proj2 (Hi _ eq_refl)))). }
  split; [|split; [split; [auto|split; auto]|]].
  - apply closedT_EM.
    + apply closes_cons; [eapply eq_uses; [exact E7|inc]|]. unfold load_factor_cons in E8. bnd E8 c1 F1. bnd E8 c2 F2. apply Ok_inj in E8. subst clf.
      apply closes_app.
      * destruct (f_lf_max f); inv_ok; [|close]. destruct (option_map io_size io) as [z|]; [|close].
        assert (In z D) by (apply Hz; simpl; auto). close.
      * destruct (f_lf_min f); inv_ok; [|close]. destruct (option_map io_size io) as [z|]; [|close].
        assert (In z D) by (apply Hz; simpl; auto). close.
    + intros k Hk. apply in_app_iff in Hk. destruct Hk as [Hk|Hk].
      * destruct oo as [q|]; [|destruct Hk]. destruct Hk as [<-|[]]. exact (proj1 (proj2 (Ho _ eq_refl))).
      * destruct io as [q|]; [|destruct Hk]. destruct Hk as [<-|[]]. exact (proj1 (proj2 (Hi _ eq_refl))).
  - destruct oo as [q|]; simpl; intros v Hv; [|destruct Hv]. destruct Hv as [<-|[]]. exact (proj1 (proj2 (proj2 (Ho _ eq_refl)))).
  - rewrite !shv_app. intros v Hv. apply in_app_iff in Hv. destruct Hv as [Hv|Hv]; [|apply in_app_iff in Hv; destruct Hv as [Hv|Hv]].
    + destruct oo as [q|]; [|destruct Hv]. exact (proj2 (proj2 (proj2 (Ho _ eq_refl))) v Hv).
    + destruct io as [q|]; [|destruct Hv]. exact (proj2 (proj2 (proj2 (Hi _ eq_refl))) v Hv).
    + apply emit_op_shv in E9. apply E9 in Hv. destruct Hv as [<-|[]]. auto.
Qed.

Lemma find_fo_In : forall l i o, find_fo l i = Ok o -> In o l.
Proof. intros l i o H. unfold find_fo in H. inv_ok. eapply find_some; eauto. Qed.

Lemma base_closed : forall cx trf trc c b, base_model cx trf trc c = Ok b ->
  (forall m, In m (bo_subs b) -> closedT (flat_map decl (bo_subs b)) m)
  /\ (forall o, In o (bo_flows b) -> flow_vars_in (flat_map decl (bo_subs b)) o)
  /\ incl (ovar (bo_on b)) (flat_map decl (bo_subs b))
  /\ incl (shv (bo_shares b)) (flat_map decl (bo_subs b)).
Proof.
  intros cx trf trc c b H. unfold base_model in H. bnd H fos E1. bnd H oo E2. bnd H pm E3. apply Ok_inj in H. subst b.
  cbn [bo_subs bo_flows bo_on bo_shares]. set (S := map fo_tree fos ++ _). set (D := flat_map decl S).
  assert (SUB : forall m, In m S -> incl (decl m) D) by (intros m Hm v Hv; apply in_flat_map; eauto).
  assert (F : forall o, In o fos -> closedT D (fo_tree o) /\ flow_vars_in D o /\ incl (shv (fo_shares o)) D).
  { intros o Ho. destruct (mapM_In_inv _ _ _ _ E1 Ho) as [f [_ E]]. apply flow_closed in E. destruct E as [A [[B1 [B2 B3]] C]].
    assert (I : incl (decl (fo_tree o)) D) by (apply SUB; unfold S; apply in_or_app; left; apply in_map; auto).
    split; [eapply closedT_mono; eauto|]. split; [|eapply incl_tran; eauto]. repeat split; auto; eapply incl_tran; eauto. }
  assert (O : forall q, oo = Some q -> closedT D (ot_tree q) /\ In (ot_on q) D /\ incl (shv (ot_shares q)) D).
  { intros q ->. destruct (cp_onoff c) as [p|]; simpl in E2; [|discriminate]. bnd E2 q' G. apply Ok_inj in E2. injection E2 as ->.
    apply onoff_closed in G. destruct G as [A [B C]].
    assert (I : incl (decl (ot_tree q)) D) by (apply SUB; unfold S; apply in_or_app; right; simpl; auto).
    split; [|split; auto; eapply incl_tran; eauto]. eapply closedT_mono; [|exact A]. intros v Hv. apply in_app_iff in Hv.
    destruct Hv as [Hv|Hv]; auto. apply in_map_iff in Hv. destruct Hv as [o [<- Ho]]. exact (proj1 (proj1 (proj2 (F o Ho)))). }
  split; [|split; [intros o Ho; exact (proj1 (proj2 (F o Ho)))|split]].
  - intros m Hm. unfold S in Hm. apply in_app_iff in Hm. destruct Hm as [Hm|Hm]; [|apply in_app_iff in Hm; destruct Hm as [Hm|Hm]].
    + apply in_map_iff in Hm. destruct Hm as [o [<- Ho]]. exact (proj1 (F o Ho)).
    + destruct oo as [q|]; [|destruct Hm]. destruct Hm as [<-|[]]. exact (proj1 (O q eq_refl)).
    + destruct (cp_prevent c) as [|i l]; [apply Ok_inj in E3; subst; destruct Hm|]. bnd E3 ons G1. bnd E3 m' G2. apply Ok_inj in E3. subst pm.
      destruct Hm as [<-|[]]. apply prevent_closed in G2. eapply closedT_mono; [|exact G2]. intros v Hv.
      destruct (mapM_In_inv _ _ _ _ G1 Hv) as [j [_ E]]. bnd E o Eo. apply find_fo_In in Eo.
      apply (proj1 (proj2 (proj1 (proj2 (F o Eo))))). unfold of_option in E. destruct (fo_on o); [|discriminate]. apply Ok_inj in E. subst. simpl; auto.
  - destruct oo as [q|]; simpl; intros v Hv; [|destruct Hv]. destruct Hv as [<-|[]]. exact (proj1 (proj2 (O q eq_refl))).
  - rewrite shv_app. intros v Hv. apply in_app_iff in Hv. destruct Hv as [Hv|Hv].
    + unfold shv in Hv. apply in_flat_map in Hv. destruct Hv as [s [Hs Hv]]. apply in_flat_map in Hs. destruct Hs as [o [Ho Hs]].
      apply (proj2 (proj2 (F o Ho))). apply in_flat_map. eauto.
    + destruct oo as [q|]; [|destruct Hv]. exact (proj2 (proj2 (O q eq_refl)) v Hv).
Qed.

Lemma storage_closed : forall cx tr full s ch dis o, storage_model cx tr full s ch dis = Ok o ->
  let D := so_vars o ++ flat_map decl (so_subs o) in
  closes (fo_rate ch :: fo_rate dis :: D) (so_cons o)
  /\ (forall m, In m (so_subs o) -> closedT D m) /\ incl (shv (so_shares o)) D.
Proof.
  intros cx tr full s ch dis o H. unfold storage_model in H. bnd H rl E1. bnd H ru E2. destruct (cap_limits cx (st_cap s)) as [lo hi].
  bnd H lb E3. bnd H ub E4. bnd H cs E5. bnd H nd E6. bnd H ceq E7. bnd H loss E8. bnd H ec E9. bnd H ed E10. bnd H f1 E11. bnd H f2 E12.
  bnd H iq E13. bnd H f3 E14. bnd H bal E15. bnd H io E16. bnd H ends E17. apply Ok_inj in H. subst o. cbn [so_vars so_cons so_subs so_shares].
  set (D := [cs; nd] ++ _). assert (Hc : In cs D) by (simpl; auto). assert (Hn : In nd D) by (simpl; auto).
  assert (Hi : forall q, io = Some q -> incl (decl (io_tree q)) D).
  { intros q -> v Hv. unfold D. apply in_or_app. right. apply in_flat_map. exists (io_tree q). simpl; auto. }
  split; [|split].
  - clearbody D. apply closes_app; [close|]. unfold storage_ends in E17. destruct (st_init s); try (apply Ok_inj in E17; subst ends; apply closes_nil);
      bnd E17 c0 G0; bnd E17 cm G1; bnd E17 cn G2; apply Ok_inj in E17; subst ends; try discriminate G0.
    all: apply closes_cons; [first [eapply eq_uses; [exact G0|inc] | discriminate G0]|].
    all: apply closes_app; [destruct (st_fmax s); inv_ok; close|destruct (st_fmin s); inv_ok; close].
  - intros m Hm. destruct io as [q|]; [|destruct Hm]. destruct Hm as [<-|[]]. destruct (st_cap s) as [|iv]; [discriminate|].
    bnd E16 i G. apply Ok_inj in E16. injection E16 as ->. apply invest_closed in G. destruct G as [A _].
    eapply closedT_mono; [|exact A]. intros v Hv. apply in_app_iff in Hv. destruct Hv as [Hv|[<-|[]]]; auto. exact (Hi _ eq_refl v Hv).
  - destruct io as [q|]; [|intros v []]. destruct (st_cap s) as [|iv]; [discriminate|].
    bnd E16 i G. apply Ok_inj in E16. injection E16 as ->. apply invest_closed in G. destruct G as [_ [_ [_ A]]].
    eapply incl_tran; [exact A|]. exact (Hi _ eq_refl).
Qed.

Lemma comp_closed : forall cx trf trc c o, comp_model cx trf trc c = Ok o ->
  closedT (decl (co_tree o)) (co_tree o)
  /\ (forall f, In f (co_flows o) -> In (fo_rate f) (decl (co_tree o)))
  /\ incl (shv (co_shares o)) (decl (co_tree o)).
Proof.
  intros cx trf trc c0 o H. unfold comp_model in H. bnd H c E1. bnd H b E2. bnd H s E3. bnd H m E4. apply Ok_inj in H. subst o.
  cbn [co_tree co_flows co_shares]. apply mk_em_spec in E4. destruct E4 as [-> _]. rewrite decl_EM, flat_map_app.
  apply base_closed in E2. destruct E2 as [B1 [B2 [B3 B4]]]. set (B := flat_map decl (bo_subs b)) in *.
  set (D := so_vars s ++ B ++ flat_map decl (so_subs s)).
  assert (IB : incl B D) by (apply incl_appr, incl_appl, incl_refl).
  assert (IS : incl (so_vars s ++ flat_map decl (so_subs s)) D).
  { apply incl_app; [apply incl_appl, incl_refl|apply incl_appr, incl_appr, incl_refl]. }
  assert (Hf : forall f, In f (bo_flows b) -> In (fo_rate f) D) by (intros f Hf; apply IB; exact (proj1 (B2 f Hf))).
  assert (K : closes D (so_cons s) /\ (forall m, In m (so_subs s) -> closedT D m) /\ incl (shv (so_shares s)) D).
  { assert (NIL : forall k, closes D k -> s = mkSto [] k [] [] -> closes D (so_cons s) /\ (forall m, In m (so_subs s) -> closedT D m) /\ incl (shv (so_shares s)) D).
    { intros k Hk ->. cbn. split; auto. split; [intros m []|intros v []]. }
    destruct (cp_kind c) as [|fs|segs|st|rel abs].
    - apply Ok_inj in E3. eapply NIL; [apply closes_nil|auto].
    - bnd E3 k F. apply Ok_inj in E3. eapply NIL; [|symmetry; exact E3]. unfold converter_cons in F. bnd F u Fu. intros q Hq.
      destruct (mapM_In_inv _ _ _ _ F Hq) as [p [_ E]]. unfold conversion_eq in E. bnd E ins G1. bnd E outs G2.
      eapply eq_uses; [exact E|].
      assert (X : forall sg ids l, conv_calls cx (trc (cp_label c0)) (bo_flows b) (snd p) sg ids = Ok l -> incl (flat_map call_vars l) D).
      { intros sg ids l G v Hv. apply in_flat_map in Hv. destruct Hv as [a [Ha Hv]]. unfold conv_calls in G.
        destruct (mapM_In_inv _ _ _ _ G Ha) as [i [_ E']]. bnd E' pp P1. bnd E' aa P2. bnd E' oo P3. apply Ok_inj in E'. subst a.
        destruct Hv as [<-|[]]. apply Hf. eapply find_fo_In; eauto. }
      rewrite !flat_map_app. apply incl_app; [eapply X; eauto|]. apply incl_app; [eapply X; eauto|intros v []].
    - bnd E3 m' F. apply Ok_inj in E3. subst s. cbn. split; [apply closes_nil|]. split; [|intros v []].
      intros m [<-|[]]. unfold segmented_model in F. bnd F pts Fp. apply multi_closed in F. eapply closedT_mono; [|exact F].
      intros v Hv. apply in_app_iff in Hv. destruct Hv as [Hv|Hv]; [|apply in_app_iff in Hv; destruct Hv as [Hv|Hv]].
      + apply IS. cbn. rewrite app_nil_r. exact Hv.
      + apply in_map_iff in Hv. destruct Hv as [p [<- Hp]]. destruct (mapM_In_inv _ _ _ _ Fp Hp) as [f [Hfo E]].
        bnd E ss P1. bnd E ps P2. apply Ok_inj in E. subst p. apply Hf. auto.
      + apply IB. apply B3. exact Hv.
    - bnd E3 ch F1. bnd E3 dis F2. unfold of_option in F1, F2.
      destruct (nth_error (bo_flows b) 0) as [h|] eqn:N1; [|discriminate]. destruct (nth_error (bo_flows b) (length (cp_in c))) as [d|] eqn:N2; [|discriminate].
      apply Ok_inj in F1. apply Ok_inj in F2. subst h d. apply nth_error_In in N1. apply nth_error_In in N2.
      apply storage_closed in E3. destruct E3 as [A [A' A'']]. split; [|split].
      + eapply closes_mono; [|exact A]. intros v [<-|[<-|Hv]]; auto.
      + intros m Hm. eapply closedT_mono; [|exact (A' m Hm)]. auto.
      + eapply incl_tran; eauto.
    - bnd E3 k F. apply Ok_inj in E3. eapply NIL; [|symmetry; exact E3].
      assert (T : forall nm fi fo q, In fi (bo_flows b) -> In fo (bo_flows b) ->
                  transmission_eq cx (trc (cp_label c0)) (cp_label c) nm rel abs fi fo = Ok q -> incl (uses q) D).
      { intros nm fi fo q Hi Ho G. unfold transmission_eq in G. bnd G e G1. bnd G l G2. eapply eq_uses; [exact G|].
        rewrite flat_map_app. apply incl_app; [intros v [<-|[<-|[]]]; auto|].
        destruct abs as [p|]; [|apply Ok_inj in G2; subst l; intros v []]. bnd G2 on G3. bnd G2 a G4. apply Ok_inj in G2. subst l.
        intros v [<-|[]]. apply IB. apply (proj1 (proj2 (B2 fi Hi))). unfold of_option in G3. destruct (fo_on fi); [|discriminate].
        apply Ok_inj in G3. subst. simpl; auto. }
      unfold transmission_cons in F. bnd F in1 G1. bnd F out1 G2. bnd F c1 G3.
      assert (HI : forall k x, nth_error (firstn (length (cp_in c)) (bo_flows b)) k = Some x -> In x (bo_flows b)).
      { intros k' x N. apply nth_error_In in N. rewrite <- (firstn_skipn (length (cp_in c))). apply in_or_app. auto. }
      assert (HO : forall k x, nth_error (skipn (length (cp_in c)) (bo_flows b)) k = Some x -> In x (bo_flows b)).
      { intros k' x N. apply nth_error_In in N. rewrite <- (firstn_skipn (length (cp_in c))). apply in_or_app. auto. }
      unfold of_option in G1, G2. destruct (nth_error (firstn _ _) 0) eqn:N1 in G1; [|discriminate]. apply Ok_inj in G1. subst in1.
      destruct (nth_error (skipn _ _) 0) eqn:N2 in G2; [|discriminate]. apply Ok_inj in G2. subst out1.
      destruct (nth_error (firstn (length (cp_in c)) (bo_flows b)) 1) as [in2|] eqn:N3.
      + bnd F out2 G4. bnd F c2 G5. unfold of_option in G4. destruct (nth_error (skipn _ _) 1) eqn:N4 in G4; [|discriminate]. apply Ok_inj in G4. subst out2.
        destruct (fo_size f) as [s1|] eqn:Z1.
        * bnd F s2 G6. bnd F c3 G7. apply Ok_inj in F. subst k. unfold of_option in G6. destruct (fo_size in2) as [z|] eqn:Z2; [|discriminate]. apply Ok_inj in G6. subst z.
          apply closes_cons; [eapply T; [| |exact G3]; eauto|]. apply closes_cons; [eapply T; [| |exact G5]; eauto|].
          apply closes_cons; [|apply closes_nil]. eapply eq_uses; [exact G7|].
          pose proof (proj2 (proj2 (B2 _ (HI _ _ N1)))) as W1. pose proof (proj2 (proj2 (B2 _ (HI _ _ N3)))) as W2. rewrite Z1 in W1. rewrite Z2 in W2.
          intros v [<-|[<-|[]]]; apply IB; [apply W1|apply W2]; simpl; auto.
        * apply Ok_inj in F. subst k. apply closes_cons; [eapply T; [| |exact G3]; eauto|]. apply closes_cons; [eapply T; [| |exact G5]; eauto|apply closes_nil].
      + apply Ok_inj in F. subst k. apply closes_cons; [eapply T; [| |exact G3]; eauto|apply closes_nil]. }
  destruct K as [K1 [K2 K3]]. split; [|split; [exact Hf|]].
  - apply closedT_EM; auto. intros m Hm. apply in_app_iff in Hm. destruct Hm as [Hm|Hm]; auto. eapply closedT_mono; [exact IB|auto].
  - rewrite shv_app. apply incl_app; auto. eapply incl_tran; eauto.
Qed.

Lemma bus_closed : forall cx b ins outs m shs, bus_model cx b ins outs = Ok (m, shs) ->
  closedT (decl m ++ ins ++ outs) m /\ incl (shv shs) (decl m).
Proof.
  intros cx b ins outs m shs H. unfold bus_model in H.
  assert (X : forall q l, incl (flat_map call_vars (map (fun v => AddS v q None false) l)) l).
  { intros q l v Hv. apply in_flat_map in Hv. destruct Hv as [a [Ha Hv]]. apply in_map_iff in Ha. destruct Ha as [w [<- Hw]].
    destruct Hv as [<-|[]]. auto. }
  destruct (b_penalty b) as [p|].
  - bnd H a E1. bnd H pen E2. bnd H ei E3. bnd H eo E4. bnd H c E5. bnd H m' E6. apply Ok_inj in H. apply pair_equal_spec in H. destruct H as [<- <-].
    apply mk_em_spec in E6. destruct E6 as [-> _]. rewrite decl_EM. split; [|intros v Hv; simpl in *; tauto].
    apply closedT_EM; [|intros m []]. apply closes_cons; [|apply closes_nil]. eapply eq_uses; [exact E5|]. rewrite !flat_map_app.
    simpl flat_map. intros v Hv. repeat rewrite in_app_iff in *. destruct Hv as [[Hv|Hv]|Hv]; [apply X in Hv|apply X in Hv|simpl in *]; tauto.
  - bnd H c E1. bnd H m' E2. apply Ok_inj in H. apply pair_equal_spec in H. destruct H as [<- <-].
    apply mk_em_spec in E2. destruct E2 as [-> _]. rewrite decl_EM. split; [|intros v []].
    apply closedT_EM; [|intros m []]. apply closes_cons; [|apply closes_nil]. eapply eq_uses; [exact E1|]. rewrite !flat_map_app.
    simpl flat_map. intros v Hv. repeat rewrite in_app_iff in *. destruct Hv as [Hv|Hv]; apply X in Hv; tauto.
Qed.

(** ** Effects *)
Lemma single_closed : forall elem sh o, single_share elem sh = Ok o ->
  closedT (decl (ss_tree o) ++ ovar (sh_var sh)) (ss_tree o) /\ In (ss_var o) (decl (ss_tree o)).
Proof.
  intros elem sh o H. unfold single_share in H. bnd H u E1. bnd H sv E2. bnd H c E3. bnd H m E4. apply Ok_inj in H. subst o.
  cbn [ss_tree ss_var]. apply mk_em_spec in E4. destruct E4 as [-> _]. rewrite decl_EM. split; [|simpl; auto].
  apply closedT_EM; [|intros m []]. apply closes_cons; [|apply closes_nil]. eapply eq_uses; [exact E3|].
  destruct (sh_var sh); inc.
Qed.

Lemma alloc_closed : forall cx elem label ts tmin tmax phmin phmax shs o,
  share_alloc cx elem label ts tmin tmax phmin phmax shs = Ok o ->
  closedT (decl (sa_tree o) ++ shv shs) (sa_tree o)
  /\ In (sa_sum o) (decl (sa_tree o)) /\ incl (ovar (sa_sum_ts o)) (decl (sa_tree o)).
Proof.
  intros cx elem label ts tmin tmax phmin phmax shs o H. unfold share_alloc in H.
  bnd H u E1. bnd H s E2. bnd H st E3. bnd H singles E4. bnd H u' E5. bnd H csum E6. bnd H cts E7. bnd H m E8. apply Ok_inj in H. subst o.
  cbn [sa_tree sa_sum sa_sum_ts]. apply mk_em_spec in E8. destruct E8 as [-> _]. rewrite decl_EM.
  assert (HB : (match st with Some v => [v] | None => [] end) = ovar st) by (destruct st; reflexivity). rewrite HB.
  set (D := (s :: ovar st) ++ _).
  assert (Hs : In s D) by (left; auto). assert (Ht : incl (ovar st) D) by (intros v Hv; right; apply in_or_app; auto).
  assert (SG : forall so, In so singles -> In (ss_var (snd so)) D /\ closedT (D ++ shv shs) (ss_tree (snd so))).
  { intros so Hso. assert (I : incl (decl (ss_tree (snd so))) D).
    { intros v Hv. unfold D. apply in_or_app. right. apply in_flat_map. exists (ss_tree (snd so)). split; auto. apply in_map_iff. eauto. }
    destruct (mapM_In_inv _ _ _ _ E4 Hso) as [sh [Hsh E]]. bnd E o Eo. apply Ok_inj in E. subst so. cbn [snd] in *.
    apply single_closed in Eo. destruct Eo as [A B]. split; auto. eapply closedT_mono; [|exact A].
    intros v Hv. apply in_app_iff in Hv. destruct Hv as [Hv|Hv]; apply in_or_app; auto. right. unfold shv. apply in_flat_map. eauto. }
  clearbody D.
  assert (X : forall p, incl (flat_map call_vars (map (fun so : share * ss_out => AddS (ss_var (snd so)) (NS 1) None false) (filter p singles))) D).
  { intros p v Hv. apply in_flat_map in Hv. destruct Hv as [a [Ha Hv]]. apply in_map_iff in Ha. destruct Ha as [so [<- Hso]].
    apply filter_In in Hso. destruct Hv as [<-|[]]. exact (proj1 (SG so (proj1 Hso))). }
  split; [|split; auto]. apply closedT_EM.
  - apply closes_cons.
    + eapply eq_uses; [exact E6|]. apply incl_appl. rewrite !flat_map_app. apply incl_app; [intros v [<-|[]]; auto|]. apply incl_app; auto.
      destruct st as [w|]; [|intros v []]. intros v [<-|[]]. apply Ht. simpl; auto.
    + destruct st as [w|]; [|apply Ok_inj in E7; subst; apply closes_nil]. bnd E7 c F. apply Ok_inj in E7. subst cts.
      apply closes_cons; [|apply closes_nil]. eapply eq_uses; [exact F|]. apply incl_appl.
      cbn [flat_map]. apply incl_app; [intros v [<-|[]]; apply Ht; simpl; auto|apply X].
  - intros m Hm. apply in_map_iff in Hm. destruct Hm as [so [<- Hso]]. exact (proj2 (SG so Hso)).
Qed.

Lemma alloc_sum_is : forall cx elem label ts tmin tmax phmin phmax shs o,
  share_alloc cx elem label ts tmin tmax phmin phmax shs = Ok o -> alloc_sum elem label tmin tmax = Ok (sa_sum o).
Proof.
  intros cx elem label ts tmin tmax phmin phmax shs o H. unfold share_alloc in H.
  bnd H u E1. bnd H s E2. bnd H st E3. bnd H singles E4. bnd H u' E5. bnd H csum E6. bnd H cts E7. bnd H m E8. apply Ok_inj in H. subst o. exact E2.
Qed.
Lemma alloc_ts_is : forall cx elem label tmin tmax phmin phmax shs o,
  share_alloc cx elem label true tmin tmax phmin phmax shs = Ok o ->
  exists v, sa_sum_ts o = Some v /\ alloc_ts cx elem label phmin phmax = Ok v.
Proof.
  intros cx elem label tmin tmax phmin phmax shs o H. unfold share_alloc in H.
  bnd H u E1. bnd H s E2. bnd H st E3. bnd H singles E4. bnd H u' E5. bnd H csum E6. bnd H cts E7. bnd H m E8. apply Ok_inj in H. subst o.
  bnd E3 v F. apply Ok_inj in E3. subst st. exists v. auto.
Qed.

Lemma shv_filter : forall p l, incl (shv (filter p l)) (shv l).
Proof.
  intros p l v Hv. unfold shv in *. apply in_flat_map in Hv. destruct Hv as [s [Hs Hv]]. apply filter_In in Hs. apply in_flat_map. exists s. tauto.
Qed.

Lemma effect_closed : forall cx tre shs e m, effect_model cx tre shs e = Ok m ->
  closedT (decl m ++ shv shs) m
  /\ (forall v, op_sum_var e = Ok v -> In v (decl m)) /\ (forall v, inv_sum_var e = Ok v -> In v (decl m))
  /\ (forall v, op_ts_var cx (tre (e_label e)) e = Ok v -> In v (decl m)).
Proof.
  intros cx tre shs e m H. unfold effect_model in H. bnd H a E1. bnd H b E2. bnd H inv E3. bnd H op E4. bnd H al E5.
  apply mk_em_spec in H. destruct H as [-> _]. rewrite decl_EM. simpl app. cbn [flat_map]. rewrite app_nil_r.
  pose proof (alloc_sum_is _ _ _ _ _ _ _ _ _ _ E3) as S3. pose proof (alloc_sum_is _ _ _ _ _ _ _ _ _ _ E4) as S4.
  destruct (alloc_ts_is _ _ _ _ _ _ _ _ _ E4) as [t [T1 T2]].
  apply alloc_closed in E3. apply alloc_closed in E4. apply alloc_closed in E5.
  destruct E3 as [A1 [A2 A3]]. destruct E4 as [B1 [B2 B3]]. destruct E5 as [C1 [C2 C3]].
  set (D := decl (sa_tree inv) ++ decl (sa_tree op) ++ decl (sa_tree al)).
  assert (I1 : incl (decl (sa_tree inv)) D) by (apply incl_appl, incl_refl).
  assert (I2 : incl (decl (sa_tree op)) D) by (apply incl_appr, incl_appl, incl_refl).
  assert (I3 : incl (decl (sa_tree al)) D) by (apply incl_appr, incl_appr, incl_refl).
  clearbody D. split; [|split; [|split]].
  - apply closedT_EM; [apply closes_nil|]. intros m [<-|[<-|[<-|[]]]].
    + eapply closedT_mono; [|exact A1]. apply incl_app; [apply incl_appl; auto|apply incl_appr, shv_filter].
    + eapply closedT_mono; [|exact B1]. apply incl_app; [apply incl_appl; auto|apply incl_appr, shv_filter].
    + eapply closedT_mono; [|exact C1]. apply incl_app; [apply incl_appl; auto|].
      cbn. intros v [<-|[<-|[]]]; apply in_or_app; left; auto.
  - intros v Hv. unfold op_sum_var in Hv. assert (v = sa_sum op) by congruence. subst. auto.
  - intros v Hv. unfold inv_sum_var in Hv. assert (v = sa_sum inv) by congruence. subst. auto.
  - intros v Hv. unfold op_ts_var in Hv. rewrite E1, E2 in Hv. cbn [bind] in Hv. assert (v = t) by congruence. subst. apply I2. apply B3. rewrite T1. simpl; auto.
Qed.

Lemma effects_closed : forall cx tre shs m obj, effects_model cx tre shs = Ok (m, obj) ->
  closedT (decl m ++ shv shs) m /\ incl (uses obj) (decl m).
Proof.
  intros cx tre shs m obj H. unfold effects_model in H. bnd H bo E1. bnd H bi E2. bnd H ms E3. bnd H pen E4. bnd H oe E5. bnd H vo E6.
  bnd H vi E7. bnd H ob E8. bnd H root E9. apply Ok_inj in H. apply pair_equal_spec in H. destruct H as [<- <-].
  apply mk_em_spec in E9. destruct E9 as [-> _]. rewrite decl_EM, flat_map_app. simpl app. cbn [flat_map]. rewrite app_nil_r.
  set (all := List.concat bo ++ List.concat bi ++ shs) in *. set (D := flat_map decl ms ++ decl (sa_tree pen)).
  assert (I1 : forall k, In k ms -> incl (decl k) D) by (intros k Hk v Hv; apply in_or_app; left; apply in_flat_map; eauto).
  assert (I2 : incl (decl (sa_tree pen)) D) by (apply incl_appr, incl_refl).
  clearbody D.
  assert (EV : forall e, In e (cx_effects cx) ->
    (forall v, op_sum_var e = Ok v -> In v D) /\ (forall v, inv_sum_var e = Ok v -> In v D) /\ (forall v, op_ts_var cx (tre (e_label e)) e = Ok v -> In v D)).
  { intros e He. destruct (mapM_In _ _ _ _ E3 He) as [k [Ek Hk]]. apply effect_closed in Ek. destruct Ek as [_ [A [B C]]].
    specialize (I1 k Hk). repeat split; intros v Hv; apply I1; auto. }
  assert (SV : incl (shv all) (D ++ shv shs)).
  { unfold all. rewrite !shv_app. apply incl_app; [|apply incl_app; [|apply incl_appr, incl_refl]]; apply incl_appl; intros v Hv;
      unfold shv in Hv; apply in_flat_map in Hv; destruct Hv as [s [Hs Hv]]; apply in_concat in Hs; destruct Hs as [l [Hl Hs]].
    - destruct (mapM_In_inv _ _ _ _ E1 Hl) as [e [He E]]. unfold between_op in E. destruct (mapM_In_inv _ _ _ _ E Hs) as [kp [_ F]].
      bnd F u1 F1. bnd F w F2. bnd F a F3. apply Ok_inj in F. subst s. destruct Hv as [<-|[]]. exact (proj2 (proj2 (EV e He)) w F2).
    - destruct (mapM_In_inv _ _ _ _ E2 Hl) as [e [He E]]. unfold between_inv in E. destruct (mapM_In_inv _ _ _ _ E Hs) as [kp [_ F]].
      bnd F u1 F1. bnd F w F2. apply Ok_inj in F. subst s. destruct Hv as [<-|[]]. exact (proj1 (proj2 (EV e He)) w F2). }
  pose proof (alloc_closed _ _ _ _ _ _ _ _ _ _ E4) as [P1 [P2 _]].
  split.
  - apply closedT_EM; [apply closes_nil|]. intros k Hk. apply in_app_iff in Hk. destruct Hk as [Hk|[<-|[]]].
    + destruct (mapM_In_inv _ _ _ _ E3 Hk) as [e [He E]]. apply effect_closed in E. destruct E as [A _].
      eapply closedT_mono; [|exact A]. apply incl_app; auto. apply incl_appl; auto.
    + eapply closedT_mono; [|exact P1]. apply incl_app; [apply incl_appl; auto|]. eapply incl_tran; [apply shv_filter|auto].
  - unfold of_option in E5. destruct (objective_effect (cx_effects cx)) as [e|] eqn:N; [|discriminate]. apply Ok_inj in E5. subst e.
    unfold objective_effect in N. apply find_some in N. destruct N as [N _]. destruct (EV oe N) as [A [B _]].
    eapply incl_tran; [eapply uses_calls; exact E8|]. intros v [<-|[<-|[<-|[]]]]; auto.
Qed.

(** ** The whole system *)
Definition roots_decl (ds : list emodel) : list variable := flat_map decl ds.

Lemma parts_closed : forall cx fs cos bos em obj shs,
  mapM (comp_model cx (visible_flow fs) (visible_comp fs)) (fs_comps fs) = Ok cos ->
  (forall m sh, In (m, sh) bos -> exists b ins outs, bus_model cx b ins outs = Ok (m, sh)
     /\ incl ins (map fo_rate (flat_map co_flows cos)) /\ incl outs (map fo_rate (flat_map co_flows cos))) ->
  effects_model cx (visible_effect fs) (flat_map co_shares cos ++ flat_map snd bos ++ shs) = Ok (em, obj) ->
  forall D, incl (decl em) D -> incl (flat_map decl (map co_tree cos)) D -> incl (flat_map decl (map fst bos)) D -> incl (shv shs) D ->
  (forall d, In d (em :: map co_tree cos ++ map fst bos) -> closedT D d) /\ incl (uses obj) D.
Proof.
  intros cx fs cos bos em obj shs E1 HB E3 D I1 I2 I3 I4.
  assert (C : forall o, In o cos -> closedT (decl (co_tree o)) (co_tree o)
                /\ (forall f, In f (co_flows o) -> In (fo_rate f) (decl (co_tree o))) /\ incl (shv (co_shares o)) (decl (co_tree o))).
  { intros o Ho. destruct (mapM_In_inv _ _ _ _ E1 Ho) as [c [_ E]]. eapply comp_closed; eauto. }
  assert (IC : forall o, In o cos -> incl (decl (co_tree o)) D).
  { intros o Ho v Hv. apply I2. apply in_flat_map. exists (co_tree o). split; auto. apply in_map; auto. }
  assert (IB : forall p, In p bos -> incl (decl (fst p)) D).
  { intros o Ho v Hv. apply I3. apply in_flat_map. exists (fst o). split; auto. apply in_map; auto. }
  assert (RATE : incl (map fo_rate (flat_map co_flows cos)) D).
  { intros v Hv. apply in_map_iff in Hv. destruct Hv as [f [<- Hf]]. apply in_flat_map in Hf. destruct Hf as [o [Ho Hf]].
    apply (IC o Ho). exact (proj1 (proj2 (C o Ho)) f Hf). }
  apply effects_closed in E3. destruct E3 as [A B]. split; [|eapply incl_tran; eauto].
  intros d [<-|Hd].
  - eapply closedT_mono; [|exact A]. apply incl_app; auto. rewrite !shv_app. apply incl_app; [|apply incl_app; auto].
    + intros v Hv. unfold shv in Hv. apply in_flat_map in Hv. destruct Hv as [s [Hs Hv]]. apply in_flat_map in Hs. destruct Hs as [o [Ho Hs]].
      apply (IC o Ho). apply (proj2 (proj2 (C o Ho))). apply in_flat_map. eauto.
    + intros v Hv. unfold shv in Hv. apply in_flat_map in Hv. destruct Hv as [s [Hs Hv]]. apply in_flat_map in Hs. destruct Hs as [[m sh] [Ho Hs]].
      destruct (HB m sh Ho) as [b [ins [outs [E _]]]]. apply bus_closed in E. apply (IB _ Ho). cbn [fst]. apply (proj2 E). apply in_flat_map. eauto.
  - apply in_app_iff in Hd. destruct Hd as [Hd|Hd]; apply in_map_iff in Hd; destruct Hd as [o [<- Ho]].
    + eapply closedT_mono; [apply (IC o Ho)|exact (proj1 (C o Ho))].
    + destruct o as [m sh]. destruct (HB m sh Ho) as [b [ins [outs [E [X Y]]]]]. apply bus_closed in E. destruct E as [E _].
      eapply closedT_mono; [|exact E]. apply incl_app; [exact (IB _ Ho)|]. apply incl_app; eapply incl_tran; eauto.
Qed.

Lemma bus_from : forall cx fs ord fos bos,
  mapM (fun b => i <- mapM (fun i => o <- find_fo fos i ;; Ok (fo_rate o)) (bus_inputs fs b) ;;
                 o <- mapM (fun i => o <- find_fo fos i ;; Ok (fo_rate o)) (bus_outputs fs b) ;; bus_model cx b i o) (buses ord fs) = Ok bos ->
  forall m sh, In (m, sh) bos -> exists b ins outs, bus_model cx b ins outs = Ok (m, sh)
    /\ incl ins (map fo_rate fos) /\ incl outs (map fo_rate fos).
Proof.
  intros cx fs ord fos bos H m sh Hi. destruct (mapM_In_inv _ _ _ _ H Hi) as [b [_ E]]. bnd E ins E1. bnd E outs E2.
  exists b, ins, outs. split; auto.
  assert (X : forall ids l, mapM (fun i => o <- find_fo fos i ;; Ok (fo_rate o)) ids = Ok l -> incl l (map fo_rate fos)).
  { intros ids l G v Hv. destruct (mapM_In_inv _ _ _ _ G Hv) as [i [_ F]]. bnd F o Fo. apply Ok_inj in F. subst v. apply in_map.
    eapply find_fo_In; eauto. }
  split; eapply X; eauto.
Qed.
