(** C30, C31: registration of effects and components. C32: the time axis. *)
From Verif Require Import Base BaseFacts MathModel Spec Structure Params Features Elements System SysSpec CtxFacts Register.
From Coq Require Import Permutation.

(** ** Lists *)
Lemma set_nth_length : forall {A} k (x : A) l, length (set_nth k x l) = length l.
Proof. intros A k x l. revert k. induction l as [|a l IH]; intros [|k]; simpl; auto. Qed.
Lemma nth_error_set_nth : forall {A} k j (x : A) l,
  nth_error (set_nth k x l) j = if Nat.eqb k j then (match nth_error l j with Some _ => Some x | None => None end) else nth_error l j.
Proof.
  intros A k j x l. revert k j. induction l as [|a l IH]; intros k j.
  - destruct k, j; simpl; auto. destruct (Nat.eqb k j); auto.
  - destruct k, j; simpl; auto.
Qed.
Lemma for_each_inv : forall {W A} (f : W -> A -> W * option exn) (P : W -> Prop), (forall w a, P w -> P (fst (f w a))) ->
  forall l w, P w -> P (fst (for_each f l w)).
Proof.
  intros W A f P F. induction l as [|a l IH]; intros w H; simpl; auto. specialize (F w a H). destruct (f w a) as [w' [x|]]; simpl in *; auto.
Qed.

(** An invariant of every system holds after any history if each registration keeps it. *)
Lemma systems_inv : forall (P : flow_system -> Prop),
  (forall times u last prev fs, mk_flow_system times u last prev = Ok fs -> P fs) ->
  (forall fs c fs', P fs -> add_component fs c = Ok fs' -> P fs') ->
  (forall fs e es, P fs -> add_effect (fs_effects fs) e = Ok es -> P (with_effects fs es)) ->
  forall l k fs, nth_error (rg_systems (registered l)) k = Some fs -> P fs.
Proof.
  intros P PN PC PE. set (Q0 := fun r : registry => forall k fs, nth_error (rg_systems r) k = Some fs -> P fs).
  assert (SS : forall k fs0 fs' r, nth_error (rg_systems r) k = Some fs0 -> P fs' -> Q0 r -> forall i o, Q0 (mkReg (set_nth k fs' (rg_systems r)) i o)).
  { intros k fs0 fs' r N F Q i o j fs H. cbn [rg_systems] in H. rewrite nth_error_set_nth in H. destruct (Nat.eqb k j) eqn:E; [|eapply Q; eauto].
    apply Nat.eqb_eq in E. subst j. rewrite N in H. congruence. }
  assert (CC : forall k r c, Q0 r -> Q0 (fst (register_component k r c))).
  { intros k r c Q. unfold register_component. destruct (nth_error (rg_systems r) k) as [fs|] eqn:N; auto. destruct (add_component fs c) as [fs'|x] eqn:A; auto.
    cbn [fst]. unfold set_system, register_flows. cbn [rg_systems]. eapply SS; eauto. }
  assert (EE : forall k r e, Q0 r -> Q0 (fst (register_effect k r e))).
  { intros k r e Q. unfold register_effect. destruct (nth_error (rg_systems r) k) as [fs|] eqn:N; auto. destruct (add_effect (fs_effects fs) e) as [es|x] eqn:A; auto.
    cbn [fst]. unfold set_system. eapply SS; eauto. }
  assert (G : forall l r, Q0 r -> Q0 (fold_left (fun r o => fst (do_rop r o)) l r)).
  { induction l as [|o l IH]; intros r Q; cbn [fold_left]; auto. apply IH. destruct o as [times u last prev|k es|k cs|k as_]; cbn [do_rop].
    - destruct (mk_flow_system times u last prev) as [fs|x] eqn:M; auto. cbn [fst]. intros j fs' H. cbn [rg_systems] in H.
      destruct (Nat.lt_ge_cases j (length (rg_systems r))) as [C|C]; [rewrite nth_error_app1 in H by auto; eapply Q; eauto|].
      rewrite nth_error_app2 in H by auto. destruct (j - length (rg_systems r))%nat as [|z]; [|destruct z; discriminate]. inversion H; subst. eapply PN; eauto.
    - apply for_each_inv; auto.
    - apply for_each_inv; auto.
    - apply for_each_inv; auto. intros r' [e|c|] Q'; cbn [register_element]; auto. }
  intros l. apply G. intros [|k] fs H; discriminate.
Qed.

(** ** C30: effects *)

(** What forbids adding an effect. *)
Definition conflicts (es : list effect) (e : effect) : Prop :=
  (e_std e = true /\ exists e', In e' es /\ e_std e' = true) \/
  (e_obj e = true /\ exists e', In e' es /\ e_obj e' = true) \/
  In (e_id e) (map e_id es) \/ In (e_label e) (map e_label es).
Definition well_formed (es : list effect) : Prop :=
  NoDup (map e_label es) /\ NoDup (map e_id es) /\
  (forall e e', In e es -> In e' es -> e_std e = true -> e_std e' = true -> e = e') /\
  (forall e e', In e es -> In e' es -> e_obj e = true -> e_obj e' = true -> e = e').

Lemma find_some_iff : forall {A} (f : A -> bool) l, is_some (find f l) = true <-> exists a, In a l /\ f a = true.
Proof.
  intros A f l. split.
  - destruct (find f l) as [a|] eqn:F; [|discriminate]. intros _. apply find_some in F. eauto.
  - intros [a [I F]]. destruct (find f l) eqn:E; auto. pose proof (find_none _ _ E a I). congruence.
Qed.
Lemma add_effect_spec : forall es e,
  (add_effect es e = Ok (es ++ [e]) /\ ~ conflicts es e) \/ (exists x, add_effect es e = Err x /\ conflicts es e).
Proof.
  intros es e. unfold add_effect, conflicts.
  assert (S1 : is_some (standard_effect es) = true <-> exists a, In a es /\ e_std a = true) by apply find_some_iff.
  assert (O1 : is_some (objective_effect es) = true <-> exists a, In a es /\ e_obj a = true) by apply find_some_iff.
  assert (I1 : existsb (fun e' => Nat.eqb (e_id e') (e_id e)) es = true <-> In (e_id e) (map e_id es)).
  { rewrite existsb_exists, in_map_iff. split; intros [a [A B]]; exists a; [apply Nat.eqb_eq in B|apply Nat.eqb_eq in A]; auto. }
  assert (L1 : mem_str (e_label e) (map e_label es) = true <-> In (e_label e) (map e_label es)) by apply mem_str_In.
  destruct (e_std e && is_some (standard_effect es))%bool eqn:A.
  { right. eexists. split; [reflexivity|]. left. apply andb_true_iff in A. destruct A as [A B]. apply S1 in B. auto. }
  destruct (e_obj e && is_some (objective_effect es))%bool eqn:B.
  { right. eexists. split; [reflexivity|]. right. left. apply andb_true_iff in B. destruct B as [B C]. apply O1 in C. auto. }
  destruct (existsb (fun e' => Nat.eqb (e_id e') (e_id e)) es) eqn:C.
  { right. eexists. split; [reflexivity|]. right. right. left. apply I1; auto. }
  destruct (mem_str (e_label e) (map e_label es)) eqn:D.
  { right. eexists. split; [reflexivity|]. right. right. right. apply L1; auto. }
  left. split; [reflexivity|]. intros [[X Y]|[[X Y]|[X|X]]].
  - apply S1 in Y. rewrite X, Y in A. discriminate.
  - apply O1 in Y. rewrite X, Y in B. discriminate.
  - apply I1 in X. congruence.
  - apply L1 in X. congruence.
Qed.
Lemma NoDup_snoc : forall {A} (l : list A) a, NoDup l -> ~ In a l -> NoDup (l ++ [a]).
Proof.
  intros A l a N H. apply NoDup_rev in N. rewrite <- (rev_involutive (l ++ [a])). apply NoDup_rev. rewrite rev_app_distr. simpl. constructor; auto.
  rewrite <- in_rev. auto.
Qed.
Lemma well_formed_add : forall es e, well_formed es -> ~ conflicts es e -> well_formed (es ++ [e]).
Proof.
  intros es e [W1 [W2 [W3 W4]]] C. unfold conflicts in C. repeat split.
  - rewrite map_app. apply NoDup_snoc; [assumption|tauto].
  - rewrite map_app. apply NoDup_snoc; [assumption|tauto].
  - intros a b Ha Hb A B. apply in_app_or in Ha. apply in_app_or in Hb. simpl in Ha, Hb.
    destruct Ha as [Ha|[<-|[]]], Hb as [Hb|[<-|[]]]; auto; exfalso; apply C; left; eauto.
  - intros a b Ha Hb A B. apply in_app_or in Ha. apply in_app_or in Hb. simpl in Ha, Hb.
    destruct Ha as [Ha|[<-|[]]], Hb as [Hb|[<-|[]]]; auto; exfalso; apply C; right; left; eauto.
Qed.

(** The full claim: unique labels, at most one standard and one objective effect after any history, and failing calls
    change nothing. *)
Definition C30_full : Prop := forall l,
  (forall k fs, nth_error (rg_systems (registered l)) k = Some fs -> well_formed (fs_effects fs)) /\
  (forall k es r x, do_rop (registered l) (REffects k es) = (r, Some x) -> r = registered l).

Lemma effects_call : forall k es r fs, nth_error (rg_systems r) k = Some fs ->
  exists pre post r' fs', es = pre ++ post /\ fst (do_rop r (REffects k es)) = r' /\ nth_error (rg_systems r') k = Some fs' /\
    fs_effects fs' = fs_effects fs ++ pre /\ fs_comps fs' = fs_comps fs /\
    (forall j, j <> k -> nth_error (rg_systems r') j = nth_error (rg_systems r) j) /\ rg_in r' = rg_in r /\ rg_out r' = rg_out r /\
    (pre = [] -> r' = r) /\
    match post with
    | [] => snd (do_rop r (REffects k es)) = None
    | e :: _ => (exists x, snd (do_rop r (REffects k es)) = Some x) /\ conflicts (fs_effects fs ++ pre) e
    end.
Proof.
  intros k es. cbn [do_rop]. induction es as [|e es IH]; intros r fs N.
  - exists [], [], r, fs. simpl. rewrite app_nil_r. repeat split; auto.
  - cbn [for_each]. assert (R : register_effect k r e = match add_effect (fs_effects fs) e with Ok es => (set_system k (with_effects fs es) r, None) | Err x => (r, Some x) end)
      by (unfold register_effect; rewrite N; reflexivity).
    destruct (add_effect_spec (fs_effects fs) e) as [[A C]|[x [A C]]]; rewrite A in R; rewrite R.
    + set (r1 := set_system k (with_effects fs (fs_effects fs ++ [e])) r) in *.
      assert (N1 : nth_error (rg_systems r1) k = Some (with_effects fs (fs_effects fs ++ [e]))).
      { unfold r1, set_system. cbn [rg_systems]. rewrite nth_error_set_nth, Nat.eqb_refl, N. reflexivity. }
      destruct (IH r1 _ N1) as [pre [post [r' [fs' [E1 [E2 [E3 [E4 [E5 [E6 [E7 [E8 [E9 E10]]]]]]]]]]]]].
      exists (e :: pre), post, r', fs'. rewrite E1. cbn [with_effects fs_effects fs_comps] in *. rewrite <- app_assoc in E4, E10. simpl in E4, E10.
      split; [reflexivity|]. rewrite <- E1. split; [exact E2|]. split; [exact E3|]. split; [exact E4|]. split; [exact E5|].
      split; [|split; [exact E7|split; [exact E8|split; [discriminate|exact E10]]]].
      intros j J. rewrite (E6 j J). unfold r1, set_system. cbn [rg_systems]. rewrite nth_error_set_nth. apply Nat.eqb_neq in J. rewrite Nat.eqb_sym, J. reflexivity.
    + exists [], (e :: es), r, fs. simpl. rewrite app_nil_r. repeat split; eauto.
Qed.

(** Labels, identities and roles stay unique after any history. A call adds the effects up to the first one that conflicts
    with what is there by then, in order, and fails exactly if there is one; with a single argument a failing call changes
    nothing. *)
Theorem C30_effects_partial : forall l,
  (forall k fs, nth_error (rg_systems (registered l)) k = Some fs -> well_formed (fs_effects fs)) /\
  (forall k e r x, do_rop (registered l) (REffects k [e]) = (r, Some x) -> r = registered l) /\
  (forall k es fs, nth_error (rg_systems (registered l)) k = Some fs ->
     exists pre post fs', es = pre ++ post /\
     nth_error (rg_systems (fst (do_rop (registered l) (REffects k es)))) k = Some fs' /\ fs_effects fs' = fs_effects fs ++ pre /\
     match post with
     | [] => snd (do_rop (registered l) (REffects k es)) = None
     | e :: _ => (exists x, snd (do_rop (registered l) (REffects k es)) = Some x) /\ conflicts (fs_effects fs ++ pre) e
     end).
Proof.
  intros l. split; [|split].
  - apply (systems_inv (fun fs => well_formed (fs_effects fs))).
    + intros times u last prev fs H. unfold mk_flow_system in H. inv_ok. simpl. repeat split; try constructor; intros e e' [].
    + intros fs c fs' W H. unfold add_component in H. inv_ok. exact W.
    + intros fs e es W H. destruct (add_effect_spec (fs_effects fs) e) as [[A C]|[x [A C]]]; rewrite A in H; inv_ok. cbn [with_effects fs_effects].
      apply well_formed_add; auto.
  - intros k e r x H. cbn [do_rop for_each] in H. unfold register_effect in H. destruct (nth_error (rg_systems (registered l)) k) as [fs|]; [|congruence].
    destruct (add_effect (fs_effects fs) e); congruence.
  - intros k es fs N. destruct (effects_call k es _ fs N) as [pre [post [r' [fs' [E1 [E2 [E3 [E4 [_ [_ [_ [_ [_ E10]]]]]]]]]]]]].
    exists pre, post, fs'. rewrite E2. auto.
Qed.
Print Assumptions C30_effects_partial.

Definition eff (i : nat) (lab : string) (std obj : bool) : effect := mkEffect i lab std obj [] [] None None None None None None None None.
Definition reg0 : list rop :=
  [RSystem [0; 1; 2] 1 None None; REffects 0 [eff 0 "costs" true true; eff 1 "CO2" false false];
   REffects 0 [eff 2 "PE" false false; eff 3 "CO2" false false; eff 4 "noise" false false]; REffects 0 [eff 5 "money" true false]].
Example C30_example :
  map (fun fs => map e_label (fs_effects fs)) (rg_systems (registered reg0)) = [["costs"; "CO2"; "PE"]].
Proof. vm_compute. reflexivity. Qed.

(** A call with several effects that fails at the second keeps the first. *)
Theorem C30_refuted : ~ C30_full.
Proof.
  intros F. destruct (F [RSystem [0; 1; 2] 1 None None]) as [_ H].
  specialize (H 0%nat [eff 0 "costs" true true; eff 1 "costs" false false]). vm_compute in H. specialize (H _ _ eq_refl). discriminate.
Qed.
Print Assumptions C30_refuted.

(** ** C31: components *)

(** Flows of registered components at a bus: those the bus receives and those it serves. *)
Definition feeds (b : nat) (fs : flow_system) : list nat :=
  map f_id (filter (fun f => Nat.eqb (b_id (f_bus f)) b) (flat_map cp_out (fs_comps fs))).
Definition drains (b : nat) (fs : flow_system) : list nat :=
  map f_id (filter (fun f => Nat.eqb (b_id (f_bus f)) b) (flat_map cp_in (fs_comps fs))).
Definition all_labels (fs : flow_system) : list string := map cp_label (fs_comps fs) ++ effect_labels fs ++ flow_fulls fs ++ bus_labels fs.
(** No component is hidden behind another kind of element with the same label. *)
Definition no_shadow (fs : flow_system) : Prop :=
  forall c, In c (fs_comps fs) -> ~ In (cp_label c) (effect_labels fs ++ flow_fulls fs ++ bus_labels fs).

Definition C31_full : Prop := forall l k fs, nth_error (rg_systems (registered l)) k = Some fs ->
  NoDup (map cp_label (fs_comps fs)) /\ no_shadow fs /\
  forall c f, In c (fs_comps fs) -> In f (cp_flows c) ->
    count_occ Nat.eq_dec (at_bus (b_id (f_bus f)) (rg_in (registered l) ++ rg_out (registered l))) (f_id f) = 1%nat.

Lemma add_component_spec : forall fs c,
  (add_component fs c = Ok (with_comps fs (fs_comps fs ++ [c])) /\ ~ In (cp_label c) (all_labels fs)) \/
  (exists x, add_component fs c = Err x /\ In (cp_label c) (all_labels fs)).
Proof.
  intros fs c. unfold add_component, all_labels. pose proof (mem_str_In (cp_label c) (map cp_label (fs_comps fs) ++ effect_labels fs ++ flow_fulls fs ++ bus_labels fs)) as M.
  destruct (mem_str (cp_label c) _) eqn:E; cbn [negb guard bind].
  - right. eexists. split; [reflexivity|]. apply M; auto.
  - left. split; [reflexivity|]. intros X. apply M in X. congruence.
Qed.

(** What the buses know is exactly what the components registered so far feed in and take out, over all systems. *)
Definition known (r : registry) : Prop := forall b,
  Permutation (at_bus b (rg_in r)) (flat_map (feeds b) (rg_systems r)) /\ Permutation (at_bus b (rg_out r)) (flat_map (drains b) (rg_systems r)).
Definition known_in_order (r : registry) : Prop := forall b fs, rg_systems r = [fs] ->
  at_bus b (rg_in r) = feeds b fs /\ at_bus b (rg_out r) = drains b fs.

Lemma at_bus_app : forall b l l', at_bus b (l ++ l') = at_bus b l ++ at_bus b l'.
Proof. intros. unfold at_bus. rewrite filter_app, map_app. reflexivity. Qed.
Lemma at_bus_flows : forall b l, at_bus b (map (fun f => (b_id (f_bus f), f_id f)) l) = map f_id (filter (fun f => Nat.eqb (b_id (f_bus f)) b) l).
Proof. intros b l. unfold at_bus. induction l as [|f l IH]; simpl; auto. destruct (Nat.eqb (b_id (f_bus f)) b); simpl; rewrite IH; auto. Qed.
Lemma flat_map_set : forall {A B} (g : A -> list B) l k x y e, nth_error l k = Some x -> g y = g x ++ e ->
  Permutation (flat_map g l ++ e) (flat_map g (set_nth k y l)).
Proof.
  intros A B g. induction l as [|a l IH]; intros k x y e N G; [destruct k; discriminate|]. destruct k; simpl in *.
  - inversion N; subst. rewrite G, <- !app_assoc. apply Permutation_app_head. apply Permutation_app_comm.
  - rewrite <- app_assoc. apply Permutation_app_head. eapply IH; eauto.
Qed.
Lemma set_nth_one : forall {A} k (x y z : A) l, nth_error l k = Some x -> set_nth k y l = [z] -> l = [x] /\ y = z.
Proof.
  intros A k x y z l N S. destruct l as [|a [|b l]]; destruct k; simpl in *; try discriminate.
  - inversion N; inversion S; subst; auto.
  - destruct k; discriminate.
  - destruct k; discriminate.
Qed.
Lemma known_component : forall k r c, known r /\ known_in_order r -> known (fst (register_component k r c)) /\ known_in_order (fst (register_component k r c)).
Proof.
  intros k r c [K O]. unfold register_component. destruct (nth_error (rg_systems r) k) as [fs|] eqn:N; auto.
  destruct (add_component_spec fs c) as [[A _]|[x [A _]]]; rewrite A; auto. cbn [fst]. unfold set_system, register_flows. cbn [rg_systems rg_in rg_out].
  assert (F : forall b, feeds b (with_comps fs (fs_comps fs ++ [c])) = feeds b fs ++ at_bus b (map (fun f => (b_id (f_bus f), f_id f)) (cp_out c))).
  { intros b. unfold feeds. cbn [with_comps fs_comps]. rewrite flat_map_app. simpl. rewrite app_nil_r, filter_app, map_app, at_bus_flows. reflexivity. }
  assert (D : forall b, drains b (with_comps fs (fs_comps fs ++ [c])) = drains b fs ++ at_bus b (map (fun f => (b_id (f_bus f), f_id f)) (cp_in c))).
  { intros b. unfold drains. cbn [with_comps fs_comps]. rewrite flat_map_app. simpl. rewrite app_nil_r, filter_app, map_app, at_bus_flows. reflexivity. }
  split.
  - intros b. cbn [rg_systems rg_in rg_out]. rewrite !at_bus_app. destruct (K b) as [K1 K2]. split.
    + rewrite K1. eapply flat_map_set; eauto.
    + rewrite K2. eapply flat_map_set; eauto.
  - intros b fs' S. cbn [rg_systems rg_in rg_out] in *. destruct (set_nth_one _ _ _ _ _ N S) as [S1 <-]. destruct (O b fs S1) as [O1 O2].
    rewrite !at_bus_app, O1, O2, F, D. auto.
Qed.
Lemma flat_map_set_same : forall {A B} (g : A -> list B) l k x y, nth_error l k = Some x -> g y = g x -> flat_map g (set_nth k y l) = flat_map g l.
Proof.
  intros A B g. induction l as [|a l IH]; intros k x y N G; [destruct k; discriminate|]. destruct k; simpl in *.
  - inversion N; subst. rewrite G. reflexivity.
  - erewrite IH; eauto.
Qed.
Lemma known_effect : forall k r e, known r /\ known_in_order r -> known (fst (register_effect k r e)) /\ known_in_order (fst (register_effect k r e)).
Proof.
  intros k r e [K O]. unfold register_effect. destruct (nth_error (rg_systems r) k) as [fs|] eqn:N; auto. destruct (add_effect (fs_effects fs) e) as [es|x]; auto.
  cbn [fst]. unfold set_system. split.
  - intros b. cbn [rg_systems rg_in rg_out]. destruct (K b) as [K1 K2]. rewrite K1, K2. split; erewrite flat_map_set_same; eauto.
  - intros b fs' S. cbn [rg_systems rg_in rg_out] in *. destruct (set_nth_one _ _ _ _ _ N S) as [S1 <-]. apply (O b fs S1).
Qed.
Lemma known_registered : forall l, known (registered l) /\ known_in_order (registered l).
Proof.
  assert (G : forall l r, known r /\ known_in_order r -> (length (rg_systems r) = 0%nat -> rg_in r = [] /\ rg_out r = []) ->
     known (fold_left (fun r o => fst (do_rop r o)) l r) /\ known_in_order (fold_left (fun r o => fst (do_rop r o)) l r)).
  { induction l as [|o l IH]; intros r K Z; cbn [fold_left]; auto.
    set (P := fun r => (known r /\ known_in_order r) /\ (length (rg_systems r) = 0%nat -> rg_in r = [] /\ rg_out r = [])).
    assert (PC : forall k r c, P r -> P (fst (register_component k r c))).
    { intros k r0 c [A B]. split; [apply known_component; auto|]. unfold register_component. destruct (nth_error (rg_systems r0) k) eqn:N; auto.
      destruct (add_component f c); auto. cbn [fst]. unfold set_system, register_flows. cbn [rg_systems]. rewrite set_nth_length. intros L.
      destruct (rg_systems r0); [destruct k; discriminate|discriminate]. }
    assert (PE : forall k r c, P r -> P (fst (register_effect k r c))).
    { intros k r0 c [A B]. split; [apply known_effect; auto|]. unfold register_effect. destruct (nth_error (rg_systems r0) k) eqn:N; auto.
      destruct (add_effect (fs_effects f) c); auto. cbn [fst]. unfold set_system. cbn [rg_systems]. rewrite set_nth_length. intros L.
      destruct (rg_systems r0); [destruct k; discriminate|discriminate]. }
    assert (PR : P (fst (do_rop r o))).
    { assert (P0 : P r) by (split; auto). destruct o as [times u last prev|k es|k cs|k as_]; cbn [do_rop].
      - destruct (mk_flow_system times u last prev) as [fs|x] eqn:M; auto. cbn [fst]. assert (C : fs_comps fs = []) by (unfold mk_flow_system in M; inv_ok; reflexivity).
        assert (FE : forall b, feeds b fs = [] /\ drains b fs = []) by (intros b; unfold feeds, drains; rewrite C; auto).
        split; [split|].
        + intros b. cbn [rg_systems rg_in rg_out]. rewrite !flat_map_app. simpl. destruct (FE b) as [-> ->]. simpl. rewrite !app_nil_r. apply K.
        + intros b fs' S. cbn [rg_systems rg_in rg_out] in *. destruct (rg_systems r) as [|a [|a' s]] eqn:RS; [|discriminate|discriminate].
          simpl in S. inversion S; subst fs'. destruct (FE b) as [-> ->]. destruct (Z eq_refl) as [-> ->]. auto.
        + cbn [rg_systems]. rewrite app_length. simpl. lia.
      - apply for_each_inv; auto.
      - apply for_each_inv; auto.
      - apply for_each_inv; auto. intros r' [e|c|] Q'; cbn [register_element]; auto. }
    apply IH; apply PR. }
  intros l. apply G; [split|]; auto.
  - intros b. simpl. auto.
  - intros b fs H. discriminate.
Qed.

(** After any history: component labels are unique in every system, a new component is refused exactly if its label is in
    use, a refused one leaves no trace, and the flows known to a bus are those of the registered components, each on its
    side - in order of registration if there is one system. *)
Theorem C31_components_partial : forall l,
  (forall k fs, nth_error (rg_systems (registered l)) k = Some fs -> NoDup (map cp_label (fs_comps fs))) /\
  (forall k fs c, nth_error (rg_systems (registered l)) k = Some fs ->
     let r' := do_rop (registered l) (RComponents k [c]) in
     if in_dec string_dec (cp_label c) (all_labels fs)
     then fst r' = registered l /\ snd r' <> None
     else snd r' = None /\ exists fs', nth_error (rg_systems (fst r')) k = Some fs' /\ fs_comps fs' = fs_comps fs ++ [c] /\ fs_effects fs' = fs_effects fs) /\
  (forall b, Permutation (at_bus b (rg_in (registered l))) (flat_map (feeds b) (rg_systems (registered l))) /\
             Permutation (at_bus b (rg_out (registered l))) (flat_map (drains b) (rg_systems (registered l)))) /\
  (forall b fs, rg_systems (registered l) = [fs] -> at_bus b (rg_in (registered l)) = feeds b fs /\ at_bus b (rg_out (registered l)) = drains b fs).
Proof.
  intros l. destruct (known_registered l) as [K O]. split; [|split; [|split; [exact K|exact O]]].
  - apply (systems_inv (fun fs => NoDup (map cp_label (fs_comps fs)))).
    + intros times u last prev fs H. unfold mk_flow_system in H. inv_ok. constructor.
    + intros fs c fs' W H. destruct (add_component_spec fs c) as [[A C]|[x [A C]]]; rewrite A in H; inv_ok. cbn [with_comps fs_comps]. rewrite map_app. simpl.
      apply NoDup_snoc; auto. intros I. apply C. unfold all_labels. apply in_or_app. auto.
    + intros fs e es W H. exact W.
  - intros k fs c N r'. unfold r'. cbn [do_rop for_each]. unfold register_component. rewrite N. destruct (in_dec string_dec (cp_label c) (all_labels fs)) as [I|I].
    + destruct (add_component_spec fs c) as [[A C]|[x [A C]]]; [tauto|]. rewrite A. simpl. split; auto. discriminate.
    + destruct (add_component_spec fs c) as [[A C]|[x [A C]]]; [|tauto]. rewrite A. simpl. split; auto. eexists. split.
      * unfold set_system, register_flows. cbn [rg_systems]. rewrite nth_error_set_nth, Nat.eqb_refl, N. reflexivity.
      * auto.
Qed.
Print Assumptions C31_components_partial.

Lemma NoDup_parts : forall {A} (l l' : list A), NoDup (l ++ l') -> NoDup l /\ NoDup l' /\ (forall a, In a l -> In a l' -> False).
Proof.
  intros A l l' N. induction l as [|a l IH]; simpl in *.
  - split; [constructor|]. split; [exact N|]. intros a [].
  - inversion N as [|? ? H1 H2]; subst. destruct (IH H2) as [A1 [A2 A3]]. split; [|split; [exact A2|]].
    + constructor; auto. intros X. apply H1. apply in_or_app; auto.
    + intros b [->|I] J; [apply H1; apply in_or_app; auto|eapply A3; eauto].
Qed.

(** With one system and Flow objects that are not used twice, every flow is registered exactly once, on its side. *)
Theorem C31_once_partial : forall l fs, rg_systems (registered l) = [fs] ->
  NoDup (map f_id (flat_map cp_flows (fs_comps fs))) ->
  forall c f, In c (fs_comps fs) ->
  (In f (cp_out c) -> count_occ Nat.eq_dec (at_bus (b_id (f_bus f)) (rg_in (registered l))) (f_id f) = 1%nat
                      /\ ~ In (f_id f) (at_bus (b_id (f_bus f)) (rg_out (registered l)))) /\
  (In f (cp_in c) -> count_occ Nat.eq_dec (at_bus (b_id (f_bus f)) (rg_out (registered l))) (f_id f) = 1%nat
                      /\ ~ In (f_id f) (at_bus (b_id (f_bus f)) (rg_in (registered l)))).
Proof.
  intros l fs S ND c f Hc.
  destruct (known_registered l) as [_ O].
  assert (P : Permutation (map f_id (flat_map cp_flows (fs_comps fs))) (map f_id (flat_map cp_in (fs_comps fs)) ++ map f_id (flat_map cp_out (fs_comps fs)))).
  { rewrite <- map_app. apply Permutation_map. clear. induction (fs_comps fs) as [|c l IH]; simpl; auto. unfold cp_flows at 1. rewrite IH, <- !app_assoc.
    apply Permutation_app_head. rewrite !app_assoc. apply Permutation_app_tail. apply Permutation_app_comm. }
  pose proof (Permutation_NoDup P ND) as ND'. clear P ND.
  destruct (NoDup_parts _ _ ND') as [NDi [NDo DIS]].
  assert (FN : forall (g : flow -> bool) l, NoDup (map f_id l) -> NoDup (map f_id (filter g l))).
  { intros g. induction l0 as [|a l0 IH]; simpl; intros N; auto. inversion N; subst. destruct (g a); simpl; auto. constructor; auto.
    intros X. apply H1. apply in_map_iff in X. destruct X as [b [X1 X2]]. apply filter_In in X2. rewrite <- X1. apply in_map. apply X2. }
  assert (CO : forall (g : flow -> bool) l f, NoDup (map f_id l) -> In f l -> g f = true -> count_occ Nat.eq_dec (map f_id (filter g l)) (f_id f) = 1%nat).
  { intros g l0 f0 N I G. apply NoDup_count_occ'; [apply FN; auto|]. apply in_map. apply filter_In. auto. }
  destruct (O (b_id (f_bus f)) fs S) as [-> ->]. unfold feeds, drains. split; intros Hf.
  - assert (I : In f (flat_map cp_out (fs_comps fs))) by (apply in_flat_map; eauto). split; [apply CO; auto; apply Nat.eqb_refl|].
    intros X. apply in_map_iff in X. destruct X as [g [X1 X2]]. apply filter_In in X2. apply (DIS (f_id f)); [rewrite <- X1|]; apply in_map; tauto.
  - assert (I : In f (flat_map cp_in (fs_comps fs))) by (apply in_flat_map; eauto). split; [apply CO; auto; apply Nat.eqb_refl|].
    intros X. apply in_map_iff in X. destruct X as [g [X1 X2]]. apply filter_In in X2. apply (DIS (f_id f)); [|rewrite <- X1]; apply in_map; tauto.
Qed.
Print Assumptions C31_once_partial.

(** The derived lists used when building the problem (System.v) are the registered ones. *)
Theorem C31_bus_lists : forall l fs b, rg_systems (registered l) = [fs] ->
  bus_inputs fs b = at_bus (b_id b) (rg_in (registered l)) /\ bus_outputs fs b = at_bus (b_id b) (rg_out (registered l)).
Proof.
  intros l fs b S. destruct (known_registered l) as [_ O]. destruct (O (b_id b) fs S) as [-> ->]. unfold bus_inputs, bus_outputs, feeds, drains.
  split; induction (fs_comps fs) as [|c cs IH]; simpl; auto; rewrite filter_app, map_app, IH; reflexivity.
Qed.
Print Assumptions C31_bus_lists.

Definition bus0 : bus := mkBus 0 "heat" None.
Definition bus1 : bus := mkBus 1 "gas" None.
Definition fl (i : nat) (lab : string) (b : bus) : flow :=
  mkFlow i lab b (SzNum (Some 10)) None (PNum (NS 0)) (PNum (NS 1)) EVNone None None None None None None.
Definition comp0 : component := mkComponent "boiler" [fl 0 "fuel" bus1] [fl 1 "heat" bus0] None [] Plain.
Definition comp1 : component := mkComponent "demand" [fl 2 "heat" bus0] [] None [] Plain.
Definition comp2 : component := mkComponent "boiler" [fl 3 "heat" bus0] [] None [] Plain.
Definition reg1 : list rop := reg0 ++ [RComponents 0 [comp0; comp1; comp2]].
Example C31_example :
  rg_systems (registered reg1) <> [] /\ length (rg_systems (registered reg1)) = 1%nat /\
  map (fun fs => map cp_label (fs_comps fs)) (rg_systems (registered reg1)) = [["boiler"; "demand"]] /\
  forallb (fun fs => nodup_str (map cp_label (fs_comps fs)) && Nat.eqb (length (nodup Nat.eq_dec (map f_id (flat_map cp_flows (fs_comps fs))))) 3) (rg_systems (registered reg1)) = true /\
  at_bus 0 (rg_in (registered reg1)) = [1%nat] /\ at_bus 0 (rg_out (registered reg1)) = [2%nat].
Proof. repeat split; try (vm_compute; reflexivity). vm_compute. discriminate. Qed.

(** An effect added later may take the label of a component, which is then hidden (and never transformed). *)
Theorem C31_refuted : ~ C31_full.
Proof.
  intros F. destruct (F [RSystem [0; 1; 2] 1 None None; RComponents 0 [comp0]; REffects 0 [eff 0 "boiler" true true]] 0%nat _ eq_refl) as [_ [H _]].
  apply (H comp0); [left; reflexivity|]. left. reflexivity.
Qed.
Print Assumptions C31_refuted.

(** Adding one component to two flow systems registers its flows twice at the bus. *)
Theorem C31_two_systems : exists l fs c f, nth_error (rg_systems (registered l)) 1 = Some fs /\ In c (fs_comps fs) /\ In f (cp_out c) /\
  at_bus (b_id (f_bus f)) (rg_in (registered l)) = [f_id f; f_id f].
Proof.
  exists [RSystem [0; 1; 2] 1 None None; RSystem [0; 1; 2] 1 None None; RComponents 0 [comp0]; RComponents 1 [comp0]]. eexists. exists comp0, (fl 1 "heat" bus0).
  split; [reflexivity|]. repeat split; simpl; auto.
Qed.
Print Assumptions C31_two_systems.

(** ** C32: time *)

Definition increasing (idx : option (list nat)) : Prop :=
  match idx with None => True | Some l => forall t, (S t < length l)%nat -> (nth t l 0 < nth (S t) l 0)%nat end.
Definition ordered (fs : flow_system) : Prop := forall i j, (i <= j)%nat -> (j <= length (fs_times fs))%nat -> stamp fs i <= stamp fs j.

Lemma ordered_build : forall times u last prev fs, mk_flow_system times u last prev = Ok fs -> ordered fs /\ fs_times fs = times.
Proof.
  intros times u last prev fs H. unfold mk_flow_system in H. inv_ok. split; [|reflexivity].
  match goal with H : forallb _ _ = true |- _ => rename H into F end.
  unfold ordered, stamp. cbn [fs_times fs_end]. set (L := times ++ _) in *.
  assert (LL : length L = S (length times)) by (unfold L; rewrite app_length; simpl; lia).
  assert (ST : forall i, (S i < length L)%nat -> nth i L 0 <= nth (S i) L 0).
  { intros i Hi. rewrite forallb_forall in F. assert (X : Qle_bool 0 (nth i (diffs L) 0) = true).
    { apply F. apply nth_In. destruct L as [|a L']; [simpl in Hi; lia|]. rewrite diffs_length. simpl in Hi. lia. }
    apply Qle_bool_iff in X. rewrite diffs_nth in X by auto. lra. }
  intros i j Hij Hj. induction Hij as [|j Hij IH]; [lra|]. eapply Qle_trans; [apply IH; lia|]. apply ST. lia.
Qed.

(** The step lengths of any calculation on any system the constructor accepts: differences of the selected stamps, the last
    step up to the next stamp of the system; none is negative if the selection is increasing; their sum is the reported
    total and equals the time from the first selected stamp to the end. *)
Lemma rev_hd : forall {A} (l : list A) a, nth_error (rev l) 0 = Some a -> exists l', l = l' ++ [a].
Proof.
  intros A l a H. destruct l as [|b l] using rev_ind; [discriminate|]. rewrite rev_app_distr in H. simpl in H. inversion H; subst. eauto.
Qed.
Lemma sumn_telescope : forall n (g : nat -> Q), sumn n (fun t => g (S t) - g t) == g n - g 0%nat.
Proof.
  induction n as [|n IH]; intros g.
  - unfold sumn. simpl. change (Qsum []) with 0. ring.
  - unfold sumn in *. rewrite seq_S, map_app, Qsum_app, IH. cbn [map]. rewrite Qsum_cons. change (Qsum []) with 0. simpl. ring.
Qed.

Theorem C32_step_lengths : forall times u last prev fs0 fs idx dt tot,
  mk_flow_system times u last prev = Ok fs0 -> fs_times fs = fs_times fs0 -> fs_end fs = fs_end fs0 ->
  time_data fs idx = Ok (dt, tot) ->
  let n := steps fs idx in
  length dt = n /\ (0 < n)%nat /\
  (forall t, (S t < n)%nat -> nth t dt 0 == stamp fs (selected idx (S t)) - stamp fs (selected idx t)) /\
  nth (n - 1) dt 0 == stamp fs (S (selected idx (n - 1))) - stamp fs (selected idx (n - 1)) /\
  (increasing idx -> Forall (fun d => 0 <= d) dt) /\
  tot == stamp fs (S (selected idx (n - 1))) - stamp fs (selected idx 0).
Proof.
  intros times u last prev fs0 fs idx dt tot M E1 E2 H n.
  destruct (ordered_build _ _ _ _ _ M) as [OR _]. assert (OR' : ordered fs) by (unfold ordered, stamp in *; rewrite E1, E2; exact OR). clear OR.
  unfold time_data in H. inv_ok.
  set (ix := match idx with Some l => l | None => seq 0 (length (fs_times fs)) end) in *.
  match goal with H : take_idx _ _ = Ok ?r |- _ => rename H into TK; rename r into ts end.
  match goal with H : nth_error (rev ix) 0 = Some ?r |- _ => rename H into LA'; rename r into la end.
  match goal with H : nth_error (fs_with_end fs) _ = Some ?r |- _ => rename H into EN'; rename r into e end.
  destruct (take_idx_spec _ _ _ TK) as [LT NT].
  destruct (rev_hd _ _ LA') as [ix' IX].
  assert (N : length ix = n) by (unfold ix, n, steps; destruct idx; auto; apply seq_length).
  assert (NP : (0 < n)%nat) by (rewrite <- N, IX, app_length; simpl; lia).
  assert (SEL : forall t, (t < n)%nat -> nth t ix 0%nat = selected idx t).
  { intros t Ht. unfold ix, selected, n, steps in *. destruct idx; auto. apply seq_nth; auto. }
  assert (IN : forall t, (t < n)%nat -> (selected idx t < length (fs_times fs))%nat).
  { intros t Ht. rewrite <- SEL by auto. clear - TK Ht N. unfold take_idx in TK. assert (X : exists i, nth_error ix t = Some i).
    { destruct (nth_error ix t) eqn:E; eauto. apply nth_error_None in E. lia. }
    destruct X as [i X]. destruct (mapM_nth _ _ _ _ _ TK X) as [b [Hb _]]. rewrite (nth_error_nth _ _ 0%nat X).
    unfold of_option in Hb. destruct (nth_error (fs_times fs) i) eqn:Z; [|discriminate]. apply nth_error_Some. congruence. }
  assert (TS : forall t, (t < n)%nat -> nth t ts 0 = stamp fs (selected idx t)).
  { intros t Ht. rewrite (NT t 0) by lia. rewrite SEL by auto. unfold stamp. rewrite app_nth1; auto. }
  assert (LS : la = selected idx (n - 1)).
  { rewrite <- SEL by lia. rewrite IX. rewrite <- N, IX, app_length. simpl. rewrite app_nth2 by lia. replace (length ix' + 1 - 1 - length ix')%nat with 0%nat by lia. reflexivity. }
  assert (EV : e = stamp fs (S la)).
  { unfold stamp. unfold fs_with_end in EN'. rewrite Nat.add_1_r in EN'. symmetry. apply nth_error_nth. exact EN'. }
  set (L := ts ++ [e]). assert (LL : length L = S n) by (unfold L; rewrite app_length; simpl; lia).
  assert (LN : forall t, (t <= n)%nat -> nth t L 0 = stamp fs (if Nat.ltb t n then selected idx t else S la)).
  { intros t Ht. unfold L. destruct (Nat.ltb t n) eqn:C.
    - apply Nat.ltb_lt in C. rewrite app_nth1 by lia. apply TS; auto.
    - apply Nat.ltb_ge in C. assert (t = n) by lia. subst t. rewrite app_nth2 by lia. replace (n - length ts)%nat with 0%nat by lia. exact EV. }
  assert (LD : length (diffs L) = n). { destruct L as [|a L'] eqn:EL; [discriminate|]. rewrite diffs_length. simpl in LL. lia. }
  assert (DN : forall t, (t < n)%nat -> nth t (diffs L) 0 = nth (S t) L 0 - nth t L 0) by (intros t Ht; apply diffs_nth; lia).
  fold L in H. apply pair_equal_spec in H. destruct H as [<- <-].
  split; [exact LD|]. split; [exact NP|]. split; [|split; [|split]].
  - intros t Ht. rewrite DN, !LN by lia. destruct (Nat.ltb_lt (S t) n) as [_ ->]; auto. destruct (Nat.ltb_lt t n) as [_ ->]; [|lia]. reflexivity.
  - rewrite DN by lia. replace (S (n - 1)) with n by lia. rewrite !LN by lia. rewrite Nat.ltb_irrefl. destruct (Nat.ltb_lt (n - 1) n) as [_ ->]; [|lia]. rewrite LS. reflexivity.
  - intros INC. apply Forall_forall. intros d Hd. apply (In_nth _ _ 0) in Hd. destruct Hd as [t [Ht <-]]. rewrite LD in Ht. rewrite DN, !LN by lia.
    destruct (Nat.ltb_lt t n) as [_ ->]; [|lia]. destruct (Nat.ltb (S t) n) eqn:C.
    + apply Nat.ltb_lt in C. assert (X : stamp fs (selected idx t) <= stamp fs (selected idx (S t))).
      { apply OR'; [|specialize (IN (S t) C); lia]. unfold increasing, selected in *. destruct idx as [l|]; [|lia]. specialize (INC t). unfold n, steps in C. lia. }
      lra.
    + apply Nat.ltb_ge in C. assert (t = (n - 1)%nat) by lia. subst t. rewrite LS. assert (X : stamp fs (selected idx (n - 1)) <= stamp fs (S (selected idx (n - 1)))).
      { apply OR'; [lia|]. specialize (IN (n - 1)%nat ltac:(lia)). lia. }
      lra.
  - unfold qsum_list. assert (S1 : Qsum (diffs L) == sumn n (fun t => nth (S t) L 0 - nth t L 0)).
    { apply Qsum_sumn; auto. intros t Ht. rewrite DN by lia. reflexivity. }
    rewrite S1, (sumn_telescope n (fun t => nth t L 0)), !LN by lia. rewrite Nat.ltb_irrefl. destruct (Nat.ltb_lt 0 n) as [_ ->]; auto. rewrite LS. reflexivity.
Qed.
Print Assumptions C32_step_lengths.

(** The claim about the end of the last step: it lasts the given number of hours, or as long as the step before. *)
Definition C32_last_full : Prop := forall times u last prev fs, mk_flow_system times u last prev = Ok fs ->
  hours fs None (length times - 1) ==
    match last with Some k => k | None => stamp fs (length times - 1) - stamp fs (length times - 2) end.

Lemma last_step : forall times u last prev fs, mk_flow_system times u last prev = Ok fs ->
  hours fs None (length times - 1) == match last with Some k => k * u | None => stamp fs (length times - 1) - stamp fs (length times - 2) end.
Proof.
  intros times u last prev fs H. destruct (ordered_build _ _ _ _ _ H) as [_ T]. unfold mk_flow_system in H. inv_ok.
  match goal with H : nth_error (rev times) 0 = Some ?a |- _ => rename H into T1; rename a into t1 end.
  destruct (rev_hd _ _ T1) as [l' ->]. unfold hours, steps, selected, stamp. cbn [fs_times fs_end] in *. rewrite !app_length. cbn [length].
  replace (length l' + 1 - 1)%nat with (length l') by lia. replace (Nat.ltb (S (length l')) (length l' + 1)) with false by (symmetry; apply Nat.ltb_ge; lia).
  rewrite (app_nth2 (l' ++ [t1])) by (rewrite app_length; simpl; lia). rewrite app_length. cbn [length]. replace (S (length l') - (length l' + 1))%nat with 0%nat by lia. cbn [nth].
  rewrite (app_nth1 (l' ++ [t1])) by (rewrite app_length; simpl; lia). rewrite (app_nth2 l') by lia. rewrite Nat.sub_diag. cbn [nth].
  destruct last as [k|]; inv_ok; [ring|].
  match goal with H : nth_error (rev (l' ++ [t1])) 1 = Some ?a |- _ => rename H into T2; rename a into t2 end.
  rewrite rev_app_distr in T2. cbn [rev app nth_error] in T2. destruct (rev_hd l' t2 T2) as [l'' ->].
  rewrite app_length. cbn [length]. replace (length l'' + 1 + 1 - 2)%nat with (length l'') by lia.
  rewrite <- !app_assoc. rewrite (app_nth2 l'') by lia. rewrite Nat.sub_diag. cbn [nth app]. ring.
Qed.

(** It holds if the time stamps are given with a resolution of one hour, or without last_time_step_hours. *)
Theorem C32_last_partial : forall times u last prev fs, mk_flow_system times u last prev = Ok fs -> u == 1 \/ last = None ->
  hours fs None (length times - 1) ==
    match last with Some k => k | None => stamp fs (length times - 1) - stamp fs (length times - 2) end.
Proof.
  intros times u last prev fs H C. rewrite (last_step _ _ _ _ _ H). destruct last as [k|]; [|reflexivity]. destruct C as [C|C]; [rewrite C; ring|discriminate].
Qed.
Print Assumptions C32_last_partial.

(** Quarter-hourly data given with minutes as unit: one "hour" for the last step becomes one minute. *)
Theorem C32_last_refuted : ~ C32_last_full.
Proof. intros F. specialize (F [0; 1 # 4; 1 # 2] (1 # 60) (Some 1) None _ eq_refl). vm_compute in F. discriminate. Qed.
Print Assumptions C32_last_refuted.

(** The constructor refuses exactly the time axes that step back (and those too short for the defaults asked for). *)
Theorem C32_accepted : forall times u last prev,
  (exists fs, mk_flow_system times u last prev = Ok fs) <->
  (1 <= length times)%nat /\ ((last = None \/ prev = None) -> (2 <= length times)%nat) /\
  (forall i, (S i < length times)%nat -> nth i times 0 <= nth (S i) times 0) /\
  (forall k, last = Some k -> 0 <= k * u).
Proof.
  intros times u last prev. split.
  - intros [fs H]. destruct (ordered_build _ _ _ _ _ H) as [O T]. pose proof (last_step _ _ _ _ _ H) as LS. unfold ordered, stamp in O. rewrite T in O.
    assert (L1 : (1 <= length times)%nat) by (unfold mk_flow_system in H; destruct times; [discriminate|simpl; lia]).
    split; [exact L1|]. split; [|split].
    + intros D. destruct times as [|a [|b l]]; simpl; [simpl in L1; lia| |lia]. exfalso. unfold mk_flow_system in H. simpl in H. destruct D as [-> | ->]; [discriminate|].
      destruct last; discriminate.
    + intros i Hi. specialize (O i (S i)). rewrite !app_nth1 in O by lia. apply O; lia.
    + intros k ->. unfold hours, steps, selected, stamp in LS. rewrite T in LS.
      replace (Nat.ltb (S (length times - 1)) (length times)) with false in LS by (symmetry; apply Nat.ltb_ge; lia).
      specialize (O (length times - 1)%nat (S (length times - 1)) ltac:(lia) ltac:(lia)). lra.
  - intros [L1 [L2 [ST LA]]]. unfold mk_flow_system.
    assert (N1 : exists l' a, times = l' ++ [a]). { destruct times as [|x l] using rev_ind; [simpl in L1; lia|eauto]. }
    destruct N1 as [l' [a ->]].
    assert (T1 : nth_error (rev (l' ++ [a])) 0 = Some a) by (rewrite rev_app_distr; reflexivity).
    assert (T2 : nth_error (rev (l' ++ [a])) 1 = nth_error (rev l') 0) by (rewrite rev_app_distr; reflexivity).
    rewrite T1, T2. cbn [of_option bind].
    assert (D : exists d, match last with Some k => Ok (k * u) | None => t2 <- of_option IndexError (nth_error (rev l') 0) ;; Ok (a - t2) end = Ok d /\ 0 <= d).
    { destruct last as [k|]; [eauto|]. specialize (L2 (or_introl eq_refl)). rewrite app_length in L2. simpl in L2.
      destruct l' as [|b l''] using rev_ind; [simpl in L2; lia|]. rewrite rev_app_distr. cbn [rev app nth_error of_option bind]. eexists. split; [reflexivity|].
      specialize (ST (length l'')). rewrite !app_length in ST. simpl in ST. specialize (ST ltac:(lia)). rewrite <- app_assoc in ST. rewrite !(app_nth2 l'') in ST by lia.
      rewrite Nat.sub_diag in ST. replace (S (length l'') - length l'')%nat with 1%nat in ST by lia. cbn [nth app] in ST. lra. }
    destruct D as [d [D1 D2]]. rewrite D1. cbn [bind].
    assert (P : exists pv, match prev with Some p => Ok p | None => x <- of_option IndexError (nth_error (l' ++ [a]) 0) ;; b <- of_option IndexError (nth_error (l' ++ [a]) 1) ;; Ok (NS (b - x)) end = Ok pv).
    { destruct prev; [eauto|]. specialize (L2 (or_intror eq_refl)). destruct (nth_error (l' ++ [a]) 0) eqn:E0; [|apply nth_error_None in E0; lia].
      destruct (nth_error (l' ++ [a]) 1) eqn:E1; [|apply nth_error_None in E1; lia]. simpl. eauto. }
    destruct P as [pv P]. rewrite P. cbn [bind].
    assert (G : forallb (fun d0 => Qle_bool 0 d0) (diffs ((l' ++ [a]) ++ [a + d])) = true).
    { apply forallb_forall. intros q Hq. apply (In_nth _ _ 0) in Hq. destruct Hq as [i [Hi <-]]. apply Qle_bool_iff.
      assert (LD : length (diffs ((l' ++ [a]) ++ [a + d])) = length (l' ++ [a])).
      { destruct ((l' ++ [a]) ++ [a + d]) as [|z L] eqn:EL; [destruct l'; discriminate|]. rewrite diffs_length. assert (X : length ((l' ++ [a]) ++ [a + d]) = length (z :: L)) by congruence.
        rewrite app_length in X. simpl in X. lia. }
      rewrite LD in Hi. rewrite diffs_nth by (rewrite app_length; simpl; lia). destruct (Nat.lt_ge_cases (S i) (length (l' ++ [a]))) as [C|C].
      - rewrite !(app_nth1 (l' ++ [a]) [a + d]) by lia. specialize (ST i C). lra.
      - assert (i = length l') by (rewrite app_length in *; simpl in *; lia). subst i. rewrite (app_nth2 (l' ++ [a]) [a + d]) by lia. rewrite (app_nth1 (l' ++ [a]) [a + d]) by lia.
        rewrite app_length. cbn [length]. replace (S (length l') - (length l' + 1))%nat with 0%nat by lia. rewrite (app_nth2 l' [a]) by lia. rewrite Nat.sub_diag. cbn [nth]. lra. }
    rewrite G. simpl. eauto.
Qed.
Print Assumptions C32_accepted.

Example C32_example : exists fs, mk_flow_system [0; 1; 3; 4] 1 (Some 2) None = Ok fs /\ time_data fs (Some [1; 2; 3]%nat) = Ok ([2; 1; 2], 5)
  /\ increasing (Some [1; 2; 3]%nat) /\ hours fs None 3 == 2.
Proof.
  eexists. split; [reflexivity|]. split; [vm_compute; reflexivity|]. split; [|vm_compute; reflexivity].
  intros t H. simpl in H. destruct t as [|[|t]]; simpl; lia.
Qed.
