(** C46, C51: modelling a flow system again. *)
From Coq Require Import Permutation.
From Verif Require Import Base BaseFacts MathModel Spec Structure Params Features Elements System Library Example SysSpec CtxFacts NavFacts Tree Values Results Segmented.

(** ** Specification *)

(** The flow system after calculations with the given time indices were modelled one after the other, successfully or not. *)
Definition modelled_before (cf : config) (ord : list nat -> list nat) (fs : flow_system) (l : list (option (list nat))) : flow_system :=
  fold_left (fun fs idx => after_modeling cf ord fs idx) l fs.

(** No transmission has absolute losses. *)
Definition no_absolute_losses (fs : flow_system) : Prop :=
  forall c rel abs, In c (fs_comps fs) -> cp_kind c = TransmissionC rel abs -> abs = None.

(** The absolute losses of every transmission are a number or have one value for every step of the flow system. *)
Definition full_losses (fs : flow_system) : Prop :=
  forall c rel p, In c (fs_comps fs) -> cp_kind c = TransmissionC rel (Some p) -> full_data fs p.

(** A transmission that loses something in one of the steps of a calculation with [idx'] also does in one of the steps of [idx]. *)
Definition losses_too (fs : flow_system) (idx' idx : option (list nat)) : Prop :=
  forall c rel p, In c (fs_comps fs) -> cp_kind c = TransmissionC rel (Some p) -> any_loss fs idx' p = true -> any_loss fs idx p = true.

(** ** Proof *)

(** What the rest of the system sees of a component. *)
Definition flook (f : flow) : nat * string * bus := (f_id f, f_lab f, f_bus f).
Definition clook (c : component) : string * list (nat * string * bus) * list (nat * string * bus) :=
  (cp_label c, map flook (cp_in c), map flook (cp_out c)).
Definition lk_label (k : string * list (nat * string * bus) * list (nat * string * bus)) := fst (fst k).
Definition lk_flows (k : string * list (nat * string * bus) * list (nat * string * bus)) := snd (fst k) ++ snd k.

Lemma lk_label_eq : forall c, lk_label (clook c) = cp_label c. Proof. reflexivity. Qed.
Lemma lk_flows_eq : forall c, lk_flows (clook c) = map flook (cp_flows c).
Proof. intros c. unfold lk_flows, cp_flows. cbn. rewrite map_app. reflexivity. Qed.

Lemma looks_ids : forall fs, map (fun cf : component * flow => f_id (snd cf)) (all_flows fs)
  = flat_map (fun k => map (fun y : nat * string * bus => fst (fst y)) (lk_flows k)) (map clook (fs_comps fs)).
Proof.
  intros fs. unfold all_flows. induction (fs_comps fs) as [|c l IH]; [reflexivity|]. cbn [flat_map map]. rewrite map_app, IH, map_map, lk_flows_eq, map_map. reflexivity.
Qed.
Lemma looks_fulls : forall fs, flow_fulls fs
  = flat_map (fun k => map (fun y : nat * string * bus => flow_full (lk_label k) (snd (fst y))) (lk_flows k)) (map clook (fs_comps fs)).
Proof.
  intros fs. unfold flow_fulls, all_flows. induction (fs_comps fs) as [|c l IH]; [reflexivity|]. cbn [flat_map map]. rewrite map_app, IH, map_map, lk_flows_eq, map_map. reflexivity.
Qed.
Lemma looks_buslabels : forall fs, bus_labels fs
  = flat_map (fun k => map (fun y : nat * string * bus => b_lab (snd y)) (lk_flows k)) (map clook (fs_comps fs)).
Proof.
  intros fs. unfold bus_labels, all_flows. induction (fs_comps fs) as [|c l IH]; [reflexivity|]. cbn [flat_map map]. rewrite map_app, IH, map_map, lk_flows_eq, map_map. reflexivity.
Qed.
Lemma find_map_ : forall {A B} (g : A -> B) p l, find p (map g l) = option_map g (find (fun a => p (g a)) l).
Proof. induction l as [|a l IH]; [reflexivity|]. cbn. destruct (p (g a)); [reflexivity|exact IH]. Qed.
Lemma looks_bus_of : forall fs i, bus_of_flow fs i
  = option_map snd (find (fun y : nat * string * bus => Nat.eqb (fst (fst y)) i) (flat_map lk_flows (map clook (fs_comps fs)))).
Proof.
  intros fs i. unfold bus_of_flow.
  assert (E : flat_map lk_flows (map clook (fs_comps fs)) = map (fun cf : component * flow => flook (snd cf)) (all_flows fs)).
  { unfold all_flows. induction (fs_comps fs) as [|c l IH]; [reflexivity|]. cbn [flat_map map]. rewrite map_app, IH, map_map, lk_flows_eq. reflexivity. }
  rewrite E, find_map_. cbn [flook fst]. destruct (find _ (all_flows fs)); reflexivity.
Qed.
Lemma filter_map__ : forall {A B} (g : A -> B) p l, filter p (map g l) = map g (filter (fun a => p (g a)) l).
Proof. induction l as [|a l IH]; [reflexivity|]. cbn. destruct (p (g a)); cbn; rewrite IH; reflexivity. Qed.
Lemma looks_in : forall fs b, bus_inputs fs b
  = flat_map (fun k => map (fun y : nat * string * bus => fst (fst y)) (filter (fun y => Nat.eqb (b_id (snd y)) (b_id b)) (snd k))) (map clook (fs_comps fs)).
Proof.
  intros fs b. unfold bus_inputs. induction (fs_comps fs) as [|c l IH]; [reflexivity|]. cbn [flat_map map]. rewrite IH. cbn [clook snd]. rewrite filter_map__, map_map. reflexivity.
Qed.
Lemma looks_out : forall fs b, bus_outputs fs b
  = flat_map (fun k => map (fun y : nat * string * bus => fst (fst y)) (filter (fun y => Nat.eqb (b_id (snd y)) (b_id b)) (snd (fst k)))) (map clook (fs_comps fs)).
Proof.
  intros fs b. unfold bus_outputs. induction (fs_comps fs) as [|c l IH]; [reflexivity|]. cbn [flat_map map]. rewrite IH. cbn [clook snd fst]. rewrite filter_map__, map_map. reflexivity.
Qed.

Record same_frame (fs fs' : flow_system) : Prop := {
  sf_times : fs_times fs' = fs_times fs;
  sf_end : fs_end fs' = fs_end fs;
  sf_prev : fs_prev_dt fs' = fs_prev_dt fs;
  sf_effects : fs_effects fs' = fs_effects fs;
  sf_looks : map clook (fs_comps fs') = map clook (fs_comps fs)
}.
Lemma frame_refl : forall fs, same_frame fs fs. Proof. intros. constructor; reflexivity. Qed.
Lemma frame_trans : forall a b c, same_frame a b -> same_frame b c -> same_frame a c.
Proof. intros a b c [? ? ? ? ?] [? ? ? ? ?]. constructor; congruence. Qed.

Section Frame.
Variables (fs fs' : flow_system).
Hypothesis SF : same_frame fs fs'.
Lemma frame_ctx : forall cf ord idx, make_ctx cf ord fs' idx = make_ctx cf ord fs idx.
Proof.
  intros. unfold make_ctx, time_data, fs_with_end. rewrite (sf_times _ _ SF), (sf_end _ _ SF), (sf_prev _ _ SF), (sf_effects _ _ SF). reflexivity.
Qed.
Lemma frame_vflow : visible_flow fs' = visible_flow fs.
Proof. unfold visible_flow. rewrite (looks_buslabels fs'), (looks_buslabels fs), (sf_looks _ _ SF). reflexivity. Qed.
Lemma frame_vcomp : visible_comp fs' = visible_comp fs.
Proof.
  unfold visible_comp, effect_labels. rewrite (looks_buslabels fs'), (looks_buslabels fs), (looks_fulls fs'), (looks_fulls fs), (sf_looks _ _ SF), (sf_effects _ _ SF). reflexivity.
Qed.
Lemma frame_veff : visible_effect fs' = visible_effect fs.
Proof. unfold visible_effect. rewrite (looks_buslabels fs'), (looks_buslabels fs), (looks_fulls fs'), (looks_fulls fs), (sf_looks _ _ SF). reflexivity. Qed.
Lemma frame_bus : forall i, bus_of_flow fs' i = bus_of_flow fs i.
Proof. intros. rewrite !looks_bus_of, (sf_looks _ _ SF). reflexivity. Qed.
Lemma frame_ids : map (fun cf : component * flow => f_id (snd cf)) (all_flows fs') = map (fun cf : component * flow => f_id (snd cf)) (all_flows fs).
Proof. rewrite !looks_ids, (sf_looks _ _ SF). reflexivity. Qed.
Lemma frame_buses : forall ord, buses ord fs' = buses ord fs.
Proof.
  intros. unfold buses. rewrite frame_ids. f_equal. generalize (@nil (string * bus)).
  induction (ord (nodup Nat.eq_dec (map (fun cf : component * flow => f_id (snd cf)) (all_flows fs)))) as [|i l IH]; intros d; [reflexivity|].
  cbn [fold_left]. rewrite frame_bus. apply IH.
Qed.

Lemma frame_build : forall cf ord idx,
  (forall cx, make_ctx cf ord fs idx = Ok cx ->
     mapM (comp_model cx (visible_flow fs) (visible_comp fs)) (fs_comps fs') = mapM (comp_model cx (visible_flow fs) (visible_comp fs)) (fs_comps fs)) ->
  build cf ord fs' idx = build cf ord fs idx.
Proof.
  intros cf ord idx H. unfold build. f_equal. unfold build_system. rewrite frame_ctx. destruct (make_ctx cf ord fs idx) as [cx|] eqn:E; [|reflexivity].
  cbn [bind]. rewrite frame_ids, frame_vflow, frame_vcomp, frame_veff, (H cx eq_refl), frame_buses.
  destruct (guard _ _); [|reflexivity]. cbn [bind].
  destruct (mapM (comp_model cx (visible_flow fs) (visible_comp fs)) (fs_comps fs)) as [cos|]; [|reflexivity]. cbn [bind].
  assert (B : forall bs,
    mapM (fun b => i <- mapM (fun i => o <- find_fo (flat_map co_flows cos) i ;; Ok (fo_rate o)) (bus_inputs fs' b) ;;
                   o <- mapM (fun i => o <- find_fo (flat_map co_flows cos) i ;; Ok (fo_rate o)) (bus_outputs fs' b) ;; bus_model cx b i o) bs
    = mapM (fun b => i <- mapM (fun i => o <- find_fo (flat_map co_flows cos) i ;; Ok (fo_rate o)) (bus_inputs fs b) ;;
                   o <- mapM (fun i => o <- find_fo (flat_map co_flows cos) i ;; Ok (fo_rate o)) (bus_outputs fs b) ;; bus_model cx b i o) bs).
  { induction bs as [|b bs IH]; [reflexivity|]. cbn [mapM]. rewrite IH, !looks_in, !looks_out, (sf_looks _ _ SF). reflexivity. }
  cbv zeta. rewrite B. reflexivity.
Qed.
End Frame.

(** Defaults are added once. *)
Lemma default_idem : forall f, with_default_onoff (with_default_onoff f) = with_default_onoff f.
Proof. intros f. unfold with_default_onoff. destruct (f_onoff f) eqn:E; [rewrite E; reflexivity|reflexivity]. Qed.
Lemma default_look : forall f, flook (with_default_onoff f) = flook f.
Proof. intros f. unfold with_default_onoff. destruct (f_onoff f); reflexivity. Qed.
Lemma default_size : forall f, f_size (with_default_onoff f) = f_size f.
Proof. intros f. unfold with_default_onoff. destruct (f_onoff f); reflexivity. Qed.
Lemma default_id : forall f, f_id (with_default_onoff f) = f_id f.
Proof. intros f. unfold with_default_onoff. destruct (f_onoff f); reflexivity. Qed.
Lemma default_fix : forall f, f_onoff f <> None -> with_default_onoff f = f.
Proof. intros f H. unfold with_default_onoff. destruct (f_onoff f); [reflexivity|congruence]. Qed.
Lemma default_some : forall f, f_onoff (with_default_onoff f) <> None.
Proof. intros f. unfold with_default_onoff. destruct (f_onoff f) eqn:E; [congruence|discriminate]. Qed.

Lemma set_flows_eta : forall c, set_flows c (cp_in c) (cp_out c) = c. Proof. destruct c; reflexivity. Qed.
Lemma map_flows_fix : forall g c, (forall f, In f (cp_flows c) -> g f = f) -> map_flows g c = c.
Proof.
  intros g c H. unfold map_flows. rewrite <- (set_flows_eta c) at 4. f_equal; rewrite <- map_id; apply map_ext_in; intros f Hf; apply H; unfold cp_flows; apply in_or_app; auto.
Qed.
Lemma map_flows_flows : forall g c, cp_flows (map_flows g c) = map g (cp_flows c).
Proof. intros. unfold cp_flows, map_flows. cbn. rewrite map_app. reflexivity. Qed.

Lemma prepare_component_fix : forall c,
  (cp_onoff c <> None -> forall f, In f (cp_flows c) -> f_onoff f <> None) ->
  (forall f, In f (cp_flows c) -> mem_nat (f_id f) (cp_prevent c) = true -> f_onoff f <> None) -> prepare_component c = c.
Proof.
  intros c H1 H2. unfold prepare_component.
  assert (E : (match cp_onoff c with Some _ => map_flows with_default_onoff c | None => c end) = c).
  { destruct (cp_onoff c) eqn:E; [|reflexivity]. apply map_flows_fix. intros f Hf. apply default_fix, H1; auto. congruence. }
  rewrite E. apply map_flows_fix. intros f Hf. destruct (mem_nat (f_id f) (cp_prevent c)) eqn:M; [|reflexivity]. apply default_fix, H2; auto.
Qed.
Lemma prepare_component_flows : forall c, cp_flows (prepare_component c)
  = map (fun f => if (is_some (cp_onoff c) || mem_nat (f_id f) (cp_prevent c))%bool then with_default_onoff f else f) (cp_flows c).
Proof.
  intros c. unfold prepare_component. rewrite map_flows_flows. destruct (cp_onoff c) as [p|] eqn:E.
  - rewrite map_flows_flows, map_map. apply map_ext. intros f. cbn [is_some orb]. rewrite default_id.
    destruct (mem_nat (f_id f) (cp_prevent c)); [apply default_idem|reflexivity].
  - apply map_ext. intros f. reflexivity.
Qed.
Lemma prepare_component_rest : forall c, cp_onoff (prepare_component c) = cp_onoff c /\ cp_prevent (prepare_component c) = cp_prevent c
  /\ cp_kind (prepare_component c) = cp_kind c /\ cp_label (prepare_component c) = cp_label c.
Proof. intros c. unfold prepare_component. destruct (cp_onoff c) eqn:E; cbn; rewrite ?E; auto. Qed.
Lemma prepare_component_idem : forall c, prepare_component (prepare_component c) = prepare_component c.
Proof.
  intros c. destruct (prepare_component_rest c) as [R1 [R2 _]]. apply prepare_component_fix.
  - intros H f Hf. rewrite R1 in H. rewrite prepare_component_flows in Hf. apply in_map_iff in Hf. destruct Hf as [g [<- _]].
    destruct (cp_onoff c); [|congruence]. cbn [is_some orb]. apply default_some.
  - intros f Hf M. rewrite R2 in M. rewrite prepare_component_flows in Hf. apply in_map_iff in Hf. destruct Hf as [g [<- _]].
    destruct (is_some (cp_onoff c) || mem_nat (f_id g) (cp_prevent c))%bool eqn:E; [apply default_some|].
    apply Bool.orb_false_iff in E. destruct E. congruence.
Qed.
Lemma map_clook_flows : forall g c, (forall f, flook (g f) = flook f) -> clook (map_flows g c) = clook c.
Proof. intros g c H. unfold clook, map_flows. cbn. rewrite !map_map. rewrite (map_ext _ _ H (cp_in c)), (map_ext _ _ H (cp_out c)). reflexivity. Qed.
Lemma prepare_component_look : forall c, clook (prepare_component c) = clook c.
Proof.
  intros c. unfold prepare_component. rewrite map_clook_flows; [|intros f; destruct (mem_nat _ _); [apply default_look|reflexivity]].
  destruct (cp_onoff c); [apply map_clook_flows, default_look|reflexivity].
Qed.

(** What a transmission does to its flows beforehand. *)
Lemma transmission_shape : forall cx tr abs c c', prepare_transmission cx tr abs c = Ok c' ->
  clook c' = clook c /\ cp_onoff c' = cp_onoff c /\ cp_prevent c' = cp_prevent c /\ cp_kind c' = cp_kind c /\ cp_label c' = cp_label c.
Proof.
  intros cx tr abs c c' H. unfold prepare_transmission in H.
  assert (S : exists c1, (match abs with None => Ok c | Some p => a <- act cx tr p ;; Ok (if nany_nonzero a then map_flows with_default_onoff c else c) end) = Ok c1
     /\ clook c1 = clook c /\ cp_onoff c1 = cp_onoff c /\ cp_prevent c1 = cp_prevent c /\ cp_kind c1 = cp_kind c /\ cp_label c1 = cp_label c).
  { destruct abs as [p|]; [|exists c; repeat split; reflexivity]. destruct (act cx tr p) as [a|]; [|discriminate]. cbn [bind].
    eexists. split; [reflexivity|]. destruct (nany_nonzero a); [|repeat split; reflexivity].
    split; [apply map_clook_flows, default_look|]. repeat split; reflexivity. }
  destruct S as [c1 [E [L R]]]. rewrite E in H. cbn [bind] in H.
  destruct (cp_in c1) as [|in1 [|in2 r]] eqn:I; try (inversion H; subst; auto).
  destruct (f_size in1), (f_size in2); inversion H; subst; auto.
  split; [|exact R]. rewrite <- L. unfold clook. cbn. rewrite I. reflexivity.
Qed.

Lemma prepared_shape : forall cx tr c c', prepared cx tr c = Ok c' -> clook c' = clook c /\ cp_label c' = cp_label c /\ cp_kind c' = cp_kind c.
Proof.
  intros cx tr c c' H. unfold prepared in H. destruct (prepare_component_rest c) as [_ [_ [K L]]].
  assert (P : Ok (prepare_component c) = Ok c' -> clook c' = clook c /\ cp_label c' = cp_label c /\ cp_kind c' = cp_kind c).
  { intros E. inversion E; subst. split; [apply prepare_component_look|]. auto. }
  destruct (cp_kind c) eqn:E; try (apply P; exact H).
  destruct (prepare_transmission cx tr abs c) as [c1|] eqn:T; [|discriminate]. cbn [bind] in H. inversion H; subst.
  destruct (transmission_shape _ _ _ _ _ T) as [A [_ [_ [B C]]]]. destruct (prepare_component_rest c1) as [_ [_ [K1 L1]]].
  split; [rewrite prepare_component_look; exact A|]. split; congruence.
Qed.

(** Preparing twice is preparing once. *)
Lemma prepared_idem : forall cx tr c c', prepared cx tr c = Ok c' -> prepared cx tr c' = Ok c'.
Proof.
  intros cx tr c c' H. destruct (prepared_shape _ _ _ _ H) as [_ [_ K]]. unfold prepared in *. rewrite K.
  destruct (cp_kind c) as [| | | |rel abs]; try (inversion H; subst; rewrite prepare_component_idem; reflexivity).
  destruct (prepare_transmission cx tr abs c) as [c1|] eqn:T; [|discriminate]. cbn [bind] in H. inversion H; subst. clear H.
  assert (G : prepare_transmission cx tr abs (prepare_component c1) = Ok (prepare_component c1)); [|rewrite G; cbn [bind]; rewrite prepare_component_idem; reflexivity].
  unfold prepare_transmission in T |- *.
  destruct (match abs with None => Ok c | Some p => a <- act cx tr p ;; Ok (if nany_nonzero a then map_flows with_default_onoff c else c) end) as [c2|] eqn:E2; [|discriminate].
  cbn [bind] in T.
  assert (FLAT : Forall (fun f => match abs with Some p => match act cx tr p with Ok a => nany_nonzero a = true -> f_onoff f <> None | _ => True end | None => True end) (cp_flows c1)).
  { assert (F2 : Forall (fun f => match abs with Some p => match act cx tr p with Ok a => nany_nonzero a = true -> f_onoff f <> None | _ => True end | None => True end) (cp_flows c2)).
    { destruct abs as [p|]; [|apply Forall_forall; auto]. destruct (act cx tr p) as [a|]; [|apply Forall_forall; auto]. cbn [bind] in E2. inversion E2; subst.
      apply Forall_forall. intros f Hf N. rewrite N in Hf. rewrite map_flows_flows in Hf. apply in_map_iff in Hf. destruct Hf as [g [<- _]]. apply default_some. }
    destruct (cp_in c2) as [|in1 [|in2 r]] eqn:I; try (inversion T; subst; exact F2).
    destruct (f_size in1), (f_size in2); inversion T; subst; try exact F2.
    unfold cp_flows in *. cbn [set_flows cp_in cp_out]. rewrite I in F2. cbn [app] in F2 |- *. inversion F2 as [|? ? A1 A2]; subst. inversion A2 as [|? ? B1 B2]; subst.
    constructor; [exact A1|]. constructor; [|exact B2]. exact B1. }
  assert (D : (match abs with None => Ok (prepare_component c1) | Some p => a <- act cx tr p ;; Ok (if nany_nonzero a then map_flows with_default_onoff (prepare_component c1) else prepare_component c1) end) = Ok (prepare_component c1)).
  { destruct abs as [p|]; [|reflexivity]. destruct (act cx tr p) as [a|] eqn:A; [|discriminate]. cbn [bind]. destruct (nany_nonzero a) eqn:N; [|reflexivity].
    rewrite map_flows_fix; [reflexivity|]. intros f Hf. apply default_fix. rewrite prepare_component_flows in Hf. apply in_map_iff in Hf. destruct Hf as [g [<- Hg]].
    rewrite Forall_forall in FLAT. specialize (FLAT g Hg eq_refl). destruct (_ || _)%bool; [apply default_some|exact FLAT]. }
  rewrite D. cbn [bind].
  assert (SZ : exists l, map f_size (cp_in (prepare_component c1)) = l /\ map f_size (cp_in c1) = l).
  { eexists. split; [|reflexivity]. unfold prepare_component. cbn. destruct (cp_onoff c1); cbn; rewrite !map_map; apply map_ext; intros f;
      rewrite ?default_id; destruct (mem_nat _ _); rewrite ?default_size; reflexivity. }
  destruct SZ as [l [S1 S2]].
  destruct (cp_in (prepare_component c1)) as [|j1 [|j2 r']] eqn:J; try reflexivity. cbn [map] in S1.
  destruct (f_size j1) as [|iv] eqn:Z1; [reflexivity|]. destruct (f_size j2) as [q|] eqn:Z2; [|reflexivity]. exfalso.
  destruct (cp_in c2) as [|in1 [|in2 r]] eqn:I.
  - inversion T; subst c2. rewrite I in S2. cbn in S2. congruence.
  - inversion T; subst c2. rewrite I in S2. cbn in S2. congruence.
  - destruct (f_size in1) as [|iv'] eqn:Y1, (f_size in2) as [|] eqn:Y2; inversion T; subst; try (rewrite I in S2; cbn [map] in S2; congruence).
    cbn in S2. congruence.
Qed.

(** *** Preparing a component for some steps after it was prepared for others *)
Lemma default_set_size : forall z f, with_default_onoff (set_size z f) = set_size z (with_default_onoff f).
Proof. intros z f. unfold with_default_onoff. cbn [set_size f_onoff]. destruct (f_onoff f); reflexivity. Qed.

(** The investment of the second input. *)
Definition second_input (cx : ctx) (c : component) : component :=
  match cp_in c with
  | in1 :: in2 :: r =>
      match f_size in1, f_size in2 with
      | SzInv iv, SzNum _ => set_flows c (in1 :: set_size (SzInv (invest_of_max (iv_maximum cx iv))) in2 :: r) (cp_out c)
      | _, _ => c
      end
  | _ => c
  end.
Definition with_defaults (nz : bool) (c : component) : component := if nz then map_flows with_default_onoff c else c.

Lemma prepared_transmission : forall cx tr c rel abs, cp_kind c = TransmissionC rel abs ->
  prepared cx tr c = match abs with
                     | None => Ok (prepare_component (second_input cx c))
                     | Some p => a <- act cx tr p ;; Ok (prepare_component (second_input cx (with_defaults (nany_nonzero a) c)))
                     end.
Proof.
  intros cx tr c rel abs K. unfold prepared. rewrite K. unfold prepare_transmission.
  assert (G : forall d, (match cp_in d with
    | in1 :: in2 :: r => match f_size in1, f_size in2 with
        | SzInv iv, SzNum _ => Ok (set_flows d (in1 :: set_size (SzInv (invest_of_max (iv_maximum cx iv))) in2 :: r) (cp_out d))
        | _, _ => Ok d end
    | _ => Ok d end) = Ok (second_input cx d)).
  { intros d. unfold second_input. destruct (cp_in d) as [|a [|b r]]; try reflexivity. destruct (f_size a), (f_size b); reflexivity. }
  destruct abs as [p|]; [|cbn [bind]; rewrite G; reflexivity].
  destruct (act cx tr p) as [a|]; [|reflexivity]. cbn [bind]. rewrite G. cbn [bind]. reflexivity.
Qed.

Lemma second_map : forall cx h c, (forall f, f_size (h f) = f_size f) -> (forall z f, h (set_size z f) = set_size z (h f)) ->
  second_input cx (map_flows h c) = map_flows h (second_input cx c).
Proof.
  intros cx h c S Z. unfold second_input. cbn [map_flows set_flows cp_in]. destruct (cp_in c) as [|a [|b r]] eqn:I; cbn [map]; try reflexivity.
  rewrite !S. destruct (f_size a), (f_size b); try reflexivity. unfold map_flows, set_flows. cbn [cp_in cp_out cp_label cp_onoff cp_prevent cp_kind map]. rewrite Z. reflexivity.
Qed.
Lemma second_rest : forall cx c, cp_onoff (second_input cx c) = cp_onoff c /\ cp_prevent (second_input cx c) = cp_prevent c /\ cp_kind (second_input cx c) = cp_kind c.
Proof. intros cx c. unfold second_input. destruct (cp_in c) as [|a [|b r]]; auto. destruct (f_size a), (f_size b); auto. Qed.
Lemma second_idem : forall cx cx' c, second_input cx (second_input cx' c) = second_input cx' c.
Proof.
  intros cx cx' c. unfold second_input. destruct (cp_in c) as [|a [|b r]] eqn:I; rewrite ?I; try reflexivity.
  destruct (f_size a) eqn:A, (f_size b) eqn:B; try (rewrite I, A, ?B; reflexivity). cbn [set_flows cp_in set_size f_size]. rewrite A. reflexivity.
Qed.
Lemma second_big : forall cx cx' c, cx_big cx' = cx_big cx -> second_input cx' c = second_input cx c.
Proof. intros cx cx' c B. unfold second_input, iv_maximum. rewrite B. reflexivity. Qed.
Lemma second_prepare : forall cx c, second_input cx (prepare_component c) = prepare_component (second_input cx c).
Proof.
  intros cx c. unfold prepare_component. destruct (second_rest cx c) as [R1 [R2 _]]. rewrite R1, R2.
  assert (H : forall d, second_input cx (map_flows (fun f => if mem_nat (f_id f) (cp_prevent c) then with_default_onoff f else f) d)
                        = map_flows (fun f => if mem_nat (f_id f) (cp_prevent c) then with_default_onoff f else f) (second_input cx d)).
  { intros d. apply second_map.
    - intros f. destruct (mem_nat _ _); [apply default_size|reflexivity].
    - intros z f. cbn [set_size f_id]. destruct (mem_nat _ _); [apply default_set_size|reflexivity]. }
  rewrite H. destruct (cp_onoff c); [|reflexivity]. rewrite (second_map cx with_default_onoff) by (apply default_size || apply default_set_size). reflexivity.
Qed.
Lemma second_defaults : forall cx nz c, second_input cx (with_defaults nz c) = with_defaults nz (second_input cx c).
Proof. intros cx [|] c; [|reflexivity]. apply second_map; [apply default_size|apply default_set_size]. Qed.
Lemma map_flows_twice : forall g h c, map_flows g (map_flows h c) = map_flows (fun f => g (h f)) c.
Proof. intros. unfold map_flows, set_flows. cbn. rewrite !map_map. reflexivity. Qed.
Lemma map_flows_ext : forall g h c, (forall f, g f = h f) -> map_flows g c = map_flows h c.
Proof. intros g h c H. unfold map_flows. rewrite !(map_ext _ _ H). reflexivity. Qed.
Lemma defaults_prepare : forall nz nz' c, (nz' = true -> nz = true) ->
  prepare_component (with_defaults nz (prepare_component (with_defaults nz' c))) = prepare_component (with_defaults nz c).
Proof.
  intros [|] [|] c H; try (specialize (H eq_refl); discriminate H); cbn [with_defaults]; [| |apply prepare_component_idem].
  - assert (E : map_flows with_default_onoff (prepare_component (map_flows with_default_onoff c)) = prepare_component (map_flows with_default_onoff c)).
    { apply map_flows_fix. intros f Hf. apply default_fix. rewrite prepare_component_flows in Hf. apply in_map_iff in Hf. destruct Hf as [g [<- Hg]].
      rewrite map_flows_flows in Hg. apply in_map_iff in Hg. destruct Hg as [h [<- _]]. destruct (_ || _)%bool; [apply default_some|apply default_some]. }
    rewrite E. apply prepare_component_idem.
  - assert (E : map_flows with_default_onoff (prepare_component c) = map_flows with_default_onoff c); [|rewrite E; reflexivity].
    unfold prepare_component. destruct (cp_onoff c); rewrite ?map_flows_twice; apply map_flows_ext; intros f; rewrite ?default_id;
      destruct (mem_nat _ _); rewrite ?default_idem; reflexivity.
Qed.

(** What a component got for other steps does not matter, unless it got on/off variables for absolute losses that these steps do not have. *)
Lemma prepared_absorb : forall cx cx' tr tr' c c', prepared cx' tr' c = Ok c' -> cx_big cx' = cx_big cx ->
  (forall rel p a' a, cp_kind c = TransmissionC rel (Some p) -> act cx' tr' p = Ok a' -> nany_nonzero a' = true -> act cx tr p = Ok a -> nany_nonzero a = true) ->
  prepared cx tr c' = prepared cx tr c.
Proof.
  intros cx cx' tr tr' c c' P B L. destruct (prepared_shape _ _ _ _ P) as [_ [_ K]].
  destruct (cp_kind c) as [| | | |rel abs] eqn:E; try (unfold prepared in *; rewrite E in P; rewrite K, E; inversion P; subst; rewrite prepare_component_idem; reflexivity).
  rewrite (prepared_transmission _ _ _ _ _ K), (prepared_transmission _ _ _ _ _ E). rewrite (prepared_transmission _ _ _ _ _ E) in P.
  destruct abs as [p|].
  - destruct (act cx' tr' p) as [a'|] eqn:A'; [|discriminate P]. cbn [bind] in P. injection P as <-.
    destruct (act cx tr p) as [a|] eqn:A; [|reflexivity]. cbn [bind]. f_equal.
    rewrite !(second_big cx cx' _ B), second_defaults, second_prepare, second_idem, !second_defaults.
    apply defaults_prepare. intros N. exact (L rel p a' a eq_refl A' N A).
  - injection P as <-. f_equal. rewrite (second_big cx cx' _ B), second_prepare, second_idem. apply prepare_component_idem.
Qed.

Lemma ctx_big : forall cf ord fs idx cx, make_ctx cf ord fs idx = Ok cx -> cx_big cx = cf_big cf.
Proof. intros cf ord fs idx cx H. unfold make_ctx in H. destruct (time_data fs idx) as [[a b]|]; [|discriminate]. inversion H; subst. reflexivity. Qed.

(** Whether the model sees absolute losses. *)
Lemma loss_seen : forall cf ord fs idx cx tr p a, make_ctx cf ord fs idx = Ok cx -> full_data fs p -> act cx tr p = Ok a -> nany_nonzero a = any_loss fs idx p.
Proof.
  intros cf ord fs idx cx tr p a M FD A. destruct (make_ctx_spec _ _ _ _ _ M) as [CX [N [I _]]]. pose proof (make_ctx_rng _ _ _ _ _ M) as R.
  destruct tr; [|discriminate A]. rewrite <- I in R, N. destruct (act_full cx fs p CX N R FD) as [a' [A' L]]. assert (a' = a) by congruence. subst a'.
  rewrite (nany_value cx true p a CX A (fits_len _ _ L) (fun _ => L)). unfold any_loss. rewrite I, N, I. reflexivity.
Qed.

Section History.
Variables (cf : config) (ord : list nat -> list nat) (fs : flow_system) (idx : option (list nat)).
(** [c'] is what has become of [c]: nothing the other elements see has changed, and preparing it for [idx] gives the same. *)
Definition become (c c' : component) : Prop :=
  clook c' = clook c /\ cp_kind c' = cp_kind c
  /\ forall cx, make_ctx cf ord fs idx = Ok cx -> prepared cx (visible_comp fs (cp_label c)) c' = prepared cx (visible_comp fs (cp_label c)) c.

Lemma become_frame : forall fs', fs_times fs' = fs_times fs -> fs_end fs' = fs_end fs -> fs_prev_dt fs' = fs_prev_dt fs -> fs_effects fs' = fs_effects fs ->
  Forall2 become (fs_comps fs) (fs_comps fs') -> same_frame fs fs'.
Proof.
  intros fs' A B C D E. constructor; auto. induction E as [|c c' l l' [H _] _ IH]; [reflexivity|]. cbn. rewrite H, IH. reflexivity.
Qed.

Lemma become_build : forall fs', same_frame fs fs' -> Forall2 become (fs_comps fs) (fs_comps fs') -> build cf ord fs' idx = build cf ord fs idx.
Proof.
  intros fs' SF B. apply frame_build; [exact SF|]. intros cx E. induction B as [|c c' l l' [L [K P]] _ IH]; [reflexivity|]. cbn [mapM]. rewrite IH.
  assert (E1 : comp_model cx (visible_flow fs) (visible_comp fs) c' = comp_model cx (visible_flow fs) (visible_comp fs) c); [|rewrite E1; reflexivity].
  unfold comp_model. assert (LB : cp_label c' = cp_label c) by (apply (f_equal (fun k => fst (fst k))) in L; exact L).
  rewrite LB. rewrite (P cx E). reflexivity.
Qed.

(** Nothing that was given for the steps [idx'] is in the way of the steps [idx]. *)
Definition harmless (idx' : option (list nat)) : Prop := idx' = idx \/ (full_losses fs /\ losses_too fs idx' idx).

Lemma become_step : forall fs' idx', same_frame fs fs' -> Forall2 become (fs_comps fs) (fs_comps fs') ->
  harmless idx' -> Forall2 become (fs_comps fs) (fs_comps (after_modeling cf ord fs' idx')).
Proof.
  intros fs' idx' SF B W. unfold after_modeling. cbn [with_comps fs_comps]. generalize (comps_reached cf ord fs' idx'). intros k.
  assert (NA : forall c, In c (fs_comps fs) -> forall rel p, cp_kind c = TransmissionC rel (Some p) ->
     idx' = idx \/ (full_data fs p /\ (any_loss fs idx' p = true -> any_loss fs idx p = true))).
  { intros c Hc rel p K. destruct W as [W|[W1 W2]]; [left; exact W|right]. split; [exact (W1 c rel p Hc K)|exact (W2 c rel p Hc K)]. }
  clear W. revert NA k. induction B as [|c c' l l' [L [K P]] _ IH]; intros NA k; [destruct k; constructor|].
  assert (NA' := fun d (Hd : In d l) => NA d (or_intror Hd)).
  destruct k as [|k].
  - cbn [firstn skipn map app]. constructor; [split; [|split]; auto|]. apply (IH NA' 0%nat).
  - cbn [firstn skipn map app]. constructor; [|apply IH; exact NA']. unfold defaulted. rewrite (frame_ctx _ _ SF), (frame_vcomp _ _ SF).
    destruct (make_ctx cf ord fs idx') as [cx'|] eqn:E'; [|split; [|split]; auto].
    destruct (prepared cx' (visible_comp fs (cp_label c')) c') as [c''|] eqn:Q; [|split; [|split]; auto].
    destruct (prepared_shape _ _ _ _ Q) as [S1 [S2 S3]]. split; [congruence|]. split; [congruence|]. intros cx E. rewrite <- (P cx E).
    apply (prepared_absorb _ _ _ _ _ _ Q); [rewrite (ctx_big _ _ _ _ _ E), (ctx_big _ _ _ _ _ E'); reflexivity|].
    intros rel p a' a KK A' N A. rewrite K in KK. destruct (NA c (or_introl eq_refl) rel p KK) as [->|[FD LS]].
    + assert (cx' = cx) by congruence. subst cx'.
      assert (T : forall tr u, act cx tr p = Ok u -> act cx true p = Ok u) by (intros [|] u H; [exact H|discriminate H]). apply T in A. apply T in A'. congruence.
    + rewrite (loss_seen _ _ _ _ _ _ _ _ E FD A). rewrite (loss_seen _ _ _ _ _ _ _ _ E' FD A') in N. auto.
Qed.

Lemma become_history : forall l fs', same_frame fs fs' -> Forall2 become (fs_comps fs) (fs_comps fs') ->
  (forall i, In i l -> harmless i) -> build cf ord (modelled_before cf ord fs' l) idx = build cf ord fs idx.
Proof.
  induction l as [|i l IH]; intros fs' SF B W; [apply become_build; assumption|]. cbn [modelled_before fold_left].
  assert (B' : Forall2 become (fs_comps fs) (fs_comps (after_modeling cf ord fs' i))) by (apply become_step; auto; apply W; left; reflexivity).
  apply IH; [|exact B'|intros j Hj; apply W; right; exact Hj].
  apply become_frame; [apply SF|apply SF|apply SF|apply SF|exact B'].
Qed.
End History.

Lemma become_refl : forall cf ord fs idx l, Forall2 (become cf ord fs idx) l l.
Proof. induction l; constructor; [split; [|split]; auto|exact IHl]. Qed.

(** ** C46 *)
Theorem C46_repeated_modelling : forall cf ord fs idx repetitions,
  build cf ord (modelled_before cf ord fs (repeat idx repetitions)) idx = build cf ord fs idx.
Proof.
  intros. apply become_history; [apply frame_refl|apply become_refl|]. intros i Hi. left. apply repeat_spec in Hi. exact Hi.
Qed.
Print Assumptions C46_repeated_modelling.

(** Modelling does change the system: on/off parameters appear at the flows of the storage and a second investment at the line. *)
Example C46_applies : (exists pm, build default_config id_ord fs1 idx1 = Ok pm) /\ modelled_before default_config id_ord fs1 [idx1] <> fs1.
Proof.
  split.
  - destruct (build default_config id_ord fs1 idx1) as [pm|e] eqn:E; [exists pm; reflexivity|].
    assert (C : is_ok (build default_config id_ord fs1 idx1) = true) by (vm_compute; reflexivity). rewrite E in C. discriminate.
  - intros H. assert (C : map (fun cf : component * flow => is_some (f_onoff (snd cf))) (all_flows (modelled_before default_config id_ord fs1 [idx1]))
      <> map (fun cf : component * flow => is_some (f_onoff (snd cf))) (all_flows fs1)) by (vm_compute; discriminate).
    apply C. rewrite H. reflexivity.
Qed.

(** ** C51 *)
(** Calculations of any steps may have been modelled before, also unsuccessfully, as long as this one covers some of the absolute losses they did. *)
Theorem C51_other_calculations_partial : forall cf ord fs idx history, full_losses fs -> (forall h, In h history -> losses_too fs h idx) ->
  build cf ord (modelled_before cf ord fs history) idx = build cf ord fs idx.
Proof. intros cf ord fs idx history FL H. apply become_history; [apply frame_refl|apply become_refl|]. intros i Hi. right. split; [exact FL|apply H; exact Hi]. Qed.
Print Assumptions C51_other_calculations_partial.

(** In particular in systems without absolute losses, and if they never are zero. *)
Lemma lossless_full : forall fs, no_absolute_losses fs -> full_losses fs.
Proof. intros fs H c rel p Hc K. discriminate (H c rel _ Hc K). Qed.
Lemma lossless_too : forall fs idx' idx, no_absolute_losses fs -> losses_too fs idx' idx.
Proof. intros fs idx' idx H c rel p Hc K. discriminate (H c rel _ Hc K). Qed.
Theorem C51_lossless_partial : forall cf ord fs idx history, no_absolute_losses fs ->
  build cf ord (modelled_before cf ord fs history) idx = build cf ord fs idx.
Proof. intros cf ord fs idx history H. apply C51_other_calculations_partial; [apply lossless_full; exact H|]. intros h _. apply lossless_too. exact H. Qed.
Print Assumptions C51_lossless_partial.

(** A calculation of all steps is never affected. *)
Theorem C51_all_steps_partial : forall cf ord fs history, full_losses fs -> (forall h i, In (Some h) history -> In i h -> (i < length (fs_times fs))%nat) ->
  build cf ord (modelled_before cf ord fs history) None = build cf ord fs None.
Proof.
  intros cf ord fs history FL H. apply C51_other_calculations_partial; [exact FL|]. intros [h|] Hh c rel p Hc K A; [|exact A].
  unfold any_loss in *. apply existsb_exists in A. destruct A as [t [T V]]. apply in_seq in T. cbn [steps] in T. apply existsb_exists. exists (selected (Some h) t). split.
  - apply in_seq. split; [lia|]. cbn [steps plus]. apply (H h _ Hh). cbn [selected]. apply nth_In. lia.
  - exact V.
Qed.
Print Assumptions C51_all_steps_partial.

Lemma fs0_lossless : no_absolute_losses fs0.
Proof. intros c rel abs Hc K. cbn [fs0 fs_comps In] in Hc. repeat (destruct Hc as [<-|Hc]; [discriminate|]). destruct Hc. Qed.
Example C51_applies : no_absolute_losses fs0 /\ (exists pm, build default_config id_ord fs0 None = Ok pm)
  /\ modelled_before default_config id_ord fs0 [Some [0; 1]%nat; Some [1; 2]%nat] <> fs0.
Proof.
  split; [exact fs0_lossless|]. split.
  - destruct (build default_config id_ord fs0 None) as [pm|e] eqn:E; [exists pm; reflexivity|].
    assert (C : is_ok (build default_config id_ord fs0 None) = true) by (vm_compute; reflexivity). rewrite E in C. discriminate.
  - intros H. assert (C : map (fun cf : component * flow => is_some (f_onoff (snd cf))) (all_flows (modelled_before default_config id_ord fs0 [Some [0; 1]%nat; Some [1; 2]%nat]))
      <> map (fun cf : component * flow => is_some (f_onoff (snd cf))) (all_flows fs0)) by (vm_compute; discriminate).
    apply C. rewrite H. reflexivity.
Qed.

(** In general earlier calculations leave traces: a transmission whose absolute losses are zero in the steps of a calculation cannot be modelled,
    unless an earlier calculation with losses gave its flows on/off variables. *)
Definition C51_full : Prop := forall cf ord fs idx history, build cf ord (modelled_before cf ord fs history) idx = build cf ord fs idx.
Definition pipe : component :=
  transmission "Pipe" (fl 160 "in" gas 10) (fl 161 "out" heat 10) None None None (Some (na [1; 1; 0; 0])) None false.
Definition fs_pipe : flow_system := mkFS [0; 1; 2; 3] 4 (NS 1) [costs] [source "Src" (fl 162 "Q" gas 10); pipe].
Theorem C51_refuted : ~ C51_full.
Proof.
  intros F. specialize (F default_config id_ord fs_pipe (Some [2; 3]%nat) [Some [0; 1]%nat]).
  apply (f_equal is_ok) in F. revert F. vm_compute. discriminate.
Qed.
Print Assumptions C51_refuted.

(** The same pipe in calculations of steps with losses: it has some in the steps 1 and 2, whatever was calculated before. *)
Example C51_pipe_applies : full_losses fs_pipe /\ losses_too fs_pipe (Some [0; 1]%nat) (Some [1; 2]%nat) /\ losses_too fs_pipe (Some [2; 3]%nat) (Some [1; 2]%nat)
  /\ losses_too fs_pipe None (Some [1; 2]%nat) /\ is_ok (build default_config id_ord fs_pipe (Some [1; 2]%nat)) = true
  /\ build default_config id_ord (modelled_before default_config id_ord fs_pipe [Some [0; 1]; Some [2; 3]; None]%nat) (Some [1; 2]%nat)
     = build default_config id_ord fs_pipe (Some [1; 2]%nat).
Proof.
  assert (T : forall idx', losses_too fs_pipe idx' (Some [1; 2]%nat)).
  { intros idx' c rel p [<-|[<-|[]]] K _; [discriminate K|]. injection K as _ <-. reflexivity. }
  assert (F : full_losses fs_pipe) by (intros c rel p [<-|[<-|[]]] K; [discriminate K|injection K as _ <-; reflexivity]).
  split; [exact F|]. do 3 (split; [apply T|]). split; [vm_compute; reflexivity|]. apply C51_other_calculations_partial; [exact F|]. intros h _. apply T.
Qed.
