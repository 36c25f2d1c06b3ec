(** Facts about segmented calculations: what stays the same from segment to segment, how the segments follow each other,
    and where values end up in combined results. *)
From Verif Require Import Base BaseFacts MathModel Spec Structure Params Features Elements System Library SysSpec CtxFacts NavFacts Tree PropsTree Values Results
     Segmented PropsRepeat.

(** ** Systems that differ in start values and defaults only *)
Definition kind_like (k k' : ckindc) : Prop :=
  match k with StorageC s => exists i, k' = StorageC (with_init i s) | _ => k' = k end.
Definition flow_like (f f' : flow) : Prop := flook f' = flook f /\ (f_onoff f <> None -> f_onoff f' <> None).
Record comp_like (c c' : component) : Prop := {
  cl_flows : Forall2 flow_like (cp_flows c) (cp_flows c');
  cl_look : clook c' = clook c;
  cl_onoff : cp_onoff c' = cp_onoff c;
  cl_prevent : cp_prevent c' = cp_prevent c;
  cl_kind : kind_like (cp_kind c) (cp_kind c')
}.
Record sys_like (fs fs' : flow_system) : Prop := {
  sl_times : fs_times fs' = fs_times fs;
  sl_end : fs_end fs' = fs_end fs;
  sl_prev : fs_prev_dt fs' = fs_prev_dt fs;
  sl_effects : fs_effects fs' = fs_effects fs;
  sl_comps : Forall2 comp_like (fs_comps fs) (fs_comps fs')
}.

Lemma with_init_init : forall i j s, with_init i (with_init j s) = with_init i s. Proof. reflexivity. Qed.
Lemma with_init_same : forall s, with_init (st_init s) s = s. Proof. destruct s; reflexivity. Qed.
Lemma kind_like_refl : forall k, kind_like k k.
Proof. destruct k; cbn; try reflexivity. exists (st_init s). rewrite with_init_same. reflexivity. Qed.
Lemma kind_like_trans : forall a b c, kind_like a b -> kind_like b c -> kind_like a c.
Proof.
  intros a b c H K. destruct a; cbn in *; try (subst b; exact K). destruct H as [i ->]. destruct K as [j ->]. exists j. reflexivity.
Qed.
Lemma Forall2_trans : forall {A} (R : A -> A -> Prop), (forall a b c, R a b -> R b c -> R a c) -> forall l m n, Forall2 R l m -> Forall2 R m n -> Forall2 R l n.
Proof. intros A R T l m n H. revert n. induction H; intros n K; inversion K; subst; constructor; eauto. Qed.
Lemma flows_like_refl : forall l, Forall2 flow_like l l.
Proof. induction l; constructor; [split; auto|assumption]. Qed.
Lemma flows_like_trans : forall l m n, Forall2 flow_like l m -> Forall2 flow_like m n -> Forall2 flow_like l n.
Proof. apply Forall2_trans. intros a b c [A1 A2] [B1 B2]. split; [congruence|auto]. Qed.
Lemma flows_like_map : forall (h : flow -> flow) l, (forall f, flow_like f (h f)) -> Forall2 flow_like l (map h l).
Proof. induction l; intros H; constructor; auto. Qed.
Lemma default_like : forall f, flow_like f (with_default_onoff f).
Proof. intros f. split; [apply default_look|]. intros _. apply default_some. Qed.
Lemma comp_like_refl : forall c, comp_like c c. Proof. intros c. constructor; auto. apply flows_like_refl. apply kind_like_refl. Qed.
Lemma comp_like_trans : forall a b c, comp_like a b -> comp_like b c -> comp_like a c.
Proof. intros a b c [A0 A1 A2 A3 A4] [B0 B1 B2 B3 B4]. constructor; try congruence. eapply flows_like_trans; eauto. eapply kind_like_trans; eauto. Qed.
Lemma sys_like_refl : forall fs, sys_like fs fs.
Proof. intros fs. constructor; auto. induction (fs_comps fs); constructor; auto. apply comp_like_refl. Qed.
Lemma sys_like_trans : forall a b c, sys_like a b -> sys_like b c -> sys_like a c.
Proof. intros a b c [A1 A2 A3 A4 A5] [B1 B2 B3 B4 B5]. constructor; try congruence. eapply Forall2_trans; eauto. apply comp_like_trans. Qed.
Lemma sys_like_frame : forall fs fs', sys_like fs fs' -> same_frame fs fs'.
Proof.
  intros fs fs' [A B C D E]. constructor; auto. induction E as [|c c' l l' H _ IH]; [reflexivity|]. cbn. rewrite IH, (cl_look _ _ H). reflexivity.
Qed.

Lemma prepare_component_like : forall c, Forall2 flow_like (cp_flows c) (cp_flows (prepare_component c)).
Proof. intros c. rewrite prepare_component_flows. apply flows_like_map. intros f. destruct (_ || _)%bool; [apply default_like|split; auto]. Qed.
Lemma transmission_like : forall cx tr abs c c', prepare_transmission cx tr abs c = Ok c' -> Forall2 flow_like (cp_flows c) (cp_flows c').
Proof.
  intros cx tr abs c c' H. unfold prepare_transmission in H.
  assert (S1 : exists c1, (match abs with None => Ok c | Some p => a <- act cx tr p ;; Ok (if nany_nonzero a then map_flows with_default_onoff c else c) end) = Ok c1
     /\ Forall2 flow_like (cp_flows c) (cp_flows c1)).
  { destruct abs as [p|]; [|exists c; split; [reflexivity|apply flows_like_refl]]. destruct (act cx tr p) as [a|]; [|discriminate]. cbn [bind].
    eexists. split; [reflexivity|]. destruct (nany_nonzero a); [|apply flows_like_refl]. rewrite map_flows_flows. apply flows_like_map, default_like. }
  destruct S1 as [c1 [E L]]. rewrite E in H. cbn [bind] in H.
  destruct (cp_in c1) as [|in1 [|in2 r]] eqn:I; try (inversion H; subst; exact L).
  destruct (f_size in1), (f_size in2); inversion H; subst; try exact L.
  eapply flows_like_trans; [exact L|]. unfold cp_flows. cbn [set_flows cp_in cp_out]. rewrite I. cbn [app]. constructor; [split; auto|]. constructor; [split; auto|apply flows_like_refl].
Qed.
Lemma prepared_like : forall cx tr c c', prepared cx tr c = Ok c' -> comp_like c c'.
Proof.
  intros cx tr c c' H. destruct (prepared_shape _ _ _ _ H) as [L [_ K]].
  assert (FL : Forall2 flow_like (cp_flows c) (cp_flows c')).
  { clear L K. unfold prepared in H. destruct (cp_kind c); try (inversion H; subst; apply prepare_component_like).
    destruct (prepare_transmission cx tr abs c) as [c1|] eqn:T; [|discriminate]. cbn [bind] in H. inversion H; subst.
    eapply flows_like_trans; [exact (transmission_like _ _ _ _ _ T)|apply prepare_component_like]. }
  constructor; [exact FL|exact L| | |rewrite K; apply kind_like_refl]; unfold prepared in H; destruct (prepare_component_rest c) as [R1 [R2 _]];
    destruct (cp_kind c); try (inversion H; subst; assumption);
    (destruct (prepare_transmission cx tr abs c) as [c1|] eqn:T; [|discriminate]); cbn [bind] in H; inversion H; subst;
    destruct (transmission_shape _ _ _ _ _ T) as [_ [B [C _]]]; destruct (prepare_component_rest c1) as [Q1 [Q2 _]]; congruence.
Qed.
Lemma after_like : forall cf ord fs idx, sys_like fs (after_modeling cf ord fs idx).
Proof.
  intros cf ord fs idx. unfold after_modeling. constructor; try reflexivity. cbn [with_comps fs_comps]. generalize (comps_reached cf ord fs idx). intros k.
  revert k. generalize (fs_comps fs). induction l as [|c l IH]; intros k; [destruct k; constructor|]. destruct k as [|k].
  - cbn [firstn skipn map app]. constructor; [apply comp_like_refl|]. apply (IH 0%nat).
  - cbn [firstn skipn map app]. constructor; [|apply IH]. unfold defaulted. destruct (make_ctx cf ord fs idx) as [cx|]; [|apply comp_like_refl].
    destruct (prepared _ _ _) eqn:E; [exact (prepared_like _ _ _ _ E)|apply comp_like_refl].
Qed.
Lemma with_starts_like : forall p i c, comp_like c (with_starts p i c).
Proof.
  intros p i c. constructor; try reflexivity.
  - unfold cp_flows. cbn [with_starts cp_in cp_out]. rewrite <- map_app. apply flows_like_map. intros f. split; auto.
  - unfold clook. cbn. rewrite !map_map. reflexivity.
  - cbn. destruct (cp_kind c); cbn; eauto.
Qed.
Lemma transfer_like : forall g n x fs fs', transfer g n x fs = Ok fs' -> sys_like fs fs'.
Proof.
  intros g n x fs fs' H. unfold transfer in H. destruct (mapM _ (fs_comps fs)) as [cs|] eqn:M; [|discriminate]. cbn [bind] in H. inversion H; subst.
  constructor; try reflexivity. cbn [with_comps fs_comps]. clear H. revert cs M. induction (fs_comps fs) as [|c l IH]; intros cs M; cbn [mapM] in M.
  - inversion M; subst. constructor.
  - destruct (from_end n (1 + sg_over g)); [|discriminate]. destruct (from_end (n + 1) (1 + sg_over g)); [|discriminate]. cbn [bind] in M.
    destruct (mapM _ l) as [r|] eqn:R; [|discriminate]. cbn [bind] in M. inversion M; subst. constructor; [apply with_starts_like|]. apply IH. reflexivity.
Qed.
Lemma reset_like : forall g fs, sys_like fs (reset g fs).
Proof.
  intros g fs. constructor; try reflexivity. cbn [reset with_comps fs_comps]. induction (fs_comps fs); constructor; [apply with_starts_like|exact IHl].
Qed.

(** A storage stays one. *)
Lemma storage_like : forall label ch dis s prevent c', comp_like (storage_ label ch dis s prevent) c' ->
  exists ch' dis' i, c' = storage_ label ch' dis' (with_init i s) prevent /\ f_lab ch' = f_lab ch /\ f_lab dis' = f_lab dis.
Proof.
  intros label ch dis s prevent [lb' in' out' oo' pv' kd'] [_ L O P K]. cbn in *. inversion L as [[L1 L2 L3]].
  destruct in' as [|ch' [|? ?]]; try discriminate. destruct out' as [|dis' [|? ?]]; try discriminate. cbn in L2, L3. injection L2 as A1 A2 A3. injection L3 as B1 B2 B3.
  destruct K as [i ->]. exists ch', dis', i. subst. split; [|auto]. unfold storage_. rewrite A1, B1. reflexivity.
Qed.

(** ** The sequence of segments *)
Section Trace.
Variables (cf : config) (ord : list nat -> list nat) (solver : nat -> pmodel -> option asg) (g : segmented).
Inductive seg_trace : nat -> flow_system -> list sub -> flow_system -> Prop :=
| tr_last i fs1 pm x : build cf ord fs1 (Some (get_indices g i)) = Ok pm -> solver i pm = Some x ->
    seg_trace i fs1 [mkSub fs1 (get_indices g i) pm x] (after_modeling cf ord fs1 (Some (get_indices g i)))
| tr_step i fs1 pm x fs2 rest fs' : build cf ord fs1 (Some (get_indices g i)) = Ok pm -> solver i pm = Some x ->
    transfer g (length (get_indices g i)) x (after_modeling cf ord fs1 (Some (get_indices g i))) = Ok fs2 ->
    seg_trace (S i) fs2 rest fs' -> seg_trace i fs1 (mkSub fs1 (get_indices g i) pm x :: rest) fs'.

Lemma loop_trace_after : forall todo i fs done s fs' subs, seg_loop cf ord solver g (S todo) i fs (done ++ [s]) = (fs', subs, None) ->
  exists fs1 rest, transfer g (length (sb_idx s)) (sb_values s) fs = Ok fs1 /\ subs = done ++ [s] ++ rest /\ seg_trace i fs1 rest fs' /\ length rest = S todo.
Proof.
  induction todo as [|todo IH]; intros i fs done s fs' subs H; cbn [seg_loop] in H; rewrite rev_app_distr in H; cbn [rev app] in H.
  - destruct (transfer _ _ _ fs) as [fs1|] eqn:T; [|discriminate]. destruct (build cf ord fs1 _) as [pm|] eqn:B; [|discriminate].
    destruct (solver i pm) as [x|] eqn:S1; [|discriminate]. inversion H; subst. exists fs1, [mkSub fs1 (get_indices g i) pm x].
    split; [reflexivity|]. split; [rewrite <- app_assoc; reflexivity|]. split; [|reflexivity]. constructor; assumption.
  - destruct (transfer _ _ _ fs) as [fs1|] eqn:T; [|discriminate]. destruct (build cf ord fs1 _) as [pm|] eqn:B; [|discriminate].
    destruct (solver i pm) as [x|] eqn:S1; [|discriminate]. apply IH in H. destruct H as [fs2 [rest [T2 [E [TR L]]]]]. cbn [sb_idx sb_values] in T2.
    exists fs1, (mkSub fs1 (get_indices g i) pm x :: rest). split; [reflexivity|]. split; [subst subs; rewrite <- app_assoc; reflexivity|].
    split; [econstructor; eassumption|cbn [length]; rewrite L; reflexivity].
Qed.
Lemma loop_trace : forall todo fs fs' subs, seg_loop cf ord solver g (S todo) 0 fs [] = (fs', subs, None) ->
  seg_trace 0 fs subs fs' /\ length subs = S todo.
Proof.
  intros todo fs fs' subs H. cbn [seg_loop rev] in H. destruct (build cf ord fs _) as [pm|] eqn:B; [|discriminate].
  destruct (solver 0%nat pm) as [x|] eqn:S1; [|discriminate]. destruct todo as [|todo].
  - cbn [seg_loop app] in H. inversion H; subst. split; [constructor; assumption|reflexivity].
  - apply (loop_trace_after todo 1 _ [] (mkSub fs (get_indices g 0) pm x)) in H. destruct H as [fs1 [rest [T [E [TR L]]]]]. cbn [sb_idx sb_values] in T.
    subst subs. cbn [app]. split; [|cbn [length]; rewrite L; reflexivity]. econstructor; eassumption.
Qed.

Lemma trace_like : forall i fs1 subs fs', seg_trace i fs1 subs fs' -> sys_like fs1 fs' /\ forall s, In s subs -> sys_like fs1 (sb_fs s).
Proof.
  induction 1 as [i fs1 pm x B S1|i fs1 pm x fs2 rest fs' B S1 T TR [IH1 IH2]].
  - split; [apply after_like|]. intros s [<-|[]]. apply sys_like_refl.
  - assert (L : sys_like fs1 fs2) by (eapply sys_like_trans; [apply after_like|exact (transfer_like _ _ _ _ _ T)]).
    split; [eapply sys_like_trans; eauto|]. intros s [<-|Hs]; [apply sys_like_refl|]. eapply sys_like_trans; eauto.
Qed.

Lemma trace_nth : forall i fs1 subs fs', seg_trace i fs1 subs fs' -> forall k s, nth_error subs k = Some s ->
  sb_idx s = get_indices g (i + k) /\ build cf ord (sb_fs s) (Some (sb_idx s)) = Ok (sb_prog s) /\ solver (i + k) (sb_prog s) = Some (sb_values s).
Proof.
  induction 1 as [i fs1 pm x B S1|i fs1 pm x fs2 rest fs' B S1 T TR IH]; intros k s E.
  - destruct k as [|[|k]]; cbn in E; try discriminate. inversion E; subst. cbn. rewrite Nat.add_0_r. auto.
  - destruct k as [|k]; cbn in E; [inversion E; subst; cbn; rewrite Nat.add_0_r; auto|].
    replace (i + S k)%nat with (S i + k)%nat by lia. apply IH. exact E.
Qed.
Lemma trace_next : forall i fs1 subs fs', seg_trace i fs1 subs fs' -> forall k s s', nth_error subs k = Some s -> nth_error subs (S k) = Some s' ->
  transfer g (length (sb_idx s)) (sb_values s) (after_modeling cf ord (sb_fs s) (Some (sb_idx s))) = Ok (sb_fs s').
Proof.
  induction 1 as [i fs1 pm x B S1|i fs1 pm x fs2 rest fs' B S1 T TR IH]; intros k s s' E E'.
  - destruct k; discriminate.
  - destruct k as [|k]; cbn in E, E'.
    + inversion E; subst. cbn. destruct TR; cbn in E'; inversion E'; subst; cbn; exact T.
    + apply (IH k); assumption.
Qed.
Lemma trace_first : forall i fs1 subs fs', seg_trace i fs1 subs fs' -> exists s, nth_error subs 0 = Some s /\ sb_fs s = fs1.
Proof. destruct 1; eexists; (split; [reflexivity|reflexivity]). Qed.

(** When an exception ends the first segment nothing was handed over. *)
Lemma loop_fails_first : forall todo fs fs' e, seg_loop cf ord solver g todo 0 fs [] = (fs', [], Some e) ->
  exists idx, fs' = after_modeling cf ord fs idx.
Proof.
  intros [|todo] fs fs' e H; [discriminate|]. cbn [seg_loop rev] in H. destruct (build cf ord fs _) as [pm|]; [|inversion H; eauto].
  destruct (solver 0%nat pm) as [x|]; [|inversion H; eauto].
  assert (G : forall todo i fs done, done <> [] -> forall fs' subs o, seg_loop cf ord solver g todo i fs done = (fs', subs, o) -> subs <> []).
  { clear. induction todo as [|todo IH]; intros i fs done N fs' subs o H; cbn [seg_loop] in H; [inversion H; subst; exact N|].
    destruct (match rev done with [] => Ok fs | s :: _ => transfer g (length (sb_idx s)) (sb_values s) fs end); [|inversion H; subst; exact N].
    destruct (build _ _ _ _) as [pm|]; [|inversion H; subst; exact N]. destruct (solver i pm); [|inversion H; subst; exact N].
    eapply IH; [|exact H]. intros Z. apply app_eq_nil in Z. destruct Z. discriminate. }
  exfalso. eapply G; [|exact H|reflexivity]. discriminate.
Qed.
End Trace.

(** ** What is handed over *)
Lemma transfer_values : forall g n x fs fs', transfer g n x fs = Ok fs' -> forall c, In c (fs_comps fs') ->
  exists i j, from_end n (1 + sg_over g) = Ok i /\ from_end (n + 1) (1 + sg_over g) = Ok j
    /\ (forall f, In f (cp_flows c) -> f_prev f = Some (NS (rate_of x c f i)))
    /\ (forall s, cp_kind c = StorageC s -> st_init s = ICNum (charge x c j)).
Proof.
  intros g n x fs fs' H c Hc. unfold transfer in H. destruct (mapM _ (fs_comps fs)) as [cs|] eqn:M; [|discriminate]. cbn [bind] in H. inversion H; subst. clear H.
  cbn [with_comps fs_comps] in Hc. destruct (mapM_In_inv _ _ _ _ M Hc) as [c0 [_ E]].
  destruct (from_end n (1 + sg_over g)) as [i|] eqn:I; [|discriminate]. destruct (from_end (n + 1) (1 + sg_over g)) as [j|] eqn:J; [|discriminate]. cbn [bind] in E.
  inversion E; subst. exists i, j. split; [reflexivity|]. split; [reflexivity|]. split.
  - intros f Hf. unfold cp_flows in Hf. cbn [with_starts cp_in cp_out] in Hf. rewrite <- map_app in Hf. apply in_map_iff in Hf. destruct Hf as [f0 [<- _]]. reflexivity.
  - intros s K. cbn [with_starts cp_kind] in K. destruct (cp_kind c0); try discriminate. inversion K; subst. reflexivity.
Qed.

(** ** Indices *)
Lemma ceil_spec : forall total seg, (0 < seg)%nat -> (0 < total)%nat ->
  ((((total + seg - 1) / seg) - 1) * seg < total <= ((total + seg - 1) / seg) * seg)%nat.
Proof.
  intros total seg H T. pose proof (Nat.div_mod (total + seg - 1) seg ltac:(lia)) as D. pose proof (Nat.mod_upper_bound (total + seg - 1) seg ltac:(lia)) as B.
  set (q := ((total + seg - 1) / seg)%nat) in *. set (r := ((total + seg - 1) mod seg)%nat) in *.
  assert (Q : (1 <= q)%nat) by nia. nia.
Qed.
Lemma segmented_spec : forall fs seg over ti g, mk_segmented fs seg over ti = Ok g ->
  sg_len g = seg /\ sg_over g = over /\ sg_total g = steps fs ti /\ sg_starts g = start_values fs /\ (2 < seg)%nat /\ (seg + over <= sg_total g)%nat
  /\ (1 <= sg_number g)%nat /\ ((sg_number g - 1) * seg < sg_total g <= sg_number g * seg)%nat.
Proof.
  intros fs seg over ti g H. unfold mk_segmented in H. unfold guard, assert_ in H. destruct (Nat.eqb_spec seg 0); [discriminate|]. cbn [negb bind] in H.
  unfold guard in H. destruct (Nat.ltb_spec 2 seg); [|discriminate]. cbn [bind] in H. destruct (Nat.leb_spec (seg + over) (match ti with Some l => length l | None => length (fs_times fs) end)); [|discriminate].
  cbn [bind] in H. inversion H; subst. cbn [sg_len sg_over sg_total sg_number sg_starts].
  assert (E : match ti with Some l => length l | None => length (fs_times fs) end = steps fs ti) by (destruct ti; reflexivity). rewrite E in *.
  repeat split; auto; try lia.
  - pose proof (ceil_spec (steps fs ti) seg ltac:(lia) ltac:(lia)). destruct ((steps fs ti + seg - 1) / seg)%nat; lia.
  - apply ceil_spec; lia.
  - apply ceil_spec; lia.
Qed.

Lemma firstn_seq : forall k a n, firstn k (seq a n) = seq a (Nat.min k n).
Proof. induction k as [|k IH]; intros a n; [reflexivity|]. destruct n as [|n]; [reflexivity|]. cbn. rewrite IH. reflexivity. Qed.
Lemma concat_blocks : forall m seg, concat (map (fun k => seq (k * seg) seg) (seq 0 m)) = seq 0 (m * seg).
Proof.
  induction m as [|m IH]; intros seg; [reflexivity|]. rewrite seq_S, map_app, concat_app, IH. cbn [map concat]. rewrite app_nil_r.
  cbn [Nat.add]. rewrite <- seq_app. f_equal. lia.
Qed.
Lemma hours_part : forall fs a n t, (t < n)%nat -> (a + n <= length (fs_times fs))%nat -> hours fs (Some (seq a n)) t = hours fs None (a + t).
Proof.
  intros fs a n t Ht Hn. unfold hours. cbn [steps selected]. rewrite seq_length, (seq_nth a 0 Ht). f_equal. f_equal.
  destruct (Nat.ltb_spec (S t) n); destruct (Nat.ltb_spec (S (a + t)) (length (fs_times fs))); try lia; auto. rewrite seq_nth by lia. lia.
Qed.
Lemma value_part : forall p a n t, (t < n)%nat -> value (Some (seq a n)) p t = value None p (a + t).
Proof. intros p a n t Ht. unfold value. destruct (pdata p); [reflexivity|]. cbn [selected]. rewrite seq_nth by lia. reflexivity. Qed.
Lemma hours_like : forall fs fs' idx t, sys_like fs fs' -> hours fs' idx t = hours fs idx t.
Proof. intros fs fs' idx t L. unfold hours, stamp, steps. rewrite (sl_times _ _ L), (sl_end _ _ L). reflexivity. Qed.

(** ** Combined dictionaries *)
Lemma sget_mapM : forall {A B} (f : string * A -> res (string * B)) d r k v,
  (forall kv kb, f kv = Ok kb -> fst kb = fst kv) -> mapM f d = Ok r -> sget k d = Some v -> exists b, sget k r = Some b /\ f (k, v) = Ok (k, b).
Proof.
  intros A B f d. induction d as [|[k0 v0] d IH]; intros r k v K M G; [discriminate|]. cbn [mapM] in M.
  destruct (f (k0, v0)) as [[k1 b]|] eqn:F; [|discriminate]. cbn [bind] in M. destruct (mapM f d) as [r'|] eqn:M'; [|discriminate]. cbn [bind] in M. inversion M; subst.
  pose proof (K _ _ F) as Z. cbn in Z. subst k1. rewrite sget_cons in G. rewrite sget_cons. destruct (String.eqb k k0) eqn:E.
  - inversion G; subst. apply String.eqb_eq in E. subst. eauto.
  - apply (IH r' k v K eq_refl G).
Qed.
Lemma all_leaves_map : forall {A} (l : list A), all_leaves (map Leaf l) = Some l.
Proof. induction l as [|a l IH]; [reflexivity|]. cbn. change (fold_right _ (Some []) (map Leaf l)) with (all_leaves (map (@Leaf A) l)). rewrite IH. reflexivity. Qed.
Lemma all_nodes_inv : forall {A} (l : list (tree A)) ds, all_nodes l = Some ds -> l = map Node ds.
Proof.
  induction l as [|t l IH]; intros ds H; [inversion H; reflexivity|]. cbn in H. change (fold_right _ (Some []) l) with (all_nodes l) in H.
  destruct t; [discriminate|]. destruct (all_nodes l) as [r|]; [|discriminate]. inversion H; subst. cbn. rewrite (IH r eq_refl). reflexivity.
Qed.
Lemma all_nodes_some : forall {A} (l : list (tree A)), (forall t, In t l -> exists d, t = Node d) -> exists ds, all_nodes l = Some ds.
Proof.
  induction l as [|t l IH]; intros H; [eexists; reflexivity|]. destruct (H t (or_introl eq_refl)) as [d ->]. destruct IH as [ds E]; [intros; apply H; right; assumption|].
  cbn. change (fold_right _ (Some []) l) with (all_nodes l). rewrite E. eauto.
Qed.

Lemma mapM_sget_Forall2 : forall {A} k (ds : list (list (string * tree A))) vs, mapM (fun e => of_option KeyError (sget k e)) ds = Ok vs ->
  Forall2 (fun d v => sget k d = Some v) ds vs.
Proof.
  induction ds as [|d ds IH]; intros vs H; cbn [mapM] in H; [inversion H; constructor|].
  destruct (sget k d) as [v|] eqn:E; [|discriminate]. cbn [of_option bind] in H. destruct (mapM _ ds) as [r|] eqn:M; [|discriminate]. cbn [bind] in H. inversion H; subst.
  constructor; [exact E|]. apply IH. reflexivity.
Qed.

Lemma combine_path : forall {A B} (join : list A -> option B) path t rest u a l,
  combine_rec join t rest = Ok u -> extract t path = Some (Leaf a) -> Forall2 (fun t a => extract t path = Some (Leaf a)) rest l ->
  extract u path = Some (Leaf (join (a :: l))).
Proof.
  intros A B join. induction path as [|k path IH]; intros t rest u a l C E R.
  - cbn in E. inversion E; subst. cbn [combine_rec] in C.
    assert (Z : rest = map Leaf l) by (clear -R; induction R as [|t a l l' H _ IH]; [reflexivity|]; cbn in H; inversion H; subst; reflexivity).
    subst rest. rewrite all_leaves_map in C. inversion C; subst. reflexivity.
  - destruct t as [|d]; cbn [extract] in E; [discriminate|]. destruct (sget k d) as [v|] eqn:G; [|discriminate]. cbn [combine_rec] in C.
    assert (N : exists ds, all_nodes rest = Some ds).
    { apply all_nodes_some. intros t Ht. destruct t as [b|e]; [|eauto]. exfalso. clear -R Ht. induction R as [|t a l l' H _ IH]; [destruct Ht|].
      destruct Ht as [->|Ht]; [cbn in H; discriminate|auto]. }
    destruct N as [ds N]. rewrite N in C. apply all_nodes_inv in N. subst rest.
    destruct (mapM _ d) as [r|] eqn:M; [|discriminate]. cbn [bind] in C. inversion C; subst. clear C.
    assert (FK : forall (kv : string * tree A) (kb : string * tree (option B)), (vs <- mapM (fun e => of_option KeyError (sget (fst kv) e)) ds ;; c <- combine_rec join (snd kv) vs ;; Ok (fst kv, c)) = Ok kb -> fst kb = fst kv).
    { intros kv kb H. destruct (mapM (fun e => of_option KeyError (sget (fst kv) e)) ds) as [vs|]; [|discriminate]. cbn [bind] in H. destruct (combine_rec join (snd kv) vs); [|discriminate]. cbn [bind] in H. inversion H. reflexivity. }
    destruct (sget_mapM _ _ _ k v FK M G) as [b [G' F]]. clear FK.
    cbn [extract]. rewrite G'. cbn [fst snd] in F. destruct (mapM (fun e => of_option KeyError (sget k e)) ds) as [vs|] eqn:V; [|discriminate]. cbn [bind] in F.
    destruct (combine_rec join v vs) as [w|] eqn:W; [|discriminate]. cbn [bind] in F. inversion F; subst. apply (IH v vs b a l W E).
    apply mapM_sget_Forall2 in V. clear -R V. revert l R. induction V as [|e v ds vs H _ IH]; intros l R; inversion R as [|? a ? l' H' R']; subst; constructor; [|apply IH; assumption].
    cbn [extract] in H'. rewrite H in H'. exact H'.
Qed.

Lemma sget_filtered : forall {A B} (f : A -> option B) d k v w, sget k d = Some v -> f v = Some w ->
  sget k (flat_map (fun kv : string * A => match f (snd kv) with Some b => [(fst kv, b)] | None => [] end) d) = Some w.
Proof.
  intros A B f d. induction d as [|[k0 v0] d IH]; intros k v w G F; [discriminate|]. rewrite sget_cons in G. cbn [flat_map fst snd].
  destruct (String.eqb k k0) eqn:E.
  - inversion G; subst. rewrite F. cbn [app]. rewrite sget_cons, E. reflexivity.
  - destruct (f v0); cbn [app]; rewrite ?sget_cons, ?E; apply (IH k v w G F).
Qed.
Lemma drop_none_path : forall {B} path (t : tree (option B)) b, extract t path = Some (Leaf (Some b)) ->
  exists u, drop_none t = Some u /\ extract u path = Some (Leaf b).
Proof.
  induction path as [|k path IH]; intros t b E.
  - cbn in E. inversion E; subst. exists (Leaf b). split; reflexivity.
  - destruct t as [|d]; cbn [extract] in E; [discriminate|]. destruct (sget k d) as [v|] eqn:G; [|discriminate]. destruct (IH v b E) as [u [D X]].
    cbn [drop_none]. eexists. split; [reflexivity|]. cbn [extract]. rewrite (sget_filtered (@drop_none B) d k v u G D). exact X.
Qed.
Lemma drop_empty_path : forall {B} path (t : tree B) b, extract t path = Some (Leaf b) -> exists u, drop_empty t = Some u /\ extract u path = Some (Leaf b).
Proof.
  induction path as [|k path IH]; intros t b E.
  - cbn in E. inversion E; subst. exists (Leaf b). split; reflexivity.
  - destruct t as [|d]; cbn [extract] in E; [discriminate|]. destruct (sget k d) as [v|] eqn:G; [|discriminate]. destruct (IH v b E) as [u [D X]].
    cbn [drop_empty]. pose proof (sget_filtered (@drop_empty B) d k v u G D) as S1.
    destruct (flat_map _ d) as [|e r] eqn:FM; [discriminate|]. eexists. split; [reflexivity|]. cbn [extract]. rewrite S1. exact X.
Qed.

(** At a path where every segment holds something that can be joined, the combination holds the joined value. *)
Lemma combine_dicts_path : forall {A B} (join : list A -> option B) ds r k path l b,
  combine_dicts join ds = Ok r -> Forall2 (fun d a => extract (Node d) (k :: path) = Some (Leaf a)) ds l -> join l = Some b ->
  extract (Node r) (k :: path) = Some (Leaf b).
Proof.
  intros A B join ds r k path l b C F J. destruct ds as [|d ds]; [discriminate|]. cbn [combine_dicts] in C. inversion F as [|? a ? l' H F']; subst.
  destruct (combine_rec join (Node d) (map Node ds)) as [u|] eqn:U; [|discriminate]. cbn [bind] in C. inversion C; subst.
  assert (F2 : Forall2 (fun t a => extract t (k :: path) = Some (Leaf a)) (map Node ds) l') by (clear -F'; induction F'; constructor; auto).
  pose proof (combine_path join (k :: path) _ _ _ _ _ U H F2) as E. rewrite J in E.
  destruct (drop_none_path _ _ _ E) as [v [D1 E1]]. destruct (drop_empty_path _ _ _ E1) as [w [D2 E2]]. unfold tidy_up. rewrite D1, D2.
  destruct w as [q|q]; [cbn in E2; discriminate|exact E2].
Qed.

(** Arrays of numbers. *)
Lemma cut_all_but_last_length : forall n l lens, Forall2 (fun a m => length a = m) l lens -> (forall m, In m (removelast lens) -> n <= m)%nat ->
  length (cut_all_but_last n l) = (n * (length l - 1) + last lens 0)%nat.
Proof.
  intros n l lens F. induction F as [|a m l lens H F IH]; intros N; [cbn; lia|]. destruct F as [|a' m' l lens H' F].
  - cbn. lia.
  - cbn [cut_all_but_last]. change (match l with [] => a' | _ :: _ => firstn n a' ++ cut_all_but_last n l end) with (cut_all_but_last n (a' :: l)).
    rewrite app_length, IH.
    + rewrite firstn_length. assert (n <= m)%nat by (apply N; cbn; auto). cbn [length last]. subst m. nia.
    + intros q Hq. apply N. cbn [removelast] in *. right. exact Hq.
Qed.
Lemma cut_nth : forall n l t k, (0 < n)%nat -> (forall a, In a (removelast l) -> n <= length a)%nat ->
  (k < length l)%nat -> (t < length (nth k l []))%nat -> (S k < length l -> t < n)%nat ->
  nth (k * n + t) (cut_all_but_last n l) 0 = nth t (nth k l []) 0.
Proof.
  intros n l. induction l as [|a l IH]; intros t k Hn N Hk Ht HS; [cbn in Hk; lia|]. destruct l as [|a' l].
  - cbn [length] in Hk. destruct k; [|lia]. reflexivity.
  - cbn [cut_all_but_last]. change (match l with [] => a' | _ :: _ => firstn n a' ++ cut_all_but_last n l end) with (cut_all_but_last n (a' :: l)).
    assert (L : length (firstn n a) = n) by (rewrite firstn_length; assert (n <= length a)%nat by (apply N; cbn; auto); lia).
    destruct k as [|k].
    + cbn [nth Nat.mul Nat.add] in *. assert (T : (t < n)%nat) by (apply HS; cbn [length]; lia). rewrite app_nth1 by lia. clear -T. revert a t T. induction n as [|n IH]; intros a t T; [lia|].
      destruct a as [|q a]; [reflexivity|]. destruct t as [|t]; [reflexivity|]. cbn. apply IH. lia.
    + rewrite app_nth2 by lia. rewrite L. replace (S k * n + t - n)%nat with (k * n + t)%nat by lia. cbn [nth]. apply IH; auto.
      * intros b Hb. apply N. cbn [removelast] in *. right. exact Hb.
      * cbn [length] in *. lia.
      * intros Z. apply HS. cbn [length] in *. lia.
Qed.
Lemma array_parts_arr : forall ks ls, length ks = length ls -> array_parts (map (fun kq => LArr (fst kq) (snd kq)) (combine ks ls)) = Some (combine ks ls).
Proof. induction ks as [|k ks IH]; intros [|q ls] L; try discriminate; [reflexivity|]. cbn. rewrite IH by (cbn in L; lia). reflexivity. Qed.
