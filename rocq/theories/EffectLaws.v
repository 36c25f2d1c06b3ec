(** What the effect models and the objective say. *)
From Verif Require Import Base BaseFacts MathModel Spec MathFacts Structure StructureFacts Params Features Elements System SysSpec
  CtxFacts ReadTools InvestFacts OnOffFacts FlowFacts NavFacts CompFacts SegFacts BusFacts ShareFacts EffectFacts PropsStructure.

(** ** Shares between effects *)
Lemma op_ts_var_spec : forall cx tr e v, op_ts_var cx tr e = Ok v ->
  v_len v = cx_n cx /\ v_label v = vlabel (cat [e_label e; "__"; "operation"]) "operation_sum_TS".
Proof.
  intros cx tr e v H. unfold op_ts_var in H. bnd H a Ea. bnd H b Eb. unfold alloc_ts in H. bnd H lb El. bnd H ub Eu.
  apply create_variable_spec in H. rewrite H. split; reflexivity.
Qed.
Lemma inv_sum_var_spec : forall e v, inv_sum_var e = Ok v ->
  v_len v = 1%nat /\ v_label v = vlabel (cat [e_label e; "__"; "invest"]) "invest_sum".
Proof. intros e v H. unfold inv_sum_var, alloc_sum in H. apply create_variable_spec in H. rewrite H. split; reflexivity. Qed.
Lemma op_sum_var_spec : forall e v, op_sum_var e = Ok v ->
  v_len v = 1%nat /\ v_label v = vlabel (cat [e_label e; "__"; "operation"]) "operation_sum".
Proof. intros e v H. unfold op_sum_var, alloc_sum in H. apply create_variable_spec in H. rewrite H. split; reflexivity. Qed.

Definition from_op (cx : ctx) (x : asg) (e e' : effect) (t : nat) : Q :=
  Qsum (map (fun kp : nat * param => if Nat.eqb (fst kp) (e_id e) then value (cx_idx cx) (snd kp) t * op_at x e' t else 0) (e_share_op e')).
Definition from_inv (x : asg) (e e' : effect) : Q :=
  Qsum (map (fun kd : nat * numeric => if Nat.eqb (fst kd) (e_id e) then at_ (snd kd) 0 * inv_sum x e' else 0) (e_share_inv e')).

Lemma between_op_spec : forall cx tre e' shs, ctx_ok cx -> between_op cx tre e' = Ok shs ->
  Forall (op_share (cx_n cx)) shs
  /\ forall x e t, (t < cx_n cx)%nat -> fit_op (cx_n cx) (e_id e) shs -> sum_op x t (e_id e) shs == from_op cx x e e' t.
Proof.
  intros cx tre e' shs CX H. unfold between_op in H. unfold from_op.
  revert shs H. induction (e_share_op e') as [|[k p] l IH]; intros shs H; cbn [mapM] in H.
  - fin H. split; [constructor|]. intros; reflexivity.
  - bnd H sh Es. bnd H r Er. fin H. bnd Es u Eu. bnd Es v Ev. bnd Es a Ea. fin Es. destruct (IH _ Er) as [A B].
    destruct (op_ts_var_spec _ _ _ _ Ev) as [Lv Nv]. cbn [fst snd] in *. destruct (act_spec _ _ _ _ CX Ea) as [_ [Ga Va]].
    split. { constructor; auto. split; [simpl; eauto|]. simpl. eauto 6. }
    intros x e t Ht F. unfold sum_op in *. cbn [map fst snd]. rewrite !Qsum_cons. rewrite (B x e t Ht).
    2:{ intros sh Hs. apply F. simpl; auto. }
    unfold opw at 1, is_op, worth. cbn [sh_target sh_var sh_as_sum sh_factor]. destruct (Nat.eqb k (e_id e)) eqn:X; [|reflexivity].
    assert (FF : fits (cx_n cx) a) by (apply (F (mkShare (TOp k) (cat [e_label e'; "_operation"]) (Some v) a false)); [simpl; auto|exact X]).
    rewrite (Va t Ht (FF t Ht)), Nv. reflexivity.
Qed.
Definition inv_links (e : effect) : Prop := forall i d, In (i, d) (e_share_inv e) -> exists q, d = NS q.
Lemma between_inv_spec : forall cx e' shs, between_inv cx e' = Ok shs ->
  Forall inv_share shs
  /\ (forall x e, sum_inv x (e_id e) shs == from_inv x e e')
  /\ (inv_links e' -> scalar_shares shs).
Proof.
  intros cx e' shs H. unfold between_inv in H. unfold from_inv, inv_links.
  revert shs H. induction (e_share_inv e') as [|[k d] l IH]; intros shs H; cbn [mapM] in H.
  - fin H. split; [constructor|]. split; [intros; reflexivity|]. intros _ sh [].
  - bnd H sh Es. bnd H r Er. fin H. bnd Es u Eu. bnd Es v Ev. fin Es. destruct (IH _ Er) as [A [B C]].
    destruct (inv_sum_var_spec _ _ Ev) as [Lv Nv]. cbn [fst snd] in *.
    split. { constructor; auto. split; [simpl; eauto|]. simpl. auto. }
    split.
    + intros x e. unfold sum_inv in *. cbn [map fst snd]. rewrite !Qsum_cons. rewrite (B x e).
      unfold invw at 1, is_inv, worth. cbn [sh_target sh_var sh_as_sum sh_factor]. destruct (Nat.eqb k (e_id e)) eqn:X; [|reflexivity].
      rewrite Nv. reflexivity.
    + intros N sh [<-|Hs].
      * simpl. destruct (N k d) as [q ->]; simpl; eauto.
      * apply C; auto. intros i d' Hi. apply (N i). simpl; auto.
Qed.

Lemma concat_op : forall cx tre es bo, ctx_ok cx -> mapM (between_op cx tre) es = Ok bo ->
  Forall (op_share (cx_n cx)) (List.concat bo)
  /\ forall x e t, (t < cx_n cx)%nat -> fit_op (cx_n cx) (e_id e) (List.concat bo) ->
     sum_op x t (e_id e) (List.concat bo) == Qsum (map (fun e' => from_op cx x e e' t) es).
Proof.
  intros cx tre es bo CX H. apply mapM_Forall2 in H. induction H as [|e' s es bo Hs _ [A B]]; simpl List.concat.
  - split; [constructor|]. intros; reflexivity.
  - destruct (between_op_spec _ _ _ _ CX Hs) as [A1 B1]. split; [apply Forall_app; auto|].
    intros x e t Ht F. apply fit_op_app in F. destruct F as [F1 F2]. rewrite sum_op_app, (B1 x e t Ht F1), (B x e t Ht F2).
    cbn [map]. rewrite Qsum_cons. reflexivity.
Qed.
Lemma concat_inv : forall cx es bi, mapM (between_inv cx) es = Ok bi ->
  Forall inv_share (List.concat bi)
  /\ (forall x e, sum_inv x (e_id e) (List.concat bi) == Qsum (map (fun e' => from_inv x e e') es))
  /\ ((forall e, In e es -> inv_links e) -> scalar_shares (List.concat bi)).
Proof.
  intros cx es bi H. apply mapM_Forall2 in H. induction H as [|e' s es bi Hs _ [A [B C]]]; simpl List.concat.
  - split; [constructor|]. split; [intros; reflexivity|]. intros _ sh [].
  - destruct (between_inv_spec _ _ _ Hs) as [A1 [B1 C1]]. split; [apply Forall_app; auto|]. split.
    + intros x e. rewrite sum_inv_app, (B1 x e), (B x e). cbn [map]. rewrite Qsum_cons. reflexivity.
    + intros N. apply scalar_app; [apply C1, N; simpl; auto|apply C; intros; apply N; simpl; auto].
Qed.

(** ** One effect *)
Lemma optM_act : forall cx tr o r, optM (act cx tr) o = Ok r ->
  match o with Some p => exists a, r = Some a /\ act cx tr p = Ok a | None => r = None end.
Proof. intros cx tr [p|] r H; simpl in H; [bnd H a Ea; fin H; eauto|fin H; auto]. Qed.

Theorem effect_model_spec : forall x cx tre shs e m, ctx_ok cx -> Forall (any_share (cx_n cx)) shs ->
  effect_model cx tre shs e = Ok m -> em_sat x m ->
  (forall t, (t < cx_n cx)%nat -> op_at x e t == sum_op x t (e_id e) shs)
  /\ fit_op (cx_n cx) (e_id e) shs
  /\ op_sum x e == sumn (cx_n cx) (fun t => op_at x e t)
  /\ ((forall sh, In sh shs -> is_inv (e_id e) sh = true -> exists q, sh_factor sh = NS q) -> inv_sum x e == sum_inv x (e_id e) shs)
  /\ all_sum x e == op_sum x e + inv_sum x e
  /\ (forall q, e_min_op e = Some q -> q <= op_sum x e) /\ (forall q, e_max_op e = Some q -> op_sum x e <= q)
  /\ (forall q, e_min_inv e = Some q -> q <= inv_sum x e) /\ (forall q, e_max_inv e = Some q -> inv_sum x e <= q)
  /\ (forall q, e_min_tot e = Some q -> q <= all_sum x e) /\ (forall q, e_max_tot e = Some q -> all_sum x e <= q)
  /\ (forall p t, e_min_ph e = Some p -> (t < cx_n cx)%nat -> value (cx_idx cx) p t * dt cx t <= op_at x e t)
  /\ (forall p t, e_max_ph e = Some p -> (t < cx_n cx)%nat -> op_at x e t <= value (cx_idx cx) p t * dt cx t).
Proof.
  intros x cx tre shs e m CX SS H S. unfold effect_model in H. bnd H a Ea. bnd H b Eb. bnd H io Ei. bnd H op Eo. bnd H al Eal.
  apply mk_em_spec in H. destruct H as [-> _]. rewrite Forall_forall in SS.
  assert (SI : em_sat x (sa_tree io)) by (eapply em_sat_sub; [exact S|simpl; auto]).
  assert (SO : em_sat x (sa_tree op)) by (eapply em_sat_sub; [exact S|simpl; auto]).
  assert (SA : em_sat x (sa_tree al)) by (eapply em_sat_sub; [exact S|simpl; auto]). clear S.
  assert (HO : forall sh, In sh (filter (is_op (e_id e)) shs) -> sh_as_sum sh = false /\ share_len (cx_n cx) sh).
  { intros sh Hs. apply filter_In in Hs. destruct Hs as [Hs X]. unfold is_op in X.
    destruct (SS _ Hs) as [[_ [A [G [v [V L]]]]]|[[[j T] _]|[T _]]]; [|rewrite T in X; discriminate|rewrite T in X; discriminate].
    split; auto. unfold share_len. rewrite V, A. auto. }
  destruct (alloc_ts_spec x cx _ "operation" _ _ _ _ _ _ CX HO ltac:(discriminate) Eo SO) as [O1 [O2 [O3 [O4 [O5 [O6 [O7 [_ O8]]]]]]]].
  split. { intros t Ht. unfold sum_op, opw. rewrite <- Qsum_if. apply O1; auto. }
  split. { intros sh Hs X. apply O2; [apply filter_In; auto|]. unfold is_op in X.
    destruct (SS _ Hs) as [[_ [A [G [v [V L]]]]]|[[[j T] _]|[T _]]]; [rewrite V; discriminate|rewrite T in X; discriminate|rewrite T in X; discriminate]. }
  split. { exact O3. }
  (* the invest total: its share equations hold in any case; their meaning needs single numbers *)
  assert (IB : (forall q, e_min_inv e = Some q -> q <= inv_sum x e) /\ (forall q, e_max_inv e = Some q -> inv_sum x e <= q)
               /\ inv_sum_var e = Ok (sa_sum io)).
  { clear -Ei SI. unfold share_alloc in Ei. bnd Ei u Eu. bnd Ei s Es. bnd Ei st Est. fin Est. bnd Ei singles Esi. bnd Ei u2 Eu2. bnd Ei csum Ecs. bnd Ei cts Ects. bnd Ei m Em. fin Ei.
    cbn [sa_tree sa_sum] in *. split; [|split]; [| |exact Es].
    - apply mk_em_spec in Em. destruct Em as [-> _]. pose proof (Forall_inv (em_sat_vars _ _ _ _ _ _ SI)) as V1.
      unfold alloc_sum in Es. apply create_variable_spec in Es. intros q Hq. unfold inv_sum.
      assert (Ls : v_len s = 1%nat /\ v_label s = vlabel (cat [e_label e; "__"; "invest"]) "invest_sum" /\ v_fixed s = None /\ v_lb s = Some (NS q)) by (rewrite Es, Hq; auto).
      destruct Ls as [L1 [<- [L3 L4]]]. apply (var_sat_lb x s (NS q) V1 L3 L4 0%nat). lia.
    - apply mk_em_spec in Em. destruct Em as [-> _]. pose proof (Forall_inv (em_sat_vars _ _ _ _ _ _ SI)) as V1.
      unfold alloc_sum in Es. apply create_variable_spec in Es. intros q Hq. unfold inv_sum.
      assert (Ls : v_len s = 1%nat /\ v_label s = vlabel (cat [e_label e; "__"; "invest"]) "invest_sum" /\ v_fixed s = None /\ v_ub s = Some (NS q)) by (rewrite Es, Hq; auto).
      destruct Ls as [L1 [<- [L3 L4]]]. apply (var_sat_ub x s (NS q) V1 L3 L4 0%nat). lia. }
  destruct IB as [IB1 [IB2 IB3]].
  split.
  { intros N. assert (HI : forall sh, In sh (filter (is_inv (e_id e)) shs) -> share_len 1 sh).
    { intros sh Hs. apply filter_In in Hs. destruct Hs as [Hs X]. destruct (N _ Hs X) as [q Eq]. unfold is_inv in X.
      destruct (SS _ Hs) as [[[j T] _]|[[_ [A V]]|[T _]]]; [rewrite T in X; discriminate| |rewrite T in X; discriminate].
      unfold share_len. rewrite A, Eq. destruct (sh_var sh); auto. split; auto with num. }
    destruct (alloc_one_spec x cx _ "invest" _ _ _ _ HI ltac:(discriminate) Ei SI) as [I1 _].
    unfold sum_inv, invw. rewrite <- Qsum_if. exact I1. }
  assert (HA : forall sh, In sh [mkShare TPen "operation" (Some (sa_sum op)) (NS 1) false; mkShare TPen "invest" (Some (sa_sum io)) (NS 1) false] -> share_len 1 sh).
  { change (op_sum_var e = Ok (sa_sum op)) in O8. destruct (op_sum_var_spec _ _ O8) as [A1 _]. destruct (inv_sum_var_spec _ _ IB3) as [A2 _].
    intros sh [<-|[<-|[]]]; unfold share_len; cbn [sh_var sh_as_sum sh_factor]; auto with num. }
  destruct (alloc_one_spec x cx _ "all" _ _ _ _ HA ltac:(discriminate) Eal SA) as [L1 [L2 [L3 _]]].
  split.
  { change (op_sum_var e = Ok (sa_sum op)) in O8. destruct (op_sum_var_spec _ _ O8) as [_ A1]. destruct (inv_sum_var_spec _ _ IB3) as [_ A2].
    unfold all_sum, op_sum, inv_sum. rewrite <- A1, <- A2. simpl in L1. etransitivity; [exact L1|].
    unfold worth. cbn [sh_var sh_as_sum sh_factor map]. rewrite !at_NS. simpl. ring. }
  split; [exact O4|]. split; [exact O5|]. split; [exact IB1|]. split; [exact IB2|]. split; [exact L2|]. split; [exact L3|].
  split.
  - intros p t Hp Ht. apply optM_act in Ea. rewrite Hp in Ea. destruct Ea as [q [-> Eq]]. destruct (O6 q t eq_refl Ht) as [R I].
    destruct (act_spec _ _ _ _ CX Eq) as [_ [_ V]]. rewrite <- (V t Ht R). exact I.
  - intros p t Hp Ht. apply optM_act in Eb. rewrite Hp in Eb. destruct Eb as [q [-> Eq]]. destruct (O7 q t eq_refl Ht) as [R I].
    destruct (act_spec _ _ _ _ CX Eq) as [_ [_ V]]. rewrite <- (V t Ht R). exact I.
Qed.

(** ** All effects *)
Record effects_parts (cx : ctx) (tre : string -> bool) (shs : list share) (em : emodel) (obj : constraint)
       (bo bi : list (list share)) (ms : list emodel) (pen : sa_out) (oe : effect) (vo vi : variable) : Prop := {
  ep_bo : mapM (between_op cx tre) (cx_effects cx) = Ok bo;
  ep_bi : mapM (between_inv cx) (cx_effects cx) = Ok bi;
  ep_ms : mapM (effect_model cx tre (List.concat bo ++ List.concat bi ++ shs)) (cx_effects cx) = Ok ms;
  ep_pen : share_alloc cx "Effects" "penalty" false None None None None (filter is_pen (List.concat bo ++ List.concat bi ++ shs)) = Ok pen;
  ep_oe : objective_effect (cx_effects cx) = Some oe;
  ep_vo : op_sum_var oe = Ok vo;
  ep_vi : inv_sum_var oe = Ok vi;
  ep_obj : build_constraint KObj "OBJECTIVE" "OBJECTIVE"
           [AddS vo (NS 1) None false; AddS vi (NS 1) None false; AddS (sa_sum pen) (NS 1) None false] = Ok obj;
  ep_em : em = EM "Effects" "Effects" [] [] (ms ++ [sa_tree pen])
}.
Lemma effects_model_parts : forall cx tre shs em obj, effects_model cx tre shs = Ok (em, obj) ->
  exists bo bi ms pen oe vo vi, effects_parts cx tre shs em obj bo bi ms pen oe vo vi.
Proof.
  intros cx tre shs em obj H. unfold effects_model in H. bnd H bo Ebo. bnd H bi Ebi. bnd H ms Ems. bnd H pen Epen. bnd H oe Eoe. bnd H vo Evo. bnd H vi Evi.
  bnd H ob Eob. bnd H root Eroot. apply Ok_inj in H. inversion H; subst root ob. clear H. apply mk_em_spec in Eroot. destruct Eroot as [-> _].
  apply nth_error_some in Eoe. exists bo, bi, ms, pen, oe, vo, vi. constructor; auto.
Qed.

(** A bus's penalty factors have one value per step. *)
Lemma bus_fits : forall cx b ins outs bo sh, ctx_ok cx -> cx_n cx <> 1%nat -> bus_model cx b ins outs = Ok bo -> In sh (snd bo) -> fits (cx_n cx) (sh_factor sh).
Proof.
  intros cx b ins outs bo sh CX N1 H Hs. unfold bus_model in H. destruct (b_penalty b) as [p|].
  - bnd H a Ea. bnd H pen Ep. bnd H ei Ei. bnd H eo Eo. bnd H c Ec. bnd H m Em. fin H. cbn [snd] in Hs.
    destruct (bcast2_len _ _ _ _ Ep) as [[A|A] _]; simpl in A; rewrite (ok_n _ CX) in A; [|congruence].
    assert (F : fits (cx_n cx) pen) by (apply fits_len; auto). destruct Hs as [<-|[<-|[]]]; auto.
  - bnd H c Ec. bnd H m Em. fin H. destruct Hs.
Qed.

(** ** The whole system *)
Section Sys.
Variables (cf : config) (ord : list nat -> list nat) (fs : flow_system) (idx : option (list nat)) (pm : pmodel)
          (cx : ctx) (cos : list comp_out) (bos : list (emodel * list share)) (em : emodel) (obj : constraint).
Hypothesis P : sys_parts cf ord fs idx pm cx cos bos em obj.
Variables (bo bi : list (list share)) (ms : list emodel) (pen : sa_out) (oe : effect) (vo vi : variable).
Let shs := flat_map co_shares cos ++ flat_map snd bos.
Hypothesis E : effects_parts cx (visible_effect fs) shs em obj bo bi ms pen oe vo vi.
Let all := List.concat bo ++ List.concat bi ++ shs.
Let CX : ctx_ok cx := sy_ok _ _ _ _ _ _ _ _ _ _ P.

Lemma comps_shares : 
  Forall (some_share (cx_n cx)) (flat_map co_shares cos)
  /\ (forall x e t, (t < cx_n cx)%nat -> fit_op (cx_n cx) (e_id e) (flat_map co_shares cos) ->
      sum_op x t (e_id e) (flat_map co_shares cos) == Qsum (map (fun c => comp_op cx x (effective cf fs idx c) c e t) (fs_comps fs)))
  /\ ((forall name iv, In (name, iv) (flat_map (fun c => comp_invs (effective cf fs idx c) c) (fs_comps fs)) -> invest_numbers iv) ->
      inv_scalar (flat_map co_shares cos)
      /\ forall x e, distinct_ids (cx_effects cx) -> In e (cx_effects cx) -> sum_inv x (e_id e) (flat_map co_shares cos)
         == invs_costs (cx_effects cx) x (flat_map (fun c => comp_invs (effective cf fs idx c) c) (fs_comps fs)) e).
Proof.
  pose proof CX as CX0. pose proof (sy_comps _ _ _ _ _ _ _ _ _ _ P) as H. clear E all shs CX P. revert H. generalize (fs_comps fs) cos. clear cos.
  intros cl0 ol0 H. induction H as [|c o cl ol [oo_ [pm_ [so Q]]] _ [I1 [I2 I3]]].
  - simpl. split; [constructor|]. split; [intros; reflexivity|]. intros _. split; [intros i sh []|]. intros; reflexivity.
  - cbn [flat_map map]. destruct (comp_shares_spec _ _ _ _ _ _ _ _ CX0 Q) as [A [B C]].
    split; [apply Forall_app; auto|]. split.
    + intros x e t Ht F. apply fit_op_app in F. destruct F as [F1 F2]. rewrite sum_op_app, Qsum_cons, (B x e t Ht F1), (I2 x e t Ht F2). reflexivity.
    + intros N. destruct C as [S1 C1]; [intros name iv Hn; apply (N name); apply in_or_app; auto|].
      destruct I3 as [S2 C2]; [intros name iv Hn; apply (N name); apply in_or_app; auto|].
      split; [apply inv_scalar_app; auto|]. intros x e ND He. unfold invs_costs in *. rewrite sum_inv_app, (C1 x e ND He), (C2 x e ND He), map_app, Qsum_app. reflexivity.
Qed.

Lemma bus_pen_shares : Forall (pen_share (cx_n cx)) (flat_map snd bos)
  /\ forall x, (forall sh, In sh (flat_map snd bos) -> fits (cx_n cx) (sh_factor sh)) ->
     Qsum (map (worth x 0) (flat_map snd bos)) == Qsum (map (bus_penalty cx x) (buses ord fs)).
Proof.
  pose proof CX as CX0. pose proof (sy_buses _ _ _ _ _ _ _ _ _ _ P) as H. clear E all shs CX P. revert H. generalize (buses ord fs) bos. clear bos.
  intros bl0 ol0 H. induction H as [|b o bl ol [i [o' [_ [_ M]]]] _ [I1 I2]].
  - simpl. split; [constructor|]. intros; reflexivity.
  - cbn [flat_map map]. destruct (bus_shares_spec _ _ _ _ _ CX0 M) as [A B]. split; [apply Forall_app; auto|].
    intros x F. rewrite map_app, Qsum_app, Qsum_cons, (B x), (I2 x); [reflexivity| |]; intros sh Hs; apply F; apply in_or_app; auto.
Qed.

Lemma all_shares : Forall (any_share (cx_n cx)) all.
Proof.
  unfold all, shs. destruct (concat_op _ _ _ _ CX (ep_bo _ _ _ _ _ _ _ _ _ _ _ _ E)) as [A1 _].
  destruct (concat_inv _ _ _ (ep_bi _ _ _ _ _ _ _ _ _ _ _ _ E)) as [A2 _].
  apply Forall_app; split; [eapply Forall_impl; [|exact A1]; unfold any_share; auto|].
  apply Forall_app; split; [eapply Forall_impl; [|exact A2]; unfold any_share; auto|].
  apply Forall_app; split; [eapply Forall_impl; [|apply comps_shares]; unfold some_share, any_share; tauto|]. eapply Forall_impl; [|apply bus_pen_shares]. unfold any_share; auto.
Qed.

Lemma effect_tree : forall x e, feasible pm x -> In e (cx_effects cx) -> exists m, effect_model cx (visible_effect fs) all e = Ok m /\ em_sat x m.
Proof.
  intros x e F He. apply (sy_feasible _ _ _ _ _ _ _ _ _ _ P) in F. destruct F as [F _].
  rewrite (ep_em _ _ _ _ _ _ _ _ _ _ _ _ E) in F. pose proof (ep_ms _ _ _ _ _ _ _ _ _ _ _ _ E) as M. apply mapM_Forall2 in M.
  destruct (Forall2_In_l _ _ _ _ M He) as [m [Hm Em]]. exists m. split; auto. eapply em_sat_sub; [exact F|]. apply in_or_app; auto.
Qed.

(** Operation. *)
Theorem op_law : forall x e t, feasible pm x -> In e (cx_effects cx) -> (t < cx_n cx)%nat ->
  op_at x e t == Qsum (map (fun c => comp_op cx x (effective cf fs idx c) c e t) (fs_comps fs))
                 + Qsum (map (fun e' => from_op cx x e e' t) (cx_effects cx)).
Proof.
  intros x e t F He Ht. destruct (effect_tree x e F He) as [m [Em S]].
  destruct (effect_model_spec x _ _ _ _ _ CX all_shares Em S) as [A [FO _]]. rewrite (A t Ht).
  unfold all, shs in *. apply fit_op_app in FO. destruct FO as [F1 FO]. apply fit_op_app in FO. destruct FO as [F2 FO].
  apply fit_op_app in FO. destruct FO as [F3 F4].
  destruct (concat_op _ _ _ _ CX (ep_bo _ _ _ _ _ _ _ _ _ _ _ _ E)) as [_ B1].
  destruct (concat_inv _ _ _ (ep_bi _ _ _ _ _ _ _ _ _ _ _ _ E)) as [A2 _].
  rewrite !sum_op_app, (B1 x e t Ht F1), (proj1 (proj2 comps_shares) x e t Ht F3).
  rewrite (sum_op_other x t (e_id e) (List.concat bi)) by (eapply Forall_impl; [|exact A2]; auto).
  rewrite (sum_op_other x t (e_id e) (flat_map snd bos)) by (eapply Forall_impl; [|apply bus_pen_shares]; eauto). ring.
Qed.

(** Investment. *)
Theorem inv_law : forall x e, feasible pm x -> In e (cx_effects cx) -> distinct_ids (cx_effects cx) ->
  (forall name iv, In (name, iv) (flat_map (fun c => comp_invs (effective cf fs idx c) c) (fs_comps fs)) -> invest_numbers iv) ->
  (forall e', In e' (cx_effects cx) -> inv_links e') ->
  inv_sum x e == invs_costs (cx_effects cx) x (flat_map (fun c => comp_invs (effective cf fs idx c) c) (fs_comps fs)) e
                 + Qsum (map (fun e' => from_inv x e e') (cx_effects cx)).
Proof.
  intros x e F He ND N NL. destruct (effect_tree x e F He) as [m [Em S]].
  destruct (effect_model_spec x _ _ _ _ _ CX all_shares Em S) as [_ [_ [_ [A _]]]].
  destruct (proj2 (proj2 comps_shares) N) as [S1 C1].
  destruct (concat_op _ _ _ _ CX (ep_bo _ _ _ _ _ _ _ _ _ _ _ _ E)) as [A0 _]. destruct (op_no_inv _ _ A0) as [S0 Z0].
  destruct (concat_inv _ _ _ (ep_bi _ _ _ _ _ _ _ _ _ _ _ _ E)) as [A2 [B2 C2]].
  assert (PN : inv_scalar (flat_map snd bos) /\ forall x i, sum_inv x i (flat_map snd bos) == 0).
  { destruct bus_pen_shares as [BP _]. split.
    - intros i sh Hs X. rewrite Forall_forall in BP. destruct (BP _ Hs) as [T _]. unfold is_inv in X. rewrite T in X. discriminate.
    - intros x0 i. apply sum_inv_other. eapply Forall_impl; [|exact BP]. intros sh Hs. eauto. }
  destruct PN as [S3 Z3].
  rewrite A.
  - unfold all, shs. rewrite !sum_inv_app, Z0, Z3, (B2 x e), (C1 x e ND He). ring.
  - intros sh Hs X. assert (IS : inv_scalar all).
    { unfold all, shs. apply inv_scalar_app; auto. apply inv_scalar_app; [intros i s Hs' _; apply C2; auto|]. apply inv_scalar_app; auto. }
    exact (IS _ _ Hs X).
Qed.

(** Penalty. *)
Theorem penalty_law : forall x, feasible pm x -> penalty_sum x == Qsum (map (bus_penalty cx x) (buses ord fs)).
Proof.
  intros x F. apply (sy_feasible _ _ _ _ _ _ _ _ _ _ P) in F. destruct F as [F _]. rewrite (ep_em _ _ _ _ _ _ _ _ _ _ _ _ E) in F.
  assert (S : em_sat x (sa_tree pen)) by (eapply em_sat_sub; [exact F|apply in_or_app; simpl; auto]).
  pose proof (ep_pen _ _ _ _ _ _ _ _ _ _ _ _ E) as Ep.
  assert (FI : filter is_pen (List.concat bo ++ List.concat bi ++ shs) = flat_map snd bos).
  { unfold shs. rewrite !filter_app.
    destruct (concat_op _ _ _ _ CX (ep_bo _ _ _ _ _ _ _ _ _ _ _ _ E)) as [A0 _].
    destruct (concat_inv _ _ _ (ep_bi _ _ _ _ _ _ _ _ _ _ _ _ E)) as [A2 _].
    destruct comps_shares as [A3 _]. destruct bus_pen_shares as [A4 _]. rewrite Forall_forall in *.
    rewrite (filter_none _ (List.concat bo)) by (intros s Hs; destruct (A0 _ Hs) as [[j T] _]; unfold is_pen; rewrite T; auto).
    rewrite (filter_none _ (List.concat bi)) by (intros s Hs; destruct (A2 _ Hs) as [[j T] _]; unfold is_pen; rewrite T; auto).
    rewrite (filter_all _ (flat_map snd bos)) by (intros s Hs; destruct (A4 _ Hs) as [T _]; unfold is_pen; rewrite T; auto).
    rewrite (filter_none _ (flat_map co_shares cos)); auto.
    intros s Hs. unfold is_pen. destruct (A3 _ Hs) as [[[j T] _]|[[j T] _]]; rewrite T; auto. }
  rewrite FI in Ep. destruct bus_pen_shares as [BP BS].
  (* a penalty needs at least two steps *)
  assert (FT : forall sh, In sh (flat_map snd bos) -> fits (cx_n cx) (sh_factor sh)).
  { intros sh Hs. assert (N1 : cx_n cx <> 1%nat).
    { rewrite Forall_forall in BP. destruct (BP _ Hs) as [_ [AS [v [V L]]]]. clear -Ep Hs AS V L.
      unfold share_alloc in Ep. bnd Ep u Eu. bnd Ep s Es. bnd Ep st Est. bnd Ep singles Esi. clear Ep. apply mapM_Forall2 in Esi.
      destruct (Forall2_In_l _ _ _ _ Esi Hs) as [o [_ Ho]]. bnd Ho o1 Eo. unfold single_share in Eo. bnd Eo u1 Eu1.
      rewrite V, AS in Eu1. intros X. rewrite L, X in Eu1. discriminate. }
    apply in_flat_map in Hs. destruct Hs as [o [Ho Hs]].
    destruct (Forall2_In_r _ _ _ _ (sy_buses _ _ _ _ _ _ _ _ _ _ P) Ho) as [b [_ [i [o' [_ [_ M]]]]]].
    eapply bus_fits; eauto. }
  assert (HL : forall sh, In sh (flat_map snd bos) -> share_len 1 sh).
  { intros sh Hs. rewrite Forall_forall in BP. destruct (BP _ Hs) as [_ [AS [v [V L]]]]. unfold share_len. rewrite V, AS. reflexivity. }
  destruct (alloc_one_spec x cx _ "penalty" _ _ _ _ HL ltac:(discriminate) Ep S) as [A _]. rewrite <- (BS x FT). exact A.
Qed.

(** The objective. *)
Theorem objective_law : forall x, objective_value pm x == op_sum x oe + inv_sum x oe + penalty_sum x.
Proof.
  intros x. destruct (C27_exactly_the_declared _ _ _ (sy_translate _ _ _ _ _ _ _ _ _ _ P)) as [vs [cs [rss [_ [_ [_ [_ [_ [_ [_ T]]]]]]]]]].
  unfold translate_objective in T. bnd T u Eu. bnd T u2 Eu2. pose proof (build_built _ _ _ _ _ (ep_obj _ _ _ _ _ _ _ _ _ _ _ _ E)) as B.
  destruct (op_sum_var_spec _ _ (ep_vo _ _ _ _ _ _ _ _ _ _ _ _ E)) as [L1 N1]. destruct (inv_sum_var_spec _ _ (ep_vi _ _ _ _ _ _ _ _ _ _ _ _ E)) as [L2 N2].
  assert (L3 : v_len (sa_sum pen) = 1%nat /\ v_label (sa_sum pen) = vlabel "Effects__penalty" "penalty_sum").
  { pose proof (ep_pen _ _ _ _ _ _ _ _ _ _ _ _ E) as Ep. unfold share_alloc in Ep. bnd Ep w Ew. bnd Ep s Es. bnd Ep st Est. bnd Ep singles Esi.
    bnd Ep w2 Ew2. bnd Ep csum Ecs. bnd Ep cts Ects. bnd Ep m Em. fin Ep. cbn [sa_sum]. unfold alloc_sum in Es. apply create_variable_spec in Es.
    rewrite Es. split; reflexivity. }
  destruct L3 as [L3 N3]. unfold objective_value.
  rewrite (lhs_terms_spec x 0 _ _ 1%nat _ (b_sums _ _ _ _ _ B)); [| | | |exact T].
  - cbn [map call_lhs]. rewrite !Qsum_cons, !at_NS. change (Qsum []) with 0.
    rewrite !pick_all by lia. unfold op_sum, inv_sum, penalty_sum. rewrite N1, N2, N3. ring.
  - repeat constructor.
  - intros a [<-|[<-|[<-|[]]]]; left; simpl; rewrite ?L1, ?L2, ?L3; reflexivity.
  - lia.
Qed.
End Sys.
