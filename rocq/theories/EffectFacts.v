(** What elements contribute to the effects. *)
From Verif Require Import Base BaseFacts MathModel Spec MathFacts Structure StructureFacts Params Features Elements System SysSpec
  CtxFacts ReadTools InvestFacts OnOffFacts FlowFacts NavFacts CompFacts SegFacts BusFacts ShareFacts.

(** Contribution of a share to the operational and the invest total of effect [i]. *)
Definition opw (x : asg) (t i : nat) (sh : share) : Q := if is_op i sh then worth x t sh else 0.
Definition invw (x : asg) (i : nat) (sh : share) : Q := if is_inv i sh then worth x 0 sh else 0.
Definition sum_op (x : asg) (t i : nat) (l : list share) : Q := Qsum (map (opw x t i) l).
Definition sum_inv (x : asg) (i : nat) (l : list share) : Q := Qsum (map (invw x i) l).

Lemma sum_op_app : forall x t i l m, sum_op x t i (l ++ m) == sum_op x t i l + sum_op x t i m.
Proof. intros. unfold sum_op. rewrite map_app, Qsum_app. reflexivity. Qed.
Lemma sum_inv_app : forall x i l m, sum_inv x i (l ++ m) == sum_inv x i l + sum_inv x i m.
Proof. intros. unfold sum_inv. rewrite map_app, Qsum_app. reflexivity. Qed.
Lemma Qsum_flat : forall {A B} (g : B -> Q) (h : A -> list B) l, Qsum (map g (flat_map h l)) == Qsum (map (fun a => Qsum (map g (h a))) l).
Proof. intros A B g h. induction l as [|a l IH]; [reflexivity|]. cbn [flat_map map]. rewrite map_app, Qsum_app, Qsum_cons, IH. reflexivity. Qed.
Lemma Qsum_if : forall {A} (p : A -> bool) (g : A -> Q) l, Qsum (map g (filter p l)) == Qsum (map (fun a => if p a then g a else 0) l).
Proof.
  intros A p g. induction l as [|a l IH]; [reflexivity|]. cbn [filter map]. rewrite Qsum_cons. destruct (p a); cbn [map]; rewrite ?Qsum_cons, IH; lra.
Qed.
Lemma Qsum_if_split : forall {A} (p : A -> bool) (g : A -> Q) l,
  Qsum (map g (filter (fun a => negb (p a)) l ++ filter p l)) == Qsum (map g l).
Proof.
  intros A p g l. rewrite map_app, Qsum_app. induction l as [|a l IH]; [reflexivity|]. cbn [filter map]. rewrite Qsum_cons.
  destruct (p a); cbn [negb map]; rewrite ?Qsum_cons; lra.
Qed.

(** Shares of the three kinds. *)
Definition op_share (n : nat) (sh : share) : Prop :=
  (exists i, sh_target sh = TOp i) /\ sh_as_sum sh = false /\ good (sh_factor sh) /\ exists v, sh_var sh = Some v /\ v_len v = n.
Definition inv_share (sh : share) : Prop :=
  (exists i, sh_target sh = TInv i) /\ sh_as_sum sh = false /\ match sh_var sh with Some v => v_len v = 1%nat | None => True end.
Definition pen_share (n : nat) (sh : share) : Prop :=
  sh_target sh = TPen /\ sh_as_sum sh = true /\ exists v, sh_var sh = Some v /\ v_len v = n.
Definition some_share (n : nat) (sh : share) : Prop := op_share n sh \/ inv_share sh.
Definition any_share (n : nat) (sh : share) : Prop := op_share n sh \/ inv_share sh \/ pen_share n sh.

Lemma sum_op_other : forall x t i l, Forall (fun sh => inv_share sh \/ exists n, pen_share n sh) l -> sum_op x t i l == 0.
Proof.
  intros x t i l H. unfold sum_op. apply Qsum_zero. intros q Hq. apply in_map_iff in Hq. destruct Hq as [sh [<- Hs]].
  rewrite Forall_forall in H. unfold opw, is_op. destruct (H _ Hs) as [[[j ->] _]|[n [-> _]]]; reflexivity.
Qed.
Lemma sum_inv_other : forall x i l, Forall (fun sh => exists n, op_share n sh \/ pen_share n sh) l -> sum_inv x i l == 0.
Proof.
  intros x i l H. unfold sum_inv. apply Qsum_zero. intros q Hq. apply in_map_iff in Hq. destruct Hq as [sh [<- Hs]].
  rewrite Forall_forall in H. unfold invw, is_inv. destruct (H _ Hs) as [n [[[j ->] _]|[-> _]]]; reflexivity.
Qed.

Lemma resolve_names : forall cx k i e, resolve cx k = Ok i -> names (cx_effects cx) k e = Nat.eqb i (e_id e).
Proof.
  intros cx [k|] i e H; unfold resolve, standard_effect in H; simpl.
  - bnd H u Eu. fin H. reflexivity.
  - destruct (find e_std (cx_effects cx)); [|discriminate]. fin H. reflexivity.
Qed.

(** ** Operation *)
Definition fit_op (n i : nat) (shs : list share) : Prop := forall sh, In sh shs -> is_op i sh = true -> fits n (sh_factor sh).
Lemma fit_op_app : forall n i l m, fit_op n i (l ++ m) <-> fit_op n i l /\ fit_op n i m.
Proof.
  intros n i l m. unfold fit_op. split.
  - intros H. split; intros sh Hs; apply H; apply in_or_app; auto.
  - intros [A B] sh Hs. apply in_app_or in Hs. destruct Hs; auto.
Qed.

Lemma emit_op_spec : forall cx tr elem name v factor var shs, ctx_ok cx -> v_len var = cx_n cx -> good factor ->
  emit_op cx tr elem name v factor var = Ok shs ->
  Forall (op_share (cx_n cx)) shs
  /\ forall x e t, (t < cx_n cx)%nat -> fit_op (cx_n cx) (e_id e) shs ->
     sum_op x t (e_id e) shs == cost (cx_effects cx) (cx_idx cx) v e t * at_ factor t * x (v_label var) t.
Proof.
  intros cx tr elem name v factor var shs CX LV GF H. unfold emit_op in H. bnd H vs Ev. unfold op_values in Ev. unfold emit in H.
  assert (G : forall l vs shs,
     mapM (fun kv : option nat * param => d <- act cx tr (snd kv) ;; Ok (fst kv, d)) l = Ok vs ->
     mapM (fun kv : option nat * numeric => e <- resolve cx (fst kv) ;; f <- nmul (snd kv) factor ;;
             Ok (mkShare (TOp e) (cat [elem; "__"; name]) (Some var) f false)) vs = Ok shs ->
     Forall (op_share (cx_n cx)) shs
     /\ forall x e t, (t < cx_n cx)%nat -> fit_op (cx_n cx) (e_id e) shs ->
        sum_op x t (e_id e) shs ==
        Qsum (map (fun kp => if names (cx_effects cx) (fst kp) e then value (cx_idx cx) (snd kp) t else 0) l) * at_ factor t * x (v_label var) t).
  { clear v vs shs Ev H. induction l as [|[k p] l IH]; intros vs shs A B; simpl in A.
    - fin A. simpl in B. fin B. split; [constructor|]. intros. unfold sum_op. simpl. ring.
    - bnd A kv Ek. bnd A rest Er. fin A. bnd Ek d Ed. fin Ek. simpl in B. bnd B sh Es. bnd B shr Esr. fin B.
      bnd Es i Ei. bnd Es f Ef. fin Es. destruct (IH _ _ Er Esr) as [I1 I2].
      destruct (act_spec _ _ _ _ CX Ed) as [_ [Gd Vd]].
      split.
      + constructor; auto. split; [simpl; eauto|]. split; auto. split; [simpl; eapply good_bcast2; eauto|]. simpl. eauto.
      + intros x e t Ht F. unfold sum_op in *. cbn [map fst snd]. rewrite !Qsum_cons. rewrite I2; auto.
        2:{ intros sh Hs. apply F. simpl; auto. }
        rewrite (resolve_names _ _ _ e Ei). unfold opw at 1, is_op, worth. cbn [sh_target sh_var sh_as_sum sh_factor].
        destruct (Nat.eqb i (e_id e)) eqn:X; [|ring].
        assert (FF : fits (cx_n cx) f) by (apply (F (mkShare (TOp i) (cat [elem; "__"; name]) (Some var) f false)); [simpl; auto|exact X]).
        destruct (fits_bcast2_inv _ _ _ _ _ Ef FF) as [Fd _].
        unfold nmul in Ef. rewrite (bcast2_at _ _ _ _ _ Ef (FF t Ht)). rewrite (Vd t Ht (Fd t Ht)). ring. }
  destruct (G _ _ _ Ev H) as [G1 G2]. split; auto. intros x e t Ht F. rewrite (G2 x e t Ht F).
  unfold cost. unfold effect_dict_ts. rewrite Qsum_if_split. reflexivity.
Qed.

(** ** Investment *)
Definition scalar_shares (l : list share) : Prop := forall sh, In sh l -> exists q, sh_factor sh = NS q.
Lemma scalar_app : forall l m, scalar_shares l -> scalar_shares m -> scalar_shares (l ++ m).
Proof. unfold scalar_shares. intros l m A B sh Hs. apply in_app_or in Hs. destruct Hs; auto. Qed.

Definition opt_x (x : asg) (o : option variable) : Q := match o with Some v => x (v_label v) 0%nat | None => 1 end.
Lemma emit_inv_spec : forall cx tr elem name v factor var shs,
  (forall w, var = Some w -> v_len w = 1%nat) -> emit_inv cx tr elem name v factor var = Ok shs ->
  Forall inv_share shs
  /\ (numbers v -> scalar_shares shs
      /\ forall x e, sum_inv x (e_id e) shs == cost (cx_effects cx) None v e 0 * factor * opt_x x var).
Proof.
  intros cx tr elem name v factor var shs LV H. unfold emit_inv in H. bnd H vs Ev. unfold inv_values in Ev. bnd Ev u Eu. unfold emit in H.
  change (as_effect_dict v) with (entries v) in Ev. unfold numbers, cost. clear Eu.
  revert vs shs Ev H. induction (entries v) as [|[k p] l IH]; intros vs shs Ev H; simpl in Ev.
  - fin Ev. simpl in H. fin H. split; [constructor|]. intros _. split; [intros sh []|]. intros. unfold sum_inv. simpl. ring.
  - bnd Ev kv Ek. bnd Ev rest Er. fin Ev. destruct p as [d|]; [|discriminate]. fin Ek. simpl in H. bnd H sh Es. bnd H shr Esr. fin H.
    bnd Es i Ei. bnd Es f Ef. fin Es. destruct (IH _ _ Er Esr) as [I1 I2]. split.
    + constructor; auto. split; [simpl; eauto|]. split; auto. simpl. destruct var; auto.
    + intros NN. destruct I2 as [I2 I3]; [intros k' p' Hin; apply (NN k'); simpl; auto|].
      destruct (NN k (PNum d)) as [q Eq]; [simpl; auto|]. simpl in Eq. subst d. simpl in Ef. unfold nmul in Ef. simpl in Ef. fin Ef.
      split; [intros sh [<-|Hs]; simpl; eauto|].
      intros x e. unfold sum_inv in *. cbn [map fst snd]. rewrite !Qsum_cons. rewrite I3.
      rewrite (resolve_names _ _ _ e Ei). unfold invw at 1, is_inv, worth. cbn [sh_target sh_var sh_as_sum sh_factor].
      unfold value. simpl pdata. cbv iota. destruct (Nat.eqb i (e_id e)); [|ring].
      unfold opt_x. destruct var; rewrite at_NS; ring.
Qed.

(** ** On/off rules *)
Lemma onoff_shares_spec : forall cx tr elem p vars bounds o, ctx_ok cx -> onoff_model cx tr elem p vars bounds = Ok o ->
  Forall (op_share (cx_n cx)) (ot_shares o)
  /\ forall x e t, (t < cx_n cx)%nat -> fit_op (cx_n cx) (e_id e) (ot_shares o) ->
     sum_op x t (e_id e) (ot_shares o)
     == cost (cx_effects cx) (cx_idx cx) (oo_switch_eff p) e t * x (oo elem "switchOn") t
        + cost (cx_effects cx) (cx_idx cx) (oo_run_eff p) e t * x (oo elem "on") t * dt cx t.
Proof.
  intros cx tr elem p vars bounds o CX H. unfold onoff_model in H.
  bnd H bounds' Eb. bnd H u1 Elen. bnd H prev_on Ep0. bnd H on Eon. bnd H tot Etot. bnd H ctot Ectot. bnd H con Econ.
  bnd H vo Evo. destruct vo as [voff coff]. bnd H vd1 Ed1. destruct vd1 as [v1 k1]. bnd H vd2 Ed2. destruct vd2 as [v2 k2].
  bnd H vs3 Es3. assert (US : use_switch_on p = true) by (unfold use_switch_on; rewrite ?orb_true_r; reflexivity). rewrite US in Es3. bnd Es3 son Eson. bnd Es3 soff Esoff. bnd Es3 nr Enr. bnd Es3 u2 Eg. bnd Es3 ks Eks.
  fin Es3. bnd H s1 Es1. bnd H s2 Es2. bnd H m Em. fin H. cbn [ot_shares].
  apply create_variable_spec in Eon. apply create_variable_spec in Eson.
  assert (L1 : v_len son = cx_n cx /\ v_label son = oo elem "switchOn") by (rewrite Eson; split; reflexivity).
  assert (L2 : v_len on = cx_n cx /\ v_label on = oo elem "on") by (rewrite Eon; split; reflexivity).
  destruct L1 as [L1 N1]. destruct L2 as [L2 N2].
  destruct (emit_op_spec _ _ _ _ _ _ _ _ CX L1 (good_NS 1) Es1) as [A1 B1].
  destruct (emit_op_spec _ _ _ _ _ _ _ _ CX L2 (good_dt _ CX) Es2) as [A2 B2].
  split; [apply Forall_app; auto|]. intros x e t Ht F. apply fit_op_app in F. destruct F as [F1 F2].
  rewrite sum_op_app, (B1 x e t Ht F1), (B2 x e t Ht F2), at_NS, at_dt, N1, N2 by auto. ring.
Qed.

(** ** Investments *)
Definition distinct_ids (es : list effect) : Prop := NoDup (map e_id es).
Lemma effect_label_spec : forall cx i l e, distinct_ids (cx_effects cx) -> In e (cx_effects cx) -> effect_label cx i = Ok l ->
  Nat.eqb i (e_id e) = true -> l = e_label e.
Proof.
  intros cx i l e ND He H X. apply Nat.eqb_eq in X. subst i. unfold effect_label, distinct_ids in *.
  induction (cx_effects cx) as [|a es IH]; [destruct He|]. simpl in *. inversion ND as [|? ? N1 N2]; subst.
  destruct He as [->|He].
  - rewrite Nat.eqb_refl in H. simpl in H. fin H. reflexivity.
  - destruct (Nat.eqb (e_id a) (e_id e)) eqn:Y; [|auto]. apply Nat.eqb_eq in Y. exfalso. apply N1. rewrite Y. apply in_map; auto.
Qed.

Lemma segmented_shares_spec : forall cx elem size spts eff outside m shs,
  segmented_shares cx elem size spts eff outside = Ok (m, shs) ->
  Forall inv_share shs /\ scalar_shares shs
  /\ forall x e, distinct_ids (cx_effects cx) -> In e (cx_effects cx) -> sum_inv x (e_id e) shs
     == Qsum (map (fun il : nat * list (Q * Q) => if Nat.eqb (fst il) (e_id e) then seg_cost x elem e else 0) eff).
Proof.
  intros cx elem size spts eff outside m shs H. unfold segmented_shares in H. bnd H u Eu. clear Eu. bnd H vs Evs. bnd H ms Ems. clear Ems.
  bnd H sl Esl. bnd H m0 Em. clear Em. apply Ok_inj in H. inversion H; subst m0 shs. clear H.
  revert vs sl Evs Esl. induction eff as [|[i l] eff IH]; intros vs sl Evs Esl; cbn [mapM fst snd] in Evs.
  - fin Evs. cbn [mapM] in Esl. fin Esl. simpl. split; [constructor|]. split; [intros sh []|]. intros; reflexivity.
  - bnd Evs a Ea. bnd Evs r Er. fin Evs. bnd Ea lab Elab. bnd Ea v Ev. fin Ea. cbn [mapM fst snd] in Esl. bnd Esl s Es. bnd Esl sr Esr. fin Esl.
    destruct (IH _ _ Er Esr) as [I1 [I2 I3]]. unfold emit in Es. cbn [mapM fst snd] in Es. bnd Es sh Esh. cbn [bind] in Es. fin Es. bnd Esh i' Ei. bnd Esh f Ef. unfold nmul in Ef. simpl in Ef. fin Ef. fin Esh. unfold resolve in Ei. bnd Ei u9 Eu9. apply Ok_inj in Ei. subst i'.
    apply create_variable_spec in Ev. subst v.
    simpl List.concat. split; [constructor; auto; split; [simpl; eauto|split; auto; reflexivity]|].
    split. { intros sh [<-|Hs]; [simpl; eauto|auto]. }
    intros x e ND He. unfold sum_inv in *. cbn [map fst snd]. rewrite !Qsum_cons, (I3 x e ND He).
    unfold invw at 1, is_inv, worth. cbn [sh_target sh_var sh_as_sum sh_factor v_label].
    destruct (Nat.eqb i (e_id e)) eqn:X; [|ring]. rewrite (effect_label_spec _ _ _ _ ND He Elab X). rewrite at_NS.
    change (1 * 1) with 1. unfold seg_cost. change (model_full elem (Some "SegmentedShares")) with (cat [elem; "__"; "SegmentedShares"]). set (z := x _ _). set (w := Qsum _). ring.
Qed.

Lemma invest_shares_spec : forall cx tr elem iv size b shs subs,
  v_label size = inv elem "size" -> v_len size = 1%nat ->
  (if iv_optional iv then exists v, b = Some v /\ v_label v = inv elem "isInvested" /\ v_len v = 1%nat else b = None) ->
  invest_shares cx tr elem iv size b = Ok (shs, subs) ->
  Forall inv_share shs
  /\ (invest_numbers iv -> scalar_shares shs
      /\ forall x e, distinct_ids (cx_effects cx) -> In e (cx_effects cx) -> sum_inv x (e_id e) shs
         == cost (cx_effects cx) None (iv_fix iv) e 0 * made x elem iv
            + cost (cx_effects cx) None (iv_spec iv) e 0 * x (inv elem "size") 0%nat
            + cost (cx_effects cx) None (iv_divest iv) e 0 * (1 - made x elem iv)
            + seg_costs x elem iv e).
Proof.
  intros cx tr elem iv size b shs subs LS NS_ OPT H. unfold invest_shares in H.
  bnd H s1 E1. bnd H s2 E2. bnd H s3 E3.
  assert (Lb : forall w, b = Some w -> v_len w = 1%nat).
  { intros w Hw. destruct (iv_optional iv); [destruct OPT as [v [X [_ Y]]]; congruence|congruence]. }
  assert (Mb : forall x, opt_x x b == made x elem iv).
  { intros x. unfold opt_x, made. destruct (iv_optional iv); [destruct OPT as [v [-> [-> _]]]; reflexivity|rewrite OPT; reflexivity]. }
  destruct (emit_inv_spec _ _ _ _ _ _ _ _ Lb E1) as [A1 B1].
  assert (Ls : forall w, Some size = Some w -> v_len w = 1%nat) by (intros w X; inversion X; subst; auto).
  destruct (emit_inv_spec _ _ _ _ _ _ _ _ Ls E3) as [A3 B3].
  assert (P2 : Forall inv_share s2 /\ (numbers (iv_divest iv) -> scalar_shares s2
     /\ forall x e, sum_inv x (e_id e) s2 == cost (cx_effects cx) None (iv_divest iv) e 0 * (1 - made x elem iv))).
  { destruct (iv_optional iv) eqn:O.
    - bnd E2 a Ea. bnd E2 c Ec. fin E2.
      destruct (emit_inv_spec _ _ _ _ _ _ None _ ltac:(discriminate) Ea) as [Aa Ba].
      destruct (emit_inv_spec _ _ _ _ _ _ _ _ Lb Ec) as [Ac Bc].
      split; [apply Forall_app; auto|]. intros N. destruct (Ba N) as [Sa Ca]. destruct (Bc N) as [Sc Cc].
      split; [apply scalar_app; auto|]. intros x e. rewrite sum_inv_app, Ca, Cc, Mb. simpl opt_x. ring.
    - fin E2. split; [constructor|]. intros _. split; [intros sh []|]. intros x e. unfold made. rewrite O. unfold sum_inv. simpl. ring. }
  destruct P2 as [A2 B2].
  assert (P4 : exists s4, shs = s1 ++ s2 ++ s3 ++ s4 /\ Forall inv_share s4 /\ scalar_shares s4
     /\ forall x e, distinct_ids (cx_effects cx) -> In e (cx_effects cx) -> sum_inv x (e_id e) s4 == seg_costs x elem iv e).
  { unfold seg_costs. destruct (iv_seg iv) as [[spts eff]|].
    - bnd H ms4 E4. destruct ms4 as [m s4]. apply Ok_inj in H. inversion H; subst. exists s4. split; auto.
      destruct (segmented_shares_spec _ _ _ _ _ _ _ _ E4) as [A [B C]]. auto.
    - apply Ok_inj in H. inversion H; subst. exists []. rewrite app_nil_r. split; auto. split; [constructor|]. split; [intros sh []|].
      intros. reflexivity. }
  destruct P4 as [s4 [-> [A4 [S4 C4]]]].
  split; [repeat (apply Forall_app; split); auto|]. intros [N1 [N3 N2]].
  destruct (B1 N1) as [S1 C1]. destruct (B2 N2) as [S2 C2]. destruct (B3 N3) as [S3 C3].
  split; [repeat apply scalar_app; auto|]. intros x e ND He.
  rewrite !sum_inv_app, C1, C2, C3, (C4 x e ND He), Mb. simpl opt_x. rewrite LS. ring.
Qed.

Lemma invest_model_shares : forall cx tr elem iv dv relmin relmax profile on io,
  invest_model cx tr elem iv dv relmin relmax profile on = Ok io ->
  Forall inv_share (io_shares io)
  /\ (invest_numbers iv -> scalar_shares (io_shares io)
      /\ forall x e, distinct_ids (cx_effects cx) -> In e (cx_effects cx) -> sum_inv x (e_id e) (io_shares io)
         == cost (cx_effects cx) None (iv_fix iv) e 0 * made x elem iv
            + cost (cx_effects cx) None (iv_spec iv) e 0 * x (inv elem "size") 0%nat
            + cost (cx_effects cx) None (iv_divest iv) e 0 * (1 - made x elem iv)
            + seg_costs x elem iv e).
Proof.
  intros cx tr elem iv dv relmin relmax profile on io H. apply invest_model_parts in H.
  destruct H as [size [b [cs1 [cs2 [subs [H1 [H2 [_ [H4 _]]]]]]]]]. destruct (size_spec _ _ _ _ H1) as [Ls [Ns _]].
  eapply invest_shares_spec; [exact Ls|exact Ns| |exact H4].
  pose proof (optional_spec (fun _ _ => 0) _ _ _ _ _ _ Ls Ns H2) as O. destruct (iv_optional iv); [|apply O].
  destruct O as [v [A [B [C _]]]]. exists v. auto.
Qed.

(** ** Flows *)
Definition flow_op (cx : ctx) (x : asg) (comp : string) (f : flow) (e : effect) (t : nat) : Q :=
  let full := flow_full comp (f_lab f) in
  cost (cx_effects cx) (cx_idx cx) (f_effects f) e t * x (vlabel full "flow_rate") t * dt cx t
  + match f_onoff f with
    | Some p => cost (cx_effects cx) (cx_idx cx) (oo_switch_eff p) e t * x (oo full "switchOn") t
                + cost (cx_effects cx) (cx_idx cx) (oo_run_eff p) e t * x (oo full "on") t * dt cx t
    | None => 0
    end.
Definition inv_costs (es : list effect) (x : asg) (name : string) (iv : invest) (e : effect) : Q :=
  cost es None (iv_fix iv) e 0 * made x name iv
  + cost es None (iv_spec iv) e 0 * x (inv name "size") 0%nat
  + cost es None (iv_divest iv) e 0 * (1 - made x name iv)
  + seg_costs x name iv e.

Lemma flow_shares_spec : forall cx tr comp f o, ctx_ok cx -> flow_model cx tr comp f = Ok o ->
  Forall (some_share (cx_n cx)) (fo_shares o)
  /\ (forall x e t, (t < cx_n cx)%nat -> fit_op (cx_n cx) (e_id e) (fo_shares o) ->
      sum_op x t (e_id e) (fo_shares o) == flow_op cx x comp f e t)
  /\ match f_size f with
     | SzNum _ => forall i x, sum_inv x i (fo_shares o) == 0 /\ forall sh, In sh (fo_shares o) -> is_inv i sh = false
     | SzInv iv => invest_numbers iv ->
         (forall i sh, In sh (fo_shares o) -> is_inv i sh = true -> exists q, sh_factor sh = NS q)
         /\ forall x e, distinct_ids (cx_effects cx) -> In e (cx_effects cx) ->
            sum_inv x (e_id e) (fo_shares o) == inv_costs (cx_effects cx) x (flow_full comp (f_lab f)) iv e
     end.
Proof.
  intros cx tr comp f o CX H. unfold flow_model in H.
  bnd H rl Erl. bnd H ab Eab. bnd H rate Erate. bnd H oo_ Eoo. bnd H io Eio. bnd H sfh Esfh. bnd H csum Ecsum. bnd H clf Eclf. bnd H s Es. bnd H m Em.
  fin H. cbn [fo_shares]. apply create_variable_spec in Erate.
  assert (L : v_len rate = cx_n cx /\ v_label rate = vlabel (flow_full comp (f_lab f)) "flow_rate") by (rewrite Erate; split; reflexivity).
  destruct L as [Lr Nr]. clear Erate.
  destruct (emit_op_spec _ _ _ _ _ _ _ _ CX Lr (good_dt _ CX) Es) as [A3 B3].
  set (o1 := match oo_ with Some o => ot_shares o | None => [] end).
  assert (P1 : Forall (op_share (cx_n cx)) o1 /\ forall x e t, (t < cx_n cx)%nat -> fit_op (cx_n cx) (e_id e) o1 ->
     sum_op x t (e_id e) o1 == match f_onoff f with
    | Some p => cost (cx_effects cx) (cx_idx cx) (oo_switch_eff p) e t * x (oo (flow_full comp (f_lab f)) "switchOn") t
                + cost (cx_effects cx) (cx_idx cx) (oo_run_eff p) e t * x (oo (flow_full comp (f_lab f)) "on") t * dt cx t
    | None => 0
    end).
  { unfold o1. destruct (f_onoff f) as [p|]; simpl in Eoo.
    - bnd Eoo o2 Eo. fin Eoo. destruct (onoff_shares_spec _ _ _ _ _ _ _ CX Eo) as [A B]. auto.
    - fin Eoo. split; [constructor|]. intros; reflexivity. }
  destruct P1 as [A1 B1].
  set (i1 := match io with Some i => io_shares i | None => [] end).
  assert (OP : forall l, Forall (op_share (cx_n cx)) l -> (forall x i, sum_inv x i l == 0) /\ forall i sh, In sh l -> is_inv i sh = false).
  { intros l Fl. split.
    - intros x i. apply sum_inv_other. eapply Forall_impl; [|exact Fl]. intros sh Hs. eauto.
    - intros i sh Hs. rewrite Forall_forall in Fl. destruct (Fl _ Hs) as [[j T] _]. unfold is_inv. rewrite T. auto. }
  destruct (OP _ A1) as [Z1 Y1]. destruct (OP _ A3) as [Z3 Y3].
  assert (P2 : Forall inv_share i1 /\ match f_size f with
     | SzNum _ => i1 = []
     | SzInv iv => invest_numbers iv -> scalar_shares i1
         /\ forall x e, distinct_ids (cx_effects cx) -> In e (cx_effects cx) ->
            sum_inv x (e_id e) i1 == inv_costs (cx_effects cx) x (flow_full comp (f_lab f)) iv e
     end).
  { unfold i1. destruct (f_size f) as [q|iv].
    - fin Eio. split; [constructor|auto].
    - bnd Eio pr Epr. bnd Eio i2 Ei. fin Eio. exact (invest_model_shares _ _ _ _ _ _ _ _ _ _ Ei). }
  destruct P2 as [A2 B2].
  split.
  { unfold some_share. apply Forall_app. split; [|apply Forall_app; split].
    - eapply Forall_impl; [|exact A1]. auto.
    - eapply Forall_impl; [|exact A2]. auto.
    - eapply Forall_impl; [|exact A3]. auto. }
  split.
  { intros x e t Ht F. apply fit_op_app in F. destruct F as [F1 F]. apply fit_op_app in F. destruct F as [F2 F3].
    rewrite !sum_op_app, (B1 x e t Ht F1), (B3 x e t Ht F3).
    rewrite (sum_op_other x t (e_id e) i1) by (eapply Forall_impl; [|exact A2]; auto).
    unfold flow_op. rewrite at_dt, Nr by auto. ring. }
  destruct (f_size f) as [q|iv].
  - intros i x. rewrite B2. simpl. split.
    + rewrite sum_inv_app, Z1, Z3. ring.
    + intros sh Hs. apply in_app_or in Hs. destruct Hs; auto.
  - intros N. destruct (B2 N) as [S2 C2]. split.
    + intros i sh Hs X. apply in_app_or in Hs. destruct Hs as [Hs|Hs]; [rewrite (Y1 _ _ Hs) in X; discriminate|].
      apply in_app_or in Hs. destruct Hs as [Hs|Hs]; [auto|rewrite (Y3 _ _ Hs) in X; discriminate].
    + intros x e ND He. rewrite !sum_inv_app, Z1, Z3, (C2 x e ND He). ring.
Qed.

(** ** Components *)
Definition inv_scalar (l : list share) : Prop := forall i sh, In sh l -> is_inv i sh = true -> exists q, sh_factor sh = NS q.
Lemma inv_scalar_app : forall l m, inv_scalar l -> inv_scalar m -> inv_scalar (l ++ m).
Proof. unfold inv_scalar. intros l m A B i sh Hs. apply in_app_or in Hs. destruct Hs; eauto. Qed.
Lemma op_no_inv : forall n l, Forall (op_share n) l -> inv_scalar l /\ forall x i, sum_inv x i l == 0.
Proof.
  intros n l F. split.
  - intros i sh Hs X. rewrite Forall_forall in F. destruct (F _ Hs) as [[j T] _]. unfold is_inv in X. rewrite T in X. discriminate.
  - intros x i. apply sum_inv_other. eapply Forall_impl; [|exact F]. intros sh Hs. eauto.
Qed.
Lemma fit_op_in : forall n i l m, fit_op n i l -> (forall sh, In sh m -> In sh l) -> fit_op n i m.
Proof. unfold fit_op. auto. Qed.

Definition comp_op (cx : ctx) (x : asg) (eff : flow -> flow) (c : component) (e : effect) (t : nat) : Q :=
  Qsum (map (fun f => flow_op cx x (cp_label c) (eff f) e t) (cp_flows c))
  + match cp_onoff c with
    | Some p => cost (cx_effects cx) (cx_idx cx) (oo_switch_eff p) e t * x (oo (cp_label c) "switchOn") t
                + cost (cx_effects cx) (cx_idx cx) (oo_run_eff p) e t * x (oo (cp_label c) "on") t * dt cx t
    | None => 0
    end.
Definition comp_invs (eff : flow -> flow) (c : component) : list (string * invest) :=
  flat_map (fun f => match f_size (eff f) with SzInv iv => [(flow_full (cp_label c) (f_lab (eff f)), iv)] | SzNum _ => [] end) (cp_flows c)
  ++ storage_investment c.
Definition invs_costs (es : list effect) (x : asg) (l : list (string * invest)) (e : effect) : Q :=
  Qsum (map (fun ni => inv_costs es x (fst ni) (snd ni) e) l).

Lemma own_shares_spec : forall cx tr c fos on so, own_model cx tr c fos on = Ok so ->
  Forall inv_share (so_shares so)
  /\ ((forall name iv, In (name, iv) (storage_investment c) -> invest_numbers iv) ->
      scalar_shares (so_shares so)
      /\ forall x e, distinct_ids (cx_effects cx) -> In e (cx_effects cx) ->
         sum_inv x (e_id e) (so_shares so) == invs_costs (cx_effects cx) x (storage_investment c) e).
Proof.
  intros cx tr c fos on so H. unfold own_model in H. unfold storage_investment.
  assert (Nil : so_shares so = [] -> Forall inv_share (so_shares so) /\ scalar_shares (so_shares so) /\ forall x i, sum_inv x i (so_shares so) == 0).
  { intros ->. split; [constructor|]. split; [intros sh []|]. intros; reflexivity. }
  destruct (cp_kind c) as [|fs|segs|s|rel abs].
  - fin H. destruct Nil as [A [B C]]; [reflexivity|]. split; [exact A|]. intros _. split; [exact B|]. intros x e _ _. rewrite C. reflexivity.
  - bnd H k Ek. fin H. destruct Nil as [A [B C]]; [reflexivity|]. split; [exact A|]. intros _. split; [exact B|]. intros x e _ _. rewrite C. reflexivity.
  - bnd H k Ek. fin H. destruct Nil as [A [B C]]; [reflexivity|]. split; [exact A|]. intros _. split; [exact B|]. intros x e _ _. rewrite C. reflexivity.
  - bnd H ch Ech. bnd H dis Edis. unfold storage_model in H. bnd H rl Erl. bnd H ru Eru. destruct (cap_limits cx (st_cap s)) as [lo hi].
    bnd H lb Elb. bnd H ub Eub. bnd H cs Ecs. bnd H nd End. bnd H ceq Eceq. bnd H loss Eloss. bnd H ec Eec. bnd H ed Eed.
    bnd H f1 Ef1. bnd H f2 Ef2. bnd H iv0 Einv. bnd H f3 Ef3. bnd H bal Ebal. bnd H io Eio. bnd H ends Eends. fin H. cbn [so_shares] in *.
    destruct (st_cap s) as [q|iv].
    + fin Eio. destruct Nil as [A [B C]]; [reflexivity|]. split; [exact A|]. intros _. split; [exact B|]. intros x e _ _. rewrite C. reflexivity.
    + bnd Eio i Ei. fin Eio. destruct (invest_model_shares _ _ _ _ _ _ _ _ _ _ Ei) as [A B]. split; auto.
      intros N. destruct (B (N _ _ (or_introl eq_refl))) as [C D]. split; auto. intros x e ND He. rewrite (D x e ND He).
      unfold invs_costs. cbn [map fst snd]. rewrite Qsum_cons. unfold inv_costs. simpl Qsum. ring.
  - bnd H k Ek. fin H. destruct Nil as [A [B C]]; [reflexivity|]. split; [exact A|]. intros _. split; [exact B|]. intros x e _ _. rewrite C. reflexivity.
Qed.

Lemma flows_shares_spec : forall cx comp (eff : flow -> flow) fl fos, ctx_ok cx ->
  Forall2 (fun f fo => flow_model cx true comp (eff f) = Ok fo) fl fos ->
  Forall (some_share (cx_n cx)) (flat_map fo_shares fos)
  /\ (forall x e t, (t < cx_n cx)%nat -> fit_op (cx_n cx) (e_id e) (flat_map fo_shares fos) ->
      sum_op x t (e_id e) (flat_map fo_shares fos) == Qsum (map (fun f => flow_op cx x comp (eff f) e t) fl))
  /\ (let l := flat_map (fun f => match f_size (eff f) with SzInv iv => [(flow_full comp (f_lab (eff f)), iv)] | SzNum _ => [] end) fl in
      (forall name iv, In (name, iv) l -> invest_numbers iv) ->
      inv_scalar (flat_map fo_shares fos)
      /\ forall x e, distinct_ids (cx_effects cx) -> In e (cx_effects cx) ->
         sum_inv x (e_id e) (flat_map fo_shares fos) == invs_costs (cx_effects cx) x l e).
Proof.
  intros cx comp eff fl fos CX H. induction H as [|f fo fl fos Hf _ [I1 [I2 I3]]]; cbn zeta in *.
  - simpl. split; [constructor|]. split; [intros; reflexivity|]. intros _. split; [intros i sh []|]. intros; reflexivity.
  - cbn [flat_map map]. destruct (flow_shares_spec _ _ _ _ _ CX Hf) as [A [B C]].
    split; [apply Forall_app; auto|]. split.
    + intros x e t Ht F. apply fit_op_app in F. destruct F as [F1 F2]. rewrite sum_op_app, Qsum_cons, (B x e t Ht F1), (I2 x e t Ht F2). reflexivity.
    + intros N. destruct I3 as [S3 C3]; [intros name iv Hn; apply (N name); apply in_or_app; auto|].
      destruct (f_size (eff f)) as [q|iv].
      * split.
        -- apply inv_scalar_app; auto. intros i sh Hs X. destruct (C i (fun _ _ => 0)) as [_ Y]. rewrite (Y _ Hs) in X. discriminate.
        -- intros x e ND He. rewrite sum_inv_app, (proj1 (C _ _)), (C3 x e ND He). simpl app. ring.
      * destruct C as [S2 C2]; [apply (N (flow_full comp (f_lab (eff f)))); simpl; auto|]. split; [apply inv_scalar_app; auto|].
        intros x e ND He. rewrite sum_inv_app, (C2 x e ND He), (C3 x e ND He). unfold invs_costs. simpl app. cbn [map fst snd]. rewrite Qsum_cons. reflexivity.
Qed.

Lemma comp_shares_spec : forall cx tr c eff o oo_ pm so, ctx_ok cx -> comp_parts cx tr c eff o oo_ pm so ->
  Forall (some_share (cx_n cx)) (co_shares o)
  /\ (forall x e t, (t < cx_n cx)%nat -> fit_op (cx_n cx) (e_id e) (co_shares o) ->
      sum_op x t (e_id e) (co_shares o) == comp_op cx x eff c e t)
  /\ ((forall name iv, In (name, iv) (comp_invs eff c) -> invest_numbers iv) ->
      inv_scalar (co_shares o)
      /\ forall x e, distinct_ids (cx_effects cx) -> In e (cx_effects cx) ->
         sum_inv x (e_id e) (co_shares o) == invs_costs (cx_effects cx) x (comp_invs eff c) e).
Proof.
  intros cx tr c eff o oo_ pm so CX P. rewrite (pa_shares _ _ _ _ _ _ _ _ P).
  destruct (flows_shares_spec _ _ _ _ _ CX (pa_flows _ _ _ _ _ _ _ _ P)) as [A1 [B1 C1]].
  destruct (own_shares_spec _ _ _ _ _ _ (pa_own _ _ _ _ _ _ _ _ P)) as [A3 B3].
  assert (P2 : Forall (op_share (cx_n cx)) (oo_shares oo_) /\ forall x e t, (t < cx_n cx)%nat -> fit_op (cx_n cx) (e_id e) (oo_shares oo_) ->
     sum_op x t (e_id e) (oo_shares oo_) == match cp_onoff c with
    | Some p => cost (cx_effects cx) (cx_idx cx) (oo_switch_eff p) e t * x (oo (cp_label c) "switchOn") t
                + cost (cx_effects cx) (cx_idx cx) (oo_run_eff p) e t * x (oo (cp_label c) "on") t * dt cx t
    | None => 0
    end).
  { pose proof (pa_oo _ _ _ _ _ _ _ _ P) as OO. destruct (cp_onoff c) as [p|]; simpl in OO.
    - bnd OO o2 Eo. fin OO. destruct (onoff_shares_spec _ _ _ _ _ _ _ CX Eo) as [A B]. auto.
    - fin OO. split; [constructor|]. intros; reflexivity. }
  destruct P2 as [A2 B2]. destruct (op_no_inv _ _ A2) as [S2 Z2].
  split.
  { apply Forall_app; split; [apply Forall_app; split; auto|].
    - eapply Forall_impl; [|exact A2]. unfold some_share. auto.
    - eapply Forall_impl; [|exact A3]. unfold some_share. auto. }
  split.
  { intros x e t Ht F. apply fit_op_app in F. destruct F as [F F3]. apply fit_op_app in F. destruct F as [F1 F2].
    rewrite !sum_op_app, (B1 x e t Ht F1), (B2 x e t Ht F2).
    rewrite (sum_op_other x t (e_id e) (so_shares so)) by (eapply Forall_impl; [|exact A3]; auto). unfold comp_op. ring. }
  intros N. unfold comp_invs in *.
  destruct C1 as [S1 C1]; [intros name iv Hn; apply (N name); apply in_or_app; auto|].
  destruct B3 as [S3 C3]; [intros name iv Hn; apply (N name); apply in_or_app; auto|].
  split.
  - apply inv_scalar_app; [apply inv_scalar_app; auto|]. intros i sh Hs _. auto.
  - intros x e ND He. rewrite !sum_inv_app, (C1 x e ND He), Z2, (C3 x e ND He). unfold invs_costs. rewrite map_app, Qsum_app. ring.
Qed.

(** ** Buses *)
Definition bus_penalty (cx : ctx) (x : asg) (b : bus) : Q :=
  match b_penalty b with
  | None => 0
  | Some p => sumn (cx_n cx) (fun t => value (cx_idx cx) p t * dt cx t
                 * (x (vlabel (b_lab b) "excess_input") t + x (vlabel (b_lab b) "excess_output") t))
  end.
Lemma bus_shares_spec : forall cx b ins outs bo, ctx_ok cx -> bus_model cx b ins outs = Ok bo ->
  Forall (pen_share (cx_n cx)) (snd bo)
  /\ forall x, (forall sh, In sh (snd bo) -> fits (cx_n cx) (sh_factor sh)) ->
     Qsum (map (worth x 0) (snd bo)) == bus_penalty cx x b.
Proof.
  intros cx b ins outs bo CX H. unfold bus_model in H. unfold bus_penalty. destruct (b_penalty b) as [p|].
  - bnd H a Ea. bnd H pen Ep. bnd H ei Ei. bnd H eo Eo. bnd H c Ec. bnd H m Em. fin H. cbn [snd].
    apply create_variable_spec in Ei. apply create_variable_spec in Eo.
    assert (LI : v_len ei = cx_n cx /\ v_label ei = vlabel (b_lab b) "excess_input") by (rewrite Ei; split; reflexivity).
    assert (LO : v_len eo = cx_n cx /\ v_label eo = vlabel (b_lab b) "excess_output") by (rewrite Eo; split; reflexivity).
    destruct LI as [LI NI]. destruct LO as [LO NO]. clear Ei Eo Ec Em.
    split. { repeat constructor; simpl; eauto. }
    intros x F. specialize (F _ (or_introl eq_refl)). simpl in F.
    cbn [map]. rewrite !Qsum_cons. unfold worth. cbn [sh_var sh_as_sum sh_factor]. rewrite LI, LO, NI, NO.
    destruct (act_spec _ _ _ _ CX Ea) as [_ [Ga Va]]. destruct (fits_bcast2_inv _ _ _ _ _ Ep F) as [_ Fa].
    change (Qsum []) with 0. rewrite Qplus_0_r. unfold sumn. rewrite <- Qsum_plus. apply Qsum_map_eq. intros t Ht. apply in_seq in Ht.
    unfold nmul in Ep. rewrite (bcast2_at _ _ _ _ _ Ep (F t ltac:(lia))), at_dt, (Va t) by (auto; try apply Fa; lia). ring.
  - bnd H c Ec. bnd H m Em. fin H. simpl. split; [constructor|]. intros; reflexivity.
Qed.
