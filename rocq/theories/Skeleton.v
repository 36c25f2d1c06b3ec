(** The outline of the models: which labels a model and its sub-models carry depends on the parameters only, not on the data or on
    the segment. Used for the combination of results. *)
From Verif Require Import Base BaseFacts MathModel MathFacts Spec Structure StructureFacts Params Features Elements System SysSpec CtxFacts ReadTools NavFacts Tree PropsTree
     Values Results ResultFacts Segmented PropsRepeat SegmentedFacts.

Inductive sk : Type := SK (label : string) (vars : list string) (subs : list sk).
Fixpoint skel (m : emodel) : sk := let 'EM _ label vars _ subs := m in SK label (map v_short vars) (map skel subs).

(** ** Shares *)
Definition skey (s : share) : target * string := (sh_target s, sh_name s).
Definition target_of (es : list effect) (k : option nat) : nat :=
  match k with Some i => i | None => match standard_effect es with Some e => e_id e | None => 0%nat end end.
Definition dkeys (es : list effect) (tgt : nat -> target) (elem name : string) (ks : list (option nat)) : list (target * string) :=
  map (fun k => (tgt (target_of es k), cat [elem; "__"; name])) ks.

Lemma emit_keys : forall cx tgt elem name vals factor v l, emit cx tgt elem name vals factor v = Ok l ->
  map skey l = dkeys (cx_effects cx) tgt elem name (map fst vals).
Proof.
  intros cx tgt elem name vals factor v l H. unfold emit in H. apply mapM_Forall2 in H.
  induction H as [|[k q] s vals l H _ IH]; [reflexivity|]. cbn [map dkeys fst] in *. unfold dkeys in IH |- *. cbn [map]. rewrite IH. f_equal. cbn [fst snd] in H.
  bnd H e Ee. bnd H f Ef. fin H. unfold skey. cbn [sh_target sh_name]. f_equal. f_equal. unfold resolve in Ee. destruct k as [i|]; cbn [target_of].
  - bnd Ee u Eu. fin Ee. reflexivity.
  - destruct (standard_effect _); [fin Ee; reflexivity|discriminate].
Qed.
Lemma emit_op_keys : forall cx tr elem name v factor var l, emit_op cx tr elem name v factor var = Ok l ->
  map skey l = dkeys (cx_effects cx) TOp elem name (map fst (effect_dict_ts v)).
Proof.
  intros cx tr elem name v factor var l H. unfold emit_op in H. bnd H vs Ev. rewrite (emit_keys _ _ _ _ _ _ _ _ H). clear H. f_equal. unfold op_values in Ev.
  apply mapM_Forall2 in Ev. induction Ev as [|[k p] [k' q] a b H1 _ IH]; [reflexivity|]. cbn [map fst snd] in *. bnd H1 d Ed. fin H1. rewrite IH. congruence.
Qed.
Lemma emit_inv_keys : forall cx tr elem name v factor var l, emit_inv cx tr elem name v factor var = Ok l ->
  map skey l = dkeys (cx_effects cx) TInv elem name (map fst (as_effect_dict v)).
Proof.
  intros cx tr elem name v factor var l H. unfold emit_inv in H. bnd H vs Ev. rewrite (emit_keys _ _ _ _ _ _ _ _ H). clear H. f_equal. unfold inv_values in Ev. bnd Ev u Eu.
  apply mapM_Forall2 in Ev. induction Ev as [|[k p] [k' q] a b H1 _ IH]; [reflexivity|]. cbn [map fst snd] in *. destruct p; [|discriminate]. fin H1. rewrite IH. congruence.
Qed.

(** ** Features *)
Definition onoff_sk (p : onoff) : sk :=
  SK "OnOff" (["on"; "totalOnHours"] ++ (if use_off p then ["off"] else []) ++ (if use_con p then ["consecutiveOnHours"] else [])
              ++ (if use_coff p then ["consecutiveOffHours"] else []) ++ ["switchOn"; "switchOff"; "nrSwitchOn"]) [].
Definition onoff_keys (es : list effect) (elem : string) (p : onoff) : list (target * string) :=
  dkeys es TOp elem "switch_on_effects" (map fst (effect_dict_ts (oo_switch_eff p)))
  ++ dkeys es TOp elem "running_hour_effects" (map fst (effect_dict_ts (oo_run_eff p))).
Lemma duration_short : forall cx tr full label b dmin dmax o, duration_model cx tr full label b dmin dmax = Ok o -> label <> "" -> v_short (du_var o) = label.
Proof.
  intros cx tr full label b dmin dmax o H N. unfold duration_model in H. bnd H pv E1. bnd H pv' E2. bnd H prev E3. cbv zeta in H. bnd H mx E4. bnd H u E5.
  bnd H d Ed. bnd H c1 E6. bnd H c2 E7. bnd H c3 E8. bnd H c4 E9. bnd H c5 E10. bnd H c6 E11. fin H. cbn [du_var]. eapply create_short; eauto.
Qed.
Lemma onoff_outline : forall cx tr elem p vars bounds o, onoff_model cx tr elem p vars bounds = Ok o ->
  skel (ot_tree o) = onoff_sk p /\ map skey (ot_shares o) = onoff_keys (cx_effects cx) elem p.
Proof.
  intros cx tr elem p vars bounds o H. unfold onoff_model in H. cbv zeta in H.
  bnd H bs Ebs. bnd H u Eu. bnd H pre Epre. bnd H on_ Eon. bnd H tot Etot. bnd H ct Ect. bnd H con Econ.
  bnd H w1 Ew1. destruct w1 as [voff coff]. bnd H w2 Ew2. destruct w2 as [v1 k1]. bnd H w3 Ew3. destruct w3 as [v2 k2].
  bnd H w4 Ew4. destruct w4 as [[v3 k3] sw]. bnd H s1 Es1. bnd H s2 Es2. bnd H m Em. fin H. cbn [ot_tree ot_shares].
  apply mk_em_spec in Em. destruct Em as [-> _]. apply create_short in Eon; [|discriminate]. apply create_short in Etot; [|discriminate].
  cbn [use_switch_on orb] in Ew4. bnd Ew4 son Eson. bnd Ew4 soff Esoff. bnd Ew4 nr Enr. bnd Ew4 g0 Eg. bnd Ew4 ks Eks. apply Ok_inj in Ew4.
  apply pair_equal_spec in Ew4. destruct Ew4 as [Ew4 <-]. apply pair_equal_spec in Ew4. destruct Ew4 as [<- _].
  apply create_short in Eson; [|discriminate]. apply create_short in Esoff; [|discriminate]. apply create_short in Enr; [|discriminate].
  split.
  - cbn [skel]. unfold onoff_sk. f_equal. rewrite !map_app. cbn [map]. rewrite Eon, Etot, Eson, Esoff, Enr.
    assert (A1 : map v_short voff = if use_off p then ["off"] else []).
    { destruct (use_off p). bnd Ew1 off Eoff. bnd Ew1 c Ec. apply Ok_inj in Ew1. apply pair_equal_spec in Ew1. destruct Ew1 as [<- _].
      apply create_short in Eoff; [|discriminate]. cbn. rewrite Eoff. reflexivity.
      apply Ok_inj in Ew1. apply pair_equal_spec in Ew1. destruct Ew1 as [<- _]. reflexivity. }
    assert (A2 : map v_short v1 = if use_con p then ["consecutiveOnHours"] else []).
    { destruct (use_con p). bnd Ew2 du Edu. apply Ok_inj in Ew2. apply pair_equal_spec in Ew2. destruct Ew2 as [<- _].
      apply duration_short in Edu; [|discriminate]. cbn. rewrite Edu. reflexivity.
      apply Ok_inj in Ew2. apply pair_equal_spec in Ew2. destruct Ew2 as [<- _]. reflexivity. }
    assert (A3 : map v_short v2 = if use_coff p then ["consecutiveOffHours"] else []).
    { destruct (use_coff p). bnd Ew3 off Eoff. bnd Ew3 du Edu. apply Ok_inj in Ew3. apply pair_equal_spec in Ew3. destruct Ew3 as [<- _].
      apply duration_short in Edu; [|discriminate]. cbn. rewrite Edu. reflexivity.
      apply Ok_inj in Ew3. apply pair_equal_spec in Ew3. destruct Ew3 as [<- _]. reflexivity. }
    rewrite A1, A2, A3. reflexivity.
  - rewrite map_app, (emit_op_keys _ _ _ _ _ _ _ _ Es1), (emit_op_keys _ _ _ _ _ _ _ _ Es2). reflexivity.
Qed.

Definition multi_sk (n : nat) : sk :=
  SK "MultipleSegments" [] (map (fun i => SK (cat ["Segment_"; nat_str i]) ["inSegment"; "lambda0"; "lambda1"] []) (seq 0 n)).
Definition points_n {A} (pts : list (A * list (numeric * numeric))) : nat := match pts with [] => 0%nat | (_, s) :: _ => length s end.
Lemma multi_outline : forall elem len pts outside m, multi_segments elem len pts outside = Ok m -> skel m = multi_sk (points_n pts).
Proof.
  intros elem len pts outside m H. unfold multi_segments in H. cbv zeta in H. bnd H n En. bnd H segs Es. bnd H eqs Eqs. bnd H si Esi.
  apply mk_em_spec in H. destruct H as [-> _]. cbn [skel map]. unfold multi_sk. f_equal.
  assert (n = points_n pts) as <-. { destruct pts as [|[v s] r]; [discriminate|]. fin En. reflexivity. }
  apply mapM_Forall2 in Es. clear -Es. induction Es as [|i s l l' H _ IH]; [reflexivity|]. cbn [map]. rewrite IH. f_equal.
  unfold segment_model in H. cbv zeta in H. bnd H a Ea. bnd H b Eb. bnd H d Ed. bnd H c Ec. bnd H m Em. fin H. cbn [Features.sg_tree].
  apply mk_em_spec in Em. destruct Em as [-> _]. apply create_short in Ea; [|discriminate]. apply create_short in Eb; [|discriminate]. apply create_short in Ed; [|discriminate].
  cbn [skel map]. rewrite Ea, Eb, Ed. reflexivity.
Qed.

Definition elabel (es : list effect) (i : nat) : string := match find (fun e => Nat.eqb (e_id e) i) es with Some e => e_label e | None => "" end.
Definition segshares_sk (es : list effect) (eff : list (nat * list (Q * Q))) : sk :=
  SK "SegmentedShares" (map (fun el => cat [elabel es (fst el); "_segmented"]) eff)
     [multi_sk (match eff with [] => 0%nat | (_, l) :: _ => length l end)].
Lemma segmented_label : forall l, cat [l; "_segmented"] <> "".
Proof. intros l E. unfold cat in E. cbn [fold_right] in E. destruct l; discriminate. Qed.
Lemma segshares_outline : forall cx elem size spts eff outside m shs, segmented_shares cx elem size spts eff outside = Ok (m, shs) ->
  skel m = segshares_sk (cx_effects cx) eff
  /\ map skey shs = flat_map (fun el : nat * list (Q * Q) => dkeys (cx_effects cx) TInv elem "segmented_effects" [Some (fst el)]) eff.
Proof.
  intros cx elem size spts eff outside m shs H. unfold segmented_shares in H. cbv zeta in H. bnd H u Eu. bnd H vs Ev. bnd H ms Ems. bnd H ss Ess. bnd H mm Em.
  apply Ok_inj in H. apply pair_equal_spec in H. destruct H as [<- <-]. apply mk_em_spec in Em. destruct Em as [-> _].
  apply mapM_Forall2 in Ev.
  assert (V : Forall2 (fun (el : nat * list (Q * Q)) (t : nat * variable * list (numeric * numeric)) =>
     fst (fst t) = fst el /\ v_short (snd (fst t)) = cat [elabel (cx_effects cx) (fst el); "_segmented"] /\ length (snd t) = length (snd el)) eff vs).
  { clear -Ev. induction Ev as [|el t l l' H _ IH]; constructor; auto. bnd H lab El. bnd H v E1. fin H. cbn [fst snd].
    split; [reflexivity|]. split; [|apply map_length]. apply create_short in E1; [|apply segmented_label]. rewrite E1. do 2 f_equal.
    unfold effect_label in El. unfold elabel. destruct (find _ _); [cbn in El; fin El; reflexivity|discriminate]. }
  split.
  - cbn [skel map]. unfold segshares_sk. f_equal.
    + rewrite map_map. clear -V. induction V as [|el t l l' [_ [H _]] _ IH]; [reflexivity|]. cbn [map]. rewrite H, IH. reflexivity.
    + rewrite (multi_outline _ _ _ _ _ Ems). do 2 f_equal. destruct V as [|[e l] [[e' v] l'] a b [_ [_ L]] _]; [discriminate|]. cbn in *. exact L.
  - apply mapM_Forall2 in Ess. clear -V Ess. revert ss Ess. induction V as [|el t l l' [E _] _ IH]; intros ss Ess; inversion Ess as [|? s ? ss' H1 H2]; subst; [reflexivity|].
    cbn [List.concat flat_map]. rewrite map_app, (IH _ H2), (emit_keys _ _ _ _ _ _ _ _ H1), E. reflexivity.
Qed.

Definition invest_sk (es : list effect) (iv : invest) : sk :=
  SK "Investment" ("size" :: (if iv_optional iv then ["isInvested"] else []))
     (match iv_seg iv with Some (_, eff) => [segshares_sk es eff] | None => [] end).
Definition invest_keys (es : list effect) (elem : string) (iv : invest) : list (target * string) :=
  dkeys es TInv elem "fix_effects" (map fst (as_effect_dict (iv_fix iv)))
  ++ (if iv_optional iv then dkeys es TInv elem "divest_effects" (map fst (as_effect_dict (iv_divest iv)))
        ++ dkeys es TInv elem "divest_cancellation_effects" (map fst (as_effect_dict (iv_divest iv))) else [])
  ++ dkeys es TInv elem "specific_effects" (map fst (as_effect_dict (iv_spec iv)))
  ++ (match iv_seg iv with
      | Some (_, eff) => flat_map (fun el : nat * list (Q * Q) => dkeys es TInv elem "segmented_effects" [Some (fst el)]) eff
      | None => [] end).
Lemma invest_outline : forall cx tr elem iv dv rl ru pr on o, invest_model cx tr elem iv dv rl ru pr on = Ok o ->
  skel (io_tree o) = invest_sk (cx_effects cx) iv /\ map skey (io_shares o) = invest_keys (cx_effects cx) elem iv.
Proof.
  intros cx tr elem iv dv rl ru pr on o H. unfold invest_model in H. cbv zeta in H. bnd H size Esz. bnd H w Ew. destruct w as [inv cs1]. bnd H cs2 Ecs.
  bnd H w2 Ew2. destruct w2 as [shs subs]. bnd H m Em. fin H. cbn [io_tree io_shares]. apply mk_em_spec in Em. destruct Em as [-> _].
  assert (S1 : v_short size = "size").
  { unfold invest_size in Esz. destruct (_ && _)%bool; apply create_short in Esz; auto; discriminate. }
  assert (S2 : map v_short (match inv with Some b => [b] | None => [] end) = if iv_optional iv then ["isInvested"] else []).
  { unfold invest_optional in Ew. destruct (iv_optional iv).
    - bnd Ew b Eb. apply create_short in Eb; [|discriminate]. destruct (iv_is_fixed iv).
      + bnd Ew c Ec. apply Ok_inj in Ew. apply pair_equal_spec in Ew. destruct Ew as [<- _]. cbn. rewrite Eb. reflexivity.
      + bnd Ew c Ec. bnd Ew c' Ec'. apply Ok_inj in Ew. apply pair_equal_spec in Ew. destruct Ew as [<- _]. cbn. rewrite Eb. reflexivity.
    - apply Ok_inj in Ew. apply pair_equal_spec in Ew. destruct Ew as [<- _]. reflexivity. }
  unfold invest_shares in Ew2. bnd Ew2 s1 E1. bnd Ew2 s2 E2. bnd Ew2 s3 E3.
  assert (K2 : map skey s2 = if iv_optional iv then dkeys (cx_effects cx) TInv elem "divest_effects" (map fst (as_effect_dict (iv_divest iv)))
        ++ dkeys (cx_effects cx) TInv elem "divest_cancellation_effects" (map fst (as_effect_dict (iv_divest iv))) else []).
  { destruct (iv_optional iv); [|fin E2; reflexivity]. bnd E2 a Ea. bnd E2 b Eb. fin E2.
    rewrite map_app, (emit_inv_keys _ _ _ _ _ _ _ _ Ea), (emit_inv_keys _ _ _ _ _ _ _ _ Eb). reflexivity. }
  assert (K : skel (EM (model_full elem (Some "Investment")) "Investment" (size :: match inv with Some b => [b] | None => [] end) (cs1 ++ cs2) subs)
     = SK "Investment" ("size" :: (if iv_optional iv then ["isInvested"] else [])) (map skel subs)).
  { cbn [skel map]. rewrite S1, S2. reflexivity. }
  unfold invest_sk, invest_keys. rewrite K. destruct (iv_seg iv) as [[spts eff]|].
  - bnd Ew2 w3 E4. destruct w3 as [m4 s4]. apply Ok_inj in Ew2. apply pair_equal_spec in Ew2. destruct Ew2 as [<- <-].
    destruct (segshares_outline _ _ _ _ _ _ _ _ E4) as [G1 G2]. split; [cbn [map]; rewrite G1; reflexivity|].
    rewrite !map_app, (emit_inv_keys _ _ _ _ _ _ _ _ E1), K2, (emit_inv_keys _ _ _ _ _ _ _ _ E3), G2. reflexivity.
  - apply Ok_inj in Ew2. apply pair_equal_spec in Ew2. destruct Ew2 as [<- <-]. split; [reflexivity|].
    rewrite !map_app, (emit_inv_keys _ _ _ _ _ _ _ _ E1), K2, (emit_inv_keys _ _ _ _ _ _ _ _ E3), app_nil_r. reflexivity.
Qed.

(** ** Flows *)
Definition flow_sk (es : list effect) (f : flow) : sk :=
  SK (f_lab f) ["flow_rate"; "sumFlowHours"]
     (match f_onoff f with Some p => [onoff_sk p] | None => [] end ++ match f_size f with SzInv iv => [invest_sk es iv] | SzNum _ => [] end).
Definition flow_keys (es : list effect) (comp : string) (f : flow) : list (target * string) :=
  let full := flow_full comp (f_lab f) in
  (match f_onoff f with Some p => onoff_keys es full p | None => [] end)
  ++ (match f_size f with SzInv iv => invest_keys es full iv | SzNum _ => [] end)
  ++ dkeys es TOp full "effects_per_flow_hour" (map fst (effect_dict_ts (f_effects f))).
Lemma flow_outline : forall cx tr comp f o, flow_model cx tr comp f = Ok o ->
  skel (fo_tree o) = flow_sk (cx_effects cx) f /\ map skey (fo_shares o) = flow_keys (cx_effects cx) comp f.
Proof.
  intros cx tr comp f o H. unfold flow_model in H. cbv zeta in H. bnd H rl_ Erel. bnd H ab Eab. bnd H rt_ Er. bnd H oo_ Eoo. bnd H io Eio. bnd H sfh Es. bnd H c1 Ec1.
  bnd H clf Ecl. bnd H s Esh. bnd H m Em. fin H. cbn [fo_tree fo_shares]. apply mk_em_spec in Em. destruct Em as [-> _].
  apply create_short in Er; [|discriminate]. apply create_short in Es; [|discriminate]. unfold flow_sk, flow_keys. cbn [skel map]. rewrite Er, Es.
  assert (O : map skel (match oo_ with Some o => [ot_tree o] | None => [] end) = match f_onoff f with Some p => [onoff_sk p] | None => [] end
     /\ map skey (match oo_ with Some o => ot_shares o | None => [] end) = match f_onoff f with Some p => onoff_keys (cx_effects cx) (flow_full comp (f_lab f)) p | None => [] end).
  { destruct (f_onoff f) as [p|]; cbn [optM] in Eoo; [bnd Eoo o Eo; fin Eoo; destruct (onoff_outline _ _ _ _ _ _ _ Eo) as [G1 G2]; cbn [map]; rewrite G1; auto|fin Eoo; auto]. }
  assert (I : map skel (match io with Some o => [io_tree o] | None => [] end) = match f_size f with SzInv iv => [invest_sk (cx_effects cx) iv] | SzNum _ => [] end
     /\ map skey (match io with Some o => io_shares o | None => [] end) = match f_size f with SzInv iv => invest_keys (cx_effects cx) (flow_full comp (f_lab f)) iv | SzNum _ => [] end).
  { destruct (f_size f) as [q|iv]; [fin Eio; auto|]. bnd Eio pr Epr. bnd Eio i Ei. fin Eio. destruct (invest_outline _ _ _ _ _ _ _ _ _ _ Ei) as [G1 G2]. cbn [map]. rewrite G1. auto. }
  destruct O as [O1 O2], I as [I1 I2]. split; [rewrite map_app, O1, I1; reflexivity|].
  rewrite !map_app, O2, I2, (emit_op_keys _ _ _ _ _ _ _ _ Esh). reflexivity.
Qed.

(** ** Components *)
Definition own_sk (es : list effect) (c : component) : list string * list sk :=
  match cp_kind c with
  | Params.Segmented segs =>
      ([], [multi_sk (match cp_flows c with [] => 0%nat | f :: _ => match lookup_nat segs (f_id f) with Some s => length s | None => 0%nat end end)])
  | StorageC s => (["charge_state"; "netto_discharge"], match st_cap s with CapInv iv => [invest_sk es iv] | CapNum _ => [] end)
  | _ => ([], [])
  end.
Definition own_keys (es : list effect) (c : component) : list (target * string) :=
  match cp_kind c with StorageC s => match st_cap s with CapInv iv => invest_keys es (cp_label c) iv | CapNum _ => [] end | _ => [] end.
Definition rest_sk (es : list effect) (c : component) : list sk :=
  (match cp_onoff c with Some p => [onoff_sk p] | None => [] end)
  ++ (match cp_prevent c with [] => [] | _ => [SK "PreventSimultaneousUsage" [] []] end) ++ snd (own_sk es c).
Definition comp_sk (es : list effect) (c : component) : sk :=
  SK (cp_label c) (fst (own_sk es c)) (map (flow_sk es) (cp_flows c) ++ rest_sk es c).
Definition comp_keys (es : list effect) (c : component) : list (target * string) :=
  flat_map (flow_keys es (cp_label c)) (cp_flows c)
  ++ (match cp_onoff c with Some p => onoff_keys es (cp_label c) p | None => [] end) ++ own_keys es c.

Lemma storage_outline : forall cx tr full s ch dis o, storage_model cx tr full s ch dis = Ok o ->
  map v_short (so_vars o) = ["charge_state"; "netto_discharge"]
  /\ map skel (so_subs o) = match st_cap s with CapInv iv => [invest_sk (cx_effects cx) iv] | CapNum _ => [] end
  /\ map skey (so_shares o) = match st_cap s with CapInv iv => invest_keys (cx_effects cx) full iv | CapNum _ => [] end.
Proof.
  intros cx tr full s ch dis o H. unfold storage_model in H. cbv zeta in H. bnd H rl E1. bnd H ru E2. destruct (cap_limits cx (st_cap s)) as [lo hi].
  bnd H lb E3. bnd H ub E4. bnd H cs Ecs. bnd H nd End. bnd H ceq E5. bnd H loss_ E6. bnd H ec E7. bnd H ed E8. bnd H f1 E9. bnd H f2 E10. bnd H inv_ E11. bnd H f3 E12.
  bnd H bal E13. bnd H io Eio. bnd H ends E14. fin H. cbn [so_vars so_subs so_shares map].
  apply create_short in Ecs; [|discriminate]. apply create_short in End; [|discriminate]. rewrite Ecs, End. split; [reflexivity|].
  destruct (st_cap s) as [q|iv]; [fin Eio; auto|]. bnd Eio i Ei. fin Eio. destruct (invest_outline _ _ _ _ _ _ _ _ _ _ Ei) as [G1 G2]. cbn [map]. rewrite G1. auto.
Qed.
Lemma mapM_outline : forall {A B} (f : A -> res B) (g : A -> nat) (h : B -> nat) l l', mapM f l = Ok l' -> (forall a b, f a = Ok b -> h b = g a) -> map h l' = map g l.
Proof. intros A B f g h l l' H K. apply mapM_Forall2 in H. induction H; cbn; [reflexivity|]. rewrite IHForall2, (K _ _ H). reflexivity. Qed.
Lemma flow_model_id : forall cx tr comp f o, flow_model cx tr comp f = Ok o -> fo_id o = f_id f.
Proof.
  intros cx tr comp f o H. unfold flow_model in H. cbv zeta in H. bnd H rl_ Erel. bnd H ab Eab. bnd H rt_ Er. bnd H oo_ Eoo. bnd H io Eio. bnd H sfh Es. bnd H c1 Ec1.
  bnd H clf Ecl. bnd H s Esh. bnd H m Em. fin H. reflexivity.
Qed.

(** The outline of a component's model is that of the component with its defaults. *)
Lemma comp_outline : forall cx trf trc c0 o, comp_model cx trf trc c0 = Ok o ->
  exists c, prepared cx (trc (cp_label c0)) c0 = Ok c /\ skel (co_tree o) = comp_sk (cx_effects cx) c /\ map skey (co_shares o) = comp_keys (cx_effects cx) c.
Proof.
  intros cx trf trc c0 o H. unfold comp_model in H. cbv zeta in H. bnd H c Ec. bnd H b Eb. bnd H so Eso. bnd H m Em. fin H. cbn [co_tree co_shares].
  exists c. split; [exact Ec|]. apply mk_em_spec in Em. destruct Em as [-> _].
  unfold base_model in Eb. bnd Eb fos Ef. bnd Eb oo_ Eoo. bnd Eb pm Epm. fin Eb. cbn [bo_flows bo_on bo_subs bo_shares] in *.
  assert (F : map skel (map fo_tree fos) = map (flow_sk (cx_effects cx)) (cp_flows c) /\ map skey (flat_map fo_shares fos) = flat_map (flow_keys (cx_effects cx) (cp_label c)) (cp_flows c)
     /\ map fo_id fos = map f_id (cp_flows c)).
  { apply mapM_Forall2 in Ef. clear -Ef. induction Ef as [|f o l l' H _ [IH1 [IH2 IH3]]]; [auto|]. cbn [map flat_map]. rewrite map_app.
    destruct (flow_outline _ _ _ _ _ H) as [G1 G2]. rewrite IH1, IH2, IH3, G1, G2, (flow_model_id _ _ _ _ _ H). auto. }
  destruct F as [F1 [F2 F3]].
  assert (O : map skel (match oo_ with Some o => [ot_tree o] | None => [] end) = match cp_onoff c with Some p => [onoff_sk p] | None => [] end
     /\ map skey (match oo_ with Some o => ot_shares o | None => [] end) = match cp_onoff c with Some p => onoff_keys (cx_effects cx) (cp_label c) p | None => [] end).
  { destruct (cp_onoff c) as [p|]; cbn [optM] in Eoo; [bnd Eoo o Eo; fin Eoo; destruct (onoff_outline _ _ _ _ _ _ _ Eo) as [G1 G2]; cbn [map]; rewrite G1; auto|fin Eoo; auto]. }
  destruct O as [O1 O2].
  assert (P : map skel pm = match cp_prevent c with [] => [] | _ => [SK "PreventSimultaneousUsage" [] []] end).
  { destruct (cp_prevent c) as [|i r]; [fin Epm; reflexivity|]. bnd Epm ons Eons. bnd Epm mm Emm. fin Epm. unfold prevent_model in Emm. cbv zeta in Emm.
    bnd Emm u1 Eu1. bnd Emm u2 Eu2. bnd Emm k Ek. apply mk_em_spec in Emm. destruct Emm as [-> _]. reflexivity. }
  assert (W : map v_short (so_vars so) = fst (own_sk (cx_effects cx) c) /\ map skel (so_subs so) = snd (own_sk (cx_effects cx) c) /\ map skey (so_shares so) = own_keys (cx_effects cx) c).
  { unfold own_sk, own_keys. destruct (cp_kind c).
    - fin Eso. auto.
    - bnd Eso k Ek. fin Eso. auto.
    - bnd Eso k Ek. fin Eso. cbn [so_vars so_subs so_shares map fst snd]. split; [reflexivity|]. split; [|reflexivity]. f_equal. unfold segmented_model in Ek. bnd Ek pts Ep.
      rewrite (multi_outline _ _ _ _ _ Ek). f_equal. apply mapM_Forall2 in Ep. destruct Ep as [|o [v ps] l l' H1 _].
      + destruct (cp_flows c); [reflexivity|discriminate].
      + destruct (cp_flows c) as [|f fl]; [discriminate|]. cbn [map] in F3. injection F3 as F3 _. cbn [points_n]. bnd H1 s0 Es. bnd H1 ps' Eps.
        apply Ok_inj in H1. apply pair_equal_spec in H1. destruct H1 as [_ <-]. rewrite F3 in Es. destruct (lookup_nat _ _); [|discriminate]. cbn in Es. fin Es.
        apply mapM_Forall2 in Eps. symmetry. exact (Forall2_len _ _ _ Eps).
    - bnd Eso ch Ech. bnd Eso dis Ed. destruct (storage_outline _ _ _ _ _ _ _ Eso) as [A [B C]]. auto.
    - bnd Eso k Ek. fin Eso. auto. }
  destruct W as [W1 [W2 W3]]. split.
  - cbn [skel]. unfold comp_sk, rest_sk. rewrite W1, !map_app, F1, O1, P, W2. rewrite <- !app_assoc. reflexivity.
  - unfold comp_keys. rewrite !map_app, F2, O2, W3, <- app_assoc. reflexivity.
Qed.

(** ** Buses and effects *)
Definition bus_sk (b : bus) : sk := SK (b_lab b) (match b_penalty b with None => [] | Some _ => ["excess_input"; "excess_output"] end) [].
Definition bus_keys (b : bus) : list (target * string) :=
  match b_penalty b with None => [] | Some _ => [(TPen, cat [b_lab b; "__excess_input"]); (TPen, cat [b_lab b; "__excess_output"])] end.
Lemma bus_outline : forall cx b ins outs m shs, bus_model cx b ins outs = Ok (m, shs) -> skel m = bus_sk b /\ map skey shs = bus_keys b.
Proof.
  intros cx b ins outs m shs H. unfold bus_model in H. cbv zeta in H. unfold bus_sk, bus_keys. destruct (b_penalty b).
  - bnd H a Ea. bnd H pen Ep. bnd H ei Ei. bnd H eo Eo. bnd H c Ec. bnd H mm Em. apply Ok_inj in H. apply pair_equal_spec in H. destruct H as [<- <-].
    apply mk_em_spec in Em. destruct Em as [-> _]. apply create_short in Ei; [|discriminate]. apply create_short in Eo; [|discriminate]. cbn [skel map]. rewrite Ei, Eo. auto.
  - bnd H c Ec. bnd H mm Em. apply Ok_inj in H. apply pair_equal_spec in H. destruct H as [<- <-]. apply mk_em_spec in Em. destruct Em as [-> _]. auto.
Qed.

Definition single_sk (elem name : string) : sk := SK name [or_str name (model_full elem (Some name))] [].
Definition alloc_sk (elem label : string) (ts : bool) (names : list string) : sk :=
  SK label (cat [label; "_sum"] :: (if ts then [cat [label; "_sum_TS"]] else [])) (map (single_sk elem) names).
Lemma mk_variable_short : forall label len short bin fixed lb ub v, mk_variable label len short bin fixed lb ub = Ok v -> v_short v = or_str short label.
Proof.
  intros label len short bin fixed lb ub v H. unfold mk_variable in H. cbv zeta in H. destruct fixed as [f|]; [|fin H; reflexivity].
  bnd H a Ea. bnd H b Eb. destruct (a && b)%bool; [fin H; reflexivity|discriminate].
Qed.
Lemma single_outline : forall elem sh o, single_share elem sh = Ok o -> skel (ss_tree o) = single_sk elem (sh_name sh).
Proof.
  intros elem sh o H. unfold single_share in H. cbv zeta in H. bnd H u Eu. bnd H sv Ev. bnd H c Ec. bnd H m Em. fin H. cbn [ss_tree].
  apply mk_em_spec in Em. destruct Em as [-> _]. cbn [skel map]. unfold single_sk. do 2 f_equal.
  destruct (_ || _)%bool.
  - exact (mk_variable_short _ _ _ _ _ _ _ _ Ev).
  - destruct (sh_var sh); [|discriminate]. unfold mk_variable_ts in Ev. bnd Ev a Ea. bnd Ev w Ew. fin Ev. exact (mk_variable_short _ _ _ _ _ _ _ _ Ew).
Qed.
Lemma alloc_outline : forall cx elem label ts tmin tmax phmin phmax shs o, share_alloc cx elem label ts tmin tmax phmin phmax shs = Ok o ->
  skel (sa_tree o) = alloc_sk elem label ts (map sh_name shs).
Proof.
  assert (NC : forall a b, b <> "" -> cat [a; b] <> "").
  { intros a b N E. unfold cat in E. cbn [fold_right] in E. destruct a; [|discriminate]. destruct b; [congruence|discriminate]. }
  intros cx elem label ts tmin tmax phmin phmax shs o H. unfold share_alloc in H. cbv zeta in H. bnd H u Eu. bnd H s Es. bnd H st Est. bnd H singles Esi. bnd H u2 Eu2.
  bnd H c1 Ec1. bnd H c2 Ec2. bnd H m Em. fin H. cbn [sa_tree]. apply mk_em_spec in Em. destruct Em as [-> _]. cbn [skel map]. unfold alloc_sk. f_equal.
  - unfold alloc_sum in Es. apply create_short in Es; [|apply NC; discriminate]. rewrite Es. f_equal. destruct ts.
    + bnd Est v Ev. fin Est. unfold alloc_ts in Ev. bnd Ev lb E1. bnd Ev ub E2. apply create_short in Ev; [|apply NC; discriminate]. cbn. rewrite Ev. reflexivity.
    + fin Est. reflexivity.
  - apply mapM_Forall2 in Esi. clear -Esi. induction Esi as [|sh [sh' o] l l' H _ IH]; [reflexivity|]. cbn [map fst snd]. rewrite IH. f_equal.
    bnd H o' Eo. apply Ok_inj in H. apply pair_equal_spec in H. destruct H as [_ <-]. apply single_outline. exact Eo.
Qed.

Definition at_op (i : nat) (k : target * string) : bool := match fst k with TOp j => Nat.eqb j i | _ => false end.
Definition at_inv (i : nat) (k : target * string) : bool := match fst k with TInv j => Nat.eqb j i | _ => false end.
Definition at_pen (k : target * string) : bool := match fst k with TPen => true | _ => false end.
Lemma names_filter : forall (p : share -> bool) (q : target * string -> bool) l, (forall s, p s = q (skey s)) -> map sh_name (filter p l) = map snd (filter q (map skey l)).
Proof. intros p q l H. induction l as [|s l IH]; [reflexivity|]. cbn [filter map]. rewrite H. destruct (q (skey s)); cbn [map]; rewrite IH; reflexivity. Qed.
Definition effect_sk (ks : list (target * string)) (e : effect) : sk :=
  SK (e_label e) []
     [alloc_sk (e_label e) "invest" false (map snd (filter (at_inv (e_id e)) ks));
      alloc_sk (e_label e) "operation" true (map snd (filter (at_op (e_id e)) ks));
      alloc_sk (e_label e) "all" false ["operation"; "invest"]].
Lemma effect_outline : forall cx tre shs e m, effect_model cx tre shs e = Ok m -> skel m = effect_sk (map skey shs) e.
Proof.
  intros cx tre shs e m H. unfold effect_model in H. cbv zeta in H. bnd H a Ea. bnd H b Eb. bnd H iv Ei. bnd H op Eo. bnd H al Eal.
  apply mk_em_spec in H. destruct H as [-> _]. cbn [skel map]. unfold effect_sk.
  rewrite (alloc_outline _ _ _ _ _ _ _ _ _ _ Ei), (alloc_outline _ _ _ _ _ _ _ _ _ _ Eo), (alloc_outline _ _ _ _ _ _ _ _ _ _ Eal).
  rewrite (names_filter (is_inv (e_id e)) (at_inv (e_id e))), (names_filter (is_op (e_id e)) (at_op (e_id e))) by reflexivity. reflexivity.
Qed.
Definition between_keys (es : list effect) : list (target * string) :=
  flat_map (fun e => map (fun kp : nat * param => (TOp (fst kp), cat [e_label e; "_operation"])) (e_share_op e)) es
  ++ flat_map (fun e => map (fun kp : nat * numeric => (TInv (fst kp), cat [e_label e; "_invest"])) (e_share_inv e)) es.
Definition effects_sk (es : list effect) (ks : list (target * string)) : sk :=
  SK "Effects" [] (map (effect_sk (between_keys es ++ ks)) es ++ [alloc_sk "Effects" "penalty" false (map snd (filter at_pen (between_keys es ++ ks)))]).
Lemma effects_outline : forall cx tre shs m obj, effects_model cx tre shs = Ok (m, obj) -> skel m = effects_sk (cx_effects cx) (map skey shs).
Proof.
  intros cx tre shs m obj H. unfold effects_model in H. bnd H bo Ebo. bnd H bi Ebi. cbv zeta in H. bnd H ms Ems. bnd H pen Epen. bnd H oe Eoe. bnd H vo Evo. bnd H vi Evi.
  bnd H ob Eob. bnd H root Er. apply Ok_inj in H. apply pair_equal_spec in H. destruct H as [<- _]. apply mk_em_spec in Er. destruct Er as [-> _].
  assert (K : map skey (List.concat bo ++ List.concat bi ++ shs) = between_keys (cx_effects cx) ++ map skey shs).
  { unfold between_keys. rewrite !map_app, <- app_assoc. f_equal; [|f_equal].
    - apply mapM_Forall2 in Ebo. clear -Ebo. induction Ebo as [|e l es ls H _ IH]; [reflexivity|]. cbn [List.concat flat_map]. rewrite map_app, IH. f_equal.
      unfold between_op in H. apply mapM_Forall2 in H. clear -H. induction H as [|kp s l l' H _ IH]; [reflexivity|]. cbn [map]. rewrite IH. f_equal.
      bnd H u Eu. bnd H v Ev. bnd H a Ea. fin H. reflexivity.
    - apply mapM_Forall2 in Ebi. clear -Ebi. induction Ebi as [|e l es ls H _ IH]; [reflexivity|]. cbn [List.concat flat_map]. rewrite map_app, IH. f_equal.
      unfold between_inv in H. apply mapM_Forall2 in H. clear -H. induction H as [|kp s l l' H _ IH]; [reflexivity|]. cbn [map]. rewrite IH. f_equal.
      bnd H u Eu. bnd H v Ev. fin H. reflexivity. }
  cbn [skel map]. unfold effects_sk. f_equal. rewrite map_app. f_equal.
  - rewrite <- K. apply mapM_Forall2 in Ems. clear -Ems. induction Ems as [|e m l l' H _ IH]; [reflexivity|]. cbn [map]. rewrite IH, (effect_outline _ _ _ _ _ H). reflexivity.
  - cbn [map]. rewrite (alloc_outline _ _ _ _ _ _ _ _ _ _ Epen), (names_filter is_pen at_pen) by reflexivity. rewrite K. reflexivity.
Qed.

(** ** The whole system *)
Lemma build_outline : forall cf ord fs idx b, build_system cf ord fs idx = Ok b ->
  exists cx cs, make_ctx cf ord fs idx = Ok cx /\ Forall2 (fun c c' => prepared cx (visible_comp fs (cp_label c)) c = Ok c') (fs_comps fs) cs
   /\ map (fun co => skel (co_tree co)) (bs_comps b) = map (comp_sk (fs_effects fs)) cs
   /\ map skel (bs_buses b) = map bus_sk (buses ord fs)
   /\ skel (bs_effects b) = effects_sk (fs_effects fs) (flat_map (comp_keys (fs_effects fs)) cs ++ flat_map bus_keys (buses ord fs)).
Proof.
  intros cf ord fs idx b H. unfold build_system in H. bnd H cx Ecx. bnd H u Eu. bnd H cos Ecos. cbv zeta in H. bnd H bos Ebos. bnd H w Ew. destruct w as [em obj]. fin H.
  assert (CE : cx_effects cx = fs_effects fs). { unfold make_ctx in Ecx. bnd Ecx w Ew2. destruct w as [dt tot]. fin Ecx. reflexivity. }
  cbn [bs_comps bs_buses bs_effects].
  assert (C : exists cs, Forall2 (fun c c' => prepared cx (visible_comp fs (cp_label c)) c = Ok c') (fs_comps fs) cs
     /\ map (fun co => skel (co_tree co)) cos = map (comp_sk (fs_effects fs)) cs /\ map skey (flat_map co_shares cos) = flat_map (comp_keys (fs_effects fs)) cs).
  { apply mapM_Forall2 in Ecos. clear -Ecos CE. induction Ecos as [|c o l l' H _ [cs [I1 [I2 I3]]]]; [exists []; repeat split; constructor|].
    destruct (comp_outline _ _ _ _ _ H) as [c' [P [S1 S2]]]. rewrite CE in S1, S2. exists (c' :: cs). split; [constructor; assumption|].
    cbn [map flat_map]. rewrite map_app, I2, I3, S1, S2. auto. }
  destruct C as [cs [C1 [C2 C3]]]. exists cx, cs. split; [exact Ecx|]. split; [exact C1|]. split; [exact C2|].
  assert (B : map skel (map fst bos) = map bus_sk (buses ord fs) /\ map skey (flat_map snd bos) = flat_map bus_keys (buses ord fs)).
  { apply mapM_Forall2 in Ebos. clear -Ebos. induction Ebos as [|b [m s] l l' H _ [I1 I2]]; [auto|]. bnd H i Ei. bnd H o Eo.
    destruct (bus_outline _ _ _ _ _ _ H) as [G1 G2]. cbn [map flat_map fst snd]. rewrite map_app, I1, I2, G1, G2. auto. }
  destruct B as [B1 B2]. split; [exact B1|]. rewrite (effects_outline _ _ _ _ _ Ew), map_app, C3, B2, CE. reflexivity.
Qed.

(** ** Results of models with the same outline have the same keys *)
Inductive covers {A B} : tree A -> tree B -> Prop :=
| cv_leaf a t : covers (Leaf a) t
| cv_mixed d b : covers (Node d) (Leaf b)
| cv_node d d' : (forall k v, sget k d = Some v -> exists v', sget k d' = Some v' /\ covers v v') -> covers (Node d) (Node d').
Fixpoint sktree (s : sk) : tree unit :=
  let 'SK _ vars subs := s in Node (str_dict (map (fun v => (v, Leaf tt)) vars ++ map (fun s => (let 'SK l _ _ := s in l, sktree s)) subs)).
Fixpoint shape {A} (t : tree A) : tree unit :=
  match t with Leaf _ => Leaf tt | Node d => Node (map (fun kv => (fst kv, shape (snd kv))) d) end.
Lemma sget_map : forall {A B} (f : A -> B) k d, sget k (map (fun kv => (fst kv, f (snd kv))) d) = option_map f (sget k d).
Proof. intros A B f k d. induction d as [|[k' v] d IH]; [reflexivity|]. cbn [map fst snd]. rewrite !sget_cons. destruct (String.eqb k k'); [reflexivity|exact IH]. Qed.
Lemma covers_shape : forall {A B} (t : tree A) (t' : tree B), covers (shape t) (shape t') -> covers t t'.
Proof.
  intros A B. induction t as [a|d IH] using tree_ind2; intros t' H; [constructor|]. destruct t' as [b|d']; [constructor|]. cbn [shape] in H.
  inversion H as [| |? ? K]; subst. constructor. intros k v E. destruct (K k (shape v)) as [w [E1 C]]; [rewrite sget_map, E; reflexivity|].
  rewrite sget_map in E1. destruct (sget k d') as [v'|] eqn:E2; [|discriminate]. injection E1 as <-. exists v'. split; [reflexivity|]. apply (IH k); [apply sget_In; exact E|exact C].
Qed.
Lemma covers_refl : forall {A} (t : tree A), covers t t.
Proof. intros A. induction t as [a|d IH] using tree_ind2; constructor. intros k v E. exists v. split; [exact E|]. apply (IH k), sget_In, E. Qed.
Lemma dict_set_map : forall {A B} (f : A -> B) k v d, map (fun kv => (fst kv, f (snd kv))) (dict_set k v d) = dict_set k (f v) (map (fun kv => (fst kv, f (snd kv))) d).
Proof. intros A B f k v d. induction d as [|[k' v'] d IH]; [reflexivity|]. cbn [dict_set map fst snd]. destruct (String.eqb k k'); cbn [map fst snd]; [reflexivity|]. rewrite IH. reflexivity. Qed.
Lemma str_dict_map : forall {A B} (f : A -> B) l, map (fun kv => (fst kv, f (snd kv))) (str_dict l) = str_dict (map (fun kv => (fst kv, f (snd kv))) l).
Proof.
  intros A B f l. unfold str_dict. change (@nil (string * B)) with (map (fun kv : string * A => (fst kv, f (snd kv))) []). generalize (@nil (string * A)).
  induction l as [|[k v] l IH]; intros acc; [reflexivity|]. cbn [fold_left map fst snd]. rewrite IH, dict_set_map. reflexivity.
Qed.
Fixpoint em_ind2 (P : emodel -> Prop) (H : forall f l v c s, (forall m, In m s -> P m) -> P (EM f l v c s)) (m : emodel) : P m.
Proof.
  destruct m as [f l v c s]. apply H. induction s as [|a s IH]; intros m Hm; [destruct Hm|]. pose proof (em_ind2 P H a) as Ha. destruct Hm as [<-|Hm]; [exact Ha|exact (IH m Hm)].
Defined.
Lemma skel_label : forall m, (let 'SK l _ _ := skel m in l) = em_label m. Proof. destruct m; reflexivity. Qed.
Lemma results_shape : forall st m, shape (em_results st m) = sktree (skel m).
Proof.
  intros st. induction m as [f l v c s IH] using em_ind2. cbn [em_results shape skel sktree]. f_equal. rewrite str_dict_map. f_equal. rewrite map_app, !map_map. f_equal.
  apply map_ext_in. intros a Ha. cbn [fst snd]. rewrite skel_label, (IH a Ha). reflexivity.
Qed.
Definition sk_label (s : sk) : string := let 'SK l _ _ := s in l.
Definition fits (s s' : sk) : Prop := sk_label s = sk_label s' /\ covers (sktree s) (sktree s').
Lemma fits_refl : forall s, fits s s. Proof. intros s. split; [reflexivity|apply covers_refl]. Qed.
Lemma dict_aligned : forall {A B} (l : list (string * tree A)) (l' : list (string * tree B)), Forall2 (fun a b => fst a = fst b /\ covers (snd a) (snd b)) l l' ->
  forall k v, sget k (str_dict l) = Some v -> exists v', sget k (str_dict l') = Some v' /\ covers v v'.
Proof.
  intros A B l l' H. unfold str_dict.
  cut (forall (acc : list (string * tree A)) (acc' : list (string * tree B)), (forall k v, sget k acc = Some v -> exists v', sget k acc' = Some v' /\ covers v v') ->
     forall k v, sget k (fold_left (fun d kv => dict_set (fst kv) (snd kv) d) l acc) = Some v ->
     exists v', sget k (fold_left (fun d kv => dict_set (fst kv) (snd kv) d) l' acc') = Some v' /\ covers v v').
  { intros K. apply K. intros k v E. discriminate. }
  induction H as [|[k1 v1] [k2 v2] l l' [E C] _ IH]; intros acc acc' K; [exact K|]. cbn [fold_left fst snd] in *. apply IH. intros k v. rewrite !sget_set, E.
  destruct (String.eqb k k2); [intros X; injection X as <-; eauto|apply K].
Qed.
Lemma sk_aligned : forall l vs ss ss', Forall2 fits ss ss' -> fits (SK l vs ss) (SK l vs ss').
Proof.
  intros l vs ss ss' H. split; [reflexivity|]. cbn [sktree]. constructor. apply dict_aligned. apply Forall2_app.
  - induction vs; cbn [map]; constructor; auto. split; [reflexivity|constructor].
  - induction H as [|[l1 v1 s1] [l2 v2 s2] ss ss' [E C] _ IH]; cbn [map]; constructor; auto.
Qed.

(** ** Parameters that grow by defaults only *)
Record flow_grows (f f' : flow) : Prop := {
  fg_look : f_lab f' = f_lab f /\ f_id f' = f_id f /\ f_bus f' = f_bus f;
  fg_effects : f_effects f' = f_effects f;
  fg_onoff : f_onoff f' = f_onoff f \/ (f_onoff f = None /\ f_onoff f' = Some default_onoff);
  fg_size : f_size f' = f_size f \/ (exists q m, f_size f = SzNum q /\ f_size f' = SzInv (invest_of_max m))
}.
Record comp_grows (c c' : component) : Prop := {
  cg_label : cp_label c' = cp_label c;
  cg_in : Forall2 flow_grows (cp_in c) (cp_in c');
  cg_out : Forall2 flow_grows (cp_out c) (cp_out c');
  cg_onoff : cp_onoff c' = cp_onoff c;
  cg_prevent : cp_prevent c' = cp_prevent c;
  cg_kind : kind_like (cp_kind c) (cp_kind c')
}.
Lemma flow_grows_refl : forall f, flow_grows f f. Proof. intros f. constructor; auto. Qed.
Lemma flow_grows_trans : forall a b c, flow_grows a b -> flow_grows b c -> flow_grows a c.
Proof.
  intros a b c [[A1 [A2 A3]] A4 A5 A6] [[B1 [B2 B3]] B4 B5 B6]. constructor; [repeat split; congruence|congruence| |].
  - destruct A5 as [A5|[A5 A7]], B5 as [B5|[B5 B7]]; [left; congruence|right; split; congruence|right; split; congruence|congruence].
  - destruct A6 as [A6|[q [m [A6 A7]]]], B6 as [B6|[q' [m' [B6 B7]]]]; [left; congruence|right; exists q', m'; split; congruence|right; exists q, m; split; congruence|congruence].
Qed.
Lemma Forall2_same : forall {A} (R : A -> A -> Prop) l, (forall a, R a a) -> Forall2 R l l. Proof. intros A R l H. induction l; constructor; auto. Qed.
Lemma comp_grows_refl : forall c, comp_grows c c.
Proof. intros c. constructor; auto; try (apply Forall2_same, flow_grows_refl). apply kind_like_refl. Qed.
Lemma comp_grows_trans : forall a b c, comp_grows a b -> comp_grows b c -> comp_grows a c.
Proof.
  intros a b c [A1 A2 A3 A4 A5 A6] [B1 B2 B3 B4 B5 B6]. constructor; try congruence; try (eapply Forall2_trans; eauto; apply flow_grows_trans). eapply kind_like_trans; eauto.
Qed.
Lemma default_grows : forall f, flow_grows f (with_default_onoff f).
Proof. intros f. unfold with_default_onoff. destruct (f_onoff f) eqn:E; [apply flow_grows_refl|]. constructor; cbn; auto. Qed.
Lemma map_grows : forall (g : flow -> flow) l, (forall f, flow_grows f (g f)) -> Forall2 flow_grows l (map g l).
Proof. induction l; constructor; auto. Qed.
Lemma map_flows_grows : forall g c, (forall f, flow_grows f (g f)) -> comp_grows c (map_flows g c).
Proof. intros g c H. constructor; cbn; auto; try (apply map_grows; exact H). apply kind_like_refl. Qed.
Lemma prepare_grows : forall c, comp_grows c (prepare_component c).
Proof.
  intros c. unfold prepare_component. eapply comp_grows_trans; [|apply map_flows_grows; intros f; destruct (mem_nat _ _); [apply default_grows|apply flow_grows_refl]].
  destruct (cp_onoff c); [apply map_flows_grows, default_grows|apply comp_grows_refl].
Qed.
Lemma transmission_grows : forall cx tr abs c c', prepare_transmission cx tr abs c = Ok c' -> comp_grows c c'.
Proof.
  intros cx tr abs c c' H. unfold prepare_transmission in H. bnd H c1 E1.
  assert (G : comp_grows c c1).
  { destruct abs as [p|]; [|fin E1; apply comp_grows_refl]. bnd E1 a Ea. fin E1. destruct (nany_nonzero a); [apply map_flows_grows, default_grows|apply comp_grows_refl]. }
  destruct (cp_in c1) as [|i1 [|i2 r]] eqn:I; try (fin H; exact G). destruct (f_size i1) as [q1|iv1]; [fin H; exact G|].
  destruct (f_size i2) as [q2|iv2] eqn:S2; fin H; [|exact G]. eapply comp_grows_trans; [exact G|]. constructor; cbn; auto; [|apply Forall2_same, flow_grows_refl|apply kind_like_refl].
  rewrite I. constructor; [apply flow_grows_refl|]. constructor; [|apply Forall2_same, flow_grows_refl]. constructor; cbn; auto. right. eauto.
Qed.
Lemma prepared_grows : forall cx tr c c', prepared cx tr c = Ok c' -> comp_grows c c'.
Proof.
  intros cx tr c c' H. unfold prepared in H. destruct (cp_kind c); try (fin H; apply prepare_grows). bnd H c1 E1. fin H.
  eapply comp_grows_trans; [exact (transmission_grows _ _ _ _ _ E1)|apply prepare_grows].
Qed.
Lemma with_starts_grows : forall p i c, comp_grows c (with_starts p i c).
Proof.
  intros p i c. constructor; cbn; auto; try (apply map_grows; intros f; constructor; cbn; auto). destruct (cp_kind c); cbn; auto. eexists; reflexivity.
Qed.

(** Outlines and shares of parameters that grew. *)
Ltac keys := rewrite !sget_cons;
  repeat (match goal with |- context [String.eqb ?a ?b] => destruct (String.eqb_spec a b) as [->|] end;
          [intros X; injection X as <-; eexists; split; [reflexivity|apply covers_refl]|]); intros X; cbn in X; discriminate X.
Lemma flow_fits : forall es f f', flow_grows f f' -> fits (flow_sk es f) (flow_sk es f').
Proof.
  intros es f f' [[L _] _ O S]. unfold flow_sk. rewrite L. destruct O as [O|[O O']], S as [S|[q [m [S S']]]]; try rewrite O'; try rewrite S'; rewrite ?O, ?S.
  - apply fits_refl.
  - split; [reflexivity|]. destruct (f_onoff f); cbn -[sget]; constructor; intros k v; keys.
  - split; [reflexivity|]. destruct (f_size f); cbn -[sget]; constructor; intros k v; keys.
  - split; [reflexivity|]. cbn -[sget]; constructor; intros k v; keys.
Qed.
Lemma flow_keys_grow : forall es comp f f', flow_grows f f' -> flow_keys es comp f' = flow_keys es comp f.
Proof.
  intros es comp f f' [[L _] E O S]. unfold flow_keys. cbv zeta. rewrite L, E. f_equal; [|f_equal].
  - destruct O as [O|[O O']]; [rewrite O; reflexivity|rewrite O, O'; reflexivity].
  - destruct S as [S|[q [m [S S']]]]; [rewrite S; reflexivity|rewrite S, S'; reflexivity].
Qed.
Lemma grows_flows : forall c c', comp_grows c c' -> Forall2 flow_grows (cp_flows c) (cp_flows c').
Proof. intros c c' G. unfold cp_flows. apply Forall2_app; [exact (cg_in _ _ G)|exact (cg_out _ _ G)]. Qed.
Lemma own_grow : forall es c c', comp_grows c c' -> own_sk es c' = own_sk es c /\ own_keys es c' = own_keys es c.
Proof.
  intros es c c' G. unfold own_sk, own_keys. pose proof (cg_kind _ _ G) as K. rewrite (cg_label _ _ G).
  destruct (cp_kind c); cbn in K; try (rewrite K; auto; fail).
  - rewrite K. split; [|reflexivity]. do 4 f_equal. destruct (grows_flows _ _ G) as [|f f' l l' [[_ [I _]] _ _ _] _]; [reflexivity|]. rewrite I. reflexivity.
  - destruct K as [i ->]. cbn. auto.
Qed.
Lemma comp_fits : forall es c c', comp_grows c c' -> fits (comp_sk es c) (comp_sk es c').
Proof.
  intros es c c' G. unfold comp_sk, rest_sk. destruct (own_grow es _ _ G) as [O _]. rewrite O, (cg_label _ _ G), (cg_onoff _ _ G), (cg_prevent _ _ G).
  apply sk_aligned. apply Forall2_app; [|apply Forall2_same, fits_refl]. pose proof (grows_flows _ _ G) as F. induction F as [|f f' l l' H _ IH]; cbn [map]; constructor; auto.
  apply flow_fits, H.
Qed.
Lemma comp_keys_grow : forall es c c', comp_grows c c' -> comp_keys es c' = comp_keys es c.
Proof.
  intros es c c' G. unfold comp_keys. destruct (own_grow es _ _ G) as [_ O]. rewrite O, (cg_label _ _ G), (cg_onoff _ _ G). f_equal.
  pose proof (grows_flows _ _ G) as F. induction F as [|f f' l l' H _ IH]; cbn [flat_map]; [reflexivity|]. rewrite IH, (flow_keys_grow _ _ _ _ H). reflexivity.
Qed.

(** ** From the first segment to any later one *)
Lemma after_grows : forall cf ord fs idx, Forall2 comp_grows (fs_comps fs) (fs_comps (after_modeling cf ord fs idx)).
Proof.
  intros cf ord fs idx. unfold after_modeling. cbn [with_comps fs_comps]. generalize (comps_reached cf ord fs idx). intros k.
  revert k. generalize (fs_comps fs). induction l as [|c l IH]; intros k; [destruct k; constructor|]. destruct k as [|k]; cbn [firstn skipn map app].
  - constructor; [apply comp_grows_refl|]. apply (IH 0%nat).
  - constructor; [|apply IH]. unfold defaulted. destruct (make_ctx cf ord fs idx) as [cx|]; [|apply comp_grows_refl].
    destruct (prepared _ _ _) eqn:E; [exact (prepared_grows _ _ _ _ E)|apply comp_grows_refl].
Qed.
Lemma transfer_grows : forall g n x fs fs', transfer g n x fs = Ok fs' -> Forall2 comp_grows (fs_comps fs) (fs_comps fs').
Proof.
  intros g n x fs fs' H. unfold transfer in H. bnd H cs Ecs. fin H. cbn [with_comps fs_comps]. apply mapM_Forall2 in Ecs.
  induction Ecs as [|c c' l l' H _ IH]; constructor; auto. bnd H i Ei. bnd H j Ej. fin H. apply with_starts_grows.
Qed.
(** After a system has been modelled, its components are those with their defaults. *)
Lemma reached_all : forall {A} (fine : A -> bool) l, forallb fine l = true -> reached fine l = length l.
Proof. intros A fine l. induction l as [|a l IH]; [reflexivity|]. cbn. intros H. apply andb_prop in H. destruct H as [-> H]. rewrite (IH H). reflexivity. Qed.
Lemma Forall2_ok : forall {A B} (g : A -> res B) l l', Forall2 (fun a b => g a = Ok b) l l' -> forallb (fun a => is_ok (g a)) l = true.
Proof. intros A B g l l' H. induction H as [|a b l l' H _ IH]; [reflexivity|]. cbn. rewrite H. exact IH. Qed.
Lemma Forall2_out : forall {A} (g : A -> res A) l l', Forall2 (fun a b => g a = Ok b) l l' -> map (fun a => match g a with Ok b => b | Err _ => a end) l = l'.
Proof. intros A g l l' H. induction H as [|a b l l' H _ IH]; [reflexivity|]. cbn [map]. rewrite H, IH. reflexivity. Qed.
Lemma after_prepared : forall cf ord fs idx b cx cs, build_system cf ord fs idx = Ok b -> make_ctx cf ord fs idx = Ok cx ->
  Forall2 (fun c c' => prepared cx (visible_comp fs (cp_label c)) c = Ok c') (fs_comps fs) cs -> fs_comps (after_modeling cf ord fs idx) = cs.
Proof.
  intros cf ord fs idx b cx cs B CX P. unfold after_modeling, comps_reached. rewrite CX. cbn [with_comps fs_comps].
  rewrite reached_all.
  - rewrite firstn_all, skipn_all, app_nil_r. unfold defaulted. rewrite CX. exact (Forall2_out _ _ _ P).
  - unfold build_system in B. rewrite CX in B. cbn [bind] in B. bnd B u Eu. bnd B cos Ecos. clear B. apply mapM_Forall2 in Ecos. exact (Forall2_ok _ _ _ Ecos).
Qed.

Definition system_fits (b b' : built_system) : Prop :=
  Forall2 (fun co co' => fits (skel (co_tree co)) (skel (co_tree co'))) (bs_comps b) (bs_comps b')
  /\ Forall2 (fun m m' => fits (skel m) (skel m')) (bs_buses b) (bs_buses b') /\ fits (skel (bs_effects b)) (skel (bs_effects b')).
Lemma Forall2_by_map : forall {A B} (f : A -> B) (R : B -> B -> Prop) l l', Forall2 R (map f l) (map f l') -> Forall2 (fun a b => R (f a) (f b)) l l'.
Proof. intros A B f R l. induction l as [|a l IH]; intros [|b l'] H; inversion H; subst; constructor; auto. Qed.
(** Two systems of which the second one's components are the first one's with defaults, or grew from those. *)
Lemma built_fits : forall cf ord fs idx b fs' idx' b', build_system cf ord fs idx = Ok b -> build_system cf ord fs' idx' = Ok b' ->
  sys_like fs fs' -> Forall2 comp_grows (fs_comps (after_modeling cf ord fs idx)) (fs_comps fs') -> system_fits b b'.
Proof.
  intros cf ord fs idx b fs' idx' b' B B' SL G.
  destruct (build_outline _ _ _ _ _ B) as [cx [cs [CX [P [C1 [C2 C3]]]]]]. destruct (build_outline _ _ _ _ _ B') as [cx' [cs' [CX' [P' [C1' [C2' C3']]]]]].
  rewrite (after_prepared _ _ _ _ _ _ _ B CX P) in G.
  assert (GG : Forall2 comp_grows cs cs').
  { clear -G P'. revert cs G. induction P' as [|c c' l l' H _ IH]; intros cs G; inversion G; subst; constructor; auto. eapply comp_grows_trans; [eassumption|]. exact (prepared_grows _ _ _ _ H). }
  rewrite (sl_effects _ _ SL) in *. rewrite (frame_buses _ _ (sys_like_frame _ _ SL)) in *. split; [|split].
  - apply (Forall2_by_map (fun co => skel (co_tree co))). rewrite C1, C1'. clear -GG. induction GG; cbn [map]; constructor; auto. apply comp_fits; assumption.
  - apply (Forall2_by_map skel). rewrite C2, C2'. apply Forall2_same, fits_refl.
  - rewrite C3, C3'. replace (flat_map (comp_keys (fs_effects fs)) cs') with (flat_map (comp_keys (fs_effects fs)) cs); [apply fits_refl|].
    clear -GG. induction GG; cbn [flat_map]; [reflexivity|]. rewrite (comp_keys_grow _ _ _ H). congruence.
Qed.

Lemma trace_grows : forall cf ord solver g i fs1 subs fs', seg_trace cf ord solver g i fs1 subs fs' -> forall s0 rest s, subs = s0 :: rest -> In s rest ->
  Forall2 comp_grows (fs_comps (after_modeling cf ord fs1 (Some (sb_idx s0)))) (fs_comps (sb_fs s)).
Proof.
  assert (T : forall a b c, Forall2 comp_grows a b -> Forall2 comp_grows b c -> Forall2 comp_grows a c) by (apply Forall2_trans; apply comp_grows_trans).
  induction 1 as [i fs1 pm x B S1|i fs1 pm x fs2 rest fs' B S1 TR ST IH]; intros s0 r s E Hs; injection E as <- <-; [destruct Hs|]. cbn [sb_idx].
  eapply T; [exact (transfer_grows _ _ _ _ _ TR)|]. destruct (trace_first _ _ _ _ _ _ _ _ ST) as [s1 [E1 F1]]. destruct rest as [|s1' rest]; [destruct Hs|].
  cbn in E1. injection E1 as ->. destruct Hs as [<-|Hs]; [rewrite F1; apply Forall2_same, comp_grows_refl|].
  eapply T; [apply after_grows|]. eapply IH; [reflexivity|exact Hs].
Qed.

(** ** Combining results whose keys are those of the first *)
Lemma NoDup_snoc : forall {A} (l : list A) a, NoDup l -> ~ In a l -> NoDup (l ++ [a]).
Proof.
  intros A l a N. induction N as [|b l Hb N IH]; intros H; cbn; [repeat constructor; auto|]. constructor.
  - intros I. apply in_app_or in I. destruct I as [I|[<-|[]]]; [exact (Hb I)|]. apply H. left. reflexivity.
  - apply IH. intros I. apply H. right. exact I.
Qed.
Lemma str_dict_keys : forall {A} (l : list (string * A)), NoDup (map fst (str_dict l)).
Proof.
  intros A l. unfold str_dict. cut (forall acc : list (string * A), NoDup (map fst acc) -> NoDup (map fst (fold_left (fun d kv => dict_set (fst kv) (snd kv) d) l acc))).
  { intros H. apply H. constructor. }
  induction l as [|[k v] l IH]; intros acc N; [exact N|]. cbn [fold_left fst snd]. apply IH. destruct (in_dec string_dec k (map fst acc)) as [I|I].
  - rewrite dict_set_keys by exact I. exact N.
  - rewrite dict_set_new by exact I. rewrite map_app. cbn [map fst]. apply NoDup_snoc; assumption.
Qed.
Lemma combine_fits : forall {A B} (join : list A -> option B) (t : tree A) rest, is_dict t -> (forall r, In r rest -> covers t r) -> exists u, combine_rec join t rest = Ok u.
Proof.
  intros A B join. induction t as [a|d IH] using tree_ind2; intros rest D C; cbn [combine_rec]; [eauto|].
  destruct (all_nodes rest) as [ds|] eqn:E; [|eauto]. apply all_nodes_inv in E. subst rest.
  inversion D as [|? N K]; subst.
  assert (M : exists r, mapM (fun kv : string * tree A => vs <- mapM (fun e => of_option KeyError (sget (fst kv) e)) ds ;; c <- combine_rec join (snd kv) vs ;; Ok (fst kv, c)) d = Ok r).
  { assert (S1 : forall k v, In (k, v) d -> sget k d = Some v) by (intros; apply In_sget; assumption).
    assert (C' : forall e, In e ds -> forall k v, In (k, v) d -> exists v', sget k e = Some v' /\ covers v v').
    { intros e He k v I. specialize (C (Node e) ltac:(apply in_map; exact He)). inversion C as [| |? ? X]; subst. apply X, S1, I. }
    clear S1 C D N. induction d as [|[k v] d IHd]; [exists []; reflexivity|]. cbn [mapM fst snd].
    assert (V : exists vs, mapM (fun e => of_option KeyError (sget k e)) ds = Ok vs /\ forall r, In r vs -> covers v r).
    { clear -C'. induction ds as [|e ds IHds]; [exists []; split; [reflexivity|intros r []]|]. cbn [mapM].
      destruct (C' e (or_introl eq_refl) k v (or_introl eq_refl)) as [v' [-> Cv]]. destruct IHds as [vs [-> Cs]]; [intros e' He; apply C'; right; exact He|].
      cbn [of_option bind]. eexists. split; [reflexivity|]. intros r [<-|Hr]; auto. }
    destruct V as [vs [-> Cs]]. cbn [bind]. destruct (IH k v (or_introl eq_refl) vs (K k v (or_introl eq_refl)) Cs) as [u ->]. cbn [bind].
    destruct IHd as [r ->]; [intros; eapply IH; eauto; right; eassumption|intros; eapply K; right; eassumption|intros e He k' v' I; apply C'; [exact He|right; exact I]|]. cbn [bind]. eauto. }
  destruct M as [r ->]. cbn [bind]. eauto.
Qed.
Lemma is_dict_str_dict : forall {A} (l : list (string * tree A)), (forall k v, In (k, v) l -> is_dict v) -> is_dict (Node (str_dict l)).
Proof.
  intros A l H. constructor; [apply str_dict_keys|]. intros k v I. apply In_sget in I; [|apply str_dict_keys]. revert k v I. unfold str_dict.
  assert (HA : forall k v, sget k (@nil (string * tree A)) = Some v -> is_dict v) by (intros; discriminate). revert HA. generalize (@nil (string * tree A)). revert H.
  induction l as [|[k v] l IH]; intros H acc HA; [exact HA|]. cbn [fold_left fst snd]. apply IH; [intros; eapply H; right; eassumption|].
  intros k' v'. rewrite sget_set. destruct (String.eqb k' k); [intros E; injection E as <-; eapply H; left; reflexivity|apply HA].
Qed.
Lemma is_dict_results : forall st m, is_dict (em_results st m).
Proof.
  intros st. induction m as [f l v c s IH] using em_ind2. cbn [em_results]. apply is_dict_str_dict. intros k w I. apply in_app_or in I.
  destruct I as [I|I]; apply in_map_iff in I; destruct I as [y [E I]]; injection E as <- <-; [constructor|apply IH; exact I].
Qed.

Lemma em_fits : forall st st' m m', fits (skel m) (skel m') -> em_label m = em_label m' /\ covers (em_results st m) (em_results st' m').
Proof.
  intros st st' m m' [L C]. split; [rewrite <- (skel_label m), <- (skel_label m'); exact L|]. apply covers_shape. rewrite !results_shape. exact C.
Qed.
Lemma system_results_dict : forall b pm kd axis st, is_dict (Node (system_results b pm kd axis st)).
Proof.
  intros b pm kd axis st. unfold system_results. constructor; [repeat constructor; cbn; intuition discriminate|]. intros k v H.
  assert (D : forall {A} (f : A -> string) (h : A -> emodel) l, is_dict (Node (str_dict (map (fun a => (f a, em_results st (h a))) l)))).
  { intros A f h l. apply is_dict_str_dict. intros k' v' I. apply in_map_iff in I. destruct I as [a [E _]]. injection E as _ <-. apply is_dict_results. }
  destruct H as [H|[H|[H|[H|[H|[H|[H|[]]]]]]]]; injection H as _ <-.
  - apply (D _ (fun co => em_label (co_tree co)) co_tree).
  - apply is_dict_results.
  - apply (D _ em_label (fun m => m)).
  - constructor; [constructor|intros k' v' []].
  - constructor.
  - constructor.
  - constructor.
Qed.
Lemma system_covers : forall b b' pm pm' kd axis axis' st st', system_fits b b' ->
  covers (Node (system_results b pm kd axis st)) (Node (system_results b' pm' kd axis' st')).
Proof.
  intros b b' pm pm' kd axis axis' st st' [F1 [F2 F3]]. unfold system_results. constructor. intros k v. rewrite !sget_cons.
  destruct (String.eqb k "Components").
  { intros E. injection E as <-. eexists. split; [reflexivity|]. constructor. apply dict_aligned. clear -F1. induction F1 as [|a c l l' H _ IH]; cbn [map]; constructor; auto. apply em_fits, H. }
  destruct (String.eqb k "Effects"). { intros E. injection E as <-. eexists. split; [reflexivity|]. apply em_fits, F3. }
  destruct (String.eqb k "Buses").
  { intros E. injection E as <-. eexists. split; [reflexivity|]. constructor. apply dict_aligned. clear -F2. induction F2 as [|a c l l' H _ IH]; cbn [map]; constructor; auto. apply em_fits, H. }
  destruct (String.eqb k "Others"). { intros E. injection E as <-. eexists. split; [reflexivity|]. constructor. intros k' v' X. discriminate X. }
  destruct (String.eqb k "Objective"). { intros E. injection E as <-. eexists. split; [reflexivity|]. constructor. }
  destruct (String.eqb k "Time"). { intros E. injection E as <-. eexists. split; [reflexivity|]. constructor. }
  destruct (String.eqb k "Time intervals in hours"). { intros E. injection E as <-. eexists. split; [reflexivity|]. constructor. }
  intros X. discriminate X.
Qed.
