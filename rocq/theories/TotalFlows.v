(** Flows and the common part of components can always be written down for data that fits. *)
From Verif Require Import Base BaseFacts MathModel Spec MathFacts MathTotal Structure StructureFacts Params Features Elements ResultFacts NameSpec NameFacts TotalFacts TotalFeatures TotalInvest TotalOnOff TotalShares TotalEffects.

(** ** What was on before the first step *)
Definition given (l : list (option numeric)) : list numeric := flat_map (fun o : option numeric => match o with Some p => [p] | None => [] end) l.
Definition alike (l : list numeric) : Prop :=
  Forall (fun a => is_scalar a = true) l \/ exists k, (0 < k)%nat /\ Forall (fun a => exists q, a = NV q /\ length q = k) l.
Definition history (l : list numeric) : nat := match l with [] => 1%nat | NS _ :: _ => length l | NV q :: _ => length q end.

Lemma prev_on_ok : forall eps vars, (forall v, In v vars -> v_ts v = true) -> alike (given (map v_prev vars)) ->
  exists bs, previous_on_values eps vars = Ok bs /\ length bs = history (given (map v_prev vars)) /\ bs <> [].
Proof.
  intros eps vars T A. unfold previous_on_values.
  assert (E : mapM prev_of vars = Ok (map v_prev vars)).
  { clear A. induction vars as [|v vars IH]; auto. cbn [mapM map]. unfold prev_of at 1. rewrite T by (left; auto). cbn [bind]. rewrite IH by (intros; apply T; right; auto). reflexivity. }
  rewrite E. cbn [bind]. fold (given (map v_prev vars)). destruct (given (map v_prev vars)) as [|a l]; [exists [0]; repeat split; discriminate|].
  destruct A as [A|[k [K A]]].
  - assert (S_ : exists qs, scalars (a :: l) = Some qs /\ length qs = length (a :: l)).
    { clear -A. revert A. generalize (a :: l). intros m A. induction A as [|x m H A IH]; [exists []; auto|]. destruct IH as [qs [E L]]. destruct x; [|discriminate]. cbn. rewrite E. cbn. exists (q :: qs). cbn. auto. }
    destruct S_ as [qs [E' L]]. rewrite E'. eexists. split; [reflexivity|]. inversion A; subst. destruct a; [|discriminate]. split; [rewrite map_length; exact L|].
    destruct qs; [cbn in L; lia|discriminate].
  - inversion A as [|x y [q [-> Lq]] Al]; subst. cbn [scalars].
    assert (S_ : exists qs, arrays l = Some qs /\ Forall (fun b => length b = length q) qs).
    { clear -Al. induction Al as [|x m [r [-> Lr]] A IH]; [exists []; auto|]. destruct IH as [qs [E L]]. cbn. rewrite E. cbn. exists (r :: qs). split; auto. }
    destruct S_ as [qs [E' L]]. cbn [arrays]. rewrite E'. cbn [option_map].
    assert (F : forallb (fun b : list Q => Nat.eqb (length b) (length q)) qs = true).
    { apply forallb_forall. intros b Hb. rewrite Forall_forall in L. apply Nat.eqb_eq. auto. }
    rewrite F. cbn [guard bind]. eexists. split; [reflexivity|]. cbn [history]. rewrite map_length, seq_length. split; auto. destruct q; [cbn in K; lia|discriminate].
Qed.

(** ** On/off parameters *)
Definition oo_base (cx : ctx) (N : nat) (p : onoff) : Prop :=
  (keyed cx (map fst (as_effect_dict (oo_switch_eff p))) /\ forall k q, In (k, q) (as_effect_dict (oo_switch_eff p)) -> pfit N q)
  /\ (keyed cx (map fst (as_effect_dict (oo_run_eff p))) /\ forall k q, In (k, q) (as_effect_dict (oo_run_eff p)) -> pfit N q)
  /\ (pfito N (oo_con_min p) /\ pfito N (oo_con_max p) /\ pfito N (oo_coff_min p) /\ pfito N (oo_coff_max p)).
Definition hist_ok (cx : ctx) (p : onoff) (l : list numeric) : Prop :=
  (use_con p || use_coff p)%bool = true -> match cx_prev cx with NS _ => True | NV ds => (history l <= length ds)%nat end.
Lemma oo_data : forall cx N p l bs, oo_base cx N p -> hist_ok cx p l -> length bs = history l -> bs <> [] -> oo_data_ok cx N p bs.
Proof. intros cx N p l bs [A [B C]] H L NE. split; auto. intros U. specialize (H U). destruct (cx_prev cx); auto. lia. Qed.
Lemma default_base : forall cx N, oo_base cx N default_onoff.
Proof.
  intros. assert (K : keyed cx (map fst (as_effect_dict EVNone)) /\ forall k q, In (k, q) (as_effect_dict EVNone) -> pfit N q).
  { split; [split; [intros ? []|apply NoDup_nil]|intros ? ? []]. }
  split; [exact K|]. split; [exact K|]. cbn. auto.
Qed.
Lemma default_hist : forall cx l, hist_ok cx default_onoff l.
Proof. intros cx l H. discriminate H. Qed.

(** ** Flows *)
Record flow_data (cx : ctx) (N : nat) (f : flow) : Prop := {
  fd_bounds : pfito N (f_profile f) /\ pfit N (f_relmin f) /\ pfit N (f_relmax f);
  fd_eff : keyed cx (map fst (as_effect_dict (f_effects f))) /\ forall k q, In (k, q) (as_effect_dict (f_effects f)) -> pfit N q;
  fd_prev : alike (given [f_prev f]);
  fd_oo : forall p, f_onoff f = Some p -> oo_base cx N p /\ hist_ok cx p (given [f_prev f]);
  fd_inv : forall iv, f_size f = SzInv iv -> inv_data_ok cx iv
}.
Record setting (cx : ctx) (N : nat) : Prop := {
  sg_ready : ready cx N;
  sg_effs : effs_ok cx;
  sg_starts : forall e, In e (cx_effects cx) -> starts_ok (cat [e_label e; "_segmented"]) = true
}.
Record flow_fine (cx : ctx) (comp : string) (f : flow) (o : flow_out) : Prop := {
  ff_id : fo_id o = f_id f;
  ff_rate : is_var (fo_rate o) (vlabel (flow_full comp (f_lab f)) "flow_rate") (cx_n cx);
  ff_ts : v_ts (fo_rate o) = true /\ v_prev (fo_rate o) = f_prev f;
  ff_on : match f_onoff f with Some _ => exists on, fo_on o = Some on /\ v_bin on = true /\ v_len on = cx_n cx | None => fo_on o = None end;
  ff_size : match f_size f with SzInv _ => exists s, fo_size o = Some s /\ v_len s = 1%nat | SzNum _ => fo_size o = None end;
  ff_bounds : fitn (cx_n cx) (fst (fo_bounds o)) /\ fitn (cx_n cx) (snd (fo_bounds o));
  ff_tree : goods (words comp) [words (f_lab f)] [fo_tree o];
  ff_shares : sgood cx [words comp ++ ""%string :: words (f_lab f)] (fo_shares o)
}.
Definition flow_names : list string := oo_names ++ inv_names ++ ["effects_per_flow_hour"%string].
Lemma flow_names_tidy : Forall tidy flow_names.
Proof. unfold flow_names, oo_names, inv_names. cbn [app]. repeat constructor; unfold tidy; cbn; intuition discriminate. Qed.

Lemma rel_bounds_ok : forall cx N f, ready cx N -> flow_data cx N f -> exists a b, flow_rel_bounds cx true f = Ok (a, b) /\ fitn (cx_n cx) a /\ fitn (cx_n cx) b.
Proof.
  intros cx N f R [[B1 [B2 B3]] _ _ _ _]. unfold flow_rel_bounds. destruct (f_profile f) as [p|].
  - destruct (act_ok _ _ _ R B1) as [a [-> F]]. cbn. eauto.
  - destruct (act_ok _ _ _ R B2) as [a [-> F]]. destruct (act_ok _ _ _ R B3) as [b [-> G]]. cbn. eauto.
Qed.
Lemma load_factor_ok : forall cx full f sfh size, v_len sfh = 1%nat -> match size with Some s => v_len s = 1%nat | None => True end ->
  exists cs, load_factor_cons cx full f sfh size = Ok cs /\ Forall con_ok cs /\ exists ys, sub ys ["load_factor_max"; "load_factor_min"]%string /\ map c_label cs = map (vlabel full) ys.
Proof.
  intros cx full f sfh size L1 L2. unfold load_factor_cons.
  destruct (f_lf_max f) as [q|]; destruct (f_lf_min f) as [r|]; destruct size as [s|]; repeat (next_eq' 1%nat); eexists; (split; [reflexivity|]);
    (split; [repeat constructor; assumption|]); cbn [app map]; rewrite ?El, ?El0.
  1, 2: exists ["load_factor_max"; "load_factor_min"]%string.
  3, 4: exists ["load_factor_max"]%string.
  5, 6: exists ["load_factor_min"]%string.
  7, 8: exists [].
  all: split; [repeat constructor|reflexivity].
Qed.

Lemma flow_ok : forall cx N comp f, setting cx N -> flow_data cx N f -> hd ""%string (words comp) <> ""%string ->
  exists o, flow_model cx true comp f = Ok o /\ flow_fine cx comp f o.
Proof.
  intros cx N comp f [R EO ST] D HD. pose proof (rd_n _ _ R) as N2. pose proof (rd_dt _ _ R) as DT. unfold flow_model. set (full := flow_full comp (f_lab f)).
  assert (WF : words full = words comp ++ ""%string :: words (f_lab f)) by (apply words_us2).
  assert (HF : hd ""%string (words full) <> ""%string) by (rewrite WF; pose proof (words_ne comp); destruct (words comp); [congruence|exact HD]).
  destruct (rel_bounds_ok _ _ _ R D) as [ra [rb [Er [Fa Fb]]]]. rewrite Er. cbn [bind].
  assert (AB : exists l u, flow_abs_bounds cx true f = Ok (l, u) /\ fitn (cx_n cx) l /\ fitn (cx_n cx) u).
  { unfold flow_abs_bounds. rewrite Er. cbn [bind]. destruct (size_limits cx (f_size f)) as [lo hi].
    destruct (nmul_fit (cx_n cx) ra (NS lo) Fa I) as [l [-> Fl]]. destruct (nmul_fit (cx_n cx) rb (NS hi) Fb I) as [u [-> Fu]]. cbn. eauto. }
  destruct AB as [l [u [-> [Fl Fu]]]]. cbn [bind fst snd].
  destruct (create_long full "flow_rate" (cx_n cx) false (Some match f_onoff f with None => l | Some _ => NS 0 end) (match f_onoff f with None => Some u | Some _ => None end) (f_prev f)) as [rate [-> [Ir [_ [Tr Pr]]]]];
    [lia|destruct (f_onoff f); [exact I|exact Fl]|destruct (f_onoff f); [exact I|exact Fu]|]. cbn [bind].
  destruct D as [_ [KE PE] FP FO FI].
  assert (S1 : exists oo, optM (fun p => onoff_model cx true full p [rate] [(l, u)]) (f_onoff f) = Ok oo
     /\ match f_onoff f with Some _ => exists o, oo = Some o /\ oo_fine cx full o | None => oo = None end).
  { destruct (f_onoff f) as [p|]; cbn [optM]; [|exists None; auto]. destruct (FO _ eq_refl) as [OB OH].
    destruct (prev_on_ok (cx_eps cx) [rate]) as [bs [EB [LB NB]]]; [intros v [<-|[]]; exact Tr|cbn [map]; rewrite Pr; exact FP|].
    destruct (onoff_ok cx N full R HF p [rate] [(l, u)] bs) as [o [Eo Fo]]; auto.
    - discriminate.
    - intros v [<-|[]]. apply Ir.
    - intros b [<-|[]]. auto.
    - eapply oo_data; eauto. cbn [map] in LB. rewrite Pr in LB. exact LB.
    - rewrite Eo. cbn [bind]. exists (Some o). split; auto. exists o. auto. }
  destruct S1 as [oo [-> SO]]. cbn [bind].
  assert (ON : match option_map ot_on oo with Some o => v_len o = cx_n cx | None => True end).
  { destruct (f_onoff f); [destruct SO as [oz [-> Fo]]; cbn; apply Fo|subst oo; exact I]. }
  assert (S2 : exists io, (match f_size f with
        | SzNum _ => Ok None
        | SzInv iv =>
            pr <- optM (act cx true) (f_profile f) ;;
            i <- invest_model cx true full iv rate ra rb pr (option_map ot_on oo) ;;
            Ok (Some i)
        end) = Ok io /\ match f_size f with SzInv _ => exists i, io = Some i /\ inv_fine full cx i | SzNum _ => io = None end).
  { destruct (f_size f) as [q|iv]; [exists None; auto|].
    assert (PP : exists pr, optM (act cx true) (f_profile f) = Ok pr /\ fito (cx_n cx) pr).
    { unfold flow_rel_bounds in Er. destruct (f_profile f) as [p|]; cbn [optM]; [|exists None; split; [reflexivity|exact I]].
      destruct (act cx true p) as [a|] eqn:EA; cbn [bind] in Er; [|discriminate Er]. injection Er as -> _. cbn. exists (Some ra). auto. }
    destruct PP as [pr [-> Fp]]. cbn [bind].
    destruct (invest_ok full cx iv rate ra rb pr (option_map ot_on oo) (cx_n cx)) as [i [-> Fi]]; auto; [lia|apply Ir|]. cbn [bind]. exists (Some i). split; auto. exists i. auto. }
  destruct S2 as [io [-> SI]]. cbn [bind].
  destruct (create_one full "sumFlowHours" false (opt_num (f_fh_min f)) (opt_num (f_fh_max f))) as [sfh [-> [Is _]]]; [destruct (f_fh_min f); exact I|destruct (f_fh_max f); exact I|]. cbn [bind].
  assert (DTF : fitn (cx_n cx) (NV (cx_dt cx))) by exact DT.
  next_eq' (cx_n cx).
  destruct (load_factor_ok cx full f sfh (option_map io_size io)) as [clf [-> [Oc [ys [Sy My]]]]]; [apply Is|destruct (f_size f); [subst io; exact I|destruct SI as [iz [-> Fi]]; apply Fi]|]. cbn [bind].
  destruct (emit_op_ok cx N full "effects_per_flow_hour" (f_effects f) (NV (cx_dt cx)) rate R KE PE DTF) as [s [-> Fs]]; [apply Ir|]. cbn [bind].
  assert (G : good (words full) true [] [rate; sfh] (eq :: clf)).
  { apply good_own with (xs := ["flow_rate"; "sumFlowHours"]%string) (ys := "sumFlowHours"%string :: ys).
    - cbn [map]. rewrite (iv_lab _ _ _ Ir), (iv_lab _ _ _ Is). reflexivity.
    - cbn [map]. rewrite El, My. reflexivity.
    - apply nodup_str_NoDup. reflexivity.
    - apply (sub_NoDup _ ["sumFlowHours"; "load_factor_max"; "load_factor_min"]%string); [apply sub_keep; auto|apply nodup_str_NoDup; reflexivity].
    - apply forallb_forall. intros x X. cbn [app] in X. destruct X as [<-|[<-|[<-|X]]]; try reflexivity. apply (sub_In _ _ _ Sy) in X. destruct X as [<-|[<-|[]]]; reflexivity.
    - constructor; [apply Ir|]. constructor; [apply Is|constructor].
    - constructor; auto. }
  rewrite (mk_em_ok _ _ _ _ _ _ _ _ G). cbn [bind]. eexists. split; [reflexivity|].
  split; cbn [fo_id fo_rate fo_on fo_size fo_bounds fo_tree fo_shares fst snd]; auto.
  - destruct (f_onoff f); [|subst oo; reflexivity]. destruct SO as [oz [-> Fo]]. cbn. exists (ot_on oz). split; auto. split; apply Fo.
  - destruct (f_size f); [subst io; reflexivity|]. destruct SI as [iz [-> Fi]]. cbn. exists (io_size iz). split; auto. apply Fi.
  - unfold goods. rewrite vs_node, cs_node. apply (good_nest _ _ true ([] ++ [["OnOff"%string]] ++ inv_words)). rewrite <- WF. rewrite !vs_app, !cs_app.
    apply (good_app (words full) true false); auto.
    + assert (GO : goods (words full) [["OnOff"%string]] (match oo with Some o => [ot_tree o] | None => [] end)).
      { destruct (f_onoff f); [destruct SO as [oz [-> Fo]]; apply Fo|subst oo; apply goods_nil]. }
      assert (GI : goods (words full) inv_words (match io with Some i => [io_tree i] | None => [] end)).
      { destruct (f_size f); [subst io; apply goods_nil|destruct SI as [iz [-> Fi]]; apply Fi]. }
      apply (good_app (words full) false false); auto.
      intros w w' [<-|[]] W. cbn in W. destruct W as [<-|[<-|[<-|[<-|[]]]]]; apply split_head; discriminate.
    + intros w w' [].
  - rewrite <- WF. apply (sgood_elem cx full flow_names); [|apply flow_names_tidy]. unfold flow_names. apply sfin_app; [| |].
    + destruct (f_onoff f); [destruct SO as [oz [-> Fo]]; apply Fo|subst oo; apply sfin_nil].
    + apply sfin_app; auto; [destruct (f_size f); [subst io; apply sfin_nil|destruct SI as [iz [-> Fi]]; apply Fi]|].
      intros x X [<-|[]]. cbn in X. intuition discriminate.
    + intros x X Y. cbn in X, Y. intuition congruence.
Qed.
