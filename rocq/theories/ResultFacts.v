(** Names inside the result tree: in every model the library builds, variables and sub-models are told apart by their names as
    long as the user's labels are. *)
From Coq Require Import Ascii.
From Verif Require Import Base BaseFacts MathModel Structure StructureFacts Params Features Elements System SysSpec CtxFacts ReadTools
     InvestFacts OnOffFacts FlowFacts NavFacts SegFacts BusFacts ShareFacts EffectFacts PropsEffects Tree PropsTree Values Results.

Inductive tidy : emodel -> Prop :=
| tidy_intro : forall f l vs cs subs, NoDup (map v_short vs ++ map em_label subs) -> (forall s, In s subs -> tidy s) -> tidy (EM f l vs cs subs).

Lemma tidy_leaf : forall f l vs cs, NoDup (map v_short vs) -> tidy (EM f l vs cs []).
Proof. intros. constructor; [rewrite app_nil_r; assumption | intros s []]. Qed.

Lemma tidy_var : forall st m v, tidy m -> In v (em_vars m) -> extract (em_results st m) [v_short v] = Some (Leaf (var_result st v)).
Proof.
  intros st m v T H. destruct T as [f l vs cs subs N _]. cbn [em_vars] in H. cbn [em_results extract].
  rewrite str_dict_nodup.
  - erewrite In_sget; [reflexivity | | apply in_or_app; left; apply in_map_iff; exists v; split; [reflexivity | exact H]].
    rewrite map_app, !map_map. exact N.
  - rewrite map_app, !map_map. exact N.
Qed.
Lemma tidy_sub : forall st m s, tidy m -> In s (em_subs m) -> extract (em_results st m) [em_label s] = Some (em_results st s).
Proof.
  intros st m s T H. destruct T as [f l vs cs subs N _]. cbn [em_subs] in H. cbn [em_results extract].
  rewrite str_dict_nodup.
  - erewrite In_sget; [reflexivity | | apply in_or_app; right; apply in_map_iff; exists s; split; [reflexivity | exact H]].
    rewrite map_app, !map_map. exact N.
  - rewrite map_app, !map_map. exact N.
Qed.
Lemma tidy_subs : forall m s, tidy m -> In s (em_subs m) -> tidy s.
Proof. intros m s [f l vs cs subs _ T] H. auto. Qed.

Lemma extract_app : forall {A} p q (t : tree A), extract t (p ++ q) = match extract t p with Some u => extract u q | None => None end.
Proof.
  induction p as [| k p IH]; intros q t; [reflexivity |]. cbn [app extract]. destruct t as [a | d]; [reflexivity |].
  destruct (sget k d); [apply IH | reflexivity].
Qed.

(** ** Literal names *)
Lemma create_short : forall model label len bin fixed lb ub prev v, create_variable model label len bin fixed lb ub prev = Ok v ->
  label <> ""%string -> v_short v = label.
Proof.
  intros model label len bin fixed lb ub prev v H N. apply create_variable_spec in H. subst v. cbn [v_short]. unfold or_str.
  destruct (String.eqb_spec label ""); [contradiction | reflexivity].
Qed.
Ltac shorts := repeat match goal with H : create_variable _ _ _ _ _ _ _ _ = Ok ?v |- _ => apply create_short in H; [|discriminate] end.
Ltac lits := repeat match goal with H : v_short ?v = _ |- _ => rewrite H; clear H end.
Ltac nodups := repeat constructor; cbn [In]; intuition discriminate.

Definition last_char (s : string) : option ascii := String.get (String.length s - 1) s.
Lemma last_char_app : forall a b, b <> ""%string -> last_char (a ++ b) = last_char b.
Proof.
  unfold last_char. induction a as [| c a IH]; intros b N; [reflexivity |]. cbn [append String.length].
  rewrite <- IH by exact N. destruct (a ++ b)%string as [| c' r] eqn:E.
  - destruct a; cbn in E; congruence.
  - cbn [String.length]. replace (S (S (String.length r)) - 1)%nat with (S (S (String.length r) - 1)) by lia. reflexivity.
Qed.

(** ** Decimal numerals *)
Fixpoint dec (s : string) (a : nat) : nat :=
  match s with EmptyString => a | String c r => dec r (a * 10 + (nat_of_ascii c - 48)) end.
Lemma dec_digit : forall d s a, (d < 10)%nat -> dec (String.append (digit d) s) a = dec s (a * 10 + d).
Proof. intros d s a H. do 10 (destruct d as [| d]; [reflexivity |]). lia. Qed.
Lemma dec_aux : forall fuel n acc, (n < fuel)%nat -> dec (nat_str_aux fuel n acc) 0 = dec acc n.
Proof.
  induction fuel as [| k IH]; intros n acc H; [lia |]. cbn [nat_str_aux]. destruct (Nat.ltb_spec n 10) as [L | L].
  - rewrite Nat.mod_small by exact L. rewrite dec_digit by exact L. f_equal.
  - rewrite IH.
    + rewrite dec_digit by (apply Nat.mod_upper_bound; discriminate). f_equal. rewrite (Nat.div_mod n 10) at 3 by discriminate. lia.
    + assert (n / 10 < n)%nat by (apply Nat.div_lt; lia). lia.
Qed.
Lemma nat_str_inj : forall a b, nat_str a = nat_str b -> a = b.
Proof.
  intros a b H. unfold nat_str in H. apply (f_equal (fun s => dec s 0)) in H. rewrite !dec_aux in H by lia. exact H.
Qed.

Lemma append_inj : forall p a b, (p ++ a = p ++ b)%string -> a = b.
Proof. induction p; intros a0 b H; [exact H|]. cbn [append] in H. injection H as H. auto. Qed.

(** ** The library's models *)
Lemma tidy_segment : forall elem len i o, segment_model elem len i = Ok o ->
  tidy (sg_tree o) /\ em_label (sg_tree o) = cat ["Segment_"; nat_str i].
Proof.
  intros elem len i o H. unfold segment_model in H. bnd H s Es. bnd H l0 E0. bnd H l1 E1. bnd H c Ec. bnd H m Em. fin H. cbn [sg_tree].
  apply mk_em_spec in Em. destruct Em as [-> _]. shorts. split; [|reflexivity]. apply tidy_leaf. cbn [map]. lits. nodups.
Qed.

Lemma tidy_multi : forall elem len pts outside m, multi_segments elem len pts outside = Ok m ->
  tidy m /\ em_label m = "MultipleSegments".
Proof.
  intros elem len pts outside m H. unfold multi_segments in H. bnd H nseg En. bnd H segs Es. bnd H eqs Ee. bnd H sg Esg.
  apply mk_em_spec in H. destruct H as [-> _]. split; [|reflexivity].
  assert (F : Forall2 (fun i o => tidy (sg_tree o) /\ em_label (sg_tree o) = cat ["Segment_"; nat_str i]) (seq 0 nseg) segs).
  { apply mapM_Forall2 in Es. eapply Forall2_impl_; [|exact Es]. intros i o H. eapply tidy_segment; exact H. }
  constructor; cbn [map app].
  - rewrite map_map. replace (map (fun x => em_label (sg_tree x)) segs) with (map (fun i => cat ["Segment_"; nat_str i]) (seq 0 nseg)).
    + apply NoDup_map_inj; [apply seq_NoDup|]. intros a b _ _ E. apply nat_str_inj.
      unfold cat in E. cbn [fold_right] in E. rewrite !append_nil_r in E. apply append_inj in E. exact E.
    + clear -F. induction F as [| i o l m [_ E] _ IH]; [reflexivity |]. cbn [map]. rewrite E, IH. reflexivity.
  - intros s Hs. apply in_map_iff in Hs. destruct Hs as [o [<- Ho]].
    destruct (Forall2_In_r _ _ _ _ F Ho) as [i [_ [T _]]]. exact T.
Qed.

Lemma tidy_segmented_shares : forall cx elem size spts eff outside m shs,
  segmented_shares cx elem size spts eff outside = Ok (m, shs) -> tidy m /\ em_label m = "SegmentedShares".
Proof.
  intros cx elem size spts eff outside m shs H. unfold segmented_shares in H. bnd H u Eu. bnd H vs Evs. bnd H ms Ems. bnd H sh Esh.
  bnd H mm Em. apply Ok_inj, pair_equal_spec in H. destruct H as [<- _]. apply mk_em_spec in Em. destruct Em as [-> [N _]].
  split; [|reflexivity]. destruct (tidy_multi _ _ _ _ _ Ems) as [T L].
  assert (F : Forall (fun t : nat * variable * list (numeric * numeric) => exists lab, v_short (snd (fst t)) = cat [lab; "_segmented"]
                        /\ v_label (snd (fst t)) = vlabel (model_full elem (Some "SegmentedShares")) (cat [lab; "_segmented"])) vs).
  { apply mapM_Forall2 in Evs. clear -Evs. induction Evs as [| a b l m H _ IH]; constructor; [|exact IH].
    bnd H lab El. bnd H v Ev. fin H. cbn [fst snd]. exists lab. split.
    - eapply create_short; [exact Ev|]. intros E. unfold cat in E. cbn [fold_right] in E. destruct lab; discriminate.
    - apply create_variable_spec in Ev. subst v. reflexivity. }
  constructor; cbn [map app].
  - rewrite map_map. apply NoDup_app_intro.
    + rewrite map_map in N. revert N F. clear. induction vs as [| t vs IH]; intros N F; cbn [map]; constructor.
      * intros C. inversion N as [| ? ? N1 N2]; subst. apply N1. apply in_map_iff in C. destruct C as [t' [E H]].
        pose proof (Forall_inv F) as [l1 [A1 B1]]. rewrite Forall_forall in F. destruct (F t' (or_intror H)) as [l2 [A2 B2]].
        apply in_map_iff. exists t'. split; [|exact H]. rewrite B1, B2, <- A1, <- A2, E. reflexivity.
      * inversion N; subst. apply IH; [assumption | exact (Forall_inv_tail F)].
    + repeat constructor. intros [].
    + intros x Hx [E | []]. apply in_map_iff in Hx. destruct Hx as [t [E2 Ht]]. rewrite Forall_forall in F.
      destruct (F t Ht) as [lab [A _]]. rewrite L in E. rewrite A in E2. subst x. apply (f_equal last_char) in E. unfold cat in E. cbn [fold_right] in E.
      rewrite last_char_app in E by discriminate. discriminate.
  - intros s [<- | []]. exact T.
Qed.

Lemma tidy_invest : forall cx tr elem iv dv a b pr on o, invest_model cx tr elem iv dv a b pr on = Ok o ->
  tidy (io_tree o) /\ em_label (io_tree o) = "Investment" /\ In (io_size o) (em_vars (io_tree o)) /\ v_short (io_size o) = "size"
  /\ match io_invested o with Some v => In v (em_vars (io_tree o)) /\ v_short v = "isInvested" | None => True end.
Proof.
  intros cx tr elem iv dv a b pr on o H. unfold invest_model in H. bnd H size Es. bnd H io Ei. destruct io as [inv cs1]. bnd H cs2 Ec.
  bnd H sh Esh. destruct sh as [shs subs]. bnd H m Em. fin H. cbn [io_tree io_size io_invested]. apply mk_em_spec in Em. destruct Em as [-> _].
  assert (S : v_short size = "size").
  { unfold invest_size in Es. destruct (_ && _)%bool; eapply create_short; try exact Es; discriminate. }
  assert (I : match inv with Some v => v_short v = "isInvested" | None => True end).
  { unfold invest_optional in Ei. destruct (iv_optional iv); [|apply Ok_inj, pair_equal_spec in Ei; destruct Ei as [<- _]; exact I].
    bnd Ei v Ev. apply create_short in Ev; [|discriminate].
    destruct (iv_is_fixed iv); [bnd Ei c Ecc|bnd Ei c1 Ec1; bnd Ei c2 Ec2]; apply Ok_inj, pair_equal_spec in Ei; destruct Ei as [<- _]; exact Ev. }
  assert (SS : subs = [] \/ exists s, subs = [s] /\ tidy s /\ em_label s = "SegmentedShares").
  { unfold invest_shares in Esh. bnd Esh s1 E1. bnd Esh s2 E2. bnd Esh s3 E3. destruct (iv_seg iv) as [[spts eff]|].
    - bnd Esh mm Emm. destruct mm as [m4 s4]. apply Ok_inj, pair_equal_spec in Esh. destruct Esh as [_ <-]. right. exists m4. split; [reflexivity|].
      eapply tidy_segmented_shares; exact Emm.
    - apply Ok_inj, pair_equal_spec in Esh. destruct Esh as [_ <-]. left. reflexivity. }
  split; [|split; [reflexivity|split; [left; reflexivity|split; [exact S|destruct inv; [split; [right; left; reflexivity|exact I]|exact Logic.I]]]]].
  destruct SS as [-> | [s [-> [T L]]]]; (constructor; [destruct inv as [v|]; cbn [map app]; lits; try rewrite L; nodups|]).
  - intros s [].
  - intros s' [<- | []]. exact T.
Qed.

(** A variable created under [full]: its name is its full label without [full]. *)
Definition under (full : string) (v : variable) : Prop := v_label v = vlabel full (v_short v).
Lemma create_under : forall model label len bin fixed lb ub prev v, create_variable model label len bin fixed lb ub prev = Ok v ->
  label <> ""%string -> under model v.
Proof.
  intros model label len bin fixed lb ub prev v H N. pose proof (create_short _ _ _ _ _ _ _ _ _ H N) as S.
  apply create_variable_spec in H. unfold under. rewrite S. subst v. reflexivity.
Qed.
Lemma under_nodup : forall full vs, Forall (under full) vs -> NoDup (map v_label vs) -> NoDup (map v_short vs).
Proof.
  intros full vs F N. apply (NoDup_map_inv (vlabel full)). rewrite map_map. erewrite map_ext_in; [exact N|].
  intros v H. rewrite Forall_forall in F. symmetry. apply (F v H).
Qed.

Lemma duration_under : forall cx tr full label b mn mx d, duration_model cx tr full label b mn mx = Ok d -> label <> ""%string ->
  under full (du_var d) /\ v_short (du_var d) = label.
Proof.
  intros cx tr full label b mn mx d H N. unfold duration_model in H. bnd H pv Epv. bnd H pv' Epv'. bnd H prev Eprev. bnd H mx' Emx.
  bnd H hh Ehh. bnd H dv Edv. bnd H c1 E1. bnd H c2a E2. bnd H c2b E3. bnd H cmin E4. bnd H dt0 E5. bnd H cf Ecf. fin H. cbn [du_var].
  split; [eapply create_under | eapply create_short]; eauto.
Qed.

Lemma tidy_onoff : forall cx tr elem p vars bounds o, onoff_model cx tr elem p vars bounds = Ok o ->
  tidy (ot_tree o) /\ em_label (ot_tree o) = "OnOff" /\ In (ot_on o) (em_vars (ot_tree o)) /\ v_short (ot_on o) = "on".
Proof.
  intros cx tr elem p vars bounds o H. unfold onoff_model in H.
  bnd H bounds' Eb. bnd H u1 Elen. bnd H prev_on Ep0. bnd H on Eon. bnd H tot Etot. bnd H ctot Ectot. bnd H con Econ.
  bnd H vo Evo. destruct vo as [voff coff]. bnd H vd1 Ed1. destruct vd1 as [v1 k1]. bnd H vd2 Ed2. destruct vd2 as [v2 k2].
  bnd H vs3 Es3. destruct vs3 as [[v3 k3] sw]. bnd H sh1 Esh1. bnd H sh2 Esh2. bnd H m Em. fin H. cbn [ot_tree ot_on].
  apply mk_em_spec in Em. destruct Em as [-> [N _]]. set (full := model_full elem (Some "OnOff")) in *.
  split; [|split; [reflexivity|split; [left; reflexivity|eapply create_short; [exact Eon|discriminate]]]].
  apply tidy_leaf. eapply under_nodup; [|exact N]. rewrite !Forall_app. repeat split.
  - constructor; [eapply create_under; [exact Eon|discriminate]|]. constructor; [eapply create_under; [exact Etot|discriminate]|constructor].
  - destruct (use_off p); [|apply Ok_inj, pair_equal_spec in Evo; destruct Evo as [<- _]; constructor].
    bnd Evo off Eoff. bnd Evo c Ec. apply Ok_inj, pair_equal_spec in Evo. destruct Evo as [<- _].
    constructor; [eapply create_under; [exact Eoff|discriminate]|constructor].
  - destruct (use_con p); [|apply Ok_inj, pair_equal_spec in Ed1; destruct Ed1 as [<- _]; constructor].
    bnd Ed1 du Edu. apply Ok_inj, pair_equal_spec in Ed1. destruct Ed1 as [<- _].
    constructor; [eapply duration_under; [exact Edu|discriminate]|constructor].
  - destruct (use_coff p); [|apply Ok_inj, pair_equal_spec in Ed2; destruct Ed2 as [<- _]; constructor].
    bnd Ed2 off Eoff. bnd Ed2 du Edu. apply Ok_inj, pair_equal_spec in Ed2. destruct Ed2 as [<- _].
    constructor; [eapply duration_under; [exact Edu|discriminate]|constructor].
  - destruct (use_switch_on p); [|apply Ok_inj, pair_equal_spec in Es3; destruct Es3 as [Es3 _]; apply pair_equal_spec in Es3; destruct Es3 as [<- _]; constructor].
    bnd Es3 son Eson. bnd Es3 soff Esoff. bnd Es3 nr Enr. bnd Es3 u2 Ets. bnd Es3 ks Eks.
    apply Ok_inj, pair_equal_spec in Es3; destruct Es3 as [Es3 _]; apply pair_equal_spec in Es3; destruct Es3 as [<- _].
    constructor; [eapply create_under; [exact Eson|discriminate]|]. constructor; [eapply create_under; [exact Esoff|discriminate]|].
    constructor; [eapply create_under; [exact Enr|discriminate]|constructor].
Qed.

Lemma tidy_prevent : forall elem vars m, prevent_model elem vars = Ok m -> tidy m /\ em_label m = "PreventSimultaneousUsage".
Proof.
  intros elem vars m H. unfold prevent_model in H. bnd H u1 E1. bnd H u2 E2. bnd H c Ec. apply mk_em_spec in H. destruct H as [-> _].
  split; [apply tidy_leaf; constructor | reflexivity].
Qed.

Record flow_names (f : flow) (o : flow_out) : Prop := {
  fn_tidy : tidy (fo_tree o);
  fn_label : em_label (fo_tree o) = f_lab f;
  fn_rate : In (fo_rate o) (em_vars (fo_tree o)) /\ v_short (fo_rate o) = "flow_rate" /\ v_bin (fo_rate o) = false;
  fn_on : forall v, fo_on o = Some v -> exists s, In s (em_subs (fo_tree o)) /\ em_label s = "OnOff" /\ In v (em_vars s) /\ v_short v = "on";
  fn_size : forall v, fo_size o = Some v -> exists s, In s (em_subs (fo_tree o)) /\ em_label s = "Investment" /\ In v (em_vars s) /\ v_short v = "size"
}.
Lemma tidy_flow : forall cx tr comp f o, flow_model cx tr comp f = Ok o -> flow_names f o.
Proof.
  intros cx tr comp f o H. unfold flow_model in H. bnd H rl Erl. bnd H ab Eab. bnd H rate Erate. bnd H oo_ Eoo. bnd H io Eio. bnd H sfh Esfh.
  bnd H cs Ecs. bnd H clf Eclf. bnd H s Es. bnd H m Em. fin H. apply mk_em_spec in Em. destruct Em as [-> _].
  assert (B : v_bin rate = false) by (apply create_variable_spec in Erate; subst rate; reflexivity).
  shorts.
  assert (OO : forall t, oo_ = Some t -> tidy (ot_tree t) /\ em_label (ot_tree t) = "OnOff" /\ In (ot_on t) (em_vars (ot_tree t)) /\ v_short (ot_on t) = "on").
  { intros t ->. destruct (f_onoff f) as [p|]; cbn [optM] in Eoo; [|discriminate]. bnd Eoo t' Et. apply Ok_inj in Eoo.
    apply (f_equal (fun o => match o with Some a => a | None => t end)) in Eoo. cbn in Eoo. subst t'. eapply tidy_onoff; exact Et. }
  assert (II : forall i, io = Some i -> tidy (io_tree i) /\ em_label (io_tree i) = "Investment" /\ In (io_size i) (em_vars (io_tree i)) /\ v_short (io_size i) = "size").
  { intros i ->. destruct (f_size f) as [q|iv]; [discriminate|]. bnd Eio pr Epr. bnd Eio i' Ei. apply Ok_inj in Eio.
    apply (f_equal (fun o => match o with Some a => a | None => i end)) in Eio. cbn in Eio. subst i'.
    destruct (tidy_invest _ _ _ _ _ _ _ _ _ _ Ei) as [A [B' [C [D _]]]]. auto. }
  constructor; cbn [fo_tree fo_rate fo_on fo_size em_vars em_label em_subs].
  - constructor.
    + destruct oo_ as [t|]; destruct io as [i|]; cbn [map app]; rewrite ?Erate, ?Esfh;
        try (destruct (OO t eq_refl) as [_ [-> _]]); try (destruct (II i eq_refl) as [_ [-> _]]); nodups.
    + intros s0 Hs. apply in_app_or in Hs. destruct Hs as [Hs|Hs].
      * destruct oo_ as [t|]; [|destruct Hs]. destruct Hs as [<-|[]]. apply (OO t eq_refl).
      * destruct io as [i|]; [|destruct Hs]. destruct Hs as [<-|[]]. apply (II i eq_refl).
  - reflexivity.
  - split; [left; reflexivity|split; [exact Erate|exact B]].
  - intros v Hv. destruct oo_ as [t|]; [|discriminate]. cbn in Hv. apply (f_equal (fun o => match o with Some a => a | None => v end)) in Hv. cbn in Hv. subst v.
    exists (ot_tree t). destruct (OO t eq_refl) as [_ [L [I S]]]. split; [left; reflexivity|]. auto.
  - intros v Hv. destruct io as [i|]; [|discriminate]. cbn in Hv. apply (f_equal (fun o => match o with Some a => a | None => v end)) in Hv. cbn in Hv. subst v.
    exists (io_tree i). destruct (II i eq_refl) as [_ [L [I S]]]. split; [apply in_or_app; right; left; reflexivity|]. auto.
Qed.

(** ** Components. Names a component's model uses besides the labels of its flows. *)
Definition own_names : list string :=
  ["charge_state"; "netto_discharge"; "OnOff"; "PreventSimultaneousUsage"; "MultipleSegments"; "Investment"].

Lemma tidy_own : forall cx tr c fos on so, own_model cx tr c fos on = Ok so ->
  (so_vars so = [] /\ so_subs so = []) \/
  (so_vars so = [] /\ exists m, so_subs so = [m] /\ tidy m /\ em_label m = "MultipleSegments") \/
  (map v_short (so_vars so) = ["charge_state"; "netto_discharge"] /\ (so_subs so = [] \/ exists m, so_subs so = [m] /\ tidy m /\ em_label m = "Investment")).
Proof.
  intros cx tr c fos on so H. unfold own_model in H. destruct (cp_kind c).
  - fin H. auto.
  - bnd H k Ek. fin H. auto.
  - bnd H m Em. fin H. right. left. split; [reflexivity|]. exists m. split; [reflexivity|]. unfold segmented_model in Em. bnd Em pts Ep.
    eapply tidy_multi; exact Em.
  - bnd H ch Ech. bnd H dis Edis. unfold storage_model in H. bnd H rl Erl. bnd H ru Eru. destruct (cap_limits cx (st_cap s)) as [lo hi].
    bnd H lb Elb. bnd H ub Eub. bnd H cs Ecs. bnd H nd End. bnd H ceq Eceq. bnd H loss Eloss. bnd H ec Eec. bnd H ed Eed. bnd H f1 Ef1.
    bnd H f2 Ef2. bnd H iv_ Einv. bnd H f3 Ef3. bnd H bal Ebal. bnd H io Eio. bnd H ends Eends. fin H. cbn [so_vars so_subs map]. shorts. lits.
    right. right. split; [reflexivity|]. destruct (st_cap s) as [q|iv]; [apply Ok_inj in Eio; subst io; auto|]. bnd Eio i Ei. apply Ok_inj in Eio. subst io.
    right. exists (io_tree i). split; [reflexivity|]. destruct (tidy_invest _ _ _ _ _ _ _ _ _ _ Ei) as [A [B _]]. auto.
  - bnd H k Ek. fin H. auto.
Qed.

Lemma oo_tidy : forall cx tr lab rates bounds p oo_, optM (fun p => onoff_model cx tr lab p rates bounds) p = Ok oo_ ->
  oo_tree oo_ = [] \/ exists m, oo_tree oo_ = [m] /\ tidy m /\ em_label m = "OnOff".
Proof.
  intros cx tr lab rates bounds p oo_ H. destruct p as [p|]; cbn [optM] in H; [|fin H; left; reflexivity].
  bnd H o Eo. fin H. right. exists (ot_tree o). split; [reflexivity|]. destruct (tidy_onoff _ _ _ _ _ _ _ Eo) as [A [B _]]. auto.
Qed.

Lemma fos_labels : forall cx lab (g : flow -> flow) fl fos, (forall f, f_lab (g f) = f_lab f) ->
  Forall2 (fun f fo => flow_model cx true lab (g f) = Ok fo) fl fos -> map (fun fo => em_label (fo_tree fo)) fos = map f_lab fl.
Proof.
  intros cx lab g fl fos G H. induction H as [| f fo fl fos H _ IH]; [reflexivity|]. cbn [map]. rewrite IH. f_equal.
  rewrite <- G. apply fn_label. eapply tidy_flow; exact H.
Qed.

Lemma names_apart : forall (L a b c d : list string), NoDup L -> NoDup (a ++ b ++ c ++ d) -> incl (a ++ b ++ c ++ d) own_names ->
  (forall x, In x L -> ~ In x own_names) -> NoDup (a ++ (L ++ b ++ c) ++ d).
Proof.
  intros L a b c d N1 N2 I R. apply (Permutation_NoDup (l := L ++ (a ++ b ++ c ++ d))).
  - rewrite <- !app_assoc. rewrite !(app_assoc L a), (app_assoc a L). apply Permutation_app_tail, Permutation_app_comm.
  - apply NoDup_app_intro; auto. intros x H1 H2. apply (R x H1), I, H2.
Qed.

Definition plain_flows (c : component) : Prop := NoDup (map f_lab (cp_flows c)) /\ forall f, In f (cp_flows c) -> ~ In (f_lab f) own_names.

Lemma tidy_comp : forall cx tr c g o oo_ pm so, comp_parts cx tr c g o oo_ pm so -> (forall f, f_lab (g f) = f_lab f) -> plain_flows c ->
  tidy (co_tree o).
Proof.
  intros cx tr c g o oo_ pm so P G [N R]. rewrite (pa_tree _ _ _ _ _ _ _ _ P).
  pose proof (fos_labels _ _ _ _ _ G (pa_flows _ _ _ _ _ _ _ _ P)) as L.
  pose proof (oo_tidy _ _ _ _ _ _ _ (pa_oo _ _ _ _ _ _ _ _ P)) as O.
  assert (PM : pm = [] \/ exists m, pm = [m] /\ tidy m /\ em_label m = "PreventSimultaneousUsage").
  { pose proof (pa_pm _ _ _ _ _ _ _ _ P) as H. destruct (cp_prevent c); [left; exact H|]. destruct H as [ons [m [_ [H E]]]].
    right. exists m. split; [exact E|]. eapply tidy_prevent; exact H. }
  pose proof (tidy_own _ _ _ _ _ _ (pa_own _ _ _ _ _ _ _ _ P)) as S.
  constructor.
  - rewrite !map_app, map_map, L.
    assert (R' : forall x, In x (map f_lab (cp_flows c)) -> ~ In x own_names).
    { intros x H. apply in_map_iff in H. destruct H as [f [<- H]]. auto. }
    apply names_apart; auto.
    + destruct O as [-> | [m1 [-> [_ O]]]]; destruct PM as [-> | [m2 [-> [_ PM]]]];
      destruct S as [[-> ->] | [[-> [m3 [-> [_ S]]]] | [-> [-> | [m3 [-> [_ S]]]]]]];
      cbn [map app]; rewrite ?O, ?PM, ?S; nodups.
    + destruct O as [-> | [m1 [-> [_ O]]]]; destruct PM as [-> | [m2 [-> [_ PM]]]];
      destruct S as [[-> ->] | [[-> [m3 [-> [_ S]]]] | [-> [-> | [m3 [-> [_ S]]]]]]];
      cbn [map app]; rewrite ?O, ?PM, ?S; intros x H; unfold own_names; cbn [In] in *; intuition.
  - intros s H. rewrite !in_app_iff in H. destruct H as [[H|[H|H]]|H].
    + apply in_map_iff in H. destruct H as [fo [<- H]]. destruct (Forall2_In_r _ _ _ _ (pa_flows _ _ _ _ _ _ _ _ P) H) as [f [_ F]].
      apply (fn_tidy _ _ (tidy_flow _ _ _ _ _ F)).
    + destruct O as [E | [m1 [E [T _]]]]; rewrite E in H; cbn [In] in H; [tauto|]. destruct H as [<-|[]]. exact T.
    + destruct PM as [E | [m1 [E [T _]]]]; rewrite E in H; cbn [In] in H; [tauto|]. destruct H as [<-|[]]. exact T.
    + destruct S as [[_ E] | [[_ [m3 [E [T _]]]] | [_ [E | [m3 [E [T _]]]]]]]; rewrite E in H; cbn [In] in H; try tauto; destruct H as [<-|[]]; exact T.
Qed.

Lemma tidy_bus : forall cx b i o bo, bus_model cx b i o = Ok bo -> tidy (fst bo) /\ em_label (fst bo) = b_lab b
  /\ match b_penalty b with
     | None => em_vars (fst bo) = [] /\ em_subs (fst bo) = []
     | Some _ => em_subs (fst bo) = [] /\ exists ei eo, em_vars (fst bo) = [ei; eo]
         /\ v_short ei = "excess_input" /\ v_label ei = vlabel (b_lab b) "excess_input" /\ v_len ei = cx_n cx /\ v_bin ei = false
         /\ v_short eo = "excess_output" /\ v_label eo = vlabel (b_lab b) "excess_output" /\ v_len eo = cx_n cx /\ v_bin eo = false
     end.
Proof.
  intros cx b i o bo H. unfold bus_model in H. destruct (b_penalty b) as [p|].
  - bnd H a Ea. bnd H pen Epen. bnd H ei Eei. bnd H eo Eeo. bnd H c Ec. bnd H m Em. fin H. apply mk_em_spec in Em. destruct Em as [-> _].
    cbn [fst em_label em_vars em_subs].
    apply create_variable_spec in Eei. apply create_variable_spec in Eeo. split; [|split; [reflexivity|]].
    + apply tidy_leaf. subst. cbn. nodups.
    + split; [reflexivity|]. exists ei, eo. subst ei eo. cbn. auto 10.
  - bnd H c Ec. bnd H m Em. fin H. apply mk_em_spec in Em. destruct Em as [-> _]. cbn. split; [apply tidy_leaf; constructor|]. auto.
Qed.

(** ** Effects. No share has a name ending like the sums. *)
Definition share_name_ok (sh : share) : Prop := sh_name sh <> ""%string /\ last_char (sh_name sh) <> Some "m"%char /\ last_char (sh_name sh) <> Some "S"%char
  /\ last_char (sh_name sh) <> Some "f"%char.
Lemma name_ok_app : forall p s, s <> ""%string -> last_char s <> Some "m"%char -> last_char s <> Some "S"%char -> last_char s <> Some "f"%char ->
  (p ++ s)%string <> ""%string /\ last_char (p ++ s) <> Some "m"%char /\ last_char (p ++ s) <> Some "S"%char /\ last_char (p ++ s) <> Some "f"%char.
Proof.
  intros p s N A B C. rewrite last_char_app by exact N. split; [|auto]. intros E. destruct p; [contradiction|discriminate].
Qed.

Lemma tidy_single : forall elem sh o, single_share elem sh = Ok o -> sh_name sh <> ""%string ->
  tidy (ss_tree o) /\ em_label (ss_tree o) = sh_name sh.
Proof.
  intros elem sh o H N. unfold single_share in H. bnd H u Eu. bnd H sv Esv. bnd H c Ec. bnd H m Em. fin H. cbn [ss_tree].
  apply mk_em_spec in Em. destruct Em as [-> _]. split; [apply tidy_leaf; cbn; repeat constructor; intros [] | reflexivity].
Qed.

Lemma tidy_alloc : forall cx elem label ts tmin tmax phmin phmax shs o, share_alloc cx elem label ts tmin tmax phmin phmax shs = Ok o ->
  Forall share_name_ok shs -> tidy (sa_tree o) /\ em_label (sa_tree o) = label /\ In (sa_sum o) (em_vars (sa_tree o)) /\ v_short (sa_sum o) = cat [label; "_sum"].
Proof.
  intros cx elem label ts tmin tmax phmin phmax shs o H F. unfold share_alloc in H. bnd H u Eu. bnd H s Es. bnd H st Est. bnd H singles Esi.
  bnd H u2 Eu2. bnd H csum Ecs. bnd H cts Ects. bnd H m Em. fin H. cbn [sa_tree sa_sum]. apply mk_em_spec in Em. destruct Em as [-> [NL _]].
  unfold assert_ in Eu2. destruct (nodup_str (map sh_name shs)) eqn:ND; [|discriminate]. apply nodup_str_NoDup in ND.
  assert (NE : forall x, cat [label; x] = (label ++ x)%string) by (intros; unfold cat; cbn [fold_right]; rewrite append_nil_r; reflexivity).
  unfold alloc_sum in Es. apply create_short in Es; [|rewrite NE; destruct label; discriminate].
  split; [|split; [reflexivity|split; [left; reflexivity|exact Es]]].
  assert (SI : Forall2 (fun sh so => tidy (ss_tree (snd so)) /\ em_label (ss_tree (snd so)) = sh_name sh) shs singles).
  { apply mapM_Forall2 in Esi. clear -Esi F. induction Esi as [| sh so l m H _ IH]; constructor.
    - bnd H o Eo. fin H. cbn [snd]. eapply tidy_single; [exact Eo|]. apply (Forall_inv F).
    - apply IH, (Forall_inv_tail F). }
  constructor.
  - rewrite map_map. replace (map (fun x => em_label (ss_tree (snd x))) singles) with (map sh_name shs).
    2: { clear -SI. induction SI as [| a b l m [_ H] _ IH]; [reflexivity|]. cbn [map]. rewrite H, IH. reflexivity. }
    assert (V : match st with None => True | Some v => v_short v = cat [label; "_sum_TS"] end).
    { destruct ts; [|apply Ok_inj in Est; subst st; exact I]. bnd Est v Ev. apply Ok_inj in Est. subst st. unfold alloc_ts in Ev. bnd Ev lb Elb. bnd Ev ub Eub.
      eapply create_short; [exact Ev|]. rewrite NE. destruct label; discriminate. }
    apply NoDup_app_intro; [|exact ND|].
    + destruct st as [v|]; cbn [map]; rewrite Es; [rewrite V|]; repeat constructor; cbn [In]; try tauto.
      intros [E|[]]. rewrite !NE in E. apply append_inj in E. discriminate.
    + intros x Hx Hs. apply in_map_iff in Hs. destruct Hs as [sh [Hs Ish]]. rewrite Forall_forall in F. destruct (F sh Ish) as [_ [A [B _]]].
      cbn [map] in Hx. rewrite Es in Hx. destruct Hx as [Hx|Hx].
      * apply A. rewrite Hs, <- Hx, NE, last_char_app by discriminate. reflexivity.
      * destruct st as [v|]; [|destruct Hx]. destruct Hx as [Hx|[]]. apply B. rewrite Hs, <- Hx, V, NE, last_char_app by discriminate. reflexivity.
  - intros s0 H. apply in_map_iff in H. destruct H as [so [<- H]]. destruct (Forall2_In_r _ _ _ _ SI H) as [sh [_ [T _]]]. exact T.
Qed.

Definition suffix_ok (s : string) : Prop :=
  s <> ""%string /\ last_char s <> Some "m"%char /\ last_char s <> Some "S"%char /\ last_char s <> Some "f"%char.
Lemma cat3_ok : forall a b c, suffix_ok c -> suffix_ok (cat [a; b; c]).
Proof.
  intros a b c [N [A [B C]]]. unfold cat. cbn [fold_right]. rewrite append_nil_r. rewrite <- append_assoc. apply name_ok_app; auto.
Qed.
Lemma cat2_ok : forall a c, suffix_ok c -> suffix_ok (cat [a; c]).
Proof. intros a c [N [A [B C]]]. unfold cat. cbn [fold_right]. rewrite append_nil_r. apply name_ok_app; auto. Qed.
Ltac sfx := split; [discriminate | split; [cbv; discriminate | split; cbv; discriminate]].

Lemma emit_ok : forall cx tgt elem name vals factor v l, emit cx tgt elem name vals factor v = Ok l -> suffix_ok name -> Forall share_name_ok l.
Proof.
  intros cx tgt elem name vals factor v l H S. unfold emit in H. apply mapM_Forall2 in H.
  induction H as [| a b la lb H _ IH]; constructor; [|exact IH]. bnd H e Ee. bnd H f Ef. fin H. apply cat3_ok. exact S.
Qed.
Lemma emit_op_ok : forall cx tr elem name v factor var l, emit_op cx tr elem name v factor var = Ok l -> suffix_ok name -> Forall share_name_ok l.
Proof. intros cx tr elem name v factor var l H S. unfold emit_op in H. bnd H vs E. eapply emit_ok; eauto. Qed.
Lemma emit_inv_ok : forall cx tr elem name v factor var l, emit_inv cx tr elem name v factor var = Ok l -> suffix_ok name -> Forall share_name_ok l.
Proof. intros cx tr elem name v factor var l H S. unfold emit_inv in H. bnd H vs E. eapply emit_ok; eauto. Qed.

Lemma segmented_names : forall cx elem size spts eff outside m shs,
  segmented_shares cx elem size spts eff outside = Ok (m, shs) -> Forall share_name_ok shs.
Proof.
  intros cx elem size spts eff outside m shs H. unfold segmented_shares in H. bnd H u Eu. bnd H vs Evs. bnd H ms Ems. bnd H sh Esh.
  bnd H mm Em. apply Ok_inj, pair_equal_spec in H. destruct H as [_ <-]. apply mapM_Forall2 in Esh.
  clear -Esh. induction Esh as [| a b la lb H _ IH]; [constructor|]. cbn [List.concat]. apply Forall_app. split; [|exact IH].
  eapply emit_ok; [exact H|sfx].
Qed.
Lemma invest_names : forall cx tr elem iv dv a b pr on o, invest_model cx tr elem iv dv a b pr on = Ok o -> Forall share_name_ok (io_shares o).
Proof.
  intros cx tr elem iv dv a b pr on o H. unfold invest_model in H. bnd H size Es. bnd H io Ei. destruct io as [iv_ cs1]. bnd H cs2 Ec.
  bnd H sh Esh. destruct sh as [shs subs]. bnd H m Em. fin H. cbn [io_shares]. unfold invest_shares in Esh.
  bnd Esh s1 E1. bnd Esh s2 E2. bnd Esh s3 E3.
  assert (A1 : Forall share_name_ok s1) by (eapply emit_inv_ok; [exact E1|sfx]).
  assert (A3 : Forall share_name_ok s3) by (eapply emit_inv_ok; [exact E3|sfx]).
  assert (A2 : Forall share_name_ok s2).
  { destruct (iv_optional iv); [|fin E2; constructor]. bnd E2 x1 F1. bnd E2 x2 F2. fin E2. apply Forall_app. split;
    [eapply emit_inv_ok; [exact F1|sfx] | eapply emit_inv_ok; [exact F2|sfx]]. }
  destruct (iv_seg iv) as [[spts eff]|].
  - bnd Esh mm Emm. destruct mm as [m4 s4]. apply Ok_inj, pair_equal_spec in Esh. destruct Esh as [<- _].
    rewrite !Forall_app. repeat split; auto. eapply segmented_names; exact Emm.
  - apply Ok_inj, pair_equal_spec in Esh. destruct Esh as [<- _]. rewrite !Forall_app. auto.
Qed.
Lemma onoff_names : forall cx tr elem p vars bounds o, onoff_model cx tr elem p vars bounds = Ok o -> Forall share_name_ok (ot_shares o).
Proof.
  intros cx tr elem p vars bounds o H. unfold onoff_model in H.
  bnd H bounds' Eb. bnd H u1 Elen. bnd H prev_on Ep0. bnd H on Eon. bnd H tot Etot. bnd H ctot Ectot. bnd H con Econ.
  bnd H vo Evo. destruct vo as [voff coff]. bnd H vd1 Ed1. destruct vd1 as [v1 k1]. bnd H vd2 Ed2. destruct vd2 as [v2 k2].
  bnd H vs3 Es3. destruct vs3 as [[v3 k3] sw]. bnd H sh1 Esh1. bnd H sh2 Esh2. bnd H m Em. fin H. cbn [ot_shares].
  apply Forall_app. split; [|eapply emit_op_ok; [exact Esh2|sfx]]. destruct sw; [eapply emit_op_ok; [exact Esh1|sfx]|]. fin Esh1. constructor.
Qed.
Lemma flow_names_ok : forall cx tr comp f o, flow_model cx tr comp f = Ok o -> Forall share_name_ok (fo_shares o).
Proof.
  intros cx tr comp f o H. unfold flow_model in H. bnd H rl Erl. bnd H ab Eab. bnd H rate Erate. bnd H oo_ Eoo. bnd H io Eio. bnd H sfh Esfh.
  bnd H cs Ecs. bnd H clf Eclf. bnd H s Es. bnd H m Em. fin H. cbn [fo_shares]. rewrite !Forall_app. repeat split.
  - destruct oo_ as [t|]; [|constructor]. destruct (f_onoff f) as [p|]; cbn [optM] in Eoo; [|discriminate]. bnd Eoo t' Et. apply Ok_inj in Eoo.
    apply (f_equal (fun o => match o with Some a => a | None => t end)) in Eoo. cbn in Eoo. subst t'. eapply onoff_names; exact Et.
  - destruct io as [i|]; [|constructor]. destruct (f_size f) as [q|iv]; [discriminate|]. bnd Eio pr Epr. bnd Eio i' Ei. apply Ok_inj in Eio.
    apply (f_equal (fun o => match o with Some a => a | None => i end)) in Eio. cbn in Eio. subst i'. eapply invest_names; exact Ei.
  - eapply emit_op_ok; [exact Es|sfx].
Qed.
Lemma own_names_ok : forall cx tr c fos on so, own_model cx tr c fos on = Ok so -> Forall share_name_ok (so_shares so).
Proof.
  intros cx tr c fos on so H. unfold own_model in H. destruct (cp_kind c).
  - fin H. constructor.
  - bnd H k Ek. fin H. constructor.
  - bnd H m Em. fin H. constructor.
  - bnd H ch Ech. bnd H dis Edis. unfold storage_model in H. bnd H rl Erl. bnd H ru Eru. destruct (cap_limits cx (st_cap s)) as [lo hi].
    bnd H lb Elb. bnd H ub Eub. bnd H cs Ecs. bnd H nd End. bnd H ceq Eceq. bnd H loss Eloss. bnd H ec Eec. bnd H ed Eed. bnd H f1 Ef1.
    bnd H f2 Ef2. bnd H iv_ Einv. bnd H f3 Ef3. bnd H bal Ebal. bnd H io Eio. bnd H ends Eends. fin H. cbn [so_shares].
    destruct (st_cap s) as [q|iv]; [apply Ok_inj in Eio; subst io; constructor|]. bnd Eio i Ei. apply Ok_inj in Eio. subst io.
    eapply invest_names; exact Ei.
  - bnd H k Ek. fin H. constructor.
Qed.
Lemma comp_names_ok : forall cx tr c g o oo_ pm so, comp_parts cx tr c g o oo_ pm so -> Forall share_name_ok (co_shares o).
Proof.
  intros cx tr c g o oo_ pm so P. rewrite (pa_shares _ _ _ _ _ _ _ _ P). rewrite !Forall_app. repeat split.
  - pose proof (pa_flows _ _ _ _ _ _ _ _ P) as F. induction F as [| f fo fl fos H _ IH]; [constructor|]. cbn [flat_map]. apply Forall_app.
    split; [eapply flow_names_ok; exact H|exact IH].
  - pose proof (pa_oo _ _ _ _ _ _ _ _ P) as H. destruct (cp_onoff c) as [p|]; cbn [optM] in H; [|fin H; constructor].
    bnd H o0 Eo. apply Ok_inj in H. subst oo_. eapply onoff_names; exact Eo.
  - eapply own_names_ok. apply (pa_own _ _ _ _ _ _ _ _ P).
Qed.
Lemma bus_names_ok : forall cx b i o bo, bus_model cx b i o = Ok bo -> Forall share_name_ok (snd bo).
Proof.
  intros cx b i o bo H. unfold bus_model in H. destruct (b_penalty b) as [p|].
  - bnd H a Ea. bnd H pen Epen. bnd H ei Eei. bnd H eo Eeo. bnd H c Ec. bnd H m Em. fin H. cbn [snd].
    constructor; [apply cat2_ok; sfx|]. constructor; [apply cat2_ok; sfx|constructor].
  - bnd H c Ec. bnd H m Em. fin H. constructor.
Qed.

Lemma Forall_filter : forall {A} (P : A -> Prop) p l, Forall P l -> Forall P (filter p l).
Proof. intros A P p l H. rewrite Forall_forall in *. intros x I. apply filter_In in I. apply H, I. Qed.

Lemma tidy_effect : forall cx tre shs e m, effect_model cx tre shs e = Ok m -> Forall share_name_ok shs ->
  tidy m /\ em_label m = e_label e.
Proof.
  intros cx tre shs e m H F. unfold effect_model in H. bnd H a Ea. bnd H b Eb. bnd H iv_ Ei. bnd H op Eo. bnd H al Eal.
  apply mk_em_spec in H. destruct H as [-> _]. split; [|reflexivity].
  destruct (tidy_alloc _ _ _ _ _ _ _ _ _ _ Ei (Forall_filter _ _ _ F)) as [T1 [L1 _]].
  destruct (tidy_alloc _ _ _ _ _ _ _ _ _ _ Eo (Forall_filter _ _ _ F)) as [T2 [L2 _]].
  assert (F3 : Forall share_name_ok [mkShare TPen "operation" (Some (sa_sum op)) (NS 1) false; mkShare TPen "invest" (Some (sa_sum iv_)) (NS 1) false])
    by (repeat constructor; cbv; discriminate).
  destruct (tidy_alloc _ _ _ _ _ _ _ _ _ _ Eal F3) as [T3 [L3 _]].
  constructor; cbn [map app].
  - rewrite L1, L2, L3. nodups.
  - intros s [<-|[<-|[<-|[]]]]; assumption.
Qed.

Lemma tidy_effects : forall cx tre shs em obj, effects_model cx tre shs = Ok (em, obj) -> Forall share_name_ok shs ->
  NoDup (map e_label (cx_effects cx)) -> ~ In "penalty" (map e_label (cx_effects cx)) -> tidy em.
Proof.
  intros cx tre shs em obj H F N P. unfold effects_model in H. bnd H bo Ebo. bnd H bi Ebi. bnd H ms Ems. bnd H pen Epen. bnd H oe Eoe.
  bnd H vo Evo. bnd H vi Evi. bnd H ob Eob. bnd H root Er. apply Ok_inj, pair_equal_spec in H. destruct H as [<- _].
  apply mk_em_spec in Er. destruct Er as [-> _].
  assert (A : Forall share_name_ok (List.concat bo ++ List.concat bi ++ shs)).
  { rewrite !Forall_app. repeat split; [| |exact F].
    - apply mapM_Forall2 in Ebo. clear -Ebo. induction Ebo as [| a b la lb H _ IH]; [constructor|]. cbn [List.concat]. apply Forall_app. split; [|exact IH].
      unfold between_op in H. apply mapM_Forall2 in H. clear -H. induction H as [| x y lx ly H _ IH]; constructor; [|exact IH].
      bnd H u Eu. bnd H v Ev. bnd H d Ed. fin H. apply cat2_ok. sfx.
    - apply mapM_Forall2 in Ebi. clear -Ebi. induction Ebi as [| a b la lb H _ IH]; [constructor|]. cbn [List.concat]. apply Forall_app. split; [|exact IH].
      unfold between_inv in H. apply mapM_Forall2 in H. clear -H. induction H as [| x y lx ly H _ IH]; constructor; [|exact IH].
      bnd H u Eu. bnd H v Ev. fin H. apply cat2_ok. sfx. }
  assert (M : Forall2 (fun e m => tidy m /\ em_label m = e_label e) (cx_effects cx) ms).
  { apply mapM_Forall2 in Ems. eapply Forall2_impl_; [|exact Ems]. intros e m H. eapply tidy_effect; [exact H|exact A]. }
  destruct (tidy_alloc _ _ _ _ _ _ _ _ _ _ Epen (Forall_filter _ _ _ A)) as [T [L _]].
  constructor; cbn [map app].
  - rewrite map_app. cbn [map]. rewrite L. replace (map em_label ms) with (map e_label (cx_effects cx)).
    + apply NoDup_app_intro; [exact N|repeat constructor; intros []|]. intros x Hx [<-|[]]. auto.
    + clear -M. induction M as [| a b l m [_ H] _ IH]; [reflexivity|]. cbn [map]. rewrite H, IH. reflexivity.
  - intros s H. apply in_app_or in H. destruct H as [H|[<-|[]]]; [|exact T]. destruct (Forall2_In_r _ _ _ _ M H) as [e [_ [X _]]]. exact X.
Qed.

Lemma bus_labels_nodup : forall ord fs, NoDup (map b_lab (buses ord fs)).
Proof.
  intros ord fs. unfold buses.
  set (step := fun (d : list (string * bus)) i => match bus_of_flow fs i with Some b => dict_set (b_lab b) b d | None => d end).
  assert (G : forall l d, NoDup (map fst d) -> (forall k b, In (k, b) d -> k = b_lab b) ->
     NoDup (map fst (fold_left step l d)) /\ (forall k b, In (k, b) (fold_left step l d) -> k = b_lab b)).
  { induction l as [|i l IH]; intros d N K; simpl; auto. apply IH.
    - unfold step. destruct (bus_of_flow fs i); auto. apply dict_set_nodup; auto.
    - intros k b Hb. unfold step in Hb. destruct (bus_of_flow fs i) as [b0|]; auto. apply dict_set_In in Hb. destruct Hb as [[-> ->]|Hb]; auto. }
  destruct (G (ord (nodup Nat.eq_dec (map (fun cf => f_id (snd cf)) (all_flows fs)))) [] ltac:(constructor) ltac:(simpl; tauto)) as [G1 G2].
  fold step. revert G1 G2. generalize (fold_left step (ord (nodup Nat.eq_dec (map (fun cf => f_id (snd cf)) (all_flows fs)))) []).
  clear. intros l N K. rewrite map_map. erewrite map_ext_in; [exact N|]. intros [k b] H. cbn. symmetry. auto.
Qed.

(** ** Flow labels of an accepted system are distinct: their flow rates would otherwise be two variables of one name. *)
Lemma NoDup_app_disj : forall {A} (l m : list A) x, NoDup (l ++ m) -> In x l -> In x m -> False.
Proof.
  induction l as [|c r IH]; intros m x N H I; [destruct H|]. cbn [app] in N. inversion N as [|? ? M1 M2]; subst. destruct H as [->|H].
  - apply M1, in_or_app. right. exact I.
  - exact (IH _ _ M2 H I).
Qed.
Lemma flat_map_part : forall {A B} (g h : A -> list B) l, NoDup (flat_map h l) ->
  (forall a, In a l -> (NoDup (h a) -> NoDup (g a)) /\ incl (g a) (h a)) -> NoDup (flat_map g l).
Proof.
  induction l as [|a l IH]; intros N H; [constructor|]. cbn [flat_map] in *. destruct (NoDup_app_parts _ _ N) as [N1 N2].
  destruct (H a (or_introl eq_refl)) as [G1 G2]. apply NoDup_app_intro; [apply G1; exact N1|apply IH; [exact N2|intros; apply H; right; assumption]|].
  intros b Hb Hb'. apply in_flat_map in Hb'. destruct Hb' as [a' [Ha' Hb']].
  apply (NoDup_app_disj _ _ b N); [apply G2; exact Hb|]. apply in_flat_map. exists a'. split; [exact Ha'|apply (H a' (or_intror Ha')); exact Hb'].
Qed.
Lemma flat_map_flat_map : forall {A B C} (h : B -> list C) (k : A -> list B) l, flat_map h (flat_map k l) = flat_map (fun a => flat_map h (k a)) l.
Proof. induction l as [|a l IH]; [reflexivity|]. cbn [flat_map]. rewrite flat_map_app, IH. reflexivity. Qed.
Lemma flat_map_map_ : forall {A B C} (h : B -> list C) (k : A -> B) l, flat_map h (map k l) = flat_map (fun a => h (k a)) l.
Proof. induction l as [|a l IH]; [reflexivity|]. cbn [flat_map map]. rewrite IH. reflexivity. Qed.
Lemma map_as_flat_map : forall {A B} (g : A -> B) l, map g l = flat_map (fun a => [g a]) l.
Proof. induction l as [|a l IH]; [reflexivity|]. cbn [flat_map map app]. rewrite IH. reflexivity. Qed.

Definition all_labels (m : emodel) : list string := flat_map (fun m => map v_label (em_vars m)) (flat m).
Lemma all_labels_own : forall m v, In v (em_vars m) -> In (v_label v) (all_labels m).
Proof. intros m v H. apply in_flat_map. exists m. split; [apply flat_self|apply in_map; exact H]. Qed.
Lemma all_labels_eq : forall f l vs cs subs, all_labels (EM f l vs cs subs) = map v_label vs ++ flat_map all_labels subs.
Proof. intros. unfold all_labels at 1. cbn [flat flat_map em_vars em_subs]. rewrite flat_map_flat_map. reflexivity. Qed.
Lemma roots_labels : forall ds vs, system_variables ds = Ok vs -> NoDup (flat_map all_labels ds).
Proof.
  intros ds vs E. unfold system_variables in E. bnd E u G. unfold guard in G. destruct (nodup_str _) eqn:ND in G; [|discriminate].
  apply nodup_str_NoDup in ND. unfold all_labels. rewrite <- flat_map_flat_map, <- map_flat_map.
  eapply Permutation_NoDup; [|exact ND]. apply Permutation_map, Permutation_flat_map_l, system_sub_models_perm.
Qed.

Lemma rates_distinct : forall cf ord fs idx pm cx cos bos em obj, sys_parts cf ord fs idx pm cx cos bos em obj ->
  NoDup (map (fun fo => v_label (fo_rate fo)) (flat_map co_flows cos)).
Proof.
  intros cf ord fs idx pm cx cos bos em obj P. pose proof (sy_translate _ _ _ _ _ _ _ _ _ _ P) as T. unfold system_translate in T.
  bnd T vs Ev. apply roots_labels in Ev. clear T. unfold bs_roots in Ev. cbn [flat_map bs_effects bs_comps bs_buses] in Ev.
  apply NoDup_app_parts in Ev. destruct Ev as [_ N]. rewrite flat_map_app in N. apply NoDup_app_parts in N. destruct N as [N _].
  rewrite flat_map_map_ in N. rewrite map_flat_map. eapply flat_map_part; [exact N|]. intros o Ho. cbv beta.
  destruct (Forall2_In_r _ _ _ _ (sy_comps _ _ _ _ _ _ _ _ _ _ P) Ho) as [c [_ [oo_ [pm_ [so Q]]]]].
  rewrite (pa_tree _ _ _ _ _ _ _ _ Q), all_labels_eq, !flat_map_app, flat_map_map_, <- !app_assoc.
  assert (S : forall fo, In fo (co_flows o) -> In (v_label (fo_rate fo)) (all_labels (fo_tree fo))).
  { intros fo H. apply all_labels_own. destruct (Forall2_In_r _ _ _ _ (pa_flows _ _ _ _ _ _ _ _ Q) H) as [f [_ F]].
    apply (fn_rate _ _ (tidy_flow _ _ _ _ _ F)). }
  rewrite (map_as_flat_map (fun fo => v_label (fo_rate fo))). split.
  - intros N'. apply NoDup_app_parts in N'. destruct N' as [_ N']. apply NoDup_app_parts in N'. destruct N' as [N' _].
    eapply flat_map_part; [exact N'|]. intros fo Hfo. split; [intros _; constructor; [intros []|constructor]|]. intros y [<-|[]]. apply S. exact Hfo.
  - intros y H. apply in_flat_map in H. destruct H as [fo [H [<-|[]]]]. apply in_or_app. right. apply in_or_app. left.
    apply in_flat_map. exists fo. split; [exact H|apply S; exact H].
Qed.
