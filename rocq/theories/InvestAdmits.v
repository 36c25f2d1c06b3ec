(** Sufficiency of the rows of investments and flows. *)
From Coq Require Import String.
From Verif Require Import Base BaseFacts MathModel Spec MathFacts MathTotal Structure StructureFacts Params Features Elements System SysSpec
  AdmitSpec CtxFacts ReadTools InvestFacts OnOffFacts OnOffLaws OnOffAdmits FlowFacts NavFacts FlowAdmits AdmitFacts.

Lemma var_sat_intro_fixed : forall x v f, v_translates v -> v_fixed v = Some f ->
  (forall i, (i < v_len v)%nat -> x (v_label v) i == at_ f i) -> var_sat x v.
Proof.
  intros x v f [p T] Fx E. exists p. split; auto. destruct (translate_variable_spec _ _ T) as [Lb En].
  intros i e He. rewrite En in He. rewrite nth_error_map in He. destruct (nth_error (seq 0 (v_len v)) i) as [j|] eqn:J; [|discriminate].
  assert (Hi : (i < v_len v)%nat) by (rewrite <- (seq_length (v_len v) 0); apply nth_error_Some; congruence).
  rewrite (nth_error_nth' _ 0%nat) in J by (rewrite seq_length; auto). rewrite seq_nth in J by auto. injection J as <-.
  injection He as <-. unfold entry_of, entry_ok. rewrite Fx. simpl. rewrite Lb. auto.
Qed.

Lemma bounds_admits : forall x cx full iv s dv relmin relmax profile on cs n,
  v_label s = vlabel full "size" -> v_len s = 1%nat -> v_len dv = n -> n <> 0%nat ->
  (profile = None -> (nlen relmin = 1%nat \/ nlen relmin = n) /\ (nlen relmax = 1%nat \/ nlen relmax = n)) ->
  (forall p, profile = Some p -> nlen p = 1%nat \/ nlen p = n) -> (forall o, on = Some o -> v_len o = n) ->
  invest_bounds cx full iv s dv relmin relmax profile on = Ok cs -> Forall c_translates cs ->
  invest_limit x (iv_maximum cx iv) (vlabel full "size") dv relmin relmax profile on -> Forall (con_sat x) cs.
Proof.
  intros x cx full iv s dv relmin relmax profile on cs n Ls Ns Nd NZ LR LP Lo H C L. unfold invest_bounds in H.
  assert (CL : forall v f, (v_len v = n \/ v_len v = 1%nat) -> (nlen f = 1%nat \/ nlen f = n) ->
            call_len (AddS v f None false) = 1%nat \/ call_len (AddS v f None false) = n).
  { intros v f A B. cbn [call_len]. destruct (Nat.eqb (nlen f) 1) eqn:E; [tauto|]. apply Nat.eqb_neq in E. lia. }
  destruct profile as [p|].
  - specialize (LP p eq_refl). bnd H c E. fin H. inversion C as [|? ? C1 _]; subst.
    constructor; [|constructor]. refine (con_sat_rows _ _ _ _ _ _ (v_len dv) E C1 _ _ NZ _).
    + repeat constructor.
    + repeat (apply Forall_cons || apply Forall_nil); apply CL; rewrite ?nmap_len; simpl; auto.
    + intros i Hi. specialize (L i Hi). cbn [map Qsum fold_right call_lhs call_rhs rel]. rewrite pick_all by auto.
      rewrite pick_scalar by auto. rewrite nmap_at by (apply (fits_len (v_len dv)); auto). rewrite at_NS, Ls. cbv beta iota in L. lra.
  - destruct (LR eq_refl) as [LR1 LR2]. bnd H c1 E1. bnd H c2 E2. fin H.
    inversion C as [|? ? C1 C']; subst. inversion C' as [|? ? C2 _]; subst.
    assert (F1 : fits (v_len dv) relmin) by (apply fits_len; auto). assert (F2 : fits (v_len dv) relmax) by (apply fits_len; auto).
    constructor; [|constructor; [|constructor]].
    + refine (con_sat_rows _ _ _ _ _ _ (v_len dv) E1 C1 _ _ NZ _).
      * repeat constructor.
      * repeat (apply Forall_cons || apply Forall_nil); apply CL; rewrite ?nmap_len; simpl; auto.
      * intros i Hi. destruct (L i Hi) as [L1 _]. cbn [map Qsum fold_right call_lhs call_rhs rel]. rewrite pick_all by auto.
        rewrite pick_scalar by auto. rewrite nmap_at by (apply F2; auto). rewrite at_NS, Ls. lra.
    + destruct on as [o|].
      * specialize (Lo o eq_refl). bnd E2 mega Em.
        assert (Lm : nlen mega = 1%nat \/ nlen mega = v_len dv).
        { destruct relmax; simpl in Em; apply Ok_inj in Em; subst mega; simpl in *; rewrite ?map_length; auto. }
        assert (Fm : fits (v_len dv) mega) by (apply fits_len; auto).
        refine (con_sat_rows _ _ _ _ _ _ (v_len dv) E2 C2 _ _ NZ _).
        -- repeat constructor.
        -- repeat (apply Forall_cons || apply Forall_nil); try apply CL; rewrite ?nmap_len; simpl; auto.
        -- intros i Hi. destruct (L i Hi) as [_ L2]. cbn [map Qsum fold_right call_lhs call_rhs rel]. rewrite !pick_all by (auto; lia).
           rewrite pick_scalar by auto. rewrite at_NS, Ls. rewrite (bcast2_at _ _ _ _ _ Em (Fm i Hi)). rewrite at_NS. lra.
      * refine (con_sat_rows _ _ _ _ _ _ (v_len dv) E2 C2 _ _ NZ _).
        -- repeat constructor.
        -- repeat (apply Forall_cons || apply Forall_nil); apply CL; rewrite ?nmap_len; simpl; auto.
        -- intros i Hi. destruct (L i Hi) as [_ L2]. cbn [map Qsum fold_right call_lhs call_rhs rel]. rewrite pick_all by auto.
           rewrite pick_scalar by auto. rewrite at_NS, Ls. lra.
Qed.

Theorem invest_admits : forall x cx tr elem iv dv relmin relmax profile on io n,
  v_len dv = n -> n <> 0%nat ->
  (profile = None -> (nlen relmin = 1%nat \/ nlen relmin = n) /\ (nlen relmax = 1%nat \/ nlen relmax = n)) ->
  (forall p, profile = Some p -> nlen p = 1%nat \/ nlen p = n) -> (forall o, on = Some o -> v_len o = n) ->
  invest_model cx tr elem iv dv relmin relmax profile on = Ok io -> em_translates (io_tree io) ->
  let q := x (inv elem "size") 0%nat in let d := x (inv elem "isInvested") 0%nat in
  (if (iv_is_fixed iv && negb (iv_optional iv))%bool then q == or_num (iv_fixed iv) 0
   else (if iv_optional iv then 0 else iv_minimum iv) <= q /\ q <= iv_maximum cx iv) ->
  (iv_optional iv = true ->
        (d == 0 \/ d == 1)
        /\ if iv_is_fixed iv then q == d * or_num (iv_fixed iv) 0
           else q <= d * iv_maximum cx iv /\ d * Qmax_ (cx_eps cx) (iv_minimum iv) <= q) ->
  invest_limit x (iv_maximum cx iv) (inv elem "size") dv relmin relmax profile on ->
  Forall (em_sat x) (em_subs (io_tree io)) -> em_sat x (io_tree io).
Proof.
  intros x cx tr elem iv dv relmin relmax profile on io n Nd NZ LR LP Lo H T q d S O L SS.
  apply invest_model_parts in H. destruct H as [size [b [cs1 [cs2 [subs [H1 [H2 [H3 [H4 [H5 [H6 H7]]]]]]]]]]].
  rewrite H5 in *. simpl in SS.
  pose proof (em_translates_vars _ _ _ _ _ T) as V. pose proof (em_translates_cons _ _ _ _ _ T) as C.
  apply Forall_app in C. destruct C as [C1 C2]. inversion V as [|? ? V1 V2]; subst.
  destruct (size_spec _ _ _ _ H1) as [Ls [Ns _]].
  change (vlabel (model_full elem (Some "Investment")) "size") with (inv elem "size") in *.
  assert (VS : var_sat x (io_size io)).
  { unfold invest_size in H1. destruct (_ && _)%bool eqn:X; apply create_variable_spec in H1.
    - eapply var_sat_intro_fixed; [auto|rewrite H1; reflexivity|]. intros i Hi. rewrite Ls. rewrite Ns in Hi. assert (i = 0%nat) by lia. subst i.
      rewrite at_NS. exact S.
    - apply var_sat_intro; auto; rewrite H1; try discriminate; try reflexivity; cbn [v_label v_len v_lb v_ub]; intros l i El Hi; injection El as <-;
        assert (i = 0%nat) by lia; subst i; rewrite at_NS; apply S. }
  apply em_sat_intro; auto.
  - constructor; auto. unfold invest_optional in H2. destruct (iv_optional iv); [|apply Ok_inj in H2; apply pair_equal_spec in H2; destruct H2 as [<- _]; constructor].
    bnd H2 v Ev.
    assert (Eb : io_invested io = Some v).
    { destruct (iv_is_fixed iv); [bnd H2 c Ec|bnd H2 c Ec; bnd H2 c' Ec']; apply Ok_inj in H2; apply pair_equal_spec in H2; destruct H2; auto. }
    rewrite Eb in *. inversion V2; subst. apply create_variable_spec in Ev. constructor; [|constructor].
    destruct (O eq_refl) as [Bi _]. apply var_sat_intro; auto; rewrite Ev; try discriminate; try reflexivity. intros _ i Hi. simpl in Hi.
    assert (i = 0%nat) by lia. subst i. exact Bi.
  - apply Forall_app. split.
    + unfold invest_optional in H2. destruct (iv_optional iv); [|apply Ok_inj in H2; apply pair_equal_spec in H2; destruct H2 as [_ <-]; constructor].
      bnd H2 v Ev. apply create_variable_spec in Ev. destruct (O eq_refl) as [_ Z].
      assert (Lv : v_len v = 1%nat) by (subst v; auto). assert (Nv : v_label v = inv elem "isInvested") by (subst v; auto).
      destruct (iv_is_fixed iv).
      * bnd H2 c Ec. apply Ok_inj in H2; apply pair_equal_spec in H2; destruct H2 as [_ <-]. inversion C1 as [|? ? T1 _]; subst.
        constructor; [|constructor]. rowi Ec T1 1%nat i. rewrite Ls. change (vlabel (model_full elem (Some "Investment")) "isInvested") with (inv elem "isInvested"). assert (i = 0%nat) by lia. subst i. fold q d. lra.
      * bnd H2 c Ec. bnd H2 c' Ec'. apply Ok_inj in H2; apply pair_equal_spec in H2; destruct H2 as [_ <-].
        inversion C1 as [|? ? T1 C1']; subst. inversion C1' as [|? ? T2 _]; subst.
        constructor; [|constructor; [|constructor]].
        -- rowi Ec T1 1%nat i. rewrite Ls. change (vlabel (model_full elem (Some "Investment")) "isInvested") with (inv elem "isInvested"). assert (i = 0%nat) by lia. subst i. fold q d. lra.
        -- rowi Ec' T2 1%nat i. rewrite Ls. change (vlabel (model_full elem (Some "Investment")) "isInvested") with (inv elem "isInvested"). assert (i = 0%nat) by lia. subst i. fold q d. lra.
    + eapply bounds_admits; [exact Ls|exact Ns|reflexivity|exact NZ|exact LR|exact LP|exact Lo|exact H3|exact C2|exact L].
Qed.

(** The rows of a flow apart from its on/off part. *)
Record flow_fits (x : asg) (cx : ctx) (full : string) (f : flow) : Prop := {
  ft_plain : f_onoff f = None -> forall t, (t < cx_n cx)%nat ->
      rel_lo (cx_idx cx) f t * lo_size cx (f_size f) <= x (vlabel full "flow_rate") t
      /\ x (vlabel full "flow_rate") t <= rel_hi (cx_idx cx) f t * hi_size cx (f_size f);
  ft_nonneg : forall p, f_onoff f = Some p -> forall t, (t < cx_n cx)%nat -> 0 <= x (vlabel full "flow_rate") t;
  ft_inv : forall iv, f_size f = SzInv iv ->
      let q := x (inv full "size") 0%nat in let d := x (inv full "isInvested") 0%nat in
      (if (iv_is_fixed iv && negb (iv_optional iv))%bool then q == or_num (iv_fixed iv) 0
       else (if iv_optional iv then 0 else iv_minimum iv) <= q /\ q <= iv_maximum cx iv)
      /\ (iv_optional iv = true ->
            (d == 0 \/ d == 1)
            /\ if iv_is_fixed iv then q == d * or_num (iv_fixed iv) 0
               else q <= d * iv_maximum cx iv /\ d * Qmax_ (cx_eps cx) (iv_minimum iv) <= q)
      /\ forall t, (t < cx_n cx)%nat ->
           match f_profile f with
           | Some p => x (vlabel full "flow_rate") t == value (cx_idx cx) p t * q
           | None =>
               x (vlabel full "flow_rate") t <= value (cx_idx cx) (f_relmax f) t * q
               /\ match f_onoff f with
                  | None => value (cx_idx cx) (f_relmin f) t * q <= x (vlabel full "flow_rate") t
                  | Some _ => value (cx_idx cx) (f_relmin f) t * q
                              - value (cx_idx cx) (f_relmax f) t * iv_maximum cx iv * (1 - x (oo full "on") t)
                              <= x (vlabel full "flow_rate") t
                  end
           end;
  ft_sum : x (vlabel full "sumFlowHours") 0%nat == sumn (cx_n cx) (fun t => dt cx t * x (vlabel full "flow_rate") t);
  ft_sum_min : forall q, f_fh_min f = Some q -> q <= x (vlabel full "sumFlowHours") 0%nat;
  ft_sum_max : forall q, f_fh_max f = Some q -> x (vlabel full "sumFlowHours") 0%nat <= q;
  ft_lf_max : forall q, f_lf_max f = Some q ->
      x (vlabel full "sumFlowHours") 0%nat <= used_size x cx full f * (cx_total cx * q);
  ft_lf_min : forall q, f_lf_min f = Some q ->
      used_size x cx full f * (cx_total cx * q) <= x (vlabel full "sumFlowHours") 0%nat
}.

(** The parts of a flow's model. *)
Record flow_parts (cx : ctx) (full : string) (f : flow) (o : flow_out) (a b l u : numeric) (rate sfh : variable)
       (oo_ : option oo_out) (io : option inv_out) (csum : constraint) (clf : list constraint) : Prop := {
  fp_rel : flow_rel_bounds cx true f = Ok (a, b);
  fp_abs : flow_abs_bounds cx true f = Ok (l, u);
  fp_rate : create_variable full "flow_rate" (cx_n cx) false None
            (Some (match f_onoff f with None => l | Some _ => NS 0 end))
            (match f_onoff f with None => Some u | Some _ => None end) (f_prev f) = Ok rate;
  fp_oo : optM (fun p => onoff_model cx true full p [rate] [(l, u)]) (f_onoff f) = Ok oo_;
  fp_io : match f_size f with
        | SzNum _ => io = None
        | SzInv iv => exists pr i, optM (act cx true) (f_profile f) = Ok pr
             /\ invest_model cx true full iv rate a b pr (option_map ot_on oo_) = Ok i /\ io = Some i
        end;
  fp_sfh : create_variable full "sumFlowHours" 1 false None (opt_num (f_fh_min f)) (opt_num (f_fh_max f)) None = Ok sfh;
  fp_csum : create_equation full "sumFlowHours" KEq [AddS rate (NV (cx_dt cx)) None true; AddS sfh (NS (-1)) None false] = Ok csum;
  fp_clf : load_factor_cons cx full f sfh (option_map io_size io) = Ok clf;
  fp_tree : fo_tree o = EM full (f_lab f) [rate; sfh] (csum :: clf)
         (match oo_ with Some o => [ot_tree o] | None => [] end ++ match io with Some i => [io_tree i] | None => [] end)
}.
Lemma flow_has_parts : forall cx comp f o, flow_model cx true comp f = Ok o ->
  exists a b l u rate sfh oo_ io csum clf, flow_parts cx (flow_full comp (f_lab f)) f o a b l u rate sfh oo_ io csum clf.
Proof.
  intros cx comp f o H. unfold flow_model in H.
  bnd H rl Erl. bnd H ab Eab. bnd H rate Erate. bnd H oo_ Eoo. bnd H io Eio. bnd H sfh Esfh. bnd H csum Ecsum.
  bnd H clf Eclf. bnd H s Es. bnd H m Em. fin H. destruct rl as [a b], ab as [l u].
  apply mk_em_spec in Em. destruct Em as [-> _].
  exists a, b, l, u, rate, sfh, oo_, io, csum, clf. constructor; auto.
  destruct (f_size f); [fin Eio; auto|]. bnd Eio pr Epr. bnd Eio io1 Ei. apply Ok_inj in Eio. subst io. eauto.
Qed.

(** Profiles and relative limits with a value for every step. *)
Definition flow_data (cx : ctx) (f : flow) : Prop :=
  forall p m, match f_profile f with Some q => p = q | None => p = f_relmin f \/ p = f_relmax f end ->
    act cx true p = Ok m -> nlen m = 1%nat \/ nlen m = cx_n cx.

Lemma rel_lens : forall cx f a b, flow_data cx f -> flow_rel_bounds cx true f = Ok (a, b) ->
  (nlen a = 1%nat \/ nlen a = cx_n cx) /\ (nlen b = 1%nat \/ nlen b = cx_n cx).
Proof.
  intros cx f a b D H. unfold flow_data, flow_rel_bounds in *. destruct (f_profile f) as [p|].
  - bnd H q Eq_. apply Ok_inj in H. apply pair_equal_spec in H. destruct H as [<- <-]. split; apply (D p q); auto.
  - bnd H q E1. bnd H r E2. apply Ok_inj in H. apply pair_equal_spec in H. destruct H as [<- <-].
    split; [apply (D (f_relmin f) q)|apply (D (f_relmax f) r)]; auto.
Qed.

Theorem flow_admits : forall x cx full f o a b l u rate sfh oo_ io csum clf, ctx_ok cx ->
  flow_parts cx full f o a b l u rate sfh oo_ io csum clf -> em_translates (fo_tree o) -> flow_data cx f ->
  flow_fits x cx full f -> (forall k, oo_ = Some k -> em_sat x (ot_tree k)) ->
  (forall i, io = Some i -> Forall (em_sat x) (em_subs (io_tree i))) -> em_sat x (fo_tree o).
Proof.
  intros x cx full f o a b l u rate sfh oo_ io csum clf CX P T D R SO SI.
  destruct P as [Erl Eab Erate Eoo Eio Esfh Ecsum Eclf ET]. rewrite ET in *.
  pose proof (em_translates_vars _ _ _ _ _ T) as V. pose proof (em_translates_cons _ _ _ _ _ T) as C.
  inversion V as [|? ? Vr V']; subst. inversion V' as [|? ? Vs _]; subst. clear V V'.
  inversion C as [|? ? Sc Clf]; subst. clear C.
  destruct (flow_rel_spec _ _ _ _ _ CX Erl) as [_ [Ga [Gb [A B]]]].
  destruct (flow_abs_spec _ _ _ _ _ _ _ CX Erl Eab) as [Gl [Gu [Fl [Fu [L U]]]]].
  destruct (rel_lens _ _ _ _ D Erl) as [La Lb].
  assert (Fa : fits (cx_n cx) a) by (apply fits_len; auto). assert (Fb : fits (cx_n cx) b) by (apply fits_len; auto).
  apply create_variable_spec in Erate. apply create_variable_spec in Esfh.
  pose proof (ok_pos _ CX) as Np.
  assert (Lr : v_len rate = cx_n cx) by (subst rate; auto). assert (Nr : v_label rate = vlabel full "flow_rate") by (subst rate; auto).
  assert (Ls : v_len sfh = 1%nat) by (subst sfh; auto). assert (Ns : v_label sfh = vlabel full "sumFlowHours") by (subst sfh; auto).
  assert (Lo : forall t, (t < cx_n cx)%nat -> at_ l t == rel_lo (cx_idx cx) f t * lo_size cx (f_size f)).
  { intros t Ht. rewrite L by (apply (proj2 (Fl _) Fa); auto). rewrite A; auto. reflexivity. }
  assert (Hi : forall t, (t < cx_n cx)%nat -> at_ u t == rel_hi (cx_idx cx) f t * hi_size cx (f_size f)).
  { intros t Ht. rewrite U by (apply (proj2 (Fu _) Fb); auto). rewrite B; auto. reflexivity. }
  assert (LF : forall lab (k : Q) sgn lf c, (sgn == 1 \/ sgn == -1) ->
      create_equation full lab KIneq
        [AddS sfh (NS sgn) None false;
         match option_map io_size io with
         | Some s => AddS s (NS (- (sgn * (cx_total cx * lf)))) None false
         | None => AddC (NS (sgn * (match f_size f with SzNum q => flow_size cx q | SzInv _ => 0 end * (cx_total cx * lf)))) end] = Ok c ->
      c_translates c -> sgn * x (vlabel full "sumFlowHours") 0%nat <= sgn * (used_size x cx full f * (cx_total cx * lf)) -> con_sat x c).
  { intros lab k sgn lf c Hs Ec Tc Hx. unfold used_size in Hx. destruct (f_size f) as [z|iv].
    - subst io. simpl in Ec. rowi Ec Tc 1%nat i. rewrite Ns. assert (i = 0%nat) by lia. subst i. lra.
    - destruct Eio as [pr [i [_ [Ei ->]]]]. apply invest_model_parts in Ei.
      destruct Ei as [size [b0 [cs1 [cs2 [subs [H1 [_ [_ [_ [_ [H6 _]]]]]]]]]]].
      destruct (size_spec _ _ _ _ H1) as [Li [Ni _]]. simpl in Ec. rewrite H6 in Ec. rowi Ec Tc 1%nat j. rewrite Ns, Li.
      assert (j = 0%nat) by lia. subst j. change (vlabel (model_full full (Some "Investment")) "size") with (inv full "size"). lra. }
  apply em_sat_intro.
  - constructor; [|constructor; [|constructor]].
    + destruct (f_onoff f) as [p|] eqn:E.
      * apply var_sat_intro; auto; rewrite Erate; try discriminate; try reflexivity. cbn [v_lb v_len v_label]. intros q i Hq Hi'. injection Hq as <-. rewrite at_NS.
        apply (ft_nonneg _ _ _ _ R p E i Hi').
      * apply var_sat_intro; auto; rewrite Erate; try discriminate; try reflexivity; cbn [v_lb v_ub v_len v_label]; intros q i Hq Hi'; injection Hq as <-.
        -- rewrite Lo by auto. apply (ft_plain _ _ _ _ R E i Hi').
        -- rewrite Hi by auto. apply (ft_plain _ _ _ _ R E i Hi').
    + apply var_sat_intro; auto; rewrite Esfh; try discriminate; try reflexivity; cbn [v_lb v_ub v_len v_label]; unfold opt_num; intros q i Hq Hi';
        assert (i = 0%nat) by lia; subst i.
      * destruct (f_fh_min f) as [z|] eqn:E; [|discriminate]. injection Hq as <-. rewrite at_NS. apply (ft_sum_min _ _ _ _ R z E).
      * destruct (f_fh_max f) as [z|] eqn:E; [|discriminate]. injection Hq as <-. rewrite at_NS. apply (ft_sum_max _ _ _ _ R z E).
  - constructor.
    + rowi Ecsum Sc 1%nat i. rewrite Ns, Nr, Lr. rewrite sumn_dt by auto. pose proof (ft_sum _ _ _ _ R). assert (i = 0%nat) by lia. subst i. lra.
    + clear Erate Esfh. unfold load_factor_cons in Eclf. bnd Eclf k1 Ek1. bnd Eclf k2 Ek2. fin Eclf. apply Forall_app in Clf.
      destruct Clf as [T1 T2]. apply Forall_app. split.
      * destruct (f_lf_max f) as [q|] eqn:E; [|fin Ek1; constructor]. bnd Ek1 c1 Ec1. fin Ek1. inversion T1; subst.
        constructor; [|constructor]. eapply (LF "load_factor_max" 0 1 q); auto; [left; reflexivity| |pose proof (ft_lf_max _ _ _ _ R q E); lra].
        revert Ec1. destruct (option_map io_size io).
        -- intros Ec1.
           assert (X : - (1 * (cx_total cx * q)) = - (cx_total cx * q) ).
           { destruct (cx_total cx * q) as [n0 d0]. unfold Qmult, Qopp; simpl. destruct n0; auto. }
           rewrite X. exact Ec1.
        -- intros Ec1. set (z := match f_size f with SzNum q0 => _ | SzInv _ => 0 end * (cx_total cx * q)) in *.
           assert (X : 1 * z = z) by (destruct z as [n0 d0]; unfold Qmult; simpl; destruct n0; auto). rewrite X. exact Ec1.
      * destruct (f_lf_min f) as [q|] eqn:E; [|fin Ek2; constructor]. bnd Ek2 c1 Ec1. fin Ek2. inversion T2; subst.
        constructor; [|constructor]. pose proof (ft_lf_min _ _ _ _ R q E) as Z. clear LF. unfold used_size in Z. destruct (f_size f) as [z|iv].
        -- subst io. simpl in Ec1. match goal with K : c_translates c1 |- _ => rowi Ec1 K 1%nat i end. rewrite Ns. assert (i = 0%nat) by lia. subst i. lra.
        -- destruct Eio as [pr [i [_ [Ei ->]]]]. apply invest_model_parts in Ei.
           destruct Ei as [size [b0 [cs1 [cs2 [subs [H1' [_ [_ [_ [_ [H6 _]]]]]]]]]]].
           destruct (size_spec _ _ _ _ H1') as [Li [Ni _]]. simpl in Ec1. rewrite H6 in Ec1.
           match goal with K : c_translates c1 |- _ => rowi Ec1 K 1%nat j end. rewrite Ns, Li.
           assert (j = 0%nat) by lia. subst j. change (vlabel (model_full full (Some "Investment")) "size") with (inv full "size"). lra.
  - apply Forall_app. split.
    + destruct oo_ as [k|]; constructor; auto.
    + destruct io as [i|]; constructor; auto. destruct (f_size f) as [q|iv] eqn:Sz; [discriminate|].
      destruct Eio as [pr [i' [Epr [Ei Ei']]]]. injection Ei' as <-.
      assert (Ti : em_translates (io_tree i)).
      { eapply em_translates_sub; [exact T|]. apply in_or_app. right. left. reflexivity. }
      destruct (ft_inv _ _ _ _ R iv Sz) as [I1 [I2 I3]].
      assert (Lon : forall o', option_map ot_on oo_ = Some o' -> v_len o' = cx_n cx /\ v_label o' = oo full "on" /\ f_onoff f <> None).
      { intros o' Eo. destruct (f_onoff f) as [p|]; simpl in Eoo; [|fin Eoo; discriminate].
        bnd Eoo k Ek. fin Eoo. simpl in Eo. injection Eo as <-. destruct (onoff_on _ _ _ _ _ _ _ Ek) as [? [? ?]]. repeat split; auto; discriminate. }
      assert (Prn : forall p, pr = Some p -> exists pp, f_profile f = Some pp /\ act cx true pp = Ok p).
      { intros p ->. destruct (f_profile f) as [pp|]; simpl in Epr; [|discriminate]. bnd Epr y Ey. apply Ok_inj in Epr. injection Epr as ->. eauto. }
      refine (invest_admits x cx true full iv rate a b pr _ i (cx_n cx) Lr Np _ _ _ Ei Ti I1 I2 _ (SI _ eq_refl)).
      * auto.
      * intros p Hp. destruct (Prn p Hp) as [pp [Ep Ey]]. apply (D pp p); auto. rewrite Ep. auto.
      * intros o' Ho. apply Lon; auto.
      * intros t Ht. rewrite Lr in Ht. specialize (I3 t Ht). rewrite Nr. unfold rel_lo, rel_hi in A, B.
        specialize (A t Ht (Fa t Ht)). specialize (B t Ht (Fb t Ht)).
        destruct (f_profile f) as [pp|] eqn:Ep; simpl in Epr.
        -- bnd Epr y Ey. apply Ok_inj in Epr. subst pr. destruct (act_spec _ _ _ _ CX Ey) as [_ [_ Ay]].
           rewrite (Ay t Ht); auto. apply (fits_len (cx_n cx)); auto. apply (D pp y); auto. rewrite Ep; auto.
        -- apply Ok_inj in Epr. subst pr. destruct I3 as [J1 J2]. split; [rewrite B; exact J1|].
           destruct (option_map ot_on oo_) as [o'|] eqn:Eo.
           ++ destruct (Lon o' eq_refl) as [_ [No NN]]. rewrite No. rewrite A, B. destruct (f_onoff f); [exact J2|congruence].
           ++ destruct (f_onoff f) as [p|]; [|rewrite A; exact J2]. simpl in Eoo. bnd Eoo k Ek. fin Eoo. discriminate.
Qed.
