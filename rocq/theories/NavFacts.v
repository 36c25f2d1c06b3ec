(** From the program handed to the solver back to the parts of the flow system. *)
From Verif Require Import Base BaseFacts MathModel Spec MathFacts Structure StructureFacts Params Features Elements System SysSpec
  CtxFacts ReadTools InvestFacts OnOffFacts FlowFacts.

(** A flow with the on/off rules and the size under which it is modelled. [nz]: the transmission has absolute losses. *)
Definition ind (nz : bool) (c : component) (f : flow) : bool :=
  (is_some (cp_onoff c) || existsb (Nat.eqb (f_id f)) (cp_prevent c)
   || match cp_kind c with TransmissionC _ (Some _) => nz | _ => false end)%bool.
Definition eff_ (nz : bool) (cf : config) (c : component) (f : flow) : flow :=
  mkFlow (f_id f) (f_lab f) (f_bus f) (sized cf c f) (f_profile f) (f_relmin f) (f_relmax f) (f_effects f)
    (match f_onoff f with Some p => Some p | None => if ind nz c f then Some default_onoff else None end)
    (f_fh_max f) (f_fh_min f) (f_lf_min f) (f_lf_max f) (f_prev f).
Definition effective (cf : config) (fs : flow_system) (idx : option (list nat)) (c : component) (f : flow) : flow :=
  mkFlow (f_id f) (f_lab f) (f_bus f) (sized cf c f) (f_profile f) (f_relmin f) (f_relmax f) (f_effects f)
    (governed fs idx c f) (f_fh_max f) (f_fh_min f) (f_lf_min f) (f_lf_max f) (f_prev f).

Definition map_comp (g : flow -> flow) (c : component) : component := set_flows c (map g (cp_in c)) (map g (cp_out c)).

Lemma prepare_component_spec : forall c, prepare_component c = map_comp (fun f =>
   mkFlow (f_id f) (f_lab f) (f_bus f) (f_size f) (f_profile f) (f_relmin f) (f_relmax f) (f_effects f)
    (match f_onoff f with Some p => Some p | None => if (is_some (cp_onoff c) || existsb (Nat.eqb (f_id f)) (cp_prevent c))%bool then Some default_onoff else None end)
    (f_fh_max f) (f_fh_min f) (f_lf_min f) (f_lf_max f) (f_prev f)) c.
Proof.
  intros c. unfold prepare_component, map_comp, map_flows. destruct c as [lab ci co oo_ pre kind]. simpl.
  destruct oo_ as [p|]; simpl; unfold set_flows; simpl; f_equal; try rewrite map_map;
    apply map_ext; intros f; destruct f as [a b c d e g h i [o|] k l m n q]; unfold with_default_onoff, mem_nat; simpl;
    destruct (existsb (Nat.eqb a) pre); reflexivity.
Qed.

Lemma prepared_spec : forall cf cx tr c0 c, cx_big cx = cf_big cf ->
  NoDup (map f_id (cp_flows c0)) -> prepared cx tr c0 = Ok c ->
  exists nz : bool, c = map_comp (eff_ nz cf c0) c0
    /\ (forall r p, cp_kind c0 = TransmissionC r (Some p) -> exists a, act cx tr p = Ok a /\ nz = nany_nonzero a).
Proof.
  intros cf cx tr c0 c B ND H. unfold prepared in H.
  assert (G : forall k, cp_kind c0 = k -> (forall a b, k <> TransmissionC a b) ->
              prepare_component c0 = map_comp (eff_ false cf c0) c0).
  { intros k K NT. rewrite prepare_component_spec. unfold map_comp, eff_, ind, sized. rewrite K. f_equal;
    apply map_ext; intros f; destruct k; try (exfalso; eapply NT; reflexivity); rewrite orb_false_r; reflexivity. }
  destruct (cp_kind c0) as [ | | | |rel abs] eqn:K;
    try (exists false; split; [apply Ok_inj in H; subst c; eapply G; [reflexivity|discriminate]|discriminate]).
  bnd H c1 E. apply Ok_inj in H. subst c. rewrite prepare_component_spec.
  unfold prepare_transmission in E. bnd E c2 E2.
  (* the on/off part *)
  assert (P : exists nz : bool, c2 = (if nz then map_flows with_default_onoff c0 else c0)
     /\ (abs = None -> nz = false) /\ (forall p, abs = Some p -> exists a, act cx tr p = Ok a /\ nz = nany_nonzero a)).
  { destruct abs as [p|].
    - bnd E2 a Ea. apply Ok_inj in E2. exists (nany_nonzero a). split; [auto|]. split; [discriminate|].
      intros p' X. inversion X; subst. eauto.
    - apply Ok_inj in E2. exists false. split; auto. split; auto. discriminate. }
  destruct P as [nz [C2 [P1 P2]]]. exists nz. split; [|intros r p X; inversion X; subst; auto]. clear E2.
  assert (L2 : cp_label c2 = cp_label c0 /\ cp_onoff c2 = cp_onoff c0 /\ cp_prevent c2 = cp_prevent c0 /\ cp_kind c2 = cp_kind c0)
    by (subst c2; destruct nz; simpl; auto).
  set (w := fun f : flow => if nz then with_default_onoff f else f).
  assert (I2 : cp_in c2 = map w (cp_in c0) /\ cp_out c2 = map w (cp_out c0)).
  { subst c2 w. destruct nz; simpl; auto. rewrite !map_id. auto. }
  destruct L2 as [L2 [O2 [Pr2 K2]]]. destruct I2 as [I2 I2'].
  assert (W : forall f, f_id (w f) = f_id f /\ f_lab (w f) = f_lab f /\ f_bus (w f) = f_bus f /\ f_size (w f) = f_size f
     /\ f_profile (w f) = f_profile f /\ f_relmin (w f) = f_relmin f /\ f_relmax (w f) = f_relmax f
     /\ f_effects (w f) = f_effects f /\ f_fh_max (w f) = f_fh_max f /\ f_fh_min (w f) = f_fh_min f
     /\ f_lf_min (w f) = f_lf_min f /\ f_lf_max (w f) = f_lf_max f /\ f_prev (w f) = f_prev f
     /\ f_onoff (w f) = match f_onoff f with Some p => Some p | None => if nz then Some default_onoff else None end).
  { intros f. subst w. simpl. destruct nz; [|destruct (f_onoff f); repeat split; auto].
    unfold with_default_onoff. destruct (f_onoff f) eqn:X; simpl; repeat split; auto; rewrite X; auto. }
  assert (Z : nz = match abs with Some _ => nz | None => false end) by (destruct abs; auto).
  set (pf := fun f : flow => mkFlow (f_id f) (f_lab f) (f_bus f) (f_size f) (f_profile f) (f_relmin f) (f_relmax f) (f_effects f)
    (match f_onoff f with Some p => Some p | None => if (is_some (cp_onoff c0) || existsb (Nat.eqb (f_id f)) (cp_prevent c0))%bool then Some default_onoff else None end)
    (f_fh_max f) (f_fh_min f) (f_lf_min f) (f_lf_max f) (f_prev f)).
  (* flows whose size is not touched *)
  assert (U : forall f, sized cf c0 f = f_size f -> pf (w f) = eff_ nz cf c0 f).
  { intros f S. destruct (W f) as [W1 [W2 [W3 [W4 [W5 [W6 [W7 [W8 [W9 [W10 [W11 [W12 [W13 W14]]]]]]]]]]]]].
    unfold pf, eff_, ind. rewrite S, W1, W2, W3, W4, W5, W6, W7, W8, W9, W10, W11, W12, W13, W14. f_equal.
    rewrite K. destruct (f_onoff f); auto. rewrite <- Z. destruct nz; rewrite ?orb_true_r, ?orb_false_r; auto. }
  rewrite I2 in E.
  assert (Fin : forall c', cp_label c' = cp_label c0 -> cp_onoff c' = cp_onoff c0 -> cp_prevent c' = cp_prevent c0 ->
             cp_kind c' = cp_kind c0 -> map pf (cp_in c') = map (eff_ nz cf c0) (cp_in c0) ->
             map pf (cp_out c') = map (eff_ nz cf c0) (cp_out c0) ->
             map_comp (fun f => mkFlow (f_id f) (f_lab f) (f_bus f) (f_size f) (f_profile f) (f_relmin f) (f_relmax f) (f_effects f)
    (match f_onoff f with Some p => Some p | None => if (is_some (cp_onoff c') || existsb (Nat.eqb (f_id f)) (cp_prevent c'))%bool then Some default_onoff else None end)
    (f_fh_max f) (f_fh_min f) (f_lf_min f) (f_lf_max f) (f_prev f)) c' = map_comp (eff_ nz cf c0) c0).
  { intros c' X1 X2 X3 X4 X5 X6. unfold map_comp, set_flows. rewrite X1, X2, X3, X4. unfold pf in X5, X6. rewrite X5, X6. reflexivity. }
  unfold cp_flows in ND. rewrite map_app in ND.
  assert (Plain_ : (forall f, In f (cp_in c0 ++ cp_out c0) -> sized cf c0 f = f_size f) -> c1 = c2 ->
     map_comp (fun f => mkFlow (f_id f) (f_lab f) (f_bus f) (f_size f) (f_profile f) (f_relmin f) (f_relmax f) (f_effects f)
    (match f_onoff f with Some p => Some p | None => if (is_some (cp_onoff c1) || existsb (Nat.eqb (f_id f)) (cp_prevent c1))%bool then Some default_onoff else None end)
    (f_fh_max f) (f_fh_min f) (f_lf_min f) (f_lf_max f) (f_prev f)) c1 = map_comp (eff_ nz cf c0) c0).
  { intros S ->. apply Fin; try congruence; [rewrite I2|rewrite I2']; rewrite map_map; apply map_ext_in; intros f Hf; apply U, S, in_or_app; auto. }
  destruct (cp_in c0) as [|in1 [|in2 rest]] eqn:EI; simpl in E.
  - apply Plain_; [|inversion E; auto]. intros f _. unfold sized. rewrite K, EI. reflexivity.
  - apply Plain_; [|inversion E; auto]. intros f _. unfold sized. rewrite K, EI. reflexivity.
  - destruct (W in1) as [_ [_ [_ [S1 _]]]]. destruct (W in2) as [_ [_ [_ [S2 _]]]]. rewrite S1, S2 in E.
    assert (Same : match f_size in1, f_size in2 with SzInv _, SzNum _ => False | _, _ => True end -> c1 = c2) .
    { destruct (f_size in1); [intros _; inversion E; auto|]. destruct (f_size in2); [tauto|intros _; inversion E; auto]. }
    destruct (f_size in1) as [q1|iv] eqn:F1; [apply Plain_; auto; intros f _; unfold sized; rewrite K, EI, F1; destruct (Nat.eqb _ _); auto|].
    destruct (f_size in2) as [q2|iv2] eqn:F2; [|apply Plain_; auto; intros f _; unfold sized; rewrite K, EI, F1, F2; destruct (Nat.eqb _ _); auto].
    apply Ok_inj in E. subst c1.
    assert (Un : forall f, In f (in1 :: rest ++ cp_out c0) -> sized cf c0 f = f_size f).
    { intros f Hf. unfold sized. rewrite K, EI. destruct (Nat.eqb (f_id f) (f_id in2)) eqn:X; auto. apply Nat.eqb_eq in X.
      exfalso. simpl in ND. inversion ND as [|? ? N1 N2]; subst. inversion N2 as [|? ? N3 N4]; subst.
      destruct Hf as [<-|Hf].
      - apply N1. simpl. auto.
      - apply N3. rewrite <- X. rewrite <- map_app. apply in_map. auto. }
    apply Fin; simpl; auto.
    + f_equal; [|f_equal].
      * apply U. apply Un. simpl; auto.
      * destruct (W in2) as [W1 [W2 [W3 [W4 [W5 [W6 [W7 [W8 [W9 [W10 [W11 [W12 [W13 W14]]]]]]]]]]]]].
        assert (Sz : sized cf c0 in2 = SzInv (invest_of_max (iv_maximum cx iv))).
        { unfold sized. rewrite K, EI, Nat.eqb_refl, F1, F2. unfold invest_of_max, iv_maximum, max_size. rewrite B. reflexivity. }
        unfold pf, eff_, ind, set_size. simpl.
        rewrite Sz, W1, W2, W3, W5, W6, W7, W8, W9, W10, W11, W12, W13, W14. f_equal.
        rewrite K. destruct (f_onoff in2); auto. rewrite <- Z. destruct nz; rewrite ?orb_true_r, ?orb_false_r; auto.
      * rewrite map_map. apply map_ext_in. intros f Hf. apply U, Un. simpl. right. apply in_or_app; auto.
    + rewrite I2', map_map. apply map_ext_in. intros f Hf. apply U, Un. simpl. right. apply in_or_app; auto.
Qed.

(** ** The parts of a component's model *)
Definition own_model (cx : ctx) (tr : bool) (c : component) (fos : list flow_out) (on : option variable) : res sto_out :=
  match cp_kind c with
  | Plain => Ok (mkSto [] [] [] [])
  | Converter fs => k <- converter_cons cx tr c fos fs ;; Ok (mkSto [] k [] [])
  | Segmented segs => m <- segmented_model cx tr c fos on segs ;; Ok (mkSto [] [] [m] [])
  | StorageC s =>
      ch <- of_option AttributeError (nth_error fos 0) ;;
      dis <- of_option AttributeError (nth_error fos (length (cp_in c))) ;;
      storage_model cx tr (cp_label c) s ch dis
  | TransmissionC rel abs => k <- transmission_cons cx tr c fos rel abs ;; Ok (mkSto [] k [] [])
  end.

Definition oo_tree (o : option oo_out) : list emodel := match o with Some o => [ot_tree o] | None => [] end.
Definition oo_shares (o : option oo_out) : list share := match o with Some o => ot_shares o | None => [] end.

Record comp_parts (cx : ctx) (tr : bool) (c : component) (eff : flow -> flow) (o : comp_out) (oo : option oo_out)
       (pm : list emodel) (so : sto_out) : Prop := {
  pa_tree : co_tree o = EM (cp_label c) (cp_label c) (so_vars so) (so_cons so)
                          ((map fo_tree (co_flows o) ++ oo_tree oo ++ pm) ++ so_subs so);
  pa_flows : Forall2 (fun f fo => flow_model cx true (cp_label c) (eff f) = Ok fo) (cp_flows c) (co_flows o);
  pa_oo : optM (fun p => onoff_model cx tr (cp_label c) p (map fo_rate (co_flows o)) (map fo_bounds (co_flows o))) (cp_onoff c) = Ok oo;
  pa_pm : match cp_prevent c with
          | [] => pm = []
          | _ => exists ons m, mapM (fun i => o <- find_fo (co_flows o) i ;; of_option AttributeError (fo_on o)) (cp_prevent c) = Ok ons
                   /\ prevent_model (cp_label c) ons = Ok m /\ pm = [m]
          end;
  pa_own : own_model cx tr c (co_flows o) (option_map ot_on oo) = Ok so;
  pa_shares : co_shares o = (flat_map fo_shares (co_flows o) ++ oo_shares oo) ++ so_shares so
}.

Lemma map_comp_flows : forall g c, cp_flows (map_comp g c) = map g (cp_flows c).
Proof. intros g c. unfold map_comp, cp_flows. simpl. rewrite map_app. auto. Qed.

Lemma used_ids_map : forall cx g l factors, (forall f, f_id (g f) = f_id f) -> used_ids cx (map g l) factors = used_ids cx l factors.
Proof. intros cx g l factors H. unfold used_ids. rewrite map_map. rewrite (map_ext _ _ H). reflexivity. Qed.

Lemma own_model_map : forall cx tr g c fos on, (forall f, f_id (g f) = f_id f) ->
  own_model cx tr (map_comp g c) fos on = own_model cx tr c fos on.
Proof.
  intros cx tr g c fos on Hg. unfold own_model, map_comp. simpl. destruct (cp_kind c); auto.
  - unfold converter_cons. f_equal. destruct (guard _ _); auto. simpl. apply mapM_ext. intros [i fc] _.
    unfold conversion_eq. simpl. rewrite !used_ids_map by auto. reflexivity.
  - rewrite map_length. reflexivity.
  - unfold transmission_cons. simpl. rewrite map_length. reflexivity.
Qed.

Lemma Forall2_map_l : forall {A B C} (P : B -> C -> Prop) (g : A -> B) l m,
  Forall2 P (map g l) m <-> Forall2 (fun a c => P (g a) c) l m.
Proof.
  intros A B C P g l. induction l as [|a l IH]; intros m; simpl; split; intros H; inversion H; subst; constructor; auto; apply IH; auto.
Qed.

Lemma comp_parts_nz : forall cf cx trf trc c o, ctx_ok cx -> cx_big cx = cf_big cf ->
  NoDup (map f_id (cp_flows c)) -> comp_model cx trf trc c = Ok o ->
  exists nz oo pm so, comp_parts cx (trc (cp_label c)) c (eff_ nz cf c) o oo pm so
   /\ (forall r p, cp_kind c = TransmissionC r (Some p) -> exists a, act cx (trc (cp_label c)) p = Ok a /\ nz = nany_nonzero a).
Proof.
  intros cf cx trf trc c0 o CX B ND H. unfold comp_model in H. set (tr := trc (cp_label c0)) in *.
  bnd H c Ec. bnd H b Eb. bnd H so Eso. bnd H m Em. fin H. simpl.
  destruct (prepared_spec cf _ _ _ _ B ND Ec) as [nz [-> NZ]]. exists nz.
  change (match cp_kind (map_comp (eff_ nz cf c0) c0) with
          | Plain => Ok (mkSto [] [] [] [])
          | Converter fs => k <- converter_cons cx tr (map_comp (eff_ nz cf c0) c0) (bo_flows b) fs ;; Ok (mkSto [] k [] [])
          | Segmented segs => m <- segmented_model cx tr (map_comp (eff_ nz cf c0) c0) (bo_flows b) (bo_on b) segs ;; Ok (mkSto [] [] [m] [])
          | StorageC s =>
              ch <- of_option AttributeError (nth_error (bo_flows b) 0) ;;
              dis <- of_option AttributeError (nth_error (bo_flows b) (length (cp_in (map_comp (eff_ nz cf c0) c0)))) ;;
              storage_model cx tr (cp_label (map_comp (eff_ nz cf c0) c0)) s ch dis
          | TransmissionC rel abs => k <- transmission_cons cx tr (map_comp (eff_ nz cf c0) c0) (bo_flows b) rel abs ;; Ok (mkSto [] k [] [])
          end) with (own_model cx tr (map_comp (eff_ nz cf c0) c0) (bo_flows b) (bo_on b)) in Eso.
  rewrite own_model_map in Eso by reflexivity.
  unfold base_model in Eb. rewrite map_comp_flows in Eb.
  bnd Eb fos Ef. bnd Eb oo_ Eoo. bnd Eb pm Epm. fin Eb. simpl in *.
  exists oo_, pm, so. split; [|exact NZ].
  apply mk_em_spec in Em. destruct Em as [-> _].
  constructor; simpl.
  - reflexivity.
  - apply mapM_Forall2 in Ef. apply Forall2_map_l in Ef. clear -CX Ef. induction Ef as [|f fo fl fol Hf _ IH]; constructor; auto.
    destruct (flow_shape_ok _ _ _ _ _ CX Hf) as [_ T]. rewrite T in Hf. exact Hf.
  - exact Eoo.
  - destruct (cp_prevent c0) as [|i r]; [inversion Epm; auto|]. bnd Epm ons Eons. bnd Epm mm Emm. fin Epm. eauto.
  - exact Eso.
  - reflexivity.
Qed.

(** On/off models need at least two time steps. *)
Lemma onoff_long : forall cx tr elem p vars bounds o, onoff_model cx tr elem p vars bounds = Ok o -> (2 <= cx_n cx)%nat.
Proof.
  intros cx tr elem p vars bounds o H. unfold onoff_model in H.
  bnd H bounds' Eb. bnd H u1 Elen. bnd H prev_on Ep0. bnd H on Eon. bnd H tot Etot. bnd H ctot Ectot. bnd H con Econ.
  bnd H vo Evo. destruct vo as [voff coff]. bnd H vd1 Ed1. destruct vd1 as [v1 k1]. bnd H vd2 Ed2. destruct vd2 as [v2 k2].
  bnd H vs3 Es3. unfold use_switch_on in Es3. simpl in Es3. bnd Es3 son Eson. bnd Es3 soff Esoff. bnd Es3 nr Enr. bnd Es3 u2 Eg.
  apply create_variable_spec in Eon. subst on. simpl in Eg. unfold guard in Eg. destruct (Nat.ltb 1 (cx_n cx)) eqn:X; [|discriminate].
  apply Nat.ltb_lt in X. lia.
Qed.
Lemma flow_onoff_long : forall cx tr comp f o p, flow_model cx tr comp f = Ok o -> f_onoff f = Some p -> (2 <= cx_n cx)%nat.
Proof.
  intros cx tr comp f o p H P. unfold flow_model in H. rewrite P in H.
  bnd H rl Erl. bnd H ab Eab. bnd H rate Erate. bnd H oo_ Eoo. simpl in Eoo. bnd Eoo o1 Eo. eapply onoff_long; eauto.
Qed.

Lemma fits_act_scalar_or : forall cx n a, fits n a -> (nlen a <= n)%nat -> n = cx_n cx -> nlen a = 1%nat \/ nlen a = n.
Proof. intros cx n a F L _. destruct (Nat.eq_dec (nlen a) 1); auto. right. destruct n; [lia|]. specialize (F n (Nat.lt_succ_diag_r _)). apply in_rng_len in F. lia. Qed.

(** Data used as a factor in a transmission equation has one entry per step. *)
Lemma transmission_len : forall cx tr full name rel p fi fo c, ctx_ok cx -> v_len (fo_rate fi) = cx_n cx -> v_len (fo_rate fo) = cx_n cx ->
  (forall v, fo_on fi = Some v -> v_len v = cx_n cx) ->
  transmission_eq cx tr full name rel (Some p) fi fo = Ok c ->
  exists a, act cx tr p = Ok a /\ fits (cx_n cx) a /\ ((2 <= cx_n cx)%nat -> nlen a = 1%nat \/ nlen a = cx_n cx).
Proof.
  intros cx tr full name rl p fi fo c CX L1 L2 L3 H. unfold transmission_eq in H. bnd H e Ee. bnd H l El. bnd El on Eon. bnd El a Ea. fin El.
  exists a. split; auto. destruct (act_spec _ _ _ _ CX Ea) as [_ [Ga _]]. pose proof (ok_pos _ CX) as NP.
  assert (Ge : good e).
  { destruct rl as [q|]; [|apply Ok_inj in Ee; subst e; apply good_NS]. bnd Ee b Eb. fin Ee.
    destruct (act_spec _ _ _ _ CX Eb) as [_ [Gb _]]. apply good_nmap; auto. }
  assert (Lon : v_len on = cx_n cx).
  { apply L3. destruct (fo_on fi); [inversion Eon; auto|discriminate]. }
  simpl in H.
  assert (LV : Forall live [AddS (fo_rate fi) e None false; AddS (fo_rate fo) (NS (-1)) None false; AddS on (nmap Qopp a) None false]).
  { repeat constructor; apply live_none; auto with num; lia. }
  split.
  - assert (F : fits (cx_n cx) (nmap Qopp a)).
    { eapply row_fits; [exact H|exact LV| |right; right; left; reflexivity].
      apply Exists_cons_tl, Exists_cons_hd. simpl. auto. }
    apply fits_nmap in F. exact F.
  - intros N2. destruct (Nat.eq_dec (nlen a) 1); auto.
    assert (X : call_len (AddS on (nmap Qopp a) None false) = nlen a).
    { simpl. rewrite nmap_len. destruct (Nat.eqb (nlen a) 1) eqn:Y; auto. apply Nat.eqb_eq in Y. lia. }
    assert (A1 : (nlen a <= cx_n cx)%nat).
    { destruct (row_lens _ _ _ _ _ (nlen a) H LV) with (a := AddS (fo_rate fo) (NS (-1)) None false) as [Y|Y];
        [apply Exists_cons_tl, Exists_cons_tl, Exists_cons_hd; exact X|right; left; reflexivity|simpl in Y; lia|simpl in Y; lia]. }
    destruct (row_lens _ _ _ _ _ (cx_n cx) H LV) with (a := AddS on (nmap Qopp a) None false) as [Y|Y];
        [apply Exists_cons_tl, Exists_cons_hd; simpl; auto|right; right; left; reflexivity|rewrite X in Y; lia|rewrite X in Y; lia].
Qed.

Lemma nany_value : forall cx tr p a, ctx_ok cx -> act cx tr p = Ok a -> fits (cx_n cx) a ->
  (nany_nonzero a = true -> nlen a = 1%nat \/ nlen a = cx_n cx) ->
  nany_nonzero a = existsb (fun t => negb (Qeq_bool (value (cx_idx cx) p t) 0)) (seq 0 (cx_n cx)).
Proof.
  intros cx tr p a CX E F N. destruct (act_spec _ _ _ _ CX E) as [_ [G A]]. pose proof (ok_pos _ CX) as NP.
  assert (EQ : forall t, (t < cx_n cx)%nat -> at_ a t == value (cx_idx cx) p t) by (intros; apply A; auto).
  assert (NL : forall q, In q (nlist a) <-> exists j, (j < nlen a)%nat /\ at_ a j = q).
  { intros q. destruct a as [z|l]; simpl.
    - split; [intros [<-|[]]; exists 0%nat; auto|intros [j [_ X]]; auto].
    - split.
      + intros Hq. destruct (In_nth _ _ 0 Hq) as [j [Hj X]]. exists j. split; auto. destruct l as [|u [|w l]]; auto. simpl in Hj.
        assert (j = 0%nat) by lia. subst j. exact X.
      + intros [j [Hj X]]. destruct l as [|u [|w l]]; [simpl in Hj; lia|left; exact X|rewrite <- X; apply nth_In; auto]. }
  unfold nany_nonzero in *. apply Bool.eq_iff_eq_true. rewrite !existsb_exists. split.
  - intros [q [Hq Z]]. apply NL in Hq. destruct Hq as [j [Hj X]].
    assert (T : nany_nonzero a = true). { unfold nany_nonzero. apply existsb_exists. exists q. split; auto. apply NL; eauto. }
    destruct (N T) as [Y|Y].
    + exists 0%nat. split; [apply in_seq; lia|]. assert (j = 0%nat) by lia. subst j. rewrite <- (EQ 0%nat) by lia. rewrite X. auto.
    + exists j. split; [apply in_seq; lia|]. rewrite <- (EQ j) by lia. rewrite X. auto.
  - intros [t [Ht Z]]. apply in_seq in Ht. rewrite <- (EQ t) in Z by lia.
    assert (R : in_rng a t) by (apply F; lia). apply in_rng_len in R.
    destruct R as [R|R].
    + exists (at_ a 0). split; [apply NL; exists 0%nat; split; auto; lia|].
      replace (at_ a 0) with (at_ a t); auto. destruct a as [z|[|u [|w l]]]; simpl in *; auto; lia.
    + exists (at_ a t). split; auto. apply NL. eauto.
Qed.

Lemma eff_effective : forall nz cf fs idx c f,
  (forall r p, cp_kind c = TransmissionC r (Some p) -> nz = any_loss fs idx p) -> eff_ nz cf c f = effective cf fs idx c f.
Proof.
  intros nz cf fs idx c f H. unfold eff_, effective, governed, ind, induced.
  destruct (cp_kind c) as [ | | | |r [p|]] eqn:K; auto. rewrite (H r p eq_refl). auto.
Qed.

Lemma Forall2_impl_ : forall {A B} (P Q : A -> B -> Prop) l m, (forall a b, P a b -> Q a b) -> Forall2 P l m -> Forall2 Q l m.
Proof. induction 2; constructor; auto. Qed.
Lemma Forall2_In_l : forall {A B} (P : A -> B -> Prop) l m a, Forall2 P l m -> In a l -> exists b, In b m /\ P a b.
Proof. induction 1; simpl; intros []; subst; eauto. destruct IHForall2 as [b [? ?]]; eauto. Qed.
Lemma Forall2_In_r : forall {A B} (P : A -> B -> Prop) l m b, Forall2 P l m -> In b m -> exists a, In a l /\ P a b.
Proof. induction 1; simpl; intros []; subst; eauto. destruct IHForall2 as [a [? ?]]; eauto. Qed.
Lemma Forall2_nth_error : forall {A B} (P : A -> B -> Prop) l m i b, Forall2 P l m -> nth_error m i = Some b ->
  exists a, nth_error l i = Some a /\ P a b.
Proof.
  intros A B P l m i b H. revert i. induction H; intros i Hi; [destruct i; discriminate|].
  destruct i as [|i]; simpl in *; [inversion Hi; subst; eauto|auto].
Qed.
Lemma nth_error_some : forall {A} (e : exn) (o : option A) x, of_option e o = Ok x -> o = Some x.
Proof. intros A e [a|] x H; [inversion H; auto|discriminate]. Qed.
Lemma nth_error_In_firstn : forall {A} n (l : list A) i x, nth_error (firstn n l) i = Some x -> nth_error l i = Some x.
Proof. induction n; intros l i x H; destruct l; simpl in *; try (destruct i; discriminate). destruct i; simpl in *; auto. Qed.
Lemma nth_error_skipn : forall {A} n (l : list A) i, nth_error (skipn n l) i = nth_error l (n + i).
Proof. induction n; intros l i; simpl; auto. destruct l; simpl; auto. destruct i; auto. Qed.

Theorem comp_parts_ok : forall cf fs idx cx trf trc c o, ctx_ok cx -> cx_big cx = cf_big cf -> cx_n cx = steps fs idx -> cx_idx cx = idx ->
  NoDup (map f_id (cp_flows c)) -> comp_model cx trf trc c = Ok o ->
  exists oo pm so, comp_parts cx (trc (cp_label c)) c (effective cf fs idx c) o oo pm so.
Proof.
  intros cf fs idx cx trf trc c o CX B N I ND H.
  destruct (comp_parts_nz cf _ _ _ _ _ CX B ND H) as [nz [oo_ [pm [so [P NZ]]]]].
  exists oo_, pm, so.
  assert (Z : forall r p, cp_kind c = TransmissionC r (Some p) -> nz = any_loss fs idx p).
  { intros r p K. destruct (NZ r p K) as [a [Ea Ez]]. unfold any_loss. rewrite <- N, <- I, Ez.
    pose proof (pa_own _ _ _ _ _ _ _ _ P) as OW. unfold own_model in OW. rewrite K in OW. bnd OW k Ek.
    unfold transmission_cons in Ek. bnd Ek in1 Ein. bnd Ek out1 Eout. bnd Ek c1 Ec1. clear Ek.
    apply nth_error_some in Ein. apply nth_error_some in Eout.
    assert (Hin : nth_error (co_flows o) 0 = Some in1) by (eapply nth_error_In_firstn; eauto).
    rewrite nth_error_skipn in Eout.
    destruct (Forall2_nth_error _ _ _ _ _ (pa_flows _ _ _ _ _ _ _ _ P) Hin) as [f1 [Hf1 M1]].
    destruct (Forall2_nth_error _ _ _ _ _ (pa_flows _ _ _ _ _ _ _ _ P) Eout) as [f2 [Hf2 M2]].
    destruct (flow_shape_ok _ _ _ _ _ CX M1) as [S1 _]. destruct (flow_shape_ok _ _ _ _ _ CX M2) as [S2 _].
    assert (Lon : forall v, fo_on in1 = Some v -> v_len v = cx_n cx).
    { intros v Hv. pose proof (fs_on _ _ _ _ S1) as X. destruct (f_onoff (eff_ nz cf c f1)).
      - destruct X as [v' [X1 [_ [X2 _]]]]. congruence.
      - congruence. }
    destruct (transmission_len _ _ _ _ _ _ _ _ _ CX (fs_len _ _ _ _ S1) (fs_len _ _ _ _ S2) Lon Ec1) as [a' [Ea' [F F2]]].
    assert (a' = a) by congruence. subst a'.
    apply (nany_value _ _ _ _ CX Ea F). intros T. apply F2.
    assert (Nz : nz = true) by congruence.
    assert (G : exists q, f_onoff (eff_ nz cf c f1) = Some q).
    { unfold eff_, ind. simpl. destruct (f_onoff f1); eauto. rewrite K, Nz, orb_true_r. eauto. }
    destruct G as [q G]. exact (flow_onoff_long _ _ _ _ _ _ M1 G). }
  destruct P as [P1 P2 P3 P4 P5 P6]. constructor; auto.
  eapply Forall2_impl_; [|exact P2]. intros f fo Hf. rewrite <- (eff_effective nz) by auto. exact Hf.
Qed.

(** ** The parts of a built system *)
Definition rates (cos : list comp_out) (ids : list nat) : res (list variable) :=
  mapM (fun i => o <- find_fo (flat_map co_flows cos) i ;; Ok (fo_rate o)) ids.

Record sys_parts (cf : config) (ord : list nat -> list nat) (fs : flow_system) (idx : option (list nat)) (pm : pmodel)
       (cx : ctx) (cos : list comp_out) (bos : list (emodel * list share)) (em : emodel) (obj : constraint) : Prop := {
  sy_cx : make_ctx cf ord fs idx = Ok cx;
  sy_ok : ctx_ok cx;
  sy_n : cx_n cx = steps fs idx;
  sy_idx : cx_idx cx = idx;
  sy_dt : forall t, (t < steps fs idx)%nat -> dt cx t = hours fs idx t;
  sy_total : cx_total cx == horizon fs idx;
  sy_eff : cx_effects cx = fs_effects fs;
  sy_eps : cx_eps cx = cf_eps cf;
  sy_big : cx_big cx = cf_big cf;
  sy_ord : cx_ord cx = ord;
  sy_prev : cx_prev cx = fs_prev_dt fs;
  sy_ids : NoDup (map (fun cf => f_id (snd cf)) (all_flows fs));
  sy_comps : Forall2 (fun c o => exists oo pm so,
                comp_parts cx (visible_comp fs (cp_label c)) c (effective cf fs idx c) o oo pm so) (fs_comps fs) cos;
  sy_buses : Forall2 (fun b bo => exists i o, rates cos (bus_inputs fs b) = Ok i /\ rates cos (bus_outputs fs b) = Ok o
                                    /\ bus_model cx b i o = Ok bo) (buses ord fs) bos;
  sy_effects : effects_model cx (visible_effect fs) (flat_map co_shares cos ++ flat_map snd bos) = Ok (em, obj);
  sy_translate : system_translate (em :: map co_tree cos ++ map fst bos) obj = Ok pm;
  sy_feasible : forall x, feasible pm x <-> em_sat x em /\ Forall (fun o => em_sat x (co_tree o)) cos
                                            /\ Forall (fun bo => em_sat x (fst bo)) bos;
  sy_build : build_system cf ord fs idx = Ok (mkBuilt cx em cos (map fst bos) obj)
}.

Lemma no_dup_nat_NoDup : forall l, no_dup_nat l = true -> NoDup l.
Proof.
  intros l H. unfold no_dup_nat in H. apply Nat.eqb_eq in H.
  eapply NoDup_incl_NoDup; [apply (NoDup_nodup Nat.eq_dec l)|lia|]. intros a Ha. apply nodup_In in Ha. auto.
Qed.

Lemma all_flows_In : forall fs c f, In (c, f) (all_flows fs) <-> In c (fs_comps fs) /\ In f (cp_flows c).
Proof.
  intros fs c f. unfold all_flows. rewrite in_flat_map. split.
  - intros [c' [Hc H]]. apply in_map_iff in H. destruct H as [f' [X Hf]]. inversion X; subst. auto.
  - intros [Hc Hf]. exists c. split; auto. apply in_map_iff. eauto.
Qed.

Lemma NoDup_app_both : forall {A} (l m : list A), NoDup (l ++ m) -> NoDup l /\ NoDup m.
Proof.
  induction l as [|a l IH]; simpl; intros m H; [split; [constructor|auto]|]. inversion H as [|? ? N1 N2]; subst.
  destruct (IH _ N2). split; auto. constructor; auto. intros X. apply N1, in_or_app. auto.
Qed.
Lemma NoDup_flat_map_part : forall {A B C} (h : A -> list B) (g : B -> C) l a, NoDup (map g (flat_map h l)) -> In a l -> NoDup (map g (h a)).
Proof.
  induction l as [|b l IH]; simpl; intros a ND H; [tauto|]. rewrite map_app in ND. apply NoDup_app_both in ND. destruct ND.
  destruct H as [->|H]; auto.
Qed.

Theorem build_parts : forall cf ord fs idx pm, build cf ord fs idx = Ok pm ->
  exists cx cos bos em obj, sys_parts cf ord fs idx pm cx cos bos em obj.
Proof.
  intros cf ord fs idx pm H. unfold build in H. bnd H b Eb. pose proof Eb as Eb0. unfold build_system in Eb.
  bnd Eb cx Ecx. bnd Eb u Eu. bnd Eb cos Ecos. bnd Eb bos Ebos. bnd Eb emo Eem. destruct emo as [em obj]. fin Eb.
  unfold bs_roots in H. simpl in H. unfold guard in Eu. destruct (no_dup_nat _) eqn:ND in Eu; [|discriminate].
  apply no_dup_nat_NoDup in ND.
  destruct (make_ctx_spec _ _ _ _ _ Ecx) as [CX [N [I [D [T [EF [EP [BG [OR PV]]]]]]]]].
  exists cx, cos, bos, em, obj. constructor; auto.
  - apply mapM_Forall2 in Ecos. assert (X : forall c, In c (fs_comps fs) -> NoDup (map f_id (cp_flows c))).
    { intros c Hc. pose proof (NoDup_flat_map_part _ _ _ c ND Hc) as Y. cbv beta in Y. rewrite map_map in Y. exact Y. }
    clear -Ecos CX N I BG X. set (cs := fs_comps fs) in *. clearbody cs.
    induction Ecos as [|c o cl ol Hc _ IH]; constructor.
    + eapply comp_parts_ok; eauto. apply X; simpl; auto.
    + apply IH. intros. apply X; simpl; auto.
  - apply mapM_Forall2 in Ebos. eapply Forall2_impl_; [|exact Ebos]. intros b bo Hb. cbv beta in Hb.
    bnd Hb i Ei. bnd Hb o Eo. exists i, o. auto.
  - intros x. rewrite (system_feasible _ _ _ x H). rewrite Forall_cons_iff, Forall_app, !Forall_map. tauto.
Qed.

Lemma find_unique : forall {A} (g : A -> nat) l a, NoDup (map g l) -> In a l -> find (fun o => Nat.eqb (g o) (g a)) l = Some a.
Proof.
  induction l as [|b l IH]; simpl; intros a ND H; [tauto|]. inversion ND as [|? ? N1 N2]; subst.
  destruct (Nat.eqb (g b) (g a)) eqn:E.
  - destruct H as [->|H]; auto. apply Nat.eqb_eq in E. exfalso. apply N1. rewrite E. apply in_map; auto.
  - destruct H as [->|H]; [rewrite Nat.eqb_refl in E; discriminate|auto].
Qed.

Lemma Forall2_map_eq : forall {A B C} (g : A -> C) (h : B -> C) l m, Forall2 (fun a b => h b = g a) l m -> map h m = map g l.
Proof. induction 1; simpl; auto. congruence. Qed.
Lemma map_flat_map : forall {A B C} (g : B -> C) (h : A -> list B) l, map g (flat_map h l) = flat_map (fun a => map g (h a)) l.
Proof. induction l; simpl; auto. rewrite map_app. congruence. Qed.

Section Located.
Variables (cf : config) (ord : list nat -> list nat) (fs : flow_system) (idx : option (list nat)) (pm : pmodel)
          (cx : ctx) (cos : list comp_out) (bos : list (emodel * list share)) (em : emodel) (obj : constraint).
Hypothesis P : sys_parts cf ord fs idx pm cx cos bos em obj.

Lemma comp_ids : forall c o oo_ pm_ so, comp_parts cx (visible_comp fs (cp_label c)) c (effective cf fs idx c) o oo_ pm_ so ->
  map fo_id (co_flows o) = map f_id (cp_flows c).
Proof.
  intros c o oo_ pm_ so H. apply (Forall2_map_eq f_id fo_id). eapply Forall2_impl_; [|apply (pa_flows _ _ _ _ _ _ _ _ H)].
  intros f fo Hf. cbv beta in Hf. destruct (flow_shape_ok _ _ _ _ _ (sy_ok _ _ _ _ _ _ _ _ _ _ P) Hf) as [S _].
  rewrite (fs_id _ _ _ _ S). reflexivity.
Qed.

Lemma all_ids : map fo_id (flat_map co_flows cos) = map (fun cf => f_id (snd cf)) (all_flows fs).
Proof.
  unfold all_flows. pose proof (sy_comps _ _ _ _ _ _ _ _ _ _ P) as H.
  generalize dependent (fs_comps fs). intros cl0. generalize cos at 1 2. intros ol0 H.
  induction H as [|c o cl ol [oo_ [pm_ [so Hc]]] _ IH]; simpl; auto.
  rewrite !map_app, IH. f_equal. rewrite map_map. simpl. eapply comp_ids; eauto.
Qed.

Theorem locate_comp : forall c, In c (fs_comps fs) -> exists o oo_ pm_ so, In o cos
  /\ comp_parts cx (visible_comp fs (cp_label c)) c (effective cf fs idx c) o oo_ pm_ so
  /\ forall x, feasible pm x -> em_sat x (co_tree o).
Proof.
  intros c Hc. destruct (Forall2_In_l _ _ _ _ (sy_comps _ _ _ _ _ _ _ _ _ _ P) Hc) as [o [Ho [oo_ [pm_ [so H]]]]].
  exists o, oo_, pm_, so. split; auto. split; auto. intros x F.
  apply (sy_feasible _ _ _ _ _ _ _ _ _ _ P) in F. destruct F as [_ [F _]]. rewrite Forall_forall in F. auto.
Qed.

Theorem locate_flow : forall c f, In c (fs_comps fs) -> In f (cp_flows c) -> exists fo,
  flow_model cx true (cp_label c) (effective cf fs idx c f) = Ok fo
  /\ find_fo (flat_map co_flows cos) (f_id f) = Ok fo
  /\ (forall o oo_ pm_ so, In o cos -> comp_parts cx (visible_comp fs (cp_label c)) c (effective cf fs idx c) o oo_ pm_ so ->
        find_fo (co_flows o) (f_id f) = Ok fo)
  /\ forall x, feasible pm x -> em_sat x (fo_tree fo).
Proof.
  intros c f Hc Hf. destruct (locate_comp c Hc) as [o [oo_ [pm_ [so [Ho [H F]]]]]].
  destruct (Forall2_In_l _ _ _ _ (pa_flows _ _ _ _ _ _ _ _ H) Hf) as [fo [Hfo M]]. exists fo. split; auto.
  pose proof (flow_shape_ok _ _ _ _ _ (sy_ok _ _ _ _ _ _ _ _ _ _ P) M) as [S _].
  assert (ID : fo_id fo = f_id f) by (rewrite (fs_id _ _ _ _ S); reflexivity).
  assert (ND : NoDup (map fo_id (flat_map co_flows cos))) by (rewrite all_ids; apply (sy_ids _ _ _ _ _ _ _ _ _ _ P)).
  split; [|split].
  - unfold find_fo. rewrite <- ID, find_unique; auto. apply in_flat_map; eauto.
  - intros o' oo' pm' so' Ho' H'.
    assert (FI : In fo (co_flows o') \/ ~ In (f_id f) (map fo_id (co_flows o'))).
    { destruct (in_dec Nat.eq_dec (f_id f) (map fo_id (co_flows o'))) as [Y|Y]; auto. left.
      apply in_map_iff in Y. destruct Y as [fo' [Y1 Y2]].
      assert (X1 : find (fun o0 => Nat.eqb (fo_id o0) (fo_id fo)) (flat_map co_flows cos) = Some fo) by (apply find_unique; auto; apply in_flat_map; eauto).
      assert (X2 : find (fun o0 => Nat.eqb (fo_id o0) (fo_id fo')) (flat_map co_flows cos) = Some fo') by (apply find_unique; auto; apply in_flat_map; eauto).
      rewrite Y1, <- ID in X2. assert (fo' = fo) by congruence. subst; auto. }
    destruct FI as [FI|FI].
    + unfold find_fo. rewrite <- ID, find_unique; auto. eapply NoDup_flat_map_part; eauto.
    + exfalso. apply FI. rewrite (comp_ids _ _ _ _ _ H'). apply in_map; auto.
  - intros x Fx. specialize (F x Fx). rewrite (pa_tree _ _ _ _ _ _ _ _ H) in F.
    eapply em_sat_sub; [exact F|]. apply in_or_app; left. apply in_or_app; left. apply in_map; auto.
Qed.
End Located.

(** The context of a calculation. *)
Record ctx_for (cf : config) (fs : flow_system) (idx : option (list nat)) (cx : ctx) : Prop := {
  cf_ok : ctx_ok cx;
  cf_n : cx_n cx = steps fs idx;
  cf_idx : cx_idx cx = idx;
  cf_dt : forall t, (t < steps fs idx)%nat -> dt cx t = hours fs idx t;
  cf_total : cx_total cx == horizon fs idx;
  cf_effs : cx_effects cx = fs_effects fs;
  cf_eps_ : cx_eps cx = cf_eps cf;
  cf_big_ : cx_big cx = cf_big cf;
  cf_prev : cx_prev cx = fs_prev_dt fs;
  cf_rng : forall t, (t < steps fs idx)%nat -> (selected idx t < length (fs_times fs))%nat
}.
Lemma sys_ctx : forall cf ord fs idx pm cx cos bos em obj, sys_parts cf ord fs idx pm cx cos bos em obj -> ctx_for cf fs idx cx.
Proof. intros. destruct H. constructor; auto. eapply make_ctx_rng; eauto. Qed.
Lemma ctx_full : forall cf fs idx cx p, ctx_for cf fs idx cx -> full_data fs p ->
  exists a, act cx true p = Ok a /\ (nlen a = 1%nat \/ nlen a = cx_n cx).
Proof.
  intros cf fs idx cx p C F. destruct C. subst idx. apply (act_full cx fs p); auto.
Qed.

(** What every feasible point says about a flow. *)
Theorem flow_laws : forall cf ord fs idx pm x c f, build cf ord fs idx = Ok pm -> feasible pm x -> 0 <= cf_eps cf ->
  In c (fs_comps fs) -> In f (cp_flows c) ->
  exists cx, ctx_for cf fs idx cx /\ flow_rows x cx (flow_name c f) (effective cf fs idx c f).
Proof.
  intros cf ord fs idx pm x c f H F Ep Hc Hf. destruct (build_parts _ _ _ _ _ H) as [cx [cos [bos [em [obj P]]]]].
  destruct (locate_flow _ _ _ _ _ _ _ _ _ _ P c f Hc Hf) as [fo [M [_ [_ S]]]].
  exists cx. split; [eapply sys_ctx; eauto|]. destruct P.
  apply (flow_spec x cx true (cp_label c) (effective cf fs idx c f) fo); auto. rewrite sy_eps0. auto.
Qed.

(** What every feasible point says about the on/off part of a component. *)
Definition fo_for (cf : config) (fs : flow_system) (idx : option (list nat)) (cx : ctx) (c : component) (f : flow) (fo : flow_out) : Prop :=
  flow_shape cx (cp_label c) (effective cf fs idx c f) fo.

Lemma fos_for : forall cf fs idx cx tr c o oo_ pm so, ctx_ok cx ->
  comp_parts cx tr c (effective cf fs idx c) o oo_ pm so -> Forall2 (fo_for cf fs idx cx c) (cp_flows c) (co_flows o).
Proof.
  intros cf fs idx cx tr c o oo_ pm so CX P. eapply Forall2_impl_; [|apply (pa_flows _ _ _ _ _ _ _ _ P)].
  intros f fo H. apply (flow_shape_ok _ _ _ _ _ CX H).
Qed.

Lemma rate_sum_flows : forall cf fs idx cx x c fl fos t, Forall2 (fo_for cf fs idx cx c) fl fos ->
  rate_sum x (map fo_rate fos) t = Qsum (map (fun f => rate_of x c f t) fl).
Proof.
  intros cf fs idx cx x c fl fos t H. unfold rate_sum. induction H as [|f fo fl fos Hf _ IH]; simpl; auto.
  rewrite IH. rewrite (fs_label _ _ _ _ Hf). reflexivity.
Qed.

Theorem comp_onoff_laws : forall cf ord fs idx pm x c p, build cf ord fs idx = Ok pm -> feasible pm x -> 0 <= cf_eps cf ->
  In c (fs_comps fs) -> cp_onoff c = Some p ->
  exists cx fos prev_on, ctx_for cf fs idx cx /\ Forall2 (fo_for cf fs idx cx c) (cp_flows c) fos
    /\ previous_on_values (cf_eps cf) (map fo_rate fos) = Ok prev_on
    /\ onoff_rows x cx (cp_label c) p prev_on (map fo_rate fos) (map fo_bounds fos).
Proof.
  intros cf ord fs idx pm x c p H F Ep Hc Hp. destruct (build_parts _ _ _ _ _ H) as [cx [cos [bos [em [obj P]]]]].
  destruct (locate_comp _ _ _ _ _ _ _ _ _ _ P c Hc) as [o [oo_ [pm_ [so [Ho [Q S]]]]]]. specialize (S x F).
  pose proof (sys_ctx _ _ _ _ _ _ _ _ _ _ P) as CF. pose proof (cf_ok _ _ _ _ CF) as CX.
  pose proof (fos_for _ _ _ _ _ _ _ _ _ _ CX Q) as FF.
  pose proof (pa_oo _ _ _ _ _ _ _ _ Q) as OO. rewrite Hp in OO. simpl in OO. bnd OO o1 Eo. fin OO.
  rewrite (pa_tree _ _ _ _ _ _ _ _ Q) in S.
  assert (S1 : em_sat x (ot_tree o1)).
  { eapply em_sat_sub; [exact S|]. apply in_or_app; left. apply in_or_app; right. simpl. auto. }
  rewrite <- (cf_eps_ _ _ _ _ CF).
  assert (LV : forall v, In v (map fo_rate (co_flows o)) -> v_len v = cx_n cx).
  { intros v Hv. apply in_map_iff in Hv. destruct Hv as [fo [<- Hv]].
    destruct (Forall2_In_r _ _ _ _ FF Hv) as [f [_ Sf]]. apply (fs_len _ _ _ _ Sf). }
  assert (GB : forall b, In b (map fo_bounds (co_flows o)) -> good (fst b) /\ good (snd b)).
  { intros b Hb. apply in_map_iff in Hb. destruct Hb as [fo [<- Hb]].
    destruct (Forall2_In_r _ _ _ _ FF Hb) as [f [_ Sf]]. apply (fs_good _ _ _ _ Sf). }
  assert (E0 : 0 <= cx_eps cx) by (rewrite (cf_eps_ _ _ _ _ CF); auto).
  destruct (onoff_spec x cx _ _ _ _ _ _ CX E0 LV GB Eo S1) as [_ [_ [_ [prev_on [P1 P2]]]]].
  exists cx, (co_flows o), prev_on. auto.
Qed.

(** Mutual exclusion: the on variables of the listed flows. *)
Theorem prevent_laws : forall cf ord fs idx pm x c, build cf ord fs idx = Ok pm -> feasible pm x ->
  In c (fs_comps fs) -> cp_prevent c <> [] ->
  (forall i, In i (cp_prevent c) -> In i (map f_id (cp_flows c)))
  /\ forall t, (t < steps fs idx)%nat -> exists ons, Forall2 (fun i l => exists f, In f (cp_flows c) /\ f_id f = i /\ l = oo (flow_name c f) "on") (cp_prevent c) ons
       /\ Qsum (map (fun l => x l t) ons) <= 11 # 10.
Proof.
  intros cf ord fs idx pm x c H F Hc Hp. destruct (build_parts _ _ _ _ _ H) as [cx [cos [bos [em [obj P]]]]].
  destruct (locate_comp _ _ _ _ _ _ _ _ _ _ P c Hc) as [o [oo_ [pm_ [so [Ho [Q S]]]]]]. specialize (S x F).
  pose proof (sys_ctx _ _ _ _ _ _ _ _ _ _ P) as CF. pose proof (cf_ok _ _ _ _ CF) as CX.
  pose proof (fos_for _ _ _ _ _ _ _ _ _ _ CX Q) as FF.
  pose proof (pa_pm _ _ _ _ _ _ _ _ Q) as PM.
  assert (PM' : exists ons m, mapM (fun i => o <- find_fo (co_flows o) i ;; of_option AttributeError (fo_on o)) (cp_prevent c) = Ok ons
                   /\ prevent_model (cp_label c) ons = Ok m /\ pm_ = [m]) by (destruct (cp_prevent c); [congruence|auto]).
  clear PM. destruct PM' as [ons [m [E1 [E2 ->]]]].
  rewrite (pa_tree _ _ _ _ _ _ _ _ Q) in S.
  assert (S1 : em_sat x m).
  { eapply em_sat_sub; [exact S|]. apply in_or_app; left. apply in_or_app; right. apply in_or_app; right. simpl; auto. }
  assert (V : Forall2 (fun i v => v_len v = cx_n cx /\ exists f, In f (cp_flows c) /\ f_id f = i /\ v_label v = oo (flow_name c f) "on") (cp_prevent c) ons).
  { apply mapM_Forall2 in E1. eapply Forall2_impl_; [|exact E1]. intros i v Hv. cbv beta in Hv. bnd Hv fo Efo. apply nth_error_some in Hv.
    unfold find_fo in Efo. apply nth_error_some in Efo. apply find_some in Efo. destruct Efo as [Hin Ei]. apply Nat.eqb_eq in Ei.
    destruct (Forall2_In_r _ _ _ _ FF Hin) as [f [Hf Sf]].
    pose proof (fs_on _ _ _ _ Sf) as X. rewrite (fs_id _ _ _ _ Sf) in Ei. destruct (f_onoff _) in X; [|congruence].
    destruct X as [v' [X1 [X2 [X3 X4]]]]. assert (v' = v) by congruence. subst v'. split; auto. exists f. auto. }
  split.
  - intros i Hi. destruct (Forall2_In_l _ _ _ _ V Hi) as [v [_ [_ [f [Hf [<- _]]]]]]. apply in_map; auto.
  - intros t Ht. rewrite <- (cf_n _ _ _ _ CF) in Ht. exists (map v_label ons). split.
    { clear -V. induction V as [|i v il vl [_ Hv] _ IH]; simpl; constructor; auto. }
    unfold prevent_model in E2. bnd E2 u1 Eu1. bnd E2 u2 Eu2. bnd E2 k Ek. apply mk_em_spec in E2. destruct E2 as [-> _].
    pose proof (em_sat_cons _ _ _ _ _ _ S1) as C. inversion C as [|? ? C1 _]; subst.
    assert (LV : Forall live (map (fun v => AddS v (NS 1) None false) ons ++ [AddC (NS (11 # 10))])).
    { apply Forall_app. split; [|repeat constructor; apply live_const, good_NS]. apply Forall_map, Forall_forall. intros v Hv.
      destruct (Forall2_In_r _ _ _ _ V Hv) as [i [_ [L _]]]. apply live_none; [pose proof (ok_pos _ CX); lia|apply good_NS]. }
    assert (EX : Exists (fun a => call_len a = cx_n cx) (map (fun v => AddS v (NS 1) None false) ons ++ [AddC (NS (11 # 10))])).
    { destruct V as [|i v il vl [L _] _]; [congruence|]. simpl. apply Exists_cons_hd. simpl. auto. }
    assert (PL : Forall plain (map (fun v => AddS v (NS 1) None false) ons ++ [AddC (NS (11 # 10))])).
    { apply Forall_app. split; [|repeat constructor]. apply Forall_map, Forall_forall. intros v Hv. apply plain_false. }
    pose proof (row_law x _ _ _ _ _ _ t Ek C1 PL LV EX Ht) as R. simpl rel in R.
    rewrite !map_app, !Qsum_app in R. cbn [map Qsum fold_right call_lhs call_rhs] in R. rewrite at_NS in R.
    assert (A : Qsum (map (call_lhs x t) (map (fun v => AddS v (NS 1) None false) ons)) == Qsum (map (fun l => x l t) (map v_label ons))).
    { clear -V Ht CX. induction V as [|i v il vl [L _] _ IH]; cbn [map]; [reflexivity|]. rewrite !Qsum_cons, IH. cbn [call_lhs]. rewrite at_NS.
      unfold pick. destruct (Nat.eqb (v_len v) 1) eqn:X; [apply Nat.eqb_eq in X; replace t with 0%nat by lia|]; lra. }
    assert (B : Qsum (map (call_rhs t) (map (fun v => AddS v (NS 1) None false) ons)) == 0).
    { clear. induction ons as [|v l IH]; cbn [map]; [reflexivity|]. rewrite Qsum_cons, IH. cbn [call_rhs]. lra. }
    rewrite A, B in R. lra.
Qed.
