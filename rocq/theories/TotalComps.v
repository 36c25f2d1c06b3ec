(** Components can always be written down for data that fits. *)
From Verif Require Import Base BaseFacts MathModel Spec MathFacts MathTotal Structure StructureFacts Params Features Elements ResultFacts NameSpec NameFacts TotalFacts TotalFeatures TotalInvest TotalOnOff TotalShares TotalEffects TotalFlows.

Definition reserved : list (list string) :=
  [["OnOff"%string]; ["PreventSimultaneousUsage"%string]; ["MultipleSegments"%string]; ["Segment"%string]; ["Investment"%string]; ["SegmentedShares"%string]].
Record comp_data (cx : ctx) (N : nat) (c : component) : Prop := {
  cd_start : hd ""%string (words (cp_label c)) <> ""%string;
  cd_flows : forall f, In f (cp_flows c) -> flow_data cx N f;
  cd_split : ForallOrdPairs (fun a b => split_ (words (f_lab a)) (words (f_lab b))) (cp_flows c);
  cd_res : forall f w, In f (cp_flows c) -> In w reserved -> split_ (words (f_lab f)) w;
  cd_ids : NoDup (map f_id (cp_flows c));
  cd_oo : forall p, cp_onoff c = Some p -> cp_flows c <> [] /\ oo_base cx N p /\ alike (given (map f_prev (cp_flows c))) /\ hist_ok cx p (given (map f_prev (cp_flows c)));
  cd_prevent : cp_prevent c = [] \/ (2 <= length (cp_prevent c))%nat /\ forall i, In i (cp_prevent c) -> exists f, In f (cp_flows c) /\ f_id f = i /\ f_onoff f <> None
}.
Definition paths (c : component) : list (list string) := map (fun f => words (cp_label c) ++ ""%string :: words (f_lab f)) (cp_flows c).
Record base_fine (cx : ctx) (c : component) (b : base_out) : Prop := {
  bf_flows : Forall2 (flow_fine cx (cp_label c)) (cp_flows c) (bo_flows b);
  bf_on : match cp_onoff c with Some _ => exists on, bo_on b = Some on /\ v_len on = cx_n cx | None => bo_on b = None end;
  bf_subs : goods (words (cp_label c)) (map (fun f => words (f_lab f)) (cp_flows c) ++ [["OnOff"%string]; ["PreventSimultaneousUsage"%string]]) (bo_subs b);
  bf_shares : exists s1 s2, bo_shares b = s1 ++ s2 /\ sgood cx (paths c) s1 /\ sfin cx (cp_label c) oo_names s2
}.

Lemma find_fine : forall cx comp fl fos f, Forall2 (flow_fine cx comp) fl fos -> NoDup (map f_id fl) -> In f fl ->
  exists o, find_fo fos (f_id f) = Ok o /\ flow_fine cx comp f o /\ In o fos.
Proof.
  intros cx comp fl fos f F. induction F as [|g o fl fos H F IH]; intros N I; [contradiction|]. cbn [map] in N. inversion N; subst. unfold find_fo. cbn [find].
  rewrite (ff_id _ _ _ _ H). destruct I as [<-|I].
  - rewrite Nat.eqb_refl. exists o. split; [reflexivity|]. split; [exact H|left; auto].
  - destruct (Nat.eqb_spec (f_id g) (f_id f)) as [E|E]; [exfalso; apply H2; rewrite E; apply in_map; exact I|].
    destruct (IH H3 I) as [o' [E' [F' I']]]. exists o'. split; [exact E'|]. split; [exact F'|right; auto].
Qed.
Lemma split_pairs_NoDup : forall {A} (w : A -> list string) l, ForallOrdPairs (fun a b => split_ (w a) (w b)) l -> NoDup (map w l).
Proof.
  intros A w l F. induction F as [|a l H F IH]; cbn [map]; constructor; auto. intros I. apply in_map_iff in I. destruct I as [b [E B]].
  rewrite Forall_forall in H. apply (H _ B [] []). rewrite E. reflexivity.
Qed.
Lemma goods_pairs : forall {A} P (w : A -> list string) (l : list A) (ms : list emodel), Forall2 (fun a m => goods P [w a] [m]) l ms ->
  ForallOrdPairs (fun a b => split_ (w a) (w b)) l -> goods P (map w l) ms.
Proof.
  intros A P w l ms F. induction F as [|a m l ms H F IH]; intros N; [apply goods_nil|]. inversion N as [|x y Ha Hl]; subst. cbn [map].
  change (m :: ms) with ([m] ++ ms). apply (goods_app P [w a] (map w l)); auto. intros p p' [<-|[]] I. apply in_map_iff in I. destruct I as [b [<- I]].
  rewrite Forall_forall in Ha. apply Ha. exact I.
Qed.
Lemma Forall2_In_l : forall {A B} (R : A -> B -> Prop) l m a, Forall2 R l m -> In a l -> exists b, In b m /\ R a b.
Proof. intros A B R l m a F. induction F as [|x y l m H F IH]; intros I; [contradiction|]. destruct I as [<-|I]; [exists y; split; [left; auto|auto]|]. destruct (IH I) as [b [B1 B2]]. exists b. split; [right; auto|auto]. Qed.

Lemma base_ok : forall cx N trf c, setting cx N -> comp_data cx N c -> (forall f, In f (cp_flows c) -> trf (flow_full (cp_label c) (f_lab f)) = true) ->
  exists b, base_model cx trf true c = Ok b /\ base_fine cx c b.
Proof.
  intros cx N trf c S [C0 C1 C2 C3 C4 C5 C6] T. pose proof (sg_ready _ _ S) as R. unfold base_model.
  destruct (mapM_ok (fun f => flow_model cx (trf (flow_full (cp_label c) (f_lab f))) (cp_label c) f) (flow_fine cx (cp_label c)) (cp_flows c)) as [fos [Ef Ff]].
  { intros f Hf. rewrite (T _ Hf). apply (flow_ok cx N); auto. }
  rewrite Ef. cbn [bind].
  assert (RT : forall v, In v (map fo_rate fos) -> v_len v = cx_n cx /\ v_ts v = true).
  { intros v V. apply in_map_iff in V. destruct V as [o [<- O]]. revert o O. apply (Forall2_right _ _ _ _ Ff). intros f o H. split; [apply (ff_rate _ _ _ _ H)|apply (ff_ts _ _ _ _ H)]. }
  assert (PV : map v_prev (map fo_rate fos) = map f_prev (cp_flows c)).
  { clear -Ff. induction Ff as [|f o l m H F IH]; auto. cbn [map]. rewrite IH, (proj2 (ff_ts _ _ _ _ H)). reflexivity. }
  assert (LN : length fos = length (cp_flows c)) by (clear -Ff; induction Ff; cbn; congruence).
  assert (S1 : exists oo, optM (fun p => onoff_model cx true (cp_label c) p (map fo_rate fos) (map fo_bounds fos)) (cp_onoff c) = Ok oo
     /\ match cp_onoff c with Some _ => exists o, oo = Some o /\ oo_fine cx (cp_label c) o | None => oo = None end).
  { destruct (cp_onoff c) as [p|]; cbn [optM]; [|exists None; auto]. destruct (C5 _ eq_refl) as [NE [OB [AL HI]]].
    destruct (prev_on_ok (cx_eps cx) (map fo_rate fos)) as [bs [EB [LB NB]]]; [intros; apply RT; auto|rewrite PV; exact AL|]. rewrite PV in LB.
    destruct (onoff_ok cx N (cp_label c) R C0 p (map fo_rate fos) (map fo_bounds fos) bs) as [o [Eo Fo]]; auto.
    - destruct fos; [destruct (cp_flows c); [congruence|discriminate LN]|discriminate].
    - rewrite !map_length. reflexivity.
    - intros v V. apply RT. exact V.
    - intros b B. apply in_map_iff in B. destruct B as [o [<- O]]. revert o O. apply (Forall2_right _ _ _ _ Ff). intros f o H. apply (ff_bounds _ _ _ _ H).
    - eapply oo_data; eauto.
    - rewrite Eo. cbn [bind]. exists (Some o). split; auto. exists o. auto. }
  destruct S1 as [oo [-> SO]]. cbn [bind].
  assert (S2 : exists pm, (match cp_prevent c with
        | [] => Ok []
        | _ =>
            ons <- mapM (fun i => o <- find_fo fos i ;; of_option AttributeError (fo_on o)) (cp_prevent c) ;;
            m <- prevent_model (cp_label c) ons ;; Ok [m]
        end) = Ok pm /\ goods (words (cp_label c)) [["PreventSimultaneousUsage"%string]] pm).
  { destruct C6 as [->|[C6 C7]]; [exists []; split; [reflexivity|apply goods_nil]|].
    destruct (mapM_ok (fun i => o <- find_fo fos i ;; of_option AttributeError (fo_on o)) (fun _ v => v_bin v = true /\ v_len v = cx_n cx) (cp_prevent c)) as [ons [Eo Fo]].
    { intros i I. destruct (C7 _ I) as [f [If [<- On]]]. destruct (find_fine _ _ _ _ f Ff C4 If) as [o [-> [Fo _]]]. cbn [bind]. pose proof (ff_on _ _ _ _ Fo) as FO.
      destruct (f_onoff f); [|congruence]. destruct FO as [on [-> H]]. cbn. exists on. auto. }
    rewrite Eo. cbn [bind]. assert (LO : length ons = length (cp_prevent c)) by (clear -Fo; induction Fo; cbn; congruence).
    destruct (prevent_ok cx N (cp_label c) R ons) as [m [Em Gm]]; [lia|apply (Forall2_right _ _ _ _ Fo); auto|]. rewrite Em. cbn [bind].
    exists [m]. split; auto. destruct (cp_prevent c); [cbn in C6; lia|reflexivity]. }
  destruct S2 as [pm [-> GP]]. cbn [bind]. eexists. split; [reflexivity|]. split; cbn [bo_flows bo_on bo_subs bo_shares]; auto.
  - destruct (cp_onoff c); [destruct SO as [oz [-> Fo]]; cbn; exists (ot_on oz); split; auto; apply Fo|subst oo; reflexivity].
  - assert (GO : goods (words (cp_label c)) [["OnOff"%string]] (match oo with Some o => [ot_tree o] | None => [] end)).
    { destruct (cp_onoff c); [destruct SO as [oz [-> Fo]]; apply Fo|subst oo; apply goods_nil]. }
    apply goods_app.
    + apply goods_pairs; auto. clear -Ff. induction Ff as [|f o l m H F IH]; cbn [map]; constructor; auto. apply (ff_tree _ _ _ _ H).
    + apply (goods_app _ [["OnOff"%string]] [["PreventSimultaneousUsage"%string]]); auto. apply apart1. discriminate.
    + intros w w' W W'. apply in_map_iff in W. destruct W as [f [<- Hf]]. apply C3; auto. cbn in W' |- *. tauto.
  - exists (flat_map fo_shares fos), (match oo with Some o => ot_shares o | None => [] end). split; [reflexivity|]. split.
    + rewrite flat_map_concat_map. apply sgood_join.
      * clear -Ff. induction Ff as [|f o l m H F IH]; cbn [map]; constructor; auto. apply (ff_shares _ _ _ _ H).
      * apply (split_pairs_NoDup (fun f => words (cp_label c) ++ ""%string :: words (f_lab f))). clear -C2. induction C2 as [|a l H F IH]; constructor; auto.
        eapply Forall_impl; [|exact H]. intros b Hb. cbn beta in *. intros r r' E. rewrite <- !app_assoc in E. apply app_inv_head in E. cbn in E. injection E as E. exact (Hb _ _ E).
    + destruct (cp_onoff c); [destruct SO as [oz [-> Fo]]; apply Fo|subst oo; apply sfin_nil].
Qed.

(** ** Converters *)
Definition in_flows (c : component) (i : nat) : Prop := exists f, In f (cp_flows c) /\ f_id f = i.
Lemma lookup_in : forall {A} (l : list (nat * A)) i, mem_nat i (map fst l) = true -> exists a, lookup_nat l i = Some a /\ In (i, a) l.
Proof.
  intros A l i H. unfold lookup_nat. induction l as [|[k a] l IH]; [discriminate|]. cbn [map fst find]. destruct (Nat.eqb_spec k i) as [->|E].
  - exists a. split; [reflexivity|left; auto].
  - cbn [mem_nat map fst existsb] in H. apply orb_prop in H. destruct H as [H|H]; [apply Nat.eqb_eq in H; congruence|]. destruct (IH H) as [b [E1 I]]. exists b. split; auto. right; auto.
Qed.
Definition ord_ok (cx : ctx) : Prop := forall l x, In x (cx_ord cx l) <-> In x l.

Lemma conv_calls_ok : forall cx N c fos factors sign flows, ready cx N -> ord_ok cx -> Forall2 (flow_fine cx (cp_label c)) (cp_flows c) fos -> NoDup (map f_id (cp_flows c)) ->
  (forall k p, In (k, p) factors -> pfit N p) -> incl flows (cp_flows c) ->
  exists cs, conv_calls cx true fos factors sign (used_ids cx flows factors) = Ok cs /\ Forall (call_fit (cx_n cx)) cs
    /\ ((exists f p, In f flows /\ In (f_id f, p) factors) -> existsb is_summand cs = true).
Proof.
  intros cx N c fos factors sign flows R O Ff ND PF IN. unfold conv_calls.
  destruct (mapM_ok (fun i => p <- of_option KeyError (lookup_nat factors i) ;; a <- act cx true p ;; o <- find_fo fos i ;;
     Ok (AddS (fo_rate o) (if sign then a else nmap Qopp a) None false)) (fun _ a => call_fit (cx_n cx) a /\ is_summand a = true) (used_ids cx flows factors)) as [cs [E F]].
  - intros i I. unfold used_ids in I. apply (proj1 (O _ _)) in I. apply filter_In in I. destruct I as [I M]. apply nodup_In in I. apply in_map_iff in I. destruct I as [f [<- If]].
    destruct (lookup_in _ _ M) as [p [-> Ip]]. cbn [of_option bind]. destruct (act_ok _ _ _ R (PF _ _ Ip)) as [a [-> Fa]]. cbn [bind].
    destruct (find_fine _ _ _ _ f Ff ND (IN _ If)) as [o [-> [Fo _]]]. cbn [bind]. eexists. split; [reflexivity|]. split; [|reflexivity]. apply fit_all; [apply (ff_rate _ _ _ _ Fo)|]. destruct sign; auto. apply nmap_fit; auto.
  - exists cs. split; [exact E|]. split; [clear -F; induction F as [|i a l m [H _] F IH]; constructor; auto|]. intros [f [p [Hf Hp]]].
    assert (Z : In (f_id f) (used_ids cx flows factors)).
    { unfold used_ids. apply (proj2 (O _ _)). apply filter_In. split; [apply nodup_In; apply in_map; exact Hf|]. unfold mem_nat. apply existsb_exists. exists (f_id f). split; [apply in_map_iff; exists (f_id f, p); auto|apply Nat.eqb_refl]. }
    destruct F as [|i a l m [_ H] F]; [destruct Z|]. cbn. rewrite H. reflexivity.
Qed.
Lemma nodup_conv : forall k, NoDup (map (fun i => cat ["conversion_"; nat_str i]) (seq 0 k)).
Proof.
  intros k. apply FinFun.Injective_map_NoDup; [|apply seq_NoDup]. intros a b E. apply (f_equal words) in E.
  change (words (cat ["conversion"; "_"; nat_str a]) = words (cat ["conversion"; "_"; nat_str b])) in E. rewrite !words_us in E. apply app_inv_head, words_inj in E. apply nat_str_inj. exact E.
Qed.
Lemma converter_ok : forall cx N c fos factors, ready cx N -> ord_ok cx -> Forall2 (flow_fine cx (cp_label c)) (cp_flows c) fos -> NoDup (map f_id (cp_flows c)) ->
  factors <> [] -> (forall d k p, In d factors -> In (k, p) d -> pfit N p) -> (forall d, In d factors -> exists f p, In f (cp_flows c) /\ In (f_id f, p) d) ->
  exists cs, converter_cons cx true c fos factors = Ok cs /\ good (words (cp_label c)) true [] [] cs.
Proof.
  intros cx N c fos factors R O Ff ND NE PF US. unfold converter_cons. assert (G : (match factors with [] => false | _ => true end) = true) by (destruct factors; congruence). rewrite G. cbn [guard bind]. clear G.
  destruct (mapM_ok (fun p : nat * list (nat * param) => conversion_eq cx true c fos (fst p) (snd p))
     (fun p k => c_label k = vlabel (cp_label c) (cat ["conversion_"; nat_str (fst p)]) /\ con_ok k) (combine (seq 0 (length factors)) factors)) as [cs [E F]].
  { intros [i d] I. apply in_combine_r in I. cbn [fst snd]. unfold conversion_eq. pose proof (rd_n _ _ R).
    destruct (conv_calls_ok cx N c fos d true (cp_in c) R O Ff ND) as [ins [-> [Fi Si]]]; [intros; eapply PF; eauto|intros x X; apply in_or_app; auto|]. cbn [bind].
    destruct (conv_calls_ok cx N c fos d false (cp_out c) R O Ff ND) as [outs [-> [Fo So]]]; [intros; eapply PF; eauto|intros x X; apply in_or_app; auto|]. cbn [bind].
    next_eq' (cx_n cx). { apply Forall_app. split; auto. apply Forall_app. split; auto. constructor; [exact Logic.I|constructor]. }
    { rewrite !existsb_app. destruct (US _ I) as [f [p [Hf Hp]]]. unfold cp_flows in Hf. apply in_app_or in Hf. destruct Hf as [Hf|Hf]; [rewrite Si by eauto; reflexivity|rewrite So by eauto; apply orb_true_r]. }
    exists eq. auto. }
  exists cs. split; [exact E|]. apply good_own with (xs := []) (ys := map (fun i => cat ["conversion_"; nat_str i]) (seq 0 (length factors))).
  - reflexivity.
  - assert (L : map fst (combine (seq 0 (length factors)) factors) = seq 0 (length factors)).
    { assert (Q_ : length (seq 0 (length factors)) = length factors) by apply seq_length. revert Q_. generalize (seq 0 (length factors)). clear. induction factors as [|d l IH]; intros [|i m] H; cbn in *; try congruence. f_equal. apply IH. congruence. }
    rewrite <- L, !map_map. clear -F. induction F as [|p k l m [H _] F IH]; auto. cbn [map]. rewrite H, IH. reflexivity.
  - constructor.
  - apply nodup_conv.
  - cbn [app]. apply forallb_forall. intros x X. apply in_map_iff in X. destruct X as [i [<- _]]. reflexivity.
  - constructor.
  - clear -F. induction F as [|p k l m [_ H] F IH]; constructor; auto.
Qed.

(** ** Segments *)
Definition segs_data (N : nat) (c : component) (segs : list (nat * list (param * param))) : Prop :=
  cp_flows c <> [] /\ (forall f, In f (cp_flows c) -> exists s, lookup_nat segs (f_id f) = Some s
     /\ (forall f0, nth_error (cp_flows c) 0 = Some f0 -> forall s0, lookup_nat segs (f_id f0) = Some s0 -> (length s0 <= length s)%nat)
     /\ (forall p q, In (p, q) s -> pfit N p /\ pfit N q) /\ s <> []).
Lemma segments_ok : forall cx N c fos on segs, ready cx N -> Forall2 (flow_fine cx (cp_label c)) (cp_flows c) fos -> NoDup (map f_lab (cp_flows c)) -> segs_data N c segs ->
  (match on with Some v => v_len v = cx_n cx | None => True end) ->
  exists m, segmented_model cx true c fos on segs = Ok m /\ goods (words (cp_label c)) [["MultipleSegments"%string]; ["Segment"%string]] [m].
Proof.
  intros cx N c fos on segs R Ff ND [NE SD] ON. unfold segmented_model. pose proof (rd_n _ _ R) as N2.
  assert (H1 : forall f o, In f (cp_flows c) -> flow_fine cx (cp_label c) f o -> exists s ps, lookup_nat segs (f_id f) = Some s
     /\ (s0 <- of_option KeyError (lookup_nat segs (fo_id o)) ;;
         ps <- mapM (fun p : param * param => a <- act cx true (fst p) ;; b <- act cx true (snd p) ;; Ok (a, b)) s0 ;;
         Ok (fo_rate o, ps)) = Ok (fo_rate o, ps) /\ length ps = length s /\ forall a b, In (a, b) ps -> fitn (cx_n cx) a /\ fitn (cx_n cx) b).
  { intros f o If Fo. destruct (SD _ If) as [s [Es [_ [PF _]]]]. rewrite (ff_id _ _ _ _ Fo), Es. cbn [of_option bind].
    destruct (mapM_ok (fun p : param * param => a <- act cx true (fst p) ;; b <- act cx true (snd p) ;; Ok (a, b)) (fun _ r => fitn (cx_n cx) (fst r) /\ fitn (cx_n cx) (snd r)) s) as [ps [Ep Fp]].
    { intros [p q] I. destruct (PF _ _ I) as [Fp Fq]. cbn [fst snd]. destruct (act_ok _ _ _ R Fp) as [a [-> Fa]]. cbn [bind]. destruct (act_ok _ _ _ R Fq) as [b [-> Fb]]. cbn [bind]. exists (a, b). auto. }
    rewrite Ep. cbn [bind]. exists s, ps. split; auto. split; auto. split; [clear -Fp; induction Fp; cbn; congruence|].
    intros a b I. apply (Forall2_right _ (fun r => fitn (cx_n cx) (fst r) /\ fitn (cx_n cx) (snd r)) _ _ Fp) in I; auto. }
  match goal with |- context [mapM ?g fos] => destruct (mapM_ok g (fun o r => fst r = fo_rate o /\ exists f s, In f (cp_flows c) /\ flow_fine cx (cp_label c) f o /\ lookup_nat segs (f_id f) = Some s
     /\ length (snd r) = length s /\ forall a b, In (a, b) (snd r) -> fitn (cx_n cx) a /\ fitn (cx_n cx) b) fos) as [pts [Ep Fp]] end.
  { intros o Ho. assert (X : exists f, In f (cp_flows c) /\ flow_fine cx (cp_label c) f o).
    { clear -Ff Ho. induction Ff as [|f o' l m H F IH]; [contradiction|]. destruct Ho as [<-|Ho]; [exists f; split; [left; auto|auto]|]. destruct (IH Ho) as [g [G1 G2]]. exists g. split; [right; auto|auto]. }
    destruct X as [f [If Fo]]. destruct (H1 _ _ If Fo) as [s [ps [Es [E [L P]]]]]. rewrite E. exists (fo_rate o, ps). split; auto. split; auto. exists f, s. auto. }
  rewrite Ep. cbn [bind].
  assert (LB : map (fun t : variable * list (numeric * numeric) => v_label (fst t)) pts = map (fun f => vlabel (flow_full (cp_label c) (f_lab f)) "flow_rate") (cp_flows c)).
  { transitivity (map (fun o => v_label (fo_rate o)) fos).
    - clear -Fp. induction Fp as [|o r l m [H _] F IH]; auto. cbn [map]. rewrite H, IH. reflexivity.
    - clear -Ff. induction Ff as [|f o l m H F IH]; auto. cbn [map]. rewrite (iv_lab _ _ _ (ff_rate _ _ _ _ H)), IH. reflexivity. }
  apply multi_ok; auto.
  - lia.
  - intros ->. destruct (cp_flows c); [congruence|discriminate LB].
  - rewrite LB. rewrite <- (map_map f_lab (fun l => vlabel (flow_full (cp_label c) l) "flow_rate")). apply FinFun.Injective_map_NoDup; auto. intros a b E. apply (f_equal words) in E. unfold vlabel in E. rewrite !words_us in E.
    apply app_inv_tail in E. unfold flow_full in E. rewrite !words_us2 in E. apply app_inv_head in E. apply words_inj. congruence.
  - intros v ps I. destruct (Forall2_right _ (fun r => v_len (fst r) = cx_n cx /\ exists f s, In f (cp_flows c) /\ lookup_nat segs (f_id f) = Some s /\ length (snd r) = length s
       /\ forall a b, In (a, b) (snd r) -> fitn (cx_n cx) a /\ fitn (cx_n cx) b) _ _ Fp) with (b := (v, ps)) as [LV [f [s [If [Es [Ls P]]]]]]; auto.
    { intros o r [E [f [s [If [Fo [Es [Ls P]]]]]]]. split; [rewrite E; apply (ff_rate _ _ _ _ Fo)|]. exists f, s. auto. }
    cbn [fst snd] in *. split; auto. split; auto.
    destruct (SD _ If) as [s' [Es' [M _]]]. rewrite Es in Es'. injection Es' as <-. rewrite Ls.
    destruct Ff as [|f0 o0 fl fs' F0 Ff]; [contradiction|]. inversion Fp as [|x y l m HX FX]; subst. cbn [hd]. destruct HX as [_ [f1 [s1 [_ [F1 [E1 [L1 _]]]]]]].
    rewrite L1. apply (M f0); [reflexivity|]. rewrite <- (ff_id _ _ _ _ F0), (ff_id _ _ _ _ F1). exact E1.
  - intros v ps I. destruct (Forall2_right _ (fun r => exists f s, In f (cp_flows c) /\ lookup_nat segs (f_id f) = Some s /\ length (snd r) = length s) _ _ Fp) with (b := (v, ps)) as [f [s [If [Es Ls]]]]; auto.
    { intros o r [_ [f [s [If [_ [Es [Ls _]]]]]]]. exists f, s. auto. }
    destruct (SD _ If) as [s' [Es' [_ [_ NS_]]]]. rewrite Es in Es'. injection Es' as <-. cbn in Ls. intros ->. destruct s; [congruence|discriminate Ls].
Qed.

(** ** Transmissions *)
Lemma transmission_eq_ok : forall cx N comp name rel abs fi fo ffi ffo, ready cx N -> pfito N rel -> pfito N abs -> flow_fine cx comp ffi fi -> flow_fine cx comp ffo fo ->
  (abs <> None -> f_onoff ffi <> None) -> exists c, transmission_eq cx true comp name rel abs fi fo = Ok c /\ c_label c = vlabel comp name /\ con_ok c.
Proof.
  intros cx N comp name rel abs fi fo ffi ffo R Pr Pa Fi Fo G. unfold transmission_eq. pose proof (rd_n _ _ R).
  assert (S1 : exists e, match rel with None => Ok (NS 1) | Some p => a <- act cx true p ;; Ok (nmap (fun q => 1 - q) a) end = Ok e /\ fitn (cx_n cx) e).
  { destruct rel as [p|]; [|exists (NS 1); split; [reflexivity|exact I]]. destruct (act_ok _ _ _ R Pr) as [a [-> Fa]]. cbn. eexists. split; [reflexivity|apply nmap_fit; auto]. }
  destruct S1 as [e [-> Fe]]. cbn [bind].
  assert (S2 : exists l, match abs with
       | None => Ok []
       | Some p => o <- of_option AttributeError (fo_on fi) ;; a <- act cx true p ;;
                   Ok [AddS o (nmap Qopp a) None false]
       end = Ok l /\ Forall (call_fit (cx_n cx)) l).
  { destruct abs as [p|]; [|exists []; auto]. pose proof (ff_on _ _ _ _ Fi) as FO. destruct (f_onoff ffi); [|exfalso; apply G; congruence]. destruct FO as [on [-> [_ L]]]. cbn [of_option bind].
    destruct (act_ok _ _ _ R Pa) as [a [-> Fa]]. cbn [bind]. eexists. split; [reflexivity|]. constructor; [apply fit_all; auto; apply nmap_fit; auto|constructor]. }
  destruct S2 as [l [-> Fl]]. cbn [bind]. pose proof (ff_rate _ _ _ _ Fi) as Ii. pose proof (ff_rate _ _ _ _ Fo) as Io.
  apply (equation_ok (cx_n cx)); [lia| |reflexivity]. apply Forall_app. split; [calls'|exact Fl].
Qed.
Record trans_data (N : nat) (c : component) (rel abs : option param) : Prop := {
  td_fit : pfito N rel /\ pfito N abs;
  td_shape : cp_in c <> [] /\ cp_out c <> [] /\ ((2 <= length (cp_in c))%nat -> (2 <= length (cp_out c))%nat);
  td_on : abs <> None -> forall i f, (i < 2)%nat -> nth_error (cp_in c) i = Some f -> f_onoff f <> None;
  td_size : forall f g iv, nth_error (cp_in c) 0 = Some f -> nth_error (cp_in c) 1 = Some g -> f_size f = SzInv iv -> exists iv', f_size g = SzInv iv'
}.
Lemma transmission_ok : forall cx N c fos rel abs, ready cx N -> Forall2 (flow_fine cx (cp_label c)) (cp_flows c) fos -> trans_data N c rel abs ->
  exists cs, transmission_cons cx true c fos rel abs = Ok cs /\ good (words (cp_label c)) true [] [] cs.
Proof.
  intros cx N c fos rel abs R Ff [[Pr Pa] [SI [SO S2]] ON SZ]. unfold transmission_cons, cp_flows in *. apply Forall2_app_inv_l in Ff. destruct Ff as [ins [outs [Fi [Fo ->]]]].
  assert (LI : length (cp_in c) = length ins) by (clear -Fi; induction Fi; cbn; congruence). assert (LO : length (cp_out c) = length outs) by (clear -Fo; induction Fo; cbn; congruence).
  rewrite LI, firstn_app, Nat.sub_diag, firstn_all, skipn_app, Nat.sub_diag, skipn_all. cbn [firstn skipn]. rewrite app_nil_r. cbn [app].
  destruct Fi as [|f1 in1 l1 ins H1 Fi]; [congruence|]. destruct Fo as [|g1 out1 m1 outs K1 Fo]; [congruence|]. cbn [nth_error of_option bind].
  destruct (transmission_eq_ok cx N (cp_label c) "direction_1" rel abs in1 out1 f1 g1) as [c1 [E1 [L1 O1]]]; auto; [intros A; apply (ON A 0%nat); [lia|reflexivity]|]. rewrite E1. cbn [bind].
  assert (OWN : forall cs ys, map c_label cs = map (vlabel (cp_label c)) ys -> sub ys ["direction_1"; "direction_2"; "equal_size_in_both_directions"]%string -> Forall con_ok cs -> good (words (cp_label c)) true [] [] cs).
  { intros cs ys M S_ F. apply good_own with (xs := []) (ys := ys); auto; try constructor.
    - eapply sub_NoDup; [exact S_|apply nodup_str_NoDup; reflexivity].
    - cbn [app]. apply forallb_forall. intros x X. apply (sub_In _ _ _ S_) in X. destruct X as [<-|[<-|[<-|[]]]]; reflexivity. }
  destruct Fi as [|f2 in2 l2 ins H2 Fi]; cbn [nth_error].
  { exists [c1]. split; [reflexivity|]. apply (OWN _ ["direction_1"%string]); [cbn [map]; rewrite L1; reflexivity|repeat constructor|repeat constructor; auto]. }
  destruct Fo as [|g2 out2 m2 outs K2 Fo]; [exfalso; cbn in S2; lia|]. cbn [of_option bind].
  destruct (transmission_eq_ok cx N (cp_label c) "direction_2" rel abs in2 out2 f2 g2) as [c2 [E2 [L2 O2]]]; auto; [intros A; apply (ON A 1%nat); [lia|reflexivity]|]. rewrite E2. cbn [bind].
  pose proof (ff_size _ _ _ _ H1) as Z1. pose proof (ff_size _ _ _ _ H2) as Z2. destruct (f_size f1) as [q|iv] eqn:SF.
  - rewrite Z1. exists [c1; c2]. split; [reflexivity|]. apply (OWN _ ["direction_1"; "direction_2"]%string); [cbn [map]; rewrite L1, L2; reflexivity|repeat constructor|repeat constructor; auto].
  - destruct Z1 as [s1 [-> Y1]]. destruct (SZ f1 f2 iv eq_refl eq_refl SF) as [iv' SF2]. rewrite SF2 in Z2. destruct Z2 as [s2 [-> Y2]]. cbn [of_option bind].
    next_eq' 1%nat. exists [c1; c2; eq]. split; [reflexivity|].
    apply (OWN _ ["direction_1"; "direction_2"; "equal_size_in_both_directions"]%string); [cbn [map]; rewrite L1, L2, El; reflexivity|repeat constructor|repeat constructor; auto].
Qed.

(** ** Storages *)
Record store_data (cx : ctx) (N : nat) (s : storage) : Prop := {
  sd_rel : exists a b, act cx true (st_relmin s) = Ok a /\ act cx true (st_relmax s) = Ok b /\ fitn (cx_n cx + 1) a /\ fitn (cx_n cx + 1) b;
  sd_fit : pfit N (st_eta_c s) /\ pfit N (st_eta_d s) /\ pfit N (st_loss s);
  sd_eta : forall q, In q (nlist (pdata (st_eta_d s))) -> ~ q == 0;
  sd_init : st_init s <> ICBad;
  sd_inv : forall iv, st_cap s = CapInv iv -> inv_data_ok cx iv
}.
Lemma act_in : forall cx p a q, act cx true p = Ok a -> In q (nlist a) -> In q (nlist (pdata p)).
Proof.
  intros cx p a q H I. unfold act in H. cbn [guard bind] in H. unfold make_scalar in H. destruct (pdata p) as [x|[|x l]]; cbn [bind] in H.
  - cbn in H. injection H as <-. exact I.
  - cbn in H. discriminate H.
  - destruct (forallb _ _); cbn [bind active_of] in H; [injection H as <-; destruct I as [<-|[]]; left; auto|].
    destruct (cx_idx cx) as [ix|]; [|injection H as <-; exact I]. unfold take_idx in H. destruct (mapM _ ix) as [r|] eqn:E; cbn [bind] in H; [|discriminate H]. injection H as <-. cbn [nlist] in I |- *.
    revert r E I. induction ix as [|i ix IH]; intros r E I; cbn [mapM] in E; [injection E as <-; destruct I|].
    destruct (nth_error (x :: l) i) as [y|] eqn:Ey; cbn [of_option bind] in E; [|discriminate E]. destruct (mapM _ ix) as [r'|] eqn:Er; cbn [bind] in E; [|discriminate E]. injection E as <-.
    destruct I as [<-|I]; [eapply nth_error_In; eauto|]. eapply IH; eauto.
Qed.
Lemma ndiv_ok : forall n a, fitn n a -> (forall q, In q (nlist a) -> ~ q == 0) -> exists c, ndiv (NS 1) a = Ok c /\ fitn n c.
Proof.
  intros n a F NZ. unfold ndiv.
  assert (Z : (match a with NS y => Qeq_bool y 0 | NV l => existsb (fun y => Qeq_bool y 0) l end) = false).
  { destruct a as [y|l]; cbn in NZ.
    - destruct (Qeq_bool y 0) eqn:E; auto. apply Qeq_bool_iff in E. exfalso. eapply NZ; eauto.
    - destruct (existsb _ l) eqn:E; auto. apply existsb_exists in E. destruct E as [y [Y E]]. apply Qeq_bool_iff in E. exfalso. eapply NZ; eauto. }
  rewrite Z. apply bcast2_fit; [exact I|exact F].
Qed.
Definition store_cons : list string := ["netto_discharge"; "charge_state"; "initial_charge_state"; "eq_final_charge_state_max"; "eq_charge_state_end_min"]%string.
Record store_fine (cx : ctx) (comp : string) (o : sto_out) : Prop := {
  stf_own : good (words comp) true [] (so_vars o) (so_cons o);
  stf_subs : goods (words comp) inv_words (so_subs o);
  stf_shares : sfin cx comp inv_names (so_shares o)
}.
Lemma storage_ok : forall cx N comp s ch dis fch fdis, setting cx N -> store_data cx N s -> flow_fine cx comp fch ch -> flow_fine cx comp fdis dis ->
  exists o, storage_model cx true comp s ch dis = Ok o /\ store_fine cx comp o.
Proof.
  intros cx N comp s ch dis fch fdis [R EO ST] [[a [b [Ea [Eb [Fa Fb]]]]] [P1 [P2 P3]] ETA INI INV] Fch Fdis. unfold storage_model. pose proof (rd_n _ _ R) as N2. pose proof (rd_dt _ _ R) as DT.
  pose proof (ff_rate _ _ _ _ Fch) as Ic. pose proof (ff_rate _ _ _ _ Fdis) as Id.
  rewrite Ea, Eb. cbn [bind]. destruct (cap_limits cx (st_cap s)) as [lo hi].
  destruct (nmul_fit _ a (NS lo) Fa I) as [lb [-> Fl]]. cbn [bind]. destruct (nmul_fit _ b (NS hi) Fb I) as [ub [-> Fu]]. cbn [bind].
  destruct (create_long comp "charge_state" (cx_n cx + 1) false (Some lb) (Some ub) None) as [cs [-> [Ics _]]]; [lia|auto|auto|]. cbn [bind].
  destruct (create_long comp "netto_discharge" (cx_n cx) false None None None) as [nd [-> [Ind _]]]; [lia|exact I|exact I|]. cbn [bind].
  next_eq' (cx_n cx). rename eq into ceq, El into Lc, Eo into Oc.
  destruct (act_ok _ _ _ R P3) as [loss [-> F1]]. cbn [bind]. destruct (act_ok _ _ _ R P1) as [ec [-> F2]]. cbn [bind]. destruct (act_ok _ _ _ R P2) as [ed [Ed F3]]. rewrite Ed. cbn [bind].
  assert (DTF : fitn (cx_n cx) (NV (cx_dt cx))) by exact DT.
  destruct (nmul_fit _ loss (NV (cx_dt cx)) F1 DTF) as [f1 [-> G1]]. cbn [bind]. destruct (nmul_fit _ (nmap Qopp ec) (NV (cx_dt cx)) (nmap_fit _ _ _ F2) DTF) as [f2 [-> G2]]. cbn [bind].
  destruct (ndiv_ok _ ed F3) as [inv [-> G3]]; [intros q Hq; apply ETA; eapply act_in; eauto|]. cbn [bind]. destruct (nmul_fit _ inv (NV (cx_dt cx)) G3 DTF) as [f3 [-> G4]]. cbn [bind].
  next_eq' (cx_n cx). rename eq into bal, El into Lb, Eo into Ob.
  assert (S1 : exists io, (match st_cap s with
        | CapNum _ => Ok None
        | CapInv iv => i <- invest_model cx true comp iv cs a b None None ;; Ok (Some i)
        end) = Ok io /\ match st_cap s with CapInv _ => exists i, io = Some i /\ inv_fine comp cx i | CapNum _ => io = None end).
  { destruct (st_cap s) as [q|iv]; [exists None; auto|]. destruct (invest_ok comp cx iv cs a b None None (cx_n cx + 1)) as [i [-> Fi]]; auto; [lia|apply Ics|exact I|]. cbn [bind]. exists (Some i). split; auto. exists i. auto. }
  destruct S1 as [io [-> SI]]. cbn [bind].
  assert (S2 : exists ends, storage_ends cx comp s cs = Ok ends /\ Forall con_ok ends
     /\ exists ys, sub ys ["initial_charge_state"; "eq_final_charge_state_max"; "eq_charge_state_end_min"]%string /\ map c_label ends = map (vlabel comp) ys).
  { unfold storage_ends.
    assert (K : forall c0, con_ok c0 -> c_label c0 = vlabel comp "initial_charge_state" ->
      exists ends, (cmax <- match st_fmax s with
              | None => Ok []
              | Some q => c <- create_equation comp "eq_final_charge_state_max" KIneq
                                 [AddS cs (NS 1) (Some [cx_n cx]) false; AddC (NS q)] ;; Ok [c]
              end ;;
      cmin <- match st_fmin s with
              | None => Ok []
              | Some q => c <- create_equation comp "eq_charge_state_end_min" KIneq
                                 [AddS cs (NS (-1)) (Some [cx_n cx]) false; AddC (NS (- q))] ;; Ok [c]
              end ;;
      Ok (c0 :: cmax ++ cmin)) = Ok ends /\ Forall con_ok ends
     /\ exists ys, sub ys ["initial_charge_state"; "eq_final_charge_state_max"; "eq_charge_state_end_min"]%string /\ map c_label ends = map (vlabel comp) ys).
    { intros c0 O0 L0.
      destruct (st_fmax s) as [q|]; destruct (st_fmin s) as [r|]; repeat (next_eq' 1%nat); eexists; (split; [reflexivity|]); (split; [cbn [app]; repeat constructor; assumption|]); cbn [app map]; rewrite L0, ?El, ?El0.
      - exists ["initial_charge_state"; "eq_final_charge_state_max"; "eq_charge_state_end_min"]%string. split; [repeat constructor|reflexivity].
      - exists ["initial_charge_state"; "eq_final_charge_state_max"]%string. split; [repeat constructor|reflexivity].
      - exists ["initial_charge_state"; "eq_charge_state_end_min"]%string. split; [repeat constructor|reflexivity].
      - exists ["initial_charge_state"]%string. split; [repeat constructor|reflexivity]. }
    destruct (st_init s) as [|q| |]; [exists []; repeat split; auto; exists []; split; [constructor|reflexivity]| | |congruence].
    - next_eq' 1%nat. apply K; auto.
    - next_eq' 1%nat. apply K; auto. }
  destruct S2 as [ends [-> [Oe [ys [Sy My]]]]]. cbn [bind]. eexists. split; [reflexivity|]. split; cbn [so_vars so_cons so_subs so_shares].
  - apply good_own with (xs := ["charge_state"; "netto_discharge"]%string) (ys := "netto_discharge"%string :: "charge_state"%string :: ys).
    + cbn [map]. rewrite (iv_lab _ _ _ Ics), (iv_lab _ _ _ Ind). reflexivity.
    + cbn [app map]. rewrite Lc, Lb, My. reflexivity.
    + apply nodup_str_NoDup. reflexivity.
    + apply (sub_NoDup _ store_cons); [unfold store_cons; apply sub_keep, sub_keep; auto|apply nodup_str_NoDup; reflexivity].
    + apply forallb_forall. intros x X. cbn [app] in X. destruct X as [<-|[<-|[<-|[<-|X]]]]; try reflexivity. apply (sub_In _ _ _ Sy) in X. destruct X as [<-|[<-|[<-|[]]]]; reflexivity.
    + constructor; [apply Ics|]. constructor; [apply Ind|constructor].
    + cbn [app]. constructor; auto.
  - destruct (st_cap s); [subst io; apply goods_nil|destruct SI as [iz [-> Fi]]; apply Fi].
  - destruct (st_cap s); [subst io; apply sfin_nil|destruct SI as [iz [-> Fi]]; apply Fi].
Qed.

(** ** Whole components *)
Definition kind_data (cx : ctx) (N : nat) (c : component) : Prop :=
  match cp_kind c with
  | Plain => True
  | Converter fs => fs <> [] /\ (forall d k p, In d fs -> In (k, p) d -> pfit N p) /\ forall d, In d fs -> exists f p, In f (cp_flows c) /\ In (f_id f, p) d
  | Params.Segmented segs => segs_data N c segs
  | StorageC s => store_data cx N s /\ cp_in c <> [] /\ cp_out c <> []
  | TransmissionC rel abs => trans_data N c rel abs
  end.
Record comp_fine (cx : ctx) (c : component) (o : comp_out) : Prop := {
  cf_tree : rooted [words (cp_label c)] (vs_of [co_tree o]) (cs_of [co_tree o]);
  cf_flows : Forall2 (flow_fine cx (cp_label c)) (cp_flows c) (co_flows o);
  cf_shares : sgood cx (words (cp_label c) :: paths c) (co_shares o)
}.
Lemma Forall2_nth : forall {A B} (R : A -> B -> Prop) l m i a, Forall2 R l m -> nth_error l i = Some a -> exists b, nth_error m i = Some b /\ R a b.
Proof.
  intros A B R l m i a F. revert i. induction F as [|x y l m H F IH]; intros [|i] E; cbn in E; try discriminate E; [injection E as <-; exists y; auto|]. apply IH. exact E.
Qed.
Lemma comp_ok : forall cx N trf trc c0 c, setting cx N -> ord_ok cx -> trc (cp_label c0) = true -> prepared cx true c0 = Ok c -> comp_data cx N c -> kind_data cx N c ->
  (forall f, In f (cp_flows c) -> trf (flow_full (cp_label c) (f_lab f)) = true) ->
  exists o, comp_model cx trf trc c0 = Ok o /\ comp_fine cx c o.
Proof.
  intros cx N trf trc c0 c S O TC EP CD KD TF. pose proof (sg_ready _ _ S) as R. unfold comp_model. rewrite TC, EP. cbn [bind].
  destruct (base_ok cx N trf c S CD TF) as [b [Eb [BF BO BS [s1 [s2 [ES [SG SF]]]]]]]. rewrite Eb. cbn [bind].
  set (P := words (cp_label c)) in *.
  assert (S1 : exists o ws, (match cp_kind c with
       | Plain => Ok (mkSto [] [] [] [])
       | Converter fs => k <- converter_cons cx true c (bo_flows b) fs ;; Ok (mkSto [] k [] [])
       | Params.Segmented segs => m <- segmented_model cx true c (bo_flows b) (bo_on b) segs ;; Ok (mkSto [] [] [m] [])
       | StorageC s =>
           ch <- of_option AttributeError (nth_error (bo_flows b) 0) ;;
           dis <- of_option AttributeError (nth_error (bo_flows b) (length (cp_in c))) ;;
           storage_model cx true (cp_label c) s ch dis
       | TransmissionC rel abs => k <- transmission_cons cx true c (bo_flows b) rel abs ;; Ok (mkSto [] k [] [])
       end) = Ok o /\ good P true [] (so_vars o) (so_cons o) /\ goods P ws (so_subs o) /\ sfin cx (cp_label c) inv_names (so_shares o)
       /\ forall w, In w ws -> In w [["MultipleSegments"%string]; ["Segment"%string]; ["Investment"%string]; ["SegmentedShares"%string]]).
  { unfold kind_data in KD. destruct (cp_kind c) as [|fs|segs|s|rel abs].
    - exists (mkSto [] [] [] []), []. split; [reflexivity|]. split; [apply good_nil|]. split; [apply goods_nil|]. split; [apply sfin_nil|intros ? []].
    - destruct KD as [NE [PF US]]. destruct (converter_ok cx N c (bo_flows b) fs R O BF (cd_ids _ _ _ CD) NE PF US) as [k [-> G]]. cbn [bind]. exists (mkSto [] k [] []), []. split; [reflexivity|]. split; [exact G|]. split; [apply goods_nil|]. split; [apply sfin_nil|intros ? []].
    - destruct (segments_ok cx N c (bo_flows b) (bo_on b) segs R BF) as [m [-> G]]; auto.
      + pose proof (cd_split _ _ _ CD) as C2. apply split_pairs_NoDup in C2. rewrite <- (map_map f_lab words) in C2. apply NoDup_map_inv in C2. exact C2.
      + destruct (cp_onoff c); [destruct BO as [on [-> L]]; exact L|rewrite BO; exact I].
      + cbn [bind]. exists (mkSto [] [] [m] []), [["MultipleSegments"%string]; ["Segment"%string]]. split; [reflexivity|]. split; [apply good_nil|]. split; [exact G|]. split; [apply sfin_nil|]. intros w [<-|[<-|[]]]; cbn; auto.
    - destruct KD as [SD [NI NO]]. unfold cp_flows in BF.
      assert (X : exists f g, nth_error (cp_in c ++ cp_out c) 0 = Some f /\ nth_error (cp_in c ++ cp_out c) (length (cp_in c)) = Some g).
      { destruct (cp_in c) as [|f l]; [congruence|]. destruct (cp_out c) as [|g m]; [congruence|]. exists f, g. split; [reflexivity|]. rewrite nth_error_app2, Nat.sub_diag by lia. reflexivity. }
      destruct X as [f [g [X1 X2]]]. destruct (Forall2_nth _ _ _ _ _ BF X1) as [ch [-> Fch]]. destruct (Forall2_nth _ _ _ _ _ BF X2) as [dis [-> Fdis]]. cbn [of_option bind].
      destruct (storage_ok cx N (cp_label c) s ch dis f g S SD Fch Fdis) as [o [-> [Q1 Q2 Q3]]]. exists o, inv_words. split; [reflexivity|]. split; auto. split; auto. split; auto.
      intros w W. cbn in W |- *. tauto.
    - destruct (transmission_ok cx N c (bo_flows b) rel abs R BF KD) as [k [-> G]]. cbn [bind]. exists (mkSto [] k [] []), []. split; [reflexivity|]. split; [exact G|]. split; [apply goods_nil|]. split; [apply sfin_nil|intros ? []]. }
  destruct S1 as [o [ws [-> [G1 [G2 [G3 G4]]]]]]. cbn [bind]. rewrite (mk_em_ok _ _ _ _ _ _ _ _ G1). cbn [bind]. eexists. split; [reflexivity|].
  split; cbn [co_tree co_flows co_shares]; auto.
  - rewrite vs_node, cs_node, vs_app, cs_app. eapply rooted_good. apply (good_app P true false); [exact G1| |reflexivity|intros ? ? []].
    apply (good_app P false false); [exact BS|exact G2|reflexivity|]. intros w w' W W'. apply G4 in W'. apply in_app_or in W. destruct W as [W|W].
    + apply in_map_iff in W. destruct W as [f [<- Hf]]. apply (cd_res _ _ _ CD); auto. cbn in W' |- *. tauto.
    + cbn in W, W'. destruct W as [<-|[<-|[]]]; destruct W' as [<-|[<-|[<-|[<-|[]]]]]; apply split_head; discriminate.
  - rewrite ES, <- app_assoc. apply (sgood_more cx (paths c ++ [P])).
    + apply sgood_app; auto.
      * apply (sgood_elem cx (cp_label c) (oo_names ++ inv_names)).
        -- apply sfin_app; auto. intros x X Y. cbn in X, Y. intuition congruence.
        -- unfold oo_names, inv_names. cbn [app]. repeat constructor; unfold tidy; cbn; intuition discriminate.
      * intros E X [<-|[]]. unfold paths in X. apply in_map_iff in X. destruct X as [f [E _]]. fold P in E. apply (f_equal (@length string)) in E. rewrite app_length in E. cbn in E. lia.
    + intros x X. apply in_app_or in X. destruct X as [X|[<-|[]]]; [right; auto|left; auto].
Qed.
