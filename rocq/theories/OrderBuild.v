(** Building the program of a system whose elements were added in another order (used by PropsOrder.v). *)
From Verif Require Import Base BaseFacts MathModel Spec MathFacts Structure StructureFacts Params Features Elements System SysSpec NavFacts BusFacts ResultFacts ReadTools OrderFacts.

Lemma bind_ext : forall {A B} (a a' : res A) (k k' : A -> res B), a = a' -> (forall x, k x = k' x) -> bind a k = bind a' k'.
Proof. intros A B a a' k k' -> H. destruct a'; cbn; auto. Qed.
Lemma mapM_ext_ : forall {A B} (f g : A -> res B) l, (forall a, f a = g a) -> mapM f l = mapM g l.
Proof. intros A B f g l H. induction l as [|a l IH]; simpl; auto. rewrite H, IH. reflexivity. Qed.
Lemma optM_ext_ : forall {A B} (f g : A -> res B) o, (forall a, f a = g a) -> optM f o = optM g o.
Proof. intros A B f g [a|] H; cbn; auto. rewrite H. reflexivity. Qed.
Lemma find_perm : forall {A} (p : A -> bool) l m, (forall a b, In a l -> In b l -> p a = true -> p b = true -> a = b) -> Permutation l m -> find p l = find p m.
Proof.
  intros A p l m U P. destruct (find p l) as [a|] eqn:E; destruct (find p m) as [b|] eqn:F; auto.
  - apply find_some in E, F. f_equal. apply U; try tauto. eapply Permutation_in; [apply Permutation_sym; exact P|tauto].
  - apply find_some in E. pose proof (find_none _ _ F a) as N. rewrite N in E; [destruct E; discriminate|]. eapply Permutation_in; [exact P|tauto].
  - apply find_some in F. pose proof (find_none _ _ E b) as N. rewrite N in F; [destruct F; discriminate|].
    eapply Permutation_in; [apply Permutation_sym; exact P|tauto].
Qed.
Lemma existsb_find : forall {A} (p : A -> bool) l, existsb p l = match find p l with Some _ => true | None => false end.
Proof. intros A p l. induction l as [|a l IH]; simpl; auto. destruct (p a); auto. Qed.

Section Cx.
Variables (cx : ctx) (es : list effect) (o : list nat -> list nat).
Definition recx : ctx := mkCtx (cx_n cx) (cx_dt cx) (cx_total cx) (cx_prev cx) (cx_idx cx) es (cx_eps cx) (cx_big cx) o.
Hypothesis HS : standard_effect es = standard_effect (cx_effects cx).
Hypothesis HF : forall i, find (fun e => Nat.eqb (e_id e) i) es = find (fun e => Nat.eqb (e_id e) i) (cx_effects cx).

Lemma resolve_re : forall k, resolve recx k = resolve cx k.
Proof. intros [i|]; unfold resolve; cbn [recx cx_effects]; [rewrite !existsb_find, HF|rewrite HS]; reflexivity. Qed.
Lemma registered_re : forall i, registered recx i = registered cx i.
Proof. intros i. unfold registered. cbn [recx cx_effects]. rewrite !existsb_find, HF. reflexivity. Qed.
Lemma effect_label_re : forall i, effect_label recx i = effect_label cx i.
Proof. intros i. unfold effect_label. cbn [recx cx_effects]. rewrite HF. reflexivity. Qed.
Lemma emit_re : forall t e n v f x, emit recx t e n v f x = emit cx t e n v f x.
Proof. intros. unfold emit. apply mapM_ext_. intros. rewrite resolve_re. reflexivity. Qed.
Lemma emit_op_re : forall tr e n v f x, emit_op recx tr e n v f x = emit_op cx tr e n v f x.
Proof. intros. unfold emit_op. apply bind_ext; [reflexivity|intros; apply emit_re]. Qed.
Lemma emit_inv_re : forall tr e n v f x, emit_inv recx tr e n v f x = emit_inv cx tr e n v f x.
Proof. intros. unfold emit_inv. apply bind_ext; [reflexivity|intros; apply emit_re]. Qed.
Lemma segmented_shares_re : forall e s p eff v, segmented_shares recx e s p eff v = segmented_shares cx e s p eff v.
Proof.
  intros. unfold segmented_shares. repeat (apply bind_ext; [first [reflexivity|apply mapM_ext_; intros]|intros]); auto.
  - rewrite effect_label_re. reflexivity.
  - apply emit_re.
Qed.
Lemma invest_shares_re : forall tr e iv s v, invest_shares recx tr e iv s v = invest_shares cx tr e iv s v.
Proof.
  intros. unfold invest_shares. apply bind_ext; [apply emit_inv_re|intros]. apply bind_ext.
  - destruct (iv_optional iv); auto. apply bind_ext; [apply emit_inv_re|intros]. apply bind_ext; [apply emit_inv_re|reflexivity].
  - intros. apply bind_ext; [apply emit_inv_re|intros]. destruct (iv_seg iv) as [[p eff]|]; auto. rewrite segmented_shares_re. reflexivity.
Qed.
Lemma invest_model_re : forall tr e iv dv a b p v, invest_model recx tr e iv dv a b p v = invest_model cx tr e iv dv a b p v.
Proof.
  intros. unfold invest_model. apply bind_ext; [reflexivity|intros]. apply bind_ext; [reflexivity|intros [i c]]. apply bind_ext; [reflexivity|intros].
  rewrite invest_shares_re. reflexivity.
Qed.
Lemma onoff_model_re : forall tr e p vs bs, onoff_model recx tr e p vs bs = onoff_model cx tr e p vs bs.
Proof.
  intros. unfold onoff_model. do 7 (apply bind_ext; [reflexivity|intros]).
  apply bind_ext; [reflexivity|intros [voff coff]]. apply bind_ext; [reflexivity|intros [v1 k1]]. apply bind_ext; [reflexivity|intros [v2 k2]].
  apply bind_ext; [reflexivity|intros [[v3 k3] sw]]. apply bind_ext; [destruct sw; [apply emit_op_re|reflexivity]|intros].
  apply bind_ext; [apply emit_op_re|reflexivity].
Qed.
Lemma flow_model_re : forall tr c f, flow_model recx tr c f = flow_model cx tr c f.
Proof.
  intros. unfold flow_model. do 3 (apply bind_ext; [reflexivity|intros]). apply bind_ext; [apply optM_ext_; intros; apply onoff_model_re|intros].
  apply bind_ext.
  - destruct (f_size f); auto. apply bind_ext; [reflexivity|intros]. rewrite invest_model_re. reflexivity.
  - intros. do 3 (apply bind_ext; [reflexivity|intros]). apply bind_ext; [apply emit_op_re|reflexivity].
Qed.
Lemma base_model_re : forall trf tr c, base_model recx trf tr c = base_model cx trf tr c.
Proof.
  intros. unfold base_model. apply bind_ext; [apply mapM_ext_; intros; apply flow_model_re|intros].
  apply bind_ext; [apply optM_ext_; intros; apply onoff_model_re|reflexivity].
Qed.
Lemma storage_model_re : forall tr full s a b, storage_model recx tr full s a b = storage_model cx tr full s a b.
Proof.
  intros. unfold storage_model. do 2 (apply bind_ext; [reflexivity|intros]). change (cap_limits recx) with (cap_limits cx). destruct (cap_limits cx (st_cap s)).
  do 13 (apply bind_ext; [reflexivity|intros]). apply bind_ext; [|reflexivity].
  destruct (st_cap s); auto. rewrite invest_model_re. reflexivity.
Qed.
Lemma prepared_re : forall tr c, prepared recx tr c = prepared cx tr c.
Proof. reflexivity. Qed.

(** ** Conversion equations *)
Variables (p1 : forall l, Permutation (cx_ord cx l) l) (p2 : forall l, Permutation (o l) l).
Lemma used_ids_re : forall fl fac, Permutation (used_ids cx fl fac) (used_ids recx fl fac).
Proof. intros. unfold used_ids. cbn [recx cx_ord]. eapply perm_trans; [apply p1|apply Permutation_sym, p2]. Qed.
Lemma conv_calls_re : forall tr fos fac s l l' r, Permutation l l' -> conv_calls cx tr fos fac s l = Ok r ->
  exists r', conv_calls recx tr fos fac s l' = Ok r' /\ Permutation r r' /\ Forall is_term r.
Proof.
  intros tr fos fac s l l' r P H. unfold conv_calls in *. destruct (mapM_perm _ _ _ _ P H) as [r' [E P']]. exists r'. split; [exact E|]. split; auto.
  apply Forall_forall. intros a Ha. destruct (mapM_In_inv _ _ _ _ H Ha) as [i [_ Ei]]. bnd Ei q1 E1. bnd Ei q2 E2. bnd Ei q3 E3. fin Ei. exact I.
Qed.
Lemma conversion_eq_re : forall tr c fos i fac k, conversion_eq cx tr c fos i fac = Ok k -> exists k', conversion_eq recx tr c fos i fac = Ok k' /\ con_eqv k k'.
Proof.
  intros tr c fos i fac k H. unfold conversion_eq in *. bnd H a Ea. bnd H b Eb.
  destruct (conv_calls_re _ _ _ _ _ _ _ (used_ids_re _ _) Ea) as [a' [Ea' [Pa Ta]]].
  destruct (conv_calls_re _ _ _ _ _ _ _ (used_ids_re _ _) Eb) as [b' [Eb' [Pb Tb]]].
  rewrite Ea'. cbn [bind]. rewrite Eb'. cbn [bind]. rewrite app_assoc in H. rewrite app_assoc.
  exact (create_equation_perm _ _ _ [] (a ++ b) (a' ++ b') [AddC (NS 0)] k (Permutation_app Pa Pb) (proj2 (Forall_app _ _ _) (conj Ta Tb)) H).
Qed.
Lemma converter_cons_re : forall tr c fos fs k, converter_cons cx tr c fos fs = Ok k ->
  exists k', converter_cons recx tr c fos fs = Ok k' /\ Forall2 con_eqv k k'.
Proof.
  intros tr c fos fs k H. unfold converter_cons in *. bnd H u Eu. rewrite Eu. cbn. refine (mapM_rel _ _ _ _ _ _ H).
  intros a b _ E. apply conversion_eq_re. exact E.
Qed.

(** The pieces a component contributes, up to the order of summands. *)
Definition comp_eqv (a b : comp_out) : Prop := co_flows b = co_flows a /\ co_shares b = co_shares a /\ sys_eqv [co_tree a] [co_tree b].
Lemma comp_eqv_refl : forall a, comp_eqv a a.
Proof. intros a. repeat split; auto; apply sys_eqv_refl. Qed.
Lemma labels_eqv : forall k k', Forall2 con_eqv k k' -> map c_label k' = map c_label k.
Proof. induction 1 as [|a b k k' Q F IH]; simpl; auto. rewrite IH, (ce_label _ _ Q). reflexivity. Qed.
Lemma comp_model_re : forall trf trc c co, comp_model cx trf trc c = Ok co -> exists co', comp_model recx trf trc c = Ok co' /\ comp_eqv co co'.
Proof.
  intros trf trc c0 co H. unfold comp_model in *. rewrite prepared_re. bnd H c Ec. rewrite Ec. cbn [bind]. rewrite base_model_re. bnd H b Eb. rewrite Eb. cbn [bind].
  destruct (cp_kind c) as [|fs|segs|s|rl ab].
  - exists co. split; [exact H|apply comp_eqv_refl].
  - bnd H w Ew. bnd Ew k Ek. fin Ew. destruct (converter_cons_re _ _ _ _ _ Ek) as [k' [E' F]]. rewrite E'. cbn [bind so_vars so_cons so_subs so_shares] in *.
    bnd H m Em. fin H. apply mk_em_spec in Em. destruct Em as [-> [N1 N2]].
    unfold mk_em. rewrite (labels_eqv _ _ F). pose proof N2 as N2'. apply nodup_str_NoDup in N2. rewrite N2. apply nodup_str_NoDup in N1. rewrite N1. cbn [guard bind].
    eexists. split; [reflexivity|]. split; [reflexivity|]. split; [reflexivity|]. cbn [co_tree]. apply sys_eqv_node; auto.
    + exists k'. split; auto.
    + apply sys_eqv_refl.
  - exists co. split; [exact H|apply comp_eqv_refl].
  - exists co. split; [|apply comp_eqv_refl]. rewrite <- H. apply bind_ext; [|reflexivity]. apply bind_ext; [reflexivity|intros]. apply bind_ext; [reflexivity|intros].
    apply storage_model_re.
  - exists co. split; [exact H|apply comp_eqv_refl].
Qed.

(** ** Buses *)
Definition bus_eqv (a b : emodel * list share) : Prop := snd b = snd a /\ sys_eqv [fst a] [fst b].
Lemma bus_model_re : forall b i i' u u' r, Permutation i i' -> Permutation u u' -> bus_model cx b i u = Ok r ->
  exists r', bus_model recx b i' u' = Ok r' /\ bus_eqv r r'.
Proof.
  intros b i i' u u' r Pi Pu H. unfold bus_model in *.
  assert (P : Permutation (map (fun v => AddS v (NS 1) None false) i ++ map (fun v => AddS v (NS (-1)) None false) u)
                (map (fun v => AddS v (NS 1) None false) i' ++ map (fun v => AddS v (NS (-1)) None false) u'))
    by (apply Permutation_app; apply Permutation_map; auto).
  assert (T : Forall is_term (map (fun v => AddS v (NS 1) None false) i ++ map (fun v => AddS v (NS (-1)) None false) u)).
  { apply Forall_forall. intros a Ha. apply in_app_or in Ha. destruct Ha as [Ha|Ha]; apply in_map_iff in Ha; destruct Ha as [v [<- _]]; exact I. }
  set (fl := map _ i ++ map _ u) in *. set (fl' := map _ i' ++ map _ u') in *.
  destruct (b_penalty b) as [p|].
  - bnd H a Ea. change (act recx) with (act cx). rewrite Ea. cbn [bind]. bnd H pen Ep. cbn [recx cx_dt]. rewrite Ep. cbn [bind].
    bnd H ei Ei. cbn [recx cx_n]. rewrite Ei. cbn [bind]. bnd H eo Eo. rewrite Eo. cbn [bind]. bnd H c Ec.
    destruct (create_equation_perm _ _ _ [] fl fl' _ c P T Ec) as [c' [Ec' Q]]. cbn [app] in Ec'. rewrite Ec'. cbn [bind].
    bnd H m Em. fin H. apply mk_em_spec in Em. destruct Em as [-> [N1 N2]]. unfold mk_em. apply nodup_str_NoDup in N1. rewrite N1. cbn [guard bind map nodup_str].
    eexists. split; [reflexivity|]. split; [reflexivity|]. cbn [fst]. apply sys_eqv_node; auto; [|apply sys_eqv_refl].
    exists [c']. split; auto.
  - bnd H c Ec. pose proof (app_nil_r fl) as N. rewrite <- N in Ec. destruct (create_equation_perm _ _ _ [] fl fl' [] c P T Ec) as [c' [Ec' Q]].
    cbn [app] in Ec'. rewrite app_nil_r in Ec'. rewrite Ec'. cbn [bind]. bnd H m Em. fin H. apply mk_em_spec in Em. destruct Em as [-> _]. cbn.
    eexists. split; [reflexivity|]. split; [reflexivity|]. cbn [fst]. apply sys_eqv_node; auto; [|apply sys_eqv_refl]. exists [c']. split; auto.
Qed.

(** ** Effects *)
Definition alloc_eqv (a b : sa_out) : Prop := sa_sum b = sa_sum a /\ sa_sum_ts b = sa_sum_ts a /\ sys_eqv [sa_tree a] [sa_tree b].
Lemma terms_of : forall (l : list (share * ss_out)), Forall is_term (map (fun so : share * ss_out => AddS (ss_var (snd so)) (NS 1) None false) l).
Proof. intros l. apply Forall_forall. intros a Ha. apply in_map_iff in Ha. destruct Ha as [v [<- _]]. exact I. Qed.
Lemma share_alloc_re : forall elem label ts t1 t2 q1 q2 shs shs' a, Permutation shs shs' -> share_alloc cx elem label ts t1 t2 q1 q2 shs = Ok a ->
  exists a', share_alloc recx elem label ts t1 t2 q1 q2 shs' = Ok a' /\ alloc_eqv a a'.
Proof.
  intros elem label ts t1 t2 q1 q2 shs shs' a P H. unfold share_alloc in *. bnd H u Eu. rewrite Eu. cbn [bind]. bnd H s Es. rewrite Es. cbn [bind].
  change (alloc_ts recx) with (alloc_ts cx). bnd H st Est. rewrite Est. cbn [bind]. bnd H si Esi. destruct (mapM_perm _ _ _ _ P Esi) as [si' [Esi' Ps]].
  rewrite Esi'. cbn [bind]. bnd H w Ew. unfold assert_ in *. destruct (nodup_str (map sh_name shs)) eqn:NN; [|discriminate].
  rewrite (nodup_str_perm _ _ (Permutation_map sh_name P) NN). cbn [guard bind]. clear Ew w.
  cbv zeta in *. bnd H cs Ecs. rewrite app_assoc in Ecs. rewrite <- (app_nil_r (map _ (filter _ si))) in Ecs.
  edestruct create_equation_perm as [cs' [Ecs' Qs]]; [|apply terms_of|exact Ecs|].
  { apply Permutation_map, Permutation_filter_, Ps. }
  rewrite app_nil_r in Ecs'. rewrite app_assoc, Ecs'. cbn [bind]. bnd H ct Ect.
  assert (C : exists ct', match st with
         | Some v =>
             c <- create_equation (model_full elem (Some label)) (cat [label; "_time_series"]) KEq
                    (AddS v (NS (-1)) None false ::
                     map (fun so : share * ss_out => AddS (ss_var (snd so)) (NS 1) None false)
                       (filter (fun so : share * ss_out => negb (sh_as_sum (fst so) || negb ts)%bool) si')) ;;
             Ok [c]
         | None => Ok []
         end = Ok ct' /\ Forall2 con_eqv ct ct').
  { destruct st as [v|]; [|exists []; fin Ect; split; auto]. bnd Ect c Ec. fin Ect. rewrite <- (app_nil_r (map _ (filter _ si))) in Ec.
    edestruct (create_equation_perm (model_full elem (Some label)) (cat [label; "_time_series"]) KEq [AddS v (NS (-1)) None false]) as [c' [Ec' Qc]];
      [|apply terms_of|exact Ec|].
    { apply Permutation_map, Permutation_filter_, Ps. }
    rewrite app_nil_r in Ec'. cbn [app] in Ec'. rewrite Ec'. cbn [bind]. eexists. split; [reflexivity|]. auto. }
  destruct C as [ct' [Ect' Fc]]. rewrite Ect'. cbn [bind]. bnd H m Em. fin H. apply mk_em_spec in Em. destruct Em as [-> [N1 N2]].
  assert (F : Forall2 con_eqv (cs :: ct) (cs' :: ct')) by (constructor; auto).
  unfold mk_em. rewrite (labels_eqv _ _ F). apply nodup_str_NoDup in N1, N2. rewrite N1, N2. cbn [guard bind].
  eexists. split; [reflexivity|]. split; [reflexivity|]. split; [reflexivity|]. cbn [sa_tree]. apply sys_eqv_node; auto.
  - eexists. split; [exact F|apply Permutation_refl].
  - apply sys_eqv_perm, Permutation_map, Ps.
Qed.
Lemma sys_eqv_cons : forall a b l m, sys_eqv [a] [b] -> sys_eqv l m -> sys_eqv (a :: l) (b :: m).
Proof. intros a b l m H1 H2. change (a :: l) with ([a] ++ l). change (b :: m) with ([b] ++ m). apply sys_eqv_app; auto. Qed.
Lemma effect_model_re : forall tre shs shs' e m, Permutation shs shs' -> effect_model cx tre shs e = Ok m ->
  exists m', effect_model recx tre shs' e = Ok m' /\ sys_eqv [m] [m'].
Proof.
  intros tre shs shs' e m P H. unfold effect_model in *. change (act recx) with (act cx). bnd H a Ea. rewrite Ea. cbn [bind]. bnd H b Eb. rewrite Eb. cbn [bind].
  bnd H i Ei. destruct (share_alloc_re _ _ _ _ _ _ _ _ _ _ (Permutation_filter_ (is_inv (e_id e)) _ _ P) Ei) as [i' [Ei' [I1 [_ I3]]]]. rewrite Ei'. cbn [bind].
  bnd H p Ep. destruct (share_alloc_re _ _ _ _ _ _ _ _ _ _ (Permutation_filter_ (is_op (e_id e)) _ _ P) Ep) as [p' [Ep' [P1 [_ P3]]]]. rewrite Ep'. cbn [bind].
  bnd H l El. rewrite I1, P1. destruct (share_alloc_re _ _ _ _ _ _ _ _ _ _ (Permutation_refl _) El) as [l' [El' [_ [_ L3]]]]. rewrite El'. cbn [bind].
  apply mk_em_spec in H. destruct H as [-> _]. eexists. split; [reflexivity|]. apply sys_eqv_node; auto; [exists []; split; auto|].
  apply sys_eqv_cons; [exact I3|]. apply sys_eqv_cons; [exact P3|exact L3].
Qed.
Hypothesis HO : objective_effect es = objective_effect (cx_effects cx).
Hypothesis HP : Permutation (cx_effects cx) es.
Lemma effects_model_re : forall tre shs shs' m obj, Permutation shs shs' -> effects_model cx tre shs = Ok (m, obj) ->
  exists m', effects_model recx tre shs' = Ok (m', obj) /\ sys_eqv [m] [m'].
Proof.
  intros tre shs shs' m obj P H. unfold effects_model in *.
  assert (EO : forall l, mapM (between_op recx tre) l = mapM (between_op cx tre) l).
  { intros l. apply mapM_ext_. intros e. unfold between_op. apply mapM_ext_. intros kp. rewrite registered_re. reflexivity. }
  assert (EI : forall l, mapM (between_inv recx) l = mapM (between_inv cx) l).
  { intros l. apply mapM_ext_. intros e. unfold between_inv. apply mapM_ext_. intros kp. rewrite registered_re. reflexivity. }
  rewrite EO, EI. cbn [recx cx_effects]. bnd H bo Ebo. destruct (mapM_perm _ _ _ _ HP Ebo) as [bo' [Ebo' Pbo]]. rewrite Ebo'. cbn [bind].
  bnd H bi Ebi. destruct (mapM_perm _ _ _ _ HP Ebi) as [bi' [Ebi' Pbi]]. rewrite Ebi'. cbn [bind]. cbv zeta in *.
  assert (PC : forall (l l' : list (list share)), Permutation l l' -> Permutation (List.concat l) (List.concat l')).
  { intros l l' Q. pose proof (Permutation_flat_map_l (fun a : list share => a) _ _ Q) as R. rewrite !flat_map_concat_map, !map_id in R. exact R. }
  set (all := List.concat bo ++ List.concat bi ++ shs) in *. set (all' := List.concat bo' ++ List.concat bi' ++ shs') in *.
  assert (PA : Permutation all all') by (apply Permutation_app; [auto|apply Permutation_app; auto]).
  bnd H ms Ems. destruct (mapM_perm_rel (effect_model cx tre all) (effect_model recx tre all') (fun d e => sys_eqv [d] [e]) _ _ ms HP) as [ms' [Ems' R]]; auto.
  { intros e b _ E. apply (effect_model_re _ _ _ _ _ PA E). }
  rewrite Ems'. cbn [bind]. bnd H pen Epen. destruct (share_alloc_re _ _ _ _ _ _ _ _ _ _ (Permutation_filter_ is_pen _ _ PA) Epen) as [pen' [Epen' [S1 [_ S3]]]].
  rewrite Epen'. cbn [bind]. rewrite HO. bnd H oe Eoe. rewrite Eoe. cbn [bind]. bnd H vo Evo. rewrite Evo. cbn [bind]. bnd H vi Evi. rewrite Evi. cbn [bind].
  rewrite S1. bnd H ob Eob. rewrite Eob. cbn [bind]. bnd H root Er. apply mk_em_spec in Er. destruct Er as [-> _]. apply Ok_inj in H. inversion H; subst. cbn [mk_em map nodup_str guard bind].
  eexists. split; [reflexivity|]. apply sys_eqv_node; auto; [exists []; split; auto|]. apply sys_eqv_app; [apply sys_eqv_rel, R|exact S3].
Qed.
End Cx.

(** ** Only the values of the visibility tests matter *)
Lemma comp_model_ext : forall cx f f' g g' c, (forall l, f l = f' l) -> (forall l, g l = g' l) -> comp_model cx f g c = comp_model cx f' g' c.
Proof.
  intros cx f f' g g' c Hf Hg. unfold comp_model. rewrite (Hg (cp_label c)). apply bind_ext; [reflexivity|intros d]. apply bind_ext; [|reflexivity].
  unfold base_model. apply bind_ext; [|reflexivity]. apply mapM_ext_. intros a. rewrite Hf. reflexivity.
Qed.
Lemma effects_model_ext : forall cx f g shs, (forall l, f l = g l) -> effects_model cx f shs = effects_model cx g shs.
Proof.
  intros cx f g shs H. unfold effects_model. apply bind_ext.
  - apply mapM_ext_. intros e. unfold between_op. apply mapM_ext_. intros kp. rewrite H. reflexivity.
  - intros bo. apply bind_ext; [reflexivity|intros bi]. apply bind_ext; [|reflexivity]. apply mapM_ext_. intros e. unfold effect_model. rewrite H. reflexivity.
Qed.
Lemma mem_str_perm : forall x l m, Permutation l m -> mem_str x l = mem_str x m.
Proof.
  intros x l m P. unfold mem_str. induction P as [|a l m P IH|a b l|l m k P1 IH1 P2 IH2]; simpl; auto.
  - rewrite IH. reflexivity.
  - destruct (String.eqb x a), (String.eqb x b); reflexivity.
  - congruence.
Qed.

Lemma perm_rel_mapped : forall {A B C D} (R : A -> B -> Prop) (S : C -> D -> Prop) (f : A -> C) (g : B -> D) l m,
  (forall a b, R a b -> S (f a) (g b)) -> perm_rel R l m -> perm_rel S (map f l) (map g m).
Proof.
  intros A B C D R S f g l m H [k [F P]]. exists (map g k). split; [|apply Permutation_map, P]. clear P. induction F; simpl; constructor; auto.
Qed.

(** ** Systems *)
Record reord (fs fs' : flow_system) : Prop := {
  ro_times : fs_times fs' = fs_times fs; ro_end : fs_end fs' = fs_end fs; ro_prev : fs_prev_dt fs' = fs_prev_dt fs;
  ro_comps : Permutation (fs_comps fs) (fs_comps fs'); ro_effects : Permutation (fs_effects fs) (fs_effects fs') }.

Lemma NoDup_map_eq : forall {A} (g : A -> nat) l a b, NoDup (map g l) -> In a l -> In b l -> g a = g b -> a = b.
Proof. intros A g l a b N Ha Hb E. pose proof (find_unique g l a N Ha) as F. rewrite E, (find_unique g l b N Hb) in F. congruence. Qed.

Section Sys.
Variables (cf : config) (ord ord' : list nat -> list nat) (fs fs' : flow_system) (idx : option (list nat)).
Hypothesis PO : forall l, Permutation (ord l) l.
Hypothesis PO' : forall l, Permutation (ord' l) l.
Hypothesis R : reord fs fs'.
Hypothesis DB : distinct_buses fs.
Hypothesis DE : NoDup (map e_id (fs_effects fs)).
Hypothesis OS : forall a b, In a (fs_effects fs) -> In b (fs_effects fs) -> e_std a = true -> e_std b = true -> a = b.
Hypothesis OO : forall a b, In a (fs_effects fs) -> In b (fs_effects fs) -> e_obj a = true -> e_obj b = true -> a = b.

Lemma all_flows_re : Permutation (all_flows fs) (all_flows fs').
Proof. unfold all_flows. apply Permutation_flat_map_l, (ro_comps _ _ R). Qed.
Lemma used_bus_re : forall b, used_bus fs b <-> used_bus fs' b.
Proof.
  intros b. split; intros [c [f [Hc H]]]; exists c, f; split; auto.
  - exact (Permutation_in _ (ro_comps _ _ R) Hc).
  - exact (Permutation_in _ (Permutation_sym (ro_comps _ _ R)) Hc).
Qed.
Lemma distinct_buses_re : distinct_buses fs'.
Proof. destruct DB as [D1 D2]. split; intros b b' U U' E; apply used_bus_re in U, U'; [apply D1|apply D2]; auto. Qed.
Lemma buses_re : NoDup (map (fun cf => f_id (snd cf)) (all_flows fs)) -> Permutation (buses ord fs) (buses ord' fs').
Proof.
  intros ND. assert (ND' : NoDup (map (fun cf => f_id (snd cf)) (all_flows fs'))) by (eapply Permutation_NoDup; [apply Permutation_map, all_flows_re|exact ND]).
  assert (NB : forall o f, NoDup (buses o f)). { intros o f. eapply NoDup_map_inv. apply (bus_labels_nodup o f). }
  apply NoDup_Permutation; [apply NB|apply NB|]. intros b. split; intros H.
  - apply buses_complete; auto; [apply distinct_buses_re|]. apply used_bus_re. eapply buses_used; eauto.
  - apply buses_complete; auto. apply used_bus_re. eapply buses_used; eauto.
Qed.
Lemma bus_inputs_re : forall b, Permutation (bus_inputs fs b) (bus_inputs fs' b).
Proof. intros b. unfold bus_inputs. apply Permutation_flat_map_l, (ro_comps _ _ R). Qed.
Lemma bus_outputs_re : forall b, Permutation (bus_outputs fs b) (bus_outputs fs' b).
Proof. intros b. unfold bus_outputs. apply Permutation_flat_map_l, (ro_comps _ _ R). Qed.
Lemma visible_flow_re : forall l, visible_flow fs' l = visible_flow fs l.
Proof. intros l. unfold visible_flow, bus_labels. f_equal. symmetry. apply mem_str_perm, Permutation_map, all_flows_re. Qed.
Lemma visible_effect_re : forall l, visible_effect fs' l = visible_effect fs l.
Proof.
  intros l. unfold visible_effect, bus_labels, flow_fulls. f_equal. symmetry. f_equal; apply mem_str_perm, Permutation_map, all_flows_re.
Qed.
Lemma visible_comp_re : forall l, visible_comp fs' l = visible_comp fs l.
Proof.
  intros l. unfold visible_comp, bus_labels, flow_fulls, effect_labels. f_equal. symmetry.
  f_equal; [f_equal|]; apply mem_str_perm, Permutation_map; [apply (ro_effects _ _ R)|apply all_flows_re|apply all_flows_re].
Qed.

Theorem build_reordered : forall pm, build cf ord fs idx = Ok pm ->
  exists pm', build cf ord' fs' idx = Ok pm' /\ forall x, (feasible pm x <-> feasible pm' x) /\ objective_value pm x == objective_value pm' x.
Proof.
  intros pm H. destruct (build_parts _ _ _ _ _ H) as [cx0 [cos0 [bos0 [em0 [obj0 PA]]]]].
  pose proof (all_ids _ _ _ _ _ _ _ _ _ _ PA) as AI. pose proof (sy_build _ _ _ _ _ _ _ _ _ _ PA) as SB. unfold build in H. bnd H b Eb. rewrite Eb in SB. apply Ok_inj in SB. unfold build_system in Eb.
  bnd Eb cx Ecx. bnd Eb u Eu. bnd Eb cos Ecos. bnd Eb bos Ebos. bnd Eb emo Eem. destruct emo as [em obj]. fin Eb.
  unfold guard in Eu. destruct (no_dup_nat _) eqn:ND0 in Eu; [|discriminate]. clear Eu. pose proof (no_dup_nat_NoDup _ ND0) as ND.
  set (cx' := recx cx (fs_effects fs') ord').
  assert (CX : make_ctx cf ord' fs' idx = Ok cx' /\ cx_effects cx = fs_effects fs /\ cx_ord cx = ord).
  { unfold make_ctx in *. unfold time_data in *. unfold fs_with_end in *. rewrite (ro_times _ _ R), (ro_end _ _ R), (ro_prev _ _ R).
    bnd Ecx w Ew. destruct w as [dt tot]. rewrite Ew. cbn [bind]. fin Ecx. auto. }
  destruct CX as [CX [CE CO]].
  assert (HS : standard_effect (fs_effects fs') = standard_effect (cx_effects cx)). { rewrite CE. symmetry. apply find_perm; [exact OS|apply (ro_effects _ _ R)]. }
  assert (HO : objective_effect (fs_effects fs') = objective_effect (cx_effects cx)). { rewrite CE. symmetry. apply find_perm; [exact OO|apply (ro_effects _ _ R)]. }
  assert (HF : forall i, find (fun e => Nat.eqb (e_id e) i) (fs_effects fs') = find (fun e => Nat.eqb (e_id e) i) (cx_effects cx)).
  { intros i. rewrite CE. symmetry. apply find_perm; [|apply (ro_effects _ _ R)]. intros a c Ha Hc Ea Ec. apply Nat.eqb_eq in Ea, Ec.
    eapply (NoDup_map_eq e_id); eauto. congruence. }
  assert (Q1 : forall l, Permutation (cx_ord cx l) l) by (rewrite CO; exact PO).
  assert (HP : Permutation (cx_effects cx) (fs_effects fs')) by (rewrite CE; apply (ro_effects _ _ R)).
  assert (ND0' : no_dup_nat (map (fun cf => f_id (snd cf)) (all_flows fs')) = true).
  { unfold no_dup_nat. apply Nat.eqb_eq. rewrite nodup_fixed_point; auto. eapply Permutation_NoDup; [apply Permutation_map, all_flows_re|exact ND]. }
  unfold build, build_system. rewrite CX. cbn [bind]. rewrite ND0'. cbn [guard bind].
  destruct (mapM_perm_rel (comp_model cx (visible_flow fs) (visible_comp fs)) (comp_model cx' (visible_flow fs') (visible_comp fs')) comp_eqv _ _ cos (ro_comps _ _ R))
    as [cos' [Ecos' RC]]; auto.
  { intros c o _ E. rewrite (comp_model_ext _ _ _ _ _ _ visible_flow_re visible_comp_re). apply comp_model_re; auto. }
  rewrite Ecos'. cbn [bind].
  assert (PF : Permutation (flat_map co_flows cos) (flat_map co_flows cos')).
  { eapply perm_rel_flat_map; [exact RC|]. intros a c [-> _]. apply Permutation_refl. }
  assert (FN : NoDup (map fo_id (flat_map co_flows cos))). { injection SB as _ _ -> _ _. rewrite AI. exact ND. }
  assert (FF : forall i, find_fo (flat_map co_flows cos') i = find_fo (flat_map co_flows cos) i).
  { intros i. unfold find_fo. f_equal. symmetry. apply find_perm; [|exact PF]. intros a c Ha Hc Ea Ec. apply Nat.eqb_eq in Ea, Ec.
    eapply (NoDup_map_eq fo_id); eauto. congruence. }
  assert (RT : forall l l' r, Permutation l l' -> mapM (fun i => o <- find_fo (flat_map co_flows cos) i ;; Ok (fo_rate o)) l = Ok r ->
     exists r', mapM (fun i => o <- find_fo (flat_map co_flows cos') i ;; Ok (fo_rate o)) l' = Ok r' /\ Permutation r r').
  { intros l l' r P E. destruct (mapM_perm _ _ _ _ P E) as [r' [E' P']]. exists r'. split; auto. rewrite <- E'. apply mapM_ext_. intros i. rewrite FF. reflexivity. }
  edestruct (mapM_perm_rel (fun b => i <- mapM (fun i => o <- find_fo (flat_map co_flows cos) i ;; Ok (fo_rate o)) (bus_inputs fs b) ;;
                 o <- mapM (fun i => o <- find_fo (flat_map co_flows cos) i ;; Ok (fo_rate o)) (bus_outputs fs b) ;; bus_model cx b i o)
               (fun b => i <- mapM (fun i => o <- find_fo (flat_map co_flows cos') i ;; Ok (fo_rate o)) (bus_inputs fs' b) ;;
                 o <- mapM (fun i => o <- find_fo (flat_map co_flows cos') i ;; Ok (fo_rate o)) (bus_outputs fs' b) ;; bus_model cx' b i o)
               bus_eqv _ _ bos (buses_re ND)) as [bos' [Ebos' RB]]; [|exact Ebos|].
  { intros b r _ E. bnd E i Ei. bnd E o Eo. destruct (RT _ _ _ (bus_inputs_re b) Ei) as [i' [Ei' Pi]]. destruct (RT _ _ _ (bus_outputs_re b) Eo) as [o' [Eo' Po]].
    rewrite Ei'. cbn [bind]. rewrite Eo'. cbn [bind]. eapply bus_model_re; eauto. }
  rewrite Ebos'. cbn [bind].
  assert (PS : Permutation (flat_map co_shares cos ++ flat_map snd bos) (flat_map co_shares cos' ++ flat_map snd bos')).
  { apply Permutation_app; [eapply perm_rel_flat_map; [exact RC|]|eapply perm_rel_flat_map; [exact RB|]].
    - intros a c [_ [-> _]]. apply Permutation_refl.
    - intros a c [-> _]. apply Permutation_refl. }
  rewrite (effects_model_ext _ _ _ _ visible_effect_re).
  destruct (effects_model_re cx (fs_effects fs') ord' HF HO HP _ _ _ _ _ PS Eem) as [em' [Eem' SE]]. fold cx' in Eem'. rewrite Eem'. cbn [bind].
  unfold bs_roots in *. cbn [bs_effects bs_comps bs_buses bs_obj] in *. eapply translate_eqv; [|apply con_eqv_refl|exact H].
  apply sys_eqv_cons; [exact SE|]. apply sys_eqv_app; apply sys_eqv_rel.
  - apply (perm_rel_mapped comp_eqv); [|exact RC]. intros a c [_ [_ Q]]. exact Q.
  - apply (perm_rel_mapped bus_eqv); [|exact RB]. intros a c [_ Q]. exact Q.
Qed.
End Sys.
