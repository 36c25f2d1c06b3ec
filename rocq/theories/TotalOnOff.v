(** On/off models and mutual exclusion can always be written down for data that fits. *)
From Verif Require Import Base BaseFacts MathModel Spec MathFacts MathTotal Structure StructureFacts Params Features ResultFacts NameSpec NameFacts TotalFacts TotalFeatures TotalInvest.

Lemma consecutive_ok : forall eps bs d, bs <> [] -> (match d with NS _ => True | NV ds => (length bs <= length ds)%nat end) ->
  exists q, consecutive_duration eps (NV bs) d = Ok q.
Proof.
  intros eps bs [d|ds] NE H; unfold consecutive_duration; [eauto|].
  set (k := match last_pos (isclose0 eps) bs with Some i => S i | None => length bs end).
  assert (K : (1 <= k <= length bs)%nat).
  { unfold k. clear k H. destruct (last_pos (isclose0 eps) bs) as [i|] eqn:E.
    - assert (i < length bs)%nat; [|lia]. clear NE. revert i E. induction bs as [|b bs IH]; intros i E; [discriminate|]. simpl in E.
      destruct (last_pos (isclose0 eps) bs) as [j|]; [injection E as <-; simpl; specialize (IH _ eq_refl); lia|]. destruct (isclose0 eps b); [|discriminate]. injection E as <-. simpl. lia.
    - destruct bs; [congruence|simpl; lia]. }
  destruct (Nat.ltb_spec (length ds) k); [lia|].
  assert (PL : forall l : list Q, (k <= length l)%nat -> length (py_last k l) = k).
  { intros l Hl. unfold py_last. destruct (Nat.eqb_spec k 0); [lia|]. rewrite skipn_length. lia. }
  destruct (nmul_fit k (NV (py_last k bs)) (NV (py_last k ds))) as [c [-> _]]; [cbn; apply PL; lia|cbn; apply PL; lia|]. cbn. eauto.
Qed.
Lemma nhead_ok : forall n a, (1 <= n)%nat -> fitn n a -> exists q, nhead a = Ok q.
Proof. intros n [q|[|q l]] N F; simpl in *; eauto. lia. Qed.
Lemma fitn_tail : forall n l, fitn n (NV l) -> fitn (n - 1) (NV (tl l)).
Proof. intros n [|q l] F; simpl in *; lia. Qed.
Lemma removelast_len : forall {A} (l : list A), length (removelast l) = (length l - 1)%nat.
Proof. induction l as [|a [|b l] IH]; auto. cbn [removelast length] in *. rewrite IH. lia. Qed.

Definition dur_names : list string :=
  ["_constraint_1"; "_constraint_2a"; "_constraint_2b"; "_minimum_duration"; "_minimum_duration_inital"; "_initial"]%string.

Ltac one_call' :=
  first [ one_call
        | solve [eapply fit_some; [apply seq_lt; erewrite iv_len by eassumption; lia | rewrite seq_length; lia | fits]]
        | solve [eapply fit_at; [erewrite iv_len by eassumption; lia | fits]]
        | solve [eapply fit_sum; [erewrite iv_len by eassumption; lia | erewrite iv_len by eassumption; fits]] ].
Ltac calls' := repeat (apply Forall_cons; [one_call'|]); apply Forall_nil.
Ltac next_eq' n :=
  match goal with |- context [create_equation ?m ?l ?k ?cs] =>
    let c := fresh "eq" in let E := fresh "Eq" in let L := fresh "El" in let O := fresh "Eo" in
    destruct (equation_ok n m l k cs) as [c [E [L O]]]; [try lia|try solve [calls']|try first [reflexivity | solve [rewrite existsb_app; cbn [existsb is_summand orb]; rewrite ?Bool.orb_true_r; reflexivity]]|rewrite E; cbn [bind]]
  end.

Section Elem.
Variables (cx : ctx) (N : nat) (elem : string).
Hypothesis R : ready cx N.
Hypothesis HE : hd ""%string (words elem) <> ""%string.
Let P := words elem.
Let n := cx_n cx.
Let full := model_full elem (Some "OnOff"%string).

Lemma words_onoff : words full = P ++ [""; "OnOff"]%string.
Proof. unfold full, P. rewrite words_full by discriminate. reflexivity. Qed.

(** A binary variable with known states before the first step. *)
Definition bin_var (v : variable) (lab : string) (bs : list Q) : Prop := is_var v lab n /\ v_ts v = true /\ v_prev v = Some (NV bs) /\ v_bin v = true.
Definition prev_ok (bs : list Q) : Prop := bs <> [] /\ match cx_prev cx with NS _ => True | NV ds => (length bs <= length ds)%nat end.

Lemma duration_ok : forall label lab b bs dmin dmax, bin_var b lab bs -> prev_ok bs -> pfito N dmin -> pfito N dmax ->
  exists o, duration_model cx true full label b dmin dmax = Ok o /\ is_var (du_var o) (vlabel full label) n /\ Forall con_ok (du_cons o)
    /\ exists ys, sub ys dur_names /\ map c_label (du_cons o) = map (vlabel full) (map (fun y => cat [vlabel full label; y]) ys).
Proof.
  intros label lab b bs dmin dmax [Ib [TS [PV _]]] [NE PD] F1 F2. pose proof (rd_n _ _ R) as N2. unfold duration_model, prev_of. rewrite TS, PV. cbn [of_option bind].
  destruct (consecutive_ok (cx_eps cx) bs (cx_prev cx) NE PD) as [prev EP]. rewrite EP. cbn [bind].
  destruct (act_opt_ok _ _ _ R F2) as [mx [EM FM]]. rewrite EM. cbn [bind].
  assert (NH : exists h, optM nhead mx = Ok h).
  { destruct mx as [a|]; cbn [optM]; [|eauto]. destruct (nhead_ok (cx_n cx) a) as [q ->]; [lia|exact FM|]. cbn. eauto. }
  destruct NH as [h ->]. cbn [bind]. fold n in FM, N2 |- *.
  destruct (create_long full label n false (Some (NS 0)) (Some match mx with Some u => u | None => NS (cx_total cx + prev) end) (Some (NS prev))) as [d [ED [Id _]]]; [lia|exact I|destruct mx; [exact FM|exact I]|].
  rewrite ED. cbn [bind].
  assert (FT : fitn (n - 1) (NV (tl (cx_dt cx)))) by (apply fitn_tail; cbn; apply (rd_dt _ _ R)).
  assert (FT2 : fitn (n - 1) (NV (map (fun q => - q + (cx_total cx + prev)) (tl (cx_dt cx))))) by (cbn; rewrite map_length; exact FT).
  unfold idx_next, idx_prev. fold n.
  next_eq' n. next_eq' (n - 1)%nat. next_eq' (n - 1)%nat.
  rewrite (iv_lab _ _ _ Id) in *.
  assert (DT : exists dt0, nth_error (cx_dt cx) 0 = Some dt0).
  { pose proof (rd_dt _ _ R) as RD. fold n in RD. destruct (cx_dt cx) as [|q l]; [simpl in RD; lia|]. exists q. reflexivity. }
  destruct DT as [dt0 DT].
  match goal with |- context [bind (match dmin with None => Ok [] | Some _ => _ end) _] => idtac end.
  destruct dmin as [p|].
  - destruct (act_ok _ _ _ R F1) as [m [EA FA]]. rewrite EA. cbn [bind]. fold n in FA.
    assert (FU : fitn (n - 1) (match m with NS q => NS q | NV l => NV (removelast l) end)) by (destruct m; cbn in *; auto; rewrite removelast_len; lia).
    next_eq' (n - 1)%nat. destruct (nhead_ok n m) as [first EF]; [lia|exact FA|]. rewrite EF. cbn [bind].
    destruct (negb (Qle_bool prev 0) && negb (Qle_bool first prev))%bool.
    + next_eq' 1%nat. rewrite DT. cbn [of_option bind]. next_eq' 1%nat. eexists. split; [reflexivity|]. cbn [du_var du_cons]. split; [exact Id|]. split.
      * cbn [app]. repeat constructor; assumption.
      * exists dur_names. split; [apply sub_refl|]. cbn [app map]. rewrite El, El0, El1, El2, El3, El4. reflexivity.
    + rewrite DT. cbn [of_option bind]. next_eq' 1%nat. eexists. split; [reflexivity|]. cbn [du_var du_cons]. split; [exact Id|]. split.
      * cbn [app]. repeat constructor; assumption.
      * exists ["_constraint_1"; "_constraint_2a"; "_constraint_2b"; "_minimum_duration"; "_initial"]%string. split; [unfold dur_names; repeat constructor|]. cbn [app map]. rewrite El, El0, El1, El2, El3. reflexivity.
  - cbn [bind]. rewrite DT. cbn [of_option bind]. next_eq' 1%nat. eexists. split; [reflexivity|]. cbn [du_var du_cons]. split; [exact Id|]. split.
    + cbn [app]. repeat constructor; assumption.
    + exists ["_constraint_1"; "_constraint_2a"; "_constraint_2b"; "_initial"]%string. split; [unfold dur_names; repeat constructor|]. cbn [app map]. rewrite El, El0, El1, El2. reflexivity.
Qed.

Lemma foldM_nadd_ok : forall bounds acc, (forall b, In b bounds -> fitn n (snd b)) -> fitn n acc ->
  exists t, foldM (fun acc (b : numeric * numeric) => nadd acc (snd b)) bounds acc = Ok t /\ fitn n t.
Proof.
  induction bounds as [|b bounds IH]; intros acc F A; [exists acc; auto|]. cbn [foldM].
  destruct (nadd_fit n acc (snd b) A (F b (or_introl eq_refl))) as [c [E Fc]]. rewrite E. cbn [bind]. apply IH; auto. intros; apply F; right; auto.
Qed.
Lemma on_constraints_ok : forall on lab vars bounds, is_var on lab n -> vars <> [] -> length vars = length bounds ->
  (forall v, In v vars -> v_len v = n) -> (forall b, In b bounds -> fitn n (fst b) /\ fitn n (snd b)) ->
  exists cs, on_constraints cx full on vars bounds = Ok cs /\ Forall con_ok cs /\ map c_label cs = map (vlabel full) ["On_Constraint_1"; "On_Constraint_2"]%string.
Proof.
  intros on lab vars bounds Io NE L V B. pose proof (rd_n _ _ R) as N2. fold n in N2. unfold on_constraints. fold n.
  assert (M : exists cs, (let k := inject_Z (Z.of_nat (length vars)) in
      total <- foldM (fun acc b => nadd acc (snd b)) bounds (NS 0) ;;
      c1 <- create_equation full "On_Constraint_1" KIneq
              (map (fun v => AddS v (NS (-1)) (Some (seq 0 n)) false) vars ++ [AddS on (NS (cx_eps cx)) (Some (seq 0 n)) false]) ;;
      c2 <- create_equation full "On_Constraint_2" KIneq
              (map (fun v => AddS v (NS (1 / k)) (Some (seq 0 n)) false) vars ++
               [AddS on (nmap (fun q => - (q / k)) total) (Some (seq 0 n)) false]) ;;
      Ok [c1; c2]) = Ok cs /\ Forall con_ok cs /\ map c_label cs = map (vlabel full) ["On_Constraint_1"; "On_Constraint_2"]%string).
  { cbv zeta. destruct (foldM_nadd_ok bounds (NS 0)) as [t [E F]]; [intros b Hb; apply B; auto|exact I|]. rewrite E. cbn [bind].
    assert (VC : forall f, Forall (call_fit n) (map (fun v => AddS v (NS f) (Some (seq 0 n)) false) vars)).
    { intros f. apply Forall_forall. intros a Ha. apply in_map_iff in Ha. destruct Ha as [v [<- Hv]]. apply fit_some; [apply seq_lt; rewrite (V _ Hv); lia|apply seq_length|exact I]. }
    next_eq' n. { apply Forall_app. split; [apply VC|calls']. }
    next_eq' n. { apply Forall_app. split; [apply VC|calls']. }
    exists [eq; eq0]. repeat split; auto. cbn [map]. rewrite El, El0. reflexivity. }
  destruct vars as [|v [|v2 vars]]; [congruence| |exact M].
  destruct bounds as [|[lb ub] bounds]; [discriminate|]. destruct (B _ (or_introl eq_refl)) as [B1 B2]. cbn [fst snd] in B1, B2.
  destruct (nmax_fit n (NS (cx_eps cx)) lb I B1) as [l [E F]]. rewrite E. cbn [bind]. pose proof (V v (or_introl eq_refl)) as Lv.
  next_eq' n. { constructor; [apply fit_some; [apply seq_lt; lia|apply seq_length|exact I]|calls']. }
  next_eq' n. { constructor; [apply fit_some; [apply seq_lt; lia|apply seq_length|exact I]|calls']. }
  exists [eq; eq0]. repeat split; auto. cbn [map]. rewrite El, El0. reflexivity.
Qed.

Record oo_data_ok (p : onoff) (bs : list Q) : Prop := {
  od_sw : keyed cx (map fst (as_effect_dict (oo_switch_eff p))) /\ forall k q, In (k, q) (as_effect_dict (oo_switch_eff p)) -> pfit N q;
  od_run : keyed cx (map fst (as_effect_dict (oo_run_eff p))) /\ forall k q, In (k, q) (as_effect_dict (oo_run_eff p)) -> pfit N q;
  od_limits : pfito N (oo_con_min p) /\ pfito N (oo_con_max p) /\ pfito N (oo_coff_min p) /\ pfito N (oo_coff_max p);
  od_prev : bs <> [];
  od_dt : (use_con p || use_coff p)%bool = true -> match cx_prev cx with NS _ => True | NV ds => (length bs <= length ds)%nat end
}.
Definition oo_names : list string := ["switch_on_effects"; "running_hour_effects"]%string.
Record oo_fine (o : oo_out) : Prop := {
  of_tree : goods P [["OnOff"%string]] [ot_tree o];
  of_on : v_len (ot_on o) = n;
  of_bin : v_bin (ot_on o) = true;
  of_shares : sfin cx elem oo_names (ot_shares o)
}.
Definition oo_vars : list string :=
  ["on"; "totalOnHours"; "off"; "consecutiveOnHours"; "consecutiveOffHours"; "switchOn"; "switchOff"; "nrSwitchOn"]%string.
Definition lits : list string :=
  ["totalOnHours"; "On_Constraint_1"; "On_Constraint_2"; "var_off"; "Switch"; "Initial_Switch"; "Switch_On_or_Off"; "NrSwitchOn"]%string.
Definition dl (l : string) : list string := map (fun y => cat [vlabel full l; y]) dur_names.

Lemma dl_words : forall l y, In y (dl l) -> exists r, words y = P ++ [""; "OnOff"]%string ++ words l ++ r.
Proof.
  intros l y H. unfold dl in H. apply in_map_iff in H. destruct H as [d [<- D]].
  assert (E : exists x, d = String us x) by (cbn in D; destruct D as [<-|[<-|[<-|[<-|[<-|[<-|[]]]]]]]; eexists; reflexivity).
  destruct E as [x ->]. exists (words x). change (cat [vlabel full l; String us x]) with (cat [vlabel full l; "_"; x]).
  rewrite words_us. unfold vlabel. rewrite words_us, words_onoff. rewrite <- !app_assoc. reflexivity.
Qed.
Lemma cons_nodup : NoDup (["totalOnHours"; "On_Constraint_1"; "On_Constraint_2"]%string ++ ["var_off"%string] ++ dl "consecutiveOnHours" ++ dl "consecutiveOffHours"
   ++ ["Switch"; "Initial_Switch"; "Switch_On_or_Off"; "NrSwitchOn"]%string).
Proof.
  assert (DN : forall l, NoDup (dl l)).
  { intros l. unfold dl. apply FinFun.Injective_map_NoDup; [|apply nodup_str_NoDup; reflexivity].
    intros x y E. cbn [cat fold_right] in E. rewrite !append_nil in E. revert E. generalize (vlabel full l). induction s as [|c s IH]; simpl; intros E; auto. injection E as E. auto. }
  assert (LW : forall l y, In y (dl l) -> In ""%string (words y)).
  { intros l y H. destruct (dl_words _ _ H) as [r ->]. apply in_or_app. right. left. reflexivity. }
  assert (LL : forall x, In x lits -> ~ In ""%string (words x)).
  { intros x X. cbn in X. destruct X as [<-|[<-|[<-|[<-|[<-|[<-|[<-|[<-|[]]]]]]]]]; cbn; intuition discriminate. }
  eapply Permutation_NoDup with (l := lits ++ dl "consecutiveOnHours" ++ dl "consecutiveOffHours").
  - change lits with ((["totalOnHours"; "On_Constraint_1"; "On_Constraint_2"]%string ++ ["var_off"%string]) ++ ["Switch"; "Initial_Switch"; "Switch_On_or_Off"; "NrSwitchOn"]%string).
    rewrite (app_assoc _ ["var_off"%string]). rewrite <- app_assoc. apply Permutation_app_head. rewrite (app_assoc (dl _) (dl _) [_; _; _; _]). apply Permutation_app_comm.
  - apply NoDup_app_; [apply nodup_str_NoDup; reflexivity|apply NoDup_app_; auto|].
    + intros y H H'. destruct (dl_words _ _ H) as [r E]. destruct (dl_words _ _ H') as [r' E']. rewrite E in E'. apply app_inv_head in E'. discriminate E'.
    + intros y H H'. apply (LL _ H). apply in_app_or in H'. destruct H' as [H'|H']; eapply LW; eauto.
Qed.

Lemma onoff_ok : forall p vars bounds bs, vars <> [] -> length vars = length bounds ->
  (forall v, In v vars -> v_len v = n) -> (forall b, In b bounds -> fitn n (fst b) /\ fitn n (snd b)) ->
  previous_on_values (cx_eps cx) vars = Ok bs -> oo_data_ok p bs ->
  exists o, onoff_model cx true elem p vars bounds = Ok o /\ oo_fine o.
Proof.
  intros p vars bounds bs NE LB V B PV OD. pose proof (rd_n _ _ R) as N2. fold n in N2. unfold onoff_model. fold full. fold n.
  destruct (mapM_ok (fun b : numeric * numeric => l <- nmax (fst b) (NS (cx_eps cx)) ;; Ok (l, snd b)) (fun _ b => fitn n (fst b) /\ fitn n (snd b)) bounds) as [bounds' [EB FB]].
  { intros b Hb. destruct (B _ Hb) as [B1 B2]. destruct (nmax_fit n (fst b) (NS (cx_eps cx)) B1 I) as [l [-> Fl]]. cbn. exists (l, snd b). auto. }
  rewrite EB. cbn [bind]. rewrite LB. unfold assert_. rewrite Nat.eqb_refl. cbn [guard bind]. rewrite PV. cbn [bind].
  assert (LB' : length bounds = length bounds') by (clear -FB; induction FB; simpl; congruence).
  pose proof (Forall2_right _ (fun b => fitn n (fst b) /\ fitn n (snd b)) _ _ FB (fun _ _ H => H)) as B'.
  destruct (create_long full "on" n true None None (Some (NV bs))) as [on [Eon [Ion [Zon [Ton Pon]]]]]; [lia|exact I|exact I|]. rewrite Eon. cbn [bind].
  destruct (create_one full "totalOnHours" false (opt_num (oo_on_min p)) (opt_num (oo_on_max p))) as [tot [Et [It _]]]; [destruct (oo_on_min p); exact I|destruct (oo_on_max p); exact I|].
  rewrite Et. cbn [bind].
  assert (DTF : fitn n (NV (cx_dt cx))) by (cbn; apply (rd_dt _ _ R)).
  next_eq' n. rename eq into ctot, El into Lt, Eo into Ot.
  destruct (on_constraints_ok on _ vars bounds' Ion NE) as [con [Ec [Oc Mc]]]; auto; [congruence|]. rewrite Ec. cbn [bind].
  destruct OD as [[KS PS] [KR PR] [D1 [D2 [D3 D4]]] DP DD].
  (* off *)
  assert (S1 : exists voff coff, (if use_off p then
                       off <- create_variable full "off" n true None None None
                                (Some (NV (map (fun q => 1 - q) bs))) ;;
                       c <- create_equation full "var_off" KEq
                              [AddS off (NS 1) (Some (seq 0 n)) false; AddS on (NS 1) (Some (seq 0 n)) false;
                               AddC (NS 1)] ;;
                       Ok ([off], [c])
                     else Ok ([], [])) = Ok (voff, coff) /\ Forall var_ok voff /\ Forall con_ok coff
      /\ (exists xs, sub xs ["off"%string] /\ map v_label voff = map (vlabel full) xs) /\ (exists ys, sub ys ["var_off"%string] /\ map c_label coff = map (vlabel full) ys)
      /\ (use_off p = true -> exists off, nth_error voff 0 = Some off /\ bin_var off (vlabel full "off") (map (fun q => 1 - q) bs))).
  { destruct (use_off p).
    - destruct (create_long full "off" n true None None (Some (NV (map (fun q => 1 - q) bs)))) as [off [Eo [Io [Zo [To Po]]]]]; [lia|exact I|exact I|]. rewrite Eo. cbn [bind].
      next_eq' n. exists [off], [eq]. split; [reflexivity|]. split; [repeat constructor; apply Io|]. split; [repeat constructor; auto|].
      split; [exists ["off"%string]; split; [apply sub_refl|cbn [map]; rewrite (iv_lab _ _ _ Io); reflexivity]|].
      split; [exists ["var_off"%string]; split; [apply sub_refl|cbn [map]; rewrite El; reflexivity]|].
      intros _. exists off. split; [reflexivity|]. repeat split; auto; apply Io.
    - exists [], []. repeat split; auto; try (exists []; split; [constructor|reflexivity]). discriminate. }
  destruct S1 as [voff [coff [E1 [V1 [C1 [[xs1 [X1 MX1]] [[ys1 [Y1 MY1]] OF]]]]]]]. rewrite E1. cbn [bind].
  assert (S2 : exists v1 k1, (if use_con p then
                   du <- duration_model cx true full "consecutiveOnHours" on (oo_con_min p) (oo_con_max p) ;;
                   Ok ([du_var du], du_cons du)
                 else Ok ([], [])) = Ok (v1, k1) /\ Forall var_ok v1 /\ Forall con_ok k1
      /\ (exists xs, sub xs ["consecutiveOnHours"%string] /\ map v_label v1 = map (vlabel full) xs) /\ (exists ys, sub ys (dl "consecutiveOnHours") /\ map c_label k1 = map (vlabel full) ys)).
  { destruct (use_con p) eqn:UC.
    - destruct (duration_ok "consecutiveOnHours" (vlabel full "on") on bs (oo_con_min p) (oo_con_max p)) as [du [Ed [Id [Cd [ys [Sy My]]]]]]; auto.
      + repeat split; auto; apply Ion.
      + split; [exact DP|]. apply DD. reflexivity.
      + rewrite Ed. cbn [bind]. exists [du_var du], (du_cons du). split; [reflexivity|]. split; [repeat constructor; apply Id|]. split; [exact Cd|].
        split; [exists ["consecutiveOnHours"%string]; split; [apply sub_refl|cbn [map]; rewrite (iv_lab _ _ _ Id); reflexivity]|].
        eexists. split; [|exact My]. apply sub_map. exact Sy.
    - exists [], []. repeat split; auto; exists []; (split; [constructor|reflexivity]). }
  destruct S2 as [v1 [k1 [E2 [V2 [C2 [[xs2 [X2 MX2]] [ys2 [Y2 MY2]]]]]]]]. rewrite E2. cbn [bind].
  assert (S3 : exists v2 k2, (if use_coff p then
                   off <- of_option AttributeError (nth_error voff 0) ;;
                   du <- duration_model cx true full "consecutiveOffHours" off (oo_coff_min p) (oo_coff_max p) ;;
                   Ok ([du_var du], du_cons du)
                 else Ok ([], [])) = Ok (v2, k2) /\ Forall var_ok v2 /\ Forall con_ok k2
      /\ (exists xs, sub xs ["consecutiveOffHours"%string] /\ map v_label v2 = map (vlabel full) xs) /\ (exists ys, sub ys (dl "consecutiveOffHours") /\ map c_label k2 = map (vlabel full) ys)).
  { destruct (use_coff p) eqn:UC.
    - destruct (OF UC) as [off [On Bo]]. rewrite On. cbn [of_option bind].
      destruct (duration_ok "consecutiveOffHours" _ off _ (oo_coff_min p) (oo_coff_max p) Bo) as [du [Ed [Id [Cd [ys [Sy My]]]]]]; auto.
      + split; [destruct bs; [congruence|discriminate]|]. rewrite map_length. apply DD. rewrite orb_true_r. reflexivity.
      + rewrite Ed. cbn [bind]. exists [du_var du], (du_cons du). split; [reflexivity|]. split; [repeat constructor; apply Id|]. split; [exact Cd|].
        split; [exists ["consecutiveOffHours"%string]; split; [apply sub_refl|cbn [map]; rewrite (iv_lab _ _ _ Id); reflexivity]|].
        eexists. split; [|exact My]. apply sub_map. exact Sy.
    - exists [], []. repeat split; auto; exists []; (split; [constructor|reflexivity]). }
  destruct S3 as [v2 [k2 [E3 [V3 [C3 [[xs3 [X3 MX3]] [ys3 [Y3 MY3]]]]]]]]. rewrite E3. cbn [bind].
  unfold use_switch_on. cbn [orb].
  destruct (create_long full "switchOn" n true None None None) as [son [Es [Is _]]]; [lia|exact I|exact I|]. rewrite Es. cbn [bind].
  destruct (create_long full "switchOff" n true None None None) as [sof [Ef [If _]]]; [lia|exact I|exact I|]. rewrite Ef. cbn [bind].
  destruct (create_one full "nrSwitchOn" false None (opt_num (oo_sw_max p))) as [nr [En [In_ _]]]; [exact I|destruct (oo_sw_max p); exact I|]. rewrite En. cbn [bind].
  rewrite Ton. cbn [guard bind].
  assert (S4 : exists ks, switch_constraints cx full on son sof nr bs = Ok ks /\ Forall con_ok ks
     /\ map c_label ks = map (vlabel full) ["Switch"; "Initial_Switch"; "Switch_On_or_Off"; "NrSwitchOn"]%string).
  { unfold switch_constraints. fold n. unfold idx_next, idx_prev. next_eq' (n - 1)%nat.
    assert (LQ : exists q, match rev bs with [] => Err IndexError | q :: _ => Ok q end = Ok q).
    { destruct (rev bs) as [|q l] eqn:RB; [|eauto]. apply (f_equal (@length Q)) in RB. rewrite rev_length in RB. destruct bs; [congruence|discriminate]. }
    destruct LQ as [q ->]. cbn [bind]. next_eq' 1%nat. next_eq' n. next_eq' 1%nat.
    eexists. split; [reflexivity|]. split; [repeat constructor; assumption|]. cbn [map]. rewrite El, El0, El1, El2. reflexivity. }
  destruct S4 as [ks [E4 [C4 M4]]]. rewrite E4. cbn [bind].
  destruct (emit_op_ok cx N elem "switch_on_effects" (oo_switch_eff p) (NS 1) son R KS PS I) as [s1 [A1 B1]]; [apply Is|]. rewrite A1. cbn [bind].
  destruct (emit_op_ok cx N elem "running_hour_effects" (oo_run_eff p) (NV (cx_dt cx)) on R KR PR) as [s2 [A2 B2]]; [exact DTF|apply Ion|]. rewrite A2. cbn [bind].
  assert (G : good (words full) true [] ([on; tot] ++ voff ++ v1 ++ v2 ++ [son; sof; nr]) ([ctot] ++ con ++ coff ++ k1 ++ k2 ++ ks)).
  { apply good_own with (xs := ["on"; "totalOnHours"]%string ++ xs1 ++ xs2 ++ xs3 ++ ["switchOn"; "switchOff"; "nrSwitchOn"]%string)
       (ys := ["totalOnHours"; "On_Constraint_1"; "On_Constraint_2"]%string ++ ys1 ++ ys2 ++ ys3 ++ ["Switch"; "Initial_Switch"; "Switch_On_or_Off"; "NrSwitchOn"]%string).
    - rewrite !map_app, MX1, MX2, MX3. cbn [map]. rewrite (iv_lab _ _ _ Ion), (iv_lab _ _ _ It), (iv_lab _ _ _ Is), (iv_lab _ _ _ If), (iv_lab _ _ _ In_). reflexivity.
    - rewrite !map_app, MY1, MY2, MY3, Mc, M4. cbn [map]. rewrite Lt. reflexivity.
    - apply (sub_NoDup _ (["on"; "totalOnHours"]%string ++ ["off"%string] ++ ["consecutiveOnHours"%string] ++ ["consecutiveOffHours"%string] ++ ["switchOn"; "switchOff"; "nrSwitchOn"]%string));
        [repeat apply sub_app; auto; apply sub_refl|apply nodup_str_NoDup; reflexivity].
    - eapply sub_NoDup; [|exact cons_nodup]. repeat apply sub_app; auto; apply sub_refl.
    - apply forallb_forall. intros x X.
      assert (SU : sub (["on"; "totalOnHours"]%string ++ xs1 ++ xs2 ++ xs3 ++ ["switchOn"; "switchOff"; "nrSwitchOn"]%string) oo_vars)
        by (change oo_vars with (["on"; "totalOnHours"]%string ++ ["off"%string] ++ ["consecutiveOnHours"%string] ++ ["consecutiveOffHours"%string] ++ ["switchOn"; "switchOff"; "nrSwitchOn"]%string); repeat apply sub_app; auto; apply sub_refl).
      apply in_app_or in X. destruct X as [X|X].
      + apply (sub_In _ _ _ SU) in X. cbn in X. destruct X as [<-|[<-|[<-|[<-|[<-|[<-|[<-|[<-|[]]]]]]]]]; reflexivity.
      + assert (DS : forall l y, In y (dl l) -> starts_ok y = true).
        { intros l y H. destruct (dl_words _ _ H) as [r Er]. unfold starts_ok. rewrite Er. unfold P. pose proof (words_ne elem) as We. destruct (words elem) as [|a w]; [congruence|]. cbn in HE |- *.
          apply String.eqb_neq in HE. rewrite HE. reflexivity. }
        repeat (apply in_app_or in X; destruct X as [X|X]).
        * cbn in X. destruct X as [<-|[<-|[<-|[]]]]; reflexivity.
        * apply (sub_In _ _ _ Y1) in X. destruct X as [<-|[]]; reflexivity.
        * apply (sub_In _ _ _ Y2) in X. eapply DS; eauto.
        * apply (sub_In _ _ _ Y3) in X. eapply DS; eauto.
        * cbn in X. destruct X as [<-|[<-|[<-|[<-|[]]]]]; reflexivity.
    - repeat apply Forall_app_2; auto; repeat constructor; try apply Ion; try apply It; try apply Is; try apply If; try apply In_.
      repeat (apply Forall_app; split; auto). repeat constructor; try apply Is; try apply If; try apply In_.
    - repeat (apply Forall_app; split; auto). }
  rewrite (mk_em_ok _ _ _ _ _ _ _ _ G). cbn [bind]. eexists. split; [reflexivity|]. split; cbn [ot_tree ot_on ot_shares]; auto.
  - apply (goods_model P ["OnOff"%string]) with (ws := []); auto; [apply words_onoff|apply goods_nil|apply apart_nil_r].
  - apply Ion.
  - apply (sfin_app _ _ ["switch_on_effects"%string] ["running_hour_effects"%string]); auto. intros x [<-|[]] [X|[]]; discriminate X.
Qed.

(** ** Mutual exclusion *)
Lemma prevent_ok : forall vars, (2 <= length vars)%nat -> (forall v, In v vars -> v_bin v = true /\ v_len v = n) ->
  exists m, prevent_model elem vars = Ok m /\ goods P [["PreventSimultaneousUsage"%string]] [m].
Proof.
  intros vars L V. pose proof (rd_n _ _ R) as N2. fold n in N2. unfold prevent_model, assert_. set (f := model_full elem (Some "PreventSimultaneousUsage"%string)).
  apply Nat.leb_le in L. rewrite L. cbn [guard bind].
  assert (B : forallb v_bin vars = true) by (apply forallb_forall; intros v Hv; apply (V _ Hv)). rewrite B. cbn [guard bind].
  next_eq' n. { apply Forall_app. split; [|calls']. apply Forall_forall. intros a Ha. apply in_map_iff in Ha. destruct Ha as [v [<- Hv]]. apply fit_all; [apply V; auto|exact I]. }
  { destruct vars; [discriminate L|reflexivity]. }
  assert (G : good (words f) true [] [] [eq]).
  { apply good_own with (xs := []) (ys := ["prevent_simultaneous_use"%string]); try reflexivity; try constructor; auto; try constructor; auto. cbn [map]. rewrite El. reflexivity. }
  rewrite (mk_em_ok _ _ _ _ _ _ _ _ G). eexists. split; [reflexivity|]. apply goods_model with (ws := []); auto; [|apply goods_nil|apply apart_nil_r].
  unfold f. rewrite words_full by discriminate. reflexivity.
Qed.
End Elem.
