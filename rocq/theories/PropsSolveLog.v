(** What is shown of the results after solving (C105). *)
From Coq Require Import Ascii String Permutation Sorted Qabs Lqa Lia.
From Verif Require Import Base BaseFacts MathModel Spec Structure Params Features Elements System SysSpec ReadTools Tree PropsTree Values Results Segmented MainResults
  Library Example ExamplePoints PropsMain SolveLog.

(** ** Specification *)

(** The messages [l] tell the results [x] of a calculation of [n] steps: *)
Record told (cf : config) (ord : list nat -> list nat) (unit : effect -> string) (fs : flow_system) (n : nat) (pm : pmodel) (x : asg) (l : list said) : Prop := {
  (** of every effect what it amounts to, and of nothing else; *)
  to_effects : forall name o i a, In (SEffect name o i a) l <-> exists e, In e (fs_effects fs) /\ name = effect_key unit e /\ o = op_sum x e /\ i = inv_sum x e /\ a = all_sum x e;
  (** penalty and objective, once; *)
  to_totals : exists p q, p == penalty_sum x /\ q == objective_value pm x /\ forall p' q', In (STotals p' q') l <-> p' = p /\ q' = q;
  (** one list with every investment once, under the name of its element, with its size, the largest first; *)
  to_invest : exists t, (forall t', In (SInvestments t') l <-> t' = t) /\ NoDup (map fst t) /\ StronglySorted (fun a b => snd b <= snd a) t
    /\ forall name q, In (name, q) t <-> invested_in cf fs name /\ q = x (inv name "size") 0%nat;
  (** a warning for every bus with an excess, and for no other; *)
  to_buses : forall lab, In (WBus lab) l <-> exists b, In b (buses ord fs) /\ b_lab b = lab
    /\ (1 # 1000 < total_excess x b "excess_input" n \/ 1 # 1000 < total_excess x b "excess_output" n);
  (** and one if the penalty is above 10. *)
  to_penalty : (exists p, In (WPenalty p) l) <-> 10 < penalty_sum x
}.

(** ** Sorting *)
Lemma put_perm : forall e l, Permutation (put e l) (e :: l).
Proof.
  intros e. induction l as [|h t IH]; [apply Permutation_refl|]. cbn [put]. destruct (Qle_bool (snd h) (snd e)); [apply Permutation_refl|].
  eapply perm_trans; [apply perm_skip, IH|apply perm_swap].
Qed.
Lemma by_value_perm : forall d, Permutation (by_value d) d.
Proof. induction d as [|e d IH]; [apply Permutation_refl|]. cbn [by_value fold_right]. eapply perm_trans; [apply put_perm|apply perm_skip, IH]. Qed.
Lemma put_sorted : forall e l, StronglySorted (fun a b : string * Q => snd b <= snd a) l -> StronglySorted (fun a b : string * Q => snd b <= snd a) (put e l).
Proof.
  intros e. induction l as [|h t IH]; intros S0; cbn [put]; [repeat constructor|]. inversion S0 as [|? ? S1 F]; subst. destruct (Qle_bool (snd h) (snd e)) eqn:E.
  - apply Qle_bool_iff in E. constructor; [exact S0|]. constructor; [exact E|]. rewrite Forall_forall in F |- *. intros y Hy. specialize (F y Hy). lra.
  - assert (snd e < snd h) by (apply Qnot_le_lt; intros Z; apply Qle_bool_iff in Z; congruence). constructor; [exact (IH S1)|].
    apply Forall_forall. intros y Hy. apply (Permutation_in _ (put_perm e t)) in Hy. destruct Hy as [<- | Hy]; [lra|]. rewrite Forall_forall in F. exact (F y Hy).
Qed.
Lemma by_value_sorted : forall d, StronglySorted (fun a b : string * Q => snd b <= snd a) (by_value d).
Proof. induction d as [|e d IH]; [constructor|]. cbn [by_value fold_right]. apply put_sorted, IH. Qed.

(** ** Dicts *)
Lemma set_keys : forall {A} k (v : A) d, NoDup (map fst d) -> NoDup (map fst (dict_set k v d)).
Proof.
  intros A k v d N. destruct (in_dec string_dec k (map fst d)) as [H | H]; [rewrite dict_set_keys by exact H; exact N|].
  rewrite dict_set_new by exact H. rewrite map_app. cbn [map fst]. eapply Permutation_NoDup; [apply Permutation_cons_append|]. constructor; assumption.
Qed.
Lemma fold_keys : forall {A} (l : list (string * A)) d, NoDup (map fst d) -> NoDup (map fst (fold_left (fun d kv => dict_set (fst kv) (snd kv) d) l d)).
Proof. induction l as [|e l IH]; intros d N; [exact N|]. cbn [fold_left]. apply IH, set_keys, N. Qed.
Lemma str_dict_keys : forall {A} (l : list (string * A)), NoDup (map fst (str_dict l)).
Proof. intros. apply fold_keys. constructor. Qed.
Lemma fold_get : forall {A} k (b : list (string * A)) d, NoDup (map fst b) ->
  sget k (fold_left (fun d kv => dict_set (fst kv) (snd kv) d) b d) = match sget k b with Some v => Some v | None => sget k d end.
Proof.
  induction b as [|[k0 v0] b IH]; intros d N; [reflexivity|]. cbn [fold_left fst snd]. cbn [map fst] in N. inversion N as [|? ? N1 N2]; subst. rewrite IH by exact N2.
  rewrite sget_cons, sget_set. destruct (String.eqb_spec k k0) as [->|]; [|reflexivity].
  destruct (sget k0 b) as [v|] eqn:E; [|reflexivity]. exfalso. apply N1. apply sget_In in E. apply in_map_iff. exists (k0, v). auto.
Qed.
Lemma merged_get : forall {A} k (a b : list (string * A)), NoDup (map fst a) -> NoDup (map fst b) ->
  sget k (str_dict (a ++ b)) = match sget k b with Some v => Some v | None => sget k a end.
Proof.
  intros A k a b Na Nb. unfold str_dict. rewrite fold_left_app. fold (str_dict a). rewrite (str_dict_nodup a Na). apply fold_get. exact Nb.
Qed.
Lemma main_dicts : forall ord unit fs own shared r, main_results ord unit fs own shared = Ok r ->
  NoDup (map fst (mn_effects r)) /\ NoDup (map fst (mn_invested r)) /\ NoDup (map fst (mn_not_invested r)).
Proof.
  intros ord unit fs own shared r H. unfold main_results in H. bnd H sh E1. bnd H effs E2. bnd H pen E3. bnd H p E4. bnd H x E5. bnd H bs E6. bnd H iv E7. apply Ok_inj in H. subst r.
  cbn [mn_effects mn_invested mn_not_invested]. split; [apply str_dict_keys|]. split; apply str_dict_keys.
Qed.

(** ** C105 *)
Lemma told_main : forall cf ord unit fs n pm x r, main_right cf ord unit fs n pm x r -> NoDup (map fst (mn_effects r)) -> NoDup (map fst (mn_invested r)) -> NoDup (map fst (mn_not_invested r)) ->
  told cf ord unit fs n pm x (shown_main r).
Proof.
  intros cf ord unit fs n pm x r [ME MO MX [MP MQ ML MOn]] N1 N2 N3.
  assert (NE : forall m, In m (shown_main r) -> (exists e, In e (mn_effects r) /\ m = SEffect (fst e) (fst (fst (snd e))) (snd (fst (snd e))) (snd (snd e)))
    \/ m = STotals (mn_penalty r) (mn_objective r) \/ m = SInvestments (investment_lines r) \/ (exists l, In l (mn_excess r) /\ m = WBus l) \/ (Qle_bool (mn_penalty r) 10 = false /\ m = WPenalty (mn_penalty r))).
  { intros m Hm. unfold shown_main in Hm. apply in_app_or in Hm. destruct Hm as [Hm | Hm].
    - left. apply in_map_iff in Hm. destruct Hm as [[nm [[o i] a]] [<- Hm]]. exists (nm, (o, i, a)). split; [exact Hm|reflexivity].
    - right. cbn [app] in Hm. destruct Hm as [Hm | [Hm | Hm]]; [left; auto|right; left; auto|]. right. right. apply in_app_or in Hm. destruct Hm as [Hm | Hm].
      + left. apply in_map_iff in Hm. destruct Hm as [l [<- Hm]]. exists l. auto.
      + right. destruct (Qle_bool (mn_penalty r) 10); [destruct Hm|]. destruct Hm as [<- | []]. auto. }
  constructor.
  - intros name o i a. split.
    + intros H. destruct (NE _ H) as [[[k [[o' i'] a']] [I0 E]] | [E | [E | [[l [_ E]] | [_ E]]]]]; try discriminate. cbn [fst snd] in E. injection E as -> -> -> ->.
      apply (In_sget _ _ _ N1) in I0. destruct (MO _ _ I0) as [e [E1 E2]]. exists e. rewrite <- E2 in I0. rewrite (ME e E1) in I0. injection I0 as <- <- <-. auto.
    + intros [e [E1 [-> [-> [-> ->]]]]]. unfold shown_main. apply in_or_app. left. apply in_map_iff. exists (effect_key unit e, (op_sum x e, inv_sum x e, all_sum x e)). split; [reflexivity|].
      apply sget_In. exact (ME e E1).
  - exists (mn_penalty r), (mn_objective r). split; [exact MP|]. split; [exact MQ|]. intros p' q'. split.
    + intros H. destruct (NE _ H) as [[e [_ E]] | [E | [E | [[l [_ E]] | [_ E]]]]]; try discriminate. injection E as -> ->. auto.
    + intros [-> ->]. unfold shown_main. apply in_or_app. right. left. reflexivity.
  - exists (investment_lines r). split; [|split; [|split]].
    + intros t'. split.
      * intros H. destruct (NE _ H) as [[e [_ E]] | [E | [E | [[l [_ E]] | [_ E]]]]]; try discriminate. injection E as ->. auto.
      * intros ->. unfold shown_main. apply in_or_app. right. right. left. reflexivity.
    + unfold investment_lines. eapply Permutation_NoDup; [apply Permutation_map, Permutation_sym, by_value_perm|apply str_dict_keys].
    + apply by_value_sorted.
    + assert (G : forall name, invested_in cf fs name -> sget name (str_dict (mn_invested r ++ mn_not_invested r)) = Some (x (inv name "size") 0%nat)).
      { intros name H. rewrite merged_get by assumption. specialize (ML name H). unfold listed in ML. destruct (Qle_bool (x (inv name "size") 0%nat) (1 # 1000)); destruct ML as [A B]; rewrite ?A, ?B; auto. }
      intros name q. unfold investment_lines.
      assert (S0 : In (name, q) (by_value (str_dict (mn_invested r ++ mn_not_invested r))) <-> sget name (str_dict (mn_invested r ++ mn_not_invested r)) = Some q).
      { split; intros H; [apply In_sget; [apply str_dict_keys|exact (Permutation_in _ (by_value_perm _) H)]|].
        apply (Permutation_in _ (Permutation_sym (by_value_perm _))). apply sget_In. exact H. }
      rewrite S0. split.
      * intros H. assert (I0 : invested_in cf fs name).
        { rewrite merged_get in H by assumption. destruct (sget name (mn_not_invested r)) as [v|] eqn:E; [apply (MOn name v); right; exact E|apply (MOn name q); left; exact H]. }
        split; [exact I0|]. rewrite (G name I0) in H. injection H as <-. reflexivity.
      * intros [H ->]. exact (G name H).
  - intros lab. rewrite <- MX. split.
    + intros H. destruct (NE _ H) as [[e [_ E]] | [E | [E | [[l [Hl E]] | [_ E]]]]]; try discriminate. injection E as ->. exact Hl.
    + intros H. unfold shown_main. apply in_or_app. right. cbn [app]. right. right. apply in_or_app. left. apply in_map. exact H.
  - split.
    + intros [p H]. destruct (NE _ H) as [[e [_ E]] | [E | [E | [[l [_ E]] | [Q0 _]]]]]; try discriminate. rewrite <- MP. apply Qnot_le_lt. intros Z. apply Qle_bool_iff in Z. congruence.
    + intros H. exists (mn_penalty r). unfold shown_main. apply in_or_app. right. cbn [app]. right. right. apply in_or_app. right.
      destruct (Qle_bool (mn_penalty r) 10) eqn:E; [|left; reflexivity]. apply Qle_bool_iff in E. rewrite MP in E. lra.
Qed.

(** After any history [l1], calculation [k] is modelled, and solved with the values [x] before another one is modelled. Then solving shows these results. *)
Theorem C105_told : forall cf ord unit fs idxs l1 l2 k idx x,
  nth_error idxs k = Some idx ->
  snd (do_sop cf ord unit (session_after cf ord unit fs idxs l1) (SModel k)) = Ok None ->
  (forall o, In o l2 -> ~ any_model o) ->
  NoDup (map (effect_key unit) (fs_effects fs)) ->
  exists pm l, build cf ord (se_fs (session_after cf ord unit fs idxs l1)) idx = Ok pm
    /\ shown_by_solve cf ord unit (session_after cf ord unit fs idxs (l1 ++ SModel k :: l2)) k x = Ok l
    /\ told cf ord unit fs (steps fs idx) pm x l.
Proof.
  intros cf ord unit fs idxs l1 l2 k idx x K OK NA ND.
  destruct (C67_main_partial cf ord unit fs idxs l1 l2 [] k idx x K OK) as [pm [r [B [S1 [S2 R]]]]]; [rewrite app_nil_r; exact NA|intros o []|exact ND|].
  assert (E : session_after cf ord unit fs idxs (l1 ++ SModel k :: l2 ++ [SSolve k (Some x)]) = fst (do_sop cf ord unit (session_after cf ord unit fs idxs (l1 ++ SModel k :: l2)) (SSolve k (Some x)))).
  { unfold session_after. change (l1 ++ SModel k :: l2 ++ [SSolve k (Some x)])%list with (l1 ++ (SModel k :: l2) ++ [SSolve k (Some x)])%list. rewrite app_assoc, fold_left_app. reflexivity. }
  rewrite E in S2. exists pm, (shown_main r). split; [exact B|]. split.
  - unfold shown_by_solve. destruct (do_sop cf ord unit (session_after cf ord unit fs idxs (l1 ++ SModel k :: l2)) (SSolve k (Some x))) as [s' a]. cbn [fst snd] in S1, S2. rewrite S1. cbn [bind]. rewrite S2. reflexivity.
  - apply told_main; [exact R| | |]; cbn [do_sop snd] in S2; destruct (model_of _ k) as [m|]; try discriminate; bnd S2 r' Er; apply Ok_inj in S2; injection S2 as <-; apply main_dicts in Er; tauto.
Qed.
Print Assumptions C105_told.

(** The hypotheses are met by a system with two investments and two effects; this is what is shown. *)
Example C105_applies : snd (do_sop default_config id_ord euro (session_after default_config id_ord euro fs0 mixed [SModel 1; SSolve 1 None]) (SModel 0)) = Ok None
  /\ NoDup (map (effect_key euro) (fs_effects fs0))
  /\ match shown_by_solve default_config id_ord euro (session_after default_config id_ord euro fs0 mixed ([SModel 1; SSolve 1 None] ++ SModel 0 :: [SMain 1])) 0 x0 with
     | Ok l => map (fun m => match m with SEffect n _ _ _ => n | STotals _ _ => "totals" | SInvestments t => String.concat ", " (map fst t) | WBus b => b | WPenalty _ => "penalty" end) l
               = ["costs [EUR]"; "CO2 [kg]"; "totals"; "Storage, Boiler__Q_th"; "Heat"; "penalty"]%string
     | Err _ => False end.
Proof. split; [vm_compute; reflexivity|]. split; [exact keys_0|]. vm_compute. reflexivity. Qed.
