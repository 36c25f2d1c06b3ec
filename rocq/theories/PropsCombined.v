(** C36: combined results of a segmented calculation. *)
From Verif Require Import Base BaseFacts MathModel Spec MathFacts Structure StructureFacts Params Features Elements System Library SysSpec
     CtxFacts NavFacts PropsComp Tree PropsTree Values PropsValues Results ResultFacts PropsResults Segmented PropsRepeat SegmentedFacts PropsSegmented Skeleton Example ExamplePoints.

(** ** Specification *)

(** On/off variables of a flow exist whatever the data: the flow or its component has on/off parameters or may not run together with others. *)
Definition has_onoff (c : component) (f : flow) : Prop := f_onoff f <> None \/ cp_onoff c <> None \/ In (f_id f) (cp_prevent c).

(** Time series of the combined results: each step holds the value of the segment responsible for it. *)
Record combined_series (ord : list nat -> list nat) (fs : flow_system) (seg n : nat) (subs : list sub) (kd : akind) (r : list (string * tree leaf)) : Prop := {
  cs_flow : forall c f, In c (fs_comps fs) -> In f (cp_flows c) ->
    reported r ["Components"; cp_label c; f_lab f; "flow_rate"] n (combined seg subs (fun x => rate_of x c f));
  cs_on : forall c f, In c (fs_comps fs) -> In f (cp_flows c) -> has_onoff c f ->
    reported r ["Components"; cp_label c; f_lab f; "OnOff"; "on"] n (combined seg subs (fun x => on_of x c f));
  cs_comp_on : forall c, In c (fs_comps fs) -> cp_onoff c <> None ->
    reported r ["Components"; cp_label c; "OnOff"; "on"] n (combined seg subs (fun x => x (oo (cp_label c) "on")));
  cs_charge : forall c s, In c (fs_comps fs) -> cp_kind c = StorageC s ->
    reported r ["Components"; cp_label c; "charge_state"] (S n) (combined seg subs (fun x => charge x c))
    /\ reported r ["Components"; cp_label c; "netto_discharge"] n (combined seg subs (fun x => x (vlabel (cp_label c) "netto_discharge")));
  cs_excess : forall b what, In b (buses ord fs) -> b_penalty b <> None -> what = "excess_input" \/ what = "excess_output" ->
    reported r ["Buses"; b_lab b; what] n (combined seg subs (fun x => excess x b what));
  cs_effect : forall e, In e (fs_effects fs) ->
    reported r ["Effects"; e_label e; "operation"; "operation_sum_TS"] n (combined seg subs (fun x => op_at x e));
  cs_time : exists l, extract (Node r) ["Time"] = Some (Leaf (LArr kd l)) /\ length l = S n /\ forall t, (t <= n)%nat -> nth t l 0 == stamp fs t;
  cs_hours : exists l, extract (Node r) ["Time intervals in hours"] = Some (Leaf (LArr AFlt l)) /\ length l = n /\ forall t, (t < n)%nat -> nth t l 0 = hours fs None t
}.
(** Single numbers of the combined results: a list with the number of each segment. *)
Definition listed (r : list (string * tree (list leaf))) (path : list string) (subs : list sub) (q : sub -> Q) : Prop :=
  exists l, extract (Node r) path = Some (Leaf l) /\ Forall2 (fun su a => holds 1 (fun _ => q su) a) subs l.

(** ** Proof *)
Lemma like_plain : forall fs fs', sys_like fs fs' -> plain_labels fs -> plain_labels fs'.
Proof.
  intros fs fs' L [A [B [C D]]]. pose proof (sl_comps _ _ L) as CL.
  assert (E : map cp_label (fs_comps fs') = map cp_label (fs_comps fs)).
  { clear -CL. induction CL as [|c c' l l' H _ IH]; [reflexivity|]. cbn. rewrite IH. pose proof (cl_look _ _ H) as Y. unfold clook in Y. congruence. }
  unfold plain_labels. rewrite E, (sl_effects _ _ L). split; [exact A|]. split; [exact B|]. split; [exact C|]. intros c' f' Hc' Hf'.
  assert (X : exists c, In c (fs_comps fs) /\ comp_like c c').
  { clear -CL Hc'. induction CL as [|c d l l' H _ IH]; [destruct Hc'|]. destruct Hc' as [<-|Hc']; [exists c; cbn; auto|]. destruct (IH Hc') as [e [He Q]]. exists e. cbn; auto. }
  destruct X as [c [Hc H]]. pose proof (cl_flows _ _ H) as FL.
  assert (Y : exists f, In f (cp_flows c) /\ f_lab f' = f_lab f).
  { clear -FL Hf'. induction FL as [|f g l l' [Q _] _ IH]; [destruct Hf'|]. destruct Hf' as [<-|Hf']; [exists f; cbn; split; auto; unfold flook in Q; congruence|].
    destruct (IH Hf') as [e [He W]]. exists e. cbn; auto. }
  destruct Y as [f [Hf ->]]. exact (D c f Hc Hf).
Qed.

Section Combined.
Variables (cf : config) (ord : list nat -> list nat) (solver : nat -> pmodel -> option asg) (fs : flow_system) (seg over : nat)
          (ti : option (list nat)) (g : segmented) (subs : list sub) (fs_after : flow_system) (kd : akind).
Hypothesis FIN : finished cf ord solver fs seg over ti g subs fs_after.
Hypothesis PL : plain_labels fs.
Hypothesis INT : forall su, In su subs -> integral (sb_prog su) (sb_values su).
Hypothesis BIG : (steps fs ti mod seg <> 1)%nat.
Let total := steps fs ti.

Lemma sub_reports : forall su, In su subs -> exists r, sub_results cf ord kd su = Ok r
  /\ reports cf ord (sb_fs su) (Some (sb_idx su)) kd (sb_prog su) (sb_values su) r.
Proof.
  intros su Hs. destruct (In_nth_error _ _ Hs) as [k E]. destruct (fin_sub _ _ _ _ _ _ _ _ _ _ FIN k su E) as [_ [B [_ [L _]]]].
  destruct (C28_reports_partial _ _ _ _ kd _ [DoModeling] (sb_values su) B (like_plain _ _ L PL) ltac:(cbn; auto) ltac:(cbn; intuition discriminate) (INT su Hs))
    as [r [R [RP _]]].
  exists r. split; [|exact RP]. unfold results_after in R. unfold sub_results. cbn [app] in R. rewrite R. reflexivity.
Qed.

Lemma sub_steps : forall k su, nth_error subs k = Some su -> (2 <= length (sb_idx su))%nat
  /\ (S k < length subs -> seg <= length (sb_idx su))%nat /\ (S k = length subs -> length (sb_idx su) = total - k * seg)%nat.
Proof.
  intros k su E. destruct (fin_length _ _ _ _ _ _ _ _ _ _ FIN k su E) as [L P]. destruct (fin_seg _ _ _ _ _ _ _ _ _ _ FIN) as [S1 [S2 [N [L1 L2]]]].
  fold total in L, P, S2, L1, L2. assert (K : (k < length subs)%nat) by (apply nth_error_Some; congruence). rewrite L.
  assert (LAST : S k = length subs -> (total - k * seg <> 1)%nat).
  { intros Z. intros O. apply BIG. fold total. replace (length subs - 1)%nat with k in L1 by lia. symmetry. apply (Nat.mod_unique _ _ k); nia. }
  split; [|split]; nia.
Qed.

Section Arrays.
Variables (r : list (string * tree leaf)) (key : string) (path : list string) (e : nat).
Hypothesis R : combined_arrays cf ord kd g subs = Ok r.
Hypothesis HAS : forall su rs, In su subs -> sub_results cf ord kd su = Ok rs ->
  exists kk l, extract (Node rs) (key :: path) = Some (Leaf (LArr kk l)) /\ length l = (length (sb_idx su) + e)%nat.

Lemma parts : exists rs ks ls, mapM (sub_results cf ord kd) subs = Ok rs /\ combine_dicts (join_arrays (sg_len g)) rs = Ok r
  /\ length ks = length subs /\ length ls = length subs
  /\ Forall2 (fun d a => extract (Node d) (key :: path) = Some (Leaf a)) rs (map (fun kq => LArr (fst kq) (snd kq)) (combine ks ls))
  /\ Forall2 (fun su l => length l = (length (sb_idx su) + e)%nat) subs ls
  /\ Forall2 (fun su d => sub_results cf ord kd su = Ok d) subs rs.
Proof.
  unfold combined_arrays in R. destruct (mapM (sub_results cf ord kd) subs) as [rs|] eqn:M; [|discriminate]. cbn [bind] in R. exists rs.
  assert (F2 : Forall2 (fun su d => sub_results cf ord kd su = Ok d) subs rs) by exact (mapM_Forall2 _ _ _ M).
  assert (X : exists ks ls, length ks = length subs /\ length ls = length subs
     /\ Forall2 (fun d a => extract (Node d) (key :: path) = Some (Leaf a)) rs (map (fun kq => LArr (fst kq) (snd kq)) (combine ks ls))
     /\ Forall2 (fun su l => length l = (length (sb_idx su) + e)%nat) subs ls).
  { clear -F2 HAS. revert HAS. induction F2 as [|su d ss ds H F2 IH]; intros HAS; [exists [], []; repeat split; constructor|].
    destruct (HAS su d (or_introl eq_refl) H) as [kk [l [X L]]]. destruct IH as [ks [ls [A [B [C D]]]]]; [intros su' rs' I; apply HAS; right; exact I|].
    exists (kk :: ks), (l :: ls). cbn [length combine map fst snd]. repeat split; try lia; constructor; auto. }
  destruct X as [ks [ls X]]. exists ks, ls. destruct X as [A [B [C D]]]. repeat split; auto.
Qed.

Lemma Forall2_nth_error : forall {A B} (P : A -> B -> Prop) l l' k a, Forall2 P l l' -> nth_error l k = Some a -> exists b, nth_error l' k = Some b /\ P a b.
Proof.
  intros A B P l l' k a H. revert k. induction H as [|x y l l' H _ IH]; intros [|k] E; cbn in E; try discriminate; [inversion E; subst; exists y; auto|].
  apply IH. exact E.
Qed.
Lemma combine_nth_error : forall {A B} (l : list A) (l' : list B) k a b, nth_error l k = Some a -> nth_error l' k = Some b -> nth_error (combine l l') k = Some (a, b).
Proof.
  induction l as [|x l IH]; intros [|y l'] [|k] a b E E'; cbn in *; try discriminate; [inversion E; inversion E'; reflexivity|]. apply IH; assumption.
Qed.
Lemma snd_combine : forall {A B} (l : list A) (l' : list B), length l = length l' -> map snd (combine l l') = l'.
Proof. induction l as [|x l IH]; intros [|y l'] H; try discriminate; [reflexivity|]. cbn. rewrite IH by (cbn in H; lia). reflexivity. Qed.
Lemma fst_combine : forall {A B} (l : list A) (l' : list B), length l = length l' -> map fst (combine l l') = l.
Proof. induction l as [|x l IH]; intros [|y l'] H; try discriminate; [reflexivity|]. cbn. rewrite IH by (cbn in H; lia). reflexivity. Qed.
Lemma same_kind_eq : forall a b, same_kind a b = true -> a = b.
Proof. destruct a, b; cbn; intros H; (reflexivity || discriminate). Qed.
Lemma same_kind_refl : forall a, same_kind a a = true. Proof. destruct a; reflexivity. Qed.

Lemma arrays_joined : exists kk ll, extract (Node r) (key :: path) = Some (Leaf (LArr kk ll)) /\ length ll = (total + e)%nat
  /\ (forall P : akind -> Prop, (forall su rs k l, In su subs -> sub_results cf ord kd su = Ok rs -> extract (Node rs) (key :: path) = Some (Leaf (LArr k l)) -> P k) ->
        P AFlt \/ (exists k0, forall k, P k -> k = k0) -> P kk)
  /\ (forall t, (t < total + e)%nat -> (e <= 1)%nat -> exists su rs k l, nth_error subs (responsible seg subs t) = Some su /\ sub_results cf ord kd su = Ok rs
        /\ extract (Node rs) (key :: path) = Some (Leaf (LArr k l)) /\ length l = (length (sb_idx su) + e)%nat
        /\ (t - responsible seg subs t * seg < length l)%nat /\ nth t ll 0 = nth (t - responsible seg subs t * seg) l 0).
Proof.
  destruct parts as [rs [ks [ls [M [C [LK [LL [F1 [F2 F3]]]]]]]]]. destruct (fin_seg _ _ _ _ _ _ _ _ _ _ FIN) as [S1 [S2 [N [L1 L2]]]]. fold total in S2, L1, L2.
  assert (SL : sg_len g = seg) by (destruct FIN as [MK _]; apply (segmented_spec _ _ _ _ _ MK)).
  assert (J : exists kk, join_arrays seg (map (fun kq => LArr (fst kq) (snd kq)) (combine ks ls)) = Some (LArr kk (cut_all_but_last seg ls))
              /\ forall P : akind -> Prop, (forall k, In k ks -> P k) -> P AFlt \/ (exists k0, forall k, P k -> k = k0) -> P kk).
  { unfold join_arrays. rewrite array_parts_arr by congruence. destruct ks as [|k0 ks]; [cbn in LK; lia|]. destruct ls as [|l0 ls]; [cbn in LL; lia|]. cbn [combine].
    rewrite snd_combine by (cbn in LK, LL; lia). eexists. split; [reflexivity|]. intros P HP W.
    destruct (forallb (fun p => same_kind k0 (fst p)) (combine ks ls)) eqn:SK; [apply HP; left; reflexivity|].
    destruct W as [W|[k1 W]]; [exact W|]. exfalso.
    assert (T : forallb (fun p => same_kind k0 (fst p)) (combine ks ls) = true); [|congruence].
    apply forallb_forall. intros [k l] I. cbn [fst]. apply in_combine_l in I. rewrite (W k0) by (apply HP; left; reflexivity). rewrite (W k) by (apply HP; right; exact I). apply same_kind_refl. }
  destruct J as [kk [J JP]]. rewrite SL in C. exists kk, (cut_all_but_last seg ls). split; [|split; [|split]].
  - exact (combine_dicts_path (join_arrays seg) rs r key path _ _ C F1 J).
  - rewrite (cut_all_but_last_length seg ls (map (fun su => (length (sb_idx su) + e)%nat) subs)).
    + rewrite LL. assert (SE : exists su, nth_error subs (length subs - 1) = Some su) by (apply fin_exists; lia). destruct SE as [su SE].
      destruct (sub_steps _ _ SE) as [_ [_ X]]. specialize (X ltac:(lia)).
      assert (LA : last (map (fun su => (length (sb_idx su) + e)%nat) subs) 0%nat = (length (sb_idx su) + e)%nat).
      { clear -SE. induction subs as [|a l IH]; [destruct (0 - 1)%nat; discriminate|]. destruct l as [|b l]; [cbn in SE; inversion SE; reflexivity|].
        cbn [map last]. cbn [length] in SE, IH. replace (S (S (length l)) - 1)%nat with (S (S (length l) - 1)) in SE by lia. cbn [nth_error] in SE. exact (IH SE). }
      rewrite LA, X. nia.
    + clear -F2. induction F2 as [|su l ss ls H _ IH]; constructor; auto.
    + intros m Hm. assert (HM : exists k su, nth_error subs k = Some su /\ (S k < length subs)%nat /\ m = (length (sb_idx su) + e)%nat).
      { clear -Hm. induction subs as [|a l IH]; [destruct Hm|]. destruct l as [|b l]; [destruct Hm|]. cbn [map removelast] in Hm. destruct Hm as [<-|Hm].
        - exists 0%nat, a. cbn [length]. repeat split; auto; lia.
        - destruct (IH Hm) as [k [su [A [B Q]]]]. exists (S k), su. cbn [length] in *. repeat split; auto. lia. }
      destruct HM as [k [su [E [K ->]]]]. destruct (sub_steps k su E) as [_ [X _]]. specialize (X K). lia.
  - intros P HP W. apply JP; [|exact W]. intros k Hk. apply In_nth_error in Hk. destruct Hk as [i Hi].
    assert (I : (i < length subs)%nat) by (rewrite <- LK; apply nth_error_Some; congruence). destruct (fin_exists subs i I) as [su SE].
    destruct (Forall2_nth_error _ _ _ _ _ F3 SE) as [d [D1 D2]]. destruct (Forall2_nth_error _ _ _ _ _ F1 D1) as [a [A1 A2]].
    assert (IL : (i < length ls)%nat) by lia. destruct (nth_error ls i) as [l|] eqn:EL; [|apply nth_error_None in EL; lia].
    pose proof (combine_nth_error _ _ _ _ _ Hi EL) as CE. rewrite (map_nth_error _ _ _ CE) in A1. inversion A1; subst. cbn [fst snd] in A2.
    exact (HP su d k l (nth_error_In _ _ SE) D2 A2).
  - intros t Ht E1. set (k := responsible seg subs t). assert (K : (k < length subs)%nat) by (unfold k, responsible; lia).
    assert (DV : (k <= t / seg)%nat) by (unfold k, responsible; lia). pose proof (Nat.mul_div_le t seg ltac:(lia)) as MD.
    destruct (fin_exists subs k K) as [su SE]. destruct (Forall2_nth_error _ _ _ _ _ F3 SE) as [d [D1 D2]]. destruct (Forall2_nth_error _ _ _ _ _ F1 D1) as [a [A1 A2]].
    destruct (Forall2_nth_error _ _ _ _ _ F2 SE) as [l [EL LN]]. destruct (nth_error ks k) as [kq|] eqn:EK; [|apply nth_error_None in EK; lia].
    pose proof (combine_nth_error _ _ _ _ _ EK EL) as CE. rewrite (map_nth_error _ _ _ CE) in A1. inversion A1; subst a. cbn [fst snd] in A2. clear A1.
    exists su, d, kq, l. split; [exact SE|]. split; [exact D2|]. split; [exact A2|]. split; [exact LN|].
    destruct (sub_steps k su SE) as [_ [X Y]].
    assert (IN : (S k < length subs -> t - k * seg < seg)%nat).
    { intros Z. assert (k = t / seg)%nat by (unfold k, responsible in *; lia). pose proof (Nat.mod_upper_bound t seg ltac:(lia)). pose proof (Nat.div_mod t seg ltac:(lia)). nia. }
    assert (TL : (t - k * seg < length l)%nat).
    { rewrite LN. destruct (Nat.eq_dec (S k) (length subs)) as [Z|Z]; [rewrite (Y Z); nia|]. specialize (X ltac:(lia)). specialize (IN ltac:(lia)). lia. }
    split; [exact TL|]. assert (NL : nth k ls [] = l) by (apply nth_error_nth; exact EL).
    rewrite <- NL. rewrite <- (cut_nth seg ls (t - k * seg) k); [f_equal; nia|lia| |lia|rewrite NL; exact TL|intros Z; apply IN; lia].
    intros b Hb. assert (HB : exists j, nth_error ls j = Some b /\ (S j < length ls)%nat).
    { clear -Hb. induction ls as [|a l IH]; [destruct Hb|]. destruct l as [|b' l]; [destruct Hb|]. cbn [removelast] in Hb. destruct Hb as [<-|Hb].
      - exists 0%nat. cbn [length]. split; [reflexivity|lia].
      - destruct (IH Hb) as [j [A B]]. exists (S j). cbn [length] in *. split; [exact A|lia]. }
    destruct HB as [j [J1 J2]]. destruct (fin_exists subs j ltac:(lia)) as [sj SJ]. destruct (Forall2_nth_error _ _ _ _ _ F2 SJ) as [b' [J3 J4]].
    assert (b' = b) by congruence. subst b'. destruct (sub_steps j sj SJ) as [_ [XJ _]]. specialize (XJ ltac:(lia)). lia.
Qed.
End Arrays.

(** Everything reported by each segment is reported by the combination. *)
Lemma series_joined : forall r key path e (q : asg -> nat -> Q), combined_arrays cf ord kd g subs = Ok r -> (e <= 1)%nat ->
  (forall su rs, In su subs -> sub_results cf ord kd su = Ok rs -> reports cf ord (sb_fs su) (Some (sb_idx su)) kd (sb_prog su) (sb_values su) rs -> sys_like fs (sb_fs su) ->
     reported rs (key :: path) (length (sb_idx su) + e) (q (sb_values su))) ->
  reported r (key :: path) (total + e) (combined seg subs q).
Proof.
  intros r key path e q R E1 H.
  assert (HR : forall su rs, In su subs -> sub_results cf ord kd su = Ok rs -> reported rs (key :: path) (length (sb_idx su) + e) (q (sb_values su))).
  { intros su rs Hs Q. destruct (sub_reports su Hs) as [r1 [R1 RP]]. assert (r1 = rs) by congruence. subst r1. apply H; auto.
    destruct (In_nth_error _ _ Hs) as [k E]. apply (fin_sub _ _ _ _ _ _ _ _ _ _ FIN k su E). }
  assert (TWO : forall su, In su subs -> (2 <= length (sb_idx su))%nat) by (intros su Hs; destruct (In_nth_error _ _ Hs) as [k E]; apply (sub_steps k su E)).
  assert (HAS : forall su rs, In su subs -> sub_results cf ord kd su = Ok rs ->
    exists kk l, extract (Node rs) (key :: path) = Some (Leaf (LArr kk l)) /\ length l = (length (sb_idx su) + e)%nat).
  { intros su rs Hs Q. destruct (HR su rs Hs Q) as [a [X Y]]. specialize (TWO su Hs). destruct a as [|np i q0|kk l]; cbn [holds] in Y; [destruct Y|destruct Y; lia|].
    exists kk, l. split; [exact X|]. destruct kk; try (destruct Y; fail); apply Y. }
  destruct (arrays_joined r key path e R HAS) as [kk [ll [X [L [KD V]]]]]. exists (LArr kk ll). split; [exact X|].
  assert (KK : kk = AInt \/ kk = AFlt).
  { apply (KD (fun k => k = AInt \/ k = AFlt)); [|left; auto]. intros su rs k l Hs Q EX. destruct (HR su rs Hs Q) as [a [X' Y]]. rewrite X' in EX. inversion EX; subst. cbn [holds] in Y.
    destruct k; auto; destruct Y. }
  assert (HV : forall t, (t < total + e)%nat -> nth t ll 0 == combined seg subs q t).
  { intros t Ht. destruct (V t Ht E1) as [su [rs [k [l [SE [Q [EX [LN [TL NV]]]]]]]]]. rewrite NV. unfold combined.
    destruct (fin_sub _ _ _ _ _ _ _ _ _ _ FIN _ su SE) as [_ [_ [_ [_ VO]]]]. rewrite VO.
    destruct (HR su rs (nth_error_In _ _ SE) Q) as [a [X' Y]]. rewrite X' in EX. inversion EX; subst. cbn [holds] in Y.
    destruct k; try (destruct Y; fail); destruct Y as [_ [_ Y]]; apply Y; rewrite <- LN; exact TL. }
  destruct (fin_seg _ _ _ _ _ _ _ _ _ _ FIN) as [S1 [S2 _]]. fold total in S2.
  destruct KK as [-> | ->]; cbn [holds]; (split; [lia|]); (split; [exact L|exact HV]).
Qed.

Lemma like_component : forall fs' c, sys_like fs fs' -> In c (fs_comps fs) -> exists c', In c' (fs_comps fs') /\ comp_like c c' /\ cp_label c' = cp_label c.
Proof.
  intros fs' c L Hc. destruct (Forall2_nth_like _ _ _ c (sl_comps _ _ L) Hc) as [c' [Hc' CL]]. exists c'. split; [exact Hc'|]. split; [exact CL|].
  pose proof (cl_look _ _ CL) as Y. unfold clook in Y. congruence.
Qed.
Lemma like_flow : forall c c' f, comp_like c c' -> In f (cp_flows c) -> exists f', In f' (cp_flows c') /\ flow_like f f' /\ f_lab f' = f_lab f /\ f_id f' = f_id f.
Proof.
  intros c c' f CL Hf. destruct (Forall2_nth_like _ _ _ f (cl_flows _ _ CL) Hf) as [f' [Hf' [A B]]]. exists f'. split; [exact Hf'|].
  split; [split; assumption|]. unfold flook in A. split; congruence.
Qed.

Theorem series_ok : forall r, combined_arrays cf ord kd g subs = Ok r -> combined_series ord fs seg total subs kd r.
Proof.
  intros r R. constructor.
  - intros c f Hc Hf. rewrite <- (Nat.add_0_r total). apply series_joined; [exact R|lia|]. intros su rs Hs Q RP L.
    destruct (like_component _ _ L Hc) as [c' [Hc' [CL LB]]]. destruct (like_flow _ _ _ CL Hf) as [f' [Hf' [_ [LF _]]]].
    pose proof (rp_flow _ _ _ _ _ _ _ _ RP c' f' Hc' Hf') as X. cbn [steps] in X. rewrite LB, LF in X. unfold rate_of, flow_name in *. rewrite LB, LF in X. rewrite Nat.add_0_r. exact X.
  - intros c f Hc Hf HO. rewrite <- (Nat.add_0_r total). apply series_joined; [exact R|lia|]. intros su rs Hs Q RP L.
    destruct (like_component _ _ L Hc) as [c' [Hc' [CL LB]]]. destruct (like_flow _ _ _ CL Hf) as [f' [Hf' [[_ OO] [LF LI]]]].
    assert (G : exists p, governed (sb_fs su) (Some (sb_idx su)) c' f' = Some p).
    { unfold governed, induced. destruct (f_onoff f') as [p|] eqn:E; [eauto|]. rewrite (cl_onoff _ _ CL), (cl_prevent _ _ CL), LI. destruct HO as [HO|[HO|HO]].
      - exfalso. apply OO; auto.
      - destruct (cp_onoff c); [|congruence]. cbn. eauto.
      - assert (M : existsb (Nat.eqb (f_id f)) (cp_prevent c) = true) by (apply existsb_exists; exists (f_id f); split; [exact HO|apply Nat.eqb_refl]).
        rewrite M. rewrite Bool.orb_true_r. cbn. eauto. }
    destruct G as [p G]. pose proof (rp_on _ _ _ _ _ _ _ _ RP c' f' p Hc' Hf' G) as X. cbn [steps] in X. rewrite LB, LF in X. unfold on_of, flow_name in *. rewrite LB, LF in X.
    rewrite Nat.add_0_r. exact X.
  - intros c Hc HO. rewrite <- (Nat.add_0_r total). apply series_joined; [exact R|lia|]. intros su rs Hs Q RP L.
    destruct (like_component _ _ L Hc) as [c' [Hc' [CL LB]]]. destruct (cp_onoff c) as [p|] eqn:E; [|congruence].
    assert (E' : cp_onoff c' = Some p) by (rewrite (cl_onoff _ _ CL); exact E).
    pose proof (rp_comp_on _ _ _ _ _ _ _ _ RP c' p Hc' E') as X. cbn [steps] in X. rewrite LB in X. rewrite Nat.add_0_r. exact X.
  - intros c s Hc K.
    assert (X : forall su rs, sub_results cf ord kd su = Ok rs -> reports cf ord (sb_fs su) (Some (sb_idx su)) kd (sb_prog su) (sb_values su) rs -> sys_like fs (sb_fs su) ->
      reported rs ["Components"; cp_label c; "charge_state"] (S (length (sb_idx su))) (charge (sb_values su) c)
      /\ reported rs ["Components"; cp_label c; "netto_discharge"] (length (sb_idx su)) (sb_values su (vlabel (cp_label c) "netto_discharge"))).
    { intros su rs Q RP L. destruct (like_component _ _ L Hc) as [c' [Hc' [CL LB]]]. pose proof (cl_kind _ _ CL) as KL. rewrite K in KL. destruct KL as [i KL].
      destruct (rp_charge _ _ _ _ _ _ _ _ RP c' _ Hc' KL) as [A [B _]]. cbn [steps] in A, B. rewrite LB in A, B. unfold charge in *. rewrite LB in A. split; assumption. }
    split.
    + replace (S total) with (total + 1)%nat by lia. apply series_joined; [exact R|lia|]. intros su rs Hs Q RP L. rewrite Nat.add_1_r. apply (X su rs Q RP L).
    + rewrite <- (Nat.add_0_r total). apply series_joined; [exact R|lia|]. intros su rs Hs Q RP L. rewrite Nat.add_0_r. apply (X su rs Q RP L).
  - intros b what Hb Hp W. rewrite <- (Nat.add_0_r total). apply series_joined; [exact R|lia|]. intros su rs Hs Q RP L.
    assert (Hb' : In b (buses ord (sb_fs su))) by (rewrite (frame_buses _ _ (sys_like_frame _ _ L)); exact Hb).
    pose proof (rp_excess _ _ _ _ _ _ _ _ RP b what Hb' Hp W) as X. cbn [steps] in X. rewrite Nat.add_0_r. exact X.
  - intros e He. rewrite <- (Nat.add_0_r total). apply series_joined; [exact R|lia|]. intros su rs Hs Q RP L.
    assert (He' : In e (fs_effects (sb_fs su))) by (rewrite (sl_effects _ _ L); exact He).
    destruct (rp_effect _ _ _ _ _ _ _ _ RP e He') as [X _]. cbn [steps] in X. rewrite Nat.add_0_r. exact X.
  - assert (TM : forall su rs, In su subs -> sub_results cf ord kd su = Ok rs -> exists l, extract (Node rs) ["Time"] = Some (Leaf (LArr kd l)) /\ length l = (length (sb_idx su) + 1)%nat
      /\ forall a n, sb_idx su = seq a n -> (a + n <= length (fs_times fs))%nat -> forall t, (t <= n)%nat -> (0 < n)%nat -> nth t l 0 == stamp fs (a + t)).
    { intros su rs Hs Q. destruct (sub_reports su Hs) as [r1 [R1 RP]]. assert (r1 = rs) by congruence. subst r1.
      destruct (In_nth_error _ _ Hs) as [k E]. destruct (fin_sub _ _ _ _ _ _ _ _ _ _ FIN k su E) as [_ [_ [_ [L _]]]].
      destruct (rp_time _ _ _ _ _ _ _ _ RP) as [l [X [LN V]]]. exists l. cbn [steps] in LN. split; [exact X|]. split; [lia|].
      intros a n I B t Ht N. rewrite I in V. cbn [steps] in V. rewrite seq_length in V.
      assert (ST : forall i, stamp (sb_fs su) i = stamp fs i) by (intros i; unfold stamp; rewrite (sl_times _ _ L), (sl_end _ _ L); reflexivity).
      destruct (Nat.eq_dec t n) as [->|NE].
      - destruct (V (n - 1)%nat ltac:(lia)) as [V1 V2]. replace (S (n - 1)) with n in V2 by lia.
        rewrite (hours_like _ _ _ _ L), hours_part in V2 by lia. rewrite V1 in V2. cbn [selected] in V1, V2. rewrite seq_nth in V1, V2 by lia. rewrite ST in V1, V2.
        assert (HH : hours fs None (a + (n - 1)) == stamp fs (a + n) - stamp fs (a + (n - 1))).
        { unfold hours. cbn [steps selected]. destruct (Nat.ltb _ _); replace (S (a + (n - 1))) with (a + n)%nat by lia; reflexivity. }
        assert (Z : nth n l 0 - stamp fs (a + (n - 1)) == stamp fs (a + n) - stamp fs (a + (n - 1))) by (rewrite V2; exact HH). lra.
      - destruct (V t ltac:(lia)) as [V1 _]. rewrite V1. cbn [selected]. rewrite seq_nth by lia. rewrite ST. reflexivity. }
    destruct (arrays_joined r "Time" [] 1 R) as [kk [ll [X [L [KD V]]]]].
    { intros su rs Hs Q. destruct (TM su rs Hs Q) as [l [A [B _]]]. eauto. }
    assert (kk = kd).
    { apply (KD (fun k => k = kd)); [|right; exists kd; auto]. intros su rs k l Hs Q EX. destruct (TM su rs Hs Q) as [l' [A _]]. rewrite A in EX. inversion EX; reflexivity. }
    subst kk. exists ll. split; [exact X|]. split; [lia|]. intros t Ht. destruct (V t ltac:(lia) ltac:(lia)) as [su [rs [k [l [SE [Q [EX [LN [TL NV]]]]]]]]]. rewrite NV.
    destruct (TM su rs (nth_error_In _ _ SE) Q) as [l' [A [_ B]]]. rewrite A in EX. inversion EX; subst k l'. clear EX.
    destruct (fin_sub _ _ _ _ _ _ _ _ _ _ FIN _ su SE) as [I _]. pose proof (fin_range _ _ _ _ _ _ _ _ _ _ FIN) as RG. pose proof (fin_length _ _ _ _ _ _ _ _ _ _ FIN _ su SE) as [LS LT].
    assert (RS : (responsible seg subs t * seg <= t)%nat).
    { destruct (fin_seg _ _ _ _ _ _ _ _ _ _ FIN) as [S1 _]. unfold responsible. pose proof (Nat.mul_div_le t seg ltac:(lia)). nia. }
    destruct (fin_seg _ _ _ _ _ _ _ _ _ _ FIN) as [S1 _]. fold total in I, RG, LS, LT. transitivity (stamp fs (responsible seg subs t * seg + (t - responsible seg subs t * seg))); [apply (B _ _ I); lia|]. replace (responsible seg subs t * seg + (t - responsible seg subs t * seg))%nat with t by lia. reflexivity.
  - assert (TM : forall su rs, In su subs -> sub_results cf ord kd su = Ok rs -> exists l, extract (Node rs) ["Time intervals in hours"] = Some (Leaf (LArr AFlt l)) /\ length l = (length (sb_idx su) + 0)%nat
      /\ forall t, (t < length (sb_idx su))%nat -> nth t l 0 = hours fs (Some (sb_idx su)) t).
    { intros su rs Hs Q. destruct (sub_reports su Hs) as [r1 [R1 RP]]. assert (r1 = rs) by congruence. subst r1.
      destruct (In_nth_error _ _ Hs) as [k E]. destruct (fin_sub _ _ _ _ _ _ _ _ _ _ FIN k su E) as [_ [_ [_ [L _]]]].
      destruct (rp_hours _ _ _ _ _ _ _ _ RP) as [l [X [LN V]]]. exists l. cbn [steps] in LN, V. split; [exact X|]. split; [lia|].
      intros t Ht. rewrite (V t Ht). apply hours_like. exact L. }
    destruct (arrays_joined r "Time intervals in hours" [] 0 R) as [kk [ll [X [L [KD V]]]]].
    { intros su rs Hs Q. destruct (TM su rs Hs Q) as [l [A [B _]]]. eauto. }
    assert (kk = AFlt).
    { apply (KD (fun k => k = AFlt)); [|left; reflexivity]. intros su rs k l Hs Q EX. destruct (TM su rs Hs Q) as [l' [A _]]. rewrite A in EX. inversion EX; reflexivity. }
    subst kk. exists ll. split; [exact X|]. split; [lia|]. intros t Ht. destruct (V t ltac:(lia) ltac:(lia)) as [su [rs [k [l [SE [Q [EX [LN [TL NV]]]]]]]]]. rewrite NV.
    destruct (TM su rs (nth_error_In _ _ SE) Q) as [l' [A [_ B]]]. rewrite A in EX. inversion EX; subst k l'. clear EX. rewrite (B (t - responsible seg subs t * seg)%nat) by lia.
    destruct (fin_sub _ _ _ _ _ _ _ _ _ _ FIN _ su SE) as [I _]. pose proof (fin_range _ _ _ _ _ _ _ _ _ _ FIN) as RG. pose proof (fin_length _ _ _ _ _ _ _ _ _ _ FIN _ su SE) as [LS LT].
    assert (RS : (responsible seg subs t * seg <= t)%nat).
    { destruct (fin_seg _ _ _ _ _ _ _ _ _ _ FIN) as [S1 _]. unfold responsible. pose proof (Nat.mul_div_le t seg ltac:(lia)). nia. }
    fold total in I, RG, LS, LT. rewrite I, hours_part by lia. f_equal. lia.
Qed.

Lemma numbers_listed : forall r key path (q : sub -> Q), combined_scalars cf ord kd subs = Ok r ->
  (forall su rs, In su subs -> sub_results cf ord kd su = Ok rs -> reports cf ord (sb_fs su) (Some (sb_idx su)) kd (sb_prog su) (sb_values su) rs -> sys_like fs (sb_fs su) ->
     reported rs (key :: path) 1 (fun _ => q su)) ->
  listed r (key :: path) subs q.
Proof.
  intros r key path q R H. unfold combined_scalars in R. destruct (mapM (sub_results cf ord kd) subs) as [rs|] eqn:M; [|discriminate]. cbn [bind] in R.
  assert (F2 : Forall2 (fun su d => sub_results cf ord kd su = Ok d) subs rs) by exact (mapM_Forall2 _ _ _ M).
  assert (HR : forall su rs, In su subs -> sub_results cf ord kd su = Ok rs -> reported rs (key :: path) 1 (fun _ => q su)).
  { intros su rs' Hs Q. destruct (sub_reports su Hs) as [r1 [R1 RP]]. assert (r1 = rs') by congruence. subst r1. apply H; auto.
    destruct (In_nth_error _ _ Hs) as [k E]. apply (fin_sub _ _ _ _ _ _ _ _ _ _ FIN k su E). }
  assert (X : exists l, Forall2 (fun d a => extract (Node d) (key :: path) = Some (Leaf a)) rs l /\ Forall2 (fun su a => holds 1 (fun _ => q su) a) subs l /\ join_scalars l = Some l).
  { clear -F2 HR. revert HR. induction F2 as [|su d ss ds Q F2 IH]; intros HR; [exists []; repeat split; constructor|].
    destruct IH as [l [A [B C]]]; [intros su' rs' I; apply HR; right; exact I|]. destruct (HR su d (or_introl eq_refl) Q) as [a [X Y]].
    exists (a :: l). split; [constructor; assumption|]. split; [constructor; assumption|]. destruct a as [|np i v|kk v]; cbn [holds] in Y; [destruct Y| |destruct kk; destruct Y; congruence].
    cbn [join_scalars]. rewrite C. reflexivity. }
  destruct X as [l [A [B C]]]. exists l. split; [|exact B]. exact (combine_dicts_path join_scalars rs r key path l l R A C).
Qed.
End Combined.

(** ** C36 *)

(** Combining never fails: what a later segment calculates has at least the keys of what the first one calculates. *)
Theorem C36_combines : forall cf ord solver fs seg over ti g subs fs_after kd,
  finished cf ord solver fs seg over ti g subs fs_after ->
  (exists r, combined_arrays cf ord kd g subs = Ok r) /\ (exists r, combined_scalars cf ord kd subs = Ok r).
Proof.
  intros cf ord solver fs seg over ti g subs fs_after kd FIN. destruct (finished_trace _ _ _ _ _ _ _ _ _ _ FIN) as [fs' [T _]].
  assert (B : forall su, In su subs -> exists b axis, build_system cf ord (sb_fs su) (Some (sb_idx su)) = Ok b
     /\ sub_results cf ord kd su = Ok (system_results b (sb_prog su) kd axis (Some (sb_values su)))).
  { intros su Hs. destruct (In_nth_error _ _ Hs) as [k E]. destruct (fin_sub _ _ _ _ _ _ _ _ _ _ FIN k su E) as [_ [B [_ [L _]]]].
    unfold build in B. apply bind_ok in B. destruct B as [b [B1 B2]]. exists b.
    destruct (time_axis (sb_fs su) (Some (sb_idx su))) as [axis|e] eqn:AX.
    - exists axis. split; [exact B1|]. unfold sub_results, calls. cbn [fold_left do_cop]. rewrite B1. cbn [bind]. rewrite B2. cbn [bind]. rewrite AX. reflexivity.
    - exfalso. unfold time_axis in AX. unfold build_system in B1. apply bind_ok in B1. destruct B1 as [cx [CX _]]. unfold make_ctx in CX. apply bind_ok in CX. destruct CX as [w [TD _]].
      unfold time_data in TD. cbv zeta in TD, AX. destruct (take_idx _ _); [|discriminate]. cbn [bind] in TD, AX. destruct (of_option _ _); [|discriminate]. cbn [bind] in TD, AX.
      destruct (of_option _ _); discriminate. }
  destruct (trace_first _ _ _ _ _ _ _ _ T) as [s0 [E0 F0]]. destruct subs as [|s0' rest]; [discriminate|]. cbn in E0. injection E0 as ->.
  assert (R : exists r0 rs, mapM (sub_results cf ord kd) (s0 :: rest) = Ok (r0 :: rs) /\ is_dict (Node r0) /\ forall r, In r rs -> covers (Node r0) (Node r)).
  { destruct (B s0 (or_introl eq_refl)) as [b0 [a0 [B0 R0]]]. cbn [mapM]. rewrite R0. cbn [bind].
    assert (X : exists rs, mapM (sub_results cf ord kd) rest = Ok rs
       /\ forall r, In r rs -> covers (Node (system_results b0 (sb_prog s0) kd a0 (Some (sb_values s0)))) (Node r)).
    { assert (Y : forall su, In su rest -> exists r, sub_results cf ord kd su = Ok r /\ covers (Node (system_results b0 (sb_prog s0) kd a0 (Some (sb_values s0)))) (Node r)).
      { intros su Hs. destruct (B su (or_intror Hs)) as [b [a [Bs Rs]]]. eexists. split; [exact Rs|]. apply system_covers.
        eapply built_fits; [exact B0|exact Bs| |].
        - rewrite F0. destruct (trace_like _ _ _ _ _ _ _ _ T) as [_ L]. apply L. right. exact Hs.
        - rewrite F0. eapply trace_grows; [exact T|reflexivity|exact Hs]. }
      clear -Y. induction rest as [|su rest IH]; [exists []; split; [reflexivity|intros r []]|].
      destruct (Y su (or_introl eq_refl)) as [r [R1 C1]]. destruct IH as [rs [R2 C2]]; [intros; apply Y; right; assumption|].
      exists (r :: rs). cbn [mapM]. rewrite R1. cbn [bind]. rewrite R2. split; [reflexivity|]. intros r' [<-|Hr]; auto. }
    destruct X as [rs [-> C]]. cbn [bind]. eexists _, rs. split; [reflexivity|]. split; [apply system_results_dict|exact C]. }
  destruct R as [r0 [rs [M [D C]]]]. unfold combined_arrays, combined_scalars. rewrite M. cbn [bind]. unfold combine_dicts.
  assert (C' : forall t, In t (map Node rs) -> covers (Node r0) t) by (intros t Ht; apply in_map_iff in Ht; destruct Ht as [r [<- Hr]]; apply C; exact Hr).
  split.
  - destruct (combine_fits (join_arrays (sg_len g)) _ _ D C') as [u ->]. cbn [bind]. eauto.
  - destruct (combine_fits join_scalars _ _ D C') as [u ->]. cbn [bind]. eauto.
Qed.
Print Assumptions C36_combines.

Definition C36_full : Prop := forall cf ord solver fs seg over ti g subs fs_after kd,
  finished cf ord solver fs seg over ti g subs fs_after -> plain_labels fs -> (forall su, In su subs -> integral (sb_prog su) (sb_values su)) ->
  exists r, combined_arrays cf ord kd g subs = Ok r /\ combined_series ord fs seg (steps fs ti) subs kd r.

(** If the last segment has more than one step, the combined results hold every time series with the horizon's length. *)
Theorem C36_series_partial : forall cf ord solver fs seg over ti g subs fs_after kd,
  finished cf ord solver fs seg over ti g subs fs_after -> plain_labels fs -> (forall su, In su subs -> integral (sb_prog su) (sb_values su)) ->
  (steps fs ti mod seg <> 1)%nat ->
  exists r, combined_arrays cf ord kd g subs = Ok r /\ combined_series ord fs seg (steps fs ti) subs kd r.
Proof.
  intros cf ord solver fs seg over ti g subs fs_after kd F P I M. destruct (C36_combines _ _ _ _ _ _ _ _ _ _ kd F) as [[r R] _]. exists r. split; [exact R|].
  eapply series_ok; eauto.
Qed.
Print Assumptions C36_series_partial.

Theorem C36_numbers_partial : forall cf ord solver fs seg over ti g subs fs_after kd,
  finished cf ord solver fs seg over ti g subs fs_after -> plain_labels fs -> (forall su, In su subs -> integral (sb_prog su) (sb_values su)) ->
  exists r, combined_scalars cf ord kd subs = Ok r
  /\ listed r ["Objective"] subs (fun su => objective_value (sb_prog su) (sb_values su))
  /\ listed r ["Effects"; "penalty"; "penalty_sum"] subs (fun su => penalty_sum (sb_values su))
  /\ (forall e, In e (fs_effects fs) ->
        listed r ["Effects"; e_label e; "operation"; "operation_sum"] subs (fun su => op_sum (sb_values su) e)
        /\ listed r ["Effects"; e_label e; "invest"; "invest_sum"] subs (fun su => inv_sum (sb_values su) e)
        /\ listed r ["Effects"; e_label e; "all"; "all_sum"] subs (fun su => all_sum (sb_values su) e)).
Proof.
  intros cf ord solver fs seg over ti g subs fs_after kd F PL INT. destruct (C36_combines _ _ _ _ _ _ _ _ _ _ kd F) as [_ [r R]]. exists r. split; [exact R|].
  split; [|split; [|intros e He; split; [|split]]]; eapply numbers_listed; eauto; intros su rs Hs Q RP L.
  - apply (rp_objective _ _ _ _ _ _ _ _ RP).
  - apply (rp_penalty _ _ _ _ _ _ _ _ RP).
  - apply (rp_effect _ _ _ _ _ _ _ _ RP e). rewrite (sl_effects _ _ L). exact He.
  - apply (rp_effect _ _ _ _ _ _ _ _ RP e). rewrite (sl_effects _ _ L). exact He.
  - apply (rp_effect _ _ _ _ _ _ _ _ RP e). rewrite (sl_effects _ _ L). exact He.
Qed.
Print Assumptions C36_numbers_partial.

(** The run of ten steps in segments of four with overlap two. *)
Definition all_integral (subs : list sub) : bool := forallb (fun s => integralb (sb_prog s) (sb_values s)) subs.
Lemma all_integral_ok : forall subs, all_integral subs = true -> forall s, In s subs -> integral (sb_prog s) (sb_values s).
Proof. intros subs H s Hs. unfold all_integral in H. rewrite forallb_forall in H. apply integral_check, H, Hs. Qed.
Lemma plain_keep : plain_labels fs_keep.
Proof.
  split; [|split; [|split]].
  1-2: repeat constructor; cbn; intuition discriminate.
  - cbn; intuition discriminate.
  - intros c f Hc Hf. cbv [fs_keep fs_comps In] in Hc.
    repeat (destruct Hc as [<-|Hc]; [cbv [cp_flows cp_in cp_out source keep_sto storage_ app In] in Hf;
      repeat (destruct Hf as [<-|Hf]; [cbn; intuition discriminate|]); destruct Hf|]); destruct Hc.
Qed.
Example C36_applies : exists g subs r, combined_arrays default_config id_ord ADatetime g subs = Ok r
  /\ reported r ["Components"; "Sto"; "charge_state"] 11 (combined 4 subs (fun x => charge x keep_sto))
  /\ combined 4 subs (fun x => charge x keep_sto) 10 == 10.
Proof.
  destruct (run_check_ok (keep_solver [0; 4; 8]%nat [6; 6; 2]%nat) fs_keep 4 2 None
    (fun subs => all_integral subs && Qeq_bool (combined 4 subs (fun x => charge x keep_sto) 10) 10)%bool) as [g [subs [fa [F H]]]];
    [vm_compute; reflexivity|].
  apply andb_prop in H. destruct H as [H1 H2]. apply Qeq_bool_iff in H2. exists g, subs.
  destruct (C36_series_partial _ _ _ _ _ _ _ _ _ _ ADatetime F plain_keep (all_integral_ok _ H1) ltac:(cbn; lia)) as [r [R CS]].
  exists r. split; [exact R|]. split; [|exact H2].
  destruct (cs_charge _ _ _ _ _ _ _ CS keep_sto (cyc_s (ICNum 0) None None) ltac:(right; left; reflexivity) eq_refl) as [X _]. exact X.
Qed.

(** Four steps in segments of three: the last segment has one step, its results are numbers, and the flow rates are missing in the combination. *)
Definition fs_four : flow_system :=
  mkFS [0; 1; 2; 3] 4 (NS 1) [costs] [source "Src" (fl 150 "Q" gas 10); Library.sink "Sink" (fl 151 "Q" gas 10)].
Definition four_run := match mk_segmented fs_four 3 0 None with
                       | Ok g => match seg_run default_config id_ord (fun _ _ => Some (fun _ _ => 0)) g fs_four [] with
                                 | (fa, subs, None) => Some (g, fa, subs) | _ => None end
                       | Err _ => None end.
Theorem C36_one_step_refuted : ~ C36_full.
Proof.
  intros Full. assert (FR : exists g fa subs, four_run = Some (g, fa, subs)).
  { destruct four_run as [[[g fa] subs]|] eqn:E; [eauto|]. assert (C : match four_run with Some _ => true | None => false end = true) by (vm_compute; reflexivity). rewrite E in C. discriminate. }
  destruct FR as [g [fa [subs FR]]].
  assert (F : finished default_config id_ord (fun _ _ => Some (fun _ _ => 0)) fs_four 3 0 None g subs fa).
  { unfold four_run in FR. unfold finished. destruct (mk_segmented fs_four 3 0 None) as [g'|]; [|discriminate].
    destruct (seg_run _ _ _ g' fs_four []) as [[fa' subs'] [e|]] eqn:S1; [discriminate|]. inversion FR; subst. auto. }
  assert (P : plain_labels fs_four).
  { split; [|split; [|split]].
    1-2: repeat constructor; cbn; intuition discriminate.
    - cbn; intuition discriminate.
    - intros c f Hc Hf. cbv [fs_four fs_comps In] in Hc.
      repeat (destruct Hc as [<-|Hc]; [cbv [cp_flows cp_in cp_out source Library.sink app In] in Hf;
        repeat (destruct Hf as [<-|Hf]; [cbn; intuition discriminate|]); destruct Hf|]); destruct Hc. }
  assert (I : forall s, In s subs -> integral (sb_prog s) (sb_values s)).
  { apply all_integral_ok. assert (C : match four_run with Some (_, _, subs) => all_integral subs | None => false end = true) by (vm_compute; reflexivity).
    rewrite FR in C. exact C. }
  assert (C : match four_run with
              | Some (g, _, subs) => match combined_arrays default_config id_ord ADatetime g subs with
                                     | Ok r => match extract (Node r) ["Components"; "Src"; "Q"; "flow_rate"] with None => true | Some _ => false end
                                     | Err _ => false end
              | None => false end = true) by (vm_compute; reflexivity).
  rewrite FR in C. destruct (combined_arrays default_config id_ord ADatetime g subs) as [r|] eqn:R; [|discriminate].
  destruct (Full _ _ _ _ _ _ _ _ _ _ ADatetime F P I) as [r' [R' Full']]. rewrite R in R'. injection R' as <-.
  destruct (cs_flow _ _ _ _ _ _ _ Full' (source "Src" (fl 150 "Q" gas 10)) (fl 150 "Q" gas 10) ltac:(left; reflexivity) ltac:(left; reflexivity)) as [a [X _]].
  cbn [cp_label source f_lab fl flow0 set_size_] in X. change (cp_label (source "Src" (fl 150 "Q" gas 10))) with "Src"%string in X.
  change (f_lab (fl 150 "Q" gas 10)) with "Q"%string in X. rewrite X in C. discriminate.
Qed.
Print Assumptions C36_one_step_refuted.
Example C36_numbers_applies : exists subs r, combined_scalars default_config id_ord ADatetime subs = Ok r /\ length subs = 3%nat
  /\ listed r ["Objective"] subs (fun su => objective_value (sb_prog su) (sb_values su)).
Proof.
  destruct (run_check_ok (keep_solver [0; 4; 8]%nat [6; 6; 2]%nat) fs_keep 4 2 None
    (fun subs => all_integral subs && Nat.eqb (length subs) 3)%bool) as [g [subs [fa [F H]]]]; [vm_compute; reflexivity|].
  apply andb_prop in H. destruct H as [H1 H2]. apply Nat.eqb_eq in H2.
  destruct (C36_numbers_partial _ _ _ _ _ _ _ _ _ _ ADatetime F plain_keep (all_integral_ok _ H1)) as [r [R [L _]]]. exists subs, r. auto.
Qed.

(** ** Nothing else is in the combined results *)

(** No empty dicts. *)
Inductive filled {A} : tree A -> Prop :=
| fi_leaf a : filled (Leaf a)
| fi_node d : d <> [] -> (forall k v, In (k, v) d -> filled v) -> filled (Node d).

Lemma combine_dict_keys : forall {A B} (join : list A -> option B) t rest u, is_dict t -> combine_rec join t rest = Ok u -> is_dict u.
Proof.
  intros A B join. induction t as [a | d IH] using tree_ind2; intros rest u D E; cbn [combine_rec] in E; [injection E as <-; constructor |].
  destruct (all_nodes rest) as [ds |]; [| injection E as <-; constructor].
  destruct (mapM _ d) as [r |] eqn:M; [| discriminate]. cbn [bind] in E. injection E as <-. inversion D as [| d' N K]; subst.
  assert (KEYS : map fst r = map fst d /\ forall k v, In (k, v) r -> is_dict v).
  { clear N D. revert r M. induction d as [| [k v] d IHd]; intros r M; cbn [mapM] in M; [injection M as <-; split; [reflexivity | intros k v []] |].
    apply bind_ok in M. destruct M as [[k' u'] [M1 M2]]. apply bind_ok in M2. destruct M2 as [r' [M2 M3]]. injection M3 as <-. cbn [fst snd] in M1.
    apply bind_ok in M1. destruct M1 as [vs [_ M1]]. apply bind_ok in M1. destruct M1 as [c [M1 M4]]. injection M4 as <- <-.
    destruct (IHd (fun k0 v0 H => IH k0 v0 (or_intror H)) (fun k0 v0 H => K k0 v0 (or_intror H)) r' M2) as [K1 K2]. split; [cbn [map fst]; f_equal; exact K1 |].
    intros k0 v0 [H | H]; [injection H as <- <-; exact (IH k v (or_introl eq_refl) vs c (K k v (or_introl eq_refl)) M1) | exact (K2 k0 v0 H)]. }
  destruct KEYS as [K1 K2]. constructor; [rewrite K1; exact N | exact K2].
Qed.

Lemma sget_In : forall {A} k (d : list (string * A)) v, sget k d = Some v -> In (k, v) d.
Proof.
  intros A k. induction d as [| [k0 v0] d IH]; intros v H; [discriminate |]. rewrite sget_cons in H. destruct (String.eqb_spec k k0) as [-> | N].
  - injection H as <-. left. reflexivity.
  - right. apply IH. exact H.
Qed.
Lemma In_sget : forall {A} k (d : list (string * A)) v, NoDup (map fst d) -> In (k, v) d -> sget k d = Some v.
Proof.
  intros A k. induction d as [| [k0 v0] d IH]; intros v N H; [destruct H |]. cbn [map fst] in N. inversion N as [| ? ? N1 N2]; subst. rewrite sget_cons.
  destruct H as [H | H].
  - injection H as -> ->. rewrite String.eqb_refl. reflexivity.
  - destruct (String.eqb_spec k k0) as [-> | NE]; [| apply IH; assumption]. exfalso. apply N1. apply in_map_iff. exists (k0, v). auto.
Qed.

Definition keep_some {A B} (f : A -> option B) (d : list (string * A)) : list (string * B) :=
  flat_map (fun kv => match f (snd kv) with Some v => [(fst kv, v)] | None => [] end) d.
Lemma keep_some_In : forall {A B} (f : A -> option B) d k w, In (k, w) (keep_some f d) <-> exists v, In (k, v) d /\ f v = Some w.
Proof.
  intros A B f d k w. unfold keep_some. rewrite in_flat_map. split.
  - intros ([k0 v0] & I1 & I2). cbn [fst snd] in I2. destruct (f v0) as [w0 |] eqn:E; [| destruct I2]. destruct I2 as [I2 | []]. injection I2 as <- <-. eauto.
  - intros (v & I1 & E). exists (k, v). split; [exact I1 |]. cbn [fst snd]. rewrite E. left. reflexivity.
Qed.
Lemma keep_some_NoDup : forall {A B} (f : A -> option B) d, NoDup (map fst d) -> NoDup (map fst (keep_some f d)).
Proof.
  intros A B f. induction d as [| [k v] d IH]; intros N; [constructor |]. cbn [map fst] in N. inversion N as [| ? ? N1 N2]; subst.
  change (keep_some f ((k, v) :: d)) with (match f v with Some w => [(k, w)] | None => [] end ++ keep_some f d). destruct (f v) as [w |]; [| apply IH; exact N2].
  cbn [app map fst]. constructor; [| apply IH; exact N2]. intros H. apply N1. apply in_map_iff in H. destruct H as ([k0 w0] & E & H). cbn [fst] in E. subst k0.
  apply keep_some_In in H. destruct H as (v0 & H & _). apply in_map_iff. exists (k, v0). auto.
Qed.

Lemma drop_none_node : forall {B} (d : list (string * tree (option B))), drop_none (Node d) = Some (Node (keep_some drop_none d)).
Proof. reflexivity. Qed.
Lemma drop_empty_node : forall {B} (d : list (string * tree B)), drop_empty (Node d) = match keep_some drop_empty d with [] => None | d' => Some (Node d') end.
Proof. reflexivity. Qed.
Lemma drop_none_back : forall {B} (t : tree (option B)) u, is_dict t -> drop_none t = Some u -> is_dict u /\
  forall path b, extract u path = Some (Leaf b) -> extract t path = Some (Leaf (Some b)).
Proof.
  intros B. induction t as [a | d IH] using tree_ind2; intros u D E.
  - cbn in E. destruct a as [b |]; [| discriminate]. cbn in E. injection E as <-. split; [constructor |]. intros [| k p] b' X; cbn in *; [congruence | discriminate].
  - rewrite drop_none_node in E. injection E as <-. inversion D as [| d' N K]; subst. pose proof (keep_some_NoDup (@drop_none B) d N) as N'. split.
    + constructor; [exact N' |]. intros k w H. apply keep_some_In in H. destruct H as (v & I1 & E). exact (proj1 (IH k v I1 w (K k v I1) E)).
    + intros [| k p] b X; [discriminate |]. cbn [extract] in *. destruct (sget k (keep_some drop_none d)) as [w |] eqn:S1; [| discriminate].
      apply sget_In in S1. apply keep_some_In in S1. destruct S1 as (v & I1 & E). rewrite (In_sget k d v N I1).
      exact (proj2 (IH k v I1 w (K k v I1) E) p b X).
Qed.
Lemma drop_empty_back : forall {B} (t : tree B) u, is_dict t -> drop_empty t = Some u -> is_dict u /\ filled u /\
  forall path b, extract u path = Some (Leaf b) -> extract t path = Some (Leaf b).
Proof.
  intros B. induction t as [a | d IH] using tree_ind2; intros u D E.
  - cbn in E. injection E as <-. split; [constructor |]. split; [constructor |]. auto.
  - rewrite drop_empty_node in E. inversion D as [| d' N K]; subst. pose proof (keep_some_NoDup (@drop_empty B) d N) as N'.
    assert (E2 : u = Node (keep_some drop_empty d) /\ keep_some drop_empty d <> []) by (destruct (keep_some drop_empty d); [discriminate | split; [congruence | discriminate]]).
    destruct E2 as [-> NE]. clear E. split; [| split].
    + constructor; [exact N' |]. intros k w H. apply keep_some_In in H. destruct H as (v & I1 & E). exact (proj1 (IH k v I1 w (K k v I1) E)).
    + constructor; [exact NE |]. intros k w H. apply keep_some_In in H. destruct H as (v & I1 & E). exact (proj1 (proj2 (IH k v I1 w (K k v I1) E))).
    + intros [| k p] b X; [discriminate |]. cbn [extract] in *. destruct (sget k (keep_some drop_empty d)) as [w |] eqn:S1; [| discriminate].
      apply sget_In in S1. apply keep_some_In in S1. destruct S1 as (v & I1 & E). rewrite (In_sget k d v N I1).
      exact (proj2 (proj2 (IH k v I1 w (K k v I1) E)) p b X).
Qed.

Lemma all_leaves_some : forall {A} (l : list (tree A)) r, Segmented.all_leaves l = Some r -> Forall2 (fun t a => t = Leaf a) l r.
Proof.
  intros A. induction l as [| t l IH]; intros r E; cbn in E; [injection E as <-; constructor |].
  destruct t as [a | d]; [| discriminate]. destruct (fold_right _ (Some []) l) as [r' |] eqn:F; [| discriminate]. injection E as <-. constructor; [reflexivity | apply IH; exact F].
Qed.
Lemma combine_back : forall {A B} (join : list A -> option B) path t rest u b, is_dict t -> combine_rec join t rest = Ok u ->
  extract u path = Some (Leaf (Some b)) ->
  exists a l, extract t path = Some (Leaf a) /\ Forall2 (fun t a => extract t path = Some (Leaf a)) rest l /\ join (a :: l) = Some b.
Proof.
  intros A B join. induction path as [| k path IH]; intros t rest u b D C E.
  - cbn in E. injection E as ->. destruct t as [a | d]; cbn [combine_rec] in C.
    + destruct (Segmented.all_leaves rest) as [l |] eqn:L; [| discriminate]. injection C as C. exists a, l. split; [reflexivity |]. split; [| exact C].
      apply all_leaves_some in L. clear - L. induction L as [| t x ts l H _ IH]; [constructor |]. constructor; [subst; reflexivity | exact IH].
    + destruct (all_nodes rest); [| discriminate]. destruct (mapM _ d); discriminate.
  - destruct u as [|r]; cbn [extract] in E; [discriminate |]. destruct (sget k r) as [w |] eqn:G; [| discriminate].
    destruct t as [a | d]; cbn [combine_rec] in C; [discriminate |]. destruct (all_nodes rest) as [ds |] eqn:N; [| discriminate]. apply all_nodes_inv in N. subst rest.
    destruct (mapM _ d) as [r' |] eqn:M; [| discriminate]. cbn [bind] in C. injection C as ->. inversion D as [| d' ND K]; subst.
    apply sget_In in G. destruct (mapM_In_inv _ _ _ _ M G) as ([k0 v] & I1 & F). cbn [fst snd] in F.
    apply bind_ok in F. destruct F as [vs [V F]]. apply bind_ok in F. destruct F as [c [F1 F2]]. injection F2 as -> ->.
    destruct (IH v vs w b (K k v I1) F1 E) as (a & l & X & R & J). exists a, l. cbn [extract]. rewrite (In_sget k d v ND I1). split; [exact X |]. split; [| exact J].
    apply mapM_sget_Forall2 in V. clear - V R. revert l R. induction V as [| e v ds vs H _ IH]; intros l R; inversion R as [| ? a ? l' H' R']; subst; constructor; [| apply IH; assumption].
    cbn [extract]. rewrite H. exact H'.
Qed.

(** Every entry of a combination is the joined entry of all segments under the same keys, and no empty dicts are left. *)
Definition only_joined {A B} (join : list A -> option B) (ds : list (list (string * tree A))) (r : list (string * tree B)) : Prop :=
  NoDup (map fst r) /\ (forall k v, In (k, v) r -> is_dict v /\ filled v) /\
  forall path b, extract (Node r) path = Some (Leaf b) -> exists l, Forall2 (fun d a => extract (Node d) path = Some (Leaf a)) ds l /\ join l = Some b.
Lemma combine_only : forall {A B} (join : list A -> option B) ds r, (forall d, In d ds -> is_dict (Node d)) -> combine_dicts join ds = Ok r -> only_joined join ds r.
Proof.
  intros A B join [| d ds] r D C; [discriminate |]. cbn [combine_dicts] in C. apply bind_ok in C. destruct C as [u [U C]]. injection C as <-.
  pose proof (combine_dict_keys join _ _ _ (D d (or_introl eq_refl)) U) as DU. unfold tidy_up.
  assert (NIL : only_joined join (d :: ds) ([] : list (string * tree B))).
  { split; [constructor |]. split; [intros k v [] |]. intros [| k p] b X; discriminate. }
  destruct (drop_none u) as [v |] eqn:E1; [| exact NIL]. destruct (drop_none_back u v DU E1) as [D1 P1].
  destruct (drop_empty v) as [w |] eqn:E2; [| exact NIL]. destruct (drop_empty_back v w D1 E2) as (D2 & F2 & P2).
  destruct w as [b | r]; [exact NIL |]. inversion D2 as [| ? N K]; subst. inversion F2 as [| ? _ F3]; subst.
  split; [exact N |]. split; [intros k x H; split; [exact (K k x H) | exact (F3 k x H)] |].
  intros path b X. apply P2 in X. apply P1 in X. destruct (combine_back join path _ _ _ b (D d (or_introl eq_refl)) U X) as (a & l & X1 & X2 & J).
  exists (a :: l). split; [| exact J]. constructor; [exact X1 |]. clear - X2. remember (map Node ds) as ts eqn:T. revert ds T.
  induction X2 as [| t a ts l H _ IH]; intros [| d0 ds] T; try discriminate; [constructor |]. cbn [map] in T. injection T as -> ->. constructor; [exact H | apply IH; reflexivity].
Qed.
Lemma sub_results_dict : forall cf ord kd su r, sub_results cf ord kd su = Ok r -> is_dict (Node r).
Proof.
  intros cf ord kd su r E. unfold sub_results, calls in E. cbn [fold_left do_cop] in E.
  destruct (build_system cf ord (sb_fs su) (Some (sb_idx su))) as [b |]; [| discriminate]. cbn [bind] in E.
  destruct (system_translate (bs_roots b) (bs_obj b)) as [pm |]; [| discriminate]. cbn [bind] in E.
  destruct (time_axis (sb_fs su) (Some (sb_idx su))) as [a |]; [| discriminate]. cbn in E. injection E as <-. apply system_results_dict.
Qed.

Theorem C36_nothing_else : forall cf ord kd g subs,
  (forall r, combined_arrays cf ord kd g subs = Ok r -> exists ds, mapM (sub_results cf ord kd) subs = Ok ds /\ only_joined (join_arrays (sg_len g)) ds r) /\
  (forall r, combined_scalars cf ord kd subs = Ok r -> exists ds, mapM (sub_results cf ord kd) subs = Ok ds /\ only_joined join_scalars ds r).
Proof.
  intros cf ord kd g subs. split; intros r E; apply bind_ok in E; destruct E as [ds [M E]]; exists ds; (split; [exact M |]); apply combine_only; try exact E;
    intros d Hd; destruct (mapM_In_inv _ _ _ _ M Hd) as (su & _ & F); exact (sub_results_dict _ _ _ _ _ F).
Qed.
Print Assumptions C36_nothing_else.
(** Both hypotheses are met: [C36_applies], [C36_numbers_applies]. An entry that only some segments have as an array is left out, and with it
    the dict it was alone in. *)
Example C36_nothing_else_case : exists r, combine_dicts (join_arrays 2)
    [[("A", Node [("x", Leaf (LArr AFlt [1; 2; 3]))]); ("B", Node [("y", Leaf (LArr AFlt [4]))])];
     [("A", Node [("x", Leaf (LArr AFlt [3; 5]))]); ("B", Node [("y", Leaf LNone)])]] = Ok r
  /\ r = [("A", Node [("x", Leaf (LArr AFlt [1; 2; 3; 5]))])].
Proof. eexists. split; vm_compute; reflexivity. Qed.
