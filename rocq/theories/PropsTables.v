(** C65: extraction of results. C66: tables of results. *)
From Coq Require Import Qabs.
From Verif Require Import Base BaseFacts MathModel Spec MathFacts Structure StructureFacts Params Features Elements System Library SysSpec
     CtxFacts ReadTools BusFacts NavFacts PropsComp Tree PropsTree Values Results PropsResults Register Example ExamplePoints Tables.

(** ** C65: extraction *)

(** Following the keys from [t] one arrives at [v]. *)
Inductive leads {A} : tree A -> list string -> tree A -> Prop :=
| ld_here t : leads t [] t
| ld_below k t d p v : In (k, t) d -> leads t p v -> leads (Node d) (k :: p) v.

Lemma extract_leads : forall {A} keys (t v : tree A), is_dict t -> (extract t keys = Some v <-> leads t keys v).
Proof.
  induction keys as [|k r IH]; intros t v D; cbn [extract].
  - split; [intros E; inversion E; constructor|intros L; inversion L; reflexivity].
  - destruct t as [a|d]; [split; [discriminate|intros L; inversion L]|]. inversion D as [|? ND DD]; subst. split.
    + destruct (sget k d) as [a|] eqn:E; [|discriminate]. apply sget_In in E. intros X. apply (IH a v (DD _ _ E)) in X. econstructor; [exact E|exact X].
    + intros L. inversion L as [|? t ? ? ? I L']; subst. rewrite (In_sget k t d ND I). apply (IH t v (DD _ _ I)). exact L'.
Qed.
Lemma single_leads : forall keys t v, is_dict t -> (single_result t keys = Some v <-> leads t keys v /\ v <> Leaf LNone).
Proof.
  intros keys t v D. rewrite <- (extract_leads keys t v D). unfold single_result. destruct (extract t keys) as [[[|np i q|k l]|d]|].
  all: split; [intros E|intros [E N]]; try discriminate; inversion E; subst; try congruence; split; congruence.
Qed.

(** For every item of a dict of results the value under the given keys, in the order of the items; items which have none, or None, are left out
    or listed with None. *)
Theorem C65_extraction : forall d keys, is_dict (Node d) ->
  (forall k v, In (k, Some v) (extract_results d keys false) <-> exists t, In (k, t) d /\ leads t keys v /\ v <> Leaf LNone)
  /\ (forall k, ~ In (k, None) (extract_results d keys false))
  /\ NoDup (map fst (extract_results d keys false))
  /\ map fst (extract_results d keys true) = map fst d
  /\ (forall k v, In (k, Some v) (extract_results d keys true) <-> In (k, Some v) (extract_results d keys false))
  /\ (forall k, In (k, None) (extract_results d keys true) <-> In k (map fst d) /\ forall v, ~ In (k, Some v) (extract_results d keys false))
  /\ exists keep, map fst (extract_results d keys false) = filter keep (map fst d).
Proof.
  intros d keys D. inversion D as [|? ND DD]; subst.
  set (data := map (fun kv => (fst kv, single_result (snd kv) keys)) d).
  assert (KD : map fst data = map fst d) by (unfold data; rewrite map_map; reflexivity).
  assert (NK : NoDup (map fst data)) by (rewrite KD; exact ND).
  assert (T : forall k o, In (k, o) data <-> exists t, In (k, t) d /\ o = single_result t keys).
  { intros k o. unfold data. rewrite in_map_iff. split.
    - intros [[k' t] [E I]]. cbn [fst snd] in E. inversion E; subst. exists t. split; [exact I|reflexivity].
    - intros [t [I ->]]. exists (k, t). split; [reflexivity|exact I]. }
  assert (F : forall k v, In (k, Some v) (extract_results d keys false) <-> In (k, Some v) data).
  { intros k v. unfold extract_results. fold data. rewrite filter_In. cbn [snd]. tauto. }
  assert (KEEP : exists keep, map fst (extract_results d keys false) = filter keep (map fst d)).
  { exists (fun k => match sget k data with Some (Some _) => true | _ => false end). unfold extract_results. fold data. rewrite <- KD.
    assert (G : forall l, incl l data -> map fst (filter (fun kv => match snd kv with Some _ => true | None => false end) l)
       = filter (fun k => match sget k data with Some (Some _) => true | _ => false end) (map fst l)).
    { induction l as [|[k o] l IH]; intros I; [reflexivity|]. cbn [filter map fst snd]. rewrite (In_sget k o data NK (I _ (or_introl eq_refl))).
      assert (I' : incl l data) by (intros a H; apply I; right; exact H). destruct o; cbn [map fst]; rewrite (IH I'); reflexivity. }
    apply G. apply incl_refl. }
  split; [|split; [|split; [|split; [exact KD|split; [|split; [|exact KEEP]]]]]].
  - intros k v. rewrite F, T. split.
    + intros [t [I E]]. exists t. split; [exact I|]. apply (single_leads keys t v (DD _ _ I)). auto.
    + intros [t [I L]]. exists t. split; [exact I|]. symmetry. apply (single_leads keys t v (DD _ _ I)). exact L.
  - intros k H. unfold extract_results in H. apply filter_In in H. destruct H as [_ H]. discriminate.
  - destruct KEEP as [keep ->]. apply NoDup_filter. exact ND.
  - intros k v. rewrite F. reflexivity.
  - intros k. change (extract_results d keys true) with data. split.
    + intros I. split; [rewrite <- KD; change k with (fst (k, @None (tree leaf))); apply in_map; exact I|].
      intros v J. apply F in J. pose proof (In_sget _ _ _ NK I) as X1. pose proof (In_sget _ _ _ NK J) as X2. congruence.
    + intros [I N]. apply in_map_iff in I. destruct I as [[k' t] [E I]]. cbn [fst] in E. subst k'. apply T. exists t. split; [exact I|].
      destruct (single_result t keys) as [v|] eqn:E; [|reflexivity]. exfalso. apply (N v). apply F. apply T. exists t. split; [exact I|auto].
Qed.
Print Assumptions C65_extraction.

Example C65_applies : exists d, is_dict (Node d)
  /\ extract_results d ["Investment"; "size"] false = [("Boiler", Some (Leaf (LNum true false 5)))]
  /\ extract_results d ["Investment"; "size"] true = [("Boiler", Some (Leaf (LNum true false 5))); ("Storage", None); ("Demand", None)].
Proof.
  exists [("Boiler", Node [("Investment", Node [("size", Leaf (LNum true false 5))])]); ("Storage", Node [("Investment", Node [("size", Leaf LNone)])]);
          ("Demand", Node [])]%string.
  split; [|split; reflexivity].
  repeat (constructor; cbn; [repeat (constructor; cbn; [intuition discriminate|]); try constructor|]);
    intros k v H; cbn in H; repeat (destruct H as [H|H]; [inversion H; subst|]); try contradiction; try constructor; cbn; try (repeat constructor; cbn; tauto);
    intros k v H'; cbn in H'; repeat (destruct H' as [H'|H']; [inversion H'; subst|]); try contradiction; try constructor; cbn; try (repeat constructor; cbn; tauto);
    intros k v H''; cbn in H''; repeat (destruct H'' as [H''|H'']; [inversion H''; subst|]); try contradiction; constructor.
Qed.

(** ** C66: tables *)

(** Specification. A column belongs into the table if some value is further from zero than the threshold. *)
Definition over (th : option Q) (q : Q) : Prop := match th with None => True | Some h => h < Qabs q end.
(** A column with the values of [g], the last one repeated for the end of the last step if asked for. *)
Definition in_rows (n : nat) (with_last : bool) (g : nat -> Q) (l : list Q) : Prop :=
  length l = (if with_last then S n else n) /\ (forall t, (t < n)%nat -> nth t l 0 == g t) /\ (with_last = true -> nth n l 0 == g (n - 1)%nat).
(** The labels of the rows: the beginnings of the steps, and the end of the last one if asked for. *)
Definition in_time (fs : flow_system) (idx : option (list nat)) (with_last : bool) (l : list Q) : Prop :=
  let n := steps fs idx in
  length l = (if with_last then S n else n) /\ (forall t, (t < n)%nat -> nth t l 0 == stamp fs (selected idx t))
  /\ (with_last = true -> nth n l 0 == stamp fs (selected idx (n - 1)) + hours fs idx (n - 1)).
(** A table shows the series of [entry], each once under its name, except those without a value over the threshold. *)
Record shows (fs : flow_system) (idx : option (list nat)) (th : option Q) (with_last : bool) (entry : string -> (nat -> Q) -> Prop) (fm : frame) : Prop := {
  sh_once : NoDup (map fst (fm_columns fm));
  sh_all : forall name g, entry name g -> (exists t, (t < steps fs idx)%nat /\ over th (g t)) ->
    exists l, In (name, l) (fm_columns fm) /\ in_rows (steps fs idx) with_last g l;
  sh_only : forall name l, In (name, l) (fm_columns fm) ->
    exists g, entry name g /\ (exists t, (t < steps fs idx)%nat /\ over th (g t)) /\ in_rows (steps fs idx) with_last g l;
  sh_time : fm_columns fm <> [] -> in_time fs idx with_last (fm_index fm)
}.
(** The series belonging to a component, a bus and a flow. *)
Definition of_component (x : asg) (c : component) (ki ko : Q) (name : string) (g : nat -> Q) : Prop :=
  exists f, name = flow_name c f /\ ((In f (cp_in c) /\ g = fun t => ki * rate_of x c f t) \/ (In f (cp_out c) /\ g = fun t => ko * rate_of x c f t)).
Definition of_bus (fs : flow_system) (x : asg) (b : bus) (ki ko : Q) (name : string) (g : nat -> Q) : Prop :=
  (exists c f, In c (fs_comps fs) /\ connected b f = true /\ name = flow_name c f
     /\ ((In f (cp_out c) /\ g = fun t => ki * rate_of x c f t) \/ (In f (cp_in c) /\ g = fun t => ko * rate_of x c f t)))
  \/ (b_penalty b <> None /\ ((name = "Excess Input" /\ g = fun t => ki * excess x b "excess_input" t)
                              \/ (name = "Excess Output" /\ g = fun t => ko * excess x b "excess_output" t)))%string.
Definition of_flow (x : asg) (c : component) (f : flow) (name : string) (g : nat -> Q) : Prop := name = "flow_rate"%string /\ g = rate_of x c f.
(** No two of components, buses and flows are called alike. *)
Definition names_apart (fs : flow_system) : Prop :=
  (forall c b, In c (fs_comps fs) -> used_bus fs b -> cp_label c <> b_lab b)
  /\ forall c f, In c (fs_comps fs) -> In f (cp_flows c) ->
       (forall c', In c' (fs_comps fs) -> cp_label c' <> flow_name c f) /\ forall b, used_bus fs b -> b_lab b <> flow_name c f.

(** Every component, bus and flow has its table; another label is refused. *)
Definition tables_right (fs : flow_system) (idx : option (list nat)) (x : asg) (r : list (string * tree leaf)) : Prop :=
  forall ki ko th wl,
  (forall c, In c (fs_comps fs) -> exists fm, to_dataframe r fs (cp_label c) "flow_rate" ki ko th wl = Ok fm /\ shows fs idx th wl (of_component x c ki ko) fm)
  /\ (forall b, used_bus fs b -> exists fm, to_dataframe r fs (b_lab b) "flow_rate" ki ko th wl = Ok fm /\ shows fs idx th wl (of_bus fs x b ki ko) fm)
  /\ (forall c f, In c (fs_comps fs) -> In f (cp_flows c) ->
        exists fm, to_dataframe r fs (flow_name c f) "flow_rate" ki ko th wl = Ok fm /\ shows fs idx th wl (of_flow x c f) fm)
  /\ forall l, (forall c, In c (fs_comps fs) -> cp_label c <> l) -> (forall b, used_bus fs b -> b_lab b <> l) ->
       (forall c f, In c (fs_comps fs) -> In f (cp_flows c) -> flow_name c f <> l) -> to_dataframe r fs l "flow_rate" ki ko th wl = Err ValueError.

(** *** Proof *)
Lemma exceeds_spec : forall th q, exceeds th q = true <-> th < Qabs q.
Proof.
  intros th q. unfold exceeds. rewrite orb_true_iff, !negb_true_iff.
  assert (L : forall a b, Qle_bool a b = false <-> b < a).
  { intros a b. split; intros H.
    - apply Qnot_le_lt. intros X. apply Qle_bool_iff in X. congruence.
    - destruct (Qle_bool a b) eqn:E; [|reflexivity]. apply Qle_bool_iff in E. lra. }
  rewrite !L. apply Qabs_case; intros S; (split; [intros [H|H]; lra|intros H; first [left; lra|right; lra]]).
Qed.
Lemma last_as_nth : forall (l : list Q) d, last l d = nth (length l - 1) l d.
Proof.
  induction l as [|a l IH]; intros d; [reflexivity|]. destruct l as [|a' l]; [reflexivity|].
  change (last (a :: a' :: l) d) with (last (a' :: l) d). rewrite IH. cbn [length]. replace (S (S (length l)) - 1)%nat with (S (length l)) by lia.
  replace (S (length l) - 1)%nat with (length l) by lia. reflexivity.
Qed.
Lemma removelast_nth : forall (l : list Q) t, (S t < length l)%nat -> nth t (removelast l) 0 = nth t l 0.
Proof.
  intros l t H. destruct l as [|a l]; [cbn in H; lia|]. rewrite (app_removelast_last (l := a :: l) 0) at 2 by discriminate. rewrite app_nth1; [reflexivity|].
  pose proof (f_equal (@length Q) (app_removelast_last (l := a :: l) 0 ltac:(discriminate))) as E. rewrite app_length in E. cbn [length] in *. lia.
Qed.
Lemma removelast_len : forall (l : list Q) n, length l = S n -> length (removelast l) = n.
Proof.
  intros l n H. destruct l as [|a l]; [discriminate|].
  pose proof (f_equal (@length Q) (app_removelast_last (l := a :: l) 0 ltac:(discriminate))) as E. rewrite app_length in E. cbn [length] in *. lia.
Qed.

Section Framed.
Variables (fs : flow_system) (idx : option (list nat)) (times : list Q) (th : option Q) (wl : bool) (entry : string -> (nat -> Q) -> Prop).
Hypothesis POS : (1 <= steps fs idx)%nat.
Hypothesis TL : length times = S (steps fs idx).
Hypothesis TS : forall t, (t < steps fs idx)%nat -> nth t times 0 = stamp fs (selected idx t) /\ nth (S t) times 0 - nth t times 0 = hours fs idx t.

Definition series (g : nat -> Q) (l : list Q) : Prop := length l = steps fs idx /\ forall t, (t < steps fs idx)%nat -> nth t l 0 == g t.
Lemma series_over : forall g l, series g l -> match th with None => True | Some h => existsb (exceeds h) l = true end
  <-> (exists t, (t < steps fs idx)%nat /\ over th (g t)).
Proof.
  intros g l [L N]. destruct th as [h|]; cbn [over].
  - rewrite existsb_exists. split.
    + intros [q [I E]]. apply exceeds_spec in E. destruct (In_nth _ _ 0 I) as [t [Ht X]]. exists t. rewrite L in Ht. split; [exact Ht|].
      rewrite <- (N t Ht), X. exact E.
    + intros [t [Ht X]]. exists (nth t l 0). split; [apply nth_In; lia|]. apply exceeds_spec. rewrite (N t Ht). exact X.
  - split; [intros _; exists 0%nat; split; [lia|exact I]|auto].
Qed.

Lemma framed : forall cols, NoDup (map fst cols) ->
  (forall name g, entry name g -> exists l, In (name, l) cols /\ series g l) ->
  (forall name l, In (name, l) cols -> exists g, entry name g /\ series g l) ->
  exists fm, indexed times wl (above th cols) = Ok fm /\ shows fs idx th wl entry fm.
Proof.
  intros cols ND ALL ONLY.
  set (ext := fun l : list Q => if wl then l ++ [last l 0] else l).
  assert (EXT : forall g l, series g l -> in_rows (steps fs idx) wl g (ext l)).
  { intros g l [L N]. unfold in_rows, ext. destruct wl.
    - rewrite app_length, L. cbn [length]. split; [lia|]. split.
      + intros t Ht. rewrite app_nth1 by lia. apply N. exact Ht.
      + intros _. rewrite app_nth2 by lia. rewrite L, Nat.sub_diag. cbn [nth]. rewrite last_as_nth, L. apply N. lia.
    - split; [exact L|]. split; [exact N|discriminate]. }
  assert (AB : forall name l, In (name, l) (above th cols) <-> In (name, l) cols /\ match th with None => True | Some h => existsb (exceeds h) l = true end).
  { intros name l. unfold above. destruct th; [rewrite filter_In; reflexivity|tauto]. }
  assert (LEN : forall nc, In nc (above th cols) -> length (snd nc) = steps fs idx).
  { intros [name l] H. apply AB in H. destruct (ONLY _ _ (proj1 H)) as [g [_ [L _]]]. exact L. }
  assert (NA : NoDup (map fst (above th cols))).
  { unfold above. destruct th as [h|]; [|exact ND]. clear -ND. induction cols as [|[n l] r IH]; [constructor|]. cbn [filter map fst] in *.
    inversion ND as [|? ? N1 N2]; subst. destruct (existsb _ _); [|auto]. cbn [map fst]. constructor; [|auto].
    intros X. apply N1. apply in_map_iff in X. destruct X as [[n' l'] [E X]]. apply filter_In in X. cbn [fst] in E. subst n'.
    change n with (fst (n, l')). apply in_map. tauto. }
  assert (SH : forall index, (above th cols <> [] -> in_time fs idx wl index) ->
      shows fs idx th wl entry (mkFrame (map (fun nc => (fst nc, ext (snd nc))) (above th cols)) index)).
  { intros index IT. constructor; cbn [fm_columns fm_index].
    - rewrite map_map. exact NA.
    - intros name g En O. destruct (ALL name g En) as [l [I S]]. exists (ext l). split; [|apply EXT; exact S].
      change (name, ext l) with ((fun nc : string * list Q => (fst nc, ext (snd nc))) (name, l)). apply in_map. apply AB. split; [exact I|].
      apply (series_over g l S). exact O.
    - intros name l0 I. apply in_map_iff in I. destruct I as [[n l] [E I]]. cbn [fst snd] in E. inversion E; subst. apply AB in I. destruct I as [I O].
      destruct (ONLY _ _ I) as [g [En S]]. exists g. split; [exact En|]. split; [apply (series_over g l S); exact O|apply EXT; exact S].
    - intros NE. apply IT. intros Z. apply NE. rewrite Z. reflexivity. }
  assert (IT : in_time fs idx wl (if wl then times else removelast times)).
  { unfold in_time. destruct wl.
    - split; [exact TL|]. split; [intros t Ht; rewrite (proj1 (TS t Ht)); reflexivity|]. intros _. destruct (TS (steps fs idx - 1) ltac:(lia)) as [T1 T2].
      rewrite <- T1, <- T2. replace (S (steps fs idx - 1)) with (steps fs idx) by lia. ring.
    - split; [apply removelast_len; exact TL|]. split; [|discriminate]. intros t Ht. rewrite removelast_nth by lia. rewrite (proj1 (TS t Ht)). reflexivity. }
  exists (mkFrame (map (fun nc => (fst nc, ext (snd nc))) (above th cols)) (match above th cols with [] => [] | _ => if wl then times else removelast times end)).
  split; [|apply SH; intros NE; destruct (above th cols); [congruence|exact IT]]. clear SH.
  unfold indexed. destruct (above th cols) as [|[n0 l0] rest] eqn:E; [reflexivity|].
  assert (L0 : length l0 = steps fs idx) by (apply (LEN (n0, l0)); left; reflexivity). rewrite L0.
  assert (FA : forall m f, (forall nc, In nc ((n0, l0) :: rest) -> length (f nc : list Q) = m) ->
     forallb (fun nc : string * list Q => Nat.eqb (length (f nc)) m) ((n0, l0) :: rest) = true).
  { intros m f H. apply forallb_forall. intros nc I. apply Nat.eqb_eq. apply H. exact I. }
  rewrite (FA _ snd) by exact LEN. cbn [guard bind]. rewrite (proj2 (Nat.eqb_neq _ _)) by lia. rewrite (removelast_len _ _ TL), Nat.eqb_refl.
  unfold ext. destruct wl.
  - assert (FB : forallb (fun nc : string * list Q => Nat.eqb (length (snd nc)) (length times)) (map (fun nc => (fst nc, snd nc ++ [last (snd nc) 0])) ((n0, l0) :: rest)) = true).
    { rewrite forallb_forall. intros nc I. apply in_map_iff in I. destruct I as [nc' [<- I]]. cbn [snd]. apply Nat.eqb_eq. rewrite app_length, (LEN _ I), TL. cbn. lia. }
    rewrite FB. reflexivity.
  - rewrite TL, (proj2 (Nat.eqb_neq (steps fs idx) (S (steps fs idx)))) by lia. cbn [guard bind]. f_equal. f_equal.
    rewrite <- (map_id ((n0, l0) :: rest)) at 1. apply map_ext. intros [a b]. reflexivity.
Qed.
End Framed.

Section AllTables.
Variables (cf : config) (ord : list nat -> list nat) (fs : flow_system) (idx : option (list nat)) (kd : akind) (pm : pmodel) (x : asg)
          (r : list (string * tree leaf)).
Hypothesis RP : reports cf ord fs idx kd pm x r.
Hypothesis ND : NoDup (map (fun p => flow_name (fst p) (snd p)) (all_flows fs)).
Hypothesis NC : NoDup (map cp_label (fs_comps fs)).
Hypothesis LONG : (2 <= steps fs idx)%nat.
Hypothesis DB : distinct_buses fs.
Hypothesis BC : forall b, used_bus fs b -> In b (buses ord fs).
Hypothesis NP : names_apart fs.

Lemma component_of_some : forall c, In c (fs_comps fs) -> component_of fs (cp_label c) = Some c.
Proof.
  intros c Hc. unfold component_of. destruct (find _ (rev (fs_comps fs))) as [c'|] eqn:E.
  - apply find_some in E. destruct E as [I E]. apply String.eqb_eq in E. apply in_rev in I. f_equal.
    clear -NC Hc I E. induction (fs_comps fs) as [|a l IH]; [destruct I|]. cbn [map] in NC. inversion NC as [|? ? N1 N2]; subst.
    destruct Hc as [->|Hc], I as [->|I]; auto.
    + exfalso. apply N1. rewrite <- E. apply in_map. exact I.
    + exfalso. apply N1. rewrite E. apply in_map. exact Hc.
  - exfalso. pose proof (find_none _ _ E c (proj1 (in_rev _ _) Hc)) as X. cbv beta in X. rewrite String.eqb_refl in X. discriminate.
Qed.
Lemma component_of_none : forall l, (forall c, In c (fs_comps fs) -> cp_label c <> l) -> component_of fs l = None.
Proof.
  intros l H. unfold component_of. destruct (find _ (rev (fs_comps fs))) as [c'|] eqn:E; [|reflexivity].
  apply find_some in E. destruct E as [I E]. apply String.eqb_eq in E. apply in_rev in I. destruct (H c' I E).
Qed.
Lemma no_bus : forall l, (forall b, used_bus fs b -> b_lab b <> l) -> extract (Node r) ["Buses"; l]%string = None.
Proof.
  intros l H. destruct (extract (Node r) ["Buses"; l]%string) as [t|] eqn:E; [|reflexivity].
  destruct (rp_buses _ _ _ _ _ _ _ _ RP l ltac:(congruence)) as [b [I L]]. destruct (H b (buses_used _ _ _ I) L).
Qed.
Definition flow_dict : list (string * flow_result) := map (fun f => (fr_full f, f)) (flat_map (frs r) (fs_comps fs)).
Lemma flow_dict_names : map fst flow_dict = map (fun p => flow_name (fst p) (snd p)) (all_flows fs).
Proof.
  unfold flow_dict, all_flows. rewrite map_map. cbn [fst]. rewrite !map_flat_map. apply flat_map_ext_In. intros c _. unfold frs, cp_flows.
  rewrite !map_app, !map_map. reflexivity.
Qed.
Lemma no_flow : forall l, (forall c f, In c (fs_comps fs) -> In f (cp_flows c) -> flow_name c f <> l) -> sget l flow_dict = None.
Proof.
  intros l H. apply sget_none. rewrite flow_dict_names. intros X. apply in_map_iff in X. destruct X as [[c f] [E X]]. cbn [fst snd] in E.
  apply all_flows_In in X. destruct X as [Hc Hf]. exact (H c f Hc Hf E).
Qed.
Lemma a_flow : forall c f, In c (fs_comps fs) -> In f (cp_flows c) ->
  exists i, sget (flow_name c f) flow_dict = Some (fr r c i f).
Proof.
  intros c f Hc Hf.
  assert (N : NoDup (map fst flow_dict)) by (rewrite flow_dict_names; exact ND).
  unfold cp_flows in Hf. apply in_app_or in Hf. destruct Hf as [Hf|Hf]; [exists true|exists false]; apply In_sget; try exact N; unfold flow_dict.
  1: change (flow_name c f, fr r c true f) with ((fun g => (fr_full g, g)) (fr r c true f)).
  2: change (flow_name c f, fr r c false f) with ((fun g => (fr_full g, g)) (fr r c false f)).
  all: apply in_map; apply in_flat_map; exists c; split; [exact Hc|]; unfold frs; apply in_or_app.
  - left. apply in_map. exact Hf.
  - right. apply in_map. exact Hf.
Qed.

Lemma start_of : exists times, match extract (Node r) ["Time"]%string with Some (Leaf (LArr _ l)) => Ok l | _ => Err KeyError end = Ok times
  /\ length times = S (steps fs idx)
  /\ forall t, (t < steps fs idx)%nat -> nth t times 0 = stamp fs (selected idx t) /\ nth (S t) times 0 - nth t times 0 = hours fs idx t.
Proof. destruct (rp_time _ _ _ _ _ _ _ _ RP) as [l [E [L T]]]. exists l. rewrite E. auto. Qed.

Lemma unique_entry : forall (cols : list (string * list Q)) n a b, NoDup (map fst cols) -> In (n, a) cols -> In (n, b) cols -> a = b.
Proof. intros cols n a b N A B. pose proof (In_sget _ _ _ N A). pose proof (In_sget _ _ _ N B). congruence. Qed.

(** One side of a component. *)
Lemma own_side : forall c k (side : list flow) i, In c (fs_comps fs) -> (forall f, In f side -> In f (cp_flows c)) ->
  exists cols, mapM (fun f => v <- column k (extract (fr_vars f) ["flow_rate"]%string) ;; Ok (fr_full f, v)) (map (fr r c i) side) = Ok cols
    /\ map fst cols = map (flow_name c) side
    /\ forall f, In f side -> exists l, In (flow_name c f, l) cols /\ series fs idx (fun t => k * rate_of x c f t) l.
Proof.
  intros c k side i Hc SD.
  assert (E : forall f, In f side -> exists l, column k (extract (fr_vars (fr r c i f)) ["flow_rate"]%string) = Ok l
     /\ length l = steps fs idx /\ forall t, (t < steps fs idx)%nat -> nth t l 0 == rate_of x c f t * k).
  { intros f Hf. destruct (flow_found _ _ _ _ _ _ _ _ RP c f Hc (SD f Hf)) as [_ [_ [a [E H]]]]. cbn [fr fr_vars]. rewrite E. apply (holds_column fs idx LONG). exact H. }
  set (h := fun f : flow_result => (fr_full f, cells k (extract (fr_vars f) ["flow_rate"]%string))).
  exists (map h (map (fr r c i) side)). split; [|split].
  - apply mapM_map. intros g H. apply in_map_iff in H. destruct H as [f [<- H]]. destruct (E f H) as [l [X _]]. unfold h, cells. rewrite X. reflexivity.
  - rewrite !map_map. reflexivity.
  - intros f Hf. destruct (E f Hf) as [l [X [L N]]]. exists l. split.
    + apply in_map_iff. exists (fr r c i f). split; [unfold h, cells; rewrite X; reflexivity|]. apply in_map. exact Hf.
    + split; [exact L|]. intros t Ht. rewrite (N t Ht). ring.
Qed.

Lemma component_table_spec : forall c ki ko, In c (fs_comps fs) -> exists cols, component_table r c "flow_rate" (Some ki) (Some ko) = Ok cols
  /\ NoDup (map fst cols)
  /\ (forall name g, of_component x c ki ko name g -> exists l, In (name, l) cols /\ series fs idx g l)
  /\ (forall name l, In (name, l) cols -> exists g, of_component x c ki ko name g /\ series fs idx g l).
Proof.
  intros c ki ko Hc.
  destruct (own_side c ki (cp_in c) true Hc ltac:(intros; apply in_or_app; auto)) as [c1 [E1 [N1 V1]]].
  destruct (own_side c ko (cp_out c) false Hc ltac:(intros; apply in_or_app; auto)) as [c2 [E2 [N2 V2]]].
  assert (NN : NoDup (map fst (c1 ++ c2))).
  { rewrite map_app, N1, N2, <- map_app. pose proof ND as N. unfold all_flows in N. pose proof (NoDup_flat_map_part _ _ _ c N Hc) as M. cbv beta in M.
    rewrite map_map in M. cbn [fst snd] in M. exact M. }
  pose proof NN as NN'. rewrite map_app in NN'. destruct (NoDup_app_parts _ _ NN') as [M1 M2].
  assert (ALL : forall name g, of_component x c ki ko name g -> exists l, In (name, l) (c1 ++ c2) /\ series fs idx g l).
  { intros name g [f [-> [[I ->]|[I ->]]]].
    - destruct (V1 f I) as [l [A B]]. exists l. split; [apply in_or_app; auto|exact B].
    - destruct (V2 f I) as [l [A B]]. exists l. split; [apply in_or_app; auto|exact B]. }
  exists (c1 ++ c2). split; [|split; [exact NN|split; [exact ALL|]]].
  - unfold component_table. rewrite (comp_found _ _ _ _ _ _ _ _ RP c Hc). cbn [of_option bind].
    rewrite (component_flows_eq _ _ _ _ _ _ _ _ RP ND c Hc). cbn [bind]. unfold frs. rewrite !filter_app, !filter_map_. cbn [fr_input fr negb].
    rewrite !(filter_true (fun a => true)) by auto. rewrite !(filter_false (fun a => false)) by auto. cbn [map app]. rewrite app_nil_r.
    rewrite E1. cbn [bind]. rewrite E2. cbn [bind]. rewrite (str_dict_nodup c1) by exact M1. rewrite (str_dict_nodup c2) by exact M2.
    rewrite str_dict_nodup by exact NN. reflexivity.
  - intros name l I.
    assert (J : exists g, of_component x c ki ko name g).
    { apply in_app_or in I. destruct I as [I|I]; apply (in_map fst) in I; cbn [fst] in I; [rewrite N1 in I|rewrite N2 in I]; apply in_map_iff in I; destruct I as [f [<- I]].
      - exists (fun t => ki * rate_of x c f t). exists f. split; [reflexivity|]. left. split; [exact I|reflexivity].
      - exists (fun t => ko * rate_of x c f t). exists f. split; [reflexivity|]. right. split; [exact I|reflexivity]. }
    destruct J as [g J]. exists g. split; [exact J|]. destruct (ALL name g J) as [l' [I' S]]. rewrite (unique_entry _ _ _ _ NN I I'). exact S.
Qed.

Lemma bus_table_spec : forall b ki ko, used_bus fs b -> exists cols, bus_table r fs (b_lab b) "flow_rate" ki ko = Ok cols
  /\ NoDup (map fst cols)
  /\ (forall name g, of_bus fs x b ki ko name g -> exists l, In (name, l) cols /\ series fs idx g l)
  /\ (forall name l, In (name, l) cols -> exists g, of_bus fs x b ki ko name g /\ series fs idx g l).
Proof.
  intros b ki ko UB.
  destruct (table_spec _ _ _ _ _ _ _ _ b RP ND LONG DB UB (BC b UB) ki ko) as [cols [E [_ [N [C [X K]]]]]].
  assert (ALL : forall name g, of_bus fs x b ki ko name g -> exists l, In (name, l) cols /\ series fs idx g l).
  { intros name g [[c [f [Hc [Hb [-> W]]]]]|[PN W]].
    - assert (Hf : In f (cp_flows c)) by (apply in_or_app; destruct W as [[W _]|[W _]]; auto).
      destruct (C c f Hc Hf Hb) as [l [I [L V]]]. exists l. split; [exact I|]. split; [exact L|]. intros t Ht. destruct (V t Ht) as [V1 V2].
      destruct W as [[W ->]|[W ->]]; auto.
    - destruct W as [[-> ->]|[-> ->]]; (eapply X; [exact PN|]); [left|right]; reflexivity. }
  exists cols. split; [exact E|]. split; [exact N|]. split; [exact ALL|].
  intros name l I.
  assert (J : exists g, of_bus fs x b ki ko name g).
  { destruct (K name (in_map fst _ _ I)) as [[c [f [Hc [Hf [Hb ->]]]]]|[PN W]].
    - unfold cp_flows in Hf. apply in_app_or in Hf. destruct Hf as [Hf|Hf].
      + exists (fun t => ko * rate_of x c f t). left. exists c, f. split; [exact Hc|]. split; [exact Hb|]. split; [reflexivity|]. right. split; [exact Hf|reflexivity].
      + exists (fun t => ki * rate_of x c f t). left. exists c, f. split; [exact Hc|]. split; [exact Hb|]. split; [reflexivity|]. left. split; [exact Hf|reflexivity].
    - destruct W as [-> | ->].
      + exists (fun t => ki * excess x b "excess_input" t). right. split; [exact PN|]. left. split; reflexivity.
      + exists (fun t => ko * excess x b "excess_output" t). right. split; [exact PN|]. right. split; reflexivity. }
  destruct J as [g J]. exists g. split; [exact J|]. destruct (ALL name g J) as [l' [I' S]]. rewrite (unique_entry _ _ _ _ N I I'). exact S.
Qed.

Lemma all_tables : tables_right fs idx x r.
Proof.
  intros ki ko th wl. destruct start_of as [times [ET [TL TS]]].
  assert (FR : flow_results r fs = Ok flow_dict) by (apply (flow_results_eq _ _ _ _ _ _ _ _ RP ND)).
  assert (POS : (1 <= steps fs idx)%nat) by lia.
  destruct NP as [NP1 NP2]. split; [|split; [|split]].
  - intros c Hc. destruct (component_table_spec c ki ko Hc) as [cols [E [N [A O]]]].
    destruct (framed fs idx times th wl _ POS TL TS cols N A O) as [fm [F S]]. exists fm. split; [|exact S].
    unfold to_dataframe. rewrite ET. cbn [bind]. rewrite FR. cbn [bind]. rewrite (no_bus (cp_label c)) by (intros b UB X; exact (NP1 c b Hc UB (eq_sym X))).
    rewrite (component_of_some c Hc). rewrite (no_flow (cp_label c)) by (intros c' f Hc' Hf X; exact (proj1 (NP2 c' f Hc' Hf) c Hc (eq_sym X))).
    rewrite E. cbn [bind]. exact F.
  - intros b UB. destruct (bus_table_spec b ki ko UB) as [cols [E [N [A O]]]].
    destruct (framed fs idx times th wl _ POS TL TS cols N A O) as [fm [F S]]. exists fm. split; [|exact S].
    unfold to_dataframe. rewrite ET. cbn [bind]. rewrite FR. cbn [bind]. rewrite (bus_found _ _ _ _ _ _ _ _ b RP (BC b UB)).
    rewrite (no_flow (b_lab b)) by (intros c' f Hc' Hf X; exact (proj2 (NP2 c' f Hc' Hf) b UB (eq_sym X))).
    rewrite (component_of_none (b_lab b)) by (intros c' Hc'; exact (NP1 c' b Hc' UB)). rewrite E. cbn [bind]. exact F.
  - intros c f Hc Hf. destruct (flow_found _ _ _ _ _ _ _ _ RP c f Hc Hf) as [_ [_ [a [E H]]]].
    destruct (holds_column fs idx LONG 1 _ _ H) as [l [C [L V]]].
    assert (SR : series fs idx (rate_of x c f) l) by (split; [exact L|intros t Ht; rewrite (V t Ht); ring]).
    destruct (framed fs idx times th wl (of_flow x c f) POS TL TS [("flow_rate"%string, l)]) as [fm [F S]].
    + repeat constructor. intros [].
    + intros name g [-> ->]. exists l. split; [left; reflexivity|exact SR].
    + intros name l' [I|[]]. inversion I; subst. exists (rate_of x c f). split; [split; reflexivity|exact SR].
    + exists fm. split; [|exact S]. unfold to_dataframe. rewrite ET. cbn [bind]. rewrite FR. cbn [bind].
      destruct (NP2 c f Hc Hf) as [Q1 Q2]. rewrite (no_bus _ Q2), (component_of_none _ Q1). destruct (a_flow c f Hc Hf) as [i ->].
      unfold flow_table. cbn [fr fr_vars]. rewrite E, C. cbn [bind]. exact F.
  - intros l H1 H2 H3. unfold to_dataframe. rewrite ET. cbn [bind]. rewrite FR. cbn [bind].
    rewrite (no_bus _ H2), (component_of_none _ H1), (no_flow _ H3). reflexivity.
Qed.
End AllTables.

(** Missing for the full claim: components called like a bus (C66_refuted), calculations of one step (C49_one_step_refuted), and the labels and
    histories of C28. *)
Theorem C66_tables_partial : forall cf ord fs idx kd pm history x,
  build cf ord fs idx = Ok pm -> integral pm x -> (forall l, Permutation (ord l) l) ->
  plain_labels fs -> distinct_buses fs -> names_apart fs -> (2 <= steps fs idx)%nat ->
  In DoModeling history -> ~ In GetResults history ->
  exists r, results_after cf ord fs idx kd history x = Ok (Some r) /\ tables_right fs idx x r.
Proof.
  intros cf ord fs idx kd pm history x H IN PO PL DB NP LG DM NG.
  destruct (C28_reports_partial _ _ _ _ kd _ history x H PL DM NG IN) as [r [R [RP _]]].
  destruct (build_parts _ _ _ _ _ H) as [cx [cos [bos [em [obj P]]]]].
  exists r. split; [exact R|].
  refine (all_tables _ _ _ _ _ _ _ _ RP (flow_labels_distinct _ _ _ _ _ _ _ _ _ _ P) (proj1 PL) LG DB _ NP).
  intros b UB. apply buses_complete; auto. apply (sy_ids _ _ _ _ _ _ _ _ _ _ P).
Qed.
Print Assumptions C66_tables_partial.

Lemma apart_check : forall fs, (let bs := map (fun cf => b_lab (f_bus (snd cf))) (all_flows fs) in let ns := map (fun cf => flow_name (fst cf) (snd cf)) (all_flows fs) in
  forallb (fun c => negb (existsb (String.eqb (cp_label c)) (bs ++ ns))) (fs_comps fs) && forallb (fun l => negb (existsb (String.eqb l) ns)) bs)%bool = true ->
  names_apart fs.
Proof.
  intros fs H. cbv zeta in H. apply andb_true_iff in H. destruct H as [H1 H2]. rewrite forallb_forall in H1, H2.
  assert (B : forall b, used_bus fs b -> In (b_lab b) (map (fun cf => b_lab (f_bus (snd cf))) (all_flows fs))).
  { intros b [c [f [Hc [Hf <-]]]]. apply in_map_iff. exists (c, f). split; [reflexivity|]. apply all_flows_In. split; assumption. }
  assert (F : forall c f, In c (fs_comps fs) -> In f (cp_flows c) -> In (flow_name c f) (map (fun cf => flow_name (fst cf) (snd cf)) (all_flows fs))).
  { intros c f Hc Hf. apply in_map_iff. exists (c, f). split; [reflexivity|]. apply all_flows_In. split; assumption. }
  assert (X : forall l s, negb (existsb (String.eqb s) l) = true -> ~ In s l).
  { intros l s E I. apply negb_true_iff in E. assert (existsb (String.eqb s) l = true) by (apply existsb_exists; exists s; split; [exact I|apply String.eqb_refl]). congruence. }
  split; [|intros c f Hc Hf; split].
  - intros c b Hc UB E. apply (X _ _ (H1 c Hc)). apply in_or_app. left. rewrite E. apply B. exact UB.
  - intros c' Hc' E. apply (X _ _ (H1 c' Hc')). apply in_or_app. right. rewrite E. apply F; assumption.
  - intros b UB E. apply (X _ _ (H2 _ (B b UB))). rewrite E. apply F; assumption.
Qed.

Definition frame_of (fs : flow_system) (x : asg) (l : string) (th : option Q) (wl : bool) : list (string * list Q) * list Q :=
  match results_after default_config id_ord fs None ADatetime [DoModeling] x with
  | Ok (Some r) => match to_dataframe r fs l "flow_rate" (-1) 1 th wl with Ok fm => (map (fun nc => (fst nc, map Qred (snd nc))) (fm_columns fm), fm_index fm) | Err _ => ([], []) end
  | _ => ([], [])
  end.
Example C66_applies : exists r, results_after default_config id_ord fs0 None ADatetime [DoModeling] x0 = Ok (Some r) /\ tables_right fs0 None x0 r
  /\ frame_of fs0 x0 "Boiler" None true = ([("Boiler__Q_fu", [-4; -40; 0; 0]); ("Boiler__Q_th", [2; 20; 0; 0])], [0; 1; 2; 3])%string
  /\ frame_of fs0 x0 "Boiler" (Some 30) false = ([("Boiler__Q_fu", [-4; -40; 0])], [0; 1; 2])%string.
Proof.
  destruct x0_integral as [pm [B I]].
  assert (DB : distinct_buses fs0) by buses.
  destruct (C66_tables_partial _ _ _ _ ADatetime _ [DoModeling] x0 B I id_ord_perm (proj1 plain_0) DB ltac:(apply apart_check; vm_compute; reflexivity) ltac:(cbn; lia)
     (or_introl eq_refl) ltac:(intros [X|[]]; discriminate)) as [r [R T]].
  exists r. split; [exact R|]. split; [exact T|]. split; vm_compute; reflexivity.
Qed.

(** Without the condition on the names the claim is false. A component may be called like the bus it is connected to: when it is added, its own
    buses are not yet known. The table asked for is then that of the bus. *)
Definition C66_full : Prop := forall cf ord fs idx kd pm history x,
  build cf ord fs idx = Ok pm -> integral pm x -> (forall l, Permutation (ord l) l) ->
  plain_labels fs -> distinct_buses fs -> (2 <= steps fs idx)%nat -> In DoModeling history -> ~ In GetResults history ->
  exists r, results_after cf ord fs idx kd history x = Ok (Some r) /\ tables_right fs idx x r.
Definition fs_alike : flow_system :=
  mkFS [0; 1] 2 (NS 1) [costs] [source "Gas" (fl 150 "Q" gas 10); Library.sink "Sink" (fl 151 "Q" gas 10)].
Definition x_alike : asg := fun n t => if existsb (String.eqb n) ["Gas__Q_flow_rate"; "Sink__Q_flow_rate"]%string then 3 else
  if existsb (String.eqb n) ["Gas__Q_sumFlowHours"; "Sink__Q_sumFlowHours"]%string then 6 else 0.
Example fs_alike_registered : rg_systems (registered [RSystem [0; 1] 1 None None; REffects 0 [costs];
    RComponents 0 [source "Gas" (fl 150 "Q" gas 10); Library.sink "Sink" (fl 151 "Q" gas 10)]]) = [fs_alike].
Proof. vm_compute. reflexivity. Qed.
Theorem C66_refuted : ~ C66_full.
Proof.
  intros F. destruct (run_ok (build default_config id_ord fs_alike None) x_alike) as [pm [B FE]]; [vm_compute; reflexivity|].
  assert (I : integral pm x_alike).
  { apply integral_check. assert (C : match build default_config id_ord fs_alike None with Ok pm => integralb pm x_alike | Err _ => false end = true) by (vm_compute; reflexivity).
    rewrite B in C. exact C. }
  assert (P : plain_labels fs_alike).
  { split; [|split; [|split]].
    1-2: repeat constructor; cbn; intuition discriminate.
    - cbn; intuition discriminate.
    - intros c f Hc Hf. cbv [fs_alike fs_comps In] in Hc.
    repeat (destruct Hc as [<-|Hc]; [cbv [cp_flows cp_in cp_out source Library.sink app In] in Hf;
      repeat (destruct Hf as [<-|Hf]; [cbn; intuition discriminate|]); destruct Hf|]); destruct Hc. }
  assert (D : distinct_buses fs_alike) by buses.
  destruct (F _ _ _ _ ADatetime _ [DoModeling] x_alike B I id_ord_perm P D ltac:(cbn; lia) (or_introl eq_refl) ltac:(intros [X|[]]; discriminate)) as [r [R T]].
  destruct (T (-1) 1 None true) as [T1 _]. destruct (T1 _ (or_introl eq_refl)) as [fm [E S]].
  assert (C : match results_after default_config id_ord fs_alike None ADatetime [DoModeling] x_alike with
              | Ok (Some r) => match to_dataframe r fs_alike "Gas" "flow_rate" (-1) 1 None true with Ok fm => map fst (fm_columns fm) | Err _ => [] end | _ => [] end
              = ["Gas__Q"; "Sink__Q"]%string) by (vm_compute; reflexivity).
  rewrite R in C. change (cp_label (source "Gas" (fl 150 "Q" gas 10))) with "Gas"%string in E. rewrite E in C.
  assert (W : In "Sink__Q"%string (map fst (fm_columns fm))) by (rewrite C; right; left; reflexivity).
  apply in_map_iff in W. destruct W as [[n l] [W1 W2]]. cbn [fst] in W1. subst n. destruct (sh_only _ _ _ _ _ _ S _ _ W2) as [g [[f [X [[Y _]|[Y _]]]] _]].
  - destruct Y.
  - destruct Y as [<-|[]]. discriminate X.
Qed.
Print Assumptions C66_refuted.
