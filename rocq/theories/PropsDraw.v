(** Claim C95: the drawing of the network. *)
From Coq Require Import String Permutation.
From Verif Require Import Base BaseFacts Params Elements System SysSpec Tree PropsTree NavFacts BusFacts Network PropsNetwork Library Example Skeleton PropsComp Draw.

Local Open Scope list_scope.
(** ** Specification *)
Definition component_mark (l : string) : mark := mkMark l l "box" "#00ADB5".
Definition bus_mark (l : string) : mark := mkMark l l "circle" "#393E46".
(** One box for every component, one circle for every bus, one arrow for every flow in the direction of the energy, and nothing else. *)
Record shown_net (fs : flow_system) (n : net) : Prop := {
  sn_once : NoDup (map mk_id (nt_marks n));
  sn_component : forall c, In c (fs_comps fs) -> In (component_mark (cp_label c)) (nt_marks n);
  sn_bus : forall b, used_bus fs b -> In (bus_mark (b_lab b)) (nt_marks n);
  sn_only : forall m, In m (nt_marks n) -> (exists c, In c (fs_comps fs) /\ m = component_mark (cp_label c)) \/ (exists b, used_bus fs b /\ m = bus_mark (b_lab b));
  sn_arrows : Permutation (nt_arrows n)
    (flat_map (fun c => map (fun f => (b_lab (f_bus f), cp_label c, f_lab f)) (cp_in c) ++ map (fun f => (cp_label c, b_lab (f_bus f), f_lab f)) (cp_out c)) (fs_comps fs))
}.
(** Where the drawing is saved. *)
Definition place (path : option string) (show : bool) : option string := match path with Some p => Some p | None => if show then Some "network.html"%string else None end.

(** ** Proof *)
Definition mark_of (kv : string * (string * node_class)) : mark := match snd (snd kv) with ABus => mkMark (fst kv) (fst (snd kv)) "circle" "#393E46" | AComponent => mkMark (fst kv) (fst (snd kv)) "box" "#00ADB5" end.
Lemma marks_ok : forall ns l, NoDup (map mk_id l ++ map fst ns) ->
  all_marks (map (fun kv : string * (string * node_class) => (fst kv, (fst (snd kv), class_text (snd (snd kv))))) ns) l = Ok (l ++ map mark_of ns).
Proof.
  induction ns as [|[id [lab cl]] ns IH]; intros l ND; [cbn; rewrite app_nil_r; reflexivity|]. cbn [map fst snd] in *.
  assert (NI : existsb (fun m' => String.eqb (mk_id m') id) l = false).
  { destruct (existsb _ l) eqn:E; [|reflexivity]. apply existsb_exists in E. destruct E as (m & Hm & E). apply String.eqb_eq in E. exfalso.
    apply NoDup_remove_2 in ND. apply ND. apply in_or_app. left. rewrite <- E. now apply in_map. }
  assert (G : forall m, mk_id m = id -> NoDup (map mk_id (l ++ [m]) ++ map fst ns)).
  { intros m Em. rewrite map_app. cbn [map]. rewrite Em, <- app_assoc. exact ND. }
  destruct cl; cbn [all_marks class_text]; unfold shape_of, colour_of, sget; cbn [find String.eqb Ascii.eqb Bool.eqb fst snd option_map of_option bind];
    unfold add_node; cbn [mk_id]; rewrite NI; (rewrite IH; [unfold mark_of at 2; cbn [fst snd]; rewrite <- app_assoc; reflexivity|apply G; reflexivity]).
Qed.
Definition arrow_of (kv : string * (string * string * string)) : string * string * string := let '(lab, a, b) := snd kv in (a, b, lab).
Lemma arrows_ok : forall marks es l, (forall k lab a b, In (k, (lab, a, b)) es -> In a (map mk_id marks) /\ In b (map mk_id marks)) ->
  all_arrows marks es l = Ok (l ++ map arrow_of es).
Proof.
  intros marks es. induction es as [|[k [[lab a] b]] es IH]; intros l H; [cbn; rewrite app_nil_r; reflexivity|]. cbn [all_arrows].
  assert (X : forall z, In z (map mk_id marks) -> existsb (fun m => String.eqb (mk_id m) z) marks = true).
  { intros z Hz. apply in_map_iff in Hz. destruct Hz as (m & <- & Hm). apply existsb_exists. exists m. split; [exact Hm|apply String.eqb_refl]. }
  destruct (H k lab a b (or_introl eq_refl)) as [A B]. unfold add_edge. rewrite (X a A), (X b B). cbn [guard bind].
  rewrite IH by (intros; eapply H; right; eassumption). cbn [map]. unfold arrow_of at 2. cbn [snd]. rewrite <- app_assoc. reflexivity.
Qed.
Lemma mark_ids : forall ns, map mk_id (map mark_of ns) = map fst ns.
Proof. intros ns. rewrite map_map. apply map_ext. intros [k [lab []]]; reflexivity. Qed.

Definition drawing (ord : list nat -> list nat) (fs : flow_system) (controls : bool) : net :=
  mkNet (map mark_of (nodes ord fs)) (map arrow_of (edges ord fs)) (if controls then "800px" else "100%")%string controls.
Lemma draw_system_is : forall cw ord fs path controls show, (forall l, Permutation (ord l) l) ->
  draw_system true cw ord fs path controls show =
  match place path show with
  | None => ([], Ok (Some (drawing ord fs controls)))
  | Some p => if cw p then (Wrote p (drawing ord fs controls) :: (if show then [Opened p] else []), Ok None) else ([], Err PyException)
  end.
Proof.
  intros cw ord fs path controls show PO. unfold draw_system, visualize_network. cbn [negb].
  rewrite marks_ok by (cbn [map app]; unfold nodes; apply str_dict_keys). cbn [app bind]. rewrite arrows_ok.
  - cbn [app bind]. fold (drawing ord fs controls). destruct path as [p|], show; reflexivity.
  - intros k lab a b H. rewrite mark_ids. assert (E : sget k (edges ord fs) = Some (lab, a, b)) by (apply In_sget; [unfold edges; apply str_dict_keys|exact H]).
    destruct (C68_edge_ends ord fs k lab a b PO E) as [[x A] [y B]]. apply sget_In in A. apply sget_In in B. split; [exact (in_map fst _ _ A)|exact (in_map fst _ _ B)].
Qed.
Lemma drawing_shown : forall ord fs controls, (forall l, Permutation (ord l) l) -> names_differ fs -> shown_net fs (drawing ord fs controls).
Proof.
  intros ord fs controls PO N. pose proof (C68_network_partial ord fs PO N) as P.
  assert (V : forall l v, In (l, v) (nodes ord fs) -> fst v = l /\ (snd v = AComponent -> exists c, In c (fs_comps fs) /\ cp_label c = l) /\ (snd v = ABus -> exists b, used_bus fs b /\ b_lab b = l)).
  { intros l v H. assert (E : sget l (nodes ord fs) = Some v) by (apply In_sget; [unfold nodes; apply str_dict_keys|exact H]). unfold nodes in E. apply str_dict_In in E.
    apply in_app_or in E. destruct E as [E|E]; apply in_map_iff in E; destruct E as (z & E & Hz); injection E as <- <-; cbn [fst snd]; split; [reflexivity| |reflexivity|]; split; intros X; try discriminate X.
    - now exists z.
    - exists z. split; [exact (buses_used _ _ _ Hz)|reflexivity]. }
  constructor; cbn [drawing nt_marks nt_arrows].
  - rewrite mark_ids. unfold nodes. apply str_dict_keys.
  - intros c Hc. pose proof (pi_component _ _ _ P c Hc) as E. apply sget_In in E. exact (in_map mark_of _ _ E).
  - intros b Hb. pose proof (pi_bus _ _ _ P b Hb) as E. apply sget_In in E. exact (in_map mark_of _ _ E).
  - intros m Hm. apply in_map_iff in Hm. destruct Hm as ([l [lab cl]] & <- & H). destruct (V _ _ H) as (E & A & B). cbn [fst snd] in E, A, B. subst lab. destruct cl.
    + right. destruct (B eq_refl) as (b & U & <-). exists b. split; [exact U|reflexivity].
    + left. destruct (A eq_refl) as (c & U & <-). exists c. split; [exact U|reflexivity].
  - pose proof (nd_objects _ N) as OBJ. pose proof (nd_flows _ N) as FN. pose proof (raw_perm ord fs PO OBJ) as RP. cbv zeta in RP. unfold edges.
    rewrite str_dict_nodup by (apply (raw_keys ord fs PO OBJ FN)). eapply perm_trans; [apply Permutation_map; exact RP|]. rewrite map_map.
    assert (G : forall cs, incl cs (fs_comps fs) -> map (fun cf : component * flow => arrow_of (flow_name (fst cf) (snd cf), edge_of (fst cf) (snd cf))) (flat_map (fun c => map (fun f => (c, f)) (cp_flows c)) cs)
       = flat_map (fun c => map (fun f => (b_lab (f_bus f), cp_label c, f_lab f)) (cp_in c) ++ map (fun f => (cp_label c, b_lab (f_bus f), f_lab f)) (cp_out c)) cs).
    { induction cs as [|c cs IH]; intros I; [reflexivity|]. cbn [flat_map]. rewrite map_app, IH by (intros z Hz; apply I; right; exact Hz). f_equal. rewrite map_map. cbn [fst snd].
      unfold cp_flows. rewrite map_app. f_equal; apply map_ext_in; intros f Hf; unfold arrow_of; cbn [snd].
      - rewrite (edge_in c f Hf). reflexivity.
      - rewrite (edge_out fs OBJ c f (I c (or_introl eq_refl)) Hf). reflexivity. }
    unfold all_flows. rewrite (G _ (incl_refl _)). apply Permutation_refl.
Qed.

(** ** C95 *)

(** With names that differ, the drawing shows the system. It is written to the path, or to network.html if it only has to be shown, and opened afterwards
    if asked for; only if it is neither saved nor shown it is returned. If the file cannot be written, the call fails and nothing is opened. *)
Theorem C95_drawn_partial : forall ord fs controls, (forall l, Permutation (ord l) l) -> names_differ fs -> exists n, shown_net fs n /\
  forall can_write path show, draw_system true can_write ord fs path controls show =
    match place path show with
    | None => ([], Ok (Some n))
    | Some p => if can_write p then (Wrote p n :: (if show then [Opened p] else []), Ok None) else ([], Err PyException)
    end.
Proof.
  intros ord fs controls PO N. exists (drawing ord fs controls). split; [exact (drawing_shown ord fs controls PO N)|]. intros. apply draw_system_is. exact PO.
Qed.
Print Assumptions C95_drawn_partial.

(** Whatever the names, drawing never fails for another reason than the file; without pyvis nothing happens. *)
Theorem C95_never_refused : forall can_write ord fs path controls show, (forall l, Permutation (ord l) l) ->
  ((forall p, place path show = Some p -> can_write p = true) -> exists r, snd (draw_system true can_write ord fs path controls show) = Ok r)
  /\ draw_system false can_write ord fs path controls show = ([], Ok None).
Proof.
  intros cw ord fs path controls show PO. split; [|reflexivity]. intros W. rewrite draw_system_is by exact PO. destruct (place path show) as [p|]; [rewrite (W p eq_refl)|]; eexists; reflexivity.
Qed.
Print Assumptions C95_never_refused.

(** The documentation says that the network is returned whenever pyvis is installed. It is not, as soon as it is saved or shown, which is the default. *)
Definition C95_returned : Prop := forall can_write ord fs path controls show, (forall l, Permutation (ord l) l) -> (forall p, can_write p = true) ->
  exists n, snd (draw_system true can_write ord fs path controls show) = Ok (Some n).
Theorem C95_refuted : ~ C95_returned.
Proof.
  intros H. destruct (H (fun _ => true) id_ord fs0 (Some "flow_system.html"%string) true true id_ord_perm (fun _ => eq_refl)) as [n E].
  rewrite draw_system_is in E by exact id_ord_perm. discriminate E.
Qed.
Print Assumptions C95_refuted.

(** With False for the path the drawing should be created "but not saved". It is saved, to network.html in the working directory, if it is shown. *)
Definition C95_unsaved : Prop := forall can_write ord fs controls show p n, (forall l, Permutation (ord l) l) -> ~ In (Wrote p n) (fst (draw_system true can_write ord fs None controls show)).
Theorem C95_unsaved_refuted : ~ C95_unsaved.
Proof.
  intros H. apply (H (fun _ => true) id_ord fs0 true true "network.html"%string (drawing id_ord fs0 true) id_ord_perm). rewrite draw_system_is by exact id_ord_perm. left. reflexivity.
Qed.
Print Assumptions C95_unsaved_refuted.

(** The picture of the first system: six flows, four components, two buses; energy runs from the gas bus into the boiler. *)
Example C95_applies : names_differ fs1 /\ length (nt_marks (drawing id_ord fs0 true)) = 6%nat /\ length (nt_arrows (drawing id_ord fs0 true)) = 6%nat
  /\ In ("Gas", "Boiler", "Q_fu")%string (nt_arrows (drawing id_ord fs0 true)) /\ In ("Boiler", "Heat", "Q_th")%string (nt_arrows (drawing id_ord fs0 true))
  /\ In (bus_mark "Heat") (nt_marks (drawing id_ord fs0 true)) /\ In (component_mark "Storage") (nt_marks (drawing id_ord fs0 true))
  /\ shown_net fs1 (drawing id_ord fs1 false).
Proof.
  split; [exact names_differ_1|]. do 2 (split; [vm_compute; reflexivity|]). do 4 (split; [vm_compute; repeat (first [left; reflexivity | right])|]).
  apply drawing_shown; [exact id_ord_perm|exact names_differ_1].
Qed.
