(** C60, C61: the configuration. *)
From Coq Require Import String.
From Verif Require Import Base BaseFacts System Config.

(** ** Specification *)

(** A complete section: exactly the fields of its class, each with a value of the documented kind. *)
Definition modeling_ok (s : section) : Prop := exists big eps bound, s = [("BIG", big); ("EPSILON", eps); ("BIG_BINARY_BOUND", bound)]
  /\ is_int big = true /\ is_float eps = true /\ is_int bound = true.
Definition logging_ok (s : section) : Prop := exists level file rich, s = [("level", YStr level); ("file", YStr file); ("rich", YBool rich)] /\ In level levels.
Definition complete (c : cfg) : Prop :=
  (exists n, cg_name c = YStr n) /\ (exists m, cg_modeling c = Section m /\ modeling_ok m) /\ (exists l, cg_logging c = Section l /\ logging_ok l).
(** The entries of the file that count. *)
Definition entry (path : string * string) (file : yv) : option yv :=
  match file with
  | YDict d => match yget (fst path) d with Some (YDict s) => yget (snd path) s | _ => None end
  | _ => None
  end.
Definition in_force (c : cfg) (path : string * string) : option yv :=
  let p := if String.eqb (fst path) "modeling" then cg_modeling c else cg_logging c in
  match p with Section s => yget (snd path) s | AsIs _ => None end.
Definition fields : list (string * string) :=
  [("logging", "level"); ("logging", "file"); ("logging", "rich"); ("modeling", "BIG"); ("modeling", "EPSILON"); ("modeling", "BIG_BINARY_BOUND")].

(** ** Sections *)
Definition fetch (k : string) (d : list (string * yv)) : yv := match yget k d with Some v => v | None => YNone end.
Lemma modeling_init : forall d s, init_section modeling_fields d = Ok s -> modeling_ok s
  /\ (forall k, In k ["BIG"; "EPSILON"; "BIG_BINARY_BOUND"] -> yget k s = yget k d).
Proof.
  intros d s H. unfold init_section, modeling_fields in H. cbn [mapM fst snd] in H. fold (fetch "BIG" d) in H. fold (fetch "EPSILON" d) in H. fold (fetch "BIG_BINARY_BOUND" d) in H.
  destruct (is_int (fetch "BIG" d)) eqn:B1; [|discriminate]. destruct (is_float (fetch "EPSILON" d)) eqn:B2; [|discriminate].
  destruct (is_int (fetch "BIG_BINARY_BOUND" d)) eqn:B3; [|discriminate]. injection H as <-. split; [repeat eexists; auto|].
  unfold fetch in *. intros k [<-|[<-|[<-|[]]]]; cbn.
  - destruct (yget "BIG" d); [reflexivity|discriminate].
  - destruct (yget "EPSILON" d); [reflexivity|discriminate].
  - destruct (yget "BIG_BINARY_BOUND" d); [reflexivity|discriminate].
Qed.
Lemma logging_init : forall d s, init_section logging_fields d = Ok s -> logging_ok s
  /\ (forall k, In k ["level"; "file"; "rich"] -> yget k s = yget k d).
Proof.
  intros d s H. unfold init_section, logging_fields in H. cbn [mapM fst snd] in H. fold (fetch "level" d) in H. fold (fetch "file" d) in H. fold (fetch "rich" d) in H.
  destruct (is_level (fetch "level" d)) eqn:B1; [|discriminate]. destruct (is_str (fetch "file" d)) eqn:B2; [|discriminate].
  destruct (is_bool (fetch "rich" d)) eqn:B3; [|discriminate]. injection H as <-. split.
  - destruct (fetch "level" d) as [| | | |l| |] eqn:E1; try discriminate. destruct (fetch "file" d) eqn:E2; try discriminate. destruct (fetch "rich" d) eqn:E3; try discriminate.
    exists l. do 2 eexists. split; [reflexivity|]. cbn in B1. unfold levels. simpl.
    repeat match goal with H : (String.eqb ?a ?b || _)%bool = true |- _ => apply orb_prop in H; destruct H as [H|H]; [apply String.eqb_eq in H; subst; auto 7|] end. discriminate.
  - unfold fetch in *. intros k [<-|[<-|[<-|[]]]]; cbn.
    + destruct (yget "level" d); [reflexivity|discriminate].
    + destruct (yget "file" d); [reflexivity|discriminate].
    + destruct (yget "rich" d); [reflexivity|discriminate].
Qed.

(** What init_config makes of a file. *)
Lemma part_init : forall fs v p, init_part fs v = Ok p ->
  (exists d s, v = Some (YDict d) /\ init_section fs d = Ok s /\ p = Section s) \/ (exists w, p = AsIs w /\ (forall d, v <> Some (YDict d)) /\ (v = Some w \/ v = None /\ w = YNone)).
Proof.
  intros fs v p H. unfold init_part in H.
  destruct v as [[| | | | | |d]|]; try (right; injection H as <-; eexists; split; [reflexivity|]; split; [congruence|auto]; fail).
  left. destruct (init_section fs d) as [s|] eqn:E; [|discriminate]. injection H as <-. eauto.
Qed.
Lemma init_config_parts : forall d c, init_config d = Ok c ->
  init_part logging_fields (yget "logging" d) = Ok (cg_logging c) /\ init_part modeling_fields (yget "modeling" d) = Ok (cg_modeling c)
  /\ yget "config_name" d = Some (cg_name c) /\ exists n, cg_name c = YStr n.
Proof.
  intros d c H. unfold init_config in H. destruct (init_part logging_fields _) as [lg|]; [|discriminate]. destruct (init_part modeling_fields _) as [md|]; [|discriminate]. cbn [bind] in H.
  destruct (yget "config_name" d) as [v|]; [|discriminate]. destruct v; try discriminate. injection H as <-. cbn. repeat split; eauto.
Qed.

(** ** C60: loading *)

(** Loading either puts a complete configuration in force, with the values of the file, or fails and changes nothing. *)
Definition C60_full : Prop := forall can_open file st, let (st', e) := load_config can_open (Ok file) st in
  (e = None -> complete st' /\ forall p, In p fields -> in_force st' p = entry p file) /\ (e <> None -> st' = st).

(** A file without logging section: loading fails, but the new configuration is in force (without logging section). *)
Definition no_logging_yaml : yv :=
  YDict [("config_name", YStr "mine"); ("modeling", YDict [("BIG", YInt 1000); ("EPSILON", YFloat (1 # 1000)); ("BIG_BINARY_BOUND", YInt 1000)])].
Definition started : cfg := fst (load_config (fun _ => true) (Ok default_yaml) no_cfg).
Theorem C60_refuted : ~ C60_full.
Proof. intros A. specialize (A (fun _ => true) no_logging_yaml started). cbn in A. destruct A as [_ A]. specialize (A ltac:(discriminate)). discriminate A. Qed.
Print Assumptions C60_refuted.
(** A file without modeling section is accepted; from then on no problem can be built. *)
Definition no_modeling_yaml : yv :=
  YDict [("config_name", YStr "mine"); ("logging", YDict [("level", YStr "INFO"); ("file", YStr "x.log"); ("rich", YBool false)])].
Theorem C60_missing_accepted : exists st', load_config (fun _ => true) (Ok no_modeling_yaml) started = (st', None)
  /\ modelling started = Ok default_config /\ modelling st' = Err AttributeError.
Proof. eexists. split; [reflexivity|]. split; reflexivity. Qed.
Print Assumptions C60_missing_accepted.

(** With both sections in the file, and a log file that can be opened, the property holds. *)
Theorem C60_load_partial : forall can_open d lg md st, (forall f, can_open f = true) ->
  yget "logging" d = Some (YDict lg) -> yget "modeling" d = Some (YDict md) ->
  let (st', e) := load_config can_open (Ok (YDict d)) st in
  (e = None -> complete st' /\ forall p, In p fields -> in_force st' p = entry p (YDict d)) /\ (e <> None -> st' = st /\ e = Some AssertionError).
Proof.
  intros can_open d lg md st CO L M. unfold load_config. destruct (init_config d) as [c|x] eqn:E.
  - destruct (init_config_parts _ _ E) as [A [B [C [n N]]]]. rewrite L in A. rewrite M in B.
    destruct (part_init _ _ _ A) as [[d1 [s1 [E1 [I1 P1]]]]|[w [_ [Z _]]]]; [|exfalso; exact (Z _ eq_refl)]. injection E1 as <-.
    destruct (part_init _ _ _ B) as [[d2 [s2 [E2 [I2 P2]]]]|[w [_ [Z _]]]]; [|exfalso; exact (Z _ eq_refl)]. injection E2 as <-.
    destruct (logging_init _ _ I1) as [O1 F1]. destruct (modeling_init _ _ I2) as [O2 F2].
    rewrite P1. cbn [setup]. assert (FI : exists f, yget "file" s1 = Some (YStr f)) by (destruct O1 as [l [f [r [-> _]]]]; exists f; reflexivity). destruct FI as [f ->]. rewrite CO.
    split; [|congruence]. intros _. split.
    + split; [eauto|]. split; [exists s2; auto|exists s1; auto].
    + intros p Hp. unfold fields in Hp. simpl in Hp. unfold in_force, entry.
      repeat (destruct Hp as [<-|Hp]; [cbn [fst snd]; rewrite ?L, ?M; cbn [String.eqb Ascii.eqb Bool.eqb]; rewrite ?P1, ?P2; first [apply F1|apply F2]; simpl; auto|]). destruct Hp.
  - split; [discriminate|]. intros _. split; auto. unfold init_config in E. rewrite L, M in E. unfold init_part in E.
    assert (SE : forall fs dd y, init_section fs dd = Err y -> y = AssertionError).
    { intros fs dd. unfold init_section. induction fs as [|[k ch] fs IH]; intros y Hy; [discriminate|]. cbn [mapM] in Hy. cbn [fst snd] in Hy.
      destruct (ch _); cbn [bind] in Hy; [|congruence]. destruct (mapM _ fs) eqn:MM; [discriminate|]. cbn [bind] in Hy. injection Hy as <-. apply IH. reflexivity. }
    destruct (init_section logging_fields lg) eqn:X1; [|cbn in E; injection E as <-; rewrite (SE _ _ _ X1); reflexivity]. cbn [bind] in E.
    destruct (init_section modeling_fields md) eqn:X2; [|cbn in E; injection E as <-; rewrite (SE _ _ _ X2); reflexivity]. cbn [bind] in E.
    unfold guard in E. destruct (is_str _); cbn in E; congruence.
Qed.
Print Assumptions C60_load_partial.
Example C60_applies : let d := match default_yaml with YDict d => d | _ => [] end in
  (exists lg, yget "logging" d = Some (YDict lg)) /\ (exists md, yget "modeling" d = Some (YDict md))
  /\ snd (load_config (fun _ => true) (Ok default_yaml) no_cfg) = None /\ complete started /\ modelling started = Ok default_config
  /\ load_config (fun _ => true) (Ok (YDict (yset "config_name" (YInt 3) d))) started = (started, Some AssertionError).
Proof.
  cbv zeta. split; [eexists; reflexivity|]. split; [eexists; reflexivity|]. split; [reflexivity|]. split; [|split; reflexivity].
  split; [eexists; reflexivity|]. split; eexists; (split; [reflexivity|]).
  - repeat eexists.
  - exists "INFO", "flixOpt.log", false. split; [reflexivity|simpl; auto].
Qed.

(** Exporting a complete configuration and loading the export gives it back; so does importing the package anew. *)
Theorem C60_roundtrip : forall can_open c st, complete c -> (forall f, can_open f = true) -> load_config can_open (Ok (YDict (to_dict c))) st = (c, None).
Proof.
  intros can_open [nm md lg] st [[n N] [[m [M MO]] [l [L LO]]]] CO. cbn in N, M, L. subst.
  destruct MO as [big [eps [bound [-> [B1 [B2 B3]]]]]]. destruct LO as [level [file [rich [-> LV]]]].
  assert (LL : existsb (String.eqb level) levels = true) by (apply existsb_exists; exists level; split; auto; apply String.eqb_refl).
  unfold load_config, init_config, init_part, to_dict. cbn -[levels existsb is_int is_float]. rewrite LL. cbn -[is_int is_float]. rewrite B1. cbn -[is_int is_float]. rewrite B2. cbn -[is_int]. rewrite B3. cbn.
  rewrite CO. reflexivity.
Qed.
Print Assumptions C60_roundtrip.

(** Histories: loading files and assigning single fields, going on after failures. *)
Inductive cop : Type := Load (file : res yv) | SetModeling (name : string) (v : yv) | SetLogging (name : string) (v : yv).
Definition cstep (can_open : string -> bool) (c : cfg) (o : cop) : cfg :=
  match o with
  | Load file => fst (load_config can_open file c)
  | SetModeling n v => mkCfg (cg_name c) (fst (set_field modeling_fields n v (cg_modeling c))) (cg_logging c)
  | SetLogging n v => mkCfg (cg_name c) (cg_modeling c) (fst (set_field logging_fields n v (cg_logging c)))
  end.
(** Every file that is loaded has both sections. *)
Definition has_sections (o : cop) : Prop :=
  match o with
  | Load (Ok (YDict d)) => (exists lg, yget "logging" d = Some (YDict lg)) /\ exists md, yget "modeling" d = Some (YDict md)
  | _ => True
  end.
Lemma set_modeling_ok : forall n v m, modeling_ok m -> exists m', fst (set_field modeling_fields n v (Section m)) = Section m' /\ modeling_ok m'.
Proof.
  intros n v m [big [eps [bound [-> [B1 [B2 B3]]]]]]. unfold set_field, modeling_fields. cbn [find fst].
  destruct (String.eqb "BIG" n) eqn:E1; [apply String.eqb_eq in E1; subst n; cbn; destruct (is_int v) eqn:V; cbn; eexists; (split; [reflexivity|repeat eexists; auto])|].
  destruct (String.eqb "EPSILON" n) eqn:E2; [apply String.eqb_eq in E2; subst n; cbn; destruct (is_float v) eqn:V; cbn; eexists; (split; [reflexivity|repeat eexists; auto])|].
  destruct (String.eqb "BIG_BINARY_BOUND" n) eqn:E3; [apply String.eqb_eq in E3; subst n; cbn; destruct (is_int v) eqn:V; cbn; eexists; (split; [reflexivity|repeat eexists; auto])|].
  cbn. eexists. split; [reflexivity|]. repeat eexists; auto.
Qed.
Lemma level_in : forall v, is_level v = true -> exists l, v = YStr l /\ In l levels.
Proof.
  intros v H. destruct v; try discriminate. cbn [is_level] in H. apply existsb_exists in H. destruct H as [l [Hl E]]. apply String.eqb_eq in E. subst. eauto.
Qed.
Lemma set_logging_ok : forall n v m, logging_ok m -> exists m', fst (set_field logging_fields n v (Section m)) = Section m' /\ logging_ok m'.
Proof.
  intros n v m [level [file [rich [-> LV]]]]. unfold set_field, logging_fields. cbn [find fst].
  destruct (String.eqb "level" n) eqn:E1.
  { apply String.eqb_eq in E1. subst n. cbn [snd]. destruct (is_level v) eqn:V; [destruct (level_in v V) as [l [-> Hl]]; cbn; eexists; (split; [reflexivity|]); exists l, file, rich; auto|].
    eexists. split; [reflexivity|]. exists level, file, rich. auto. }
  destruct (String.eqb "file" n) eqn:E2.
  { apply String.eqb_eq in E2. subst n. cbn [snd]. destruct (is_str v) eqn:V; [destruct v; try discriminate; cbn; eexists; (split; [reflexivity|]); eexists level, _, rich; eauto|].
    eexists. split; [reflexivity|]. exists level, file, rich. auto. }
  destruct (String.eqb "rich" n) eqn:E3.
  { apply String.eqb_eq in E3. subst n. cbn [snd]. destruct (is_bool v) eqn:V; [destruct v; try discriminate; cbn; eexists; (split; [reflexivity|]); eexists level, file, _; eauto|].
    eexists. split; [reflexivity|]. exists level, file, rich. auto. }
  cbn. eexists. split; [reflexivity|]. exists level, file, rich. auto.
Qed.
(** Whatever is loaded and assigned afterwards, valid or not, the configuration in force stays complete and well typed. *)
Theorem C60_always_complete : forall can_open l c, complete c -> Forall has_sections l -> complete (fold_left (cstep can_open) l c).
Proof.
  intros can_open l. induction l as [|o l IH]; intros c C F; [exact C|]. inversion F as [|? ? H1 H2]; subst. cbn [fold_left]. apply IH; auto. clear IH F H2.
  destruct C as [CN [[m [CM MO]] [g [CL LO]]]]. destruct o as [file|n v|n v].
  - cbn [cstep]. unfold load_config. destruct file as [f|e]; [|repeat split; eauto]. destruct f as [| | | | | |d]; try (repeat split; eauto; fail).
    destruct (init_config d) as [c'|e] eqn:E; [|repeat split; eauto]. cbn [fst].
    destruct H1 as [[lg L] [md M]]. destruct (init_config_parts _ _ E) as [A [B [_ N]]]. rewrite L in A. rewrite M in B.
    destruct (part_init _ _ _ A) as [[d1 [s1 [E1 [I1 P1]]]]|[w [_ [Z _]]]]; [|exfalso; exact (Z _ eq_refl)].
    destruct (part_init _ _ _ B) as [[d2 [s2 [E2 [I2 P2]]]]|[w [_ [Z _]]]]; [|exfalso; exact (Z _ eq_refl)].
    split; [exact N|]. split; [exists s2; split; auto; apply (modeling_init _ _ I2)|exists s1; split; auto; apply (logging_init _ _ I1)].
  - cbn [cstep]. split; [exact CN|]. split; [|exists g; auto]. rewrite CM. destruct (set_modeling_ok n v m MO) as [m' [E O]]. exists m'. auto.
  - cbn [cstep]. split; [exact CN|]. split; [exists m; auto|]. rewrite CL. destruct (set_logging_ok n v g LO) as [m' [E O]]. exists m'. auto.
Qed.
Print Assumptions C60_always_complete.
Example C60_history_applies :
  let l := [SetModeling "EPSILON" (YFloat (1 # 1000)); SetModeling "EPSILON" (YInt 1); SetLogging "level" (YStr "LOUD"); Load (Ok (YInt 3)); SetModeling "BIG" (YInt 500)] in
  complete started /\ Forall has_sections l /\ modelling (fold_left (cstep (fun _ => true)) l started) = Ok (mkConfig (1 # 1000) (500 # 1)).
Proof. cbv zeta. split; [apply C60_applies|]. split; [repeat constructor|reflexivity]. Qed.

(** ** C61: merging configurations *)

(** Keys of a dict are distinct, at every level. *)
Inductive ydistinct : yv -> Prop :=
| yd_dict : forall d, NoDup (map fst d) -> (forall k v, In (k, v) d -> ydistinct v) -> ydistinct (YDict d)
| yd_leaf : forall v, (forall d, v <> YDict d) -> ydistinct v.
Fixpoint at_path (p : list string) (v : yv) : option yv :=
  match p with
  | [] => Some v
  | k :: r => match v with YDict d => match yget k d with Some w => at_path r w | None => None end | _ => None end
  end.
Definition leaf (v : yv) : Prop := forall d, v <> YDict d.
(** [o] has no value on the way [p], down to its end. *)
Fixpoint silent (p : list string) (o : yv) : Prop :=
  match p with
  | [] => False
  | k :: r => match o with YDict d => match yget k d with Some w => silent r w | None => True end | _ => False end
  end.

Lemma yget_yset : forall k k' v d, yget k (yset k' v d) = if String.eqb k' k then Some v else yget k d.
Proof.
  intros k k' v. induction d as [|[a b] d IH]; cbn.
  - unfold yget. cbn. destruct (String.eqb k' k); reflexivity.
  - destruct (String.eqb a k') eqn:E; unfold yget in *; cbn.
    + apply String.eqb_eq in E. subst a. destruct (String.eqb k' k); reflexivity.
    + destruct (String.eqb a k) eqn:F; [|exact IH]. apply String.eqb_eq in F. subst a. rewrite String.eqb_sym, E. reflexivity.
Qed.
Lemma yget_not_in : forall k d, ~ In k (map fst d) -> yget k d = None.
Proof.
  intros k d N. unfold yget. destruct (find _ d) as [[a b]|] eqn:E; [|reflexivity]. apply find_some in E. destruct E as [E1 E2]. apply String.eqb_eq in E2. cbn in E2. subst a.
  exfalso. apply N. apply in_map_iff. exists (k, b). auto.
Qed.
Definition merged (n : nat) (value : yv) (old : option yv) : yv :=
  match value, old with YDict o, Some (YDict d) => YDict (merge_configs n d o) | _, _ => value end.
Lemma merge_get : forall n o d k, NoDup (map fst o) ->
  yget k (merge_configs (S n) d o) = match yget k o with Some v => Some (merged n v (yget k d)) | None => yget k d end.
Proof.
  intros n o. induction o as [|[a b] o IH]; intros d k ND; [reflexivity|]. inversion ND as [|? ? NI ND']; subst.
  change (merge_configs (S n) d ((a, b) :: o)) with (merge_configs (S n) (yset a (merged n b (yget a d)) d) o). rewrite IH by auto.
  assert (YG : yget k ((a, b) :: o) = if String.eqb a k then Some b else yget k o) by (unfold yget; cbn [find fst]; destruct (String.eqb a k); reflexivity).
  rewrite YG. destruct (String.eqb a k) eqn:E.
  - apply String.eqb_eq in E. subst a. rewrite (yget_not_in k o NI). rewrite yget_yset, String.eqb_refl. reflexivity.
  - rewrite yget_yset, E. reflexivity.
Qed.
Lemma yget_in : forall k d v, yget k d = Some v -> In (k, v) d.
Proof.
  intros k d v H. unfold yget in H. destruct (find _ d) as [[a b]|] eqn:E; [|discriminate]. apply find_some in E. destruct E as [E1 E2]. apply String.eqb_eq in E2. cbn in *. subst. injection H as <-. exact E1.
Qed.
Lemma depth_in : forall k v d, In (k, v) d -> (depth v < depth (YDict d))%nat.
Proof.
  intros k v. induction d as [|[a b] d IH]; intros H; [destruct H|]. destruct H as [E|H].
  - injection E as -> ->. cbn. lia.
  - specialize (IH H). cbn in *. lia.
Qed.
(** In a merged configuration a path leads to a value exactly if it does in the overrides, or if it does in the defaults
    and the overrides have no value on the way. *)
Theorem C61_merge : forall p n d o v, ydistinct (YDict o) -> (depth (YDict o) <= n)%nat -> leaf v -> p <> [] ->
  (at_path p (YDict (merge_configs n d o)) = Some v <-> at_path p (YDict o) = Some v \/ (at_path p (YDict d) = Some v /\ silent p (YDict o))).
Proof.
  induction p as [|k p IH]; intros n d o v DO DE LV NE; [congruence|]. destruct n as [|n]; [cbn in DE; lia|].
  inversion DO as [? ND SUB|? Z]; subst; [|exfalso; exact (Z o eq_refl)]. cbn [at_path silent]. rewrite merge_get by auto. destruct (yget k o) as [w|] eqn:KO; [|split; [auto|intros [H|[H _]]; [discriminate|exact H]]].
  pose proof (yget_in _ _ _ KO) as HI. pose proof (depth_in _ _ _ HI) as HD. pose proof (SUB _ _ HI) as DW. unfold merged.
  destruct w as [| | | | | |o'];
    try (split; [auto|intros [H|[_ S]]; [exact H|]; destruct p; cbn in S; destruct S]; fail).
  destruct p as [|k2 p].
  - cbn [at_path silent]. split; [|intros [H|[_ []]]; injection H as <-; exfalso; exact (LV _ eq_refl)].
    intros H. exfalso. destruct (yget k d) as [[| | | | | |d']|]; injection H as <-; exact (LV _ eq_refl).
  - destruct (yget k d) as [[| | | | | |d']|].
    7:{ apply IH; auto; [lia|discriminate]. }
    all: split; [auto|intros [H|[H _]]; [exact H|discriminate]].
Qed.
Print Assumptions C61_merge.
Example C61_applies :
  let d := [("logging", YDict [("level", YStr "INFO"); ("file", YStr "a.log")]); ("name", YStr "x")] in
  let o := [("logging", YDict [("level", YStr "DEBUG")]); ("extra", YInt 3)] in
  ydistinct (YDict o) /\ at_path ["logging"; "level"] (YDict (merge_configs 2 d o)) = Some (YStr "DEBUG")
  /\ at_path ["logging"; "file"] (YDict (merge_configs 2 d o)) = Some (YStr "a.log") /\ depth (YDict o) = 2%nat.
Proof.
  cbv zeta. split; [|repeat split]. constructor; [repeat constructor; simpl; intuition discriminate|]. intros k v [E|[E|[]]]; injection E as <- <-.
  - constructor; [repeat constructor; simpl; intuition discriminate|]. intros k v [E|[]]; injection E as <- <-. apply yd_leaf. discriminate.
  - apply yd_leaf. discriminate.
Qed.
