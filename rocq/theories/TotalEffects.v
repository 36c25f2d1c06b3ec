(** Effects, the penalty, the objective and buses can always be written down for data that fits. *)
From Verif Require Import Base BaseFacts MathModel Spec MathFacts MathTotal Structure StructureFacts Params Features Elements ResultFacts NameSpec NameFacts TotalFacts TotalFeatures TotalInvest TotalOnOff TotalShares.

(** ** Names of whole elements *)
Record under (Ps : list (list string)) (ns : list string) : Prop := {
  un_nodup : NoDup ns;
  un_in : forall s, In s ns -> exists P r, In P Ps /\ words s = P ++ r
}.
Record rooted (Ps : list (list string)) (vs : list variable) (cs : list constraint) : Prop := {
  rt_vars : under Ps (map v_label vs);
  rt_cons : under Ps (map c_label cs);
  rt_var : Forall var_ok vs;
  rt_con : Forall con_ok cs
}.
Lemma under_app : forall Ps Ps' a b, under Ps a -> under Ps' b -> apart Ps Ps' -> under (Ps ++ Ps') (a ++ b).
Proof.
  intros Ps Ps' a b [A B] [C D] AP. split.
  - apply NoDup_app_; auto. intros s H H'. destruct (B _ H) as [P [r [I E]]]. destruct (D _ H') as [P' [r' [I' E']]]. rewrite E in E'. exact (AP _ _ I I' _ _ E').
  - intros s H. apply in_app_or in H. destruct H as [H|H]; [destruct (B _ H) as [P [r [I E]]]|destruct (D _ H) as [P [r [I E]]]]; exists P, r; split; auto; apply in_or_app; auto.
Qed.
Lemma rooted_nil : forall Ps, rooted Ps [] [].
Proof. intros. split; try constructor; try constructor; intros ? []. Qed.
Lemma rooted_app : forall Ps Ps' v c v' c', rooted Ps v c -> rooted Ps' v' c' -> apart Ps Ps' -> rooted (Ps ++ Ps') (v ++ v') (c ++ c').
Proof. intros Ps Ps' v c v' c' [A B C D] [A' B' C' D'] AP. split; rewrite ?map_app; try (apply under_app; auto); apply Forall_app; auto. Qed.
Lemma rooted_good : forall P o ws v c, good P o ws v c -> rooted [P] v c.
Proof.
  assert (H : forall P o ws l, covers P o ws l -> under [P] l).
  { intros P o ws l [A B]. split; auto. intros s Hs. exists P. destruct (B _ Hs) as [[_ [a [r [E _]]]]|[w [_ [r E]]]]; eexists; (split; [left; auto|exact E]). }
  intros P o ws v c [A B C D]. split; eauto.
Qed.
Lemma rooted_join : forall {A} (w : A -> list string) (l : list A) (ms : list emodel), Forall2 (fun a m => rooted [w a] (vs_of [m]) (cs_of [m])) l ms ->
  ForallOrdPairs (fun a b => split_ (w a) (w b)) l -> rooted (map w l) (vs_of ms) (cs_of ms).
Proof.
  intros A w l ms F. induction F as [|a m l ms H F IH]; intros N; [apply rooted_nil|]. inversion N as [|x y Ha Hl]; subst. cbn [map].
  change (m :: ms) with ([m] ++ ms). rewrite vs_app, cs_app. apply (rooted_app [w a] (map w l)); auto. intros P P' [<-|[]] I. apply in_map_iff in I. destruct I as [b [<- I]].
  rewrite Forall_forall in Ha. apply Ha. exact I.
Qed.

(** ** One effect *)
Definition like_share (w : list string) : Prop :=
  (In ""%string w /\ w <> [""%string]) \/ exists X, X <> [] /\ (w = X ++ ["operation"%string] \/ w = X ++ ["invest"%string]).
Definition effect_data_ok (cx : ctx) (N : nat) (e : effect) : Prop := pfito N (e_min_ph e) /\ pfito N (e_max_ph e).

Lemma key_filter : forall (l : list share) i, NoDup (map sh_key l) -> NoDup (map sh_name (filter (is_inv i) l ++ filter (is_op i) l)).
Proof.
  intros l i N.
  assert (G : forall p : share -> bool, (forall s, p s = true -> fst (sh_key s) = Some i) -> NoDup (map sh_name (filter p l))).
  { intros p H. induction l as [|s l IH]; [constructor|]. cbn [map] in N. inversion N; subst. cbn [filter]. destruct (p s) eqn:Es; auto. cbn [map]. constructor; auto.
    intros J. apply in_map_iff in J. destruct J as [s' [E S']]. apply filter_In in S'. destruct S' as [S' P']. apply H2. apply in_map_iff. exists s'. split; auto.
    apply H in Es, P'. destruct (sh_key s) as [a b] eqn:K, (sh_key s') as [a' b'] eqn:K'. unfold sh_key in K, K'. injection K as _ K. injection K' as _ K'. cbn in Es, P'. congruence. }
  assert (O : forall s, is_op i s = true -> fst (sh_key s) = Some i).
  { intros s H. unfold is_op, sh_key in *. destruct (sh_target s) as [e|e|]; try discriminate. apply Nat.eqb_eq in H. subst. reflexivity. }
  assert (V : forall s, is_inv i s = true -> fst (sh_key s) = Some i).
  { intros s H. unfold is_inv, sh_key in *. destruct (sh_target s) as [e|e|]; try discriminate. apply Nat.eqb_eq in H. subst. reflexivity. }
  rewrite map_app. apply NoDup_app_; auto. intros x X Y. apply in_map_iff in X, Y. destruct X as [s [E S]]. destruct Y as [s' [E' S']]. apply filter_In in S, S'.
  destruct S as [S P1]. destruct S' as [S' P2]. assert (s = s').
  { eapply NoDup_map_eq_; eauto. pose proof (V _ P1). pose proof (O _ P2). unfold sh_key in *. cbn [fst] in *. congruence. }
  subst s'. unfold is_inv, is_op in *. destruct (sh_target s); discriminate.
Qed.
Lemma key_filter_pen : forall (l : list share), NoDup (map sh_key l) -> NoDup (map sh_name (filter is_pen l)).
Proof.
  induction l as [|s l IH]; intros N; [constructor|]. cbn [map] in N. inversion N; subst. cbn [filter]. destruct (is_pen s) eqn:Es; auto. cbn [map]. constructor; auto.
  intros J. apply in_map_iff in J. destruct J as [s' [E S']]. apply filter_In in S'. destruct S' as [S' P']. apply H1. apply in_map_iff. exists s'. split; auto.
  unfold is_pen, sh_key in *. destruct (sh_target s); try discriminate. destruct (sh_target s'); try discriminate. congruence.
Qed.

(** The names of all shares and sums of one effect. *)
Lemma effect_names : forall lab (fix_ : list (list string)) (shs : list share) ns, NoDup fix_ -> (forall w, In w fix_ -> ~ In ""%string w /\ w <> []) ->
  (forall sh, In sh shs -> words (sh_name sh) <> [""%string]) -> NoDup (map sh_name shs) -> (forall w sh, In w fix_ -> In sh shs -> w <> words (sh_name sh)) ->
  Permutation (map words ns) (map (fun w => words lab ++ ""%string :: w) fix_ ++ map (fun sh => words lab ++ ""%string :: words (sh_name sh)) shs) ->
  under [words lab] ns.
Proof.
  intros lab fix_ shs ns N F S NS D P. split.
  - apply (NoDup_map_inv words). eapply Permutation_NoDup; [exact (Permutation_sym P)|]. apply NoDup_app_.
    + apply FinFun.Injective_map_NoDup; auto. intros a b E. apply app_inv_head in E. congruence.
    + rewrite <- (map_map (fun sh => sh_name sh) (fun s => words lab ++ ""%string :: words s)). apply FinFun.Injective_map_NoDup; auto.
      intros a b E. apply app_inv_head in E. apply words_inj. congruence.
    + intros w W W'. apply in_map_iff in W, W'. destruct W as [a [E A]]. destruct W' as [sh [E' H]]. subst w. apply app_inv_head in E'. injection E' as E'. exact (D _ _ A H (eq_sym E')).
  - intros s Hs. apply (in_map words) in Hs. apply (Permutation_in _ P) in Hs. apply in_app_or in Hs. exists (words lab).
    destruct Hs as [Hs|Hs]; apply in_map_iff in Hs; destruct Hs as [a [E _]]; eexists; (split; [left; auto|symmetry; exact E]).
Qed.
Lemma effect_names2 : forall lab (fix_ : list (list string)) (shs : list share) ns, NoDup fix_ -> (forall w, In w fix_ -> ~ In ""%string w /\ w <> []) ->
  NoDup (map sh_name shs) ->
  Permutation (map words ns) (map (fun w => words lab ++ ""%string :: w) fix_ ++ map (fun sh => (words lab ++ ""%string :: words (sh_name sh)) ++ (words lab ++ ""%string :: words (sh_name sh))) shs) ->
  under [words lab] ns.
Proof.
  intros lab fix_ shs ns N F NS P. split.
  - apply (NoDup_map_inv words). eapply Permutation_NoDup; [exact (Permutation_sym P)|]. apply NoDup_app_.
    + apply FinFun.Injective_map_NoDup; auto. intros a b E. apply app_inv_head in E. congruence.
    + rewrite <- (map_map (fun sh => sh_name sh) (fun s => (words lab ++ ""%string :: words s) ++ (words lab ++ ""%string :: words s))). apply FinFun.Injective_map_NoDup; auto.
      intros a b E. set (x := words lab ++ ""%string :: words a) in E. set (y := words lab ++ ""%string :: words b) in E.
      assert (L : length x = length y) by (apply (f_equal (@length string)) in E; rewrite !app_length in E; lia).
      assert (XY : x = y). { clear -E L. apply (f_equal (firstn (length x))) in E. rewrite firstn_app, Nat.sub_diag, firstn_all in E. rewrite L in E. rewrite firstn_app, Nat.sub_diag, firstn_all in E. cbn [firstn] in E. rewrite !app_nil_r in E. exact E. }
      unfold x, y in XY. apply app_inv_head in XY. apply words_inj. congruence.
    + intros w W W'. apply in_map_iff in W, W'. destruct W as [a [E A]]. destruct W' as [sh [E' H]]. subst w. rewrite <- app_assoc in E'. apply app_inv_head in E'. injection E' as E'.
      apply (proj1 (F _ A)). rewrite <- E'. apply in_or_app. right. apply in_or_app. right. left. reflexivity.
  - intros s Hs. apply (in_map words) in Hs. apply (Permutation_in _ P) in Hs. apply in_app_or in Hs. exists (words lab).
    destruct Hs as [Hs|Hs]; apply in_map_iff in Hs; destruct Hs as [a [E _]]; [|rewrite <- app_assoc in E]; eexists; (split; [left; auto|symmetry; exact E]).
Qed.

Lemma like_ne : forall s, like_share (words s) -> s <> ""%string.
Proof. intros s [[_ H]|[X [N [H|H]]]] ->; [apply H; reflexivity| |]; cbn in H; destruct X as [|x [|y X]]; try congruence; discriminate H. Qed.
Lemma words_sname : forall elem sh, sh_name sh <> ""%string -> words (sname elem sh) = words elem ++ ""%string :: words (sh_name sh).
Proof. intros. unfold sname. apply words_full. auto. Qed.

Lemma share_inv_fit : forall cx sh i, share_ok cx sh -> is_inv i sh = true -> single_fit (cx_n cx) sh 1.
Proof. intros cx sh i H I. unfold is_inv, share_ok in *. destruct (sh_target sh); try discriminate. destruct H as [_ [A [B C]]]. right. right. auto. Qed.
Lemma share_op_fit : forall cx sh i, share_ok cx sh -> is_op i sh = true -> single_fit (cx_n cx) sh (cx_n cx) /\ sh_as_sum sh = false.
Proof. intros cx sh i H I. unfold is_op, share_ok in *. destruct (sh_target sh); try discriminate. destruct H as [_ [A C]]. split; auto. right. left. auto. Qed.
Lemma share_pen_fit : forall cx sh, share_ok cx sh -> is_pen sh = true -> single_fit (cx_n cx) sh 1.
Proof. intros cx sh H I. unfold is_pen, share_ok in *. destruct (sh_target sh); try discriminate. destruct H as [A C]. left. auto. Qed.

Lemma map_sname : forall elem shs, (forall sh, In sh shs -> sh_name sh <> ""%string) ->
  map words (map (sname elem) shs) = map (fun sh => words elem ++ ""%string :: words (sh_name sh)) shs
  /\ map words (map (fun sh => vlabel (sname elem sh) (sname elem sh)) shs) = map (fun sh => (words elem ++ ""%string :: words (sh_name sh)) ++ (words elem ++ ""%string :: words (sh_name sh))) shs.
Proof.
  intros elem shs H. rewrite !map_map. split; apply map_ext_in; intros sh Hs; [apply words_sname; auto|]. unfold vlabel. rewrite words_us, words_sname; auto.
Qed.
Lemma map_alloc : forall elem label xs, label <> ""%string -> map words (map (vlabel (model_full elem (Some label))) xs) = map (fun w => words elem ++ ""%string :: w) (map (fun x => words label ++ words x) xs).
Proof. intros. rewrite !map_map. apply map_ext. intros x. unfold vlabel. rewrite words_us, words_full by auto. rewrite <- app_assoc. reflexivity. Qed.

Lemma perm_6 : forall {A} (a b c a' b' c' : list A), Permutation ((a ++ a') ++ (b ++ b') ++ (c ++ c')) ((a ++ b ++ c) ++ (a' ++ b' ++ c')).
Proof.
  intros. rewrite <- !app_assoc. apply Permutation_app_head. rewrite (Permutation_app_comm a' (b ++ b' ++ c ++ c')). rewrite <- !app_assoc. apply Permutation_app_head.
  rewrite (Permutation_app_comm b' (c ++ c' ++ a')). rewrite <- !app_assoc. apply Permutation_app_head. rewrite (Permutation_app_comm c' (a' ++ b')). rewrite <- app_assoc. reflexivity.
Qed.

Lemma effect_ok : forall cx N tre shs e, ready cx N -> tre (e_label e) = true -> effect_data_ok cx N e -> NoDup (map sh_key shs) ->
  (forall sh, In sh shs -> share_ok cx sh /\ like_share (words (sh_name sh))) ->
  exists m, effect_model cx tre shs e = Ok m /\ rooted [words (e_label e)] (vs_of [m]) (cs_of [m]).
Proof.
  intros cx N tre shs e R T [D1 D2] ND SH. unfold effect_model. rewrite T. set (lab := e_label e). pose proof (rd_n _ _ R) as N2. pose proof (rd_dt _ _ R) as DT.
  destruct (act_opt_ok _ _ _ R D1) as [a [-> Fa]]. cbn [bind]. destruct (act_opt_ok _ _ _ R D2) as [b [-> Fb]]. cbn [bind].
  pose proof (key_filter shs (e_id e) ND) as NK. set (si := filter (is_inv (e_id e)) shs) in *. set (so := filter (is_op (e_id e)) shs) in *.
  assert (NI : NoDup (map sh_name si) /\ NoDup (map sh_name so)).
  { rewrite map_app in NK. clear -NK. induction (map sh_name si) as [|x l IH]; cbn [app] in NK; [split; [constructor|auto]|]. inversion NK; subst. destruct (IH H2). split; auto. constructor; auto.
    intros X. apply H1. apply in_or_app; auto. }
  destruct NI as [NI NO].
  destruct (share_alloc_ok cx lab "invest" false (e_min_inv e) (e_max_inv e) None None si 1) as [inv [Ei Fi]]; auto; try exact I.
  { intros sh Hs. unfold si in Hs. apply filter_In in Hs. split; [|discriminate]. eapply share_inv_fit; [apply SH; apply Hs|apply Hs]. }
  rewrite Ei. cbn [bind].
  destruct (share_alloc_ok cx lab "operation" true (e_min_op e) (e_max_op e) a b so (cx_n cx)) as [op [Eo Fo]]; auto; try discriminate.
  { intros sh Hs. unfold so in Hs. apply filter_In in Hs. destruct (share_op_fit cx sh (e_id e)) as [A B]; [apply SH; apply Hs|apply Hs|]. auto. }
  rewrite Eo. cbn [bind].
  set (sa := [mkShare TPen "operation" (Some (sa_sum op)) (NS 1) false; mkShare TPen "invest" (Some (sa_sum inv)) (NS 1) false]).
  destruct (share_alloc_ok cx lab "all" false (e_min_tot e) (e_max_tot e) None None sa 1) as [al [Ea Fl]]; auto; try exact I.
  { intros sh [<-|[<-|[]]]; (split; [|discriminate]); right; right; cbn; repeat split; auto; [apply Fo|apply Fi]. }
  { cbn. apply nodup_str_NoDup. reflexivity. }
  rewrite Ea. cbn [bind].
  unfold mk_em. cbn [map nodup_str guard bind]. eexists. split; [reflexivity|].
  assert (IN : forall sh, In sh (si ++ so) -> share_ok cx sh /\ like_share (words (sh_name sh))).
  { intros sh H. apply in_app_or in H. apply SH. unfold si, so in H. destruct H as [H|H]; apply filter_In in H; apply H. }
  assert (NE : forall sh, In sh (si ++ so ++ sa) -> sh_name sh <> ""%string).
  { intros sh H. rewrite app_assoc in H. apply in_app_or in H. destruct H as [H|H]; [apply like_ne, IN; auto|]. destruct H as [<-|[<-|[]]]; discriminate. }
  assert (NA : NoDup (map sh_name (si ++ so ++ sa))).
  { rewrite app_assoc, map_app. apply NoDup_app_; [exact NK|cbn; apply nodup_str_NoDup; reflexivity|]. intros x X Y. apply in_map_iff in X. destruct X as [sh [E H]].
    destruct (IN _ H) as [_ L]. rewrite E in L. cbn in Y. destruct Y as [<-|[<-|[]]]; (destruct L as [[L _]|[X [Z [L|L]]]]; [cbn in L; intuition discriminate|..]);
      cbn in L; (destruct X as [|x0 [|y0 X]]; [congruence|discriminate L|discriminate L]). }
  assert (NEi : forall sh, In sh si -> sh_name sh <> ""%string) by (intros; apply NE; apply in_or_app; auto).
  assert (NEo : forall sh, In sh so -> sh_name sh <> ""%string) by (intros; apply NE; apply in_or_app; right; apply in_or_app; auto).
  assert (NEa : forall sh, In sh sa -> sh_name sh <> ""%string) by (intros; apply NE; apply in_or_app; right; apply in_or_app; auto).
  destruct Fi as [_ Vi Ci Vi' Ci'], Fo as [_ Vo Co Vo' Co'], Fl as [_ Va Ca Va' Ca'].
  rewrite vs_node, cs_node. cbn [app]. change [sa_tree inv; sa_tree op; sa_tree al] with ([sa_tree inv] ++ [sa_tree op] ++ [sa_tree al]). rewrite !vs_app, !cs_app.
  split.
  - eapply (effect_names lab [["invest"; "invest"; "sum"]; ["operation"; "operation"; "sum"]; ["operation"; "operation"; "sum"; "TS"]; ["all"; "all"; "sum"]]%string (si ++ so ++ sa)).
    + repeat (constructor; [cbn; intuition discriminate|]). constructor.
    + intros w W. cbn in W. destruct W as [<-|[<-|[<-|[<-|[]]]]]; cbn; split; intuition discriminate.
    + intros sh H E. apply (NE _ H). apply words_inj. exact E.
    + exact NA.
    + intros w sh W H E. rewrite app_assoc in H. apply in_app_or in H. destruct H as [H|H].
      * destruct (IN _ H) as [_ L]. rewrite <- E in L. destruct L as [[L _]|[X [_ [L|L]]]];
          cbn in W; destruct W as [<-|[<-|[<-|[<-|[]]]]]; try (cbn in L; intuition discriminate);
          apply (f_equal (@rev string)) in L; rewrite rev_app_distr in L; discriminate L.
      * destruct H as [<-|[<-|[]]]; cbn in W; destruct W as [<-|[<-|[<-|[<-|[]]]]]; discriminate E.
    + rewrite !map_app, Vi, Vo, Va. rewrite !map_app. rewrite !map_alloc by discriminate.
      rewrite (proj1 (map_sname lab si NEi)), (proj1 (map_sname lab so NEo)), (proj1 (map_sname lab sa NEa)).
      rewrite perm_6. reflexivity.
  - eapply (effect_names2 lab [["invest"; "invest"; "sum"]; ["operation"; "operation"; "sum"]; ["operation"; "operation"; "time"; "series"]; ["all"; "all"; "sum"]]%string (si ++ so ++ sa)).
    + repeat (constructor; [cbn; intuition discriminate|]). constructor.
    + intros w W. cbn in W. destruct W as [<-|[<-|[<-|[<-|[]]]]]; cbn; split; intuition discriminate.
    + exact NA.
    + rewrite !map_app, Ci, Co, Ca. rewrite !map_app. rewrite !map_alloc by discriminate.
      rewrite (proj2 (map_sname lab si NEi)), (proj2 (map_sname lab so NEo)), (proj2 (map_sname lab sa NEa)).
      rewrite perm_6. reflexivity.
  - repeat (apply Forall_app; split; auto).
  - repeat (apply Forall_app; split; auto).
Qed.

(** ** The penalty *)
Lemma penalty_ok : forall cx N shs, ready cx N -> NoDup (map sh_key shs) -> (forall sh, In sh shs -> share_ok cx sh /\ like_share (words (sh_name sh))) ->
  exists o, share_alloc cx "Effects" "penalty" false None None None None (filter is_pen shs) = Ok o /\ v_len (sa_sum o) = 1%nat
    /\ rooted [["Effects"%string]] (vs_of [sa_tree o]) (cs_of [sa_tree o]).
Proof.
  intros cx N shs R ND SH. pose proof (rd_n _ _ R) as N2. pose proof (rd_dt _ _ R) as DT. pose proof (key_filter_pen shs ND) as NK. set (sp := filter is_pen shs) in *.
  destruct (share_alloc_ok cx "Effects" "penalty" false None None None None sp 1) as [o [E F]]; auto; try exact I.
  { intros sh Hs. unfold sp in Hs. apply filter_In in Hs. split; [|discriminate]. eapply share_pen_fit; [apply SH; apply Hs|apply Hs]. }
  exists o. split; [exact E|]. split; [apply F|].
  assert (IN : forall sh, In sh sp -> like_share (words (sh_name sh))) by (intros sh H; apply filter_In in H; apply SH, H).
  assert (NE : forall sh, In sh sp -> sh_name sh <> ""%string) by (intros; apply like_ne; auto).
  destruct F as [_ V C V' C']. change ["Effects"%string] with (words "Effects"). split; auto.
  - eapply (effect_names "Effects" [["penalty"; "penalty"; "sum"]]%string sp); auto.
    + repeat (constructor; [cbn; intuition discriminate|]). constructor.
    + intros w [<-|[]]. cbn; split; intuition discriminate.
    + intros sh H E'. apply (NE _ H). apply words_inj. exact E'.
    + intros w sh [<-|[]] H E'. pose proof (IN _ H) as L. rewrite <- E' in L. destruct L as [[L _]|[X [_ [L|L]]]]; try (cbn in L; intuition discriminate);
          apply (f_equal (@rev string)) in L; rewrite rev_app_distr in L; discriminate L.
    + rewrite V, map_app. rewrite map_alloc by discriminate. rewrite (proj1 (map_sname _ _ NE)). reflexivity.
  - eapply (effect_names2 "Effects" [["penalty"; "penalty"; "sum"]]%string sp); auto.
    + repeat (constructor; [cbn; intuition discriminate|]). constructor.
    + intros w [<-|[]]. cbn; split; intuition discriminate.
    + rewrite C, map_app. rewrite map_alloc by discriminate. rewrite (proj2 (map_sname _ _ NE)). reflexivity.
Qed.

(** ** Shares between effects *)
Record links_ok (cx : ctx) (N : nat) (e : effect) : Prop := {
  lk_op : NoDup (map fst (e_share_op e)) /\ forall k p, In (k, p) (e_share_op e) -> registered cx k = true /\ pfit N p;
  lk_inv : NoDup (map fst (e_share_inv e)) /\ forall k a, In (k, a) (e_share_inv e) -> registered cx k = true /\ is_scalar a = true
}.
Definition between_fine (cx : ctx) (e : effect) (w : string) (shs : list share) : Prop :=
  NoDup (map sh_key shs) /\ forall sh, In sh shs -> share_ok cx sh /\ words (sh_name sh) = words (e_label e) ++ [w].
Lemma nodup_keys : forall (l : list nat) (shs : list share) nm, map sh_key shs = map (fun k => (Some k, nm)) l -> NoDup l -> NoDup (map sh_key shs).
Proof. intros l shs nm E N. rewrite E. apply FinFun.Injective_map_NoDup; auto. intros a b H. congruence. Qed.
Lemma between_op_ok : forall cx N tre e, ready cx N -> tre (e_label e) = true -> effect_data_ok cx N e -> links_ok cx N e ->
  exists shs, between_op cx tre e = Ok shs /\ between_fine cx e "operation" shs.
Proof.
  intros cx N tre e R T [D1 D2] [[ND LK] _]. unfold between_op. rewrite T. pose proof (rd_n _ _ R) as N2. pose proof (rd_dt _ _ R) as DT.
  assert (V : exists v, op_ts_var cx true e = Ok v /\ v_len v = cx_n cx).
  { unfold op_ts_var. destruct (act_opt_ok _ _ _ R D1) as [a [-> Fa]]. cbn [bind]. destruct (act_opt_ok _ _ _ R D2) as [b [-> Fb]]. cbn [bind]. unfold alloc_ts.
    assert (OM : forall a, fito (cx_n cx) a -> exists r, optM (fun q => nmul q (NV (cx_dt cx))) a = Ok r /\ fito (cx_n cx) r).
    { intros [x|] F; cbn [optM]; [|exists None; auto]. destruct (nmul_fit (cx_n cx) x (NV (cx_dt cx)) F DT) as [r [-> Fr]]. cbn. exists (Some r). auto. }
    destruct (OM _ Fa) as [lb [-> G1]]. cbn [bind]. destruct (OM _ Fb) as [ub [-> G2]]. cbn [bind].
    destruct (create_long (model_full (e_label e) (Some "operation"%string)) (cat ["operation"; "_sum_TS"]) (cx_n cx) false lb ub None) as [v [Ev [Iv _]]]; [lia|auto|auto|]. exists v. split; auto. apply Iv. }
  destruct V as [v [EV LV]].
  destruct (mapM_ok (fun kp : nat * param =>
          _ <- guard (registered cx (fst kp)) KeyError ;;
          v <- op_ts_var cx true e ;;
          a <- act cx true (snd kp) ;;
          Ok (mkShare (TOp (fst kp)) (cat [e_label e; "_operation"]) (Some v) a false))
     (fun kp sh => registered cx (fst kp) = true /\ sh_key sh = (Some (fst kp), cat [e_label e; "_operation"]) /\ share_ok cx sh) (e_share_op e)) as [shs [E F]].
  { intros [k p] H. destruct (LK _ _ H) as [RG PF]. cbn [fst snd]. rewrite RG, EV. cbn [guard bind]. destruct (act_ok _ _ _ R PF) as [a [-> Fa]]. cbn [bind]. eexists. split; [reflexivity|].
    split; auto. split; [reflexivity|]. cbn. split; [exact RG|]. split; auto. exists v. auto. }
  exists shs. split; [exact E|]. split.
  - apply (nodup_keys (map fst (e_share_op e)) _ (cat [e_label e; "_operation"])); auto. rewrite map_map. clear -F. induction F as [|a b l m [_ [H _]] F IH]; auto. cbn [map]. rewrite H, IH. reflexivity.
  - apply (Forall2_right _ _ _ _ F). intros a b [_ [K S]]. split; auto. apply (f_equal snd) in K. unfold sh_key in K. cbn [snd] in K. rewrite K. change (cat [e_label e; "_operation"]) with (cat [e_label e; "_"; "operation"]). apply words_us.
Qed.
Lemma between_inv_ok : forall cx N e, links_ok cx N e -> exists shs, between_inv cx e = Ok shs /\ between_fine cx e "invest" shs.
Proof.
  intros cx N e [_ [ND LK]]. unfold between_inv.
  assert (V : exists v, inv_sum_var e = Ok v /\ v_len v = 1%nat).
  { unfold inv_sum_var, alloc_sum. destruct (create_one (model_full (e_label e) (Some "invest"%string)) (cat ["invest"; "_sum"]) false (opt_num (e_min_inv e)) (opt_num (e_max_inv e))) as [v [Ev [Iv _]]];
      [destruct (e_min_inv e); exact I|destruct (e_max_inv e); exact I|]. exists v. split; auto. apply Iv. }
  destruct V as [v [EV LV]].
  destruct (mapM_ok (fun kp : nat * numeric =>
          _ <- guard (registered cx (fst kp)) KeyError ;;
          v <- inv_sum_var e ;;
          Ok (mkShare (TInv (fst kp)) (cat [e_label e; "_invest"]) (Some v) (snd kp) false))
     (fun kp sh => registered cx (fst kp) = true /\ sh_key sh = (Some (fst kp), cat [e_label e; "_invest"]) /\ share_ok cx sh) (e_share_inv e)) as [shs [E F]].
  { intros [k a] H. destruct (LK _ _ H) as [RG SC]. cbn [fst snd]. rewrite RG, EV. cbn [guard bind]. eexists. split; [reflexivity|].
    split; auto. split; [reflexivity|]. cbn. split; [exact RG|]. auto. }
  exists shs. split; [exact E|]. split.
  - apply (nodup_keys (map fst (e_share_inv e)) _ (cat [e_label e; "_invest"])); auto. rewrite map_map. clear -F. induction F as [|a b l m [_ [H _]] F IH]; auto. cbn [map]. rewrite H, IH. reflexivity.
  - apply (Forall2_right _ _ _ _ F). intros a b [_ [K S]]. split; auto. apply (f_equal snd) in K. unfold sh_key in K. cbn [snd] in K. rewrite K. change (cat [e_label e; "_invest"]) with (cat [e_label e; "_"; "invest"]). apply words_us.
Qed.
Lemma betweens : forall cx w es bs, Forall2 (fun e shs => between_fine cx e w shs) es bs -> NoDup (map e_label es) ->
  NoDup (map sh_key (List.concat bs)) /\ forall sh, In sh (List.concat bs) -> share_ok cx sh /\ exists e, In e es /\ words (sh_name sh) = words (e_label e) ++ [w].
Proof.
  intros cx w es bs F. induction F as [|e b es bs [B1 B2] F IH]; intros N; cbn [List.concat]; [split; [constructor|intros ? []]|]. cbn [map] in N. inversion N; subst. destruct (IH H2) as [I1 I2]. split.
  - rewrite map_app. apply NoDup_app_; auto. intros k K K'. apply in_map_iff in K, K'. destruct K as [s [E S]]. destruct K' as [s' [E' S']].
    destruct (B2 _ S) as [_ W]. destruct (I2 _ S') as [_ [e' [He W']]]. subst k. unfold sh_key in E'. injection E' as _ E'. rewrite E', W in W'. apply app_inj_tail in W'. destruct W' as [W' _].
    apply words_inj in W'. apply H1. rewrite W'. apply in_map. exact He.
  - intros sh Hs. apply in_app_or in Hs. destruct Hs as [Hs|Hs].
    + destruct (B2 _ Hs). split; auto. exists e. split; [left; auto|auto].
    + destruct (I2 _ Hs) as [S [e' [He W]]]. split; auto. exists e'. split; [right; auto|auto].
Qed.

(** ** All effects *)
Record effects_ok (cx : ctx) (N : nat) : Prop := {
  eo_effs : effs_ok cx;
  eo_data : forall e, In e (cx_effects cx) -> effect_data_ok cx N e /\ links_ok cx N e;
  eo_tidy : forall e, In e (cx_effects cx) -> tidy (e_label e);
  eo_split : ForallOrdPairs (fun a b => split_ (words (e_label a)) (words (e_label b))) (cx_effects cx);
  eo_root : forall e, In e (cx_effects cx) -> split_ (words (e_label e)) ["Effects"%string];
  eo_obj : exists e, objective_effect (cx_effects cx) = Some e
}.
Lemma effects_total_ : forall cx N tre shs, ready cx N -> effects_ok cx N -> (forall e, In e (cx_effects cx) -> tre (e_label e) = true) ->
  NoDup (map sh_key shs) -> (forall sh, In sh shs -> share_ok cx sh /\ In ""%string (words (sh_name sh)) /\ words (sh_name sh) <> [""%string]) ->
  exists m obj, effects_model cx tre shs = Ok (m, obj) /\ rooted (map (fun e => words (e_label e)) (cx_effects cx) ++ [["Effects"%string]]) (vs_of [m]) (cs_of [m])
    /\ exists t, translate_objective obj = Ok t.
Proof.
  intros cx N tre shs R [[EF1 EF2] ED ET ES ER [oe EO]] TR NS_ IS. unfold effects_model. pose proof (rd_n _ _ R) as N2.
  destruct (mapM_ok (between_op cx tre) (fun e s => between_fine cx e "operation" s) (cx_effects cx)) as [bo [Eb Fb]].
  { intros e He. destruct (ED _ He). apply (between_op_ok cx N); auto. }
  rewrite Eb. cbn [bind].
  destruct (mapM_ok (between_inv cx) (fun e s => between_fine cx e "invest" s) (cx_effects cx)) as [bi [Ei Fi]].
  { intros e He. destruct (ED _ He). apply (between_inv_ok cx N); auto. }
  rewrite Ei. cbn [bind].
  destruct (betweens _ _ _ _ Fb EF2) as [NB IB]. destruct (betweens _ _ _ _ Fi EF2) as [NI II].
  set (all := List.concat bo ++ List.concat bi ++ shs).
  assert (NSep : forall s s', In s (List.concat bo ++ List.concat bi) -> In s' shs -> sh_name s <> sh_name s').
  { intros s s' H H' E. destruct (IS _ H') as [_ [W _]]. apply in_app_or in H. assert (Z : In ""%string (words (sh_name s))) by (rewrite E; exact W).
    destruct H as [H|H]; [destruct (IB _ H) as [_ [e [He W']]]|destruct (II _ H) as [_ [e [He W']]]]; rewrite W' in Z; apply in_app_or in Z; (destruct Z as [Z|[Z|[]]]; [exact (ET _ He Z)|discriminate Z]). }
  assert (NK : NoDup (map sh_key all)).
  { unfold all. rewrite app_assoc, map_app. apply NoDup_app_; auto.
    - rewrite map_app. apply NoDup_app_; auto. intros k K K'. apply in_map_iff in K, K'. destruct K as [s [E S]]. destruct K' as [s' [E' S']].
      destruct (IB _ S) as [_ [e [_ W]]]. destruct (II _ S') as [_ [e' [_ W']]]. subst k. unfold sh_key in E'. injection E' as _ E'. rewrite E', W in W'. apply app_inj_tail in W'. destruct W' as [_ W']. discriminate W'.
    - intros k K K'. apply in_map_iff in K, K'. destruct K as [s [E S]]. destruct K' as [s' [E' S']]. apply (NSep _ _ S S'). subst k. unfold sh_key in E'. congruence. }
  assert (LK : forall sh, In sh all -> share_ok cx sh /\ like_share (words (sh_name sh))).
  { intros sh H. unfold all in H. apply in_app_or in H. destruct H as [H|H]; [|apply in_app_or in H; destruct H as [H|H]].
    - destruct (IB _ H) as [S [e [_ W]]]. split; auto. right. exists (words (e_label e)). split; [apply words_ne|auto].
    - destruct (II _ H) as [S [e [_ W]]]. split; auto. right. exists (words (e_label e)). split; [apply words_ne|auto].
    - destruct (IS _ H) as [S [W1 W2]]. split; auto. left. auto. }
  destruct (mapM_ok (effect_model cx tre all) (fun e m => rooted [words (e_label e)] (vs_of [m]) (cs_of [m])) (cx_effects cx)) as [ms [Em Fm]].
  { intros e He. destruct (ED _ He). eapply effect_ok; eauto. }
  rewrite Em. cbn [bind].
  destruct (penalty_ok cx N all R NK LK) as [pen [Ep [Lp Rp]]]. rewrite Ep. cbn [bind]. rewrite EO. cbn [of_option bind].
  assert (VS : forall l tmin tmax, exists v, alloc_sum (e_label oe) l tmin tmax = Ok v /\ v_len v = 1%nat).
  { intros l tmin tmax. unfold alloc_sum. destruct (create_one (model_full (e_label oe) (Some l)) (cat [l; "_sum"]) false (opt_num tmin) (opt_num tmax)) as [v [Ev [Iv _]]];
      [destruct tmin; exact I|destruct tmax; exact I|]. exists v. split; auto. apply Iv. }
  unfold op_sum_var, inv_sum_var. destruct (VS "operation"%string (e_min_op oe) (e_max_op oe)) as [vo [-> Lo]]. cbn [bind]. destruct (VS "invest"%string (e_min_inv oe) (e_max_inv oe)) as [vi [-> Li]]. cbn [bind].
  destruct (build_fit 1 KObj "OBJECTIVE" "OBJECTIVE" [AddS vo (NS 1) None false; AddS vi (NS 1) None false; AddS (sa_sum pen) (NS 1) None false]) as [obj [Eo [Co [_ [Ko _]]]]]; [lia| |].
  { repeat (constructor; [apply fit_all; [assumption|exact I]|]). constructor. }
  rewrite Eo. cbn [bind]. unfold mk_em. cbn [map nodup_str guard bind]. eexists _, obj. split; [reflexivity|]. split.
  - rewrite vs_node, cs_node. cbn [app]. rewrite vs_app, cs_app. apply rooted_app; auto.
    + apply (rooted_join (fun e => words (e_label e)) (cx_effects cx) ms); auto.
    + intros P P' HP [<-|[]]. apply in_map_iff in HP. destruct HP as [e [<- He]]. apply ER. exact He.
  - unfold translate_objective. rewrite Ko. cbn [guard bind]. destruct Co as [CL CK _ CT]. assert (CL1 : c_len obj = 1%nat) by (destruct CL; auto). rewrite CL1. cbn [Nat.eqb guard bind].
    unfold lhs_terms. destruct (mapM_total (fun s => summand_terms s 0) (c_summands obj)) as [r ->]; [|cbn; eauto]. intros s Hs. destruct (CT _ Hs) as [SL X]. apply X. left. destruct SL as [SL|SL]; [exact SL|rewrite SL; exact CL1].
Qed.
Lemma sgood_names : forall cx Es shs, sgood cx Es shs -> (forall E, In E Es -> E <> []) ->
  forall sh, In sh shs -> share_ok cx sh /\ In ""%string (words (sh_name sh)) /\ words (sh_name sh) <> [""%string].
Proof.
  intros cx Es shs [_ IS] EN sh H. destruct (IS _ H) as [S [X [x [HX [W [Fx _]]]]]]. split; auto. rewrite W. split; [apply in_or_app; right; left; reflexivity|]. specialize (EN _ HX). destruct X; [congruence|]. destruct X; discriminate.
Qed.
Lemma effects_total : forall cx N tre shs Es, ready cx N -> effects_ok cx N -> (forall e, In e (cx_effects cx) -> tre (e_label e) = true) ->
  sgood cx Es shs -> (forall E, In E Es -> E <> []) ->
  exists m obj, effects_model cx tre shs = Ok (m, obj) /\ rooted (map (fun e => words (e_label e)) (cx_effects cx) ++ [["Effects"%string]]) (vs_of [m]) (cs_of [m])
    /\ exists t, translate_objective obj = Ok t.
Proof. intros cx N tre shs Es R EO TR SG EN. apply (effects_total_ cx N); auto; [apply SG|eapply sgood_names; eauto]. Qed.

(** ** Buses *)
Lemma bus_ok : forall cx N b ins outs, ready cx N -> pfito N (b_penalty b) -> (forall v, In v (ins ++ outs) -> v_len v = cx_n cx) -> ins ++ outs <> [] ->
  exists m shs, bus_model cx b ins outs = Ok (m, shs) /\ rooted [words (b_lab b)] (vs_of [m]) (cs_of [m]) /\ sgood cx [words (b_lab b)] shs.
Proof.
  intros cx N b ins outs R PF V NE. unfold bus_model. pose proof (rd_n _ _ R) as N2. pose proof (rd_dt _ _ R) as DT.
  assert (FC : Forall (call_fit (cx_n cx)) (map (fun v => AddS v (NS 1) None false) ins ++ map (fun v => AddS v (NS (-1)) None false) outs)).
  { apply Forall_app. split; apply Forall_In; intros a Ha; apply in_map_iff in Ha; destruct Ha as [v [<- Hv]]; (apply fit_all; [apply V; apply in_or_app; auto|exact I]). }
  destruct (b_penalty b) as [p|].
  - destruct (act_ok _ _ _ R PF) as [a [-> Fa]]. cbn [bind]. destruct (nmul_fit (cx_n cx) (NV (cx_dt cx)) a DT Fa) as [pen [-> Fp]]. cbn [bind].
    destruct (create_long (b_lab b) "excess_input" (cx_n cx) false (Some (NS 0)) None None) as [ei [-> [Ii _]]]; [lia|exact I|exact I|]. cbn [bind].
    destruct (create_long (b_lab b) "excess_output" (cx_n cx) false (Some (NS 0)) None None) as [eo [-> [Io _]]]; [lia|exact I|exact I|]. cbn [bind].
    next_eq' (cx_n cx). { apply Forall_app. split; [exact FC|calls']. }
    assert (G : good (words (b_lab b)) true [] [ei; eo] [eq]).
    { apply good_own with (xs := ["excess_input"; "excess_output"]%string) (ys := ["busBalance"%string]).
      - cbn [map]. rewrite (iv_lab _ _ _ Ii), (iv_lab _ _ _ Io). reflexivity.
      - cbn [map]. rewrite El. reflexivity.
      - apply nodup_str_NoDup. reflexivity.
      - apply nodup_str_NoDup. reflexivity.
      - reflexivity.
      - constructor; [apply Ii|]. constructor; [apply Io|constructor].
      - constructor; [exact Eo|constructor]. }
    rewrite (mk_em_ok _ _ _ _ _ _ _ _ G). cbn [bind]. eexists _, _. split; [reflexivity|]. rewrite vs_node, cs_node. cbn [vs_of cs_of flat_map]. rewrite !app_nil_r. split; [eapply rooted_good; eauto|].
    apply (sgood_elem cx (b_lab b) ["excess_input"; "excess_output"]%string).
    + split.
      * cbn [map]. constructor; [|constructor; [intros []|constructor]]. intros [E|[]]. apply (f_equal snd) in E. unfold sh_key in E. cbn [sh_target sh_name snd] in E. change (cat [b_lab b; "__excess_output"]) with (cat [b_lab b; "__"; "excess_output"]) in E.
        change (cat [b_lab b; "__excess_input"]) with (cat [b_lab b; "__"; "excess_input"]) in E. apply cat_inj in E. discriminate E.
      * intros sh [<-|[<-|[]]]; (split; [cbn; split; auto; eexists; split; [reflexivity|]; split; [first [rewrite (iv_len _ _ _ Ii)|rewrite (iv_len _ _ _ Io)]; lia|first [rewrite (iv_len _ _ _ Ii)|rewrite (iv_len _ _ _ Io)]; exact Fp]|]); [exists "excess_input"%string|exists "excess_output"%string]; cbn; auto.
    + repeat constructor; unfold tidy; cbn; intuition discriminate.
  - next_eq' (cx_n cx). { exact FC. } { destruct ins; [destruct outs; [exfalso; apply NE; reflexivity|reflexivity]|reflexivity]. }
    assert (G : good (words (b_lab b)) true [] [] [eq]).
    { apply good_own with (xs := []) (ys := ["busBalance"%string]); try reflexivity; try constructor; auto; try constructor; auto. cbn [map]. rewrite El. reflexivity. }
    rewrite (mk_em_ok _ _ _ _ _ _ _ _ G). cbn [bind]. eexists _, _. split; [reflexivity|]. rewrite vs_node, cs_node. cbn [vs_of cs_of flat_map app]. split; [eapply rooted_good; eauto|]. apply sgood_nil.
Qed.
