(** Facts about Files.v: reading what was written, texts that break off, and which files a save touches. *)
From Verif Require Import Base BaseFacts System Tree Values PropsValues Files.
Require Import Lia.

(** ** Reading back *)

Definition then_read (o : option reader) (rest : list tok) : option reader :=
  match o with Some r => read_toks r rest | None => None end.

Lemma read_app : forall l r m, read_toks r (l ++ m) = then_read (read_toks r l) m.
Proof. induction l as [| t l IH]; intros r m; cbn [app read_toks]; [reflexivity |]. destruct (read_tok r t); [apply IH | reflexivity]. Qed.

Definition back (v : pyval) (s : list frame) : option reader :=
  match json_rt v with Ok v' => give v' s | Err _ => None end.

Lemma read_list : forall l x acc s b rest, (forall v, In v (x :: l) -> forall b s rest, read_toks (mkReader (MVal b) s None) (dump v ++ rest) = then_read (back v s) rest) ->
  read_toks (mkReader (MVal b) (FArr acc :: s) None) (sep (map dump (x :: l)) ++ TRight :: rest) =
  match mapM json_rt (x :: l) with Ok r => then_read (give (VList (rev acc ++ r)) s) rest | Err _ => None end.
Proof.
  induction l as [| y l IH]; intros x acc s b rest H.
  - cbn [map sep]. rewrite app_nil_r. rewrite (H x (or_introl eq_refl)). unfold back. cbn [mapM bind].
    destruct (json_rt x) as [v' | e]; [| reflexivity]. cbn [bind give then_read read_toks read_tok rd_mode rd_open rev]. reflexivity.
  - change (sep (map dump (x :: y :: l))) with (dump x ++ TComma :: sep (map dump (y :: l))). rewrite <- app_assoc. cbn [app].
    rewrite (H x (or_introl eq_refl)). unfold back. cbn [mapM]. destruct (json_rt x) as [v' | e]; [| reflexivity].
    cbn [bind give then_read read_toks read_tok rd_mode rd_open]. rewrite IH by (intros v Hv; apply H; right; exact Hv).
    change (mapM json_rt (y :: l)) with (bind (json_rt y) (fun b => bind (mapM json_rt l) (fun r => Ok (b :: r)))).
    destruct (bind (json_rt y) _) as [r | e]; [| reflexivity]. cbn [bind rev]. rewrite <- app_assoc. reflexivity.
Qed.

Definition dump_item (kv : pyval * pyval) : list tok := TAtom (fst kv) :: TColon :: dump (snd kv).
Definition rt_item (acc : list (pyval * pyval)) (kv : pyval * pyval) : res (list (pyval * pyval)) :=
  a <- json_rt (snd kv) ;; _ <- guard (str_key (fst kv)) TypeError ;; Ok (put (fst kv) a acc).

Lemma dict_of_snoc : forall k v acc, dict_of (rev ((k, v) :: acc)) = put k v (dict_of (rev acc)).
Proof. intros. unfold dict_of. cbn [rev]. rewrite fold_left_app. reflexivity. Qed.

Lemma read_key : forall b acc s k v rest, read_toks (mkReader (MKey b) (FObj acc None :: s) None) (dump_item (k, v) ++ rest) =
  if str_key k then read_toks (mkReader (MVal false) (FObj acc (Some k) :: s) None) (dump v ++ rest) else None.
Proof.
  intros b acc s k v rest. unfold dump_item. cbn [app fst snd]. cbn [read_toks]. unfold read_tok at 1. cbn [rd_mode rd_open].
  destruct b; destruct acc; destruct (str_key k); reflexivity.
Qed.

Lemma read_dict : forall d x acc s b rest,
  (forall kv, In kv (x :: d) -> forall b s rest, read_toks (mkReader (MVal b) s None) (dump (snd kv) ++ rest) = then_read (back (snd kv) s) rest) ->
  read_toks (mkReader (MKey b) (FObj acc None :: s) None) (sep (map dump_item (x :: d)) ++ TClose :: rest) =
  match foldM rt_item (x :: d) (dict_of (rev acc)) with Ok r => then_read (give (VDict r) s) rest | Err _ => None end.
Proof.
  induction d as [| y d IH]; intros [k v] acc s b rest H.
  - cbn [map sep]. rewrite app_nil_r. rewrite read_key.
    cbn [foldM]. unfold rt_item. cbn [fst snd]. destruct (str_key k) eqn:K.
    + pose proof (H (k, v) (or_introl eq_refl)) as Hv. cbn [snd] in Hv. rewrite Hv. unfold back.
      destruct (json_rt v) as [v' | e]; [| reflexivity]. cbn [bind guard give then_read read_toks read_tok rd_mode rd_open].
      rewrite dict_of_snoc. reflexivity.
    + destruct (json_rt v); destruct b; reflexivity.
  - change (sep (map dump_item ((k, v) :: y :: d))) with (dump_item (k, v) ++ TComma :: sep (map dump_item (y :: d))).
    rewrite <- app_assoc. rewrite read_key. change ((TComma :: sep (map dump_item (y :: d))) ++ TClose :: rest) with (TComma :: (sep (map dump_item (y :: d)) ++ TClose :: rest)).
    change (foldM rt_item ((k, v) :: y :: d) (dict_of (rev acc))) with (bind (rt_item (dict_of (rev acc)) (k, v)) (fun a => foldM rt_item (y :: d) a)).
    unfold rt_item at 1. cbn [fst snd]. destruct (str_key k) eqn:K.
    + pose proof (H (k, v) (or_introl eq_refl)) as Hv. cbn [snd] in Hv. rewrite Hv. unfold back.
      destruct (json_rt v) as [v' | e]; [| reflexivity]. cbn [bind guard give then_read read_toks read_tok rd_mode rd_open].
      rewrite IH by (intros kv Hk; apply H; right; exact Hk). rewrite dict_of_snoc. reflexivity.
    + destruct (json_rt v); destruct b; reflexivity.
Qed.

Lemma read_dump : forall v, json v -> forall b s rest, read_toks (mkReader (MVal b) s None) (dump v ++ rest) = then_read (back v s) rest.
Proof.
  induction v using value_ind2; intros J b0 s0 rest; inversion J; subst;
    try (destruct b0; destruct s0 as [| [[|] | ? ?] ?]; reflexivity).
  - rewrite Forall_forall in H. destruct l as [| x l]; [destruct b0; destruct s0 as [| [[|] | ? ?] ?]; reflexivity |].
    change (dump (VList (x :: l))) with (TLeft :: sep (map dump (x :: l)) ++ [TRight]). cbn [app]. rewrite <- app_assoc. cbn [app].
    change (read_toks (mkReader (MVal b0) s0 None) (TLeft :: sep (map dump (x :: l)) ++ TRight :: rest))
      with (match read_tok (mkReader (MVal b0) s0 None) TLeft with Some r => read_toks r (sep (map dump (x :: l)) ++ TRight :: rest) | None => None end).
    replace (read_tok (mkReader (MVal b0) s0 None) TLeft) with (Some (mkReader (MVal true) (FArr [] :: s0) None)) by (destruct b0; destruct s0 as [| [[|] | ? ?] ?]; reflexivity).
    rewrite read_list.
    + unfold back. change (json_rt (VList (x :: l))) with (r <- mapM json_rt (x :: l) ;; Ok (VList r)). destruct (mapM json_rt (x :: l)); reflexivity.
    + intros v Hv. apply (H v Hv). auto.
  - rewrite Forall_forall in H. destruct d as [| x d]; [destruct b0; destruct s0 as [| [[|] | ? ?] ?]; reflexivity |].
    change (dump (VDict (x :: d))) with (TOpen :: sep (map dump_item (x :: d)) ++ [TClose]). cbn [app]. rewrite <- app_assoc. cbn [app].
    change (read_toks (mkReader (MVal b0) s0 None) (TOpen :: sep (map dump_item (x :: d)) ++ TClose :: rest))
      with (match read_tok (mkReader (MVal b0) s0 None) TOpen with Some r => read_toks r (sep (map dump_item (x :: d)) ++ TClose :: rest) | None => None end).
    replace (read_tok (mkReader (MVal b0) s0 None) TOpen) with (Some (mkReader (MKey true) (FObj [] None :: s0) None)) by (destruct b0; destruct s0 as [| [[|] | ? ?] ?]; reflexivity).
    rewrite read_dict.
    + unfold back. change (json_rt (VDict (x :: d))) with (r <- foldM rt_item (x :: d) [] ;; Ok (VDict r)).
      change (dict_of (rev [])) with (@nil (pyval * pyval)). destruct (foldM rt_item (x :: d) []); reflexivity.
    + intros [k v] Hk. cbn [snd]. destruct (H1 k v Hk) as [_ J1]. exact (proj2 (H _ Hk) J1).
Qed.

Lemma parse_dump : forall v, json v -> parse (dump v) = match json_rt v with Ok v' => Some v' | Err _ => None end.
Proof.
  intros v J. unfold parse. rewrite <- (app_nil_r (dump v)). rewrite (read_dump v J). unfold back. destruct (json_rt v); reflexivity.
Qed.

(** ** Texts that break off *)

Definition tok_depth (t : tok) : Z := match t with TOpen | TLeft => 1 | TClose | TRight => -1 | _ => 0 end.
Fixpoint depth (l : list tok) : Z := match l with [] => 0 | t :: r => tok_depth t + depth r end.
Lemma depth_app : forall a b, (depth (a ++ b) = depth a + depth b)%Z.
Proof. induction a as [| t a IH]; intros b; cbn [app depth]; [lia |]. rewrite IH. lia. Qed.

Lemma give_open : forall v s r, give v s = Some r -> length (rd_open r) = length s.
Proof. intros v [| [l | d [k |]] s] r E; cbn in E; try discriminate; injection E as <-; reflexivity. Qed.
Lemma read_tok_open : forall r t r', read_tok r t = Some r' -> (Z.of_nat (length (rd_open r')) = Z.of_nat (length (rd_open r)) + tok_depth t)%Z.
Proof.
  intros [m s o] t r' E. unfold read_tok in E. cbn [rd_mode rd_open] in *.
  destruct m as [[|] | [|] | |]; destruct t; try discriminate;
    repeat match type of E with
      | match ?x with _ => _ end = Some _ => destruct x eqn:?; try discriminate
      end;
    try (apply give_open in E; rewrite E; cbn [tok_depth length]; lia);
    injection E as <-; cbn [tok_depth rd_open length]; lia.
Qed.
Lemma read_open : forall l r r', read_toks r l = Some r' -> (Z.of_nat (length (rd_open r')) = Z.of_nat (length (rd_open r)) + depth l)%Z.
Proof.
  induction l as [| t l IH]; intros r r' E; cbn [read_toks depth] in *; [injection E as <-; lia |].
  destruct (read_tok r t) as [r1 |] eqn:F; [| discriminate]. apply IH in E. apply read_tok_open in F. lia.
Qed.
Lemma parse_closed : forall l v, parse l = Some v -> depth l = 0%Z.
Proof.
  intros l v E. unfold parse in E. destruct (read_toks _ l) as [r |] eqn:F; [| discriminate]. apply read_open in F. cbn [rd_open length] in F.
  destruct r as [[| | |] [|] [|]]; try discriminate. cbn [rd_open length] in F. lia.
Qed.

Definition balanced (l : list tok) : Prop := depth l = 0%Z /\ forall k, (0 <= depth (firstn k l))%Z.
Lemma balanced_nil : balanced [].
Proof. split; [reflexivity |]. intros [|]; cbn; lia. Qed.
Lemma balanced_cons : forall t l, tok_depth t = 0%Z -> balanced l -> balanced (t :: l).
Proof. intros t l E [B1 B2]. split; [cbn [depth]; lia |]. intros [| k]; cbn [firstn depth]; [lia |]. specialize (B2 k). lia. Qed.
Lemma balanced_app : forall a b, balanced a -> balanced b -> balanced (a ++ b).
Proof.
  intros a b [A1 A2] [B1 B2]. split; [rewrite depth_app; lia |]. intros k. rewrite firstn_app, depth_app.
  specialize (A2 k). specialize (B2 (k - length a)%nat). lia.
Qed.
Lemma balanced_wrap : forall a b l, tok_depth a = 1%Z -> tok_depth b = (-1)%Z -> balanced l -> balanced (a :: l ++ [b]).
Proof.
  intros a b l A B [L1 L2]. split; [cbn [depth]; rewrite depth_app; cbn [depth]; lia |].
  intros [| k]; cbn [firstn depth]; [lia |]. rewrite firstn_app, depth_app. specialize (L2 k).
  destruct (k - length l)%nat as [| [| m]]; cbn [firstn depth]; lia.
Qed.
Lemma balanced_sep : forall l, Forall balanced l -> balanced (sep l).
Proof.
  induction 1 as [| a l A L IH]; cbn [sep]; [apply balanced_nil |]. apply balanced_app; [exact A |].
  destruct l; [apply balanced_nil |]. apply balanced_cons; [reflexivity | exact IH].
Qed.
Lemma balanced_dump : forall v, balanced (dump v).
Proof.
  induction v using value_ind2; try (apply balanced_cons; [reflexivity | apply balanced_nil]).
  - cbn [dump]. apply balanced_wrap; try reflexivity. apply balanced_sep. apply Forall_forall. intros x Hx. apply in_map_iff in Hx.
    destruct Hx as (v & <- & Hv). rewrite Forall_forall in H. exact (H v Hv).
  - cbn [dump]. apply balanced_wrap; try reflexivity. apply balanced_sep. apply Forall_forall. intros x Hx. apply in_map_iff in Hx.
    destruct Hx as (v & <- & Hv). rewrite Forall_forall in H. apply balanced_cons; [reflexivity |]. apply balanced_cons; [reflexivity |].
    exact (proj2 (H v Hv)).
Qed.

Lemma cut_refl : forall l, cut l l.
Proof. induction l; constructor; assumption. Qed.
(** Either the whole text or something as deep as a proper beginning. *)
Lemma cut_depth : forall l s, cut l s -> s = l \/ exists k, (k < length l)%nat /\ depth s = depth (firstn k l).
Proof.
  induction 1 as [l | a v l | a v l | t l s C [-> | (k & K & D)]].
  - destruct l; [left; reflexivity |]. right. exists 0%nat. split; [cbn; lia | reflexivity].
  - right. exists 0%nat. split; [cbn; lia | reflexivity].
  - right. exists 0%nat. split; [cbn; lia | reflexivity].
  - left. reflexivity.
  - right. exists (S k). split; [cbn; lia |]. cbn [firstn depth]. rewrite D. reflexivity.
Qed.
Lemma cut_dict : forall d s, cut (dump (VDict d)) s -> s = dump (VDict d) \/ parse s = None.
Proof.
  intros d s C. cbn [dump] in C. inversion C as [l E1 E2 | | | t l s' C' E1 E2]; subst.
  - right. reflexivity.
  - destruct (cut_depth _ _ C') as [E | (k & K & D)].
    + left. subst s'. reflexivity.
    + right. destruct (parse (TOpen :: s')) as [v |] eqn:P; [| reflexivity]. exfalso. apply parse_closed in P. cbn [depth tok_depth] in P.
      rewrite D in P. pose proof (balanced_dump (VDict d)) as [_ B]. rewrite app_length in K. cbn [length] in K.
      set (body := sep (map (fun kv : pyval * pyval => TAtom (fst kv) :: TColon :: dump (snd kv)) d)) in *.
      assert (N : balanced body).
      { apply balanced_sep. apply Forall_forall. intros x Hx. apply in_map_iff in Hx. destruct Hx as (v' & <- & Hv).
        apply balanced_cons; [reflexivity |]. apply balanced_cons; [reflexivity |]. apply balanced_dump. }
      destruct N as [_ N]. specialize (N k). rewrite firstn_app in P. replace (k - length body)%nat with 0%nat in P by lia.
      cbn [firstn] in P. rewrite app_nil_r in P. lia.
Qed.

(** ** Files *)

Lemma path_eqb_spec : forall p q, path_eqb p q = true <-> p = q.
Proof.
  intros [a b] [c e]. unfold path_eqb. cbn [fst snd]. rewrite Bool.andb_true_iff, !String.eqb_eq. split; [intros [-> ->]; reflexivity |].
  intros E. injection E as -> ->. auto.
Qed.
Lemma set_same : forall p t d, set_file p t d p = Some t.
Proof. intros. unfold set_file. replace (path_eqb p p) with true; [reflexivity |]. symmetry. apply path_eqb_spec. reflexivity. Qed.
Lemma set_other : forall p q t d, q <> p -> set_file p t d q = d q.
Proof. intros p q t d N. unfold set_file. destruct (path_eqb q p) eqn:E; [| reflexivity]. apply path_eqb_spec in E. contradiction. Qed.

Definition op_on (p : path) (o : fop) : Prop := match o with Create q | Append q _ => q = p | Raise _ => False end.
Definition clear_of (p : path) (l : list fop) : Prop := forall o, In o l -> ~ op_on p o.

Lemma do_app : forall a b d, do_ops d (a ++ b) = do_ops (do_ops d a) b.
Proof. intros. unfold do_ops. apply fold_left_app. Qed.
Lemma do_clear : forall p l d, clear_of p l -> do_ops d l p = d p.
Proof.
  intros p. induction l as [| o l IH]; intros d C; [reflexivity |]. change (do_ops d (o :: l)) with (do_ops (do_op d o) l). rewrite IH.
  - assert (N := C o (or_introl eq_refl)). destruct o as [q | q t | e]; cbn [do_op op_on] in *; try reflexivity; apply set_other; congruence.
  - intros o' H. apply C. right. exact H.
Qed.
Lemma clear_app : forall p a b, clear_of p a -> clear_of p b -> clear_of p (a ++ b).
Proof. intros p a b A B o H. apply in_app_or in H. destruct H; [apply A | apply B]; assumption. Qed.
Lemma clear_stops : forall p l s, stops l s -> clear_of p l -> clear_of p s.
Proof.
  intros p l s S. induction S as [l | q a v l | q a v l | o l s S IH]; intros C o' H.
  - destruct H.
  - destruct H as [<- | []]. exact (C (Append q (TAtom a)) (or_introl eq_refl)).
  - destruct H as [<- | []]. exact (C (Append q (TLine a)) (or_introl eq_refl)).
  - destruct H as [<- | H]; [apply C; left; reflexivity |]. apply IH; [| exact H]. intros o1 H1. apply C. right. exact H1.
Qed.
Lemma clear_write : forall p q l, q <> p -> clear_of p (write q l).
Proof.
  intros p q l N o [<- | H]; [exact N |]. apply in_map_iff in H. destruct H as (t & <- & _). exact N.
Qed.
Lemma stops_refl : forall l, stops l l.
Proof. induction l; constructor; assumption. Qed.
Lemma stops_app : forall a b s, stops (a ++ b) s -> stops a s \/ exists s', s = a ++ s' /\ stops b s'.
Proof.
  induction a as [| o a IH]; intros b s S; cbn [app] in S.
  - right. exists s. auto.
  - inversion S as [| | | o' l s1 S1]; subst; try (left; constructor; fail).
    destruct (IH _ _ S1) as [H | (s' & -> & H)]; [left; constructor; exact H | right; exists s'; auto].
Qed.
Lemma append_all : forall p l d t, d p = Some t -> do_ops d (map (Append p) l) p = Some (t ++ l).
Proof.
  induction l as [| x l IH]; intros d t E; cbn [map]; [rewrite app_nil_r; exact E |].
  change (do_ops d (Append p x :: map (Append p) l)) with (do_ops (do_op d (Append p x)) (map (Append p) l)).
  rewrite (IH _ (t ++ [x])); [rewrite <- app_assoc; reflexivity |]. cbn [do_op]. rewrite E. apply set_same.
Qed.
Lemma do_write : forall p l d, do_ops d (write p l) p = Some l.
Proof.
  intros p l d. unfold write. change (do_ops d (Create p :: map (Append p) l)) with (do_ops (do_op d (Create p)) (map (Append p) l)).
  rewrite (append_all p l _ []); [reflexivity | apply set_same].
Qed.
Lemma stops_appends : forall p l s, stops (map (Append p) l) s -> exists t, cut l t /\ s = map (Append p) t.
Proof.
  induction l as [| x l IH]; intros s S; cbn [map] in S; inversion S as [| q a v l' E | q a v l' E | o l' s1 S1]; subst.
  - exists []. split; [constructor | reflexivity].
  - exists []. split; [constructor | reflexivity].
  - exists [TAtom v]. split; [constructor | reflexivity].
  - exists [TLine v]. split; [constructor | reflexivity].
  - destruct (IH _ S1) as (t & C & ->). exists (x :: t). split; [constructor; exact C | reflexivity].
Qed.
Lemma stops_write : forall p l s, stops (write p l) s -> s = [] \/ exists t, cut l t /\ s = write p t.
Proof.
  intros p l s S. unfold write in S. inversion S as [| | | o l' s1 S1]; subst; [left; reflexivity |].
  right. destruct (stops_appends _ _ _ S1) as (t & C & ->). exists t. auto.
Qed.

(** The names end differently. *)
Definition chars (s : string) : list Ascii.ascii := list_ascii_of_string s.
Lemma chars_app : forall a b, chars (a ++ b)%string = chars a ++ chars b.
Proof. induction a as [| c a IH]; intros b; cbn; [reflexivity |]. f_equal. apply IH. Qed.
Lemma last10 : forall a b s t, (a ++ s = b ++ t)%string -> (10 <= String.length s)%nat -> (10 <= String.length t)%nat ->
  firstn 10 (rev (chars s)) = firstn 10 (rev (chars t)).
Proof.
  assert (L : forall s, length (chars s) = String.length s) by (unfold chars; induction s as [| c s IH]; cbn; [reflexivity | f_equal; exact IH]).
  intros a b s t E S T. apply (f_equal (fun x => firstn 10 (rev (chars x)))) in E. rewrite !chars_app, !rev_app_distr in E.
  rewrite !firstn_app in E. rewrite !rev_length, !L in E. replace (10 - String.length s)%nat with 0%nat in E by lia.
  replace (10 - String.length t)%nat with 0%nat in E by lia. cbn [firstn] in E. rewrite !app_nil_r in E. exact E.
Qed.
Lemma append_same : forall s a b, (a ++ s = b ++ s)%string -> a = b.
Proof.
  intros s a b E. assert (F : chars a = chars b).
  { apply (f_equal chars) in E. rewrite !chars_app in E. apply app_inv_tail in E. exact E. }
  apply (f_equal string_of_list_ascii) in F. unfold chars in F. rewrite !string_of_list_ascii_of_string in F. exact F.
Qed.
Ltac file_ne := let E := fresh in intros E; injection E as E; unfold cat in E; cbn [fold_right] in E; revert E; intros E;
  apply last10 in E; [vm_compute in E; discriminate | cbn; lia | cbn; lia].
Lemma cat2 : forall a s, cat [a; s] = (a ++ s)%string.
Proof. intros. unfold cat. cbn [fold_right]. f_equal. induction s as [| c s IH]; cbn; congruence. Qed.

Inductive ending : Set := ELog | EData | EResults | EInfos | EExtra.
Definition file_of (k : ending) (f n : string) : path :=
  match k with ELog => log_file f n | EData => data_file f n | EResults => results_file f n | EInfos => infos_file f n | EExtra => extra_file f n end.
Lemma file_of_inj : forall k k' f g n m, file_of k f n = file_of k' g m -> k = k' /\ f = g /\ n = m.
Proof.
  intros k k' f g n m E.
  destruct k; destruct k'; cbn [file_of] in E; unfold log_file, data_file, results_file, infos_file, extra_file in E;
    apply pair_equal_spec in E; destruct E as [E1 E2]; rewrite !cat2 in E2;
    try (exfalso; apply last10 in E2; [vm_compute in E2; discriminate E2 | cbn; lia | cbn; lia]);
    apply append_same in E2; auto.
Qed.
Lemma file_of_ne : forall k k' f g n m, k <> k' -> file_of k f n <> file_of k' g m.
Proof. intros k k' f g n m N E. apply file_of_inj in E. destruct E as [E _]. contradiction. Qed.

(** ** One save *)

Lemma clear_json : forall p q v rest, q <> p -> clear_of p rest -> clear_of p (write_json q v rest).
Proof.
  intros p q v rest N C. unfold write_json. destruct (conv false false v).
  - apply clear_app; [apply clear_write; exact N | exact C].
  - intros o [<- | [<- | []]]; cbn [op_on]; auto.
Qed.
Lemma clear_extra : forall p q x rest, q <> p -> clear_of p rest -> clear_of p (write_extra q x rest).
Proof.
  intros p q x rest N C. unfold write_extra. destruct (conv false false (fst x)); destruct (conv false false (snd x));
    try (intros o [<- | [<- | []]]; cbn [op_on]; auto; fail).
  apply clear_app; [apply clear_write; exact N | exact C].
Qed.
Lemma clear_infos : forall p q i, q <> p -> clear_of p (write_infos q i).
Proof. intros p q [l | e] N; cbn [write_infos]; [apply clear_write; exact N |]. intros o [<- | []]; cbn; auto. Qed.

Definition part3 (f : string) (j : job) : list fop :=
  match jb_extra j with Some x => write_extra (extra_file f (jb_name j)) x | None => fun r => r end (write_infos (infos_file f (jb_name j)) (jb_infos j)).
Definition part2 (f : string) (j : job) : list fop := write_json (data_file f (jb_name j)) (jb_data j) (part3 f j).
Definition part1 (f : string) (j : job) : list fop := write_json (results_file f (jb_name j)) (jb_results j) (part2 f j).
Definition part0 (f : string) (j : job) : list fop :=
  match jb_log j with Some l => write (log_file f (jb_name j)) (map TLine l) | None => [] end.
Lemma save_parts : forall f j, save_ops f j = part0 f j ++ part1 f j.
Proof. reflexivity. Qed.

Lemma clear3 : forall p f j, (forall k, file_of k f (jb_name j) = p -> k <> EInfos /\ k <> EExtra) -> clear_of p (part3 f j).
Proof.
  intros p f j N. unfold part3. assert (C : clear_of p (write_infos (infos_file f (jb_name j)) (jb_infos j))).
  { apply clear_infos. intros E. exact (proj1 (N EInfos E) eq_refl). }
  destruct (jb_extra j); [| exact C]. apply clear_extra; [| exact C]. intros E. exact (proj2 (N EExtra E) eq_refl).
Qed.
Lemma clear0 : forall p f j, log_file f (jb_name j) <> p -> clear_of p (part0 f j).
Proof. intros p f j N. unfold part0. destruct (jb_log j); [apply clear_write; exact N | intros o []]. Qed.
Lemma clear_save : forall p f j, (forall k, file_of k f (jb_name j) <> p) -> clear_of p (save_ops f j).
Proof.
  intros p f j N. rewrite save_parts. apply clear_app; [apply clear0; exact (N ELog) |].
  apply clear_json; [exact (N EResults) |]. apply clear_json; [exact (N EData) |]. apply clear3. intros k E. destruct (N k E).
Qed.
Ltac apart := intros k E; change (results_file) with (file_of EResults) in E; change (data_file) with (file_of EData) in E;
  apply file_of_inj in E; destruct E as [-> _]; split; discriminate.
Ltac ne_files := first [exact (file_of_ne EResults EExtra _ _ _ _ ltac:(discriminate)) | exact (file_of_ne EData EExtra _ _ _ _ ltac:(discriminate))
  | exact (file_of_ne EInfos EExtra _ _ _ _ ltac:(discriminate)) | exact (file_of_ne ELog EResults _ _ _ _ ltac:(discriminate)) | exact (file_of_ne ELog EData _ _ _ _ ltac:(discriminate))
  | exact (file_of_ne ELog EInfos _ _ _ _ ltac:(discriminate)) | exact (file_of_ne EResults EData _ _ _ _ ltac:(discriminate))
  | exact (file_of_ne EData EResults _ _ _ _ ltac:(discriminate)) | exact (file_of_ne EResults EInfos _ _ _ _ ltac:(discriminate))
  | exact (file_of_ne EData EInfos _ _ _ _ ltac:(discriminate)) | exact (file_of_ne EExtra EInfos _ _ _ _ ltac:(discriminate))
  | exact (file_of_ne EExtra EData _ _ _ _ ltac:(discriminate)) | exact (file_of_ne EExtra EResults _ _ _ _ ltac:(discriminate))
  | exact (file_of_ne EInfos EData _ _ _ _ ltac:(discriminate)) | exact (file_of_ne EInfos EResults _ _ _ _ ltac:(discriminate))].

Lemma conv_dict : forall np ul d c, conv np ul (VDict d) = Ok c -> exists d', c = VDict d'.
Proof.
  intros np ul d c E. cbn [conv] in E. match type of E with bind ?m _ = _ => destruct m; [| discriminate] end.
  cbn [bind] in E. injection E as <-. eexists. reflexivity.
Qed.

Lemma json_stops : forall p d0 rest s, stops (write_json p (VDict d0) rest) s ->
  s = [] \/
  (exists t, parse t = None /\ clear_of p [] /\ (forall d, do_ops d s = do_ops d (write p t)) /\ forall q, q <> p -> clear_of q s) \/
  exists c s', conv false false (VDict d0) = Ok c /\ s = write p (dump c) ++ s' /\ stops rest s'.
Proof.
  intros p d0 rest s S. unfold write_json in S. destruct (conv false false (VDict d0)) as [c | e] eqn:E.
  - destruct (stops_app _ _ _ S) as [S1 | (s' & -> & S1)]; [| right; right; exists c, s'; auto].
    destruct (stops_write _ _ _ S1) as [-> | (t & C & ->)]; [left; reflexivity |]. right.
    destruct (conv_dict _ _ _ _ E) as (d' & ->). destruct (cut_dict _ _ C) as [-> | P].
    + right. exists (VDict d'), []. rewrite app_nil_r. split; [reflexivity | split; [reflexivity | constructor]].
    + left. exists t. split; [exact P |]. split; [intros o [] |]. split; [reflexivity |]. intros q N. apply clear_write. congruence.
  - inversion S as [| | | o l s1 S1]; subst; [left; reflexivity |]. right. left. exists []. split; [reflexivity |].
    split; [intros o [] |]. inversion S1 as [| | | o l s2 S2]; subst.
    + split; [reflexivity |]. intros q N o [<- | []]. cbn. congruence.
    + inversion S2; subst. split; [reflexivity |]. intros q N o [<- | [<- | []]]; cbn; [congruence | auto].
Qed.

(** The three files after a save that may have stopped anywhere. *)
Definition written (v : pyval) (o : option (list tok)) : Prop := exists c, conv false false v = Ok c /\ o = Some (dump c).
Definition broken (o : option (list tok)) : Prop := exists t, o = Some t /\ parse t = None.

Lemma save_effect : forall f j r a s d, jb_results j = VDict r -> jb_data j = VDict a -> stops (save_ops f j) s ->
  let n := jb_name j in let d' := do_ops d s in
  (d' (results_file f n) = d (results_file f n) \/ broken (d' (results_file f n)) \/ written (VDict r) (d' (results_file f n))) /\
  (d' (data_file f n) = d (data_file f n) \/ broken (d' (data_file f n)) \/
     written (VDict a) (d' (data_file f n)) /\ written (VDict r) (d' (results_file f n))).
Proof.
  intros f j r a s d R A S. cbv zeta. rewrite save_parts in S.
  destruct (stops_app _ _ _ S) as [S0 | (s1 & -> & S1)].
  { rewrite !do_clear; [auto | |]; apply (clear_stops _ _ _ S0); apply clear0; ne_files. }
  unfold part1 in S1. rewrite R in S1. rewrite do_app. set (d0 := do_ops d (part0 f j)).
  assert (E0 : d0 (results_file f (jb_name j)) = d (results_file f (jb_name j)) /\ d0 (data_file f (jb_name j)) = d (data_file f (jb_name j))).
  { unfold d0. rewrite !do_clear; [auto | |]; apply clear0; ne_files. }
  destruct E0 as [E1 E2]. rewrite <- E1, <- E2. clearbody d0. clear S E1 E2 d.
  destruct (json_stops _ _ _ _ S1) as [-> | [(t & P & _ & D & C) | (c & s2 & Ec & -> & S2)]].
  - auto.
  - split; [right; left |left].
    + exists t. split; [| exact P]. rewrite D. apply do_write.
    + apply do_clear. apply C. ne_files.
  - rewrite do_app. set (d1 := do_ops d0 (write (results_file f (jb_name j)) (dump c))). unfold part2 in S2. rewrite A in S2.
    assert (E1 : d1 (results_file f (jb_name j)) = Some (dump c)) by apply do_write.
    assert (E2 : d1 (data_file f (jb_name j)) = d0 (data_file f (jb_name j))) by (apply do_clear; apply clear_write; ne_files).
    assert (CR : clear_of (results_file f (jb_name j)) s2).
    { apply (clear_stops _ _ _ S2). apply clear_json; [ne_files |]. apply clear3. apart. }
    rewrite (do_clear _ _ _ CR). rewrite E1. rewrite <- E2. clearbody d1. clear E2.
    split; [right; right; exists c; auto |].
    destruct (json_stops _ _ _ _ S2) as [-> | [(t & P & _ & D & C) | (c2 & s3 & Ec2 & -> & S3)]].
    + auto.
    + right. left. exists t. split; [| exact P]. rewrite D. apply do_write.
    + right. right. split; [| exists c; auto]. exists c2. split; [exact Ec2 |]. rewrite do_app. rewrite do_clear; [apply do_write |].
      apply (clear_stops _ _ _ S3). apply clear3. apart.
Qed.
