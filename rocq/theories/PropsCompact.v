(** Claim C87: what the short documentation of elements and flow systems shows. *)
From Coq Require Import Qround Ascii String Permutation.
From Verif Require Import Base BaseFacts System Tree Values Compact PropsTree PropsValues.

(** ** Specification *)

(** [s] is [q] rounded to [d] decimals: a multiple of the last decimal, and none is closer to [q]. *)
Definition rounded (d : nat) (q s : Q) : Prop :=
  (exists z : Z, s * ten d == inject_Z z) /\ q - (1 # 2) / ten d <= s /\ s <= q + (1 # 2) / ten d.
(** At least half of the values are not above [m], and at least half are not below. *)
Definition is_median (l : list Q) (m : Q) : Prop :=
  (length l <= 2 * length (filter (fun q => Qle_bool q m) l))%nat /\ (length l <= 2 * length (filter (fun q => Qle_bool m q) l))%nat.
(** The place of the [i]th of [n] values between 0 (first) and 1 (last). *)
Definition position (n i : nat) : Q := inject_Z (Z.of_nat i) / inject_Z (Z.of_nat (n - 1)).
Definition moment (l : list Q) : Q := Qsum (map (fun i => position (length l) i * nth i l 0) (seq 0 (length l))).
Record tells (root : nat -> Q -> Q) (d : nat) (l : list Q) (s : summary) : Prop := {
  te_min : exists a, In a l /\ (forall b, In b l -> a <= b) /\ rounded d a (su_min s);
  te_max : exists a, In a l /\ (forall b, In b l -> b <= a) /\ rounded d a (su_max s);
  te_mean : exists m, m * count l == Qsum l /\ rounded d m (su_mean s)
              /\ exists v, v * count l == Qsum (map (fun q => (q - m) * (q - m)) l) /\ su_std s = root d v;
  te_median : exists m, is_median l m /\ rounded d m (su_median s);
  te_len : su_len s = length l;
  te_center : match su_center s with
              | None => Qsum l == 0
              | Some c => ~ Qsum l == 0 /\ exists q, q * Qsum l == moment l /\ rounded d q c
              end;
  te_order : su_min s <= su_mean s /\ su_mean s <= su_max s /\ su_min s <= su_median s /\ su_median s <= su_max s;
  te_within : (forall q, In q l -> 0 <= q) -> forall c, su_center s = Some c -> 0 <= c /\ c <= 1
}.
(** What the document [c] says about the converted value [v]: arrays of at most [n] values are written out, longer ones are
    summarised, everything else stays as it is. *)
Inductive shows (root : nat -> Q -> Q) (flags : list Q -> res cval) (n d : nat) : pyval -> cval -> Prop :=
| sh_plain v : json v -> match v with VList _ | VDict _ => False | _ => True end -> shows root flags n d v (CVal v)
| sh_ints l : (length l <= n)%nat -> shows root flags n d (VArr AInt l) (CNums l)
| sh_floats l l' : (length l <= n)%nat -> Forall2 (rounded d) l l' -> shows root flags n d (VArr AFlt l) (CNums l')
| sh_long k l s : k = AInt \/ k = AFlt -> (n < length l)%nat -> tells root d l s -> shows root flags n d (VArr k l) (CText s)
| sh_flags l c : flags l = Ok c -> shows root flags n d (VArr ABool l) c
| sh_list l l' : Forall2 (shows root flags n d) l l' -> shows root flags n d (VList l) (CList l')
| sh_dict m m' : Forall2 (fun kv kc => fst kc = fst kv /\ plain_key (fst kv) /\ shows root flags n d (snd kv) (snd kc)) m m' -> shows root flags n d (VDict m) (CDict m').

(** No array of truth values. *)
Fixpoint flagless (v : pyval) : bool :=
  match v with
  | VArr ABool _ => false
  | VList l => forallb flagless l
  | VDict d => forallb (fun kv => flagless (snd kv)) d
  | _ => true
  end.
(** What json.dump writes. *)
Inductive written : cval -> Prop :=
| wr_plain v : json v -> written (CVal v)
| wr_nums l : written (CNums l)
| wr_text s : written (CText s)
| wr_list l : Forall written l -> written (CList l)
| wr_dict d : Forall (fun kv => plain_key (fst kv) /\ written (snd kv)) d -> written (CDict d).

(** ** Rounding *)

Lemma ten_pos : forall d, 0 < ten d.
Proof. intros d. unfold ten. change 0 with (inject_Z 0). rewrite <- Zlt_Qlt. apply Z.pow_pos_nonneg; lia. Qed.
Lemma rint_close : forall q, q - (1 # 2) <= inject_Z (rint q) /\ inject_Z (rint q) <= q + (1 # 2).
Proof.
  intros q. unfold rint. pose proof (Qfloor_le q) as H1. pose proof (Qlt_floor q) as H2. rewrite inject_Z_plus in H2. change (inject_Z 1) with 1 in H2.
  destruct (Qcompare (q - inject_Z (Qfloor q)) (1 # 2)) eqn:E.
  - apply Qeq_alt in E. destruct (Z.even (Qfloor q)); [split; lra|]. rewrite inject_Z_plus. change (inject_Z 1) with 1. split; lra.
  - apply Qlt_alt in E. split; lra.
  - apply Qgt_alt in E. rewrite inject_Z_plus. change (inject_Z 1) with 1. split; lra.
Qed.
Global Instance rint_proper : Proper (Qeq ==> eq) rint.
Proof. intros p q E. unfold rint. rewrite (Qfloor_comp p q E). replace (Qcompare (q - inject_Z (Qfloor q)) (1 # 2)) with (Qcompare (p - inject_Z (Qfloor q)) (1 # 2)); [reflexivity|]. rewrite E. reflexivity. Qed.
Lemma rint_mono : forall p q, p <= q -> (rint p <= rint q)%Z.
Proof.
  intros p q L. destruct (Qlt_le_dec p q) as [L'|L']; [|rewrite (rint_proper p q ltac:(lra)); lia].
  destruct (Z_le_gt_dec (rint p) (rint q)) as [H|H]; [exact H|exfalso]. assert (H1 : (rint q + 1 <= rint p)%Z) by lia. rewrite Zle_Qle, inject_Z_plus in H1. change (inject_Z 1) with 1 in H1.
  destruct (rint_close p) as [_ P]. destruct (rint_close q) as [Q1 _]. lra.
Qed.
Lemma around_rounded : forall d q, rounded d q (around d q).
Proof.
  intros d q. pose proof (ten_pos d) as T. unfold rounded, around. split; [exists (rint (q * ten d)); field; lra|].
  destruct (rint_close (q * ten d)) as [A B]. split.
  - apply Qle_shift_div_l; [exact T|]. setoid_replace ((q - (1 # 2) / ten d) * ten d) with (q * ten d - (1 # 2)) by (field; lra). exact A.
  - apply Qle_shift_div_r; [exact T|]. setoid_replace ((q + (1 # 2) / ten d) * ten d) with (q * ten d + (1 # 2)) by (field; lra). exact B.
Qed.
Lemma around_mono : forall d p q, p <= q -> around d p <= around d q.
Proof.
  intros d p q L. pose proof (ten_pos d) as T. unfold around. apply Qle_shift_div_l; [exact T|]. setoid_replace (inject_Z (rint (p * ten d)) / ten d * ten d) with (inject_Z (rint (p * ten d))) by (field; lra).
  rewrite <- Zle_Qle. apply rint_mono. apply Qmult_le_compat_r; lra.
Qed.
Lemma rint_Z : forall z, rint (inject_Z z) = z.
Proof. intros z. unfold rint. rewrite Qfloor_Z. replace (Qcompare (inject_Z z - inject_Z z) (1 # 2)) with Lt; [reflexivity|]. symmetry. apply Qlt_alt. setoid_replace (inject_Z z - inject_Z z) with 0 by ring. reflexivity. Qed.
(** Numbers with at most [d] decimals are shown exactly. *)
Lemma around_exact : forall d q z, q * ten d == inject_Z z -> around d q == q.
Proof. intros d q z E. pose proof (ten_pos d) as T. unfold around. rewrite (rint_proper _ _ E), rint_Z, <- E. field. lra. Qed.

(** ** Statistics *)

Lemma least_ok : forall l a, In (least a l) (a :: l) /\ forall b, In b (a :: l) -> least a l <= b.
Proof.
  induction l as [|c l IH]; intros a; [split; [left; reflexivity|]; intros b [<-|[]]; apply Qle_refl|]. cbn [least]. destruct (Qle_bool a c) eqn:E.
  - destruct (IH a) as [I1 I2]. apply Qle_bool_iff in E. split; [destruct I1; [left|right; right]; assumption|]. intros b [<-|[<-|Hb]]; [apply I2; left; reflexivity|apply Qle_trans with a; [apply I2; left; reflexivity|exact E]|apply I2; right; exact Hb].
  - destruct (IH c) as [I1 I2]. assert (L : c <= a) by (destruct (Qlt_le_dec a c) as [L|L]; [exfalso; assert (X : Qle_bool a c = true) by (apply Qle_bool_iff; lra); congruence|exact L]).
    split; [right; exact I1|]. intros b [<-|Hb]; [apply Qle_trans with c; [apply I2; left; reflexivity|exact L]|apply I2; exact Hb].
Qed.
Lemma greatest_ok : forall l a, In (greatest a l) (a :: l) /\ forall b, In b (a :: l) -> b <= greatest a l.
Proof.
  induction l as [|c l IH]; intros a; [split; [left; reflexivity|]; intros b [<-|[]]; apply Qle_refl|]. cbn [greatest]. destruct (Qle_bool a c) eqn:E.
  - destruct (IH c) as [I1 I2]. apply Qle_bool_iff in E. split; [right; exact I1|]. intros b [<-|Hb]; [apply Qle_trans with c; [exact E|apply I2; left; reflexivity]|apply I2; exact Hb].
  - destruct (IH a) as [I1 I2]. assert (L : c <= a) by (destruct (Qlt_le_dec a c) as [L|L]; [exfalso; assert (X : Qle_bool a c = true) by (apply Qle_bool_iff; lra); congruence|exact L]).
    split; [destruct I1; [left|right; right]; assumption|]. intros b [<-|[<-|Hb]]; [apply I2; left; reflexivity|apply Qle_trans with a; [exact L|apply I2; left; reflexivity]|apply I2; right; exact Hb].
Qed.
Lemma count_pos : forall l, l <> [] -> 0 < count l.
Proof. intros [|a l] H; [congruence|]. unfold count. change 0 with (inject_Z 0). rewrite <- Zlt_Qlt. cbn [length]. lia. Qed.
Lemma count_cons : forall a l, count (a :: l) == 1 + count l.
Proof. intros a l. unfold count. cbn [length]. rewrite Nat2Z.inj_succ. unfold Z.succ. rewrite inject_Z_plus. change (inject_Z 1) with 1. ring. Qed.
Lemma sum_between : forall lo hi l, (forall q, In q l -> lo <= q /\ q <= hi) -> lo * count l <= Qsum l /\ Qsum l <= hi * count l.
Proof.
  induction l as [|a l IH]; intros H; [unfold count; cbn; split; apply Qle_lteq; right; ring|]. rewrite Qsum_cons, count_cons. destruct (H a (or_introl eq_refl)) as [A1 A2]. destruct (IH (fun q Hq => H q (or_intror Hq))) as [B1 B2]. split; lra.
Qed.
Lemma mean_ok : forall l, l <> [] -> mean l * count l == Qsum l.
Proof. intros l N. unfold mean. pose proof (count_pos l N). field. lra. Qed.
Lemma mean_between : forall lo hi l, l <> [] -> (forall q, In q l -> lo <= q /\ q <= hi) -> lo <= mean l /\ mean l <= hi.
Proof.
  intros lo hi l N H. destruct (sum_between lo hi l H) as [A B]. pose proof (count_pos l N) as P. unfold mean. split; [apply Qle_shift_div_l|apply Qle_shift_div_r]; assumption.
Qed.

(** Sorting *)
Lemma put_in_perm : forall a l, Permutation (put_in a l) (a :: l).
Proof. induction l as [|b l IH]; [reflexivity|]. cbn [put_in]. destruct (Qle_bool a b); [reflexivity|]. rewrite IH. apply perm_swap. Qed.
Lemma sorted_perm : forall l, Permutation (sorted l) l.
Proof. induction l as [|a l IH]; [reflexivity|]. cbn [sorted fold_right]. rewrite put_in_perm. constructor. exact IH. Qed.
Inductive rising : list Q -> Prop :=
| ri_nil : rising []
| ri_cons a l : (forall b, In b l -> a <= b) -> rising l -> rising (a :: l).
Lemma put_in_rising : forall a l, rising l -> rising (put_in a l).
Proof.
  intros a l R. induction R as [|b l Hb R IH]; [constructor; [intros c []|constructor]|]. cbn [put_in]. destruct (Qle_bool a b) eqn:E.
  - apply Qle_bool_iff in E. constructor; [|constructor; assumption]. intros c [<-|Hc]; [exact E|apply Qle_trans with b; auto].
  - constructor; [|exact IH]. intros c Hc. apply (Permutation_in _ (put_in_perm a l)) in Hc. destruct Hc as [<-|Hc]; [|auto]. destruct (Qlt_le_dec a b) as [L|L]; [|exact L]. exfalso. assert (X : Qle_bool a b = true) by (apply Qle_bool_iff; lra). congruence.
Qed.
Lemma sorted_rising : forall l, rising (sorted l).
Proof. induction l as [|a l IH]; [constructor|]. apply put_in_rising. exact IH. Qed.
Lemma rising_nth : forall l, rising l -> forall i j, (i <= j)%nat -> (j < length l)%nat -> nth i l 0 <= nth j l 0.
Proof.
  intros l R. induction R as [|a l Ha R IH]; intros i j L J; [cbn in J; lia|]. destruct i as [|i], j as [|j]; [apply Qle_refl| |lia|].
  - cbn [nth length] in *. apply Ha. apply nth_In. lia.
  - cbn [nth length] in *. apply IH; lia.
Qed.
Lemma filter_perm_len : forall {A} (f : A -> bool) l l', Permutation l l' -> length (filter f l) = length (filter f l').
Proof. intros A f l l' P. induction P as [|a l l' P IH|a b l|l1 l2 l3 P1 IH1 P2 IH2]; cbn; [reflexivity|destruct (f a); cbn; congruence|destruct (f a), (f b); reflexivity|congruence]. Qed.
(** At least [k + 1] values pass if the first [k + 1] do; likewise for the last ones. *)
Lemma first_pass : forall (f : Q -> bool) l k, (k <= length l)%nat -> (forall i, (i < k)%nat -> f (nth i l 0) = true) -> (k <= length (filter f l))%nat.
Proof.
  intros f. induction l as [|a l IH]; intros k K H; [cbn in K; lia|]. destruct k as [|k]; [lia|]. cbn [filter]. pose proof (H 0%nat ltac:(lia)) as H0. cbn [nth] in H0. rewrite H0. cbn [length] in *.
  apply le_n_S. apply IH; [lia|]. intros i Hi. apply (H (S i)). lia.
Qed.
Lemma last_pass : forall (f : Q -> bool) l k, (forall i, (k <= i < length l)%nat -> f (nth i l 0) = true) -> (length l - k <= length (filter f l))%nat.
Proof.
  intros f. induction l as [|a l IH]; intros k H; [cbn; lia|]. destruct k as [|k].
  - assert (F : (length l - 0 <= length (filter f l))%nat) by (apply IH; intros i Hi; apply (H (S i)); cbn; lia). pose proof (H 0%nat ltac:(cbn; lia)) as H0. cbn [nth] in H0. cbn [filter]. rewrite H0. cbn [length]. lia.
  - assert (F : (length l - k <= length (filter f l))%nat) by (apply IH; intros i Hi; apply (H (S i)); cbn; lia). cbn [filter length]. destruct (f a); cbn [length]; lia.
Qed.
Lemma median_ok : forall l, l <> [] -> is_median l (median l).
Proof.
  intros l N. assert (LN : (0 < length l)%nat) by (destruct l; [congruence|cbn; lia]). unfold is_median. rewrite <- !(filter_perm_len _ _ _ (sorted_perm l)).
  pose proof (Permutation_length (sorted_perm l)) as LS. pose proof (rising_nth _ (sorted_rising l)) as R. rewrite LS in R. unfold median. cbv zeta. set (s := sorted l) in *. set (n := length l) in *.
  destruct (Nat.even n) eqn:E.
  - apply Nat.even_spec in E. destruct E as [h E]. assert (Hh : (n / 2)%nat = h) by (rewrite E, Nat.mul_comm; apply Nat.div_mul; lia). rewrite Hh.
    pose proof (R (h - 1)%nat h ltac:(lia) ltac:(lia)) as MM. set (md := (nth (h - 1) s 0 + nth h s 0) / 2). split.
    + assert (F : (h <= length (filter (fun q => Qle_bool q md) s))%nat); [|lia]. apply first_pass; [lia|]. intros i Hi. apply Qle_bool_iff. pose proof (R i (h - 1)%nat ltac:(lia) ltac:(lia)). apply Qle_shift_div_l; [reflexivity|]. lra.
    + assert (F : (length s - h <= length (filter (fun q => Qle_bool md q) s))%nat); [|lia]. apply last_pass. intros i Hi. apply Qle_bool_iff. pose proof (R h i ltac:(lia) ltac:(lia)). apply Qle_shift_div_r; [reflexivity|]. lra.
  - assert (O : Nat.odd n = true) by (rewrite <- Nat.negb_even, E; reflexivity). apply Nat.odd_spec in O. destruct O as [h O]. assert (Hh : (n / 2)%nat = h) by (rewrite O; replace (2 * h + 1)%nat with (1 + h * 2)%nat by lia; rewrite Nat.div_add by lia; reflexivity). rewrite Hh. split.
    + assert (F : (S h <= length (filter (fun q => Qle_bool q (nth h s 0%Q)) s))%nat); [|lia]. apply first_pass; [lia|]. intros i Hi. apply Qle_bool_iff. apply R; lia.
    + assert (F : (length s - h <= length (filter (fun q => Qle_bool (nth h s 0%Q) q) s))%nat); [|lia]. apply last_pass. intros i Hi. apply Qle_bool_iff. apply R; lia.
Qed.
Lemma median_between : forall lo hi l, l <> [] -> (forall q, In q l -> lo <= q /\ q <= hi) -> lo <= median l /\ median l <= hi.
Proof.
  intros lo hi l N H. assert (LN : (0 < length l)%nat) by (destruct l; [congruence|cbn; lia]). pose proof (Permutation_length (sorted_perm l)) as LS.
  assert (I : forall i, (i < length l)%nat -> lo <= nth i (sorted l) 0 /\ nth i (sorted l) 0 <= hi) by (intros i Hi; apply H; apply (Permutation_in _ (sorted_perm l)); apply nth_In; lia).
  assert (D : (length l / 2 < length l)%nat) by (apply Nat.div_lt; lia). unfold median. cbv zeta. destruct (Nat.even (length l)); [|apply I; lia].
  destruct (I (length l / 2 - 1)%nat ltac:(lia)) as [A1 A2]. destruct (I (length l / 2)%nat ltac:(lia)) as [B1 B2]. split; [apply Qle_shift_div_l|apply Qle_shift_div_r]; (reflexivity || lra).
Qed.

(** The centre *)
Lemma pair_sum : forall (g : nat -> Q) l k, Qsum (map (fun pq => fst pq * snd pq) (combine (map g (seq k (length l))) l)) == Qsum (map (fun i => g (k + i)%nat * nth i l 0) (seq 0 (length l))).
Proof.
  intros g. induction l as [|a l IH]; intros k; [reflexivity|]. cbn [length seq map combine fst snd]. rewrite !Qsum_cons, (IH (S k)), Nat.add_0_r. cbn [nth]. rewrite <- seq_shift, map_map.
  apply Qplus_comp; [reflexivity|]. apply Qsum_map_eq. intros i _. rewrite Nat.add_succ_r. cbn [Nat.add nth]. reflexivity.
Qed.
Lemma moment_ok : forall l, Qsum (map (fun pq => fst pq * snd pq) (combine (linspace (length l)) l)) == moment l.
Proof. intros l. unfold linspace, moment. rewrite (pair_sum (fun i => inject_Z (Z.of_nat i) / inject_Z (Z.of_nat (length l - 1))) l 0). reflexivity. Qed.
Lemma position_within : forall n i, (i < n)%nat -> 0 <= position n i /\ position n i <= 1.
Proof.
  intros n i L. unfold position. destruct (Nat.eq_dec (n - 1) 0) as [E|E]; [rewrite E; replace i with 0%nat by lia; split; discriminate|].
  assert (P : 0 < inject_Z (Z.of_nat (n - 1))) by (change 0 with (inject_Z 0); rewrite <- Zlt_Qlt; lia). split; [apply Qle_shift_div_l|apply Qle_shift_div_r]; try exact P.
  - rewrite Qmult_0_l. change 0 with (inject_Z 0). rewrite <- Zle_Qle. lia.
  - rewrite Qmult_1_l, <- Zle_Qle. lia.
Qed.
Lemma nth_sum : forall l, Qsum l == Qsum (map (fun i => nth i l 0) (seq 0 (length l))).
Proof. induction l as [|a l IH]; [reflexivity|]. cbn [length seq map nth]. rewrite !Qsum_cons, IH, <- seq_shift, map_map. reflexivity. Qed.
Lemma Qsum_between : forall (f g : nat -> Q) l, (forall i, In i l -> 0 <= f i /\ f i <= g i) -> 0 <= Qsum (map f l) /\ Qsum (map f l) <= Qsum (map g l).
Proof. induction l as [|a l IH]; intros H; [cbn; split; discriminate|]. cbn [map]. rewrite !Qsum_cons. destruct (H a (or_introl eq_refl)). destruct (IH (fun i Hi => H i (or_intror Hi))). split; lra. Qed.
Lemma moment_within : forall l, (forall q, In q l -> 0 <= q) -> 0 <= moment l /\ moment l <= Qsum l.
Proof.
  intros l H. rewrite (nth_sum l). apply Qsum_between. intros i Hi. apply in_seq in Hi. pose proof (H (nth i l 0) ltac:(apply nth_In; lia)) as N. destruct (position_within (length l) i ltac:(lia)) as [A B]. split; [apply Qmult_le_0_compat; assumption|].
  apply Qle_trans with (1 * nth i l 0); [apply Qmult_le_compat_r; assumption|lra].
Qed.
Lemma sum_nonneg_ : forall l, (forall q, In q l -> 0 <= q) -> 0 <= Qsum l.
Proof. induction l as [|a l IH]; intros H; [discriminate|]. rewrite Qsum_cons. pose proof (H a (or_introl eq_refl)). pose proof (IH (fun q Hq => H q (or_intror Hq))). lra. Qed.
Lemma around_0 : forall d, around d 0 == 0. Proof. intros d. apply (around_exact d 0 0). ring. Qed.
Lemma around_1 : forall d, around d 1 == 1. Proof. intros d. apply (around_exact d 1 (10 ^ Z.of_nat d)). unfold ten. ring. Qed.

Lemma tells_ok : forall root d a r, tells root d (a :: r) (mkSummary (around d (least a r)) (around d (greatest a r)) (around d (mean (a :: r))) (around d (median (a :: r)))
                                 (root d (variance (a :: r))) (length (a :: r)) (option_map (around d) (center (a :: r)))).
Proof.
  intros root d a r. assert (N : a :: r <> []) by discriminate. destruct (least_ok r a) as [L1 L2]. destruct (greatest_ok r a) as [G1 G2].
  assert (B : forall q, In q (a :: r) -> least a r <= q /\ q <= greatest a r) by (intros q Hq; split; auto). destruct (mean_between _ _ _ N B) as [M1 M2]. destruct (median_between _ _ _ N B) as [D1 D2].
  constructor; cbn [su_min su_max su_mean su_median su_std su_len su_center].
  - exists (least a r). split; [exact L1|]. split; [exact L2|]. apply around_rounded.
  - exists (greatest a r). split; [exact G1|]. split; [exact G2|]. apply around_rounded.
  - exists (mean (a :: r)). split; [apply mean_ok; exact N|]. split; [apply around_rounded|]. exists (variance (a :: r)). split; [|reflexivity]. unfold variance at 1. set (g := fun q : Q => (q - mean (a :: r)) * (q - mean (a :: r))).
    unfold mean at 1. replace (count (map g (a :: r))) with (count (a :: r)) by (unfold count; rewrite map_length; reflexivity). pose proof (count_pos _ N). field. lra.
  - exists (median (a :: r)). split; [apply median_ok; exact N|apply around_rounded].
  - reflexivity.
  - unfold center. destruct (Qeq_bool (Qsum (a :: r)) 0) eqn:E; cbn [option_map]; [apply Qeq_bool_eq, E|]. apply Qeq_bool_neq in E. split; [exact E|]. eexists. split; [|apply around_rounded]. rewrite moment_ok. field. exact E.
  - repeat split; apply around_mono; assumption.
  - intros P c. unfold center. destruct (Qeq_bool (Qsum (a :: r)) 0) eqn:E; cbn [option_map]; [discriminate|]. intros H. injection H as <-. apply Qeq_bool_neq in E. pose proof (sum_nonneg_ _ P) as S0. assert (S1 : 0 < Qsum (a :: r)) by (apply Qle_lteq in S0; destruct S0 as [S0|S0]; [exact S0|contradict E; symmetry; exact S0]).
    destruct (moment_within _ P) as [A1 A2]. rewrite <- moment_ok in A1, A2. split; [apply Qle_trans with (around d 0); [rewrite around_0; apply Qle_refl|apply around_mono; apply Qle_shift_div_l; [exact S1|rewrite Qmult_0_l; exact A1]]|apply Qle_trans with (around d 1); [apply around_mono; apply Qle_shift_div_r; [exact S1|rewrite Qmult_1_l; exact A2]|rewrite around_1; apply Qle_refl]].
Qed.

(** ** Documents *)

Lemma describe_shows : forall root flags n d k l c, k <> ADate -> k <> ADatetime -> describe root flags n d k l = Ok c -> shows root flags n d (VArr k l) c.
Proof.
  intros root flags n d k l c N1 N2 H. unfold describe in H. destruct k; try congruence; [| |apply sh_flags; exact H].
  - destruct l as [|a r]; [injection H as <-; apply sh_ints; cbn; lia|]. destruct (Nat.ltb n (length (a :: r))) eqn:E; injection H as <-.
    + apply Nat.ltb_lt in E. apply sh_long; [left; reflexivity|exact E|apply tells_ok].
    + apply Nat.ltb_ge in E. apply sh_ints. exact E.
  - destruct l as [|a r]; [injection H as <-; apply sh_floats; [cbn; lia|constructor]|]. destruct (Nat.ltb n (length (a :: r))) eqn:E; injection H as <-.
    + apply Nat.ltb_lt in E. apply sh_long; [right; reflexivity|exact E|apply tells_ok].
    + apply Nat.ltb_ge in E. apply sh_floats; [exact E|]. clear. change (Forall2 (rounded d) (a :: r) (map (around d) (a :: r))). generalize (a :: r). intros l. induction l as [|b l IH]; constructor; [apply around_rounded|exact IH].
Qed.
Lemma fmt_shows : forall root flags n d v, data true v -> forall c, fmt root flags n d v = Ok c -> shows root flags n d v c.
Proof.
  intros root flags n d. induction v using value_ind2; intros D c F; inversion D; subst; cbn [fmt] in F; try (injection F as <-; apply sh_plain; [constructor|exact I]).
  - apply describe_shows; assumption.
  - apply bind_ok in F. destruct F as [r [F E]]. injection E as <-. apply sh_list. apply mapM_Forall2 in F. revert H H1. clear -F. induction F as [|a b l r Fa F IH]; intros H D; constructor.
    + inversion H; subst. apply H2; [apply D; left; reflexivity|exact Fa].
    + inversion H; subst. apply IH; [assumption|]. intros v Hv. apply D. right. exact Hv.
  - apply bind_ok in F. destruct F as [r [F E]]. injection E as <-. apply sh_dict. apply mapM_Forall2 in F. revert H H1. clear -F. induction F as [|[k a] b l r Fa F IH]; intros H D; constructor.
    + inversion H; subst. cbn [fst snd] in *. apply bind_ok in Fa. destruct Fa as [x [Fa E]]. injection E as <-. cbn [fst snd]. destruct (D k a (or_introl eq_refl)) as [P Da]. split; [reflexivity|]. split; [exact P|]. apply H2; assumption.
    + inversion H; subst. apply IH; [assumption|]. intros k' v Hv. apply D. right. exact Hv.
Qed.

(** ** C87 *)

Theorem C87_shows : forall root flags n d v c, compact root flags n d v = Ok c -> exists w, conv true false v = Ok w /\ shows root flags n d w c.
Proof.
  intros root flags n d v c H. unfold compact in H. apply bind_ok in H. destruct H as [w [E F]]. exists w. split; [exact E|]. apply fmt_shows; [exact (C40_types _ _ _ _ E)|exact F].
Qed.
Print Assumptions C87_shows.

(** Nothing that can be converted fails to be documented, except arrays of truth values; and what results can be written. *)
Lemma shows_written : forall root flags n d v c, (forall l c, flags l = Ok c -> written c) -> shows root flags n d v c -> written c.
Proof.
  intros root flags n d v c W. revert v c. fix IH 3. intros v c H. destruct H as [v J _|l L|l l' L F|k l s K L T|l c F|l l' F|m m' F].
  - apply wr_plain, J.
  - apply wr_nums.
  - apply wr_nums.
  - apply wr_text.
  - exact (W l c F).
  - apply wr_list. induction F as [|a b l l' Fa F IHF]; constructor; [exact (IH _ _ Fa)|exact IHF].
  - apply wr_dict. induction F as [|a b m m' Fa F IHF]; constructor; [|exact IHF]. destruct Fa as [E [P S]]. split; [rewrite E; exact P|exact (IH _ _ S)].
Qed.
Lemma fmt_total : forall root flags n d v, data true v -> flagless v = true -> exists c, fmt root flags n d v = Ok c.
Proof.
  intros root flags n d. induction v using value_ind2; intros D F; inversion D; subst; cbn [fmt]; try (eexists; reflexivity).
  - unfold describe. destruct k; try congruence; try discriminate F; (destruct l as [|a r]; [eexists; reflexivity|destruct (Nat.ltb n (length (a :: r))); eexists; reflexivity]).
  - cbn [flagless] in F. rewrite forallb_forall in F. rewrite Forall_forall in H. destruct (mapM_total (fmt root flags n d) l) as [r E]; [intros a Ha; apply H; auto|]. rewrite E. eexists. reflexivity.
  - cbn [flagless] in F. rewrite forallb_forall in F. rewrite Forall_forall in H. destruct (mapM_total (fun kv => a <- fmt root flags n d (snd kv) ;; Ok (fst kv, a)) d0) as [r E].
    + intros [k a] Ha. cbn [fst snd]. destruct (H _ Ha) as [_ Ia]. cbn [snd] in Ia. destruct (Ia (proj2 (H1 k a Ha)) (F _ Ha)) as [c E]. rewrite E. eexists. reflexivity.
    + rewrite E. eexists. reflexivity.
Qed.
Theorem C87_written : forall root flags n d v w, conv true false v = Ok w -> flagless w = true -> exists c, compact root flags n d v = Ok c /\ written c.
Proof.
  intros root flags n d v w E F. assert (D := C40_types _ _ _ _ E). destruct (fmt_total root flags n d w D F) as [c Hc]. exists c. unfold compact. rewrite E. cbn [bind]. split; [exact Hc|].
  assert (FL : forall v, flagless v = true -> data true v -> forall c, fmt root flags n d v = Ok c -> fmt root (fun _ => Err TypeError) n d v = Ok c).
  { clear. induction v using value_ind2; intros F D c Hc; inversion D; subst; cbn [fmt] in *; try exact Hc.
    - unfold describe in *. destruct k; try congruence; try discriminate F; exact Hc.
    - cbn [flagless] in F. rewrite forallb_forall in F. rewrite Forall_forall in H. rewrite <- Hc. f_equal. apply mapM_ext. intros a Ha. destruct (fmt_total root flags n d a (H1 a Ha) (F a Ha)) as [x E]. rewrite E. apply (H a Ha (F a Ha) (H1 a Ha)). exact E.
    - cbn [flagless] in F. rewrite forallb_forall in F. rewrite Forall_forall in H. rewrite <- Hc. f_equal. apply mapM_ext. intros [k a] Ha. cbn [fst snd]. destruct (fmt_total root flags n d a (proj2 (H1 k a Ha)) (F _ Ha)) as [x E]. rewrite E. pose proof (proj2 (H _ Ha) (F _ Ha) (proj2 (H1 k a Ha)) x E) as X. cbn [snd] in X. rewrite X. reflexivity. }
  apply (shows_written root (fun _ => Err TypeError) n d w c); [discriminate|]. apply fmt_shows; [exact D|]. apply FL; assumption.
Qed.
Print Assumptions C87_written.

(** Arrays that look the same: the values differ by one unit of the last decimal at most. Numbers with no more decimals are shown as
    they are. *)
Theorem C87_compare : forall root flags n d l l' c, (length l <= n)%nat -> (length l' <= n)%nat -> compact root flags n d (VArr AFlt l) = Ok c -> compact root flags n d (VArr AFlt l') = Ok c ->
  length l = length l' /\ forall i, nth i l 0 - nth i l' 0 <= 1 / ten d /\ nth i l' 0 - nth i l 0 <= 1 / ten d.
Proof.
  assert (U : forall root flags n d l c, (length l <= n)%nat -> compact root flags n d (VArr AFlt l) = Ok c -> c = CNums (map (around d) l)).
  { intros root flags n d l c L H. unfold compact in H. cbn [conv conv_array bind fmt] in H. unfold describe in H. destruct l as [|a r]; [injection H as <-; reflexivity|]. destruct (Nat.ltb n (length (a :: r))) eqn:E; [apply Nat.ltb_lt in E; lia|]. injection H as <-. reflexivity. }
  intros root flags n d l l' c L L' H H'. rewrite (U _ _ _ _ _ _ L H) in H'. pose proof (U _ _ _ _ _ _ L' H') as E. injection E as E.
  assert (LE : length l = length l') by (rewrite <- (map_length (around d) l), E, map_length; reflexivity). split; [exact LE|]. intros i. pose proof (ten_pos d) as T.
  destruct (Nat.lt_ge_cases i (length l)) as [Hi|Hi].
  - assert (X : around d (nth i l 0) = around d (nth i l' 0)) by (rewrite <- !(map_nth (around d)), E; reflexivity). destruct (around_rounded d (nth i l 0)) as [_ [A1 A2]]. destruct (around_rounded d (nth i l' 0)) as [_ [B1 B2]]. rewrite X in A1, A2.
    setoid_replace (1 / ten d) with ((1 # 2) / ten d + (1 # 2) / ten d) by (field; lra). split; lra.
  - rewrite !nth_overflow by lia. assert (P : 0 <= 1 / ten d) by (apply Qle_shift_div_l; [exact T|lra]). split; lra.
Qed.
Print Assumptions C87_compare.
Theorem C87_exact : forall root flags n d l c, (length l <= n)%nat -> (forall q, In q l -> exists z, q * ten d == inject_Z z) -> compact root flags n d (VArr AFlt l) = Ok c ->
  exists l', c = CNums l' /\ Forall2 Qeq l l'.
Proof.
  intros root flags n d l c L Z H. unfold compact in H. cbn [conv conv_array bind fmt] in H. unfold describe in H. destruct l as [|a r]; [injection H as <-; exists []; split; [reflexivity|constructor]|]. destruct (Nat.ltb n (length (a :: r))) eqn:E; [apply Nat.ltb_lt in E; lia|]. injection H as <-.
  eexists. split; [reflexivity|]. change (Forall2 Qeq (a :: r) (map (around d) (a :: r))). revert Z. clear. generalize (a :: r). intros l Z. induction l as [|b l IH]; constructor; [|apply IH; intros q Hq; apply Z; right; exact Hq]. destruct (Z b (or_introl eq_refl)) as [z E]. symmetry. exact (around_exact d b z E).
Qed.
Print Assumptions C87_exact.

(** ** Whole systems *)

(** Each of [l] (label and information) appears once, under its label, in alphabetical order; upper and lower case count the same. *)
Fixpoint letter_at (a : ascii) (s : string) : option nat := match s with EmptyString => None | String b r => if Ascii.eqb a b then Some 0%nat else option_map S (letter_at a r) end.
Definition capital (a : ascii) : ascii :=
  match letter_at a "abcdefghijklmnopqrstuvwxyz" with Some n => match String.get n "ABCDEFGHIJKLMNOPQRSTUVWXYZ" with Some b => b | None => a end | None => a end.
Fixpoint capitals (s : string) : string := match s with EmptyString => EmptyString | String a r => String (capital a) (capitals r) end.
Fixpoint not_after (s t : string) : Prop :=
  match s, t with
  | EmptyString, _ => True
  | String _ _, EmptyString => False
  | String a r, String b q => (nat_of_ascii a < nat_of_ascii b)%nat \/ (a = b /\ not_after r q)
  end.
Definition in_order (keys : list pyval) : Prop :=
  forall i j s t, (i < j)%nat -> nth_error keys i = Some (VStr s) -> nth_error keys j = Some (VStr t) -> not_after (capitals s) (capitals t).
Record chapter (root : nat -> Q -> Q) (flags : list Q -> res cval) (l : list (string * res pyval)) (d : list (pyval * cval)) : Prop := {
  ch_labels : Permutation (map fst d) (map (fun x => VStr (fst x)) l);
  ch_order : in_order (map fst d);
  ch_entries : forall label r, In (label, r) l -> exists v w c, r = Ok v /\ conv true false v = Ok w /\ In (VStr label, c) d /\ shows root flags 50 2 w c
}.

Lemma str_leb_refl : forall s, str_leb s s = true.
Proof. intros s. unfold str_leb. destruct (String.compare s s) eqn:E; try reflexivity. pose proof (String.compare_antisym s s) as A. rewrite E in A. discriminate A. Qed.
Lemma str_leb_total : forall s t, str_leb s t = false -> str_leb t s = true.
Proof. intros s t. unfold str_leb. rewrite (String.compare_antisym t s). destruct (String.compare s t); cbn; congruence. Qed.
Lemma str_leb_antisym : forall s t, str_leb s t = true -> str_leb t s = true -> s = t.
Proof. intros s t. unfold str_leb. rewrite (String.compare_antisym t s). destruct (String.compare s t) eqn:E; cbn; try discriminate. intros _ _. apply String.compare_eq_iff, E. Qed.
Lemma str_leb_cons : forall a b s t, str_leb (String a s) (String b t) = match Ascii.compare a b with Eq => str_leb s t | Lt => true | Gt => false end.
Proof. intros a b s t. unfold str_leb. cbn [String.compare]. destruct (Ascii.compare a b); reflexivity. Qed.
Lemma up_capital : forall a, up a = capital a.
Proof. intros [[] [] [] [] [] [] [] []]; reflexivity. Qed.
Lemma upper_capitals : forall s, upper s = capitals s.
Proof. induction s as [|a s IH]; [reflexivity|]. cbn [upper capitals]. rewrite up_capital, IH. reflexivity. Qed.
Lemma str_leb_not_after : forall s t, str_leb s t = true -> not_after s t.
Proof.
  induction s as [|a s IH]; intros [|b t] H; try exact Logic.I; try discriminate H. rewrite str_leb_cons in H. cbn [not_after]. unfold Ascii.compare in H.
  destruct (N.compare_spec (N_of_ascii a) (N_of_ascii b)) as [E|E|E]; try discriminate H.
  - right. split; [|exact (IH t H)]. rewrite <- (ascii_N_embedding a), <- (ascii_N_embedding b), E. reflexivity.
  - left. unfold nat_of_ascii. lia.
Qed.
Lemma str_leb_trans : forall s t u, str_leb s t = true -> str_leb t u = true -> str_leb s u = true.
Proof.
  induction s as [|a s IH]; intros [|b t] [|c u]; try reflexivity; try discriminate. rewrite !str_leb_cons. unfold Ascii.compare.
  destruct (N.compare_spec (N_of_ascii a) (N_of_ascii b)) as [E1|E1|E1]; try discriminate; destruct (N.compare_spec (N_of_ascii b) (N_of_ascii c)) as [E2|E2|E2]; try discriminate; intros H1 H2.
  - rewrite E1, E2, N.compare_refl. exact (IH t u H1 H2).
  - rewrite E1. rewrite (proj2 (N.compare_lt_iff _ _) E2). reflexivity.
  - rewrite <- E2. rewrite (proj2 (N.compare_lt_iff _ _) E1). reflexivity.
  - rewrite (proj2 (N.compare_lt_iff (N_of_ascii a) (N_of_ascii c))); [reflexivity|lia].
Qed.
Lemma place_perm : forall {A} (key : A -> string) a l, Permutation (place key a l) (a :: l).
Proof. induction l as [|b l IH]; [reflexivity|]. cbn [place]. destruct (str_leb (key a) (key b)); [reflexivity|]. rewrite IH. apply perm_swap. Qed.
Lemma sort_perm : forall {A} (key : A -> string) l, Permutation (sort_by key l) l.
Proof. induction l as [|a l IH]; [reflexivity|]. cbn [sort_by fold_right]. rewrite place_perm. constructor. exact IH. Qed.
Inductive ordered {A} (key : A -> string) : list A -> Prop :=
| or_nil : ordered key []
| or_cons a l : (forall b, In b l -> str_leb (key a) (key b) = true) -> ordered key l -> ordered key (a :: l).
Lemma place_ordered : forall {A} (key : A -> string) a l, ordered key l -> ordered key (place key a l).
Proof.
  intros A key a l R. induction R as [|b l Hb R IH]; [constructor; [intros c []|constructor]|]. cbn [place]. destruct (str_leb (key a) (key b)) eqn:E.
  - constructor; [|constructor; assumption]. intros c [<-|Hc]; [exact E|apply str_leb_trans with (key b); auto].
  - constructor; [|exact IH]. intros c Hc. apply (Permutation_in _ (place_perm key a l)) in Hc. destruct Hc as [<-|Hc]; [apply str_leb_total, E|auto].
Qed.
Lemma sort_ordered : forall {A} (key : A -> string) l, ordered key (sort_by key l).
Proof. induction l as [|a l IH]; [constructor|]. apply place_ordered. exact IH. Qed.
Lemma ordered_unique : forall {A} (key : A -> string) l, ordered key l -> forall m, ordered key m -> Permutation l m -> NoDup (map key l) -> l = m.
Proof.
  intros A key l R. induction R as [|a l Ha R IH]; intros m M P N; [apply Permutation_nil in P; auto|]. destruct M as [|b m Hb M]; [apply Permutation_sym, Permutation_nil in P; discriminate|].
  assert (E : a = b).
  { assert (Ia : In a (b :: m)) by (apply (Permutation_in _ P); left; reflexivity). assert (Ib : In b (a :: l)) by (apply (Permutation_in _ (Permutation_sym P)); left; reflexivity).
    destruct Ia as [Ia|Ia]; [auto|]. destruct Ib as [Ib|Ib]; [auto|]. exfalso. cbn [map] in N. inversion N as [|x y N1 N2]; subst. apply N1. rewrite (str_leb_antisym _ _ (Ha b Ib) (Hb a Ia)). apply in_map, Ib. }
  subst b. f_equal. apply IH; [exact M|apply Permutation_cons_inv in P; exact P|cbn [map] in N; inversion N; assumption].
Qed.
Lemma sort_same : forall {A} (key : A -> string) l m, Permutation l m -> NoDup (map key l) -> sort_by key l = sort_by key m.
Proof.
  intros A key l m P N. apply (ordered_unique key); try apply sort_ordered.
  - rewrite (sort_perm key l), (sort_perm key m). exact P.
  - apply (Permutation_NoDup (l := map key l)); [apply Permutation_map, Permutation_sym, sort_perm|exact N].
Qed.

(** The document does not depend on the order in which the elements were added, if no two labels differ only in case. *)
Definition apart_labels (l : list string) : Prop := NoDup (map capitals l).
Lemma section_same : forall l m, Permutation l m -> apart_labels (map fst l) -> section l = section m.
Proof. intros l m P N. unfold section. rewrite (sort_same (fun x => upper (fst x)) l m P); [reflexivity|]. unfold apart_labels in N. rewrite map_map in N. erewrite map_ext; [exact N|]. intros a. apply upper_capitals. Qed.
Theorem C87_order : forall root flags comps comps' buses buses' effects effects',
  Permutation comps comps' -> Permutation buses buses' -> Permutation effects effects' ->
  apart_labels (map de_label comps) -> apart_labels (map fst buses) -> apart_labels (map fst effects) ->
  system_document root flags comps buses effects = system_document root flags comps' buses' effects'.
Proof.
  intros root flags comps comps' buses buses' effects effects' P1 P2 P3 N1 N2 N3. unfold system_document, system_infos.
  rewrite (section_same (map (fun c => (de_label c, component_infos c)) comps) (map (fun c => (de_label c, component_infos c)) comps')); [|apply Permutation_map, P1|rewrite map_map; exact N1].
  rewrite (section_same (map element_infos buses) (map element_infos buses')); [|apply Permutation_map, P2|rewrite map_map; exact N2].
  rewrite (section_same (map element_infos effects) (map element_infos effects')); [reflexivity|apply Permutation_map, P3|rewrite map_map; exact N3].
Qed.
Print Assumptions C87_order.

Lemma dict_new : forall items d, NoDup (map fst d ++ map fst items) -> (forall k, In k (map fst items) \/ In k (map fst d) -> exists s, k = VStr s) ->
  fold_left (fun d kv => put (fst kv) (snd kv) d) items d = d ++ items.
Proof.
  induction items as [|[k v] items IH]; intros d N S; [rewrite app_nil_r; reflexivity|]. cbn [fold_left fst snd].
  assert (NK : forall k', In k' (map fst d) -> key_eqb k k' = false).
  { intros k' H. destruct (S k (or_introl (or_introl eq_refl))) as [s ->]. destruct (S k' (or_intror H)) as [t ->]. cbn [key_eqb]. apply String.eqb_neq. intros ->. cbn [map fst] in N. apply NoDup_remove_2 in N. apply N. apply in_app_iff. left. exact H. }
  rewrite put_new by exact NK. rewrite IH.
  - rewrite <- app_assoc. reflexivity.
  - rewrite map_app, <- app_assoc. exact N.
  - intros k' H. rewrite map_app, in_app_iff in H. cbn [map fst In] in *. apply S. intuition.
Qed.
Lemma dict_of_new : forall items, NoDup (map fst items) -> (forall k, In k (map fst items) -> exists s, k = VStr s) -> dict_of items = items.
Proof. intros items N S. unfold dict_of. rewrite dict_new; [reflexivity|exact N|]. intros k [H|[]]. auto. Qed.
Lemma ordered_nth : forall {A} (key : A -> string) l, ordered key l -> forall i j a b, (i < j)%nat -> nth_error l i = Some a -> nth_error l j = Some b -> str_leb (key a) (key b) = true.
Proof.
  intros A key l R. induction R as [|c l Hc R IH]; intros i j a b L I J; [destruct i; discriminate|]. destruct j as [|j]; [lia|]. destruct i as [|i]; cbn in I, J.
  - injection I as <-. apply Hc. apply nth_error_In in J. exact J.
  - apply (IH i j); [lia|exact I|exact J].
Qed.
Lemma chapter_ok : forall root flags l v, NoDup (map fst l) -> section l = Ok v -> forall w c, conv true false v = Ok w -> fmt root flags 50 2 w = Ok c -> exists d, c = CDict d /\ chapter root flags l d.
Proof.
  intros root flags l v N SE w c CV FM. unfold section in SE. apply bind_ok in SE. destruct SE as [r [M E]]. injection E as <-. pose proof (sort_perm (fun x : string * res pyval => upper (fst x)) l) as SP. pose proof (sort_ordered (fun x : string * res pyval => upper (fst x)) l) as SO.
  set (s := sort_by _ l) in *. apply mapM_Forall2 in M.
  assert (K : map fst r = map VStr (map fst s)).
  { clear -M. induction M as [|a b s r H M IH]; [reflexivity|]. apply bind_ok in H. destruct H as [v [_ E]]. injection E as <-. cbn [map fst]. f_equal. exact IH. }
  assert (NS_ : NoDup (map fst s)) by (apply (Permutation_NoDup (l := map fst l)); [apply Permutation_map, Permutation_sym, SP|exact N]).
  assert (NR : NoDup (map fst r)) by (rewrite K; apply FinFun.Injective_map_NoDup; [intros a b E; injection E as <-; reflexivity|exact NS_]).
  rewrite dict_of_new in CV; [|exact NR|intros k H; rewrite K in H; apply in_map_iff in H; destruct H as [t [<- _]]; exists t; reflexivity].
  cbn [conv] in CV. apply bind_ok in CV. destruct CV as [x [FO E]]. injection E as <-. apply conv_dict_items in FO; [|rewrite K; apply separate_strings; exact NS_].
  cbn [fmt] in FM. apply bind_ok in FM. destruct FM as [d [FM E]]. injection E as <-. exists d. split; [reflexivity|]. apply mapM_Forall2 in FM.
  assert (ALL : Forall2 (fun (a : string * res pyval) (b : pyval * cval) => fst b = VStr (fst a) /\ exists v w, snd a = Ok v /\ conv true false v = Ok w /\ shows root flags 50 2 w (snd b)) s d).
  { clear -M FO FM. revert x d FO FM. induction M as [|a b s r H M IH]; intros x d FO FM; inversion FO as [|p q r0 x0 [Q1 Q2] FO0]; subst; inversion FM as [|p' q' r1 d0 FM1 FM0]; subst; [constructor|]. constructor; [|eapply IH; eassumption].
    apply bind_ok in H. destruct H as [v [H E]]. injection E as <-. cbn [fst snd] in *. apply bind_ok in FM1. destruct FM1 as [c [FM1 E]]. injection E as <-. cbn [fst snd]. split; [exact Q1|]. exists v, (snd q). split; [exact H|]. split; [exact Q2|]. apply fmt_shows; [exact (C40_types _ _ _ _ Q2)|exact FM1]. }
  assert (KD : map fst d = map (fun a : string * res pyval => VStr (fst a)) s) by (clear -ALL; induction ALL as [|a b s d [E _] A IH]; [reflexivity|cbn [map]; rewrite E, IH; reflexivity]).
  constructor.
  - rewrite KD. apply Permutation_map, SP.
  - intros i j a b L I J. rewrite KD, nth_error_map in I, J. destruct (nth_error s i) as [p|] eqn:EI; [|discriminate I]. destruct (nth_error s j) as [q|] eqn:EJ; [|discriminate J]. cbn in I, J. injection I as <-. injection J as <-. rewrite <- !upper_capitals. apply str_leb_not_after. exact (ordered_nth _ _ SO i j p q L EI EJ).
  - intros label rv H. apply (Permutation_in _ (Permutation_sym SP)) in H. clear -ALL H. induction ALL as [|a b s d [E1 [v [w [E2 [E3 E4]]]]] A IH]; [destruct H|]. destruct H as [->|H].
    + exists v, w, (snd b). split; [exact E2|]. split; [exact E3|]. split; [left; destruct b; cbn [fst snd] in *; rewrite E1; reflexivity|exact E4].
    + destruct (IH H) as [v' [w' [c' [H1 [H2 [H3 H4]]]]]]. exists v', w', c'. split; [exact H1|]. split; [exact H2|]. split; [right; exact H3|exact H4].
Qed.

(** The document of a system: components, buses and effects, each under its label. *)
Theorem C87_system : forall root flags comps buses effects doc, NoDup (map de_label comps) -> NoDup (map fst buses) -> NoDup (map fst effects) ->
  system_document root flags comps buses effects = Ok doc ->
  exists cd bd ed, doc = CDict [(VStr "Components", CDict cd); (VStr "Buses", CDict bd); (VStr "Effects", CDict ed)]
    /\ chapter root flags (map (fun c => (de_label c, component_infos c)) comps) cd
    /\ chapter root flags (map element_infos buses) bd /\ chapter root flags (map element_infos effects) ed.
Proof.
  intros root flags comps buses effects doc N1 N2 N3 H. unfold system_document, system_infos in H. apply bind_ok in H. destruct H as [i [H C]]. apply bind_ok in H. destruct H as [c [Hc H]]. apply bind_ok in H. destruct H as [b [Hb H]]. apply bind_ok in H. destruct H as [e [He H]]. injection H as <-.
  unfold compact in C. apply bind_ok in C. destruct C as [w [CV FM]]. cbn [conv] in CV. apply bind_ok in CV. destruct CV as [x [FO E]]. injection E as <-. apply conv_dict_items in FO; [|reflexivity].
  inversion FO as [|p1 [k1 w1] r1 x1 [K1 V1] FO1]; subst. inversion FO1 as [|p2 [k2 w2] r2 x2 [K2 V2] FO2]; subst. inversion FO2 as [|p3 [k3 w3] r3 x3 [K3 V3] FO3]; subst. inversion FO3; subst. cbn [fst snd key_name] in *. subst k1 k2 k3.
  cbn [fmt mapM fst snd] in FM. apply bind_ok in FM. destruct FM as [d [FM E]]. injection E as <-.
  destruct (fmt root flags 50 2 w1) as [c1|] eqn:F1; cbn [bind] in FM; [|discriminate]. destruct (fmt root flags 50 2 w2) as [c2|] eqn:F2; cbn [bind] in FM; [|discriminate]. destruct (fmt root flags 50 2 w3) as [c3|] eqn:F3; cbn [bind] in FM; [|discriminate]. injection FM as <-.
  destruct (chapter_ok root flags (map (fun c => (de_label c, component_infos c)) comps) c) with (w := w1) (c := c1) as [cd [-> CH1]]; [rewrite map_map; exact N1|exact Hc|exact V1|exact F1|].
  destruct (chapter_ok root flags (map element_infos buses) b) with (w := w2) (c := c2) as [bd [-> CH2]]; [rewrite map_map; exact N2|exact Hb|exact V2|exact F2|].
  destruct (chapter_ok root flags (map element_infos effects) e) with (w := w3) (c := c3) as [ed [-> CH3]]; [rewrite map_map; exact N3|exact He|exact V3|exact F3|].
  exists cd, bd, ed. split; [reflexivity|]. split; [exact CH1|]. split; [exact CH2|exact CH3].
Qed.
Print Assumptions C87_system.

(** The flows of a component are described in full at their side of the component, with the direction. *)
Lemma key_eqb_str : forall k s, key_eqb k (VStr s) = true -> k = VStr s.
Proof. intros [| b | np i q | t | t | t | t | k l | l | l | l | d | a | lb cl ar |] s H; cbn in H; try discriminate H. apply String.eqb_eq in H. subst. reflexivity. Qed.
Lemma key_eqb_str' : forall k s, key_eqb (VStr s) k = true -> k = VStr s.
Proof. intros [| b | np i q | t | t | t | t | k l | l | l | l | d | a | lb cl ar |] s H; cbn in H; try discriminate H. apply String.eqb_eq in H. subst. reflexivity. Qed.
Lemma get_put : forall s v d, get (VStr s) (put (VStr s) v d) = Some v.
Proof.
  intros s v d. unfold get. induction d as [|[k a] d IH]; cbn [put find fst]; [cbn; rewrite String.eqb_refl; reflexivity|]. destruct (key_eqb (VStr s) k) eqn:E; cbn [find fst].
  - apply key_eqb_str' in E. subst k. cbn [key_eqb]. rewrite String.eqb_refl. reflexivity.
  - destruct (key_eqb k (VStr s)) eqn:E'; [apply key_eqb_str in E'; subst k; cbn [key_eqb] in E; rewrite String.eqb_refl in E; discriminate|exact IH].
Qed.
Lemma get_put_other : forall s t v d, s <> t -> get (VStr s) (put (VStr t) v d) = get (VStr s) d.
Proof.
  intros s t v d N. unfold get. induction d as [|[k a] d IH]; cbn [put find fst]; [cbn; apply String.eqb_neq in N; rewrite String.eqb_sym in N; rewrite N; reflexivity|]. destruct (key_eqb (VStr t) k) eqn:E; cbn [find fst].
  - apply key_eqb_str' in E. subst k. cbn [key_eqb]. apply String.eqb_neq in N. rewrite String.eqb_sym in N. rewrite N. reflexivity.
  - destruct (key_eqb k (VStr s)); [reflexivity|exact IH].
Qed.
Theorem C87_flows : forall c v, component_infos c = Ok v ->
  exists d i o, v = VDict d /\ get (VStr "inputs") d = Some (VList i) /\ get (VStr "outputs") d = Some (VList o)
    /\ Forall2 (fun f x => exists g, x = VDict g /\ get (VStr "is_input_in_component") g = Some (VBool true)
                            /\ exists g0, infos (snd f) = Ok g0 /\ forall s, s <> "is_input_in_component"%string -> get (VStr s) g = get (VStr s) g0) (de_in c) i
    /\ Forall2 (fun f x => exists g b, x = VDict g /\ get (VStr "is_input_in_component") g = Some (VBool b) /\ (b = true <-> In (fst f) (map fst (de_in c)))
                            /\ exists g0, infos (snd f) = Ok g0 /\ forall s, s <> "is_input_in_component"%string -> get (VStr s) g = get (VStr s) g0) (de_out c) o
    /\ exists d0, infos (de_self c) = Ok d0 /\ forall s, s <> "inputs"%string -> s <> "outputs"%string -> get (VStr s) d = get (VStr s) d0.
Proof.
  intros c v H. unfold component_infos in H. apply bind_ok in H. destruct H as [d0 [H0 H]]. apply bind_ok in H. destruct H as [i [Hi H]]. apply bind_ok in H. destruct H as [o [Ho H]]. injection H as <-.
  assert (IN : forall f, is_in c f = true <-> In (fst f) (map fst (de_in c))).
  { intros f. unfold is_in. rewrite existsb_exists, in_map_iff. split; intros [g [A B]]; exists g; [apply Nat.eqb_eq in B; auto|split; [exact B|rewrite A; apply Nat.eqb_refl]]. }
  eexists _, i, o. split; [reflexivity|]. split; [rewrite get_put_other by discriminate; apply get_put|]. split; [apply get_put|]. split; [|split].
  - apply mapM_Forall2 in Hi. assert (SUB : forall f, In f (de_in c) -> is_in c f = true) by (intros f Hf; apply IN, in_map, Hf). revert Hi SUB. clear. generalize (de_in c). intros l F. induction F as [|f x l i E F IH]; intros SUB; constructor; [|apply IH; intros g Hg; apply SUB; right; exact Hg].
    rewrite (SUB f (or_introl eq_refl)) in E. unfold flow_infos in E. apply bind_ok in E. destruct E as [g0 [E0 E]]. injection E as <-. eexists. split; [reflexivity|]. split; [apply get_put|]. exists g0. split; [exact E0|]. intros s N. apply get_put_other, N.
  - apply mapM_Forall2 in Ho. revert Ho IN. clear. generalize (de_out c). intros l F IN. induction F as [|f x l o E F IH]; constructor; [|exact IH].
    unfold flow_infos in E. apply bind_ok in E. destruct E as [g0 [E0 E]]. injection E as <-. eexists _, (is_in c f). split; [reflexivity|]. split; [apply get_put|]. split; [apply IN|]. exists g0. split; [exact E0|]. intros s N. apply get_put_other, N.
  - exists d0. split; [exact H0|]. intros s N1 N2. rewrite !get_put_other by assumption. reflexivity.
Qed.
Print Assumptions C87_flows.

(** ** Examples *)

Definition doc_root (d : nat) (q : Q) : Q := around d q.
Definition doc_flags (l : list Q) : res cval := Err TypeError.
Definition doc_bus : pyval := VObj (Some "Heat") "Bus:Element:Interface:object" [("label", (VStr "Heat", false)); ("excess_penalty_per_flow_hour", (VNum false false 100000, true)); ("meta_data", (VDict [], false))].
Definition doc_flow : pyval :=
  VObj (Some "Q_th") "Flow:Element:Interface:object" [("label", (VStr "Q_th", false)); ("bus", (doc_bus, false)); ("relative_maximum", (VSeries (VArr AFlt [1; 1 # 3; 2 # 3]), false)); ("size", (VNum true false 50, false))].
Definition doc_comp : described :=
  mkDescribed "Boiler" (VObj (Some "Boiler") "Boiler:LinearConverter:Component:Element:Interface:object" [("label", (VStr "Boiler", false)); ("gain", (VSeries (VArr AFlt (map (fun i => inject_Z (Z.of_nat i)) (seq 0 60))), false))]) [] [(1%nat, doc_flow)].
Definition doc_effect : string * pyval := ("costs", VObj (Some "costs") "Effect:Element:Interface:object" [("label", (VStr "costs", false)); ("unit", (VStr "EUR", false)); ("is_standard", (VBool true, false))]).
(** The whole document: the share of the flow is rounded, a factor over 60 steps is summarised, defaults are left out. *)
Example C87_applies : exists s, system_document doc_root doc_flags [doc_comp] [("Heat", doc_bus)] [doc_effect] = Ok
  (CDict [(VStr "Components", CDict [(VStr "Boiler", CDict [(VStr "class", CVal (VStr "Boiler:LinearConverter:Component:Element:Interface:object")); (VStr "label", CVal (VStr "Boiler")); (VStr "gain", CText s); (VStr "inputs", CNums []);
            (VStr "outputs", CList [CDict [(VStr "class", CVal (VStr "Flow:Element:Interface:object")); (VStr "label", CVal (VStr "Q_th")); (VStr "bus", CVal (VStr "Heat"));
                                           (VStr "relative_maximum", CNums [around 2 1; around 2 (1 # 3); around 2 (2 # 3)]); (VStr "size", CVal (VNum false false 50)); (VStr "is_input_in_component", CVal (VBool false))]])])]);
          (VStr "Buses", CDict [(VStr "Heat", CDict [(VStr "class", CVal (VStr "Bus:Element:Interface:object")); (VStr "label", CVal (VStr "Heat"))])]);
          (VStr "Effects", CDict [(VStr "costs", CDict [(VStr "class", CVal (VStr "Effect:Element:Interface:object")); (VStr "label", CVal (VStr "costs")); (VStr "unit", CVal (VStr "EUR")); (VStr "is_standard", CVal (VBool true))])])])
  /\ su_len s = 60%nat /\ su_min s == 0 /\ su_max s == 59 /\ su_mean s == 59 # 2 /\ su_median s == 59 # 2 /\ (exists c, su_center s = Some c /\ c == 67 # 100)
  /\ around 2 (1 # 3) == 33 # 100 /\ around 2 (2 # 3) == 67 # 100.
Proof. eexists. split; [vm_compute; reflexivity|]. repeat split; try (vm_compute; reflexivity). eexists. split; vm_compute; reflexivity. Qed.
(** Labels that differ only in case: the order of adding shows. *)
Example C87_case_matters :
  let b s := (s, VObj (Some s) "Bus" [("label", (VStr s, false))]) in
  system_document doc_root doc_flags [] [b "heat"; b "Heat"] [] <> system_document doc_root doc_flags [] [b "Heat"; b "heat"] []
  /\ system_document doc_root doc_flags [] [b "heat"; b "Gas"] [] = system_document doc_root doc_flags [] [b "Gas"; b "heat"] [].
Proof. split; [vm_compute; discriminate|vm_compute; reflexivity]. Qed.
(** The hypotheses of the comparison and of exactness: two arrays that look the same, and one with two decimals. *)
Example C87_lookalikes : compact doc_root doc_flags 50 2 (VArr AFlt [1 # 3; 5]) = compact doc_root doc_flags 50 2 (VArr AFlt [331 # 1000; 5])
  /\ (forall q, In q [125 # 100; 3] -> exists z, q * ten 2 == inject_Z z).
Proof. split; [vm_compute; reflexivity|]. intros q [<-|[<-|[]]]; [exists 125%Z|exists 300%Z]; reflexivity. Qed.
