(** A program of linear rules with some 0/1 variables that has a solution and whose objective is bounded below attains its
    smallest objective. Proof by elimination of variables (Fourier and Motzkin), exact over the rational numbers. *)
From Verif Require Import Base BaseFacts MathModel Spec.
From Coq Require Import Lqa Qround Bool.

Section Elim.
Context {A : Type} (dec : forall a b : A, {a = b} + {a <> b}).

Definition lterm : Type := (Q * A)%type.
Definition lrow : Type := (list lterm * Q)%type.
Definition ev (x : A -> Q) (ts : list lterm) : Q := Qsum (map (fun t : lterm => fst t * x (snd t)) ts).
Definition sat (x : A -> Q) (sys : list lrow) : Prop := forall r, In r sys -> ev x (fst r) <= snd r.

Definition is_key (k : A) (t : lterm) : bool := if dec (snd t) k then true else false.
Definition coef (k : A) (ts : list lterm) : Q := Qsum (map fst (filter (is_key k) ts)).
Definition without (k : A) (ts : list lterm) : list lterm := filter (fun t => negb (is_key k t)) ts.
Definition upd (x : A -> Q) (k : A) (v : Q) : A -> Q := fun a => if dec a k then v else x a.
Definition scale (c : Q) (ts : list lterm) : list lterm := map (fun t : lterm => (c * fst t, snd t)) ts.

Lemma ev_scale x c ts : ev x (scale c ts) == c * ev x ts.
Proof.
  unfold ev, scale. rewrite map_map. rewrite <- BaseFacts.Qsum_scale. apply Qsum_map_eq. intros t _. cbn. ring.
Qed.
Lemma ev_app x a b : ev x (a ++ b) == ev x a + ev x b.
Proof. unfold ev. rewrite map_app. apply Qsum_app. Qed.
Lemma ev_upd x k v ts : ev (upd x k v) ts == coef k ts * v + ev x (without k ts).
Proof.
  induction ts as [|[q a] ts IH]; [cbn; ring|].
  assert (E : ev (upd x k v) ((q, a) :: ts) == q * upd x k v a + ev (upd x k v) ts) by reflexivity. rewrite E, IH. unfold coef, without, is_key, upd. cbn [filter snd].
  destruct (dec a k) as [->|D]; cbn [negb map fst]; [rewrite Qsum_cons; ring|]. unfold ev. cbn [map fst snd]. rewrite Qsum_cons. ring.
Qed.
Lemma ev_ext x y ts : (forall t, In t ts -> x (snd t) == y (snd t)) -> ev x ts == ev y ts.
Proof. intros H. unfold ev. apply Qsum_map_eq. intros t Ht. now rewrite (H t Ht). Qed.
Lemma ev_without_same x k v ts : ev (upd x k v) (without k ts) == ev x (without k ts).
Proof.
  apply ev_ext. intros t Ht. unfold without in Ht. apply filter_In in Ht. destruct Ht as [_ Ht]. unfold is_key in Ht. unfold upd.
  destruct (dec (snd t) k); [discriminate | reflexivity].
Qed.

(** Elimination of one variable: what the rules that bound it from below and from above say together. *)
Definition above_ (k : A) (r : lrow) : bool := if Qlt_le_dec 0 (coef k (fst r)) then true else false.
Definition below_ (k : A) (r : lrow) : bool := if Qlt_le_dec (coef k (fst r)) 0 then true else false.
Definition joined (k : A) (u l : lrow) : lrow :=
  (scale (/ coef k (fst u)) (without k (fst u)) ++ scale (/ - coef k (fst l)) (without k (fst l)),
   / coef k (fst u) * snd u + / - coef k (fst l) * snd l).
Definition elim (k : A) (sys : list lrow) : list lrow :=
  map (fun r => (without k (fst r), snd r)) (filter (fun r => negb (above_ k r) && negb (below_ k r)) sys)
  ++ flat_map (fun u => map (joined k u) (filter (below_ k) sys)) (filter (above_ k) sys).

(** The bound a rule puts on the variable. *)
Definition bound (x : A -> Q) (k : A) (r : lrow) : Q := (snd r - ev x (without k (fst r))) / coef k (fst r).

Lemma bound_above x k v r : above_ k r = true -> (ev (upd x k v) (fst r) <= snd r <-> v <= bound x k r).
Proof.
  unfold above_, bound. destruct (Qlt_le_dec 0 (coef k (fst r))) as [P|]; [intros _|discriminate]. rewrite ev_upd.
  split; intros H.
  - apply Qle_shift_div_l; [exact P|]. lra.
  - assert (E : v * coef k (fst r) <= (snd r - ev x (without k (fst r))) / coef k (fst r) * coef k (fst r)).
    { apply Qmult_le_compat_r; [exact H | lra]. }
    rewrite Qmult_comm in E. rewrite <- (Qmult_comm (coef k (fst r))) in E. rewrite Qmult_div_r in E by lra. lra.
Qed.
Lemma bound_below x k v r : below_ k r = true -> (ev (upd x k v) (fst r) <= snd r <-> bound x k r <= v).
Proof.
  unfold below_, bound. destruct (Qlt_le_dec (coef k (fst r)) 0) as [P|]; [intros _|discriminate]. rewrite ev_upd.
  set (c := coef k (fst r)) in *. set (w := ev x (without k (fst r))). assert (E : (snd r - w) / c == (w - snd r) / - c) by (field; lra).
  rewrite E. split; intros H.
  - apply Qle_shift_div_r; [lra|]. lra.
  - assert (F : (w - snd r) / - c * - c <= v * - c) by (apply Qmult_le_compat_r; [exact H | lra]).
    assert (G : (w - snd r) / - c * - c == w - snd r) by (field; lra). lra.
Qed.
Lemma joined_says x k u l : above_ k u = true -> below_ k l = true ->
  (ev x (fst (joined k u l)) <= snd (joined k u l) <-> bound x k l <= bound x k u).
Proof.
  unfold above_, below_, bound, joined. destruct (Qlt_le_dec 0 (coef k (fst u))) as [P|]; [intros _|discriminate].
  destruct (Qlt_le_dec (coef k (fst l)) 0) as [N|]; [intros _|discriminate]. cbn [fst snd]. rewrite ev_app, !ev_scale.
  set (c := coef k (fst u)) in *. set (d := coef k (fst l)) in *. set (w := ev x (without k (fst u))). set (z := ev x (without k (fst l))).
  assert (E1 : (snd u - w) / c == / c * snd u - / c * w) by (field; lra).
  assert (E2 : (snd l - z) / d == / - d * z - / - d * snd l) by (field; lra).
  rewrite E1, E2. split; intros; lra.
Qed.

(** A number between finitely many lower and upper bounds. *)
Fixpoint top (q : Q) (l : list Q) : Q := match l with [] => q | a :: l => let m := top q l in if Qlt_le_dec m a then a else m end.
Lemma top_ge q l : q <= top q l /\ forall a, In a l -> a <= top q l.
Proof.
  induction l as [|b l [I1 I2]]; cbn; [split; [lra | intros a []]|]. destruct (Qlt_le_dec (top q l) b) as [P|P]; split; try lra.
  - intros a [->|H]; [lra|]. specialize (I2 a H). lra.
  - intros a [->|H]; [lra|]. now apply I2.
Qed.
Lemma top_in q l : top q l = q \/ In (top q l) l.
Proof. induction l as [|b l IH]; cbn; [now left|]. destruct (Qlt_le_dec (top q l) b); [now right; left|]. destruct IH; [now left | right; now right]. Qed.

Lemma between (lo hi : list Q) : (forall a b, In a lo -> In b hi -> a <= b) -> exists v, (forall a, In a lo -> a <= v) /\ (forall b, In b hi -> v <= b).
Proof.
  intros H. destruct lo as [|a lo].
  - exists (- top 0 (map Qopp hi)). split; [intros a []|]. intros b Hb. destruct (top_ge 0 (map Qopp hi)) as [_ T].
    specialize (T (- b) (in_map Qopp hi b Hb)). lra.
  - exists (top a lo). split.
    + intros c [<-|Hc]; [exact (proj1 (top_ge a lo)) | exact (proj2 (top_ge a lo) c Hc)].
    + intros b Hb. destruct (top_in a lo) as [->|Hi]; apply H; auto; [now left | now right].
Qed.

Theorem elim_spec k sys x : sat x (elim k sys) <-> exists v, sat (upd x k v) sys.
Proof.
  split.
  - intros H.
    destruct (between (map (bound x k) (filter (below_ k) sys)) (map (bound x k) (filter (above_ k) sys))) as (v & Lo & Hi).
    { intros a b Ha Hb. apply in_map_iff in Ha. destruct Ha as (l & <- & Hl). apply in_map_iff in Hb. destruct Hb as (u & <- & Hu).
      pose proof Hl as Hl'. pose proof Hu as Hu'. apply filter_In in Hl'. apply filter_In in Hu'.
      apply joined_says; [tauto|tauto|]. apply H. unfold elim. apply in_app_iff. right. apply in_flat_map. exists u. split; [exact Hu|].
      apply in_map. exact Hl. }
    exists v. intros r Hr. destruct (above_ k r) eqn:U.
    + apply bound_above; [exact U|]. apply Hi. apply in_map, filter_In. now split.
    + destruct (below_ k r) eqn:D.
      * apply bound_below; [exact D|]. apply Lo. apply in_map, filter_In. now split.
      * assert (Z : coef k (fst r) == 0).
        { unfold above_ in U. unfold below_ in D. destruct (Qlt_le_dec 0 (coef k (fst r))); [discriminate|]. destruct (Qlt_le_dec (coef k (fst r)) 0); [discriminate|]. lra. }
        rewrite ev_upd, Z. assert (G : ev x (without k (fst r)) <= snd r).
        { apply (H (without k (fst r), snd r)). unfold elim. apply in_app_iff. left. apply in_map_iff. exists r. split; [reflexivity|].
          apply filter_In. split; [exact Hr|]. now rewrite U, D. }
        lra.
  - intros [v H] r Hr. unfold elim in Hr. apply in_app_iff in Hr. destruct Hr as [Hr|Hr].
    + apply in_map_iff in Hr. destruct Hr as (r0 & <- & Hr). apply filter_In in Hr. destruct Hr as [Hr B]. apply andb_true_iff in B. destruct B as [U D].
      specialize (H r0 Hr). rewrite ev_upd in H. cbn [fst snd]. assert (Z : coef k (fst r0) == 0).
      { unfold above_ in U. unfold below_ in D. destruct (Qlt_le_dec 0 (coef k (fst r0))); [discriminate|]. destruct (Qlt_le_dec (coef k (fst r0)) 0); [discriminate|]. lra. }
      rewrite Z in H. lra.
    + apply in_flat_map in Hr. destruct Hr as (u & Hu & Hr). apply in_map_iff in Hr. destruct Hr as (l & <- & Hl).
      apply filter_In in Hu. apply filter_In in Hl. destruct Hu as [Hu U], Hl as [Hl D].
      apply joined_says; [exact U | exact D|]. pose proof (proj1 (bound_above x k v u U) (H u Hu)). pose proof (proj1 (bound_below x k v l D) (H l Hl)). lra.
Qed.

Fixpoint elim_all (ks : list A) (sys : list lrow) : list lrow := match ks with [] => sys | k :: ks => elim_all ks (elim k sys) end.
Lemma elim_all_sound : forall ks sys x, sat x (elim_all ks sys) -> exists y, (forall a, ~ In a ks -> y a = x a) /\ sat y sys.
Proof.
  induction ks as [|k ks IH]; intros sys x H; cbn in H; [exists x; now split|]. destruct (IH _ _ H) as (y & E & S0).
  apply elim_spec in S0. destruct S0 as [v S0]. exists (upd y k v). split; [|exact S0].
  intros a Na. unfold upd. destruct (dec a k) as [->|D]; [exfalso; apply Na; now left|]. apply E. intros I. apply Na. now right.
Qed.
Lemma sat_ext x y sys : (forall a, x a == y a) -> sat x sys -> sat y sys.
Proof. intros E H r Hr. rewrite <- (ev_ext x y (fst r)); [exact (H r Hr) | intros; apply E]. Qed.
Lemma elim_all_complete : forall ks sys x, sat x sys -> sat x (elim_all ks sys).
Proof.
  induction ks as [|k ks IH]; intros sys x H; cbn; [exact H|]. apply IH. apply elim_spec. exists (x k). apply (sat_ext x); [|exact H].
  intros a. unfold upd. destruct (dec a k) as [->|]; reflexivity.
Qed.
(** After elimination the eliminated variables do not occur. *)
Lemma elim_gone k sys a : a = k \/ (forall r t, In r sys -> In t (fst r) -> snd t <> a) ->
  forall r t, In r (elim k sys) -> In t (fst r) -> snd t <> a.
Proof.
  intros H r t Hr Ht.
  assert (W : forall r0 t0, In r0 sys -> In t0 (without k (fst r0)) -> snd t0 <> a).
  { intros r0 t0 H0 H1. unfold without in H1. apply filter_In in H1. destruct H1 as [H1 H2]. unfold is_key in H2.
    destruct (dec (snd t0) k) as [|D]; [discriminate|]. destruct H as [->|H]; [exact D | exact (H r0 t0 H0 H1)]. }
  unfold elim in Hr. apply in_app_iff in Hr. destruct Hr as [Hr|Hr].
  - apply in_map_iff in Hr. destruct Hr as (r0 & <- & Hr). apply filter_In in Hr. exact (W r0 t (proj1 Hr) Ht).
  - apply in_flat_map in Hr. destruct Hr as (u & Hu & Hr). apply in_map_iff in Hr. destruct Hr as (l & <- & Hl).
    apply filter_In in Hu. apply filter_In in Hl. unfold joined in Ht. cbn [fst] in Ht. apply in_app_iff in Ht.
    destruct Ht as [Ht|Ht]; unfold scale in Ht; apply in_map_iff in Ht; destruct Ht as (t0 & <- & Ht); cbn [snd]; [exact (W u t0 (proj1 Hu) Ht) | exact (W l t0 (proj1 Hl) Ht)].
Qed.
Lemma elim_all_gone : forall ks sys a, In a ks \/ (forall r t, In r sys -> In t (fst r) -> snd t <> a) ->
  forall r t, In r (elim_all ks sys) -> In t (fst r) -> snd t <> a.
Proof.
  induction ks as [|k ks IH]; intros sys a H r t Hr Ht; cbn in Hr.
  - destruct H as [[]|H]. exact (H r t Hr Ht).
  - apply (IH (elim k sys) a) with (r := r) (t := t); [|exact Hr|exact Ht]. destruct H as [[->|H]|H]; [right|left; exact H|right].
    + intros r0 t0. apply (elim_gone a sys a). now left.
    + intros r0 t0. apply (elim_gone k sys a). now right.
Qed.

Definition keys (sys : list lrow) : list A := flat_map (fun r => map snd (fst r)) sys.
Lemma keys_in sys r t : In r sys -> In t (fst r) -> In (snd t) (keys sys).
Proof. intros H1 H2. apply in_flat_map. exists r. split; [exact H1 | now apply in_map]. Qed.

Lemma sat_dec x sys : {sat x sys} + {~ sat x sys}.
Proof.
  induction sys as [|r sys IH]; [left; intros r []|]. destruct (Qlt_le_dec (snd r) (ev x (fst r))) as [L|L].
  - right. intros H. specialize (H r (or_introl eq_refl)). lra.
  - destruct IH as [S0|N]; [left; intros r0 [<-|H]; [exact L | exact (S0 r0 H)] | right; intros H; apply N; intros r0 H0; apply H; now right].
Qed.

(** Whether there is a solution can be decided. *)
Lemma solvable_dec sys : (exists y, sat y sys) \/ (forall y, ~ sat y sys).
Proof.
  destruct (sat_dec (fun _ => 0) (elim_all (keys sys) sys)) as [S0|N].
  - left. destruct (elim_all_sound _ _ _ S0) as (y & _ & H). eauto.
  - right. intros y H. apply N. intros r Hr. pose proof (elim_all_complete (keys sys) sys y H r Hr) as E.
    rewrite (ev_ext (fun _ => 0) y (fst r)); [exact E|]. intros t Ht. exfalso.
    apply (elim_all_gone (keys sys) sys (snd t)) with (r := r) (t := t); auto.
    destruct (in_dec dec (snd t) (keys sys)) as [I|I]; [now left | right]. intros r0 t0 H0 H1 E0. apply I. rewrite <- E0. exact (keys_in sys r0 t0 H0 H1).
Qed.

(** ** One variable *)
Definition sums (ts : list lterm) : Q := Qsum (map fst ts).
Lemma ev_const q ts : ev (fun _ => q) ts == sums ts * q.
Proof. unfold ev, sums. induction ts as [|t ts IH]; cbn [map]; [cbn; ring|]. rewrite !Qsum_cons, IH. ring. Qed.

(** A closed range of numbers that is bounded below has a smallest element. *)
Lemma smallest (sys : list lrow) : (exists q, sat (fun _ => q) sys) -> (exists b, forall q, sat (fun _ => q) sys -> b <= q) ->
  exists q, sat (fun _ => q) sys /\ forall p, sat (fun _ => p) sys -> q <= p.
Proof.
  intros [q0 S0] [b B].
  set (neg := filter (fun r : lrow => if Qlt_le_dec (sums (fst r)) 0 then true else false) sys).
  destruct neg as [|r1 neg'] eqn:EN.
  - exfalso. set (q1 := if Qlt_le_dec q0 b then q0 else b).
    assert (L1 : q1 <= q0) by (unfold q1; destruct (Qlt_le_dec q0 b); lra). assert (L2 : q1 <= b) by (unfold q1; destruct (Qlt_le_dec q0 b); lra).
    assert (X : sat (fun _ => q1 - 1) sys).
    { intros r Hr. specialize (S0 r Hr). rewrite ev_const in *. assert (P : 0 <= sums (fst r)).
      { destruct (Qlt_le_dec (sums (fst r)) 0) as [N|N]; [|exact N]. exfalso. assert (I : In r neg) by (unfold neg; apply filter_In; split; [exact Hr|]; destruct (Qlt_le_dec (sums (fst r)) 0); [reflexivity | lra]).
        rewrite EN in I. destruct I. }
      assert (sums (fst r) * (q1 - 1) <= sums (fst r) * q0) by (rewrite !(Qmult_comm (sums (fst r))); apply Qmult_le_compat_r; [lra | exact P]). lra. }
    specialize (B _ X). lra.
  - set (val := fun r : lrow => snd r / sums (fst r)). set (m := top (val r1) (map val neg')).
    assert (NEG : forall r, In r neg <-> In r sys /\ sums (fst r) < 0).
    { intros r. unfold neg. rewrite filter_In. destruct (Qlt_le_dec (sums (fst r)) 0); split; intros [? ?]; split; auto; try discriminate. lra. }
    assert (GE : forall r, In r neg -> val r <= m).
    { intros r Hr. rewrite EN in Hr. destruct Hr as [<-|Hr]; [exact (proj1 (top_ge _ _)) | exact (proj2 (top_ge _ _) _ (in_map val neg' r Hr))]. }
    assert (AT : exists r, In r neg /\ m = val r).
    { destruct (top_in (val r1) (map val neg')) as [E|E]; [exists r1; rewrite EN; split; [now left | exact E]|].
      apply in_map_iff in E. destruct E as (r & E & I). exists r. rewrite EN. split; [now right | now symmetry]. }
    assert (LOW : forall q r, sums (fst r) < 0 -> (sums (fst r) * q <= snd r <-> val r <= q)).
    { intros q r N. unfold val. assert (E : snd r / sums (fst r) == - snd r / - sums (fst r)) by (field; lra). rewrite E. split; intros H.
      - apply Qle_shift_div_r; [lra|]. lra.
      - assert (F : - snd r / - sums (fst r) * - sums (fst r) <= q * - sums (fst r)) by (apply Qmult_le_compat_r; [exact H | lra]).
        assert (G : - snd r / - sums (fst r) * - sums (fst r) == - snd r) by (field; lra). lra. }
    assert (MIN : forall p, sat (fun _ => p) sys -> m <= p).
    { intros p Sp. destruct AT as (r & Ir & ->). apply NEG in Ir. destruct Ir as [Ir N]. apply LOW; [exact N|]. specialize (Sp r Ir). now rewrite ev_const in Sp. }
    exists m. split; [|exact MIN]. intros r Hr. rewrite ev_const. destruct (Qlt_le_dec (sums (fst r)) 0) as [N|P].
    + apply LOW; [exact N|]. apply GE. apply NEG. now split.
    + specialize (S0 r Hr) as S1. rewrite ev_const in S1. assert (m <= q0) by now apply MIN.
      assert (sums (fst r) * m <= sums (fst r) * q0) by (rewrite !(Qmult_comm (sums (fst r))); apply Qmult_le_compat_r; [exact H | exact P]). lra.
Qed.
End Elim.

(** ** Linear programs *)
Section Program.
Context {K : Type} (decK : forall a b : K, {a = b} + {a <> b}).
Definition dec_opt : forall a b : option K, {a = b} + {a <> b}.
Proof. decide equality. Defined.

Definition lift (ts : list (@lterm K)) : list (@lterm (option K)) := map (fun t => (fst t, Some (snd t))) ts.
(** The rules, and one more variable that equals the objective. *)
Definition with_objective (obj : list (@lterm K)) (sys : list (@lrow K)) : list (@lrow (option K)) :=
  ((1, None) :: scale (-(1)) (lift obj), 0) :: ((-(1), None) :: lift obj, 0) :: map (fun r => (lift (fst r), snd r)) sys.
Lemma ev_lift (y : option K -> Q) ts : ev y (lift ts) = ev (fun k => y (Some k)) ts.
Proof. unfold ev, lift. rewrite map_map. reflexivity. Qed.
Lemma ev_cons {A} (y : A -> Q) t ts : ev y (t :: ts) == fst t * y (snd t) + ev y ts.
Proof. reflexivity. Qed.
Lemma with_objective_sat y obj sys : sat y (with_objective obj sys) <-> sat (fun k => y (Some k)) sys /\ ev (fun k => y (Some k)) obj == y None.
Proof.
  unfold with_objective. split.
  - intros H. split.
    + intros r Hr. pose proof (H (lift (fst r), snd r)) as E. cbn [fst snd] in E. rewrite ev_lift in E. apply E. right. right.
      apply in_map_iff. exists r. now split.
    + pose proof (H _ (or_introl eq_refl)) as E1. pose proof (H _ (or_intror (or_introl eq_refl))) as E2. cbn [fst snd] in E1, E2.
      rewrite ev_cons in E1, E2. cbn [fst snd] in E1, E2. rewrite ev_scale in E1. rewrite ev_lift in E1, E2. lra.
  - intros [S0 E] r [<-|[<-|Hr]].
    + cbn [fst snd]. rewrite ev_cons, ev_scale, ev_lift. cbn [fst snd]. lra.
    + cbn [fst snd]. rewrite ev_cons, ev_lift. cbn [fst snd]. lra.
    + apply in_map_iff in Hr. destruct Hr as (r0 & <- & Hr). cbn [fst snd]. rewrite ev_lift. exact (S0 r0 Hr).
Qed.

Lemma values_spec (obj : list (@lterm K)) (sys : list (@lrow K)) q :
  sat (fun _ => q) (elim_all dec_opt (map Some (map snd obj ++ keys sys)) (with_objective obj sys)) <-> exists y, sat y sys /\ ev y obj == q.
Proof.
  split.
  - intros H. apply elim_all_sound in H. destruct H as (y & E & S0). apply with_objective_sat in S0. destruct S0 as [S0 O].
    exists (fun k => y (Some k)). split; [exact S0|]. rewrite O. rewrite E; [reflexivity|]. intros I. apply in_map_iff in I. destruct I as (? & D & _). discriminate D.
  - intros (y & S0 & O). set (y' := fun o : option K => match o with None => q | Some k => y k end).
    assert (S1 : sat y' (with_objective obj sys)) by (apply with_objective_sat; split; [exact S0 | exact O]).
    intros r Hr. pose proof (elim_all_complete dec_opt _ _ _ S1 r Hr) as E. rewrite (ev_ext _ y' (fst r)); [exact E|].
    intros t Ht. destruct (snd t) as [k|] eqn:Et; [|reflexivity]. exfalso.
    apply (elim_all_gone dec_opt (map Some (map snd obj ++ keys sys)) (with_objective obj sys) (Some k)) with (r := r) (t := t); auto.
    destruct (in_dec decK k (map snd obj ++ keys sys)) as [I|I]; [left; now apply in_map|right]. intros r0 t0 H0 H1 E0. apply I.
    apply in_app_iff. unfold with_objective in H0. cbn [In] in H0.
    assert (L : forall ts c, In t0 (scale c (lift ts)) \/ In t0 (lift ts) -> In k (map snd ts)).
    { intros ts c [X|X].
      - unfold scale in X. apply in_map_iff in X. destruct X as (t1 & <- & X). cbn in E0. unfold lift in X. apply in_map_iff in X. destruct X as (t2 & <- & X).
        cbn in E0. injection E0 as <-. now apply in_map.
      - unfold lift in X. apply in_map_iff in X. destruct X as (t2 & <- & X). cbn in E0. injection E0 as <-. now apply in_map. }
    destruct H0 as [<-|[<-|H0]].
    + cbn [fst] in H1. destruct H1 as [<-|H1]; [discriminate E0|]. left. apply (L obj (-(1))). now left.
    + cbn [fst] in H1. destruct H1 as [<-|H1]; [discriminate E0|]. left. apply (L obj 0). now right.
    + apply in_map_iff in H0. destruct H0 as (r1 & <- & H0). cbn [fst] in H1. right. apply in_flat_map. exists r1. split; [exact H0|]. apply (L (fst r1) 0). now right.
Qed.

Lemma lp_attains (obj : list (@lterm K)) (sys : list (@lrow K)) : (exists y, sat y sys) -> (exists b, forall y, sat y sys -> b <= ev y obj) ->
  exists y, sat y sys /\ forall z, sat z sys -> ev y obj <= ev z obj.
Proof.
  intros [y0 S0] [b B].
  destruct (smallest (elim_all dec_opt (map Some (map snd obj ++ keys sys)) (with_objective obj sys))) as (q & Sq & M).
  - exists (ev y0 obj). apply values_spec. exists y0. split; [exact S0 | reflexivity].
  - exists b. intros q H. apply values_spec in H. destruct H as (y & S1 & E). rewrite <- E. now apply B.
  - apply values_spec in Sq. destruct Sq as (y & S1 & E). exists y. split; [exact S1|]. intros z Sz. rewrite E. apply M. apply values_spec. exists z. split; [exact Sz | reflexivity].
Qed.

(** ** With 0/1 variables *)
Definition whole (bins : list K) (y : K -> Q) : Prop := forall k, In k bins -> y k == 0 \/ y k == 1.
Lemma ev_one (y : K -> Q) c k : ev y [(c, k)] == c * y k.
Proof. unfold ev. cbn. ring. Qed.
Definition set_to (q : Q) (k : K) (sys : list (@lrow K)) : list (@lrow K) := ([(1, k)], q) :: ([(-(1), k)], - q) :: sys.
Lemma set_to_sat q k sys y : sat y (set_to q k sys) <-> y k == q /\ sat y sys.
Proof.
  unfold set_to. split.
  - intros H. split.
    + pose proof (H _ (or_introl eq_refl)) as E1. pose proof (H _ (or_intror (or_introl eq_refl))) as E2. cbn [fst snd] in E1, E2. rewrite ev_one in E1, E2. lra.
    + intros r Hr. apply H. right. now right.
  - intros [E S0] r [<-|[<-|Hr]]; [cbn [fst snd]; rewrite ev_one; lra..|]. exact (S0 r Hr).
Qed.

Lemma milp_attains (obj : list (@lterm K)) : forall (bins : list K) (sys : list (@lrow K)), (exists b, forall y, sat y sys -> whole bins y -> b <= ev y obj) ->
  (forall y, ~ (sat y sys /\ whole bins y)) \/
  exists y, sat y sys /\ whole bins y /\ forall z, sat z sys -> whole bins z -> ev y obj <= ev z obj.
Proof.
  induction bins as [|k bins IH]; intros sys [b B].
  - destruct (solvable_dec decK sys) as [S0|N]; [right | left; intros y [H _]; exact (N y H)].
    destruct (lp_attains obj sys S0) as (y & Sy & M).
    + exists b. intros y H. apply B; [exact H | intros ? []].
    + exists y. split; [exact Sy|]. split; [intros ? []|]. intros z Sz _. now apply M.
  - assert (W : forall q y, (q == 0 \/ q == 1) -> sat y (set_to q k sys) -> whole bins y -> sat y sys /\ whole (k :: bins) y).
    { intros q y Q01 S0 H. apply set_to_sat in S0. destruct S0 as [E S0]. split; [exact S0|]. intros a [<-|Ha]; [destruct Q01; [left | right]; lra | exact (H a Ha)]. }
    assert (W' : forall y, sat y sys -> whole (k :: bins) y -> whole bins y /\ (sat y (set_to 0 k sys) \/ sat y (set_to 1 k sys))).
    { intros y S0 H. split; [intros a Ha; apply H; now right|]. destruct (H k (or_introl eq_refl)); [left | right]; apply set_to_sat; now split. }
    assert (B0 : forall q, (q == 0 \/ q == 1) -> exists b, forall y, sat y (set_to q k sys) -> whole bins y -> b <= ev y obj).
    { intros q Hq. exists b. intros y S0 H. destruct (W q y Hq S0 H). now apply B. }
    destruct (IH (set_to 0 k sys) (B0 0 (or_introl (Qeq_refl 0)))) as [N0|(y0 & S0 & H0 & M0)];
    destruct (IH (set_to 1 k sys) (B0 1 (or_intror (Qeq_refl 1)))) as [N1|(y1 & S1 & H1 & M1)].
    + left. intros y [Sy Hy]. destruct (W' y Sy Hy) as [Hb [X|X]]; [exact (N0 y (conj X Hb)) | exact (N1 y (conj X Hb))].
    + right. exists y1. destruct (W 1 y1 (or_intror (Qeq_refl 1)) S1 H1) as [P1 P2]. split; [exact P1|]. split; [exact P2|].
      intros z Sz Hz. destruct (W' z Sz Hz) as [Hb [X|X]]; [exfalso; exact (N0 z (conj X Hb)) | now apply M1].
    + right. exists y0. destruct (W 0 y0 (or_introl (Qeq_refl 0)) S0 H0) as [P1 P2]. split; [exact P1|]. split; [exact P2|].
      intros z Sz Hz. destruct (W' z Sz Hz) as [Hb [X|X]]; [now apply M0 | exfalso; exact (N1 z (conj X Hb))].
    + destruct (W 0 y0 (or_introl (Qeq_refl 0)) S0 H0) as [P1 P2]. destruct (W 1 y1 (or_intror (Qeq_refl 1)) S1 H1) as [R1 R2]. right.
      destruct (Qlt_le_dec (ev y1 obj) (ev y0 obj)) as [L|L]; [exists y1 | exists y0]; (split; [assumption|]; split; [assumption|]);
        intros z Sz Hz; destruct (W' z Sz Hz) as [Hb [X|X]]; [specialize (M0 z X Hb) | specialize (M1 z X Hb) | specialize (M0 z X Hb) | specialize (M1 z X Hb)]; lra.
Qed.
End Program.

(** ** The program given to pyomo *)
Definition key : Type := (string * nat)%type.
Definition key_dec : forall a b : key, {a = b} + {a <> b}.
Proof. decide equality; [apply Nat.eq_dec | apply string_dec]. Defined.
Definition lt_of (t : term) : @lterm key := let '(q, l, i) := t in (q, (l, i)).
Definition asg_of (y : key -> Q) : asg := fun l i => y (l, i).
Definition fun_of (x : asg) : key -> Q := fun k => x (fst k) (snd k).
Lemma ev_lin y ts : ev y (map lt_of ts) = lin (asg_of y) ts.
Proof. unfold ev, lin. rewrite map_map. f_equal. apply map_ext. intros [[q l] i]. reflexivity. Qed.
Lemma lin_ev x ts : lin x ts = ev (fun_of x) (map lt_of ts).
Proof. unfold ev, lin. rewrite map_map. f_equal. apply map_ext. intros [[q l] i]. reflexivity. Qed.

Definition neg (ts : list (@lterm key)) := scale (-(1)) ts.
Definition row_rows (r : row) : list (@lrow key) :=
  let ts := map lt_of (r_terms r) in if r_eq r then [(ts, r_rhs r); (neg ts, - r_rhs r)] else [(ts, r_rhs r)].
Definition entry_rows (k : key) (e : pentry) : list (@lrow key) :=
  match pe_fix e with
  | Some f => [([(1, k)], f); ([(-(1), k)], - f)]
  | None => match pe_lb e with Some l => [([(-(1), k)], - l)] | None => [] end ++ match pe_ub e with Some u => [([(1, k)], u)] | None => [] end
  end.
Definition var_entries (p : pvar) : list (key * pentry) := combine (map (fun i => (pv_label p, i)) (seq 0 (length (pv_entries p)))) (pv_entries p).
Definition all_entries (pm : pmodel) : list (key * pentry) := flat_map var_entries (pm_vars pm).
Definition pm_system (pm : pmodel) : list (@lrow key) := flat_map (fun ke => entry_rows (fst ke) (snd ke)) (all_entries pm) ++ flat_map row_rows (pm_rows pm).
Definition is_free_bin (e : pentry) : bool := pe_bin e && match pe_fix e with None => true | Some _ => false end.
Definition pm_bins (pm : pmodel) : list key := map fst (filter (fun ke => is_free_bin (snd ke)) (all_entries pm)).

Lemma sat_app {A} (x : A -> Q) a b : sat x (a ++ b) <-> sat x a /\ sat x b.
Proof. unfold sat. split; [intros H; split; intros r Hr; apply H, in_app_iff; auto | intros [H1 H2] r Hr; apply in_app_iff in Hr; destruct Hr; auto]. Qed.
Lemma sat_flat {A B} (x : A -> Q) (f : B -> list (@lrow A)) l : sat x (flat_map f l) <-> forall b, In b l -> sat x (f b).
Proof.
  unfold sat. split; [intros H b Hb r Hr; apply H, in_flat_map; eauto | intros H r Hr; apply in_flat_map in Hr; destruct Hr as (b & Hb & Hr); exact (H b Hb r Hr)].
Qed.
Lemma sat_nil {A} (x : A -> Q) : sat x [] <-> True.
Proof. split; [auto | intros _ r []]. Qed.
Lemma sat_cons {A} (x : A -> Q) r l : sat x (r :: l) <-> ev x (fst r) <= snd r /\ sat x l.
Proof. unfold sat. split; [intros H; split; [apply H; now left | intros r0 H0; apply H; now right] | intros [H1 H2] r0 [<-|H0]; auto]. Qed.

Lemma row_rows_ok y r : sat y (row_rows r) <-> row_ok (asg_of y) r.
Proof.
  unfold row_rows, row_ok, neg. destruct (r_eq r); rewrite !sat_cons, sat_nil; cbn [fst snd]; rewrite ?ev_scale, ev_lin; [split; [intros [? [? _]]; lra | intros E; repeat split; lra] | tauto].
Qed.
Lemma entry_rows_ok y k e : (sat y (entry_rows k e) /\ (is_free_bin e = true -> y k == 0 \/ y k == 1)) <-> entry_ok e (y k).
Proof.
  unfold entry_rows, entry_ok, is_free_bin. destruct (pe_fix e) as [f|].
  - rewrite !sat_cons, sat_nil. cbn [fst snd]. rewrite !ev_one, andb_false_r. split; [intros [[? [? _]] _]; lra | intros E; repeat split; try lra; discriminate].
  - rewrite andb_true_r, sat_app. destruct (pe_lb e) as [l|], (pe_ub e) as [u|]; rewrite ?sat_cons, ?sat_nil; cbn [fst snd]; rewrite ?ev_one; split.
    + intros [[[L _] [U _]] B]. split; [exact B|]. split; intros ? E; injection E as <-; lra.
    + intros (B & L & U). specialize (L l eq_refl). specialize (U u eq_refl). repeat split; auto; lra.
    + intros [[[L _] _] B]. split; [exact B|]. split; intros ? E; [injection E as <-; lra | discriminate].
    + intros (B & L & U). specialize (L l eq_refl). repeat split; auto; lra.
    + intros [[_ [U _]] B]. split; [exact B|]. split; intros ? E; [discriminate | injection E as <-; lra].
    + intros (B & L & U). specialize (U u eq_refl). repeat split; auto; lra.
    + intros [_ B]. split; [exact B|]. split; intros ? E; discriminate.
    + intros (B & _). repeat split; auto.
Qed.
Lemma var_entries_In p k e : In (k, e) (var_entries p) <-> exists i, k = (pv_label p, i) /\ nth_error (pv_entries p) i = Some e.
Proof.
  unfold var_entries. destruct p as [l es]. cbn [pv_label pv_entries]. change (seq 0 (length es)) with (seq 0 (length es)).
  assert (G : forall es s, In (k, e) (combine (map (fun i => (l, i)) (seq s (length es))) es) <-> exists i, k = (l, (s + i)%nat) /\ nth_error es i = Some e).
  { clear es. induction es as [|e0 es IH]; intros s; cbn [length seq map combine In].
    - split; [intros [] | intros (i & _ & H); destruct i; discriminate].
    - rewrite IH. split.
      + intros [H|(i & -> & H)]; [injection H as <- <-; exists 0%nat; rewrite Nat.add_0_r; now split | exists (S i); split; [f_equal; lia | exact H]].
      + intros ([|i] & -> & H); [left; injection H as ->; now rewrite Nat.add_0_r | right; exists i; split; [f_equal; lia | exact H]]. }
  rewrite (G es 0%nat). reflexivity.
Qed.
Lemma pm_system_ok pm y : (sat y (pm_system pm) /\ whole (pm_bins pm) y) <-> feasible pm (asg_of y).
Proof.
  unfold pm_system, feasible. rewrite sat_app, !sat_flat.
  assert (V : ((forall b, In b (all_entries pm) -> sat y (entry_rows (fst b) (snd b))) /\ whole (pm_bins pm) y) <-> Forall (pvar_ok (asg_of y)) (pm_vars pm)).
  { rewrite Forall_forall. split.
    - intros [H W] p Hp i e He. unfold asg_of. apply entry_rows_ok.
      assert (I : In ((pv_label p, i), e) (all_entries pm)) by (apply in_flat_map; exists p; split; [exact Hp | apply var_entries_In; eauto]).
      split; [exact (H _ I)|]. intros FB. apply W. unfold pm_bins. apply in_map_iff. exists ((pv_label p, i), e). split; [reflexivity|]. apply filter_In. now split.
    - intros H. split.
      + intros [k e] Hb. apply in_flat_map in Hb. destruct Hb as (p & Hp & Hb). apply var_entries_In in Hb. destruct Hb as (i & -> & He). cbn [fst snd].
        exact (proj1 (proj2 (entry_rows_ok y (pv_label p, i) e) (H p Hp i e He))).
      + intros k Hk. unfold pm_bins in Hk. apply in_map_iff in Hk. destruct Hk as ([k' e] & <- & Hk). apply filter_In in Hk. destruct Hk as [Hk FB]. cbn [fst snd] in *.
        apply in_flat_map in Hk. destruct Hk as (p & Hp & Hb). apply var_entries_In in Hb. destruct Hb as (i & -> & He).
        exact (proj2 (proj2 (entry_rows_ok y (pv_label p, i) e) (H p Hp i e He)) FB). }
  rewrite <- V, Forall_forall. split.
  - intros [[H1 H2] H3]. split; [split; assumption|]. intros r Hr. apply row_rows_ok. now apply H2.
  - intros [[H1 H3] H2]. split; [split; [exact H1|]|exact H3]. intros r Hr. apply row_rows_ok. now apply H2.
Qed.

(** A program with a solution whose objective is bounded below has an optimal solution. *)
Theorem program_attains : forall pm, (exists x, feasible pm x) -> (exists b, forall x, feasible pm x -> b <= objective_value pm x) ->
  exists x, feasible pm x /\ forall y, feasible pm y -> objective_value pm x <= objective_value pm y.
Proof.
  intros pm [x0 F0] [b B]. destruct (milp_attains key_dec (map lt_of (pm_obj pm)) (pm_bins pm) (pm_system pm)) as [N|(y & S0 & W & M)].
  - exists b. intros y S0 W. rewrite ev_lin. apply B. apply pm_system_ok. now split.
  - exfalso. apply (N (fun_of x0)). apply pm_system_ok. exact F0.
  - exists (asg_of y). split; [apply pm_system_ok; now split|]. intros z Fz. unfold objective_value. rewrite <- ev_lin, lin_ev.
    assert (Z : sat (fun_of z) (pm_system pm) /\ whole (pm_bins pm) (fun_of z)) by (apply pm_system_ok; exact Fz).
    apply M; tauto.
Qed.
