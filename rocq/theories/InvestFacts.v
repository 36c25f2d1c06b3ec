(** What the rows of an investment model say. *)
From Verif Require Import Base BaseFacts MathModel Spec MathFacts Structure StructureFacts Params Features Elements System SysSpec CtxFacts ReadTools.

Lemma size_spec : forall cx full iv s, invest_size cx full iv = Ok s ->
  v_label s = vlabel full "size" /\ v_len s = 1%nat /\ v_bin s = false.
Proof.
  intros cx full iv s H. unfold invest_size in H. destruct (_ && _)%bool; apply create_variable_spec in H; subst; auto.
Qed.

Lemma size_bounds : forall x cx full iv s, invest_size cx full iv = Ok s -> var_sat x s ->
  let q := x (vlabel full "size") 0%nat in
  if (iv_is_fixed iv && negb (iv_optional iv))%bool then q == or_num (iv_fixed iv) 0
  else (if iv_optional iv then 0 else iv_minimum iv) <= q /\ q <= iv_maximum cx iv.
Proof.
  intros x cx full iv s H S. unfold invest_size in H. destruct (_ && _)%bool; apply create_variable_spec in H; subst; simpl.
  - apply (var_sat_fixed _ _ _ S eq_refl 0%nat). simpl; lia.
  - split; [apply (var_sat_lb _ _ _ S eq_refl eq_refl 0%nat)|apply (var_sat_ub _ _ _ S eq_refl eq_refl 0%nat)]; simpl; lia.
Qed.

Lemma optional_spec : forall x cx full iv s b cs, v_label s = vlabel full "size" -> v_len s = 1%nat ->
  invest_optional cx full iv s = Ok (b, cs) ->
  if iv_optional iv then
    exists v, b = Some v /\ v_label v = vlabel full "isInvested" /\ v_len v = 1%nat
      /\ (var_sat x v -> Forall (con_sat x) cs ->
          let q := x (vlabel full "size") 0%nat in let d := x (vlabel full "isInvested") 0%nat in
          (d == 0 \/ d == 1)
          /\ if iv_is_fixed iv then q == d * or_num (iv_fixed iv) 0
             else q <= d * iv_maximum cx iv /\ d * Qmax_ (cx_eps cx) (iv_minimum iv) <= q)
  else b = None /\ cs = [].
Proof.
  intros x cx full iv s b cs Ls Ns H. unfold invest_optional in H. destruct (iv_optional iv); inv_ok; [|inversion H; auto].
  match goal with K : create_variable _ _ _ _ _ _ _ _ = Ok _ |- _ => apply create_variable_spec in K; subst end.
  destruct (iv_is_fixed iv); inv_ok; inversion H; subst; (eexists; split; [reflexivity|]; simpl; do 2 (split; [auto|]); intros Sv C).
  - inversion C as [|? ? C1 ?]; subst.
    split; [exact (var_sat_bin _ _ Sv eq_refl eq_refl 0%nat ltac:(simpl; lia))|].
    match goal with K : create_equation _ _ _ _ = Ok _ |- _ => row K C1 1%nat 0%nat R end.
    rewrite Ls in R. lra.
  - inversion C as [|? ? C1 C']; subst. inversion C' as [|? ? C2 ?]; subst.
    split; [exact (var_sat_bin _ _ Sv eq_refl eq_refl 0%nat ltac:(simpl; lia))|].
    match goal with K : create_equation _ "is_invested_ub" _ _ = Ok _ |- _ => row K C1 1%nat 0%nat R1 end.
    match goal with K : create_equation _ "is_invested_lb" _ _ = Ok _ |- _ => row K C2 1%nat 0%nat R2 end.
    rewrite Ls in R1, R2. split; lra.
Qed.

(** The limits an invested size puts on the variable it limits. *)
Definition invest_limit (x : asg) (mx : Q) (size : string) (dv : variable) (relmin relmax : numeric)
           (profile : option numeric) (on : option variable) : Prop :=
  let q := x size 0%nat in
  forall i, (i < v_len dv)%nat ->
    match profile with
    | Some p => x (v_label dv) i == at_ p i * q
    | None =>
        x (v_label dv) i <= at_ relmax i * q
        /\ match on with
           | None => at_ relmin i * q <= x (v_label dv) i
           | Some o => at_ relmin i * q - at_ relmax i * mx * (1 - x (v_label o) i) <= x (v_label dv) i
           end
    end.

Lemma bounds_spec : forall x cx full iv s dv relmin relmax profile on cs,
  v_label s = vlabel full "size" -> v_len s = 1%nat -> v_len dv <> 0%nat -> good relmin -> good relmax ->
  (forall p, profile = Some p -> good p) -> (forall o, on = Some o -> v_len o = v_len dv) ->
  invest_bounds cx full iv s dv relmin relmax profile on = Ok cs -> Forall (con_sat x) cs ->
  invest_limit x (iv_maximum cx iv) (vlabel full "size") dv relmin relmax profile on
  /\ match profile with Some p => fits (v_len dv) p | None => fits (v_len dv) relmin /\ fits (v_len dv) relmax end.
Proof.
  intros x cx full iv s dv relmin relmax profile on cs Ls Ns Nd G1 G2 G3 Lo H C. unfold invest_bounds in H.
  assert (Ns' : v_len s <> 0%nat) by lia.
  destruct profile as [p|]; inv_ok.
  - specialize (G3 _ eq_refl). inversion C as [|? ? C1 ?]; subst.
    match goal with K : create_equation _ _ _ _ = Ok _ |- _ =>
      assert (F : fits (v_len dv) p)
        by (apply (fits_nmap _ Qopp); eapply row_fits; [exact K|live_tac|ex_tac|right; left; reflexivity]);
      split; auto; intros i Hi; row K C1 (v_len dv) i R end.
    rewrite nmap_at, Ls in R by (apply F; auto). lra.
  - inversion C as [|? ? C1 C']; subst. inversion C' as [|? ? C2 ?]; subst.
    match goal with K : create_equation _ (cat ["ub_"; _]) _ _ = Ok _ |- _ =>
      assert (F : fits (v_len dv) relmax)
        by (apply (fits_nmap _ Qopp); eapply row_fits; [exact K|live_tac|ex_tac|right; left; reflexivity]);
      rename K into K1 end.
    destruct on as [o|]; inv_ok.
    + specialize (Lo _ eq_refl).
      match goal with K : nmul _ _ = Ok ?m |- _ => pose proof (good_bcast2 _ _ _ _ K G2 (good_NS _)) as Gm; rename K into Km;
         pose proof (fits_bcast2 _ _ _ _ _ Km F (fits_NS _ _)) as Fm end.
      match goal with K : create_equation _ (cat ["lb_"; _]) _ _ = Ok _ |- _ => rename K into K2 end.
      assert (F2 : fits (v_len dv) relmin)
        by (eapply row_fits; [exact K2|live_tac|ex_tac|right; right; left; reflexivity]).
      split; [|auto]. intros i Hi. row K1 C1 (v_len dv) i R1. row K2 C2 (v_len dv) i R2.
      rewrite nmap_at, Ls in R1 by (apply F; auto). rewrite Ls in R2.
      rewrite (bcast2_at _ _ _ _ _ Km (Fm _ Hi)) in R2. simpl at_ in R2. split; [lra|].
      lra.
    + match goal with K : create_equation _ (cat ["lb_"; _]) _ _ = Ok _ |- _ => rename K into K2 end.
      assert (F2 : fits (v_len dv) relmin)
        by (eapply row_fits; [exact K2|live_tac|ex_tac|right; left; reflexivity]).
      split; [|auto]. intros i Hi. row K1 C1 (v_len dv) i R1. row K2 C2 (v_len dv) i R2.
      rewrite nmap_at, Ls in R1 by (apply F; auto). rewrite Ls in R2. split; lra.
Qed.

(** Decomposition of a whole investment model. *)
Lemma invest_model_parts : forall cx tr elem iv dv relmin relmax profile on io,
  invest_model cx tr elem iv dv relmin relmax profile on = Ok io ->
  exists size inv cs1 cs2 subs,
    let full := model_full elem (Some "Investment") in
    invest_size cx full iv = Ok size
    /\ invest_optional cx full iv size = Ok (inv, cs1)
    /\ invest_bounds cx full iv size dv relmin relmax profile on = Ok cs2
    /\ invest_shares cx tr elem iv size inv = Ok (io_shares io, subs)
    /\ io_tree io = EM full "Investment" (size :: match inv with Some b => [b] | None => [] end) (cs1 ++ cs2) subs
    /\ io_size io = size /\ io_invested io = inv.
Proof.
  intros cx tr elem iv dv relmin relmax profile on io H. unfold invest_model in H. inv_ok.
  destruct a0 as [inv cs1]. inv_ok. destruct a1 as [shs subs]. inv_ok.
  match goal with K : mk_em _ _ _ _ _ = Ok _ |- _ => apply mk_em_spec in K; destruct K as [K _]; subst end.
  simpl. eauto 15.
Qed.

(** Everything an investment says about size, decision and limited variable. *)
Theorem invest_spec : forall x cx tr elem iv dv relmin relmax profile on io,
  v_len dv <> 0%nat -> good relmin -> good relmax ->
  (forall p, profile = Some p -> good p) -> (forall o, on = Some o -> v_len o = v_len dv) ->
  invest_model cx tr elem iv dv relmin relmax profile on = Ok io -> em_sat x (io_tree io) ->
  let q := x (inv elem "size") 0%nat in let d := x (inv elem "isInvested") 0%nat in
  (if (iv_is_fixed iv && negb (iv_optional iv))%bool then q == or_num (iv_fixed iv) 0
   else (if iv_optional iv then 0 else iv_minimum iv) <= q /\ q <= iv_maximum cx iv)
  /\ (iv_optional iv = true ->
        (d == 0 \/ d == 1)
        /\ if iv_is_fixed iv then q == d * or_num (iv_fixed iv) 0
           else q <= d * iv_maximum cx iv /\ d * Qmax_ (cx_eps cx) (iv_minimum iv) <= q)
  /\ invest_limit x (iv_maximum cx iv) (inv elem "size") dv relmin relmax profile on
  /\ match profile with Some p => fits (v_len dv) p | None => fits (v_len dv) relmin /\ fits (v_len dv) relmax end.
Proof.
  intros x cx tr elem iv dv relmin relmax profile on io Nd G1 G2 G3 Lo H S.
  apply invest_model_parts in H. destruct H as [size [b [cs1 [cs2 [subs [H1 [H2 [H3 [H4 [H5 [H6 H7]]]]]]]]]]].
  rewrite H5 in S. pose proof (em_sat_vars _ _ _ _ _ _ S) as V. pose proof (em_sat_cons _ _ _ _ _ _ S) as C.
  apply Forall_app in C. destruct C as [C1 C2]. inversion V as [|? ? V1 V2]; subst.
  destruct (size_spec _ _ _ _ H1) as [Ls [Ns _]].
  pose proof (size_bounds x _ _ _ _ H1 V1) as B.
  pose proof (optional_spec x _ _ _ _ _ _ Ls Ns H2) as O.
  pose proof (bounds_spec x _ _ _ _ _ _ _ _ _ _ Ls Ns Nd G1 G2 G3 Lo H3 C2) as L.
  split; [exact B|]. split; [|exact L].
  intros Op. rewrite Op in O. destruct O as [v [Ev [Lv [Nv O]]]]. rewrite Ev in V2. inversion V2; subst. auto.
Qed.
