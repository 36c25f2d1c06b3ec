(** Claim C85: the units in which effects are counted are free. Giving all amounts of an effect in another unit (cents for
    euros, tonnes for kilograms) changes no plan, only the numbers of that effect. *)
From Coq Require Import Permutation.
From Verif Require Import Base BaseFacts MathModel Spec Structure Params Features Elements Library System SysSpec AdmitSpec CtxFacts NavFacts PropsOnOff PropsComp PropsEffects PlanSpec Example
     TotalInvest PlanComp PlanSame PlanCheck ExamplePoints PropsPlan PropsRelax PropsSameData ValidSpec ValidCheck PropsTotal PropsRename PropsParts.

(** ** Specification *)

(** A parameter, number by number, times [k]. *)
Definition ntimes (k : Q) (d : numeric) : numeric := match d with NS q => NS (k * q) | NV l => NV (map (Qmult k) l) end.
Definition times (k : Q) (p : param) : param := match p with PNum d => PNum (ntimes k d) | PTsd d g w => PTsd (ntimes k d) g w end.

(** The new unit: an amount [q] of the effect with identity [i] is written [U i * q] from now on. *)
Section Units.
Variables (U : nat -> Q) (es : list effect).
(** The factor for values given without naming an effect (they belong to the standard effect), and the factor of the
    objective, in whose unit the penalties of buses are given. *)
Definition std_factor : Q := match find e_std es with Some s => U (e_id s) | None => 1 end.
Definition obj_factor : Q := match find e_obj es with Some o => U (e_id o) | None => 1 end.
Definition factor (k : option nat) : Q := match k with Some i => U i | None => std_factor end.

Definition u_values (v : evalues) : evalues :=
  match v with
  | EVNone => EVNone
  | EVOne p => EVOne (times std_factor p)
  | EVDict l => EVDict (map (fun kp => (fst kp, times (factor (fst kp)) (snd kp))) l)
  end.
Definition u_onoff (o : onoff) : onoff :=
  mkOnOff (u_values (oo_switch_eff o)) (u_values (oo_run_eff o)) (oo_on_min o) (oo_on_max o) (oo_con_min o) (oo_con_max o) (oo_coff_min o) (oo_coff_max o) (oo_sw_max o) (oo_force o).
Definition u_invest (iv : invest) : invest :=
  mkInvest (iv_fixed iv) (iv_min iv) (iv_max iv) (iv_optional iv) (u_values (iv_fix iv)) (u_values (iv_spec iv))
    (match iv_seg iv with Some (s, eff) => Some (s, map (fun il : nat * list (Q * Q) => (fst il, map (fun ab => (U (fst il) * fst ab, U (fst il) * snd ab)) (snd il))) eff) | None => None end)
    (u_values (iv_divest iv)).
Definition u_size (s : fsize) : fsize := match s with SzNum q => SzNum q | SzInv iv => SzInv (u_invest iv) end.
Definition u_bus (b : bus) : bus := mkBus (b_id b) (b_lab b) (option_map (times obj_factor) (b_penalty b)).
Definition u_flow (f : flow) : flow :=
  mkFlow (f_id f) (f_lab f) (u_bus (f_bus f)) (u_size (f_size f)) (f_profile f) (f_relmin f) (f_relmax f) (u_values (f_effects f)) (option_map u_onoff (f_onoff f))
    (f_fh_max f) (f_fh_min f) (f_lf_min f) (f_lf_max f) (f_prev f).
Definition u_cap (s : csize) : csize := match s with CapNum q => CapNum q | CapInv iv => CapInv (u_invest iv) end.
Definition u_storage (s : storage) : storage :=
  mkStorage (u_cap (st_cap s)) (st_relmin s) (st_relmax s) (st_init s) (st_fmin s) (st_fmax s) (st_eta_c s) (st_eta_d s) (st_loss s).
Definition u_kind (k : ckindc) : ckindc := match k with StorageC s => StorageC (u_storage s) | _ => k end.
Definition u_comp (c : component) : component :=
  mkComponent (cp_label c) (map u_flow (cp_in c)) (map u_flow (cp_out c)) (option_map u_onoff (cp_onoff c)) (cp_prevent c) (u_kind (cp_kind c)).
(** What one unit of effect [e] passes on to effect [k], and the limits of [e]. *)
Definition u_effect (e : effect) : effect :=
  let u := U (e_id e) in
  mkEffect (e_id e) (e_label e) (e_std e) (e_obj e)
    (map (fun kp => (fst kp, times (U (fst kp) / u) (snd kp))) (e_share_op e)) (map (fun kd => (fst kd, ntimes (U (fst kd) / u) (snd kd))) (e_share_inv e))
    (option_map (Qmult u) (e_min_op e)) (option_map (Qmult u) (e_max_op e)) (option_map (Qmult u) (e_min_inv e)) (option_map (Qmult u) (e_max_inv e))
    (option_map (times u) (e_min_ph e)) (option_map (times u) (e_max_ph e)) (option_map (Qmult u) (e_min_tot e)) (option_map (Qmult u) (e_max_tot e)).
End Units.
Definition in_units (U : nat -> Q) (fs : flow_system) : flow_system :=
  mkFS (fs_times fs) (fs_end fs) (fs_prev_dt fs) (map (u_effect U) (fs_effects fs)) (map (u_comp U (fs_effects fs)) (fs_comps fs)).

(** [y] is the plan [x] in the new units: all rates, states, starts, sizes, decisions, stored energies and excesses are the
    same, and all amounts of an effect are multiplied by its factor. *)
Record converted (U : nat -> Q) (cf : config) (fs : flow_system) (idx : option (list nat)) (x y : asg) : Prop := {
  cv_rate : forall c f t, In c (fs_comps fs) -> In f (cp_flows c) -> (t < steps fs idx)%nat -> rate_of y c f t == rate_of x c f t;
  cv_on : forall c f t, In c (fs_comps fs) -> In f (cp_flows c) -> governed fs idx c f <> None -> (t < steps fs idx)%nat ->
     on_of y c f t == on_of x c f t /\ y (oo (flow_name c f) "switchOn") t == x (oo (flow_name c f) "switchOn") t;
  cv_running : forall c t, In c (fs_comps fs) -> cp_onoff c <> None -> (t < steps fs idx)%nat ->
     y (oo (cp_label c) "on") t == x (oo (cp_label c) "on") t /\ y (oo (cp_label c) "switchOn") t == x (oo (cp_label c) "switchOn") t;
  cv_size : forall name iv, In (name, iv) (investments cf fs) -> y (inv name "size") 0%nat == x (inv name "size") 0%nat
     /\ (iv_optional iv = true -> y (inv name "isInvested") 0%nat == x (inv name "isInvested") 0%nat)
     /\ (forall spts eff i l e, iv_seg iv = Some (spts, eff) -> In (i, l) eff -> In e (fs_effects fs) -> e_id e = i -> seg_cost y name e == U i * seg_cost x name e);
  cv_charge : forall c s t, In c (fs_comps fs) -> cp_kind c = StorageC s -> (t <= steps fs idx)%nat -> charge y c t == charge x c t;
  cv_excess : forall b t, used_bus fs b -> (t < steps fs idx)%nat ->
     excess y b "excess_input" t == excess x b "excess_input" t /\ excess y b "excess_output" t == excess x b "excess_output" t;
  cv_effect : forall e, In e (fs_effects fs) -> let u := U (e_id e) in
     (forall t, (t < steps fs idx)%nat -> op_at y e t == u * op_at x e t) /\ op_sum y e == u * op_sum x e /\ inv_sum y e == u * inv_sum x e /\ all_sum y e == u * all_sum x e;
  cv_penalty : penalty_sum y == obj_factor U (fs_effects fs) * penalty_sum x
}.

(** Names of the quantities a plan may fix, each with the factor by which it changes. No name may stand for two quantities
    with different factors. *)
Definition labels_of (fs : flow_system) : list string := flat_map (fun c => cp_label c :: map (flow_name c) (cp_flows c)) (fs_comps fs).
Definition quantity_factors (U : nat -> Q) (fs : flow_system) : list (string * Q) :=
  flat_map (fun n => [(vlabel n "flow_rate", 1); (vlabel n "charge_state", 1); (oo n "on", 1); (oo n "switchOn", 1); (inv n "size", 1); (inv n "isInvested", 1)]
       ++ map (fun e => (vlabel (cat [n; "__"; "SegmentedShares"]) (cat [e_label e; "_segmented"]), U (e_id e))) (fs_effects fs)) (labels_of fs)
  ++ flat_map (fun b => [(vlabel (b_lab b) "excess_input", 1); (vlabel (b_lab b) "excess_output", 1)]) (bus_list fs)
  ++ flat_map (fun e => let l := e_label e in
       [(vlabel (cat [l; "__"; "operation"]) "operation_sum_TS", U (e_id e)); (vlabel (cat [l; "__"; "operation"]) "operation_sum", U (e_id e));
        (vlabel (cat [l; "__"; "invest"]) "invest_sum", U (e_id e)); (vlabel (cat [l; "__"; "all"]) "all_sum", U (e_id e))]) (fs_effects fs)
  ++ [(vlabel "Effects__penalty" "penalty_sum", obj_factor U (fs_effects fs))].
Definition unambiguous (U : nat -> Q) (fs : flow_system) : Prop :=
  forall p q, In p (quantity_factors U fs) -> In q (quantity_factors U fs) -> fst p = fst q -> snd p == snd q.

(** ** Facts *)
Lemma value_times : forall k idx p t, value idx (times k p) t == k * value idx p t.
Proof.
  intros k idx p t. assert (A : forall d, match ntimes k d with NS q => q | NV l => nth (selected idx t) l (hd 0 l) end == k * match d with NS q => q | NV l => nth (selected idx t) l (hd 0 l) end).
  { intros [q|l]; cbn [ntimes]; [reflexivity|]. destruct l as [|a l]; [destruct (selected idx t); cbn; ring|]. cbn [map hd].
    change (k * a :: map (Qmult k) l) with (map (Qmult k) (a :: l)). rewrite (map_nth (Qmult k) (a :: l) a). reflexivity. }
  destruct p as [d|d g w]; apply A.
Qed.

(** [x] and [y] under the names of [fs], with equal numbers for everything but effects. *)
Record strictly (U : nat -> Q) (fs : flow_system) (x y : asg) : Prop := {
  st_el : forall nm, In nm (labels_of fs) -> forall t,
    (y (vlabel nm "flow_rate") t = x (vlabel nm "flow_rate") t /\ y (vlabel nm "charge_state") t = x (vlabel nm "charge_state") t)
    /\ (y (oo nm "on") t = x (oo nm "on") t /\ y (oo nm "switchOn") t = x (oo nm "switchOn") t)
    /\ (y (inv nm "size") t = x (inv nm "size") t /\ y (inv nm "isInvested") t = x (inv nm "isInvested") t);
  st_seg : forall nm e, In nm (labels_of fs) -> In e (fs_effects fs) -> seg_cost y nm e == U (e_id e) * seg_cost x nm e;
  st_ex : forall b w t, used_bus fs b -> w = "excess_input" \/ w = "excess_output" -> excess y b w t = excess x b w t;
  st_tot : forall e, In e (fs_effects fs) -> (forall t, op_at y e t == U (e_id e) * op_at x e t) /\ op_sum y e == U (e_id e) * op_sum x e
    /\ inv_sum y e == U (e_id e) * inv_sum x e /\ all_sum y e == U (e_id e) * all_sum x e;
  st_pen : penalty_sum y == obj_factor U (fs_effects fs) * penalty_sum x }.

(** One flow, seen by two systems that agree on everything but effects. *)
Lemma allowed_transfer : forall cf fs fs' idx x y c c' f f',
  (steps fs' idx = steps fs idx /\ (forall t, hours fs' idx t = hours fs idx t) /\ horizon fs' idx = horizon fs idx) ->
  (governed fs' idx c' f' = None <-> governed fs idx c f = None) ->
  (forall o', governed fs' idx c' f' = Some o' -> exists o, governed fs idx c f = Some o /\ forall st g, onoff_rules fs idx st o g -> onoff_rules fs' idx st o' g) ->
  (forall t, rate_of y c' f' t = rate_of x c f t) -> (forall t, on_of y c' f' t = on_of x c f t) -> prior_states cf f' = prior_states cf f ->
  size_range cf (sized cf c' f') = size_range cf (sized cf c f) ->
  (forall iv', sized cf c' f' = SzInv iv' -> exists iv, sized cf c f = SzInv iv /\ forall a b, allowed_size cf iv a b -> allowed_size cf iv' a b) ->
  y (inv (flow_name c' f') "size") 0%nat = x (inv (flow_name c f) "size") 0%nat -> y (inv (flow_name c' f') "isInvested") 0%nat = x (inv (flow_name c f) "isInvested") 0%nat ->
  size_of cf y c' f' = size_of cf x c f -> (f_profile f' = f_profile f /\ f_relmin f' = f_relmin f /\ f_relmax f' = f_relmax f) ->
  (f_fh_min f' = f_fh_min f /\ f_fh_max f' = f_fh_max f /\ f_lf_min f' = f_lf_min f /\ f_lf_max f' = f_lf_max f) -> (0 < steps fs idx)%nat ->
  flow_allowed cf fs idx x c f (runs x c f) -> flow_allowed cf fs' idx y c' f' (runs y c' f').
Proof.
  intros cf fs fs' idx x y c c' f f' [ST [HR HZ]] GN GS RT ON PS SR SZ X1 X2 SO [D1 [D2 D3]] [L1 [L2 [L3 L4]]] N1 [A1 A2 A3 A4 A5 A6 [A7 [A8 [A9 A10]]]].
  assert (RN : forall t, runs y c' f' t = runs x c f t) by (intros t; unfold runs; rewrite ON; reflexivity).
  assert (LIM : forall t r, within_limits cf idx c f t r -> within_limits cf idx c' f' t r) by (intros t r; unfold within_limits, rel_min, rel_max; rewrite SR, D1, D2, D3; auto).
  constructor; rewrite ?ST.
  - intros Z t Ht. rewrite RT. apply LIM, A1; [apply GN; exact Z|exact Ht].
  - intros Z t Ht R. rewrite RT. rewrite RN in R. apply A2; auto. intros Z'. apply Z, GN, Z'.
  - intros Z t Ht R. rewrite RT. rewrite RN in R. destruct (A3 ltac:(intros Z'; apply Z, GN, Z') t Ht R). auto.
  - intros o' G. destruct (GS o' G) as [o [G0 RR]]. rewrite PS. eapply onoff_rules_ext; [rewrite ST; exact N1| |exact (RR _ _ (A4 o G0))]. intros t _. cbv beta. rewrite RN. reflexivity.
  - intros iv' E. destruct (SZ iv' E) as [iv [E0 AL]]. rewrite X1, X2. apply AL. auto.
  - intros iv' E t Ht. destruct (SZ iv' E) as [iv [E0 _]]. rewrite RT, RN, SO, D1, D2, D3. specialize (A6 iv E0 t Ht). destruct (f_profile f); [exact A6|]. rewrite GN. exact A6.
  - cbv zeta. rewrite SO, L1, L2, L3, L4, HZ.
    assert (TT : sumn (steps fs idx) (fun t => hours fs' idx t * rate_of y c' f' t) == sumn (steps fs idx) (fun t => hours fs idx t * rate_of x c f t)) by (apply sumn_ext; intros t _; rewrite HR, RT; reflexivity).
    split; [|split; [|split]]; intros q Hq; rewrite TT; auto.
Qed.

Section Transfer.
Variables (U : nat -> Q) (cf : config) (fs : flow_system) (idx : option (list nat)) (x y : asg).
Hypothesis UP : forall i, 0 < U i.
Hypothesis ST : strictly U fs x y.
Hypothesis N1 : (0 < steps fs idx)%nat.
Notation es := (fs_effects fs).
Notation fs' := (in_units U fs).
Notation uf := (u_flow U es).
Notation uc := (u_comp U es).
Notation ub := (u_bus U es).
Notation ue := (u_effect U).

Lemma u_name : forall c f, flow_name (uc c) (uf f) = flow_name c f. Proof. reflexivity. Qed.
Lemma u_flows : forall c, cp_flows (uc c) = map uf (cp_flows c). Proof. intros c. unfold cp_flows. cbn [u_comp cp_in cp_out]. rewrite map_app. reflexivity. Qed.
Lemma u_governed : forall c f, governed fs' idx (uc c) (uf f) = option_map (u_onoff U es) (governed fs idx c f).
Proof.
  intros c f. unfold governed. cbn [u_flow f_onoff]. destruct (f_onoff f) as [o|]; [reflexivity|]. cbn [option_map].
  replace (induced fs' idx (uc c) (uf f)) with (induced fs idx c f); [destruct (induced fs idx c f); reflexivity|].
  unfold induced. cbn [u_comp cp_onoff cp_prevent cp_kind u_flow f_id]. destruct (cp_onoff c); [reflexivity|]. cbn [option_map is_some]. f_equal. destruct (cp_kind c); reflexivity.
Qed.
Lemma u_sized : forall c f, sized cf (uc c) (uf f) = u_size U es (sized cf c f).
Proof.
  intros c f. unfold sized. cbn [u_comp cp_kind cp_in u_flow f_size f_id]. destruct (cp_kind c); try reflexivity. cbn [u_kind]. destruct (cp_in c) as [|i1 [|i2 r]]; try reflexivity. cbn [map u_flow f_id f_size].
  destruct (Nat.eqb _ _); [|reflexivity]. destruct (f_size i1); [reflexivity|]. destruct (f_size i2); reflexivity.
Qed.
Lemma u_range : forall s, size_range cf (u_size U es s) = size_range cf s. Proof. intros [q|iv]; reflexivity. Qed.
Lemma label_comp : forall c, In c (fs_comps fs) -> In (cp_label c) (labels_of fs).
Proof. intros c Hc. apply in_flat_map. exists c. split; [exact Hc|]. left. reflexivity. Qed.
Lemma label_flow : forall c f, In c (fs_comps fs) -> In f (cp_flows c) -> In (flow_name c f) (labels_of fs).
Proof. intros c f Hc Hf. apply in_flat_map. exists c. split; [exact Hc|]. right. apply in_map. exact Hf. Qed.
Lemma u_rate : forall c f t, In c (fs_comps fs) -> In f (cp_flows c) -> rate_of y (uc c) (uf f) t = rate_of x c f t.
Proof. intros c f t Hc Hf. apply (st_el _ _ _ _ ST _ (label_flow c f Hc Hf) t). Qed.
Lemma u_on : forall c f t, In c (fs_comps fs) -> In f (cp_flows c) -> on_of y (uc c) (uf f) t = on_of x c f t.
Proof. intros c f t Hc Hf. apply (st_el _ _ _ _ ST _ (label_flow c f Hc Hf) t). Qed.
Lemma u_size_of : forall c f, In c (fs_comps fs) -> In f (cp_flows c) -> size_of cf y (uc c) (uf f) = size_of cf x c f.
Proof. intros c f Hc Hf. unfold size_of. rewrite u_sized. destruct (sized cf c f); [reflexivity|]. apply (st_el _ _ _ _ ST _ (label_flow c f Hc Hf) 0%nat). Qed.
Lemma u_marks : forall nm was, In nm (labels_of fs) -> (onoff_marks y nm was (steps fs idx) <-> onoff_marks x nm was (steps fs idx)).
Proof.
  intros nm was H. assert (B : forall t, before was (y (oo nm "on")) t = before was (x (oo nm "on")) t) by (intros [|t]; [reflexivity|apply (st_el _ _ _ _ ST _ H t)]).
  split; intros M t Ht; destruct (st_el _ _ _ _ ST _ H t) as [_ [[E1 E2] _]]; specialize (M t Ht); rewrite E1, E2, B in *; exact M.
Qed.
Lemma u_flow_rule : forall c f, In c (fs_comps fs) -> In f (cp_flows c) -> (flow_rule cf fs' idx y (uc c) (uf f) <-> flow_rule cf fs idx x c f).
Proof.
  intros c f Hc Hf. pose proof (u_governed c f) as G. pose proof (u_sized c f) as SZ. unfold flow_rule.
  assert (GN : governed fs' idx (uc c) (uf f) = None <-> governed fs idx c f = None) by (rewrite G; destruct (governed fs idx c f); split; intros E; first [discriminate E|reflexivity]).
  assert (SR : size_range cf (sized cf (uc c) (uf f)) = size_range cf (sized cf c f)) by (rewrite SZ; apply u_range).
  pose proof (fun t => u_rate c f t Hc Hf) as RT. pose proof (fun t => u_on c f t Hc Hf) as ON. pose proof (u_size_of c f Hc Hf) as SO.
  destruct (st_el _ _ _ _ ST _ (label_flow c f Hc Hf) 0%nat) as [_ [_ [X1 X2]]].
  assert (MK : onoff_marks y (flow_name (uc c) (uf f)) (was_on cf (uf f)) (steps fs' idx) <-> onoff_marks x (flow_name c f) (was_on cf f) (steps fs idx)) by (exact (u_marks _ _ (label_flow c f Hc Hf))).
  split; intros [AL M].
  - split; [|intros Z; apply MK, M; intros Z'; apply Z, GN, Z'].
    apply (allowed_transfer cf fs' fs idx y x (uc c) c (uf f) f); try (symmetry; assumption); try (intros t; symmetry; auto); try (repeat split; reflexivity); try assumption.
    + intros o E. exists (u_onoff U es o). split; [rewrite G, E; reflexivity|]. intros st g H. exact H.
    + intros iv E. exists (u_invest U es iv). split; [rewrite SZ, E; reflexivity|]. intros a b H. exact H.
  - split; [|intros Z; apply MK, M; intros Z'; apply Z, GN, Z'].
    apply (allowed_transfer cf fs fs' idx x y c (uc c) f (uf f)); try assumption; try (repeat split; reflexivity).
    + intros o' E. rewrite G in E. destruct (governed fs idx c f) as [o|]; [|discriminate E]. exists o. split; [reflexivity|]. injection E as <-. intros st g H. exact H.
    + intros iv' E. rewrite SZ in E. destruct (sized cf c f) as [q|iv]; [discriminate E|]. exists iv. split; [reflexivity|]. injection E as <-. intros a b H. exact H.
Qed.

(** Components. *)
Lemma u_states : forall c, comp_states cf (uc c) = comp_states cf c.
Proof.
  intros c. unfold comp_states. rewrite u_flows. generalize (cp_flows c) as l. intros l.
  assert (FM : filter gives_prev (map uf l) = map uf (filter gives_prev l)).
  { induction l as [|f l IH]; [reflexivity|]. cbn [map filter]. change (gives_prev (uf f)) with (gives_prev f). destruct (gives_prev f); [cbn [map]; rewrite IH; reflexivity|exact IH]. }
  rewrite FM. destruct (filter gives_prev l) as [|f r]; [reflexivity|]. cbn [map]. change (prior_states cf (uf f)) with (prior_states cf f). apply map_ext. intros j.
  change (uf f :: map uf r) with (map uf (f :: r)). generalize (f :: r). induction l0 as [|g l0 IH]; [reflexivity|]. cbn [map existsb]. rewrite IH. reflexivity.
Qed.
Lemma u_all : forall c (P : flow -> Prop), (forall f', In f' (cp_flows (uc c)) -> P f') <-> (forall f, In f (cp_flows c) -> P (uf f)).
Proof.
  intros c P. rewrite u_flows. split; intros H; [intros f Hf; apply H, in_map, Hf|]. intros f' Hf'. apply in_map_iff in Hf'. destruct Hf' as [f [<- Hf]]. auto.
Qed.
Lemma u_none : forall c, cp_onoff (uc c) <> None <-> cp_onoff c <> None.
Proof. intros c. cbn [u_comp cp_onoff]. destruct (cp_onoff c); cbn [option_map]; split; intros H; first [intros E; discriminate E|exfalso; apply H; reflexivity]. Qed.
Lemma u_idle : forall c t, In c (fs_comps fs) -> ((forall f, In f (cp_flows (uc c)) -> rate_of y (uc c) f t == 0) <-> (forall f, In f (cp_flows c) -> rate_of x c f t == 0)).
Proof. intros c t Hc. rewrite (u_all c (fun f => rate_of y (uc c) f t == 0)). split; intros H f Hf; specialize (H f Hf); rewrite (u_rate c f t Hc Hf) in *; exact H. Qed.
Lemma u_running : forall c p, In c (fs_comps fs) -> (running_rule cf fs' idx y (uc c) (u_onoff U es p) <-> running_rule cf fs idx x c p).
Proof.
  intros c p Hc. pose proof (label_comp c Hc) as LB. pose proof (fun t => proj1 (proj1 (proj2 (st_el _ _ _ _ ST _ LB t)))) as EL.
  unfold running_rule. rewrite u_states. change (steps fs' idx) with (steps fs idx). change (cp_label (uc c)) with (cp_label c).
  assert (A : (forall t, (t < steps fs idx)%nat -> (y (oo (cp_label c) "on") t == 0 <-> (forall f, In f (cp_flows (uc c)) -> rate_of y (uc c) f t == 0)))
     <-> (forall t, (t < steps fs idx)%nat -> (x (oo (cp_label c) "on") t == 0 <-> (forall f, In f (cp_flows c) -> rate_of x c f t == 0)))).
  { split; intros H t Ht; specialize (H t Ht); [rewrite <- (u_idle c t Hc), <- (EL t)|rewrite (u_idle c t Hc), (EL t)]; exact H. }
  assert (B : onoff_rules fs' idx (comp_states cf c) (u_onoff U es p) (y (oo (cp_label c) "on")) <-> onoff_rules fs idx (comp_states cf c) p (x (oo (cp_label c) "on"))).
  { change (onoff_rules fs' idx (comp_states cf c) (u_onoff U es p) (y (oo (cp_label c) "on"))) with (onoff_rules fs idx (comp_states cf c) p (y (oo (cp_label c) "on"))).
    split; apply onoff_rules_ext; try exact N1; intros t _; rewrite (EL t); reflexivity. }
  rewrite (u_marks _ _ LB), A, B. reflexivity.
Qed.
Hypothesis IDS : forall c, In c (fs_comps fs) -> NoDup (map f_id (cp_flows c)).
Lemma u_exclusion : forall c, In c (fs_comps fs) -> (exclusion_rule fs' idx y (uc c) <-> exclusion_rule fs idx x c).
Proof.
  intros c Hc. split; intros EX.
  - intros f g t Hf Hg NE Pf Pg Ht. rewrite <- (u_rate c f t Hc Hf), <- (u_rate c g t Hc Hg). apply EX; auto; try (rewrite u_flows; apply in_map; assumption).
    intros E. apply NE. apply (NoDup_map_eq_ f_id (cp_flows c)); auto. change (f_id f) with (f_id (uf f)). rewrite E. reflexivity.
  - intros f' g' t Hf' Hg' NE Pf Pg Ht. rewrite u_flows in Hf', Hg'. apply in_map_iff in Hf', Hg'. destruct Hf' as [f [<- Hf]]. destruct Hg' as [g [<- Hg]].
    rewrite (u_rate c f t Hc Hf), (u_rate c g t Hc Hg). apply EX; auto. intros E. apply NE. rewrite E. reflexivity.
Qed.
Lemma u_weighted : forall c fac l t, In c (fs_comps fs) -> incl l (cp_flows c) -> weighted idx y (uc c) fac (map uf l) t = weighted idx x c fac l t.
Proof.
  intros c fac l t Hc IN. unfold weighted. rewrite map_map. f_equal. apply map_ext_in. intros f Hf. change (factor_of fac (uf f)) with (factor_of fac f). rewrite (u_rate c f t Hc (IN f Hf)). reflexivity.
Qed.
Lemma u_segmented : forall c segs, In c (fs_comps fs) -> (segmented_rule fs' idx y (uc c) segs <-> segmented_rule fs idx x c segs).
Proof.
  intros c segs Hc. pose proof (fun t => proj1 (proj1 (proj2 (st_el _ _ _ _ ST _ (label_comp c Hc) t)))) as EL. unfold segmented_rule. change (steps fs' idx) with (steps fs idx). change (cp_label (uc c)) with (cp_label c).
  assert (P : forall k w t, (forall f, In f (cp_flows (uc c)) -> exists ab, nth_error (segments_of segs f) k = Some ab /\ on_piece idx y (uc c) f t w ab)
     <-> (forall f, In f (cp_flows c) -> exists ab, nth_error (segments_of segs f) k = Some ab /\ on_piece idx x c f t w ab)).
  { intros k w t. rewrite (u_all c (fun f => exists ab, nth_error (segments_of segs f) k = Some ab /\ on_piece idx y (uc c) f t w ab)).
    split; intros H f Hf; destruct (H f Hf) as [ab [E OP]]; exists ab; (split; [exact E|]); unfold on_piece in *; rewrite (u_rate c f t Hc Hf) in *; exact OP. }
  split; intros H t Ht; destruct (H t Ht) as [[k [w [W0 [W1 [Q0 Q1]]]]]|[Q0 [Z Rt]]].
  - left. exists k, w. split; [exact W0|]. split; [exact W1|]. split; [apply P, Q0|]. rewrite <- u_none, <- (EL t). exact Q1.
  - right. rewrite <- u_none, <- (EL t), <- (u_idle c t Hc). auto.
  - left. exists k, w. split; [exact W0|]. split; [exact W1|]. split; [apply P, Q0|]. rewrite u_none, (EL t). exact Q1.
  - right. rewrite u_none, (EL t), (u_idle c t Hc). auto.
Qed.
Lemma u_storage_rule : forall c s ch dis, In c (fs_comps fs) -> In ch (cp_flows c) -> In dis (cp_flows c) ->
  (storage_rule cf fs' idx y (uc c) (u_storage U es s) (uf ch) (uf dis) <-> storage_rule cf fs idx x c s ch dis).
Proof.
  intros c s ch dis Hc H1 H2. pose proof (st_el _ _ _ _ ST _ (label_comp c Hc)) as EL.
  assert (CH : forall t, charge y (uc c) t = charge x c t) by (intros t; apply EL).
  assert (CA : capacity y (uc c) (u_storage U es s) = capacity x c s) by (unfold capacity; cbn [u_storage st_cap]; destruct (st_cap s); [reflexivity|apply EL]).
  assert (CR : cap_range cf (u_cap U es (st_cap s)) = cap_range cf (st_cap s)) by (destruct (st_cap s); reflexivity).
  destruct (EL 0%nat) as [_ [_ [X1 X2]]]. pose proof (fun t => u_rate c ch t Hc H1) as R1. pose proof (fun t => u_rate c dis t Hc H2) as R2.
  unfold storage_rule. change (steps fs' idx) with (steps fs idx). change (cp_label (uc c)) with (cp_label c). cbn [u_storage st_cap st_relmin st_relmax st_init st_fmin st_fmax st_eta_c st_eta_d st_loss]. rewrite X1, X2, CR, CA.
  assert (AL : (forall iv, u_cap U es (st_cap s) = CapInv iv -> allowed_size cf iv (x (inv (cp_label c) "size") 0%nat) (x (inv (cp_label c) "isInvested") 0%nat))
     <-> (forall iv, st_cap s = CapInv iv -> allowed_size cf iv (x (inv (cp_label c) "size") 0%nat) (x (inv (cp_label c) "isInvested") 0%nat))).
  { destruct (st_cap s) as [q|iv0]; cbn [u_cap]; split; intros H iv E; inversion E; subst; [exact (H _ eq_refl)|exact (H _ eq_refl)]. }
  rewrite AL, !CH. clear AL X1 X2 EL CR CA.
  split; intros [B [LM R]]; (split; [|split; [|exact R]]); intros t Ht.
  - specialize (B t Ht). rewrite !CH, R1, R2 in B. exact B.
  - specialize (LM t Ht). rewrite !CH in LM. exact LM.
  - specialize (B t Ht). rewrite !CH, R1, R2. exact B.
  - specialize (LM t Ht). rewrite !CH. exact LM.
Qed.
Lemma u_carries : forall c rel abs i o, In c (fs_comps fs) -> In i (cp_flows c) -> In o (cp_flows c) -> (carries fs' idx y (uc c) rel abs (uf i) (uf o) <-> carries fs idx x c rel abs i o).
Proof.
  intros c rel abs i o Hc Hi Ho. split; intros H t Ht; specialize (H t Ht); rewrite (u_rate c i t Hc Hi), (u_rate c o t Hc Ho), (u_on c i t Hc Hi) in *; exact H.
Qed.
Lemma u_transmission : forall c rel abs in1 out1 in2 out2, In c (fs_comps fs) -> cp_in c = in1 :: opt_flow in2 -> cp_out c = out1 :: opt_flow out2 ->
  (transmission_rule cf fs' idx y (uc c) rel abs (uf in1) (uf out1) (option_map uf in2) (option_map uf out2) <-> transmission_rule cf fs idx x c rel abs in1 out1 in2 out2).
Proof.
  intros c rel abs in1 out1 in2 out2 Hc EI EO. unfold transmission_rule.
  assert (H1 : In in1 (cp_flows c)) by (unfold cp_flows; rewrite EI; left; reflexivity). assert (H2 : In out1 (cp_flows c)) by (unfold cp_flows; rewrite EO; apply in_app_iff; right; left; reflexivity).
  rewrite (u_carries c rel abs in1 out1 Hc H1 H2). destruct in2 as [i2|], out2 as [o2|]; try reflexivity. cbn [option_map opt_flow] in *.
  assert (H3 : In i2 (cp_flows c)) by (unfold cp_flows; rewrite EI; right; left; reflexivity). assert (H4 : In o2 (cp_flows c)) by (unfold cp_flows; rewrite EO; apply in_app_iff; right; right; left; reflexivity).
  rewrite (u_carries c rel abs i2 o2 Hc H3 H4), (u_size_of c in1 Hc H1), (u_size_of c i2 Hc H3).
  assert (SZ : (forall iv, f_size (uf in1) = SzInv iv -> size_of cf x c in1 == size_of cf x c i2) <-> (forall iv, f_size in1 = SzInv iv -> size_of cf x c in1 == size_of cf x c i2)).
  { cbn [u_flow f_size]. destruct (f_size in1) as [q|iv0]; cbn [u_size]; split; intros H iv E; try discriminate E; exact (H _ eq_refl). }
  rewrite SZ. reflexivity.
Qed.
Lemma map_opt : forall l o', map uf l = opt_flow o' -> exists o, l = opt_flow o /\ o' = option_map uf o.
Proof. intros [|f [|g r]] [f'|] E; cbn in E; try discriminate E; [exists None; auto|]. injection E as <-. exists (Some f). auto. Qed.
Lemma u_own : forall c, In c (fs_comps fs) -> (own_rule cf fs' idx y (uc c) <-> own_rule cf fs idx x c).
Proof.
  intros c Hc. unfold own_rule. change (cp_kind (uc c)) with (u_kind U es (cp_kind c)). change (cp_in (uc c)) with (map uf (cp_in c)). change (cp_out (uc c)) with (map uf (cp_out c)).
  destruct (cp_kind c) as [|eqs|segs|s|rel abs]; cbn [u_kind].
  - reflexivity.
  - assert (A : forall fac t, weighted idx y (uc c) fac (map uf (cp_in c)) t = weighted idx x c fac (cp_in c) t) by (intros fac t; apply u_weighted; [exact Hc|intros f Hf; apply in_app_iff; left; exact Hf]).
    assert (B : forall fac t, weighted idx y (uc c) fac (map uf (cp_out c)) t = weighted idx x c fac (cp_out c) t) by (intros fac t; apply u_weighted; [exact Hc|intros f Hf; apply in_app_iff; right; exact Hf]).
    split; intros H fac t Hf Ht; specialize (H fac t Hf Ht); rewrite A, B in *; exact H.
  - exact (u_segmented c segs Hc).
  - split; intros H ch dis EI EO.
    + apply u_storage_rule; [exact Hc|unfold cp_flows; rewrite EI; left; reflexivity|unfold cp_flows; rewrite EO; apply in_app_iff; right; left; reflexivity|]. apply H; [rewrite EI|rewrite EO]; reflexivity.
    + destruct (cp_in c) as [|ch0 [|? ?]] eqn:I0; try discriminate EI. destruct (cp_out c) as [|dis0 [|? ?]] eqn:O0; try discriminate EO. cbn [map] in EI, EO. injection EI as <-. injection EO as <-.
      apply u_storage_rule; [exact Hc|unfold cp_flows; rewrite I0; left; reflexivity|unfold cp_flows; rewrite O0; apply in_app_iff; right; left; reflexivity|]. apply H; reflexivity.
  - split; intros H in1 out1 in2 out2 EI EO.
    + apply (u_transmission c rel abs in1 out1 in2 out2 Hc EI EO). apply H; [rewrite EI|rewrite EO]; [destruct in2|destruct out2]; reflexivity.
    + destruct (cp_in c) as [|i1 ri] eqn:I0; [discriminate EI|]. destruct (cp_out c) as [|o1 ro] eqn:O0; [discriminate EO|]. cbn [map] in EI, EO. injection EI as <- EI. injection EO as <- EO.
      destruct (map_opt _ _ EI) as [i2 [-> ->]]. destruct (map_opt _ _ EO) as [o2 [-> ->]]. apply (u_transmission c rel abs i1 o1 i2 o2 Hc I0 O0). apply H; reflexivity.
Qed.

(** Effects of elements. *)
Lemma u_find : forall P l, (forall e, P (ue e) = P e) -> find P (map ue l) = option_map ue (find P l).
Proof. intros P l H. induction l as [|e l IH]; [reflexivity|]. cbn [map find]. rewrite H, IH. destruct (P e); reflexivity. Qed.
Lemma u_names : forall k e, names (fs_effects fs') k (ue e) = names es k e.
Proof. intros [i|] e; [reflexivity|]. unfold names. change (fs_effects fs') with (map ue es). rewrite u_find by reflexivity. destruct (find e_std es); reflexivity. Qed.
Lemma u_factor : forall k e, names es k e = true -> factor U es k = U (e_id e).
Proof.
  intros [i|] e H; cbn [names factor] in *; [apply Nat.eqb_eq in H; rewrite H; reflexivity|]. unfold std_factor. destruct (find e_std es); [|discriminate H]. apply Nat.eqb_eq in H. rewrite H. reflexivity.
Qed.
Lemma u_entries : forall v, entries (u_values U es v) = map (fun kp => (fst kp, times (factor U es (fst kp)) (snd kp))) (entries v).
Proof. intros [|p|l]; reflexivity. Qed.
Lemma u_cost : forall ix v e t, cost (fs_effects fs') ix (u_values U es v) (ue e) t == U (e_id e) * cost es ix v e t.
Proof.
  intros ix v e t. unfold cost. rewrite u_entries, map_map, <- BaseFacts.Qsum_scale. apply Qsum_map_eq. intros kp _. cbn [fst snd]. rewrite u_names.
  destruct (names es (fst kp) e) eqn:N; [|ring]. rewrite (u_factor _ _ N). apply value_times.
Qed.
Lemma u_onoff_costs : forall nm p e t, In nm (labels_of fs) -> onoff_costs fs' idx y nm (u_onoff U es p) (ue e) t == U (e_id e) * onoff_costs fs idx x nm p e t.
Proof.
  intros nm p e t H. destruct (st_el _ _ _ _ ST _ H t) as [_ [[E1 E2] _]]. unfold onoff_costs. cbn [u_onoff oo_switch_eff oo_run_eff]. rewrite !u_cost, E1, E2. change (hours fs' idx t) with (hours fs idx t). ring.
Qed.
Lemma u_comp_costs : forall c e t, In c (fs_comps fs) -> comp_costs fs' idx y (uc c) (ue e) t == U (e_id e) * comp_costs fs idx x c e t.
Proof.
  intros c e t Hc. unfold comp_costs. rewrite u_flows, map_map, Qmult_plus_distr_r. apply Qplus_comp.
  - rewrite <- BaseFacts.Qsum_scale. apply Qsum_map_eq. intros f Hf. unfold flow_costs. rewrite u_governed, (u_rate c f t Hc Hf), Qmult_plus_distr_r. apply Qplus_comp.
    + change (f_effects (uf f)) with (u_values U es (f_effects f)). rewrite u_cost. change (hours fs' idx t) with (hours fs idx t). ring.
    + destruct (governed fs idx c f) as [p|]; cbn [option_map]; [|ring]. exact (u_onoff_costs _ p e t (label_flow c f Hc Hf)).
  - cbn [u_comp cp_onoff]. destruct (cp_onoff c) as [p|]; cbn [option_map]; [|ring]. exact (u_onoff_costs _ p e t (label_comp c Hc)).
Qed.
Definition u_pair (ni : string * invest) : string * invest := (fst ni, u_invest U es (snd ni)).
Lemma u_investments : investments cf fs' = map u_pair (investments cf fs).
Proof.
  unfold investments. change (fs_comps fs') with (map uc (fs_comps fs)). generalize (fs_comps fs). induction l as [|c l IH]; [reflexivity|]. cbn [map flat_map]. rewrite map_app, IH. f_equal.
  rewrite map_app. f_equal.
  - rewrite u_flows. generalize (cp_flows c). induction l0 as [|f l0 IH0]; [reflexivity|]. cbn [map flat_map]. rewrite map_app, IH0. f_equal. unfold flow_investment. rewrite u_sized. destruct (sized cf c f); reflexivity.
  - unfold storage_investment. cbn [u_comp cp_kind cp_label]. destruct (cp_kind c); try reflexivity. cbn [u_kind u_storage st_cap]. destruct (st_cap s); reflexivity.
Qed.
Lemma label_inv : forall nm iv, In (nm, iv) (investments cf fs) -> In nm (labels_of fs).
Proof.
  intros nm iv H. apply in_flat_map in H. destruct H as [c [Hc H]]. apply in_app_iff in H. destruct H as [H|H].
  - apply in_flat_map in H. destruct H as [f [Hf H]]. unfold flow_investment in H. destruct (sized cf c f); [destruct H|]. destruct H as [E|[]]. injection E as <- _. apply label_flow; assumption.
  - unfold storage_investment in H. destruct (cp_kind c); try destruct H. destruct (st_cap s); [destruct H|]. destruct H as [E|[]]. injection E as <- _. apply label_comp, Hc.
Qed.
Lemma u_invest_costs : forall nm iv e, In nm (labels_of fs) -> In e es -> invest_costs fs' y nm (u_invest U es iv) (ue e) == U (e_id e) * invest_costs fs x nm iv e.
Proof.
  intros nm iv e H He. destruct (st_el _ _ _ _ ST _ H 0%nat) as [_ [_ [X1 X2]]]. unfold invest_costs. cbn [u_invest iv_fix iv_spec iv_divest]. rewrite !u_cost, X1.
  assert (M : made y nm (u_invest U es iv) = made x nm iv) by (unfold made; cbn [u_invest iv_optional]; rewrite X2; reflexivity). rewrite M.
  assert (SG : seg_costs y nm (u_invest U es iv) (ue e) == U (e_id e) * seg_costs x nm iv e).
  { unfold seg_costs. cbn [u_invest iv_seg]. destruct (iv_seg iv) as [[sp eff]|]; [|ring]. rewrite map_map, <- BaseFacts.Qsum_scale. apply Qsum_map_eq. intros il _. cbn [fst].
    change (e_id (ue e)) with (e_id e). destruct (Nat.eqb (fst il) (e_id e)); [|ring]. exact (st_seg _ _ _ _ ST nm e H He). }
  rewrite SG. ring.
Qed.
Lemma u_piece : forall u l k w q q', 0 < u -> q' == u * q -> (PropsEffects.piece (map (fun ab : Q * Q => (u * fst ab, u * snd ab)) l) k w q' <-> PropsEffects.piece l k w q).
Proof.
  intros u l k w q q' P E. unfold PropsEffects.piece. rewrite nth_error_map. destruct (nth_error l k) as [[a b]|]; cbn [option_map fst snd].
  - split; intros [a' [b' [N H]]]; injection N as <- <-; do 2 eexists; (split; [reflexivity|]).
    + rewrite E in H. apply (Qmult_inj_l q _ u); [lra|]. rewrite H. ring.
    + rewrite E, H. ring.
  - split; intros [a' [b' [N H]]]; discriminate N.
Qed.
Lemma zero_times : forall u q q', 0 < u -> q' == u * q -> (q' == 0 <-> q == 0).
Proof. intros u q q' P E. rewrite E. split; intros H; [|rewrite H; ring]. apply (Qmult_inj_l q 0 u); [lra|]. rewrite H. ring. Qed.
Lemma u_segments : forall nm iv, In nm (labels_of fs) -> (segments_rule fs' y nm (u_invest U es iv) <-> segments_rule fs x nm iv).
Proof.
  intros nm iv H. destruct (st_el _ _ _ _ ST _ H 0%nat) as [_ [_ [X1 X2]]]. unfold segments_rule. rewrite X1, X2. cbn [u_invest iv_optional iv_seg]. destruct (iv_seg iv) as [[sp eff]|]; [|split; intros _ ? ? E; discriminate E].
  set (eff' := map (fun il : nat * list (Q * Q) => (fst il, map (fun ab => (U (fst il) * fst ab, U (fst il) * snd ab)) (snd il))) eff).
  assert (PC : forall k w, (forall i l e, In (i, l) eff' -> In e (fs_effects fs') -> e_id e = i -> PropsEffects.piece l k w (seg_cost y nm e))
     <-> (forall i l e, In (i, l) eff -> In e es -> e_id e = i -> PropsEffects.piece l k w (seg_cost x nm e))).
  { intros k w. split.
    - intros A i l e Hi He EI. subst i. apply (u_piece (U (e_id e)) l k w _ _ (UP _) (st_seg _ _ _ _ ST nm e H He)).
      apply (A (e_id e) _ (ue e)); [|apply in_map, He|reflexivity]. apply in_map_iff. exists (e_id e, l). split; [reflexivity|exact Hi].
    - intros A i l' e' Hi He' EI. apply in_map_iff in Hi. destruct Hi as [[i0 l] [E0 Hi]]. injection E0 as <- <-. cbn [fst] in *. change (fs_effects fs') with (map ue es) in He'. apply in_map_iff in He'. destruct He' as [e [<- He]].
      change (e_id (ue e)) with (e_id e) in EI. subst i0. apply (u_piece (U (e_id e)) l k w _ _ (UP _) (st_seg _ _ _ _ ST nm e H He)). exact (A _ _ e Hi He eq_refl). }
  assert (ZC : (forall i l e, In (i, l) eff' -> In e (fs_effects fs') -> e_id e = i -> seg_cost y nm e == 0) <-> (forall i l e, In (i, l) eff -> In e es -> e_id e = i -> seg_cost x nm e == 0)).
  { split.
    - intros A i l e Hi He EI. subst i. apply (zero_times (U (e_id e)) _ _ (UP _) (st_seg _ _ _ _ ST nm e H He)).
      apply (A (e_id e) (map (fun ab => (U (e_id e) * fst ab, U (e_id e) * snd ab)) l) (ue e)); [|apply in_map, He|reflexivity]. apply in_map_iff. exists (e_id e, l). split; [reflexivity|exact Hi].
    - intros A i l' e' Hi He' EI. apply in_map_iff in Hi. destruct Hi as [[i0 l] [E0 Hi]]. injection E0 as <- <-. cbn [fst] in *. change (fs_effects fs') with (map ue es) in He'. apply in_map_iff in He'. destruct He' as [e [<- He]].
      change (e_id (ue e)) with (e_id e) in EI. subst i0. apply (zero_times (U (e_id e)) _ _ (UP _) (st_seg _ _ _ _ ST nm e H He)). exact (A _ _ e Hi He eq_refl). }
  split; intros A spts eff0 E; injection E as <- <-; specialize (A _ _ eq_refl); cbv zeta in *; rewrite ZC in *.
  - destruct A as [[k [w [W0 [W1 [Q0 [Q1 Q2]]]]]]|A]; [left; exists k, w; rewrite PC in Q1; repeat (split; [assumption|]); assumption|right; exact A].
  - destruct A as [[k [w [W0 [W1 [Q0 [Q1 Q2]]]]]]|A]; [left; exists k, w; rewrite PC; repeat (split; [assumption|]); assumption|right; exact A].
Qed.

(** Buses. *)
Lemma u_sumn : forall n k f, sumn n (fun t => k * f t) == k * sumn n f.
Proof. intros n k f. unfold sumn. rewrite <- BaseFacts.Qsum_scale. reflexivity. Qed.
Lemma u_used : forall b, used_bus fs b -> used_bus fs' (ub b).
Proof. intros b [c [f [Hc [Hf <-]]]]. exists (uc c), (uf f). split; [apply in_map, Hc|]. split; [rewrite u_flows; apply in_map, Hf|reflexivity]. Qed.
Lemma u_used_inv : forall b', used_bus fs' b' -> exists b, used_bus fs b /\ b' = ub b.
Proof.
  intros b' [c' [f' [Hc [Hf <-]]]]. change (fs_comps fs') with (map uc (fs_comps fs)) in Hc. apply in_map_iff in Hc. destruct Hc as [c [<- Hc]]. rewrite u_flows in Hf. apply in_map_iff in Hf. destruct Hf as [f [<- Hf]].
  exists (f_bus f). split; [exists c, f; auto|reflexivity].
Qed.
Lemma u_excess : forall b w t, used_bus fs b -> w = "excess_input" \/ w = "excess_output" -> excess y (ub b) w t = excess x b w t.
Proof. intros b w t Ub W. rewrite <- (st_ex _ _ _ _ ST b w t Ub W). unfold excess. cbn [u_bus b_penalty b_lab]. destruct (b_penalty b); reflexivity. Qed.
Lemma u_sums : forall b t, delivered fs' y (ub b) t = delivered fs x b t /\ taken fs' y (ub b) t = taken fs x b t.
Proof.
  intros b t. assert (F : forall l, filter (connected (ub b)) (map uf l) = map uf (filter (connected b) l)).
  { induction l as [|f l IH]; [reflexivity|]. cbn [map filter]. change (connected (ub b) (uf f)) with (connected b f). rewrite IH. destruct (connected b f); reflexivity. }
  unfold delivered, taken. change (fs_comps fs') with (map uc (fs_comps fs)). rewrite !map_map. split; f_equal; apply map_ext_in; intros c Hc.
  - change (cp_out (uc c)) with (map uf (cp_out c)). rewrite F, map_map. f_equal. apply map_ext_in. intros f Hf. apply filter_In in Hf. apply u_rate; [exact Hc|apply in_app_iff; right; apply Hf].
  - change (cp_in (uc c)) with (map uf (cp_in c)). rewrite F, map_map. f_equal. apply map_ext_in. intros f Hf. apply filter_In in Hf. apply u_rate; [exact Hc|apply in_app_iff; left; apply Hf].
Qed.
Lemma u_bus_rule : forall b, used_bus fs b -> (bus_rule fs' idx y (ub b) <-> bus_rule fs idx x b).
Proof.
  intros b Ub. split; intros H t Ht; specialize (H t Ht); destruct (u_sums b t) as [E1 E2]; rewrite E1, E2, !(u_excess b _ t Ub) in * by auto; exact H.
Qed.
Lemma u_price : forall b, used_bus fs b -> bus_price fs' idx y (ub b) == obj_factor U es * bus_price fs idx x b.
Proof.
  intros b Ub. unfold bus_price. change (steps fs' idx) with (steps fs idx). cbn [u_bus b_penalty]. destruct (b_penalty b) as [p|]; cbn [option_map]; [|ring].
  rewrite <- u_sumn. apply sumn_ext. intros t Ht. rewrite value_times, !(u_excess b _ t Ub) by auto. change (hours fs' idx t) with (hours fs idx t). ring.
Qed.
Lemma u_injective : same_object fs -> forall b b', used_bus fs b -> used_bus fs b' -> ub b = ub b' -> b = b'.
Proof. intros SO b b' Hb Hb' E. apply SO; [exact Hb|exact Hb'|]. change (b_id b) with (b_id (ub b)). rewrite E. reflexivity. Qed.
Lemma u_objects : same_object fs -> same_object fs'.
Proof.
  intros SO b b' Hb Hb' E. destruct (u_used_inv b Hb) as [b0 [U0 ->]]. destruct (u_used_inv b' Hb') as [b1 [U1 ->]]. rewrite (SO b0 b1 U0 U1 E). reflexivity.
Qed.
Lemma u_penalty_rule : same_object fs ->
  ((forall bl, NoDup bl -> (forall b, In b bl <-> used_bus fs' b) -> penalty_sum y == Qsum (map (bus_price fs' idx y) bl))
   <-> (forall bl, NoDup bl -> (forall b, In b bl <-> used_bus fs b) -> penalty_sum x == Qsum (map (bus_price fs idx x) bl))).
Proof.
  intros SO. assert (OP : 0 < obj_factor U es) by (unfold obj_factor; destruct (find e_obj es); [apply UP|reflexivity]).
  assert (EQ : forall bl bl', NoDup bl -> (forall b, In b bl <-> used_bus fs b) -> NoDup bl' -> (forall b, In b bl' <-> used_bus fs' b) ->
     Qsum (map (bus_price fs' idx y) bl') == obj_factor U es * Qsum (map (bus_price fs idx x) bl)).
  { intros bl bl' ND UB ND' UB'. assert (P : Permutation bl' (map ub bl)).
    { apply NoDup_Permutation; [exact ND'| |].
      - clear ND' UB' bl'. assert (IN : forall b, In b bl -> used_bus fs b) by (intros b; apply UB). clear UB. induction ND as [|b l N ND IH]; [constructor|]. cbn [map]. constructor; [|apply IH; intros b0 H0; apply IN; right; exact H0].
        intros H. apply in_map_iff in H. destruct H as [b0 [E H0]]. apply N. rewrite <- (u_injective SO b0 b (IN _ (or_intror H0)) (IN _ (or_introl eq_refl)) E). exact H0.
      - intros b'. rewrite UB', in_map_iff. split; [intros H; destruct (u_used_inv b' H) as [b [Hb ->]]; exists b; split; [reflexivity|apply UB, Hb]|intros [b [<- Hb]]; apply u_used, UB, Hb]. }
    rewrite (Qsum_perm _ _ (Permutation_map (bus_price fs' idx y) P)), map_map, <- BaseFacts.Qsum_scale. apply Qsum_map_eq. intros b Hb. apply u_price, UB, Hb. }
  split; intros H bl ND UB.
  - destruct (some_buses fs' (u_objects SO)) as [bl' [ND' UB']]. specialize (H bl' ND' UB'). rewrite (EQ bl bl' ND UB ND' UB'), (st_pen _ _ _ _ ST) in H. apply (Qmult_inj_l _ _ (obj_factor U es)); [lra|exact H].
  - destruct (some_buses fs SO) as [bl' [ND' UB']]. rewrite (EQ bl' bl ND' UB' ND UB), (st_pen _ _ _ _ ST), (H bl' ND' UB'). reflexivity.
Qed.

(** Totals of effects. *)
Lemma at_times : forall k d i, at_ (ntimes k d) i == k * at_ d i.
Proof.
  intros k [q|l] i; [reflexivity|]. destruct l as [|a [|b l]]; [destruct i; cbn; ring|cbn; ring|]. cbn [ntimes map at_].
  change (k * a :: k * b :: map (Qmult k) l) with (map (Qmult k) (a :: b :: l)). generalize (a :: b :: l). intros m. revert i. induction m as [|c m IH]; intros [|i]; cbn [map nth]; try ring. apply IH.
Qed.
Lemma cancel : forall u a b, 0 < u -> (u * a == u * b <-> a == b).
Proof. intros u a b P. split; intros H; [apply (Qmult_inj_l a b u); [lra|exact H]|rewrite H; reflexivity]. Qed.
Lemma cancel_le : forall u a b, 0 < u -> (u * a <= u * b <-> a <= b).
Proof. intros u a b P. split; intros H; [rewrite (Qmult_le_l a b u P) in H; exact H|rewrite (Qmult_le_l a b u P); exact H]. Qed.
Lemma least_times : forall u o q q', 0 < u -> q' == u * q -> (at_least (option_map (Qmult u) o) q' <-> at_least o q).
Proof.
  intros u [l|] q q' P E; unfold at_least; cbn [option_map]; [|split; intros _ l H; discriminate H]. split; intros H l0 E0; injection E0 as <-.
  - specialize (H _ eq_refl). rewrite E in H. apply (cancel_le u); assumption.
  - rewrite E. apply cancel_le; auto.
Qed.
Lemma most_times : forall u o q q', 0 < u -> q' == u * q -> (at_most (option_map (Qmult u) o) q' <-> at_most o q).
Proof.
  intros u [l|] q q' P E; unfold at_most; cbn [option_map]; [|split; intros _ l H; discriminate H]. split; intros H l0 E0; injection E0 as <-.
  - specialize (H _ eq_refl). rewrite E in H. apply (cancel_le u); assumption.
  - rewrite E. apply cancel_le; auto.
Qed.
Lemma least_hour : forall u o t q q', 0 < u -> q' == u * q ->
  (at_least (option_map (fun p => value idx p t * hours fs' idx t) (option_map (times u) o)) q' <-> at_least (option_map (fun p => value idx p t * hours fs idx t) o) q).
Proof.
  intros u [p|] t q q' P E; unfold at_least; cbn [option_map]; [|split; intros _ l H; discriminate H]. change (hours fs' idx t) with (hours fs idx t).
  assert (V : value idx (times u p) t * hours fs idx t == u * (value idx p t * hours fs idx t)) by (rewrite value_times; ring).
  split; intros H l0 E0; injection E0 as <-.
  - specialize (H _ eq_refl). rewrite E, V in H. apply (cancel_le u); assumption.
  - rewrite E, V. apply cancel_le; auto.
Qed.
Lemma most_hour : forall u o t q q', 0 < u -> q' == u * q ->
  (at_most (option_map (fun p => value idx p t * hours fs' idx t) (option_map (times u) o)) q' <-> at_most (option_map (fun p => value idx p t * hours fs idx t) o) q).
Proof.
  intros u [p|] t q q' P E; unfold at_most; cbn [option_map]; [|split; intros _ l H; discriminate H]. change (hours fs' idx t) with (hours fs idx t).
  assert (V : value idx (times u p) t * hours fs idx t == u * (value idx p t * hours fs idx t)) by (rewrite value_times; ring).
  split; intros H l0 E0; injection E0 as <-.
  - specialize (H _ eq_refl). rewrite E, V in H. apply (cancel_le u); assumption.
  - rewrite E, V. apply cancel_le; auto.
Qed.
Lemma u_op_from : forall e t, op_from_effects fs' idx y (ue e) t == U (e_id e) * op_from_effects fs idx x e t.
Proof.
  intros e t. unfold op_from_effects. change (fs_effects fs') with (map ue es). rewrite map_map, <- BaseFacts.Qsum_scale. apply Qsum_map_eq. intros e' He'. rewrite <- BaseFacts.Qsum_scale. cbn [u_effect e_share_op]. rewrite map_map. apply Qsum_map_eq. intros kp _. cbn [fst snd].
  change (e_id (ue e)) with (e_id e). destruct (Nat.eqb (fst kp) (e_id e)) eqn:E; [|ring]. apply Nat.eqb_eq in E. rewrite E, value_times.
  pose proof (proj1 (st_tot _ _ _ _ ST e' He') t) as T. change (op_at y (ue e') t) with (op_at y e' t). rewrite T. field. pose proof (UP (e_id e')). lra.
Qed.
Lemma u_inv_from : forall e, inv_from_effects fs' y (ue e) == U (e_id e) * inv_from_effects fs x e.
Proof.
  intros e. unfold inv_from_effects. change (fs_effects fs') with (map ue es). rewrite map_map, <- BaseFacts.Qsum_scale. apply Qsum_map_eq. intros e' He'. rewrite <- BaseFacts.Qsum_scale. cbn [u_effect e_share_inv]. rewrite map_map. apply Qsum_map_eq. intros kp _. cbn [fst snd].
  change (e_id (ue e)) with (e_id e). destruct (Nat.eqb (fst kp) (e_id e)) eqn:E; [|ring]. apply Nat.eqb_eq in E. rewrite E, at_times.
  pose proof (proj1 (proj2 (proj2 (st_tot _ _ _ _ ST e' He')))) as T. change (inv_sum y (ue e')) with (inv_sum y e'). rewrite T. field. pose proof (UP (e_id e')). lra.
Qed.
Lemma u_effect_rule : forall e, In e es -> (effect_rule cf fs' idx y (ue e) <-> effect_rule cf fs idx x e).
Proof.
  intros e He. pose proof (UP (e_id e)) as P. destruct (st_tot _ _ _ _ ST e He) as [T1 [T2 [T3 T4]]]. unfold effect_rule.
  change (steps fs' idx) with (steps fs idx). change (op_sum y (ue e)) with (op_sum y e). change (inv_sum y (ue e)) with (inv_sum y e). change (all_sum y (ue e)) with (all_sum y e).
  cbn [u_effect e_min_op e_max_op e_min_inv e_max_inv e_min_tot e_max_tot e_min_ph e_max_ph].
  assert (Z1 : (forall t, (t < steps fs idx)%nat -> op_at y (ue e) t == Qsum (map (fun c => comp_costs fs' idx y c (ue e) t) (fs_comps fs')) + op_from_effects fs' idx y (ue e) t)
     <-> (forall t, (t < steps fs idx)%nat -> op_at x e t == Qsum (map (fun c => comp_costs fs idx x c e t) (fs_comps fs)) + op_from_effects fs idx x e t)).
  { assert (E : forall t, Qsum (map (fun c => comp_costs fs' idx y c (ue e) t) (fs_comps fs')) + op_from_effects fs' idx y (ue e) t
        == U (e_id e) * (Qsum (map (fun c => comp_costs fs idx x c e t) (fs_comps fs)) + op_from_effects fs idx x e t)).
    { intros t. rewrite Qmult_plus_distr_r. apply Qplus_comp; [|apply u_op_from]. change (fs_comps fs') with (map uc (fs_comps fs)). rewrite map_map, <- BaseFacts.Qsum_scale. apply Qsum_map_eq. intros c Hc. apply u_comp_costs, Hc. }
    split; intros H t Ht; specialize (H t Ht); change (op_at y (ue e) t) with (op_at y e t) in *; rewrite E, (T1 t) in *; [exact (proj1 (cancel _ _ _ P) H)|exact (proj2 (cancel _ _ _ P) H)]. }
  assert (Z2 : op_sum y e == sumn (steps fs idx) (fun t => op_at y (ue e) t) <-> op_sum x e == sumn (steps fs idx) (fun t => op_at x e t)).
  { assert (E : sumn (steps fs idx) (fun t => op_at y (ue e) t) == U (e_id e) * sumn (steps fs idx) (fun t => op_at x e t)) by (rewrite <- u_sumn; apply sumn_ext; intros t _; exact (T1 t)). rewrite E, T2. apply cancel, P. }
  assert (Z3 : inv_sum y e == Qsum (map (fun ni => invest_costs fs' y (fst ni) (snd ni) (ue e)) (investments cf fs')) + inv_from_effects fs' y (ue e)
     <-> inv_sum x e == Qsum (map (fun ni => invest_costs fs x (fst ni) (snd ni) e) (investments cf fs)) + inv_from_effects fs x e).
  { assert (E : Qsum (map (fun ni => invest_costs fs' y (fst ni) (snd ni) (ue e)) (investments cf fs')) + inv_from_effects fs' y (ue e)
        == U (e_id e) * (Qsum (map (fun ni => invest_costs fs x (fst ni) (snd ni) e) (investments cf fs)) + inv_from_effects fs x e)).
    { rewrite Qmult_plus_distr_r. apply Qplus_comp; [|apply u_inv_from]. rewrite u_investments, map_map, <- BaseFacts.Qsum_scale. apply Qsum_map_eq. intros [nm iv] H. cbn [u_pair fst snd]. apply u_invest_costs; [exact (label_inv _ _ H)|exact He]. }
    rewrite E, T3. apply cancel, P. }
  assert (Z4 : all_sum y e == op_sum y e + inv_sum y e <-> all_sum x e == op_sum x e + inv_sum x e).
  { rewrite T2, T3, T4, <- Qmult_plus_distr_r. apply cancel, P. }
  assert (TT : op_sum y e + inv_sum y e == U (e_id e) * (op_sum x e + inv_sum x e)) by (rewrite T2, T3; ring).
  rewrite Z1, Z2, Z3, Z4, (least_times _ (e_min_op e) _ _ P T2), (most_times _ (e_max_op e) _ _ P T2), (least_times _ (e_min_inv e) _ _ P T3), (most_times _ (e_max_inv e) _ _ P T3),
    (least_times _ (e_min_tot e) _ _ P TT), (most_times _ (e_max_tot e) _ _ P TT).
  assert (Z5 : (forall t, (t < steps fs idx)%nat -> at_least (option_map (fun p => value idx p t * hours fs' idx t) (option_map (times (U (e_id e))) (e_min_ph e))) (op_at y (ue e) t)
       /\ at_most (option_map (fun p => value idx p t * hours fs' idx t) (option_map (times (U (e_id e))) (e_max_ph e))) (op_at y (ue e) t))
     <-> (forall t, (t < steps fs idx)%nat -> at_least (option_map (fun p => value idx p t * hours fs idx t) (e_min_ph e)) (op_at x e t) /\ at_most (option_map (fun p => value idx p t * hours fs idx t) (e_max_ph e)) (op_at x e t))).
  { split; intros H t Ht; specialize (H t Ht); (rewrite (least_hour _ (e_min_ph e) t _ _ P (T1 t)), (most_hour _ (e_max_ph e) t _ _ P (T1 t)) in H || rewrite (least_hour _ (e_min_ph e) t _ _ P (T1 t)), (most_hour _ (e_max_ph e) t _ _ P (T1 t))); exact H. }
  rewrite Z5. reflexivity.
Qed.
Lemma u_obeys : same_object fs -> (obeys cf fs' idx y <-> obeys cf fs idx x).
Proof.
  intros SO. assert (CR : forall c', In c' (fs_comps fs') -> exists c, In c (fs_comps fs) /\ c' = uc c) by (intros c' Hc'; change (fs_comps fs') with (map uc (fs_comps fs)) in Hc'; apply in_map_iff in Hc'; destruct Hc' as [c [E H]]; eauto).
  assert (CI : forall c, In c (fs_comps fs) -> In (uc c) (fs_comps fs')) by (intros c Hc; apply (in_map uc), Hc).
  assert (FI : forall c f, In f (cp_flows c) -> In (uf f) (cp_flows (uc c))) by (intros c f Hf; rewrite u_flows; apply in_map, Hf).
  split; intros [O1 O2 O3 O4 O5 O6 O7 O8]; constructor.
  - intros c f Hc Hf. apply u_flow_rule; auto.
  - intros c p Hc E. apply u_running; [exact Hc|]. apply O2; [auto|]. cbn [u_comp cp_onoff]. rewrite E. reflexivity.
  - intros c Hc. apply u_exclusion; auto.
  - intros c Hc. apply u_own; auto.
  - intros nm iv H. apply u_segments; [exact (label_inv _ _ H)|]. apply O5. rewrite u_investments. exact (in_map u_pair _ _ H).
  - intros b Hb. apply u_bus_rule; [exact Hb|]. apply O6, u_used, Hb.
  - intros e He. apply u_effect_rule; [exact He|]. apply O7. exact (in_map ue _ _ He).
  - exact (proj1 (u_penalty_rule SO) O8).
  - intros c' f' Hc' Hf'. destruct (CR c' Hc') as [c [Hc ->]]. rewrite u_flows in Hf'. apply in_map_iff in Hf'. destruct Hf' as [f [<- Hf]]. apply u_flow_rule; auto.
  - intros c' p' Hc' E. destruct (CR c' Hc') as [c [Hc ->]]. cbn [u_comp cp_onoff] in E. destruct (cp_onoff c) as [p|] eqn:EP; [|discriminate E]. injection E as <-. apply u_running; auto.
  - intros c' Hc'. destruct (CR c' Hc') as [c [Hc ->]]. apply u_exclusion; auto.
  - intros c' Hc'. destruct (CR c' Hc') as [c [Hc ->]]. apply u_own; auto.
  - intros nm iv' H. rewrite u_investments in H. apply in_map_iff in H. destruct H as [[nm0 iv] [E H]]. injection E as <- <-. apply u_segments; [exact (label_inv _ _ H)|]. exact (O5 _ _ H).
  - intros b' Hb'. destruct (u_used_inv b' Hb') as [b [Hb ->]]. apply u_bus_rule; auto.
  - intros e' He'. change (fs_effects fs') with (map ue es) in He'. apply in_map_iff in He'. destruct He' as [e [<- He]]. apply u_effect_rule; auto.
  - exact (proj2 (u_penalty_rule SO) O8).
Qed.
End Transfer.
Lemma eq_Qeq : forall a b : Q, a = b -> a == b. Proof. intros a b ->. reflexivity. Qed.

(** ** From a plan to its conversion and back *)
Definition factor_at (U : nat -> Q) (fs : flow_system) (nm : string) : option Q := option_map snd (find (fun p => String.eqb (fst p) nm) (quantity_factors U fs)).
Definition forward (U : nat -> Q) (fs : flow_system) (x : asg) : asg :=
  fun nm t => match factor_at U fs nm with Some k => if Qeq_bool k 1 then x nm t else k * x nm t | None => x nm t end.
Definition backward (U : nat -> Q) (fs : flow_system) (y : asg) : asg :=
  fun nm t => match factor_at U fs nm with Some k => if Qeq_bool k 1 then y nm t else y nm t / k | None => y nm t end.
Lemma factor_found : forall U fs nm k, unambiguous U fs -> In (nm, k) (quantity_factors U fs) -> exists k', factor_at U fs nm = Some k' /\ k' == k.
Proof.
  intros U fs nm k UA H. unfold factor_at. destruct (find _ _) as [p|] eqn:E.
  - destruct (find_some _ _ E) as [Hp Ep]. apply String.eqb_eq in Ep. exists (snd p). split; [reflexivity|]. exact (UA p (nm, k) Hp H Ep).
  - exfalso. pose proof (find_none _ _ E _ H) as N. cbn in N. rewrite String.eqb_refl in N. discriminate.
Qed.
Lemma factors_strictly : forall U fs x y, (forall nm k t, In (nm, k) (quantity_factors U fs) -> y nm t == k * x nm t /\ (k = 1 -> y nm t = x nm t)) -> strictly U fs x y.
Proof.
  intros U fs x y C. unfold quantity_factors in C.
  assert (CE : forall n p t, In n (labels_of fs) -> In p ([(vlabel n "flow_rate", 1); (vlabel n "charge_state", 1); (oo n "on", 1); (oo n "switchOn", 1); (inv n "size", 1); (inv n "isInvested", 1)]
       ++ map (fun e => (vlabel (cat [n; "__"; "SegmentedShares"]) (cat [e_label e; "_segmented"]), U (e_id e))) (fs_effects fs)) -> y (fst p) t == snd p * x (fst p) t /\ (snd p = 1 -> y (fst p) t = x (fst p) t)).
  { intros n [nm k] t HN HP. apply C. apply in_app_iff. left. apply in_flat_map. exists n. split; [exact HN|exact HP]. }
  assert (CF : forall e p t, In e (fs_effects fs) -> In p (let l := e_label e in
       [(vlabel (cat [l; "__"; "operation"]) "operation_sum_TS", U (e_id e)); (vlabel (cat [l; "__"; "operation"]) "operation_sum", U (e_id e));
        (vlabel (cat [l; "__"; "invest"]) "invest_sum", U (e_id e)); (vlabel (cat [l; "__"; "all"]) "all_sum", U (e_id e))]) -> y (fst p) t == snd p * x (fst p) t).
  { intros e [nm k] t He HP. apply C. do 2 (apply in_app_iff; right). apply in_app_iff. left. apply in_flat_map. exists e. split; [exact He|exact HP]. }
  constructor.
  - intros nm H t.
    assert (A : forall s, In s [vlabel nm "flow_rate"; vlabel nm "charge_state"; oo nm "on"; oo nm "switchOn"; inv nm "size"; inv nm "isInvested"] -> y s t = x s t).
    { intros s Hs. apply (CE nm (s, 1) t H); [|reflexivity]. apply in_app_iff. left. exact (in_map (fun s => (s, 1)) _ _ Hs). }
    repeat split; apply A; cbn; auto 8.
  - intros nm e H He. apply (CE nm (vlabel (cat [nm; "__"; "SegmentedShares"]) (cat [e_label e; "_segmented"]), U (e_id e)) 0%nat H). apply in_app_iff. right. apply in_map_iff. exists e. auto.
  - intros b w t Ub W. unfold excess. destruct (b_penalty b); [|reflexivity]. apply (C (vlabel (b_lab b) w) 1 t); [|reflexivity]. apply in_app_iff. right. apply in_app_iff. left. apply in_flat_map. exists b. split; [apply used_bus_list, Ub|].
    destruct W as [-> | ->]; [left|right; left]; reflexivity.
  - intros e He. split; [intros t; apply (CF e (vlabel (cat [e_label e; "__"; "operation"]) "operation_sum_TS", U (e_id e)) t He); left; reflexivity|].
    split; [apply (CF e (vlabel (cat [e_label e; "__"; "operation"]) "operation_sum", U (e_id e)) 0%nat He); right; left; reflexivity|].
    split; [apply (CF e (vlabel (cat [e_label e; "__"; "invest"]) "invest_sum", U (e_id e)) 0%nat He); do 2 right; left; reflexivity|].
    apply (CF e (vlabel (cat [e_label e; "__"; "all"]) "all_sum", U (e_id e)) 0%nat He). do 3 right. left. reflexivity.
  - apply (C (vlabel "Effects__penalty" "penalty_sum") _ 0%nat). do 3 (apply in_app_iff; right). left. reflexivity.
Qed.
Lemma factor_positive : forall U fs nm k, (forall i, 0 < U i) -> In (nm, k) (quantity_factors U fs) -> 0 < k.
Proof.
  intros U fs nm k UP H. assert (OP : 0 < obj_factor U (fs_effects fs)) by (unfold obj_factor; destruct (find e_obj (fs_effects fs)); [apply UP|reflexivity]).
  unfold quantity_factors in H. rewrite !in_app_iff, !in_flat_map in H. destruct H as [[n [_ H]]|[[b [_ H]]|[[e [_ H]]|H]]].
  - apply in_app_iff in H. destruct H as [H|H].
    + repeat (destruct H as [E|H]; [injection E as _ <-; reflexivity|]). destruct H.
    + apply in_map_iff in H. destruct H as [e [E _]]. injection E as _ <-. apply UP.
  - repeat (destruct H as [E|H]; [injection E as _ <-; reflexivity|]). destruct H.
  - repeat (destruct H as [E|H]; [injection E as _ <-; apply UP|]). destruct H.
  - destruct H as [E|[]]. injection E as _ <-. exact OP.
Qed.
Lemma forward_strictly : forall U fs x, unambiguous U fs -> strictly U fs x (forward U fs x).
Proof.
  intros U fs x UA. apply factors_strictly. intros nm k t H. destruct (factor_found U fs nm k UA H) as [k' [E K]]. unfold forward. rewrite E. destruct (Qeq_bool k' 1) eqn:B.
  - apply Qeq_bool_eq in B. split; [rewrite <- K, B; ring|reflexivity].
  - split; [rewrite K; reflexivity|]. intros ->. exfalso. apply Qeq_bool_neq in B. apply B. exact K.
Qed.
Lemma backward_strictly : forall U fs y, (forall i, 0 < U i) -> unambiguous U fs -> strictly U fs (backward U fs y) y.
Proof.
  intros U fs y UP UA. apply factors_strictly. intros nm k t H. pose proof (factor_positive U fs nm k UP H) as P. destruct (factor_found U fs nm k UA H) as [k' [E K]]. unfold backward. rewrite E. destruct (Qeq_bool k' 1) eqn:B.
  - apply Qeq_bool_eq in B. split; [rewrite <- K, B; ring|reflexivity].
  - split; [rewrite <- K; field; lra|]. intros ->. exfalso. apply Qeq_bool_neq in B. apply B. exact K.
Qed.

Lemma strict_converted : forall U cf fs idx x x0 y0 y, same_plan cf fs idx x x0 -> strictly U fs x0 y0 -> same_plan cf (in_units U fs) idx y0 y -> converted U cf fs idx x y.
Proof.
  intros U cf fs idx x x0 y0 y [A1 A2 A3 A4 A5 A6 A7 A8] ST [B1 B2 B3 B4 B5 B6 B7 B8].
  assert (CI : forall c, In c (fs_comps fs) -> In (u_comp U (fs_effects fs) c) (fs_comps (in_units U fs))) by (intros c Hc; apply (in_map (u_comp U (fs_effects fs))), Hc).
  assert (FI : forall c f, In f (cp_flows c) -> In (u_flow U (fs_effects fs) f) (cp_flows (u_comp U (fs_effects fs) c))) by (intros c f Hf; rewrite u_flows; apply in_map, Hf).
  constructor.
  - intros c f t Hc Hf Ht. rewrite <- (A1 c f t Hc Hf Ht). etransitivity; [exact (B1 _ _ t (CI c Hc) (FI c f Hf) Ht)|]. rewrite (u_rate U fs x0 y0 ST c f t Hc Hf). reflexivity.
  - intros c f t Hc Hf G Ht. destruct (A2 c f t Hc Hf G Ht) as [<- <-]. destruct (st_el _ _ _ _ ST _ (label_flow fs c f Hc Hf) t) as [_ [[E1 E2] _]].
    destruct (B2 _ _ t (CI c Hc) (FI c f Hf)) as [Q1 Q2]; [rewrite u_governed; destruct (governed fs idx c f); [discriminate|congruence]|exact Ht|]. split; [etransitivity; [exact Q1|]|etransitivity; [exact Q2|]]; [apply eq_Qeq; exact E1|apply eq_Qeq; exact E2].
  - intros c t Hc G Ht. destruct (A3 c t Hc G Ht) as [<- <-]. destruct (st_el _ _ _ _ ST _ (label_comp fs c Hc) t) as [_ [[E1 E2] _]].
    destruct (B3 _ t (CI c Hc)) as [Q1 Q2]; [cbn [u_comp cp_onoff]; destruct (cp_onoff c); [discriminate|congruence]|exact Ht|]. split; [etransitivity; [exact Q1|]|etransitivity; [exact Q2|]]; [apply eq_Qeq; exact E1|apply eq_Qeq; exact E2].
  - intros nm iv H. destruct (A4 nm iv H) as [<- [P2 P3]]. pose proof (label_inv cf fs nm iv H) as LB. destruct (st_el _ _ _ _ ST _ LB 0%nat) as [_ [_ [X1 X2]]].
    destruct (B4 nm (u_invest U (fs_effects fs) iv)) as [Q1 [Q2 Q3]]; [rewrite u_investments; exact (in_map (u_pair U fs) _ _ H)|]. split; [rewrite Q1, X1; reflexivity|]. split.
    + intros O. rewrite (Q2 O), X2. exact (P2 O).
    + intros spts eff i l e E Hi He EI. rewrite <- (P3 spts eff i l e E Hi He EI). subst i. rewrite <- (st_seg _ _ _ _ ST nm e LB He).
      refine (Q3 spts _ (e_id e) _ (u_effect U e) _ _ _ _); [cbn [u_invest iv_seg]; rewrite E; reflexivity|exact (in_map (fun il : nat * list (Q * Q) => (fst il, map (fun ab => (U (fst il) * fst ab, U (fst il) * snd ab)) (snd il))) _ _ Hi)|exact (in_map (u_effect U) _ _ He)|reflexivity].
  - intros c s t Hc K Ht. rewrite <- (A5 c s t Hc K Ht). etransitivity; [refine (B5 _ _ t (CI c Hc) _ Ht); cbn [u_comp cp_kind]; rewrite K; reflexivity|]. apply eq_Qeq. exact (proj2 (proj1 (st_el _ _ _ _ ST _ (label_comp fs c Hc) t))).
  - intros b t Ub Ht. destruct (A6 b t Ub Ht) as [<- <-]. destruct (B6 _ t (u_used U fs b Ub) Ht) as [Q1 Q2].
    assert (EE : forall z w, excess z (u_bus U (fs_effects fs) b) w t = excess z b w t) by (intros z w; unfold excess; cbn [u_bus b_penalty b_lab]; destruct (b_penalty b); reflexivity).
    rewrite !EE in Q1, Q2. rewrite Q1, Q2, !(st_ex _ _ _ _ ST b _ t Ub) by auto. split; reflexivity.
  - intros e He. cbv zeta. destruct (A7 e He) as [P1 [P2 [P3 P4]]]. destruct (B7 _ (in_map (u_effect U) _ _ He)) as [Q1 [Q2 [Q3 Q4]]]. destruct (st_tot _ _ _ _ ST e He) as [T1 [T2 [T3 T4]]].
    split; [intros t Ht; rewrite <- (P1 t Ht), <- (T1 t); exact (Q1 t Ht)|]. split; [rewrite <- P2, <- T2; exact Q2|]. split; [rewrite <- P3, <- T3; exact Q3|rewrite <- P4, <- T4; exact Q4].
  - rewrite <- A8, <- (st_pen _ _ _ _ ST). exact B8.
Qed.

(** ** Data in other units stay as sensible and valid as they were *)
Section Data.
Variables (U : nat -> Q) (fs : flow_system).
Local Notation es := (fs_effects fs).
Local Notation fs' := (in_units U fs).
Lemma comp_of : forall c', In c' (fs_comps fs') -> exists c, In c (fs_comps fs) /\ c' = u_comp U es c.
Proof. intros c' Hc'. change (fs_comps fs') with (map (u_comp U es) (fs_comps fs)) in Hc'. apply in_map_iff in Hc'. destruct Hc' as [c [E H]]. eauto. Qed.
Lemma flow_of : forall c f', In f' (cp_flows (u_comp U es c)) -> exists f, In f (cp_flows c) /\ f' = u_flow U es f.
Proof. intros c f' H. rewrite u_flows in H. apply in_map_iff in H. destruct H as [f [E H]]. eauto. Qed.
Lemma effect_of : forall e', In e' (fs_effects fs') -> exists e, In e es /\ e' = u_effect U e.
Proof. intros e' H. change (fs_effects fs') with (map (u_effect U) es) in H. apply in_map_iff in H. destruct H as [e [E H]]. eauto. Qed.
Lemma buses_units : distinct_buses fs -> distinct_buses fs'.
Proof.
  intros [O L]. split; [apply u_objects, O|]. intros b b' Hb Hb' E. destruct (u_used_inv U fs b Hb) as [b0 [U0 ->]]. destruct (u_used_inv U fs b' Hb') as [b1 [U1 ->]]. exact (L b0 b1 U0 U1 E).
Qed.
Lemma numbers_units : forall v, numbers v -> numbers (u_values U es v).
Proof.
  intros v N k p H. rewrite u_entries in H. apply in_map_iff in H. destruct H as [[k0 p0] [E H]]. injection E as <- <-. destruct (N k0 p0 H) as [q Q0]. destruct p0 as [d|d g w]; cbn [pdata] in Q0; subst d; eexists; reflexivity.
Qed.
Lemma sensible_units : forall cf idx, sensible cf fs idx -> sensible cf fs' idx.
Proof.
  intros cf idx [S1 S2 S3 S4 S5 S6 S7 [S8 [S9 S10]]]. constructor.
  - exact S1.
  - exact S2.
  - exact (buses_units S3).
  - intros c' Hc'. destruct (comp_of c' Hc') as [c [Hc ->]]. destruct (S4 c Hc) as [N K]. split; [exact N|]. cbn [u_comp cp_kind]. destruct (cp_kind c) as [ | | |s|rel abs]; try exact I.
    + destruct K as [l [ch [dis [pr ->]]]]. exists l, (u_flow U es ch), (u_flow U es dis), pr. reflexivity.
    + destruct K as [l [i1 [o1 [i2 [o2 [ob [pr ->]]]]]]]. exists l, (u_flow U es i1), (u_flow U es o1), (option_map (u_flow U es) i2), (option_map (u_flow U es) o2), (option_map (u_onoff U es) ob), pr.
      destruct i2, o2; reflexivity.
  - intros c' f' Hc' Hf'. destruct (comp_of c' Hc') as [c [Hc ->]]. destruct (flow_of c f' Hf') as [f [Hf ->]]. destruct (S5 c f Hc Hf) as [[P1 [P2 P3]] CF]. split.
    + split; [exact P1|]. split.
      * intros iv E. rewrite u_sized in E. destruct (sized cf c f) as [q|iv0]; [discriminate E|]. injection E as <-. exact (P2 iv0 eq_refl).
      * intros o E. rewrite u_governed in E. destruct (governed fs idx c f) as [o0|]; [|discriminate E]. injection E as <-. exact (P3 o0 eq_refl).
    + intros o E. rewrite u_governed in E. destruct (governed fs idx c f) as [o0|]; [|discriminate E]. injection E as <-. exact (CF o0 eq_refl).
  - intros c' p' Hc' E. destruct (comp_of c' Hc') as [c [Hc ->]]. cbn [u_comp cp_onoff] in E. destruct (cp_onoff c) as [p|] eqn:EP; [|discriminate E]. injection E as <-. destruct (S6 c p Hc EP) as [P1 [P2 [P3 P4]]]. split; [exact P1|]. split; [rewrite u_states; exact P2|]. split.
    + rewrite u_flows. replace (length (filter gives_number (map (u_flow U es) (cp_flows c)))) with (length (filter gives_number (cp_flows c))); [exact P3|].
      generalize (cp_flows c) as l. induction l as [|f l IH]; [reflexivity|]. cbn [map filter]. change (gives_number (u_flow U es f)) with (gives_number f). destruct (gives_number f); cbn [length]; auto.
    + intros f' t Hf' Ht. destruct (flow_of c f' Hf') as [f [Hf ->]]. rewrite u_sized, u_range. exact (P4 f t Hf Ht).
  - intros c' s' iv' Hc' K E. destruct (comp_of c' Hc') as [c [Hc ->]]. cbn [u_comp cp_kind] in K. destruct (cp_kind c) as [ | | |s|rel abs] eqn:KK; try discriminate K. injection K as <-. cbn [u_storage st_cap] in E.
    destruct (st_cap s) as [q|iv] eqn:EC; [discriminate E|]. injection E as <-. exact (S7 c s iv Hc KK EC).
  - split; [|split].
    + unfold distinct_effects in *. change (fs_effects fs') with (map (u_effect U) es). rewrite map_map. exact S8.
    + intros e' i d He' Hd. destruct (effect_of e' He') as [e [He ->]]. cbn [u_effect e_share_inv] in Hd. apply in_map_iff in Hd. destruct Hd as [[i0 d0] [E Hd]]. injection E as <- <-. destruct (S9 e i0 d0 He Hd) as [q ->]. eexists. reflexivity.
    + intros nm iv' H. rewrite u_investments in H. apply in_map_iff in H. destruct H as [[nm0 iv] [E H]]. injection E as <- <-. destruct (S10 nm0 iv H) as [N1 [N2 N3]]. repeat split; cbn [u_invest iv_fix iv_spec iv_divest]; apply numbers_units; assumption.
Qed.

Lemma full_units : forall k p, full_data fs p -> full_data fs' (times k p).
Proof. intros k [[q|l]|[q|l] g w] H; try exact I; unfold full_data in *; cbn [times ntimes pdata] in *; rewrite map_length; exact H. Qed.
Lemma fullo_units : forall k p, full_opt fs p -> full_opt fs' (option_map (times k) p).
Proof. intros k [p|] H q E; [injection E as <-; apply full_units, H; reflexivity|discriminate E]. Qed.
Lemma means_fwd_ : forall k e, means fs k e -> means fs' k (u_effect U e).
Proof. intros k e [H1 H2]. split; [apply (in_map (u_effect U)), H1|rewrite u_names; exact H2]. Qed.
Lemma means_bwd_ : forall k e', means fs' k e' -> exists e, means fs k e /\ e' = u_effect U e.
Proof. intros k e' [H1 H2]. destruct (effect_of e' H1) as [e [He ->]]. rewrite u_names in H2. exists e. repeat split; assumption. Qed.
Lemma addressed_units : forall ks, well_addressed fs ks -> well_addressed fs' ks.
Proof.
  intros ks [A B]. split.
  - intros k Hk. destruct (A k Hk) as [e He]. exists (u_effect U e). apply means_fwd_. exact He.
  - clear A. induction B as [|k l H B IH]; [constructor|]. constructor; [|exact IH]. apply Forall_forall. intros k' Hk' e' [M1 M2]. rewrite Forall_forall in H.
    destruct (means_bwd_ _ _ M1) as [e [M1' E]]. subst e'. apply (H k' Hk' e). split; [exact M1'|]. destruct M2 as [I2 J2]. rewrite u_names in J2. split; [exact (proj1 M1')|exact J2].
Qed.
Lemma keys_units : forall v, map fst (entries (u_values U es v)) = map fst (entries v).
Proof. intros v. rewrite u_entries, map_map. reflexivity. Qed.
Lemma values_units : forall v, valid_values fs v -> valid_values fs' (u_values U es v).
Proof.
  intros v [A B]. split; [rewrite keys_units; apply addressed_units; exact A|]. intros k p H. rewrite u_entries in H. apply in_map_iff in H. destruct H as [[k0 p0] [E H]]. injection E as <- <-. apply full_units. exact (B k0 p0 H).
Qed.
Lemma vnumbers_units : forall v, valid_numbers fs v -> valid_numbers fs' (u_values U es v).
Proof.
  intros v [A B]. split; [rewrite keys_units; apply addressed_units; exact A|]. intros k p H. rewrite u_entries in H. apply in_map_iff in H. destruct H as [[k0 p0] [E H]]. injection E as <- <-. destruct (B k0 p0 H) as [q ->]. eexists. reflexivity.
Qed.
Lemma onoff_units : forall p past, valid_onoff fs p past -> valid_onoff fs' (u_onoff U es p) past.
Proof. intros p past [A B C D E]. constructor; [apply values_units; exact A|apply values_units; exact B|exact C|exact D|exact E]. Qed.
Lemma map_nil_ : forall {A B} (g : A -> B) l, l <> [] -> map g l <> []. Proof. intros A B g [|a l] H; [contradiction|discriminate]. Qed.
Lemma invest_units : forall iv, valid_invest fs iv -> valid_invest fs' (u_invest U es iv).
Proof.
  intros iv [A B C D]. constructor; [apply vnumbers_units; assumption..|]. intros spts eff E. cbn [u_invest iv_seg] in E. destruct (iv_seg iv) as [[sp ef]|]; [|discriminate E]. injection E as <- <-.
  destruct (D sp ef eq_refl) as [D1 [D2 [D3 D4]]]. split; [apply map_nil_; exact D1|]. split; [exact D2|]. split; [rewrite map_map; exact D3|].
  intros i l H. apply in_map_iff in H. destruct H as [[i0 l0] [E0 H]]. injection E0 as <- <-. cbn [fst]. destruct (D4 i0 l0 H) as [[e M] L]. split; [exists (u_effect U e); apply means_fwd_; exact M|rewrite map_length; exact L].
Qed.
Lemma past_units : forall l, given_past (map (u_flow U es) l) = given_past l.
Proof. intros l. unfold given_past. induction l as [|f l IH]; [reflexivity|]. cbn [map flat_map]. rewrite IH. reflexivity. Qed.
Lemma valid_flow_units : forall f, valid_flow fs f -> valid_flow fs' (u_flow U es f).
Proof.
  intros f [A B C D E]. constructor; [exact A|apply values_units; exact B|exact C| |].
  - intros p Hp. cbn [u_flow f_onoff] in Hp. destruct (f_onoff f) as [p0|]; [|discriminate Hp]. injection Hp as <-. apply onoff_units. exact (D p0 eq_refl).
  - intros iv Hi. cbn [u_flow f_size] in Hi. destruct (f_size f) as [q|iv0]; [discriminate Hi|]. injection Hi as <-. apply invest_units. exact (E iv0 eq_refl).
Qed.
Lemma valid_comp_units : forall idx c, valid_comp fs idx c -> valid_comp fs' idx (u_comp U es c).
Proof.
  intros idx c [A B C D]. assert (FF : forall f, In f (cp_flows c) -> In (u_flow U es f) (cp_flows (u_comp U es c))) by (intros f H; rewrite u_flows; apply in_map; exact H).
  constructor.
  - intros f' Hf'. destruct (flow_of c f' Hf') as [f [Hf ->]]. apply valid_flow_units. exact (A f Hf).
  - intros p Hp. cbn [u_comp cp_onoff] in Hp. destruct (cp_onoff c) as [p0|]; [|discriminate Hp]. injection Hp as <-. rewrite u_flows, past_units. destruct (B p0 eq_refl) as [B1 [B2 B3]]. split; [apply map_nil_; exact B1|]. split; [exact B2|]. apply onoff_units. exact B3.
  - destruct C as [C|[C1 C2]]; [left; exact C|right]. split; [exact C1|]. intros i Hi. destruct (C2 i Hi) as [f [Hf E]]. exists (u_flow U es f). split; [exact (FF f Hf)|exact E].
  - unfold valid_kind in *. cbn [u_comp cp_kind]. destruct (cp_kind c) as [|eqs|segs|s|rel abs] eqn:K; cbn [u_kind].
    + exact I.
    + destruct D as [D1 [D2 D3]]. split; [exact D1|]. split; [exact D2|]. intros d Hd. destruct (D3 d Hd) as [f [p [Hf Hp]]]. exists (u_flow U es f), p. split; [exact (FF f Hf)|exact Hp].
    + destruct D as [D1 [D2 [k [D3 D4]]]]. split; [change (cp_flows (u_comp U es c) <> []); rewrite u_flows; apply map_nil_; exact D1|]. split; [exact D2|]. exists k. split; [exact D3|]. intros f' Hf'. destruct (flow_of c f' Hf') as [f [Hf ->]]. exact (D4 f Hf).
    + destruct D as [[V1 V2 V3 V4 V5] [ch [dis [D1 D2]]]]. split.
      * constructor; auto. intros iv E. cbn [u_storage st_cap] in E. destruct (st_cap s) as [q|iv0]; [discriminate E|]. injection E as <-. apply invest_units. exact (V5 iv0 eq_refl).
      * exists (u_flow U es ch), (u_flow U es dis). cbn [u_comp cp_in cp_out]. rewrite D1, D2. split; reflexivity.
    + destruct D as [D1 [D2 [D3 D4]]]. split; [exact D1|]. split; [exact D2|]. split.
      * destruct D3 as [[i [o [E1 E2]]]|[i [i' [o [o' [E1 E2]]]]]]; [left; exists (u_flow U es i), (u_flow U es o)|right; exists (u_flow U es i), (u_flow U es i'), (u_flow U es o), (u_flow U es o')];
          cbn [u_comp cp_in cp_out]; rewrite E1, E2; split; reflexivity.
      * intros HA f' Hf'. cbn [u_comp cp_in] in Hf'. apply in_map_iff in Hf'. destruct Hf' as [f [<- Hf]]. intros G. rewrite u_governed in G. apply (D4 HA f Hf). destruct (governed fs idx c f); [discriminate G|reflexivity].
Qed.
Lemma valid_units : forall idx, valid_data fs idx -> valid_data fs' idx.
Proof.
  intros idx [A B C D E F G H]. constructor; [exact A|exact B| | | | | |].
  - replace (map f_id (flat_map cp_flows (fs_comps fs'))) with (map f_id (flat_map cp_flows (fs_comps fs))); [exact C|]. change (fs_comps fs') with (map (u_comp U es) (fs_comps fs)). generalize (fs_comps fs) as l. induction l as [|c l IH]; [reflexivity|].
    cbn [map flat_map]. rewrite !map_app, IH, u_flows, map_map. reflexivity.
  - change (fs_effects fs') with (map (u_effect U) es). rewrite map_map. exact D.
  - intros e' He'. destruct (effect_of e' He') as [e [He ->]]. destruct (E e He) as [[V0 V1] [V2 V3] [V4 V5]]. constructor.
    + split; apply fullo_units; assumption.
    + cbn [u_effect e_share_op]. split; [rewrite map_map; exact V2|]. intros k p Hp. apply in_map_iff in Hp. destruct Hp as [[k0 p0] [E0 Hp]]. injection E0 as <- <-. destruct (V3 k0 p0 Hp) as [[e1 M] P]. split; [exists (u_effect U e1); apply means_fwd_; exact M|apply full_units; exact P].
    + cbn [u_effect e_share_inv]. split; [rewrite map_map; exact V4|]. intros k p Hp. apply in_map_iff in Hp. destruct Hp as [[k0 p0] [E0 Hp]]. injection E0 as <- <-. destruct (V5 k0 p0 Hp) as [[e1 M] [q P]]. split; [exists (u_effect U e1); apply means_fwd_; exact M|]. cbn [snd]. rewrite P. eexists. reflexivity.
  - destruct F as [e [He O]]. exists (u_effect U e). split; [apply (in_map (u_effect U)); exact He|exact O].
  - intros c' Hc'. destruct (comp_of c' Hc') as [c [Hc ->]]. apply valid_comp_units. exact (G c Hc).
  - intros b' Hb'. destruct (u_used_inv U fs b' Hb') as [b [Hb ->]]. apply fullo_units. exact (H b Hb).
Qed.
Lemma named_units : well_named fs -> well_named fs'.
Proof.
  assert (TL : top_labels fs' = top_labels fs) by (unfold top_labels; change (fs_effects fs') with (map (u_effect U) es); change (fs_comps fs') with (map (u_comp U es) (fs_comps fs)); rewrite !map_map; reflexivity).
  intros [A B C D E F]. constructor.
  - rewrite TL. exact A.
  - intros b l Hb Hl. rewrite TL in Hl. destruct (u_used_inv U fs b Hb) as [b0 [Hb0 ->]]. exact (B b0 l Hb0 Hl).
  - intros b b' Hb Hb' N. destruct (u_used_inv U fs b Hb) as [b0 [Hb0 ->]]. destruct (u_used_inv U fs b' Hb') as [b1 [Hb1 ->]]. apply (C b0 b1 Hb0 Hb1). intros ->. apply N. reflexivity.
  - intros e' He'. destruct (effect_of e' He') as [e [He ->]]. exact (D e He).
  - intros c' Hc'. destruct (comp_of c' Hc') as [c [Hc ->]]. exact (E c Hc).
  - intros c' Hc'. destruct (comp_of c' Hc') as [c [Hc ->]]. destruct (F c Hc) as [F1 F2]. split.
    + rewrite u_flows, map_map. exact F1.
    + intros f' l Hf' Hl. destruct (flow_of c f' Hf') as [f [Hf ->]]. exact (F2 f l Hf Hl).
Qed.
End Data.

(** ** C85 *)

(** Every solution of the problem of a system has a conversion that solves the problem of the system given in other units, and every
    solution of the latter is the conversion of a solution of the former. Objectives differ by the factor of the objective effect. *)
Theorem C85_solutions : forall U cf ord ord' fs idx pm pm', (forall i, 0 < U i) -> (forall l, Permutation (ord l) l) -> (forall l, Permutation (ord' l) l) ->
  build cf ord fs idx = Ok pm -> build cf ord' (in_units U fs) idx = Ok pm' -> sensible cf fs idx -> unambiguous U fs ->
  (forall x, feasible pm x -> exists y, feasible pm' y /\ converted U cf fs idx x y /\ objective_value pm' y == obj_factor U (fs_effects fs) * objective_value pm x)
  /\ (forall y, feasible pm' y -> exists x, feasible pm x /\ converted U cf fs idx x y /\ objective_value pm' y == obj_factor U (fs_effects fs) * objective_value pm x).
Proof.
  intros U cf ord ord' fs idx pm pm' UP PO PO' B B' SE UA. pose proof (sensible_units U fs cf idx SE) as SE'. pose proof (fun c Hc => comp_ids _ _ _ _ _ c B Hc) as IDS.
  pose proof (se_steps _ _ _ SE) as N. assert (N1 : (0 < steps fs idx)%nat) by lia. pose proof (proj1 (se_buses _ _ _ SE)) as O.
  assert (OV : forall x y, converted U cf fs idx x y -> objective_value pm' y == obj_factor U (fs_effects fs) * objective_value pm x).
  { intros x y C. destruct (C21_objective _ _ _ _ _ x B) as [e [Fe Ox]]. destruct (C21_objective _ _ _ _ _ y B') as [e' [Fe' Oy]].
    change (fs_effects (in_units U fs)) with (map (u_effect U) (fs_effects fs)) in Fe'. rewrite (u_find U e_obj) in Fe' by reflexivity. rewrite Fe in Fe'. injection Fe' as <-.
    assert (OF : obj_factor U (fs_effects fs) = U (e_id e)) by (unfold obj_factor; rewrite Fe; reflexivity).
    destruct (cv_effect _ _ _ _ _ _ C e ltac:(apply find_some in Fe; apply Fe)) as [_ [T2 [T3 _]]]. rewrite Ox, Oy. change (op_sum y (u_effect U e)) with (op_sum y e). change (inv_sum y (u_effect U e)) with (inv_sum y e).
    rewrite T2, T3, (cv_penalty _ _ _ _ _ _ C), OF. ring. }
  split.
  - intros x F. pose proof (C57_solutions _ _ _ _ _ _ PO B SE F) as OB. pose proof (forward_strictly U fs x UA) as ST.
    destruct (proj1 (C57_plans _ _ _ _ _ _ PO' B' SE') (proj2 (u_obeys U cf fs idx x _ UP ST N1 IDS O) OB)) as [y [SP F']].
    assert (C : converted U cf fs idx x y) by (eapply strict_converted; [apply same_plan_refl|exact ST|exact SP]). exists y. split; [exact F'|]. split; [exact C|exact (OV x y C)].
  - intros y F. pose proof (C57_solutions _ _ _ _ _ _ PO' B' SE' F) as OB. pose proof (backward_strictly U fs y UP UA) as ST.
    destruct (proj1 (C57_plans _ _ _ _ _ _ PO B SE) (proj1 (u_obeys U cf fs idx _ y UP ST N1 IDS O) OB)) as [x [SP F']].
    assert (C : converted U cf fs idx x y) by (eapply strict_converted; [apply same_plan_sym; exact SP|exact ST|apply same_plan_refl]). exists x. split; [exact F'|]. split; [exact C|exact (OV x y C)].
Qed.
Print Assumptions C85_solutions.

(** The best plan stays the best one. *)
Definition optimal (pm : pmodel) (x : asg) : Prop := feasible pm x /\ forall z, feasible pm z -> objective_value pm x <= objective_value pm z.
Theorem C85_optimum : forall U cf ord ord' fs idx pm pm', (forall i, 0 < U i) -> (forall l, Permutation (ord l) l) -> (forall l, Permutation (ord' l) l) ->
  build cf ord fs idx = Ok pm -> build cf ord' (in_units U fs) idx = Ok pm' -> sensible cf fs idx -> unambiguous U fs ->
  (forall x, optimal pm x -> exists y, optimal pm' y /\ converted U cf fs idx x y) /\ (forall y, optimal pm' y -> exists x, optimal pm x /\ converted U cf fs idx x y).
Proof.
  intros U cf ord ord' fs idx pm pm' UP PO PO' B B' SE UA. destruct (C85_solutions U cf ord ord' fs idx pm pm' UP PO PO' B B' SE UA) as [A1 A2].
  assert (P : 0 < obj_factor U (fs_effects fs)) by (unfold obj_factor; destruct (find e_obj (fs_effects fs)); [apply UP|reflexivity]). split.
  - intros x [F OP]. destruct (A1 x F) as [y [F' [C E]]]. exists y. split; [|exact C]. split; [exact F'|]. intros z Fz. destruct (A2 z Fz) as [w [Fw [_ Ew]]]. rewrite E, Ew. apply cancel_le; auto.
  - intros y [F OP]. destruct (A2 y F) as [x [F' [C E]]]. exists x. split; [|exact C]. split; [exact F'|]. intros z Fz. destruct (A1 z Fz) as [w [Fw [_ Ew]]]. specialize (OP w Fw). rewrite E, Ew in OP. apply (cancel_le _ _ _ P). exact OP.
Qed.
Print Assumptions C85_optimum.

(** A system that flixOpt accepts because its data and labels are in order (PropsTotal.v, C70) is accepted in all units. *)
Theorem C85_accepted : forall U cf ord ord' fs idx, (forall i, 0 < U i) -> (forall l, Permutation (ord l) l) -> (forall l, Permutation (ord' l) l) ->
  valid_data fs idx -> sensible cf fs idx -> well_named fs -> unambiguous U fs ->
  exists pm pm', build cf ord fs idx = Ok pm /\ build cf ord' (in_units U fs) idx = Ok pm'
    /\ forall q, (exists x, feasible pm x /\ objective_value pm x == q) <-> (exists y, feasible pm' y /\ objective_value pm' y == obj_factor U (fs_effects fs) * q).
Proof.
  intros U cf ord ord' fs idx UP PO PO' V SE WN UA. destruct (C70_accepted_partial cf ord fs idx PO WN V) as [pm B].
  destruct (C70_accepted_partial cf ord' (in_units U fs) idx PO' (named_units U fs WN) (valid_units U fs idx V)) as [pm' B']. exists pm, pm'. split; [exact B|]. split; [exact B'|].
  assert (P : 0 < obj_factor U (fs_effects fs)) by (unfold obj_factor; destruct (find e_obj (fs_effects fs)); [apply UP|reflexivity]).
  destruct (C85_solutions U cf ord ord' fs idx pm pm' UP PO PO' B B' SE UA) as [A1 A2]. intros q. split; intros [x [F Q0]].
  - destruct (A1 x F) as [y [F' [_ E]]]. exists y. split; [exact F'|]. rewrite E, Q0. reflexivity.
  - destruct (A2 x F) as [y [F' [_ E]]]. exists y. split; [exact F'|]. rewrite Q0 in E. symmetry. apply (cancel _ _ _ P). exact E.
Qed.
Print Assumptions C85_accepted.

(** Costs in cents, emissions in grams. *)
Definition cents : nat -> Q := fun i => match i with O => 100 | _ => 1000 end.
Definition apart_q (l : list (string * Q)) : bool := forallb (fun p => forallb (fun q : string * Q => if String.eqb (fst p) (fst q) then Qeq_bool (snd p) (snd q) else true) l) l.
Lemma apart_q_ok : forall U fs, apart_q (quantity_factors U fs) = true -> unambiguous U fs.
Proof.
  intros U fs H p q Hp Hq E. unfold apart_q in H. rewrite forallb_forall in H. specialize (H p Hp). rewrite forallb_forall in H. specialize (H q Hq). rewrite E, String.eqb_refl in H. apply Qeq_bool_eq, H.
Qed.
Lemma cents_positive : forall i, 0 < cents i. Proof. intros [|i]; reflexivity. Qed.
Example C85_applies : exists pm pm', build default_config id_ord fs0 None = Ok pm /\ build default_config id_ord (in_units cents fs0) None = Ok pm'
  /\ sensible default_config fs0 None /\ unambiguous cents fs0 /\ (exists x, feasible pm x /\ exists y, feasible pm' y /\ objective_value pm' y == 100 * objective_value pm x).
Proof.
  destruct x0_feasible as [pm [B F]]. destruct (build default_config id_ord (in_units cents fs0) None) as [pm'|e] eqn:B'; [|vm_compute in B'; discriminate B'].
  assert (UA : unambiguous cents fs0) by (apply apart_q_ok; vm_compute; reflexivity).
  exists pm, pm'. split; [exact B|]. split; [reflexivity|]. split; [exact sensible_0|]. split; [exact UA|]. exists x0. split; [exact F|].
  destruct (proj1 (C85_solutions cents default_config id_ord id_ord fs0 None pm pm' cents_positive id_ord_perm id_ord_perm B B' sensible_0 UA) x0 F) as [y [F' [_ E]]]. exists y. split; [exact F'|exact E].
Qed.
Example C85_applies_1 : exists pm pm', build default_config id_ord fs1 idx1 = Ok pm /\ build default_config id_ord (in_units cents fs1) idx1 = Ok pm'
  /\ sensible default_config fs1 idx1 /\ unambiguous cents fs1 /\ valid_data fs1 idx1 /\ well_named fs1 /\ exists x, feasible pm x.
Proof.
  destruct x1_feasible as [pm [B F]]. destruct (build default_config id_ord (in_units cents fs1) idx1) as [pm'|e] eqn:B'; [|vm_compute in B'; discriminate B'].
  destruct C70_applies as [_ [[A V] _]].
  exists pm, pm'. split; [exact B|]. split; [reflexivity|]. split; [exact sensible_1|]. split; [apply apart_q_ok; vm_compute; reflexivity|]. split; [exact V|]. split; [exact A|]. exists x1. exact F.
Qed.
(** What the conversion does to the data: prices of flows, limits and shares between effects. *)
Example C85_data : e_max_tot costs = Some 5000 /\ e_max_tot (u_effect cents costs) = Some (100 * 5000)
  /\ map (fun kp => (fst kp, value None (snd kp) 0)) (e_share_op co2) = [(0%nat, 1 # 5)] /\ map (fun kp => (fst kp, Qred (value None (snd kp) 0))) (e_share_op (u_effect cents co2)) = [(0%nat, 1 # 50)].
Proof. repeat split. Qed.
