(** C82: what can be loaded from the files of a calculation, after any history of saves, at whatever point each of them stopped. *)
From Verif Require Import Base BaseFacts System Tree Values PropsValues Files FilesFacts.
Require Import Lia.

(** ** Specification *)

(** One run: where it saves, what it saves, and the steps it has done of that, all or not. *)
Record event : Type := mkEvent { ev_folder : string; ev_job : job; ev_done : list fop }.
Definition possible (e : event) : Prop := stops (save_ops (ev_folder e) (ev_job e)) (ev_done e).
Definition finished (e : event) : Prop := ev_done e = save_ops (ev_folder e) (ev_job e).
Definition under (f n : string) (e : event) : Prop := ev_folder e = f /\ jb_name (ev_job e) = n.
Definition history (d : disk) (h : list event) : disk := fold_left (fun d e => do_ops d (ev_done e)) h d.
(** results() and infos() are dicts. *)
Definition dicts (e : event) : Prop := (exists r, jb_results (ev_job e) = VDict r) /\ exists a, jb_data (ev_job e) = VDict a.
(** No results and no data are saved under the name. *)
Definition unused (d : disk) (f n : string) : Prop := d (results_file f n) = None /\ d (data_file f n) = None.
(** Everything that is saved can be converted, and this is what it reads as. *)
Definition reads_as (yaml : list tok -> option pyval) (j : job) (l : loaded) : Prop :=
  reload (jb_results j) = Ok (ld_results l) /\ reload (jb_data j) = Ok (ld_data l) /\
  (forall x, jb_extra j = Some x -> (exists a, conv false false (fst x) = Ok a) /\ exists b, conv false false (snd x) = Ok b) /\
  exists t, jb_infos j = Ok t /\ yaml (map TLine t) = Some (ld_infos l).

(** ** The text *)

(** JSON: what json.dump writes, json.load reads; the keys must be texts. *)
Theorem C82_text : forall v w c, conv false w v = Ok c -> forall r, json_rt c = Ok r <-> parse (dump c) = Some r.
Proof.
  intros v w c E r. rewrite (parse_dump c (C40_json w v c E)). destruct (json_rt c); split; intros H; try discriminate; injection H as <-; reflexivity.
Qed.
Print Assumptions C82_text.

(** A text of an object that breaks off anywhere cannot be read. *)
Theorem C82_cut : forall d s, cut (dump (VDict d)) s -> s <> dump (VDict d) -> parse s = None.
Proof. intros d s C N. destruct (cut_dict d s C) as [E | E]; [contradiction | exact E]. Qed.
Print Assumptions C82_cut.

(** ** A finished save *)

Lemma history_app : forall a b d, history d (a ++ b) = history (history d a) b.
Proof. intros. unfold history. apply fold_left_app. Qed.
Lemma other_clear : forall k f n e, possible e -> ~ under f n e -> clear_of (file_of k f n) (ev_done e).
Proof.
  intros k f n e P U. apply (clear_stops _ _ _ P). apply clear_save. intros k' E. apply file_of_inj in E. destruct E as (_ & E1 & E2).
  apply U. split; assumption.
Qed.
Lemma others_keep : forall k f n h d, Forall possible h -> (forall e, In e h -> ~ under f n e) -> history d h (file_of k f n) = d (file_of k f n).
Proof.
  intros k f n. induction h as [| e h IH]; intros d P U; [reflexivity |]. inversion P as [| ? ? P1 P2]; subst.
  change (history d (e :: h)) with (history (do_ops d (ev_done e)) h). rewrite IH; [| exact P2 | intros e' H; apply U; right; exact H].
  apply do_clear. apply other_clear; [exact P1 | apply U; left; reflexivity].
Qed.

Lemma finished_files : forall yaml f j l d, reads_as yaml j l ->
  let n := jb_name j in let d' := do_ops d (save_ops f j) in
  (exists c, conv false false (jb_results j) = Ok c /\ d' (results_file f n) = Some (dump c)) /\
  (exists c, conv false false (jb_data j) = Ok c /\ d' (data_file f n) = Some (dump c)) /\
  exists t, yaml t = Some (ld_infos l) /\ d' (infos_file f n) = Some t.
Proof.
  intros yaml f j l d (R & A & X & t & T & Y). cbv zeta. rewrite save_parts. unfold part1, part2, part3.
  unfold reload in R, A.
  destruct (conv false false (jb_results j)) as [cr |] eqn:Er; [| discriminate].
  destruct (conv false false (jb_data j)) as [ca |] eqn:Ea; [| discriminate].
  assert (Z : exists pre, match jb_extra j with Some x => write_extra (extra_file f (jb_name j)) x | None => fun r => r end (write_infos (infos_file f (jb_name j)) (jb_infos j))
                = pre ++ write (infos_file f (jb_name j)) (map TLine t) /\
                (forall q, q <> extra_file f (jb_name j) -> clear_of q pre)).
  { rewrite T. cbn [write_infos]. destruct (jb_extra j) as [x |] eqn:Ex.
    - destruct (X x eq_refl) as ((a & Ha) & (b & Hb)). unfold write_extra. rewrite Ha, Hb. eexists. split; [reflexivity |].
      intros q N. apply clear_write. congruence.
    - exists []. split; [reflexivity |]. intros q N o []. }
  destruct Z as (pre & Z & C). rewrite Z. unfold write_json. rewrite Er, Ea.
  assert (W : forall q, q <> infos_file f (jb_name j) -> q <> extra_file f (jb_name j) -> clear_of q (pre ++ write (infos_file f (jb_name j)) (map TLine t))).
  { intros q N1 N2. apply clear_app; [apply C; exact N2 | apply clear_write; congruence]. }
  split; [| split].
  - exists cr. split; [reflexivity |]. rewrite !do_app. rewrite do_clear by (apply clear_write; ne_files).
    rewrite do_clear by (apply C; ne_files). rewrite do_clear by (apply clear_write; ne_files). apply do_write.
  - exists ca. split; [reflexivity |]. rewrite !do_app. rewrite do_clear by (apply clear_write; ne_files).
    rewrite do_clear by (apply C; ne_files). apply do_write.
  - exists (map TLine t). split; [exact Y |]. rewrite !do_app. apply do_write.
Qed.
Lemma reload_parse : forall v c r, conv false false v = Ok c -> reload v = Ok r -> exists r', parse (dump c) = Some r' /\ to_arrays r' = r.
Proof.
  intros v c r E R. unfold reload in R. rewrite E in R. cbn [bind] in R. destruct (json_rt c) as [r' |] eqn:J; [| discriminate].
  cbn [bind] in R. injection R as <-. exists r'. split; [apply (C82_text v false c E); exact J | reflexivity].
Qed.
Lemma parse_reload : forall v c r, conv false false v = Ok c -> parse (dump c) = Some r -> reload v = Ok (to_arrays r).
Proof. intros v c r E P. unfold reload. rewrite E. cbn [bind]. apply (C82_text v false c E) in P. rewrite P. reflexivity. Qed.

(** After a finished save the saved values are loaded, whatever was on the disk before and whatever was saved under other names or in
    other folders before and since, finished or not. *)
Theorem C82_saved : forall yaml d h1 e h2 l, Forall possible h2 -> finished e -> reads_as yaml (ev_job e) l ->
  (forall e', In e' h2 -> ~ under (ev_folder e) (jb_name (ev_job e)) e') ->
  load yaml (history d (h1 ++ e :: h2)) (ev_folder e) (jb_name (ev_job e)) = inl l.
Proof.
  intros yaml d h1 e h2 l P F R U. rewrite history_app. change (history (history d h1) (e :: h2)) with (history (do_ops (history d h1) (ev_done e)) h2).
  rewrite F. unfold load. destruct (finished_files yaml (ev_folder e) (ev_job e) l (history d h1) R) as ((cr & Er & Dr) & (ca & Ea & Da) & t & Y & Dt).
  cbv zeta in Dr, Da, Dt.
  rewrite (others_keep EInfos _ _ h2 _ P U). cbn [file_of]. rewrite Dt. rewrite Y.
  rewrite (others_keep EResults _ _ h2 _ P U). cbn [file_of]. rewrite Dr.
  rewrite (others_keep EData _ _ h2 _ P U). cbn [file_of]. rewrite Da.
  destruct R as (R & A & _). destruct (reload_parse _ _ _ Er R) as (r' & -> & Q1). destruct (reload_parse _ _ _ Ea A) as (a' & -> & Q2).
  rewrite Q1, Q2. destruct l; reflexivity.
Qed.
Print Assumptions C82_saved.

(** ** Saves that stop *)

Definition from_some (pick : job -> pyval) (f n : string) (h : list event) (o : option (list tok)) : Prop :=
  o = None \/ broken o \/ exists e, In e h /\ under f n e /\ written (pick (ev_job e)) o.
Lemma from_more : forall pick f n h e o, from_some pick f n h o -> from_some pick f n (h ++ [e]) o.
Proof.
  intros pick f n h e o [H | [H | (e' & I1 & H)]]; [left; exact H | right; left; exact H | right; right; exists e'].
  split; [apply in_or_app; left; exact I1 | exact H].
Qed.
Lemma history_from : forall f n d, unused d f n -> forall h, Forall possible h -> Forall dicts h ->
  from_some jb_results f n h (history d h (results_file f n)) /\ from_some jb_data f n h (history d h (data_file f n)).
Proof.
  intros f n d [U1 U2] h. induction h as [| e h IH] using rev_ind; intros P D; [split; left; assumption |].
  apply Forall_app in P. destruct P as [P1 P2]. apply Forall_app in D. destruct D as [D1 D2]. inversion P2 as [| ? ? P3 _]; subst. inversion D2 as [| ? ? D3 _]; subst.
  destruct (IH P1 D1) as [R A]. rewrite history_app. change (history (history d h) [e]) with (do_ops (history d h) (ev_done e)).
  destruct D3 as [[r Er] [a Ea]].
  destruct (string_dec (ev_folder e) f) as [E1 | E1]; [destruct (string_dec (jb_name (ev_job e)) n) as [E2 | E2] |].
  2:{ assert (N : ~ under f n e) by (intros [_ H]; contradiction).
      pose proof (do_clear _ _ (history d h) (other_clear EResults f n e P3 N)) as Q1. pose proof (do_clear _ _ (history d h) (other_clear EData f n e P3 N)) as Q2.
      cbn [file_of] in Q1, Q2. rewrite Q1, Q2. split; apply from_more; assumption. }
  2:{ assert (N : ~ under f n e) by (intros [H _]; contradiction).
      pose proof (do_clear _ _ (history d h) (other_clear EResults f n e P3 N)) as Q1. pose proof (do_clear _ _ (history d h) (other_clear EData f n e P3 N)) as Q2.
      cbn [file_of] in Q1, Q2. rewrite Q1, Q2. split; apply from_more; assumption. }
  pose proof (save_effect _ _ _ _ _ (history d h) Er Ea P3) as Q. cbv zeta in Q. rewrite E1, E2 in Q. destruct Q as [Q1 Q2].
  assert (IE : In e (h ++ [e])) by (apply in_or_app; right; left; reflexivity). assert (UE : under f n e) by (split; assumption).
  split.
  - destruct Q1 as [Q1 | [Q1 | Q1]]; [rewrite Q1; apply from_more; exact R | right; left; exact Q1 |].
    right; right. exists e. rewrite Er. auto.
  - destruct Q2 as [Q2 | [Q2 | [Q2 _]]]; [rewrite Q2; apply from_more; exact A | right; left; exact Q2 |].
    right; right. exists e. rewrite Ea. auto.
Qed.

(** Whatever stopped where: if loading succeeds, the results are the complete results of one save under this name and the data the
    complete data of one save under this name. *)
Theorem C82_untorn : forall yaml d h f n l, unused d f n -> Forall possible h -> Forall dicts h -> load yaml (history d h) f n = inl l ->
  (exists e, In e h /\ under f n e /\ reload (jb_results (ev_job e)) = Ok (ld_results l)) /\
  (exists e, In e h /\ under f n e /\ reload (jb_data (ev_job e)) = Ok (ld_data l)).
Proof.
  intros yaml d h f n l U P D L. destruct (history_from f n d U h P D) as [R A]. unfold load in L.
  destruct (history d h (infos_file f n)) as [ti |]; [| discriminate]. destruct (yaml ti) as [i |]; [| discriminate].
  destruct (history d h (results_file f n)) as [tr |]; [| discriminate]. destruct (parse tr) as [r |] eqn:Pr; [| discriminate].
  destruct (history d h (data_file f n)) as [ta |]; [| discriminate]. destruct (parse ta) as [a |] eqn:Pa; [| discriminate].
  injection L as <-. cbn [ld_results ld_data]. split.
  - destruct R as [R | [(t & E & B) | (e & I1 & I2 & c & C & E)]]; [discriminate | injection E as <-; congruence |].
    injection E as ->. exists e. split; [exact I1 |]. split; [exact I2 |]. exact (parse_reload _ _ _ C Pr).
  - destruct A as [A | [(t & E & B) | (e & I1 & I2 & c & C & E)]]; [discriminate | injection E as <-; congruence |].
    injection E as ->. exists e. split; [exact I1 |]. split; [exact I2 |]. exact (parse_reload _ _ _ C Pa).
Qed.
Print Assumptions C82_untorn.

(** The full claim: what is loaded belongs to one save. *)
Definition C82_full : Prop := forall yaml d h f n l, unused d f n -> Forall possible h -> Forall dicts h -> load yaml (history d h) f n = inl l ->
  exists e, In e h /\ under f n e /\ reload (jb_results (ev_job e)) = Ok (ld_results l) /\ reload (jb_data (ev_job e)) = Ok (ld_data l).

(** It holds if the name was used at most once. *)
Theorem C82_once_partial : forall yaml d h f n l, unused d f n -> Forall possible h -> Forall dicts h ->
  (forall e e', In e h -> In e' h -> under f n e -> under f n e' -> e = e') -> load yaml (history d h) f n = inl l ->
  exists e, In e h /\ under f n e /\ reload (jb_results (ev_job e)) = Ok (ld_results l) /\ reload (jb_data (ev_job e)) = Ok (ld_data l).
Proof.
  intros yaml d h f n l U P D O L. destruct (C82_untorn yaml d h f n l U P D L) as ((e & I1 & U1 & R) & (e' & I2 & U2 & A)).
  rewrite <- (O e e' I1 I2 U1 U2) in A. exists e. auto.
Qed.
Print Assumptions C82_once_partial.

(** ** A name used again *)

Definition no_yaml (l : list tok) : option pyval := match l with [] => None | _ => Some (VDict []) end.
Definition case_results (q : Q) : pyval := VDict [(VStr "Costs", VNum false false q); (VStr "flow", VArr AFlt [q; 2])].
Definition case_data (q : Q) : pyval := VDict [(VStr "price", VNum false false q); (VStr "labels", VList [])].
Definition case_job (q : Q) : job := mkJob "Run" (Some ["solved"]) (case_results q) (case_data q) None (Ok ["Calculation:"; " Name: Run"]).
Definition empty_disk : disk := fun _ => None.
Definition first_run : event := mkEvent "results" (case_job 1) (save_ops "results" (case_job 1)).
Definition steps (k : nat) (j : job) : list fop := firstn k (save_ops "results" j).
Lemma firstn_stops : forall k l, stops l (firstn k l).
Proof. induction k as [| k IH]; intros [| o l]; cbn [firstn]; constructor. apply IH. Qed.
Lemma case_dicts : forall q s, dicts (mkEvent "results" (case_job q) s).
Proof. intros q s. split; eexists; reflexivity. Qed.

(** The second run stops after writing its results. *)
Definition mixed : event := mkEvent "results" (case_job 3) (steps 16 (case_job 3)).
Theorem C82_refuted : ~ C82_full.
Proof.
  intros C. destruct (C no_yaml empty_disk [first_run; mixed] "results" "Run"
    (mkLoaded (VDict []) (VDict [(VStr "Costs", VNum false false 3); (VStr "flow", VArr AFlt [3; 2])])
      (VDict [(VStr "price", VNum false false 1); (VStr "labels", VList [])]))) as (e & I1 & _ & R & A).
  - split; reflexivity.
  - constructor; [apply stops_refl |]. constructor; [apply firstn_stops | constructor].
  - constructor; [apply case_dicts |]. constructor; [apply case_dicts | constructor].
  - vm_compute. reflexivity.
  - destruct I1 as [<- | [<- | []]]; vm_compute in R, A; discriminate.
Qed.
Print Assumptions C82_refuted.

(** Results or data that cannot be converted: nothing can be loaded after the attempt, whatever had been saved before. *)
Theorem C82_lost : forall yaml d f j,
  (exists e, conv false false (jb_results j) = Err e) \/ (exists e, conv false false (jb_data j) = Err e) ->
  exists x, load yaml (do_ops d (save_ops f j)) f (jb_name j) = inr x.
Proof.
  intros yaml d f j B. set (d' := do_ops d (save_ops f j)).
  assert (N : broken (d' (results_file f (jb_name j))) \/ broken (d' (data_file f (jb_name j)))).
  { unfold d'. rewrite save_parts, do_app. set (d0 := do_ops d (part0 f j)). unfold part1, part2, write_json.
    destruct (conv false false (jb_results j)) as [c | e] eqn:E.
    - right. destruct B as [[e B] | [e B]]; [discriminate |]. rewrite B. rewrite do_app. exists []. split; [| reflexivity]. cbn [do_ops fold_left do_op]. apply set_same.
    - left. exists []. split; [| reflexivity]. cbn [do_ops fold_left do_op]. apply set_same. }
  clearbody d'. unfold load. destruct (d' (infos_file f (jb_name j))) as [ti |]; [| eexists; reflexivity]. destruct (yaml ti); [| eexists; reflexivity].
  destruct (d' (results_file f (jb_name j))) as [tr |]; [| eexists; reflexivity]. destruct (parse tr) as [r |] eqn:P; [| eexists; reflexivity].
  destruct (d' (data_file f (jb_name j))) as [ta |]; [| eexists; reflexivity]. destruct (parse ta) as [a |] eqn:Q; [| eexists; reflexivity].
  exfalso. destruct N as [(t & E & F) | (t & E & F)]; injection E as <-; congruence.
Qed.
Print Assumptions C82_lost.

(** ** Cases *)

Example C82_saved_case : exists l, reads_as no_yaml (case_job 3) l /\
  load no_yaml (history empty_disk ([first_run] ++ mkEvent "results" (case_job 3) (save_ops "results" (case_job 3)) ::
    [mkEvent "other" (case_job 1) (firstn 9 (save_ops "other" (case_job 1)))])) "results" "Run" = inl l.
Proof.
  exists (mkLoaded (VDict []) (VDict [(VStr "Costs", VNum false false 3); (VStr "flow", VArr AFlt [3; 2])])
      (VDict [(VStr "price", VNum false false 3); (VStr "labels", VList [])])).
  assert (R : reads_as no_yaml (case_job 3) (mkLoaded (VDict []) (VDict [(VStr "Costs", VNum false false 3); (VStr "flow", VArr AFlt [3; 2])])
      (VDict [(VStr "price", VNum false false 3); (VStr "labels", VList [])]))).
  { split; [vm_compute; reflexivity |]. split; [vm_compute; reflexivity |]. split; [intros x H; discriminate |]. eexists. split; reflexivity. }
  split; [exact R |]. refine (C82_saved no_yaml empty_disk [first_run] (mkEvent "results" (case_job 3) _) _ _ _ _ R _).
  - constructor; [apply firstn_stops | constructor].
  - reflexivity.
  - intros e' [<- | []] [U _]. discriminate.
Qed.
(** A run with a torn number in its last step, and one with time steps of a day after a good one. *)
Example C82_torn_case :
  load no_yaml (do_ops (history empty_disk [first_run]) (steps 8 (case_job 3) ++ [Append (results_file "results" "Run") (TAtom (VNum false false 7))])) "results" "Run" = inr BadJson /\
  stops (save_ops "results" (case_job 3)) (steps 8 (case_job 3) ++ [Append (results_file "results" "Run") (TAtom (VNum false false 7))]).
Proof. split; [vm_compute; reflexivity |]. vm_compute. repeat constructor. Qed.
Example C82_lost_case : exists e, conv false false (VDict [(VStr "Time", VArr ADate [0; 24])]) = Err e /\
  load no_yaml (history empty_disk [first_run]) "results" "Run" <> inr BadJson /\
  load no_yaml (do_ops (history empty_disk [first_run])
    (save_ops "results" (mkJob "Run" None (VDict [(VStr "Time", VArr ADate [0; 24])]) (case_data 1) None (Ok [])))) "results" "Run" = inr BadJson.
Proof. exists TypeError. split; [reflexivity |]. split; [vm_compute; discriminate | vm_compute; reflexivity]. Qed.
(** A run that stops in the middle of its last file, between two runs of another name: its results and data are complete. *)
Definition late : event := mkEvent "results" (case_job 3) (steps 29 (case_job 3)).
Definition around (q : Q) : event :=
  let j := mkJob "Run_results" None (case_results q) (case_data q) (Some (case_results 1, case_data 1)) (Ok ["x"]) in
  mkEvent "results" j (save_ops "results" j).
Definition three_runs : list event := [around 1; late; around 2].
Example C82_once_case : exists l, unused empty_disk "results" "Run" /\ Forall possible three_runs /\ Forall dicts three_runs /\
  (forall e e', In e three_runs -> In e' three_runs -> under "results" "Run" e -> under "results" "Run" e' -> e = e') /\
  ~ finished late /\ load no_yaml (history empty_disk three_runs) "results" "Run" = inl l.
Proof.
  eexists. split; [split; reflexivity |]. unfold three_runs. split.
  { constructor; [apply stops_refl |]. constructor; [apply firstn_stops |]. constructor; [apply stops_refl | constructor]. }
  split. { repeat (constructor; [split; eexists; reflexivity |]). constructor. }
  split. { intros e e' [<- | [<- | [<- | []]]] [<- | [<- | [<- | []]]] [_ U] [_ U']; try discriminate; reflexivity. }
  split; [| vm_compute; reflexivity]. unfold finished, late, steps. cbn [ev_done ev_folder ev_job]. intros E. apply (f_equal (@length fop)) in E. vm_compute in E. discriminate.
Qed.
