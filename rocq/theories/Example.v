(** Concrete systems used to show that hypotheses of the theorems are met. *)
From Verif Require Import Base MathModel Structure Params Features Elements System Library.

Definition n1 (q : Q) : param := PNum (NS q).
Definition na (l : list Q) : param := PNum (NV l).
Definition flow0 (id : nat) (lab : string) (b : bus) : flow :=
  mkFlow id lab b (SzNum None) None (n1 0) (n1 1) EVNone None None None None None None.
Definition set_size_ (s : fsize) (f : flow) : flow := set_size s f.
Definition set_eff (v : evalues) (f : flow) : flow :=
  mkFlow (f_id f) (f_lab f) (f_bus f) (f_size f) (f_profile f) (f_relmin f) (f_relmax f) v
    (f_onoff f) (f_fh_max f) (f_fh_min f) (f_lf_min f) (f_lf_max f) (f_prev f).
Definition set_rel (a b : param) (f : flow) : flow :=
  mkFlow (f_id f) (f_lab f) (f_bus f) (f_size f) (f_profile f) a b (f_effects f)
    (f_onoff f) (f_fh_max f) (f_fh_min f) (f_lf_min f) (f_lf_max f) (f_prev f).
Definition set_onoff (o : option onoff) (f : flow) : flow :=
  mkFlow (f_id f) (f_lab f) (f_bus f) (f_size f) (f_profile f) (f_relmin f) (f_relmax f) (f_effects f)
    o (f_fh_max f) (f_fh_min f) (f_lf_min f) (f_lf_max f) (f_prev f).
Definition set_profile (p : option param) (f : flow) : flow :=
  mkFlow (f_id f) (f_lab f) (f_bus f) (f_size f) p (f_relmin f) (f_relmax f) (f_effects f)
    (f_onoff f) (f_fh_max f) (f_fh_min f) (f_lf_min f) (f_lf_max f) (f_prev f).
Definition set_limits (fmax fmin lmin lmax : option Q) (f : flow) : flow :=
  mkFlow (f_id f) (f_lab f) (f_bus f) (f_size f) (f_profile f) (f_relmin f) (f_relmax f) (f_effects f)
    (f_onoff f) fmax fmin lmin lmax (f_prev f).
Definition set_prev (p : option numeric) (f : flow) : flow :=
  mkFlow (f_id f) (f_lab f) (f_bus f) (f_size f) (f_profile f) (f_relmin f) (f_relmax f) (f_effects f)
    (f_onoff f) (f_fh_max f) (f_fh_min f) (f_lf_min f) (f_lf_max f) p.

Definition gas : bus := mkBus 0 "Gas" None.
Definition heat : bus := mkBus 1 "Heat" (Some (n1 100)).
Definition costs : effect :=
  mkEffect 0 "costs" true true [] [] None None None None None (Some (n1 1000)) None (Some (5000 # 1)).
Definition co2 : effect :=
  mkEffect 1 "CO2" false false [(0%nat, n1 (1 # 5))] [(0%nat, NS (1 # 10))] None None None None None None None None.

Definition boiler_oo : onoff :=
  mkOnOff (EVOne (n1 3)) (EVDict [(Some 1%nat, n1 2)]) (Some 0) (Some 100) (Some (n1 2)) (Some (n1 10)) (Some (n1 1)) None
    (Some 4) false.
Definition boiler_inv : invest :=
  mkInvest None 5 (Some 200) true (EVOne (n1 10)) (EVDict [(Some 0%nat, n1 2); (Some 1%nat, n1 1)]) None (EVOne (n1 7)).
Definition q_fu : flow := flow0 10 "Q_fu" gas.
Definition q_th : flow :=
  set_prev (Some (NS 5)) (set_limits (Some 500) None None (Some (9 # 10))
    (set_onoff (Some boiler_oo) (set_size_ (SzInv boiler_inv) (set_rel (n1 (1 # 10)) (n1 1) (flow0 11 "Q_th" heat))))).
Definition boiler : component :=
  mkComponent "Boiler" [q_fu] [q_th] None [] (Converter [[(10%nat, n1 (1 # 2)); (11%nat, n1 1)]]).
Definition sto : component :=
  mkComponent "Storage"
    [set_size_ (SzNum (Some 50)) (flow0 20 "ch" heat)] [set_size_ (SzNum (Some 60)) (flow0 21 "dis" heat)] None [20; 21]%nat
    (StorageC (mkStorage (CapInv (mkInvest None 0 (Some 100) true EVNone (EVOne (n1 1)) None EVNone)) (n1 0) (n1 (9 # 10))
                 (ICNum 0) (Some 1) (Some 80) (n1 (9 # 10)) (n1 (8 # 10)) (n1 (1 # 100)))).
Definition demand : component :=
  mkComponent "Demand"
    [set_size_ (SzNum (Some 10)) (set_profile (Some (na [1; 3; 2])) (flow0 30 "Q" heat))] [] None [] Plain.
Definition grid : component :=
  mkComponent "Grid" [] [set_eff (EVDict [(Some 0%nat, na [1; 2; 1]); (Some 1%nat, n1 (1 # 2))])
                           (set_size_ (SzNum (Some 1000)) (flow0 40 "Q" gas))] None [] Plain.

Definition fs0 : flow_system := mkFS [0; 1; 2] 3 (NS 1) [costs; co2] [grid; boiler; sto; demand].
Definition id_ord (l : list nat) : list nat := l.
Definition res_size {A} (r : res A) (f : A -> nat) : res nat := x <- r ;; Ok (f x).

(** A second system: uneven steps, component on/off, two-way transmission with losses and an investment, segmented
    conversion, segmented investment costs, calculated for the last three of four steps. *)
Definition el : bus := mkBus 2 "El" None.
Definition el2 : bus := mkBus 3 "El2" (Some (na [100; 200; 100; 50])).
Definition unit_oo : onoff := mkOnOff (EVOne (n1 5)) (EVOne (n1 1)) None (Some 20) None (Some (n1 8)) None None None true.
Definition chp : component :=
  mkComponent "CHP" [set_size_ (SzNum (Some 100)) (flow0 50 "gas" gas)]
    [set_prev (Some (NV [0; 3])) (set_size_ (SzNum (Some 60)) (flow0 51 "th" heat)); set_size_ (SzNum (Some 40)) (flow0 52 "el" el)]
    (Some unit_oo) []
    (Converter [[(50%nat, n1 (1 # 2)); (51%nat, n1 1)]; [(50%nat, na [1 # 4; 1 # 5; 1 # 5; 1 # 4]); (52%nat, n1 1)]]).
Definition line_inv : invest :=
  mkInvest None 1 (Some 50) true (EVOne (n1 10)) EVNone (Some ([(0, 10); (10, 50)], [(0%nat, [(0, 20); (20, 60)])])) EVNone.
Definition line : component :=
  mkComponent "Line"
    [set_size_ (SzInv line_inv) (flow0 60 "in1" el); flow0 61 "in2" el2]
    [flow0 62 "out1" el2; flow0 63 "out2" el] None [60; 61]%nat
    (TransmissionC (Some (n1 (1 # 10))) (Some (na [1; 1; 2; 1]))).
Definition p2h : component :=
  mkComponent "P2H" [set_size_ (SzNum (Some 30)) (flow0 70 "el" el2)] [set_size_ (SzNum (Some 90)) (flow0 71 "th" heat)] None []
    (Segmented [(70%nat, [(n1 0, n1 5); (n1 5, n1 20)]); (71%nat, [(n1 0, n1 10); (n1 10, n1 25)])]).
Definition gas_src : component :=
  mkComponent "GasGrid" [] [set_eff (EVOne (n1 2)) (set_size_ (SzNum (Some 1000)) (flow0 80 "Q" gas))] None [] Plain.
Definition heat_sink : component :=
  mkComponent "HeatDemand"
    [set_size_ (SzNum (Some 10)) (set_profile (Some (na [1; 3; 2; 3])) (flow0 81 "Q" heat))] [] None [] Plain.
Definition el_sink : component :=
  mkComponent "ElDemand" [set_size_ (SzNum (Some 5)) (set_rel (n1 (1 # 5)) (n1 1) (flow0 82 "Q" el2))] [] None [] Plain.
Definition fs1 : flow_system :=
  mkFS [0; 1; 3; 4] 6 (NS 1) [costs; co2] [gas_src; chp; line; p2h; heat_sink; el_sink].
Definition idx1 : option (list nat) := Some [1; 2; 3]%nat.

(** A third system, for states before the first step: several previous values. *)
Definition start_oo : onoff := mkOnOff EVNone EVNone None None (Some (n1 2)) (Some (n1 10)) None None None false.
Definition pump : component :=
  mkComponent "Pump" [set_prev (Some (NS 5)) (set_size_ (SzNum (Some 10)) (flow0 90 "in" gas))]
    [set_prev (Some (NS 0)) (set_size_ (SzNum (Some 10)) (flow0 91 "out" heat))] (Some unit_oo) []
    (Converter [[(90%nat, n1 1); (91%nat, n1 1)]]).
Definition src_q : flow := set_prev (Some (NV [0; 1; 1; 1])) (set_onoff (Some start_oo) (set_size_ (SzNum (Some 20)) (flow0 92 "Q" gas))).
Definition src : component := mkComponent "Src" [] [src_q] None [] Plain.
Definition sink : component := mkComponent "Sink" [set_size_ (SzNum (Some 10)) (flow0 93 "Q" heat)] [] None [] Plain.
Definition fs2 : flow_system := mkFS [0; 1; 2] 3 (NS 1) [costs; co2] [src; pump; sink].

(** A fourth system: the named converters and storages as their constructors make them. *)
Definition get (r : res component) : component := match r with Ok c => c | Err _ => mkComponent "" [] [] None [] Plain end.
Definition fl (id : nat) (lab : string) (b : bus) (q : Q) : flow := set_size_ (SzNum (Some q)) (flow0 id lab b).
Definition amb : bus := mkBus 4 "Ambient" None.
Definition kwk_fu := fl 101 "Q_fu" gas 50. Definition kwk_el := fl 102 "P_el" el 50. Definition kwk_th := fl 103 "Q_th" heat 50.
Definition kwk : component := get (chp_ "KWK" (n1 (1 # 2)) (na [3 # 10; 4 # 10; 3 # 10]) kwk_fu kwk_el kwk_th None).
Definition kes_fu := fl 104 "Q_fu" gas 50. Definition kes_th := fl 105 "Q_th" heat 50.
Definition kessel : component := get (boiler_ "Kessel" (n1 (9 # 10)) kes_fu kes_th (Some unit_oo)).
Definition rod_el := fl 106 "P_el" el 50. Definition rod_th := fl 107 "Q_th" heat 50.
Definition rod : component := get (power2heat "Rod" (n1 (95 # 100)) rod_el rod_th None).
Definition hp_el := fl 108 "P_el" el 50. Definition hp_th := fl 109 "Q_th" heat 50.
Definition hp : component := get (heat_pump "HP" (na [3; 4; 3]) hp_el hp_th None).
Definition wp_el := fl 110 "P_el" el 50. Definition wp_ab := fl 111 "Q_ab" amb 50. Definition wp_th := fl 112 "Q_th" heat 80.
Definition wp : component := get (heat_pump_with_source "WP" (na [3; 4; 5]) wp_el wp_ab wp_th None).
Definition kt_el := fl 114 "P_el" el 50. Definition kt_th := fl 115 "Q_th" heat 80.
Definition kt : component := get (cooling_tower "KT" (n1 (1 # 50)) kt_el kt_th None).
Definition bat_ch := fl 120 "ch" el 10. Definition bat_dis := fl 121 "dis" el 10.
Definition bat_s : storage :=
  mkStorage (CapNum 20) (na [0; 1 # 10; 1 # 10; 1 # 5]) (n1 1) (ICNum 5) (Some 6) (Some 18) (n1 (9 # 10)) (na [8 # 10; 9 # 10; 8 # 10])
    (n1 (1 # 100)).
Definition bat : component := storage_ "Bat" bat_ch bat_dis bat_s true.
Definition fs3 : flow_system :=
  mkFS [0; 1; 3] 4 (NS 1) [costs; co2]
    [gas_src; source "ElGrid" (fl 100 "P" el 1000); source "Air" (fl 113 "Q" amb 1000); kwk; kessel; rod; hp; wp; kt; bat;
     Library.sink "Use" (set_profile (Some (na [1; 3; 2])) (fl 116 "Q" heat 20))].

(** Two bus objects with the same label. *)
Definition twin_a : bus := mkBus 5 "A" None. Definition twin_b : bus := mkBus 6 "A" None.
Definition twin_src : component := source "Src" (fl 130 "Q" twin_a 10).
Definition twin_sink : component := Library.sink "Sink" (fl 131 "Q" twin_b 10).
Definition fs_twin : flow_system := mkFS [0; 1] 2 (NS 1) [costs] [twin_src; twin_sink].

(** Storages with initial_charge_state 'lastValueOfSim' and None. *)
Definition cyc_ch := fl 140 "ch" gas 10. Definition cyc_dis := fl 141 "dis" gas 10.
Definition cyc_s (i : initcharge) (fmin fmax : option Q) : storage := mkStorage (CapNum 20) (n1 0) (n1 1) i fmin fmax (n1 1) (n1 1) (n1 0).
Definition cyc (i : initcharge) (fmin fmax : option Q) : component := storage_ "Sto" cyc_ch cyc_dis (cyc_s i fmin fmax) false.
Definition fs_cyc (i : initcharge) (fmin fmax : option Q) : flow_system := mkFS [0; 1] 2 (NS 1) [costs] [source "Src" (fl 142 "Q" gas 10); cyc i fmin fmax].
