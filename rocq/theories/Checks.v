(** Checks that are written down in the code but never made. *)
From Verif Require Import Base Params Library.

(** components.py 303-310: a flow has investment parameters as its size. *)
Definition has_invest (f : flow) : bool := match f_size f with SzInv _ => true | SzNum _ => false end.
(** components.py 296-303: [self.in2.bus == self.out1.bus]; buses are compared as objects (no [__eq__] in structure.py or elements.py). *)
Definition same_bus (f g : flow) : bool := Nat.eqb (b_id (f_bus f)) (b_id (f_bus g)).
(** components.py 294-310 [Transmission._plausibility_checks]: the assertions on the buses, then the loop over the flows. Called nowhere: components.py 60 is the only call in this
    file, and it is in [LinearConverter.__init__]. *)
Definition transmission_check (in1 out1 : flow) (in2 out2 : option flow) : res unit :=
  _ <- match in2 with Some f => guard (same_bus f out1) AssertionError | None => Ok tt end ;;
  _ <- match out2 with Some f => guard (same_bus f in1) AssertionError | None => Ok tt end ;;
  guard (negb (existsb has_invest (out1 :: opt_flow in2 ++ opt_flow out2))) ValueError.
