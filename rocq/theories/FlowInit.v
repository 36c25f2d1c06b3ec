(** Model of making a flow: the constructor and the checks of elements.py 150-271 [Flow.__init__], [Flow._plausibility_checks]. *)
From Verif Require Import Base MathModel Params Elements.

(** elements.py 220, 264-266: [self.size == BIG] after [size or BIG]; investment parameters are equal to no number. *)
Definition size_is_big (big : Q) (s : fsize) : bool := match s with SzNum q => Qeq_bool (or_num q big) big | SzInv _ => false end.
(** elements.py 267-271: the text of the warning contains [{self}], which is str(self): structure.py 328-329 calls infos, and elements.py 254-257 asks there whether the flow
    is an input of its component. A flow that is being made has none ([self.comp = None], line 236), so [self.comp.inputs] (line 281) raises AttributeError. (What else infos
    does before is not modelled.) *)
Definition warn_no_size : res unit := Err AttributeError.
(** elements.py 219-238, 259-271. The label is [element_init] of PropsNames; nothing else can fail. *)
Definition new_flow (big : Q) (f : flow) : res flow :=
  _ <- flow_check (f_relmin f) (f_relmax f) ;;
  _ <- (if (size_is_big big (f_size f) && match f_profile f with Some _ => true | None => false end)%bool then warn_no_size else Ok tt) ;;
  Ok f.
