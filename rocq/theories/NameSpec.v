(** Vocabulary for labels: how a label is read as words separated by underscores, and when labels are chosen well. *)
From Verif Require Import Base.

(** The underscore. *)
Definition us : Ascii.ascii := Ascii.Ascii true true true true true false true false.

(** The words of a label: "Q_th" has the words "Q" and "th"; two underscores in a row enclose an empty word. *)
Fixpoint words (s : string) : list string :=
  match s with
  | EmptyString => [""%string]
  | String c r =>
      if Ascii.eqb c us then ""%string :: words r
      else match words r with
           | [] => [String c ""]
           | w :: ws => String c w :: ws
           end
  end.

(** A label is tidy if it is not empty, has no underscore at its ends and no two underscores in a row. *)
Definition tidy (s : string) : Prop := ~ In ""%string (words s).
(** [b] is [a] continued with an underscore: "Tank" and "Tank_initial". *)
Definition continued (a b : string) : Prop := exists r, b = cat [a; "_"; r].
(** Neither label is the other one or continues it. *)
Definition unrelated (a b : string) : Prop := a <> b /\ ~ continued a b /\ ~ continued b a.
