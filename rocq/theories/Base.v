(** Base: Python exceptions as values, numpy-like numbers, small list helpers.
    Numbers are exact rationals (floats idealised); see DESIGN.md. *)
From Coq Require Export String QArith Qabs Bool Arith Lia Lqa List.
Export ListNotations.
Open Scope string_scope.
Open Scope list_scope.

(** Python exception classes raised by the modelled code. [PyException] is a plain [Exception]. *)
Inductive exn : Set :=
| TypeError | ValueError | KeyError | AssertionError | AttributeError | IndexError
| PyException | ZeroDivision | NotImplementedError.

Inductive res (A : Type) : Type :=
| Ok (a : A)
| Err (e : exn).
Arguments Ok {A} a.
Arguments Err {A} e.

Definition bind {A B} (m : res A) (f : A -> res B) : res B :=
  match m with Ok a => f a | Err e => Err e end.

Notation "x <- m ;; k" := (bind m (fun x => k)) (at level 100, m at next level, right associativity).
Notation "' p <- m ;; k" := (bind m (fun p => k)) (at level 100, p pattern, m at next level, right associativity).

(** [assert b] : Python's [assert]. *)
Definition assert_ (b : bool) : res unit := if b then Ok tt else Err AssertionError.
Definition guard (b : bool) (e : exn) : res unit := if b then Ok tt else Err e.

Section Iter.
  Context {A B : Type}.
  Variable f : A -> res B.
  Fixpoint mapM (l : list A) : res (list B) :=
    match l with
    | [] => Ok []
    | a :: r => b <- f a ;; bs <- mapM r ;; Ok (b :: bs)
    end.
End Iter.

Section Fold.
  Context {A S : Type}.
  Variable f : S -> A -> res S.
  Fixpoint foldM (l : list A) (s : S) : res S :=
    match l with
    | [] => Ok s
    | a :: r => s' <- f s a ;; foldM r s'
    end.
End Fold.

Definition of_option {A} (e : exn) (o : option A) : res A :=
  match o with Some a => Ok a | None => Err e end.

Definition optM {A B} (f : A -> res B) (o : option A) : res (option B) :=
  match o with None => Ok None | Some a => b <- f a ;; Ok (Some b) end.

(** ** Numbers: int/float (NS) or one-dimensional numpy array (NV). core.py 16-17 [Skalar], [Numeric]. *)
Inductive numeric : Type :=
| NS (q : Q)
| NV (l : list Q).

Definition is_scalar (a : numeric) : bool := match a with NS _ => true | NV _ => false end.

(** len(x) with scalars counting as 1, as in the idiom [1 if np.isscalar(x) else len(x)]. *)
Definition nlen (a : numeric) : nat := match a with NS _ => 1%nat | NV l => length l end.

Fixpoint map2 {A B C} (f : A -> B -> C) (l : list A) (m : list B) : list C :=
  match l, m with
  | a :: l', b :: m' => f a b :: map2 f l' m'
  | _, _ => []
  end.

(** numpy broadcasting of a binary ufunc on scalars and 1-D arrays. *)
Definition bcast2 (f : Q -> Q -> Q) (a b : numeric) : res numeric :=
  match a, b with
  | NS x, NS y => Ok (NS (f x y))
  | NS x, NV l => Ok (NV (map (fun y => f x y) l))
  | NV l, NS y => Ok (NV (map (fun x => f x y) l))
  | NV l, NV m =>
      if Nat.eqb (length l) (length m) then Ok (NV (map2 f l m))
      else match l, m with
           | [x], _ => Ok (NV (map (fun y => f x y) m))
           | _, [y] => Ok (NV (map (fun x => f x y) l))
           | _, _ => Err ValueError
           end
  end.

Definition Qmax_ (x y : Q) : Q := if Qle_bool x y then y else x.

Definition nadd := bcast2 Qplus.
Definition nsub := bcast2 Qminus.
Definition nmul := bcast2 Qmult.
Definition nmax := bcast2 Qmax_.

(** Unary map. *)
Definition nmap (f : Q -> Q) (a : numeric) : numeric :=
  match a with NS x => NS (f x) | NV l => NV (map f l) end.

(** True division; numpy would give inf/nan for a zero divisor, the model stops. *)
Definition ndiv (a b : numeric) : res numeric :=
  let z := match b with NS y => Qeq_bool y 0 | NV l => existsb (fun y => Qeq_bool y 0) l end in
  if z then Err ZeroDivision else bcast2 Qdiv a b.

Definition nlist (a : numeric) : list Q := match a with NS x => [x] | NV l => l end.

(** [np.all(a <= b)] with broadcasting. *)
Definition nall_le (a b : numeric) : res bool :=
  d <- bcast2 (fun x y => if Qle_bool x y then 1 else 0) a b ;;
  Ok (forallb (fun q => Qeq_bool q 1) (nlist d)).

(** [np.any(a > b)]. *)
Definition nany_gt (a b : numeric) : res bool :=
  d <- bcast2 (fun x y => if Qle_bool x y then 0 else 1) a b ;;
  Ok (existsb (fun q => Qeq_bool q 1) (nlist d)).

Definition Qsum (l : list Q) : Q := fold_right Qplus 0 l.

(** Value used at position [i] under broadcasting. The default 0 of [nth] is only reached out of range;
    every theorem states the range. *)
Definition at_ (a : numeric) (i : nat) : Q :=
  match a with
  | NS x => x
  | NV [x] => x
  | NV l => nth i l 0
  end.

Definition in_rng (a : numeric) (i : nat) : Prop :=
  match a with
  | NS _ => True
  | NV l => length l = 1%nat \/ (i < length l)%nat
  end.

(** utils.py 13-39 [as_vector] for a value that is not None. *)
Definition as_vector (a : numeric) (n : nat) : res (list Q) :=
  match a with
  | NS x => Ok (repeat x n)
  | NV l => if Nat.eqb (length l) n then Ok l else Err PyException
  end.

(** utils.py 28-29: None becomes an array of None. *)
Definition as_vector_opt (a : option numeric) (n : nat) : res (list (option Q)) :=
  match a with
  | None => Ok (repeat None n)
  | Some v => l <- as_vector v n ;; Ok (map Some l)
  end.

(** numpy integer-list indexing [data[indices]]. *)
Definition take_idx (l : list Q) (idx : list nat) : res (list Q) :=
  mapM (fun i => of_option IndexError (nth_error l i)) idx.

(** Strings *)
Definition mem_str (s : string) (l : list string) : bool := existsb (String.eqb s) l.

Fixpoint nodup_str (l : list string) : bool :=
  match l with
  | [] => true
  | a :: r => negb (mem_str a r) && nodup_str r
  end.

Definition or_str (a b : string) : string := if String.eqb a "" then b else a.

(** Decimal digits of a nat, for f-string labels such as [Segment_0]. *)
Definition digit (n : nat) : string :=
  match n with
  | 0 => "0" | 1 => "1" | 2 => "2" | 3 => "3" | 4 => "4"
  | 5 => "5" | 6 => "6" | 7 => "7" | 8 => "8" | _ => "9"
  end%nat.
Fixpoint nat_str_aux (fuel n : nat) (acc : string) : string :=
  match fuel with
  | O => acc
  | S k => let acc' := String.append (digit (Nat.modulo n 10)) acc in
           if Nat.ltb n 10 then acc' else nat_str_aux k (Nat.div n 10) acc'
  end.
Definition nat_str (n : nat) : string := nat_str_aux (S n) n "".

Definition cat (l : list string) : string := fold_right String.append "" l.
