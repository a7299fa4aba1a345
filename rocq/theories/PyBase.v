(** Python building blocks shared by every model file: exceptions as values,
    Python list slicing/indexing.  No repository code is modelled here; these
    are the CPython list semantics the modelled functions rely on. *)
From Coq Require Export List Arith ZArith Lia Bool String Ascii Permutation.
Export ListNotations.
Set Implicit Arguments.
#[global] Open Scope list_scope.
#[global] Open Scope nat_scope.

(** Python exceptions raised by the modelled code. *)
Inductive exn :=
| ValueError | IndexError | KeyError | TypeError | AttributeError
| AssertionError | NotImplementedError | ZeroDivisionError | InterchangerError | OtherError.

(** Result of a Python call: a value or a raised exception. *)
Inductive res (A : Type) :=
| Ok (a : A)
| Err (e : exn).
Arguments Ok {A} a.
Arguments Err {A} e.

Definition bind {A B} (x : res A) (f : A -> res B) : res B :=
  match x with Ok a => f a | Err e => Err e end.
Notation "'do' x <- e ; f" := (bind e (fun x => f))
  (at level 200, x pattern, e at level 100, f at level 200).

Definition rmap {A B} (f : A -> B) (x : res A) : res B :=
  match x with Ok a => Ok (f a) | Err e => Err e end.

(** [ [f x for x in l] ] where f may raise: left to right, first exception wins. *)
Fixpoint mapM {A B} (f : A -> res B) (l : list A) : res (list B) :=
  match l with
  | [] => Ok []
  | x :: xs => do y <- f x; do ys <- mapM f xs; Ok (y :: ys)
  end.

(** A Python for loop whose body may raise. *)
Fixpoint foldM {S A} (f : S -> A -> res S) (l : list A) (s : S) : res S :=
  match l with
  | [] => Ok s
  | x :: xs => do s' <- f s x; foldM f xs s'
  end.

Definition is_ok {A} (x : res A) : bool :=
  match x with Ok _ => true | Err _ => false end.

(** Clamping of a slice bound, CPython [PySlice_AdjustIndices] with step 1. *)
Definition adj (n : nat) (i : Z) : nat :=
  if (i <? 0)%Z then Z.to_nat (Z.max 0 (Z.of_nat n + i))
  else Nat.min (Z.to_nat i) n.

(** [l[start:stop]] with optional bounds, step 1. *)
Definition py_slice {A} (l : list A) (start stop : option Z) : list A :=
  let a := match start with None => 0 | Some i => adj (List.length l) i end in
  let b := match stop with None => List.length l | Some i => adj (List.length l) i end in
  firstn (b - a) (skipn a l).

(** [l[i]]: negative indices count from the end. *)
Definition py_index {A} (l : list A) (i : Z) : res A :=
  let n := Z.of_nat (List.length l) in
  let j := if (i <? 0)%Z then (n + i)%Z else i in
  if ((0 <=? j) && (j <? n))%Z
  then match nth_error l (Z.to_nat j) with Some a => Ok a | None => Err IndexError end
  else Err IndexError.
