(** Specification of the loss functions (C89) and of normalised predictions (C90). *)
From Coq Require Import Reals.
From Verif Require Import PyBase LossModel.
Open Scope R_scope.

(** an array of numbers with [n] rows and [k] columns *)
Definition has_shape (n k : nat) (m : matrix) : Prop :=
  m_rows m = n /\ m_cols m = k /\ List.length (m_data m) = n /\ forall r, In r (m_data m) -> List.length r = k.
(** element [j] of row [i] *)
Definition at_ (m : matrix) (i j : nat) : R := nth j (nth i (m_data m) []) 0.
(** [f 0 + ... + f (n-1)] *)
Fixpoint Sum (n : nat) (f : nat -> R) : R := match n with O => 0 | S n' => Sum n' f + f n' end.
(** every row is a probability distribution *)
Definition non_negative (n k : nat) (m : matrix) : Prop := forall i j, (i < n)%nat -> (j < k)%nat -> 0 <= at_ m i j.
Definition distributions (n k : nat) (m : matrix) : Prop := non_negative n k m /\ forall i, (i < n)%nat -> Sum k (at_ m i) = 1.
(** row [i] is one-hot, with a one in column [c i] *)
Definition one_hot (n k : nat) (m : matrix) (c : nat -> nat) : Prop :=
  forall i, (i < n)%nat -> (c i < k)%nat /\ forall j, (j < k)%nat -> at_ m i j = if (j =? c i)%nat then 1 else 0.
(** the probability of class [j] in row [i], after adding [epsilon] to every entry *)
Definition smoothed (k : nat) (epsilon : R) (m : matrix) (i j : nat) : R := (at_ m i j + epsilon) / (Sum k (at_ m i) + INR k * epsilon).
(** cross entropy, and entropy, of the rows on average *)
Definition cross_entropy (n k : nat) (p : nat -> nat -> R) (t : matrix) : R := - Sum n (fun i => Sum k (fun j => at_ t i j * ln (p i j))) / INR n.
Definition entropy (n k : nat) (t : matrix) : R := cross_entropy n k (at_ t) t.
(** mean squared error *)
Definition mean_square (n k : nat) (p t : matrix) : R := Sum n (fun i => Sum k (fun j => (at_ p i j - at_ t i j) ^ 2)) / INR (n * k).
