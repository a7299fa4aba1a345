(** Specification of batch parsing (C80-C82). *)
From Coq Require Import Sorted.
From Verif Require Import PyBase ReaderModel PbModel.
Set Implicit Arguments. Unset Strict Implicit.

(** the sentences that the caller's list stands for: token lists, or strings to be split at white space *)
Definition reads (tokenised : bool) (xs : list input) (ss : list sentence) : Prop := if tokenised then xs = map Toks ss else exists strs, xs = map Str strs /\ ss = map py_split strs.
(** the result of a computation, [None] if it raises *)
Definition outcome {A B} (f : A -> res B) (x : A) : option B := match f x with Ok t => Some t | Err _ => None end.
(** scores in descending order *)
Definition sc_ge (a b : scored) : Prop := (snd b <= snd a)%Z.
Definition rows_ok (lens : list nat) (scores : list (list (list scored))) : Prop := Forall2 (fun n rows => (n <= List.length rows)%nat /\ Forall (fun r => r <> [] /\ StronglySorted sc_ge r) rows) lens scores.
(** the entries of a row whose log probability is at least the threshold, which is relative to the best entry (the first) or absolute *)
Definition selected (relative : bool) (logp : option Z) (row : list scored) : list scored :=
  filter (fun x => match logp with None => true | Some l => ((if relative then match row with [] => 0 | best :: _ => snd best end else 0) + l <=? snd x)%Z end) row.
(** for spans the null category 0 is left out *)
Definition selected_span (relative : bool) (logp : option Z) (row : list scored) : list scored := filter (fun x => negb (fst x =? 0)%nat) (selected relative logp row).
Definition no_shared (a b : list (list (list scored))) : Prop := forall s r x s' r', In s a -> In r s -> In x r -> In s' b -> In r' s' -> ~ In x r'.
