(** Specification vocabulary for [RemoveCupsRewriter]. *)
From Verif Require Import PyBase TyModel DiagModel DiagSpec.
Set Implicit Arguments. Unset Strict Implicit.
Local Open Scope string_scope.
Local Open Scope list_scope.

(** the word of a box with its unrotated type, through daggers *)
Fixpoint word_of (b : box) : list (string * ty) :=
  match b with Word n c z => [(n, rot (- z) c)] | Dagg b' => word_of b' | _ => [] end.
(** the words of a diagram *)
Definition words (d : diagram) : list (string * ty) := flat_map word_of (boxes d).
(** the number of cups and caps of a diagram *)
Fixpoint bends_of (b : box) : nat := match b with Cup _ _ _ | Cap _ _ _ => 1 | Dagg b' => bends_of b' | _ => 0 end.
Definition bends (d : diagram) : nat := fold_right Nat.add 0 (map bends_of (boxes d)).
(** no box of the user's diagram carries the rewriter's reserved name *)
Fixpoint unreserved (b : box) : Prop :=
  match b with
  | Box n _ _ _ | Word n _ _ | Frame n _ _ _ _ | DagFrame n _ _ _ _ => n <> "**CUP**"
  | Dagg b' => unreserved b'
  | _ => True
  end.
(** no cup directly encloses the cup of the layer before it *)
Definition cup_layer (x : layer) : Prop := match x with (_, Cup _ _ _, _) => True | _ => False end.
Fixpoint no_nested_cups (ls : list layer) : Prop :=
  match ls with
  | x :: ((y :: _) as rest) =>
      ~ (cup_layer x /\ cup_layer y /\ List.length (l_left x) = S (List.length (l_left y))) /\ no_nested_cups rest
  | _ => True
  end.
