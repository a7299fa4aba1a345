(** Specification for LxModel.v (C98). Nothing here models repository code. *)
From Coq Require Import Ascii.
From Verif Require Import PyBase BobModel LxModel.
Open Scope string_scope. Set Implicit Arguments. Unset Strict Implicit.

(** a category with a named atom and a named or absent feature in each leaf and slashes for directions *)
Fixpoint proper (features : list string) (c : cat) : Prop :=
  match c with
  | At a f _ _ => a <> ANone /\ (f = "" \/ In f features)
  | Sl d r x _ _ _ => (d = "/"%char \/ d = "\"%char) /\ proper features r /\ proper features x
  end.
(** all variables below [n] *)
Fixpoint vars_below (n : nat) (c : cat) : Prop := (c_var c < n)%nat /\ match c with At _ _ _ _ => True | Sl _ r x _ _ _ => vars_below n r /\ vars_below n x end.
(** the category without variables, relations and dependency variables *)
Fixpoint bare (c : cat) : cat := match c with At a f _ _ => At a f 0 None | Sl d r x _ _ _ => Sl d (bare r) (bare x) 0 None 0 end.
(** number of arguments of a category *)
Fixpoint arity (c : cat) : nat := match c with At _ _ _ _ => 0 | Sl _ r _ _ _ _ => S (arity r) end.
(** every relation of [c] renamed to the slot [n] of [w] *)
Definition slot_of (w : string) (n : nat) (r : relation) : relation := match r with Some _ => Some (w, n) | None => None end.
Fixpoint all_slots (w : string) (n : nat) (c : cat) : cat :=
  match c with At a f v rel => At a f v (slot_of w n rel) | Sl d r x v rel _ => Sl d (all_slots w n r) (all_slots w n x) v (slot_of w n rel) 0 end.
(** relations numbered by the argument they are in: the [n]-th argument of [c], counted from its head, holds slot [n] *)
Fixpoint number (w : string) (c : cat) : cat :=
  match c with
  | At a f v rel => At a f v (slot_of w 0 rel)
  | Sl d r x v rel _ => Sl d (number w r) (all_slots w (S (arity r)) x) v (slot_of w (S (arity r)) rel) 0
  end.
Definition with_dep (tr : nat) (c : cat) : cat := match c with At _ _ _ _ => c | Sl d r x v rel _ => Sl d r x v rel tr end.
(** a variable or a relation is shown after the category *)
Definition marked (c : cat) : bool := negb (c_var c =? 0)%nat || match c_rel c with Some _ => true | None => false end.
(** the text of the category ends in a mark *)
Fixpoint tail_marked (c : cat) : bool := marked c || match c with At _ _ _ _ => false | Sl _ _ x _ _ _ => tail_marked x end.
(** every complex part without marks of its own has no mark at its right end *)
Definition part_ok (c : cat) : Prop := match c with At _ _ _ _ => True | Sl _ _ _ _ _ _ => marked c = true \/ tail_marked c = false end.
Fixpoint readable (c : cat) : Prop := match c with At _ _ _ _ => True | Sl _ r x _ _ _ => part_ok r /\ part_ok x /\ readable r /\ readable x end.
(** a category whose atoms are named and whose features are absent or known; one whose directions are slashes *)
Fixpoint known (c : cat) : Prop :=
  match c with
  | At a f _ _ => a <> ANone /\ (f = "" \/ In f FEATURES)
  | Sl _ r x _ _ _ => known r /\ known x
  end.
Fixpoint slashes (c : cat) : Prop := match c with At _ _ _ _ => True | Sl d r x _ _ _ => (d = "/"%char \/ d = "\"%char) /\ slashes r /\ slashes x end.
Definition parse_exn (e : exn) : Prop := e = IndexError \/ e = AssertionError \/ e = ValueError \/ e = KeyError.
(** reading without a dictionary *)
Definition parse_once (s dep : string) : res cat := do var <- parse_variable_id (unstr dep); parse_new s var.
(** the results of a sequence of calls, each with the dictionary the previous ones left *)
Fixpoint parse_calls (d : categories) (l : list (string * string)) : list (res cat) :=
  match l with [] => [] | (s, dep) :: l' => snd (parse d s dep) :: parse_calls (fst (parse d s dep)) l' end.
