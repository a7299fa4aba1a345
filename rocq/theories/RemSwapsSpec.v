(** Specification vocabulary for [RemoveSwapsRewriter]. *)
From Verif Require Import PyBase TyModel DiagModel DiagSpec.
Set Implicit Arguments. Unset Strict Implicit.

(** pregroup form: words first, side by side, then cups and swaps only *)
Definition pregroup_form (d : diagram) : Prop :=
  dom d = [] /\ exists ws rest, layers d = ws ++ rest /\
    (forall l b r, In (l, b, r) ws -> r = [] /\ exists n c z, b = Word n c z) /\
    (forall l b r, In (l, b, r) rest -> (exists x y rv, b = Cup x y rv) \/ (exists x y, b = Swap x y)).
Definition no_swaps (d : diagram) : Prop := forall l x y r, ~ In (l, Swap x y, r) (layers d).
(** the words of a diagram with the number of their wires, and its cups, in order *)
Definition word_arities (d : diagram) : list (string * nat) :=
  flat_map (fun b => match b with Word n c _ => [(n, List.length c)] | _ => [] end) (boxes d).
Definition cup_boxes (d : diagram) : list box :=
  flat_map (fun b => match b with Cup _ _ _ => [b] | _ => [] end) (boxes d).

(** The pairs of word wires (numbered from the left) joined by the cups, when a swap exchanges
    the types of two wires and leaves the wires in place; [ids] are the open wires. *)
Fixpoint joined (ids : list nat) (ls : list layer) : list (nat * nat) :=
  match ls with
  | (l, Cup _ _ _, _) :: ls' =>
      let k := List.length l in
      (nth k ids 0, nth (S k) ids 0) :: joined (firstn k ids ++ skipn (k + 2) ids) ls'
  | _ :: ls' => joined ids ls'
  | [] => []
  end.
Definition wires (d : diagram) : list nat :=
  seq 0 (fold_right Nat.add 0 (map snd (word_arities d))).
(** no cup joins two wires of one word *)
Definition no_detached_cup (d : diagram) : Prop :=
  forall l n c z r p q, In (l, Word n c z, r) (layers d) -> In (p, q) (joined (wires d) (layers d)) ->
    ~ (List.length l <= p < List.length l + List.length c /\ List.length l <= q < List.length l + List.length c).
