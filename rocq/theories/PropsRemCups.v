(** Property C32: removing cups. *)
From Coq Require Import Permutation.
From Verif Require Import PyBase TyModel DiagModel DiagSpec RemCupsModel RemCupsSpec RemCupsFacts Cat CatRel TurnSpec RemCupsDen CatRelTurn.
Local Open Scope string_scope.
Local Open Scope list_scope.

(** C32 (part). The first pass of the rewriter is total on every well-formed diagram that does not use the reserved
    box name; it keeps the interface and the multiset of words and never adds a cup or a cap. *)
Theorem C32_first_pass : forall d, wf d -> Forall unreserved (boxes d) ->
  exists a, remove_cups_once d = Ok a /\ typed a (dom d) (cod d) /\ Permutation (words a) (words d) /\ bends a <= bends d /\ Forall unreserved (boxes a).
Proof. exact first_pass. Qed.
Print Assumptions C32_first_pass.

(** C32 (part). Whenever the rewriter returns, its result is well typed with the same interface, has the same words
    and no more cups and caps. Missing from the full property: that it always returns (refuted below). *)
Theorem C32_interface_partial : forall d e, wf d -> Forall unreserved (boxes d) -> remove_cups d = Ok e ->
  typed e (dom d) (cod d) /\ Permutation (words e) (words d) /\ bends e <= bends d.
Proof. exact remove_cups_sound. Qed.
Print Assumptions C32_interface_partial.

(** C32 (part). Whenever the rewriter returns, its result denotes the same morphism as the diagram it was given, in
    every monoidal category and every interpretation in which a box that was daggered and rotated denotes the box
    with its wires bent round the cups. *)
Theorem C32_denotation : forall (C : smc) (I : interp C) d e, turns I -> wf d -> Forall unreserved (boxes d) ->
  remove_cups d = Ok e -> heq C (den I e) (den I d).
Proof. intros C I d e T. exact (@remove_cups_den C I T d e). Qed.
Print Assumptions C32_denotation.

(** C32 (part). The same for the first pass alone, which always returns. *)
Theorem C32_first_pass_denotation : forall (C : smc) (I : interp C) d a, turns I -> wf d -> Forall unreserved (boxes d) ->
  remove_cups_once d = Ok a -> heq C (den I a) (den I d).
Proof. intros C I d a T. exact (@first_pass_den C I T d a). Qed.
Print Assumptions C32_first_pass_denotation.

(** C32 (part). The rewriter returns when the first pass leaves no cup directly around another. *)
Theorem C32_total_partial : forall d, wf d -> Forall unreserved (boxes d) ->
  (forall a, remove_cups_once d = Ok a -> no_nested_cups (layers a)) -> exists e, remove_cups d = Ok e.
Proof. exact remove_cups_total. Qed.
Print Assumptions C32_total_partial.

Definition rc_a : atom := ("a", 0%Z).
Definition rc_b : atom := ("b", 0%Z).
Definition rc_ar : atom := ("a", 1%Z).
Definition rc_br : atom := ("b", 1%Z).
Definition rc_x : atom := ("x", 0%Z).
Definition rc_y : atom := ("y", 0%Z).
Definition rc_nested : diagram :=
  Diag [] [rc_x; rc_y]
    [([], Word "u" [rc_x; rc_a] 0, []); ([rc_x; rc_a], Word "v" [rc_b; rc_br; rc_ar; rc_y] 0, []);
     ([rc_x; rc_a], Cup rc_b rc_br false, [rc_ar; rc_y]); ([rc_x], Cup rc_a rc_ar false, [rc_y])].
(** C32 is false as stated: a well-typed diagram on which the rewriter raises instead of returning. *)
Theorem C32_nested_cups_refuted : exists d, wf d /\ Forall unreserved (boxes d) /\ remove_cups d = Err ValueError.
Proof.
  exists rc_nested. split; [|split].
  - repeat split; reflexivity.
  - repeat constructor; cbn; try discriminate; auto.
  - vm_compute. reflexivity.
Qed.
Print Assumptions C32_nested_cups_refuted.

(** non-vacuity: "Alice runs": the rewriter removes the only cup *)
Definition rc_n : atom := ("n", 0%Z).
Definition rc_nr : atom := ("n", 1%Z).
Definition rc_s : atom := ("s", 0%Z).
Definition rc_sentence : diagram :=
  Diag [] [rc_s] [([], Word "Alice" [rc_n] 0, []); ([rc_n], Word "runs" [rc_nr; rc_s] 0, []); ([], Cup rc_n rc_nr false, [rc_s])].
Example C32_instance : wf rc_sentence /\ Forall unreserved (boxes rc_sentence) /\
  (forall a, remove_cups_once rc_sentence = Ok a -> no_nested_cups (layers a)) /\
  exists e, remove_cups rc_sentence = Ok e /\ bends e = 0 /\ bends rc_sentence = 1 /\
    words e = [("runs", [rc_nr; rc_s]); ("Alice", [rc_n])].
Proof.
  split; [|split; [|split]].
  - repeat split; reflexivity.
  - repeat constructor; cbn; try discriminate; auto.
  - intros a H. vm_compute in H. injection H as <-. cbn. repeat split; auto. intros [[] _].
  - eexists. vm_compute. repeat split; reflexivity.
Qed.

(** non-vacuity of the semantic hypothesis: whatever relations the words denote, relations with turned boxes read
    backwards satisfy it; in them the sentence below means "some a is Alice and runs relates a to y", and so does
    its rewriting, in which Alice is a daggered, rotated word *)
Example C32_turns_instance : forall (V : Type) (B : string -> list V -> list V -> Prop), turns (RI B) /\
  (forall y, rr (den (RI B) rc_sentence) [] [y] <-> exists a, B "Alice" [] [a] /\ B "runs" [] [a; y]) /\
  exists e, remove_cups rc_sentence = Ok e /\ boxes e = [Word "runs" [rc_nr; rc_s] 0; Dagg (Word "Alice" [rc_nr] 1)] /\
    forall y, rr (den (RI B) e) [] [y] <-> exists a, B "Alice" [] [a] /\ B "runs" [] [a; y].
Proof.
  intros V B. split; [apply RI_turns|].
  assert (H : forall y, rr (den (RI B) rc_sentence) [] [y] <-> exists a, B "Alice" [] [a] /\ B "runs" [] [a; y]).
  { intro y. cbn. split.
    - intros (z & L & _ & (_ & A & _) & z0 & L0 & _ & (E & R & _) & z1 & L1 & _ & (_ & (a & Ea) & Es) & Ey).
      destruct z as [|c [|? ?]]; try discriminate. destruct z0 as [|c0 [|c1 [|c2 [|? ?]]]]; try discriminate.
      injection E as ->. injection Ea as -> ->. subst z1. injection Ey as ->. exists a. split; assumption.
    - intros (a & A & R). exists [a]. repeat split; auto. exists [a; a; y]. repeat split; auto. exists [y]. repeat split; auto. exists a. reflexivity. }
  split; [exact H|]. destruct (remove_cups rc_sentence) as [e|x] eqn:E; [|vm_compute in E; discriminate E]. exists e. split; [reflexivity|].
  assert (D : heq _ (den (RI B) e) (den (RI B) rc_sentence)).
  { apply C32_denotation; [apply RI_turns|repeat split; reflexivity|repeat constructor; cbn; try discriminate; auto|exact E]. }
  vm_compute in E. injection E as <-. split; [reflexivity|]. intro y. rewrite <- H. destruct D as (_ & _ & K). apply (K [] [y]); reflexivity.
Qed.
