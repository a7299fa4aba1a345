(** Property C33: removing swaps. *)
From Verif Require Import PyBase TyModel DiagModel DiagSpec RemSwapsModel RemSwapsSpec RemSwapsFacts.
Local Open Scope string_scope.
Local Open Scope list_scope.

(** Eliminating the swaps by exchanging the types of the words always succeeds on a pregroup diagram, keeps the
    codomain, the words with their arities, the cups, and which word wires each cup joins. *)
Theorem C33_swap_elimination : forall d, wf d -> pregroup_form d ->
  exists e, swapped d = Ok e /\ typed e [] (cod d) /\ pregroup_form e /\ no_swaps e /\ word_arities e = word_arities d /\
    cup_boxes e = cup_boxes d /\ joined (wires d) (layers e) = joined (wires d) (layers d).
Proof. exact swapped_ok. Qed.
Print Assumptions C33_swap_elimination.

(** Whatever the rewriter returns on a pregroup diagram is a well-typed pregroup diagram without swaps, and its cups
    are cups of the input.  Missing from C33: the codomain (refuted below). *)
Theorem C33_returned_diagrams_partial : forall d e, wf d -> pregroup_form d -> remove_swaps d = Ok e ->
  wf e /\ dom e = [] /\ pregroup_form e /\ no_swaps e /\ (forall b, In b (cup_boxes e) -> In b (cup_boxes d)).
Proof. exact remove_swaps_sound. Qed.
Print Assumptions C33_returned_diagrams_partial.

(** On a pregroup diagram where no cup joins two wires of the same word, the rewriter returns, with the same codomain. *)
Theorem C33_no_detached_cups_partial : forall d, wf d -> pregroup_form d -> no_detached_cup d ->
  exists e, remove_swaps d = Ok e /\ typed e [] (cod d) /\ pregroup_form e /\ no_swaps e /\ word_arities e = word_arities d /\ cup_boxes e = cup_boxes d.
Proof. exact remove_swaps_ok. Qed.
Print Assumptions C33_no_detached_cups_partial.

Definition rs_at (s : string) (z : Z) : atom := (s, z).
Notation aa := (rs_at "a" 0). Notation aar := (rs_at "a" 1). Notation bb := (rs_at "b" 0). Notation bbr := (rs_at "b" 1). Notation ss := (rs_at "s" 0).
(** With two detached cups side by side in one word the codomain changes from [s] to [b @ b.r]. *)
Theorem C33_codomain_refuted : exists d e, wf d /\ pregroup_form d /\ remove_swaps d = Ok e /\ cod d = [ss] /\ cod e = [bb; bbr].
Proof.
  exists (Diag [] [ss] [([], Word "w" [aa; aar; bb; bbr; ss] 0, []); ([], Cup aa aar false, [bb; bbr; ss]); ([], Cup bb bbr false, [ss])]).
  eexists. split; [repeat split|]. split; [apply pregroup_is; reflexivity|]. split; [vm_compute; reflexivity|]. split; reflexivity.
Qed.
Print Assumptions C33_codomain_refuted.

(** It raises IndexError, not ValueError, when the last word is eliminated, and when a detached cup comes late. *)
Theorem C33_index_error_refuted : exists d1 d2, wf d1 /\ pregroup_form d1 /\ remove_swaps d1 = Err IndexError /\
  wf d2 /\ pregroup_form d2 /\ remove_swaps d2 = Err IndexError.
Proof.
  exists (Diag [] [ss] [([], Word "v" [ss] 0, []); ([ss], Word "w" [aa; aar] 0, []); ([ss], Cup aa aar false, [])]).
  exists (Diag [] [ss] [([], Word "u" [ss; aa; aar; aa; aar] 0, []); ([ss; aa; aar; aa; aar], Word "v" [bb] 0, []);
    ([ss; aa; aar; aa; aar; bb], Word "w" [bbr] 0, []); ([ss; aa; aar], Cup aa aar false, [bb; bbr]);
    ([ss; aa; aar], Cup bb bbr false, []); ([ss], Cup aa aar false, [])]).
  split; [repeat split|]. split; [apply pregroup_is; reflexivity|]. split; [vm_compute; reflexivity|].
  split; [repeat split|]. split; [apply pregroup_is; reflexivity|vm_compute; reflexivity].
Qed.
Print Assumptions C33_index_error_refuted.

(** non-vacuity: a swap between two words *)
Example C33_instance :
  let d := Diag [] [ss] [([], Word "u" [aa] 0, []); ([aa], Word "v" [ss; aar] 0, []); ([aa], Swap ss aar, []); ([], Cup aa aar false, [ss])] in
  wf d /\ pregroup_form d /\ no_detached_cup d /\
  remove_swaps d = Ok (Diag [] [ss] [([], Word "u" [aa] 0, []); ([aa], Word "v" [aar; ss] 0, []); ([], Cup aa aar false, [ss])]).
Proof.
  cbn zeta. split; [repeat split|]. split; [apply pregroup_is; reflexivity|]. split; [|vm_compute; reflexivity].
  intros l n c z r p q I J [H1 H2]. cbn in I, J.
  destruct J as [[= <- <-]|[]]. destruct I as [[= <- <- <- <- <-]|[[= <- <- <- <- <-]|[I|[I|[]]]]]; try discriminate; cbn in *; lia.
Qed.
