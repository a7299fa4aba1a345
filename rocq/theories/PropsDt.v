(** Properties of the conversion of pregroup diagrams to trees (C79). *)
From Coq Require Import Sorted.
From Verif Require Import PyBase TyModel DiagModel DiagSpec DiagMisc TreeModel TreeSpec TreeRew TdModel TdSpec TdPlanar TdGen DtModel DtRead DtTrip.
Open Scope string_scope. Set Implicit Arguments. Unset Strict Implicit.

(** What a diagram must be like to show the tree: one word box per token whose type is made of the token's links in the tree, then cups and swaps that join each head to each dependent, wire to mirror-image wire, and leave the root's own wires open. *)
Definition shows (d : diagram) (root : node) (tokens : list string) : Prop := exists wc ls ps,
  List.length wc = List.length tokens /\ (forall i, (i < List.length tokens)%nat -> word_links root (Z.of_nat i) (nth i wc [])) /\ wf d /\ dom d = [] /\
  layers d = (word_layers [] (combine tokens (map (fun l => List.concat (map snd l)) wc)) ++ ls)%list /\ Forall (fun x => (exists a b rv, l_box x = Cup a b rv) \/ (exists a b, l_box x = Swap a b)) ls /\
  joins ls (wires wc) = (ps, part_wires (n_ind root) ((-1)%Z, n_typ root)) /\ Permutation ps (List.concat (map arc_pairs (arcs root))) /\ (ls <> [] \/ List.length tokens = 1%nat).
(** the tree fits the tokens: right words, and no empty types *)
Definition fits (root : node) (tokens : list string) : Prop := tidy (List.length tokens) root /\ linked None root /\ forall m, In m (subtrees root) -> n_typ m <> [] /\ nth_error tokens (Z.to_nat (n_ind m)) = Some (n_word m).

(** Reading such a diagram gives the tree, children in order, whether or not the arcs cross. *)
Theorem C79_read_tree : forall (root : node) (tokens : list string) (d : diagram), fits root tokens -> shows d root tokens -> diagram2tree d = Ok (canon root).
Proof.
  intros root tokens d (Td & Lk & Nd) (wc & ls & ps & H1 & H2 & H3 & H4 & H5 & H6 & H7 & H8 & H9). rewrite <- words_combine in H5. apply (connected_ok (ls := ls) (ps := ps) Td Lk Nd H1 H2 H3 H4 H5); auto.
  eapply Forall_impl; [|exact H6]. intros x [(a & b & rv & E) | (a & b & E)]; rewrite E; exact I.
Qed.
Print Assumptions C79_read_tree.

(** What is missing from the full statement: trees whose arcs cross or that use the auxiliary type, where the conversion to a diagram itself may fail (C68); the other hypotheses are needed, see the refutations.
    A planar tree converted to a diagram and back is unchanged (as [==] compares trees). *)
Theorem C79_round_trip_partial : forall (root : node) (tokens : list string), fits root tokens -> planar root -> (forall m, In m (subtrees root) -> n_typ m <> [("s", 1%Z); ("n", 2%Z)]) -> (n_children root <> [] \/ List.length tokens = 1%nat) ->
  exists d back, tree2diagram root tokens false = Ok d /\ diagram2tree d = Ok back /\ node_eq back root = true.
Proof.
  intros root tokens F Pl Na Sm. destruct F as (Td & Lk & Nd). destruct (planar_ok Td Pl Na) as (wc & d & ls & ps & H1 & H2 & H3 & (Wf & Dd & _) & H5 & H6 & H7 & H8). rewrite words_combine in H5.
  exists d, (canon root). split; [exact H3|]. split; [|apply node_eq_canon, canon_idem]. apply (C79_read_tree (tokens := tokens)); [split; [exact Td | split; [exact Lk | exact Nd]]|].
  exists wc, ls, ps. split; [exact H1|]. split; [exact H2|]. split; [exact Wf|]. split; [exact Dd|]. split; [exact H5|]. split; [eapply Forall_impl; [|exact H6]; intros x (a & b & E); left; exists a, b, false; exact E|]. split; [exact H7|]. split; [exact H8|].
  destruct Sm as [Sm|Sm]; [left | now right]. intros ->. cbn [joins] in H7. injection H7 as <- _. apply Permutation_nil in H8. assert (X := arcs_le (fun m H => proj1 (Nd m H)) (l := arcs root) (fun x H => H)). rewrite H8 in X. rewrite TdPairs.arcs_eta in X. destruct (n_children root); [congruence | cbn in X; lia].
Qed.
Print Assumptions C79_round_trip_partial.

(** Without the hypotheses on types and tokens: a dependent with an empty type disappears; a root with an empty type loses its place; a tree of one node among several tokens is refused. *)
Theorem C79_empty_type_refuted : exists (root : node) (tokens : list string) d back, tidy (List.length tokens) root /\ linked None root /\ planar root /\ n_typ root <> [] /\ tree2diagram root tokens false = Ok d /\ diagram2tree d = Ok back /\ List.length (subtrees back) = 2%nat /\ List.length (subtrees root) = 3%nat.
Proof.
  pose (root := Node "B" 1 [("s", 0%Z)] None [Node "A" 0 [] (Some 1%Z) []; Node "C" 2 [("n", 0%Z)] (Some 1%Z) []]).
  destruct (tree2diagram root ["A"; "B"; "C"] false) as [d|] eqn:Ed; [|vm_compute in Ed; discriminate]. vm_compute in Ed. injection Ed as <-. exists root, ["A"; "B"; "C"]. eexists. eexists.
  split. { split; [cbn; repeat (constructor; [cbn; intuition discriminate|]); constructor|]. cbn. intros i H. repeat (destruct H as [<-|H]; [split; vm_compute; congruence|]). destruct H. }
  split. { repeat constructor. }
  split. { split; [intros x H | intros x y H H']; cbn in H; try cbn in H'; repeat (destruct H as [<-|H]; [|]); try contradiction; try (vm_compute; intuition discriminate); repeat (destruct H' as [<-|H']; [|]); try contradiction; vm_compute; intuition discriminate. }
  split; [discriminate|]. split; [vm_compute; reflexivity|]. split; [vm_compute; reflexivity|]. split; vm_compute; reflexivity.
Qed.
Print Assumptions C79_empty_type_refuted.
Theorem C79_empty_root_refuted : exists (root : node) (tokens : list string) d back, tree2diagram root tokens false = Ok d /\ diagram2tree d = Ok back /\ n_ind back <> n_ind root /\ tidy (List.length tokens) root /\ linked None root.
Proof.
  exists (Node "B" 1 [] None [Node "A" 0 [("n", 0%Z)] (Some 1%Z) []]), ["A"; "B"]. eexists. eexists. split; [vm_compute; reflexivity|]. split; [vm_compute; reflexivity|]. split; [discriminate|].
  split; [|repeat constructor]. split; [cbn; repeat (constructor; [cbn; intuition discriminate|]); constructor|]. cbn. intros i H. repeat (destruct H as [<-|H]; [split; vm_compute; congruence|]). destruct H.
Qed.
Print Assumptions C79_empty_root_refuted.

(** Non-vacuity: a planar tree over six tokens, there and back; a crossing tree is read back too; and a diagram with a cap. *)
Definition trip6 : node := let n := ("n", 0%Z) in let s := ("s", 0%Z) in
  Node "sleeps" 5 [s] None [Node "cat" 1 [n] (Some 5%Z) [Node "which" 2 [n; ("n", (-1)%Z)] (Some 1%Z) [Node "saw" 4 [s] (Some 2%Z) [Node "Alice" 3 [n] (Some 4%Z) []]]; Node "the" 0 [n] (Some 1%Z) []]].
Definition words_trip6 : list string := ["the"; "cat"; "which"; "Alice"; "saw"; "sleeps"].
Example C79_ex_fits : fits trip6 words_trip6.
Proof.
  split; [|split; [repeat constructor|]].
  - split; [cbn; repeat (constructor; [cbn; intuition discriminate|]); constructor|]. cbn. intros i H. repeat (destruct H as [<-|H]; [split; vm_compute; congruence|]). destruct H.
  - intros m H. cbn in H. repeat (destruct H as [<-|H]; [split; [discriminate | vm_compute; reflexivity]|]). destruct H.
Qed.
Example C79_ex_planar : planar trip6.
Proof.
  split; [intros x H | intros x y H H']; cbn in H; try cbn in H'; repeat (destruct H as [<-|H]; [|]); try contradiction; try (vm_compute; intuition discriminate);
  repeat (destruct H' as [<-|H']; [|]); try contradiction; vm_compute; intuition discriminate.
Qed.
Example C79_ex : match tree2diagram trip6 words_trip6 false with Ok d => match diagram2tree d with Ok back => back = canon trip6 /\ back <> trip6 | Err _ => False end | Err _ => False end.
Proof. vm_compute. split; [reflexivity | intros H; injection H as H; discriminate]. Qed.
Definition trip_crossing : node := Node "x" 0 [("s", 0%Z)] None [Node "z" 2 [("n", 0%Z)] (Some 0%Z) [Node "y" 1 [("m", 0%Z)] (Some 2%Z) [Node "w" 3 [("p", 0%Z)] (Some 1%Z) []]]].
Example C79_ex_crossing : match tree2diagram trip_crossing ["x"; "y"; "z"; "w"] false with Ok d => diagram2tree d = Ok trip_crossing | Err _ => False end.
Proof. vm_compute. reflexivity. Qed.
Example C79_ex_lone : match tree2diagram (Node "x" 0 [("s", 0%Z)] None []) ["x"; "y"] false with Ok d => diagram2tree d = Err AssertionError | Err _ => False end.
Proof. vm_compute. reflexivity. Qed.
