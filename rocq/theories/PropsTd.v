(** Properties of the conversion of pregroup trees to diagrams (C68). *)
From Coq Require Import Sorted.
From Verif Require Import PyBase TyModel DiagModel DiagSpec DiagMisc TreeModel TreeSpec TdModel TdSpec TdPlanar TdGen.
Open Scope string_scope. Set Implicit Arguments. Unset Strict Implicit.

(** What is missing from the full statement: trees whose arcs cross (see the refutation below) and trees with a node of type s.r @ n.r.r, where the parts of one word change places.
    Every token of a planar tree gets a box whose type is made of its own type and the adjoints of the types of its dependents, the nearest links outermost on the left and so on; only cups follow;
    they join each head to each dependent, wire to mirror-image wire; the root's own wires are what remains. *)
Theorem C68_planar_partial : forall (root : node) (tokens : list string), tidy (List.length tokens) root -> planar root -> (forall m, In m (subtrees root) -> n_typ m <> [("s", 1%Z); ("n", 2%Z)]) ->
  exists wc d ls ps, List.length wc = List.length tokens /\ (forall i, (i < List.length tokens)%nat -> word_links root (Z.of_nat i) (nth i wc [])) /\
    tree2diagram root tokens false = Ok d /\ typed d [] (n_typ root) /\ layers d = (word_layers [] (combine tokens (map (fun l => List.concat (map snd l)) wc)) ++ ls)%list /\ Forall (fun x => exists a b, l_box x = Cup a b false) ls /\
    joins ls (wires wc) = (ps, part_wires (n_ind root) ((-1)%Z, n_typ root)) /\ Permutation ps (List.concat (map arc_pairs (arcs root))).
Proof. intros root tokens Td Pl Na. destruct (planar_ok Td Pl Na) as (wc & d & ls & ps & H1 & H2 & H3 & H4 & H5 & H6). rewrite words_combine in H5. exists wc, d, ls, ps. tauto. Qed.
Print Assumptions C68_planar_partial.

(** Whatever the tree: a diagram that is returned is well typed, starts with one word box per token, in order, whose types are made of the token's links, and goes on with cups and swaps only. *)
Theorem C68_any_result : forall (root : node) (tokens : list string) (no_morphisms : bool) (d : diagram), tree2diagram root tokens no_morphisms = Ok d ->
  exists wc ls, List.length wc = List.length tokens /\ (tidy (List.length tokens) root -> forall i, (i < List.length tokens)%nat -> Permutation (nth i wc []) (links root (Z.of_nat i))) /\
    wf d /\ dom d = [] /\ layers d = (word_layers [] (combine tokens (map (fun l => List.concat (map snd l)) wc)) ++ ls)%list /\ Forall (fun x => (exists a b rv, l_box x = Cup a b rv) \/ (exists a b, l_box x = Swap a b)) ls /\ is_pregroup d = true.
Proof. intros root tokens b d E. destruct (any_ok E) as (wc & ls & H1 & H2 & H3 & H4 & H5 & H6). rewrite words_combine in H5. exists wc, ls. tauto. Qed.
Print Assumptions C68_any_result.

(** The general statement fails: a tree over five tokens whose arcs cross is refused. *)
Definition crossing5 : node := let t n := [(n, 0%Z)] in
  Node "w2" 2 (t "c") None [Node "w0" 0 (t "a") None [Node "w3" 3 (t "d") None [Node "w1" 1 (t "b") None [Node "w4" 4 (t "e") None []]]]].
Theorem C68_crossing_refuted : exists (root : node) (tokens : list string), tidy (List.length tokens) root /\ (forall i, In i (map Z.of_nat (seq 0 (List.length tokens))) -> In i (inds root)) /\ tree2diagram root tokens false = Err ValueError.
Proof.
  exists crossing5, ["v"; "w"; "x"; "y"; "z"]. split; [split|split].
  - cbn. repeat (constructor; [cbn; intuition discriminate|]). constructor.
  - cbn. intros i [<-|[<-|[<-|[<-|[<-|[]]]]]]; split; vm_compute; congruence.
  - cbn. intuition.
  - vm_compute. reflexivity.
Qed.
Print Assumptions C68_crossing_refuted.

(** Worse, crossing arcs may be joined wrongly without any error: over six tokens of type n, a diagram is returned in which the first word's argument wire is joined to the third word although the tree links it to the fourth. *)
Definition crossing6 : node := let n := [("n", 0%Z)] in
  Node "w0" 0 n None [Node "w3" 3 n None [Node "w4" 4 n None [Node "w1" 1 n None [Node "w5" 5 n None [Node "w2" 2 n None []]]]]].
Theorem C68_crossing_wrong_refuted : exists (root : node) (tokens : list string) wc d ps rem, tidy (List.length tokens) root /\ tree2diagram root tokens false = Ok d /\ wf d /\
  List.length wc = List.length tokens /\ (forall i, (i < List.length tokens)%nat -> Permutation (nth i wc []) (links root (Z.of_nat i))) /\ map l_box (firstn (List.length tokens) (layers d)) = map (fun '(w, l) => Word w (List.concat (map snd l)) 0) (combine tokens wc) /\
  joins (skipn (List.length tokens) (layers d)) (wires wc) = (ps, rem) /\ In ((0, 3, 0%nat), (2, 5, 0%nat))%Z ps /\ forall x, In x (List.concat (map arc_pairs (arcs root))) -> fst (fst (fst x)) = 0%Z -> fst (fst (snd x)) = 3%Z.
Proof.
  set (toks := ["w0"; "w1"; "w2"; "w3"; "w4"; "w5"]).
  assert (Td : tidy 6 crossing6). { split; [cbn; repeat (constructor; [cbn; intuition discriminate|]); constructor|]. cbn. intros i H. repeat (destruct H as [<-|H]; [split; vm_compute; congruence|]). destruct H. }
  destruct (tree2diagram crossing6 toks false) as [d|] eqn:Ed; [|vm_compute in Ed; discriminate].
  pose (wc := match components crossing6 6 with Ok (wc, _) => wc | Err _ => [] end).
  exists crossing6, toks, wc, d, (fst (joins (skipn 6 (layers d)) (wires wc))), (snd (joins (skipn 6 (layers d)) (wires wc))).
  split; [exact Td|]. split; [exact Ed|]. split; [destruct (C68_any_result Ed) as (? & ? & ? & ? & W & _); exact W|].
  vm_compute in Ed. injection Ed as <-.
  split; [reflexivity|].
  split. { intros i L. cbn in L. do 6 (destruct i as [|i]; [vm_compute; (reflexivity || apply perm_swap) |]). lia. }
  split; [vm_compute; reflexivity|]. split; [vm_compute; reflexivity|]. split; [vm_compute; tauto|].
  intros x H. vm_compute in H. intuition (subst; vm_compute in *; congruence).
Qed.
Print Assumptions C68_crossing_wrong_refuted.

(** Non-vacuity: "the cat which Alice saw sleeps", a planar tree over six tokens with a compound type; and a crossing tree that is accepted. *)
Definition planar6 : node := let n := ("n", 0%Z) in let s := ("s", 0%Z) in
  Node "sleeps" 5 [s] None [Node "cat" 1 [n] None [Node "the" 0 [n] None []; Node "which" 2 [n; ("n", (-1)%Z)] None [Node "saw" 4 [s] None [Node "Alice" 3 [n] None []]]]].
Definition words6 : list string := ["the"; "cat"; "which"; "Alice"; "saw"; "sleeps"].
Example C68_ex_tidy : tidy 6 planar6.
Proof. split; [cbn; repeat (constructor; [cbn; intuition discriminate|]); constructor|]. cbn. intros i H. repeat (destruct H as [<-|H]; [split; vm_compute; congruence|]). destruct H. Qed.
Example C68_ex_planar : planar planar6.
Proof.
  split; [intros x H | intros x y H H']; cbn in H; try cbn in H'; repeat (destruct H as [<-|H]; [|]); try contradiction; try (vm_compute; intuition discriminate);
  repeat (destruct H' as [<-|H']; [|]); try contradiction; vm_compute; intuition discriminate.
Qed.
Example C68_ex_aux : forall m, In m (subtrees planar6) -> n_typ m <> [("s", 1%Z); ("n", 2%Z)].
Proof. intros m H. cbn in H. repeat (destruct H as [<-|H]; [discriminate|]). destruct H. Qed.
Example C68_ex : match tree2diagram planar6 words6 false with Ok d => (List.length (layers d), cod d) = (12%nat, [("s", 0%Z)]) | Err _ => False end.
Proof. vm_compute. reflexivity. Qed.
Definition crossing3 : node := Node "a" 1 [("s", 0%Z)] None [Node "b" 0 [("n", 0%Z)] None [Node "c" 2 [("m", 0%Z)] None []]].
Example C68_ex_crossing : match tree2diagram crossing3 ["x"; "y"; "z"] false with Ok d => map l_box (layers d) = [Word "x" [("m", (-1)%Z); ("n", 0%Z)] 0; Word "y" [("n", 1%Z); ("s", 0%Z)] 0; Word "z" [("m", 0%Z)] 0; Cup ("n", 0%Z) ("n", 1%Z) false; Swap ("m", (-1)%Z) ("s", 0%Z); Cup ("m", (-1)%Z) ("m", 0%Z) false] | Err _ => False end.
Proof. vm_compute. reflexivity. Qed.
Definition crossing4 : node := let t n := [(n, 0%Z)] in Node "a" 0 (t "s") None [Node "b" 2 (t "n") None [Node "c" 1 (t "m") None [Node "d" 3 (t "p") None []]]].
Example C68_ex_crossing_right : match tree2diagram crossing4 ["x"; "y"; "z"; "w"] false with Ok d => map l_box (skipn 4 (layers d)) = [Cup ("m", 0%Z) ("m", 1%Z) false; Swap ("p", (-1)%Z) ("n", 0%Z); Cup ("n", (-1)%Z) ("n", 0%Z) false; Cup ("p", (-1)%Z) ("p", 0%Z) false] | Err _ => False end.
Proof. vm_compute. reflexivity. Qed.
