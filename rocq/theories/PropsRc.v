(** C100: breaking cycles in pregroup trees. *)
From Coq Require Import ZArith.
From Verif Require Import PyBase TyModel TreeModel TreeSpec TreeFacts TreeRew RcModel RcSpec RcFacts.
Close Scope string_scope.

(** the lists that are gone through are those of [get_nodes] *)
Theorem C100_nodes : forall n, (forall m, In m (subtrees n) -> (0 <= n_ind m)%Z) -> get_nodes n = Ok (map (map snd) (groups n)).
Proof. intros n Hn. destruct (get_lists_ok Hn) as (is & Hi & _ & H & _). rewrite H. f_equal. symmetry. exact (groups_of_indices Hn Hi). Qed.
Print Assumptions C100_nodes.
(** [no_gaps]: no word is missing below that of the root.  Then the function raises AssertionError if the word of the root occurs a second time, and succeeds otherwise *)
Theorem C100_raises : forall n, no_gaps n -> (lone_root n -> exists t, remove_cycles n = Ok t) /\ (~ lone_root n -> remove_cycles n = Err AssertionError).
Proof. intros n Hn. split; [intros Hl; eexists; apply ok_remove; [exact Hn | apply lone_group; exact Hl] | apply assertion; exact Hn]. Qed.
Print Assumptions C100_raises.
(** When it succeeds, no word has two nodes; every node that is left has the ancestors it had, in the order they had, and right parent attributes.
    This asks nothing of the nodes that are removed. *)
Theorem C100_unique : forall n t, no_gaps n -> remove_cycles n = Ok t ->
  NoDup (inds t) /\ kept (fun _ => True) (paths n) (paths t) /\ (forall p, linked p n -> linked p t).
Proof. intros n t Hn H. split; [exact (unique_inds Hn H) | split; [exact (some_kept Hn H) | intros p; exact (cycles_linked Hn H)]]. Qed.
Print Assumptions C100_unique.
(** After the self cycles are removed, let every node be a leaf that is not the first of the deepest nodes of its word.
    Then those nodes, and no others, are left, with the ancestors they had. *)
Theorem C100_deepest : forall n, no_gaps n -> lone_root n -> copies_are_leaves (remove_self_cycles n) ->
  exists t, remove_cycles n = Ok t /\ paths t = deepest_paths (remove_self_cycles n) /\ (forall i, In i (inds t) <-> In i (inds (remove_self_cycles n))).
Proof. intros n Hn Hl Hc. destruct (deepest_ok Hn Hl Hc) as (t & H & E). exists t. split; [exact H | split; [exact E | exact (deepest_inds E)]]. Qed.
Print Assumptions C100_deepest.

Definition cat_sat : node := mk "sat" 1 [a_s] None
  [mk "cat" 0 [a_n] None []; mk "who" 2 [a_n] None [mk "cat" 0 [a_n] None []; mk "ran" 3 [a_s] None [mk "cat" 0 [a_n] None []; mk "ran" 3 [a_n] None []; mk "and" 4 [a_n] None []]; mk "and" 4 [a_n] None []]].
(** the conditions hold of a tree with words that occur three times and a self cycle *)
Example C100_conditions : no_gaps cat_sat /\ lone_root cat_sat /\ copies_are_leaves (remove_self_cycles cat_sat).
Proof.
  split; [|split].
  - split; [apply Forall_forall; repeat constructor; cbv; discriminate|]. intros i Hi. replace i with 0%Z by (cbn in Hi; lia). cbn. auto.
  - intros k m H E. do 10 (destruct k as [|k]; [first [reflexivity | discriminate H | cbn in H; injection H as <-; discriminate E]|]). destruct k; discriminate H.
  - intros k l m Hl Hm. do 10 (destruct k as [|k]; [first [discriminate Hl | cbn in Hl, Hm; injection Hl as <-; injection Hm as <-; vm_compute; (reflexivity || discriminate)]|]). destruct k; discriminate Hl.
Qed.
Example C100_broken : remove_cycles cat_sat = Ok (mk "sat" 1 [a_s] None [mk "who" 2 [a_n] None [mk "ran" 3 [a_s] None [mk "cat" 0 [a_n] None []; mk "and" 4 [a_n] None []]]]).
Proof. vm_compute. reflexivity. Qed.

(** The docstring says that duplicate nodes are always leaves.  If the copy that is not retained is not, the words below it are lost: here the word [x] *)
Theorem C100_words_refuted : exists n t, no_gaps n /\ lone_root n /\ linked None n /\ remove_self_cycles n = n /\ remove_cycles n = Ok t /\ In 3%Z (inds n) /\ ~ In 3%Z (inds t).
Proof.
  exists (mk "s" 0 [a_s] None [mk "a" 1 [a_n] None [mk "x" 3 [a_n] None []]; mk "b" 2 [a_n] None [mk "a" 1 [a_n] None []]]). eexists.
  split; [split; [apply Forall_forall; repeat constructor; cbv; discriminate | intros i Hi; cbn in Hi; lia]|].
  split; [intros k m H E; do 6 (destruct k as [|k]; [first [reflexivity | discriminate H | cbn in H; injection H as <-; discriminate E]|]); destruct k; discriminate H|].
  split; [repeat constructor|]. split; [reflexivity|]. split; [vm_compute; reflexivity|]. split; [cbn; auto|]. cbn. intuition discriminate.
Qed.
Print Assumptions C100_words_refuted.
(** the assertion comes before the self cycles are removed: a root with a self cycle, which would be left with no duplicates, is rejected *)
Theorem C100_self_cycle_refuted : exists n, no_gaps n /\ NoDup (inds (remove_self_cycles n)) /\ remove_cycles n = Err AssertionError.
Proof.
  exists (mk "x" 0 [a_s] None [mk "x" 0 [a_n] None []]). split; [split; [apply Forall_forall; repeat constructor; cbv; discriminate | intros i Hi; cbn in Hi; lia]|].
  split; [cbn; repeat constructor; intros []|reflexivity].
Qed.
Print Assumptions C100_self_cycle_refuted.
(** the index of the root is used as a number of a list of [get_nodes], which has none for words that are missing: IndexError, or the node of another word is taken for the root *)
Theorem C100_missing_words_refuted : (exists n, lone_root n /\ NoDup (inds n) /\ remove_cycles n = Err IndexError) /\
  exists n t, lone_root n /\ copies_are_leaves (remove_self_cycles n) /\ remove_cycles n = Ok t /\ paths t <> deepest_paths (remove_self_cycles n).
Proof.
  split.
  - exists (mk "x" 1 [a_s] None []). split; [|split; [cbn; repeat constructor; intros []|reflexivity]].
    intros k m H E. destruct k as [|k]; [reflexivity|]. destruct k; discriminate H.
  - exists (mk "x" 2 [a_s] None [mk "y" 3 [a_n] None []; mk "w" 5 [a_n] None [mk "y" 3 [a_n] None []]; mk "z" 4 [a_n] None []]). eexists.
    split; [intros k m H E; do 5 (destruct k as [|k]; [first [reflexivity | discriminate H | cbn in H; injection H as <-; discriminate E]|]); destruct k; discriminate H|].
    split; [intros k l m Hl Hm; do 5 (destruct k as [|k]; [cbn in Hl, Hm; injection Hl as <-; injection Hm as <-; vm_compute; (reflexivity || discriminate)|]); destruct k; discriminate Hl|].
    split; [vm_compute; reflexivity|]. vm_compute. discriminate.
Qed.
Print Assumptions C100_missing_words_refuted.
