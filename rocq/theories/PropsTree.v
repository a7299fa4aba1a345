(** C67, C69: pregroup trees and their rewriting. *)
From Coq Require Import Ascii Permutation Sorted.
From Verif Require Import PyBase TyModel DiagModel TreeModel TreeSpec TreeFacts TreeRew.
Close Scope string_scope.

(** ** C67 *)
(** For word indices that are not negative: [get_nodes] succeeds and groups the nodes of the tree by index, the indices increasing, every node in exactly one group;
    [get_words], [get_word_indices], [get_types] and [get_parents] are the words, indices, types and parents of these groups. *)
Theorem C67_node_lists : forall n, (forall m, In m (subtrees n) -> (0 <= n_ind m)%Z) -> exists is, indices is n /\ Permutation (List.concat (map (fun i => at_index i n) is)) (subtrees n) /\
  get_nodes n = Ok (map (fun i => at_index i n) is) /\ get_word_indices n = Ok is /\ get_words n = Ok (map (fun i => hd EmptyString (map n_word (at_index i n))) is) /\
  get_types n = Ok (map (fun i => map n_typ (at_index i n)) is) /\
  (linked None n -> get_parents n = Ok (map (fun i => map snd (filter (fun mp => (n_ind (fst mp) =? i)%Z) (with_parent (-1) n))) is)).
Proof. exact get_lists_ok. Qed.
Print Assumptions C67_node_lists.
Theorem C67_height : forall n, height n = t_height n.
Proof. exact height_ok. Qed.
Print Assumptions C67_height.
(** two nodes are equal iff they agree after sorting the children everywhere; *)
Theorem C67_eq : forall a b, node_eq a b = true <-> canon a = canon b.
Proof. exact node_eq_canon. Qed.
Print Assumptions C67_eq.
(** so the order of children with different indices does not matter *)
Theorem C67_eq_order : forall w i t p cs cs', NoDup (map n_ind cs) -> Permutation cs cs' -> node_eq (Node w i t p cs) (Node w i t p cs') = true.
Proof. exact node_eq_perm. Qed.
Print Assumptions C67_eq_order.
(** a line of the drawing for each node, with one symbol for each ancestor: a corner or tee before the node itself, a bar below an ancestor that has later siblings *)
Theorem C67_drawing : forall n, tree_repr n = map (fun '(f, x) => (render f, x)) (with_path [] n) /\ map snd (tree_repr n) = map (fun m => (n_word m, n_ind m, n_typ m)) (subtrees n).
Proof. intros n. split; [apply tree_repr_ok|]. rewrite tree_repr_ok, map_map, <- (with_path_tokens n []). apply map_ext. now intros [f x]. Qed.
Print Assumptions C67_drawing.
(** [remove_self_cycles] keeps the nodes to which the path from the root has no two equal tokens in a row, and only those *)
Theorem C67_self_cycles : forall n, paths (remove_self_cycles n) = filter no_repeat (paths n).
Proof. exact remove_self_cycles_ok. Qed.
Print Assumptions C67_self_cycles.
(** [merge] joins a node with its only child when the types agree and the tokens are neighbours, in the order of the sentence; otherwise it changes nothing *)
Theorem C67_merge : forall n,
  (forall c, n_children n = [c] -> n_typ c = n_typ n -> (Z.abs (n_ind n - n_ind c) = 1)%Z ->
     erase (merge n) = Node (if (n_ind n <? n_ind c)%Z then n_word n ++ " " ++ n_word c else n_word c ++ " " ++ n_word n)%string (Z.min (n_ind n) (n_ind c)) (n_typ n) None (map erase (n_children c)) /\
     n_par (merge n) = n_par n /\ ((exists q, linked q n) -> linked (n_par n) (merge n))) /\
  ((forall c, n_children n = [c] -> n_typ c = n_typ n -> (Z.abs (n_ind n - n_ind c) <> 1)%Z) -> merge n = n).
Proof. exact merge_ok. Qed.
Print Assumptions C67_merge.

(** "John gave Mary a flower" *)
Definition t_n : ty := [a_n]. Definition t_s : ty := [a_s].
Definition gave : node := mk "gave" 1 t_s None [mk "John" 0 t_n None []; mk "Mary" 2 t_n None []; mk "a" 3 t_n None [mk "flower" 4 t_n None []]].
Example C67_gave_ok : (forall m, In m (subtrees gave) -> (0 <= n_ind m)%Z) /\ linked None gave.
Proof. split; [intros m; cbn; intuition (subst; cbn; lia) | repeat constructor]. Qed.
Example C67_gave_lists : get_words gave = Ok ["John"; "gave"; "Mary"; "a"; "flower"]%string /\ get_parents gave = Ok [[1]; [-1]; [1]; [1]; [3]]%Z /\ height gave = 3.
Proof. vm_compute. auto. Qed.
Example C67_gave_drawn : tree_repr gave =
  [ ([], ("gave"%string, 1%Z, t_s)); ([Inner], ("John"%string, 0%Z, t_n)); ([Inner], ("Mary"%string, 2%Z, t_n)); ([Last], ("a"%string, 3%Z, t_n)); ([Gap; Last], ("flower"%string, 4%Z, t_n)) ].
Proof. reflexivity. Qed.
Example C67_order_used : node_eq (Node "x" 1 t_s None [mk "a" 0 t_n (Some 1%Z) []; mk "b" 2 t_n (Some 1%Z) []]) (Node "x" 1 t_s None [mk "b" 2 t_n (Some 1%Z) []; mk "a" 0 t_n (Some 1%Z) []]) = true.
Proof. reflexivity. Qed.
Example C67_cycle_removed : remove_self_cycles (mk "x" 1 t_s None [mk "x" 1 t_n None [mk "y" 2 t_n None []]; mk "z" 3 t_n None [mk "x" 1 t_n None []]]) = mk "x" 1 t_s None [mk "z" 3 t_n None [mk "x" 1 t_n None []]].
Proof. reflexivity. Qed.
Example C67_merged : merge (mk "a" 3 t_n None [mk "flower" 4 t_n None []]) = mk "a flower" 3 t_n None [].
Proof. reflexivity. Qed.
(** What fails: the order of two children with the same index (a token that is duplicated to break a cycle) does matter to [==]; *)
Theorem C67_eq_same_index_refuted : exists w i t cs cs', Permutation cs cs' /\ node_eq (mk w i t None cs) (mk w i t None cs') = false.
Proof. exists "x"%string, 1%Z, t_s, [mk "a" 0 t_n None []; mk "a" 0 t_s None []], [mk "a" 0 t_s None []; mk "a" 0 t_n None []]. split; [apply perm_swap | reflexivity]. Qed.
Print Assumptions C67_eq_same_index_refuted.
(** and a negative index counts from the end, so a node can share a group with another word or raise IndexError *)
Theorem C67_negative_index_refuted : (exists n, get_nodes n = Err IndexError) /\ exists n g, get_nodes n = Ok [g] /\ map n_word g = ["b"; "a"]%string /\ map n_ind g = [-1; 0]%Z.
Proof. split; [exists (mk "a" (-1) t_n None []); reflexivity|]. exists (mk "a" 0 t_n None [mk "b" (-1) t_n None []]). eexists. split; [reflexivity | split; reflexivity]. Qed.
Print Assumptions C67_negative_index_refuted.

(** ** C69 *)
(** [TreeRewriteRule.rewrite], apart from parent attributes: below the first node of each maximal chain of matching nodes (one child, of the same type, word and type as the rule asks), the lowest
    [max_depth] matching nodes are joined to the node that ends the chain, the others stay, and the children of the end are rewritten in the same way; nothing else changes. *)
Theorem C69_contraction : forall r n t, contracted r n t <-> t = erase (rewrite r n).
Proof. exact contracted_iff. Qed.
Print Assumptions C69_contraction.
Theorem C69_root_type : forall rs n, n_typ (rewrite_all rs n) = n_typ n.
Proof. intros rs. unfold rewrite_all. induction rs as [|r rs IH]; intros n; [reflexivity|]. cbn. rewrite IH. apply edit_typ. Qed.
Print Assumptions C69_root_type.
(** merge mode: all the words are kept, each node before its descendants *)
Theorem C69_words_merge : forall r n, r_join r = JMerge -> String.concat " " (words (rewrite r n)) = String.concat " " (words n).
Proof. exact rewrite_words_merge. Qed.
Print Assumptions C69_words_merge.
(** last mode: the words left out are words the rule asks for; first mode: the word of the root is kept *)
Theorem C69_words_last : forall r n, r_join r = JLast -> kept (fun w => match match_words r with [] => True | ws => In (lower w) ws end) (words n) (words (rewrite r n)).
Proof. exact edit_words_last. Qed.
Print Assumptions C69_words_last.
Theorem C69_words_first : forall r n, r_join r = JFirst -> kept (fun _ => True) (words n) (words (rewrite r n)) /\ n_word (rewrite r n) = n_word n.
Proof. exact edit_words_first. Qed.
Print Assumptions C69_words_first.
(** no index is invented *)
Theorem C69_indices : forall r n, kept (fun _ => True) (inds n) (inds (rewrite r n)).
Proof. exact edit_inds. Qed.
Print Assumptions C69_indices.
(** the parent attributes below the root are right, and that of the root when it is not merged *)
Theorem C69_parents : forall r n, (exists q, linked q (rewrite r n)) /\ ((forall c, ~ matching r n c) -> linked (n_par n) (rewrite r n)).
Proof. intros r n. split; [apply edit_linked | apply edit_linked_root]. Qed.
Print Assumptions C69_parents.
(** a merged root keeps the parent attribute of the node it is merged with, so it is no longer a root for [get_parents] *)
Theorem C69_root_parent_refuted : exists n, linked None n /\ n_par (rewrite determiner_rule n) = Some 0%Z /\ get_parents (rewrite determiner_rule n) = Ok [[0%Z]].
Proof. exists (mk "the" 0 t_n None [mk "dog" 1 t_n None []]). split; [repeat constructor | split; reflexivity]. Qed.
Print Assumptions C69_root_parent_refuted.
(** [add_rules] takes the rules in order; an unknown name raises ValueError, and the rules before it have been added *)
Theorem C69_add_rules : forall new have,
  (exists rs, Forall2 (fun x r => match x with inl r' => r = r' | inr s => available s = Some r end) new rs /\ add_rules have new = (have ++ rs, Ok tt)) \/
  (exists pre s post rs, new = pre ++ inr s :: post /\ available s = None /\ Forall2 (fun x r => match x with inl r' => r = r' | inr s => available s = Some r end) pre rs /\ add_rules have new = (have ++ rs, Err ValueError)).
Proof. exact add_rules_ok. Qed.
Print Assumptions C69_add_rules.
Example C69_rules_named : add_rules [] [inr "noun_modification"%string; inr "determiners"%string] = ([noun_mod_rule], Err ValueError).
Proof. reflexivity. Qed.
Example C69_gave : erase (rewrite_all (fst (init_rules None)) gave) = erase (mk "gave" 1 t_s None [mk "John" 0 t_n None []; mk "Mary" 2 t_n None []; mk "flower" 4 t_n None []]).
Proof. reflexivity. Qed.
(** of three determiners in a row only the last is merged *)
Example C69_depth : rewrite determiner_rule (mk "the" 0 t_n None [mk "a" 1 t_n None [mk "An" 2 t_n None [mk "dog" 3 t_n None []]]]) = mk "the" 0 t_n None [mk "a" 1 t_n None [mk "dog" 3 t_n None []]].
Proof. reflexivity. Qed.
Example C69_merge_all : words (rewrite noun_mod_rule (mk "big" 0 t_n None [mk "red" 1 t_n None [mk "dog" 2 t_n None [mk "that" 3 t_s None []]]])) = ["big red dog"; "that"]%string.
Proof. reflexivity. Qed.
