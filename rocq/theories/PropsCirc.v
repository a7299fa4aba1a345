(** C71, C78: DisCoCirc circuits of texts. *)
From Coq Require Import Permutation Sorted.
From Verif Require Import PyBase TyModel DiagModel DiagSpec MiscModel MiscSpec TreeModel TreeSpec CircModel CircSpec CircText CircPrune CircAll.
Close Scope string_scope.

(** [text2circuit], for every text: given a parse with non-negative word indices for each (non-empty) sentence, and coreference clusters over its tokens,
    there are sentence diagrams, with noun boxes and entities for their slots, such that
    - the pruned tokens are those that [dropped] words cause to be pruned;
    - each sentence diagram comes from the completed, rewritten and realigned parse, fits its slots, and its slots are as [frames_part] and [sandwich_part] say;
    - the result is a diagram without inputs and with one noun wire for each entity of the text, and on the values of the entities it does what [text_run] says, in every [reading] of its boxes:
      each sentence acts on its own entities only, in the order of its slots, whatever the order of the wires;
    - unless the first sentence has no slot: then there is a ValueError. *)
Theorem C71_circuit : forall sents corefs parsed sandwich ws min rewrite_rules rules fol,
  List.length parsed = List.length sents -> (forall c, In c corefs -> List.length c = List.length sents) -> (forall c m, In c corefs -> mentions c m -> exists w, word_at sents m w) ->
  (forall i s t, nth_error sents i = Some s -> nth_error parsed i = Some t -> s <> [] /\ forall m, In m (subtrees t) -> (0 <= n_ind m)%Z) ->
  init_rules rewrite_rules = (rules, Ok tt) ->
  exists pruned xs, List.length pruned = List.length sents /\ (forall i j, mentions pruned (i, j) <-> exists w, dropped sents corefs ws min w /\ pruned_by sents corefs w i j) /\ List.length xs = List.length sents /\
    (forall i s p ps d ns es, nth_error sents i = Some s -> nth_error parsed i = Some p -> nth_error pruned i = Some ps -> nth_error xs i = Some (d, ns, es) ->
       exists t zs, sentence_tree (rewrite_all rules) s p t /\ tree2circuital sandwich fol (map Z.of_nat ps) t = Ok (d, ns, zs) /\ fits (d, ns, es) /\ (if sandwich then sandwich_part else frames_part) corefs (map Z.of_nat ps) i t (d, ns, es)) /\
    match xs with
    | (_, _, []) :: _ => text2circuit sents corefs parsed sandwich ws min rewrite_rules fol = Err ValueError
    | _ => exists d, text2circuit sents corefs parsed sandwich ws min rewrite_rules fol = Ok d /\ typed d [] (nouns_ty (List.length (entities ent_eqb xs))) /\
        forall V (bsem : box -> list V -> list V) merge, reading bsem merge -> drun bsem d [] = snd (text_run ent_eqb bsem merge xs)
    end.
Proof. exact text_ok. Qed.
Print Assumptions C71_circuit.
(** the entities are distinct, and two identifiers are the same entity iff they are equal *)
Theorem C71_entities : forall xs, NoDup (map fst (entities ent_eqb xs)) /\ forall a b, ent_eqb a b = true <-> a = b.
Proof. intros xs. split; [apply ents_nodup | apply CircStep.ent_ok]. Qed.
Print Assumptions C71_entities.
(** with frames: one slot for each noun that is not pruned; a box or a frame for each word that is neither a bare noun nor floating *)
Theorem C71_frames : forall fol pruned t, arguments (n_typ t) = [] -> exists d, tree2circuital false fol pruned t = Ok (d, map noun_box (noun_slots pruned t), map (fun m => Some (n_ind m)) (noun_slots pruned t)) /\
  typed d (nouns_ty (List.length (noun_slots pruned t))) (nouns_ty (List.length (noun_slots pruned t))) /\ diagram_words d = shown pruned t.
Proof. exact frames_spec. Qed.
Print Assumptions C71_frames.
(** with sandwiches: a word acts on all its entities, then its parts act in turn, each on its own entities, and after each the word acts again *)
Theorem C71_sandwich_word : forall pruned fol w i t p cs prev, bare_noun (Node w i t p cs) = false -> exists rs cur, parts (sand_rec pruned fol) prev cs rs cur /\
  let es := joined_slots (first_slot pruned t prev) rs in
  match es with
  | [] => sand_rec pruned fol (Node w i t p cs) prev = Ok (id [], [], [], cur)
  | _ => exists d, sand_rec pruned fol (Node w i t p cs) prev = Ok (d, map snd es, map fst es, cur) /\ typed d (nouns_ty (List.length es)) (nouns_ty (List.length es)) /\
      forall V (bsem : box -> list V -> list V) merge, reading bsem merge -> forall vs, List.length vs = List.length es -> drun bsem d vs = sandwich_run bsem merge w fol (map fst es) (shown_parts (first_slot pruned t prev) rs) vs
  end.
Proof. exact word_spec. Qed.
Print Assumptions C71_sandwich_word.
Theorem C71_sandwich_noun : forall pruned fol w i t p prev, bare_noun (Node w i t p []) = true ->
  sand_rec pruned fol (Node w i t p []) prev = Ok (if existsb (Z.eqb i) pruned then (id [], [], [], prev) else (id [a_n], [Box w [] [a_n] 0], [Some i], Some i)).
Proof. exact bare_spec. Qed.
Print Assumptions C71_sandwich_noun.
(** the pruned tokens *)
Theorem C78_pruning : forall sents corefs ws min, (forall c, In c corefs -> List.length c = List.length sents) -> (forall c m, In c corefs -> mentions c m -> exists w, word_at sents m w) ->
  exists P, all_pruned sents corefs ws min = Ok P /\ List.length P = List.length sents /\ forall i j, mentions P (i, j) <-> exists w, dropped sents corefs ws min w /\ pruned_by sents corefs w i j.
Proof. exact all_pruned_ok. Qed.
Print Assumptions C78_pruning.

(** ** Examples *)
(** a reading: a value is a list of words; a box puts its name after all that it is given; copies are copies and merging is concatenation *)
Definition trace (b : box) (v : list (list string)) : list (list string) :=
  match b with
  | Swap _ _ => match v with [x; y] => [y; x] | _ => v end
  | Spider _ 1 m => repeat (hd [] v) m
  | Spider _ _ 1 => [List.concat v]
  | _ => repeat (List.concat v ++ box_words b) (List.length (b_cod b))
  end.
Example C71_reading : reading trace (@List.concat string).
Proof.
  split.
  - intros b v H. destruct b as [| | | |a b|a m n| | | ]; cbn [trace]; rewrite ?repeat_length; auto; [cbn in H; destruct v as [|x [|y [|? ?]]]; try discriminate; reflexivity|].
    destruct m as [|[|m]]; [destruct n as [|[|n]]; cbn; rewrite ?repeat_length; auto | cbn; now rewrite !repeat_length | destruct n as [|[|n]]; cbn; rewrite ?repeat_length; auto].
  - reflexivity.
  - intros a m x. destruct m as [|[|m]]; reflexivity.
  - intros a m v H. destruct m as [|[|m]]; [destruct v; [reflexivity | discriminate] | destruct v as [|x [|? ?]]; try discriminate; cbn; now rewrite app_nil_r | reflexivity].
Qed.
Definition C71_tn : ty := [a_n]. Definition C71_ts : ty := [a_s].
Definition C71_tv : node := mk "likes" 1 C71_ts None [mk "Alice" 0 C71_tn None []; mk "Bob" 2 C71_tn None []].
Definition C71_sents := [["Alice"; "likes"; "Bob"]; ["He"; "sees"; "her"]; ["They"; "wave"]]%string.
Definition C71_parsed := [C71_tv; mk "sees" 1 C71_ts None [mk "He" 0 C71_tn None []; mk "her" 2 C71_tn None []]; mk "wave" 1 C71_ts None [mk "They" 0 C71_tn None []]].
Definition C71_corefs : list (list (list nat)) := [[[0]; [2]; []]; [[2]; [0]; []]].
Example C71_text_ok : List.length C71_parsed = List.length C71_sents /\ (forall c, In c C71_corefs -> List.length c = List.length C71_sents) /\ (forall c m, In c C71_corefs -> mentions c m -> exists w, word_at C71_sents m w) /\
  (forall i s t, nth_error C71_sents i = Some s -> nth_error C71_parsed i = Some t -> s <> [] /\ forall m, In m (subtrees t) -> (0 <= n_ind m)%Z).
Proof.
  split; [reflexivity|]. split; [intros c [<- | [<- | []]]; reflexivity|]. split.
  - intros c [i j] [<- | [<- | []]] (ts & E & I); destruct i as [|[|[|i]]]; cbn in E; try (now destruct i); injection E as <-; cbn in I; destruct I as [<- | []] || destruct I; eexists; eexists; split; reflexivity.
  - intros i s t E1 E2. destruct i as [|[|[|i]]]; cbn in E1, E2; try (now destruct i); injection E1 as <-; injection E2 as <-; (split; [discriminate|]); intros m; cbn; intuition (subst; cbn; lia).
Qed.
(** the second sentence reads the values of Bob and Alice in that order: crossing wires *)
Example C71_text_run : rmap (fun d => (cod d, drun trace d [])) (text2circuit C71_sents C71_corefs C71_parsed false [] 1 None true) =
  Ok ([a_n; a_n; a_n], let x := ["Alice"; "Bob"; "likes"]%string in [x ++ x ++ ["sees"%string]; x ++ x ++ ["sees"%string]; ["They"; "wave"]%string]).
Proof. vm_compute. reflexivity. Qed.
Example C71_text_sandwich : rmap (fun d => drun trace d []) (text2circuit C71_sents C71_corefs C71_parsed true [] 1 None true) =
  rmap (fun d => drun trace d []) (text2circuit C71_sents C71_corefs C71_parsed false [] 1 None true).
Proof. vm_compute. reflexivity. Qed.
(** an entity with two slots in a sentence: its value is copied, and the results are merged *)
Example C71_himself : rmap (fun d => drun trace d []) (text2circuit [["John"; "loves"; "himself"]]%string [[[0; 2]]] [mk "loves" 1 C71_ts None [mk "John" 0 C71_tn None []; mk "himself" 2 C71_tn None []]] false [] 1 None true) =
  Ok [["John"; "John"; "loves"; "John"; "John"; "loves"]%string].
Proof. vm_compute. reflexivity. Qed.
(** pruning Alice prunes "her" as well *)
Example C78_pruned : all_pruned C71_sents C71_corefs ["Alice"%string] 1 = Ok [[0]; [2]; []].
Proof. reflexivity. Qed.
Example C78_rare_pruned : all_pruned C71_sents C71_corefs [] 3 = Ok [[0; 2]; [2; 0]; []] /\ all_pruned C71_sents C71_corefs [] 2 = Ok [[]; []; []].
Proof. split; reflexivity. Qed.
(** a word within a word: "wants" acts, then "to run", then "wants" again *)
Example C71_sandwich_nested : rmap (fun d => drun trace d []) (text2circuit [["Bob"; "wants"; "to"; "run"]]%string [[[0]]] [mk "wants" 1 C71_ts None [mk "Bob" 0 C71_tn None []; mk "to run" 2 [a_nr; a_s] None []]] true [] 1 None true) =
  Ok [["Bob"; "wants$_{top}$"; "to run"; "wants$_{bottom}$"]%string].
Proof. vm_compute. reflexivity. Qed.

(** ** What fails *)
(** a text whose first sentence has no noun left cannot be converted, though the others have nouns *)
Theorem C71_first_sentence_refuted : exists sents parsed ws, text2circuit sents [] parsed false ws 1 None true = Err ValueError /\
  exists d, text2circuit (rev sents) [] (rev parsed) false ws 1 None true = Ok d /\ cod d = [a_n].
Proof.
  exists [["It"; "rains"]; ["Bob"; "runs"]]%string, [mk "rains" 1 C71_ts None [mk "It" 0 C71_tn None []]; mk "runs" 1 C71_ts None [mk "Bob" 0 C71_tn None []]], ["It"%string].
  split; [vm_compute; reflexivity|]. eexists. split; [vm_compute; reflexivity | reflexivity].
Qed.
Print Assumptions C71_first_sentence_refuted.
(** pruning a noun does not remove its wire when the noun is mentioned twice in the sentence *)
Theorem C78_prune_twice_refuted : exists sents corefs parsed, List.length corefs = 1 /\ mentions (hd [] corefs) (0, 0) /\ mentions (hd [] corefs) (0, 2) /\ word_at sents (0, 0) "John" /\
  exists d, text2circuit sents corefs parsed false ["John"%string] 1 None true = Ok d /\ cod d = [a_n].
Proof.
  exists [["John"; "loves"; "himself"]]%string, [[[0; 2]]], [mk "loves" 1 C71_ts None [mk "John" 0 C71_tn None []; mk "himself" 2 C71_tn None []]]. split; [reflexivity|].
  split; [exists [0; 2]; cbn; auto|]. split; [exists [0; 2]; cbn; auto|]. split; [eexists; split; reflexivity|]. eexists. split; [vm_compute; reflexivity | reflexivity].
Qed.
Print Assumptions C78_prune_twice_refuted.
(** [min_noun_freq] prunes by word: a rare entity is kept, and a frequent one with the same name is pruned instead *)
Theorem C78_rare_name_refuted : exists sents corefs r r', rare corefs 2 r /\ ~ rare corefs 2 r' /\ refers corefs r' r' /\
  exists P, all_pruned sents corefs [] 2 = Ok P /\ ~ mentions P r /\ mentions P r'.
Proof.
  exists [["John"; "runs"]; ["He"; "waves"]; ["John"; "sleeps"]]%string, [[[0]; [0]; []]; [[]; []; [0]]], (2, 0), (0, 0).
  assert (A : forall m, refers [[[0]; [0]; []]; [[]; []; [0]]] m (2, 0) <-> m = (2, 0)).
  { intros m. rewrite refers_get. split; [intros H; apply (MiscFacts.d_get_in MiscFacts.mention_eqb_ok) in H; vm_compute in H; intuition congruence | intros ->; reflexivity]. }
  assert (B : forall m, refers [[[0]; [0]; []]; [[]; []; [0]]] m (0, 0) <-> m = (0, 0) \/ m = (1, 0)).
  { intros m. rewrite refers_get. split; [intros H; apply (MiscFacts.d_get_in MiscFacts.mention_eqb_ok) in H; vm_compute in H; intuition congruence | intros [-> | ->]; reflexivity]. }
  split; [|split; [|split; [apply B; now left|]]].
  - exists [(2, 0)]. split; [repeat constructor; auto|]. split; [discriminate|]. split; [|reflexivity]. intros m. rewrite A. cbn. intuition congruence.
  - intros (ms & N & _ & H & L). assert (P : incl [(0, 0); (1, 0)] ms) by (intros m Hm; apply H, B; cbn in Hm; intuition congruence). apply NoDup_incl_length in P; [cbn in P; lia|]. repeat constructor; cbn; intuition congruence.
  - eexists. split; [vm_compute; reflexivity|]. split; [intros (ts & E & J); cbn in E; injection E as <-; destruct J | eexists; split; [reflexivity | now left]].
Qed.
Print Assumptions C78_rare_name_refuted.
(** a noun in no cluster is never rare, whatever [min_noun_freq] *)
Theorem C78_rare_single_refuted : exists sents parsed, forall min, exists d, text2circuit sents [] parsed false [] min None true = Ok d /\ cod d = [a_n].
Proof.
  exists [["Bob"; "runs"]]%string, [mk "runs" 1 C71_ts None [mk "Bob" 0 C71_tn None []]]. intros min. eexists. split; [vm_compute; reflexivity | reflexivity].
Qed.
Print Assumptions C78_rare_single_refuted.
