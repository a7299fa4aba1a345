(** C60-C61: tree reader, linear readers, spiders reader. *)
From Verif Require Import PyBase TyModel DiagModel DiagSpec CCGModel CCGSpec ReaderModel ReaderSpec ReaderFacts.
Close Scope string_scope. Set Implicit Arguments. Unset Strict Implicit.

(** ** C60 *)
(** Whenever the tree reader answers, the diagram goes from the empty type to the word type, its boxes are exactly the nodes of the resolved tree in post-order
    (a word per leaf, a combining box with one word-type input per child for every other node), every box acts on the right-most wires
    (so each combining box takes the outputs of its node's children), and the words read left to right are the leaves of the original tree. *)
Theorem C60_tree : forall m w sup x d, wordy x -> Forall (fun y => t_text y <> ""%string) (leaves x) -> tree2diagram m w sup x = Ok (Some d) ->
  exists y, resolved x (t_type x) = Ok y /\ wordy y /\ typed d [] w /\ boxes d = map (node_box m w) (postorder y) /\ rightmost d /\ word_names d = map t_text (leaves x).
Proof. exact reader_ok. Qed.
Print Assumptions C60_tree.
(** On every CCG derivation it does answer, in every mode. *)
Theorem C60_total : forall m w sup x, deriv x -> Forall (fun y => t_text y <> ""%string) (leaves x) -> wordy x /\ exists d, tree2diagram m w sup x = Ok (Some d).
Proof. intros m w sup x D F. exact (conj (deriv_wordy D) (reader_total m w sup D F)). Qed.
Print Assumptions C60_total.
(** With exceptions suppressed there is always an answer, [None] exactly where the unsuppressed call raises. *)
Theorem C60_suppress : forall m w x, exists r, tree2diagram m w true x = Ok r /\ (r = None <-> exists e, tree2diagram m w false x = Err e) /\ (forall d, r = Some d <-> tree2diagram m w false x = Ok (Some d)).
Proof. exact reader_suppress. Qed.
Print Assumptions C60_suppress.
(** The name of a combining box: constant, the rule, the rule with the categories of its children in brackets, or the height of the node:
    the length of the longest path down to a leaf. *)
Theorem C60_names : forall w x, wordy x -> t_children x <> [] ->
  b_name (node_box NO_TYPE w x) = "UNIBOX"%string /\ b_name (node_box RULE_ONLY w x) = rule_value (t_rule x) /\
  b_name (node_box RULE_TYPE w x) = (rule_value (t_rule x) ++ "(" ++ String.concat ", " (map (fun c => to_string (t_type c)) (t_children x)) ++ ")")%string /\
  exists h, b_name (node_box HEIGHT w x) = ("layer_" ++ AnsatzModel.str_nat h)%string /\ longest_path x h.
Proof. exact names_ok. Qed.
Print Assumptions C60_names.
Section Examples60.
  Local Open Scope string_scope.
  Let n := CAtom "n". Let s := CAtom "s".
  Let lf w t := CT (Some w) LEXICAL t [].
  Let vp := CSlash s Under n.
  Let x := CT None BA s [CT None FA n [lf "the" (CSlash n Over n); lf "cat" n]; lf "sleeps" vp].
  Example C60_example : wordy x /\ Forall (fun y => t_text y <> "") (leaves x)
    /\ rmap (option_map (fun d => (map (fun b => (b_name b, List.length (b_dom b))) (boxes d)))) (tree2diagram RULE_ONLY [aS] false x)
       = Ok (Some [("the", 0); ("cat", 0); ("FA", 2); ("sleeps", 0); ("BA", 2)])
    /\ rmap (option_map (fun d => (map b_name (boxes d)))) (tree2diagram HEIGHT [aS] false x) = Ok (Some ["the"; "cat"; "layer_1"; "sleeps"; "layer_2"])
    /\ rmap (option_map (fun d => (map b_name (boxes d)))) (tree2diagram RULE_TYPE [aS] false x) = Ok (Some ["the"; "cat"; "FA(n/n, n)"; "sleeps"; "BA(n, s\n)"]).
  Proof. split; [repeat constructor; discriminate|]. split; [repeat constructor; discriminate|]. repeat split; vm_compute; reflexivity. Qed.
End Examples60.

(** ** C61 *)
(** What counts as a sentence: a list of strings when [tokenised], otherwise a string, split at white space (no token lost, none empty). *)
Theorem C61_tokens : forall tk s toks, tokens tk s = Ok toks <-> (tk = true /\ s = SToks toks) \/ (tk = false /\ exists t, s = SStr t /\ separated t toks).
Proof. exact tokens_ok. Qed.
Print Assumptions C61_tokens.
(** White space is what [str.isspace] says below 256: tab to carriage return, the four separators, space, next line and no-break space. *)
Theorem C61_white_space : forall c, is_space c = true <-> In (Ascii.nat_of_ascii c) [9; 10; 11; 12; 13; 28; 29; 30; 31; 32; 133; 160].
Proof. exact is_space_list. Qed.
Print Assumptions C61_white_space.
Theorem C61_refuse : forall tk s, (forall toks, tokens tk s <> Ok toks) -> (forall c w st f, linear_reader c w st f tk s = Some (Err ValueError)) /\ spiders_reader tk s = Err ValueError.
Proof. exact readers_refuse. Qed.
Print Assumptions C61_refuse.
(** The cups reader answers after one loop turn per token, with START, the words in order, and as many cups, nested from the left; the result is a sentence. *)
Theorem C61_cups : forall tk s toks f, tokens tk s = Ok toks ->
  exists d, cups_reader (List.length toks + f) tk s = Some (Ok d) /\ typed d [] [aS] /\
    boxes d = Word "START" [aS] 0 :: map (fun t => Word t [rot_atom 1 aS; aS] 0) toks ++ repeat (Cup aS (rot_atom 1 aS) false) (List.length toks) /\ words_then_left (1 + List.length toks) d.
Proof. exact cups_ok. Qed.
Print Assumptions C61_cups.
(** The stairs reader on a non-empty sentence. *)
Theorem C61_stairs : forall tk s t toks f, tokens tk s = Ok (t :: toks) ->
  exists d, stairs_reader (List.length toks + f) tk s = Some (Ok d) /\ typed d [] [aS] /\
    boxes d = map (fun t => Word t [aS] 0) (t :: toks) ++ repeat (Box "STAIR" [aS; aS] [aS] 0) (List.length toks) /\ words_then_left (1 + List.length toks) d.
Proof. exact stairs_ok. Qed.
Print Assumptions C61_stairs.
(** On the empty sentence it returns the empty diagram, whose codomain is not the sentence type. *)
Theorem C61_stairs_empty_refuted : forall f, exists d, stairs_reader f false (SStr " ") = Some (Ok d) /\ cod d = [] /\ cod d <> [aS].
Proof. intros f. exists (id []). split; [apply stairs_empty; reflexivity|]. split; [reflexivity|discriminate]. Qed.
Print Assumptions C61_stairs_empty_refuted.
(** The spiders reader: the words, then one spider; also for the empty sentence. *)
Theorem C61_spiders : forall tk s toks, tokens tk s = Ok toks ->
  exists d, spiders_reader tk s = Ok d /\ typed d [] [aS] /\ boxes d = map (fun t => Word t [aS] 0) toks ++ [Spider aS (List.length toks) 1] /\ words_then_left (List.length toks) d.
Proof. exact spiders_ok. Qed.
Print Assumptions C61_spiders.
(** Any linear reader whose combining diagram has fewer outputs than inputs ends, within as many turns as there are wires, with at most one wire
    or an error; the words come first. *)
Theorem C61_custom : forall c w st tk s toks f, wf c -> List.length (cod c) < List.length (dom c) -> tokens tk s = Ok toks ->
  List.length (cod st) + List.length toks * List.length w <= f -> wf st ->
  exists r, linear_reader c w st f tk s = Some r /\ forall d, r = Ok d -> List.length (cod d) <= 1 /\ exists ls, layers d = layers (words_diag w st toks) ++ ls.
Proof. exact reader_ends. Qed.
Print Assumptions C61_custom.
(** A combining diagram with as many outputs as inputs (two or more) makes it loop for ever. *)
Theorem C61_custom_diverges : forall c w st tk s toks xs r, typed c xs xs -> 2 <= List.length xs -> tokens tk s = Ok toks -> wf st ->
  cod st ++ ty_pow w (List.length toks) = xs ++ r -> forall f, linear_reader c w st f tk s = None.
Proof. exact reader_diverges. Qed.
Print Assumptions C61_custom_diverges.
Section Examples61.
  Local Open Scope string_scope.
  Example C61_example : tokens false (SStr "  the cat  sleeps ") = Ok ["the"; "cat"; "sleeps"]
    /\ option_map (rmap (fun d => map b_name (boxes d))) (cups_reader 3 false (SStr "the cat sleeps")) = Some (Ok ["START"; "the"; "cat"; "sleeps"; "CUP"; "CUP"; "CUP"])
    /\ option_map (rmap (fun d => map b_name (boxes d))) (stairs_reader 2 true (SToks ["a b"; "c"])) = Some (Ok ["a b"; "c"; "STAIR"])
    /\ rmap (fun d => (map b_name (boxes d), cod d)) (spiders_reader true (SToks [])) = Ok (["SPIDER"], [aS]).
  Proof. repeat split; vm_compute; reflexivity. Qed.
  Example C61_diverges_example : let c := to_diag (Box "f" [aS; aS] [aS; aS] 0) in typed c [aS; aS] [aS; aS] /\ forall f, linear_reader c [aS] (id []) f true (SToks ["a"; "b"; "c"]) = None.
  Proof. intros c. assert (T : typed c [aS; aS] [aS; aS]) by (repeat split; constructor; auto; cbn; auto). split; [exact T|]. intros f. eapply C61_custom_diverges with (toks := ["a"; "b"; "c"]) (r := [aS]); [exact T|auto|reflexivity|apply (DiagFacts.typed_id [])|reflexivity]. Qed.
End Examples61.
