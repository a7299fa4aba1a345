(** Property theorems C21-C27: CCG types, rules and trees. *)
From Verif Require Import PyBase TyModel DiagModel DiagSpec DiagKinds CCGModel CCGSpec
  CCGTypeFacts CCGRuleFacts CCGTreeFacts CCGDiagFacts CCGMoreFacts CCGWide CCGPrune.
Local Open Scope string_scope.
Local Open Scope list_scope.

(** ** C21 CCG type strings *)
(** Parsing succeeds exactly on the documented grammar, with the documented type. *)
Theorem C21_parse_is_the_grammar : forall m cat t,
  parse_with m cat = Parsed t <-> documented m (list_ascii_of_string cat) t.
Proof. exact parse_spec. Qed.
Print Assumptions C21_parse_is_the_grammar.
(** The recursion bound of the model is never the reason for the answer: parsing terminates. *)
Theorem C21_parse_terminates : forall m cat, parse_with m cat <> ParseFuel.
Proof. exact parse_no_fuel. Qed.
Print Assumptions C21_parse_terminates.
Theorem C21_round_trip : forall t, good t -> parse (to_string t) = Parsed t.
Proof. exact parse_to_string. Qed.
Print Assumptions C21_round_trip.
Theorem C21_strings_injective : forall t u, good t -> good u -> to_string t = to_string u -> t = u.
Proof. exact to_string_inj. Qed.
Print Assumptions C21_strings_injective.
(** Not every malformed string is rejected with CCGParseError. *)
Theorem C21_malformed_assertion_refuted : exists cat,
  ~ (exists t, documented (fun s => s) (list_ascii_of_string cat) t) /\ parse cat = ParseAssert.
Proof.
  exists "(a/b/c)". split; [|reflexivity]. intros (t & D). apply parse_spec in D. discriminate D.
Qed.
Print Assumptions C21_malformed_assertion_refuted.
Example C21_nonvacuous :
  good ((CAtom "s" \\ CAtom "n") // CAtom "n") /\ to_string ((CAtom "s" \\ CAtom "n") // CAtom "n") = "(s\n)/n" /\
  parse "((s\n))/n[conj]" = Parsed (((CAtom "s" \\ CAtom "n") // CAtom "n") \\ ((CAtom "s" \\ CAtom "n") // CAtom "n")).
Proof.
  split; [|split; reflexivity].
  assert (G : forall c, plain c -> good (CAtom (String c ""))).
  { intros c P. split; [discriminate|]. split; [repeat constructor; apply P|]. intros s E.
    apply (f_equal (@List.length ascii)) in E. rewrite app_length in E. cbn in E. lia. }
  cbn [good]. repeat split; try (apply G; repeat split; discriminate); discriminate.
Qed.

(** ** C22 substitution and decomposition of types *)
(** replace never fails on proper types. *)
Theorem C22_replace_total : forall o r t, proper t -> exists t', c_replace o r t = Ok t'.
Proof. exact replace_total. Qed.
Print Assumptions C22_replace_total.
(** Every outermost occurrence of [o] becomes [r] and everything else keeps its shape. *)
Theorem C22_replace_every_occurrence : forall o r t t', c_replace o r t = Ok t' ->
  forall p u, at_path t p = Some u ->
  (forall q, (exists k, k <> [] /\ p = q ++ k) -> at_path t q <> Some o) ->
  (u = o -> at_path t' p = Some r) /\
  (u <> o -> exists u', at_path t' p = Some u' /\ same_head u u').
Proof. exact replace_paths. Qed.
Print Assumptions C22_replace_every_occurrence.
(** replace_result: unchanged with no report, or one admissible result position on the
    result spine is replaced and what stood there is reported; it is the innermost
    admissible one not below an occurrence of the original. *)
Theorem C22_replace_result_one_place : forall o r s c0 c1 t t' old, direction_ends s = Some (c0, c1) ->
  replace_result o r s t = Ok (t', old) ->
  match old with
  | Some x => exists ctx, admissible c0 c1 ctx /\ t = fill ctx x /\ t' = fill ctx r /\
      (forall ctx' u, ctx' <> [] -> x = fill ctx' u -> admissible c0 c1 (ctx ++ ctx') ->
         x = o \/ below o (ctx ++ ctx') u)
  | None => t' = t /\ forall ctx u, t = fill ctx u -> admissible c0 c1 ctx -> below o ctx u
  end.
Proof. intros o r s c0 c1 t t' old E. unfold replace_result. rewrite E. apply rr_spec. Qed.
Print Assumptions C22_replace_result_one_place.
Theorem C22_replace_result_finds : forall o r s c0 c1 ctx, direction_ends s = Some (c0, c1) ->
  admissible c0 c1 ctx -> replace_result o r s (fill ctx o) = Ok (fill ctx r, Some o).
Proof. intros o r s c0 c1 ctx E A. unfold replace_result. rewrite E. now apply rr_complete. Qed.
Print Assumptions C22_replace_result_finds.
(** split succeeds exactly when the base is on the result spine, and cuts the pregroup translation. *)
Theorem C22_split_cuts : forall base t l m r, split base t = Ok (l, m, r) ->
  (exists ctx, t = fill ctx base) /\ m = to_grammar base /\ l ++ m ++ r = to_grammar t.
Proof.
  intros base t l m r E. unfold split in E. destruct (split_inv E) as (ctx & ->).
  split; [eauto|]. rewrite split_fill in E. injection E as <- <- <-. cbn [app]. rewrite app_nil_r, to_grammar_fill. auto.
Qed.
Print Assumptions C22_split_cuts.
Theorem C22_split_total : forall base ctx, exists l m r, split base (fill ctx base) = Ok (l, m, r).
Proof. intros base ctx. unfold split. rewrite split_fill. eauto. Qed.
Print Assumptions C22_split_total.
Example C22_nonvacuous :
  let s := CAtom "s" in let n := CAtom "n" in let np := CAtom "np" in
  c_replace np n ((s \\ np) // np) = Ok ((s \\ n) // n) /\
  replace_result s n "\|" ((s \\ np) // np) = Ok ((n \\ np) // np, Some s) /\
  split s ((s \\ n) // np) = Ok ([("n", 1%Z)], [("s", 0%Z)], [("np", -1)%Z]).
Proof. repeat split; reflexivity. Qed.

(** ** C23 inferred rules *)
(** A schematic answer is an instance of that rule's schema... *)
Theorem C23_inferred_is_instance : forall dm cd ru,
  infer_rule dm cd = Ok ru -> schematic ru = true -> instance ru dm cd.
Proof. exact infer_sound. Qed.
Print Assumptions C23_inferred_is_instance.
(** ... and applying it gives a well-typed structural diagram, planar unless the rule crosses. *)
Theorem C23_inferred_applies : forall dm cd ru, Forall proper dm ->
  infer_rule dm cd = Ok ru -> schematic ru = true ->
  exists d, apply_rule ru dm (Some cd) = Ok d /\ typed d (dom_type dm) (to_grammar cd) /\
    kinds is_structural d /\ (crossed ru = false -> kinds is_cupcap d).
Proof.
  intros dm cd ru P E S0. destruct (apply_instance (infer_sound E S0) P) as (d & Ed & (T & K) & C). eauto.
Qed.
Print Assumptions C23_inferred_applies.
(** No instance of a schema is reported unknown. *)
Theorem C23_instances_recognised : forall ru dm cd, instance ru dm cd -> Forall proper dm ->
  exists ru', infer_rule dm cd = Ok ru' /\ ru' <> UNKNOWN.
Proof. exact infer_complete. Qed.
Print Assumptions C23_instances_recognised.
(** With the empty type (not covered by [proper]) the planar generalised rule goes wrong. *)
Theorem C23_empty_type_refuted :
  let dm := [(CEmpty \\ CAtom "a") \\ CAtom "b"; CAtom "c" \\ CEmpty] in
  let cd := (CAtom "c" \\ CAtom "a") \\ CAtom "b" in
  instance GBC dm cd /\ exists d, apply_rule GBC dm (Some cd) = Ok d /\ cod d <> to_grammar cd.
Proof.
  split.
  - apply (@I_GBC (CAtom "c") CEmpty [(Under, CAtom "b"); (Under, CAtom "a")]); [discriminate|repeat constructor].
  - eexists. split; [vm_compute; reflexivity|vm_compute; discriminate].
Qed.
Print Assumptions C23_empty_type_refuted.
Example C23_nonvacuous :
  let s := CAtom "s" in let n := CAtom "n" in
  infer_rule [s // (s \\ n); ((s \\ n) // n) // n] ((s // n) // n) = Ok GFC /\
  infer_rule [(s // n) // n; s \\ s] ((s // n) // n) = Ok GBX.
Proof. split; reflexivity. Qed.

(** ** C24 resolution *)
Theorem C24_same_codomain : forall ru dm cd, instance ru dm cd -> resolve ru dm cd = Ok dm.
Proof. exact resolve_same. Qed.
Print Assumptions C24_same_codomain.
(** Resolving against a rewritten codomain of the rule's shape gives an instance with that codomain ... *)
Theorem C24_resolved_is_instance : forall ru dm cd dm', schematic ru = true -> conclusion_shape ru cd ->
  resolve ru dm cd = Ok dm' -> instance ru dm' cd.
Proof. exact resolve_sound. Qed.
Print Assumptions C24_resolved_is_instance.
(** ... on which the rule applies. *)
Theorem C24_resolved_applies_partial : forall ru dm cd dm', schematic ru = true -> conclusion_shape ru cd ->
  Forall proper dm -> proper cd -> resolve ru dm cd = Ok dm' ->
  exists d, apply_rule ru dm' (Some cd) = Ok d /\ typed d (dom_type dm') (to_grammar cd).
Proof.
  intros ru dm cd dm' S0 C P Pc E.
  destruct (apply_instance (resolve_sound S0 C E) (resolve_proper S0 P Pc E)) as (d & Ed & (T & _) & _). eauto.
Qed.
Print Assumptions C24_resolved_applies_partial.
(** The shape hypothesis is needed: resolve does not check it for type raising. *)
Theorem C24_shape_unchecked_refuted :
  let s := CAtom "s" in let n := CAtom "n" in
  exists dm' d, resolve FTR [n] (n // (s \\ n)) = Ok dm' /\ apply_rule FTR dm' (Some (n // (s \\ n))) = Ok d /\
    cod d <> to_grammar (n // (s \\ n)).
Proof. do 2 eexists. split; [reflexivity|]. split; [vm_compute; reflexivity|vm_compute; discriminate]. Qed.
Print Assumptions C24_shape_unchecked_refuted.
Example C24_nonvacuous :
  let s := CAtom "s" in let n := CAtom "n" in
  resolve GFC [s // s; (s // n) // n] ((n // s) // s) = Ok [n // s; (s // s) // s] /\
  conclusion_shape GFC ((n // s) // s).
Proof. split; reflexivity || exact I. Qed.

(** ** C25 trees to diagrams *)
Definition result_type (collapse : bool) (x : ctree) : ty :=
  to_grammar (if collapse then rename np_to_n (t_type x) else t_type x).
(** Every derivation gives a diagram from nothing to the root's type, its words in sentence order. *)
Theorem C25_derivations : forall collapse x, parse_tree x ->
  exists d, tree_to_diagram false collapse x = Ok d /\
    typed d [] (result_type collapse x) /\ word_names d = sentence x /\ kinds is_plain_box d.
Proof.
  intros [] x D; [|exact (takes_diagram (proj1 D))].
  destruct (collapse_takes false D) as (-> & D'). destruct (takes_diagram D') as (d & E & T & N & K).
  rewrite retype_type in T. rewrite retype_sentence in N. eauto.
Qed.
Print Assumptions C25_derivations.
(** planar=True: no swaps and the same interface, or ValueError. *)
Theorem C25_planar : forall collapse x, parse_tree x ->
  tree_to_diagram true collapse x = Err ValueError \/
  exists d, tree_to_diagram true collapse x = Ok d /\ typed d [] (result_type collapse x) /\ kinds noswap d.
Proof.
  intros [] x D; [|exact (planar_takes (proj1 D))].
  destruct (collapse_takes true D) as (-> & D'). destruct (planar_takes D') as [E|(d & E & T & K)]; auto.
  right. rewrite retype_type in T. eauto.
Qed.
Print Assumptions C25_planar.
(** planar=True succeeds, with every word used once, when generalised crossed rules open up words only. *)
Theorem C25_planar_words_partial : forall collapse x, parse_tree x -> gx_leaf x ->
  exists d, tree_to_diagram true collapse x = Ok d /\ typed d [] (result_type collapse x) /\
    Permutation (word_names d) (sentence x) /\ kinds noswap d.
Proof.
  intros [] x D G; [|exact (planar_takes_ok (proj1 D) G)].
  destruct (collapse_takes true D) as (-> & D').
  destruct (planar_takes_ok D' (retype_gx np_to_n G)) as (d & E & T & N & K).
  rewrite retype_type in T. rewrite retype_sentence in N. eauto.
Qed.
Print Assumptions C25_planar_words_partial.

Definition lx (w : string) (t : cty) := CT (Some w) LEXICAL t [].
(** Otherwise words can be lost without an error. *)
Definition lossy : ctree :=
  let r := CAtom "r" in let c := CAtom "c" in let e := CAtom "e" in let X := CAtom "x" in
  CT None GBX ((X // c) // e)
    [CT None BX ((r // c) // e) [lx "alpha" ((r // c) // e); lx "beta" ((r // c) \\ (r // c))];
     lx "gamma" (X \\ r)].
Theorem C25_planar_drops_word_refuted : deriv lossy /\
  sentence lossy = ["alpha"; "beta"; "gamma"] /\
  exists d, tree_to_diagram true false lossy = Ok d /\ word_names d = ["alpha"; "gamma"].
Proof.
  split.
  - apply D_rule.
    + apply (@I_GBX (CAtom "x") (CAtom "r") [(Over, CAtom "e")] (CAtom "c")).
    + cbn; tauto.
    + repeat constructor; cbn; try discriminate; try tauto.
  - split; [reflexivity|]. eexists. split; vm_compute; reflexivity.
Qed.
Print Assumptions C25_planar_drops_word_refuted.
(** Two punctuation leaves combined by LP are an accepted node without a diagram. *)
Theorem C25_punctuation_pair_refuted :
  infer_rule [PUNCTUATION; PUNCTUATION] PUNCTUATION = Ok LP /\
  tree_to_diagram false false (CT None LP PUNCTUATION [lx "," PUNCTUATION; lx "." PUNCTUATION]) = Err ValueError.
Proof. split; reflexivity. Qed.
Print Assumptions C25_punctuation_pair_refuted.
(** A type-changing unary node over a raised type can give a diagram with the wrong codomain. *)
Theorem C25_unary_over_raising_refuted :
  let s := CAtom "s" in let n := CAtom "n" in
  let x := CT None UNARY (n // (s \\ n)) [CT None FTR (s // (s \\ n)) [lx "w" n]] in
  exists d, tree_to_diagram false false x = Ok d /\ cod d <> to_grammar (t_type x).
Proof. eexists. split; [vm_compute; reflexivity|vm_compute; discriminate]. Qed.
Print Assumptions C25_unary_over_raising_refuted.
(** A unary node that only turns the slash around is rejected although the code has a case for it. *)
Theorem C25_slash_turn_refuted :
  let s := CAtom "s" in let n := CAtom "n" in
  tree_to_diagram false false (CT None UNARY (s // n) [lx "w" (s \\ n)]) = Err ValueError /\
  is_ok (tree_to_diagram false false (CT None UNARY (n // n) [lx "w" (n \\ n)])) = true.
Proof. split; vm_compute; reflexivity. Qed.
Print Assumptions C25_slash_turn_refuted.

Definition demo : ctree :=
  let s := CAtom "s" in let n := CAtom "np" in
  CT None BA s
    [CT None RP n [CT None CONJ n [lx "and" CONJUNCTION; lx "Alice" n]; lx "," PUNCTUATION];
     CT None BA (s \\ n) [lx "Bob" n;
       CT None FX ((s \\ n) \\ n) [lx "quickly" ((s \\ n) // s); CT None UNARY (s \\ n) [lx "runs" (s \\ n)]]]].
Example C25_nonvacuous : deriv demo /\ gx_leaf demo /\
  sentence demo = ["and"; "Alice"; "Bob"; "quickly"; "runs"] /\
  result_type true demo = [("s", 0%Z)].
Proof.
  split; [|repeat split].
  unfold demo. apply D_rule; [constructor|cbn; auto|].
  assert (N : proper (CAtom "np")) by exact I.
  constructor; [|constructor; [|constructor]].
  - apply (@D_RP None (lx "," PUNCTUATION) (CT None CONJ (CAtom "np") _)); [now exists (Some ",")|].
    apply D_conj_l; auto; [discriminate|]. now apply D_leaf.
  - apply D_rule; [constructor|cbn; auto|]. constructor; [now apply D_leaf|]. constructor; [|constructor].
    apply D_rule; [constructor|cbn; auto|].
    constructor; [apply D_leaf; [cbn; auto|discriminate]|]. constructor; [|constructor].
    apply (@D_unary None (lx "runs" (CAtom "s" \\ CAtom "np"))). apply D_leaf; [cbn; auto|discriminate].
Qed.

(** Trees without type changes are among the trees of C25. *)
Theorem C25_no_changes : forall x, deriv x -> parse_tree x.
Proof. exact deriv_parse. Qed.
Print Assumptions C25_no_changes.
(** "big dogs , and cats run", with two nouns promoted to noun phrases and a comma absorbed by the conjunction. *)
Definition demo_changes : ctree :=
  let s := CAtom "s" in let n := CAtom "n" in let np := CAtom "np" in
  CT None BA s
    [CT None BA np
       [CT None UNARY np [CT None FA n [lx "big" (n // n); lx "dogs" n]];
        CT None CONJ (np \\ np) [CT None LP CONJUNCTION [lx "," PUNCTUATION; lx "and" CONJUNCTION]; CT None UNARY np [lx "cats" n]]];
     lx "run" (s \\ np)].
Example C25_changes : parse_tree demo_changes /\ ~ deriv demo_changes /\ sentence demo_changes = ["big"; "dogs"; "and"; "cats"; "run"] /\
  rmap (fun d => (word_names d, cod d)) (tree_to_diagram false false demo_changes) = Ok (["big"; "dogs"; "and"; "cats"; "run"], [("s", 0%Z)]).
Proof.
  split; [split|split; [|split; [reflexivity|vm_compute; reflexivity]]].
  - assert (W : forall w t o, w <> ""%string -> proper o -> o <> PUNCTUATION -> takes (lx w t) o) by (intros; now apply T_word).
    assert (NT : forall n t, ~ turned (CAtom n) t) by (intros n t (? & ? & ? & ? & ? & ? & E & _); discriminate).
    unfold demo_changes. cbn [t_type]. apply T_ba; [|apply W; cbn; auto; discriminate]. cbn [t_type]. apply T_ba.
    + cbn [t_type]. apply T_unary; [apply NT|]. apply T_fa; apply W; cbn; auto; discriminate.
    + cbn [t_type]. apply T_conj_l; [now left|apply T_lp; [now exists (Some ",")|apply W; cbn; auto; discriminate]|]. cbn [t_type]. apply T_unary; [apply NT|]. apply W; cbn; auto; discriminate.
  - unfold demo_changes, lx. repeat constructor.
  - intro D. repeat match goal with H : deriv _ |- _ => inversion H; subst; clear H; repeat match goal with F : Forall deriv (_ :: _) |- _ => inversion F; subst; clear F end; try discriminate end;
      match goal with I : instance UNARY _ _ |- _ => inversion I end.
Qed.

(** ** C26 JSON *)
Theorem C26_round_trip : forall x, built x -> all_types good x ->
  exists y, from_json (to_json x) = Ok y /\ ctree_eqb y x = true.
Proof.
  intros x B A. destruct (json_round B A) as (y & E & T). exists y. split; auto. now apply ctree_eqb_iff.
Qed.
Print Assumptions C26_round_trip.
(** [==] on trees is equality of text, rule, type and children, hereditarily. *)
Theorem C26_equality : forall a b, ctree_eqb a b = true <-> teq a b.
Proof. exact ctree_eqb_iff. Qed.
Print Assumptions C26_equality.
Example C26_nonvacuous : built demo /\ from_json (to_json demo) = Ok demo /\
  to_json (CT (Some "say so") RP (CAtom "s") [lx "say" (CAtom "s"); lx "." PUNCTUATION]) =
  TJ "s" (Some "RP") (Some "say so") (Some [TJ "s" (Some "L") (Some "say") None; TJ "punc" (Some "L") (Some ".") None]).
Proof. split; [exact (deriv_built (proj1 C25_nonvacuous))|]. split; reflexivity. Qed.

(** ** C27 trivial unary rules, noun phrases *)
Theorem C27_no_trivial_left : forall x y, subtree y (without_trivial x) -> ~ trivial_unary y.
Proof. exact wt_clean. Qed.
Print Assumptions C27_no_trivial_left.
(** Only trivial unary nodes are deleted; so the root type and the leaves stay. *)
Theorem C27_nothing_else : forall x,
  pruned x (without_trivial x) /\ t_type (without_trivial x) = t_type x /\ leaves (without_trivial x) = leaves x.
Proof. intro x. exact (conj (wt_pruned x) (conj (wt_type x) (wt_leaves x))). Qed.
Print Assumptions C27_nothing_else.
Theorem C27_idempotent : forall x, without_trivial (without_trivial x) = without_trivial x.
Proof. exact wt_idem. Qed.
Print Assumptions C27_idempotent.
Theorem C27_untouched : forall x, (forall y, subtree y x -> ~ trivial_unary y) -> without_trivial x = x.
Proof. exact wt_fixed. Qed.
Print Assumptions C27_untouched.
(** The diagram of a derivation does not depend on its trivial unary nodes. *)
Theorem C27_same_diagram : forall planar collapse x, deriv x ->
  tree_to_diagram planar collapse (without_trivial x) = tree_to_diagram planar collapse x.
Proof. intros planar collapse x D. exact (pruned_same_diagram planar collapse D (wt_pruned x)). Qed.
Print Assumptions C27_same_diagram.
(** collapse_noun_phrases renames np to n in every type and changes nothing else. *)
Theorem C27_collapse : forall x, built x -> all_types proper x ->
  collapse_np x = Ok (retype np_to_n x) /\ all_types (fun t => ~ occurs NOUN_PHRASE t) (retype np_to_n x).
Proof.
  intros x B A. split; [exact (collapse_retype B A)|]. exact (retype_all A rename_no_np).
Qed.
Print Assumptions C27_collapse.
Example C27_nonvacuous :
  let n := CAtom "n" in let x := CT None UNARY n [CT None UNARY n [lx "w" n]] in
  without_trivial x = lx "w" n /\ trivial_unary x /\
  collapse_np (CT None UNARY n [lx "w" NOUN_PHRASE]) = Ok (CT None UNARY n [lx "w" n]).
Proof. split; [reflexivity|]. split; [|reflexivity]. exists None, (CT None UNARY (CAtom "n") [lx "w" (CAtom "n")]). reflexivity. Qed.
