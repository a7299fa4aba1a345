{
 "claims": [
  {
   "property": "C01",
   "status": "proved",
   "theorems": [
    "C01_tensor_associative",
    "C01_tensor_unit",
    "C01_tensor_concatenates",
    "C01_tensor_variadic",
    "C01_equality_is_equality_of_factors",
    "C01_power"
   ],
   "note": ""
  },
  {
   "property": "C02",
   "status": "proved",
   "theorems": [
    "C02_rotate_additive",
    "C02_adjoints_cancel",
    "C02_rotate_tensor",
    "C02_rotate_factors",
    "C02_rotate_flat",
    "C02_over_under"
   ],
   "note": ""
  },
  {
   "property": "C03",
   "status": "partial",
   "theorems": [
    "C03_insert_partial",
    "C03_insert_negative_partial",
    "C03_insert_out_of_range",
    "C03_insert_negative_atomic_refuted",
    "C03_replace",
    "C03_replace_out_of_range",
    "C03_replace_at_length_refuted"
   ],
   "note": "insert/replace proved for all non-negative indices and for negative insert on compound types; refuted: negative insert on an atomic type drops it, replace at index == len overwrites the last factor."
  },
  {
   "property": "C04",
   "status": "proved",
   "theorems": [
    "C04_built_diagrams_are_well_typed",
    "C04_then_raises_iff_mismatch",
    "C04_variadic_forms_are_iterated",
    "C04_typing_of_composites"
   ],
   "note": ""
  },
  {
   "property": "C05",
   "status": "proved",
   "theorems": [
    "C05_then_monoid",
    "C05_tensor_monoid",
    "C05_denotation_is_monoidal",
    "C05_interchange_up_to_meaning"
   ],
   "note": ""
  },
  {
   "property": "C06",
   "status": "proved",
   "theorems": [
    "C06_dagger_involutive",
    "C06_dagger_of_boxes",
    "C06_dagger_contravariant",
    "C06_dagger_well_typed"
   ],
   "note": ""
  },
  {
   "property": "C07",
   "status": "partial",
   "theorems": [
    "C07_rotate_additive_partial",
    "C07_rotate_diagram_additive_partial",
    "C07_adjoints_cancel",
    "C07_rotate_well_typed",
    "C07_rotate_boxes",
    "C07_rotate_dagger_then",
    "C07_rotate_zero_frame_refuted"
   ],
   "note": "All boxes and diagrams whose frames have at most one component; inverse rotations cancel for all frames. Refuted in general: Frame.rotate reverses its components on every call, so rotate(0) is not the identity for frames with >= 2 components."
  },
  {
   "property": "C08",
   "status": "partial",
   "theorems": [
    "C08_slices_are_well_typed",
    "C08_slices_recompose",
    "C08_full_reverse_is_dagger",
    "C08_index",
    "C08_reversed_slice_refuted"
   ],
   "note": "Everything proved except reversed proper slices, which keep the whole diagram's dom/cod (refuted)."
  },
  {
   "property": "C09",
   "status": "proved",
   "theorems": [
    "C09_permutation_routes_wires",
    "C09_invalid_permutation_rejected"
   ],
   "note": ""
  },
  {
   "property": "C10",
   "status": "partial",
   "theorems": [
    "C10_swap_exchanges_blocks",
    "C10_cups_partial",
    "C10_caps_partial",
    "C10_non_adjoint_rejected",
    "C10_compound_snakes",
    "C10_reversed_atomic_partial",
    "C10_reversed_compound_refuted",
    "C10_spider_well_typed"
   ],
   "note": "Non-reversed cups/caps (wiring, typing, and the snake equations for compound types), swaps and spiders for all types; reversed cups/caps on compound types always raise (refuted)."
  },
  {
   "property": "C11",
   "status": "proved",
   "theorems": [
    "C11_interchange_sound",
    "C11_interchange_boxes",
    "C11_interchange_errors",
    "C11_connected_refused"
   ],
   "note": ""
  },
  {
   "property": "C12",
   "status": "proved",
   "theorems": [
    "C12_normal_form",
    "C12_pregroup_normal_form"
   ],
   "note": ""
  },
  {
   "property": "C13",
   "status": "partial",
   "theorems": [
    "C13_remove_snakes",
    "C13_mixed_orientation_refuted"
   ],
   "note": "Proved for every well-typed diagram without a mixed-orientation cap/cup pair; for mixed pairs the code produces an ill-typed or different diagram (refuted)."
  },
  {
   "property": "C14",
   "status": "partial",
   "theorems": [
    "C14_functor_types",
    "C14_functor_typed_partial",
    "C14_functor_typed_refuted",
    "C14_functor_monoidal",
    "C14_functor_structure",
    "C14_functor_wiring",
    "C14_functor_dagger_partial",
    "C14_functor_rotate_partial"
   ],
   "note": "Types, identities, composition, tensor, cups/caps of compound types, swaps, spiders and wirings preserved for every object map. Typing is partial: reversed cups/caps only on types with at most one image factor (refuted otherwise: ValueError). Dagger and rotation preservation proved for frame-free diagrams whose structural boxes have atomic images. Target category is grammar; callbacks are pure."
  },
  {
   "property": "C15",
   "status": "partial",
   "theorems": [
    "C15_cache_transparent_partial",
    "C15_fresh_is_uncached",
    "C15_poisoned_cache_refuted"
   ],
   "note": "History independence proved for histories of calls that returned normally (or raised something other than TypeError with a total object map); refuted after a failed type check: the ill-typed image stays in the cache and is returned by the next call."
  },
  {
   "property": "C16",
   "status": "partial",
   "theorems": [
    "C16_json_types",
    "C16_json_boxes_partial",
    "C16_json_layers_partial",
    "C16_json_diagrams_partial",
    "C16_json_refuted"
   ],
   "note": "Types: full. Boxes/layers/diagrams: every Daggered wraps a plain Box and frame components are diagrams, caps, cups, swaps, spiders or frames; refuted outside (Daggered(Word) and frames with Box/Word/Daggered/DaggeredFrame components raise KeyError). JSON text encoding is trusted."
  },
  {
   "property": "C17",
   "status": "proved",
   "theorems": [
    "C17_pregroup_diagram",
    "C17_is_pregroup",
    "C17_created_is_pregroup"
   ],
   "note": ""
  },
  {
   "property": "C18",
   "status": "partial",
   "theorems": [
    "C18_transpose_typed",
    "C18_transpose_back",
    "C18_uncurry",
    "C18_curry_left",
    "C18_curry_right",
    "C18_curry_left_zero_refuted"
   ],
   "note": "Typing for all diagrams; transposing to one side and back, and applying a curried diagram to its exponent again, give the same morphism in every strict monoidal category in which atomic cups and caps straighten. Refuted: curry(0, left=True) moves the whole domain."
  },
  {
   "property": "C19",
   "status": "partial",
   "theorems": [
    "C19_faithful_partial",
    "C19_sixty_seconds_refuted"
   ],
   "note": "Faithful for every duration whose rounded seconds stay below 60; 59.6 s prints as 60s (refuted)."
  },
  {
   "property": "C20",
   "status": "proved",
   "theorems": [
    "C20_with_restores",
    "C20_only_innermost",
    "C20_current_inside",
    "C20_failed_import",
    "C20_set_backend"
   ],
   "note": ""
  },
  {
   "property": "C21",
   "status": "partial",
   "theorems": [
    "C21_parse_is_the_grammar",
    "C21_parse_terminates",
    "C21_round_trip",
    "C21_strings_injective",
    "C21_malformed_assertion_refuted"
   ],
   "note": "Parsing = the documented grammar, termination, round trip and injectivity for all types/strings. Refuted: the rejection is not always CCGParseError ('(a/b/c)' raises AssertionError)."
  },
  {
   "property": "C22",
   "status": "proved",
   "theorems": [
    "C22_replace_total",
    "C22_replace_every_occurrence",
    "C22_replace_result_one_place",
    "C22_replace_result_finds",
    "C22_split_cuts",
    "C22_split_total"
   ],
   "note": ""
  },
  {
   "property": "C23",
   "status": "partial",
   "theorems": [
    "C23_inferred_is_instance",
    "C23_inferred_applies",
    "C23_instances_recognised",
    "C23_empty_type_refuted"
   ],
   "note": "Soundness for all types without the empty type, and recognition of every instance. Refuted only for the empty CCG type under generalised backward composition."
  },
  {
   "property": "C24",
   "status": "partial",
   "theorems": [
    "C24_same_codomain",
    "C24_resolved_is_instance",
    "C24_resolved_applies_partial",
    "C24_shape_unchecked_refuted"
   ],
   "note": "Proved for every rewritten codomain of the rule's shape; refuted without the shape hypothesis (type raising is not checked)."
  },
  {
   "property": "C25",
   "status": "partial",
   "theorems": [
    "C25_derivations",
    "C25_planar",
    "C25_planar_words_partial",
    "C25_planar_drops_word_refuted",
    "C25_punctuation_pair_refuted",
    "C25_unary_over_raising_refuted",
    "C25_slash_turn_refuted",
    "C25_no_changes"
   ],
   "note": "Proved for all trees whose nodes are rule instances, including unary nodes that change the type of a constituent with a lexical head (the change is pushed down to the head word), coordination below them and the ADJ-as-FA case. Not covered: type changes above compositions and raisings. Planar word preservation holds when generalised crossed rules open up leaves only (refuted otherwise: a word is lost). Refuted corner cases: pair of punctuation leaves, type-changing unary over a raised type, slash-turning unary."
  },
  {
   "property": "C26",
   "status": "proved",
   "theorems": [
    "C26_round_trip",
    "C26_equality"
   ],
   "note": ""
  },
  {
   "property": "C27",
   "status": "proved",
   "theorems": [
    "C27_no_trivial_left",
    "C27_nothing_else",
    "C27_idempotent",
    "C27_untouched",
    "C27_same_diagram",
    "C27_collapse"
   ],
   "note": ""
  },
  {
   "property": "C28",
   "status": "proved",
   "theorems": [
    "C28_shipped_rules",
    "C28_general_rules",
    "C28_simple_rules",
    "C28_rewriter_interface",
    "C28_rewriter_total",
    "C28_non_states_raise"
   ],
   "note": ""
  },
  {
   "property": "C29",
   "status": "partial",
   "theorems": [
    "C29_added_rules_take_effect_partial",
    "C29_rule_list",
    "C29_stale_cache_refuted"
   ],
   "note": "Rules take effect for boxes not rewritten earlier by the same Rewriter (partial); refuted for boxes already in the rewriter cache: add_rules does not clear it."
  },
  {
   "property": "C30",
   "status": "partial",
   "theorems": [
    "C30_case_sensitive",
    "C30_case_insensitive_partial",
    "C30_capitalised_refuted",
    "C30_first_match",
    "C30_template"
   ],
   "note": "Case-insensitive matching holds when the rule words are lower case; refuted for a rule built with capitalised words and case_sensitive=False (words are not lower-cased at construction)."
  },
  {
   "property": "C31",
   "status": "partial",
   "theorems": [
    "C31_unknown_words_partial",
    "C31_miscounted_refuted"
   ],
   "note": "Proved with words of the collection unrotated/undaggered and min_freq >= 1; refuted otherwise (rotated words are counted under their rotated type, daggered words are not counted, min_freq 0 still replaces absent words)."
  },
  {
   "property": "C32",
   "status": "partial",
   "theorems": [
    "C32_first_pass",
    "C32_interface_partial",
    "C32_denotation",
    "C32_first_pass_denotation",
    "C32_total_partial",
    "C32_nested_cups_refuted"
   ],
   "note": "Interface, words, cup count and denotation (in every monoidal category whose interpretation reads turned boxes as bent boxes) proved for every returned result; totality only without directly nested cups, and refuted in general (second pass raises ValueError)."
  },
  {
   "property": "C33",
   "status": "partial",
   "theorems": [
    "C33_swap_elimination",
    "C33_returned_diagrams_partial",
    "C33_no_detached_cups_partial",
    "C33_codomain_refuted",
    "C33_index_error_refuted"
   ],
   "note": "Swap elimination proved total and sound; whole rewriter proved correct when no cup joins two wires of one word; every returned diagram is a well-typed swap-free pregroup diagram. Refuted in general: the codomain can change, and IndexError can be raised (off-by bookkeeping in _remove_detached_cups)."
  },
  {
   "property": "C34",
   "status": "proved",
   "theorems": [
    "C34_unify_codomain",
    "C34_unify_codomain_list"
   ],
   "note": ""
  },
  {
   "property": "C35",
   "status": "proved",
   "theorems": [
    "C35_box",
    "C35_box_meaning",
    "C35_diagram",
    "C35_frames",
    "C35_ranges",
    "C35_rotation"
   ],
   "note": ""
  },
  {
   "property": "C36",
   "status": "proved",
   "theorems": [
    "C36_circuit",
    "C36_distinct",
    "C36_once"
   ],
   "note": ""
  },
  {
   "property": "C37",
   "status": "proved",
   "theorems": [
    "C37_label",
    "C37_param",
    "C37_escape"
   ],
   "note": ""
  },
  {
   "property": "C38",
   "status": "proved",
   "theorems": [
    "C38_split",
    "C38_box",
    "C38_terminates",
    "C38_mps_pieces",
    "C38_frames",
    "C38_checks"
   ],
   "note": ""
  },
  {
   "property": "C39",
   "status": "proved",
   "theorems": [
    "C39_directed"
   ],
   "note": ""
  },
  {
   "property": "C40",
   "status": "partial",
   "theorems": [
    "C40_one_qubit",
    "C40_controlled",
    "C40_doubly_controlled",
    "C40_swap_refuted"
   ],
   "note": "All one-qubit, controlled and doubly controlled gates, every order and distance of distinct qubits, operator semantics and export. False for the two-qubit SWAP on non-adjacent qubits (C40_swap_refuted): it is applied at min, min+1."
  },
  {
   "property": "C41",
   "status": "proved",
   "theorems": [
    "C41_decompose",
    "C41_array"
   ],
   "note": ""
  },
  {
   "property": "C42",
   "status": "partial",
   "theorems": [
    "C42_rotation",
    "C42_controlled",
    "C42_cry_refuted",
    "C42_ccr_refuted"
   ],
   "note": "Proved for Rx, Ry, Rz, CRx, CRz; false of the code for CRy and for doubly controlled rotations (phase None)."
  },
  {
   "property": "C43",
   "status": "partial",
   "theorems": [
    "C43_readoff_partial",
    "C43_late_gate_refuted",
    "C43_circuital"
   ],
   "note": "Attribution of measured / post-selected / discarded wires, numbering and partition proved for all circuital diagrams of kets, consumers and exportable gates; gate qubits only when no gate follows a consumer: otherwise false of the code (C43_late_gate_refuted)."
  },
  {
   "property": "C44",
   "status": "partial",
   "theorems": [
    "C44_to_tn_partial",
    "C44_bit_swap_refuted",
    "C44_bit_swap_wrong_refuted",
    "C44_mixed_swap_refuted",
    "C44_bit_refuted"
   ],
   "note": "Proved for circuits of mixed boxes, pure qubit boxes, controlled boxes, qubit swaps, and bit swaps with equally many bits and qubits on their left; false of the code for other bit swaps, bit/qubit swaps and Bit boxes (C44_*_refuted)."
  },
  {
   "property": "C45",
   "status": "proved",
   "theorems": [
    "C45_spider",
    "C45_spider_types",
    "C45_cup",
    "C45_cap"
   ],
   "note": ""
  },
  {
   "property": "C46",
   "status": "proved",
   "theorems": [
    "C46_init_and_discard"
   ],
   "note": ""
  },
  {
   "property": "C47",
   "status": "proved",
   "theorems": [
    "C47_to_tn"
   ],
   "note": ""
  },
  {
   "property": "C48",
   "status": "partial",
   "theorems": [
    "C48_circuit",
    "C48_circuit_missing",
    "C48_tensor_partial",
    "C48_conjugate_refuted",
    "C48_array_refuted"
   ],
   "note": "Proved for all circuits, and for tensor diagrams without conjugated symbolic boxes or arrays of symbols; false of the code for those (C48_conjugate_refuted, C48_array_refuted)."
  },
  {
   "property": "C49",
   "status": "partial",
   "theorems": [
    "C49_batches_partition",
    "C49_batch_size",
    "C49_constructible",
    "C49_empty_refuted"
   ],
   "note": "Partition theorem for all data, batch sizes and shuffles; an empty dataset cannot be iterated (refuted)."
  },
  {
   "property": "C50",
   "status": "proved",
   "theorems": [
    "C50_finite_map",
    "C50_file_round_trip",
    "C50_failures"
   ],
   "note": ""
  },
  {
   "property": "C51",
   "status": "partial",
   "theorems": [
    "C51_outside_write_partial",
    "C51_crash_loses_checkpoint_refuted"
   ],
   "note": "No crash outside the write window loses data (partial); a crash inside `open(...,'wb')`..dump loses the previous checkpoint (refuted)."
  },
  {
   "property": "C52",
   "status": "partial",
   "theorems": [
    "C52_schedule",
    "C52_evaluation_step",
    "C52_states",
    "C52_none_interval_refuted"
   ],
   "note": "Schedule proved for all runs with a numeric interval; early_stopping/None interval case raises (refuted)."
  },
  {
   "property": "C53",
   "status": "proved",
   "theorems": [
    "C53_criterion",
    "C53_run",
    "C53_not_early"
   ],
   "note": ""
  },
  {
   "property": "C54",
   "status": "partial",
   "theorems": [
    "C54_best_model_partial",
    "C54_resume_refuted"
   ],
   "note": "best_model within one fit call; after a resume the best value starts from scratch (refuted)."
  },
  {
   "property": "C55",
   "status": "partial",
   "theorems": [
    "C55_resume_partial",
    "C55_checkpoint_exists",
    "C55_train_metrics_refuted",
    "C55_early_stopped_refuted"
   ],
   "note": "Weights, optimiser, random streams, costs and validation histories agree; pending train metrics of a partial epoch and an early-stopped run do not (refuted)."
  },
  {
   "property": "C56",
   "status": "partial",
   "theorems": [
    "C56_mask",
    "C56_backward_restores",
    "C56_points_in_bounds",
    "C56_masked_gradient",
    "C56_backward_step",
    "C56_loss_raises_refuted",
    "C56_pinned_weight_refuted"
   ],
   "note": "All losses, masks, samples and strict bounds; refuted if the loss raises (weights stay perturbed) or bounds pin a weight (NaN). Floats are rationals extended with infinities/NaN."
  },
  {
   "property": "C57",
   "status": "partial",
   "theorems": [
    "C57_gains_resume",
    "C57_gain_schedule",
    "C57_gains_resume_at",
    "C57_other_hyperparams_refuted"
   ],
   "note": "Proved for an optimiser constructed with the same a, c; refuted otherwise since load_state_dict does not update hyperparams. Real power is uninterpreted."
  },
  {
   "property": "C58",
   "status": "partial",
   "theorems": [
    "C58_backward",
    "C58_step_weights",
    "C58_absent_parameters_refuted"
   ],
   "note": "Sortedness, minimum, monotonicity, bounds and pairing proved over all histories; refuted: step overwrites absent parameters with project(0). Losses must not raise."
  },
  {
   "property": "C59",
   "status": "partial",
   "theorems": [
    "C59_sweep",
    "C59_range",
    "C59_equivalent_partial",
    "C59_negative_refuted"
   ],
   "note": "Visit order, frame condition and range proved; equivalence mod 1 only for non-negative minimisers, refuted for negative ones (abs)."
  },
  {
   "property": "C60",
   "status": "proved",
   "theorems": [
    "C60_tree",
    "C60_total",
    "C60_suppress",
    "C60_names"
   ],
   "note": "Hypotheses: every childless node is a word with a non-empty text. The height attribute is recomputed on the resolved tree (the code stores it at construction)."
  },
  {
   "property": "C61",
   "status": "partial",
   "theorems": [
    "C61_tokens",
    "C61_white_space",
    "C61_refuse",
    "C61_cups",
    "C61_stairs",
    "C61_stairs_empty_refuted",
    "C61_spiders",
    "C61_custom",
    "C61_custom_diverges"
   ],
   "note": "Proved for every sentence, except that the stairs reader returns the empty diagram (codomain is the empty type) on the empty sentence: C61_stairs_empty_refuted. Custom linear readers terminate when the combining diagram reduces the number of wires, and loop for ever when it does not."
  },
  {
   "property": "C62",
   "status": "partial",
   "theorems": [
    "C62_accepts",
    "C62_accepted_partial",
    "C62_raises",
    "C62_suppress_partial",
    "C62_trailing_refuted",
    "C62_lax_refuted",
    "C62_batch",
    "C62_section",
    "C62_id_line",
    "C62_cut_file",
    "C62_stray_line",
    "C62_classes",
    "C62_strip"
   ],
   "note": "Every well-formed line is read as the tree it denotes; whatever is accepted is a (loosely formatted) derivation and its tree is the one denoted; files/sections covered. Not true as stated: with suppress_exceptions trailing text yields the tree, not None (C62_trailing_refuted), and malformed text is accepted because the character after a closing bracket and the child count are never looked at (C62_lax_refuted)."
  },
  {
   "property": "C63",
   "status": "proved",
   "theorems": [
    "C63_cell",
    "C63_min_score",
    "C63_beam_zero_refuted",
    "C63_added_refuted"
   ],
   "note": "Every beam size >= 1. Remarks outside the statement: beam size 0 raises IndexError on the first add (C63_beam_zero_refuted), and the number returned by add counts a replacement as an addition (C63_added_refuted)."
  },
  {
   "property": "C64",
   "status": "partial",
   "theorems": [
    "C64_equality",
    "C64_equivalence",
    "C64_hash",
    "C64_slash",
    "C64_matches",
    "C64_match_rule",
    "C64_matches_like_equality_refuted"
   ],
   "note": "All equality, hashing and matching laws proved for every proper category and every hash function (improper Category() with no atom excluded). _refuted: the docstring says matches is 'like ==', but S[X] == S while S[X].matches(S) is False."
  },
  {
   "property": "C65",
   "status": "partial",
   "theorems": [
    "C65_sound",
    "C65_textbook",
    "C65_generalised_backward_partial",
    "C65_features_partial",
    "C65_forward_application",
    "C65_backward_application",
    "C65_total",
    "C65_normal_form",
    "C65_generalised_backward_refuted",
    "C65_features_refuted",
    "C65_instantiation_refuted",
    "C65_unmarked_refuted"
   ],
   "note": "Every tree Rules.combine returns satisfies its rule (C65_sound, C65_textbook); application succeeds exactly when the argument unifies; no exception on marked-up categories; Eisner constraint. Refuted parts: generalised backward composition ignores the functor's result; several [X] bindings - the last wins even if they differ, or cancels an earlier one; a part without variable raises KeyError. Unary rules (type raising/changing) and dependencies are not in the model."
  },
  {
   "property": "C66",
   "status": "partial",
   "theorems": [
    "C66_not_pregroup",
    "C66_layers_and_rows",
    "C66_no_spacing_refuted"
   ],
   "note": "Proved for every well-typed pregroup diagram with non-empty names and word_spacing >= 1: layering, liveness and the exact picture of each row. _refuted: with word_spacing=0 adjacent columns make a swap three columns wide."
  },
  {
   "property": "C67",
   "status": "partial",
   "theorems": [
    "C67_node_lists",
    "C67_height",
    "C67_eq",
    "C67_eq_order",
    "C67_drawing",
    "C67_self_cycles",
    "C67_merge",
    "C67_eq_same_index_refuted",
    "C67_negative_index_refuted"
   ],
   "note": "Node lists, height, equality, drawing, self-cycle removal and merge proved for every tree with non-negative word indices. _refuted: with negative indices get_nodes groups different words or raises IndexError; == depends on the order of children that share an index."
  },
  {
   "property": "C68",
   "status": "partial",
   "theorems": [
    "C68_planar_partial",
    "C68_any_result",
    "C68_crossing_refuted",
    "C68_crossing_wrong_refuted"
   ],
   "note": "Proved for trees whose arcs do not cross and do not pass over the root, with no node of type s.r @ n.r.r (the auxiliary-verb repair): full description of the resulting diagram, including which wires each cup joins. For every tree: any returned diagram is a well-typed pregroup diagram with one word box per token made of the token's links. Refuted in general: some trees with crossing arcs (5 tokens) raise ValueError, and over 6 tokens with equal types a diagram can be returned whose cups join words the tree does not link (C68_crossing_wrong_refuted). Missing: which crossing trees are accepted, and the connectivity of their results."
  },
  {
   "property": "C69",
   "status": "partial",
   "theorems": [
    "C69_contraction",
    "C69_root_type",
    "C69_words_merge",
    "C69_words_last",
    "C69_words_first",
    "C69_indices",
    "C69_parents",
    "C69_root_parent_refuted",
    "C69_add_rules"
   ],
   "note": "rewrite is exactly the bounded contraction of matching chains (C69_contraction, an iff); root type, words, indices, parent attributes of descendants. _refuted: a merged root keeps a stale parent attribute."
  },
  {
   "property": "C70",
   "status": "proved",
   "theorems": [
    "C70_lookup",
    "C70_total",
    "C70_representative",
    "C70_keys_distinct",
    "C70_idempotent_refuted"
   ],
   "note": "Remark outside the statement: with overlapping clusters the map need not be idempotent (C70_idempotent_refuted)."
  },
  {
   "property": "C71",
   "status": "partial",
   "theorems": [
    "C71_circuit",
    "C71_entities",
    "C71_frames",
    "C71_sandwich_word",
    "C71_sandwich_noun",
    "C71_first_sentence_refuted"
   ],
   "note": "Proved for every text (non-negative word indices, non-empty sentences, clusters over existing tokens): typing and, in every reading of the boxes, the values on the wires; alignment of the parse with the sentence; slots of frames and sandwiches; per-word semantics of sandwiches. Frames are kept as boxes of the interpretation (their contents: names in order). _refuted: ValueError when the first sentence has no noun left."
  },
  {
   "property": "C72",
   "status": "proved",
   "theorems": [
    "C72_str_to_type",
    "C72_dotted_refuted"
   ],
   "note": "Remark: the no-dot hypothesis of the statement is needed (C72_dotted_refuted)."
  },
  {
   "property": "C73",
   "status": "proved",
   "theorems": [
    "C73_post_select",
    "C73_total",
    "C73_get_counts",
    "C73_rename"
   ],
   "note": ""
  },
  {
   "property": "C74",
   "status": "proved",
   "theorems": [
    "C74_epoch_cost",
    "C74_validation_cost"
   ],
   "note": ""
  },
  {
   "property": "C75",
   "status": "proved",
   "theorems": [
    "C75_getitem"
   ],
   "note": ""
  },
  {
   "property": "C76",
   "status": "partial",
   "theorems": [
    "C76_cap_partial",
    "C76_cap_refuted",
    "C76_snake_refuted"
   ],
   "note": "The cap array is the identity only in dimension 2; false of the code for every dimension from 3 (C76_cap_refuted, C76_snake_refuted)."
  },
  {
   "property": "C77",
   "status": "partial",
   "theorems": [
    "C77_headers_partial",
    "C77_headers_refuted",
    "C77_odd_types"
   ],
   "note": "Full layout theorem; the only missing part is false: when the word is longer than its types by an odd number and has odd length, the wires start one column left of the middle of their types (C77_headers_refuted: str.center and // disagree). Never for types of odd length (C77_odd_types)."
  },
  {
   "property": "C78",
   "status": "partial",
   "theorems": [
    "C78_pruning",
    "C78_prune_twice_refuted",
    "C78_rare_name_refuted",
    "C78_rare_single_refuted"
   ],
   "note": "Exact characterisation of the pruned tokens proved. _refuted, against the docstring: a second mention in the same sentence is not pruned; min_noun_freq goes through the word and can prune another entity; nouns outside clusters are never rare."
  },
  {
   "property": "C79",
   "status": "partial",
   "theorems": [
    "C79_read_tree",
    "C79_round_trip_partial",
    "C79_empty_type_refuted",
    "C79_empty_root_refuted"
   ],
   "note": "Proved: every diagram that shows a tree with non-empty types (crossing or not) is read back as that tree, children sorted; tree -> diagram -> tree is the identity for planar trees without the auxiliary type. Missing: crossing trees and the auxiliary type on the tree -> diagram side (see C68); break_cycles is not modelled. Refuted: a dependent with an empty type disappears, a root with an empty type loses its place."
  },
  {
   "property": "C80",
   "status": "partial",
   "theorems": [
    "C80_bobcat_suppressed",
    "C80_bobcat_strict",
    "C80_oncilla",
    "C80_oncilla_stop",
    "C80_web",
    "C80_web_refuted",
    "C80_depccg",
    "C80_depccg_strict",
    "C80_depccg_input_partial",
    "C80_depccg_input_refuted",
    "C80_type_check",
    "C80_diagrams"
   ],
   "note": "Alignment proved for Bobcat, Oncilla, WebParser, DepCCG and CCGParser.sentences2diagrams over arbitrary models (assumed to return one result per sentence of a batch; for WebParser/DepCCG with suppression, that answers convert to trees). Refuted: WebParser does not suppress a malformed answer; DepCCG deletes empty sentences from the caller's list when the input is tokenised (C80_depccg_input_refuted)."
  },
  {
   "property": "C81",
   "status": "proved",
   "theorems": [
    "C81_chart_spans",
    "C81_inverse"
   ],
   "note": ""
  },
  {
   "property": "C82",
   "status": "partial",
   "theorems": [
    "C82_tagger_partial",
    "C82_null_refuted"
   ],
   "note": "Proved for the relative tag strategy when no (tag, score) pair equals a (span category, score) pair. The code decides whether it is handling tags by comparing lists for equality, so in the other cases the null category can be listed as a span (C82_null_refuted)."
  },
  {
   "property": "C83",
   "status": "partial",
   "theorems": [
    "C83_fast_subs",
    "C83_unknown",
    "C83_model_symbols",
    "C83_from_diagrams",
    "C83_torch",
    "C83_torch_unknown",
    "C83_torch_scaled_refuted",
    "C83_stale_refuted"
   ],
   "note": "Substitution, KeyError and the symbol list are proved for all heaps of shared boxes. Refuted parts: PytorchModel looks a scaled symbol up with its scale (KeyError on its own diagram), and boxes around a controlled box keep the symbol in data/free_symbols."
  },
  {
   "property": "C84",
   "status": "proved",
   "theorems": [
    "C84_cell",
    "C84_best"
   ],
   "note": ""
  },
  {
   "property": "C85",
   "status": "partial",
   "theorems": [
    "C85_sound",
    "C85_cells",
    "C85_complete",
    "C85_errors",
    "C85_bobcat",
    "C85_untagged_refuted",
    "C85_untagged_root_refuted"
   ],
   "note": "Soundness, completeness up to the beam and totality are proved. Refuted part: when a word has no supertags the parser does not fail but returns trees over the words before it, with any root category. The completeness is per cell (a tree may displace another of its category), as in the code."
  },
  {
   "property": "C86",
   "status": "proved",
   "theorems": [
    "C86_tree",
    "C86_diagram"
   ],
   "note": "Composes C85 (chart parser), the tree conversion and C25 (to_diagram). The regularity condition excludes the parses for which C25 is refuted or open; the NN supertagger is an arbitrary function."
  },
  {
   "property": "C87",
   "status": "partial",
   "theorems": [
    "C87_drawing_shows_diagram",
    "C87_empty_diagram_refuted"
   ],
   "note": "Proved for every diagram except the identity on the empty type, for which from_diagram raises ValueError (min of an empty list): refuted there."
  },
  {
   "property": "C88",
   "status": "partial",
   "theorems": [
    "C88_wires_and_legs",
    "C88_no_overlap",
    "C88_box_edges",
    "C88_overlap_refuted",
    "C88_scaling"
   ],
   "note": "Coordinates are rationals. Non-overlap is refuted for unfoliated drawings of diagrams that pass through the empty type between two boxes (_make_space answers (0, 0) whenever no wire is open); proved in all other cases."
  },
  {
   "property": "C89",
   "status": "proved",
   "theorems": [
    "C89_cross_entropy",
    "C89_not_negative",
    "C89_one_hot",
    "C89_minimum",
    "C89_sparse",
    "C89_mean_square",
    "C89_shapes"
   ],
   "note": "Numbers are real numbers (Coq Reals), not floats; a value that is not finite (nan, inf) is None. Uses the axioms of the standard library's Reals, listed in DESIGN.md."
  },
  {
   "property": "C90",
   "status": "partial",
   "theorems": [
    "C90_probabilities",
    "C90_special_cases",
    "C90_scale",
    "C90_tiny_refuted"
   ],
   "note": "Refuted for vectors whose absolute values sum to less than 1e-9 (but not to 0), which are scaled by 1e9 and so neither normalised nor kept; proved for all others. Real numbers, not floats."
  },
  {
   "property": "C91",
   "status": "partial",
   "theorems": [
    "C91_evaluation_partial",
    "C91_scalars",
    "C91_dagger_refuted",
    "C91_zero_angle_refuted",
    "C91_controlled_ry_refuted",
    "C91_adjacent_scalars_refuted",
    "C91_toffoli_refuted",
    "C91_ket_one_refuted"
   ],
   "note": "PennyLane is modelled by the action of its operations on amplitudes (a one-qubit matrix, controlled by the wires before the last). Missing and refuted: daggered S/T, angle 0, CRy, double controls, adjacent scalars, Ket(1); scaled symbols are C92. Mixed circuits are not covered. The set of open wires is assumed to be iterated in ascending order (C93)."
  },
  {
   "property": "C92",
   "status": "partial",
   "theorems": [
    "C92_substitution_partial",
    "C92_scaled_refuted"
   ],
   "note": "Proved for symbols without coefficient; refuted (for every circuit) as soon as one symbol has a coefficient."
  },
  {
   "property": "C93",
   "status": "partial",
   "theorems": [
    "C93_states",
    "C93_all_states",
    "C93_index",
    "C93_order_refuted",
    "C93_evaluation_refuted"
   ],
   "note": "States and indices are proved for every iteration order; that the axes are in wire order is refuted for orders that are not ascending."
  },
  {
   "property": "C94",
   "status": "proved",
   "theorems": [
    "C94_key",
    "C94_history",
    "C94_repeat",
    "C94_memory_limit_refuted",
    "C94_limit"
   ],
   "note": "Symbols are an arbitrary injective function of the position; the search is an arbitrary function. Refuted only for the memory limit, which is not part of the key."
  },
  {
   "property": "C95",
   "status": "partial",
   "theorems": [
    "C95_file_partial",
    "C95_new_file_refuted",
    "C95_crash_refuted",
    "C95_checkpoint"
   ],
   "note": "Proved when the file exists; refuted when it does not (a directory is made at its path) and for a process killed while saving."
  },
  {
   "property": "C96",
   "status": "partial",
   "theorems": [
    "C96_contraction_partial",
    "C96_cached_partial",
    "C96_good_states",
    "C96_single_node",
    "C96_bad_order",
    "C96_trace_refuted",
    "C96_trace_shared_refuted"
   ],
   "note": "tensornetwork is modelled: contract_between sums over shared edges, a node is its edges and its entries. Missing and refuted: nodes with an edge to themselves (a cup on two legs of one box), which are dropped. C96_single_node: a path over one node with self-edges traces them out."
  },
  {
   "property": "C97",
   "status": "partial",
   "theorems": [
    "C97_circuital",
    "C97_layout",
    "C97_amplitude",
    "C97_empty_refuted",
    "C97_two_qubit_refuted",
    "C97_bits_refuted",
    "C97_controls_refuted"
   ],
   "note": "Amplitudes: for circuits without discards, every interpretation in which preparations, post-selections and X are what they are called. Layers and boxes are values in the model (in the code CCX shares the object CX). Refuted: empty circuits, two-qubit boxes other than controlled gates and swaps, bits left of a swap, controls on both sides or three on the right."
  },
  {
   "property": "C98",
   "status": "partial",
   "theorems": [
    "C98_str",
    "C98_str_injective",
    "C98_repr",
    "C98_repr_refuted",
    "C98_parsed",
    "C98_parsed_again",
    "C98_direction_refuted",
    "C98_errors",
    "C98_dictionary"
   ],
   "note": "Regular expressions modelled by longest matches (\\d as ASCII digits). Refuted: repr of categories with an unmarked part ending in a mark; unchecked directions. The numbers repr writes after relations count the relations, not the arguments, so they change on a second reading."
  },
  {
   "property": "C99",
   "status": "proved",
   "theorems": [
    "C99_denotation",
    "C99_interpretation",
    "C99_equal_meaning",
    "C99_interchange",
    "C99_normal_forms"
   ],
   "note": "Strict monoidal categories as in Cat.v. Reversed cups and caps on compound images (which the functor rejects) are interpreted by nested ones when pulling an interpretation back. Target category is grammar; callbacks are pure. For normal forms, cups and caps of the diagram have one orientation (no_mixed), as in C12/C13."
  },
  {
   "property": "C100",
   "status": "partial",
   "theorems": [
    "C100_nodes",
    "C100_raises",
    "C100_unique",
    "C100_deepest",
    "C100_words_refuted",
    "C100_self_cycle_refuted",
    "C100_missing_words_refuted"
   ],
   "note": "A node is identified with its position in the tree; detaching is recorded in a list of positions. node.parent.children.remove(node) removes the node itself (with __eq__ it removes the first equal child, which is a copy with an equal subtree). The full property is false where stated (refuted theorems); the trees that diagram2tree builds satisfy the leaf hypothesis (not proved)."
  },
  {
   "property": "C101",
   "status": "partial",
   "theorems": [
    "C101_validate",
    "C101_output",
    "C101_errors",
    "C101_image_names",
    "C101_image_file",
    "C101_extension_refuted",
    "C101_options",
    "C101_reload_partial",
    "C101_reload_refuted",
    "C101_ansatz_options_refuted"
   ],
   "note": "argparse, YAML and spaCy are not modelled; reading of the input, parsers, readers, rewriter, ansatz and drawing are arbitrary functions that may raise; effects are a list (so files left by a run that fails half way are not described). C101_reload_partial: the mode is missing, because it is not loaded (C101_reload_refuted)."
  }
 ]
}