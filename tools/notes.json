{
 "C03": {
  "note": "insert/replace proved for all non-negative indices and for negative insert on compound types; refuted: negative insert on an atomic type drops it, replace at index == len overwrites the last factor."
 },
 "C07": {
  "note": "All boxes and diagrams whose frames have at most one component; inverse rotations cancel for all frames. Refuted in general: Frame.rotate reverses its components on every call, so rotate(0) is not the identity for frames with >= 2 components."
 },
 "C08": {
  "note": "Everything proved except reversed proper slices, which keep the whole diagram's dom/cod (refuted)."
 },
 "C10": {
  "note": "Non-reversed cups/caps (wiring, typing, and the snake equations for compound types), swaps and spiders for all types; reversed cups/caps on compound types always raise (refuted)."
 },
 "C18": {
  "note": "Typing for all diagrams; transposing to one side and back, and applying a curried diagram to its exponent again, give the same morphism in every strict monoidal category in which atomic cups and caps straighten. Refuted: curry(0, left=True) moves the whole domain."
 },
 "C13": {
  "note": "Proved for every well-typed diagram without a mixed-orientation cap/cup pair; for mixed pairs the code produces an ill-typed or different diagram (refuted)."
 },
 "C19": {
  "note": "Faithful for every duration whose rounded seconds stay below 60; 59.6 s prints as 60s (refuted)."
 },
 "C49": {
  "note": "Partition theorem for all data, batch sizes and shuffles; an empty dataset cannot be iterated (refuted)."
 },
 "C51": {
  "note": "No crash outside the write window loses data (partial); a crash inside `open(...,'wb')`..dump loses the previous checkpoint (refuted)."
 },
 "C52": {
  "note": "Schedule proved for all runs with a numeric interval; early_stopping/None interval case raises (refuted)."
 },
 "C54": {
  "note": "best_model within one fit call; after a resume the best value starts from scratch (refuted)."
 },
 "C55": {
  "note": "Weights, optimiser, random streams, costs and validation histories agree; pending train metrics of a partial epoch and an early-stopped run do not (refuted)."
 },
 "C56": {
  "note": "All losses, masks, samples and strict bounds; refuted if the loss raises (weights stay perturbed) or bounds pin a weight (NaN). Floats are rationals extended with infinities/NaN."
 },
 "C57": {
  "note": "Proved for an optimiser constructed with the same a, c; refuted otherwise since load_state_dict does not update hyperparams. Real power is uninterpreted."
 },
 "C58": {
  "note": "Sortedness, minimum, monotonicity, bounds and pairing proved over all histories; refuted: step overwrites absent parameters with project(0). Losses must not raise."
 },
 "C59": {
  "note": "Visit order, frame condition and range proved; equivalence mod 1 only for non-negative minimisers, refuted for negative ones (abs)."
 },
 "C21": {
  "note": "Parsing = the documented grammar, termination, round trip and injectivity for all types/strings. Refuted: the rejection is not always CCGParseError ('(a/b/c)' raises AssertionError)."
 },
 "C23": {
  "note": "Soundness for all types without the empty type, and recognition of every instance. Refuted only for the empty CCG type under generalised backward composition."
 },
 "C24": {
  "note": "Proved for every rewritten codomain of the rule's shape; refuted without the shape hypothesis (type raising is not checked)."
 },
 "C25": {
  "note": "Proved for all trees whose nodes are rule instances, including unary nodes that change the type of a constituent with a lexical head (the change is pushed down to the head word), coordination below them and the ADJ-as-FA case. Not covered: type changes above compositions and raisings. Planar word preservation holds when generalised crossed rules open up leaves only (refuted otherwise: a word is lost). Refuted corner cases: pair of punctuation leaves, type-changing unary over a raised type, slash-turning unary."
 },
 "C14": {
  "note": "Types, identities, composition, tensor, cups/caps of compound types, swaps, spiders and wirings preserved for every object map. Typing is partial: reversed cups/caps only on types with at most one image factor (refuted otherwise: ValueError). Dagger and rotation preservation proved for frame-free diagrams whose structural boxes have atomic images. Target category is grammar; callbacks are pure."
 },
 "C15": {
  "note": "History independence proved for histories of calls that returned normally (or raised something other than TypeError with a total object map); refuted after a failed type check: the ill-typed image stays in the cache and is returned by the next call."
 },
 "C16": {
  "note": "Types: full. Boxes/layers/diagrams: every Daggered wraps a plain Box and frame components are diagrams, caps, cups, swaps, spiders or frames; refuted outside (Daggered(Word) and frames with Box/Word/Daggered/DaggeredFrame components raise KeyError). JSON text encoding is trusted."
 },
 "C29": {
  "note": "Rules take effect for boxes not rewritten earlier by the same Rewriter (partial); refuted for boxes already in the rewriter cache: add_rules does not clear it."
 },
 "C30": {
  "note": "Case-insensitive matching holds when the rule words are lower case; refuted for a rule built with capitalised words and case_sensitive=False (words are not lower-cased at construction)."
 },
 "C31": {
  "note": "Proved with words of the collection unrotated/undaggered and min_freq >= 1; refuted otherwise (rotated words are counted under their rotated type, daggered words are not counted, min_freq 0 still replaces absent words)."
 },
 "C32": {
  "note": "Interface, words, cup count and denotation (in every monoidal category whose interpretation reads turned boxes as bent boxes) proved for every returned result; totality only without directly nested cups, and refuted in general (second pass raises ValueError)."
 },
 "C33": {
  "note": "Swap elimination proved total and sound; whole rewriter proved correct when no cup joins two wires of one word; every returned diagram is a well-typed swap-free pregroup diagram. Refuted in general: the codomain can change, and IndexError can be raised (off-by bookkeeping in _remove_detached_cups)."
 },
 "C63": {
  "status": "proved",
  "note": "Every beam size >= 1. Remarks outside the statement: beam size 0 raises IndexError on the first add (C63_beam_zero_refuted), and the number returned by add counts a replacement as an addition (C63_added_refuted)."
 },
 "C70": {
  "status": "proved",
  "note": "Remark outside the statement: with overlapping clusters the map need not be idempotent (C70_idempotent_refuted)."
 },
 "C72": {
  "status": "proved",
  "note": "Remark: the no-dot hypothesis of the statement is needed (C72_dotted_refuted)."
 },
 "C40": {
  "note": "All one-qubit, controlled and doubly controlled gates, every order and distance of distinct qubits, operator semantics and export. False for the two-qubit SWAP on non-adjacent qubits (C40_swap_refuted): it is applied at min, min+1."
 },
 "C42": {
  "note": "Proved for Rx, Ry, Rz, CRx, CRz; false of the code for CRy and for doubly controlled rotations (phase None)."
 },
 "C43": {
  "note": "Attribution of measured / post-selected / discarded wires, numbering and partition proved for all circuital diagrams of kets, consumers and exportable gates; gate qubits only when no gate follows a consumer: otherwise false of the code (C43_late_gate_refuted)."
 },
 "C44": {
  "note": "Proved for circuits of mixed boxes, pure qubit boxes, controlled boxes, qubit swaps, and bit swaps with equally many bits and qubits on their left; false of the code for other bit swaps, bit/qubit swaps and Bit boxes (C44_*_refuted)."
 },
 "C76": {
  "note": "The cap array is the identity only in dimension 2; false of the code for every dimension from 3 (C76_cap_refuted, C76_snake_refuted)."
 },
 "C48": {
  "note": "Proved for all circuits, and for tensor diagrams without conjugated symbolic boxes or arrays of symbols; false of the code for those (C48_conjugate_refuted, C48_array_refuted)."
 },
 "C61": {
  "note": "Proved for every sentence, except that the stairs reader returns the empty diagram (codomain is the empty type) on the empty sentence: C61_stairs_empty_refuted. Custom linear readers terminate when the combining diagram reduces the number of wires, and loop for ever when it does not.",
  "status": "partial"
 },
 "C60": {
  "note": "Hypotheses: every childless node is a word with a non-empty text. The height attribute is recomputed on the resolved tree (the code stores it at construction)."
 },
 "C62": {
  "note": "Every well-formed line is read as the tree it denotes; whatever is accepted is a (loosely formatted) derivation and its tree is the one denoted; files/sections covered. Not true as stated: with suppress_exceptions trailing text yields the tree, not None (C62_trailing_refuted), and malformed text is accepted because the character after a closing bracket and the child count are never looked at (C62_lax_refuted)."
 },
 "C64": {
  "note": "All equality, hashing and matching laws proved for every proper category and every hash function (improper Category() with no atom excluded). _refuted: the docstring says matches is 'like ==', but S[X] == S while S[X].matches(S) is False."
 },
 "C65": {
  "note": "Every tree Rules.combine returns satisfies its rule (C65_sound, C65_textbook); application succeeds exactly when the argument unifies; no exception on marked-up categories; Eisner constraint. Refuted parts: generalised backward composition ignores the functor's result; several [X] bindings - the last wins even if they differ, or cancels an earlier one; a part without variable raises KeyError. Unary rules (type raising/changing) and dependencies are not in the model."
 },
 "C66": {
  "note": "Proved for every well-typed pregroup diagram with non-empty names and word_spacing >= 1: layering, liveness and the exact picture of each row. _refuted: with word_spacing=0 adjacent columns make a swap three columns wide."
 },
 "C77": {
  "note": "Full layout theorem; the only missing part is false: when the word is longer than its types by an odd number and has odd length, the wires start one column left of the middle of their types (C77_headers_refuted: str.center and // disagree). Never for types of odd length (C77_odd_types)."
 },
 "C67": {
  "note": "Node lists, height, equality, drawing, self-cycle removal and merge proved for every tree with non-negative word indices. _refuted: with negative indices get_nodes groups different words or raises IndexError; == depends on the order of children that share an index."
 },
 "C69": {
  "note": "rewrite is exactly the bounded contraction of matching chains (C69_contraction, an iff); root type, words, indices, parent attributes of descendants. _refuted: a merged root keeps a stale parent attribute."
 },
 "C71": {
  "note": "Proved for every text (non-negative word indices, non-empty sentences, clusters over existing tokens): typing and, in every reading of the boxes, the values on the wires; alignment of the parse with the sentence; slots of frames and sandwiches; per-word semantics of sandwiches. Frames are kept as boxes of the interpretation (their contents: names in order). _refuted: ValueError when the first sentence has no noun left."
 },
 "C78": {
  "note": "Exact characterisation of the pruned tokens proved. _refuted, against the docstring: a second mention in the same sentence is not pruned; min_noun_freq goes through the word and can prune another entity; nouns outside clusters are never rare."
 },
 "C68": {
  "note": "Proved for trees whose arcs do not cross and do not pass over the root, with no node of type s.r @ n.r.r (the auxiliary-verb repair): full description of the resulting diagram, including which wires each cup joins. For every tree: any returned diagram is a well-typed pregroup diagram with one word box per token made of the token's links. Refuted in general: some trees with crossing arcs (5 tokens) raise ValueError, and over 6 tokens with equal types a diagram can be returned whose cups join words the tree does not link (C68_crossing_wrong_refuted). Missing: which crossing trees are accepted, and the connectivity of their results."
 },
 "C79": {
  "note": "Proved: every diagram that shows a tree with non-empty types (crossing or not) is read back as that tree, children sorted; tree -> diagram -> tree is the identity for planar trees without the auxiliary type. Missing: crossing trees and the auxiliary type on the tree -> diagram side (see C68); break_cycles is not modelled. Refuted: a dependent with an empty type disappears, a root with an empty type loses its place."
 },
 "C80": {
  "note": "Alignment proved for Bobcat, Oncilla, WebParser, DepCCG and CCGParser.sentences2diagrams over arbitrary models (assumed to return one result per sentence of a batch; for WebParser/DepCCG with suppression, that answers convert to trees). Refuted: WebParser does not suppress a malformed answer; DepCCG deletes empty sentences from the caller's list when the input is tokenised (C80_depccg_input_refuted)."
 },
 "C82": {
  "note": "Proved for the relative tag strategy when no (tag, score) pair equals a (span category, score) pair. The code decides whether it is handling tags by comparing lists for equality, so in the other cases the null category can be listed as a span (C82_null_refuted)."
 },
 "C83": {
  "note": "Substitution, KeyError and the symbol list are proved for all heaps of shared boxes. Refuted parts: PytorchModel looks a scaled symbol up with its scale (KeyError on its own diagram), and boxes around a controlled box keep the symbol in data/free_symbols."
 },
 "C85": {
  "note": "Soundness, completeness up to the beam and totality are proved. Refuted part: when a word has no supertags the parser does not fail but returns trees over the words before it, with any root category. The completeness is per cell (a tree may displace another of its category), as in the code."
 },
 "C86": {
  "note": "Composes C85 (chart parser), the tree conversion and C25 (to_diagram). The regularity condition excludes the parses for which C25 is refuted or open; the NN supertagger is an arbitrary function."
 },
 "C87": {
  "note": "Proved for every diagram except the identity on the empty type, for which from_diagram raises ValueError (min of an empty list): refuted there."
 },
 "C88": {
  "note": "Coordinates are rationals. Non-overlap is refuted for unfoliated drawings of diagrams that pass through the empty type between two boxes (_make_space answers (0, 0) whenever no wire is open); proved in all other cases."
 },
 "C89": {
  "note": "Numbers are real numbers (Coq Reals), not floats; a value that is not finite (nan, inf) is None. Uses the axioms of the standard library's Reals, listed in DESIGN.md."
 },
 "C90": {
  "note": "Refuted for vectors whose absolute values sum to less than 1e-9 (but not to 0), which are scaled by 1e9 and so neither normalised nor kept; proved for all others. Real numbers, not floats."
 },
 "C91": {
  "note": "PennyLane is modelled by the action of its operations on amplitudes (a one-qubit matrix, controlled by the wires before the last). Missing and refuted: daggered S/T, angle 0, CRy, double controls, adjacent scalars, Ket(1); scaled symbols are C92. Mixed circuits are not covered. The set of open wires is assumed to be iterated in ascending order (C93)."
 },
 "C92": {
  "note": "Proved for symbols without coefficient; refuted (for every circuit) as soon as one symbol has a coefficient."
 },
 "C93": {
  "note": "States and indices are proved for every iteration order; that the axes are in wire order is refuted for orders that are not ascending."
 },
 "C94": {
  "note": "Symbols are an arbitrary injective function of the position; the search is an arbitrary function. Refuted only for the memory limit, which is not part of the key.",
  "status": "proved"
 },
 "C95": {
  "note": "Proved when the file exists; refuted when it does not (a directory is made at its path) and for a process killed while saving."
 },
 "C96": {
  "note": "tensornetwork is modelled: contract_between sums over shared edges, a node is its edges and its entries. Missing and refuted: nodes with an edge to themselves (a cup on two legs of one box), which are dropped. C96_single_node: a path over one node with self-edges traces them out."
 },
 "C97": {
  "note": "Amplitudes: for circuits without discards, every interpretation in which preparations, post-selections and X are what they are called. Layers and boxes are values in the model (in the code CCX shares the object CX). Refuted: empty circuits, two-qubit boxes other than controlled gates and swaps, bits left of a swap, controls on both sides or three on the right."
 },
 "C98": {
  "note": "Regular expressions modelled by longest matches (\\d as ASCII digits). Refuted: repr of categories with an unmarked part ending in a mark; unchecked directions. The numbers repr writes after relations count the relations, not the arguments, so they change on a second reading."
 },
 "C99": {
  "note": "Strict monoidal categories as in Cat.v. Reversed cups and caps on compound images (which the functor rejects) are interpreted by nested ones when pulling an interpretation back. Target category is grammar; callbacks are pure. For normal forms, cups and caps of the diagram have one orientation (no_mixed), as in C12/C13."
 },
 "C100": {
  "note": "A node is identified with its position in the tree; detaching is recorded in a list of positions. node.parent.children.remove(node) removes the node itself (with __eq__ it removes the first equal child, which is a copy with an equal subtree). The full property is false where stated (refuted theorems); the trees that diagram2tree builds satisfy the leaf hypothesis (not proved)."
 },
 "C101": {
  "note": "argparse, YAML and spaCy are not modelled; reading of the input, parsers, readers, rewriter, ansatz and drawing are arbitrary functions that may raise; effects are a list (so files left by a run that fails half way are not described). C101_reload_partial: the mode is missing, because it is not loaded (C101_reload_refuted)."
 }
}