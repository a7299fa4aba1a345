{"id": "C01", "title": "Types form a free monoid under @", "statement": "Tensoring grammar types with `@` is associative, has the empty type as two-sided unit, concatenates the atomic factors in order, and always returns a flat value (never a singleton or nested product), so two types are equal iff their sequences of atomic factors are equal.", "quantifier": "all flat types of any length and all names/winding numbers", "why_tests_cant": "Needs every nesting and length of products; tests use three or four hand-written types.", "anchors": ["lambeq/backend/grammar.py: Ty.tensor", "lambeq/backend/grammar.py: Ty._fromiter", "lambeq/backend/grammar.py: Ty.__iter__", "lambeq/backend/grammar.py: Ty.repeat"]}
{"id": "C02", "title": "Adjoints of types", "statement": "`t.rotate(a).rotate(b) == t.rotate(a+b)`, `t.l.r == t == t.r.l`, and `(s @ t).rotate(z)` is `t.rotate(z) @ s.rotate(z)` for odd z and `s.rotate(z) @ t.rotate(z)` for even z (positive or negative).", "quantifier": "all flat types and all integers a, b, z", "why_tests_cant": "Unbounded winding numbers and lengths; negative odd winding numbers exercise Python's floor modulo.", "anchors": ["lambeq/backend/grammar.py: Ty.rotate", "lambeq/backend/grammar.py: Ty.l", "lambeq/backend/grammar.py: Ty.r", "lambeq/backend/grammar.py: Ty.unwind"]}
{"id": "C03", "title": "Ty.insert and Ty.replace edit exactly the addressed position", "statement": "For every in-range index, `t.insert(u, i)` has the factors of t with those of u spliced in before position i, and `t.replace(u, i)` has factor i of t substituted by the factors of u, all others unchanged; out-of-range indices raise IndexError.", "quantifier": "all flat types t, u and all integer indices, including negative ones and index == len(t)", "why_tests_cant": "Boundary indices (len, negative) on atomic vs complex types are easy to miss; the claim ranges over all of them.", "anchors": ["lambeq/backend/grammar.py: Ty.insert", "lambeq/backend/grammar.py: Ty.replace"]}
{"id": "C04", "title": "Diagrams built through the API are well typed", "statement": "Every diagram obtained from identities and boxes by `>>`, `@`, `then_at`, dagger and rotate has layers that compose: each layer's domain is the previous layer's codomain, the first/last match the diagram's dom/cod; and `f >> g` raises ValueError exactly when f.cod != g.dom.", "quantifier": "all finite expressions over boxes, identities and the composition operators", "why_tests_cant": "Induction over arbitrary construction expressions; tests check single diagrams.", "anchors": ["lambeq/backend/grammar.py: Diagram.then", "lambeq/backend/grammar.py: Diagram.tensor", "lambeq/backend/grammar.py: Diagram.then_at", "lambeq/backend/grammar.py: Layer.extend", "lambeq/backend/grammar.py: Box.to_diagram"]}
{"id": "C05", "title": "Diagrams form a strict monoidal category up to interchange", "statement": "`>>` is associative with identities as units; `@` is associative with the empty identity as unit (on the nose); and (f @ g) >> (h @ k) and (f >> h) @ (g >> k) denote the same morphism in every strict monoidal category interpreting the boxes.", "quantifier": "all well-typed diagrams", "why_tests_cant": "A universally quantified equation between arbitrarily large diagrams.", "anchors": ["lambeq/backend/grammar.py: Diagram.then", "lambeq/backend/grammar.py: Diagram.tensor", "lambeq/backend/grammar.py: Diagram.id"]}
{"id": "C06", "title": "Dagger is an involutive contravariant functor", "statement": "`d.dagger().dagger() == d`, dagger swaps dom and cod, `(f >> g).dagger() == g.dagger() >> f.dagger()`, and the dagger of a well-typed diagram is well typed; the same holds box-wise for caps, cups, swaps, spiders, words, daggered boxes and frames.", "quantifier": "all boxes and diagrams", "why_tests_cant": "Must hold for every box class (including reversed cups/caps) and every diagram.", "anchors": ["lambeq/backend/grammar.py: Diagram.dagger", "lambeq/backend/grammar.py: Box.dagger", "lambeq/backend/grammar.py: Cap.dagger", "lambeq/backend/grammar.py: Cup.dagger", "lambeq/backend/grammar.py: Daggered", "lambeq/backend/grammar.py: DaggeredFrame"]}
{"id": "C07", "title": "Rotation (adjoint) is an integer action on boxes and diagrams", "statement": "`x.rotate(0) == x`, `x.rotate(a).rotate(b) == x.rotate(a+b)`, `x.l.r == x == x.r.l`, rotation keeps diagrams well typed with dom/cod rotated, and commutes with dagger.", "quantifier": "all boxes (boxes, words, cups, caps, swaps, spiders, daggers, frames), diagrams and integers", "why_tests_cant": "Ranges over all winding numbers and recursively over frames.", "anchors": ["lambeq/backend/grammar.py: Box.rotate", "lambeq/backend/grammar.py: Cap.rotate", "lambeq/backend/grammar.py: Cup.rotate", "lambeq/backend/grammar.py: Swap.rotate", "lambeq/backend/grammar.py: Spider.rotate", "lambeq/backend/grammar.py: Frame.rotate", "lambeq/backend/grammar.py: Diagram.rotate"]}
{"id": "C08", "title": "Slicing a diagram", "statement": "For a well-typed diagram, every forward slice d[i:j] is well typed, d[:i] >> d[i:] == d for every integer i (negative and out of range included), d[::-1] == d.dagger(), and a reversed slice d[i:j:-1] is a well-typed diagram.", "quantifier": "all well-typed diagrams and all (optional, possibly negative) bounds", "why_tests_cant": "Negative/out-of-range/None bounds times all diagrams.", "anchors": ["lambeq/backend/grammar.py: Diagram.__getitem__"]}
{"id": "C09", "title": "Diagram.permutation routes wires as requested", "statement": "For a valid permutation p of the wires of dom, Diagram.permutation(dom, p) is a well-typed diagram made only of swaps whose k-th output wire is input wire p[k]; an invalid permutation raises ValueError.", "quantifier": "all types and all index lists", "why_tests_cant": "n! permutations for every n.", "anchors": ["lambeq/backend/grammar.py: Diagram.permutation", "lambeq/backend/grammar.py: Diagram.permuted"]}
{"id": "C10", "title": "Swaps, cups, caps and spiders of compound types", "statement": "Swap(l, r) on compound types exchanges the two blocks of wires keeping each block's internal order; Cup/Cap of adjoint compound types connect wire i of the left with wire n-1-i of the right and are well typed, for both orientations (is_reversed); Spider of a compound type is well typed with dom t**n and cod t**m.", "quantifier": "all types of any length, both orientations and all leg counts", "why_tests_cant": "Unbounded type lengths and leg counts.", "anchors": ["lambeq/backend/grammar.py: Swap.__new__", "lambeq/backend/grammar.py: Cup.__new__", "lambeq/backend/grammar.py: Cap.__new__", "lambeq/backend/grammar.py: Spider.__new__", "lambeq/backend/grammar.py: Diagram.cups", "lambeq/backend/grammar.py: Diagram.caps"]}
{"id": "C11", "title": "Interchanging boxes preserves the morphism", "statement": "interchange(d, i, j) either raises (bad index, or connected boxes) or returns a well-typed diagram with the same dom and cod, the same boxes up to reordering (box i now at position j), denoting the same morphism in every strict monoidal category.", "quantifier": "all well-typed diagrams and all index pairs, near or far", "why_tests_cant": "Recursive over arbitrary distances and geometries, including zero-width boxes.", "anchors": ["lambeq/backend/snake_removal.py: interchange"]}
{"id": "C12", "title": "normal_form terminates and preserves meaning", "statement": "`d.normal_form()` on a well-typed diagram without mixed-orientation snakes always terminates, either returning a well-typed diagram with the same dom/cod denoting the same morphism in every rigid interpretation and having no further interchange moves, or raising NotImplementedError.", "quantifier": "all well-typed diagrams, both `left` flags", "why_tests_cant": "Termination over an unbounded rewrite sequence.", "anchors": ["lambeq/backend/snake_removal.py: normalize", "lambeq/backend/grammar.py: Diagram.normal_form"]}
{"id": "C13", "title": "remove_snakes is sound and complete for yankable pairs", "statement": "`d.remove_snakes()` terminates without raising, the result is well typed with the same dom/cod, denotes the same morphism in every category satisfying the snake equations, and contains no remaining yankable cup-cap pair.", "quantifier": "all well-typed diagrams (any number of snakes, obstructions, orientation of cups/caps)", "why_tests_cant": "Obstruction bookkeeping over arbitrary geometries.", "anchors": ["lambeq/backend/snake_removal.py: snake_removal", "lambeq/backend/grammar.py: Diagram.remove_snakes"]}
{"id": "C14", "title": "Functors preserve typing and structure", "statement": "If the object and box maps of a Functor are type-respecting, applying it to a well-typed diagram succeeds and yields a well-typed diagram from F(dom) to F(cod); F preserves identities, composition and tensor of types and diagrams, adjoints and daggers, cups, caps, swaps, spiders.", "quantifier": "all functors and all diagrams", "why_tests_cant": "Ranges over arbitrary user supplied maps and diagrams.", "anchors": ["lambeq/backend/grammar.py: Functor", "lambeq/backend/grammar.py: Ty.apply_functor", "lambeq/backend/grammar.py: Box.apply_functor", "lambeq/backend/grammar.py: Diagram.apply_functor", "lambeq/backend/grammar.py: Cap.apply_functor", "lambeq/backend/grammar.py: Cup.apply_functor"]}
{"id": "C15", "title": "Functor caching is unobservable", "statement": "A Functor object's result on an entity does not depend on the history of previous calls: it returns the uncached value, or raises TypeError whenever the uncached image has the wrong dom/cod, on the first and on every later call.", "quantifier": "all call histories on one Functor object", "why_tests_cant": "History-dependent: a stale or poisoned cache shows only after particular sequences of calls.", "anchors": ["lambeq/backend/grammar.py: Functor.ar_with_cache", "lambeq/backend/grammar.py: Functor.ob_with_cache"]}
{"id": "C16", "title": "JSON round trip of types, boxes and diagrams", "statement": "`X.from_json(x.to_json()) == x` for every type, box, layer, diagram and frame, at top level or nested.", "quantifier": "all entities of the grammar category, arbitrarily nested", "why_tests_cant": "Recursive data with nine box classes; tests sample a few.", "anchors": ["lambeq/backend/grammar.py: Ty.to_json", "lambeq/backend/grammar.py: Box.to_json", "lambeq/backend/grammar.py: Daggered.from_json", "lambeq/backend/grammar.py: Frame.from_json", "lambeq/backend/grammar.py: DaggeredFrame.from_json", "lambeq/backend/grammar.py: Layer.from_json", "lambeq/backend/grammar.py: Diagram.from_json", "lambeq/backend/grammar.py: Category.from_json"]}
{"id": "C17", "title": "create_pregroup_diagram applies cups to the named wires", "statement": "For words and a list of cups on properly nested, not yet contracted wire pairs (given by original wire indices), Diagram.create_pregroup_diagram returns a well-typed diagram with empty domain in which each cup contracts exactly those two wires, and whose codomain is the sequence of uncontracted wires.", "quantifier": "all word lists and all well-nested cup lists", "why_tests_cant": "Index shifting over all nesting orders.", "anchors": ["lambeq/backend/grammar.py: Diagram.create_pregroup_diagram"]}
{"id": "C18", "title": "transpose and curry are well typed", "statement": "transpose (left and right) of f: A -> B is a well-typed diagram B.l -> A.l resp. B.r -> A.r, curry(n, left) moves n domain wires to the codomain as adjoints, and transposing right then left is f again after snake removal semantics.", "quantifier": "all diagrams, all n in range, both sides", "why_tests_cant": "Unbounded widths; slices with -n.", "anchors": ["lambeq/backend/grammar.py: Diagram.transpose", "lambeq/backend/grammar.py: Diagram.curry"]}
{"id": "C19", "title": "normalise_duration is a faithful mixed-radix rendering", "statement": "For every non-negative duration, the rendered string denotes the duration up to rounding of the seconds, with hours < 24, minutes < 60 and seconds < 60.", "quantifier": "all non-negative (rational) durations", "why_tests_cant": "Rounding boundary cases between units.", "anchors": ["lambeq/core/utils.py: normalise_duration"]}
{"id": "C20", "title": "The numerical backend context is a stack discipline", "statement": "Leaving a `with backend(name)` block, normally or by exception, restores the backend that was current before it, for arbitrarily nested blocks; set_backend changes only the innermost level; inside the block the current backend is the requested one; a failing import leaves the stack unchanged.", "quantifier": "all sequences of enter/exit/set/get operations, including failures", "why_tests_cant": "Ranges over all nestings and exception points.", "anchors": ["lambeq/backend/numerical_backend.py: backend", "lambeq/backend/numerical_backend.py: set_backend", "lambeq/backend/numerical_backend.py: get_backend"]}
{"id": "C21", "title": "CCG type strings round trip", "statement": "CCGType.parse(str(t)) == t for every CCG type whose atomic names avoid brackets/slashes (and the [conj] suffix); parse never loops, and rejects every string outside the documented grammar with CCGParseError.", "quantifier": "all CCG types / all strings", "why_tests_cant": "Unbounded nesting and arbitrary malformed strings.", "anchors": ["lambeq/text2diagram/ccg_type.py: CCGType.parse", "lambeq/text2diagram/ccg_type.py: CCGType.to_string", "lambeq/text2diagram/ccg_type.py: CCGType._parse_compound", "lambeq/text2diagram/ccg_type.py: CCGType._parse_clean"]}
{"id": "C22", "title": "CCG type substitution and decomposition", "statement": "replace substitutes every occurrence; replace_result either changes nothing or replaces exactly one result position on the result spine, reporting the type it replaced; split(base) returns pregroup types with left @ mid @ right equal to the type's own pregroup translation.", "quantifier": "all CCG types", "why_tests_cant": "Induction on unbounded nested types.", "anchors": ["lambeq/text2diagram/ccg_type.py: CCGType.replace", "lambeq/text2diagram/ccg_type.py: CCGType.replace_result", "lambeq/text2diagram/ccg_type.py: CCGType.split", "lambeq/text2diagram/ccg_type.py: CCGType.to_grammar"]}
{"id": "C23", "title": "Inferred CCG rules are admissible", "statement": "Whenever CCGRule.infer_rule(dom, cod) answers with an application, composition (crossed, generalised) or type-raising rule, that rule applied to dom yields a well-typed diagram from the pregroup types of dom to the pregroup type of cod.", "quantifier": "all pairs of CCG types and all result types", "why_tests_cant": "Quantifies over all types; generalised rules search nested types.", "anchors": ["lambeq/text2diagram/ccg_rule.py: CCGRule.infer_rule", "lambeq/text2diagram/ccg_rule.py: CCGRule.apply"]}
{"id": "C24", "title": "CCG rule resolution is sound", "statement": "For rule instances that infer_rule accepts, resolving against a rewritten codomain yields a domain on which applying the rule gives a well-typed diagram into the rewritten codomain; resolving against the unchanged codomain returns the original domain.", "quantifier": "all rules, domains and rewritten codomains", "why_tests_cant": "Types are rewritten arbitrarily during tree resolution.", "anchors": ["lambeq/text2diagram/ccg_rule.py: CCGRule.resolve"]}
{"id": "C25", "title": "CCG trees become well-typed sentence diagrams", "statement": "For every derivation whose nodes are instances of the CCG rules, or change the type of a constituent with a lexical head, CCGTree.to_diagram returns a diagram with empty domain whose codomain is the pregroup type of the root, with one word box per non-punctuation leaf, in order; planar=True gives the same interface without swaps or raises ValueError.", "quantifier": "all derivation trees", "why_tests_cant": "Recursion over unbounded trees with type propagation.", "anchors": ["lambeq/text2diagram/ccg_tree.py: CCGTree.to_diagram", "lambeq/text2diagram/ccg_tree.py: CCGTree._resolved", "lambeq/text2diagram/ccg_tree.py: CCGTree._to_diagram"]}
{"id": "C26", "title": "CCG tree JSON round trip", "statement": "CCGTree.from_json(t.to_json()) == t for every tree.", "quantifier": "all trees (text, rules, types, children)", "why_tests_cant": "Text is omitted when inferable; needs all combinations.", "anchors": ["lambeq/text2diagram/ccg_tree.py: CCGTree.to_json", "lambeq/text2diagram/ccg_tree.py: CCGTree.from_json", "lambeq/text2diagram/ccg_tree.py: CCGTree.__init__"]}
{"id": "C27", "title": "Trivial unary rules are removed and nothing else", "statement": "without_trivial_unary_rules returns a tree with no unary node whose type equals its child's, with the same root type, the same leaves in the same order, and is idempotent; collapse_noun_phrases leaves no noun-phrase type anywhere and preserves shape.", "quantifier": "all trees", "why_tests_cant": "Unbounded chains of unary rules at any depth.", "anchors": ["lambeq/text2diagram/ccg_tree.py: CCGTree.without_trivial_unary_rules", "lambeq/text2diagram/ccg_tree.py: CCGTree.collapse_noun_phrases"]}
{"id": "C28", "title": "Box-level rewrite rules keep the interface of a box", "statement": "Whenever a shipped rewrite rule (auxiliary, connector, determiner, pre/post-adverb, prepositional phrase, relative pronouns, coordination, curry, collapse-domain, unknown-words) matches a box of the shape it is meant for, its result is a well-typed diagram with the same dom and cod; hence Rewriter never changes a diagram's dom/cod.", "quantifier": "all boxes, names and types (any length)", "why_tests_cant": "Coordination/curry/collapse-domain apply to types of any length.", "anchors": ["lambeq/rewrite/base.py: SimpleRewriteRule", "lambeq/rewrite/base.py: CoordinationRewriteRule", "lambeq/rewrite/base.py: CurryRewriteRule", "lambeq/rewrite/base.py: CollapseDomainRewriteRule", "lambeq/rewrite/base.py: Rewriter"]}
{"id": "C29", "title": "Rewriter.add_rules takes effect", "statement": "After add_rules, rewriting a diagram gives the result of applying the enlarged rule list, whatever diagrams were rewritten before.", "quantifier": "all histories of add_rules and rewriting calls", "why_tests_cant": "Depends on call history through the functor cache.", "anchors": ["lambeq/rewrite/base.py: Rewriter.add_rules", "lambeq/rewrite/base.py: Rewriter.__call__"]}
{"id": "C30", "title": "SimpleRewriteRule word matching", "statement": "With case_sensitive=False a box is rewritten iff its codomain matches and its name equals one of the listed words up to letter case; with case_sensitive=True iff it equals one exactly; the first matching rule in list order wins.", "quantifier": "all words, listed words and rule lists", "why_tests_cant": "Ranges over all strings.", "anchors": ["lambeq/rewrite/base.py: SimpleRewriteRule.matches", "lambeq/rewrite/base.py: Rewriter._ar"]}
{"id": "C31", "title": "Unknown-word vocabulary", "statement": "UnknownWordsRewriteRule.from_diagrams(ds, min_freq) followed by rewriting replaces exactly the words that occur fewer than min_freq times (with the same type, unless ignore_types) in ds, keeping their types.", "quantifier": "all diagram collections, thresholds and words including rotated ones", "why_tests_cant": "Frequency counting over arbitrary corpora.", "anchors": ["lambeq/rewrite/base.py: UnknownWordsRewriteRule.from_diagrams", "lambeq/rewrite/base.py: UnknownWordsRewriteRule.matches"]}
{"id": "C32", "title": "RemoveCupsRewriter preserves the interface and the meaning", "statement": "Removing cups from a well-typed diagram never raises and yields a well-typed diagram with the same dom and cod and the same multiset of words (some daggered/rotated), which denotes the same morphism as the original wherever a daggered, rotated box denotes the box with its wires bent.", "quantifier": "all well-typed pregroup diagrams", "why_tests_cant": "Greedy contraction over arbitrary layouts.", "anchors": ["lambeq/rewrite/rewrite_diagram.py: RemoveCupsRewriter"]}
{"id": "C33", "title": "RemoveSwapsRewriter yields swap-free pregroup diagrams", "statement": "On a valid pregroup diagram RemoveSwapsRewriter returns a well-typed pregroup diagram without swaps, with the same codomain, or raises ValueError.", "quantifier": "all pregroup diagrams with swaps and detached cups", "why_tests_cant": "Index bookkeeping over arbitrary numbers of words, swaps and detached cups.", "anchors": ["lambeq/rewrite/rewrite_diagram.py: RemoveSwapsRewriter.rewrite", "lambeq/rewrite/rewrite_diagram.py: RemoveSwapsRewriter._remove_detached_cups"]}
{"id": "C34", "title": "UnifyCodomainRewriter fixes the codomain", "statement": "After UnifyCodomainRewriter every diagram has the requested codomain, diagrams that already had it are unchanged, and the domain never changes.", "quantifier": "all diagrams and output types", "why_tests_cant": "Universal claim over diagrams.", "anchors": ["lambeq/rewrite/rewrite_diagram.py: UnifyCodomainRewriter"]}
{"id": "C35", "title": "Circuit ansatz gives circuits of the right width", "statement": "For every box the ansatz circuit is well typed from ob_size(dom) qubits to ob_size(cod) qubits, for any ancilla count, discard or post-selection, and any number of layers; hence applying an ansatz to a frame-free diagram yields a well-typed circuit.", "quantifier": "all object maps, qubit counts, layer counts, ancilla counts", "why_tests_cant": "Unbounded qubit/layer counts.", "anchors": ["lambeq/ansatz/circuit.py: CircuitAnsatz._ar", "lambeq/ansatz/circuit.py: IQPAnsatz.circuit", "lambeq/ansatz/circuit.py: Sim14Ansatz.circuit", "lambeq/ansatz/circuit.py: Sim15Ansatz.circuit", "lambeq/ansatz/circuit.py: Sim4Ansatz.circuit", "lambeq/ansatz/circuit.py: StronglyEntanglingAnsatz.circuit", "lambeq/ansatz/circuit.py: Sim9Ansatz.circuit", "lambeq/ansatz/circuit.py: Sim9CxAnsatz.circuit"]}
{"id": "C36", "title": "Each ansatz parameter is used exactly once", "statement": "In the circuit an ansatz makes for a box with at least two qubits, every one of the prod(params_shape) symbols labels exactly one parametrised gate, indices are in range, and every two-qubit gate has distinct control and target.", "quantifier": "all qubit counts >= 2 and layer counts, all ansatz classes", "why_tests_cant": "Index arithmetic (including negative indices and modulo) for all sizes.", "anchors": ["lambeq/ansatz/circuit.py: Sim14Ansatz", "lambeq/ansatz/circuit.py: Sim15Ansatz", "lambeq/ansatz/circuit.py: Sim4Ansatz", "lambeq/ansatz/circuit.py: IQPAnsatz", "lambeq/ansatz/circuit.py: StronglyEntanglingAnsatz", "lambeq/ansatz/circuit.py: Sim9Ansatz", "lambeq/ansatz/circuit.py: Sim9CxAnsatz"]}
{"id": "C37", "title": "Parameter names identify boxes", "statement": "Two boxes receive the same parameter name iff they agree in name, domain and codomain, when atomic type names avoid the separator characters; names are escaped injectively.", "quantifier": "all box names and types", "why_tests_cant": "Injectivity over all strings.", "anchors": ["lambeq/ansatz/base.py: BaseAnsatz._summarise_box"]}
{"id": "C38", "title": "Tensor-train splitting preserves the interface and bounds tensor order", "statement": "MPSAnsatz and SpiderAnsatz split every box into a well-typed diagram with the same dom and cod whose word/box tensors all have order at most max_order, and splitting terminates.", "quantifier": "all boxes, all max_order >= 3 (MPS) resp. >= 2 (spider)", "why_tests_cant": "Unbounded orders and recursion through uncurrying.", "anchors": ["lambeq/ansatz/tensor.py: MPSAnsatz._split_ar", "lambeq/ansatz/tensor.py: SpiderAnsatz._split_ar"]}
{"id": "C39", "title": "Directed dimensions account for every leg once", "statement": "For every box, TensorAnsatz's symbol has directed_dom * directed_cod equal to the product of all leg dimensions of the box, legs with odd winding flowing to the opposite side.", "quantifier": "all boxes and object maps", "why_tests_cant": "Universal over box types.", "anchors": ["lambeq/ansatz/tensor.py: TensorAnsatz._generate_directed_dom_cod", "lambeq/backend/symbol.py: Symbol.size"]}
{"id": "C40", "title": "Gate placement through the circuit API", "statement": "`circ.CX(a,b)`, `circ.CRx(p,a,b)`, `circ.CCX(a,b,c)` etc. append a gate whose controls and target are exactly the requested qubits (in any order, adjacent or not), and exporting the gate reports exactly those qubits.", "quantifier": "all circuits and all distinct qubit indices", "why_tests_cant": "All relative positions/orders of controls and target.", "anchors": ["lambeq/backend/quantum.py: Diagram.apply_gate", "lambeq/backend/quantum.py: Controlled", "lambeq/backend/quantum.py: Gate.from_box"]}
{"id": "C41", "title": "Long-range controlled gates decompose correctly", "statement": "Controlled.decompose of a gate with any non-zero distance is a well-typed circuit whose adjacent controlled gate acts on the same control and target wires as the original and leaves the skipped wires in place.", "quantifier": "all distances (positive and negative) and controlled boxes of any width", "why_tests_cant": "Unbounded distances.", "anchors": ["lambeq/backend/quantum.py: Controlled.decompose"]}
{"id": "C42", "title": "Exported gates keep their phase", "statement": "For every rotation or controlled rotation in a circuit, the exported gate carries the rotation's phase.", "quantifier": "all circuits and gates", "why_tests_cant": "Enumerates all gate kinds.", "anchors": ["lambeq/backend/quantum.py: Gate.from_box", "lambeq/backend/quantum.py: readoff_circuital"]}
{"id": "C43", "title": "Circuital read-off identifies qubits", "statement": "For a circuital diagram, the read-off numbers the qubits in order, every measured / post-selected / discarded wire is attributed to the qubit it actually carries, no qubit is consumed twice and bit indices are consecutive.", "quantifier": "all circuital diagrams", "why_tests_cant": "Index shifting over arbitrary measurement orders.", "anchors": ["lambeq/backend/quantum.py: readoff_circuital", "lambeq/backend/quantum.py: Diagram.is_circuital"]}
{"id": "C44", "title": "Mixed evaluation tracks the right wires", "statement": "When a circuit with classical and quantum wires is turned into a tensor network, every box is connected to the wires it acts on: classical and quantum registers are updated at the positions given by the box's offset, including swaps of bits and of bits with qubits.", "quantifier": "all layouts of bit and qubit wires", "why_tests_cant": "Offsets depend on all wires to the left.", "anchors": ["lambeq/backend/quantum.py: Diagram.to_tn"]}
{"id": "C45", "title": "Quantum spiders, cups and caps are well typed", "statement": "Generated spiders for one-qubit types are well typed for all leg counts and generation terminates; generated cups/caps for n qubits are well typed 2n -> 0 / 0 -> 2n.", "quantifier": "all leg counts and qubit counts", "why_tests_cant": "Recursive generation for all sizes.", "anchors": ["lambeq/backend/quantum.py: generate_spider", "lambeq/backend/quantum.py: generate_cup", "lambeq/backend/quantum.py: generate_cap"]}
{"id": "C46", "title": "init_and_discard closes a circuit", "statement": "init_and_discard returns a circuit with empty domain and only bits in the codomain, keeping the bit wires in order.", "quantifier": "all circuits", "why_tests_cant": "Any mix of bit/qubit wires.", "anchors": ["lambeq/backend/quantum.py: Diagram.init_and_discard"]}
{"id": "C47", "title": "Contracting a tensor diagram connects the wires of the diagram", "statement": "Diagram.to_tn connects, for every box, exactly the wires entering it, each wire once, and returns open edges in the order dom then cod.", "quantifier": "all well-typed tensor diagrams", "why_tests_cant": "Scan bookkeeping over arbitrary layouts.", "anchors": ["lambeq/backend/tensor.py: Diagram.to_tn"]}
{"id": "C48", "title": "lambdify substitutes every symbol", "statement": "Lambdifying a diagram over a list of symbols and calling it with values yields the diagram in which each occurrence of scale*symbol is replaced by scale*value, all other boxes, types and structure unchanged.", "quantifier": "all diagrams, symbol lists and values", "why_tests_cant": "Universal over diagrams/scales.", "anchors": ["lambeq/backend/symbol.py: lambdify", "lambeq/backend/tensor.py: Box.lambdify", "lambeq/backend/tensor.py: Diagram.lambdify", "lambeq/backend/quantum.py: Controlled.lambdify", "lambeq/backend/quantum.py: Parametrized.lambdify"]}
{"id": "C49", "title": "Dataset batches partition the data", "statement": "One pass over a `Dataset` yields, in order, batches whose concatenation is exactly the (data, target) sequence (a permutation of it that keeps each datum with its own target, when shuffling); every batch except possibly the last has exactly batch_size items and the last is non-empty; the number of batches equals ceil(len/batch_size); batch_size 0 means one full batch.", "quantifier": "all data lists, all batch sizes >= 0, all shuffle orders", "why_tests_cant": "Needs every length/batch-size remainder and every permutation.", "anchors": ["lambeq/training/dataset.py: Dataset.__iter__", "lambeq/training/dataset.py: Dataset.shuffle_data", "lambeq/training/dataset.py: Dataset.batches_per_epoch"]}
{"id": "C50", "title": "Checkpoint behaves as a finite map and survives a file round trip", "statement": "After any sequence of add/add_many operations a `Checkpoint` returns for each key the latest value stored and raises KeyError for keys never stored; `to_file` then `from_file` returns the same entries, `to_file` clears the in-memory entries.", "quantifier": "all histories of add/add_many/to_file/from_file", "why_tests_cant": "Quantifies over operation histories.", "anchors": ["lambeq/training/checkpoint.py: Checkpoint"]}
{"id": "C51", "title": "A crash while checkpointing never loses the previous checkpoint", "statement": "If the process dies at any point during `Checkpoint.to_file(path)` the file at path is loadable and holds either the previous or the new checkpoint.", "quantifier": "all crash points inside to_file", "why_tests_cant": "Crash points cannot be enumerated by unit tests.", "anchors": ["lambeq/training/checkpoint.py: Checkpoint.to_file"]}
{"id": "C52", "title": "Trainer evaluation, logging and step schedule", "statement": "`Trainer.fit` performs exactly epochs x batches_per_epoch optimiser steps, in dataset order per epoch, validates exactly at the steps divisible by the evaluation step (in 'epoch' or 'step' mode), and appends exactly one validation cost per validation and one training cost per step.", "quantifier": "all epoch counts, batch counts, evaluation intervals and modes", "why_tests_cant": "Unbounded schedules.", "anchors": ["lambeq/training/trainer.py: Trainer.fit"]}
{"id": "C53", "title": "Early stopping criterion", "statement": "With early_stopping_interval k, training stops exactly at the first validation step at which the criterion value of k+1 validations... ago is better than all the later ones; it never stops before k+1 validations and never with k None.", "quantifier": "all histories of criterion values and all intervals", "why_tests_cant": "Quantifies over metric histories.", "anchors": ["lambeq/training/trainer.py: Trainer.fit"]}
{"id": "C54", "title": "Best-model checkpoint tracks the best validation value", "statement": "When an evaluation history of a single run is processed, 'best_model' is the model state at the first validation that attained the best criterion value so far; also across a resume from checkpoint.", "quantifier": "all criterion histories, all crash/resume points", "why_tests_cant": "Quantifies over histories and resume points.", "anchors": ["lambeq/training/trainer.py: Trainer.fit", "lambeq/training/trainer.py: Trainer.load_training_checkpoint"]}
{"id": "C55", "title": "Resuming from a checkpoint equals uninterrupted training", "statement": "Training for m epochs, saving, loading into a fresh trainer and training up to n >= m epochs produces the same weights, cost histories, epoch and step counters as training n epochs at once (deterministic or seeded model).", "quantifier": "all m <= n, all datasets, all deterministic optimisers whose state is saved", "why_tests_cant": "Quantifies over crash/resume points.", "anchors": ["lambeq/training/trainer.py: Trainer.load_training_checkpoint", "lambeq/training/trainer.py: Trainer.save_checkpoint", "lambeq/training/quantum_trainer.py: QuantumTrainer"]}
{"id": "C56", "title": "SPSA perturbs only unmasked weights and restores them", "statement": "`SPSAOptimizer.backward` leaves the model weights exactly as they were, evaluates the loss only at weights projected to the bounds, and produces a zero gradient for masked weights; `step` changes only unmasked weights, keeps all weights inside the bounds and advances the gain counter by one.", "quantifier": "all weight vectors, masks, bounds, perturbation samples and loss functions", "why_tests_cant": "Quantifies over random samples and masks.", "anchors": ["lambeq/training/spsa_optimizer.py: SPSAOptimizer.backward", "lambeq/training/spsa_optimizer.py: SPSAOptimizer.step"]}
{"id": "C57", "title": "SPSA gain schedule resumes exactly", "statement": "Saving and loading the SPSA state yields an optimiser with the same gain sequences a_k, c_k for all later steps.", "quantifier": "all hyper-parameters, all k", "why_tests_cant": "Quantifies over resume points.", "anchors": ["lambeq/training/spsa_optimizer.py: SPSAOptimizer.state_dict", "lambeq/training/spsa_optimizer.py: SPSAOptimizer.load_state_dict", "lambeq/training/spsa_optimizer.py: SPSAOptimizer.update_hyper_params"]}
{"id": "C58", "title": "Nelder-Mead bookkeeping", "statement": "After every `backward` the simplex vertices are sorted by their stored loss, the returned loss is the smallest stored loss and never increases from one call to the next, every vertex stays inside the bounds, and `step` leaves weights of parameters that do not occur in the batch unchanged.", "quantifier": "all dimensions, simplices, bounds, loss functions and masks", "why_tests_cant": "Quantifies over loss landscapes and histories.", "anchors": ["lambeq/training/nelder_mead_optimizer.py: NelderMeadOptimizer.backward", "lambeq/training/nelder_mead_optimizer.py: NelderMeadOptimizer.step"]}
{"id": "C59", "title": "Rotosolve coordinate update", "statement": "`RotosolveOptimizer.backward` visits every coordinate once, in order, changes no other coordinate while doing so, and replaces the angle by a value in [0,1) that is equivalent modulo a full turn to the analytic minimiser phi - 1/4 - angle/(2 pi).", "quantifier": "all weight vectors, losses", "why_tests_cant": "Real-valued angles incl. negative ones.", "anchors": ["lambeq/training/rotosolve_optimizer.py: RotosolveOptimizer.backward", "lambeq/training/rotosolve_optimizer.py: RotosolveOptimizer.project"]}
{"id": "C60", "title": "Tree reader builds one box per internal node", "statement": "`TreeReader.tree2diagram` yields a well-typed diagram from the empty type to word_type whose word boxes read left to right are exactly the tree's leaves in order, with one box per internal node whose input count equals its number of children (after resolving).", "quantifier": "all CCG trees of any shape, all modes", "why_tests_cant": "Unbounded tree shapes.", "anchors": ["lambeq/text2diagram/tree_reader.py: TreeReader._tree2diagram"]}
{"id": "C61", "title": "Linear and spider readers", "statement": "The cups reader, stairs reader and spiders reader map any token list to a well-typed diagram from the empty type whose words are exactly the tokens in order and whose codomain is the sentence type; the cups/stairs reader always terminates.", "quantifier": "all sentences (token lists) of any length", "why_tests_cant": "Unbounded lengths.", "anchors": ["lambeq/text2diagram/linear_reader.py: LinearReader.sentence2diagram", "lambeq/text2diagram/spiders_reader.py: SpidersReader.sentence2diagram"]}
{"id": "C62", "title": "CCGBank tree parsing", "statement": "`CCGBankParser` returns, for every well-formed derivation string, the tree it denotes (words unescaped, categories mapped), consumes the whole string, raises on trailing text or malformed input and, with suppress_exceptions, yields None in those cases.", "quantifier": "all CCGBank lines", "why_tests_cant": "Strings are unbounded; malformed inputs must all be rejected.", "anchors": ["lambeq/text2diagram/ccgbank_parser.py: CCGBankParser._build_ccgtree", "lambeq/text2diagram/ccgbank_parser.py: CCGBankParser.sentences2trees"]}
{"id": "C63", "title": "Bobcat chart cell beam", "statement": "A chart `Cell` always holds trees in non-increasing score order, at most one per category (the best seen among those kept), with its category index exactly describing the list, at most beam_size trees except for ties with the beam_size-th score, and `min_score` never excludes a tree that would be kept.", "quantifier": "all insertion histories, beam sizes and score ties", "why_tests_cant": "Histories with ties and replacement.", "anchors": ["lambeq/bobcat/parser.py: Cell.add", "lambeq/bobcat/parser.py: Cell.find"]}
{"id": "C64", "title": "Bobcat categories: equality, hashing, matching", "statement": "Category equality is an equivalence relation compatible with hashing and with the slash constructor; `matches` accepts exactly the categories obtained from the template by filling in unspecified features.", "quantifier": "all categories", "why_tests_cant": "Unbounded nesting.", "anchors": ["lambeq/bobcat/lexicon.py: Category._equals", "lambeq/bobcat/lexicon.py: Category._hash", "lambeq/bobcat/lexicon.py: Category._matches"]}
{"id": "C65", "title": "Bobcat unification and combination soundness", "statement": "Whenever the parser combines two subtrees by application or composition, the result category is the one the CCG rule prescribes: the argument consumed equals the category of the other constituent up to features, and variable features [X] are instantiated consistently.", "quantifier": "all pairs of categories/trees", "why_tests_cant": "Unbounded categories and feature combinations.", "anchors": ["lambeq/bobcat/tree.py: Unify", "lambeq/bobcat/rules.py: Rules.application", "lambeq/bobcat/rules.py: Rules.composition"]}
{"id": "C66", "title": "Text printer geometry", "statement": "`PregroupTextPrinter` places every cup/swap of a pregroup diagram in a layer such that no two morphisms in a layer overlap, every wire a morphism needs is still alive in its layer, and the order of any two overlapping morphisms is that of the diagram (compression never reorders dependent boxes).", "quantifier": "all pregroup diagrams", "why_tests_cant": "Layer compression over unbounded diagrams.", "anchors": ["lambeq/backend/drawing/text_printer.py: PregroupTextPrinter.diagram2str"]}
{"id": "C67", "title": "Pregroup tree node lists", "statement": "`get_nodes` groups the nodes of a tree by word position: concatenated it is a permutation of all nodes of the tree, ordered by word index, each group sharing one index; `height`, `get_words`, `get_word_indices` and `get_parents` agree with it; `remove_self_cycles` removes exactly the children with the same token as their parent.", "quantifier": "all pregroup trees", "why_tests_cant": "Unbounded trees.", "anchors": ["lambeq/text2diagram/pregroup_tree.py: PregroupTreeNode"]}
{"id": "C68", "title": "Pregroup tree to diagram", "statement": "`PregroupTreeNode.to_diagram(tokens)` produces a well-typed diagram with one word box per token in order and codomain equal to the root's type, for every tree without cycles.", "quantifier": "all trees over distinct token indices", "why_tests_cant": "Unbounded trees with crossings.", "anchors": ["lambeq/text2diagram/pregroup_tree_converter.py: tree2diagram"]}
{"id": "C69", "title": "DisCoCirc tree rewriting", "statement": "A `TreeRewriteRule` merges only nodes with exactly one child of the same type satisfying the word/type conditions, at most max_depth consecutive times, never changes the root type, and keeps all words (merge mode) in order.", "quantifier": "all pregroup trees and rule parameters", "why_tests_cant": "Unbounded trees.", "anchors": ["lambeq/experimental/discocirc/pregroup_tree_rewriter.py: TreeRewriteRule.edit_tree"]}
{"id": "C70", "title": "Coreference map", "statement": "`dict_from_corefs` maps every mention to a mention of the same entity - the first one of the first cluster that contains it - and every representative of a cluster that occurs in no earlier cluster to itself.", "quantifier": "all coreference clusterings, incl. overlapping ones", "why_tests_cant": "Overlapping clusters.", "anchors": ["lambeq/experimental/discocirc/coref_resolver.py: CoreferenceResolver.dict_from_corefs"]}
{"id": "C71", "title": "DisCoCirc circuits of texts", "statement": "`text2circuit` returns, for every parsed text whose first sentence has a noun, a well-typed diagram without inputs and with one noun wire per entity (coreference cluster or other noun), in the order of first mentions. Whatever the boxes mean, the circuit applies the sentence diagrams one after the other, each to the values of exactly the entities it mentions, in the order of its slots (an entity that fills several slots is copied and merged); no value is sent to another entity's wire. The sentence diagram has, in frame mode, one slot per noun and one box or frame per other word; in sandwich mode, each word acts on its entities before, between and after its parts.", "quantifier": "all texts, trees, coreference clusters with repetitions, rewrite rules and interpretations of boxes", "why_tests_cant": "Combinatorial.", "anchors": ["lambeq/experimental/discocirc/reader.py: DisCoCircReader.text2circuit, _tree2frames_rec, _tree2sandwiches_rec, _sentence2tree, _calculate_reindices, _reindex"]}
{"id": "C72", "title": "String to pregroup type", "statement": "`str_to_type(str(t)) == t` for every atomic type whose name has no dot.", "quantifier": "all atomic types, all winding numbers", "why_tests_cant": "Unbounded winding numbers.", "anchors": ["lambeq/text2diagram/pregroup_tree_converter.py: str_to_type", "lambeq/backend/grammar.py: Ty.__str__"]}
{"id": "C73", "title": "tket post-selection of counts", "statement": "Post-selecting counts keeps exactly the bit strings agreeing with every post-selected bit, removes those bits from the key, and loses no counts by key collisions.", "quantifier": "all count tables and post-selection maps", "why_tests_cant": "Combinatorial.", "anchors": ["lambeq/backend/converters/tk.py: Circuit.get_counts"]}
{"id": "C74", "title": "Recorded training and validation costs are weighted means", "statement": "The epoch cost `Trainer.fit` records is the mean of the losses of the batches of that epoch (each also recorded once), weighted by the number of items per batch, and each validation cost is the mean of the losses over the whole validation set weighted in the same way.", "quantifier": "all batch sizes, losses, datasets and schedules", "why_tests_cant": "Unequal last batches of every size.", "anchors": ["lambeq/training/trainer.py: Trainer._get_weighted_mean", "lambeq/training/trainer.py: Trainer.fit"]}
{"id": "C75", "title": "Dataset indexing keeps data and targets together", "statement": "`dataset[i]` is the i-th datum with its own target for every valid (possibly negative) index and raises IndexError otherwise.", "quantifier": "all datasets and integer indices", "why_tests_cant": "All indices including negative.", "anchors": ["lambeq/training/dataset.py: Dataset.__getitem__"]}
{"id": "C76", "title": "Tensor caps and cups are dual", "statement": "The array of the tensor cap on a wire of any dimension is the identity matrix, so that evaluating a snake (a cap followed by a cup) gives the identity on the wire.", "quantifier": "all dimensions", "why_tests_cant": "the array is computed from the dimension; tests only use dimension 2, where the formula happens to be right", "anchors": ["lambeq/backend/tensor.py:Cap.__init__", "lambeq/backend/tensor.py:Cup.__init__", "lambeq/backend/tensor.py:Diagram.to_tn"]}
{"id": "C77", "title": "Text headers and wire columns", "statement": "For every pregroup diagram, the three header lines printed by diagram2str show each word centred over an underline as wide as the longer of the word and its types, words are word_spacing blanks apart, the types are written below, and every wire starts in the column of the middle character of its type; wires are at least two columns apart.", "quantifier": "all well-typed pregroup diagrams, spacings, separators and name lengths", "why_tests_cant": "word and type lengths are unbounded and their parities interact with str.center; examples cover a few lengths", "anchors": ["lambeq/backend/drawing/text_printer.py: PregroupTextPrinter.diagram2str"]}
{"id": "C78", "title": "DisCoCirc noun pruning", "statement": "`text2circuit(pruned_nouns, min_noun_freq)` leaves out exactly the tokens that are the first occurrence of a pruned word, or the first mention in another sentence of the entity of that occurrence; words are pruned if listed, or if they are the first mention of an entity with fewer than `min_noun_freq` mentions.", "quantifier": "all texts, clusters and pruning arguments", "why_tests_cant": "Ranges over all coreference structures.", "anchors": ["lambeq/experimental/discocirc/reader.py: DisCoCircReader._prune_indices, text2circuit"]}
{"id": "C79", "title": "Reading a pregroup tree off a diagram", "statement": "`diagram2tree(d)` on a diagram that shows a tree (one word per token typed by its links, cups and swaps joining heads to dependents) returns that tree; converting a tree to a diagram and back returns an equal tree.", "quantifier": "all trees, token lists and diagrams showing them", "why_tests_cant": "Ranges over all trees and all ways of drawing them.", "anchors": ["lambeq/text2diagram/pregroup_tree_converter.py: diagram2tree, _construct_tree"]}
{"id": "C80", "title": "Batch parsing keeps results aligned with sentences", "statement": "`sentences2trees`/`sentences2diagrams` return one entry per sentence, in the order of the input: with `suppress_exceptions` the entry of an empty or unparsable sentence is `None` and every other entry is the parse of that very sentence; without it, an exception is raised exactly when some sentence is empty or unparsable. The caller's list is not modified.", "quantifier": "all batches, batch sizes, patterns of empty and failing sentences, and behaviours of the underlying models", "why_tests_cant": "Ranges over all interleavings of empty, failing and good sentences and over all models.", "anchors": ["lambeq/text2diagram/model_based_reader/base.py: ModelBasedReader.validate_sentence_batch", "lambeq/text2diagram/model_based_reader/bobcat_parser.py: BobcatParser.sentences2trees", "lambeq/text2diagram/model_based_reader/oncilla_parser.py: OncillaParser._sentences2pregrouptrees", "lambeq/text2diagram/web_parser.py: WebParser.sentences2trees", "lambeq/text2diagram/depccg_parser.py: DepCCGParser.sentences2trees", "lambeq/text2diagram/ccg_parser.py: CCGParser.sentences2diagrams", "lambeq/bobcat/tagger.py: Tagger.__call__"]}
{"id": "C81", "title": "Chart span numbering", "statement": "Whatever was asked before, `get_chart_spans(n)` lists the n(n+1)/2 spans of a sentence of n words in chart order, and `idx2span` and `span2idx` are inverse to each other.", "quantifier": "all histories of calls, all lengths, indices and spans", "why_tests_cant": "The table is kept between calls, so correctness is about every history.", "anchors": ["lambeq/bobcat/tagger.py: get_chart_spans, idx2span, span2idx"]}
{"id": "C82", "title": "Tagger output", "statement": "The tagger gives each word exactly the tags whose log probability reaches the threshold (at least one with the relative strategy), and lists for each span of the sentence exactly the non-null categories that reach it.", "quantifier": "all sentences, score tables and settings", "why_tests_cant": "Ranges over all score tables.", "anchors": ["lambeq/bobcat/tagger.py: Tagger.parse"]}
{"id": "C83", "title": "Models put each weight in the place of its own symbol", "statement": "A model made from diagrams has as symbols exactly the free symbols of the diagrams, each once and in the order of their names. When a quantum model evaluates diagrams, every box ends up computing its tensor from the weight at the position of its symbol times the symbol's scale, however boxes are nested (controlled, daggered) and shared between diagrams; boxes without symbols keep their data; a symbol the model does not have is reported as KeyError; a PyTorch model does the same for symbols without scale.", "quantifier": "all lists of diagrams over any shared nest of boxes, all symbols and weights", "why_tests_cant": "the mutation goes through cached properties and forwarding assignments on shared objects; tests use a few fresh circuits", "anchors": ["lambeq/training/model.py:Model.from_diagrams", "lambeq/training/quantum_model.py:QuantumModel._fast_subs", "lambeq/training/pytorch_model.py:PytorchModel.get_diagram_output", "lambeq/backend/tensor.py:Box.free_symbols", "lambeq/backend/quantum.py:Controlled.__setattr__"]}
{"id": "C84", "title": "A chart cell keeps the best tree of every category, up to the beam", "statement": "Whatever batches of trees are added to a cell of Bobcat's chart, in whatever order, the call never fails; the cell holds trees best first, at most one per category and at most beam-size many (ties with the last one excepted); every tree ever offered is there, or a tree of its category at least as good is, or the cell is full of strictly better trees; nothing else is there; the category dictionary and the minimum score agree with the list; the first tree is at least as good as every tree ever offered.", "quantifier": "all sequences of batches of trees, all scores, all beam sizes from 1", "why_tests_cant": "the cell is a binary search, a scan over ties, an in-place replacement and a truncation that must stay consistent over every history of insertions", "anchors": ["lambeq/bobcat/parser.py:Cell.add", "lambeq/bobcat/parser.py:Cell._find_index"]}
{"id": "C85", "title": "The chart parser returns derivations of the sentence and loses trees only to the beam", "statement": "If every word has a supertag, the parses Bobcat's chart parser returns are derivations of the whole sentence from the lexicon and the rules, with the words of the sentence in order, scores added up as prescribed, an allowed root category, best first and one per category; the same holds of every cell. Without a limit on the number of trees, every tree that the words or two trees of the chart give is in its cell, or displaced by a tree of its category at least as good, or by a full beam: skipping combinations by the upper bound on their score never loses a tree. Exceptions come only from the grammar's rules or the lexicon. For Bobcat's grammar every combination in a parse is an instance of its rules.", "quantifier": "all sentences, supertag and span scores, grammars, root categories, beam sizes and tree limits", "why_tests_cant": "correctness of pruning depends on all interleavings of scores and spans; tests parse a few sentences", "anchors": ["lambeq/bobcat/parser.py:ChartParser.__call__", "lambeq/bobcat/parser.py:Chart.add", "lambeq/bobcat/parser.py:ParseResult", "lambeq/bobcat/rules.py:Rules.combine"]}
{"id": "C86", "title": "Bobcat's parses become CCG trees and diagrams of the sentence", "statement": "If every word has a supertag, every parse Bobcat finds converts, without failing, to a CCG tree of the same shape, with the corresponding rules, the categories' types (features forgotten, all punctuation one type) and exactly the words of the sentence in order. If the parse is regular (punctuation is absorbed without changing the type, types are changed above heads and not by turning a slash around, generalised backward composition only of modifiers), CCGTree.to_diagram of it succeeds, with and without noun-phrase collapse, and gives a well-typed diagram from nothing to the root's pregroup type whose words are the words that are not absorbed punctuation, in order.", "quantifier": "all sentences, scores, lexicons and grammars of well-formed categories, beams and tree limits; all parses in the result", "why_tests_cant": "end to end through the chart parser, the tree conversion and the recursion of to_diagram, for unboundedly many grammars and sentences", "anchors": ["lambeq/text2diagram/model_based_reader/bobcat_parser.py:BobcatParser._build_ccgtree", "lambeq/text2diagram/model_based_reader/bobcat_parser.py:BobcatParser._to_biclosed", "lambeq/bobcat/parser.py:ChartParser.__call__", "lambeq/text2diagram/ccg_tree.py:CCGTree.to_diagram"]}
{"id": "C87", "title": "The drawing of a diagram shows the diagram", "statement": "DrawableDiagram.from_diagram succeeds on every well-typed diagram and its graph is the diagram's: one endpoint per input, output and box leg, with the right kind and type, and no others; the boxes in order with exactly their legs; one wire for each connection, from the port where the wire starts (found by following it upwards) to the port where it ends, and no others. (Refuted for the identity on the empty type, where it raises ValueError.)", "quantifier": "all well-typed diagrams of any size over any atoms and boxes, foliated or not", "why_tests_cant": "the wiring depends on an index list threaded through an unbounded sequence of boxes", "anchors": ["lambeq/backend/drawing/drawable.py:DrawableDiagram.from_diagram", "lambeq/backend/drawing/drawable.py:DrawableDiagram._make_space", "lambeq/backend/drawing/drawable.py:DrawableDiagram._add_box", "lambeq/backend/drawing/drawable.py:DrawableDiagram._find_box_edges", "lambeq/backend/drawing/drawable.py:DrawableDiagram._move_to_origin", "lambeq/backend/drawing/drawable.py:BoxNode.get_x_lims"]}
{"id": "C88", "title": "Drawings are laid out without collisions", "statement": "In the drawing of any well-typed diagram, wires are vertical and run downwards over at least half a unit, legs are on the upper and lower sides of their boxes, the wires between any two consecutive boxes are in the order of the diagram and at least two and a half units apart, and the drawing begins at x = 0 and is centred vertically. If it is foliated, or the diagram never passes through the empty type between two boxes, no two boxes overlap and no wire runs through a box. get_x_lims answers with the left and right edges of a box. scale_and_pad moves every point, legs included, by one affine map. (Refuted: without foliation, a diagram that passes through the empty type has boxes drawn on top of each other.)", "quantifier": "all well-typed diagrams, foliated or not; all scales and paddings", "why_tests_cant": "every new box shifts all nodes drawn before; the claim is about all pairs of boxes and wires after any number of shifts", "anchors": ["lambeq/backend/drawing/drawable.py:DrawableDiagram.from_diagram", "lambeq/backend/drawing/drawable.py:DrawableDiagram._make_space", "lambeq/backend/drawing/drawable.py:DrawableDiagram._add_box", "lambeq/backend/drawing/drawable.py:DrawableDiagram._find_box_edges", "lambeq/backend/drawing/drawable.py:DrawableDiagram._move_to_origin", "lambeq/backend/drawing/drawable.py:BoxNode.get_x_lims", "lambeq/backend/drawing/drawable.py:DrawableDiagram.scale_and_pad"]}
{"id": "C89", "title": "The loss functions compute the losses they are named after", "statement": "For predictions without negative entries and any positive epsilon, CrossEntropyLoss is the mean over the rows of the cross entropy between the labels and the smoothed predictions, which are positive and sum to one in each row; so the loss is a finite number even where a prediction is zero, is not negative, is for one-hot labels the mean of minus the log of the probability of the right class, and is at least the entropy of the labels, with equality exactly when the smoothed predictions are the labels. BinaryCrossEntropyLoss on sparse labels is the binary cross entropy. MSELoss is the mean of the squares, symmetric, and zero exactly when the arrays are equal. All raise ValueError if the shapes differ.", "quantifier": "all arrays of all shapes and all positive epsilon", "why_tests_cant": "the claims are inequalities between sums of logarithms over arrays of any size", "anchors": ["lambeq/training/loss.py:CrossEntropyLoss.calculate_loss", "lambeq/training/loss.py:BinaryCrossEntropyLoss.calculate_loss", "lambeq/training/loss.py:MSELoss.calculate_loss", "lambeq/training/loss.py:LossFunction._smooth_and_normalise", "lambeq/training/loss.py:LossFunction._match_shapes"]}
{"id": "C90", "title": "Normalised predictions are probability distributions", "statement": "The vector a quantum model answers with has the length of its input and no negative entries, sums to at most one, and to exactly one if the absolute values of the input sum to at least 1e-9; then each entry is the absolute value of the input's divided by their sum, and scaling the input changes nothing. Scalars and zero vectors keep their absolute values. (Refuted: a vector whose absolute values sum to less than 1e-9 is neither normalised nor kept.)", "quantifier": "all vectors of any length over any numbers with an absolute value", "why_tests_cant": "ranges over all vectors of all lengths", "anchors": ["lambeq/training/quantum_model.py:QuantumModel._normalise_vector"]}
{"id": "C91", "title": "A circuit converted to PennyLane evaluates to the circuit's post-selected state", "statement": "Converting a pure circuit (qubits prepared in 0, then gates, then post-selections) with to_pennylane and evaluating the result gives a tensor with one axis of dimension 2 per open wire, in the order of the wires, whose entries are the amplitudes of the circuit (times its scalars), or their squared absolute values when probabilities are requested. (Refuted outside the stated gates: daggers of S and T are lost; rotations by 0, controlled Ry, doubly controlled gates and two scalars in a row raise; qubits prepared in 1 are treated as 0.)", "quantifier": "all circuits of any width and depth over the supported gates, all weights, all positions of post-selections", "why_tests_cant": "circuits are unbounded in width and depth, and the result is a function of all amplitudes", "anchors": ["lambeq/backend/pennylane.py:to_pennylane", "lambeq/backend/pennylane.py:extract_ops_from_circuital", "lambeq/backend/pennylane.py:PennyLaneCircuit.eval", "lambeq/backend/pennylane.py:PennyLaneCircuit.post_selected_circuit", "lambeq/backend/quantum.py:readoff_circuital"]}
{"id": "C92", "title": "Parameters of a PennyLane circuit are the weights of its symbols", "statement": "Whatever order the set of symbols is iterated in, each parameter of the converted circuit is the number it was, or the weight of its symbol, at every occurrence. (Refuted: a symbol with a coefficient, such as the angle of a daggered rotation, makes the substitution raise KeyError with the weights a PennyLaneModel supplies.)", "quantifier": "all circuits, all symbols and weights, all iteration orders of the set of symbols", "why_tests_cant": "set iteration order varies between runs and circuits have any number of parameters", "anchors": ["lambeq/backend/pennylane.py:PennyLaneCircuit.initialise_concrete_params", "lambeq/backend/pennylane.py:PennyLaneCircuit.param_substitution", "lambeq/backend/symbol.py:lambdify", "lambeq/training/pennylane_model.py:PennyLaneModel.from_diagrams"]}
{"id": "C93", "title": "Post-selection keeps exactly the compatible basis states", "statement": "The valid states of a PennyLane circuit are exactly the basis states that agree with every post-selected bit, each at the index spelled by its open wires. (Refuted: the open wires are taken in the iteration order of a Python set, so with more than a handful of qubits the axes of the result can be exchanged.)", "quantifier": "all numbers of qubits, all post-selections, all iteration orders", "why_tests_cant": "exponentially many states for every number of qubits", "anchors": ["lambeq/backend/pennylane.py:PennyLaneCircuit.get_valid_states", "lambeq/backend/pennylane.py:PennyLaneCircuit.eval"]}
{"id": "C94", "title": "A cached contraction path was found for the same contraction", "statement": "CachedTnPathOptimizer gives two contractions the same cached path exactly when they are the same up to the names of the edges and the iteration order of sets (same sizes, same edges at the same nodes, same output). In every history of calls, checkpoints and restarts, each path answered was found by a search for a contraction that is the same up to names, and a contraction once answered is answered with the same path without another search. (Refuted: a memory limit asked for is ignored when a path is cached.)", "quantifier": "all contraction problems, all histories of calls, checkpoints and restarts, any (also nondeterministic) search", "why_tests_cant": "unbounded histories of calls with unbounded networks; set iteration order and edge identity vary between runs", "anchors": ["lambeq/training/tn_path_optimizer.py:CachedTnPathOptimizer.__call__", "lambeq/training/tn_path_optimizer.py:CachedTnPathOptimizer.add_paths", "lambeq/training/tn_path_optimizer.py:TnPathOptimizer.__call__"]}
{"id": "C95", "title": "Cached contraction paths survive restarts and checkpoints", "statement": "If the save file exists, a new process started after any number of calls has the cache of the old one; with save_checkpoints, restoring a checkpoint restores the cache it was saved from. (Refuted: if the save file does not exist, a directory is made in its place, the first new path raises, and so does every later process; a process killed while saving can lose all paths or leave an unreadable file.)", "quantifier": "all histories of calls, all states of the file, all points at which the process can be killed", "why_tests_cant": "crash points and file states cannot be enumerated by running the code once", "anchors": ["lambeq/training/tn_path_optimizer.py:CachedTnPathOptimizer.__init__", "lambeq/training/tn_path_optimizer.py:CachedTnPathOptimizer.add_paths", "lambeq/training/tn_path_optimizer.py:CachedTnPathOptimizer.store_to_checkpoint", "lambeq/training/tn_path_optimizer.py:CachedTnPathOptimizer.restore_from_checkpoint"]}
{"id": "C96", "title": "Contraction computes the value of the network whatever the path", "statement": "ordered_nodes_contractor returns, for every network without edges from a node to itself and every path that contracts it, a node with the dangling edges in the order asked for whose entries are the sums over all inner edges of the products of the nodes' entries; so the prediction does not depend on which path was found or cached. (Refuted: a node with an edge to itself is silently dropped from the result, or makes the contraction raise.)", "quantifier": "all networks, all dimensions, all tensors over any commutative semiring, all contraction paths", "why_tests_cant": "exponentially many paths for every network", "anchors": ["lambeq/training/tn_path_optimizer.py:ordered_nodes_contractor", "lambeq/training/tn_path_optimizer.py:_get_path_with_ordered_nodes", "lambeq/training/pytorch_model.py:PytorchModel._tn_contract"]}
{"id": "C97", "title": "to_circuital keeps the circuit", "statement": "For every circuit on qubits made of preparations, post-selections and discards, one-qubit gates, controlled gates with their controls on one side, and swaps, to_circuital returns a well-typed circuital diagram: all preparations first (the i-th at depth i), then the gates, then post-selections and discards. It is the same circuit: the same gates in the same order on the same qubits, the same qubits post-selected and discarded, and (without discards) the same amplitude under every interpretation of the boxes. (Refuted: the empty circuit raises; other two-qubit boxes are dropped when a qubit is prepared between their wires later; a measured wire left of a swap makes it raise; controls on both sides of the target, or three on its right, are moved to wrong qubits.)", "quantifier": "all circuits of any width and depth with any interleaving of preparations, gates, swaps, post-selections and discards", "why_tests_cant": "qubits prepared or post-selected late are pulled through every gate; the number of interleavings is unbounded", "anchors": ["lambeq/backend/quantum.py:to_circuital", "lambeq/backend/quantum.py:Diagram.init_and_discard", "lambeq/backend/quantum.py:Diagram.is_circuital"]}
{"id": "C98", "title": "Bobcat category strings round trip", "statement": "str(c) read back by Category.parse is c without variables and relations, and equals c; so str is injective up to marks. repr(c) read back is c with every variable and relation (relations numbered by the argument they are in), provided every complex part without a mark of its own has no mark at its right end (refuted otherwise: two different categories can have the same repr, and it cannot be read). Whatever parse accepts has named atoms, known features and variables, correctly numbered relations, and (if its directions are slashes, which is not checked) can be written and read again. Anything else raises IndexError, AssertionError, ValueError or KeyError. The dictionary of categories already read cannot be observed.", "quantifier": "all categories of any depth, all strings, all sequences of calls", "why_tests_cant": "nesting and strings are unbounded; the unbracketed form of every string depends on what its parts end in", "anchors": ["lambeq/bobcat/lexicon.py:Category._str", "lambeq/bobcat/lexicon.py:Category.__str__", "lambeq/bobcat/lexicon.py:Category.__repr__", "lambeq/bobcat/lexicon.py:parse", "lambeq/bobcat/lexicon.py:_parse", "lambeq/bobcat/lexicon.py:CAT_REGEX", "lambeq/bobcat/lexicon.py:VAR_SLOT_REGEX", "lambeq/bobcat/lexicon.py:parse_variable_id"]}
{"id": "C99", "title": "A functor's image means what the diagram means", "statement": "For every semantics of the target (a strict monoidal category with an interpretation), Functor(d) denotes what d denotes when every atomic type is given the object of its image and every box the morphism of its image; such an interpretation of the source always exists, and is rigid if the target's is. So two diagrams that mean the same have images that mean the same; in particular interchanging boxes, removing snakes, normal_form and pregroup_normal_form before applying a functor succeed whenever applying it directly does, and do not change the meaning of the result.", "quantifier": "all functors into grammar diagrams whose callbacks are type-respecting on the boxes of the diagram, all well-typed diagrams, all strict monoidal categories and interpretations", "why_tests_cant": "a statement about all interpretations of unboundedly large diagrams", "anchors": ["lambeq/backend/grammar.py:Functor", "lambeq/backend/grammar.py:Diagram.apply_functor", "lambeq/backend/grammar.py:Cap.apply_functor", "lambeq/backend/grammar.py:Cup.apply_functor", "lambeq/backend/grammar.py:Diagram.normal_form", "lambeq/backend/grammar.py:Diagram.remove_snakes", "lambeq/backend/grammar.py:Diagram.pregroup_normal_form"]}
{"id": "C100", "title": "Breaking cycles in pregroup trees keeps one node for each word, the deepest", "statement": "remove_cycles leaves at most one node for each word index, whatever the tree, and the nodes that stay keep their ancestors, their order and right parent attributes. If every node is a leaf that is not the first of the deepest nodes of its word (once self cycles are removed), then exactly those deepest nodes are left and no word is lost. AssertionError exactly if the word of the root occurs a second time. False in general: words below a copy that is not a leaf are lost; a root with a self cycle is rejected although removing it would do; words missing from the tree give IndexError or depths relative to another node than the root.", "quantifier": "all pregroup trees of any size in which the indices below that of the root all occur, with any number of copies of any word", "why_tests_cant": "the copies are detached one after another while depths are read from the same tree: the result depends on the order and on all positions in trees of any shape", "anchors": ["lambeq/text2diagram/pregroup_tree_converter.py:remove_cycles", "lambeq/text2diagram/pregroup_tree.py:PregroupTreeNode.get_depth", "lambeq/text2diagram/pregroup_tree.py:PregroupTreeNode.get_nodes", "lambeq/text2diagram/pregroup_tree.py:PregroupTreeNode.remove_self_cycles"]}
{"id": "C101", "title": "The command line interface saves what it is asked to save, in order", "statement": "validate_args lets through exactly the combinations that make sense. With such arguments a run that succeeds saves one object for each sentence that could be parsed, in the order of the sentences and processed by the stages asked for: on the screen, in the named file, or as one image per diagram in the directory, under names whose string order is the order of the sentences for any number of them. When parser, rewriter, ansatz and drawing do not fail, the failures left are listed exhaustively. Options take the last value given or their default. Stored arguments are in force again when loaded, for the mode string-diagram. False: a stored mode (ccg, pregroups) is ignored when loaded; an ansatz without --ansatz_options raises KeyError in spite of its advertised defaults; the extension of a named image file is replaced by the default image format.", "quantifier": "all argument namespaces, stored arguments, option lists, numbers of sentences and behaviours of the parsers, rewriters and ansätze", "why_tests_cant": "all combinations of seventeen arguments, any number of sentences, arbitrary behaviour of the other parts", "anchors": ["lambeq/cli.py:validate_args", "lambeq/cli.py:ArgumentList", "lambeq/cli.py:ArgumentListValidator", "lambeq/cli.py:ParserModule", "lambeq/cli.py:RewriterModule", "lambeq/cli.py:AnsatzModule", "lambeq/cli.py:CCGTreeSaveModule", "lambeq/cli.py:DiagramSaveModule", "lambeq/cli.py:main"]}
