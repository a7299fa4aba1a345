import json
P=[json.loads(l) for l in open('/verif/properties.jsonl')]
plan={
1:"raw `Ty` inductive (name, objects, z) + `tensor`/`_fromiter`; flatness predicate; refinement to the list of atoms; induction.",
2:"raw `rotate`; refinement to list-of-atoms rotate; parity of Z with Python floor-mod; induction.",
3:"raw `insert`/`replace` with Python index rules; positive theorem for the indices where it holds, `_refuted` for negative index on atomic types and index = len.",
4:"diagram record with dom/cod/layers; well-formedness chain predicate; every constructor and combinator (Id, from box, then, tensor, dagger, rotate, permutation, swap, cups, caps, spiders, transpose, curry, slicing) preserves it or raises.",
5:"list algebra on layers; equalities of diagrams.",
6:"structural recursion on layers/boxes; involution, antihomomorphism.",
7:"rotate on boxes/layers/diagrams; additivity for frame-free boxes, frame counterexample `_refuted`.",
8:"Python slice semantics; concatenation and typing theorems; reversed slice `_refuted`.",
9:"`permutation` as coded (Python loop over a mutable permutation list); concrete wire-run semantics; well-typedness and action for every permutation.",
10:"recursive `__new__` of Swap/Cap/Cup/Spider on compound types; typing and wire semantics.",
11:"`interchange` as coded; typing; semantic preservation in every strict monoidal category.",
12:"`normal_form` with `normalize` generator and visited cache; preservation of typing, boxes, semantics; termination of the cached loop.",
13:"`remove_snakes` as coded (follow_wire, find_yankable_pair, unsnake); typing and semantics in every rigid category for uniformly oriented diagrams; mixed orientation `_refuted`.",
14:"`Functor.__call__` recursion on boxes/types, user `ob`/`ar` as arbitrary functions; typing and monoidality.",
15:"explicit cache threading (state = two association lists); cached result equals uncached result for deterministic rules; the store-before-check bug `_refuted`.",
16:"JSON value inductive; `to_json`/`from_json` of each class; round trip for supported classes; `_refuted` for daggered words / frames of boxes.",
17:"`create_pregroup_diagram` as coded; exactly the requested morphisms at the requested original wires; typing; errors.",
18:"transpose / curry / uncurry typing and snake semantics.",
19:"`normalise_duration` over Q (rationals); reconstruct the value; rounding case `_refuted`.",
20:"stack-machine model of `numerical_backend`; bracketed programs restore; exceptions.",
21:"CCGType `__str__` / `parse` on character lists; round trip by induction on the type.",
22:"CCGType.replace/replace_result/split as coded.",
23:"`infer_rule` branch by branch vs. an independent inductive definition of CCG rule admissibility.",
24:"`CCGRule.resolve`/`__call__`/`apply` vs. typing.",
25:"`CCGTree.to_diagram` (planar and non planar) with `_resolved`; result typed by the translated categories.",
26:"tree JSON round trip.",
27:"`without_trivial_unary_rules`, `collapse_noun_phrases` preservation facts.",
28:"the rewrite rules' `matches`/`rewrite` on Word boxes; cod preserved.",
29:"rewriter state machine with functor cache.",
30:"SimpleRewriteRule matching as coded.",
31:"unknown-word rule and vocabulary collection as coded.",
32:"RemoveCups as coded: typing, words, totality without nested cups, refutation in general; denotation by naturality of nested cups in every interpretation whose turned boxes are bent boxes (TurnSpec), with relations as a model (CatRelTurn).",
33:"RemoveSwaps as coded.",
34:"UnifyCodomain as coded.",
35:"circuit ansatz constructors: widths of every layer; induction on n, layers.",
36:"index accounting of parameters in each ansatz (each used exactly once).",
37:"label strings: injectivity of the encoding.",
38:"MPS/Spider ansatz splitting typing.",
39:"`Dim` directed-type mapping of tensor ansatz.",
40:"`apply_gate`/`from_box` index arithmetic over Z.",
41:"Controlled.decompose wires.",
42:"Gate exporter phases.",
43:"readoff_circuital as coded: qubit lines.",
44:"wire bookkeeping of mixed `to_tn`.",
45:"quantum spiders/cups/caps typing.",
46:"init_and_discard typing.",
47:"tensor `to_tn` node/edge bookkeeping.",
48:"lambdify: substitution of parameters by position.",
49:"Dataset `__iter__`/shuffle as list functions; partition theorem.",
50:"Checkpoint state machine; refinement to a finite map.",
51:"file-system model with a crash after any primitive step; the faithful model violates it: `_refuted`, plus what is guaranteed.",
52:"Trainer.fit loop as fold over epochs/batches; counting theorems.",
53:"early-stopping predicate as coded vs. independent specification.",
54:"best-model tracking in the fold; resume case `_refuted`.",
55:"resume = continue theorem for the modelled trainer state; missing fields named.",
56:"SPSA backward/step over an abstract ordered field vector (Q); restore, mask, bounds.",
57:"gain schedules; hyperparameter mismatch on load `_refuted` if the faithful model shows it.",
58:"Nelder-Mead over Q vectors with an oracle loss; sortedness, monotone best; masked weights `_refuted`.",
59:"Rotosolve over Q with angle oracle; sign bug of `project` `_refuted`.",
60:"tree reader recursion; typing and word order.",
61:"readers as list functions; typing and words.",
62:"CCGBank grammar printer vs. the parser as coded (regex matching modelled by explicit scanners).",
63:"Cell.add as coded with Python list insert/delete; invariants over histories.",
64:"category inductive; equality/hash/match.",
65:"unifier as coded (dictionaries as association lists).",
66:"PrintModel: layer placement, wire bookkeeping and row drawing as coded; PrintTracks/PrintDraw prove the schedule and the picture of every row.",
67:"rose-tree model.",
68:"tree2diagram as coded (components, position tables, auxiliary repair, sorting, swap insertion, final drawing loop); full connectivity for planar trees (TdPlanar.v), shape of any result (TdGen.v), refutation for crossing trees.",
69:"edit_tree as coded.",
70:"dict_from_corefs as coded.",
71:"The reader from parse trees on, as coded (CircModel.v); values on wires for any interpretation of boxes (CircSpec.v: reading, text_run); invariant of the fold over sentences: the wires are the entities in the order of first mentions.",
72:"type string parser/printer on characters.",
73:"count table post-selection as coded.",
74:"training loop model (TrainModel) with batch losses as rationals; the recorded cost is the weighted mean.",
75:"Dataset `__getitem__`/`__len__` on Python indices and slices.",
76:"the cap array as a function of the dimension; identity in dimension 2, refuted above; the snake contraction.",
77:"PrintHead: invariant of the header loop (lengths, placed blocks, columns); str.center as in CPython.",
78:"all_pruned as coded; the tokens it lists are characterised by first occurrences and first mentions (CircSpec.v: pruned_by, dropped).",
79:"diagram2tree and _construct_tree as coded without break_cycles (DtModel.v); correctness for every diagram showing a tree (DtRead.v, DtBuild.v, DtTrip.v), round trip for planar trees, refutation for empty types.",
80:"the sentences2trees functions as coded over arbitrary models (PbModel.v), list surgery with empty_indices, batching loop of the tagger; induction on the batch.",
81:"get_chart_spans/idx2span with the memo threaded through any history of calls; triangular numbers; int((2*i)**0.5) taken as the exact integer root.",
82:"Tagger.parse thresholding loops as coded, including the list comparison; integers for log probabilities.",
83:"heap of box objects (plain, controlled, daggered) with data, cached free_symbols and forwarding assignment; `_fast_subs` and the PyTorch loop as folds over references; invariant relating every reachable heap to the first one.",
84:"the cell with its list, dictionary and minimum, binary search and scans included; one invariant kept by every insertion (ChCell), parametrised by the set of trees offered so far.",
85:"the whole chart parser as folds over spans; the chart invariant carries the offered trees of every cell, pruned ones included; specification by an inductive set of scored derivations; Bobcat's rules as an instance.",
86:"the conversion on the model's parse trees; `image` gives the expected tree; induction over the derivations of C85; regular parses are `parse_tree`s in the sense of C25, so their diagrams come from there.",
87:"DrawableDiagram modelled on rational coordinates, over the generic diagrams of GDiag.v; `shows` gives the expected graph by following wires upwards, independently of the scan list; invariant over the loop (scan list = ports of the open wires).",
88:"geometric invariant over the loop: open wires ordered and spaced, every earlier pair of boxes and wires apart, all preserved by the piecewise shifts (which never bring points closer) and by the new box; then outputs, shift to the origin, scaling.",
89:"arrays of reals with shapes, non-finite values as None; closed form by row and column sums; Gibbs' inequality (from exp x > 1 + x) for the minimum.",
90:"list of magnitudes divided by the maximum of 1e-9 and their sum; sums by induction.",
91:"readoff of the circuit, removal of scalars from the list being iterated, operations as controlled one-qubit operators on amplitude functions; agreement of the interpretation with PennyLane's gates as a record of hypotheses; induction on layers for gates and for post-selections.",
92:"substitution by position in the list of symbols, any permutation of the set; KeyError for every circuit with a scaled symbol.",
93:"bit strings and their numbers; any permutation of the open wires.",
94:"keys as lists of positions; equal keys iff a bijection of edges; invariant over histories that every cached path was earned by a search.",
95:"states of the file (missing, directory, truncated, cut off, holding a dictionary); invariant that the file holds the cache; crash states of a write.",
96:"tensors as functions of edge assignments over a semiring; sums over edges commute (Fubini) and factor out of nodes that lack the edge; induction on the path.",
97:"the nested functions one by one; a specification that follows wire names through a circuit; inserting a wire at a position commutes with each layer (lists); loop invariant preparations ++ gates ++ remaining ++ post-selections.",
98:"printer and recursive reader on character lists; the text of a part has a fixed shape (brackets, then marks), which the reader takes apart by induction on the category; conversely an invariant on what the reader returns, by induction on its depth.",
99:"interpretations pulled back along the functor: image morphisms for the boxes it accepts, nested cups and caps (duals of tensors) for the reversed ones it rejects; induction on layers; the callback is cut down to the boxes of the diagrams at hand (decidable equality of boxes) so that it is total; then the soundness theorems of C11-C13 apply to the pulled-back interpretation.",
100:"RcModel mirrors the loop with a list of detached positions; get_nodes groups tied to TreeModel.get_nodes (C67). Uniqueness: after a group is processed all its positions but one are in the list, which only grows. Deepest: invariant that the list holds, besides the self cycles, exactly the leaf copies of the groups processed, so depths of later groups are lengths of positions; the argmax loop is compared with the specification first_deepest, stated on root paths.",
101:"namespace record, validation, merging of stored arguments, option parsing and the five modules as functions in the result monad with a list of effects; acceptability and saved_as are separate specifications; file names via digit strings padded with zeros, compared lexicographically, by induction on the width.",
}
out=["# DESIGN: a Rocq model of CQCL/lambeq","",
"""## Approach

* Shallow, executable Gallina functions that mirror the Python functions branch by branch. Exceptions are values
  (`res A := Ok a | Err exn`), loops are structural recursion / folds / fuelled recursion with an explicit out-of-fuel
  value. Every definition carries a comment citing `/repo` file and lines.
* Model files (`theories/*Model*.v`, or the definitions at the head of a topic) hold no proofs; `*Facts.v` files hold proofs;
  `Props*.v` files hold nothing but property theorems closed by `exact`, `Print Assumptions`, and non-vacuity `Example`s.
* A property false of the faithful model is proved as `..._refuted` with a concrete witness; a property proved only on
  part of its range is named `..._partial` and the manifest says what is missing.

## Trusted base

* Coq 8.16.1's kernel (and `vm_compute`'s evaluator for the witnesses).
* `Print Assumptions` is run under every property theorem; expected output everywhere is
  "Closed under the global context" (no axioms), with one exception: the theorems of C89 and C90, about real numbers, use
  axioms of Coq's standard library: `ClassicalDedekindReals.sig_forall_dec`, `ClassicalDedekindReals.sig_not_dec`,
  `FunctionalExtensionality.functional_extensionality_dep` and, where logarithms occur, `Classical_Prop.classic`.
  The names `Coq.ssr.ssrunder.Under_rel.*` that a scan of the loaded libraries finds are opaque members of a module of
  Coq's own ssreflect plugin; no theorem here depends on them.
* The reading of the Python code: nothing is extracted or run. CPython's semantics of ints (unbounded `Z`), lists, slices,
  floor `//` and `%`, dict insertion order are modelled explicitly where they matter.
* Not modelled anywhere: numpy/jax/torch/tensornetwork/pytket/pennylane numerics, matplotlib/tikz drawing, neural models,
  network downloads, the CLI, Python object identity (except where stated), hashing (except where a property is about it),
  floating point rounding (losses and weights are rationals or abstract).

## What is modelled and what is not, file by file

Files not listed are not modelled.

| file under lambeq/ | modelled in | not modelled |
|---|---|---|
| backend/grammar.py | TyModel, DiagModel, GDiag, BoxEq, FunctorModel, JsonModel, SnakeModel | drawing options, `__repr__`/`__str__` beyond PrintModel, `fast_deepcopy`, the `grammar` decorator machinery |
| backend/snake_removal.py | SnakeModel | nothing |
| backend/symbol.py | LamModel, QModel | sympy conversion, `__repr__` |
| backend/tensor.py | TnModel, LamModel, SplitModel, FsModel | numerics of the contraction itself (an arbitrary ring stands for the numbers), tensornetwork's edge ordering algorithm |
| backend/quantum.py | QModel, LamModel, TnModel, TnMixModel, FsModel | `eval` with a backend, floating point, `to_tk` beyond MiscModel |
| backend/converters/tk.py | MiscModel (wire bookkeeping) | pytket objects |
| backend/drawing/drawable.py | LayModel (boxes and wires) | frames, pregroup layout, equations |
| backend/drawing/text_printer.py | PrintModel | spacing of non-pregroup diagrams |
| backend/pennylane.py | PlModel | devices, differentiation methods, density matrices, drawing, `to_circuital` on circuits that need it |
| backend/numerical_backend.py | UtilModel | the numerical libraries |
| ansatz/* | AnsatzModel, AnsatzNameModel, SplitModel | symbols' scale as floats (an abstract number) |
| rewrite/* | RewModel, RemCupsModel, RemSwapsModel | word lists themselves (arbitrary predicates) |
| text2diagram/ccg_*.py | CCGModel, BtModel, ReaderModel | drawing of derivations beyond the deriv text |
| text2diagram/ccgbank_parser.py | BankModel | file system, regular expression engine (its matches are modelled) |
| text2diagram/{linear,spiders,tree}_reader.py | ReaderModel | spaCy |
| text2diagram/pregroup_tree*.py | TreeModel, TdModel, DtModel, MiscModel, RcModel | tree generation from dependency lists |
| text2diagram/model_based_reader/*, web_parser.py, ccg_parser.py, depccg_parser.py | PbModel | neural models (arbitrary functions), downloads, HTTP |
| bobcat/lexicon.py, rules.py, tree.py, parser.py, tagger.py, grammar.py | BobModel, ChModel, CellModel, BtModel, PbModel | neural supertagger, float rounding of scores |
| experimental/discocirc/* | CircModel, TreeModel, MiscModel | neural coreference resolver |
| training/dataset.py, checkpoint.py | DataModel | pickle |
| training/trainer.py, quantum_trainer.py | TrainModel | progress bars, tensorboard, time |
| training/*_optimizer.py | OptModel | floats |
| training/model.py, quantum_model.py, pytorch_model.py | FsModel, LossModel (normalisation) | numerics of the forward pass |
| training/tn_path_optimizer.py | PoModel | the searches of opt_einsum (arbitrary function), pickle |
| backend/quantum.py to_circuital | CirModel | pull_bit_through (never called), sharing of box objects |
| bobcat/lexicon.py str, repr, parse | LxModel | non-ASCII digits |
| training/loss.py | LossModel | jax, floats |
| core/utils.py | UtilModel, PbModel | nothing |
| cli.py | CliModel | argparse, YAML, spaCy, reading the input |

## Per-property plan
"""]
for i,p in enumerate(P,1):
    out.append(f"* **{p['id']}** ({p['title']}): {plan.get(i,'to be planned.')}")
out.append("")
open('/verif/DESIGN.md','w').write("\n".join(out))
