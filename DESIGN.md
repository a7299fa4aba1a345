# DESIGN: a Rocq model of CQCL/lambeq

## Approach

* Shallow, executable Gallina functions that mirror the Python functions branch by branch. Exceptions are values
  (`res A := Ok a | Err exn`), loops are structural recursion / folds / fuelled recursion with an explicit out-of-fuel
  value. Every definition carries a comment citing `/repo` file and lines.
* Model files (`theories/*Model*.v`, or the definitions at the head of a topic) hold no proofs; `*Facts.v` files hold proofs;
  `Props*.v` files hold nothing but property theorems closed by `exact`, `Print Assumptions`, and non-vacuity `Example`s.
* A property false of the faithful model is proved as `..._refuted` with a concrete witness; a property proved only on
  part of its range is named `..._partial` and the manifest says what is missing.

## Trusted base

* Coq 8.16.1's kernel (and `vm_compute`'s evaluator for the witnesses).
* `Print Assumptions` is run under every property theorem; expected output everywhere is
  "Closed under the global context" (no axioms), with one exception: the theorems of C89 and C90, about real numbers, use
  axioms of Coq's standard library: `ClassicalDedekindReals.sig_forall_dec`, `ClassicalDedekindReals.sig_not_dec`,
  `FunctionalExtensionality.functional_extensionality_dep` and, where logarithms occur, `Classical_Prop.classic`.
  The names `Coq.ssr.ssrunder.Under_rel.*` that a scan of the loaded libraries finds are opaque members of a module of
  Coq's own ssreflect plugin; no theorem here depends on them.
* The reading of the Python code: nothing is extracted or run. CPython's semantics of ints (unbounded `Z`), lists, slices,
  floor `//` and `%`, dict insertion order are modelled explicitly where they matter.
* Not modelled anywhere: numpy/jax/torch/tensornetwork/pytket/pennylane numerics, matplotlib/tikz drawing, neural models,
  network downloads, the CLI, Python object identity (except where stated), hashing (except where a property is about it),
  floating point rounding (losses and weights are rationals or abstract).

## What is modelled and what is not, file by file

Files not listed are not modelled.

| file under lambeq/ | modelled in | not modelled |
|---|---|---|
| backend/grammar.py | TyModel, DiagModel, GDiag, BoxEq, FunctorModel, JsonModel, SnakeModel | drawing options, `__repr__`/`__str__` beyond PrintModel, `fast_deepcopy`, the `grammar` decorator machinery |
| backend/snake_removal.py | SnakeModel | nothing |
| backend/symbol.py | LamModel, QModel | sympy conversion, `__repr__` |
| backend/tensor.py | TnModel, LamModel, SplitModel, FsModel | numerics of the contraction itself (an arbitrary ring stands for the numbers), tensornetwork's edge ordering algorithm |
| backend/quantum.py | QModel, LamModel, TnModel, TnMixModel, FsModel | `eval` with a backend, floating point, `to_tk` beyond MiscModel |
| backend/converters/tk.py | MiscModel (wire bookkeeping) | pytket objects |
| backend/drawing/drawable.py | LayModel (boxes and wires) | frames, pregroup layout, equations |
| backend/drawing/text_printer.py | PrintModel | spacing of non-pregroup diagrams |
| backend/pennylane.py | PlModel | devices, differentiation methods, density matrices, drawing, `to_circuital` on circuits that need it |
| backend/numerical_backend.py | UtilModel | the numerical libraries |
| ansatz/* | AnsatzModel, AnsatzNameModel, SplitModel | symbols' scale as floats (an abstract number) |
| rewrite/* | RewModel, RemCupsModel, RemSwapsModel | word lists themselves (arbitrary predicates) |
| text2diagram/ccg_*.py | CCGModel, BtModel, ReaderModel | drawing of derivations beyond the deriv text |
| text2diagram/ccgbank_parser.py | BankModel | file system, regular expression engine (its matches are modelled) |
| text2diagram/{linear,spiders,tree}_reader.py | ReaderModel | spaCy |
| text2diagram/pregroup_tree*.py | TreeModel, TdModel, DtModel, MiscModel, RcModel | tree generation from dependency lists |
| text2diagram/model_based_reader/*, web_parser.py, ccg_parser.py, depccg_parser.py | PbModel | neural models (arbitrary functions), downloads, HTTP |
| bobcat/lexicon.py, rules.py, tree.py, parser.py, tagger.py, grammar.py | BobModel, ChModel, CellModel, BtModel, PbModel | neural supertagger, float rounding of scores |
| experimental/discocirc/* | CircModel, TreeModel, MiscModel | neural coreference resolver |
| training/dataset.py, checkpoint.py | DataModel | pickle |
| training/trainer.py, quantum_trainer.py | TrainModel | progress bars, tensorboard, time |
| training/*_optimizer.py | OptModel | floats |
| training/model.py, quantum_model.py, pytorch_model.py | FsModel, LossModel (normalisation) | numerics of the forward pass |
| training/tn_path_optimizer.py | PoModel | the searches of opt_einsum (arbitrary function), pickle |
| backend/quantum.py to_circuital | CirModel | pull_bit_through (never called), sharing of box objects |
| bobcat/lexicon.py str, repr, parse | LxModel | non-ASCII digits |
| training/loss.py | LossModel | jax, floats |
| core/utils.py | UtilModel, PbModel | nothing |
| cli.py | CliModel | argparse, YAML, spaCy, reading the input |

## Per-property plan

* **C01** (Types form a free monoid under @): raw `Ty` inductive (name, objects, z) + `tensor`/`_fromiter`; flatness predicate; refinement to the list of atoms; induction.
* **C02** (Adjoints of types): raw `rotate`; refinement to list-of-atoms rotate; parity of Z with Python floor-mod; induction.
* **C03** (Ty.insert and Ty.replace edit exactly the addressed position): raw `insert`/`replace` with Python index rules; positive theorem for the indices where it holds, `_refuted` for negative index on atomic types and index = len.
* **C04** (Diagrams built through the API are well typed): diagram record with dom/cod/layers; well-formedness chain predicate; every constructor and combinator (Id, from box, then, tensor, dagger, rotate, permutation, swap, cups, caps, spiders, transpose, curry, slicing) preserves it or raises.
* **C05** (Diagrams form a strict monoidal category up to interchange): list algebra on layers; equalities of diagrams.
* **C06** (Dagger is an involutive contravariant functor): structural recursion on layers/boxes; involution, antihomomorphism.
* **C07** (Rotation (adjoint) is an integer action on boxes and diagrams): rotate on boxes/layers/diagrams; additivity for frame-free boxes, frame counterexample `_refuted`.
* **C08** (Slicing a diagram): Python slice semantics; concatenation and typing theorems; reversed slice `_refuted`.
* **C09** (Diagram.permutation routes wires as requested): `permutation` as coded (Python loop over a mutable permutation list); concrete wire-run semantics; well-typedness and action for every permutation.
* **C10** (Swaps, cups, caps and spiders of compound types): recursive `__new__` of Swap/Cap/Cup/Spider on compound types; typing and wire semantics.
* **C11** (Interchanging boxes preserves the morphism): `interchange` as coded; typing; semantic preservation in every strict monoidal category.
* **C12** (normal_form terminates and preserves meaning): `normal_form` with `normalize` generator and visited cache; preservation of typing, boxes, semantics; termination of the cached loop.
* **C13** (remove_snakes is sound and complete for yankable pairs): `remove_snakes` as coded (follow_wire, find_yankable_pair, unsnake); typing and semantics in every rigid category for uniformly oriented diagrams; mixed orientation `_refuted`.
* **C14** (Functors preserve typing and structure): `Functor.__call__` recursion on boxes/types, user `ob`/`ar` as arbitrary functions; typing and monoidality.
* **C15** (Functor caching is unobservable): explicit cache threading (state = two association lists); cached result equals uncached result for deterministic rules; the store-before-check bug `_refuted`.
* **C16** (JSON round trip of types, boxes and diagrams): JSON value inductive; `to_json`/`from_json` of each class; round trip for supported classes; `_refuted` for daggered words / frames of boxes.
* **C17** (create_pregroup_diagram applies cups to the named wires): `create_pregroup_diagram` as coded; exactly the requested morphisms at the requested original wires; typing; errors.
* **C18** (transpose and curry are well typed): transpose / curry / uncurry typing and snake semantics.
* **C19** (normalise_duration is a faithful mixed-radix rendering): `normalise_duration` over Q (rationals); reconstruct the value; rounding case `_refuted`.
* **C20** (The numerical backend context is a stack discipline): stack-machine model of `numerical_backend`; bracketed programs restore; exceptions.
* **C21** (CCG type strings round trip): CCGType `__str__` / `parse` on character lists; round trip by induction on the type.
* **C22** (CCG type substitution and decomposition): CCGType.replace/replace_result/split as coded.
* **C23** (Inferred CCG rules are admissible): `infer_rule` branch by branch vs. an independent inductive definition of CCG rule admissibility.
* **C24** (CCG rule resolution is sound): `CCGRule.resolve`/`__call__`/`apply` vs. typing.
* **C25** (CCG trees become well-typed sentence diagrams): `CCGTree.to_diagram` (planar and non planar) with `_resolved`; result typed by the translated categories.
* **C26** (CCG tree JSON round trip): tree JSON round trip.
* **C27** (Trivial unary rules are removed and nothing else): `without_trivial_unary_rules`, `collapse_noun_phrases` preservation facts.
* **C28** (Box-level rewrite rules keep the interface of a box): the rewrite rules' `matches`/`rewrite` on Word boxes; cod preserved.
* **C29** (Rewriter.add_rules takes effect): rewriter state machine with functor cache.
* **C30** (SimpleRewriteRule word matching): SimpleRewriteRule matching as coded.
* **C31** (Unknown-word vocabulary): unknown-word rule and vocabulary collection as coded.
* **C32** (RemoveCupsRewriter preserves the interface and the meaning): RemoveCups as coded: typing, words, totality without nested cups, refutation in general; denotation by naturality of nested cups in every interpretation whose turned boxes are bent boxes (TurnSpec), with relations as a model (CatRelTurn).
* **C33** (RemoveSwapsRewriter yields swap-free pregroup diagrams): RemoveSwaps as coded.
* **C34** (UnifyCodomainRewriter fixes the codomain): UnifyCodomain as coded.
* **C35** (Circuit ansatz gives circuits of the right width): circuit ansatz constructors: widths of every layer; induction on n, layers.
* **C36** (Each ansatz parameter is used exactly once): index accounting of parameters in each ansatz (each used exactly once).
* **C37** (Parameter names identify boxes): label strings: injectivity of the encoding.
* **C38** (Tensor-train splitting preserves the interface and bounds tensor order): MPS/Spider ansatz splitting typing.
* **C39** (Directed dimensions account for every leg once): `Dim` directed-type mapping of tensor ansatz.
* **C40** (Gate placement through the circuit API): `apply_gate`/`from_box` index arithmetic over Z.
* **C41** (Long-range controlled gates decompose correctly): Controlled.decompose wires.
* **C42** (Exported gates keep their phase): Gate exporter phases.
* **C43** (Circuital read-off identifies qubits): readoff_circuital as coded: qubit lines.
* **C44** (Mixed evaluation tracks the right wires): wire bookkeeping of mixed `to_tn`.
* **C45** (Quantum spiders, cups and caps are well typed): quantum spiders/cups/caps typing.
* **C46** (init_and_discard closes a circuit): init_and_discard typing.
* **C47** (Contracting a tensor diagram connects the wires of the diagram): tensor `to_tn` node/edge bookkeeping.
* **C48** (lambdify substitutes every symbol): lambdify: substitution of parameters by position.
* **C49** (Dataset batches partition the data): Dataset `__iter__`/shuffle as list functions; partition theorem.
* **C50** (Checkpoint behaves as a finite map and survives a file round trip): Checkpoint state machine; refinement to a finite map.
* **C51** (A crash while checkpointing never loses the previous checkpoint): file-system model with a crash after any primitive step; the faithful model violates it: `_refuted`, plus what is guaranteed.
* **C52** (Trainer evaluation, logging and step schedule): Trainer.fit loop as fold over epochs/batches; counting theorems.
* **C53** (Early stopping criterion): early-stopping predicate as coded vs. independent specification.
* **C54** (Best-model checkpoint tracks the best validation value): best-model tracking in the fold; resume case `_refuted`.
* **C55** (Resuming from a checkpoint equals uninterrupted training): resume = continue theorem for the modelled trainer state; missing fields named.
* **C56** (SPSA perturbs only unmasked weights and restores them): SPSA backward/step over an abstract ordered field vector (Q); restore, mask, bounds.
* **C57** (SPSA gain schedule resumes exactly): gain schedules; hyperparameter mismatch on load `_refuted` if the faithful model shows it.
* **C58** (Nelder-Mead bookkeeping): Nelder-Mead over Q vectors with an oracle loss; sortedness, monotone best; masked weights `_refuted`.
* **C59** (Rotosolve coordinate update): Rotosolve over Q with angle oracle; sign bug of `project` `_refuted`.
* **C60** (Tree reader builds one box per internal node): tree reader recursion; typing and word order.
* **C61** (Linear and spider readers): readers as list functions; typing and words.
* **C62** (CCGBank tree parsing): CCGBank grammar printer vs. the parser as coded (regex matching modelled by explicit scanners).
* **C63** (Bobcat chart cell beam): Cell.add as coded with Python list insert/delete; invariants over histories.
* **C64** (Bobcat categories: equality, hashing, matching): category inductive; equality/hash/match.
* **C65** (Bobcat unification and combination soundness): unifier as coded (dictionaries as association lists).
* **C66** (Text printer geometry): PrintModel: layer placement, wire bookkeeping and row drawing as coded; PrintTracks/PrintDraw prove the schedule and the picture of every row.
* **C67** (Pregroup tree node lists): rose-tree model.
* **C68** (Pregroup tree to diagram): tree2diagram as coded (components, position tables, auxiliary repair, sorting, swap insertion, final drawing loop); full connectivity for planar trees (TdPlanar.v), shape of any result (TdGen.v), refutation for crossing trees.
* **C69** (DisCoCirc tree rewriting): edit_tree as coded.
* **C70** (Coreference map): dict_from_corefs as coded.
* **C71** (DisCoCirc circuits of texts): The reader from parse trees on, as coded (CircModel.v); values on wires for any interpretation of boxes (CircSpec.v: reading, text_run); invariant of the fold over sentences: the wires are the entities in the order of first mentions.
* **C72** (String to pregroup type): type string parser/printer on characters.
* **C73** (tket post-selection of counts): count table post-selection as coded.
* **C74** (Recorded training and validation costs are weighted means): training loop model (TrainModel) with batch losses as rationals; the recorded cost is the weighted mean.
* **C75** (Dataset indexing keeps data and targets together): Dataset `__getitem__`/`__len__` on Python indices and slices.
* **C76** (Tensor caps and cups are dual): the cap array as a function of the dimension; identity in dimension 2, refuted above; the snake contraction.
* **C77** (Text headers and wire columns): PrintHead: invariant of the header loop (lengths, placed blocks, columns); str.center as in CPython.
* **C78** (DisCoCirc noun pruning): all_pruned as coded; the tokens it lists are characterised by first occurrences and first mentions (CircSpec.v: pruned_by, dropped).
* **C79** (Reading a pregroup tree off a diagram): diagram2tree and _construct_tree as coded without break_cycles (DtModel.v); correctness for every diagram showing a tree (DtRead.v, DtBuild.v, DtTrip.v), round trip for planar trees, refutation for empty types.
* **C80** (Batch parsing keeps results aligned with sentences): the sentences2trees functions as coded over arbitrary models (PbModel.v), list surgery with empty_indices, batching loop of the tagger; induction on the batch.
* **C81** (Chart span numbering): get_chart_spans/idx2span with the memo threaded through any history of calls; triangular numbers; int((2*i)**0.5) taken as the exact integer root.
* **C82** (Tagger output): Tagger.parse thresholding loops as coded, including the list comparison; integers for log probabilities.
* **C83** (Models put each weight in the place of its own symbol): heap of box objects (plain, controlled, daggered) with data, cached free_symbols and forwarding assignment; `_fast_subs` and the PyTorch loop as folds over references; invariant relating every reachable heap to the first one.
* **C84** (A chart cell keeps the best tree of every category, up to the beam): the cell with its list, dictionary and minimum, binary search and scans included; one invariant kept by every insertion (ChCell), parametrised by the set of trees offered so far.
* **C85** (The chart parser returns derivations of the sentence and loses trees only to the beam): the whole chart parser as folds over spans; the chart invariant carries the offered trees of every cell, pruned ones included; specification by an inductive set of scored derivations; Bobcat's rules as an instance.
* **C86** (Bobcat's parses become CCG trees and diagrams of the sentence): the conversion on the model's parse trees; `image` gives the expected tree; induction over the derivations of C85; regular parses are `parse_tree`s in the sense of C25, so their diagrams come from there.
* **C87** (The drawing of a diagram shows the diagram): DrawableDiagram modelled on rational coordinates, over the generic diagrams of GDiag.v; `shows` gives the expected graph by following wires upwards, independently of the scan list; invariant over the loop (scan list = ports of the open wires).
* **C88** (Drawings are laid out without collisions): geometric invariant over the loop: open wires ordered and spaced, every earlier pair of boxes and wires apart, all preserved by the piecewise shifts (which never bring points closer) and by the new box; then outputs, shift to the origin, scaling.
* **C89** (The loss functions compute the losses they are named after): arrays of reals with shapes, non-finite values as None; closed form by row and column sums; Gibbs' inequality (from exp x > 1 + x) for the minimum.
* **C90** (Normalised predictions are probability distributions): list of magnitudes divided by the maximum of 1e-9 and their sum; sums by induction.
* **C91** (A circuit converted to PennyLane evaluates to the circuit's post-selected state): readoff of the circuit, removal of scalars from the list being iterated, operations as controlled one-qubit operators on amplitude functions; agreement of the interpretation with PennyLane's gates as a record of hypotheses; induction on layers for gates and for post-selections.
* **C92** (Parameters of a PennyLane circuit are the weights of its symbols): substitution by position in the list of symbols, any permutation of the set; KeyError for every circuit with a scaled symbol.
* **C93** (Post-selection keeps exactly the compatible basis states): bit strings and their numbers; any permutation of the open wires.
* **C94** (A cached contraction path was found for the same contraction): keys as lists of positions; equal keys iff a bijection of edges; invariant over histories that every cached path was earned by a search.
* **C95** (Cached contraction paths survive restarts and checkpoints): states of the file (missing, directory, truncated, cut off, holding a dictionary); invariant that the file holds the cache; crash states of a write.
* **C96** (Contraction computes the value of the network whatever the path): tensors as functions of edge assignments over a semiring; sums over edges commute (Fubini) and factor out of nodes that lack the edge; induction on the path.
* **C97** (to_circuital keeps the circuit): the nested functions one by one; a specification that follows wire names through a circuit; inserting a wire at a position commutes with each layer (lists); loop invariant preparations ++ gates ++ remaining ++ post-selections.
* **C98** (Bobcat category strings round trip): printer and recursive reader on character lists; the text of a part has a fixed shape (brackets, then marks), which the reader takes apart by induction on the category; conversely an invariant on what the reader returns, by induction on its depth.
* **C99** (A functor's image means what the diagram means): interpretations pulled back along the functor: image morphisms for the boxes it accepts, nested cups and caps (duals of tensors) for the reversed ones it rejects; induction on layers; the callback is cut down to the boxes of the diagrams at hand (decidable equality of boxes) so that it is total; then the soundness theorems of C11-C13 apply to the pulled-back interpretation.
* **C100** (Breaking cycles in pregroup trees keeps one node for each word, the deepest): RcModel mirrors the loop with a list of detached positions; get_nodes groups tied to TreeModel.get_nodes (C67). Uniqueness: after a group is processed all its positions but one are in the list, which only grows. Deepest: invariant that the list holds, besides the self cycles, exactly the leaf copies of the groups processed, so depths of later groups are lengths of positions; the argmax loop is compared with the specification first_deepest, stated on root paths.
* **C101** (The command line interface saves what it is asked to save, in order): namespace record, validation, merging of stored arguments, option parsing and the five modules as functions in the result monad with a list of effects; acceptability and saved_as are separate specifications; file names via digit strings padded with zeros, compared lexicographically, by induction on the width.
