# Formal model of cwn (cell complex message passing) in Coq 8.16.1

## 1. Layout

`rocq/theories/` (logical path `Verif`):

* `Base.v` result monad (`Ok`/`Err`), list helpers.
* `*Model.v` functions transcribed from `/repo`; every definition has a comment citing file and lines.
* `*Spec.v` small specifications, written without the functions of the model (they share its records).
* `*Proofs.v` and the other files without a suffix: lemmas.
* `*Props.v` (and the ends of `MPParams`, `MPIso`, `MPLower`, `LiftInvariance`, `LiftRingBoundary`,
  `LiftDataset`, `PermLift`): the final theorems `Cnn_...`, `Example`s showing that their hypotheses are
  met by concrete non-trivial inputs, and `Print Assumptions`.
* A theorem `Cnn_..._refuted` shows with a concrete witness that a statement one would expect is false
  of the code. A theorem `Cnn_..._partial` proves a part of its property; the comment above it and the
  note in MANIFEST.json say what is missing.

`properties.jsonl` lists the properties, `MANIFEST.json` the theorems per property,
`seeded/LOG.jsonl` the edits of the model that the theorems were tested against.

## 2. Modelling conventions

* Exceptions are values: `result A := Ok a | Err e`.  `assert` -> `Err AssertionError`,
  `raise ValueError` -> `Err ValueError`, indexing out of range -> `Err IndexError`, an attribute of
  None -> `Err AttributeError` etc.  "Succeeds" in a property is a theorem `... = Ok _`.
* An index tensor of shape 2xE is a list of columns `(row0, row1)` with `nat` entries.  A feature
  matrix is a list of rows; a row is an element of an arbitrary type `V` with the operations of the
  record `ops V`: zero, addition, division by a count, maximum, minimum.  The laws needed (`ops_ok`:
  commutative monoid, commutative semigroups) are hypotheses of exactly those theorems that need them;
  `Zops_ok` shows they can be met.  IEEE floats are not associative: what binary32 rounding does to the
  theorems with these hypotheses is the subject of C84; theorems without them hold bit for bit.
* Widths of rows are not modelled in the theorems about values (a row is atomic) except as an abstract
  `width : V -> nat` in the dataset conversion.  They have a model of their own, in which a matrix is
  its number of columns (C85).
* Neural sub-networks are arbitrary functions on rows, i.e. evaluation mode (BatchNorm is affine per
  row, dropout the identity).  The theorems therefore hold for all weights, activations and widths.
* Libraries are universally quantified oracles with their documentation as a premise, never axioms:
  gudhi's simplex tree enumerates the given simplices in *any* order (`enumerates`), graph-tool
  reports the induced cycles in *any* order and *any* number of times (`finds_cycles`), Python sets
  iterate in *any* order, scipy lists sparse entries in *any* order, random generators make *any*
  choices, sklearn's splitter gives *any* fold numbers below 10, scipy's Delaunay gives *any* triangles,
  training gives *any* sequence of scores.  For each there is an instance (`any_lib_ok`, `ref_isos_ok`,
  ...) used in the examples, so the premises are satisfiable.
* Loops over mutable state become folds over the state; `set_xs` inside a forward pass returns the
  changed batch.  Potentially endless loops (trajectory sampling, permutation sampling) take the
  number of attempts as an argument and return `None` when it is used up; the theorems hold for every
  number.

## 3. Properties: what is modelled and how it is proved

### Complexes and batches (ComplexModel, BatchSpec, BatchSpec2, BatchProofs, BatchProofs2, BatchProps)

Modelled: `Cochain` attributes, counts and increments, `CochainBatch.from_cochain_list`,
`Complex.__init__/_consolidate/set_xs/get_labels/get_cochain_params/get_all_cochain_params`,
`ComplexBatch.from_complex_list`.  The specification is the disjoint union: `union_complex` says for
every attribute that it is the concatenation of the members' attributes, the i-th one shifted by the
number of cells of the members before (`off`).  `from_complex_list_is_batch` refines the running
offsets of the code to it by induction over the list of complexes.

* C01, C02, C03, C09, C10: read off the refinement; C03 by selecting blocks (`rows_of`, `restrict`,
  `restrict_refs`) and subtracting offsets; C09 by showing that the batching function factors through
  truncation.
* C30 (MPProps): `set_xs` succeeds iff the row counts fit, keeps every other attribute.
* C04 (MPParams): the parameters of a batch are the concatenation of the members' parameters.

### Message passing (ScatterModel, MPModel, DummyModel, MPSpec, MPEngine, MPProofs, MPBatch, MPForward, MPNets, MPIso, MPLower, MPProps)

Modelled: torch_scatter, `CochainMessagePassing.propagate`, the cochain convolutions Dummy, CIN, EdgeCIN,
SparseCIN, CIN++, `pool_complex`, jumping knowledge, readout, forward passes of CIN0, SparseCIN, CINpp,
EdgeCIN0, Dummy.  The specification `MPSpec` works cell by cell on functions `dimension -> cell -> V`,
without tensors: `new_feature`, `step`, `history`, `predict`.

* C24: scatter loop refined to "reduction of the messages addressed to i"; permutation invariance.
* C25: `propagate` refined to sums over declared neighbours.
* C05, C06, C07, C08: `MPForward` refines forward passes to `predict` of the skeleton of each member;
  the skeleton of the i-th block of a batch is that of the i-th complex.
* C26, C27, C47: `MPEngine` is one simulation proof: two runs agree on cells related level by level.
  Instances: isomorphisms (C26, C27), equality of colours of cellular colour refinement (C47).
* C56 (PowerSpec, PowerProofs, PowerProps): the converse of C47.  The network codes colours as exponents:
  rows are even powers of a base larger than all multisets, messages odd powers, so a sum of messages and
  the own row is a numeral from which both can be read off (`menc_inj`); induction over layers.
* C58 (WLSpec, WLProofs, WLProps): upper neighbours of a vertex of a lifted complex are its neighbours in the
  graph, once each (`lifted_neighbours`), so colours of the complex refine those of the graph; with C56 some
  network reaches the test.  GIN is bounded by the test by induction over layers.  The liftings meet the
  premises (C58_clique_lift, C58_ring_lift); strictness by counting 2-cells for arbitrary library answers.
* C59 (CountProps): equal predictions of the separating network give equal multisets of colours (C56), hence equal
  numbers of cells (cliques) and, by the boundary sizes (C20), equal numbers of rings of each length.
* C70 (RedundantSpec, RedundantProofs, RedundantProps): two cells with equal colours after two more rounds have
  cofaces and boundary cells with equal colours (the upper neighbours of a cell list each coface once for each of its
  other boundary cells; these repetitions cancel, `cancel_repeat`), so their lower neighbours match as well; by
  induction equal colours after 2 l + 1 rounds give equal features after l layers (`related_refines`).  With C56 a
  SparseCIN reaches the colours.  Both liftings give such complexes by C12-C14, C20.
* C71 (NormModel, NormSpec, NormProofs, NormMembers, NormProps): a training pass of a level is a sequence of stages, each
  collecting rows (over cells or messages), computing statistics and going on with them (`staged`, `ran`).  Resolving
  the stages with the rows of the members of one batch gives frozen row functions (`resolve`); batches whose rows agree
  up to order (`matches`) resolve to the same functions, and this is preserved by a layer (`advance`), since the frozen
  network is local and isomorphism invariant (C06, C26).  Every stage sees as many rows as there are cells of a dimension or
  as messages, and messages come in pairs, so exactly one row occurs only with exactly one cell.
* C29: the lower adjacency does not occur in the parameters; C29_cinpp_uses_lower_refuted shows that CIN++
  ignores it as well (finding).
* C48: the forward pass returns the batch with the same structure; a second pass differs (witness).
* C60 (CollectModel, CollectSpec, CollectProofs, CollectProps): Python values as a sum type, dictionaries as functions from
  names, layers as records of signatures and bodies.  The loop of `__collect__` is analysed by what it plans for a
  name (`plan_of`); success, stored values and sizes depend only on the set of names (`loop_order`).  C60_refines
  shows that MPModel's `propagate` is what the machinery computes for the layers of the project.
* C61, C62 (FlowUpSpec, FlowUpProofs, FlowUpProps): `flat` rules ignore coboundary features and have no lower messages.  Two
  complexes that agree up to dimension d have, under flat rules, the same features up to dimension d after every
  layer (`history_flat`), hence the same predictions at readouts up to d.  At the vertices of a lifted complex there
  are no boundary messages and the upper neighbours are the graph neighbours, so the history of a vertex is that of a
  graph network: equal to the GIN history for imitating layers (`history_gin`), a function of the Weisfeiler-Lehman
  colour in general (`history_wl`).

### Lifting (LiftModel, LiftSpec, LiftBase, LiftClique, LiftTables, LiftProofs, LiftRing, LiftRingBoundary, LiftRingProps, LiftProps, LiftIso, LiftInvariance, LiftDataset)

Modelled: all of data/utils.py.  The specification `has_cells cells down X k` says that complex `k` has
exactly the cells with the given vertex sets, exact boundary, upper and lower adjacency, and features.

* C11-C16: invariants of `build_tables`, `extract_boundaries`, `build_adj` for any enumeration.
* C17, C28: two complexes that both satisfy `has_cells` for the same graph (up to a permutation of the
  nodes) are isomorphic (`LiftIso`), then C27 applies.
* C18-C21: rings are the induced cycles, deduplicated by vertex set; closing edge, attributes.
* C22: dataset conversion is a map over the dataset.
* C63, C64 (UnionSpec, UnionProofs, UnionLift, UnionProps): `union_cells` puts the cells of the members one after the other with
  shifted vertices.  `batch_cells`: the batch of complexes with given cells is a complex with the union of the cells
  (positions by blocks).  `union_clique_cells`, `union_ring_cells`: the cliques and induced cycles of a disjoint union are those
  of the members, because adjacent nodes lie in one block.  Both complexes then have the same cells, and `same_cells_iso` gives
  the renumbering.  C64: the increasing 3-cliques are the induced cycles of length 3 (`triangles_both`).

### Embedding networks (EmbedModel, EmbedSpec, EmbedProofs, EmbedNets, EmbedProps)

Modelled: `InitReduceConv`, `AbstractEmbedVEWithReduce` (OGB and plain), EmbedSparseCIN, EmbedCINpp,
OGBEmbedSparseCIN, OGBEmbedCINpp, EmbedSparseCINNoRings, EmbedGIN.  C06 and C27 for these networks; C23.

### Permutations (PermModel, PermProps, PermLift)

C40: a counting argument on 0/1 matrices gives the permutation; entries of P A P^T.  C28 for
`permute_graph` followed by lifting and a network.

### Flow and ocean data (FlowModel, FlowProofs, FlowProofs2, FlowWalk, FlowHole, FlowAdj, FlowProps; OceanModel, OceanProofs, OceanProps; OrientModel, OrientProofs, OrientBatch, OrientProps)

C34-C39, C49, C50: sums over columns of integer matrices, telescoping along walks, invariants of the
hole cutting and of the walk.  C37 and the oriented part of C05: the rows of a layer transform with the
signs, for odd activations and additive maps.

### Datasets (DatasetModel, DatasetSpec, DatasetProofs, DatasetProps; CacheModel, CacheProps; RingModel, RingProps; TUModel, TUSpec, TUProofs, TUProps)

* C31: `fetch (collate ks) i` equals the i-th complex; the cache is a state machine, induction over
  access histories.  C32: splits.
* C33: paths are strings; injectivity by parsing the decimal numerals, collisions by witnesses.
* C41: arithmetic on the ring; C42: fold invariants against an independent reading of the file format
  (`TUSpec`); C43: fold numbers partition positions.

### Graph baselines and ring networks (GraphNetModel, GraphNetSpec, GraphNetProofs, RingNetProofs, GraphNetProps; RingTaskModel, RingTaskSpec, RingTaskProofs, RingTaskProps)

* C53: a batch of graphs is their disjoint union, layers commute with it (induction over layers and
  members); RingSparseCIN and MessagePassingAgnostic from the engine of C06 with a masked or pooled readout.
* C54: induction over layers; the relation `sees` lists the steps a message can take.
* C55: positive parts by following the target through explicit weights: every row is a constant plus a
  non-negative multiple of the target (`aff`), and the multiple is positive where the target has arrived.
  Negative parts: C54 and distances on the ring.  The complexes are those of `process` (lifting, mask,
  zeroed features).

### Experiments (ExpModel, ExpSpec, ExpProofs, ExpProps; InferModel, InferProps)

* C44: first best element of a list of scores (with NaN), induction over epochs; C45: counting pairs;
  C46: residues modulo 8 partition the grid; C51: ring statistics from C19.
* C52: evaluation over any chunking of the data, from C06.
* C57 (TrainModel, TrainSpec, TrainProps): the loop of `train` refines a relation `epoch` (skip or step),
  induction over the batches; the number of samples of a batch from C01.
* C72 (SchedModel, SchedSpec, SchedProofs, SchedProps, SchedEnds): the loop of C44 with the scheduler inside; `main_refines` reduces it to
  ExpModel.main with computed stopping epochs, so that C44 applies.  The counter of bad epochs is the number of epochs
  since the last improvement modulo patience+1 (`pl_inv`), which gives the closed form; `hits_pay` bounds reductions by epochs,
  `improvements` epochs by reductions and improvements, of which only finitely many fit between two bounds.
* C73 (BlindSpec, BlindProofs, BlindProps): `equitable` says that cells of one kind have equal rows, equal numbers of faces and
  cofaces of each kind and that both complexes have equally many nodes; by the reduction of C70 (boundary refinement at the
  level of skeletons) no network separates such complexes (C73_equitable; the colour of a cell is its kind, in every round).
  The liftings of graphs with prescribed numbers of common neighbours (`clique_regular`) or of chordless cycles per edge
  (`ring_regular`) are equitable, the kind of a cell being its dimension or the length of its ring.  Strongly regular graphs are
  `clique_regular` up to pairs and `ring_regular` up to triangles.  Batches by C06, the rate of failures by the metric of C45.
  Examples: Rook and Shrikhande, and two circulant graphs with squares.
* C74 (PartialModel, PartialSpec, PartialProofs, PartialProps, PartialKeys): the dictionary `res` as an association list with Python's keys
  (`layer{c}_{k}` with decimal numbers, shown injective and spelt out in C74_key_names); `join` concatenates the entries that exist and is associative
  (`join_chunks`).  By the blocks of C06 the history of the layers, the pools and the output of a batch split into those of the
  members (`partial_from`); the loop of the repository's batching test is `collect`.
* C75 (SelfIsoModel, SelfIsoSpec, SelfIsoProofs, SelfIsoProps): the data directory is a record of three maps (.g6 files, .pkl dumps,
  processed files by path).  The invariant `honest` says that every dump and every processed file is what a new run would write; it
  holds in the beginning and is kept by every run, because the names of dumps (`permuted_name_inj`) and the paths of processed files
  (C33_sr) determine what they were made of.  Then conversion (C22), storage (C31), permutation (C40), lifting (C17) and invariance of
  networks (C27, C53) are put together.  The theorems also say that the dump that was compared with holds copies whose nodes are
  renamed by something else than the identity (`renamed_copy`), so the test does not compare a graph with itself.  Examples: a family of two graphs, a family without rings on which the test raises
  AttributeError.
* C76 (CollaterModel, CollaterSpec, CollaterProofs, CollaterProps): samples and batches are trees; `collater` recurses along the first
  sample as the code does (`zip` ends with the shortest, a missing key raises).  A step into the batch is a step into all samples
  (`step_ok`), so by induction along paths `places`; success by induction on the first sample (`succeeds`).  Followed keys are a loop
  per key (`follow_all`) whose list exists only if the first cochain made it.
* C77 (HierSpec, HierProofs, HierProps; PartSpec, PartProofs, PartProps): the separated pairs are one long and two short cycles, and
  for cliques the graphs `bit_graph` whose nodes choose a bit for every other place with even parity (in one place odd for the
  twisted graph); a clique through all places exists only without the twist, smaller cliques extend in equally many ways, so that
  C73 applies.  That nothing is lost: the smaller lifting consists of those cells of the larger that dimension and number of
  boundary cells select (`selected`); after one round colours know what is selected, so colours of the larger complex after l+1
  rounds determine those of the smaller after l (`part_colour`, by induction on rounds), and C56 and C70 give the network.
* C78 (MolModel, MolSpec, MolProofs, MolProps): the process and __init__ functions of the five kinds of data sets composed with
  storage (C31), splits (C32), loader and evaluation (C52).  `predicted` in MolSpec is the output for one lifted graph in a
  batch of its own; C22 gives well-formed complexes of common widths, C31 their faithful storage, C06 the independence of
  batches, C28 the independence of numbering.  Not modelled: `load_pep_f_graph_dataset` at the end of
  peptides_functional.py (it names the targets of the structural set, which the functional file lacks).
* C79 (KwlSpec: the test; KwlProofs, KwlProps: lower bound; KwlBound, KwlClique, KwlCells, KwlUpper: upper bound): the separated
  pairs are the bit graphs of C77.  A tuple of k nodes leaves two of the k+2 places untouched, so the twist can be moved between
  them by an isomorphism fixing the tuple (`switch`, `hidden`), by induction on rounds.  For the upper bound a cell of dimension d is named by a
  k-tuple and one more node (repetitions allowed).  Equal colours of tuples after r+k rounds allow to replace one value by another
  (`E_sub`), so they pass to tuples naming boundary cells (`EE_face`); replacing an entry by all nodes names the cofaces.  By
  induction on rounds tuples of equal colours name cells of equal colours (`cells_alike`).  Every cell with m nodes is named by
  the same number of tuples (`naming_is`), so the histograms of colours of cells are equal too (`hist_alike`), and C70 gives the
  outputs of networks.  KwlSrg: in a strongly regular graph the colour of a pair depends only on equality and adjacency
  (`stands_alike`: the parameters fix how many nodes stand in each way to two nodes; `pair_alike` by induction on rounds).
* C80 (SparseModel, SparseSpec, SparseProps): storage of a matrix (entries row by row, values), `rowptr` by counting,
  `segment_csr` by slices.  `slice_messages`: the slice between two pointers is the list of messages to the row; so
  `segment_csr` over the entries is `scatter` over them (`segment_scatter`) and C24 gives the order of the index.
* C81 (TUPipeModel, TUPipeSpec, TUPipeProofs, TUPipeProps): `tu_dataset` composes the reading of the text file (C42), the
  conversions (C22), storage (C31) and folds (C32).  `output_for` in TUPipeSpec is the output for any graph with the nodes, edges
  and indicator rows of a document, lifted alone by any library.  `convert_ok` gives complexes of common widths,
  `split_read_c` reads a part whatever the cache holds, `predictions` applies C06 to batches and C28 to the numbering.
* C82 (CostSpec, CostProps): from `has_cells` (C12 to C14: indices list exactly the right pairs, once each) by counting:
  `count_triples` (pairs of distinct faces of a common cell), `count_groups` (boundary pairs by cell).  Faces of cliques by C12,
  of rings by C20; batches by the concatenation of members (`batch_parts`).
* C83 (FlowPipeModel, FlowPipeProofs, FlowPipeProps): `flow_splits` runs the jobs of load_flow_dataset on a prepared triangulation
  (C34), `flow_dataset` and `ocean_dataset` are the lists with the positions of the splits, `edge_infer` the loop over batches.
  `pair_neighbours`: a triangle gives upper and lower neighbours, so no layer raises; C05_edge_networks takes batches apart, C37
  changes the orientation of one sample.  `verdict` is the output for the default-oriented cochain alone.
* C84 (FloatModel, FloatSpec, FloatProofs, FloatProps): `FO` is the row algebra of binary32 (Flocq's `binary_float 24 128`, round to
  nearest even, infinities and one not-a-number), so `scatter FO` is the model of C24 run on floats.  `fold_err` by induction on the
  messages from Flocq's relative error of one addition (no underflow term: sums of floats are never inexact there), `fdiv_spec` for the
  division of a mean, `fold_max`, `fold_min`, `fold_int` without error.  Bitwise statements are instances of C06 and C07, which use no
  law of addition.  A network is still a function on rows: that a matrix product rounds each row alike whatever the batch is assumed.
* C85 (WidthModel, WidthSpec, WidthProofs, WidthProofs2, WidthProofs3, WidthProps): a matrix is represented by its number of columns.  Every
  constructor builds its `Linear`, `BatchNorm1d` and `LayerNorm` modules with the widths written in the code; `forward` runs them on the
  widths of the batch: concatenation adds, `+` broadcasts a single column, `+=` needs the result to fit, missing messages are zeros of the size
  given to the constructor, pooling writes into a buffer as wide as the first level, stacking needs equal widths.  A batch says, per
  dimension, how wide the features are (if there are any) and which indices exist.  The loop over the layers is handled by one lemma
  (`wloop_runs`): if every layer gives `hidden` columns on each of `m` levels, the lists for the jumping knowledge hold `hidden`
  as often as there are layers.  What each layer needs (`sp_fit`, `edge_fit`) is an invariant; the exceptional cases are cells above the
  dimension of the network, whose features no layer replaces.  C85_*_stale show that the exceptions are exact: the second layer raises.
* C86 (ResetModel, ResetProps): a torch module is a tree: leaves with named parameters and the method (Linear, norms, Embedding), bare modules
  (activations, lambdas), groups without the method (Sequential, ModuleList, classes that do not define it) and classes whose method calls
  `reset` of torch-geometric 1.6.3 on some of their modules.  `reset` goes one level deep and skips what has no method; a direct call on a
  module without it raises AttributeError.  The networks are the sequences of calls of their methods.  Proved by induction on the sequence:
  a call sets all parameters if each module has the method and its inner networks are flat, and raises at the first one without it.
  Parameter values and their random draws are not modelled, only which parameters are set.
* C87 (RunModel, RunProofs, RunNum, RunProps): the training mode of C71 with a running state per normalisation.  `run_nn_ok` shows that the
  outputs are those of C71 and that the i-th layer has seen the output of the network cut before it; the convolutions thread the state
  through the dimensions (CINConv: one state for all levels) or keep one per dimension (SparseCINConv), the steps of a training carry it on.
  The closed form `fold_sees` is by induction on the inputs, in exact rational arithmetic and for every column; `fading_bounds` and
  `fading_repeat` give ranges and limits.  An input without rows changes nothing, one with a single row raises (torch).  Not followed: the
  statistics in the message networks of CIN0 and in the update networks of SparseCIN (their states are carried in the model; the theorems
  about values are for the last network of a level), dropout, the other networks.
* C88 (SummModel, SummSpec, SummProofs, SummProps): means, deviations (as their squares, so that rationals suffice), minima, maxima and
  medians as numpy computes them, and the three scripts that print them.  A distribution of a score is a list of equally likely rational
  values, n independent runs are all n-tuples over it.  With A, B, C the sums over all tuples of the sum, the sum of squares and the square
  of the sum, recursions in n give closed forms (`A1_eq`, `B2_eq`, `C2_eq`), hence the expected mean, variance and squared error for every
  n.  The TU bounds exchange the sums over folds and epochs.  Not modelled: rounding, printing and the result files.
  RingSummModel and RingSummProps add exp/run_ring_exp.py: the loops over seeds and ring sizes fill two dictionaries, one line per ring size
  is printed from each; a loop invariant gives every list (C88_ring_lines), and the first run that raises ends the script without output
  (C88_ring_raises).  The runs themselves are an arbitrary function of seed and fold there.
* C89 (DropModel, DropSpec, DropProofs, DropHeads, DropProps, DropLin1): F.dropout over a tape of bits (rate check in both modes, rescaling, the cases
  p = 0 and p = 1) and the read-outs of SparseCIN and its molecular variants, EmbedGIN, CIN0 and EdgeCIN0, for one row of a batch over the
  rationals.  The spec sums over all tapes with product weights and gives the function without dropout by indices.  The training output is
  shown to be an affine form in the bits, whose mean and variance follow by induction.  Not modelled: the dropouts inside the message
  passing (after the embedding of molecules, `in_dropout_rate`) and the backward pass.  For 'lin1' the mean is compared by Jensen's inequality.
* C90 (TUBaseModel, TUBaseProps): `load_tu_graph_dataset` with its pickle file, and calls in sequence.  That the complexes have the classes of
  the graphs is obtained from C81 by a splitter that recognises one list of classes; hence agreement for every splitter, raising ones
  included.  Not modelled: the content of the files of folds beyond a pair of lists.

### Starting experiments (LaunchModel, LaunchSpec, LaunchProofs, LaunchFamilies, LaunchSession, LaunchProps)

`run_exp` is `main` of exp/run_exp.py from the parsed options to the training loop: `validate_args`,
`load_dataset` or `load_graph_dataset` with the checks of each data set's constructor, then the chain of
`elif`s that builds the network, the evaluator and the scheduler.  Options are strings, numbers and
booleans of any value.  What the libraries contribute (features, tasks, whether ogb knows a metric) is a
record `world` over which every theorem quantifies.

* C65: `startable` is a table by families of data sets that knows no order of checks.  Each family is
  proved by boolean reflection (the outcome of the run is a boolean function of the options); names that
  belong to no family fail by a case analysis over all the names the code compares with.
* C66: from the same reduction, one family at a time.
* C67: decimal notation is injective and has no slash; cutting a path at slashes.

### The command line and the scripts (CommandModel, CommandSpec, CommandProofs, CommandProps; ShippedModel, ShippedSpec, ShippedProps)

`parse_args` is argparse's algorithm (classification of words, abbreviations, consumption of values) for the
table of options of exp/parser.py.  `int` and `float` of texts are functions in a record `env`.  The scripts
`tu_runs`, `mol_script`, `ring_script`, `sr_script` build the argument lists of their runs as the Python code
does and parse each.  `shipped` lists the words of the 25 files in exp/scripts.

* C68: the grammar `command` is inductive and knows neither the classification nor the order in which
  argparse tries things.  Soundness and completeness by induction over the words; the scripts by appending
  items to a command.
  C68_arguments: the fields that `main` reads are each the value of the option of their name.
* C69: for each file the grammar gives the final value of each option (computed with the parameter left
  symbolic) and C65/C66's model the start; folders of different commands differ in a part without digits.

## 4. Trusted base

* The Coq 8.16.1 kernel, including its virtual machine (`vm_compute` is used in `Example`s, in witnesses
  of `_refuted` theorems and in a few lemmas on literals).
* Assumptions: `Print Assumptions` follows every final theorem and prints "Closed under the global
  context" for each of them except those of C84: no axiom is used, neither from the standard library nor our own.
* The theorems of C84 (`C84_*`, all in FloatProps) speak about real numbers and Flocq's floats, so `Print Assumptions` lists the four
  axioms behind Coq's real numbers, all from the standard library: `ClassicalDedekindReals.sig_not_dec`,
  `ClassicalDedekindReals.sig_forall_dec`, `FunctionalExtensionality.functional_extensionality_dep` and `Classical_Prop.classic`
  (C84_drift_small lists them too).  No other theorem depends on FloatModel, FloatSpec, FloatProofs or FloatProps.
  (`vcheck` lists `Coq.ssr.ssrunder...`, which are module-type fields of a standard library file loaded
  by other libraries; no theorem depends on them.)
* The transcription from Python to Gallina, done by reading; each definition cites the lines it models
  and its comment states the simplifications.
* The behaviour of libraries as stated in section 2 (premises of the theorems) and, built into
  definitions: torch indexing, `index_select`, `cat`, `torch_scatter.scatter`, networkx graphs and
  incidence matrices, numpy `argmax`/`argmin`/`mean`/`unique`, torch_geometric's `Dataset` indexing,
  `degree`, joblib's ordered results.

### Modelled and not modelled

| file | modelled | not modelled |
|------|----------|--------------|
| data/complex.py | Cochain, CochainBatch, Complex, ComplexBatch | `mapping`, Hodge Laplacian, devices and contiguity, sparse tensors |
| data/utils.py | everything | progress bars, the number of jobs |
| data/perm_utils.py | everything | non-integer matrices, arrays that are not 2-dimensional |
| data/data_loading.py | `Collater` (C76), `DataLoader` as chunking of the sampled indices, `load_dataset`, `load_graph_dataset` (C65, C66) | workers, what torch does with tensors and graphs |
| data/tu_utils.py | reading, features, folds | printing, `pickle` |
| data/datasets/dataset.py | `collate`, `get`, cache, `copy`, `get_split`, paths | file system, `torch.save` (a faithful copy), shallow copies being mutated by the caller |
| data/datasets/*.py | TU from the text file on (C81), options and paths, splits by concatenation, process pipelines through `convert_*` | downloads, raw file formats other than TU |
| data/datasets/flow_utils.py, ocean_utils.py | everything that computes data | plotting, HDF5 reading, scipy Delaunay |
| data/datasets/ring_utils.py | everything | - |
| data/dummy_complexes.py | some complexes are used as examples | the rest (test data) |
| mp/cell_mp.py, mp/cell_mp_inspector.py | everything for index tensors: once directly (MPModel), once with the dispatch on parameter names (CollectModel) and with sparse matrices (SparseModel, C80) | fused aggregation |
| mp/layers.py | Dummy, CIN, EdgeCIN, SparseCIN, CIN++, Oriented, Init/Embed layers, Catter | GIN-style convolution factories as modules (their effect on rows is an arbitrary function) |
| mp/nn.py | pooling functions, which names are known (C65) | what normalisations and activations compute (arbitrary row functions) |
| mp/models.py | CIN0, SparseCIN, CINpp, EdgeCIN0, Dummy, EdgeOrient, EdgeMPNN, MessagePassingAgnostic; training mode of CIN0, SparseCIN, CINpp (C71); `res` dictionaries (C74); dropout of the read-outs (C89) | dropout and gradients together, running averages of BatchNorm beyond C87 |
| mp/molec_models.py | all networks | as above |
| mp/ring_exp_models.py | RingSparseCIN, RingGIN | `res` dictionaries |
| mp/graph_models.py | GIN0, GIN, GIN0WithJK, GINWithJK (GINConv as sum over incoming edges) | dropout in training mode, BatchNorm statistics |
| exp/*.py | model selection, aggregation over seeds and folds, metrics, tuning grid, ring counting, evaluation and training loops, `validate_args`, set-up of `main`, result folders, parsing of the command line, the scripts for several runs (C68), exp/scripts/*.sh (C69), exp/prepare_sr_tests.py, exp/test_sr.py, exp/evaluate_sr_cwn_emb_mag.py (C75) | optimisers, gradients, plotting, files, help texts, usage messages |

## 5. Findings: where the code does not do what one expects

Each line is a theorem of the model (the reproduction with the real code is the witness in its proof).

* `ptr` of a batch skips members without cells of the dimension, so position i need not belong to complex
  i (C01_ptr_position_refuted).
* If only some members carry features in a dimension, the batch has the wrong number of cells
  (C01_mixed_features_refuted).
* An OrientedConv raises on a member with an empty adjacency although it works in a batch
  (C05_oriented_empty_refuted).
* CIN++ never uses the lower adjacency: it inherits `use_down_msg=False` and
  `include_down_features=False` (C29_cinpp_uses_lower_refuted).
* A forward pass overwrites the features of its batch, so evaluating one batch object twice differs
  (C48_forward_repeatable_refuted).
* Lifting a graph without nodes raises (C15_empty_graph_refuted); ring lifting rejects graphs with
  self-loops only (C15_only_self_loops_rejected); edge attributes with a self-loop raise KeyError
  (C21_self_loop_key_error).
* The label of a one-node graph is taken for a graph label even if it is a node label
  (C18_single_node_refuted).
* `init_edges=False` makes the dataset conversion raise AttributeError (C22_init_edges_refuted); datasets with
  node labels are refused by the ring conversion (C22_node_labels_refused); expansion_dim = 0 raises
  (C22_gudhi_zero_refuted).
* EmbedSparseCIN with `max_dim=1` and coboundary features raises TypeError on complexes with rings
  (embed_max_dim_1_type_error in EmbedProps).
* Storage: zero-size tensors come back as None, cochains without rows vanish, mixed labels break, cells
  above max_dim make a complex unreadable, a dataset without any tensor has length 0, `copy()` always
  raises, datasets that load no storage cannot be read (C31_*_refuted).
* Processed paths do not contain all options: TU (`degree_as_tag`), ZINC, OGB, peptides
  (`include_down_adj`), ring transfer and flow (numbers of samples) (C33_*_refuted).
* B1 B2 = 0 fails for ocean edge lists with self-loops (C34_self_loop_refuted).
* Biases or a non-odd activation break orientation invariance (C37_bias_refuted, C37_relu_refuted: the
  default relu of EdgeMPNN); EdgeOrient/EdgeMPNN without layers raise (C37_no_layers_raises).
* `create_hole` raises when the hole touches every triangle (C38_everything_removed_raises).
* `load_flow_dataset` with one sample divides by zero (C49_single_sample_refuted); `load_ocean_dataset`
  with at most 100 kept paths raises (C50_few_paths_refuted).
* Ring transfer data needs the number of classes to divide the number of samples
  (C41_not_divisible_refuted); lookup data is not balanced (C41_lookup_balance_refuted).
* `run_ring_exp.py` gives RingSparseCIN three layers; without `--use_coboundaries` (the default) no weights
  can solve ring transfer on its rings of 10 to 30 nodes (C55_no_coboundaries).
* TU graphs without edges make the loader raise (C42_edgeless_refuted); degree features are attached to
  the wrong node when the last nodes of a graph are isolated (C42_degree_refuted).  With degrees as tags, `node_tags` lists the degrees in the order in which networkx met the
  nodes (C42_degree_tags), not in node order (C42_degree_tags_refuted); the features are recomputed and not affected.
* With the default `--train_eval_period 10` the reported train score belongs to an earlier epoch
  (C44_stale_train_refuted); a NaN validation score is selected as best (C44_nan_refuted); `--epochs 0`
  raises (C44_no_epochs_raises); folds stopping at different epochs break run_tu_exp
  (C44_ragged_folds_refuted).
* The isomorphism metric divides by zero for one sample (C45_one_sample_refuted).
* Ring counting raises on an empty split (C51_empty_split_refuted), evaluation likewise
  (C52_empty_split_refuted); the reported mean loss depends on the batch size (C52_mean_loss_refuted).
* `train` skips every batch whose members together have exactly one cell of some dimension, e.g. one ring,
  however many complexes it holds (C57_one_ring_refuted).  The guard is needed: BatchNorm raises on such a batch
  (C71_single_cell).
* With batch normalisation (the default) the prediction for a complex in training mode depends on the other members of the
  batch (C71_batch_dependence_refuted).
* Along the boundary adjacency a parameter `boundary_f_j` holds `boundary_attr` for every f (C60_boundary_j_refuted); with
  `flow='target_to_source'` it is read at the numbers of the parent cells (C60_reverse_flow_refuted); an explicit size
  (n, 0) aggregates into n rows (C60_zero_receivers_refuted).
* Setting `use_down_msg=True` alone would not repair CIN++: its forward pass gives no `down_attr` to `propagate`, so lower
  messages would raise TypeError (C60_cinpp_lower_messages).
* `validate_args` accepts options with which nothing can start (C65_validated_refuted): `gin_ring` on RING-TRANSFER and
  ZINC without `--max_ring_size` raise TypeError, other names beginning with ZINC or embed and fold 7 of CSL raise later.
  CLUSTER can be started with no options whatever (C65_cluster_refuted).
* `--include_down_adj` is dropped silently for IMDB*, REDDIT*, strongly regular graphs, CSL and the ring data sets, also with
  CIN++ (C66_lower_adjacency_refuted).  Networks not made for ogb output one or two numbers for the 10 or 11 tasks of
  the peptides (C66_tasks_refuted).
* The result folder does not contain the network, and ZINC with the name "FULL-a" shares it with ZINC-FULL and the name "a"
  (C67_folder_refuted).
* run_tu_exp checks `'fold' not in passed_args`, which never matches `--fold`: the option is accepted and silently
  overridden (C68_tu_fold_refuted, C68_tu_fold_ignored), while the harmless `--exp_name fold` is rejected
  (C68_tu_name_refuted).  run_mol_exp misses `--seed=5` and abbreviations, the seed is ignored (C68_mol_seed_ignored).
  run_sr_exp with `--max_ring_size=6` takes the clique dimension and fails in SRDataset (C68_sr_ring_refuted).
* cin++-zinc-small.sh and cin++-zinc.sh have the same `--exp_name` and overwrite each other's results
  (C69_folders_refuted).  cin++-pep-f.sh and cin++-pep-s.sh name their CIN++ experiments `cwn-...`.
* `--early_stop` has no effect with StepLR, the default scheduler (C72_step), nor with a minimum of 1e-8 and the other
  defaults, since ReduceLROnPlateau leaves out reductions by 1e-8 or less (C72_tiny_minimum_refuted);
  `--lr_scheduler_decay_steps 0` fails after the first epoch (C72_step_zero).  A negative score that is maximised would count as improved
  in every epoch although it stays the same (C72_negative_refuted); the metrics of the repository are not negative.
* The default `--max_dim 2` of the parser can never succeed in exp/run_sr_exp.py: on strongly regular graphs with equal
  parameters all embeddings coincide and the failure rate is 1 (C73_strongly_regular); the dimensions 3 to 6 listed in the script
  and the assertion `max_ring_size > 3` of SRDataset are the thresholds (C73_tetrahedra_needed, C73_squares_suffice).
* exp/evaluate_sr_cwn_emb_mag.py does not pass `max_ring_size` on: heading and file name tell the given size, the numbers are always
  those of size 6 (C75_ring_size_refuted).  exp/test_sr.py and this script raise AttributeError for a batch without any ring
  (C75_ex_tree).
* `propagate` refuses a SparseTensor for the boundary index unless there are as many boundary cells as cells: line 233 of
  cell_mp.py compares its columns with the number of cells (C80_boundary_rectangular).  Attributes given by keyword are
  replaced by the values of the matrix, or by None, without notice (C80_attributes_refuted).
* `follow_batch=['x']` has no effect: the features are kept under the mangled name `_Cochain__x` (C76_follow_x_ignored).  Following a
  key raises AttributeError if the first complex of a batch lacks the attribute and a later one has it, e.g. boundaries of rings
  (C76_follow_order_refuted).  Lists of different lengths within samples are silently cut to the shortest (C76_lossless_refuted).
* FlowDataset names its folder by the number of points and the orientations only: with other numbers of samples the old file is
  reused, so training may see validation samples or raise IndexError (C83_stale_file_refuted).  load_dataset always asks for 1000
  and 200, so only direct users of the class are hit.
* Float addition is not associative: the order of the columns of an index changes sums in the last bits
  (C84_exact_order_independence_refuted), can decide whether a sum of finite messages is infinite
  (C84_overflow_depends_on_order_refuted), and renumbering the nodes of a graph can change a prediction
  (C84_renumbering_bits_refuted).  So the comparison of embeddings in exp/evaluator.py (eps) and the tests between isomorphic inputs are right to
  use a tolerance, and two graphs that differ by less than the bound of C84_sum_reordered are not told apart reliably.
* EmbedGIN cannot run with an embedding dimension other than the hidden one and two or more layers: the edge embeddings keep `embed_dim`
  columns in every layer and GINEConv asserts that nodes and edges are equally wide (C85_embed_gin, C85_embed_gin_dim_refuted; mp/molec_models.py:538-589).
  exp/run_exp.py never passes `embed_dim`, so the experiments are not affected.
* EdgeCIN0 with `include_top_features=True, update_top_features=False` raises in the second layer as soon as an edge has an upper neighbour,
  unless the input is as wide as the hidden layers (C85_edge_cin0_stale; mp/models.py:304, 334, 395).
* CIN0, and the sparse networks with `use_coboundaries`, built with a `max_dim` below the dimension of the batch, mix raw features of
  dimension `max_dim + 1` with hidden ones and raise in the second layer (C85_cin0_stale, C85_sparse_cin_stale); if the widths happen to agree
  they silently use the raw features in every layer.  EmbedSparseCIN raises a TypeError there, as rings carry no features (C85_ex_no_rings).
* A batch of isolated points with a single column is accepted by a network for any number of input features: `out_up += x` broadcasts
  the column over the zeros that stand for missing messages (C85_one_column_accepted, C85_other_width_refuted; mp/layers.py:191-192).
* `reset_parameters` of every cellular network raises AttributeError: CINConv, EdgeCINConv, SparseCINConv and CINppConv do not define the
  method, and neither does the ModuleList `self.lin1s` (C86_cellular_networks_refuted, C86_module_list_refuted; mp/models.py:58-64,
  163-169, 358-366, mp/molec_models.py:74-81, 265-272, 438-443, mp/ring_exp_models.py:41-45).  No script calls it.
* CINppCochainConv inherits `reset_parameters` and so never resets its networks for lower messages nor `eps3`
  (C86_cinpp_level_refuted; mp/layers.py:201-208, 216-238); its constructor does so by hand.
* `init_conv.reset_parameters()` of the OGB networks sets nothing: the embeddings of the encoders lie two levels deep
  (C86_ogb_encoders_skipped; mp/layers.py:545-547).
* CIN0 shares its update and message networks between the dimensions, with their BatchNorm: training normalises every dimension with its own
  statistics, evaluation all of them with one weighted average in which the highest dimension counts most.  With vertices of mean 0 and edges
  of mean 1 the running mean stays between 1/10 and 10/19 however long one trains (C87_shared_refuted, C87_shared_agrees; mp/models.py:34-50,
  mp/layers.py:106-124).  SparseCIN builds networks per dimension and is not affected (C87_own_limit).
* run_sr_exp prints as `StdErr failure rate` the deviation divided by the number of seeds, not by its square root (exp/run_sr_exp.py:91).  For n
  seeds the expected square is (n-1)/n^3 times the variance of a seed, where the mean has the squared error 1/n: at most half of the true
  standard error whatever n, and less than a third for the default ten seeds (C88_sr_summary, C88_sr_std_err_refuted).
* run_mol_exp with one seed prints `nan` as every deviation (ddof=1, exp/run_mol_exp.py:56-70; C88_summary), and one seed with a score that is
  not a number makes the whole summary `nan` (C88_nan).  "ddof=1 makes the estimator unbiased" is true of the squared deviation
  (C88_unbiased); the deviation printed is on average at most the true one (C88_deviation_low).  run_tu_exp uses ddof=0 (C88_tu_variance).
* Dropout before lin1 (`--drop_position lin1`) changes the expected output: with one relu unit reading x - y on the input (1,1) and rate 1/2 the
  network returns 0 in evaluation and 1/2 on average in training (C89_lin1_refuted).  With non-negative weights in lin2 it can only go up (C89_lin1_convex); with nonlinearity `id` it is exact
  (C89_lin1_affine).  The other positions are unbiased (C89_unbiased).
* `--drop_position` is not validated: any unknown word, e.g. `lin_2`, means `lin2` in the cellular networks (C89_position; mp/models.py:246) but
  switches the final dropout off in EmbedGIN, without even checking the rate (C89_gin_position; mp/molec_models.py:599).
* Dropping before the final read-out gives less noise than dropping after it for relu and sigmoid (C89_less_noise), but not for activations
  with negative values, where units of different dimensions cancel (C89_less_noise_refuted).
* run_ring_exp prints under "Test" the scores on the validation split (`last_val`, exp/run_ring_exp.py:41, 54-59; there is no test split); with
  one seed it prints `+-0.0` whatever the score (C88_ring_one_seed, unlike run_mol_exp, which prints nan), and with `--stop_seed` below
  `--start_seed`, which run_mol_exp rejects, it trains nothing and prints nan for every ring size (C88_ring_no_seed).
