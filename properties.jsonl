{"id": "C01", "title": "Batch assigns every cell to its complex", "statement": "Batching a list of complexes with ComplexBatch.from_complex_list succeeds and, at every dimension kept, the batch has exactly the cells of the inputs in input order: the number of cells is the sum of the inputs' numbers of cells, the `batch` vector of that dimension maps the cells of the k-th complex to k (and only those), and `ptr` lists the running totals starting at 0.", "quantifier": "every non-empty list of well-formed complexes of any sizes and dimensions (also ones missing some dimensions), and every max_dim", "why_tests_cant": "a unit test fixes a handful of hand-written complexes; the claim is about every list, every mix of dimensions and every truncation", "anchors": ["data/complex.py: ComplexBatch.from_complex_list, CochainBatch.from_cochain_list"]}
{"id": "C02", "title": "Batching never links cells of different complexes", "statement": "Every pair in the batched upper_index, lower_index and boundary_index connects cells that belong to the same input complex, and every index is in range of the batched cell counts.", "quantifier": "every non-empty list of well-formed complexes and every pair of every adjacency of the batch", "why_tests_cant": "offsets go wrong only for particular mixes of missing dimensions and missing attributes, of which there are unboundedly many", "anchors": ["data/complex.py: CochainBatch.from_cochain_list, Cochain.__inc__, Cochain.__cat_dim__"]}
{"id": "C03", "title": "Batching is lossless", "statement": "Selecting from the batch the cells, adjacencies, shared-cell references and boundary relations of the k-th block and subtracting the block offsets gives back exactly the features and adjacency of the k-th complex, in the original order.", "quantifier": "every list of well-formed complexes, every position k, every dimension up to the batch dimension", "why_tests_cant": "needs to hold for all lists; tests only compare a few concatenations", "anchors": ["data/complex.py: CochainBatch.from_cochain_list, ComplexBatch.from_complex_list"]}
{"id": "C04", "title": "Message-passing inputs of a batch are the concatenated inputs of its members", "statement": "get_cochain_params on a batch returns, per dimension, the features, up/down/boundary indices (shifted by block) and the up/down attributes obtained by concatenating what get_cochain_params returns for each complex; in particular each adjacency is paired with the feature row of its own complex's shared (co)boundary cell.", "quantifier": "every list of well-formed complexes with uniformly present features, every dimension, every setting of include_top_features, include_down_features and include_boundary_features", "why_tests_cant": "wrong shared-cell offsets give plausible tensors of the right shape; only a proof over all lists shows alignment", "anchors": ["data/complex.py: Complex.get_cochain_params, Complex.get_all_cochain_params"]}
{"id": "C05", "title": "A convolution on a batch equals the convolutions on its members", "statement": "Applying a cochain convolution (Dummy, CIN, EdgeCIN, SparseCIN, CIN++, Oriented) to the parameters of a batch gives the concatenation of the results of applying it to the parameters of every member, for row-wise update networks (evaluation mode).", "quantifier": "every list of complexes, every aggregation (add, mean, max, min), every row-wise message and update function", "why_tests_cant": "tests compare a few complexes with random weights up to a float tolerance; the claim is for all complexes, all weights", "anchors": ["mp/cell_mp.py: CochainMessagePassing.propagate", "mp/layers.py: SparseCINCochainConv, CINCochainConv, CINppCochainConv, DummyCochainMessagePassing, OrientedConv"]}
{"id": "C06", "title": "Predictions do not depend on batch mates", "statement": "In evaluation mode the prediction row a model (SparseCIN, CIN0, CIN++ and the embedding variants) returns for a complex inside a batch is the row it returns when this complex is the only element of the batch.", "quantifier": "every list of complexes, every position, every number of layers, every weights, every pooling in {sum, mean}, every jump mode and readout dims", "why_tests_cant": "tests check a few complexes against a tolerance for random weights; the property is for all batches and weights", "anchors": ["mp/models.py: SparseCIN.forward, CIN0.forward, CINpp", "mp/nn.py: pool_complex", "data/complex.py: ComplexBatch"]}
{"id": "C07", "title": "Shuffling a batch shuffles the predictions", "statement": "Evaluating a model on a batch made from a reordered list of complexes returns the same prediction rows in the reordered order.", "quantifier": "every list of complexes, every reordering, every weights", "why_tests_cant": "all orders of all lists cannot be enumerated", "anchors": ["mp/models.py: SparseCIN.forward", "data/data_loading.py: DataLoader, Collater"]}
{"id": "C08", "title": "Pooling reads out each complex from its own cells", "statement": "pool_complex returns, for every dimension up to max_dim and every complex of the batch, the sum (mean) of the features of exactly the cells of this dimension belonging to this complex, and the zero vector for complexes without cells of that dimension.", "quantifier": "every list of complexes and feature matrices, both pooling modes, every max_dim", "why_tests_cant": "zero rows appear only for complexes lacking a dimension, in combinations that tests sample sparsely", "anchors": ["mp/nn.py: pool_complex", "mp/models.py: SparseCIN.pool_complex"]}
{"id": "C09", "title": "Truncation at max_dim ignores everything above", "statement": "Batching with max_dim = d gives the same batch as batching the complexes with all cochains above d removed, and the parameters of dimension d carry no upper adjacency; no feature of a cell above d can influence any result.", "quantifier": "every list of complexes, every max_dim", "why_tests_cant": "non-interference quantifies over all pairs of inputs", "anchors": ["data/complex.py: ComplexBatch.from_complex_list, Complex.get_cochain_params"]}
{"id": "C10", "title": "Batch labels are present exactly when all members are labelled", "statement": "The batch's y is the in-order concatenation of the members' labels if every member has a label, and None as soon as one has none.", "quantifier": "every list of complexes with any pattern of missing labels", "why_tests_cant": "2^n patterns for every n", "anchors": ["data/complex.py: ComplexBatch.from_complex_list"]}
{"id": "C11", "title": "Clique lifting produces exactly the cliques", "statement": "compute_clique_complex_with_gudhi gives one k-cell per clique of k+1 vertices of the graph, for every k up to the expansion dimension, no other cells and no duplicates; cell ids of each dimension are 0..n_k-1, and vertex v has id v.", "quantifier": "every simple graph, every expansion dimension, every order in which the simplex tree enumerates simplices", "why_tests_cant": "the number of graphs and enumeration orders is unbounded; tests use one house graph", "anchors": ["data/utils.py: compute_clique_complex_with_gudhi, pyg_to_simplex_tree, build_tables"]}
{"id": "C12", "title": "boundary_index lists each cell's faces", "statement": "In the lifted clique complex the boundary_index of dimension k contains (f, c) exactly when cell f of dimension k-1 is a codimension-1 face of cell c, each pair once, so every k-cell has exactly k+1 boundary entries; columns are grouped by cell in id order.", "quantifier": "every simple graph, every expansion dimension, every enumeration order", "why_tests_cant": "quantifies over all graphs and orders", "anchors": ["data/utils.py: extract_boundaries_and_coboundaries_from_simplex_tree, generate_cochain"]}
{"id": "C13", "title": "Upper adjacency is exactly sharing a coboundary", "statement": "For the lifted complex (clique or ring), (a,b) occurs in upper_index of dimension k with shared coboundary c exactly when a and b are distinct boundary cells of the (k+1)-cell c; each such triple occurs exactly once, the relation is symmetric and has no self-loops, and upper_index and shared_coboundaries stay aligned.", "quantifier": "every graph, every expansion dimension or ring size, every enumeration order", "why_tests_cant": "completeness and multiplicity for all graphs cannot be tested", "anchors": ["data/utils.py: build_adj, generate_cochain"]}
{"id": "C14", "title": "Lower adjacency is exactly sharing a boundary", "statement": "With include_down_adj=True, (a,b) occurs in lower_index of dimension k with shared boundary f exactly when a and b are distinct k-cells that both have f as a boundary cell; each triple once, symmetric, no self-loops. With include_down_adj=False there is no lower adjacency at all.", "quantifier": "every graph, every expansion dimension or ring size, every enumeration order", "why_tests_cant": "completeness and multiplicity for all graphs cannot be tested", "anchors": ["data/utils.py: build_adj, generate_cochain"]}
{"id": "C15", "title": "Lifting never trips its own consistency assertions", "statement": "Lifting any simple graph with features and no edge attributes succeeds: none of the assertions in generate_cochain or in the Complex constructor can fire, and no lookup fails.", "quantifier": "every simple graph, every expansion dimension / ring size, every enumeration order", "why_tests_cant": "absence of exceptions on all inputs", "anchors": ["data/utils.py: generate_cochain, compute_clique_complex_with_gudhi, compute_ring_2complex", "data/complex.py: Complex._consolidate"]}
{"id": "C16", "title": "Higher-order features are the reduction of the vertex features", "statement": "For init_method sum/mean/max the feature row of every lifted cell of dimension k>=1 is the sum/mean/max of the feature rows of its own vertices, and the vertex features are the graph's features unchanged.", "quantifier": "every graph, every feature matrix, every enumeration order, every init method", "why_tests_cant": "row alignment between cells and features must hold for all graphs and orders", "anchors": ["data/utils.py: construct_features, compute_clique_complex_with_gudhi"]}
{"id": "C17", "title": "Lifting does not depend on how the edge list is written", "statement": "Reordering, duplicating or flipping the columns of edge_index (or adding self-loops, for the clique lifting) does not change the set of cells, the boundary relation or any cell's features.", "quantifier": "every graph and every pair of edge lists denoting the same undirected simple graph", "why_tests_cant": "quantifies over all edge lists of all graphs", "anchors": ["data/utils.py: pyg_to_simplex_tree, compute_clique_complex_with_gudhi"]}
{"id": "C18", "title": "Graph labels and node labels are told apart", "statement": "extract_labels puts a label vector of length one on the complex and a label vector of length num_nodes on the vertices and rejects any other length; in particular node labels end up on nodes.", "quantifier": "every graph size and every label vector", "why_tests_cant": "the exceptional case is a single size (one node) that tests do not include", "anchors": ["data/utils.py: extract_labels"]}
{"id": "C19", "title": "Ring lifting attaches one 2-cell per induced cycle", "statement": "compute_ring_2complex gives one 2-cell per induced (chordless) cycle of length 3..max_k of the graph, each exactly once whatever order and however often the subgraph-isomorphism routine enumerates its embeddings, and nothing else.", "quantifier": "every simple graph, every max_k, every enumeration order of embeddings, every set iteration order", "why_tests_cant": "all graphs, all orders; tests use single molecules", "anchors": ["data/utils.py: get_rings, compute_ring_2complex, build_tables_with_rings"]}
{"id": "C20", "title": "A ring's boundary is its cycle of edges", "statement": "The boundary cells of a ring with k vertices are exactly the k edges of the graph joining cyclically consecutive vertices: they are distinct, they exist as 1-cells, and every vertex of the ring lies on exactly two of them; the result does not depend on the starting point or direction in which the cycle is listed.", "quantifier": "every cycle of every length >= 3 in every graph", "why_tests_cant": "quantifies over all cycle lengths and rotations", "anchors": ["data/utils.py: get_ring_boundaries, extract_boundaries_and_coboundaries_with_rings"]}
{"id": "C21", "title": "Edge attributes land on the right edge", "statement": "With init_edges and edge_attr given, compute_ring_2complex gives every 1-cell the attribute row of the graph edge it represents if all copies of this edge agree, and raises if two copies (directions) of an edge carry different attributes.", "quantifier": "every simple graph, every edge order and every attribute assignment", "why_tests_cant": "alignment must hold for every edge order", "anchors": ["data/utils.py: compute_ring_2complex"]}
{"id": "C22", "title": "Dataset conversion keeps order and content", "statement": "convert_graph_dataset_with_rings / convert_graph_dataset_with_gudhi return one complex per graph, in the input order, with the graph's node features and label, whatever the scheduling of parallel jobs; the documented option init_edges=False works.", "quantifier": "every list of graphs and every option combination", "why_tests_cant": "order and content for all datasets and all options", "anchors": ["data/utils.py: convert_graph_dataset_with_rings, convert_graph_dataset_with_gudhi"]}
{"id": "C23", "title": "Embedding initialisation of rings is the sum over the ring", "statement": "The initial feature row of a 2-cell computed by the vertex/edge embedding layer with sum reduction equals the sum of the embedded features of the ring's vertices, each counted once.", "quantifier": "every ring complex, every embedding table", "why_tests_cant": "depends on every vertex of every ring lying on exactly two boundary edges", "anchors": ["mp/layers.py: AbstractEmbedVEWithReduce.forward, InitReduceConv"]}
{"id": "C24", "title": "Aggregation does not depend on the order of messages", "statement": "scatter-based aggregation (add, mean, max, min) of messages returns for each target cell the reduction of exactly the messages addressed to it, zero for cells without messages, independent of the order of the columns of the index.", "quantifier": "every index, every message matrix, every permutation of the columns", "why_tests_cant": "all permutations of all indices", "anchors": ["mp/cell_mp.py: aggregate_up, aggregate_down, aggregate_boundary", "mp/nn.py: pool_complex"]}
{"id": "C25", "title": "Messages reach exactly the declared neighbours", "statement": "In CochainMessagePassing.propagate the up (down) message aggregated at a cell is the reduction over exactly its upper (lower) neighbours and the boundary message over exactly its boundary cells; disabled or absent adjacencies contribute zero rows; the source/target roles follow the index rows.", "quantifier": "every cochain, every adjacency, every message function", "why_tests_cant": "all adjacencies, including empty and missing ones", "anchors": ["mp/cell_mp.py: CochainMessagePassing.propagate, __collect__, __lift__, update"]}
{"id": "C26", "title": "Convolutions are equivariant under relabelling of cells", "statement": "Relabelling the cells of every dimension by a permutation and reordering the columns of all index tensors permutes the output rows of every cochain convolution accordingly and changes nothing else.", "quantifier": "every complex, every family of permutations, every column reordering, every weights", "why_tests_cant": "n! relabellings of every complex", "anchors": ["mp/layers.py: SparseCINCochainConv, CINCochainConv, DummyCochainMessagePassing", "mp/cell_mp.py"]}
{"id": "C27", "title": "Model outputs are invariant under complex isomorphism", "statement": "Two isomorphic complexes (same cells up to relabelling, same features) receive identical predictions from SparseCIN / CIN0 / CIN++ in evaluation mode.", "quantifier": "every pair of isomorphic complexes, every depth, every weights", "why_tests_cant": "all isomorphic pairs", "anchors": ["mp/models.py: SparseCIN.forward, CIN0.forward"]}
{"id": "C28", "title": "Lifting followed by a model is invariant under node permutation", "statement": "Permuting the nodes of a graph (permute_graph) and then lifting it and evaluating a model gives exactly the prediction of the original graph, for any enumeration order the lifting libraries use.", "quantifier": "every simple graph, every permutation, every pair of enumeration orders, every weights", "why_tests_cant": "n! permutations of every graph", "anchors": ["data/perm_utils.py: permute_graph", "data/utils.py", "mp/models.py: SparseCIN.forward"]}
{"id": "C29", "title": "SparseCIN never reads lower adjacency", "statement": "The output of SparseCIN does not change when lower_index and shared_boundaries of any cochain are changed arbitrarily (they need not be computed); CIN++ on the other hand does use the lower adjacency it is given.", "quantifier": "every complex and every replacement of the lower adjacency", "why_tests_cant": "non-interference quantifies over pairs of inputs", "anchors": ["mp/layers.py: SparseCINCochainConv, CINppCochainConv, CINppConv", "mp/models.py: SparseCIN, CINpp"]}
{"id": "C30", "title": "Setting features checks their size and keeps structure", "statement": "Complex.set_xs stores the given matrices as features of dimensions 0.., changes no adjacency, and raises whenever a matrix does not have one row per cell or there are more matrices than dimensions; reading the features back gives what was stored.", "quantifier": "every complex, every list of matrices", "why_tests_cant": "all size mismatches", "anchors": ["data/complex.py: Complex.set_xs, Cochain.x"]}
{"id": "C31", "title": "Storing and loading a dataset is lossless", "statement": "For a list of complexes collated with InMemoryComplexDataset.collate, get(i) returns a complex equal to the i-th one (same dimension, features, adjacency, cell counts, label) for every i, also on repeated access in any order.", "quantifier": "every list of labelled well-formed complexes, every index, every access history", "why_tests_cant": "all lists and all access histories", "anchors": ["data/datasets/dataset.py: InMemoryComplexDataset.collate, get, _get_cochain, len"]}
{"id": "C32", "title": "Splits are handed out only when they exist", "statement": "get_split returns the sub-dataset of the requested split, and raises for an unknown split name, for a missing split, and on a dataset that is itself a subset; concatenation-based datasets give contiguous, disjoint splits that cover the dataset.", "quantifier": "every split name, every dataset sizes", "why_tests_cant": "all sizes of train/val/test", "anchors": ["data/datasets/dataset.py: get_split", "data/datasets/zinc.py: process, load_zinc_graph_dataset", "data/datasets/cluster.py: load_dataset", "data/datasets/flow.py"]}
{"id": "C33", "title": "Cached datasets are keyed by what they contain", "statement": "Two dataset objects of the same class and root whose construction options lead to different stored content never share the same processed file.", "quantifier": "every pair of option settings", "why_tests_cant": "all pairs of configurations", "anchors": ["data/datasets/dataset.py: processed_dir", "data/datasets/zinc.py", "data/datasets/ogb.py", "data/datasets/tu.py", "data/datasets/flow.py"]}
{"id": "C34", "title": "Boundary matrices satisfy B1 B2 = 0", "statement": "The node-edge and edge-triangle matrices built by the flow and ocean pipelines satisfy B1*B2 = 0, every column of B1 has one +1 and one -1, every column of B2 has exactly three non-zero entries of absolute value 1.", "quantifier": "every list of triangles on any number of points (flow), every edge list without self loops and every list of faces accepted by the code (ocean), every enumeration order of the edges", "why_tests_cant": "all triangulations", "anchors": ["data/datasets/flow_utils.py: extract_boundary_matrices", "data/datasets/ocean_utils.py: incidence_matrices"]}
{"id": "C35", "title": "A generated trajectory is a simple path encoded as a flow", "statement": "generate_trajectory returns an edge flow x with B1*x equal to (end node) - (start node), entries in {-1,0,1}, visiting no node twice, whatever the random choices and tie-breaking.", "quantifier": "every graph, every sequence of random choices on which the procedure terminates", "why_tests_cant": "all random histories", "anchors": ["data/datasets/flow_utils.py: generate_trajectory"]}
{"id": "C36", "title": "Edge adjacency with orientation is read off the boundary matrices", "statement": "extract_adj_from_boundary returns upper (lower) pairs of distinct edges exactly where the off-diagonal entry of B2 B2^T (B1^T B1) is non-zero, with the sign of the entry as relative orientation; re-orienting edges by T conjugates these signs by T.", "quantifier": "every pair of boundary matrices and every re-orientation", "why_tests_cant": "all complexes and orientations", "anchors": ["data/datasets/flow_utils.py: extract_adj_from_boundary, build_cochain, generate_flow_cochain"]}
{"id": "C37", "title": "Oriented convolutions are orientation equivariant and the classifier invariant", "statement": "Flipping the orientation of any set of edges flips the sign of exactly the corresponding rows of every OrientedConv layer with odd activation and bias-free linear maps, and the final EdgeOrient prediction does not change.", "quantifier": "every cochain with signed adjacency, every set of flipped edges, every weights, every depth", "why_tests_cant": "2^E orientations of every complex", "anchors": ["mp/layers.py: OrientedConv", "mp/models.py: EdgeOrient, EdgeMPNN"]}
{"id": "C38", "title": "Cutting holes keeps the triangulation consistent", "statement": "create_hole removes exactly the triangles touching the hole's points, returns no point of the hole, and the renumbered triangles refer to the same geometric points as before; every remaining point index is in range and used.", "quantifier": "every point set, every triangle list, every hole", "why_tests_cant": "all triangulations and holes", "anchors": ["data/datasets/flow_utils.py: create_hole"]}
{"id": "C39", "title": "Ocean paths are cleaned and encoded faithfully", "statement": "strip_paths removes immediate backtracking only: the result is a walk with the same start, contains no x,y,x pattern, and has the same net edge flow; path_to_flow encodes a walk so that B1*flow = end - start, and traversing an edge in both directions cancels.", "quantifier": "every walk in every graph", "why_tests_cant": "all walks", "anchors": ["data/datasets/ocean_utils.py: strip_paths, path_to_flow"]}
{"id": "C40", "title": "Permutation helper accepts exactly permutations and relabels graphs", "statement": "is_valid_permutation_matrix accepts a square 0/1 matrix exactly when it is a permutation matrix (other than the identity when n > 1); permute_graph returns the isomorphic graph under the permutation with features, labels and edges moved consistently and refuses graphs with edge attributes.", "quantifier": "every matrix, every graph, every permutation", "why_tests_cant": "n! permutations for every n", "anchors": ["data/perm_utils.py: is_valid_permutation_matrix, permute_graph, generate_permutation_matrices"]}
{"id": "C41", "title": "Synthetic ring tasks are well posed", "statement": "generate_ring_transfer_graph returns an n-cycle in which only the node opposite to node 0 carries the target; generate_ring_lookup_graph's label is determined by the features; the dataset generators return the requested number of samples with every class equally often.", "quantifier": "every even number of nodes, every number of classes and samples, every shuffle", "why_tests_cant": "all sizes", "anchors": ["data/datasets/ring_utils.py: generate_ring_transfer_graph, generate_ring_lookup_graph, generate_ring_transfer_graph_dataset"]}
{"id": "C42", "title": "TU parsing builds symmetric graphs with consistent tags", "statement": "load_data numbers graph labels and node tags contiguously from 0 injectively in order of first appearance, its edge_mat contains every edge in both directions, one-hot features have exactly one 1 at the node's tag, and degrees are attached to the right node.", "quantifier": "every well-formed input file", "why_tests_cant": "all input files", "anchors": ["data/tu_utils.py: load_data, S2V_to_PyG"]}
{"id": "C43", "title": "Cross-validation folds partition the data", "statement": "separate_data and get_fold_indices return, for every fold, train and test index sets that are disjoint and together cover the dataset, and the test folds of the ten fold ids partition the dataset.", "quantifier": "every dataset size, seed, fold id", "why_tests_cant": "all sizes and seeds; the splitter is an oracle", "anchors": ["data/tu_utils.py: separate_data, get_fold_indices"]}
{"id": "C44", "title": "The reported test score belongs to the best validation epoch", "statement": "The final result of an experiment reports train, validation and test score of one and the same epoch, which is the first epoch attaining the best validation score (maximum or minimum according to the metric).", "quantifier": "every history of evaluation scores, every early-stopping point", "why_tests_cant": "all training histories", "anchors": ["exp/run_exp.py: main"]}
{"id": "C45", "title": "Isomorphism failure rate counts indistinguishable pairs", "statement": "The isomorphism metric equals the fraction of unordered pairs of samples whose embeddings are closer than eps, lies in [0,1], and does not depend on the order of samples.", "quantifier": "every list of embeddings, every eps", "why_tests_cant": "all lists of embeddings", "anchors": ["exp/train_utils.py: Evaluator._isomorphism"]}
{"id": "C46", "title": "Distributed grid search covers the grid exactly once", "statement": "Over the device indices of the documented modulus, the TU tuning script runs every combination of hyper-parameters on exactly one device.", "quantifier": "every grid, every device index", "why_tests_cant": "all grids", "anchors": ["exp/run_tu_tuning.py"]}
{"id": "C47", "title": "Cells that colour refinement cannot separate are not separated by the model", "statement": "If two complexes receive the same multiset of colours from cellular colour refinement (using boundary and upper adjacencies with shared coboundary colours), every SparseCIN gives them the same prediction; layers cannot separate cells of equal colour.", "quantifier": "every pair of complexes, every depth, every weights", "why_tests_cant": "an upper bound on expressive power over all weights", "anchors": ["mp/layers.py: SparseCINCochainConv", "mp/models.py: SparseCIN"]}
{"id": "C48", "title": "A forward pass changes nothing of the batch but its features", "statement": "After a successful forward pass the batch object has the same cochains, adjacencies, labels, cell counts, batch vectors and pointers as before; only feature matrices were overwritten. (It does overwrite them, so evaluating the same batch object twice is not repeatable.)", "quantifier": "every network, every batch", "why_tests_cant": "all networks and batches; an aliasing property", "anchors": ["mp/models.py: SparseCIN.forward, CIN0.forward", "data/complex.py: Complex.set_xs"]}
{"id": "C49", "title": "Classes of the synthetic flow samples", "statement": "load_flow_dataset labels the first half (rounded down) of the samples of each split with class 0 and all later samples with class 1, for every requested number of samples.", "quantifier": "every number of samples requested for a split", "why_tests_cant": "tests use one or two round numbers of samples; odd numbers and very small numbers behave differently", "anchors": ["data/datasets/flow_utils.py: load_flow_dataset"]}
{"id": "C50", "title": "The ocean dataset is the labelled flows of its cleaned paths", "statement": "load_ocean_dataset turns every kept path into one sample: features are the (re-oriented) flow of the path, the label is the turning sense around the centre (reversing a path swaps the label), the train and test parts are in order and together contain every path once, with round(0.8 n) training samples.", "quantifier": "every graph without self loops, sorted distinct faces, trajectories along its edges, every shuffle and orientation, every order of the edges", "why_tests_cant": "the real file is one input; wrong masks, offsets or signs would only show for other data or other shuffles", "anchors": ["data/datasets/ocean_utils.py: load_ocean_dataset, extract_label, orientation"]}
{"id": "C51", "title": "Ring statistics count induced cycles", "statement": "For every ring size from 3 to the maximum, the ring statistics of a dataset list, graph by graph and in order, the number of induced cycles of that size (as vertex sets, each once), and the statistics of the whole dataset are those of its splits one after the other.", "quantifier": "every list of graphs, every maximal ring size, every order in which graph-tool and Python sets enumerate the rings", "why_tests_cant": "all graphs and all enumeration orders of the matcher; double counting of rotated or reflected matches shows only for some orders", "anchors": ["exp/count_rings.py: get_ring_count_for_graph, combine_all_cards, get_ring_counts, combine_all_counts", "data/utils.py: get_rings"]}
{"id": "C52", "title": "Evaluation does not depend on batch size or order", "statement": "Inference and evaluation over a data loader return, complex by complex and in the order of the loader, the prediction each complex gets when batched alone, next to its own label; accuracy and isomorphism failure rate are therefore the same for every batch size and every shuffling, also when the complexes are read back from a stored dataset.", "quantifier": "every list of complexes, every batch size, every order, every network of the repository with every parameter values", "why_tests_cant": "all datasets, batch sizes and shuffles; leaks between batch mates or misaligned labels need specific batches to show", "anchors": ["data/data_loading.py: DataLoader, Collater", "exp/train_utils.py: infer, eval, Evaluator._accuracy, Evaluator._isomorphism", "data/complex.py: ComplexBatch.from_complex_list"]}
{"id": "C53", "title": "Graph baselines and ring networks treat batch members separately", "statement": "The graph networks (GIN0, GIN, both with jumping knowledge, RingGIN), RingSparseCIN and MessagePassingAgnostic return for a batch exactly the answers the members get alone, in order; renaming the nodes of a graph does not change the answer of the graph networks; MessagePassingAgnostic depends on nothing but the multiset of features of each dimension.", "quantifier": "every non-empty batch of graphs or complexes, every choice of weights, number of layers, masks and node renaming", "why_tests_cant": "all batches, graphs and weights; leaks between members depend on the composition of the batch", "anchors": ["mp/graph_models.py: GIN0, GIN0WithJK, GIN, GINWithJK", "mp/ring_exp_models.py: RingSparseCIN.forward, RingGIN.forward", "mp/models.py: MessagePassingAgnostic.forward"]}
{"id": "C54", "title": "Receptive field", "statement": "After n layers the feature of a cell depends on the input features of those cells only from which it can be reached in at most n steps along upper adjacencies (and their shared coboundary cells if coboundary messages are used), lower adjacencies (if used) and boundaries; for graphs, in at most n hops.", "quantifier": "every complex, every number of layers, every layer functions, every two inputs agreeing on the receptive field", "why_tests_cant": "a statement over all pairs of inputs, complexes and weights; dependence on a remote cell may be invisible for most weights", "anchors": ["mp/cell_mp.py: propagate", "mp/layers.py: SparseCINCochainConv, CINCochainConv", "mp/graph_models.py: GIN0"]}
{"id": "C55", "title": "What solves ring transfer", "statement": "With the lifted ring complexes a network of three SparseCIN layers with coboundary messages solves the ring transfer task for every ring size at once, and for rings of at least six nodes no one with two layers does; RingGIN and SparseCIN without coboundary messages need half as many layers as there are nodes: with fewer their answer does not depend on the target, with that many RingGIN can solve the task.", "quantifier": "every ring size, every target row, every weights (for the negative parts), every enumeration order of gudhi and graph-tool", "why_tests_cant": "quantifies over all ring sizes and all weights of all networks of a given depth", "anchors": ["mp/ring_exp_models.py: RingSparseCIN.forward, RingGIN.forward", "data/datasets/ringtransfer.py: RingTransferDataset.process", "data/datasets/ring_utils.py: generate_ring_transfer_graph", "exp/run_ring_exp.py", "mp/layers.py: SparseCINConv"]}
{"id": "C56", "title": "Expressive power of SparseCIN", "statement": "For complexes with non-negative integer features, the SparseCIN networks with L layers (L at least 1) and any weights tell two complexes apart if and only if L rounds of cellular colour refinement give them different multisets of colours in some dimension; for any bound on sizes and features a single network separates all of them at once.", "quantifier": "every pair (and every batch) of complexes, every depth, every ideal hash of colour refinement, every weights for the negative direction", "why_tests_cant": "quantifies over all complexes and existentially over weights; trained or random weights can fail to separate without contradicting the claim", "anchors": ["mp/layers.py: SparseCINConv, SparseCINCochainConv.forward", "mp/models.py: SparseCIN.forward", "mp/nn.py: pool_complex"]}
{"id": "C57", "title": "A training epoch steps once per sufficiently large batch", "statement": "An epoch of training makes exactly one optimiser step for every batch that has at least two cells in every dimension up to that of the batch, in the order of the loader, and records one loss per step; all other batches leave the model unchanged; the loss of a step is computed from the predictions paired with their own targets, missing targets left out; unknown task types raise before any step.", "quantifier": "every list of complexes, batch size, order, model, optimiser (as arbitrary state transformers) and every pattern of missing targets", "why_tests_cant": "all loaders and models; silently skipped batches leave no trace in the results", "anchors": ["exp/train_utils.py: train", "data/data_loading.py: DataLoader"]}
{"id": "C58", "title": "Lifted networks are at least as powerful as Weisfeiler-Lehman and GIN, strictly so with rings", "statement": "For every finite list of simple graphs with non-negative integer features and their clique or ring liftings there is one SparseCIN with L layers that separates every pair of them that L rounds of the Weisfeiler-Lehman test (with any hash), hence any GIN baseline with at most L layers, separates; no GIN baseline of any depth separates the hexagon from two triangles, while a SparseCIN with one layer separates their ring liftings, whatever the libraries return.", "quantifier": "all graphs, depths, hashes, GIN weights and row types, all enumerations by gudhi and graph-tool", "why_tests_cant": "quantifies over all graphs and all weights of the baselines", "anchors": ["data/utils.py: compute_clique_complex_with_gudhi, compute_ring_2complex", "mp/layers.py: SparseCINConv", "mp/models.py: SparseCIN.forward", "mp/graph_models.py: GIN0, GIN, GIN0WithJK, GINWithJK"]}
{"id": "C59", "title": "One layer sees how many cliques and rings there are", "statement": "For every finite list of graphs there is one SparseCIN with a single layer whose predictions on the clique liftings differ whenever two graphs have different numbers of cliques of some size up to the dimension of the lifting, and one whose predictions on the ring liftings differ whenever two graphs have different numbers of induced cycles of some length up to the maximal ring size; no GIN baseline separates regular graphs of equal size and degree with constant features; in particular Rook's graph and the Shrikhande graph are separated by the lifted network and not by GIN.", "quantifier": "all graphs with non-negative integer features, all library enumerations, all reductions, all GIN weights", "why_tests_cant": "quantifies over all graphs and all weights of the baselines", "anchors": ["data/utils.py: compute_clique_complex_with_gudhi, compute_ring_2complex", "mp/layers.py: SparseCINConv", "mp/models.py: SparseCIN.forward", "mp/graph_models.py: GIN0, GIN, GIN0WithJK, GINWithJK", "exp/run_sr_exp.py"]}
{"id": "C60", "title": "Layers get the arguments their parameter names ask for", "statement": "For any layer built on CochainMessagePassing: when message passing along an adjacency succeeds, the message and aggregate functions were called with exactly their parameters; <adjacency>_f_i holds the rows of the tensor f given to propagate at the receivers of the messages, <adjacency>_f_j those at the senders (for the boundary adjacency: the rows of boundary_attr at the senders, whatever f is), other names the keyword argument of that name or the default, the index parameters the corresponding rows of the index; if only x is asked for, the number of aggregated rows is the number of rows of x. The iteration order of Python's sets does not matter. For the layer classes of the project, with the keyword arguments their forward passes pass, the results and errors are those of the direct definition of propagate.", "quantifier": "every layer (arbitrary signatures and bodies), every index, size, keyword arguments, set iteration order", "why_tests_cant": "quantifies over all possible subclasses and over the iteration order of sets of strings, which Python randomises per process", "anchors": ["mp/cell_mp.py: CochainMessagePassing.__init__, __collect__, __set_size__, __lift__, __message_and_aggregate__, propagate, update", "mp/cell_mp_inspector.py: CellularInspector", "mp/layers.py: forward, message_up, message_down, message_boundary"]}
{"id": "C61", "title": "GIN is a special case of SparseCIN on lifted graphs", "statement": "For every GIN baseline (any layers, jumping knowledge, pooling and head), every list of simple graphs and every complexes lifted from them (clique or ring lifting, whatever the libraries return), a SparseCIN whose vertex layers use the networks of the GIN layers and that is read out at the vertices returns exactly the predictions of the GIN for the whole batch, whatever its layers do at edges and higher cells.", "quantifier": "all graphs, batches, GIN weights, row types, liftings and library answers", "why_tests_cant": "quantifies over all weights and all graphs; agreement of two implementations on samples does not show it", "anchors": ["mp/graph_models.py: GIN0, GIN, GIN0WithJK, GINWithJK", "mp/layers.py: SparseCINCochainConv.forward", "mp/models.py: SparseCIN.forward", "data/utils.py: compute_clique_complex_with_gudhi, compute_ring_2complex"]}
{"id": "C62", "title": "Without coboundary features nothing flows from cells to their faces", "statement": "For SparseCIN and CIN++ with use_coboundaries False, predictions read out at dimensions at most d do not depend on features and boundaries of cells of dimension above d, on cells of dimension above d + 1, or on the dimension at which the batch is truncated; read out at the vertices they are equal for all graphs that the Weisfeiler-Lehman test does not distinguish, whatever cells the lifting attached, in particular for the ring liftings of the hexagon and of two triangles.", "quantifier": "all complexes, networks, depths, readouts, row types, liftings", "why_tests_cant": "quantifies over all weights: a test with one set of weights says nothing about the others", "anchors": ["mp/layers.py: SparseCINConv.__init__, SparseCINCochainConv.forward, CINppCochainConv.forward", "mp/models.py: SparseCIN.forward", "exp/parser.py: --use_coboundaries, --readout_dims"]}
{"id": "C63", "title": "Lifting a disjoint union is batching the liftings", "statement": "For every non-empty list of graphs: the clique lifting of their disjoint union, and likewise the ring lifting (with or without edge attributes), succeeds and is the complex that ComplexBatch.from_complex_list builds from the liftings of the members, up to a renumbering of the cells that keeps vertex sets (shifted by the nodes of the graphs before), features, boundaries and adjacencies; every network gives the same prediction for both. No cell of the union spans two members and none is lost at the seams.", "quantifier": "all lists of graphs, dimensions, ring sizes, reductions, row types, all answers of gudhi and graph-tool, all networks", "why_tests_cant": "relates lifting and batching, whose offsets are computed in different places, for lists of any length", "anchors": ["data/utils.py: compute_clique_complex_with_gudhi, compute_ring_2complex", "data/complex.py: ComplexBatch.from_complex_list, CochainBatch.from_cochain_list"]}
{"id": "C64", "title": "Triangles as cliques and as rings give the same complex", "statement": "For every graph the clique lifting of dimension 2 and the ring lifting with max_ring_size 3 (edge and ring features initialised, no edge attributes) give the same complex up to a renumbering of the cells that keeps vertex sets, features, boundaries, adjacencies and labels, and every network gives the same predictions on any batch of them; for rings of four nodes this is false.", "quantifier": "all graphs, batches, reductions, row types, networks, all answers of gudhi and graph-tool", "why_tests_cant": "two independent implementations based on different libraries, compared on all graphs", "anchors": ["data/utils.py: compute_clique_complex_with_gudhi, compute_ring_2complex, build_tables, build_tables_with_rings, extract_boundaries_and_coboundaries_from_simplex_tree, extract_boundaries_and_coboundaries_with_rings"]}
{"id": "C65", "title": "Which experiments start", "statement": "For every value of the command-line options, exp/run_exp.py passes validate_args, load_dataset and the construction of network, evaluator and scheduler without an exception exactly when the options satisfy a table: the data set belongs to a family, the network is one of those the family runs with, and the few requirements of data, network, sanity checks, metric and scheduler hold. In particular validate_args is not enough (it lets options through with which nothing can start) and CLUSTER starts with no options at all.", "quantifier": "all values of all options that are read (names, folds, ring sizes, dimensions of any size), all answers of the libraries", "why_tests_cant": "some thirty data sets, eighteen networks and about twenty-five options with unbounded values interact; a failure shows only after hours of loading", "anchors": ["exp/run_exp.py: main", "exp/parser.py: validate_args", "data/data_loading.py: load_dataset, load_graph_dataset", "mp/nn.py: get_nonlinearity, get_pooling_fn, get_graph_norm", "exp/evaluator.py: Evaluator.__init__"]}
{"id": "C66", "title": "What an experiment runs with", "statement": "Whenever an experiment starts: the class of the network is the one its name stands for, it outputs as many numbers as the family of the data set has classes or tasks, works on the dimensions the data set has, uses coboundaries exactly when asked, the complexes are made by the lifting, ring size, lower adjacencies and initialisation that the options ask for, a test split is evaluated exactly for families that have one, and the scheduler goes in the direction of the metric. Exceptions are stated: --include_down_adj is dropped by some data sets, and networks not made for ogb give one or two numbers on the peptides.", "quantifier": "all options with which an experiment starts, all answers of the libraries", "why_tests_cant": "a wrong option passed on silently changes the experiment, not its success", "anchors": ["exp/run_exp.py: main", "data/data_loading.py: load_dataset, load_graph_dataset", "data/datasets: constructors"]}
{"id": "C67", "title": "Results of different seeds and folds go to different folders", "statement": "For one result folder, data set and experiment name, two runs write to the same folder only if they have the same seed and the same fold (decimal numbers of any length, negative seeds, absent folds). The folder does not determine the data set or the network: ZINC with the name FULL-a and ZINC-FULL with the name a share one.", "quantifier": "all options", "why_tests_cant": "an injectivity statement over all numbers and strings", "anchors": ["exp/run_exp.py: main (result_folder)"]}
{"id": "C68", "title": "The command line means what its grammar says, and the scripts start the runs it asks for", "statement": "For every list of words and every table of environment answers, argparse with the parser of exp/parser.py succeeds exactly when the words are a sequence of options with values according to a grammar (full names, unique abbreviations, --name=value, several integers, negative numbers), each option then has the last value given or its default, and otherwise the process exits. run_tu_exp, run_mol_exp, run_ring_exp and run_sr_exp start exactly the stated number of runs, in the stated order, each with the user's options and only seed, fold, ring size, depth, data set, dimensions or folder replaced. The checks against options that the scripts replace compare words and therefore miss --fold 3, --seed=5 and --max_ring_size=6, and reject --exp_name fold.", "quantifier": "all lists of words of any length, all seeds, folds and names, any conversion of numbers", "why_tests_cant": "unbounded lists of arbitrary strings; abbreviations and negative numbers interact with every option of the table", "anchors": ["exp/parser.py: get_parser", "exp/run_tu_exp.py: main", "exp/run_mol_exp.py: main", "exp/run_ring_exp.py: main", "exp/run_sr_exp.py: main"]}
{"id": "C69", "title": "The shipped commands start and do not overwrite each other", "statement": "Each of the 25 commands in exp/scripts, for every ring size above 3 and every nonlinearity where the command takes one, starts the number of runs it is meant for, every run passes the whole set-up, builds the intended network and writes into the folder of its experiment. Runs of two different commands never write to the same folder, with one exception: cin++-zinc-small.sh and cin++-zinc.sh (two different networks) overwrite each other's results.", "quantifier": "all ring sizes and nonlinearities, all answers of the libraries, any folder of results", "why_tests_cant": "the commands run for days and need data; the ring size is unbounded", "anchors": ["exp/scripts/*.sh", "exp/parser.py: get_parser", "exp/run_exp.py: main", "exp/run_tu_exp.py, run_mol_exp.py, run_sr_exp.py: main"]}
{"id": "C70", "title": "Lower adjacencies add no expressive power, only depth", "statement": "On complexes whose adjacencies are those of their boundary relation (every complex from the clique and the ring lifting is one), no network of the project with L layers, lower adjacencies or not, separates two complexes that colour refinement by boundary and upper adjacencies does not separate after 2 L + 1 rounds; hence for any finite collection of complexes one SparseCIN with 2 L + 1 layers, which has no lower adjacencies, separates whatever any network with at most L layers separates. With equal depth it is false: one layer of CIN0 separates two trees that no SparseCIN or CIN++ with one layer separates.", "quantifier": "all complexes of any dimension and size with such adjacencies, all networks of the project of any depth, any weights, any type of rows and encoding of the features", "why_tests_cant": "a statement about all networks and all complexes at once; the paper states it as a theorem about an idealised test, the code leaves lower adjacencies out because of it", "anchors": ["mp/layers.py: SparseCINConv, SparseCINCochainConv, CINConv, EdgeCINConv", "mp/models.py: SparseCIN, CIN0, EdgeCIN0", "data/complex.py: Complex.get_cochain_params", "data/utils.py: build_adj, compute_clique_complex_with_gudhi, compute_ring_2complex"]}
{"id": "C71", "title": "Training mode: batch normalisation is evaluation with the statistics of the batch", "statement": "For every batch of well-formed complexes that the training loop does not skip, a pass of SparseCIN, CIN++ or CIN0 in training mode (without dropout) succeeds and computes what the same network computes in evaluation mode with one fixed choice of mean and variance per normalisation, and the same choice serves every rearrangement of the batch (other order of members, other numbering of cells): rearranging a batch rearranges its predictions. The guard of the training loop is sufficient, and necessary when the first layer normalises: a batch with a single cell of a dimension raises ValueError. Without batch normalisation training and evaluation agree on every batch. With it a prediction is not a function of the complex: the rest of the batch changes it.", "quantifier": "all batches of any size and dimension, all networks of any depth, all order-free statistics, all weights, all rearrangements", "why_tests_cant": "a test sees single batches; that statistics over cells and over messages are insensitive to order and numbering in every layer, and that no inner normalisation ever sees a single row, needs an induction over layers and stages", "anchors": ["mp/layers.py: CINCochainConv.forward, SparseCINCochainConv.forward, CINppCochainConv.forward, SparseCINConv.__init__, CINppConv.__init__", "mp/models.py: CIN0, SparseCIN, CINpp", "mp/nn.py: get_graph_norm", "exp/train_utils.py: train"]}
{"id": "C72", "title": "Learning-rate schedules and early stopping", "statement": "With ReduceLROnPlateau the learning rate after e epochs is the initial rate times the decay rate to the number of epochs after which a reduction was due (a positive multiple of patience+1 epochs since the last improvement by more than 0.01 percent; NaN never improves), as long as a reduction exceeds 1e-8. A run is stopped early after the first epoch at which this rate is below the minimum: never before K(patience+1)+1 epochs, and at the latest K(patience+1) epochs after the last improvement, where K reductions are needed; with the default values 78 and 77. If all scores lie between positive bounds whose ratio is below 1.0001 to the power M (0.9999 to the power -M when minimised), it ends after at most (patience+1)(K+M) epochs however many are asked for. With StepLR and without scheduler all epochs are run whatever --early_stop says, with the rates of a step function or a constant. If the reductions become ineffective at or above the minimum (--lr_scheduler_min 1e-8), early stopping never happens; nor if a negative score that is maximised stays the same, because the threshold is relative.", "quantifier": "all sequences of validation scores, all rates, factors, patiences, minima and numbers of epochs", "why_tests_cant": "early stopping depends on the whole sequence of scores and shows after hundreds of epochs", "anchors": ["exp/run_exp.py: main (scheduler, epoch loop)", "exp/parser.py: get_parser"]}
{"id": "C73", "title": "Even graphs look alike: from which dimension on strongly regular graphs can be told apart", "statement": "If in each of two graphs every clique of at most k nodes has as many common neighbours as its size prescribes, with the same numbers for both graphs, then no network of the project, of any depth and with any weights, lower adjacencies or not, gives their clique complexes of dimension k different embeddings; the same for the ring lifting when every edge lies on prescribed numbers of chordless cycles of each length. Hence on a family of strongly regular graphs with equal parameters the experiment exp/run_sr_exp.py has failure rate 1 with clique complexes of dimension 2 or less and with rings of length 3, in batches of any size; from dimension 3 and from rings of length 4 on one layer separates Rook's graph from the Shrikhande graph.", "quantifier": "all graphs, families and batches of any size, all dimensions and ring sizes, all networks of any depth and any weights, any type of rows", "why_tests_cant": "a statement about all networks at once: a test can only show that sampled networks fail on sampled graphs", "anchors": ["exp/run_sr_exp.py: main (__max_dim__, --max_ring_size)", "data/datasets/sr.py: SRDataset", "data/utils.py: compute_clique_complex_with_gudhi, compute_ring_2complex", "mp/models.py: SparseCIN, CIN0, CINpp", "exp/train_utils.py: Evaluator._isomorphism"]}
{"id": "C74", "title": "Partial results do not depend on batches", "statement": "Asking a network for its partial results (include_partial) changes neither its prediction nor the batch it leaves behind nor the exception it raises. The dictionary has one entry for every layer and every dimension present, one for every pooled dimension and one for the output, no key twice. Every entry of a batch is the concatenation of the entries of its members processed alone, in their order, leaving out members without that dimension. Hence collecting the dictionaries over the batches of a loader gives the same dictionary however the loader cuts the data: the batching tests of the repository hold for all data, networks, batch sizes and dimensions.", "quantifier": "all lists of complexes with any mixture of dimensions, all cuts into batches, all networks of any depth with any weights, with and without embeddings", "why_tests_cant": "the repository tests this for a dozen small complexes, seeds and batch sizes only", "anchors": ["mp/models.py: SparseCIN.forward (include_partial)", "mp/molec_models.py: EmbedSparseCIN.forward, OGBEmbedSparseCIN.forward (include_partial)", "mp/test_models.py: test_sparse_cin0_model_with_batching", "mp/test_molec_models.py: test_zinc_sparse_cin0_model_with_batching", "data/complex.py: ComplexBatch.from_complex_list"]}
{"id": "C75", "title": "The soundness test of the strongly-regular experiments passes for every family", "statement": "From every state of the data directory that runs of exp/prepare_sr_tests.py and loading of data sets lead to (any families, seeds, ring sizes, initialisations, in any order, processed files reused), the test of exp/test_sr.py passes: for every family of loop-free graphs that each have an induced cycle of at most the ring size, the permuted copies that the preparation draws, dumps, lifts, stores and reads back get exactly the same embeddings as the graphs, one per graph, for every network of the project with any weights and for the message-passing-agnostic baseline; and the state left behind is again such a state. The ring size given to exp/evaluate_sr_cwn_emb_mag.py, however, only names its output: the magnitudes are always those of ring size 6.", "quantifier": "all families of graphs of any number and size, all seeds and draws, all ring sizes above 3, all histories of runs, all networks of any depth and any weights", "why_tests_cant": "the repository tests this for nine families, one permutation of each graph and five weights, with a tolerance, starting from whatever files lie there", "anchors": ["exp/test_sr.py: _get_cwn_sr_embeddings, _validate_self_iso_on_sr", "exp/prepare_sr_tests.py: prepare", "data/sr_utils.py: load_sr_dataset", "data/datasets/sr.py: load_sr_graph_dataset, SRDataset", "data/perm_utils.py: permute_graph, generate_permutation_matrices", "exp/evaluate_sr_cwn_emb_mag.py: compute_embeddings"]}
{"id": "C76", "title": "Batches of samples of any kind", "statement": "The collate function of the data loader takes samples apart and batches what is found at the same place: a batch has exactly the places (keys of mappings, positions of lists, tuples and named tuples, nested to any depth) that all samples have, and has there the batch of what the samples have there. Samples of the same form can be batched exactly if their leaves can, and then no place is lost. Numbers come out in the widest of their types whichever comes first. Complexes anywhere within samples are batched so that a network predicts for each what it predicts for it alone. Followed keys (follow_batch) leave the batch as it is and add vectors telling which member every entry of the attribute comes from.", "quantifier": "all samples nested to any depth, batches of any size, all places, all followed keys, dimensions and mixtures of complexes", "why_tests_cant": "nested samples of all forms cannot be enumerated; the repository tests lists of complexes only", "anchors": ["data/data_loading.py: Collater.collate, DataLoader", "data/complex.py: CochainBatch.from_cochain_list (follow_batch), ComplexBatch.from_complex_list (follow_batch), Cochain.keys"]}
{"id": "C77", "title": "Larger ring sizes and clique dimensions separate strictly more graphs", "statement": "For every ring size n there are two graphs, one cycle of 2n nodes and two cycles of n nodes, that no network of the project separates, whatever its depth and weights, if rings of fewer than n nodes are lifted, and that one layer of SparseCIN separates if rings of n nodes are lifted; likewise for every p there are two graphs that no network separates with cliques of fewer than p nodes and one layer separates with cliques of p nodes. In the other direction nothing is ever lost: for any list of graphs, with any edge features, there is one SparseCIN of 2L+2 layers without lower adjacencies that, with the larger ring size or clique dimension, separates all pairs that any network of at most L layers, with lower adjacencies or not, separates with the smaller.", "quantifier": "all ring sizes, clique dimensions, lists of graphs of any size, numbers of layers, all networks with any weights, any type of rows", "why_tests_cant": "a statement about all networks and all ring sizes at once; tests use one ring size and sampled weights", "anchors": ["data/utils.py: compute_ring_2complex (max_k), compute_clique_complex_with_gudhi (expansion_dim), get_rings", "mp/models.py: SparseCIN, CIN0, CINpp", "exp/parser.py: get_parser (--max_ring_size, --max_dim)", "exp/run_sr_exp.py: main"]}
{"id": "C78", "title": "Molecular data sets and CSL from raw graphs to predictions", "statement": "For ZINC, the OGB sets, both peptide sets and CSL: if every raw graph has features of a common width (and attributes, where the data set uses them) and a label, then processing (conversion with rings, extension of the splits, storing, reading back), taking a split, loading it in batches of any size and evaluating an embedding network succeeds and yields, for the i-th graph of the split, exactly the output of the network for this graph lifted and processed alone, beside the label of this graph. Renumbering the nodes of each graph, listing its edges in another order, other enumerations by the graph libraries and other batch sizes change nothing. On CSL, whose features are replaced by zeros, predictions depend only on the shape of the graph.", "quantifier": "all lists of graphs of any number and size, all splits, folds, ring sizes and batch sizes, all embedding networks of any depth with any weights, all answers of the libraries", "why_tests_cant": "processing takes hours on the real data, and no test follows single graphs through conversion, storage, splits and batches", "anchors": ["data/datasets/zinc.py: ZincDataset", "data/datasets/ogb.py: OGBDataset", "data/datasets/peptides_functional.py: PeptidesFunctionalDataset", "data/datasets/peptides_structural.py: PeptidesStructuralDataset", "data/datasets/csl.py: CSLDataset", "data/utils.py: convert_graph_dataset_with_rings", "exp/run_exp.py: main (loaders)", "exp/train_utils.py: eval, infer", "mp/molec_models.py: EmbedSparseCIN, OGBEmbedSparseCIN, EmbedCINpp, OGBEmbedCINpp"]}
{"id": "C79", "title": "Clique complexes and the Weisfeiler-Lehman hierarchy", "statement": "Let k be at least 2. If the k-dimensional Weisfeiler-Lehman test in its folklore form (colours of k-tuples of nodes, refined by replacing all entries at once) gives two graphs with labelled nodes the same colours after (2L+1)(k+2)+1 rounds, no network of the project with at most L layers separates their clique complexes of dimension up to k, with lower adjacencies or not, whatever its weights, its rows and the encoding of the features. The bound on the dimension is exact: for every k at least 1 there are two graphs that the k-dimensional test does not separate, whatever the hash function and the number of rounds, and that one layer of SparseCIN separates on their clique complexes of dimension k+1. Strongly regular graphs with the same parameters are never separated by the 2-dimensional test; Rook's graph and the Shrikhande graph are such a pair that one layer on clique complexes of dimension 3 separates.", "quantifier": "all k, all graphs of any size with any labels, all numbers of layers and rounds, all networks with any weights, any type of rows, any hash function of the test", "why_tests_cant": "a statement about all networks, all graphs and a hierarchy of tests none of which the project contains", "anchors": ["data/utils.py: compute_clique_complex_with_gudhi (expansion_dim)", "mp/models.py: SparseCIN, CIN0, CINpp, EdgeCIN0", "mp/layers.py: SparseCINConv, CINConv, CINppConv", "exp/run_sr_exp.py: main (the comparison with 3-WL on strongly regular graphs)"]}
{"id": "C80", "title": "Sparse adjacency matrices stand for index tensors", "statement": "CochainMessagePassing.propagate accepts a SparseTensor in place of each index tensor. If square matrices replace the upper and lower index tensors and their values are the attributes, the result is that of the index tensors, for every configuration of messages and aggregations, in whatever order the columns of the index come; on index tensors alone it is the result of the other model of propagate. Every index has such a matrix. A boundary matrix works exactly if it is square: any other one is refused. Sparse and index adjacencies cannot be mixed, and the reverse flow is refused. Attributes given by keyword, as all layers do, are ignored beside a matrix.", "quantifier": "all feature matrices, indices, attributes and configurations, all sizes, any type of rows", "why_tests_cant": "no test passes a SparseTensor, and equality of segment_csr over sorted entries with scatter over columns is needed for all indices", "anchors": ["mp/cell_mp.py: CochainMessagePassing.__check_input_separately__, __check_input_together__, __lift__, __collect__, __message_and_aggregate__, aggregate_up, aggregate_down, aggregate_boundary, propagate"]}
{"id": "C81", "title": "TU data sets from the text file to predictions", "statement": "Reading a TU text file that follows the format, converting its graphs (with rings or with cliques), storing and reading back, splitting by files of indices or by stratified folds, loading the training or validation part in batches of any size and evaluating a network succeeds and yields, for each graph of the part, exactly the output of the network for this graph lifted alone, beside its class. Features are indicator rows: two nodes, of whatever graphs, get the same column exactly if they have the same tag, or with degrees as tags exactly if they have the same degree, with larger columns for larger degrees. The order in which Python enumerates sets of tags, what the graph libraries enumerate first and the order of edges do not matter beyond the choice of columns. Over the ten folds every graph is in the validation part exactly once.", "quantifier": "all text files of any number of graphs of any size, all tags and labels, both liftings with all sizes, all folds and index files, all batch sizes, all networks of any depth with any weights, all orders of sets", "why_tests_cant": "processing takes long on the real data, and no test follows single graphs from the text file through conversion, storage, folds and batches", "anchors": ["data/datasets/tu.py: TUDataset", "data/tu_utils.py: load_data, S2V_to_PyG, separate_data, get_fold_indices", "data/utils.py: convert_graph_dataset_with_rings, convert_graph_dataset_with_gudhi", "data/datasets/dataset.py: InMemoryComplexDataset", "exp/train_utils.py: eval, infer"]}
{"id": "C82", "title": "Number of messages of a layer", "statement": "On a clique complex a layer with upper adjacencies and boundaries computes, for every clique of at least two nodes, exactly the square of its number of nodes many messages; on a ring complex exactly four for every edge and the square of its size for every ring, so at most 4E + k*k*R with rings of at most k nodes. Lower adjacencies of dimension d+1 add, for every cell of dimension d, n(n-1) messages if n cells contain it: on stars with n edges this is quadratic where the rest is 4n. The messages of a batch are those of its members.", "quantifier": "all graphs of any size, all ring sizes and clique dimensions, all batches, all answers of the libraries", "why_tests_cant": "equalities over all graphs; tests compare index tensors of a few complexes", "anchors": ["data/utils.py: compute_clique_complex_with_gudhi, compute_ring_2complex, build_adj, extract_boundaries_and_coboundaries_from_simplex_tree", "data/complex.py: ComplexBatch.from_complex_list", "mp/cell_mp.py: propagate"]}
{"id": "C83", "title": "Flow and ocean experiments from triangulation to predictions", "statement": "For every triangulation that passes the preparation of the flow data (no repeated triangles, the four regions inhabited) and any numbers of samples except 1: unless a random walk never ends, the data set is built without exception, its two splits have the numbers of samples asked for, and for every batch size an edge network with at least one layer whose layers are odd, or which is fully invariant, gives each sample exactly the output for its trajectory alone with all edges in their default orientation; the trajectory is a simple path of sides of triangles from the first corner region to the last, and the first half of the samples of a split passes by the lower checkpoint. So neither the orientations asked for (default or random, for training or test) nor the random signs nor the batch size change any prediction. The same holds for the ocean data with at least one triangle. The folder of a flow file is named without the numbers of samples: a file made with other numbers is reused.", "quantifier": "all triangulations and point sets, all random draws, all numbers of samples and batch sizes, all orientations, all odd or invariant edge networks of any depth with any weights", "why_tests_cant": "the claim quantifies over all sign vectors and all networks; tests fix one triangulation and a seed", "anchors": ["data/datasets/flow.py: FlowDataset", "data/datasets/ocean.py: OceanDataset", "data/datasets/flow_utils.py: load_flow_dataset, generate_flow_cochain, get_orient_matrix, build_cochain", "data/datasets/ocean_utils.py: load_ocean_dataset", "data/data_loading.py: Collater.collate, DataLoader", "mp/models.py: EdgeOrient, EdgeMPNN", "exp/train_utils.py: infer"]}
{"id": "C84", "title": "Aggregation in floating point", "statement": "In IEEE binary32 arithmetic, rounded to nearest: the sum of k finite messages in any column is finite and off by at most ((1+u)^(k-1) - 1) times the sum of their absolute values, u = 2^-24, provided (1+u)^(k-1) times the latter is below 2^128; a mean of at most 2^24 messages by at most ((1+u)^k - 1) times the mean of the absolute values plus 2^-150; a maximum or minimum is exact; integer messages (one-hot rows, degrees) whose absolute values add up to at most 2^24 are summed exactly. Reordering the columns of an index, as renumbering cells does, changes a sum by at most twice the bound, and nothing at all if the messages to each cell keep their order. Predictions for a complex in a batch are bit for bit those for the complex alone, whatever the batch and its order. Exact independence of the order is false, for sums and for predictions of isomorphic graphs, and the order can decide about overflow.", "quantifier": "all numbers of messages, all finite float values of any magnitude, all widths, all indices and reorderings; all networks and batches for the bitwise part", "why_tests_cant": "a bound for all values and all orders of arbitrarily many messages; tests compare a few values with allclose", "anchors": ["mp/cell_mp.py: aggregate_up, aggregate_down, aggregate_boundary (scatter)", "mp/nn.py: pool_complex", "mp/layers.py: InitReduceConv", "data/complex.py: ComplexBatch.from_complex_list", "mp/models.py: forward", "exp/evaluator.py: Evaluator._isomorphism (tolerance)"]}
{"id": "C85", "title": "Widths fit in every network", "statement": "For every number of input features, classes, layers (at least one), hidden columns, multiplier, dimension, jump mode that can be built, normalisation and choice of read-out dimensions, each network of the repository maps every batch whose features have the declared width to a matrix with one column per class, without a shape error, whichever adjacencies the batch has and whichever dimensions are missing - provided that cells above the dimension of the network do not take part in messages (no coboundary messages, or none present, or one layer, or as many input as hidden columns); for EdgeCIN0: the top features are left out, updated, absent, used once, or as wide as the hidden ones; for EmbedGIN: one layer, or an embedding dimension equal to the hidden one. Where these conditions fail the forward pass raises. Features of another width are refused, except a single column on a batch of isolated points, which is broadcast silently; jump mode lstm cannot be built.", "quantifier": "all widths, depths, dimensions, jump modes, norms, read-out dimensions, multipliers; all batches of any dimension with any subset of adjacencies", "why_tests_cant": "the tests fix one width per network; a mismatch between constructor and forward shows up only for particular combinations of depth, jump mode, embedding dimension and missing dimensions", "anchors": ["mp/models.py: CIN0, SparseCIN, CINpp, EdgeCIN0, Dummy, EdgeOrient, EdgeMPNN, MessagePassingAgnostic", "mp/molec_models.py: EmbedSparseCIN, EmbedCINpp, OGBEmbedSparseCIN, OGBEmbedCINpp, EmbedSparseCINNoRings, EmbedGIN", "mp/ring_exp_models.py: RingSparseCIN, RingGIN", "mp/graph_models.py: GIN0, GIN0WithJK, GIN, GINWithJK", "mp/layers.py: CINConv, EdgeCINConv, SparseCINConv, CINppConv, OrientedConv, EmbedVEWithReduce, OGBEmbedVEWithReduce", "mp/cell_mp.py: propagate, update", "data/complex.py: get_cochain_params, get_all_cochain_params, set_xs"]}
{"id": "C86", "title": "Resetting parameters", "statement": "reset_parameters of GIN0, GIN, their variants with jumping knowledge, RingGIN, EmbedGIN, EdgeOrient, EdgeMPNN, MessagePassingAgnostic and Dummy succeeds and sets every parameter of the network, for any number of layers and any networks of linear layers, norms and activations inside; the method of a level of a cellular convolution sets all its parameters, except that a CIN++ level misses exactly the networks for lower messages and the third eps. The method of CIN0, EdgeCIN0, SparseCIN, CINpp, RingSparseCIN and all cellular networks on molecules raises AttributeError as soon as there is a layer; SparseCIN, CINpp and the molecular ones even without layers.", "quantifier": "all numbers of layers, all inner networks, all jump modes, all parameters", "why_tests_cant": "no test calls the method of a network; whether a parameter was missed cannot be seen from a forward pass", "anchors": ["mp/models.py: reset_parameters", "mp/molec_models.py: reset_parameters", "mp/ring_exp_models.py: reset_parameters", "mp/graph_models.py: reset_parameters", "mp/layers.py: CINCochainConv.reset_parameters, SparseCINCochainConv.reset_parameters, CINppCochainConv, OrientedConv.reset_parameters, AbstractEmbedVEWithReduce.reset_parameters"]}
{"id": "C87", "title": "Running averages of batch normalisation", "statement": "The outputs of a convolution in training mode do not depend on the running statistics. After any number of training steps with any weights the running mean and variance of a normalisation are the fading averages (weight 1/10 times 9/10 to the number of later inputs) of the means and unbiased variances of all its inputs, the variance with 9/10 to that number added: in CIN0, whose levels share their networks, of all dimensions in turn, in SparseCIN of the own dimension only. The running mean stays within the range of the data and 0, the running variance is positive. If every step looks alike, a module of its own approaches the statistics of its inputs; a shared one approaches a weighted average over the dimensions, which is right for all of them exactly if all dimensions have the same mean. Evaluation mode is a network with fixed statistics and leaves them alone.", "quantifier": "all numbers of steps, all weights changing from step to step, all batches and dimensions, all widths, all entries", "why_tests_cant": "a statement about histories of any length; that shared normalisations mix the dimensions shows in no test of shapes or invariance", "anchors": ["mp/models.py: CIN0, SparseCIN", "mp/layers.py: CINConv, CINCochainConv, SparseCINConv, SparseCINCochainConv", "mp/nn.py: get_graph_norm", "exp/train_utils.py: train, eval, infer"]}
{"id": "C88", "title": "Summary statistics of the scripts", "statement": "The molecular script reports, for the scores of any number of runs, their mean, which lies between the reported minimum and maximum, both attained, and a deviation that is 0 exactly if all scores are equal and not a number if there is one run; one score that is not a number makes all of them so, and without runs it raises. If the runs are independent with the same distribution, the mean is right on average, the square of the deviation is the variance of a run on average, the deviation itself is not above the true one on average, and the mean is off by the variance divided by the number of runs in the mean square. The script for strongly regular graphs divides the deviation by the number of runs instead of its root: what it prints as standard error is, in the mean square, at most half of the true one and too small for every distribution that varies. The TU script reports the mean over the folds at the epoch where it is largest: at least the mean of the folds' means, at most the mean of the folds' maxima, with the deviation (divided by n, so (n-1)/n of the variance on average) of the same scores; a median has half of the scores on either side. The ring script prints, for every ring size, mean and deviation of exactly the runs with this ring size over all seeds; with one seed the deviation is 0, without seeds everything is not a number, and a run that raises leaves nothing printed.", "quantifier": "all numbers of runs, folds and epochs, all rational scores, all finite distributions with rational weights (lists with repetitions)", "why_tests_cant": "unbiasedness is a statement about all outcomes of all distributions; the scripts are not tested at all", "anchors": ["exp/run_mol_exp.py: exp_main", "exp/run_sr_exp.py: exp_main", "exp/run_tu_exp.py: exp_main", "exp/run_ring_exp.py: exp_main"]}
{"id": "C89", "title": "Dropout in the read-out", "statement": "In evaluation mode the read-out of a cellular network ignores the random bits, the dropout rate and the dropout position and computes one explicit function of the pooled features; with rate 0 training does the same. A rate outside [0,1] raises ValueError in both modes. In training with a rate below 1, for every position other than 'lin1', no choice of bits raises, the expected output over independent bits is the output in evaluation, and the variance of every output has an explicit form; for activations without negative values dropping before the final read-out has no larger variance than dropping after it. With rate 1 the output is the bias of the last layer, or for 'lin1' the output on zeros. Before 'lin1' the expectation is right for affine activations, not below the output in evaluation for convex activations (relu) with non-negative weights in the last layer, and different in general. Features of a wrong width raise RuntimeError. Every unknown position means 'lin2' in the cellular networks, and switches the dropout off in EmbedGIN. The heads of EmbedGIN, CIN0 and EdgeCIN0 are unbiased too and compute explicit functions.", "quantifier": "all numbers of dimensions, widths, classes, all weights and inputs, all rates, all positions, all activations, all outcomes of the random bits", "why_tests_cant": "the expectation is a statement about all masks; tests run in evaluation mode or with rate 0; a wrong rescaling changes no shape", "anchors": ["mp/models.py: CIN0.forward, SparseCIN.forward, EdgeCIN0.forward", "mp/molec_models.py: EmbedSparseCIN.forward, OGBEmbedSparseCIN.forward, EmbedSparseCINNoRings.forward, EmbedGIN.forward"]}
{"id": "C90", "title": "Graph baselines and cellular networks see the same TU graphs, classes and folds", "statement": "For every TU file of well-formed graphs, either kind of features, every lifting (cliques up to a dimension, rings up to a size, any initialisation, with or without lower adjacencies), every fold number and every behaviour of the splitter or the files of folds, the loader of the graph baselines and the loader of the complexes agree: both return the same training and validation identifiers and no test set, graph i and complex i have the class of document i, and complex i is the lifting of graph i; or both raise the same exception. Calling the graph loader any number of times with any arguments, starting without pickled graphs, returns every time what a first call would.", "quantifier": "all files, all numbers of graphs, all liftings, all folds, all splitters including ones that raise, all sequences of calls", "why_tests_cant": "the tests load no TU data; that the two families of models are compared on the same folds is an agreement of two pipelines that share little code", "anchors": ["data/datasets/tu.py: load_tu_graph_dataset, TUDataset.__init__, TUDataset.download, TUDataset.process", "data/tu_utils.py: load_data, S2V_to_PyG, get_fold_indices", "data/data_loading.py: load_dataset, load_graph_dataset"]}
