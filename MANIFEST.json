{
 "claims": [
  {
   "property": "C01",
   "status": "proved",
   "theorems": [
    "C01_batch_assigns_cells",
    "C01_ptr_position_refuted",
    "C01_mixed_features_refuted"
   ],
   "note": "ptr skips members lacking the dimension; counts need features present uniformly (both refuted otherwise)"
  },
  {
   "property": "C02",
   "status": "proved",
   "theorems": [
    "C02_no_cross_links"
   ],
   "note": ""
  },
  {
   "property": "C03",
   "status": "proved",
   "theorems": [
    "C03_batch_lossless"
   ],
   "note": "present-but-empty and absent adjacency of a member are identified"
  },
  {
   "property": "C04",
   "status": "proved",
   "theorems": [
    "C04_params_of_batch"
   ],
   "note": "boundary features of the batch also contain the rows of members that have no cells of the dimension (stated explicitly)"
  },
  {
   "property": "C05",
   "status": "proved",
   "theorems": [
    "C05_conv_of_batch",
    "C05_oriented_conv",
    "C05_oriented_batch_exists",
    "C05_edge_networks",
    "C05_oriented_empty_refuted"
   ],
   "note": "an oriented layer raises on a member with an empty adjacency although it works on a batch containing it (C05_oriented_empty_refuted)"
  },
  {
   "property": "C06",
   "status": "proved",
   "theorems": [
    "C06_batch_independence",
    "C06_embedding_batch_independence"
   ],
   "note": "embedding networks need vertex features, boundaries for all cells, and (with coboundary features) max_dim at least the dimension of the batch; embed_max_dim_1_type_error shows the failure otherwise"
  },
  {
   "property": "C07",
   "status": "proved",
   "theorems": [
    "C07_reordered_batch"
   ],
   "note": ""
  },
  {
   "property": "C08",
   "status": "proved",
   "theorems": [
    "C08_pooling"
   ],
   "note": ""
  },
  {
   "property": "C09",
   "status": "proved",
   "theorems": [
    "C09_truncation",
    "C09_top_has_no_upper"
   ],
   "note": ""
  },
  {
   "property": "C10",
   "status": "proved",
   "theorems": [
    "C10_batch_labels"
   ],
   "note": ""
  },
  {
   "property": "C11",
   "status": "proved",
   "theorems": [
    "C11_clique_cells"
   ],
   "note": ""
  },
  {
   "property": "C12",
   "status": "proved",
   "theorems": [
    "C12_boundary"
   ],
   "note": ""
  },
  {
   "property": "C13",
   "status": "proved",
   "theorems": [
    "C13_upper_clique",
    "C13_upper_ring"
   ],
   "note": ""
  },
  {
   "property": "C14",
   "status": "proved",
   "theorems": [
    "C14_lower_clique",
    "C14_lower_ring"
   ],
   "note": ""
  },
  {
   "property": "C15",
   "status": "partial",
   "theorems": [
    "C15_clique_lifting_succeeds_partial",
    "C15_ring_lifting_succeeds_partial",
    "C15_empty_graph_refuted",
    "C15_only_self_loops_rejected"
   ],
   "note": "proved for all graphs with at least one node; false for the graph without nodes (C15_empty_graph_refuted)"
  },
  {
   "property": "C16",
   "status": "proved",
   "theorems": [
    "C16_clique_features",
    "C16_ring_features"
   ],
   "note": ""
  },
  {
   "property": "C17",
   "status": "proved",
   "theorems": [
    "C17_clique_edge_list",
    "C17_ring_edge_list",
    "C17_ring_edge_attr"
   ],
   "note": ""
  },
  {
   "property": "C18",
   "status": "partial",
   "theorems": [
    "C18_extract_labels_partial",
    "C18_lifted_labels_partial",
    "C18_bad_labels_rejected",
    "C18_single_node_refuted"
   ],
   "note": "proved except for node labels of one-node graphs, which go to the complex (C18_single_node_refuted): the statement is false there"
  },
  {
   "property": "C19",
   "status": "proved",
   "theorems": [
    "C19_rings"
   ],
   "note": ""
  },
  {
   "property": "C20",
   "status": "proved",
   "theorems": [
    "C20_ring_boundary",
    "C20_rotation",
    "C20_reversal",
    "C20_listing"
   ],
   "note": ""
  },
  {
   "property": "C21",
   "status": "proved",
   "theorems": [
    "C21_edge_attributes",
    "C21_disagreement_rejected",
    "C21_self_loop_key_error"
   ],
   "note": ""
  },
  {
   "property": "C22",
   "status": "partial",
   "theorems": [
    "C22_gudhi_order",
    "C22_gudhi_succeeds_partial",
    "C22_rings_order",
    "C22_rings_succeeds_partial",
    "C22_gudhi_zero_refuted",
    "C22_init_edges_refuted",
    "C22_node_labels_refused"
   ],
   "note": "order and content proved for every dataset; 'init_edges=False works' is false (C22_init_edges_refuted), and expansion_dim=0 and node-label datasets are rejected. joblib's ordered return of results is trusted."
  },
  {
   "property": "C23",
   "status": "proved",
   "theorems": [
    "C23_ring_initial_features"
   ],
   "note": "rows with (v+v)/2 = v"
  },
  {
   "property": "C24",
   "status": "proved",
   "theorems": [
    "C24_scatter_reduces_addressed",
    "C24_no_message_zero",
    "C24_column_order",
    "C24_out_of_range_raises"
   ],
   "note": "idealised (associative, commutative) row addition"
  },
  {
   "property": "C25",
   "status": "proved",
   "theorems": [
    "C25_propagate",
    "C25_propagate_out_of_range"
   ],
   "note": ""
  },
  {
   "property": "C26",
   "status": "proved",
   "theorems": [
    "C26_conv_equivariance"
   ],
   "note": ""
  },
  {
   "property": "C27",
   "status": "proved",
   "theorems": [
    "C27_isomorphism_invariance",
    "C27_embedding_isomorphism_invariance"
   ],
   "note": ""
  },
  {
   "property": "C28",
   "status": "proved",
   "theorems": [
    "C28_clique_lift_and_predict",
    "C28_ring_lift_and_predict",
    "C28_permute_clique_and_predict",
    "C28_permute_ring_and_predict"
   ],
   "note": ""
  },
  {
   "property": "C29",
   "status": "partial",
   "theorems": [
    "C29_sparse_cin_ignores_lower_partial",
    "C29_cinpp_ignores_lower",
    "C29_cinpp_conv_ignores_lower",
    "C29_cinpp_uses_lower_refuted"
   ],
   "note": "first half proved; the second half (CIN++ uses lower adjacency) is false for the code and refuted"
  },
  {
   "property": "C30",
   "status": "proved",
   "theorems": [
    "C30_set_xs",
    "C30_set_xs_rejects",
    "C30_read_back"
   ],
   "note": ""
  },
  {
   "property": "C31",
   "status": "partial",
   "theorems": [
    "C31_collate_get_partial",
    "C31_exact",
    "C31_same_batches",
    "C31_wf_storable",
    "C31_lifted",
    "C31_labels",
    "C31_empty_tensor_refuted",
    "C31_no_rows_refuted",
    "C31_mixed_labels_refuted",
    "C31_truncation_refuted",
    "C31_void_refuted",
    "C31_copy_refuted",
    "C31_no_storage_refuted"
   ],
   "note": "proved for complexes without zero-size tensors (otherwise up to replacing those by None), of dimension at most max_dim, with counts that can be recovered; the _refuted theorems show what happens without these premises. Mutation of a returned complex through the shallow copy is not modelled"
  },
  {
   "property": "C32",
   "status": "proved",
   "theorems": [
    "C32_split",
    "C32_unknown_name",
    "C32_missing_split",
    "C32_split_of_subset",
    "C32_concatenated",
    "C32_train_val",
    "C32_zinc_graphs"
   ],
   "note": ""
  },
  {
   "property": "C33",
   "status": "partial",
   "theorems": [
    "C33_sr",
    "C33_csl",
    "C33_ocean",
    "C33_lookup",
    "C33_cluster",
    "C33_dummy",
    "C33_tu_partial",
    "C33_zinc_partial",
    "C33_ogb_partial",
    "C33_peptides_partial",
    "C33_flow_partial",
    "C33_transfer_partial",
    "C33_zinc_refuted",
    "C33_ogb_refuted",
    "C33_peptides_refuted",
    "C33_transfer_refuted",
    "C33_flow_refuted",
    "C33_tu_refuted"
   ],
   "note": "the property is false for TU (degree_as_tag), ZINC, OGB and peptides (include_down_adj is not in the path), ring transfer and flow (sample counts are not in the path): the _refuted theorems exhibit colliding options with different content; the _partial theorems say which options the path does determine"
  },
  {
   "property": "C34",
   "status": "proved",
   "theorems": [
    "C34_flow_boundary",
    "C34_flow_succeeds",
    "C34_preparation_succeeds",
    "C34_preparation",
    "C34_ocean_incidence",
    "C34_ocean_succeeds",
    "C34_self_loop_refuted"
   ],
   "note": "with a self loop in the ocean edge list the claim is false (C34_self_loop_refuted)"
  },
  {
   "property": "C35",
   "status": "proved",
   "theorems": [
    "C35_trajectory_is_simple_path",
    "C35_attempt_terminates",
    "C35_no_exception",
    "C35_flow_sample"
   ],
   "note": ""
  },
  {
   "property": "C36",
   "status": "proved",
   "theorems": [
    "C36_signed_adjacency",
    "C36_extract_succeeds",
    "C36_reorientation",
    "C36_flow_cochain_built"
   ],
   "note": ""
  },
  {
   "property": "C37",
   "status": "proved",
   "theorems": [
    "C37_layer_correct",
    "C37_layer_equivariance",
    "C37_edge_orient_invariant",
    "C37_fully_invariant",
    "C37_edge_orient_layers",
    "C37_edge_mpnn_layers",
    "C37_reoriented_dataset",
    "C37_bias_refuted",
    "C37_relu_refuted",
    "C37_no_layers_raises"
   ],
   "note": "the premises are needed: biases and the default relu of EdgeMPNN without fully_invar break invariance"
  },
  {
   "property": "C38",
   "status": "proved",
   "theorems": [
    "C38_hole_cut",
    "C38_hole_succeeds",
    "C38_everything_removed_raises"
   ],
   "note": "a hole that touches every triangle makes the code raise IndexError (C38_everything_removed_raises)"
  },
  {
   "property": "C39",
   "status": "proved",
   "theorems": [
    "C39_strip",
    "C39_kept_paths",
    "C39_flow",
    "C39_flow_succeeds",
    "C39_back_and_forth",
    "C39_strip_flow"
   ],
   "note": ""
  },
  {
   "property": "C40",
   "status": "proved",
   "theorems": [
    "C40_valid_iff",
    "C40_permute_graph",
    "C40_edge_attributes_refused",
    "C40_invalid_refused",
    "C40_generated"
   ],
   "note": ""
  },
  {
   "property": "C41",
   "status": "partial",
   "theorems": [
    "C41_ring",
    "C41_single_two_cell",
    "C41_lifted_ring",
    "C41_ring_transfer",
    "C41_opposite",
    "C41_transfer_dataset_partial",
    "C41_loaded",
    "C41_ring_lookup",
    "C41_label_determined",
    "C41_lookup_dataset",
    "C41_not_divisible_refuted",
    "C41_lookup_balance_refuted"
   ],
   "note": "class balance holds when the number of classes divides the number of samples (otherwise the generator raises) and only for ring transfer (the lookup labels are drawn at random)"
  },
  {
   "property": "C42",
   "status": "partial",
   "theorems": [
    "C42_load_data_partial",
    "C42_degree_as_tag_partial",
    "C42_pyg",
    "C42_edgeless_refuted",
    "C42_degree_refuted",
    "C42_degree_tags",
    "C42_degree_tags_refuted"
   ],
   "note": "labels, tags, edges and one-hot tags for every well-formed file whose graphs have an edge (a graph without edges makes the loader raise, C42_edgeless_refuted); degree features are attached to the right node when the last node of every graph has an edge and to the wrong node otherwise (C42_degree_refuted)"
  },
  {
   "property": "C43",
   "status": "proved",
   "theorems": [
    "C43_fold",
    "C43_partition",
    "C43_separate",
    "C43_other_folds"
   ],
   "note": "the splitter of sklearn is an oracle that gives every sample a fold number below 10"
  },
  {
   "property": "C44",
   "status": "partial",
   "theorems": [
    "C44_best_epoch_partial",
    "C44_reports_best",
    "C44_best_epoch_unique",
    "C44_curves",
    "C44_untrained",
    "C44_no_epochs_raises",
    "C44_mean",
    "C44_mean_nan",
    "C44_runs",
    "C44_seeds",
    "C44_cross_validation",
    "C44_stale_train_refuted",
    "C44_nan_refuted",
    "C44_ragged_folds_refuted"
   ],
   "note": "holds in full with --train_eval_period 1 and scores that are not NaN; with the default period the reported train score belongs to an earlier epoch (C44_stale_train_refuted), a NaN validation score is selected as best (C44_nan_refuted), and early stopping of single folds makes the TU summary raise (C44_ragged_folds_refuted)"
  },
  {
   "property": "C45",
   "status": "proved",
   "theorems": [
    "C45_isomorphism",
    "C45_order_independent",
    "C45_zero",
    "C45_one_sample_refuted"
   ],
   "note": "for at least two samples; the distance of two rows is an arbitrary symmetric function; fewer than two samples raise (C45_one_sample_refuted)"
  },
  {
   "property": "C46",
   "status": "proved",
   "theorems": [
    "C46_cover",
    "C46_residue",
    "C46_exactly_once",
    "C46_sound",
    "C46_names",
    "C46_prepared"
   ],
   "note": ""
  },
  {
   "property": "C47",
   "status": "proved",
   "theorems": [
    "C47_colour_refinement_bound",
    "C47_cells_of_equal_colour"
   ],
   "note": "hash and initial colouring are arbitrary functions assumed injective up to reordering; a free (tree-valued) instance is given in the example"
  },
  {
   "property": "C48",
   "status": "proved",
   "theorems": [
    "C48_forward_keeps_structure",
    "C48_forward_repeatable_refuted"
   ],
   "note": ""
  },
  {
   "property": "C49",
   "status": "partial",
   "theorems": [
    "C49_flow_classes_partial",
    "C49_flow_classes_succeed",
    "C49_single_sample_refuted"
   ],
   "note": "asking for exactly one sample divides by zero (C49_single_sample_refuted)"
  },
  {
   "property": "C50",
   "status": "proved",
   "theorems": [
    "C50_ocean_dataset",
    "C50_ocean_succeeds",
    "C50_label",
    "C50_label_of_reverse",
    "C50_mask",
    "C50_few_paths_refuted"
   ],
   "note": "coordinates are integers in the model; with 100 kept paths or fewer the code raises (C50_few_paths_refuted)"
  },
  {
   "property": "C51",
   "status": "proved",
   "theorems": [
    "C51_ring_counts",
    "C51_well_defined",
    "C51_whole_dataset",
    "C51_empty_split_refuted"
   ],
   "note": "graph-tool and set iteration order are oracles; joblib is assumed to return results in order; an empty split raises (C51_empty_split_refuted)"
  },
  {
   "property": "C52",
   "status": "proved",
   "theorems": [
    "C52_infer",
    "C52_batch_size",
    "C52_shuffled",
    "C52_failure_rate",
    "C52_eval",
    "C52_accuracy",
    "C52_networks",
    "C52_embedding_networks",
    "C52_stored",
    "C52_mean_loss",
    "C52_mean_loss_refuted",
    "C52_empty_split_refuted"
   ],
   "note": "the reported mean loss is not covered by the property: it averages batches, so it depends on the batch size (C52_mean_loss_refuted) unless that divides the number of complexes (C52_mean_loss)"
  },
  {
   "property": "C53",
   "status": "proved",
   "theorems": [
    "C53_gin",
    "C53_ring_gin",
    "C53_ring_cin",
    "C53_ring_cin_no_layers",
    "C53_agnostic",
    "C53_agnostic_features",
    "C53_gin_isomorphic"
   ],
   "note": "evaluation mode; RingSparseCIN without layers raises (C53_ring_cin_no_layers)"
  },
  {
   "property": "C54",
   "status": "proved",
   "theorems": [
    "C54_receptive_field",
    "C54_graph"
   ],
   "note": "for the layer-by-layer specification that the convolutions are proved to implement (C02, C06, C53)"
  },
  {
   "property": "C55",
   "status": "proved",
   "theorems": [
    "C55_gin_solves",
    "C55_gin_too_shallow",
    "C55_cin_solves",
    "C55_no_coboundaries",
    "C55_two_layers"
   ],
   "note": "rows are integer vectors for the networks that solve the task (targets without negative entries, as generated); the negative parts hold for rows of any type.  run_ring_exp.py uses three layers and, by default, no coboundary messages: the default RingSparseCIN cannot solve the task on any of its ring sizes (C55_no_coboundaries)"
  },
  {
   "property": "C56",
   "status": "proved",
   "theorems": [
    "C56_colour_refinement_attained",
    "C56_power",
    "C56_rings_separate"
   ],
   "note": "exact integers as rows (float rounding is out of scope); the separating weights are functions of integers, i.e. the sub-networks are taken as arbitrary functions; the other direction is C47"
  },
  {
   "property": "C57",
   "status": "proved",
   "theorems": [
    "C57_epoch",
    "C57_used",
    "C57_curve",
    "C57_no_step",
    "C57_unused_irrelevant",
    "C57_unknown_task",
    "C57_one_ring_refuted"
   ],
   "note": "model, loss, gradients and optimiser are arbitrary functions on a state; logging is not modelled; losses and batches are stated with a table and an inductive relation of the specification; C57_one_ring_refuted: a batch whose members have exactly one ring altogether is never trained on"
  },
  {
   "property": "C58",
   "status": "proved",
   "theorems": [
    "C58_gin_bound",
    "C58_at_least_wl",
    "C58_at_least_gin",
    "C58_clique_lift",
    "C58_ring_lift",
    "C58_gin_blind",
    "C58_strict"
   ],
   "note": "exact integer rows for the separating network, arbitrary rows for GIN; weights of the separating network are arbitrary functions of integers; ring lifting with init_edges and init_rings on (SparseCIN needs features in every dimension)"
  },
  {
   "property": "C59",
   "status": "proved",
   "theorems": [
    "C59_clique_counts",
    "C59_ring_counts",
    "C59_regular_blind",
    "C59_strongly_regular"
   ],
   "note": "as for C58; ring lifting with init_edges and init_rings on and without edge attributes"
  },
  {
   "property": "C60",
   "status": "proved",
   "theorems": [
    "C60_message_arguments",
    "C60_update_arguments",
    "C60_output_rows",
    "C60_set_order",
    "C60_refines",
    "C60_layer_classes",
    "C60_cinpp_lower_messages",
    "C60_boundary_j_refuted",
    "C60_reverse_flow_refuted",
    "C60_zero_receivers_refuted"
   ],
   "note": "index tensors or None as adjacencies; the docstring is wrong about the boundary adjacency (C60_boundary_j_refuted), the reverse flow (C60_reverse_flow_refuted) and explicit sizes (n, 0) (C60_zero_receivers_refuted); a CIN++ that asked for lower messages would raise TypeError (C60_cinpp_lower_messages)"
  },
  {
   "property": "C61",
   "status": "proved",
   "theorems": [
    "C61_clique_lift",
    "C61_ring_lift",
    "C61_gin_special_case"
   ],
   "note": "evaluation mode; the sub-networks are arbitrary functions, in particular combine_nn may be the first projection; ring lifting with init_edges and init_rings on"
  },
  {
   "property": "C62",
   "status": "proved",
   "theorems": [
    "C62_no_downward_flow",
    "C62_no_downward_flow_cinpp",
    "C62_vertex_readout",
    "C62_hexagon"
   ],
   "note": "evaluation mode; ring lifting with init_edges and init_rings on"
  },
  {
   "property": "C63",
   "status": "proved",
   "theorems": [
    "C63_clique_union",
    "C63_ring_union",
    "C63_clique_predict",
    "C63_ring_predict"
   ],
   "note": "ring lifting with init_edges and init_rings on; either all graphs have edge attributes or none has (as in a dataset)"
  },
  {
   "property": "C64",
   "status": "proved",
   "theorems": [
    "C64_triangles",
    "C64_predict",
    "C64_larger_refuted"
   ],
   "note": "no edge attributes (the clique lifting has no such argument), init_edges and init_rings on"
  },
  {
   "property": "C65",
   "status": "proved",
   "theorems": [
    "C65_startable",
    "C65_validated_refuted",
    "C65_cluster_refuted"
   ],
   "note": "from parsed options to the start of the training loop; parsing itself, devices and seeds are not modelled; what ogb, the dimension of SR complexes and the number of features and tasks are come from arbitrary answers of the libraries"
  },
  {
   "property": "C66",
   "status": "proved",
   "theorems": [
    "C66_session",
    "C66_one_family",
    "C66_lower_adjacency_refuted",
    "C66_tasks_refuted"
   ],
   "note": "same model as C65; the constructors of the networks are reduced to the checks that can fail"
  },
  {
   "property": "C67",
   "status": "proved",
   "theorems": [
    "C67_folder",
    "C67_folder_refuted"
   ],
   "note": "os.path.join and str(int) modelled on strings"
  },
  {
   "property": "C68",
   "status": "proved",
   "theorems": [
    "C68_parse",
    "C68_arguments",
    "C68_tu",
    "C68_tu_only",
    "C68_mol",
    "C68_mol_folds",
    "C68_mol_only",
    "C68_ring",
    "C68_ring_only",
    "C68_sr",
    "C68_sr_only",
    "C68_tu_fold_refuted",
    "C68_tu_fold_ignored",
    "C68_tu_name_refuted",
    "C68_mol_seed_ignored",
    "C68_sr_ring_refuted"
   ],
   "note": "argparse of Python 3 with abbreviations; -h/--help and single-dash groups exit; int() and float() on texts are arbitrary functions that read decimal numbers"
  },
  {
   "property": "C69",
   "status": "proved",
   "theorems": [
    "C69_shipped",
    "C69_folders",
    "C69_folders_refuted"
   ],
   "note": "shell words split by hand; the runs are followed from the words to the start of the training loop (model of C65)"
  },
  {
   "property": "C70",
   "status": "proved",
   "theorems": [
    "C70_lower_redundant",
    "C70_simulated",
    "C70_clique_lift",
    "C70_ring_lift",
    "C70_recode",
    "C70_more_layers_needed"
   ],
   "note": "evaluation mode; exact integer rows with non-negative features for the simulating SparseCIN, whose sub-networks are functions of integers; arbitrary rows and encodings for the networks that it simulates; all complexes with lower adjacencies or all without"
  },
  {
   "property": "C71",
   "status": "proved",
   "theorems": [
    "C71_frozen",
    "C71_rearranged",
    "C71_guard",
    "C71_single_cell",
    "C71_no_norm",
    "C71_cellular_two_way",
    "C71_batch_dependence_refuted"
   ],
   "note": "SparseCIN, CIN++, CIN0 with dropout rate 0; statistics are arbitrary functions of the rows that ignore their order; an input without rows passes BatchNorm; CIN0 (which normalises over messages) needs symmetric adjacencies, which cellular complexes have; EdgeCIN0 and the embedding networks in training mode are not covered"
  },
  {
   "property": "C72",
   "status": "proved",
   "theorems": [
    "C72_plateau",
    "C72_earliest",
    "C72_latest",
    "C72_never",
    "C72_factor",
    "C72_step",
    "C72_step_zero",
    "C72_constant",
    "C72_defaults",
    "C72_ends",
    "C72_negative_refuted",
    "C72_tiny_minimum_refuted"
   ],
   "note": "the schedulers of torch are modelled with the defaults the code leaves (threshold 1e-4 relative, eps 1e-8, cooldown 0, min_lr 0) in exact arithmetic; scores are arbitrary"
  },
  {
   "property": "C73",
   "status": "proved",
   "theorems": [
    "C73_equitable",
    "C73_cliques",
    "C73_rings",
    "C73_clique_batch",
    "C73_ring_batch",
    "C73_strongly_regular",
    "C73_strongly_regular_rings",
    "C73_tetrahedra_needed",
    "C73_squares_suffice"
   ],
   "note": "evaluation mode, constant node features; that cliques or rings suffice is shown for the 4x4 Rook and Shrikhande graphs (exact integer rows), not for the other families"
  },
  {
   "property": "C74",
   "status": "proved",
   "theorems": [
    "C74_same_prediction",
    "C74_keys",
    "C74_key_names",
    "C74_batch",
    "C74_loader",
    "C74_embedding_same_prediction",
    "C74_embedding_batch",
    "C74_embedding_loader"
   ],
   "note": "evaluation mode; exact equality of rows instead of torch.allclose; features present as for C06 (all or none per dimension for embedding networks); RingSparseCIN, whose dictionary is of the same kind, is not covered"
  },
  {
   "property": "C75",
   "status": "proved",
   "theorems": [
    "C75_self_isomorphism",
    "C75_sparse_cin",
    "C75_baseline",
    "C75_ring_size_refuted"
   ],
   "note": "exact equality of rows instead of a distance of at most 0.01, and so nothing about the magnitudes of embeddings in floating point; no .g6 file may have the name of a permuted family; evaluation mode; the ring size of evaluate_sr_cwn_emb_mag.py having no effect is a finding"
  },
  {
   "property": "C76",
   "status": "proved",
   "theorems": [
    "C76_places",
    "C76_alike",
    "C76_numbers",
    "C76_leaves",
    "C76_predictions",
    "C76_follow",
    "C76_follow_features",
    "C76_follow_x_ignored",
    "C76_lossless_refuted",
    "C76_follow_order_refuted"
   ],
   "note": "graphs, tensors and floats are abstract; samples whose kinds differ at a place that both have (a string where another sample has a list) are modelled but not covered by the theorems; that unequal lists are cut, that features are not followed under the name x and that following needs the first complex to have the attribute are findings"
  },
  {
   "property": "C77",
   "status": "proved",
   "theorems": [
    "C77_rings",
    "C77_cliques",
    "C77_parts",
    "C77_more_rings",
    "C77_more_cliques"
   ],
   "note": "evaluation mode; exact rows (the separating SparseCIN works on integers); features are non-negative integers, and networks on other rows see any encoding of them; ring lifting with initialised edges and rings; 2L+2 layers are enough for L layers with lower adjacencies, not claimed to be needed"
  },
  {
   "property": "C78",
   "status": "proved",
   "theorems": [
    "C78_zinc",
    "C78_ogb",
    "C78_peptides",
    "C78_csl",
    "C78_zinc_renumbered",
    "C78_ogb_renumbered",
    "C78_csl_shape"
   ],
   "note": "evaluation mode; embedding networks with coboundary features (EmbedSparseCIN, OGBEmbedSparseCIN, CIN++); a row of labels of a multi-task set is one label; the normalisation of the labels of peptides-structural and pre_transform are not modelled; ZINC, OGB and peptides graphs with attributes (or without, where edge features are off) all of one width"
  },
  {
   "property": "C79",
   "status": "proved",
   "theorems": [
    "C79_bounded",
    "C79_ideal_test",
    "C79_test_blind",
    "C79_beyond",
    "C79_strongly_regular",
    "C79_not_bounded"
   ],
   "note": "cliques only (rings of bounded size are covered by C58 and C77 against the 1-dimensional test); hash functions of the test are separating for the bound and symmetric for the lower bound, C79_ideal_test gives one that is both"
  },
  {
   "property": "C80",
   "status": "proved",
   "theorems": [
    "C80_sparse",
    "C80_index_tensors",
    "C80_every_index",
    "C80_boundary_square",
    "C80_boundary_rectangular",
    "C80_mixed_kinds",
    "C80_reverse_flow",
    "C80_keyword_attributes",
    "C80_attributes_refuted"
   ],
   "note": "layers with the signatures of the project (OrientedConv excepted); torch_sparse storage and segment_csr are modelled, fused message_and_aggregate functions (implemented by no class) and batches of sparse matrices are not; refused boundary matrices and ignored attributes are findings"
  },
  {
   "property": "C81",
   "status": "proved",
   "theorems": [
    "C81_tags",
    "C81_degrees",
    "C81_cross_validation"
   ],
   "note": "evaluation mode; SparseCIN, CIN0, CIN++ and the like on features without edge attributes; with rings no node may list itself; as for C42 with degrees as tags the last node of every graph must have a neighbour; the files in between are read back unchanged; the stratified splitter of sklearn is any function that assigns each graph one of ten folds"
  },
  {
   "property": "C82",
   "status": "proved",
   "theorems": [
    "C82_cliques",
    "C82_rings",
    "C82_batch",
    "C82_lower_quadratic"
   ],
   "note": "messages are the columns of the index tensors that a layer uses (propagate computes one message per column, C25); time and memory of the libraries are not modelled"
  },
  {
   "property": "C83",
   "status": "proved",
   "theorems": [
    "C83_flow_experiment",
    "C83_orientations_irrelevant",
    "C83_ocean_experiment",
    "C83_ocean_orientations_irrelevant",
    "C83_flow_samples",
    "C83_ocean_samples",
    "C83_stale_file_refuted"
   ],
   "note": "evaluation mode; flow values become rows by any map that commutes with signs; the Delaunay triangulation and the rectangles are arbitrary; rejected walks restart at most a given number of times (a run that needs more, or never ends, is the case without a claim); the order of the entries of a sparse product and the random draws are arbitrary"
  },
  {
   "property": "C84",
   "status": "proved",
   "theorems": [
    "C84_sum_rounding",
    "C84_drift_small",
    "C84_sum_reordered",
    "C84_mean_rounding",
    "C84_max_exact",
    "C84_min_exact",
    "C84_integers_exact",
    "C84_stable_order",
    "C84_batch_bitwise",
    "C84_shuffle_bitwise",
    "C84_exact_order_independence_refuted",
    "C84_overflow_depends_on_order_refuted",
    "C84_renumbering_bits_refuted"
   ],
   "note": "uses the four standard library axioms of Coq's real numbers (DESIGN.md section 4); scatter adds in the order of the index, as on a CPU; not-a-numbers are one value; that a network maps each row alike whatever the batch is part of the model (matrix products are not broken down)"
  },
  {
   "property": "C85",
   "status": "proved",
   "theorems": [
    "C85_sparse_cin",
    "C85_sparse_cin_stale",
    "C85_cin0",
    "C85_cin0_stale",
    "C85_edge_cin0",
    "C85_edge_cin0_stale",
    "C85_dummy",
    "C85_mp_agnostic",
    "C85_edge_nets",
    "C85_embedding_nets",
    "C85_embedding_no_layers",
    "C85_no_rings",
    "C85_embed_gin",
    "C85_embed_gin_dim_refuted",
    "C85_ring_nets",
    "C85_baselines",
    "C85_other_width",
    "C85_one_column_accepted",
    "C85_other_width_refuted",
    "C85_lstm_refused"
   ],
   "note": "a matrix is its number of columns; the widths of torch modules and torch-geometric 1.6.3 convolutions are modelled from their documentation; the conditions in the statement are exact (a theorem gives the error when they fail, for EmbedGIN and the networks with features above their dimension)"
  },
  {
   "property": "C86",
   "status": "proved",
   "theorems": [
    "C86_graph_networks_reset",
    "C86_ring_gin_reset",
    "C86_embed_gin_reset",
    "C86_edge_networks_reset",
    "C86_parameter_free_networks_reset",
    "C86_levels_reset",
    "C86_cinpp_level_refuted",
    "C86_cellular_networks_refuted",
    "C86_module_list_refuted",
    "C86_no_layers_reset",
    "C86_ogb_encoders_skipped"
   ],
   "note": "modules are trees with named parameters; which torch and torch-geometric modules have the method, and that reset of torch-geometric 1.6.3 looks one level deep, are part of the model"
  },
  {
   "property": "C87",
   "status": "proved",
   "theorems": [
    "C87_training_outputs",
    "C87_evaluation",
    "C87_shared_statistics",
    "C87_own_statistics",
    "C87_bounds",
    "C87_tracks",
    "C87_shared_limit",
    "C87_shared_agrees",
    "C87_shared_refuted",
    "C87_own_limit"
   ],
   "note": "rational arithmetic instead of floats; for CIN0 the statistics are followed in the update network (those of the message networks are carried, their outputs are covered), for SparseCIN in the combining network; momentum 0.1 and the unbiased variance are the defaults of BatchNorm1d"
  },
  {
   "property": "C88",
   "status": "proved",
   "theorems": [
    "C88_summary",
    "C88_nan",
    "C88_test_report",
    "C88_unbiased",
    "C88_deviation_low",
    "C88_sr_summary",
    "C88_sr_std_err_refuted",
    "C88_median",
    "C88_tu_report",
    "C88_tu_variance",
    "C88_ring_lines",
    "C88_ring_one_seed",
    "C88_ring_no_seed",
    "C88_ring_raises"
   ],
   "note": "rational arithmetic; deviations are represented by their squares, and the statement about the deviation itself holds for every function whose square is at most the reported variance; distributions are lists of equally likely scores, independent runs all tuples over such a list; printing, file output and the summary of run_ring_exp.py are not modelled"
  },
  {
   "property": "C89",
   "status": "proved",
   "theorems": [
    "C89_eval",
    "C89_formula",
    "C89_rate",
    "C89_rate_one",
    "C89_unbiased",
    "C89_lin1_refuted",
    "C89_variance",
    "C89_less_noise",
    "C89_less_noise_refuted",
    "C89_lin1_affine",
    "C89_lin1_convex",
    "C89_position",
    "C89_gin_position",
    "C89_gin",
    "C89_cin0",
    "C89_gin_formula",
    "C89_cin0_formula",
    "C89_width"
   ],
   "note": "rational arithmetic, one row of a batch; the random generator is a tape of independent bits; the dropouts inside the message passing (after the embedding, in_dropout of OGBEmbedSparseCIN) are not modelled; the two refuted theorems are the negative parts of the statement (lin1 with relu; negative activations)"
  },
  {
   "property": "C90",
   "status": "proved",
   "theorems": [
    "C90_files",
    "C90_tags",
    "C90_degrees"
   ],
   "note": "the model of C81 for the complexes; the iteration order of sets of tags is one oracle for both loaders; as for C42 with degrees as tags the last node of every graph must have a neighbour; with rings no node may list itself; pickle is a faithful copy"
  }
 ]
}