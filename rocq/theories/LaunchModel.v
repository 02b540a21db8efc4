(** Model of how an experiment is configured and started: exp/parser.py:115-185
    [validate_args], exp/run_exp.py:20-358 [main] up to the training loop,
    data/data_loading.py:112-271 [load_dataset], [load_graph_dataset], the constructors of the
    dataset classes, the constructors of the networks and mp/nn.py.

    Simplifications.  Numeric hyperparameters that only reach torch (learning rate, dropout,
    batch size, workers, patience) are taken to be acceptable to torch and left out; [max_dim],
    [num_layers] and [emb_dim] are natural numbers; the drop rate is kept as "is it 0.0".  Raw
    files are present, data sets are not yet processed, every data set has a graph with an edge,
    and all graphs of a data set have node features of one width. *)
From Coq Require Import String Ascii List ZArith Lia Bool Decimal DecimalString.
From Verif Require Import Base.
Import ListNotations.
Open Scope string_scope.

(** Python's [s.startswith(p)]. *)
Definition startswith (s p : string) : bool := String.prefix p s.

(** Python's [s in l]. *)
Definition among (s : string) (l : list string) : bool := existsb (String.eqb s) l.

(** Python's [s.lower()] on ASCII text. *)
Definition lower_char (c : ascii) : ascii :=
  let n := nat_of_ascii c in
  if (65 <=? n)%nat && (n <=? 90)%nat then ascii_of_nat (n + 32) else c.
Fixpoint lower (s : string) : string :=
  match s with EmptyString => EmptyString | String c s' => String (lower_char c) (lower s') end.

(** exp/parser.py:8-111 [get_parser]: the options that decide whether and what is run. *)
Record args := mkArgs {
  a_dataset : string; a_model : string; a_task : string; a_metric : string; a_sched : string;
  a_norm : string; a_nonlin : string; a_readout : string; a_final : string; a_init : string;
  a_cob : string; a_train_orient : string; a_test_orient : string;
  a_jump : option string; a_fold : option Z; a_ring : option Z;
  a_max_dim : nat; a_layers : nat; a_emb : nat; a_seed : Z;
  a_result : string; a_exp : string;
  a_down : bool; a_minimize : bool; a_simple : bool; a_untrained : bool; a_edge : bool;
  a_tune : bool; a_drop0 : bool }.

Definition mol_names : list string :=
  ["MOLHIV"; "MOLPCBA"; "MOLTOX21"; "MOLTOXCAST"; "MOLMUV"; "MOLBACE"; "MOLBBBP"; "MOLCLINTOX";
   "MOLSIDER"; "MOLESOL"; "MOLFREESOLV"; "MOLLIPO"].

Definition gt3 (o : option Z) : bool := match o with Some k => (3 <? k)%Z | None => false end.

(** exp/parser.py:115-185  [validate_args]. *)
Definition validate_args (a : args) : result unit :=
  let ds := a_dataset a in
  let md := a_model a in
  if ds =? "CSL" then
    let* _ := assert_ (md =? "embed_sparse_cin") in
    let* _ := assert_ (a_task a =? "classification") in
    let* _ := assert_ (negb (a_minimize a)) in
    let* _ := assert_ (a_sched a =? "ReduceLROnPlateau") in
    let* _ := assert_ (a_metric a =? "accuracy") in
    let* _ := assert_ (isSome (a_fold a)) in
    let* _ := assert_ (negb (a_simple a)) in
    assert_ (a_norm a =? "ln")
  else if (ds =? "RING-TRANSFER") || (ds =? "RING-LOOKUP") then
    let* _ := assert_ ((md =? "ring_sparse_cin") || (md =? "gin_ring")) in
    let* _ := assert_ (a_task a =? "classification") in
    let* _ := assert_ (negb (a_minimize a)) in
    let* _ := assert_ (a_sched a =? "None") in
    let* _ := assert_ (a_metric a =? "accuracy") in
    let* _ := assert_ (negb (isSome (a_fold a))) in
    let* _ := assert_ (negb (a_simple a)) in
    let* _ := assert_ (gt3 (a_ring a)) in
    let* _ := if md =? "ring_sparse_cin" then assert_ (a_norm a =? "id") else Ok tt in
    if md =? "gin_ring" then assert_ (a_norm a =? "bn") else Ok tt
  else if startswith ds "ZINC" then
    let* _ := assert_ (startswith md "embed") in
    let* _ := if md =? "embed_cin++" then assert_ (a_down a) else Ok tt in
    let* _ := assert_ (a_task a =? "regression") in
    let* _ := assert_ (a_minimize a) in
    let* _ := assert_ (a_metric a =? "mae") in
    let* _ := assert_ (a_sched a =? "ReduceLROnPlateau") in
    assert_ (negb (a_simple a))
  else if among ds mol_names then
    let* _ := assert_ ((md =? "ogb_embed_sparse_cin") || (md =? "ogb_embed_cin++")) in
    let* _ := if md =? "ogb_embed_cin++" then assert_ (a_down a) else Ok tt in
    let* _ := assert_ (a_metric a =? "ogbg-" ++ lower ds) in
    let* _ := assert_ (negb (isSome (a_jump a))) in
    if among ds ["MOLESOL"; "MOLFREESOLV"; "MOLLIPO"] then
      let* _ := assert_ (a_task a =? "mse_regression") in
      assert_ (a_minimize a)
    else
      let* _ := assert_ (a_task a =? "bin_classification") in
      assert_ (negb (a_minimize a))
  else if startswith ds "sr" then
    let* _ := assert_ (among md ["sparse_cin"; "mp_agnostic"]) in
    let* _ := assert_ (a_metric a =? "isomorphism") in
    let* _ := assert_ (a_task a =? "isomorphism") in
    let* _ := assert_ (negb (isSome (a_jump a))) in
    let* _ := assert_ (a_drop0 a) in
    let* _ := assert_ (a_untrained a) in
    let* _ := assert_ (a_nonlin a =? "elu") in
    let* _ := assert_ (a_readout a =? "sum") in
    let* _ := assert_ (a_final a =? "sum") in
    assert_ (negb (a_simple a))
  else if (ds =? "FLOW") || (ds =? "OCEAN") then
    let* _ := assert_ ((md =? "edge_orient") || (md =? "edge_mpnn")) in
    let* _ := assert_ (a_metric a =? "accuracy") in
    let* _ := assert_ (a_task a =? "classification") in
    let* _ := assert_ (negb (isSome (a_jump a))) in
    let* _ := assert_ (a_drop0 a) in
    let* _ := assert_ (negb (a_untrained a)) in
    let* _ := assert_ (negb (a_simple a)) in
    assert_ (negb (a_minimize a))
  else Ok tt.

(** What is not determined by the options: facts about the raw data and the libraries. *)
Record world := mkWorld {
  w_width : nat;            (** columns of the node features of the stored complexes *)
  w_gwidth : nat;           (** columns of [graph_list[0].x] *)
  w_tasks : nat;            (** [dataset.num_tasks] of the OGB data set *)
  w_sr_dim : nat -> nat;    (** top dimension of the clique complexes of the sr graphs, per expansion dim *)
  w_flow : result unit;     (** do the random points of load_flow_dataset pass its asserts *)
  w_pep : result unit;      (** can the csv of load_pep_*_graph_dataset be read from [root]/raw *)
  w_ogb : string -> bool    (** does ogb's Evaluator know this name *) }.

(** The call that turns graphs into complexes: data/utils.py:275 (gudhi) or :501 (rings). *)
Inductive liftcall :=
| Cliques (expansion_dim : nat) (down : bool) (init : string)
| Rings (max_ring : Z) (down : bool) (init : string) (init_edges init_rings : bool)
| Given.  (** complexes not made by a lifting of graphs (FLOW, OCEAN, DUMMY, DUMMYM) *)

(** What [main] reads off a dataset object.  [i_tune]: the class has [get_tune_idx_split]. *)
Record dsinfo := mkDs {
  i_max_dim : nat; i_classes : option nat; i_node_types : option nat; i_edge_types : option nat;
  i_tasks : option nat; i_test : bool; i_tune : bool; i_complexes : bool; i_lift : liftcall }.

(** torch_scatter's [scatter]: the reductions it knows; data/utils.py:141-155 calls it for every
    data set whose graphs have edges. *)
Definition scatter_known (r : string) : bool :=
  among r ["sum"; "add"; "mul"; "mean"; "min"; "max"].

Definition check_init (init : string) : result unit :=
  if scatter_known init then Ok tt else Err ValueError.

(** data/utils.py:300-315 [get_rings]: [range(3, max_k+1)] needs a number. *)
Definition ring_size (r : option Z) : result Z := of_option TypeError r.

(** data/utils.py:275-293: [num_features] has [expansion_dim+1] entries and the complexes have
    edges whatever the expansion dimension. *)
Definition clique_lift (dim : nat) : result unit :=
  match dim with 0 => Err IndexError | S _ => Ok tt end.

(** data/datasets/sr.py:49-110  [SRDataset]; num_classes=16 comes from load_dataset. *)
Definition sr_dataset (w : world) (max_dim : nat) (ring : option Z) (init : string)
  : result dsinfo :=
  let* _ := assert_ (match ring with None => true | Some k => (3 <? k)%Z end) in
  match ring with
  | Some k =>
      let* _ := assert_ (Nat.eqb max_dim 2) in
      let* _ := check_init init in
      Ok (mkDs 2 (Some 16) None None None true false true (Rings k false init true true))
  | None =>
      let* _ := check_init init in
      let* _ := clique_lift max_dim in
      Ok (mkDs (w_sr_dim w max_dim) (Some 16) None None None true false true
            (Cliques max_dim false init))
  end.

(** data/tu_utils.py:229-230 and data/datasets/tu.py:57-68: [fold + 1] on None is a TypeError; the
    index files exist exactly for folds 0..9, other folds reach [get_fold_indices]' assert. *)
Definition tu_fold (fold : option Z) : result unit :=
  match fold with
  | None => Err TypeError
  | Some f => assert_ ((0 <=? f)%Z && (f <? 10)%Z)
  end.

(** data/datasets/tu.py:40-68, 104-124  [TUDataset]. *)
Definition tu_dataset (classes : nat) (max_dim : nat) (fold : option Z) (init : string)
    (ring : option Z) (down : bool) : result dsinfo :=
  let* _ := assert_ (match ring with None => true | Some k => (3 <? k)%Z end) in
  match ring with
  | Some k =>
      let* _ := assert_ (Nat.eqb max_dim 2) in
      let* _ := check_init init in
      let* _ := tu_fold fold in
      Ok (mkDs 2 (Some classes) None None None false true true (Rings k down init true true))
  | None =>
      let* _ := check_init init in
      let* _ := clique_lift max_dim in
      let* _ := tu_fold fold in
      Ok (mkDs max_dim (Some classes) None None None false true true (Cliques max_dim down init))
  end.

(** data/datasets/csl.py:17-51, 104-110  [CSLDataset]: lifted before the fold is checked;
    [0 <= None] is a TypeError. *)
Definition csl_dataset (ring fold : option Z) : result dsinfo :=
  let* k := ring_size ring in
  match fold with
  | None => Err TypeError
  | Some f =>
      let* _ := assert_ ((0 <=? f)%Z && (f <=? 4)%Z) in
      Ok (mkDs 2 (Some 10) (Some 1) (Some 1) None true false true (Rings k false "sum" true false))
  end.

(** data/datasets/zinc.py:12-30, 63-91  [ZincDataset]. *)
Definition zinc_dataset (ring : option Z) (down edge : bool) : result dsinfo :=
  let* k := ring_size ring in
  Ok (mkDs 2 (Some 1) (Some 28) (Some 4) None true false true (Rings k down "sum" edge false)).

(** data/datasets/ogb.py:12-26, 58-79  [OGBDataset]: no num_classes. *)
Definition ogb_dataset (w : world) (ring : option Z) (edge down : bool) (init : string)
  : result dsinfo :=
  let* k := ring_size ring in
  let* _ := check_init init in
  Ok (mkDs 2 None None None (Some (w_tasks w)) true false true (Rings k down init edge false)).

(** data/datasets/peptides_functional.py:50-86, 179-195 and peptides_structural.py: 10 and 11 tasks. *)
Definition pep_dataset (tasks : nat) (ring : option Z) (down : bool) (init : string)
  : result dsinfo :=
  let* k := ring_size ring in
  let* _ := check_init init in
  Ok (mkDs 2 (Some 1) (Some 9) (Some 3) (Some tasks) true false true (Rings k down init true false)).

(** data/datasets/ringtransfer.py:14-29, 60-66; ringlookup.py:15-27, 56-62: [nodes - 1] and
    [range(3, nodes+1)] need a number.  The test split is [idx[2]], which is None. *)
Definition ringtransfer_dataset (ring : option Z) : result dsinfo :=
  let* k := of_option TypeError ring in
  Ok (mkDs 2 (Some 5) None None None false false true (Rings k false "sum" true true)).
Definition ringlookup_dataset (ring : option Z) : result dsinfo :=
  let* k := of_option TypeError ring in
  Ok (mkDs 2 (Some (Z.to_nat (k - 1))) None None None false false true
        (Rings k false "sum" true true)).

(** data/datasets/flow_utils.py:271-279  [get_orient_matrix]. *)
Definition check_orient (o : string) : result unit :=
  if among o ["default"; "random"] then Ok tt else Err ValueError.

(** data/datasets/flow.py:13-37, flow_utils.py:282-337; ocean.py:16-41.  The items are cochains. *)
Definition flow_dataset (w : world) (train_orient test_orient : string) : result dsinfo :=
  let* _ := w_flow w in
  let* _ := check_orient train_orient in
  let* _ := check_orient test_orient in
  Ok (mkDs 1 (Some 2) None None None false false false Given).
Definition ocean_dataset (train_orient test_orient : string) : result dsinfo :=
  let* _ := check_orient train_orient in
  let* _ := check_orient test_orient in
  Ok (mkDs 1 (Some 2) None None None false false false Given).

(** data/datasets/dummy.py:10-17, 49-57. *)
Definition dummy_dataset : dsinfo := mkDs 3 (Some 2) None None None true false true Given.
Definition dummym_dataset : dsinfo := mkDs 2 (Some 2) None None None true false true Given.

(** data/datasets/cluster.py:14-26: data_loading.py:121 passes max_dim as [transform], so the
    dataset keeps max_dim=2; the class never sets [slices] nor [num_classes]. *)
Definition cluster_dataset : dsinfo :=
  mkDs 2 None None None None true false true (Cliques 2 false "sum").

(** data/data_loading.py:112-202  [load_dataset] with the keywords main passes. *)
Definition load_dataset (w : world) (a : args) : result dsinfo :=
  let name := a_dataset a in
  let tu classes down := tu_dataset classes (a_max_dim a) (a_fold a) (a_init a) (a_ring a) down in
  if startswith name "sr" then sr_dataset w (a_max_dim a) (a_ring a) (a_init a)
  else if name =? "CLUSTER" then Ok cluster_dataset
  else if name =? "IMDBBINARY" then tu 2 false
  else if name =? "IMDBMULTI" then tu 3 false
  else if name =? "REDDITBINARY" then tu 2 false
  else if name =? "REDDITMULTI5K" then tu 5 false
  else if name =? "PROTEINS" then tu 2 (a_down a)
  else if name =? "NCI1" then tu 2 (a_down a)
  else if name =? "NCI109" then tu 2 (a_down a)
  else if name =? "PTC" then tu 2 (a_down a)
  else if name =? "MUTAG" then tu 2 (a_down a)
  else if name =? "FLOW" then flow_dataset w (a_train_orient a) (a_test_orient a)
  else if name =? "OCEAN" then ocean_dataset (a_train_orient a) (a_test_orient a)
  else if name =? "RING-TRANSFER" then ringtransfer_dataset (a_ring a)
  else if name =? "RING-LOOKUP" then ringlookup_dataset (a_ring a)
  else if name =? "ZINC" then zinc_dataset (a_ring a) (a_down a) (a_edge a)
  else if name =? "ZINC-FULL" then zinc_dataset (a_ring a) (a_down a) (a_edge a)
  else if name =? "CSL" then csl_dataset (a_ring a) (a_fold a)
  else if among name mol_names then ogb_dataset w (a_ring a) (a_edge a) (a_down a) (a_init a)
  else if name =? "DUMMY" then Ok dummy_dataset
  else if name =? "DUMMYM" then Ok dummym_dataset
  else if name =? "PEPTIDES-F" then pep_dataset 10 (a_ring a) (a_down a) (a_init a)
  else if name =? "PEPTIDES-S" then pep_dataset 11 (a_ring a) (a_down a) (a_init a)
  else Err NotImplementedError.

(** data/data_loading.py:205-271  [load_graph_dataset]: whether there is a test split, and the
    number of classes (None for sr). *)
Definition load_graph_dataset (w : world) (a : args) : result (bool * option nat) :=
  let name := a_dataset a in
  let tu classes := let* _ := tu_fold (a_fold a) in Ok (false, Some classes) in
  if startswith name "sr" then Ok (true, None)
  else if name =? "IMDBBINARY" then tu 2
  else if name =? "IMDBMULTI" then tu 3
  else if name =? "REDDITBINARY" then tu 2
  else if name =? "REDDITMULTI5K" then tu 5
  else if name =? "PROTEINS" then tu 2
  else if name =? "NCI1" then tu 2
  else if name =? "NCI109" then tu 2
  else if name =? "PTC" then tu 2
  else if name =? "MUTAG" then tu 2
  else if name =? "ZINC" then Ok (true, Some 1)
  else if name =? "PEPTIDES-F" then let* _ := w_pep w in Ok (true, Some 2)
  else if name =? "PEPTIDES-S" then let* _ := w_pep w in Ok (true, Some 2)
  else if name =? "ZINC-FULL" then Ok (true, Some 1)
  else if among name mol_names then Ok (true, Some (w_tasks w))
  else if name =? "RING-TRANSFER" then
    (* load_ring_transfer_dataset (ringtransfer.py:89) has no parameter num_classes *)
    Err TypeError
  else if name =? "RING-LOOKUP" then
    let* k := of_option TypeError (a_ring a) in
    Ok (false, Some (Z.to_nat (k - 1)))
  else Err NotImplementedError.

(** exp/train_utils.py:149-165  [Evaluator.__init__]; ogb's Evaluator raises a ValueError on names it
    does not know. *)
Definition evaluator (w : world) (metric : string) : result unit :=
  if metric =? "isomorphism" then Ok tt
  else if metric =? "accuracy" then Ok tt
  else if metric =? "ap" then Ok tt
  else if metric =? "mae" then Ok tt
  else if startswith metric "ogbg-mol" then
    if w_ogb w metric then Ok tt else Err ValueError
  else Err NotImplementedError.

(** mp/nn.py:7-27, 30-36, 39-47. *)
Definition get_nonlinearity (s : string) : result unit :=
  if s =? "relu" then Ok tt
  else if s =? "elu" then Ok tt
  else if s =? "id" then Ok tt
  else if s =? "sigmoid" then Ok tt
  else if s =? "tanh" then Ok tt
  else Err NotImplementedError.
Definition get_pooling_fn (s : string) : result unit :=
  if s =? "sum" then Ok tt
  else if s =? "mean" then Ok tt
  else Err NotImplementedError.
Definition get_graph_norm (s : string) : result unit :=
  if s =? "bn" then Ok tt
  else if s =? "ln" then Ok tt
  else if s =? "id" then Ok tt
  else Err ValueError.

(** torch_geometric's [JumpingKnowledge(mode)] without channels: the mode is lowered and checked,
    and the literal mode 'lstm' needs channels. *)
Definition jumping (j : option string) : result unit :=
  match j with
  | None => Ok tt
  | Some m =>
      let* _ := assert_ (among (lower m) ["cat"; "lstm"; "max"]) in
      assert_ (negb (m =? "lstm"))
  end.

(** The network that is built: class, input width (None for the embedding networks), output width,
    number of dimensions it convolves, whether it uses coboundaries, whether it embeds edges. *)
Record net := mkNet {
  n_class : string; n_in : option nat; n_out : nat; n_dim : nat; n_cob : bool; n_edge : bool }.

(** [Linear(hidden, num_classes)]: a missing number of classes is a TypeError. *)
Definition linear_out (o : option nat) : result nat := of_option TypeError o.
(** Reading an attribute the dataset class does not set. *)
Definition attr (o : option nat) : result nat := of_option AttributeError o.

(** data/datasets/dataset.py:86-99: reading the width of the node features; iterating over the
    cochains of FLOW and OCEAN fails: a cochain has no [cochains]. *)
Definition num_features0 (w : world) (d : dsinfo) : result nat :=
  if i_complexes d then Ok (w_width w) else Err AttributeError.

(** The attribute reads of the embedding networks: run_exp.py:229-291. *)
Definition embed_reads (d : dsinfo) : result unit :=
  let* _ := attr (i_node_types d) in
  let* _ := attr (i_edge_types d) in Ok tt.

(** exp/run_exp.py:101-328 for models on complexes, with the constructors mp/models.py:20-56,
    120-161, 263-284, 430-439, 481-507, 554-580, 624-636; mp/molec_models.py:20-72, 172-199,
    210-262, 359-384, 394-440, 514-552; mp/ring_exp_models.py:18-38.  [None] as class count is passed
    on to [Linear].  The result is None when the name is not one of them. *)
Definition build_net (w : world) (a : args) (d : dsinfo) : option (result net) :=
  let md := a_model a in
  let cob := lower (a_cob a) =? "true" in
  let nl := get_nonlinearity (a_nonlin a) in
  let pool := get_pooling_fn (a_readout a) in
  let norm := get_graph_norm (a_norm a) in
  let jump := jumping (a_jump a) in
  (* the nonlinearity of the edge networks is looked up once per layer *)
  let nl_layers := match a_layers a with 0 => Ok tt | S _ => nl end in
  if md =? "cin" then Some (
    let* f := num_features0 w d in
    let* _ := pool in let* _ := nl in let* _ := jump in
    let* o := linear_out (i_classes d) in
    Ok (mkNet "CIN0" (Some f) o (i_max_dim d) false false))
  else if md =? "sparse_cin" then Some (
    let* f := num_features0 w d in
    let* _ := pool in let* _ := norm in let* _ := nl in let* _ := jump in
    let* o := linear_out (i_classes d) in
    Ok (mkNet "SparseCIN" (Some f) o (i_max_dim d) cob false))
  else if md =? "cin++" then Some (
    let* f := num_features0 w d in
    let* _ := pool in let* _ := norm in let* _ := nl in let* _ := jump in
    let* o := linear_out (i_classes d) in
    Ok (mkNet "CINpp" (Some f) o (i_max_dim d) cob false))
  else if md =? "ring_sparse_cin" then Some (
    let* f := num_features0 w d in
    let* _ := nl in let* _ := norm in
    let* o := linear_out (i_classes d) in
    Ok (mkNet "RingSparseCIN" (Some f) o (i_max_dim d) cob false))
  else if md =? "mp_agnostic" then Some (
    let* f := num_features0 w d in
    let* _ := nl in
    let* o := linear_out (i_classes d) in
    Ok (mkNet "MessagePassingAgnostic" (Some f) o (i_max_dim d) false false))
  else if md =? "dummy" then Some (
    let* f := num_features0 w d in
    let* _ := pool in
    let* o := linear_out (i_classes d) in
    Ok (mkNet "Dummy" (Some f) o (i_max_dim d) false false))
  else if md =? "edge_orient" then Some (
    let* _ := pool in let* _ := nl_layers in
    let* o := linear_out (i_classes d) in
    Ok (mkNet "EdgeOrient" (Some 1) o 1 false false))
  else if md =? "edge_mpnn" then Some (
    let* _ := pool in let* _ := nl_layers in
    let* o := linear_out (i_classes d) in
    Ok (mkNet "EdgeMPNN" (Some 1) o 1 false false))
  else if md =? "embed_sparse_cin" then Some (
    let* _ := embed_reads d in
    let* _ := norm in let* _ := nl in let* _ := jump in
    let* o := linear_out (i_classes d) in
    Ok (mkNet "EmbedSparseCIN" None o (i_max_dim d) cob (a_edge a)))
  else if md =? "embed_cin++" then Some (
    let* _ := embed_reads d in
    let* _ := norm in let* _ := nl in let* _ := jump in
    let* o := linear_out (i_classes d) in
    Ok (mkNet "EmbedCINpp" None o (i_max_dim d) cob (a_edge a)))
  else if md =? "embed_sparse_cin_no_rings" then Some (
    let* _ := embed_reads d in
    let* _ := norm in let* _ := nl in
    let* o := linear_out (i_classes d) in
    Ok (mkNet "EmbedSparseCINNoRings" None o 1 cob (a_edge a)))
  else if md =? "embed_gin" then Some (
    let* _ := embed_reads d in
    let* _ := pool in let* _ := nl in
    let* o := linear_out (i_classes d) in
    Ok (mkNet "EmbedGIN" None o 1 false (a_edge a)))
  else if md =? "ogb_embed_sparse_cin" then Some (
    let* o := attr (i_tasks d) in
    let* _ := nl in let* _ := norm in let* _ := jump in
    Ok (mkNet "OGBEmbedSparseCIN" None o (i_max_dim d) cob (a_edge a)))
  else if md =? "ogb_embed_cin++" then Some (
    let* o := attr (i_tasks d) in
    let* _ := nl in let* _ := norm in let* _ := jump in
    Ok (mkNet "OGBEmbedCINpp" None o (i_max_dim d) cob (a_edge a)))
  else None.

(** exp/run_exp.py:166-191 for the graph networks; mp/graph_models.py:34-63, 207-250,
    mp/ring_exp_models.py:77-108. *)
Definition build_gin (a : args) (feats : nat) (classes : option nat) : option (result net) :=
  let md := a_model a in
  let nl := get_nonlinearity (a_nonlin a) in
  let pool := get_pooling_fn (a_readout a) in
  if md =? "gin" then Some (
    let* _ := pool in let* _ := nl in
    let* o := linear_out classes in
    Ok (mkNet "GIN0" (Some feats) o 0 false false))
  else if md =? "gin_ring" then Some (
    let* _ := nl in let* _ := get_graph_norm (a_norm a) in
    let* o := linear_out classes in
    Ok (mkNet "RingGIN" (Some feats) o 0 false false))
  else if md =? "gin_jk" then Some (
    let* _ := pool in let* _ := nl in
    let* o := linear_out classes in
    Ok (mkNet "GINWithJK" (Some feats) o 0 false false))
  else None.

(** data/datasets/dataset.py:146-150, 364-372: [get_split] reads [self.slices], which
    ClusterDataset leaves None; a missing split raises. *)
Definition readable (a : args) : result unit :=
  if a_dataset a =? "CLUSTER" then Err TypeError else Ok tt.

(** exp/run_exp.py:85-99: --tune calls [get_tune_idx_split], which TUDataset defines by raising and
    the other classes do not define. *)
Definition splits (a : args) (d : dsinfo) : result unit :=
  if a_tune a then Err (if i_tune d then NotImplementedError else AttributeError)
  else readable a.

(** exp/run_exp.py:345-358. *)
Definition scheduler (a : args) : result (option string) :=
  if a_sched a =? "ReduceLROnPlateau" then
    Ok (Some (if a_minimize a then "min" else "max"))
  else if a_sched a =? "StepLR" then Ok (Some "step")
  else if a_sched a =? "None" then Ok None
  else Err NotImplementedError.

(** What the training loop starts with. *)
Record session := mkSession {
  s_net : net; s_sched : option string; s_test : bool; s_lift : option liftcall }.

(** exp/run_exp.py:20-358  [main] up to the training loop. *)
Definition setup (w : world) (a : args) : result session :=
  let* _ := if a_task a =? "isomorphism" then assert_ (startswith (a_dataset a) "sr") else Ok tt in
  if startswith (a_model a) "gin" then
    let* (test, classes) := load_graph_dataset w a in
    let sr := startswith (a_dataset a) "sr" in
    let feats := if sr then 1%nat else w_gwidth w in
    let classes := if sr then Some (a_emb a) else classes in
    let* _ := evaluator w (a_metric a) in
    let* n := match build_gin a feats classes with Some r => r | None => Err ValueError end in
    let* s := scheduler a in
    Ok (mkSession n s test None)
  else
    let* d := load_dataset w a in
    let* _ := splits a d in
    let* _ := evaluator w (a_metric a) in
    let* n := match build_net w a d with Some r => r | None => Err ValueError end in
    let* s := scheduler a in
    Ok (mkSession n s (i_test d) (Some (i_lift d))).

(** exp/run_exp.py:480-486: the entry point. *)
Definition run_exp (w : world) (a : args) : result session :=
  let* _ := validate_args a in setup w a.

(** posixpath.join of two parts. *)
Definition ends_with_slash (s : string) : bool :=
  match String.get (String.length s - 1) s with Some c => Ascii.eqb c "/" | None => false end.
Definition path_join (p q : string) : string :=
  if startswith q "/" then q
  else if (p =? "") || ends_with_slash p then p ++ q
  else p ++ "/" ++ q.

(** [f'{z}'] for an integer. *)
Definition show (z : Z) : string := NilEmpty.string_of_int (Z.to_int z).

(** exp/run_exp.py:45-49: where the results are written. *)
Definition result_folder (a : args) : string :=
  let p := path_join (path_join (a_result a) (a_dataset a ++ "-" ++ a_exp a)) ("seed-" ++ show (a_seed a)) in
  match a_fold a with None => p | Some f => path_join p ("fold-" ++ show f) end.
