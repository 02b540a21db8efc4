(** Which experiments can be started, as a table: families of data sets, the networks each family
    can be run with, and what each family and each network ask of the options.  Nothing here
    mentions the order in which the code checks anything, nor the model's functions; only the
    records that describe the options and the outcome are shared. *)
From Coq Require Import String List ZArith.
From Verif Require Import Base LaunchModel.
Import ListNotations.
Open Scope string_scope.

Inductive family :=
| TU (classes : nat) (lower : bool)  (** graph kernels benchmarks; [lower]: lower adjacencies available *)
| SR | CSL | Transfer | Lookup | Zinc | Mol (cost : bool) | Flow | Ocean
| Toy (dim : nat) | Pep (tasks : nat).

(** The data sets by name; strongly regular graphs are all names beginning with "sr". *)
Definition catalogue : list (string * family) :=
  [("IMDBBINARY", TU 2 false); ("IMDBMULTI", TU 3 false); ("REDDITBINARY", TU 2 false);
   ("REDDITMULTI5K", TU 5 false); ("PROTEINS", TU 2 true); ("NCI1", TU 2 true);
   ("NCI109", TU 2 true); ("PTC", TU 2 true); ("MUTAG", TU 2 true);
   ("CSL", CSL); ("RING-TRANSFER", Transfer); ("RING-LOOKUP", Lookup);
   ("ZINC", Zinc); ("ZINC-FULL", Zinc);
   ("MOLHIV", Mol false); ("MOLPCBA", Mol false); ("MOLTOX21", Mol false);
   ("MOLTOXCAST", Mol false); ("MOLMUV", Mol false); ("MOLBACE", Mol false);
   ("MOLBBBP", Mol false); ("MOLCLINTOX", Mol false); ("MOLSIDER", Mol false);
   ("MOLESOL", Mol true); ("MOLFREESOLV", Mol true); ("MOLLIPO", Mol true);
   ("FLOW", Flow); ("OCEAN", Ocean); ("DUMMY", Toy 3); ("DUMMYM", Toy 2);
   ("PEPTIDES-F", Pep 10); ("PEPTIDES-S", Pep 11)].

Definition belongs (name : string) (f : family) : Prop :=
  In (name, f) catalogue \/ (f = SR /\ exists rest, name = "sr" ++ rest).

(** The name of the metric of an ogb data set. *)
Definition metrics_of_ogb : list (string * string) :=
  [("MOLHIV", "ogbg-molhiv"); ("MOLPCBA", "ogbg-molpcba"); ("MOLTOX21", "ogbg-moltox21");
   ("MOLTOXCAST", "ogbg-moltoxcast"); ("MOLMUV", "ogbg-molmuv"); ("MOLBACE", "ogbg-molbace");
   ("MOLBBBP", "ogbg-molbbbp"); ("MOLCLINTOX", "ogbg-molclintox"); ("MOLSIDER", "ogbg-molsider");
   ("MOLESOL", "ogbg-molesol"); ("MOLFREESOLV", "ogbg-molfreesolv"); ("MOLLIPO", "ogbg-mollipo")].

(** Networks on complexes that read node features and a number of classes, and those on graphs. *)
Definition plain_nets : list string :=
  ["cin"; "sparse_cin"; "cin++"; "ring_sparse_cin"; "mp_agnostic"; "dummy"; "edge_orient"; "edge_mpnn"].
Definition graph_nets : list string := ["gin"; "gin_ring"; "gin_jk"].
Definition embed_nets : list string :=
  ["embed_sparse_cin"; "embed_cin++"; "embed_sparse_cin_no_rings"; "embed_gin"].
Definition ogb_nets : list string := ["ogb_embed_sparse_cin"; "ogb_embed_cin++"].

Definition nets_of (f : family) : list string :=
  match f with
  | TU _ _ => plain_nets ++ graph_nets
  | SR => ["sparse_cin"; "mp_agnostic"]
  | CSL => ["embed_sparse_cin"]
  | Transfer => ["ring_sparse_cin"]
  | Lookup => ["ring_sparse_cin"; "gin_ring"]
  | Zinc => embed_nets
  | Mol _ => ogb_nets
  | Flow | Ocean => ["edge_orient"; "edge_mpnn"]
  | Toy _ => plain_nets
  | Pep _ => plain_nets ++ graph_nets ++ embed_nets ++ ogb_nets
  end%list.

Definition reductions : list string := ["sum"; "add"; "mul"; "mean"; "min"; "max"].

Definition fold_below (n : Z) (a : args) : Prop := exists k, a_fold a = Some k /\ (0 <= k < n)%Z.

(** A complex can be made of the graphs: by rings up to a size above 3 and then in two
    dimensions, or by cliques in at least one dimension. *)
Definition rings_or_cliques (a : args) : Prop :=
  In (a_init a) reductions /\
  ((exists k, a_ring a = Some k /\ (3 < k)%Z /\ a_max_dim a = 2) \/
   (a_ring a = None /\ 1 <= a_max_dim a)).

Definition on_graphs (a : args) : Prop := In (a_model a) graph_nets.

(** What the data set asks for. *)
Definition data_ok (w : world) (a : args) (f : family) : Prop :=
  match f with
  | TU _ _ => fold_below 10 a /\ (~ on_graphs a -> rings_or_cliques a)
  | SR => rings_or_cliques a
  | CSL => fold_below 5 a /\ a_ring a <> None
  | Transfer | Lookup => exists k, a_ring a = Some k /\ (3 < k)%Z
  | Zinc => a_ring a <> None
  | Mol _ => a_ring a <> None /\ In (a_init a) reductions
  | Flow => w_flow w = Ok tt /\ In (a_train_orient a) ["default"; "random"] /\
            In (a_test_orient a) ["default"; "random"]
  | Ocean => In (a_train_orient a) ["default"; "random"] /\
             In (a_test_orient a) ["default"; "random"]
  | Toy _ => True
  | Pep _ => (on_graphs a -> w_pep w = Ok tt) /\
             (~ on_graphs a -> a_ring a <> None /\ In (a_init a) reductions)
  end.

(** [s] is the word [t] (in small letters) in any mixture of capital and small letters. *)
Fixpoint spells (s t : string) : Prop :=
  match s, t with
  | EmptyString, EmptyString => True
  | String c s, String d t =>
      (c = d \/ Ascii.nat_of_ascii c + 32 = Ascii.nat_of_ascii d) /\ spells s t
  | _, _ => False
  end.

(** What the network asks for. *)
Definition net_ok (a : args) : Prop :=
  (In (a_model a) ["cin"; "sparse_cin"; "cin++"; "dummy"; "edge_orient"; "edge_mpnn"; "embed_gin";
                   "gin"; "gin_jk"] -> In (a_readout a) ["sum"; "mean"]) /\
  (In (a_model a) ["sparse_cin"; "cin++"; "ring_sparse_cin"; "gin_ring"; "embed_sparse_cin";
                   "embed_cin++"; "embed_sparse_cin_no_rings"; "ogb_embed_sparse_cin";
                   "ogb_embed_cin++"] -> In (a_norm a) ["bn"; "ln"; "id"]) /\
  (In (a_model a) ["cin"; "sparse_cin"; "cin++"; "embed_sparse_cin"; "embed_cin++";
                   "ogb_embed_sparse_cin"; "ogb_embed_cin++"] ->
   forall m, a_jump a = Some m ->
     (spells m "cat" \/ spells m "lstm" \/ spells m "max") /\ m <> "lstm") /\
  (a_model a <> "dummy" ->
   (In (a_model a) ["edge_orient"; "edge_mpnn"] -> a_layers a <> 0) ->
   In (a_nonlin a) ["relu"; "elu"; "id"; "sigmoid"; "tanh"]) /\
  (~ on_graphs a -> a_tune a = false).

(** What the sanity checks of the options insist on. *)
Definition policy (a : args) (f : family) : Prop :=
  match f with
  | TU _ _ | Toy _ | Pep _ => True
  | CSL => a_task a = "classification" /\ a_minimize a = false /\ a_metric a = "accuracy" /\
           a_sched a = "ReduceLROnPlateau" /\ a_simple a = false /\ a_norm a = "ln"
  | Transfer | Lookup =>
      a_task a = "classification" /\ a_minimize a = false /\ a_metric a = "accuracy" /\
      a_sched a = "None" /\ a_simple a = false /\ a_fold a = None /\
      a_norm a = (if a_model a =? "gin_ring" then "bn" else "id")
  | Zinc => a_task a = "regression" /\ a_minimize a = true /\ a_metric a = "mae" /\
            a_sched a = "ReduceLROnPlateau" /\ a_simple a = false /\
            (a_model a = "embed_cin++" -> a_down a = true)
  | Mol cost =>
      In (a_dataset a, a_metric a) metrics_of_ogb /\ a_jump a = None /\ a_minimize a = cost /\
      a_task a = (if cost then "mse_regression" else "bin_classification") /\
      (a_model a = "ogb_embed_cin++" -> a_down a = true)
  | SR => a_task a = "isomorphism" /\ a_metric a = "isomorphism" /\ a_jump a = None /\
          a_drop0 a = true /\ a_untrained a = true /\ a_nonlin a = "elu" /\ a_readout a = "sum" /\
          a_final a = "sum" /\ a_simple a = false
  | Flow | Ocean =>
      a_task a = "classification" /\ a_minimize a = false /\ a_metric a = "accuracy" /\
      a_jump a = None /\ a_drop0 a = true /\ a_untrained a = false /\ a_simple a = false
  end.

(** What every experiment asks for: a known metric and scheduler, and the isomorphism task only on
    strongly regular graphs. *)
Definition common (w : world) (a : args) (f : family) : Prop :=
  (In (a_metric a) ["isomorphism"; "accuracy"; "ap"; "mae"] \/
   ((exists rest, a_metric a = "ogbg-mol" ++ rest) /\ w_ogb w (a_metric a) = true)) /\
  In (a_sched a) ["ReduceLROnPlateau"; "StepLR"; "None"] /\
  (a_task a = "isomorphism" -> f = SR).

Definition startable (w : world) (a : args) : Prop :=
  exists f, belongs (a_dataset a) f /\ In (a_model a) (nets_of f) /\
    data_ok w a f /\ net_ok a /\ policy a f /\ common w a f.

(** How the complexes of an experiment are made. *)
Definition made_by (a : args) (f : family) : liftcall :=
  let tu down := match a_ring a with
                 | Some k => Rings k down (a_init a) true true
                 | None => Cliques (a_max_dim a) down (a_init a) end in
  let rings down init edges higher :=
    match a_ring a with Some k => Rings k down init edges higher | None => Given end in
  match f with
  | TU _ l => tu (if l then a_down a else false)
  | SR => tu false
  | CSL => rings false "sum" true false
  | Transfer | Lookup => rings false "sum" true true
  | Zinc => rings (a_down a) "sum" (a_edge a) false
  | Mol _ => rings (a_down a) (a_init a) (a_edge a) false
  | Pep _ => rings (a_down a) (a_init a) true false
  | Flow | Ocean | Toy _ => Given
  end.

(** How many numbers the network outputs per graph (or per target node). *)
Definition outputs (w : world) (a : args) (f : family) : nat :=
  match f with
  | TU c _ => c
  | SR => 16
  | CSL => 10
  | Transfer => 5
  | Lookup => match a_ring a with Some k => Z.to_nat (k - 1) | None => 0 end
  | Zinc => 1
  | Mol _ => w_tasks w
  | Flow | Ocean | Toy _ => 2
  | Pep t => if in_dec string_dec (a_model a) ogb_nets then t
             else if in_dec string_dec (a_model a) graph_nets then 2 else 1
  end.

(** The class that implements each network. *)
Definition class_of : list (string * string) :=
  [("cin", "CIN0"); ("sparse_cin", "SparseCIN"); ("cin++", "CINpp"); ("ring_sparse_cin", "RingSparseCIN");
   ("mp_agnostic", "MessagePassingAgnostic"); ("dummy", "Dummy"); ("edge_orient", "EdgeOrient");
   ("edge_mpnn", "EdgeMPNN"); ("gin", "GIN0"); ("gin_ring", "RingGIN"); ("gin_jk", "GINWithJK");
   ("embed_sparse_cin", "EmbedSparseCIN"); ("embed_cin++", "EmbedCINpp");
   ("embed_sparse_cin_no_rings", "EmbedSparseCINNoRings"); ("embed_gin", "EmbedGIN");
   ("ogb_embed_sparse_cin", "OGBEmbedSparseCIN"); ("ogb_embed_cin++", "OGBEmbedCINpp")].

(** The dimension of the complexes, and how many of the dimensions a network works on. *)
Definition top_dim (w : world) (a : args) (f : family) : nat :=
  match f with
  | TU _ _ => a_max_dim a
  | SR => match a_ring a with Some _ => 2 | None => w_sr_dim w (a_max_dim a) end
  | Toy n => n
  | Flow | Ocean => 1
  | _ => 2
  end.
Definition works_on (w : world) (a : args) (f : family) : nat :=
  if in_dec string_dec (a_model a) graph_nets then 0
  else if in_dec string_dec (a_model a)
            ["embed_sparse_cin_no_rings"; "embed_gin"; "edge_orient"; "edge_mpnn"] then 1
  else top_dim w a f.

(** Networks that read --use_coboundaries, and families with a test split. *)
Definition cob_nets : list string :=
  ["sparse_cin"; "cin++"; "ring_sparse_cin"; "embed_sparse_cin"; "embed_cin++";
   "embed_sparse_cin_no_rings"; "ogb_embed_sparse_cin"; "ogb_embed_cin++"].
Definition tested (f : family) : bool :=
  match f with TU _ _ | Transfer | Lookup | Flow | Ocean => false | _ => true end.
Definition schedule (a : args) : list (string * option string) :=
  [("ReduceLROnPlateau", Some (if a_minimize a then "min" else "max")); ("StepLR", Some "step");
   ("None", None)].
