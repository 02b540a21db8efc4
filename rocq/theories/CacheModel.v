(** Model of the paths under which processed datasets are stored (data/datasets/*.py).  The common
    root directory is left out.  Paths are strings as Python's f-strings produce them. *)
From Coq Require Import String Ascii List Arith Bool Decimal DecimalString.
Import ListNotations.
Open Scope string_scope.

(** [f'{n}'] for a non-negative integer. *)
Definition dec (n : nat) : string := NilEmpty.string_of_uint (Nat.to_uint n).

(** data/datasets/dataset.py:80-84  [ComplexDataset.processed_dir].  [init] is the text that
    [f'{self._init_method}'] gives ("None" for None). *)
Definition base_dir (cellular : bool) (max_dim : nat) (init : string) : string :=
  (if cellular then "cell_" else "") ++ "complex_dim" ++ dec max_dim ++ "_" ++ init.

Definition rings (r : nat) : string := "_" ++ dec r ++ "rings".
Definition flag (b : bool) (s : string) : string := if b then s else "".

(** ** Options that reach the stored content, and the path of the first processed file *)

(** data/datasets/sr.py:48-80, with [self.max_dim] the dimension found by [process] (104-106). *)
Record sr_opts := mkSR {
  sr_name : string; sr_max_dim : nat; sr_init : string; sr_down : bool; sr_ring : option nat }.
Definition sr_path (o : sr_opts) : string :=
  base_dir (match sr_ring o with Some _ => true | None => false end) (sr_max_dim o) (sr_init o) ++
  match sr_ring o with Some r => rings r | None => "" end ++
  flag (sr_down o) "_down_adj" ++ "/" ++ sr_name o ++ "_complex_list.pt".

(** data/datasets/tu.py:36-87. *)
Record tu_opts := mkTU {
  tu_name : string; tu_max_dim : nat; tu_degree : bool; tu_init : string; tu_down : bool;
  tu_ring : option nat }.
Definition tu_path (o : tu_opts) : string :=
  base_dir (match tu_ring o with Some _ => true | None => false end) (tu_max_dim o) (tu_init o) ++
  match tu_ring o with Some r => rings r | None => "" end ++
  flag (tu_down o) "_down_adj" ++ "/" ++ tu_name o ++ "_complex_list.pt".

(** data/datasets/zinc.py:12-23, 34-37, 101-108; the init_method of the base class stays None. *)
Record zinc_opts := mkZinc { z_ring : nat; z_edges : bool; z_subset : bool; z_down : bool }.
Definition zinc_path (o : zinc_opts) : string :=
  base_dir true 2 "None" ++ flag (negb (z_subset o)) "_full" ++ rings (z_ring o) ++
  flag (z_edges o) "-E" ++ "/ZINC_complex.pt".

(** data/datasets/ogb.py:12-45. *)
Record ogb_opts := mkOGB {
  o_name : string; o_ring : nat; o_edges : bool; o_init : string; o_down : bool; o_simple : bool }.
Definition ogb_path (o : ogb_opts) : string :=
  base_dir true 2 (o_init o) ++ rings (o_ring o) ++ flag (o_edges o) "-E" ++
  flag (o_simple o) "-S" ++ "/" ++ o_name o ++ "_complex.pt".

(** data/datasets/peptides_functional.py:49-100, peptides_structural.py:51-102
    ([_use_edge_features] is True). *)
Record pep_opts := mkPep { p_ring : nat; p_init : string; p_down : bool }.
Definition pep_path (name : string) (o : pep_opts) : string :=
  base_dir true 2 (p_init o) ++ rings (p_ring o) ++ "-E" ++ "/" ++ name ++ "_complex.pt".

(** data/datasets/csl.py:17-26, 55-57, 112-117. *)
Record csl_opts := mkCSL { csl_ring : nat; csl_init : string }.
Definition csl_path (o : csl_opts) : string :=
  base_dir true 2 (csl_init o) ++ rings (csl_ring o) ++ "/complexes.pt".

(** data/datasets/flow.py:13-48. *)
Record flow_opts := mkFlow {
  f_name : string; f_points : nat; f_train : nat; f_val : nat; f_torient : string; f_vorient : string }.
Definition flow_path (o : flow_opts) : string :=
  "flow" ++ dec (f_points o) ++ "_orient_" ++ f_torient o ++ "_" ++ f_vorient o ++ "/" ++
  f_name o ++ "_complex_list.pkl".

(** data/datasets/ocean.py:17-58. *)
Record ocean_opts := mkOcean { oc_name : string; oc_torient : string; oc_vorient : string }.
Definition ocean_path (o : ocean_opts) : string :=
  "complex_" ++ oc_torient o ++ "_" ++ oc_vorient o ++ "/train_" ++ oc_name o ++ "_complex_list.pkl".

(** data/datasets/ringtransfer.py:14-38. *)
Record transfer_opts := mkTransfer { t_nodes : nat; t_train : nat; t_test : nat }.
Definition transfer_path (o : transfer_opts) : string := "complex/ringtree-n" ++ dec (t_nodes o) ++ ".pkl".

(** data/datasets/ringlookup.py:15-38. *)
Definition lookup_path (nodes : nat) : string := "complex/ringlookup-n" ++ dec nodes ++ ".pkl".

(** data/datasets/dummy.py:44-66. *)
Definition dummym_path (remove_2feats : bool) : string :=
  base_dir true 2 "None" ++ "/" ++ "DUMMYM_complex_list" ++ flag remove_2feats "_removed_2feats" ++ ".pt".

(** data/datasets/cluster.py:14-36 (the class never passes include_down_adj). *)
Definition cluster_path (max_dim : nat) : string := base_dir false max_dim "None" ++ "/complex_train.pkl".
