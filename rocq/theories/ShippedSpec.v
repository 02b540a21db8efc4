(** What the shipped commands are for. *)
From Coq Require Import String List ZArith QArith DecimalString.
From Verif Require Import Base LaunchModel CommandModel CommandSpec ShippedModel.
Import ListNotations.
Open Scope string_scope.

(** Python reads the decimal fractions the commands contain. *)
Definition fractions (e : env) : Prop :=
  forall t q, In (t, q) [("0.0", 0); ("0.5", 1 # 2); ("0.15", 3 # 20); ("0.001", 1 # 1000); ("0.0001", 1 # 10000);
                         ("5e-4", 1 # 2000); ("1e-6", 1 # 1000000); ("5", 5); ("15", 15); ("20", 20)] ->
  e_float e t = Some q.

(** What the shell script is called with. *)
Definition suits (e : env) (k : parameter) (p : string) (size : Z) : Prop :=
  match k with
  | NoParameter => True
  | RingSize => arglike e p /\ e_int e p = Some size /\ (3 < size)%Z
  | Nonlinearity => In p ["relu"; "elu"; "id"; "sigmoid"; "tanh"]
  end.

Definition numeral (z : Z) : string := NilEmpty.string_of_int (Z.to_int z).

(** File, number of runs, network, folder (under the folder of results), given the ring size. *)
Definition purpose (size : Z) : list (string * nat * string * string) :=
  [("cin++-molhiv-small.sh", 10, "OGBEmbedCINpp", "MOLHIV-cin++-molhiv-small");
   ("cin++-molhiv.sh", 10, "OGBEmbedCINpp", "MOLHIV-cin++-molhiv");
   ("cin++-nci109.sh", 10, "CINpp", "NCI109-cin++-nci109");
   ("cin++-pep-f.sh", 4, "OGBEmbedCINpp", "PEPTIDES-F-cwn-pep-f-500k");
   ("cin++-pep-s.sh", 4, "OGBEmbedCINpp", "PEPTIDES-S-cwn-pep-s-500k");
   ("cin++-zinc-500k.sh", 10, "EmbedCINpp", "ZINC-cin++-zinc-500k");
   ("cin++-zinc-small.sh", 10, "EmbedCINpp", "ZINC-cin++-zinc");
   ("cin++-zinc.sh", 10, "EmbedCINpp", "ZINC-cin++-zinc");
   ("cwn-csl.sh", 100, "EmbedSparseCIN", "CSL-cwn-csl");
   ("cwn-molhiv-small.sh", 10, "OGBEmbedSparseCIN", "MOLHIV-cwn-molhiv-small");
   ("cwn-molhiv.sh", 10, "OGBEmbedSparseCIN", "MOLHIV-cwn-molhiv");
   ("cwn-nci109.sh", 10, "SparseCIN", "NCI109-cwn-nci109");
   ("cwn-sr-base.sh", 45, "MessagePassingAgnostic", "SR-cwn-sr-base-" ++ numeral size);
   ("cwn-sr.sh", 45, "SparseCIN", "SR-cwn-sr-" ++ numeral size);
   ("cwn-zinc-full-small.sh", 4, "EmbedSparseCIN", "ZINC-FULL-cwn-zinc-full-small");
   ("cwn-zinc-full.sh", 4, "EmbedSparseCIN", "ZINC-FULL-cwn-zinc-full");
   ("cwn-zinc-small.sh", 10, "EmbedSparseCIN", "ZINC-cwn-zinc-small");
   ("cwn-zinc.sh", 10, "EmbedSparseCIN", "ZINC-cwn-zinc");
   ("gnn-inv-flow.sh", 5, "EdgeMPNN", "FLOW-flow_gnn_inv");
   ("gnn-inv-ocean.sh", 5, "EdgeMPNN", "OCEAN-ocean_gnn_inv");
   ("mpsn-flow.sh", 5, "EdgeOrient", "FLOW-flow_mpsn");
   ("mpsn-ocean.sh", 5, "EdgeOrient", "OCEAN-ocean_mpsn");
   ("mpsn-redditb.sh", 10, "SparseCIN", "REDDITBINARY-mpsn-redditb");
   ("mpsn-sr-base.sh", 90, "MessagePassingAgnostic", "SR-mpsn-sr-base");
   ("mpsn-sr.sh", 90, "SparseCIN", "SR-mpsn-sr")]%nat.
