(** The commands the repository ships: exp/scripts/*.sh, as the words bash passes to python.  [p] is
    the parameter "$1" of the shell script. *)
From Coq Require Import String List.
From Verif Require Import Base CommandModel.
Import ListNotations.
Open Scope string_scope.

Inductive script := Mol | TU | SR.
Inductive parameter := NoParameter | RingSize | Nonlinearity.

(** python -m exp.run_mol_exp, exp.run_tu_exp, exp.run_sr_exp. *)
Definition start (e : env) (s : script) : list string -> result (list space) :=
  match s with Mol => mol_script e | TU => tu_runs e | SR => sr_script e end.

Definition shipped : list (string * script * parameter * (string -> list string)) :=
  [
   (* exp/scripts/cin++-molhiv-small.sh:3-34 *)
   ("cin++-molhiv-small.sh", Mol, NoParameter,
    fun _ =>
      ["--device"; "0"; "--start_seed"; "0"; "--stop_seed"; "9"; "--exp_name"; "cin++-molhiv-small";
       "--dataset"; "MOLHIV"; "--model"; "ogb_embed_cin++"; "--include_down_adj"; "--use_coboundaries";
       "True"; "--indrop_rate"; "0.0"; "--drop_rate"; "0.5"; "--graph_norm"; "bn"; "--drop_position";
       "lin2"; "--nonlinearity"; "relu"; "--readout"; "mean"; "--final_readout"; "sum"; "--lr"; "0.0001";
       "--lr_scheduler"; "None"; "--num_layers"; "2"; "--emb_dim"; "48"; "--batch_size"; "128"; "--epochs";
       "150"; "--num_workers"; "2"; "--preproc_jobs"; "32"; "--task_type"; "bin_classification";
       "--eval_metric"; "ogbg-molhiv"; "--max_dim"; "2"; "--max_ring_size"; "6"; "--init_method"; "sum";
       "--train_eval_period"; "10"; "--use_edge_features"; "--dump_curves"]);
   (* exp/scripts/cin++-molhiv.sh:3-34 *)
   ("cin++-molhiv.sh", Mol, NoParameter,
    fun _ =>
      ["--device"; "0"; "--start_seed"; "0"; "--stop_seed"; "9"; "--exp_name"; "cin++-molhiv"; "--dataset";
       "MOLHIV"; "--model"; "ogb_embed_cin++"; "--include_down_adj"; "--use_coboundaries"; "True";
       "--indrop_rate"; "0.0"; "--drop_rate"; "0.5"; "--graph_norm"; "bn"; "--drop_position"; "lin2";
       "--nonlinearity"; "relu"; "--readout"; "mean"; "--final_readout"; "sum"; "--lr"; "0.0001";
       "--lr_scheduler"; "None"; "--num_layers"; "2"; "--emb_dim"; "64"; "--batch_size"; "128"; "--epochs";
       "150"; "--num_workers"; "2"; "--preproc_jobs"; "32"; "--task_type"; "bin_classification";
       "--eval_metric"; "ogbg-molhiv"; "--max_dim"; "2"; "--max_ring_size"; "6"; "--init_method"; "sum";
       "--train_eval_period"; "10"; "--use_edge_features"; "--dump_curves"]);
   (* exp/scripts/cin++-nci109.sh:3-32 *)
   ("cin++-nci109.sh", TU, NoParameter,
    fun _ =>
      ["--device"; "0"; "--exp_name"; "cin++-nci109"; "--dataset"; "NCI109"; "--train_eval_period"; "50";
       "--epochs"; "150"; "--batch_size"; "32"; "--drop_rate"; "0.0"; "--drop_position"; "lin2";
       "--emb_dim"; "64"; "--max_dim"; "2"; "--final_readout"; "sum"; "--init_method"; "mean";
       "--jump_mode"; "cat"; "--lr"; "0.001"; "--graph_norm"; "bn"; "--model"; "cin++";
       "--include_down_adj"; "--nonlinearity"; "relu"; "--num_layers"; "4"; "--readout"; "sum";
       "--max_ring_size"; "6"; "--task_type"; "classification"; "--eval_metric"; "accuracy";
       "--lr_scheduler"; "StepLR"; "--lr_scheduler_decay_rate"; "0.5"; "--lr_scheduler_decay_steps"; "20";
       "--use_coboundaries"; "True"; "--dump_curves"; "--preproc_jobs"; "4"]);
   (* exp/scripts/cin++-pep-f.sh:3-35 *)
   ("cin++-pep-f.sh", Mol, NoParameter,
    fun _ =>
      ["--device"; "0"; "--start_seed"; "0"; "--stop_seed"; "3"; "--exp_name"; "cwn-pep-f-500k";
       "--dataset"; "PEPTIDES-F"; "--model"; "ogb_embed_cin++"; "--include_down_adj"; "--use_coboundaries";
       "True"; "--indrop_rate"; "0.0"; "--drop_rate"; "0.15"; "--graph_norm"; "bn"; "--drop_position";
       "lin2"; "--nonlinearity"; "relu"; "--readout"; "sum"; "--final_readout"; "sum"; "--lr"; "0.001";
       "--num_layers"; "3"; "--emb_dim"; "64"; "--batch_size"; "128"; "--epochs"; "1000"; "--num_workers";
       "0"; "--preproc_jobs"; "32"; "--task_type"; "bin_classification"; "--eval_metric"; "ap";
       "--max_dim"; "2"; "--max_ring_size"; "8"; "--lr_scheduler"; "ReduceLROnPlateau"; "--init_method";
       "sum"; "--train_eval_period"; "10"; "--use_edge_features"; "--lr_scheduler_patience"; "15";
       "--dump_curves"]);
   (* exp/scripts/cin++-pep-s.sh:3-37 *)
   ("cin++-pep-s.sh", Mol, NoParameter,
    fun _ =>
      ["--device"; "0"; "--start_seed"; "0"; "--stop_seed"; "3"; "--exp_name"; "cwn-pep-s-500k";
       "--dataset"; "PEPTIDES-S"; "--model"; "ogb_embed_cin++"; "--include_down_adj"; "--use_coboundaries";
       "True"; "--indrop_rate"; "0.0"; "--drop_rate"; "0.0"; "--graph_norm"; "bn"; "--drop_position";
       "lin2"; "--nonlinearity"; "relu"; "--readout"; "mean"; "--final_readout"; "sum"; "--lr"; "0.001";
       "--num_layers"; "3"; "--emb_dim"; "64"; "--batch_size"; "128"; "--epochs"; "1000"; "--num_workers";
       "0"; "--preproc_jobs"; "32"; "--task_type"; "regression"; "--eval_metric"; "mae"; "--max_dim"; "2";
       "--max_ring_size"; "8"; "--lr_scheduler"; "ReduceLROnPlateau"; "--init_method"; "sum"; "--minimize";
       "--early_stop"; "--train_eval_period"; "10"; "--use_edge_features"; "--lr_scheduler_patience"; "20";
       "--dump_curves"]);
   (* exp/scripts/cin++-zinc-500k.sh:3-35 *)
   ("cin++-zinc-500k.sh", Mol, NoParameter,
    fun _ =>
      ["--device"; "0"; "--start_seed"; "0"; "--stop_seed"; "9"; "--exp_name"; "cin++-zinc-500k";
       "--dataset"; "ZINC"; "--train_eval_period"; "20"; "--epochs"; "1000"; "--batch_size"; "128";
       "--drop_rate"; "0.0"; "--drop_position"; "lin2"; "--emb_dim"; "64"; "--max_dim"; "2";
       "--final_readout"; "sum"; "--init_method"; "sum"; "--lr"; "0.001"; "--graph_norm"; "bn"; "--model";
       "embed_cin++"; "--include_down_adj"; "--nonlinearity"; "relu"; "--num_layers"; "3"; "--readout";
       "sum"; "--max_ring_size"; "18"; "--task_type"; "regression"; "--eval_metric"; "mae"; "--minimize";
       "--lr_scheduler"; "ReduceLROnPlateau"; "--use_coboundaries"; "True"; "--use_edge_features";
       "--early_stop"; "--lr_scheduler_patience"; "20"; "--dump_curves"; "--preproc_jobs"; "32"]);
   (* exp/scripts/cin++-zinc-small.sh:3-35 *)
   ("cin++-zinc-small.sh", Mol, NoParameter,
    fun _ =>
      ["--device"; "0"; "--start_seed"; "0"; "--stop_seed"; "9"; "--exp_name"; "cin++-zinc"; "--dataset";
       "ZINC"; "--train_eval_period"; "20"; "--epochs"; "1000"; "--batch_size"; "128"; "--drop_rate";
       "0.0"; "--drop_position"; "lin2"; "--emb_dim"; "48"; "--max_dim"; "2"; "--final_readout"; "sum";
       "--init_method"; "sum"; "--lr"; "0.001"; "--graph_norm"; "bn"; "--model"; "embed_cin++";
       "--include_down_adj"; "--nonlinearity"; "relu"; "--num_layers"; "2"; "--readout"; "sum";
       "--max_ring_size"; "18"; "--task_type"; "regression"; "--eval_metric"; "mae"; "--minimize";
       "--lr_scheduler"; "ReduceLROnPlateau"; "--use_coboundaries"; "True"; "--use_edge_features";
       "--early_stop"; "--lr_scheduler_patience"; "20"; "--dump_curves"; "--preproc_jobs"; "32"]);
   (* exp/scripts/cin++-zinc.sh:3-35 *)
   ("cin++-zinc.sh", Mol, NoParameter,
    fun _ =>
      ["--device"; "0"; "--start_seed"; "0"; "--stop_seed"; "9"; "--exp_name"; "cin++-zinc"; "--dataset";
       "ZINC"; "--train_eval_period"; "20"; "--epochs"; "1000"; "--batch_size"; "128"; "--drop_rate";
       "0.0"; "--drop_position"; "lin2"; "--emb_dim"; "128"; "--max_dim"; "2"; "--final_readout"; "sum";
       "--init_method"; "sum"; "--lr"; "0.001"; "--graph_norm"; "bn"; "--model"; "embed_cin++";
       "--include_down_adj"; "--nonlinearity"; "relu"; "--num_layers"; "4"; "--readout"; "sum";
       "--max_ring_size"; "18"; "--task_type"; "regression"; "--eval_metric"; "mae"; "--minimize";
       "--lr_scheduler"; "ReduceLROnPlateau"; "--use_coboundaries"; "True"; "--use_edge_features";
       "--early_stop"; "--lr_scheduler_patience"; "20"; "--dump_curves"; "--preproc_jobs"; "32"]);
   (* exp/scripts/cwn-csl.sh:3-32 *)
   ("cwn-csl.sh", Mol, NoParameter,
    fun _ =>
      ["--start_seed"; "0"; "--stop_seed"; "19"; "--folds"; "5"; "--exp_name=cwn-csl"; "--dataset"; "CSL";
       "--train_eval_period"; "25"; "--epochs"; "300"; "--batch_size"; "12"; "--drop_rate"; "0.0";
       "--graph_norm"; "ln"; "--drop_position"; "lin2"; "--emb_dim"; "160"; "--max_dim"; "2";
       "--final_readout"; "sum"; "--init_method"; "sum"; "--lr"; "5e-4"; "--model"; "embed_sparse_cin";
       "--nonlinearity"; "relu"; "--num_layers"; "3"; "--readout"; "mean"; "--max_ring_size=8";
       "--lr_scheduler=ReduceLROnPlateau"; "--lr_scheduler_min"; "1e-6"; "--lr_scheduler_patience"; "20";
       "--early_stop"; "--use_edge_features"; "--device=0"; "--use_coboundaries"; "True"; "--preproc_jobs";
       "32"]);
   (* exp/scripts/cwn-molhiv-small.sh:3-33 *)
   ("cwn-molhiv-small.sh", Mol, NoParameter,
    fun _ =>
      ["--device"; "0"; "--start_seed"; "0"; "--stop_seed"; "9"; "--exp_name"; "cwn-molhiv-small";
       "--dataset"; "MOLHIV"; "--model"; "ogb_embed_sparse_cin"; "--use_coboundaries"; "True";
       "--indrop_rate"; "0.0"; "--drop_rate"; "0.5"; "--graph_norm"; "bn"; "--drop_position"; "lin2";
       "--nonlinearity"; "relu"; "--readout"; "mean"; "--final_readout"; "sum"; "--lr"; "0.0001";
       "--lr_scheduler"; "None"; "--num_layers"; "2"; "--emb_dim"; "48"; "--batch_size"; "128"; "--epochs";
       "150"; "--num_workers"; "2"; "--preproc_jobs"; "32"; "--task_type"; "bin_classification";
       "--eval_metric"; "ogbg-molhiv"; "--max_dim"; "2"; "--max_ring_size"; "6"; "--init_method"; "sum";
       "--train_eval_period"; "10"; "--use_edge_features"; "--dump_curves"]);
   (* exp/scripts/cwn-molhiv.sh:3-33 *)
   ("cwn-molhiv.sh", Mol, NoParameter,
    fun _ =>
      ["--device"; "0"; "--start_seed"; "0"; "--stop_seed"; "9"; "--exp_name"; "cwn-molhiv"; "--dataset";
       "MOLHIV"; "--model"; "ogb_embed_sparse_cin"; "--use_coboundaries"; "True"; "--indrop_rate"; "0.0";
       "--drop_rate"; "0.5"; "--graph_norm"; "bn"; "--drop_position"; "lin2"; "--nonlinearity"; "relu";
       "--readout"; "mean"; "--final_readout"; "sum"; "--lr"; "0.0001"; "--lr_scheduler"; "None";
       "--num_layers"; "2"; "--emb_dim"; "64"; "--batch_size"; "128"; "--epochs"; "150"; "--num_workers";
       "2"; "--preproc_jobs"; "32"; "--task_type"; "bin_classification"; "--eval_metric"; "ogbg-molhiv";
       "--max_dim"; "2"; "--max_ring_size"; "6"; "--init_method"; "sum"; "--train_eval_period"; "10";
       "--use_edge_features"; "--dump_curves"]);
   (* exp/scripts/cwn-nci109.sh:3-31 *)
   ("cwn-nci109.sh", TU, NoParameter,
    fun _ =>
      ["--device"; "0"; "--exp_name"; "cwn-nci109"; "--dataset"; "NCI109"; "--train_eval_period"; "50";
       "--epochs"; "150"; "--batch_size"; "32"; "--drop_rate"; "0.0"; "--drop_position"; "lin2";
       "--emb_dim"; "64"; "--max_dim"; "2"; "--final_readout"; "sum"; "--init_method"; "mean";
       "--jump_mode"; "cat"; "--lr"; "0.001"; "--graph_norm"; "bn"; "--model"; "sparse_cin";
       "--nonlinearity"; "relu"; "--num_layers"; "4"; "--readout"; "sum"; "--max_ring_size"; "6";
       "--task_type"; "classification"; "--eval_metric"; "accuracy"; "--lr_scheduler"; "StepLR";
       "--lr_scheduler_decay_rate"; "0.5"; "--lr_scheduler_decay_steps"; "20"; "--use_coboundaries";
       "True"; "--dump_curves"; "--preproc_jobs"; "4"]);
   (* exp/scripts/cwn-sr-base.sh:3-23 *)
   ("cwn-sr-base.sh", SR, RingSize,
    fun p =>
      ["--start_seed"; "0"; "--stop_seed"; "4"; "--device"; "0"; "--exp_name"; "cwn-sr-base"; "--model";
       "mp_agnostic"; "--drop_rate"; "0.0"; "--graph_norm"; "id"; "--nonlinearity"; "elu"; "--readout";
       "sum"; "--final_readout"; "sum"; "--lr_scheduler"; "None"; "--emb_dim"; "256"; "--batch_size"; "8";
       "--num_workers"; "16"; "--task_type"; "isomorphism"; "--eval_metric"; "isomorphism";
       "--max_ring_size"; p; "--init_method"; "sum"; "--preproc_jobs"; "64"; "--untrained"]);
   (* exp/scripts/cwn-sr.sh:3-25 *)
   ("cwn-sr.sh", SR, RingSize,
    fun p =>
      ["--start_seed"; "0"; "--stop_seed"; "4"; "--device"; "0"; "--exp_name"; "cwn-sr"; "--model";
       "sparse_cin"; "--use_coboundaries"; "True"; "--drop_rate"; "0.0"; "--graph_norm"; "id";
       "--nonlinearity"; "elu"; "--readout"; "sum"; "--final_readout"; "sum"; "--lr_scheduler"; "None";
       "--num_layers"; "3"; "--emb_dim"; "16"; "--batch_size"; "8"; "--num_workers"; "16"; "--task_type";
       "isomorphism"; "--eval_metric"; "isomorphism"; "--max_ring_size"; p; "--init_method"; "sum";
       "--preproc_jobs"; "64"; "--untrained"]);
   (* exp/scripts/cwn-zinc-full-small.sh:3-34 *)
   ("cwn-zinc-full-small.sh", Mol, NoParameter,
    fun _ =>
      ["--device"; "0"; "--start_seed"; "0"; "--stop_seed"; "3"; "--exp_name"; "cwn-zinc-full-small";
       "--dataset"; "ZINC-FULL"; "--train_eval_period"; "25"; "--epochs"; "150"; "--batch_size"; "128";
       "--drop_rate"; "0.0"; "--drop_position"; "lin2"; "--emb_dim"; "48"; "--max_dim"; "2";
       "--final_readout"; "sum"; "--init_method"; "sum"; "--lr"; "0.001"; "--graph_norm"; "bn"; "--model";
       "embed_sparse_cin"; "--nonlinearity"; "relu"; "--num_layers"; "2"; "--readout"; "sum";
       "--max_ring_size"; "18"; "--task_type"; "regression"; "--eval_metric"; "mae"; "--minimize";
       "--lr_scheduler"; "ReduceLROnPlateau"; "--use_coboundaries"; "True"; "--use_edge_features";
       "--early_stop"; "--lr_scheduler_patience"; "5"; "--dump_curves"; "--preproc_jobs"; "32"]);
   (* exp/scripts/cwn-zinc-full.sh:3-34 *)
   ("cwn-zinc-full.sh", Mol, NoParameter,
    fun _ =>
      ["--device"; "0"; "--start_seed"; "0"; "--stop_seed"; "3"; "--exp_name"; "cwn-zinc-full";
       "--dataset"; "ZINC-FULL"; "--train_eval_period"; "25"; "--epochs"; "150"; "--batch_size"; "128";
       "--drop_rate"; "0.0"; "--drop_position"; "lin2"; "--emb_dim"; "128"; "--max_dim"; "2";
       "--final_readout"; "sum"; "--init_method"; "sum"; "--lr"; "0.001"; "--graph_norm"; "bn"; "--model";
       "embed_sparse_cin"; "--nonlinearity"; "relu"; "--num_layers"; "4"; "--readout"; "sum";
       "--max_ring_size"; "18"; "--task_type"; "regression"; "--eval_metric"; "mae"; "--minimize";
       "--lr_scheduler"; "ReduceLROnPlateau"; "--use_coboundaries"; "True"; "--use_edge_features";
       "--early_stop"; "--lr_scheduler_patience"; "5"; "--dump_curves"; "--preproc_jobs"; "32"]);
   (* exp/scripts/cwn-zinc-small.sh:3-34 *)
   ("cwn-zinc-small.sh", Mol, NoParameter,
    fun _ =>
      ["--device"; "0"; "--start_seed"; "0"; "--stop_seed"; "9"; "--exp_name"; "cwn-zinc-small";
       "--dataset"; "ZINC"; "--train_eval_period"; "20"; "--epochs"; "1000"; "--batch_size"; "128";
       "--drop_rate"; "0.0"; "--drop_position"; "lin2"; "--emb_dim"; "48"; "--max_dim"; "2";
       "--final_readout"; "sum"; "--init_method"; "sum"; "--lr"; "0.001"; "--graph_norm"; "bn"; "--model";
       "embed_sparse_cin"; "--nonlinearity"; "relu"; "--num_layers"; "2"; "--readout"; "sum";
       "--max_ring_size"; "18"; "--task_type"; "regression"; "--eval_metric"; "mae"; "--minimize";
       "--lr_scheduler"; "ReduceLROnPlateau"; "--use_coboundaries"; "True"; "--use_edge_features";
       "--early_stop"; "--lr_scheduler_patience"; "20"; "--dump_curves"; "--preproc_jobs"; "32"]);
   (* exp/scripts/cwn-zinc.sh:3-34 *)
   ("cwn-zinc.sh", Mol, NoParameter,
    fun _ =>
      ["--device"; "0"; "--start_seed"; "0"; "--stop_seed"; "9"; "--exp_name"; "cwn-zinc"; "--dataset";
       "ZINC"; "--train_eval_period"; "20"; "--epochs"; "1000"; "--batch_size"; "128"; "--drop_rate";
       "0.0"; "--drop_position"; "lin2"; "--emb_dim"; "128"; "--max_dim"; "2"; "--final_readout"; "sum";
       "--init_method"; "sum"; "--lr"; "0.001"; "--graph_norm"; "bn"; "--model"; "embed_sparse_cin";
       "--nonlinearity"; "relu"; "--num_layers"; "4"; "--readout"; "sum"; "--max_ring_size"; "18";
       "--task_type"; "regression"; "--eval_metric"; "mae"; "--minimize"; "--lr_scheduler";
       "ReduceLROnPlateau"; "--use_coboundaries"; "True"; "--use_edge_features"; "--early_stop";
       "--lr_scheduler_patience"; "20"; "--dump_curves"; "--preproc_jobs"; "32"]);
   (* exp/scripts/gnn-inv-flow.sh:3-20 *)
   ("gnn-inv-flow.sh", Mol, NoParameter,
    fun _ =>
      ["--stop_seed"; "4"; "--epochs"; "100"; "--dataset"; "FLOW"; "--model"; "edge_mpnn"; "--num_layers";
       "4"; "--emb_dim"; "64"; "--lr"; "0.001"; "--batch_size=64"; "--flow_points"; "1000";
       "--preproc_jobs"; "32"; "--test_orient"; "random"; "--nonlinearity"; "relu"; "--drop_rate"; "0.0";
       "--lr_scheduler_decay_steps"; "20"; "--exp_name"; "flow_gnn_inv"; "--dump_curves";
       "--fully_orient_invar"]);
   (* exp/scripts/gnn-inv-ocean.sh:3-19 *)
   ("gnn-inv-ocean.sh", Mol, NoParameter,
    fun _ =>
      ["--stop_seed"; "4"; "--epochs"; "250"; "--dataset"; "OCEAN"; "--model"; "edge_mpnn"; "--num_layers";
       "4"; "--emb_dim"; "64"; "--lr"; "0.001"; "--batch_size=64"; "--preproc_jobs"; "1"; "--test_orient";
       "random"; "--nonlinearity"; "relu"; "--drop_rate"; "0.0"; "--lr_scheduler_decay_steps"; "50";
       "--exp_name"; "ocean_gnn_inv"; "--dump_curves"; "--fully_orient_invar"]);
   (* exp/scripts/mpsn-flow.sh:3-19 *)
   ("mpsn-flow.sh", Mol, Nonlinearity,
    fun p =>
      ["--stop_seed"; "4"; "--epochs"; "100"; "--dataset"; "FLOW"; "--model"; "edge_orient";
       "--num_layers"; "4"; "--emb_dim"; "64"; "--lr"; "0.001"; "--batch_size=64"; "--flow_points"; "1000";
       "--preproc_jobs"; "32"; "--test_orient"; "random"; "--nonlinearity"; p; "--drop_rate"; "0.0";
       "--lr_scheduler_decay_steps"; "20"; "--exp_name"; "flow_mpsn"; "--dump_curves"]);
   (* exp/scripts/mpsn-ocean.sh:3-18 *)
   ("mpsn-ocean.sh", Mol, Nonlinearity,
    fun p =>
      ["--stop_seed"; "4"; "--epochs"; "250"; "--dataset"; "OCEAN"; "--model"; "edge_orient";
       "--num_layers"; "4"; "--emb_dim"; "64"; "--lr"; "0.001"; "--batch_size=64"; "--preproc_jobs"; "2";
       "--test_orient"; "random"; "--nonlinearity"; p; "--drop_rate"; "0.0"; "--lr_scheduler_decay_steps";
       "50"; "--exp_name"; "ocean_mpsn"; "--dump_curves"]);
   (* exp/scripts/mpsn-redditb.sh:3-30 *)
   ("mpsn-redditb.sh", TU, NoParameter,
    fun _ =>
      ["--device"; "0"; "--exp_name"; "mpsn-redditb"; "--dataset"; "REDDITBINARY"; "--train_eval_period";
       "50"; "--epochs"; "200"; "--batch_size"; "32"; "--drop_rate"; "0.0"; "--drop_position";
       "final_readout"; "--emb_dim"; "64"; "--max_dim"; "2"; "--final_readout"; "sum"; "--init_method";
       "mean"; "--jump_mode"; "cat"; "--lr"; "0.001"; "--graph_norm"; "id"; "--model"; "sparse_cin";
       "--nonlinearity"; "relu"; "--num_layers"; "4"; "--readout"; "sum"; "--task_type"; "classification";
       "--eval_metric"; "accuracy"; "--lr_scheduler"; "StepLR"; "--lr_scheduler_decay_rate"; "0.5";
       "--lr_scheduler_decay_steps"; "50"; "--use_coboundaries"; "False"; "--dump_curves";
       "--preproc_jobs"; "4"]);
   (* exp/scripts/mpsn-sr-base.sh:3-22 *)
   ("mpsn-sr-base.sh", SR, NoParameter,
    fun _ =>
      ["--start_seed"; "0"; "--stop_seed"; "9"; "--device"; "0"; "--exp_name"; "mpsn-sr-base"; "--model";
       "mp_agnostic"; "--use_coboundaries"; "True"; "--drop_rate"; "0.0"; "--graph_norm"; "id";
       "--nonlinearity"; "elu"; "--readout"; "sum"; "--final_readout"; "sum"; "--lr_scheduler"; "None";
       "--emb_dim"; "256"; "--batch_size"; "8"; "--num_workers"; "2"; "--task_type"; "isomorphism";
       "--eval_metric"; "isomorphism"; "--init_method"; "sum"; "--untrained"]);
   (* exp/scripts/mpsn-sr.sh:3-23 *)
   ("mpsn-sr.sh", SR, NoParameter,
    fun _ =>
      ["--start_seed"; "0"; "--stop_seed"; "9"; "--device"; "0"; "--exp_name"; "mpsn-sr"; "--model";
       "sparse_cin"; "--use_coboundaries"; "True"; "--drop_rate"; "0.0"; "--graph_norm"; "id";
       "--nonlinearity"; "elu"; "--readout"; "sum"; "--final_readout"; "sum"; "--lr_scheduler"; "None";
       "--num_layers"; "5"; "--emb_dim"; "16"; "--batch_size"; "8"; "--num_workers"; "2"; "--task_type";
       "isomorphism"; "--eval_metric"; "isomorphism"; "--init_method"; "sum"; "--untrained"])].
