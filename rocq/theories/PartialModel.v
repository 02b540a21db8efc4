(** Partial results of the networks: the dictionary returned with [include_partial=True]
    (mp/models.py:194-254, mp/molec_models.py:90-161, 281-350) and the loop of
    mp/test_models.py:140-195 that collects the dictionaries of the batches of a loader. *)
From Coq Require Import String DecimalString List Arith ZArith Bool.
From Verif Require Import Base ScatterModel ComplexModel MPModel EmbedModel.
Import ListNotations.
Open Scope string_scope.
Open Scope nat_scope.

Section Partial.
Context {V : Type} (o : ops V).

(** A dictionary from strings to matrices, in the order of insertion. *)
Definition dict (A : Type) := list (string * A).
Fixpoint dict_set {A} (key : string) (a : A) (d : dict A) : dict A :=
  match d with
  | [] => [(key, a)]
  | (k, b) :: d' => if String.eqb k key then (k, a) :: d' else (k, b) :: dict_set key a d'
  end.
Fixpoint dict_get {A} (key : string) (d : dict A) : option A :=
  match d with [] => None | (k, b) :: d' => if String.eqb k key then Some b else dict_get key d' end.
Definition set_all {A} (entries : list (string * A)) (d : dict A) : dict A :=
  fold_left (fun d e => dict_set (fst e) (snd e) d) entries d.

Definition number (n : nat) : string := NilEmpty.string_of_uint (Nat.to_uint n).
(** f"layer{c}_{k}", f"pool_{k}" *)
Definition layer_key (c k : nat) : string := "layer" ++ number c ++ "_" ++ number k.
Definition pool_key (k : nat) : string := "pool_" ++ number k.

(** mp/models.py:209-211  [for k in range(len(xs)): res[f"layer{c}_{k}"] = xs[k]] for all layers; the outputs of the layers
    are the history of [run_convs]. *)
Definition layer_entries (hist : list (list (list V))) : list (string * list V) :=
  List.concat (mapi (fun c xs => mapi (fun k x => (layer_key c k, x)) xs) hist).
(** mp/models.py:226-228 *)
Definition pool_entries (xs : list (list V)) : list (string * list V) := mapi (fun k x => (pool_key k, x)) xs.

(** mp/models.py:194-254 with include_partial=True (SparseCIN, CINpp); same simplifications as [net_forward]. *)
Definition partial_forward (m : net V) (b : kbatch V) : result (list V * dict (list V) * kbatch V) :=
  let* (k, hist) := run_convs (n_max_dim m) (n_pdim m) (n_top m) (n_down m) (n_convs m) (kb_complex b) in
  let res := set_all (layer_entries hist) [] in
  let* xs := final_xs o (n_jump m) hist in
  let* pooled := pool_complex o xs (kb_batch b) (n_max_dim m) (n_pool m) in
  let* sel := mapM (get pooled) (n_dims m) in
  let res := set_all (pool_entries sel) res in
  match sel with
  | [] => Err RuntimeError
  | x0 :: _ =>
      let new := zipw (fun d x => map (n_lin1 m d) x) (n_dims m) sel in
      let x := map (n_lin2 m) (stack_rows o (n_mean m) (length x0) new) in
      Ok (x, dict_set "out" x res, mkKBatch k (kb_batch b) (kb_ptr b) (kb_num b))
  end.

(** mp/molec_models.py:90-161 EmbedSparseCIN, 281-350 OGBEmbedSparseCIN: the embedding first. *)
Definition embed_partial (m : enet V) (b : kbatch V) : result (list V * dict (list V) * kbatch V) :=
  match nth_error (k_cochains (kb_complex b)) 0 with
  | None => Err KeyError
  | Some _ =>
    let* ps := get_all_cochain_params (kb_complex b) (en_dim m) true false true in
    let* xs := embed_ve o (en_emb m) ps in
    let* k := set_xs (kb_complex b) xs in
    partial_forward (en_net m) (mkKBatch k (kb_batch b) (kb_ptr b) (kb_num b))
  end.

(** mp/test_models.py:159-168, 171-183: [for key in res: if key not in all: all[key] = []; all[key].append(res[key])], then
    [torch.cat] of every entry. *)
Definition append_res {A} (all : dict (list (list A))) (res : dict (list A)) : dict (list (list A)) :=
  fold_left (fun all e => dict_set (fst e) (match dict_get (fst e) all with Some l => l | None => [] end ++ [snd e])%list all) res all.
Definition cat_res {A} (all : dict (list (list A))) : dict (list A) := map (fun e => (fst e, List.concat (snd e))) all.
(** One pass over the batches of a loader. *)
Definition collect (forward : kbatch V -> result (list V * dict (list V) * kbatch V)) (chunks : list (list (complex V))) (max_dim : nat)
  : result (dict (list V)) :=
  let* rs := mapM (fun ks => let* b := from_complex_list ks max_dim in let* r := forward b in Ok (snd (fst r))) chunks in
  Ok (cat_res (fold_left append_res rs [])).

End Partial.
