(** Model of data/datasets/dataset.py: collating complexes for storage, retrieving them, the cache
    of retrieved complexes, subsets and splits. *)
From Coq Require Import String List Arith Lia ZArith Bool.
From Verif Require Import Base ComplexModel.
Import ListNotations.
Open Scope list_scope.

(** dataset.py:268-296  the storage of one key at one dimension: the concatenation of the tensors
    of all complexes that have the key, and the running positions.  [None] if no complex has the
    key at this dimension ([collect_keys], lines 241-250, keeps only the keys with a value). *)
Definition packed (T : Type) : Type := option (list T * list nat).

(** dataset.py:268-295  the loop over the complexes for one key: [s = slices[-1] + size]. *)
Fixpoint slices_from {T} (s : nat) (items : list (option (list T))) : list nat :=
  match items with
  | [] => []
  | o :: r => let s' := s + match o with Some l => length l | None => 0 end in
              s' :: slices_from s' r
  end.

(** dataset.py:241-250, 268-295, 320-333  one key at one dimension.  A single complex is stored
    without copying (line 329), which has the same value as a concatenation of one tensor.  The
    assertions that the tensors under one key have the same type and number of dimensions hold for
    every value of this model, where an attribute has one type. *)
Definition pack {T} (items : list (option (list T))) : packed T :=
  if existsb isSome items then
    Some (concat (map (fun o => match o with Some l => l | None => [] end) items),
          0 :: slices_from 0 items)
  else None.

(** dataset.py:201-216  reading one key back: a tensor of size zero is read back as None. *)
Definition unpack {T} (p : packed T) (idx : nat) : result (option (list T)) :=
  match p with
  | None => Ok None
  | Some (item, slices) =>
      let* s := get slices idx in
      let* e := get slices (S idx) in
      Ok (if s =? e then None else Some (firstn (e - s) (skipn s item)))
  end.

Section Model.
Context {V : Type}.

(** dataset.py:230-239  the storage of one dimension: a packed tensor for every key, and the three
    lists of cell counts.  The features are stored under the key [_Cochain__x] (the private name
    of [Cochain.__x]), so reading them back does not go through the checked setter of [x]. *)
Record stored := mkStored {
  s_x : packed V;
  s_upper : packed (nat * nat);
  s_lower : packed (nat * nat);
  s_shb : packed nat;
  s_shc : packed nat;
  s_bidx : packed (nat * nat);
  s_uor : packed Z;
  s_lor : packed Z;
  s_y : packed Z;
  s_mask : packed bool;
  s_n : list (option nat);
  s_nup : list (option nat);
  s_ndown : list (option nat)
}.

(** dataset.py:337-347  the labels: one tensor, or the Python list when the first is None. *)
Inductive labels := LTensor (l : list Z) | LList (l : list (option (list Z))).

Record collated := mkCollated {
  co_store : list stored;
  co_labels : labels;
  co_dims : list nat
}.

(** The cochain a complex has at dimension [d], if any (dataset.py:261-264). *)
Definition at_dim (k : complex V) (d : nat) : option (cochain V) := nth_error (k_cochains k) d.

Definition items {T} (f : cochain V -> option (list T)) (ks : list (complex V)) (d : nat)
  : list (option (list T)) :=
  map (fun k => match at_dim k d with Some c => f c | None => None end) ks.

(** dataset.py:298-312  the counts as attributes that may be missing. *)
Definition counts (f : cochain V -> option (option nat)) (ks : list (complex V)) (d : nat)
  : list (option nat) :=
  map (fun k => match at_dim k d with
                | Some c => match f c with Some n => n | None => None end
                | None => None
                end) ks.

Definition store_dim (ks : list (complex V)) (d : nat) : stored :=
  mkStored (pack (items c_x ks d)) (pack (items c_upper ks d)) (pack (items c_lower ks d))
    (pack (items c_shb ks d)) (pack (items c_shc ks d)) (pack (items c_bidx ks d))
    (pack (items c_uor ks d)) (pack (items c_lor ks d)) (pack (items c_y ks d))
    (pack (items c_mask ks d)) (counts c_n ks d) (counts c_nup ks d) (counts c_ndown ks d).

(** dataset.py:315-317 *)
Definition label_check (k : complex V) : result unit :=
  match k_y k with Some y => assert_ (length y =? 1) | None => Ok tt end.

(** dataset.py:225-350  [collate(data_list, max_dim)]. *)
Definition collate (ks : list (complex V)) (max_dim : nat) : result collated :=
  let* _ := mapM label_check ks in
  match ks with
  | [] => Err IndexError
  | k0 :: _ =>
      let* ls := match k_y k0 with
                 | Some _ => let* ys := mapM (fun k => of_option TypeError (k_y k)) ks in
                             Ok (LTensor (concat ys))
                 | None => Ok (LList (map k_y ks))
                 end in
      Ok (mkCollated (map (store_dim ks) (seq 0 (S max_dim))) ls (map k_dim ks))
  end.

(** dataset.py:146-150  [len]: the first list of positions found. *)
Definition slices_of {T} (p : packed T) : list (list nat) :=
  match p with Some (_, s) => [s] | None => [] end.
Definition stored_slices (s : stored) : list (list nat) :=
  slices_of (s_x s) ++ slices_of (s_upper s) ++ slices_of (s_lower s) ++ slices_of (s_shb s) ++
  slices_of (s_shc s) ++ slices_of (s_bidx s) ++ slices_of (s_uor s) ++ slices_of (s_lor s) ++
  slices_of (s_y s) ++ slices_of (s_mask s).
Definition co_len (co : collated) : nat :=
  match concat (map stored_slices (co_store co)) with
  | [] => 0
  | s :: _ => length s - 1
  end.

(** dataset.py:187-222  [_get_cochain].  The stored counts are set only when they are not None. *)
Definition get_cochain (co : collated) (d idx : nat) : result (cochain V * bool) :=
  let* s := of_option KeyError (nth_error (co_store co) d) in
  let* n := get (s_n s) idx in
  let* nup := get (s_nup s) idx in
  let* ndown := get (s_ndown s) idx in
  let* x := unpack (s_x s) idx in
  let* up := unpack (s_upper s) idx in
  let* lo := unpack (s_lower s) idx in
  let* shb := unpack (s_shb s) idx in
  let* shc := unpack (s_shc s) idx in
  let* b := unpack (s_bidx s) idx in
  let* uor := unpack (s_uor s) idx in
  let* lor := unpack (s_lor s) idx in
  let* y := unpack (s_y s) idx in
  let* mask := unpack (s_mask s) idx in
  let set o := match o with Some k => Some (Some k) | None => None end in
  let c := mkCochain d x up lo shb shc b uor lor y mask (set n) (set nup)
             (match ndown with Some k => Some (Some k)
              | None => if d =? 0 then Some None else None end) in
  let* m := num_cells c in
  Ok (c, negb (isSome m)).

(** dataset.py:163-177  the target of one complex. *)
Definition get_target (ls : labels) (idx : nat) : result (option (list Z)) :=
  match ls with
  | LTensor l => Ok (Some (firstn 1 (skipn idx l)))
  | LList l => let* t := get l idx in
               let* _ := assert_ (negb (isSome t)) in Ok t
  end.

(** dataset.py:160-180  the uncached part of [get]. *)
Definition fetch (co : collated) (max_dim idx : nat) : result (complex V) :=
  let* r := mapM (fun d => get_cochain co d idx) (seq 0 (S max_dim)) in
  let cs := map fst (filter (fun p => negb (snd p)) r) in
  let* t := get_target (co_labels co) idx in
  let* dim := get (co_dims co) idx in
  let* _ := assert_ (S dim =? length cs) in
  mk_complex cs t None.

(** dataset.py:131-144  a dataset.  [d_data] is None when the subclass does not load any storage;
    [d_cache] is [__data_list__], [d_indices] is [__indices__] of torch_geometric's [Dataset]. *)
Record dataset := mkDataset {
  d_max_dim : nat;
  d_data : option collated;
  d_cache : option (list (option (complex V)));
  d_train : option (list nat);
  d_val : option (list nat);
  d_test : option (list nat);
  d_indices : option (list nat)
}.

Definition with_cache (ds : dataset) (c : list (option (complex V))) : dataset :=
  mkDataset (d_max_dim ds) (d_data ds) (Some c) (d_train ds) (d_val ds) (d_test ds) (d_indices ds).
Definition with_indices (ds : dataset) (l : list nat) : dataset :=
  mkDataset (d_max_dim ds) (d_data ds) (d_cache ds) (d_train ds) (d_val ds) (d_test ds) (Some l).

(** dataset.py:146-150  [len]: subscripting None raises TypeError. *)
Definition ds_len (ds : dataset) : result nat :=
  match d_data ds with Some co => Ok (co_len co) | None => Err TypeError end.

Definition set_nth {A} (l : list A) (i : nat) (a : A) : result (list A) := upd l i (fun _ => a).

(** dataset.py:160-185  a miss: fetch and store a (shallow) copy. *)
Definition get_miss (ds : dataset) (cache : list (option (complex V))) (idx : nat)
  : result (complex V) * dataset :=
  let ds1 := with_cache ds cache in
  match d_data ds with
  | None => (Err TypeError, ds1)
  | Some co =>
      match fetch co (d_max_dim ds) idx with
      | Err e => (Err e, ds1)
      | Ok k =>
          match set_nth cache idx (Some k) with
          | Err e => (Err e, ds1)
          | Ok cache' => (Ok k, with_cache ds cache')
          end
      end
  end.

(** dataset.py:152-185  [get(idx)]: the result and the dataset afterwards. *)
Definition ds_get (ds : dataset) (idx : nat) : result (complex V) * dataset :=
  match d_cache ds with
  | None =>
      match ds_len ds with
      | Err e => (Err e, ds)
      | Ok n => get_miss ds (repeat None n) idx
      end
  | Some cache =>
      match nth_error cache idx with
      | None => (Err IndexError, ds)
      | Some (Some k) => (Ok k, ds)
      | Some None => get_miss ds cache idx
      end
  end.

(** A sequence of accesses. *)
Fixpoint ds_gets (ds : dataset) (idxs : list nat) : list (result (complex V)) * dataset :=
  match idxs with
  | [] => ([], ds)
  | i :: r => let (o, ds1) := ds_get ds i in
              let (os, ds2) := ds_gets ds1 r in (o :: os, ds2)
  end.

(** torch_geometric [Dataset.indices], [__len__], [__getitem__] with an integer and with a list
    of positions (data/dataset.py of torch_geometric 1.6 and 1.7, on which dataset.py:372 relies). *)
Definition ds_indices (ds : dataset) : result (list nat) :=
  match d_indices ds with
  | Some l => Ok l
  | None => let* n := ds_len ds in Ok (seq 0 n)
  end.
Definition ds_size (ds : dataset) : result nat :=
  let* l := ds_indices ds in Ok (length l).
Definition ds_item (ds : dataset) (i : nat) : result (complex V) * dataset :=
  match (let* l := ds_indices ds in get l i) with
  | Ok j => ds_get ds j
  | Err e => (Err e, ds)
  end.
Definition ds_select (ds : dataset) (idx : list nat) : result dataset :=
  let* l := ds_indices ds in
  let* l' := mapM (get l) idx in
  Ok (with_indices ds l').

(** dataset.py:101-106, 364-372  [get_split]. *)
Definition get_split (ds : dataset) (split : string) : result dataset :=
  let* ids := if String.eqb split "train" then Ok (d_train ds)
              else if String.eqb split "valid" then Ok (d_val ds)
              else if String.eqb split "test" then Ok (d_test ds)
              else Err ValueError in
  match ids with
  | None => Err AssertionError
  | Some l => if isSome (d_indices ds) then Err AssertionError else ds_select ds l
  end.

(** dataset.py:352-362  [copy]: [collate] is called without its second argument. *)
Definition ds_copy (ds : dataset) (idx : option (list nat)) : result dataset :=
  let* n := ds_size ds in
  let l := match idx with Some l => l | None => seq 0 n end in
  let* _ := mapM (fun r => r) (fst (ds_gets ds l)) in
  Err TypeError.

End Model.
Arguments stored : clear implicits.
Arguments collated : clear implicits.
Arguments dataset : clear implicits.

(** data/datasets/zinc.py:60-96, cluster.py:42-51: the parts of the data are concatenated and the
    identifiers are the ranges between the lengths of the growing list. *)
Fixpoint extend_loop {A} (data : list A) (idx : list (list nat)) (start : nat) (parts : list (list A))
  : list A * list (list nat) :=
  match parts with
  | [] => (data, idx)
  | p :: r => let data' := data ++ p in
              extend_loop data' (idx ++ [seq start (length data' - start)]) (length data') r
  end.
Definition extend_splits {A} (parts : list (list A)) : list A * list (list nat) := extend_loop [] [] 0 parts.

(** data/datasets/ocean.py:36-47, ringlookup.py:45-50, ringtransfer.py:50-54: train and validation
    parts. *)
Definition train_val {A} (train val : list A) : list A * list (list nat) :=
  (train ++ val, [seq 0 (length train); seq (length train) (length train + length val - length train)]).

(** data/datasets/zinc.py:110-134 [load_zinc_graph_dataset]. *)
Definition zinc_graph_splits {A} (train val test : list A) : list A * list (list nat) :=
  (train ++ val ++ test,
   [seq 0 (length train);
    seq (length train) (length train + length val - length train);
    seq (length train + length val) (length train + length val + length test - (length train + length val))]).
