(** Model of data/data_loading.py: Collater, for samples of any kind, and of the assignment vectors of [follow_batch]. *)
From Coq Require Import String List Arith Bool ZArith Ascii.
From Verif Require Import Base ComplexModel.
Import ListNotations.
Open Scope nat_scope.

Section Follow.
Context {V : Type}.

(** data/complex.py:113-118  [keys]: the names in the dictionary of the instance.  The features are stored by
    [self.__x = x] within the class (line 71), so their name is mangled. *)
Definition attr_names : list string :=
  ["_Cochain__x"; "upper_index"; "lower_index"; "boundary_index"; "y"; "shared_boundaries"; "shared_coboundaries";
   "upper_orient"; "lower_orient"; "mask"]%string.
(** complex.py:382-393  [item.size(cat_dim)] of an attribute that is there. *)
Definition attr_size (c : cochain V) (key : string) : option nat :=
  if String.eqb key "_Cochain__x" then option_map (@List.length V) (c_x c)
  else if String.eqb key "upper_index" then option_map (@List.length _) (c_upper c)
  else if String.eqb key "lower_index" then option_map (@List.length _) (c_lower c)
  else if String.eqb key "boundary_index" then option_map (@List.length _) (c_bidx c)
  else if String.eqb key "y" then option_map (@List.length _) (c_y c)
  else if String.eqb key "shared_boundaries" then option_map (@List.length _) (c_shb c)
  else if String.eqb key "shared_coboundaries" then option_map (@List.length _) (c_shc c)
  else if String.eqb key "upper_orient" then option_map (@List.length _) (c_uor c)
  else if String.eqb key "lower_orient" then option_map (@List.length _) (c_lor c)
  else if String.eqb key "mask" then option_map (@List.length _) (c_mask c)
  else None.

(** complex.py:398-411  the list [batch[key_batch]] for one followed key, from the [i]-th cochain on.  It is created by the
    first cochain of the list if that one has the attribute; [batch[tmp]] of a list that does not exist is None and
    [None.append] raises AttributeError. *)
Fixpoint follow_loop (key : string) (i : nat) (vec : option (list (list nat))) (data : list (cochain V))
  : result (option (list (list nat))) :=
  match data with
  | [] => Ok vec
  | c :: data' =>
      match attr_size c key with
      | None => follow_loop key (S i) vec data'
      | Some n =>
          match (if i =? 0 then Some [] else vec) with
          | None => Err AttributeError
          | Some l => follow_loop key (S i) (Some (l ++ [repeat i n])) data'
          end
      end
  end.

(** complex.py:323-458 with [follow_batch]: the batch and the assignment vectors that were made, by name.  A vector list is
    concatenated at the end like every other key (lines 447-456).  The order in which errors of different keys are raised is
    not modelled. *)
Definition from_cochain_list_f (follow : list string) (data : list (cochain V)) : result (cbatch V * list (string * list nat)) :=
  let* b := from_cochain_list data in
  let* vs := mapM (fun key => let* v := follow_loop key 0 None data in
                              Ok (match v with Some l => [((key ++ "_batch")%string, concat l)] | None => [] end))
                  (filter (fun key => existsb (String.eqb key) follow) attr_names) in
  Ok (b, concat vs).

(** complex.py:690-728 with [follow_batch], which is handed on to every dimension (line 723): the batch and the vectors of
    every dimension. *)
Definition from_complex_list_f (follow : list string) (ks : list (complex V)) (max_dim : nat)
  : result (kbatch V * list (list (string * list nat))) :=
  let* b := from_complex_list ks max_dim in
  let* vs := mapM (fun d => let* cs := mapM (fun k => member_cochain k d) ks in
                            let* p := from_cochain_list_f follow cs in Ok (snd p))
                  (seq 0 (Nat.min (list_max (map k_dim ks)) max_dim + 1)) in
  Ok (b, vs).
End Follow.

Section Collater.
(** Rows; torch_geometric's graphs and batches of graphs; tensors; Python's floats and torch's. *)
Context {V D DB T F F32 : Type}.
Variable batch_graphs : list D -> result DB.     (* Batch.from_data_list(batch, follow_batch) *)
Variable stack : list T -> result T.             (* default_collate of tensors *)
Variable rows : T -> result (list T).            (* iterating over a tensor; of a number it raises *)
Variable to32 : F -> F32.                        (* rounding to torch.float *)
Variable of_int : Z -> F32.

(** What a data set may hand out.  A mapping lists its items (no key twice), a named tuple the fields of its type and its
    components; lists and tuples are sequences; [VOther] is everything else, such as None. *)
Inductive value :=
| VCochain (c : cochain V)
| VComplex (k : complex V)
| VGraph (g : D)
| VTensor (t : T)
| VFloat (x : F)
| VInt (z : Z)
| VBool (b : bool)
| VStr (s : string)
| VMap (kvs : list (string * value))
| VNamed (fields : list string) (vs : list value)
| VSeq (vs : list value)
| VOther.

(** What comes out.  [BRaw] is the list that was given (strings, line 71). *)
Inductive batched :=
| BCochain (b : cbatch V) (follow : list (string * list nat))
| BComplex (b : kbatch V) (follow : list (list (string * list nat)))
| BGraph (b : DB)
| BTensor (t : T)
| BFloats (xs : list F32)
| BInts (zs : list Z)
| BBools (bs : list bool)
| BRaw (vs : list value)
| BMap (kvs : list (string * batched))
| BNamed (fields : list string) (vs : list batched)
| BSeq (vs : list batched).

Variable follow : list string.
Variable max_dim : nat.

Definition as_cochain (v : value) : result (cochain V) := match v with VCochain c => Ok c | _ => Err AttributeError end.
Definition as_complex (v : value) : result (complex V) := match v with VComplex k => Ok k | _ => Err AttributeError end.
Definition as_graph (v : value) : result D := match v with VGraph g => Ok g | _ => Err AttributeError end.
Definition as_tensor (v : value) : result T := match v with VTensor t => Ok t | _ => Err TypeError end.

(** [torch.tensor(batch, dtype=torch.float)]; that torch also takes tensors without dimensions within lists of numbers is not
    modelled. *)
Definition as_float (v : value) : result F32 :=
  match v with
  | VFloat x => Ok (to32 x)
  | VInt z => Ok (of_int z)
  | VBool b => Ok (of_int (if b then 1 else 0))
  | _ => Err TypeError
  end.
Definition as_int (v : value) : result Z :=
  match v with VInt z => Ok z | VBool b => Ok (if b then 1%Z else 0%Z) | _ => Err TypeError end.
Definition as_bool (v : value) : result bool := match v with VBool b => Ok b | _ => Err TypeError end.
Definition is_float (v : value) : bool := match v with VFloat _ => true | _ => false end.
Definition is_bool (v : value) : bool := match v with VBool _ => true | _ => false end.
(** [torch.tensor(batch)]: the type of the result is the widest one among the numbers. *)
Definition tensor_of (batch : list value) : result batched :=
  if existsb is_float batch then let* xs := mapM as_float batch in Ok (BFloats xs)
  else if forallb is_bool batch then let* bs := mapM as_bool batch in Ok (BBools bs)
  else let* zs := mapM as_int batch in Ok (BInts zs).

Fixpoint assoc {A} (k : string) (l : list (string * A)) : option A :=
  match l with [] => None | (k', a) :: r => if String.eqb k k' then Some a else assoc k r end.
(** [d[key]]: cochains and graphs among mappings are not modelled (they would give an attribute or None). *)
Definition getitem (key : string) (d : value) : result value :=
  match d with VMap kvs => of_option KeyError (assoc key kvs) | _ => Err TypeError end.
(** Iteration by [zip]; a mapping gives its keys, a string its characters.  Graphs among sequences are not modelled. *)
Definition iter (v : value) : result (list value) :=
  match v with
  | VSeq vs => Ok vs
  | VNamed _ vs => Ok vs
  | VMap kvs => Ok (map (fun p => VStr (fst p)) kvs)
  | VStr s => Ok (map (fun c => VStr (String c EmptyString)) (list_ascii_of_string s))
  | VTensor t => let* ts := rows t in Ok (map VTensor ts)
  | _ => Err TypeError
  end.
Fixpoint heads {A} (ls : list (list A)) : option (list A * list (list A)) :=
  match ls with
  | [] => Some ([], [])
  | [] :: _ => None
  | (a :: l) :: r => match heads r with Some (hs, ts) => Some (a :: hs, l :: ts) | None => None end
  end.
(** [[self.collate(s) for s in zip( *batch)]]: ends with the shortest of the samples. *)
Definition zip_with (f : value -> list value -> result batched) :=
  fix go (vs : list value) (ls : list (list value)) : result (list batched) :=
    match vs with
    | [] => Ok []
    | v :: vs' =>
        match heads ls with
        | None => Ok []
        | Some (hs, ts) => let* b := f v hs in let* bs := go vs' ts in Ok (b :: bs)
        end
    end.
(** [{key: self.collate([d[key] for d in batch]) for key in elem}]. *)
Definition map_with (f : value -> list value -> result batched) (rest : list value) :=
  fix go (kvs : list (string * value)) : result (list (string * batched)) :=
    match kvs with
    | [] => Ok []
    | (k, v) :: r => let* us := mapM (getitem k) rest in let* b := f v us in let* bs := go r in Ok ((k, b) :: bs)
    end.

(** data_loading.py:55-79  [collate] of [elem :: rest]. *)
Fixpoint coll (elem : value) (rest : list value) {struct elem} : result batched :=
  match elem with
  | VCochain c => let* cs := mapM as_cochain rest in let* (b, vs) := from_cochain_list_f follow (c :: cs) in Ok (BCochain b vs)
  | VComplex k => let* ks := mapM as_complex rest in let* (b, vs) := from_complex_list_f follow (k :: ks) max_dim in Ok (BComplex b vs)
  | VGraph g => let* gs := mapM as_graph rest in let* b := batch_graphs (g :: gs) in Ok (BGraph b)
  | VTensor t => let* ts := mapM as_tensor rest in let* b := stack (t :: ts) in Ok (BTensor b)
  | VFloat _ => let* xs := mapM as_float (elem :: rest) in Ok (BFloats xs)
  | VInt _ | VBool _ => tensor_of (elem :: rest)
  | VStr _ => Ok (BRaw (elem :: rest))
  | VMap kvs => let* l := map_with coll rest kvs in Ok (BMap l)
  | VNamed fields vs =>
      (* the constructor of the type wants all its fields *)
      let* its := mapM iter rest in let* l := zip_with coll vs its in
      if List.length l =? List.length fields then Ok (BNamed fields l) else Err TypeError
  | VSeq vs => let* its := mapM iter rest in let* l := zip_with coll vs its in Ok (BSeq l)
  | VOther => Err TypeError
  end.
Definition collater (batch : list value) : result batched :=
  match batch with [] => Err IndexError | elem :: rest => coll elem rest end.
End Collater.
Arguments value : clear implicits.
Arguments batched : clear implicits.
