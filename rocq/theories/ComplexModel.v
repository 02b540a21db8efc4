(** Model of data/complex.py: cochains, complexes and their batches. *)
From Coq Require Import List Arith Lia ZArith Bool.
From Verif Require Import Base.
Import ListNotations.

(** data/complex.py:59-92  Cochain attributes.  2xE index tensors are lists of columns.
    [__num_cells__], [__num_cells_up__], [__num_cells_down__] are optional attributes that may
    also hold None, hence [option (option nat)]: the outer option says whether the attribute is
    set.  The attributes added dynamically by callers are represented by [c_mask] (the only one
    used in the repository, data/datasets/ringlookup.py:66-68).  [mapping], the Hodge Laplacian
    and device/contiguity are not modelled. *)
Record cochain (V : Type) := mkCochain {
  c_dim : nat;
  c_x : option (list V);
  c_upper : option (list (nat * nat));
  c_lower : option (list (nat * nat));
  c_shb : option (list nat);            (* shared_boundaries *)
  c_shc : option (list nat);            (* shared_coboundaries *)
  c_bidx : option (list (nat * nat));   (* boundary_index *)
  c_uor : option (list Z);              (* upper_orient *)
  c_lor : option (list Z);              (* lower_orient *)
  c_y : option (list Z);
  c_mask : option (list bool);
  c_n : option (option nat);
  c_nup : option (option nat);
  c_ndown : option (option nat)
}.
Arguments mkCochain {V}.
Arguments c_dim {V}. Arguments c_x {V}. Arguments c_upper {V}. Arguments c_lower {V}.
Arguments c_shb {V}. Arguments c_shc {V}. Arguments c_bidx {V}. Arguments c_uor {V}.
Arguments c_lor {V}. Arguments c_y {V}. Arguments c_mask {V}. Arguments c_n {V}.
Arguments c_nup {V}. Arguments c_ndown {V}.

(** data/complex.py:498-516  A complex: [self.dimension], the dictionary [self.cochains] with keys
    0..dimension (a list here) and the label. *)
Record complex (V : Type) := mkComplexRec {
  k_dim : nat;
  k_cochains : list (cochain V);
  k_y : option (list Z)
}.
Arguments mkComplexRec {V}. Arguments k_dim {V}. Arguments k_cochains {V}. Arguments k_y {V}.

Section Model.
Context {V : Type}.
Notation cochain := (cochain V).
Notation complex := (complex V).

(** data/complex.py:59-92  [Cochain(dim)] with no other argument. *)
Definition empty_cochain (d : nat) : cochain :=
  mkCochain d None None None None None None None None None None None None None.

Definition set_x_raw (c : cochain) (x : option (list V)) : cochain :=
  mkCochain (c_dim c) x (c_upper c) (c_lower c) (c_shb c) (c_shc c) (c_bidx c) (c_uor c) (c_lor c)
    (c_y c) (c_mask c) (c_n c) (c_nup c) (c_ndown c).
(** data/complex.py:194-198, 211-215, 228-232  the setters. *)
Definition set_n (c : cochain) (n : option nat) : cochain :=
  mkCochain (c_dim c) (c_x c) (c_upper c) (c_lower c) (c_shb c) (c_shc c) (c_bidx c) (c_uor c) (c_lor c)
    (c_y c) (c_mask c) (Some n) (c_nup c) (c_ndown c).
Definition set_nup (c : cochain) (n : option nat) : cochain :=
  mkCochain (c_dim c) (c_x c) (c_upper c) (c_lower c) (c_shb c) (c_shc c) (c_bidx c) (c_uor c) (c_lor c)
    (c_y c) (c_mask c) (c_n c) (Some n) (c_ndown c).
Definition set_ndown (c : cochain) (n : option nat) : cochain :=
  mkCochain (c_dim c) (c_x c) (c_upper c) (c_lower c) (c_shb c) (c_shc c) (c_bidx c) (c_uor c) (c_lor c)
    (c_y c) (c_mask c) (c_n c) (c_nup c) (Some n).

(** data/complex.py:59-65  constructor checks for dim 0. *)
Definition init_checks (c : cochain) : result unit :=
  assert_ (negb (c_dim c =? 0) ||
           (negb (isSome (c_lower c)) && negb (isSome (c_shb c)) && negb (isSome (c_bidx c)))).

(** data/complex.py:182-192 *)
Definition num_cells (c : cochain) : result (option nat) :=
  match c_n c with
  | Some n => Ok n
  | None =>
    match c_x c with
    | Some xs => Ok (Some (length xs))
    | None =>
      match c_bidx c with
      | Some b => let* m := list_max_err (map snd b) in Ok (Some (S m))
      | None =>
          let* _ := assert_ (negb (isSome (c_upper c)) && negb (isSome (c_lower c))) in
          Ok None
      end
    end
  end.

(** data/complex.py:200-209 *)
Definition num_cells_up (c : cochain) : result (option nat) :=
  match c_nup c with
  | Some n => Ok n
  | None =>
    match c_shc c with
    | Some s =>
        let* _ := assert_ (isSome (c_upper c)) in
        let* m := list_max_err s in Ok (Some (S m))
    | None => let* _ := assert_ (negb (isSome (c_upper c))) in Ok (Some 0)
    end
  end.

(** data/complex.py:217-226 *)
Definition num_cells_down (c : cochain) : result (option nat) :=
  if c_dim c =? 0 then Ok None else
  match c_ndown c with
  | Some n => Ok n
  | None => if isSome (c_lower c) then Err ValueError else Ok (Some 0)
  end.

(** data/complex.py:107-114  the [x] setter. *)
Definition set_x (c : cochain) (x : option (list V)) : result cochain :=
  match x with
  | None => Ok (set_x_raw c None)
  | Some xs =>
      let* n := num_cells c in
      let* _ := assert_ (match n with Some k => k =? length xs | None => false end) in
      Ok (set_x_raw c (Some xs))
  end.

(** data/complex.py:148-169  [__inc__]; a None increment becomes 0. *)
Definition or0 (n : option nat) : nat := match n with Some k => k | None => 0 end.

Definition inc_cells (c : cochain) : result nat := let* n := num_cells c in Ok (or0 n).
Definition inc_up (c : cochain) : result nat := let* n := num_cells_up c in Ok (or0 n).
Definition inc_down (c : cochain) : result nat := let* n := num_cells_down c in Ok (or0 n).
Definition inc_boundary (c : cochain) : result (nat * nat) :=
  let* d := num_cells_down c in let* n := num_cells c in Ok (or0 d, or0 n).
Definition inc_none (c : cochain) : result unit := Ok tt.

(** data/complex.py:353-410 and 447-456 for one key: collect the attribute [get] of every cochain
    shifted by the running [cumsum], then concatenate.  The increment of every cochain is added
    whether or not the cochain has the attribute.  A key is processed only if at least one
    cochain has it (line 332). *)
Fixpoint key_loop {T C} (get : cochain -> option (list T)) (inc : cochain -> result C)
    (plus : C -> C -> C) (shift : C -> T -> T) (cum : C) (data : list cochain)
  : result (list (list T)) :=
  match data with
  | [] => Ok []
  | c :: data' =>
      let items := match get c with Some l => [map (shift cum) l] | None => [] end in
      let* i := inc c in
      let* rest := key_loop get inc plus shift (plus i cum) data' in
      Ok (items ++ rest)
  end.

Definition batch_key {T C} (get : cochain -> option (list T)) (inc : cochain -> result C)
    (plus : C -> C -> C) (zero : C) (shift : C -> T -> T) (data : list cochain)
  : result (option (list T)) :=
  if existsb (fun c => isSome (get c)) data then
    let* r := key_loop get inc plus shift zero data in Ok (Some (concat r))
  else Ok None.

Definition shift1 (k : nat) (a : nat) : nat := a + k.
Definition shift_pair (k : nat) (p : nat * nat) : nat * nat := (fst p + k, snd p + k).
Definition shift_bnd (k : nat * nat) (p : nat * nat) : nat * nat := (fst p + fst k, snd p + snd k).
Definition plus2 (a b : nat * nat) : nat * nat := (fst a + fst b, snd a + snd b).
Definition keep {T} (_ : unit) (t : T) : T := t.
Definition batch_plain {T} (get : cochain -> option (list T)) (data : list cochain) :=
  batch_key get inc_none (fun _ _ => tt) tt keep data.

(** data/complex.py:427-432 and 438-439: the assignment vector and the cumulative sizes. *)
Fixpoint batch_loop (i : nat) (ptr : nat) (data : list cochain)
  : result (list (list nat) * list nat) :=
  match data with
  | [] => Ok ([], [])
  | c :: data' =>
      let* n := num_cells c in
      match n with
      | Some k =>
          let* r := batch_loop (S i) (ptr + k) data' in
          Ok (repeat i k :: fst r, (ptr + k) :: snd r)
      | None => batch_loop (S i) ptr data'
      end
  end.

(** data/complex.py:296-321  A batched cochain: the big cochain, [batch] and [ptr]. *)
Record cbatch := mkCBatch {
  cb_cochain : cochain;
  cb_batch : option (list nat);
  cb_ptr : option (list nat)
}.

(** data/complex.py:323-458  [CochainBatch.from_cochain_list] (no [follow_batch]; sparse tensors
    are not modelled).  The batched cochain has none of the explicit cell counts. *)
Definition from_cochain_list (data : list cochain) : result cbatch :=
  match data with
  | [] => Err TypeError
  | ref :: _ =>
    let* x := batch_plain c_x data in
    let* up := batch_key c_upper inc_cells Nat.add 0 shift_pair data in
    let* lo := batch_key c_lower inc_cells Nat.add 0 shift_pair data in
    let* shb := batch_key c_shb inc_down Nat.add 0 shift1 data in
    let* shc := batch_key c_shc inc_up Nat.add 0 shift1 data in
    let* b := batch_key c_bidx inc_boundary plus2 (0, 0) shift_bnd data in
    let* uor := batch_plain c_uor data in
    let* lor := batch_plain c_lor data in
    let* y := batch_plain c_y data in
    let* mask := batch_plain c_mask data in
    let* bp := batch_loop 0 0 data in
    Ok (mkCBatch
          (mkCochain (c_dim ref) x up lo shb shc b uor lor y mask None None None)
          (match fst bp with [] => None | l => Some (concat l) end)
          (match snd bp with [] => None | l => Some (0 :: l) end))
  end.

(** data/complex.py:518-537  [_consolidate] for dimension [d] of a complex of dimension [D].
    The membership tests ['num_cells_up' in cochain] are always false ([keys] lists only entries
    of the instance dictionary without the double underscore prefix, and [num_cells_up] is a
    property), so the counts are always overwritten.  Setting the counts does not influence the
    [num_cells] of any cochain, so dimensions can be treated one by one. *)
Definition consolidate_at (cs : list cochain) (D d : nat) : result cochain :=
  let* c := get cs d in
  let* _ := assert_ (c_dim c =? d) in
  let* c1 := (if d <? D then
                let* up := get cs (S d) in
                let* n := num_cells up in
                let* _ := assert_ (isSome n) in
                Ok (set_nup c n)
              else Ok c) in
  match d with
  | 0 => Ok c1
  | S d' =>
      let* lo := get cs d' in
      let* n := num_cells lo in
      let* _ := assert_ (isSome n) in
      Ok (set_ndown c1 n)
  end.

(** data/complex.py:498-516  [Complex(c0, c1, ..., y=y, dimension=dimension)]. *)
Definition mk_complex (cs : list cochain) (y : option (list Z)) (dimension : option nat)
  : result complex :=
  match cs with
  | [] => Err ValueError
  | _ =>
    let D := match dimension with Some D => D | None => length cs - 1 end in
    if length cs <? D + 1 then Err ValueError else
    let* cs' := mapM (consolidate_at cs D) (seq 0 (D + 1)) in
    Ok (mkComplexRec D cs' y)
  end.

(** mp/cell_mp.py:527-550  parameters handed to a convolution. *)
Record params := mkParams {
  p_x : option (list V);
  p_up : option (list (nat * nat));
  p_down : option (list (nat * nat));
  p_up_attr : option (list V);
  p_down_attr : option (list V);
  p_battr : option (list V);
  p_bidx : option (list (nat * nat))
}.

(** data/complex.py:548-602  [get_cochain_params]. *)
Definition get_cochain_params (k : complex) (dim max_dim : nat) (top down bnd : bool)
  : result params :=
  match nth_error (k_cochains k) dim with
  | None => Err NotImplementedError
  | Some cells =>
    let* up :=
      match c_upper cells, nth_error (k_cochains k) (S dim) with
      | Some u, Some above =>
          match c_x above with
          | Some xa =>
              if (dim <? max_dim) || top then
                match c_shc cells with
                | Some s => let* f := index_select xa s in Ok (Some u, Some f)
                | None => Err TypeError
                end
              else Ok (Some u, None)
          | None => Ok (Some u, None)
          end
      | _, _ => Ok (None, None)
      end in
    let below_x := match dim with 0 => None
                   | S d' => match nth_error (k_cochains k) d' with
                             | Some below => c_x below | None => None end end in
    let* lo :=
      match (if down then c_lower cells else None) with
      | Some l =>
          match below_x with
          | Some xb =>
              match c_shb cells with
              | Some s => let* f := index_select xb s in Ok (Some l, Some f)
              | None => Err TypeError
              end
          | None => Ok (Some l, None)
          end
      | None => Ok (None, None)
      end in
    let bo := match (if bnd then c_bidx cells else None) with
              | Some b => (Some b, below_x)
              | None => (None, None)
              end in
    Ok (mkParams (c_x cells) (fst up) (fst lo) (snd up) (snd lo) (snd bo) (fst bo))
  end.

(** data/complex.py:604-626 *)
Definition get_all_cochain_params (k : complex) (max_dim : nat) (top down bnd : bool)
  : result (list params) :=
  mapM (fun d => get_cochain_params k d max_dim top down bnd)
       (seq 0 (Nat.min max_dim (k_dim k) + 1)).

(** data/complex.py:628-642 *)
Definition get_labels (k : complex) (dim : option nat) : result (option (list Z)) :=
  match dim with
  | None => Ok (k_y k)
  | Some d => match nth_error (k_cochains k) d with
              | Some c => Ok (c_y c)
              | None => Err NotImplementedError
              end
  end.

(** data/complex.py:644-648 *)
Fixpoint set_xs_loop (cs : list cochain) (xs : list (list V)) : result (list cochain) :=
  match xs, cs with
  | [], _ => Ok cs
  | x :: xs', c :: cs' =>
      let* c' := set_x c (Some x) in
      let* r := set_xs_loop cs' xs' in
      Ok (c' :: r)
  | _ :: _, [] => Err KeyError
  end.

Definition set_xs (k : complex) (xs : list (list V)) : result complex :=
  let* _ := assert_ (length xs <=? k_dim k + 1) in
  let* cs := set_xs_loop (k_cochains k) xs in
  Ok (mkComplexRec (k_dim k) cs (k_y k)).

(** data/complex.py:670-688  A batch of complexes: a complex of batched cochains together with
    the [batch] and [ptr] of every dimension and the number of complexes. *)
Record kbatch := mkKBatch {
  kb_complex : complex;
  kb_batch : list (option (list nat));
  kb_ptr : list (option (list nat));
  kb_num : nat
}.

(** data/complex.py:709-718  the cochain a complex contributes to dimension [d] of a batch. *)
Definition member_cochain (k : complex) (d : nat) : result cochain :=
  match nth_error (k_cochains k) d with
  | Some c => Ok c
  | None =>
      match d with
      | 0 => Ok (empty_cochain d)
      | S d' =>
          match nth_error (k_cochains k) d' with
          | Some below => let* n := num_cells below in Ok (set_ndown (empty_cochain d) n)
          | None => Ok (empty_cochain d)
          end
      end
  end.

(** data/complex.py:706-707, 719-721, 725  the loop over [per_complex_labels] and [label_list]. *)
Definition label_step (st : bool * list (list Z)) (k : complex) : bool * list (list Z) :=
  match k_y k with
  | Some y => if fst st then (true, snd st ++ [y]) else (false, snd st)
  | None => (false, snd st)
  end.

Definition batch_labels (ks : list complex) : option (list Z) :=
  let st := fold_left label_step ks (true, []) in
  if fst st then Some (concat (snd st)) else None.

(** data/complex.py:690-728  [ComplexBatch.from_complex_list]. *)
Definition from_complex_list (ks : list complex) (max_dim : nat) : result kbatch :=
  match ks with
  | [] => Err ValueError
  | _ =>
    let D := Nat.min (list_max (map k_dim ks)) max_dim in
    let* bs := mapM (fun d => let* cs := mapM (fun k => member_cochain k d) ks in
                              from_cochain_list cs) (seq 0 (D + 1)) in
    let* k := mk_complex (map cb_cochain bs) (batch_labels ks) None in
    Ok (mkKBatch k (map cb_batch bs) (map cb_ptr bs) (length ks))
  end.

End Model.
Arguments params : clear implicits.
Arguments cbatch : clear implicits.
Arguments kbatch : clear implicits.
