(** The keyword machinery of mp/cell_mp.py as it is written: which arguments the message, aggregate
    and update functions of a layer receive.  MPModel states the outcome for the layers of the
    project; here the dispatch on parameter names itself is modelled, for any layer.

    Simplifications: adjacencies are index tensors or None (no [SparseTensor], hence no fused
    functions); tensors among the keyword arguments are feature matrices (node_dim = -2). *)
From Coq Require Import String List Arith Lia Bool.
From Verif Require Import Base ScatterModel ComplexModel MPModel.
Import ListNotations.
Open Scope nat_scope.

Section Collect.
Context {V : Type}.

(** Python values met by the machinery. *)
Inductive pyval :=
| PEmpty                              (* inspect.Parameter.empty *)
| PNone
| PRows (l : list V)                  (* a feature matrix *)
| PSeq                                (* a tuple or list *)
| PIndex (l : list (nat * nat))       (* a 2 x m index tensor, column by column *)
| PVec (l : list nat)                 (* one row of an index tensor *)
| PSize (a b : option nat)            (* the list [size0, size1] *)
| PNat (n : nat).

Inductive adjacency := Up | Down | Bnd.
(** The texts 'up', 'down' and 'boundary' that appear in f'...{adjacency}...'. *)
Definition adj_name (a : adjacency) : string :=
  match a with Up => "up" | Down => "down" | Bnd => "boundary" end.

(** A dict as the function [fun key => d.get(key, Parameter.empty)]. *)
Definition dict := string -> pyval.
Definition no_keys : dict := fun _ => PEmpty.
Definition put (d : dict) (k : string) (v : pyval) : dict := fun n => if String.eqb n k then v else d n.

(** [arg[-2:]] and [arg[k:-2]] *)
Definition last2 (s : string) : string := substring (String.length s - 2) 2 s.
Definition slice (k : nat) (s : string) : string := substring k (String.length s - 2 - k) s.
Definition starts (p s : string) : bool := String.prefix p s.

(** mp/cell_mp.py:70-79  [special_args]. *)
Definition special_of (a : string) : list string :=
  (("agg_" ++ a ++ "_index") ::
   List.map (fun s => a ++ s) ["_index"; "_adj_t"; "_index_i"; "_index_j"; "_size"; "_size_i"; "_size_j"; "_ptr"; "_dim_size"])%string.
Definition special_args : list string := special_of "up" ++ special_of "down" ++ special_of "boundary".

(** A parameter of a function with its default ([PEmpty]: none). *)
Record param := mkParam { pname : string; pdefault : pyval }.

(** A subclass of CochainMessagePassing: signatures (without the parameters removed by
    [pop_first_n], lines 118-127) and bodies.  A body gets its keyword arguments. *)
Record layer := mkLayer {
  l_msg_sig : adjacency -> list param;
  l_msg : adjacency -> list (string * pyval) -> result pyval;
  l_agg_sig : adjacency -> list param;
  l_agg : adjacency -> pyval -> list (string * pyval) -> result pyval;
  l_upd_sig : list param;
  l_upd : option pyval -> option pyval -> option pyval -> list (string * pyval) -> result (pyval * pyval * pyval);
  l_forth : bool;       (* flow == 'source_to_target' *)
  l_use_down : bool;
  l_use_bnd : bool
}.

(** The set of parameter names minus [special_args]; [order] is the iteration order of the set
    (lines 131-137 and torch_geometric's Inspector.keys). *)
Definition not_special (n : string) : bool := negb (existsb (String.eqb n) special_args).
Definition keys (sigs : list (list param)) : list string :=
  nodup string_dec (List.map pname (concat sigs)).
Definition user_args (order : list string -> list string) (L : layer) : list string :=
  order (filter not_special (keys [l_msg_sig L Up; l_msg_sig L Down; l_msg_sig L Bnd; l_agg_sig L Up; l_agg_sig L Down; l_agg_sig L Bnd])).
Definition update_args (order : list string -> list string) (L : layer) : list string :=
  order (filter not_special (keys [l_upd_sig L])).

(** torch_geometric Inspector.distribute. *)
Definition distribute (sig : list param) (d : dict) : result (list (string * pyval)) :=
  mapM (fun p => match d (pname p) with
                 | PEmpty => match pdefault p with PEmpty => Err TypeError | v => Ok (pname p, v) end
                 | v => Ok (pname p, v)
                 end) sig.

Definition sizes := (option nat * option nat)%type.
Definition size_at (s : sizes) (dim : nat) : option nat := if dim =? 0 then fst s else snd s.
Definition size_put (s : sizes) (dim n : nat) : sizes := if dim =? 0 then (Some n, snd s) else (fst s, Some n).

(** mp/cell_mp.py:186-193  [__set_size__]. *)
Definition set_size (s : sizes) (dim : nat) (src : pyval) : result sizes :=
  match src with
  | PRows l =>
      match size_at s dim with
      | None => Ok (size_put s dim (List.length l))
      | Some n => if n =? List.length l then Ok s else Err ValueError
      end
  | _ => Err AttributeError
  end.

(** mp/cell_mp.py:195-198  [__lift__] on an index tensor; row 0 or 1 of the index. *)
Definition row (dim : nat) (index : list (nat * nat)) : list nat :=
  List.map (if dim =? 0 then fst else snd) index.
Definition lift (src : list V) (index : list (nat * nat)) (dim : nat) : result (list V) :=
  index_select src (row dim index).

(** mp/cell_mp.py:214-253: one argument of the loop in [__collect__]. *)
Definition collect_arg (forth : bool) (index : option (list (nat * nat))) (a : adjacency) (kwargs : dict)
    (st : dict * sizes) (arg : string) : result (dict * sizes) :=
  let (i, j) := if forth then (1, 0) else (0, 1) in
  let (out, size) := st in
  if negb (String.eqb (last2 arg) "_i" || String.eqb (last2 arg) "_j") then Ok (put out arg (kwargs arg), size)
  else match index with
  | None => Ok st
  | Some ix =>
      let dim := if String.eqb (last2 arg) "_j" then 0 else 1 in
      let found := match a with
        | Up => if starts "up_" arg then Some (kwargs (slice 3 arg), kwargs (slice 3 arg)) else None
        | Down => if starts "down_" arg then Some (kwargs (slice 5 arg), kwargs (slice 5 arg)) else None
        | Bnd => if starts "boundary_" arg then
                   if dim =? 0 then Some (kwargs "boundary_attr"%string, kwargs (slice 9 arg))
                   else Some (kwargs (slice 9 arg), kwargs (slice 9 arg))
                 else None
        end in
      match found with
      | None => Ok st                                             (* continue *)
      | Some (PSeq, _) => Err ValueError
      | Some (PRows data, size_data) =>
          let* size' := set_size size dim size_data in
          let* data' := lift data ix (if String.eqb (last2 arg) "_j" then j else i) in
          Ok (put out arg (PRows data'), size')
      | Some (data, _) => Ok (put out arg data, size)
      end
  end.

(** [size[1] or size[0]]: None and 0 are false. *)
Definition py_or (a b : option nat) : option nat := match a with Some (S _) => a | _ => b end.
Definition of_size (n : option nat) : pyval := match n with Some k => PNat k | None => PNone end.

(** mp/cell_mp.py:209-282  [__collect__]; also returns the list [size], which is changed in place. *)
Definition collect (forth : bool) (args : list string) (index : option (list (nat * nat))) (size : sizes)
    (a : adjacency) (kwargs : dict) : result (dict * sizes) :=
  let (i, j) := if forth then (1, 0) else (0, 1) in
  let* (out, size) := foldM (collect_arg forth index a kwargs) (no_keys, size) args in
  let nm := adj_name a in
  let out := match index with
    | Some ix =>
        let out := put out (nm ++ "_adj_t") PNone in
        let out := put out (nm ++ "_ptr") PNone in
        let out := put out (nm ++ "_index") (PIndex ix) in
        let out := put out (nm ++ "_index_i") (PVec (row i ix)) in
        let out := put out (nm ++ "_index_j") (PVec (row j ix)) in
        put out ("agg_" ++ nm ++ "_index") (PVec (row i ix))
    | None => out
    end in
  let out := put out (nm ++ "_size") (PSize (fst size) (snd size)) in
  let out := put out (nm ++ "_size_i") (of_size (py_or (snd size) (fst size))) in
  let out := put out (nm ++ "_size_j") (of_size (py_or (fst size) (snd size))) in
  let out := put out (nm ++ "_dim_size") (of_size (py_or (snd size) (fst size))) in
  Ok (out, size).

(** mp/cell_mp.py:324-355  [__message_and_aggregate__], not fused. *)
Definition message_and_aggregate_kw (order : list string -> list string) (L : layer) (index : option (list (nat * nat)))
    (a : adjacency) (size : sizes) (kwargs : dict) : result (pyval * sizes) :=
  let* (d, size) := collect (l_forth L) (user_args order L) index size a kwargs in
  let* mk := distribute (l_msg_sig L a) d in
  let* out := l_msg L a mk in
  let* ak := distribute (l_agg_sig L a) d in
  let* r := l_agg L a out ak in
  Ok (r, size).

(** mp/cell_mp.py:146-184  the size lists and their check. *)
Definition check_separately (index : option (list (nat * nat))) (size : option (nat * nat)) : sizes :=
  match index, size with Some _, Some (a, b) => (Some a, Some b) | _, _ => (None, None) end.
Definition eq_on (a b : option nat) : bool :=
  match a, b with Some n, Some m => n =? m | None, None => true | _, _ => false end.
Definition check_together (up down : option (list (nat * nat))) (s t : sizes) : result unit :=
  match up, down with
  | Some _, Some _ =>
      let* _ := assert_ (eq_on (fst s) (fst t)) in assert_ (eq_on (snd s) (snd t))
  | _, _ => Ok tt
  end.

(** mp/cell_mp.py:357-392  [propagate]. *)
Definition propagate_kw (order : list string -> list string) (L : layer)
    (up down bnd : option (list (nat * nat))) (up_size down_size bnd_size : option (nat * nat)) (kwargs : dict)
  : result (pyval * pyval * pyval) :=
  let us := check_separately up up_size in
  let ds := check_separately down down_size in
  let bs := check_separately bnd bnd_size in
  let* _ := check_together up down us ds in
  let* (up_out, us) := match up with
    | Some _ => let* (r, s) := message_and_aggregate_kw order L up Up us kwargs in Ok (Some r, s)
    | None => Ok (None, us) end in
  let* (down_out, ds) := match down with
    | Some _ => if l_use_down L then let* (r, s) := message_and_aggregate_kw order L down Down ds kwargs in Ok (Some r, s)
                else Ok (None, ds)
    | None => Ok (None, ds) end in
  let* bnd_out := if l_use_bnd L then
      match kwargs "boundary_attr"%string with
      | PEmpty | PNone => Ok None
      | _ => let* (r, _) := message_and_aggregate_kw order L bnd Bnd bs kwargs in Ok (Some r)
      end else Ok None in
  let* (d1, _) := collect (l_forth L) (update_args order L) up us Up kwargs in
  let* (d2, _) := collect (l_forth L) (update_args order L) down ds Down kwargs in
  (* coll_dict.update(up_coll_dict); coll_dict.update(down_coll_dict): a key stored by both has the
     same value in both, and a stored Parameter.empty is treated as a missing key *)
  let d := fun n => match d2 n with PEmpty => d1 n | v => v end in
  let* uk := distribute (l_upd_sig L) d in
  l_upd L up_out down_out bnd_out uk.

End Collect.
Arguments PEmpty {V}.
Arguments PNone {V}.
Arguments PSeq {V}.
Arguments PIndex {V} l.
Arguments PVec {V} l.
Arguments PSize {V} a b.
Arguments PNat {V} n.
Arguments pyval : clear implicits.
Arguments layer : clear implicits.
Arguments dict : clear implicits.
Arguments param : clear implicits.

(** ** The layers of the project *)
Section Layers.
Context {V : Type} (o : ops V).
Notation params := (params V).

(** A keyword argument of a body. *)
Definition kwarg (kw : list (string * pyval V)) (n : string) : pyval V :=
  match find (fun p => String.eqb (fst p) n) kw with Some p => snd p | None => PEmpty end.
Definition opt_rows (v : pyval V) : option (list V) := match v with PRows l => Some l | _ => None end.
Definition req (n : string) : param V := mkParam n PEmpty.
Definition opt (n : string) : param V := mkParam n PNone.

(** mp/cell_mp.py:394-421, mp/layers.py:23-31, 94-103, 210-214, 240-241: the signatures are the same in
    all classes; the bodies apply the message of the configuration. *)
Definition std_msg_sig (a : adjacency) : list (param V) :=
  match a with Up => [req "up_x_j"; req "up_attr"] | Down => [req "down_x_j"; req "down_attr"] | Bnd => [req "boundary_x_j"] end.
Definition std_msg (c : mpcfg V) (a : adjacency) (kw : list (string * pyval V)) : result (pyval V) :=
  match kwarg kw (adj_name a ++ "_x_j") with
  | PRows xj =>
      let* r := match a with
        | Up => apply_msg (g_msg_up c) xj (opt_rows (kwarg kw "up_attr"))
        | Down => apply_msg (g_msg_down c) xj (opt_rows (kwarg kw "down_attr"))
        | Bnd => apply_msg (MsgFst (g_msg_bnd c)) xj None
        end in Ok (PRows r)
  | _ => Err TypeError
  end.

(** mp/cell_mp.py:423-479  [aggregate_up/down/boundary]; the pointer is None for index tensors. *)
Definition std_agg_sig (a : adjacency) : list (param V) :=
  [req ("agg_" ++ adj_name a ++ "_index"); opt (adj_name a ++ "_ptr"); opt (adj_name a ++ "_dim_size")].
Definition std_agg (c : mpcfg V) (a : adjacency) (inputs : pyval V) (kw : list (string * pyval V)) : result (pyval V) :=
  let r := match a with Up => g_aggr_up c | Down => g_aggr_down c | Bnd => g_aggr_bnd c end in
  match inputs, kwarg kw ("agg_" ++ adj_name a ++ "_index") with
  | PRows l, PVec idx =>
      let n := match kwarg kw (adj_name a ++ "_dim_size") with PNat n => Some n | _ => None end in
      let* out := scatter o r n idx l in Ok (PRows out)
  | _, _ => Err TypeError
  end.

(** mp/cell_mp.py:511-524  [update]: a missing sum is a matrix of zeros. *)
Definition std_upd (up down bnd : option (pyval V)) (kw : list (string * pyval V)) : result (pyval V * pyval V * pyval V) :=
  match kwarg kw "x" with
  | PRows x =>
      let fill v := match v with Some r => r | None => PRows (zeros o (List.length x)) end in
      Ok (fill up, fill down, fill bnd)
  | _ => Err AttributeError
  end.

Definition std_layer (c : mpcfg V) : layer V :=
  mkLayer std_msg_sig (std_msg c) std_agg_sig (std_agg c) [req "x"] std_upd true (g_down c) (g_bnd c).

(** The keyword arguments with which the forward passes call [propagate]: layers.py:34-37 (all),
    80-83 (no boundary), 187-190 and 244-247 (no [down_attr], also for CIN++). *)
Definition val (v : option (list V)) : pyval V := match v with Some l => PRows l | None => PNone end.
Definition kwargs_of (pass_down pass_bnd : bool) (p : params) : dict V :=
  let d := put (put no_keys "x" (val (p_x p))) "up_attr" (val (p_up_attr p)) in
  let d := if pass_down then put d "down_attr" (val (p_down_attr p)) else d in
  if pass_bnd then put d "boundary_attr" (val (p_battr p)) else d.
Definition call_propagate (order : list string -> list string) (c : mpcfg V) (pass_down pass_bnd : bool) (p : params)
  : result (pyval V * pyval V * pyval V) :=
  propagate_kw order (std_layer c) (p_up p) (p_down p) (if pass_bnd then p_bidx p else None) None None None
    (kwargs_of pass_down pass_bnd p).
End Layers.
