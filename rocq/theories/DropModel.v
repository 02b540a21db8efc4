(** Dropout in the read-out ("head") of the networks.

    Numbers are rationals.  One row of a batch is modelled: every operation below acts on the
    rows of a batch separately and dropout draws the entries of different rows independently.
    The random generator is a tape of bits, [true] for an entry that is kept; it is read from
    left to right.  The message passing, jumping knowledge and pooling before the head are not
    part of this file: [xs] are the pooled rows of the dimensions in [readout_dims]. *)
From Coq Require Import List Arith ZArith QArith Bool String.
From Verif Require Import Base.
Import ListNotations.
Local Open Scope string_scope.
Local Open Scope Q_scope.

Definition tape := list bool.

(** torch.nn.functional.dropout as called in mp/models.py:233,239,247 and elsewhere: the rate is
    checked in both modes; in training an entry is multiplied by a Bernoulli bit over (1 - p).
    Nothing is drawn for p = 0, p = 1 and empty tensors. *)
Definition scale (p : Q) (keep : bool) : Q := if keep then / (1 - p) else 0.
Definition masked (p : Q) (t : tape) (x : list Q) : list Q :=
  map (fun bv => snd bv * scale p (fst bv)) (combine t x).
Definition dropout (p : Q) (training : bool) (t : tape) (x : list Q) : result (list Q * tape) :=
  if negb (Qle_bool 0 p && Qle_bool p 1) then Err ValueError
  else if negb training || Qeq_bool p 0 || Nat.eqb (List.length x) 0 then Ok (x, t)
  else if Qeq_bool p 1 then Ok (map (fun _ => 0) x, t)
  else Ok (masked p t x, skipn (List.length x) t).

(** torch.nn.Linear: rows of weights and a bias; RuntimeError for a wrong width. *)
Record layer := mklayer { weight : list (list Q); bias : list Q }.
Definition dot (w x : list Q) : Q := fold_right Qplus 0 (map (fun ab => fst ab * snd ab) (combine w x)).
Definition linear (l : layer) (x : list Q) : result (list Q) :=
  if forallb (fun w => Nat.eqb (List.length w) (List.length x)) (weight l)
  then Ok (map (fun wb => dot (fst wb) x + snd wb) (combine (weight l) (bias l)))
  else Err RuntimeError.

(** torch.stack of rows: not empty and all of one width. *)
Definition stack (rows : list (list Q)) : result (list (list Q)) :=
  match rows with
  | [] => Err RuntimeError
  | r :: _ => if forallb (fun r' => Nat.eqb (List.length r') (List.length r)) rows then Ok rows
              else Err RuntimeError
  end.
Definition add_rows (a b : list Q) : list Q := map (fun ab => fst ab + snd ab) (combine a b).
Definition sum0 (rows : list (list Q)) : list Q :=
  match rows with
  | [] => []
  | r :: rows' => fold_left add_rows rows' r
  end.
Definition mean0 (rows : list (list Q)) : list Q :=
  map (fun v => v / inject_Z (Z.of_nat (List.length rows))) (sum0 rows).

Record head := mkhead {
  lin1s : list layer;          (* the layers self.lin1s[d] for d in readout_dims *)
  lin2 : layer;
  final_readout : string;
  position : string;           (* self.apply_dropout_before *)
  rate : Q                     (* self.dropout_rate *)
}.

(** mp/models.py:230-235 (the same in mp/molec_models.py:137-142, 326-331, 480-485). *)
Fixpoint per_dim (act : Q -> Q) (h : head) (training : bool) (t : tape)
    (ls : list layer) (xs : list (list Q)) : result (list (list Q) * tape) :=
  match ls, xs with
  | l :: ls', x :: xs' =>
      let* r := (if position h =? "lin1" then dropout (rate h) training t x else Ok (x, t)) in
      let* y := linear l (fst r) in
      let* rest := per_dim act h training (snd r) ls' xs' in
      Ok (map act y :: fst rest, snd rest)
  | _, _ => Ok ([], t)
  end.

(** dropout of the stacked rows, entry by entry in row-major order *)
Fixpoint drop_rows (p : Q) (training : bool) (t : tape) (rows : list (list Q))
  : result (list (list Q) * tape) :=
  match rows with
  | [] => Ok ([], t)
  | r :: rows' =>
      let* a := dropout p training t r in
      let* b := drop_rows p training (snd a) rows' in
      Ok (fst a :: fst b, snd b)
  end.

(** mp/models.py:229-249 (SparseCIN; the same in EmbedSparseCIN, OGBEmbedSparseCIN and
    EmbedSparseCINNoRings, mp/molec_models.py:136-156, 325-345, 479-499). *)
Definition sparse_head (act : Q -> Q) (h : head) (training : bool) (t : tape) (xs : list (list Q))
  : result (list Q) :=
  let* a := per_dim act h training t (lin1s h) xs in
  let* rows := stack (fst a) in
  let* b := (if position h =? "final_readout" then drop_rows (rate h) training (snd a) rows
             else Ok (rows, snd a)) in
  let* x := (if final_readout h =? "mean" then Ok (mean0 (fst b))
             else if final_readout h =? "sum" then Ok (sum0 (fst b))
             else Err NotImplementedError) in
  let* c := (if (position h =? "lin1") || (position h =? "final_readout") then Ok (x, snd b)
             else dropout (rate h) training (snd b) x) in
  linear (lin2 h) (fst c).

(** mp/molec_models.py:595-602 (EmbedGIN): [x] is the pooled row of the vertices.  With the
    position "lin2" this is also the head of mp/graph_models.py:79-82, 142-145, 197-200, 260-263 and,
    with relu, of the oriented networks (mp/models.py:606-608). *)
Definition gin_head (act : Q -> Q) (l1 l2 : layer) (pos : string) (p : Q)
    (training : bool) (t : tape) (x : list Q) : result (list Q) :=
  let* a := (if pos =? "lin1" then dropout p training t x else Ok (x, t)) in
  let* y := linear l1 (fst a) in
  let* b := (if (pos =? "final_readout") || (pos =? "lin2")
             then dropout p training (snd a) (map act y) else Ok (map act y, snd a)) in
  linear l2 (fst b).

(** mp/models.py:101-106 (CIN0) and 411-416 (EdgeCIN0): [pooled] are the pooled rows of all
    dimensions, already stacked by pool_complex. *)
Definition cin0_head (act : Q -> Q) (l1 l2 : layer) (p : Q)
    (training : bool) (t : tape) (pooled : list (list Q)) : result (list Q) :=
  let* y := linear l1 (sum0 pooled) in
  let* b := dropout p training t (map act y) in
  linear l2 (fst b).
