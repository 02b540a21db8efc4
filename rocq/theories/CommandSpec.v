(** How a command line is read, as a grammar.  Only the table of options, the environment and the
    values are shared with the model. *)
From Coq Require Import String Ascii List ZArith DecimalString.
From Verif Require Import Base CommandModel.
Import ListNotations.
Open Scope string_scope.

Definition named (e : env) (n : string) (k : kind) : Prop := exists d, In (n, (k, d)) (options e).

(** [p] begins the option [n]. *)
Definition begins (p n : string) : Prop := exists rest, "--" ++ n = p ++ rest.

(** [p] stands for an option: its full name, or a beginning of it that begins no other option and
    is not the full name of one. *)
Definition stands_for (e : env) (p n : string) (k : kind) : Prop :=
  named e n k /\
  (p = "--" ++ n \/
   (forall m k', named e m k' -> p <> "--" ++ m) /\ begins p n /\
   (forall m k', named e m k' -> begins p m -> m = n)).

Definition letters (s : string) : list ascii := list_ascii_of_string s.
Definition digits (s : string) : Prop :=
  Forall (fun c => In c ["0"; "1"; "2"; "3"; "4"; "5"; "6"; "7"; "8"; "9"]%char) (letters s).
Definition lacks (c : ascii) (s : string) : Prop := ~ In c (letters s).

(** Texts that may be the value of the option before them. *)
Inductive arglike (e : env) : string -> Prop :=
| plain_text v : (forall r, v <> "-" ++ r) -> arglike e v
| one_dash : arglike e "-"
| negative_integer d : digits d -> d <> "" -> arglike e ("-" ++ d)
| negative_decimal p q : digits p -> digits q -> q <> "" -> arglike e ("-" ++ p ++ "." ++ q)
| spaced_short c r : In " "%char (letters (String c r)) -> c <> "-"%char -> c <> "h"%char ->
    arglike e ("-" ++ String c r)
| spaced_long p rest : In " "%char (letters (p ++ rest)) -> (exists r, p ++ rest = "--" ++ r) ->
    lacks "=" p -> (rest = "" \/ exists x, rest = "=" ++ x) ->
    (forall n k, named e n k -> ~ begins p n) -> arglike e (p ++ rest).

(** One option with its value or values. *)
Inductive item (e : env) : list string -> string -> val -> Prop :=
| flag t n : stands_for e t n KFlag -> item e [t] n (VBool true)
| value t v n k x : stands_for e t n k -> arglike e v -> reads e k v x -> item e [t; v] n x
| equals p v n k x : stands_for e p n k -> reads e k v x -> item e [p ++ "=" ++ v] n x
| several t vs n zs : stands_for e t n KInts -> vs <> [] ->
    Forall2 (fun v z => arglike e v /\ e_int e v = Some z) vs zs -> item e (t :: vs) n (VInts zs)
| several_equals p v n z : stands_for e p n KInts -> e_int e v = Some z ->
    item e [p ++ "=" ++ v] n (VInts [z])
with reads (e : env) : kind -> string -> val -> Prop :=
| read_int v z : e_int e v = Some z -> reads e KInt v (VInt z)
| read_float v q : e_float e v = Some q -> reads e KFloat v (VFloat q)
| read_str v : reads e KStr v (VStr v)
| read_choice l v : In v l -> reads e (KChoice l) v (VStr v).

Inductive command (e : env) : list string -> list (string * val) -> Prop :=
| no_more : command e [] []
| one_more ts n v l its : item e ts n v -> command e l its -> command e (ts ++ l) ((n, v) :: its).

(** The last value counts. *)
Fixpoint final (its : list (string * val)) (o : string) (d : val) : val :=
  match its with
  | [] => d
  | (n, v) :: its => final its o (if string_dec o n then v else d)
  end.

(** The namespace [ns] holds what the options [its] say. *)
Definition says (e : env) (its : list (string * val)) (ns : space) : Prop :=
  forall o k d, In (o, (k, d)) (options e) -> ns o = final its o d.

(** Integers are read back. *)
Definition decimal (e : env) : Prop := forall z, e_int e (DecimalString.NilEmpty.string_of_int (Z.to_int z)) = Some z.

(** ** The scripts *)

(** The value the user gives to an option ([final] from its default). *)
Definition given (e : env) (its : list (string * val)) (o : string) (v : val) : Prop :=
  exists k d, In (o, (k, d)) (options e) /\ v = final its o d.

(** [r] is the file or folder [q] inside [p]. *)
Inductive inside : string -> string -> string -> Prop :=
| in_nothing q : inside "" q q
| in_slash p q : inside (p ++ "/") q (p ++ "/" ++ q)
| in_folder p q : p <> "" -> (forall p', p <> p' ++ "/") -> inside p q (p ++ "/" ++ q).

(** The ring sizes of the RingTransfer experiments. *)
Definition ring_size (fold : nat) : Z := (10 + 2 * Z.of_nat fold)%Z.
(** The families of strongly regular graphs with the dimension of their clique complexes. *)
Definition srg : list (string * Z) :=
  [("sr16622", 3); ("sr251256", 4); ("sr261034", 3); ("sr281264", 6); ("sr291467", 4); ("sr351668", 4);
   ("sr351899", 6); ("sr361446", 3); ("sr401224", 3)]%Z.
Definition upto (n : Z) : list Z := map Z.of_nat (seq 0 (Z.to_nat (n + 1))).
