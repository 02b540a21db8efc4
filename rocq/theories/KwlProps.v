(** C79: where networks on lifted graphs stand in the Weisfeiler-Lehman hierarchy. *)
From Coq Require Import List Arith Lia ZArith Bool Permutation.
From Verif Require Import Base ScatterModel ScatterSpec ScatterProofs ComplexModel BatchSpec BatchSpec2
  BatchProofs BatchProofs2 DummyModel BatchProps LiftModel LiftSpec LiftBase LiftProofs LiftClique LiftTables LiftCliqueProps LiftRing LiftProps LiftRingProps LiftRingExamples LiftRingBoundary LiftIso
  MPModel MPSpec MPProofs MPEngine MPBatch MPForward MPNets MPProps MPIso PermLift
  GraphNetModel GraphNetSpec GraphNetProofs GraphNetProps PowerSpec PowerProofs PowerProps WLSpec WLProofs WLProps ExpModel ExpProps CountProps.
From Verif Require Import BlindSpec BlindProps.
From Verif Require Import HierSpec HierProofs.
From Verif Require Import HierProps.
From Verif Require Import KwlSpec KwlProofs.
Import ListNotations.

Lemma joined_iff es u v : joined es u v = true <-> In (u, v) es \/ In (v, u) es.
Proof.
  unfold joined. rewrite existsb_exists. split.
  - intros ([a b] & H & E). cbn in E. apply orb_true_iff in E as [E|E]; apply andb_true_iff in E as [E1 E2]; apply Nat.eqb_eq in E1, E2; subst; auto.
  - intros [H|H]; [exists (u, v)|exists (v, u)]; (split; [exact H|]); cbn; rewrite !Nat.eqb_refl, ?orb_true_r; reflexivity.
Qed.
Lemma pairs_map {N M R} (f : N -> M) (g : N -> N -> R) (h : M -> M -> R) a : (forall u v, In u a -> In v a -> h (f u) (f v) = g u v) -> pairs h (map f a) = pairs g a.
Proof.
  intros H. unfold pairs. assert (E : list_prod (map f a) (map f a) = map (fun p => (f (fst p), f (snd p))) (list_prod a a)).
  { generalize a at 2 4. clear. induction a as [|u a IH]; intros b; cbn; auto. rewrite IH, map_app, !map_map. auto. }
  rewrite E, map_map. apply map_ext_in. intros [u v] X. apply in_prod_iff in X. cbn. apply H; tauto.
Qed.

(** The nodes of the graph by what they stand for. *)
Definition spot_eqb (u v : nat * list bool) : bool := (fst u =? fst v) && (if list_eq_dec bool_dec (snd u) (snd v) then true else false).
Lemma spot_eqb_iff u v : spot_eqb u v = true <-> u = v.
Proof.
  unfold spot_eqb. destruct u as [i f], v as [j g]. cbn [fst snd]. rewrite andb_true_iff, Nat.eqb_eq. destruct (list_eq_dec bool_dec f g) as [-> |N].
  - split; [intros [-> _]; reflexivity|]. intros X. injection X as ->. split; reflexivity.
  - split; [intros [_ X]; discriminate|]. intros X. injection X as -> ->. congruence.
Qed.
Definition spot_atom {W} (x : W) (a : list (nat * list bool)) : list W * list bool * list bool := (map (fun _ => x) a, pairs spot_eqb a, pairs agree a).
Lemma spot_iso {W C} (init : list W * list bool * list bool -> C) hash (x : W) r tw k l : kwl_symmetric hash ->
  kwl_colours init hash (bit_graph r tw) (fun _ => x) (length (spots r tw)) k l =
  map (kwl init hash (spots r tw) (spot_atom x) l) (tuples (spots r tw) k).
Proof.
  intros HS. unfold kwl_colours. set (n := length (spots r tw)).
  assert (E : map (spot r tw) (seq 0 n) = spots r tw).
  { unfold spot, n. apply (nth_ext _ _ (0, []) (0, [])); [rewrite map_length, seq_length; auto|].
    intros i Hi. rewrite map_length, seq_length in Hi. rewrite (nth_indep _ (0, []) (nth 0 (spots r tw) (0, []))) by (rewrite map_length, seq_length; auto).
    rewrite (map_nth (fun u => nth u (spots r tw) (0, []))), seq_nth by auto. auto. }
  replace (tuples (spots r tw) k) with (map (map (spot r tw)) (tuples (seq 0 n) k)) by (rewrite <- tuples_map, E; reflexivity).
  rewrite map_map. apply map_ext_in. intros a Ha. apply tuples_in in Ha as [_ Ha].
  symmetry. apply (kwl_iso init hash HS (spot r tw) (seq 0 n) (spots r tw)); [rewrite E; reflexivity| |exact Ha].
  clear a Ha. intros a Ha. rewrite Forall_forall in Ha. unfold spot_atom, tuple_atom. rewrite map_map. f_equal; [f_equal|]; apply pairs_map; intros u v Hu Hv;
    apply Ha, in_seq in Hu; apply Ha, in_seq in Hv; apply eq_true_iff_eq.
  - rewrite spot_eqb_iff, Nat.eqb_eq. split; [|intros ->; auto]. intros X. eapply (proj1 (NoDup_nth (spots r tw) (0, []))); eauto; [apply spots_nodup|unfold n in *; lia|unfold n in *; lia].
  - rewrite joined_iff, !bit_in. fold n. rewrite (agree_sym (spot r tw v)). split; [|intuition].
    intros X. assert (u <> v) by (intros ->; rewrite agree_irrefl in X; discriminate). destruct (Nat.lt_ge_cases u v); [left|right]; intuition lia.
Qed.

(** The k-dimensional test does not separate the two graphs, whatever the colours, the hash function and the number of rounds. *)
Theorem C79_test_blind {W C} (init : list W * list bool * list bool -> C) hash (x : W) k p l : kwl_symmetric hash -> k + 2 <= p -> let n := p * 2 ^ (p - 2) in
  Permutation (kwl_colours init hash (bit_graph p false) (fun _ => x) n k l) (kwl_colours init hash (bit_graph p true) (fun _ => x) n k l).
Proof.
  intros HS Hk n. unfold n. rewrite <- (spots_len p false) at 1 by lia. rewrite <- (spots_len p true) by lia.
  rewrite !spot_iso by exact HS. rewrite !spots_twisted. apply all_hidden; auto; try lia.
  intros t t' a Ht Ht' Ha. unfold spot_atom. rewrite map_map. rewrite Forall_forall in Ha. f_equal; [f_equal|]; apply pairs_map; intros u v Hu Hv.
  - apply eq_true_iff_eq. rewrite !spot_eqb_iff. split; [|congruence]. intros X. rewrite <- (switch_twice t t' u), X. apply switch_twice.
  - eapply switch_agree; eauto.
Qed.
(** One layer on the clique complex separates them. *)
Theorem C79_beyond k lib r down : 1 <= k -> good_lib lib -> exists n es es',
  (forall (W C : Type) (init : list W * list bool * list bool -> C) hash (x : W) l, kwl_symmetric hash ->
     Permutation (kwl_colours init hash es (fun _ => x) n k l) (kwl_colours init hash es' (fun _ => x) n k l)) /\
  exists K K' layers lin1 b v v' bo,
     compute_clique_complex Zops lib r (repeat 1%Z n) es n (k + 1) None down = Ok K /\
     compute_clique_complex Zops lib r (repeat 1%Z n) es' n (k + 1) None down = Ok K' /\
     length layers = 1 /\ from_complex_list [K; K'] (k + 1) = Ok b /\
     net_forward Zops (sparse_cin Zops (k + 1) layers None RAdd (seq 0 (k + 2)) lin1 false (fun v => v)) b = Ok ([v; v'], bo) /\ v <> v'.
Proof.
  intros Hk Hlib. exists ((k + 2) * 2 ^ (k + 2 - 2)), (bit_graph (k + 2) false), (bit_graph (k + 2) true). split.
  - intros W C init hash x l HS. apply C79_test_blind; auto.
  - destruct (C77_cliques lib r down (k + 2) (k + 1) ltac:(lia) Hlib) as [_ H]. replace (k + 2 - 1) with (k + 1) in H by lia. apply H. lia.
Qed.
