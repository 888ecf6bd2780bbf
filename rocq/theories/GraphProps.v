(** Properties C17-C19: level structures and pseudo-peripheral nodes. *)
From Coq Require Import QArith Qcanon.
From Verif Require Import Prelude OField SparseModel GraphModel GraphSpec GraphProofs.
Local Open Scope nat_scope.

(** C17.  If every node can be reached from the root, the search returns (after at
    most one iteration per node) the breadth-first levels. *)
Theorem C17_levels_are_distances :
  forall (F : ofield) n (adj : csr F) root, graph_wf n adj -> root < n ->
  (forall v, v < n -> reachable adj root v) ->
  exists rls, (forall fuel, n <= fuel -> rooted_level_structure fuel adj root = Ok rls) /\
    nth_error rls 0 = Some [root] /\
    (forall k L, nth_error rls k = Some L ->
       StronglySorted lt L /\ L <> [] /\ forall v, In v L <-> distance adj root v k) /\
    (forall v, v < n -> exists k L, nth_error rls k = Some L /\ In v L).
Proof. exact @rls_ok. Qed.
Print Assumptions C17_levels_are_distances.

(** C18.  The claim "always returns" fails for every graph with a node that the root
    does not reach; the smallest witness has two nodes and no edge. *)
Definition two_nodes : csr Qc_ofield := Csr [] [] [0; 0; 0] (2, 2).

Theorem C18_always_returns_refuted :
  exists (adj : csr Qc_ofield) root, graph_wf 2 adj /\ root < 2 /\
    forall fuel, rooted_level_structure fuel adj root = Err OutOfFuel.
Proof.
  exists two_nodes, 0.
  assert (W : graph_wf 2 two_nodes).
  { split; [reflexivity|]. intros u v (lo & hi & p & _ & _ & _ & E). destruct p; discriminate E. }
  split; [exact W|]. split; [lia|]. apply (rls_never_returns 2 two_nodes 0 1 W); [lia|lia|].
  intros (k & H). inversion H as [|k' u v w Hw (lo & hi & p & _ & _ & _ & E)]; subst. destruct p; discriminate E.
Qed.
Print Assumptions C18_always_returns_refuted.

(** The exact condition: the call returns if and only if the root reaches every
    node. *)
Theorem C18_returns_iff_connected_partial :
  forall (F : ofield) n (adj : csr F) root, graph_wf n adj -> root < n ->
  (exists fuel rls, rooted_level_structure fuel adj root = Ok rls) <->
  (forall v, v < n -> reachable adj root v).
Proof. exact @rls_returns_iff. Qed.
Print Assumptions C18_returns_iff_connected_partial.

(** C19.  On a connected undirected graph the search stops; it returns the farthest
    nodes [L] of some node [r], and [r] itself.  All of them have the same
    eccentricity, which is at least that of node 0. *)
Theorem C19_pseudo_peripheral_nodes :
  forall (F : ofield) n (adj : csr F) e0,
  graph_wf n adj -> 0 < n -> undirected adj -> connected n adj -> eccentricity n adj 0 e0 ->
  forall outer fuel, n <= fuel -> S (S n * S n) <= outer ->
  exists res r e L, pseudo_peripheral_nodes outer fuel adj = Ok res /\
    res = L ++ [r] /\ L <> [] /\ StronglySorted lt L /\
    (forall v, In v L <-> distance adj r v e) /\
    e0 <= e /\ forall v, In v res -> v < n /\ eccentricity n adj v e.
Proof. exact @pseudo_peripheral_ok. Qed.
Print Assumptions C19_pseudo_peripheral_nodes.

(** Node 0 of a connected graph has an eccentricity. *)
Theorem C19_eccentricity_exists :
  forall (F : ofield) n (adj : csr F) u, graph_wf n adj -> connected n adj -> u < n ->
  exists e, eccentricity n adj u e.
Proof. exact (fun F n adj u W C H => eccentricity_exists n adj W C u H). Qed.
Print Assumptions C19_eccentricity_exists.

(** A path 1 - 0 - 2 - 3 meets the hypotheses. *)
Definition path4 : csr Qc_ofield :=
  Csr (repeat one 6) [1; 2; 0; 0; 3; 2] [0; 2; 3; 5; 6] (4, 4).

Example C17_example :
  rooted_level_structure 4 path4 0 = Ok [[0]; [1; 2]; [3]] /\
  pseudo_peripheral_nodes 26 4 path4 = Ok [1; 3].
Proof. split; reflexivity. Qed.

Lemma path4_edges u v : edge path4 u v <-> In (u, v) [(0,1);(0,2);(1,0);(2,0);(2,3);(3,2)].
Proof.
  unfold edge. cbn [c_indptr c_indices path4]. split.
  - intros (lo & hi & p & E1 & E2 & Hp & E).
    do 5 (destruct u as [|u]; [try (cbn in E2; discriminate E2); cbn in E1, E2; injection E1 as <-; injection E2 as <-;
      do 6 (destruct p as [|p]; [try lia; cbn in E; injection E as <-; cbn; auto 10|]); lia|]).
    cbn in E1. destruct u; discriminate E1.
  - intros H. cbn in H.
    destruct H as [H|[H|[H|[H|[H|[H|[]]]]]]]; injection H as <- <-.
    + exists 0, 2, 0. repeat split; lia.
    + exists 0, 2, 1. repeat split; lia.
    + exists 2, 3, 2. repeat split; lia.
    + exists 3, 5, 3. repeat split; lia.
    + exists 3, 5, 4. repeat split; lia.
    + exists 5, 6, 5. repeat split; lia.
Qed.

Example path4_wf : graph_wf 4 path4.
Proof.
  split; [reflexivity|]. intros u v H. apply path4_edges in H. cbn in H.
  repeat (destruct H as [H|H]; [injection H as <- <-; lia|]). destruct H.
Qed.

Example path4_undirected : undirected path4.
Proof.
  intros u v H. apply path4_edges in H. apply path4_edges. cbn in H |- *.
  repeat (destruct H as [H|H]; [injection H as <- <-; auto 10|]). destruct H.
Qed.

Example path4_connected : connected 4 path4.
Proof.
  assert (E : forall u v, In (u, v) [(0,1);(0,2);(1,0);(2,0);(2,3);(3,2)] -> edge path4 u v).
  { intros u v. apply path4_edges. }
  assert (Z0 : forall v, v < 4 -> reachable path4 0 v).
  { intros v Hv. assert (v = 0 \/ v = 1 \/ v = 2 \/ v = 3) as [->|[->|[->| ->]]] by lia.
    - exists 0. constructor.
    - exists 1. econstructor; [constructor|apply E; cbn; auto 10].
    - exists 1. econstructor; [constructor|apply E; cbn; auto 10].
    - exists 2. econstructor; [econstructor; [constructor|apply (E 0 2); cbn; auto 10]|apply E; cbn; auto 10]. }
  intros u v Hu Hv. destruct (Z0 u Hu) as (k & Hk). destruct (Z0 v Hv) as (m & Hm).
  exists (k + m). eapply walk_app; [|exact Hm]. apply (walk_sym 4); [lia|exact path4_undirected|exact Hk].
Qed.
