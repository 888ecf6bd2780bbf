(** Graph vocabulary, independent of the search code. *)
From Verif Require Import Prelude OField SparseModel.

(** [v] is a neighbour of [u] if the part of [indices] that belongs to row [u] of the
    matrix, from [indptr[u]] to [indptr[u + 1]], contains [v]. *)
Definition edge {F : ofield} (adj : csr F) (u v : nat) : Prop :=
  exists lo hi p, nth_error (c_indptr adj) u = Some lo /\ nth_error (c_indptr adj) (S u) = Some hi /\
    lo <= p < hi /\ nth_error (c_indices adj) p = Some v.

(** A well-formed adjacency matrix with [n] nodes: it has [n] rows, and neighbours are
    nodes. *)
Definition graph_wf {F : ofield} (n : nat) (adj : csr F) : Prop :=
  length (c_indptr adj) = n + 1 /\ forall u v, edge adj u v -> v < n.

(** Walks with [k] edges. *)
Inductive walk {F : ofield} (adj : csr F) : nat -> nat -> nat -> Prop :=
| walk_0 u : walk adj 0 u u
| walk_S k u v w : walk adj k u v -> edge adj v w -> walk adj (S k) u w.

(** [v] is at distance [k] of [u]. *)
Definition distance {F : ofield} (adj : csr F) (u v k : nat) : Prop :=
  walk adj k u v /\ forall j, j < k -> ~ walk adj j u v.

Definition reachable {F : ofield} (adj : csr F) (u v : nat) : Prop := exists k, walk adj k u v.

(** [k] is the eccentricity of [u]: the largest distance of a node from [u]. *)
Definition eccentricity {F : ofield} (n : nat) (adj : csr F) (u k : nat) : Prop :=
  (exists v, v < n /\ distance adj u v k) /\
  forall v j, v < n -> distance adj u v j -> j <= k.

Definition connected {F : ofield} (n : nat) (adj : csr F) : Prop :=
  forall u v, u < n -> v < n -> reachable adj u v.
Definition undirected {F : ofield} (adj : csr F) : Prop :=
  forall u v, edge adj u v -> edge adj v u.
