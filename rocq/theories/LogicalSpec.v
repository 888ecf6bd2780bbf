(** What isclose, is_hermitian and k_nearest_neighbours promise. *)
From Coq Require Import String.
From Verif Require Import Prelude OField LogicalModel.

Section Spec.
Context {F : ofield}.
Local Open Scope of_scope.

(** The documented test for two finite numbers, [None] switching a test off. *)
Definition close (x y : F) (atol rtol : option F) : Prop :=
  (forall a, atol = Some a -> absf (x - y) <= a) /\
  (forall r, rtol = Some r -> absf (x - y) <= absf (r * y)).

(** An index of a shape. *)
Definition inside (s idx : list nat) : Prop := Forall2 (fun i d => (i < d)%nat) idx s.

(** Tolerances that are allowed: at least one, all of them positive. *)
Definition valid (atol rtol : option (float F)) : Prop :=
  (atol <> None \/ rtol <> None) /\
  (forall a, atol = Some a -> fpos a = true) /\ (forall r, rtol = Some r -> fpos r = true).
Definition fins (t : option F) : option (float F) := option_map Fin t.

(** The answer as an array: a single boolean stands for an array of shape (1,). *)
Definition entries (r : answer) : array bool :=
  match r with One b => Array [1%nat] (fun _ => b) | Many a => a end.
End Spec.

(** A square array that is equal to its conjugate transpose. *)
Definition hermitian {A} (conj : A -> A) (arr : array A) : Prop :=
  exists n, shape arr = [n; n] /\
  forall i j, i < n -> j < n -> get arr [i; j] = conj (get arr [j; i]).

(** ** Nearest neighbours *)
Section Knn.
Context {F : ofield} {Point : Type}.
Variable dist : Point -> Point -> F.
Local Open Scope of_scope.

(** A release [major.minor.patch] that comes before 1.6.0. *)
Definition released_before_1_6 (v : nat * nat * nat) : Prop :=
  match v with (O, _, _) => True | (S O, minor, _) => (minor < 6)%nat | _ => False end.

(** A row of k neighbours of y among the points X within the upper bound: the listed
    distances are right and below the bound, missing neighbours have the index |X|;
    a point within the bound that is not listed is not closer than those listed, and
    then no neighbour is missing; no point is listed twice. *)
Definition row_ok (X : list Point) (y : Point) (k : nat) (ub : float F) (row : list (float F * nat)) : Prop :=
  List.length row = k /\
  (forall d i, In (d, i) row -> (i < List.length X)%nat -> forall x, nth_error X i = Some x ->
     d = Fin (dist x y) /\ fle ub d = false) /\
  (forall i x, nth_error X i = Some x -> fle ub (Fin (dist x y)) = false -> ~ (exists d, In (d, i) row) ->
     forall d j, In (d, j) row -> (j < List.length X)%nat /\ fle d (Fin (dist x y)) = true) /\
  NoDup (filter (fun i => i <? List.length X)%nat (map snd row)).

(** The promise of SciPy: a tree that has been built knows its points, and a query
    that succeeds returns such rows, for the option [distance_upper_bound] if it is
    given and without bound otherwise. *)
Definition bound_of (kw : dict F) : float F :=
  match lookup "distance_upper_bound" kw with Some (VFloat r) => r | _ => PInf end.
Definition scipy_ok (L : libs F Point) : Prop :=
  forall X ls tk tree, sp_build L X ls tk = Ok tree ->
  forall Y k w kw res, sp_query L tree (Some Y) k w kw = Ok res ->
  Forall2 (fun y row => row_ok X y k (bound_of kw) row) Y res.

(** No neighbour is farther than r. *)
Definition within (X Y : list Point) (r : F) (res : neighbours F) : Prop :=
  Forall2 (fun y row => forall d i x, In (d, i) row -> nth_error X i = Some x -> dist x y <= r) Y res.
End Knn.
