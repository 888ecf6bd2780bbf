(** What MLSApproximator promises: means over the nearest neighbours. *)
From Verif Require Import Prelude OField ParallelModel MlsModel.
From Verif Require LogicalModel LogicalSpec.
Local Open Scope list_scope.

Section Spec.
Context {F : ofield} {Point : Type}.
Variable dist : Point -> Point -> F.

(** k different points of X, none of the others closer to y than any of them. *)
Definition nearest (X : list Point) (y : Point) (k : nat) (row : list nat) : Prop :=
  length row = k /\ NoDup row /\
  (forall i, In i row -> i < length X) /\
  (forall i j x z, In i row -> ~ In j row -> nth_error X i = Some x -> nth_error X j = Some z ->
     leb (dist x y) (dist z y) = true).

Definition mean (l : list F) : F := div (suml l) (of_nat (length l)).

(** [out] holds, for every target point, the mean of the data at its k nearest source
    points, component by component. *)
Definition means (X : list Point) (Y : list Point) (k : nat) (table : list (list nat)) (data out : ndarray F) : Prop :=
  Forall2 (fun y row => nearest X y k row) Y table /\
  shape out = length Y :: tl (shape data) /\
  forall i row c, nth_error table i = Some row -> inside (tl (shape data)) c ->
    at_ out (i :: c) = mean (map (fun r => at_ data (r :: c)) row).

(** The promise of scikit-learn, for queries without a radius. *)
Definition sklearn_ok (L : LogicalModel.libs F Point) : Prop :=
  forall X ls tk tree, LogicalModel.sk_build L X ls tk = Ok tree ->
  forall Y k kw res, LogicalModel.sk_query L tree (Some Y) k kw = Ok res ->
  Forall2 (fun y row => LogicalSpec.row_ok dist X y k LogicalModel.PInf row) Y res.

(** The number of neighbours asked for: the option k; 4 if it is not given or zero. *)
Definition neighbours_wanted (k : option nat) : nat := match k with Some (S k) => S k | _ => 4 end.

(** The calls for which the class works: a row of data for each source point, a list
    of target points, floating point data, not more neighbours than source points,
    no limit on the distance (which a recent SciPy does not get to see anyway), and
    with SciPy at least two neighbours. *)
Definition supported (L : LogicalModel.libs F Point) (m : approximator F Point) (T : targets Point) : Prop :=
  hd 0 (shape (Y_S m)) = length (X_S m) /\ shape (Y_S m) <> [] /\
  Y_type m = Floating /\
  t_shape T = [length (t_points T)] /\
  neighbours_wanted (opt_k m) <= length (X_S m) /\
  match backend_of m with
  | LogicalModel.Scipy => 2 <= neighbours_wanted (opt_k m) /\ (opt_max_distance m = None \/ ~ LogicalSpec.released_before_1_6 (LogicalModel.scipy_version L))
  | LogicalModel.Sklearn => opt_max_distance m = None
  | LogicalModel.OtherBackend => False
  end.

(** The same approximator with other data. *)
Definition with_data (m : approximator F Point) (Y : ndarray F) : approximator F Point :=
  Approximator (X_S m) Y (Y_type m) (opt_backend m) (opt_k m) (opt_max_distance m).
End Spec.
