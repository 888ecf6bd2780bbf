(** Model of MLSApproximator (/repo/src/sigmaepsilon/math/approx/mls.py).

    Numbers are elements of an ordered field (float64 without rounding).  Points are
    abstract: the KNN library gets them as they are.  The neighbour search is the model
    of knn.py in LogicalModel. *)
From Coq Require Import String.
From Verif Require Import Prelude OField ParallelModel KernModel.
From Verif Require LogicalModel.
Local Open Scope list_scope.

Section Mls.
Context {F : ofield} {Point : Type}.

(** The data type of the source data.  A number stored in an integer array is
    truncated; [trunc] is that conversion. *)
Inductive dtype : Type :=
| Floating
| Integer (trunc : F -> F).
Definition cast (d : dtype) (x : F) : F := match d with Floating => x | Integer trunc => trunc x end.

(** The state set by the constructor, mls.py:96-129: the source points (after
    [atleast2d(X_S, back=True)], mls.py:188, a row for each point), the source data
    with their data type, and the options that were given.  The type checks of the
    options are not modelled, they only let these values through; k is not negative. *)
Record approximator : Type := Approximator {
  X_S : list Point;
  Y_S : ndarray F;
  Y_type : dtype;
  opt_backend : option LogicalModel.backend;
  opt_k : option nat;
  opt_max_distance : option F
}.

(** The target points after [atleast2d(X_T, back=True)], mls.py:189: an array of shape
    [t_shape + (dim,)], whose points are listed in row-major order. *)
Record targets : Type := Targets { t_shape : list nat; t_points : list Point }.

(** The position of a multi-index in row-major order. *)
Fixpoint ravel (sh : list nat) (c : cell) : nat :=
  match sh, c with
  | _ :: sh', i :: c' => i * fold_right Nat.mul 1 sh' + ravel sh' c'
  | _, _ => 0
  end.

(** mls.py:165-177, [_get_neighbours]: the defaults are k = 4 and SciPy, and k = 0
    means 4 too. *)
Definition k_of (m : approximator) : nat :=
  match opt_k m with None => 4 | Some k => if k =? 0 then 4 else k end.
Definition backend_of (m : approximator) : LogicalModel.backend :=
  match opt_backend m with None => LogicalModel.Scipy | Some b => b end.
Definition get_neighbours (L : LogicalModel.libs F Point) (m : approximator) (T : targets) :
  result (LogicalModel.neighbours F) :=
  fst (LogicalModel.k_nearest_neighbours L (X_S m) (Some (t_points T)) (backend_of m) (k_of m) (-1)%Z
         None None 30 (option_map LogicalModel.Fin (opt_max_distance m))).

(** The array of indices that the KNN library makes of its rows: the shape of the
    targets, followed by an axis for the neighbours.  SciPy drops the last axis when
    k = 1. *)
Definition index_of (rows : LogicalModel.neighbours F) (p q : nat) : nat := snd (nth q (nth p rows []) (LogicalModel.NaN, 0)).
Definition neighbour_array (b : LogicalModel.backend) (k : nat) (sh : list nat) (rows : LogicalModel.neighbours F) : ndarray nat :=
  match b with
  | LogicalModel.Scipy =>
      if k =? 1 then ND sh (fun c => index_of rows (ravel sh c) 0)
      else ND (sh ++ [k]) (fun c => index_of rows (ravel sh (removelast c)) (last c 0))
  | _ => ND (sh ++ [k]) (fun c => index_of rows (ravel sh (removelast c)) (last c 0))
  end.

(** [values[r, ...]] in compiled code, without a bounds check: an index beyond the
    first axis reads whatever [junk] is in memory there. *)
Definition read (values : ndarray F) (junk : memory F) (r : nat) (c : cell) : F :=
  if r <? hd 0 (shape values) then at_ values (r :: c) else junk (r :: c).

(** mls.py:161-163: the factors are all the same, one over the length of the last
    axis of the neighbours. *)
Definition factor (nb : ndarray nat) : F := div one (of_nat (last (shape nb) 0)).

(** mls.py:13-22, [_approximate_2d] (a [prange] inside a [prange] is executed like
    [range]).  The array of results has the data type of the values.  Unpacking the
    shape of an array without exactly two axes is a typing error of numba. *)
Definition its_2d (d : dtype) (values : ndarray F) (junk : memory F) (nb : ndarray nat) (nT nN nD : nat) : list (list (update F)) :=
  map (fun i =>
    concat (map (fun j =>
      map (fun k => Upd [i; j] (fun a => cast d (add a (mul (read values junk (at_ nb [i; k]) [j]) (factor nb)))))
          (range nN)) (range nD))) (range nT).
Definition approximate_2d (d : dtype) (values : ndarray F) (junk : memory F) (nb : ndarray nat) (res : result (ndarray F)) : Prop :=
  match shape nb with
  | [nT; nN] =>
      let nD := last (shape values) 0 in
      exists out, res = Ok out /\ prange_run (zeros zero [nT; nD]) (its_2d d values junk nb nT nN nD) out
  | _ => res = Err TypeError
  end.

(** mls.py:25-32, [_approximate_nd], with the allocation in mls.py:201; for floating
    point data only. *)
Definition its_nd (values : ndarray F) (junk : memory F) (nb : ndarray nat) (nT nN : nat) (sh : list nat) : list (list (update F)) :=
  map (fun i =>
    concat (map (fun k =>
      map (fun c => Upd ([i] ++ c) (fun a => add a (mul (read values junk (at_ nb [i; k]) c) (factor nb)))) (cells sh))
    (range nN))) (range nT).
Definition approximate_nd (values : ndarray F) (junk : memory F) (nb : ndarray nat) (res : result (ndarray F)) : Prop :=
  match shape nb with
  | [nT; nN] =>
      exists out, res = Ok out /\ prange_run (zeros zero (nT :: tl (shape values))) (its_nd values junk nb nT nN (tl (shape values))) out
  | _ => res = Err TypeError
  end.

(** mls.py:194-196: one-dimensional data become a column. *)
Definition as_column (a : ndarray F) : ndarray F :=
  match shape a with [n] => ND [n; 1] (fun c => at_ a [hd 0 c]) | _ => a end.

(** [np.squeeze]: the axes of length one are dropped. *)
Fixpoint unsqueeze (sh : list nat) (c : cell) : cell :=
  match sh with
  | [] => []
  | n :: sh' => if n =? 1 then 0 :: unsqueeze sh' c else hd 0 c :: unsqueeze sh' (tl c)
  end.
Definition squeeze (a : ndarray F) : ndarray F :=
  ND (filter (fun n => negb (n =? 1)) (shape a)) (fun c => at_ a (unsqueeze (shape a) c)).
Definition squeezed (r : result (ndarray F)) : result (ndarray F) :=
  match r with Ok a => Ok (squeeze a) | Err e => Err e end.

(** mls.py:179-204, [approximate]: [approximate_run L m junk T res] says that [res] is
    a possible outcome.  Data of dimension other than two that are not floating point
    numbers are not covered (no outcome is described). *)
Definition approximate_run (L : LogicalModel.libs F Point) (m : approximator) (junk : memory F) (T : targets)
  (res : result (ndarray F)) : Prop :=
  match get_neighbours L m T with
  | Err e => res = Err e
  | Ok rows =>
      let nb := neighbour_array (backend_of m) (k_of m) (t_shape T) rows in
      let data := as_column (Y_S m) in
      exists r, res = squeezed r /\
      match shape data with
      | [_; _] => approximate_2d (Y_type m) data junk nb r
      | _ => Y_type m = Floating /\ approximate_nd data junk nb r
      end
  end.
End Mls.
Arguments dtype : clear implicits.
Arguments approximator : clear implicits.
Arguments targets : clear implicits.
