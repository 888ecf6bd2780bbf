(** C59: MLSApproximator averages the data at the nearest neighbours. *)
From Coq Require Import String QArith Qcanon.
From Verif Require Import Prelude OField ParallelModel MlsModel MlsSpec MlsProofs MlsCounter.
From Verif Require LogicalModel LogicalSpec.
Local Open Scope list_scope.
Local Open Scope nat_scope.

(** A supported call on floating point data returns, up to axes of length one, the
    means of the data at the k nearest source points, and every schedule of the
    parallel loops leads to the same array. *)
Theorem C59_means_partial :
  forall (F : ofield) (Point : Type) (dist : Point -> Point -> F) (L : LogicalModel.libs F Point)
    (m : approximator F Point) (junk : memory F) (T : targets Point) (out : ndarray F),
  LogicalSpec.scipy_ok dist L -> sklearn_ok dist L -> supported L m T ->
  approximate_run L m junk T (Ok out) ->
  exists full rows, get_neighbours L m T = Ok rows /\ out = squeeze full /\
    means dist (X_S m) (t_points T) (neighbours_wanted (opt_k m)) (map (map snd) rows) (as_column (Y_S m)) full.
Proof. intros F Point dist L m junk T out H1 H2 H3 H4. rewrite <- k_of_wanted. exact (approximate_means dist L m junk T out H1 H2 H3 H4). Qed.
Print Assumptions C59_means_partial.
(** There is an outcome; it is an error only if the KNN library raises one. *)
Theorem C59_returns_partial :
  forall (F : ofield) (Point : Type) (L : LogicalModel.libs F Point) (m : approximator F Point) (junk : memory F) (T : targets Point) rows,
  supported L m T -> get_neighbours L m T = Ok rows ->
  (exists out, approximate_run L m junk T (Ok out)) /\
  forall e, ~ approximate_run L m junk T (Err e).
Proof. exact @approximate_returns. Qed.
Print Assumptions C59_returns_partial.
Theorem C59_schedule :
  forall (F : ofield) (Point : Type) (L : LogicalModel.libs F Point) (m : approximator F Point) (junk : memory F) (T : targets Point) a b,
  approximate_run L m junk T (Ok a) -> approximate_run L m junk T (Ok b) -> nd_eq a b.
Proof. intros F Point L m junk T a b Ha Hb. exact (approximate_det L m junk T _ _ Ha Hb). Qed.
Print Assumptions C59_schedule.
(** The values are between the bounds of the data; constants are reproduced, *)
Theorem C59_bounds_partial :
  forall (F : ofield) (Point : Type) (dist : Point -> Point -> F) (L : LogicalModel.libs F Point)
    (m : approximator F Point) (junk : memory F) (T : targets Point) (out : ndarray F) (lo hi : F),
  LogicalSpec.scipy_ok dist L -> sklearn_ok dist L -> supported L m T ->
  approximate_run L m junk T (Ok out) ->
  (forall c, inside (shape (Y_S m)) c -> leb lo (at_ (Y_S m) c) = true /\ leb (at_ (Y_S m) c) hi = true) ->
  forall c, inside (shape out) c -> leb lo (at_ out c) = true /\ leb (at_ out c) hi = true.
Proof. exact @approximate_bounds. Qed.
Print Assumptions C59_bounds_partial.
Theorem C59_constant_partial :
  forall (F : ofield) (Point : Type) (dist : Point -> Point -> F) (L : LogicalModel.libs F Point)
    (m : approximator F Point) (junk : memory F) (T : targets Point) (out : ndarray F) (v : F),
  LogicalSpec.scipy_ok dist L -> sklearn_ok dist L -> supported L m T ->
  approximate_run L m junk T (Ok out) ->
  (forall c, inside (shape (Y_S m)) c -> at_ (Y_S m) c = v) ->
  forall c, inside (shape out) c -> at_ out c = v.
Proof.
  intros F Point dist L m junk T out v H1 H2 H3 H4 H c Hc.
  destruct (approximate_bounds dist L m junk T out v v H1 H2 H3 H4) with (c := c) as [G1 G2]; [|exact Hc|].
  - intros d Hd. rewrite (H d Hd). split; apply le_refl.
  - apply (le_antisym F); assumption.
Qed.
Print Assumptions C59_constant_partial.
(** the value at a target is between the bounds of the data at its neighbours, *)
Theorem C59_local_bounds_partial :
  forall (F : ofield) (l : list F) lo hi, l <> [] ->
  (forall v, In v l -> leb lo v = true /\ leb v hi = true) -> leb lo (mean l) = true /\ leb (mean l) hi = true.
Proof. exact @mean_bounds. Qed.
Print Assumptions C59_local_bounds_partial.
(** and the result is linear in the data. *)
Theorem C59_linear_partial :
  forall (F : ofield) (Point : Type) (dist : Point -> Point -> F) (L : LogicalModel.libs F Point)
    (m : approximator F Point) (junk : memory F) (T : targets Point) (Y1 Y2 : ndarray F) (a b : F) (out out1 out2 : ndarray F),
  LogicalSpec.scipy_ok dist L -> sklearn_ok dist L -> supported L m T ->
  shape Y1 = shape (Y_S m) -> shape Y2 = shape (Y_S m) ->
  (forall c, inside (shape (Y_S m)) c -> at_ (Y_S m) c = add (mul a (at_ Y1 c)) (mul b (at_ Y2 c))) ->
  approximate_run L m junk T (Ok out) ->
  approximate_run L (with_data m Y1) junk T (Ok out1) -> approximate_run L (with_data m Y2) junk T (Ok out2) ->
  shape out1 = shape out /\ shape out2 = shape out /\
  forall c, inside (shape out) c -> at_ out c = add (mul a (at_ out1 c)) (mul b (at_ out2 c)).
Proof. exact @approximate_linear. Qed.
Print Assumptions C59_linear_partial.

(** ** Where the promise is broken *)
(** Integer data: ones are averaged to zero. *)
Theorem C59_integer_refuted :
  exists (L : LogicalModel.libs Qc_ofield Qc) (m : approximator Qc_ofield Qc) (T : targets Qc),
  LogicalSpec.scipy_ok qdist L /\ k_of m <= length (X_S m) /\ (forall c, at_ (Y_S m) c = one) /\
  forall junk, (exists out, approximate_run L m junk T (Ok out)) /\
  forall r, approximate_run L m junk T r -> exists out, r = Ok out /\ shape out = [2] /\ at_ out [0] = zero.
Proof.
  exists qlib, m_int, two. split; [apply brute2_scipy|]. split; [cbn; lia|]. split; [intros c; apply Qc_is_canon; reflexivity|].
  exact int_constant.
Qed.
Print Assumptions C59_integer_refuted.
(** A single neighbour is refused with SciPy. *)
Theorem C59_single_refuted :
  exists (L : LogicalModel.libs Qc_ofield Qc) (m : approximator Qc_ofield Qc) (T : targets Qc),
  LogicalSpec.scipy_ok qdist L /\ k_of m = 1 /\ is_ok (get_neighbours L m T) = true /\
  forall junk r, approximate_run L m junk T r -> r = Err TypeError.
Proof.
  exists qlib, (m_one LogicalModel.Scipy), two. split; [apply brute2_scipy|]. split; [reflexivity|]. split; [vm_compute; reflexivity|].
  exact one_scipy.
Qed.
Print Assumptions C59_single_refuted.
(** With fewer source points than neighbours (the default number is four) memory
    beyond the data is read: ones can be averaged to any number. *)
Theorem C59_few_points_refuted :
  exists (L : LogicalModel.libs Qc_ofield Qc) (m : approximator Qc_ofield Qc) (T : targets Qc),
  LogicalSpec.scipy_ok qdist L /\ opt_k m = None /\ (forall c, at_ (Y_S m) c = one) /\
  forall v, exists junk,
  (exists out, approximate_run L m junk T (Ok out)) /\
  forall r, approximate_run L m junk T r -> exists out, r = Ok out /\ shape out = [2] /\ at_ out [0] = v.
Proof.
  exists qlib, m_few, two. split; [apply brute2_scipy|]. split; [reflexivity|]. split; [intros c; apply Qc_is_canon; reflexivity|].
  exact few_points.
Qed.
Print Assumptions C59_few_points_refuted.
(** A grid of target points, which the class documentation allows, is refused; and with
    one neighbour the targets of a row of the grid are averaged: for the data 0, 1, ...
    at the points 0, 1, ... the four targets 0, 1, 0, 1 give two values, both 1/2. *)
Theorem C59_grid_refuted :
  exists (L : LogicalModel.libs Qc_ofield Qc) (m1 m2 : approximator Qc_ofield Qc) (T : targets Qc),
  LogicalSpec.scipy_ok qdist L /\ t_shape T = [2; 2] /\ k_of m1 = 1 /\ k_of m2 = 2 /\
  forall junk,
  (forall r, approximate_run L m2 junk T r -> r = Err TypeError) /\
  (exists out, approximate_run L m1 junk T (Ok out)) /\
  (forall r, approximate_run L m1 junk T r -> exists out, r = Ok out /\ shape out = [2] /\ at_ out [0] = (Q2Qc (1#2) : Qc_ofield)).
Proof.
  exists qlib, (m_grid 1), (m_grid 2), grid. split; [apply brute2_scipy|]. repeat split; try reflexivity.
  - apply grid_error.
  - apply (proj1 (grid_mixed junk)).
  - apply (proj2 (grid_mixed junk)).
Qed.
Print Assumptions C59_grid_refuted.

(** The hypotheses are met: five points on a line, with both libraries. *)
Example C59_example : LogicalSpec.scipy_ok qdist qlib /\ sklearn_ok qdist qlib /\ supported qlib (m_grid 2) two /\
  supported qlib (m_one LogicalModel.Sklearn) two /\
  map (map snd) (rows_of (m_grid 3) two) = [[1; 0; 2]; [2; 1; 3]].
Proof.
  split; [apply brute2_scipy|]. split; [apply brute2_sklearn|].
  split; [repeat split; cbn; try lia; try discriminate; left; reflexivity|].
  split; [repeat split; cbn; try lia; discriminate|]. vm_compute. reflexivity.
Qed.
