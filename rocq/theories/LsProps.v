(** Property C56 about the least squares fits. *)
From Coq Require Import QArith Qcanon.
From Verif Require Import Prelude OField Inverse LsModel LsSpec LsProofs LsBasis LsEq LsFit LsCases LsExamples.
Local Open Scope nat_scope.

(** ** C56 *)

(** A weighted fit of degree one or two to points of one, two or three coordinates.  The
    weight function gives the weights [W] of the points (and gradients and Hessians of the
    right shape if they are asked for), and these are not negative.  If the points of
    positive weight determine the polynomials of the degree, the fit is there, and for
    every record its value is everywhere that of the best polynomial: the one of least
    weighted squared error, among all of the degree.  Data that come from a polynomial
    of the degree are reproduced.  Otherwise the normal matrix is singular and the call
    raises LinAlgError. *)
Theorem C56_weighted_best_partial (F : ofield) inv (c : cloud F) values deg order w core W G H :
  inv_ok LinAlgError inv -> cloud_ok c -> (deg = 1 \/ deg = 2) -> length (cloud_points c) = length values ->
  w_dim (the_weight c w) = cloud_dim c ->
  weight_at (the_weight c w) core (cloud_points c) (grad_of order) (hess_of order) W G H ->
  (forall x, In x (cloud_points c) -> 0 <= W x)%F ->
  (unisolvent deg (cloud_dim c) (map W (cloud_points c)) (cloud_points c) ->
   exists f, weighted_least_squares inv c values deg order w core = Ok f /\
     (forall x, exists a, f x = Ok a /\ length (value_of a) = records values) /\
     forall r, r < records values ->
       exists p, best deg (cloud_dim c) (map W (cloud_points c)) (column values r) (cloud_points c) p /\
         (forall x a, length x = cloud_dim c -> f x = Ok a -> nth r (value_of a) 0%F = pval p x) /\
         (forall q, in_space deg (cloud_dim c) q ->
            (forall i, i < length (cloud_points c) -> nth i (column values r) 0%F = pval q (nth i (cloud_points c) [])) ->
            forall x a, length x = cloud_dim c -> f x = Ok a -> nth r (value_of a) 0%F = pval q x)) /\
  (~ unisolvent deg (cloud_dim c) (map W (cloud_points c)) (cloud_points c) ->
   weighted_least_squares inv c values deg order w core = Err LinAlgError).
Proof. exact (wls_best inv c values deg order w core W G H). Qed.
Print Assumptions C56_weighted_best_partial.

(** The unweighted fit: all the weights are one. *)
Theorem C56_unweighted_best_partial (F : ofield) inv (c : cloud F) values deg order :
  inv_ok LinAlgError inv -> cloud_ok c -> (deg = 1 \/ deg = 2) -> length (cloud_points c) = length values ->
  let ones : list F := repeat 1%F (length values) in
  (unisolvent deg (cloud_dim c) ones (cloud_points c) ->
   exists f, least_squares inv c values deg order = Ok f /\
     (forall x, exists a, f x = Ok a /\ length (value_of a) = records values) /\
     forall r, r < records values ->
       exists p, best deg (cloud_dim c) ones (column values r) (cloud_points c) p /\
         (forall x a, length x = cloud_dim c -> f x = Ok a -> nth r (value_of a) 0%F = pval p x) /\
         (forall q, in_space deg (cloud_dim c) q ->
            (forall i, i < length (cloud_points c) -> nth i (column values r) 0%F = pval q (nth i (cloud_points c) [])) ->
            forall x a, length x = cloud_dim c -> f x = Ok a -> nth r (value_of a) 0%F = pval q x)) /\
  (~ unisolvent deg (cloud_dim c) ones (cloud_points c) ->
   least_squares inv c values deg order = Err LinAlgError).
Proof. exact (ls_best inv c values deg order). Qed.
Print Assumptions C56_unweighted_best_partial.

(** The moving fit: the value at [x] is that, at [x], of the best polynomial for the
    weights with the core at [x]. *)
Theorem C56_moving_best_partial (F : ofield) inv (c : cloud F) values deg order w x W G H :
  inv_ok LinAlgError inv -> cloud_ok c -> (deg = 1 \/ deg = 2) -> length (cloud_points c) = length values ->
  w_dim (the_weight c w) = cloud_dim c -> length x = cloud_dim c ->
  weight_at (the_weight c w) x (cloud_points c) (grad_of order) (hess_of order) W G H ->
  (forall y, In y (cloud_points c) -> 0 <= W y)%F ->
  (unisolvent deg (cloud_dim c) (map W (cloud_points c)) (cloud_points c) ->
   exists a, moving_least_squares inv c values deg order w x = Ok a /\
     length (value_of a) = records values /\
     forall r, r < records values ->
       exists p, best deg (cloud_dim c) (map W (cloud_points c)) (column values r) (cloud_points c) p /\
         nth r (value_of a) 0%F = pval p x /\
         (forall q, in_space deg (cloud_dim c) q ->
            (forall i, i < length (cloud_points c) -> nth i (column values r) 0%F = pval q (nth i (cloud_points c) [])) ->
            nth r (value_of a) 0%F = pval q x)) /\
  (~ unisolvent deg (cloud_dim c) (map W (cloud_points c)) (cloud_points c) ->
   moving_least_squares inv c values deg order w x = Err LinAlgError).
Proof. exact (mls_best inv c values deg order w x W G H). Qed.
Print Assumptions C56_moving_best_partial.

(** The weight functions of the library, wherever their core is, give weights that are
    not negative, and gradients and Hessians of the right shape: the constant weight for a
    value that is not negative, the singular weight for a width that is not zero, and the
    cubic weight in one and two dimensions, for positive support radii. *)
Theorem C56_library_weights (F : ofield) (dim : nat) core points g h :
  (forall value sd, (0 <= value)%F ->
     weight_at (constant_weight dim value sd) core points g h (const_value value sd core) (fun _ => zeros dim) (fun _ => zeros2 dim dim) /\
     forall x, (0 <= const_value value sd core x)%F) /\
  (forall eps : F, eps <> 0%F ->
     weight_at (singular_weight dim eps) core points g h (singular_value eps core) (fun _ => zeros dim) (fun _ => zeros2 dim dim) /\
     forall x, (0 < singular_value eps core x)%F) /\
  (forall sd : list F, (dim = 1 \/ dim = 2) -> (forall j, j < dim -> (0 < coord sd j)%F) ->
     weight_at (cubic_weight dim sd) core points g h (cubic_value dim sd core) (cubic_gradient dim sd core) (cubic_hessian dim sd core) /\
     forall x, (0 <= cubic_value dim sd core x)%F).
Proof.
  exact (conj (fun value sd P => conj (constant_at dim value sd core points g h) (fun x => const_value_nonneg value sd core x P))
        (conj (fun eps N => conj (singular_at dim eps core points g h) (fun x => singular_pos eps core x N))
              (fun sd D P => conj (cubic_at dim sd core points g h D) (fun x => cubic_nonneg dim sd core x P)))).
Qed.
Print Assumptions C56_library_weights.

(** Arguments that are refused: other numbers of values than points, a weight function of
    another dimension, other degrees and dimensions. *)
Theorem C56_refused (F : ofield) (inv : nat -> mat F -> result (mat F)) (c : cloud F) values deg order core :
  (forall w, length (cloud_points c) <> length values -> weighted_least_squares inv c values deg order w core = Err ValueError) /\
  (forall w, length (cloud_points c) = length values -> w_dim w <> cloud_dim c ->
     weighted_least_squares inv c values deg order (Some w) core = Err AssertionError) /\
  (forall w, length (cloud_points c) = length values -> w_dim (the_weight c w) = cloud_dim c ->
     ~ ((deg = 1 \/ deg = 2) /\ (cloud_dim c = 1 \/ cloud_dim c = 2 \/ cloud_dim c = 3)) ->
     weighted_least_squares inv c values deg order w core = Err NotImplementedError).
Proof.
  exact (conj (fun w => wls_lengths inv c values deg order w core)
        (conj (fun w => wls_dims inv c values deg order w core) (fun w => wls_unsupported inv c values deg order w core))).
Qed.
Print Assumptions C56_refused.

(** Rows of one coordinate: the points determine the lines, but there is no fit. *)
Theorem C56_column_points_refuted :
  exists (points values : list (list Qc_ofield)) inv,
    inv_ok LinAlgError inv /\ Forall (fun x => length x = 1) points /\ length points = length values /\
    unisolvent 1 1 (repeat 1%F (length values)) points /\
    least_squares inv (Rows 1 points) values 1 0 = Err ValueError.
Proof. exact column_points. Qed.
Print Assumptions C56_column_points_refuted.

(** Examples: the line through three points with two records, at 5, and the plane through
    the four points inside the support of the cubic weight. *)
Example C56_example_line :
  cloud_ok line /\ length (cloud_points line) = length line_values /\ unisolvent 1 (cloud_dim line) (repeat 1%F (length line_values)) (cloud_points line) /\
  show (call (least_squares (inv_with LinAlgError) line line_values 1 2) [q 5]) =
    [Some [11#1; 1#3]; Some [2#1; 0#1]; Some [0#1; 0#1]]%Q.
Proof. split; [exact I|]. split; [reflexivity|]. split; [exact line_unisolvent|]. vm_compute. reflexivity. Qed.
Example C56_example_plane :
  cloud_ok square /\ length (cloud_points square) = length square_values /\
  unisolvent 1 (cloud_dim square) (map (cubic_value 2 square_sd square_core) (cloud_points square)) (cloud_points square) /\
  map this (map (cubic_value 2 square_sd square_core) (cloud_points square)) = [961 # 2916; 155 # 729; 961 # 2916; 155 # 729; 0 # 1]%Q /\
  show (call (weighted_least_squares (inv_with LinAlgError) square square_values 1 0 (Some square_weight) square_core) [q 2; q 3]) =
    [Some [14#1]; None; None; None; None; None]%Q.
Proof.
  split; [split; [left; reflexivity|repeat constructor]|]. split; [reflexivity|]. split; [exact square_unisolvent|].
  split; vm_compute; reflexivity.
Qed.
(** Too few points: the normal matrix is singular. *)
Example C56_example_singular :
  least_squares (inv_with LinAlgError) (Flat [q 1; q 1]) [[q 1]; [q 2]] 1 0 = Err LinAlgError.
Proof. vm_compute. reflexivity. Qed.
