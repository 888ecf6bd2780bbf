(** Properties C57 and C58 about the derivatives of the fits and the cubic weight. *)
Set Warnings "-ambiguous-paths".
From Coq Require Import Reals Lra.
From Coquelicot Require Import Coquelicot.
From Verif Require Import Prelude OField OFieldR Inverse LsModel LsFit LsEq LsCases LsDerivSpec LsDeriv Spline LsWeights LsDerivCases LsDerivCounter.
Local Open Scope nat_scope.

(** ** C57 *)

(** The unweighted fit: at every point where it answers, the reported derivatives are the
    partial derivatives. *)
Theorem C57_unweighted inv (c : cloud RF) values deg order p a f :
  inv_ok LinAlgError inv -> cloud_ok c -> (deg = 1 \/ deg = 2) -> length (cloud_points c) = length values ->
  length p = cloud_dim c -> (1 <= order)%Z ->
  least_squares inv c values deg order = Ok f -> f p = Ok a ->
  right_derivatives f (cloud_dim c) (records values) order p.
Proof. exact (fun HI HC HD HL HP HO => unweighted inv c values deg order p a HI HC HD HL HP HO f). Qed.
Print Assumptions C57_unweighted.

(** The weighted fit with the constant weight, with or without support, and with the
    singular weight. *)
Theorem C57_fixed_constant inv (c : cloud RF) values deg order p a value sd core f :
  inv_ok LinAlgError inv -> cloud_ok c -> (deg = 1 \/ deg = 2) -> length (cloud_points c) = length values ->
  length p = cloud_dim c -> (1 <= order)%Z ->
  weighted_least_squares inv c values deg order (Some (constant_weight (cloud_dim c) value sd)) core = Ok f -> f p = Ok a ->
  right_derivatives f (cloud_dim c) (records values) order p.
Proof. exact (fun HI HC HD HL HP HO => fixed_constant inv c values deg order p a HI HC HD HL HP HO value sd core f). Qed.
Print Assumptions C57_fixed_constant.

Theorem C57_fixed_singular inv (c : cloud RF) values deg order p a eps core f :
  inv_ok LinAlgError inv -> cloud_ok c -> (deg = 1 \/ deg = 2) -> length (cloud_points c) = length values ->
  length p = cloud_dim c -> (1 <= order)%Z ->
  weighted_least_squares inv c values deg order (Some (singular_weight (cloud_dim c) eps)) core = Ok f -> f p = Ok a ->
  right_derivatives f (cloud_dim c) (records values) order p.
Proof. exact (fun HI HC HD HL HP HO => fixed_singular inv c values deg order p a HI HC HD HL HP HO eps core f). Qed.
Print Assumptions C57_fixed_singular.

(** The moving fit, for every weight function whose reported derivatives are those of its
    value as the core moves ([smooth_weight]). *)
Theorem C57_moving_partial inv (c : cloud RF) values deg order p a w W G H :
  inv_ok LinAlgError inv -> cloud_ok c -> (deg = 1 \/ deg = 2) -> length (cloud_points c) = length values ->
  length p = cloud_dim c -> (1 <= order)%Z -> w_dim w = cloud_dim c ->
  smooth_weight w (fun q => q) (cloud_points c) p (1 <? order)%Z W G H ->
  moving_least_squares inv c values deg order (Some w) p = Ok a ->
  right_derivatives (moving_least_squares inv c values deg order (Some w)) (cloud_dim c) (records values) order p.
Proof. exact (fun HI HC HD HL HP HO => moving inv c values deg order p a HI HC HD HL HP HO w W G H). Qed.
Print Assumptions C57_moving_partial.

(** No weight function, or the constant weight: always; with a support, where no point of
    the data is on its boundary. *)
Theorem C57_moving_default inv (c : cloud RF) values deg order p a :
  inv_ok LinAlgError inv -> cloud_ok c -> (deg = 1 \/ deg = 2) -> length (cloud_points c) = length values ->
  length p = cloud_dim c -> (1 <= order)%Z ->
  moving_least_squares inv c values deg order None p = Ok a ->
  right_derivatives (moving_least_squares inv c values deg order None) (cloud_dim c) (records values) order p.
Proof. exact (fun HI HC HD HL HP HO => moving_default inv c values deg order p a HI HC HD HL HP HO). Qed.
Print Assumptions C57_moving_default.

Theorem C57_moving_constant inv (c : cloud RF) values deg order p a value :
  inv_ok LinAlgError inv -> cloud_ok c -> (deg = 1 \/ deg = 2) -> length (cloud_points c) = length values ->
  length p = cloud_dim c -> (1 <= order)%Z ->
  moving_least_squares inv c values deg order (Some (constant_weight (cloud_dim c) value None)) p = Ok a ->
  right_derivatives (moving_least_squares inv c values deg order (Some (constant_weight (cloud_dim c) value None)))
    (cloud_dim c) (records values) order p.
Proof. exact (fun HI HC HD HL HP HO => moving_constant inv c values deg order p a HI HC HD HL HP HO value). Qed.
Print Assumptions C57_moving_constant.

Theorem C57_moving_supported_partial inv (c : cloud RF) values deg order p a (value : RF) (sd : list RF) :
  inv_ok LinAlgError inv -> cloud_ok c -> (deg = 1 \/ deg = 2) -> length (cloud_points c) = length values ->
  length p = cloud_dim c -> (1 <= order)%Z -> (forall x, In x (cloud_points c) -> off_boundary p sd x) ->
  moving_least_squares inv c values deg order (Some (constant_weight (cloud_dim c) value (Some sd))) p = Ok a ->
  right_derivatives (moving_least_squares inv c values deg order (Some (constant_weight (cloud_dim c) value (Some sd))))
    (cloud_dim c) (records values) order p.
Proof. exact (fun HI HC HD HL HP HO => moving_supported inv c values deg order p a HI HC HD HL HP HO value sd). Qed.
Print Assumptions C57_moving_supported_partial.

(** The cubic weight: first order where the coordinates of the point are those of the data
    or at least 1e-12 away; second order where they are more than 1e-12 away. *)
Theorem C57_moving_cubic_partial inv (c : cloud RF) values deg order p a (sd : list R) :
  inv_ok LinAlgError inv -> cloud_ok c -> (deg = 1 \/ deg = 2) -> length (cloud_points c) = length values ->
  length p = cloud_dim c -> (1 <= order)%Z ->
  (cloud_dim c = 1 \/ cloud_dim c = 2) -> (forall j, j < cloud_dim c -> (0 < nth j sd 0)%R) ->
  (forall x j, In x (cloud_points c) -> j < cloud_dim c -> (if (1 <? order)%Z then far_at p x j else regular_at p x j : Prop)) ->
  moving_least_squares inv c values deg order (Some (cubic_weight (F := RF) (cloud_dim c) sd)) p = Ok a ->
  right_derivatives (moving_least_squares inv c values deg order (Some (cubic_weight (F := RF) (cloud_dim c) sd)))
    (cloud_dim c) (records values) order p.
Proof. exact (fun HI HC HD HL HP HO => moving_cubic inv c values deg order p a HI HC HD HL HP HO sd). Qed.
Print Assumptions C57_moving_cubic_partial.

(** With the cubic weight and a fixed core the weights do not depend on the point, but the
    fit adds the gradient of the weight function to the derivative: the fit to 1, 0, 1 at
    -1, 0, 1 with core 0 is constant, and its reported derivative at 1 is 2. *)
Theorem C57_fixed_cubic_refuted inv : inv_ok LinAlgError inv ->
  exists f, weighted_least_squares inv three_points bump_values 1 1 (Some (cubic_weight (F := RF) 1 [2%R])) [0%R] = Ok f /\
    (forall x, component f 0 0 [x] = Some (1/3)%R) /\ component f 1 0 [1%R] = Some 2%R /\ ~ right_derivatives f 1 1 1 [1%R].
Proof. exact (fixed_cubic_wrong inv). Qed.
Print Assumptions C57_fixed_cubic_refuted.

(** The singular weight reports a zero gradient.  With a moving core the derivative of the
    fit is then wrong: 0 instead of 6/7. *)
Theorem C57_moving_singular_refuted inv : inv_ok LinAlgError inv ->
  let run := moving_least_squares inv three_points sing_values 1 1 (Some (singular_weight (F := RF) 1 1%R)) in
  (exists u, (forall x, component run 0 0 [x] = Some (u x)) /\ is_derive u 1%R (6/7)%R) /\
  component run 1 0 [1%R] = Some 0%R /\ ~ right_derivatives run 1 1 1 [1%R].
Proof. exact (moving_singular_wrong inv). Qed.
Print Assumptions C57_moving_singular_refuted.

(** There are such inverses, fits and points. *)
Example C57_example_inverse : inv_ok LinAlgError (inv_with (F := RF) LinAlgError).
Proof. exact (inv_with_ok LinAlgError). Qed.
Example C57_example_plain : cloud_ok three_points /\ length (cloud_points three_points) = length bump_values /\ records bump_values = 1 /\
  exists f a, least_squares (inv_with LinAlgError) three_points bump_values 1 2 = Ok f /\ f [5%R] = Ok a.
Proof. exact (conj I (conj eq_refl (conj eq_refl plain_example))). Qed.
Example C57_example_moving :
  (forall x j, In x (cloud_points three_points) -> j < 1 -> far_at [(1/2)%R] x j) /\
  exists a, moving_least_squares (inv_with LinAlgError) three_points bump_values 1 2 (Some (cubic_weight (F := RF) 1 [2%R])) [(1/2)%R] = Ok a.
Proof. exact (conj half_far moving_example). Qed.

(** ** C58 *)

(** In one and two dimensions the methods return numbers, vectors and matrices of the
    dimension; in others they raise. *)
Theorem C58_returns (dim : nat) (sd core x : list RF) :
  ((dim = 1 \/ dim = 2) ->
   w_f (cubic_weight dim sd) core x = Ok (cubic_value dim sd core x) /\
   w_g (cubic_weight dim sd) core x = Ok (cubic_gradient dim sd core x) /\
   w_G (cubic_weight dim sd) core x = Ok (cubic_hessian dim sd core x) /\
   length (cubic_gradient dim sd core x) = dim /\ length (cubic_hessian dim sd core x) = dim /\
   Forall (fun r => length r = dim) (cubic_hessian dim sd core x)) /\
  (~ (dim = 1 \/ dim = 2) ->
   w_f (cubic_weight dim sd) core x = Err NotImplementedError /\ w_g (cubic_weight dim sd) core x = Err NotImplementedError /\
   w_G (cubic_weight dim sd) core x = Err NotImplementedError).
Proof. exact (cubic_returns dim sd core x). Qed.
Print Assumptions C58_returns.

(** Not negative, and positive exactly inside the support; on the boundary and outside the
    value, the gradient and the Hessian are zero. *)
Theorem C58_support (dim : nat) (sd core x : list R) :
  (dim = 1 \/ dim = 2) -> length core = dim -> length x = dim -> (forall j, j < dim -> (0 < nth j sd 0)%R) ->
  (0 <= cubic_value (F := RF) dim sd core x)%R /\
  ((forall j, j < dim -> (Rabs (nth j core 0 - nth j x 0) < nth j sd 0)%R) -> (0 < cubic_value (F := RF) dim sd core x)%R) /\
  (forall j, j < dim -> (nth j sd 0 <= Rabs (nth j core 0 - nth j x 0))%R ->
     cubic_value (F := RF) dim sd core x = 0%R /\ Forall (eq 0%R) (cubic_gradient (F := RF) dim sd core x) /\
     Forall (Forall (eq 0%R)) (cubic_hessian (F := RF) dim sd core x)).
Proof.
  exact (fun D LC LX HS => conj (cubic_nonneg_R dim sd core x HS) (conj (cubic_pos dim sd core x D HS) (cubic_outside dim sd core x D LC LX HS))).
Qed.
Print Assumptions C58_support.

(** The value has partial derivatives everywhere, and they are continuous. *)
Theorem C58_smooth (dim : nat) (sd core : list R) :
  (dim = 1 \/ dim = 2) -> length core = dim -> (forall j, j < dim -> (0 < nth j sd 0)%R) ->
  forall j, j < dim -> exists D : list R -> R, continuous_on dim D /\
    forall x, length x = dim -> is_derive (fun t => cubic_value (F := RF) dim sd core (setc x j t) : R) (nth j x 0%R) (D x).
Proof. exact (cubic_smooth dim sd core). Qed.
Print Assumptions C58_smooth.

(** The reported gradient is the derivative with respect to the core, where the coordinate
    of the point is that of the core or at least 1e-12 away; so with respect to the point
    it has the wrong sign. *)
Theorem C58_gradient_partial (dim : nat) (sd core x : list R) :
  (dim = 1 \/ dim = 2) -> length core = dim -> length x = dim -> (forall j, j < dim -> (0 < nth j sd 0)%R) ->
  forall j, j < dim -> regular_at core x j ->
  is_derive (fun t => cubic_value (F := RF) dim sd (setc core j t) x : R) (nth j core 0%R) (nth j (cubic_gradient (F := RF) dim sd core x) 0%R) /\
  is_derive (fun t => cubic_value (F := RF) dim sd core (setc x j t) : R) (nth j x 0%R) (- nth j (cubic_gradient (F := RF) dim sd core x) 0)%R.
Proof.
  exact (fun D LC LX HS j Hj HR => conj (cubic_core dim sd core x D LC LX HS j Hj HR) (cubic_x dim sd core x D LC LX HS j Hj HR)).
Qed.
Print Assumptions C58_gradient_partial.

(** The Hessian is the derivative of the gradient with respect to the core, where the
    coordinate is more than 1e-12 away (off the diagonal: also where it is equal). *)
Theorem C58_hessian_partial (dim : nat) (sd core x : list R) :
  (dim = 1 \/ dim = 2) -> length core = dim -> length x = dim -> (forall j, j < dim -> (0 < nth j sd 0)%R) ->
  forall j l, j < dim -> l < dim -> (if j =? l then far_at core x l else regular_at core x l) ->
  is_derive (fun t => nth j (cubic_gradient (F := RF) dim sd (setc core l t) x) 0%R : R) (nth l core 0%R)
    (nth l (nth j (cubic_hessian (F := RF) dim sd core x) []) 0%R) /\
  is_derive (fun t => nth j (cubic_gradient (F := RF) dim sd core (setc x l t)) 0%R : R) (nth l x 0%R)
    (- nth l (nth j (cubic_hessian (F := RF) dim sd core x) []) 0)%R.
Proof.
  exact (fun D LC LX HS j l Hj Hl HR =>
    conj (cubic_core2 dim sd core x D LC LX HS j l Hj Hl HR) (cubic_x2 dim sd core x D LC LX HS j l Hj Hl HR)).
Qed.
Print Assumptions C58_hessian_partial.

(** The gradient at 1 of the weight with core 0 and support 2 is 1/2, and the derivative of
    the value there is -1/2. *)
Theorem C58_gradient_sign_refuted :
  cubic_gradient (F := RF) 1 [2%R] [0%R] [1%R] = [(1/2)%R] /\
  is_derive (fun t => cubic_value (F := RF) 1 [2%R] [0%R] [t] : R) 1%R (-1/2)%R.
Proof. exact sign_wrong. Qed.
Print Assumptions C58_gradient_sign_refuted.

(** At the core the reported second derivative is zero, and that of the value is not. *)
Theorem C58_hessian_core_refuted (dm c : R) : (0 < dm)%R ->
  cubic_hessian (F := RF) 1 [dm] [c] [c] = [[0%R]] /\
  exists D : R -> R, (forall t, is_derive (fun s => cubic_value (F := RF) 1 [dm] [c] [s] : R) t (D t)) /\ is_derive D c (- 8 / (dm * dm))%R.
Proof. exact (hessian_core_wrong dm c). Qed.
Print Assumptions C58_hessian_core_refuted.

(** Closer than 1e-12 to the core the reported gradient is zero. *)
Theorem C58_gradient_near_refuted : exists (x d : R), (0 < x)%R /\ d <> 0%R /\ cubic_gradient (F := RF) 1 [1%R] [0%R] [x] = [0%R] /\
  is_derive (fun t => cubic_value (F := RF) 1 [1%R] [t] [x] : R) 0%R d.
Proof. exact tiny_wrong. Qed.
Print Assumptions C58_gradient_near_refuted.

(** A point of the plane inside the support, away from the core. *)
Example C58_example : length [0%R; 0%R] = 2 /\ (forall j, j < 2 -> (0 < nth j [2%R; 3%R] 0)%R) /\
  (forall j, j < 2 -> (Rabs (nth j [0; 0] 0 - nth j [1; -1] 0) < nth j [2; 3] 0)%R) /\ far_at [0%R; 0%R] [1%R; (-1)%R] 0 /\ far_at [0%R; 0%R] [1%R; (-1)%R] 1.
Proof.
  split; [reflexivity|]. unfold far_at, tinyR. repeat split; try (intros [|[|j]] Hj; [| |lia]); cbn [nth]; try lra;
    unfold Rabs; destruct (Rcase_abs _); lra.
Qed.
