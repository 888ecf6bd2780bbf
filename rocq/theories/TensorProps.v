(** Properties C37, C38, C40 - C47, C63, C65, C66, C72 and C75 - C78: frames, tensors and
    matrix helpers, for every real field, dimension and rank.  [rtol] and [atol] are the
    tolerances of numpy.isclose, [norm] is numpy.linalg.norm. *)
Set Warnings "-notation-overridden,-ambiguous-paths".
From Verif Require Import Prelude TensorModel TensorSpec TensorProofs TensorOpProofs CrossProofs LinModel LinSpec LinProofs TensorRefute TensorExtra.
From mathcomp Require Import all_ssreflect all_algebra all_fingroup.
Set Implicit Arguments.
Unset Strict Implicit.
Unset Printing Implicit Defensive.
Import GRing.Theory Num.Theory.
Local Open Scope ring_scope.

(** Proper frames: a sheared one, a rescaled rectangular one, a mirrored Cartesian one. *)
Example frames_example : forall F : realFieldType,
  [/\ good_frame (Frame Reference (1%:M + delta_mx ord_max ord0 : 'M[F]_2)),
      good_frame (Frame Rectangular (3%:R%:M : 'M[F]_3)) &
      good_frame (Frame Cartesian ((-1)%:M : 'M[F]_3))].
Proof. exact frames_exist. Qed.
Example tensors_example : forall (F : realFieldType) n r (T : tensor F n r), exists V, describes T V.
Proof. exact describes_exists. Qed.

(** C37. *)
Theorem C37_dcm : forall (F : realFieldType) (rtol atol : F) (n : nat) (norm : 'rV[F]_n -> F),
  0 <= rtol -> 0 <= atol -> forall f g h : frame F n, good_frame f -> good_frame g -> good_frame h ->
  exists fg gh fh gf,
    [/\ dcm_target rtol atol norm f g = Ok fg, dcm_target rtol atol norm g h = Ok gh,
        dcm_target rtol atol norm f h = Ok fh & dcm_target rtol atol norm g f = Ok gf] /\
    [/\ gh *m fg = fh, gf *m fg = 1%:M, dcm_target rtol atol norm f f = Ok 1%:M &
        dcm_source rtol atol norm g f = Ok fg].
Proof. exact dcm_algebra. Qed.
Print Assumptions C37_dcm.

(** The DCM from f to g takes components with respect to f to components of the same
    tensor with respect to g. *)
Theorem C37_dcm_meaning : forall (F : realFieldType) (rtol atol : F) (n : nat) (norm : 'rV[F]_n -> F),
  0 <= rtol -> 0 <= atol -> forall r (f g : frame F n) Q (a V : tens F n r),
  good_frame g -> dcm_target rtol atol norm f g = Ok Q ->
  represents (axes f) a V -> represents (axes g) (transform Q a) V.
Proof. exact dcm_meaning. Qed.
Print Assumptions C37_dcm_meaning.

(** [show(target)] lists the components in the target frame, and nothing else does. *)
Theorem C37_show : forall (F : realFieldType) (rtol atol : F) (n : nat) (norm : 'rV[F]_n -> F),
  0 <= rtol -> 0 <= atol -> forall r (T : tensor F n r) (g : frame F n) V x,
  good_frame g -> describes T V -> (show rtol atol norm T (Some g) = Ok x <-> represents (axes g) x V).
Proof. exact show_iff. Qed.
Print Assumptions C37_show.

(** C38. *)
Theorem C38_dual_frames : forall (F : realFieldType) (rtol atol : F) (n : nat) (norm : 'rV[F]_n -> F),
  0 <= rtol -> 0 <= atol -> forall f : frame F n, good_frame f -> exists d,
  [/\ dual rtol atol norm f = Ok d, good_frame d,
      forall i j, \sum_k axes f i k * axes d j k = (i == j)%:R &
      dual rtol atol norm d = Ok f] /\
  [/\ frame_Gram d *m frame_Gram f = 1%:M, frame_Gram f *m frame_Gram d = 1%:M &
      orthonormal_rows (axes f) -> axes d = axes f].
Proof. exact dual_facts. Qed.
Print Assumptions C38_dual_frames.

Theorem C38_dual_tensors : forall (F : realFieldType) (rtol atol : F) (n : nat) (norm : 'rV[F]_n -> F),
  0 <= rtol -> 0 <= atol -> forall r (T : tensor F n r) V, good_frame (frame_of T) -> describes T V ->
  exists d, [/\ tensor_dual rtol atol norm T = Ok d, dual rtol atol norm (frame_of T) = Ok (frame_of d) & describes d V].
Proof. exact tensor_dual_describes. Qed.
Print Assumptions C38_dual_tensors.

Theorem C38_singular : forall (F : realFieldType) (rtol atol : F) (n : nat) (norm : 'rV[F]_n -> F) (f : frame F n),
  kind_of f <> Cartesian -> ~ independent_rows (axes f) -> dual rtol atol norm f = Err LinAlgError.
Proof. exact dual_singular. Qed.
Print Assumptions C38_singular.

(** C39 for a single move: a tensor brought into another proper frame is in that frame
    and is the same tensor. *)
Theorem C39_one_move : forall (F : realFieldType) (rtol atol : F) (n : nat) (norm : 'rV[F]_n -> F),
  0 <= rtol -> 0 <= atol ->
  forall r (T : tensor F n r) (g : frame F n) V, good_frame g -> describes T V ->
  exists t, [/\ set_frame rtol atol norm T g = Ok t, frame_of t = g & describes t V].
Proof. exact (fun F rtol atol n norm Hr Ha => @set_frame_describes F rtol atol n norm Hr Ha). Qed.
Print Assumptions C39_one_move.

(** C40.  The operands may be in different frames; only the first has to be proper. *)
Theorem C40_sums : forall (F : realFieldType) (rtol atol : F) (n : nat) (norm : 'rV[F]_n -> F),
  0 <= rtol -> 0 <= atol -> forall r (a b : tensor F n r) V W,
  good_frame (frame_of a) -> describes a V -> describes b W ->
  [/\ exists t, tadd rtol atol norm a b = Ok t /\ describes t (V + W),
      exists t, tsub rtol atol norm a b = Ok t /\ describes t (V - W),
      exists t, [/\ tiadd rtol atol norm a b = Ok t, frame_of t = frame_of a & describes t (V + W)] &
      exists t, [/\ tisub rtol atol norm a b = Ok t, frame_of t = frame_of a & describes t (V - W)]].
Proof. exact arithmetic. Qed.
Print Assumptions C40_sums.

Theorem C40_multiples : forall (F : realFieldType) (n r : nat) (a : tensor F n r) (s : F) V, describes a V ->
  [/\ describes (tscale a s) [ffun c => V c * s], describes (tdiv a s) [ffun c => V c / s] & describes (tneg a) (- V)].
Proof. exact scalar_arithmetic. Qed.
Print Assumptions C40_multiples.

(** In terms of the components in an arbitrary frame. *)
Theorem C40_shown : forall (F : realFieldType) (rtol atol : F) (n : nat) (norm : 'rV[F]_n -> F),
  0 <= rtol -> 0 <= atol -> forall r (a b t : tensor F n r) V W (g : frame F n), good_frame g ->
  describes a V -> describes b W -> describes t (V + W) ->
  exists x y, [/\ show rtol atol norm a (Some g) = Ok x, show rtol atol norm b (Some g) = Ok y &
                  show rtol atol norm t (Some g) = Ok (x + y)].
Proof. exact sum_shown. Qed.
Print Assumptions C40_shown.

(** C41, refuted: [t -= s] adds s. *)
Theorem C41_refuted : forall (F : realFieldType) (n r : nat), (0 < n)%N ->
  exists (a : tensor F n r) (s : F), arr (isub_number a s) <> [ffun c => arr a c - s].
Proof. exact isub_number_wrong. Qed.
Print Assumptions C41_refuted.

(** What it does, and that the other in-place operators with a number are right. *)
Theorem C41_partial : forall (F : realFieldType) (n r : nat) (a : tensor F n r) (s : F) c,
  [/\ arr (iadd_number a s) c = arr a c + s, arr (isub_number a s) c = arr a c + s,
      arr (tscale a s) c = arr a c * s & arr (tdiv a s) c = arr a c / s] /\
  arr (isub_number a 0) = arr a.
Proof. exact number_ops. Qed.
Print Assumptions C41_partial.

(** C42.  dot(v, w), dot(T, v), dot(T, S) and the general contraction do not depend on
    the frames of the operands. *)
Theorem C42_dot : forall (F : realFieldType) (rtol atol : F) (n : nat) (norm : 'rV[F]_n -> F),
  0 <= rtol -> 0 <= atol -> forall (v w : tensor F n 1) (T S : tensor F n 2) V W X Y,
  describes v V -> describes w W -> describes T X -> describes S Y ->
  [/\ dot_vv rtol atol norm v w = Ok (\sum_i vec_of V i 0 * vec_of W i 0),
      good_frame (frame_of T) -> exists t, dot_tv rtol atol norm T v = Ok t /\ describes t (of_vec (mat_of X *m vec_of V)) &
      good_frame (frame_of T) -> exists t, dot_tt rtol atol norm T S = Ok t /\ describes t (of_mat (mat_of X *m mat_of Y))].
Proof. exact dot_all. Qed.
Print Assumptions C42_dot.

Theorem C42_contraction : forall (F : realFieldType) (rtol atol : F) (n : nat) (norm : 'rV[F]_n -> F),
  0 <= rtol -> 0 <= atol -> forall ra rb (p : 'I_ra.+1) (q : 'I_rb.+1) (a : tensor F n ra.+1) (b : tensor F n rb.+1) V W,
  describes a V -> describes b W ->
  exists t R, [/\ dot_general rtol atol norm p q a b = Ok t, contracted p q V W R & describes t R].
Proof. exact dot_contracted. Qed.
Print Assumptions C42_contraction.
Example C42_contraction_indices : forall n ra rb (p : 'I_ra.+1) (q : 'I_rb.+1) (c : mi n (ra + rb)),
  exists (x : 'I_n -> mi n ra.+1) (y : 'I_n -> mi n rb.+1),
    (forall s, x s p = s /\ forall k, x s (lift p k) = c (lshift rb k)) /\
    (forall s, y s q = s /\ forall k, y s (lift q k) = c (rshift ra k)).
Proof. exact contraction_indices. Qed.

(** Columns and matrices are read off tensors as expected. *)
Theorem C42_components : forall (F : realFieldType) (n : nat) (V : tens F n 1) (X : tens F n 2) (v : 'cV[F]_n) (A : 'M[F]_n),
  [/\ forall c : mi n 1, vec_of V (c ord0) 0 = V c, forall c : mi n 2, mat_of X (c ord0) (c ord_max) = X c,
      forall c : mi n 1, of_vec v c = v (c ord0) 0 & forall c : mi n 2, of_mat A c = A (c ord0) (c ord_max)].
Proof. exact components. Qed.
Print Assumptions C42_components.

(** dot(v, T) is right only if the frame of v is orthonormal and T symmetric ... *)
Theorem C42_vector_tensor_partial : forall (F : realFieldType) (rtol atol : F) (n : nat) (norm : 'rV[F]_n -> F),
  0 <= rtol -> 0 <= atol -> forall (a : tensor F n 1) (b : tensor F n 2) V W,
  good_frame (frame_of a) -> describes a V -> describes b W ->
  exists t, dot_vt rtol atol norm a b = Ok t /\
    describes t (of_vec ((axes (frame_of a))^T *m axes (frame_of a) *m mat_of W *m vec_of V)) /\
    (orthonormal_rows (axes (frame_of a)) -> (mat_of W)^T = mat_of W ->
       describes t (of_vec ((mat_of W)^T *m vec_of V))).
Proof. exact dot_vt_all. Qed.
Print Assumptions C42_vector_tensor_partial.

(** ... and wrong already in the standard frame for a tensor that is not symmetric, and
    in other frames also for symmetric ones. *)
Theorem C42_refuted : forall (F : realFieldType) (rtol atol : F) (norm : 'rV[F]_2 -> F),
  0 <= rtol -> 0 <= atol ->
  exists (a : tensor F 2 1) (b : tensor F 2 2) V W t,
    [/\ frame_of a = ambient F 2, frame_of b = ambient F 2, describes a V, describes b W &
        dot_vt rtol atol norm a b = Ok t] /\ ~ describes t (of_vec ((mat_of W)^T *m vec_of V)).
Proof. exact (fun F rtol atol norm Hr Ha => dot_vt_transposed Hr Ha norm). Qed.
Print Assumptions C42_refuted.

Theorem C42_frame_refuted : forall (F : realFieldType) (rtol atol : F) (norm : 'rV[F]_1 -> F),
  0 <= rtol -> 0 <= atol ->
  exists (a : tensor F 1 1) (b : tensor F 1 2) V W t,
    [/\ good_frame (frame_of a), good_frame (frame_of b), describes a V, describes b W &
        dot_vt rtol atol norm a b = Ok t] /\ ~ describes t (of_vec ((mat_of W)^T *m vec_of V)).
Proof. exact (fun F rtol atol norm Hr Ha => dot_vt_frame Hr Ha norm). Qed.
Print Assumptions C42_frame_refuted.

(** C43.  Right in right-handed orthonormal frames; the general value is the cross product
    distorted by A^T A / det A. *)
Theorem C43_cross_partial : forall (F : realFieldType) (rtol atol : F) (norm : 'rV[F]_3 -> F),
  0 <= rtol -> 0 <= atol -> forall (a b : tensor F 3 1) V W,
  good_frame (frame_of a) -> describes a V -> describes b W ->
  exists t, cross_vv rtol atol norm a b = Ok t /\
    describes t (of_vec ((\det (axes (frame_of a)))^-1 *:
      ((axes (frame_of a))^T *m axes (frame_of a) *m cross3 (vec_of V) (vec_of W)))) /\
    (orthonormal_rows (axes (frame_of a)) -> \det (axes (frame_of a)) = 1 ->
       describes t (of_vec (cross3 (vec_of V) (vec_of W)))).
Proof. exact cross_all. Qed.
Print Assumptions C43_cross_partial.

Theorem C43_tensors : forall (F : realFieldType) (rtol atol : F) (norm : 'rV[F]_3 -> F),
  0 <= rtol -> 0 <= atol -> forall (a : tensor F 3 2) (b : tensor F 3 1) V W, describes a V -> describes b W ->
  (exists t, cross_tv rtol atol norm a b = Ok t /\
     describes t (of_mat (\matrix_(i, j) cross3 (col j (mat_of V)) (vec_of W) i 0))) /\
  (exists t, cross_vt rtol atol norm b a = Ok t /\
     describes t (of_mat (\matrix_(i, j) cross3 (vec_of W) (col j (mat_of V)) i 0))).
Proof. exact cross_tv_ok. Qed.
Print Assumptions C43_tensors.

(** Refuted in the frame 2 I, and in the left-handed Cartesian frame - I. *)
Theorem C43_refuted : forall (F : realFieldType) (rtol atol : F) (norm : 'rV[F]_3 -> F),
  0 <= rtol -> 0 <= atol -> forall f : frame F 3,
  f = Frame Reference 2%:R%:M \/ f = Frame Cartesian (-1)%:M -> good_frame f /\
  exists (a b : tensor F 3 1) V W t,
    [/\ frame_of a = f, describes a V, describes b W &
        cross_vv rtol atol norm a b = Ok t] /\ ~ describes t (of_vec (cross3 (vec_of V) (vec_of W))).
Proof. exact cross_refuted. Qed.
Print Assumptions C43_refuted.

(** C44.  The rule for components of any rank. *)
Theorem C44_functorial : forall (F : realFieldType) (n r : nat) (P Q : 'M[F]_n) (S T : tens F n r) (s : F),
  [/\ transform P (transform Q T) = transform (P *m Q) T, transform 1%:M T = T,
      transform Q (S + T) = transform Q S + transform Q T &
      transform Q [ffun c => T c * s] = [ffun c => transform Q T c * s]].
Proof. exact functorial. Qed.
Print Assumptions C44_functorial.

Theorem C44_symmetry : forall (F : realFieldType) (n r : nat) (Q : 'M[F]_n) (s : {perm 'I_r}) (T : tens F n r),
  transform Q (permute s T) = permute s (transform Q T) /\
  (permute s T = T -> permute s (transform Q T) = transform Q T).
Proof. exact symmetric_kept. Qed.
Print Assumptions C44_symmetry.

Theorem C44_orthogonal : forall (F : realFieldType) (n r : nat) (Q : 'M[F]_n), Q^T *m Q = 1%:M ->
  (forall S T : tens F n r, inner (transform Q S) (transform Q T) = inner S T) /\
  (forall T : tens F n 2, \tr (mat_of (transform Q T)) = \tr (mat_of T)).
Proof. exact orthogonal_kept. Qed.
Print Assumptions C44_orthogonal.

(** Ranks 1, 2 and 4 written out (the kernels of C44_rank2_kernels and
    C44_rank4_kernels). *)
Theorem C44_ranks : forall (F : realFieldType) (n : nat) (Q : 'M[F]_n) (v : tens F n 1) (T : tens F n 2) (C : tens F n 4),
  [/\ vec_of (transform Q v) = Q *m vec_of v, mat_of (transform Q T) = Q *m mat_of T *m Q^T &
      forall i j k l, transform Q C (index4 i j k l) =
        \sum_a \sum_b \sum_c \sum_d Q i a * Q j b * Q k c * Q l d * C (index4 a b c d)].
Proof. exact ranks. Qed.
Print Assumptions C44_ranks.

(** Contraction commutes with orthogonal transformations, for every pair of indices. *)
Theorem C44_contraction : forall (F : realFieldType) (n : nat) (Q : 'M[F]_n) ra rb (p : 'I_ra.+1) (q : 'I_rb.+1)
    (x : tens F n ra.+1) (y : tens F n rb.+1), Q^T *m Q = 1%:M ->
  exists R R', [/\ contracted p q x y R, contracted p q (transform Q x) (transform Q y) R' & R' = transform Q R].
Proof. exact contracted_transform. Qed.
Print Assumptions C44_contraction.

(** C45, refuted: copy() and deepcopy() drop the frame; copy.copy and copy.deepcopy do
    not. *)
Theorem C45_refuted : forall (F : realFieldType) (r : nat), (0 < r)%N ->
  exists (a : tensor F 1 r) V, [/\ good_frame (frame_of a), describes a V & ~ describes (tcopy a) V].
Proof. exact copy_wrong. Qed.
Print Assumptions C45_refuted.

Theorem C45_partial : forall (F : realFieldType) (n r : nat) (T : tensor F n r) V, describes T V ->
  [/\ describes (copy_copy T) V, describes (copy_deepcopy T) V & (axes (frame_of T) = 1%:M -> describes (tcopy T) V)].
Proof. exact copies. Qed.
Print Assumptions C45_partial.

(** C46, refuted: [frame.show(target)] is the DCM in the other direction. *)
Theorem C46_refuted : forall (F : realFieldType) (rtol atol : F) (norm : 'rV[F]_1 -> F),
  0 <= rtol -> 0 <= atol ->
  (exists f g X, [/\ good_frame f, good_frame g, frame_show rtol atol norm f (Some g) = Ok X & X *m axes g <> axes f]) /\
  (exists f, good_frame f /\ frame_show rtol atol norm f (Some (ambient F 1)) <> frame_show rtol atol norm f None).
Proof. exact frame_show_refuted. Qed.
Print Assumptions C46_refuted.

Theorem C46_partial : forall (F : realFieldType) (rtol atol : F) (n : nat) (norm : 'rV[F]_n -> F),
  0 <= rtol -> 0 <= atol -> forall f : frame F n, good_frame f ->
  [/\ frame_show rtol atol norm f (Some f) = Ok 1%:M, frame_show rtol atol norm f None = Ok (axes f),
      forall g, orthonormal_rows (axes f) -> orthonormal_rows (axes g) ->
        exists X, frame_show rtol atol norm f (Some g) = Ok X /\ X *m axes g = axes f &
      forall g, exists X, frame_show rtol atol norm f (Some g) = Ok X /\ X^T *m axes f = axes g].
Proof. exact frame_show_partial. Qed.
Print Assumptions C46_partial.

(** C47, refuted: the metric tensor shown in the ambient frame is not the identity, the
    volume has no sign, and a CartesianFrame whose axes were replaced keeps its
    shortcuts. *)
Theorem C47_refuted : forall (F : realFieldType) (rtol atol : F) (norm : 'rV[F]_1 -> F) (sqrt : F -> F),
  0 <= rtol -> 0 <= atol -> (forall x, 0 <= x -> 0 <= sqrt x /\ sqrt x ^+ 2 = x) ->
  [/\ exists f, good_frame f /\ show rtol atol norm (metric_tensor f) None <> Ok (of_mat 1%:M),
      exists f : frame F 1, good_frame f /\ volume sqrt f <> \det (axes f) &
      exists A : 'M[F]_1, independent_rows A /\
        frame_Gram (Frame Cartesian A) <> frame_Gram (Frame Reference A) /\
        volume sqrt (Frame Cartesian A) <> volume sqrt (Frame Reference A)].
Proof. exact (fun F rtol atol norm sqrt Hr Ha => @frame_numbers_refuted F rtol atol norm Hr Ha sqrt). Qed.
Print Assumptions C47_refuted.

Theorem C47_partial : forall (F : realFieldType) (rtol atol : F) (n : nat) (norm : 'rV[F]_n -> F) (sqrt : F -> F),
  0 <= rtol -> 0 <= atol -> (forall x, 0 <= x -> 0 <= sqrt x /\ sqrt x ^+ 2 = x) ->
  (forall f : frame F n, good_frame f -> volume sqrt f = `|\det (axes f)|) /\
  forall A : 'M[F]_n, orthonormal_rows A ->
  let c := Frame Cartesian A in let f := Frame Reference A in
  [/\ frame_Gram c = frame_Gram f, volume sqrt c = volume sqrt f,
      exists d, [/\ dual rtol atol norm c = Ok c, dual rtol atol norm f = Ok d & axes d = axes c] &
      show rtol atol norm (metric_tensor f) None = Ok (of_mat 1%:M) /\
      show rtol atol norm (metric_tensor c) None = Ok (of_mat 1%:M)].
Proof. exact (fun F rtol atol _ norm sqrt Hr Ha => @frame_numbers_partial F rtol atol _ norm Hr Ha sqrt). Qed.
Print Assumptions C47_partial.

(** C63. *)
Theorem C63_predicates : forall (F : realFieldType) (n : nat) (norm : 'rV[F]_n -> F) (A : 'M[F]_n),
  [/\ is_rectangular_frame 0 0 A <-> orthogonal_rows A,
      norm_rows norm A -> (is_orthonormal_frame 0 0 norm A <-> orthonormal_rows A) &
      is_independent_frame A 0 <-> independent_rows A].
Proof. exact predicates. Qed.
Print Assumptions C63_predicates.

(** With tolerances: exactly the frames whose off-diagonal scalar products are small
    compared with all of them; orthogonal frames are never rejected. *)
Theorem C63_tolerance : forall (F : realFieldType) (n : nat) (rtol atol : F) (A : 'M[F]_n),
  (is_rectangular_frame rtol atol A <->
     \sum_i \sum_(j | j != i) `|base_dot A i j| <= atol + rtol * \sum_i \sum_j `|base_dot A i j|) /\
  (0 <= rtol -> 0 <= atol -> orthogonal_rows A -> is_rectangular_frame rtol atol A).
Proof. exact tolerance. Qed.
Print Assumptions C63_tolerance.

(** The constructors (in exact arithmetic, without tolerances) accept exactly the axes
    their class promises and keep them unchanged. *)
Theorem C63_constructors : forall (F : realFieldType) (n : nat) (norm : 'rV[F]_n -> F) (A : 'M[F]_n),
  [/\ forall rtol atol, new_frame rtol atol norm Reference A = Ok (Frame Reference A),
      orthogonal_rows A -> new_frame 0 0 norm Rectangular A = Ok (Frame Rectangular A),
      ~ orthogonal_rows A -> new_frame 0 0 norm Rectangular A = Err AssertionError &
      norm_rows norm A ->
        (orthonormal_rows A -> new_frame 0 0 norm Cartesian A = Ok (Frame Cartesian A)) /\
        (~ orthonormal_rows A -> new_frame 0 0 norm Cartesian A = Err AssertionError)].
Proof. exact constructors. Qed.
Print Assumptions C63_constructors.

(** C65. *)
Theorem C65_left : forall (F : realFieldType) m n (A : 'M[F]_(m, n)),
  (\rank A = n -> exists X, [/\ generalized_left_inverse A = Ok X, X *m A = 1%:M & penrose A X]) /\
  (\rank A <> n -> generalized_left_inverse A = Err LinAlgError).
Proof. exact (fun F m n A => conj (@left_inverse_ok F m n A) (@left_inverse_deficient F m n A)). Qed.
Print Assumptions C65_left.

Theorem C65_right : forall (F : realFieldType) m n (A : 'M[F]_(m, n)),
  (\rank A = m -> exists X, [/\ generalized_right_inverse A = Ok X, A *m X = 1%:M & penrose A X]) /\
  (\rank A <> m -> generalized_right_inverse A = Err LinAlgError).
Proof. exact (fun F m n A => conj (@right_inverse_ok F m n A) (@right_inverse_deficient F m n A)). Qed.
Print Assumptions C65_right.

Theorem C65_dispatch : forall (F : realFieldType) m n (A : 'M[F]_(m, n)),
  (\rank A = minn m n -> exists X, [/\ generalized_inverse A = Ok X,
     (n <= m)%N -> X *m A = 1%:M, (m <= n)%N -> A *m X = 1%:M & penrose A X]) /\
  (\rank A <> minn m n -> generalized_inverse A = Err LinAlgError).
Proof. exact generalized_inverse_ok. Qed.
Print Assumptions C65_dispatch.

Example C65_example : forall F : realFieldType,
  \rank (col_mx 1%:M 1%:M : 'M[F]_(2 + 2, 2)) = 2%N /\ \rank (row_mx 1%:M 1%:M : 'M[F]_(2, 2 + 2)) = 2%N.
Proof. exact ranks_exist. Qed.

(** C66. *)
Theorem C66_permutation_tensor : forall (F : realFieldType) (n : nat),
  [/\ forall s : {perm 'I_n}, permutation_tensor F n [ffun i => s i] = (-1) ^+ s,
      forall (c : mi n n) i j, i != j -> c i = c j -> permutation_tensor F n c = 0,
      forall (c : mi n n) i j, i != j ->
        permutation_tensor F n [ffun k => c (tperm i j k)] = - permutation_tensor F n c &
      forall A : 'M[F]_n, \det A = \sum_(c : mi n n) permutation_tensor F n c * \prod_i A i (c i)].
Proof. exact permutation_facts. Qed.
Print Assumptions C66_permutation_tensor.

Theorem C66_cross : forall (F : realFieldType) (a b : 'cV[F]_3) i,
  cross3 a b i 0 = \sum_j \sum_k permutation_tensor F 3 (index3 i j k) * a j 0 * b k 0.
Proof. exact cross_eps. Qed.
Print Assumptions C66_cross.

(** C72, refuted: a RectangularFrame says that it is independent although a base vector
    vanishes. *)
Theorem C72_refuted : forall (F : realFieldType) (rtol atol : F) (norm : 'rV[F]_1 -> F),
  0 <= rtol -> 0 <= atol ->
  exists f, [/\ new_frame rtol atol norm Rectangular (0 : 'M[F]_1) = Ok f, frame_is_independent f & ~ independent_rows (axes f)].
Proof. exact (fun F rtol atol norm Hr Ha => zero_rectangular Hr Ha norm). Qed.
Print Assumptions C72_refuted.

Theorem C72_partial : forall (F : realFieldType) (rtol atol : F) (n : nat) (norm : 'rV[F]_n -> F),
  0 <= rtol -> 0 <= atol -> (forall A, norm_rows norm A) ->
  (forall f : frame F n, kind_of f = Reference -> (frame_is_independent f <-> independent_rows (axes f))) /\
  (forall f : frame F n, good_frame f ->
     [/\ frame_is_independent f,
         orthogonal_rows (axes f) -> frame_is_rectangular rtol atol f &
         orthonormal_rows (axes f) -> frame_is_cartesian rtol atol norm f]).
Proof. exact flags. Qed.
Print Assumptions C72_partial.

(** C75.  Rotating a frame by an orthogonal matrix R keeps all scalar products of its base
    vectors and its class; components taken along are those of the rotated tensor. *)
Theorem C75_orient : forall (F : realFieldType) (n : nat) (R : 'M[F]_n), R *m R^T = 1%:M ->
  [/\ forall A : 'M[F]_n, Gram (orient_axes R A) = Gram A,
      forall f : frame F n, good_frame f -> good_frame (Frame (kind_of f) (orient_axes R (axes f))),
      forall r (f : frame F n) (a V : tens F n r), represents (axes f) a V ->
        represents (orient_axes R (axes f)) a (transform R^T V) &
      forall r (T : tensor F n r) V, axes (frame_of T) = 1%:M -> describes T V ->
        describes (torient R T) (transform R^T V)].
Proof. exact orient_facts. Qed.
Print Assumptions C75_orient.

(** Normalising an orthogonal frame gives a proper CartesianFrame with the directions of
    the base vectors. *)
Theorem C75_normalize : forall (F : realFieldType) (rtol atol : F) (n : nat) (norm : 'rV[F]_n -> F),
  0 <= rtol -> 0 <= atol -> forall A : 'M[F]_n, norm_rows norm A -> orthogonal_rows A -> independent_rows A ->
  exists f, [/\ new_normalized rtol atol norm A = Ok f, good_frame f, kind_of f = Cartesian &
                forall i, exists c, 0 < c /\ row i (axes f) = c *: row i A].
Proof. exact normalized. Qed.
Print Assumptions C75_normalize.

(** C76.  Transposing a tensor reverses the indices of the ambient tensor. *)
Theorem C76_transpose : forall (F : realFieldType) (rtol atol : F) (n : nat) (norm : 'rV[F]_n -> F),
  0 <= rtol -> 0 <= atol -> forall r (T : tensor F n r) V, describes T V ->
  describes (ttranspose_inplace T) [ffun c : mi n r => V [ffun k => c (rev_ord k)]] /\
  (good_frame (frame_of T) -> (kind_of (frame_of T) = Cartesian -> norm_rows norm (axes (frame_of T))) ->
   exists t, [/\ ttranspose rtol atol norm T = Ok t, frame_of t = frame_of T & describes t [ffun c : mi n r => V [ffun k => c (rev_ord k)]]]).
Proof. exact transposes. Qed.
Print Assumptions C76_transpose.

(** C77. *)
Theorem C77_full_rank : forall (F : realFieldType) m n (A : 'M[F]_(m, n)),
  [/\ has_full_row_rank A <-> (forall c : 'rV[F]_m, c *m A = 0 -> c = 0),
      has_full_column_rank A <-> (forall x : 'cV[F]_n, A *m x = 0 -> x = 0) &
      has_full_rank A = has_full_row_rank A || has_full_column_rank A].
Proof. exact (fun F m n A => And3 (full_row_rankP A) (full_column_rankP A) (full_rankP A)). Qed.
Print Assumptions C77_full_rank.

(** C78. *)
Theorem C78_random_matrices : forall (F : realFieldType) n (A : 'M[F]_n) (alpha : F),
  [/\ (pos_semidef_of A)^T = pos_semidef_of A,
      forall x : 'cV[F]_n, 0 <= (x^T *m pos_semidef_of A *m x) 0 0,
      (posdef_of A alpha)^T = posdef_of A alpha &
      0 < alpha -> forall x : 'cV[F]_n, x <> 0 -> 0 < (x^T *m posdef_of A alpha *m x) 0 0].
Proof. exact random_matrices. Qed.
Print Assumptions C78_random_matrices.

Theorem C78_congruence : forall (F : realFieldType) m n (A : 'M[F]_(m, n)) (B : 'M[F]_m) (w : F), B^T = B ->
  (ATBA A B)^T = ATBA A B /\ (ATBAw A B w)^T = ATBAw A B w.
Proof. exact ATBA_symmetric. Qed.
Print Assumptions C78_congruence.

Theorem C78_unit_basis_vector : forall (F : realFieldType) length index (value : F), (index < length)%N ->
  size (unit_basis_vector length index value) = length /\
  forall i, (i < length)%N -> nth 0 (unit_basis_vector length index value) i = if i == index then value else 0.
Proof. exact unit_basis_vectorE. Qed.
Print Assumptions C78_unit_basis_vector.
