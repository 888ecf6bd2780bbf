(** Model of the reference frames, vectors and tensors of sigmaepsilon.math.linalg
    (frame.py, vector.py, tensor.py, abstract.py, meta.py and the functions of utils.py
    and logical.py they use).

    Simplifications: exact arithmetic in an arbitrary real field [F] instead of floats;
    single frames and single tensors (the stacked variants apply the same matrices slice
    by slice, see KernModel.v); np.linalg.inv, which raises LinAlgError for a singular
    matrix, is the matrix inverse on invertible matrices; np.linalg.norm, np.sqrt and the
    rotation matrices computed by SymPy are arguments. *)
Set Warnings "-notation-overridden,-ambiguous-paths".
From Verif Require Import Prelude.
From mathcomp Require Import all_ssreflect all_algebra.
Set Implicit Arguments.
Unset Strict Implicit.
Unset Printing Implicit Defensive.
Import GRing.Theory Num.Theory.
Local Open Scope ring_scope.

Section Frames.
Variable F : realFieldType.
(** The relative and absolute tolerance of numpy.isclose (1e-5 and 1e-8), and
    numpy.linalg.norm of a vector. *)
Variables (rtol atol : F).
Variable n : nat.
Variable norm : 'rV[F]_n -> F.

(** numpy.linalg.inv. *)
Definition np_inv (A : 'M[F]_n) : result 'M[F]_n :=
  if A \in unitmx then Ok (invmx A) else Err LinAlgError.

(** utils.py:592-601, [dual_frame]: the transposed inverse. *)
Definition dual_frame (A : 'M[F]_n) : result 'M[F]_n := do X <- np_inv A; Ok X^T.

(** utils.py:580-589, [Gram]. *)
Definition Gram (A : 'M[F]_n) : 'M[F]_n := A *m A^T.

(** numpy.isclose(a, b): |a - b| <= atol + rtol |b|. *)
Definition isclose (a b : F) : bool := `|a - b| <= atol + rtol * `|b|.

(** logical.py:35-47, [is_rectangular_frame]: trace and sum of the absolute Gram matrix. *)
Definition agram (A : 'M[F]_n) : 'M[F]_n := map_mx (fun x => `|x|) (A *m A^T).
Definition is_rectangular_frame (A : 'M[F]_n) : bool :=
  isclose (\tr (agram A)) (\sum_i \sum_j agram A i j).

(** logical.py:50-60, [is_normal_frame]. *)
Definition is_normal_frame (A : 'M[F]_n) : bool := [forall i, isclose (norm (row i A)) 1].

(** logical.py:63-72, [is_orthonormal_frame]. *)
Definition is_orthonormal_frame (A : 'M[F]_n) : bool := is_rectangular_frame A && is_normal_frame A.

(** logical.py:75-84, [is_independent_frame]. *)
Definition is_independent_frame (A : 'M[F]_n) (tol : F) : bool := tol < \det (Gram A).

(** frame.py:53-716, 717-820: the three classes of frames. *)
Inductive kind := Reference | Rectangular | Cartesian.

(** An instance: its class and its axes (row i is the i-th base vector). *)
Record frame := Frame { kind_of : kind; axes : 'M[F]_n }.

(** frame.py:182-197, 666-671, 757-767, the constructors called with an array; the
    arguments assume_rectangular and assume_cartesian, which skip the assertions, have
    their default False. *)
Definition new_frame (k : kind) (A : 'M[F]_n) : result frame :=
  match k with
  | Reference => Ok (Frame Reference A)
  | Rectangular => if is_rectangular_frame A then Ok (Frame Rectangular A) else Err AssertionError
  | Cartesian => if is_rectangular_frame A then
                   if is_normal_frame A then Ok (Frame Cartesian A) else Err AssertionError
                 else Err AssertionError
  end.

(** utils.py:568-577, [normalize_frame] (each row over its norm), and frame.py:757-767,
    the constructor of CartesianFrame with normalize=True. *)
Definition normalize_frame (A : 'M[F]_n) : 'M[F]_n := \matrix_(i, j) (A i j / norm (row i A)).
Definition new_normalized (A : 'M[F]_n) : result frame :=
  if is_rectangular_frame A then Ok (Frame Cartesian (normalize_frame A)) else Err AssertionError.

(** frame.py:234-238 and 783-787, the method [Gram]. *)
Definition frame_Gram (f : frame) : 'M[F]_n :=
  match kind_of f with Cartesian => 1%:M | _ => Gram (axes f) end.

(** frame.py:199-219, 673-686, 769-781, the properties [is_rectangular], [is_cartesian]
    and [is_independent]: the subclasses answer True without looking. *)
Definition frame_is_rectangular (f : frame) : bool :=
  match kind_of f with Reference => is_rectangular_frame (axes f) | _ => true end.
Definition frame_is_cartesian (f : frame) : bool :=
  match kind_of f with Cartesian => true | _ => is_orthonormal_frame (axes f) end.
Definition frame_is_independent (f : frame) : bool :=
  match kind_of f with Reference => 0 < \det (frame_Gram f) | _ => true end.

(** frame.py:248-253 and 789-794, [volume], given np.sqrt. *)
Definition volume (sqrt : F -> F) (f : frame) : F :=
  match kind_of f with Cartesian => 1 | _ => sqrt (\det (frame_Gram f)) end.

(** frame.py:255-259 and 796-800, [dual]: built by the constructor of the same class; a
    CartesianFrame returns itself. *)
Definition dual (f : frame) : result frame :=
  match kind_of f with
  | Cartesian => Ok f
  | k => do D <- dual_frame (axes f); new_frame k D
  end.

(** frame.py:324-379, [dcm] with a target (source = self), with a source (target = self)
    and without arguments. *)
Definition dcm_target (f g : frame) : result 'M[F]_n := do d <- dual g; Ok (axes d *m (axes f)^T).
Definition dcm_source (f g : frame) : result 'M[F]_n := do d <- dual f; Ok (axes d *m (axes g)^T).

(** frame.py:313-322, [show]: the components "of the current frame in a target frame". *)
Definition frame_show (f : frame) (target : option frame) : result 'M[F]_n :=
  match target with Some g => dcm_source f g | None => Ok (axes f) end.

(** frame.py:381-401, [transpose] with inplace=False: a new frame of the same class. *)
Definition transpose_new (f : frame) : result frame := new_frame (kind_of f) (axes f)^T.

(** frame.py:403-433, [orient], given the rotation matrix of utils.py:65-118: the rows of
    [show_frame(dcm.T, axes)]. *)
Definition orient_axes (R A : 'M[F]_n) : 'M[F]_n := \matrix_(i, j) (R^T *m (row i A)^T) j 0.

(** Components of a tensor of rank r: one number for every multi-index. *)
Definition mi (r : nat) := {ffun 'I_r -> 'I_n}.
Definition tens (r : nat) := {ffun mi r -> F}.

(** tensor.py:93-109, [Tensor.transform_components]: einsum over one copy of Q per index.
    Vector.show (vector.py:120-144) and Tensor2 (tensor.py:212-213) use Q @ v and
    Q @ T @ Q.T, Tensor4 (tensor.py:275-280) the unrolled loops of tr.py; that these are
    the cases r = 1, 2 and 4 is proved in TensorProofs.v and KernProofs.v. *)
Definition transform r (Q : 'M[F]_n) (T : tens r) : tens r :=
  [ffun c : mi r => \sum_(d : mi r) (\prod_(k < r) Q (c k) (d k)) * T d].

(** A tensor and the frame its components refer to. *)
Record tensor r := Tensor { arr : tens r; frame_of : frame }.

(** vector.py:120-144 and tensor.py:111-135, [show]; the default target is
    ReferenceFrame(dim=n), the ambient frame. *)
Definition ambient : frame := Frame Reference 1%:M.
Definition show r (T : tensor r) (target : option frame) : result (tens r) :=
  do Q <- dcm_target (frame_of T) (if target is Some g then g else ambient); Ok (transform Q (arr T)).

(** vector.py:111-118 and tensor.py:86-91, [dual]. *)
Definition tensor_dual r (T : tensor r) : result (tensor r) :=
  do d <- dual (frame_of T); Ok (Tensor (transform (frame_Gram (frame_of T)) (arr T)) d).

(** meta.py:410-430, assigning [frame]: the components become those shown in the new
    frame.  An array instead of a frame is wrapped into a ReferenceFrame. *)
Definition set_frame r (T : tensor r) (g : frame) : result (tensor r) :=
  do a <- show T (Some g); Ok (Tensor a g).

(** abstract.py:68-83, 85-100, [a + b] and [a - b]: in a new ReferenceFrame with the axes
    of a's frame. *)
Definition tadd r (a b : tensor r) : result (tensor r) :=
  do x <- show b (Some (frame_of a));
  Ok (Tensor (arr a + x) (Frame Reference (axes (frame_of a)))).
Definition tsub r (a b : tensor r) : result (tensor r) :=
  do x <- show b (Some (frame_of a));
  Ok (Tensor (arr a - x) (Frame Reference (axes (frame_of a)))).
(** abstract.py:59-66, 102-109, [a += b] and [a -= b] for tensors. *)
Definition tiadd r (a b : tensor r) : result (tensor r) :=
  do x <- show b (Some (frame_of a)); Ok (Tensor (arr a + x) (frame_of a)).
Definition tisub r (a b : tensor r) : result (tensor r) :=
  do x <- show b (Some (frame_of a)); Ok (Tensor (arr a - x) (frame_of a)).
(** abstract.py:59-66, 102-109, [a += s] and [a -= s] for a number: both add. *)
Definition iadd_number r (a : tensor r) (s : F) : tensor r :=
  Tensor [ffun c => arr a c + s] (frame_of a).
Definition isub_number r (a : tensor r) (s : F) : tensor r :=
  Tensor [ffun c => arr a c + s] (frame_of a).
(** abstract.py:41-51, 111-121, [a *= s], [a * s], [a /= s], [a / s] (division by zero
    gives non-finite floats, so the theorems assume s <> 0), and 139-148, [-a]. *)
Definition tscale r (a : tensor r) (s : F) : tensor r := Tensor [ffun c => arr a c * s] (frame_of a).
Definition tdiv r (a : tensor r) (s : F) : tensor r := Tensor [ffun c => arr a c / s] (frame_of a).
Definition tneg r (a : tensor r) : tensor r := Tensor (- arr a) (frame_of a).

(** vector.py:201-215, tensor.py:174-188, [copy] and [deepcopy]: a new instance from the
    components only, so in the default frame. *)
Definition tcopy r (a : tensor r) : tensor r := Tensor (arr a) ambient.
(** meta.py:341-361, copy.copy keeps the frame object, copy.deepcopy makes a new
    ReferenceFrame with copied axes. *)
Definition copy_copy r (a : tensor r) : tensor r := a.
Definition copy_deepcopy r (a : tensor r) : tensor r :=
  Tensor (arr a) (Frame Reference (axes (frame_of a))).

(** vector.py:146-199, tensor.py:137-172, [orient] and [orient_new], given the rotation
    matrix R: the DCM of a standard frame oriented by R, transposed, is applied to the
    components. *)
Definition torient r (R : 'M[F]_n) (a : tensor r) : tensor r :=
  Tensor (transform (orient_axes R 1%:M)^T (arr a)) (frame_of a).

(** Vectors and second-order tensors as columns and matrices. *)
Definition v_index (i : 'I_n) : mi 1 := [ffun _ => i].
Definition m_index (i j : 'I_n) : mi 2 := [ffun k => if k == ord0 then i else j].
Definition vec_of (v : tens 1) : 'cV[F]_n := \col_i v (v_index i).
Definition of_vec (v : 'cV[F]_n) : tens 1 := [ffun c : mi 1 => v (c ord0) 0].
Definition mat_of (T : tens 2) : 'M[F]_n := \matrix_(i, j) T (m_index i j).
Definition of_mat (A : 'M[F]_n) : tens 2 := [ffun c : mi 2 => A (c ord0) (c (lift ord0 ord0))].

(** frame.py:240-246, [metric_tensor]. *)
Definition metric_tensor (f : frame) : tensor 2 := Tensor (of_mat (frame_Gram f)) f.

(** meta.py:439-467, [transpose]: the order of the tensor indices is reversed, the frame
    becomes a copy of the same class.  With inplace=True the frame object is kept. *)
Definition rev_index r (c : mi r) : mi r := [ffun k => c (rev_ord k)].
Definition ttranspose r (a : tensor r) : result (tensor r) :=
  do f <- new_frame (kind_of (frame_of a)) (axes (frame_of a));
  Ok (Tensor [ffun c => arr a (rev_index c)] f).
Definition ttranspose_inplace r (a : tensor r) : tensor r :=
  Tensor [ffun c => arr a (rev_index c)] (frame_of a).

(** utils.py:140-251, [dot] for vectors and second-order tensors (without the argument
    [frame], which assigns the frame of the result afterwards, see [set_frame]). *)
Definition dot_vv (a b : tensor 1) : result F :=
  do x <- show a None; do y <- show b None; Ok (\sum_i x (v_index i) * y (v_index i)).
Definition dot_tv (a : tensor 2) (b : tensor 1) : result (tensor 1) :=
  do d <- dual (frame_of a); do x <- show b (Some d);
  Ok (Tensor (of_vec (mat_of (arr a) *m vec_of x)) (frame_of a)).
(** (a.array.T @ b.show(dual).T).T for a 1d array a. *)
Definition dot_vt (a : tensor 1) (b : tensor 2) : result (tensor 1) :=
  do d <- dual (frame_of a); do x <- show b (Some d);
  Ok (Tensor (of_vec ((vec_of (arr a))^T *m (mat_of x)^T)^T) (frame_of a)).
Definition dot_tt (a b : tensor 2) : result (tensor 2) :=
  do x <- show b (Some (frame_of a));
  Ok (Tensor (of_mat (mat_of (arr a) *m frame_Gram (frame_of a) *m mat_of x)) (frame_of a)).

(** utils.py:228-243, the contraction of general tensors by einsum on the shown arrays:
    the index [p] of a and [q] of b run together; the remaining indices of a, then those
    of b, are the indices of the result. *)
Definition join ra rb (p : 'I_ra.+1) (q : 'I_rb.+1) (c : mi (ra + rb)) (s : 'I_n) : mi ra.+1 * mi rb.+1 :=
  ([ffun k => if unlift p k is Some k' then c (lshift rb k') else s],
   [ffun k => if unlift q k is Some k' then c (rshift ra k') else s]).
Definition contract ra rb (p : 'I_ra.+1) (q : 'I_rb.+1) (x : tens ra.+1) (y : tens rb.+1) : tens (ra + rb) :=
  [ffun c => \sum_(s < n) x (join p q c s).1 * y (join p q c s).2].
Definition dot_general ra rb (p : 'I_ra.+1) (q : 'I_rb.+1) (a : tensor ra.+1) (b : tensor rb.+1)
  : result (tensor (ra + rb)) :=
  do x <- show a None; do y <- show b None; Ok (Tensor (contract p q x y) ambient).

End Frames.

Section Cross.
Variable F : realFieldType.
Variables (rtol atol : F).
Variable norm : 'rV[F]_3 -> F.

(** numpy.cross of two vectors of length 3. *)
Definition i0 : 'I_3 := @Ordinal 3 0 isT.
Definition i1 : 'I_3 := @Ordinal 3 1 isT.
Definition i2 : 'I_3 := @Ordinal 3 2 isT.
Definition cross3 (a b : 'cV[F]_3) : 'cV[F]_3 :=
  \col_i nth 0 [:: a i1 0 * b i2 0 - a i2 0 * b i1 0;
                   a i2 0 * b i0 0 - a i0 0 * b i2 0;
                   a i0 0 * b i1 0 - a i1 0 * b i0 0] i.
(** utils.py:254-344, [cross]: two vectors; a tensor and a vector, a vector and a tensor
    (numpy.cross with axis=0: column by column, in the ambient frame). *)
Definition cross_vv (a b : tensor F 3 1) : result (tensor F 3 1) :=
  do x <- show rtol atol norm b (Some (frame_of a));
  Ok (Tensor (of_vec (cross3 (vec_of (arr a)) (vec_of x))) (frame_of a)).
Definition cross_cols (A : 'M[F]_3) (v : 'cV[F]_3) : 'M[F]_3 := \matrix_(i, j) cross3 (col j A) v i 0.
Definition cross_tv (a : tensor F 3 2) (b : tensor F 3 1) : result (tensor F 3 2) :=
  do x <- show rtol atol norm a None; do y <- show rtol atol norm b None;
  Ok (Tensor (of_mat (cross_cols (mat_of x) (vec_of y))) (ambient F 3)).
Definition cross_vt (a : tensor F 3 1) (b : tensor F 3 2) : result (tensor F 3 2) :=
  do x <- show rtol atol norm a None; do y <- show rtol atol norm b None;
  Ok (Tensor (of_mat (\matrix_(i, j) cross3 (vec_of x) (col j (mat_of y)) i 0)) (ambient F 3)).
End Cross.
