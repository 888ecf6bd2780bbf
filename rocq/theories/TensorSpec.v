(** What the components of a tensor in a frame mean, and which frames are proper. *)
Set Warnings "-notation-overridden,-ambiguous-paths".
From Verif Require Import Prelude TensorModel.
From mathcomp Require Import all_ssreflect all_algebra all_fingroup.
Set Implicit Arguments.
Unset Strict Implicit.
Unset Printing Implicit Defensive.
Import GRing.Theory Num.Theory.
Local Open Scope ring_scope.

Section Spec.
Variables (F : realFieldType) (n : nat).

(** [a] lists the components of the tensor [V] (given in the ambient frame) with respect
    to the base vectors b_i, the rows of [A]:
    V = sum over d of a_d (b_{d 0} (x) b_{d 1} (x) ...). *)
Definition represents r (A : 'M[F]_n) (a V : tens F n r) : Prop :=
  forall c, V c = \sum_(d : mi n r) a d * \prod_(k < r) A (d k) (c k).

(** Scalar products of the base vectors. *)
Definition base_dot (A : 'M[F]_n) (i j : 'I_n) : F := \sum_k A i k * A j k.
Definition orthogonal_rows (A : 'M[F]_n) : Prop := forall i j, i != j -> base_dot A i j = 0.
Definition orthonormal_rows (A : 'M[F]_n) : Prop := forall i j, base_dot A i j = (i == j)%:R.
Definition independent_rows (A : 'M[F]_n) : Prop := forall c : 'rV[F]_n, c *m A = 0 -> c = 0.

(** [norm] is the Euclidean norm, as far as the base vectors are concerned. *)
Definition norm_rows (norm : 'rV[F]_n -> F) (A : 'M[F]_n) : Prop :=
  forall i, 0 <= norm (row i A) /\ norm (row i A) ^+ 2 = base_dot A i i.

(** A frame that is what its class says: independent base vectors, orthogonal for a
    RectangularFrame, orthonormal for a CartesianFrame. *)
Definition good_frame (f : frame F n) : Prop :=
  independent_rows (axes f) /\
  match kind_of f with
  | Reference => True
  | Rectangular => orthogonal_rows (axes f)
  | Cartesian => orthonormal_rows (axes f)
  end.

(** The tensor [t] describes the ambient tensor [V]. *)
Definition describes r (t : tensor F n r) (V : tens F n r) : Prop := represents (axes (frame_of t)) (arr t) V.

(** Index k of the result is index s(k) of T; the full contraction of two tensors. *)
Definition permute r (s : {perm 'I_r}) (T : tens F n r) : tens F n r :=
  [ffun c : mi n r => T [ffun k => c (s k)]].
Definition inner r (a b : tens F n r) : F := \sum_c a c * b c.
(** [R] is the contraction of index [p] of [V] with index [q] of [W]: whatever the
    multi-indices x s and y s are that carry s in these positions and the indices of the
    result in the remaining ones, in their order. *)
Definition contracted ra rb (p : 'I_ra.+1) (q : 'I_rb.+1) (V : tens F n ra.+1) (W : tens F n rb.+1)
    (R : tens F n (ra + rb)) : Prop :=
  forall (c : mi n (ra + rb)) (x : 'I_n -> mi n ra.+1) (y : 'I_n -> mi n rb.+1),
    (forall s, x s p = s /\ forall k, x s (lift p k) = c (lshift rb k)) ->
    (forall s, y s q = s /\ forall k, y s (lift q k) = c (rshift ra k)) ->
    R c = \sum_s V (x s) * W (y s).
(** The four indices of a tensor of rank 4. *)
Definition index4 (i j k l : 'I_n) : mi n 4 := [ffun m : 'I_4 => nth i [:: i; j; k; l] m].
End Spec.
