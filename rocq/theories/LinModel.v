(** Model of the generalised inverses, the rank predicates, the permutation tensor and
    small matrix helpers of linalg/utils.py and linalg/logical.py.  Exact arithmetic in a
    real field; numpy.linalg.matrix_rank is the rank. *)
Set Warnings "-notation-overridden,-ambiguous-paths".
From Verif Require Import Prelude TensorModel.
From mathcomp Require Import all_ssreflect all_algebra.
Set Implicit Arguments.
Unset Strict Implicit.
Unset Printing Implicit Defensive.
Import GRing.Theory Num.Theory.
Local Open Scope ring_scope.

Section Lin.
Variable F : realFieldType.

(** utils.py:889-900, [generalized_left_inverse]. *)
Definition generalized_left_inverse m n (A : 'M[F]_(m, n)) : result 'M[F]_(n, m) :=
  do X <- np_inv (A^T *m A); Ok (X *m A^T).

(** utils.py:903-914, [generalized_right_inverse]. *)
Definition generalized_right_inverse m n (A : 'M[F]_(m, n)) : result 'M[F]_(n, m) :=
  do X <- np_inv (A *m A^T); Ok (A^T *m X).

(** utils.py:917-944, [generalized_inverse]; the casts only identify the two equal
    dimensions of a square matrix. *)
Definition generalized_inverse m n (A : 'M[F]_(m, n)) : result 'M[F]_(n, m) :=
  match m =P n with
  | ReflectT e => if \rank A == n then do X <- np_inv (castmx (e, erefl n) A); Ok (castmx (erefl n, esym e) X)
                  else Err LinAlgError
  | ReflectF _ => if (n < m)%N && (\rank A == n) then generalized_left_inverse A
                  else if (m < n)%N && (\rank A == m) then generalized_right_inverse A
                  else Err LinAlgError
  end.

(** logical.py:96-140, [has_full_row_rank], [has_full_column_rank], [has_full_rank]. *)
Definition has_full_row_rank m n (A : 'M[F]_(m, n)) : bool := if (n < m)%N then false else \rank A == m.
Definition has_full_column_rank m n (A : 'M[F]_(m, n)) : bool := if (m < n)%N then false else \rank A == n.
Definition has_full_rank m n (A : 'M[F]_(m, n)) : bool := \rank A == minn m n.

(** utils.py:121-137, [permutation_tensor]: for every permutation x of range(n) (the
    injective index tuples) the matrix with ones at (i, x_i) is formed and its
    determinant (exactly 1 or -1, so int() does not change it) stored at x. *)
Definition one_matrix n (x : mi n n) : 'M[F]_n := \matrix_(i, j) (x i == j)%:R.
Definition permutation_tensor n : tens F n n :=
  foldl (fun (a : tens F n n) (x : mi n n) => [ffun c => if c == x then \det (one_matrix x) else a c])
        [ffun _ => 0] (enum [pred x : mi n n | injectiveb x]).

(** utils.py:684-701, [ATB], [matmulw], [ATBA], [ATBAw]. *)
Definition ATB m n p (A : 'M[F]_(m, n)) (B : 'M[F]_(m, p)) : 'M[F]_(n, p) := A^T *m B.
Definition matmulw m n p (A : 'M[F]_(m, n)) (B : 'M[F]_(n, p)) (w : F) : 'M[F]_(m, p) := w *: (A *m B).
Definition ATBA m n (A : 'M[F]_(m, n)) (B : 'M[F]_m) : 'M[F]_n := A^T *m B *m A.
Definition ATBAw m n (A : 'M[F]_(m, n)) (B : 'M[F]_m) (w : F) : 'M[F]_n := w *: (A^T *m B *m A).

(** utils.py:604-635, [random_pos_semidef_matrix] and [random_posdef_matrix]: A is the
    matrix of random numbers. *)
Definition pos_semidef_of n (A : 'M[F]_n) : 'M[F]_n := A^T *m A.
Definition posdef_of n (A : 'M[F]_n) (alpha : F) : 'M[F]_n := A *m A^T + alpha *: 1%:M.

(** utils.py:947-952, [unit_basis_vector]: value * bincount([index], None, length); the
    result has max(length, index + 1) entries. *)
Definition unit_basis_vector (length index : nat) (value : F) : seq F :=
  [seq value * (i == index)%:R | i <- iota 0 (maxn length index.+1)].
End Lin.
