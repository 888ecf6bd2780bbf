(** Model of the tests for symmetry and positive (semi)definiteness (logical.py and
    linalg/logical.py) and of the random definite matrices (linalg/utils.py).

    Simplifications: exact arithmetic in a real field; real square matrices;
    numpy.linalg.eigvals and numpy.linalg.norm are arguments, as is the matrix drawn by
    numpy.random.rand. *)
Set Warnings "-notation-overridden,-ambiguous-paths".
From mathcomp Require Import all_ssreflect all_algebra.
Set Implicit Arguments.
Unset Strict Implicit.
Unset Printing Implicit Defensive.
Import GRing.Theory Num.Theory.
Local Open Scope ring_scope.

Section Def.
Variables (F : realFieldType) (n : nat).
Variable eigvals : 'M[F]_n -> seq F.
Variable norm : 'M[F]_n -> F.

(** logical.py:57-62, [issymmetric]. *)
Definition issymmetric (A : 'M[F]_n) (tol : F) : bool := norm (A - A^T) < tol.

(** logical.py:65-83, [isposdef]. *)
Definition isposdef (A : 'M[F]_n) (tol : F) : bool := all (fun l => tol < l) (eigvals A).

(** logical.py:86-99, [ispossemidef]. *)
Definition ispossemidef (A : 'M[F]_n) : bool := all (fun l => 0 <= l) (eigvals A).

(** linalg/logical.py:21-25 and 28-32, [is_pos_def] and [is_pos_semidef]. *)
Definition is_pos_def (A : 'M[F]_n) : bool := all (fun l => 0 < l) (eigvals A).
Definition is_pos_semidef (A : 'M[F]_n) : bool := all (fun l => 0 <= l) (eigvals A).

(** linalg/utils.py:604-617, [random_pos_semidef_matrix]; [R] is the random matrix. *)
Definition random_pos_semidef_matrix (R : 'M[F]_n) : 'M[F]_n := R^T *m R.

(** linalg/utils.py:620-635, [random_posdef_matrix]. *)
Definition random_posdef_matrix (R : 'M[F]_n) (alpha : F) : 'M[F]_n := R *m R^T + alpha *: 1%:M.
End Def.
