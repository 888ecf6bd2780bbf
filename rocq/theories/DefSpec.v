(** Vocabulary for the statements about definite matrices. *)
Set Warnings "-notation-overridden,-ambiguous-paths".
From mathcomp Require Import all_ssreflect all_algebra.
Set Implicit Arguments.
Unset Strict Implicit.
Unset Printing Implicit Defensive.
Import GRing.Theory Num.Theory.
Local Open Scope ring_scope.

Section Spec.
Variables (F : realFieldType) (n : nat).

(** x A x^T and x x^T. *)
Definition quad (A : 'M[F]_n) (x : 'rV[F]_n) : F := \sum_i \sum_j x 0 i * A i j * x 0 j.
Definition square (x : 'rV[F]_n) : F := \sum_i x 0 i ^+ 2.

Definition symmetric_matrix (A : 'M[F]_n) : Prop := forall i j, A i j = A j i.
Definition positive_definite (A : 'M[F]_n) : Prop := forall x, x != 0 -> 0 < quad A x.
Definition positive_semidefinite (A : 'M[F]_n) : Prop := forall x, 0 <= quad A x.

(** [s] lists the eigenvalues of [A] with multiplicity, all of them real: the
    characteristic polynomial is the product of the X - l. *)
Definition eigenvalues (A : 'M[F]_n) (s : seq F) : Prop := char_poly A = \prod_(l <- s) ('X - l%:P).

(** [l] is an eigenvalue of [A]. *)
Definition is_eigenvalue (A : 'M[F]_n) (l : F) : Prop := exists2 x : 'rV[F]_n, x != 0 & x *m A = l *: x.

(** numpy.linalg.norm of a matrix is the Frobenius norm. *)
Definition frobenius (norm : 'M[F]_n -> F) : Prop :=
  forall A, 0 <= norm A /\ norm A ^+ 2 = \sum_i \sum_j A i j ^+ 2.
End Spec.
