(** The Moore-Penrose conditions, and triples of indices. *)
Set Warnings "-notation-overridden,-ambiguous-paths".
From Verif Require Import Prelude TensorModel.
From mathcomp Require Import all_ssreflect all_algebra.
Set Implicit Arguments.
Unset Strict Implicit.
Unset Printing Implicit Defensive.
Import GRing.Theory Num.Theory.
Local Open Scope ring_scope.

Section Spec.
Variable F : realFieldType.
Definition penrose m n (A : 'M[F]_(m, n)) (X : 'M[F]_(n, m)) : Prop :=
  [/\ A *m X *m A = A, X *m A *m X = X, (A *m X)^T = A *m X & (X *m A)^T = X *m A].
End Spec.
Definition index3 (i j k : 'I_3) : mi 3 3 := [ffun m : 'I_3 => nth i [:: i; j; k] m].
