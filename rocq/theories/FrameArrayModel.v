(** Model of the memory order of the array assigned to the axes of a frame
    (frame.py:290-311).  [np.ndarray(shape, buffer=buf)] takes over the memory of any
    C- or Fortran-contiguous array and reads it row by row (NumPy accepts every
    contiguous buffer there; other arrays raise ValueError and are not modelled). *)
Set Warnings "-notation-overridden,-ambiguous-paths".
From Verif Require Import Prelude.
From mathcomp Require Import all_ssreflect all_algebra.
Set Implicit Arguments.
Unset Strict Implicit.
Unset Printing Implicit Defensive.
Local Open Scope ring_scope.

Section Order.
Variables (F : realFieldType) (n : nat).
(** A contiguous square array: its memory, read row by row, and its order. *)
Inductive order := COrder | FOrder.
Record nd := Nd { ord_of : order; mem : 'M[F]_n }.
(** The matrix a user of the array sees. *)
Definition value (a : nd) : 'M[F]_n := match ord_of a with COrder => mem a | FOrder => (mem a)^T end.
(** [a.T]: the same memory, the other order. *)
Definition np_T (a : nd) : nd := Nd (match ord_of a with COrder => FOrder | FOrder => COrder end) (mem a).
(** frame.py:296-299, the new axes array made from the memory of the assigned one. *)
Definition assigned (a : nd) : nd := Nd COrder (mem a).
(** utils.py:553-555 and frame.py:398-400, [transpose(inplace=True)]. *)
Definition transpose_inplace (axes : nd) : nd := assigned (np_T axes).
End Order.
