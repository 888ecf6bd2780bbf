(** Vocabulary for the statements about the kernels. *)
From Verif Require Import Prelude OField ParallelModel SolveModel.

Section Spec.
Context {F : ofield}.
Local Notation mat := (nat -> nat -> F).

Definition delta (i j : nat) : F := if i =? j then one else zero.

(** The determinant by expansion along the first row. *)
Definition minor (A : mat) (j : nat) : mat := fun r c => A (S r) (if c <? j then c else S c).
Fixpoint det (n : nat) (A : mat) : F :=
  match n with
  | 0 => one
  | S m => sum n (fun j => mul (mul (pow (opp one) j) (A 0 j)) (det m (minor A j)))
  end.

(** [X] is a finite two-sided inverse of [A]. *)
Definition is_inverse (n : nat) (A X : mat) : Prop :=
  forall i j, i < n -> j < n ->
    sum n (fun k => mul (A i k) (X k j)) = delta i j /\ sum n (fun k => mul (X i k) (A k j)) = delta i j.
Definition finite_inverse (n : nat) (A : mat) (X : nat -> nat -> option F) : Prop :=
  exists x, (forall i j, i < n -> j < n -> X i j = Some (x i j)) /\ is_inverse n A x.

(** The generic rule for second- and fourth-order tensors. *)
Definition rule2 (n : nat) (Q T : mat) (i j : nat) : F :=
  sum n (fun a => sum n (fun b => mul (mul (Q i a) (Q j b)) (T a b))).
Definition rule4 (n : nat) (Q : mat) (C : nat -> nat -> nat -> nat -> F) (i j k l : nat) : F :=
  sum n (fun a => sum n (fun b => sum n (fun c => sum n (fun d =>
    mul (mul (mul (mul (Q i a) (Q j b)) (Q k c)) (Q l d)) (C a b c d))))).
End Spec.
