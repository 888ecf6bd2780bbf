(** Vocabulary for the statements about [linsolve]. *)
From Verif Require Import Prelude OField SolveModel.

Section Spec.
Context {F : ofield}.

(** Row [i] of the product of the leading [n] columns of [A] with [x]. *)
Definition row_dot (n : nat) (A : mat (F := F)) (x : nat -> F) (i : nat) : F := sum n (fun j => mul (A i j) (x j)).

(** The prescription in force. *)
Definition mask (presc : option ((nat -> bool) * (nat -> F))) : nat -> bool :=
  match presc with Some p => fst p | None => fun _ => false end.
Definition value (presc : option ((nat -> bool) * (nat -> F))) : nat -> F :=
  match presc with Some p => snd p | None => fun _ => zero end.

(** No elimination factor other than zero was skipped by the tolerance [dtol]: the
    run has the same outcome as the run that skips nothing. *)
Definition same_on (n : nat) (a b : mat (F := F) * mat (F := F)) : Prop :=
  forall i, i < n -> (forall j, j < n -> fst a i j = fst b i j) /\ (forall k, snd a i k = snd b i k).
Definition nothing_dropped (m : meth) (ptol dtol : F) (n : nat) (A B : mat) presc : Prop :=
  let run d := elimination n ptol d (mask presc) (value presc) m (A, B) in
  same_on n (fst (run dtol)) (fst (run zero)) /\ snd (run dtol) = snd (run zero).

(** All entries of the first [n] rows are finite, with values [x]. *)
Definition finite (n : nat) (X : fmat (F := F)) (x : nat -> nat -> F) : Prop :=
  forall i k, i < n -> X i k = Some (x i k).

(** [x] solves the constrained system: prescribed unknowns have their values and the
    equations of the free unknowns hold. *)
Definition solves (n : nat) (A : mat (F := F)) (b : nat -> F) (pb : nat -> bool) (pv x : nat -> F) : Prop :=
  (forall i, i < n -> pb i = true -> x i = pv i) /\
  (forall i, i < n -> pb i = false -> row_dot n A x i = b i).

(** The constrained homogeneous system of the first [k] equations has only the
    trivial solution, i.e. the leading block of the free unknowns is regular. *)
Definition regular_block (k : nat) (A : mat (F := F)) (pb : nat -> bool) : Prop :=
  forall y, solves k A (fun _ => zero) pb (fun _ => zero) y -> forall i, i < k -> y i = zero.
End Spec.
