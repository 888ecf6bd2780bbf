(** Shared vocabulary of the model: Python exceptions as values. *)
From Coq Require Export List Arith ZArith Lia Bool.
From Coq Require Export Permutation Sorted.
Export ListNotations.

(** The exception classes that the modelled code raises.  [OutOfFuel] is not a
    Python exception: it marks a [while] loop whose fuel ran out, and theorems
    always exclude it (or prove that it is unavoidable). *)
Inductive exc : Set :=
| AssertionError | ValueError | TypeError | IndexError | KeyError
| NotImplementedError | LinAlgError | RuntimeError | AttributeError
| ZeroDivisionError | StopIteration | ShapeMismatchError | NameError | SyntaxError | ImportError
| OperationInputError | MissingInputError | InvalidTensorOperationError | OutOfFuel.

Inductive result (A : Type) : Type :=
| Ok (a : A)
| Err (e : exc).
Arguments Ok {A} a.
Arguments Err {A} e.

Definition bind {A B} (r : result A) (f : A -> result B) : result B :=
  match r with Ok a => f a | Err e => Err e end.
Notation "'do' x <- r ; k" := (bind r (fun x => k))
  (at level 200, x pattern, r at level 100, k at level 200, right associativity).

Definition is_ok {A} (r : result A) : bool :=
  match r with Ok _ => true | Err _ => false end.

(** A loop whose body may raise. *)
Fixpoint foldM {A B} (f : B -> A -> result B) (l : list A) (b : B) : result B :=
  match l with
  | [] => Ok b
  | x :: l' => do b' <- f b x ; foldM f l' b'
  end.

(** Arrays as functions: [a[i] = v]. *)
Definition upd {A} (f : nat -> A) (i : nat) (v : A) : nat -> A :=
  fun j => if j =? i then v else f j.
(** The first [n] cells. *)
Definition tolist {A} (n : nat) (f : nat -> A) : list A := map f (seq 0 n).
