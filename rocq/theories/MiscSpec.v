(** What the properties C91-C93, C95 and C96 mean, independently of the model. *)
From Verif Require Import Prelude OField ParallelModel MiscModel.
Local Open Scope nat_scope.

(** [m] is the middle of [a] and [b]. *)
Definition midpoint {F : ofield} (m a b : F) : Prop := add m m = add a b.

(** The coordinates of a cell on the axes whose length is not one. *)
Fixpoint without_unit_axes (sh : list nat) (c : cell) : cell :=
  match sh, c with
  | n :: sh, i :: c => if Nat.eq_dec n 1 then without_unit_axes sh c else i :: without_unit_axes sh c
  | _, _ => []
  end.
(** [b] is [a] without its axes of length one: the other axes stay in order, every element
    of [a] is found at the remaining coordinates and [b] has no other elements. *)
Definition squeezed {V} (a b : ndarray V) : Prop :=
  shape b = without_unit_axes (shape a) (shape a) /\ ~ In 1 (shape b) /\
  (forall c, inside (shape a) c ->
     inside (shape b) (without_unit_axes (shape a) c) /\ at_ b (without_unit_axes (shape a) c) = at_ a c) /\
  (forall d, inside (shape b) d -> exists c, inside (shape a) c /\ without_unit_axes (shape a) c = d).

(** [A] times [B] is [d] times the unit matrix (indices from 1 to 3). *)
Definition product_is {F : ofield} (A B : nat -> nat -> F) (d : F) : Prop :=
  forall i j, 1 <= i <= 3 -> 1 <= j <= 3 ->
    add (add (mul (A i 1) (B 1 j)) (mul (A i 2) (B 2 j))) (mul (A i 3) (B 3 j)) = if Nat.eq_dec i j then d else zero.

(** The expression does not contain the symbols [P_{ij}] that the function uses itself. *)
Fixpoint free_of_P {F : ofield} (e : expr F) : Prop :=
  match e with
  | P _ _ => False | Var _ => True | Num _ => True
  | Add a b => free_of_P a /\ free_of_P b | Mul a b => free_of_P a /\ free_of_P b
  | Neg a => free_of_P a | Div a b => free_of_P a /\ free_of_P b
  end.
