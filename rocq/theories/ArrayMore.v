(** Property C06, continued: numbers, and arrays as they are given. *)
From Verif Require Import Prelude ArrayModel ArraySpec ArrayProofs ArrayProps.
Local Open Scope nat_scope.

(** A number becomes an array with that one entry, with at least one and at least [n] axes of
    length one; as a matrix it has one row and one column. *)
Theorem C06_numbers : forall (V : Type) (v : V) (n : nat) (front back : bool),
  atleastnd (Scalar v) n front back = FND (repeat 1 (Nat.max n 1)) [v] /\
  matrixform (Scalar v) = Ok (FND [1; 1] [v]).
Proof.
  intros V v n front back. split; [|reflexivity]. unfold atleastnd. cbn [as_array fshape fdata length].
  destruct (Nat.leb_spec n 1) as [H|H].
  - rewrite Nat.max_r by exact H. reflexivity.
  - rewrite Nat.max_l by lia. assert (E : repeat 1 n = repeat 1 (n - 1) ++ [1]) by (replace n with (n - 1 + 1) at 1 by lia; apply repeat_app).
    destruct (front && negb back); f_equal; rewrite E; [reflexivity|]. symmetry. clear. induction (n - 1) as [|k IH]; cbn; [reflexivity|]. f_equal. exact IH.
Qed.
Print Assumptions C06_numbers.

(** An array with enough axes is returned as it is. *)
Theorem C06_enough_axes : forall (V : Type) (a : flatnd V) (n : nat) (front back : bool),
  n <= length (fshape a) -> atleastnd (Arr a) n front back = a.
Proof. intros V a n front back H. unfold atleastnd. cbn [as_array]. rewrite (proj2 (Nat.leb_le _ _) H). reflexivity. Qed.
Print Assumptions C06_enough_axes.

Example C06_numbers_met : atleastnd (Scalar 7) 3 true false = FND [1; 1; 1] [7] /\ atleastnd (Arr (FND [2] [5; 6])) 1 false true = FND [2] [5; 6].
Proof. split; reflexivity. Qed.
