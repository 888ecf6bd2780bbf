(** What the quadrature tables have to satisfy. *)
Set Warnings "-ambiguous-paths".
From Coq Require Import Reals.
From Coquelicot Require Import Coquelicot.
From Verif Require Import Prelude OField OFieldR QuadModel.

Section Spec.
Context {F : ofield}.
Local Open Scope of_scope.

(** What [leggauss] promises: n locations and n weights for a positive order n, and
    a [ValueError] for the others. *)
Definition leggauss_ok (leg : Z -> result (table F)) : Prop :=
  forall n, if (0 <? n)%Z
  then exists x w, leg n = Ok (x, w) /\ length x = Z.to_nat n /\ length w = Z.to_nat n
  else leg n = Err ValueError.

(** The value of the 1d rule with the given locations and weights on a function. *)
Definition rule1 (x w : list F) (f : F -> F) : F :=
  sum (length x) (fun i => nth i w 0 * f (nth i x 0)).
(** The same for a rule in several dimensions. *)
Definition rule (pos : list (list F)) (w : list F) (f : list F -> F) : F :=
  sum (length pos) (fun i => nth i w 0 * f (nth i pos [])).

(** A polynomial with coefficients c 0, ..., c d, and polynomials of degree at most
    d1, d2, d3 in each of their variables. *)
Definition poly1 (d : nat) (c : nat -> F) (x : F) : F :=
  sum (S d) (fun k => c k * pow x k).
Definition poly2 (d1 d2 : nat) (c : nat -> nat -> F) (x y : F) : F :=
  sum (S d1) (fun k => sum (S d2) (fun l => c k l * pow x k * pow y l)).
Definition poly3 (d1 d2 d3 : nat) (c : nat -> nat -> nat -> F) (x y z : F) : F :=
  sum (S d1) (fun k => sum (S d2) (fun l => sum (S d3) (fun m =>
    c k l m * pow x k * pow y l * pow z m))).
End Spec.

(** Over the reals: the 1d rule integrates the polynomials of degree at most d
    exactly over [-1, 1]. *)
Definition exact1 (x w : list R) (d : nat) : Prop :=
  forall c, is_RInt (@poly1 R_ofield d c) (-1) 1 (@rule1 R_ofield x w (@poly1 R_ofield d c)).
