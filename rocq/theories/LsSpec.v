(** What a weighted least squares fit by polynomials is. *)
From Verif Require Import Prelude OField.

Section Spec.
Context {F : ofield}.
Local Open Scope of_scope.

(** A polynomial in several variables: coefficients and exponents. *)
Definition polynomial : Type := list (F * list nat).
Fixpoint monomial (e : list nat) (x : list F) : F :=
  match e, x with
  | m :: e', y :: x' => pow y m * monomial e' x'
  | _, _ => 1
  end.
Definition pval (p : polynomial) (x : list F) : F := suml (map (fun '(c, e) => c * monomial e x) p).
(** The polynomials in [dim] variables of total degree [deg] at most. *)
Definition in_space (deg dim : nat) (p : polynomial) : Prop :=
  Forall (fun '(_, e) => length e = dim /\ (list_sum e <= deg)%nat) p.

(** The weighted squared error of a function at the points. *)
Definition error (W v : list F) (points : list (list F)) (f : list F -> F) : F :=
  sum (length points) (fun i => nth i W 0 * ((f (nth i points []) - nth i v 0) * (f (nth i points []) - nth i v 0))).

(** The points of positive weight determine the polynomials. *)
Definition unisolvent (deg dim : nat) (W : list F) (points : list (list F)) : Prop :=
  forall p, in_space deg dim p ->
    (forall i, (i < length points)%nat -> 0 < nth i W 0 -> pval p (nth i points []) = 0) ->
    forall x, length x = dim -> pval p x = 0.

(** [p] is the best approximation of the data: its error is least among the
    polynomials, and every other with this error is the same function. *)
Record best (deg dim : nat) (W v : list F) (points : list (list F)) (p : polynomial) : Prop := {
  best_in : in_space deg dim p;
  best_least : forall q, in_space deg dim q -> error W v points (pval p) <= error W v points (pval q);
  best_unique : forall q, in_space deg dim q -> error W v points (pval q) <= error W v points (pval p) ->
    forall x, length x = dim -> pval q x = pval p x }.
End Spec.
Arguments polynomial : clear implicits.
