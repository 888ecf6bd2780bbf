(** Vocabulary of C54. *)
From Coq Require Import Reals.
From Verif Require Import Prelude OField OFieldR FuncModel TestFunModel.
Local Open Scope R_scope.

(** Powers with the exponents 2 and 3 are what they should be. *)
Definition powers (I : interp RF) : Prop :=
  forall v : R, ipow I v 2 = v * v /\ ipow I v 3 = v * v * v.

(** [f] takes the value [v] at (x, y) and nowhere a smaller one. *)
Definition minimum (I : interp RF) (f : func RF) (x y v : R) : Prop :=
  call I f [x; y] = Ok v /\
  forall a b : R, exists w, call I f [a; b] = Ok w /\ v <= w.
Definition unique_minimum (I : interp RF) (f : func RF) (x y v : R) : Prop :=
  call I f [x; y] = Ok v /\
  forall a b : R, exists w, call I f [a; b] = Ok w /\ v <= w /\ (w = v -> a = x /\ b = y).
