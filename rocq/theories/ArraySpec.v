(** Small specifications used by the statements about the array helpers. *)
From Coq Require Import Qcanon.
From Verif Require Import Prelude OField ArrayModel.
Local Close Scope Q_scope.
Local Close Scope Qc_scope.
Local Open Scope nat_scope.

(** Row-major (lexicographic) order of index pairs. *)
Definition row_lt (p q : nat * nat) : Prop :=
  fst p < fst q \/ fst p = fst q /\ snd p < snd q.

(** An integer array seen as an array of rational numbers. *)
Definition int_rows (x : list (list Z)) : list (list Qc_ofield) := map (map of_int) x.

(** Sum over the columns of the absolute differences of two rows. *)
Definition l1_distance (d : nat) (r s : list Qc_ofield) : Qc_ofield :=
  sum d (fun c => absf (sub (nth c r zero) (nth c s zero))).
