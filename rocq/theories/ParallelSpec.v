(** Specification of parallel loops: what "independent of the schedule" and "no
    write outside the array" mean. *)
From Verif Require Import Prelude ParallelModel.

(** Some schedule exists, and every schedule ends with the array that the
    sequential loop (iteration 0, then 1, ...) computes. *)
Definition schedule_independent {V} (init : ndarray V) (its : list (list (update V))) : Prop :=
  (exists res, prange_run init its res) /\
  (forall res, prange_run init its res ->
     nd_eq res (ND (shape init) (exec (at_ init) (concat its)))).

(** All cells written by a parallel loop lie inside the array. *)
Definition writes_inside {V} (init : ndarray V) (its : list (list (update V))) : Prop :=
  forall it u, In it its -> In u it -> inside (shape init) (u_cell u).
