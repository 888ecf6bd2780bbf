(** What it means that components of the answers of a fit are partial derivatives. *)
Set Warnings "-ambiguous-paths".
From Coq Require Import Reals List.
From Coquelicot Require Import Coquelicot.
From Verif Require Import Prelude.
Import ListNotations.

(** The point [x] with the coordinate [j] replaced by [t]. *)
Fixpoint setc (x : list R) (j : nat) (t : R) : list R :=
  match x, j with
  | [], _ => []
  | _ :: x', O => t :: x'
  | y :: x', S j' => y :: setc x' j' t
  end.

(** The number of record [r] in the item [i] of the tuple that a call returns, if the call
    returns and the item is not None. *)
Definition component (run : list R -> result (list (option (list R)))) (i r : nat) (x : list R) : option R :=
  match run x with
  | Ok a => match nth_error a i with Some (Some l) => nth_error l r | _ => None end
  | Err _ => None
  end.

(** The function [g] is defined on the line through [p] in the direction [j], near [p], and
    its derivative at [p] along it is [d]. *)
Definition partial_at (g : list R -> option R) (j : nat) (p : list R) (d : option R) : Prop :=
  exists (u : R -> R) (d' : R), d = Some d' /\
    locally (nth j p 0%R) (fun t => g (setc p j t) = Some (u t)) /\ is_derive u (nth j p 0%R) d'.

(** The item of the tuple that is the second derivative in the directions [j] and [l]:
    (f, fx, fxx), (f, fx, fy, fxx, fyy, fxy) and
    (f, fx, fy, fz, fxx, fyy, fzz, fxy, fxz, fyz). *)
Definition hpos (dim j l : nat) : nat :=
  match dim with
  | 1 => 2
  | 2 => if Nat.eqb j l then 3 + j else 5
  | _ => if Nat.eqb j l then 4 + j else 6 + (j + l)
  end%nat.

(** The derivatives that the call reports at [p], for [nrec] records, are those of the
    function that it computes: the first order ones of the value, and, if the second order is
    asked for, the second order ones of the reported first order ones. *)
Definition right_derivatives (run : list R -> result (list (option (list R)))) (dim nrec : nat) (order : Z) (p : list R) : Prop :=
  forall r, (r < nrec)%nat ->
    (forall j, (j < dim)%nat -> partial_at (component run 0 r) j p (component run (1 + j) r p)) /\
    ((2 <= order)%Z -> forall j l, (j < dim)%nat -> (l < dim)%nat ->
       partial_at (component run (1 + j) r) l p (component run (hpos dim j l) r p)).

(** ** Positions of the points relative to the core of the weight functions *)
Definition tinyR : R := (1 / 10 ^ 12)%R.
(** The difference of a coordinate is zero or not tiny. *)
Definition regular_at (core x : list R) (j : nat) : Prop :=
  (tinyR <= Rabs (nth j core 0 - nth j x 0) \/ nth j core 0 = nth j x 0)%R.
Definition far_at (core x : list R) (j : nat) : Prop := (tinyR < Rabs (nth j core 0 - nth j x 0))%R.

(** The support is the box of half widths [sd] around the core: the point is on no face of
    it, nor on the plane of one. *)
Fixpoint off_boundary (core sd x : list R) : Prop :=
  match core, sd, x with
  | c :: core', s :: sd', y :: x' => Rabs ((c - y) / s) <> 1%R /\ off_boundary core' sd' x'
  | _, _, _ => True
  end.

(** Continuity of a function of the coordinates. *)
Definition continuous_on (dim : nat) (D : list R -> R) : Prop :=
  forall x, length x = dim -> forall eps : R, (0 < eps)%R -> exists delta : R, (0 < delta)%R /\
    forall y, length y = dim -> (forall i, (i < dim)%nat -> (Rabs (nth i y 0 - nth i x 0) < delta)%R) -> (Rabs (D y - D x) < eps)%R.
