(** Model of linalg/solve.py.

    Matrices are functions of the indices, of which the first [n] are used;
    numbers are elements of an ordered field (float64 arrays without rounding).
    [ptol] and [dtol] are the two occurrences of the literal 1e-12: the smallest
    accepted pivot and the smallest elimination factor that is not skipped. *)
From Verif Require Import Prelude OField.

Section Solve.
Context {F : ofield}.

Definition mat := nat -> nat -> F.
(** [A[i, j] = v] and [B[i] = v] *)
Definition set2 (A : mat) (i j : nat) (v : F) : mat :=
  fun r c => if (r =? i) && (c =? j) then v else A r c.
Definition setrow (B : mat) (i : nat) (v : nat -> F) : mat :=
  fun r c => if r =? i then v c else B r c.

Variables (n : nat) (ptol dtol : F).
Variables (pb : nat -> bool) (pv : nat -> F).

(** solve.py:177-180 and 201-204: a prescribed unknown goes to the right-hand side. *)
Definition prescribe (iEQ : nat) (AB : mat * mat) : mat * mat :=
  fold_left (fun (AB : mat * mat) iROW =>
      let (A, B) := AB in
      let B := setrow B iROW (fun k => sub (B iROW k) (mul (A iROW iEQ) (pv iEQ))) in
      let A := set2 A iROW iEQ zero in (A, B))
    (seq iEQ (n - iEQ)) AB.

(** solve.py:189-191 and 214-216: subtract a multiple of the pivot row. *)
Definition subtract_row (iEQ iROW : nat) (factor : F) (AB : mat * mat) : mat * mat :=
  let (A, B) := AB in
  let A := fold_left (fun A iCOL => set2 A iROW iCOL (sub (A iROW iCOL) (mul factor (A iEQ iCOL)))) (seq 0 n) A in
  (A, setrow B iROW (fun k => sub (B iROW k) (mul factor (B iEQ k)))).

(** solve.py:182-191, the elimination step of [_Jordan]. *)
Definition jordan_step (iEQ : nat) (AB : mat * mat) : (mat * mat) * result unit :=
  let pivot := fst AB iEQ iEQ in
  if ltb (absf pivot) ptol then (AB, Err RuntimeError)
  else (fold_left (fun (AB : mat * mat) iROW =>
          let factor := div (fst AB iROW iEQ) pivot in
          if (iROW =? iEQ) || ltb (absf factor) dtol then AB
          else subtract_row iEQ iROW factor AB) (seq 0 n) AB, Ok tt).

(** solve.py:206-216, the elimination step of [_GaussJordan]. *)
Definition gauss_step (iEQ : nat) (AB : mat * mat) : (mat * mat) * result unit :=
  if iEQ <? n - 1 then
    let pivot := fst AB iEQ iEQ in
    if ltb (absf pivot) ptol then (AB, Err RuntimeError)
    else (fold_left (fun (AB : mat * mat) iROW =>
            let factor := div (fst AB iROW iEQ) pivot in
            if ltb (absf factor) dtol then AB
            else subtract_row iEQ iROW factor AB) (seq (iEQ + 1) (n - (iEQ + 1))) AB, Ok tt)
  else (AB, Ok tt).

(** solve.py:171-192, [_Jordan], and 195-217, [_GaussJordan]: the loop over the
    equations.  The arrays are returned also when an exception stops the loop. *)
Inductive meth := Jordan | GaussJordan.
Fixpoint eliminate (m : meth) (eqs : list nat) (AB : mat * mat) : (mat * mat) * result unit :=
  match eqs with
  | [] => (AB, Ok tt)
  | iEQ :: eqs' =>
      let '(AB', r) :=
        if pb iEQ then (prescribe iEQ AB, Ok tt)
        else match m with Jordan => jordan_step iEQ AB | GaussJordan => gauss_step iEQ AB end in
      match r with Ok _ => eliminate m eqs' AB' | Err e => (AB', Err e) end
  end.
Definition elimination (m : meth) (AB : mat * mat) : (mat * mat) * result unit := eliminate m (seq 0 n) AB.

(** Floating point results: [None] is a non-finite number (infinity or NaN).  The
    operations that are used here propagate it. *)
Definition fmat := nat -> nat -> option F.
Definition fsub (a b : option F) : option F :=
  match a, b with Some x, Some y => Some (sub x y) | _, _ => None end.
Definition fmul (a : F) (b : option F) : option F := match b with Some y => Some (mul a y) | None => None end.
Definition fopp (a : option F) : option F := match a with Some x => Some (opp x) | None => None end.
(** Division of an array by a scalar: no exception for a zero divisor. *)
Definition fdiv (a : option F) (b : F) : option F :=
  match a with Some x => if eqb b zero then None else Some (div x b) | None => None end.
Definition setfrow (B : fmat) (i : nat) (v : nat -> option F) : fmat :=
  fun r c => if r =? i then v c else B r c.

(** solve.py:220-239, [backsub]. *)
Definition backsub (AB : mat * mat) : fmat * fmat :=
  let (A, B) := AB in
  fold_left (fun (XR : fmat * fmat) iEQ =>
      let (X, R) := XR in
      let pivot := A iEQ iEQ in
      let resid := fold_left (fun (resid : nat -> option F) iCOL =>
                       fun k => fsub (resid k) (fmul (A iEQ iCOL) (X iCOL k)))
                     (seq (iEQ + 1) (n - (iEQ + 1))) (fun k => Some (B iEQ k)) in
      if pb iEQ then (setfrow X iEQ (fun _ => Some (pv iEQ)), setfrow R iEQ (fun k => fopp (resid k)))
      else (setfrow X iEQ (fun k => fdiv (resid k) pivot), R))
    (rev (seq 0 n)) (fun _ _ => Some zero, fun _ _ => Some zero).
End Solve.

(** solve.py:13-134, [linsolve], for the two elimination methods.  [presc] is
    [Some (presc_bool, presc_val)] if [presc_val] is given.  The result carries the
    caller's arrays after the call; [inplace = False] works on copies. *)
Definition linsolve {F : ofield} (m : meth) (ptol dtol : F) (n : nat) (A B : mat)
    (presc : option ((nat -> bool) * (nat -> F))) (inplace : bool)
    : (mat * mat) * result (fmat * option fmat) :=
  let '(pb, pv) := match presc with Some p => p | None => (fun _ => false, fun _ => zero) end in
  let '(AB, r) := elimination n ptol dtol pb pv m (A, B) in
  let out := match r with
             | Ok _ => let '(X, R) := backsub n pb pv AB in
                       Ok (X, match presc with Some _ => Some R | None => None end)
             | Err _ => Err LinAlgError
             end in
  (if inplace then AB else (A, B), out).

(** solve.py:137-163, [reduce], for the two elimination methods. *)
Definition reduce {F : ofield} (m : meth) (ptol dtol : F) (n : nat) (A B : mat)
    (presc : option ((nat -> bool) * (nat -> F))) (inplace : bool)
    : (mat * mat) * result (mat * mat) :=
  let '(pb, pv) := match presc with Some p => p | None => (fun _ => false, fun _ => zero) end in
  let '(AB, r) := elimination n ptol dtol pb pv m (A, B) in
  (if inplace then AB else (A, B), match r with Ok _ => Ok AB | Err _ => Err LinAlgError end).

(** The literal 1e-12. *)
Definition tol {F : ofield} : F := inv (pow (of_nat 10) 12).
