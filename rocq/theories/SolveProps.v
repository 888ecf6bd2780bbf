(** Properties C32-C34 and C69: the elimination solvers of linalg/solve.py.
    Number fields are arbitrary ordered fields (exact arithmetic). *)
From Coq Require Import QArith Qcanon.
From Verif Require Import Prelude OField SolveModel SolveSpec SolveProofs SolveRegProofs SolveCorProofs.
Local Open Scope nat_scope.

(** Rational matrices for the examples, and the returned blocks as fractions. *)
Local Notation q l := (map (map (fun k : Q => Q2Qc k : Qc_ofield)) l).
Definition lmat (l : list (list Qc_ofield)) : mat := fun i j => nth j (nth i l []) zero.
Definition block (n p : nat) (X : fmat (F := Qc_ofield)) : list (list (option Q)) :=
  map (fun i => map (fun k => match X i k with Some v => Some (this v) | None => None end) (seq 0 p)) (seq 0 n).
Definition answer (n p : nat) (r : result (fmat (F := Qc_ofield) * option (fmat (F := Qc_ofield)))) :=
  match r with
  | Ok (X, R) => Some (block n p X, match R with Some R => Some (block n p R) | None => None end)
  | Err _ => None
  end.
Local Notation t := (tol (F := Qc_ofield)).
Definition A3 : mat := lmat (q [[3#1; 1#1; 2#1]; [1#1; 1#1; 1#1]; [2#1; 1#1; 2#1]]).
Definition B3 : mat := lmat (q [[11#1; 1#1]; [6#1; 2#1]; [10#1; 3#1]]).

(** C32.  Without prescriptions the result solves A X = B for every right-hand side
    (every column [k]), and is the only solution.  [nothing_dropped] says that no
    non-zero elimination factor fell below the threshold. *)
Theorem C32_linsolve_solution :
  forall (F : ofield) (m : meth) (ptol dtol : F) (n : nat) (A B : mat) (inplace : bool) AB' X R,
  leb ptol zero = false ->
  nothing_dropped m ptol dtol n A B None ->
  linsolve m ptol dtol n A B None inplace = (AB', Ok (X, R)) ->
  (m = Jordan \/ exists x, finite n X x) ->
  R = None /\ exists x, finite n X x /\
    (forall i k, i < n -> sum n (fun j => mul (A i j) (x j k)) = B i k) /\
    (forall k y, (forall i, i < n -> sum n (fun j => mul (A i j) (y j)) = B i k) -> forall i, i < n -> y i = x i k).
Proof. exact @linsolve_plain. Qed.
Print Assumptions C32_linsolve_solution.

(** With [inplace=False] the caller's arrays are untouched, whatever the outcome. *)
Theorem C32_inputs_unchanged :
  forall (F : ofield) (m : meth) (ptol dtol : F) (n : nat) (A B : mat) presc AB' r,
  linsolve m ptol dtol n A B presc false = (AB', r) -> AB' = (A, B).
Proof. exact (fun F m ptol dtol n A B presc AB' r => @linsolve_inplace_false F m ptol dtol n A B presc false AB' r eq_refl). Qed.
Print Assumptions C32_inputs_unchanged.

(** The system of the documentation, with two right-hand sides and both methods. *)
Example C32_docs : forall m,
  answer 3 2 (snd (linsolve m t t 3 A3 B3 None false)) =
    Some ([[Some (1#1); Some (-2#1)]; [Some (2#1); Some (1#1)]; [Some (3#1); Some (3#1)]], None)
  /\ nothing_dropped m t t 3 A3 B3 None.
Proof.
  assert (H : forall m, nothing_dropped m t t 3 A3 B3 None).
  { intros m. split; [|destruct m; vm_compute; reflexivity].
    intros i Hi. split.
    - intros j Hj. destruct i as [|[|[|]]]; try lia; (destruct j as [|[|[|]]]; try lia); destruct m; vm_compute; apply Qc_is_canon; reflexivity.
    - intros [|[|[|k]]]; (destruct i as [|[|[|]]]; try lia); destruct m; vm_compute; apply Qc_is_canon; reflexivity. }
  intros m. split; [destruct m; vm_compute; reflexivity|apply H].
Qed.

(** C33.  Prescribed unknowns take their values, the residual vanishes on the free
    rows and closes the system: A X = B + R. *)
Theorem C33_linsolve_prescribed :
  forall (F : ofield) (m : meth) (ptol dtol : F) (n : nat) (A B : mat) (pb : nat -> bool) (pv : nat -> F) (inplace : bool) AB' X R,
  leb ptol zero = false ->
  nothing_dropped m ptol dtol n A B (Some (pb, pv)) ->
  linsolve m ptol dtol n A B (Some (pb, pv)) inplace = (AB', Ok (X, R)) ->
  (m = Jordan \/ exists x, finite n X x) ->
  exists r x v, R = Some r /\ finite n X x /\ finite n r v /\
    (forall i k, i < n -> pb i = true -> x i k = pv i) /\
    (forall i k, i < n -> pb i = false -> v i k = zero) /\
    (forall i k, i < n -> sum n (fun j => mul (A i j) (x j k)) = add (B i k) (v i k)) /\
    (forall k y, solves n A (fun i => B i k) pb pv y -> forall i, i < n -> y i = x i k).
Proof. exact @linsolve_prescribed. Qed.
Print Assumptions C33_linsolve_prescribed.

(** The constrained system of the documentation. *)
Example C33_docs : forall m,
  answer 3 1 (snd (linsolve m t t 3 A3 B3 (Some (fun i => i =? 1, fun i => if i =? 1 then Q2Qc (3#1) else Q2Qc 0)) false)) =
    Some ([[Some (1#1)]; [Some (3#1)]; [Some (5#2)]], Some [[Some 0%Q]; [Some (1#2)]; [Some 0%Q]])
  /\ nothing_dropped m t t 3 A3 B3 (Some (fun i => i =? 1, fun i => if i =? 1 then Q2Qc (3#1) else Q2Qc 0)).
Proof.
  intros m. split; [destruct m; vm_compute; reflexivity|]. split; [|destruct m; vm_compute; reflexivity].
  intros i Hi. split.
  - intros j Hj. destruct i as [|[|[|]]]; try lia; (destruct j as [|[|[|]]]; try lia); destruct m; vm_compute; apply Qc_is_canon; reflexivity.
  - intros [|[|[|k]]]; (destruct i as [|[|[|]]]; try lia); destruct m; vm_compute; apply Qc_is_canon; reflexivity.
Qed.

(** C34, refuted: both methods reject the regular matrix [[0, 1], [1, 0]], because
    rows are never exchanged. *)
Theorem C34_regular_rejected_refuted :
  forall m, exists (A B : mat (F := Qc_ofield)),
  (forall y : nat -> Qc_ofield, (forall i, i < 2 -> sum 2 (fun j => mul (A i j) (y j)) = zero) -> forall i, i < 2 -> y i = zero) /\
  snd (linsolve m t t 2 A B None false) = Err LinAlgError.
Proof. exact regular_rejected. Qed.
Print Assumptions C34_regular_rejected_refuted.

(** C34, refuted: Gauss-Jordan accepts a singular matrix and returns non-finite
    numbers, because the last pivot is not checked. *)
Theorem C34_singular_accepted_refuted :
  exists (A B : mat (F := Qc_ofield)) (y : nat -> Qc_ofield) AB' X,
  (forall i, i < 2 -> sum 2 (fun j => mul (A i j) (y j)) = zero) /\ y 0 <> zero /\
  linsolve GaussJordan t t 2 A B None false = (AB', Ok (X, None)) /\ X 0 0 = None.
Proof. exact singular_accepted. Qed.
Print Assumptions C34_singular_accepted_refuted.

(** C34, refuted: a small but relevant elimination factor is dropped and a wrong
    solution of a regular system is returned without any warning. *)
Theorem C34_wrong_solution_refuted :
  exists (A B : mat (F := Qc_ofield)) AB' X x,
  linsolve GaussJordan t t 2 A B None false = (AB', Ok (X, None)) /\ finite 2 X x /\
  (forall y : nat -> Qc_ofield, (forall i, i < 2 -> sum 2 (fun j => mul (A i j) (y j)) = zero) -> forall i, i < 2 -> y i = zero) /\
  sum 2 (fun j => mul (A 1 j) (x j 0)) <> B 1 0.
Proof. exact wrong_solution. Qed.
Print Assumptions C34_wrong_solution_refuted.

(** C34, what does hold (1): singular systems are never solved.  Jordan raises
    LinAlgError, Gauss-Jordan raises LinAlgError or returns non-finite numbers. *)
Theorem C34_singular_partial :
  forall (F : ofield) (m : meth) (ptol dtol : F) (n : nat) (A B : mat) presc (inplace : bool) (y : nat -> F),
  leb ptol zero = false ->
  nothing_dropped m ptol dtol n A B presc ->
  solves n A (fun _ => zero) (mask presc) (fun _ => zero) y -> (exists i, i < n /\ y i <> zero) ->
  match snd (linsolve m ptol dtol n A B presc inplace) with
  | Err e => e = LinAlgError
  | Ok (X, _) => m = GaussJordan /\ exists i k, i < n /\ X i k = None
  end.
Proof. exact @singular_outcome. Qed.
Print Assumptions C34_singular_partial.

(** C34, what does hold (2): the systems that are solved are exactly those all of
    whose leading blocks are regular, provided the pivot threshold is small enough. *)
Theorem C34_strongly_regular_solved_partial :
  forall (F : ofield) (m : meth) (n : nat) (A B : mat (F := F)) presc,
  (forall k, k <= n -> regular_block k A (mask presc)) ->
  exists d : F, leb d zero = false /\ forall ptol dtol inplace, leb ptol zero = false -> leb ptol d = true ->
    nothing_dropped m ptol dtol n A B presc ->
    exists AB' X R x, linsolve m ptol dtol n A B presc inplace = (AB', Ok (X, R)) /\ finite n X x.
Proof. exact @regular_solved. Qed.
Print Assumptions C34_strongly_regular_solved_partial.

Theorem C34_solved_strongly_regular_partial :
  forall (F : ofield) (m : meth) (n : nat) (A B : mat (F := F)) presc (ptol dtol : F) (inplace : bool) AB' X R x,
  leb ptol zero = false ->
  nothing_dropped m ptol dtol n A B presc ->
  linsolve m ptol dtol n A B presc inplace = (AB', Ok (X, R)) -> finite n X x ->
  forall k, k <= n -> regular_block k A (mask presc).
Proof. exact @solved_is_regular. Qed.
Print Assumptions C34_solved_strongly_regular_partial.

(** The matrix of the documentation has regular leading blocks. *)
Example C34_A3 : forall k, k <= 3 -> regular_block k A3 (fun _ => false).
Proof.
  destruct (linsolve Jordan t t 3 A3 B3 None false) as [AB' r] eqn:E.
  assert (Hr : match snd (linsolve Jordan t t 3 A3 B3 None false) with Ok _ => true | Err _ => false end = true) by (vm_compute; reflexivity).
  rewrite E in Hr. destruct r as [[X R]|]; [|discriminate Hr].
  destruct (C32_linsolve_solution Qc_ofield Jordan t t 3 A3 B3 false AB' X R eq_refl (proj2 (C32_docs Jordan)) E (or_introl eq_refl)) as (_ & x & Hx & _).
  exact (C34_solved_strongly_regular_partial Qc_ofield Jordan 3 A3 B3 None t t false AB' X R x eq_refl (proj2 (C32_docs Jordan)) E Hx).
Qed.

(** A singular system that meets the hypotheses of [C34_singular_partial]. *)
Definition ones2 : mat := lmat (q [[1#1; 1#1]; [1#1; 1#1]]).
Example C34_ones : forall m, nothing_dropped m t t 2 ones2 B3 None /\ solves 2 ones2 (fun _ => zero) (fun _ => false) (fun _ => zero) (fun i => if i =? 0 then Q2Qc 1 else Q2Qc (-1 # 1)).
Proof.
  intros m. split; [split|split].
  - intros i Hi. split.
    + intros j Hj. destruct i as [|[|]]; try lia; (destruct j as [|[|]]; try lia); destruct m; vm_compute; apply Qc_is_canon; reflexivity.
    + intros [|[|k]]; (destruct i as [|[|]]; try lia); destruct m; vm_compute; try (apply Qc_is_canon; reflexivity).
      all: destruct k; vm_compute; apply Qc_is_canon; reflexivity.
  - destruct m; vm_compute; reflexivity.
  - discriminate.
  - intros [|[|]] Hi _; [| |lia]; vm_compute; apply Qc_is_canon; reflexivity.
Qed.

(** C69.  [reduce] returns an equivalent system in triangular (Gauss-Jordan) or
    diagonal (Jordan, on the columns of the free unknowns) form. *)
Theorem C69_reduce :
  forall (F : ofield) (m : meth) (n : nat) (A B : mat (F := F)) presc (ptol dtol : F) (inplace : bool) AB' (UA UB : mat),
  leb ptol zero = false ->
  nothing_dropped m ptol dtol n A B presc ->
  reduce m ptol dtol n A B presc inplace = (AB', Ok (UA, UB)) ->
  (AB' = if inplace then (UA, UB) else (A, B)) /\
  (forall k y, (forall i, i < n -> mask presc i = true -> y i = value presc i) ->
     solves n A (fun i => B i k) (mask presc) (value presc) y <-> solves n UA (fun i => UB i k) (mask presc) (value presc) y) /\
  (forall r j, j < r -> r < n -> UA r j = zero) /\
  (m = Jordan -> forall r j, r < n -> j < n -> r <> j -> mask presc j = false -> UA r j = zero) /\
  (m = Jordan -> forall j, j < n -> mask presc j = false -> UA j j <> zero).
Proof. exact @reduce_spec. Qed.
Print Assumptions C69_reduce.

Example C69_docs :
  match snd (reduce GaussJordan t t 3 A3 B3 None false) with
  | Ok (UA, UB) => (map (fun i => map (fun j => this (UA i j)) (seq 0 3)) (seq 0 3), map (fun i => this (UB i 0)) (seq 0 3))
                   = ([[3#1; 1#1; 2#1]; [0%Q; 2#3; 1#3]; [0%Q; 0%Q; 1#2]], [11#1; 7#3; 3#2])
  | Err _ => False
  end.
Proof. vm_compute. reflexivity. Qed.
