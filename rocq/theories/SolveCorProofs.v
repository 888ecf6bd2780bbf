(** Corollaries and counterexamples for the elimination solvers. *)
From Coq Require Import Field QArith Qcanon.
From Verif Require Import Prelude OField SolveModel SolveSpec SolveProofs SolveRegProofs.
Local Open Scope nat_scope.

Section S.
Context {F : ofield}.
Variables (m : meth) (ptol dtol : F) (n : nat) (A B : mat (F := F)).

Lemma linsolve_plain inplace AB' X R : leb ptol zero = false -> nothing_dropped m ptol dtol n A B None ->
  linsolve m ptol dtol n A B None inplace = (AB', Ok (X, R)) -> (m = Jordan \/ exists x, finite n X x) ->
  R = None /\ exists x, finite n X x /\
    (forall i k, i < n -> sum n (fun j => mul (A i j) (x j k)) = B i k) /\
    (forall k y, (forall i, i < n -> sum n (fun j => mul (A i j) (y j)) = B i k) -> forall i, i < n -> y i = x i k).
Proof.
  intros Hpt HN E Hm. split.
  { pose proof (linsolve_residual m ptol dtol n A B None inplace AB' X R E) as H. destruct R as [r|]; [|reflexivity].
    exfalso. apply (proj1 H); [exists r|]; reflexivity. }
  destruct (linsolve_ok m ptol dtol n A B None inplace Hpt AB' X R HN E Hm) as (x & Hx & Hs & _ & Hu).
  exists x. split; [exact Hx|]. split; [intros i k Hi; apply (Hs k); [exact Hi|reflexivity]|].
  intros k y Hy. apply Hu. split; [discriminate|]. intros i Hi _. apply Hy. exact Hi.
Qed.

Lemma linsolve_prescribed (pb : nat -> bool) (pv : nat -> F) inplace AB' X R : leb ptol zero = false ->
  nothing_dropped m ptol dtol n A B (Some (pb, pv)) ->
  linsolve m ptol dtol n A B (Some (pb, pv)) inplace = (AB', Ok (X, R)) -> (m = Jordan \/ exists x, finite n X x) ->
  exists r x v, R = Some r /\ finite n X x /\ finite n r v /\
    (forall i k, i < n -> pb i = true -> x i k = pv i) /\
    (forall i k, i < n -> pb i = false -> v i k = zero) /\
    (forall i k, i < n -> sum n (fun j => mul (A i j) (x j k)) = add (B i k) (v i k)) /\
    (forall k y, solves n A (fun i => B i k) pb pv y -> forall i, i < n -> y i = x i k).
Proof.
  intros Hpt HN E Hm.
  destruct (proj2 (linsolve_residual m ptol dtol n A B (Some (pb, pv)) inplace AB' X R E)) as [r Er]; [discriminate|].
  destruct (linsolve_ok m ptol dtol n A B _ inplace Hpt AB' X R HN E Hm) as (x & Hx & Hs & Hr & Hu).
  destruct (Hr r Er) as (v & V1 & V2 & V3). exists r, x, v.
  split; [exact Er|]. split; [exact Hx|]. split; [exact V1|]. split; [intros i k Hi Hp; apply (Hs k); assumption|].
  split; [exact V2|]. split; [exact V3|exact Hu].
Qed.

Lemma singular_outcome presc inplace (y : nat -> F) : leb ptol zero = false -> nothing_dropped m ptol dtol n A B presc ->
  solves n A (fun _ => zero) (mask presc) (fun _ => zero) y -> (exists i, i < n /\ y i <> zero) ->
  match snd (linsolve m ptol dtol n A B presc inplace) with
  | Err e => e = LinAlgError
  | Ok (X, _) => m = GaussJordan /\ exists i k, i < n /\ X i k = None
  end.
Proof.
  intros Hpt HN Hy Hne. destruct (linsolve m ptol dtol n A B presc inplace) as [AB' r] eqn:E. cbn [snd].
  destruct r as [[X R]|e].
  - exact (singular_not_solved m ptol dtol n A B presc inplace Hpt AB' X R y HN E Hy Hne).
  - exact (linsolve_error m ptol dtol n A B presc inplace AB' e E).
Qed.
End S.

Lemma solved_is_regular {F : ofield} (m : meth) n (A B : mat (F := F)) presc (ptol dtol : F) inplace AB' X R x :
  leb ptol zero = false -> nothing_dropped m ptol dtol n A B presc ->
  linsolve m ptol dtol n A B presc inplace = (AB', Ok (X, R)) -> finite n X x ->
  forall k, k <= n -> regular_block k A (mask presc).
Proof.
  intros Hpt HN E Hx. apply (solved_regular m n A B presc ptol dtol inplace Hpt HN). exists AB', X, R, x. auto.
Qed.

Add Field SolveQc : (of_field Qc_ofield).
Definition qmat (l : list (list Q)) : mat (F := Qc_ofield) := fun i j => Q2Qc (nth j (nth i l []) 0%Q).

Lemma regular_rejected : forall m, exists (A B : mat (F := Qc_ofield)),
  (forall y : nat -> Qc_ofield, (forall i, i < 2 -> sum 2 (fun j => mul (A i j) (y j)) = zero) -> forall i, i < 2 -> y i = zero) /\
  snd (linsolve m tol tol 2 A B None false) = Err LinAlgError.
Proof.
  intros m. exists (qmat [[0#1; 1#1]; [1#1; 0#1]]), (qmat [[1#1]; [1#1]]). split.
  - intros y Hy. pose proof (Hy 0 ltac:(lia)) as H0. pose proof (Hy 1 ltac:(lia)) as H1.
    change (add (add zero (mul zero (y 0))) (mul one (y 1)) = zero) in H0. change (add (add zero (mul one (y 0))) (mul zero (y 1)) = zero) in H1.
    intros [|[|]] Hi; [| |lia].
    + rewrite <- H1. ring.
    + rewrite <- H0. ring.
  - destruct m; vm_compute; reflexivity.
Qed.

Lemma singular_accepted : exists (A B : mat (F := Qc_ofield)) (y : nat -> Qc_ofield) AB' X,
  (forall i, i < 2 -> sum 2 (fun j => mul (A i j) (y j)) = zero) /\ y 0 <> zero /\
  linsolve GaussJordan tol tol 2 A B None false = (AB', Ok (X, None)) /\ X 0 0 = None.
Proof.
  set (A := qmat [[1#1; 1#1]; [1#1; 1#1]]). set (B := qmat [[1#1]; [1#1]]).
  set (r := linsolve GaussJordan tol tol 2 A B None false).
  exists A, B, (fun i => if i =? 0 then Q2Qc 1 else Q2Qc (-1 # 1)), (fst r), (match snd r with Ok (X, _) => X | Err _ => fun _ _ => None end).
  split; [intros [|[|]] Hi; [| |lia]; vm_compute; apply Qc_is_canon; reflexivity|].
  split; [vm_compute; intros H; discriminate H|].
  split; [unfold r, linsolve|vm_compute; reflexivity].
  assert (E : snd (elimination 2 tol tol (fun _ => false) (fun _ => zero) GaussJordan (A, B)) = Ok tt) by (vm_compute; reflexivity).
  destruct (elimination 2 tol tol (fun _ => false) (fun _ => zero) GaussJordan (A, B)) as [AB e]. cbn [snd] in E. subst e.
  destruct (backsub 2 (fun _ => false) (fun _ => zero) AB) as [X R]. reflexivity.
Qed.

Lemma wrong_solution : exists (A B : mat (F := Qc_ofield)) AB' X x,
  linsolve GaussJordan tol tol 2 A B None false = (AB', Ok (X, None)) /\ finite 2 X x /\
  (forall y : nat -> Qc_ofield, (forall i, i < 2 -> sum 2 (fun j => mul (A i j) (y j)) = zero) -> forall i, i < 2 -> y i = zero) /\
  sum 2 (fun j => mul (A 1 j) (x j 0)) <> B 1 0.
Proof.
  set (e := (1 # 10000000000000)%Q). set (A := qmat [[1#1; 0#1]; [e; e]]). set (B := qmat [[1#1]; [0#1]]).
  set (r := linsolve GaussJordan tol tol 2 A B None false).
  set (X := match snd r with Ok (X, _) => X | Err _ => fun _ _ => None end).
  exists A, B, (fst r), X, (fun i k => match X i k with Some v => v | None => zero end).
  split.
  { unfold X, r, linsolve.
    assert (E : snd (elimination 2 tol tol (fun _ => false) (fun _ => zero) GaussJordan (A, B)) = Ok tt) by (vm_compute; reflexivity).
    destruct (elimination 2 tol tol (fun _ => false) (fun _ => zero) GaussJordan (A, B)) as [AB e']. cbn [snd] in E. subst e'.
    destruct (backsub 2 (fun _ => false) (fun _ => zero) AB) as [X' R]. reflexivity. }
  split.
  { intros i k Hi. assert (H : X i k <> None) by (destruct i as [|[|]]; [| |lia]; destruct k; vm_compute; discriminate).
    destruct (X i k); [reflexivity|congruence]. }
  split.
  { intros y Hy. pose proof (Hy 0 ltac:(lia)) as H0. pose proof (Hy 1 ltac:(lia)) as H1.
    change (add (add zero (mul one (y 0))) (mul zero (y 1)) = zero) in H0.
    change (add (add zero (mul (Q2Qc e : Qc_ofield) (y 0))) (mul (Q2Qc e : Qc_ofield) (y 1)) = zero) in H1.
    assert (E0 : y 0 = zero) by (rewrite <- H0; ring). rewrite E0 in H1.
    intros [|[|]] Hi; [exact E0| |lia].
    assert (Hne : (Q2Qc e : Qc_ofield) <> zero) by (intros H; discriminate H).
    apply (mul_cancel_l Qc_ofield _ _ _ Hne). transitivity (zero : Qc_ofield); [rewrite <- H1|]; ring. }
  vm_compute. intros H. discriminate H.
Qed.

