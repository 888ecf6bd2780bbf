(** Properties C01 (kernels of linalg), C35, C36, C44 (kernels), C70, C71. *)
From Coq Require Import QArith Qcanon.
From Verif Require Import Prelude OField ParallelModel ParallelSpec ArrayModel SolveModel KernModel KernSpec KernProofs.
Local Open Scope nat_scope.

(** Rational matrices for the examples. *)
Definition qm (l : list (list Z)) (i j : nat) : Qc_ofield := of_int (nth j (nth i l []) 0%Z).

(** C01.  Every parallel loop of linalg/utils.py and linalg/tr.py has the same result
    under every schedule. *)
Theorem C01_linalg_kernels_schedule_independent :
  forall (F : ofield) (norm : nat -> (nat -> F) -> F) (N M n : nat)
    (Q : nat -> nat -> F) (Qs : nat -> nat -> nat -> F)
    (v : nat -> nat -> F) (T : nat -> nat -> nat -> F) (TT : nat -> nat -> nat -> nat -> F)
    (C : nat -> nat -> nat -> nat -> nat -> F) (CC : nat -> nat -> nat -> nat -> nat -> nat -> F)
    (p1 p2 : nat -> F),
  schedule_independent (zeros zero [N; n]) (show_vectors_its N n Q v) /\
  schedule_independent (zeros zero [N; n]) (show_vectors_multi_its N n Qs v) /\
  schedule_independent (zeros zero [n; n]) (show_frame_its n Q v) /\
  schedule_independent (zeros zero [N; n; n]) (show_frames_its N n Q T) /\
  schedule_independent (zeros zero [N; n; n]) (show_frames_multi_its N n Qs T) /\
  schedule_independent (zeros zero [N; n; n]) (transpose_multi_its N n T) /\
  schedule_independent (zeros (Some zero) [N; 3; 3]) (inv3x3_bulk_its N T) /\
  schedule_independent (zeros (Some zero) [N; 3; 3]) (inv3x3_bulk2_its N T) /\
  schedule_independent (zeros (Some zero) [N; n]) (normalize2d_its norm N n v) /\
  schedule_independent (zeros zero [N]) (norm2d_its norm N n v) /\
  schedule_independent (zeros (Some zero) [N; n]) (vpath_its norm n N p1 p2) /\
  schedule_independent (zeros zero [N; n; n]) (tr2_single_its N n T Q) /\
  schedule_independent (zeros zero [N; M; n; n]) (tr2_single2_its N M n TT Q) /\
  schedule_independent (zeros zero [N; n; n]) (tr2_multi_its N n T Qs) /\
  schedule_independent (zeros zero [N; M; n; n]) (tr2_multi2_its N M n TT Qs) /\
  schedule_independent (zeros zero [N; 3; 3; 3; 3]) (tr4_multi_its N C Qs) /\
  schedule_independent (zeros zero [N; M; 3; 3; 3; 3]) (tr4_multi2_its N M CC Qs) /\
  schedule_independent (zeros zero [N; 3; 3; 3; 3]) (tr4_multi3_its N C Q).
Proof.
  exact (fun F norm N M n Q Qs v T TT C CC p1 p2 =>
    conj (proj1 (bulk1 _ _ _ _ _)) (conj (proj1 (bulk1 _ _ _ _ _)) (conj (proj1 (bulk1 _ _ _ _ _))
    (conj (proj1 (bulk2 _ _ _ _ _ _)) (conj (proj1 (bulk2 _ _ _ _ _ _)) (conj (proj1 (bulk1 _ _ _ _ _))
    (conj (proj1 (inv3x3_bulk_run N T)) (conj (proj1 (bulk1 _ _ _ _ _)) (conj (proj1 (bulk1 _ _ _ _ _))
    (conj (proj1 (norm2d_run norm N n v)) (conj (proj1 (vpath_run norm n N p1 p2)) (conj (proj1 (bulk1 _ _ _ _ _))
    (conj (proj1 (bulk2 _ _ _ _ _ _)) (conj (proj1 (bulk1 _ _ _ _ _)) (conj (proj1 (bulk2 _ _ _ _ _ _))
    (conj (proj1 (tr4_multi_run N _ C Qs)) (conj (proj1 (tr4_multi2_run N M _ CC Qs))
      (proj1 (tr4_multi_run N _ C (fun _ => Q)))))))))))))))))))).
Qed.
Print Assumptions C01_linalg_kernels_schedule_independent.

(** C35.  The closed-form inverses.  [finite_inverse]: all entries are finite and the
    matrix is a left and right inverse.  [buf] is the initial content of the output. *)
Theorem C35_inv2x2 : forall (F : ofield) (A : nat -> nat -> F),
  (det 2 A <> zero -> exists X, inv2x2 (fun v => v) A = Ok X /\ is_inverse 2 A X) /\
  (det 2 A = zero -> inv2x2 (fun v => v) A = Err ZeroDivisionError).
Proof. exact @inv2x2_ok. Qed.
Print Assumptions C35_inv2x2.

Theorem C35_inv2x2u : forall (F : ofield) (A : nat -> nat -> F) buf,
  (det 2 A <> zero -> finite_inverse 2 A (inv2x2u A buf)) /\
  (det 2 A = zero -> forall i j, i < 2 -> j < 2 -> inv2x2u A buf i j = None).
Proof. exact @inv2x2u_ok. Qed.
Print Assumptions C35_inv2x2u.

Theorem C35_inv3x3 : forall (F : ofield) (A : nat -> nat -> F),
  (det 3 A <> zero -> finite_inverse 3 A (inv3x3 A)) /\
  (det 3 A = zero -> forall i j, i < 3 -> j < 3 -> inv3x3 A i j = None).
Proof. exact @inv3x3_ok. Qed.
Print Assumptions C35_inv3x3.

Theorem C35_inv3x3u : forall (F : ofield) (A : nat -> nat -> F) buf,
  (det 3 A <> zero -> finite_inverse 3 A (inv3x3u A buf)) /\
  (det 3 A = zero -> forall i j, i < 3 -> j < 3 -> inv3x3u A buf i j = None).
Proof. exact @inv3x3u_ok. Qed.
Print Assumptions C35_inv3x3u.

Theorem C35_adj3x3 : forall (F : ofield) (A buf : nat -> nat -> F) i j, i < 3 -> j < 3 ->
  sum 3 (fun k => mul (A i k) (adj3x3 A buf k j)) = mul (det 3 A) (delta i j) /\
  sum 3 (fun k => mul (adj3x3 A buf i k) (A k j)) = mul (det 3 A) (delta i j).
Proof. exact @adj3x3_identity. Qed.
Print Assumptions C35_adj3x3.

(** The bulk versions, for every stack size and every schedule. *)
Theorem C35_bulk : forall (F : ofield) (N : nat) (A : nat -> nat -> nat -> F) (its : list (list (update (option F)))) res,
  its = inv3x3_bulk_its N A \/ its = inv3x3_bulk2_its N A ->
  prange_run (zeros (Some zero) [N; 3; 3]) its res ->
  shape res = [N; 3; 3] /\
  forall i, i < N ->
    (forall r c, r < 3 -> c < 3 -> at_ res [i; r; c] = inv3x3 (A i) r c) /\
    (det 3 (A i) <> zero -> finite_inverse 3 (A i) (fun r c => at_ res [i; r; c])).
Proof. exact @inv3x3_bulks. Qed.
Print Assumptions C35_bulk.

(** For an integer array the quotients are truncated: the result is not an inverse. *)
Theorem C35_integer_refuted : exists (A : nat -> nat -> Qc_ofield) X,
  (forall i j, exists k : Z, A i j = of_int k) /\ det 2 A <> zero /\
  @inv2x2 Qc_ofield (fun v => of_int (trunc v)) A = Ok X /\ forall i j, i < 2 -> j < 2 -> X i j = zero.
Proof. exact inv2x2_integer. Qed.
Print Assumptions C35_integer_refuted.

Example C35_regular : this (det 3 (qm [[3; 1; 2]; [1; 1; 1]; [2; 1; 2]]%Z)) = (1 # 1)%Q /\
  map (fun i => map (fun j => match inv3x3 (qm [[3; 1; 2]; [1; 1; 1]; [2; 1; 2]]%Z) i j with Some v => this v | None => 7%Q end) (seq 0 3)) (seq 0 3)
  = [[1#1; 0%Q; -1#1]; [0%Q; 2#1; -1#1]; [-1#1; -1#1; 2#1]]
  /\ this (det 2 (qm [[3; 1]; [1; 1]]%Z)) = (2 # 1)%Q.
Proof. split; [|split]; vm_compute; reflexivity. Qed.

(** C36, refuted: the output of det2x2 and det3x3 is whatever the output buffer
    contained before. *)
Theorem C36_refuted : exists (A : nat -> nat -> Qc_ofield) (buf : Qc_ofield),
  det2x2 A buf <> det 2 A /\ det3x3 A buf <> det 3 A.
Proof. exact det_outputs_wrong. Qed.
Print Assumptions C36_refuted.

(** The expression that is computed (and dropped) is the determinant. *)
Theorem C36_expression_partial : forall (F : ofield) (A : nat -> nat -> F),
  det2_expr A = det 2 A /\ det3_expr A = det 3 A.
Proof. exact (fun F A => conj (det2_ok A) (det3_ok A)). Qed.
Print Assumptions C36_expression_partial.

(** C44, kernels.  The matrix products for second-order tensors and the eight nested
    loops for fourth-order tensors compute the generic rule, in stacks of any size and
    under every schedule. *)
Theorem C44_rank2_kernels : forall (F : ofield) (N M n : nat) (Q : nat -> nat -> F) (Qs : nat -> nat -> nat -> F)
    (S0 : nat -> nat -> F) (T : nat -> nat -> nat -> F) (TT : nat -> nat -> nat -> nat -> F),
  (forall i j, congruence n Q S0 i j = rule2 n Q S0 i j) /\
  (forall res, prange_run (zeros zero [N; n; n]) (tr2_single_its N n T Q) res -> shape res = [N; n; n] /\
     forall e i j, e < N -> i < n -> j < n -> at_ res [e; i; j] = rule2 n Q (T e) i j) /\
  (forall res, prange_run (zeros zero [N; n; n]) (tr2_multi_its N n T Qs) res -> shape res = [N; n; n] /\
     forall e i j, e < N -> i < n -> j < n -> at_ res [e; i; j] = rule2 n (Qs e) (T e) i j) /\
  (forall res, prange_run (zeros zero [N; M; n; n]) (tr2_single2_its N M n TT Q) res -> shape res = [N; M; n; n] /\
     forall e x i j, e < N -> x < M -> i < n -> j < n -> at_ res [e; x; i; j] = rule2 n Q (TT e x) i j) /\
  (forall res, prange_run (zeros zero [N; M; n; n]) (tr2_multi2_its N M n TT Qs) res -> shape res = [N; M; n; n] /\
     forall e x i j, e < N -> x < M -> i < n -> j < n -> at_ res [e; x; i; j] = rule2 n (Qs e) (TT e x) i j).
Proof. exact @rank2_kernels. Qed.
Print Assumptions C44_rank2_kernels.

Theorem C44_rank4_kernels : forall (F : ofield) (N M : nat) (Q : nat -> nat -> F) (Qs : nat -> nat -> nat -> F)
    (C0 : nat -> nat -> nat -> nat -> F) (C : nat -> nat -> nat -> nat -> nat -> F) (CC : nat -> nat -> nat -> nat -> nat -> nat -> F),
  (forall i j k l, i < 3 -> j < 3 -> k < 3 -> l < 3 -> at_ (tr_3333 C0 Q) [i; j; k; l] = rule4 3 Q C0 i j k l) /\
  (forall res, prange_run (zeros zero [N; 3; 3; 3; 3]) (tr4_multi3_its N C Q) res -> shape res = [N; 3; 3; 3; 3] /\
     forall e i j k l, e < N -> i < 3 -> j < 3 -> k < 3 -> l < 3 -> at_ res [e; i; j; k; l] = rule4 3 Q (C e) i j k l) /\
  (forall res, prange_run (zeros zero [N; 3; 3; 3; 3]) (tr4_multi_its N C Qs) res -> shape res = [N; 3; 3; 3; 3] /\
     forall e i j k l, e < N -> i < 3 -> j < 3 -> k < 3 -> l < 3 -> at_ res [e; i; j; k; l] = rule4 3 (Qs e) (C e) i j k l) /\
  (forall res, prange_run (zeros zero [N; M; 3; 3; 3; 3]) (tr4_multi2_its N M CC Qs) res -> shape res = [N; M; 3; 3; 3; 3] /\
     forall e x i j k l, e < N -> x < M -> i < 3 -> j < 3 -> k < 3 -> l < 3 ->
       at_ res [e; x; i; j; k; l] = rule4 3 (Qs e) (CC e x) i j k l).
Proof. exact @rank4_kernels. Qed.
Print Assumptions C44_rank4_kernels.

Example C44_kernels_example :
  this (at_ (tr_3333 (fun i j k l => of_int (Z.of_nat (27 * i + 9 * j + 3 * k + l)) : Qc_ofield) (qm [[0; 1; 0]; [1; 0; 0]; [0; 0; 2]]%Z)) [0; 1; 2; 2]) = (140 # 1)%Q.
Proof. vm_compute. reflexivity. Qed.

(** C70.  vpath returns n equidistant points of the segment from p1 to p2, whatever norm
    is used for its length (it cancels), if the points differ. *)
Theorem C70_vpath : forall (F : ofield) (norm : nat -> (nat -> F) -> F) (D n : nat) (p1 p2 : nat -> F) res,
  prange_run (zeros (Some zero) [n; D]) (vpath_its norm D n p1 p2) res ->
  norm D (fun j => sub (p2 j) (p1 j)) <> zero -> 1 < n ->
  shape res = [n; D] /\
  (forall i j, i < n -> j < D ->
     at_ res [i; j] = Some (add (p1 j) (mul (div (of_nat i) (of_nat (n - 1))) (sub (p2 j) (p1 j))))) /\
  (forall j, j < D -> at_ res [0; j] = Some (p1 j) /\ at_ res [n - 1; j] = Some (p2 j)).
Proof. exact @vpath_points. Qed.
Print Assumptions C70_vpath.

Example C70_example :
  map (fun i => match exec (fun _ => Some zero) (concat (vpath_its (fun _ v => v 0) 1 3 (fun _ => of_int 1 : Qc_ofield) (fun _ => of_int 5))) [i; 0] with
                | Some v => this v | None => 0%Q end) (seq 0 3) = [1#1; 3#1; 5#1].
Proof. vm_compute. reflexivity. Qed.

(** C71.  The display and normalisation kernels act on every vector of the stack
    separately: vector [i] is transformed by its own (or the common) matrix. *)
Theorem C71_display_kernels : forall (F : ofield) (norm : nat -> (nat -> F) -> F) (N n : nat)
    (Q : nat -> nat -> F) (Qs : nat -> nat -> nat -> F) (v : nat -> nat -> F) (T : nat -> nat -> nat -> F),
  (forall res, prange_run (zeros zero [N; n]) (show_vectors_its N n Q v) res -> shape res = [N; n] /\
     forall i j, i < N -> j < n -> at_ res [i; j] = sum n (fun k => mul (Q j k) (v i k))) /\
  (forall res, prange_run (zeros zero [N; n]) (show_vectors_multi_its N n Qs v) res -> shape res = [N; n] /\
     forall i j, i < N -> j < n -> at_ res [i; j] = sum n (fun k => mul (Qs i j k) (v i k))) /\
  (forall res, prange_run (zeros zero [n; n]) (show_frame_its n Q v) res -> shape res = [n; n] /\
     forall i j, i < n -> j < n -> at_ res [i; j] = sum n (fun k => mul (Q j k) (v i k))) /\
  (forall res, prange_run (zeros zero [N; n; n]) (show_frames_its N n Q T) res -> shape res = [N; n; n] /\
     forall e i j, e < N -> i < n -> j < n -> at_ res [e; i; j] = sum n (fun k => mul (Q j k) (T e i k))) /\
  (forall res, prange_run (zeros zero [N; n; n]) (show_frames_multi_its N n Qs T) res -> shape res = [N; n; n] /\
     forall e i j, e < N -> i < n -> j < n -> at_ res [e; i; j] = sum n (fun k => mul (Qs e j k) (T e i k))) /\
  (forall res, prange_run (zeros zero [N; n; n]) (transpose_multi_its N n T) res -> shape res = [N; n; n] /\
     forall e i j, e < N -> i < n -> j < n -> at_ res [e; i; j] = T e j i) /\
  (forall res, prange_run (zeros (Some zero) [N; n]) (normalize2d_its norm N n v) res -> shape res = [N; n] /\
     forall i j, i < N -> j < n -> norm n (v i) <> zero -> at_ res [i; j] = Some (div (v i j) (norm n (v i)))) /\
  (forall res, prange_run (zeros zero [N]) (norm2d_its norm N n v) res -> shape res = [N] /\
     forall i, i < N -> at_ res [i] = norm n (v i)).
Proof. exact @display_kernels. Qed.
Print Assumptions C71_display_kernels.

Example C71_example :
  map (fun i => map (fun j => this (exec (fun _ => zero) (concat (show_vectors_its 2 2 (qm [[0; 1]; [2; 0]]%Z) (qm [[1; 2]; [3; 4]]%Z))) [i; j])) (seq 0 2)) (seq 0 2)
  = [[2#1; 2#1]; [4#1; 6#1]].
Proof. vm_compute. reflexivity. Qed.
