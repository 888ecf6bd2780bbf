(** Model of the numerical kernels of linalg/utils.py and linalg/tr.py: closed-form
    inverses, and the parallel loops over stacks of vectors, frames and tensors.

    Arrays are functions of their indices; numbers are elements of an ordered field
    (float64 without rounding).  [None] is a non-finite number.  A [prange] inside a
    [prange] is executed like [range] by numba, so the inner loop is part of the
    iteration of the outer one.  Matrix products are the usual sums. *)
From Verif Require Import Prelude OField ParallelModel SolveModel.

Section Kern.
Context {F : ofield}.
Local Notation mat := (nat -> nat -> F).

(** [M @ v], [A @ B] and [A.T] for the leading [n] indices. *)
Definition matvec (n : nat) (M : mat) (v : nat -> F) (j : nat) : F := sum n (fun k => mul (M j k) (v k)).
Definition matmul (n : nat) (A B : mat) : mat := fun i j => sum n (fun k => mul (A i k) (B k j)).
Definition mtr (A : mat) : mat := fun i j => A j i.

(** ** Closed forms *)

(** The expression assigned to [d] or [det] in utils.py:723,734,758-765,779-786. *)
Definition det2_expr (A : mat) : F := sub (mul (A 0 0) (A 1 1)) (mul (A 0 1) (A 1 0)).
Definition det3_expr (A : mat) : F :=
  sub (add (add (sub (sub (mul (mul (A 0 0) (A 1 1)) (A 2 2))
                          (mul (mul (A 0 0) (A 1 2)) (A 2 1)))
                     (mul (mul (A 0 1) (A 1 0)) (A 2 2)))
                (mul (mul (A 0 1) (A 1 2)) (A 2 0)))
           (mul (mul (A 0 2) (A 1 0)) (A 2 1)))
      (mul (mul (A 0 2) (A 1 1)) (A 2 0)).

(** utils.py:704-718, [det3x3] and [det2x2]: generalised ufuncs whose last argument is
    the output.  It is declared as a scalar and the body rebinds the local name, so
    the output buffer [buf] keeps whatever it contained. *)
Definition det3x3 (A : mat) (buf : F) : F := let res := det3_expr A in buf.
Definition det2x2 (A : mat) (buf : F) : F := let res := det2_expr A in buf.

(** utils.py:721-729, [inv2x2].  [cast] is the conversion done when a number is stored
    in an array with the data type of [A] (the identity for floats, truncation for
    integers).  A division of scalars by zero raises in compiled code. *)
Definition inv2x2 (cast : F -> F) (A : mat) : result mat :=
  let res : mat := fun _ _ => zero in
  let d := det2_expr A in
  if eqb d zero then Err ZeroDivisionError
  else
    let res := set2 res 0 0 (cast (div (A 1 1) d)) in
    let res := set2 res 1 1 (cast (div (A 0 0) d)) in
    let res := set2 res 0 1 (cast (div (opp (A 0 1)) d)) in
    let res := set2 res 1 0 (cast (div (opp (A 1 0)) d)) in
    Ok res.

(** Assignment to an element of an output array of possibly non-finite numbers. *)
Definition fset (A : fmat) (i j : nat) (v : option F) : fmat :=
  fun r c => if (r =? i) && (c =? j) then v else A r c.

(** utils.py:732-738, [inv2x2u]: ufuncs follow NumPy's error model, no exception. *)
Definition inv2x2u (A : mat) (buf : fmat) : fmat :=
  let d := det2_expr A in
  let res := fset buf 0 0 (fdiv (Some (A 1 1)) d) in
  let res := fset res 1 1 (fdiv (Some (A 0 0)) d) in
  let res := fset res 0 1 (fdiv (Some (opp (A 0 1))) d) in
  fset res 1 0 (fdiv (Some (opp (A 1 0))) d).

(** The nine expressions of utils.py:743-751 and 787-795. *)
Definition adj_expr (A : mat) (i j : nat) : F :=
  match i, j with
  | 0, 0 => sub (mul (A 1 1) (A 2 2)) (mul (A 1 2) (A 2 1))
  | 0, 1 => add (mul (opp (A 0 1)) (A 2 2)) (mul (A 0 2) (A 2 1))
  | 0, 2 => sub (mul (A 0 1) (A 1 2)) (mul (A 0 2) (A 1 1))
  | 1, 0 => add (mul (opp (A 1 0)) (A 2 2)) (mul (A 1 2) (A 2 0))
  | 1, 1 => sub (mul (A 0 0) (A 2 2)) (mul (A 0 2) (A 2 0))
  | 1, 2 => add (mul (opp (A 0 0)) (A 1 2)) (mul (A 0 2) (A 1 0))
  | 2, 0 => sub (mul (A 1 0) (A 2 1)) (mul (A 1 1) (A 2 0))
  | 2, 1 => add (mul (opp (A 0 0)) (A 2 1)) (mul (A 0 1) (A 2 0))
  | 2, 2 => sub (mul (A 0 0) (A 1 1)) (mul (A 0 1) (A 1 0))
  | _, _ => zero
  end.
(** The order in which the nine elements are written. *)
Definition nine : list (nat * nat) := [(0,0); (0,1); (0,2); (1,0); (1,1); (1,2); (2,0); (2,1); (2,2)].

(** utils.py:742-751, [adj3x3]. *)
Definition adj3x3 (A buf : mat) : mat :=
  fold_left (fun res p => set2 res (fst p) (snd p) (adj_expr A (fst p) (snd p))) nine buf.

(** utils.py:755-772, [inv3x3u]: the same terms, each divided by the determinant. *)
Definition inv3_expr (A : mat) (i j : nat) : option F :=
  let d := det3_expr A in
  let t a b := fdiv (Some (mul a b)) d in
  let fadd a b := match a, b with Some x, Some y => Some (add x y) | _, _ => None end in
  match i, j with
  | 0, 0 => fsub (t (A 1 1) (A 2 2)) (t (A 1 2) (A 2 1))
  | 0, 1 => fadd (t (opp (A 0 1)) (A 2 2)) (t (A 0 2) (A 2 1))
  | 0, 2 => fsub (t (A 0 1) (A 1 2)) (t (A 0 2) (A 1 1))
  | 1, 0 => fadd (t (opp (A 1 0)) (A 2 2)) (t (A 1 2) (A 2 0))
  | 1, 1 => fsub (t (A 0 0) (A 2 2)) (t (A 0 2) (A 2 0))
  | 1, 2 => fadd (t (opp (A 0 0)) (A 1 2)) (t (A 0 2) (A 1 0))
  | 2, 0 => fsub (t (A 1 0) (A 2 1)) (t (A 1 1) (A 2 0))
  | 2, 1 => fadd (t (opp (A 0 0)) (A 2 1)) (t (A 0 1) (A 2 0))
  | 2, 2 => fsub (t (A 0 0) (A 1 1)) (t (A 0 1) (A 1 0))
  | _, _ => Some zero
  end.
Definition inv3x3u (A : mat) (buf : fmat) : fmat :=
  fold_left (fun res p => fset res (fst p) (snd p) (inv3_expr A (fst p) (snd p))) nine buf.

(** utils.py:776-796, [inv3x3]: adjugate, then [res /= det] on the whole array. *)
Definition inv3x3 (A : mat) : fmat :=
  let res := fold_left (fun res p => set2 res (fst p) (snd p) (adj_expr A (fst p) (snd p))) nine (fun _ _ => zero) in
  fun i j => fdiv (Some (res i j)) (det3_expr A).

(** ** Parallel loops over stacks *)

(** All multi-indices of a shape, in C order. *)
Fixpoint cells (sh : list nat) : list cell :=
  match sh with
  | [] => [[]]
  | n :: sh' => flat_map (fun i => map (cons i) (cells sh')) (range n)
  end.
(** [res[pre] = f], the assignment of an array of shape [sh] to a sub-array. *)
Definition assign {V} (pre : cell) (sh : list nat) (f : cell -> V) : list (update V) :=
  map (fun c => store (pre ++ c) (f c)) (cells sh).
(** A one- or two-dimensional array as a function of its multi-index. *)
Definition row1 {V} (f : nat -> V) (c : cell) : V := f (nth 0 c 0).
Definition row2 {V} (f : nat -> nat -> V) (c : cell) : V := f (nth 0 c 0) (nth 1 c 0).

(** utils.py:424-445, [_show_vectors], and 448-468, [_show_vectors_multi]. *)
Definition show_vectors_its (N n : nat) (dcm : mat) (arr : nat -> nat -> F) : list (list (update F)) :=
  map (fun i => assign [i] [n] (row1 (matvec n dcm (arr i)))) (range N).
Definition show_vectors_multi_its (N n : nat) (dcm : nat -> mat) (arr : nat -> nat -> F) : list (list (update F)) :=
  map (fun i => assign [i] [n] (row1 (matvec n (dcm i) (arr i)))) (range N).
(** utils.py:471-492, [_show_frame]: one iteration per base vector. *)
Definition show_frame_its (n : nat) (dcm : mat) (arr : mat) : list (list (update F)) :=
  map (fun i => assign [i] [n] (row1 (matvec n dcm (arr i)))) (range n).
(** utils.py:495-517, [_show_frames], and 520-541, [_show_frames_multi]. *)
Definition show_frames_its (N n : nat) (dcm : mat) (arr : nat -> mat) : list (list (update F)) :=
  map (fun i => concat (map (fun j => assign [i; j] [n] (row1 (matvec n dcm (arr i j)))) (range n))) (range N).
Definition show_frames_multi_its (N n : nat) (dcm : nat -> mat) (arr : nat -> mat) : list (list (update F)) :=
  map (fun i => concat (map (fun j => assign [i; j] [n] (row1 (matvec n (dcm i) (arr i j)))) (range n))) (range N).
(** utils.py:544-550, [_transpose_multi]. *)
Definition transpose_multi_its (N n : nat) (dcm : nat -> mat) : list (list (update F)) :=
  map (fun i => assign [i] [n; n] (row2 (mtr (dcm i)))) (range N).
(** utils.py:800-821, [inv3x3_bulk]: nine stores, then [res[i] /= det]. *)
Definition inv3x3_bulk_its (N : nat) (A : nat -> mat) : list (list (update (option F))) :=
  map (fun i => map (fun p => store [i; fst p; snd p] (Some (adj_expr (A i) (fst p) (snd p)))) nine
                ++ map (fun c => Upd (i :: c) (fun v => fdiv v (det3_expr (A i)))) (cells [3; 3])) (range N).
(** utils.py:824-829, [inv3x3_bulk2]. *)
Definition inv3x3_bulk2_its (N : nat) (A : nat -> mat) : list (list (update (option F))) :=
  map (fun i => assign [i] [3; 3] (row2 (inv3x3 (A i)))) (range N).
(** utils.py:837-842, [normalize2d], and 850-855, [norm2d]; [norm] is [np.linalg.norm]
    of a vector of length [n]. *)
Definition normalize2d_its (norm : nat -> (nat -> F) -> F) (N n : nat) (A : nat -> nat -> F) : list (list (update (option F))) :=
  map (fun i => assign [i] [n] (row1 (fun j => fdiv (Some (A i j)) (norm n (A i))))) (range N).
Definition norm2d_its (norm : nat -> (nat -> F) -> F) (N n : nat) (A : nat -> nat -> F) : list (list (update F)) :=
  map (fun i => [store [i] (norm n (A i))]) (range N).

(** utils.py:656-666, [vpath]: [length] is the norm of [dist] and [s] is
    [np.linspace(0, length, n)], whose element [i] is [i * (length / (n - 1))]
    (and 0 for [n = 1]). *)
Definition vpath_its (norm : nat -> (nat -> F) -> F) (D n : nat) (p1 p2 : nat -> F) : list (list (update (option F))) :=
  let dist := fun j => sub (p2 j) (p1 j) in
  let length := norm D dist in
  let s i := match n with 1 => zero | _ => mul (of_nat i) (div length (of_nat (n - 1))) end in
  map (fun i => assign [i] [D] (row1 (fun j =>
        match fdiv (Some (dist j)) length with Some d => Some (add (p1 j) (mul (s i) d)) | None => None end))) (range n).

(** tr.py:39-46, 60-66, [_tr_tensors2_single] and [_tr_tensors2_multi]: Q @ T @ Q.T. *)
Definition congruence (n : nat) (Q T : mat) : mat := matmul n (matmul n Q T) (mtr Q).
Definition tr2_single_its (N n : nat) (arr : nat -> mat) (Q : mat) : list (list (update F)) :=
  map (fun i => assign [i] [n; n] (row2 (congruence n Q (arr i)))) (range N).
Definition tr2_multi_its (N n : nat) (arr : nat -> mat) (Q : nat -> mat) : list (list (update F)) :=
  map (fun i => assign [i] [n; n] (row2 (congruence n (Q i) (arr i)))) (range N).
(** tr.py:49-57, 69-78, [_tr_tensors2_single2] and [_tr_tensors2_multi2]. *)
Definition tr2_single2_its (N M n : nat) (arr : nat -> nat -> mat) (Q : mat) : list (list (update F)) :=
  map (fun i => concat (map (fun x => assign [i; x] [n; n] (row2 (congruence n Q (arr i x)))) (range M))) (range N).
Definition tr2_multi2_its (N M n : nat) (arr : nat -> nat -> mat) (Q : nat -> mat) : list (list (update F)) :=
  map (fun i => concat (map (fun x => assign [i; x] [n; n] (row2 (congruence n (Q i) (arr i x)))) (range M))) (range N).

(** tr.py:126-144, [_tr_3333], 106-123, [_tr_3333_sym] (the same loops without
    compilation), and 147-163, [_tr_3333_out]: eight nested loops that add
    one term to one element of the output, which lies at [pre] in the array written. *)
Definition term4 (Q : mat) (C : nat -> nat -> nat -> nat -> F) (s d : cell) : F :=
  match s, d with
  | [p; q; r; s], [i; j; k; m] => mul (mul (mul (mul (Q i p) (Q j q)) (Q k r)) (Q m s)) (C p q r s)
  | _, _ => zero
  end.
Definition tr_3333_out (pre : cell) (C : nat -> nat -> nat -> nat -> F) (Q : mat) : list (update F) :=
  flat_map (fun s => map (fun d => Upd (pre ++ d) (fun v => add v (term4 Q C s d))) (cells [3; 3; 3; 3]))
           (cells [3; 3; 3; 3]).
Definition tr_3333 (C : nat -> nat -> nat -> nat -> F) (Q : mat) : ndarray F :=
  ND [3; 3; 3; 3] (exec (fun _ => zero) (tr_3333_out [] C Q)).
(** tr.py:166-172, [_tr_3333_multi]; 175-183, [_tr_3333_multi2]; 186-192, [_tr_3333_multi3]. *)
Definition tr4_multi_its (N : nat) (arr : nat -> nat -> nat -> nat -> nat -> F) (Q : nat -> mat) : list (list (update F)) :=
  map (fun i => tr_3333_out [i] (arr i) (Q i)) (range N).
Definition tr4_multi2_its (N M : nat) (arr : nat -> nat -> nat -> nat -> nat -> nat -> F) (Q : nat -> mat) : list (list (update F)) :=
  map (fun i => concat (map (fun x => tr_3333_out [i; x] (arr i x) (Q i)) (range M))) (range N).
Definition tr4_multi3_its (N : nat) (arr : nat -> nat -> nat -> nat -> nat -> F) (Q : mat) : list (list (update F)) :=
  map (fun i => tr_3333_out [i] (arr i) Q) (range N).
End Kern.
