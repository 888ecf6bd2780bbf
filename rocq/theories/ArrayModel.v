(** Model of the array helpers in /repo/src/sigmaepsilon/math/utils.py. *)
From Coq Require Import QArith Qcanon Qround.
From Verif Require Import Prelude OField ParallelModel.
Local Close Scope Q_scope.
Local Close Scope Qc_scope.
Local Open Scope nat_scope.

(** [a.shape[k]] *)
Definition dim {V} (a : ndarray V) (k : nat) : nat := nth k (shape a) 0.

(** Element-wise execution of the slice assignment [res[i, :, :] = value] for a
    2d [value] of shape (R, C). *)
Definition assign2 {V} (R C : nat) (where_ : nat -> nat -> cell) (value : nat -> nat -> V)
  : list (update V) :=
  flat_map (fun r => map (fun c => store (where_ r c) (value r c)) (range C)) (range R).

(** Element-wise execution of [res[lo:lo+M] = value] for a 1d [value]. *)
Definition assign1 {V} (M : nat) (where_ : nat -> cell) (value : nat -> V) : list (update V) :=
  map (fun k => store (where_ k) (value k)) (range M).

Section Kernels.
Context {V : Type} (vzero : V).

(** utils.py:283-326, [repeat].  [res = zeros((N, R, C))] and
    [for i in prange(N): res[i, :, :] = a]. *)
Definition repeat_init (a : ndarray V) (N : nat) : ndarray V :=
  zeros vzero [N; dim a 0; dim a 1].
Definition repeat_its (a : ndarray V) (N : nat) : list (list (update V)) :=
  map (fun i => assign2 (dim a 0) (dim a 1) (fun r c => [i; r; c]) (fun r c => at_ a [r; c]))
      (range N).
Definition repeat_run a N := prange_run (repeat_init a N) (repeat_its a N).

(** utils.py:329-347, [repeat1d]: [res[i * M : (i + 1) * M] = a]. *)
Definition repeat1d_init (a : ndarray V) (N : nat) : ndarray V := zeros vzero [N * dim a 0].
Definition repeat1d_its (a : ndarray V) (N : nat) : list (list (update V)) :=
  map (fun i => assign1 (dim a 0) (fun k => [i * dim a 0 + k]) (fun k => at_ a [k])) (range N).
Definition repeat1d_run a N := prange_run (repeat1d_init a N) (repeat1d_its a N).

(** The arithmetic of the array type: addition and [i * x] for a loop index. *)
Context (vadd : V -> V -> V) (vscale : nat -> V -> V).

(** utils.py:350-372, [tile]: [res[i, :, :] = a + i * da].
    Simplification: [da] has the shape of [a] (no broadcasting). *)
Definition tile_init (a da : ndarray V) (N : nat) : ndarray V :=
  zeros vzero [N; dim a 0; dim a 1].
Definition tile_its (a da : ndarray V) (N : nat) : list (list (update V)) :=
  map (fun i => assign2 (dim a 0) (dim a 1) (fun r c => [i; r; c])
                  (fun r c => vadd (at_ a [r; c]) (vscale i (at_ da [r; c])))) (range N).
Definition tile_run a da N := prange_run (tile_init a da N) (tile_its a da N).

(** utils.py:375-381, [tile1d]: [res[i * M : (i + 1) * M] = a + i * da]. *)
Definition tile1d_init (a da : ndarray V) (N : nat) : ndarray V := zeros vzero [N * dim a 0].
Definition tile1d_its (a da : ndarray V) (N : nat) : list (list (update V)) :=
  map (fun i => assign1 (dim a 0) (fun k => [i * dim a 0 + k])
                  (fun k => vadd (at_ a [k]) (vscale i (at_ da [k])))) (range N).
Definition tile1d_run a da N := prange_run (tile1d_init a da N) (tile1d_its a da N).

(** utils.py:470-495, [repeat_diagonal_2d]:
    [res[i*nR : i*nR + nR, i*nC : i*nC + nC] = a]. *)
Definition diag_init (a : ndarray V) (N : nat) : ndarray V :=
  zeros vzero [dim a 0 * N; dim a 1 * N].
Definition diag_its (a : ndarray V) (N : nat) : list (list (update V)) :=
  map (fun i => assign2 (dim a 0) (dim a 1)
                  (fun r c => [i * dim a 0 + r; i * dim a 1 + c])
                  (fun r c => at_ a [r; c])) (range N).
Definition diag_run a N := prange_run (diag_init a N) (diag_its a N).

(** Kernels of the form [for i in prange(n): res[i] = g(vals[i])]
    (used for [_to_range_1d_], utils.py:498-507, and [count_cols], 428-438). *)
Definition map_its {A} (g : A -> V) (vals : list A) : list (list (update V)) :=
  map (fun i => match nth_error vals i with
                | Some x => [store [i] (g x)]
                | None => []
                end) (range (length vals)).
Definition map_run {A} (g : A -> V) (vals : list A) :=
  prange_run (zeros vzero [length vals]) (map_its g vals).

(** utils.py:200-209, [flatten2dC]: sequential nested loops with a running
    index [ind]; the state is (res, ind). *)
Definition flatC_inner (a : ndarray V) (i : nat) (st : memory V * nat) (j : nat) :=
  (step (fst st) (store [snd st] (at_ a [i; j])), snd st + 1).
Definition flatten2dC (a : ndarray V) : ndarray V :=
  ND [dim a 0 * dim a 1]
     (fst (fold_left (fun st i => fold_left (flatC_inner a i) (range (dim a 1)) st)
             (range (dim a 0)) (at_ (zeros vzero [dim a 0 * dim a 1]), 0))).

(** utils.py:212-221, [flatten2dF]: the loops are exchanged. *)
Definition flatF_inner (a : ndarray V) (j : nat) (st : memory V * nat) (i : nat) :=
  (step (fst st) (store [snd st] (at_ a [i; j])), snd st + 1).
Definition flatten2dF (a : ndarray V) : ndarray V :=
  ND [dim a 0 * dim a 1]
     (fst (fold_left (fun st j => fold_left (flatF_inner a j) (range (dim a 0)) st)
             (range (dim a 1)) (at_ (zeros vzero [dim a 0 * dim a 1]), 0))).

(** utils.py:224-231, [flatten2d]: any other order string returns [None]. *)
Inductive order := OrderC | OrderF | OtherOrder.
Definition flatten2d (a : ndarray V) (o : order) : option (ndarray V) :=
  match o with
  | OrderC => Some (flatten2dC a)
  | OrderF => Some (flatten2dF a)
  | OtherOrder => None
  end.

(** The transposed array [a.T] (only used in statements). *)
Definition transpose2 (a : ndarray V) : ndarray V :=
  ND [dim a 1; dim a 0] (fun c => match c with [i; j] => at_ a [j; i] | _ => vzero end).
End Kernels.

(** utils.py:46-72, [clip1d]: two masked assignments, one after the other. *)
Definition clip1d {F : ofield} (a : list F) (a_min a_max : F) : list F :=
  let a := map (fun x => if ltb x a_min then a_min else x) a in
  map (fun x => if ltb a_max x then a_max else x) a.

(** Arrays with explicit memory layout: shape and row-major data, for the
    functions that reshape. *)
Record flatnd (V : Type) := FND { fshape : list nat; fdata : list V }.
Arguments FND {V}.  Arguments fshape {V}.  Arguments fdata {V}.

(** Row-major position of a multi-index. *)
Fixpoint offset (sh : list nat) (idx : list nat) : nat :=
  match sh, idx with
  | _ :: sh', i :: idx' => i * fold_right Nat.mul 1 sh' + offset sh' idx'
  | _, _ => 0
  end.
(** [a[idx]] *)
Definition fget {V} (a : flatnd V) (idx : list nat) : option V :=
  nth_error (fdata a) (offset (fshape a) idx).

(** Input of [atleastnd] and [matrixform]: a number or an array
    (lists are converted to arrays first, utils.py:101-106). *)
Inductive numlike (V : Type) := Scalar (v : V) | Arr (a : flatnd V).
Arguments Scalar {V}.  Arguments Arr {V}.
Definition as_array {V} (x : numlike V) : flatnd V :=
  match x with Scalar v => FND [1] [v] | Arr a => a end.

(** utils.py:75-116, [atleastnd]. *)
Definition atleastnd {V} (x : numlike V) (n : nat) (front back : bool) : flatnd V :=
  let a := as_array x in
  let nD := length (fshape a) in
  if n <=? nD then a
  else if front && negb back
       then FND (repeat 1 (n - nD) ++ fshape a) (fdata a)
       else FND (fshape a ++ repeat 1 (n - nD)) (fdata a).

(** utils.py:147-169, [matrixform]. *)
Definition matrixform {V} (x : numlike V) : result (flatnd V) :=
  let a := as_array x in
  let size := length (fshape a) in
  if size <=? 2
  then if size =? 1 then Ok (FND [nth 0 (fshape a) 0; 1] (fdata a)) else Ok a
  else Err AssertionError.

(** utils.py:498-507, the slope and intercept of [_to_range_1d_]. *)
Definition range_b {F : ofield} (s0 s1 t0 t1 : F) : F := ((t1 - t0) / (s1 - s0))%F.
Definition range_a {F : ofield} (s0 s1 t0 t1 : F) : F :=
  ((t0 + t1) / two - range_b s0 s1 t0 t1 * (s0 + s1) / two)%F.
Definition to_range_elt {F : ofield} (s0 s1 t0 t1 x : F) : F :=
  (range_a s0 s1 t0 t1 + range_b s0 s1 t0 t1 * x)%F.

(** utils.py:510-524, [to_range_1d] with default intervals [0,1] and [-1,1], for
    a float array [vals]. *)
Definition to_range_1d {F : ofield} (vals : list F) (source target : option (F * F)) : list F :=
  let '(s0, s1) := match source with Some s => s | None => (zero, one) end in
  let '(t0, t1) := match target with Some t => t | None => (opp one, one) end in
  map (to_range_elt s0 s1 t0 t1) vals.

(** Conversion of a float to an integer array element: truncation towards 0. *)
Definition trunc (q : Qc) : Z := (if Qle_bool 0 q then Qfloor q else - Qfloor (- q)%Q)%Z.
Definition of_int (z : Z) : Qc := Q2Qc (inject_Z z).
(** The same function on an integer array: [np.zeros_like(vals)] is an integer
    array, so every element is truncated on assignment (utils.py:500,506). *)
Definition to_range_1d_int (vals : list Z) (s0 s1 t0 t1 : Qc) : list Z :=
  map (fun v => trunc (@to_range_elt Qc_ofield s0 s1 t0 t1 (of_int v))) vals.

(** First position of [x] in [space]: [np.where(x == space)[0][0]].  [None]
    stands for reading element 0 of an empty array, which compiled code does
    without a check (utils.py:532). *)
Fixpoint first_index {V} (eqv : V -> V -> bool) (x : V) (space : list V) : option nat :=
  match space with
  | [] => None
  | y :: space' => if eqv x y then Some 0 else option_map S (first_index eqv x space')
  end.

(** utils.py:528-533, [find1d]; the result holds [option nat], where [None] is
    the unspecified value of an out-of-bounds read. *)
Definition find1d_run {V} (eqv : V -> V -> bool) (arr space : list V) :=
  map_run (Some 0) (fun x => first_index eqv x space) arr.

(** utils.py:538-543, [find2d]: one call of [find1d] per row, assigned to
    [res[i]]. *)
Definition find2d_its {V} (eqv : V -> V -> bool) (arr : list (list V)) (space : list V)
  : list (list (update (option nat))) :=
  map (fun i => match nth_error arr i with
                | Some row =>
                    map (fun jx => store [i; fst jx] (first_index eqv (snd jx) space))
                        (combine (range (length row)) row)
                | None => []
                end) (range (length arr)).
Definition find2d_run {V} (eqv : V -> V -> bool) (arr : list (list V)) (ncol : nat) space :=
  prange_run (zeros (Some 0) [length arr; ncol]) (find2d_its eqv arr space).

(** utils.py:428-438 (and linalg/sparse/utils.py:27-33), [count_cols]. *)
Definition count_cols_run {V} (arr : list (list V)) := map_run 0 (@length V) arr.

(** utils.py:441-467, [count_cols_csr].  [n = len(indptr)] iterations, iteration
    [i] stores [indices[indptr[i + 1]] - indices[indptr[i]]].  [None] is the
    unspecified value of an out-of-bounds read. *)
Definition count_cols_csr (indptr : list nat) (indices : list Z) : list (option Z) :=
  map (fun i =>
         match nth_error indptr (i + 1), nth_error indptr i with
         | Some p1, Some p0 =>
             match nth_error indices p1, nth_error indices p0 with
             | Some c1, Some c0 => Some (c1 - c0)%Z
             | _, _ => None
             end
         | _, _ => None
         end) (range (length indptr)).

(** ** indices_of_equal_rows, utils.py:384-425 *)
Section EqualRows.
Local Notation F := Qc_ofield.

(** [np.sum(np.abs(x[i] - y[j]))] *)
Definition row_dist (r s : list F) : F :=
  suml (map (fun ab => absf (sub (fst ab) (snd ab))) (combine r s)).

(** Storing into the work array [R], whose dtype is that of [x]. *)
Definition store_dtype (int_x : bool) (v : F) : F := if int_x then of_int (trunc v) else v.

(** [np.where(R <= tol)]: row-major list of index pairs. *)
Definition where_le (nx ny : nat) (R : nat -> nat -> F) (tol : F) : list (nat * nat) :=
  flat_map (fun i => map (fun j => (i, j)) (filter (fun j => leb (R i j) tol) (range ny)))
           (range nx).

(** utils.py:405-411 and 414-425 (the "square" variant loops over the smaller of
    the two row counts, which is the common one when it is called). *)
Definition equal_rows_njit (int_x : bool) (x y : list (list F)) (tol : F) : list (nat * nat) :=
  where_le (length x) (length y)
    (fun i j => store_dtype int_x (row_dist (nth i x []) (nth j y []))) tol.
Definition equal_rows_square_njit (int_x : bool) (x y : list (list F)) (tol : F) :=
  let n := if length x <? length y then length x else length y in
  where_le n n (fun i j => store_dtype int_x (row_dist (nth i x []) (nth j y []))) tol.

(** [np.flatnonzero((x == y).all(1))], twice (utils.py:393-395). *)
Definition all_eq (r s : list F) : bool := forallb (fun ab => eqb (fst ab) (snd ab)) (combine r s).
Definition equal_rows_diag (x y : list (list F)) : list (nat * nat) :=
  map (fun i => (i, i)) (filter (fun i => all_eq (nth i x []) (nth i y [])) (range (length x))).

(** utils.py:384-402; [int_x], [int_y] are the results of [isintegerarray];
    the number of columns is passed because an array without rows has one too. *)
Definition indices_of_equal_rows (int_x int_y : bool) (dX dY : nat) (x y : list (list F)) (tol : F)
  : result (list (nat * nat)) :=
  if dX =? dY then
    let square := length x =? length y in
    if int_x && int_y then
      if square then Ok (equal_rows_diag x y)
      else Ok (equal_rows_njit int_x x y zero)
    else
      if square then Ok (equal_rows_square_njit int_x x y tol)
      else Ok (equal_rows_njit int_x x y tol)
  else Err AssertionError.
End EqualRows.

(** utils.py:234-250, [bool_to_float]. *)
Definition bool_to_float {V} (a : list bool) (vtrue vfalse : V) : list V :=
  let res := repeat vfalse (length a) in
  map (fun br : bool * V => if fst br then vtrue else snd br) (combine a res).

(** hist.py:18-23, [bin_centers]: [res[i] = (bin_edges[i] + bin_edges[i + 1]) / 2]
    for [i] in [prange(len(bin_edges) - 1)], for a float array (an integer array
    would truncate).  The loop writes cell [i] in iteration [i] only, see
    [map_run]; here the resulting list is given. *)
Definition bin_centers {F : ofield} (edges : list F) : list F :=
  map (fun i => div (add (nth i edges zero) (nth (i + 1) edges zero)) two)
      (range (length edges - 1)).

(** linalg/utils.py:880-886, [linspace1d]; [N - 1 = 0] raises
    ZeroDivisionError in compiled code. *)
Definition linspace1d {F : ofield} (start stop : F) (N : nat) : result (list F) :=
  if N =? 1 then Err ZeroDivisionError
  else
    let di := div (sub stop start) (of_nat (N - 1)) in
    Ok (map (fun i => add start (mul (of_nat i) di)) (range N)).

(** linalg/utils.py:858-870, [_linspace] for points [p0], [p1] given as lists of
    coordinates.  [L] is [np.linalg.norm(p1 - p0)], passed as an argument.  The
    entries of the result are [Some] numbers; [None] stands for NaN, which the
    array division [s / L] produces when [L = 0] (every entry of [s] is then 0).
    The loop writes rows 1..N-2 only, each in its own iteration; then [res[-1]]
    is assigned.  For [N = 0] the code writes outside the empty result array; the
    model reports IndexError. *)
Definition linspace_nd {F : ofield} (L : F) (p0 p1 : list F) (N : nat)
  : result (list (list (option F))) :=
  if N =? 0 then Err IndexError
  else if N =? 1 then Err ZeroDivisionError
  else
    let s := map (fun q => sub (snd q) (fst q)) (combine p0 p1) in
    let n := map (fun x => if eqb L zero then None else Some (div x L)) s in
    let djac := div L (of_nat (N - 1)) in
    let step := map (option_map (fun x => mul x djac)) n in
    Ok (map (fun i =>
               if i =? N - 1 then map Some p1            (* res[-1] = p1, assigned last *)
               else if i =? 0 then map Some p0
               else map (fun q => option_map (fun x => add (fst q) (mul (of_nat i) x)) (snd q))
                        (combine p0 step))
            (range N)).
