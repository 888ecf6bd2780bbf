(** Properties C01-C07, C09, C10 and C64: array helpers. *)
From Coq Require Import QArith Qcanon.
From Verif Require Import Prelude OField ParallelModel ParallelSpec ArrayModel ArraySpec ArrayProofs.
Local Close Scope Q_scope.
Local Close Scope Qc_scope.
Local Open Scope nat_scope.

(** * C01: independence of the thread schedule *)
Theorem C01_array_builders_schedule_independent :
  forall (V : Type) (vzero : V) (vadd : V -> V -> V) (vscale : nat -> V -> V)
         (a da : ndarray V) (N : nat),
  schedule_independent (repeat_init vzero a N) (repeat_its a N) /\
  schedule_independent (repeat1d_init vzero a N) (repeat1d_its a N) /\
  schedule_independent (tile_init vzero a da N) (tile_its vadd vscale a da N) /\
  schedule_independent (tile1d_init vzero a da N) (tile1d_its vadd vscale a da N) /\
  schedule_independent (diag_init vzero a N) (diag_its a N).
Proof.
  exact (fun V z p s a da N => conj (repeat_schedule z a N) (conj (repeat1d_schedule z a N)
    (conj (tile_schedule z p s a da N) (conj (tile1d_schedule z p s a da N)
    (diag_schedule z a N))))).
Qed.
Print Assumptions C01_array_builders_schedule_independent.

Theorem C01_elementwise_kernels_schedule_independent :
  (forall (F : ofield) (s0 s1 t0 t1 : F) (vals : list F),
     schedule_independent (zeros zero [length vals]) (map_its (to_range_elt s0 s1 t0 t1) vals)) /\
  (forall (V : Type) (arr : list (list V)),
     schedule_independent (zeros 0 [length arr]) (map_its (@length V) arr)) /\
  (forall (V : Type) (eqv : V -> V -> bool) (arr space : list V),
     schedule_independent (zeros (Some 0) [length arr])
       (map_its (fun x => first_index eqv x space) arr)) /\
  (forall (V : Type) (eqv : V -> V -> bool) (arr : list (list V)) (ncol : nat) (space : list V),
     schedule_independent (zeros (Some 0) [length arr; ncol]) (find2d_its eqv arr space)).
Proof.
  exact (conj (fun F s0 s1 t0 t1 vals => map_schedule zero (to_range_elt s0 s1 t0 t1) vals)
        (conj (fun V arr => map_schedule 0 (@length V) arr)
        (conj (fun V eqv arr space => map_schedule (Some 0) (fun x => first_index eqv x space) arr)
              (fun V eqv arr ncol space => find2d_schedule eqv arr ncol space)))).
Qed.
Print Assumptions C01_elementwise_kernels_schedule_independent.

(** A schedule that is not the sequential one: iterations of [tile1d] on two
    elements and N = 2, run as 1,0,0,1. *)
Example C01_nontrivial_schedule :
  let a := ND [2] (fun c => match c with [i] => i + 5 | _ => 0 end) in
  let its := tile1d_its Nat.add Nat.mul a a 2 in
  exists tr, interleave its tr /\ tr <> concat its /\
    map (fun k => exec (fun _ => 0) tr [k]) [0; 1; 2; 3] = [5; 6; 10; 12].
Proof.
  cbn. eexists. split.
  - apply (il_step [_] _ _ []). cbn. apply (il_step [] _ _ [_]). cbn.
    apply (il_step [] _ _ [_]). cbn. apply (il_step [_] _ _ []). cbn.
    apply il_done. repeat constructor.
  - split; [discriminate|reflexivity].
Qed.

(** * C02: contents of the built arrays *)
Theorem C02_repeat :
  forall (V : Type) (vzero : V) (a : ndarray V) (N R C : nat) (res : ndarray V),
  shape a = [R; C] -> repeat_run vzero a N res ->
  shape res = [N; R; C] /\
  forall i r c, i < N -> r < R -> c < C -> at_ res [i; r; c] = at_ a [r; c].
Proof. exact (fun V => @repeat_spec V). Qed.
Print Assumptions C02_repeat.

Theorem C02_repeat1d :
  forall (V : Type) (vzero : V) (a : ndarray V) (N M : nat) (res : ndarray V),
  shape a = [M] -> repeat1d_run vzero a N res ->
  shape res = [N * M] /\
  forall i k, i < N -> k < M -> at_ res [i * M + k] = at_ a [k].
Proof. exact (fun V => @repeat1d_spec V). Qed.
Print Assumptions C02_repeat1d.

Theorem C02_tile :
  forall (V : Type) (vzero : V) (vadd : V -> V -> V) (vscale : nat -> V -> V)
         (a da : ndarray V) (N R C : nat) (res : ndarray V),
  shape a = [R; C] -> tile_run vzero vadd vscale a da N res ->
  shape res = [N; R; C] /\
  forall i r c, i < N -> r < R -> c < C ->
    at_ res [i; r; c] = vadd (at_ a [r; c]) (vscale i (at_ da [r; c])).
Proof. exact (fun V => @tile_spec V). Qed.
Print Assumptions C02_tile.

Theorem C02_tile1d :
  forall (V : Type) (vzero : V) (vadd : V -> V -> V) (vscale : nat -> V -> V)
         (a da : ndarray V) (N M : nat) (res : ndarray V),
  shape a = [M] -> tile1d_run vzero vadd vscale a da N res ->
  shape res = [N * M] /\
  forall i k, i < N -> k < M ->
    at_ res [i * M + k] = vadd (at_ a [k]) (vscale i (at_ da [k])).
Proof. exact (fun V => @tile1d_spec V). Qed.
Print Assumptions C02_tile1d.

(** The entry (p, q) of the result belongs to block row p / R and block column
    q / C; it is an entry of [a] in the diagonal blocks and zero elsewhere. *)
Theorem C02_repeat_diagonal_2d :
  forall (V : Type) (vzero : V) (a : ndarray V) (N R C : nat) (res : ndarray V),
  shape a = [R; C] -> diag_run vzero a N res ->
  shape res = [R * N; C * N] /\
  (forall i r c, i < N -> r < R -> c < C -> at_ res [i * R + r; i * C + c] = at_ a [r; c]) /\
  (forall p q, p < R * N -> q < C * N -> p / R <> q / C -> at_ res [p; q] = vzero).
Proof. exact (fun V => @diag_spec V). Qed.
Print Assumptions C02_repeat_diagonal_2d.

(** No kernel writes outside its result array. *)
Theorem C02_writes_stay_inside :
  forall (V : Type) (vzero : V) (vadd : V -> V -> V) (vscale : nat -> V -> V)
         (a da : ndarray V) (N R C M : nat),
  (shape a = [R; C] ->
     writes_inside (repeat_init vzero a N) (repeat_its a N) /\
     writes_inside (tile_init vzero a da N) (tile_its vadd vscale a da N) /\
     writes_inside (diag_init vzero a N) (diag_its a N)) /\
  (shape a = [M] ->
     writes_inside (repeat1d_init vzero a N) (repeat1d_its a N) /\
     writes_inside (tile1d_init vzero a da N) (tile1d_its vadd vscale a da N)).
Proof.
  exact (fun V z p s a da N R C M => conj
    (fun H => conj (repeat_inside z a N R C H) (conj (tile_inside z p s a da N R C H) (diag_inside z a N R C H)))
    (fun H => conj (repeat1d_inside z a N M H) (tile1d_inside z p s a da N M H))).
Qed.
Print Assumptions C02_writes_stay_inside.

Example C02_example :
  let a := ND [2; 1] (fun c => match c with [i; _] => i + 7 | _ => 0 end) in
  exists res, diag_run 0 a 2 res /\
    map (fun p => map (fun q => at_ res [p; q]) [0; 1]) [0; 1; 2; 3] = [[7;0]; [8;0]; [0;7]; [0;8]].
Proof.
  cbn zeta. eexists. split.
  - eexists. split; [apply ParallelProofs.interleave_concat|reflexivity].
  - reflexivity.
Qed.

(** * C03: flatten2d *)
Theorem C03_flatten2d :
  forall (V : Type) (vzero : V) (a : ndarray V) (I J : nat), shape a = [I; J] ->
  exists c f,
    flatten2d vzero a OrderC = Some c /\ flatten2d vzero a OrderF = Some f /\
    shape c = [I * J] /\ shape f = [I * J] /\
    (forall i j, i < I -> j < J -> at_ c [i * J + j] = at_ a [i; j]) /\
    (forall i j, i < I -> j < J -> at_ f [j * I + i] = at_ a [i; j]) /\
    (exists ct, flatten2d vzero (transpose2 vzero a) OrderC = Some ct /\ nd_eq f ct).
Proof.
  exact (fun V z a I J H =>
    ex_intro _ (flatten2dC z a) (ex_intro _ (flatten2dF z a)
      (conj eq_refl (conj eq_refl
        (conj (proj1 (flattenC_spec z a I J H)) (conj (proj1 (flattenF_spec z a I J H))
          (conj (proj2 (flattenC_spec z a I J H)) (conj (proj2 (flattenF_spec z a I J H))
            (ex_intro _ _ (conj eq_refl (flattenF_transpose z a I J H)))))))))))
.
Qed.
Print Assumptions C03_flatten2d.

Example C03_example :
  let a := ND [2; 3] (fun c => match c with [i; j] => 10 * i + j | _ => 0 end) in
  map (fun k => at_ (flatten2dC 0 a) [k]) (range 6) = [0; 1; 2; 10; 11; 12] /\
  map (fun k => at_ (flatten2dF 0 a) [k]) (range 6) = [0; 10; 1; 11; 2; 12].
Proof. split; reflexivity. Qed.

(** * C04: clip1d *)
Theorem C04_clip1d :
  forall (F : ofield) (a : list F) (lo hi : F), (lo <= hi)%F ->
  length (clip1d a lo hi) = length a /\
  (forall i, i < length a ->
     let x := nth i a zero in let y := nth i (clip1d a lo hi) zero in
     (lo <= y <= hi)%F /\ ((lo <= x <= hi)%F -> y = x) /\
     ((x < lo)%F -> y = lo) /\ ((hi < x)%F -> y = hi)) /\
  clip1d (clip1d a lo hi) lo hi = clip1d a lo hi.
Proof. exact clip1d_spec. Qed.
Print Assumptions C04_clip1d.

Theorem C04_clip1d_wrong_order :
  forall (F : ofield) (a : list F) (lo hi : F), (hi < lo)%F ->
  clip1d a lo hi = map (fun _ => hi) a.
Proof. exact clip1d_wrong_order. Qed.
Print Assumptions C04_clip1d_wrong_order.

Example C04_example :
  map this (@clip1d Qc_ofield [of_int (-3); of_int 1; of_int 9] (of_int 0) (of_int 4))
  = map this [of_int 0; of_int 1; of_int 4].
Proof. reflexivity. Qed.

(** * C05: to_range_1d *)
Theorem C05_to_range_1d :
  forall (F : ofield) (s0 s1 t0 t1 : F), s0 <> s1 ->
  forall (vals : list F),
  let f := fun v => to_range_1d v (Some (s0, s1)) (Some (t0, t1)) in
  (* end points to end points, proportions kept *)
  f [s0; s1] = [t0; t1] /\
  (forall c, f [(s0 + c * (s1 - s0))%F] = [(t0 + c * (t1 - t0))%F]) /\
  (* mapping back *)
  (t0 <> t1 -> to_range_1d (f vals) (Some (t0, t1)) (Some (s0, s1)) = vals) /\
  (* interior to interior *)
  ((s0 < s1)%F -> (t0 <= t1)%F -> Forall (fun x => (s0 <= x <= s1)%F) vals ->
     Forall (fun y => (t0 <= y <= t1)%F) (f vals)) /\
  length (f vals) = length vals.
Proof.
  exact (fun F s0 s1 t0 t1 H vals => to_range_all F s0 s1 t0 t1 H vals).
Qed.
Print Assumptions C05_to_range_1d.

(** The default source interval is [0, 1], the default target interval [-1, 1]. *)
Theorem C05_defaults :
  forall (F : ofield) (s0 s1 t0 t1 c : F), s0 <> s1 ->
  to_range_1d [c] None None = [(c * two - 1)%F] /\
  to_range_1d [c] None (Some (t0, t1)) = [(t0 + c * (t1 - t0))%F] /\
  to_range_1d [(s0 + c * (s1 - s0))%F] (Some (s0, s1)) None = [(c * two - 1)%F].
Proof. exact to_range_defaults. Qed.
Print Assumptions C05_defaults.

(** The array computed by any schedule of the parallel loop is that list. *)
Theorem C05_to_range_1d_kernel :
  forall (F : ofield) (s0 s1 t0 t1 : F) (vals : list F) (res : ndarray F),
  map_run zero (to_range_elt s0 s1 t0 t1) vals res ->
  shape res = [length vals] /\
  forall i, i < length vals ->
    at_ res [i] = nth i (to_range_1d vals (Some (s0, s1)) (Some (t0, t1))) zero.
Proof. exact to_range_kernel. Qed.
Print Assumptions C05_to_range_1d_kernel.

(** Integer input: the result is truncated, an end point of the target interval
    is not reached. *)
Theorem C05_integer_input_truncated :
  exists (vals : list Z) (s0 s1 t0 t1 : Qc), s0 <> s1 /\ In s1 (map of_int vals) /\
    to_range_1d_int vals s0 s1 t0 t1 = [0; 2]%Z /\ t1 = Q2Qc (5 # 2).
Proof.
  exists [0; 1]%Z, (of_int 0), (of_int 1), (of_int 0), (Q2Qc (5 # 2)).
  split; [intros H; discriminate (f_equal this H)|].
  split; [right; left; reflexivity|split; reflexivity].
Qed.
Print Assumptions C05_integer_input_truncated.

Example C05_example :
  map this (@to_range_1d Qc_ofield [of_int 1; of_int 2; of_int 4]
              (Some (of_int 0, of_int 4)) None)
  = map this [Q2Qc (-1 # 2); of_int 0; of_int 1].
Proof. reflexivity. Qed.

(** * C06: atleastnd and matrixform *)
Theorem C06_atleastnd :
  forall (V : Type) (x : numlike V) (n : nat) (front back : bool),
  let a := as_array x in
  let b := atleastnd x n front back in
  let k := n - length (fshape a) in
  length (fshape b) = Nat.max n (length (fshape a)) /\
  fdata b = fdata a /\
  (front = true -> back = false ->
     fshape b = repeat 1 k ++ fshape a /\
     forall idx, length idx = length (fshape a) -> fget b (repeat 0 k ++ idx) = fget a idx) /\
  (~ (front = true /\ back = false) ->
     fshape b = fshape a ++ repeat 1 k /\
     forall idx, length idx = length (fshape a) -> fget b (idx ++ repeat 0 k) = fget a idx).
Proof. exact @atleastnd_spec. Qed.
Print Assumptions C06_atleastnd.

Theorem C06_matrixform :
  forall (V : Type) (x : numlike V),
  let a := as_array x in
  (forall n, fshape a = [n] ->
     exists b, matrixform x = Ok b /\ fshape b = [n; 1] /\ fdata b = fdata a /\
               forall i, fget b [i; 0] = fget a [i]) /\
  (length (fshape a) = 2 -> matrixform x = Ok a) /\
  (2 < length (fshape a) -> matrixform x = Err AssertionError).
Proof. exact @matrixform_spec. Qed.
Print Assumptions C06_matrixform.

Example C06_example :
  let a := Arr (FND [2; 2] [1; 2; 3; 4]) in
  fshape (atleastnd a 4 true false) = [1; 1; 2; 2] /\
  fshape (atleastnd a 3 false true) = [2; 2; 1] /\
  fget (atleastnd a 4 true false) [0; 0; 1; 0] = Some 3 /\
  matrixform (Arr (FND [3] [1; 2; 3])) = Ok (FND [3; 1] [1; 2; 3]).
Proof. repeat split. Qed.

(** * C07: find1d and find2d *)
Theorem C07_find1d :
  forall (V : Type) (eqv : V -> V -> bool), (forall x y, eqv x y = true <-> x = y) ->
  forall (arr space : list V) (res : ndarray (option nat)),
  find1d_run eqv arr space res ->
  (forall x, In x arr -> In x space) ->
  shape res = [length arr] /\
  forall i x, nth_error arr i = Some x ->
    exists k, at_ res [i] = Some k /\ nth_error space k = Some x /\
              (forall k', k' < k -> nth_error space k' <> Some x) /\
              (NoDup space -> forall k', nth_error space k' = Some x -> k' = k).
Proof. exact @find1d_lookup. Qed.
Print Assumptions C07_find1d.

Theorem C07_find2d :
  forall (V : Type) (eqv : V -> V -> bool), (forall x y, eqv x y = true <-> x = y) ->
  forall (arr : list (list V)) (ncol : nat) (space : list V) (res : ndarray (option nat)),
  find2d_run eqv arr ncol space res ->
  (forall row x, In row arr -> In x row -> In x space) ->
  shape res = [length arr; ncol] /\
  forall i j row x, nth_error arr i = Some row -> nth_error row j = Some x ->
    exists k, at_ res [i; j] = Some k /\ nth_error space k = Some x /\
              (forall k', k' < k -> nth_error space k' <> Some x) /\
              (NoDup space -> forall k', nth_error space k' = Some x -> k' = k).
Proof. exact (fun V eqv H arr ncol space res => find2d_total eqv H arr ncol space res). Qed.
Print Assumptions C07_find2d.

(** A missing value: element 0 of an empty array is read, whatever is there is
    returned as the index. *)
Theorem C07_missing_value_unchecked :
  forall (V : Type) (eqv : V -> V -> bool), (forall x y, eqv x y = true <-> x = y) ->
  forall (arr space : list V) (res : ndarray (option nat)) i x,
  find1d_run eqv arr space res -> nth_error arr i = Some x ->
  (at_ res [i] = None <-> ~ In x space).
Proof.
  exact (fun V eqv H arr space res i x R X => proj2 (proj2 (find1d_spec eqv H arr space res R) i x X)).
Qed.
Print Assumptions C07_missing_value_unchecked.

Example C07_example :
  map (fun x => first_index Nat.eqb x [4; 7; 9; 7]) [9; 4; 7; 5] = [Some 2; Some 0; Some 1; None].
Proof. reflexivity. Qed.

(** * C09: indices_of_equal_rows *)
Theorem C09_float_rows_partial :
  forall (d : nat) (int_y : bool) (x y : list (list Qc_ofield)) (tol : Qc_ofield),
  Forall (fun r => length r = d) x -> Forall (fun r => length r = d) y ->
  exists l, indices_of_equal_rows false int_y d d x y tol = Ok l /\ StronglySorted row_lt l /\
    forall i j, In (i, j) l <->
      i < length x /\ j < length y /\ leb (l1_distance d (nth i x []) (nth j y [])) tol = true.
Proof. exact rows_float_l1. Qed.
Print Assumptions C09_float_rows_partial.

Theorem C09_integer_rows_partial :
  forall (d : nat) (x y : list (list Z)) (tol : Qc_ofield), length x <> length y ->
  Forall (fun r => length r = d) x -> Forall (fun r => length r = d) y ->
  exists l, indices_of_equal_rows true true d d (int_rows x) (int_rows y) tol = Ok l /\
    StronglySorted row_lt l /\
    forall i j, In (i, j) l <-> i < length x /\ j < length y /\ nth i x [] = nth j y [].
Proof. exact rows_int. Qed.
Print Assumptions C09_integer_rows_partial.

(** Integer arrays with equally many rows: only pairs (i, i) are reported. *)
Theorem C09_integer_square_partial :
  forall (d : nat) (x y : list (list Z)) (tol : Qc_ofield), length x = length y ->
  Forall (fun r => length r = d) x -> Forall (fun r => length r = d) y ->
  exists l, indices_of_equal_rows true true d d (int_rows x) (int_rows y) tol = Ok l /\
    forall i j, In (i, j) l <-> i = j /\ i < length x /\ nth i x [] = nth i y [].
Proof. exact rows_int_square. Qed.
Print Assumptions C09_integer_square_partial.

Theorem C09_integer_square_refuted :
  exists (x y : list (list Z)) l i j, indices_of_equal_rows true true 1 1 (int_rows x) (int_rows y) zero = Ok l /\
    i < length x /\ j < length y /\ nth i x [] = nth j y [] /\ ~ In (i, j) l.
Proof.
  exact (ex_intro _ [[1]; [2]]%Z (ex_intro _ [[2]; [3]]%Z (ex_intro _ [] (ex_intro _ 1 (ex_intro _ 0
    (conj eq_refl (conj (le_n _) (conj (le_S _ _ (le_n _)) (conj eq_refl (fun H => H)))))))))).
Qed.
Print Assumptions C09_integer_square_refuted.

(** An integer [x] compared with a float [y]: distances are truncated, 0 and 0.9
    are reported as equal. *)
Theorem C09_mixed_types_refuted :
  exists (x : list (list Z)) (y : list (list Qc_ofield)) (tol : Qc_ofield) l i j,
    indices_of_equal_rows true false 1 1 (int_rows x) y tol = Ok l /\ In (i, j) l /\
    leb (l1_distance 1 (nth i (int_rows x) []) (nth j y [])) tol = false.
Proof.
  exact (ex_intro _ [[0]]%Z (ex_intro _ [[Q2Qc (9 # 10)]] (ex_intro _ zero (ex_intro _ [(0, 0)]
    (ex_intro _ 0 (ex_intro _ 0 (conj eq_refl (conj (or_introl eq_refl) eq_refl)))))))).
Qed.
Print Assumptions C09_mixed_types_refuted.

Theorem C09_different_columns_rejected :
  forall ix iy dX dY x y tol, dX <> dY ->
  indices_of_equal_rows ix iy dX dY x y tol = Err AssertionError.
Proof. exact rows_reject. Qed.
Print Assumptions C09_different_columns_rejected.

Example C09_example :
  indices_of_equal_rows true true 2 2 (int_rows [[1; 2]; [3; 4]; [1; 2]]%Z) (int_rows [[1; 2]; [0; 0]]%Z) zero
    = Ok [(0, 0); (2, 0)] /\
  indices_of_equal_rows false false 1 1 [[Q2Qc (1 # 2)]; [of_int 3]] [[of_int 3]; [Q2Qc (2 # 3)]] (Q2Qc (1 # 5))
    = Ok [(0, 1); (1, 0)].
Proof. split; reflexivity. Qed.

(** * C10: count_cols_csr *)
(** Whatever the arrays, the last iteration reads outside [indptr], and one
    number too many is returned. *)
Theorem C10_count_cols_csr_out_of_bounds_refuted :
  forall (indptr : list nat) (indices : list Z), indptr <> [] ->
  length (count_cols_csr indptr indices) = length indptr /\
  nth_error (count_cols_csr indptr indices) (length indptr - 1) = Some None.
Proof. exact (fun p c H => conj (count_cols_csr_length p c) (count_cols_csr_oob p c H)). Qed.
Print Assumptions C10_count_cols_csr_out_of_bounds_refuted.

(** Even where it reads inside, the number is wrong: rows {0: [1,5,6], 1: [0]}. *)
Theorem C10_count_cols_csr_refuted :
  exists (indptr : list nat) (indices : list Z),
    indptr = [0; 3; 4] /\ length indices = 4 /\
    nth_error (count_cols_csr indptr indices) 0 = Some (Some (-1)%Z).
Proof. exact (ex_intro _ _ (ex_intro _ [1; 5; 6; 0]%Z (conj eq_refl (conj eq_refl eq_refl)))). Qed.
Print Assumptions C10_count_cols_csr_refuted.

(** The sibling [count_cols] for lists of rows is right. *)
Theorem C10_count_cols_partial :
  forall (V : Type) (arr : list (list V)) (res : ndarray nat), count_cols_run arr res ->
  shape res = [length arr] /\
  forall i row, nth_error arr i = Some row -> at_ res [i] = length row.
Proof. exact @count_cols_spec. Qed.
Print Assumptions C10_count_cols_partial.

(** * C64: linspace1d, linspace, bin_centers *)
Theorem C64_linspace1d :
  forall (F : ofield) (a b : F) (N : nat), 2 <= N ->
  exists l, linspace1d a b N = Ok l /\ length l = N /\
    nth 0 l zero = a /\ nth (N - 1) l zero = b /\
    forall i, i + 1 < N -> (nth (i + 1) l zero - nth i l zero)%F = ((b - a) / of_nat (N - 1))%F.
Proof. exact linspace1d_spec. Qed.
Print Assumptions C64_linspace1d.

Theorem C64_linspace_vectors :
  forall (F : ofield) (L : F) (p0 p1 : list F) (N : nat), 2 <= N -> L <> zero -> length p0 = length p1 ->
  exists l, linspace_nd L p0 p1 N = Ok l /\ length l = N /\
    nth 0 l [] = map Some p0 /\ nth (N - 1) l [] = map Some p1 /\
    forall i c, i < N -> c < length p0 ->
      nth_error (nth i l []) c =
        Some (Some (nth c p0 zero +
                    of_nat i * ((nth c p1 zero - nth c p0 zero) / of_nat (N - 1)))%F).
Proof. exact linspace_nd_spec. Qed.
Print Assumptions C64_linspace_vectors.

(** Equal end points: every interior point is NaN. *)
Theorem C64_linspace_equal_points_nan :
  forall (F : ofield) (p : list F) (N i : nat), 2 <= N -> 0 < i -> i < N - 1 ->
  exists l, linspace_nd zero p p N = Ok l /\ nth i l [] = map (fun _ => None) p.
Proof. exact linspace_nd_nan. Qed.
Print Assumptions C64_linspace_equal_points_nan.

Theorem C64_bin_centers :
  forall (F : ofield) (edges : list F),
  length (bin_centers edges) = length edges - 1 /\
  forall i, i + 1 < length edges ->
    let c := nth i (bin_centers edges) zero in
    let l := nth i edges zero in let r := nth (i + 1) edges zero in
    c = ((l + r) / two)%F /\ (c - l = r - c)%F /\ ((l < r)%F -> (l < c)%F /\ (c < r)%F).
Proof. exact bin_centers_spec. Qed.
Print Assumptions C64_bin_centers.

Example C64_example :
  match @linspace_nd Qc_ofield (of_int 5) [of_int 0; of_int 0] [of_int 3; of_int 4] 3 with
  | Ok l => map (map (option_map this)) l =
      map (map (fun q => Some (this q))) [[of_int 0; of_int 0]; [Q2Qc (3 # 2); of_int 2]; [of_int 3; of_int 4]]
  | Err _ => False
  end /\
  map this (@bin_centers Qc_ofield [of_int 0; of_int 1; of_int 4]) = map this [Q2Qc (1 # 2); Q2Qc (5 # 2)].
Proof. split; reflexivity. Qed.

(** * bool_to_float *)
Theorem C67_bool_to_float :
  forall (V : Type) (a : list bool) (vtrue vfalse : V),
  bool_to_float a vtrue vfalse = map (fun b : bool => if b then vtrue else vfalse) a.
Proof. exact @bool_to_float_spec. Qed.
Print Assumptions C67_bool_to_float.
