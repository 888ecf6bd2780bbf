(** Model of /repo/src/sigmaepsilon/math/linalg/sparse: utils.py, csr.py and
    jaggedarray.py. *)
From Verif Require Import Prelude OField.

(** [np.array(list)] indexed by a list of positions. *)
Fixpoint take {A} (l : list A) (inds : list nat) : result (list A) :=
  match inds with
  | [] => Ok []
  | i :: is => match nth_error l i with
               | None => Err IndexError
               | Some x => do r <- take l is ; Ok (x :: r)
               end
  end.

(** [np.where(cond)[0]] *)
Definition where1 (cond : nat -> bool) (n : nat) : list nat := filter cond (seq 0 n).

(** sparse/utils.py:8-10, [lower_spdata].  Simplification: arrays [rows] and
    [cols] of different lengths are rejected (NumPy would broadcast length 1). *)
Definition lower_spdata {A} (data : list A) (rows cols : list nat)
  : result (list A * list nat * list nat) :=
  if length rows =? length cols then
    let inds := where1 (fun k => nth k cols 0 <=? nth k rows 0) (length rows) in
    do d <- take data inds ; do r <- take rows inds ; do c <- take cols inds ; Ok (d, r, c)
  else Err ValueError.

(** sparse/utils.py:13-15, [upper_spdata]. *)
Definition upper_spdata {A} (data : list A) (rows cols : list nat)
  : result (list A * list nat * list nat) :=
  if length rows =? length cols then
    let inds := where1 (fun k => nth k rows 0 <=? nth k cols 0) (length rows) in
    do d <- take data inds ; do r <- take rows inds ; do c <- take cols inds ; Ok (d, r, c)
  else Err ValueError.

(** sparse/utils.py:18-24, [get_shape_sp].  [widths.max()] of an empty array
    raises ValueError.  (The loop over [prange] stores one cell per iteration.)
    Differences of a decreasing [indptr] would be negative in the code; the model
    uses truncated subtraction and the theorems assume a valid [indptr]. *)
Definition row_widths (indptr : list nat) : list nat :=
  map (fun i => nth (i + 1) indptr 0 - nth i indptr 0) (seq 0 (length indptr - 1)).
Definition max_of (l : list nat) : nat := fold_right Nat.max 0 l.
Definition get_shape_sp (indptr : list nat) : result (nat * nat) :=
  match row_widths indptr with
  | [] => Err ValueError
  | ws => Ok (length indptr - 1, max_of ws)
  end.

(** sparse/utils.py:36-48, [_jagged_to_csr_data_]: the two array builders.  The
    state is (c, indptr, indices). *)
Definition jagged_to_csr_data (counts : list nat) : list nat * list nat :=
  let st := fold_left (fun (st : nat * list nat * list (list nat)) n =>
                         let '(c, ptr, ind) := st in
                         (c + n, ptr ++ [c + n], ind ++ [seq 0 n]))
                      counts (0, [0], []) in
  let '(_, ptr, ind) := st in (concat ind, ptr).

Section Csr.
Context {F : ofield}.

(** csr.py: the four attributes. *)
Record csr := Csr { c_data : list F; c_indices : list nat; c_indptr : list nat; c_shape : nat * nat }.

(** The inputs of [csr_matrix.__init__]: a SciPy sparse matrix (given by the
    arrays of [data.tocsr()]), a 2d ndarray with [nC] columns, an ndarray of another
    rank, an awkward array, or the triple. *)
Inductive csr_input :=
| InScipy (data : list F) (indices indptr : list nat) (shape : nat * nat)
| InDense (nC : nat) (rows : list (list F))
| InOtherRank
| InAwkward (rows : list (list F))
| InTriple (data : list F) (indices indptr : list nat) (shape : option (nat * nat)).

(** csr.py:113-153, [csr_matrix.__init__].  The casts to float64 and int32 are the
    identity in the model. *)
Definition csr_matrix (x : csr_input) : result csr :=
  match x with
  | InScipy d i p s => Ok (Csr d i p s)
  | InDense nC rows =>
      Ok (Csr (concat rows)
              (concat (map (fun _ => seq 0 nC) rows))                  (* np.tile(np.arange(nC), nR) *)
              (map (fun k => k * nC) (seq 0 (length rows + 1)))
              (length rows, nC))
  | InOtherRank => Err AssertionError
  | InAwkward rows =>
      let '(indices, indptr) := jagged_to_csr_data (map (@length F) rows) in
      do s <- get_shape_sp indptr ; Ok (Csr (concat rows) indices indptr s)
  | InTriple d i p s =>
      do s' <- match s with None => get_shape_sp p | Some s' => Ok s' end ; Ok (Csr d i p s')
  end.

(** [a[lo:hi]] *)
Definition slice {A} (lo hi : nat) (l : list A) : list A := firstn (hi - lo) (skipn lo l).

(** csr.py:178-192, 194-204: [row] and [irow] (non-negative [i]). *)
Definition row (c : csr) (i : nat) : result (list F) :=
  match nth_error (c_indptr c) i, nth_error (c_indptr c) (i + 1) with
  | Some lo, Some hi => Ok (slice lo hi (c_data c))
  | _, _ => Err IndexError
  end.
Definition irow (c : csr) (i : nat) : result (list nat) :=
  match nth_error (c_indptr c) i, nth_error (c_indptr c) (i + 1) with
  | Some lo, Some hi => Ok (slice lo hi (c_indices c))
  | _, _ => Err IndexError
  end.

(** csr.py:168-176, [eye]. *)
Definition eye (N : nat) : result csr :=
  csr_matrix (InTriple (repeat one N) (seq 0 N) (seq 0 (N + 1)) (Some (N, N))).

(** csr.py:155-166, [to_numpy] = [to_scipy().toarray()].  SciPy checks the lengths
    of the arrays (ValueError); [toarray] adds every stored value to the cell of
    its row and column without checking the column: a column outside the shape is a
    write outside the row, reported as IndexError by the model. *)
Definition csr_entry (c : csr) (i j : nat) : F :=
  match row c i, irow c i with
  | Ok d, Ok k => suml (map snd (filter (fun kd : nat * F => fst kd =? j) (combine k d)))
  | _, _ => zero
  end.
Definition to_numpy (c : csr) : result (list (list F)) :=
  let '(nr, nc) := c_shape c in
  let p := c_indptr c in
  if negb ((length p =? nr + 1) && (nth 0 p 0 =? 0) && (length (c_indices c) =? length (c_data c))
           && (last p 0 <=? length (c_indices c)))
  then Err ValueError
  else if existsb (fun k => nc <=? k) (firstn (last p 0) (c_indices c))
  then Err IndexError
  else Ok (map (fun i => map (csr_entry c i) (seq 0 nc)) (seq 0 nr)).

(** ** JaggedArray *)

(** The wrapped object: a 2d ndarray with [nC] columns or an awkward array. *)
Inductive jagged := Np (nC : nat) (rows : list (list F)) | Ak (rows : list (list F)).
Definition rows_of (j : jagged) : list (list F) := match j with Np _ r => r | Ak r => r end.

(** [ak.unflatten(data, cuts)]: refuses negative counts and counts that do not add
    up to the length. *)
Fixpoint cut_rows {A} (widths : list nat) (l : list A) : list (list A) :=
  match widths with
  | [] => []
  | w :: ws => firstn w l :: cut_rows ws (skipn w l)
  end.
Definition sum_Z (l : list Z) : Z := fold_right Z.add 0%Z l.
Definition unflatten {A} (data : list A) (cuts : list Z) : result (list (list A)) :=
  if forallb (fun c => 0 <=? c)%Z cuts && (sum_Z cuts =? Z.of_nat (length data))%Z
  then Ok (cut_rows (map Z.to_nat cuts) data)
  else Err ValueError.

(** The inputs of the constructor: a 1d, 2d or higher ndarray, a list of lists
    (or an awkward array), or an iterable of another type. *)
Inductive jinput :=
| J1d (data : list F) | J2d (nC : nat) (rows : list (list F)) | JHigher
| JRows (rows : list (list F)) | JOther.

(** jaggedarray.py:30-75, [get_data] (with [fallback=False]).  Not modelled: lists
    of arrays, see [get_data_matrices]. *)
Definition get_data (x : jinput) (cuts : option (list Z)) : result jagged :=
  match x with
  | J1d data => match cuts with
                | None => Err AssertionError
                | Some c => do r <- unflatten data c ; Ok (Ak r)
                end
  | J2d nC rows => Ok (Np nC rows)
  | JHigher => Err AssertionError
  | JRows rows => Ok (Ak rows)
  | JOther => Err TypeError
  end.

(** jaggedarray.py:50-57, the fallback branch for a list of 2d arrays, given as
    (number of columns, rows). *)
Definition get_data_matrices (ms : list (nat * list (list F))) : result jagged :=
  do r <- unflatten (concat (map (fun m => concat (snd m)) ms))
                    (concat (map (fun m => repeat (Z.of_nat (fst m)) (length (snd m))) ms)) ;
  Ok (Ak r).

(** Number of different widths: [len(np.unique(count_cols(wrap)))]. *)
Definition n_widths (rows : list (list F)) : nat :=
  length (nodup Nat.eq_dec (map (@length F) rows)).

(** jaggedarray.py:143-159, [__init__]. *)
Definition jagged_array (x : jinput) (cuts : option (list Z)) (force_numpy : bool) : result jagged :=
  do w <- get_data x cuts ;
  match w with
  | Ak rows => if force_numpy && (n_widths rows =? 1)
               then Ok (Np (length (nth 0 rows [])) rows)
               else Ok w
  | Np _ _ => Ok w
  end.

(** jaggedarray.py:253-264: [widths], [size], [__len__]. *)
Definition widths (j : jagged) : list nat := map (@length F) (rows_of j).
Definition size (j : jagged) : nat := fold_right Nat.add 0 (widths j).
Definition jlen (j : jagged) : nat := length (rows_of j).

(** jaggedarray.py:246-251, [is_jagged]: [widths[0]] of an empty array raises. *)
Definition is_jagged (j : jagged) : result bool :=
  match widths j with
  | [] => Err IndexError
  | w0 :: _ => Ok (negb (forallb (fun w => w =? w0) (widths j)))
  end.

(** jaggedarray.py:266-281, [flatten(return_cuts)]. *)
Definition jflatten (j : jagged) : list F := concat (rows_of j).
Definition jflatten_cuts (j : jagged) : list nat * list F := (widths j, concat (rows_of j)).

(** jaggedarray.py:283-294, [shape]. *)
Inductive jshape := ShapeNp (n m : nat) | ShapeAk (n : nat) (ws : list nat).
Definition shape_of (j : jagged) : jshape :=
  match j with Np nC r => ShapeNp (length r) nC | Ak r => ShapeAk (length r) (widths j) end.

(** jaggedarray.py:179-187, 212-220: [to_csr] and [to_numpy]. *)
Definition to_csr (j : jagged) : result csr :=
  match j with Np nC r => csr_matrix (InDense nC r) | Ak r => csr_matrix (InAwkward r) end.
Definition jto_numpy (j : jagged) : result (list (list F)) :=
  match j with Np _ r => Ok r | Ak _ => do c <- to_csr j ; to_numpy c end.

(** jaggedarray.py:327-338, [np.vstack] and [np.concatenate] of JaggedArrays; the
    keyword arguments (such as [axis]) are not looked at. *)
Definition jstack (axis : option Z) (ts : list jagged) : result jagged :=
  match ts with
  | [] => Err ValueError
  | _ => jagged_array (J1d (concat (map jflatten ts)))
                      (Some (map Z.of_nat (concat (map widths ts)))) true
  end.

(** jaggedarray.py:296-306, [__array_function__] for [np.vstack]/[np.concatenate]:
    [None] stands for an argument that is not a JaggedArray. *)
Fixpoint all_some {A} (l : list (option A)) : option (list A) :=
  match l with
  | [] => Some []
  | None :: _ => None
  | Some x :: l' => option_map (cons x) (all_some l')
  end.
Definition np_stack (axis : option Z) (ts : list (option jagged)) : result jagged :=
  match all_some ts with
  | None => Err TypeError
  | Some js => jstack axis js
  end.
End Csr.
Arguments csr : clear implicits.  Arguments jagged : clear implicits.
Arguments jinput : clear implicits.  Arguments csr_input : clear implicits.
