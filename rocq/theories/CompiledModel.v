(** Model of [csr_matrix] objects (linalg/sparse/csr.py) with the memory of their arrays, of
    their use in code compiled by Numba, and of [row] and [irow] for all integers.

    Simplifications: the casts to float64 and int32 keep the numbers; reference counts are
    not modelled; a compiled function is one that returns its argument, reads a row or
    writes into a row. *)
From Verif Require Import Prelude OField SparseModel.
Local Open Scope nat_scope.

Section Compiled.
Context {F : ofield}.

(** [a[i]] for an integer [i]: negative ones count from the end. *)
Definition py_get {A} (l : list A) (i : Z) : result A :=
  let j := if (i <? 0)%Z then (i + Z.of_nat (length l))%Z else i in
  if (j <? 0)%Z then Err IndexError
  else match nth_error l (Z.to_nat j) with Some x => Ok x | None => Err IndexError end.

(** csr.py:178-192, [row], and 194-204, [irow], for every integer. *)
Definition row_z (c : csr F) (i : Z) : result (list F) :=
  do lo <- py_get (c_indptr c) i ; do hi <- py_get (c_indptr c) (i + 1) ; Ok (slice lo hi (c_data c)).
Definition irow_z (c : csr F) (i : Z) : result (list nat) :=
  do lo <- py_get (c_indptr c) i ; do hi <- py_get (c_indptr c) (i + 1) ; Ok (slice lo hi (c_indices c)).

(** Compiled code counts negative indices from the end too, but does not check the bounds:
    [junk i] is the number found at the place where element [i] would be. *)
Definition nb_get (junk : Z -> nat) (l : list nat) (i : Z) : nat :=
  let j := if (i <? 0)%Z then (i + Z.of_nat (length l))%Z else i in
  if (j <? 0)%Z then junk j
  else match nth_error l (Z.to_nat j) with Some x => x | None => junk j end.
(** csr.py:224-231 and 234-241, [row] and [irow] in compiled code. *)
Definition nb_row (junk : Z -> nat) (c : csr F) (i : Z) : list F :=
  slice (nb_get junk (c_indptr c) i) (nb_get junk (c_indptr c) (i + 1)) (c_data c).
Definition nb_irow (junk : Z -> nat) (c : csr F) (i : Z) : list nat :=
  slice (nb_get junk (c_indptr c) i) (nb_get junk (c_indptr c) (i + 1)) (c_indices c).

(** ** Memory *)

(** Arrays of numbers, arrays of integers, and the matrices: the numbers of their arrays and
    their shapes. *)
Record matrix := Mat { m_data : nat; m_indices : nat; m_indptr : nat; m_shape : nat * nat }.
Record memory := Mem { floats : list (list F); ints : list (list nat); mats : list matrix }.
Definition empty_memory : memory := Mem [] [] [].

(** What a matrix holds. *)
Definition contents_of (h : memory) (m : matrix) : option (csr F) :=
  match nth_error (floats h) (m_data m), nth_error (ints h) (m_indices m), nth_error (ints h) (m_indptr m) with
  | Some d, Some i, Some p => Some (Csr d i p (m_shape m))
  | _, _, _ => None
  end.
Definition contents (h : memory) (o : nat) : option (csr F) :=
  match nth_error (mats h) o with Some m => contents_of h m | None => None end.

(** A new matrix with arrays of its own. *)
Definition fresh (h : memory) (c : csr F) : memory * nat :=
  (Mem (floats h ++ [c_data c]) (ints h ++ [c_indices c; c_indptr c])
       (mats h ++ [Mat (length (floats h)) (length (ints h)) (length (ints h) + 1) (c_shape c)]),
   length (mats h)).

(** csr.py:113-153, the constructor: [astype], [flatten] and [np.array] make new arrays in
    all branches. *)
Definition construct (h : memory) (x : csr_input F) : result (memory * nat) :=
  do c <- csr_matrix x ; Ok (fresh h c).
(** The same with three existing arrays and a shape. *)
Definition construct_from (h : memory) (d i p : nat) (s : nat * nat) : result (memory * nat) :=
  match contents_of h (Mat d i p s) with
  | Some c => construct h (InTriple (c_data c) (c_indices c) (c_indptr c) (Some s))
  | None => Err TypeError
  end.

(** csr.py:270-285, [unbox_csr]: the structure of compiled code has the arrays of the
    object; 288-300, [box_csr]: the constructor is called with the four members. *)
Definition unbox (h : memory) (o : nat) : option matrix := nth_error (mats h) o.
Definition box (h : memory) (m : matrix) : result (memory * nat) :=
  construct_from h (m_data m) (m_indices m) (m_indptr m) (m_shape m).
(** A compiled function that returns its argument. *)
Definition through (h : memory) (o : nat) : result (memory * nat) :=
  match unbox h o with Some m => box h m | None => Err TypeError end.

(** csr.py:162-166, [to_scipy]: SciPy does not copy the three arrays. *)
Definition to_scipy (h : memory) (o : nat) : option matrix := nth_error (mats h) o.

(** Writing one element of an array of numbers. *)
Fixpoint set_at {X} (n : nat) (x : X) (l : list X) : list X :=
  match l, n with
  | [], _ => [] | _ :: l, O => x :: l | y :: l, S n => y :: set_at n x l
  end.
Definition write (h : memory) (r k : nat) (v : F) : result memory :=
  match nth_error (floats h) r with
  | Some l => if k <? length l then Ok (Mem (set_at r (set_at k v l) (floats h)) (ints h) (mats h)) else Err IndexError
  | None => Err IndexError
  end.
(** [m.row(i)[k] = v] for the [i]-th row: the row is a window into the array of numbers. *)
Definition write_row (h : memory) (m : matrix) (i k : nat) (v : F) : result memory :=
  match contents_of h m with
  | Some c =>
      match nth_error (c_indptr c) i, nth_error (c_indptr c) (i + 1) with
      | Some lo, Some hi => if k <? length (slice lo hi (c_data c)) then write h (m_data m) (lo + k) v else Err IndexError
      | _, _ => Err IndexError
      end
  | None => Err TypeError
  end.
Definition python_write (h : memory) (o i k : nat) (v : F) : result memory :=
  match nth_error (mats h) o with Some m => write_row h m i k v | None => Err TypeError end.
Definition compiled_write (h : memory) (o i k : nat) (v : F) : result memory :=
  match unbox h o with Some m => write_row h m i k v | None => Err TypeError end.

(** Statements of a program; [DoFloats] and [DoInts] make NumPy arrays. *)
Inductive command :=
| DoFloats (l : list F) | DoInts (l : list nat)
| DoConstruct (x : csr_input F) | DoConstructFrom (d i p : nat) (s : nat * nat) | DoThrough (o : nat)
| DoWrite (r k : nat) (v : F) | DoPythonWrite (o i k : nat) (v : F) | DoCompiledWrite (o i k : nat) (v : F).
Definition run1 (h : memory) (c : command) : memory :=
  let keep r := match r with Ok h => h | Err _ => h end in
  match c with
  | DoFloats l => Mem (floats h ++ [l]) (ints h) (mats h)
  | DoInts l => Mem (floats h) (ints h ++ [l]) (mats h)
  | DoConstruct x => keep (do (h, _) <- construct h x ; Ok h)
  | DoConstructFrom d i p s => keep (do (h, _) <- construct_from h d i p s ; Ok h)
  | DoThrough o => keep (do (h, _) <- through h o ; Ok h)
  | DoWrite r k v => keep (write h r k v)
  | DoPythonWrite o i k v => keep (python_write h o i k v)
  | DoCompiledWrite o i k v => keep (compiled_write h o i k v)
  end.
Definition run (p : list command) : memory := fold_left run1 p empty_memory.
End Compiled.
Arguments memory : clear implicits.
Arguments command : clear implicits.
