(** Properties C11-C16: jagged arrays and CSR matrices. *)
From Coq Require Import QArith Qcanon.
From Verif Require Import Prelude OField SparseModel SparseSpec SparseProofs.
Local Open Scope nat_scope.

(** Rational literals for the examples, compared as fractions. *)
Local Notation q l := (map (fun k : Z => Q2Qc (inject_Z k) : Qc_ofield) l).
Local Notation zz l := (map (map (fun k : Z => inject_Z k)) l).
Local Notation frac := (map (map this)).

(** C11.  Flat data and cuts round-trip. *)
Theorem C11_jagged_round_trip :
  forall (F : ofield) (data : list F) (cuts : list nat) (force_numpy : bool),
  total cuts = length data ->
  exists j, jagged_array (J1d data) (Some (map Z.of_nat cuts)) force_numpy = Ok j /\
    jflatten_cuts j = (cuts, data) /\ jflatten j = data /\
    widths j = cuts /\ jlen j = length cuts /\ size j = length data /\
    (forall i, i < length cuts ->
       nth_error (rows_of j) i = Some (firstn (nth i cuts 0) (skipn (total (firstn i cuts)) data))) /\
    (cuts <> [] -> exists b, is_jagged j = Ok b /\ (b = false <-> exists w, Forall (eq w) cuts)) /\
    (shape_of j = ShapeAk (length cuts) cuts \/
     exists w, Forall (eq w) cuts /\ shape_of j = ShapeNp (length cuts) w) /\
    jagged_wf j.
Proof. exact @jagged_from_cuts. Qed.
Print Assumptions C11_jagged_round_trip.

Theorem C11_bad_cuts_rejected :
  forall (F : ofield) (data : list F) (cuts : list Z) (force_numpy : bool),
  ~ (Forall (fun c => (0 <= c)%Z) cuts /\ sum_Z cuts = Z.of_nat (length data)) ->
  jagged_array (J1d data) (Some cuts) force_numpy = Err ValueError.
Proof. exact @bad_cuts. Qed.
Print Assumptions C11_bad_cuts_rejected.

Theorem C11_missing_cuts_rejected :
  forall (F : ofield) (data : list F) (force_numpy : bool),
  jagged_array (J1d data) None force_numpy = Err AssertionError.
Proof. exact (fun F data fn => eq_refl). Qed.
Print Assumptions C11_missing_cuts_rejected.

(** A list of matrices becomes the jagged array of all their rows. *)
Theorem C11_list_of_matrices :
  forall (F : ofield) (ms : list (nat * list (list F))),
  Forall (fun m => Forall (fun r => length r = fst m) (snd m)) ms ->
  get_data_matrices ms = Ok (Ak (concat (map snd ms))).
Proof. exact @get_data_matrices_ok. Qed.
Print Assumptions C11_list_of_matrices.

Example C11_example :
  match jagged_array (J1d (q [1; 2; 3; 4; 5; 6]%Z)) (Some [2; 0; 3; 1]%Z) true,
        jagged_array (J1d (q [1; 2; 3; 4; 5; 6]%Z)) (Some [3; 3]%Z) true with
  | Ok j, Ok (Np w k) => frac (rows_of j) = zz [[1; 2]; []; [3; 4; 5]; [6]]%Z /\ is_jagged j = Ok true /\
                  w = 3 /\ frac k = zz [[1; 2; 3]; [4; 5; 6]]%Z
  | _, _ => False
  end.
Proof. cbv. auto. Qed.

(** C12.  Jagged, CSR and dense forms hold the same entries. *)
Theorem C12_jagged_csr_dense :
  forall (F : ofield) (j : jagged F), jagged_wf j -> rows_of j <> [] ->
  exists c m dense, to_csr j = Ok c /\ is_max (widths j) m /\ c_shape c = (jlen j, m) /\
    (forall i r, nth_error (rows_of j) i = Some r -> row c i = Ok r /\ irow c i = Ok (seq 0 (length r))) /\
    jto_numpy j = Ok dense /\ to_numpy c = Ok dense /\
    Forall2 (fun r r' => zero_padded r m r') (rows_of j) dense.
Proof. exact @jagged_csr_ok. Qed.
Print Assumptions C12_jagged_csr_dense.

Example C12_example :
  match jto_numpy (Ak [q [1; 2]; []; q [3; 4; 5]]%Z) with
  | Ok m => frac m = zz [[1; 2; 0]; [0; 0; 0]; [3; 4; 5]]%Z
  | Err _ => False
  end.
Proof. reflexivity. Qed.

(** C13.  A CSR matrix built from a dense array or as an identity. *)
Theorem C13_dense_to_csr :
  forall (F : ofield) (nC : nat) (rows : list (list F)), Forall (fun r => length r = nC) rows ->
  exists c, csr_matrix (InDense nC rows) = Ok c /\ c_shape c = (length rows, nC) /\
    to_numpy c = Ok rows /\
    forall i r, nth_error rows i = Some r -> row c i = Ok r /\ irow c i = Ok (seq 0 nC).
Proof. exact @dense_csr_ok. Qed.
Print Assumptions C13_dense_to_csr.

Theorem C13_eye :
  forall (F : ofield) (N : nat), exists c, @eye F N = Ok c /\ c_shape c = (N, N) /\
  to_numpy c = Ok (map (fun i => map (fun j => if i =? j then one else zero) (seq 0 N)) (seq 0 N)) /\
  forall i, i < N -> row c i = Ok [one] /\ irow c i = Ok [i].
Proof. exact @eye_ok. Qed.
Print Assumptions C13_eye.

Example C13_example :
  match csr_matrix (InDense 2 [q [1; 0]; q [0; 3]; q [0; 0]]%Z) with
  | Ok c => irow c 2 = Ok [0; 1] /\
      match to_numpy c with Ok m => frac m = zz [[1; 0]; [0; 3]; [0; 0]]%Z | Err _ => False end
  | Err _ => False
  end.
Proof. split; reflexivity. Qed.

(** C14.  Shape inferred from the pointers.  The full statement - for every valid
    CSR triple the conversion succeeds - fails for the triple of [[0,0,0,0,0,1]]. *)
Theorem C14_inferred_shape_refuted :
  exists (data : list Qc_ofield) indices indptr, valid_csr 1 data indices indptr /\
    exists c, csr_matrix (InTriple data indices indptr None) = Ok c /\
      c_shape c = (1, 1) /\ indices = [5] /\ to_numpy c = Err IndexError.
Proof.
  exists [one], [5], [0; 1]. split.
  - unfold valid_csr. cbn. repeat split. intros i Hi. assert (i = 0) as -> by lia. cbn. lia.
  - eexists. repeat split.
Qed.
Print Assumptions C14_inferred_shape_refuted.

(** What the code guarantees: the right number of rows, the length of the longest
    row as the number of columns, and a conversion that succeeds exactly when all
    column indices are below that number. *)
Theorem C14_inferred_shape_partial :
  forall (F : ofield) n (data : list F) indices indptr, valid_csr n data indices indptr -> 0 < n ->
  exists m c, csr_matrix (InTriple data indices indptr None) = Ok c /\ c_shape c = (n, m) /\
    is_max (map (fun i => nth (i + 1) indptr 0 - nth i indptr 0) (seq 0 n)) m /\
    ((exists dense, to_numpy c = Ok dense) <-> Forall (fun k => k < m) indices).
Proof. exact @inferred_shape. Qed.
Print Assumptions C14_inferred_shape_partial.

Example C14_example : valid_csr 3 (q [1; 2; 3]%Z) [0; 1; 1] [0; 2; 2; 3].
Proof.
  unfold valid_csr. cbn. repeat split.
  intros i Hi. assert (i = 0 \/ i = 1 \/ i = 2) as [->|[->| ->]] by lia; cbn; lia.
Qed.

(** C15.  Lower and upper parts of a COO matrix. *)
Theorem C15_lower_spdata :
  forall A (data : list A) rows cols n,
  length data = n -> length rows = n -> length cols = n ->
  exists d r c, lower_spdata data rows cols = Ok (d, r, c) /\
    length d = length r /\ length c = length r /\
    triples (d, r, c) = filter (fun t => t_col t <=? t_row t) (triples (data, rows, cols)).
Proof. exact @lower_ok. Qed.
Print Assumptions C15_lower_spdata.

Theorem C15_upper_spdata :
  forall A (data : list A) rows cols n,
  length data = n -> length rows = n -> length cols = n ->
  exists d r c, upper_spdata data rows cols = Ok (d, r, c) /\
    length d = length r /\ length c = length r /\
    triples (d, r, c) = filter (fun t => t_row t <=? t_col t) (triples (data, rows, cols)).
Proof. exact @upper_ok. Qed.
Print Assumptions C15_upper_spdata.

Theorem C15_parts_cover_and_share_diagonal :
  forall A (data : list A) rows cols n L U,
  length data = n -> length rows = n -> length cols = n ->
  lower_spdata data rows cols = Ok L -> upper_spdata data rows cols = Ok U ->
  (forall t, In t (triples (data, rows, cols)) <-> In t (triples L) \/ In t (triples U)) /\
  (forall t, In t (triples L) /\ In t (triples U) <->
             In t (triples (data, rows, cols)) /\ t_row t = t_col t) /\
  length (triples L) + length (triples U) =
    n + length (filter (fun t => t_row t =? t_col t) (triples (data, rows, cols))).
Proof. exact @split_parts. Qed.
Print Assumptions C15_parts_cover_and_share_diagonal.

Example C15_example :
  lower_spdata [7; 8; 9]%Z [0; 1; 2] [1; 1; 0] = Ok ([8; 9]%Z, [1; 2], [1; 0]) /\
  upper_spdata [7; 8; 9]%Z [0; 1; 2] [1; 1; 0] = Ok ([7; 8]%Z, [0; 1], [1; 1]).
Proof. split; reflexivity. Qed.

(** C16.  np.vstack and np.concatenate append the rows, whatever [axis] says. *)
Theorem C16_stack_appends_rows :
  forall (F : ofield) (axis : option Z) (ts : list (jagged F)), ts <> [] ->
  exists j, np_stack axis (map Some ts) = Ok j /\ rows_of j = concat (map rows_of ts) /\ jagged_wf j.
Proof. exact @np_stack_ok. Qed.
Print Assumptions C16_stack_appends_rows.

Theorem C16_other_operands_rejected :
  forall (F : ofield) (axis : option Z) (ts : list (option (jagged F))), In None ts ->
  np_stack axis ts = Err TypeError.
Proof. exact @np_stack_type_error. Qed.
Print Assumptions C16_other_operands_rejected.

Example C16_example :
  match np_stack None (map Some [Np 2 [q [1; 2]%Z]; Ak [q [3]%Z; []]]) with
  | Ok (Ak r) => frac r = zz [[1; 2]; [3]; []]%Z
  | _ => False
  end.
Proof. reflexivity. Qed.
