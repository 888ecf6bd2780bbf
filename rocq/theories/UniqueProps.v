(** Property C08: unique2d. *)
From Verif Require Import Prelude ArraySpec UniqueModel UniqueSpec UniqueProofs.

(** Dense 2d arrays with [nC] columns; in particular no lookup fails and nothing
    is written outside the index arrays. *)
Theorem C08_unique2d_dense :
  forall (nC : nat) (data : list (list Z)) (return_index return_inverse return_counts : bool),
  Forall (fun row => length row = nC) data ->
  exists U ix iv ct,
    unique2d (Dense nC data) return_index return_inverse return_counts =
      Ok (outputs (Unique U) (IndexPairs ix) (Inverse iv) (Counts ct)
            return_index return_inverse return_counts) /\
    sorted_values data U /\ occurrence_counts data U ct /\ rebuilds data U iv /\
    lists_places (place_2d data) row_lt U ix.
Proof. exact unique_dense_ok. Qed.
Print Assumptions C08_unique2d_dense.

(** Jagged data; the index map holds positions in the flattened data. *)
Theorem C08_unique2d_jagged :
  forall (data : list (list Z)) (return_index return_inverse return_counts : bool),
  exists U ix iv ct,
    unique2d (Awkward 2 data) return_index return_inverse return_counts =
      Ok (outputs (Unique U) (IndexFlat ix) (Inverse iv) (Counts ct)
            return_index return_inverse return_counts) /\
    sorted_values data U /\ occurrence_counts data U ct /\ rebuilds data U iv /\
    lists_places (place_flat data) lt U ix.
Proof. exact unique_awkward_ok. Qed.
Print Assumptions C08_unique2d_jagged.

(** A JaggedArray is treated as the dense or awkward array it holds; anything
    without [is_jagged] is rejected, and so are awkward arrays of other rank. *)
Theorem C08_unique2d_dispatch :
  (forall nC data ri rv rc, unique2d (Jagged false nC data) ri rv rc = unique2d (Dense nC data) ri rv rc) /\
  (forall nC data ri rv rc, unique2d (Jagged true nC data) ri rv rc = unique2d (Awkward 2 data) ri rv rc) /\
  (forall ri rv rc, unique2d OtherInput ri rv rc = Err TypeError) /\
  (forall nd data ri rv rc, nd <> 2 -> unique2d (Awkward nd data) ri rv rc = Err AssertionError).
Proof.
  exact (conj (fun _ _ _ _ _ => eq_refl) (conj (fun _ _ _ _ _ => eq_refl) (conj (fun _ _ _ => eq_refl)
    (fun nd data ri rv rc H => awkward_reject nd data ri rv rc H)))).
Qed.
Print Assumptions C08_unique2d_dispatch.

Example C08_example :
  match unique2d (Dense 3 [[5; 2; 5]; [2; 7; 2]]%Z) true true true with
  | Ok (Many [Unique u; IndexPairs d; Inverse iv; Counts c]) =>
      u = [2; 5; 7]%Z /\ iv = [[1; 0; 1]; [0; 2; 0]] /\ c = [3; 2; 1] /\
      option_map (fun na => tolist (fst na) (snd na)) (dget d 2%Z) = Some [(0, 1); (1, 0); (1, 2)]
  | _ => False
  end /\
  match unique2d (Awkward 2 [[1; 2]; [1]; []; [2; 3]]%Z) true true false with
  | Ok (Many [Unique u; IndexFlat d; Inverse iv]) =>
      u = [1; 2; 3]%Z /\ iv = [[0; 1]; [0]; []; [1; 2]] /\
      option_map (fun na => tolist (fst na) (snd na)) (dget d 1%Z) = Some [0; 2]
  | _ => False
  end.
Proof. vm_compute. repeat split. Qed.
