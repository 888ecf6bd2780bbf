(** Model of /repo/src/sigmaepsilon/math/arraysetops.py. *)
From Verif Require Import Prelude.

(** [np.unique] of an integer array: sorted, without repetitions (insertion into
    a sorted list). *)
Fixpoint insert_unique (x : Z) (l : list Z) : list Z :=
  match l with
  | [] => [x]
  | y :: l' => if (x <? y)%Z then x :: y :: l'
               else if (x =? y)%Z then y :: l'
               else y :: insert_unique x l'
  end.
Definition np_unique (l : list Z) : list Z := fold_right insert_unique [] l.

(** A typed dictionary with int64 keys, as an association list. *)
Definition dict (A : Type) := list (Z * A).
Fixpoint dget {A} (d : dict A) (k : Z) : option A :=
  match d with
  | [] => None
  | (k', v) :: d' => if (k =? k')%Z then Some v else dget d' k
  end.
Definition dset {A} (d : dict A) (k : Z) (v : A) : dict A :=
  (k, v) :: filter (fun kv => negb (fst kv =? k)%Z) d.

(** An array held in a dictionary: its length and its cells. *)
Definition arr (P : Type) := (nat * (nat -> P))%type.

Section Core.
Context {P : Type} (p0 : P).

(** arraysetops.py:132-134 (and 158-160): [imap[unique[i]] = i]. *)
Definition make_imap (unique : list Z) : dict nat :=
  fold_left (fun m i => dset m (nth i unique 0%Z) i) (seq 0 (length unique)) [].

(** arraysetops.py:135-137 (161-163), one iteration.  The state is
    (counts, inverse).  A missing key raises KeyError; the bounds check on
    [counts] is added by the model. *)
Definition pass1_step (imap : dict nat) (nU : nat) (flat : nat -> Z)
           (st : (nat -> nat) * (nat -> nat)) (i : nat) :=
  match dget imap (flat i) with
  | None => Err KeyError
  | Some k => if k <? nU
              then Ok (upd (fst st) k (fst st k + 1), upd (snd st) i k)
              else Err IndexError
  end.

(** arraysetops.py:138-140 (165-167): zero arrays of length [counts[i]]. *)
Definition make_indices (unique : list Z) (counts : nat -> nat) : dict (arr P) :=
  fold_left (fun d i => dset d (nth i unique 0%Z) (counts i, fun _ => p0))
            (seq 0 (length unique)) [].

(** arraysetops.py:142-145 (170-174), one iteration for the position number [f]
    in row-major order; [pos f] is what is stored: [f] itself for flat data, the
    pair (row, column) for 2d data (lines 172-173 write the two columns). *)
Definition pass2_step (unique : list Z) (inverse : nat -> nat) (pos : nat -> P)
           (st : dict (arr P) * (nat -> nat)) (f : nat) :=
  let '(indices, counts) := st in
  let i := inverse f in
  match nth_error unique i with
  | None => Err IndexError
  | Some u =>
      match dget indices u with
      | None => Err KeyError
      | Some (n, a) =>
          if counts i <? n
          then Ok (dset indices u (n, upd a (counts i) (pos f)), upd counts i (counts i + 1))
          else Err IndexError
      end
  end.

(** arraysetops.py:125-146 and 149-175. *)
Definition unique_core (flatdata : list Z) (pos : nat -> P)
  : result (list Z * list nat * list nat * dict (arr P)) :=
  let unique := np_unique flatdata in
  let nF := length flatdata in
  let nU := length unique in
  let imap := make_imap unique in
  do st <- foldM (pass1_step imap nU (fun i => nth i flatdata 0%Z)) (seq 0 nF) ((fun _ => 0), (fun _ => 0)) ;
  let '(counts, inverse) := st in
  let indices := make_indices unique counts in
  do st2 <- foldM (pass2_step unique inverse pos) (seq 0 nF) (indices, fun _ => 0) ;
  let '(indices, counts) := st2 in
  Ok (unique, tolist nU counts, tolist nF inverse, indices).
End Core.

(** [inverse.reshape(data.shape)] and [ak.unflatten(inverse, counts)]: cut a flat
    list into consecutive rows of the given widths. *)
Fixpoint cut_rows {A} (widths : list nat) (l : list A) : list (list A) :=
  match widths with
  | [] => []
  | w :: ws => firstn w l :: cut_rows ws (skipn w l)
  end.

(** The result of [unique2d]: one array, or a list of outputs. *)
Inductive output :=
| Unique (u : list Z)
| IndexPairs (d : dict (arr (nat * nat)))   (* dense input: (row, column) *)
| IndexFlat (d : dict (arr nat))            (* jagged input: position in the flattened data *)
| Inverse (inv : list (list nat))
| Counts (c : list nat).
Inductive unique_result := Bare (o : output) | Many (os : list output).

(** arraysetops.py:84-92, 97-106: assembling the outputs. *)
Definition assemble (unique : output) (index inverse counts : output)
           (return_index return_inverse return_counts : bool) : unique_result :=
  let res := [unique] ++ (if return_index then [index] else [])
             ++ (if return_inverse then [inverse] else [])
             ++ (if return_counts then [counts] else []) in
  if 1 <? length res then Many res else Bare unique.

(** arraysetops.py:149-175 with the flattening of utils.py:200-209: row-major. *)
Definition unique_dense (nC : nat) (data : list (list Z)) (ri rv rc : bool) : result unique_result :=
  do r <- unique_core (0, 0) (concat data) (fun f => (f / nC, f mod nC)) ;
  let '(unique, counts, inverse, indices) := r in
  Ok (assemble (Unique unique) (IndexPairs indices)
        (Inverse (cut_rows (map (fun _ => nC) data) inverse)) (Counts counts) ri rv rc).

(** arraysetops.py:94-106 for awkward arrays with two dimensions. *)
Definition unique_awkward (ndim : nat) (data : list (list Z)) (ri rv rc : bool) : result unique_result :=
  if ndim =? 2 then
    do r <- unique_core 0 (concat data) (fun f => f) ;
    let '(unique, counts, inverse, indices) := r in
    Ok (assemble (Unique unique) (IndexFlat indices)
          (Inverse (cut_rows (map (@length Z) data) inverse)) (Counts counts) ri rv rc)
  else Err AssertionError.

(** The inputs of [unique2d]: a 2d ndarray with [nC] columns, an awkward array,
    an object with [is_jagged] (a JaggedArray, given by its rows), anything else. *)
Inductive uinput :=
| Dense (nC : nat) (data : list (list Z))
| Awkward (ndim : nat) (data : list (list Z))
| Jagged (is_jagged : bool) (nC : nat) (data : list (list Z))
| OtherInput.

(** arraysetops.py:25-122, [unique2d]. *)
Definition unique2d (x : uinput) (return_index return_inverse return_counts : bool)
  : result unique_result :=
  match x with
  | Dense nC data => unique_dense nC data return_index return_inverse return_counts
  | Awkward nd data => unique_awkward nd data return_index return_inverse return_counts
  | Jagged isj nC data =>
      if negb isj then unique_dense nC data return_index return_inverse return_counts
      else unique_awkward 2 data return_index return_inverse return_counts
  | OtherInput => Err TypeError
  end.
