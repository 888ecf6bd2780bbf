(** Model of [transpose_axes] (linalg/utils.py) for arrays of any dimension. *)
From Verif Require Import Prelude ParallelModel.

Section Transpose.
Context {V : Type} (zero : V).

(** The place of [x] in a list. *)
Fixpoint place (x : nat) (l : list nat) : nat :=
  match l with [] => 0 | y :: l => if x =? y then 0 else S (place x l) end.

(** NumPy: [np.transpose(arr, axes)]; axis [k] of the result is axis [axes[k]] of [arr]. *)
Definition np_transpose (a : ndarray V) (axes : list nat) : ndarray V :=
  ND (map (fun p => nth p (shape a) 0) axes)
     (fun c => at_ a (map (fun x => nth (place x axes) c 0) (seq 0 (length (shape a))))).

(** utils.py:544-550, [_transpose_multi]: iteration [i] assigns [dcm[i].T], an array of
    [k] rows and [n] columns, to [res[i, :, :]], which has [n] rows and [k] columns; if the
    numbers differ the assignment raises (the class of the exception depends on Numba). *)
Definition transpose_multi_body (n k : nat) (a : ndarray V) (i : nat) : list (update V) :=
  flat_map (fun r => map (fun c => store [i; r; c] (at_ a [i; c; r])) (range k)) (range n).
Definition transpose_multi (N n k : nat) (a : ndarray V) (r : result (ndarray V)) : Prop :=
  if (N =? 0) || (n =? k)
  then exists res, prange_run (zeros zero [N; n; k]) (map (transpose_multi_body n k a) (range N)) res /\ r = Ok res
  else r = Err ValueError.

(** utils.py:553-565, [transpose_axes]; [transpose_axes a r]: [r] is a possible outcome. *)
Definition transpose_axes (a : ndarray V) (r : result (ndarray V)) : Prop :=
  match shape a with
  | [_; _] => r = Ok (np_transpose a [1; 0])
  | [N; n; k] => transpose_multi N n k a r
  | sh =>
      let indices := seq 0 (length sh) in
      let data_indices := firstn (length sh - 2) indices in
      let tensor_indices := skipn (length sh - 2) indices in
      r = Ok (np_transpose a (data_indices ++ rev tensor_indices))
  end.
End Transpose.
