(** Vocabulary for the statements about collections of vectors and tensors. *)
From Verif Require Import Prelude OField ParallelModel KernModel CollModel.

Section Spec.
Context {F : ofield}.
Local Notation mat := (nat -> nat -> F).
Local Notation arr := (ndarray F).

(** The member of a collection at the position [p], a function of its multi-index. *)
Definition member (a : arr) (p : cell) : cell -> F := fun c => at_ a (p ++ c).

(** The rule of transformation for tensors of any rank: the component at [c] is the sum
    over all multi-indices [s] of Q[c1, s1] Q[c2, s2] ... T[s]. *)
Fixpoint weight (Q : mat) (c s : cell) : F :=
  match c, s with i :: c', j :: s' => mul (Q i j) (weight Q c' s') | _, _ => one end.
Definition rule (n : nat) (Q : mat) (T : cell -> F) (c : cell) : F :=
  suml (map (fun s => mul (weight Q c s) (T s)) (cells (repeat n (length c)))).

(** The array of matrices [Q] is one matrix for all members, or one matrix for every
    index of the first axis of the collection. *)
Definition one_matrix (n : nat) (Q : arr) : Prop := shape Q = [n; n].
Definition many_matrices (n : nat) (lead : list nat) (Q : arr) : Prop :=
  match lead with N :: _ => shape Q = [N; n; n] | [] => False end.
Definition matrix_for (Q : arr) (p : cell) : mat :=
  match shape Q with
  | [_; _] => fun i j => at_ Q [i; j]
  | _ => fun i j => at_ Q [hd 0 p; i; j]
  end.

(** [out] holds the transformed members of [a], a collection with leading axes [lead] of
    tensors with [r] axes of length [n]. *)
Definition member_wise (r : nat) (lead : list nat) (n : nat) (a Q out : arr) : Prop :=
  shape out = shape a /\
  forall p c, inside lead p -> inside (repeat n r) c ->
    member out p c = rule n (matrix_for Q p) (member a p) c.

(** What the user expects: the loop ends, and however it is scheduled the result is the
    array of the transformed members. *)
Definition transforms (r : nat) (lead : list nat) (n : nat) (o : object F) (Q : arr) : Prop :=
  (exists out, transform o Q out) /\
  forall out, transform o Q out -> exists res, out = Ok res /\ member_wise r lead n (o_arr o) Q res.

(** The matrices are given in one of the two ways. *)
Definition suited (n : nat) (lead : list nat) (Q : arr) : Prop := one_matrix n Q \/ many_matrices n lead Q.

(** The documented shapes of the components, by class: tensors of one size along all
    axes, with one leading axis for a collection ([bulk]) of Tensor2 and Tensor4, and any
    number of leading axes for Tensor2x3 and Tensor4x3.  There the flag may be left out. *)
Definition documented (c : cls) (sh : list nat) (bulk : option bool) : Prop :=
  match c with
  | Vector => True
  | Tensor => exists n r, sh = repeat n (S r)
  | Tensor2 => if flag bulk then exists N n, sh = N :: repeat n 2 else exists n, sh = repeat n 2
  | Tensor4 => if flag bulk then exists N n, sh = N :: repeat n 4 else exists n, sh = repeat n 4
  | Tensor2x3 => exists lead, sh = lead ++ repeat 3 2 /\
                   match bulk with None => True | Some true => lead <> [] | Some false => lead = [] end
  | Tensor4x3 => exists lead, sh = lead ++ repeat 3 4 /\
                   match bulk with None => True | Some true => lead <> [] | Some false => lead = [] end
  end.

(** Objects of the classes that find out themselves whether they are collections, and
    objects of the other classes created without [bulk=True]. *)
Definition plain (c : cls) (bulk : option bool) : Prop := c = Tensor2x3 \/ c = Tensor4x3 \/ flag bulk = false.

(** The object has more axes than a single tensor of its rank. *)
Definition is_collection (o : object F) : Prop := rank o < length (shape (o_arr o)).

(** [o'] is an object like [o], with the components [a]. *)
Definition alike (o o' : object F) (a : arr) : Prop :=
  o_arr o' = a /\ o_cls o' = o_cls o /\ o_frame o' = o_frame o /\ rank o' = rank o /\ is_bulk o' = is_bulk o.
End Spec.
