(** Vocabulary for the statements about jagged arrays and CSR matrices. *)
From Verif Require Import Prelude OField SparseModel.

(** A wrapped 2d ndarray really has [nC] entries in every row. *)
Definition jagged_wf {F : ofield} (j : jagged F) : Prop :=
  match j with Np nC rows => Forall (fun r => length r = nC) rows | Ak _ => True end.

(** Sum of a list of numbers, largest element. *)
Definition total (l : list nat) : nat := fold_right Nat.add 0 l.
Definition is_max (l : list nat) (m : nat) : Prop := In m l /\ forall x, In x l -> x <= m.

(** A valid CSR triple with [n] rows. *)
Definition valid_csr {F : ofield} (n : nat) (data : list F) (indices indptr : list nat) : Prop :=
  length indptr = n + 1 /\ nth 0 indptr 0 = 0 /\
  (forall i, i < n -> nth i indptr 0 <= nth (i + 1) indptr 0) /\
  nth n indptr 0 = length data /\ length indices = length data.

(** The entries of a COO matrix as triples (value, row, column). *)
Definition triples {A} (t : list A * list nat * list nat) : list (A * nat * nat) :=
  let '(d, r, c) := t in combine (combine d r) c.
Definition t_row {A} (t : A * nat * nat) : nat := snd (fst t).
Definition t_col {A} (t : A * nat * nat) : nat := snd t.

(** [r'] is [r] followed by zeros up to length [m]. *)
Definition zero_padded {F : ofield} (r : list F) (m : nat) (r' : list F) : Prop :=
  length r' = m /\ forall k, k < m ->
    nth_error r' k = Some (match nth_error r k with Some x => x | None => zero end).
