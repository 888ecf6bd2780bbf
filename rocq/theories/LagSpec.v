(** What it means to be the Lagrange basis of a list of nodes. *)
From Verif Require Import Prelude OField LagModel.

Section Spec.
Context {F : ofield}.
Local Open Scope of_scope.

(** The value of a polynomial (Horner). *)
Fixpoint value (p : poly F) (x : F) : F :=
  match p with [] => 0 | c :: p' => c + x * value p' x end.

(** [phi i], for the positions i of the nodes: polynomials of degree less than the number
    of nodes; one at their own node and zero at the others; their sum is one everywhere;
    a polynomial of degree less than the number of nodes is the combination of them with
    its values at the nodes. *)
Record lagrange_basis (nodes : list F) (phi : nat -> poly F) : Prop := {
  lb_degree : forall i, (i < length nodes)%nat -> (length (phi i) <= length nodes)%nat;
  lb_delta : forall i j, (i < length nodes)%nat -> (j < length nodes)%nat ->
    value (phi i) (nth j nodes 0) = if (i =? j)%nat then 1 else 0;
  lb_unity : forall x, sum (length nodes) (fun i => value (phi i) x) = 1;
  lb_reproduces : forall p : poly F, (length p <= length nodes)%nat ->
    forall x, sum (length nodes) (fun i => value p (nth i nodes 0) * value (phi i) x) = value p x }.
End Spec.
