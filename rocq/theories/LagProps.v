(** Property C55 about the Lagrange functions. *)
Set Warnings "-ambiguous-paths".
From Coq Require Import Reals QArith Qcanon.
From Coquelicot Require Import Coquelicot.
From Verif Require Import Prelude OField OFieldR Inverse LagModel LagSpec LagProofs LagDeriv.
Local Open Scope nat_scope.

(** ** C55 *)

(** For two or more distinct nodes and distinct indices, one per node (1, ..., N unless
    they are given), the dictionary has the indices as its keys, and the functions under
    them are the Lagrange basis of the nodes. *)
Theorem C55_basis_partial (F : ofield) inv (xs : list F) (i : option (list Z)) (n : option nat) :
  inv_ok ValueError inv ->
  2 <= length xs -> (n = None \/ n = Some (length xs)) -> NoDup xs ->
  NoDup (indices_of (length xs) i) -> length (indices_of (length xs) i) = length xs ->
  exists d phi, gen_Lagrange_1d inv (Some xs) i n = Ok d /\ lagrange_basis xs phi /\
    map fst d = indices_of (length xs) i /\
    (forall l, l < length xs -> dget (nth l (indices_of (length xs) i) 0%Z) d = Some (entry_of (phi l))).
Proof. exact (gen_ok inv xs i n). Qed.
Print Assumptions C55_basis_partial.

(** Without nodes: the equidistant nodes between -1 and 1, which are distinct. *)
Theorem C55_default_nodes_partial (F : ofield) inv N : inv_ok ValueError inv -> 2 <= N ->
  NoDup (@linspace F N) /\ length (@linspace F N) = N /\ nth 0 (@linspace F N) 0%F = opp 1%F /\ nth (N - 1) (@linspace F N) 0%F = 1%F /\
  exists d phi, gen_Lagrange_1d inv (@None (list F)) None (Some N) = Ok d /\ lagrange_basis (linspace N) phi /\
    map fst d = map Z.of_nat (seq 1 N) /\
    (forall l, l < N -> dget (Z.of_nat (S l)) d = Some (entry_of (phi l))).
Proof. exact (gen_default_ok inv N). Qed.
Print Assumptions C55_default_nodes_partial.

(** The basis is unique, so these are the Lagrange polynomials. *)
Theorem C55_basis_unique (F : ofield) (xs : list F) phi psi : lagrange_basis xs phi -> lagrange_basis xs psi ->
  forall i, i < length xs -> forall x, value (phi i) x = value (psi i) x.
Proof. exact (basis_unique xs phi psi). Qed.
Print Assumptions C55_basis_unique.

(** The entries 1, 2 and 3 are the first, second and third derivatives of the entry 0,
    whatever the arguments of a call that returned. *)
Theorem C55_derivatives inv x i n (d : dict R_ofield) : gen_Lagrange_1d inv x i n = Ok d ->
  forall k e, dget k d = Some e -> forall t : R,
    is_derive (value (d0 e) : R -> R) t (value (d1 e) t : R) /\
    is_derive (value (d1 e) : R -> R) t (value (d2 e) t : R) /\
    is_derive (value (d2 e) : R -> R) t (value (d3 e) t : R).
Proof. exact (gen_derivatives inv x i n d). Qed.
Print Assumptions C55_derivatives.

(** The approximation is the polynomial of degree less than the number of points that
    passes through the data. *)
Theorem C55_approximation_partial (F : ofield) inv (points values : list F) : inv_ok ValueError inv ->
  2 <= length points -> length points = length values -> NoDup points ->
  exists p, approx_Lagrange_1d inv points values = Ok p /\ length p <= length points /\
    (forall j, j < length points -> value p (nth j points 0%F) = nth j values 0%F) /\
    (forall q : poly F, length q <= length points ->
       (forall j, j < length points -> value q (nth j points 0%F) = nth j values 0%F) ->
       forall x, value p x = value q x).
Proof. exact (approx_ok inv points values). Qed.
Print Assumptions C55_approximation_partial.

(** Repeated nodes are refused, and so are lists of different lengths. *)
Theorem C55_repeated_nodes (F : ofield) inv (xs : list F) (i : option (list Z)) : inv_ok ValueError inv ->
  2 <= length xs -> length xs <= length (indices_of (length xs) i) -> ~ NoDup xs ->
  gen_Lagrange_1d inv (Some xs) i None = Err ValueError.
Proof. exact (gen_repeated inv xs i). Qed.
Print Assumptions C55_repeated_nodes.
Theorem C55_lengths (F : ofield) inv (points values : list F) : length points <> length values ->
  approx_Lagrange_1d inv points values = Err AssertionError.
Proof. exact (approx_length inv points values). Qed.
Print Assumptions C55_lengths.

(** A single node has a Lagrange basis (the constant one), but the call raises. *)
Theorem C55_single_node_refuted :
  exists (xs : list Qc_ofield) inv, inv_ok ValueError inv /\ NoDup xs /\
    (exists phi, lagrange_basis xs phi) /\
    gen_Lagrange_1d inv (Some xs) None None = Err TypeError /\
    approx_Lagrange_1d inv xs xs = Err TypeError.
Proof. exact single_node. Qed.
Print Assumptions C55_single_node_refuted.

(** Example: the nodes -1, 0 and 1. *)
Definition q (z : Z) : Qc_ofield := Q2Qc (inject_Z z).
Example ex_nodes : NoDup [q (-1); q 0; q 1].
Proof.
  repeat constructor; cbn; intros H; repeat destruct H as [H|H]; try contradiction;
    apply (f_equal this) in H; discriminate H.
Qed.
Example ex_quadratic :
  match gen_Lagrange_1d (inv_with ValueError) (Some [q (-1); q 0; q 1]) None None with
  | Ok d => match dget 2 d with
            | Some e => map this (d0 e) = [1; 0; -1]%Q /\ map this (d1 e) = [0; -2]%Q /\
                        map this (d2 e) = [-2]%Q /\ map this (d3 e) = []
            | None => False
            end
  | Err _ => False
  end.
Proof. vm_compute. repeat split. Qed.
Example ex_approx :
  match approx_Lagrange_1d (inv_with ValueError) [q (-1); q 0; q 1] [q 4; q 1; q 0] with
  | Ok p => map this p = [1; -2; 1]%Q
  | Err _ => False
  end.
Proof. vm_compute. reflexivity. Qed.
