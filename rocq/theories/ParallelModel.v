(** Model of numba's [prange] loops.

    A parallel loop is a list of iterations; each iteration is the list of the
    atomic element updates it performs, in program order.  An update reads and
    rewrites one array element ([res[cell] = f(res[cell])]; a plain store uses a
    constant [f]).  Numba may run the iterations in any order and on any number
    of threads, so an execution is an arbitrary interleaving of the iterations'
    update lists that keeps the program order inside every iteration.

    Simplification: an element update is atomic (numba's array element loads and
    stores of one machine word are not torn), and the values stored are computed
    from arrays that the loop does not write. *)
From Verif Require Import Prelude.

(** Array cells are multi-indices, [res[i, j, k]] is the cell [[i; j; k]]. *)
Definition cell := list nat.
Definition cell_dec : forall a b : cell, {a = b} + {a <> b} := list_eq_dec Nat.eq_dec.

Definition memory (V : Type) := cell -> V.

Record update (V : Type) := Upd { u_cell : cell; u_fun : V -> V }.
Arguments Upd {V}.  Arguments u_cell {V}.  Arguments u_fun {V}.

(** [res[c] = v] *)
Definition store {V} (c : cell) (v : V) : update V := Upd c (fun _ => v).

Definition step {V} (m : memory V) (u : update V) : memory V :=
  fun c => if cell_dec c (u_cell u) then u_fun u (m c) else m c.

Definition exec {V} (m : memory V) (tr : list (update V)) : memory V :=
  fold_left step tr m.

(** [interleave its tr]: [tr] performs all updates of all iterations [its],
    keeping the order inside each iteration. *)
Inductive interleave {A : Type} : list (list A) -> list A -> Prop :=
| il_done its : Forall (eq []) its -> interleave its []
| il_step pre x it post tr :
    interleave (pre ++ it :: post) tr ->
    interleave (pre ++ (x :: it) :: post) (x :: tr).

(** An n-dimensional array: its shape and the value of every cell (meaningful
    for the cells inside the shape only). *)
Record ndarray (V : Type) := ND { shape : list nat; at_ : memory V }.
Arguments ND {V}.  Arguments shape {V}.  Arguments at_ {V}.

Definition inside (sh : list nat) (c : cell) : Prop := Forall2 lt c sh.

(** Two arrays are equal when shapes agree and all cells inside agree. *)
Definition nd_eq {V} (a b : ndarray V) : Prop :=
  shape a = shape b /\ forall c, inside (shape a) c -> at_ a c = at_ b c.

(** [prange_run init its res]: [res] is a possible outcome of running the
    parallel loop with iterations [its] on the freshly allocated array [init]. *)
Definition prange_run {V} (init : ndarray V) (its : list (list (update V)))
           (res : ndarray V) : Prop :=
  exists tr, interleave its tr /\ res = ND (shape init) (exec (at_ init) tr).

(** [np.zeros(shape)] *)
Definition zeros {V} (zero : V) (sh : list nat) : ndarray V := ND sh (fun _ => zero).

(** [range(n)] *)
Definition range (n : nat) : list nat := seq 0 n.
