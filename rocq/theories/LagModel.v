(** Model of gen_Lagrange_1d and approx_Lagrange_1d
    (/repo/src/sigmaepsilon/math/approx/lagrange.py).

    The expressions that SymPy builds here are polynomials in one variable; they are
    kept as their coefficients, from the constant term on.  [subs], [expand],
    [simplify], [factor] and [coeff] do not change the function that an expression
    denotes, and what they do to the coefficients is computed.  The inverse of a matrix
    is an argument ([A.inv()], exact, raising a ValueError for a singular matrix).
    Symbolic nodes are elements of a field like any other.  The LaTeX names, [lambdify]
    and a caller's own [out] dictionary are not modelled. *)
From Verif Require Import Prelude OField Inverse.
Local Open Scope nat_scope.

Section Lagrange.
Context {F : ofield}.

(** A polynomial: the coefficients from the constant term on. *)
Definition poly : Type := list F.
(** The sum and the product with a number. *)
Fixpoint padd (p q : poly) : poly :=
  match p, q with
  | [], _ => q
  | _, [] => p
  | a :: p', b :: q' => (a + b)%F :: padd p' q'
  end.
Definition pscale (a : F) (p : poly) : poly := map (fun c => (a * c)%F) p.
(** [fnc.diff(xvar)]: lagrange.py:21-22 *)
Fixpoint diff_from (m : nat) (p : poly) : poly :=
  match p with [] => [] | c :: p' => (of_nat m * c)%F :: diff_from (S m) p' end.
Definition diff (p : poly) : poly := diff_from 1 (tl p).

(** What is stored for an index under the keys 0, 1, 2 and 3. *)
Record entry : Type := Entry { d0 : poly; d1 : poly; d2 : poly; d3 : poly }.

(** A Python dictionary. *)
Definition dict : Type := list (Z * entry).
Fixpoint dset (k : Z) (v : entry) (d : dict) : dict :=
  match d with
  | [] => [(k, v)]
  | (k', v') :: t => if (k =? k')%Z then (k, v) :: t else (k', v') :: dset k v t
  end.
Fixpoint dget (k : Z) (d : dict) : option entry :=
  match d with
  | [] => None
  | (k', v') :: t => if (k =? k')%Z then Some v' else dget k t
  end.

(** [np.linspace(-1, 1, N)] *)
Definition linspace (N : nat) : list F :=
  map (fun j => (- (1) + (of_nat j * (1 + 1)) / of_nat (N - 1))%F) (seq 0 N).

(** [l[i]] for an index that is not negative *)
Definition item {A} (l : list A) (i : nat) : result A :=
  match nth_error l i with Some a => Ok a | None => Err IndexError end.
(** [sy.symbols(", ".join(names))], of which only the number of names matters here: no
    names are refused, a single name is a symbol and not a tuple.  The answer is whether
    the result can be iterated. *)
Definition symbols (n : nat) : result bool :=
  match n with O => Err ValueError | S O => Ok false | _ => Ok true end.
(** Iterating over it: [enumerate(coeffs)] raises for a single symbol. *)
Definition iterable (b : bool) : result unit := if b then Ok tt else Err TypeError.

Fixpoint mapM {A B} (f : A -> result B) (l : list A) : result (list B) :=
  match l with
  | [] => Ok []
  | a :: l' => do b <- f a ; do bs <- mapM f l' ; Ok (b :: bs)
  end.

(** The matrix A: entry (i, m) is the coefficient of c_m in the polynomial at the node i,
    that is the m-th power of the node.  lagrange.py:130-134 *)
Definition vandermonde (nodes : list F) : mat F := fun i m => pow (nth i nodes 0%F) m.

(** The coefficient of the variable of position i in the approximation
    [sum_m (sum_l invA[m, l] Delta_l) x^m].  Variables are named by their indices, so the
    positions that have the same index share one variable.  lagrange.py:128, 134-138 *)
Definition shape_fn (N : nat) (inds : list Z) (invA : mat F) (i : nat) : poly :=
  map (fun m => sum N (fun l => if (nth l inds 0 =? nth i inds 0)%Z then invA m l else 0%F)) (seq 0 N).

(** lagrange.py:25-162, with the arguments x, i and N *)
Definition gen_Lagrange_1d (inv : nat -> mat F -> result (mat F))
    (x : option (list F)) (i : option (list Z)) (N : option nat) : result dict :=
  do N <- match N with
    | Some N => Ok N
    | None => match x, i with
              | Some x, _ => Ok (length x)
              | None, Some i => Ok (length i)
              | None, None => Err AssertionError
              end
    end ;
  let inds := match i with None => map Z.of_nat (seq 1 N) | Some i => i end in
  do coeffs <- symbols N ;
  do _ <- mapM (item inds) (seq 0 N) ;
  do variables <- symbols N ;
  let x := match x with None => linspace N | Some x => x end in
  do _ <- iterable coeffs ;
  do nodes <- mapM (item x) (seq 0 N) ;
  do invA <- inv N (vandermonde nodes) ;
  let shp := map (shape_fn N inds invA) (seq 0 N) in
  let dshp1 := map diff shp in
  let dshp2 := map diff dshp1 in
  let dshp3 := map diff dshp2 in
  foldM (fun d '(i, ind) =>
           do a0 <- item shp i ; do a1 <- item dshp1 i ; do a2 <- item dshp2 i ; do a3 <- item dshp3 i ;
           Ok (dset ind (Entry a0 a1 a2 a3) d))
        (combine (seq 0 (length inds)) inds) [].

(** lagrange.py:165-227 with lambdify=False: the expression that is returned *)
Definition approx_Lagrange_1d (inv : nat -> mat F -> result (mat F)) (points values : list F) : result poly :=
  if negb (length points =? length values) then Err AssertionError else
  let indices := map Z.of_nat (seq 0 (length points)) in
  do basis <- gen_Lagrange_1d inv (Some points) (Some indices) None ;
  do shp0 <- mapM (fun i => match dget i basis with Some e => Ok (d0 e) | None => Err KeyError end) indices ;
  Ok (fold_left (fun acc '(a, f) => padd acc (pscale a f)) (combine values shp0) []).
End Lagrange.
Arguments poly : clear implicits.
Arguments entry : clear implicits.
Arguments dict : clear implicits.
