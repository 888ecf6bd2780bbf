(** Model of the Gauss quadrature tables (/repo/src/sigmaepsilon/math/numint.py).

    [numpy.polynomial.legendre.leggauss] is an oracle argument: for an order it
    returns the two arrays of locations and weights, or raises.  Floats are an
    arbitrary ordered field. *)
From Verif Require Import Prelude OField.

Section Quad.
Context {F : ofield}.
Local Open Scope of_scope.

(** Arrays with two rows are the pair of their rows. *)
Definition table : Type := (list F * list F)%type.

(** What [gauss_points] returns: one array in one dimension, otherwise the array of
    the locations (a row for each) and that of the weights. *)
Inductive quadrature : Type :=
| Q1 (v : table)
| Qn (pos : list (list F)) (weight : list F).

(** [np.zeros] rejects negative dimensions. *)
Definition zeros {A} (z : A) (n : Z) : result (list A) :=
  if (n <? 0)%Z then Err ValueError else Ok (repeat z (Z.to_nat n)).

(** [a[g] = v] on an array. *)
Fixpoint store {A} (a : list A) (g : nat) (v : A) : result (list A) :=
  match a, g with
  | [], _ => Err IndexError
  | _ :: a', O => Ok (v :: a')
  | x :: a', S g' => do a'' <- store a' g' v ; Ok (x :: a'')
  end.

(** [v[r, :] = x] for a row of length n: numpy broadcasts an array of length 1. *)
Definition assign_row (n : nat) (x : list F) : result (list F) :=
  if (length x =? n)%nat then Ok x
  else match x with [a] => Ok (repeat a n) | _ => Err ValueError end.

Variable leggauss : Z -> result table.

(** numint.py:82-87 *)
Definition gauss_points_1d (n : Z) : result table :=
  do (x, w) <- leggauss n ;
  do _ <- zeros (zero : F) n ;
  do x' <- assign_row (Z.to_nat n) x ;
  do w' <- assign_row (Z.to_nat n) w ;
  Ok (x', w').

(** [np.nditer(quad, flags=["external_loop"], order="F")]: the columns of the array
    with two rows. *)
Definition columns (v : table) : list (F * F) := combine (fst v) (snd v).

(** The body of the loops: store the location and the weight at position g. *)
Definition put (st : list (list F) * list F * nat) (p : list F) (w : F)
  : result (list (list F) * list F * nat) :=
  let '(pos, weight, g) := st in
  do pos' <- store pos g p ;
  do weight' <- store weight g w ;
  Ok (pos', weight', S g).

(** numint.py:90-102 *)
Definition gauss_points_2d (n1 n2 : Z) : result quadrature :=
  let nGaus := (n1 * n2)%Z in
  do pos <- zeros [zero; zero] nGaus ;
  do weight <- zeros (zero : F) nGaus ;
  do quad1 <- gauss_points_1d n1 ;
  do quad2 <- gauss_points_1d n2 ;
  do (pos', weight', _) <- foldM (fun st gi =>
      foldM (fun st gj =>
          put st [fst gi; fst gj] (snd gi * snd gj))
        (columns quad2) st)
    (columns quad1) (pos, weight, O) ;
  Ok (Qn pos' weight').

(** numint.py:105-119 *)
Definition gauss_points_3d (n1 n2 n3 : Z) : result quadrature :=
  let nGaus := (n1 * n2 * n3)%Z in
  do pos <- zeros [zero; zero; zero] nGaus ;
  do weight <- zeros (zero : F) nGaus ;
  do quad1 <- gauss_points_1d n1 ;
  do quad2 <- gauss_points_1d n2 ;
  do quad3 <- gauss_points_1d n3 ;
  do (pos', weight', _) <- foldM (fun st gi =>
      foldM (fun st gj =>
          foldM (fun st gk =>
              put st [fst gi; fst gj; fst gk] (snd gi * snd gj * snd gk))
            (columns quad3) st)
        (columns quad2) st)
    (columns quad1) (pos, weight, O) ;
  Ok (Qn pos' weight').

(** numint.py:69-79 *)
Definition gauss_points (args : list Z) : result quadrature :=
  match args with
  | [n] => do v <- gauss_points_1d n ; Ok (Q1 v)
  | [n1; n2] => gauss_points_2d n1 n2
  | [n1; n2; n3] => gauss_points_3d n1 n2 n3
  | _ => Err NotImplementedError
  end.

End Quad.
Arguments table : clear implicits.
Arguments quadrature : clear implicits.
