(** Model of the least squares fits of /repo/src/sigmaepsilon/math/approx: ls.py,
    ls_poly.py, ls_preproc.py, ls_approx.py and the weight functions of functions.py.

    Numbers are elements of an ordered field (no rounding).  A point is the list of its
    coordinates, in one dimension as well.  One-dimensional values are already reshaped to
    a column (ls.py:142-143).  Vectors and matrices are functions of the indices,
    [np.linalg.inv] is an argument.  The loops over the points that accumulate a matrix
    are sums in the order of the points. *)
From Verif Require Import Prelude OField Inverse.
Local Open Scope nat_scope.

Section LeastSquares.
Context {F : ofield}.
Local Open Scope of_scope.

(** [l[i]], and [l[i, j]] *)
Definition item {A} (l : list A) (i : nat) : result A :=
  match nth_error l i with Some a => Ok a | None => Err IndexError end.
Definition item2 {A} (l : list (list A)) (i j : nat) : result A := do r <- item l i ; item r j.
Fixpoint mapM {A B} (f : A -> result B) (l : list A) : result (list B) :=
  match l with
  | [] => Ok []
  | a :: l' => do b <- f a ; do bs <- mapM f l' ; Ok (b :: bs)
  end.

(** ** Weight functions *)

(** What the code uses of a weight function: the dimension, and the methods [value],
    [gradient] and [Hessian], which read the core of the object (the first argument). *)
Record weight : Type := Weight {
  w_dim : nat;
  w_f : list F -> list F -> result F;
  w_g : list F -> list F -> result (list F);
  w_G : list F -> list F -> result (list (list F)) }.

Definition coord (x : list F) (j : nat) : F := nth j x 0.
Definition zeros (n : nat) : list F := repeat 0 n.
Definition zeros2 (n m : nat) : list (list F) := repeat (zeros m) n.
Definition outside (core sd x : list F) : bool :=
  existsb (fun '(c, (s, y)) => 1 <? absf ((c - y) / s)) (combine core (combine sd x)).

(** functions.py:109-135 *)
Definition constant_weight (dim : nat) (value : F) (sd : option (list F)) : weight :=
  Weight dim
    (fun core x => match sd with
                   | None => Ok value
                   | Some sd => if outside core sd x then Ok 0 else Ok value
                   end)
    (fun _ _ => Ok (zeros dim))
    (fun _ _ => Ok (zeros2 dim dim)).

(** functions.py:138-156 *)
Definition singular_weight (dim : nat) (eps : F) : weight :=
  Weight dim
    (fun core x => Ok (1 / (sum (length core) (fun j => (coord core j - coord x j) * (coord core j - coord x j)) + eps * eps)))
    (fun _ _ => Ok (zeros dim))
    (fun _ _ => Ok (zeros2 dim dim)).

(** Numerals *)
Definition num (n : nat) : F := of_nat n.
(** 1e-12 *)
Definition tiny : F := 1 / pow (num 10) 12.

(** One direction of the cubic weight: the value and the first and second derivative.
    functions.py:181-202 and again 219-253 *)
Definition cubic_1d (dif dm : F) : F * F * F :=
  let r := absf dif / dm in
  let dr := if absf dif <? tiny then 0 else (dif / absf dif) / dm in
  if r <=? 1 / num 2 then
    (num 2 / num 3 - num 4 * (r * r) + num 4 * (r * r * r),
     (- num 8 * r + num 12 * (r * r)) * dr,
     (- num 8 + num 24 * r) * dr * dr)
  else if (1 / num 2 <? r) && (r <=? 1) then
    (num 4 / num 3 - num 4 * r + num 4 * (r * r) - num 4 / num 3 * (r * r * r),
     (- num 4 + num 8 * r - num 4 * (r * r)) * dr,
     (num 8 - num 8 * r) * dr * dr)
  else (0, 0, 0).

(** functions.py:172-259 *)
Definition cubic_evaluate (dim : nat) (sd core x : list F) : result (F * list F * list (list F)) :=
  match dim with
  | 1%nat =>
      let '(w, dw, ddw) := cubic_1d (coord core 0 - coord x 0) (coord sd 0) in
      Ok (w, [dw], [[ddw]])
  | 2%nat =>
      let '(wX, dwX, dwXX) := cubic_1d (coord core 0 - coord x 0) (coord sd 0) in
      let '(wY, dwY, dwYY) := cubic_1d (coord core 1 - coord x 1) (coord sd 1) in
      Ok (wX * wY, [wY * dwX; wX * dwY], [[wY * dwXX; dwX * dwY]; [dwX * dwY; wX * dwYY]])
  | _ => Err NotImplementedError
  end.
(** functions.py:261-274 *)
Definition cubic_weight (dim : nat) (sd : list F) : weight :=
  Weight dim
    (fun core x => do r <- cubic_evaluate dim sd core x ; Ok (fst (fst r)))
    (fun core x => do r <- cubic_evaluate dim sd core x ; Ok (snd (fst r)))
    (fun core x => do r <- cubic_evaluate dim sd core x ; Ok (snd r)).

(** ** The polynomial bases *)
Definition basis_fn : Type := list F -> list F.
Local Notation "2" := (num 2) : of_scope.

(** The functions that [_get_polynomial] returns, for one, two and three dimensions. *)
Definition poly1 : Type := basis_fn * basis_fn * basis_fn.
Definition poly2 : Type := basis_fn * basis_fn * basis_fn * basis_fn * basis_fn * basis_fn.
Definition poly3 : Type := basis_fn * basis_fn * basis_fn * basis_fn * basis_fn * basis_fn * basis_fn * basis_fn * basis_fn * basis_fn.

(** ls_poly.py:27-37 *)
Definition get_poly_1_1 : poly1 :=
  (fun x => [1; coord x 0], fun x => [0; 1], fun x => [0; 0]).
(** ls_poly.py:40-59 *)
Definition get_poly_1_2 : poly2 :=
  (fun x => [1; coord x 0; coord x 1], fun x => [0; 1; 0], fun x => [0; 0; 1],
   fun x => [0; 0; 0], fun x => [0; 0; 0], fun x => [0; 0; 0]).
(** ls_poly.py:62-93 *)
Definition get_poly_1_3 : poly3 :=
  (fun x => [1; coord x 0; coord x 1; coord x 2%nat],
   fun x => [0; 1; 0; 0], fun x => [0; 0; 1; 0], fun x => [0; 0; 0; 1],
   fun x => [0; 0; 0; 0], fun x => [0; 0; 0; 0], fun x => [0; 0; 0; 0],
   fun x => [0; 0; 0; 0], fun x => [0; 0; 0; 0], fun x => [0; 0; 0; 0]).
(** ls_poly.py:96-106 *)
Definition get_poly_2_1 : poly1 :=
  (fun x => [1; coord x 0; coord x 0 * coord x 0], fun x => [0; 1; 2 * coord x 0], fun x => [0; 0; 2]).
(** ls_poly.py:109-128 *)
Definition get_poly_2_2 : poly2 :=
  (fun x => [1; coord x 0; coord x 1; coord x 0 * coord x 0; coord x 1 * coord x 1; coord x 0 * coord x 1],
   fun x => [0; 1; 0; 2 * coord x 0; 0; coord x 1],
   fun x => [0; 0; 1; 0; 2 * coord x 1; coord x 0],
   fun x => [0; 0; 0; 2; 0; 0],
   fun x => [0; 0; 0; 0; 2; 0],
   fun x => [0; 0; 0; 0; 0; 1]).
(** ls_poly.py:131-175 *)
Definition get_poly_2_3 : poly3 :=
  (fun x => [1; coord x 0; coord x 1; coord x 2%nat; coord x 0 * coord x 0; coord x 1 * coord x 1;
             coord x 2%nat * coord x 2%nat; coord x 0 * coord x 1; coord x 0 * coord x 2%nat; coord x 1 * coord x 2%nat],
   fun x => [0; 1; 0; 0; 2 * coord x 0; 0; 0; coord x 1; coord x 2%nat; 0],
   fun x => [0; 0; 1; 0; 0; 2 * coord x 1; 0; coord x 0; 0; coord x 2%nat],
   fun x => [0; 0; 0; 1; 0; 0; 2 * coord x 2%nat; 0; coord x 0; coord x 1],
   fun x => [0; 0; 0; 0; 2; 0; 0; 0; 0; 0],
   fun x => [0; 0; 0; 0; 0; 2; 0; 0; 0; 0],
   fun x => [0; 0; 0; 0; 0; 0; 2; 0; 0; 0],
   fun x => [0; 0; 0; 0; 0; 0; 0; 1; 0; 0],
   fun x => [0; 0; 0; 0; 0; 0; 0; 0; 1; 0],
   fun x => [0; 0; 0; 0; 0; 0; 0; 0; 0; 1]).
(** ls_poly.py:4-24, split by the dimension *)
Definition get_polynomial_1 (deg : nat) : result poly1 :=
  match deg with 1%nat => Ok get_poly_1_1 | 2%nat => Ok get_poly_2_1 | _ => Err NotImplementedError end.
Definition get_polynomial_2 (deg : nat) : result poly2 :=
  match deg with 1%nat => Ok get_poly_1_2 | 2%nat => Ok get_poly_2_2 | _ => Err NotImplementedError end.
Definition get_polynomial_3 (deg : nat) : result poly3 :=
  match deg with 1%nat => Ok get_poly_1_3 | 2%nat => Ok get_poly_2_3 | _ => Err NotImplementedError end.

(** ** The matrices *)

(** The number of basis functions: ls_preproc.py:45 *)
Definition nbasis (deg dim : nat) : nat := fact (deg + dim) / fact deg / fact dim.

(** A vector of length k; other lengths do not fit the matrices. *)
Definition as_vec (k : nat) (l : list F) : result (vec F) :=
  if (length l =? k)%nat then Ok (fun r => nth r l 0) else Err ValueError.
Definition of_list (l : list F) : nat -> F := fun i => nth i l 0.

(** [A += outer(bi, bi) * c] and [B[:, i] += bi * c] over the points *)
Definition acc (n : nat) (b : nat -> vec F) (c : nat -> F) : mat F := fun r s => sum n (fun i => b i r * b i s * c i).
Definition col (b : nat -> vec F) (c : nat -> F) : mat F := fun r i => b i r * c i.

Section Preproc.
Variables (inv : nat -> mat F -> result (mat F)) (w : weight) (core : list F) (points values : list (list F)).
Let n := length points.

(** The basis at the points. *)
Definition b_at (k : nat) (b : basis_fn) : result (nat -> vec F) :=
  do bs <- mapM (fun xi => as_vec k (b xi)) points ; Ok (fun i => nth i bs (fun _ => 0)).
Definition weights : result (nat -> F) := do l <- mapM (w_f w core) points ; Ok (of_list l).
Definition gradients (j : nat) : result (nat -> F) :=
  do l <- mapM (fun xi => do gw <- w_g w core xi ; item gw j) points ; Ok (of_list l).
Definition hessians (j l : nat) : result (nat -> F) :=
  do l <- mapM (fun xi => do Gw <- w_G w core xi ; item2 Gw j l) points ; Ok (of_list l).
(** What is left as None when no derivative is asked for. *)
Definition when (c : bool) (m : result (nat -> F)) : result (option (nat -> F)) :=
  if c then do v <- m ; Ok (Some v) else Ok None.
Definition accs (b : nat -> vec F) (c : option (nat -> F)) : option (mat F) := match c with Some c => Some (acc n b c) | None => None end.
Definition cols (b : nat -> vec F) (c : option (nat -> F)) : option (mat F) := match c with Some c => Some (col b c) | None => None end.

Definition vmat : mat F := fun i r => nth r (nth i values []) 0.

(** ls_preproc.py:32-81 *)
Definition mls_preproc_1d (deg : nat) (b : basis_fn) (g H : bool) :=
  let k := nbasis deg 1 in
  do bi <- b_at k b ;
  do wi <- weights ;
  do gx <- when g (gradients 0) ;
  do Gxx <- when H (hessians 0 0) ;
  let A := acc n bi wi in
  do invA <- inv k A ;
  Ok (invA, vmat, col bi wi, accs bi gx, accs bi Gxx, cols bi gx, cols bi Gxx).

(** ls_preproc.py:84-145 *)
Definition mls_preproc_2d (deg : nat) (b : basis_fn) (g H : bool) :=
  let k := nbasis deg 2 in
  do bi <- b_at k b ;
  do wi <- weights ;
  do gx <- when g (gradients 0) ;
  do gy <- when g (gradients 1) ;
  do Gxx <- when H (hessians 0 0) ;
  do Gyy <- when H (hessians 1 1) ;
  do Gxy <- when H (hessians 0 1) ;
  let A := acc n bi wi in
  do invA <- inv k A ;
  Ok (invA, vmat, col bi wi, accs bi gx, accs bi gy, accs bi Gxx, accs bi Gyy, accs bi Gxy,
      cols bi gx, cols bi gy, cols bi Gxx, cols bi Gyy, cols bi Gxy).

(** ls_preproc.py:148-249 *)
Definition mls_preproc_3d (deg : nat) (b : basis_fn) (g H : bool) :=
  let k := nbasis deg 3 in
  do bi <- b_at k b ;
  do wi <- weights ;
  do gx <- when g (gradients 0) ;
  do gy <- when g (gradients 1) ;
  do gz <- when g (gradients 2) ;
  do Gxx <- when H (hessians 0 0) ;
  do Gyy <- when H (hessians 1 1) ;
  do Gzz <- when H (hessians 2 2) ;
  do Gxy <- when H (hessians 0 1) ;
  do Gxz <- when H (hessians 0 2) ;
  do Gyz <- when H (hessians 1 2) ;
  let A := acc n bi wi in
  do invA <- inv k A ;
  Ok (invA, vmat, col bi wi,
      accs bi gx, accs bi gy, accs bi gz, accs bi Gxx, accs bi Gyy, accs bi Gzz, accs bi Gxy, accs bi Gxz, accs bi Gyz,
      cols bi gx, cols bi gy, cols bi gz, cols bi Gxx, cols bi Gyy, cols bi Gzz, cols bi Gxy, cols bi Gxz, cols bi Gyz).

(** ** The values and derivatives at a point *)

Definition sub_ (u v : vec F) : vec F := fun i => u i - v i.
Definition add_ (u v : vec F) : vec F := fun i => u i + v i.
Definition twice_ (A : mat F) : mat F := fun i j => 2 * A i j.
Definition twice (v : vec F) : vec F := fun i => 2 * v i.
(** [gamma @ B] *)
Definition vm (k : nat) (v : vec F) (B : mat F) : vec F := fun i => sum k (fun r => v r * B r i).

(** The rows of the result: [SHP.T @ V] for the records *)
Definition records : nat := length (nth 0 values []).
Definition dot_V (V : mat F) (SHP : vec F) : list F := map (fun r => sum n (fun i => SHP i * V i r)) (seq 0 records).

(** ls_approx.py:214-222 *)
Definition mls_f k (gamma : vec F) (B V : mat F) : list F := dot_V V (vm k gamma B).
(** ls_approx.py:40, 89-90, 171-173 *)
Definition gamma_d k (invA : mat F) (bd : vec F) (Ad : mat F) (gamma : vec F) : vec F :=
  mv k invA (sub_ bd (mv k Ad gamma)).
(** ls_approx.py:225-273: one direction *)
Definition mls_g k (gamma gammad : vec F) (B Bd V : mat F) : list F :=
  dot_V V (add_ (vm k gammad B) (vm k gamma Bd)).
(** ls_approx.py:289-291, 317-318, 320-321, 363-365, 369-371: the second derivative in one direction *)
Definition mls_H k (invA : mat F) (bdd : vec F) (Ad Add : mat F) (gamma gammad : vec F) (B Bd Bdd V : mat F) : list F :=
  let gammadd := mv k invA (sub_ (sub_ bdd (mv k Add gamma)) (mv k (twice_ Ad) gammad)) in
  dot_V V (add_ (add_ (vm k gammadd B) (vm k (twice gammad) Bd)) (vm k gamma Bdd)).
(** ls_approx.py:319, 322, 366-368, 372-374: the mixed derivative in two directions *)
Definition mls_Hxy k (invA : mat F) (bdxy : vec F) (Adx Ady Adxy : mat F) (gamma gammadx gammady : vec F) (B Bdx Bdy Bdxy V : mat F) : list F :=
  let gammadxy := mv k invA (sub_ (sub_ (sub_ bdxy (mv k Adxy gamma)) (mv k Adx gammady)) (mv k Ady gammadx)) in
  dot_V V (add_ (add_ (add_ (vm k gammadxy B) (vm k gammadx Bdy)) (vm k gammady Bdx)) (vm k gamma Bdxy)).

(** The tuple that the fit function returns; None where nothing was computed. *)
Definition answer : Type := list (option (list F)).
(** A matrix that the code reads but that was never computed. *)
Definition need {A} (o : option A) : result A := match o with Some a => Ok a | None => Err TypeError end.

(** ls_approx.py:20-57 *)
Definition mls_approx_1d k (invA B : mat F) (b : vec F) (V : mat F) (Adx Adxx Bdx Bdxx : option (mat F)) (bdx bdxx : vec F) (g H : bool) : result answer :=
  let gamma := mv k invA b in
  let f := mls_f k gamma B V in
  if g then
    do Adx <- need Adx ; do Bdx <- need Bdx ;
    let gammadx := gamma_d k invA bdx Adx gamma in
    let fdx := mls_g k gamma gammadx B Bdx V in
    if H then
      do Adxx <- need Adxx ; do Bdxx <- need Bdxx ;
      Ok [Some f; Some fdx; Some (mls_H k invA bdxx Adx Adxx gamma gammadx B Bdx Bdxx V)]
    else Ok [Some f; Some fdx; None]
  else Ok [Some f; None; None].

(** ls_approx.py:60-116 *)
Definition mls_approx_2d k (invA B : mat F) (b : vec F) (V : mat F)
    (Adx Ady Adxx Adyy Adxy Bdx Bdy Bdxx Bdyy Bdxy : option (mat F)) (bdx bdy bdxx bdyy bdxy : vec F) (g H : bool) : result answer :=
  let gamma := mv k invA b in
  let f := mls_f k gamma B V in
  if g then
    do Adx <- need Adx ; do Ady <- need Ady ; do Bdx <- need Bdx ; do Bdy <- need Bdy ;
    let gammadx := gamma_d k invA bdx Adx gamma in
    let gammady := gamma_d k invA bdy Ady gamma in
    let fdx := mls_g k gamma gammadx B Bdx V in
    let fdy := mls_g k gamma gammady B Bdy V in
    if H then
      do Adxx <- need Adxx ; do Adyy <- need Adyy ; do Adxy <- need Adxy ;
      do Bdxx <- need Bdxx ; do Bdyy <- need Bdyy ; do Bdxy <- need Bdxy ;
      Ok [Some f; Some fdx; Some fdy;
          Some (mls_H k invA bdxx Adx Adxx gamma gammadx B Bdx Bdxx V);
          Some (mls_H k invA bdyy Ady Adyy gamma gammady B Bdy Bdyy V);
          Some (mls_Hxy k invA bdxy Adx Ady Adxy gamma gammadx gammady B Bdx Bdy Bdxy V)]
    else Ok [Some f; Some fdx; Some fdy; None; None; None]
  else Ok [Some f; None; None; None; None; None].

(** ls_approx.py:119-211 *)
Definition mls_approx_3d k (invA B : mat F) (b : vec F) (V : mat F)
    (Adx Ady Adz Adxx Adyy Adzz Adxy Adxz Adyz Bdx Bdy Bdz Bdxx Bdyy Bdzz Bdxy Bdxz Bdyz : option (mat F))
    (bdx bdy bdz bdxx bdyy bdzz bdxy bdxz bdyz : vec F) (g H : bool) : result answer :=
  let gamma := mv k invA b in
  let f := mls_f k gamma B V in
  if g then
    do Adx <- need Adx ; do Ady <- need Ady ; do Adz <- need Adz ;
    do Bdx <- need Bdx ; do Bdy <- need Bdy ; do Bdz <- need Bdz ;
    let gammadx := gamma_d k invA bdx Adx gamma in
    let gammady := gamma_d k invA bdy Ady gamma in
    let gammadz := gamma_d k invA bdz Adz gamma in
    let fdx := mls_g k gamma gammadx B Bdx V in
    let fdy := mls_g k gamma gammady B Bdy V in
    let fdz := mls_g k gamma gammadz B Bdz V in
    if H then
      do Adxx <- need Adxx ; do Adyy <- need Adyy ; do Adzz <- need Adzz ;
      do Adxy <- need Adxy ; do Adxz <- need Adxz ; do Adyz <- need Adyz ;
      do Bdxx <- need Bdxx ; do Bdyy <- need Bdyy ; do Bdzz <- need Bdzz ;
      do Bdxy <- need Bdxy ; do Bdxz <- need Bdxz ; do Bdyz <- need Bdyz ;
      Ok [Some f; Some fdx; Some fdy; Some fdz;
          Some (mls_H k invA bdxx Adx Adxx gamma gammadx B Bdx Bdxx V);
          Some (mls_H k invA bdyy Ady Adyy gamma gammady B Bdy Bdyy V);
          Some (mls_H k invA bdzz Adz Adzz gamma gammadz B Bdz Bdzz V);
          Some (mls_Hxy k invA bdxy Adx Ady Adxy gamma gammadx gammady B Bdx Bdy Bdxy V);
          Some (mls_Hxy k invA bdxz Adx Adz Adxz gamma gammadx gammadz B Bdx Bdz Bdxz V);
          Some (mls_Hxy k invA bdyz Ady Adz Adyz gamma gammady gammadz B Bdy Bdz Bdyz V)]
    else Ok [Some f; Some fdx; Some fdy; Some fdz; None; None; None; None; None; None]
  else Ok [Some f; None; None; None; None; None; None; None; None; None].

Definition fit : Type := list F -> result answer.

(** ls.py:174-198 *)
Definition wls_1d (deg : nat) (g H : bool) : result fit :=
  do (b, bdx, bdxx) <- get_polynomial_1 deg ;
  do (invA, V, B, Adx, Adxx, Bdx, Bdxx) <- mls_preproc_1d deg b g H ;
  let k := nbasis deg 1 in
  Ok (fun x =>
    do b <- as_vec k (b x) ; do bdx <- as_vec k (bdx x) ; do bdxx <- as_vec k (bdxx x) ;
    mls_approx_1d k invA B b V Adx Adxx Bdx Bdxx bdx bdxx g H).

(** ls.py:201-234 *)
Definition wls_2d (deg : nat) (g H : bool) : result fit :=
  do (b, bdx, bdy, bdxx, bdyy, bdxy) <- get_polynomial_2 deg ;
  do (invA, V, B, Adx, Ady, Adxx, Adyy, Adxy, Bdx, Bdy, Bdxx, Bdyy, Bdxy) <- mls_preproc_2d deg b g H ;
  let k := nbasis deg 2 in
  Ok (fun x =>
    do b <- as_vec k (b x) ; do bdx <- as_vec k (bdx x) ; do bdy <- as_vec k (bdy x) ;
    do bdxx <- as_vec k (bdxx x) ; do bdyy <- as_vec k (bdyy x) ; do bdxy <- as_vec k (bdxy x) ;
    mls_approx_2d k invA B b V Adx Ady Adxx Adyy Adxy Bdx Bdy Bdxx Bdyy Bdxy bdx bdy bdxx bdyy bdxy g H).

(** ls.py:237-302 *)
Definition wls_3d (deg : nat) (g H : bool) : result fit :=
  do (b, bdx, bdy, bdz, bdxx, bdyy, bdzz, bdxy, bdxz, bdyz) <- get_polynomial_3 deg ;
  do (invA, V, B, Adx, Ady, Adz, Adxx, Adyy, Adzz, Adxy, Adxz, Adyz,
      Bdx, Bdy, Bdz, Bdxx, Bdyy, Bdzz, Bdxy, Bdxz, Bdyz) <- mls_preproc_3d deg b g H ;
  let k := nbasis deg 3 in
  Ok (fun x =>
    do b <- as_vec k (b x) ; do bdx <- as_vec k (bdx x) ; do bdy <- as_vec k (bdy x) ; do bdz <- as_vec k (bdz x) ;
    do bdxx <- as_vec k (bdxx x) ; do bdyy <- as_vec k (bdyy x) ; do bdzz <- as_vec k (bdzz x) ;
    do bdxy <- as_vec k (bdxy x) ; do bdxz <- as_vec k (bdxz x) ; do bdyz <- as_vec k (bdyz x) ;
    mls_approx_3d k invA B b V Adx Ady Adz Adxx Adyy Adzz Adxy Adxz Adyz
      Bdx Bdy Bdz Bdxx Bdyy Bdzz Bdxy Bdxz Bdyz bdx bdy bdz bdxx bdyy bdzz bdxy bdxz bdyz g H).
End Preproc.

(** The array of the points: a flat array of numbers, or rows of [d] coordinates. *)
Inductive cloud : Type :=
| Flat (xs : list F)
| Rows (d : nat) (ps : list (list F)).
Definition cloud_dim (c : cloud) : nat := match c with Flat _ => 1 | Rows d _ => d end.
Definition cloud_points (c : cloud) : list (list F) := match c with Flat xs => map (fun x => [x]) xs | Rows _ ps => ps end.

(** ls.py:90-171.  [w] is None when the argument is not a weight function.  Rows with a
    single coordinate are arrays where the basis of one dimension wants numbers:
    [np.array([1, x])] (ls_poly.py:29, 98) raises. *)
Definition weighted_least_squares (inv : nat -> mat F -> result (mat F)) (points : cloud) (values : list (list F))
    (deg : nat) (order : Z) (w : option weight) (core : list F) : result fit :=
  if negb (length (cloud_points points) =? length values)%nat then Err ValueError else
  let dim := cloud_dim points in
  do w <- match w with
    | Some w => if (dim =? w_dim w)%nat then Ok w else Err AssertionError
    | None => Ok (constant_weight dim 1 None)
    end ;
  let hess := (1 <? order)%Z in
  let grad := if hess then true else (0 <? order)%Z in
  match dim with
  | 1%nat => match points with
             | Rows _ (_ :: _) => do _ <- get_polynomial_1 deg ; Err ValueError
             | _ => wls_1d inv w core (cloud_points points) values deg grad hess
             end
  | 2%nat => wls_2d inv w core (cloud_points points) values deg grad hess
  | 3%nat => wls_3d inv w core (cloud_points points) values deg grad hess
  | _ => Err NotImplementedError
  end.

(** ls.py:46-87 *)
Definition least_squares inv points values deg order : result fit :=
  weighted_least_squares inv points values deg order None [].

(** ls.py:14-43: the core of the weight function is moved to the point, and a new fit is
    made for every evaluation.  That the core of the caller's object stays there is not
    modelled. *)
Definition moving_least_squares inv points values deg order (w : option weight) : fit :=
  let w := match w with Some w => w | None => constant_weight (cloud_dim points) 1 None end in
  fun x =>
    do f <- weighted_least_squares inv points values deg order (Some w) x ;
    f x.
End LeastSquares.
Arguments weight : clear implicits.
Arguments cloud : clear implicits.
Arguments answer : clear implicits.
Arguments fit : clear implicits.
