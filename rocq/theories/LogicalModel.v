(** Model of isclose/allclose (/repo/src/sigmaepsilon/math/logical.py), of
    is_hermitian (/repo/src/sigmaepsilon/math/linalg/logical.py) and of
    k_nearest_neighbours (/repo/src/sigmaepsilon/math/knn.py).

    A float is an element of an ordered field, an infinity or a NaN; rounding is not
    modelled. *)
From Coq Require Import String.
From Verif Require Import Prelude OField.
Local Open Scope list_scope.

(** ** Floats with infinities and NaN *)
Section Float.
Context {F : ofield}.
Local Open Scope of_scope.

Inductive float : Type :=
| Fin (x : F)
| PInf
| NInf
| NaN.

Definition fneg (a : float) : float :=
  match a with Fin x => Fin (- x) | PInf => NInf | NInf => PInf | NaN => NaN end.
Definition fadd (a b : float) : float :=
  match a, b with
  | Fin x, Fin y => Fin (x + y)
  | NaN, _ | _, NaN => NaN
  | PInf, NInf | NInf, PInf => NaN
  | PInf, _ | _, PInf => PInf
  | NInf, _ | _, NInf => NInf
  end.
Definition fsub (a b : float) : float := fadd a (fneg b).
Definition fabs (a : float) : float :=
  match a with Fin x => Fin (absf x) | PInf | NInf => PInf | NaN => NaN end.
(** An infinity of the sign of x; the product with zero is NaN. *)
Definition finf (neg : bool) (x : F) : float :=
  if x =? 0 then NaN else if Bool.eqb neg (x <? 0) then PInf else NInf.
Definition fmul (a b : float) : float :=
  match a, b with
  | Fin x, Fin y => Fin (x * y)
  | NaN, _ | _, NaN => NaN
  | PInf, Fin x | Fin x, PInf => finf false x
  | NInf, Fin x | Fin x, NInf => finf true x
  | PInf, PInf | NInf, NInf => PInf
  | PInf, NInf | NInf, PInf => NInf
  end.
(** [a <= b]; false when one of them is NaN. *)
Definition fle (a b : float) : bool :=
  match a, b with
  | NaN, _ | _, NaN => false
  | Fin x, Fin y => x <=? y
  | NInf, _ | _, PInf => true
  | _, _ => false
  end.
(** [a > 0] *)
Definition fpos (a : float) : bool :=
  match a with Fin x => 0 <? x | PInf => true | _ => false end.
End Float.
Arguments float : clear implicits.

(** ** Arrays and broadcasting *)

(** An array is its shape and the function from the indices to the entries. *)
Record array (A : Type) : Type := Array { shape : list nat; get : list nat -> A }.
Arguments Array {A}. Arguments shape {A}. Arguments get {A}.

(** The shape of a broadcast, from the last axis to the first. *)
Fixpoint bcast_rev (s1 s2 : list nat) : option (list nat) :=
  match s1, s2 with
  | [], s => Some s
  | s, [] => Some s
  | a :: s1', b :: s2' =>
      match bcast_rev s1' s2' with
      | None => None
      | Some s => if a =? b then Some (a :: s)
                  else if a =? 1 then Some (b :: s)
                  else if b =? 1 then Some (a :: s)
                  else None
      end
  end.
Definition bcast (s1 s2 : list nat) : option (list nat) :=
  match bcast_rev (rev s1) (rev s2) with Some s => Some (rev s) | None => None end.

(** The entry of an array at an index of the broadcast shape: the leading axes that
    the array does not have are dropped, axes of length 1 are read at 0. *)
Fixpoint clip (s idx : list nat) : list nat :=
  match s, idx with
  | d :: s', i :: idx' => (if d =? 1 then 0 else i) :: clip s' idx'
  | _, _ => []
  end.
Definition bget {A} (a : array A) (idx : list nat) : A :=
  get a (clip (shape a) (skipn (length idx - length (shape a)) idx)).

(** A NumPy operator on two arrays. *)
Definition ufunc {A B C} (op : A -> B -> C) (a : array A) (b : array B) : result (array C) :=
  match bcast (shape a) (shape b) with
  | None => Err ValueError
  | Some s => Ok (Array s (fun idx => op (bget a idx) (bget b idx)))
  end.
(** A NumPy function on one array. *)
Definition amap {A B} (op : A -> B) (a : array A) : array B := Array (shape a) (fun idx => op (get a idx)).

(** The indices of a shape, in row-major order. *)
Fixpoint indices (s : list nat) : list (list nat) :=
  match s with
  | [] => [[]]
  | d :: s' => flat_map (fun i => map (cons i) (indices s')) (seq 0 d)
  end.

(** ** isclose and allclose *)
Section IsClose.
Context {F : ofield}.

(** A number that is not an array, or an array (lists become arrays in the same way). *)
Inductive arg : Type :=
| Number (x : float F)
| Nd (a : array (float F)).
(** utils.py:130, logical.py:142-145 *)
Definition atleast1d (x : arg) : array (float F) :=
  match x with Number v => Array [1] (fun _ => v) | Nd a => a end.

(** What is returned: a single boolean, or an array. *)
Inductive answer : Type :=
| One (b : bool)
| Many (a : array bool).

(** [assert c] *)
Definition assert_ (c : bool) : result unit := if c then Ok tt else Err AssertionError.

(** logical.py:102-160 *)
Definition isclose (x1 x2 : arg) (atol rtol : option (float F)) : result answer :=
  let x1 := atleast1d x1 in
  let x2 := atleast1d x2 in
  let c := Array (shape x1) (fun _ => true) in
  do _ <- assert_ (match atol, rtol with None, None => false | _, _ => true end) ;
  do c <- match atol with
    | None => Ok c
    | Some atol =>
        do _ <- assert_ (fpos atol) ;
        do d <- ufunc fsub x1 x2 ;
        let c_abs := amap (fun v => fle (fabs v) atol) d in
        ufunc andb c c_abs
    end ;
  do c <- match rtol with
    | None => Ok c
    | Some rtol =>
        do _ <- assert_ (fpos rtol) ;
        do d <- ufunc fsub x1 x2 ;
        do c_rel <- ufunc (fun v w => fle (fabs v) (fabs (fmul rtol w))) d x2 ;
        ufunc andb c c_rel
    end ;
  Ok (match shape c with
      | [n] => if n =? 1 then One (get c [0]) else Many c
      | _ => Many c
      end).

(** logical.py:163-172 *)
Definition allclose (x1 x2 : arg) (atol rtol : option (float F)) : result bool :=
  do r <- isclose x1 x2 atol rtol ;
  Ok (match r with
      | One b => b
      | Many c => forallb (get c) (indices (shape c))
      end).

End IsClose.
Arguments arg : clear implicits.

(** ** is_hermitian (linalg/logical.py:87-93): only the shape is used *)
Definition is_hermitian {A} (arr : array A) : result bool :=
  match shape arr with
  | [] => Err IndexError
  | s0 :: shp => Ok (forallb (fun s => s =? s0) shp)
  end.

(** ** k_nearest_neighbours *)
Section Knn.
Context {F : ofield} {Point : Type}.

(** Python values in a dictionary of options: a float, or something else. *)
Inductive value : Type :=
| VFloat (x : float F)
| VOther (n : nat).
(** A dictionary of keyword arguments. *)
Definition dict : Type := list (string * value).
Fixpoint lookup (k : string) (d : dict) : option value :=
  match d with
  | [] => None
  | (k', v) :: d' => if String.eqb k k' then Some v else lookup k d'
  end.
(** [d[k] = v] *)
Fixpoint setitem (k : string) (v : value) (d : dict) : dict :=
  match d with
  | [] => [(k, v)]
  | (k', v') :: d' => if String.eqb k k' then (k, v) :: d' else (k', v') :: setitem k v d'
  end.

Inductive backend : Type := Scipy | Sklearn | OtherBackend.

(** A row of the answer: the distance and the index of each neighbour. *)
Definition neighbours : Type := list (list (float F * nat)).

(** The libraries, as oracles.  A tree is built from the points, the leaf size and
    the options; a query gets the query points, k, (SciPy) the keyword [workers] if it
    is given, and the other keyword arguments. *)
Record libs : Type := Libs {
  scipy_version : nat * nat * nat;
  has_sklearn : bool;
  sp_tree : Type;
  sp_build : list Point -> nat -> dict -> result sp_tree;
  sp_query : sp_tree -> option (list Point) -> nat -> option Z -> dict -> result neighbours;
  sk_tree : Type;
  sk_build : list Point -> nat -> dict -> result sk_tree;
  sk_query : sk_tree -> option (list Point) -> nat -> dict -> result neighbours;
  sk_query_radius : sk_tree -> option (list Point) -> float F -> nat -> dict -> result neighbours
}.

(** [version.parse(v) < version.parse("1.6.0")] for released versions *)
Definition before_1_6 (v : nat * nat * nat) : bool :=
  let '(major, minor, _) := v in (major <? 1) || ((major =? 1) && (minor <? 6)).

(** knn.py:90-117.  The second component is the dictionary [query_kwargs] of the
    caller after the call ([None]: none was given).  The distances are kept in the
    result; [return_distance] only decides whether the caller gets to see them. *)
Definition k_nearest_neighbours (L : libs) (X : list Point) (Y : option (list Point)) (b : backend)
  (k : nat) (workers : Z) (tree_kwargs query_kwargs : option dict) (leaf_size : nat)
  (max_distance : option (float F)) : result neighbours * option dict :=
  let tk := match tree_kwargs with None => [] | Some d => d end in
  let qk := match query_kwargs with None => [] | Some d => d end in
  match b with
  | Scipy =>
      match sp_build L X leaf_size tk with
      | Err e => (Err e, query_kwargs)
      | Ok tree =>
          let max_distance := match max_distance with None => PInf | Some r => r end in
          let qk := setitem "distance_upper_bound" (VFloat max_distance) qk in
          let caller := match query_kwargs with None => None | Some _ => Some qk end in
          if before_1_6 (scipy_version L)
          then (sp_query L tree Y k None qk, caller)
          else (sp_query L tree Y k (Some workers) [], caller)
      end
  | Sklearn =>
      if negb (has_sklearn L) then (Err ImportError, query_kwargs)
      else match sk_build L X leaf_size tk with
           | Err e => (Err e, query_kwargs)
           | Ok tree =>
               match max_distance with
               | None => (sk_query L tree Y k qk, query_kwargs)
               | Some r => (sk_query_radius L tree Y r k qk, query_kwargs)
               end
           end
  | OtherBackend => (Err ImportError, query_kwargs)
  end.
End Knn.
Arguments value : clear implicits.
Arguments dict : clear implicits.
Arguments neighbours : clear implicits.
Arguments libs : clear implicits.
