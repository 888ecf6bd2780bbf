(** Model of the dtype predicates (logical.py:15-54) and of [indices_of_equal_rows] (utils.py:384-425) for arrays of
    machine integers. *)
From Coq Require Import ZArith QArith.
From Verif Require Import Prelude.

(** The scalar types of NumPy with their widths in bits, and the abstract classes above them. *)
Inductive sclass : Set :=
| Generic | Number | Integer | SignedInteger | UnsignedInteger | Inexact | Floating | ComplexFloating | Flexible
| Bool_ | Object_ | Str_ | Int (w : nat) | UInt (w : nat) | Float (w : nat) | Complex (w : nat).
Definition sclass_eqb (a b : sclass) : bool :=
  match a, b with
  | Generic, Generic | Number, Number | Integer, Integer | SignedInteger, SignedInteger | UnsignedInteger, UnsignedInteger
  | Inexact, Inexact | Floating, Floating | ComplexFloating, ComplexFloating | Flexible, Flexible
  | Bool_, Bool_ | Object_, Object_ | Str_, Str_ => true
  | Int w, Int v | UInt w, UInt v | Float w, Float v | Complex w, Complex v => w =? v
  | _, _ => false
  end.
(** The base class of each class (documented hierarchy of NumPy scalars). *)
Definition base (c : sclass) : option sclass :=
  match c with
  | Generic => None
  | Number | Flexible | Bool_ | Object_ => Some Generic
  | Integer | Inexact => Some Number
  | SignedInteger | UnsignedInteger => Some Integer
  | Floating | ComplexFloating => Some Inexact
  | Str_ => Some Flexible
  | Int _ => Some SignedInteger | UInt _ => Some UnsignedInteger
  | Float _ => Some Floating | Complex _ => Some ComplexFloating
  end.
(** [issubclass]; no chain is longer than five classes. *)
Fixpoint issubclass (fuel : nat) (a b : sclass) : bool :=
  sclass_eqb a b || match fuel, base a with S fuel, Some a' => issubclass fuel a' b | _, _ => false end.

(** [np.issubdtype(dtype, t)] for a Python type t: [np.dtype(float)] is float64, [np.dtype(int)] is the integer of
    the platform with [long] bits, [np.dtype(bool)] is bool_. *)
Inductive pytype : Set := py_float | py_int | py_bool.
Definition np_dtype (long : nat) (t : pytype) : sclass := match t with py_float => Float 64 | py_int => Int long | py_bool => Bool_ end.
Definition issubdtype (long : nat) (d : sclass) (t : pytype) : bool := issubclass 5 d (np_dtype long t).

(** logical.py:15-19, 22-26, 29-33, 36-40, 43-47, 50-54; an array has a dtype and a number of axes. *)
Definition isfloatarray (long : nat) (d : sclass) : bool := issubdtype long d py_float.
Definition isintegerarray (long : nat) (d : sclass) : bool := issubdtype long d py_int.
Definition isintarray (long : nat) (d : sclass) : bool := isintegerarray long d.
Definition isboolarray (long : nat) (d : sclass) : bool := issubdtype long d py_bool.
Definition is1dfloatarray (long : nat) (d : sclass) (ndim : nat) : bool := isfloatarray long d && (ndim =? 1).
Definition is1dintarray (long : nat) (d : sclass) (ndim : nat) : bool := isintarray long d && (ndim =? 1).

(** ** Machine integers *)
Open Scope Z_scope.
(** The integer of [w] bits that is congruent to z. *)
Definition wrap (signed : bool) (w : nat) (z : Z) : Z :=
  let m := 2 ^ Z.of_nat w in if signed then (z + m / 2) mod m - m / 2 else z mod m.

Section Rows.
(** [absdiff a b]: the entry that compiled code finds for [np.abs(a - b)]; where it is not the exact value, it
    depends on the width of temporaries. *)
Variables (absdiff : Z -> Z -> Z) (long : nat).
(** Both arrays have the dtype [Int w] or [UInt w]; sums are taken with 64 bits; the result is stored with the dtype
    of x (utils.py:407-410, 420-424). *)
Definition row_sum (signed : bool) (w : nat) (r s : list Z) : Z :=
  wrap signed w (wrap signed 64 (fold_left Z.add (map (fun ab => absdiff (fst ab) (snd ab)) (combine r s)) 0)).
(** [np.where(R <= tol)]. *)
Definition where_rows (signed : bool) (w : nat) (x y : list (list Z)) (nx ny : nat) (tol : Q) : list (nat * nat) :=
  flat_map (fun i => map (fun j => (i, j))
      (filter (fun j => Qle_bool (inject_Z (row_sum signed w (nth i x []) (nth j y []))) tol) (seq 0 ny))) (seq 0 nx).
(** utils.py:393-395. *)
Fixpoint eq_rows (r s : list Z) : bool :=
  match r, s with [], [] => true | a :: r, b :: s => (a =? b) && eq_rows r s | _, _ => false end.
Definition diagonal (x y : list (list Z)) : list (nat * nat) :=
  map (fun i => (i, i)) (filter (fun i => eq_rows (nth i x []) (nth i y [])) (seq 0 (length x))).
(** utils.py:384-402. *)
Definition equal_rows (signed : bool) (w : nat) (dX dY : nat) (x y : list (list Z)) (tol : Q) : result (list (nat * nat)) :=
  let d := if signed then Int w else UInt w in
  if Nat.eqb dX dY then
    let square := Nat.eqb (length x) (length y) in
    if isintegerarray long d && isintegerarray long d then
      if square then Ok (diagonal x y) else Ok (where_rows signed w x y (length x) (length y) 0)
    else if square then let n := if Nat.ltb (length x) (length y) then length x else length y in Ok (where_rows signed w x y n n tol)
    else Ok (where_rows signed w x y (length x) (length y) tol)
  else Err AssertionError.
End Rows.
