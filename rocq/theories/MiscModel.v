(** Model of small self-contained parts of the library: histograms (hist.py), the
    decorator [squeeze] (decorate.py), the comparison of members of a population
    (optimize/ga.py, class Genom), [ArrayWrapper.chop] (linalg/meta.py) and the symbolic
    inverse [inv_sym_3x3] (linalg/utils.py). *)
From Coq Require Import String.
From Verif Require Import Prelude OField ParallelModel.
Close Scope string_scope.
Local Open Scope nat_scope.

(** ** Histograms (hist.py) *)
Section Hist.
Context {F : ofield}.

(** The bin edges returned by [np.histogram]: an array of floats, or the integer array
    that was passed as [bins] (NumPy keeps its dtype). *)
Inductive edges := Floats (l : list F) | Ints (l : list Z).

(** hist.py:18-23, [bin_centers], for an array of [n] floats: [res] has the dtype of the
    edges, iteration [i] stores the mean of two adjacent edges. *)
Definition float_centers_its (n : nat) (e : nat -> F) : list (list (update F)) :=
  map (fun i => [store [i] (div (add (e i) (e (S i))) two)]) (range (n - 1)).
Definition float_centers (l : list F) (res : ndarray F) : Prop :=
  prange_run (zeros zero [length l - 1]) (float_centers_its (length l) (fun i => nth i l zero)) res.
(** The same for an array of [n] integers: [/] gives a float, and storing it in an integer
    array truncates towards zero.  Simplification: integers below 2^53, so that the float
    is exact. *)
Definition int_centers_its (n : nat) (e : nat -> Z) : list (list (update Z)) :=
  map (fun i => [store [i] (Z.quot (e i + e (S i)) 2)%Z]) (range (n - 1)).
Definition int_centers (l : list Z) (res : ndarray Z) : Prop :=
  prange_run (zeros 0%Z [length l - 1]) (int_centers_its (length l) (fun i => nth i l 0%Z)) res.

(** The second component of the result. *)
Inductive positions := Edges (e : edges) | FloatCenters (c : ndarray F) | IntCenters (c : ndarray Z).

(** hist.py:9-15, [histogram]: the call of [np.histogram] is an oracle that returns the
    counts and the edges or raises. *)
Inductive histogram {C : Type} (np : result (C * edges)) (return_edges : bool) : result (C * positions) -> Prop :=
| h_err e : np = Err e -> histogram np return_edges (Err e)
| h_edges c e : np = Ok (c, e) -> return_edges = true -> histogram np return_edges (Ok (c, Edges e))
| h_float c l res : np = Ok (c, Floats l) -> return_edges = false -> float_centers l res ->
    histogram np return_edges (Ok (c, FloatCenters res))
| h_int c l res : np = Ok (c, Ints l) -> return_edges = false -> int_centers l res ->
    histogram np return_edges (Ok (c, IntCenters res)).
End Hist.
Arguments edges : clear implicits.
Arguments positions : clear implicits.

(** ** The decorator [squeeze] (decorate.py) *)
Section Squeeze.
Context {V K O : Type}.

(** Python values: NumPy arrays, tuples, lists, dictionaries (as the list of their items
    in insertion order) and all other objects. *)
Inductive value :=
| Array (a : ndarray V) | Tuple (l : list value) | PyList (l : list value)
| Dict (l : list (K * value)) | Other (o : O).

(** [np.squeeze] (external): the axes of length one are removed, and the element at [c] is
    the one found by putting 0 for each removed axis. *)
Fixpoint unsqueeze (sh : list nat) (c : cell) : cell :=
  match sh with
  | [] => []
  | n :: sh => if n =? 1 then 0 :: unsqueeze sh c
               else match c with [] => [] | i :: c => i :: unsqueeze sh c end
  end.
Definition np_squeeze (a : ndarray V) : ndarray V :=
  ND (filter (fun n => negb (n =? 1)) (shape a)) (fun c => at_ a (unsqueeze (shape a) c)).

(** decorate.py:8-9, [_squeeze_if_array]. *)
Definition squeeze_if_array (v : value) : value :=
  match v with Array a => Array (np_squeeze a) | v => v end.

(** decorate.py:33-43, [inner]: [squeeze] is the keyword argument of the call, [default]
    the argument of the decorator; [fnc] is the decorated function, applied to the other
    arguments. *)
Definition inner {A : Type} (default : bool) (fnc : A -> result value) (args : A) (squeeze : option bool) : result value :=
  if match squeeze with Some b => b | None => default end then
    do res <- fnc args ;
    match res with
    | Tuple l => Ok (PyList (map squeeze_if_array l))
    | Dict l => Ok (Dict (map (fun kv => (fst kv, squeeze_if_array (snd kv))) l))
    | v => Ok (squeeze_if_array v)
    end
  else fnc args.
End Squeeze.
Arguments value : clear implicits.

(** ** Members of a population (optimize/ga.py:26-72) *)
Section Genom.
Context {F : ofield}.
(** ga.py:31-35, the fields. *)
Record member := Member { phenotype : list F; genotype : list Z; fitness : F; age : Z; index : Z }.
(** What a member is compared with: another member or any other object. *)
Inductive operand := IsGenom (g : member) | NotGenom.
(** The comparison of two lists of Python integers, [==]. *)
Fixpoint list_eq (a b : list Z) : bool :=
  match a, b with
  | [], [] => true
  | x :: a, y :: b => (x =? y)%Z && list_eq a b
  | _, _ => false
  end.
(** ga.py:37-40, [__eq__]; [np.all] of one truth value is that value. *)
Definition genom_eq (a : member) (o : operand) : bool :=
  match o with IsGenom b => list_eq (genotype a) (genotype b) | NotGenom => false end.
(** [!=] is inherited from [object]: the negation of [__eq__]. *)
Definition genom_ne (a : member) (o : operand) : bool := negb (genom_eq a o).
(** ga.py:42-44, [__hash__]; [str] and [hash] of Python are oracles. *)
Definition genom_hash (str : Z -> string) (hash : string -> Z) (a : member) : Z :=
  hash (String.concat EmptyString (map str (genotype a))).
(** ga.py:46-51, 53-58, 60-65, 67-72: [__gt__], [__lt__], [__ge__], [__le__]. *)
Definition genom_gt (a : member) (o : operand) : result bool :=
  match o with IsGenom b => Ok (ltb (fitness b) (fitness a)) | NotGenom => Err TypeError end.
Definition genom_lt (a : member) (o : operand) : result bool :=
  match o with IsGenom b => Ok (ltb (fitness a) (fitness b)) | NotGenom => Err TypeError end.
Definition genom_ge (a : member) (o : operand) : result bool :=
  match o with IsGenom b => Ok (leb (fitness b) (fitness a)) | NotGenom => Err TypeError end.
Definition genom_le (a : member) (o : operand) : result bool :=
  match o with IsGenom b => Ok (leb (fitness a) (fitness b)) | NotGenom => Err TypeError end.
End Genom.
Arguments member : clear implicits.
Arguments operand : clear implicits.

(** ** [ArrayWrapper.chop] (linalg/meta.py:150-168) *)
Section Chop.
Context {F : ofield}.
(** The array of the object after the call; the call changes it in place and returns the
    object itself. *)
Definition chop (tol : F) (a : ndarray F) : ndarray F :=
  ND (shape a) (fun c => if ltb (absf (at_ a c)) tol then zero else at_ a c).
End Chop.

(** ** [inv_sym_3x3] (linalg/utils.py:638-653) *)
Section Sym.
Context {F : ofield}.
(** SymPy expressions: the real symbols [P_{ij}] of the function, other symbols, numbers
    and operations.  Simplification: SymPy rewrites expressions to equal ones; here only
    their values matter. *)
Inductive expr :=
| P (i j : nat) | Var (s : nat) | Num (x : F)
| Add (a b : expr) | Mul (a b : expr) | Neg (a : expr) | Div (a b : expr).
(** The value of an expression for given values of the symbols. *)
Fixpoint val (p : nat -> nat -> F) (v : nat -> F) (e : expr) : F :=
  match e with
  | P i j => p i j | Var s => v s | Num x => x
  | Add a b => add (val p v a) (val p v b) | Mul a b => mul (val p v a) (val p v b)
  | Neg a => opp (val p v a) | Div a b => div (val p v a) (val p v b)
  end.
(** Replacing one symbol by an expression. *)
Fixpoint subs1 (i j : nat) (r e : expr) : expr :=
  match e with
  | P k l => if (k =? i) && (l =? j) then r else P k l
  | Var s => Var s | Num x => Num x
  | Add a b => Add (subs1 i j r a) (subs1 i j r b) | Mul a b => Mul (subs1 i j r a) (subs1 i j r b)
  | Neg a => Neg (subs1 i j r a) | Div a b => Div (subs1 i j r a) (subs1 i j r b)
  end.
(** [e.subs(d)] of SymPy replaces the symbols one after the other. *)
Definition subs (d : list ((nat * nat) * expr)) (e : expr) : expr :=
  fold_left (fun e x => subs1 (fst (fst x)) (snd (fst x)) (snd x) e) d e.
(** utils.py:644-645: the entries of [P], in the order of [sy.flatten]. *)
Definition entries : list (nat * nat) :=
  [(1, 1); (1, 2); (1, 3); (2, 1); (2, 2); (2, 3); (3, 1); (3, 2); (3, 3)].
(** utils.py:646-647, [P.det()] and the entries of [P.adjugate()] (row, column from 1). *)
Definition minor2 (i j k l : nat) : expr := Add (Mul (P i j) (P k l)) (Neg (Mul (P i l) (P k j))).
Definition det_P : expr :=
  Add (Add (Mul (P 1 1) (minor2 2 2 3 3)) (Neg (Mul (P 1 2) (minor2 2 1 3 3)))) (Mul (P 1 3) (minor2 2 1 3 2)).
Definition adj_P (i j : nat) : expr :=
  match i, j with
  | 1, 1 => minor2 2 2 3 3 | 1, 2 => Neg (minor2 1 2 3 3) | 1, 3 => minor2 1 2 2 3
  | 2, 1 => Neg (minor2 2 1 3 3) | 2, 2 => minor2 1 1 3 3 | 2, 3 => Neg (minor2 1 1 2 3)
  | 3, 1 => minor2 2 1 3 2 | 3, 2 => Neg (minor2 1 1 3 2) | 3, 3 => minor2 1 1 2 2
  | _, _ => Num zero
  end.
(** utils.py:648-653.  [m] is the flattened argument; [zip] stops at the shorter list. *)
Definition subst_list (m : list expr) : list ((nat * nat) * expr) := combine entries m.
Definition inv_sym_3x3 (m : list expr) (i j : nat) : expr := subs (subst_list m) (Div (adj_P i j) det_P).
Definition adj_det_3x3 (m : list expr) : expr * (nat -> nat -> expr) :=
  (subs (subst_list m) det_P, fun i j => subs (subst_list m) (adj_P i j)).
End Sym.
Arguments expr : clear implicits.
