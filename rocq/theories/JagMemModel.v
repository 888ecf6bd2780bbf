(** Model of the memory behind JaggedArrays: which objects hold the same array, and
    what an item assignment changes.  The rows of an awkward array are values here:
    awkward arrays cannot be edited.  Not modelled: the memory that [ak.unflatten]
    shares with the flat array it cuts, and that [ak.Array.to_numpy] shares with an
    awkward array given to the constructor. *)
From Verif Require Import Prelude OField SparseModel WrapModel.

Section Jag.
Context {F : ofield}.
Local Notation rows_t := (list (list F)).

(** The objects a program holds: a 2d ndarray, a JaggedArray around an ndarray, a
    JaggedArray around an awkward array, an awkward array, a Python list of lists.
    Editable memory is named by its position in the store. *)
Inductive obj := Nd (r : nat) | JagNp (r : nat) | JagAk (rows : rows_t) | AkA (rows : rows_t) | Lists (r : nat).
Record store := Store { mem : list rows_t; vars : list obj }.

Definition array_of (o : obj) : option nat :=
  match o with Nd r | JagNp r | Lists r => Some r | JagAk _ | AkA _ => None end.
(** The entries an object shows: [x[i][j]], jaggedarray.py:170-171 [__getitem__] and
    228-237 [to_list]. *)
Definition rows_in (s : store) (o : obj) : option rows_t :=
  match o with
  | Nd r | JagNp r | Lists r => nth_error (mem s) r
  | JagAk rows | AkA rows => Some rows
  end.
Definition view (s : store) (x : nat) : option rows_t :=
  match nth_error (vars s) x with Some o => rows_in s o | None => None end.

Definition bind_var (s : store) (o : obj) : store := Store (mem s) (vars s ++ [o]).
Definition bind_new (s : store) (rows : rows_t) (k : nat -> obj) : store :=
  Store (mem s ++ [rows]) (vars s ++ [k (length (mem s))]).

(** A Python position: negative ones count from the end. *)
Definition pos (n : nat) (i : Z) : option nat :=
  if (0 <=? i)%Z then (if (i <? Z.of_nat n)%Z then Some (Z.to_nat i) else None)
  else if (- Z.of_nat n <=? i)%Z then Some (Z.to_nat (Z.of_nat n + i)) else None.
(** [rows[i, j] = a]. *)
Definition put (rows : rows_t) (i j : Z) (a : F) : result rows_t :=
  match pos (length rows) i with
  | None => Err IndexError
  | Some k => let row := nth k rows [] in
              match pos (length row) j with
              | None => Err IndexError
              | Some l => Ok (set_nth k (set_nth l a row) rows)
              end
  end.

(** What a program can do. *)
Inductive cmd :=
| CArray (nC : nat) (rows : rows_t)          (* np.array(rows) *)
| CJagged (x : nat)                          (* JaggedArray(x); force_numpy=False if x is awkward *)
| CJaggedList (rows : rows_t) (force : bool) (* JaggedArray(rows, force_numpy=force) *)
| CToArray (x : nat) | CToNumpy (x : nat) | CToList (x : nat)
| CSet (x : nat) (i j : Z) (a : F).          (* x[i, j] = a *)

(** jaggedarray.py:40-45, 155-158: a list of lists becomes an awkward array; with
    [force_numpy] and rows of one width it becomes a new ndarray. *)
Definition make_list (s : store) (rows : rows_t) (force : bool) : result store :=
  do j <- jagged_array (JRows rows) None force ;
  match j with
  | Np _ r => Ok (bind_new s r JagNp)
  | Ak r => Ok (bind_var s (JagAk r))
  end.

(** jaggedarray.py:30-39, 58-75, 143-159: [JaggedArray(x)].  A 2d ndarray is wrapped as it
    is.  A JaggedArray is none of the accepted types: [if data: raise TypeError]; an
    empty one gives [None], which [Wrapper] cannot show (not modelled). *)
Definition make (s : store) (o : obj) : result store :=
  match o with
  | Nd r => Ok (bind_var s (JagNp r))
  | AkA rows => Ok (bind_var s (JagAk rows))
  | Lists r => match nth_error (mem s) r with Some rows => make_list s rows true | None => Err NameError end
  | JagNp _ | JagAk _ => Err TypeError
  end.

(** jaggedarray.py:222-226, [to_array]: the wrapped object itself. *)
Definition to_array (s : store) (o : obj) : result store :=
  match o with
  | JagNp r => Ok (bind_var s (Nd r))
  | JagAk rows => Ok (bind_var s (AkA rows))
  | _ => Err AttributeError
  end.

(** jaggedarray.py:212-220, [to_numpy]: the wrapped ndarray itself, or a new dense
    array by way of the CSR format. *)
Definition to_numpy (s : store) (o : obj) : result store :=
  match o with
  | JagNp r => Ok (bind_var s (Nd r))
  | JagAk rows => do d <- jto_numpy (Ak rows) ; Ok (bind_new s d Nd)
  | _ => Err AttributeError
  end.

(** jaggedarray.py:228-237, [to_list] ([tolist] of an ndarray): new lists. *)
Definition to_list (s : store) (o : obj) : result store :=
  match o with
  | Nd r | JagNp r => match nth_error (mem s) r with Some rows => Ok (bind_new s rows Lists) | None => Err NameError end
  | JagAk rows | AkA rows => Ok (bind_new s rows Lists)
  | Lists _ => Err AttributeError
  end.

(** jaggedarray.py:173-174, [__setitem__]: left to the wrapped object.  An awkward
    array only takes new fields, by name: TypeError for positions. *)
Definition set_item (s : store) (o : obj) (i j : Z) (a : F) : result store :=
  match o with
  | Nd r | JagNp r | Lists r =>
      match nth_error (mem s) r with
      | Some rows => do rows' <- put rows i j a ; Ok (Store (set_nth r rows' (mem s)) (vars s))
      | None => Err NameError
      end
  | JagAk _ | AkA _ => Err TypeError
  end.

Definition with_var (s : store) (x : nat) (f : store -> obj -> result store) : result store :=
  match nth_error (vars s) x with Some o => f s o | None => Err NameError end.
Definition step (s : store) (c : cmd) : result store :=
  match c with
  | CArray nC rows => if forallb (fun r => length r =? nC) rows then Ok (bind_new s rows Nd) else Err ValueError
  | CJagged x => with_var s x make
  | CJaggedList rows force => make_list s rows force
  | CToArray x => with_var s x to_array
  | CToNumpy x => with_var s x to_numpy
  | CToList x => with_var s x to_list
  | CSet x i j a => with_var s x (fun s o => set_item s o i j a)
  end.
(** A command that raises changes nothing; the program goes on. *)
Definition run1 (s : store) (c : cmd) : store := match step s c with Ok s' => s' | Err _ => s end.
Definition run (s : store) (p : list cmd) : store := fold_left run1 p s.
Definition start : store := Store [] [].
End Jag.
Arguments obj : clear implicits.  Arguments store : clear implicits.  Arguments cmd : clear implicits.
