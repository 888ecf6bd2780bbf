(** Model of [ArrayWrapper] (linalg/meta.py:112-222) with the memory it works on: which
    operations share memory and which make copies.

    Simplifications: arrays that are views of parts of other arrays do not occur; all
    numbers are elements of one ordered field; the universal functions of NumPy are
    arguments (from the values of the inputs to the values of the results, or an
    exception); the optional [dtype] of [__array__] is not given. *)
From Verif Require Import Prelude OField ParallelModel MiscModel.
Local Open Scope nat_scope.

Section Wrap.
Context {F : ofield}.
Local Notation arr := (ndarray F).

(** The memory: [bufs] holds the contents of the arrays that exist, an array is the number
    of its contents; [objs] holds for each wrapper the array [self._array]. *)
Record heap := Heap { bufs : list arr; objs : list nat }.
Definition empty_heap : heap := Heap [] [].

(** What a program passes around: a wrapper, a NumPy array, a number, a list of numbers
    (or lists), anything else. *)
Inductive operand := W (o : nat) | A (r : nat) | Number (x : F) | Nested (a : arr) | Foreign.

(** The contents of an array, and those seen by a universal function. *)
Definition content (h : heap) (r : nat) : option arr := nth_error (bufs h) r.
Definition array_of (h : heap) (x : operand) : option nat :=
  match x with W o => nth_error (objs h) o | A r => Some r | _ => None end.
Definition value_of (h : heap) (x : operand) : option arr :=
  match x with
  | Number v => Some (ND [] (fun _ => v))
  | Nested a => Some a
  | Foreign => None
  | _ => match array_of h x with Some r => content h r | None => None end
  end.

(** Replacing the contents of an array. *)
Fixpoint set_nth {X} (n : nat) (x : X) (l : list X) : list X :=
  match l, n with
  | [], _ => [] | _ :: l, O => x :: l | y :: l, S n => y :: set_nth n x l
  end.
Definition write (h : heap) (r : nat) (a : arr) : heap := Heap (set_nth r a (bufs h)) (objs h).
(** A new array. *)
Definition alloc (h : heap) (a : arr) : heap * nat := (Heap (bufs h ++ [a]) (objs h), length (bufs h)).

(** meta.py:124-134, the constructor, for an array, a number or nested lists: [np.array]
    on line 131 makes a new array with the same values in any case. *)
Definition wrap (h : heap) (a : arr) : heap * nat :=
  let '(h, r) := alloc h a in (Heap (bufs h) (objs h ++ [r]), length (objs h)).
Definition construct (h : heap) (x : operand) : result (heap * nat) :=
  match value_of h x with Some a => Ok (wrap h a) | None => Err TypeError end.

(** meta.py:175-179, reading and writing one element of a wrapper, and of an array. *)
Definition getitem (h : heap) (x : operand) (c : cell) : option F :=
  option_map (fun a => at_ a c) (value_of h x).
Definition put (c : cell) (v : F) (a : arr) : arr :=
  ND (shape a) (fun d => if cell_dec d c then v else at_ a d).
Definition setitem (h : heap) (x : operand) (c : cell) (v : F) : result heap :=
  match array_of h x with
  | Some r => match content h r with Some a => Ok (write h r (put c v a)) | None => Err TypeError end
  | None => Err TypeError
  end.
(** meta.py:170-173 and 184-188, [to_numpy]: the array itself. *)
Definition to_numpy (h : heap) (o : nat) : option nat := nth_error (objs h) o.
(** meta.py:150-168, [chop]; it returns the object. *)
Definition chop_ (h : heap) (o : nat) (tol : F) : result (heap * nat) :=
  match to_numpy h o with
  | Some r => match content h r with Some a => Ok (write h r (chop tol a), o) | None => Err TypeError end
  | None => Err TypeError
  end.

(** The values of all inputs; [None] if one has a type that is not handled
    (meta.py:191-199). *)
Fixpoint values (h : heap) (xs : list operand) : option (list arr) :=
  match xs with
  | [] => Some []
  | x :: xs => match value_of h x, values h xs with Some a, Some l => Some (a :: l) | _, _ => None end
  end.
(** Storing results in the arrays given as outputs: shapes have to agree. *)
Fixpoint store_all (h : heap) (outs : list operand) (res : list arr) : result heap :=
  match outs, res with
  | [], [] => Ok h
  | o :: outs, a :: res =>
      match array_of h o with
      | None => Err TypeError
      | Some r => match content h r with
                  | None => Err TypeError
                  | Some b => if list_eq_dec Nat.eq_dec (shape a) (shape b)
                              then store_all (write h r a) outs res else Err ValueError
                  end
      end
  | _, _ => Err ValueError
  end.
(** A wrapper for each result (meta.py:209-216). *)
Fixpoint wrap_all (h : heap) (res : list arr) : heap * list nat :=
  match res with
  | [] => (h, [])
  | a :: res => let '(h, o) := wrap h a in let '(h, os) := wrap_all h res in (h, o :: os)
  end.
(** meta.py:190-216, [__array_ufunc__] for the call of a universal function (or one of its
    methods that returns a value) [f]; [out] are the outputs, if given.  With outputs, the
    results handed to the constructor are the output arrays. *)
Definition array_ufunc (h : heap) (f : list arr -> result (list arr)) (xs : list operand) (out : option (list operand))
  : result (heap * list nat) :=
  match values h xs, values h (match out with Some os => os | None => [] end) with
  | Some vs, Some _ =>
      do res <- f vs ;
      match out with
      | None => Ok (wrap_all h res)
      | Some os => do h <- store_all h os res ; Ok (wrap_all h res)
      end
  | _, _ => Err TypeError
  end.
(** meta.py:212-214, the method [at] of a universal function: it changes its first argument
    and the wrapper returns None. *)
Definition ufunc_at (h : heap) (f : list arr -> result arr) (x : operand) (xs : list operand) : result heap :=
  match values h (x :: xs), array_of h x with
  | Some vs, Some r => do a <- f vs ; Ok (write h r a)
  | _, _ => Err TypeError
  end.

(** The operators of NumPy's mixin: [x op y] calls the universal function, [x op= y] calls
    it with [out=(x,)] and binds the name to the value returned. *)
Definition binary (h : heap) (f : list arr -> result (list arr)) (x y : operand) : result (heap * list nat) :=
  array_ufunc h f [x; y] None.
Definition in_place (h : heap) (f : list arr -> result (list arr)) (x : nat) (y : operand) : result (heap * list nat) :=
  array_ufunc h f [W x; y] (Some [W x]).

(** Statements of a program; [DoNew] makes a NumPy array. *)
Inductive command :=
| DoNew (a : arr) | DoConstruct (x : operand) | DoSet (x : operand) (c : cell) (v : F) | DoChop (o : nat) (tol : F)
| DoUfunc (f : list arr -> result (list arr)) (xs : list operand) (out : option (list operand))
| DoAt (f : list arr -> result arr) (x : operand) (xs : list operand).
(** One statement; a statement that raises changes nothing (outputs are checked before
    anything is stored only for single outputs, which is noted as a simplification). *)
Definition run1 (h : heap) (c : command) : heap :=
  let keep r := match r with Ok h => h | Err _ => h end in
  match c with
  | DoNew a => fst (alloc h a)
  | DoConstruct x => keep (do (h, _) <- construct h x ; Ok h)
  | DoSet x c v => keep (setitem h x c v)
  | DoChop o tol => keep (do (h, _) <- chop_ h o tol ; Ok h)
  | DoUfunc f xs out => keep (do (h, _) <- array_ufunc h f xs out ; Ok h)
  | DoAt f x xs => keep (ufunc_at h f x xs)
  end.
Definition run (p : list command) : heap := fold_left run1 p empty_heap.
End Wrap.
Arguments heap : clear implicits.
Arguments operand : clear implicits.
Arguments command : clear implicits.
