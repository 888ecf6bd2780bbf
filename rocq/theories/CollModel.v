(** Model of collections of vectors and tensors: the dispatch on shapes of linalg/tr.py
    and of [show_vector] (linalg/utils.py), and the constructors and operations of the
    classes Vector, Tensor, Tensor2, Tensor4, Tensor2x3 and Tensor4x3 (linalg/meta.py,
    abstract.py, vector.py, tensor.py) as far as shapes, the flag [bulk] and the rank are
    concerned.

    Simplifications: exact arithmetic; the frame of an object is the array of its axes;
    cells outside of an array have an arbitrary value, as memory read by compiled code
    has; shapes that do not fit raise ValueError also when the collection is empty (the
    compiled loops would then not run at all). *)
From Verif Require Import Prelude OField ParallelModel KernModel.

Section Coll.
Context {F : ofield}.
Local Notation mat := (nat -> nat -> F).
Local Notation arr := (ndarray F).

Definition ndim (a : arr) : nat := length (shape a).
(** [np.prod(shape, dtype=int)] *)
Definition prod (sh : list nat) : nat := fold_right Nat.mul 1 sh.
(** Position of a cell in the memory of a C-contiguous array, and back. *)
Fixpoint lin (sh : list nat) (c : cell) : nat :=
  match sh, c with s :: sh', x :: c' => x * prod sh' + lin sh' c' | _, _ => 0 end.
Fixpoint unlin (sh : list nat) (k : nat) : cell :=
  match sh with [] => [] | _ :: sh' => k / prod sh' :: unlin sh' (k mod prod sh') end.
(** [a.reshape(sh)] *)
Definition reshape (a : arr) (sh : list nat) : result arr :=
  if prod sh =? prod (shape a) then Ok (ND sh (fun c => at_ a (unlin (shape a) (lin sh c))))
  else Err ValueError.
(** Python's [shape[-k:]] and [shape[1:-k]]. *)
Definition last_ (k : nat) (sh : list nat) : list nat := skipn (length sh - k) sh.
Definition inner (k : nat) (sh : list nat) : list nat := firstn (length sh - k - 1) (tl sh).
(** [shape[i]] for an axis that exists. *)
Definition axis (sh : list nat) (i : nat) : nat := nth i sh 0.

(** A parallel loop that writes to [np.zeros_like(a)]; [run] is any of its outcomes. *)
Definition kernel (a : arr) (its : list (list (update F))) (out : result arr) : Prop :=
  exists res, prange_run (zeros zero (shape a)) its res /\ out = Ok res.

(** Do matrices of this shape act on the trailing axes of this array? *)
Definition fits (k : nat) (a Q : arr) : bool :=
  forallb (fun s => s =? axis (last_ k (shape a)) 0) (last_ k (shape a) ++ last_ 2 (shape Q)).

(** ** tr.py *)

(** tr.py:10-36, [_tr_tensors2] and its kernels (KernModel.v).  The product of two
    dimensional arrays is taken only for square matrices of equal size. *)
Definition tr2_stack (a Q : arr) (out : result arr) : Prop :=
  let N := axis (shape a) 0 in let M := axis (shape a) 1 in let n := axis (shape a) 2 in
  if fits 2 a Q then
    if ndim Q =? 2 then
      kernel a (tr2_single2_its N M n (fun e x i j => at_ a [e; x; i; j]) (fun i j => at_ Q [i; j])) out
    else kernel a (tr2_multi2_its N M n (fun e x i j => at_ a [e; x; i; j]) (fun e i j => at_ Q [e; i; j])) out
  else out = Err ValueError.

(** Reshape to one axis of members per matrix, transform, reshape back
    (tr.py:19-24, 29-34, 94-101). *)
Definition reshaped (k : nat) (a : arr) (f : arr -> result arr -> Prop) (out : result arr) : Prop :=
  match reshape a (axis (shape a) 0 :: prod (inner k (shape a)) :: last_ k (shape a)) with
  | Ok b => exists r, f b r /\ out = do res <- r ; reshape res (shape a)
  | Err e => out = Err e
  end.

Definition tr_tensors2 (a Q : arr) (out : result arr) : Prop :=
  if (ndim a =? 2) && (ndim Q =? 2) then
    out = if fits 2 a Q then
            Ok (ND (shape a) (row2 (congruence (axis (shape a) 0) (fun i j => at_ Q [i; j]) (fun i j => at_ a [i; j]))))
          else Err ValueError
  else if (ndim a =? 3) && (ndim Q =? 2) then
    if fits 2 a Q then
      kernel a (tr2_single_its (axis (shape a) 0) (axis (shape a) 1) (fun e i j => at_ a [e; i; j]) (fun i j => at_ Q [i; j])) out
    else out = Err ValueError
  else if (4 <=? ndim a) && (ndim Q =? 2) then reshaped 2 a (fun b => tr2_stack b Q) out
  else if (ndim a =? 3) && (ndim Q =? 3) then
    if fits 2 a Q then
      kernel a (tr2_multi_its (axis (shape a) 0) (axis (shape a) 1) (fun e i j => at_ a [e; i; j]) (fun e i j => at_ Q [e; i; j])) out
    else out = Err ValueError
  else if (ndim a =? 4) && (ndim Q =? 3) then tr2_stack a Q out
  else if (4 <? ndim a) && (ndim Q =? 3) then reshaped 2 a (fun b => tr2_stack b Q) out
  else out = Err NotImplementedError.

(** tr.py:81-103, [_tr_tensors4x3].  The kernels do not look at the shapes. *)
Definition tr4_stack (a Q : arr) (out : result arr) : Prop :=
  kernel a (tr4_multi2_its (axis (shape a) 0) (axis (shape a) 1)
              (fun e x i j k l => at_ a [e; x; i; j; k; l]) (fun e i j => at_ Q [e; i; j])) out.
Definition tr_tensors4x3 (a Q : arr) (out : result arr) : Prop :=
  let C e i j k l := at_ a [e; i; j; k; l] in
  if (ndim a =? 4) && (ndim Q =? 2) then
    out = Ok (tr_3333 (fun i j k l => at_ a [i; j; k; l]) (fun i j => at_ Q [i; j]))
  else if (ndim a =? 5) && (ndim Q =? 2) then
    kernel a (tr4_multi3_its (axis (shape a) 0) C (fun i j => at_ Q [i; j])) out
  else if (ndim a =? 5) && (ndim Q =? 3) then
    kernel a (tr4_multi_its (axis (shape a) 0) C (fun e i j => at_ Q [e; i; j])) out
  else if (ndim a =? 6) && (ndim Q =? 3) then tr4_stack a Q out
  else if (6 <? ndim a) && (ndim Q =? 3) then reshaped 4 a (fun b => tr4_stack b Q) out
  else out = Err NotImplementedError.

(** utils.py:345-384, [show_vector]. *)
Definition show_vector (Q a : arr) (out : result arr) : Prop :=
  if (ndim a =? 1) && (ndim Q =? 2) then
    out = if fits 1 a Q then Ok (ND (shape a) (row1 (matvec (axis (shape a) 0) (fun i j => at_ Q [i; j]) (fun i => at_ a [i]))))
          else Err ValueError
  else if (ndim a =? 2) && (ndim Q =? 2) then
    if fits 1 a Q then
      kernel a (show_vectors_its (axis (shape a) 0) (axis (shape a) 1) (fun i j => at_ Q [i; j]) (fun e i => at_ a [e; i])) out
    else out = Err ValueError
  else if (ndim a =? 2) && (ndim Q =? 3) then
    if fits 1 a Q then
      kernel a (show_vectors_multi_its (axis (shape a) 0) (axis (shape a) 1) (fun e i j => at_ Q [e; i; j]) (fun e i => at_ a [e; i])) out
    else out = Err ValueError
  else out = Err OperationInputError.

(** ** The classes *)
Inductive cls := Vector | Tensor | Tensor2 | Tensor4 | Tensor2x3 | Tensor4x3.
Definition cls_eqb (c d : cls) : bool :=
  match c, d with
  | Vector, Vector | Tensor, Tensor | Tensor2, Tensor2 | Tensor4, Tensor4
  | Tensor2x3, Tensor2x3 | Tensor4x3, Tensor4x3 => true
  | _, _ => false
  end.

(** An instance: class, components, axes of the frame, the attributes [_bulk] and [_rank]. *)
Record object := Obj { o_cls : cls; o_arr : arr; o_frame : arr; o_bulk : option bool; o_rank : option nat }.

(** tensor.py:203 and 264: the class attribute [_rank_]; vector.py:104-109. *)
Definition cls_rank (c : cls) : option nat :=
  match c with
  | Vector => None | Tensor => None | Tensor2 | Tensor2x3 => Some 2 | Tensor4 | Tensor4x3 => Some 4
  end.
Definition flag (b : option bool) : bool := match b with Some true => true | _ => false end.

(** meta.py:372-385 and vector.py:104-109, the property [rank] (a rank of 0 counts as
    missing). *)
Definition rank (o : object) : nat :=
  match o_cls o with
  | Vector => 1
  | c => match o_rank o with
         | Some (S r) => S r
         | _ => match cls_rank c with
                | Some r => r
                | None => if flag (o_bulk o) then ndim (o_arr o) - 1 else ndim (o_arr o)
                end
         end
  end.

(** meta.py:477-486, [is_bulk]: the second branch computes a value and returns None. *)
Definition is_bulk (o : object) : option bool := if flag (o_bulk o) then Some true else None.

(** linalg/logical.py:87-93, [is_hermitian]: all axes have the same length. *)
Definition equal_axes (sh : list nat) : result bool :=
  match sh with [] => Err IndexError | s :: sh' => Ok (forallb (fun t => t =? s) sh') end.

(** tensor.py:72-74, 204-209, 244-249, 266-273, 311-317 and vector.py:96-102,
    [_verify_input]. *)
Definition list_eqb (a b : list nat) : bool := if list_eq_dec Nat.eq_dec a b then true else false.
Definition verify (c : cls) (sh : list nat) (bulk : option bool) : result bool :=
  let l := length sh in
  match c with
  | Vector => Ok true
  | Tensor => equal_axes sh
  | Tensor2 => Ok ((l =? if flag bulk then 3 else 2) && (axis sh (l - 1) =? axis sh (l - 2)))
  | Tensor4 => match sh with
               | [] => Err IndexError
               | _ => Ok ((l =? if flag bulk then 5 else 4) && list_eqb (repeat (axis sh (l - 1)) 4) (last_ 4 sh))
               end
  | Tensor2x3 => Ok ((if flag bulk then 3 <=? l else l =? 2) && list_eqb (last_ 2 sh) [3; 3])
  | Tensor4x3 => Ok ((if flag bulk then 5 <=? l else l =? 4) && list_eqb (last_ 4 sh) [3; 3; 3; 3])
  end.

(** tensor.py:223-242 and 290-309, the constructors of Tensor2x3 and Tensor4x3: they set
    the flag for inputs with more axes than the tensor has (r of them). *)
Definition detect (r : nat) (sh : list nat) (bulk : option bool) : result (option bool) :=
  if list_eqb (last_ r sh) (repeat 3 r) then
    if r <? length sh then
      match bulk with Some false => Err ValueError | _ => Ok (Some true) end
    else match bulk with Some true => Err ValueError | _ => Ok bulk end
  else Err ShapeMismatchError.

(** frame.py:182-197, the frame built for an integer [dim]: its axes are [np.eye(dim)]. *)
Definition eye (n : nat) : arr := ND [n; n] (row2 (fun i j => if i =? j then one else zero)).

(** meta.py:291-338, the constructor of TensorLike, called with an array ([array = true])
    or with nested lists ([array = false]).  [bulk = None] and [rank = None] mean that the
    argument is not given. *)
Definition init (c : cls) (array : bool) (a : arr) (bulk : option bool) (rk : option nat) (frame : option arr)
  : result object :=
  do ok <- (if array then verify c (shape a) bulk else Ok true) ;
  if negb ok then Err ValueError else
  do f <- match frame with
          | Some f => Ok f
          | None => if array then
                      if flag bulk then
                        match shape a with _ :: n :: _ => Ok (eye n) | _ => Err IndexError end
                      else match shape a with n :: _ => Ok (eye n) | [] => Err IndexError end
                    else Err MissingInputError
          end ;
  match rk, cls_rank c with
  | Some _, Some _ => Err ValueError
  | _, _ => Ok (Obj c a f bulk rk)
  end.
Definition construct (c : cls) (array : bool) (a : arr) (bulk : option bool) (rk : option nat) (frame : option arr)
  : result object :=
  do b <- (match c, array with
           | Tensor2x3, true => detect 2 (shape a) bulk
           | Tensor4x3, true => detect 4 (shape a) bulk
           | _, _ => Ok bulk
           end) ;
  init c array a b rk frame.

(** tensor.py:88-108, 211-213, 275-280 and vector.py:119-144, [transform_components] and
    the components in another frame given the matrix [Q].  [np.einsum] wants as many
    axes as there are labels, and there are letters for 13 axes (the command itself is modelled in
    EinsumModel.v, with rectangular matrices). *)
Fixpoint einsum (n : nat) (Q : mat) (f : cell -> F) (c : cell) : F :=
  match c with
  | [] => f []
  | i :: c' => sum n (fun a => mul (Q i a) (einsum n Q (fun s => f (a :: s)) c'))
  end.
Definition transform (o : object) (Q : arr) (out : result arr) : Prop :=
  let a := o_arr o in
  match o_cls o with
  | Vector => show_vector Q a out
  | Tensor => out = if (ndim a =? rank o) && (ndim a <=? 13) && (ndim Q =? 2) && fits (ndim a) a Q
                    then Ok (ND (shape a) (einsum (axis (shape a) 0) (fun i j => at_ Q [i; j]) (at_ a)))
                    else Err ValueError
  | Tensor2 | Tensor2x3 => tr_tensors2 a Q out
  | Tensor4 | Tensor4x3 => tr_tensors4x3 a Q out
  end.

(** The operations below build their result with [self.__class__(arr, frame=...)]. *)
Definition again (o : object) (a : arr) (frame : arr) : result object :=
  construct (o_cls o) true a None None (Some frame).
Definition map_ (f : F -> F) (a : arr) : arr := ND (shape a) (fun c => f (at_ a c)).
(** abstract.py:47-51, [t * x]. *)
Definition mul_ (o : object) (x : F) : result object := again o (map_ (fun v => mul v x) (o_arr o)) (o_frame o).
(** abstract.py:117-121, [t / x] for a number that is not zero. *)
Definition truediv (o : object) (x : F) : result object := again o (map_ (fun v => div v x) (o_arr o)) (o_frame o).
(** abstract.py:148-158, [-t]. *)
Definition neg (o : object) : result object := again o (map_ opp (o_arr o)) (o_frame o).
(** meta.py:340-362, [copy.copy(t)]; [copy.deepcopy(t)] also copies the axes. *)
Definition copy (o : object) : result object := again o (o_arr o) (o_frame o).
(** meta.py:439-468, [transpose]: the last [rank] axes are reversed. *)
Definition turn (r : nat) (c : cell) : cell := firstn (length c - r) c ++ rev (skipn (length c - r) c).
Definition transpose (o : object) : result object :=
  again o (ND (turn (rank o) (shape (o_arr o))) (fun c => at_ (o_arr o) (turn (rank o) c))) (o_frame o).
End Coll.
Arguments object : clear implicits.
