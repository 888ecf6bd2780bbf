(** Model of how NumPy functions treat tensors: [__array_function__], [__array_ufunc__]
    and the registered implementations (linalg/abstract.py:18-35, 129-190), and the
    operators inherited from numpy's NDArrayOperatorsMixin, which call universal functions.

    Simplifications: as in TensorModel.v; tensors of one rank in one call; a number is
    broadcast against the components. *)
Set Warnings "-notation-overridden,-ambiguous-paths".
From Verif Require Import Prelude TensorModel.
From mathcomp Require Import all_ssreflect all_algebra.
Set Implicit Arguments.
Unset Strict Implicit.
Unset Printing Implicit Defensive.
Import GRing.Theory Num.Theory.
Local Open Scope ring_scope.

(** What can be passed to a function: a tensor, a number, or anything else (an array, a
    list, ...). *)
Inductive arg (F : realFieldType) n r := TensorArg of tensor F n r | NumberArg of F | OtherArg.
Arguments NumberArg {F n r}. Arguments OtherArg {F n r}.

(** The universal functions called by the operators of the mixin, and the others. *)
Inductive ufunc := Negative | Multiply | Divide | Add | Subtract | Equal | Less | Absolute | OtherUfunc.

Section Numpy.
Variables (F : realFieldType) (rtol atol : F) (n : nat) (norm : 'rV[F]_n -> F) (r : nat).
Local Notation tensor := (tensor F n r).
Local Notation tens := (tens F n r).
Local Notation arg := (arg F n r).

(** abstract.py:130-131: every positional argument is a number or a tensor. *)
Definition handled (x : arg) : bool := if x is OtherArg then false else true.
(** abstract.py:183 and 189: tensors are shown in the ambient frame. *)
Definition shown (x : arg) : result tens :=
  match x with
  | TensorArg t => show rtol atol norm t None
  | NumberArg v => Ok [ffun=> v]
  | OtherArg => Err TypeError
  end.
(** abstract.py:129-136 and 187-190, [np.isclose(x, y, rtol=rt, atol=at)]. *)
Definition np_isclose (x y : arg) (rt at_ : F) : result {ffun mi n r -> bool} :=
  if handled x && handled y then
    do a <- shown x; do b <- shown y; Ok [ffun c => isclose rt at_ (a c) (b c)]
  else Err TypeError.
(** abstract.py:181-184, [np.allclose]. *)
Definition np_allclose (x y : arg) (rt at_ : F) : result bool :=
  if handled x && handled y then
    do a <- shown x; do b <- shown y; Ok [forall c, isclose rt at_ (a c) (b c)]
  else Err TypeError.
(** abstract.py:133-134, a function that is not registered. *)
Definition np_other (xs : seq arg) : exc := if all handled xs then InvalidTensorOperationError else TypeError.

(** abstract.py:138-158, a universal function applied to tensors: [call] tells whether it
    is called itself (not one of its methods), [out] whether an output is given. *)
Definition array_ufunc (f : ufunc) (call out : bool) (t : tensor) : result tensor :=
  match f with
  | Negative => if ~~ call then Err InvalidTensorOperationError
                else if out then Err OperationInputError
                else Ok (Tensor (- arr t) (frame_of t))
  | _ => Err InvalidTensorOperationError
  end.
(** [t * x] (abstract.py:47-51) and [x * t], which the mixin turns into
    [np.multiply(x, t)]. *)
Definition mul_right (t : tensor) (x : F) : result tensor := Ok (Tensor [ffun c => arr t c * x] (frame_of t)).
Definition mul_left (x : F) (t : tensor) : result tensor := array_ufunc Multiply true false t.
(** [-t], [t == x] and [abs(t)]. *)
Definition neg_ (t : tensor) : result tensor := array_ufunc Negative true false t.
Definition equal_ (t : tensor) (x : F) : result tensor := array_ufunc Equal true false t.
Definition abs_ (t : tensor) : result tensor := array_ufunc Absolute true false t.
End Numpy.
