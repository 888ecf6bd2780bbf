(** What the histories of frames and tensors have to preserve. *)
Set Warnings "-notation-overridden,-ambiguous-paths".
From Verif Require Import Prelude TensorModel TensorSpec FrameHistModel.
From mathcomp Require Import all_ssreflect all_algebra.
Set Implicit Arguments.
Unset Strict Implicit.
Unset Printing Implicit Defensive.
Import GRing.Theory Num.Theory.
Local Open Scope ring_scope.

Section Spec.
Variables (F : realFieldType) (n : nat).

(** Tensor object t exists, has rank r and its components, with respect to the current
    axes of its frame, describe the ambient tensor V. *)
Definition has_value (s : state F n) (t r : nat) (V : tens F n r) : Prop :=
  exists (a : tens F n r) f fr,
    [/\ objs s t = Some (Obj a f), frames s f = Some fr & represents (axes fr) a V].

(** Operations that change the value of tensor t on purpose, or destroy it, or bypass the
    interface of frames. *)
Definition leaves (t : nat) (o : op F n) : Prop :=
  match o with
  | Collect t' => t' <> t
  | SetArray t' _ _ => t' <> t
  | Poke _ _ => False
  | _ => True
  end.

(** The interface of frames is not bypassed. *)
Definition no_poke (o : op F n) : Prop := if o is Poke _ _ then False else True.

(** A CartesianFrame is only ever given orthonormal axes. *)
Definition honest (s : state F n) (o : op F n) : Prop :=
  match o with
  | NewFrame _ Cartesian A => orthonormal_rows A
  | SetAxes f A => forall fr, frames s f = Some fr -> kind_of fr = Cartesian -> orthonormal_rows A
  | _ => True
  end.
Fixpoint honest_run rtol atol norm (s : state F n) (os : seq (op F n)) : Prop :=
  if os is o :: os' then honest s o /\ honest_run rtol atol norm (step rtol atol norm s o).1 os' else True.

(** Registered exactly with its own frame. *)
Definition registered (s : state F n) : Prop :=
  forall f t, t \in reg s f <-> exists o, objs s t = Some o /\ o_frame o = f.
End Spec.
