(** Model of the life of frames and the tensors registered with them: a heap of frame
    objects and tensor objects, and the operations of frame.py and meta.py that create,
    move, re-orient and modify them.  See TensorModel.v for the numbers. *)
Set Warnings "-notation-overridden,-ambiguous-paths".
From Verif Require Import Prelude TensorModel.
From mathcomp Require Import all_ssreflect all_algebra.
Set Implicit Arguments.
Unset Strict Implicit.
Unset Printing Implicit Defensive.
Import GRing.Theory Num.Theory.
Local Open Scope ring_scope.

Section Hist.
Variables (F : realFieldType) (rtol atol : F) (n : nat) (norm : 'rV[F]_n -> F).

(** A tensor object: components and the identity of its frame object (meta.py:403-408,
    the frame is an attribute of the array). *)
Record obj := Obj { o_rank : nat; o_arr : tens F n o_rank; o_frame : nat }.

(** [reg f] are the keys of the weak dictionary of frame f (meta.py:225-279). *)
Record state := State {
  frames : nat -> option (frame F n);
  objs : nat -> option obj;
  reg : nat -> seq nat;
  nframes : nat; nobjs : nat }.

Definition empty : state := State (fun _ => None) (fun _ => None) (fun _ => [::]) 0 0.

Definition fset T (m : nat -> T) (i : nat) (v : T) : nat -> T := fun j => if j == i then v else m j.

(** Outcomes.  [Stuck]: an operation on an object that does not exist (no Python
    counterpart; the state does not change). *)
Inductive outcome := Done | Raised (e : exc) | Stuck.

(** frame.py:182-197 etc., creating a frame; with [checked] = false the caller passed
    assume_rectangular or assume_cartesian. *)
Definition new_frame_op (s : state) (checked : bool) (k : kind) (A : 'M[F]_n) : state * outcome :=
  match (if checked then new_frame rtol atol norm k A else Ok (Frame k A)) with
  | Ok f => (State (fset (frames s) (nframes s) (Some f)) (objs s) (fset (reg s) (nframes s) [::]) (nframes s).+1 (nobjs s), Done)
  | Err e => (s, Raised e)
  end.

(** meta.py:291-336, creating a tensor in a frame registers it. *)
Definition new_tensor_op (s : state) r (a : tens F n r) (f : nat) : state * outcome :=
  match frames s f with
  | Some _ => (State (frames s) (fset (objs s) (nobjs s) (Some (Obj a f)))
                 (fset (reg s) f (nobjs s :: reg s f)) (nframes s) (nobjs s).+1, Done)
  | None => (s, Stuck)
  end.

(** meta.py:410-430, [t.frame = g]: show, unregister, store, register. *)
Definition set_frame_op (s : state) (t g : nat) : state * outcome :=
  match objs s t with
  | None => (s, Stuck)
  | Some o =>
      match frames s (o_frame o), frames s g with
      | Some ff, Some fg =>
          match dcm_target rtol atol norm ff fg with
          | Err e => (s, Raised e)
          | Ok Q =>
              let r1 := fset (reg s) (o_frame o) [seq x <- reg s (o_frame o) | x != t] in
              (State (frames s) (fset (objs s) t (Some (Obj (transform Q (o_arr o)) g)))
                 (fset r1 g (t :: [seq x <- r1 g | x != t])) (nframes s) (nobjs s), Done)
          end
      | _, _ => (s, Stuck)
      end
  end.

(** frame.py:290-311, assigning [axes]: every registered tensor is transformed, then the
    array is replaced.  Also the effect of [orient], of ufuncs with out=frame
    (frame.py:552-607) and of the operators +=, -=, *=, /=, @= and **= that keep the class
    (frame.py:29-50), with the new axes computed by the operation.  For an assigned array
    that is not C-contiguous see FrameArrayModel.v. *)
Definition set_axes_op (s : state) (f : nat) (A : 'M[F]_n) : state * outcome :=
  match frames s f with
  | None => (s, Stuck)
  | Some ff =>
      let put os := State (fset (frames s) f (Some (Frame (kind_of ff) A))) os (reg s) (nframes s) (nobjs s) in
      if reg s f is [::] then (put (objs s), Done)
      else match dcm_target rtol atol norm ff (Frame Reference A) with
           | Err e => (s, Raised e)
           | Ok Q => (put (fun t => if t \in reg s f
                                    then match objs s t with
                                         | Some o => Some (Obj (transform Q (o_arr o)) (o_frame o))
                                         | None => None
                                         end
                                    else objs s t), Done)
           end
  end.

(** frame.py:29-50, the in-place operators that change the class ([rtype] given:
    RectangularFrame or ReferenceFrame): a new frame object with the old axes is made, the
    registered tensors are moved to it one by one, then its axes are assigned.  An
    exception leaves the work done so far. *)
Fixpoint move_all (s : state) (ts : seq nat) (g : nat) : state * outcome :=
  match ts with
  | [::] => (s, Done)
  | t :: ts' => match set_frame_op s t g with
                | (s', Done) => move_all s' ts' g
                | r => r
                end
  end.
Definition cast_op (s : state) (f : nat) (rect : bool) (A : 'M[F]_n) : state * outcome :=
  match frames s f with
  | None => (s, Stuck)
  | Some ff =>
      match new_frame_op s true (if rect then Rectangular else Reference) (axes ff) with
      | (s1, Done) =>
          match move_all s1 (reg s f) (nframes s) with
          | (s2, Done) => set_axes_op s2 (nframes s) A
          | r => r
          end
      | r => r
      end
  end.

(** The garbage collector removes a tensor: its weak reference disappears. *)
Definition collect_op (s : state) (t : nat) : state * outcome :=
  (State (frames s) (fset (objs s) t None) (fun f => [seq x <- reg s f | x != t]) (nframes s) (nobjs s), Done).

(** meta.py:394-401, assigning components ([t *= 2], [t.array = ...]). *)
Definition set_array_op (s : state) (t : nat) r (a : tens F n r) : state * outcome :=
  match objs s t with
  | Some o => if r == o_rank o then (State (frames s) (fset (objs s) t (Some (Obj a (o_frame o)))) (reg s) (nframes s) (nobjs s), Done)
              else (s, Raised AssertionError)
  | None => (s, Stuck)
  end.

(** meta.py:178-179, [frame[i, j] = x], and writing into the array that was assigned to
    [axes] (frame.py:293-299 wraps the caller's buffer without copying it): the axes
    change and nothing else happens. *)
Definition poke_op (s : state) (f : nat) (A : 'M[F]_n) : state * outcome :=
  match frames s f with
  | Some ff => (State (fset (frames s) f (Some (Frame (kind_of ff) A))) (objs s) (reg s) (nframes s) (nobjs s), Done)
  | None => (s, Stuck)
  end.

Inductive op :=
| NewFrame (checked : bool) (k : kind) (A : 'M[F]_n)
| NewTensor (r : nat) (a : tens F n r) (f : nat)
| SetFrame (t g : nat)
| SetAxes (f : nat) (A : 'M[F]_n)
| Cast (f : nat) (rect : bool) (A : 'M[F]_n)
| Collect (t : nat)
| SetArray (t r : nat) (a : tens F n r)
| Poke (f : nat) (A : 'M[F]_n).

Definition step (s : state) (o : op) : state * outcome :=
  match o with
  | NewFrame c k A => new_frame_op s c k A
  | NewTensor r a f => new_tensor_op s a f
  | SetFrame t g => set_frame_op s t g
  | SetAxes f A => set_axes_op s f A
  | Cast f rect A => cast_op s f rect A
  | Collect t => collect_op s t
  | SetArray t r a => set_array_op s t a
  | Poke f A => poke_op s f A
  end.
Definition run (s : state) (os : seq op) : state := foldl (fun s o => (step s o).1) s os.
End Hist.
