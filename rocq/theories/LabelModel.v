(** Model of the component arrays of vectors and of collections of vectors: memory, the frame that an array
    names (class [Array], linalg/meta.py:24-109), the vectors that own arrays (class [TensorLike]) and the
    registries of frames.  Transforming components is an argument ([show]: members in one frame to
    members in another; TensorModel.v and CollModel.v have its values).

    Simplifications: vectors only (rank 1); the first axis counts the members; frames are
    fixed (changing them is modelled in FrameHistModel.v); the new standard frame of a vector
    created without a frame is one identity [std] for all such vectors. *)
From Verif Require Import Prelude.

Section Label.
Context {V : Type}.
Variables (show : nat -> nat -> V -> V) (std : nat) (v0 : V).

(** An array object: a buffer, the cells of it that it consists of, and [_frame]. *)
Record arr := Arr { buf : nat; pos : list nat; lab : nat }.
(** [tens t] is [t._array]; [reg f] are the keys of the weak dictionary of frame f. *)
Record state := State {
  bufs : nat -> nat -> V; nbufs : nat;
  arrs : nat -> arr; narrs : nat;
  tens : nat -> nat; ntens : nat;
  reg : nat -> list nat }.
Definition empty : state := State (fun _ _ => v0) 0 (fun _ => Arr 0 [] 0) 0 (fun _ => 0) 0 (fun _ => []).

Definition contents (s : state) (a : nat) : list V := map (bufs s (buf (arrs s a))) (pos (arrs s a)).
(** The array object and the frame of a vector (meta.py:387-392, 403-408). *)
Definition frame_of (s : state) (t : nat) : nat := lab (arrs s (tens s t)).

(** A new buffer with an array object for all of it. *)
Definition alloc (s : state) (ms : list V) (f : nat) : state :=
  State (upd (bufs s) (nbufs s) (fun i => nth i ms v0)) (S (nbufs s))
        (upd (arrs s) (narrs s) (Arr (nbufs s) (seq 0 (length ms)) f)) (S (narrs s)) (tens s) (ntens s) (reg s).
(** meta.py:291-327 with 124-134, the constructor: the members are copied, the new array names the
    frame and the vector is registered with it. *)
Definition create (s : state) (ms : list V) (f : nat) : state :=
  let s1 := alloc s ms f in
  State (bufs s1) (nbufs s1) (arrs s1) (narrs s1) (upd (tens s1) (ntens s1) (narrs s)) (S (ntens s1))
        (upd (reg s1) f (ntens s1 :: reg s1 f)).
(** Another array object for some members of an array: slicing, [a.view()], [np.transpose].  It has the frame of
    the array (meta.py:61-86, [__array_finalize__]). *)
Definition view (s : state) (a : nat) (is : list nat) : state :=
  State (bufs s) (nbufs s) (upd (arrs s) (narrs s) (Arr (buf (arrs s a)) (map (fun i => nth i (pos (arrs s a)) 0) is) (lab (arrs s a))))
        (S (narrs s)) (tens s) (ntens s) (reg s).
Definition with_bufs (s : state) b := State b (nbufs s) (arrs s) (narrs s) (tens s) (ntens s) (reg s).
Definition with_lab (s : state) a g :=
  State (bufs s) (nbufs s) (upd (arrs s) a (Arr (buf (arrs s a)) (pos (arrs s a)) g)) (narrs s) (tens s) (ntens s) (reg s).
Definition with_reg (s : state) r := State (bufs s) (nbufs s) (arrs s) (narrs s) (tens s) (ntens s) r.
(** meta.py:259-279, the registry. *)
Definition register (s : state) f t := with_reg s (upd (reg s) f (t :: remove Nat.eq_dec t (reg s f))).
Definition unregister (s : state) f t := with_reg s (upd (reg s) f (remove Nat.eq_dec t (reg s f))).
(** [a[i] = x] and, one member after the other, [a[...] = xs]. *)
Definition poke (s : state) (a i : nat) (x : V) : state :=
  with_bufs s (upd (bufs s) (buf (arrs s a)) (upd (bufs s (buf (arrs s a))) (nth i (pos (arrs s a)) 0) x)).
Definition fill (s : state) (a : nat) (xs : list V) : state :=
  with_bufs s (upd (bufs s) (buf (arrs s a))
    (fold_left (fun b p => upd b (fst p) (snd p)) (combine (pos (arrs s a)) xs) (bufs s (buf (arrs s a))))).

Inductive op :=
| New (ms : list V) (f : nat)             (* Vector(ms, frame=f) *)
| Wrap (a : nat) (f : option nat)         (* Vector(a), Vector(a, frame=f) for an array object *)
| View (a : nat) (is : list nat)          (* a[k:l:m], a[i] *)
| Copy (a : nat) (is : list nat)          (* a.copy(), a[[i, j]] *)
| Relabel (a : nat) (g : option nat)      (* a.frame = g; None: not a frame *)
| Write (a i : nat) (x : V)               (* a[i] = x *)
| Assign (t : nat) (xs : list V)          (* t.array = xs *)
| Move (t g : nat)                        (* t.frame = g *)
| Transpose (t : nat).                    (* t.transpose(inplace=True) *)

(** Names that are not bound raise NameError. *)
Definition step (s : state) (o : op) : result state :=
  let known a := a <? narrs s in let bound t := t <? ntens s in
  let inside a is := forallb (fun i => i <? length (pos (arrs s a))) is in
  match o with
  | New ms f => Ok (create s ms f)
  | Wrap a f =>
      (* meta.py:304-319: without a frame, a new standard frame; the frame that the array names is not looked at *)
      if known a then Ok (create s (contents s a) (match f with Some f => f | None => std end)) else Err NameError
  | View a is => if known a then if inside a is then Ok (view s a is) else Err IndexError else Err NameError
  | Copy a is =>
      if known a then if inside a is then Ok (alloc s (map (fun i => nth i (contents s a) v0) is) (lab (arrs s a))) else Err IndexError
      else Err NameError
  | Relabel a g =>
      (* meta.py:95-103 *)
      if known a then match g with Some g => Ok (with_lab s a g) | None => Err TypeError end else Err NameError
  | Write a i x => if known a then if inside a [i] then Ok (poke s a i x) else Err IndexError else Err NameError
  | Assign t xs =>
      (* meta.py:394-401 *)
      if bound t then if length xs =? length (pos (arrs s (tens s t))) then Ok (fill s (tens s t) xs) else Err AssertionError else Err NameError
  | Move t g =>
      (* meta.py:410-430 *)
      if bound t then
        let a := tens s t in let f := frame_of s t in
        let xs := map (show f g) (contents s a) in
        let s1 := unregister s f t in
        let s2 := fill s1 a xs in
        let s3 := with_lab s2 a g in
        Ok (register s3 g t)
      else Err NameError
  | Transpose t =>
      (* meta.py:439-467, rank 1: np.transpose returns another array object with the same cells *)
      if bound t then
        let a := tens s t in let s1 := view s a (seq 0 (length (pos (arrs s a)))) in
        Ok (State (bufs s1) (nbufs s1) (arrs s1) (narrs s1) (upd (tens s1) t (narrs s)) (ntens s1) (reg s1))
      else Err NameError
  end.
(** A statement that raises changes nothing. *)
Definition run (ops : list op) : state :=
  fold_left (fun s o => match step s o with Ok s' => s' | Err _ => s end) ops empty.
End Label.
Arguments state V : clear implicits. Arguments op V : clear implicits.
