(** Model of classes of functions: the metaclass of [MetaFunction] (function/metafunction.py:7-23), its methods
    (26-66) and the class statements of Python that use it, with the method resolution order. *)
From Verif Require Import Prelude.

(** Names of attributes, and what they are bound to: a function of the user, or one of the three methods
    of [MetaFunction] that call [self.f0], [self.f1], [self.f2] (metafunction.py:32-66). *)
Inductive attr : Set := a_value | a_gradient | a_Hessian | a_f | a_g | a_G | a_other (n : nat).
Inductive fn : Set := User (k : nat) | CallsF0 | CallsF1 | CallsF2.
Definition dict := attr -> option fn.
Definition or_else (a b : option fn) : option fn := match a with Some _ => a | None => b end.

(** metafunction.py:12-23: after the class was made from its namespace, [f], [g] and [G] are set to [value], [gradient]
    and [Hessian] where the namespace has them. *)
Definition meta_new (ns : dict) : dict := fun a =>
  match a with
  | a_f => or_else (ns a_value) (ns a_f)
  | a_g => or_else (ns a_gradient) (ns a_g)
  | a_G => or_else (ns a_Hessian) (ns a_G)
  | _ => ns a
  end.

(** ** Python: method resolution order (C3) *)
Definition memb (c : nat) (l : list nat) : bool := existsb (Nat.eqb c) l.
(** A head that is in no tail. *)
Fixpoint candidate (heads all : list (list nat)) : option nat :=
  match heads with
  | [] => None
  | [] :: r => candidate r all
  | (c :: _) :: r => if existsb (fun s => memb c (tl s)) all then candidate r all else Some c
  end.
Definition drop (c : nat) (s : list nat) : list nat := match s with d :: t => if d =? c then t else s | [] => [] end.
Fixpoint merge (fuel : nat) (ss : list (list nat)) : option (list nat) :=
  if forallb (fun s => match s with [] => true | _ => false end) ss then Some []
  else match fuel, candidate ss ss with
       | S fuel, Some c => match merge fuel (map (drop c) ss) with Some l => Some (c :: l) | None => None end
       | _, _ => None
       end.

(** A class: its order of resolution (itself first), its attributes, and whether it was made by the metaclass. *)
Record cls := Cls { mro : list nat; attrs : dict; meta : bool }.
(** An object: its class and its own attributes. Simplified: every object can have attributes of any name (classes
    without [__slots__]), and bases whose slots cannot be laid out together are not refused. *)
Record obj := Obj { class : nat; own : dict }.
Record state := State { classes : list cls; objs : list obj }.
(** Class 0 is [MetaFunction] itself (metafunction.py:26-66). *)
Definition MetaFunction : cls :=
  Cls [0] (fun a => match a with a_f => Some CallsF0 | a_g => Some CallsF1 | a_G => Some CallsF2 | _ => None end) true.
Definition start : state := State [MetaFunction] [].

Definition get (s : state) (c : nat) : cls := nth c (classes s) MetaFunction.
Fixpoint first (s : state) (order : list nat) (a : attr) : option fn :=
  match order with [] => None | c :: r => or_else (attrs (get s c) a) (first s r a) end.
(** [C.a] and [o.a]: methods are found on the object first. *)
Definition class_attr (s : state) (c : nat) (a : attr) : option fn := first s (mro (get s c)) a.
Definition obj_attr (s : state) (o : obj) (a : attr) : option fn := or_else (own o a) (class_attr s (class o) a).
(** [o(x)] runs [self.f] (metafunction.py:29-30). *)
Definition called (s : state) (o : obj) : option fn := obj_attr s o a_f.

Definition attr_eqb (a b : attr) : bool :=
  match a, b with
  | a_value, a_value | a_gradient, a_gradient | a_Hessian, a_Hessian | a_f, a_f | a_g, a_g | a_G, a_G => true
  | a_other n, a_other m => n =? m
  | _, _ => false
  end.
Definition bind_attr (d : dict) (a : attr) (v : fn) : dict := fun b => if attr_eqb b a then Some v else d b.
Fixpoint set_nth {A} (n : nat) (x : A) (l : list A) : list A :=
  match l, n with [], _ => [] | _ :: r, 0 => x :: r | y :: r, S n => y :: set_nth n x r end.

Inductive op :=
| Class (bases : list nat) (ns : dict)        (* class C with these bases; no bases: object only *)
| SetClass (c : nat) (a : attr) (v : fn)      (* C.a = v *)
| New (c : nat)                               (* o = C(...) *)
| SetObj (o : nat) (a : attr) (v : fn).       (* o.a = v *)
Definition step (s : state) (o : op) : result state :=
  let n := length (classes s) in
  match o with
  | Class bases ns =>
      if forallb (fun b => b <? n) bases then
        let orders := map (fun b => mro (get s b)) bases in
        match merge (S (list_sum (map (@length nat) (orders ++ [bases])))) (orders ++ [bases]) with
        | None => Err TypeError
        | Some l =>
            let m := existsb (fun b => meta (get s b)) bases in
            Ok (State (classes s ++ [Cls (n :: l) (if m then meta_new ns else ns) m]) (objs s))
        end
      else Err NameError
  | SetClass c a v =>
      if c <? n then Ok (State (set_nth c (Cls (mro (get s c)) (bind_attr (attrs (get s c)) a v) (meta (get s c))) (classes s)) (objs s)) else Err NameError
  | New c => if c <? n then Ok (State (classes s) (objs s ++ [Obj c (fun _ => None)])) else Err NameError
  | SetObj i a v =>
      match nth_error (objs s) i with
      | Some o => Ok (State (classes s) (set_nth i (Obj (class o) (bind_attr (own o) a v)) (objs s)))
      | None => Err NameError
      end
  end.
(** A statement that raises changes nothing. *)
Definition run (ops : list op) : state := fold_left (fun s o => match step s o with Ok s' => s' | Err _ => s end) ops start.
