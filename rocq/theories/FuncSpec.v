(** Vocabulary of the properties of symbolic functions, relations and linear
    programming problems. *)
From Coq Require Import Ascii String.
From Verif Require Import Prelude OField FuncModel RelModel LpModel.

Section Spec.
Context {F : ofield}.

(** What is assumed of SymPy: [simplify] preserves the value at every point and
    introduces no symbol; iterating over [free_symbols] visits every symbol once. *)
Record sympy_ok (S : sympy F) (I : interp F) : Prop := SympyOk {
  simp_eval : forall env e, eval I env (simp S e) = eval I env e;
  simp_free : forall e s, In s (free (simp S e)) -> In s (free e);
  fsyms_nodup : forall e, NoDup (fsyms S e);
  fsyms_in : forall e s, In s (fsyms S e) <-> In s (free e)
}.

(** The point that differs from [env] in that each listed symbol takes the value that
    its replacement has at [env]: the meaning of a simultaneous substitution (of
    repeated symbols, the first entry counts). *)
Fixpoint substituted (I : interp F) (ps : list (symbol * expr F)) (env : symbol -> F) (s : symbol) : F :=
  match ps with
  | [] => env s
  | (x, v) :: ps => if sym_eqb s x then eval I env v else substituted I ps env s
  end.

(** No replacement mentions a symbol that is replaced after it. *)
Fixpoint later_free (ps : list (symbol * expr F)) : Prop :=
  match ps with
  | [] => True
  | (_, v) :: ps => (forall s, In s (map fst ps) -> ~ In s (free v)) /\ later_free ps
  end.

(** Variables without assumptions; variables with their assumptions dropped. *)
Definition arg_plain (v : var_arg) : Prop := snd (arg_symbol v) = 0.
Definition all_plain (vs : list var_arg) : Prop := forall v, In v vs -> arg_plain v.
Definition by_name (ss : list symbol) : list symbol := map (fun s => plain (fst s)) ss.

(** Text without newlines, without operator characters. *)
Definition one_line (s : text) : Prop := forall c, In c s -> nat_of_ascii c <> 10.
Definition op_char (c : ascii) : bool := existsb (Ascii.eqb c) (tx "<>=").
Definition no_op (s : text) : Prop := forall c, In c s -> op_char c = false.

(** The order relation written by an operator. *)
Definition rel_holds (o : rop) (a b : F) : Prop :=
  match o with
  | Req => a = b
  | Rgt => leb a b = false
  | Rge => leb b a = true
  | Rlt => leb b a = false
  | Rle => leb a b = true
  end.

(** *** Linear programming *)

(** An expression written as a sum of constants and numeric multiples of symbols. *)
Definition numeric_term (t : expr F) : Prop :=
  free t = [] \/ (exists s, t = ESym s) \/ exists c s, t = EMul (ENum c) (ESym s).
Definition numeric_linear (e : expr F) : Prop := forall t, In t (summands e) -> numeric_term t.

(** A function that is affine in its variables, however it is written. *)
Definition affine (I : interp F) (e : expr F) : Prop :=
  exists (a : symbol -> F) (l : list symbol) (b : F),
  forall env, eval I env e = add (suml (map (fun s => mul (a s) (env s)) l)) b.

Definition expr_of (f : func F) : expr F := match f with Symbolic e _ _ => e | Numeric _ _ _ => ENum zero end.

(** The relation holds at a point (given by the values of the symbols). *)
Definition holds_at (I : interp F) (r : relation F) (env : symbol -> F) : Prop :=
  r_opfunc r (eval I env (expr_of (r_fun r))) zero = true.

(** The same with a margin for strict inequalities. *)
Definition holds_margin (I : interp F) (small : F) (r : relation F) (env : symbol -> F) : Prop :=
  match r_op r with
  | Some Rlt => leb (add (eval I env (expr_of (r_fun r))) small) zero = true
  | Some Rgt => leb small (eval I env (expr_of (r_fun r))) = true
  | _ => holds_at I r env
  end.

Definition dotl (row x : list F) : F := suml (map (fun p => mul (fst p) (snd p)) (combine row x)).

(** Entry of a matrix handed to the solver. *)
Definition entry (A : matrix F) (i j : nat) : F :=
  match A with
  | Dense rows => nth j (nth i rows []) zero
  | Csr es _ _ => suml (map (fun e => if (snd (fst e) =? i) && (snd e =? j) then fst (fst e) else zero) es)
  end.
Definition nrows (A : matrix F) : nat := match A with Dense rows => length rows | Csr _ n _ => n end.

(** [A x = b] and [A x <= b], row by row; nothing is required if there is no matrix. *)
Definition meets (rel : F -> F -> Prop) (A : option (matrix F)) (b : option (list F)) (x : list F) : Prop :=
  match A, b with
  | Some A, Some b => nrows A = length b /\
      forall i, i < nrows A -> rel (sum (length x) (fun j => mul (entry A i j) (nth j x zero))) (nth i b zero)
  | None, None => True
  | _, _ => False
  end.
Definition arrays_admit (a : arrays F) (x : list F) : Prop :=
  meets eq (A_eq a) (b_eq a) x /\ meets (fun u v => leb u v = true) (A_ub a) (b_ub a) x.

Definition within (lo hi : option F) (v : F) : Prop :=
  (forall l, lo = Some l -> leb l v = true) /\ (forall h, hi = Some h -> leb v h = true).
Definition in_bounds (b : bounds F) (x : list F) : Prop :=
  match b with
  | BoundsAll lo hi => forall v, In v x -> within lo hi v
  | BoundsEach l => length l = length x /\ forall i, i < length x -> within (fst (nth i l (None, None))) (snd (nth i l (None, None))) (nth i x zero)
  end.
Definition is_whole (v : F) : Prop := exists z : Z, v = of_Z z.
Definition integral (k : option integrality) (x : list F) : Prop :=
  match k with
  | None => True
  | Some (IntAll c) => c = 1 -> forall v, In v x -> is_whole v
  | Some (IntEach l) => forall i, nth i l 0 = 1 -> i < length x -> is_whole (nth i x zero)
  end.

(** What it means for the solver that [x] is an optimum of its arguments. *)
Definition solver_feasible (a : arrays F) (n : nat) (x : list F) : Prop :=
  length x = n /\ arrays_admit a x /\ in_bounds (a_bounds a) x /\ integral (a_int a) x.
Definition solver_optimum (c : list F) (a : arrays F) (x : list F) : Prop :=
  solver_feasible a (length c) x /\
  forall y, solver_feasible a (length c) y -> leb (dotl c x) (dotl c y) = true.

(** The problem as the user states it: a point assigns a value to every variable; it
    is feasible if all constraints hold, all values respect the bounds, and the
    variables that are required or assumed to be integers are integers. *)
Definition feasible (I : interp F) (is_int : symbol -> bool) (p : lp F) (x : list F) : Prop :=
  length x = length (lp_vars p) /\
  (forall r, In r (lp_cons p) -> holds_at I r (env_of (lp_vars p) x)) /\
  in_bounds (lp_bounds p) x /\
  match lp_int p with
  | Some k => integral (Some k) x
  | None => forall i, i < length x -> is_int (nth i (lp_vars p) (plain [])) = true -> is_whole (nth i x zero)
  end.
Definition objective (I : interp F) (p : lp F) (x : list F) : F :=
  eval I (env_of (lp_vars p) x) (expr_of (lp_obj p)).
Definition optimum (I : interp F) (is_int : symbol -> bool) (p : lp F) (maximize : bool) (x : list F) : Prop :=
  feasible I is_int p x /\
  forall y, feasible I is_int p y ->
    if maximize then leb (objective I p y) (objective I p x) = true
    else leb (objective I p x) (objective I p y) = true.

(** A constraint that came out of the constructor. *)
Definition built (S : sympy F) (r : relation F) : Prop :=
  exists parse cls src vars op op_str, mk_relation S parse cls src vars op op_str = Ok r.
(** The constraint carries one of the operators =, <=, >= (not a Python callable). *)
Definition nonstrict (r : relation F) : Prop :=
  r_op r = Some Req \/ r_op r = Some Rle \/ r_op r = Some Rge.

End Spec.
