(** Symbolic expressions and functions: function/symutils.py, function/function.py,
    function/metafunction.py.

    SymPy itself is outside the repository.  What the code relies on is modelled as
    follows: expressions are trees; [subs] with a list of pairs replaces them one
    after the other; [lambdify] produces straight-line code for the tree;
    [as_coefficients_dict] splits every summand into a leading number and the rest.
    [simplify] and the iteration order of the set [free_symbols] are oracles
    ([sympy] below), about which the theorems assume only [sympy_ok] (FuncSpec.v). *)
From Coq Require Import Ascii String.
From Verif Require Import Prelude OField.

(** Python strings, as lists of characters (code points below 256). *)
Notation text := (list ascii).
Definition tx (s : string) : text := list_ascii_of_string s.

Fixpoint text_eqb (a b : text) : bool :=
  match a, b with
  | [], [] => true
  | c :: a, d :: b => Ascii.eqb c d && text_eqb a b
  | _, _ => false
  end.

(** A SymPy symbol is a name together with its assumptions (number 0: none, as made
    by [symbols("x")] or by parsing a string).  Symbols with the same name and
    different assumptions are different symbols. *)
Definition symbol : Set := (text * nat)%type.
Definition sym_eqb (a b : symbol) : bool := text_eqb (fst a) (fst b) && (snd a =? snd b).
Definition plain (n : text) : symbol := (n, 0).
Definition mem (s : symbol) (l : list symbol) : bool := existsb (sym_eqb s) l.

Section Func.
Context {F : ofield}.

(** SymPy expressions: numbers, named constants such as pi, symbols, sums, products,
    powers and applications of named functions (sums and products are binary here,
    n-ary in SymPy).  [a - b] is [a + (-1)*b] and [a / b] is [a * b**(-1)]. *)
Inductive expr : Type :=
| ENum (c : F)
| EConst (k : text)
| ESym (s : symbol)
| EAdd (a b : expr)
| EMul (a b : expr)
| EPow (a b : expr)
| EApp (f : text) (a : expr).

(** The numeric meaning of the names that are not symbols: arbitrary. *)
Record interp : Type := Interp {
  iconst : text -> F;
  ipow : F -> F -> F;
  iapp : text -> F -> F
}.

Fixpoint eval (I : interp) (env : symbol -> F) (e : expr) : F :=
  match e with
  | ENum c => c
  | EConst k => iconst I k
  | ESym s => env s
  | EAdd a b => add (eval I env a) (eval I env b)
  | EMul a b => mul (eval I env a) (eval I env b)
  | EPow a b => ipow I (eval I env a) (eval I env b)
  | EApp f a => iapp I f (eval I env a)
  end.

(** [expr.free_symbols], with repetitions. *)
Fixpoint free (e : expr) : list symbol :=
  match e with
  | ENum _ | EConst _ => []
  | ESym s => [s]
  | EAdd a b | EMul a b | EPow a b => free a ++ free b
  | EApp _ a => free a
  end.

(** Structural equality (keys of the coefficient dictionaries). *)
Fixpoint expr_eqb (x y : expr) : bool :=
  match x, y with
  | ENum c, ENum d => eqb c d
  | EConst k, EConst l => text_eqb k l
  | ESym s, ESym t => sym_eqb s t
  | EAdd a b, EAdd c d | EMul a b, EMul c d | EPow a b, EPow c d => expr_eqb a c && expr_eqb b d
  | EApp f a, EApp g b => text_eqb f g && expr_eqb a b
  | _, _ => false
  end.

(** [expr._subs(old, new)] for a symbol [old]. *)
Fixpoint subst1 (old : symbol) (new : expr) (e : expr) : expr :=
  match e with
  | ENum _ | EConst _ => e
  | ESym s => if sym_eqb s old then new else e
  | EAdd a b => EAdd (subst1 old new a) (subst1 old new b)
  | EMul a b => EMul (subst1 old new a) (subst1 old new b)
  | EPow a b => EPow (subst1 old new a) (subst1 old new b)
  | EApp f a => EApp f (subst1 old new a)
  end.

(** [expr.subs([(old, new), ...])]: the pairs are applied one after the other. *)
Definition subs (ps : list (symbol * expr)) (e : expr) : expr :=
  fold_left (fun e p => subst1 (fst p) (snd p) e) ps e.

(** SymPy services whose result depends on its version or on hashing. *)
Record sympy : Type := Sympy {
  simp : expr -> expr;               (* expr.simplify() *)
  fsyms : expr -> list symbol        (* iteration order of expr.free_symbols *)
}.

(** Variables are given as strings or as symbols.  [resolve] models
    [list(symbols(variables))] (symutils.py:37-38); names are single identifiers. *)
Inductive var_arg : Type := VStr (n : text) | VSym (s : symbol).
Definition arg_symbol (v : var_arg) : symbol := match v with VStr n => plain n | VSym s => s end.
Definition arg_name (v : var_arg) : text := fst (arg_symbol v).
Definition is_vsym (v : var_arg) : bool := match v with VSym _ => true | VStr _ => false end.
Definition resolve (vs : list var_arg) : result (list symbol) :=
  if forallb is_vsym vs then Ok (map arg_symbol vs)
  else if existsb is_vsym vs then Err TypeError
  else Ok (map arg_symbol vs).

(** [decode] (symutils.py:20-43). *)
Definition decode (S : sympy) (e : expr) (vars : option (list var_arg)) : result (expr * list symbol) :=
  match vars with
  | None | Some [] => Ok (e, fsyms S e)
  | Some vs =>
      do ss <- resolve vs ;
      Ok (subs (map (fun s => (plain (fst s), ESym s)) ss) e, ss)
  end.

(** A [Function] (function/function.py:21-201): symbolic, with its expression and
    variables and whether it was created from a string; or numeric, with its value
    and whether a Hessian was supplied.  The gradient and Hessian of symbolic
    functions come from [derive_by_array] and are not modelled. *)
Inductive func : Type :=
| Symbolic (e : expr) (vars : list symbol) (from_str : bool)
| Numeric (f0 : list F -> F) (vars : list symbol) (f2_given : bool).

Definition is_symbolic (f : func) : bool := match f with Symbolic _ _ _ => true | _ => false end.
Definition fvars (f : func) : list symbol := match f with Symbolic _ v _ | Numeric _ v _ => v end.

(** [symbolize] (symutils.py:46-62) and the symbolic branches of [Function.update]
    (function.py:164-201). *)
Definition symbolize (S : sympy) (e : expr) (vars : option (list var_arg)) : result (expr * list symbol) :=
  do (e', ss) <- decode S e vars ; Ok (simp S e', ss).
Definition mk_symbolic (S : sympy) (from_str : bool) (e : expr) (vars : option (list var_arg)) : result func :=
  do (e', ss) <- symbolize S e vars ; Ok (Symbolic e' ss from_str).

(** The point at which the variables take the given values. *)
Fixpoint env_of (vars : list symbol) (xs : list F) (s : symbol) : F :=
  match vars, xs with
  | v :: vars, x :: xs => if sym_eqb s v then x else env_of vars xs s
  | _, _ => zero
  end.

(** Calling a function on one sequence of numbers (metafunction.py:29-42): the code
    made by [lambdify([variables], expr)] unpacks the sequence (ValueError if the
    lengths differ) and evaluates the expression (NameError for an unbound name). *)
Definition call (I : interp) (f : func) (xs : list F) : result F :=
  match f with
  | Numeric f0 _ _ => Ok (f0 xs)
  | Symbolic e vars _ =>
      if negb (length xs =? length vars) then Err ValueError
      else if negb (forallb (fun s => mem s vars) (free e)) then Err NameError
      else Ok (eval I (env_of vars xs) e)
  end.

(** [substitute] (symutils.py:65-97). *)
Definition substitute (S : sympy) (e : expr) (values : list expr) (vars : option (list var_arg))
    (as_string : bool) : expr :=
  let vs := match vars with None => map VSym (fsyms S e) | Some vs => vs end in
  subs (combine (map (fun v => if as_string then plain (arg_name v) else arg_symbol v) vs) values) e.

(** [Function.subs] (function.py:343-366); the returned function is the same object
    when [inplace] is set. *)
Definition func_subs (S : sympy) (f : func) (values : list expr) (vars : option (list var_arg)) : result func :=
  match f with
  | Numeric _ _ _ => Err TypeError
  | Symbolic e _ from_str => mk_symbolic S false (substitute S e values vars from_str) vars
  end.

(** ** Coefficients *)

(** [Add.make_args(expr)] and [term.as_coeff_Mul()]. *)
Fixpoint summands (e : expr) : list expr :=
  match e with EAdd a b => summands a ++ summands b | _ => [e] end.
Definition as_coeff_mul (t : expr) : F * expr :=
  match t with
  | ENum c => (c, ENum one)
  | EMul (ENum c) m => (c, m)
  | _ => (one, t)
  end.

(** Dictionaries with expressions as keys, in insertion order. *)
Fixpoint dget {V} (d : list (expr * V)) (k : expr) : option V :=
  match d with
  | [] => None
  | (k', v) :: d => if expr_eqb k' k then Some v else dget d k
  end.
Fixpoint dset {V} (d : list (expr * V)) (k : expr) (v : V) : list (expr * V) :=
  match d with
  | [] => [(k, v)]
  | (k', v') :: d => if expr_eqb k' k then (k', v) :: d else (k', v') :: dset d k v
  end.

(** [expr.as_coefficients_dict()]: coefficients of equal terms are added. *)
Definition as_coefficients_dict (e : expr) : list (expr * F) :=
  fold_left (fun d t => let (c, m) := as_coeff_mul t in
                        dset d m (match dget d m with Some c' => add c' c | None => c end))
            (summands e) [].

(** [Function.coefficients] (function.py:286-322).  Values are expressions because
    [value * key] need not be a number. *)
Definition coefficients (S : sympy) (f : func) (normalize : bool) : result (list (expr * expr)) :=
  match f with
  | Numeric _ _ _ => Err TypeError
  | Symbolic e vars _ =>
      let d0 := fold_left (fun d x => dset d (ESym x) (ENum zero)) vars [] in
      let d := fold_left (fun d kv => dset d (fst kv) (ENum (snd kv))) (as_coefficients_dict (simp S e)) d0 in
      Ok (if normalize then
            fold_left (fun r kv =>
              match free (fst kv) with
              | [] => dset r (ENum one) (EMul (snd kv) (fst kv))
              | _ => dset r (fst kv) (snd kv)
              end) d []
          else d)
  end.

(** The number of different symbols of a key, [len(key.free_symbols)]. *)
Fixpoint distinct (l : list symbol) : list symbol :=
  match l with
  | [] => []
  | s :: l => if mem s l then distinct l else s :: distinct l
  end.

(** [Function.linear_coefficients] (function.py:261-284); [None] when there is no
    coefficient at all. *)
Definition linear_coefficients (S : sympy) (f : func) (normalize : bool) : result (option (list (expr * expr))) :=
  do d <- coefficients S f normalize ;
  Ok (match d with
      | [] => None
      | _ => Some (filter (fun kv => length (distinct (free (fst kv))) <=? 1) d)
      end).

End Func.
Arguments expr F : clear implicits.
Arguments interp F : clear implicits.
Arguments sympy F : clear implicits.
Arguments func F : clear implicits.
