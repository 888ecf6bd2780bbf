(** Vocabulary of the properties of building and calling functions. *)
From Coq Require Import Ascii String.
From Verif Require Import Prelude OField FuncModel RelModel FuncCallModel.

Section Spec.
Context {F : ofield}.

(** The symbol [t] of an expression means the variable [s]: it is the same symbol or,
    without assumptions, has its name. *)
Definition means (t s : symbol) : Prop := t = s \/ t = plain (fst s).

(** The point where the variables [ss], in this order, take the values [xs]. *)
Definition point_of (ss : list symbol) (xs : list F) (env : symbol -> F) : Prop :=
  forall j s x t, nth_error ss j = Some s -> nth_error xs j = Some x -> means t s -> env t = x.

(** The variables a function gets: the given ones in the given order or, if none are
    given, those of the expression in some order. *)
Definition gets_variables (e : expr F) (vars : option (list var_arg)) (ss : list symbol) : Prop :=
  match vars with
  | None | Some [] => NoDup ss /\ forall s, In s ss <-> In s (free e)
  | Some vs => ss = map arg_symbol vs
  end.
(** Strings and symbols may not be mixed. *)
Definition mixed (vars : option (list var_arg)) : Prop :=
  exists vs, vars = Some vs /\ (exists n, In (VStr n) vs) /\ exists s, In (VSym s) vs.

(** The expression a function is made from. *)
Definition source_expr (parse : text -> option (expr F)) (src : source F) : option (expr F) :=
  match src with FromStr s => parse s | FromExpr e => Some e | FromFun _ _ => None end.

(** Affine in one variable, the others fixed. *)
Definition affine_in (I : interp F) (e : expr F) (v : symbol) : Prop :=
  forall env, exists a b : F, forall env', (forall s, s <> v -> env' s = env s) ->
    eval I env' e = add (mul a (env' v)) b.

(** What is assumed of [sympy.degree]: a degree of at most one means affine. *)
Definition degree_ok (I : interp F) (deg : expr F -> symbol -> result (option nat)) : Prop :=
  forall e v d, deg e v = Ok (Some d) -> d <= 1 -> affine_in I e v.

(** Names that [sympy.symbols] takes as they are. *)
Definition good_name (n : text) : Prop :=
  n <> [] /\ forall c, In c n -> is_space c = false.

End Spec.
