(** The test functions of function/functions.py, over the real numbers. *)
From Coq Require Import Ascii String Reals.
From Verif Require Import Prelude OField OFieldR FuncModel RelModel.
Local Open Scope R_scope.

Notation RF := R_ofield.

(** [TestMinFunction2D( **symbolize(str_expr=s) )] (functions.py, testfunction.py:6-23,
    function.py:164-201): no variables are named, so they come from [free_symbols], in
    the order in which that set is iterated. *)
Definition test_function (S : sympy RF) (s : string) : result (func RF) :=
  match parse_text (F := RF) (tx s) with
  | Some e => mk_symbolic S false e None
  | None => Err SyntaxError
  end.

(** functions.py:16-28.  SymPy evaluates the expression when the numbers are put in
    (for b = 0 the variable y would disappear); here the tree keeps its shape. *)
Definition rosenbrock (S : sympy RF) (a b : R) : result (func RF) :=
  match parse_text (F := RF) (tx "(a-x)**2 + b*(y-x**2)**2") with
  | Some e =>
      mk_symbolic S false (substitute S e [ENum (a : RF); ENum (b : RF)] (Some [VStr (tx "a"); VStr (tx "b")]) false) None
  | None => Err SyntaxError
  end.
Definition rosenbrock_optimums : list (R * R) := [(1, 1)].

(** functions.py:31-49. *)
Definition himmelblau (S : sympy RF) : result (func RF) :=
  test_function S "(x**2 + y - 11)**2 + (x + y**2 - 7)**2".
Definition himmelblau_optimums : list (R * R) :=
  [(3, 2); (-2.805118, 3.131312); (-3.779310, -3.283186); (3.584428, -1.848126)].

(** functions.py:52-71. *)
Definition goldstein_price (S : sympy RF) : result (func RF) :=
  test_function S
    "(1+(x+y+1)**2 * (19-14*x+3*x**2-14*y+6*x*y+3*y**2))*(30+(2*x-3*y)**2 * (18-32*x+12*x**2+48*y-36*x*y+27*y**2))".
Definition goldstein_price_optimums : list (R * R) := [(0, -1)].

(** functions.py:74-92. *)
Definition beale (S : sympy RF) : result (func RF) :=
  test_function S "(1.5 - x + x*y)**2 + (2.25 - x + x*y**2)**2 + (2.625 - x + x*y**3)**2".
Definition beale_optimums : list (R * R) := [(3, 0.5)].

(** functions.py:95-104. *)
Definition matyas (S : sympy RF) : result (func RF) := test_function S "0.26*(x**2 + y**2) - 0.48*x*y".
Definition matyas_optimums : list (R * R) := [(0, 0)].
