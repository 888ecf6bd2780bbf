(** Properties C84-C86 and further parts of C81: building and calling functions, the
    linearity test, generated symbols, coefficients of expressions. *)
From Coq Require Import Ascii String QArith Qcanon.
From Verif Require Import Prelude OField FuncModel RelModel LpModel FuncSpec CoeffSpec FuncCallModel FuncCallSpec FuncCounter FuncCallProofs FuncProps.
Local Open Scope nat_scope.

(** ** C84: variables and values of a function *)

(** Building: mixed variables are rejected, all others give a symbolic function whose
    variables are the given ones, in the given order. *)
Theorem C84_variables :
  forall (F : ofield) (S : sympy F) (I : interp F), sympy_ok S I ->
  forall parse (src : source F) vars e, source_expr parse src = Some e ->
  (mixed vars -> mk_func S parse src vars = Err TypeError) /\
  (~ mixed vars -> exists f, mk_func S parse src vars = Ok f /\ is_symbolic f = true /\ gets_variables e vars (fvars f)).
Proof. exact @function_built. Qed.
Print Assumptions C84_variables.

(** Calling: the value of the expression where the variables, in their order, take the
    given values, whatever else the point is; the number of values must be right. *)
Theorem C84_value :
  forall (F : ofield) (S : sympy F) (I : interp F), sympy_ok S I ->
  forall parse (src : source F) vars e f xs, source_expr parse src = Some e -> mk_func S parse src vars = Ok f ->
  (length xs <> length (fvars f) -> call I f xs = Err ValueError) /\
  (length xs = length (fvars f) ->
     (forall t, In t (free e) -> exists s, In s (fvars f) /\ means t s) ->
     forall env, point_of (fvars f) xs env -> call I f xs = Ok (eval I env e)) /\
  (length xs = length (fvars f) ->
     call I f xs = Err NameError \/ exists v, call I f xs = Ok v /\ forall env, point_of (fvars f) xs env -> v = eval I env e).
Proof. exact @function_called. Qed.
Print Assumptions C84_value.

(** Points with these values exist. *)
Theorem C84_points :
  forall (F : ofield) ss (xs : list F), NoDup (map fst ss) -> length xs = length ss -> exists env, point_of ss xs env.
Proof. exact @point_exists. Qed.
Print Assumptions C84_points.

Theorem C84_numeric :
  forall (F : ofield) (S : sympy F) (I : interp F) parse f0 h vars xs,
  exists f, mk_func S parse (FromFun f0 h) vars = Ok f /\ is_symbolic f = false /\ call I f xs = Ok (f0 xs).
Proof. exact @numeric_built. Qed.
Print Assumptions C84_numeric.

(** 3*x + 4*y - 2 with the variables x, y, z at (1, 2, -30) is 9 (function.py:150-153). *)
Example C84_applies :
  match mk_func (F := Qc_ofield) idle parse_text (FromStr (tx "3*x + 4*y - 2")) (Some (map VStr (map tx ["x"; "y"; "z"]%string))) with
  | Ok f => (match call iq f [Q2Qc 1; Q2Qc 2; Q2Qc (-30)] with Ok v => Qeq_bool v 9 | Err _ => false end) &&
            (match call iq f [Q2Qc 1; Q2Qc 2] with Err ValueError => true | _ => false end)
  | Err _ => false
  end = true.
Proof. vm_compute. reflexivity. Qed.

(** ** C85: linear functions *)

(** At most linear in all variables, as documented: in each variable, the others fixed. *)
Theorem C85_linear_in_each :
  forall (F : ofield) (I : interp F) deg (f : func F), degree_ok I deg -> is_symbolic f = true ->
  is_linear deg f = Ok true -> forall v, In v (fvars f) -> affine_in I (expr_of f) v.
Proof. exact @linear_in_each. Qed.
Print Assumptions C85_linear_in_each.

Theorem C85_higher_degree :
  forall (F : ofield) deg (f : func F) v d, is_symbolic f = true -> In v (fvars f) ->
  deg (expr_of f) v = Ok (Some d) -> 1 < d -> is_linear deg f <> Ok true.
Proof. exact @not_linear. Qed.
Print Assumptions C85_higher_degree.

(** x*y passes, although it is not affine. *)
Theorem C85_product_refuted :
  forall (F : ofield) (I : interp F), exists deg (f : func F), degree_ok I deg /\ is_linear deg f = Ok true /\ ~ affine I (expr_of f).
Proof.
  intros F I. exists degree0, (fun_of (EMul (ESym vx) (ESym vy)) [vx; vy]).
  split; [apply degree0_ok|exact (product_linear I)].
Qed.
Print Assumptions C85_product_refuted.

Section Square.
Context {F : ofield}.
Add Field FSq : (of_field F).
Lemma square_not_affine (c d : F) : ~ forall x, mul x x = add (mul c x) d.
Proof.
  intros H. pose proof (H zero) as H0. pose proof (H one) as H1. pose proof (H (opp one)) as H2.
  assert (D : d = zero) by (transitivity (sub (add (mul c zero) d) (mul c zero)); [ring|rewrite <- H0; ring]).
  subst d. assert (C : c = one) by (transitivity (add (mul c one) zero); [ring|rewrite <- H1; ring]). subst c.
  assert (E : add one one = (zero : F)) by (transitivity (@add F one (mul (opp one) (opp one))); [ring|rewrite H2; ring]).
  exact (two_nz F E).
Qed.
End Square.

(** For functions given as callables the answer depends on nothing but whether a Hessian
    was given: a square without a Hessian passes. *)
Theorem C85_numeric_refuted :
  forall (F : ofield) (deg : expr F -> symbol -> result (option nat)),
  (exists f0 : list F -> F, is_linear deg (Numeric f0 [vx] false) = Ok true /\
     ~ exists c d, forall x, f0 [x] = add (mul c x) d) /\
  forall f0 vars, is_linear deg (Numeric f0 vars true) = Ok false.
Proof.
  intros F deg. split; [|reflexivity]. exists (fun xs => match xs with [x] => mul x x | _ => zero end).
  split; [reflexivity|]. intros (c & d & H). exact (square_not_affine c d H).
Qed.
Print Assumptions C85_numeric_refuted.

(** ** C86: generated symbols *)

Theorem C86_symbols_partial :
  forall k ns, Forall good_name ns -> 2 <= length ns ->
  generate_symbols k ns = Ok (map (fun n => (n, k)) ns).
Proof. exact symbols_generated. Qed.
Print Assumptions C86_symbols_partial.

(** One index is a TypeError, no index a ValueError. *)
Theorem C86_short_refuted :
  (forall k n, good_name n -> generate_symbols k [n] = Err TypeError) /\
  forall k, generate_symbols k [] = Err ValueError.
Proof. split; [exact symbol_single|exact symbol_none]. Qed.
Print Assumptions C86_short_refuted.

Example C86_applies : good_name (tx "x_1") /\
  generate_symbols 0 (map tx ["x_1"; "x_2"]%string) = Ok [plain (tx "x_1"); plain (tx "x_2")].
Proof.
  split; [|vm_compute; reflexivity]. split; [discriminate|]. intros c Hc.
  cbn in Hc. repeat (destruct Hc as [<-|Hc]; [reflexivity|]). destruct Hc.
Qed.

(** ** C81 *)

(** The linear coefficients are the coefficients whose key has at most one symbol. *)
Theorem C81_linear_selection :
  forall (F : ofield) (S : sympy F) (f : func F) normalize,
  (is_symbolic f = false -> linear_coefficients S f normalize = Err TypeError) /\
  (forall d, coefficients S f normalize = Ok d ->
     (d = [] -> linear_coefficients S f normalize = Ok None) /\
     (d <> [] -> exists l, linear_coefficients S f normalize = Ok (Some l) /\
        forall k v, In (k, v) l <-> In (k, v) d /\ forall s t, In s (free k) -> In t (free k) -> s = t)).
Proof. exact @linear_filter. Qed.
Print Assumptions C81_linear_selection.

(** Coefficients of an expression, which is not simplified. *)
Theorem C81_expression_coefficients :
  forall (F : ofield) (S : sympy F) (I : interp F) (e : expr F) vars,
  let d := sym_coefficients S e vars false in
  NoDup (map fst d) /\
  (forall x, In x (match vars with None => fsyms S e | Some vs => vs end) -> In (ESym x) (map fst d)) /\
  (forall env, dict_value I env d = eval I env e) /\
  (constant_keys d <= 1 -> forall env, dict_value I env (sym_coefficients S e vars true) = eval I env e).
Proof. exact @sym_reproduce. Qed.
Print Assumptions C81_expression_coefficients.
