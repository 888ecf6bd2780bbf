(** Properties C48-C52: linear programming problems, relations and substitution. *)
From Coq Require Import Ascii String QArith Qcanon.
From Verif Require Import Prelude OField FuncModel RelModel LpModel FuncSpec FuncProofs RelProofs ParseProofs RelBuildProofs LpProofs FuncCounter.
Local Open Scope nat_scope.

(** ** C48 *)

(** If the arrays can be built, every constraint came out of the constructor with one
    of the operators =, <=, >= and is written (after simplification) as a sum of
    numeric multiples of variables and constants, then a point satisfies the arrays
    exactly when it satisfies all constraints. *)
Theorem C48_arrays_describe_constraints_partial :
  forall (F : ofield) (S : sympy F) (I : interp F), sympy_ok S I ->
  forall is_int small rnd (p : lp F) maximize c a,
  NoDup (lp_vars p) ->
  (forall r, In r (lp_cons p) -> built S r /\ nonstrict r /\ numeric_linear (simp S (expr_of (r_fun r)))) ->
  to_scipy S I is_int small rnd p maximize = Ok (c, a) ->
  forall x, length x = length (lp_vars p) ->
  (arrays_admit a x <-> forall r, In r (lp_cons p) -> holds_at I r (env_of (lp_vars p) x)).
Proof. exact @arrays_faithful. Qed.
Print Assumptions C48_arrays_describe_constraints_partial.

(** The cost vector is the linear part of the objective, negated for maximisation. *)
Theorem C48_cost_vector_partial :
  forall (F : ofield) (S : sympy F) (I : interp F), sympy_ok S I ->
  forall is_int small rnd (p : lp F) maximize c a,
  NoDup (lp_vars p) -> numeric_linear (simp S (expr_of (lp_obj p))) ->
  (forall s, In s (free (expr_of (lp_obj p))) -> In s (lp_vars p)) ->
  to_scipy S I is_int small rnd p maximize = Ok (c, a) ->
  length c = length (lp_vars p) /\
  forall x, length x = length (lp_vars p) ->
  dotl c x = (if maximize : bool then opp else fun v => v)
               (sub (objective I p x) (eval I (fun _ => zero) (expr_of (lp_obj p)))).
Proof.
  intros F S I H is_int small rnd p mx c a N T Fr E.
  destruct (cost_value S I H is_int small rnd p mx c a N T Fr E) as [L G]. split; [exact L|].
  intros x Lx. rewrite (G x Lx). destruct mx; reflexivity.
Qed.
Print Assumptions C48_cost_vector_partial.

(** Sparse and dense assembly give matrices with the same shape and entries. *)
Theorem C48_sparse_is_dense :
  forall (F : ofield) (rows : list (list F)) n,
  nrows (assemble true rows n) = nrows (assemble false rows n) /\
  forall i j, entry (assemble true rows n) i j = entry (assemble false rows n) i j.
Proof. intros F rows n. split; [reflexivity|]. intros. apply same_entries. Qed.
Print Assumptions C48_sparse_is_dense.

(** The claim fails for a linear constraint with a coefficient that is not a rational
    number, pi*x - 1 <= 0: the coefficient of x is read as 0. *)
Theorem C48_symbolic_coefficient_refuted :
  forall (F : ofield) (I : interp F) is_int small rnd, iconst I (tx "pi") <> zero ->
  exists (r : relation F) p c a x,
    mk_relation idle no_parse CRelation (FromExpr pi_expr) (Some [VSym vx]) (Some (OpRel Rle)) None = Ok r /\
    mk_lp (PyFunction (fun_of (ESym vx) [vx])) [PyRelation r] (Some [VSym vx]) (BoundsAll None None) None false = Ok p /\
    affine I (expr_of (r_fun r)) /\ nonstrict r /\
    to_scipy idle I is_int small rnd p false = Ok (c, a) /\ length x = 1 /\
    arrays_admit a x /\ ~ holds_at I r (env_of (lp_vars p) x).
Proof.
  intros F I is_int small rnd P. destruct (pi_wrong I is_int small rnd P) as (c & a & x & H1 & H2 & H3 & H4).
  exists pi_rel, (one_cons pi_rel), c, a, x. split; [exact pi_rel_built|]. split; [apply one_cons_built; reflexivity|].
  split; [|split; [right; left; reflexivity|auto]].
  exact (pi_affine I).
Qed.
Print Assumptions C48_symbolic_coefficient_refuted.

(** It also fails when the operator is given as a Python callable: an inequality with
    [operator.ge] is passed on as <=, a relation with [operator.ge] is dropped. *)
Theorem C48_callable_operator_refuted :
  forall (F : ofield) (I : interp F) is_int small rnd,
  exists (r r' : relation F) p p' c a x c' a' x',
    mk_relation idle no_parse CInEquality (FromExpr ge_expr) (Some [VSym vx]) (Some (OpFun (fun u v => leb v u))) None = Ok r /\
    mk_lp (PyFunction (fun_of (ESym vx) [vx])) [PyRelation r] (Some [VSym vx]) (BoundsAll None None) None false = Ok p /\
    to_scipy idle I is_int small rnd p false = Ok (c, a) /\ length x = 1 /\
    arrays_admit a x /\ ~ holds_at I r (env_of (lp_vars p) x) /\
    mk_relation idle no_parse CRelation (FromExpr ge_expr) (Some [VSym vx]) (Some (OpFun (fun u v => leb v u))) None = Ok r' /\
    mk_lp (PyFunction (fun_of (ESym vx) [vx])) [PyRelation r'] (Some [VSym vx]) (BoundsAll None None) None false = Ok p' /\
    to_scipy idle I is_int small rnd p' false = Ok (c', a') /\ length x' = 1 /\
    arrays_admit a' x' /\ ~ holds_at I r' (env_of (lp_vars p') x').
Proof.
  intros F I is_int small rnd.
  destruct (callable_wrong I is_int small rnd) as [(c & a & x & H1 & H2 & H3 & H4) (c' & a' & x' & H1' & H2' & H3' & H4')].
  exists ge_rel, ge_plain, (one_cons ge_rel), (one_cons ge_plain), c, a, x, c', a', x'.
  split; [exact ge_rel_built|]. split; [apply one_cons_built; reflexivity|]. do 4 (split; [assumption|]).
  split; [exact ge_plain_built|]. split; [apply one_cons_built; reflexivity|]. auto.
Qed.
Print Assumptions C48_callable_operator_refuted.

(** ** C49 *)

(** Whenever the solver is right about the arrays, the point is an optimum of the
    problem and the reported value is the value of the objective called with the
    point; that is the objective at the point if the objective lists its variables in
    the order of the problem. *)
Theorem C49_optimum_of_problem_partial :
  forall (F : ofield) (S : sympy F) (I : interp F), sympy_ok S I ->
  forall is_int small rnd linprog (p : lp F) maximize res,
  (forall c a, success (linprog c a) = true -> solver_optimum c a (sol (linprog c a))) ->
  NoDup (lp_vars p) ->
  (forall r, In r (lp_cons p) -> built S r /\ nonstrict r /\ numeric_linear (simp S (expr_of (r_fun r)))) ->
  numeric_linear (simp S (expr_of (lp_obj p))) ->
  solve S I is_int small rnd linprog p maximize = Ok res -> success res = true ->
  optimum I is_int p maximize (sol res) /\ call I (lp_obj p) (sol res) = Ok (fval res) /\
  (fvars (lp_obj p) = lp_vars p -> fval res = objective I p (sol res)).
Proof. exact @solve_optimum. Qed.
Print Assumptions C49_optimum_of_problem_partial.

(** A solver that gives up only when there is no optimum makes [solve] give up only
    when the problem has none. *)
Theorem C49_failure_means_no_optimum_partial :
  forall (F : ofield) (S : sympy F) (I : interp F), sympy_ok S I ->
  forall is_int small rnd linprog (p : lp F) maximize res,
  (forall c a, success (linprog c a) = false -> forall x, ~ solver_optimum c a x) ->
  NoDup (lp_vars p) ->
  (forall r, In r (lp_cons p) -> built S r /\ nonstrict r /\ numeric_linear (simp S (expr_of (r_fun r)))) ->
  numeric_linear (simp S (expr_of (lp_obj p))) ->
  (forall s, In s (free (expr_of (lp_obj p))) -> In s (lp_vars p)) ->
  solve S I is_int small rnd linprog p maximize = Ok res -> success res = false ->
  forall x, ~ optimum I is_int p maximize x.
Proof. exact @solve_failure. Qed.
Print Assumptions C49_failure_means_no_optimum_partial.

(** The reported value is wrong if the objective x + 2y lists its variables as (x, y)
    and the problem as (y, x). *)
Theorem C49_reported_value_refuted :
  forall (F : ofield) (I : interp F) is_int small rnd,
  exists (p : lp F) linprog c a res,
    mk_lp (PyFunction (lp_obj p)) [] (Some [VSym vy; VSym vx])
      (BoundsEach [(Some one, Some one); (Some zero, Some zero)]) None false = Ok p /\
    to_scipy idle I is_int small rnd p false = Ok (c, a) /\ solver_optimum c a (sol (linprog c a)) /\
    solve idle I is_int small rnd linprog p false = Ok res /\ success res = true /\
    fval res <> objective I p (sol res).
Proof.
  intros F I is_int small rnd. destruct (order_wrong I is_int small rnd) as (c & a & res & H).
  exists order_lp, order_answer, c, a, res. split; [exact order_lp_built|exact H].
Qed.
Print Assumptions C49_reported_value_refuted.

(** ** C50 *)

(** For every value of the shift and every rounding of it, the half-line x < 0 is
    represented by a different set. *)
Theorem C50_strict_refuted :
  forall (F : ofield) (I : interp F) is_int small rnd,
  exists (r : relation F) p c a x,
    mk_relation idle no_parse CRelation (FromExpr (ESym vx)) (Some [VSym vx]) (Some (OpRel Rlt)) None = Ok r /\
    mk_lp (PyFunction (fun_of (ESym vx) [vx])) [PyRelation r] (Some [VSym vx]) (BoundsAll None None) None false = Ok p /\
    to_scipy idle I is_int small rnd p false = Ok (c, a) /\ length x = 1 /\
    ~ (arrays_admit a x <-> holds_at I r (env_of (lp_vars p) x)).
Proof.
  intros F I is_int small rnd. destruct (strict_wrong I is_int small rnd) as (c & a & x & H).
  exists neg_rel, (one_cons neg_rel), c, a, x. split; [exact neg_rel_built|]. split; [apply one_cons_built; reflexivity|exact H].
Qed.
Print Assumptions C50_strict_refuted.

(** The nonlinear constraint x**2 - 1 <= 0 is accepted and its nonlinear term is
    dropped. *)
Theorem C50_nonlinear_refuted :
  forall (F : ofield) (I : interp F) is_int small rnd, (forall v, ipow I v (add one one) = mul v v) ->
  exists (r : relation F) p c a x,
    mk_relation idle no_parse CRelation (FromExpr (EAdd (EPow (ESym vx) (ENum (add one one))) (ENum (opp one))))
      (Some [VSym vx]) (Some (OpRel Rle)) None = Ok r /\
    mk_lp (PyFunction (fun_of (ESym vx) [vx])) [PyRelation r] (Some [VSym vx]) (BoundsAll None None) None false = Ok p /\
    to_scipy idle I is_int small rnd p false = Ok (c, a) /\ length x = 1 /\
    arrays_admit a x /\ ~ holds_at I r (env_of (lp_vars p) x).
Proof.
  intros F I is_int small rnd P. destruct (nonlinear_wrong I is_int small rnd P) as (c & a & x & H).
  exists sq_rel, (one_cons sq_rel), c, a, x. split; [exact sq_rel_built|]. split; [apply one_cons_built; reflexivity|exact H].
Qed.
Print Assumptions C50_nonlinear_refuted.

(** What is true of strict constraints in exact arithmetic: the arrays admit exactly
    the points that satisfy them with the margin [small], hence only points that
    satisfy them. *)
Theorem C50_strict_margin_partial :
  forall (F : ofield) (S : sympy F) (I : interp F), sympy_ok S I ->
  forall is_int small (p : lp F) maximize c a,
  NoDup (lp_vars p) -> leb small zero = false ->
  (forall r, In r (lp_cons p) -> built S r /\ r_op r <> None /\ numeric_linear (simp S (expr_of (r_fun r)))) ->
  to_scipy S I is_int small (fun v => v) p maximize = Ok (c, a) ->
  forall x, length x = length (lp_vars p) ->
  (arrays_admit a x <-> forall r, In r (lp_cons p) -> holds_margin I small r (env_of (lp_vars p) x)) /\
  (arrays_admit a x -> forall r, In r (lp_cons p) -> holds_at I r (env_of (lp_vars p) x)).
Proof.
  intros F S I H is_int small p mx c a N P G E x L.
  assert (M : arrays_admit a x <-> forall r, In r (lp_cons p) -> holds_margin I small r (env_of (lp_vars p) x)).
  { apply (arrays_margin S I H is_int small (fun v => v) p mx c a N); [|exact E|exact L].
    intros r Hr. destruct (G r Hr) as (B & O & T). split; [exact B|]. split; [exact T|].
    destruct (r_op r) as [o|]; [|congruence]. exists o. auto. }
  split; [exact M|]. intros A r Hr. destruct (G r Hr) as (B & O & _).
  destruct (r_op r) as [o|] eqn:Eo; [|congruence].
  apply (margin_holds S I small r _ o P B Eo). apply M; assumption.
Qed.
Print Assumptions C50_strict_margin_partial.

(** ** C51 *)

(** Strings without line breaks: a string with exactly one operator between two
    non-empty sides is split there, every other string is rejected. *)
Theorem C51_split_at_operator :
  forall s, one_line s ->
  (forall a w b, s = a ++ w ++ b -> In w valid_operators -> a <> [] -> b <> [] -> no_op a -> no_op b ->
     parse_expression s = Ok (strip a, w, strip b)) /\
  ((forall a w b, s = a ++ w ++ b -> In w valid_operators -> a <> [] -> b <> [] -> ~ (no_op a /\ no_op b)) ->
     parse_expression s = Err ValueError).
Proof.
  intros s L. split.
  - intros a w b -> O A B NA NB. apply parse_split; assumption.
  - apply parse_reject. exact L.
Qed.
Print Assumptions C51_split_at_operator.

(** The relation made from a string holds at a point exactly when the two sides, read
    as expressions, are related there by the operator of the string; if all names
    occurring in it are among its variables, it can be evaluated at every point. *)
Theorem C51_relation_holds :
  forall (F : ofield) (S : sympy F) (I : interp F), sympy_ok S I ->
  forall s vars op_str rel l w r (el er : expr F),
  parse_expression s = Ok (l, w, r) -> parse_text l = Some el -> parse_text r = Some er ->
  mk_relation S parse_text CRelation (FromStr s) vars None op_str = Ok rel ->
  (forall xs b, NoDup (map fst (fvars (r_fun rel))) -> relate I rel xs = Ok b ->
     exists o, w = rop_text o /\
       (b = true <-> rel_holds o (eval I (env_of (by_name (fvars (r_fun rel))) xs) el)
                                 (eval I (env_of (by_name (fvars (r_fun rel))) xs) er))) /\
  (forall xs, length xs = length (fvars (r_fun rel)) ->
     (forall t, In t (free el) \/ In t (free er) -> In (fst t) (map fst (fvars (r_fun rel)))) ->
     exists b, relate I rel xs = Ok b).
Proof.
  intros F S I H s vars op_str rel l w r el er P L R M. split.
  - intros xs b N E. exact (relation_value S I H s vars op_str rel l w r el er xs b P L R M N E).
  - intros xs Lx Fr. exact (relation_total S I H s vars op_str rel l w r el er xs P L R M Lx Fr).
Qed.
Print Assumptions C51_relation_holds.

(** With a line break the text after it is lost, even if it holds a second operator;
    a right hand side of blanks is accepted. *)
Definition newline : text := [ascii_of_nat 10].
Theorem C51_line_break_refuted :
  exists a w b w' b', In w valid_operators /\ In w' valid_operators /\ b' <> [] /\
    parse_expression (a ++ w ++ b ++ newline ++ w' ++ b') = Ok (strip a, w, strip b).
Proof.
  exists (tx "x "), (tx "<="), (tx " 2"), (tx ">="), (tx " y").
  split; [left; reflexivity|]. split; [right; left; reflexivity|]. split; [discriminate|]. vm_compute. reflexivity.
Qed.
Print Assumptions C51_line_break_refuted.
Example C51_empty_side : parse_expression (tx "x < ") = Ok (tx "x", tx "<", tx "").
Proof. vm_compute. reflexivity. Qed.

(** ** C52 *)

(** With variables without assumptions, if no replacement mentions a variable that
    is replaced after it, the result evaluates like the original at the substituted
    arguments. *)
Theorem C52_simultaneous_partial :
  forall (F : ofield) (S : sympy F) (I : interp F) (f : func F) values vs g, sympy_ok S I ->
  all_plain vs -> vs <> [] -> later_free (combine (map arg_symbol vs) values) ->
  func_subs S f values (Some vs) = Ok g ->
  forall env, eval I env (expr_of g) = eval I (substituted I (combine (map arg_symbol vs) values) env) (expr_of f).
Proof. exact @func_subs_value. Qed.
Print Assumptions C52_simultaneous_partial.

(** Exchanging two variables replaces both by the same one. *)
Theorem C52_swap_refuted :
  forall (F : ofield) (I : interp F), exists (f : func F) g env,
  func_subs idle f [ESym vy; ESym vx] (Some [VSym vx; VSym vy]) = Ok g /\
  eval I env (expr_of g) <> eval I (substituted I [(vx, ESym vy); (vy, ESym vx)] env) (expr_of f).
Proof. intros F I. destruct (swap_wrong I) as (g & env & H). exists (fun_of (ESym vx) [vx; vy]), g, env. exact H. Qed.
Print Assumptions C52_swap_refuted.

(** A function made from a string whose variable carries an assumption (such as
    integer=True) ignores the substitution. *)
Theorem C52_assumptions_refuted :
  forall (F : ofield) (I : interp F), exists (f g : func F) env,
  mk_symbolic idle true (ESym vx) (Some [VSym kx]) = Ok f /\
  func_subs idle f [ENum one] (Some [VSym kx]) = Ok g /\
  eval I env (expr_of g) <> eval I (substituted I [(kx, ENum one)] env) (expr_of f).
Proof. intros F I. exact (assumption_wrong I). Qed.
Print Assumptions C52_assumptions_refuted.

(** Substituting for one of two variables gives a function that can not be called. *)
Theorem C52_partial_substitution_refuted :
  forall (F : ofield) (I : interp F), exists (f g : func F),
  func_subs idle f [ENum one] (Some [VSym vx]) = Ok g /\ forall xs, exists e, call I g xs = Err e.
Proof. intros F I. destruct (partial_wrong I) as (g & H). exists (fun_of (EAdd (ESym vx) (ESym vy)) [vx; vy]), g. exact H. Qed.
Print Assumptions C52_partial_substitution_refuted.

(** ** The hypotheses are met *)

Local Notation QS := (idle (F := Qc_ofield)).
Definition iq : interp Qc_ofield := Interp (fun _ => (Q2Qc 3 : Qc_ofield)) (fun a b => a) (fun _ a => a).
Definition mk (s : string) : result (relation Qc_ofield) :=
  mk_relation QS parse_text CRelation (FromStr (tx s)) (Some [VSym vx; VSym vy]) None None.
Definition get {A} (r : result A) (d : A) : A := match r with Ok a => a | Err _ => d end.
Definition c1 := get (mk "x + 2*y <= 4") pi_rel.
Definition c2 := get (mk "x >= 1") pi_rel.
Definition c3 := get (mk "3*x + y = 7") pi_rel.
Definition p1 : lp Qc_ofield :=
  Lp (Symbolic (EAdd (ESym vx) (ESym vy)) [vx; vy] false) [c1; c2; c3] [vx; vy] (BoundsAll None None) None true.

Example C48_applies : NoDup (lp_vars p1) /\
  (forall r, In r (lp_cons p1) -> built QS r /\ nonstrict r /\ numeric_linear (simp QS (expr_of (r_fun r)))) /\
  is_ok (to_scipy QS iq (fun _ => false) (Q2Qc 0 : Qc_ofield) (fun v => v) p1 true) = true.
Proof.
  split; [|split].
  - repeat constructor; cbn; [intros [E|[]]; discriminate|intros []].
  - intros r [<-|[<-|[<-|[]]]];
      (split; [eexists parse_text, CRelation, _, (Some [VSym vx; VSym vy]), None, None; apply (ok_get _ pi_rel); vm_compute; reflexivity|]);
      (split; [vm_compute; auto|]); apply numeric_linear_test; vm_compute; reflexivity.
  - vm_compute. reflexivity.
Qed.
Definition p2 : lp Qc_ofield :=
  Lp (Symbolic (EAdd (ESym vx) (ESym vy)) [vx; vy] false) [] [vx; vy]
     (BoundsEach [(Some one, Some one); (Some zero, Some zero)]) None false.
Example C49_applies :
  (forall c a, success (fixed_solver c a) = true -> solver_optimum (F := Qc_ofield) c a (sol (fixed_solver c a))) /\
  numeric_linear (simp QS (expr_of (lp_obj p2))) /\
  (do res <- solve QS iq (fun _ => false) (Q2Qc 0 : Qc_ofield) (fun v => v) fixed_solver p2 true ; Ok (success res)) = Ok true.
Proof.
  split; [exact fixed_solver_right|]. split; [|vm_compute; reflexivity].
  intros t [<-|[<-|[]]]; right; left; eexists; reflexivity.
Qed.
Example C51_applies :
  one_line (tx "x + 2*y <= 4") /\
  parse_expression (tx "x + 2*y <= 4") = Ok (tx "x + 2*y", tx "<=", tx "4") /\
  (do r <- mk "x + 2*y <= 4" ; relate iq r [Q2Qc 0; Q2Qc 2]) = Ok true /\
  (do r <- mk "x + 2*y <= 4" ; relate iq r [Q2Qc 1; Q2Qc 2]) = Ok false.
Proof.
  split; [|vm_compute; auto]. intros c Hc. cbn in Hc. repeat (destruct Hc as [<-|Hc]; [discriminate|]). destruct Hc.
Qed.
Example C52_applies :
  all_plain [VSym vx; VSym vy] /\ later_free (combine (map arg_symbol [VSym vx; VSym vy]) [ENum (Q2Qc 1 : Qc_ofield); ESym vx]) /\
  is_ok (func_subs QS (Symbolic (EAdd (ESym vx) (ESym vy)) [vx; vy] true) [ENum (Q2Qc 1 : Qc_ofield); ESym vx] (Some [VSym vx; VSym vy])) = true.
Proof.
  split; [intros v [<-|[<-|[]]]; reflexivity|]. split; [cbn; tauto|vm_compute; reflexivity].
Qed.
