(** Properties C81-C83 and further parts of C48: coefficients of functions, operators of
    relations and the constructor of linear programming problems. *)
From Coq Require Import Ascii String QArith Qcanon.
From Verif Require Import Prelude OField FuncModel RelModel LpModel FuncSpec CoeffSpec FuncProofs RelProofs ParseProofs RelBuildProofs LpProofs FuncCounter CoeffProofs FuncProps.
Local Open Scope nat_scope.

(** ** C48: the arrays exist whenever all functions list the variables of the problem *)
Theorem C48_arrays_built :
  forall (F : ofield) (S : sympy F) (I : interp F) is_int small rnd (p : lp F) maximize,
  is_symbolic (lp_obj p) = true -> incl (lp_vars p) (fvars (lp_obj p)) ->
  (forall r, In r (lp_cons p) -> is_symbolic (r_fun r) = true /\ incl (lp_vars p) (fvars (r_fun r)) /\
     length (fvars (r_fun r)) = length (lp_vars p) /\ incl (free (expr_of (r_fun r))) (fvars (r_fun r))) ->
  exists c a, to_scipy S I is_int small rnd p maximize = Ok (c, a).
Proof. exact @arrays_built. Qed.
Print Assumptions C48_arrays_built.

(** A variable of the problem the objective does not list is a KeyError. *)
Theorem C48_objective_must_list :
  forall (F : ofield) (S : sympy F) (I : interp F), sympy_ok S I ->
  forall is_int small rnd (p : lp F) maximize x,
  is_symbolic (lp_obj p) = true -> In x (lp_vars p) -> ~ In x (fvars (lp_obj p)) -> ~ In x (free (expr_of (lp_obj p))) ->
  to_scipy S I is_int small rnd p maximize = Err KeyError.
Proof. exact @objective_missing. Qed.
Print Assumptions C48_objective_must_list.

Example C48_built_applies :
  is_symbolic (lp_obj p1) = true /\ incl (lp_vars p1) (fvars (lp_obj p1)) /\
  (forall r, In r (lp_cons p1) -> is_symbolic (r_fun r) = true /\ incl (lp_vars p1) (fvars (r_fun r)) /\
     length (fvars (r_fun r)) = length (lp_vars p1) /\ incl (free (expr_of (r_fun r))) (fvars (r_fun r))).
Proof.
  split; [reflexivity|]. split; [apply incl_refl|].
  intros r [<-|[<-|[<-|[]]]]; vm_compute; (split; [reflexivity|]); (split; [intros s H; exact H|]);
    (split; [reflexivity|]); intros s H; repeat (destruct H as [<-|H]; [auto 3|]); destruct H.
Qed.

(** ** C81: the coefficients of a function reproduce it *)

Theorem C81_coefficients :
  forall (F : ofield) (S : sympy F) (I : interp F), sympy_ok S I -> forall f : func F,
  (is_symbolic f = false -> forall normalize, coefficients S f normalize = Err TypeError) /\
  (is_symbolic f = true -> exists d, coefficients S f false = Ok d /\ NoDup (map fst d) /\
     (forall x, In x (fvars f) -> In (ESym x) (map fst d)) /\
     forall env, dict_value I env d = eval I env (expr_of f)).
Proof. exact @coefficients_reproduce. Qed.
Print Assumptions C81_coefficients.

(** Normalised, if there is at most one term without variables. *)
Theorem C81_normalized_partial :
  forall (F : ofield) (S : sympy F) (I : interp F), sympy_ok S I -> forall (f : func F) d,
  coefficients S f false = Ok d -> constant_keys d <= 1 ->
  exists n, coefficients S f true = Ok n /\ forall env, dict_value I env n = eval I env (expr_of f).
Proof. exact @normalized_reproduce. Qed.
Print Assumptions C81_normalized_partial.

(** With two such terms, as in 1 + pi, the last overwrites the others: wrong everywhere. *)
Theorem C81_normalized_refuted :
  forall (F : ofield) (I : interp F), exists n,
  coefficients idle (fun_of (EAdd (ENum one) (EConst (tx "pi"))) []) true = Ok n /\
  forall env, dict_value I env n <> eval I env (EAdd (ENum one) (EConst (tx "pi"))).
Proof. exact @normalized_wrong. Qed.
Print Assumptions C81_normalized_refuted.

(** Linear functions: the keys are variables and constants and the dictionary is the
    function. *)
Theorem C81_linear_coefficients :
  forall (F : ofield) (S : sympy F) (I : interp F), sympy_ok S I -> forall f : func F,
  is_symbolic f = true -> numeric_linear (simp S (expr_of f)) ->
  exists d, linear_coefficients S f false = Ok (Some d) /\
    (forall k, In k (map fst d) -> (exists x, k = ESym x) \/ free k = []) /\
    forall env, dict_value I env d = eval I env (expr_of f).
Proof. exact @linear_reproduce. Qed.
Print Assumptions C81_linear_coefficients.

(** The linear coefficients of x**2 list x**2. *)
Theorem C81_nonlinear_listed_refuted :
  forall F : ofield, exists (f : func F) d k,
  linear_coefficients idle f false = Ok (Some d) /\ In k (map fst d) /\
  k = EPow (ESym vx) (ENum (add one one)) /\ dget d k = Some (ENum one).
Proof. exact @linear_wrong. Qed.
Print Assumptions C81_nonlinear_listed_refuted.

Example C81_applies :
  match coefficients idle (Symbolic (EAdd (EMul (ENum (Q2Qc 3 : Qc_ofield)) (ESym vx)) (ENum (Q2Qc 2 : Qc_ofield))) [vx; vy] false) false with
  | Ok d => (length d =? 3) && (constant_keys d =? 1)
  | Err _ => false
  end = true.
Proof. vm_compute. reflexivity. Qed.

(** ** C82: exactly the well-posed problems are accepted *)

Theorem C82_accepted :
  forall (F : ofield) (obj : py_obj F) cs vars bnds ints sparsify (p : lp F),
  mk_lp obj cs vars bnds ints sparsify = Ok p <->
  exists f rs ss, well_posed obj cs vars f rs ss /\ p = Lp f rs ss bnds ints sparsify.
Proof. exact @problem_accepted. Qed.
Print Assumptions C82_accepted.

Theorem C82_rejected :
  forall (F : ofield) (obj : py_obj F) cs vars bnds ints sparsify,
  (forall f rs ss, ~ well_posed obj cs vars f rs ss) ->
  mk_lp obj cs vars bnds ints sparsify = Err ValueError \/ mk_lp obj cs vars bnds ints sparsify = Err TypeError.
Proof. exact @problem_rejected. Qed.
Print Assumptions C82_rejected.

Example C82_applies :
  well_posed (PyFunction (lp_obj p1)) (map (@PyRelation Qc_ofield) (lp_cons p1)) (Some (map VSym (lp_vars p1)))
    (lp_obj p1) (lp_cons p1) (lp_vars p1) /\
  forall f rs ss, ~ well_posed (PyFunction (lp_obj p1)) [PyFunction (lp_obj p1)] (Some (map VSym (lp_vars p1))) f rs ss.
Proof.
  split.
  - repeat split; try reflexivity.
    + intros r [<-|[<-|[<-|[]]]]; vm_compute; reflexivity.
    + intros s H. left. exact H.
  - intros f rs ss (_ & _ & E & _). destruct rs; discriminate.
Qed.

(** ** C83: a relation has the operator it was given *)

Theorem C83_accepted :
  forall (F : ofield) (S : sympy F) parse cls (src : source F) vars op op_str o, operator_of src op op_str o ->
  (forall fn src', function_source src op = Ok src' -> mk_func S parse src' vars = Ok fn -> class_allows cls o ->
     exists r, mk_relation S parse cls src vars op op_str = Ok r /\
       r_fun r = fn /\ r_op r = o /\ compares op o (r_opfunc r) /\ class_of cls o op_str (r_class r)) /\
  (forall src' e, function_source src op = Ok src' -> mk_func S parse src' vars = Err e ->
     mk_relation S parse cls src vars op op_str = Err e) /\
  (forall fn src', function_source src op = Ok src' -> mk_func S parse src' vars = Ok fn -> ~ class_allows cls o ->
     mk_relation S parse cls src vars op op_str = Err AssertionError).
Proof. exact @relation_accepted. Qed.
Print Assumptions C83_accepted.

Theorem C83_rejected :
  forall (F : ofield) (S : sympy F) parse cls (src : source F) vars op op_str,
  (forall o, ~ operator_of src op op_str o) ->
  mk_relation S parse cls src vars op op_str = Err ValueError.
Proof. exact @relation_rejected. Qed.
Print Assumptions C83_rejected.

Example C83_applies :
  operator_of (F := Qc_ofield) (FromStr (tx "x + 2*y <= 4")) None None (Some Rle) /\
  operator_of (F := Qc_ofield) (FromStr (tx "x + 2*y - 4")) (Some (OpStr (tx ">="))) None (Some Rge) /\
  (forall o, ~ operator_of (F := Qc_ofield) (FromStr (tx "x")) (Some (OpStr (tx "=>"))) None o) /\
  is_ok (mk_relation (F := Qc_ofield) idle parse_text CInEquality (FromStr (tx "x + 2*y - 4")) (Some [VSym vx; VSym vy]) (Some (OpStr (tx ">="))) None) = true.
Proof.
  split; [apply (op_inside _ (tx "x + 2*y") Rle (tx "4")); vm_compute; reflexivity|].
  split; [apply (op_string _ Rge)|]. split; [|vm_compute; reflexivity].
  intros o H. remember (tx "=>") as w eqn:Ew. inversion H as [src' o' os E1 E2 E3| | | | |]. subst. destruct o'; discriminate.
Qed.
