(** Linear programming problems: optimize/lp.py.  The solver itself
    ([scipy.optimize.linprog]) is an oracle argument. *)
From Verif Require Import Prelude OField FuncModel RelModel.

Section Lp.
Context {F : ofield}.

(** [bounds]: one pair for all variables or one pair per variable; [integrality]: one
    code for all variables or one per variable (0: continuous, 1: integer). *)
Inductive bounds : Type :=
| BoundsAll (lo hi : option F)
| BoundsEach (l : list (option F * option F)).
Inductive integrality : Type :=
| IntAll (k : nat)
| IntEach (l : list nat).

(** Arguments of the constructor, with their Python types. *)
Inductive py_obj : Type := PyFunction (f : func F) | PyRelation (r : relation F) | PyOther.

Record lp : Type := Lp {
  lp_obj : func F;
  lp_cons : list (relation F);
  lp_vars : list symbol;
  lp_bounds : bounds;
  lp_int : option integrality;
  lp_sparsify : bool
}.

Fixpoint check_constraints (cs : list py_obj) : result (list (relation F)) :=
  match cs with
  | [] => Ok []
  | PyRelation r :: cs =>
      if is_symbolic (r_fun r) then do rs <- check_constraints cs ; Ok (r :: rs) else Err ValueError
  | _ :: _ => Err TypeError
  end.

(** [LinearProgrammingProblem.__init__] (lp.py:128-179). *)
Definition mk_lp (obj : py_obj) (cs : list py_obj) (vars : option (list var_arg)) (bnds : bounds)
    (ints : option integrality) (sparsify : bool) : result lp :=
  match vars with
  | None => Err ValueError
  | Some vs =>
      do f <- match obj with
              | PyFunction f => Ok f
              | PyRelation r => Ok (r_fun r)
              | PyOther => Err TypeError
              end ;
      if negb (is_symbolic f) then Err ValueError
      else
        do rs <- check_constraints cs ;
        let known := fvars f ++ concat (map (fun r => fvars (r_fun r)) rs) in
        if negb (forallb is_vsym vs) then Err TypeError
        else if negb (forallb (fun v => mem (arg_symbol v) known) vs) then Err ValueError
        else Ok (Lp f rs (map arg_symbol vs) bnds ints sparsify)
  end.

(** Matrices handed to the solver: dense rows, or a sparse matrix given by its
    (value, row, column) triples, where repeated positions add up. *)
Inductive matrix : Type :=
| Dense (rows : list (list F))
| Csr (entries : list (F * nat * nat)) (nrows ncols : nat).

Record arrays : Type := Arrays {
  A_ub : option matrix; b_ub : option (list F);
  A_eq : option matrix; b_eq : option (list F);
  a_bounds : bounds; a_int : option integrality
}.

Fixpoint mapM {A B} (f : A -> result B) (l : list A) : result (list B) :=
  match l with
  | [] => Ok []
  | x :: l => do y <- f x ; do ys <- mapM f l ; Ok (y :: ys)
  end.

Section To.
Variables (S : sympy F) (I : interp F).

(** [coeffs[x_]], converted to a number: [KeyError] for a missing key. *)
Definition coeff (d : option (list (expr F * expr F))) (x : symbol) : result F :=
  match d with
  | None => Err TypeError
  | Some d => match dget d (ESym x) with
              | Some v => Ok (eval I (fun _ => zero) v)
              | None => Err KeyError
              end
  end.
(** The coefficients of [f] for the given variables. *)
Definition coeff_row (f : func F) (vars : list symbol) : result (list F) :=
  do d <- linear_coefficients S f true ; mapM (coeff d) vars.

(** The triples appended for row [i] (zeros are skipped; lp.py:222-228, 266-272). *)
Definition coo_row (i : nat) (row : list F) : list (F * nat * nat) :=
  flat_map (fun jv => if eqb (snd jv) zero then [] else [(snd jv, i, fst jv)]) (combine (seq 0 (length row)) row).
Definition coo_rows (rows : list (list F)) : list (F * nat * nat) :=
  flat_map (fun ir => coo_row (fst ir) (snd ir)) (combine (seq 0 (length rows)) rows).
Definition assemble (sparsify : bool) (rows : list (list F)) (ncols : nat) : matrix :=
  if sparsify then Csr (coo_rows rows) (length rows) ncols else Dense rows.

Definition is_equality (r : relation F) : bool := match r_class r with CEquality => true | _ => false end.
Definition is_inequality (r : relation F) : bool := match r_class r with CInEquality => true | _ => false end.

(** One equality: its coefficients and [-eq(0)] (lp.py:219-233). *)
Definition eq_row (vars : list symbol) (r : relation F) : result (list F * F) :=
  do row <- coeff_row (r_fun r) vars ;
  do v <- call I (r_fun r) (repeat zero (length vars)) ;
  Ok (row, opp v).

(** One inequality (lp.py:251-276).  [small] is [np.nextafter(0, 1)] and [rnd] the
    rounding of the one floating point addition [... + b_ub_adjustment]. *)
Definition ub_row (small : F) (rnd : F -> F) (vars : list symbol) (r : relation F) : result (list F * F) :=
  do row <- coeff_row (r_fun r) vars ;
  let m : F := match r_op r with Some Rge | Some Rgt => opp one | _ => one end in
  do v <- call I (r_fun r) (repeat zero (length vars)) ;
  let b := mul (opp v) m in
  Ok (map (fun c => mul c m) row,
      match r_op r with Some Rgt | Some Rlt => rnd (sub b small) | _ => b end).

(** [_to_scipy] (lp.py:188-300).  [is_int] is the assumption [symbol.is_integer]. *)
Definition to_scipy (is_int : symbol -> bool) (small : F) (rnd : F -> F) (p : lp) (maximize : bool)
    : result (list F * arrays) :=
  let vars := lp_vars p in
  do c0 <- coeff_row (lp_obj p) vars ;
  let c := if maximize then map (fun x => mul x (opp one)) c0 else c0 in
  let eqs := filter is_equality (lp_cons p) in
  let ubs := filter is_inequality (lp_cons p) in
  do re <- mapM (eq_row vars) eqs ;
  do ru <- mapM (ub_row small rnd vars) ubs ;
  let opt {A} (l : list (relation F)) (a : A) := match l with [] => None | _ => Some a end in
  Ok (c, Arrays (opt ubs (assemble (lp_sparsify p) (map fst ru) (length vars))) (opt ubs (map snd ru))
                (opt eqs (assemble (lp_sparsify p) (map fst re) (length vars))) (opt eqs (map snd re))
                (lp_bounds p)
                (match lp_int p with
                 | Some k => Some k
                 | None => if existsb is_int vars then Some (IntEach (map (fun v => if is_int v then 1 else 0) vars)) else None
                 end)).

(** The solver's answer and [solve] (lp.py:302-330).  Extra keyword arguments, which
    override the assembled ones, are not modelled. *)
Record answer : Type := Answer { success : bool; sol : list F; fval : F }.
Definition solve (is_int : symbol -> bool) (small : F) (rnd : F -> F)
    (linprog : list F -> arrays -> answer) (p : lp) (maximize : bool) : result answer :=
  do (c, a) <- to_scipy is_int small rnd p maximize ;
  let res := linprog c a in
  if success res then do v <- call I (lp_obj p) (sol res) ; Ok (Answer true (sol res) v)
  else Ok res.
End To.

End Lp.
Arguments bounds F : clear implicits.
Arguments py_obj F : clear implicits.
Arguments lp F : clear implicits.
Arguments matrix F : clear implicits.
Arguments arrays F : clear implicits.
Arguments answer F : clear implicits.
