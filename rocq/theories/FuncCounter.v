(** Witnesses against the parts of C48-C52 that the code does not fulfil. *)
From Coq Require Import Ascii String Field.
From Verif Require Import Prelude OField FuncModel RelModel LpModel FuncSpec FuncProofs LpProofs.

Section Counter.
Context {F : ofield}.
Add Field CF : (of_field F).

(** A SymPy that simplifies nothing. *)
Definition idle : sympy F := Sympy (fun e => e) (fun e => distinct (free e)).

Lemma distinct_in l s : In s (distinct l) <-> In s l.
Proof.
  induction l as [|x l IH]; cbn; [tauto|]. destruct (mem_spec x l) as [M|M]; cbn; rewrite IH; [|tauto].
  split; [auto|]. intros [->|H]; assumption.
Qed.
Lemma distinct_nodup l : NoDup (distinct l).
Proof.
  induction l as [|x l IH]; cbn; [constructor|]. destruct (mem_spec x l) as [M|M]; [exact IH|].
  constructor; [rewrite distinct_in; exact M|exact IH].
Qed.
Lemma idle_ok I : sympy_ok idle I.
Proof.
  split; cbn; auto; intros; [apply distinct_nodup|apply distinct_in].
Qed.

(** A test for [numeric_linear]. *)
Definition numeric_termb (t : expr F) : bool :=
  match free t, t with
  | [], _ | _, ESym _ | _, EMul (ENum _) (ESym _) => true
  | _, _ => false
  end.
Lemma numeric_linear_test e : forallb numeric_termb (summands e) = true -> numeric_linear e.
Proof.
  intros H t Ht. apply (proj1 (forallb_forall _ _) H) in Ht. unfold numeric_termb in Ht. unfold numeric_term.
  destruct (free t) eqn:E; [auto|]. right. destruct t as [| |s0| |[] []| |]; try discriminate; [left|right]; eauto.
Qed.
Lemma ok_get {A} (r : result A) d : is_ok r = true -> r = Ok (match r with Ok a => a | Err _ => d end).
Proof. destruct r; [reflexivity|discriminate]. Qed.

Definition vx : symbol := plain (tx "x").
Definition vy : symbol := plain (tx "y").
Definition no_parse : text -> option (expr F) := fun _ => None.
Definition fun_of (e : expr F) (vars : list symbol) : func F := Symbolic e vars false.

(** A one-variable problem with objective x and one constraint, built through the
    constructors. *)
Definition one_cons (r : relation F) : lp F := Lp (fun_of (ESym vx) [vx]) [r] [vx] (BoundsAll None None) None false.
Lemma one_cons_built r : is_symbolic (r_fun r) = true ->
  mk_lp (PyFunction (fun_of (ESym vx) [vx])) [PyRelation r] (Some [VSym vx]) (BoundsAll None None) None false = Ok (one_cons r).
Proof. intros H. unfold mk_lp. cbn -[mem]. rewrite H. cbn -[mem]. destruct (mem_spec vx (vx :: fvars (r_fun r) ++ [])) as [M|M]; [reflexivity|]. destruct M. left. reflexivity. Qed.

(** [pi*x - 1 <= 0]. *)
Definition pi_expr : expr F := EAdd (EMul (EConst (tx "pi")) (ESym vx)) (ENum (opp one)).
Definition pi_rel : relation F := Relation (fun_of pi_expr [vx]) CInEquality (Some Rle) (opfunc_of Rle).
Lemma pi_rel_built : mk_relation idle no_parse CRelation (FromExpr pi_expr) (Some [VSym vx]) (Some (OpRel Rle)) None = Ok pi_rel.
Proof. reflexivity. Qed.

Lemma pi_affine I : affine I pi_expr.
Proof.
  exists (fun _ => iconst I (tx "pi")), [vx], (opp one). intros env.
  change (add (mul (iconst I (tx "pi")) (env vx)) (opp one) = add (add (mul (iconst I (tx "pi")) (env vx)) zero) (opp one)).
  ring.
Qed.

Lemma one_le_two : leb (add one one) (@one F) = false.
Proof.
  destruct (leb (add one one) one) eqn:E; [|reflexivity].
  pose proof (of_add F _ _ (opp one) E) as K. replace (add (add one one) (opp one)) with (@one F) in K by ring.
  replace (add one (opp one)) with (@zero F) in K by ring. pose proof (lt_0_1 F). congruence.
Qed.

Lemma pi_wrong I is_int small rnd : iconst I (tx "pi") <> zero ->
  exists c a x, to_scipy idle I is_int small rnd (one_cons pi_rel) false = Ok (c, a) /\ length x = 1 /\
    arrays_admit a x /\ ~ holds_at I pi_rel (env_of [vx] x).
Proof.
  intros P. eexists _, _, [div (add one one) (iconst I (tx "pi"))]. split; [reflexivity|]. split; [reflexivity|]. split.
  - split; cbn; [exact Logic.I|]. split; [reflexivity|]. intros i Hi. assert (i = 0) as -> by lia. cbn.
    match goal with |- leb ?u ?v = true => replace u with (@zero F) by ring; replace v with (@one F) by ring end.
    apply (lt_le F). apply lt_0_1.
  - set (k := iconst I (tx "pi")) in *.
    change (leb (add (mul k (div (add one one) k)) (opp one)) zero <> true).
    replace (add (mul k (div (add one one) k)) (opp one)) with (@one F) by (field; exact P).
    rewrite lt_0_1. discriminate.
Qed.

(** [x >= 1] with the operator given as the Python callable [operator.ge]. *)
Definition ge_expr : expr F := EAdd (ESym vx) (ENum (opp one)).
Definition py_ge (a b : F) : bool := leb b a.
Definition ge_rel : relation F := Relation (fun_of ge_expr [vx]) CInEquality None py_ge.
Definition ge_plain : relation F := Relation (fun_of ge_expr [vx]) CRelation None py_ge.
Lemma ge_rel_built : mk_relation idle no_parse CInEquality (FromExpr ge_expr) (Some [VSym vx]) (Some (OpFun py_ge)) None = Ok ge_rel.
Proof. reflexivity. Qed.
Lemma ge_plain_built : mk_relation idle no_parse CRelation (FromExpr ge_expr) (Some [VSym vx]) (Some (OpFun py_ge)) None = Ok ge_plain.
Proof. reflexivity. Qed.

Lemma callable_wrong I is_int small rnd :
  (exists c a x, to_scipy idle I is_int small rnd (one_cons ge_rel) false = Ok (c, a) /\ length x = 1 /\
     arrays_admit a x /\ ~ holds_at I ge_rel (env_of [vx] x)) /\
  (exists c a x, to_scipy idle I is_int small rnd (one_cons ge_plain) false = Ok (c, a) /\ length x = 1 /\
     arrays_admit a x /\ ~ holds_at I ge_plain (env_of [vx] x)).
Proof.
  assert (M : leb (@zero F) (add zero (opp one)) = false /\ leb zero (@one F) = true).
  { split; [|apply (lt_le F), lt_0_1]. apply (sub_pos F). replace (sub (@zero F) (add zero (opp one))) with (@one F) by ring. apply lt_0_1. }
  split; eexists _, _, [zero]; (split; [reflexivity|]); (split; [reflexivity|]); (split; [split; cbn; try exact Logic.I|]).
  - split; [reflexivity|]. intros i Hi. assert (i = 0) as -> by lia. cbn.
    match goal with |- leb ?u ?v = true => replace u with (@zero F) by ring; replace v with (@one F) by ring end. apply M.
  - unfold holds_at, ge_rel, py_ge. cbn. destruct M as [M _]. rewrite M. discriminate.
  - unfold holds_at, ge_plain, py_ge. cbn. destruct M as [M _]. rewrite M. discriminate.
Qed.

(** Reported value when the objective lists its variables in another order. *)
Definition order_lp : lp F :=
  Lp (fun_of (EAdd (ESym vx) (EMul (ENum (add one one)) (ESym vy))) [vx; vy]) [] [vy; vx]
     (BoundsEach [(Some one, Some one); (Some zero, Some zero)]) None false.
Definition order_answer : list F -> arrays F -> answer F := fun _ _ => Answer true [one; zero] zero.
Lemma order_lp_built : mk_lp (PyFunction (lp_obj order_lp)) [] (Some [VSym vy; VSym vx])
    (BoundsEach [(Some one, Some one); (Some zero, Some zero)]) None false = Ok order_lp.
Proof. reflexivity. Qed.

Lemma order_wrong I is_int small rnd :
  exists c a res, to_scipy idle I is_int small rnd order_lp false = Ok (c, a) /\
    solver_optimum c a (sol (order_answer c a)) /\
    solve idle I is_int small rnd order_answer order_lp false = Ok res /\ success res = true /\
    fval res <> objective I order_lp (sol res).
Proof.
  eexists _, _, _. split; [reflexivity|]. split; [|split; [|split]].
  3:{ instantiate (1 := Answer true [one; zero] (add one (mul (add one one) zero))). reflexivity. }
  2:{ cbn. reflexivity. }
  - assert (B : forall y : list F, in_bounds (BoundsEach [(Some one, Some one); (Some zero, Some zero)]) y -> y = [one; zero]).
    { intros [|u [|v [|w y]]] [L H]; try discriminate L.
      destruct (H 0 ltac:(cbn; lia)) as [H1 H2]. destruct (H 1 ltac:(cbn; lia)) as [H3 H4]. cbn in *.
      rewrite (le_antisym F u one (H2 _ eq_refl) (H1 _ eq_refl)), (le_antisym F v zero (H4 _ eq_refl) (H3 _ eq_refl)). reflexivity. }
    split.
    + split; [reflexivity|]. split; [split; exact Logic.I|]. split.
      * split; [reflexivity|]. intros i Hi. cbn in Hi. destruct i as [|[|i]]; [| |lia]; cbn; split; intros ? E; injection E as <-; apply le_refl.
      * cbn. destruct (is_int vy) eqn:E1; cbn; [|destruct (is_int vx) eqn:E2; cbn]; try exact Logic.I;
          intros i Hi L; destruct i as [|[|i]]; cbn in *; try lia;
            try (exists 1%Z; cbn; ring); try (exists 0%Z; reflexivity).
    + intros y (_ & _ & By & _). cbn in By. apply B in By. subst y. apply le_refl.
  - cbn. intros E. assert (X : @one F = zero); [|exact (one_nz F X)].
    transitivity (@sub F (add zero (mul (add one one) one)) (add one (mul (add one one) zero))); [ring|].
    rewrite <- E. ring.
Qed.

(** A solver that only answers problems with two variables, both fixed by bounds, and
    no constraints; it is right whenever it answers. *)
Definition fixed_solver (c : list F) (a : arrays F) : answer F :=
  match c, a with
  | [_; _], Arrays None None None None (BoundsEach [(Some l1, Some h1); (Some l2, Some h2)]) None =>
      Answer (eqb l1 h1 && eqb l2 h2) [l1; l2] zero
  | _, _ => Answer false [] zero
  end.
Lemma fixed_solver_right c a : success (fixed_solver c a) = true -> solver_optimum c a (sol (fixed_solver c a)).
Proof.
  destruct c as [|c1 [|c2 [|]]]; try discriminate.
  destruct a as [Au bu Ae be bd ai]. destruct Au; [discriminate|]. destruct bu; [discriminate|]. destruct Ae; [discriminate|].
  destruct be; [discriminate|]. destruct bd as [|[|[[l1|] [h1|]] [|[[l2|] [h2|]] [|]]]]; try discriminate.
  destruct ai; [discriminate|]. cbn [fixed_solver success sol].
  intros E. apply andb_prop in E. destruct E as [E1 E2].
  destruct (eqb_spec F l1 h1) as [<-|]; [|discriminate]. destruct (eqb_spec F l2 h2) as [<-|]; [|discriminate].
  split.
  - split; [reflexivity|]. split; [split; exact Logic.I|]. split; [|exact Logic.I]. split; [reflexivity|].
    intros i Hi. cbn in Hi. destruct i as [|[|i]]; [| |lia]; cbn; split; intros ? E; injection E as <-; apply le_refl.
  - intros y (_ & _ & [L B] & _). destruct y as [|u [|v [|w y]]]; try discriminate L.
    destruct (B 0 ltac:(cbn; lia)) as [H1 H2]. destruct (B 1 ltac:(cbn; lia)) as [H3 H4]. cbn in *.
    rewrite (le_antisym F u l1 (H2 _ eq_refl) (H1 _ eq_refl)), (le_antisym F v l2 (H4 _ eq_refl) (H3 _ eq_refl)). apply le_refl.
Qed.

(** [x < 0]. *)
Definition neg_rel : relation F := Relation (fun_of (ESym vx) [vx]) CInEquality (Some Rlt) (opfunc_of Rlt).
Lemma neg_rel_built : mk_relation idle no_parse CRelation (FromExpr (ESym vx)) (Some [VSym vx]) (Some (OpRel Rlt)) None = Ok neg_rel.
Proof. reflexivity. Qed.

Lemma strict_wrong I is_int small rnd :
  exists c a x, to_scipy idle I is_int small rnd (one_cons neg_rel) false = Ok (c, a) /\ length x = 1 /\
    ~ (arrays_admit a x <-> holds_at I neg_rel (env_of [vx] x)).
Proof.
  set (beta := rnd (sub (mul (opp zero) one) small)).
  assert (A : forall a v, to_scipy idle I is_int small rnd (one_cons neg_rel) false = Ok ([one], a) ->
     (arrays_admit a [v] <-> leb v beta = true) /\ (holds_at I neg_rel (env_of [vx] [v]) <-> leb zero v = false)).
  { intros a v E. injection E as <-. split.
    - unfold arrays_admit. cbn. fold beta. replace (add zero (mul (mul one one) v)) with v by ring. split.
      + intros (_ & _ & H). specialize (H 0 ltac:(lia)). cbn in H. 
        replace (add zero (mul (mul one one) v)) with v in H by ring. exact H.
      + intros H. split; [exact Logic.I|]. split; [reflexivity|]. intros i Hi. assert (i = 0) as -> by lia. cbn.
        replace (add zero (mul (mul one one) v)) with v by ring. exact H.
    - unfold holds_at. cbn. unfold ltb. destruct (leb zero v); cbn; split; congruence. }
  destruct (leb zero beta) eqn:E.
  - eexists _, _, [zero]. split; [reflexivity|]. split; [reflexivity|]. intros H.
    destruct (A _ zero eq_refl) as [A1 A2]. pose proof (le_refl F zero). rewrite A1, A2 in H. apply H in E. congruence.
  - eexists _, _, [div beta (add one one)]. split; [reflexivity|]. split; [reflexivity|]. intros H.
    destruct (A _ (div beta (add one one)) eq_refl) as [A1 A2]. rewrite A1, A2 in H.
    pose proof (two_pos F) as T. unfold two in T. pose proof (two_nz F) as Tn. unfold two in Tn.
    assert (N : leb zero (div beta (add one one)) = false).
    { apply (sub_pos F). replace (sub zero (div beta (add one one))) with (div (sub zero beta) (add one one)) by (field; exact Tn).
      apply div_pos; [|exact T]. apply (sub_pos F) in E. exact E. }
    apply H in N. apply (le_sub) in N.
    assert (P : leb (div (opp beta) (add one one)) zero = false).
    { apply div_pos; [|exact T]. apply (sub_pos F) in E. replace (opp beta) with (sub zero beta) by ring. exact E. }
    replace (sub beta (div beta (add one one))) with (opp (div (opp beta) (add one one))) in N by (field; exact Tn).
    apply opp_le in N. replace (opp (opp (div (opp beta) (add one one)))) with (div (opp beta) (add one one)) in N by ring.
    replace (opp zero) with (@zero F) in N by ring. congruence.
Qed.

(** [x**2 - 1 <= 0], a bounded set. *)
Definition sq_expr : expr F := EAdd (EPow (ESym vx) (ENum (add one one))) (ENum (opp one)).
Definition sq_rel : relation F := Relation (fun_of sq_expr [vx]) CInEquality (Some Rle) (opfunc_of Rle).
Lemma sq_rel_built : mk_relation idle no_parse CRelation (FromExpr sq_expr) (Some [VSym vx]) (Some (OpRel Rle)) None = Ok sq_rel.
Proof. reflexivity. Qed.

Lemma nonlinear_wrong I is_int small rnd : (forall v, ipow I v (add one one) = mul v v) ->
  exists c a x, to_scipy idle I is_int small rnd (one_cons sq_rel) false = Ok (c, a) /\ length x = 1 /\
    arrays_admit a x /\ ~ holds_at I sq_rel (env_of [vx] x).
Proof.
  intros P. eexists _, _, [add one one]. split; [reflexivity|]. split; [reflexivity|]. split.
  - split; cbn; [exact Logic.I|]. split; [reflexivity|]. intros i Hi. assert (i = 0) as -> by lia. cbn. rewrite P.
    match goal with |- leb ?u ?v = true => replace u with (@zero F) by ring; replace v with (@one F) by ring end.
    apply (lt_le F). apply lt_0_1.
  - unfold holds_at. cbn. rewrite P.
    replace (add (mul (add one one) (add one one)) (opp one)) with (add (@one F) (add one one)) by ring.
    pose proof (add_pos F one (add one one) (lt_0_1 F) (lt_le F _ _ (two_pos F))) as Q. rewrite Q. discriminate.
Qed.

(** Swapping x and y in x. *)
Lemma swap_wrong I : exists g env,
  func_subs idle (fun_of (ESym vx) [vx; vy]) [ESym vy; ESym vx] (Some [VSym vx; VSym vy]) = Ok g /\
  eval I env (expr_of g) <> eval I (substituted I [(vx, ESym vy); (vy, ESym vx)] env) (ESym vx).
Proof.
  eexists _, (fun s => if sym_eqb s vx then one else zero). split; [reflexivity|]. cbn. apply one_nz.
Qed.

(** A function made from a string with the (integer) variable x: substituting 1 for x
    leaves the function unchanged. *)
Definition kx : symbol := (tx "x", 1).
Lemma assumption_wrong I : exists f g env,
  mk_symbolic idle true (ESym vx) (Some [VSym kx]) = Ok f /\
  func_subs idle f [ENum one] (Some [VSym kx]) = Ok g /\
  eval I env (expr_of g) <> eval I (substituted I [(kx, ENum one)] env) (expr_of f).
Proof.
  eexists _, _, (fun _ => zero). split; [reflexivity|]. split; [reflexivity|]. cbn.
  intros E. apply (one_nz F). symmetry. exact E.
Qed.

(** Substituting 1 for x in x + y: the result can not be called. *)
Lemma partial_wrong I : exists g,
  func_subs idle (fun_of (EAdd (ESym vx) (ESym vy)) [vx; vy]) [ENum one] (Some [VSym vx]) = Ok g /\
  forall xs, exists e, call I g xs = Err e.
Proof.
  eexists. split; [reflexivity|]. intros xs. cbn. destruct (length xs =? 1); eexists; reflexivity.
Qed.

End Counter.
