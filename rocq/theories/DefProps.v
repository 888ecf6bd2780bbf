(** Property C94: tests for symmetry and definiteness, random definite matrices. *)
Set Warnings "-notation-overridden,-ambiguous-paths".
From mathcomp Require Import all_ssreflect all_algebra.
From Verif Require Import DefModel DefSpec DefProofs.
Set Implicit Arguments.
Unset Strict Implicit.
Unset Printing Implicit Defensive.
Import Order.TTheory GRing.Theory Num.Theory.
Local Open Scope ring_scope.

Lemma no_vector (F : realFieldType) (x : 'rV[F]_0) : x = 0.
Proof. by apply/rowP; case. Qed.
Lemma all_gt (F : realFieldType) n (A : 'M[F]_n) s c : symmetric_matrix A -> eigenvalues A s ->
  (all (fun l => c < l) s : Prop) <-> (forall x : 'rV[F]_n, x != 0 -> c * square x < quad A x).
Proof.
move=> /symmetricP sA es; case: n A sA es => [|n] A sA es; last exact: bound_gt.
split=> [_ x|_]; first by rewrite (no_vector x) eqxx.
have : size (char_poly A) = 1%N by rewrite size_char_poly.
by rewrite es size_prod_XsubC => -[/size0nil ->].
Qed.
Lemma all_ge (F : realFieldType) n (A : 'M[F]_n) s c : symmetric_matrix A -> eigenvalues A s ->
  (all (fun l => c <= l) s : Prop) <-> (forall x : 'rV[F]_n, c * square x <= quad A x).
Proof.
move=> /symmetricP sA es; case: n A sA es => [|n] A sA es; last exact: bound_ge.
split=> [_ x|_]; first by rewrite /square /quad !big_ord0 mulr0.
have : size (char_poly A) = 1%N by rewrite size_char_poly.
by rewrite es size_prod_XsubC => -[/size0nil ->].
Qed.

(** For symmetric matrices the tests are right: with a tolerance [isposdef] tells whether
    A - tol I is positive definite. *)
Theorem C94_symmetric_partial :
  forall (F : realFieldType) n (eigvals : 'M[F]_n -> seq F) (A : 'M[F]_n),
  symmetric_matrix A -> eigenvalues A (eigvals A) ->
  (is_pos_def eigvals A <-> positive_definite A) /\
  (is_pos_semidef eigvals A <-> positive_semidefinite A) /\
  (ispossemidef eigvals A <-> positive_semidefinite A) /\
  (forall tol, isposdef eigvals A tol <-> positive_definite (A - tol%:M)).
Proof.
move=> F n eigvals A sA es.
have S : (all (fun l => 0 <= l) (eigvals A) : Prop) <-> positive_semidefinite A.
  rewrite (all_ge 0 sA es); split=> H x; first by have := H x; rewrite mul0r.
  by rewrite mul0r.
split; first by rewrite /is_pos_def (all_gt 0 sA es); split=> H x x0; have := H x x0; rewrite mul0r.
split=> //; split=> // tol; rewrite /isposdef (all_gt tol sA es).
have E x : quad (A - tol%:M) x = quad A x - tol * square x.
  by rewrite !quadE squareE mulmxBr mulmxBl mul_mx_scalar -scalemxAl [LHS]mxE [X in _ + X]mxE [X in _ - X]mxE.
by split=> H x x0; have := H x x0; rewrite E subr_gt0.
Qed.
Print Assumptions C94_symmetric_partial.

(** A matrix that is not symmetric passes the test, although x A x is negative. *)
Definition shear : 'M[rat]_2 := \matrix_(i, j) (if i == j then 1 else if i == 0 then 10%:R else 0).
Definition sign (i : 'I_2) : rat := if i == 0 then 1 else -1.
Theorem C94_nonsymmetric_refuted :
  exists (A : 'M[rat]_2) (s : seq rat) (x : 'rV[rat]_2),
  eigenvalues A s /\ is_pos_def (fun _ => s) A /\ isposdef (fun _ => s) A 0 /\ quad A x < 0.
Proof.
exists shear, [:: 1; 1], (\row_i sign i); split; last split; last split=> //; last first.
  by rewrite /quad !big_ord_recl !big_ord0 !mxE.
  by [].
rewrite /eigenvalues /char_poly (expand_det_row _ 0) !big_ord_recl big_ord0 /cofactor !det_mx11 !mxE /=.
by rewrite !(big_cons, big_nil) /= !mulr1n !mulr0n !sub0r ?(mulr0, mul0r, oppr0) !addr0 expr0 mul1r mulr1.
Qed.
Print Assumptions C94_nonsymmetric_refuted.

(** The random matrices, whatever numbers are drawn. *)
Theorem C94_random :
  forall (F : realFieldType) n (R : 'M[F]_n) alpha,
  (symmetric_matrix (random_posdef_matrix R alpha) /\
   (forall l, is_eigenvalue (random_posdef_matrix R alpha) l -> alpha <= l) /\
   (0 < alpha -> positive_definite (random_posdef_matrix R alpha))) /\
  symmetric_matrix (random_pos_semidef_matrix R) /\ positive_semidefinite (random_pos_semidef_matrix R).
Proof.
move=> F n R alpha.
have G (B : 'M[F]_n) (x : 'rV_n) : quad (B *m B^T) x = square (x *m B).
  by rewrite quadE squareE trmx_mul !mulmxA.
have E x : quad (random_posdef_matrix R alpha) x = square (x *m R) + alpha * square x.
  rewrite -G !quadE squareE /random_posdef_matrix mulmxDr mulmxDl mxE; congr (_ + _).
  by rewrite -scalemxAr mulmx1 -scalemxAl mxE.
split; first split.
- by apply/symmetricP; rewrite /random_posdef_matrix linearD /= linearZ /= trmx1 trmx_mul trmxK.
- split=> [l [x x0 Hx]|a0 x x0].
    have := E x; rewrite quadE Hx -scalemxAl mxE -squareE => H.
    by rewrite -(ler_pmul2r (_ : 0 < square x)) ?square_gt0 // H ler_addr square_ge0.
  by rewrite E; apply: ltr_paddl; [exact: square_ge0|apply: mulr_gt0; rewrite ?square_gt0].
- split; first by apply/symmetricP; rewrite /random_pos_semidef_matrix trmx_mul trmxK.
  move=> x; rewrite /random_pos_semidef_matrix -[X in _ *m X]trmxK G; exact: square_ge0.
Qed.
Print Assumptions C94_random.

(** [issymmetric]. *)
Theorem C94_issymmetric :
  forall (F : realFieldType) n (norm : 'M[F]_n -> F) (A : 'M[F]_n) tol, frobenius norm ->
  (symmetric_matrix A -> 0 < tol -> issymmetric norm A tol) /\
  (issymmetric norm A tol -> forall i j, `|A i j - A j i| < tol).
Proof.
move=> F n norm A tol N; rewrite /issymmetric; have [N0 N2] := N (A - A^T); split.
  move=> /symmetricP sA t0; move: N2; rewrite sA subrr big1 => [|i _]; last first.
    by rewrite big1 // => j _; rewrite mxE expr0n.
  by move/eqP; rewrite sqrf_eq0 => /eqP ->.
move=> H i j; have t0 : 0 <= tol by apply: ltW; apply: le_lt_trans H.
rewrite -(ltr_pexpn2r (_ : (0 < 2)%N)) ?nnegrE ?normr_ge0 //.
apply: le_lt_trans (_ : norm (A - A^T) ^+ 2 < _); last by rewrite ltr_pexpn2r // nnegrE.
rewrite N2 real_normK ?num_real // (bigD1 i) //= (bigD1 j) //= !mxE -addrA ler_addl.
apply: addr_ge0; first by apply: sumr_ge0 => k _; exact: sqr_ge0.
by apply: sumr_ge0 => k _; apply: sumr_ge0 => l _; exact: sqr_ge0.
Qed.
Print Assumptions C94_issymmetric.

(** The hypotheses are met. *)
Example C94_met : forall F : realFieldType, symmetric_matrix (1%:M : 'M[F]_3) /\ eigenvalues (1%:M : 'M[F]_3) [:: 1; 1; 1].
Proof.
move=> F; split; first by apply/symmetricP; rewrite trmx1.
rewrite /eigenvalues /char_poly /char_poly_mx map_scalar_mx -raddfB /= det_scalar.
by rewrite !big_cons big_nil mulr1 !exprS expr0 mulr1 rmorph1.
Qed.
