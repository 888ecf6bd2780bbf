(** Proofs about definite matrices: the spectral theorem for symmetric matrices whose
    characteristic polynomial splits, over any real field. *)
Set Warnings "-notation-overridden,-ambiguous-paths".
From Verif Require Import DefModel DefSpec.
From mathcomp Require Import all_ssreflect all_algebra.
Set Implicit Arguments.
Unset Strict Implicit.
Unset Printing Implicit Defensive.
Import Order.TTheory GRing.Theory Num.Theory.
Local Open Scope ring_scope.

Section P.
Variable (F : realFieldType).

Lemma quadE n (A : 'M[F]_n) (x : 'rV[F]_n) : quad A x = (x *m A *m x^T) 0 0.
Proof.
rewrite /quad exchange_big mxE; apply: eq_bigr => j _; rewrite !mxE big_distrl /=.
by apply: eq_bigr => i _.
Qed.
Lemma squareE n (x : 'rV[F]_n) : square x = (x *m x^T) 0 0.
Proof. by rewrite /square mxE; apply: eq_bigr => i _; rewrite mxE expr2. Qed.
Lemma square_ge0 n (x : 'rV[F]_n) : 0 <= square x.
Proof. by apply: sumr_ge0 => i _; exact: sqr_ge0. Qed.
Lemma square_eq0 n (x : 'rV[F]_n) : (square x == 0) = (x == 0).
Proof.
apply/idP/eqP => [|->]; last by rewrite /square big1 // => i _; rewrite mxE expr0n.
rewrite psumr_eq0 => [/allP H|i _]; last exact: sqr_ge0.
apply/rowP => i; rewrite mxE; apply/eqP; rewrite -sqrf_eq0.
by have := H i; rewrite mem_index_enum => /(_ isT).
Qed.
Lemma square_gt0 n (x : 'rV[F]_n) : (0 < square x) = (x != 0).
Proof. by rewrite lt_neqAle square_ge0 andbT eq_sym square_eq0. Qed.
Lemma symmetricP n (A : 'M[F]_n) : symmetric_matrix A <-> A^T = A.
Proof.
split=> [H|H i j]; first by apply/matrixP=> i j; rewrite mxE.
by rewrite -{1}H mxE.
Qed.

(** Columns of squares vanish with the sum of squares. *)
Lemma gram_eq0 m n (B : 'M[F]_(m, n)) : B^T *m B = 0 -> B = 0.
Proof.
move=> H; apply/matrixP => i j; rewrite mxE.
have := congr1 (fun M : 'M_n => M j j) H; rewrite !mxE => /eqP.
rewrite psumr_eq0 => [/allP K|k _]; last by rewrite mxE -expr2 sqr_ge0.
have := K i; rewrite mem_index_enum mxE -expr2 sqrf_eq0 => /(_ isT).
by move/eqP.
Qed.

Section Sym.
Variables (n' : nat).
Local Notation n := n'.+1.
Variable A : 'M[F]_n.
Hypothesis sA : A^T = A.

Lemma horner_mx_sym p : (horner_mx A p)^T = horner_mx A p.
Proof.
elim/poly_ind: p => [|p c IH]; first by rewrite rmorph0 trmx0.
rewrite rmorphD rmorphM /= horner_mx_X horner_mx_C linearD /= tr_scalar_mx; congr (_ + _).
rewrite -mulmxE trmx_mul IH sA; exact: (comm_mx_horner p (comm_mx_refl A)).
Qed.
Lemma reduce r t : horner_mx A (('X - r%:P) ^+ 2 * t) = 0 -> horner_mx A (('X - r%:P) * t) = 0.
Proof.
rewrite expr2 -mulrA !rmorphM /=; set M := horner_mx A ('X - r%:P); set B := horner_mx A t => H.
apply: gram_eq0; rewrite -mulmxE trmx_mul !horner_mx_sym -/M -/B -mulmxA !mulmxE H.
by rewrite mulr0.
Qed.
Lemma reduce_all (s : seq F) t : horner_mx A (\prod_(l <- s) ('X - l%:P) * t) = 0 ->
  horner_mx A (\prod_(l <- undup s) ('X - l%:P) * t) = 0.
Proof.
elim: s t => [//|r s IH] t /=; rewrite big_cons; case: ifP => [rs|_] H.
  apply: IH; move: H; rewrite (big_rem r rs) /=; set P := \prod_(_ <- _) _ => H.
  by rewrite -mulrA; apply: reduce; rewrite expr2 -!mulrA; rewrite -!mulrA in H.
by rewrite big_cons [_ * \prod_(_ <- _) _]mulrC -mulrA; apply: IH; rewrite mulrA [_ * (_ - _)]mulrC.
Qed.
Variable s : seq F.
Hypothesis es : eigenvalues A s.
Lemma sym_diagonalizable : exists2 rs, uniq rs & (\sum_(r <- rs) eigenspace A r :=: 1%:M)%MS.
Proof.
apply/diagonalizablePeigen/diagonalizableP; exists (undup s); first exact: undup_uniq.
apply: mxminpoly_min; rewrite -[X in horner_mx A X]mulr1; apply: reduce_all; rewrite mulr1 -es.
exact: Cayley_Hamilton.
Qed.
Lemma eigen_in r : eigenvalue A r -> r \in s.
Proof. by rewrite eigenvalue_root_char es root_prod_XsubC. Qed.
Lemma in_eigen r : r \in s -> eigenvalue A r.
Proof. by rewrite eigenvalue_root_char es root_prod_XsubC. Qed.

Lemma orth r q (x y : 'rV[F]_n) : r != q -> x *m A = r *: x -> y *m A = q *: y -> x *m y^T = 0.
Proof.
move=> rq Hx Hy; apply/eqP.
have : r *: (x *m y^T) == q *: (x *m y^T).
  by rewrite scalemxAl -Hx -mulmxA -{1}sA -trmx_mul Hy linearZ /= -scalemxAr.
by rewrite -subr_eq0 -scalerBl scaler_eq0 subr_eq0 (negbTE rq).
Qed.

(** Every vector is a sum of orthogonal eigenvectors. *)
Lemma spectral (x : 'rV[F]_n) : exists m (u : 'I_m -> 'rV[F]_n) (r : 'I_m -> F),
  [/\ x = \sum_i u i, forall i, u i *m A = r i *: u i, forall i j, i != j -> u i *m (u j)^T = 0
   & forall i, u i != 0 -> r i \in s].
Proof.
have [rs urs Hrs] := sym_diagonalizable.
have : (x <= \sum_(i < size rs) eigenspace A rs`_i)%MS.
  by rewrite (big_nth 0) big_mkord in Hrs; rewrite Hrs submx1.
case/sub_sumsmxP => u Hu; exists (size rs), (fun i => u i *m eigenspace A rs`_i), (fun i => rs`_i).
have E i : u i *m eigenspace A rs`_i *m A = rs`_i *: (u i *m eigenspace A rs`_i).
  by apply/eigenspaceP; exact: submxMl.
split=> // [i j ij|i Hi].
  apply: (@orth rs`_i rs`_j) => //; apply: contraNneq ij => H; apply/eqP/val_inj.
  by apply: (uniqP 0 urs) H; rewrite inE.
apply: eigen_in; apply/eigenvalueP; exists (u i *m eigenspace A rs`_i) => //.
Qed.

Lemma spectral_quad (x : 'rV[F]_n) c : exists m (u : 'I_m -> 'rV[F]_n) (r : 'I_m -> F),
  [/\ x = \sum_i u i, quad A x - c * square x = \sum_i (r i - c) * square (u i)
   & forall i, u i != 0 -> r i \in s].
Proof.
have [m [u [r [Hx E O I]]]] := spectral x; exists m, u, r; split=> //.
have S (v w : 'I_m -> 'rV[F]_n) : (forall i j, i != j -> v i *m (w j)^T = 0) ->
    ((\sum_i v i) *m (\sum_i w i)^T) 0 0 = \sum_i (v i *m (w i)^T) 0 0.
  move=> H; rewrite mulmx_suml summxE; apply: eq_bigr => i _.
  rewrite linear_sum mulmx_sumr summxE (bigD1 i) //= big1 ?addr0 // => j ji.
  by rewrite H ?mxE // eq_sym.
rewrite quadE squareE {1 2 3 4}Hx mulmx_suml.
rewrite (eq_bigr (fun i => r i *: u i)) => [|i _]; last exact: E.
rewrite !S //; last by move=> i j ij; rewrite -scalemxAl O // scaler0.
rewrite mulr_sumr -sumrB; apply: eq_bigr => i _; rewrite squareE -scalemxAl mxE mulrBl.
by [].
Qed.

Lemma bound_gt c : (all (fun l => c < l) s : Prop) <-> (forall x : 'rV[F]_n, x != 0 -> c * square x < quad A x).
Proof.
split=> [/allP H x x0|H].
  rewrite -subr_gt0; have [m [u [r [Hx -> I]]]] := spectral_quad x c.
  have P i : 0 <= (r i - c) * square (u i).
    have [->|ui] := eqVneq (u i) 0; first by rewrite (eqP (_ : square 0 == 0)) ?square_eq0 // mulr0.
    by apply: mulr_ge0; [rewrite subr_ge0 ltW // H // I|exact: square_ge0].
  have : exists i, u i != 0.
    apply/existsP; apply: contraNT x0; rewrite negb_exists => /forallP K.
    by rewrite Hx big1 // => i _; apply/eqP; have := K i; rewrite negbK.
  case=> i ui; rewrite (bigD1 i) //=; apply: ltr_paddr; first exact: sumr_ge0.
  by apply: mulr_gt0; [rewrite subr_gt0 H // I|rewrite square_gt0].
apply/allP => l /in_eigen /eigenvalueP [v Hv v0].
have := H v v0; rewrite quadE Hv -scalemxAl mxE -squareE.
by rewrite ltr_pmul2r // square_gt0.
Qed.
Lemma bound_ge c : (all (fun l => c <= l) s : Prop) <-> (forall x : 'rV[F]_n, c * square x <= quad A x).
Proof.
split=> [/allP H x|H].
  rewrite -subr_ge0; have [m [u [r [Hx -> I]]]] := spectral_quad x c.
  apply: sumr_ge0 => i _; have [->|ui] := eqVneq (u i) 0; first by rewrite (eqP (_ : square 0 == 0)) ?square_eq0 // mulr0.
  by apply: mulr_ge0; [rewrite subr_ge0 H // I|exact: square_ge0].
apply/allP => l /in_eigen /eigenvalueP [v Hv v0].
have := H v; rewrite quadE Hv -scalemxAl mxE -squareE.
by rewrite ler_pmul2r // square_gt0.
Qed.
End Sym.
End P.
