(** Property C112: transposing a frame. *)
Set Warnings "-notation-overridden,-ambiguous-paths".
From Verif Require Import Prelude TensorModel TensorSpec TensorProofs TensorOpProofs TensorExtra.
From mathcomp Require Import all_ssreflect all_algebra.
Set Implicit Arguments.
Unset Strict Implicit.
Unset Printing Implicit Defensive.
Import GRing.Theory Num.Theory Order.TTheory.
Local Open Scope ring_scope.

(** ** Specification: the frame of the same class with the transposed axes.  (Transposing in place is the subject of C74; the constructor used here
    makes a C-ordered copy, meta.py:124-134, so that memory layout does not matter.) *)
Definition transposed (F : realFieldType) n (f : frame F n) : frame F n := Frame (kind_of f) (\matrix_(i, j) axes f j i).
Lemma transposedE (F : realFieldType) n (f : frame F n) : transposed f = Frame (kind_of f) (axes f)^T.
Proof. by congr Frame; apply/matrixP => i j; rewrite !mxE. Qed.

Lemma orthonormal_tr (F : realFieldType) n (A : 'M[F]_n) : orthonormal_rows A -> orthonormal_rows A^T.
Proof. by move/orthonormalP => H; apply/orthonormalP; rewrite trmxK; apply: mulmx1C. Qed.

(** A Cartesian frame, transposed, is a Cartesian frame: the constructor accepts it, whatever the tolerances, the axes are the inverse matrix of the axes,
    and transposing again returns the frame. *)
Theorem C112_cartesian_partial : forall (F : realFieldType) n (rtol atol : F) (norm : 'rV[F]_n -> F) (f : frame F n),
  0 <= rtol -> 0 <= atol -> good_frame f -> kind_of f = Cartesian -> norm_rows norm (axes f)^T ->
  let g := transposed f in
  [/\ transpose_new rtol atol norm f = Ok g, good_frame g, kind_of g = Cartesian,
                axes g *m axes f = 1%:M & norm_rows norm (axes f) -> transpose_new rtol atol norm g = Ok f].
Proof.
move=> F n rtol atol norm f; rewrite transposedE; case: f => [k A] Hr Ha [I O] /= E; subst k; move: O => /= O N.
have acc (B : 'M[F]_n) : orthonormal_rows B -> norm_rows norm B -> new_frame rtol atol norm Cartesian B = Ok (Frame Cartesian B).
  move=> OB NB; rewrite /= orthogonal_accepted //; last by move=> i j ne; rewrite OB (negbTE ne).
  suff -> : is_normal_frame rtol atol norm B by [].
  by apply/forallP => i; rewrite (norm_one i OB NB); apply: isclose_refl.
have Ot := orthonormal_tr O; split=> //=.
- by rewrite /transpose_new /= -[LHS]/(new_frame rtol atol norm Cartesian A^T) acc.
- by split=> //=; apply/independentP; exact: orthonormal_unit.
- by rewrite /=; move/orthonormalP: O => O; apply: mulmx1C.
- by move=> NA; rewrite /transpose_new /= trmxK -[LHS]/(new_frame rtol atol norm Cartesian A) acc.
Qed.
Print Assumptions C112_cartesian_partial.

(** A frame of general axes: transposing never fails and keeps independence; the axes are the transposed axes, and transposing again returns
    the frame. *)
Theorem C112_reference_partial : forall (F : realFieldType) n (rtol atol : F) (norm : 'rV[F]_n -> F) (f : frame F n),
  good_frame f -> kind_of f = Reference ->
  let g := transposed f in
  [/\ transpose_new rtol atol norm f = Ok g, good_frame g, kind_of g = Reference,
                forall i j, axes g i j = axes f j i & transpose_new rtol atol norm g = Ok f].
Proof.
move=> F n rtol atol norm f; rewrite transposedE; case: f => [k A] [I O] /= E; subst k; split=> //=.
- split=> //=; apply/independentP; rewrite unitmx_tr; by apply/independentP.
- by move=> i j; rewrite mxE.
- by rewrite /transpose_new /= trmxK.
Qed.
Print Assumptions C112_reference_partial.

(** If the call for a rectangular frame returns at all, the result has orthogonal axes up to the tolerances; without tolerances that is the case exactly
    if the columns are orthogonal too. *)
Theorem C112_rectangular_partial : forall (F : realFieldType) n (norm : 'rV[F]_n -> F) (f : frame F n),
  kind_of f = Rectangular ->
  (orthogonal_rows (axes f)^T -> transpose_new 0 0 norm f = Ok (transposed f)) /\
  (~ orthogonal_rows (axes f)^T -> transpose_new 0 0 norm f = Err AssertionError).
Proof.
move=> F n norm [k A] /= E; subst k; rewrite /transpose_new transposedE.
have [_ H1 H2 _] := constructors norm A^T; split=> O; [exact: H1|exact: H2].
Qed.
Print Assumptions C112_rectangular_partial.

(** A proper rectangular frame that cannot be transposed: the call raises, because the columns are not orthogonal. *)
Definition skew_rectangular (F : realFieldType) : 'M[F]_2 := \matrix_(i, j) (if i == 0 then 1 else if j == 0 then 2%:R else - 2%:R).
Lemma skew_cols (F : realFieldType) : base_dot (skew_rectangular F)^T 0 1 = - 3%:R.
Proof.
rewrite /base_dot big_ord_recl big_ord1 !mxE /= mul1r mulrN -natrM.
by apply/eqP; rewrite subr_eq addrC -natrB.
Qed.
Theorem C112_refuted : forall (F : realFieldType) (norm : 'rV[F]_2 -> F),
  exists f : frame F 2, [/\ good_frame f, kind_of f = Rectangular, transpose_new 0 0 norm f = Err AssertionError & ~ good_frame (transposed f)].
Proof.
move=> F norm; exists (Frame Rectangular (skew_rectangular F)).
have NO : ~ orthogonal_rows (skew_rectangular F)^T.
  move=> /(_ 0 1 isT); rewrite skew_cols => /eqP; rewrite oppr_eq0 pnatr_eq0 //.
have O : orthogonal_rows (skew_rectangular F).
  have E : base_dot (skew_rectangular F) 0 1 = 0.
    by rewrite /base_dot big_ord_recl big_ord1 !mxE /= !mul1r subrr.
  move=> i j; have C (l : 'I_2) : l = 0 \/ l = 1 by case: l => [[|[|//]] Hl]; [left|right]; apply/val_inj.
  case: (C i) => ->; case: (C j) => -> // _.
  by rewrite -E /base_dot; apply: eq_bigr => k _; rewrite mulrC.
split=> //.
- split=> //= c /matrixP H; have := H 0 0; have := H 0 1; rewrite !mxE !big_ord_recl !big_ord0 !mxE /= !addr0 !mulr1 => H1 H0.
  have X0 : c 0 ord0 = 0.
    have : (c 0 ord0 + c 0 (lift ord0 ord0) * 2%:R) + (c 0 ord0 + c 0 (lift ord0 ord0) * (1 *- 2)) = 0 by rewrite H0 H1 addr0.
    rewrite addrACA -mulrDr subrr mulr0 addr0 -mulr2n.
    by move/eqP; rewrite mulrn_eq0 /= => /eqP.
  have X1 : c 0 (lift ord0 ord0) = 0.
    by move/eqP: H0; rewrite X0 add0r mulf_eq0 pnatr_eq0 orbF => /eqP.
  by apply/rowP => l; rewrite mxE; case: (unliftP ord0 l) => [m ->|-> //]; rewrite (ord1 m).
- by have [_ H] := @C112_rectangular_partial F 2 norm (Frame Rectangular (skew_rectangular F)) erefl; apply: H.
- by rewrite transposedE => -[_ /=].
Qed.
Print Assumptions C112_refuted.

(** A mirrored Cartesian frame, with a norm that is right for its axes; a sheared frame. *)
Example C112_met : forall F : realFieldType,
  let f := Frame Cartesian ((-1)%:M : 'M[F]_3) in
  [/\ good_frame f, kind_of f = Cartesian, norm_rows (fun _ => 1) (axes f)^T &
      good_frame (Frame Reference (1%:M + delta_mx ord_max ord0 : 'M[F]_2))].
Proof.
move=> F f; have [G1 _ G2] := frames_exist F; split=> //.
move=> i; split; first exact: ler01.
have [_ O] := G2; have /= := orthonormal_tr O => /(_ i i); rewrite eqxx => ->; by rewrite expr1n.
Qed.
