(** Proofs about cross products, and the counterexamples for tensors. *)
Set Warnings "-notation-overridden,-ambiguous-paths".
From Coq Require Import Ring.
From Verif Require Import Prelude TensorModel TensorSpec TensorProofs TensorOpProofs.
From mathcomp Require Import all_ssreflect all_algebra all_fingroup.
Set Implicit Arguments.
Unset Strict Implicit.
Unset Printing Implicit Defensive.
Import GRing.Theory Num.Theory.
Local Open Scope ring_scope.

(** ** Polynomial identities *)
Section Abstract.
Variables (T : Type) (O I : T) (add mul sub : T -> T -> T) (opp : T -> T).
Hypothesis RT : ring_theory O I add mul sub opp eq.
Add Ring RT_inst : RT.
Local Notation "x + y" := (add x y).
Local Notation "x * y" := (mul x y).
Local Notation "x - y" := (sub x y).
(** Component k of M^T ((M x) cross (M y)) is det M times component k of x cross y. *)
Lemma pcof0 (a b c d e f g h i x0 x1 x2 y0 y1 y2 : T) :
  let u := a * x0 + b * x1 + c * x2 in let v := d * x0 + e * x1 + f * x2 in let w := g * x0 + h * x1 + i * x2 in
  let u' := a * y0 + b * y1 + c * y2 in let v' := d * y0 + e * y1 + f * y2 in let w' := g * y0 + h * y1 + i * y2 in
  a * (v * w' - w * v') + d * (w * u' - u * w') + g * (u * v' - v * u') =
  (a * (e * i - f * h) - b * (d * i - f * g) + c * (d * h - e * g)) * (x1 * y2 - x2 * y1).
Proof. cbv zeta; ring. Qed.
Lemma pcof1 (a b c d e f g h i x0 x1 x2 y0 y1 y2 : T) :
  let u := a * x0 + b * x1 + c * x2 in let v := d * x0 + e * x1 + f * x2 in let w := g * x0 + h * x1 + i * x2 in
  let u' := a * y0 + b * y1 + c * y2 in let v' := d * y0 + e * y1 + f * y2 in let w' := g * y0 + h * y1 + i * y2 in
  b * (v * w' - w * v') + e * (w * u' - u * w') + h * (u * v' - v * u') =
  (a * (e * i - f * h) - b * (d * i - f * g) + c * (d * h - e * g)) * (x2 * y0 - x0 * y2).
Proof. cbv zeta; ring. Qed.
Lemma pcof2 (a b c d e f g h i x0 x1 x2 y0 y1 y2 : T) :
  let u := a * x0 + b * x1 + c * x2 in let v := d * x0 + e * x1 + f * x2 in let w := g * x0 + h * x1 + i * x2 in
  let u' := a * y0 + b * y1 + c * y2 in let v' := d * y0 + e * y1 + f * y2 in let w' := g * y0 + h * y1 + i * y2 in
  c * (v * w' - w * v') + f * (w * u' - u * w') + i * (u * v' - v * u') =
  (a * (e * i - f * h) - b * (d * i - f * g) + c * (d * h - e * g)) * (x0 * y1 - x1 * y0).
Proof. cbv zeta; ring. Qed.
End Abstract.

Section Poly.
Variable R : comRingType.
Lemma R_ring : ring_theory (0 : R) 1 +%R *%R (fun x y => x - y) -%R eq.
Proof.
by split=> //; [exact: add0r|exact: addrC|exact: addrA|exact: mul1r|exact: mulrC|exact: mulrA
  |exact: mulrDl|exact: subrr].
Qed.
Definition det3 (a b c d e f g h i : R) : R := a * (e * i - f * h) - b * (d * i - f * g) + c * (d * h - e * g).
Lemma cof0 (a b c d e f g h i x0 x1 x2 y0 y1 y2 : R) :
  let u := a * x0 + b * x1 + c * x2 in let v := d * x0 + e * x1 + f * x2 in let w := g * x0 + h * x1 + i * x2 in
  let u' := a * y0 + b * y1 + c * y2 in let v' := d * y0 + e * y1 + f * y2 in let w' := g * y0 + h * y1 + i * y2 in
  a * (v * w' - w * v') + d * (w * u' - u * w') + g * (u * v' - v * u') =
  det3 a b c d e f g h i * (x1 * y2 - x2 * y1).
Proof. exact: (pcof0 R_ring). Qed.
Lemma cof1 (a b c d e f g h i x0 x1 x2 y0 y1 y2 : R) :
  let u := a * x0 + b * x1 + c * x2 in let v := d * x0 + e * x1 + f * x2 in let w := g * x0 + h * x1 + i * x2 in
  let u' := a * y0 + b * y1 + c * y2 in let v' := d * y0 + e * y1 + f * y2 in let w' := g * y0 + h * y1 + i * y2 in
  b * (v * w' - w * v') + e * (w * u' - u * w') + h * (u * v' - v * u') =
  det3 a b c d e f g h i * (x2 * y0 - x0 * y2).
Proof. exact: (pcof1 R_ring). Qed.
Lemma cof2 (a b c d e f g h i x0 x1 x2 y0 y1 y2 : R) :
  let u := a * x0 + b * x1 + c * x2 in let v := d * x0 + e * x1 + f * x2 in let w := g * x0 + h * x1 + i * x2 in
  let u' := a * y0 + b * y1 + c * y2 in let v' := d * y0 + e * y1 + f * y2 in let w' := g * y0 + h * y1 + i * y2 in
  c * (v * w' - w * v') + f * (w * u' - u * w') + i * (u * v' - v * u') =
  det3 a b c d e f g h i * (x0 * y1 - x1 * y0).
Proof. exact: (pcof2 R_ring). Qed.
End Poly.

Section Cross3.
Variables (F : realFieldType).

Lemma I3 (P : 'I_3 -> Prop) : P i0 -> P i1 -> P i2 -> forall i, P i.
Proof.
move=> P0 P1 P2 [[|[|[|k]]] Hk] //; [rewrite (_ : Ordinal _ = i0)|rewrite (_ : Ordinal _ = i1)|rewrite (_ : Ordinal _ = i2)] => //;
  exact: val_inj.
Qed.

Lemma sum3 (f : 'I_3 -> F) : \sum_i f i = f i0 + f i1 + f i2.
Proof.
rewrite !big_ord_recl big_ord0 addr0 addrA.
by congr (f _ + f _ + f _); apply: val_inj.
Qed.

Lemma det2E (B : 'M[F]_2) : \det B = B ord0 ord0 * B ord_max ord_max - B ord0 ord_max * B ord_max ord0.
Proof.
rewrite (expand_det_row _ ord0) !big_ord_recl big_ord0 addr0 /cofactor !det_mx11 !mxE.
have -> : lift ord0 ord0 = ord_max :> 'I_2 by apply: val_inj.
have -> : lift ord_max ord0 = ord0 :> 'I_2 by apply: val_inj.
by rewrite /= expr0 expr1 mul1r mulN1r mulrN.
Qed.

Lemma det3E (A : 'M[F]_3) : \det A =
  det3 (A i0 i0) (A i0 i1) (A i0 i2) (A i1 i0) (A i1 i1) (A i1 i2) (A i2 i0) (A i2 i1) (A i2 i2).
Proof.
rewrite (expand_det_row _ i0) sum3 /cofactor !det2E !mxE /det3.
have -> : lift i0 ord0 = i1 :> 'I_3 by apply: val_inj.
have -> : lift i0 ord_max = i2 :> 'I_3 by apply: val_inj.
have -> : lift i1 ord0 = i0 :> 'I_3 by apply: val_inj.
have -> : lift i1 ord_max = i2 :> 'I_3 by apply: val_inj.
have -> : lift i2 ord0 = i0 :> 'I_3 by apply: val_inj.
have -> : lift i2 ord_max = i1 :> 'I_3 by apply: val_inj.
by rewrite /= addn0 addn1 expr0 expr1 sqrrN expr1n !mul1r mulN1r mulrN.
Qed.

Lemma cross3_cofactor (M : 'M[F]_3) (a b : 'cV[F]_3) :
  M^T *m cross3 (M *m a) (M *m b) = \det M *: cross3 a b.
Proof.
apply/colP; apply: I3; rewrite !mxE sum3 !mxE /= !sum3 det3E.
- exact: cof0.
- exact: cof1.
- exact: cof2.
Qed.

Lemma cross3_rotation (M : 'M[F]_3) (a b : 'cV[F]_3) : M *m M^T = 1%:M -> \det M = 1 ->
  cross3 (M *m a) (M *m b) = M *m cross3 a b.
Proof.
by move=> H D; rewrite -[LHS]mul1mx -H -mulmxA cross3_cofactor D scale1r.
Qed.

Variables (rtol atol : F) (norm : 'rV[F]_3 -> F).
Hypotheses (Hr : 0 <= rtol) (Ha : 0 <= atol).

Lemma cross_vv_ok (a b : tensor F 3 1) V W :
  good_frame (frame_of a) -> orthonormal_rows (axes (frame_of a)) -> \det (axes (frame_of a)) = 1 ->
  describes a V -> describes b W ->
  exists t, cross_vv rtol atol norm a b = Ok t /\ describes t (of_vec (cross3 (vec_of V) (vec_of W))).
Proof.
move=> G O D HV HW; rewrite /cross_vv (showE norm Hr Ha b G) /=; eexists; split; first by [].
apply/representsP; rewrite /= transform_of_vec transform_vec; congr of_vec.
rewrite -cross3_rotation ?det_tr //; last by rewrite trmxK -(orthonormal_inv O) mulVmx //; exact: good_unit.
rewrite (describes_vec HV) (describes_vec HW); congr (cross3 _ _).
by rewrite !mulmxA -trmx_mul mulVmx ?good_unit // trmx1 mul1mx.
Qed.

(** In general the result is the cross product scaled by A^T A / det A. *)
Lemma cross_vv_value (a b : tensor F 3 1) V W :
  good_frame (frame_of a) -> describes a V -> describes b W ->
  exists t, cross_vv rtol atol norm a b = Ok t /\
    describes t (of_vec ((\det (axes (frame_of a)))^-1 *:
      ((axes (frame_of a))^T *m axes (frame_of a) *m cross3 (vec_of V) (vec_of W)))).
Proof.
move=> G HV HW; rewrite /cross_vv (showE norm Hr Ha b G) /=; eexists; split; first by [].
have U := good_unit G; have D : \det (axes (frame_of a)) != 0 by move: U; rewrite unitmxE unitfE.
apply/representsP; rewrite /= transform_of_vec transform_vec; congr of_vec.
set A := axes _; set y := _ *m vec_of (arr b).
have E : vec_of W = A^T *m y.
  by rewrite (describes_vec HW) /y !mulmxA -trmx_mul mulVmx // trmx1 mul1mx.
rewrite (describes_vec HV) E -/A -mulmxA -[X in X *m cross3 (_ *m _) _]trmxK cross3_cofactor det_tr.
by rewrite -scalemxAr scalerA mulVf // scale1r.
Qed.

Lemma cross_tv_ok (a : tensor F 3 2) (b : tensor F 3 1) V W : describes a V -> describes b W ->
  (exists t, cross_tv rtol atol norm a b = Ok t /\
     describes t (of_mat (\matrix_(i, j) cross3 (col j (mat_of V)) (vec_of W) i 0))) /\
  (exists t, cross_vt rtol atol norm b a = Ok t /\
     describes t (of_mat (\matrix_(i, j) cross3 (vec_of W) (col j (mat_of V)) i 0))).
Proof.
move=> HV HW; rewrite /cross_tv /cross_vt (show_ambient_describes norm Hr Ha HV) (show_ambient_describes norm Hr Ha HW) /=.
by split; eexists; split; try reflexivity; exact: represents1.
Qed.
End Cross3.
