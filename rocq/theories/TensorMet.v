(** Cases that meet the hypotheses of C46, C47, C63, C72, C75 and C76: a Euclidean norm and a square root for every real
    closed field, and a rotation with rational entries for every real field. *)
Set Warnings "-notation-overridden,-ambiguous-paths".
From Verif Require Import Prelude TensorModel TensorSpec TensorProps.
From mathcomp Require Import all_ssreflect all_algebra.
Set Implicit Arguments.
Unset Strict Implicit.
Unset Printing Implicit Defensive.
Import GRing.Theory Num.Theory.
Local Open Scope ring_scope.

(** [norm] and [sqrt] in the theorems. *)
Definition euclid (F : rcfType) n (v : 'rV[F]_n) : F := Num.sqrt (\sum_k v 0 k * v 0 k).
Lemma euclid_rows (F : rcfType) n (A : 'M[F]_n) : norm_rows (@euclid F n) A.
Proof.
move=> i; split; first exact: sqrtr_ge0.
rewrite /euclid sqr_sqrtr; last by apply: sumr_ge0 => k _; rewrite -expr2 sqr_ge0.
by rewrite /base_dot; apply: eq_bigr => k _; rewrite !mxE.
Qed.
Example C47_met (F : rcfType) : forall x : F, 0 <= x -> 0 <= Num.sqrt x /\ Num.sqrt x ^+ 2 = x.
Proof. by move=> x x0; split; [exact: sqrtr_ge0|exact: sqr_sqrtr]. Qed.

(** The rotation with the rows (3/5, 4/5) and (-4/5, 3/5). *)
Section Turn.
Variable F : realFieldType.
Definition turn : 'M[F]_2 := \matrix_(i, j) (if i == j then 3%:R / 5%:R else if (i < j)%N then 4%:R / 5%:R else - (4%:R / 5%:R)).
Lemma turn_rows : orthonormal_rows turn.
Proof.
have H : (3%:R / 5%:R) * (3%:R / 5%:R) + (4%:R / 5%:R) * (4%:R / 5%:R) = 1 :> F.
  have N : (25%:R : F) != 0 by rewrite pnatr_eq0.
  rewrite !mulf_div -!natrM -mulrDl -natrD. by rewrite divff.
move=> i j; rewrite /base_dot !big_ord_recl big_ord0 addr0 !mxE.
case: i => [[|[|i]] Hi] //; case: j => [[|[|j]] Hj] //=; rewrite /eq_op /=.
- by rewrite mulrN addrC [X in X - _]mulrC subrr.
- by rewrite mulNr addrC [X in X - _]mulrC subrr.
- by rewrite mulrNN addrC H.
Qed.
End Turn.

Example C72_met : forall F : rcfType,
  (forall A, norm_rows (@euclid F 2) A) /\ orthonormal_rows (turn F) /\ good_frame (Frame Cartesian (turn F)).
Proof.
move=> F; split; first exact: euclid_rows. split; first exact: turn_rows. split; last exact: turn_rows.
have T : turn F *m (turn F)^T = 1%:M.
  apply/matrixP => i j; rewrite mxE [RHS]mxE -(turn_rows F i j) /base_dot; apply: eq_bigr => k _; by rewrite [(turn F)^T _ _]mxE.
move=> c Hc; by rewrite -[c]mulmx1 -T mulmxA Hc mul0mx.
Qed.
(** With these, the constructors accept the turned axes and refuse the axes stretched by two in the Cartesian class. *)
Example C63_met : forall F : rcfType,
  new_frame 0 0 (@euclid F 2) Cartesian (turn F) = Ok (Frame Cartesian (turn F)) /\
  new_frame 0 0 (@euclid F 2) Cartesian (2%:R *: turn F) = Err AssertionError.
Proof.
move=> F; have [_ _ _ /(_ (euclid_rows _)) [A _]] := C63_constructors (@euclid F 2) (turn F).
have [_ _ _ /(_ (euclid_rows _)) [_ B]] := C63_constructors (@euclid F 2) (2%:R *: turn F).
split; first by apply: A; exact: turn_rows.
apply: B => H; have := H ord0 ord0; rewrite eqxx /base_dot.
rewrite (eq_bigr (fun k => 4%:R * (turn F ord0 k * turn F ord0 k))); last first.
  by move=> k _; rewrite ![(2%:R *: turn F) _ _]mxE mulrACA -natrM.
rewrite -big_distrr /=; have := turn_rows F ord0 ord0; rewrite /base_dot => ->; rewrite eqxx mulr1 => E.
have : (4%:R : F) == 1%:R by apply/eqP. by rewrite eqr_nat.
Qed.
(** The stretched axes are normalized to the turned ones up to positive factors. *)
Example C75_met : forall F : rcfType, exists f,
  new_normalized 0 0 (@euclid F 2) (2%:R *: turn F) = Ok f /\ good_frame f /\ kind_of f = Cartesian.
Proof.
move=> F; have [f [A B C _]] : exists f, [/\ new_normalized 0 0 (@euclid F 2) (2%:R *: turn F) = Ok f, good_frame f, kind_of f = Cartesian & forall i, exists c, 0 < c /\ row i (axes f) = c *: row i (2%:R *: turn F)].
  apply: C75_normalize => //; first exact: euclid_rows.
  - move=> i j ij; rewrite /base_dot (eq_bigr (fun k => 4%:R * (turn F i k * turn F j k))); last first.
      by move=> k _; rewrite ![(2%:R *: turn F) _ _]mxE mulrACA -natrM.
    rewrite -big_distrr /=; have := turn_rows F i j; rewrite /base_dot => ->. by rewrite (negbTE ij) mulr0.
  - move=> c Hc; have [_ [_ [I _]]] := C72_met F. apply: I => /=. move: Hc; rewrite -scalemxAr => /eqP.
    by rewrite scaler_eq0 pnatr_eq0 /= => /eqP.
by exists f.
Qed.
(** A turned frame is no multiple of the standard frame, and its transpose turns back. *)
Example C76_met : forall F : rcfType, good_frame (Frame Cartesian (turn F)) /\ norm_rows (@euclid F 2) (turn F) /\ turn F *m (turn F)^T = 1%:M /\ turn F <> 1%:M.
Proof.
move=> F; have [_ [_ G]] := C72_met F. split=> //. split; first exact: euclid_rows. split.
  apply/matrixP => i j; rewrite mxE [RHS]mxE -(turn_rows F i j) /base_dot; apply: eq_bigr => k _; by rewrite [(turn F)^T _ _]mxE.
move=> /matrixP /(_ ord0 (lift ord0 ord0)); rewrite !mxE /= /eq_op /= => /eqP. by rewrite mulf_eq0 pnatr_eq0 /= invr_eq0 pnatr_eq0.
Qed.
