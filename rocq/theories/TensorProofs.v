(** Proofs about frames and tensors. *)
Set Warnings "-notation-overridden,-ambiguous-paths".
From Verif Require Import Prelude TensorModel TensorSpec.
From mathcomp Require Import all_ssreflect all_algebra all_fingroup.
Set Implicit Arguments.
Unset Strict Implicit.
Unset Printing Implicit Defensive.
Import GRing.Theory Num.Theory.
Local Open Scope ring_scope.

(** ** The transformation rule *)
Section Rule.
Variables (F : realFieldType) (n : nat).
Implicit Types (P Q A : 'M[F]_n).

Lemma transform_comp r P Q (T : tens F n r) : transform P (transform Q T) = transform (P *m Q) T.
Proof.
apply/ffunP => c; rewrite !ffunE.
under eq_bigr => d _ do rewrite ffunE big_distrr /=.
rewrite exchange_big /=; apply: eq_bigr => e _.
transitivity ((\sum_(d : mi n r) \prod_(k < r) (P (c k) (d k) * Q (d k) (e k))) * T e).
  by rewrite big_distrl /=; apply: eq_bigr => d _; rewrite mulrA big_split.
congr (_ * _); rewrite -(bigA_distr_bigA (fun k j => P (c k) j * Q j (e k))) /=.
by apply: eq_bigr => k _; rewrite !mxE.
Qed.

Lemma prod_delta r (c d : mi n r) : \prod_(k < r) ((c k == d k)%:R : F) = (c == d)%:R.
Proof.
case: (c =P d) => [->|H]; first by rewrite big1 // => k _; rewrite eqxx.
have [k Hk] : exists k, c k != d k.
  apply/existsP; rewrite -negb_forall; apply/negP => /forallP E.
  by apply: H; apply/ffunP => k; exact/eqP/E.
by rewrite (bigD1 k) //= (negbTE Hk) mul0r.
Qed.

Lemma transform1 r (T : tens F n r) : transform 1%:M T = T.
Proof.
apply/ffunP => c; rewrite !ffunE (bigD1 c) //= [X in _ + X]big1 => [|d Hd].
  by rewrite addr0 big1 ?mul1r // => k _; rewrite mxE eqxx.
under eq_bigr => k _ do rewrite mxE.
by rewrite prod_delta eq_sym (negbTE Hd) mul0r.
Qed.

Lemma transformD r Q (a b : tens F n r) : transform Q (a + b) = transform Q a + transform Q b.
Proof.
by apply/ffunP => c; rewrite !ffunE -big_split; apply: eq_bigr => d _; rewrite ffunE mulrDr.
Qed.

Lemma transformN r Q (a : tens F n r) : transform Q (- a) = - transform Q a.
Proof.
by apply/ffunP => c; rewrite !ffunE -sumrN; apply: eq_bigr => d _; rewrite ffunE mulrN.
Qed.

Lemma transformB r Q (a b : tens F n r) : transform Q (a - b) = transform Q a - transform Q b.
Proof. by rewrite transformD transformN. Qed.

Lemma transformZ r Q s (a : tens F n r) : transform Q [ffun c => a c * s] = [ffun c => transform Q a c * s].
Proof.
by apply/ffunP => c; rewrite !ffunE big_distrl; apply: eq_bigr => d _; rewrite ffunE mulrA.
Qed.

(** Exchanging indices. *)
Lemma transform_permute r (s : {perm 'I_r}) Q (T : tens F n r) :
  transform Q (permute s T) = permute s (transform Q T).
Proof.
apply/ffunP => c; rewrite !ffunE.
pose h (d : mi n r) : mi n r := [ffun k => d (s k)].
pose h' (d : mi n r) : mi n r := [ffun k => d ((s^-1)%g k)].
have hK : cancel h h' by move=> d; apply/ffunP => k; rewrite !ffunE permKV.
have h'K : cancel h' h by move=> d; apply/ffunP => k; rewrite !ffunE permK.
rewrite [RHS](reindex h) /=; last by exists h' => d _.
apply: eq_bigr => d _; rewrite ffunE; congr (_ * _).
rewrite (reindex_inj (@perm_inj _ s)) /=.
by apply: eq_bigr => k _; rewrite !ffunE.
Qed.

(** Reversing all indices (the transpose of a tensor). *)
Lemma transform_rev r Q (T : tens F n r) :
  transform Q [ffun c => T (rev_index c)] = [ffun c => transform Q T (rev_index c)].
Proof.
have E (S : tens F n r) : [ffun c => S (rev_index c)] = permute (perm (@rev_ord_inj r)) S.
  by apply/ffunP => c; rewrite !ffunE; congr (S _); apply/ffunP => k; rewrite !ffunE permE.
by rewrite E transform_permute -E.
Qed.

(** Full contraction. *)
Lemma inner_adjoint r Q (a b : tens F n r) : inner (transform Q a) b = inner a (transform Q^T b).
Proof.
rewrite /inner; under eq_bigr => c _ do rewrite ffunE big_distrl /=.
rewrite exchange_big /=; apply: eq_bigr => d _.
rewrite ffunE big_distrr /=; apply: eq_bigr => c _.
rewrite mulrA; congr (_ * _); rewrite mulrC; congr (_ * _).
by apply: eq_bigr => k _; rewrite mxE.
Qed.

Lemma inner_orthogonal r Q (a b : tens F n r) :
  Q^T *m Q = 1%:M -> inner (transform Q a) (transform Q b) = inner a b.
Proof. by move=> H; rewrite inner_adjoint transform_comp H transform1. Qed.

(** ** The meaning of components *)
Lemma representsP r A (a V : tens F n r) : represents A a V <-> V = transform A^T a.
Proof.
split=> [H|->].
  by apply/ffunP => c; rewrite H ffunE; apply: eq_bigr => d _; rewrite mulrC; congr (_ * _);
     apply: eq_bigr => k _; rewrite mxE.
by move=> c; rewrite ffunE; apply: eq_bigr => d _; rewrite mulrC; congr (_ * _);
   apply: eq_bigr => k _; rewrite mxE.
Qed.

Lemma independentP A : independent_rows A <-> A \in unitmx.
Proof.
split=> [H|H c Hc].
  rewrite -row_free_unit -kermx_eq0; apply/eqP/row_matrixP => i; rewrite row0; apply: H.
  by apply/eqP; rewrite -sub_kermx row_sub.
by rewrite -(mulmxK H c) Hc mul0mx.
Qed.

Lemma base_dotE A i j : base_dot A i j = (A *m A^T) i j.
Proof. by rewrite mxE; apply: eq_bigr => k _; rewrite mxE. Qed.

Lemma orthonormalP A : orthonormal_rows A <-> A *m A^T = 1%:M.
Proof.
split=> [H|H i j]; first by apply/matrixP => i j; rewrite -base_dotE H mxE.
by rewrite base_dotE H mxE.
Qed.

Lemma orthonormal_unit A : orthonormal_rows A -> A \in unitmx.
Proof. by move/orthonormalP => H; case: (mulmx1_unit H). Qed.

Lemma orthonormal_inv A : orthonormal_rows A -> invmx A = A^T.
Proof.
move=> H; have U := orthonormal_unit H; move/orthonormalP: H => H.
by rewrite -[LHS]mulmx1 -H mulKmx.
Qed.

Lemma represents_inj r A (a b V : tens F n r) :
  A \in unitmx -> represents A a V -> represents A b V -> a = b.
Proof.
move=> U /representsP -> /representsP H.
have K x : transform (invmx A)^T (transform A^T x) = x :> tens F n r.
  by rewrite transform_comp -trmx_mul mulmxV // trmx1 transform1.
by rewrite -(K a) H K.
Qed.
End Rule.

(** ** Frames *)
Section Frames.
Variables (F : realFieldType) (rtol atol : F) (n : nat) (norm : 'rV[F]_n -> F).
Hypotheses (Hr : 0 <= rtol) (Ha : 0 <= atol).
Implicit Types (A B : 'M[F]_n) (f g h : frame F n).
Local Notation dual := (dual rtol atol norm).
Local Notation dcm_target := (dcm_target rtol atol norm).
Local Notation dcm_source := (dcm_source rtol atol norm).
Local Notation show := (show rtol atol norm).

Lemma isclose_refl a : isclose rtol atol a a.
Proof. by rewrite /isclose subrr normr0 addr_ge0 // mulr_ge0. Qed.

Lemma agram_diag A : orthogonal_rows A -> \tr (agram A) = \sum_i \sum_j agram A i j.
Proof.
move=> H; apply: eq_bigr => i _; rewrite (bigD1 i) //= big1 ?addr0 // => j Hj.
by rewrite mxE -base_dotE H ?normr0 // eq_sym.
Qed.

Lemma orthogonal_accepted A : orthogonal_rows A -> is_rectangular_frame rtol atol A.
Proof. by move=> H; rewrite /is_rectangular_frame agram_diag // isclose_refl. Qed.

Lemma orthogonal_gram A : orthogonal_rows A <-> (A *m A^T) = diag_mx (\row_i base_dot A i i).
Proof.
split=> [H|H i j Hij].
  apply/matrixP => i j; rewrite -base_dotE !mxE; case: (i =P j) => [->|/eqP Hij]; first by rewrite mulr1n.
  by rewrite mulr0n H.
by rewrite base_dotE H !mxE (negbTE Hij) mulr0n.
Qed.

Lemma gram_dual A : A \in unitmx -> Gram (invmx A)^T = invmx (Gram A).
Proof.
move=> U; have U' : A^T \in unitmx by rewrite unitmx_tr.
rewrite /Gram trmxK.
have E : (invmx A)^T *m invmx A *m (A *m A^T) = 1%:M.
  by rewrite mulmxA mulmxKV // -trmx_mul mulmxV // trmx1.
have UG : A *m A^T \in unitmx by case: (mulmx1_unit E).
by rewrite -[LHS](mulmxK UG) E mul1mx.
Qed.

(** The reciprocal of an orthogonal frame is orthogonal: b_i / |b_i|^2. *)
Lemma orthogonal_dual A : A \in unitmx -> orthogonal_rows A -> orthogonal_rows (invmx A)^T.
Proof.
move=> U H i j Hij.
have UG : A *m A^T \in unitmx by rewrite unitmx_mul unitmx_tr U.
rewrite base_dotE -/(Gram _) gram_dual // /Gram.
move/orthogonal_gram: (H) => HG.
have D k : base_dot A k k != 0.
  apply/negP => /eqP Hk; move: UG; rewrite HG unitmxE det_diag unitfE (bigD1 k) //= mxE Hk mul0r eqxx //.
have -> : invmx (A *m A^T) = diag_mx (\row_k (base_dot A k k)^-1).
  rewrite -[RHS](mulmxK UG) HG mulmx_diag.
  suff -> : diag_mx (\row_j0 ((\row_k (base_dot A k k)^-1) 0 j0 * (\row_i0 base_dot A i0 i0) 0 j0)) = 1%:M.
    by rewrite mul1mx.
  apply/matrixP => a b; rewrite !mxE mulVf //.
by rewrite !mxE (negbTE Hij) mulr0n.
Qed.

Lemma dual_orthonormal A : orthonormal_rows A -> (invmx A)^T = A.
Proof. by move=> H; rewrite orthonormal_inv // trmxK. Qed.

Lemma good_unit f : good_frame f -> axes f \in unitmx.
Proof. by case=> /independentP. Qed.

Lemma dual_good f : good_frame f -> dual f = Ok (Frame (kind_of f) (invmx (axes f))^T) /\
  good_frame (Frame (kind_of f) (invmx (axes f))^T).
Proof.
move=> G; have U := good_unit G; case: f G U => k A [/= HI HK] U.
have U' : (invmx A)^T \in unitmx by rewrite unitmx_tr unitmx_inv.
split; last by split; [exact/independentP|case: k HK => //= H; [exact: orthogonal_dual|rewrite dual_orthonormal]].
rewrite /TensorModel.dual /dual_frame /np_inv /=; case: k HK => /= HK.
- by rewrite U.
- by rewrite U /= orthogonal_accepted //; exact: orthogonal_dual.
- by rewrite dual_orthonormal.
Qed.

Lemma dcm_targetE f g : good_frame g -> dcm_target f g = Ok ((invmx (axes g))^T *m (axes f)^T).
Proof. by move=> G; rewrite /TensorModel.dcm_target; case: (dual_good G) => -> _. Qed.

Lemma ambient_good : good_frame (ambient F n).
Proof. by split=> //=; apply/independentP; rewrite unitmx1. Qed.

Lemma showE r (T : tensor F n r) g : good_frame g ->
  show T (Some g) = Ok (transform ((invmx (axes g))^T *m (axes (frame_of T))^T) (arr T)).
Proof. by move=> G; rewrite /TensorModel.show dcm_targetE. Qed.

Lemma show_ambientE r (T : tensor F n r) : show T None = Ok (transform (axes (frame_of T))^T (arr T)).
Proof.
by rewrite /TensorModel.show dcm_targetE ?mul1mx /= ?invmx1 ?trmx1 ?mul1mx //; exact: ambient_good.
Qed.

(** The main fact: the shown components describe the same tensor. *)
Lemma show_represents r (T : tensor F n r) g V : good_frame g -> describes T V ->
  exists x, show T (Some g) = Ok x /\ represents (axes g) x V.
Proof.
move=> G /representsP HV; rewrite showE //; eexists; split; first by [].
apply/representsP; rewrite transform_comp mulmxA -trmx_mul.
by rewrite mulVmx ?good_unit // trmx1 mul1mx.
Qed.

Lemma show_unique r (T : tensor F n r) g V x : good_frame g -> describes T V ->
  represents (axes g) x V -> show T (Some g) = Ok x.
Proof.
move=> G HV Hx; have [y [-> Hy]] := show_represents G HV.
by rewrite (represents_inj (good_unit G) Hx Hy).
Qed.

Lemma show_ambient_describes r (T : tensor F n r) V : describes T V -> show T None = Ok V.
Proof. by move/representsP => ->; exact: show_ambientE. Qed.

Lemma describes_exists r (T : tensor F n r) : exists V, describes T V.
Proof. by eexists; apply/representsP. Qed.

Lemma represents1 r (V : tens F n r) : represents 1%:M V V.
Proof. by apply/representsP; rewrite trmx1 transform1. Qed.
End Frames.
