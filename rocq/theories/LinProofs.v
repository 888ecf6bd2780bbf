(** Proofs about the generalised inverses, predicates and the permutation tensor. *)
Set Warnings "-notation-overridden,-ambiguous-paths".
From Verif Require Import Prelude TensorModel TensorSpec TensorProofs TensorOpProofs CrossProofs LinModel LinSpec.
From mathcomp Require Import all_ssreflect all_algebra all_fingroup.
Set Implicit Arguments.
Unset Strict Implicit.
Unset Printing Implicit Defensive.
Import GRing.Theory Num.Theory.
Local Open Scope ring_scope.

Section Lin.
Variable F : realFieldType.

Lemma sum_zero (I : finType) (P : pred I) (f : I -> F) :
  (forall i, P i -> 0 <= f i) -> \sum_(i | P i) f i = 0 -> forall i, P i -> f i = 0.
Proof. by move=> H E i Hi; apply: (psumr_eq0P H E). Qed.

(** A sum of squares vanishes only if all terms do. *)
Lemma row_norm0 n (v : 'rV[F]_n) : v *m v^T = 0 -> v = 0.
Proof.
move=> H; apply/rowP => j; have := congr1 (fun M : 'M_1 => M 0 0) H; rewrite !mxE => E.
have P k : true -> 0 <= v 0 k * v^T k 0 by rewrite mxE -expr2 sqr_ge0.
have := sum_zero P E (i := j) isT.
by rewrite mxE => /eqP; rewrite mulf_eq0 orbb => /eqP ->.
Qed.

Lemma gram_row_free m n (A : 'M[F]_(m, n)) : row_free A -> A *m A^T \in unitmx.
Proof.
move=> H; rewrite -row_free_unit -kermx_eq0; apply/eqP/row_matrixP => i; rewrite row0.
set c := row i _; have Hc : c *m (A *m A^T) = 0 by apply/eqP; rewrite -sub_kermx row_sub.
have : c *m A = 0 by apply: row_norm0; rewrite trmx_mul mulmxA -(mulmxA c) Hc mul0mx.
by move=> E; apply: (row_free_inj H); rewrite mul0mx.
Qed.

Lemma gram_col_free m n (A : 'M[F]_(m, n)) : \rank A = n -> A^T *m A \in unitmx.
Proof.
by move=> H; have := @gram_row_free n m A^T; rewrite trmxK; apply; rewrite /row_free mxrank_tr H.
Qed.

(** The four conditions of Penrose that determine the pseudo-inverse. *)
Lemma left_inverse_ok m n (A : 'M[F]_(m, n)) : \rank A = n ->
  exists X, [/\ generalized_left_inverse A = Ok X, X *m A = 1%:M & penrose A X].
Proof.
move=> H; have U := gram_col_free H.
have E : invmx (A^T *m A) *m A^T *m A = 1%:M by rewrite -mulmxA mulVmx.
exists (invmx (A^T *m A) *m A^T); split=> //; first by rewrite /generalized_left_inverse /np_inv U.
split; rewrite ?E ?mul1mx ?trmx1 //; first by rewrite -mulmxA E mulmx1.
by rewrite !trmx_mul trmxK trmx_inv trmx_mul trmxK mulmxA.
Qed.

Lemma right_inverse_ok m n (A : 'M[F]_(m, n)) : \rank A = m ->
  exists X, [/\ generalized_right_inverse A = Ok X, A *m X = 1%:M & penrose A X].
Proof.
move=> H; have U : A *m A^T \in unitmx by apply: gram_row_free; rewrite /row_free H.
have E : A *m (A^T *m invmx (A *m A^T)) = 1%:M by rewrite mulmxA mulmxV.
exists (A^T *m invmx (A *m A^T)); split=> //; first by rewrite /generalized_right_inverse /np_inv U.
split; rewrite ?E ?mul1mx ?trmx1 //; first by rewrite -[LHS]mulmxA E mulmx1.
by rewrite !trmx_mul trmxK trmx_inv trmx_mul trmxK mulmxA.
Qed.

Lemma left_inverse_deficient m n (A : 'M[F]_(m, n)) : \rank A <> n -> generalized_left_inverse A = Err LinAlgError.
Proof.
move=> H; rewrite /generalized_left_inverse /np_inv; case: ifP => // U; case: H.
apply/eqP; rewrite eqn_leq rank_leq_col /= -{1}(mxrank_unit U); exact: mxrankM_maxr.
Qed.

Lemma right_inverse_deficient m n (A : 'M[F]_(m, n)) : \rank A <> m -> generalized_right_inverse A = Err LinAlgError.
Proof.
move=> H; rewrite /generalized_right_inverse /np_inv; case: ifP => // U; case: H.
apply/eqP; rewrite eqn_leq rank_leq_row /= -{1}(mxrank_unit U); exact: mxrankM_maxl.
Qed.

Lemma generalized_inverse_ok m n (A : 'M[F]_(m, n)) :
  (\rank A = minn m n -> exists X, [/\ generalized_inverse A = Ok X,
     (n <= m)%N -> X *m A = 1%:M, (m <= n)%N -> A *m X = 1%:M & penrose A X]) /\
  (\rank A <> minn m n -> generalized_inverse A = Err LinAlgError).
Proof.
rewrite /generalized_inverse; case: (m =P n) => [e|ne].
  case: n / e A => A; rewrite minnn castmx_id; split=> [H|/eqP/negbTE -> //].
  have U : A \in unitmx by rewrite -row_free_unit /row_free H.
  rewrite H eqxx /np_inv U /= castmx_id; exists (invmx A).
  by split=> [//|_|_|]; rewrite ?mulVmx ?mulmxV //; split; rewrite ?mulmxV ?mulVmx ?mul1mx ?trmx1.
case: (ltngtP n m) => [lt|lt|E]; last by case: ne.
- split=> [H|/eqP/negbTE -> //]; rewrite H eqxx.
  have [X [E L P]] := left_inverse_ok H; by exists X.
- split=> [H|/eqP/negbTE -> //]; rewrite H eqxx.
  have [X [E L P]] := right_inverse_ok H; by exists X.
Qed.

(** Rank predicates: independence of rows and columns. *)
Lemma full_row_rankP m n (A : 'M[F]_(m, n)) :
  has_full_row_rank A <-> (forall c : 'rV[F]_m, c *m A = 0 -> c = 0).
Proof.
have E : has_full_row_rank A = row_free A.
  rewrite /has_full_row_rank /row_free; case: ifP => // lt; apply/esym/eqP => H.
  by have := rank_leq_col A; rewrite H leqNgt lt.
rewrite E; split=> [H c Hc|H]; first by apply: (row_free_inj H); rewrite mul0mx.
rewrite -kermx_eq0; apply/eqP/row_matrixP => i; rewrite row0; apply: H.
by apply/eqP; rewrite -sub_kermx row_sub.
Qed.

Lemma full_column_rankP m n (A : 'M[F]_(m, n)) :
  has_full_column_rank A <-> (forall x : 'cV[F]_n, A *m x = 0 -> x = 0).
Proof.
have -> : has_full_column_rank A = has_full_row_rank A^T.
  by rewrite /has_full_column_rank /has_full_row_rank mxrank_tr.
rewrite full_row_rankP; split=> H c Hc.
  by apply: trmx_inj; rewrite trmx0; apply: H; rewrite -trmx_mul Hc trmx0.
by apply: trmx_inj; rewrite trmx0; apply: H; apply: trmx_inj; rewrite trmx_mul trmxK Hc trmx0.
Qed.

Lemma full_rankP m n (A : 'M[F]_(m, n)) :
  has_full_rank A = has_full_row_rank A || has_full_column_rank A.
Proof.
rewrite /has_full_rank /has_full_row_rank /has_full_column_rank /minn.
case: (ltngtP m n) => [lt|lt|E] //=; first by rewrite orbF.
by subst n; rewrite orbb.
Qed.

(** Positive (semi)definiteness of the random matrices. *)
Lemma quad_square n (A : 'M[F]_n) (x : 'cV[F]_n) : 0 <= (x^T *m (A^T *m A) *m x) 0 0.
Proof.
rewrite mulmxA -trmx_mul -mulmxA mxE; apply: sumr_ge0 => k _.
by rewrite mxE -expr2 sqr_ge0.
Qed.

Lemma semidef_ok n (A : 'M[F]_n) : (pos_semidef_of A)^T = pos_semidef_of A /\
  forall x : 'cV[F]_n, 0 <= (x^T *m pos_semidef_of A *m x) 0 0.
Proof. by split=> [|x]; [rewrite /pos_semidef_of trmx_mul trmxK|exact: quad_square]. Qed.

Lemma posdef_ok n (A : 'M[F]_n) alpha : (posdef_of A alpha)^T = posdef_of A alpha /\
  (forall x : 'cV[F]_n, alpha * (x^T *m x) 0 0 <= (x^T *m posdef_of A alpha *m x) 0 0) /\
  (0 < alpha -> forall x : 'cV[F]_n, x <> 0 -> 0 < (x^T *m posdef_of A alpha *m x) 0 0).
Proof.
have S : (posdef_of A alpha)^T = posdef_of A alpha.
  by rewrite /posdef_of linearD linearZ /= trmx1 trmx_mul trmxK.
have L (x : 'cV[F]_n) : alpha * (x^T *m x) 0 0 <= (x^T *m posdef_of A alpha *m x) 0 0.
  have -> : (x^T *m posdef_of A alpha *m x) 0 0 = (x^T *m (A *m A^T) *m x) 0 0 + alpha * (x^T *m x) 0 0.
    rewrite /posdef_of mulmxDr mulmxDl -scalemxAr mulmx1 -scalemxAl.
    by set P := x^T *m _ *m x; set S' := x^T *m x; rewrite !mxE.
  rewrite ler_addr.
  by have := quad_square A^T x; rewrite trmxK.
split=> //; split=> // Hpos x Hx; apply: Order.POrderTheory.lt_le_trans (L x); apply: mulr_gt0 => //.
rewrite Order.POrderTheory.lt_neqAle; apply/andP; split; last first.
  by have := quad_square 1%:M x; rewrite trmx1 mulmx1 mulmx1.
apply/eqP => E; apply: Hx; apply: trmx_inj; rewrite trmx0; apply: row_norm0; rewrite trmxK.
by apply/matrixP => i j; rewrite !ord1 -E mxE.
Qed.

Lemma ATBA_symmetric m n (A : 'M[F]_(m, n)) (B : 'M[F]_m) w : B^T = B ->
  (ATBA A B)^T = ATBA A B /\ (ATBAw A B w)^T = ATBAw A B w.
Proof.
move=> H; have E : (ATBA A B)^T = ATBA A B by rewrite /ATBA !trmx_mul trmxK H mulmxA.
by split=> //; rewrite /ATBAw linearZ /= -/(ATBA A B) E.
Qed.

Lemma unit_basis_vectorE length index (value : F) : (index < length)%N ->
  size (unit_basis_vector length index value) = length /\
  forall i, (i < length)%N -> nth 0 (unit_basis_vector length index value) i = if i == index then value else 0.
Proof.
move=> H; have E : maxn length index.+1 = length by apply/maxn_idPl.
rewrite /unit_basis_vector E; split=> [|i Hi]; first by rewrite size_map size_iota.
by rewrite (nth_map 0%N) ?size_iota // nth_iota // add0n; case: eqP; rewrite ?mulr1 ?mulr0.
Qed.

(** ** Frame predicates (C63) *)
Section Preds.
Variables (n : nat) (norm : 'rV[F]_n -> F).
Implicit Type A : 'M[F]_n.

Lemma rect_sum A : \sum_i \sum_j agram A i j - \tr (agram A) = \sum_i \sum_(j | j != i) `|base_dot A i j|.
Proof.
rewrite -sumrB; apply: eq_bigr => i _; rewrite (bigD1 i) //= addrC addKr.
by apply: eq_bigr => j _; rewrite mxE -base_dotE.
Qed.

(** Exactly what the tolerance allows. *)
Lemma rect_tolerance (rtol atol : F) A : is_rectangular_frame rtol atol A =
  (\sum_i \sum_(j | j != i) `|base_dot A i j| <= atol + rtol * \sum_i \sum_j `|base_dot A i j|).
Proof.
rewrite /is_rectangular_frame /isclose distrC rect_sum.
have E : \sum_i \sum_j agram A i j = \sum_i \sum_j `|base_dot A i j|.
  by apply: eq_bigr => i _; apply: eq_bigr => j _; rewrite mxE -base_dotE.
rewrite E !ger0_norm //; first by do 2 (apply: sumr_ge0 => ? _).
by do 2 (apply: sumr_ge0 => ? _).
Qed.

Lemma rect_exact A : is_rectangular_frame 0 0 A <-> orthogonal_rows A.
Proof.
rewrite rect_tolerance mul0r addr0; split=> [H i j Hij|H].
  have P k : true -> 0 <= \sum_(j0 | j0 != k) `|base_dot A k j0| by move=> _; apply: sumr_ge0.
  have E : \sum_k \sum_(j0 | j0 != k) `|base_dot A k j0| = 0.
    by apply/eqP; rewrite Order.POrderTheory.eq_le H; apply: sumr_ge0 => k _; apply: P.
  have Ei := sum_zero P E (i := i) isT.
  have := sum_zero (fun j0 _ => normr_ge0 (base_dot A i j0)) Ei (i := j).
  by rewrite eq_sym Hij => /(_ isT) /normr0P /eqP.
rewrite big1 // => i _; rewrite big1 // => j Hj; rewrite H ?normr0 // eq_sym //.
Qed.

Lemma orthonormal_exact A : norm_rows norm A -> is_orthonormal_frame 0 0 norm A <-> orthonormal_rows A.
Proof.
move=> N; split=> [/andP [/rect_exact R /forallP U] i j|H].
  case: (i =P j) => [<-|/eqP Hij]; last by rewrite R.
  have [_ <-] := N i; have := U i; rewrite /isclose mul0r addr0 normr_le0 subr_eq0 => /eqP ->.
  by rewrite expr1n.
apply/andP; split.
  by apply/rect_exact => i j /negbTE Hij; rewrite H Hij.
by apply/forallP => i; rewrite norm_one // isclose_refl.
Qed.

Lemma independent_exact A : is_independent_frame A 0 <-> independent_rows A.
Proof.
rewrite independentP /is_independent_frame /Gram det_mulmx det_tr -expr2 unitmxE unitfE.
by rewrite Order.POrderTheory.lt_neqAle eq_sym sqrf_eq0 sqr_ge0 andbT.
Qed.
End Preds.

(** ** The permutation tensor (C66) *)
Section Perm.
Variable n : nat.

Lemma foldl_store (l : seq (mi n n)) (v : mi n n -> F) (a : tens F n n) c :
  foldl (fun (a : tens F n n) x => [ffun c => if c == x then v x else a c]) a l c = if c \in l then v c else a c.
Proof.
elim: l a => //= x l IH a; rewrite IH ffunE in_cons.
by case: (c \in l); rewrite ?orbT ?orbF //; case: eqP => [->|].
Qed.

Lemma permutation_tensorE (c : mi n n) :
  permutation_tensor F n c = if injectiveb c then \det (one_matrix F c) else 0.
Proof. by rewrite /permutation_tensor foldl_store mem_enum inE ffunE. Qed.

Lemma one_matrix_perm (s : {perm 'I_n}) : one_matrix F [ffun i => s i] = perm_mx s.
Proof. by apply/matrixP => i j; rewrite !mxE ffunE. Qed.

Lemma permutation_sign (s : {perm 'I_n}) : permutation_tensor F n [ffun i => s i] = (-1) ^+ s.
Proof.
rewrite permutation_tensorE one_matrix_perm det_perm (_ : injectiveb _ = true) //.
by apply/injectiveP => i j; rewrite !ffunE => /perm_inj.
Qed.

Lemma permutation_repeat (c : mi n n) i j : i != j -> c i = c j -> permutation_tensor F n c = 0.
Proof.
move=> Hij E; rewrite permutation_tensorE; case: ifP => // /injectiveP H.
by move: (H _ _ E) Hij => ->; rewrite eqxx.
Qed.

Lemma injective_perm (c : mi n n) : injectiveb c -> exists s : {perm 'I_n}, c = [ffun i => s i].
Proof. by move=> /injectiveP H; exists (perm H); apply/ffunP => i; rewrite ffunE permE. Qed.

Lemma permutation_antisymmetric (c : mi n n) i j : i != j ->
  permutation_tensor F n [ffun k => c (tperm i j k)] = - permutation_tensor F n c.
Proof.
move=> Hij; case I : (injectiveb c).
  have [s ->] := injective_perm I.
  have -> : [ffun k => [ffun i => s i] (tperm i j k)] = [ffun k => (tperm i j * s)%g k] :> mi n n.
    by apply/ffunP => k; rewrite !ffunE permM.
  by rewrite !permutation_sign odd_permM odd_tperm Hij signr_addb expr1 mulN1r.
rewrite !permutation_tensorE I oppr0 (_ : injectiveb _ = false) //.
apply/negbTE/negP => /injectiveP H; move/negbT/negP: I; apply; apply/injectiveP => a b E.
apply: (@perm_inj _ (tperm i j)); apply: H.
by rewrite !ffunE !tpermK.
Qed.

(** It generates determinants. *)
Lemma permutation_det (A : 'M[F]_n) :
  \det A = \sum_(c : mi n n) permutation_tensor F n c * \prod_i A i (c i).
Proof.
rewrite (bigID (fun c : mi n n => injectiveb c)) /= [X in _ + X]big1 ?addr0 => [|c /negbTE H]; last first.
  by rewrite permutation_tensorE H mul0r.
rewrite (reindex (fun s : {perm 'I_n} => [ffun i => s i] : mi n n)) /=; last first.
  exists (fun c : mi n n => if injectiveb c =P true is ReflectT H then perm (elimT (injectiveP c) H) else 1%g) => [s _|c].
    case: (_ =P true) => [H|]; first by apply/permP => i; rewrite permE ffunE.
    by case; apply/injectiveP => i j; rewrite !ffunE => /perm_inj.
  rewrite inE => H; case: (_ =P true) => [H'|/(_ H) //]; apply/ffunP => i.
  by rewrite ffunE permE.
rewrite /determinant; apply: eq_big => [s|s _].
  by apply/esym/injectiveP => i j; rewrite !ffunE => /perm_inj.
rewrite permutation_sign; congr (_ * _); by apply: eq_bigr => i _; rewrite ffunE.
Qed.
End Perm.

(** In three dimensions it generates the cross product. *)

Lemma eps_swap (i j k : 'I_3) : permutation_tensor F 3 (index3 j i k) = - permutation_tensor F 3 (index3 i j k)
  /\ permutation_tensor F 3 (index3 i k j) = - permutation_tensor F 3 (index3 i j k).
Proof.
split.
  rewrite -(@permutation_antisymmetric 3 _ i0 i1) //; congr (permutation_tensor F 3 _).
  by apply/ffunP; apply: I3; rewrite !ffunE permE.
rewrite -(@permutation_antisymmetric 3 _ i1 i2) //; congr (permutation_tensor F 3 _).
by apply/ffunP; apply: I3; rewrite !ffunE permE.
Qed.

Lemma eps_012 : permutation_tensor F 3 (index3 i0 i1 i2) = 1.
Proof.
have -> : index3 i0 i1 i2 = [ffun i => (1%g : {perm 'I_3}) i].
  by apply/ffunP; apply: I3; rewrite !ffunE perm1.
by rewrite permutation_sign odd_perm1.
Qed.

Lemma eps_same (i j : 'I_3) : [/\ permutation_tensor F 3 (index3 i i j) = 0,
  permutation_tensor F 3 (index3 i j j) = 0 & permutation_tensor F 3 (index3 i j i) = 0].
Proof.
split; [apply: (@permutation_repeat 3 _ i0 i1)|apply: (@permutation_repeat 3 _ i1 i2)|apply: (@permutation_repeat 3 _ i0 i2)];
  by rewrite ?ffunE.
Qed.

Lemma cross_eps (a b : 'cV[F]_3) i :
  cross3 a b i 0 = \sum_j \sum_k permutation_tensor F 3 (index3 i j k) * a j 0 * b k 0.
Proof.
have s12 : permutation_tensor F 3 (index3 i0 i2 i1) = -1 by rewrite (proj2 (eps_swap i0 i1 i2)) eps_012.
have s01 : permutation_tensor F 3 (index3 i1 i0 i2) = -1 by rewrite (proj1 (eps_swap i0 i1 i2)) eps_012.
have c1 : permutation_tensor F 3 (index3 i1 i2 i0) = 1 by rewrite (proj2 (eps_swap i1 i0 i2)) s01 opprK.
have c2 : permutation_tensor F 3 (index3 i2 i0 i1) = 1 by rewrite (proj1 (eps_swap i0 i2 i1)) s12 opprK.
have s02 : permutation_tensor F 3 (index3 i2 i1 i0) = -1 by rewrite (proj2 (eps_swap i2 i0 i1)) c2.
move: i; apply: I3; rewrite mxE !sum3 /=.
- have [e1 e2 e3] := eps_same i0 i1; have [f1 f2 f3] := eps_same i0 i2; have [g1 g2 g3] := eps_same i0 i0.
  by rewrite e1 e2 e3 f1 f2 f3 g1 s12 eps_012 !mul0r !add0r !addr0 !mul1r mulN1r mulNr.
- have [e1 e2 e3] := eps_same i1 i0; have [f1 f2 f3] := eps_same i1 i2; have [g1 g2 g3] := eps_same i1 i1.
  by rewrite e1 e2 e3 f1 f2 f3 g1 s01 c1 !mul0r !add0r !addr0 !mul1r mulN1r mulNr addrC.
- have [e1 e2 e3] := eps_same i2 i0; have [f1 f2 f3] := eps_same i2 i1; have [g1 g2 g3] := eps_same i2 i2.
  by rewrite e1 e2 e3 f1 f2 f3 g1 c2 s02 !mul0r !add0r !addr0 !mul1r mulN1r mulNr.
Qed.
End Lin.
