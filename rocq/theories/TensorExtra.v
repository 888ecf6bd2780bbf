(** Combinations of the lemmas on frames and tensors, and contraction. *)
Set Warnings "-notation-overridden,-ambiguous-paths".
From Verif Require Import Prelude TensorModel TensorSpec TensorProofs TensorOpProofs CrossProofs LinModel LinSpec LinProofs TensorRefute.
From mathcomp Require Import all_ssreflect all_algebra all_fingroup.
Set Implicit Arguments.
Unset Strict Implicit.
Unset Printing Implicit Defensive.
Import GRing.Theory Num.Theory.
Local Open Scope ring_scope.

Section Contract.
Variables (F : realFieldType) (n : nat).

Lemma prod_at r (p : 'I_r.+1) (f : 'I_r.+1 -> F) : \prod_k f k = f p * \prod_(k < r) f (lift p k).
Proof. by rewrite (bigD1_ord p). Qed.

Lemma join1p ra rb (p : 'I_ra.+1) (q : 'I_rb.+1) (c : mi n (ra + rb)) s : (join p q c s).1 p = s.
Proof. by rewrite ffunE unlift_none. Qed.
Lemma join1l ra rb (p : 'I_ra.+1) (q : 'I_rb.+1) (c : mi n (ra + rb)) s k : (join p q c s).1 (lift p k) = c (lshift rb k).
Proof. by rewrite ffunE liftK. Qed.
Lemma join2q ra rb (p : 'I_ra.+1) (q : 'I_rb.+1) (c : mi n (ra + rb)) s : (join p q c s).2 q = s.
Proof. by rewrite ffunE unlift_none. Qed.
Lemma join2l ra rb (p : 'I_ra.+1) (q : 'I_rb.+1) (c : mi n (ra + rb)) s k : (join p q c s).2 (lift q k) = c (rshift ra k).
Proof. by rewrite ffunE liftK. Qed.

Definition unjoin ra rb (p : 'I_ra.+1) (q : 'I_rb.+1) (de : mi n ra.+1 * mi n rb.+1) : mi n (ra + rb) * 'I_n :=
  ([ffun k => match split k with inl k' => de.1 (lift p k') | inr k' => de.2 (lift q k') end], de.1 p).

Lemma joinK ra rb (p : 'I_ra.+1) (q : 'I_rb.+1) cs : unjoin p q (join p q cs.1 cs.2) = cs.
Proof.
case: cs => c s; rewrite /unjoin join1p; congr pair; apply/ffunP => k; rewrite ffunE.
case: split_ordP => k' ->; [exact: join1l | exact: join2l].
Qed.
Lemma unjoinK ra rb (p : 'I_ra.+1) (q : 'I_rb.+1) (de : mi n ra.+1 * mi n rb.+1) : de.1 p = de.2 q ->
  join p q (unjoin p q de).1 (unjoin p q de).2 = de.
Proof.
case: de => d e /= E; congr pair; apply/ffunP => k; rewrite ffunE.
  by case: unliftP => [k'|] ->; rewrite // ffunE; case: split_ordP => k2 /eqP; rewrite ?eq_lshift ?eq_lrshift // => /eqP->.
case: unliftP => [k'|] ->; rewrite // ffunE.
by case: split_ordP => k2 /eqP; rewrite ?eq_rshift ?eq_rlshift // => /eqP->.
Qed.

Definition j1 ra rb (p : 'I_ra.+1) (q : 'I_rb.+1) (c : mi n (ra + rb)) s : mi n ra.+1 := locked (join p q c s).1.
Definition j2 ra rb (p : 'I_ra.+1) (q : 'I_rb.+1) (c : mi n (ra + rb)) s : mi n rb.+1 := locked (join p q c s).2.
Lemma contractE ra rb (p : 'I_ra.+1) (q : 'I_rb.+1) (x : tens F n ra.+1) (y : tens F n rb.+1) c :
  contract p q x y c = \sum_(s < n) x (j1 p q c s) * y (j2 p q c s).
Proof. by rewrite ffunE; apply: eq_bigr => s _; rewrite /j1 /j2 -!lock. Qed.
Lemma prod1 ra rb (p : 'I_ra.+1) (q : 'I_rb.+1) (c : mi n (ra + rb)) s (Q : 'M[F]_n) (d : mi n ra.+1) :
  \prod_k Q (j1 p q c s k) (d k) = Q s (d p) * \prod_(k < ra) Q (c (lshift rb k)) (d (lift p k)).
Proof.
rewrite (prod_at p) /j1 -lock join1p; congr (_ * _); apply: eq_bigr => k _.
by rewrite join1l.
Qed.
Lemma prod2 ra rb (p : 'I_ra.+1) (q : 'I_rb.+1) (c : mi n (ra + rb)) s (Q : 'M[F]_n) (d : mi n rb.+1) :
  \prod_k Q (j2 p q c s k) (d k) = Q s (d q) * \prod_(k < rb) Q (c (rshift ra k)) (d (lift q k)).
Proof.
rewrite (prod_at q) /j2 -lock join2q; congr (_ * _); apply: eq_bigr => k _.
by rewrite join2l.
Qed.

Lemma contract_transform (Q : 'M[F]_n) ra rb (p : 'I_ra.+1) (q : 'I_rb.+1) (x : tens F n ra.+1) (y : tens F n rb.+1) :
  Q^T *m Q = 1%:M -> contract p q (transform Q x) (transform Q y) = transform Q (contract p q x y).
Proof.
move=> HQ; apply/ffunP => c; rewrite contractE [RHS]ffunE.
pose A (d : mi n ra.+1) : F := \prod_(k < ra) Q (c (lshift rb k)) (d (lift p k)).
pose B (e : mi n rb.+1) : F := \prod_(k < rb) Q (c (rshift ra k)) (e (lift q k)).
pose G (de : mi n ra.+1 * mi n rb.+1) : F := A de.1 * B de.2 * (x de.1 * y de.2).
transitivity (\sum_(de : mi n ra.+1 * mi n rb.+1 | de.1 p == de.2 q) G de).
  transitivity (\sum_(s < n) \sum_(de : mi n ra.+1 * mi n rb.+1) Q s (de.1 p) * Q s (de.2 q) * G de).
    apply: eq_bigr => s _; rewrite !ffunE big_distrlr /= pair_bigA /=; apply: eq_bigr => -[d e] _ /=.
    rewrite prod1 prod2 -/(A d) -/(B e) /G /=.
    by rewrite mulrACA [X in X * _ = _]mulrACA [RHS]mulrA.
  rewrite exchange_big /= [RHS]big_mkcond /=; apply: eq_bigr => de _.
  rewrite -big_distrl /=; have /matrixP /(_ (de.1 p) (de.2 q)) := HQ.
  rewrite !mxE => E.
  have -> : \sum_(s < n) Q s (de.1 p) * Q s (de.2 q) = (de.1 p == de.2 q)%:R.
    by rewrite -E; apply: eq_bigr => s _; rewrite mxE.
  by case: eqP => _; rewrite ?mul1r ?mul0r.
rewrite (reindex (fun cs : mi n (ra + rb) * 'I_n => join p q cs.1 cs.2)) /=; last first.
  exists (unjoin p q) => [cs _|de]; first exact: joinK.
  by rewrite inE => /eqP /unjoinK.
under [RHS]eq_bigr => m _ do rewrite ffunE big_distrr /=.
rewrite pair_bigA /=; apply: eq_big => [[m s]|[m s] _]; first by rewrite !ffunE !unlift_none eqxx.
rewrite /G /A /B big_split_ord /=; congr (_ * _ * _).
  by apply: eq_bigr => k _; rewrite !ffunE !liftK.
by apply: eq_bigr => k _; rewrite !ffunE !liftK.
Qed.

Lemma contract_contracted ra rb (p : 'I_ra.+1) (q : 'I_rb.+1) (x : tens F n ra.+1) (y : tens F n rb.+1) :
  contracted p q x y (contract p q x y).
Proof.
move=> c u v Hu Hv; rewrite ffunE; apply: eq_bigr => s _.
have -> : (join p q c s).1 = u s.
  by apply/ffunP => k; case: (unliftP p k) => [k'|] ->; rewrite ?join1l ?join1p; case: (Hu s) => E1 E2; rewrite ?E1 ?E2.
have -> // : (join p q c s).2 = v s.
by apply/ffunP => k; case: (unliftP q k) => [k'|] ->; rewrite ?join2l ?join2q; case: (Hv s) => E1 E2; rewrite ?E1 ?E2.
Qed.
Lemma contraction_indices ra rb (p : 'I_ra.+1) (q : 'I_rb.+1) (c : mi n (ra + rb)) :
  exists (x : 'I_n -> mi n ra.+1) (y : 'I_n -> mi n rb.+1),
    (forall s, x s p = s /\ forall k, x s (lift p k) = c (lshift rb k)) /\
    (forall s, y s q = s /\ forall k, y s (lift q k) = c (rshift ra k)).
Proof.
exists (fun s => (join p q c s).1), (fun s => (join p q c s).2); split=> s.
  by split=> [|k]; [exact: join1p | exact: join1l].
by split=> [|k]; [exact: join2q | exact: join2l].
Qed.
Lemma contracted_transform (Q : 'M[F]_n) ra rb (p : 'I_ra.+1) (q : 'I_rb.+1) (x : tens F n ra.+1) (y : tens F n rb.+1) :
  Q^T *m Q = 1%:M ->
  exists R R', [/\ contracted p q x y R, contracted p q (transform Q x) (transform Q y) R' & R' = transform Q R].
Proof.
move=> HQ; exists (contract p q x y), (contract p q (transform Q x) (transform Q y)).
by split; [exact: contract_contracted | exact: contract_contracted | exact: contract_transform].
Qed.
Lemma components (V : tens F n 1) (X : tens F n 2) (v : 'cV[F]_n) (A : 'M[F]_n) :
  [/\ forall c : mi n 1, vec_of V (c ord0) 0 = V c, forall c : mi n 2, mat_of X (c ord0) (c ord_max) = X c,
      forall c : mi n 1, of_vec v c = v (c ord0) 0 & forall c : mi n 2, of_mat A c = A (c ord0) (c ord_max)].
Proof.
have E : lift ord0 ord0 = ord_max :> 'I_2 by apply/val_inj.
split=> c; rewrite ?mxE ?ffunE ?E //; congr (_ _); apply/ffunP => k; rewrite ffunE; first by rewrite (ord1 k).
by case: eqP => [->//|/eqP]; case: (unliftP ord0 k) => [j ->|->//] _; rewrite (ord1 j) E.
Qed.
End Contract.

Section Extra.
Variables (F : realFieldType).

Lemma frames_exist :
  [/\ good_frame (Frame Reference (1%:M + delta_mx ord_max ord0 : 'M[F]_2)),
      good_frame (Frame Rectangular (3%:R%:M : 'M[F]_3)) &
      good_frame (Frame Cartesian ((-1)%:M : 'M[F]_3))].
Proof.
split.
- split=> //=; apply/independentP.
  have E : (1%:M + delta_mx ord_max ord0 : 'M[F]_2) *m (1%:M - delta_mx ord_max ord0) = 1%:M.
    by rewrite mulmxDl mulmxBr mulmxBr !mulmx1 !mul1mx mul_delta_mx_0 // subr0 subrK.
  by have [] := mulmx1_unit E.
- by apply: scalar_good => //; exact: (@nat_neq F 3 0).
- apply: scalar_good; last by rewrite sqrrN expr1n.
  by move/eqP; rewrite oppr_eq0 oner_eq0.
Qed.

Lemma ranks_exist : \rank (col_mx 1%:M 1%:M : 'M[F]_(2 + 2, 2)) = 2%N /\ \rank (row_mx 1%:M 1%:M : 'M[F]_(2, 2 + 2)) = 2%N.
Proof.
have R : \rank (row_mx 1%:M 1%:M : 'M[F]_(2, 2 + 2)) = 2%N.
  apply/eqP; rewrite -[_ == _]/(row_free _); apply/row_freeP; exists (col_mx 1%:M 0).
  by rewrite mul_row_col mulmx1 mulmx0 addr0.
by split=> //; rewrite -mxrank_tr tr_col_mx !trmx1.
Qed.

Lemma functorial (n r : nat) (P Q : 'M[F]_n) (S T : tens F n r) (s : F) :
  [/\ transform P (transform Q T) = transform (P *m Q) T, transform 1%:M T = T,
      transform Q (S + T) = transform Q S + transform Q T &
      transform Q [ffun c => T c * s] = [ffun c => transform Q T c * s]].
Proof. split; [exact: transform_comp|exact: transform1|exact: transformD|exact: transformZ]. Qed.

Lemma symmetric_kept (n r : nat) (Q : 'M[F]_n) (s : {perm 'I_r}) (T : tens F n r) :
  transform Q (permute s T) = permute s (transform Q T) /\
  (permute s T = T -> permute s (transform Q T) = transform Q T).
Proof. by split=> [|E]; rewrite -?transform_permute ?E. Qed.

Lemma orthogonal_kept (n r : nat) (Q : 'M[F]_n) : Q^T *m Q = 1%:M ->
  (forall S T : tens F n r, inner (transform Q S) (transform Q T) = inner S T) /\
  (forall T : tens F n 2, \tr (mat_of (transform Q T)) = \tr (mat_of T)).
Proof.
move=> E; split=> [S T|T]; first exact: inner_orthogonal.
by rewrite transform_mat mxtrace_mulC mulmxA E mul1mx.
Qed.

Lemma ranks (n : nat) (Q : 'M[F]_n) (v : tens F n 1) (T : tens F n 2) (C : tens F n 4) :
  [/\ vec_of (transform Q v) = Q *m vec_of v, mat_of (transform Q T) = Q *m mat_of T *m Q^T &
      forall i j k l, transform Q C (index4 i j k l) =
        \sum_a \sum_b \sum_c \sum_d Q i a * Q j b * Q k c * Q l d * C (index4 a b c d)].
Proof. split; [exact: transform_vec|exact: transform_mat|exact: transform4]. Qed.

Lemma number_ops (n r : nat) (a : tensor F n r) (s : F) c :
  [/\ arr (iadd_number a s) c = arr a c + s, arr (isub_number a s) c = arr a c + s,
      arr (tscale a s) c = arr a c * s & arr (tdiv a s) c = arr a c / s] /\
  arr (isub_number a 0) = arr a.
Proof. by split; [split; rewrite !ffunE | apply/ffunP => d; rewrite !ffunE addr0]. Qed.

Lemma predicates (n : nat) (norm : 'rV[F]_n -> F) (A : 'M[F]_n) :
  [/\ is_rectangular_frame 0 0 A <-> orthogonal_rows A,
      norm_rows norm A -> (is_orthonormal_frame 0 0 norm A <-> orthonormal_rows A) &
      is_independent_frame A 0 <-> independent_rows A].
Proof. split; [exact: rect_exact|exact: orthonormal_exact|exact: independent_exact]. Qed.

Lemma constructors (n : nat) (norm : 'rV[F]_n -> F) (A : 'M[F]_n) :
  [/\ forall rtol atol, new_frame rtol atol norm Reference A = Ok (Frame Reference A),
      orthogonal_rows A -> new_frame 0 0 norm Rectangular A = Ok (Frame Rectangular A),
      ~ orthogonal_rows A -> new_frame 0 0 norm Rectangular A = Err AssertionError &
      norm_rows norm A ->
        (orthonormal_rows A -> new_frame 0 0 norm Cartesian A = Ok (Frame Cartesian A)) /\
        (~ orthonormal_rows A -> new_frame 0 0 norm Cartesian A = Err AssertionError)].
Proof.
have [P1 P2 _] := predicates norm A.
split=> //=.
- by move/P1 => ->.
- by case E: (is_rectangular_frame 0 0 A) => // H; case: H; apply/P1.
move/P2 => P; split=> [/P|H].
  by rewrite /is_orthonormal_frame => /andP [-> ->].
case E1: (is_rectangular_frame 0 0 A) => //; case E2: (is_normal_frame 0 0 norm A) => //.
by case: H; apply/P; rewrite /is_orthonormal_frame E1 E2.
Qed.

Lemma tolerance (n : nat) (rtol atol : F) (A : 'M[F]_n) :
  (is_rectangular_frame rtol atol A <->
     \sum_i \sum_(j | j != i) `|base_dot A i j| <= atol + rtol * \sum_i \sum_j `|base_dot A i j|) /\
  (0 <= rtol -> 0 <= atol -> orthogonal_rows A -> is_rectangular_frame rtol atol A).
Proof. by split; [rewrite rect_tolerance | by move=> Hr Ha; apply: orthogonal_accepted]. Qed.

Lemma permutation_facts (n : nat) :
  [/\ forall s : {perm 'I_n}, permutation_tensor F n [ffun i => s i] = (-1) ^+ s,
      forall (c : mi n n) i j, i != j -> c i = c j -> permutation_tensor F n c = 0,
      forall (c : mi n n) i j, i != j ->
        permutation_tensor F n [ffun k => c (tperm i j k)] = - permutation_tensor F n c &
      forall A : 'M[F]_n, \det A = \sum_(c : mi n n) permutation_tensor F n c * \prod_i A i (c i)].
Proof.
split; [exact: permutation_sign|exact: permutation_repeat|exact: permutation_antisymmetric|exact: permutation_det].
Qed.

Lemma random_matrices n (A : 'M[F]_n) (alpha : F) :
  [/\ (pos_semidef_of A)^T = pos_semidef_of A,
      forall x : 'cV[F]_n, 0 <= (x^T *m pos_semidef_of A *m x) 0 0,
      (posdef_of A alpha)^T = posdef_of A alpha &
      0 < alpha -> forall x : 'cV[F]_n, x <> 0 -> 0 < (x^T *m posdef_of A alpha *m x) 0 0].
Proof. by have [H1 H2] := semidef_ok A; have [H3 [_ H4]] := posdef_ok A alpha. Qed.

Section Tol.
Variables (rtol atol : F).

Section AnyDim.
Variables (n : nat) (norm : 'rV[F]_n -> F).
Hypotheses (Hr : 0 <= rtol) (Ha : 0 <= atol).

Lemma show_iff r (T : tensor F n r) (g : frame F n) V x :
  good_frame g -> describes T V -> (show rtol atol norm T (Some g) = Ok x <-> represents (axes g) x V).
Proof.
move=> G D; split=> [E|R]; last exact: show_unique R.
have [y [Ey Ry]] := show_represents norm Hr Ha G D.
by move: Ey; rewrite E => -[->].
Qed.

Lemma dot_all (v w : tensor F n 1) (T S : tensor F n 2) V W X Y :
  describes v V -> describes w W -> describes T X -> describes S Y ->
  [/\ dot_vv rtol atol norm v w = Ok (\sum_i vec_of V i 0 * vec_of W i 0),
      good_frame (frame_of T) -> exists t, dot_tv rtol atol norm T v = Ok t /\ describes t (of_vec (mat_of X *m vec_of V)) &
      good_frame (frame_of T) -> exists t, dot_tt rtol atol norm T S = Ok t /\ describes t (of_mat (mat_of X *m mat_of Y))].
Proof.
move=> Dv Dw DT DS; split; first exact: dot_vvE.
  by move=> G; apply: dot_tv_ok.
by move=> G; apply: dot_tt_ok.
Qed.

Lemma dot_vt_all (a : tensor F n 1) (b : tensor F n 2) V W :
  good_frame (frame_of a) -> describes a V -> describes b W ->
  exists t, dot_vt rtol atol norm a b = Ok t /\
    describes t (of_vec ((axes (frame_of a))^T *m axes (frame_of a) *m mat_of W *m vec_of V)) /\
    (orthonormal_rows (axes (frame_of a)) -> (mat_of W)^T = mat_of W ->
       describes t (of_vec ((mat_of W)^T *m vec_of V))).
Proof.
move=> G DV DW; have [t [E D]] := dot_vt_value norm Hr Ha G DV DW.
exists t; split=> //; split=> // O Sy.
have [t' [E' D']] := dot_vt_partial norm Hr Ha G O Sy DV DW.
by move: E'; rewrite E => -[->].
Qed.

Lemma frame_show_partial (f : frame F n) : good_frame f ->
  [/\ frame_show rtol atol norm f (Some f) = Ok 1%:M, frame_show rtol atol norm f None = Ok (axes f),
      forall g, orthonormal_rows (axes f) -> orthonormal_rows (axes g) ->
        exists X, frame_show rtol atol norm f (Some g) = Ok X /\ X *m axes g = axes f &
      forall g, exists X, frame_show rtol atol norm f (Some g) = Ok X /\ X^T *m axes f = axes g].
Proof.
move=> G; have [S1 S2] := frame_show_self norm Hr Ha G; split=> //.
  by move=> g; apply: frame_show_orthonormal.
move=> g; eexists; split; first by rewrite /frame_show /dcm_source (proj1 (dual_good norm Hr Ha G)) /=; reflexivity.
by rewrite trmx_mul !trmxK -mulmxA mulVmx ?mulmx1 // (good_unit G).
Qed.

Lemma frame_numbers_partial (sqrt : F -> F) : (forall x, 0 <= x -> 0 <= sqrt x /\ sqrt x ^+ 2 = x) ->
  (forall f : frame F n, good_frame f -> volume sqrt f = `|\det (axes f)|) /\
  forall A : 'M[F]_n, orthonormal_rows A ->
  let c := Frame Cartesian A in let f := Frame Reference A in
  [/\ frame_Gram c = frame_Gram f, volume sqrt c = volume sqrt f,
      exists d, [/\ dual rtol atol norm c = Ok c, dual rtol atol norm f = Ok d & axes d = axes c] &
      show rtol atol norm (metric_tensor f) None = Ok (of_mat 1%:M) /\
      show rtol atol norm (metric_tensor c) None = Ok (of_mat 1%:M)].
Proof.
move=> S; split=> [f G|A O c f]; first exact: volumeE.
have [H1 H2 H3] := shortcuts norm Hr Ha O S; split=> //.
by split; apply: metric_orthonormal.
Qed.

Lemma flags : (forall A, norm_rows norm A) ->
  (forall f : frame F n, kind_of f = Reference -> (frame_is_independent f <-> independent_rows (axes f))) /\
  (forall f : frame F n, good_frame f ->
     [/\ frame_is_independent f,
         orthogonal_rows (axes f) -> frame_is_rectangular rtol atol f &
         orthonormal_rows (axes f) -> frame_is_cartesian rtol atol norm f]).
Proof.
move=> N.
have I (A : 'M[F]_n) : frame_is_independent (Frame Reference A) <-> independent_rows A by exact: independent_exact.
have Rc (A : 'M[F]_n) : orthonormal_rows A -> is_orthonormal_frame rtol atol norm A.
  move=> O; apply/andP; split.
    by apply: orthogonal_accepted => // i j ne; rewrite O (negbTE ne).
  by apply/forallP => i; rewrite (norm_one i O (N A)); apply: isclose_refl.
split=> [[k A] /= -> | [k A] G]; first exact: I.
split.
- by case: k G => // -[/I].
- by move=> O; case: k G O => //= _ O; apply: orthogonal_accepted.
- by move=> O; case: k G O => //= _ O; apply: Rc.
Qed.

Lemma orient_facts (R : 'M[F]_n) : R *m R^T = 1%:M ->
  [/\ forall A : 'M[F]_n, Gram (orient_axes R A) = Gram A,
      forall f : frame F n, good_frame f -> good_frame (Frame (kind_of f) (orient_axes R (axes f))),
      forall r (f : frame F n) (a V : tens F n r), represents (axes f) a V ->
        represents (orient_axes R (axes f)) a (transform R^T V) &
      forall r (T : tensor F n r) V, axes (frame_of T) = 1%:M -> describes T V ->
        describes (torient R T) (transform R^T V)].
Proof.
move=> E; split=> [A|f G|r f a V D|r T V I D]; [exact: rotation_gram|exact: rotation_good|exact: rotation_frame|exact: torient_describes].
Qed.

Lemma transposes r (T : tensor F n r) V : describes T V ->
  describes (ttranspose_inplace T) [ffun c : mi n r => V [ffun k => c (rev_ord k)]] /\
  (good_frame (frame_of T) -> (kind_of (frame_of T) = Cartesian -> norm_rows norm (axes (frame_of T))) ->
   exists t, [/\ ttranspose rtol atol norm T = Ok t, frame_of t = frame_of T & describes t [ffun c : mi n r => V [ffun k => c (rev_ord k)]]]).
Proof. by move=> D; split; [exact: transpose_describes | move=> G N; apply: ttranspose_describes]. Qed.

Lemma normalized (A : 'M[F]_n) : norm_rows norm A -> orthogonal_rows A -> independent_rows A ->
  exists f, [/\ new_normalized rtol atol norm A = Ok f, good_frame f, kind_of f = Cartesian &
                forall i, exists c, 0 < c /\ row i (axes f) = c *: row i A].
Proof.
move=> N O I; exists (Frame Cartesian (normalize_frame norm A)).
have pos i : 0 < norm (row i A).
  have [N0 N2] := N i; rewrite Order.POrderTheory.lt_neqAle N0 andbT eq_sym; apply/eqP => Z.
  move: N2; rewrite Z expr0n /= => /esym B.
  have R0 : row i A *m (row i A)^T = 0.
    by apply/matrixP => a b; rewrite !ord1 [LHS]mxE [RHS]mxE; transitivity (base_dot A i i) => //; apply: eq_bigr => k _; rewrite !mxE.
  have := I (delta_mx 0 i); rewrite -rowE (row_norm0 R0) => /(_ erefl) /matrixP /(_ 0 i).
  by rewrite !mxE !eqxx /= => /eqP; rewrite oner_eq0.
have On : orthonormal_rows (normalize_frame norm A).
  move=> i j; have -> : base_dot (normalize_frame norm A) i j = base_dot A i j / (norm (row i A) * norm (row j A)).
    rewrite /base_dot big_distrl /=; apply: eq_bigr => k _; rewrite !mxE invfM mulrACA //.
  case: eqP => [->|/eqP ne]; last by rewrite O // mul0r.
  have [_ N2] := N j; rewrite -N2 expr2 divff // mulf_neq0 // Order.POrderTheory.gt_eqF //.
split=> //.
- by rewrite /new_normalized orthogonal_accepted.
- by split=> //=; apply/independentP; exact: orthonormal_unit.
- move=> i; exists (norm (row i A))^-1; split; first by rewrite invr_gt0.
  by apply/rowP => k; rewrite !mxE mulrC.
Qed.
Lemma dot_contracted ra rb (p : 'I_ra.+1) (q : 'I_rb.+1) (a : tensor F n ra.+1) (b : tensor F n rb.+1) V W :
  describes a V -> describes b W ->
  exists t R, [/\ dot_general rtol atol norm p q a b = Ok t, contracted p q V W R & describes t R].
Proof.
move=> HV HW; have [t [E D]] := dot_general_ok norm Hr Ha p q HV HW.
by exists t, (contract p q V W); split=> //; exact: contract_contracted.
Qed.
End AnyDim.

Section Dim3.
Variable norm : 'rV[F]_3 -> F.
Hypotheses (Hr : 0 <= rtol) (Ha : 0 <= atol).
Lemma cross_all (a b : tensor F 3 1) V W :
  good_frame (frame_of a) -> describes a V -> describes b W ->
  exists t, cross_vv rtol atol norm a b = Ok t /\
    describes t (of_vec ((\det (axes (frame_of a)))^-1 *:
      ((axes (frame_of a))^T *m axes (frame_of a) *m cross3 (vec_of V) (vec_of W)))) /\
    (orthonormal_rows (axes (frame_of a)) -> \det (axes (frame_of a)) = 1 ->
       describes t (of_vec (cross3 (vec_of V) (vec_of W)))).
Proof.
move=> G DV DW; have [t [E D]] := cross_vv_value norm Hr Ha G DV DW.
exists t; split=> //; split=> // O De.
have [t' [E' D']] := cross_vv_ok norm Hr Ha G O De DV DW.
by move: E'; rewrite E => -[->].
Qed.

Lemma cross_refuted (f : frame F 3) :
  f = Frame Reference 2%:R%:M \/ f = Frame Cartesian (-1)%:M -> good_frame f /\
  exists (a b : tensor F 3 1) V W t,
    [/\ frame_of a = f, describes a V, describes b W &
        cross_vv rtol atol norm a b = Ok t] /\ ~ describes t (of_vec (cross3 (vec_of V) (vec_of W))).
Proof.
have n1 : (-1 : F) <> 0 by move/eqP; rewrite oppr_eq0 oner_eq0.
have n2 : (-1 : F) <> 1.
  by move=> E; have := @nat_neq F 2 0 isT; rewrite mulr2n -{1}E addNr.
case=> ->; split.
- by apply: scalar_good => //; exact: (@nat_neq F 2 0).
- by apply: cross_scaled => //; [exact: (@nat_neq F 2 0)|exact: (@nat_neq F 2 1)].
- by apply: scalar_good => // _; rewrite sqrrN expr1n.
- by apply: cross_scaled => // _; rewrite sqrrN expr1n.
Qed.

End Dim3.
Section Dim1.
Variable norm : 'rV[F]_1 -> F.
Hypotheses (Hr : 0 <= rtol) (Ha : 0 <= atol).
Lemma frame_show_refuted :
  (exists f g X, [/\ good_frame f, good_frame g, frame_show rtol atol norm f (Some g) = Ok X & X *m axes g <> axes f]) /\
  (exists f, good_frame f /\ frame_show rtol atol norm f (Some (ambient F 1)) <> frame_show rtol atol norm f None).
Proof. by split; [exact: frame_show_wrong | exact: frame_show_ambient_wrong]. Qed.

Lemma frame_numbers_refuted (sqrt : F -> F) :
  (forall x, 0 <= x -> 0 <= sqrt x /\ sqrt x ^+ 2 = x) ->
  [/\ exists f, good_frame f /\ show rtol atol norm (metric_tensor f) None <> Ok (of_mat 1%:M),
      exists f : frame F 1, good_frame f /\ volume sqrt f <> \det (axes f) &
      exists A : 'M[F]_1, independent_rows A /\
        frame_Gram (Frame Cartesian A) <> frame_Gram (Frame Reference A) /\
        volume sqrt (Frame Cartesian A) <> volume sqrt (Frame Reference A)].
Proof.
move=> S; split.
- exact: metric_wrong.
- by apply: volume_unsigned => x /S [].
exists (2%:R%:M).
have G : good_frame (Frame Reference (2%:R%:M : 'M[F]_1)) by apply: scalar_good => //; exact: (@nat_neq F 2 0).
split; first by case: G.
split.
  rewrite /frame_Gram /Gram /= tr_scalar_mx -scalar_mxM => /matrixP /(_ 0 0).
  by rewrite !mxE /= !mulr1n -natrM; exact: (@nat_neq F 1 4).
rewrite (volumeE G S) /volume /= det_scalar expr1 normr_nat; exact: (@nat_neq F 1 2).
Qed.
End Dim1.
End Tol.
End Extra.
