(** Proofs about the operations on tensors. *)
Set Warnings "-notation-overridden,-ambiguous-paths".
From Verif Require Import Prelude TensorModel TensorSpec TensorProofs.
From mathcomp Require Import all_ssreflect all_algebra all_fingroup.
Set Implicit Arguments.
Unset Strict Implicit.
Unset Printing Implicit Defensive.
Import GRing.Theory Num.Theory.
Local Open Scope ring_scope.

(** ** Vectors and matrices *)
Section Shapes.
Variables (F : realFieldType) (n : nat).
Implicit Types (Q A : 'M[F]_n).

Lemma v_indexK (c : mi n 1) : v_index (c ord0) = c.
Proof. by apply/ffunP => k; rewrite ffunE (ord1 k). Qed.

Lemma of_vecK (v : 'cV[F]_n) : vec_of (of_vec v) = v.
Proof. by apply/colP => i; rewrite !mxE !ffunE. Qed.

Lemma vec_ofK (v : tens F n 1) : of_vec (vec_of v) = v.
Proof. by apply/ffunP => c; rewrite !ffunE mxE v_indexK. Qed.

Lemma m_indexK (c : mi n 2) : m_index (c ord0) (c (lift ord0 ord0)) = c.
Proof.
apply/ffunP => k; rewrite ffunE; case: (unliftP ord0 k) => [j ->|->]; last by rewrite eqxx.
by rewrite (ord1 j) -(inj_eq val_inj).
Qed.

Lemma of_matK A : mat_of (of_mat A) = A.
Proof. by apply/matrixP => i j; rewrite !mxE !ffunE eqxx -(inj_eq val_inj). Qed.

Lemma mat_ofK (T : tens F n 2) : of_mat (mat_of T) = T.
Proof. by apply/ffunP => c; rewrite !ffunE mxE m_indexK. Qed.

Lemma sum_mi1 (f : mi n 1 -> F) : \sum_c f c = \sum_i f (v_index i).
Proof.
rewrite (reindex (@v_index n)) //; exists (fun c : mi n 1 => c ord0) => c _; last exact: v_indexK.
by rewrite ffunE.
Qed.

Lemma sum_mi2 (f : mi n 2 -> F) : \sum_c f c = \sum_i \sum_j f (m_index i j).
Proof.
rewrite pair_big /= (reindex (fun p : 'I_n * 'I_n => m_index p.1 p.2)) //.
exists (fun c : mi n 2 => (c ord0, c (lift ord0 ord0))) => c _; last exact: m_indexK.
by rewrite !ffunE eqxx -(inj_eq val_inj) /=; case: c.
Qed.

(** Rank 1: the matrix-vector product; rank 2: Q T Q^T. *)
Lemma transform_vec Q (v : tens F n 1) : vec_of (transform Q v) = Q *m vec_of v.
Proof.
apply/colP => i; rewrite !mxE ffunE sum_mi1; apply: eq_bigr => j _.
by rewrite big_ord_recl big_ord0 mulr1 !ffunE mxE.
Qed.

Lemma transform_mat Q (T : tens F n 2) : mat_of (transform Q T) = Q *m mat_of T *m Q^T.
Proof.
apply/matrixP => i j; rewrite !mxE ffunE sum_mi2 exchange_big /=; apply: eq_bigr => b _.
rewrite !mxE big_distrl /=; apply: eq_bigr => a _.
by rewrite !big_ord_recl big_ord0 mulr1 !ffunE !mxE -(inj_eq val_inj) /= -!mulrA [Q j b * _]mulrC.
Qed.

Lemma transform_of_vec Q (v : 'cV[F]_n) : transform Q (of_vec v) = of_vec (Q *m v).
Proof. by rewrite -[LHS]vec_ofK transform_vec of_vecK. Qed.

Lemma transform_of_mat Q A : transform Q (of_mat A) = of_mat (Q *m A *m Q^T).
Proof. by rewrite -[LHS]mat_ofK transform_mat of_matK. Qed.

(** Rank 4: the rule that the unrolled loops compute. *)
Definition o4 (m : nat) (H : (m < 4)%N) : 'I_4 := Ordinal H.

Lemma index4K (c : mi n 4) : index4 (c (@o4 0 isT)) (c (@o4 1 isT)) (c (@o4 2 isT)) (c (@o4 3 isT)) = c.
Proof.
apply/ffunP => m; rewrite ffunE; case: m => [[|[|[|[|m]]]] Hm] //=; congr (c _); exact: val_inj.
Qed.

Lemma sum_mi4 (f : mi n 4 -> F) :
  \sum_c f c = \sum_i \sum_j \sum_k \sum_l f (index4 i j k l).
Proof.
transitivity (\sum_(p : 'I_n * ('I_n * ('I_n * 'I_n))) f (index4 p.1 p.2.1 p.2.2.1 p.2.2.2)).
  rewrite (reindex (fun p : 'I_n * ('I_n * ('I_n * 'I_n)) => index4 p.1 p.2.1 p.2.2.1 p.2.2.2)) //.
  exists (fun c : mi n 4 => (c (@o4 0 isT), (c (@o4 1 isT), (c (@o4 2 isT), c (@o4 3 isT))))) => c _;
    last exact: index4K.
  by rewrite !ffunE /=; case: c => ? [? [? ?]].
rewrite -(pair_bigA _ (fun i (p : 'I_n * ('I_n * 'I_n)) => f (index4 i p.1 p.2.1 p.2.2))) /=.
apply: eq_bigr => i _; rewrite -(pair_bigA _ (fun j (p : 'I_n * 'I_n) => f (index4 i j p.1 p.2))) /=.
by apply: eq_bigr => j _; rewrite -(pair_bigA _ (fun k l => f (index4 i j k l))).
Qed.

Lemma transform4 Q (T : tens F n 4) i j k l :
  transform Q T (index4 i j k l) =
  \sum_a \sum_b \sum_c \sum_d Q i a * Q j b * Q k c * Q l d * T (index4 a b c d).
Proof.
rewrite ffunE sum_mi4; do 4 (apply: eq_bigr => ? _).
by rewrite !big_ord_recl big_ord0 mulr1 !ffunE /= !mulrA.
Qed.
End Shapes.

(** ** Frames *)
Section Ops.
Variables (F : realFieldType) (rtol atol : F) (n : nat) (norm : 'rV[F]_n -> F).
Hypotheses (Hr : 0 <= rtol) (Ha : 0 <= atol).
Implicit Types (A B : 'M[F]_n) (f g h : frame F n).
Local Notation dual := (dual rtol atol norm).
Local Notation dcm_target := (dcm_target rtol atol norm).
Local Notation dcm_source := (dcm_source rtol atol norm).
Local Notation show := (show rtol atol norm).

Lemma dcm_meaning r f g Q (a V : tens F n r) : good_frame g -> dcm_target f g = Ok Q ->
  represents (axes f) a V -> represents (axes g) (transform Q a) V.
Proof.
move=> G; rewrite dcm_targetE // => -[<-] /representsP ->; apply/representsP.
by rewrite transform_comp mulmxA -trmx_mul mulVmx ?good_unit // trmx1 mul1mx.
Qed.

Lemma dcm_algebra f g h : good_frame f -> good_frame g -> good_frame h ->
  exists fg gh fh gf,
    [/\ dcm_target f g = Ok fg, dcm_target g h = Ok gh, dcm_target f h = Ok fh & dcm_target g f = Ok gf] /\
    [/\ gh *m fg = fh, gf *m fg = 1%:M, dcm_target f f = Ok 1%:M & dcm_source g f = Ok fg].
Proof.
move=> Gf Gg Gh.
exists ((invmx (axes g))^T *m (axes f)^T), ((invmx (axes h))^T *m (axes g)^T),
  ((invmx (axes h))^T *m (axes f)^T), ((invmx (axes f))^T *m (axes g)^T).
have C x y z : axes y \in unitmx ->
    (invmx (axes z))^T *m (axes y)^T *m ((invmx (axes y))^T *m (axes x)^T) = (invmx (axes z))^T *m (axes x)^T
    :> 'M[F]_n.
  by move=> U; rewrite mulmxA -[_ *m (axes y)^T *m _]mulmxA -trmx_mul mulVmx // trmx1 mulmx1.
have I x : axes x \in unitmx -> (invmx (axes x))^T *m (axes x)^T = 1%:M :> 'M[F]_n.
  by move=> U; rewrite -trmx_mul mulmxV // trmx1.
split; split; rewrite ?dcm_targetE ?C ?I ?good_unit //.
exact: dcm_targetE.
Qed.

Lemma dual_facts f : good_frame f -> exists d,
  [/\ dual f = Ok d, good_frame d,
      forall i j, \sum_k axes f i k * axes d j k = (i == j)%:R &
      dual d = Ok f] /\
  [/\ frame_Gram d *m frame_Gram f = 1%:M, frame_Gram f *m frame_Gram d = 1%:M &
      orthonormal_rows (axes f) -> axes d = axes f].
Proof.
move=> G; have U := good_unit G; have [E Gd] := dual_good norm Hr Ha G.
exists (Frame (kind_of f) (invmx (axes f))^T); split; last first.
  have UG : Gram (axes f) \in unitmx by rewrite unitmx_mul unitmx_tr U.
  have EG : frame_Gram (Frame (kind_of f) (invmx (axes f))^T) = invmx (frame_Gram f).
    by rewrite /frame_Gram /=; case: (kind_of f); rewrite ?gram_dual ?invmx1.
  have UF : frame_Gram f \in unitmx by rewrite /frame_Gram; case: (kind_of f); rewrite ?unitmx1.
  by split=> /=; [rewrite EG mulVmx|rewrite EG mulmxV|exact: dual_orthonormal].
split=> // [i j|].
  transitivity ((axes f *m invmx (axes f)) i j); last by rewrite mulmxV // mxE.
  by rewrite [RHS]mxE; apply: eq_bigr => k _; rewrite mxE.
have [-> _] := dual_good norm Hr Ha Gd; rewrite /= trmx_inv trmxK invmxK; by case: (f).
Qed.

Lemma dual_singular f : kind_of f <> Cartesian -> ~ independent_rows (axes f) -> dual f = Err LinAlgError.
Proof.
move=> K; have H := independentP (axes f) => /H /negP/negbTE U.
by rewrite /TensorModel.dual /dual_frame /np_inv U; case: (kind_of f) K.
Qed.

Lemma tensor_dual_describes r (T : tensor F n r) V : good_frame (frame_of T) -> describes T V ->
  exists d, [/\ tensor_dual rtol atol norm T = Ok d, dual (frame_of T) = Ok (frame_of d) & describes d V].
Proof.
move=> G /representsP ->; have U := good_unit G; have [E _] := dual_good norm Hr Ha G.
eexists; split; first by rewrite /tensor_dual E. by rewrite E.
apply/representsP; rewrite /= trmxK transform_comp; congr transform.
case: G => _; rewrite /frame_Gram; case: (kind_of _) => [_|_|H]; try by rewrite /Gram mulKmx.
by rewrite mulmx1 orthonormal_inv.
Qed.

(** ** Arithmetic *)
Lemma describesD r (x y : tens F n r) f V W :
  describes (Tensor x f) V -> describes (Tensor y f) W -> describes (Tensor (x + y) f) (V + W).
Proof. by move=> /representsP -> /representsP ->; apply/representsP; rewrite transformD. Qed.
Lemma describesN r (x : tens F n r) f V : describes (Tensor x f) V -> describes (Tensor (- x) f) (- V).
Proof. by move=> /representsP ->; apply/representsP; rewrite transformN. Qed.
Lemma describesZ r (x : tens F n r) s f V : describes (Tensor x f) V ->
  describes (Tensor [ffun c => x c * s] f) [ffun c => V c * s].
Proof. by move=> /representsP ->; apply/representsP; rewrite transformZ. Qed.
Lemma describes_axes r (x : tens F n r) f g V : axes f = axes g ->
  describes (Tensor x f) V -> describes (Tensor x g) V.
Proof. by rewrite /describes /= => ->. Qed.
Lemma describes_unique r (T : tensor F n r) V W : describes T V -> describes T W -> V = W.
Proof. by move=> /representsP -> /representsP ->. Qed.
Lemma shown_describes r (T : tensor F n r) g x V : good_frame g -> describes T V -> show T (Some g) = Ok x ->
  describes (Tensor x g) V.
Proof. by move=> G H E; have [y [E' H']] := show_represents norm Hr Ha G H; move: E; rewrite E' => -[<-]. Qed.

Lemma arithmetic r (a b : tensor F n r) V W :
  good_frame (frame_of a) -> describes a V -> describes b W ->
  [/\ exists t, tadd rtol atol norm a b = Ok t /\ describes t (V + W),
      exists t, tsub rtol atol norm a b = Ok t /\ describes t (V - W),
      exists t, [/\ tiadd rtol atol norm a b = Ok t, frame_of t = frame_of a & describes t (V + W)] &
      exists t, [/\ tisub rtol atol norm a b = Ok t, frame_of t = frame_of a & describes t (V - W)]].
Proof.
case: a => x f /= G HV HW; have [y [E Hy]] := show_represents norm Hr Ha G HW.
have HY : describes (Tensor y f) W by [].
have HA := describesD HV HY; have HS := describesD HV (describesN HY).
by rewrite /tadd /tsub /tiadd /tisub /= E /=; split; eexists; split=> //; try reflexivity;
   first [exact: HA|exact: HS|exact: (describes_axes _ HA)|exact: (describes_axes _ HS)].
Qed.

Lemma scalar_arithmetic r (a : tensor F n r) s V : describes a V ->
  [/\ describes (tscale a s) [ffun c => V c * s], describes (tdiv a s) [ffun c => V c / s] & describes (tneg a) (- V)].
Proof. by case: a => x f H; split; [exact: describesZ|exact: (describesZ s^-1)|exact: describesN]. Qed.

(** Shown in any frame, sums are sums of components. *)
Lemma sum_shown r (a b t : tensor F n r) V W g : good_frame g -> describes a V -> describes b W -> describes t (V + W) ->
  exists x y, [/\ show a (Some g) = Ok x, show b (Some g) = Ok y & show t (Some g) = Ok (x + y)].
Proof.
move=> G Ha' Hb Ht; have [x [Ex Hx]] := show_represents norm Hr Ha G Ha'.
have [y [Ey Hy]] := show_represents norm Hr Ha G Hb.
exists x, y; split=> //; apply: (show_unique norm Hr Ha G Ht).
exact: (@describesD r x y g V W).
Qed.

(** ** Assigning the frame, transposing, rotating *)
Lemma set_frame_describes r (T : tensor F n r) g V : good_frame g -> describes T V ->
  exists t, [/\ set_frame rtol atol norm T g = Ok t, frame_of t = g & describes t V].
Proof.
move=> G H; have [x [E Hx]] := show_represents norm Hr Ha G H.
by rewrite /set_frame E; eexists; split.
Qed.


Lemma norm_one A i : orthonormal_rows A -> norm_rows norm A -> norm (row i A) = 1.
Proof.
move=> H /(_ i) [H0]; rewrite H eqxx => /eqP; rewrite sqrf_eq1 => /orP [/eqP //|/eqP E].
by move: H0; rewrite E oppr_ge0 ler10.
Qed.

Lemma new_good f : good_frame f -> (kind_of f = Cartesian -> norm_rows norm (axes f)) ->
  new_frame rtol atol norm (kind_of f) (axes f) = Ok f.
Proof.
case: f => k A [/= _]; case: k => //= H; first by rewrite orthogonal_accepted.
move=> /(_ erefl) N; rewrite orthogonal_accepted //; last by move=> i j /negbTE Hij; rewrite H Hij.
rewrite (_ : is_normal_frame _ _ _ _ = true) //; apply/forallP => i.
by rewrite norm_one // isclose_refl.
Qed.

Lemma transpose_describes r (T : tensor F n r) V : describes T V ->
  describes (ttranspose_inplace T) [ffun c => V (rev_index c)].
Proof. by move/representsP => ->; apply/representsP; rewrite transform_rev. Qed.

Lemma ttranspose_describes r (T : tensor F n r) V : good_frame (frame_of T) ->
  (kind_of (frame_of T) = Cartesian -> norm_rows norm (axes (frame_of T))) -> describes T V ->
  exists t, [/\ ttranspose rtol atol norm T = Ok t, frame_of t = frame_of T & describes t [ffun c => V (rev_index c)]].
Proof.
move=> G N H; rewrite /ttranspose new_good //=; eexists; split=> //.
exact: (transpose_describes H).
Qed.

Lemma orient_axesE (R A : 'M[F]_n) : orient_axes R A = A *m R.
Proof.
apply/matrixP => i j; rewrite !mxE; apply: eq_bigr => k _.
by rewrite !mxE mulrC.
Qed.

Lemma rotation_gram (R A : 'M[F]_n) : R *m R^T = 1%:M -> Gram (orient_axes R A) = Gram A.
Proof. by move=> H; rewrite orient_axesE /Gram trmx_mul mulmxA -(mulmxA A) H mulmx1. Qed.

Lemma rotation_good (R : 'M[F]_n) f : R *m R^T = 1%:M -> good_frame f ->
  good_frame (Frame (kind_of f) (orient_axes R (axes f))).
Proof.
move=> H G; have U := good_unit G; case: G => _ K; have E i j : base_dot (orient_axes R (axes f)) i j = base_dot (axes f) i j.
  by rewrite !base_dotE -/(Gram _) rotation_gram.
have [UR _] := mulmx1_unit H.
split=> /=; first by apply/independentP; rewrite orient_axesE unitmx_mul U UR.
by case: (kind_of f) K => // K i j; [move=> Hij; rewrite E K|rewrite E K].
Qed.

Lemma rotation_frame r (R : 'M[F]_n) f (a V : tens F n r) : represents (axes f) a V ->
  represents (orient_axes R (axes f)) a (transform R^T V).
Proof.
by move/representsP => ->; apply/representsP; rewrite orient_axesE transform_comp trmx_mul.
Qed.

Lemma torient_describes r (R : 'M[F]_n) (T : tensor F n r) V :
  axes (frame_of T) = 1%:M -> describes T V -> describes (torient R T) (transform R^T V).
Proof.
rewrite /describes => /= E; rewrite E => /representsP ->; apply/representsP.
by rewrite orient_axesE mul1mx trmx1 !transform1.
Qed.

(** ** Copies *)
Lemma copies r (T : tensor F n r) V : describes T V ->
  [/\ describes (copy_copy T) V, describes (copy_deepcopy T) V & (axes (frame_of T) = 1%:M -> describes (tcopy T) V)].
Proof. by rewrite /describes => H; split=> //= <-. Qed.

(** ** Showing a frame *)
Lemma frame_show_self f : good_frame f ->
  frame_show rtol atol norm f (Some f) = Ok 1%:M /\ frame_show rtol atol norm f None = Ok (axes f).
Proof.
move=> G; split=> //; have [_ [_ [_ [_ [_ [_ _ H _]]]]]] := dcm_algebra G G G.
exact: H.
Qed.

Lemma frame_show_orthonormal f g : good_frame f -> orthonormal_rows (axes f) -> orthonormal_rows (axes g) ->
  exists X, frame_show rtol atol norm f (Some g) = Ok X /\ X *m axes g = axes f.
Proof.
move=> G Hf Hg; eexists; split; first exact: dcm_targetE.
rewrite dual_orthonormal // -mulmxA -orthonormal_inv // mulVmx ?mulmx1 //.
exact: orthonormal_unit.
Qed.

(** ** Gram matrix, metric tensor and volume *)
Lemma shortcuts A (sqrt : F -> F) : orthonormal_rows A ->
  (forall x, 0 <= x -> 0 <= sqrt x /\ sqrt x ^+ 2 = x) ->
  let c := Frame Cartesian A in let f := Frame Reference A in
  [/\ frame_Gram c = frame_Gram f, volume sqrt c = volume sqrt f &
      exists d, [/\ dual c = Ok c, dual f = Ok d & axes d = axes c]].
Proof.
move=> H Hs c f; have E : Gram A = 1%:M by exact/orthonormalP.
split; first by rewrite /frame_Gram /= E.
  rewrite /volume /frame_Gram /= E det1; have [H0 /eqP] := Hs 1 ler01.
  by rewrite sqrf_eq1 => /orP [/eqP //|/eqP E1]; move: H0; rewrite E1 oppr_ge0 ler10.
have G : good_frame f by split=> //=; apply/independentP; exact: orthonormal_unit.
exists (Frame Reference (invmx A)^T); split; first by [].
  exact: (proj1 (dual_good norm Hr Ha G)).
exact: dual_orthonormal.
Qed.

Lemma volumeE (sqrt : F -> F) f : good_frame f -> (forall x, 0 <= x -> 0 <= sqrt x /\ sqrt x ^+ 2 = x) ->
  volume sqrt f = `|\det (axes f)|.
Proof.
move=> [_ K] Hs; have D : \det (Gram (axes f)) = \det (axes f) ^+ 2 by rewrite det_mulmx det_tr.
have L x y : 0 <= x -> 0 <= y -> x ^+ 2 = y ^+ 2 -> x = y :> F.
  by move=> Hx Hy /eqP; rewrite eqr_expn2 // => /eqP.
rewrite /volume /frame_Gram; case: (kind_of f) K => /= K.
- by have [H0 H2] := Hs _ (sqr_ge0 (\det (axes f))); rewrite D; apply: L => //; rewrite H2 real_normK ?num_real.
- by have [H0 H2] := Hs _ (sqr_ge0 (\det (axes f))); rewrite D; apply: L => //; rewrite H2 real_normK ?num_real.
- apply: L => //; first exact: ler01.
  by rewrite real_normK ?num_real // -D expr1n /Gram (proj1 (orthonormalP _) K) det1.
Qed.

Lemma metric_orthonormal f : orthonormal_rows (axes f) ->
  show (metric_tensor f) None = Ok (of_mat 1%:M).
Proof.
move=> H; have E := proj1 (orthonormalP _) H.
have EG : frame_Gram f = 1%:M by rewrite /frame_Gram; case: (kind_of f).
rewrite show_ambientE //= EG transform_of_mat mulmx1 trmxK.
by congr (Ok (of_mat _)); rewrite -orthonormal_inv // mulVmx //; exact: orthonormal_unit.
Qed.

(** In general the metric tensor shown in the ambient frame is A^T A A^T A. *)
Lemma metric_value f : kind_of f <> Cartesian ->
  show (metric_tensor f) None = Ok (of_mat ((axes f)^T *m Gram (axes f) *m axes f)).
Proof.
by rewrite show_ambientE //= transform_of_mat trmxK /frame_Gram; case: (kind_of f).
Qed.

(** ** Dot products *)
Lemma describes_vec (T : tensor F n 1) V : describes T V ->
  vec_of V = (axes (frame_of T))^T *m vec_of (arr T).
Proof. by move/representsP => ->; rewrite transform_vec. Qed.
Lemma describes_mat (T : tensor F n 2) V : describes T V ->
  mat_of V = (axes (frame_of T))^T *m mat_of (arr T) *m axes (frame_of T).
Proof. by move/representsP => ->; rewrite transform_mat trmxK. Qed.

Lemma dot_vvE (a b : tensor F n 1) V W : describes a V -> describes b W ->
  dot_vv rtol atol norm a b = Ok (\sum_i vec_of V i 0 * vec_of W i 0).
Proof.
move=> Hv Hw; rewrite /dot_vv (show_ambient_describes norm Hr Ha Hv) /= (show_ambient_describes norm Hr Ha Hw) /=.
by congr (Ok _); apply: eq_bigr => i _; rewrite !mxE.
Qed.

Lemma dual_shown r (b : tensor F n r) f W : good_frame f -> describes b W ->
  exists d, dual f = Ok d /\ show b (Some d) = Ok (transform (axes f) W).
Proof.
move=> G HW; have [E Gd] := dual_good norm Hr Ha G; eexists; split; first exact: E.
rewrite showE //= trmx_inv trmxK invmxK; congr (Ok _).
by move/representsP: HW => ->; rewrite transform_comp.
Qed.

Lemma dot_tv_ok (a : tensor F n 2) (b : tensor F n 1) V W :
  good_frame (frame_of a) -> describes a V -> describes b W ->
  exists t, dot_tv rtol atol norm a b = Ok t /\ describes t (of_vec (mat_of V *m vec_of W)).
Proof.
move=> G HV HW; have [d [Ed Es]] := dual_shown G HW.
rewrite /dot_tv Ed /= Es /=; eexists; split; first by [].
apply/representsP; rewrite /= transform_of_vec transform_vec; congr of_vec.
by rewrite (describes_mat HV) !mulmxA.
Qed.

(** The value of dot(v, T): not the transposed tensor, and off by A^T A. *)
Lemma dot_vt_value (a : tensor F n 1) (b : tensor F n 2) V W :
  good_frame (frame_of a) -> describes a V -> describes b W ->
  exists t, dot_vt rtol atol norm a b = Ok t /\
    describes t (of_vec ((axes (frame_of a))^T *m axes (frame_of a) *m mat_of W *m vec_of V)).
Proof.
move=> G HV HW; have [d [Ed Es]] := dual_shown G HW.
rewrite /dot_vt Ed /= Es /=; eexists; split; first by [].
apply/representsP; rewrite /= transform_of_vec transform_mat trmx_mul !trmxK; congr of_vec.
by rewrite (describes_vec HV) !mulmxA.
Qed.

Lemma dot_vt_partial (a : tensor F n 1) (b : tensor F n 2) V W :
  good_frame (frame_of a) -> orthonormal_rows (axes (frame_of a)) -> (mat_of W)^T = mat_of W ->
  describes a V -> describes b W ->
  exists t, dot_vt rtol atol norm a b = Ok t /\ describes t (of_vec ((mat_of W)^T *m vec_of V)).
Proof.
move=> G O S HV HW; have [t [E Ht]] := dot_vt_value G HV HW; exists t; split=> //.
move: Ht; rewrite S -(orthonormal_inv O) mulVmx ?mul1mx //; exact: orthonormal_unit.
Qed.

Lemma dot_tt_ok (a b : tensor F n 2) V W :
  good_frame (frame_of a) -> describes a V -> describes b W ->
  exists t, dot_tt rtol atol norm a b = Ok t /\ describes t (of_mat (mat_of V *m mat_of W)).
Proof.
move=> G HV HW; have U := good_unit G; rewrite /dot_tt (showE norm Hr Ha b G) /=; eexists; split; first by [].
apply/representsP; rewrite /= transform_of_mat transform_mat trmxK; congr of_mat.
rewrite (describes_mat HV) (describes_mat HW) !trmx_mul !trmxK.
have EG : frame_Gram (frame_of a) = Gram (axes (frame_of a)).
  case: G => _; rewrite /frame_Gram; case: (kind_of _) => // /orthonormalP; by rewrite /Gram => ->.
have E1 : (axes (frame_of a))^T *m (invmx (axes (frame_of a)))^T = 1%:M by rewrite -trmx_mul mulVmx // trmx1.
by rewrite EG /Gram !mulmxA -(mulmxA _ _ (invmx _)^T) E1 mulmx1 -(mulmxA _ (invmx _)) mulVmx // mulmx1.
Qed.

Lemma dot_general_ok ra rb (p : 'I_ra.+1) (q : 'I_rb.+1) (a : tensor F n ra.+1) (b : tensor F n rb.+1) V W :
  describes a V -> describes b W ->
  exists t, dot_general rtol atol norm p q a b = Ok t /\ describes t (contract p q V W).
Proof.
move=> HV HW; rewrite /dot_general (show_ambient_describes norm Hr Ha HV) /= (show_ambient_describes norm Hr Ha HW) /=.
by eexists; split; [by []|exact: represents1].
Qed.
End Ops.
