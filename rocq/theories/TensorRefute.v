(** Counterexamples for the claims about frames and tensors that the code violates; they
    exist in every real field and for all tolerances and norms. *)
Set Warnings "-notation-overridden,-ambiguous-paths".
From Verif Require Import Prelude TensorModel TensorSpec TensorProofs TensorOpProofs CrossProofs.
From mathcomp Require Import all_ssreflect all_algebra.
Set Implicit Arguments.
Unset Strict Implicit.
Unset Printing Implicit Defensive.
Import GRing.Theory Num.Theory.
Local Open Scope ring_scope.

Section Refute.
Variables (F : realFieldType) (rtol atol : F).
Hypotheses (Hr : 0 <= rtol) (Ha : 0 <= atol).

Lemma nat_neq (a b : nat) : a != b -> (a%:R : F) <> b%:R.
Proof. by move=> H E; move/eqP: E; rewrite eqr_nat (negbTE H). Qed.

Lemma scalar_good n k (a : F) : a <> 0 -> (k = Cartesian -> a ^+ 2 = 1) -> good_frame (Frame k (a%:M : 'M[F]_n)).
Proof.
move=> /eqP Hz Hc.
have E : (a%:M : 'M[F]_n) *m (a%:M)^T = (a ^+ 2)%:M by rewrite tr_scalar_mx -scalar_mxM.
split=> /=.
  by apply/independentP; rewrite unitmxE det_scalar unitfE expf_neq0.
case: k Hc => //= Hc.
  by move=> i j ne; rewrite base_dotE E mxE (negbTE ne).
by apply/orthonormalP; rewrite E Hc.
Qed.

Lemma isub_number_wrong n r : (0 < n)%N ->
  exists (a : tensor F n r) (s : F), arr (isub_number a s) <> [ffun c => arr a c - s].
Proof.
case: n => // n _; exists (Tensor [ffun _ => 0] (ambient F n.+1)), 1 => /ffunP /(_ [ffun _ => ord0]).
rewrite !ffunE /= add0r sub0r => E.
by have := @nat_neq 2 0 isT; rewrite mulr2n {1}E addNr.
Qed.

Lemma dot_vt_transposed (norm : 'rV[F]_2 -> F) :
  exists (a : tensor F 2 1) (b : tensor F 2 2) V W t,
    [/\ frame_of a = ambient F 2, frame_of b = ambient F 2, describes a V, describes b W &
        dot_vt rtol atol norm a b = Ok t] /\ ~ describes t (of_vec ((mat_of W)^T *m vec_of V)).
Proof.
pose V : tens F 2 1 := of_vec (delta_mx ord0 0).
pose W : tens F 2 2 := of_mat (delta_mx ord0 ord_max).
have DV : describes (Tensor V (ambient F 2)) V by exact: represents1.
have DW : describes (Tensor W (ambient F 2)) W by exact: represents1.
have [t [Et Dt]] := dot_vt_value norm Hr Ha (a := Tensor V (ambient F 2)) (ambient_good F 2) DV DW.
exists (Tensor V (ambient F 2)), (Tensor W (ambient F 2)), V, W, t; split=> // D.
have := describes_unique Dt D => /(congr1 (@vec_of F 2)).
rewrite !of_vecK !of_matK /= trmx1 mul1mx mul1mx mul_delta_mx_0 // trmx_delta mul_delta_mx.
by move/matrixP => /(_ ord_max 0); rewrite !mxE eqxx /= => /eqP; rewrite eq_sym oner_eq0.
Qed.

Lemma dot_vt_frame (norm : 'rV[F]_1 -> F) :
  exists (a : tensor F 1 1) (b : tensor F 1 2) V W t,
    [/\ good_frame (frame_of a), good_frame (frame_of b), describes a V, describes b W &
        dot_vt rtol atol norm a b = Ok t] /\ ~ describes t (of_vec ((mat_of W)^T *m vec_of V)).
Proof.
pose f : frame F 1 := Frame Reference 2%:R%:M.
have Gf : good_frame f by apply: scalar_good => //; exact: (@nat_neq 2 0).
pose V : tens F 1 1 := of_vec 2%:R%:M.
pose W : tens F 1 2 := of_mat 1%:M.
have DV : describes (Tensor (of_vec 1%:M) f) V.
  by apply/representsP; rewrite transform_of_vec /= tr_scalar_mx mulmx1.
have DW : describes (Tensor W (ambient F 1)) W by exact: represents1.
have [t [Et Dt]] := dot_vt_value norm Hr Ha (a := Tensor (of_vec 1%:M) f) Gf DV DW.
exists (Tensor (of_vec 1%:M) f), (Tensor W (ambient F 1)), V, W, t; split.
  by split=> //; exact: ambient_good.
move=> D; have := describes_unique Dt D => /(congr1 (@vec_of F 1)).
rewrite !of_vecK !of_matK /= tr_scalar_mx trmx1 mulmx1 mul1mx -!scalar_mxM.
move/matrixP => /(_ 0 0); rewrite !mxE /= -!mulrnAr !mulr1n -!natrM; exact: (@nat_neq 8 2).
Qed.

Lemma cross_scaled (norm : 'rV[F]_3 -> F) (k : kind) (c : F) : c <> 0 -> c <> 1 -> (k = Cartesian -> c ^+ 2 = 1) ->
  exists (a b : tensor F 3 1) V W t,
    [/\ frame_of a = Frame k c%:M, describes a V, describes b W &
        cross_vv rtol atol norm a b = Ok t] /\ ~ describes t (of_vec (cross3 (vec_of V) (vec_of W))).
Proof.
move=> cz c1 Hc; set f : frame F 3 := Frame k c%:M.
have Gf : good_frame f by exact: scalar_good.
have Hcz : c != 0 by apply/eqP.
pose V : tens F 3 1 := of_vec (delta_mx i0 0); pose W : tens F 3 1 := of_vec (delta_mx i1 0).
pose x : tens F 3 1 := of_vec (c^-1 *: delta_mx i0 0).
have DV : describes (Tensor x f) V.
  by apply/representsP; rewrite transform_of_vec /= tr_scalar_mx mul_scalar_mx scalerA mulfV // scale1r.
have DW : describes (Tensor W (ambient F 3)) W by exact: represents1.
have [t [Et Dt]] := cross_vv_value norm Hr Ha (a := Tensor x f) Gf DV DW.
exists (Tensor x f), (Tensor W (ambient F 3)), V, W, t; split=> // D.
have := describes_unique Dt D => /(congr1 (@vec_of F 3)).
rewrite !of_vecK /= tr_scalar_mx -scalar_mxM mul_scalar_mx scalerA det_scalar.
move/matrixP => /(_ i2 0); rewrite !mxE /= !mulr1 !mulr0 !subr0 mulr1.
rewrite (exprS c 2) (exprS c 1) expr1 invfM mulrVK ?unitfE ?mulf_neq0 //.
by move=> E; apply: c1; rewrite -[c]invrK E invr1.
Qed.

Lemma copy_wrong r : (0 < r)%N ->
  exists (a : tensor F 1 r) V, [/\ good_frame (frame_of a), describes a V & ~ describes (tcopy a) V].
Proof.
move=> r0; pose f : frame F 1 := Frame Reference 2%:R%:M.
pose a : tensor F 1 r := Tensor [ffun _ => 1] f.
have [V D] := describes_exists a.
exists a, V; split=> //; first by apply: scalar_good => //; exact: (@nat_neq 2 0).
move=> D2; have := D [ffun _ => ord0]; rewrite (D2 [ffun _ => ord0]) /=.
have U (c : mi 1 r) : c = [ffun _ => ord0] by apply/ffunP => k; rewrite ffunE ord1.
have S (g : mi 1 r -> F) : \sum_c g c = g [ffun _ => ord0].
  by rewrite (bigD1 [ffun _ => ord0]) //= [X in _ + X]big1 ?addr0 // => c; rewrite (U c) eqxx.
rewrite !S !ffunE !mul1r.
under eq_bigr => k _ do rewrite ffunE mxE eqxx.
under [in RHS]eq_bigr => k _ do rewrite ffunE mxE eqxx.
rewrite !prodr_const card_ord mulr1n expr1n mulr1n -natrX.
by apply: (@nat_neq 1 (2 ^ r)); rewrite eq_sym -[1%N](expn0 2) eqn_exp2l // -lt0n.
Qed.

Lemma frame_show_wrong (norm : 'rV[F]_1 -> F) :
  exists f g X, [/\ good_frame f, good_frame g, frame_show rtol atol norm f (Some g) = Ok X & X *m axes g <> axes f].
Proof.
pose f : frame F 1 := Frame Reference 1%:M; pose g : frame F 1 := Frame Reference 2%:R%:M.
have Gf : good_frame f by exact: ambient_good.
have Gg : good_frame g by apply: scalar_good => //; exact: (@nat_neq 2 0).
exists f, g, (2%:R%:M); split=> //.
  by rewrite /frame_show /dcm_source (proj1 (dual_good norm Hr Ha Gf)) /= invmx1 trmx1 tr_scalar_mx mul1mx.
rewrite /= -scalar_mxM => /matrixP /(_ 0 0); rewrite !mxE /= !mulr1n -natrM; exact: (@nat_neq 4 1).
Qed.

Lemma frame_show_ambient_wrong (norm : 'rV[F]_1 -> F) :
  exists f, good_frame f /\ frame_show rtol atol norm f (Some (ambient F 1)) <> frame_show rtol atol norm f None.
Proof.
pose f : frame F 1 := Frame Reference 2%:R%:M.
have Gf : good_frame f by apply: scalar_good => //; exact: (@nat_neq 2 0).
exists f; split=> //; rewrite /frame_show /dcm_source (proj1 (dual_good norm Hr Ha Gf)) /= trmx1 mulmx1 => -[] E.
have := congr1 (fun A => A *m (2%:R%:M : 'M[F]_1)) E.
rewrite -{2}[2%:R%:M]tr_scalar_mx -trmx_mul mulmxV ?(good_unit Gf) // trmx1 -scalar_mxM.
by move=> /matrixP /(_ 0 0); rewrite !mxE /= !mulr1n -natrM; exact: (@nat_neq 1 4).
Qed.

Lemma metric_wrong (norm : 'rV[F]_1 -> F) :
  exists f, good_frame f /\ show rtol atol norm (metric_tensor f) None <> Ok (of_mat 1%:M).
Proof.
pose f : frame F 1 := Frame Reference 2%:R%:M.
have Gf : good_frame f by apply: scalar_good => //; exact: (@nat_neq 2 0).
exists f; split=> //; rewrite metric_value // => -[] /(congr1 (@mat_of F 1)).
rewrite !of_matK /Gram /= !tr_scalar_mx -!scalar_mxM => /matrixP /(_ 0 0); rewrite !mxE /= !mulr1n -!natrM.
exact: (@nat_neq 16 1).
Qed.

Lemma volume_unsigned (sqrt : F -> F) : (forall x, 0 <= x -> 0 <= sqrt x) ->
  exists f : frame F 1, good_frame f /\ volume sqrt f <> \det (axes f).
Proof.
move=> S; exists (Frame Reference (-1)%:M); split.
  by apply: scalar_good => // /eqP; rewrite oppr_eq0 oner_eq0.
rewrite /volume /= det_scalar expr1 => E.
have := S (\det (frame_Gram (Frame Reference ((-1)%:M : 'M[F]_1)))).
rewrite E ler0N1 /frame_Gram /Gram /= tr_scalar_mx -scalar_mxM mulrNN mulr1 det_scalar expr1 ler01.
by move/(_ isT).
Qed.

Lemma zero_rectangular (norm : 'rV[F]_1 -> F) :
  exists f, [/\ new_frame rtol atol norm Rectangular (0 : 'M[F]_1) = Ok f, frame_is_independent f & ~ independent_rows (axes f)].
Proof.
exists (Frame Rectangular 0); split=> //.
  by rewrite /new_frame orthogonal_accepted // => i j _; rewrite base_dotE mul0mx mxE.
by move=> /independentP /=; rewrite unitmxE det0 unitr0.
Qed.
End Refute.
