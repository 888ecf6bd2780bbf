(** Property C100, continued: how accurate is to_range_1d in double precision? *)
From Coq Require Import ZArith List Reals Psatz Lia Lra.
From Flocq Require Import Core BinarySingleNaN Relative.
From Verif Require Import FloatModel FloatProofs FloatDot FloatProps FloatSolve FloatWeight FloatInv FloatSegment.
Import ListNotations.
Local Open Scope R_scope.

(** ** Specification *)

(** The affine map from one interval to the other. *)
Definition affine_image (s0 s1 t0 t1 v : R) : R := t0 + (v - s0) / (s1 - s0) * (t1 - t0).
(** The largest size of two numbers. *)
Definition size2 (x y : R) : R := Rmax (Rabs x) (Rabs y).
(** A finite number up to 2^200. *)
Definition bounded (x : f64) : Prop := is_finite x = true /\ Rabs (B2R x) <= bpow radix2 200.

(** ** Proofs *)
Lemma near_rnd' x X e M : near x X e -> Rabs X <= M -> near (rnd x) X (e + u * (M + e) + eta).
Proof.
  unfold near. intros H B. pose proof (rnd_err x) as R.
  assert (Rabs x <= M + e). { replace x with (X + (x - X)) by ring. eapply Rle_trans; [apply Rabs_triang|]. lra. }
  assert (u * Rabs x <= u * (M + e)) by (apply Rmult_le_compat_l; [unfold u|]; lra).
  replace (rnd x - X) with ((rnd x - x) + (x - X)) by ring. eapply Rle_trans; [apply Rabs_triang|]. lra.
Qed.
Lemma near_le x X e e' : near x X e -> e <= e' -> near x X e'. Proof. unfold near. lra. Qed.
Lemma near_half x X e : near x X e -> near (x / 2) (X / 2) (e / 2).
Proof. unfold near. intros H. replace (x / 2 - X / 2) with ((x - X) * / 2) by field. rewrite Rabs_mult, (Rabs_pos_eq (/ 2)) by lra. lra. Qed.
Lemma three (a b c : R) : Rabs a <= u -> Rabs b <= u -> Rabs c <= u -> Rabs ((1 + a) * (1 + c) / (1 + b) - 1) <= 3.01 * u.
Proof.
  assert (U : u = / 9007199254740992) by reflexivity. intros A B C. apply Rabs_le_inv in A, B, C. assert (0 < 1 + b) by (rewrite U in *; lra).
  apply Rabs_le. split; apply (Rmult_le_reg_r (1 + b)); try assumption;
    replace (((1 + a) * (1 + c) / (1 + b) - 1) * (1 + b)) with (a + c - b + a * c) by (field; lra).
  - assert (- (u * u) <= a * c) by nra. rewrite U in *. nra.
  - assert (a * c <= u * u) by nra. rewrite U in *. nra.
Qed.

Section Range.
Variables (s0 s1 t0 t1 v : f64).
Hypotheses (Hs0 : bounded s0) (Hs1 : bounded s1) (Ht0 : bounded t0) (Ht1 : bounded t1) (Hv : bounded v).
Hypotheses (Hs : B2R s0 < B2R s1) (HE : sized 200 (B2R s1 - B2R s0)) (HD : sized 200 (B2R t1 - B2R t0)).
Let B := (B2R t1 - B2R t0) / (B2R s1 - B2R s0).
Let S := size2 (B2R s0) (B2R s1).
Let T := size2 (B2R t0) (B2R t1).
Let V := Rabs (B2R v).
Let b := fdiv (fsub t1 t0) (fsub s1 s0).

Lemma slope_ok : is_finite b = true /\ Rabs B <= bpow radix2 400 /\ near (B2R b) B (3.01 * u * Rabs B).
Proof.
  assert (U : u = / 9007199254740992) by reflexivity.
  destruct (factor 200 _ ltac:(lia) HD) as (a & Ha & Ea & Sa). destruct (factor 200 _ ltac:(lia) HE) as (c & Hc & Ec & Sc).
  destruct (fsub_ok t1 t0 200) as [V1 F1]; [lia|apply Ht1|apply Ht0|apply HD|].
  destruct (fsub_ok s1 s0 200) as [V2 F2]; [lia|apply Hs1|apply Hs0|apply HE|].
  assert (C1 : 0 < 1 + c) by (apply Rabs_le_inv in Hc; rewrite U in Hc; lra).
  assert (N2 : B2R (fsub s1 s0) <> 0). { rewrite V2, Ec. apply Rmult_integral_contrapositive_currified; lra. }
  rewrite <- V1 in Sa. rewrite <- V2 in Sc. pose proof (sized_div 200 200 _ _ Sa Sc N2) as Sb. change (200 + 200)%Z with 400%Z in Sb.
  destruct (factor 400 _ ltac:(lia) Sb) as (d & Hd & Ed & _).
  destruct (fdiv_ok (fsub t1 t0) (fsub s1 s0) 400) as [V3 F3]; [lia|exact F1|exact N2|apply Sb|].
  split; [exact F3|]. split; [apply (sized_div 200 200); [assumption|assumption|lra]|].
  unfold near, b. rewrite V3, Ed, V1, V2, Ea, Ec.
  replace (_ - B) with (((1 + a) * (1 + d) / (1 + c) - 1) * B) by (unfold B; field; lra).
  rewrite Rabs_mult. apply Rmult_le_compat_r; [apply Rabs_pos|]. apply three; assumption.
Qed.

Lemma range_ok : let x := fadd (fsub (fdiv (fadd t0 t1) (of_int 2)) (fdiv (fmul b (fadd s0 s1)) (of_int 2))) (fmul b v) in
  is_finite x = true /\ near (B2R x) (affine_image (B2R s0) (B2R s1) (B2R t0) (B2R t1) (B2R v))
    (u * (5 * T + 9 * (Rabs B * S) + 6 * (Rabs B * V)) + (3 * Rabs B + 10) * eta).
Proof.
  intros x. assert (U : u = / 9007199254740992) by reflexivity. destruct slope_ok as (Fb & SB & Nb).
  pose proof eta_pos as E0. pose proof (Rabs_pos B) as B0. set (A := Rabs B) in *.
  assert (S0 : 0 <= S) by (unfold S, size2; eapply Rle_trans; [apply (Rabs_pos (B2R s0))|apply Rmax_l]).
  assert (T0 : 0 <= T) by (unfold T, size2; eapply Rle_trans; [apply (Rabs_pos (B2R t0))|apply Rmax_l]).
  assert (V0 : 0 <= V) by apply Rabs_pos.
  assert (SL : S <= bpow radix2 200) by (apply Rmax_lub; [apply Hs0|apply Hs1]).
  assert (TL : T <= bpow radix2 200) by (apply Rmax_lub; [apply Ht0|apply Ht1]).
  assert (VL : V <= bpow radix2 200) by apply Hv.
  assert (AS0 : 0 <= A * S) by (apply Rmult_le_pos; assumption). assert (AV0 : 0 <= A * V) by (apply Rmult_le_pos; assumption).
  assert (AE0 : 0 <= A * eta) by (apply Rmult_le_pos; lra).
  assert (P0 : 0 < bpow radix2 200) by apply bpow_gt_0.
  assert (P1 : bpow radix2 600 = bpow radix2 400 * bpow radix2 200) by (rewrite <- bpow_plus; reflexivity).
  assert (P2 : bpow radix2 610 = 1024 * bpow radix2 600) by (change 1024 with (bpow radix2 10); rewrite <- bpow_plus; reflexivity).
  assert (P4 : bpow radix2 200 <= bpow radix2 600) by (apply bpow_le; lia).
  assert (P5 : 1 <= bpow radix2 600) by (change 1 with (bpow radix2 0); apply bpow_le; lia).
  assert (P6 : bpow radix2 400 <= bpow radix2 600) by (apply bpow_le; lia).
  assert (ASL : A * S <= bpow radix2 600) by (rewrite P1; apply Rmult_le_compat; assumption).
  assert (AVL : A * V <= bpow radix2 600) by (rewrite P1; apply Rmult_le_compat; assumption).
  assert (ET : eta <= u / 1000000) by apply eta_tiny.
  assert (AEL : A * eta <= bpow radix2 600). { apply Rle_trans with (bpow radix2 400 * 1); [apply Rmult_le_compat; rewrite ?U in *; lra|lra]. }
  assert (Sm : Rabs (B2R s0 + B2R s1) <= 2 * S).
  { eapply Rle_trans; [apply Rabs_triang|]. pose proof (Rmax_l (Rabs (B2R s0)) (Rabs (B2R s1))). pose proof (Rmax_r (Rabs (B2R s0)) (Rabs (B2R s1))). unfold S, size2. lra. }
  assert (Tm : Rabs (B2R t0 + B2R t1) <= 2 * T).
  { eapply Rle_trans; [apply Rabs_triang|]. pose proof (Rmax_l (Rabs (B2R t0)) (Rabs (B2R t1))). pose proof (Rmax_r (Rabs (B2R t0)) (Rabs (B2R t1))). unfold T, size2. lra. }
  destruct (of_int_ok 2 eq_refl) as [V2 F2].
  assert (big : forall y Y e M, near y Y e -> Rabs Y <= M -> M + e <= bpow radix2 610 -> Rabs y <= bpow radix2 610).
  { intros y Y e M N L Q. eapply Rle_trans; [apply (near_size _ _ _ _ N L)|exact Q]. }
  (* the middle of the target *)
  pose proof (near_rnd' _ _ _ _ (near_refl (B2R t0 + B2R t1)) Tm) as N1.
  destruct (fadd_ok t0 t1 610) as [E1 G1]; [lia|apply Ht0|apply Ht1|lra|]. rewrite <- E1 in N1. apply near_half in N1.
  assert (Tm2 : Rabs ((B2R t0 + B2R t1) / 2) <= T). { unfold Rdiv. rewrite Rabs_mult, (Rabs_pos_eq (/ 2)) by lra. lra. }
  destruct (fdiv_ok (fadd t0 t1) (of_int 2) 610) as [E2 G2]; [lia|exact G1|rewrite V2; lra|rewrite V2; apply (big _ _ _ _ N1 Tm2); rewrite U in *; lra|]. rewrite V2 in E2.
  pose proof (near_rnd' _ _ _ _ N1 Tm2) as N2. rewrite <- E2 in N2.
  assert (K2 : near (B2R (fdiv (fadd t0 t1) (of_int 2))) ((B2R t0 + B2R t1) / 2) (u * (2.01 * T) + 3 * eta)) by (eapply near_le; [exact N2|rewrite U in *; lra]). clear N1 N2 E1 E2.
  (* the slope times the middle of the source *)
  pose proof (near_rnd' _ _ _ _ (near_refl (B2R s0 + B2R s1)) Sm) as N3.
  destruct (fadd_ok s0 s1 610) as [E3 G3]; [lia|apply Hs0|apply Hs1|lra|]. rewrite <- E3 in N3.
  pose proof (near_mul _ _ _ _ _ _ A (2 * S) Nb N3 (Rle_refl _) Sm) as N4.
  assert (BM : Rabs (B * (B2R s0 + B2R s1)) <= 2 * (A * S)). { rewrite Rabs_mult. replace (2 * (A * S)) with (A * (2 * S)) by ring. apply Rmult_le_compat_l; [exact B0|exact Sm]. }
  assert (K4 : near (B2R b * B2R (fadd s0 s1)) (B * (B2R s0 + B2R s1)) (u * (8.1 * (A * S)) + 1.1 * (A * eta))).
  { eapply near_le; [exact N4|]. match goal with |- ?l <= _ => replace l with (u * (8.02 * (A * S)) + u * u * (6.02 * (A * S)) + A * eta + u * (3.01 * (A * eta))) by lra end.
    rewrite U in *. lra. }
  clear N4 N3 E3. destruct (fmul_ok b (fadd s0 s1) 610) as [E5 G5]; [lia|exact Fb|exact G3|apply (big _ _ _ _ K4 BM); rewrite U in *; lra|].
  pose proof (near_rnd' _ _ _ _ K4 BM) as N5. rewrite <- E5 in N5. apply near_half in N5.
  assert (BM2 : Rabs (B * (B2R s0 + B2R s1) / 2) <= A * S). { unfold Rdiv. rewrite Rabs_mult, (Rabs_pos_eq (/ 2)) by lra. lra. }
  destruct (fdiv_ok (fmul b (fadd s0 s1)) (of_int 2) 610) as [E6 G6]; [lia|exact G5|rewrite V2; lra|rewrite V2; apply (big _ _ _ _ N5 BM2); rewrite U in *; lra|]. rewrite V2 in E6.
  pose proof (near_rnd' _ _ _ _ N5 BM2) as N6. rewrite <- E6 in N6.
  assert (K6 : near (B2R (fdiv (fmul b (fadd s0 s1)) (of_int 2))) (B * (B2R s0 + B2R s1) / 2) (u * (6.2 * (A * S)) + 0.7 * (A * eta) + 2 * eta)) by (eapply near_le; [exact N6|rewrite U in *; lra]).
  clear N5 N6 K4 E5 E6.
  (* the offset *)
  pose proof (near_sub _ _ _ _ _ _ K2 K6) as N7.
  assert (AM : Rabs ((B2R t0 + B2R t1) / 2 - B * (B2R s0 + B2R s1) / 2) <= T + A * S). { eapply Rle_trans; [apply Rabs_triang|]. rewrite Rabs_Ropp. lra. }
  match type of N7 with near ?y _ _ => assert (Q7 : Rabs y <= bpow radix2 610) by (apply (big _ _ _ _ N7 AM); rewrite U in *; lra) end.
  destruct (fsub_ok _ _ 610 ltac:(lia) G2 G6 Q7) as [E7 G7].
  pose proof (near_rnd' _ _ _ _ N7 AM) as N8. rewrite <- E7 in N8. set (a := fsub (fdiv (fadd t0 t1) (of_int 2)) (fdiv (fmul b (fadd s0 s1)) (of_int 2))) in *.
  assert (K8 : near (B2R a) ((B2R t0 + B2R t1) / 2 - B * (B2R s0 + B2R s1) / 2) (u * (3.2 * T + 7.3 * (A * S)) + 0.8 * (A * eta) + 7 * eta)) by (eapply near_le; [exact N8|rewrite U in *; lra]).
  clear N7 N8 K2 K6 E7 Q7.
  (* the value *)
  pose proof (near_mul _ _ _ _ _ _ A V Nb (near_refl (B2R v)) (Rle_refl _) (Rle_refl _)) as N9.
  assert (WM : Rabs (B * B2R v) <= A * V) by (rewrite Rabs_mult; apply Rle_refl).
  assert (K9 : near (B2R b * B2R v) (B * B2R v) (u * (3.01 * (A * V)))) by (eapply near_le; [exact N9|right; ring]).
  destruct (fmul_ok b v 610) as [E9 G9]; [lia|exact Fb|apply Hv|apply (big _ _ _ _ K9 WM); rewrite U in *; lra|].
  pose proof (near_rnd' _ _ _ _ K9 WM) as N10. rewrite <- E9 in N10.
  pose proof (near_add _ _ _ _ _ _ K8 N10) as N11.
  assert (XM : Rabs ((B2R t0 + B2R t1) / 2 - B * (B2R s0 + B2R s1) / 2 + B * B2R v) <= T + A * S + A * V) by (eapply Rle_trans; [apply Rabs_triang|]; lra).
  match type of N11 with near ?y _ _ => assert (Q11 : Rabs y <= bpow radix2 610) by (apply (big _ _ _ _ N11 XM); rewrite U in *; lra) end.
  destruct (fadd_ok _ _ 610 ltac:(lia) G7 G9 Q11) as [E11 G11].
  pose proof (near_rnd' _ _ _ _ N11 XM) as N12. rewrite <- E11 in N12. split; [exact G11|].
  replace (affine_image _ _ _ _ _) with ((B2R t0 + B2R t1) / 2 - B * (B2R s0 + B2R s1) / 2 + B * B2R v) by (unfold affine_image, B; field; lra).
  eapply near_le; [exact N12|]. rewrite U in *. lra.
Qed.
End Range.

(** ** Theorem *)

(** The mapped value differs from the exact one by rounding errors relative to the size of the
    target and to the size of the source and of the value, scaled by the slope.  So the ends are hit
    up to rounding unless the source is short for its distance from zero. *)
Theorem C100_error_partial : forall (s0 s1 t0 t1 : f64) (vals : list f64) i (v x : f64),
  bounded s0 -> bounded s1 -> bounded t0 -> bounded t1 -> bounded v ->
  B2R s0 < B2R s1 -> sized 200 (B2R s1 - B2R s0) -> sized 200 (B2R t1 - B2R t0) ->
  nth_error vals i = Some v -> nth_error (to_range_1d s0 s1 t0 t1 vals) i = Some x ->
  let slope := Rabs ((B2R t1 - B2R t0) / (B2R s1 - B2R s0)) in
  is_finite x = true /\
  Rabs (B2R x - affine_image (B2R s0) (B2R s1) (B2R t0) (B2R t1) (B2R v)) <=
    u * (5 * size2 (B2R t0) (B2R t1) + 9 * (slope * size2 (B2R s0) (B2R s1)) + 6 * (slope * Rabs (B2R v))) + bpow radix2 (-600).
Proof.
  intros s0 s1 t0 t1 vals i v x H0 H1 K0 K1 Hv Hs HE HD Ev Ex slope. unfold to_range_1d in Ex. cbv zeta in Ex. rewrite nth_error_map, Ev in Ex. cbn in Ex. injection Ex as <-.
  destruct (range_ok s0 s1 t0 t1 v H0 H1 K0 K1 Hv Hs HE HD) as [F N]. cbv zeta in F, N. split; [exact F|]. eapply Rle_trans; [exact N|]. apply Rplus_le_compat_l. fold slope.
  destruct (slope_ok s0 s1 t0 t1 H0 H1 K0 K1 Hs HE HD) as (_ & SB & _). fold slope in SB.
  assert (P : 1 <= bpow radix2 400) by (change 1 with (bpow radix2 0); apply bpow_le; lia). pose proof eta_pos.
  apply Rle_trans with (16 * bpow radix2 400 * eta); [apply Rmult_le_compat_r; lra|].
  rewrite <- eta_bpow. change 16 with (bpow radix2 4). rewrite <- !bpow_plus. apply bpow_le. lia.
Qed.
Print Assumptions C100_error_partial.

Example C100_error_met : bounded (of_int 10) /\ bounded (of_int 30) /\ B2R (of_int 10) < B2R (of_int 30) /\ sized 200 (B2R (of_int 30) - B2R (of_int 10)).
Proof.
  destruct (of_int_ok 10 eq_refl) as [E F]. destruct (of_int_ok 30 eq_refl) as [E' F'].
  assert (P : 32 <= bpow radix2 200) by (change 32 with (bpow radix2 5); apply bpow_le; lia).
  assert (Q : bpow radix2 (- (200)) <= 1) by (change 1 with (bpow radix2 0); apply bpow_le; lia).
  unfold bounded, sized. rewrite E, E', !Rabs_pos_eq by lra. repeat split; try assumption; lra.
Qed.
