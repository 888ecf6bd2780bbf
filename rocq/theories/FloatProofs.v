(** Rounding errors of the operations in FloatModel.v. *)
From Coq Require Import ZArith List Reals Psatz Lia Lra.
From Flocq Require Import Core BinarySingleNaN Relative.
From Verif Require Import FloatModel.
Import ListNotations.
Local Open Scope R_scope.

Definition rnd : R -> R := round radix2 (FLT_exp (-1074) 53) ZnearestE.
Definition u := / 9007199254740992. (* 2^-53 *)
Definition eta := / 2 * bpow radix2 (-1074).

Lemma fexp_eq : SpecFloat.fexp 53 1024 = FLT_exp (-1074) 53.
Proof. reflexivity. Qed.
#[global] Instance FLT_ok : Valid_exp (FLT_exp (-1074) 53) := FLT_exp_valid (-1074) 53.
Lemma eta_pos : 0 < eta. Proof. unfold eta. pose proof (bpow_gt_0 radix2 (-1074)). lra. Qed.
Lemma rnd_le x y : x <= y -> rnd x <= rnd y. Proof. apply round_le; auto with typeclass_instances. Qed.
Lemma rnd_0 : rnd 0 = 0. Proof. apply round_0; auto with typeclass_instances. Qed.
Lemma rnd_f64 (x : f64) : rnd (B2R x) = B2R x.
Proof. apply round_generic; [auto with typeclass_instances|]. apply (generic_format_B2R 53 1024 x). Qed.
Lemma rnd_err x : Rabs (rnd x - x) <= u * Rabs x + eta.
Proof.
  destruct (error_N_FLT radix2 (-1074) 53 eq_refl (fun z => negb (Z.even z)) x) as (e & t & He & Ht & _ & E).
  change (rnd x = x * (1 + e) + t) in E. rewrite E. replace (x * (1 + e) + t - x) with (e * x + t) by ring.
  eapply Rle_trans; [apply Rabs_triang|]. rewrite Rabs_mult. apply Rplus_le_compat; [|exact Ht].
  apply Rmult_le_compat_r; [apply Rabs_pos|]. replace u with (/ 2 * bpow radix2 (- (53) + 1)); [exact He|].
  unfold u. cbn. lra.
Qed.
Lemma rnd_bound x (e : Z) : (-1074 <= e)%Z -> Rabs x <= bpow radix2 e -> Rabs (rnd x) <= bpow radix2 e.
Proof.
  intros He Hx. apply abs_round_le_generic; auto with typeclass_instances.
  apply generic_format_FLT_bpow; [reflexivity|exact He].
Qed.

Section Ops.
Implicit Types x y : f64.
Lemma no_overflow r (e : Z) : (-1074 <= e < 1024)%Z -> Rabs r <= bpow radix2 e ->
  Rlt_bool (Rabs (round radix2 (SpecFloat.fexp 53 1024) (round_mode mode_NE) r)) (bpow radix2 1024) = true.
Proof.
  intros He H. apply Rlt_bool_true. apply Rle_lt_trans with (bpow radix2 e).
  - exact (rnd_bound r e (proj1 He) H).
  - apply bpow_lt. lia.
Qed.
Lemma fadd_ok x y (e : Z) : (-1074 <= e < 1024)%Z -> is_finite x = true -> is_finite y = true ->
  Rabs (B2R x + B2R y) <= bpow radix2 e -> B2R (fadd x y) = rnd (B2R x + B2R y) /\ is_finite (fadd x y) = true.
Proof.
  intros He Fx Fy H. pose proof (Bplus_correct 53 1024 prec_ok emax_ok mode_NE x y Fx Fy) as C.
  rewrite (no_overflow _ e He H) in C. split; apply C.
Qed.
Lemma fsub_ok x y (e : Z) : (-1074 <= e < 1024)%Z -> is_finite x = true -> is_finite y = true ->
  Rabs (B2R x - B2R y) <= bpow radix2 e -> B2R (fsub x y) = rnd (B2R x - B2R y) /\ is_finite (fsub x y) = true.
Proof.
  intros He Fx Fy H. pose proof (Bminus_correct 53 1024 prec_ok emax_ok mode_NE x y Fx Fy) as C.
  rewrite (no_overflow _ e He H) in C. split; apply C.
Qed.
Lemma fmul_ok x y (e : Z) : (-1074 <= e < 1024)%Z -> is_finite x = true -> is_finite y = true ->
  Rabs (B2R x * B2R y) <= bpow radix2 e -> B2R (fmul x y) = rnd (B2R x * B2R y) /\ is_finite (fmul x y) = true.
Proof.
  intros He Fx Fy H. pose proof (Bmult_correct 53 1024 prec_ok emax_ok mode_NE x y) as C.
  rewrite (no_overflow _ e He H), Fx, Fy in C. split; apply C.
Qed.
Lemma fdiv_ok x y (e : Z) : (-1074 <= e < 1024)%Z -> is_finite x = true -> B2R y <> 0 ->
  Rabs (B2R x / B2R y) <= bpow radix2 e -> B2R (fdiv x y) = rnd (B2R x / B2R y) /\ is_finite (fdiv x y) = true.
Proof.
  intros He Fx Fy H. pose proof (Bdiv_correct 53 1024 prec_ok emax_ok mode_NE x y Fy) as C.
  rewrite (no_overflow _ e He H), Fx in C. split; apply C.
Qed.
Lemma of_int_ok (z : Z) : (Z.abs z < 2 ^ 53)%Z -> B2R (of_int z) = IZR z /\ is_finite (of_int z) = true.
Proof.
  intros H. pose proof (binary_normalize_correct 53 1024 prec_ok emax_ok mode_NE z 0 false) as C. cbv zeta in C.
  assert (E : F2R (Float radix2 z 0) = IZR z) by (unfold F2R; cbn; ring). rewrite E in C.
  rewrite (no_overflow _ 53) in C; [|lia|].
  - destruct C as (C1 & C2 & _). split; [|exact C2]. change (B2R (of_int z) = rnd (IZR z)) in C1. rewrite C1.
    apply round_generic; [auto with typeclass_instances|]. apply generic_format_FLT. exists (Float radix2 z 0).
    + symmetry. exact E.
    + cbn. lia.
    + cbn. lia.
  - rewrite <- abs_IZR. change (bpow radix2 53) with (IZR (2 ^ 53)). apply IZR_le. lia.
Qed.
End Ops.

(** The value [lo + k (hi - lo) / n] as the library computes it. *)
Definition step (lo hi : R) (n : Z) := rnd (rnd (hi - lo) / IZR n).
Definition on_grid (lo hi : R) (n k : Z) := rnd (lo + rnd (IZR k * step lo hi n)).

Section Grid.
Variables (lo hi M : R) (n : Z).
Hypothesis Hlo : Rabs lo <= M. Hypothesis Hhi : Rabs hi <= M. Hypothesis Hn : (1 <= n < 2 ^ 53)%Z.
Let E := 9007199254740992 * eta.
Lemma n_pos : 1 <= IZR n. Proof. apply (IZR_le 1). lia. Qed.

Lemma step_err k : (0 <= k <= n)%Z ->
  Rabs (IZR k * step lo hi n - IZR k / IZR n * (hi - lo)) <= u * (2 * M) + u * Rabs (rnd (hi - lo)) + eta + E /\
  Rabs (rnd (hi - lo)) <= 2 * M * (1 + u) + eta.
Proof.
  intros Hk. pose proof eta_pos as He. pose proof n_pos as Np. unfold step. set (D := rnd (hi - lo)).
  assert (Hd : Rabs (hi - lo) <= 2 * M).
  { replace (hi - lo) with (hi + - lo) by ring. eapply Rle_trans; [apply Rabs_triang|]. rewrite Rabs_Ropp. lra. }
  pose proof (rnd_err (hi - lo)) as e1. fold D in e1. pose proof (rnd_err (D / IZR n)) as e2. set (p := rnd (D / IZR n)) in *.
  assert (Uu : 0 < u) by (unfold u; lra).
  assert (Kp : 0 <= IZR k) by (apply IZR_le; lia). assert (Kn : IZR k <= IZR n) by (apply IZR_le; lia).
  assert (KM : IZR k <= 9007199254740992) by (apply IZR_le; change 9007199254740992%Z with (2 ^ 53)%Z; lia).
  assert (T : 0 <= IZR k / IZR n <= 1).
  { split; [apply Rmult_le_pos; [lra|]; apply Rlt_le, Rinv_0_lt_compat; lra|]. apply Rmult_le_reg_r with (IZR n); [lra|].
    unfold Rdiv. rewrite Rmult_assoc, Rinv_l by lra. lra. }
  assert (DB : Rabs D <= 2 * M * (1 + u) + eta).
  { replace D with (D - (hi - lo) + (hi - lo)) by ring. eapply Rle_trans; [apply Rabs_triang|]. nra. }
  split; [|exact DB].
  replace (IZR k * p - IZR k / IZR n * (hi - lo)) with (IZR k / IZR n * (D - (hi - lo)) + IZR k * (p - D / IZR n)) by (field; lra).
  eapply Rle_trans; [apply Rabs_triang|]. rewrite !Rabs_mult, (Rabs_right (IZR k / IZR n)), (Rabs_right (IZR k)) by lra.
  assert (A1 : IZR k / IZR n * Rabs (D - (hi - lo)) <= u * (2 * M) + eta).
  { apply Rle_trans with (1 * Rabs (D - (hi - lo))).
    - apply Rmult_le_compat_r; [apply Rabs_pos|lra].
    - rewrite Rmult_1_l. eapply Rle_trans; [exact e1|]. apply Rplus_le_compat_r, Rmult_le_compat_l; lra. }
  assert (A2 : IZR k * Rabs (p - D / IZR n) <= u * Rabs D + E).
  { apply Rle_trans with (IZR k * (u * Rabs (D / IZR n) + eta)); [apply Rmult_le_compat_l; lra|].
    unfold Rdiv. rewrite Rabs_mult, (Rabs_right (/ IZR n)) by (apply Rle_ge, Rlt_le, Rinv_0_lt_compat; lra).
    replace (IZR k * (u * (Rabs D * / IZR n) + eta)) with (u * Rabs D * (IZR k / IZR n) + IZR k * eta) by (field; lra).
    apply Rplus_le_compat.
    - rewrite <- (Rmult_1_r (u * Rabs D)) at 2. apply Rmult_le_compat_l; [|lra]. apply Rmult_le_pos; [lra|apply Rabs_pos].
    - unfold E. apply Rmult_le_compat_r; lra. }
  lra.
Qed.

Lemma grid_err k : (0 <= k <= n)%Z ->
  Rabs (on_grid lo hi n k - (lo + IZR k / IZR n * (hi - lo))) <= / 562949953421312 * M + 4 * E /\
  Rabs (IZR k * step lo hi n) <= 4 * M + 4 * E /\
  Rabs (lo + rnd (IZR k * step lo hi n)) <= 4 * M + 4 * E.
Proof.
  intros Hk. pose proof eta_pos as He. pose proof n_pos as Np. destruct (step_err k Hk) as [e3 DB].
  assert (KT : Rabs (IZR k / IZR n * (hi - lo)) <= 2 * M /\ Rabs (lo + IZR k / IZR n * (hi - lo)) <= M).
  { assert (Kp : 0 <= IZR k) by (apply IZR_le; lia). assert (Kn : IZR k <= IZR n) by (apply IZR_le; lia).
    assert (T : 0 <= IZR k / IZR n <= 1).
    { split; [apply Rmult_le_pos; [lra|]; apply Rlt_le, Rinv_0_lt_compat; lra|]. apply Rmult_le_reg_r with (IZR n); [lra|].
      unfold Rdiv. rewrite Rmult_assoc, Rinv_l by lra. lra. }
    set (t := IZR k / IZR n) in *. apply Rabs_le_inv in Hlo, Hhi. split; apply Rabs_le; nra. }
  destruct KT as [KT KT2].
  unfold on_grid. set (w := IZR k * step lo hi n) in *. set (v := IZR k / IZR n * (hi - lo)) in *.
  pose proof (rnd_err w) as e4. set (q := rnd w) in *. pose proof (rnd_err (lo + q)) as e5. set (r := rnd (lo + q)) in *.
  set (D := rnd (hi - lo)) in *. assert (HE : 0 <= E) by (unfold E; lra). assert (M0 : 0 <= M) by (pose proof (Rabs_pos lo); lra).
  assert (HEe : eta <= u * E) by (unfold E, u; lra). clearbody E. unfold u in *.
  assert (W : Rabs w <= Rabs (w - v) + Rabs v) by (replace w with (w - v + v) at 1 by ring; apply Rabs_triang).
  assert (Q1 : Rabs (lo + q) <= Rabs (lo + v) + Rabs (w - v) + Rabs (q - w)).
  { replace (lo + q) with (lo + v + (w - v) + (q - w)) by ring. eapply Rle_trans; [apply Rabs_triang|].
    apply Rplus_le_compat_r. apply Rabs_triang. }
  assert (R1 : Rabs (r - (lo + v)) <= Rabs (r - (lo + q)) + Rabs (q - w) + Rabs (w - v)).
  { replace (r - (lo + v)) with (r - (lo + q) + (q - w) + (w - v)) by ring. eapply Rle_trans; [apply Rabs_triang|].
    apply Rplus_le_compat_r. apply Rabs_triang. }
  repeat split; lra.
Qed.

Lemma grid_mono k l : lo <= hi -> (0 <= k <= l)%Z -> on_grid lo hi n k <= on_grid lo hi n l.
Proof.
  intros H Hkl. apply rnd_le, Rplus_le_compat_l, rnd_le, Rmult_le_compat_r; [|apply IZR_le; lia].
  unfold step. rewrite <- rnd_0. apply rnd_le. pose proof n_pos. apply Rmult_le_pos; [|apply Rlt_le, Rinv_0_lt_compat; lra].
  rewrite <- rnd_0. apply rnd_le. lra.
Qed.
Lemma grid_0 : rnd lo = lo -> on_grid lo hi n 0 = lo.
Proof. intros H. unfold on_grid. rewrite Rmult_0_l, rnd_0, Rplus_0_r. exact H. Qed.
End Grid.

(** The floating point evaluation is [on_grid]. *)
Lemma small_sum : 4 * bpow radix2 1000 + 4 * (9007199254740992 * eta) <= bpow radix2 1003.
Proof.
  unfold eta. replace (bpow radix2 1003) with (8 * bpow radix2 1000).
  2:{ change 1003%Z with (3 + 1000)%Z. rewrite bpow_plus. reflexivity. }
  assert (9007199254740992 * (/ 2 * bpow radix2 (-1074)) <= bpow radix2 1000); [|lra].
  replace (9007199254740992 * (/ 2 * bpow radix2 (-1074))) with (bpow radix2 (53 - 1 - 1074)).
  - apply bpow_le. lia.
  - replace (53 - 1 - 1074)%Z with (52 + -1074)%Z by reflexivity. rewrite bpow_plus. cbn. lra.
Qed.

Definition moderate (x : f64) : Prop := is_finite x = true /\ Rabs (B2R x) <= bpow radix2 1000.

Lemma grid_float (lo hi : f64) n k : moderate lo -> moderate hi -> (1 <= n < 2 ^ 53)%Z -> (0 <= k <= n)%Z ->
  let q := fmul (of_int k) (fdiv (fsub hi lo) (of_int n)) in
  B2R (fadd lo q) = on_grid (B2R lo) (B2R hi) n k /\ is_finite (fadd lo q) = true /\
  B2R (fadd q lo) = on_grid (B2R lo) (B2R hi) n k /\ is_finite (fadd q lo) = true.
Proof.
  intros [Flo Blo] [Fhi Bhi] Hn Hk q. pose proof (n_pos n Hn) as Np. pose proof small_sum as SS. pose proof eta_pos as He.
  destruct (grid_err _ _ _ n Blo Bhi Hn k Hk) as (_ & G2 & G3).
  destruct (step_err _ _ _ n Blo Bhi Hn 0 ltac:(lia)) as (_ & DB).
  destruct (of_int_ok n) as [N1 N2]; [lia|]. destruct (of_int_ok k) as [K1 K2]; [lia|].
  assert (B3 : 8 * bpow radix2 1000 = bpow radix2 1003) by (change 1003%Z with (3 + 1000)%Z; rewrite bpow_plus; reflexivity).
  destruct (fsub_ok hi lo 1003) as [D1 D2]; [lia|exact Fhi|exact Flo| |].
  { apply Rabs_le_inv in Blo, Bhi. apply Rabs_le. lra. }
  destruct (fdiv_ok (fsub hi lo) (of_int n) 1003) as [P1 P2]; [lia|exact D2|rewrite N1; lra| |].
  { rewrite D1, N1. unfold Rdiv. rewrite Rabs_mult, (Rabs_right (/ IZR n)) by (apply Rle_ge, Rlt_le, Rinv_0_lt_compat; lra).
    apply Rle_trans with (Rabs (rnd (B2R hi - B2R lo)) * 1).
    - apply Rmult_le_compat_l; [apply Rabs_pos|]. rewrite <- Rinv_1. apply Rinv_le; lra.
    - rewrite Rmult_1_r. apply rnd_bound; [lia|]. apply Rabs_le_inv in Blo, Bhi. apply Rabs_le. lra. }
  rewrite D1, N1 in P1. change (rnd (rnd (B2R hi - B2R lo) / IZR n)) with (step (B2R lo) (B2R hi) n) in P1.
  destruct (fmul_ok (of_int k) (fdiv (fsub hi lo) (of_int n)) 1003) as [Q1 Q2]; [lia|exact K2|exact P2| |].
  { rewrite K1, P1. lra. }
  rewrite K1, P1 in Q1. fold q in Q1, Q2.
  destruct (fadd_ok lo q 1003) as [R1 R2]; [lia|exact Flo|exact Q2|rewrite Q1; lra|].
  destruct (fadd_ok q lo 1003) as [S1 S2]; [lia|exact Q2|exact Flo|rewrite Q1, Rplus_comm; lra|].
  rewrite Q1 in R1, S1. rewrite (Rplus_comm _ (B2R lo)) in S1. repeat split; assumption.
Qed.

Lemma grid_anti lo hi n k l : (1 <= n < 2 ^ 53)%Z -> hi <= lo -> (0 <= k <= l)%Z -> on_grid lo hi n l <= on_grid lo hi n k.
Proof.
  intros Hn H Hkl. apply rnd_le, Rplus_le_compat_l, rnd_le.
  assert (S0 : step lo hi n <= 0).
  { unfold step. rewrite <- rnd_0. apply rnd_le. pose proof (n_pos n Hn).
    assert (rnd (hi - lo) <= 0) by (rewrite <- rnd_0; apply rnd_le; lra).
    assert (0 < / IZR n) by (apply Rinv_0_lt_compat; lra). unfold Rdiv. nra. }
  assert (IZR k <= IZR l) by (apply IZR_le; lia). nra.
Qed.

(** The middle of two numbers. *)
Definition center a b := rnd (rnd (a + b) / 2).
Lemma rnd_double (a : f64) : rnd (2 * B2R a) = 2 * B2R a.
Proof.
  apply round_generic; [auto with typeclass_instances|].
  pose proof (generic_format_B2R 53 1024 a) as G. rewrite fexp_eq in G. apply FLT_format_generic in G; [|reflexivity].
  destruct G as [[m e] E Hm He]. apply generic_format_FLT. exists (Float radix2 m (e + 1)).
  - rewrite E. unfold F2R. cbn [Fnum Fexp]. rewrite bpow_plus. change (bpow radix2 1) with 2. ring.
  - exact Hm.
  - cbn [Fexp] in *. lia.
Qed.
Lemma center_between (a b : f64) : B2R a <= B2R b -> B2R a <= center (B2R a) (B2R b) <= B2R b.
Proof.
  intros H. unfold center. assert (L : rnd (2 * B2R a) <= rnd (B2R a + B2R b)) by (apply rnd_le; lra).
  assert (U : rnd (B2R a + B2R b) <= rnd (2 * B2R b)) by (apply rnd_le; lra). rewrite rnd_double in L, U. split.
  - rewrite <- (rnd_f64 a) at 1. apply rnd_le. lra.
  - rewrite <- (rnd_f64 b) at 2. apply rnd_le. lra.
Qed.
Lemma center_err a b M : Rabs a <= M -> Rabs b <= M ->
  Rabs (center a b - (a + b) / 2) <= / 562949953421312 * M + 4 * (9007199254740992 * eta).
Proof.
  intros Ha Hb. unfold center. pose proof (rnd_err (a + b)) as e1. set (s := rnd (a + b)) in *.
  pose proof (rnd_err (s / 2)) as e2. set (c := rnd (s / 2)) in *. pose proof eta_pos as He.
  assert (A : Rabs (a + b) <= 2 * M) by (eapply Rle_trans; [apply Rabs_triang|lra]).
  assert (S1 : Rabs s <= Rabs (s - (a + b)) + Rabs (a + b)) by (replace s with (s - (a + b) + (a + b)) at 1 by ring; apply Rabs_triang).
  assert (S2 : Rabs (s / 2) = Rabs s / 2) by (unfold Rdiv; rewrite Rabs_mult, (Rabs_right (/ 2)) by lra; reflexivity).
  assert (C : Rabs (c - (a + b) / 2) <= Rabs (c - s / 2) + Rabs (s - (a + b)) / 2).
  { replace (c - (a + b) / 2) with (c - s / 2 + (s - (a + b)) / 2) by field. eapply Rle_trans; [apply Rabs_triang|].
    apply Rplus_le_compat_l. unfold Rdiv. rewrite Rabs_mult, (Rabs_right (/ 2)) by lra. lra. }
  assert (M0 : 0 <= M) by (pose proof (Rabs_pos a); lra). unfold u in *. lra.
Qed.
Lemma center_float (a b : f64) : moderate a -> moderate b ->
  is_finite (fdiv (fadd a b) (of_int 2)) = true /\ B2R (fdiv (fadd a b) (of_int 2)) = center (B2R a) (B2R b).
Proof.
  intros [Fa Ba] [Fb Bb]. destruct (of_int_ok 2 eq_refl) as [T1 _].
  assert (B1 : Rabs (B2R a + B2R b) <= bpow radix2 1001).
  { change 1001%Z with (1 + 1000)%Z. rewrite bpow_plus. change (bpow radix2 1) with 2. eapply Rle_trans; [apply Rabs_triang|]. lra. }
  destruct (fadd_ok a b 1001) as [S1 S2]; [lia|exact Fa|exact Fb|exact B1|].
  destruct (fdiv_ok (fadd a b) (of_int 2) 1001) as [C1 C2]; [lia|exact S2|rewrite T1; lra| |].
  - rewrite S1, T1. unfold Rdiv. rewrite Rabs_mult, (Rabs_right (/ 2)) by lra.
    pose proof (rnd_bound _ 1001 ltac:(lia) B1). pose proof (Rabs_pos (rnd (B2R a + B2R b))). lra.
  - split; [exact C2|]. rewrite C1, S1, T1. reflexivity.
Qed.

(** A finite result has finite arguments and is the rounded exact result. *)
Lemma overflow_infinite s : is_finite_SF (binary_overflow 53 1024 mode_NE s) = false.
Proof. destruct s; reflexivity. Qed.
Lemma is_finite_SF_B2SF' (x : f64) : is_finite_SF (B2SF x) = is_finite x.
Proof. destruct x; reflexivity. Qed.
Lemma fadd_finite (x y : f64) : is_finite (fadd x y) = true ->
  is_finite x = true /\ is_finite y = true /\ B2R (fadd x y) = rnd (B2R x + B2R y).
Proof.
  intros F. assert (Fx : is_finite x = true).
  { destruct x as [s|s| |s m e E], y as [s'|s'| |s' m' e' E']; try reflexivity; try discriminate F; destruct s, s'; discriminate F. }
  assert (Fy : is_finite y = true).
  { destruct x as [s|s| |s m e E], y as [s'|s'| |s' m' e' E']; try reflexivity; try discriminate F; destruct s, s'; discriminate F. }
  split; [exact Fx|]. split; [exact Fy|].
  pose proof (Bplus_correct 53 1024 prec_ok emax_ok mode_NE x y Fx Fy) as C. destruct (Rlt_bool _ _); [apply C|].
  destruct C as [C _]. change (Bplus mode_NE x y) with (fadd x y) in C. rewrite <- is_finite_SF_B2SF', C, overflow_infinite in F. discriminate.
Qed.
Lemma fsub_finite (x y : f64) : is_finite x = true -> is_finite y = true -> is_finite (fsub x y) = true ->
  B2R (fsub x y) = rnd (B2R x - B2R y).
Proof.
  intros Fx Fy F. pose proof (Bminus_correct 53 1024 prec_ok emax_ok mode_NE x y Fx Fy) as C. destruct (Rlt_bool _ _); [apply C|].
  destruct C as [C _]. change (Bminus mode_NE x y) with (fsub x y) in C. rewrite <- is_finite_SF_B2SF', C, overflow_infinite in F. discriminate.
Qed.
Lemma fmul_finite (x y : f64) : is_finite (fmul x y) = true ->
  is_finite x = true /\ is_finite y = true /\ B2R (fmul x y) = rnd (B2R x * B2R y).
Proof.
  intros F. pose proof (Bmult_correct 53 1024 prec_ok emax_ok mode_NE x y) as C. change (Bmult mode_NE x y) with (fmul x y) in C.
  destruct (Rlt_bool _ _).
  - destruct C as (C1 & C2 & _). rewrite F in C2. symmetry in C2. apply andb_prop in C2. split; [apply C2|]. split; [apply C2|]. exact C1.
  - rewrite <- is_finite_SF_B2SF', C, overflow_infinite in F. discriminate.
Qed.
(** A finite quotient of non-negative and positive differences is not negative. *)
Lemma slope_pos (s0 s1 t0 t1 : f64) : is_finite s0 = true -> is_finite s1 = true -> is_finite t0 = true -> is_finite t1 = true ->
  B2R s0 < B2R s1 -> B2R t0 <= B2R t1 -> is_finite (fdiv (fsub t1 t0) (fsub s1 s0)) = true ->
  0 <= B2R (fdiv (fsub t1 t0) (fsub s1 s0)).
Proof.
  intros F0 F1 G0 G1 Hs Ht F. set (y := fsub s1 s0) in *. set (x := fsub t1 t0) in *.
  destruct (Req_dec (B2R y) 0) as [Z|N].
  - assert (K : forall x y : f64, B2R y = 0 -> is_finite (fdiv x y) = true -> 0 <= B2R (fdiv x y)).
    { clear. intros x y Z F. destruct y as [s|s| |s m e E].
      - destruct x; discriminate F.
      - destruct x as [s'|s'| |s' m' e' E']; try discriminate F; cbn; lra.
      - destruct x; discriminate F.
      - exfalso. cbn in Z. apply eq_0_F2R in Z. destruct s; discriminate Z. }
    apply K; assumption.
  - pose proof (Bdiv_correct 53 1024 prec_ok emax_ok mode_NE x y N) as C. change (Bdiv mode_NE x y) with (fdiv x y) in C.
    destruct (Rlt_bool _ _); [|rewrite <- is_finite_SF_B2SF', C, overflow_infinite in F; discriminate].
    destruct C as (C1 & C2 & _). rewrite C2 in F. rewrite C1. change (0 <= rnd (B2R x / B2R y)). rewrite <- rnd_0. apply rnd_le.
    assert (X0 : 0 <= B2R x) by (unfold x in *; rewrite fsub_finite by assumption; rewrite <- rnd_0; apply rnd_le; lra).
    assert (Y0 : 0 <= B2R y).
    { destruct (is_finite y) eqn:Fy.
      - unfold y in *. rewrite fsub_finite by assumption. rewrite <- rnd_0. apply rnd_le. lra.
      - exfalso. apply N. clearbody y. destruct y; try discriminate Fy; reflexivity. }
    apply Rmult_le_pos; [exact X0|]. apply Rlt_le, Rinv_0_lt_compat. lra.
Qed.
