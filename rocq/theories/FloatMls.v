(** Property C104: the averages of [MLSApproximator] in double precision. *)
From Coq Require Import ZArith List Reals Psatz Lia Lra.
From Flocq Require Import Core BinarySingleNaN Relative.
From Verif Require Import FloatModel FloatProofs FloatDot FloatProps.
Import ListNotations.
Local Open Scope R_scope.

(** ** Model *)

(** approx/mls.py:163, the factors: one divided by the number of neighbours. *)
Definition factor (k : nat) : f64 := fdiv (of_int 1) (of_int (Z.of_nat k)).
(** approx/mls.py:20-22, and 29-32 for each entry of data of higher dimension: the
    neighbours are visited in their order; Numba without [fastmath] neither reorders nor
    fuses. *)
Definition average (vs : list f64) : f64 :=
  fold_left (fun acc v => fadd acc (fmul v (factor (length vs)))) vs (B754_zero false).
(** The entry of the result for a target point with neighbours [nb] and column [j] of the
    data. *)
Definition approximate (values : nat -> nat -> f64) (nb : list nat) (j : nat) : f64 :=
  average (map (fun p => values p j) nb).

(** ** Specification *)
Definition Rmean (l : list R) : R := fold_right Rplus 0 l / INR (length l).

(** ** Proofs *)
Lemma g_bound n : INR n * u <= / 2 -> g n <= 1 + 2 * INR n * u.
Proof.
  pose proof (eq_refl : u = / 9007199254740992) as Hu. assert (U : 0 < u) by (rewrite Hu; lra). clear Hu.
  induction n as [|n IH]; intros H; [unfold g; cbn; lra|]. rewrite g_S. rewrite S_INR in *. pose proof (pos_INR n).
  assert (I : g n <= 1 + 2 * INR n * u) by (apply IH; nra). nra.
Qed.

Definition rsum (f : R) (l : list R) (a : R) : R := fold_left (fun acc v => rnd (acc + rnd (v * f))) l a.
Fixpoint abs_sum (l : list R) : R := match l with [] => 0 | v :: l => Rabs v + abs_sum l end.
Fixpoint sum (l : list R) : R := match l with [] => 0 | v :: l => v + sum l end.
Lemma sum_fold l : fold_right Rplus 0 l = sum l. Proof. induction l; cbn; congruence. Qed.
Lemma abs_sum_fold l : fold_right Rplus 0 (map Rabs l) = abs_sum l. Proof. induction l; cbn; congruence. Qed.
Lemma sum_abs l : Rabs (sum l) <= abs_sum l.
Proof. induction l as [|v l I]; cbn; [rewrite Rabs_R0; lra|]. eapply Rle_trans; [apply Rabs_triang|]. lra. Qed.
Lemma abs_sum_pos l : 0 <= abs_sum l. Proof. pose proof (sum_abs l). pose proof (Rabs_pos (sum l)). lra. Qed.

(** One more term. *)
Lemma one_term f i a s S v : 0 <= f -> Rabs s <= S -> Rabs (a - s) <= (g (i + 1) - 1) * S + 2 * INR i * g (i + 1) * eta ->
  Rabs (rnd (a + rnd (v * f)) - (s + v * f)) <= (g (i + 2) - 1) * (S + Rabs v * f) + 2 * INR (i + 1) * g (i + 2) * eta.
Proof.
  intros Hf Hs Ha. pose proof eta_pos as E. assert (U : 0 < u) by (unfold u; lra). assert (U1 : u < 1) by (unfold u; lra).
  set (x := v * f). assert (X : Rabs x = Rabs v * f) by (unfold x; rewrite Rabs_mult, (Rabs_pos_eq f) by exact Hf; reflexivity).
  rewrite <- X. assert (S0 : 0 <= S) by (pose proof (Rabs_pos s); lra). pose proof (Rabs_pos x) as X0.
  assert (Z : Rabs (a + rnd x - (s + x)) <= (g (i + 1) - 1) * S + 2 * INR i * g (i + 1) * eta + (u * Rabs x + eta)).
  { replace (a + rnd x - (s + x)) with ((a - s) + (rnd x - x)) by ring. eapply Rle_trans; [apply Rabs_triang|]. pose proof (rnd_err x). lra. }
  pose proof (rnd_step _ _ _ Z) as R. eapply Rle_trans; [exact R|]. clear R Z Ha.
  assert (T : Rabs (s + x) <= S + Rabs x) by (eapply Rle_trans; [apply Rabs_triang|]; lra).
  replace (i + 2)%nat with (Datatypes.S (i + 1)) by lia. rewrite g_S.
  rewrite plus_INR. change (INR 1) with 1. pose proof (pos_INR i) as I. set (n := INR i) in *.
  assert (G : 1 + u <= g (i + 1)). { rewrite Nat.add_1_r, g_S. pose proof (g_ge1 i). nra. }
  set (G1 := g (i + 1)) in *. set (T1 := Rabs (s + x)) in *. set (X1 := Rabs x) in *. clearbody G1 n T1 X1.
  assert (A : 0 <= X1 * ((1 + u) * (G1 - (1 + u)))) by (apply Rmult_le_pos; [exact X0|apply Rmult_le_pos; lra]).
  assert (B : 0 <= eta * (2 * ((1 + u) * (G1 - 1)) + u)).
  { apply Rmult_le_pos; [lra|]. assert (0 <= (1 + u) * (G1 - 1)) by (apply Rmult_le_pos; lra). lra. }
  assert (C : u * T1 <= u * (S + X1)) by (apply Rmult_le_compat_l; lra).
  apply Rle_trans with ((1 + u) * ((G1 - 1) * S + 2 * n * G1 * eta + (u * X1 + eta)) + u * (S + X1) + eta); [lra|].
  apply Rminus_le. match goal with |- ?l <= 0 => replace l with (- (X1 * ((1 + u) * (G1 - (1 + u)))) - eta * (2 * ((1 + u) * (G1 - 1)) + u)) by ring end. lra.
Qed.

Lemma rsum_err f l : 0 <= f ->
  Rabs (rsum f l 0 - sum l * f) <= (g (length l + 1) - 1) * (abs_sum l * f) + 2 * INR (length l) * g (length l + 1) * eta.
Proof.
  intros Hf. assert (G : forall l i a s S, Rabs s <= S -> Rabs (a - s) <= (g (i + 1) - 1) * S + 2 * INR i * g (i + 1) * eta ->
    Rabs (rsum f l a - (s + sum l * f)) <= (g (i + length l + 1) - 1) * (S + abs_sum l * f) + 2 * INR (i + length l) * g (i + length l + 1) * eta).
  { clear l. induction l as [|v l IH]; intros i a s S Hs Ha; cbn [rsum fold_left sum abs_sum length].
    - rewrite Nat.add_0_r, !Rmult_0_l, !Rplus_0_r. exact Ha.
    - specialize (IH (i + 1)%nat (rnd (a + rnd (v * f))) (s + v * f) (S + Rabs v * f)).
      replace (i + Datatypes.S (length l))%nat with (i + 1 + length l)%nat by lia.
      replace (s + (v + sum l) * f) with (s + v * f + sum l * f) by ring. replace (S + (Rabs v + abs_sum l) * f) with (S + Rabs v * f + abs_sum l * f) by ring.
      apply IH.
      + eapply Rle_trans; [apply Rabs_triang|]. rewrite Rabs_mult, (Rabs_pos_eq f) by exact Hf. lra.
      + replace (i + 1 + 1)%nat with (i + 2)%nat by lia. apply one_term; assumption. }
  specialize (G l 0%nat 0 0 0). rewrite !Rplus_0_l in G. cbn [Nat.add] in G. apply G.
  - rewrite Rabs_R0. lra.
  - rewrite Rminus_0_r, Rabs_R0. cbn [INR]. lra.
Qed.

Lemma rsum_mono f l : 0 <= f -> forall l' a a', Forall2 Rle l l' -> a <= a' -> rsum f l a <= rsum f l' a'.
Proof.
  intros Hf. induction l as [|v l IH]; intros l' a a' H Ha; inversion H; subst; [exact Ha|]. cbn. apply IH; [assumption|].
  apply rnd_le, Rplus_le_compat; [exact Ha|]. apply rnd_le, Rmult_le_compat_r; assumption.
Qed.

(** The factor. *)
Lemma factor_ok k : (1 <= k)%nat -> (Z.of_nat k < 2 ^ 53)%Z -> is_finite (factor k) = true /\ B2R (factor k) = rnd (/ INR k) /\ 0 <= rnd (/ INR k) <= 1 /\ Rabs (rnd (/ INR k) - / INR k) <= u * / INR k.
Proof.
  intros K L. destruct (of_int_ok 1) as [E1 F1]; [lia|]. destruct (of_int_ok (Z.of_nat k)) as [E2 F2]; [lia|].
  rewrite <- INR_IZR_INZ in E2. assert (K1 : 1 <= INR k) by (apply (le_INR 1), K).
  assert (I0 : 0 < / INR k) by (apply Rinv_0_lt_compat; lra). assert (I1 : / INR k <= 1) by (rewrite <- Rinv_1; apply Rinv_le_contravar; lra).
  destruct (fdiv_ok (of_int 1) (of_int (Z.of_nat k)) 0) as [E F]; [lia|exact F1|rewrite E2; lra| |].
  { rewrite E1, E2. unfold Rdiv. rewrite Rmult_1_l, Rabs_pos_eq by lra. exact I1. }
  rewrite E1, E2 in E. unfold Rdiv in E. rewrite Rmult_1_l in E. repeat split.
  - exact F.
  - exact E.
  - rewrite <- rnd_0. apply rnd_le. lra.
  - pose proof (rnd_bound (/ INR k) 0 ltac:(lia)) as B. rewrite (Rabs_pos_eq (/ INR k)) in B by lra.
    eapply Rle_trans; [apply Rle_abs|]. exact (B I1).
  - pose proof (relative_error_N_FLT radix2 (-1074) 53 eq_refl (fun z => negb (Z.even z)) (/ INR k)) as R.
    rewrite (Rabs_pos_eq (/ INR k)) in R by lra. replace u with (/ 2 * bpow radix2 (- (53) + 1)) by (unfold u; cbn; lra). apply R.
    apply Rle_trans with (bpow radix2 (-53)); [apply bpow_le; lia|]. change (-53)%Z with (- (53))%Z. rewrite (bpow_opp radix2 53). apply Rinv_le_contravar; [lra|].
    rewrite INR_IZR_INZ. change (bpow radix2 53) with (IZR (2 ^ 53)). apply IZR_le. lia.
Qed.

(** Sizes. *)
Lemma abs_sum_bound l M : (forall v, In v l -> Rabs v <= M) -> abs_sum l <= INR (length l) * M.
Proof.
  induction l as [|v l IH]; intros H; [cbn; lra|]. cbn [abs_sum length]. rewrite S_INR. pose proof (H v (or_introl eq_refl)).
  assert (abs_sum l <= INR (length l) * M) by (apply IH; intros w Hw; apply H; right; exact Hw). lra.
Qed.
Lemma u_n n : (Z.of_nat n <= 2 ^ 51)%Z -> INR n * u <= / 4.
Proof. intros H. rewrite INR_IZR_INZ. apply IZR_le in H. change (IZR (2 ^ 51)) with 2251799813685248 in H. unfold u. lra. Qed.

Lemma rsum_size l k : (1 <= k)%nat -> (length l <= k)%nat -> (Z.of_nat k < 2 ^ 50)%Z -> (forall v, In v l -> Rabs v <= bpow radix2 1000) ->
  Rabs (rsum (rnd (/ INR k)) l 0) <= bpow radix2 1002.
Proof.
  intros K L Lk H. destruct (factor_ok k K) as (_ & _ & [F0 F1] & FE); [lia|]. set (f := rnd (/ INR k)) in *.
  pose proof (rsum_err f l F0) as E. pose proof (sum_abs l) as A. pose proof (abs_sum_bound l _ H) as B. pose proof (abs_sum_pos l) as P.
  assert (G : g (length l + 1) <= 3 / 2). { pose proof (u_n (length l + 1) ltac:(lia)). pose proof (g_bound (length l + 1) ltac:(lra)). lra. }
  assert (K1 : 1 <= INR k) by (apply (le_INR 1), K). assert (LK : INR (length l) <= INR k) by (apply le_INR, L).
  assert (Lk' : INR k <= 1125899906842624). { rewrite INR_IZR_INZ. apply (IZR_le (Z.of_nat k) 1125899906842624). lia. }
  pose proof (pos_INR (length l)) as P'. set (M := bpow radix2 1000) in *. assert (M0 : 0 < M) by apply bpow_gt_0.
  assert (U : 0 < u) by (unfold u; lra). assert (U1 : u <= / 8) by (unfold u; lra).
  assert (IK : 0 < / INR k) by (apply Rinv_0_lt_compat; lra).
  assert (FK : f * INR k <= 9 / 8).
  { apply Rle_trans with ((1 + u) * / INR k * INR k); [|rewrite Rmult_assoc, Rinv_l by lra; lra].
    apply Rmult_le_compat_r; [lra|]. apply Rabs_le_inv in FE. lra. }
  assert (S : abs_sum l * f <= 9 / 8 * M). { apply Rle_trans with (INR k * M * f); [apply Rmult_le_compat_r; [exact F0|]; apply Rle_trans with (INR (length l) * M); [exact B|apply Rmult_le_compat_r; lra]|]. nra. }
  assert (T : eta <= / 9007199254740992 * M). { unfold eta, M. replace (-1074)%Z with (1000 + -2074)%Z by reflexivity. rewrite bpow_plus.
    apply Rle_trans with (bpow radix2 1000 * bpow radix2 (-53)); [|cbn -[bpow]; change (bpow radix2 (-53)) with (/ 9007199254740992); lra].
    pose proof (bpow_gt_0 radix2 (-2074)). assert (bpow radix2 (-2074) <= bpow radix2 (-53)) by (apply bpow_le; lia). fold M. nra. }
  pose proof eta_pos as T0.
  assert (Q : 2 * INR (length l) * g (length l + 1) * eta <= M).
  { apply Rle_trans with (2 * 1125899906842624 * (3 / 2) * (/ 9007199254740992 * M)); [|lra].
    apply Rmult_le_compat; [apply Rmult_le_pos; [lra|pose proof (g_ge1 (length l + 1)); lra]|lra| |exact T].
    apply Rmult_le_compat; [lra|pose proof (g_ge1 (length l + 1)); lra|lra|exact G]. }
  assert (SF : 0 <= abs_sum l * f) by (apply Rmult_le_pos; assumption).
  assert (W : (g (length l + 1) - 1) * (abs_sum l * f) <= / 2 * (9 / 8 * M)) by (apply Rmult_le_compat; try lra; pose proof (g_ge1 (length l + 1)); lra).
  assert (V : Rabs (sum l * f) <= 9 / 8 * M). { rewrite Rabs_mult, (Rabs_pos_eq f) by exact F0. eapply Rle_trans; [apply Rmult_le_compat_r; [exact F0|exact A]|exact S]. }
  replace (bpow radix2 1002) with (4 * M) by (symmetry; exact (bpow_plus radix2 2 1000)).
  replace (rsum f l 0) with ((rsum f l 0 - sum l * f) + sum l * f) by ring. eapply Rle_trans; [apply Rabs_triang|]. lra.
Qed.

(** The floating point sum is the sum with roundings. *)
Lemma average_rsum vs : (1 <= length vs)%nat -> (Z.of_nat (length vs) < 2 ^ 50)%Z -> Forall ordinary vs ->
  is_finite (average vs) = true /\ B2R (average vs) = rsum (rnd (/ INR (length vs))) (map B2R vs) 0.
Proof.
  intros K L O. unfold average. set (k := length vs) in *. destruct (factor_ok k K) as (Ff & Ef & [F0 F1] & _); [lia|].
  assert (G : forall t l, vs = l ++ t -> is_finite (fold_left (fun acc v => fadd acc (fmul v (factor k))) l (B754_zero false)) = true /\ B2R (fold_left (fun acc v => fadd acc (fmul v (factor k))) l (B754_zero false)) = rsum (rnd (/ INR k)) (map B2R l) 0).
  2:{ apply (G [] vs). rewrite app_nil_r. reflexivity. }
  intros t l. revert t. induction l as [|v l IH] using rev_ind; intros t E; [split; reflexivity|].
  assert (E' : vs = l ++ (v :: t)) by (rewrite E, <- app_assoc; reflexivity). specialize (IH _ E'). destruct IH as [IF IE].
  rewrite fold_left_app, map_app. unfold rsum. rewrite fold_left_app. cbn [fold_left map]. fold (rsum (rnd (/ INR k)) (map B2R l) 0).
  set (acc := fold_left _ l _) in *.
  assert (Ov : forall w, In w vs -> is_finite w = true /\ Rabs (B2R w) <= bpow radix2 1000) by (intros w Hw; exact (proj1 (Forall_forall _ _) O w Hw)).
  destruct (Ov v) as [Fv Bv]; [rewrite E'; apply in_or_app; right; left; reflexivity|].
  destruct (fmul_ok v (factor k) 1000) as [Em Fm]; [lia|exact Fv|exact Ff| |].
  { rewrite Rabs_mult, Ef, (Rabs_pos_eq (rnd _)) by exact F0. pose proof (Rabs_pos (B2R v)). nra. }
  assert (Bm : Rabs (B2R (fmul v (factor k))) <= bpow radix2 1000).
  { rewrite Em. apply rnd_bound; [lia|]. rewrite Rabs_mult, Ef, (Rabs_pos_eq (rnd _)) by exact F0. pose proof (Rabs_pos (B2R v)). nra. }
  assert (Ba : Rabs (B2R acc) <= bpow radix2 1002).
  { rewrite IE. apply rsum_size; [exact K| |exact L|].
    - rewrite map_length. unfold k. rewrite E', app_length. apply Nat.le_add_r.
    - intros x Hx. apply in_map_iff in Hx. destruct Hx as (w & <- & Hw). apply Ov. rewrite E'. apply in_or_app. left. exact Hw. }
  destruct (fadd_ok acc (fmul v (factor k)) 1003) as [Ea Fa]; [lia|exact IF|exact Fm| |].
  { eapply Rle_trans; [apply Rabs_triang|]. replace (bpow radix2 1003) with (2 * bpow radix2 1002) by (symmetry; exact (bpow_plus radix2 1 1002)).
    assert (bpow radix2 1000 <= bpow radix2 1002) by (apply bpow_le; lia). lra. }
  split; [exact Fa|]. rewrite Ea, Em, IE, Ef. reflexivity.
Qed.

(** Rounding numbers between 2^52 and 2^53, scaled. *)
Lemma rnd_scaled y e : (-1074 <= e)%Z -> 4503599627370496 <= Rabs y < 9007199254740992 -> rnd (y * bpow radix2 e) = IZR (ZnearestE y) * bpow radix2 e.
Proof.
  intros He [Y1 Y2]. assert (B : 0 < bpow radix2 e) by apply bpow_gt_0.
  assert (M : mag radix2 (y * bpow radix2 e) = (e + 53)%Z :> Z).
  { apply mag_unique. rewrite Rabs_mult, (Rabs_pos_eq (bpow radix2 e)) by lra. split.
    - replace (e + 53 - 1)%Z with (52 + e)%Z by lia. rewrite bpow_plus. change (bpow radix2 52) with 4503599627370496. apply Rmult_le_compat_r; lra.
    - rewrite Z.add_comm, bpow_plus. change (bpow radix2 53) with 9007199254740992. apply Rmult_lt_compat_r; lra. }
  assert (C : cexp radix2 (FLT_exp (-1074) 53) (y * bpow radix2 e) = e). { unfold cexp, FLT_exp. rewrite M. lia. }
  unfold rnd, round, F2R, scaled_mantissa. rewrite C. cbn [Fnum Fexp]. rewrite Rmult_assoc, <- bpow_plus, Z.add_opp_diag_r, Rmult_1_r. reflexivity.
Qed.
Lemma rnd_exact m e : (-1074 <= e)%Z -> (Z.abs m < 2 ^ 53)%Z -> rnd (IZR m * bpow radix2 e) = IZR m * bpow radix2 e.
Proof.
  intros He Hm. apply round_generic; [auto with typeclass_instances|]. apply generic_format_FLT. exists (Float radix2 m e); [reflexivity|exact Hm|exact He].
Qed.
Lemma mantissa (c : f64) : is_finite c = true -> bpow radix2 (-1000) <= Rabs (B2R c) ->
  exists m e, B2R c = IZR m * bpow radix2 e /\ (2 ^ 52 <= Z.abs m < 2 ^ 53)%Z /\ (-1070 <= e)%Z.
Proof.
  intros Fc Hc. set (x := B2R c) in *. assert (X : x <> 0). { intros E. rewrite E, Rabs_R0 in Hc. pose proof (bpow_gt_0 radix2 (-1000)). lra. }
  assert (G : generic_format radix2 (FLT_exp (-1074) 53) x) by apply (generic_format_B2R 53 1024 c).
  destruct (mag radix2 x) as [k Hk0] eqn:Em. pose proof (Hk0 X) as Hk.
  assert (K : (-1000 < k)%Z). { apply (lt_bpow radix2). apply Rle_lt_trans with (1 := Hc). apply Hk. }
  assert (C : cexp radix2 (FLT_exp (-1074) 53) x = (k - 53)%Z). { unfold cexp, FLT_exp. rewrite Em. cbn. lia. }
  exists (Ztrunc (scaled_mantissa radix2 (FLT_exp (-1074) 53) x)), (k - 53)%Z.
  assert (E : x = IZR (Ztrunc (scaled_mantissa radix2 (FLT_exp (-1074) 53) x)) * bpow radix2 (k - 53)).
  { unfold generic_format in G. rewrite C in G. exact G. }
  split; [exact E|]. split; [|lia]. set (m := Ztrunc _) in *. rewrite E in Hk. rewrite Rabs_mult, (Rabs_pos_eq (bpow radix2 (k - 53))), <- abs_IZR in Hk by apply bpow_ge_0.
  assert (B : 0 < bpow radix2 (k - 53)) by apply bpow_gt_0.
  replace (k - 1)%Z with (52 + (k - 53))%Z in Hk by lia. replace k with (53 + (k - 53))%Z in Hk at 4 by lia. rewrite !bpow_plus in Hk.
  destruct Hk as [H1 H2]. apply Rmult_le_reg_r in H1; [|exact B]. apply Rmult_lt_reg_r in H2; [|exact B].
  split; [apply le_IZR|apply lt_IZR]; assumption.
Qed.

(** Rounding to integers. *)
Lemma near_half z : ZnearestE (IZR z + / 2) = if Z.even z then z else (z + 1)%Z.
Proof.
  unfold Znearest. assert (Fl : Zfloor (IZR z + / 2) = z) by (apply Zfloor_imp; rewrite plus_IZR; lra).
  rewrite Fl. replace (IZR z + / 2 - IZR z) with (/ 2) by ring. rewrite Rcompare_Eq by reflexivity.
  assert (Ce : Zceil (IZR z + / 2) = (z + 1)%Z) by (apply Zceil_imp; rewrite minus_IZR, plus_IZR; lra). rewrite Ce.
  destruct (Z.even z); reflexivity.
Qed.
Lemma near z x : Rabs (x - IZR z) < / 2 -> ZnearestE x = z.
Proof. apply Znearest_imp. Qed.

(** c/2 + c/4, rounded, + c/4, rounded, is c. *)
Lemma three_quarters m e : (-1070 <= e)%Z -> (2 ^ 52 <= Z.abs m < 2 ^ 53)%Z ->
  rnd (rnd (IZR m / 2 * bpow radix2 e + IZR m / 4 * bpow radix2 e) + IZR m / 4 * bpow radix2 e) = IZR m * bpow radix2 e.
Proof.
  intros He Hm. assert (HmR : 4503599627370496 <= Rabs (IZR m) <= 9007199254740991).
  { rewrite <- abs_IZR. split; apply IZR_le; lia. }
  assert (B : 0 < bpow radix2 e) by apply bpow_gt_0. set (b := bpow radix2 e) in *.
  replace (IZR m / 2 * b + IZR m / 4 * b) with (3 * IZR m / 4 * b) by field.
  destruct (Rle_lt_dec 4503599627370496 (Rabs (3 * IZR m / 4))) as [A|A].
  - (* the same binade *)
    assert (A' : 6004799503160661 <= Rabs (IZR m)). { replace (3 * IZR m / 4) with (3 / 4 * IZR m) in A by field. rewrite Rabs_mult, (Rabs_pos_eq (3 / 4)) in A by lra. lra. }
    unfold b at 1. rewrite (rnd_scaled (3 * IZR m / 4) e); [|lia|]. 2:{ split; [exact A|]. replace (3 * IZR m / 4) with (3 / 4 * IZR m) by field. rewrite Rabs_mult, (Rabs_pos_eq (3 / 4)) by lra. lra. }
    fold b. replace (IZR (ZnearestE (3 * IZR m / 4)) * b + IZR m / 4 * b) with ((IZR (ZnearestE (3 * IZR m / 4)) + IZR m / 4) * b) by ring.
    assert (N : exists d, IZR (ZnearestE (3 * IZR m / 4)) + IZR m / 4 = IZR m + d /\ Rabs d <= / 2 /\ ZnearestE (IZR m + d) = m).
    { assert (D : (m = 4 * (m / 4) + m mod 4)%Z) by (apply Z.div_mod; lia). pose proof (Z.mod_pos_bound m 4 ltac:(lia)) as Hr.
      set (q := (m / 4)%Z) in *. set (r := (m mod 4)%Z) in *. clearbody q r. 
      assert (DR : IZR m = 4 * IZR q + IZR r) by (rewrite D, plus_IZR, mult_IZR; reflexivity).
      assert (R4 : (r = 0 \/ r = 1 \/ r = 2 \/ r = 3)%Z) by lia. destruct R4 as [->|[->|[->| ->]]].
      - exists 0. rewrite (near (3 * q)); [|rewrite mult_IZR; replace (_ - _) with 0 by lra; rewrite Rabs_R0; lra].
        rewrite mult_IZR. split; [lra|]. rewrite Rabs_R0. split; [lra|]. apply near. replace (_ - _) with 0 by lra. rewrite Rabs_R0. lra.
      - exists (/ 4). rewrite (near (3 * q + 1)); [|rewrite plus_IZR, mult_IZR; replace (_ - _) with (- / 4) by lra; rewrite Rabs_Ropp, Rabs_pos_eq; lra].
        rewrite plus_IZR, mult_IZR. split; [lra|]. rewrite Rabs_pos_eq by lra. split; [lra|]. apply near. replace (_ - _) with (/ 4) by lra. rewrite Rabs_pos_eq; lra.
      - assert (E : 3 * IZR m / 4 = IZR (3 * q + 1) + / 2) by (rewrite plus_IZR, mult_IZR; lra). rewrite E, near_half.
        assert (Ev : Z.even (3 * q + 1) = negb (Z.even q)). { rewrite Z.even_add, Z.even_mul. cbn. destruct (Z.even q); reflexivity. }
        rewrite Ev. destruct (Z.even q); cbn [negb].
        + exists (/ 2). rewrite !plus_IZR, mult_IZR. split; [lra|]. rewrite Rabs_pos_eq by lra. split; [lra|]. rewrite near_half.
          rewrite D, Z.even_add, Z.even_mul. reflexivity.
        + exists (- / 2). rewrite plus_IZR, mult_IZR. split; [lra|]. rewrite Rabs_Ropp, Rabs_pos_eq by lra. split; [lra|].
          replace (IZR m + - / 2) with (IZR (m - 1) + / 2) by (rewrite minus_IZR; lra). rewrite near_half.
          rewrite D. replace (4 * q + 2 - 1)%Z with (4 * q + 1)%Z by lia. rewrite Z.even_add, Z.even_mul. cbn. lia.
      - exists (- / 4). rewrite (near (3 * q + 2)); [|rewrite plus_IZR, mult_IZR; replace (_ - _) with (/ 4) by lra; rewrite Rabs_pos_eq; lra].
        rewrite plus_IZR, mult_IZR. split; [lra|]. rewrite Rabs_Ropp, Rabs_pos_eq by lra. split; [lra|]. apply near. replace (_ - _) with (- / 4) by lra. rewrite Rabs_Ropp, Rabs_pos_eq; lra. }
    destruct N as (d & Ed & Hd & Nd). rewrite Ed. unfold b. rewrite rnd_scaled, Nd; [reflexivity|lia|].
    pose proof (Rabs_triang (IZR m) d). pose proof (Rabs_triang_inv (IZR m) (- d)) as T. rewrite Rabs_Ropp in T. replace (IZR m - - d) with (IZR m + d) in T by ring. lra.
  - (* the binade below *)
    replace (3 * IZR m / 4 * b) with (3 * IZR m / 2 * bpow radix2 (e - 1)).
    2:{ unfold b. replace e with (e - 1 + 1)%Z at 2 by lia. rewrite bpow_plus. change (bpow radix2 1) with 2. field. }
    assert (Hb : b = 2 * bpow radix2 (e - 1)). { unfold b. replace e with (e - 1 + 1)%Z at 1 by lia. rewrite bpow_plus. change (bpow radix2 1) with 2. ring. }
    rewrite rnd_scaled; [|lia|].
    2:{ replace (3 * IZR m / 4) with (/ 2 * (3 * IZR m / 2)) in A by field. rewrite Rabs_mult, (Rabs_pos_eq (/ 2)) in A by lra. split; [|lra].
        replace (3 * IZR m / 2) with (3 / 2 * IZR m) by field. rewrite Rabs_mult, (Rabs_pos_eq (3 / 2)) by lra. lra. }
    assert (D : (m = 2 * (m / 2) + m mod 2)%Z) by (apply Z.div_mod; lia). pose proof (Z.mod_pos_bound m 2 ltac:(lia)) as Hr.
    set (q := (m / 2)%Z) in *. set (r := (m mod 2)%Z) in *. clearbody q r.
    assert (DR : IZR m = 2 * IZR q + IZR r) by (rewrite D, plus_IZR, mult_IZR; reflexivity).
    assert (R2 : (r = 0 \/ r = 1)%Z) by lia. destruct R2 as [->| ->].
    + rewrite (near (3 * q)); [|rewrite mult_IZR; replace (_ - _) with 0 by lra; rewrite Rabs_R0; lra].
      replace (IZR (3 * q) * bpow radix2 (e - 1) + IZR m / 4 * b) with (IZR m * b) by (rewrite mult_IZR, Hb, DR; field).
      apply rnd_exact; lia.
    + assert (M1 : 4503599627370497 <= Rabs (IZR m)). { rewrite <- abs_IZR. apply IZR_le. lia. }
      assert (E : 3 * IZR m / 2 = IZR (3 * q + 1) + / 2) by (rewrite plus_IZR, mult_IZR; lra). rewrite E, near_half.
      assert (N : exists d, IZR (if Z.even (3 * q + 1) then 3 * q + 1 else 3 * q + 1 + 1) * bpow radix2 (e - 1) + IZR m / 4 * b = (IZR m + d) * b /\ Rabs d <= / 4).
      { destruct (Z.even (3 * q + 1)); [exists (- / 4)|exists (/ 4)]; rewrite ?plus_IZR, ?mult_IZR, Hb; (split; [rewrite DR; field|]); rewrite ?Rabs_Ropp, Rabs_pos_eq; lra. }
      destruct N as (d & -> & Hd). unfold b. rewrite rnd_scaled; [|lia|].
      * rewrite (near m); [reflexivity|]. replace (IZR m + d - IZR m) with d by ring. lra.
      * pose proof (Rabs_triang (IZR m) d). pose proof (Rabs_triang_inv (IZR m) (- d)) as T. rewrite Rabs_Ropp in T. replace (IZR m - - d) with (IZR m + d) in T by ring. lra.
Qed.

Lemma constant_exact (c : f64) k : k = 1%nat \/ k = 2%nat \/ k = 4%nat -> is_finite c = true -> B2R c = 0 \/ bpow radix2 (-1000) <= Rabs (B2R c) ->
  rsum (rnd (/ INR k)) (repeat (B2R c) k) 0 = B2R c.
Proof.
  intros K Fc Hc.
  assert (P : exists m e, B2R c = IZR m * bpow radix2 e /\ (m = 0 \/ 2 ^ 52 <= Z.abs m < 2 ^ 53)%Z /\ (-1070 <= e)%Z).
  { destruct Hc as [Hc|Hc].
    - exists 0%Z, 0%Z. rewrite Hc, Rmult_0_l. split; [reflexivity|lia].
    - destruct (mantissa c Fc Hc) as (m & e & H & H' & H''). exists m, e. auto. }
  destruct P as (m & e & -> & Hm & He).
  assert (Q1 : forall j, (0 <= j <= 2)%Z -> rnd (IZR m * bpow radix2 (e - j)) = IZR m * bpow radix2 (e - j)) by (intros j Hj; apply rnd_exact; lia).
  assert (H1 : bpow radix2 (e - 1) = / 2 * bpow radix2 e). { unfold Z.sub. rewrite bpow_plus. change (bpow radix2 (-(1))) with (/ 2). ring. }
  assert (H2 : bpow radix2 (e - 2) = / 4 * bpow radix2 e). { unfold Z.sub. rewrite bpow_plus. change (bpow radix2 (-(2))) with (/ 4). ring. }
  pose proof (Q1 0%Z ltac:(lia)) as E0. pose proof (Q1 1%Z ltac:(lia)) as E1. pose proof (Q1 2%Z ltac:(lia)) as E2.
  rewrite Z.sub_0_r in E0. rewrite H1 in E1. rewrite H2 in E2. set (b := bpow radix2 e) in *.
  assert (I : forall j, (-3 <= j <= 0)%Z -> rnd (bpow radix2 j) = bpow radix2 j).
  { intros j Hj. rewrite <- (Rmult_1_l (bpow radix2 j)). apply (rnd_exact 1 j); lia. }
  destruct K as [->|[->| ->]]; cbn [repeat rsum fold_left].
  - replace (rnd (/ INR 1)) with 1 by (cbn [INR]; rewrite Rinv_1; symmetry; apply (I 0%Z); lia). rewrite Rmult_1_r, E0, Rplus_0_l. exact E0.
  - replace (rnd (/ INR 2)) with (/ 2) by (replace (INR 2) with 2 by (cbn; lra); symmetry; apply (I (-1)%Z); lia).
    replace (IZR m * b * / 2) with (IZR m * (/ 2 * b)) by ring. rewrite E1, Rplus_0_l, E1.
    replace (IZR m * (/ 2 * b) + IZR m * (/ 2 * b)) with (IZR m * b) by field. exact E0.
  - replace (rnd (/ INR 4)) with (/ 4) by (replace (INR 4) with 4 by (cbn; lra); symmetry; apply (I (-2)%Z); lia).
    replace (IZR m * b * / 4) with (IZR m * (/ 4 * b)) by ring. rewrite E2, Rplus_0_l, E2.
    replace (IZR m * (/ 4 * b) + IZR m * (/ 4 * b)) with (IZR m * (/ 2 * b)) by field. rewrite E1.
    destruct Hm as [->|Hm].
    + rewrite !Rmult_0_l, !Rplus_0_l, !rnd_0, !Rplus_0_l, rnd_0. reflexivity.
    + replace (IZR m * (/ 2 * b)) with (IZR m / 2 * b) by field. replace (IZR m * (/ 4 * b)) with (IZR m / 4 * b) by field.
      apply three_quarters; assumption.
Qed.

Lemma average_error : forall vs, (1 <= length vs)%nat -> (Z.of_nat (length vs) < 2 ^ 50)%Z -> Forall ordinary vs ->
  is_finite (average vs) = true /\
  Rabs (B2R (average vs) - Rmean (map B2R vs)) <=
    INR (length vs + 2) * bpow radix2 (-52) * Rmean (map (fun v => Rabs (B2R v)) vs) + INR (length vs) * bpow radix2 (-1073).
Proof.
  intros vs K L O. destruct (average_rsum vs K L O) as [Fa Ea]. split; [exact Fa|]. rewrite Ea. clear Fa Ea O.
  unfold Rmean. rewrite <- (map_map B2R Rabs), abs_sum_fold, sum_fold, !map_length.
  set (l := map B2R vs). set (k := length vs) in *. change (@length (binary_float 53 1024) vs) with k. assert (Ll : length l = k) by apply map_length.
  destruct (factor_ok k K) as (_ & _ & [F0 F1] & FE); [lia|]. set (f := rnd (/ INR k)) in *.
  pose proof (rsum_err f l F0) as E. rewrite Ll in E. pose proof (sum_abs l) as A. pose proof (abs_sum_pos l) as P.
  assert (K1 : 1 <= INR k) by (apply (le_INR 1), K). assert (IK : 0 < / INR k) by (apply Rinv_0_lt_compat; lra).
  pose proof (u_n (k + 2) ltac:(lia)) as U2. pose proof (g_bound (k + 2) ltac:(lra)) as G2. replace (k + 2)%nat with (S (k + 1)) in G2 at 1 by lia. rewrite g_S in G2.
  pose proof (g_ge1 (k + 1)) as G1. assert (U : 0 < u) by (unfold u; lra). pose proof eta_pos as T0.
  unfold Rdiv. set (i := / INR k) in *. set (S1 := abs_sum l) in *. set (G := g (k + 1)) in *.
  assert (Fi : f <= (1 + u) * i) by (apply Rabs_le_inv in FE; lra).
  assert (D : Rabs (sum l * f - sum l * i) <= S1 * (u * i)).
  { rewrite <- Rmult_minus_distr_l, Rabs_mult. apply Rmult_le_compat; [apply Rabs_pos|apply Rabs_pos|exact A|exact FE]. }
  assert (E1 : (G - 1) * (S1 * f) <= (G - 1) * (S1 * ((1 + u) * i))) by (apply Rmult_le_compat_l; [lra|apply Rmult_le_compat_l; assumption]).
  assert (E2 : 2 * INR k * G * eta <= INR k * (4 * eta)).
  { assert (G <= 2) by nra. assert (0 <= INR k * eta) by (apply Rmult_le_pos; lra). nra. }
  replace (bpow radix2 (-1073)) with (4 * eta) by (unfold eta; change (-1073)%Z with (1 + -1074)%Z; rewrite bpow_plus; change (bpow radix2 1) with 2; field).
  replace (bpow radix2 (-52)) with (2 * u) by (unfold u; cbn; lra).
  replace (rsum f l 0 - sum l * i) with ((rsum f l 0 - sum l * f) + (sum l * f - sum l * i)) by ring.
  eapply Rle_trans; [apply Rabs_triang|].
  assert (Si : 0 <= S1 * i) by (apply Rmult_le_pos; lra).
  assert (E3 : ((1 + u) * G - 1) * (S1 * i) <= 2 * INR (k + 2) * u * (S1 * i)) by (apply Rmult_le_compat_r; lra).
  lra.
Qed.

Lemma average_monotone : forall vs ws, length vs = length ws -> (1 <= length vs)%nat -> (Z.of_nat (length vs) < 2 ^ 50)%Z -> Forall ordinary vs -> Forall ordinary ws ->
  Forall2 (fun v w : f64 => B2R v <= B2R w) vs ws -> B2R (average vs) <= B2R (average ws).
Proof.
  intros vs ws E K L Ov Ow H. destruct (average_rsum vs K L Ov) as [_ ->]. rewrite E in K, L. destruct (average_rsum ws K L Ow) as [_ ->].
  rewrite E. apply rsum_mono.
  - apply (factor_ok _ K). lia.
  - clear -H. induction H; cbn; constructor; assumption.
  - lra.
Qed.

Lemma average_exact : forall k, k = 1%nat \/ k = 2%nat \/ k = 4%nat ->
  let plain (c : f64) := ordinary c /\ (B2R c = 0 \/ bpow radix2 (-1000) <= Rabs (B2R c)) in
  (forall c, plain c -> B2R (average (repeat c k)) = B2R c) /\
  (forall vs lo hi, length vs = k -> Forall ordinary vs -> plain lo -> plain hi -> (forall v, In v vs -> B2R lo <= B2R v <= B2R hi) ->
     B2R lo <= B2R (average vs) <= B2R hi).
Proof.
  intros k K plain. assert (K1 : (1 <= k)%nat) by lia. assert (K2 : (Z.of_nat k < 2 ^ 50)%Z) by lia.
  assert (C : forall c, plain c -> B2R (average (repeat c k)) = B2R c).
  { intros c [O Hc]. destruct (average_rsum (repeat c k)) as [_ ->]; rewrite ?repeat_length; try assumption.
    - apply Forall_forall. intros x Hx. apply repeat_spec in Hx. subst x. exact O.
    - assert (E : map B2R (repeat c k) = repeat (B2R c) k) by (clear; induction k; cbn; congruence). rewrite E. apply constant_exact; [exact K|apply O|exact Hc]. }
  split; [exact C|]. intros vs lo hi Lv Ov Pl Ph H.
  assert (R : forall c, ordinary c -> Forall ordinary (repeat c k)) by (intros c O; apply Forall_forall; intros x Hx; apply repeat_spec in Hx; subst x; exact O).
  split; [rewrite <- (C lo Pl)|rewrite <- (C hi Ph)].
  - apply average_monotone; rewrite ?repeat_length; try (symmetry; exact Lv); try assumption; [apply R, Pl|].
    subst k. clear -H. induction vs as [|v vs IH]; cbn; constructor; [apply (H v); left; reflexivity|]. apply IH. intros w Hw. apply H. right. exact Hw.
  - apply average_monotone; rewrite ?repeat_length; rewrite ?Lv; try reflexivity; try assumption; [apply R, Ph|].
    subst k. clear -H. induction vs as [|v vs IH]; cbn; constructor; [apply (H v); left; reflexivity|]. apply IH. intros w Hw. apply H. right. exact Hw.
Qed.

(** ** C104 *)

(** The value at a target point with neighbours [nb] is finite and close to the mean of the
    data there: the relative error is at most (k + 2) 2^-52, with respect to the mean of
    the absolute values. *)
Theorem C104_error : forall (values : nat -> nat -> f64) nb j, (1 <= length nb)%nat -> (Z.of_nat (length nb) < 2 ^ 50)%Z ->
  (forall p, In p nb -> ordinary (values p j)) ->
  is_finite (approximate values nb j) = true /\
  Rabs (B2R (approximate values nb j) - Rmean (map (fun p => B2R (values p j)) nb)) <=
    INR (length nb + 2) * bpow radix2 (-52) * Rmean (map (fun p => Rabs (B2R (values p j))) nb) + INR (length nb) * bpow radix2 (-1073).
Proof.
  intros values nb j K L O. unfold approximate. set (vs := map (fun p => values p j) nb).
  assert (E : length vs = length nb) by apply map_length. rewrite <- E in *.
  replace (map (fun p => B2R (values p j)) nb) with (map B2R vs) by (unfold vs; rewrite map_map; reflexivity).
  replace (map (fun p => Rabs (B2R (values p j))) nb) with (map (fun v : f64 => Rabs (B2R v)) vs) by (unfold vs; rewrite map_map; reflexivity).
  apply average_error; [exact K|exact L|]. apply Forall_forall. intros v Hv. apply in_map_iff in Hv. destruct Hv as (p & <- & Hp). apply O, Hp.
Qed.
Print Assumptions C104_error.

(** Where the data are greater, the value is greater, exactly. *)
Theorem C104_monotone : forall (values values' : nat -> nat -> f64) nb j, (1 <= length nb)%nat -> (Z.of_nat (length nb) < 2 ^ 50)%Z ->
  (forall p, In p nb -> ordinary (values p j) /\ ordinary (values' p j) /\ B2R (values p j) <= B2R (values' p j)) ->
  B2R (approximate values nb j) <= B2R (approximate values' nb j).
Proof.
  intros values values' nb j K L H. unfold approximate. apply average_monotone; rewrite ?map_length; try assumption; try reflexivity.
  - apply Forall_forall. intros v Hv. apply in_map_iff in Hv. destruct Hv as (p & <- & Hp). apply H, Hp.
  - apply Forall_forall. intros v Hv. apply in_map_iff in Hv. destruct Hv as (p & <- & Hp). apply H, Hp.
  - clear K L. induction nb as [|p nb IH]; cbn; constructor; [apply H; left; reflexivity|]. apply IH. intros q Hq. apply H. right. exact Hq.
Qed.
Print Assumptions C104_monotone.

(** One, two or four neighbours (four is the default): constants are reproduced exactly and
    the value lies between bounds of the data at the neighbours, for numbers that are zero
    or at least 2^-1000 in size.  Missing: other numbers of neighbours. *)
Theorem C104_exact_partial : forall (values : nat -> nat -> f64) nb j, length nb = 1%nat \/ length nb = 2%nat \/ length nb = 4%nat ->
  let plain (c : f64) := ordinary c /\ (B2R c = 0 \/ bpow radix2 (-1000) <= Rabs (B2R c)) in
  (forall c, plain c -> (forall p, In p nb -> values p j = c) -> B2R (approximate values nb j) = B2R c) /\
  (forall lo hi, plain lo -> plain hi -> (forall p, In p nb -> ordinary (values p j) /\ B2R lo <= B2R (values p j) <= B2R hi) ->
     B2R lo <= B2R (approximate values nb j) <= B2R hi).
Proof.
  intros values nb j K plain. destruct (average_exact (length nb) K) as [A B]. split.
  - intros c P H. unfold approximate. replace (map (fun p => values p j) nb) with (repeat c (length nb)); [apply A, P|].
    clear -H. induction nb as [|p nb IH]; cbn; [reflexivity|]. f_equal; [symmetry; apply H; left; reflexivity|]. apply IH. intros q Hq. apply H. right. exact Hq.
  - intros lo hi Pl Ph H. apply B; [apply map_length| |exact Pl|exact Ph|].
    + apply Forall_forall. intros v Hv. apply in_map_iff in Hv. destruct Hv as (p & <- & Hp). apply H, Hp.
    + intros v Hv. apply in_map_iff in Hv. destruct Hv as (p & <- & Hp). apply H, Hp.
Qed.
Print Assumptions C104_exact_partial.

(** Ten neighbours: ones have a value less than one. *)
Theorem C104_constants_refuted : exists values nb, length nb = 10%nat /\ (forall p, B2R (values p 0%nat) = 1) /\ B2R (approximate values nb 0) < 1.
Proof.
  exists (fun _ _ => of_int 1), (seq 0 10). destruct (of_int_ok 1) as [E _]; [lia|]. split; [reflexivity|]. split; [intros _; exact E|].
  rewrite <- E. apply lt_by; vm_compute; reflexivity.
Qed.
Print Assumptions C104_constants_refuted.

Example C104_met : let values p (_ : nat) := of_int (Z.of_nat (2 * p + 1)) in
  (forall p, In p [1; 2; 2; 4]%nat -> ordinary (values p 0%nat)) /\ B2R (approximate values [1; 2; 2; 4]%nat 0) = 11 / 2.
Proof.
  cbv zeta. split.
  - intros p Hp. assert (P : (Z.abs (Z.of_nat (2 * p + 1)) <= 9)%Z) by (cbn in Hp; lia). split; [apply of_int_ok; lia|].
    rewrite (proj1 (of_int_ok (Z.of_nat (2 * p + 1)) ltac:(lia))), <- abs_IZR.
    apply Rle_trans with (bpow radix2 4); [apply (IZR_le _ 16); lia|apply bpow_le; lia].
  - assert (E : approximate (fun p _ => of_int (Z.of_nat (2 * p + 1))) [1; 2; 2; 4]%nat 0 = fdiv (of_int 11) (of_int 2)) by (apply B2SF_inj; vm_compute; reflexivity).
    rewrite E. destruct (of_int_ok 11) as [E1 F1]; [lia|]. destruct (of_int_ok 2) as [E2 F2]; [lia|].
    destruct (fdiv_ok (of_int 11) (of_int 2) 10) as [-> _]; [lia|exact F1|rewrite E2; lra| |].
    + rewrite E1, E2, Rabs_pos_eq by lra. cbn. lra.
    + rewrite E1, E2. replace (11 / 2) with (IZR 11 * bpow radix2 (-1)) by (cbn; lra). apply rnd_exact; lia.
Qed.
