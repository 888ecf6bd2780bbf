(** Property C106: the cubic weight function in double precision. *)
From Coq Require Import ZArith List Reals Psatz Lia Lra.
From Flocq Require Import Core BinarySingleNaN Relative.
From Verif Require Import FloatModel FloatProofs FloatDot FloatProps FloatSolve.
Local Open Scope R_scope.

(** ** Model

    Simplification: coordinates and supports are doubles (NumPy converts integers by the
    division).  A power of a NumPy double is that of the C library, here a function [pow]
    of a double and an integer exponent. *)
Definition fle (x y : f64) : bool := match Bcompare x y with Some Lt | Some Eq => true | _ => false end.

(** approx/functions.py:190-205 and 237-248, 250-261, the value of one factor at the scaled
    distance [r]. *)
Definition factor_at (pow : f64 -> Z -> f64) (r : f64) : f64 :=
  if fle r (fdiv (of_int 1) (of_int 2)) then
    fadd (fsub (fdiv (of_int 2) (of_int 3)) (fmul (of_int 4) (pow r 2%Z))) (fmul (of_int 4) (pow r 3%Z))
  else if fle r (of_int 1) then
    fsub (fadd (fsub (fdiv (of_int 4) (of_int 3)) (fmul (of_int 4) r)) (fmul (of_int 4) (pow r 2%Z)))
      (fmul (fdiv (of_int 4) (of_int 3)) (pow r 3%Z))
  else of_int 0.
(** approx/functions.py:180-183 and 214-221, the scaled distance. *)
Definition scaled (core x sd : f64) : f64 := fdiv (Babs (fsub core x)) sd.
(** approx/functions.py:179-212 and 273-276, the value in one dimension. *)
Definition weight_1d (pow : f64 -> Z -> f64) (core x sd : f64) : f64 := factor_at pow (scaled core x sd).
(** approx/functions.py:214-271 and 273-276, the value in two dimensions. *)
Definition weight_2d (pow : f64 -> Z -> f64) (core0 core1 x0 x1 sd0 sd1 : f64) : f64 :=
  fmul (factor_at pow (scaled core0 x0 sd0)) (factor_at pow (scaled core1 x1 sd1)).

(** ** Specification *)

(** The exact weight at the scaled distance [r]. *)
Definition bump (r : R) : R :=
  if Rle_dec r (1 / 2) then 2 / 3 - 4 * r ^ 2 + 4 * r ^ 3
  else if Rle_dec r 1 then 4 / 3 * (1 - r) ^ 3
  else 0.
Definition distance (core x sd : f64) : R := Rabs (B2R core - B2R x) / B2R sd.

(** A C library: powers of one are one (C99, annex F), and squares and cubes of doubles up to
    one are finite and off by at most a unit in the last place. *)
Definition C_pow (pow : f64 -> Z -> f64) : Prop :=
  (forall n, (2 <= n <= 3)%Z -> pow (of_int 1) n = of_int 1) /\
  (forall r n, is_finite r = true -> 0 <= B2R r <= 1 -> (2 <= n <= 3)%Z ->
     is_finite (pow r n) = true /\ Rabs (B2R (pow r n) - B2R r ^ Z.to_nat n) <= 2 * u * B2R r ^ Z.to_nat n + 2 * eta).
(** Coordinates and supports of ordinary size. *)
Definition coordinate (x : f64) : Prop := is_finite x = true /\ Rabs (B2R x) <= bpow radix2 500.
Definition support (x : f64) : Prop := is_finite x = true /\ bpow radix2 (-500) <= B2R x.

(** ** Proofs *)
Lemma eta_tiny : eta <= u / 1000000.
Proof.
  unfold eta. assert (bpow radix2 (-1074) <= bpow radix2 (-80)) by (apply bpow_le; lia). 
  assert (bpow radix2 (-80) = / 1208925819614629174706176) by reflexivity. unfold u. lra.
Qed.
Definition near (x X e : R) : Prop := Rabs (x - X) <= e.
Lemma near_rnd x X e M e' : near x X e -> Rabs X <= M -> e + u * (M + e) + u / 1000000 <= e' -> near (rnd x) X e'.
Proof.
  unfold near. intros H B E. pose proof (rnd_err x) as R. pose proof eta_tiny.
  assert (Rabs x <= M + e). { replace x with (X + (x - X)) by ring. eapply Rle_trans; [apply Rabs_triang|]. lra. }
  assert (u * Rabs x <= u * (M + e)) by (apply Rmult_le_compat_l; [unfold u|]; lra).
  replace (rnd x - X) with ((rnd x - x) + (x - X)) by ring. eapply Rle_trans; [apply Rabs_triang|]. lra.
Qed.
Lemma near_add x X e y Y d : near x X e -> near y Y d -> near (x + y) (X + Y) (e + d).
Proof. unfold near. intros A B. replace (x + y - (X + Y)) with ((x - X) + (y - Y)) by ring. eapply Rle_trans; [apply Rabs_triang|]. lra. Qed.
Lemma near_sub x X e y Y d : near x X e -> near y Y d -> near (x - y) (X - Y) (e + d).
Proof. unfold near. intros A B. replace (x - y - (X - Y)) with ((x - X) + - (y - Y)) by ring. eapply Rle_trans; [apply Rabs_triang|]. rewrite Rabs_Ropp. lra. Qed.
Lemma near_mul x X e y Y d M N : near x X e -> near y Y d -> Rabs X <= M -> Rabs Y <= N -> near (x * y) (X * Y) (e * N + M * d + e * d).
Proof.
  unfold near. intros A B HM HN. replace (x * y - X * Y) with ((x - X) * Y + X * (y - Y) + (x - X) * (y - Y)) by ring.
  pose proof (Rabs_pos (x - X)). pose proof (Rabs_pos (y - Y)). pose proof (Rabs_pos X). pose proof (Rabs_pos Y).
  eapply Rle_trans; [apply Rabs_triang|]. apply Rplus_le_compat; [eapply Rle_trans; [apply Rabs_triang|]; apply Rplus_le_compat|]; rewrite Rabs_mult; apply Rmult_le_compat; lra.
Qed.
Lemma near_refl x : near x x 0. Proof. unfold near. rewrite Rminus_diag_eq, Rabs_R0; lra. Qed.
Lemma near_size x X e M : near x X e -> Rabs X <= M -> Rabs x <= M + e.
Proof. unfold near. intros H B. replace x with (X + (x - X)) by ring. eapply Rle_trans; [apply Rabs_triang|]. lra. Qed.

(** Values of the operations: finite results near exact ones. *)
Definition fnear (x : f64) (X e : R) : Prop := is_finite x = true /\ near (B2R x) X e.
Lemma fnear_weaken x X e e' : fnear x X e -> e <= e' -> fnear x X e'.
Proof. intros [F N] E. split; [exact F|]. unfold near in *. lra. Qed.
Lemma small_16 x : Rabs x <= 16 -> Rabs x <= bpow radix2 4.
Proof. intros H. change (bpow radix2 4) with 16. exact H. Qed.
Lemma fadd_near x X e y Y d M e' : fnear x X e -> fnear y Y d -> Rabs (X + Y) <= M -> M + (e + d) <= 16 ->
  (e + d) + u * (M + (e + d)) + u / 1000000 <= e' -> fnear (fadd x y) (X + Y) e'.
Proof.
  intros [Fx Nx] [Fy Ny] B S E. pose proof (near_add _ _ _ _ _ _ Nx Ny) as N. pose proof (near_size _ _ _ _ N B) as Z.
  destruct (fadd_ok x y 4) as [V F]; [lia|exact Fx|exact Fy|apply small_16; lra|]. split; [exact F|]. rewrite V. eapply near_rnd; eassumption.
Qed.
Lemma fsub_near x X e y Y d M e' : fnear x X e -> fnear y Y d -> Rabs (X - Y) <= M -> M + (e + d) <= 16 ->
  (e + d) + u * (M + (e + d)) + u / 1000000 <= e' -> fnear (fsub x y) (X - Y) e'.
Proof.
  intros [Fx Nx] [Fy Ny] B S E. pose proof (near_sub _ _ _ _ _ _ Nx Ny) as N. pose proof (near_size _ _ _ _ N B) as Z.
  destruct (fsub_ok x y 4) as [V F]; [lia|exact Fx|exact Fy|apply small_16; lra|]. split; [exact F|]. rewrite V. eapply near_rnd; eassumption.
Qed.
Lemma fmul_near x X e y Y d M N K e' : fnear x X e -> fnear y Y d -> Rabs X <= M -> Rabs Y <= N -> Rabs (X * Y) <= K -> K + (e * N + M * d + e * d) <= 16 ->
  (e * N + M * d + e * d) + u * (K + (e * N + M * d + e * d)) + u / 1000000 <= e' -> fnear (fmul x y) (X * Y) e'.
Proof.
  intros [Fx Nx] [Fy Ny] BM BN BK S E. pose proof (near_mul _ _ _ _ _ _ _ _ Nx Ny BM BN) as Q. pose proof (near_size _ _ _ _ Q BK) as Z.
  destruct (fmul_ok x y 4) as [V F]; [lia|exact Fx|exact Fy|apply small_16; lra|]. split; [exact F|]. rewrite V. eapply near_rnd; eassumption.
Qed.
Lemma int_near z : (Z.abs z < 2 ^ 53)%Z -> fnear (of_int z) (IZR z) 0.
Proof. intros H. destruct (of_int_ok z H) as [V F]. split; [exact F|]. rewrite V. apply near_refl. Qed.
Lemma quot_near (a b : Z) M : (Z.abs a < 2 ^ 53)%Z -> (Z.abs b < 2 ^ 53)%Z -> IZR b <> 0 -> Rabs (IZR a / IZR b) <= M -> M <= 16 -> fnear (fdiv (of_int a) (of_int b)) (IZR a / IZR b) (u * M + u / 1000000).
Proof.
  intros A B NZ H S. destruct (of_int_ok a A) as [VA FA]. destruct (of_int_ok b B) as [VB FB].
  destruct (fdiv_ok (of_int a) (of_int b) 4) as [V F]; [lia|exact FA|rewrite VB; exact NZ|rewrite VA, VB; apply small_16; lra|].
  split; [exact F|]. rewrite V, VA, VB. eapply near_rnd; [apply near_refl|exact H|]. lra.
Qed.

(** The comparison. *)
Lemma fle_finite (x y : f64) : is_finite x = true -> is_finite y = true -> fle x y = true <-> B2R x <= B2R y.
Proof.
  intros Fx Fy. unfold fle. rewrite (Bcompare_correct _ _ _ _ Fx Fy). destruct (Rcompare_spec (B2R x) (B2R y)) as [H|H|H]; split; intros; try lra; try reflexivity; discriminate.
Qed.
Lemma half_is : B2R (fdiv (of_int 1) (of_int 2)) = 1 / 2.
Proof.
  assert (E : B2SF (fdiv (of_int 1) (of_int 2)) = SpecFloat.S754_finite false 4503599627370496 (-53)) by (vm_compute; reflexivity).
  rewrite (value_of _ _ E). cbn. unfold F2R. cbn. lra.
Qed.
Lemma fle_half r : is_finite r = true -> fle r (fdiv (of_int 1) (of_int 2)) = true <-> B2R r <= 1 / 2.
Proof. intros F. rewrite <- half_is. apply fle_finite; [exact F|vm_compute; reflexivity]. Qed.
Lemma fle_one r : is_finite r = true -> fle r (of_int 1) = true <-> B2R r <= 1.
Proof. intros F. destruct (of_int_ok 1) as [V G]; [lia|]. pose proof (fle_finite r (of_int 1) F G) as K. rewrite V in K. exact K. Qed.

(** The factor at a finite scaled distance. *)
Lemma factor_near pow r : C_pow pow -> is_finite r = true -> 0 <= B2R r -> fnear (factor_at pow r) (bump (B2R r)) (30 * u).
Proof.
  intros [_ P] F R0. unfold factor_at, bump. assert (U : u = / 9007199254740992) by reflexivity.
  pose proof (fle_half r F) as FH. pose proof (fle_one r F) as FO. pose proof eta_tiny as ET.
  destruct (fle r (fdiv (of_int 1) (of_int 2))) eqn:H; [|destruct (fle r (of_int 1)) eqn:H1].
  - assert (B : B2R r <= 1 / 2) by (apply FH; reflexivity). destruct (Rle_dec (B2R r) (1 / 2)) as [_|N]; [|contradiction]. clear FH FO H.
    destruct (P r 2%Z F) as [F2 E2]; [lra|lia|]. destruct (P r 3%Z F) as [F3 E3]; [lra|lia|].
    change (Z.to_nat 2) with 2%nat in E2. change (Z.to_nat 3) with 3%nat in E3.
    set (q := B2R r) in *. clearbody q. assert (S2 : 0 <= q ^ 2 <= 1 / 4) by nra. assert (S3 : 0 <= q ^ 3 <= 1 / 8) by (cbn in *; nra).
    assert (S4 : q ^ 3 <= q ^ 2) by (cbn in *; nra).
    assert (N2 : fnear (pow r 2%Z) (q ^ 2) (0.51 * u)).
    { split; [exact F2|]. unfold near. eapply Rle_trans; [exact E2|]. rewrite U in *. lra. }
    assert (N3 : fnear (pow r 3%Z) (q ^ 3) (0.26 * u)).
    { split; [exact F3|]. unfold near. eapply Rle_trans; [exact E3|]. rewrite U in *. lra. }
    pose proof (int_near 4 ltac:(lia)) as I4.
    assert (M2 : fnear (fmul (of_int 4) (pow r 2%Z)) (4 * q ^ 2) (4 * u)).
    { eapply fmul_near with (M := 4) (N := 1/4) (K := 1); [exact I4|exact N2| | | | |]; try (rewrite Rabs_pos_eq; lra); rewrite ?U; lra. }
    assert (M3 : fnear (fmul (of_int 4) (pow r 3%Z)) (4 * q ^ 3) (2 * u)).
    { eapply fmul_near with (M := 4) (N := 1/8) (K := 1/2); [exact I4|exact N3| | | | |]; try (rewrite Rabs_pos_eq; lra); rewrite ?U; lra. }
    assert (Q : fnear (fdiv (of_int 2) (of_int 3)) (2 / 3) (u * (2 / 3) + u / 1000000)).
    { apply quot_near; try lia; try lra. rewrite Rabs_pos_eq; lra. }
    assert (A : fnear (fsub (fdiv (of_int 2) (of_int 3)) (fmul (of_int 4) (pow r 2%Z))) (2 / 3 - 4 * q ^ 2) (6 * u)).
    { eapply fsub_near with (M := 2/3); [exact Q|exact M2| | |]; [apply Rabs_le; lra| |]; rewrite ?U; lra. }
    eapply fadd_near with (M := 1); [exact A|exact M3| | |]; [apply Rabs_le; lra| |]; rewrite ?U; lra.
  - assert (B : 1 / 2 < B2R r <= 1). { split; [|apply FO; reflexivity]. apply Rnot_le_lt. intros C. apply FH in C. discriminate. }
    destruct (Rle_dec (B2R r) (1 / 2)) as [N|_]; [lra|]. destruct (Rle_dec (B2R r) 1) as [_|N]; [|lra]. clear FH FO H H1.
    destruct (P r 2%Z F) as [F2 E2]; [lra|lia|]. destruct (P r 3%Z F) as [F3 E3]; [lra|lia|].
    change (Z.to_nat 2) with 2%nat in E2. change (Z.to_nat 3) with 3%nat in E3.
    assert (N1 : fnear r (B2R r) 0) by (split; [exact F|apply near_refl]).
    set (q := B2R r) in *. clearbody q. assert (S2 : 0 <= q ^ 2 <= 1) by nra. assert (S3 : 0 <= q ^ 3 <= 1) by (cbn in *; nra).
    assert (N2 : fnear (pow r 2%Z) (q ^ 2) (2.01 * u)).
    { split; [exact F2|]. unfold near. eapply Rle_trans; [exact E2|]. rewrite U in *. lra. }
    assert (N3 : fnear (pow r 3%Z) (q ^ 3) (2.01 * u)).
    { split; [exact F3|]. unfold near. eapply Rle_trans; [exact E3|]. rewrite U in *. lra. }
    pose proof (int_near 4 ltac:(lia)) as I4.
    assert (M1 : fnear (fmul (of_int 4) r) (4 * q) (4.01 * u)).
    { eapply fmul_near with (M := 4) (N := 1) (K := 4); [exact I4|exact N1| | | | |]; try (rewrite Rabs_pos_eq; lra); rewrite ?U; lra. }
    assert (M2 : fnear (fmul (of_int 4) (pow r 2%Z)) (4 * q ^ 2) (12.1 * u)).
    { eapply fmul_near with (M := 4) (N := 1) (K := 4); [exact I4|exact N2| | | | |]; try (rewrite Rabs_pos_eq; lra); rewrite ?U; lra. }
    assert (Q : fnear (fdiv (of_int 4) (of_int 3)) (4 / 3) (u * (4 / 3) + u / 1000000)).
    { apply quot_near; try lia; try lra. rewrite Rabs_pos_eq; lra. }
    assert (M3 : fnear (fmul (fdiv (of_int 4) (of_int 3)) (pow r 3%Z)) (4 / 3 * q ^ 3) (5.4 * u)).
    { eapply fmul_near with (M := 4/3) (N := 1) (K := 4/3); [exact Q|exact N3| | | | |]; try (rewrite Rabs_pos_eq; lra); rewrite ?U; lra. }
    assert (A : fnear (fsub (fdiv (of_int 4) (of_int 3)) (fmul (of_int 4) r)) (4 / 3 - 4 * q) (8.1 * u)).
    { eapply fsub_near with (M := 8/3); [exact Q|exact M1| | |]; [apply Rabs_le; lra| |]; rewrite ?U; lra. }
    assert (C : fnear (fadd (fsub (fdiv (of_int 4) (of_int 3)) (fmul (of_int 4) r)) (fmul (of_int 4) (pow r 2%Z))) (4 / 3 - 4 * q + 4 * q ^ 2) (21.6 * u)).
    { eapply fadd_near with (M := 4/3); [exact A|exact M2| | |]; [apply Rabs_le; nra| |]; rewrite ?U; lra. }
    replace (4 / 3 * (1 - q) ^ 3) with (4 / 3 - 4 * q + 4 * q ^ 2 - 4 / 3 * q ^ 3) by (cbn; field).
    assert (0 <= (1 - q) ^ 3 <= 1 / 8). { cbn. assert (0 <= 1 - q <= 1 / 2) by lra. set (t := 1 - q) in *. clearbody t. nra. }
    assert (4 / 3 - 4 * q + 4 * q ^ 2 - 4 / 3 * q ^ 3 = 4 / 3 * (1 - q) ^ 3) by (cbn; field).
    eapply fsub_near with (M := 1 / 6); [exact C|exact M3| | |]; [apply Rabs_le; lra| |]; rewrite ?U; lra.
  - assert (B : 1 < B2R r). { apply Rnot_le_lt. intros C. apply FO in C. discriminate. }
    destruct (Rle_dec (B2R r) (1 / 2)) as [N|_]; [lra|]. destruct (Rle_dec (B2R r) 1) as [N|_]; [lra|].
    eapply fnear_weaken; [apply int_near; lia|]. rewrite U. lra.
Qed.

(** The exact weight: its range, and how fast it changes. *)
Lemma bump_range r : 0 <= r -> 0 <= bump r <= 2 / 3.
Proof.
  intros H. unfold bump. destruct (Rle_dec r (1 / 2)); [|destruct (Rle_dec r 1)]; [| |lra].
  - assert (0 <= r ^ 2 <= 1 / 4) by nra. assert (0 <= r ^ 3 <= r ^ 2 / 2). { replace (r ^ 3) with (r * r ^ 2) by ring. set (t := r ^ 2) in *. clearbody t. nra. }
    assert (0 <= (1 / 2 - r) * (1 / 4 + r / 2 - r ^ 2)) by (apply Rmult_le_pos; nra).
    replace (2 / 3 - 4 * r ^ 2 + 4 * r ^ 3) with (1 / 6 + 4 * ((1 / 2 - r) * (1 / 4 + r / 2 - r ^ 2))) in * by (cbn; field).
    split; [lra|]. replace (1 / 6 + 4 * ((1 / 2 - r) * (1 / 4 + r / 2 - r ^ 2))) with (2 / 3 - 4 * r ^ 2 + 4 * r ^ 3) by (cbn; field). lra.
  - assert (0 <= (1 - r) ^ 3 <= 1 / 8); [|lra]. cbn. assert (0 <= 1 - r <= 1 / 2) by lra. set (t := 1 - r) in *. clearbody t. nra.
Qed.
Lemma bump_up r s : 0 <= r <= s -> bump s <= bump r <= bump s + 4 / 3 * (s - r).
Proof.
  assert (A : forall r s, 0 <= r <= s -> s <= 1 / 2 -> bump s <= bump r <= bump s + 4 / 3 * (s - r)).
  { clear. intros r s H K. unfold bump. destruct (Rle_dec r (1 / 2)); [|lra]. destruct (Rle_dec s (1 / 2)); [|lra].
    assert (E : 2 / 3 - 4 * r ^ 2 + 4 * r ^ 3 - (2 / 3 - 4 * s ^ 2 + 4 * s ^ 3) = (s - r) * (4 * (r + s) - 4 * (r * r + r * s + s * s))) by (cbn; ring).
    assert (B : 0 <= 4 * (r + s) - 4 * (r * r + r * s + s * s) <= 4 / 3).
    { split; [nra|]. pose proof (pow2_ge_0 (r - s)). pose proof (pow2_ge_0 (r + s - 2 / 3)). cbn in *. nra. }
    assert (0 <= (s - r) * (4 * (r + s) - 4 * (r * r + r * s + s * s)) <= (s - r) * (4 / 3)); [|lra].
    split; [apply Rmult_le_pos|apply Rmult_le_compat_l]; lra. }
  assert (M : forall r s, 1 / 2 <= r <= s -> s <= 1 -> bump s <= bump r <= bump s + 4 / 3 * (s - r)).
  { clear. intros r s H K. assert (P : forall t, 1 / 2 <= t <= 1 -> bump t = 4 / 3 * (1 - t) ^ 3).
    { intros t T. unfold bump. destruct (Rle_dec t (1 / 2)); [|destruct (Rle_dec t 1); lra]. assert (t = 1 / 2) by lra. subst t. cbn. field. }
    rewrite (P r), (P s) by lra. assert (E : 4 / 3 * (1 - r) ^ 3 - 4 / 3 * (1 - s) ^ 3 = (s - r) * (4 / 3 * ((1 - r) * (1 - r) + (1 - r) * (1 - s) + (1 - s) * (1 - s)))) by (cbn; ring).
    assert (B : 0 <= 4 / 3 * ((1 - r) * (1 - r) + (1 - r) * (1 - s) + (1 - s) * (1 - s)) <= 4 / 3).
    { assert (0 <= 1 - r <= 1 / 2) by lra. assert (0 <= 1 - s <= 1 / 2) by lra. set (a := 1 - r) in *. set (b := 1 - s) in *. clearbody a b. nra. }
    set (c := 4 / 3 * ((1 - r) * (1 - r) + (1 - r) * (1 - s) + (1 - s) * (1 - s))) in *. assert (0 <= (s - r) * c <= (s - r) * (4 / 3)); [|lra]. split; [apply Rmult_le_pos|apply Rmult_le_compat_l]; lra. }
  assert (Z : forall t, 1 <= t -> bump t = 0).
  { intros t T. unfold bump. destruct (Rle_dec t (1 / 2)); [lra|]. destruct (Rle_dec t 1); [|reflexivity]. assert (t = 1) by lra. subst t. cbn. lra. }
  intros H.
  assert (M' : forall r s, 1 / 2 <= r <= s -> bump s <= bump r <= bump s + 4 / 3 * (s - r)).
  { clear r s H. intros r s H. destruct (Rle_dec s 1) as [S|S]; [apply M; lra|]. rewrite (Z s) by lra.
    destruct (Rle_dec r 1) as [T|T]; [|rewrite (Z r) by lra; lra]. pose proof (M r 1 ltac:(lra) ltac:(lra)) as K. rewrite (Z 1) in K by lra. lra. }
  destruct (Rle_dec s (1 / 2)) as [S|S]; [apply A; lra|]. destruct (Rle_dec r (1 / 2)) as [T|T]; [|apply M'; lra].
  pose proof (A r (1 / 2) ltac:(lra) ltac:(lra)). pose proof (M' (1 / 2) s ltac:(lra)). lra.
Qed.
Lemma bump_near r s e : 0 <= r -> 0 <= s -> near r s e -> near (bump r) (bump s) (4 / 3 * e).
Proof.
  unfold near. intros R S H. apply Rabs_le_inv in H. apply Rabs_le. destruct (Rle_dec r s); [pose proof (bump_up r s ltac:(lra))|pose proof (bump_up s r ltac:(lra))]; lra.
Qed.

(** The scaled distance. *)
Lemma scaled_near core x sd : coordinate core -> coordinate x -> support sd ->
  is_finite (scaled core x sd) = true /\ 0 <= B2R (scaled core x sd) /\
  Rabs (B2R (scaled core x sd) - distance core x sd) <= 2.1 * u * distance core x sd + u / 1000.
Proof.
  intros [Fc Bc] [Fx Bx] [Fs Bs]. unfold scaled, distance.
  assert (D : Rabs (B2R core - B2R x) <= bpow radix2 501).
  { unfold Rminus. eapply Rle_trans; [apply Rabs_triang|]. rewrite Rabs_Ropp. change 501%Z with (1 + 500)%Z. rewrite bpow_plus. change (bpow radix2 1) with 2. lra. }
  destruct (fsub_ok core x 501) as [Vd Fd]; [lia|exact Fc|exact Fx|exact D|].
  pose proof (bpow_gt_0 radix2 (-500)) as P. assert (S0 : 0 < B2R sd) by lra.
  assert (I : / B2R sd <= bpow radix2 500). { rewrite <- (Rinv_inv (bpow radix2 500)), <- bpow_opp. apply Rinv_le_contravar; [exact P|exact Bs]. }
  assert (I0 : 0 < / B2R sd) by (apply Rinv_0_lt_compat; exact S0).
  assert (D' : Rabs (rnd (B2R core - B2R x)) <= bpow radix2 501) by (apply rnd_bound; [lia|exact D]).
  assert (Q : Rabs (B2R (Babs (fsub core x)) / B2R sd) <= bpow radix2 1001).
  { unfold Rdiv. rewrite Rabs_mult, (Rabs_pos_eq (/ B2R sd)) by lra. rewrite B2R_Babs, Rabs_Rabsolu, Vd.
    change 1001%Z with (501 + 500)%Z. rewrite bpow_plus. apply Rmult_le_compat; try lra. apply Rabs_pos. }
  destruct (fdiv_ok (Babs (fsub core x)) sd 1001) as [V F]; [lia|rewrite is_finite_Babs; exact Fd|lra|exact Q|].
  split; [exact F|]. rewrite V, B2R_Babs, Vd. set (d := B2R core - B2R x) in *. set (i := / B2R sd) in *. unfold Rdiv. fold i.
  split; [rewrite <- rnd_0; apply rnd_le, Rmult_le_pos; [apply Rabs_pos|lra]|].
  set (r := Rabs d * i). assert (R0 : 0 <= r) by (apply Rmult_le_pos; [apply Rabs_pos|lra]).
  assert (T : eta * i <= u / 1000000).
  { apply Rle_trans with (eta * bpow radix2 500); [apply Rmult_le_compat_l; [pose proof eta_pos; lra|exact I]|]. unfold eta. rewrite Rmult_assoc, <- bpow_plus.
    assert (bpow radix2 (-1074 + 500) <= bpow radix2 (-80)) by (apply bpow_le; lia). assert (bpow radix2 (-80) = / 1208925819614629174706176) by reflexivity. unfold u. lra. }
  assert (A : Rabs (Rabs (rnd d) * i - r) <= u * r + u / 1000000).
  { unfold r. rewrite <- Rmult_minus_distr_r, Rabs_mult, (Rabs_pos_eq i) by lra.
    apply Rle_trans with ((u * Rabs d + eta) * i); [apply Rmult_le_compat_r; [lra|]|lra].
    eapply Rle_trans; [apply Rabs_triang_inv2|]. apply rnd_err. }
  assert (U : u = / 9007199254740992) by reflexivity.
  assert (N : near (rnd (Rabs (rnd d) * i)) r ((u * r + u / 1000000) + u * (r + (u * r + u / 1000000)) + u / 1000000)).
  { eapply near_rnd; [exact A| |apply Rle_refl]. rewrite Rabs_pos_eq by exact R0. lra. }
  unfold near in N. eapply Rle_trans; [exact N|]. clear -U R0. assert (u * u * r <= 0.01 * u * r) by (rewrite ?U; lra). rewrite U in *. lra.
Qed.

Lemma factor_error pow core x sd : C_pow pow -> coordinate core -> coordinate x -> support sd ->
  fnear (factor_at pow (scaled core x sd)) (bump (distance core x sd)) (40 * u).
Proof.
  intros P C X S. destruct (scaled_near core x sd C X S) as [F [R0 E]]. assert (U : u = / 9007199254740992) by reflexivity.
  destruct (factor_near pow _ P F R0) as [G N]. split; [exact G|].
  assert (D0 : 0 <= distance core x sd).
  { destruct S as [_ S]. pose proof (bpow_gt_0 radix2 (-500)). apply Rmult_le_pos; [apply Rabs_pos|]. left. apply Rinv_0_lt_compat. lra. }
  set (d := distance core x sd) in *. set (r := B2R (scaled core x sd)) in *.
  destruct (Rle_dec d 2) as [H|H].
  - assert (K : near r d (5 * u)) by (unfold near; eapply Rle_trans; [exact E|]; rewrite ?U; lra).
    pose proof (bump_near r d _ R0 D0 K) as B. unfold near in *. replace (B2R (factor_at pow (scaled core x sd)) - bump d) with ((B2R (factor_at pow (scaled core x sd)) - bump r) + (bump r - bump d)) by ring.
    eapply Rle_trans; [apply Rabs_triang|]. rewrite U in *. lra.
  - assert (L : 1 < r). { apply Rabs_le_inv in E. rewrite U in E. lra. }
    assert (Z : forall t, 1 < t -> bump t = 0) by (intros t T; unfold bump; destruct (Rle_dec t (1 / 2)); [lra|]; destruct (Rle_dec t 1); lra).
    rewrite (Z r L) in N. rewrite (Z d) by lra. unfold near in *. rewrite U in *. lra.
Qed.

(** ** Theorems *)

(** The values are those of the exact weights up to 2^-47 in one and 2^-46 in two dimensions. *)
Theorem C106_error pow : C_pow pow ->
  (forall core x sd, coordinate core -> coordinate x -> support sd ->
    is_finite (weight_1d pow core x sd) = true /\
    Rabs (B2R (weight_1d pow core x sd) - bump (distance core x sd)) <= / 2 ^ 47) /\
  (forall core0 core1 x0 x1 sd0 sd1, coordinate core0 -> coordinate x0 -> support sd0 -> coordinate core1 -> coordinate x1 -> support sd1 ->
    is_finite (weight_2d pow core0 core1 x0 x1 sd0 sd1) = true /\
    Rabs (B2R (weight_2d pow core0 core1 x0 x1 sd0 sd1) - bump (distance core0 x0 sd0) * bump (distance core1 x1 sd1)) <= / 2 ^ 46).
Proof.
  intros P. assert (U : u = / 9007199254740992) by reflexivity. split.
  - intros core x sd C X S. destruct (factor_error pow core x sd P C X S) as [F N]. split; [exact F|]. eapply Rle_trans; [exact N|]. rewrite U. lra.
  - intros core0 core1 x0 x1 sd0 sd1 C0 X0 S0 C1 X1 S1. pose proof (factor_error pow _ _ _ P C0 X0 S0) as N0. pose proof (factor_error pow _ _ _ P C1 X1 S1) as N1.
    assert (D : forall core x sd, support sd -> 0 <= bump (distance core x sd) <= 2 / 3).
    { intros core x sd [_ S]. apply bump_range. pose proof (bpow_gt_0 radix2 (-500)). apply Rmult_le_pos; [apply Rabs_pos|]. left. apply Rinv_0_lt_compat. lra. }
    pose proof (D core0 x0 sd0 S0) as D0. pose proof (D core1 x1 sd1 S1) as D1.
    assert (N : fnear (weight_2d pow core0 core1 x0 x1 sd0 sd1) (bump (distance core0 x0 sd0) * bump (distance core1 x1 sd1)) (60 * u)).
    { eapply fmul_near with (M := 2 / 3) (N := 2 / 3) (K := 4 / 9); [exact N0|exact N1| | | | |]; try (rewrite Rabs_pos_eq; lra); try (rewrite ?U; lra).
      rewrite Rabs_pos_eq by (apply Rmult_le_pos; lra). replace (4 / 9) with (2 / 3 * (2 / 3)) by field. apply Rmult_le_compat; lra. }
    destruct N as [F N]. split; [exact F|]. eapply Rle_trans; [exact N|]. rewrite U. lra.
Qed.
Print Assumptions C106_error.

(** Well inside the support the weight is positive; beyond the support, by more than a few
    units in the last place, it is exactly zero. *)
Theorem C106_support_partial pow core x sd : C_pow pow -> coordinate core -> coordinate x -> support sd ->
  (distance core x sd <= 1 - / 2 ^ 15 -> 0 < B2R (weight_1d pow core x sd)) /\
  (1 + / 2 ^ 51 <= distance core x sd -> B2R (weight_1d pow core x sd) = 0).
Proof.
  intros P C X S. assert (U : u = / 9007199254740992) by reflexivity.
  assert (D0 : 0 <= distance core x sd).
  { destruct S as [_ S]. pose proof (bpow_gt_0 radix2 (-500)). apply Rmult_le_pos; [apply Rabs_pos|]. left. apply Rinv_0_lt_compat. lra. }
  split; intros H.
  - destruct (proj1 (C106_error pow P) core x sd C X S) as [_ E]. apply Rabs_le_inv in E. set (d := distance core x sd) in *. set (w := B2R _) in *. clearbody d w.
    assert (B : 4 / 3 * (/ 2 ^ 45) <= bump d).
    { assert (K : bump (1 - / 2 ^ 15) = 4 / 3 * (/ 2 ^ 45)).
      { unfold bump. destruct (Rle_dec (1 - / 2 ^ 15) (1 / 2)); [lra|]. destruct (Rle_dec (1 - / 2 ^ 15) 1); [|lra]. lra. }
      rewrite <- K. apply bump_up. lra. }
    lra.
  - destruct (scaled_near core x sd C X S) as [F [R0 E]]. unfold weight_1d, factor_at.
    assert (L : 1 < B2R (scaled core x sd)). { apply Rabs_le_inv in E. rewrite U in E. lra. }
    pose proof (fle_half _ F) as FH. pose proof (fle_one _ F) as FO.
    destruct (fle (scaled core x sd) (fdiv (of_int 1) (of_int 2))); [assert (B2R (scaled core x sd) <= 1 / 2) by (apply FH; reflexivity); lra|].
    destruct (fle (scaled core x sd) (of_int 1)); [assert (B2R (scaled core x sd) <= 1) by (apply FO; reflexivity); lra|]. apply of_int_ok. lia.
Qed.
Print Assumptions C106_support_partial.

(** Exchanging the core and the point does not change the value, not even by rounding. *)
Theorem C106_mirror pow core x sd : coordinate core -> coordinate x -> weight_1d pow core x sd = weight_1d pow x core sd.
Proof.
  intros [Fc Bc] [Fx Bx]. unfold weight_1d, scaled. f_equal. f_equal.
  assert (D : forall a b : R, Rabs a <= bpow radix2 500 -> Rabs b <= bpow radix2 500 -> Rabs (a - b) <= bpow radix2 501).
  { intros a b A B. unfold Rminus. eapply Rle_trans; [apply Rabs_triang|]. rewrite Rabs_Ropp. change 501%Z with (1 + 500)%Z. rewrite bpow_plus. change (bpow radix2 1) with 2. lra. }
  destruct (fsub_ok core x 501) as [V F]; [lia|exact Fc|exact Fx|apply D; assumption|].
  destruct (fsub_ok x core 501) as [V' F']; [lia|exact Fx|exact Fc|apply D; assumption|].
  apply B2R_Bsign_inj; [rewrite is_finite_Babs; assumption..| |].
  - rewrite !B2R_Babs, V, V'. replace (B2R x - B2R core) with (- (B2R core - B2R x)) by ring.
    change (Rabs (rnd (B2R core - B2R x)) = Rabs (rnd (- (B2R core - B2R x)))). unfold rnd. rewrite round_NE_opp, Rabs_Ropp. reflexivity.
  - destruct (fsub core x), (fsub x core); try discriminate; reflexivity.
Qed.
Print Assumptions C106_mirror.

(** A point outside of the support with a negative weight: the scaled distance rounds to one,
    where the value computed is -2^-52. *)
Definition one_more : f64 := fdiv (of_int (-1)) (of_int 9007199254740992).
Theorem C106_refuted pow : C_pow pow -> exists core x sd, coordinate core /\ coordinate x /\ support sd /\
  1 < distance core x sd /\ B2R (weight_1d pow core x sd) = - / 2 ^ 52.
Proof.
  intros [P _]. exists (of_int 1), one_more, (of_int 1).
  assert (V1 : B2R (of_int 1) = 1) by (apply of_int_ok; lia).
  assert (V : B2R one_more = - / 9007199254740992).
  { assert (E : B2SF one_more = SpecFloat.S754_finite true 4503599627370496 (-105)) by (vm_compute; reflexivity). rewrite (value_of _ _ E). cbn. unfold F2R. cbn. lra. }
  assert (B : 1 <= bpow radix2 500) by (change 1 with (bpow radix2 0); apply bpow_le; lia).
  split; [split; [vm_compute; reflexivity|rewrite V1, Rabs_R1; exact B]|].
  split; [split; [vm_compute; reflexivity|rewrite V, Rabs_Ropp, Rabs_pos_eq; lra]|].
  split; [split; [vm_compute; reflexivity|rewrite V1; change 1 with (bpow radix2 0); apply bpow_le; lia]|].
  split; [unfold distance; rewrite V, V1, Rabs_pos_eq; lra|].
  assert (S : scaled (of_int 1) one_more (of_int 1) = of_int 1) by (apply B2SF_inj; vm_compute; reflexivity).
  unfold weight_1d. rewrite S. unfold factor_at. rewrite !P by lia.
  match goal with |- B2R ?w = _ => assert (E : B2SF w = SpecFloat.S754_finite true 4503599627370496 (-104)) by (vm_compute; reflexivity) end.
  etransitivity; [exact (value_of _ _ E)|]. cbn. unfold F2R. cbn. lra.
Qed.
Print Assumptions C106_refuted.

(** In two dimensions too. *)
Theorem C106_plane_refuted pow : C_pow pow -> exists core0 core1 x0 x1 sd0 sd1,
  (coordinate core0 /\ coordinate x0 /\ support sd0) /\ (coordinate core1 /\ coordinate x1 /\ support sd1) /\
  1 < distance core0 x0 sd0 /\ distance core1 x1 sd1 = 0 /\ B2R (weight_2d pow core0 core1 x0 x1 sd0 sd1) < 0.
Proof.
  intros P. destruct (C106_refuted pow P) as (c & x & sd & C & X & S & D & W). exists c, c, x, c, sd, sd.
  split; [exact (conj C (conj X S))|]. split; [exact (conj C (conj C S))|]. split; [exact D|].
  assert (Z : distance c c sd = 0) by (unfold distance; rewrite Rminus_diag_eq, Rabs_R0 by reflexivity; unfold Rdiv; ring). split; [exact Z|].
  destruct (proj1 (C106_error pow P) c x sd C X S) as [F _]. destruct (proj1 (C106_error pow P) c c sd C C S) as [F' E]. rewrite Z in E.
  assert (B : bump 0 = 2 / 3) by (unfold bump; destruct (Rle_dec 0 (1 / 2)); lra). rewrite B in E. apply Rabs_le_inv in E.
  unfold weight_2d. fold (weight_1d pow c x sd). fold (weight_1d pow c c sd).
  destruct (fmul_ok (weight_1d pow c x sd) (weight_1d pow c c sd) 0) as [V _]; [lia|exact F|exact F'| |].
  { rewrite W. apply Rabs_le. cbn [bpow]. lra. }
  rewrite V, W. apply Rle_lt_trans with (rnd (- bpow radix2 (-54))).
  - apply rnd_le. change (bpow radix2 (-54)) with (/ 18014398509481984). lra.
  - pose proof (bpow_gt_0 radix2 (-54)). unfold rnd. rewrite round_NE_opp.
    rewrite round_generic; [lra|auto with typeclass_instances|]. apply generic_format_FLT_bpow; [reflexivity|lia].
Qed.
Print Assumptions C106_plane_refuted.

(** Correctly rounded powers meet the contract, and the documented example has its value. *)
Definition exact_pow (r : f64) (n : Z) : f64 :=
  match r with
  | B754_finite s m e _ => binary_normalize 53 1024 prec_ok emax_ok mode_NE (cond_Zopp s (Zpos m) ^ n) (e * n) false
  | _ => B754_zero false
  end.
Lemma exact_pow_ok : C_pow exact_pow.
Proof.
  split; [intros n H; assert (K : n = 2%Z \/ n = 3%Z) by lia; destruct K; subst n; apply B2SF_inj; vm_compute; reflexivity|].
  intros r n F R0 N. assert (ET : 0 < eta) by apply eta_pos. assert (U : 0 < u) by (unfold u; lra).
  destruct r as [s|s| |s m e Hb]; try discriminate F.
  - cbn [exact_pow is_finite B2R]. split; [reflexivity|]. assert (K : n = 2%Z \/ n = 3%Z) by lia. assert (Z0 : 0 ^ Z.to_nat n = 0) by (apply pow_i; lia). rewrite Z0. rewrite Rminus_0_r, Rabs_R0. lra.
  - cbn [exact_pow]. set (x := B2R (B754_finite s m e Hb)) in *.
    assert (E : F2R (Float radix2 (cond_Zopp s (Zpos m) ^ n) (e * n)) = x ^ Z.to_nat n).
    { unfold x, B2R, F2R. cbn [Fnum Fexp]. assert (K : n = 2%Z \/ n = 3%Z) by lia. set (z := cond_Zopp s (Zpos m)). destruct K; subst n.
      - replace (z ^ 2)%Z with (z * z)%Z by ring. replace (e * 2)%Z with (e + e)%Z by ring. rewrite mult_IZR, bpow_plus. change (Z.to_nat 2) with 2%nat. ring.
      - replace (z ^ 3)%Z with (z * z * z)%Z by ring. replace (e * 3)%Z with (e + e + e)%Z by ring. rewrite !mult_IZR, !bpow_plus. change (Z.to_nat 3) with 3%nat. ring. }
    assert (X : 0 <= x ^ Z.to_nat n <= 1). { split; [apply pow_le; lra|]. rewrite <- (pow1 (Z.to_nat n)). apply pow_incr. exact R0. }
    pose proof (binary_normalize_correct 53 1024 prec_ok emax_ok mode_NE (cond_Zopp s (Zpos m) ^ n) (e * n) false) as H. cbv zeta in H. rewrite E in H.
    rewrite (no_overflow (x ^ Z.to_nat n) 0) in H; [|lia|rewrite Rabs_pos_eq by lra; exact (proj2 X)]. destruct H as [V [G _]].
    split; [exact G|]. rewrite V. change (Rabs (rnd (x ^ Z.to_nat n) - x ^ Z.to_nat n) <= 2 * u * x ^ Z.to_nat n + 2 * eta).
    eapply Rle_trans; [apply rnd_err|]. rewrite Rabs_pos_eq by lra. assert (0 <= u * x ^ Z.to_nat n) by (apply Rmult_le_pos; lra). lra.
Qed.
Example C106_met : C_pow exact_pow /\
  B2SF (weight_2d exact_pow (of_int 0) (of_int 0) (of_int 0) (of_int 0) (fdiv (of_int 1) (of_int 2)) (fdiv (of_int 1) (of_int 2))) = SpecFloat.S754_finite false 8006399337547548 (-54) /\
  B2SF (weight_1d exact_pow (of_int 1) (fdiv (of_int 3) (of_int 4)) (of_int 1)) = SpecFloat.S754_finite false 8631899285793450 (-54).
Proof. split; [exact exact_pow_ok|]. split; vm_compute; reflexivity. Qed.
