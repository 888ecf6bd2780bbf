(** Properties C98 - C100: functions of the library in double precision. *)
From Coq Require Import ZArith List Reals Psatz Lia Lra.
From Flocq Require Import Core BinarySingleNaN.
From Verif Require Import FloatModel FloatProofs.
Import ListNotations.
Local Open Scope R_scope.

(** A number with |x| <= 2^1000: no operation below overflows. *)
Notation ordinary := moderate.

(** The distance allowed from the exact value: 2^-49 relative to the size M, and 2^-1020. *)
Definition close (x y M : R) : Prop := Rabs (x - y) <= bpow radix2 (-49) * M + bpow radix2 (-1020).

Lemma close_of (x y M : R) : Rabs (x - y) <= / 562949953421312 * M + 4 * (9007199254740992 * eta) -> close x y M.
Proof.
  unfold close, eta. replace (bpow radix2 (-1020)) with (bpow radix2 (54 + -1074)) by reflexivity. rewrite bpow_plus.
  replace (bpow radix2 (-49)) with (/ 562949953421312) by (cbn; reflexivity).
  replace (bpow radix2 54) with 18014398509481984 by (cbn; reflexivity). lra.
Qed.

(** Comparing floats by computation. *)
Lemma lt_by (x y : f64) : is_finite x = true -> is_finite y = true -> Bcompare x y = Some Lt -> B2R x < B2R y.
Proof. intros Fx Fy E. rewrite (Bcompare_correct _ _ x y Fx Fy) in E. injection E as E. apply Rcompare_Lt_inv, E. Qed.

(** ** C98 *)

Lemma number_range bs : (0 <= number bs <= 2 ^ Z.of_nat (length bs) - 1)%Z.
Proof.
  induction bs as [|b bs IH]; [cbn; lia|]. cbn [number length]. rewrite Nat2Z.inj_succ, Z.pow_succ_r by lia. destruct b; lia.
Qed.
Lemma block_grid len (lo hi : f64) bs : (1 <= len <= 53)%nat -> length bs = len -> ordinary lo -> ordinary hi ->
  is_finite (decode_block len lo hi bs) = true /\
  B2R (decode_block len lo hi bs) = on_grid (B2R lo) (B2R hi) (2 ^ Z.of_nat len - 1) (number bs) /\
  (1 <= 2 ^ Z.of_nat len - 1 < 2 ^ 53)%Z.
Proof.
  intros Hl Hb Hlo Hhi. pose proof (number_range bs) as Hk. rewrite Hb in Hk.
  assert (Hn : (1 <= 2 ^ Z.of_nat len - 1 < 2 ^ 53)%Z).
  { pose proof (Z.pow_le_mono_r 2 1 (Z.of_nat len) ltac:(lia) ltac:(lia)). pose proof (Z.pow_le_mono_r 2 (Z.of_nat len) 53 ltac:(lia) ltac:(lia)). lia. }
  unfold decode_block. change (2 ^ 0)%Z with 1%Z.
  destruct (grid_float lo hi (2 ^ Z.of_nat len - 1) (number bs) Hlo Hhi Hn Hk) as (_ & _ & G1 & G2). repeat split; try assumption; apply Hn.
Qed.

(** Up to 53 genes per variable: decoded values are finite, the lowest one is the lower end
    of the range exactly, no value is below it, larger codes have no smaller values, and
    the value differs from the exact one by rounding only. *)
Theorem C98_decode_partial : forall len (lo hi : f64) bs, (1 <= len <= 53)%nat -> length bs = len -> ordinary lo -> ordinary hi ->
  let x := decode_block len lo hi bs in
  is_finite x = true /\
  close (B2R x) (B2R lo + IZR (number bs) / IZR (2 ^ Z.of_nat len - 1) * (B2R hi - B2R lo)) (Rmax (Rabs (B2R lo)) (Rabs (B2R hi))) /\
  (bs = repeat false len -> B2R x = B2R lo) /\
  (B2R lo <= B2R hi -> B2R lo <= B2R x /\
     forall cs, length cs = len -> (number bs <= number cs)%Z -> B2R x <= B2R (decode_block len lo hi cs)).
Proof.
  intros len lo hi bs Hl Hb Hlo Hhi x. destruct (block_grid len lo hi bs Hl Hb Hlo Hhi) as (Fx & Ex & Hn). fold x in Fx, Ex.
  pose proof (number_range bs) as Hk. rewrite Hb in Hk.
  split; [exact Fx|]. split; [|split].
  - apply close_of. rewrite Ex. apply (grid_err _ _ _ _ (Rmax_l _ _) (Rmax_r _ _) Hn _ Hk).
  - intros ->. rewrite Ex. replace (number (repeat false len)) with 0%Z; [apply grid_0, rnd_f64|].
    clear. induction len; [reflexivity|]. cbn [repeat number]. lia.
  - intros H. split.
    + rewrite Ex, <- (grid_0 (B2R lo) (B2R hi) (2 ^ Z.of_nat len - 1) (rnd_f64 lo)) at 1. apply grid_mono; [exact Hn|exact H|lia].
    + intros cs Hc Hbc. destruct (block_grid len lo hi cs Hl Hc Hlo Hhi) as (_ & Ec & _). rewrite Ex, Ec.
      apply grid_mono; [exact Hn|exact H|lia].
Qed.
Print Assumptions C98_decode_partial.

(** A row has one such value per variable. *)
Theorem C98_rows : forall len ranges bss i lo hi bs, nth_error ranges i = Some (lo, hi) -> nth_error bss i = Some bs ->
  nth_error (decode_row len ranges bss) i = Some (decode_block len lo hi bs).
Proof.
  intros len ranges. unfold decode_row. induction ranges as [|r ranges IH]; intros [|b bss] [|i] lo hi bs H1 H2; cbn in *; try discriminate.
  - injection H1 as ->. injection H2 as ->. reflexivity.
  - apply IH; assumption.
Qed.
Print Assumptions C98_rows.

(** With three genes and the range from 0 to 29, the all-one code is decoded to a number
    above 29; with two genes and the range from 2^53 to 2^53 + 2, the codes 0 and 1 are
    decoded to the same number. *)
Theorem C98_refuted :
  B2R (of_int 29) = 29 /\ is_finite (decode_block 3 (of_int 0) (of_int 29) [true; true; true]) = true /\
  29 < B2R (decode_block 3 (of_int 0) (of_int 29) [true; true; true]) /\
  exists lo hi bs cs, ordinary lo /\ ordinary hi /\ B2R lo < B2R hi /\ length bs = 2%nat /\ length cs = 2%nat /\ bs <> cs /\
    decode_block 2 lo hi bs = decode_block 2 lo hi cs.
Proof.
  destruct (of_int_ok 29 eq_refl) as [E F]. split; [exact E|]. split; [vm_compute; reflexivity|]. split.
  - rewrite <- E at 1. apply lt_by; [exact F|vm_compute; reflexivity|vm_compute; reflexivity].
  - pose (a := of_int (2 ^ 53)). pose (b := fadd a (of_int 2)). exists a, b, [false; false], [true; false].
    assert (Fa : is_finite a = true) by (vm_compute; reflexivity). assert (Fb : is_finite b = true) by (vm_compute; reflexivity).
    assert (L1 : B2R a < B2R b) by (apply lt_by; [exact Fa|exact Fb|vm_compute; reflexivity]).
    assert (La : 0 < B2R a) by (apply (lt_by (B754_zero false) a); [reflexivity|exact Fa|vm_compute; reflexivity]).
    destruct (of_int_ok 4503599627370497 eq_refl) as [E4 F4].
    assert (Lb : B2R b < bpow radix2 1000).
    { pose (c := of_int (2 ^ 60)). assert (Fc : is_finite c = true) by (vm_compute; reflexivity).
      apply Rlt_le_trans with (B2R c); [apply lt_by; [exact Fb|exact Fc|vm_compute; reflexivity]|].
      replace (B2R c) with (bpow radix2 60); [apply bpow_le; lia|]. vm_compute. lra. }
    split; [split; [exact Fa|rewrite Rabs_right; lra]|]. split; [split; [exact Fb|rewrite Rabs_right; lra]|].
    split; [exact L1|]. split; [reflexivity|]. split; [reflexivity|]. split; [discriminate|]. apply B2SF_inj. vm_compute. reflexivity.
Qed.
Print Assumptions C98_refuted.

Example C98_met : ordinary (of_int (-3)) /\ ordinary (of_int 5).
Proof.
  destruct (of_int_ok (-3) eq_refl) as [E F]. destruct (of_int_ok 5 eq_refl) as [E' F'].
  assert (B : 8 <= bpow radix2 1000) by (change 8 with (bpow radix2 3); apply bpow_le; lia).
  split; split; try assumption; [rewrite E|rewrite E']; apply Rabs_le; lra.
Qed.

(** ** C99 *)

(** [linspace1d] starts at the first point exactly, runs monotonically towards the second
    and every point differs from the exact one by rounding only. *)
Theorem C99_linspace_partial : forall (start stop : f64) N, ordinary start -> ordinary stop -> (2 <= N)%nat -> (Z.of_nat N <= 2 ^ 53)%Z ->
  length (linspace1d start stop N) = N /\
  (exists x, nth_error (linspace1d start stop N) 0 = Some x /\ B2R x = B2R start) /\
  (forall i, (i < N)%nat -> exists x, nth_error (linspace1d start stop N) i = Some x /\ is_finite x = true /\
     close (B2R x) (B2R start + INR i / INR (N - 1) * (B2R stop - B2R start)) (Rmax (Rabs (B2R start)) (Rabs (B2R stop)))) /\
  (forall i j x y, (i <= j)%nat -> nth_error (linspace1d start stop N) i = Some x -> nth_error (linspace1d start stop N) j = Some y ->
     (B2R start <= B2R stop -> B2R x <= B2R y) /\ (B2R stop <= B2R start -> B2R y <= B2R x)).
Proof.
  intros start stop N Ha Hb HN HM. set (n := (Z.of_nat N - 1)%Z). assert (Hn : (1 <= n < 2 ^ 53)%Z) by (unfold n; lia).
  assert (G : forall i, (i < N)%nat -> exists x, nth_error (linspace1d start stop N) i = Some x /\ is_finite x = true /\
            B2R x = on_grid (B2R start) (B2R stop) n (Z.of_nat i)).
  { intros i Hi. destruct (grid_float start stop n (Z.of_nat i) Ha Hb Hn ltac:(unfold n; lia)) as (G1 & G2 & _).
    eexists. split; [|split; [exact G2|exact G1]]. unfold linspace1d. rewrite nth_error_map.
    assert (E : nth_error (seq 0 N) i = Some i).
    { rewrite (nth_error_nth' _ 0%nat) by (rewrite seq_length; exact Hi). rewrite seq_nth by exact Hi. reflexivity. }
    rewrite E. reflexivity. }
  assert (L : length (linspace1d start stop N) = N) by (unfold linspace1d; rewrite map_length, seq_length; reflexivity).
  split; [exact L|]. split; [|split].
  - destruct (G 0%nat ltac:(lia)) as (x & Ex & _ & Gx). exists x. split; [exact Ex|]. rewrite Gx. apply grid_0, rnd_f64.
  - intros i Hi. destruct (G i Hi) as (x & Ex & Fx & Gx). exists x. split; [exact Ex|]. split; [exact Fx|].
    apply close_of. rewrite Gx. replace (INR i) with (IZR (Z.of_nat i)) by (symmetry; apply INR_IZR_INZ).
    replace (INR (N - 1)) with (IZR n) by (rewrite INR_IZR_INZ; f_equal; unfold n; lia).
    apply (grid_err _ _ _ _ (Rmax_l _ _) (Rmax_r _ _) Hn). unfold n. lia.
  - intros i j x y Hij Ei Ej. assert (Hj : (j < N)%nat) by (rewrite <- L; apply nth_error_Some; congruence).
    destruct (G i ltac:(lia)) as (x' & Ex & _ & Gx). destruct (G j Hj) as (y' & Ey & _ & Gy).
    replace x with x' by congruence. replace y with y' by congruence. rewrite Gx, Gy.
    split; intros H; [apply grid_mono|apply grid_anti]; try assumption; lia.
Qed.
Print Assumptions C99_linspace_partial.

(** Fifty points from 0 to 1 do not reach 1, twelve points from -20 to 5 pass beyond 5, and
    one point is not a number. *)
Theorem C99_linspace_refuted :
  (exists x, nth_error (linspace1d (of_int 0) (of_int 1) 50) 49 = Some x /\ is_finite x = true /\ B2R x < B2R (of_int 1)) /\
  (exists x, nth_error (linspace1d (of_int (-20)) (of_int 5) 12) 11 = Some x /\ is_finite x = true /\ B2R (of_int 5) < B2R x) /\
  linspace1d (of_int 0) (of_int 1) 1 = [B754_nan].
Proof.
  split; [|split].
  - eexists. split; [reflexivity|]. split; [vm_compute; reflexivity|]. apply lt_by; vm_compute; reflexivity.
  - eexists. split; [reflexivity|]. split; [vm_compute; reflexivity|]. apply lt_by; vm_compute; reflexivity.
  - vm_compute. reflexivity.
Qed.
Print Assumptions C99_linspace_refuted.

(** The centre of a bin lies in the closed bin, and is the middle up to rounding. *)
Theorem C99_bin_centers_partial : forall edges i (a b : f64), nth_error edges i = Some a -> nth_error edges (S i) = Some b ->
  ordinary a -> ordinary b -> B2R a <= B2R b ->
  length (bin_centers edges) = (length edges - 1)%nat /\
  exists c, nth_error (bin_centers edges) i = Some c /\ is_finite c = true /\ B2R a <= B2R c <= B2R b /\
    close (B2R c) ((B2R a + B2R b) / 2) (Rmax (Rabs (B2R a)) (Rabs (B2R b))).
Proof.
  intros edges i a b Ea Eb Ha Hb Hab. split.
  { clear. induction edges as [|a [|b t] IH]; [reflexivity|reflexivity|]. change (bin_centers (a :: b :: t)) with (fdiv (fadd a b) (of_int 2) :: bin_centers (b :: t)).
    cbn [length]. rewrite IH. cbn [length]. lia. }
  exists (fdiv (fadd a b) (of_int 2)). split.
  { revert i Ea Eb. induction edges as [|x [|y t] IH]; intros i Ea Eb.
    { destruct i; discriminate. }
    { destruct i as [|[|i]]; discriminate. }
    destruct i as [|i].
    - cbn in Ea, Eb. injection Ea as ->. injection Eb as ->. reflexivity.
    - change (bin_centers (x :: y :: t)) with (fdiv (fadd x y) (of_int 2) :: bin_centers (y :: t)). cbn [nth_error]. apply IH; assumption. }
  destruct (center_float a b Ha Hb) as (Fc & Ec). split; [exact Fc|]. rewrite Ec. split.
  - apply center_between, Hab.
  - apply close_of. apply center_err; [apply Rmax_l|apply Rmax_r].
Qed.
Print Assumptions C99_bin_centers_partial.

(** The centre need not lie inside: between 1 and the next number it is an edge; the sum of
    two large edges overflows. *)
Theorem C99_bin_centers_refuted :
  (let a := of_int 1 in let b := Bsucc a in B2R a < B2R b /\ bin_centers [a; b] = [a]) /\
  exists a b, is_finite a = true /\ is_finite b = true /\ B2R a < B2R b /\ bin_centers [a; b] = [B754_infinity false].
Proof.
  split.
  - cbv zeta. split; [apply lt_by; vm_compute; reflexivity|]. assert (E : fdiv (fadd (of_int 1) (Bsucc (of_int 1))) (of_int 2) = of_int 1).
    { apply B2SF_inj. vm_compute. reflexivity. }
    cbn [bin_centers]. rewrite E. reflexivity.
  - exists (of_int (2 ^ 1023)), (of_int (2 ^ 1023 + 2 ^ 1022)). repeat split; try (vm_compute; reflexivity).
    apply lt_by; vm_compute; reflexivity.
Qed.
Print Assumptions C99_bin_centers_refuted.

(** ** C100 *)

(** Values are mapped monotonically as long as the results are finite. *)
Theorem C100_monotone_partial : forall (s0 s1 t0 t1 : f64) (vals : list f64) i j (v w x y : f64),
  is_finite s0 = true -> is_finite s1 = true -> is_finite t0 = true -> is_finite t1 = true ->
  B2R s0 < B2R s1 -> B2R t0 <= B2R t1 ->
  nth_error vals i = Some v -> nth_error vals j = Some w -> B2R v <= B2R w ->
  nth_error (to_range_1d s0 s1 t0 t1 vals) i = Some x -> nth_error (to_range_1d s0 s1 t0 t1 vals) j = Some y ->
  is_finite x = true -> is_finite y = true -> B2R x <= B2R y.
Proof.
  intros s0 s1 t0 t1 vals i j v w x y F0 F1 G0 G1 Hs Ht Ei Ej Hvw Ex Ey Fx Fy. unfold to_range_1d in Ex, Ey. cbv zeta in Ex, Ey.
  rewrite nth_error_map, Ei in Ex. rewrite nth_error_map, Ej in Ey. cbn in Ex, Ey.
  set (b := fdiv (fsub t1 t0) (fsub s1 s0)) in *. set (a := fsub _ (fdiv (fmul b _) _)) in *.
  injection Ex as <-. injection Ey as <-.
  destruct (fadd_finite _ _ Fx) as (Fa & Fp & Rx). destruct (fadd_finite _ _ Fy) as (_ & Fq & Ry).
  destruct (fmul_finite _ _ Fp) as (Fb & _ & Rp). destruct (fmul_finite _ _ Fq) as (_ & _ & Rq).
  rewrite Rx, Ry, Rp, Rq. apply rnd_le, Rplus_le_compat_l, rnd_le, Rmult_le_compat_l; [|exact Hvw].
  apply slope_pos; assumption.
Qed.
Print Assumptions C100_monotone_partial.

(** The source interval from 10^16 to 10^16 + 2 is mapped to the interval from -1 to 1; the
    lower end of the source goes to 0, the middle of the target. *)
Theorem C100_refuted :
  exists s0 s1, is_finite s0 = true /\ is_finite s1 = true /\ B2R s0 < B2R s1 /\
  to_range_1d s0 s1 (of_int (-1)) (of_int 1) [s0] = [of_int 0].
Proof.
  exists (of_int 10000000000000000), (of_int 10000000000000002). repeat split; try (vm_compute; reflexivity).
  apply lt_by; vm_compute; reflexivity.
Qed.
Print Assumptions C100_refuted.

Example C100_met : exists x y, to_range_1d (of_int 0) (of_int 4) (of_int 10) (of_int 20) [of_int 1; of_int 3] = [x; y] /\
  is_finite x = true /\ is_finite y = true.
Proof. do 2 eexists. split; [reflexivity|]. split; vm_compute; reflexivity. Qed.
