(** Property C109: evenly spaced points of a segment in double precision. *)
From Coq Require Import ZArith List Reals Psatz Lia Lra.
From Flocq Require Import Core BinarySingleNaN Relative.
From Verif Require Import FloatModel FloatProofs FloatDot FloatProps FloatSolve FloatWeight FloatInv.
Import ListNotations.
Local Open Scope R_scope.

(** ** Model

    A point is a function of the number of the coordinate. *)
Definition fpoint := nat -> f64.

(** linalg/utils.py:860-864, the step between two points: [n * djac] with [n = s / L] and
    [djac = L / (N - 1)].  [L] is what [np.linalg.norm] returned (an argument here).  With
    [N = 1] the division of two numbers raises ZeroDivisionError; [N = 0] (a write outside the
    array in compiled code) is not considered by the theorems. *)
Definition seg_step (L : f64) (p0 p1 : fpoint) (N : nat) : fpoint := fun k =>
  fmul (fdiv (fsub (p1 k) (p0 k)) L) (fdiv L (of_int (Z.of_nat N - 1))).
(** linalg/utils.py:858-870, [_linspace]; the iterations of the prange loop write
    different rows. *)
Definition segment (L : f64) (p0 p1 : fpoint) (N : nat) : option (list fpoint) :=
  if (N =? 1)%nat then None else
  Some (map (fun i => if (i =? N - 1)%nat then p1 else if (i =? 0)%nat then p0
                      else fun k => fadd (p0 k) (fmul (of_int (Z.of_nat i)) (seg_step L p0 p1 N k))) (seq 0 N)).

(** ** Specification *)

(** Coordinate [k] of the exact point number [i] of [N]. *)
Definition exact_point (p0 p1 : fpoint) (N i k : nat) : R :=
  B2R (p0 k) + INR i / INR (N - 1) * (B2R (p1 k) - B2R (p0 k)).
(** A finite coordinate whose distance is zero or between 2^-200 and 2^200. *)
Definition coordinate (p0 p1 : fpoint) (k : nat) : Prop :=
  is_finite (p0 k) = true /\ is_finite (p1 k) = true /\
  Rabs (B2R (p0 k)) <= bpow radix2 900 /\ sized 200 (B2R (p1 k) - B2R (p0 k)).
(** A length between 2^-200 and 2^200. *)
Definition a_length (L : f64) : Prop := fsized 200 L /\ 0 < B2R L.

(** ** Proofs *)
Lemma sized_div e f x y : sized e x -> sized f y -> y <> 0 -> sized (e + f) (x / y).
Proof.
  intros X [[C|C] D] Y; [contradiction|]. apply sized_mul; [exact X|]. pose proof (bpow_gt_0 radix2 f). pose proof (bpow_gt_0 radix2 (- f)).
  split.
  - right. rewrite Rabs_inv, bpow_opp. apply Rinv_le; [apply Rabs_pos_lt, Y|exact D].
  - rewrite Rabs_inv. replace (bpow radix2 f) with (/ bpow radix2 (- f)) by (rewrite bpow_opp; apply Rinv_inv). apply Rinv_le; assumption.
Qed.
Lemma sized_int (z : Z) : (Z.abs z <= 2 ^ 53)%Z -> sized 53 (IZR z).
Proof.
  intros H. split; [|apply int_size, H]. destruct (Z.eq_dec z 0) as [->|N]; [left; reflexivity|right].
  rewrite <- abs_IZR. apply Rle_trans with 1; [change 1 with (bpow radix2 0); apply bpow_le; lia|]. apply (IZR_le 1). lia.
Qed.
(** Rounding as a factor. *)
Lemma factor e x : (0 <= e <= 1000)%Z -> sized e x -> exists d, Rabs d <= u /\ rnd x = x * (1 + d) /\ sized e (rnd x).
Proof.
  intros E S. destruct (sized_rnd e x E S) as [S' R]. destruct (Req_dec x 0) as [->|N].
  - exists 0. rewrite Rabs_R0, rnd_0. split; [unfold u; lra|]. split; [ring|]. rewrite rnd_0 in S'. exact S'.
  - exists ((rnd x - x) / x). split; [|split; [field; exact N|exact S']].
    unfold Rdiv. rewrite Rabs_mult, Rabs_inv. pose proof (Rabs_pos_lt x N). apply (Rmult_le_reg_r (Rabs x)); [assumption|].
    rewrite Rmult_assoc, Rinv_l, Rmult_1_r by lra. exact R.
Qed.
Lemma five (a b c d e : R) : Rabs a <= u -> Rabs b <= u -> Rabs c <= u -> Rabs d <= u -> Rabs e <= u ->
  Rabs ((1 + a) * (1 + b) * (1 + c) * (1 + d) * (1 + e) - 1) <= 5.01 * u.
Proof.
  assert (U : u = / 9007199254740992) by reflexivity.
  assert (G : forall x y k, Rabs (x - 1) <= k * u -> Rabs y <= u -> 0 <= k <= 5 -> Rabs (x * (1 + y) - 1) <= (k + 1.001) * u).
  { intros x y k X Y K. replace (x * (1 + y) - 1) with ((x - 1) + y + (x - 1) * y) by ring.
    eapply Rle_trans; [apply Rabs_triang|]. eapply Rle_trans; [apply Rplus_le_compat_r, Rabs_triang|]. rewrite Rabs_mult.
    pose proof (Rabs_pos (x - 1)). pose proof (Rabs_pos y). assert (Rabs (x - 1) * Rabs y <= k * u * u) by (apply Rmult_le_compat; assumption).
    assert (k * u * u <= 0.001 * u). { apply Rmult_le_compat_r; [rewrite U; lra|]. rewrite U. lra. } lra. }
  intros A B C D E. assert (A1 : Rabs (1 + a - 1) <= 1 * u) by (replace (1 + a - 1) with a by ring; lra).
  pose proof (G _ _ _ A1 B ltac:(lra)) as H2. pose proof (G _ _ _ H2 C ltac:(lra)) as H3. pose proof (G _ _ _ H3 D ltac:(lra)) as H4.
  pose proof (G _ _ _ H4 E ltac:(lra)) as H5. lra.
Qed.

Section Step.
Variables (L : f64) (p0 p1 : fpoint) (N k : nat).
Hypotheses (HL : a_length L) (Hk : coordinate p0 p1 k) (HN : (2 <= N)%nat) (HM : (Z.of_nat N <= 2 ^ 50)%Z).
Let D := B2R (p1 k) - B2R (p0 k).
Let n := (Z.of_nat N - 1)%Z.

Lemma n_ok : (1 <= n < 2 ^ 50)%Z. Proof. unfold n. lia. Qed.
Lemma step_ok : is_finite (seg_step L p0 p1 N k) = true /\ sized 653 (B2R (seg_step L p0 p1 N k)) /\
  exists a b c d, Rabs a <= u /\ Rabs b <= u /\ Rabs c <= u /\ Rabs d <= u /\
    B2R (seg_step L p0 p1 N k) = D / IZR n * ((1 + a) * (1 + b) * (1 + c) * (1 + d)).
Proof.
  destruct HL as [[FL SL] L0]. destruct Hk as (F0 & F1 & B0 & SD). fold D in SD. pose proof n_ok as Hn.
  assert (N0 : IZR n <> 0) by (apply IZR_neq; lia). assert (L1 : B2R L <> 0) by lra.
  unfold seg_step. fold n. destruct (of_int_ok n ltac:(lia)) as [En Fn].
  destruct (factor 200 D ltac:(lia) SD) as (a & Ha & Ea & Sa).
  destruct (fsub_ok (p1 k) (p0 k) 200) as [Vs Fs]; [lia|exact F1|exact F0|apply SD|]. change (B2R (p1 k) - B2R (p0 k)) with D in Vs.
  set (s := fsub (p1 k) (p0 k)) in *.
  assert (Sn : sized 400 (B2R s / B2R L)) by (rewrite Vs; apply (sized_div 200 200); assumption).
  destruct (factor 400 _ ltac:(lia) Sn) as (b & Hb & Eb & Sb).
  destruct (fdiv_ok s L 400) as [Vn Fn']; [lia|exact Fs|exact L1|apply Sn|].
  assert (Sj : sized 253 (B2R L / B2R (of_int n))) by (apply (sized_div 200 53); [exact SL|rewrite En; apply sized_int; lia|rewrite En; exact N0]).
  destruct (factor 253 _ ltac:(lia) Sj) as (c & Hc & Ec & Sc).
  destruct (fdiv_ok L (of_int n) 253) as [Vj Fj]; [lia|exact FL|rewrite En; exact N0|apply Sj|].
  rewrite <- Vn in Sb. rewrite <- Vj in Sc. pose proof (sized_mul _ _ _ _ Sb Sc) as Sp. change (400 + 253)%Z with 653%Z in Sp.
  destruct (factor 653 _ ltac:(lia) Sp) as (d & Hd & Ed & Sd).
  destruct (fmul_ok (fdiv s L) (fdiv L (of_int n)) 653) as [Vp Fp]; [lia|exact Fn'|exact Fj|apply Sp|].
  split; [exact Fp|]. rewrite Vp. split; [exact Sd|]. exists a, b, c, d. do 4 (split; [assumption|]).
  rewrite Ed, Vn, Vj, Eb, Ec, Vs, Ea, En. field. split; assumption.
Qed.

Variable i : nat.
Hypothesis Hi : (1 <= i < N - 1)%nat.
Let x := fadd (p0 k) (fmul (of_int (Z.of_nat i)) (seg_step L p0 p1 N k)).
Let t := fmul (of_int (Z.of_nat i)) (seg_step L p0 p1 N k).

Lemma part_ok : is_finite t = true /\ B2R t = rnd (IZR (Z.of_nat i) * B2R (seg_step L p0 p1 N k)) /\
  exists P, Rabs (P - 1) <= 5.01 * u /\ B2R t = INR i / INR (N - 1) * D * P.
Proof.
  destruct step_ok as (F & S & a & b & c & d & Ha & Hb & Hc & Hd & E). pose proof n_ok as Hn.
  destruct (of_int_ok (Z.of_nat i) ltac:(lia)) as [Ei Fi].
  assert (Si : sized 706 (IZR (Z.of_nat i) * B2R (seg_step L p0 p1 N k))) by (apply (sized_mul 53 653); [apply sized_int; lia|exact S]).
  destruct (factor 706 _ ltac:(lia) Si) as (e & He & Ee & _).
  destruct (fmul_ok (of_int (Z.of_nat i)) (seg_step L p0 p1 N k) 706) as [V G]; [lia|exact Fi|exact F|rewrite Ei; apply Si|].
  rewrite Ei in V. fold t in V, G. split; [exact G|]. split; [exact V|].
  exists ((1 + a) * (1 + b) * (1 + c) * (1 + d) * (1 + e)). split; [apply five; assumption|].
  rewrite V, Ee, E, <- INR_IZR_INZ. replace (INR (N - 1)) with (IZR n) by (rewrite INR_IZR_INZ; f_equal; unfold n; lia).
  field. apply IZR_neq. lia.
Qed.
Lemma share_ok : 0 < INR i / INR (N - 1) /\ INR i / INR (N - 1) * (1 + 5.01 * u) <= 1.
Proof.
  assert (N1 : 0 < INR (N - 1)) by (apply lt_0_INR; lia). assert (I1 : 0 < INR i) by (apply lt_0_INR; lia).
  split; [apply Rdiv_lt_0_compat; assumption|].
  apply (Rmult_le_reg_r (INR (N - 1))); [exact N1|]. unfold Rdiv. replace (INR i * / INR (N - 1) * (1 + 5.01 * u) * INR (N - 1)) with (INR i + 5.01 * u * INR i) by (field; lra).
  assert (A : INR i + 1 <= INR (N - 1)) by (rewrite <- S_INR; apply le_INR; lia).
  assert (B : INR (N - 1) <= 1125899906842624) by (rewrite INR_IZR_INZ; apply IZR_le; lia).
  assert (U : u = / 9007199254740992) by reflexivity. rewrite U. lra.
Qed.
Lemma x_ok : is_finite x = true /\ B2R x = rnd (B2R (p0 k) + B2R t).
Proof.
  destruct Hk as (F0 & F1 & B0 & SD). destruct part_ok as (F & V & P & HP & E). destruct share_ok as [S0 S1].
  assert (T : Rabs (B2R t) <= bpow radix2 200).
  { rewrite E, !Rabs_mult. fold D in SD. destruct SD as [_ SD].
    assert (P1 : Rabs P <= 1 + 5.01 * u). { replace P with (1 + (P - 1)) by ring. eapply Rle_trans; [apply Rabs_triang|]. rewrite Rabs_R1. lra. }
    rewrite (Rabs_pos_eq (INR i / INR (N - 1))) by lra. pose proof (Rabs_pos D). pose proof (Rabs_pos P).
    apply Rle_trans with (1 * Rabs D); [|lra]. replace (INR i / INR (N - 1) * Rabs D * Rabs P) with (INR i / INR (N - 1) * Rabs P * Rabs D) by ring.
    apply Rmult_le_compat_r; [assumption|]. eapply Rle_trans; [apply Rmult_le_compat_l; [lra|exact P1]|exact S1]. }
  unfold x. fold t. destruct (fadd_ok (p0 k) t 901) as [W G]; [lia|exact F0|exact F| |split; assumption].
  eapply Rle_trans; [apply Rabs_triang|]. assert (bpow radix2 200 <= bpow radix2 900) by (apply bpow_le; lia).
  change 901%Z with (900 + 1)%Z. rewrite bpow_plus. change (bpow radix2 1) with 2. lra.
Qed.
Lemma x_between : (0 <= D -> B2R (p0 k) <= B2R x <= B2R (p1 k)) /\ (D <= 0 -> B2R (p1 k) <= B2R x <= B2R (p0 k)).
Proof.
  destruct x_ok as [_ V]. destruct part_ok as (_ & _ & P & HP & E). destruct share_ok as [S0 S1]. rewrite V.
  assert (U : u = / 9007199254740992) by reflexivity. apply Rabs_le_inv in HP.
  assert (Q : 0 <= INR i / INR (N - 1) * P <= 1).
  { split; [apply Rmult_le_pos; [lra|rewrite U in HP; lra]|]. eapply Rle_trans; [|exact S1]. apply Rmult_le_compat_l; lra. }
  assert (T : B2R t = INR i / INR (N - 1) * P * D) by (rewrite E; ring).
  set (q := INR i / INR (N - 1) * P) in *. assert (P1 : B2R (p1 k) = B2R (p0 k) + D) by (unfold D; ring). split; intros S.
  - assert (0 <= q * D <= D) by (split; [apply Rmult_le_pos; lra|rewrite <- (Rmult_1_l D) at 2; apply Rmult_le_compat_r; lra]).
    split; [rewrite <- (rnd_f64 (p0 k)) at 1|apply Rle_trans with (rnd (B2R (p1 k))); [|right; apply rnd_f64]]; apply rnd_le; rewrite T; lra.
  - assert (D <= q * D <= 0). { split; [|apply Ropp_le_cancel; rewrite Ropp_0, Ropp_mult_distr_r; apply Rmult_le_pos; lra].
      apply Ropp_le_cancel. rewrite Ropp_mult_distr_r. rewrite <- (Rmult_1_l (- D)) at 2. apply Rmult_le_compat_r; lra. }
    split; [rewrite <- (rnd_f64 (p1 k)) at 1|apply Rle_trans with (rnd (B2R (p0 k))); [|right; apply rnd_f64]]; apply rnd_le; rewrite T; lra.
Qed.
Lemma x_error : Rabs (B2R x - exact_point p0 p1 N i k) <= 6 * u * Rabs D + u * Rmax (Rabs (B2R (p0 k))) (Rabs (B2R (p1 k))).
Proof.
  destruct Hk as (F0 & F1 & B0 & SD). fold D in SD. destruct x_ok as [_ V]. destruct part_ok as (_ & _ & P & HP & E). destruct share_ok as [S0 S1].
  unfold exact_point. fold D. set (q := INR i / INR (N - 1)) in *. set (M := Rmax _ _). assert (U : u = / 9007199254740992) by reflexivity.
  assert (Q1 : q <= 1). { apply Rle_trans with (q * (1 + 5.01 * u)); [|exact S1]. rewrite <- (Rmult_1_r q) at 1. apply Rmult_le_compat_l; [lra|rewrite U; lra]. }
  assert (M0 : Rabs (B2R (p0 k)) <= M) by apply Rmax_l. assert (M1 : Rabs (B2R (p1 k)) <= M) by apply Rmax_r.
  assert (ZM : Rabs (B2R (p0 k) + q * D) <= M).
  { replace (B2R (p0 k) + q * D) with ((1 - q) * B2R (p0 k) + q * B2R (p1 k)) by (unfold D; ring).
    eapply Rle_trans; [apply Rabs_triang|]. rewrite !Rabs_mult, (Rabs_pos_eq (1 - q)), (Rabs_pos_eq q) by lra.
    assert ((1 - q) * Rabs (B2R (p0 k)) <= (1 - q) * M) by (apply Rmult_le_compat_l; lra). assert (q * Rabs (B2R (p1 k)) <= q * M) by (apply Rmult_le_compat_l; lra). lra. }
  destruct (Req_dec D 0) as [D0|D0].
  - rewrite V, E, D0, !Rmult_0_r, Rmult_0_l, Rplus_0_r, rnd_f64, Rminus_diag_eq, Rabs_R0 by reflexivity.
    pose proof (Rabs_pos (B2R (p0 k))). assert (0 <= u * M) by (apply Rmult_le_pos; [rewrite U|]; lra). lra.
  - assert (LD : eta <= u / 1000000 * Rabs D).
    { destruct SD as [[C|C] _]; [contradiction|]. apply Rle_trans with (u / 1000000 * bpow radix2 (- (200))); [|apply Rmult_le_compat_l; [rewrite U; lra|exact C]].
      apply Rle_trans with (bpow radix2 (- (80)) * bpow radix2 (- (200))).
      - rewrite <- bpow_plus, <- eta_bpow. apply bpow_le; lia.
      - apply Rmult_le_compat_r; [apply bpow_ge_0|]. assert (bpow radix2 (- (80)) = / 1208925819614629174706176) by reflexivity. rewrite U. lra. }
    assert (T : Rabs (B2R t - q * D) <= 5.01 * u * Rabs D).
    { rewrite E. replace (q * D * P - q * D) with (q * (P - 1) * D) by ring. rewrite !Rabs_mult. apply Rmult_le_compat_r; [apply Rabs_pos|].
      rewrite (Rabs_pos_eq q) by lra. apply Rle_trans with (1 * Rabs (P - 1)); [apply Rmult_le_compat_r; [apply Rabs_pos|lra]|lra]. }
    rewrite V. pose proof (rnd_err (B2R (p0 k) + B2R t)) as R.
    replace (rnd (B2R (p0 k) + B2R t) - (B2R (p0 k) + q * D)) with ((rnd (B2R (p0 k) + B2R t) - (B2R (p0 k) + B2R t)) + (B2R t - q * D)) by ring.
    eapply Rle_trans; [apply Rabs_triang|].
    assert (A : Rabs (B2R (p0 k) + B2R t) <= M + 5.01 * u * Rabs D).
    { replace (B2R (p0 k) + B2R t) with ((B2R (p0 k) + q * D) + (B2R t - q * D)) by ring. eapply Rle_trans; [apply Rabs_triang|]. lra. }
    assert (u * Rabs (B2R (p0 k) + B2R t) <= u * (M + 5.01 * u * Rabs D)) by (apply Rmult_le_compat_l; [rewrite U; lra|exact A]).
    pose proof (Rabs_pos D). assert (u * (5.01 * u * Rabs D) <= 0.1 * u * Rabs D).
    { replace (u * (5.01 * u * Rabs D)) with (5.01 * u * (u * Rabs D)) by ring. replace (0.1 * u * Rabs D) with (0.1 * (u * Rabs D)) by ring.
      apply Rmult_le_compat_r; [apply Rmult_le_pos; [rewrite U; lra|assumption]|rewrite U; lra]. }
    assert (0 <= u * Rabs D) by (apply Rmult_le_pos; [rewrite U; lra|assumption]). lra.
Qed.
End Step.

(** ** Theorems *)

Lemma segment_nth L p0 p1 N ps i : segment L p0 p1 N = Some ps -> (i < N)%nat ->
  nth_error ps i = Some (if (i =? N - 1)%nat then p1 else if (i =? 0)%nat then p0
                         else fun k => fadd (p0 k) (fmul (of_int (Z.of_nat i)) (seg_step L p0 p1 N k))).
Proof.
  unfold segment. destruct (N =? 1)%nat; [discriminate|]. intros [= <-] Hi. rewrite nth_error_map.
  assert (E : nth_error (seq 0 N) i = Some i).
  { rewrite (nth_error_nth' _ 0%nat) by (rewrite seq_length; exact Hi). rewrite seq_nth by exact Hi. reflexivity. }
  rewrite E. reflexivity.
Qed.

(** The first and the last point are the given ones to the bit. *)
Theorem C109_ends : forall (L : f64) (p0 p1 : fpoint) (N : nat), (2 <= N)%nat ->
  exists ps, segment L p0 p1 N = Some ps /\ length ps = N /\ nth_error ps 0 = Some p0 /\ nth_error ps (N - 1) = Some p1.
Proof.
  intros L p0 p1 N HN. assert (E : exists ps, segment L p0 p1 N = Some ps /\ length ps = N).
  { unfold segment. destruct (Nat.eqb_spec N 1) as [?|_]; [lia|]. eexists. split; [reflexivity|]. rewrite map_length. apply seq_length. }
  destruct E as (ps & E & Len). exists ps. split; [exact E|]. split; [exact Len|].
  rewrite (segment_nth _ _ _ _ _ 0 E), (segment_nth _ _ _ _ _ (N - 1) E), (Nat.eqb_refl (N - 1)) by lia.
  destruct (Nat.eqb_spec 0 (N - 1)) as [?|_]; [lia|]. split; reflexivity.
Qed.
Print Assumptions C109_ends.

(** Every coordinate differs from the exact one by rounding only, whatever length between
    2^-200 and 2^200 the norm came out as. *)
Theorem C109_error_partial : forall (L : f64) (p0 p1 : fpoint) (N : nat) ps i p k,
  a_length L -> coordinate p0 p1 k -> (2 <= N)%nat -> (Z.of_nat N <= 2 ^ 50)%Z ->
  segment L p0 p1 N = Some ps -> nth_error ps i = Some p ->
  is_finite (p k) = true /\
  Rabs (B2R (p k) - exact_point p0 p1 N i k) <=
    6 * u * Rabs (B2R (p1 k) - B2R (p0 k)) + u * Rmax (Rabs (B2R (p0 k))) (Rabs (B2R (p1 k))).
Proof.
  intros L p0 p1 N ps i p k HL Hk HN HM E Hp. assert (Hi : (i < N)%nat).
  { destruct (C109_ends L p0 p1 N HN) as (ps' & E' & Len & _). assert (ps' = ps) by congruence. subst ps'. rewrite <- Len. apply nth_error_Some. congruence. }
  rewrite (segment_nth _ _ _ _ _ _ E Hi) in Hp. injection Hp as <-.
  assert (B : 0 <= 6 * u * Rabs (B2R (p1 k) - B2R (p0 k)) + u * Rmax (Rabs (B2R (p0 k))) (Rabs (B2R (p1 k)))).
  { assert (U : 0 < u) by (change (0 < / 9007199254740992); lra). pose proof (Rabs_pos (B2R (p1 k) - B2R (p0 k))).
    pose proof (Rabs_pos (B2R (p0 k))). pose proof (Rmax_l (Rabs (B2R (p0 k))) (Rabs (B2R (p1 k)))).
    assert (0 <= u * Rabs (B2R (p1 k) - B2R (p0 k))) by (apply Rmult_le_pos; lra).
    assert (0 <= u * Rmax (Rabs (B2R (p0 k))) (Rabs (B2R (p1 k)))) by (apply Rmult_le_pos; lra). lra. }
  assert (N1 : INR (N - 1) <> 0) by (apply not_0_INR; lia).
  destruct (Nat.eqb_spec i (N - 1)) as [->|Ne]; [|destruct (Nat.eqb_spec i 0) as [->|N0]].
  - split; [apply Hk|]. unfold exact_point. replace (INR (N - 1) / INR (N - 1)) with 1 by (field; exact N1). rewrite Rmult_1_l.
    replace (B2R (p1 k) - _) with 0 by ring. rewrite Rabs_R0. exact B.
  - split; [apply Hk|]. unfold exact_point. cbn [INR]. unfold Rdiv. rewrite !Rmult_0_l, Rplus_0_r, Rminus_diag_eq, Rabs_R0 by reflexivity. exact B.
  - split; [apply (x_ok L p0 p1 N k HL Hk HN HM i); lia|apply (x_error L p0 p1 N k HL Hk HN HM i); lia].
Qed.
Print Assumptions C109_error_partial.

(** No coordinate leaves the interval between the ends. *)
Theorem C109_between_partial : forall (L : f64) (p0 p1 : fpoint) (N : nat) ps i p k,
  a_length L -> coordinate p0 p1 k -> (2 <= N)%nat -> (Z.of_nat N <= 2 ^ 50)%Z ->
  segment L p0 p1 N = Some ps -> nth_error ps i = Some p ->
  Rmin (B2R (p0 k)) (B2R (p1 k)) <= B2R (p k) <= Rmax (B2R (p0 k)) (B2R (p1 k)).
Proof.
  intros L p0 p1 N ps i p k HL Hk HN HM E Hp. assert (Hi : (i < N)%nat).
  { destruct (C109_ends L p0 p1 N HN) as (ps' & E' & Len & _). assert (ps' = ps) by congruence. subst ps'. rewrite <- Len. apply nth_error_Some. congruence. }
  rewrite (segment_nth _ _ _ _ _ _ E Hi) in Hp. injection Hp as <-.
  destruct (Nat.eqb_spec i (N - 1)) as [->|Ne]; [|destruct (Nat.eqb_spec i 0) as [->|N0]].
  - split; [apply Rmin_r|apply Rmax_r].
  - split; [apply Rmin_l|apply Rmax_l].
  - destruct (x_between L p0 p1 N k HL Hk HN HM i ltac:(lia)) as [A B].
    destruct (Rle_dec (B2R (p0 k)) (B2R (p1 k))) as [O|O].
    + rewrite Rmin_left, Rmax_right by exact O. apply A. lra.
    + rewrite Rmin_right, Rmax_left by lra. apply B. lra.
Qed.
Print Assumptions C109_between_partial.

(** The points follow each other in the direction of the segment. *)
Theorem C109_monotone_partial : forall (L : f64) (p0 p1 : fpoint) (N : nat) ps i j p q k,
  a_length L -> coordinate p0 p1 k -> (2 <= N)%nat -> (Z.of_nat N <= 2 ^ 50)%Z ->
  segment L p0 p1 N = Some ps -> nth_error ps i = Some p -> nth_error ps j = Some q -> (i <= j)%nat ->
  (B2R (p0 k) <= B2R (p1 k) -> B2R (p k) <= B2R (q k)) /\ (B2R (p1 k) <= B2R (p0 k) -> B2R (q k) <= B2R (p k)).
Proof.
  intros L p0 p1 N ps i j p q k HL Hk HN HM E Hp Hq Hij. assert (Hj : (j < N)%nat).
  { destruct (C109_ends L p0 p1 N HN) as (ps' & E' & Len & _). assert (ps' = ps) by congruence. subst ps'. rewrite <- Len. apply nth_error_Some. congruence. }
  pose proof (C109_between_partial L p0 p1 N ps i p k HL Hk HN HM E Hp) as Bp. pose proof (C109_between_partial L p0 p1 N ps j q k HL Hk HN HM E Hq) as Bq.
  assert (Mn : forall a b, a <= b -> Rmin a b = a /\ Rmax a b = b) by (intros a b H; split; [apply Rmin_left|apply Rmax_right]; exact H).
  assert (Mx : forall a b, b <= a -> Rmin a b = b /\ Rmax a b = a) by (intros a b H; split; [apply Rmin_right|apply Rmax_left]; exact H).
  rewrite (segment_nth _ _ _ _ _ i E ltac:(lia)) in Hp. rewrite (segment_nth _ _ _ _ _ j E Hj) in Hq. injection Hp as <-. injection Hq as <-.
  destruct (Nat.eqb_spec j (N - 1)) as [->|Nj].
  { split; intros H; [destruct (Mn _ _ H) as [M1 M2]|destruct (Mx _ _ H) as [M1 M2]]; rewrite ?M1, ?M2 in *; apply Bp. }
  destruct (Nat.eqb_spec i 0) as [->|Ni].
  { destruct (Nat.eqb_spec 0 (N - 1)) as [?|_]; [lia|]. split; intros H; [destruct (Mn _ _ H) as [M1 M2]|destruct (Mx _ _ H) as [M1 M2]]; rewrite ?M1, ?M2 in *; apply Bq. }
  destruct (Nat.eqb_spec i (N - 1)) as [?|_]; [lia|]. destruct (Nat.eqb_spec j 0) as [?|_]; [lia|].
  destruct (x_ok L p0 p1 N k HL Hk HN HM i ltac:(lia)) as [_ Vi]. destruct (x_ok L p0 p1 N k HL Hk HN HM j ltac:(lia)) as [_ Vj].
  destruct (part_ok L p0 p1 N k HL Hk HN HM i ltac:(lia)) as (_ & Ti & _). destruct (part_ok L p0 p1 N k HL Hk HN HM j ltac:(lia)) as (_ & Tj & _).
  rewrite Vi, Vj, Ti, Tj. destruct (step_ok L p0 p1 N k HL Hk HN HM) as (_ & _ & a & b & c & d & Ha & Hb & Hc & Hd & Es).
  assert (U : u = / 9007199254740992) by reflexivity. apply Rabs_le_inv in Ha, Hb, Hc, Hd. rewrite U in *.
  assert (P : 0 < (1 + a) * (1 + b) * (1 + c) * (1 + d)) by (repeat apply Rmult_lt_0_compat; lra).
  assert (N1 : 0 < IZR (Z.of_nat N - 1)) by (apply (IZR_lt 0); lia).
  assert (IJ : IZR (Z.of_nat i) <= IZR (Z.of_nat j)) by (apply IZR_le; lia).
  split; intros H; apply rnd_le, Rplus_le_compat_l, rnd_le.
  - assert (0 <= B2R (seg_step L p0 p1 N k)). { rewrite Es. apply Rmult_le_pos; [|lra]. apply Rmult_le_pos; [lra|]. left. apply Rinv_0_lt_compat, N1. }
    apply Rmult_le_compat_r; assumption.
  - assert (B2R (seg_step L p0 p1 N k) <= 0). { rewrite Es. apply Ropp_le_cancel. rewrite Ropp_0, Ropp_mult_distr_l. apply Rmult_le_pos; [|lra].
      unfold Rdiv. rewrite Ropp_mult_distr_l. apply Rmult_le_pos; [lra|]. left. apply Rinv_0_lt_compat, N1. }
    apply Ropp_le_cancel. rewrite !Ropp_mult_distr_r. apply Rmult_le_compat_r; [lra|exact IJ].
Qed.
Print Assumptions C109_monotone_partial.

(** If the points coincide the length is zero and the points between them are not numbers;
    if the distance overflows, so that its norm is infinite, they are not numbers either;
    one point alone is an error. *)
Definition origin : fpoint := fun _ => of_int 0.
Definition far (sign : Z) : fpoint := fun _ => Bldexp mode_NE (of_int sign) 1023.
Theorem C109_refuted :
  (exists ps p, segment (of_int 0) origin origin 3 = Some ps /\ nth_error ps 1 = Some p /\ is_nan (p 0%nat) = true) /\
  (exists ps p, segment (B754_infinity false) (far (-1)) (far 1) 3 = Some ps /\ nth_error ps 1 = Some p /\
     is_finite (far (-1) 0%nat) = true /\ is_finite (far 1 0%nat) = true /\ is_nan (p 0%nat) = true) /\
  (forall L p0 p1, segment L p0 p1 1 = None).
Proof.
  split; [|split; [|reflexivity]]; eexists _, _; (split; [reflexivity|]); (split; [reflexivity|]); vm_compute; repeat split; reflexivity.
Qed.
Print Assumptions C109_refuted.

Example C109_met : a_length (of_int 5) /\ coordinate origin (fun k => of_int (nth k [3; 4]%Z 0%Z)) 0 /\ coordinate origin (fun k => of_int (nth k [3; 4]%Z 0%Z)) 1.
Proof.
  assert (S : forall z, (1 <= z <= 8)%Z -> sized 200 (IZR z)).
  { intros z H. assert (1 <= IZR z <= 8) by (split; apply IZR_le; lia). assert (bpow radix2 (- (200)) <= 1) by (change 1 with (bpow radix2 0); apply bpow_le; lia).
    assert (8 <= bpow radix2 200) by (change 8 with (bpow radix2 3); apply bpow_le; lia). unfold sized. rewrite Rabs_pos_eq by lra. split; [right|]; lra. }
  destruct (of_int_ok 5 eq_refl) as [E5 F5]. destruct (of_int_ok 3 eq_refl) as [E3 F3]. destruct (of_int_ok 4 eq_refl) as [E4 F4]. destruct (of_int_ok 0 eq_refl) as [E0 F0].
  split; [split; [split; [exact F5|rewrite E5; apply S; lia]|rewrite E5; lra]|].
  assert (B : Rabs 0 <= bpow radix2 900) by (rewrite Rabs_R0; apply bpow_ge_0).
  split; (split; [exact F0|]); cbn [nth origin]; unfold origin; rewrite ?E0, ?E3, ?E4, Rminus_0_r; (split; [assumption|]); (split; [exact B|]); apply S; lia.
Qed.
