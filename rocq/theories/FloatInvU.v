(** Property C107, continued: the universal function for 3x3 inverses in double precision. *)
From Coq Require Import ZArith List Reals Psatz Lia Lra.
From Flocq Require Import Core BinarySingleNaN Relative.
From Verif Require Import FloatModel FloatProofs FloatDot FloatProps FloatSolve FloatWeight FloatInv FloatSegment.
Import ListNotations.
Local Open Scope R_scope.

(** ** Model *)

(** linalg/utils.py:764-772, the two forms of an entry of [inv3x3u]: both products are divided
    by the determinant before they are subtracted. *)
Definition posd (d x y z w : f64) : f64 := fsub (fdiv (fmul x y) d) (fdiv (fmul z w) d).
Definition negd (d x y z w : f64) : f64 := fadd (fdiv (fmul (Bopp x) y) d) (fdiv (fmul z w) d).
(** linalg/utils.py:754-772, [inv3x3u]; the determinant (756-763) is that of [inv3x3].  Division by
    zero gives infinities and NaN. *)
Definition inv3x3u (A : fmat) (i j : nat) : f64 :=
  let a := A 0%nat in let b := A 1%nat in let c := A 2%nat in let d := det3 A in
  match i, j with
  | 0%nat, 0%nat => posd d (b 1%nat) (c 2%nat) (b 2%nat) (c 1%nat)
  | 0%nat, 1%nat => negd d (a 1%nat) (c 2%nat) (a 2%nat) (c 1%nat)
  | 0%nat, _ => posd d (a 1%nat) (b 2%nat) (a 2%nat) (b 1%nat)
  | 1%nat, 0%nat => negd d (b 0%nat) (c 2%nat) (b 2%nat) (c 0%nat)
  | 1%nat, 1%nat => posd d (a 0%nat) (c 2%nat) (a 2%nat) (c 0%nat)
  | 1%nat, _ => negd d (a 0%nat) (b 2%nat) (a 2%nat) (b 0%nat)
  | _, 0%nat => posd d (b 0%nat) (c 1%nat) (b 1%nat) (c 0%nat)
  | _, 1%nat => negd d (a 0%nat) (c 1%nat) (a 1%nat) (c 0%nat)
  | _, _ => posd d (a 0%nat) (b 1%nat) (a 1%nat) (b 0%nat)
  end.

(** ** Proofs *)

(** A quotient with a product of two entries as numerator. *)
Lemma quot_ok (x y D : f64) : fsized 150 x -> fsized 150 y -> is_finite D = true -> sized 499 (B2R D) -> B2R D <> 0 ->
  exists p' e, Rabs (p' - B2R x * B2R y) <= u * Rabs (B2R x * B2R y) /\ Rabs e <= u /\
    is_finite (fdiv (fmul x y) D) = true /\ B2R (fdiv (fmul x y) D) = p' / B2R D * (1 + e) /\ Rabs (B2R (fdiv (fmul x y) D)) <= bpow radix2 799.
Proof.
  intros X Y FD SD ND. destruct (fsized_mul 150 150 x y ltac:(lia) ltac:(lia) ltac:(lia) X Y) as ([F S] & V & E).
  pose proof (sized_div _ _ _ _ S SD ND) as Q. change (150 + 150 + 499)%Z with 799%Z in Q. destruct (factor 799 _ ltac:(lia) Q) as (e & He & Ee & Se).
  destruct (fdiv_ok (fmul x y) D 799) as [W G]; [lia|exact F|exact ND|apply Q|].
  exists (B2R (fmul x y)), e. split; [exact E|]. split; [exact He|]. split; [exact G|]. rewrite W. split; [exact Ee|apply Se].
Qed.

(** The difference of two such quotients. *)
Lemma quots_ok p1 p2 D d de X e1 e2 p1' p2' :
  d <> 0 -> d * X = p1 - p2 -> Rabs (D - d) <= de -> de <= Rabs d / 4 ->
  Rabs (p1' - p1) <= u * Rabs p1 -> Rabs (p2' - p2) <= u * Rabs p2 -> Rabs e1 <= u -> Rabs e2 <= u ->
  let r := (Rabs p1 + Rabs p2) / Rabs d in let k := de / Rabs d in
  Rabs (p1' / D * (1 + e1) - p2' / D * (1 + e2) - X) <= 2.7 * u * r + 4 / 3 * (k * Rabs X).
Proof.
  intros NZ EX HD Hde H1 H2 He1 He2 r k. assert (U : u = / 9007199254740992) by reflexivity. pose proof (Rabs_pos_lt d NZ) as D0.
  destruct (quotient_error (p1 - p2) d (p1' - p2') D (u * (Rabs p1 + Rabs p2)) de NZ) as (ND & LD & Q); [|exact HD|exact Hde|].
  { replace (p1' - p2' - (p1 - p2)) with ((p1' - p1) + - (p2' - p2)) by ring. eapply Rle_trans; [apply Rabs_triang|]. rewrite Rabs_Ropp. lra. }
  replace ((p1 - p2) / d) with X in Q by (rewrite <- EX; field; exact NZ).
  replace ((u * (Rabs p1 + Rabs p2) + Rabs X * de) / Rabs d) with (u * r + k * Rabs X) in Q by (unfold r, k; field; lra).
  assert (S : forall p p' e, Rabs (p' - p) <= u * Rabs p -> Rabs e <= u -> Rabs (p' / D * e) <= 1.34 * u * (Rabs p / Rabs d)).
  { intros p p' e Hp He. assert (Hp' : Rabs p' <= (1 + u) * Rabs p). { replace p' with (p + (p' - p)) by ring. eapply Rle_trans; [apply Rabs_triang|]. lra. }
    unfold Rdiv. rewrite !Rabs_mult, Rabs_inv. assert (I : / Rabs D <= 4 / 3 * / Rabs d).
    { replace (4 / 3 * / Rabs d) with (/ (3 / 4 * Rabs d)) by (field; lra). apply Rinv_le; lra. }
    pose proof (Rabs_pos p') as P'0. pose proof (Rabs_pos e). pose proof (Rabs_pos p). assert (I0 : 0 < / Rabs D) by (apply Rinv_0_lt_compat; lra).
    assert (J0 : 0 < / Rabs d) by (apply Rinv_0_lt_compat; lra).
    apply Rle_trans with ((1 + u) * Rabs p * (4 / 3 * / Rabs d) * u).
    - apply Rmult_le_compat; [apply Rmult_le_pos; lra|assumption| |exact He]. apply Rmult_le_compat; lra.
    - replace ((1 + u) * Rabs p * (4 / 3 * / Rabs d) * u) with (((1 + u) * (4 / 3)) * (u * (Rabs p * / Rabs d))) by ring.
      replace (1.34 * u * (Rabs p * / Rabs d)) with (1.34 * (u * (Rabs p * / Rabs d))) by ring.
      apply Rmult_le_compat_r; [|rewrite U; lra]. apply Rmult_le_pos; [rewrite U; lra|]. apply Rmult_le_pos; lra. }
  pose proof (S _ _ _ H1 He1) as S1. pose proof (S _ _ _ H2 He2) as S2.
  replace (p1' / D * (1 + e1) - p2' / D * (1 + e2) - X) with (((p1' - p2') / D - X) + (p1' / D * e1 + - (p2' / D * e2))) by (field; exact ND).
  eapply Rle_trans; [apply Rabs_triang|]. eapply Rle_trans; [apply Rplus_le_compat_l, Rabs_triang|]. rewrite Rabs_Ropp.
  assert (R : r = Rabs p1 / Rabs d + Rabs p2 / Rabs d) by (unfold r; field; lra). set (r1 := Rabs p1 / Rabs d) in *. set (r2 := Rabs p2 / Rabs d) in *.
  assert (0 <= r1) by (apply Rmult_le_pos; [apply Rabs_pos|left; apply Rinv_0_lt_compat, D0]). assert (0 <= r2) by (apply Rmult_le_pos; [apply Rabs_pos|left; apply Rinv_0_lt_compat, D0]).
  rewrite R in *. clearbody r1 r2. rewrite U in *. lra.
Qed.

Section Entry.
Variables (x y z w D : f64) (d P Y : R).
Hypotheses (Hx : fsized 150 x) (Hy : fsized 150 y) (Hz : fsized 150 z) (Hw : fsized 150 w).
Hypotheses (HD : fnear D d (7.2 * u * P)) (NZ : d <> 0) (DP : Rabs d <= P) (PK : P <= 2 ^ 48 * Rabs d)
  (PL : bpow radix2 (-450) <= P) (PU : P <= bpow radix2 456).

Lemma D_ok : is_finite D = true /\ sized 499 (B2R D) /\ B2R D <> 0 /\ Rabs (B2R D - d) <= 7.2 * u * P /\ 7.2 * u * P <= Rabs d / 4.
Proof.
  destruct HD as [F N]. assert (U : u = / 9007199254740992) by reflexivity. unfold near in N. pose proof (Rabs_pos_lt d NZ) as D0.
  assert (S : 7.2 * u * P <= Rabs d / 4) by (rewrite U; lra).
  assert (L : 3 / 4 * Rabs d <= Rabs (B2R D)). { pose proof (Rabs_triang (d - B2R D) (B2R D)) as T. replace (d - B2R D + B2R D) with d in T by ring. rewrite (Rabs_minus_sym d) in T. lra. }
  assert (M : Rabs (B2R D) <= 2 * P). { replace (B2R D) with (d + (B2R D - d)) by ring. eapply Rle_trans; [apply Rabs_triang|]. lra. }
  assert (L2 : bpow radix2 (-498) <= Rabs d).
  { change (-498)%Z with (-48 + -450)%Z. rewrite bpow_plus. change (bpow radix2 (-48)) with (/ 281474976710656). lra. }
  assert (E1 : bpow radix2 (-498) = 2 * bpow radix2 (-499)) by (change (-498)%Z with (1 + -499)%Z; rewrite bpow_plus; reflexivity). pose proof (bpow_gt_0 radix2 (-499)).
  split; [exact F|]. split; [|split; [|split; assumption]].
  - split; [right; change (- (499))%Z with (-499)%Z; lra|]. apply Rle_trans with (bpow radix2 1 * bpow radix2 456); [change (bpow radix2 1) with 2; lra|]. rewrite <- bpow_plus. apply bpow_le. lia.
  - intros C. rewrite C, Rabs_R0 in L. lra.
Qed.

Lemma entry_ok (q q1 q2 : f64) (p1 p2 : R) : d * Y = p1 - p2 -> is_finite q1 = true -> is_finite q2 = true ->
  Rabs (B2R q1) <= bpow radix2 799 -> Rabs (B2R q2) <= bpow radix2 799 ->
  (exists p1' e1, Rabs (p1' - p1) <= u * Rabs p1 /\ Rabs e1 <= u /\ B2R q1 = p1' / B2R D * (1 + e1)) ->
  (exists p2' e2, Rabs (p2' - p2) <= u * Rabs p2 /\ Rabs e2 <= u /\ B2R q2 = p2' / B2R D * (1 + e2)) ->
  (Rabs p1 + Rabs p2 = 0 \/ bpow radix2 (-300) <= Rabs p1 + Rabs p2) ->
  is_finite q = true -> B2R q = rnd (B2R q1 - B2R q2) ->
  Rabs (B2R q - Y) <= / 2 ^ 49 * ((Rabs p1 + Rabs p2) / Rabs d + P / Rabs d * Rabs Y).
Proof.
  intros EY F1 F2 B1 B2 (p1' & e1 & H1 & He1 & V1) (p2' & e2 & H2 & He2 & V2) M F V. destruct D_ok as (FD & SD & ND & HDd & Hde).
  assert (U : u = / 9007199254740992) by reflexivity. pose proof (Rabs_pos_lt d NZ) as D0.
  destruct M as [M|M].
  - pose proof (Rabs_pos p1). pose proof (Rabs_pos p2). assert (Z : forall p, Rabs p <= 0 -> p = 0) by (intros p Hp; destruct (Req_dec p 0) as [|N]; [assumption|]; apply Rabs_pos_lt in N; lra).
    assert (Z1 : p1 = 0) by (apply Z; lra). assert (Z2 : p2 = 0) by (apply Z; lra). subst p1 p2. rewrite Rabs_R0, Rminus_0_r in *.
    assert (Y0 : Y = 0). { apply Rmult_integral in EY. tauto. }
    assert (Q1 : p1' = 0) by (apply Z; lra). assert (Q2 : p2' = 0) by (apply Z; lra). subst p1' p2'. rewrite V, V1, V2. unfold Rdiv. rewrite !Rmult_0_l, Rminus_0_r, rnd_0, Y0, Rminus_0_r, !Rabs_R0, Rplus_0_l, Rmult_0_l, Rmult_0_r. lra.
  - pose proof (quots_ok p1 p2 (B2R D) d _ Y e1 e2 p1' p2' NZ EY HDd Hde H1 H2 He1 He2) as Q. cbv zeta in Q. rewrite <- V1, <- V2 in Q.
    set (r := (Rabs p1 + Rabs p2) / Rabs d) in *. set (k := P / Rabs d). replace (7.2 * u * P / Rabs d) with (7.2 * u * k) in Q by (unfold k; field; lra).
    assert (K : 1 <= k). { apply (Rmult_le_reg_r (Rabs d)); [exact D0|]. unfold k, Rdiv. rewrite Rmult_assoc, Rinv_l by lra. lra. }
    assert (ET : eta <= 0.01 * u * r).
    { apply (Rmult_le_reg_l (Rabs d)); [exact D0|]. replace (Rabs d * (0.01 * u * r)) with (0.01 * u * (Rabs p1 + Rabs p2)) by (unfold r; field; lra).
      apply Rle_trans with (bpow radix2 456 * eta); [apply Rmult_le_compat_r; [pose proof eta_pos; lra|lra]|].
      rewrite <- eta_bpow, <- bpow_plus. assert (B : bpow radix2 (456 + -1075) <= bpow radix2 (-80 + -300)) by (apply bpow_le; lia).
      rewrite (bpow_plus radix2 (-80) (-300)) in B. change (bpow radix2 (-80)) with (/ 1208925819614629174706176) in B.
      pose proof (bpow_gt_0 radix2 (-300)). rewrite U. lra. }
    assert (KY : Rabs Y <= k * Rabs Y). { rewrite <- (Rmult_1_l (Rabs Y)) at 1. apply Rmult_le_compat_r; [apply Rabs_pos|exact K]. }
    assert (R0 : 0 <= r). { unfold r, Rdiv. apply Rmult_le_pos; [pose proof (bpow_gt_0 radix2 (-300)); lra|left; apply Rinv_0_lt_compat, D0]. }
    rewrite V. set (s := B2R q1 - B2R q2) in *. pose proof (rnd_err s) as RE. pose proof (Rabs_pos Y) as Y0.
    assert (S : Rabs s <= Rabs Y + (2.7 * u * r + 4 / 3 * (7.2 * u * k * Rabs Y))). { replace s with (Y + (s - Y)) by ring. eapply Rle_trans; [apply Rabs_triang|]. lra. }
    assert (US : u * Rabs s <= u * (Rabs Y + (2.7 * u * r + 4 / 3 * (7.2 * u * k * Rabs Y)))) by (apply Rmult_le_compat_l; [rewrite U; lra|exact S]).
    replace (rnd s - Y) with ((rnd s - s) + (s - Y)) by ring. eapply Rle_trans; [apply Rabs_triang|].
    replace (7.2 * u * k * Rabs Y) with (7.2 * u * (k * Rabs Y)) in * by ring. set (ky := k * Rabs Y) in *. clearbody ky r. rewrite U in *. lra.
Qed.

Lemma sub_fits (q1 q2 : f64) : is_finite q1 = true -> is_finite q2 = true -> Rabs (B2R q1) <= bpow radix2 799 -> Rabs (B2R q2) <= bpow radix2 799 ->
  (is_finite (fsub q1 q2) = true /\ B2R (fsub q1 q2) = rnd (B2R q1 - B2R q2)) /\ (is_finite (fadd q1 q2) = true /\ B2R (fadd q1 q2) = rnd (B2R q1 + B2R q2)).
Proof.
  intros F1 F2 B1 B2. assert (E : bpow radix2 800 = 2 * bpow radix2 799) by (change 800%Z with (1 + 799)%Z; rewrite bpow_plus; reflexivity).
  split; [destruct (fsub_ok q1 q2 800) as [V F]|destruct (fadd_ok q1 q2 800) as [V F]]; try lia; try assumption; try (split; assumption);
    (eapply Rle_trans; [apply Rabs_triang|]); rewrite ?Rabs_Ropp; lra.
Qed.
Lemma posd_ok : d * Y = B2R x * B2R y - B2R z * B2R w ->
  (Rabs (B2R x * B2R y) + Rabs (B2R z * B2R w) = 0 \/ bpow radix2 (-300) <= Rabs (B2R x * B2R y) + Rabs (B2R z * B2R w)) ->
  is_finite (posd D x y z w) = true /\
  Rabs (B2R (posd D x y z w) - Y) <= / 2 ^ 49 * ((Rabs (B2R x * B2R y) + Rabs (B2R z * B2R w)) / Rabs d + P / Rabs d * Rabs Y).
Proof.
  intros EY M. destruct D_ok as (FD & SD & ND & _). destruct (quot_ok x y D Hx Hy FD SD ND) as (p1 & e1 & A1 & A2 & A3 & A4 & A5).
  destruct (quot_ok z w D Hz Hw FD SD ND) as (p2 & e2 & C1 & C2 & C3 & C4 & C5). destruct (sub_fits _ _ A3 C3 A5 C5) as [[F V] _].
  split; [exact F|]. apply (entry_ok _ _ _ _ _ EY A3 C3 A5 C5); [exists p1, e1; auto|exists p2, e2; auto|exact M|exact F|exact V].
Qed.
Lemma negd_ok : d * Y = - B2R x * B2R y + B2R z * B2R w ->
  (Rabs (B2R x * B2R y) + Rabs (B2R z * B2R w) = 0 \/ bpow radix2 (-300) <= Rabs (B2R x * B2R y) + Rabs (B2R z * B2R w)) ->
  is_finite (negd D x y z w) = true /\
  Rabs (B2R (negd D x y z w) - Y) <= / 2 ^ 49 * ((Rabs (B2R x * B2R y) + Rabs (B2R z * B2R w)) / Rabs d + P / Rabs d * Rabs Y).
Proof.
  intros EY M. destruct D_ok as (FD & SD & ND & _). destruct (quot_ok (Bopp x) y D (fsized_opp _ _ Hx) Hy FD SD ND) as (p1 & e1 & A1 & A2 & A3 & A4 & A5).
  destruct (quot_ok z w D Hz Hw FD SD ND) as (p2 & e2 & C1 & C2 & C3 & C4 & C5). destruct (sub_fits _ _ A3 C3 A5 C5) as [_ [F V]]. rewrite B2R_Bopp in A1.
  split; [exact F|].
  assert (AB : Rabs (- B2R x * B2R y) = Rabs (B2R x * B2R y)) by (rewrite Ropp_mult_distr_l_reverse; apply Rabs_Ropp).
  assert (AC : Rabs (- (B2R z * B2R w)) = Rabs (B2R z * B2R w)) by apply Rabs_Ropp.
  assert (FO : is_finite (Bopp (fdiv (fmul z w) D)) = true) by (rewrite is_finite_Bopp; exact C3).
  pose proof (entry_ok (negd D x y z w) (fdiv (fmul (Bopp x) y) D) (Bopp (fdiv (fmul z w) D)) (- B2R x * B2R y) (- (B2R z * B2R w))) as Q.
  rewrite AB, AC in Q. apply Q; clear Q.
  - rewrite EY. ring.
  - exact A3.
  - exact FO.
  - exact A5.
  - rewrite B2R_Bopp, Rabs_Ropp. exact C5.
  - exists p1, e1. rewrite <- AB. auto.
  - exists (- p2), e2. split; [|split; [exact C2|rewrite B2R_Bopp, C4; field; exact ND]].
    replace (- p2 - - (B2R z * B2R w)) with (- (p2 - B2R z * B2R w)) by ring. rewrite Rabs_Ropp. exact C1.
  - exact M.
  - exact F.
  - rewrite B2R_Bopp. unfold Rminus. rewrite Ropp_involutive. exact V.
Qed.
End Entry.

(** ** Theorems *)

(** The bound of [inv3x3] holds for the universal function as well. *)
Theorem C107_error_3x3u A X : (forall i j, (i < 3)%nat -> (j < 3)%nat -> fsized 150 (A i j)) ->
  inverse 3 (val A) X -> condition3 (val A) <= 2 ^ 48 -> forall i j, (i < 3)%nat -> (j < 3)%nat ->
  is_finite (inv3x3u A i j) = true /\
  Rabs (B2R (inv3x3u A i j) - X i j) <= / 2 ^ 49 * (minor_size (val A) i j / Rabs (rdet3 (val A)) + condition3 (val A) * Rabs (X i j)).
Proof.
  intros H HX HC i j Hi Hj. pose proof (cramer3_entries _ _ i j HX Hi Hj) as E. pose proof (cramer3_det _ _ HX) as NZ.
  pose proof (perm3_size A H) as SP. pose proof (is_large 450 _ ltac:(lia) SP) as LP.
  assert (DP : Rabs (rdet3 (val A)) <= perm3 (val A)).
  { unfold rdet3, perm3. cbv zeta. set (p1 := val A 0 0 * val A 1 1 * val A 2 2). set (p2 := val A 0 0 * val A 1 2 * val A 2 1). set (p3 := val A 0 1 * val A 1 0 * val A 2 2).
    set (p4 := val A 0 1 * val A 1 2 * val A 2 0). set (p5 := val A 0 2 * val A 1 0 * val A 2 1). set (p6 := val A 0 2 * val A 1 1 * val A 2 0).
    pose proof (Rabs_le_inv p1 _ (Rle_refl _)). pose proof (Rabs_le_inv p2 _ (Rle_refl _)). pose proof (Rabs_le_inv p3 _ (Rle_refl _)).
    pose proof (Rabs_le_inv p4 _ (Rle_refl _)). pose proof (Rabs_le_inv p5 _ (Rle_refl _)). pose proof (Rabs_le_inv p6 _ (Rle_refl _)). apply Rabs_le. lra. }
  pose proof (Rabs_pos_lt _ NZ) as D0. destruct SP as [SP|[SL SU]]; [lra|]. destruct LP as [LP|LP]; [lra|]. pose proof (det3_ok A H LP) as ND.
  assert (PK : perm3 (val A) <= 2 ^ 48 * Rabs (rdet3 (val A))).
  { unfold condition3 in HC. apply (Rmult_le_compat_r (Rabs (rdet3 (val A)))) in HC; [|lra]. unfold Rdiv in HC. rewrite Rmult_assoc, Rinv_l, Rmult_1_r in HC by lra. exact HC. }
  assert (SM : minor_size (val A) i j = 0 \/ bpow radix2 (-300) <= minor_size (val A) i j).
  { destruct (minor_sized A i j H) as [Z|[Z _]]; [left; exact Z|right; exact Z]. }
  change (bpow radix2 (- (450)) <= perm3 (val A)) with (bpow radix2 (-450) <= perm3 (val A)) in SL. change (450 + 6)%Z with 456%Z in SU.
  unfold condition3. pose proof (fun x y z w Hx Hy Hz Hw => posd_ok x y z w (det3 A) (rdet3 (val A)) (perm3 (val A)) (X i j) Hx Hy Hz Hw ND NZ DP PK SL SU) as PP.
  pose proof (fun x y z w Hx Hy Hz Hw => negd_ok x y z w (det3 A) (rdet3 (val A)) (perm3 (val A)) (X i j) Hx Hy Hz Hw ND NZ DP PK SL SU) as NN.
  assert (PP' : forall x y z w, fsized 150 x -> fsized 150 y -> fsized 150 z -> fsized 150 w -> radj (val A) i j = B2R x * B2R y - B2R z * B2R w ->
    minor_size (val A) i j = Rabs (B2R x * B2R y) + Rabs (B2R z * B2R w) -> inv3x3u A i j = posd (det3 A) x y z w ->
    is_finite (inv3x3u A i j) = true /\ Rabs (B2R (inv3x3u A i j) - X i j) <= / 2 ^ 49 * (minor_size (val A) i j / Rabs (rdet3 (val A)) + perm3 (val A) / Rabs (rdet3 (val A)) * Rabs (X i j))).
  { intros x y z w Hx Hy Hz Hw R M I. rewrite M in *. rewrite I. apply PP; try assumption. rewrite E. exact R. }
  assert (NN' : forall x y z w, fsized 150 x -> fsized 150 y -> fsized 150 z -> fsized 150 w -> radj (val A) i j = - B2R x * B2R y + B2R z * B2R w ->
    minor_size (val A) i j = Rabs (B2R x * B2R y) + Rabs (B2R z * B2R w) -> inv3x3u A i j = negd (det3 A) x y z w ->
    is_finite (inv3x3u A i j) = true /\ Rabs (B2R (inv3x3u A i j) - X i j) <= / 2 ^ 49 * (minor_size (val A) i j / Rabs (rdet3 (val A)) + perm3 (val A) / Rabs (rdet3 (val A)) * Rabs (X i j))).
  { intros x y z w Hx Hy Hz Hw R M I. rewrite M in *. rewrite I. apply NN; try assumption. rewrite E. exact R. }
  clear PP NN E SM. destruct i as [|[|[|i]]]; [| | |lia]; (destruct j as [|[|[|j]]]; [| | |lia]);
    first [eapply PP'; [| | | | | |reflexivity]|eapply NN'; [| | | | | |reflexivity]]; try (apply H; lia); try reflexivity;
    unfold minor_size; cbn [other1 other2]; unfold val; first [ring|lra].
Qed.
Print Assumptions C107_error_3x3u.

(** If the determinant computed is zero no entry is a number. *)
Theorem C107_singular_3x3u A T : integers 3 (2 ^ 16) A T -> singular 3 (val A) ->
  forall i j, (i < 3)%nat -> (j < 3)%nat -> is_finite (inv3x3u A i j) = false.
Proof.
  intros H S i j Hi Hj. pose proof (det3_int _ _ H) as D. assert (Z : zdet3 T = 0%Z).
  { apply eq_IZR. rewrite <- (singular3 _ S). unfold zdet3, rdet3, val. rewrite ?plus_IZR, ?minus_IZR, ?mult_IZR.
    assert (V : forall k l, (k < 3)%nat -> (l < 3)%nat -> B2R (A k l) = IZR (T k l)) by (intros k l Hk Hl; apply H; assumption).
    rewrite !V by lia. repeat (rewrite plus_IZR || rewrite minus_IZR || rewrite mult_IZR). reflexivity. }
  rewrite Z in D. assert (Q : forall x y : f64, is_finite x = false -> is_finite y = false -> is_finite (fsub x y) = false /\ is_finite (fadd x y) = false).
  { intros [a|a| |a m e q] [b|b| |b n f p]; cbn; try discriminate; intros _ _; split; try reflexivity; destruct a, b; reflexivity. }
  unfold inv3x3u. destruct i as [|[|[|i]]]; [| | |lia]; (destruct j as [|[|[|j]]]; [| | |lia]); unfold posd, negd; apply Q; apply div_zero, D.
Qed.
Print Assumptions C107_singular_3x3u.

(** For small integers the universal function need not return the rounded inverse, which the other
    functions do. *)
Theorem C107_ufunc_refuted : exists A T X, integers 3 4 A T /\ inverse 3 (val A) X /\
  B2R (inv3x3 A 0 0) = rnd (X 0%nat 0%nat) /\ B2R (inv3x3u A 0 0) <> rnd (X 0%nat 0%nat).
Proof.
  assert (V : forall i j, (i < 3)%nat -> (j < 3)%nat -> is_finite (table3 ex3 i j) = true /\ val (table3 ex3) i j = IZR (nth j (nth i ex3 nil) 0%Z) /\ (Z.abs (nth j (nth i ex3 nil) 0) <= 4)%Z).
  { intros i j Hi Hj. split; [|split; [apply of_int_ok|]]; (destruct i as [|[|[|i]]]; [| | |lia]; (destruct j as [|[|[|j]]]; [| | |lia]); (cbn; lia) || reflexivity). }
  exists (table3 ex3), (fun i j => nth j (nth i ex3 nil) 0%Z), (fun i j => IZR (nth j (nth i [[11; -4; 1]; [-4; 8; -2]; [1; -2; 5]] nil) 0)%Z / 18).
  destruct C107_met as (I & _ & _ & HX). split; [exact V|]. split; [exact HX|].
  pose proof (proj2 (proj1 (C107_integers_3x3 _ _ I) _ HX 0%nat 0%nat ltac:(lia) ltac:(lia))) as E. split; [exact E|]. rewrite <- E.
  apply Rlt_not_eq. apply lt_by; vm_compute; reflexivity.
Qed.
Print Assumptions C107_ufunc_refuted.
