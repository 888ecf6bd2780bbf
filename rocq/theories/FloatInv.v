(** Property C107: the closed-form inverses in double precision. *)
From Coq Require Import ZArith List Reals Psatz Lia Lra.
From Flocq Require Import Core BinarySingleNaN Relative.
From Verif Require Import FloatModel FloatProofs FloatDot FloatProps FloatSolve FloatWeight.
Import ListNotations.
Local Open Scope R_scope.

(** ** Model

    Products and sums are evaluated from left to right; Numba without [fastmath] neither
    reorders nor fuses.  A matrix is a function of two indices. *)
Definition fmat := nat -> nat -> f64.

(** linalg/utils.py:724, 734, the determinant of a 2x2 matrix. *)
Definition det2 (A : fmat) : f64 := fsub (fmul (A 0%nat 0%nat) (A 1%nat 1%nat)) (fmul (A 0%nat 1%nat) (A 1%nat 0%nat)).
(** linalg/utils.py:735-738, [inv2x2u]: a division by zero gives an infinity or NaN. *)
Definition inv2x2u (A : fmat) (i j : nat) : f64 :=
  match i, j with
  | 0%nat, 0%nat => fdiv (A 1%nat 1%nat) (det2 A)
  | 1%nat, 1%nat => fdiv (A 0%nat 0%nat) (det2 A)
  | 0%nat, 1%nat => fdiv (Bopp (A 0%nat 1%nat)) (det2 A)
  | _, _ => fdiv (Bopp (A 1%nat 0%nat)) (det2 A)
  end.
(** linalg/utils.py:721-729, [inv2x2]: divisions of scalars in compiled code raise
    ZeroDivisionError ([None]) for a zero of either sign. *)
Definition is_zero (x : f64) : bool := match x with B754_zero _ => true | _ => false end.
Definition inv2x2 (A : fmat) : option fmat := if is_zero (det2 A) then None else Some (inv2x2u A).

(** linalg/utils.py:778-785, 756-763 and 803-810, the determinant of a 3x3 matrix. *)
Definition prod3 (x y z : f64) : f64 := fmul (fmul x y) z.
Definition det3 (A : fmat) : f64 :=
  let a := A 0%nat in let b := A 1%nat in let c := A 2%nat in
  fsub (fadd (fadd (fsub (fsub (prod3 (a 0%nat) (b 1%nat) (c 2%nat))
    (prod3 (a 0%nat) (b 2%nat) (c 1%nat)))
    (prod3 (a 1%nat) (b 0%nat) (c 2%nat)))
    (prod3 (a 1%nat) (b 2%nat) (c 0%nat)))
    (prod3 (a 2%nat) (b 0%nat) (c 1%nat)))
    (prod3 (a 2%nat) (b 1%nat) (c 0%nat)).
(** linalg/utils.py:786-794 and 811-819, the adjugate. *)
Definition pos (x y z w : f64) : f64 := fsub (fmul x y) (fmul z w).
Definition neg (x y z w : f64) : f64 := fadd (fmul (Bopp x) y) (fmul z w).
Definition adj3 (A : fmat) (i j : nat) : f64 :=
  let a := A 0%nat in let b := A 1%nat in let c := A 2%nat in
  match i, j with
  | 0%nat, 0%nat => pos (b 1%nat) (c 2%nat) (b 2%nat) (c 1%nat)
  | 0%nat, 1%nat => neg (a 1%nat) (c 2%nat) (a 2%nat) (c 1%nat)
  | 0%nat, _ => pos (a 1%nat) (b 2%nat) (a 2%nat) (b 1%nat)
  | 1%nat, 0%nat => neg (b 0%nat) (c 2%nat) (b 2%nat) (c 0%nat)
  | 1%nat, 1%nat => pos (a 0%nat) (c 2%nat) (a 2%nat) (c 0%nat)
  | 1%nat, _ => neg (a 0%nat) (b 2%nat) (a 2%nat) (b 0%nat)
  | _, 0%nat => pos (b 0%nat) (c 1%nat) (b 1%nat) (c 0%nat)
  | _, 1%nat => neg (a 0%nat) (c 1%nat) (a 1%nat) (c 0%nat)
  | _, _ => pos (a 0%nat) (b 1%nat) (a 1%nat) (b 0%nat)
  end.
(** linalg/utils.py:775-796, [inv3x3], and 799-821, each slice of [inv3x3_bulk]: the array is
    divided by the determinant, elements divided by zero are infinities or NaN. *)
Definition inv3x3 (A : fmat) (i j : nat) : f64 := fdiv (adj3 A i j) (det3 A).

(** ** Specification *)
Definition val (A : fmat) (i j : nat) : R := B2R (A i j).
(** [X] is the inverse of the [n] x [n] matrix [M]. *)
Definition inverse (n : nat) (M X : nat -> nat -> R) : Prop :=
  forall i j, (i < n)%nat -> (j < n)%nat -> Rsum n (fun k => M i k * X k j) = if Nat.eqb i j then 1 else 0.
(** A singular matrix: a non-trivial combination of its columns vanishes. *)
Definition singular (n : nat) (M : nat -> nat -> R) : Prop :=
  exists v, (exists i, (i < n)%nat /\ v i <> 0) /\ forall i, (i < n)%nat -> Rsum n (fun k => M i k * v k) = 0.
(** Integers of at most [m] in magnitude. *)
Definition integers (n : nat) (m : Z) (A : fmat) (T : nat -> nat -> Z) : Prop :=
  forall i j, (i < n)%nat -> (j < n)%nat -> is_finite (A i j) = true /\ B2R (A i j) = IZR (T i j) /\ (Z.abs (T i j) <= m)%Z.

(** Determinants, and the sums of the magnitudes of their products. *)
Definition rdet2 (M : nat -> nat -> R) : R := M 0%nat 0%nat * M 1%nat 1%nat - M 0%nat 1%nat * M 1%nat 0%nat.
Definition rdet3 (M : nat -> nat -> R) : R :=
  let a := M 0%nat in let b := M 1%nat in let c := M 2%nat in
  a 0%nat * b 1%nat * c 2%nat - a 0%nat * b 2%nat * c 1%nat - a 1%nat * b 0%nat * c 2%nat + a 1%nat * b 2%nat * c 0%nat + a 2%nat * b 0%nat * c 1%nat - a 2%nat * b 1%nat * c 0%nat.
Definition perm2 (M : nat -> nat -> R) : R := Rabs (M 0%nat 0%nat * M 1%nat 1%nat) + Rabs (M 0%nat 1%nat * M 1%nat 0%nat).
Definition perm3 (M : nat -> nat -> R) : R :=
  let a := M 0%nat in let b := M 1%nat in let c := M 2%nat in
  Rabs (a 0%nat * b 1%nat * c 2%nat) + Rabs (a 0%nat * b 2%nat * c 1%nat) + Rabs (a 1%nat * b 0%nat * c 2%nat) +
  Rabs (a 1%nat * b 2%nat * c 0%nat) + Rabs (a 2%nat * b 0%nat * c 1%nat) + Rabs (a 2%nat * b 1%nat * c 0%nat).
(** How much larger the products are than the determinant. *)
Definition condition2 (M : nat -> nat -> R) : R := perm2 M / Rabs (rdet2 M).
Definition condition3 (M : nat -> nat -> R) : R := perm3 M / Rabs (rdet3 M).
(** The products of the minor without row [j] and column [i]. *)
Definition other1 (i : nat) : nat := match i with 0%nat => 1%nat | _ => 0%nat end.
Definition other2 (i : nat) : nat := match i with 2%nat => 1%nat | _ => 2%nat end.
Definition minor_size (M : nat -> nat -> R) (i j : nat) : R :=
  Rabs (M (other1 j) (other1 i) * M (other2 j) (other2 i)) + Rabs (M (other1 j) (other2 i) * M (other2 j) (other1 i)).
(** Zero or of magnitude between 2^-e and 2^e. *)
Definition sized (e : Z) (x : R) : Prop := (x = 0 \/ bpow radix2 (- e) <= Rabs x) /\ Rabs x <= bpow radix2 e.
Definition fsized (e : Z) (x : f64) : Prop := is_finite x = true /\ sized e (B2R x).

(** ** Proofs: integers *)
Definition isint (x : f64) (z : Z) : Prop := is_finite x = true /\ B2R x = IZR z.
Lemma rnd_int z : (Z.abs z <= 2 ^ 53)%Z -> rnd (IZR z) = IZR z.
Proof.
  intros H. apply round_generic; [auto with typeclass_instances|].
  destruct (Z.eq_dec (Z.abs z) (2 ^ 53)) as [E|N].
  - assert (K : z = (2 ^ 53)%Z \/ z = (- (2 ^ 53))%Z) by lia. destruct K as [-> | ->].
    + change (IZR (2 ^ 53)) with (bpow radix2 53). apply generic_format_FLT_bpow; [reflexivity|lia].
    + rewrite opp_IZR. apply generic_format_opp. change (IZR (2 ^ 53)) with (bpow radix2 53). apply generic_format_FLT_bpow; [reflexivity|lia].
  - apply generic_format_FLT. exists (Float radix2 z 0); cbn; [unfold F2R; cbn; ring|lia|lia].
Qed.
Lemma int_size z : (Z.abs z <= 2 ^ 53)%Z -> Rabs (IZR z) <= bpow radix2 53.
Proof. intros H. rewrite <- abs_IZR. change (bpow radix2 53) with (IZR (2 ^ 53)). apply IZR_le, H. Qed.
Lemma int_mul x y a b : isint x a -> isint y b -> (Z.abs (a * b) <= 2 ^ 53)%Z -> isint (fmul x y) (a * b).
Proof.
  intros [F E] [G D] H. destruct (fmul_ok x y 53) as [V K]; [lia|exact F|exact G|rewrite E, D, <- mult_IZR; apply int_size, H|].
  split; [exact K|]. rewrite V, E, D, <- mult_IZR. apply rnd_int, H.
Qed.
Lemma int_add x y a b : isint x a -> isint y b -> (Z.abs (a + b) <= 2 ^ 53)%Z -> isint (fadd x y) (a + b).
Proof.
  intros [F E] [G D] H. destruct (fadd_ok x y 53) as [V K]; [lia|exact F|exact G|rewrite E, D, <- plus_IZR; apply int_size, H|].
  split; [exact K|]. rewrite V, E, D, <- plus_IZR. apply rnd_int, H.
Qed.
Lemma int_sub x y a b : isint x a -> isint y b -> (Z.abs (a - b) <= 2 ^ 53)%Z -> isint (fsub x y) (a - b).
Proof.
  intros [F E] [G D] H. destruct (fsub_ok x y 53) as [V K]; [lia|exact F|exact G|rewrite E, D, <- minus_IZR; apply int_size, H|].
  split; [exact K|]. rewrite V, E, D, <- minus_IZR. apply rnd_int, H.
Qed.
Lemma int_opp x a : isint x a -> isint (Bopp x) (- a).
Proof. intros [F E]. split; [rewrite is_finite_Bopp; exact F|]. rewrite B2R_Bopp, E, opp_IZR. reflexivity. Qed.
Lemma int_div x y a b : isint x a -> isint y b -> (Z.abs a <= 2 ^ 53)%Z -> b <> 0%Z -> is_finite (fdiv x y) = true /\ B2R (fdiv x y) = rnd (IZR a / IZR b).
Proof.
  intros [F E] [G D] H NZ. assert (B1 : 1 <= Rabs (IZR b)) by (rewrite <- abs_IZR; apply (IZR_le 1); lia).
  assert (NB : IZR b <> 0) by (intros C; rewrite C, Rabs_R0 in B1; lra).
  destruct (fdiv_ok x y 53) as [V K]; [lia|exact F|rewrite D; exact NB| |].
  - rewrite E, D. unfold Rdiv. rewrite Rabs_mult, (Rabs_inv (IZR b)). apply Rle_trans with (Rabs (IZR a) * 1); [|rewrite Rmult_1_r; apply int_size, H].
    apply Rmult_le_compat_l; [apply Rabs_pos|]. rewrite <- Rinv_1. apply Rinv_le_contravar; lra.
  - split; [exact K|]. rewrite V, E, D. reflexivity.
Qed.
Lemma div_zero x y : isint y 0 -> is_finite (fdiv x y) = false.
Proof. intros [G D]. assert (K : is_zero y = true). { destruct y as [s|s| |s m e H]; try reflexivity; try discriminate G. exfalso. cbn in D. revert D. apply F2R_neq_0. destruct s; discriminate. }
  destruct y; try discriminate K. destruct x; reflexivity.
Qed.
Lemma zprod (m a b : Z) : (Z.abs a <= m)%Z -> (Z.abs b <= m)%Z -> (Z.abs (a * b) <= m * m)%Z.
Proof. intros A B. rewrite Z.abs_mul. apply Z.mul_le_mono_nonneg; lia. Qed.
Lemma zprod3 (m a b c : Z) : (Z.abs a <= m)%Z -> (Z.abs b <= m)%Z -> (Z.abs c <= m)%Z -> (Z.abs (a * b * c) <= m * m * m)%Z.
Proof. intros A B C. rewrite Z.abs_mul. apply Z.mul_le_mono_nonneg; try lia. apply zprod; assumption. Qed.

Definition zdet2 (T : nat -> nat -> Z) : Z := (T 0%nat 0%nat * T 1%nat 1%nat - T 0%nat 1%nat * T 1%nat 0%nat)%Z.
Definition zdet3 (T : nat -> nat -> Z) : Z :=
  let a := T 0%nat in let b := T 1%nat in let c := T 2%nat in
  (a 0%nat * b 1%nat * c 2%nat - a 0%nat * b 2%nat * c 1%nat - a 1%nat * b 0%nat * c 2%nat + a 1%nat * b 2%nat * c 0%nat + a 2%nat * b 0%nat * c 1%nat - a 2%nat * b 1%nat * c 0%nat)%Z.
Definition zpos x y z w : Z := (x * y - z * w)%Z.
Definition zneg x y z w : Z := (- x * y + z * w)%Z.
Definition zadj (T : nat -> nat -> Z) (i j : nat) : Z :=
  let a := T 0%nat in let b := T 1%nat in let c := T 2%nat in
  match i, j with
  | 0%nat, 0%nat => zpos (b 1%nat) (c 2%nat) (b 2%nat) (c 1%nat)
  | 0%nat, 1%nat => zneg (a 1%nat) (c 2%nat) (a 2%nat) (c 1%nat)
  | 0%nat, _ => zpos (a 1%nat) (b 2%nat) (a 2%nat) (b 1%nat)
  | 1%nat, 0%nat => zneg (b 0%nat) (c 2%nat) (b 2%nat) (c 0%nat)
  | 1%nat, 1%nat => zpos (a 0%nat) (c 2%nat) (a 2%nat) (c 0%nat)
  | 1%nat, _ => zneg (a 0%nat) (b 2%nat) (a 2%nat) (b 0%nat)
  | _, 0%nat => zpos (b 0%nat) (c 1%nat) (b 1%nat) (c 0%nat)
  | _, 1%nat => zneg (a 0%nat) (c 1%nat) (a 1%nat) (c 0%nat)
  | _, _ => zpos (a 0%nat) (b 1%nat) (a 1%nat) (b 0%nat)
  end.

Lemma int_pos m x y z w a b c d : isint x a -> isint y b -> isint z c -> isint w d -> (0 <= m)%Z -> (m * m + m * m <= 2 ^ 53)%Z ->
  (Z.abs a <= m)%Z -> (Z.abs b <= m)%Z -> (Z.abs c <= m)%Z -> (Z.abs d <= m)%Z -> isint (pos x y z w) (zpos a b c d) /\ (Z.abs (zpos a b c d) <= 2 ^ 53)%Z.
Proof.
  intros X Y W V M0 M A B C D. pose proof (zprod m a b A B). pose proof (zprod m c d C D). unfold pos, zpos. split; [|lia].
  apply int_sub; [apply int_mul; [assumption..|lia]|apply int_mul; [assumption..|lia]|lia].
Qed.
Lemma int_neg m x y z w a b c d : isint x a -> isint y b -> isint z c -> isint w d -> (0 <= m)%Z -> (m * m + m * m <= 2 ^ 53)%Z ->
  (Z.abs a <= m)%Z -> (Z.abs b <= m)%Z -> (Z.abs c <= m)%Z -> (Z.abs d <= m)%Z -> isint (neg x y z w) (zneg a b c d) /\ (Z.abs (zneg a b c d) <= 2 ^ 53)%Z.
Proof.
  intros X Y W V M0 M A B C D. pose proof (zprod m a b A B). pose proof (zprod m c d C D). unfold neg, zneg. split; [|lia].
  apply int_add; [apply int_mul; [apply int_opp; assumption|assumption|lia]|apply int_mul; [assumption..|lia]|lia].
Qed.

Section Integers.
Variables (A : fmat) (T : nat -> nat -> Z).

Lemma det2_int : integers 2 (2 ^ 26) A T -> isint (det2 A) (zdet2 T) /\ (Z.abs (zdet2 T) <= 2 ^ 53)%Z.
Proof.
  intros H. assert (I : forall i j, (i < 2)%nat -> (j < 2)%nat -> isint (A i j) (T i j) /\ (Z.abs (T i j) <= 2 ^ 26)%Z).
  { intros i j Hi Hj. destruct (H i j Hi Hj) as (F & E & B). split; [split; assumption|exact B]. }
  destruct (I 0 0)%nat; [lia..|]. destruct (I 0 1)%nat; [lia..|]. destruct (I 1 0)%nat; [lia..|]. destruct (I 1 1)%nat; [lia..|].
  apply (int_pos (2 ^ 26)); try assumption; lia.
Qed.
Lemma adj3_int i j : integers 3 (2 ^ 16) A T -> (i < 3)%nat -> (j < 3)%nat -> isint (adj3 A i j) (zadj T i j) /\ (Z.abs (zadj T i j) <= 2 ^ 53)%Z.
Proof.
  intros H Hi Hj. assert (I : forall i j, (i < 3)%nat -> (j < 3)%nat -> isint (A i j) (T i j)) by (intros k l Hk Hl; destruct (H k l Hk Hl) as (F & E & B); split; assumption).
  assert (S : forall i j, (i < 3)%nat -> (j < 3)%nat -> (Z.abs (T i j) <= 2 ^ 16)%Z) by (intros k l Hk Hl; apply H; assumption).
  destruct i as [|[|[|i]]]; [| | |lia]; (destruct j as [|[|[|j]]]; [| | |lia]); cbn [adj3 zadj];
    first [apply (int_pos (2 ^ 16))|apply (int_neg (2 ^ 16))]; first [apply I; lia|apply S; lia|lia].
Qed.
Lemma det3_int : integers 3 (2 ^ 16) A T -> isint (det3 A) (zdet3 T).
Proof.
  intros H. assert (I : forall i j, (i < 3)%nat -> (j < 3)%nat -> isint (A i j) (T i j)) by (intros k l Hk Hl; destruct (H k l Hk Hl) as (F & E & B); split; assumption).
  assert (S : forall i j, (i < 3)%nat -> (j < 3)%nat -> (Z.abs (T i j) <= 2 ^ 16)%Z) by (intros k l Hk Hl; apply H; assumption).
  assert (P : forall k l m k' l' m', (k < 3)%nat -> (l < 3)%nat -> (m < 3)%nat -> (k' < 3)%nat -> (l' < 3)%nat -> (m' < 3)%nat ->
    isint (prod3 (A k k') (A l l') (A m m')) (T k k' * T l l' * T m m') /\ (Z.abs (T k k' * T l l' * T m m') <= 2 ^ 48)%Z).
  { intros k l m k' l' m' Hk Hl Hm Hk' Hl' Hm'. pose proof (S k k' Hk Hk') as S1. pose proof (S l l' Hl Hl') as S2. pose proof (S m m' Hm Hm') as S3.
    pose proof (zprod3 _ _ _ _ S1 S2 S3) as B. pose proof (zprod _ _ _ S1 S2) as B'. change (2 ^ 16 * 2 ^ 16 * 2 ^ 16)%Z with (2 ^ 48)%Z in B. split; [|exact B].
    apply int_mul; [apply int_mul; [apply I; lia|apply I; lia|lia]|apply I; lia|lia]. }
  destruct (P 0 1 2 0 1 2)%nat as [Q1 B1]; [lia..|]. destruct (P 0 1 2 0 2 1)%nat as [Q2 B2]; [lia..|]. destruct (P 0 1 2 1 0 2)%nat as [Q3 B3]; [lia..|].
  destruct (P 0 1 2 1 2 0)%nat as [Q4 B4]; [lia..|]. destruct (P 0 1 2 2 0 1)%nat as [Q5 B5]; [lia..|]. destruct (P 0 1 2 2 1 0)%nat as [Q6 B6]; [lia..|].
  unfold det3, zdet3. cbv zeta. apply int_sub; [apply int_add; [apply int_add; [apply int_sub; [apply int_sub; [exact Q1|exact Q2|]|exact Q3|]|exact Q4|]|exact Q5|]|exact Q6|]; lia.
Qed.
End Integers.

(** Cramer's rule. *)
Lemma cramer2 (M X : nat -> nat -> R) : inverse 2 M X ->
  let d := M 0%nat 0%nat * M 1%nat 1%nat - M 0%nat 1%nat * M 1%nat 0%nat in
  d * X 0%nat 0%nat = M 1%nat 1%nat /\ d * X 0%nat 1%nat = - M 0%nat 1%nat /\ d * X 1%nat 0%nat = - M 1%nat 0%nat /\ d * X 1%nat 1%nat = M 0%nat 0%nat /\ d <> 0.
Proof.
  intros H d. pose proof (H 0 0)%nat as E00. pose proof (H 0 1)%nat as E01. pose proof (H 1 0)%nat as E10. pose proof (H 1 1)%nat as E11.
  specialize (E00 ltac:(lia) ltac:(lia)). specialize (E01 ltac:(lia) ltac:(lia)). specialize (E10 ltac:(lia) ltac:(lia)). specialize (E11 ltac:(lia) ltac:(lia)).
  cbn [Rsum Nat.eqb] in *. unfold d. clear H d.
  set (a := M 0%nat 0%nat) in *. set (b := M 0%nat 1%nat) in *. set (c := M 1%nat 0%nat) in *. set (e := M 1%nat 1%nat) in *.
  set (x := X 0%nat 0%nat) in *. set (y := X 0%nat 1%nat) in *. set (z := X 1%nat 0%nat) in *. set (w := X 1%nat 1%nat) in *. clearbody a b c e x y z w.
  assert (D : (a * e - b * c) * (x * w - y * z) = 1).
  { replace ((a * e - b * c) * (x * w - y * z)) with ((0 + a * x + b * z) * (0 + c * y + e * w) - (0 + a * y + b * w) * (0 + c * x + e * z)) by ring. rewrite E00, E01, E10, E11. ring. }
  split; [|split; [|split; [|split]]].
  - replace ((a * e - b * c) * x) with (e * (0 + a * x + b * z) - b * (0 + c * x + e * z)) by ring. rewrite E00, E10. ring.
  - replace ((a * e - b * c) * y) with (e * (0 + a * y + b * w) - b * (0 + c * y + e * w)) by ring. rewrite E01, E11. ring.
  - replace ((a * e - b * c) * z) with (a * (0 + c * x + e * z) - c * (0 + a * x + b * z)) by ring. rewrite E00, E10. ring.
  - replace ((a * e - b * c) * w) with (a * (0 + c * y + e * w) - c * (0 + a * y + b * w)) by ring. rewrite E01, E11. ring.
  - intros C. rewrite C in D. lra.
Qed.
Definition rpos (x y z w : R) : R := x * y - z * w.
Definition rneg (x y z w : R) : R := - x * y + z * w.
Definition radj (T : nat -> nat -> R) (i j : nat) : R :=
  let a := T 0%nat in let b := T 1%nat in let c := T 2%nat in
  match i, j with
  | 0%nat, 0%nat => rpos (b 1%nat) (c 2%nat) (b 2%nat) (c 1%nat)
  | 0%nat, 1%nat => rneg (a 1%nat) (c 2%nat) (a 2%nat) (c 1%nat)
  | 0%nat, _ => rpos (a 1%nat) (b 2%nat) (a 2%nat) (b 1%nat)
  | 1%nat, 0%nat => rneg (b 0%nat) (c 2%nat) (b 2%nat) (c 0%nat)
  | 1%nat, 1%nat => rpos (a 0%nat) (c 2%nat) (a 2%nat) (c 0%nat)
  | 1%nat, _ => rneg (a 0%nat) (b 2%nat) (a 2%nat) (b 0%nat)
  | _, 0%nat => rpos (b 0%nat) (c 1%nat) (b 1%nat) (c 0%nat)
  | _, 1%nat => rneg (a 0%nat) (c 1%nat) (a 1%nat) (c 0%nat)
  | _, _ => rpos (a 0%nat) (b 1%nat) (a 1%nat) (b 0%nat)
  end.
Lemma cramer3_entries (M X : nat -> nat -> R) i j : inverse 3 M X -> (i < 3)%nat -> (j < 3)%nat -> rdet3 M * X i j = radj M i j.
Proof.
  intros H Hi Hj. pose proof (H 0%nat j ltac:(lia) Hj) as E0. pose proof (H 1%nat j ltac:(lia) Hj) as E1. pose proof (H 2%nat j ltac:(lia) Hj) as E2.
  assert (G : rdet3 M * X i j = radj M i 0 * Rsum 3 (fun k => M 0%nat k * X k j) + radj M i 1 * Rsum 3 (fun k => M 1%nat k * X k j) + radj M i 2 * Rsum 3 (fun k => M 2%nat k * X k j)).
  { clear -Hi. destruct i as [|[|[|i]]]; [| | |lia]; cbn [Rsum]; unfold rdet3, radj, rpos, rneg; ring. }
  rewrite G, E0, E1, E2. destruct j as [|[|[|j]]]; [| | |lia]; cbn [Nat.eqb]; ring.
Qed.
Lemma cramer3_det (M X : nat -> nat -> R) : inverse 3 M X -> rdet3 M <> 0.
Proof.
  intros H. assert (D : rdet3 M * rdet3 X = rdet3 (fun i j => Rsum 3 (fun k => M i k * X k j))).
  { unfold rdet3. cbn [Rsum]. ring. }
  assert (E : rdet3 (fun i j => Rsum 3 (fun k => M i k * X k j)) = 1).
  { unfold rdet3. cbv beta zeta. rewrite !H by lia. cbn. ring. }
  intros C. rewrite C, E in D. lra.
Qed.

(** Singular matrices have a zero determinant. *)
Lemma singular2 M : singular 2 M -> rdet2 M = 0.
Proof.
  intros (v & (i & Hi & Nz) & H). pose proof (H 0%nat ltac:(lia)) as E0. pose proof (H 1%nat ltac:(lia)) as E1. cbn [Rsum] in *. unfold rdet2.
  assert (A : (M 0%nat 0%nat * M 1%nat 1%nat - M 0%nat 1%nat * M 1%nat 0%nat) * v 0%nat = 0).
  { replace (_ * v 0%nat) with (M 1%nat 1%nat * (0 + M 0%nat 0%nat * v 0%nat + M 0%nat 1%nat * v 1%nat) - M 0%nat 1%nat * (0 + M 1%nat 0%nat * v 0%nat + M 1%nat 1%nat * v 1%nat)) by ring. rewrite E0, E1. ring. }
  assert (B : (M 0%nat 0%nat * M 1%nat 1%nat - M 0%nat 1%nat * M 1%nat 0%nat) * v 1%nat = 0).
  { replace (_ * v 1%nat) with (M 0%nat 0%nat * (0 + M 1%nat 0%nat * v 0%nat + M 1%nat 1%nat * v 1%nat) - M 1%nat 0%nat * (0 + M 0%nat 0%nat * v 0%nat + M 0%nat 1%nat * v 1%nat)) by ring. rewrite E0, E1. ring. }
  destruct i as [|[|i]]; [| |lia]; [apply Rmult_integral in A; tauto|apply Rmult_integral in B; tauto].
Qed.
Lemma singular3 M : singular 3 M -> rdet3 M = 0.
Proof.
  intros (v & (i & Hi & Nz) & H). pose proof (H 0%nat ltac:(lia)) as E0. pose proof (H 1%nat ltac:(lia)) as E1. pose proof (H 2%nat ltac:(lia)) as E2.
  assert (G : rdet3 M * v i = radj M i 0 * Rsum 3 (fun k => M 0%nat k * v k) + radj M i 1 * Rsum 3 (fun k => M 1%nat k * v k) + radj M i 2 * Rsum 3 (fun k => M 2%nat k * v k)).
  { clear -Hi. destruct i as [|[|[|i]]]; [| | |lia]; cbn [Rsum]; unfold rdet3, radj, rpos, rneg; ring. }
  rewrite E0, E1, E2 in G. assert (Z : rdet3 M * v i = 0) by (rewrite G; ring). apply Rmult_integral in Z. tauto.
Qed.

(** ** Theorems: integers *)

(** Matrices of integers of moderate size: the inverse is the exact one rounded once, and a
    singular matrix is always recognised. *)
Theorem C107_integers_2x2 A T : integers 2 (2 ^ 26) A T ->
  (forall X, inverse 2 (val A) X -> exists B, inv2x2 A = Some B /\
     forall i j, (i < 2)%nat -> (j < 2)%nat -> is_finite (B i j) = true /\ B2R (B i j) = rnd (X i j)) /\
  (singular 2 (val A) -> inv2x2 A = None).
Proof.
  intros H. destruct (det2_int A T H) as [D S].
  assert (I : forall i j, (i < 2)%nat -> (j < 2)%nat -> isint (A i j) (T i j) /\ (Z.abs (T i j) <= 2 ^ 53)%Z).
  { intros i j Hi Hj. destruct (H i j Hi Hj) as (F & E & B). split; [split; assumption|lia]. }
  assert (E : rdet2 (val A) = IZR (zdet2 T)).
  { unfold rdet2, zdet2, val. rewrite minus_IZR, !mult_IZR. destruct (I 0 0)%nat as [[_ ->] _]; [lia..|]. destruct (I 0 1)%nat as [[_ ->] _]; [lia..|]. destruct (I 1 0)%nat as [[_ ->] _]; [lia..|]. destruct (I 1 1)%nat as [[_ ->] _]; [lia..|]. reflexivity. }
  split.
  - intros X HX. destruct (cramer2 _ _ HX) as (E00 & E01 & E10 & E11 & NZ). fold (rdet2 (val A)) in *. rewrite E in *.
    assert (N : zdet2 T <> 0%Z) by (intros C; rewrite C in NZ; apply NZ; reflexivity).
    exists (inv2x2u A). split.
    { unfold inv2x2. destruct D as [Fd Vd]. destruct (det2 A) as [s|s| |s m e Hb] eqn:Q; try reflexivity. exfalso. cbn in Vd. apply NZ. symmetry. exact Vd. }
    assert (K : forall x a y, isint x a -> (Z.abs a <= 2 ^ 53)%Z -> IZR (zdet2 T) * y = IZR a -> is_finite (fdiv x (det2 A)) = true /\ B2R (fdiv x (det2 A)) = rnd y).
    { intros x a y Hx Ha Hy. destruct (int_div x (det2 A) a (zdet2 T) Hx D Ha N) as [F V]. split; [exact F|]. rewrite V, <- Hy. f_equal. field. exact NZ. }
    intros i j Hi Hj. destruct i as [|[|i]]; [| |lia]; (destruct j as [|[|j]]; [| |lia]); cbn [inv2x2u].
    + destruct (I 1 1)%nat as [J B]; [lia..|]. apply (K _ _ _ J B). rewrite E00. apply J.
    + destruct (I 0 1)%nat as [J B]; [lia..|]. apply (K _ _ _ (int_opp _ _ J)); [lia|]. rewrite E01, opp_IZR. f_equal. apply J.
    + destruct (I 1 0)%nat as [J B]; [lia..|]. apply (K _ _ _ (int_opp _ _ J)); [lia|]. rewrite E10, opp_IZR. f_equal. apply J.
    + destruct (I 0 0)%nat as [J B]; [lia..|]. apply (K _ _ _ J B). rewrite E11. apply J.
  - intros C. apply singular2 in C. rewrite E in C. unfold inv2x2. destruct D as [Fd Vd]. rewrite C in Vd.
    destruct (det2 A) as [s|s| |s m e Hb]; try reflexivity; try discriminate Fd. exfalso. cbn in Vd. revert Vd. apply F2R_neq_0. destruct s; discriminate.
Qed.
Print Assumptions C107_integers_2x2.

Theorem C107_integers_3x3 A T : integers 3 (2 ^ 16) A T ->
  (forall X, inverse 3 (val A) X -> forall i j, (i < 3)%nat -> (j < 3)%nat -> is_finite (inv3x3 A i j) = true /\ B2R (inv3x3 A i j) = rnd (X i j)) /\
  (singular 3 (val A) -> forall i j, (i < 3)%nat -> (j < 3)%nat -> is_finite (inv3x3 A i j) = false).
Proof.
  intros H. pose proof (det3_int A T H) as D.
  assert (I : forall i j, (i < 3)%nat -> (j < 3)%nat -> val A i j = IZR (T i j)) by (intros i j Hi Hj; apply H; assumption).
  assert (E : rdet3 (val A) = IZR (zdet3 T)).
  { unfold rdet3, zdet3. cbv zeta. rewrite !I by lia. repeat rewrite ?minus_IZR, ?plus_IZR, ?mult_IZR. reflexivity. }
  split.
  - intros X HX i j Hi Hj. pose proof (cramer3_entries _ _ i j HX Hi Hj) as C. pose proof (cramer3_det _ _ HX) as NZ. rewrite E in *.
    assert (N : zdet3 T <> 0%Z) by (intros Q; rewrite Q in NZ; apply NZ; reflexivity).
    destruct (adj3_int A T i j H Hi Hj) as [J B]. destruct (int_div _ _ _ _ J D B N) as [F V]. split; [exact F|]. unfold inv3x3. rewrite V. f_equal.
    assert (G : radj (val A) i j = IZR (zadj T i j)).
    { clear -I Hi Hj. destruct i as [|[|[|i]]]; [| | |lia]; (destruct j as [|[|[|j]]]; [| | |lia]); cbn [radj zadj]; unfold rpos, rneg, zpos, zneg;
        rewrite !I by lia; rewrite ?minus_IZR, ?plus_IZR, ?mult_IZR, ?opp_IZR; reflexivity. }
    rewrite <- G, <- C. field. exact NZ.
  - intros C i j Hi Hj. apply singular3 in C. rewrite E in C. apply eq_IZR in C. rewrite C in D. apply div_zero, D.
Qed.
Print Assumptions C107_integers_3x3.

(** Any doubles: a singular 2x2 matrix is recognised, as equal products are rounded equally. *)
Theorem C107_singular_2x2 A : (forall i j, (i < 2)%nat -> (j < 2)%nat -> is_finite (A i j) = true /\ Rabs (B2R (A i j)) <= bpow radix2 500) ->
  singular 2 (val A) -> inv2x2 A = None.
Proof.
  intros H C. apply singular2 in C. unfold rdet2, val in C.
  assert (P : forall i j k l, (i < 2)%nat -> (j < 2)%nat -> (k < 2)%nat -> (l < 2)%nat -> is_finite (fmul (A i j) (A k l)) = true /\ B2R (fmul (A i j) (A k l)) = rnd (B2R (A i j) * B2R (A k l)) /\ Rabs (rnd (B2R (A i j) * B2R (A k l))) <= bpow radix2 1000).
  { intros i j k l Hi Hj Hk Hl. destruct (H i j Hi Hj) as [F B]. destruct (H k l Hk Hl) as [G D].
    assert (Q : Rabs (B2R (A i j) * B2R (A k l)) <= bpow radix2 1000).
    { change 1000%Z with (500 + 500)%Z. rewrite bpow_plus, Rabs_mult. apply Rmult_le_compat; try apply Rabs_pos; assumption. }
    destruct (fmul_ok (A i j) (A k l) 1000) as [V K]; [lia|exact F|exact G|exact Q|]. split; [exact K|]. split; [exact V|]. apply rnd_bound; [lia|exact Q]. }
  destruct (P 0 0 1 1)%nat as (F & V & B); [lia..|]. destruct (P 0 1 1 0)%nat as (G & W & D); [lia..|].
  assert (Z : B2R (det2 A) = 0 /\ is_finite (det2 A) = true).
  { unfold det2. assert (Q : B2R (fmul (A 0%nat 0%nat) (A 1%nat 1%nat)) - B2R (fmul (A 0%nat 1%nat) (A 1%nat 0%nat)) = 0).
    { rewrite V, W. replace (B2R (A 0%nat 0%nat) * B2R (A 1%nat 1%nat)) with (B2R (A 0%nat 1%nat) * B2R (A 1%nat 0%nat)) by lra. ring. }
    destruct (fsub_ok _ _ 0 ltac:(lia) F G) as [V' F']; [rewrite Q, Rabs_R0; cbn; lra|]. split; [|exact F']. rewrite V', Q. apply rnd_0. }
  destruct Z as [Z Fz]. unfold inv2x2. destruct (det2 A) as [s|s| |s m e Hb]; try reflexivity; try discriminate Fz. exfalso. cbn in Z. revert Z. apply F2R_neq_0. destruct s; discriminate.
Qed.
Print Assumptions C107_singular_2x2.

(** ** Proofs: error bounds *)

Lemma sized_mul e f x y : sized e x -> sized f y -> sized (e + f) (x * y).
Proof.
  intros [A B] [C D]. split.
  - destruct A as [->|A]; [left; ring|]. destruct C as [->|C]; [left; ring|]. right. rewrite Rabs_mult. replace (- (e + f))%Z with (- e + - f)%Z by ring. rewrite bpow_plus.
    apply Rmult_le_compat; try apply bpow_ge_0; assumption.
  - rewrite Rabs_mult, bpow_plus. apply Rmult_le_compat; try apply Rabs_pos; assumption.
Qed.
Lemma sized_opp e x : sized e x -> sized e (- x).
Proof. intros [[->|A] B]; split; try (rewrite Rabs_Ropp; assumption); [left; ring|right; rewrite Rabs_Ropp; assumption]. Qed.
Lemma sized_rnd e x : (0 <= e <= 1000)%Z -> sized e x -> sized e (rnd x) /\ Rabs (rnd x - x) <= u * Rabs x.
Proof.
  intros E [A B]. split.
  - split; [|apply rnd_bound; [lia|exact B]]. destruct A as [->|A]; [left; apply rnd_0|right].
    apply abs_round_ge_generic; auto with typeclass_instances. apply generic_format_FLT_bpow; [reflexivity|lia].
  - destruct A as [->|A]; [rewrite rnd_0, Rminus_diag_eq, Rabs_R0 by reflexivity; lra|].
    replace u with (/ 2 * bpow radix2 (- (53) + 1)) by (unfold u; cbn; lra).
    apply (relative_error_N_FLT radix2 (-1074) 53 eq_refl (fun z => negb (Z.even z))). eapply Rle_trans; [|exact A]. apply bpow_le. lia.
Qed.
Lemma fsized_mul e f x y : (0 <= e)%Z -> (0 <= f)%Z -> (e + f <= 1000)%Z -> fsized e x -> fsized f y ->
  fsized (e + f) (fmul x y) /\ B2R (fmul x y) = rnd (B2R x * B2R y) /\ Rabs (B2R (fmul x y) - B2R x * B2R y) <= u * Rabs (B2R x * B2R y).
Proof.
  intros E F S [X SX] [Y SY]. pose proof (sized_mul _ _ _ _ SX SY) as P. destruct (sized_rnd (e + f) _ ltac:(lia) P) as [P' R].
  destruct (fmul_ok x y (e + f)) as [V K]; [lia|exact X|exact Y|apply P|]. rewrite V. split; [split; [exact K|rewrite V; exact P']|]. split; [reflexivity|exact R].
Qed.
Lemma fsized_opp e x : fsized e x -> fsized e (Bopp x).
Proof. intros [F S]. split; [rewrite is_finite_Bopp; exact F|rewrite B2R_Bopp; apply sized_opp, S]. Qed.

Lemma prod3_ok x y z : fsized 150 x -> fsized 150 y -> fsized 150 z ->
  fsized 450 (prod3 x y z) /\ near (B2R (prod3 x y z)) (B2R x * B2R y * B2R z) (2.01 * u * Rabs (B2R x * B2R y * B2R z)).
Proof.
  intros X Y Z. destruct (fsized_mul 150 150 x y ltac:(lia) ltac:(lia) ltac:(lia) X Y) as (P & V & E).
  destruct (fsized_mul (150 + 150) 150 _ z ltac:(lia) ltac:(lia) ltac:(lia) P Z) as (Q & W & D). split; [exact Q|]. unfold near, prod3.
  set (p := B2R (fmul x y)) in *. set (q := B2R (fmul (fmul x y) z)) in *. set (a := B2R x * B2R y) in *. set (c := B2R z) in *. clearbody p q a c.
  replace (q - a * c) with ((q - p * c) + (p - a) * c) by ring. eapply Rle_trans; [apply Rabs_triang|]. rewrite !Rabs_mult in *.
  assert (PA : Rabs p <= Rabs a * (1 + u)). { replace p with (a + (p - a)) by ring. eapply Rle_trans; [apply Rabs_triang|]. lra. }
  pose proof (Rabs_pos c) as C0. assert (A : Rabs p * Rabs c <= Rabs a * (1 + u) * Rabs c) by (apply Rmult_le_compat_r; assumption).
  assert (B : Rabs (p - a) * Rabs c <= u * Rabs a * Rabs c) by (apply Rmult_le_compat_r; assumption).
  pose proof (Rabs_pos a). assert (T : 0 <= Rabs a * Rabs c) by (apply Rmult_le_pos; assumption). set (t := Rabs a * Rabs c) in *.
  assert (U : u = / 9007199254740992) by reflexivity.
  replace (Rabs a * (1 + u) * Rabs c) with ((1 + u) * t) in A by (unfold t; ring). replace (u * Rabs a * Rabs c) with (u * t) in B by (unfold t; ring).
  assert (D' : u * (Rabs p * Rabs c) <= u * ((1 + u) * t)) by (apply Rmult_le_compat_l; [rewrite U; lra|exact A]). rewrite U in *. lra.
Qed.

(** Sums of exact magnitude at most [P]. *)
Definition large (P : R) : Prop := bpow radix2 (-600) <= P <= bpow radix2 600.
Lemma large_eta P : large P -> eta <= u * P / 1000000.
Proof.
  intros [L _]. unfold eta. assert (A : bpow radix2 (-1074) <= bpow radix2 (-674)) by (apply bpow_le; lia).
  change (-674)%Z with (-74 + -600)%Z in A. rewrite bpow_plus in A. change (bpow radix2 (-74)) with (/ 18889465931478580854784) in A.
  pose proof (bpow_gt_0 radix2 (-600)). unfold u. lra.
Qed.
Lemma sum_size P x y X Y e d : large P -> near x X e -> near y Y d -> Rabs (X + Y) <= P -> e + d <= P ->
  Rabs (x + y) <= bpow radix2 602 /\ near (rnd (x + y)) (X + Y) (e + d + u * (P + e + d) + u * P / 1000000).
Proof.
  intros L A B S ED. pose proof (near_add _ _ _ _ _ _ A B) as N. pose proof (near_size _ _ _ _ N S) as Z. pose proof (large_eta P L) as T.
  assert (P0 : 0 < P). { destruct L as [L _]. pose proof (bpow_gt_0 radix2 (-600)). lra. } split.
  - eapply Rle_trans; [exact Z|]. change 602%Z with (2 + 600)%Z. rewrite bpow_plus. change (bpow radix2 2) with 4. destruct L as [_ L]. lra.
  - unfold near in *. pose proof (rnd_err (x + y)) as R. replace (rnd (x + y) - (X + Y)) with ((rnd (x + y) - (x + y)) + (x + y - (X + Y))) by ring.
    eapply Rle_trans; [apply Rabs_triang|]. assert (u * Rabs (x + y) <= u * (P + (e + d))) by (apply Rmult_le_compat_l; [unfold u; lra|exact Z]). lra.
Qed.
Lemma fadd_large P x y X Y e d k : large P -> fnear x X e -> fnear y Y d -> Rabs (X + Y) <= P -> e + d <= P -> e + d + u * (P + e + d) + u * P / 1000000 <= k ->
  fnear (fadd x y) (X + Y) k.
Proof.
  intros L [F A] [G B] S ED K. destruct (sum_size P _ _ _ _ _ _ L A B S ED) as [Z N]. destruct (fadd_ok x y 602) as [V Q]; [lia|exact F|exact G|exact Z|].
  split; [exact Q|]. rewrite V. unfold near in *. lra.
Qed.
Lemma fsub_large P x y X Y e d k : large P -> fnear x X e -> fnear y Y d -> Rabs (X - Y) <= P -> e + d <= P -> e + d + u * (P + e + d) + u * P / 1000000 <= k ->
  fnear (fsub x y) (X - Y) k.
Proof.
  intros L [F A] [G B] S ED K. assert (B' : near (- B2R y) (- Y) d). { unfold near in *. replace (- B2R y - - Y) with (- (B2R y - Y)) by ring. rewrite Rabs_Ropp. exact B. }
  destruct (sum_size P _ _ _ _ _ _ L A B' S ED) as [Z N]. destruct (fsub_ok x y 602) as [V Q]; [lia|exact F|exact G|exact Z|].
  split; [exact Q|]. rewrite V. unfold near in *. exact (Rle_trans _ _ _ N K).
Qed.

Lemma sized_sum (l : list R) e : (forall x, In x l -> sized e x) -> (Z.of_nat (length l) <= 64)%Z -> (0 <= e <= 500)%Z ->
  fold_right (fun x s => Rabs x + s) 0 l = 0 \/ bpow radix2 (- e) <= fold_right (fun x s => Rabs x + s) 0 l <= bpow radix2 (e + 6).
Proof.
  intros H N E. set (s := fold_right _ 0 l).
  assert (S0 : forall l : list R, 0 <= fold_right (fun x s => Rabs x + s) 0 l).
  { induction l0 as [|x l0 I]; cbn; [lra|]. pose proof (Rabs_pos x). lra. }
  assert (U : s <= INR (length l) * bpow radix2 e).
  { unfold s. clear s N. induction l as [|x l I]; [cbn; lra|]. cbn [fold_right length]. rewrite S_INR. pose proof (proj2 (H x (or_introl eq_refl))).
    assert (fold_right (fun x s => Rabs x + s) 0 l <= INR (length l) * bpow radix2 e) by (apply I; intros y Hy; apply H; right; exact Hy). lra. }
  assert (L : s = 0 \/ bpow radix2 (- e) <= s).
  { unfold s. clear s U N. induction l as [|x l I]; [left; reflexivity|]. cbn [fold_right]. pose proof (S0 l).
    destruct (proj1 (H x (or_introl eq_refl))) as [-> |B]; [|right; lra].
    destruct I as [I|I]; [intros y Hy; apply H; right; exact Hy| |]; rewrite Rabs_R0; [left|right]; lra. }
  destruct L as [L|L]; [left; exact L|right]. split.
  - exact L.
  - eapply Rle_trans; [exact U|]. apply Rle_trans with (bpow radix2 6 * bpow radix2 e).
    + apply Rmult_le_compat_r; [apply bpow_ge_0|]. rewrite INR_IZR_INZ. apply IZR_le in N. change (bpow radix2 6) with 64. exact N.
    + rewrite <- bpow_plus. apply bpow_le. lia.
Qed.
Lemma is_large e P : (0 <= e <= 500)%Z -> P = 0 \/ bpow radix2 (- e) <= P <= bpow radix2 (e + 6) -> P = 0 \/ large P.
Proof. intros E [H|[H K]]; [left; exact H|right]. split; [eapply Rle_trans; [|exact H]|eapply Rle_trans; [exact K|]]; apply bpow_le; lia. Qed.

(** One difference of products. *)
Lemma pos_ok x y z w P : fsized 150 x -> fsized 150 y -> fsized 150 z -> fsized 150 w -> P = Rabs (B2R x * B2R y) + Rabs (B2R z * B2R w) ->
  (P = 0 \/ large P) -> fnear (pos x y z w) (B2R x * B2R y - B2R z * B2R w) (2.1 * u * P).
Proof.
  intros X Y Z W EP LP. destruct (fsized_mul 150 150 x y ltac:(lia) ltac:(lia) ltac:(lia) X Y) as (A & V & E).
  destruct (fsized_mul 150 150 z w ltac:(lia) ltac:(lia) ltac:(lia) Z W) as (B & V' & E'). unfold pos.
  set (p := B2R x * B2R y) in *. set (q := B2R z * B2R w) in *. pose proof (Rabs_pos p) as P0. pose proof (Rabs_pos q) as Q0. assert (U : u = / 9007199254740992) by reflexivity.
  destruct LP as [LP|L].
  - assert (p = 0). { destruct (Req_dec p 0) as [|N]; [assumption|]. apply Rabs_pos_lt in N. lra. } assert (q = 0). { destruct (Req_dec q 0) as [|N]; [assumption|]. apply Rabs_pos_lt in N. lra. }
    assert (V0 : B2R (fmul x y) = 0) by (rewrite V; fold p; rewrite H; apply rnd_0). assert (W0 : B2R (fmul z w) = 0) by (rewrite V'; fold q; rewrite H0; apply rnd_0).
    destruct (fsub_ok (fmul x y) (fmul z w) 0) as [R F]; [lia|apply A|apply B|rewrite V0, W0, Rminus_diag_eq, Rabs_R0 by reflexivity; cbn; lra|].
    split; [exact F|]. unfold near. rewrite R, V0, W0, H, H0, Rminus_0_r, rnd_0, Rminus_0_r, Rabs_R0, LP. lra.
  - assert (NA : near (B2R (fmul x y)) p (u * Rabs p)) by exact E. assert (NB : near (B2R (fmul z w)) q (u * Rabs q)) by exact E'.
    pose proof (near_sub _ _ _ _ _ _ NA NB) as N. assert (S : Rabs (p - q) <= P) by (unfold Rminus; eapply Rle_trans; [apply Rabs_triang|]; rewrite Rabs_Ropp; lra).
    pose proof (near_size _ _ _ _ N S) as ZZ. pose proof (large_eta P L) as T.
    destruct (fsub_ok (fmul x y) (fmul z w) 602) as [R F]; [lia|apply A|apply B| |].
    { eapply Rle_trans; [exact ZZ|]. change 602%Z with (2 + 600)%Z. rewrite bpow_plus. change (bpow radix2 2) with 4. destruct L as [_ L]. rewrite U. lra. }
    split; [exact F|]. rewrite R. unfold near in *. set (v := B2R (fmul x y) - B2R (fmul z w)) in *. pose proof (rnd_err v) as RE.
    replace (rnd v - (p - q)) with ((rnd v - v) + (v - (p - q))) by ring. eapply Rle_trans; [apply Rabs_triang|].
    assert (u * Rabs v <= u * (P + (u * Rabs p + u * Rabs q))) by (apply Rmult_le_compat_l; [rewrite U; lra|exact ZZ]). rewrite U in *. lra.
Qed.
Lemma neg_ok x y z w P : fsized 150 x -> fsized 150 y -> fsized 150 z -> fsized 150 w -> P = Rabs (B2R x * B2R y) + Rabs (B2R z * B2R w) ->
  (P = 0 \/ large P) -> fnear (neg x y z w) (- B2R x * B2R y + B2R z * B2R w) (2.1 * u * P).
Proof.
  intros X Y Z W EP LP. assert (X' := fsized_opp _ _ X). destruct (fsized_mul 150 150 (Bopp x) y ltac:(lia) ltac:(lia) ltac:(lia) X' Y) as (A & V & E). rewrite B2R_Bopp in *.
  destruct (fsized_mul 150 150 z w ltac:(lia) ltac:(lia) ltac:(lia) Z W) as (B & V' & E'). unfold neg.
  assert (AB : Rabs (B2R x * B2R y) = Rabs (- B2R x * B2R y)) by (rewrite <- (Rabs_Ropp (B2R x * B2R y)); f_equal; ring). rewrite AB in EP. clear AB.
  set (p := - B2R x * B2R y) in *. set (q := B2R z * B2R w) in *. pose proof (Rabs_pos p) as P0. pose proof (Rabs_pos q) as Q0. assert (U : u = / 9007199254740992) by reflexivity.
  destruct LP as [LP|L].
  - assert (p = 0). { destruct (Req_dec p 0) as [|N]; [assumption|]. apply Rabs_pos_lt in N. lra. } assert (q = 0). { destruct (Req_dec q 0) as [|N]; [assumption|]. apply Rabs_pos_lt in N. lra. }
    assert (V0 : B2R (fmul (Bopp x) y) = 0) by (rewrite V; fold p; rewrite H; apply rnd_0). assert (W0 : B2R (fmul z w) = 0) by (rewrite V'; fold q; rewrite H0; apply rnd_0).
    destruct (fadd_ok (fmul (Bopp x) y) (fmul z w) 0) as [R F]; [lia|apply A|apply B|rewrite V0, W0, Rplus_0_l, Rabs_R0; cbn; lra|].
    split; [exact F|]. unfold near. rewrite R, V0, W0, H, H0, Rplus_0_l, rnd_0, Rminus_0_r, Rabs_R0, LP. lra.
  - assert (NA : near (B2R (fmul (Bopp x) y)) p (u * Rabs p)) by exact E. assert (NB : near (B2R (fmul z w)) q (u * Rabs q)) by exact E'.
    pose proof (near_add _ _ _ _ _ _ NA NB) as N. assert (S : Rabs (p + q) <= P) by (eapply Rle_trans; [apply Rabs_triang|]; lra).
    pose proof (near_size _ _ _ _ N S) as ZZ. pose proof (large_eta P L) as T.
    destruct (fadd_ok (fmul (Bopp x) y) (fmul z w) 602) as [R F]; [lia|apply A|apply B| |].
    { eapply Rle_trans; [exact ZZ|]. change 602%Z with (2 + 600)%Z. rewrite bpow_plus. change (bpow radix2 2) with 4. destruct L as [_ L]. rewrite U. lra. }
    split; [exact F|]. rewrite R. unfold near in *. set (v := B2R (fmul (Bopp x) y) + B2R (fmul z w)) in *. pose proof (rnd_err v) as RE.
    replace (rnd v - (p + q)) with ((rnd v - v) + (v - (p + q))) by ring. eapply Rle_trans; [apply Rabs_triang|].
    assert (u * Rabs v <= u * (P + (u * Rabs p + u * Rabs q))) by (apply Rmult_le_compat_l; [rewrite U; lra|exact ZZ]). rewrite U in *. lra.
Qed.

Lemma det3_ok A : (forall i j, (i < 3)%nat -> (j < 3)%nat -> fsized 150 (A i j)) -> large (perm3 (val A)) ->
  fnear (det3 A) (rdet3 (val A)) (7.2 * u * perm3 (val A)).
Proof.
  intros H L. assert (Q : forall k l m, (k < 3)%nat -> (l < 3)%nat -> (m < 3)%nat -> let p := val A 0 k * val A 1 l * val A 2 m in
    fnear (prod3 (A 0%nat k) (A 1%nat l) (A 2%nat m)) p (2.01 * u * Rabs p)).
  { intros k l m Hk Hl Hm p. destruct (prod3_ok (A 0%nat k) (A 1%nat l) (A 2%nat m)) as [[F _] N]; [apply H; lia..|]. split; [exact F|exact N]. }
  pose proof (Q 0 1 2 ltac:(lia) ltac:(lia) ltac:(lia))%nat as Q1. pose proof (Q 0 2 1 ltac:(lia) ltac:(lia) ltac:(lia))%nat as Q2. pose proof (Q 1 0 2 ltac:(lia) ltac:(lia) ltac:(lia))%nat as Q3.
  pose proof (Q 1 2 0 ltac:(lia) ltac:(lia) ltac:(lia))%nat as Q4. pose proof (Q 2 0 1 ltac:(lia) ltac:(lia) ltac:(lia))%nat as Q5. pose proof (Q 2 1 0 ltac:(lia) ltac:(lia) ltac:(lia))%nat as Q6.
  cbv zeta in *. clear Q. unfold det3, rdet3, perm3 in *. cbv zeta in *. assert (U : u = / 9007199254740992) by reflexivity.
  set (p1 := val A 0 0 * val A 1 1 * val A 2 2) in *. set (p2 := val A 0 0 * val A 1 2 * val A 2 1) in *. set (p3 := val A 0 1 * val A 1 0 * val A 2 2) in *.
  set (p4 := val A 0 1 * val A 1 2 * val A 2 0) in *. set (p5 := val A 0 2 * val A 1 0 * val A 2 1) in *. set (p6 := val A 0 2 * val A 1 1 * val A 2 0) in *.
  clearbody p1 p2 p3 p4 p5 p6.
  set (P := Rabs p1 + Rabs p2 + Rabs p3 + Rabs p4 + Rabs p5 + Rabs p6) in *. assert (EP : P = Rabs p1 + Rabs p2 + Rabs p3 + Rabs p4 + Rabs p5 + Rabs p6) by reflexivity. clearbody P.
  pose proof (Rabs_pos p1) as B1. pose proof (Rabs_pos p2) as B2. pose proof (Rabs_pos p3) as B3. pose proof (Rabs_pos p4) as B4. pose proof (Rabs_pos p5) as B5. pose proof (Rabs_pos p6) as B6.
  pose proof (Rabs_le_inv p1 _ (Rle_refl _)) as C1. pose proof (Rabs_le_inv p2 _ (Rle_refl _)) as C2. pose proof (Rabs_le_inv p3 _ (Rle_refl _)) as C3.
  pose proof (Rabs_le_inv p4 _ (Rle_refl _)) as C4. pose proof (Rabs_le_inv p5 _ (Rle_refl _)) as C5. pose proof (Rabs_le_inv p6 _ (Rle_refl _)) as C6.
  set (a1 := Rabs p1) in *. set (a2 := Rabs p2) in *. set (a3 := Rabs p3) in *. set (a4 := Rabs p4) in *. set (a5 := Rabs p5) in *. set (a6 := Rabs p6) in *.
  clearbody a1 a2 a3 a4 a5 a6.
  eapply fsub_large with (P := P) (e := 2.01 * u * (a1 + a2 + a3 + a4 + a5) + 4.05 * u * P); [exact L| |exact Q6|apply Rabs_le; lra|rewrite U; lra|rewrite U; lra].
  eapply fadd_large with (P := P) (e := 2.01 * u * (a1 + a2 + a3 + a4) + 3.03 * u * P); [exact L| |exact Q5|apply Rabs_le; lra|rewrite U; lra|rewrite U; lra].
  eapply fadd_large with (P := P) (e := 2.01 * u * (a1 + a2 + a3) + 2.02 * u * P); [exact L| |exact Q4|apply Rabs_le; lra|rewrite U; lra|rewrite U; lra].
  eapply fsub_large with (P := P) (e := 2.01 * u * (a1 + a2) + 1.01 * u * P); [exact L| |exact Q3|apply Rabs_le; lra|rewrite U; lra|rewrite U; lra].
  eapply fsub_large with (P := P); [exact L|exact Q1|exact Q2|apply Rabs_le; lra|rewrite U; lra|rewrite U; lra].
Qed.

(** A quotient of approximations. *)
Lemma quotient_error a d a' d' al de : d <> 0 -> Rabs (a' - a) <= al -> Rabs (d' - d) <= de -> de <= Rabs d / 4 ->
  d' <> 0 /\ 3 / 4 * Rabs d <= Rabs d' /\ Rabs (a' / d' - a / d) <= 4 / 3 * ((al + Rabs (a / d) * de) / Rabs d).
Proof.
  intros D A B S. pose proof (Rabs_pos_lt d D) as D0.
  assert (K : 3 / 4 * Rabs d <= Rabs d'). { pose proof (Rabs_triang (d - d') d') as T. replace (d - d' + d') with d in T by ring. rewrite (Rabs_minus_sym d d') in T. lra. }
  assert (N : d' <> 0) by (intros C; rewrite C, Rabs_R0 in K; lra). split; [exact N|]. split; [exact K|].
  replace (a' / d' - a / d) with (((a' - a) - a / d * (d' - d)) * / d') by (field; split; assumption).
  rewrite Rabs_mult, Rabs_inv. assert (I : / Rabs d' <= 4 / 3 * / Rabs d).
  { replace (4 / 3 * / Rabs d) with (/ (3 / 4 * Rabs d)) by (field; lra). apply Rinv_le_contravar; lra. }
  assert (E : Rabs ((a' - a) - a / d * (d' - d)) <= al + Rabs (a / d) * de).
  { unfold Rminus at 1. eapply Rle_trans; [apply Rabs_triang|]. rewrite Rabs_Ropp, Rabs_mult. apply Rplus_le_compat; [exact A|]. apply Rmult_le_compat_l; [apply Rabs_pos|exact B]. }
  replace (4 / 3 * ((al + Rabs (a / d) * de) / Rabs d)) with ((al + Rabs (a / d) * de) * (4 / 3 * / Rabs d)) by (field; lra).
  apply Rmult_le_compat; [apply Rabs_pos| |exact E|exact I]. left. apply Rinv_0_lt_compat. pose proof (Rabs_pos_lt d' N). exact H.
Qed.

(** The quotient rounded. *)
Lemma div_error (x y : f64) a d al de X : fnear x a al -> fnear y d de -> d <> 0 -> de <= Rabs d / 4 -> a = d * X ->
  Rabs a + al <= bpow radix2 400 -> bpow radix2 (-550) <= Rabs d ->
  is_finite (fdiv x y) = true /\ Rabs (B2R (fdiv x y) - X) <= (1 + u) * (4 / 3 * ((al + Rabs X * de) / Rabs d)) + u * Rabs X + eta.
Proof.
  intros [F A] [G B] D S EX SA SD. assert (Q : a / d = X) by (rewrite EX; field; exact D).
  destruct (quotient_error a d (B2R x) (B2R y) al de D A B S) as (N & L & E). rewrite Q in E.
  assert (Z : Rabs (B2R x / B2R y) <= bpow radix2 951).
  { unfold Rdiv. rewrite Rabs_mult, Rabs_inv. change 951%Z with (400 + 551)%Z. rewrite bpow_plus. apply Rmult_le_compat.
    - apply Rabs_pos.
    - left. apply Rinv_0_lt_compat, Rabs_pos_lt, N.
    - pose proof (near_size _ _ _ _ A (Rle_refl _)). lra.
    - replace (bpow radix2 551) with (/ bpow radix2 (-551)) by (rewrite <- bpow_opp; reflexivity). apply Rinv_le_contravar; [apply bpow_gt_0|].
      change (-551)%Z with (-1 + -550)%Z. rewrite bpow_plus. change (bpow radix2 (-1)) with (/ 2). pose proof (bpow_gt_0 radix2 (-550)). lra. }
  destruct (fdiv_ok x y 951) as [V K]; [lia|exact F|exact N|exact Z|]. split; [exact K|]. rewrite V. set (q := B2R x / B2R y) in *. set (T := 4 / 3 * ((al + Rabs X * de) / Rabs d)) in *.
  pose proof (rnd_err q) as R. assert (SQ : Rabs q <= Rabs X + T). { replace q with (X + (q - X)) by ring. eapply Rle_trans; [apply Rabs_triang|]. lra. }
  assert (u * Rabs q <= u * (Rabs X + T)) by (apply Rmult_le_compat_l; [unfold u; lra|exact SQ]).
  replace (rnd q - X) with ((rnd q - q) + (q - X)) by ring. eapply Rle_trans; [apply Rabs_triang|]. lra.
Qed.
Lemma div_exact_zero (x y : f64) : is_finite x = true -> is_finite y = true -> B2R x = 0 -> B2R y <> 0 -> is_finite (fdiv x y) = true /\ B2R (fdiv x y) = 0.
Proof.
  intros F G X Y. destruct (fdiv_ok x y 0) as [V K]; [lia|exact F|exact Y| |].
  - rewrite X. unfold Rdiv. rewrite Rmult_0_l, Rabs_R0. cbn. lra.
  - split; [exact K|]. rewrite V, X. unfold Rdiv. rewrite Rmult_0_l. apply rnd_0.
Qed.

Lemma perm2_size A : (forall i j, (i < 2)%nat -> (j < 2)%nat -> fsized 150 (A i j)) -> perm2 (val A) = 0 \/ bpow radix2 (- 300) <= perm2 (val A) <= bpow radix2 (300 + 6).
Proof.
  intros H. pose proof (sized_sum [val A 0 0 * val A 1 1; val A 0 1 * val A 1 0] 300) as S. cbn [fold_right] in S. rewrite Rplus_0_r in S. apply S; [|cbn; lia|lia].
  intros x [<-|[<-|[]]]; apply (sized_mul 150 150); apply H; lia.
Qed.

Theorem C107_error_2x2 A X : (forall i j, (i < 2)%nat -> (j < 2)%nat -> fsized 150 (A i j)) ->
  inverse 2 (val A) X -> condition2 (val A) <= 2 ^ 48 ->
  exists B, inv2x2 A = Some B /\ forall i j, (i < 2)%nat -> (j < 2)%nat ->
    is_finite (B i j) = true /\ Rabs (B2R (B i j) - X i j) <= / 2 ^ 51 * condition2 (val A) * Rabs (X i j).
Proof.
  intros H HX HC. destruct (cramer2 _ _ HX) as (E00 & E01 & E10 & E11 & NZ). fold (rdet2 (val A)) in *.
  assert (U : u = / 9007199254740992) by reflexivity. pose proof (perm2_size A H) as SP. pose proof (is_large 300 _ ltac:(lia) SP) as LP.
  assert (DP : Rabs (rdet2 (val A)) <= perm2 (val A)). { unfold rdet2, perm2, Rminus. eapply Rle_trans; [apply Rabs_triang|]. rewrite Rabs_Ropp. lra. }
  pose proof (pos_ok (A 0 0) (A 1 1) (A 0 1) (A 1 0) (perm2 (val A)) (H 0 0 ltac:(lia) ltac:(lia)) (H 1 1 ltac:(lia) ltac:(lia)) (H 0 1 ltac:(lia) ltac:(lia)) (H 1 0 ltac:(lia) ltac:(lia)) eq_refl LP)%nat as ND.
  change (fnear (det2 A) (rdet2 (val A)) (2.1 * u * perm2 (val A))) in ND.
  unfold condition2 in *. set (d := rdet2 (val A)) in *. set (P := perm2 (val A)) in *. pose proof (Rabs_pos_lt d NZ) as D0.
  destruct SP as [SP|[SL SU]]; [lra|]. assert (PK : P <= 2 ^ 48 * Rabs d).
  { apply (Rmult_le_compat_r (Rabs d)) in HC; [|lra]. unfold Rdiv in HC. rewrite Rmult_assoc, Rinv_l, Rmult_1_r in HC by lra. exact HC. }
  assert (K : 1 <= P / Rabs d). { apply (Rmult_le_reg_r (Rabs d)); [exact D0|]. unfold Rdiv. rewrite Rmult_assoc, Rinv_l by lra. lra. }
  assert (SD : bpow radix2 (-550) <= Rabs d).
  { apply Rle_trans with (bpow radix2 (-300) / 2 ^ 48). - replace (bpow radix2 (-300) / 2 ^ 48) with (bpow radix2 (-348)); [apply bpow_le; lia|]. change (-348)%Z with (-48 + -300)%Z. rewrite bpow_plus. change (bpow radix2 (-48)) with (/ 281474976710656). lra.
    - apply (Rmult_le_reg_r (2 ^ 48)); [lra|]. unfold Rdiv. rewrite Rmult_assoc, Rinv_l by lra. lra. }
  exists (inv2x2u A). split.
  { unfold inv2x2. destruct ND as [Fd Nd]. destruct (det2 A) as [s|s| |s m e Hb] eqn:Q; try reflexivity. exfalso. unfold near in Nd. cbn in Nd. replace (0 - d) with (- d) in Nd by ring. rewrite Rabs_Ropp in Nd. rewrite U in Nd. lra. }
  assert (M : forall x y, fsized 150 x -> d * y = B2R x -> is_finite (fdiv x (det2 A)) = true /\ Rabs (B2R (fdiv x (det2 A)) - y) <= / 2 ^ 51 * (P / Rabs d) * Rabs y).
  { intros x y [Fx [Lx Ux]] Hy. assert (XE : fnear x (B2R x) 0) by (split; [exact Fx|apply near_refl]).
    destruct Lx as [Zx|Lx].
    - assert (y = 0). { rewrite Zx in Hy. apply Rmult_integral in Hy. tauto. } subst y. destruct ND as [Fd Nd].
      destruct (div_exact_zero x (det2 A) Fx Fd Zx) as [F V]. { intros C. unfold near in Nd. rewrite C in Nd. replace (0 - d) with (- d) in Nd by ring. rewrite Rabs_Ropp in Nd. rewrite U in Nd. lra. }
      split; [exact F|]. rewrite V, Rminus_0_r, Rabs_R0. lra.
    - destruct (div_error x (det2 A) (B2R x) d 0 (2.1 * u * P) y XE ND NZ) as [F E]; [rewrite U; lra|symmetry; exact Hy| |exact SD|].
      { rewrite Rplus_0_r. eapply Rle_trans; [exact Ux|]. apply bpow_le. lia. }
      split; [exact F|]. eapply Rle_trans; [exact E|]. set (k := P / Rabs d) in *.
      replace ((0 + Rabs y * (2.1 * u * P)) / Rabs d) with (2.1 * u * (k * Rabs y)) by (unfold k; field; lra).
      assert (Y : Rabs d * Rabs y = Rabs (B2R x)) by (rewrite <- Rabs_mult, Hy; reflexivity).
      assert (ET : eta <= 0.01 * u * Rabs y).
      { apply (Rmult_le_reg_l (Rabs d)); [exact D0|]. replace (Rabs d * (0.01 * u * Rabs y)) with (0.01 * u * (Rabs d * Rabs y)) by ring. rewrite Y.
        apply Rle_trans with (bpow radix2 (300 + 6) * eta); [apply Rmult_le_compat_r; [pose proof eta_pos; lra|lra]|].
        unfold eta. replace (bpow radix2 (300 + 6) * (/ 2 * bpow radix2 (-1074))) with (/ 2 * bpow radix2 (300 + 6 + -1074)) by (rewrite bpow_plus; ring).
        assert (bpow radix2 (300 + 6 + -1074) <= bpow radix2 (-80 + -150)) by (apply bpow_le; lia). rewrite (bpow_plus radix2 (-80) (-150)) in H0. change (bpow radix2 (-80)) with (/ 1208925819614629174706176) in H0.
        change (- (150))%Z with (-150)%Z in Lx. pose proof (bpow_gt_0 radix2 (-150)). rewrite U. lra. }
      assert (KY : Rabs y <= k * Rabs y). { rewrite <- (Rmult_1_l (Rabs y)) at 1. apply Rmult_le_compat_r; [apply Rabs_pos|exact K]. }
      pose proof (Rabs_pos y). replace (/ 2 ^ 51 * k * Rabs y) with (/ 2 ^ 51 * (k * Rabs y)) by ring. set (ky := k * Rabs y) in *. clearbody ky. rewrite U in *. lra. }
  intros i j Hi Hj. destruct i as [|[|i]]; [| |lia]; (destruct j as [|[|j]]; [| |lia]); cbn [inv2x2u]; apply M.
  - apply H; lia.
  - exact E00.
  - apply fsized_opp, H; lia.
  - rewrite B2R_Bopp. exact E01.
  - apply fsized_opp, H; lia.
  - rewrite B2R_Bopp. exact E10.
  - apply H; lia.
  - exact E11.
Qed.
Print Assumptions C107_error_2x2.

Lemma perm3_size A : (forall i j, (i < 3)%nat -> (j < 3)%nat -> fsized 150 (A i j)) -> perm3 (val A) = 0 \/ bpow radix2 (- 450) <= perm3 (val A) <= bpow radix2 (450 + 6).
Proof.
  intros H. set (t := fun k l m => val A 0 k * val A 1 l * val A 2 m).
  pose proof (sized_sum [t 0 1 2; t 0 2 1; t 1 0 2; t 1 2 0; t 2 0 1; t 2 1 0]%nat 450) as S. cbn [fold_right] in S.
  replace (perm3 (val A)) with (Rabs (t 0 1 2)%nat + (Rabs (t 0 2 1)%nat + (Rabs (t 1 0 2)%nat + (Rabs (t 1 2 0)%nat + (Rabs (t 2 0 1)%nat + (Rabs (t 2 1 0)%nat + 0)))))) by (unfold perm3, t; ring).
  apply S; [|cbn; lia|lia]. clear S.
  assert (Q : forall k l m, (k < 3)%nat -> (l < 3)%nat -> (m < 3)%nat -> sized 450 (t k l m)).
  { intros k l m Hk Hl Hm. unfold t. change 450%Z with (150 + 150 + 150)%Z. repeat apply sized_mul; apply H; lia. }
  intros x [<-|[<-|[<-|[<-|[<-|[<-|[]]]]]]]; apply Q; lia.
Qed.
Lemma minor_sized A i j : (forall i j, (i < 3)%nat -> (j < 3)%nat -> fsized 150 (A i j)) -> minor_size (val A) i j = 0 \/ bpow radix2 (- 300) <= minor_size (val A) i j <= bpow radix2 (300 + 6).
Proof.
  intros H. unfold minor_size. set (x := val A (other1 j) (other1 i) * val A (other2 j) (other2 i)). set (y := val A (other1 j) (other2 i) * val A (other2 j) (other1 i)).
  pose proof (sized_sum [x; y] 300) as S. cbn [fold_right] in S. rewrite Rplus_0_r in S. apply S; [|cbn; lia|lia].
  assert (O1 : forall k, (other1 k < 3)%nat) by (intros [|k]; cbn; lia). assert (O2 : forall k, (other2 k < 3)%nat) by (intros [|[|[|k]]]; cbn; lia).
  intros z [<-|[<-|[]]]; apply (sized_mul 150 150); apply H; auto.
Qed.
Lemma adj3_ok A i j : (forall i j, (i < 3)%nat -> (j < 3)%nat -> fsized 150 (A i j)) -> (i < 3)%nat -> (j < 3)%nat ->
  fnear (adj3 A i j) (radj (val A) i j) (2.1 * u * minor_size (val A) i j).
Proof.
  intros H Hi Hj. pose proof (is_large 300 _ ltac:(lia) (minor_sized A i j H)) as L.
  destruct i as [|[|[|i]]]; [| | |lia]; (destruct j as [|[|[|j]]]; [| | |lia]); cbn [adj3 radj]; unfold rpos, rneg;
    first [apply pos_ok|apply neg_ok]; try (apply H; lia); try exact L; unfold minor_size; cbn [other1 other2]; unfold val; first [ring|lra|idtac].
Qed.

Theorem C107_error_3x3 A X : (forall i j, (i < 3)%nat -> (j < 3)%nat -> fsized 150 (A i j)) ->
  inverse 3 (val A) X -> condition3 (val A) <= 2 ^ 48 -> forall i j, (i < 3)%nat -> (j < 3)%nat ->
  is_finite (inv3x3 A i j) = true /\
  Rabs (B2R (inv3x3 A i j) - X i j) <= / 2 ^ 49 * (minor_size (val A) i j / Rabs (rdet3 (val A)) + condition3 (val A) * Rabs (X i j)).
Proof.
  intros H HX HC i j Hi Hj. pose proof (cramer3_entries _ _ i j HX Hi Hj) as E. pose proof (cramer3_det _ _ HX) as NZ.
  assert (U : u = / 9007199254740992) by reflexivity. pose proof (perm3_size A H) as SP.
  assert (DP : Rabs (rdet3 (val A)) <= perm3 (val A)).
  { unfold rdet3, perm3. cbv zeta. set (p1 := val A 0 0 * val A 1 1 * val A 2 2). set (p2 := val A 0 0 * val A 1 2 * val A 2 1). set (p3 := val A 0 1 * val A 1 0 * val A 2 2).
    set (p4 := val A 0 1 * val A 1 2 * val A 2 0). set (p5 := val A 0 2 * val A 1 0 * val A 2 1). set (p6 := val A 0 2 * val A 1 1 * val A 2 0).
    pose proof (Rabs_le_inv p1 _ (Rle_refl _)). pose proof (Rabs_le_inv p2 _ (Rle_refl _)). pose proof (Rabs_le_inv p3 _ (Rle_refl _)).
    pose proof (Rabs_le_inv p4 _ (Rle_refl _)). pose proof (Rabs_le_inv p5 _ (Rle_refl _)). pose proof (Rabs_le_inv p6 _ (Rle_refl _)). apply Rabs_le. lra. }
  pose proof (minor_sized A i j H) as SM. pose proof (adj3_ok A i j H Hi Hj) as NA.
  assert (ND : large (perm3 (val A)) -> fnear (det3 A) (rdet3 (val A)) (7.2 * u * perm3 (val A))) by (apply det3_ok, H).
  assert (AM : Rabs (radj (val A) i j) <= minor_size (val A) i j).
  { clear -Hi Hj. destruct i as [|[|[|i]]]; [| | |lia]; (destruct j as [|[|[|j]]]; [| | |lia]); cbn [radj]; unfold rpos, rneg, minor_size; cbn [other1 other2];
      match goal with |- Rabs (?p - ?q) <= _ => pose proof (Rabs_le_inv p _ (Rle_refl _)); pose proof (Rabs_le_inv q _ (Rle_refl _))
      | |- Rabs (- ?x * ?y + ?q) <= _ => pose proof (Rabs_le_inv (x * y) _ (Rle_refl _)); pose proof (Rabs_le_inv q _ (Rle_refl _)) end; apply Rabs_le; lra. }
  pose proof (is_large 450 _ ltac:(lia) SP) as LP.
  unfold condition3 in *. set (d := rdet3 (val A)) in *. set (P := perm3 (val A)) in *. pose proof (Rabs_pos_lt d NZ) as D0. set (m := minor_size (val A) i j) in *.
  destruct SP as [SP|[SL SU]]; [lra|]. destruct LP as [LP|LP]; [lra|]. specialize (ND LP). assert (PK : P <= 2 ^ 48 * Rabs d).
  { apply (Rmult_le_compat_r (Rabs d)) in HC; [|lra]. unfold Rdiv in HC. rewrite Rmult_assoc, Rinv_l, Rmult_1_r in HC by lra. exact HC. }
  assert (K : 1 <= P / Rabs d). { apply (Rmult_le_reg_r (Rabs d)); [exact D0|]. unfold Rdiv. rewrite Rmult_assoc, Rinv_l by lra. lra. }
  assert (SD : bpow radix2 (-550) <= Rabs d).
  { apply Rle_trans with (bpow radix2 (-450) / 2 ^ 48). - replace (bpow radix2 (-450) / 2 ^ 48) with (bpow radix2 (-498)); [apply bpow_le; lia|]. change (-498)%Z with (-48 + -450)%Z. rewrite bpow_plus. change (bpow radix2 (-48)) with (/ 281474976710656). lra.
    - apply (Rmult_le_reg_r (2 ^ 48)); [lra|]. unfold Rdiv. rewrite Rmult_assoc, Rinv_l by lra. lra. }
  unfold inv3x3. destruct SM as [ZM|[ML MU]].
  - rewrite ZM in *. assert (R0 : radj (val A) i j = 0). { destruct (Req_dec (radj (val A) i j) 0) as [|N]; [assumption|]. apply Rabs_pos_lt in N. lra. }
    assert (X0 : X i j = 0). { rewrite R0 in E. apply Rmult_integral in E. tauto. } rewrite X0. destruct NA as [Fa Na]. destruct ND as [Fd Nd].
    assert (VA : B2R (adj3 A i j) = 0). { unfold near in Na. rewrite R0, Rminus_0_r, Rmult_0_r in Na. destruct (Req_dec (B2R (adj3 A i j)) 0) as [|N]; [assumption|]. apply Rabs_pos_lt in N. lra. }
    destruct (div_exact_zero _ (det3 A) Fa Fd VA) as [F V]. { intros C. unfold near in Nd. rewrite C in Nd. replace (0 - d) with (- d) in Nd by ring. rewrite Rabs_Ropp in Nd. rewrite U in Nd. lra. }
    split; [exact F|]. rewrite V, Rminus_0_r, Rabs_R0. unfold Rdiv. rewrite Rmult_0_l, Rmult_0_r. lra.
  - destruct (div_error (adj3 A i j) (det3 A) (radj (val A) i j) d (2.1 * u * m) (7.2 * u * P) (X i j) NA ND NZ) as [F G]; [rewrite U; lra|symmetry; exact E| |exact SD|].
    { pose proof (bpow_gt_0 radix2 (300 + 6)). apply Rle_trans with (2 * bpow radix2 (300 + 6)); [rewrite U; lra|]. change 2 with (bpow radix2 1). rewrite <- bpow_plus. apply bpow_le. lia. }
    split; [exact F|]. eapply Rle_trans; [exact G|]. set (k := P / Rabs d) in *. set (y := X i j) in *. set (r := m / Rabs d).
    replace ((2.1 * u * m + Rabs y * (7.2 * u * P)) / Rabs d) with (2.1 * u * r + 7.2 * u * (k * Rabs y)) by (unfold k, r; field; lra).
    assert (ET : eta <= 0.01 * u * r).
    { apply (Rmult_le_reg_l (Rabs d)); [exact D0|]. replace (Rabs d * (0.01 * u * r)) with (0.01 * u * m) by (unfold r; field; lra).
      apply Rle_trans with (bpow radix2 (450 + 6) * eta); [apply Rmult_le_compat_r; [pose proof eta_pos; lra|lra]|].
      unfold eta. replace (bpow radix2 (450 + 6) * (/ 2 * bpow radix2 (-1074))) with (/ 2 * bpow radix2 (450 + 6 + -1074)) by (rewrite bpow_plus; ring).
      assert (B : bpow radix2 (450 + 6 + -1074) <= bpow radix2 (-80 + -300)) by (apply bpow_le; lia). rewrite (bpow_plus radix2 (-80) (-300)) in B. change (bpow radix2 (-80)) with (/ 1208925819614629174706176) in B.
      change (- (300))%Z with (-300)%Z in ML. pose proof (bpow_gt_0 radix2 (-300)). rewrite U. lra. }
    assert (KY : Rabs y <= k * Rabs y). { rewrite <- (Rmult_1_l (Rabs y)) at 1. apply Rmult_le_compat_r; [apply Rabs_pos|exact K]. }
    assert (R0 : 0 <= r). { unfold r, Rdiv. apply Rmult_le_pos; [pose proof (bpow_gt_0 radix2 (-300)); change (- (300))%Z with (-300)%Z in ML; lra|left; apply Rinv_0_lt_compat, D0]. }
    pose proof (Rabs_pos y). set (ky := k * Rabs y) in *. clearbody ky r. rewrite U in *. lra.
Qed.
Print Assumptions C107_error_3x3.

(** ** Counterexamples *)
Definition table3 (l : list (list Z)) : fmat := fun i j => of_int (nth j (nth i l nil) 0%Z).
Lemma table3_val l i j : (Z.abs (nth j (nth i l nil) 0) < 2 ^ 53)%Z -> val (table3 l) i j = IZR (nth j (nth i l nil) 0%Z).
Proof. intros H. apply of_int_ok, H. Qed.

(** A singular matrix, the third row being the sum of the others, of integers of at most 18
    bits, for which an "inverse" of finite numbers is returned. *)
Definition bad3 : list (list Z) := [[95279; 218707; 15528]; [124630; 397; 180247]; [219909; 219104; 195775]]%Z.
Theorem C107_singular_refuted : exists A, (forall i j, (i < 3)%nat -> (j < 3)%nat -> exists z, (Z.abs z < 2 ^ 18)%Z /\ A i j = of_int z) /\
  singular 3 (fun i j => val A j i) /\ singular 3 (val A) /\
  (forall i j, (i < 3)%nat -> (j < 3)%nat -> is_finite (inv3x3 A i j) = true).
Proof.
  exists (table3 bad3). split; [|split; [|split]].
  - intros i j Hi Hj. exists (nth j (nth i bad3 nil) 0%Z). split; [|reflexivity]. destruct i as [|[|[|i]]]; [| | |lia]; (destruct j as [|[|[|j]]]; [| | |lia]); cbn; lia.
  - exists (fun i => match i with 2%nat => -1 | _ => 1 end). split; [exists 0%nat; split; [lia|lra]|].
    intros i Hi. cbn [Rsum]. destruct i as [|[|[|i]]]; [| | |lia]; rewrite !table3_val by (cbn; lia); cbn [nth bad3]; lra.
  - exists (fun i => match i with 0%nat => 39415116013 | 1%nat => -15238499273 | _ => -27219627647 end). split; [exists 0%nat; split; [lia|lra]|].
    intros i Hi. cbn [Rsum]. destruct i as [|[|[|i]]]; [| | |lia]; rewrite !table3_val by (cbn; lia); cbn [nth bad3]; lra.
  - intros i j Hi Hj. destruct i as [|[|[|i]]]; [| | |lia]; (destruct j as [|[|[|j]]]; [| | |lia]); vm_compute; reflexivity.
Qed.
Print Assumptions C107_singular_refuted.

(** A regular matrix with entries of about one that is rejected. *)
Definition close2 : fmat := fun i j => match i, j with
  | 0%nat, 0%nat => fadd (of_int 1) (fdiv (of_int 1) (of_int 1073741824))
  | 1%nat, 1%nat => fsub (of_int 1) (fdiv (of_int 1) (of_int 1073741824))
  | _, _ => of_int 1
  end.
Theorem C107_regular_refuted : exists A X, (forall i j, (i < 2)%nat -> (j < 2)%nat -> fsized 1 (A i j)) /\ inverse 2 (val A) X /\ inv2x2 A = None.
Proof.
  pose (e := / 1073741824). pose (q := 1152921504606846976).
  exists close2, (fun i j => match i, j with 0%nat, 0%nat => - q * (1 - e) | 1%nat, 1%nat => - q * (1 + e) | _, _ => q end).
  assert (V00 : val close2 0 0 = 1 + e).
  { unfold val. assert (E : B2SF (close2 0 0)%nat = SpecFloat.S754_finite false 4503599631564800 (-52)) by (vm_compute; reflexivity). rewrite (value_of _ _ E). unfold e. cbn. unfold F2R. cbn. lra. }
  assert (V11 : val close2 1 1 = 1 - e).
  { unfold val. assert (E : B2SF (close2 1 1)%nat = SpecFloat.S754_finite false 9007199246352384 (-53)) by (vm_compute; reflexivity). rewrite (value_of _ _ E). unfold e. cbn. unfold F2R. cbn. lra. }
  assert (V01 : val close2 0 1 = 1) by (apply of_int_ok; lia). assert (V10 : val close2 1 0 = 1) by (apply of_int_ok; lia).
  split; [|split].
  - intros i j Hi Hj. split; [destruct i as [|[|i]]; [| |lia]; (destruct j as [|[|j]]; [| |lia]); vm_compute; reflexivity|].
    change (sized 1 (val close2 i j)). unfold sized. change (bpow radix2 (- (1))) with (/ 2). change (bpow radix2 1) with 2.
    destruct i as [|[|i]]; [| |lia]; (destruct j as [|[|j]]; [| |lia]); rewrite ?V00, ?V01, ?V10, ?V11; unfold e; rewrite Rabs_pos_eq by lra; (split; [right; lra|lra]).
  - intros i j Hi Hj. cbn [Rsum]. destruct i as [|[|i]]; [| |lia]; (destruct j as [|[|j]]; [| |lia]); rewrite ?V00, ?V01, ?V10, ?V11; unfold e, q; cbn [Nat.eqb]; lra.
  - vm_compute. reflexivity.
Qed.
Print Assumptions C107_regular_refuted.

(** The hypotheses are met. *)
Definition ex3 : list (list Z) := [[2; 1; 0]; [1; 3; 1]; [0; 1; 4]]%Z.
Example C107_met : integers 3 (2 ^ 16) (table3 ex3) (fun i j => nth j (nth i ex3 nil) 0%Z) /\
  (forall i j, (i < 3)%nat -> (j < 3)%nat -> fsized 150 (table3 ex3 i j)) /\ condition3 (val (table3 ex3)) <= 2 ^ 48 /\
  inverse 3 (val (table3 ex3)) (fun i j => IZR (nth j (nth i [[11; -4; 1]; [-4; 8; -2]; [1; -2; 5]] nil) 0)%Z / 18).
Proof.
  assert (V : forall i j, (i < 3)%nat -> (j < 3)%nat -> is_finite (table3 ex3 i j) = true /\ val (table3 ex3) i j = IZR (nth j (nth i ex3 nil) 0%Z) /\ (Z.abs (nth j (nth i ex3 nil) 0) <= 2 ^ 16)%Z).
  { intros i j Hi Hj. split; [|split; [apply of_int_ok|]]; (destruct i as [|[|[|i]]]; [| | |lia]; (destruct j as [|[|[|j]]]; [| | |lia]); (cbn; lia) || reflexivity). }
  split; [exact V|]. split; [|split].
  - intros i j Hi Hj. destruct (V i j Hi Hj) as (F & E & B). split; [exact F|]. change (sized 150 (val (table3 ex3) i j)). rewrite E.
    assert (1 <= bpow radix2 150) by (change 1 with (bpow radix2 0); apply bpow_le; lia). assert (bpow radix2 (-150) <= 1) by (change 1 with (bpow radix2 0); apply bpow_le; lia).
    assert (bpow radix2 3 <= bpow radix2 150) by (apply bpow_le; lia). change (bpow radix2 3) with 8 in H1. unfold sized. change (- (150))%Z with (-150)%Z.
    clear -Hi Hj H H0 H1. destruct i as [|[|[|i]]]; [| | |lia]; (destruct j as [|[|[|j]]]; [| | |lia]); cbn [nth ex3]; rewrite Rabs_pos_eq by lra; (split; [try (left; lra); right; lra|lra]).
  - unfold condition3, perm3, rdet3. cbv zeta. rewrite !(fun i j Hi Hj => proj1 (proj2 (V i j Hi Hj))) by lia. cbn [nth ex3]. rewrite !Rabs_pos_eq by lra. lra.
  - intros i j Hi Hj. cbn [Rsum]. rewrite !(fun i j Hi Hj => proj1 (proj2 (V i j Hi Hj))) by lia. destruct i as [|[|[|i]]]; [| | |lia]; (destruct j as [|[|[|j]]]; [| | |lia]); cbn [nth ex3 Nat.eqb]; lra.
Qed.
