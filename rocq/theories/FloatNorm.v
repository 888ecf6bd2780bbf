(** Property C113: normalize and normalize2d in double precision.  The norm is an argument:
    [np.linalg.norm], compiled by Numba to a routine of BLAS, is not modelled. *)
From Coq Require Import ZArith List Reals Psatz Lia Lra.
From Flocq Require Import Core BinarySingleNaN Relative.
From Verif Require Import FloatModel FloatProofs.
Import ListNotations.
Local Open Scope R_scope.

(** ** Model *)

(** linalg/utils.py:832-834, [normalize] of a vector. *)
Definition normalize (norm : list f64 -> f64) (A : list f64) : list f64 := let n := norm A in map (fun x => fdiv x n) A.
(** linalg/utils.py:837-842, [normalize2d]: the rows are independent (C01). *)
Definition normalize2d (norm : list f64 -> f64) (A : list (list f64)) : list (list f64) := map (normalize norm) A.

(** ** Specification *)
Definition finite (x : f64) : Prop := is_finite x = true.
Definition squares (A : list f64) : R := fold_right (fun x s => B2R x * B2R x + s) 0 A.
(** The Euclidean length. *)
Definition length_of (A : list f64) : R := sqrt (squares A).
(** The computed norm has the relative error [d]. *)
Definition accurate (d : R) (norm : list f64 -> f64) (A : list f64) : Prop :=
  finite (norm A) /\ Rabs (B2R (norm A) - length_of A) <= d * length_of A.
(** The computed norm is a positive number and not less than any entry. *)
Definition dominates (norm : list f64 -> f64) (A : list f64) : Prop :=
  finite (norm A) /\ 0 < B2R (norm A) /\ Forall (fun x => Rabs (B2R x) <= B2R (norm A)) A.

(** ** Proofs *)
Lemma squares_cons x A : squares (x :: A) = B2R x * B2R x + squares A. Proof. reflexivity. Qed.
Lemma squares_nonneg A : 0 <= squares A.
Proof. induction A as [|x A IH]; [cbn; lra|]. rewrite squares_cons. pose proof (Rle_0_sqr (B2R x)) as S. unfold Rsqr in S. lra. Qed.
Lemma entry_le A x : In x A -> Rabs (B2R x) <= length_of A.
Proof.
  intros H. unfold length_of. rewrite <- (sqrt_Rsqr_abs (B2R x)). apply sqrt_le_1_alt. unfold Rsqr.
  induction A as [|y A IH]; [destruct H|]. rewrite squares_cons. pose proof (squares_nonneg A). destruct H as [->|H]; [lra|]. specialize (IH H).
  pose proof (Rle_0_sqr (B2R y)) as S. unfold Rsqr in S. lra.
Qed.

Section Entry.
Variables (x n : f64) (L d : R).
Hypotheses (Fx : finite x) (HL : 0 < L) (Hx : Rabs (B2R x) <= L) (Hd : 0 <= d <= / 4) (Hn : Rabs (B2R n - L) <= d * L).
Let Q := B2R x / L.
Lemma quotient_near : Rabs (B2R x / B2R n - Q) <= 4 / 3 * d * Rabs Q /\ 3 / 4 * L <= B2R n.
Proof.
  apply Rabs_le_inv in Hn. assert (N : 3 / 4 * L <= B2R n) by nra. split; [|exact N]. assert (Np : 0 < B2R n) by lra.
  replace (B2R x / B2R n - Q) with ((L - B2R n) / B2R n * Q) by (unfold Q; field; lra).
  rewrite Rabs_mult. apply Rmult_le_compat_r; [apply Rabs_pos|]. unfold Rdiv. rewrite Rabs_mult, (Rabs_pos_eq (/ B2R n)) by (apply Rlt_le, Rinv_0_lt_compat; lra).
  apply (Rmult_le_reg_r (B2R n)); [exact Np|]. rewrite Rmult_assoc, Rinv_l, Rmult_1_r by lra. apply Rabs_le. nra.
Qed.
Lemma Q_le : Rabs Q <= 1.
Proof.
  unfold Q, Rdiv. rewrite Rabs_mult, (Rabs_pos_eq (/ L)) by (apply Rlt_le, Rinv_0_lt_compat; lra).
  apply (Rmult_le_reg_r L); [exact HL|]. rewrite Rmult_assoc, Rinv_l by lra. lra.
Qed.
Lemma entry_ok : finite (fdiv x n) /\ Rabs (B2R (fdiv x n) - Q) <= 4 / 3 * (d + u) * Rabs Q + eta.
Proof.
  destruct quotient_near as [A N]. pose proof Q_le as B. pose proof (Rabs_pos Q) as P.
  assert (C : Rabs (B2R x / B2R n) <= (1 + 4 / 3 * d) * Rabs Q).
  { replace (B2R x / B2R n) with (Q + (B2R x / B2R n - Q)) by ring. eapply Rle_trans; [apply Rabs_triang|]. lra. }
  destruct (fdiv_ok x n 1) as [V F]; [lia|exact Fx|lra| |].
  { apply Rle_trans with (1 := C). cbn. nra. }
  split; [exact F|]. rewrite V. pose proof (rnd_err (B2R x / B2R n)) as E.
  replace (rnd (B2R x / B2R n) - Q) with ((rnd (B2R x / B2R n) - B2R x / B2R n) + (B2R x / B2R n - Q)) by ring.
  eapply Rle_trans; [apply Rabs_triang|]. assert (u * Rabs (B2R x / B2R n) <= u * (4 / 3 * Rabs Q)); [|lra].
  apply Rmult_le_compat_l; [unfold u; lra|]. apply Rle_trans with (1 := C). nra.
Qed.
End Entry.

Lemma eta_le : eta <= / 1000.
Proof.
  unfold eta. apply Rle_trans with (bpow radix2 (-10)); [|cbn; lra].
  pose proof (bpow_le radix2 (-1074) (-10) ltac:(lia)). pose proof (bpow_gt_0 radix2 (-1074)). lra.
Qed.
Lemma square_near q y e : 0 <= e <= / 2 -> Rabs q <= 1 -> Rabs (y - q) <= e * Rabs q + eta -> Rabs (y * y - q * q) <= e * (2 + e) * (q * q) + 4 * eta.
Proof.
  intros He Hq H. pose proof eta_pos as E0. pose proof eta_le as E1. pose proof (Rabs_pos q) as P.
  replace (y * y - q * q) with ((y - q) * (y + q)) by ring. rewrite Rabs_mult.
  assert (S : Rabs (y + q) <= (2 + e) * Rabs q + eta).
  { replace (y + q) with ((y - q) + 2 * q) by ring. eapply Rle_trans; [apply Rabs_triang|]. rewrite Rabs_mult, (Rabs_pos_eq 2) by lra. lra. }
  assert (M : Rabs (y - q) * Rabs (y + q) <= (e * Rabs q + eta) * ((2 + e) * Rabs q + eta)) by (apply Rmult_le_compat; [apply Rabs_pos|apply Rabs_pos|exact H|exact S]).
  apply Rle_trans with (1 := M). rewrite <- (Rabs_pos_eq (q * q)) by nra. rewrite Rabs_mult. set (a := Rabs q) in *.
  replace ((e * a + eta) * ((2 + e) * a + eta)) with (e * (2 + e) * (a * a) + ((2 + 2 * e) * a + eta) * eta) by ring.
  apply Rplus_le_compat_l, Rmult_le_compat_r; [lra|]. nra.
Qed.

Lemma squares_near L e A (g : f64 -> f64) : 0 < L -> 0 <= e <= / 2 -> (forall x, In x A -> Rabs (B2R x) <= L) ->
  (forall x, In x A -> Rabs (B2R (g x) - B2R x / L) <= e * Rabs (B2R x / L) + eta) ->
  Rabs (squares (map g A) - squares A / (L * L)) <= e * (2 + e) * (squares A / (L * L)) + 4 * INR (length A) * eta.
Proof.
  intros HL He. induction A as [|x A IH]; intros HA H.
  - cbn. unfold Rdiv. rewrite Rmult_0_l, Rminus_0_r, Rabs_R0. lra.
  - cbn [map]. rewrite !squares_cons.
    specialize (IH (fun y Y => HA y (or_intror Y)) (fun y Y => H y (or_intror Y))).
    pose proof (square_near (B2R x / L) (B2R (g x)) e He (Q_le x L HL (HA x (or_introl eq_refl))) (H x (or_introl eq_refl))) as SN.
    replace ((B2R x * B2R x + squares A) / (L * L)) with (B2R x / L * (B2R x / L) + squares A / (L * L)) by (field; lra).
    replace (B2R (g x) * B2R (g x) + squares (map g A) - (B2R x / L * (B2R x / L) + squares A / (L * L)))
      with ((B2R (g x) * B2R (g x) - B2R x / L * (B2R x / L)) + (squares (map g A) - squares A / (L * L))) by ring.
    eapply Rle_trans; [apply Rabs_triang|]. change (length (x :: A)) with (S (length A)). rewrite S_INR. lra.
Qed.

Lemma unit_ok norm d A : Forall finite A -> 0 < length_of A -> 0 <= d <= / 4 -> accurate d norm A ->
  Forall2 (fun x y => finite y /\ Rabs (B2R y - B2R x / length_of A) <= 4 / 3 * (d + u) * Rabs (B2R x / length_of A) + eta) A (normalize norm A) /\
  Rabs (squares (normalize norm A) - 1) <= 4 * (d + u) + 4 * INR (length A) * eta.
Proof.
  intros FA HL Hd [Fn Hn]. assert (U : u = / 9007199254740992) by reflexivity. set (L := length_of A) in *.
  assert (G : forall x, In x A -> finite (fdiv x (norm A)) /\ Rabs (B2R (fdiv x (norm A)) - B2R x / L) <= 4 / 3 * (d + u) * Rabs (B2R x / L) + eta).
  { intros x Hx. apply entry_ok; try assumption; [apply (proj1 (Forall_forall _ _) FA), Hx|apply entry_le, Hx]. }
  split.
  - unfold normalize. cbv zeta. generalize (norm A) L G. clear. intros n L. induction A as [|x A IH]; intros G; cbn; constructor.
    + apply G. left. reflexivity.
    + apply IH. intros y Y. apply G. right. exact Y.
  - assert (S1 : squares A / (L * L) = 1).
    { unfold L, length_of. rewrite sqrt_sqrt by apply squares_nonneg. apply Rinv_r. intros Z. unfold L, length_of in HL. rewrite Z, sqrt_0 in HL. lra. }
    pose proof (squares_near L (4 / 3 * (d + u)) A (fun x => fdiv x (norm A)) HL) as S. rewrite S1 in S.
    unfold normalize. cbv zeta. eapply Rle_trans; [apply S|].
    + rewrite U. lra.
    + intros x Hx. apply entry_le, Hx.
    + intros x Hx. apply G, Hx.
    + apply Rplus_le_compat_r. rewrite Rmult_1_r.
      assert (0 <= d + u) by (rewrite U; lra). assert (4 / 3 * (d + u) <= 2 / 5) by (rewrite U; lra). nra.
Qed.

Lemma quotient_bounds (x n : f64) : finite x -> finite n -> 0 < B2R n -> Rabs (B2R x) <= B2R n ->
  finite (fdiv x n) /\ B2R (fdiv x n) = rnd (B2R x / B2R n) /\ Rabs (B2R x / B2R n) <= 1.
Proof.
  intros Fx Fn P H. assert (Q : Rabs (B2R x / B2R n) <= 1) by exact (Q_le x (B2R n) P H).
  destruct (fdiv_ok x n 0) as [V F]; [lia|exact Fx|lra|exact Q|]. repeat split; assumption.
Qed.
Lemma rnd_1 : rnd 1 = 1.
Proof. destruct (of_int_ok 1 eq_refl) as [E _]. rewrite <- E. apply rnd_f64. Qed.

(** ** Theorems *)

(** If the norm has the relative error d, the entries are those of the exact unit vector up
    to a relative error of 4/3 (d + 2^-53) and the length is 1 up to a small error, for
    [normalize] and for every row of [normalize2d], whatever the other rows are. *)
Theorem C113_unit_partial :
  forall norm d A, Forall finite A -> 0 < length_of A -> 0 <= d <= / 4 -> accurate d norm A ->
  (forall B, B = normalize norm A \/ (exists rows i, nth_error rows i = Some A /\ nth_error (normalize2d norm rows) i = Some B) ->
   Forall2 (fun x y => finite y /\ Rabs (B2R y - B2R x / length_of A) <= 4 / 3 * (d + u) * Rabs (B2R x / length_of A) + eta) A B /\
   Rabs (squares B - 1) <= 4 * (d + u) + 4 * INR (length A) * eta) /\
  forall rows, length (normalize2d norm rows) = length rows.
Proof.
  intros norm d A FA HL Hd Ha. split; [|intros rows; apply map_length]. intros B HB. assert (B = normalize norm A) as ->.
  { destruct HB as [HB|(rows & i & E & E')]; [exact HB|]. unfold normalize2d in E'. rewrite nth_error_map, E in E'. cbn in E'. congruence. }
  apply unit_ok; assumption.
Qed.
Print Assumptions C113_unit_partial.

(** If the norm is only known to be positive and not less than any entry, the entries of the
    result are between -1 and 1, in the order of the entries of the vector, with their
    signs, and 1 or -1 where the norm is reached. *)
Theorem C113_order_partial :
  forall norm A, Forall finite A -> dominates norm A ->
  length (normalize norm A) = length A /\
  (forall i x y, nth_error A i = Some x -> nth_error (normalize norm A) i = Some y ->
     finite y /\ Rabs (B2R y) <= 1 /\ (0 <= B2R x -> 0 <= B2R y) /\ (B2R x <= 0 -> B2R y <= 0) /\
     (Rabs (B2R x) = B2R (norm A) -> Rabs (B2R y) = 1)) /\
  (forall i j x x' y y', nth_error A i = Some x -> nth_error A j = Some x' ->
     nth_error (normalize norm A) i = Some y -> nth_error (normalize norm A) j = Some y' -> B2R x <= B2R x' -> B2R y <= B2R y').
Proof.
  intros norm A FA (Fn & P & D). split; [apply map_length|].
  assert (G : forall i x y, nth_error A i = Some x -> nth_error (normalize norm A) i = Some y ->
    finite y /\ B2R y = rnd (B2R x / B2R (norm A)) /\ Rabs (B2R x / B2R (norm A)) <= 1).
  { intros i x y E E'. unfold normalize in E'. cbv zeta in E'. rewrite nth_error_map, E in E'. injection E' as <-. apply nth_error_In in E.
    apply quotient_bounds; [apply (proj1 (Forall_forall _ _) FA), E|exact Fn|exact P|exact (proj1 (Forall_forall _ _) D x E)]. }
  assert (I : 0 < / B2R (norm A)) by (apply Rinv_0_lt_compat; exact P). split.
  - intros i x y E E'. destruct (G i x y E E') as (F & V & B). split; [exact F|]. rewrite V. split; [apply (rnd_bound _ 0); [lia|exact B]|]. repeat split.
    + intros X. rewrite <- rnd_0. apply rnd_le. apply Rmult_le_pos; lra.
    + intros X. rewrite <- rnd_0. apply rnd_le. unfold Rdiv. nra.
    + intros X. assert (K : B2R x / B2R (norm A) = 1 \/ B2R x / B2R (norm A) = - (1)).
      { destruct (Rle_or_lt 0 (B2R x)) as [S|S]; [left; rewrite Rabs_pos_eq in X by exact S|right; rewrite Rabs_left in X by exact S];
          rewrite <- X; field; lra. }
      destruct K as [->| ->]; [rewrite rnd_1; apply Rabs_pos_eq; lra|].
      replace (rnd (- (1))) with (- (1)); [rewrite Rabs_Ropp; apply Rabs_pos_eq; lra|].
      unfold rnd. rewrite round_NE_opp. fold (rnd 1). rewrite rnd_1. reflexivity.
  - intros i j x x' y y' E1 E2 E3 E4 H. destruct (G i x y E1 E3) as (_ & -> & _). destruct (G j x' y' E2 E4) as (_ & -> & _).
    apply rnd_le. unfold Rdiv. apply Rmult_le_compat_r; lra.
Qed.
Print Assumptions C113_order_partial.

(** Nothing is reported for a vector of zeros: although its norm is right, every entry of
    the result is NaN. *)
Theorem C113_refuted :
  forall n, exists A, length A = n /\ Forall finite A /\ length_of A = 0 /\
  forall norm, accurate 0 norm A -> normalize norm A = repeat B754_nan n.
Proof.
  intros n. exists (repeat (of_int 0) n). destruct (of_int_ok 0 eq_refl) as [E F].
  assert (Z : length_of (repeat (of_int 0) n) = 0).
  { unfold length_of. replace (squares (repeat (of_int 0) n)) with 0; [apply sqrt_0|].
    induction n as [|n IH]; [reflexivity|]. cbn [repeat]. rewrite squares_cons, <- IH, E. ring. }
  split; [apply repeat_length|]. split; [apply Forall_forall; intros x Hx; apply repeat_spec in Hx; subst; exact F|]. split; [exact Z|].
  intros norm [Fn Hn]. rewrite Z, Rminus_0_r, Rmult_0_l in Hn.
  assert (Z' : B2R (norm (repeat (of_int 0) n)) = 0).
  { pose proof (Rabs_pos (B2R (norm (repeat (of_int 0) n)))). destruct (Req_dec (B2R (norm (repeat (of_int 0) n))) 0) as [K|K]; [exact K|]. apply Rabs_pos_lt in K. lra. }
  unfold normalize. cbv zeta. destruct (norm (repeat (of_int 0) n)) as [s|s| |s m e B]; try discriminate Fn.
  - clear. induction n as [|n IH]; [reflexivity|]. cbn [repeat map]. rewrite IH. destruct s; reflexivity.
  - exfalso. cbn in Z'. apply eq_0_F2R in Z'. destruct s; discriminate.
Qed.
Print Assumptions C113_refuted.

(** (3, 4) with the norm 5. *)
Example C113_met : let A := [of_int 3; of_int 4] in
  Forall finite A /\ length_of A = 5 /\ accurate 0 (fun _ => of_int 5) A /\ dominates (fun _ => of_int 5) A.
Proof.
  destruct (of_int_ok 3 eq_refl) as [E3 F3]. destruct (of_int_ok 4 eq_refl) as [E4 F4]. destruct (of_int_ok 5 eq_refl) as [E5 F5].
  assert (L : length_of [of_int 3; of_int 4] = 5).
  { unfold length_of, squares. cbn [fold_right]. rewrite E3, E4. replace (3 * 3 + (4 * 4 + 0)) with (5 * 5) by ring. apply sqrt_square. lra. }
  cbv zeta. unfold accurate, dominates. rewrite L, E5. repeat split; try assumption; try lra.
  - constructor; [exact F3|]. constructor; [exact F4|constructor].
  - rewrite Rabs_pos_eq; lra.
  - constructor; [rewrite E3, Rabs_pos_eq; lra|]. constructor; [rewrite E4, Rabs_pos_eq; lra|constructor].
Qed.
