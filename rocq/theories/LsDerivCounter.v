(** Fits whose reported derivatives are wrong. *)
Set Warnings "-ambiguous-paths".
From Coq Require Import Reals Lra FunctionalExtensionality.
From Coquelicot Require Import Coquelicot.
From Verif Require Import Prelude OField OFieldR Inverse LsModel LsSpec LsProofs LsBasis LsEq LsFit LsCases LsDerivSpec LsDeriv Spline LsWeights LsDerivCases.
Local Open Scope nat_scope.

(** The points -1, 0, 1. *)
Definition three_points : cloud RF := Flat (F := RF) [(-1)%R; 0%R; 1%R].
Lemma three_ok : cloud_ok three_points. Proof. exact I. Qed.

Section Fit.
Local Open Scope R_scope.
Variables (w1 w2 w3 g1 g2 g3 v1 v2 v3 : R).
Definition det3 : R := (w1 + w2 + w3) * (w1 + w3) - (w3 - w1) * (w3 - w1).
Definition x00 : R := (w1 + w3) / det3.
Definition x01 : R := - (w3 - w1) / det3.
Definition x11 : R := (w1 + w2 + w3) / det3.
Definition val3 (c0 c1 : R) (a1 a2 a3 : R) : R := a1 * (c0 - c1) * v1 + a2 * c0 * v2 + a3 * (c0 + c1) * v3.
Definition gam0 (x : R) : R := x00 + x01 * x.
Definition gam1 (x : R) : R := x01 + x11 * x.
Definition r0 (x : R) : R := 0 - ((g1 + g2 + g3) * gam0 x + (g3 - g1) * gam1 x).
Definition r1 (x : R) : R := 1 - ((g3 - g1) * gam0 x + (g1 + g3) * gam1 x).
Definition value3 (x : R) : R := val3 (gam0 x) (gam1 x) w1 w2 w3.
Definition slope3 (x : R) : R :=
  val3 (x00 * r0 x + x01 * r1 x) (x01 * r0 x + x11 * r1 x) w1 w2 w3 + val3 (gam0 x) (gam1 x) g1 g2 g3.

Variables (w : weight RF) (core : list R) (W : list R -> R) (G : list R -> list R).
Hypothesis HD : w_dim w = 1%nat.
Hypothesis W1 : W [-1] = w1. Hypothesis W2 : W [0] = w2. Hypothesis W3 : W [1] = w3.
Hypothesis ND : det3 <> 0.
Variable inv : nat -> mat RF -> result (mat RF).
Hypothesis HI : inv_ok LinAlgError inv.
Let values : list (list RF) := [[v1]; [v2]; [v3]].

Definition X3 : mat RF := fun i j => match i, j with O, O => x00 | S _, S _ => x11 | _, _ => x01 end.
Definition fam3 : family RF := family_1 (@get_poly_1_1 RF).
Lemma inverse3 : inverse_of 2 (A_ fam3 [[-1]; [0]; [1]] W) X3.
Proof.
  set (A := A_ fam3 [[-1]; [0]; [1]] W).
  assert (A00 : A O O = w1 + w2 + w3) by (unfold A, A_, acc; cbn; rewrite W1, W2, W3; ring).
  assert (A01 : A O 1%nat = w3 - w1) by (unfold A, A_, acc; cbn; rewrite W1, W2, W3; ring).
  assert (A10 : A 1%nat O = w3 - w1) by (unfold A, A_, acc; cbn; rewrite W1, W2, W3; ring).
  assert (A11 : A 1%nat 1%nat = w1 + w3) by (unfold A, A_, acc; cbn; rewrite W1, W2, W3; ring).
  clearbody A.
  split; intros i j Hi Hj; (destruct i as [|[|]]; [| |lia]); (destruct j as [|[|]]; [| |lia]);
    unfold mm; rewrite sum_rsum; cbn -[Rdiv]; rewrite ?A00, ?A01, ?A10, ?A11; unfold x00, x01, x11;
    match goal with |- @eq _ ?a ?b => change (@eq R a b) end; unfold eye; cbn [Nat.eqb]; try change (@one RF) with 1; try change (@zero RF) with 0; unfold det3 in *; field; exact ND.
Qed.
(** There is a fit. *)
Lemma fit3_exists order H : weight_at w core (cloud_points three_points) (grad_of order) (hess_of order) W G H ->
  exists f, weighted_least_squares inv three_points values 1 order (Some w) core = Ok f /\ forall x, exists a, f x = Ok a.
Proof.
  intros HW.
  destruct (wls_eq inv three_points values 1 order (Some w) core fam3 W G H three_ok eq_refl eq_refl HD HW) as (f & E & Ef).
  destruct (proj1 (HI 2%nat _) (inverse_regular 2 _ X3 inverse3)) as (X & EX & _).
  exists (f X). split; [|intros x; eexists; apply Ef].
  refine (eq_trans E _). exact (f_equal (fun r => do X <- r ; Ok (f X)) EX).
Qed.

Hypothesis HW : weight_at w core (cloud_points three_points) true false W G (fun _ => []).
Hypothesis G1 : nth 0 (G [-1]) 0 = g1. Hypothesis G2 : nth 0 (G [0]) 0 = g2. Hypothesis G3 : nth 0 (G [1]) 0 = g3.
Lemma fit3 : exists f, weighted_least_squares inv three_points values 1 1 (Some w) core = Ok f /\
  forall x, f [x] = Ok [Some [value3 x]; Some [slope3 x]; None].
Proof.
  destruct (wls_eq inv three_points values 1 1 (Some w) core fam3 W G (fun _ => []) three_ok eq_refl eq_refl HD HW) as (f & E & Ef).
  cbn [cloud_dim three_points] in E, Ef. change (nbasis 1 1) with 2%nat in E, Ef.
  change (cloud_points three_points) with [[-1]; [0]; [1]] in E, Ef.
  pose proof inverse3 as IX. set (A := A_ fam3 [[-1]; [0]; [1]] W) in *. clearbody A.
  destruct (proj1 (HI 2%nat A) (inverse_regular 2 A X3 IX)) as (X & EX & HX).
  pose proof (inverse_unique 2 A X X3 HX IX) as U.
  assert (U00 : X O O = x00) by (apply U; lia). assert (U01 : X O 1%nat = x01) by (apply U; lia).
  assert (U10 : X 1%nat O = x01) by (apply U; lia). assert (U11 : X 1%nat 1%nat = x11) by (apply U; lia).
  rewrite EX in E. exists (f X). split; [exact E|]. intros x. rewrite Ef. unfold ans, grad_of, hess_of, given. cbn [Z.ltb].
  f_equal. f_equal; [|f_equal].
  - unfold c_f, mls_f, dot_V, gam, vm, mv, B_, col, bvec. cbn. rewrite U00, U01, U10, U11, W1, W2, W3.
    unfold value3, val3, gam0, gam1. do 2 f_equal. ring.
  - unfold c_d, mls_g, dot_V, gamd, gamma_d, gam, vm, mv, B_, Bd_, Ad_, acc, col, bvec. cbn.
    rewrite U00, U01, U10, U11, W1, W2, W3, G1, G2, G3.
    unfold slope3, r0, r1, val3, gam0, gam1. do 2 f_equal. ring.
Qed.
End Fit.

Section Counter.
Local Open Scope R_scope.
Variable inv : nat -> mat RF -> result (mat RF).
Hypothesis HI : inv_ok LinAlgError inv.

(** ** The cubic weight with a fixed core *)
Definition bump_values : list (list RF) := [[1]; [0]; [1]].
Lemma K_at (y d : R) : y = -1 \/ y = 1 -> K0 y 2 = 1/6 /\ K1 y 2 = - y / 2.
Proof.
  intros E. assert (A : Rabs y = 1).
  { destruct E as [->| ->]; [rewrite Rabs_left by lra; lra|apply Rabs_right; lra]. }
  unfold K0, K1. rewrite A. rewrite dr_far by (rewrite A; unfold tinyR; lra). rewrite A.
  unfold S0, S1. rewrite !three_1 by lra. split; [lra|]. field.
Qed.
Lemma K_at_0 : K0 0 2 = 2/3 /\ K1 0 2 = 0.
Proof.
  unfold K0, K1. rewrite dr_zero, Rabs_R0. unfold S0, S1. rewrite !three_1 by lra. split; field.
Qed.
Lemma bump_fit : exists f, weighted_least_squares inv three_points bump_values 1 1 (Some (cubic_weight (F := RF) 1 [2])) [0] = Ok f /\
  forall x, f [x] = Ok [Some [1/3]; Some [2 * x]; None].
Proof.
  destruct K_at_0 as [Z0 Z1].
  destruct (fit3 (1/6) (2/3) (1/6) (-1/2) 0 (1/2) 1 0 1 (cubic_weight (F := RF) 1 [2]) [0]
    (cubic_value (F := RF) 1 [2] [0]) (cubic_gradient (F := RF) 1 [2] [0])) with (inv := inv) as (f & E & Ef).
  - reflexivity.
  - rewrite cubic_value_1. cbn [nth]. replace (0 - -1) with 1 by ring. apply (K_at 1 0). right; reflexivity.
  - rewrite cubic_value_1. cbn [nth]. replace (0 - 0) with 0 by ring. exact Z0.
  - rewrite cubic_value_1. cbn [nth]. replace (0 - 1) with (-1) by ring. apply (K_at (-1) 0). left; reflexivity.
  - unfold det3. lra.
  - exact HI.
  - destruct (cubic_at (F := RF) 1 [2] [0] (cloud_points three_points) true false (or_introl eq_refl)) as [C1 C2 _].
    constructor; [exact C1|exact C2|discriminate].
  - rewrite cubic_gradient_1. cbn [nth]. replace (0 - -1) with 1 by ring. apply (K_at 1 0). right; reflexivity.
  - rewrite cubic_gradient_1. cbn [nth]. replace (0 - 0) with 0 by ring. exact Z1.
  - rewrite cubic_gradient_1. cbn [nth]. replace (0 - 1) with (-1) by ring. replace (1/2) with (- -1 / 2) by field. apply (K_at (-1) 0). left; reflexivity.
  - exists f. split; [exact E|]. intros x. rewrite Ef.
    assert (V1 : value3 (1/6) (2/3) (1/6) 1 0 1 x = 1/3) by (unfold value3, val3, gam0, gam1, x00, x01, x11, det3; field).
    assert (V2 : slope3 (1/6) (2/3) (1/6) (-1/2) 0 (1/2) 1 0 1 x = 2 * x)
      by (unfold slope3, r0, r1, val3, gam0, gam1, x00, x01, x11, det3; field).
    rewrite V1, V2. reflexivity.
Qed.
Lemma not_right (f : list R -> result (list (option (list R)))) (u : R -> R) (p d e : R) :
  (forall x, component f 0 0 [x] = Some (u x)) -> is_derive u p d -> component f 1 0 [p] = Some e -> d <> e -> ~ right_derivatives f 1 1 1 [p].
Proof.
  intros Hv Hd Hs N C. destruct (proj1 (C 0%nat ltac:(lia)) 0%nat ltac:(lia)) as (u' & d' & E & L & D).
  cbn [Nat.add nth] in *. rewrite Hs in E. injection E as <-. apply N.
  assert (D2 : is_derive u p e).
  { apply (is_derive_ext_loc u'); [|exact D]. revert L. apply filter_imp. intros t Et. cbn [setc] in Et. rewrite Hv in Et. injection Et as <-. reflexivity. }
  pose proof (is_derive_unique u p d Hd) as E1. pose proof (is_derive_unique u p e D2) as E2. congruence.
Qed.
Lemma fixed_cubic_wrong : exists f, weighted_least_squares inv three_points bump_values 1 1 (Some (cubic_weight (F := RF) 1 [2])) [0] = Ok f /\
  (forall x, component f 0 0 [x] = Some (1/3)) /\ component f 1 0 [1] = Some 2 /\ ~ right_derivatives f 1 1 1 [1].
Proof.
  destruct bump_fit as (f & E & Ef). exists f.
  assert (V : forall x, component f 0 0 [x] = Some (1/3)) by (intros x; unfold component; rewrite Ef; reflexivity).
  assert (S : component f 1 0 [1] = Some 2) by (unfold component; rewrite Ef; cbn; f_equal; ring).
  repeat split; try assumption. apply (not_right f (fun _ => 1/3) 1 0 2 V); [apply derive_const; reflexivity|exact S|lra].
Qed.

(** ** The singular weight with a core that moves *)
Definition sing_values : list (list RF) := [[5]; [-4]; [1]].
Definition sing (c x : R) : R := 1 / ((c - x) * (c - x) + 1).
Definition dsing (c x : R) : R := - (2 * (c - x)) / (((c - x) * (c - x) + 1) * ((c - x) * (c - x) + 1)).
(** The weight function with the gradient that it should have. *)
Definition true_weight : weight RF :=
  Weight 1 (w_f (singular_weight (F := RF) 1 1)) (fun c x => Ok [dsing (nth 0 c 0) (nth 0 x 0)]) (fun _ _ => Ok [[0%R : RF]]).
Lemma sing_den (c x : R) : 0 < (c - x) * (c - x) + 1.
Proof. pose proof (Rle_0_sqr (c - x)) as S. unfold Rsqr in S. lra. Qed.
Lemma sing_pos c x : 0 < sing c x.
Proof. apply Rdiv_lt_0_compat; [lra|apply sing_den]. Qed.
Lemma sing_derive c x : is_derive (fun t => sing t x) c (dsing c x).
Proof.
  unfold sing, dsing. pose proof (sing_den c x). auto_derive; [lra|]. field. lra.
Qed.
Lemma sing_value c x : singular_value (F := RF) 1 [c] [x] = sing c x.
Proof. unfold singular_value, dist2, sing. cbn. f_equal. ring. Qed.
Definition wval (q : list R) (x : list R) : R := sing (nth 0 q 0) (nth 0 x 0).
Lemma sing_w_f c y : w_f (singular_weight (F := RF) 1 1) [c] [y] = Ok (sing c y).
Proof. exact (f_equal Ok (sing_value c y)). Qed.
Lemma true_smooth p : length p = 1%nat -> smooth_weight true_weight (fun q => q) (cloud_points three_points) p false wval
  (fun q x => [dsing (nth 0 q 0) (nth 0 x 0)]) (fun _ _ => []).
Proof.
  intros Lp.
  constructor.
  - intros q Lq. rewrite Lp in Lq. destruct q as [|c [|]]; try discriminate Lq. constructor; [| |discriminate].
    + intros x Ix. apply in_map_iff in Ix. destruct Ix as (y & <- & _). exact (sing_w_f c y).
    + intros _ x Ix. split; reflexivity.
  - intros j x Hj Ix. rewrite Lp in Hj. destruct j as [|]; [|lia]. destruct p as [|c [|]]; try discriminate Lp. exact (sing_derive c (nth 0 x 0)).
  - discriminate.
Qed.
Section At.
Variable c : R.
Let w1 := sing c (-1). Let w2 := sing c 0. Let w3 := sing c 1.
Lemma sing_det : det3 w1 w2 w3 <> 0.
Proof.
  pose proof (sing_pos c (-1)) as P1. pose proof (sing_pos c 0) as P2. pose proof (sing_pos c 1) as P3. fold w1 in P1. fold w2 in P2. fold w3 in P3.
  unfold det3. replace ((w1 + w2 + w3) * (w1 + w3) - (w3 - w1) * (w3 - w1)) with (4 * (w1 * w3) + w1 * w2 + w2 * w3) by ring.
  pose proof (Rmult_lt_0_compat _ _ P1 P3). pose proof (Rmult_lt_0_compat _ _ P1 P2). pose proof (Rmult_lt_0_compat _ _ P2 P3). lra.
Qed.
Lemma moving_code : moving_least_squares inv three_points sing_values 1 1 (Some (singular_weight (F := RF) 1 1)) [c] =
  Ok [Some [value3 w1 w2 w3 5 (-4) 1 c]; Some [slope3 w1 w2 w3 0 0 0 5 (-4) 1 c]; None].
Proof.
  unfold moving_least_squares.
  destruct (fit3 w1 w2 w3 0 0 0 5 (-4) 1 (singular_weight (F := RF) 1 1) [c] (wval [c]) (fun _ => [0])) with (inv := inv) as (f & E & Ef);
    try reflexivity; [exact sing_det|exact HI| |].
  - constructor; [|intros _ x _; split; reflexivity|discriminate]. intros x Ix. apply in_map_iff in Ix. destruct Ix as (y & <- & _). exact (sing_w_f c y).
  - refine (eq_trans (f_equal (fun r => do f <- r ; f [c]) E) _). exact (Ef c).
Qed.
Lemma moving_true : moving_least_squares inv three_points sing_values 1 1 (Some true_weight) [c] =
  Ok [Some [value3 w1 w2 w3 5 (-4) 1 c]; Some [slope3 w1 w2 w3 (dsing c (-1)) (dsing c 0) (dsing c 1) 5 (-4) 1 c]; None].
Proof.
  unfold moving_least_squares.
  destruct (fit3 w1 w2 w3 (dsing c (-1)) (dsing c 0) (dsing c 1) 5 (-4) 1 true_weight [c] (wval [c]) (fun x => [dsing c (nth 0 x 0)])) with (inv := inv) as (f & E & Ef);
    try reflexivity; [exact sing_det|exact HI| |].
  - constructor; [|intros _ x _; split; reflexivity|discriminate]. intros x Ix. apply in_map_iff in Ix. destruct Ix as (y & <- & _). exact (sing_w_f c y).
  - refine (eq_trans (f_equal (fun r => do f <- r ; f [c]) E) _). exact (Ef c).
Qed.
End At.
Lemma moving_singular_wrong : let run := moving_least_squares inv three_points sing_values 1 1 (Some (singular_weight (F := RF) 1 1)) in
  (exists u, (forall x, component run 0 0 [x] = Some (u x)) /\ is_derive u 1 (6/7)) /\
  component run 1 0 [1] = Some 0 /\ ~ right_derivatives run 1 1 1 [1].
Proof.
  intros run. set (u := fun c => value3 (sing c (-1)) (sing c 0) (sing c 1) 5 (-4) 1 c).
  assert (V : forall x, component run 0 0 [x] = Some (u x)) by (intros x; unfold component, run; rewrite moving_code; reflexivity).
  assert (S : component run 1 0 [1] = Some 0).
  { unfold component, run. rewrite moving_code. cbn. f_equal.
    unfold slope3, r0, r1, val3, gam0, gam1, x00, x01, x11, det3, sing. field. }
  assert (D : is_derive u 1 (6/7)).
  { pose proof (moving inv three_points sing_values 1 1 [1] _ HI I (or_introl eq_refl) eq_refl eq_refl ltac:(lia)
      true_weight wval _ _ eq_refl (true_smooth [1] eq_refl) (moving_true 1)) as C.
    destruct (proj1 (C 0%nat ltac:(cbn; lia)) 0%nat ltac:(cbn; lia)) as (u' & d' & E & L & D). cbn [nth setc] in L, D.
    assert (E7 : d' = 6/7).
    { unfold component in E. rewrite moving_true in E. cbn in E. injection E as <-.
      unfold slope3, r0, r1, val3, gam0, gam1, x00, x01, x11, det3, sing, dsing. field. }
    rewrite <- E7. apply (is_derive_ext_loc u'); [|exact D]. revert L. apply filter_imp. intros t Et. unfold component in Et. rewrite moving_true in Et.
    injection Et as <-. reflexivity. }
  split; [exists u; split; assumption|]. split; [exact S|]. apply (not_right run u 1 (6/7) 0 V D S). lra.
Qed.
End Counter.

(** ** Cases that meet the hypotheses: a moving fit with the cubic weight, second order,
    and a plain fit. *)
Section Examples.
Local Open Scope R_scope.
Lemma half_far x j : In x (cloud_points three_points) -> (j < 1)%nat -> far_at [1/2] x j.
Proof.
  intros Ix Hj. destruct j as [|]; [|lia]. unfold far_at. cbn [nth]. pose proof (eq_refl tinyR) as T. unfold tinyR in T at 2.
  destruct Ix as [<-|[<-|[<-|[]]]]; cbn [nth]; unfold Rabs; destruct (Rcase_abs _); lra.
Qed.
Lemma moving_example : exists a, moving_least_squares (inv_with LinAlgError) three_points bump_values 1 2 (Some (cubic_weight (F := RF) 1 [2])) [1/2] = Ok a.
Proof.
  destruct (fit3_exists (cubic_value (F := RF) 1 [2] [1/2] [-1]) (cubic_value (F := RF) 1 [2] [1/2] [0]) (cubic_value (F := RF) 1 [2] [1/2] [1]) 1 0 1
    (cubic_weight (F := RF) 1 [2]) [1/2] (cubic_value (F := RF) 1 [2] [1/2]) (cubic_gradient (F := RF) 1 [2] [1/2])) with (inv := inv_with (F := RF) LinAlgError) (order := 2%Z)
    (H := cubic_hessian (F := RF) 1 [2] [1/2]) as (f & E & Ef); try reflexivity.
  - assert (P : forall x, In x (cloud_points three_points) -> 0 < cubic_value (F := RF) 1 [2] [1/2] x).
    { intros x Ix. apply cubic_pos; [left; reflexivity|intros [|j] Hj; [cbn; lra|lia]|]. intros [|j] Hj; [|lia].
      destruct Ix as [<-|[<-|[<-|[]]]]; cbn [nth]; unfold Rabs; destruct (Rcase_abs _); lra. }
    pose proof (P [-1] (or_introl eq_refl)) as P1. pose proof (P [0] (or_intror (or_introl eq_refl))) as P2.
    pose proof (P [1] (or_intror (or_intror (or_introl eq_refl)))) as P3.
    set (w1 := cubic_value (F := RF) 1 [2] [1/2] [-1]) in *. set (w2 := cubic_value (F := RF) 1 [2] [1/2] [0]) in *. set (w3 := cubic_value (F := RF) 1 [2] [1/2] [1]) in *.
    clearbody w1 w2 w3. cbn in w1, w2, w3.
    unfold det3. replace ((w1 + w2 + w3) * (w1 + w3) - (w3 - w1) * (w3 - w1)) with (4 * (w1 * w3) + w1 * w2 + w2 * w3) by ring.
    pose proof (Rmult_lt_0_compat _ _ P1 P3). pose proof (Rmult_lt_0_compat _ _ P1 P2). pose proof (Rmult_lt_0_compat _ _ P2 P3). lra.
  - apply inv_with_ok.
  - exact (cubic_at (F := RF) 1 [2] [1/2] _ _ _ (or_introl eq_refl)).
  - destruct (Ef [1/2]) as (a & Ea). exists a. unfold moving_least_squares. refine (eq_trans (f_equal (fun r => do f <- r ; f [1/2]) E) Ea).
Qed.
Lemma plain_example : exists f a, least_squares (inv_with LinAlgError) three_points bump_values 1 2 = Ok f /\ f [5] = Ok a.
Proof.
  destruct (fit3_exists 1 1 1 1 0 1 (constant_weight (F := RF) 1 1 None) [] (fun _ => 1) (fun _ => @zeros RF 1))
    with (inv := inv_with (F := RF) LinAlgError) (order := 2%Z) (H := fun _ : list RF => @zeros2 RF 1 1) as (f & E & Ef); try reflexivity.
  - unfold det3. lra.
  - apply inv_with_ok.
  - exact (constant_at (F := RF) 1 1 None [] _ _ _).
  - destruct (Ef [5]) as (a & Ea). exists f, a. split; [exact E|exact Ea].
Qed.
End Examples.
