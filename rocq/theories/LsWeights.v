(** The weight functions of the library in the real numbers. *)
Set Warnings "-ambiguous-paths".
From Coq Require Import Reals Lra.
From Coquelicot Require Import Coquelicot.
From Verif Require Import Prelude OField OFieldR Inverse LsModel LsProofs LsBasis LsEq LsFit LsCases LinDeriv LsDerivSpec LsDeriv Spline.
Local Open Scope nat_scope.

(** ** The cubic weight *)
Lemma R_abs (x : R) : absf (F := RF) x = Rabs x.
Proof.
  unfold absf. cbn. unfold R_leb, Rabs. destruct (Rle_dec 0 x), (Rcase_abs x); try reflexivity; lra.
Qed.
Lemma R_tiny : tiny (F := RF) = tinyR.
Proof. unfold tiny, tinyR, num. cbn. apply f_equal. ring. Qed.
Lemma num_R n : num (F := RF) n = INR n.
Proof. unfold num. induction n as [|n IH]; [reflexivity|]. rewrite S_INR. cbn [of_nat]. rewrite IH. cbn. ring. Qed.

Lemma cubic_real (x dm : R) : cubic_1d (F := RF) x dm = (K0 x dm, K1 x dm, K2 x dm).
Proof.
  unfold cubic_1d, K0, K1, K2. rewrite R_abs. cbv zeta. 
  assert (ED : (if ltb (F := RF) (Rabs x) tiny then zero else div (div (x : RF) (Rabs x)) dm) = dr x dm).
  { unfold dr, ltb. cbn [leb RF]. rewrite R_tiny. unfold R_leb.
    destruct (Rle_dec tinyR (Rabs x)), (Rlt_dec (Rabs x) tinyR); cbn; try lra; reflexivity. }
  rewrite ED. change (@div RF (Rabs x) dm) with (Rabs x / dm)%R. set (r := (Rabs x / dm)%R).
  unfold S0, S1, S2, three, ltb. rewrite !num_R. cbn [leb RF]. unfold R_leb. cbn [div one RF].
  replace (1 / INR 2)%R with (1/2)%R by (cbn; lra).
  destruct (Rle_dec r (1/2)) as [L|L].
  { f_equal; [f_equal|]; cbn; [lra|apply (f_equal (fun z => z * dr x dm)%R); lra|].
    apply (f_equal (fun z => z * dr x dm * dr x dm)%R). lra. }
  cbn [negb andb]. destruct (Rle_dec r 1) as [L1|L1].
  { f_equal; [f_equal|]; cbn; [lra|apply (f_equal (fun z => z * dr x dm)%R); lra|].
    apply (f_equal (fun z => z * dr x dm * dr x dm)%R). lra. }
  f_equal; [f_equal|]; cbn; ring.
Qed.

Lemma cubic_value_1 (sd core x : list R) : cubic_value (F := RF) 1 sd core x = K0 (nth 0 core 0 - nth 0 x 0)%R (nth 0 sd 0%R).
Proof. unfold cubic_value, cubic_evaluate. rewrite cubic_real. reflexivity. Qed.
Lemma cubic_gradient_1 (sd core x : list R) : cubic_gradient (F := RF) 1 sd core x = [K1 (nth 0 core 0 - nth 0 x 0)%R (nth 0 sd 0%R)].
Proof. unfold cubic_gradient, cubic_evaluate. rewrite cubic_real. reflexivity. Qed.
Lemma cubic_hessian_1 (sd core x : list R) : cubic_hessian (F := RF) 1 sd core x = [[K2 (nth 0 core 0 - nth 0 x 0)%R (nth 0 sd 0%R)]].
Proof. unfold cubic_hessian, cubic_evaluate. rewrite cubic_real. reflexivity. Qed.
Section Two.
Variables (sd core x : list R).
Let u := (nth 0 core 0 - nth 0 x 0)%R.
Let v := (nth 1 core 0 - nth 1 x 0)%R.
Let a := nth 0 sd 0%R.
Let b := nth 1 sd 0%R.
Lemma cubic_value_2 : cubic_value (F := RF) 2 sd core x = (K0 u a * K0 v b)%R.
Proof. unfold cubic_value, cubic_evaluate. rewrite !cubic_real. reflexivity. Qed.
Lemma cubic_gradient_2 : cubic_gradient (F := RF) 2 sd core x = [K0 v b * K1 u a; K0 u a * K1 v b]%R.
Proof. unfold cubic_gradient, cubic_evaluate. rewrite !cubic_real. reflexivity. Qed.
Lemma cubic_hessian_2 : cubic_hessian (F := RF) 2 sd core x =
  [[K0 v b * K2 u a; K1 u a * K1 v b]; [K1 u a * K1 v b; K0 u a * K2 v b]]%R.
Proof. unfold cubic_hessian, cubic_evaluate. rewrite !cubic_real. reflexivity. Qed.
End Two.

Lemma shift_core (f : R -> R) (c y d : R) : is_derive f (c - y)%R d -> is_derive (fun t => f (t - y)%R) c d.
Proof.
  intros D. evar_last; [apply (is_derive_comp f (fun t => t - y)%R c); [exact D|]|].
  - instantiate (1 := 1%R). auto_derive; [exact I|ring].
  - unfold scal. cbn. unfold mult. cbn. ring.
Qed.
Lemma shift_x (f : R -> R) (c y d : R) : is_derive f (c - y)%R d -> is_derive (fun t => f (c - t)%R) y (- d)%R.
Proof.
  intros D. evar_last; [apply (is_derive_comp f (fun t => c - t)%R y); [exact D|]|].
  - instantiate (1 := (-1)%R). auto_derive; [exact I|ring].
  - unfold scal. cbn. unfold mult. cbn. ring.
Qed.
Lemma scal_r (f : R -> R) (c k d : R) : is_derive f c d -> is_derive (fun t => f t * k)%R c (k * d)%R.
Proof. intros D. apply (is_derive_ext (fun t => k * f t)%R); [intros; apply Rmult_comm|]. apply is_derive_scal. exact D. Qed.
Lemma regular_K0 core x j dm : (0 < dm)%R -> regular_at core x j ->
  is_derive (fun y => K0 y dm) (nth j core 0 - nth j x 0)%R (K1 (nth j core 0 - nth j x 0)%R dm).
Proof. intros P [L|E]; apply K0_derive; auto. right. lra. Qed.

Section Cubic.
Variables (dim : nat) (sd core x : list R).
Hypothesis HD : dim = 1 \/ dim = 2.
Hypothesis HC : length core = dim.
Hypothesis HX : length x = dim.
Hypothesis HS : forall j, j < dim -> (0 < nth j sd 0)%R.

Ltac start := pose proof HD as HD'; pose proof HC as HC'; pose proof HX as HX'; pose proof HS as HS';
  destruct HD' as [E|E]; rewrite E in HC', HX', HS' |- *; clear E;
  destruct core as [|c0 [|c1 [|c2 c3]]]; try discriminate HC'; destruct x as [|x0 [|x1 [|x2 x3]]]; try discriminate HX'.

(** With respect to the core, the gradient and the Hessian are the derivatives. *)
Lemma cubic_core j : j < dim -> regular_at core x j ->
  is_derive (fun t => cubic_value (F := RF) dim sd (setc core j t) x : R) (nth j core 0%R) (nth j (cubic_gradient (F := RF) dim sd core x) 0%R).
Proof.
  intros Hj HR. pose proof (regular_K0 core x j _ (HS j Hj) HR) as D. revert Hj HR D. start; intros Hj HR D.
  - destruct j as [|]; [|lia]. rewrite cubic_gradient_1.
    apply (is_derive_ext (fun t => K0 (t - x0)%R (nth 0 sd 0%R))); [intros t; rewrite cubic_value_1; reflexivity|].
    apply (shift_core (fun y => K0 y (nth 0 sd 0%R))). exact D.
  - rewrite cubic_gradient_2. destruct j as [|[|]]; [| |lia].
    + apply (is_derive_ext (fun t => K0 (t - x0)%R (nth 0 sd 0%R) * K0 (c1 - x1)%R (nth 1 sd 0%R))%R); [intros t; rewrite cubic_value_2; reflexivity|].
      apply (scal_r (fun t => K0 (t - x0)%R (nth 0 sd 0%R))). apply (shift_core (fun y => K0 y (nth 0 sd 0%R))). exact D.
    + apply (is_derive_ext (fun t => K0 (c0 - x0)%R (nth 0 sd 0%R) * K0 (t - x1)%R (nth 1 sd 0%R))%R); [intros t; rewrite cubic_value_2; reflexivity|].
      apply is_derive_scal. apply (shift_core (fun y => K0 y (nth 1 sd 0%R))). exact D.
Qed.
Lemma cubic_core2 j l : j < dim -> l < dim -> (if j =? l then far_at core x l else regular_at core x l) ->
  is_derive (fun t => nth j (cubic_gradient (F := RF) dim sd (setc core l t) x) 0%R : R) (nth l core 0%R)
    (nth l (nth j (cubic_hessian (F := RF) dim sd core x) []) 0%R).
Proof.
  intros Hj Hl HR.
  assert (D : if j =? l then is_derive (fun y => K1 y (nth l sd 0%R)) (nth l core 0 - nth l x 0)%R (K2 (nth l core 0 - nth l x 0)%R (nth l sd 0%R))
              else is_derive (fun y => K0 y (nth l sd 0%R)) (nth l core 0 - nth l x 0)%R (K1 (nth l core 0 - nth l x 0)%R (nth l sd 0%R))).
  { destruct (j =? l); [apply K1_derive; exact HR|exact (regular_K0 core x l _ (HS l Hl) HR)]. }
  revert Hj Hl HR D. start; intros Hj Hl HR D.
  - destruct j as [|]; [|lia]. destruct l as [|]; [|lia]. rewrite cubic_hessian_1. cbn in D.
    apply (is_derive_ext (fun t => K1 (t - x0)%R (nth 0 sd 0%R))); [intros t; rewrite cubic_gradient_1; reflexivity|].
    apply (shift_core (fun y => K1 y (nth 0 sd 0%R))). exact D.
  - rewrite cubic_hessian_2. destruct j as [|[|]]; [| |lia]; destruct l as [|[|]]; try lia; cbn in D.
    + apply (is_derive_ext (fun t => K0 (c1 - x1)%R (nth 1 sd 0%R) * K1 (t - x0)%R (nth 0 sd 0%R))%R); [intros t; rewrite cubic_gradient_2; reflexivity|].
      apply is_derive_scal. apply (shift_core (fun y => K1 y (nth 0 sd 0%R))). exact D.
    + apply (is_derive_ext (fun t => K0 (t - x1)%R (nth 1 sd 0%R) * K1 (c0 - x0)%R (nth 0 sd 0%R))%R); [intros t; rewrite cubic_gradient_2; reflexivity|].
      apply (scal_r (fun t => K0 (t - x1)%R (nth 1 sd 0%R))). apply (shift_core (fun y => K0 y (nth 1 sd 0%R))). exact D.
    + apply (is_derive_ext (fun t => K0 (t - x0)%R (nth 0 sd 0%R) * K1 (c1 - x1)%R (nth 1 sd 0%R))%R); [intros t; rewrite cubic_gradient_2; reflexivity|].
      cbn [nth]. rewrite Rmult_comm. rewrite Rmult_comm.
      evar_last; [apply (scal_r (fun t => K0 (t - x0)%R (nth 0 sd 0%R))); apply (shift_core (fun y => K0 y (nth 0 sd 0%R))); exact D|].
      apply Rmult_comm.
    + apply (is_derive_ext (fun t => K0 (c0 - x0)%R (nth 0 sd 0%R) * K1 (t - x1)%R (nth 1 sd 0%R))%R); [intros t; rewrite cubic_gradient_2; reflexivity|].
      apply is_derive_scal. apply (shift_core (fun y => K1 y (nth 1 sd 0%R))). exact D.
Qed.
End Cubic.

(** ** The cubic weight as a function of the point *)
Lemma cubic_difference dim (sd core x : list R) j t : length core = dim -> length x = dim -> j < dim ->
  cubic_evaluate (F := RF) dim sd core (setc x j t) = cubic_evaluate (F := RF) dim sd (setc core j (nth j core 0 + nth j x 0 - t)%R) x.
Proof.
  intros HC HX Hj. unfold cubic_evaluate. destruct dim as [|[|[|dim]]]; try reflexivity.
  - destruct core as [|c0 [|c1 c2]]; try discriminate HC; destruct x as [|x0 [|x1 x2]]; try discriminate HX. destruct j as [|]; [|lia].
    rewrite !cubic_real. cbn -[K0 K1 K2]. replace (c0 + x0 - t - x0)%R with (c0 - t)%R by ring. reflexivity.
  - destruct core as [|c0 [|c1 [|c2 c3]]]; try discriminate HC; destruct x as [|x0 [|x1 [|x2 x3]]]; try discriminate HX.
    destruct j as [|[|]]; [| |lia]; rewrite !cubic_real; cbn -[K0 K1 K2].
    + replace (c0 + x0 - t - x0)%R with (c0 - t)%R by ring. reflexivity.
    + replace (c1 + x1 - t - x1)%R with (c1 - t)%R by ring. reflexivity.
Qed.
Lemma reverse (f : R -> R) (c y d : R) : is_derive f c d -> is_derive (fun t => f (c + y - t)%R) y (- d)%R.
Proof. intros D. apply (shift_x (fun z => f z) (c + y)%R y d). replace (c + y - y)%R with c by ring. exact D. Qed.

Lemma zeros_row (a b : R) : 0%R = a /\ 0%R = b -> Forall (eq 0%R) [a; b].
Proof. intros (A & B). repeat (apply Forall_cons; [assumption|]). apply Forall_nil. Qed.
Lemma zeros_mat (a b c d : R) : 0%R = a /\ 0%R = b /\ 0%R = c /\ 0%R = d -> Forall (Forall (eq 0%R)) [[a; b]; [c; d]].
Proof. intros (A & B & C & D). apply Forall_cons; [apply zeros_row; tauto|]. apply Forall_cons; [apply zeros_row; tauto|]. apply Forall_nil. Qed.

Section CubicX.
Variables (dim : nat) (sd core x : list R).
Hypothesis HD : dim = 1 \/ dim = 2.
Hypothesis HC : length core = dim.
Hypothesis HX : length x = dim.
Hypothesis HS : forall j, j < dim -> (0 < nth j sd 0)%R.
Lemma cubic_x j : j < dim -> regular_at core x j ->
  is_derive (fun t => cubic_value (F := RF) dim sd core (setc x j t) : R) (nth j x 0%R) (- nth j (cubic_gradient (F := RF) dim sd core x) 0)%R.
Proof.
  intros Hj HR.
  apply (is_derive_ext (fun t => cubic_value (F := RF) dim sd (setc core j (nth j core 0 + nth j x 0 - t)%R) x : R)).
  - intros t. unfold cubic_value. rewrite cubic_difference by assumption. reflexivity.
  - apply (reverse (fun z => cubic_value (F := RF) dim sd (setc core j z) x : R)). exact (cubic_core dim sd core x HD HC HX HS j Hj HR).
Qed.
Lemma cubic_x2 j l : j < dim -> l < dim -> (if j =? l then far_at core x l else regular_at core x l) ->
  is_derive (fun t => nth j (cubic_gradient (F := RF) dim sd core (setc x l t)) 0%R : R) (nth l x 0%R)
    (- nth l (nth j (cubic_hessian (F := RF) dim sd core x) []) 0)%R.
Proof.
  intros Hj Hl HR.
  apply (is_derive_ext (fun t => nth j (cubic_gradient (F := RF) dim sd (setc core l (nth l core 0 + nth l x 0 - t)%R) x) 0%R : R)).
  - intros t. unfold cubic_gradient. rewrite cubic_difference by assumption. reflexivity.
  - apply (reverse (fun z => nth j (cubic_gradient (F := RF) dim sd (setc core l z) x) 0%R : R)). exact (cubic_core2 dim sd core x HD HC HX HS j l Hj Hl HR).
Qed.

(** Outside the support, and on its boundary, everything is zero. *)
Lemma S_zero (f g : R -> R) r : (1 <= r)%R -> g 1%R = 0%R -> three f g r = 0%R.
Proof. intros L Z. destruct (Req_dec r 1) as [->|N]; [rewrite three_2 by lra; exact Z|apply three_3; lra]. Qed.
Lemma K_zero y dm : (0 < dm)%R -> (dm <= Rabs y)%R -> K0 y dm = 0%R /\ K1 y dm = 0%R /\ K2 y dm = 0%R.
Proof.
  intros P L. assert (Q : (1 <= Rabs y / dm)%R).
  { apply Rmult_le_reg_r with dm; [exact P|]. unfold Rdiv. rewrite Rmult_assoc, Rinv_l by lra. lra. }
  unfold K0, K1, K2, S0, S1, S2. rewrite !S_zero by (lra || exact Q). repeat split; ring.
Qed.
Lemma cubic_outside j : j < dim -> (nth j sd 0 <= Rabs (nth j core 0 - nth j x 0))%R ->
  cubic_value (F := RF) dim sd core x = 0%R /\ Forall (eq 0%R) (cubic_gradient (F := RF) dim sd core x) /\
  Forall (Forall (eq 0%R)) (cubic_hessian (F := RF) dim sd core x).
Proof.
  intros Hj L. destruct (K_zero _ _ (HS j Hj) L) as (E0 & E1 & E2).
  pose proof HD as HD'. destruct HD' as [E|E]; rewrite E in Hj |- *.
  - destruct j as [|]; [|lia]. rewrite cubic_value_1, cubic_gradient_1, cubic_hessian_1, E0, E1, E2. repeat constructor.
  - rewrite cubic_value_2, cubic_gradient_2, cubic_hessian_2. destruct j as [|[|]]; [| |lia]; rewrite E0, E1, E2;
    (split; [match goal with |- @eq _ ?a ?b => change (@eq R a b) end; ring|split; [apply zeros_row; split; ring|apply zeros_mat; split; [|split; [|split]]; ring]]).
Qed.
End CubicX.

(** Continuous derivatives everywhere. *)
Lemma derive_cont (f : R -> R) x : ex_derive f x -> continuous f x.
Proof. exact (ex_derive_continuous f x). Qed.
Lemma T1_continuous y dm : (0 < dm)%R -> continuous (fun y => T1 y dm) y.
Proof.
  intros P. destruct (Req_dec y 0) as [->|N].
  - apply derive_cont. exists (- 8 / (dm * dm))%R. exact (T1_core dm P).
  - apply (continuous_ext_loc _ (fun z => (y / Rabs y / dm * S1 (Rabs z / dm))%R)).
    + generalize (abs_near y N). apply filter_imp. intros z (_ & E & _). unfold T1. rewrite E. apply Rmult_comm.
    + apply derive_cont. eexists. apply is_derive_scal. exact (comp_derive S1 S2 dm y S1_derive N).
Qed.
Lemma K0_continuous y dm : (0 < dm)%R -> continuous (fun y => K0 y dm) y.
Proof. intros P. apply derive_cont. exists (T1 y dm). exact (T1_derive y dm P). Qed.

Lemma coord_continuous dim (f : R -> R) i : i < dim -> (forall z, continuous f z) -> continuous_on dim (fun x => f (nth i x 0%R)).
Proof.
  intros Hi C x Lx eps P. destruct (proj1 (filterlim_locally f (f (nth i x 0%R))) (C (nth i x 0%R)) (mkposreal eps P)) as (d & Hd).
  exists d. split; [apply cond_pos|]. intros y Ly B. apply (Hd (nth i y 0%R)). exact (B i Hi).
Qed.
Lemma const_continuous dim c : continuous_on dim (fun _ => c).
Proof. intros x _ eps P. exists 1%R. split; [lra|]. intros. rewrite Rminus_eq_0, Rabs_R0. exact P. Qed.
Lemma product_continuous dim f g : continuous_on dim f -> continuous_on dim g -> continuous_on dim (fun x => f x * g x)%R.
Proof.
  intros Cf Cg x Lx eps P. set (K := (Rabs (f x) + Rabs (g x) + 1)%R).
  assert (PK : (1 <= K)%R) by (unfold K; pose proof (Rabs_pos (f x)); pose proof (Rabs_pos (g x)); lra).
  set (e := Rmin 1 (eps / (2 * K))).
  assert (Q : (0 < eps / (2 * K))%R) by (apply Rdiv_lt_0_compat; lra).
  assert (Pe : (0 < e)%R) by (unfold e; apply Rmin_pos; lra).
  assert (Ke : (e * K <= eps / 2)%R).
  { apply Rle_trans with (eps / (2 * K) * K)%R; [apply Rmult_le_compat_r; [lra|apply Rmin_r]|]. right. field. lra. }
  assert (E1 : (e <= 1)%R) by apply Rmin_l.
  destruct (Cf x Lx e Pe) as (d1 & P1 & H1). destruct (Cg x Lx e Pe) as (d2 & P2 & H2).
  exists (Rmin d1 d2). split; [apply Rmin_pos; assumption|]. intros y Ly B.
  assert (F1 : (Rabs (f y - f x) < e)%R) by (apply H1; [exact Ly|]; intros i Hi; eapply Rlt_le_trans; [apply (B i Hi)|apply Rmin_l]).
  assert (F2 : (Rabs (g y - g x) < e)%R) by (apply H2; [exact Ly|]; intros i Hi; eapply Rlt_le_trans; [apply (B i Hi)|apply Rmin_r]).
  replace (f y * g y - f x * g x)%R with ((f y - f x) * (g y - g x) + (f x * (g y - g x) + g x * (f y - f x)))%R by ring.
  pose proof (Rabs_triang ((f y - f x) * (g y - g x)) (f x * (g y - g x) + g x * (f y - f x))) as A1.
  pose proof (Rabs_triang (f x * (g y - g x)) (g x * (f y - f x))) as A2. rewrite (Rabs_mult (f y - f x)) in A1. rewrite (Rabs_mult (f x)), (Rabs_mult (g x)) in A2.
  pose proof (Rabs_pos (f x)). pose proof (Rabs_pos (g x)). pose proof (Rabs_pos (f y - f x)). pose proof (Rabs_pos (g y - g x)).
  set (a := Rabs (f y - f x)) in *. set (b := Rabs (g y - g x)) in *.
  assert (B1 : (a * b <= e * 1)%R) by (apply Rmult_le_compat; lra).
  assert (B2 : (Rabs (f x) * b <= Rabs (f x) * e)%R) by (apply Rmult_le_compat_l; lra).
  assert (B3 : (Rabs (g x) * a <= Rabs (g x) * e)%R) by (apply Rmult_le_compat_l; lra).
  unfold K in Ke. rewrite !Rmult_plus_distr_l, (Rmult_comm e (Rabs (f x))), (Rmult_comm e (Rabs (g x))) in Ke. lra.
Qed.
Lemma cubic_smooth dim (sd core : list R) : (dim = 1 \/ dim = 2) -> length core = dim -> (forall j, j < dim -> (0 < nth j sd 0)%R) ->
  forall j, j < dim -> exists D : list R -> R, continuous_on dim D /\
    forall x, length x = dim -> is_derive (fun t => cubic_value (F := RF) dim sd core (setc x j t) : R) (nth j x 0%R) (D x).
Proof.
  intros HD HC HS j Hj.
  assert (CT : forall i, i < dim -> continuous_on dim (fun x => - T1 (nth i core 0 - nth i x 0)%R (nth i sd 0%R))%R).
  { intros i Hi. apply (coord_continuous dim (fun z => - T1 (nth i core 0 - z)%R (nth i sd 0%R))%R i Hi). intros z.
    apply (continuous_opp (fun z => T1 (nth i core 0 - z)%R (nth i sd 0%R))).
    apply (continuous_comp (fun z => nth i core 0 - z)%R (fun y => T1 y (nth i sd 0%R))); [|apply T1_continuous; exact (HS i Hi)].
    apply derive_cont. exists (-1)%R. auto_derive; [exact I|ring]. }
  assert (CK : forall i, i < dim -> continuous_on dim (fun x => K0 (nth i core 0 - nth i x 0)%R (nth i sd 0%R))).
  { intros i Hi. apply (coord_continuous dim (fun z => K0 (nth i core 0 - z)%R (nth i sd 0%R)) i Hi). intros z.
    apply (continuous_comp (fun z => nth i core 0 - z)%R (fun y => K0 y (nth i sd 0%R))); [|apply K0_continuous; exact (HS i Hi)].
    apply derive_cont. exists (-1)%R. auto_derive; [exact I|ring]. }
  destruct HD as [E|E]; rewrite E in *.
  - destruct j as [|]; [|lia]. exists (fun x => - T1 (nth 0 core 0 - nth 0 x 0)%R (nth 0 sd 0%R))%R. split; [apply CT; lia|].
    intros x Lx. destruct x as [|x0 [|x1 x2]]; try discriminate Lx.
    apply (is_derive_ext (fun t => K0 (nth 0 core 0 - t)%R (nth 0 sd 0%R))); [intros t; rewrite cubic_value_1; reflexivity|].
    apply (shift_x (fun y => K0 y (nth 0 sd 0%R))). apply T1_derive. apply HS. lia.
  - destruct j as [|[|]]; [| |lia].
    + exists (fun x => (- T1 (nth 0 core 0 - nth 0 x 0) (nth 0 sd 0)) * K0 (nth 1 core 0 - nth 1 x 0) (nth 1 sd 0))%R.
      split; [apply product_continuous; [apply CT; lia|apply CK; lia]|].
      intros x Lx. destruct x as [|x0 [|x1 [|x2 x3]]]; try discriminate Lx.
      apply (is_derive_ext (fun t => K0 (nth 1 core 0 - x1)%R (nth 1 sd 0%R) * K0 (nth 0 core 0 - t)%R (nth 0 sd 0%R))%R);
        [intros t; rewrite cubic_value_2; apply Rmult_comm|].
      evar_last; [apply is_derive_scal; apply (shift_x (fun y => K0 y (nth 0 sd 0%R))); apply T1_derive; apply HS; lia|apply Rmult_comm].
    + exists (fun x => K0 (nth 0 core 0 - nth 0 x 0) (nth 0 sd 0) * (- T1 (nth 1 core 0 - nth 1 x 0) (nth 1 sd 0)))%R.
      split; [apply product_continuous; [apply CK; lia|apply CT; lia]|].
      intros x Lx. destruct x as [|x0 [|x1 [|x2 x3]]]; try discriminate Lx.
      apply (is_derive_ext (fun t => K0 (nth 0 core 0 - x0)%R (nth 0 sd 0%R) * K0 (nth 1 core 0 - t)%R (nth 1 sd 0%R))%R);
        [intros t; rewrite cubic_value_2; reflexivity|].
      apply is_derive_scal; apply (shift_x (fun y => K0 y (nth 1 sd 0%R))); apply T1_derive; apply HS; lia.
Qed.

(** Inside the support the weight is positive. *)
Lemma K0_pos y dm : (0 < dm)%R -> (Rabs y < dm)%R -> (0 < K0 y dm)%R.
Proof.
  intros P L. assert (Q : (Rabs y / dm < 1)%R).
  { apply Rmult_lt_reg_r with dm; [exact P|]. unfold Rdiv. rewrite Rmult_assoc, Rinv_l by lra. lra. }
  assert (Q0 : (0 <= Rabs y / dm)%R) by (apply Rdiv_le_0_compat; [apply Rabs_pos|exact P]).
  unfold K0, S0. set (r := (Rabs y / dm)%R) in *. clearbody r. destruct (Rle_dec r (1/2)) as [D|D].
  - rewrite three_1 by exact D.
    replace (2/3 - 4 * (r * r) + 4 * (r * r * r))%R with (1/6 + (1/2 - r) * (1 + 4 * (r * (1/2 - r))))%R by field.
    assert (A : (0 <= 1/2 - r)%R) by lra. pose proof (Rmult_le_pos _ _ Q0 A) as B.
    assert (C : (0 <= 1 + 4 * (r * (1/2 - r)))%R) by lra. pose proof (Rmult_le_pos _ _ A C). lra.
  - rewrite three_2 by lra. replace (4/3 - 4 * r + 4 * (r * r) - 4/3 * (r * r * r))%R with (4/3 * ((1 - r) * ((1 - r) * (1 - r))))%R by field.
    assert (A : (0 < 1 - r)%R) by lra. apply Rmult_lt_0_compat; [lra|]. apply Rmult_lt_0_compat; [exact A|]. apply Rmult_lt_0_compat; exact A.
Qed.
Lemma cubic_pos dim (sd core x : list R) : (dim = 1 \/ dim = 2) -> (forall j, j < dim -> (0 < nth j sd 0)%R) ->
  (forall j, j < dim -> (Rabs (nth j core 0 - nth j x 0) < nth j sd 0)%R) -> (0 < cubic_value (F := RF) dim sd core x)%R.
Proof.
  intros [->| ->] HS HN.
  - rewrite cubic_value_1. apply K0_pos; [apply HS|apply HN]; lia.
  - rewrite cubic_value_2. apply Rmult_lt_0_compat; apply K0_pos; try (apply HS); try (apply HN); lia.
Qed.
Lemma cubic_nonneg_R dim (sd core x : list R) : (forall j, j < dim -> (0 < nth j sd 0)%R) -> (0 <= cubic_value (F := RF) dim sd core x)%R.
Proof.
  intros HS. assert (P : forall j, j < dim -> @leb RF (coord (F := RF) sd j) (0%R : RF) = false).
  { intros j Hj. specialize (HS j Hj). cbn. unfold R_leb, coord. cbn. destruct (Rle_dec (nth j sd 0%R) 0); [lra|reflexivity]. }
  apply R_leb_iff. exact (cubic_nonneg (F := RF) dim sd core x P).
Qed.

(** Where the reported derivatives are not those of the value *)
Lemma derive_eq (f : R -> R) x a b : is_derive f x a -> is_derive f x b -> a = b.
Proof. intros A B. rewrite <- (is_derive_unique f x a A). exact (is_derive_unique f x b B). Qed.
Lemma sign_wrong : cubic_gradient (F := RF) 1 [2%R] [0%R] [1%R] = [(1/2)%R] /\
  is_derive (fun t => cubic_value (F := RF) 1 [2%R] [0%R] [t] : R) 1%R (-1/2)%R.
Proof.
  assert (G : cubic_gradient (F := RF) 1 [2%R] [0%R] [1%R] = [(1/2)%R]).
  { rewrite cubic_gradient_1. cbn [nth]. replace (0 - 1)%R with (-1)%R by ring.
    assert (A : Rabs (-1) = 1%R) by (rewrite Rabs_left; lra).
    unfold K1. rewrite dr_far by (rewrite A; unfold tinyR; lra). rewrite A. unfold S1. rewrite three_1 by lra.
    apply (f_equal (fun z : R => [z])). field. }
  split; [exact G|].
  assert (HS : forall j, j < 1 -> (0 < nth j [2] 0)%R) by (intros [|j] Hj; [cbn; lra|lia]).
  assert (HR : regular_at [0%R] [1%R] 0) by (left; cbn [nth]; rewrite Rabs_left by lra; unfold tinyR; lra).
  pose proof (cubic_x 1 [2%R] [0%R] [1%R] (or_introl eq_refl) eq_refl eq_refl HS 0 ltac:(lia) HR) as D.
  evar_last; [exact D|]. rewrite G. cbn. field.
Qed.
Lemma hessian_core_wrong (dm c : R) : (0 < dm)%R ->
  cubic_hessian (F := RF) 1 [dm] [c] [c] = [[0%R]] /\
  exists D : R -> R, (forall t, is_derive (fun s => cubic_value (F := RF) 1 [dm] [c] [s] : R) t (D t)) /\ is_derive D c (- 8 / (dm * dm))%R.
Proof.
  intros P. split.
  - rewrite cubic_hessian_1. cbn [nth]. unfold K2. replace (c - c)%R with 0%R by ring. rewrite dr_zero. apply (f_equal (fun z : R => [[z]])). ring.
  - exists (fun t => - T1 (c - t) dm)%R. split.
    + intros t. apply (is_derive_ext (fun s => K0 (c - s)%R dm)); [intros s; rewrite cubic_value_1; reflexivity|].
      apply (shift_x (fun y => K0 y dm)). exact (T1_derive _ dm P).
    + assert (D : is_derive (fun t => T1 (c - t)%R dm) c (- (- 8 / (dm * dm)))%R).
      { apply (shift_x (fun y => T1 y dm)). replace (c - c)%R with 0%R by ring. exact (T1_core dm P). }
      evar_last; [exact (is_derive_opp (fun t => T1 (c - t)%R dm) c _ D)|]. unfold opp. cbn. ring.
Qed.
Lemma tiny_wrong : exists (x d : R), (0 < x)%R /\ d <> 0%R /\ cubic_gradient (F := RF) 1 [1%R] [0%R] [x] = [0%R] /\
  is_derive (fun t => cubic_value (F := RF) 1 [1%R] [t] [x] : R) 0%R d.
Proof.
  set (x := (tinyR / 2)%R). pose proof tinyR_pos as TP. assert (TS : (tinyR < 1/2)%R) by (unfold tinyR; lra).
  assert (A : Rabs (0 - x) = x) by (unfold x; rewrite Rabs_left by lra; lra).
  exists x, (T1 (0 - x) 1)%R. split; [unfold x; lra|]. split; [|split].
  - unfold T1. rewrite A. unfold S1. rewrite three_1 by (unfold x; lra).
    replace ((-8 * (x / 1) + 12 * (x / 1 * (x / 1))) * ((0 - x) / x / 1))%R with (x * (8 - 12 * x))%R by (field; unfold x; lra).
    apply Rmult_integral_contrapositive_currified; unfold x; lra.
  - rewrite cubic_gradient_1. cbn [nth]. unfold K1, dr. destruct (Rlt_dec (Rabs (0 - x)) tinyR) as [L|L]; [|rewrite A in L; unfold x in L; lra].
    apply (f_equal (fun z : R => [z])). ring.
  - apply (is_derive_ext (fun t => K0 (t - x)%R 1)); [intros s; rewrite cubic_value_1; reflexivity|].
    apply (shift_core (fun y => K0 y 1%R)). apply T1_derive. lra.
Qed.
Lemma cubic_returns (dim : nat) (sd core x : list RF) :
  ((dim = 1 \/ dim = 2) ->
   w_f (cubic_weight dim sd) core x = Ok (cubic_value dim sd core x) /\
   w_g (cubic_weight dim sd) core x = Ok (cubic_gradient dim sd core x) /\
   w_G (cubic_weight dim sd) core x = Ok (cubic_hessian dim sd core x) /\
   length (cubic_gradient dim sd core x) = dim /\ length (cubic_hessian dim sd core x) = dim /\
   Forall (fun r => length r = dim) (cubic_hessian dim sd core x)) /\
  (~ (dim = 1 \/ dim = 2) ->
   w_f (cubic_weight dim sd) core x = Err NotImplementedError /\ w_g (cubic_weight dim sd) core x = Err NotImplementedError /\
   w_G (cubic_weight dim sd) core x = Err NotImplementedError).
Proof.
  split; intros D.
  - destruct (cubic_at dim sd core [x] true true D) as [A1 A2 A3]. specialize (A1 x (or_introl eq_refl)).
    specialize (A2 eq_refl x (or_introl eq_refl)). specialize (A3 eq_refl x (or_introl eq_refl)). cbn [w_dim cubic_weight] in A2, A3. tauto.
  - destruct dim as [|[|[|dim]]]; try (exfalso; apply D; lia); repeat split; reflexivity.
Qed.
