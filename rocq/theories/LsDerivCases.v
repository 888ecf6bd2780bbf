(** The reported derivatives, for the weight functions of the library. *)
Set Warnings "-ambiguous-paths".
From Coq Require Import Reals Lra FunctionalExtensionality.
From Coquelicot Require Import Coquelicot.
From Verif Require Import Prelude OField OFieldR Inverse LsModel LsSpec LsProofs LsBasis LsEq LsFit LsCases LsDerivSpec LsDeriv Spline LsWeights.
Local Open Scope nat_scope.
Notation RF := R_ofield.

(** ** Weight functions with right derivatives *)
Lemma zeros_nth n j : nth j (@zeros RF n) 0%R = 0%R.
Proof. unfold zeros. exact (nth_repeat (0%R : RF) n j). Qed.
Lemma zeros2_nth n m j l : nth l (nth j (@zeros2 RF n m) []) 0%R = 0%R.
Proof.
  assert (E : nth j (@zeros2 RF n m) [] = [] \/ nth j (@zeros2 RF n m) [] = @zeros RF m).
  { unfold zeros2. destruct (le_lt_dec n j) as [L|L]; [left|right].
    - apply nth_overflow. rewrite repeat_length. exact L.
    - rewrite (nth_indep _ [] (@zeros RF m)) by (rewrite repeat_length; exact L). apply nth_repeat. }
  destruct E as [E|E]; rewrite E; [destruct l; reflexivity|apply zeros_nth].
Qed.
Lemma derive_const (c x : R) d : d = 0%R -> is_derive (fun _ : R => c) x d.
Proof. intros ->. exact (is_derive_const c x). Qed.
(** The core does not move. *)
Lemma smooth_fixed (w : weight RF) core0 points p h W dim :
  weight_at w core0 points true h W (fun _ => zeros dim) (fun _ => zeros2 dim dim) ->
  smooth_weight w (fun _ => core0) points p h (fun _ => W) (fun _ _ => @zeros RF dim) (fun _ _ => @zeros2 RF dim dim).
Proof.
  intros HW. constructor.
  - intros q _. exact HW.
  - intros j x _ _. apply derive_const. apply zeros_nth.
  - intros _ j l x _ _ _. apply derive_const. apply zeros2_nth.
Qed.
(** The constant weight, with a core that moves. *)
Lemma smooth_constant dim (value : RF) core points p h :
  smooth_weight (constant_weight dim value None) core points p h (fun _ _ => value) (fun _ _ => @zeros RF dim) (fun _ _ => @zeros2 RF dim dim).
Proof.
  constructor.
  - intros q _. exact (constant_at dim value None (core q) points true h).
  - intros j x _ _. apply derive_const. apply zeros_nth.
  - intros _ j l x _ _ _. apply derive_const. apply zeros2_nth.
Qed.
Lemma ltb_R (a b : R) : @ltb RF a b = true <-> (a < b)%R.
Proof.
  unfold ltb. cbn [leb RF]. split; intros H.
  - apply Bool.negb_true_iff in H. apply Rnot_le_lt. intros L. apply R_leb_iff in L. rewrite L in H. discriminate H.
  - apply Bool.negb_true_iff. destruct (R_leb b a) eqn:E; [|reflexivity]. apply R_leb_iff in E. lra.
Qed.
Lemma near_const c y s : Rabs ((c - y) / s) <> 1%R ->
  locally c (fun t => @ltb RF 1%R (@absf RF ((t - y) / s)%R) = @ltb RF 1%R (@absf RF ((c - y) / s)%R)).
Proof.
  intros N. assert (C : continuous (fun t => Rabs ((t - y) / s)) c).
  { apply (continuous_comp (fun t => (t - y) / s)%R Rabs); [|apply continuous_Rabs].
    apply derive_cont. exists (/ s * 1)%R.
    apply (is_derive_ext (fun t => / s * (t - y))%R); [intros t; apply Rmult_comm|].
    apply is_derive_scal. auto_derive; [exact I|ring]. }
  destruct (Rtotal_order (Rabs ((c - y) / s)) 1) as [L|[L|L]]; [|contradiction|].
  - assert (O : locally (Rabs ((c - y) / s)) (fun z => z < 1)%R) by (apply (open_lt 1%R); exact L).
    apply C in O. unfold filtermap in O. revert O. apply filter_imp. intros t Ht. rewrite !R_abs.
    transitivity false; [|symmetry]; apply Bool.not_true_is_false; intros E; apply ltb_R in E; lra.
  - assert (O : locally (Rabs ((c - y) / s)) (fun z => 1 < z)%R) by (apply (open_gt 1%R); exact L).
    apply C in O. unfold filtermap in O. revert O. apply filter_imp. intros t Ht. rewrite !R_abs.
    transitivity true; [|symmetry]; apply ltb_R; lra.
Qed.
Lemma outside_local sd : forall core x j, off_boundary core sd x -> j < length core ->
  locally (nth j core 0%R) (fun t => @outside RF (setc core j t) sd x = @outside RF core sd x).
Proof.
  induction sd as [|s sd IH]; intros [|c core] [|y x] j O Hj; try (cbn in Hj; lia).
  1-2: apply filter_forall; intros t; destruct j; reflexivity.
  - apply filter_forall; intros t; destruct j; reflexivity.
  - destruct O as [O1 O2]. destruct j as [|j].
    + cbn [nth setc]. generalize (near_const c y s O1). apply filter_imp. intros t E.
      unfold outside. cbn [combine existsb]. refine (f_equal (fun b => b || _) E).
    + cbn [nth setc]. cbn [length] in Hj. generalize (IH core x j O2 ltac:(lia)). apply filter_imp. intros t E.
      unfold outside in *. cbn [combine existsb]. refine (f_equal (fun b => _ || b) E).
Qed.
Lemma smooth_supported dim (value : RF) (sd : list R) points p h : (forall x, In x points -> off_boundary p sd x) ->
  smooth_weight (constant_weight dim value (Some sd)) (fun q => q) points p h
    (fun q => const_value (F := RF) value (Some sd) q) (fun _ _ => @zeros RF dim) (fun _ _ => @zeros2 RF dim dim).
Proof.
  intros B. constructor.
  - intros q _. exact (constant_at (F := RF) dim value (Some sd) q points true h).
  - intros j x Hj Ix. apply (is_derive_ext_loc (fun _ : R => (const_value (F := RF) value (Some sd) p x : R))).
    + generalize (outside_local sd p x j (B x Ix) Hj). apply filter_imp. intros t E. unfold const_value. rewrite E. reflexivity.
    + apply derive_const. apply zeros_nth.
  - intros _ j l x _ _ _. apply derive_const. apply zeros2_nth.
Qed.
(** The cubic weight, with the core at the point. *)
Lemma smooth_cubic dim (sd : list R) (points : list (list R)) (p : list R) (h : bool) : (dim = 1 \/ dim = 2) -> length p = dim -> (forall j, j < dim -> (0 < nth j sd 0)%R) ->
  (forall x, In x points -> length x = dim) ->
  (forall x j, In x points -> j < dim -> (if h then far_at p x j else regular_at p x j : Prop)) ->
  smooth_weight (cubic_weight (F := RF) dim sd) (fun q => q) points p h
    (cubic_value (F := RF) dim sd) (cubic_gradient (F := RF) dim sd) (cubic_hessian (F := RF) dim sd).
Proof.
  intros D LP HS LX FA.
  assert (RA : forall x j, In x points -> j < dim -> regular_at p x j).
  { intros x j Ix Hj. specialize (FA x j Ix Hj). destruct h; [|exact FA]. left. apply Rlt_le. exact FA. }
  constructor.
  - intros q _. exact (cubic_at (F := RF) dim sd q points true h D).
  - intros j x Hj Ix. rewrite LP in Hj. exact (cubic_core dim sd p x D LP (LX x Ix) HS j Hj (RA x j Ix Hj)).
  - intros -> j l x Hj Hl Ix. rewrite LP in Hj, Hl.
    assert (E : nth (Nat.max j l) (nth (Nat.min j l) (cubic_hessian (F := RF) dim sd p x) []) 0%R = nth l (nth j (cubic_hessian (F := RF) dim sd p x) []) 0%R).
    { destruct D as [->| ->].
      - destruct j as [|]; [|lia]. destruct l as [|]; [|lia]. reflexivity.
      - rewrite cubic_hessian_2. destruct j as [|[|]]; [| |lia]; (destruct l as [|[|]]; [| |lia]); reflexivity. }
    refine (eq_ind _ (fun d : R => is_derive _ _ d) _ _ (eq_sym E)). apply (cubic_core2 dim sd p x D LP (LX x Ix) HS j l Hj Hl).
    destruct (j =? l); [exact (FA x l Ix Hl)|exact (RA x l Ix Hl)].
Qed.

(** ** The fits *)
Section Fits.
Variables (inv : nat -> mat RF -> result (mat RF)) (c : cloud RF) (values : list (list RF)) (deg : nat) (order : Z) (p : list R) (a : list (option (list R))).
Hypothesis HI : inv_ok LinAlgError inv.
Hypothesis HC : cloud_ok c.
Hypothesis HDeg : deg = 1 \/ deg = 2.
Hypothesis HLen : length (cloud_points c) = length values.
Hypothesis HP : length p = cloud_dim c.
Hypothesis HO : (1 <= order)%Z.
Notation right run := (right_derivatives run (cloud_dim c) (records values) order p).

Lemma generic w core W G H : w_dim (the_weight c w) = cloud_dim c ->
  smooth_weight (the_weight c w) core (cloud_points c) p (hess_of order) W G H ->
  run inv c values deg order w core p = Ok a -> right (run inv c values deg order w core).
Proof. intros D S R r Hr. exact (fit_derivatives inv c values deg order w core p W G H a HI HC HDeg HLen D HP HO S R r Hr). Qed.

Lemma run_fixed w (core0 : list RF) f : weighted_least_squares inv c values deg order w core0 = Ok f ->
  run inv c values deg order w (fun _ => core0) = f.
Proof. intros E. apply functional_extensionality. intros x. unfold run. rewrite E. reflexivity. Qed.
Lemma unweighted f : least_squares inv c values deg order = Ok f -> f p = Ok a -> right f.
Proof.
  intros E R.
  pose proof (run_fixed None [] f E) as E'.
  rewrite <- E'. apply (generic None (fun _ => []) _ _ _ eq_refl (smooth_constant (cloud_dim c) 1%R (fun _ => []) (cloud_points c) p (hess_of order))).
  exact (eq_trans (f_equal (fun h => h p) E') R).
Qed.
Lemma fixed w core0 W f : w_dim w = cloud_dim c ->
  weight_at w core0 (cloud_points c) true (hess_of order) W (fun _ => zeros (cloud_dim c)) (fun _ => zeros2 (cloud_dim c) (cloud_dim c)) ->
  weighted_least_squares inv c values deg order (Some w) core0 = Ok f -> f p = Ok a -> right f.
Proof.
  intros D S E R.
  pose proof (run_fixed (Some w) core0 f E) as E'.
  rewrite <- E'. apply (generic (Some w) (fun _ => core0) _ _ _ D (smooth_fixed w core0 (cloud_points c) p (hess_of order) W (cloud_dim c) S)).
  exact (eq_trans (f_equal (fun h => h p) E') R).
Qed.
Lemma fixed_constant value sd core0 f :
  weighted_least_squares inv c values deg order (Some (constant_weight (cloud_dim c) value sd)) core0 = Ok f -> f p = Ok a -> right f.
Proof. apply (fixed _ core0 (const_value (F := RF) value sd core0)); [reflexivity|]. exact (constant_at (F := RF) (cloud_dim c) value sd core0 (cloud_points c) true (hess_of order)). Qed.
Lemma fixed_singular eps core0 f :
  weighted_least_squares inv c values deg order (Some (singular_weight (cloud_dim c) eps)) core0 = Ok f -> f p = Ok a -> right f.
Proof. apply (fixed _ core0 (singular_value (F := RF) eps core0)); [reflexivity|]. exact (singular_at (F := RF) (cloud_dim c) eps core0 (cloud_points c) true (hess_of order)). Qed.
Lemma moving w W G H : w_dim w = cloud_dim c ->
  smooth_weight w (fun q => q) (cloud_points c) p (hess_of order) W G H ->
  moving_least_squares inv c values deg order (Some w) p = Ok a -> right (moving_least_squares inv c values deg order (Some w)).
Proof. intros D S R. exact (generic (Some w) (fun q => q) W G H D S R). Qed.
Lemma moving_constant value :
  moving_least_squares inv c values deg order (Some (constant_weight (cloud_dim c) value None)) p = Ok a ->
  right (moving_least_squares inv c values deg order (Some (constant_weight (cloud_dim c) value None))).
Proof. exact (moving (constant_weight (cloud_dim c) value None) _ _ _ eq_refl (smooth_constant (cloud_dim c) value (fun q => q) (cloud_points c) p (hess_of order))). Qed.
Lemma moving_default :
  moving_least_squares inv c values deg order None p = Ok a -> right (moving_least_squares inv c values deg order None).
Proof. exact (moving_constant 1%R). Qed.
Lemma moving_supported (value : RF) (sd : list RF) : (forall x, In x (cloud_points c) -> off_boundary p sd x) ->
  moving_least_squares inv c values deg order (Some (constant_weight (cloud_dim c) value (Some sd))) p = Ok a ->
  right (moving_least_squares inv c values deg order (Some (constant_weight (cloud_dim c) value (Some sd)))).
Proof. intros B. exact (moving (constant_weight (cloud_dim c) value (Some sd)) _ _ _ eq_refl (smooth_supported (cloud_dim c) value sd (cloud_points c) p (hess_of order) B)). Qed.
Lemma cloud_lengths x : In x (cloud_points c) -> length x = cloud_dim c.
Proof.
  destruct c as [xs|d ps]; cbn [cloud_points cloud_dim].
  - intros I. apply in_map_iff in I. destruct I as (y & <- & _). reflexivity.
  - destruct HC as (_ & Al). rewrite Forall_forall in Al. exact (Al x).
Qed.
Lemma moving_cubic sd : (cloud_dim c = 1 \/ cloud_dim c = 2) -> (forall j, j < cloud_dim c -> (0 < nth j sd 0)%R) ->
  (forall x j, In x (cloud_points c) -> j < cloud_dim c -> (if (1 <? order)%Z then far_at p x j else regular_at p x j : Prop)) ->
  moving_least_squares inv c values deg order (Some (cubic_weight (F := RF) (cloud_dim c) sd)) p = Ok a ->
  right (moving_least_squares inv c values deg order (Some (cubic_weight (F := RF) (cloud_dim c) sd))).
Proof.
  intros D S A. exact (moving (cubic_weight (F := RF) (cloud_dim c) sd) _ _ _ eq_refl (smooth_cubic (cloud_dim c) sd (cloud_points c) p (hess_of order) D HP S cloud_lengths A)).
Qed.
End Fits.
