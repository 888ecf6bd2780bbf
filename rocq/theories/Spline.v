(** The cubic spline of the cubic weight function, in the real numbers. *)
Set Warnings "-ambiguous-paths".
From Coq Require Import Reals Lra.
From Coquelicot Require Import Coquelicot.
From Verif Require Import LsDerivSpec.
Local Open Scope R_scope.

Lemma glue (f g h : R -> R) (a d : R) : is_derive f a d -> is_derive g a d -> f a = g a ->
  (forall x, x <= a -> h x = f x) -> (forall x, a < x -> h x = g x) -> is_derive h a d.
Proof.
  intros Df Dg E Hf Hg. apply is_derive_Reals in Df. apply is_derive_Reals in Dg. apply is_derive_Reals.
  intros eps P. destruct (Df eps P) as (d1 & D1). destruct (Dg eps P) as (d2 & D2).
  exists (mkposreal (Rmin d1 d2) (Rmin_pos _ _ (cond_pos d1) (cond_pos d2))). cbn [pos]. intros s Ns Bs.
  specialize (D1 s Ns (Rlt_le_trans _ _ _ Bs (Rmin_l _ _))). specialize (D2 s Ns (Rlt_le_trans _ _ _ Bs (Rmin_r _ _))).
  rewrite (Hf a) by lra. destruct (Rle_dec (a + s) a) as [L|L].
  - rewrite Hf by exact L. exact D1.
  - rewrite Hg by lra. rewrite E. exact D2.
Qed.
Lemma left_of (f h : R -> R) (a b d : R) : is_derive f a d -> a < b -> (forall x, x <= b -> h x = f x) -> is_derive h a d.
Proof.
  intros D L E. apply (is_derive_ext_loc f); [|exact D].
  exists (mkposreal (b - a) ltac:(lra)). intros x B. symmetry. apply E.
  assert (Rabs (x - a) < b - a) by exact B. apply Rabs_def2 in H. lra.
Qed.
Lemma right_of (f h : R -> R) (a b d : R) : is_derive f a d -> b < a -> (forall x, b < x -> h x = f x) -> is_derive h a d.
Proof.
  intros D L E. apply (is_derive_ext_loc f); [|exact D].
  exists (mkposreal (a - b) ltac:(lra)). intros x B. symmetry. apply E.
  assert (Rabs (x - a) < a - b) by exact B. apply Rabs_def2 in H. lra.
Qed.
Lemma between (f h : R -> R) (a b c d : R) : is_derive f a d -> b < a < c -> (forall x, b < x <= c -> h x = f x) -> is_derive h a d.
Proof.
  intros D L E. apply (is_derive_ext_loc f); [|exact D].
  exists (mkposreal (Rmin (a - b) (c - a)) ltac:(apply Rmin_pos; lra)). intros x B. symmetry. apply E.
  assert (K : Rabs (x - a) < Rmin (a - b) (c - a)) by exact B.
  pose proof (Rmin_l (a - b) (c - a)). pose proof (Rmin_r (a - b) (c - a)). apply Rabs_def2 in K. lra.
Qed.

(** Three pieces. *)
Definition three (f g : R -> R) (r : R) : R := if Rle_dec r (1/2) then f r else if Rle_dec r 1 then g r else 0.
Lemma three_1 f g r : r <= 1/2 -> three f g r = f r.
Proof. intros L. unfold three. destruct (Rle_dec r (1/2)); [reflexivity|contradiction]. Qed.
Lemma three_2 f g r : 1/2 < r <= 1 -> three f g r = g r.
Proof. intros L. unfold three. destruct (Rle_dec r (1/2)); [lra|]. destruct (Rle_dec r 1); [reflexivity|lra]. Qed.
Lemma three_3 f g r : 1 < r -> three f g r = 0.
Proof. intros L. unfold three. destruct (Rle_dec r (1/2)); [lra|]. destruct (Rle_dec r 1); [lra|reflexivity]. Qed.
Lemma three_derive f g f' g' r : (forall x, is_derive f x (f' x)) -> (forall x, is_derive g x (g' x)) ->
  f (1/2) = g (1/2) -> f' (1/2) = g' (1/2) -> g 1 = 0 -> g' 1 = 0 -> is_derive (three f g) r (three f' g' r).
Proof.
  intros Df Dg E E' Z Z'.
  destruct (Rlt_le_dec r (1/2)) as [L1|L1].
  { rewrite three_1 by lra. apply (left_of f _ r (1/2)); [apply Df|exact L1|apply three_1]. }
  destruct (Req_dec r (1/2)) as [->|N1].
  { rewrite three_1 by lra.
    apply (is_derive_ext_loc (fun x => if Rle_dec x (1/2) then f x else g x)).
    - exists (mkposreal (1/2) ltac:(lra)). intros x B. assert (K : Rabs (x - 1/2) < 1/2) by exact B. apply Rabs_def2 in K.
      unfold three. destruct (Rle_dec x (1/2)); [reflexivity|]. destruct (Rle_dec x 1); [reflexivity|lra].
    - apply (glue f g); [apply Df|rewrite E'; apply Dg|exact E| |]; intros x L; destruct (Rle_dec x (1/2)); try reflexivity; lra. }
  destruct (Rlt_le_dec r 1) as [L2|L2].
  { rewrite three_2 by lra. apply (between g _ r (1/2) 1); [apply Dg|lra|intros x L; apply three_2; lra]. }
  destruct (Req_dec r 1) as [->|N2].
  { rewrite three_2 by lra. rewrite Z'.
    apply (is_derive_ext_loc (fun x => if Rle_dec x 1 then g x else 0)).
    - exists (mkposreal (1/2) ltac:(lra)). intros x B. assert (K : Rabs (x - 1) < 1/2) by exact B. apply Rabs_def2 in K.
      unfold three. destruct (Rle_dec x (1/2)); [lra|]. destruct (Rle_dec x 1); reflexivity.
    - apply (glue g (fun _ => 0)); [rewrite <- Z'; apply Dg|exact (is_derive_const 0 1)|exact Z| |]; intros x L; destruct (Rle_dec x 1); try reflexivity; lra. }
  rewrite three_3 by lra. apply (right_of (fun _ => 0) _ r 1); [exact (is_derive_const 0 r)|lra|intros x L; apply three_3; exact L].
Qed.

Definition S0 : R -> R := three (fun r => 2/3 - 4 * (r * r) + 4 * (r * r * r)) (fun r => 4/3 - 4 * r + 4 * (r * r) - 4/3 * (r * r * r)).
Definition S1 : R -> R := three (fun r => - 8 * r + 12 * (r * r)) (fun r => - 4 + 8 * r - 4 * (r * r)).
Definition S2 : R -> R := three (fun r => - 8 + 24 * r) (fun r => 8 - 8 * r).
Lemma S0_derive r : is_derive S0 r (S1 r).
Proof. apply three_derive; try lra; intros x; auto_derive; try exact I; field. Qed.
Lemma S1_derive r : is_derive S1 r (S2 r).
Proof. apply three_derive; try lra; intros x; auto_derive; try exact I; field. Qed.

(** The sign of the difference. *)
Lemma abs_near x : x <> 0 -> locally x (fun y => Rabs y = x / Rabs x * y /\ y / Rabs y = x / Rabs x /\ y <> 0).
Proof.
  intros N.
  assert (A : forall y : R, Rabs (y - x) < Rabs x -> Rabs y = x / Rabs x * y /\ y / Rabs y = x / Rabs x /\ y <> 0).
  { intros y K. apply Rabs_def2 in K. destruct (Rlt_dec 0 x) as [P|P].
    - rewrite (Rabs_pos_eq x) in * by lra. rewrite (Rabs_pos_eq y) by lra. repeat split; try lra; field; lra.
    - rewrite (Rabs_left x) in * by lra. rewrite (Rabs_left y) by lra. repeat split; try lra; field; lra. }
  exists (mkposreal (Rabs x) (Rabs_pos_lt x N)). intros y B. exact (A y B).
Qed.
Lemma ratio_derive dm x : x <> 0 -> is_derive (fun y => Rabs y / dm) x (x / Rabs x / dm).
Proof.
  intros N. apply (is_derive_ext_loc (fun y => x / Rabs x * y / dm)).
  - generalize (abs_near x N). apply filter_imp. intros y (E & _). rewrite E. reflexivity.
  - set (s := x / Rabs x). auto_derive; [exact I|]. unfold Rdiv. ring.
Qed.
Lemma comp_derive (f : R -> R) f' dm x : (forall r, is_derive f r (f' r)) -> x <> 0 ->
  is_derive (fun y => f (Rabs y / dm)) x (f' (Rabs x / dm) * (x / Rabs x / dm)).
Proof.
  intros D N. evar_last; [apply (is_derive_comp f (fun y => Rabs y / dm) x); [apply D|exact (ratio_derive dm x N)]|].
  unfold scal. cbn. unfold mult. cbn. ring.
Qed.

Lemma tinyR_pos : 0 < tinyR. Proof. unfold tinyR. lra. Qed.
Definition dr (x dm : R) : R := if Rlt_dec (Rabs x) tinyR then 0 else x / Rabs x / dm.
Lemma dr_far x dm : tinyR <= Rabs x -> dr x dm = x / Rabs x / dm.
Proof. intros L. unfold dr. destruct (Rlt_dec (Rabs x) tinyR); [lra|reflexivity]. Qed.
Lemma dr_zero dm : dr 0 dm = 0.
Proof. unfold dr. rewrite Rabs_R0. destruct (Rlt_dec 0 tinyR); [reflexivity|]. pose proof tinyR_pos. contradiction. Qed.
Lemma far_nz x : tinyR <= Rabs x -> x <> 0.
Proof. intros L ->. rewrite Rabs_R0 in L. pose proof tinyR_pos. lra. Qed.

Definition K0 (x dm : R) : R := S0 (Rabs x / dm).
Definition K1 (x dm : R) : R := S1 (Rabs x / dm) * dr x dm.
Definition K2 (x dm : R) : R := S2 (Rabs x / dm) * dr x dm * dr x dm.

(** At the core the derivative is zero. *)
Lemma K0_derive_0 dm : 0 < dm -> is_derive (fun y => K0 y dm) 0 0.
Proof.
  intros P. apply (is_derive_ext_loc (fun y => 2/3 - 4 * (y / dm * (y / dm)) + 4 / (dm * dm * dm) * (y * y * Rabs y))).
  - assert (A : forall y : R, Rabs y < dm / 2 -> 2/3 - 4 * (y / dm * (y / dm)) + 4 / (dm * dm * dm) * (y * y * Rabs y) = K0 y dm).
    { intros y K. unfold K0, S0. rewrite three_1.
      + assert (Q : y * y = Rabs y * Rabs y) by (rewrite <- Rabs_mult; symmetry; apply Rabs_pos_eq; nra).
        assert (Q' : y / dm * (y / dm) = Rabs y * Rabs y / (dm * dm)) by (rewrite <- Q; field; lra). rewrite Q', Q. field. lra.
      + apply Rmult_le_reg_r with dm; [exact P|]. unfold Rdiv at 1. rewrite Rmult_assoc, Rinv_l by lra. lra. }
    exists (mkposreal (dm / 2) ltac:(lra)). intros y B. assert (K : Rabs (y - 0) < dm / 2) by exact B. rewrite Rminus_0_r in K. exact (A y K).
  - evar_last.
    + apply (is_derive_plus (fun y => 2/3 - 4 * (y / dm * (y / dm)))).
      * apply (is_derive_minus (fun _ => 2/3)); [apply (is_derive_const (2/3) 0)|].
        instantiate (1 := 0). auto_derive; [exact I|]. field. lra.
      * apply is_derive_scal. instantiate (1 := 0). apply is_derive_Reals. intros eps E.
        exists (mkposreal (Rmin eps 1) ltac:(apply Rmin_pos; lra)). cbn [pos]. intros h N B.
        pose proof (Rmin_l eps 1). pose proof (Rmin_r eps 1). rewrite Rplus_0_l.
        replace ((h * h * Rabs h - 0 * 0 * Rabs 0) / h - 0) with (h * Rabs h) by (field; exact N).
        rewrite Rabs_mult, Rabs_Rabsolu. pose proof (Rabs_pos h). nra.
    + unfold minus, plus, opp, zero. cbn. ring.
Qed.
Theorem K0_derive x dm : 0 < dm -> tinyR <= Rabs x \/ x = 0 -> is_derive (fun y => K0 y dm) x (K1 x dm).
Proof.
  intros P [L| ->].
  - unfold K1. rewrite dr_far by exact L. exact (comp_derive S0 S1 dm x S0_derive (far_nz x L)).
  - unfold K1. rewrite dr_zero, Rmult_0_r. exact (K0_derive_0 dm P).
Qed.
Theorem K1_derive x dm : tinyR < Rabs x -> is_derive (fun y => K1 y dm) x (K2 x dm).
Proof.
  intros L. assert (N : x <> 0) by (apply far_nz; lra).
  apply (is_derive_ext_loc (fun y => x / Rabs x / dm * S1 (Rabs y / dm))).
  - assert (F : locally x (fun y => tinyR < Rabs y)).
    { exists (mkposreal (Rabs x - tinyR) ltac:(lra)). intros y B. assert (K : Rabs (y - x) < Rabs x - tinyR) by exact B.
      pose proof (Rabs_triang_inv x y). rewrite Rabs_minus_sym in K. lra. }
    generalize (filter_and _ _ (abs_near x N) F). apply filter_imp. intros y ((_ & E & _) & L').
    unfold K1. rewrite dr_far by lra. rewrite E. apply Rmult_comm.
  - unfold K2. rewrite dr_far by lra. evar_last; [apply is_derive_scal; exact (comp_derive S1 S2 dm x S1_derive N)|]. ring.
Qed.

(** The derivative everywhere, and the second derivative at the core. *)
Definition T1 (y dm : R) : R := S1 (Rabs y / dm) * (y / Rabs y / dm).
Lemma T1_derive y dm : 0 < dm -> is_derive (fun x => K0 x dm) y (T1 y dm).
Proof.
  intros P. destruct (Req_dec y 0) as [->|N]; [|exact (comp_derive S0 S1 dm y S0_derive N)].
  unfold T1. replace (S1 (Rabs 0 / dm) * (0 / Rabs 0 / dm)) with 0; [exact (K0_derive_0 dm P)|].
  unfold Rdiv. ring.
Qed.
Lemma T1_core dm : 0 < dm -> is_derive (fun y => T1 y dm) 0 (- 8 / (dm * dm)).
Proof.
  intros P. apply (is_derive_ext_loc (fun y => - 8 * y / (dm * dm) + 12 / (dm * dm * dm) * (y * Rabs y))).
  - assert (A : forall y : R, Rabs y < dm / 2 -> - 8 * y / (dm * dm) + 12 / (dm * dm * dm) * (y * Rabs y) = T1 y dm).
    { intros y K. unfold T1, S1. rewrite three_1.
      + destruct (Req_dec y 0) as [->|N]; [rewrite Rabs_R0; unfold Rdiv; ring|].
        pose proof (Rabs_no_R0 y N). field. lra.
      + apply Rmult_le_reg_r with dm; [exact P|]. unfold Rdiv at 1. rewrite Rmult_assoc, Rinv_l by lra. lra. }
    exists (mkposreal (dm / 2) ltac:(lra)). intros y B. assert (K : Rabs (y - 0) < dm / 2) by exact B. rewrite Rminus_0_r in K. exact (A y K).
  - evar_last.
    + apply (is_derive_plus (fun y => - 8 * y / (dm * dm))).
      * instantiate (1 := - 8 / (dm * dm)). auto_derive; [exact I|]. field. lra.
      * apply is_derive_scal. instantiate (1 := 0). apply is_derive_Reals. intros eps E. exists (mkposreal eps E). cbn [pos]. intros h N B.
        rewrite Rplus_0_l. replace ((h * Rabs h - 0 * Rabs 0) / h - 0) with (Rabs h) by (field; exact N). rewrite Rabs_Rabsolu. exact B.
    + unfold plus. cbn. ring.
Qed.
