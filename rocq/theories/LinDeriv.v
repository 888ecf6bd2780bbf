(** The solution of a linear system that depends on a parameter: it exists near a
    parameter where the matrix is regular, and its derivative. *)
Set Warnings "-ambiguous-paths".
From Coq Require Import Reals Lra Lia PeanoNat.
From Coquelicot Require Import Coquelicot.
Local Open Scope R_scope.

Fixpoint rsum (n : nat) (f : nat -> R) : R := match n with O => 0 | S n => rsum n f + f n end.
Lemma rsum_ext n f g : (forall i, (i < n)%nat -> f i = g i) -> rsum n f = rsum n g.
Proof. induction n as [|n IH]; intros H; cbn; [reflexivity|]. rewrite IH by (intros; apply H; lia). rewrite H by lia. reflexivity. Qed.
Lemma rsum_plus n f g : rsum n (fun i => f i + g i) = rsum n f + rsum n g.
Proof. induction n as [|n IH]; cbn; [ring|]. rewrite IH. ring. Qed.
Lemma rsum_minus n f g : rsum n (fun i => f i - g i) = rsum n f - rsum n g.
Proof. induction n as [|n IH]; cbn; [ring|]. rewrite IH. ring. Qed.
Lemma rsum_scal n c f : rsum n (fun i => c * f i) = c * rsum n f.
Proof. induction n as [|n IH]; cbn; [ring|]. rewrite IH. ring. Qed.
Lemma rsum_scal_r n c f : rsum n (fun i => f i * c) = rsum n f * c.
Proof. induction n as [|n IH]; cbn; [ring|]. rewrite IH. ring. Qed.
Lemma rsum_0 n f : (forall i, (i < n)%nat -> f i = 0) -> rsum n f = 0.
Proof. induction n as [|n IH]; intros H; cbn; [reflexivity|]. rewrite IH by (intros; apply H; lia). rewrite H by lia. ring. Qed.
Lemma rsum_swap n m f : rsum n (fun i => rsum m (fun j => f i j)) = rsum m (fun j => rsum n (fun i => f i j)).
Proof.
  induction n as [|n IH]; cbn; [rewrite rsum_0; reflexivity|]. rewrite IH, <- rsum_plus. reflexivity.
Qed.
Lemma rsum_le n f g : (forall i, (i < n)%nat -> f i <= g i) -> rsum n f <= rsum n g.
Proof. induction n as [|n IH]; intros H; cbn; [lra|]. apply Rplus_le_compat; [apply IH; intros; apply H; lia|apply H; lia]. Qed.
Lemma rsum_nonneg n f : (forall i, (i < n)%nat -> 0 <= f i) -> 0 <= rsum n f.
Proof. intros H. rewrite <- (rsum_0 n (fun _ => 0)) by reflexivity. apply rsum_le. exact H. Qed.
Lemma rsum_abs n f : Rabs (rsum n f) <= rsum n (fun i => Rabs (f i)).
Proof. induction n as [|n IH]; cbn; [rewrite Rabs_R0; lra|]. eapply Rle_trans; [apply Rabs_triang|]. apply Rplus_le_compat_r. exact IH. Qed.
Lemma rsum_term n f i : (forall j, (j < n)%nat -> 0 <= f j) -> (i < n)%nat -> f i <= rsum n f.
Proof.
  induction n as [|n IH]; intros P H; [lia|]. cbn. destruct (Nat.eq_dec i n) as [->|N].
  - pose proof (rsum_nonneg n f (fun j Hj => P j ltac:(lia))). lra.
  - pose proof (IH (fun j Hj => P j ltac:(lia)) ltac:(lia)). pose proof (P n ltac:(lia)). lra.
Qed.
Definition delta (i j : nat) : R := if Nat.eqb i j then 1 else 0.
Lemma rsum_delta n f i : (i < n)%nat -> rsum n (fun j => delta i j * f j) = f i.
Proof.
  induction n as [|n IH]; intros H; [lia|]. cbn. unfold delta at 2. destruct (Nat.eqb_spec i n) as [->|N].
  - rewrite rsum_0; [ring|]. intros j Hj. unfold delta. destruct (Nat.eqb_spec n j); [lia|ring].
  - rewrite IH by lia. ring.
Qed.
Lemma rsum_derive n (f : nat -> R -> R) (d : nat -> R) (t : R) : (forall i, (i < n)%nat -> is_derive (f i) t (d i)) ->
  is_derive (fun s => rsum n (fun i => f i s)) t (rsum n d).
Proof.
  induction n as [|n IH]; intros H; cbn; [exact (is_derive_const 0 t)|].
  apply (is_derive_plus (fun s => rsum n (fun i => f i s)) (f n)); [apply IH; intros; apply H; lia|apply H; lia].
Qed.
Lemma mult_derive (f g : R -> R) (t a b : R) : is_derive f t a -> is_derive g t b -> is_derive (fun s => f s * g s) t (a * g t + f t * b).
Proof. intros Hf Hg. apply (is_derive_mult f g t a b Hf Hg). intros; apply Rmult_comm. Qed.

(** Functions that tend to zero at [t]. *)
Definition small (t : R) (f : R -> R) : Prop := forall eps : R, 0 < eps -> locally t (fun s => Rabs (f s) < eps).
Definition bounded (t : R) (f : R -> R) : Prop := exists K, 0 < K /\ locally t (fun s => Rabs (f s) <= K).
Lemma locally_and (t : R) (P Q : R -> Prop) : locally t P -> locally t Q -> locally t (fun s => P s /\ Q s).
Proof. intros H1 H2. exact (filter_and P Q H1 H2). Qed.
Lemma small_ext t f g : locally t (fun s => f s = g s) -> small t f -> small t g.
Proof.
  intros E H eps P. generalize (locally_and _ _ _ E (H eps P)). apply filter_imp. intros s [<- B]. exact B.
Qed.
Lemma small_plus t f g : small t f -> small t g -> small t (fun s => f s + g s).
Proof.
  intros Hf Hg eps P. generalize (locally_and _ _ _ (Hf (eps / 2) ltac:(lra)) (Hg (eps / 2) ltac:(lra))).
  apply filter_imp. intros s [A B]. eapply Rle_lt_trans; [apply Rabs_triang|]. lra.
Qed.
Lemma small_bounded t f g : small t f -> bounded t g -> small t (fun s => f s * g s).
Proof.
  intros Hf (K & PK & HK) eps P. assert (Q : 0 < eps / K) by (apply Rdiv_lt_0_compat; lra).
  generalize (locally_and _ _ _ (Hf _ Q) HK). apply filter_imp. intros s [A B]. rewrite Rabs_mult.
  apply Rle_lt_trans with (Rabs (f s) * K); [apply Rmult_le_compat_l; [apply Rabs_pos|exact B]|].
  replace eps with (eps / K * K) by (field; lra). apply Rmult_lt_compat_r; assumption.
Qed.
Lemma bounded_const t c : bounded t (fun _ => c).
Proof. exists (Rabs c + 1). split; [pose proof (Rabs_pos c); lra|]. apply filter_forall. intros _. lra. Qed.
Lemma small_scal t f c : small t f -> small t (fun s => c * f s).
Proof.
  intros H. apply (small_ext t (fun s => f s * c)); [apply filter_forall; intros; ring|].
  apply small_bounded; [exact H|apply bounded_const].
Qed.
Lemma small_rsum t n (f : nat -> R -> R) : (forall i, (i < n)%nat -> small t (f i)) -> small t (fun s => rsum n (fun i => f i s)).
Proof.
  induction n as [|n IH]; intros H; cbn.
  - intros eps P. apply filter_forall. intros _. rewrite Rabs_R0. exact P.
  - apply small_plus; [apply IH; intros; apply H; lia|apply H; lia].
Qed.
Lemma small_abs t f : small t f -> small t (fun s => Rabs (f s)).
Proof. intros H eps P. generalize (H eps P). apply filter_imp. intros s. rewrite Rabs_Rabsolu. tauto. Qed.
Lemma small_le t f g : locally t (fun s => Rabs (f s) <= Rabs (g s)) -> small t g -> small t f.
Proof. intros E H eps P. generalize (locally_and _ _ _ E (H eps P)). apply filter_imp. intros s [A B]. lra. Qed.
Lemma derive_small t f d : is_derive f t d -> small t (fun s => f s - f t).
Proof.
  intros H eps P. assert (C : continuous f t) by (apply ex_derive_continuous; exists d; exact H).
  pose proof (C (ball (f t) eps)) as L. specialize (L (locally_ball (f t) (mkposreal eps P))).
  exact L.
Qed.
(** A function that is differentiable and zero at [t], times one that tends to zero. *)
Lemma derive_small_mult t (g h : R -> R) d : is_derive g t d -> g t = 0 -> h t = 0 -> small t h -> is_derive (fun s => g s * h s) t 0.
Proof.
  intros Hg G0 H0 Hh. apply is_derive_Reals. apply is_derive_Reals in Hg. intros eps P.
  destruct (Hg 1 ltac:(lra)) as (d1 & D1).
  set (K := Rabs d + 1). assert (PK : 0 < K) by (unfold K; pose proof (Rabs_pos d); lra).
  destruct (Hh (eps / K) ltac:(apply Rdiv_lt_0_compat; lra)) as (d2 & D2).
  exists (mkposreal (Rmin d1 d2) (Rmin_pos _ _ (cond_pos d1) (cond_pos d2))). cbn [pos]. intros s Ns Bs.
  specialize (D1 s Ns (Rlt_le_trans _ _ _ Bs (Rmin_l _ _))).
  assert (B2 : Rabs (h (t + s)) < eps / K).
  { apply D2. change (Rabs (t + s - t) < d2). replace (t + s - t) with s by ring. exact (Rlt_le_trans _ _ _ Bs (Rmin_r _ _)). }
  rewrite G0 in D1 |- *. rewrite Rminus_0_r in D1.
  replace ((g (t + s) * h (t + s) - 0 * h t) / s - 0) with (g (t + s) / s * h (t + s)) by (field; exact Ns).
  rewrite Rabs_mult.
  assert (Q : Rabs (g (t + s) / s) < K).
  { unfold K. replace (g (t + s) / s) with (g (t + s) / s - d + d) by ring. eapply Rle_lt_trans; [apply Rabs_triang|]. lra. }
  apply Rle_lt_trans with (K * Rabs (h (t + s))); [apply Rmult_le_compat_r; [apply Rabs_pos|lra]|].
  replace eps with (K * (eps / K)) by (field; lra). apply Rmult_lt_compat_l; assumption.
Qed.

Section System.
Variables (k : nat) (t0 : R) (A : R -> nat -> nat -> R) (dA M : nat -> nat -> R).
Hypothesis HA : forall i j, (i < k)%nat -> (j < k)%nat -> is_derive (fun t => A t i j) t0 (dA i j).
Hypothesis HM : forall i j, (i < k)%nat -> (j < k)%nat -> rsum k (fun l => M i l * A t0 l j) = delta i j.

Definition E (t : R) : R := rsum k (fun i => rsum k (fun l => rsum k (fun j => Rabs (M i l) * Rabs (A t l j - A t0 l j)))).
Lemma E_small : small t0 E.
Proof.
  unfold E. apply small_rsum. intros i Hi. apply small_rsum. intros l Hl. apply small_rsum. intros j Hj.
  apply small_scal. apply small_abs. exact (derive_small t0 (fun t => A t l j) _ (HA l j Hl Hj)).
Qed.
Lemma unsolve v i : (i < k)%nat -> rsum k (fun l => M i l * rsum k (fun j => A t0 l j * v j)) = v i.
Proof.
  intros Hi. rewrite (rsum_ext k _ (fun l => rsum k (fun j => M i l * A t0 l j * v j))) by (intros; rewrite <- rsum_scal; apply rsum_ext; intros; ring).
  rewrite rsum_swap. rewrite (rsum_ext k _ (fun j => delta i j * v j)).
  - apply rsum_delta. exact Hi.
  - intros j Hj. rewrite rsum_scal_r, HM by assumption. reflexivity.
Qed.
(** v = M (w - (A t - A t0) v) when A t v = w *)
Lemma split_solution t v w i : (forall l, (l < k)%nat -> rsum k (fun j => A t l j * v j) = w l) -> (i < k)%nat ->
  v i = rsum k (fun l => M i l * (w l - rsum k (fun j => (A t l j - A t0 l j) * v j))).
Proof.
  intros H Hi. rewrite <- (unsolve v i Hi) at 1. apply rsum_ext. intros l Hl. f_equal.
  rewrite <- H by exact Hl. rewrite <- rsum_minus. apply rsum_ext. intros. ring.
Qed.
Definition norm (v : nat -> R) : R := rsum k (fun i => Rabs (v i)).
Lemma norm_bound t v w : (forall l, (l < k)%nat -> rsum k (fun j => A t l j * v j) = w l) ->
  norm v <= rsum k (fun i => rsum k (fun l => Rabs (M i l) * Rabs (w l))) + E t * norm v.
Proof.
  intros H. unfold norm at 1, E. rewrite <- rsum_scal_r, <- rsum_plus. apply rsum_le. intros i Hi.
  rewrite (split_solution t v w i H Hi) at 1. eapply Rle_trans; [apply rsum_abs|].
  rewrite <- rsum_scal_r, <- rsum_plus. apply rsum_le. intros l Hl. rewrite Rabs_mult.
  rewrite rsum_scal. rewrite Rmult_assoc, <- Rmult_plus_distr_l. apply Rmult_le_compat_l; [apply Rabs_pos|].
  eapply Rle_trans; [apply Rabs_triang|]. rewrite Rabs_Ropp. apply Rplus_le_compat_l.
  eapply Rle_trans; [apply rsum_abs|]. rewrite <- rsum_scal_r. apply rsum_le. intros j Hj. rewrite Rabs_mult.
  apply Rmult_le_compat_l; [apply Rabs_pos|]. apply (rsum_term k (fun i => Rabs (v i))); [intros; apply Rabs_pos|exact Hj].
Qed.
Lemma norm_nonneg v : 0 <= norm v. Proof. apply rsum_nonneg. intros. apply Rabs_pos. Qed.

(** Near t0 the matrix is regular. *)
Lemma near_regular : locally t0 (fun t => forall v, (forall l, (l < k)%nat -> rsum k (fun j => A t l j * v j) = 0) ->
  forall i, (i < k)%nat -> v i = 0).
Proof.
  generalize (E_small (1/2) ltac:(lra)). apply filter_imp. intros t B v Z i Hi.
  pose proof (norm_bound t v (fun _ => 0) Z) as N.
  assert (Z0 : rsum k (fun i => rsum k (fun l => Rabs (M i l) * Rabs 0)) = 0).
  { apply rsum_0. intros j _. apply rsum_0. intros. rewrite Rabs_R0. ring. }
  cbv beta in N.
  pose proof (norm_nonneg v) as P. pose proof (Rle_abs (E t)).
  assert (Q : norm v <= 0) by (rewrite Z0 in N; nra).
  pose proof (rsum_term k (fun i => Rabs (v i)) i (fun _ _ => Rabs_pos _) Hi) as T. fold (norm v) in T.
  pose proof (Rabs_pos (v i)). apply Rabs_eq_0. lra.
Qed.

(** The derivative of the solution. *)
Variables (g b : R -> nat -> R) (db : nat -> R).
Hypothesis Hb : forall i, (i < k)%nat -> is_derive (fun t => b t i) t0 (db i).
Hypothesis Hg : locally t0 (fun t => forall l, (l < k)%nat -> rsum k (fun j => A t l j * g t j) = b t l).

Lemma Hg0 l : (l < k)%nat -> rsum k (fun j => A t0 l j * g t0 j) = b t0 l.
Proof. exact (locally_singleton _ _ Hg l). Qed.

Lemma g_bounded i : (i < k)%nat -> bounded t0 (fun t => g t i).
Proof.
  intros Hi.
  assert (SB : small t0 (fun t => rsum k (fun i => rsum k (fun l => Rabs (M i l) * Rabs (b t l - b t0 l))))).
  { apply small_rsum. intros i' _. apply small_rsum. intros l Hl. apply small_scal, small_abs. exact (derive_small t0 _ _ (Hb l Hl)). }
  set (C := rsum k (fun i => rsum k (fun l => Rabs (M i l) * Rabs (b t0 l)))).
  assert (PC : 0 <= C) by (apply rsum_nonneg; intros; apply rsum_nonneg; intros; apply Rmult_le_pos; apply Rabs_pos).
  exists (2 * (C + 1)). split; [lra|].
  generalize (locally_and _ _ _ Hg (locally_and _ _ _ (E_small (1/2) ltac:(lra)) (SB 1 ltac:(lra)))). apply filter_imp.
  intros t (G & B1 & B2). pose proof (norm_bound t (g t) (b t) G) as N.
  assert (Q : rsum k (fun i => rsum k (fun l => Rabs (M i l) * Rabs (b t l))) <= C + 1).
  { apply Rle_trans with (C + rsum k (fun i => rsum k (fun l => Rabs (M i l) * Rabs (b t l - b t0 l)))).
    - unfold C. rewrite <- rsum_plus. apply rsum_le. intros i' _. rewrite <- rsum_plus. apply rsum_le. intros l _.
      rewrite <- Rmult_plus_distr_l. apply Rmult_le_compat_l; [apply Rabs_pos|].
      replace (b t l) with (b t0 l + (b t l - b t0 l)) at 1 by ring. apply Rabs_triang.
    - apply Rplus_le_compat_l. pose proof (Rle_abs (rsum k (fun i => rsum k (fun l => Rabs (M i l) * Rabs (b t l - b t0 l))))). lra. }
  pose proof (norm_nonneg (g t)). pose proof (Rle_abs (E t)).
  pose proof (rsum_term k (fun i => Rabs (g t i)) i (fun _ _ => Rabs_pos _) Hi) as T. fold (norm (g t)) in T. nra.
Qed.

(** g t - g t0 = M ((b t - b t0) - (A t - A t0) g t) *)
Lemma difference : locally t0 (fun t => forall i, (i < k)%nat ->
  g t i - g t0 i = rsum k (fun l => M i l * ((b t l - b t0 l) - rsum k (fun j => (A t l j - A t0 l j) * g t j)))).
Proof.
  generalize Hg. apply filter_imp. intros t G i Hi.
  rewrite (split_solution t (g t) (b t) i G Hi) at 1.
  rewrite <- (unsolve (g t0) i Hi). rewrite <- rsum_minus. apply rsum_ext. intros l Hl. rewrite Hg0 by exact Hl. ring.
Qed.
Lemma g_small i : (i < k)%nat -> small t0 (fun t => g t i - g t0 i).
Proof.
  intros Hi.
  apply (small_ext t0 (fun t => rsum k (fun l => M i l * ((b t l - b t0 l) + rsum k (fun j => (-1) * ((A t l j - A t0 l j) * g t j)))))).
  - generalize difference. apply filter_imp. intros t D. rewrite (D i Hi). apply rsum_ext. intros l _. rewrite rsum_scal. ring.
  - apply small_rsum. intros l Hl. apply small_scal. apply small_plus; [exact (derive_small t0 _ _ (Hb l Hl))|].
    apply small_rsum. intros j Hj. apply small_scal. apply small_bounded; [exact (derive_small t0 (fun t => A t l j) _ (HA l j Hl Hj))|].
    exact (g_bounded j Hj).
Qed.

Theorem solution_derive i : (i < k)%nat ->
  is_derive (fun t => g t i) t0 (rsum k (fun l => M i l * (db l - rsum k (fun j => dA l j * g t0 j)))).
Proof.
  intros Hi.
  apply (is_derive_ext_loc (fun t => g t0 i + rsum k (fun l => M i l * ((b t l - b t0 l) -
     rsum k (fun j => (A t l j - A t0 l j) * g t0 j + (A t l j - A t0 l j) * (g t j - g t0 j)))))).
  - generalize difference. apply filter_imp. intros t D. specialize (D i Hi).
    assert (Q : g t0 i + (g t i - g t0 i) = g t i) by ring. refine (eq_trans _ Q). rewrite D. f_equal. apply rsum_ext. intros l _. f_equal. f_equal.
    apply rsum_ext. intros. ring.
  - evar_last.
    + apply (is_derive_plus (fun _ => g t0 i)); [apply is_derive_const|].
      apply rsum_derive. intros l Hl. apply is_derive_scal.
      apply (is_derive_minus (fun t => b t l - b t0 l)).
      * apply (is_derive_minus (fun t => b t l) (fun _ => b t0 l)); [exact (Hb l Hl)|apply is_derive_const].
      * apply rsum_derive. intros j Hj.
        assert (DA : is_derive (fun t => A t l j - A t0 l j) t0 (dA l j)).
        { evar_last; [apply (is_derive_minus (fun t => A t l j) (fun _ => A t0 l j)); [exact (HA l j Hl Hj)|apply is_derive_const]|].
          unfold minus, plus, opp, zero. cbn. ring. }
        apply (is_derive_plus (fun t => (A t l j - A t0 l j) * g t0 j)).
        -- apply (mult_derive (fun t => A t l j - A t0 l j) (fun _ => g t0 j) t0 (dA l j) 0 DA). apply (is_derive_const (g t0 j) t0).
        -- apply (derive_small_mult t0 (fun t => A t l j - A t0 l j) (fun t => g t j - g t0 j) (dA l j) DA); [apply Rminus_diag_eq; reflexivity|apply Rminus_diag_eq; reflexivity|exact (g_small j Hj)].
    + unfold minus, plus, opp, zero. cbn. rewrite Rplus_0_l. apply rsum_ext. intros l _. f_equal.
      rewrite (rsum_ext k _ (fun j => dA l j * g t0 j)) by (intros; ring). ring.
Qed.
End System.
