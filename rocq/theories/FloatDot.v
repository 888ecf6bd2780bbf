(** Matrix products in double precision, in whatever order the terms are summed. *)
From Coq Require Import ZArith List Reals Psatz Lia Lra Permutation.
From Flocq Require Import Core BinarySingleNaN.
From Verif Require Import FloatModel FloatProofs.
Import ListNotations.
Local Open Scope R_scope.

(** ** Model *)

(** The fused multiply-add instruction. *)
Definition ffma : f64 -> f64 -> f64 -> f64 := Bfma mode_NE.
(** The values that [numpy] or compiled code may return for the sum of the products of a
    list of pairs: BLAS chooses the order, the number of partial sums and whether products
    and additions are fused.  The accumulator zero of a partial sum is exact and left out
    except for fused additions. *)
Inductive dot : list (f64 * f64) -> f64 -> Prop :=
| dot_nil : dot [] (B754_zero false)
| dot_mul a b : dot [(a, b)] (fmul a b)
| dot_fma a b l l' x : dot l x -> Permutation l' ((a, b) :: l) -> dot l' (ffma a b x)
| dot_add l1 l2 l x y : l1 <> [] -> l2 <> [] -> dot l1 x -> dot l2 y -> Permutation l (l1 ++ l2) -> dot l (fadd x y).

(** linalg/utils.py:403-421, [_show_vector], [dcm @ arr]; each vector of a stack is treated
    in this way (lines 425-480, C71). *)
Definition row (n : nat) (Q : nat -> nat -> f64) (v : nat -> f64) (i : nat) : list (f64 * f64) :=
  map (fun j => (Q i j, v j)) (seq 0 n).
Definition show_vector (n : nat) (Q : nat -> nat -> f64) (v out : nat -> f64) : Prop :=
  forall i, (i < n)%nat -> dot (row n Q v i) (out i).

(** ** Specification *)
Fixpoint Rsum (n : nat) (f : nat -> R) : R := match n with O => 0 | S n => Rsum n f + f n end.
(** [(1 + 2^-53)^n - 1], about [n 2^-53]. *)
Definition gamma (n : nat) : R := (1 + bpow radix2 (-53)) ^ n - 1.
(** [2 n (1 + 2^-53)^n 2^-1075], the errors of numbers too small for full precision. *)
Definition tiny (n : nat) : R := 2 * INR n * (1 + gamma n) * bpow radix2 (-1075).

(** ** Proofs *)
Fixpoint total (l : list (f64 * f64)) : R := match l with [] => 0 | (a, b) :: l => B2R a * B2R b + total l end.
Fixpoint size (l : list (f64 * f64)) : R := match l with [] => 0 | (a, b) :: l => Rabs (B2R a * B2R b) + size l end.
Lemma total_perm l l' : Permutation l l' -> total l = total l' /\ size l = size l'.
Proof.
  induction 1 as [|[a b] l l' H [I1 I2]|[a b] [c d] l|l l' l'' H [I1 I2] H' [J1 J2]]; cbn; split; try lra.
Qed.
Lemma total_app l l' : total (l ++ l') = total l + total l' /\ size (l ++ l') = size l + size l'.
Proof. induction l as [|[a b] l [I1 I2]]; cbn; split; lra. Qed.
Lemma total_size l : Rabs (total l) <= size l.
Proof.
  induction l as [|[a b] l I]; cbn; [rewrite Rabs_R0; lra|]. eapply Rle_trans; [apply Rabs_triang|]. lra.
Qed.
Lemma size_pos l : 0 <= size l. Proof. pose proof (total_size l). pose proof (Rabs_pos (total l)). lra. Qed.

Lemma ffma_finite (a b x : f64) : is_finite (ffma a b x) = true ->
  is_finite x = true /\ is_finite a = true /\ is_finite b = true /\ B2R (ffma a b x) = rnd (B2R a * B2R b + B2R x).
Proof.
  intros F.
  assert (Fx : is_finite a = true /\ is_finite b = true /\ is_finite x = true).
  { destruct a as [s|s| |s m e E], b as [s'|s'| |s' m' e' E'], x as [s2|s2| |s2 m2 e2 E2]; try (repeat split; reflexivity);
      exfalso; try discriminate F; try (destruct s, s', s2; discriminate F). }
  destruct Fx as (Fa & Fb & Fx). repeat split; try assumption.
  pose proof (Bfma_correct 53 1024 prec_ok emax_ok mode_NE a b x Fa Fb Fx) as C. cbv zeta in C.
  change (Bfma mode_NE a b x) with (ffma a b x) in C. destruct (Rlt_bool _ _); [apply C|].
  rewrite <- is_finite_SF_B2SF', C, overflow_infinite in F. discriminate.
Qed.

Definition g (n : nat) : R := (1 + u) ^ n.
Lemma g_ge1 n : 1 <= g n. Proof. apply pow_R1_Rle. unfold u. lra. Qed.
Lemma g_S n : g (S n) = (1 + u) * g n. Proof. reflexivity. Qed.
Lemma g_mono n m : (n <= m)%nat -> g n <= g m. Proof. intros H. apply Rle_pow; [unfold u; lra|exact H]. Qed.

(** The error of [n] terms: [2n - 1] operations. *)
Definition bound (n : nat) (S : R) : R := (g n - 1) * S + INR (2 * n - 1) * g n * eta.

Lemma rnd_step z s e : Rabs (z - s) <= e -> Rabs (rnd z - s) <= (1 + u) * e + u * Rabs s + eta.
Proof.
  intros H. pose proof (rnd_err z) as R1. assert (U : 0 < u) by (unfold u; lra).
  assert (Z : Rabs z <= e + Rabs s) by (replace z with (z - s + s) by ring; eapply Rle_trans; [apply Rabs_triang|lra]).
  replace (rnd z - s) with ((rnd z - z) + (z - s)) by ring. eapply Rle_trans; [apply Rabs_triang|]. nra.
Qed.

Lemma dot_err l x : dot l x -> is_finite x = true -> Rabs (B2R x - total l) <= bound (length l) (size l).
Proof.
  pose proof eta_pos as He. assert (U : 0 < u) by (unfold u; lra). intros D. induction D as [|a b|a b l l' x D IH P|l1 l2 l x y N1 N2 D1 IH1 D2 IH2 P]; intros F.
  - cbn. rewrite Rminus_0_r, Rabs_R0. unfold bound, g. cbn. lra.
  - destruct (fmul_finite _ _ F) as (_ & _ & ->). cbn. rewrite !Rplus_0_r. pose proof (rnd_err (B2R a * B2R b)) as R1.
    unfold bound, g. cbn. pose proof (Rabs_pos (B2R a * B2R b)). nra.
  - destruct (ffma_finite _ _ _ F) as (Fx & _ & _ & ->). specialize (IH Fx).
    destruct (total_perm _ _ P) as [-> ->]. rewrite (Permutation_length P). cbn [total size length].
    assert (H : Rabs (B2R a * B2R b + B2R x - (B2R a * B2R b + total l)) <= bound (length l) (size l)).
    { replace (B2R a * B2R b + B2R x - (B2R a * B2R b + total l)) with (B2R x - total l) by ring. exact IH. }
    apply rnd_step in H. eapply Rle_trans; [exact H|].
    assert (T : Rabs (B2R a * B2R b + total l) <= Rabs (B2R a * B2R b) + size l) by (eapply Rle_trans; [apply Rabs_triang|]; pose proof (total_size l); lra).
    set (n := length l). unfold bound. rewrite g_S. pose proof (g_ge1 n) as G. pose proof (size_pos l) as Sp. pose proof (Rabs_pos (B2R a * B2R b)) as Ap.
    assert (K : INR (2 * n - 1) + 1 <= INR (2 * S n - 1)).
    { replace (2 * S n - 1)%nat with (S (2 * n)) by lia. rewrite S_INR. assert (INR (2 * n - 1) <= INR (2 * n)) by (apply le_INR; lia). lra. }
    assert (K1 : (1 + u) * (INR (2 * n - 1) * g n * eta) + eta <= INR (2 * S n - 1) * ((1 + u) * g n) * eta).
    { replace ((1 + u) * (INR (2 * n - 1) * g n * eta) + eta) with ((INR (2 * n - 1) * ((1 + u) * g n) + 1) * eta) by ring.
      apply Rmult_le_compat_r; [lra|]. assert (1 <= (1 + u) * g n) by nra. nra. }
    assert (K2 : u * Rabs (B2R a * B2R b + total l) <= u * (Rabs (B2R a * B2R b) + size l)) by (apply Rmult_le_compat_l; lra).
    assert (K3 : ((1 + u) * g n - 1) * size l + u * Rabs (B2R a * B2R b) <= ((1 + u) * g n - 1) * (Rabs (B2R a * B2R b) + size l)).
    { assert (u <= (1 + u) * g n - 1) by nra. assert (u * Rabs (B2R a * B2R b) <= ((1 + u) * g n - 1) * Rabs (B2R a * B2R b)) by (apply Rmult_le_compat_r; lra). lra. }
    lra.
  - destruct (fadd_finite _ _ F) as (Fx & Fy & ->). specialize (IH1 Fx). specialize (IH2 Fy).
    destruct (total_perm _ _ P) as [-> ->]. rewrite (Permutation_length P), app_length. destruct (total_app l1 l2) as [-> ->].
    set (n1 := length l1) in *. set (n2 := length l2) in *.
    assert (P1 : (1 <= n1)%nat) by (destruct l1; [contradiction|cbn; lia]). assert (P2 : (1 <= n2)%nat) by (destruct l2; [contradiction|cbn; lia]).
    assert (H : Rabs (B2R x + B2R y - (total l1 + total l2)) <= bound n1 (size l1) + bound n2 (size l2)).
    { replace (B2R x + B2R y - (total l1 + total l2)) with ((B2R x - total l1) + (B2R y - total l2)) by ring.
      eapply Rle_trans; [apply Rabs_triang|]. lra. }
    apply rnd_step in H. eapply Rle_trans; [exact H|].
    assert (T : Rabs (total l1 + total l2) <= size l1 + size l2).
    { eapply Rle_trans; [apply Rabs_triang|]. pose proof (total_size l1). pose proof (total_size l2). lra. }
    destruct (n1 + n2)%nat as [|m] eqn:Em; [lia|]. unfold bound. rewrite g_S.
    assert (G1 : g n1 <= g m) by (apply g_mono; lia). assert (G2 : g n2 <= g m) by (apply g_mono; lia).
    pose proof (g_ge1 m) as G. pose proof (g_ge1 n1) as Q1. pose proof (g_ge1 n2) as Q2.
    pose proof (size_pos l1) as S1. pose proof (size_pos l2) as S2.
    pose proof (pos_INR (2 * n1 - 1)) as I1. pose proof (pos_INR (2 * n2 - 1)) as I2.
    assert (K : INR (2 * S m - 1) = INR (2 * n1 - 1) + INR (2 * n2 - 1) + 1).
    { replace (2 * S m - 1)%nat with ((2 * n1 - 1) + (2 * n2 - 1) + 1)%nat by lia. rewrite !plus_INR. reflexivity. }
    rewrite K. assert (A1 : (g n1 - 1) * size l1 <= (g m - 1) * size l1) by (apply Rmult_le_compat_r; lra).
    assert (A2 : (g n2 - 1) * size l2 <= (g m - 1) * size l2) by (apply Rmult_le_compat_r; lra).
    assert (B1 : INR (2 * n1 - 1) * g n1 * eta <= INR (2 * n1 - 1) * g m * eta) by (apply Rmult_le_compat_r; [lra|]; apply Rmult_le_compat_l; lra).
    assert (B2 : INR (2 * n2 - 1) * g n2 * eta <= INR (2 * n2 - 1) * g m * eta) by (apply Rmult_le_compat_r; [lra|]; apply Rmult_le_compat_l; lra).
    assert (C1 : u * Rabs (total l1 + total l2) <= u * (size l1 + size l2)) by (apply Rmult_le_compat_l; lra).
    assert (C2 : (1 + u) * ((g n1 - 1) * size l1 + INR (2 * n1 - 1) * g n1 * eta + ((g n2 - 1) * size l2 + INR (2 * n2 - 1) * g n2 * eta))
      <= (1 + u) * ((g m - 1) * size l1 + INR (2 * n1 - 1) * g m * eta + ((g m - 1) * size l2 + INR (2 * n2 - 1) * g m * eta))) by (apply Rmult_le_compat_l; lra).
    assert (C3 : eta <= (1 + u) * g m * eta) by (rewrite <- (Rmult_1_l eta) at 1; apply Rmult_le_compat_r; [lra|nra]).
    replace (((1 + u) * g m - 1) * (size l1 + size l2) + (INR (2 * n1 - 1) + INR (2 * n2 - 1) + 1) * ((1 + u) * g m) * eta)
      with ((1 + u) * ((g m - 1) * size l1 + INR (2 * n1 - 1) * g m * eta + ((g m - 1) * size l2 + INR (2 * n2 - 1) * g m * eta))
            + u * (size l1 + size l2) + (1 + u) * g m * eta) by ring.
    lra.
Qed.

Lemma u_bpow : bpow radix2 (-53) = u. Proof. reflexivity. Qed.
Lemma eta_bpow : bpow radix2 (-1075) = eta.
Proof. unfold eta. change (-1075)%Z with (-1 + -1074)%Z. rewrite bpow_plus. cbn. lra. Qed.
Lemma gamma_g n : gamma n = g n - 1. Proof. unfold gamma, g. rewrite u_bpow. reflexivity. Qed.
Lemma bound_le n S : bound n S <= gamma n * S + tiny n.
Proof.
  unfold bound, tiny. rewrite gamma_g, eta_bpow. apply Rplus_le_compat_l. pose proof eta_pos. pose proof (g_ge1 n).
  replace (2 * INR n * (1 + (g n - 1)) * eta) with (2 * INR n * g n * eta) by ring.
  apply Rmult_le_compat_r; [lra|]. apply Rmult_le_compat_r; [lra|].
  replace (2 * INR n) with (INR (2 * n)) by (rewrite mult_INR; reflexivity). apply le_INR. lia.
Qed.

Lemma row_total n Q v i : total (row n Q v i) = Rsum n (fun j => B2R (Q i j) * B2R (v j)) /\
  size (row n Q v i) = Rsum n (fun j => Rabs (B2R (Q i j) * B2R (v j))) /\ length (row n Q v i) = n.
Proof.
  unfold row. rewrite map_length, seq_length. induction n as [|n [I1 [I2 _]]]; [repeat split|].
  rewrite seq_S, map_app. destruct (total_app (map (fun j => (Q i j, v j)) (seq 0 n)) (map (fun j => (Q i j, v j)) [(0 + n)%nat])) as [-> ->].
  rewrite I1, I2. cbn. repeat split; lra.
Qed.

Lemma Rsum_ext n f h : (forall i, (i < n)%nat -> f i = h i) -> Rsum n f = Rsum n h.
Proof. induction n; intros H; cbn; [reflexivity|]. rewrite IHn by (intros; apply H; lia). rewrite (H n) by lia. reflexivity. Qed.
Lemma Rsum_add n f h : Rsum n (fun i => f i + h i) = Rsum n f + Rsum n h.
Proof. induction n; cbn; [lra|]. rewrite IHn. lra. Qed.
Lemma Rsum_scale n c f : Rsum n (fun i => c * f i) = c * Rsum n f.
Proof. induction n; cbn; [lra|]. rewrite IHn. lra. Qed.
Lemma Rsum_abs n f e : (forall i, (i < n)%nat -> Rabs (f i) <= e) -> Rabs (Rsum n f) <= INR n * e.
Proof.
  induction n; intros H; [cbn; rewrite Rabs_R0; lra|]. cbn [Rsum]. rewrite S_INR. eapply Rle_trans; [apply Rabs_triang|].
  specialize (IHn (fun i Hi => H i (Nat.lt_lt_succ_r _ _ Hi))). specialize (H n (Nat.lt_succ_diag_r n)). lra.
Qed.
Lemma Rsum_le n f e : (forall i, (i < n)%nat -> f i <= e) -> Rsum n f <= INR n * e.
Proof.
  induction n; intros H; [cbn; lra|]. cbn [Rsum]. rewrite S_INR.
  specialize (IHn (fun i Hi => H i (Nat.lt_lt_succ_r _ _ Hi))). specialize (H n (Nat.lt_succ_diag_r n)). lra.
Qed.
Lemma Rsum_swap n m f : Rsum n (fun i => Rsum m (f i)) = Rsum m (fun j => Rsum n (fun i => f i j)).
Proof.
  induction n; cbn.
  - induction m; cbn; lra.
  - rewrite IHn, <- Rsum_add. reflexivity.
Qed.
Lemma Rsum_delta n f k : (k < n)%nat -> Rsum n (fun j => (if Nat.eqb j k then 1 else 0) * f j) = f k.
Proof.
  revert k. induction n; intros k Hk; [lia|]. cbn. destruct (Nat.eqb_spec n k) as [->|N].
  - rewrite (Rsum_ext k _ (fun _ => 0 * 0)). { rewrite Rsum_scale. lra. }
    intros i Hi. destruct (Nat.eqb_spec i k); [lia|]. lra.
  - rewrite IHn by lia. lra.
Qed.

(** ** C101 *)

(** Whatever the order of the summation, a finite component differs from the exact one by
    no more than the rounding errors of n products and sums. *)
Theorem C101_component : forall n (Q : nat -> nat -> f64) v out i, show_vector n Q v out -> (i < n)%nat -> is_finite (out i) = true ->
  Rabs (B2R (out i) - Rsum n (fun j => B2R (Q i j) * B2R (v j)))
    <= gamma n * Rsum n (fun j => Rabs (B2R (Q i j) * B2R (v j))) + tiny n.
Proof.
  intros n Q v out i H Hi F. destruct (row_total n Q v i) as (E1 & E2 & E3).
  pose proof (dot_err _ _ (H i Hi) F) as D. rewrite E1, E2, E3 in D. eapply Rle_trans; [exact D|apply bound_le].
Qed.
Print Assumptions C101_component.

(** Into a frame and back with the transposed matrix: the vector comes back up to the errors
    of two products and the deviation eps of the stored matrix from an orthogonal one. *)
Theorem C101_round_trip : forall n (Q : nat -> nat -> f64) v w back q V eps,
  show_vector n Q v w -> show_vector n (fun i j => Q j i) w back ->
  (forall i, (i < n)%nat -> is_finite (w i) = true /\ is_finite (back i) = true) ->
  (forall i j, (i < n)%nat -> (j < n)%nat -> Rabs (B2R (Q i j)) <= q) -> (forall j, (j < n)%nat -> Rabs (B2R (v j)) <= V) ->
  (forall j k, (j < n)%nat -> (k < n)%nat ->
     Rabs (Rsum n (fun i => B2R (Q i j) * B2R (Q i k)) - (if Nat.eqb k j then 1 else 0)) <= eps) ->
  forall j, (j < n)%nat ->
  let N := INR n in let d := gamma n * (N * (q * V)) + tiny n in
  Rabs (B2R (back j) - B2R (v j)) <= gamma n * (N * (q * (N * (q * V) + d))) + tiny n + N * (q * d) + N * (eps * V).
Proof.
  intros n Q v w back q V eps Hw Hb Hf HQ Hv He j Hj N d.
  assert (q0 : 0 <= q) by (pose proof (HQ j j Hj Hj); pose proof (Rabs_pos (B2R (Q j j))); lra).
  assert (V0 : 0 <= V) by (pose proof (Hv j Hj); pose proof (Rabs_pos (B2R (v j))); lra).
  assert (N0 : 0 <= N) by apply pos_INR. assert (G0 : 0 <= gamma n) by (rewrite gamma_g; pose proof (g_ge1 n); lra).
  assert (qV : forall a b, Rabs a <= q -> Rabs b <= V -> Rabs (a * b) <= q * V).
  { intros a b Ha Hbb. rewrite Rabs_mult. apply Rmult_le_compat; try apply Rabs_pos; assumption. }
  assert (D1 : forall i, (i < n)%nat -> Rabs (B2R (w i) - Rsum n (fun k => B2R (Q i k) * B2R (v k))) <= d).
  { intros i Hi. destruct (Hf i Hi) as [Fw _]. eapply Rle_trans; [exact (C101_component n Q v w i Hw Hi Fw)|].
    unfold d. apply Rplus_le_compat_r, Rmult_le_compat_l; [exact G0|]. apply Rsum_le. intros k Hk. apply qV; auto. }
  assert (W : forall i, (i < n)%nat -> Rabs (B2R (w i)) <= N * (q * V) + d).
  { intros i Hi. pose proof (D1 i Hi) as D. set (s := Rsum n (fun k => B2R (Q i k) * B2R (v k))) in *.
    replace (B2R (w i)) with (s + (B2R (w i) - s)) by ring. eapply Rle_trans; [apply Rabs_triang|].
    apply Rplus_le_compat; [|exact D]. apply Rsum_abs. intros k Hk. apply qV; auto. }
  destruct (Hf j Hj) as [_ Fb]. pose proof (C101_component n _ w back j Hb Hj Fb) as D2. cbn beta in D2.
  set (s := Rsum n (fun i => B2R (Q i j) * B2R (w i))) in *.
  assert (A2 : Rsum n (fun i => Rabs (B2R (Q i j) * B2R (w i))) <= N * (q * (N * (q * V) + d))).
  { apply Rsum_le. intros i Hi. rewrite Rabs_mult. apply Rmult_le_compat; try apply Rabs_pos; auto. }
  (* the exact second product of the computed vector *)
  assert (S2 : s = Rsum n (fun i => B2R (Q i j) * (B2R (w i) - Rsum n (fun k => B2R (Q i k) * B2R (v k)))) +
               Rsum n (fun k => (Rsum n (fun i => B2R (Q i j) * B2R (Q i k)) - (if Nat.eqb k j then 1 else 0)) * B2R (v k)) + B2R (v j)).
  { rewrite <- (Rsum_delta n (fun k => B2R (v k)) j Hj). rewrite Rplus_assoc, <- Rsum_add.
    rewrite (Rsum_ext n (fun i => (_ - _) * _ + _) (fun k => Rsum n (fun i => B2R (Q i j) * (B2R (Q i k) * B2R (v k))))).
    - rewrite <- Rsum_swap. rewrite <- Rsum_add. apply Rsum_ext. intros i Hi. rewrite Rsum_scale. ring.
    - intros k Hk. rewrite (Rsum_ext n (fun i => B2R (Q i j) * (B2R (Q i k) * B2R (v k))) (fun i => B2R (v k) * (B2R (Q i j) * B2R (Q i k)))) by (intros; ring).
      rewrite Rsum_scale. ring. }
  assert (A3 : Rabs (Rsum n (fun i => B2R (Q i j) * (B2R (w i) - Rsum n (fun k => B2R (Q i k) * B2R (v k))))) <= N * (q * d)).
  { apply Rsum_abs. intros i Hi. rewrite Rabs_mult. apply Rmult_le_compat; try apply Rabs_pos; auto. }
  assert (A4 : Rabs (Rsum n (fun k => (Rsum n (fun i => B2R (Q i j) * B2R (Q i k)) - (if Nat.eqb k j then 1 else 0)) * B2R (v k))) <= N * (eps * V)).
  { apply Rsum_abs. intros k Hk. rewrite Rabs_mult. apply Rmult_le_compat; try apply Rabs_pos; auto. }
  assert (A5 : gamma n * Rsum n (fun i => Rabs (B2R (Q i j) * B2R (w i))) <= gamma n * (N * (q * (N * (q * V) + d)))) by (apply Rmult_le_compat_l; assumption).
  set (x1 := Rsum n (fun i => B2R (Q i j) * (B2R (w i) - _))) in *. set (x2 := Rsum n (fun k => (_ - _) * B2R (v k))) in *.
  replace (B2R (back j) - B2R (v j)) with ((B2R (back j) - s) + x1 + x2) by (rewrite S2; ring).
  eapply Rle_trans; [apply Rabs_triang|]. pose proof (Rabs_triang (B2R (back j) - s) x1). lra.
Qed.
Print Assumptions C101_round_trip.

(** For the quarter turn of the plane all hypotheses are met with q = 1 and eps = 0. *)
Definition turn (i j : nat) : f64 := match i, j with O, S O => of_int 1 | S O, O => of_int (-1) | _, _ => of_int 0 end.
Example C101_met : exists v w back, show_vector 2 turn v w /\ show_vector 2 (fun i j => turn j i) w back /\
  (forall i, (i < 2)%nat -> is_finite (w i) = true /\ is_finite (back i) = true) /\
  (forall i j, (i < 2)%nat -> (j < 2)%nat -> Rabs (B2R (turn i j)) <= 1) /\
  (forall j k, (j < 2)%nat -> (k < 2)%nat ->
     Rabs (Rsum 2 (fun i => B2R (turn i j) * B2R (turn i k)) - (if Nat.eqb k j then 1 else 0)) <= 0).
Proof.
  pose (v := fun j : nat => match j with O => of_int 3 | _ => of_int 7 end).
  pose (pr := fun (Q : nat -> nat -> f64) v (i : nat) => fadd (fmul (Q i 0%nat) (v 0%nat)) (fmul (Q i 1%nat) (v 1%nat))).
  assert (P : forall Q v, show_vector 2 Q v (pr Q v)).
  { intros Q v' i _. apply (dot_add [(Q i 0%nat, v' 0%nat)] [(Q i 1%nat, v' 1%nat)]); [discriminate|discriminate|constructor|constructor|apply Permutation_refl]. }
  exists v, (pr turn v), (pr (fun i j => turn j i) (pr turn v)).
  split; [apply P|]. split; [apply P|]. split.
  { intros [|[|i]] Hi; try lia; split; vm_compute; reflexivity. }
  destruct (of_int_ok 1 eq_refl) as [E1 _]. destruct (of_int_ok (-1) eq_refl) as [E2 _]. destruct (of_int_ok 0 eq_refl) as [E3 _].
  split.
  - intros [|[|i]] [|[|j]] Hi Hj; try lia; cbn [turn]; rewrite ?E1, ?E2, ?E3; apply Rabs_le; lra.
  - intros [|[|i]] [|[|j]] Hi Hj; try lia; cbn [turn Rsum Nat.eqb]; rewrite ?E1, ?E2, ?E3; apply Rabs_le; lra.
Qed.
