(** Property C105: Gauss elimination of [linsolve] in double precision. *)
From Coq Require Import ZArith List Reals Psatz Lia Lra.
From Flocq Require Import Core BinarySingleNaN Relative.
From Verif Require Import FloatModel FloatProofs FloatDot FloatProps.
Import ListNotations.
Local Open Scope R_scope.

(** ** Model

    linalg/solve.py, method 'Gauss-Jordan' without prescribed unknowns, in double precision;
    Numba without [fastmath] does not fuse operations. *)
Definition fmat := nat -> nat -> f64.
(** [A[i, j] = v] and [B[i] = v] *)
Definition set2 (A : fmat) (i j : nat) (v : f64) : fmat := fun r c => if andb (Nat.eqb r i) (Nat.eqb c j) then v else A r c.
Definition setrow (B : fmat) (i : nat) (v : nat -> f64) : fmat := fun r c => if Nat.eqb r i then v c else B r c.
(** The comparison [x < y]. *)
Definition flt (x y : f64) : bool := match Bcompare x y with Some Lt => true | _ => false end.
(** The literal 1e-12. *)
Definition ftol : f64 := fdiv (of_int 1) (of_int 1000000000000).

(** solve.py:214-216, subtract a multiple of the pivot row. *)
Definition subtract_row (n k i : nat) (factor : f64) (AB : fmat * fmat) : fmat * fmat :=
  (fold_left (fun A c => set2 A i c (fsub (A i c) (fmul factor (A k c)))) (seq 0 n) (fst AB),
   setrow (snd AB) i (fun c => fsub (snd AB i c) (fmul factor (snd AB k c)))).
(** solve.py:211-216, one row of the elimination of unknown [k]. *)
Definition eliminate_row (n k : nat) (pivot : f64) (AB : fmat * fmat) (i : nat) : fmat * fmat :=
  let factor := fdiv (fst AB i k) pivot in
  if flt (Babs factor) ftol then AB else subtract_row n k i factor AB.
(** solve.py:206-216, the elimination of unknown [k]; [None] is the exception. *)
Definition gauss_step (n k : nat) (AB : fmat * fmat) : option (fmat * fmat) :=
  if Nat.ltb k (n - 1) then
    let pivot := fst AB k k in
    if flt (Babs pivot) ftol then None
    else Some (fold_left (eliminate_row n k pivot) (seq (k + 1) (n - (k + 1))) AB)
  else Some AB.
(** solve.py:195-217, [_GaussJordan]: the loop over the unknowns. *)
Fixpoint gauss (n m : nat) (AB : fmat * fmat) : option (fmat * fmat) :=
  match m with O => Some AB | S m => match gauss n m AB with Some AB' => gauss_step n m AB' | None => None end end.
(** solve.py:220-239, [backsub], for one column of the right-hand side. *)
Definition fzero : f64 := B754_zero false.
Definition backsub_row (n : nat) (A : fmat) (B : nat -> f64) (X : nat -> f64) (i : nat) : nat -> f64 :=
  let resid := fold_left (fun r j => fsub r (fmul (A i j) (X j))) (seq (i + 1) (n - (i + 1))) (B i) in
  fun r => if Nat.eqb r i then fdiv resid (A i i) else X r.
Definition backsub (n : nat) (A : fmat) (B : nat -> f64) : nat -> f64 :=
  fold_left (backsub_row n A B) (rev (seq 0 n)) (fun _ => fzero).
(** solve.py:13-134, [linsolve(A, B, method="Gauss-Jordan")]; [None] is LinAlgError. *)
Definition linsolve (n : nat) (A B : fmat) : option (fmat) :=
  match gauss n n (A, B) with Some (U, Y) => Some (fun i c => backsub n U (fun r => Y r c) i) | None => None end.

(** ** Specification *)

(** The matrix when unknown [k] is to be eliminated; the multiplier of row [k] for row [i],
    zero if it was skipped; the triangular factors. *)
Definition at_stage (n k : nat) (A B : fmat) : fmat := match gauss n k (A, B) with Some AB => fst AB | None => A end.
Definition skipped (n : nat) (A B : fmat) (i k : nat) : bool :=
  flt (Babs (fdiv (at_stage n k A B i k) (at_stage n k A B k k))) ftol.
Definition lower (n : nat) (A B : fmat) (i k : nat) : R :=
  if Nat.eqb i k then 1 else if Nat.ltb k i then
    if skipped n A B i k then 0 else B2R (fdiv (at_stage n k A B i k) (at_stage n k A B k k))
  else 0.
(** The size of a multiplier that was skipped, zero for the others. *)
Definition dropped (n : nat) (A B : fmat) (i j : nat) : R :=
  if andb (Nat.ltb j i) (skipped n A B i j) then Rabs (B2R (fdiv (at_stage n j A B i j) (at_stage n j A B j j))) else 0.
Definition upper (n : nat) (A B : fmat) (k j : nat) : R := if Nat.leb k j then B2R (at_stage n n A B k j) else 0.

(** ** Proofs *)
Lemma rnd_err_result x : Rabs (rnd x - x) <= u * Rabs (rnd x) + eta.
Proof.
  pose proof (error_le_half_ulp_round radix2 (FLT_exp (-1074) 53) (fun z => negb (Z.even z)) x) as H. fold rnd in H.
  change (Rabs (rnd x - x) <= / 2 * ulp radix2 (FLT_exp (-1074) 53) (rnd x)) in H. eapply Rle_trans; [exact H|]. clear H.
  pose proof eta_pos as E. assert (U : 0 < u) by (unfold u; lra). pose proof (Rabs_pos (rnd x)) as P.
  destruct (Rle_lt_dec (bpow radix2 (-1074 + 53 - 1)) (Rabs (rnd x))) as [L|L].
  - pose proof (ulp_FLT_le radix2 (-1074) 53 (rnd x) L) as H. change (bpow radix2 (1 - 53)) with (/ 4503599627370496) in H.
    unfold u. lra.
  - rewrite (ulp_FLT_small radix2 (-1074) 53 (rnd x)).
    + fold eta. nra.
    + eapply Rlt_le_trans; [exact L|]. apply bpow_le. lia.
Qed.

Lemma Rsum_front n f : Rsum (S n) f = f O + Rsum n (fun t => f (S t)).
Proof. induction n as [|n IH]; cbn [Rsum] in *; [lra|]. rewrite IH. lra. Qed.
Lemma Rsum_nonneg n f : (forall i, (i < n)%nat -> 0 <= f i) -> 0 <= Rsum n f.
Proof. induction n as [|n IH]; intros H; cbn; [lra|]. pose proof (H n ltac:(lia)). assert (0 <= Rsum n f) by (apply IH; intros; apply H; lia). lra. Qed.
Lemma Rsum_mono n f h : (forall i, (i < n)%nat -> f i <= h i) -> Rsum n f <= Rsum n h.
Proof. induction n as [|n IH]; intros H; cbn; [lra|]. pose proof (H n ltac:(lia)). assert (Rsum n f <= Rsum n h) by (apply IH; intros; apply H; lia). lra. Qed.
Lemma Rsum_tri n f : Rabs (Rsum n f) <= Rsum n (fun i => Rabs (f i)).
Proof. induction n as [|n IH]; cbn; [rewrite Rabs_R0; lra|]. eapply Rle_trans; [apply Rabs_triang|]. lra. Qed.

(** Repeated subtraction of products. *)
Lemma chain m : forall (l v z : nat -> R), (forall t, (t < m)%nat -> z (S t) = rnd (z t - rnd (l t * v t))) ->
  Rabs (z O - Rsum m (fun t => l t * v t) - z m) <= (g m - 1) * (Rsum m (fun t => Rabs (l t * v t)) + Rabs (z m)) + 2 * INR m * g m * eta.
Proof.
  pose proof eta_pos as E. assert (U : 0 < u) by (unfold u; lra).
  induction m as [|m IH]; intros l v z H.
  - cbn [Rsum INR]. rewrite Rminus_0_r, Rminus_diag_eq by reflexivity. rewrite Rabs_R0. unfold g. cbn. lra.
  - specialize (IH (fun t => l (S t)) (fun t => v (S t)) (fun t => z (S t))). cbv beta in IH.
    rewrite !Rsum_front. set (s := Rsum m (fun t => l (S t) * v (S t))) in *. set (w := Rsum m (fun t => Rabs (l (S t) * v (S t)))) in *.
    assert (I : Rabs (z 1%nat - s - z (S m)) <= (g m - 1) * (w + Rabs (z (S m))) + 2 * INR m * g m * eta) by (apply IH; intros t Ht; apply H; lia). clear IH.
    pose proof (H O ltac:(lia)) as H0. set (p := l O * v O) in *.
    assert (Z1 : Rabs (z 1%nat - (z O - rnd p)) <= u * Rabs (z 1%nat) + eta) by (rewrite H0; apply rnd_err_result).
    pose proof (rnd_err p) as Ep. assert (W0 : 0 <= w) by (apply Rsum_nonneg; intros; apply Rabs_pos).
    assert (Sw : Rabs s <= w) by apply Rsum_tri.
    assert (Z1b : Rabs (z 1%nat) <= w + Rabs (z (S m)) + Rabs (z 1%nat - s - z (S m))).
    { replace (z 1%nat) with (s + z (S m) + (z 1%nat - s - z (S m))) at 1 by ring. eapply Rle_trans; [apply Rabs_triang|]. pose proof (Rabs_triang s (z (S m))). lra. }
    replace (z O - (p + s) - z (S m)) with ((z 1%nat - s - z (S m)) + - (z 1%nat - (z O - rnd p)) + (rnd p - p)) by ring.
    eapply Rle_trans; [apply Rabs_triang|]. pose proof (Rabs_triang (z 1%nat - s - z (S m)) (- (z 1%nat - (z O - rnd p)))) as T. rewrite Rabs_Ropp in T.
    rewrite g_S, S_INR. pose proof (g_ge1 m) as G. pose proof (pos_INR m) as N. pose proof (Rabs_pos p) as P. pose proof (Rabs_pos (z (S m))) as Zm.
    set (D := Rabs (z 1%nat - s - z (S m))) in *. set (G1 := g m) in *. set (k := INR m) in *. set (q := Rabs (z (S m))) in *. set (z1 := Rabs (z 1%nat)) in *. set (pa := Rabs p) in *.
    assert (A1 : u * z1 <= u * (w + q + D)) by (apply Rmult_le_compat_l; lra).
    assert (A2 : (1 + u) * D <= (1 + u) * ((G1 - 1) * (w + q) + 2 * k * G1 * eta)) by (apply Rmult_le_compat_l; lra).
    assert (A3 : 0 <= pa * ((1 + u) * (G1 - 1))) by (apply Rmult_le_pos; [exact P|apply Rmult_le_pos; lra]).
    assert (A4 : 0 <= eta * ((1 + u) * G1 - 1)). { apply Rmult_le_pos; [lra|]. assert (0 <= u * G1) by (apply Rmult_le_pos; lra). lra. }
    lra.
Qed.
(** The last product: a quotient. *)
Lemma chain_div m (l v z : nat -> R) p x : (forall t, (t < m)%nat -> z (S t) = rnd (z t - rnd (l t * v t))) -> p <> 0 -> x = rnd (z m / p) ->
  Rabs (z O - Rsum m (fun t => l t * v t) - x * p) <= (g (S m) - 1) * (Rsum m (fun t => Rabs (l t * v t)) + Rabs (x * p)) + (2 * INR m + Rabs p) * g m * eta.
Proof.
  intros H P X. pose proof (chain m l v z H) as C. pose proof eta_pos as E. assert (U : 0 < u) by (unfold u; lra).
  pose proof (rnd_err_result (z m / p)) as Q. rewrite <- X in Q.
  assert (R : Rabs (x * p - z m) <= u * Rabs (x * p) + Rabs p * eta).
  { replace (x * p - z m) with ((x - z m / p) * p) by (field; exact P). rewrite !Rabs_mult. pose proof (Rabs_pos p). nra. }
  set (s := Rsum m (fun t => l t * v t)) in *. set (w := Rsum m (fun t => Rabs (l t * v t))) in *.
  assert (W0 : 0 <= w) by (apply Rsum_nonneg; intros; apply Rabs_pos).
  assert (Zm : Rabs (z m) <= Rabs (x * p) + Rabs (x * p - z m)). { replace (z m) with (x * p + - (x * p - z m)) at 1 by ring. eapply Rle_trans; [apply Rabs_triang|]. rewrite Rabs_Ropp. lra. }
  replace (z O - s - x * p) with ((z O - s - z m) + - (x * p - z m)) by ring. eapply Rle_trans; [apply Rabs_triang|]. rewrite Rabs_Ropp.
  pose proof (g_ge1 m) as G. rewrite g_S. pose proof (Rabs_pos (x * p)) as X0. pose proof (Rabs_pos p) as P0. pose proof (pos_INR m).
  set (D := Rabs (z O - s - z m)) in *. set (e := Rabs (x * p - z m)) in *. set (xp := Rabs (x * p)) in *. set (G1 := g m) in *. set (pa := Rabs p) in *.
  assert (A1 : (G1 - 1) * (w + Rabs (z m)) <= (G1 - 1) * (w + (xp + (u * xp + pa * eta)))) by (apply Rmult_le_compat_l; lra).
  assert (A2 : 0 <= u * G1 * w) by (repeat apply Rmult_le_pos; lra).
  lra.
Qed.

(** One elimination step, entry by entry. *)
Lemma row_fold (k i : nat) f (A : fmat) : i <> k -> forall cols, NoDup cols -> forall r c,
  fold_left (fun A c => set2 A i c (fsub (A i c) (fmul f (A k c)))) cols A r c =
  if andb (Nat.eqb r i) (existsb (Nat.eqb c) cols) then fsub (A i c) (fmul f (A k c)) else A r c.
Proof.
  intros N cols. revert A. induction cols as [|c0 cols IH]; intros A ND r c; cbn [fold_left existsb].
  - rewrite Bool.andb_false_r. reflexivity.
  - inversion ND as [|? ? Nin ND']; subst. rewrite IH by exact ND'. unfold set2. rewrite (proj2 (Nat.eqb_neq k i)) by congruence. cbn [andb]. rewrite Nat.eqb_refl. cbn [andb].
    destruct (Nat.eqb_spec r i) as [->|Nr]; cbn [andb]; [|reflexivity].
    destruct (Nat.eqb_spec c c0) as [->|Nc]; cbn [orb].
    + destruct (existsb (Nat.eqb c0) cols) eqn:Ex; [|reflexivity]. apply existsb_exists in Ex. destruct Ex as (x & Hx & Ex). apply Nat.eqb_eq in Ex. subst x. contradiction.
    + reflexivity.
Qed.
Lemma existsb_seq c s n : existsb (Nat.eqb c) (seq s n) = andb (Nat.leb s c) (Nat.ltb c (s + n)).
Proof.
  apply Bool.eq_iff_eq_true. rewrite existsb_exists, Bool.andb_true_iff, Nat.leb_le, Nat.ltb_lt. split.
  - intros (x & Hx & E). apply Nat.eqb_eq in E. subst x. apply in_seq in Hx. lia.
  - intros H. exists c. split; [apply in_seq; lia|apply Nat.eqb_refl].
Qed.
Lemma subtract_row_spec n k i f (AB : fmat * fmat) : i <> k -> forall r c,
  ((c < n)%nat -> fst (subtract_row n k i f AB) r c = if Nat.eqb r i then fsub (fst AB i c) (fmul f (fst AB k c)) else fst AB r c) /\
  snd (subtract_row n k i f AB) r c = if Nat.eqb r i then fsub (snd AB i c) (fmul f (snd AB k c)) else snd AB r c.
Proof.
  intros N r c. unfold subtract_row. cbn [fst snd]. split; [|reflexivity]. intros Hc. rewrite row_fold by (exact N || apply seq_NoDup).
  rewrite existsb_seq. rewrite (proj2 (Nat.ltb_lt c (0 + n))) by lia. cbn [Nat.leb andb]. rewrite Bool.andb_true_r. reflexivity.
Qed.

(** The multiplier and whether it is skipped. *)
Definition mult (A : fmat) (k i : nat) : f64 := fdiv (A i k) (A k k).
Definition skip (A : fmat) (k i : nat) : bool := flt (Babs (mult A k i)) ftol.
Lemma rows_fold n k (A0 B0 : fmat) : (k < n)%nat -> forall rows, NoDup rows -> (forall i, In i rows -> i <> k) -> forall AB : fmat * fmat,
  (forall r c, In r (k :: rows) -> (c < n)%nat -> fst AB r c = A0 r c) -> (forall r c, In r (k :: rows) -> snd AB r c = B0 r c) ->
  forall r c,
  ((c < n)%nat -> fst (fold_left (eliminate_row n k (A0 k k)) rows AB) r c =
     if andb (existsb (Nat.eqb r) rows) (negb (skip A0 k r)) then fsub (A0 r c) (fmul (mult A0 k r) (A0 k c)) else fst AB r c) /\
  snd (fold_left (eliminate_row n k (A0 k k)) rows AB) r c =
     if andb (existsb (Nat.eqb r) rows) (negb (skip A0 k r)) then fsub (B0 r c) (fmul (mult A0 k r) (B0 k c)) else snd AB r c.
Proof.
  intros Hk rows. induction rows as [|i rows IH]; intros ND NK AB HA HB r c; cbn [fold_left existsb andb]; [split; reflexivity|].
  inversion ND as [|? ? Nin ND']; subst. pose proof (NK i (or_introl eq_refl)) as Nik.
  set (AB' := eliminate_row n k (A0 k k) AB i).
  assert (E : forall r c, ((c < n)%nat -> fst AB' r c = if andb (Nat.eqb r i) (negb (skip A0 k i)) then fsub (A0 i c) (fmul (mult A0 k i) (A0 k c)) else fst AB r c) /\
    snd AB' r c = if andb (Nat.eqb r i) (negb (skip A0 k i)) then fsub (B0 i c) (fmul (mult A0 k i) (B0 k c)) else snd AB r c).
  { intros r' c'. unfold AB', eliminate_row. rewrite (HA i k) by (cbn; auto). fold (mult A0 k i). fold (skip A0 k i).
    destruct (skip A0 k i); cbn [negb]; rewrite ?Bool.andb_false_r, ?Bool.andb_true_r; [split; reflexivity|].
    destruct (subtract_row_spec n k i (mult A0 k i) AB Nik r' c') as [S1 S2]. rewrite S2. split.
    - intros Hc. rewrite S1 by exact Hc. rewrite (HA i c'), (HA k c') by (cbn; auto). reflexivity.
    - rewrite (HB i c'), (HB k c') by (cbn; auto). reflexivity. }
  destruct (IH ND' (fun j Hj => NK j (or_intror Hj)) AB') with (r := r) (c := c) as [I1 I2].
  { intros r' c' Hr Hc. destruct (E r' c') as [E1 _]. rewrite E1 by exact Hc. destruct (Nat.eqb_spec r' i) as [->|_]; [|apply HA; cbn in *; tauto].
    exfalso. destruct Hr as [<-|Hr]; [congruence|contradiction]. }
  { intros r' c' Hr. destruct (E r' c') as [_ E2]. rewrite E2. destruct (Nat.eqb_spec r' i) as [->|_]; [|apply HB; cbn in *; tauto].
    exfalso. destruct Hr as [<-|Hr]; [congruence|contradiction]. }
  destruct (E r c) as [E1 E2]. rewrite I2, E2. split.
  - intros Hc. rewrite I1, E1 by exact Hc. destruct (Nat.eqb_spec r i) as [->|Nr]; cbn [orb andb]; [|reflexivity].
    destruct (existsb (Nat.eqb i) rows) eqn:Ex; cbn [andb]; [|reflexivity]. apply existsb_exists in Ex. destruct Ex as (x & Hx & Ex). apply Nat.eqb_eq in Ex. subst x. contradiction.
  - destruct (Nat.eqb_spec r i) as [->|Nr]; cbn [orb andb]; [|reflexivity].
    destruct (existsb (Nat.eqb i) rows) eqn:Ex; cbn [andb]; [|reflexivity]. apply existsb_exists in Ex. destruct Ex as (x & Hx & Ex). apply Nat.eqb_eq in Ex. subst x. contradiction.
Qed.
Lemma gauss_step_spec n k AB AB' : (k < n)%nat -> gauss_step n k AB = Some AB' -> forall r c, (r < n)%nat ->
  ((c < n)%nat -> fst AB' r c = if andb (Nat.ltb k r) (negb (skip (fst AB) k r)) then fsub (fst AB r c) (fmul (mult (fst AB) k r) (fst AB k c)) else fst AB r c) /\
  snd AB' r c = if andb (Nat.ltb k r) (negb (skip (fst AB) k r)) then fsub (snd AB r c) (fmul (mult (fst AB) k r) (snd AB k c)) else snd AB r c.
Proof.
  intros Hk H r c Hr. unfold gauss_step in H. destruct (Nat.ltb_spec k (n - 1)) as [L|L].
  - destruct (flt _ _); [discriminate|]. injection H as <-.
    destruct (rows_fold n k (fst AB) (snd AB) Hk (seq (k + 1) (n - (k + 1))) (seq_NoDup _ _)) with (AB := AB) (r := r) (c := c) as [R1 R2].
    + intros i Hi. apply in_seq in Hi. lia.
    + reflexivity.
    + reflexivity.
    + rewrite existsb_seq in R1, R2. replace (andb (Nat.leb (k + 1) r) (Nat.ltb r (k + 1 + (n - (k + 1))))) with (Nat.ltb k r) in R1, R2.
      * split; assumption.
      * destruct (Nat.ltb_spec k r), (Nat.leb_spec (k + 1) r), (Nat.ltb_spec r (k + 1 + (n - (k + 1)))); cbn; lia.
  - injection H as <-. destruct (Nat.ltb_spec k r); [lia|]. split; reflexivity.
Qed.

Lemma fdiv_finite (x y : f64) : is_finite (fdiv x y) = true -> is_finite y = true ->
  is_finite x = true /\ B2R y <> 0 /\ B2R (fdiv x y) = rnd (B2R x / B2R y).
Proof.
  intros F Fy. assert (Y : B2R y <> 0 /\ is_finite x = true).
  { destruct y as [s|s| |s m e E]; try discriminate Fy.
    - exfalso. destruct x as [s'|s'| |s' m' e' E']; discriminate F.
    - split; [cbn; apply F2R_neq_0; cbn; destruct s; discriminate|]. destruct x as [s'|s'| |s' m' e' E']; try reflexivity; discriminate F. }
  destruct Y as [Y Fx]. split; [exact Fx|]. split; [exact Y|].
  pose proof (Bdiv_correct 53 1024 prec_ok emax_ok mode_NE x y Y) as C. change (Bdiv mode_NE x y) with (fdiv x y) in C.
  destruct (Rlt_bool _ _) in C; [apply C|]. exfalso. rewrite <- is_finite_SF_B2SF', C, overflow_infinite in F. discriminate.
Qed.
Lemma flt_finite (x y : f64) : is_finite y = true -> flt (Babs x) y = true -> is_finite x = true /\ Rabs (B2R x) < B2R y.
Proof.
  intros Fy H. unfold flt in H. assert (Fx : is_finite x = true).
  { destruct x as [s|s| |s m e E]; try reflexivity; destruct y as [s'|s'| |s' m' e' E']; discriminate. }
  split; [exact Fx|]. rewrite <- B2R_Babs. apply lt_by; [rewrite is_finite_Babs; exact Fx|exact Fy|].
  destruct (Bcompare (Babs x) y) as [[]|]; congruence.
Qed.
Lemma ftol_ok : is_finite ftol = true /\ 0 <= B2R ftol <= / 10 ^ 12.
Proof.
  split; [vm_compute; reflexivity|]. vm_compute B2R. lra.
Qed.

(** Back substitution, row by row. *)
Lemma backsub_row_other n A B X i r : r <> i -> backsub_row n A B X i r = X r.
Proof. intros N. unfold backsub_row. rewrite (proj2 (Nat.eqb_neq r i)) by exact N. reflexivity. Qed.
Lemma backsub_rows_other n A B rows : forall X r, ~ In r rows -> fold_left (backsub_row n A B) rows X r = X r.
Proof.
  induction rows as [|i rows IH]; intros X r N; cbn; [reflexivity|]. rewrite IH by (intros H; apply N; right; exact H).
  apply backsub_row_other. intros ->. apply N. left. reflexivity.
Qed.
Lemma fold_left_ext {S T} (f h : S -> T -> S) l : (forall a x, In x l -> f a x = h a x) -> forall a, fold_left f l a = fold_left h l a.
Proof.
  induction l as [|x l IH]; intros H a; cbn; [reflexivity|]. rewrite (H a x (or_introl eq_refl)). apply IH. intros b y Hy. apply H. right. exact Hy.
Qed.
Lemma backsub_spec n (A : fmat) (B : nat -> f64) i : (i < n)%nat -> let X := backsub n A B in
  X i = fdiv (fold_left (fun r j => fsub r (fmul (A i j) (X j))) (seq (i + 1) (n - (i + 1))) (B i)) (A i i).
Proof.
  intros Hi X. assert (S : rev (seq 0 n) = rev (seq (i + 1) (n - (i + 1))) ++ i :: rev (seq 0 i)).
  { replace n with (i + (1 + (n - (i + 1))))%nat at 1 by lia. rewrite seq_app, seq_app, !rev_app_distr. cbn [seq rev app]. rewrite <- app_assoc. cbn [app]. rewrite !Nat.add_0_l. reflexivity. }
  unfold X at 1, backsub. rewrite S, fold_left_app. cbn [fold_left]. set (P := fold_left _ (rev (seq (i + 1) (n - (i + 1)))) _).
  rewrite backsub_rows_other by (rewrite <- in_rev, in_seq; lia).
  unfold backsub_row. rewrite Nat.eqb_refl. f_equal. apply fold_left_ext. intros r j Hj. apply in_seq in Hj. f_equal. f_equal.
  unfold X, backsub. rewrite S, fold_left_app. cbn [fold_left]. fold P. rewrite backsub_rows_other by (rewrite <- in_rev, in_seq; lia).
  rewrite backsub_row_other by lia. reflexivity.
Qed.

(** A finite result of repeated subtractions: all numbers were finite. *)
Lemma fold_sub (a x : nat -> f64) s m (b : f64) : 
  let z t := fold_left (fun r j => fsub r (fmul (a j) (x j))) (seq s t) b in
  is_finite (z m) = true ->
  (forall t, (t < m)%nat -> B2R (z (S t)) = rnd (B2R (z t) - rnd (B2R (a (s + t)%nat) * B2R (x (s + t)%nat))) /\ is_finite (a (s + t)%nat) = true) /\ is_finite b = true.
Proof.
  intros z. assert (Zs : forall t, z (S t) = fsub (z t) (fmul (a (s + t)%nat) (x (s + t)%nat))).
  { intros t. unfold z. rewrite seq_S, fold_left_app. reflexivity. }
  assert (One : forall t, is_finite (z (S t)) = true -> is_finite (z t) = true /\ B2R (z (S t)) = rnd (B2R (z t) - rnd (B2R (a (s + t)%nat) * B2R (x (s + t)%nat))) /\ is_finite (a (s + t)%nat) = true).
  { intros t F. rewrite Zs in F |- *. set (q := fmul _ _) in *.
    assert (Fq : is_finite (z t) = true /\ is_finite q = true).
    { destruct (z t) as [s1|s1| |s1 m1 e1 E1], q as [s2|s2| |s2 m2 e2 E2]; try (split; reflexivity); try discriminate F; destruct s1, s2; discriminate F. }
    destruct Fq as [Fz Fq]. split; [exact Fz|]. destruct (fmul_finite _ _ Fq) as (Fa & _ & Rq). split; [|exact Fa].
    fold q in Rq. rewrite <- Rq. apply fsub_finite; assumption. }
  intros F. assert (All : forall t, (t <= m)%nat -> is_finite (z t) = true).
  { intros t Ht. replace t with (m - (m - t))%nat by lia. generalize (m - t)%nat. intros d. induction d as [|d IH].
    - rewrite Nat.sub_0_r. exact F.
    - destruct (Nat.le_gt_cases m d) as [L|L]; [replace (m - S d)%nat with (m - d)%nat by lia; exact IH|].
      replace (m - d)%nat with (S (m - S d)) in IH by lia. apply (One _ IH). }
  split.
  - intros t Ht. apply (One t). apply All. lia.
  - apply (All 0%nat). lia.
Qed.
Lemma Rsum_split n i f : (i < n)%nat -> (forall j, (j < i)%nat -> f j = 0) -> Rsum n f = f i + Rsum (n - (i + 1)) (fun t => f (i + 1 + t)%nat).
Proof.
  intros Hi H0. replace n with (i + 1 + (n - (i + 1)))%nat at 1 by lia. generalize (n - (i + 1))%nat. intros m. induction m as [|m IH].
  - rewrite Nat.add_0_r, Nat.add_1_r. cbn [Rsum]. assert (Z : Rsum i f = 0). { clear -H0. induction i as [|i IH]; cbn; [reflexivity|]. rewrite IH, H0 by (intros; try apply H0; lia). lra. } lra.
  - replace (i + 1 + S m)%nat with (S (i + 1 + m)) by lia. cbn [Rsum]. rewrite IH. lra.
Qed.
Lemma Rsum_trunc n i f : (i <= n)%nat -> (forall j, (i <= j < n)%nat -> f j = 0) -> Rsum n f = Rsum i f.
Proof.
  intros Hi. replace n with (i + (n - i))%nat by lia. generalize (n - i)%nat. intros m H. induction m as [|m IH]; [rewrite Nat.add_0_r; reflexivity|].
  replace (i + S m)%nat with (S (i + m)) in * by lia. cbn [Rsum]. rewrite H by lia. rewrite IH by (intros; apply H; lia). lra.
Qed.

(** ** The stages of the elimination *)
Section Stages.
Variables (n : nat) (A B : fmat).
Definition stage (t : nat) : fmat * fmat := match gauss n t (A, B) with Some AB => AB | None => (A, B) end.
Hypothesis run : gauss n n (A, B) <> None.
Lemma gauss_none t d : gauss n t (A, B) = None -> gauss n (t + d) (A, B) = None.
Proof. intros H. induction d as [|d IH]; [rewrite Nat.add_0_r; exact H|]. rewrite Nat.add_succ_r. cbn. rewrite IH. reflexivity. Qed.
Lemma stage_some t : (t <= n)%nat -> gauss n t (A, B) = Some (stage t).
Proof.
  intros Ht. unfold stage. destruct (gauss n t (A, B)) eqn:E; [reflexivity|]. exfalso. apply run.
  replace n with (t + (n - t))%nat at 2 by lia. apply gauss_none, E.
Qed.
Lemma stage_at t : fst (stage t) = at_stage n t A B.
Proof. unfold stage, at_stage. destruct (gauss n t (A, B)); reflexivity. Qed.
Lemma stage_step t : (t < n)%nat -> gauss_step n t (stage t) = Some (stage (S t)).
Proof. intros Ht. pose proof (stage_some (S t) Ht) as H. cbn in H. rewrite (stage_some t) in H by lia. exact H. Qed.
Lemma stage_entry t r c : (t < n)%nat -> (r < n)%nat ->
  ((c < n)%nat -> fst (stage (S t)) r c = if andb (Nat.ltb t r) (negb (skip (fst (stage t)) t r)) then fsub (fst (stage t) r c) (fmul (mult (fst (stage t)) t r) (fst (stage t) t c)) else fst (stage t) r c) /\
  snd (stage (S t)) r c = if andb (Nat.ltb t r) (negb (skip (fst (stage t)) t r)) then fsub (snd (stage t) r c) (fmul (mult (fst (stage t)) t r) (snd (stage t) t c)) else snd (stage t) r c.
Proof. intros Ht Hr. apply gauss_step_spec; [exact Ht|apply stage_step, Ht|exact Hr]. Qed.
Lemma stage_done i d c : (i + d <= n)%nat -> (i < n)%nat -> 
  ((c < n)%nat -> fst (stage (i + d)) i c = fst (stage i) i c) /\ snd (stage (i + d)) i c = snd (stage i) i c.
Proof.
  induction d as [|d IH]; intros H Hi; [rewrite Nat.add_0_r; split; reflexivity|]. rewrite Nat.add_succ_r.
  destruct (stage_entry (i + d) i c ltac:(lia) Hi) as [E1 E2]. destruct (IH ltac:(lia) Hi) as [I1 I2].
  rewrite (proj2 (Nat.ltb_ge (i + d) i)) in E1, E2 by lia. cbn [andb] in E1, E2. rewrite E2. split; [|exact I2].
  intros Hc. rewrite E1 by exact Hc. apply I1, Hc.
Qed.
Lemma stage_final i c : (i < n)%nat -> ((c < n)%nat -> fst (stage i) i c = fst (stage n) i c) /\ snd (stage i) i c = snd (stage n) i c.
Proof.
  intros Hi. destruct (stage_done i (n - i) c ltac:(lia) Hi) as [E1 E2]. replace (i + (n - i))%nat with n in E1, E2 by lia. split; [intros Hc; symmetry; apply E1, Hc|symmetry; exact E2].
Qed.

(** The multipliers. *)
Lemma lower_val i t : (t < i)%nat -> lower n A B i t = if skip (fst (stage t)) t i then 0 else B2R (mult (fst (stage t)) t i).
Proof.
  intros H. unfold lower, skipped. rewrite (proj2 (Nat.eqb_neq i t)) by lia. rewrite (proj2 (Nat.ltb_lt t i)) by exact H.
  unfold skip, mult. rewrite <- !stage_at. reflexivity.
Qed.

(** One entry through the first [m] eliminations: [v t] is the entry of row [t] in that column. *)
Lemma fsub_parts (x y : f64) : is_finite (fsub x y) = true -> is_finite x = true /\ is_finite y = true.
Proof. intros F. destruct x as [s1|s1| |s1 m1 e1 E1], y as [s2|s2| |s2 m2 e2 E2]; try (split; reflexivity); try discriminate F; destruct s1, s2; discriminate F. Qed.
Lemma column (e : nat -> f64) (w : nat -> f64) i m : (i < n)%nat -> (m <= i)%nat ->
  (forall t, (t < m)%nat -> e (S t) = if negb (skip (fst (stage t)) t i) then fsub (e t) (fmul (mult (fst (stage t)) t i) (w t)) else e t) ->
  is_finite (e m) = true ->
  (forall t, (t < m)%nat -> B2R (e (S t)) = rnd (B2R (e t) - rnd (lower n A B i t * B2R (w t))) /\
     (skip (fst (stage t)) t i = false -> is_finite (mult (fst (stage t)) t i) = true)) /\ is_finite (e 0%nat) = true.
Proof.
  intros Hi Hm H F.
  assert (One : forall t, (t < m)%nat -> is_finite (e (S t)) = true -> is_finite (e t) = true /\ B2R (e (S t)) = rnd (B2R (e t) - rnd (lower n A B i t * B2R (w t))) /\
     (skip (fst (stage t)) t i = false -> is_finite (mult (fst (stage t)) t i) = true)).
  { intros t Ht Ft. rewrite lower_val by lia. pose proof (H t Ht) as E. destruct (skip (fst (stage t)) t i); cbn [negb] in E; rewrite E in Ft |- *.
    - split; [exact Ft|]. split; [|discriminate]. rewrite Rmult_0_l, rnd_0, Rminus_0_r, rnd_f64. reflexivity.
    - destruct (fsub_parts _ _ Ft) as [F1 F2]. destruct (fmul_finite _ _ F2) as (F3 & _ & R2). split; [exact F1|]. split; [|intros _; exact F3].
      rewrite <- R2. apply fsub_finite; assumption. }
  assert (All : forall t, (t <= m)%nat -> is_finite (e t) = true).
  { intros t Ht. replace t with (m - (m - t))%nat by lia. generalize (m - t)%nat. intros d. induction d as [|d IH].
    - rewrite Nat.sub_0_r. exact F.
    - destruct (Nat.le_gt_cases m d) as [L|L]; [replace (m - S d)%nat with (m - d)%nat by lia; exact IH|].
      replace (m - d)%nat with (S (m - S d)) in IH by lia. apply (One (m - S d)%nat ltac:(lia) IH). }
  split.
  - intros t Ht. apply (One t Ht). apply All. lia.
  - apply (All 0%nat). lia.
Qed.

(** ** The factors *)
Let U i j := fst (stage n) i j.
Hypothesis pivots : forall i, (i < n)%nat -> is_finite (U i i) = true.

Lemma mat_column i j m : (i < n)%nat -> (j < n)%nat -> (m <= i)%nat -> is_finite (fst (stage m) i j) = true ->
  (forall t, (t < m)%nat -> B2R (fst (stage (S t)) i j) = rnd (B2R (fst (stage t) i j) - rnd (lower n A B i t * B2R (U t j))) /\
     (skip (fst (stage t)) t i = false -> is_finite (mult (fst (stage t)) t i) = true)) /\ is_finite (A i j) = true.
Proof.
  intros Hi Hj Hm F. apply (column (fun t => fst (stage t) i j) (fun t => U t j) i m Hi Hm); [|exact F].
  intros t Ht. destruct (stage_entry t i j ltac:(lia) Hi) as [E _]. rewrite E by exact Hj. rewrite (proj2 (Nat.ltb_lt t i)) by lia. cbn [andb].
  destruct (stage_final t j ltac:(lia)) as [S1 _]. unfold U. rewrite <- S1 by exact Hj. reflexivity.
Qed.
Lemma rhs_column i c : (i < n)%nat -> is_finite (snd (stage n) i c) = true ->
  (forall t, (t < i)%nat -> B2R (snd (stage (S t)) i c) = rnd (B2R (snd (stage t) i c) - rnd (lower n A B i t * B2R (snd (stage n) t c)))) /\ is_finite (B i c) = true.
Proof.
  intros Hi F. destruct (stage_final i c Hi) as [_ S2]. rewrite <- S2 in F.
  destruct (column (fun t => snd (stage t) i c) (fun t => snd (stage n) t c) i i Hi (le_n i)) as [C1 C2]; [|exact F|].
  - intros t Ht. destruct (stage_entry t i c ltac:(lia) Hi) as [_ E]. rewrite E. rewrite (proj2 (Nat.ltb_lt t i)) by lia. cbn [andb].
    destruct (stage_final t c ltac:(lia)) as [_ S3]. rewrite <- S3. reflexivity.
  - split; [intros t Ht; apply (C1 t Ht)|exact C2].
Qed.
Lemma multiplier_finite i t : (t < i)%nat -> (i < n)%nat -> is_finite (mult (fst (stage t)) t i) = true /\ 
  (skip (fst (stage t)) t i = true -> Rabs (B2R (mult (fst (stage t)) t i)) < / 10 ^ 12).
Proof.
  intros Ht Hi. destruct (skip (fst (stage t)) t i) eqn:E.
  - unfold skip in E. destruct (flt_finite _ _ (proj1 ftol_ok) E) as [F1 F2]. split; [exact F1|intros _; destruct ftol_ok; lra].
  - split; [|discriminate]. destruct (stage_final i i Hi) as [S1 _]. 
    destruct (mat_column i i i Hi Hi (le_n i)) as [C _]; [rewrite S1 by exact Hi; apply pivots, Hi|]. apply (C t Ht), E.
Qed.
Definition Low := lower n A B.
Definition Upp := upper n A B.
Lemma Upp_val k j : (k <= j)%nat -> Upp k j = B2R (U k j).
Proof. intros H. unfold Upp, upper. rewrite (proj2 (Nat.leb_le k j)) by exact H. unfold U. rewrite stage_at. reflexivity. Qed.
Lemma Upp_zero k j : (j < k)%nat -> Upp k j = 0.
Proof. intros H. unfold Upp, upper. rewrite (proj2 (Nat.leb_gt k j)) by exact H. reflexivity. Qed.
Lemma Low_zero i k : (i < k)%nat -> Low i k = 0.
Proof. intros H. unfold Low, lower. rewrite (proj2 (Nat.eqb_neq i k)), (proj2 (Nat.ltb_ge k i)) by lia. reflexivity. Qed.
Lemma Low_one i : Low i i = 1.
Proof. unfold Low, lower. rewrite Nat.eqb_refl. reflexivity. Qed.

(** Sums over a row of [L] times a column. *)
Lemma sum_upto i f : (i < n)%nat -> (forall k, (i < k)%nat -> f k = 0) -> Rsum n f = Rsum i f + f i.
Proof. intros Hi H. rewrite (Rsum_trunc n (S i)); [reflexivity|lia|]. intros j Hj. apply H. lia. Qed.

Definition drop := dropped n A B.
Definition G := g n.
Lemma factors i j : (i < n)%nat -> (j < n)%nat -> ((i <= j)%nat -> is_finite (U i j) = true) ->
  Rabs (B2R (A i j) - Rsum n (fun k => Low i k * Upp k j)) <=
    (G - 1) * Rsum n (fun k => Rabs (Low i k * Upp k j)) + G * drop i j * Rabs (Upp j j) + (2 * INR n + Rabs (Upp j j)) * G * eta.
Proof.
  intros Hi Hj F. pose proof eta_pos as E. pose proof (Rabs_pos (Upp j j)) as PU.
  destruct (Nat.le_gt_cases i j) as [L|L].
  - destruct (stage_final i j Hi) as [S1 _]. specialize (F L).
    destruct (mat_column i j i Hi Hj (le_n i)) as [C _]; [rewrite S1 by exact Hj; exact F|].
    pose proof (chain i (fun t => Low i t) (fun t => Upp t j) (fun t => B2R (fst (stage t) i j))) as K. cbv beta in K.
    assert (HK : forall t, (t < i)%nat -> B2R (fst (stage (S t)) i j) = rnd (B2R (fst (stage t) i j) - rnd (Low i t * Upp t j))).
    { intros t Ht. rewrite Upp_val by lia. apply (C t Ht). }
    specialize (K HK). rewrite S1 in K by exact Hj. fold (U i j) in K. rewrite <- Upp_val in K by exact L. change (fst (stage 0) i j) with (A i j) in K.
    rewrite (sum_upto i (fun k => Low i k * Upp k j) Hi) by (intros k Hk; rewrite Low_zero by exact Hk; ring).
    rewrite (sum_upto i (fun k => Rabs (Low i k * Upp k j)) Hi) by (intros k Hk; rewrite Low_zero by exact Hk; rewrite Rmult_0_l; apply Rabs_R0).
    cbv beta. rewrite Low_one, Rmult_1_l.
    assert (D : drop i j = 0) by (unfold drop, dropped; rewrite (proj2 (Nat.ltb_ge j i)) by exact L; reflexivity). rewrite D.
    set (w := Rsum i (fun t => Rabs (Low i t * Upp t j))) in *. assert (W : 0 <= w) by (apply Rsum_nonneg; intros; apply Rabs_pos).
    pose proof (g_mono i n ltac:(lia)) as M. pose proof (g_ge1 i) as G1. fold G in M. pose proof (Rabs_pos (Upp i j)) as P.
    assert (NI : INR i <= INR n) by (apply le_INR; lia). pose proof (pos_INR i) as I0.
    replace (B2R (A i j) - (Rsum i (fun k => Low i k * Upp k j) + Upp i j)) with (B2R (A i j) - Rsum i (fun t => Low i t * Upp t j) - Upp i j) by ring.
    eapply Rle_trans; [exact K|].
    assert (X1 : (g i - 1) * (w + Rabs (Upp i j)) <= (G - 1) * (w + Rabs (Upp i j))) by (apply Rmult_le_compat_r; lra).
    assert (X2 : 2 * INR i * g i * eta <= 2 * INR n * G * eta). { apply Rmult_le_compat_r; [lra|]. apply Rmult_le_compat; lra. }
    assert (X3 : 0 <= Rabs (Upp j j) * G * eta) by (apply Rmult_le_pos; [apply Rmult_le_pos; lra|lra]). lra.
  - destruct (multiplier_finite i j L Hi) as [Fm Sk]. unfold mult in Fm. destruct (stage_final j j Hj) as [S1 _].
    assert (Fp : is_finite (fst (stage j) j j) = true) by (rewrite S1 by exact Hj; apply pivots, Hj).
    destruct (fdiv_finite _ _ Fm Fp) as (Fz & Np & Rq).
    destruct (mat_column i j j Hi Hj (Nat.lt_le_incl _ _ L) Fz) as [C _].
    rewrite S1 in Np, Rq by exact Hj. fold (U j j) in Np, Rq. rewrite <- Upp_val in Np, Rq by lia.
    assert (HK : forall t, (t < j)%nat -> B2R (fst (stage (S t)) i j) = rnd (B2R (fst (stage t) i j) - rnd (Low i t * Upp t j))).
    { intros t Ht. rewrite Upp_val by lia. apply (C t Ht). }
    pose proof (chain_div j (fun t => Low i t) (fun t => Upp t j) (fun t => B2R (fst (stage t) i j)) (Upp j j) (B2R (mult (fst (stage j)) j i)) HK Np) as K.
    cbv beta in K. change (fst (stage 0) i j) with (A i j) in K.
    assert (Q : B2R (mult (fst (stage j)) j i) = rnd (B2R (fst (stage j) i j) / Upp j j)). { unfold mult. rewrite S1 by exact Hj. exact Rq. }
    specialize (K Q). clear Q.
    rewrite (sum_upto j (fun k => Low i k * Upp k j) Hj) by (intros k Hk; rewrite Upp_zero by exact Hk; ring).
    rewrite (sum_upto j (fun k => Rabs (Low i k * Upp k j)) Hj) by (intros k Hk; rewrite Upp_zero by exact Hk; rewrite Rmult_0_r; apply Rabs_R0).
    cbv beta. set (w := Rsum j (fun t => Rabs (Low i t * Upp t j))) in *. assert (W : 0 <= w) by (apply Rsum_nonneg; intros; apply Rabs_pos).
    set (s := Rsum j (fun t => Low i t * Upp t j)) in *. set (p := Upp j j) in *. set (q := B2R (mult (fst (stage j)) j i)) in *.
    pose proof (g_mono (S j) n ltac:(lia)) as M. pose proof (g_mono j n ltac:(lia)) as M'. pose proof (g_ge1 (S j)) as G1. pose proof (g_ge1 j) as G1'. fold G in M, M'.
    assert (NI : INR j <= INR n) by (apply le_INR; lia). pose proof (pos_INR j) as I0. pose proof (Rabs_pos (q * p)) as P.
    assert (X1 : (g (S j) - 1) * (w + Rabs (q * p)) <= (G - 1) * (w + Rabs (q * p))) by (apply Rmult_le_compat_r; lra).
    assert (X2 : (2 * INR j + Rabs p) * g j * eta <= (2 * INR n + Rabs p) * G * eta). { apply Rmult_le_compat_r; [lra|]. apply Rmult_le_compat; lra. }
    assert (Dr : drop i j = if skip (fst (stage j)) j i then Rabs q else 0).
    { unfold drop, dropped. rewrite (proj2 (Nat.ltb_lt j i)) by exact L. unfold q, skipped, skip, mult. rewrite <- !stage_at. reflexivity. }
    assert (Lo : Low i j = if skip (fst (stage j)) j i then 0 else q) by (apply lower_val, L). rewrite Dr, Lo.
    destruct (skip (fst (stage j)) j i).
    + rewrite Rmult_0_l, Rabs_R0.
      replace (B2R (A i j) - (s + 0)) with ((B2R (A i j) - s - q * p) + q * p) by ring. eapply Rle_trans; [apply Rabs_triang|].
      rewrite Rabs_mult in *. lra.
    + replace (B2R (A i j) - (s + q * p)) with (B2R (A i j) - s - q * p) by ring. lra.
Qed.

(** ** Substitution *)
Variable c : nat.
Let Y i := snd (stage n) i c.
Let X := backsub n (fst (stage n)) Y.
Hypothesis solution : forall i, (i < n)%nat -> is_finite (X i) = true.

Lemma row_back i : (i < n)%nat ->
  (forall j, (i <= j)%nat -> (j < n)%nat -> is_finite (U i j) = true) /\ is_finite (Y i) = true /\
  Rabs (B2R (Y i) - Rsum n (fun j => Upp i j * B2R (X j))) <= (G - 1) * Rsum n (fun j => Rabs (Upp i j * B2R (X j))) + (2 * INR n + Rabs (Upp i i)) * G * eta.
Proof.
  intros Hi. pose proof (backsub_spec n (fst (stage n)) Y i Hi) as E. cbv zeta in E. fold X in E.
  pose proof (solution i Hi) as F. rewrite E in F.
  set (m := (n - (i + 1))%nat) in *.
  pose (z := fun t => fold_left (fun r j => fsub r (fmul (U i j) (X j))) (seq (i + 1) t) (Y i)).
  change (fold_left _ _ _) with (z m) in E, F. destruct (fdiv_finite _ _ F (pivots i Hi)) as (Fz & Np & Rx).
  destruct (fold_sub (U i) X (i + 1) m (Y i) Fz) as [C FY].
  assert (Fu : forall j, (i <= j)%nat -> (j < n)%nat -> is_finite (U i j) = true).
  { intros j H1 H2. destruct (Nat.eq_dec i j) as [<-|N]; [apply pivots, Hi|].
    destruct (C (j - (i + 1))%nat ltac:(unfold m; lia)) as [_ H]. replace (i + 1 + (j - (i + 1)))%nat with j in H by lia. exact H. }
  split; [exact Fu|]. split; [exact FY|].
  pose proof (chain_div m (fun t => Upp i (i + 1 + t)) (fun t => B2R (X (i + 1 + t)%nat)) (fun t => B2R (z t)) (Upp i i) (B2R (X i))) as K. cbv beta in K.
  assert (K1 : forall t, (t < m)%nat -> B2R (z (S t)) = rnd (B2R (z t) - rnd (Upp i (i + 1 + t) * B2R (X (i + 1 + t)%nat)))).
  { intros t Ht. rewrite Upp_val by lia. apply (C t Ht). }
  assert (K2 : Upp i i = B2R (U i i)) by (apply Upp_val; lia).
  assert (K3 : B2R (X i) = rnd (B2R (z m) / Upp i i)) by (rewrite K2, E; exact Rx).
  specialize (K K1 ltac:(rewrite K2; exact Np) K3). change (z 0%nat) with (Y i) in K.
  rewrite (Rsum_split n i (fun j => Upp i j * B2R (X j)) Hi) by (intros j Hj; rewrite Upp_zero by exact Hj; ring).
  rewrite (Rsum_split n i (fun j => Rabs (Upp i j * B2R (X j))) Hi) by (intros j Hj; rewrite Upp_zero by exact Hj; rewrite Rmult_0_l; apply Rabs_R0).
  cbv beta. fold m. set (s := Rsum m (fun t => Upp i (i + 1 + t) * B2R (X (i + 1 + t)%nat))) in *.
  set (w := Rsum m (fun t => Rabs (Upp i (i + 1 + t) * B2R (X (i + 1 + t)%nat)))) in *. assert (W : 0 <= w) by (apply Rsum_nonneg; intros; apply Rabs_pos).
  replace (B2R (Y i) - (Upp i i * B2R (X i) + s)) with (B2R (Y i) - s - B2R (X i) * Upp i i) by ring.
  rewrite (Rmult_comm (Upp i i) (B2R (X i))). eapply Rle_trans; [exact K|].
  pose proof (g_mono (S m) n ltac:(unfold m; lia)) as M. pose proof (g_mono m n ltac:(unfold m; lia)) as M'. pose proof (g_ge1 (S m)) as G1. pose proof (g_ge1 m) as G1'. fold G in M, M'.
  assert (NI : INR m <= INR n) by (apply le_INR; unfold m; lia). pose proof (pos_INR m) as I0. pose proof (Rabs_pos (B2R (X i) * Upp i i)) as P. pose proof eta_pos as Ep. pose proof (Rabs_pos (Upp i i)) as PU.
  assert (X1 : (g (S m) - 1) * (w + Rabs (B2R (X i) * Upp i i)) <= (G - 1) * (w + Rabs (B2R (X i) * Upp i i))) by (apply Rmult_le_compat_r; lra).
  assert (X2 : (2 * INR m + Rabs (Upp i i)) * g m * eta <= (2 * INR n + Rabs (Upp i i)) * G * eta). { apply Rmult_le_compat_r; [lra|]. apply Rmult_le_compat; lra. }
  lra.
Qed.
Lemma row_forward i : (i < n)%nat ->
  Rabs (B2R (B i c) - Rsum n (fun k => Low i k * B2R (Y k))) <= (G - 1) * Rsum n (fun k => Rabs (Low i k * B2R (Y k))) + 2 * INR n * G * eta.
Proof.
  intros Hi. destruct (row_back i Hi) as (_ & FY & _). destruct (rhs_column i c Hi FY) as [C _].
  pose proof (chain i (fun t => Low i t) (fun t => B2R (Y t)) (fun t => B2R (snd (stage t) i c)) C) as K. cbv beta in K.
  change (snd (stage 0) i c) with (B i c) in K. destruct (stage_final i c Hi) as [_ S2]. rewrite S2 in K. fold (Y i) in K.
  rewrite (sum_upto i (fun k => Low i k * B2R (Y k)) Hi) by (intros k Hk; rewrite Low_zero by exact Hk; ring).
  rewrite (sum_upto i (fun k => Rabs (Low i k * B2R (Y k))) Hi) by (intros k Hk; rewrite Low_zero by exact Hk; rewrite Rmult_0_l; apply Rabs_R0).
  cbv beta. rewrite Low_one, Rmult_1_l. set (w := Rsum i (fun t => Rabs (Low i t * B2R (Y t)))) in *. assert (W : 0 <= w) by (apply Rsum_nonneg; intros; apply Rabs_pos).
  replace (B2R (B i c) - (Rsum i (fun k => Low i k * B2R (Y k)) + B2R (Y i))) with (B2R (B i c) - Rsum i (fun t => Low i t * B2R (Y t)) - B2R (Y i)) by ring.
  eapply Rle_trans; [exact K|]. pose proof (g_mono i n ltac:(lia)) as M. pose proof (g_ge1 i) as G1. fold G in M. pose proof eta_pos as Ep.
  assert (NI : INR i <= INR n) by (apply le_INR; lia). pose proof (pos_INR i) as I0. pose proof (Rabs_pos (B2R (Y i))).
  assert (X1 : (g i - 1) * (w + Rabs (B2R (Y i))) <= (G - 1) * (w + Rabs (B2R (Y i)))) by (apply Rmult_le_compat_r; lra).
  assert (X2 : 2 * INR i * g i * eta <= 2 * INR n * G * eta). { apply Rmult_le_compat_r; [lra|]. apply Rmult_le_compat; lra. }
  lra.
Qed.

(** ** The residual *)
Let x j := B2R (X j).
Let T k := (2 * INR n + Rabs (Upp k k)) * G * eta.
Let W i := Rsum n (fun k => Rabs (Low i k) * Rsum n (fun j => Rabs (Upp k j) * Rabs (x j))).
Lemma residual i : (i < n)%nat ->
  Rabs (B2R (B i c) - Rsum n (fun j => B2R (A i j) * x j)) <=
    (G - 1) * (G + 2) * W i + G * Rsum n (fun j => drop i j * (Rabs (Upp j j) * Rabs (x j)))
    + (2 * INR n * G * eta + G * Rsum n (fun k => Rabs (Low i k) * T k) + Rsum n (fun j => T j * Rabs (x j))).
Proof.
  intros Hi. set (y k := B2R (Y k)). pose proof (g_ge1 n) as G1. fold G in G1. pose proof eta_pos as Ep. pose proof (pos_INR n) as N0.
  assert (T0 : forall k, 0 <= T k). { intros k. unfold T. pose proof (Rabs_pos (Upp k k)). apply Rmult_le_pos; [apply Rmult_le_pos; lra|lra]. }
  set (V k := Rsum n (fun j => Rabs (Upp k j) * Rabs (x j))).
  assert (BK : forall k, (k < n)%nat -> Rabs (y k - Rsum n (fun j => Upp k j * x j)) <= (G - 1) * V k + T k).
  { intros k Hk. destruct (row_back k Hk) as (_ & _ & R). unfold V. rewrite (Rsum_ext n (fun j => Rabs (Upp k j) * Rabs (x j)) (fun j => Rabs (Upp k j * x j))); [exact R|]. intros j _. symmetry. apply Rabs_mult. }
  assert (YB : forall k, (k < n)%nat -> Rabs (y k) <= G * V k + T k).
  { intros k Hk. pose proof (BK k Hk) as R. pose proof (Rsum_tri n (fun j => Upp k j * x j)) as Q. cbv beta in Q.
    rewrite (Rsum_ext n (fun j => Rabs (Upp k j * x j)) (fun j => Rabs (Upp k j) * Rabs (x j))) in Q by (intros; apply Rabs_mult). fold (V k) in Q.
    replace (y k) with ((y k - Rsum n (fun j => Upp k j * x j)) + Rsum n (fun j => Upp k j * x j)) by ring. eapply Rle_trans; [apply Rabs_triang|]. lra. }
  (* the three parts *)
  assert (P1 : Rabs (B2R (B i c) - Rsum n (fun k => Low i k * y k)) <= (G - 1) * (G * W i + Rsum n (fun k => Rabs (Low i k) * T k)) + 2 * INR n * G * eta).
  { eapply Rle_trans; [apply (row_forward i Hi)|]. apply Rplus_le_compat_r, Rmult_le_compat_l; [lra|].
    unfold W. rewrite <- Rsum_scale, <- Rsum_add. apply Rsum_mono. intros k Hk. fold (V k). rewrite Rabs_mult. fold (y k).
    replace (G * (Rabs (Low i k) * V k) + Rabs (Low i k) * T k) with (Rabs (Low i k) * (G * V k + T k)) by ring.
    apply Rmult_le_compat_l; [apply Rabs_pos|apply YB, Hk]. }
  assert (P2 : Rabs (Rsum n (fun k => Low i k * y k) - Rsum n (fun k => Low i k * Rsum n (fun j => Upp k j * x j))) <= (G - 1) * W i + Rsum n (fun k => Rabs (Low i k) * T k)).
  { replace (_ - _) with (Rsum n (fun k => Low i k * (y k - Rsum n (fun j => Upp k j * x j)))).
    - eapply Rle_trans; [apply Rsum_tri|]. unfold W. rewrite <- Rsum_scale, <- Rsum_add. apply Rsum_mono. intros k Hk. fold (V k). rewrite Rabs_mult.
      replace ((G - 1) * (Rabs (Low i k) * V k) + Rabs (Low i k) * T k) with (Rabs (Low i k) * ((G - 1) * V k + T k)) by ring.
      apply Rmult_le_compat_l; [apply Rabs_pos|apply BK, Hk].
    - rewrite (Rsum_ext n _ (fun k => Low i k * y k + (-1) * (Low i k * Rsum n (fun j => Upp k j * x j)))) by (intros; ring).
      rewrite Rsum_add, Rsum_scale. ring. }
  assert (SW : Rsum n (fun k => Low i k * Rsum n (fun j => Upp k j * x j)) = Rsum n (fun j => Rsum n (fun k => Low i k * Upp k j) * x j)).
  { rewrite (Rsum_ext n _ (fun k => Rsum n (fun j => Low i k * Upp k j * x j))).
    - rewrite Rsum_swap. apply Rsum_ext. intros j _. rewrite (Rsum_ext n _ (fun k => x j * (Low i k * Upp k j))) by (intros; ring). rewrite Rsum_scale. ring.
    - intros k _. rewrite <- Rsum_scale. apply Rsum_ext. intros; ring. }
  assert (SA : W i = Rsum n (fun j => Rsum n (fun k => Rabs (Low i k * Upp k j)) * Rabs (x j))).
  { unfold W. rewrite (Rsum_ext n _ (fun k => Rsum n (fun j => Rabs (Low i k * Upp k j) * Rabs (x j)))).
    - rewrite Rsum_swap. apply Rsum_ext. intros j _. rewrite (Rsum_ext n _ (fun k => Rabs (x j) * Rabs (Low i k * Upp k j))) by (intros; ring). rewrite Rsum_scale. ring.
    - intros k _. rewrite <- Rsum_scale. apply Rsum_ext. intros j _. rewrite Rabs_mult. ring. }
  assert (P3 : Rabs (Rsum n (fun k => Low i k * Rsum n (fun j => Upp k j * x j)) - Rsum n (fun j => B2R (A i j) * x j)) <=
    (G - 1) * W i + G * Rsum n (fun j => drop i j * (Rabs (Upp j j) * Rabs (x j))) + Rsum n (fun j => T j * Rabs (x j))).
  { rewrite SW. replace (_ - _) with (Rsum n (fun j => - (B2R (A i j) - Rsum n (fun k => Low i k * Upp k j)) * x j)).
    - eapply Rle_trans; [apply Rsum_tri|]. rewrite SA, <- !Rsum_scale, <- !Rsum_add. apply Rsum_mono. intros j Hj. rewrite Rabs_mult, Rabs_Ropp.
      pose proof (factors i j Hi Hj) as Fb. specialize (Fb ltac:(intros L; destruct (row_back i Hi) as (Fu & _); apply Fu; assumption)). fold (T j) in Fb.
      pose proof (Rabs_pos (x j)) as Xj. apply (Rmult_le_compat_r _ _ _ Xj) in Fb. lra.
    - rewrite (Rsum_ext n _ (fun j => Rsum n (fun k => Low i k * Upp k j) * x j + (-1) * (B2R (A i j) * x j))) by (intros; ring).
      rewrite Rsum_add, Rsum_scale. ring. }
  replace (B2R (B i c) - Rsum n (fun j => B2R (A i j) * x j)) with
    ((B2R (B i c) - Rsum n (fun k => Low i k * y k)) + (Rsum n (fun k => Low i k * y k) - Rsum n (fun k => Low i k * Rsum n (fun j => Upp k j * x j)))
     + (Rsum n (fun k => Low i k * Rsum n (fun j => Upp k j * x j)) - Rsum n (fun j => B2R (A i j) * x j))) by ring.
  eapply Rle_trans; [apply Rabs_triang|]. eapply Rle_trans; [apply Rplus_le_compat_r, Rabs_triang|]. lra.
Qed.

End Stages.

(** ** Property C105 *)
Lemma g_small n : (Z.of_nat n < 2 ^ 50)%Z -> g n <= 8 / 7 /\ g n - 1 <= 8 / 7 * (INR n * u).
Proof.
  intros H. assert (B : forall m, g m * (1 - INR m * u) <= 1).
  { intros m. induction m as [|m IH]; [unfold g; cbn; lra|]. rewrite g_S, S_INR. pose proof (g_ge1 m) as G1. pose proof (pos_INR m) as P. assert (U : 0 < u) by (unfold u; lra).
    assert (0 <= g m * ((INR m + 1) * (u * u))). { apply Rmult_le_pos; [lra|]. apply Rmult_le_pos; [lra|]. apply Rmult_le_pos; lra. } lra. }
  assert (N : INR n * u <= 1 / 8).
  { rewrite INR_IZR_INZ. assert (IZR (Z.of_nat n) <= IZR (2 ^ 50)) by (apply IZR_le; lia). cbn in H0. unfold u. lra. }
  specialize (B n). pose proof (g_ge1 n) as G1. pose proof (pos_INR n) as P. assert (U : 0 <= INR n * u) by (apply Rmult_le_pos; [exact P|unfold u; lra]).
  assert (L : g n <= 8 / 7). { assert (g n * (7 / 8) <= g n * (1 - INR n * u)) by (apply Rmult_le_compat_l; lra). lra. }
  split; [exact L|]. assert (g n * (INR n * u) <= 8 / 7 * (INR n * u)) by (apply Rmult_le_compat_r; lra). lra.
Qed.
Lemma dropped_small n A B i j : 0 <= dropped n A B i j < / 10 ^ 12.
Proof.
  unfold dropped. destruct (Nat.ltb j i); cbn [andb]; [|lra]. destruct (skipped n A B i j) eqn:S; [|lra]. split; [apply Rabs_pos|].
  unfold skipped in S. destruct ftol_ok as [F T]. destruct (flt_finite _ _ F S) as [_ L]. lra.
Qed.

(** A solution that is returned, finite and with finite pivots, leaves in every equation a
    residual bounded by the rounding errors of the triangular factors, the multipliers that
    were skipped because they are below 1e-12, and terms of the order of 2^-1073. *)
Theorem C105_residual_partial : forall n (A B X : fmat) c, (Z.of_nat n < 2 ^ 50)%Z -> linsolve n A B = Some X ->
  (forall i, (i < n)%nat -> is_finite (at_stage n n A B i i) = true) -> (forall i, (i < n)%nat -> is_finite (X i c) = true) ->
  let L := lower n A B in let U := upper n A B in let x j := B2R (X j c) in
  forall i, (i < n)%nat -> (forall j, dropped n A B i j < / 10 ^ 12) /\
  Rabs (B2R (B i c) - Rsum n (fun j => B2R (A i j) * x j)) <=
    INR n * bpow radix2 (-51) * Rsum n (fun k => Rabs (L i k) * Rsum n (fun j => Rabs (U k j) * Rabs (x j)))
    + 2 * Rsum n (fun j => dropped n A B i j * (Rabs (U j j) * Rabs (x j)))
    + bpow radix2 (-1073) * (INR n + Rsum n (fun k => Rabs (L i k) * (INR n + Rabs (U k k))) + Rsum n (fun j => (INR n + Rabs (U j j)) * Rabs (x j))).
Proof.
  intros n A B X c Hn Run Piv Fin L U x i Hi. split; [intros j; apply dropped_small|]. unfold linsolve in Run. destruct (gauss n n (A, B)) as [[U0 Y0]|] eqn:E; [|discriminate]. injection Run as <-.
  assert (R : gauss n n (A, B) <> None) by congruence. assert (St : stage n A B n = (U0, Y0)) by (unfold stage; rewrite E; reflexivity).
  pose proof (residual n A B R) as K. rewrite St in K. cbn [fst snd] in K.
  specialize (K ltac:(intros k Hk; pose proof (Piv k Hk) as P; unfold at_stage in P; rewrite E in P; exact P) c Fin i Hi).
  assert (K' : Rabs (B2R (B i c) - Rsum n (fun j => B2R (A i j) * x j)) <=
    (G n - 1) * (G n + 2) * Rsum n (fun k => Rabs (L i k) * Rsum n (fun j => Rabs (U k j) * Rabs (x j)))
    + G n * Rsum n (fun j => drop n A B i j * (Rabs (U j j) * Rabs (x j)))
    + (2 * INR n * G n * eta + G n * Rsum n (fun k => Rabs (L i k) * ((2 * INR n + Rabs (U k k)) * G n * eta)) + Rsum n (fun j => (2 * INR n + Rabs (U j j)) * G n * eta * Rabs (x j)))) by exact K.
  eapply Rle_trans; [exact K'|]. clear K K'. destruct (g_small n Hn) as [G1 G2]. unfold G. pose proof (g_ge1 n) as G0. pose proof eta_pos as Ep. pose proof (pos_INR n) as N0.
  set (w := Rsum n (fun k => Rabs (L i k) * Rsum n (fun j => Rabs (U k j) * Rabs (x j)))).
  assert (W : 0 <= w). { apply Rsum_nonneg. intros k _. apply Rmult_le_pos; [apply Rabs_pos|]. apply Rsum_nonneg. intros j _. apply Rmult_le_pos; apply Rabs_pos. }
  change (drop n A B i) with (dropped n A B i).
  set (d := Rsum n (fun j => dropped n A B i j * (Rabs (U j j) * Rabs (x j)))). assert (D : 0 <= d).
  { apply Rsum_nonneg. intros j _. apply Rmult_le_pos; [apply dropped_small|apply Rmult_le_pos; apply Rabs_pos]. }
  rewrite (Rsum_ext n (fun k => Rabs (L i k) * ((2 * INR n + Rabs (U k k)) * g n * eta)) (fun k => g n * eta * (Rabs (L i k) * (2 * INR n + Rabs (U k k))))) by (intros; ring).
  rewrite (Rsum_ext n (fun j => (2 * INR n + Rabs (U j j)) * g n * eta * Rabs (x j)) (fun j => g n * eta * ((2 * INR n + Rabs (U j j)) * Rabs (x j)))) by (intros; ring).
  rewrite !Rsum_scale.
  assert (S1 : Rsum n (fun k => Rabs (L i k) * (2 * INR n + Rabs (U k k))) <= 2 * Rsum n (fun k => Rabs (L i k) * (INR n + Rabs (U k k)))).
  { rewrite <- Rsum_scale. apply Rsum_mono. intros k _. pose proof (Rabs_pos (L i k)). pose proof (Rabs_pos (U k k)). nra. }
  assert (S2 : Rsum n (fun j => (2 * INR n + Rabs (U j j)) * Rabs (x j)) <= 2 * Rsum n (fun j => (INR n + Rabs (U j j)) * Rabs (x j))).
  { rewrite <- Rsum_scale. apply Rsum_mono. intros k _. pose proof (Rabs_pos (x k)). pose proof (Rabs_pos (U k k)). nra. }
  set (p := Rsum n (fun k => Rabs (L i k) * (INR n + Rabs (U k k)))) in *. set (q := Rsum n (fun j => (INR n + Rabs (U j j)) * Rabs (x j))) in *.
  assert (Pp : 0 <= p). { apply Rsum_nonneg. intros k _. pose proof (Rabs_pos (U k k)). apply Rmult_le_pos; [apply Rabs_pos|lra]. }
  assert (Pq : 0 <= q). { apply Rsum_nonneg. intros k _. pose proof (Rabs_pos (U k k)). apply Rmult_le_pos; [lra|apply Rabs_pos]. }
  set (p' := Rsum n (fun k => Rabs (L i k) * (2 * INR n + Rabs (U k k)))) in *. set (q' := Rsum n (fun j => (2 * INR n + Rabs (U j j)) * Rabs (x j))) in *.
  replace (bpow radix2 (-1073)) with (4 * eta) by (rewrite <- eta_bpow; symmetry; exact (bpow_plus radix2 2 (-1075))).
  assert (F1 : (g n - 1) * (g n + 2) <= INR n * bpow radix2 (-51)).
  { change (bpow radix2 (-51)) with (/ 2251799813685248). unfold u in G2. assert ((g n - 1) * (g n + 2) <= (g n - 1) * (22 / 7)) by (apply Rmult_le_compat_l; lra). lra. }
  apply Rplus_le_compat; [apply Rplus_le_compat|].
  - apply Rmult_le_compat_r; assumption.
  - apply Rmult_le_compat_r; [exact D|]. lra.
  - assert (Q1 : 2 * INR n * g n <= 4 * INR n) by nra. assert (Q2 : g n * (g n * p') <= 64 / 49 * p').
    { rewrite <- Rmult_assoc. apply Rmult_le_compat_r; [|nra]. unfold p'. apply Rsum_nonneg. intros k _. pose proof (Rabs_pos (U k k)). apply Rmult_le_pos; [apply Rabs_pos|lra]. }
    assert (Q3 : g n * q' <= 8 / 7 * q'). { apply Rmult_le_compat_r; [|lra]. unfold q'. apply Rsum_nonneg. intros k _. pose proof (Rabs_pos (U k k)). apply Rmult_le_pos; [lra|apply Rabs_pos]. }
    apply Rle_trans with (eta * (2 * INR n * g n + g n * (g n * p') + g n * q')); [right; ring|].
    replace (4 * eta * (INR n + p + q)) with (eta * (4 * (INR n + p + q))) by ring. apply Rmult_le_compat_l; lra.
Qed.
Print Assumptions C105_residual_partial.

(** The factors are those of a matrix close to the given one, relative to their product. *)
Theorem C105_factors_partial : forall n (A B : fmat), (Z.of_nat n < 2 ^ 50)%Z -> gauss n n (A, B) <> None ->
  (forall i j, (i <= j)%nat -> (j < n)%nat -> is_finite (at_stage n n A B i j) = true) ->
  let L := lower n A B in let U := upper n A B in
  forall i j, (i < n)%nat -> (j < n)%nat ->
  Rabs (B2R (A i j) - Rsum n (fun k => L i k * U k j)) <=
    INR n * bpow radix2 (-52) * Rsum n (fun k => Rabs (L i k * U k j))
    + 2 * dropped n A B i j * Rabs (U j j)
    + bpow radix2 (-1073) * (INR n + Rabs (U j j)).
Proof.
  intros n A B Hn R Fin L U i j Hi Hj. pose proof (factors n A B R) as K.
  specialize (K ltac:(intros k Hk; rewrite stage_at; apply Fin; [lia|exact Hk]) i j Hi Hj).
  specialize (K ltac:(intros Le; rewrite stage_at; apply Fin; assumption)). change (Low n A B) with L in K. change (Upp n A B) with U in K.
  eapply Rle_trans; [exact K|]. clear K. destruct (g_small n Hn) as [G1 G2]. unfold G. pose proof (g_ge1 n) as G0. pose proof eta_pos as Ep. pose proof (pos_INR n) as N0.
  pose proof (Rabs_pos (U j j)) as P. set (w := Rsum n (fun k => Rabs (L i k * U k j))). assert (W : 0 <= w) by (apply Rsum_nonneg; intros; apply Rabs_pos).
  replace (bpow radix2 (-1073)) with (4 * eta) by (rewrite <- eta_bpow; symmetry; exact (bpow_plus radix2 2 (-1075))).
  change (bpow radix2 (-52)) with (/ 4503599627370496). unfold u in G2. apply Rplus_le_compat; [apply Rplus_le_compat|].
  - apply Rmult_le_compat_r; lra.
  - apply Rmult_le_compat_r; [exact P|]. unfold drop. destruct (dropped_small n A B i j) as [D _]. apply Rmult_le_compat_r; lra.
  - apply Rle_trans with (eta * ((2 * INR n + Rabs (U j j)) * g n)); [right; ring|].
    replace (4 * eta * (INR n + Rabs (U j j))) with (eta * (4 * (INR n + Rabs (U j j)))) by ring. apply Rmult_le_compat_l; [lra|].
    assert ((2 * INR n + Rabs (U j j)) * g n <= (2 * INR n + Rabs (U j j)) * (8 / 7)) by (apply Rmult_le_compat_l; lra). lra.
Qed.
Print Assumptions C105_factors_partial.

(** No bound by the entries of the matrix and of the solution: pivots down to 1e-12 are
    accepted and rows are never exchanged.  In the system of two equations with the rows
    (2^-39, 1) and (3, 7) and the right-hand side (1, 2), the second equation is missed by
    more than 1e-4. *)
Definition table (l : list (list f64)) : fmat := fun i j => nth j (nth i l []) (of_int 0).
Definition bad : fmat := table [[fdiv (of_int 1) (of_int 549755813888); of_int 1]; [of_int 3; of_int 7]].
Definition bad_rhs : fmat := table [[of_int 1]; [of_int 2]].
Lemma value_of (x : f64) y : B2SF x = y -> B2R x = SF2R radix2 y.
Proof. intros <-. symmetry. apply SF2R_B2SF. Qed.
Lemma small_entry : B2R (fdiv (of_int 1) (of_int 549755813888)) = / 549755813888.
Proof.
  assert (E : B2SF (fdiv (of_int 1) (of_int 549755813888)) = SpecFloat.S754_finite false 4503599627370496 (-91)) by (vm_compute; reflexivity).
  rewrite (value_of _ _ E). cbn. unfold F2R. cbn. lra.
Qed.
Theorem C105_refuted : exists n A B X, linsolve n A B = Some X /\
  (forall i j, (i < n)%nat -> (j < n)%nat -> is_finite (A i j) = true /\ Rabs (B2R (A i j)) <= 7) /\
  (forall i, (i < n)%nat -> is_finite (X i 0%nat) = true /\ Rabs (B2R (X i 0%nat)) <= 2) /\
  exists i, (i < n)%nat /\ / 10 ^ 4 < Rabs (B2R (B i 0%nat) - Rsum n (fun j => B2R (A i j) * B2R (X j 0%nat))).
Proof.
  exists 2%nat, bad, bad_rhs.
  pose (X := match linsolve 2 bad bad_rhs with Some X => X | None => bad end). exists X. split.
  { unfold X. assert (S : match linsolve 2 bad bad_rhs with Some _ => true | None => false end = true) by (vm_compute; reflexivity).
    destruct (linsolve 2 bad bad_rhs); [reflexivity|discriminate]. }
  assert (X0 : B2R (X 0%nat 0%nat) = SF2R radix2 (SpecFloat.S754_finite true 7505816127012864 (-52))) by (apply value_of; vm_compute; reflexivity).
  assert (X1 : B2R (X 1%nat 0%nat) = SF2R radix2 (SpecFloat.S754_finite false 4503599627384149 (-52))) by (apply value_of; vm_compute; reflexivity).
  pose proof small_entry as V0.
  assert (F0 : is_finite (X 0%nat 0%nat) = true) by (vm_compute; reflexivity). assert (F1 : is_finite (X 1%nat 0%nat) = true) by (vm_compute; reflexivity).
  clearbody X. cbn in X0, X1. unfold F2R in X0, X1. cbn in X0, X1.
  assert (V1 : B2R (of_int 1) = 1) by (apply of_int_ok; lia). assert (V2 : B2R (of_int 2) = 2) by (apply of_int_ok; lia).
  assert (V3 : B2R (of_int 3) = 3) by (apply of_int_ok; lia). assert (V7 : B2R (of_int 7) = 7) by (apply of_int_ok; lia).
  split; [|split].
  - intros i j Hi Hj. destruct i as [|[|i]]; [| |lia]; (destruct j as [|[|j]]; [| |lia]); (split; [vm_compute; reflexivity|]);
      unfold bad, table; cbn [nth]; rewrite ?V1, ?V3, ?V7; try (rewrite Rabs_pos_eq by lra; lra).
  - intros i Hi. destruct i as [|[|i]]; [| |lia]; (split; [assumption|]).
    + rewrite X0. apply Rabs_le. lra.
    + rewrite X1. apply Rabs_le. lra.
  - exists 1%nat. split; [lia|]. cbn [Rsum]. rewrite X0, X1. unfold bad, bad_rhs, table. cbn [nth]. rewrite V2, V3, V7.
    apply Rlt_le_trans with (Rabs (- (10001 / 100000000))); [rewrite Rabs_Ropp, Rabs_pos_eq; lra|]. rewrite !Rabs_left; lra.
Qed.
Print Assumptions C105_refuted.

(** The example of the documentation meets the hypotheses; the solution is not exact. *)
Definition doc : fmat := table [[of_int 3; of_int 1; of_int 2]; [of_int 1; of_int 1; of_int 1]; [of_int 2; of_int 1; of_int 2]].
Definition doc_rhs : fmat := table [[of_int 11]; [of_int 6]; [of_int 10]].
Example C105_met : exists X, linsolve 3 doc doc_rhs = Some X /\
  (forall i, (i < 3)%nat -> is_finite (at_stage 3 3 doc doc_rhs i i) = true) /\ (forall i, (i < 3)%nat -> is_finite (X i 0%nat) = true) /\
  (forall i j, (i <= j)%nat -> (j < 3)%nat -> is_finite (at_stage 3 3 doc doc_rhs i j) = true) /\
  map (fun i => B2SF (X i 0%nat)) [0%nat; 1%nat; 2%nat] =
    [SpecFloat.S754_finite false 9007199254740989 (-53); SpecFloat.S754_finite false 9007199254740991 (-52); SpecFloat.S754_finite false 6755399441055745 (-51)].
Proof.
  pose (X := match linsolve 3 doc doc_rhs with Some X => X | None => doc end). exists X. split.
  { unfold X. assert (S : match linsolve 3 doc doc_rhs with Some _ => true | None => false end = true) by (vm_compute; reflexivity).
    destruct (linsolve 3 doc doc_rhs); [reflexivity|discriminate]. }
  split; [|split; [|split]].
  - intros i Hi. destruct i as [|[|[|i]]]; [| | |lia]; vm_compute; reflexivity.
  - intros i Hi. destruct i as [|[|[|i]]]; [| | |lia]; vm_compute; reflexivity.
  - intros i j Hi Hj. destruct j as [|[|[|j]]]; [| | |lia]; (destruct i as [|[|[|i]]]; try lia); vm_compute; reflexivity.
  - vm_compute. reflexivity.
Qed.
