(** When the elimination solvers succeed, and what [reduce] returns. *)
From Coq Require Import Field.
From Verif Require Import Prelude OField SolveModel SolveSpec SolveProofs.

Section S.
Context {F : ofield}.
Add Field SolveRF : (of_field F).
Local Notation mat := (mat (F := F)).
Local Notation fmat := (fmat (F := F)).

Section Runs.
Variables (n : nat) (pb : nat -> bool) (pv : nat -> F) (m : meth) (A B : mat).

Lemma eliminate_app ptol dtol l1 l2 (AB : mat * mat) : eliminate n ptol dtol pb pv m (l1 ++ l2) AB =
  let '(AB1, r) := eliminate n ptol dtol pb pv m l1 AB in
  match r with Ok _ => eliminate n ptol dtol pb pv m l2 AB1 | Err e => (AB1, Err e) end.
Proof.
  revert AB. induction l1 as [|e l1 IH]; intros AB; [reflexivity|]. cbn [app]. rewrite !eliminate_cons.
  destruct (one_step n ptol dtol pb pv m e AB) as [AB1 r]. destruct r; [apply IH|reflexivity].
Qed.
Lemma eliminate_one ptol dtol e (AB : mat * mat) : eliminate n ptol dtol pb pv m [e] AB = one_step n ptol dtol pb pv m e AB.
Proof. rewrite eliminate_cons. destruct (one_step n ptol dtol pb pv m e AB) as [AB1 [[]|]]; reflexivity. Qed.

(** The run that accepts every pivot and skips nothing. *)
Definition exact_run (s : nat) : mat * mat := fst (eliminate n zero zero pb pv m (seq 0 s) (A, B)).

Lemma exact_step s (AB : mat * mat) : one_step n zero zero pb pv m s AB = (fst (one_step n zero zero pb pv m s AB), Ok tt).
Proof.
  unfold one_step. assert (Hz : forall p : F, ltb (absf p) zero = false) by (intros p; apply ltb_false, abs_nonneg).
  destruct (pb s); [reflexivity|]. destruct m; [unfold jordan_step; rewrite Hz; reflexivity|].
  unfold gauss_step. destruct (s <? n - 1); [rewrite Hz|]; reflexivity.
Qed.
Lemma exact_run_ok s : eliminate n zero zero pb pv m (seq 0 s) (A, B) = (exact_run s, Ok tt).
Proof.
  unfold exact_run. induction s as [|s IH]; [reflexivity|]. rewrite seq_S, eliminate_app, IH. cbn [Nat.add]. rewrite eliminate_one, exact_step. reflexivity.
Qed.
Lemma exact_run_S s : exact_run (S s) = fst (one_step n zero zero pb pv m s (exact_run s)).
Proof. unfold exact_run at 1. rewrite seq_S, eliminate_app, exact_run_ok. cbn [Nat.add]. rewrite eliminate_one. reflexivity. Qed.

(** A run with a positive pivot tolerance is the exact one as long as the pivots are large enough. *)
Definition checked (s : nat) : Prop := m = Jordan \/ s < n - 1.
Lemma step_same (ptol : F) s (AB : mat * mat) : (pb s = false -> checked s -> leb ptol (absf (fst AB s s)) = true) ->
  one_step n ptol zero pb pv m s AB = one_step n zero zero pb pv m s AB.
Proof.
  intros H. unfold one_step. assert (Hz : forall p : F, ltb (absf p) zero = false) by (intros p; apply ltb_false, abs_nonneg).
  destruct (pb s); [reflexivity|]. unfold checked in H. destruct m.
  - unfold jordan_step. rewrite Hz. specialize (H eq_refl (or_introl eq_refl)). apply ltb_false in H. rewrite H. reflexivity.
  - unfold gauss_step. destruct (Nat.ltb_spec s (n - 1)) as [Hl|]; [|reflexivity]. rewrite Hz.
    specialize (H eq_refl (or_intror Hl)). apply ltb_false in H. rewrite H. reflexivity.
Qed.
Lemma run_same ptol s : (forall i, i < s -> pb i = false -> checked i -> leb ptol (absf (fst (exact_run i) i i)) = true) ->
  eliminate n ptol zero pb pv m (seq 0 s) (A, B) = (exact_run s, Ok tt).
Proof.
  induction s as [|s IH]; intros H; [reflexivity|]. rewrite seq_S, eliminate_app, IH by auto. cbn [Nat.add].
  rewrite eliminate_one, step_same by auto. rewrite exact_run_S. apply exact_step.
Qed.
(** Conversely a successful run is the exact one and its pivots are large enough. *)
Lemma run_ok_same (ptol : F) s (U : mat * mat) : s <= n -> eliminate n ptol zero pb pv m (seq 0 s) (A, B) = (U, Ok tt) ->
  U = exact_run s /\ forall i, i < s -> pb i = false -> checked i -> leb ptol (absf (fst (exact_run i) i i)) = true.
Proof.
  revert U. induction s as [|s IH]; intros U Hs E; [cbn in E; injection E as <-; split; [reflexivity|intros i Hi; lia]|].
  rewrite seq_S, eliminate_app in E. destruct (eliminate n ptol zero pb pv m (seq 0 s) (A, B)) as [U1 r] eqn:E1.
  destruct r as [[]|]; [|discriminate E]. destruct (IH U1 ltac:(lia) eq_refl) as [-> IHp]. cbn [Nat.add] in E. rewrite eliminate_one in E.
  assert (Hpiv : pb s = false -> checked s -> leb ptol (absf (fst (exact_run s) s s)) = true).
  { intros Hp Hc. destruct (exact_run s) as [A1 B1]. destruct (free_step n ptol zero pb pv m s A1 B1 U ltac:(lia) Hp E) as [H _]. apply H. exact Hc. }
  split.
  - rewrite step_same in E by exact Hpiv. rewrite exact_run_S, E. reflexivity.
  - intros i Hi. destruct (Nat.eq_dec i s) as [->|]; [exact Hpiv|apply IHp; lia].
Qed.

Lemma min_positive (f : nat -> F) (P : nat -> bool) s : (forall i, i < s -> P i = true -> leb (f i) zero = false) ->
  exists d : F, leb d zero = false /\ forall i, i < s -> P i = true -> leb d (f i) = true.
Proof.
  induction s as [|s IH]; intros H.
  - exists one. split; [apply lt_0_1|lia].
  - destruct (IH (fun i Hi => H i ltac:(lia))) as (d & Hd & Hm). destruct (P s) eqn:Ep.
    + specialize (H s (le_n _) Ep). destruct (leb d (f s)) eqn:E.
      * exists d. split; [exact Hd|]. intros i Hi Hp. destruct (Nat.eq_dec i s) as [->|]; [exact E|apply Hm; [lia|exact Hp]].
      * exists (f s). split; [exact H|]. intros i Hi Hp. destruct (Nat.eq_dec i s) as [->|]; [apply le_refl|].
        apply (le_trans F _ d); [apply lt_le; exact E|apply Hm; [lia|exact Hp]].
    + exists d. split; [exact Hd|]. intros i Hi Hp. destruct (Nat.eq_dec i s) as [->|]; [congruence|apply Hm; [lia|exact Hp]].
Qed.

(** A common lower bound for nonzero pivots. *)
Lemma pivots_bound s : (forall i, i < s -> pb i = false -> fst (exact_run i) i i <> zero) ->
  exists d : F, leb d zero = false /\ forall i, i < s -> pb i = false -> leb d (absf (fst (exact_run i) i i)) = true.
Proof.
  intros H. destruct (min_positive (fun i => absf (fst (exact_run i) i i)) (fun i => negb (pb i)) s) as (d & Hd & Hm).
  - intros i Hi Hp. apply negb_true_iff in Hp. apply not_true_is_false. intros Hle. apply (H i Hi Hp).
    apply abs_eq_0. apply (le_antisym F); [exact Hle|apply abs_nonneg].
  - exists d. split; [exact Hd|]. intros i Hi Hp. apply Hm; [exact Hi|]. rewrite Hp. reflexivity.
Qed.

(** *** Homogeneous systems along the exact run *)
Lemma hom_step s (A1 B1 : mat) (y : nat -> F) : s < n -> (forall i, i < n -> pb i = true -> y i = zero) ->
  exists fac : nat -> F, (pb s = true -> forall r, fac r = zero) /\ fac s = zero /\
  forall r, r < n -> row_dot n (fst (fst (one_step n zero zero pb pv m s (A1, B1)))) y r =
     sub (row_dot n A1 y r) (mul (fac r) (row_dot n A1 y s)).
Proof.
  intros Hs Hy. destruct (pb s) eqn:Hp.
  - exists (fun _ => zero). split; [auto|]. split; [reflexivity|]. intros r Hr. unfold one_step. rewrite Hp. cbn [fst].
    destruct (prescribe_spec n pv s A1 B1 ltac:(lia)) as [P1 _]. cbn zeta in P1.
    rewrite (row_dot_split n y A1 s r Hs), (Hy s Hs Hp).
    rewrite (row_dot_split n y (fst (prescribe n pv s (A1, B1))) s r Hs), (Hy s Hs Hp).
    rewrite (row_dot_ext n y (fun r c => if c =? s then zero else fst (prescribe n pv s (A1, B1)) r c) (fun r c => if c =? s then zero else A1 r c) r).
    + ring.
    + intros j Hj. destruct (Nat.eqb_spec j s) as [->|Hne]; [reflexivity|]. rewrite P1 by exact Hr.
      destruct (Nat.eqb_spec j s); [congruence|]. rewrite andb_false_r. reflexivity.
  - destruct (free_step n zero zero pb pv m s A1 B1 (fst (one_step n zero zero pb pv m s (A1, B1))) Hs Hp (exact_step s (A1, B1))) as (_ & fac & F0 & F1 & _).
    exists fac. split; [discriminate|]. split; [exact F0|]. intros r Hr. unfold row_dot.
    rewrite (sum_ext F n _ (fun j => sub (mul (A1 r j) (y j)) (mul (fac r) (mul (A1 s j) (y j))))).
    + rewrite sum_sub, sum_scale. reflexivity.
    + intros j Hj. rewrite F1 by assumption. ring.
Qed.

Lemma hom_run s (y : nat -> F) q : s <= q -> q <= n -> (forall i, i < n -> pb i = true -> y i = zero) ->
  (forall r, r < q -> pb r = false -> row_dot n A y r = zero) <->
  (forall r, r < q -> pb r = false -> row_dot n (fst (exact_run s)) y r = zero).
Proof.
  intros Hs Hq Hy. induction s as [|s IH]; [reflexivity|]. rewrite IH by lia. rewrite exact_run_S.
  destruct (exact_run s) as [A1 B1]. cbn [fst]. destruct (hom_step s A1 B1 y ltac:(lia) Hy) as (fac & Fp & F0 & F1).
  split; intros H r Hr Hp.
  - rewrite F1 by lia. rewrite (H r Hr Hp). destruct (pb s) eqn:Es.
    + rewrite (Fp eq_refl). ring.
    + rewrite (H s ltac:(lia) Es). ring.
  - pose proof (H r Hr Hp) as E. rewrite F1 in E by lia. destruct (pb s) eqn:Es.
    + rewrite (Fp eq_refl) in E. transitivity (sub (row_dot n A1 y r) (mul zero (row_dot n A1 y s))); [ring|exact E].
    + pose proof (H s ltac:(lia) Es) as E2. rewrite F1, F0 in E2 by lia.
      assert (E3 : row_dot n A1 y s = zero) by (transitivity (sub (row_dot n A1 y s) (mul zero (row_dot n A1 y s))); [ring|exact E2]).
      rewrite E3 in E. transitivity (sub (row_dot n A1 y r) (mul (fac r) zero)); [ring|exact E].
Qed.

(** A vector that vanishes from [q] on only meets the first [q] columns. *)
Lemma row_dot_short (M : mat) (y : nat -> F) q r : q <= n -> (forall j, q <= j -> y j = zero) -> row_dot n M y r = row_dot q M y r.
Proof.
  intros Hq Hy. unfold row_dot. replace n with (q + (n - q)) by lia. rewrite sum_split.
  rewrite (sum_0 F (n - q)); [ring|]. intros j Hj. rewrite Hy by lia. ring.
Qed.

(** Solve the triangular system of the first [q] rows upwards, with given values from [q] on. *)
Lemma triangular_solve (U : mat) q (tail : nat -> F) : q <= n ->
  (forall r j, j < r -> r < q -> U r j = zero) -> (forall r, r < q -> pb r = false -> U r r <> zero) ->
  exists y, (forall j, q <= j -> y j = tail j) /\
    forall r, r < q -> if pb r then y r = zero else row_dot n U y r = zero.
Proof.
  intros Hq Hlow Hd.
  assert (G : forall d, d <= q -> exists y : nat -> F, (forall j, q <= j -> y j = tail j) /\
     forall r, q - d <= r < q -> if pb r then y r = zero else row_dot n U y r = zero).
  { induction d as [|d IH]; intros Hdq; [exists tail; split; [auto|lia]|].
    destruct (IH ltac:(lia)) as (y & Y1 & Y2). set (s := q - S d).
    set (v := if pb s then zero else opp (div (row_dot n (fun r c => if c =? s then zero else U r c) y s) (U s s))).
    exists (fun j => if j =? s then v else y j). split.
    - intros j Hj. destruct (Nat.eqb_spec j s); [unfold s in *; lia|apply Y1; exact Hj].
    - intros r Hr. assert (Hs : s < q) by (unfold s; lia).
      destruct (Nat.eq_dec r s) as [->|Hne].
      + destruct (pb s) eqn:Hp; [rewrite Nat.eqb_refl; unfold v; rewrite ?Hp; reflexivity|].
        rewrite (row_dot_split n _ U s s) by lia. rewrite Nat.eqb_refl.
        assert (Eq : row_dot n (fun r c => if c =? s then zero else U r c) (fun j => if j =? s then v else y j) s =
                row_dot n (fun r c => if c =? s then zero else U r c) y s).
        { unfold row_dot. apply sum_ext. intros j Hj. destruct (Nat.eqb_spec j s); ring. }
        rewrite Eq. unfold v. field. apply Hd; [exact Hs|exact Hp].
      + specialize (Y2 r ltac:(unfold s in *; lia)). destruct (pb r) eqn:Hp.
        * destruct (Nat.eqb_spec r s); [congruence|exact Y2].
        * rewrite <- Y2. unfold row_dot. apply sum_ext. intros j Hj. destruct (Nat.eqb_spec j s) as [->|]; [|reflexivity].
          rewrite (Hlow r s) by (unfold s in *; lia). ring. }
  destruct (G q (le_n _)) as (y & Y1 & Y2). exists y. split; [exact Y1|]. intros r Hr. apply Y2. lia.
Qed.

(** Regular leading blocks give nonzero pivots, ... *)
Lemma regular_pivots q : q <= n -> (forall k, k <= q -> regular_block k A pb) ->
  forall k, k < q -> pb k = false -> fst (exact_run k) k k <> zero.
Proof.
  intros Hq Hreg k. induction k as [k IH] using (well_founded_induction Wf_nat.lt_wf). intros Hk Hp Hz.
  destruct (pivots_bound k) as (d & Hd & Hm); [intros i Hi Hpi; apply IH; [exact Hi|lia|exact Hpi]|].
  pose proof (run_same d k (fun i Hi Hpi _ => Hm i Hi Hpi)) as E.
  pose proof (eliminate_cleared n d pb pv Hd m k 0 (A, B) (exact_run k) ltac:(lia) E (cleared_0 _ _ _ _ _)) as (C1 & C2 & C3 & _). cbn [Nat.add] in *.
  set (U := fst (exact_run k)) in *.
  destruct (triangular_solve U k (fun j => if j =? k then one else zero)) as (y & Y1 & Y2).
  { lia. } { intros r j Hj Hr. apply C1; lia. }
  { intros r Hr Hpr. apply (pivot_nz d Hd). apply C3; [exact Hr|lia|exact Hpr|right; lia]. }
  assert (Yp : forall i, i < n -> pb i = true -> y i = zero).
  { intros i Hi Hpi. destruct (Nat.lt_ge_cases i k) as [Hlt|Hge].
    - specialize (Y2 i Hlt). rewrite Hpi in Y2. exact Y2.
    - rewrite (Y1 i Hge). destruct (Nat.eqb_spec i k) as [->|]; [congruence|reflexivity]. }
  assert (Yhi : forall j, S k <= j -> y j = zero) by (intros j Hj; rewrite (Y1 j ltac:(lia)); destruct (Nat.eqb_spec j k); [lia|reflexivity]).
  assert (Hrows : forall r, r < S k -> pb r = false -> row_dot n U y r = zero).
  { intros r Hr Hpr. destruct (Nat.eq_dec r k) as [->|Hne].
    - rewrite (row_dot_upper n U k y) by (try lia; intros j Hj; apply C1; lia). rewrite Hz.
      rewrite (sum_0 F); [ring|]. intros t Ht. rewrite Yhi by lia. ring.
    - specialize (Y2 r ltac:(lia)). rewrite Hpr in Y2. exact Y2. }
  pose proof (proj2 (hom_run k y (S k) (Nat.le_succ_diag_r k) ltac:(lia) Yp) Hrows) as HA.
  assert (Hy : solves (S k) A (fun _ => zero) pb (fun _ => zero) y).
  { split; [intros i Hi Hpi; apply Yp; [lia|exact Hpi]|]. intros i Hi Hpi. rewrite <- (row_dot_short A y (S k)) by (try lia; exact Yhi). apply HA; assumption. }
  pose proof (Hreg (S k) ltac:(lia) y Hy k ltac:(lia)) as Hk1. rewrite (Y1 k (le_n _)), Nat.eqb_refl in Hk1. apply (one_nz F). exact Hk1.
Qed.

(** ... and conversely. *)
Lemma pivots_regular q : q <= n -> (forall k, k < q -> pb k = false -> fst (exact_run k) k k <> zero) ->
  forall k, k <= q -> regular_block k A pb.
Proof.
  intros Hq Hpiv k Hk y [Y1 Y2].
  destruct (pivots_bound k) as (d & Hd & Hm); [intros i Hi Hpi; apply Hpiv; [lia|exact Hpi]|].
  pose proof (run_same d k (fun i Hi Hpi _ => Hm i Hi Hpi)) as E.
  pose proof (eliminate_cleared n d pb pv Hd m k 0 (A, B) (exact_run k) ltac:(lia) E (cleared_0 _ _ _ _ _)) as (C1 & _ & C3 & _). cbn [Nat.add] in *.
  assert (Hdiag : forall r, r < k -> pb r = false -> fst (exact_run k) r r <> zero).
  { intros r Hr Hp. destruct (Nat.lt_ge_cases r (n - 1)) as [Hl|Hg].
    - apply (pivot_nz d Hd). apply C3; [exact Hr|lia|exact Hp|right; exact Hl].
    - (* the last pivot *)
      assert (k = S r) by lia. subst k. rewrite exact_run_S. destruct (exact_run r) as [A1 B1] eqn:Er.
      destruct (free_step n zero zero pb pv m r A1 B1 _ ltac:(lia) Hp (exact_step r (A1, B1))) as (_ & fac & F0 & F1 & _).
      rewrite F1, F0 by lia. replace (sub (A1 r r) (mul zero (A1 r r))) with (A1 r r) by ring.
      specialize (Hpiv r ltac:(lia) Hp). rewrite Er in Hpiv. exact Hpiv. }
  set (y' := fun i => if i <? k then if i <? n then y i else zero else zero).
  assert (Ey : forall i, i < k -> y' i = y i) by (intros i Hi; unfold y'; destruct (Nat.ltb_spec i k), (Nat.ltb_spec i n); try lia; reflexivity).
  assert (Yhi : forall j, k <= j -> y' j = zero) by (intros j Hj; unfold y'; destruct (Nat.ltb_spec j k); [lia|reflexivity]).
  assert (Yp : forall i, i < n -> pb i = true -> y' i = zero).
  { intros i Hi Hp. destruct (Nat.lt_ge_cases i k) as [Hl|Hg]; [rewrite Ey by exact Hl; apply Y1; assumption|apply Yhi; exact Hg]. }
  assert (HA : forall r, r < k -> pb r = false -> row_dot n A y' r = zero).
  { intros r Hr Hp. rewrite (row_dot_short A y' k) by (try lia; exact Yhi). rewrite <- (Y2 r Hr Hp). unfold row_dot. apply sum_ext. intros j Hj. rewrite Ey by exact Hj. reflexivity. }
  pose proof (proj1 (hom_run k y' k (le_n _) ltac:(lia) Yp) HA) as HU.
  assert (G : forall len s, s + len = k -> forall i, s <= i < k -> y' i = zero).
  { induction len as [|len IH]; intros s Hs i Hi; [lia|]. destruct (Nat.eq_dec i s) as [->|Hne]; [|apply (IH (S s)); lia].
    destruct (pb s) eqn:Hp; [apply Yp; [lia|exact Hp]|].
    pose proof (HU s ltac:(lia) Hp) as E1. rewrite (row_dot_upper n (fst (exact_run k)) s) in E1 by (try lia; intros j Hj; apply C1; lia).
    rewrite (sum_0 F) in E1.
    - apply (mul_cancel_l F (fst (exact_run k) s s)); [apply Hdiag; [lia|exact Hp]|].
      transitivity (add (mul (fst (exact_run k) s s) (y' s)) zero); [ring|rewrite E1; ring].
    - intros t Ht. destruct (Nat.lt_ge_cases (s + 1 + t) k) as [Hl|Hg].
      + rewrite (IH (S s)) by lia. ring.
      + rewrite Yhi by lia. ring. }
  intros i Hi. rewrite <- (Ey i Hi). apply (G k 0 eq_refl). lia.
Qed.

(** The diagonal of the reduced matrix. *)
Lemma exact_diag : (forall k, k < n -> pb k = false -> fst (exact_run k) k k <> zero) ->
  forall r, r < n -> pb r = false -> fst (exact_run n) r r <> zero.
Proof.
  intros Hpiv.
  destruct (pivots_bound n Hpiv) as (d & Hd & Hm).
  pose proof (run_same d n (fun i Hi Hpi _ => Hm i Hi Hpi)) as E.
  pose proof (eliminate_cleared n d pb pv Hd m n 0 (A, B) (exact_run n) ltac:(lia) E (cleared_0 _ _ _ _ _)) as (C1 & _ & C3 & _). cbn [Nat.add] in *.
  intros r Hr Hp. destruct (Nat.lt_ge_cases r (n - 1)) as [Hl|Hg].
  - apply (pivot_nz d Hd). apply C3; [exact Hr|lia|exact Hp|right; exact Hl].
  - assert (En : n = S r) by lia. rewrite En at 1. rewrite exact_run_S. destruct (exact_run r) as [A1 B1] eqn:Er.
    destruct (free_step n zero zero pb pv m r A1 B1 _ ltac:(lia) Hp (exact_step r (A1, B1))) as (_ & fac & F0 & F1 & _).
    rewrite F1, F0 by lia. replace (sub (A1 r r) (mul zero (A1 r r))) with (A1 r r) by ring.
    specialize (Hpiv r ltac:(lia) Hp). rewrite Er in Hpiv. exact Hpiv.
Qed.
End Runs.

(** ** Success of the solver *)
Section Success.
Variables (m : meth) (n : nat) (A B : mat) (presc : option ((nat -> bool) * (nat -> F))).
Let pb := mask presc.
Let pv := value presc.

Definition solved (ptol dtol : F) (inplace : bool) : Prop :=
  exists AB' X R x, linsolve m ptol dtol n A B presc inplace = (AB', Ok (X, R)) /\ finite n X x.

Lemma regular_solved : (forall k, k <= n -> regular_block k A pb) ->
  exists d : F, leb d zero = false /\ forall ptol dtol inplace, leb ptol zero = false -> leb ptol d = true ->
    nothing_dropped m ptol dtol n A B presc -> solved ptol dtol inplace.
Proof.
  intros Hreg. pose proof (regular_pivots n pb pv m A B n (le_n _) Hreg) as Hpiv.
  destruct (pivots_bound n pb pv m A B n Hpiv) as (d & Hd & Hm). exists d. split; [exact Hd|].
  intros ptol dtol inplace Hpt Hle HN.
  assert (E0 : elimination n ptol zero pb pv m (A, B) = (exact_run n pb pv m A B n, Ok tt)).
  { apply run_same. intros i Hi Hp _. apply (le_trans F _ d); [exact Hle|apply Hm; assumption]. }
  destruct HN as [HS Hr]. fold pb pv in HS, Hr. cbn beta zeta in HS, Hr. rewrite E0 in Hr, HS. cbn [fst snd] in HS, Hr.
  destruct (elimination n ptol dtol pb pv m (A, B)) as [AB r] eqn:E1. cbn [fst snd] in HS, Hr. subst r.
  unfold solved. rewrite linsolve_unfold. fold pb pv. rewrite E1.
  enough (Hex : exists x, finite n (fst (backsub n pb pv AB)) x) by (destruct Hex as [x Hx]; do 4 eexists; split; [reflexivity|exact Hx]).
  pose proof (exact_diag n pb pv m A B Hpiv) as HD.
  pose proof (eliminate_cleared n d pb pv Hd m n 0 (A, B) (exact_run n pb pv m A B n) ltac:(lia)
     (run_same n pb pv m A B d n (fun i Hi Hpi _ => Hm i Hi Hpi)) (cleared_0 _ _ _ _ _)) as (C1 & C2 & _ & _). cbn [Nat.add] in *.
  destruct (exact_run n pb pv m A B n) as [UA UB]. cbn [fst] in *.
  pose proof (backsub_spec n pb pv UA UB (fun r j Hj Hr => C1 r j ltac:(lia) Hj Hr) (fun j Hj => C2 j Hj Hj) HD) as HB. cbn zeta in HB.
  exists (fun i k => value_of (fst (backsub n pb pv (UA, UB))) i k). intros i k Hi. rewrite (proj1 (backsub_ext n pb pv AB (UA, UB) HS i k)). apply (HB i k Hi).
Qed.

Lemma solved_regular ptol dtol inplace : leb ptol zero = false -> nothing_dropped m ptol dtol n A B presc ->
  solved ptol dtol inplace -> forall k, k <= n -> regular_block k A pb.
Proof.
  intros Hpt HN (AB' & X & R & x & E & Hx).
  destruct (reduced m ptol dtol n A B presc inplace Hpt AB' X R HN E) as (U & EU & HC & EX & _).
  destruct (run_ok_same n pb pv m A B ptol n U (le_n _) EU) as [-> Hm].
  apply (pivots_regular n pb pv m A B n (le_n _)). intros k Hk Hp.
  pose proof (reduced_pivots m ptol n presc Hpt _ X HC EX (or_intror (ex_intro _ x Hx)) k Hk Hp) as HD.
  destruct (Nat.lt_ge_cases k (n - 1)) as [Hl|Hg].
  - apply (pivot_nz ptol Hpt). apply Hm; [exact Hk|exact Hp|right; exact Hl].
  - fold pb pv in HD. assert (En : n = S k) by lia. rewrite En in HD at 1. rewrite <- En in HD at 1.
    intros Hz. apply HD.
    replace (exact_run n pb pv m A B n) with (exact_run n pb pv m A B (S k)) by (rewrite <- En; reflexivity).
    rewrite exact_run_S. destruct (exact_run n pb pv m A B k) as [A1 B1] eqn:Er.
    destruct (free_step n zero zero pb pv m k A1 B1 _ Hk Hp (exact_step n pb pv m k (A1, B1))) as (_ & fac & F0 & F1 & _).
    rewrite F1, F0 by lia. cbn [fst] in Hz. rewrite Hz. ring.
Qed.

(** ** reduce *)
Lemma reduce_spec (ptol dtol : F) inplace AB' (UA UB : mat) : leb ptol zero = false -> nothing_dropped m ptol dtol n A B presc ->
  reduce m ptol dtol n A B presc inplace = (AB', Ok (UA, UB)) ->
  (AB' = if inplace then (UA, UB) else (A, B)) /\
  (forall k y, (forall i, i < n -> pb i = true -> y i = pv i) ->
     solves n A (fun i => B i k) pb pv y <-> solves n UA (fun i => UB i k) pb pv y) /\
  (forall r j, j < r -> r < n -> UA r j = zero) /\
  (m = Jordan -> forall r j, r < n -> j < n -> r <> j -> pb j = false -> UA r j = zero) /\
  (m = Jordan -> forall j, j < n -> pb j = false -> UA j j <> zero).
Proof.
  intros Hpt [HS Hr] E. assert (Eu : reduce m ptol dtol n A B presc inplace =
     let '(AB, r) := elimination n ptol dtol pb pv m (A, B) in
     (if inplace then AB else (A, B), match r with Ok _ => Ok AB | Err _ => Err LinAlgError end)).
  { unfold reduce, pb, pv, mask, value. destruct presc as [[? ?]|]; reflexivity. }
  rewrite Eu in E. fold pb pv in HS, Hr. cbn beta zeta in HS, Hr.
  destruct (elimination n ptol dtol pb pv m (A, B)) as [AB r] eqn:E1. cbn [fst snd] in *. destruct r as [[]|]; [|discriminate E].
  injection E as <- ->. split; [reflexivity|].
  destruct (elimination n ptol zero pb pv m (A, B)) as [[VA VB] r0] eqn:E0. cbn [fst snd] in *. subst r0.
  pose proof (elimination_cleared n ptol pb pv Hpt m (A, B) (VA, VB) E0) as (C1 & C2 & C3 & C4). cbn [fst] in *.
  assert (EA : forall i j, i < n -> j < n -> UA i j = VA i j) by (intros i j Hi Hj; apply (HS i Hi); exact Hj).
  assert (EB : forall i k, i < n -> UB i k = VB i k) by (intros i k Hi; apply (HS i Hi)).
  split.
  { intros k y Hy.
    assert (HE := eliminate_res n ptol zero pb pv k y m (seq 0 n) (A, B) (VA, VB) (fun i Hi => proj2 (proj1 (in_seq n 0 i) Hi)) Hy E0).
    destruct HE as (H1 & H2 & _).
    assert (Eq : forall (M N : mat), (forall i, i < n -> pb i = false -> row_dot n M y i = N i k) <-> free_zero n pb k y (M, N)).
    { intros M N. unfold free_zero, res. cbn [fst snd]. split; intros H i Hi Hp.
      - rewrite (H i Hi Hp). ring.
      - apply (proj1 (sub_eq_0 F _ _)). apply H; assumption. }
    unfold solves. rewrite !Eq. split; intros [_ H]; (split; [exact Hy|]).
    - specialize (H2 H). apply Eq. intros i Hi Hp. pose proof (proj2 (Eq VA VB) H2 i Hi Hp) as E2. rewrite EB by exact Hi. rewrite <- E2.
      apply row_dot_ext. intros j Hj. apply EA; assumption.
    - apply H1. apply Eq. intros i Hi Hp. pose proof (proj2 (Eq UA UB) H i Hi Hp) as E2. rewrite <- EB by exact Hi. rewrite <- E2.
      apply row_dot_ext. intros j Hj. symmetry. apply EA; assumption. }
  split; [intros r j Hj Hr'; rewrite EA by lia; apply C1; lia|].
  split; [intros Hm r j Hr' Hj Hne Hp; rewrite EA by lia; apply C4; auto|].
  intros Hm j Hj Hp. rewrite EA by lia. apply (pivot_nz ptol Hpt). apply C3; auto.
Qed.
End Success.
End S.
