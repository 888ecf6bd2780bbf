(** The least squares fit: normal equations. *)
From Coq Require Import Field.
From Verif Require Import Prelude OField Inverse LsModel LsSpec.
Local Open Scope nat_scope.

Section Normal.
Context {F : ofield}.
Local Open Scope of_scope.
Add Field FF : (of_field F).

(** ** Normal equations.  n points, k basis functions, [b i] the basis at the point i. *)
Section Core.
Variables (n k : nat) (b : nat -> vec F) (W : nat -> F).
Definition dotk (u v : vec F) : F := sum k (fun r => u r * v r).
Let A : mat F := acc n b W.
Let B : mat F := col b W.
Definition err (v : nat -> F) (c : vec F) : F := sum n (fun i => W i * ((dotk (b i) c - v i) * (dotk (b i) c - v i))).

Lemma A_sym r s : A r s = A s r.
Proof. unfold A, acc. apply sum_ext. intros. ring. Qed.
Lemma A_mv c r : mv k A c r = sum n (fun i => W i * b i r * dotk (b i) c).
Proof.
  unfold mv, A, acc, dotk.
  rewrite (sum_ext F k _ (fun s => sum n (fun i => W i * b i r * (b i s * c s)))).
  - rewrite sum_swap. apply sum_ext. intros i _. rewrite sum_scale. reflexivity.
  - intros s _. rewrite <- sum_scale_r. apply sum_ext. intros. ring.
Qed.
Lemma quad_form c : dotk c (mv k A c) = sum n (fun i => W i * (dotk (b i) c * dotk (b i) c)).
Proof.
  unfold dotk at 1. rewrite (sum_ext F k _ (fun r => sum n (fun i => W i * dotk (b i) c * (b i r * c r)))).
  - rewrite sum_swap. apply sum_ext. intros i _. rewrite sum_scale. unfold dotk. ring.
  - intros r _. rewrite A_mv, <- sum_scale. apply sum_ext. intros. ring.
Qed.
Definition rhs (v : nat -> F) : vec F := fun r => sum n (fun i => B r i * v i).

(** The error of another vector of coefficients. *)
Lemma err_split v c : (forall r, (r < k)%nat -> mv k A c r = rhs v r) ->
  forall c', err v c' = err v c + sum n (fun i => W i * (dotk (b i) (fun r => c' r - c r) * dotk (b i) (fun r => c' r - c r))).
Proof.
  intros N c'.
  assert (D : forall i, dotk (b i) (fun r => c' r - c r) = dotk (b i) c' - dotk (b i) c).
  { intros i. unfold dotk. rewrite <- sum_sub. apply sum_ext. intros. ring. }
  assert (Z : sum n (fun i => W i * (dotk (b i) c - v i) * dotk (b i) (fun r => c' r - c r)) = 0).
  { unfold dotk at 2. rewrite (sum_ext F n _ (fun i => sum k (fun r => W i * (dotk (b i) c - v i) * (b i r * (c' r - c r)))))
      by (intros; rewrite sum_scale; reflexivity).
    rewrite sum_swap. apply sum_0. intros r Hr.
    rewrite (sum_ext F n _ (fun i => (W i * b i r * dotk (b i) c - B r i * v i) * (c' r - c r))) by (intros; unfold B, col; ring).
    rewrite sum_scale_r, sum_sub. rewrite <- A_mv. fold (rhs v r). rewrite N by exact Hr. ring. }
  unfold err.
  transitivity (sum n (fun i => W i * ((dotk (b i) c - v i) * (dotk (b i) c - v i)))
    + sum n (fun i => W i * (dotk (b i) (fun r => c' r - c r) * dotk (b i) (fun r => c' r - c r)))
    + (sum n (fun i => W i * (dotk (b i) c - v i) * dotk (b i) (fun r => c' r - c r))
       + sum n (fun i => W i * (dotk (b i) c - v i) * dotk (b i) (fun r => c' r - c r)))).
  - rewrite <- !sum_add. apply sum_ext. intros i _. rewrite D. ring.
  - rewrite Z. ring.
Qed.

Hypothesis W0 : forall i, (i < n)%nat -> 0 <= W i.
Lemma quad_nonneg c : 0 <= sum n (fun i => W i * (dotk (b i) c * dotk (b i) c)).
Proof. apply sum_nonneg. intros i Hi. apply mul_nonneg; [apply W0; exact Hi|apply square_nonneg]. Qed.
Lemma quad_zero c : sum n (fun i => W i * (dotk (b i) c * dotk (b i) c)) <= 0 ->
  forall i, (i < n)%nat -> 0 < W i -> dotk (b i) c = 0.
Proof.
  intros H i Hi P.
  assert (Z : W i * (dotk (b i) c * dotk (b i) c) = 0).
  { apply (sum_nonneg_0 F n (fun i => W i * (dotk (b i) c * dotk (b i) c))); [|apply le_antisym; [exact H|apply quad_nonneg]|exact Hi].
    intros j Hj. apply mul_nonneg; [apply W0; exact Hj|apply square_nonneg]. }
  apply (mul_eq_0 F) in Z. destruct Z as [Z|Z]; [exfalso; exact (pos_neq F _ P Z)|].
  apply square_eq_0. exact Z.
Qed.

(** Regular exactly when the points of positive weight determine the coefficients. *)
Lemma regular_iff : regular k A <->
  (forall c, (forall i, (i < n)%nat -> 0 < W i -> dotk (b i) c = 0) -> forall r, (r < k)%nat -> c r = 0).
Proof.
  split; intros H c Z.
  - apply H. intros r Hr. rewrite A_mv. apply sum_0. intros i Hi.
    destruct (eq_dec F (W i) 0) as [E|E]; [rewrite E; ring|].
    rewrite (Z i Hi); [ring|]. apply (le_lt_eq F); [apply W0; exact Hi|congruence].
  - apply H. apply quad_zero. rewrite <- quad_form.
    unfold dotk. rewrite sum_0; [apply le_refl|]. intros r Hr. rewrite Z by exact Hr. ring.
Qed.

(** The coefficients that the code computes. *)
Variable X : mat F.
Hypothesis HX : inverse_of k A X.
Definition coef (v : nat -> F) : vec F := mv k X (rhs v).
Lemma coef_normal v r : (r < k)%nat -> mv k A (coef v) r = rhs v r.
Proof. intros Hr. exact (inverse_solve k A X HX (rhs v) r Hr). Qed.
(** The value that the code computes from gamma is the fit with these coefficients. *)
Lemma value_coef v (bx : vec F) : sum n (fun i => vm k (mv k X bx) B i * v i) = dotk bx (coef v).
Proof.
  unfold vm, coef, dotk, rhs.
  rewrite (sum_ext F n _ (fun i => sum k (fun r => mv k X bx r * (B r i * v i)))) by (intros; rewrite <- sum_scale_r; apply sum_ext; intros; ring).
  rewrite sum_swap.
  rewrite (sum_ext F k _ (fun r => sum k (fun s => X s r * bx s * rhs v r))).
  - rewrite sum_swap. apply sum_ext. intros s Hs. unfold mv. rewrite <- sum_scale. apply sum_ext. intros r Hr. unfold rhs. ring.
  - intros r Hr. rewrite sum_scale. fold (rhs v r). unfold mv. rewrite <- sum_scale_r. apply sum_ext. intros s Hs.
    rewrite (inverse_sym k A X HX (fun i j _ _ => A_sym i j) r s Hr Hs). reflexivity.
Qed.
Lemma coef_least v c' : err v (coef v) <= err v c'.
Proof.
  rewrite (err_split v (coef v) (coef_normal v) c').
  apply (le_trans F _ (err v (coef v) + 0)); [replace (err v (coef v) + 0) with (err v (coef v)) by ring; apply le_refl|].
  apply add_le_compat; [apply le_refl|apply quad_nonneg].
Qed.
Lemma coef_unique v c' : err v c' <= err v (coef v) -> forall r, (r < k)%nat -> c' r = coef v r.
Proof.
  intros H r Hr. rewrite (err_split v (coef v) (coef_normal v) c') in H.
  assert (Q : sum n (fun i => W i * (dotk (b i) (fun r => c' r - coef v r) * dotk (b i) (fun r => c' r - coef v r))) <= 0).
  { apply (proj1 (sub_nonneg F _ _)) in H.
    match type of H with 0 <= ?a - (?a + ?q) => apply (opp_nonneg F) in H; replace (- (a - (a + q))) with q in H by ring; exact H end. }
  apply (sub_eq_0 F). exact (proj1 regular_iff (inverse_regular k A X HX) (fun r => c' r - coef v r) (quad_zero _ Q) r Hr).
Qed.
End Core.
End Normal.
