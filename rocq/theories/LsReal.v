(** The derivatives of a weighted fit, in the real numbers: the weights, the basis at the
    point and with them the normal matrix depend on a parameter. *)
Set Warnings "-ambiguous-paths".
From Coq Require Import Reals Lra Lia PeanoNat.
From Coquelicot Require Import Coquelicot.
From Verif Require Import LinDeriv.
Local Open Scope R_scope.

Section Fit.
(** [n] points, [k] basis functions, the basis at the points, the data. *)
Variables (n k : nat) (b : nat -> nat -> R) (V : nat -> R) (t0 : R).
Definition matA (w : nat -> R) (r s : nat) : R := rsum n (fun i => b i r * b i s * w i).
Definition rmv (M : nat -> nat -> R) (v : nat -> R) (r : nat) : R := rsum k (fun s => M r s * v s).
Definition valf (gamma : nat -> R) (w : nat -> R) : R := rsum n (fun i => rsum k (fun r => gamma r * (b i r * w i)) * V i).
Definition valg (gamma gammad : nat -> R) (w g : nat -> R) : R :=
  rsum n (fun i => (rsum k (fun r => gammad r * (b i r * w i)) + rsum k (fun r => gamma r * (b i r * g i))) * V i).

(** The weights and their derivative, the inverse matrices. *)
Variables (w : R -> nat -> R) (dw : nat -> R) (X : R -> nat -> nat -> R).
Hypothesis Hw : forall i, (i < n)%nat -> is_derive (fun t => w t i) t0 (dw i).
Hypothesis HX : locally t0 (fun t => forall v r, (r < k)%nat -> rmv (matA (w t)) (rmv (X t) v) r = v r).
Hypothesis HX0 : forall i j, (i < k)%nat -> (j < k)%nat -> rsum k (fun l => X t0 i l * matA (w t0) l j) = delta i j.

Lemma matA_derive r s : is_derive (fun t => matA (w t) r s) t0 (matA dw r s).
Proof.
  unfold matA. apply rsum_derive. intros i Hi. apply is_derive_scal. exact (Hw i Hi).
Qed.
(** The solution for a right hand side that depends on the parameter. *)
Lemma solve_derive (b0 : R -> nat -> R) (db : nat -> R) : (forall r, (r < k)%nat -> is_derive (fun t => b0 t r) t0 (db r)) ->
  forall r, (r < k)%nat -> is_derive (fun t => rmv (X t) (b0 t) r) t0
    (rmv (X t0) (fun l => db l - rmv (matA dw) (rmv (X t0) (b0 t0)) l) r).
Proof.
  intros Hb r Hr.
  exact (solution_derive k t0 (fun t => matA (w t)) (matA dw) (X t0) (fun i j _ _ => matA_derive i j) HX0
    (fun t => rmv (X t) (b0 t)) b0 db Hb
    (filter_imp (fun t => forall v r, (r < k)%nat -> rmv (matA (w t)) (rmv (X t) v) r = v r) _ (fun t H l Hl => H (b0 t) l Hl) HX) r Hr).
Qed.

(** The basis at the point and its derivative. *)
Variables (beta : R -> nat -> R) (dbeta : nat -> R).
Hypothesis Hbeta : forall r, (r < k)%nat -> is_derive (fun t => beta t r) t0 (dbeta r).
Let gamma (t : R) : nat -> R := rmv (X t) (beta t).
Let gammad : nat -> R := rmv (X t0) (fun l => dbeta l - rmv (matA dw) (gamma t0) l).
Lemma gamma_derive r : (r < k)%nat -> is_derive (fun t => gamma t r) t0 (gammad r).
Proof. intros Hr. exact (solve_derive beta dbeta Hbeta r Hr). Qed.

Lemma val_derive : is_derive (fun t => valf (gamma t) (w t)) t0 (valg (gamma t0) gammad (w t0) dw).
Proof.
  unfold valf, valg. apply rsum_derive. intros i Hi.
  evar_last.
  - apply (mult_derive (fun t => rsum k (fun r => gamma t r * (b i r * w t i))) (fun _ => V i)); [|apply (is_derive_const (V i) t0)].
    apply rsum_derive. intros r Hr.
    apply (mult_derive (fun t => gamma t r) (fun t => b i r * w t i)); [exact (gamma_derive r Hr)|].
    apply is_derive_scal. exact (Hw i Hi).
  - cbv beta. unfold zero. cbn. rewrite <- rsum_plus. ring.
Qed.

(** One component of the gradient: its weights, and the derivative of the basis in its
    direction, with their derivatives along the parameter. *)
Variables (g : R -> nat -> R) (dg : nat -> R) (delta1 : R -> nat -> R) (ddelta : nat -> R).
Hypothesis Hg : forall i, (i < n)%nat -> is_derive (fun t => g t i) t0 (dg i).
Hypothesis Hd : forall r, (r < k)%nat -> is_derive (fun t => delta1 t r) t0 (ddelta r).
Let gammaj (t : R) : nat -> R := rmv (X t) (fun l => delta1 t l - rmv (matA (g t)) (gamma t) l).
Let gammajd : nat -> R := rmv (X t0) (fun l => ddelta l - rmv (matA dg) (gamma t0) l - rmv (matA (g t0)) gammad l - rmv (matA dw) (gammaj t0) l).
Lemma matAg_derive r s : is_derive (fun t => matA (g t) r s) t0 (matA dg r s).
Proof. unfold matA. apply rsum_derive. intros i Hi. apply is_derive_scal. exact (Hg i Hi). Qed.
Lemma gammaj_derive r : (r < k)%nat -> is_derive (fun t => gammaj t r) t0 (gammajd r).
Proof.
  intros Hr. evar_last.
  - apply (solve_derive (fun t l => delta1 t l - rmv (matA (g t)) (gamma t) l)
      (fun l => ddelta l - (rmv (matA dg) (gamma t0) l + rmv (matA (g t0)) gammad l))); [|exact Hr].
    intros l Hl. apply (is_derive_minus (fun t => delta1 t l)); [exact (Hd l Hl)|].
    evar_last.
    + apply rsum_derive. intros s Hs. apply (mult_derive (fun t => matA (g t) l s) (fun t => gamma t s)); [apply matAg_derive|exact (gamma_derive s Hs)].
    + cbv beta. rewrite rsum_plus. reflexivity.
  - unfold gammajd. apply rsum_ext. intros l Hl. f_equal. fold (gammaj t0). ring.
Qed.
Lemma grad_derive : is_derive (fun t => valg (gamma t) (gammaj t) (w t) (g t)) t0
  (rsum n (fun i => (rsum k (fun r => gammajd r * (b i r * w t0 i)) + rsum k (fun r => gammaj t0 r * (b i r * dw i)) +
                     rsum k (fun r => gammad r * (b i r * g t0 i)) + rsum k (fun r => gamma t0 r * (b i r * dg i))) * V i)).
Proof.
  unfold valg. apply rsum_derive. intros i Hi.
  evar_last.
  - apply (mult_derive (fun t => rsum k (fun r => gammaj t r * (b i r * w t i)) + rsum k (fun r => gamma t r * (b i r * g t i))) (fun _ => V i)); [|apply (is_derive_const (V i) t0)].
    apply (is_derive_plus (fun t => rsum k (fun r => gammaj t r * (b i r * w t i)))).
    + apply rsum_derive. intros r Hr.
      apply (mult_derive (fun t => gammaj t r) (fun t => b i r * w t i)); [exact (gammaj_derive r Hr)|].
      apply is_derive_scal. exact (Hw i Hi).
    + apply rsum_derive. intros r Hr.
      apply (mult_derive (fun t => gamma t r) (fun t => b i r * g t i)); [exact (gamma_derive r Hr)|].
      apply is_derive_scal. exact (Hg i Hi).
  - cbv beta. unfold zero, plus. cbn. rewrite !rsum_plus. ring.
Qed.
End Fit.
