(** Property C90: comparing tensors with np.allclose and np.isclose; what other functions
    of NumPy do with tensors. *)
Set Warnings "-notation-overridden,-ambiguous-paths".
From Verif Require Import Prelude TensorModel TensorSpec TensorProofs NumpyModel.
From mathcomp Require Import all_ssreflect all_algebra.
Set Implicit Arguments.
Unset Strict Implicit.
Unset Printing Implicit Defensive.
Import Order.TTheory GRing.Theory Num.Theory.
Local Open Scope ring_scope.

(** Two tensors, given in any frames, are compared by their ambient components. *)
Theorem C90_comparison : forall (F : realFieldType) (rtol atol : F) (n : nat) (norm : 'rV[F]_n -> F),
  0 <= rtol -> 0 <= atol -> forall r (a b : tensor F n r) V W rt at_, describes a V -> describes b W ->
  (exists2 ans, np_allclose rtol atol norm (TensorArg a) (TensorArg b) rt at_ = Ok ans &
     ans <-> forall c, `|V c - W c| <= at_ + rt * `|W c|) /\
  (exists2 ans, np_isclose rtol atol norm (TensorArg a) (TensorArg b) rt at_ = Ok ans &
     forall c, ans c <-> `|V c - W c| <= at_ + rt * `|W c|).
Proof.
move=> F rtol atol n norm R0 A0 r a b V W rt at_ Ha Hb.
rewrite /np_allclose /np_isclose /= !(show_ambient_describes norm R0 A0 Ha) !(show_ambient_describes norm R0 A0 Hb) /=.
split; eexists; [by []| |by []|].
  split=> [/forallP H c|H]; first exact: H.
  by apply/forallP.
by move=> c; rewrite ffunE.
Qed.
Print Assumptions C90_comparison.

(** Hence the same tensor in two frames is close to itself, and with zero tolerances
    only tensors that are the same are. *)
Theorem C90_same_tensor : forall (F : realFieldType) (rtol atol : F) (n : nat) (norm : 'rV[F]_n -> F),
  0 <= rtol -> 0 <= atol -> forall r (a b : tensor F n r) V W, describes a V -> describes b W ->
  (forall rt at_, 0 <= rt -> 0 <= at_ -> V = W -> np_allclose rtol atol norm (TensorArg a) (TensorArg b) rt at_ = Ok true) /\
  (np_allclose rtol atol norm (TensorArg a) (TensorArg b) 0 0 = Ok true -> V = W).
Proof.
move=> F rtol atol n norm R0 A0 r a b V W Ha Hb; split=> [rt at_ r0 a0 E|].
  have [[ans -> H] _] := C90_comparison norm R0 A0 rt at_ Ha Hb.
  suff -> : ans by []. apply/H => c; rewrite E subrr normr0; apply: addr_ge0 => //.
  by apply: mulr_ge0 => //; exact: normr_ge0.
have [[ans -> H] _] := C90_comparison norm R0 A0 0 0 Ha Hb; case=> E.
have K : forall c, `|V c - W c| <= 0 + 0 * `|W c| by apply/H; rewrite E.
apply/ffunP => c; have := K c; rewrite mul0r addr0 normr_le0 subr_eq0.
by move/eqP.
Qed.
Print Assumptions C90_same_tensor.

(** A number is compared with every ambient component; anything else is rejected, and so
    are all functions and universal functions that are not supported. *)
Theorem C90_dispatch : forall (F : realFieldType) (rtol atol : F) (n : nat) (norm : 'rV[F]_n -> F),
  0 <= rtol -> 0 <= atol -> forall r (a : tensor F n r) V x rt at_, describes a V ->
  (exists2 ans, np_allclose rtol atol norm (TensorArg a) (NumberArg x) rt at_ = Ok ans &
     ans <-> forall c, `|V c - x| <= at_ + rt * `|x|) /\
  (forall y : arg F n r, np_allclose rtol atol norm y OtherArg rt at_ = Err TypeError /\
                         np_allclose rtol atol norm OtherArg y rt at_ = Err TypeError) /\
  (forall f call out, f <> Negative -> array_ufunc f call out a = Err InvalidTensorOperationError) /\
  (forall call out, ~~ call || out -> exists e, array_ufunc Negative call out a = Err e).
Proof.
move=> F rtol atol n norm R0 A0 r a V x rt at_ Ha; split; last split; last split.
- rewrite /np_allclose /= (show_ambient_describes norm R0 A0 Ha) /=; eexists; first by [].
  split=> [/forallP H c|H]; first by have := H c; rewrite ffunE.
  by apply/forallP => c; rewrite ffunE; exact: H.
- by move=> y; rewrite /np_allclose /= andbF.
- by case.
- by move=> [] [] //= _; eexists.
Qed.
Print Assumptions C90_dispatch.

(** The negated tensor describes the negated ambient tensor. *)
Theorem C90_negative : forall (F : realFieldType) (n r : nat) (a : tensor F n r) V, describes a V ->
  exists2 b, neg_ a = Ok b & describes b (- V) /\ frame_of b = frame_of a.
Proof.
move=> F n r a V H; eexists; first by []. split=> // c; rewrite !ffunE (H c) -sumrN; apply: eq_bigr => d _.
by rewrite ffunE mulNr.
Qed.
Print Assumptions C90_negative.

(** The product with a number works from the right only. *)
Theorem C90_left_product_refuted : forall (F : realFieldType) (n r : nat) (a : tensor F n r) x V, describes a V ->
  (exists2 b, mul_right a x = Ok b & describes b [ffun c => V c * x]) /\
  mul_left x a = Err InvalidTensorOperationError.
Proof.
move=> F n r a x V H; split=> //; eexists; first by []. move=> c; rewrite !ffunE (H c) big_distrl; apply: eq_bigr => d _.
by rewrite ffunE /= -mulrA [_ * x]mulrC mulrA.
Qed.
Print Assumptions C90_left_product_refuted.

(** The hypotheses are met: every tensor describes an ambient tensor. *)
Example C90_met : forall (F : realFieldType) n r (T : tensor F n r), exists V, describes T V.
Proof. exact describes_exists. Qed.
