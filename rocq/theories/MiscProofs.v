(** Proofs about MiscModel.v. *)
From Coq Require Import Field.
From Verif Require Import Prelude OField ParallelModel ParallelSpec ParallelProofs KernModel KernProofs MiscModel MiscSpec.
Local Open Scope nat_scope.

(** *** Histograms *)
Lemma cells1 {V} (f : nat -> V) (i : nat) : owned (fun i => [store [i] (f i)]).
Proof. intros k u [<-|[]]. exists []. reflexivity. Qed.
Lemma stores1 {V} (z : V) (N : nat) (f : nat -> V) :
  schedule_independent (zeros z [N]) (map (fun i => [store [i] (f i)]) (range N)) /\
  forall res, prange_run (zeros z [N]) (map (fun i => [store [i] (f i)]) (range N)) res ->
    shape res = [N] /\ forall i, i < N -> at_ res [i] = f i.
Proof.
  pose proof (cells1 f 0) as Ho. split; [apply owned_schedule, Ho|]. intros res Hrun.
  split; [rewrite (prange_shape _ _ _ Hrun); reflexivity|]. intros i Hi.
  rewrite (owned_value _ _ N res i [] Ho Hrun Hi). cbv [exec fold_left step store u_cell u_fun].
  destruct (cell_dec [i] [i]); [reflexivity|congruence].
Qed.

Section Mid.
Context {F : ofield}.
Add Field FF : (of_field F).
Local Open Scope of_scope.
Lemma half_midpoint (a b : F) : midpoint ((a + b) / two) a b.
Proof. unfold midpoint, two. pose proof (@two_nz F) as H. unfold two in H. field. exact H. Qed.
Lemma midpoint_between (m a b : F) : midpoint m a b -> a <= b -> a <= m <= b.
Proof.
  unfold midpoint. intros H Hab. split.
  - destruct (leb a m) eqn:E; [reflexivity|]. exfalso.
    assert (H1 : m + m < a + b).
    { apply (proj2 (sub_pos F _ _)). replace (a + b - (m + m)) with ((a - m) + (b - m)) by ring. apply add_pos; [apply (proj1 (sub_pos F _ _)), E|].
      apply (proj1 (sub_nonneg F m b)). apply le_trans with a; [apply lt_le, E|exact Hab]. }
    rewrite H in H1. exact (lt_irrefl F _ H1).
  - destruct (leb m b) eqn:E; [reflexivity|]. exfalso.
    assert (H1 : a + b < m + m).
    { apply (proj2 (sub_pos F _ _)). replace (m + m - (a + b)) with ((m - b) + (m - a)) by ring. apply add_pos; [apply (proj1 (sub_pos F _ _)), E|].
      apply (proj1 (sub_nonneg F a m)). apply le_trans with b; [exact Hab|apply lt_le, E]. }
    rewrite H in H1. exact (lt_irrefl F _ H1).
Qed.
End Mid.

(** *** squeeze *)
Section Sq.
Context {V : Type}.
Lemma filter_shape sh : filter (fun n => negb (n =? 1)) sh = without_unit_axes sh sh.
Proof.
  induction sh as [|n sh IH]; [reflexivity|]. cbn. destruct (Nat.eq_dec n 1) as [->|H]; cbn; [exact IH|].
  destruct (Nat.eqb_spec n 1); [contradiction|]. cbn. rewrite IH. reflexivity.
Qed.
Lemma no_units sh : ~ In 1 (without_unit_axes sh sh).
Proof. rewrite <- filter_shape. rewrite filter_In. cbn. intros [_ H]. discriminate. Qed.
Lemma keep_inside sh c : inside sh c -> inside (without_unit_axes sh sh) (without_unit_axes sh c).
Proof.
  unfold inside. intros H. induction H as [|i n c sh Hi H IH]; cbn; [constructor|].
  destruct (Nat.eq_dec n 1); [exact IH|]. constructor; assumption.
Qed.
Lemma unsqueeze_keep sh c : inside sh c -> unsqueeze sh (without_unit_axes sh c) = c.
Proof.
  unfold inside. intros H. induction H as [|i n c sh Hi H IH]; cbn; [reflexivity|].
  destruct (Nat.eq_dec n 1) as [->|Hn]; cbn.
  - rewrite IH. f_equal. lia.
  - destruct (Nat.eqb_spec n 1); [contradiction|]. rewrite IH. reflexivity.
Qed.
Lemma keep_onto sh d : inside (without_unit_axes sh sh) d -> exists c, inside sh c /\ without_unit_axes sh c = d.
Proof.
  unfold inside. revert d. induction sh as [|n sh IH]; intros d H; cbn in H.
  - inversion H; subst. exists []. split; [constructor|reflexivity].
  - destruct (Nat.eq_dec n 1) as [->|Hn].
    + destruct (IH d H) as (c & Hc & E). exists (0 :: c). split; [constructor; [lia|exact Hc]|]. cbn. exact E.
    + inversion H as [|i n' d' sh' Hi Hd]; subst. destruct (IH d' Hd) as (c & Hc & E). exists (i :: c).
      split; [constructor; assumption|]. cbn. destruct (Nat.eq_dec n 1); [contradiction|]. rewrite E. reflexivity.
Qed.
Lemma np_squeeze_spec (a : ndarray V) : squeezed a (np_squeeze a).
Proof.
  unfold squeezed, np_squeeze. cbn. rewrite filter_shape. split; [reflexivity|]. split; [apply no_units|]. split.
  - intros c Hc. split; [apply keep_inside, Hc|]. rewrite unsqueeze_keep; [reflexivity|exact Hc].
  - apply keep_onto.
Qed.
End Sq.

(** *** Genom *)
Lemma list_eq_spec a b : list_eq a b = true <-> a = b.
Proof.
  revert b. induction a as [|x a IH]; intros [|y b]; cbn; try (split; [discriminate|discriminate] || tauto).
  rewrite andb_true_iff, IH, Z.eqb_eq. split; [intros [-> ->]; reflexivity|intros E; injection E; auto].
Qed.

(** *** Substitution *)
Ltac nine_cases := intros i j Hi Hj;
  assert (Ei : i = 1 \/ i = 2 \/ i = 3) by lia; assert (Ej : j = 1 \/ j = 2 \/ j = 3) by lia; clear Hi Hj;
  destruct Ei as [->|[->| ->]]; destruct Ej as [->|[->| ->]]; cbn.
Section Sub.
Context {F : ofield}.
Add Field FF2 : (of_field F).
Definition set (p : nat -> nat -> F) (i j : nat) (x : F) : nat -> nat -> F :=
  fun k l => if (k =? i) && (l =? j) then x else p k l.
Lemma val_subs1 (p : nat -> nat -> F) v i j r e : val p v (subs1 i j r e) = val (set p i j (val p v r)) v e.
Proof. induction e; cbn; try congruence. unfold set. destruct ((i0 =? i) && (j0 =? j)); reflexivity. Qed.
Lemma val_free (p q : nat -> nat -> F) v e : free_of_P e -> val p v e = val q v e.
Proof. induction e; cbn; intros H; try destruct H; f_equal; auto; contradiction. Qed.
Lemma val_subs (p : nat -> nat -> F) v d e : Forall (fun x => free_of_P (snd x)) d ->
  val p v (subs d e) = val (fold_right (fun x q => set q (fst (fst x)) (snd (fst x)) (val p v (snd x))) p d) v e.
Proof.
  unfold subs. revert e. induction d as [|[[i j] r] d IH]; intros e H; cbn; [reflexivity|].
  inversion H; subst. rewrite IH by assumption. rewrite val_subs1. cbn.
  rewrite (val_free (fold_right _ _ _) p); [reflexivity|assumption].
Qed.
Lemma product_ext (A A' B B' : nat -> nat -> F) d :
  (forall i j, 1 <= i <= 3 -> 1 <= j <= 3 -> A i j = A' i j) -> (forall i j, 1 <= i <= 3 -> 1 <= j <= 3 -> B i j = B' i j) ->
  product_is A B d -> product_is A' B' d.
Proof. intros HA HB H i j Hi Hj. rewrite <- (H i j Hi Hj), <- !HA, <- !HB by lia. reflexivity. Qed.
Lemma adj_right (q : nat -> nat -> F) v : product_is q (fun i j => val q v (adj_P i j)) (val q v det_P).
Proof. nine_cases; ring. Qed.
Lemma adj_left (q : nat -> nat -> F) v : product_is (fun i j => val q v (adj_P i j)) q (val q v det_P).
Proof. nine_cases; ring. Qed.
Lemma inv_right (q : nat -> nat -> F) v : val q v det_P <> zero -> product_is q (fun i j => val q v (Div (adj_P i j) det_P)) one.
Proof. intros Hd. cbn in Hd. nine_cases; field; exact Hd. Qed.
Lemma inv_left (q : nat -> nat -> F) v : val q v det_P <> zero -> product_is (fun i j => val q v (Div (adj_P i j) det_P)) q one.
Proof. intros Hd. cbn in Hd. nine_cases; field; exact Hd. Qed.
End Sub.
