(** Property C103: [transpose_axes] exchanges the last two axes. *)
From Verif Require Import Prelude ParallelModel ParallelProofs TransposeModel.

Section Proofs.
Context {V : Type} (zero : V).
Implicit Types a b : ndarray V.

(** [b] holds the transposes of the matrices stacked in [a]. *)
Definition stack_transposed a b : Prop :=
  forall p n k, shape a = p ++ [n; k] ->
    shape b = p ++ [k; n] /\
    forall q i j, inside p q -> i < k -> j < n -> at_ b (q ++ [i; j]) = at_ a (q ++ [j; i]).

Lemma inside_length p q : inside p q -> length q = length p.
Proof. induction 1; cbn; congruence. Qed.
Lemma place_seq_app s m x t : s <= x < s + m -> place x (seq s m ++ t) = x - s.
Proof.
  revert s. induction m as [|m IH]; intros s H; [lia|]. cbn. destruct (Nat.eqb_spec x s) as [->|N]; [lia|].
  rewrite IH by lia. lia.
Qed.
Lemma place_seq_after s m x t : s + m <= x -> place x (seq s m ++ t) = m + place x t.
Proof.
  revert s. induction m as [|m IH]; intros s H; [reflexivity|]. cbn. destruct (Nat.eqb_spec x s); [lia|]. rewrite IH by lia. reflexivity.
Qed.
Lemma map_nth_seq (l t : list nat) : map (fun x => nth x (l ++ t) 0) (seq 0 (length l)) = l.
Proof.
  apply nth_ext with (d := 0) (d' := 0); rewrite map_length, seq_length; [reflexivity|]. intros k Hk.
  rewrite (nth_indep _ 0 (nth 0 (l ++ t) 0)) by (rewrite map_length, seq_length; exact Hk).
  rewrite (map_nth (fun x => nth x (l ++ t) 0)), seq_nth, Nat.add_0_l, app_nth1 by exact Hk. reflexivity.
Qed.

Lemma np_transpose_stack a p n k : shape a = p ++ [n; k] ->
  stack_transposed a (np_transpose a (seq 0 (length p) ++ [length p + 1; length p])).
Proof.
  intros E p' n' k' E'. assert (A : p' = p /\ n' = n /\ k' = k).
  { rewrite E in E'. assert (L := f_equal (@length nat) E'). rewrite !app_length in L. cbn in L.
    assert (H : p = p' /\ [n; k] = [n'; k']). { clear -L E'. revert p' L E'. induction p as [|x p IH]; intros [|y p'] L E'; cbn in *; try lia.
      - auto. - injection E' as -> E'. destruct (IH p') as [-> H]; auto. }
    destruct H as [-> [= -> ->]]. auto. }
  destruct A as (-> & -> & ->). clear E'. unfold np_transpose. cbn [shape at_]. rewrite E. split.
  - rewrite map_app, map_nth_seq. cbn [map]. rewrite !app_nth2 by lia. replace (length p + 1 - length p) with 1 by lia.
    rewrite Nat.sub_diag. reflexivity.
  - intros q i j Q Hi Hj. f_equal. pose proof (inside_length _ _ Q) as LQ. rewrite app_length. cbn [length].
    replace (length p + 2) with (length p + (1 + 1)) by lia. rewrite seq_app. rewrite map_app. f_equal.
    + transitivity (map (fun x => nth x (q ++ [i; j]) 0) (seq 0 (length p))); [|rewrite <- LQ; apply map_nth_seq]. apply map_ext_in. intros x Hx. apply in_seq in Hx.
      rewrite place_seq_app by lia. rewrite Nat.sub_0_r. reflexivity.
    + cbn [seq map Nat.add]. rewrite !place_seq_after by lia. cbn [place]. destruct (Nat.eqb_spec (length p) (length p + 1)); [lia|].
      rewrite Nat.eqb_refl. destruct (Nat.eqb_spec (S (length p)) (length p + 1)); [|lia].
      rewrite !app_nth2 by lia. rewrite LQ. replace (length p + 1 - length p) with 1 by lia. replace (length p + 0 - length p) with 0 by lia. reflexivity.
Qed.

Lemma np_transpose_id a : nd_eq (np_transpose a (seq 0 (length (shape a)))) a.
Proof.
  assert (S : map (fun p => nth p (shape a) 0) (seq 0 (length (shape a))) = shape a).
  { etransitivity; [|apply (map_nth_seq (shape a) [])]. rewrite app_nil_r. reflexivity. }
  split; cbn [np_transpose shape at_]; [exact S|]. rewrite S. intros c Hc. f_equal.
  pose proof (inside_length _ _ Hc) as L. transitivity (map (fun x => nth x (c ++ []) 0) (seq 0 (length (shape a)))); [|rewrite <- L; apply map_nth_seq]. rewrite app_nil_r.
  apply map_ext_in. intros x Hx. apply in_seq in Hx. rewrite <- (app_nil_r (seq 0 (length (shape a)))), place_seq_app by lia.
  f_equal. lia.
Qed.

Lemma transpose_multi_square a N n res : shape a = [N; n; n] ->
  prange_run (zeros zero [N; n; n]) (map (transpose_multi_body n n a) (range N)) res -> stack_transposed a res.
Proof.
  intros E R p n' k' E'. rewrite E in E'. destruct p as [|x [|y p]]; try discriminate.
  2:{ exfalso. assert (L := f_equal (@length nat) E'). cbn in L. rewrite app_length in L. cbn in L. lia. }
  injection E' as <- <- <-. split; [rewrite (prange_shape _ _ _ R); reflexivity|].
  assert (B : forall i u, In u (transpose_multi_body n n a i) -> exists r c, u = store [i; r; c] (at_ a [i; c; r])).
  { intros i u Hu. apply in_flat_map in Hu. destruct Hu as (r & _ & Hu). apply in_map_iff in Hu. destruct Hu as (c & <- & _). eauto. }
  intros q i j Q Hi Hj. inversion Q as [|q0 x0 q' p' Hq0 Q']; subst. inversion Q'; subst. cbn [app].
  rewrite (prange_cell _ (transpose_multi_body n n a) N res q0 [q0; i; j] R).
  - apply exec_stores.
    + apply in_flat_map. exists i. split; [apply in_seq; lia|]. apply in_map_iff. exists j. split; [reflexivity|]. apply in_seq. lia.
    + intros u Hu Hc. destruct (B _ _ Hu) as (r & c & ->). cbn in Hc. injection Hc as -> ->. reflexivity.
  - intros i' j' u w _ _ D Hu Hw. destruct (B _ _ Hu) as (r & c & ->), (B _ _ Hw) as (r' & c' & ->). cbn. congruence.
  - exact Hq0.
  - intros j' u _ D Hu. destruct (B _ _ Hu) as (r & c & ->). cbn. congruence.
Qed.
End Proofs.

(** ** C103 *)

(** Missing from the full statement: stacks of one axis of matrices that are not square. *)
Theorem C103_partial :
  forall V (zero : V) (a : ndarray V) p n k, shape a = p ++ [n; k] -> (length p = 1 -> n = k) ->
  (exists r, transpose_axes zero a r) /\
  forall r, transpose_axes zero a r -> exists b, r = Ok b /\ shape b = p ++ [k; n] /\
    forall q i j, inside p q -> i < k -> j < n -> at_ b (q ++ [i; j]) = at_ a (q ++ [j; i]).
Proof.
  intros V zero a p n k E Sq.
  assert (G : (exists r, transpose_axes zero a r) /\ forall r, transpose_axes zero a r -> exists b, r = Ok b /\ stack_transposed a b).
  { assert (T := np_transpose_stack a p n k E). unfold transpose_axes. rewrite E. destruct p as [|x [|y p]].
    - cbn in T |- *. split; [eexists; reflexivity|]. intros r ->. eexists. split; [reflexivity|exact T].
    - specialize (Sq eq_refl). subst k. cbn. unfold transpose_multi. rewrite Nat.eqb_refl, Bool.orb_true_r. split.
      + destruct (prange_exists (zeros zero [x; n; n]) (map (transpose_multi_body n n a) (range x))) as [res R]. exists (Ok res), res. split; [exact R|reflexivity].
      + intros r (res & R & ->). exists res. split; [reflexivity|]. exact (transpose_multi_square zero a x n res E R).
    - remember ((x :: y :: p) ++ [n; k]) as sh eqn:Esh.
      assert (K : firstn (length sh - 2) (seq 0 (length sh)) ++ rev (skipn (length sh - 2) (seq 0 (length sh))) =
                  seq 0 (length (x :: y :: p)) ++ [length (x :: y :: p) + 1; length (x :: y :: p)]).
      { rewrite Esh. rewrite app_length. cbn [length]. replace (S (S (length p)) + 2) with (S (S (length p)) + (1 + 1)) by lia.
        set (m := S (S (length p))). replace (m + (1 + 1) - 2) with m by lia. rewrite seq_app.
        rewrite firstn_app, skipn_app, seq_length, Nat.sub_diag, firstn_all2, skipn_all2 by (rewrite seq_length; lia).
        cbn [firstn skipn seq]. rewrite app_nil_r. cbn. rewrite ?Nat.add_1_r. reflexivity. }
      assert (L : 4 <= length sh) by (rewrite Esh, app_length; cbn; lia).
      destruct sh as [|s0 [|s1 [|s2 [|s3 t]]]]; cbn in L; try lia. cbv zeta.
      rewrite K. split; [eexists; reflexivity|]. intros r ->. eexists. split; [reflexivity|exact T]. }
  destruct G as [G1 G2]. split; [exact G1|]. intros r Hr. destruct (G2 r Hr) as (b & -> & B). exists b. split; [reflexivity|]. apply B, E.
Qed.
Print Assumptions C103_partial.

(** Scalars and vectors are returned as they are. *)
Theorem C103_vectors :
  forall V (zero : V) (a : ndarray V), length (shape a) < 2 -> 
  (exists r, transpose_axes zero a r) /\ forall r, transpose_axes zero a r -> exists b, r = Ok b /\ nd_eq b a.
Proof.
  intros V zero a L. pose proof (np_transpose_id a) as I. unfold transpose_axes. destruct (shape a) as [|x [|y l]] eqn:E; cbn in L; [| |lia].
  - cbn in I |- *. split; [eexists; reflexivity|]. intros r ->. eexists. split; [reflexivity|exact I].
  - cbn in I |- *. split; [eexists; reflexivity|]. intros r ->. eexists. split; [reflexivity|exact I].
Qed.
Print Assumptions C103_vectors.

(** A stack of one 1 x 2 matrix raises; an empty stack keeps the shape of its matrices. *)
Theorem C103_rectangular_refuted :
  exists a a0 : ndarray nat, shape a = [1] ++ [1; 2] /\ (forall r, transpose_axes 0 a r -> r = Err ValueError) /\
    shape a0 = [0] ++ [1; 2] /\ forall r, transpose_axes 0 a0 r -> exists b, r = Ok b /\ shape b <> [0] ++ [2; 1].
Proof.
  exists (ND [1; 1; 2] (fun _ => 0)), (ND [0; 1; 2] (fun _ => 0)). split; [reflexivity|]. split; [|split; [reflexivity|]].
  - intros r H. exact H.
  - intros r (res & R & ->). exists res. split; [reflexivity|]. rewrite (prange_shape _ _ _ R). discriminate.
Qed.
Print Assumptions C103_rectangular_refuted.

(** A 2 x 2 x 2 stack and a stack of two axes of 1 x 3 matrices meet the hypotheses. *)
Example C103_hypotheses :
  exists a b : ndarray nat, shape a = [2] ++ [2; 2] /\ (length [2] = 1 -> 2 = 2) /\ shape b = [2; 2] ++ [1; 3] /\ (length [2; 2] = 1 -> 1 = 3).
Proof. exists (ND [2; 2; 2] (fun c => nth 2 c 0)), (ND [2; 2; 1; 3] (fun c => nth 2 c 0)). repeat split. discriminate. Qed.
Example C103_example : forall r, transpose_axes 0 (ND [2; 2; 1; 3] (fun c => 10 * nth 2 c 0 + nth 3 c 0)) r ->
  exists b, r = Ok b /\ shape b = [2; 2; 3; 1] /\ at_ b [1; 0; 2; 0] = 2.
Proof. intros r ->. eexists. split; [reflexivity|]. split; reflexivity. Qed.
