(** C117: the model of collections (CollModel.v), which takes the rule of transformation for the result of [np.einsum],
    agrees with the model of the command (EinsumModel.v). *)
From Verif Require Import Prelude OField ParallelModel KernModel KernProofs CollModel CollSpec CollProofs CollProps EinsumModel EinsumProps.

Theorem C117_agrees : forall (F : ofield) (a : ndarray F) frame o (calls : list (nat * ndarray F * ndarray F)) Q,
  construct Tensor true a None None frame = Ok o -> one_matrix (axis (shape (o_arr o)) 0) Q ->
  (exists out, transform o Q out) /\
  forall out, transform o Q out ->
    match out, fst (transform_components (after calls) (rank o) (o_arr o) Q) with
    | Ok x, Ok y => shape x = shape y /\ forall c, inside (shape x) c -> at_ x c = at_ y c
    | Err e, Err e' => e = e'
    | _, _ => False
    end.
Proof.
  intros F a frame o calls Q H HQ. pose proof H as H0. apply construct_ok in H0. destruct H0 as ((n0 & r0 & E0) & _ & f & _ & Eo).
  destruct (C87_single_tensor_partial F a frame o H) as (n & r & Hr & E & T).
  assert (En : axis (shape (o_arr o)) 0 = n) by (rewrite E; destruct r; [lia|reflexivity]). rewrite En in HQ.
  assert (Er : rank o = r) by (transitivity (length (shape (o_arr o))); [subst o; reflexivity|rewrite E; apply repeat_length]).
  destruct (T Q HQ) as [Low High]. rewrite Er. destruct (Nat.le_gt_cases r 13) as [L|L].
  - destruct (Low L) as [Ex U]. split; [exact Ex|]. intros out Hout. destruct (U out Hout) as (res & -> & S & V).
    destruct (C117_transform_partial F calls r (o_arr o) Q n n) as (res' & -> & S' & V'); [lia|exact E|exact HQ|]. rewrite S, S', E. split; [reflexivity|].
    intros c Hc. rewrite (V' c Hc). specialize (V [] c (Forall2_nil _) Hc). unfold member in V. cbn [app] in V. rewrite V. unfold matrix_for. rewrite HQ. reflexivity.
  - split; [eexists; apply High; [exact L|reflexivity]|]. intros out Hout. apply (High L) in Hout. subst out. rewrite C117_rank_refuted by lia. reflexivity.
Qed.
Print Assumptions C117_agrees.
Example C117_agrees_met : is_ok (construct Tensor true ex_T None None (Some ex_R)) = true /\ one_matrix (axis (shape ex_T) 0) ex_R.
Proof. split; reflexivity. Qed.
