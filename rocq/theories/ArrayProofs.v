(** Proofs about the array helpers. *)
From Coq Require Import QArith Qcanon Qround.
From Verif Require Import Prelude OField ParallelModel ParallelSpec ParallelProofs ArrayModel ArraySpec.
Local Close Scope Q_scope.
Local Close Scope Qc_scope.
Local Open Scope nat_scope.

Lemma In_range n i : In i (range n) <-> i < n.
Proof. unfold range. rewrite in_seq. lia. Qed.

Lemma range_length n : length (range n) = n.
Proof. unfold range. apply seq_length. Qed.

Lemma nth_range n i d : i < n -> nth i (range n) d = i.
Proof. intros H. unfold range. rewrite seq_nth; lia. Qed.

Lemma nth_error_range n i : i < n -> nth_error (range n) i = Some i.
Proof.
  intros H. rewrite (nth_error_nth' _ 0) by (rewrite range_length; exact H).
  rewrite nth_range by exact H. reflexivity.
Qed.

Lemma In_assign2 {V} R C w (v : nat -> nat -> V) u :
  In u (assign2 R C w v) <-> exists r c, r < R /\ c < C /\ u = store (w r c) (v r c).
Proof.
  unfold assign2. rewrite in_flat_map. split.
  - intros (r & Hr & Hu). apply In_range in Hr. apply in_map_iff in Hu.
    destruct Hu as (c & <- & Hc). apply In_range in Hc. exists r, c. auto.
  - intros (r & c & Hr & Hc & ->). exists r. split; [apply In_range; exact Hr|].
    apply in_map_iff. exists c. split; [reflexivity|apply In_range; exact Hc].
Qed.

Lemma In_assign1 {V} M w (v : nat -> V) u :
  In u (assign1 M w v) <-> exists k, k < M /\ u = store (w k) (v k).
Proof.
  unfold assign1. rewrite in_map_iff. split.
  - intros (k & <- & Hk). apply In_range in Hk. exists k. auto.
  - intros (k & Hk & ->). exists k. split; [reflexivity|apply In_range; exact Hk].
Qed.

(** Parallel loops whose iteration [i] assigns a 2d block. *)
Section Block2.
Context {V : Type} (init : ndarray V) (N R C : nat) (w : nat -> nat -> nat -> cell)
        (v : nat -> nat -> nat -> V).
Let its := map (fun i => assign2 R C (w i) (v i)) (range N).
Hypothesis w_inj : forall i r c i' r' c', i < N -> r < R -> c < C -> i' < N -> r' < R -> c' < C ->
  w i r c = w i' r' c' -> i = i' /\ r = r' /\ c = c'.

Lemma block2_disjoint : forall i j u u', i < N -> j < N -> i <> j ->
  In u (assign2 R C (w i) (v i)) -> In u' (assign2 R C (w j) (v j)) -> u_cell u <> u_cell u'.
Proof.
  intros i j u u' Hi Hj Hij Hu Hu'. apply In_assign2 in Hu, Hu'.
  destruct Hu as (r & c & Hr & Hc & ->), Hu' as (r' & c' & Hr' & Hc' & ->). cbn.
  intros E. apply w_inj in E; try assumption. tauto.
Qed.

Lemma block2_value res i r c : prange_run init its res -> i < N -> r < R -> c < C ->
  at_ res (w i r c) = v i r c.
Proof.
  intros Hrun Hi Hr Hc.
  rewrite (prange_cell init (fun i => assign2 R C (w i) (v i)) N res i (w i r c) Hrun
             block2_disjoint Hi).
  - apply exec_stores.
    + apply In_assign2. exists r, c. auto.
    + intros u Hu E. apply In_assign2 in Hu. destruct Hu as (r' & c' & Hr' & Hc' & ->).
      cbn in E |- *. apply w_inj in E; try assumption. destruct E as (_ & -> & ->). reflexivity.
  - intros j u Hj Hij Hu E. apply In_assign2 in Hu. destruct Hu as (r' & c' & Hr' & Hc' & ->).
    cbn in E. apply w_inj in E; try assumption. lia.
Qed.

Lemma block2_other res c : prange_run init its res ->
  (forall i r k, i < N -> r < R -> k < C -> w i r k <> c) -> at_ res c = at_ init c.
Proof.
  intros Hrun H. apply (prange_untouched init its res c Hrun).
  intros it u Hit Hu. unfold its in Hit. apply in_map_iff in Hit. destruct Hit as (i & <- & Hi).
  apply In_range in Hi. apply In_assign2 in Hu. destruct Hu as (r & k & Hr & Hk & ->). cbn.
  apply H; assumption.
Qed.
End Block2.

(** Parallel loops whose iteration [i] assigns a 1d slice. *)
Section Block1.
Context {V : Type} (init : ndarray V) (N M : nat) (w : nat -> nat -> cell) (v : nat -> nat -> V).
Let its := map (fun i => assign1 M (w i) (v i)) (range N).
Hypothesis w_inj : forall i k i' k', i < N -> k < M -> i' < N -> k' < M ->
  w i k = w i' k' -> i = i' /\ k = k'.

Lemma block1_value res i k : prange_run init its res -> i < N -> k < M ->
  at_ res (w i k) = v i k.
Proof.
  intros Hrun Hi Hk.
  rewrite (prange_cell init (fun i => assign1 M (w i) (v i)) N res i (w i k) Hrun).
  - apply exec_stores.
    + apply In_assign1. exists k. auto.
    + intros u Hu E. apply In_assign1 in Hu. destruct Hu as (k' & Hk' & ->).
      cbn in E |- *. apply w_inj in E; try assumption. destruct E as (_ & ->). reflexivity.
  - intros a b u u' Ha Hb Hab Hu Hu'. apply In_assign1 in Hu, Hu'.
    destruct Hu as (k1 & Hk1 & ->), Hu' as (k2 & Hk2 & ->). cbn. intros E.
    apply w_inj in E; try assumption. tauto.
  - exact Hi.
  - intros j u Hj Hij Hu E. apply In_assign1 in Hu. destruct Hu as (k' & Hk' & ->).
    cbn in E. apply w_inj in E; try assumption. lia.
Qed.
End Block1.

Lemma div_mod_inj M i k i' k' : k < M -> k' < M -> i * M + k = i' * M + k' -> i = i' /\ k = k'.
Proof.
  intros Hk Hk' E.
  assert (i = i').
  { transitivity ((i * M + k) / M); [apply (Nat.div_unique _ M i k); lia|].
    rewrite E. symmetry. apply (Nat.div_unique _ M i' k'); lia. }
  subst. lia.
Qed.

Lemma div_mod_lt N M i k : i < N -> k < M -> i * M + k < N * M.
Proof. intros Hi Hk. nia. Qed.

Lemma inside_1 n c : inside [n] c -> exists i, c = [i] /\ i < n.
Proof.
  unfold inside. intros H. inversion H as [|i m l l' Hi Hr]; subst. inversion Hr; subst. eauto.
Qed.
Lemma inside_2 n m c : inside [n; m] c -> exists i j, c = [i; j] /\ i < n /\ j < m.
Proof.
  unfold inside. intros H. inversion H as [|i x l l' Hi Hr]; subst.
  apply inside_1 in Hr. destruct Hr as (j & -> & Hj). eauto.
Qed.
Lemma inside_3 n m k c : inside [n; m; k] c ->
  exists i j l, c = [i; j; l] /\ i < n /\ j < m /\ l < k.
Proof.
  unfold inside. intros H. inversion H as [|i x l l' Hi Hr]; subst.
  apply inside_2 in Hr. destruct Hr as (j & q & -> & Hj & Hq). eauto 8.
Qed.
Lemma inside_intro1 n i : i < n -> inside [n] [i].
Proof. intros. constructor; auto. Qed.
Lemma inside_intro2 n m i j : i < n -> j < m -> inside [n; m] [i; j].
Proof. intros. constructor; auto. Qed.
Lemma inside_intro3 n m k i j l : i < n -> j < m -> l < k -> inside [n; m; k] [i; j; l].
Proof. intros. constructor; auto. Qed.

Lemma diag_inj R C i r c i' r' c' : r < R -> c < C -> r' < R -> c' < C ->
  [i * R + r; i * C + c] = [i' * R + r'; i' * C + c'] -> i = i' /\ r = r' /\ c = c'.
Proof.
  intros Hr Hc Hr' Hc' E. injection E as E1 E2.
  apply div_mod_inj in E1; try assumption. apply div_mod_inj in E2; try assumption. tauto.
Qed.

Section KernelFacts.
#[local] Set Default Proof Using "Type".
Context {V : Type} (vzero : V) (vadd : V -> V -> V) (vscale : nat -> V -> V).
Implicit Types a da : ndarray V.

Lemma repeat_spec a N R C res : shape a = [R; C] -> repeat_run vzero a N res ->
  shape res = [N; R; C] /\
  forall i r c, i < N -> r < R -> c < C -> at_ res [i; r; c] = at_ a [r; c].
Proof.
  unfold repeat_run, repeat_init, repeat_its, dim. intros -> Hrun. cbn [nth] in *. split.
  - rewrite (prange_shape _ _ _ Hrun). reflexivity.
  - intros i r c Hi Hr Hc.
    apply (block2_value _ N R C (fun i r c => [i; r; c]) (fun _ r c => at_ a [r; c]))
      with (i := i) (r := r) (c := c) in Hrun; try assumption.
    intros i1 r1 c1 i2 r2 c2 _ _ _ _ _ _ E. injection E. auto.
Qed.

Lemma tile_spec a da N R C res : shape a = [R; C] -> tile_run vzero vadd vscale a da N res ->
  shape res = [N; R; C] /\
  forall i r c, i < N -> r < R -> c < C ->
    at_ res [i; r; c] = vadd (at_ a [r; c]) (vscale i (at_ da [r; c])).
Proof.
  unfold tile_run, tile_init, tile_its, dim. intros -> Hrun. cbn [nth] in *. split.
  - rewrite (prange_shape _ _ _ Hrun). reflexivity.
  - intros i r c Hi Hr Hc.
    apply (block2_value _ N R C (fun i r c => [i; r; c])
             (fun i r c => vadd (at_ a [r; c]) (vscale i (at_ da [r; c]))))
      with (i := i) (r := r) (c := c) in Hrun; try assumption.
    intros i1 r1 c1 i2 r2 c2 _ _ _ _ _ _ E. injection E. auto.
Qed.

Lemma repeat1d_spec a N M res : shape a = [M] -> repeat1d_run vzero a N res ->
  shape res = [N * M] /\
  forall i k, i < N -> k < M -> at_ res [i * M + k] = at_ a [k].
Proof.
  unfold repeat1d_run, repeat1d_init, repeat1d_its, dim. intros -> Hrun. cbn [nth] in *. split.
  - rewrite (prange_shape _ _ _ Hrun). reflexivity.
  - intros i k Hi Hk.
    apply (block1_value _ N M (fun i k => [i * M + k]) (fun _ k => at_ a [k]))
      with (i := i) (k := k) in Hrun; try assumption.
    intros i1 k1 i2 k2 _ H1 _ H2 E. injection E as E. apply (div_mod_inj M); assumption.
Qed.

Lemma tile1d_spec a da N M res : shape a = [M] -> tile1d_run vzero vadd vscale a da N res ->
  shape res = [N * M] /\
  forall i k, i < N -> k < M ->
    at_ res [i * M + k] = vadd (at_ a [k]) (vscale i (at_ da [k])).
Proof.
  unfold tile1d_run, tile1d_init, tile1d_its, dim. intros -> Hrun. cbn [nth] in *. split.
  - rewrite (prange_shape _ _ _ Hrun). reflexivity.
  - intros i k Hi Hk.
    apply (block1_value _ N M (fun i k => [i * M + k])
             (fun i k => vadd (at_ a [k]) (vscale i (at_ da [k]))))
      with (i := i) (k := k) in Hrun; try assumption.
    intros i1 k1 i2 k2 _ H1 _ H2 E. injection E as E. apply (div_mod_inj M); assumption.
Qed.

Lemma diag_spec a N R C res : shape a = [R; C] -> diag_run vzero a N res ->
  shape res = [R * N; C * N] /\
  (forall i r c, i < N -> r < R -> c < C -> at_ res [i * R + r; i * C + c] = at_ a [r; c]) /\
  (forall p q, p < R * N -> q < C * N -> p / R <> q / C -> at_ res [p; q] = vzero).
Proof.
  unfold diag_run, diag_init, diag_its, dim. intros -> Hrun. cbn [nth] in *.
  split; [rewrite (prange_shape _ _ _ Hrun); reflexivity|]. split.
  - intros i r c Hi Hr Hc.
    apply (block2_value _ N R C (fun i r c => [i * R + r; i * C + c]) (fun _ r c => at_ a [r; c]))
      with (i := i) (r := r) (c := c) in Hrun; try assumption.
    intros; eapply diag_inj; eassumption.
  - intros p q Hp Hq Hpq.
    apply (block2_other _ N R C (fun i r c => [i * R + r; i * C + c]) (fun _ r c => at_ a [r; c]))
      with (c := [p; q]) in Hrun.
    + exact Hrun.
    + intros i r k Hi Hr Hk E. injection E as E1 E2. apply Hpq.
      rewrite <- (Nat.div_unique p R i r), <- (Nat.div_unique q C i k); lia.
Qed.

(** in-bounds writes *)
Lemma repeat_inside a N R C : shape a = [R; C] ->
  writes_inside (repeat_init vzero a N) (repeat_its a N).
Proof.
  unfold repeat_init, repeat_its, dim. intros -> it u Hit Hu. cbn [nth] in *.
  apply in_map_iff in Hit. destruct Hit as (i & <- & Hi). apply In_range in Hi.
  apply In_assign2 in Hu. destruct Hu as (r & c & Hr & Hc & ->).
  apply inside_intro3; assumption.
Qed.
Lemma tile_inside a da N R C : shape a = [R; C] ->
  writes_inside (tile_init vzero a da N) (tile_its vadd vscale a da N).
Proof.
  unfold tile_init, tile_its, dim. intros -> it u Hit Hu. cbn [nth] in *.
  apply in_map_iff in Hit. destruct Hit as (i & <- & Hi). apply In_range in Hi.
  apply In_assign2 in Hu. destruct Hu as (r & c & Hr & Hc & ->).
  apply inside_intro3; assumption.
Qed.
Lemma repeat1d_inside a N M : shape a = [M] ->
  writes_inside (repeat1d_init vzero a N) (repeat1d_its a N).
Proof.
  unfold repeat1d_init, repeat1d_its, dim. intros -> it u Hit Hu. cbn [nth] in *.
  apply in_map_iff in Hit. destruct Hit as (i & <- & Hi). apply In_range in Hi.
  apply In_assign1 in Hu. destruct Hu as (k & Hk & ->).
  apply inside_intro1. apply div_mod_lt; assumption.
Qed.
Lemma tile1d_inside a da N M : shape a = [M] ->
  writes_inside (tile1d_init vzero a da N) (tile1d_its vadd vscale a da N).
Proof.
  unfold tile1d_init, tile1d_its, dim. intros -> it u Hit Hu. cbn [nth] in *.
  apply in_map_iff in Hit. destruct Hit as (i & <- & Hi). apply In_range in Hi.
  apply In_assign1 in Hu. destruct Hu as (k & Hk & ->).
  apply inside_intro1. apply div_mod_lt; assumption.
Qed.
Lemma diag_inside a N R C : shape a = [R; C] ->
  writes_inside (diag_init vzero a N) (diag_its a N).
Proof.
  unfold diag_init, diag_its, dim. intros -> it u Hit Hu. cbn [nth] in *.
  apply in_map_iff in Hit. destruct Hit as (i & <- & Hi). apply In_range in Hi.
  apply In_assign2 in Hu. destruct Hu as (r & c & Hr & Hc & ->).
  apply inside_intro2; cbn [u_cell]; rewrite (Nat.mul_comm _ N); apply div_mod_lt; assumption.
Qed.

Lemma disjoint_schedule init (body : nat -> list (update V)) n :
  (forall i j u w, i < n -> j < n -> i <> j -> In u (body i) -> In w (body j) ->
     u_cell u <> u_cell w) ->
  schedule_independent init (map body (range n)).
Proof.
  intros D. split; [apply prange_exists|].
  intros res (tr & Htr & ->). split; [reflexivity|]. intros c _. cbn [at_].
  apply interleave_exec; [|exact Htr]. apply disjoint_body. exact D.
Qed.

Lemma repeat_schedule a N : schedule_independent (repeat_init vzero a N) (repeat_its a N).
Proof.
  apply disjoint_schedule. intros i j u w Hi Hj Hij Hu Hw.
  apply In_assign2 in Hu, Hw. destruct Hu as (r & c & _ & _ & ->), Hw as (r' & c' & _ & _ & ->).
  cbn. intros E. injection E as E _ _. contradiction.
Qed.
Lemma tile_schedule a da N :
  schedule_independent (tile_init vzero a da N) (tile_its vadd vscale a da N).
Proof.
  apply disjoint_schedule. intros i j u w Hi Hj Hij Hu Hw.
  apply In_assign2 in Hu, Hw. destruct Hu as (r & c & _ & _ & ->), Hw as (r' & c' & _ & _ & ->).
  cbn. intros E. injection E as E _ _. contradiction.
Qed.
Lemma repeat1d_schedule a N : schedule_independent (repeat1d_init vzero a N) (repeat1d_its a N).
Proof.
  apply disjoint_schedule. intros i j u w Hi Hj Hij Hu Hw.
  apply In_assign1 in Hu, Hw. destruct Hu as (r & Hr & ->), Hw as (r' & Hr' & ->).
  cbn. intros E. injection E as E. apply div_mod_inj in E; try assumption. destruct E; contradiction.
Qed.
Lemma tile1d_schedule a da N :
  schedule_independent (tile1d_init vzero a da N) (tile1d_its vadd vscale a da N).
Proof.
  apply disjoint_schedule. intros i j u w Hi Hj Hij Hu Hw.
  apply In_assign1 in Hu, Hw. destruct Hu as (r & Hr & ->), Hw as (r' & Hr' & ->).
  cbn. intros E. injection E as E. apply div_mod_inj in E; try assumption. destruct E; contradiction.
Qed.
Lemma diag_schedule a N : schedule_independent (diag_init vzero a N) (diag_its a N).
Proof.
  apply disjoint_schedule. intros i j u w Hi Hj Hij Hu Hw.
  apply In_assign2 in Hu, Hw.
  destruct Hu as (r & c & Hr & Hc & ->), Hw as (r' & c' & Hr' & Hc' & ->).
  cbn. intros E. apply diag_inj in E; try assumption. destruct E; contradiction.
Qed.
Lemma map_schedule {A} (g : A -> V) vals :
  schedule_independent (zeros vzero [length vals]) (map_its g vals).
Proof.
  unfold map_its. apply disjoint_schedule. intros i j u w Hi Hj Hij Hu Hw.
  destruct (nth_error vals i); [|destruct Hu]. destruct (nth_error vals j); [|destruct Hw].
  destruct Hu as [<-|[]], Hw as [<-|[]]. cbn. intros E. injection E as E. contradiction.
Qed.

Lemma map_spec {A} (g : A -> V) vals res : map_run vzero g vals res ->
  shape res = [length vals] /\
  forall i x, nth_error vals i = Some x -> at_ res [i] = g x.
Proof.
  unfold map_run, map_its. intros Hrun. split; [rewrite (prange_shape _ _ _ Hrun); reflexivity|].
  intros i x Hx. assert (Hi : i < length vals) by (apply nth_error_Some; congruence).
  rewrite (prange_cell _ _ _ _ i [i] Hrun); [|
    |exact Hi|].
  - rewrite Hx. apply exec_stores; [left; reflexivity|].
    intros u [<-|[]] _. reflexivity.
  - intros a b u w Ha Hb Hab Hu Hw.
    destruct (nth_error vals a); [|destruct Hu]. destruct (nth_error vals b); [|destruct Hw].
    destruct Hu as [<-|[]], Hw as [<-|[]]. cbn. intros E. injection E as E. contradiction.
  - intros j u Hj Hij Hu. destruct (nth_error vals j); [|destruct Hu].
    destruct Hu as [<-|[]]. cbn. intros E. injection E as E. contradiction.
Qed.

(** flattening *)
Lemma flat_fold (n : nat) (g : nat -> V) (m0 : memory V) (k0 : nat) (f : memory V * nat -> nat -> memory V * nat) :
  (forall st j, f st j = (step (fst st) (store [snd st] (g j)), snd st + 1)) ->
  let st := fold_left f (range n) (m0, k0) in
  snd st = k0 + n /\
  (forall j, j < n -> fst st [k0 + j] = g j) /\
  (forall c, (forall j, j < n -> c <> [k0 + j]) -> fst st c = m0 c).
Proof.
  intros Hf. unfold range. induction n as [|n IH]; cbn zeta in *.
  - cbn. split; [lia|]. split; [lia|]. reflexivity.
  - rewrite seq_S, fold_left_app. cbn [fold_left Nat.add]. destruct IH as (I1 & I2 & I3).
    rewrite Hf. cbn [fst snd]. rewrite I1. split; [lia|]. split.
    + intros j Hj. unfold step. cbn [u_cell store u_fun].
      destruct (cell_dec [k0 + j] [k0 + n]) as [E|E].
      * injection E as E. assert (j = n) by lia. subst. reflexivity.
      * apply I2. assert (j <> n) by (intros ->; contradiction). lia.
    + intros c Hc. unfold step. cbn [u_cell store u_fun].
      destruct (cell_dec c [k0 + n]) as [E|E]; [exfalso; apply (Hc n); [lia|exact E]|].
      apply I3. intros j Hj. apply Hc. lia.
Qed.

Lemma flat_nested I J (g : nat -> nat -> V) m0
  (f : nat -> memory V * nat -> nat -> memory V * nat) :
  (forall i st j, f i st j = (step (fst st) (store [snd st] (g i j)), snd st + 1)) ->
  let st := fold_left (fun st i => fold_left (f i) (range J) st) (range I) (m0, 0) in
  snd st = I * J /\
  (forall i j, i < I -> j < J -> fst st [i * J + j] = g i j).
Proof.
  intros Hf. unfold range. induction I as [|I IH]; cbn zeta in *.
  - cbn. split; [reflexivity|lia].
  - rewrite seq_S, fold_left_app. cbn [fold_left Nat.add]. destruct IH as (I1 & I2).
    destruct (fold_left _ (seq 0 I) (m0, 0)) as [m k] eqn:E. cbn [fst snd] in I1, I2. subst k.
    destruct (flat_fold J (g I) m (I * J) (f I) (Hf I)) as (S1 & S2 & S3).
    unfold range in S1, S2, S3. split; [rewrite S1; lia|].
    intros i j Hi Hj. destruct (Nat.eq_dec i I) as [->|N].
    + apply S2. exact Hj.
    + rewrite S3; [apply I2; lia|]. intros q Hq E2. injection E2 as E2. nia.
Qed.

Lemma flattenC_spec a I J : shape a = [I; J] ->
  shape (flatten2dC vzero a) = [I * J] /\
  forall i j, i < I -> j < J -> at_ (flatten2dC vzero a) [i * J + j] = at_ a [i; j].
Proof.
  intros Ha. unfold flatten2dC, dim. rewrite Ha. cbn [nth shape at_]. split; [reflexivity|].
  apply (flat_nested I J (fun i j => at_ a [i; j]) _ (fun i => flatC_inner a i)). reflexivity.
Qed.

Lemma flattenF_spec a I J : shape a = [I; J] ->
  shape (flatten2dF vzero a) = [I * J] /\
  forall i j, i < I -> j < J -> at_ (flatten2dF vzero a) [j * I + i] = at_ a [i; j].
Proof.
  intros Ha. unfold flatten2dF, dim. rewrite Ha. cbn [nth shape at_]. split; [reflexivity|].
  intros i j Hi Hj.
  apply (flat_nested J I (fun j i => at_ a [i; j]) _ (fun j => flatF_inner a j)); auto.
Qed.

Lemma flattenF_transpose a I J : shape a = [I; J] ->
  nd_eq (flatten2dF vzero a) (flatten2dC vzero (transpose2 vzero a)).
Proof.
  intros Ha. destruct (flattenF_spec a I J Ha) as [S1 V1].
  assert (Ht : shape (transpose2 vzero a) = [J; I]).
  { unfold transpose2, dim. rewrite Ha. reflexivity. }
  destruct (flattenC_spec _ J I Ht) as [S2 V2].
  split; [rewrite S1, S2, Nat.mul_comm; reflexivity|].
  rewrite S1. intros c Hc. apply inside_1 in Hc. destruct Hc as (k & -> & Hk).
  destruct (Nat.eq_dec I 0) as [->|NI]; [lia|].
  assert (E : k = (k / I) * I + k mod I) by (rewrite Nat.mul_comm; apply Nat.div_mod; exact NI).
  assert (H1 : k mod I < I) by (apply Nat.mod_upper_bound; exact NI).
  assert (H2 : k / I < J) by (apply Nat.div_lt_upper_bound; assumption).
  rewrite E, V1, V2 by assumption. reflexivity.
Qed.
End KernelFacts.

(** ** clip1d *)
Section Clip.
Variable F : ofield.
Local Open Scope of_scope.

Lemma clip1d_length (a : list F) lo hi : length (clip1d a lo hi) = length a.
Proof. unfold clip1d. rewrite !map_length. reflexivity. Qed.

Lemma clip1d_nth (a : list F) lo hi i : (i < length a)%nat ->
  nth i (clip1d a lo hi) 0 =
    let x := nth i a 0 in
    let y := if ltb x lo then lo else x in if ltb hi y then hi else y.
Proof.
  intros H. unfold clip1d. rewrite map_map.
  erewrite nth_indep by (rewrite map_length; exact H).
  rewrite map_nth with (d := 0). reflexivity.
Qed.

Definition clipped (x lo hi : F) : F := if ltb x lo then lo else if ltb hi x then hi else x.

Lemma clip1d_map (a : list F) lo hi : lo <= hi -> clip1d a lo hi = map (fun x => clipped x lo hi) a.
Proof.
  intros H. unfold clip1d. rewrite map_map. apply map_ext. intros x. unfold clipped.
  destruct (ltb x lo); [|reflexivity]. unfold ltb. rewrite H. reflexivity.
Qed.

Lemma clipped_bounds x lo hi : lo <= hi -> lo <= clipped x lo hi <= hi.
Proof.
  intros H. unfold clipped. destruct (ltb x lo) eqn:E1; [split; [apply le_refl|exact H]|].
  apply ltb_false in E1. destruct (ltb hi x) eqn:E2; [split; [exact H|apply le_refl]|].
  apply ltb_false in E2. split; assumption.
Qed.

Lemma clipped_id x lo hi : lo <= x <= hi -> clipped x lo hi = x.
Proof.
  intros [H1 H2]. unfold clipped. apply ltb_false in H1, H2. rewrite H1, H2. reflexivity.
Qed.

Lemma clip1d_spec (a : list F) lo hi : lo <= hi ->
  length (clip1d a lo hi) = length a /\
  (forall i, (i < length a)%nat ->
     let x := nth i a 0 in let y := nth i (clip1d a lo hi) 0 in
     lo <= y <= hi /\ (lo <= x <= hi -> y = x) /\ (x < lo -> y = lo) /\ (hi < x -> y = hi)) /\
  clip1d (clip1d a lo hi) lo hi = clip1d a lo hi.
Proof.
  intros H. split; [apply clip1d_length|]. rewrite !clip1d_map by assumption. split.
  - intros i Hi. cbn zeta.
    assert (E : nth i (map (fun x => clipped x lo hi) a) 0 = clipped (nth i a 0) lo hi).
    { erewrite nth_indep by (rewrite map_length; exact Hi).
      rewrite map_nth with (d := 0) (f := fun x => clipped x lo hi). reflexivity. }
    rewrite E. split; [apply clipped_bounds; exact H|]. split; [apply clipped_id|]. split.
    + intros L. unfold clipped. rewrite (proj2 (ltb_iff _ _ _) L). reflexivity.
    + intros L. unfold clipped. destruct (ltb (nth i a 0) lo) eqn:E1.
      * apply ltb_iff in E1. exfalso.
        apply (lt_irrefl F lo). apply (le_lt_trans F _ hi _ H). apply (lt_trans F _ (nth i a 0)); assumption.
      * rewrite (proj2 (ltb_iff _ _ _) L). reflexivity.
  - rewrite map_map. apply map_ext. intros x. apply clipped_id. apply clipped_bounds. exact H.
Qed.

Lemma clip1d_wrong_order (a : list F) lo hi : hi < lo -> clip1d a lo hi = map (fun _ => hi) a.
Proof.
  intros H. unfold clip1d. rewrite map_map. apply map_ext. intros x.
  destruct (ltb x lo) eqn:E.
  - rewrite (proj2 (ltb_iff _ _ _) H). reflexivity.
  - apply ltb_false in E. rewrite (proj2 (ltb_iff _ _ _)); [reflexivity|].
    apply (lt_le_trans F _ lo); assumption.
Qed.
End Clip.

(** ** to_range_1d *)
Section ToRange.
Variable F : ofield.
Add Field FF : (of_field F).
Local Open Scope of_scope.

Lemma to_range_lo (s0 s1 t0 t1 : F) : s0 <> s1 -> to_range_elt s0 s1 t0 t1 s0 = t0.
Proof.
  intros H. unfold to_range_elt, range_a, range_b.
  assert (N : s1 - s0 <> 0) by (intros E; apply H; symmetry; apply sub_eq_0; exact E).
  pose proof (two_nz F) as T. unfold two in *. field. split; assumption.
Qed.
Lemma to_range_hi (s0 s1 t0 t1 : F) : s0 <> s1 -> to_range_elt s0 s1 t0 t1 s1 = t1.
Proof.
  intros H. unfold to_range_elt, range_a, range_b.
  assert (N : s1 - s0 <> 0) by (intros E; apply H; symmetry; apply sub_eq_0; exact E).
  pose proof (two_nz F) as T. unfold two in *. field. split; assumption.
Qed.
Lemma to_range_affine (s0 s1 t0 t1 c : F) : s0 <> s1 ->
  to_range_elt s0 s1 t0 t1 (s0 + c * (s1 - s0)) = t0 + c * (t1 - t0).
Proof.
  intros H. unfold to_range_elt, range_a, range_b.
  assert (N : s1 - s0 <> 0) by (intros E; apply H; symmetry; apply sub_eq_0; exact E).
  pose proof (two_nz F) as T. unfold two in *. field. split; assumption.
Qed.
Lemma to_range_back (s0 s1 t0 t1 x : F) : s0 <> s1 -> t0 <> t1 ->
  to_range_elt t0 t1 s0 s1 (to_range_elt s0 s1 t0 t1 x) = x.
Proof.
  intros H H'. unfold to_range_elt, range_a, range_b.
  assert (N : s1 - s0 <> 0) by (intros E; apply H; symmetry; apply sub_eq_0; exact E).
  assert (N' : t1 - t0 <> 0) by (intros E; apply H'; symmetry; apply sub_eq_0; exact E).
  pose proof (two_nz F) as T. unfold two in *. field. repeat split; assumption.
Qed.
Lemma to_range_inside (s0 s1 t0 t1 x : F) : s0 < s1 -> t0 <= t1 -> s0 <= x <= s1 ->
  t0 <= to_range_elt s0 s1 t0 t1 x <= t1.
Proof.
  intros Hs Ht [H1 H2].
  assert (N : s1 - s0 <> 0) by (apply pos_neq; apply (proj1 (sub_pos F s0 s1)); exact Hs).
  set (c := (x - s0) / (s1 - s0)).
  assert (E : x = s0 + c * (s1 - s0)) by (unfold c; field; exact N).
  rewrite E, to_range_affine by (apply lt_neq; exact Hs).
  assert (Hc0 : 0 <= c).
  { unfold c. apply div_nonneg; [apply (proj1 (sub_nonneg F s0 x)); exact H1|apply (proj1 (sub_pos F s0 s1)); exact Hs]. }
  assert (Hc1 : 0 <= 1 - c).
  { replace (1 - c) with ((s1 - x) / (s1 - s0)) by (unfold c; field; exact N).
    apply div_nonneg; [apply (proj1 (sub_nonneg F x s1)); exact H2|apply (proj1 (sub_pos F s0 s1)); exact Hs]. }
  assert (Ht' : 0 <= t1 - t0) by (apply (proj1 (sub_nonneg F t0 t1)); exact Ht).
  split.
  - replace t0 with (t0 + 0) at 1 by ring. apply add_le_compat; [apply le_refl|].
    apply mul_nonneg; assumption.
  - apply (proj2 (sub_nonneg F _ _)). replace (t1 - (t0 + c * (t1 - t0))) with ((1 - c) * (t1 - t0)) by ring.
    apply mul_nonneg; assumption.
Qed.

Lemma to_range_defaults (s0 s1 t0 t1 c : F) : s0 <> s1 ->
  to_range_1d [c] None None = [c * two - 1] /\
  to_range_1d [c] None (Some (t0, t1)) = [t0 + c * (t1 - t0)] /\
  to_range_1d [s0 + c * (s1 - s0)] (Some (s0, s1)) None = [c * two - 1].
Proof.
  intros H. unfold to_range_1d. cbn [map].
  assert (N : (0 : F) <> 1) by (intros E; apply (one_nz F); symmetry; exact E).
  assert (G : forall a b : F, to_range_elt 0 1 a b c = a + c * (b - a)).
  { intros a b. rewrite <- (to_range_affine 0 1 a b c N). f_equal. ring. }
  rewrite !G, to_range_affine by exact H. unfold two. repeat split; f_equal; ring.
Qed.
Lemma to_range_all (s0 s1 t0 t1 : F) : s0 <> s1 -> forall vals,
  let f := fun v => to_range_1d v (Some (s0, s1)) (Some (t0, t1)) in
  f [s0; s1] = [t0; t1] /\
  (forall c, f [s0 + c * (s1 - s0)] = [t0 + c * (t1 - t0)]) /\
  (t0 <> t1 -> to_range_1d (f vals) (Some (t0, t1)) (Some (s0, s1)) = vals) /\
  (s0 < s1 -> t0 <= t1 -> Forall (fun x => s0 <= x <= s1) vals ->
     Forall (fun y => t0 <= y <= t1) (f vals)) /\
  length (f vals) = length vals.
Proof.
  intros H vals f. unfold f, to_range_1d. cbn [map].
  split; [rewrite to_range_lo, to_range_hi by exact H; reflexivity|].
  split; [intros c; rewrite to_range_affine by exact H; reflexivity|].
  split; [intros H'; rewrite map_map; rewrite <- (map_id vals) at 2; apply map_ext;
          intros x; apply to_range_back; assumption|].
  split; [|apply map_length].
  intros Hs Ht Hv. rewrite Forall_forall in *. intros y Hy. apply in_map_iff in Hy.
  destruct Hy as (x & <- & Hx). apply to_range_inside; auto.
Qed.

Lemma to_range_kernel (s0 s1 t0 t1 : F) vals res :
  map_run zero (to_range_elt s0 s1 t0 t1) vals res ->
  shape res = [length vals] /\
  forall i, (i < length vals)%nat ->
    at_ res [i] = nth i (to_range_1d vals (Some (s0, s1)) (Some (t0, t1))) 0.
Proof.
  intros H. apply map_spec in H. destruct H as [H1 H2]. split; [exact H1|].
  intros i Hi. rewrite (H2 i (nth i vals 0)) by (apply nth_error_nth'; exact Hi).
  unfold to_range_1d. symmetry. erewrite nth_indep by (rewrite map_length; exact Hi).
  apply map_nth.
Qed.
End ToRange.

(** ** atleastnd, matrixform *)
Lemma offset_front sh idx k : offset (repeat 1 k ++ sh) (repeat 0 k ++ idx) = offset sh idx.
Proof. induction k as [|k IH]; cbn [repeat app offset]; [reflexivity|]. rewrite IH. lia. Qed.

Lemma prod_app_ones sh k : fold_right Nat.mul 1 (sh ++ repeat 1 k) = fold_right Nat.mul 1 sh.
Proof.
  induction sh as [|n sh IH]; cbn [app fold_right].
  - induction k as [|k IH]; cbn [repeat fold_right]; [reflexivity|]. rewrite IH. reflexivity.
  - rewrite IH. reflexivity.
Qed.

Lemma offset_zeros k : offset (repeat 1 k) (repeat 0 k) = 0.
Proof. induction k as [|k IH]; cbn [repeat offset]; [reflexivity|]. rewrite IH. reflexivity. Qed.

Lemma offset_back sh idx k : length idx = length sh ->
  offset (sh ++ repeat 1 k) (idx ++ repeat 0 k) = offset sh idx.
Proof.
  revert idx. induction sh as [|n sh IH]; intros [|i idx] H; try discriminate H.
  - apply offset_zeros.
  - cbn [app offset]. rewrite prod_app_ones, IH by (injection H; auto). reflexivity.
Qed.

Lemma atleastnd_spec {V} (x : numlike V) n front back :
  let a := as_array x in
  let b := atleastnd x n front back in
  let k := n - length (fshape a) in
  length (fshape b) = Nat.max n (length (fshape a)) /\
  fdata b = fdata a /\
  (front = true -> back = false ->
     fshape b = repeat 1 k ++ fshape a /\
     forall idx, length idx = length (fshape a) -> fget b (repeat 0 k ++ idx) = fget a idx) /\
  (~ (front = true /\ back = false) ->
     fshape b = fshape a ++ repeat 1 k /\
     forall idx, length idx = length (fshape a) -> fget b (idx ++ repeat 0 k) = fget a idx).
Proof.
  cbn zeta. unfold atleastnd. set (a := as_array x).
  destruct (n <=? length (fshape a)) eqn:E.
  - apply Nat.leb_le in E. replace (n - length (fshape a)) with 0 by lia. cbn [repeat app].
    split; [lia|]. split; [reflexivity|]. split.
    + intros _ _. split; [reflexivity|]. reflexivity.
    + intros _. rewrite app_nil_r. split; [reflexivity|]. intros idx _. rewrite app_nil_r. reflexivity.
  - apply Nat.leb_gt in E. destruct (front && negb back) eqn:Efb.
    + apply andb_prop in Efb. destruct Efb as [-> Eb]. apply negb_true_iff in Eb. subst back.
      cbn [fshape fdata]. split; [rewrite app_length, repeat_length; lia|]. split; [reflexivity|].
      split; [|intros H; exfalso; apply H; auto].
      intros _ _. split; [reflexivity|]. intros idx _. unfold fget. cbn [fshape fdata].
      rewrite offset_front. reflexivity.
    + cbn [fshape fdata]. split; [rewrite app_length, repeat_length; lia|]. split; [reflexivity|].
      split; [intros -> ->; discriminate Efb|].
      intros _. split; [reflexivity|]. intros idx H. unfold fget. cbn [fshape fdata].
      rewrite offset_back by exact H. reflexivity.
Qed.

Lemma matrixform_spec {V} (x : numlike V) :
  let a := as_array x in
  (forall n, fshape a = [n] ->
     exists b, matrixform x = Ok b /\ fshape b = [n; 1] /\ fdata b = fdata a /\
               forall i, fget b [i; 0] = fget a [i]) /\
  (length (fshape a) = 2 -> matrixform x = Ok a) /\
  (2 < length (fshape a) -> matrixform x = Err AssertionError).
Proof.
  cbn zeta. unfold matrixform. set (a := as_array x). split; [|split].
  - intros n E. rewrite E. cbn. eexists. split; [reflexivity|]. cbn [fshape fdata].
    split; [reflexivity|]. split; [reflexivity|]. intros i. unfold fget. cbn [fshape fdata].
    rewrite E. cbn. f_equal.
  - intros ->. reflexivity.
  - intros H. destruct (length (fshape a) <=? 2) eqn:E; [apply Nat.leb_le in E; lia|reflexivity].
Qed.

(** ** find1d *)
Section Find.
Context {V : Type} (eqv : V -> V -> bool).
Hypothesis eqv_spec : forall x y, eqv x y = true <-> x = y.

Lemma first_index_Some x space k : first_index eqv x space = Some k <->
  nth_error space k = Some x /\ forall j, j < k -> nth_error space j <> Some x.
Proof.
  revert k. induction space as [|y space IH]; intros k; cbn [first_index].
  - split; [discriminate|]. intros [H _]. destruct k; discriminate H.
  - destruct (eqv x y) eqn:E.
    + apply eqv_spec in E. subst y. split.
      * intros H. injection H as <-. split; [reflexivity|lia].
      * intros [H1 H2]. destruct k as [|k]; [reflexivity|]. exfalso. apply (H2 0); [lia|reflexivity].
    + assert (N : x <> y) by (intros H; apply eqv_spec in H; congruence).
      destruct k as [|k].
      * split.
        -- intros H. destruct (first_index eqv x space); discriminate H.
        -- intros [H _]. cbn in H. injection H as H. congruence.
      * cbn [nth_error]. rewrite <- Nat.succ_lt_mono || idtac.
        assert (S_eq : option_map S (first_index eqv x space) = Some (S k) <->
                       first_index eqv x space = Some k).
        { destruct (first_index eqv x space); cbn; split; intros H; congruence. }
        rewrite S_eq, IH. split; intros [H1 H2]; split; try exact H1.
        -- intros [|j] Hj; cbn; [congruence|]. apply H2. lia.
        -- intros j Hj. apply (H2 (S j)). lia.
Qed.

Lemma first_index_None x space : first_index eqv x space = None <-> ~ In x space.
Proof.
  induction space as [|y space IH]; cbn [first_index In]; [tauto|].
  destruct (eqv x y) eqn:E.
  - apply eqv_spec in E. subst. split; [discriminate|tauto].
  - assert (N : y <> x) by (intros H; symmetry in H; apply eqv_spec in H; congruence).
    destruct (first_index eqv x space); cbn.
    + split; [discriminate|]. intros H. exfalso. apply H. right.
      destruct (in_dec (fun a b => match eqv a b as q return eqv a b = q -> {a = b} + {a <> b} with
         | true => fun h => left (proj1 (eqv_spec a b) h)
         | false => fun h => right (fun e => eq_true_false_abs _ (proj2 (eqv_spec a b) e) h) end eq_refl)
         x space) as [I|I]; [exact I|]. apply IH in I. discriminate I.
    + split; [|tauto]. intros _ [H|H]; [contradiction|]. apply IH in H; [exact H|reflexivity].
Qed.

Lemma find1d_spec arr space res : find1d_run eqv arr space res ->
  shape res = [length arr] /\
  forall i x, nth_error arr i = Some x ->
    (forall k, at_ res [i] = Some k <->
               nth_error space k = Some x /\ forall j, j < k -> nth_error space j <> Some x) /\
    (at_ res [i] = None <-> ~ In x space).
Proof.
  unfold find1d_run. intros H. apply map_spec in H. destruct H as [H1 H2].
  split; [exact H1|]. intros i x Hx. rewrite (H2 i x Hx). split.
  - intros k. apply first_index_Some.
  - apply first_index_None.
Qed.

Lemma find1d_lookup arr space res : find1d_run eqv arr space res ->
  (forall x, In x arr -> In x space) ->
  shape res = [length arr] /\
  forall i x, nth_error arr i = Some x ->
    exists k, at_ res [i] = Some k /\ nth_error space k = Some x /\
              (forall k', k' < k -> nth_error space k' <> Some x) /\
              (NoDup space -> forall k', nth_error space k' = Some x -> k' = k).
Proof.
  intros H Hin. apply find1d_spec in H. destruct H as [HS H]. split; [exact HS|].
  intros i x Hx.
  destruct (H i x Hx) as [Hk Hn]. destruct (at_ res [i]) as [k|] eqn:E.
  - exists k. split; [reflexivity|]. destruct (proj1 (Hk k) eq_refl) as [H1 H2].
    split; [exact H1|]. split; [exact H2|]. intros ND k' Hk'.
    rewrite NoDup_nth_error in ND. apply ND; [apply nth_error_Some; congruence|congruence].
  - exfalso. apply (proj1 Hn eq_refl). apply Hin. eapply nth_error_In; eauto.
Qed.
End Find.

(** ** find2d *)
Section Find2.
Context {V : Type} (eqv : V -> V -> bool).

Lemma In_combine_range {A} (l : list A) j x :
  In (j, x) (combine (range (length l)) l) <-> nth_error l j = Some x.
Proof.
  unfold range. rewrite <- (Nat.sub_0_r j) at 2.
  assert (G : forall s, In (j, x) (combine (seq s (length l)) l) <->
              s <= j /\ nth_error l (j - s) = Some x).
  { induction l as [|y l IH]; intros s; cbn [length seq combine In].
    - split; [tauto|]. intros [_ H]. destruct (j - s); discriminate H.
    - rewrite IH. split.
      + intros [H|[H1 H2]].
        * injection H as -> ->. rewrite Nat.sub_diag. split; [lia|reflexivity].
        * split; [lia|]. replace (j - s) with (S (j - S s)) by lia. exact H2.
      + intros [H1 H2]. destruct (Nat.eq_dec s j) as [->|N].
        * left. rewrite Nat.sub_diag in H2. cbn in H2. injection H2 as ->. reflexivity.
        * right. split; [lia|]. replace (j - s) with (S (j - S s)) in H2 by lia. exact H2. }
  rewrite G. split; [tauto|]. intros H. split; [lia|exact H].
Qed.

Definition find2d_body (arr : list (list V)) (space : list V) i : list (update (option nat)) :=
  match nth_error arr i with
  | Some row => map (fun jx => store [i; fst jx] (first_index eqv (snd jx) space))
                    (combine (range (length row)) row)
  | None => []
  end.

Lemma In_find2d_body arr space i u : In u (find2d_body arr space i) ->
  exists row j x, nth_error arr i = Some row /\ nth_error row j = Some x /\
    u = store [i; j] (first_index eqv x space).
Proof.
  unfold find2d_body. destruct (nth_error arr i) as [row|] eqn:E; [|intros []].
  intros H. apply in_map_iff in H. destruct H as ([j x] & <- & H).
  apply In_combine_range in H. exists row, j, x. auto.
Qed.

Lemma find2d_schedule arr ncol space :
  schedule_independent (zeros (Some 0) [length arr; ncol]) (find2d_its eqv arr space).
Proof.
  apply (disjoint_schedule _ (find2d_body arr space)). intros i j u w Hi Hj Hij Hu Hw.
  apply In_find2d_body in Hu, Hw.
  destruct Hu as (r & k & x & _ & _ & ->), Hw as (r' & k' & x' & _ & _ & ->). cbn.
  intros E. injection E as E _. contradiction.
Qed.

Lemma find2d_cell arr ncol space res i j row x :
  find2d_run eqv arr ncol space res ->
  nth_error arr i = Some row -> nth_error row j = Some x ->
  at_ res [i; j] = first_index eqv x space.
Proof.
  intros Hrun Hrow Hx.
  rewrite (prange_cell _ (find2d_body arr space) _ _ i [i; j] Hrun).
  - unfold find2d_body. rewrite Hrow. apply exec_stores.
    + apply in_map_iff. exists (j, x). split; [reflexivity|]. apply In_combine_range. exact Hx.
    + intros u Hu E. apply in_map_iff in Hu. destruct Hu as ([k y] & <- & Hk).
      apply In_combine_range in Hk. cbn in E |- *. injection E as ->.
      rewrite Hx in Hk. injection Hk as ->. reflexivity.
  - intros a b u w Ha Hb Hab Hu Hw. apply In_find2d_body in Hu, Hw.
    destruct Hu as (r & k & y & _ & _ & ->), Hw as (r' & k' & x' & _ & _ & ->). cbn.
    intros E. injection E as E _. contradiction.
  - apply nth_error_Some. congruence.
  - intros k u Hk Hki Hu E. apply In_find2d_body in Hu.
    destruct Hu as (r & q & y & _ & _ & ->). cbn in E. injection E as E _. contradiction.
Qed.

Hypothesis eqv_spec : forall x y, eqv x y = true <-> x = y.

Lemma find2d_total arr ncol space res : find2d_run eqv arr ncol space res ->
  (forall row x, In row arr -> In x row -> In x space) ->
  shape res = [length arr; ncol] /\
  forall i j row x, nth_error arr i = Some row -> nth_error row j = Some x ->
    exists k, at_ res [i; j] = Some k /\ nth_error space k = Some x /\
              (forall k', k' < k -> nth_error space k' <> Some x) /\
              (NoDup space -> forall k', nth_error space k' = Some x -> k' = k).
Proof.
  intros Hrun Hin. split; [rewrite (prange_shape _ _ _ Hrun); reflexivity|].
  intros i j row x Hrow Hx. rewrite (find2d_cell _ _ _ _ _ _ _ _ Hrun Hrow Hx).
  destruct (first_index eqv x space) as [k|] eqn:E.
  - exists k. split; [reflexivity|]. apply (first_index_Some eqv eqv_spec) in E.
    destruct E as [E1 E2]. split; [exact E1|]. split; [exact E2|].
    intros ND k' Hk'. rewrite NoDup_nth_error in ND.
    apply ND; [apply nth_error_Some; congruence|congruence].
  - exfalso. apply (first_index_None eqv eqv_spec) in E. apply E.
    apply (Hin row x); eapply nth_error_In; eassumption.
Qed.
End Find2.

(** ** count_cols *)
Lemma count_cols_spec {V} (arr : list (list V)) res : count_cols_run arr res ->
  shape res = [length arr] /\
  forall i row, nth_error arr i = Some row -> at_ res [i] = length row.
Proof. apply map_spec. Qed.

(** ** count_cols_csr *)
Lemma count_cols_csr_length indptr indices : length (count_cols_csr indptr indices) = length indptr.
Proof. unfold count_cols_csr. rewrite map_length. apply range_length. Qed.

Lemma count_cols_csr_oob indptr indices : indptr <> [] ->
  nth_error (count_cols_csr indptr indices) (length indptr - 1) = Some None.
Proof.
  intros H. unfold count_cols_csr.
  assert (L : 0 < length indptr) by (destruct indptr; [congruence|cbn; lia]).
  rewrite nth_error_map, nth_error_range by lia. cbn [option_map].
  rewrite (proj2 (nth_error_None indptr (length indptr - 1 + 1))) by lia. reflexivity.
Qed.

(** ** indices_of_equal_rows *)
Section Rows.
Local Notation F := Qc_ofield.
Add Field QF : (of_field Qc_ofield).

Lemma In_where nx ny (R : nat -> nat -> F) tol i j :
  In (i, j) (where_le nx ny R tol) <-> i < nx /\ j < ny /\ (R i j <= tol)%F.
Proof.
  unfold where_le. rewrite in_flat_map. split.
  - intros (a & Ha & H). apply In_range in Ha. apply in_map_iff in H.
    destruct H as (b & E & H). injection E as -> ->. apply filter_In in H.
    destruct H as [H1 H2]. apply In_range in H1. auto.
  - intros (Hi & Hj & H). exists i. split; [apply In_range; exact Hi|].
    apply in_map_iff. exists j. split; [reflexivity|]. apply filter_In. split; [|exact H].
    apply In_range. exact Hj.
Qed.

Lemma StronglySorted_filter {A} (R : A -> A -> Prop) f l : StronglySorted R l -> StronglySorted R (filter f l).
Proof.
  induction 1 as [|x l Hl IH HF]; cbn; [constructor|]. destruct (f x); [|exact IH].
  constructor; [exact IH|]. apply Forall_forall. intros y Hy. apply filter_In in Hy.
  rewrite Forall_forall in HF. apply HF. tauto.
Qed.

Lemma StronglySorted_seq s n : StronglySorted lt (seq s n).
Proof.
  revert s. induction n as [|n IH]; intros s; cbn; constructor; [apply IH|].
  apply Forall_forall. intros x Hx. apply in_seq in Hx. lia.
Qed.

Lemma StronglySorted_app {A} (R : A -> A -> Prop) l1 l2 : StronglySorted R l1 -> StronglySorted R l2 ->
  (forall x y, In x l1 -> In y l2 -> R x y) -> StronglySorted R (l1 ++ l2).
Proof.
  induction 1 as [|x l Hl IH HF]; intros H2 H; cbn; [exact H2|].
  constructor.
  - apply IH; [exact H2|]. intros a b Ha Hb. apply H; [right|]; assumption.
  - rewrite Forall_forall in *. intros y Hy. apply in_app_or in Hy. destruct Hy as [Hy|Hy].
    + apply HF. exact Hy.
    + apply H; [left; reflexivity|exact Hy].
Qed.

Lemma StronglySorted_map {A B} (R : A -> A -> Prop) (S : B -> B -> Prop) (f : A -> B) l :
  (forall x y, R x y -> S (f x) (f y)) -> StronglySorted R l -> StronglySorted S (map f l).
Proof.
  intros H. induction 1 as [|x l Hl IH HF]; cbn; constructor; [exact IH|].
  rewrite Forall_forall in *. intros y Hy. apply in_map_iff in Hy. destruct Hy as (z & <- & Hz).
  apply H. apply HF. exact Hz.
Qed.

Lemma where_sorted nx ny (R : nat -> nat -> F) tol : StronglySorted row_lt (where_le nx ny R tol).
Proof.
  unfold where_le, range. generalize 0 at 2 as s. revert nx.
  induction nx as [|nx IH]; intros s; cbn [seq flat_map]; [constructor|].
  apply StronglySorted_app.
  - apply (StronglySorted_map lt); [intros a b H; right; cbn; lia|].
    apply StronglySorted_filter. apply StronglySorted_seq.
  - apply IH.
  - intros [a b] [c d] H1 H2. apply in_map_iff in H1. destruct H1 as (q & E & _).
    injection E as -> ->. apply in_flat_map in H2. destruct H2 as (p & Hp & H2).
    apply in_map_iff in H2. destruct H2 as (e & E & _). injection E as -> ->.
    apply in_seq in Hp. left. cbn. lia.
Qed.

Lemma row_dist_sum d r s : length r = d -> length s = d ->
  row_dist r s = sum d (fun c => absf (nth c r 0%Qc - nth c s 0%Qc)%F).
Proof.
  unfold row_dist. intros Hr Hs. subst d. revert s Hs. induction r as [|a r IH]; intros [|b s] Hs; try discriminate Hs.
  - reflexivity.
  - cbn [combine map suml length]. injection Hs as Hs. rewrite (IH s Hs), sum_S_l. reflexivity.
Qed.

Lemma rows_float d int_y x y tol :
  exists l, indices_of_equal_rows false int_y d d x y tol = Ok l /\ StronglySorted row_lt l /\
    forall i j, In (i, j) l <->
      i < length x /\ j < length y /\ (row_dist (nth i x []) (nth j y []) <= tol)%F.
Proof.
  unfold indices_of_equal_rows. rewrite Nat.eqb_refl. cbn [andb].
  destruct (length x =? length y) eqn:E.
  - apply Nat.eqb_eq in E. eexists. split; [reflexivity|]. unfold equal_rows_square_njit.
    rewrite E, Nat.ltb_irrefl. split; [apply where_sorted|]. intros i j. rewrite In_where. reflexivity.
  - eexists. split; [reflexivity|]. split; [apply where_sorted|]. intros i j.
    unfold equal_rows_njit. rewrite In_where. reflexivity.
Qed.

Lemma rows_float_l1 d int_y x y tol :
  Forall (fun r => length r = d) x -> Forall (fun r => length r = d) y ->
  exists l, indices_of_equal_rows false int_y d d x y tol = Ok l /\ StronglySorted row_lt l /\
    forall i j, In (i, j) l <->
      i < length x /\ j < length y /\ leb (l1_distance d (nth i x []) (nth j y [])) tol = true.
Proof.
  intros Hx Hy. destruct (rows_float d int_y x y tol) as (l & H1 & H2 & H3).
  exists l. split; [exact H1|]. split; [exact H2|]. intros i j. rewrite H3.
  rewrite Forall_forall in Hx, Hy.
  assert (G : i < length x -> j < length y ->
              row_dist (nth i x []) (nth j y []) = l1_distance d (nth i x []) (nth j y [])).
  { intros Hi Hj. apply row_dist_sum; [apply Hx|apply Hy]; apply nth_In; assumption. }
  split; intros (Hi & Hj & H); (split; [exact Hi|]; split; [exact Hj|]).
  - rewrite <- G by assumption. exact H.
  - rewrite G by assumption. exact H.
Qed.

Lemma rows_reject ix iy dX dY x y tol : dX <> dY ->
  indices_of_equal_rows ix iy dX dY x y tol = Err AssertionError.
Proof.
  intros H. unfold indices_of_equal_rows. apply Nat.eqb_neq in H. rewrite H. reflexivity.
Qed.

(** integer rows *)
Lemma Qc_of_int_leb a b : leb (of_int a : F) (of_int b) = (a <=? b)%Z.
Proof.
  change (Qc_leb (of_int a) (of_int b) = (a <=? b)%Z). unfold Qc_leb, of_int.
  apply eq_true_iff_eq. rewrite Qle_bool_iff, Z.leb_le. unfold Q2Qc. cbn [this].
  rewrite !Qred_correct. rewrite <- Zle_Qle. reflexivity.
Qed.
Lemma of_int_inj a b : of_int a = of_int b -> a = b.
Proof.
  intros H. apply Z.le_antisymm; apply Z.leb_le; rewrite <- Qc_of_int_leb, H; apply le_refl.
Qed.
Lemma of_int_add a b : @add F (of_int a) (of_int b) = of_int (a + b).
Proof.
  apply Qc_is_canon. change (@add Qc_ofield) with Qcplus. unfold of_int, Qcplus, Q2Qc. cbn [this].
  rewrite !Qred_correct, inject_Z_plus. reflexivity.
Qed.
Lemma of_int_sub a b : @sub F (of_int a) (of_int b) = of_int (a - b).
Proof.
  apply Qc_is_canon. change (@sub Qc_ofield) with Qcminus.
  unfold Z.sub, of_int, Qcminus, Qcplus, Qcopp, Q2Qc. cbn [this].
  rewrite !Qred_correct, inject_Z_plus, inject_Z_opp. reflexivity.
Qed.
Lemma of_int_0 : of_int 0 = @zero F.
Proof. apply Qc_is_canon. reflexivity. Qed.
Lemma of_int_opp a : @opp F (of_int a) = of_int (- a).
Proof.
  apply Qc_is_canon. change (@opp Qc_ofield) with Qcopp. unfold of_int, Qcopp, Q2Qc. cbn [this].
  rewrite !Qred_correct, inject_Z_opp. reflexivity.
Qed.
Lemma of_int_abs a : absf (of_int a : F) = of_int (Z.abs a).
Proof.
  unfold absf. rewrite <- of_int_0, Qc_of_int_leb.
  destruct (Z.leb_spec 0 a).
  - rewrite Z.abs_eq; [reflexivity|assumption].
  - rewrite Z.abs_neq by lia. apply of_int_opp.
Qed.
Lemma trunc_of_int z : trunc (of_int z) = z.
Proof.
  unfold trunc, of_int, Q2Qc. cbn [this].
  assert (E : forall q q', (q == q')%Q -> Qle_bool 0 q = Qle_bool 0 q').
  { intros q q' H. rewrite H. reflexivity. }
  rewrite (E _ _ (Qred_correct (inject_Z z))), (Qfloor_comp _ _ (Qred_correct (inject_Z z))).
  rewrite Qfloor_Z. destruct (Qle_bool 0 (inject_Z z)); [reflexivity|].
  assert (H : (- Qred (inject_Z z) == inject_Z (- z))%Q) by (rewrite Qred_correct, inject_Z_opp; reflexivity).
  rewrite (Qfloor_comp _ _ H), Qfloor_Z. lia.
Qed.

Fixpoint zdist (r s : list Z) : Z :=
  match r, s with
  | a :: r', b :: s' => (Z.abs (a - b) + zdist r' s')%Z
  | _, _ => 0%Z
  end.

Lemma row_dist_int r s : row_dist (map of_int r) (map of_int s) = of_int (zdist r s).
Proof.
  unfold row_dist. revert s. induction r as [|a r IH]; intros [|b s]; cbn [map combine suml zdist];
    try (symmetry; exact of_int_0).
  rewrite IH. cbn [fst snd]. rewrite of_int_sub, of_int_abs. apply of_int_add.
Qed.

Lemma zdist_nonneg r s : (0 <= zdist r s)%Z.
Proof. revert s. induction r as [|a r IH]; intros [|b s]; cbn; try lia. specialize (IH s). lia. Qed.
Lemma zdist_0 r s : length r = length s -> (zdist r s <= 0)%Z <-> r = s.
Proof.
  revert s. induction r as [|a r IH]; intros [|b s] H; try discriminate H; cbn.
  - split; [reflexivity|lia].
  - injection H as H. pose proof (zdist_nonneg r s). pose proof (IH s H) as I. split.
    + intros L. assert (a = b) by lia. subst b. f_equal. apply I. lia.
    + intros E. injection E as <- <-. assert (zdist r r <= 0)%Z by (apply I; reflexivity). lia.
Qed.

Lemma nth_int_rows x i : nth i (int_rows x) [] = map of_int (nth i x []).
Proof. unfold int_rows. change (@nil F) with (map of_int []). apply map_nth. Qed.

Lemma rows_int d (x y : list (list Z)) tol : length x <> length y ->
  Forall (fun r => length r = d) x -> Forall (fun r => length r = d) y ->
  exists l, indices_of_equal_rows true true d d (int_rows x) (int_rows y) tol = Ok l /\
    StronglySorted row_lt l /\
    forall i j, In (i, j) l <-> i < length x /\ j < length y /\ nth i x [] = nth j y [].
Proof.
  intros N Hx Hy. unfold indices_of_equal_rows. rewrite Nat.eqb_refl. cbn [andb].
  unfold int_rows at 1 2. rewrite !map_length. rewrite (proj2 (Nat.eqb_neq _ _) N).
  eexists. split; [reflexivity|]. unfold equal_rows_njit. split; [apply where_sorted|].
  intros i j. rewrite In_where. unfold int_rows at 1 2. rewrite !map_length.
  cbn [store_dtype]. rewrite !nth_int_rows, row_dist_int, trunc_of_int.
  rewrite <- of_int_0, Qc_of_int_leb, Z.leb_le.
  split; intros (Hi & Hj & H); (split; [exact Hi|]; split; [exact Hj|]).
  - apply zdist_0; [|exact H]. rewrite Forall_forall in Hx, Hy.
    rewrite (Hx (nth i x [])), (Hy (nth j y [])); [reflexivity| |]; apply nth_In; assumption.
  - rewrite H. apply zdist_0; reflexivity.
Qed.

Lemma all_eq_int r s : length r = length s ->
  all_eq (map of_int r) (map of_int s) = true <-> r = s.
Proof.
  unfold all_eq. revert s. induction r as [|a r IH]; intros [|b s] H; try discriminate H; cbn [map combine forallb].
  - split; reflexivity.
  - injection H as H. rewrite andb_true_iff, IH by exact H. cbn [fst snd].
    destruct (eqb_spec F (of_int a) (of_int b)) as [E|E].
    + apply of_int_inj in E. subst. split; [intros [_ ->]; reflexivity|intros E; injection E as <-; auto].
    + split; [intros [D _]; discriminate D|]. intros Q. injection Q as <- <-. contradiction.
Qed.

Lemma rows_int_square d (x y : list (list Z)) tol : length x = length y ->
  Forall (fun r => length r = d) x -> Forall (fun r => length r = d) y ->
  exists l, indices_of_equal_rows true true d d (int_rows x) (int_rows y) tol = Ok l /\
    forall i j, In (i, j) l <-> i = j /\ i < length x /\ nth i x [] = nth i y [].
Proof.
  intros E Hx Hy. unfold indices_of_equal_rows. rewrite Nat.eqb_refl. cbn [andb].
  unfold int_rows at 1 2. rewrite !map_length. rewrite (proj2 (Nat.eqb_eq _ _) E).
  eexists. split; [reflexivity|]. intros i j. unfold equal_rows_diag. rewrite in_map_iff. split.
  - intros (k & Q & H). injection Q as -> ->. apply filter_In in H. destruct H as [H1 H2].
    apply In_range in H1. unfold int_rows in H1. rewrite map_length in H1.
    split; [reflexivity|]. split; [exact H1|]. rewrite !nth_int_rows in H2.
    apply all_eq_int; [|exact H2]. rewrite Forall_forall in Hx, Hy.
    rewrite (Hx (nth j x [])), (Hy (nth j y [])); [reflexivity| |]; apply nth_In; congruence.
  - intros (<- & Hi & H). exists i. split; [reflexivity|]. apply filter_In. split.
    + apply In_range. unfold int_rows. rewrite map_length. exact Hi.
    + rewrite !nth_int_rows, H. apply all_eq_int; reflexivity.
Qed.
End Rows.

(** ** bool_to_float *)
Lemma bool_to_float_spec {V} a (vt vf : V) :
  bool_to_float a vt vf = map (fun b : bool => if b then vt else vf) a.
Proof.
  unfold bool_to_float. induction a as [|b a IH]; cbn; [reflexivity|]. rewrite IH. reflexivity.
Qed.

(** ** linspace, bin_centers *)
Section Lin.
Variable F : ofield.
Add Field FL : (of_field F).
Local Open Scope of_scope.

Lemma bin_centers_spec (e : list F) :
  length (bin_centers e) = (length e - 1)%nat /\
  forall i, (i + 1 < length e)%nat ->
    let c := nth i (bin_centers e) 0 in
    let l := nth i e 0 in let r := nth (i + 1) e 0 in
    c = (l + r) / two /\ c - l = r - c /\ (l < r -> l < c /\ c < r).
Proof.
  unfold bin_centers. rewrite map_length, range_length. split; [reflexivity|].
  intros i Hi. cbn zeta.
  set (g := fun i => (nth i e 0 + nth (i + 1) e 0) / two).
  assert (E : nth i (map g (range (length e - 1))) 0 = g i).
  { erewrite nth_indep by (rewrite map_length, range_length; lia).
    rewrite map_nth with (d := 0%nat). rewrite nth_range by lia. reflexivity. }
  rewrite E. unfold g. set (l := nth i e 0). set (r := nth (i + 1) e 0).
  pose proof (two_nz F) as T. split; [reflexivity|]. split.
  - unfold two in *. field. exact T.
  - intros H. assert (P : 0 < (r - l) / two).
    { apply div_pos; [apply (proj1 (sub_pos F l r)); exact H|apply two_pos]. }
    split; apply (proj2 (sub_pos F _ _)).
    + replace ((l + r) / two - l) with ((r - l) / two); [exact P|]. unfold two in *. field. exact T.
    + replace (r - (l + r) / two) with ((r - l) / two); [exact P|]. unfold two in *. field. exact T.
Qed.

Lemma linspace1d_spec (a b : F) N : (2 <= N)%nat ->
  exists l, linspace1d a b N = Ok l /\ length l = N /\ nth 0 l 0 = a /\ nth (N - 1) l 0 = b /\
    forall i, (i + 1 < N)%nat -> nth (i + 1) l 0 - nth i l 0 = (b - a) / of_nat (N - 1).
Proof.
  intros HN. unfold linspace1d. destruct (N =? 1)%nat eqn:E; [apply Nat.eqb_eq in E; lia|].
  eexists. split; [reflexivity|]. split; [rewrite map_length; apply range_length|].
  set (g := fun i => a + of_nat i * ((b - a) / of_nat (N - 1))).
  assert (G : forall i, (i < N)%nat -> nth i (map g (range N)) 0 = g i).
  { intros i Hi. erewrite nth_indep by (rewrite map_length, range_length; lia).
    rewrite map_nth with (d := 0%nat). rewrite nth_range by lia. reflexivity. }
  assert (NZ : (of_nat (N - 1) : F) <> 0) by (apply pos_neq, of_nat_pos; lia).
  rewrite !G by lia. split; [unfold g; cbn [of_nat]; ring|].
  split; [unfold g; field; exact NZ|]. intros i Hi. rewrite !G by lia. unfold g.
  rewrite of_nat_add. cbn [of_nat]. field. exact NZ.
Qed.

(** Entry [c] of point [i]. *)
Lemma linspace_nd_spec (L : F) (p0 p1 : list F) N : (2 <= N)%nat -> L <> 0 -> length p0 = length p1 ->
  exists l, linspace_nd L p0 p1 N = Ok l /\ length l = N /\
    nth 0 l [] = map Some p0 /\ nth (N - 1) l [] = map Some p1 /\
    forall i c, (i < N)%nat -> (c < length p0)%nat ->
      nth_error (nth i l []) c =
        Some (Some (nth c p0 0 + of_nat i * ((nth c p1 0 - nth c p0 0) / of_nat (N - 1)))).
Proof.
  intros HN HL HP. unfold linspace_nd.
  destruct (N =? 0)%nat eqn:E0; [apply Nat.eqb_eq in E0; lia|].
  destruct (N =? 1)%nat eqn:E1; [apply Nat.eqb_eq in E1; lia|].
  destruct (eqb_spec F L 0) as [E|_]; [contradiction|].
  eexists. split; [reflexivity|]. split; [rewrite map_length; apply range_length|].
  match goal with |- context [map ?h (range N)] => set (g := h) end.
  assert (G : forall i, (i < N)%nat -> nth i (map g (range N)) [] = g i).
  { intros i Hi. erewrite nth_indep by (rewrite map_length, range_length; lia).
    rewrite map_nth with (d := 0%nat). rewrite nth_range by lia. reflexivity. }
  assert (NZ : (of_nat (N - 1) : F) <> 0) by (apply pos_neq, of_nat_pos; lia).
  rewrite !G by lia. split; [|split].
  - unfold g. destruct (0 =? N - 1)%nat eqn:E; [apply Nat.eqb_eq in E; lia|reflexivity].
  - unfold g. rewrite Nat.eqb_refl. reflexivity.
  - intros i c Hi Hc. rewrite G by exact Hi. unfold g.
    destruct (i =? N - 1)%nat eqn:Ei.
    + apply Nat.eqb_eq in Ei. subst i. rewrite nth_error_map.
      rewrite (nth_error_nth' p1 0) by lia. cbn. do 2 f_equal. field. exact NZ.
    + destruct (i =? 0)%nat eqn:Ei0.
      * apply Nat.eqb_eq in Ei0. subst i. rewrite nth_error_map.
        rewrite (nth_error_nth' p0 0) by lia. cbn. do 2 f_equal. ring.
      * rewrite nth_error_map, !map_map. cbn [option_map].
        clear G g. revert p1 HP c Hc. induction p0 as [|x p0 IH]; intros [|y p1] HP c Hc;
          try discriminate HP; [cbn in Hc; lia|].
        destruct c as [|c].
        -- cbn. do 2 f_equal. field. split; assumption.
        -- cbn [combine map nth_error nth]. apply IH; [injection HP; auto|cbn in Hc; lia].
Qed.

Lemma linspace_nd_nan (p : list F) N i : (2 <= N)%nat -> (0 < i)%nat -> (i < N - 1)%nat ->
  exists l, linspace_nd 0 p p N = Ok l /\ nth i l [] = map (fun _ => None) p.
Proof.
  intros HN Hi0 Hi. unfold linspace_nd.
  destruct (N =? 0)%nat eqn:E0; [apply Nat.eqb_eq in E0; lia|].
  destruct (N =? 1)%nat eqn:E1; [apply Nat.eqb_eq in E1; lia|].
  rewrite eqb_refl. eexists. split; [reflexivity|].
  match goal with |- context [map ?h (range N)] => set (g := h) end.
  assert (G : forall i, (i < N)%nat -> nth i (map g (range N)) [] = g i).
  { intros j Hj. erewrite nth_indep by (rewrite map_length, range_length; lia).
    rewrite map_nth with (d := 0%nat). rewrite nth_range by lia. reflexivity. }
  rewrite G by lia. unfold g.
  destruct (i =? N - 1)%nat eqn:Ei; [apply Nat.eqb_eq in Ei; lia|].
  destruct (i =? 0)%nat eqn:Ei0; [apply Nat.eqb_eq in Ei0; lia|].
  rewrite !map_map. cbn [option_map]. clear. induction p as [|x p IH]; cbn; [reflexivity|].
  rewrite IH. reflexivity.
Qed.
End Lin.
