(** Iterations that write disjoint sets of cells commute: every interleaving
    yields the memory of the sequential loop. *)
From Verif Require Import Prelude ParallelModel.

Section Par.
Context {V : Type}.
Implicit Types (m : memory V) (tr : list (update V)) (its : list (list (update V))).

Definition on_cell (c : cell) (u : update V) : bool :=
  if cell_dec c (u_cell u) then true else false.

Lemma exec_filter tr m c :
  exec m tr c = fold_left (fun v u => u_fun u v) (filter (on_cell c) tr) (m c).
Proof.
  unfold exec. revert m. induction tr as [|u tr IH]; intros m; [reflexivity|].
  cbn [fold_left filter]. rewrite IH. unfold on_cell at 2, step.
  destruct (cell_dec c (u_cell u)); reflexivity.
Qed.

Definition disjoint_its its : Prop :=
  forall i j it jt u w, i <> j -> nth_error its i = Some it -> nth_error its j = Some jt ->
    In u it -> In w jt -> u_cell u <> u_cell w.

Lemma filter_none c (l : list (update V)) :
  (forall u, In u l -> u_cell u <> c) -> filter (on_cell c) l = [].
Proof.
  induction l as [|u l IH]; intros H; [reflexivity|]. cbn [filter].
  unfold on_cell at 1. destruct (cell_dec c (u_cell u)) as [E|E].
  - exfalso. apply (H u); [left; reflexivity | congruence].
  - apply IH. intros w Hw. apply H. right; exact Hw.
Qed.

Lemma concat_In (l : list (list (update V))) u :
  In u (concat l) -> exists i it, nth_error l i = Some it /\ In u it.
Proof.
  intros H. apply in_concat in H. destruct H as (it & Hit & Hu).
  apply In_nth_error in Hit. destruct Hit as [i Hi]. exists i, it. auto.
Qed.

Lemma disjoint_tail pre x it post :
  disjoint_its (pre ++ (x :: it) :: post) -> disjoint_its (pre ++ it :: post).
Proof.
  intros D i j li lj u w Hij Hi Hj Hu Hw.
  assert (G : forall k lk z, nth_error (pre ++ it :: post) k = Some lk -> In z lk ->
            exists lk', nth_error (pre ++ (x :: it) :: post) k = Some lk' /\ In z lk').
  { intros k lk z Hk Hz. destruct (lt_dec k (length pre)) as [L|L].
    - exists lk. split; [|exact Hz]. rewrite nth_error_app1 in * by exact L. exact Hk.
    - rewrite nth_error_app2 in Hk |- * by lia.
      destruct (k - length pre) as [|q]; cbn in *.
      + injection Hk as <-. exists (x :: it). split; [reflexivity|right; exact Hz].
      + exists lk. auto. }
  destruct (G _ _ _ Hi Hu) as (l1 & H1 & I1). destruct (G _ _ _ Hj Hw) as (l2 & H2 & I2).
  exact (D i j l1 l2 u w Hij H1 H2 I1 I2).
Qed.

Lemma interleave_filter its tr :
  interleave its tr -> disjoint_its its ->
  forall c, filter (on_cell c) tr = filter (on_cell c) (concat its).
Proof.
  induction 1 as [its Hnil | pre x it post tr Hil IH]; intros D c.
  - replace (concat its) with (@nil (update V)); [reflexivity|].
    induction Hnil as [|y l E _ IHl]; [reflexivity|]. cbn. subst y. apply IHl.
    intros i j li lj u w Hij Hi Hj. apply (D (S i) (S j)); cbn; auto.
  - specialize (IH (disjoint_tail _ _ _ _ D) c).
    rewrite concat_app in *. cbn [concat filter] in *.
    rewrite filter_app in *. cbn [app filter] in *.
    destruct (on_cell c x) eqn:Ex.
    + assert (E : c = u_cell x).
      { unfold on_cell in Ex. destruct (cell_dec c (u_cell x)); [assumption|discriminate]. }
      assert (Hpre : filter (on_cell c) (concat pre) = []).
      { apply filter_none. intros u Hu. apply concat_In in Hu.
        destruct Hu as (i & li & Hi & Hu). subst c.
        assert (L : i < length pre) by (apply nth_error_Some; congruence).
        apply (D i (length pre) li (x :: it)); auto.
        - lia.
        - rewrite nth_error_app1 by exact L. exact Hi.
        - rewrite nth_error_app2 by lia. rewrite Nat.sub_diag. reflexivity.
        - left; reflexivity. }
      rewrite Hpre in *. cbn [app] in *. rewrite <- IH. reflexivity.
    + exact IH.
Qed.

(** The order of iterations does not matter. *)
Lemma interleave_exec its tr m c :
  disjoint_its its -> interleave its tr -> exec m tr c = exec m (concat its) c.
Proof.
  intros D H. rewrite !exec_filter, (interleave_filter its tr H D c). reflexivity.
Qed.

(** The sequential run is one of the interleavings. *)
Lemma interleave_concat {A} (its : list (list A)) : interleave its (concat its).
Proof.
  assert (G : forall l pre : list (list A), Forall (eq []) pre -> interleave (pre ++ l) (concat l)).
  { induction l as [|it l IH]; intros pre Hp.
    - rewrite app_nil_r. cbn. constructor. exact Hp.
    - cbn [concat]. induction it as [|x it IHit]; cbn [app].
      + change (pre ++ [] :: l) with (pre ++ [[]] ++ l). rewrite app_assoc.
        apply IH. apply Forall_app. split; [exact Hp|]. constructor; auto.
      + constructor. exact IHit. }
  apply (G its []). constructor.
Qed.

Lemma prange_exists (init : ndarray V) its : exists res, prange_run init its res.
Proof.
  exists (ND (shape init) (exec (at_ init) (concat its))), (concat its).
  split; [apply interleave_concat | reflexivity].
Qed.

(** A run over [its] where iteration [i] is [body i]. *)
Lemma disjoint_body (body : nat -> list (update V)) n :
  (forall i j u w, i < n -> j < n -> i <> j -> In u (body i) -> In w (body j) ->
     u_cell u <> u_cell w) ->
  disjoint_its (map body (range n)).
Proof.
  intros H i j li lj u w Hij Hi Hj Hu Hw.
  assert (G : forall k lk, nth_error (map body (range n)) k = Some lk -> k < n /\ lk = body k).
  { intros k lk Hk.
    assert (Hl : k < n).
    { assert (L : k < length (map body (range n))) by (apply nth_error_Some; congruence).
      unfold range in L. rewrite map_length, seq_length in L. exact L. }
    split; [exact Hl|].
    assert (E : nth_error (range n) k = Some k).
    { unfold range. rewrite (nth_error_nth' _ 0) by (rewrite seq_length; exact Hl).
      rewrite seq_nth by exact Hl. reflexivity. }
    rewrite (map_nth_error body k (range n) E) in Hk. congruence. }
  destruct (G _ _ Hi) as [Li ->]. destruct (G _ _ Hj) as [Lj ->].
  apply (H i j); auto.
Qed.

(** The only updates of cell [c] are those of its owner iteration. *)
Lemma filter_concat_body (body : nat -> list (update V)) n i c :
  i < n ->
  (forall j u, j < n -> j <> i -> In u (body j) -> u_cell u <> c) ->
  filter (on_cell c) (concat (map body (range n))) = filter (on_cell c) (body i).
Proof.
  intros Hi Hj. unfold range.
  assert (E : seq 0 n = seq 0 i ++ i :: seq (S i) (n - S i)).
  { replace n with (i + S (n - S i)) at 1 by lia. rewrite seq_app. reflexivity. }
  rewrite E, map_app, concat_app. cbn [map concat]. rewrite !filter_app.
  assert (N : forall l, (forall j, In j l -> j < n /\ j <> i) ->
              filter (on_cell c) (concat (map body l)) = []).
  { intros l Hl. apply filter_none. intros u Hu. apply in_concat in Hu.
    destruct Hu as (it & Hit & Hu). apply in_map_iff in Hit. destruct Hit as (j & <- & Hjl).
    destruct (Hl j Hjl). apply (Hj j u); auto. }
  rewrite (N (seq 0 i)), (N (seq (S i) (n - S i))).
  - cbn. rewrite app_nil_r. reflexivity.
  - intros j H. apply in_seq in H. lia.
  - intros j H. apply in_seq in H. lia.
Qed.

(** Main tool: if only iteration [i] touches [c], the final value of [c] is what
    iteration [i] makes of the initial value, in every schedule. *)
Lemma prange_cell (init : ndarray V) (body : nat -> list (update V)) n res i c :
  prange_run init (map body (range n)) res ->
  (forall i j u w, i < n -> j < n -> i <> j -> In u (body i) -> In w (body j) ->
     u_cell u <> u_cell w) ->
  i < n ->
  (forall j u, j < n -> j <> i -> In u (body j) -> u_cell u <> c) ->
  at_ res c = exec (at_ init) (body i) c.
Proof.
  intros (tr & Htr & ->) D Hi Hc. cbn [at_].
  rewrite (interleave_exec _ tr (at_ init) c (disjoint_body body n D) Htr).
  rewrite !exec_filter, (filter_concat_body body n i c Hi Hc). reflexivity.
Qed.

(** If no iteration touches [c], it keeps its initial value. *)
Lemma prange_untouched (init : ndarray V) its res c :
  prange_run init its res ->
  (forall it u, In it its -> In u it -> u_cell u <> c) ->
  at_ res c = at_ init c.
Proof.
  intros (tr & Htr & ->) H. cbn [at_]. rewrite exec_filter.
  replace (filter (on_cell c) tr) with (@nil (update V)); [reflexivity|].
  symmetry. apply filter_none. intros u Hu.
  assert (G : exists it, In it its /\ In u it).
  { clear H. revert Hu. induction Htr as [|pre x it post tr Hil IH]; intros Hu; [destruct Hu|].
    destruct Hu as [<-|Hu].
    - exists (x :: it). split; [apply in_or_app; right; left; reflexivity|left; reflexivity].
    - destruct (IH Hu) as (jt & Hjt & Hin). apply in_app_or in Hjt.
      destruct Hjt as [Hjt|[<-|Hjt]].
      + exists jt. split; [apply in_or_app; left|]; auto.
      + exists (x :: it). split; [apply in_or_app; right; left; reflexivity|right; exact Hin].
      + exists jt. split; [apply in_or_app; right; right|]; auto. }
  destruct G as (it & Hit & Hin). exact (H it u Hit Hin).
Qed.

Lemma prange_shape (init : ndarray V) its res : prange_run init its res -> shape res = shape init.
Proof. intros (tr & _ & ->). reflexivity. Qed.

(** A list of stores with distinct cells leaves each stored value in place. *)
Lemma exec_stores (l : list (update V)) m c v :
  In (store c v) l ->
  (forall u, In u l -> u_cell u = c -> u_fun u = fun _ => v) ->
  exec m l c = v.
Proof.
  intros Hin Hall. rewrite exec_filter.
  assert (G : forall l' w, (forall u, In u l' -> u_fun u = fun _ => v) ->
     (l' <> [] \/ w = v) -> fold_left (fun v u => u_fun u v) l' w = v).
  { induction l' as [|u l' IH]; intros w Hu Hw; cbn [fold_left].
    - destruct Hw; congruence.
    - apply IH; [intros z Hz; apply Hu; right; exact Hz|]. right.
      rewrite (Hu u (or_introl eq_refl)). reflexivity. }
  apply G.
  - intros u Hu. apply filter_In in Hu. destruct Hu as [Hu Hc]. unfold on_cell in Hc.
    destruct (cell_dec c (u_cell u)) as [E|E]; [|discriminate]. apply Hall; auto.
  - left. intros E.
    assert (In (store c v) (filter (on_cell c) l)).
    { apply filter_In. split; [exact Hin|]. unfold on_cell. cbn [u_cell store].
      destruct (cell_dec c c); congruence. }
    rewrite E in H. destruct H.
Qed.
End Par.
