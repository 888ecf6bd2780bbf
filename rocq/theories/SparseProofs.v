(** Proofs about jagged arrays and CSR matrices. *)
From Verif Require Import Prelude OField SparseModel SparseSpec.

(** ** lower/upper_spdata *)
Lemma take_map {A} (l : list A) d inds : (forall i, In i inds -> i < length l) ->
  take l inds = Ok (map (fun i => nth i l d) inds).
Proof.
  induction inds as [|i is IH]; intros H; cbn [take map]; [reflexivity|].
  rewrite (nth_error_nth' l d) by (apply H; left; reflexivity).
  rewrite IH by (intros j Hj; apply H; right; exact Hj). reflexivity.
Qed.

Lemma combine_map {A B C} (f : C -> A) (g : C -> B) l :
  combine (map f l) (map g l) = map (fun x => (f x, g x)) l.
Proof. induction l as [|x l IH]; cbn; [reflexivity|]. rewrite IH. reflexivity. Qed.

Lemma map_nth_seq {A} (l : list A) d : map (fun i => nth i l d) (seq 0 (length l)) = l.
Proof.
  induction l as [|x l IH]; cbn [length seq map nth]; [reflexivity|]. f_equal.
  rewrite <- seq_shift, map_map. exact IH.
Qed.

Lemma filter_map {A B} (f : A -> B) p l : filter p (map f l) = map f (filter (fun x => p (f x)) l).
Proof. induction l as [|x l IH]; cbn; [reflexivity|]. destruct (p (f x)); cbn; rewrite IH; reflexivity. Qed.

Lemma triples_seq {A} (a0 : A) data rows cols n : length data = n -> length rows = n -> length cols = n ->
  triples (data, rows, cols) = map (fun i => (nth i data a0, nth i rows 0, nth i cols 0)) (seq 0 n).
Proof.
  intros H1 H2 H3. unfold triples.
  rewrite <- (map_nth_seq data a0), <- (map_nth_seq rows 0), <- (map_nth_seq cols 0) at 1.
  rewrite H1, H2, H3, combine_map, combine_map. reflexivity.
Qed.

Lemma select_spec {A} (data : list A) rows cols n (p : nat -> nat -> bool) :
  length data = n -> length rows = n -> length cols = n ->
  let inds := where1 (fun k => p (nth k rows 0) (nth k cols 0)) n in
  exists d r c, take data inds = Ok d /\ take rows inds = Ok r /\ take cols inds = Ok c /\
    length d = length r /\ length c = length r /\
    triples (d, r, c) = filter (fun t => p (t_row t) (t_col t)) (triples (data, rows, cols)).
Proof.
  intros H1 H2 H3 inds.
  assert (B : forall i, In i inds -> i < n).
  { intros i Hi. unfold inds, where1 in Hi. apply filter_In in Hi. destruct Hi as [Hi _].
    apply in_seq in Hi. lia. }
  destruct data as [|a0 data'] eqn:Ed.
  - cbn in H1. subst n. unfold inds, where1. exists [], [], []. repeat split; reflexivity.
  - rewrite <- Ed in *. exists (map (fun i => nth i data a0) inds), (map (fun i => nth i rows 0) inds),
      (map (fun i => nth i cols 0) inds).
    rewrite !map_length.
    split; [apply take_map; intros i Hi; rewrite H1; apply B; exact Hi|].
    split; [apply take_map; intros i Hi; rewrite H2; apply B; exact Hi|].
    split; [apply take_map; intros i Hi; rewrite H3; apply B; exact Hi|].
    split; [reflexivity|]. split; [reflexivity|].
    rewrite (triples_seq a0 data rows cols n) by assumption. rewrite filter_map.
    unfold triples. rewrite combine_map, combine_map. unfold inds, where1, t_row, t_col. reflexivity.
Qed.

Lemma lower_ok {A} (data : list A) rows cols n :
  length data = n -> length rows = n -> length cols = n ->
  exists d r c, lower_spdata data rows cols = Ok (d, r, c) /\
    length d = length r /\ length c = length r /\
    triples (d, r, c) = filter (fun t => t_col t <=? t_row t) (triples (data, rows, cols)).
Proof.
  intros H1 H2 H3. unfold lower_spdata. rewrite H2, H3, Nat.eqb_refl.
  destruct (select_spec data rows cols n (fun r c => c <=? r) H1 H2 H3)
    as (d & r & c & E1 & E2 & E3 & L1 & L2 & E4).
  rewrite E1. cbn [bind]. rewrite E2. cbn [bind]. rewrite E3. cbn [bind].
  exists d, r, c. auto.
Qed.

Lemma upper_ok {A} (data : list A) rows cols n :
  length data = n -> length rows = n -> length cols = n ->
  exists d r c, upper_spdata data rows cols = Ok (d, r, c) /\
    length d = length r /\ length c = length r /\
    triples (d, r, c) = filter (fun t => t_row t <=? t_col t) (triples (data, rows, cols)).
Proof.
  intros H1 H2 H3. unfold upper_spdata. rewrite H2, H3, Nat.eqb_refl.
  destruct (select_spec data rows cols n (fun r c => r <=? c) H1 H2 H3)
    as (d & r & c & E1 & E2 & E3 & L1 & L2 & E4).
  rewrite E1. cbn [bind]. rewrite E2. cbn [bind]. rewrite E3. cbn [bind].
  exists d, r, c. auto.
Qed.

Lemma split_cover {A} (l : list (A * nat * nat)) t : In t l <->
  In t (filter (fun t => t_col t <=? t_row t) l) \/ In t (filter (fun t => t_row t <=? t_col t) l).
Proof.
  rewrite !filter_In, !Nat.leb_le. split; [|tauto]. intros H.
  destruct (Nat.le_ge_cases (t_col t) (t_row t)); auto.
Qed.

Lemma split_count {A} (l : list (A * nat * nat)) :
  length (filter (fun t => t_col t <=? t_row t) l) + length (filter (fun t => t_row t <=? t_col t) l) =
  length l + length (filter (fun t => t_row t =? t_col t) l).
Proof.
  induction l as [|t l IH]; cbn [filter length]; [reflexivity|].
  destruct (Nat.leb_spec (t_col t) (t_row t)), (Nat.leb_spec (t_row t) (t_col t)),
    (Nat.eqb_spec (t_row t) (t_col t)); cbn [length]; lia.
Qed.

Lemma split_diag {A} (l : list (A * nat * nat)) t :
  In t (filter (fun t => t_col t <=? t_row t) l) /\ In t (filter (fun t => t_row t <=? t_col t) l) <->
  In t l /\ t_row t = t_col t.
Proof. rewrite !filter_In, !Nat.leb_le. intuition lia. Qed.

(** ** prefix sums *)
Definition ptrs (ws : list nat) : list nat := map (fun k => total (firstn k ws)) (seq 0 (length ws + 1)).

Lemma ptrs_length ws : length (ptrs ws) = length ws + 1.
Proof. unfold ptrs. rewrite map_length, seq_length. reflexivity. Qed.

Lemma nth_error_ptrs ws k : k <= length ws -> nth_error (ptrs ws) k = Some (total (firstn k ws)).
Proof.
  intros H. unfold ptrs. rewrite nth_error_map.
  rewrite (nth_error_nth' _ 0) by (rewrite seq_length; lia). rewrite seq_nth by lia. reflexivity.
Qed.

Lemma total_app l k : total (l ++ k) = total l + total k.
Proof. unfold total. induction l as [|x l IH]; cbn; [reflexivity|]. lia. Qed.

Lemma ptrs_snoc ws w : ptrs (ws ++ [w]) = ptrs ws ++ [total ws + w].
Proof.
  unfold ptrs. rewrite app_length. cbn [length]. rewrite !Nat.add_1_r, seq_S, map_app.
  f_equal.
  - apply map_ext_in. intros k Hk. apply in_seq in Hk. f_equal.
    rewrite firstn_app. replace (k - length ws) with 0 by lia. rewrite firstn_O, app_nil_r. reflexivity.
  - cbn [map Nat.add]. rewrite firstn_all2 by (rewrite app_length; cbn; lia).
    rewrite total_app. unfold total at 2. cbn. rewrite Nat.add_0_r. reflexivity.
Qed.

Lemma jagged_to_csr_data_ok counts :
  jagged_to_csr_data counts = (concat (map (seq 0) counts), ptrs counts).
Proof.
  unfold jagged_to_csr_data.
  assert (G : fold_left (fun (st : nat * list nat * list (list nat)) n =>
      let '(c, ptr, ind) := st in (c + n, ptr ++ [c + n], ind ++ [seq 0 n])) counts (0, [0], [])
      = (total counts, ptrs counts, map (seq 0) counts)).
  { induction counts as [|n counts IH] using rev_ind; [reflexivity|].
    rewrite fold_left_app, IH. cbn [fold_left]. rewrite total_app, ptrs_snoc, map_app.
    unfold total at 3. cbn. rewrite Nat.add_0_r. reflexivity. }
  rewrite G. reflexivity.
Qed.

Lemma dense_ptrs {A} nC (rows : list A) :
  map (fun k => k * nC) (seq 0 (length rows + 1)) = ptrs (map (fun _ => nC) rows).
Proof.
  unfold ptrs. rewrite map_length. apply map_ext_in. intros k Hk. apply in_seq in Hk.
  assert (L : k <= length rows) by lia. clear Hk. revert k L.
  induction rows as [|r rows IH]; intros k L.
  - cbn in L. assert (k = 0) by lia. subst. reflexivity.
  - destruct k as [|k]; [reflexivity|]. cbn [map firstn total fold_right]. cbn in L.
    fold (total (firstn k (map (fun _ : A => nC) rows))). rewrite <- IH by lia. cbn. lia.
Qed.

Lemma skipn_concat {A} (rows : list (list A)) i :
  skipn (total (firstn i (map (@length A) rows))) (concat rows) = concat (skipn i rows).
Proof.
  revert i. induction rows as [|r rows IH]; intros [|i]; cbn [map firstn skipn concat]; try reflexivity.
  cbn [total fold_right]. fold (total (firstn i (map (@length A) rows))).
  rewrite skipn_app. rewrite skipn_all2 by lia. cbn [app].
  replace (length r + total (firstn i (map (@length A) rows)) - length r)
    with (total (firstn i (map (@length A) rows))) by lia. apply IH.
Qed.

Lemma firstn_S_total ws i w : nth_error ws i = Some w ->
  total (firstn (i + 1) ws) = total (firstn i ws) + w.
Proof.
  revert i. induction ws as [|x ws IH]; intros [|i] H; try discriminate H.
  - cbn in *. injection H as ->. unfold total. cbn. lia.
  - cbn [nth_error] in H. cbn [Nat.add firstn total fold_right].
    fold (total (firstn (i + 1) ws)). fold (total (firstn i ws)). rewrite (IH i H). lia.
Qed.

Lemma slice_rows {A} (rows : list (list A)) i r : nth_error rows i = Some r ->
  slice (total (firstn i (map (@length A) rows))) (total (firstn (i + 1) (map (@length A) rows)))
        (concat rows) = r.
Proof.
  intros H. unfold slice.
  rewrite (firstn_S_total _ i (length r)) by (rewrite nth_error_map, H; reflexivity).
  rewrite Nat.add_comm, Nat.add_sub, skipn_concat.
  assert (E : skipn i rows = r :: skipn (S i) rows).
  { clear - H. revert i H. induction rows as [|x rows IH]; intros [|i] H; try discriminate H.
    - cbn in *. injection H as ->. reflexivity.
    - cbn [skipn nth_error] in *. rewrite (IH i H). reflexivity. }
  rewrite E. cbn [concat]. rewrite firstn_app, Nat.sub_diag, firstn_O, app_nil_r. apply firstn_all.
Qed.

(** ** matrices stored row by row with columns 0, 1, 2, ... *)
Section Rowwise.
Context {F : ofield}.
Add Field SFF : (of_field F).
Implicit Types rows : list (list F).

Definition rowwise rows (sh : nat * nat) : csr F :=
  Csr (concat rows) (concat (map (fun r => seq 0 (length r)) rows)) (ptrs (map (@length F) rows)) sh.

Lemma widths_seq rows : map (@length nat) (map (fun r => seq 0 (length r)) rows) = map (@length F) rows.
Proof. rewrite map_map. apply map_ext. intros r. apply seq_length. Qed.

Lemma rowwise_row rows sh i r : nth_error rows i = Some r -> row (rowwise rows sh) i = Ok r.
Proof.
  intros H. assert (L : i < length rows) by (apply nth_error_Some; congruence).
  unfold row, rowwise. cbn [c_indptr c_data].
  rewrite !nth_error_ptrs by (rewrite map_length; lia). rewrite (slice_rows rows i r H). reflexivity.
Qed.

Lemma rowwise_irow rows sh i r : nth_error rows i = Some r ->
  irow (rowwise rows sh) i = Ok (seq 0 (length r)).
Proof.
  intros H. assert (L : i < length rows) by (apply nth_error_Some; congruence).
  unfold irow, rowwise. cbn [c_indptr c_indices].
  rewrite !nth_error_ptrs by (rewrite map_length; lia). rewrite <- !widths_seq.
  rewrite (slice_rows _ i (seq 0 (length r))); [reflexivity|]. rewrite nth_error_map, H. reflexivity.
Qed.

Lemma filter_combine_seq (r : list F) j s :
  map snd (filter (fun kd : nat * F => fst kd =? s + j) (combine (seq s (length r)) r)) =
  match nth_error r j with Some x => [x] | None => [] end.
Proof.
  revert s j. induction r as [|x r IH]; intros s j; cbn [length seq combine filter map].
  - destruct j; reflexivity.
  - cbn [fst]. destruct j as [|j].
    + rewrite Nat.add_0_r, Nat.eqb_refl. cbn [map snd nth_error]. f_equal.
      assert (G : forall (l : list F) q, s < q ->
        filter (fun kd : nat * F => fst kd =? s) (combine (seq q (length l)) l) = []).
      { clear. induction l as [|y l IH]; intros q Hq; cbn; [reflexivity|].
        destruct (q =? s) eqn:E; [apply Nat.eqb_eq in E; lia|]. apply IH. lia. }
      rewrite G by lia. reflexivity.
    + destruct (s =? s + S j) eqn:E; [apply Nat.eqb_eq in E; lia|].
      cbn [nth_error]. rewrite <- (IH (S s) j). replace (S s + j) with (s + S j) by lia. reflexivity.
Qed.

Lemma rowwise_entry rows sh i r j : nth_error rows i = Some r ->
  csr_entry (rowwise rows sh) i j = match nth_error r j with Some x => x | None => zero end.
Proof.
  intros H. unfold csr_entry. rewrite (rowwise_row _ _ _ _ H), (rowwise_irow _ _ _ _ H).
  pose proof (filter_combine_seq r j 0) as E. cbn [Nat.add] in E. rewrite E.
  destruct (nth_error r j); cbn [suml]; [ring|reflexivity].
Qed.

Lemma concat_length_total {A} (rows : list (list A)) : length (concat rows) = total (map (@length A) rows).
Proof. induction rows as [|r rows IH]; cbn; [reflexivity|]. rewrite app_length, IH. reflexivity. Qed.

Lemma last_ptrs ws : last (ptrs ws) 0 = total ws.
Proof.
  induction ws as [|w ws IH] using rev_ind; [reflexivity|].
  rewrite ptrs_snoc, last_last, total_app. unfold total at 3. cbn. lia.
Qed.

Lemma In_firstn {A} n (l : list A) k : In k (firstn n l) -> In k l.
Proof. intros H. rewrite <- (firstn_skipn n l). apply in_or_app. left. exact H. Qed.

Lemma rowwise_to_numpy rows nc : Forall (fun r => length r <= nc) rows ->
  to_numpy (rowwise rows (length rows, nc)) =
  Ok (map (fun r => map (fun j => match nth_error r j with Some x => x | None => zero end) (seq 0 nc)) rows).
Proof.
  intros H. unfold to_numpy. cbn [c_shape rowwise c_indptr c_indices c_data].
  rewrite ptrs_length, map_length, Nat.eqb_refl.
  assert (N0 : nth 0 (ptrs (map (@length F) rows)) 0 = 0).
  { apply nth_error_nth. rewrite nth_error_ptrs by lia. reflexivity. }
  rewrite N0, last_ptrs. cbn [Nat.eqb andb].
  assert (L : length (concat (map (fun r : list F => seq 0 (length r)) rows)) = length (concat rows)).
  { rewrite !concat_length_total, widths_seq. reflexivity. }
  rewrite L, Nat.eqb_refl, concat_length_total, Nat.leb_refl. cbn [andb negb].
  assert (E : existsb (fun k => nc <=? k)
     (firstn (total (map (@length F) rows)) (concat (map (fun r : list F => seq 0 (length r)) rows))) = false).
  { apply not_true_is_false. intros Ex. apply existsb_exists in Ex. destruct Ex as (k & Hk & Hnc).
    apply Nat.leb_le in Hnc. pose proof (In_firstn _ _ _ Hk) as Ik.
    apply in_concat in Ik. destruct Ik as (l & Hl & Hin). apply in_map_iff in Hl.
    destruct Hl as (r & <- & Hr). apply in_seq in Hin. rewrite Forall_forall in H.
    specialize (H r Hr). lia. }
  rewrite E. f_equal.
  transitivity (map (fun i => (fun r => map (fun j => match nth_error r j with Some x => x | None => zero end)
                      (seq 0 nc)) (nth i rows [])) (seq 0 (length rows))).
  - apply map_ext_in. intros i Hi. apply in_seq in Hi. apply map_ext_in. intros j _.
    apply rowwise_entry. apply nth_error_nth'. lia.
  - rewrite <- (map_map (fun i => nth i rows []) (fun r => map (fun j => match nth_error r j with Some x => x | None => zero end)
                      (seq 0 nc))). rewrite map_nth_seq. reflexivity.
Qed.

Lemma csr_dense_rowwise nC rows : Forall (fun r => length r = nC) rows ->
  csr_matrix (InDense nC rows) = Ok (rowwise rows (length rows, nC)).
Proof.
  intros H. unfold csr_matrix, rowwise. do 2 f_equal.
  - f_equal. apply map_ext_in. intros r Hr. rewrite Forall_forall in H. rewrite (H r Hr). reflexivity.
  - rewrite dense_ptrs. f_equal. apply map_ext_in. rewrite Forall_forall in H.
    intros r Hr. symmetry. apply H. exact Hr.
Qed.

Lemma row_widths_ptrs ws : row_widths (ptrs ws) = ws.
Proof.
  unfold row_widths. rewrite ptrs_length, Nat.add_sub.
  transitivity (map (fun i => nth i ws 0) (seq 0 (length ws))); [|apply map_nth_seq].
  apply map_ext_in. intros i Hi. apply in_seq in Hi.
  rewrite (nth_error_nth _ _ 0 (nth_error_ptrs ws (i + 1) ltac:(lia))).
  rewrite (nth_error_nth _ _ 0 (nth_error_ptrs ws i ltac:(lia))).
  rewrite (firstn_S_total ws i (nth i ws 0)) by (apply nth_error_nth'; lia). lia.
Qed.

Lemma csr_awkward_rowwise rows : rows <> [] ->
  csr_matrix (InAwkward rows) = Ok (rowwise rows (length rows, max_of (map (@length F) rows))).
Proof.
  intros H. unfold csr_matrix. rewrite jagged_to_csr_data_ok. unfold get_shape_sp.
  rewrite row_widths_ptrs, ptrs_length, map_length, Nat.add_sub.
  destruct rows as [|r rows]; [congruence|]. cbn [map]. cbn [bind]. unfold rowwise.
  f_equal. f_equal. rewrite map_map. reflexivity.
Qed.

Lemma max_of_is_max l : l <> [] -> is_max l (max_of l).
Proof.
  induction l as [|x l IH]; intros H; [congruence|]. cbn [max_of fold_right]. fold (max_of l).
  destruct l as [|y l].
  - cbn [max_of fold_right]. split; [left; lia|]. intros z [<-|[]]. lia.
  - destruct (IH ltac:(discriminate)) as [I1 I2]. split.
    + destruct (Nat.max_spec x (max_of (y :: l))) as [[_ ->]|[_ ->]]; [right; exact I1|left; reflexivity].
    + intros z [<-|Hz]; [lia|]. specialize (I2 z Hz). lia.
Qed.

Lemma max_const nC l : l <> [] -> Forall (fun x => x = nC) l -> is_max l nC.
Proof.
  intros H HF. rewrite Forall_forall in HF. split.
  - destruct l as [|x l]; [congruence|]. left. apply HF. left. reflexivity.
  - intros x Hx. rewrite (HF x Hx). lia.
Qed.

Lemma padded_map (r : list F) m :
  zero_padded r m (map (fun j => match nth_error r j with Some x => x | None => zero end) (seq 0 m)).
Proof.
  split; [rewrite map_length; apply seq_length|]. intros k Hk. rewrite nth_error_map.
  rewrite (nth_error_nth' _ 0) by (rewrite seq_length; exact Hk). rewrite seq_nth by exact Hk. reflexivity.
Qed.

Lemma padded_full (r : list F) : map (fun j => match nth_error r j with Some x => x | None => zero end)
  (seq 0 (length r)) = r.
Proof.
  transitivity (map (fun j => nth j r zero) (seq 0 (length r))); [|apply map_nth_seq].
  apply map_ext_in. intros j Hj. apply in_seq in Hj.
  rewrite (nth_error_nth' r zero) by lia. reflexivity.
Qed.

Lemma Forall2_map_r {A B} (P : A -> B -> Prop) (f : A -> B) l : (forall x, In x l -> P x (f x)) -> Forall2 P l (map f l).
Proof.
  induction l as [|x l IH]; intros H; cbn; constructor; [apply H; left; reflexivity|].
  apply IH. intros y Hy. apply H. right. exact Hy.
Qed.

Lemma jagged_csr_ok (j : jagged F) : jagged_wf j -> rows_of j <> [] ->
  exists c m dense, to_csr j = Ok c /\ is_max (widths j) m /\ c_shape c = (jlen j, m) /\
    (forall i r, nth_error (rows_of j) i = Some r -> row c i = Ok r /\ irow c i = Ok (seq 0 (length r))) /\
    jto_numpy j = Ok dense /\ to_numpy c = Ok dense /\
    Forall2 (fun r r' => zero_padded r m r') (rows_of j) dense.
Proof.
  intros WF NE. unfold widths. destruct j as [nC rows|rows]; cbn [rows_of to_csr jto_numpy jagged_wf] in *.
  - exists (rowwise rows (length rows, nC)), nC, rows. rewrite csr_dense_rowwise by exact WF.
    split; [reflexivity|].
    split; [apply max_const; [destruct rows; [congruence|discriminate]|rewrite Forall_map; exact WF]|].
    split; [reflexivity|].
    split; [intros i r Hr; split; [apply rowwise_row|apply rowwise_irow]; exact Hr|].
    split; [reflexivity|]. split.
    + rewrite rowwise_to_numpy.
      * f_equal. rewrite <- map_id. apply map_ext_in. intros r Hr. rewrite Forall_forall in WF.
        rewrite <- (WF r Hr). apply padded_full.
      * eapply Forall_impl; [|exact WF]. cbn. intros r ->. lia.
    + rewrite <- (map_id rows) at 2. apply Forall2_map_r. intros r Hr. rewrite Forall_forall in WF.
      split; [apply WF; exact Hr|]. intros k Hk. rewrite (nth_error_nth' r zero) by (rewrite (WF r Hr); exact Hk).
      reflexivity.
  - set (m := max_of (map (@length F) rows)).
    assert (M : is_max (map (@length F) rows) m)
      by (apply max_of_is_max; destruct rows; [congruence|discriminate]).
    exists (rowwise rows (length rows, m)), m, (map (fun r => map (fun j => match nth_error r j with Some x => x | None => zero end) (seq 0 m)) rows).
    rewrite csr_awkward_rowwise by exact NE. fold m. cbn [bind].
    split; [reflexivity|]. split; [exact M|]. split; [reflexivity|].
    split; [intros i r Hr; split; [apply rowwise_row|apply rowwise_irow]; exact Hr|].
    assert (T : to_numpy (rowwise rows (length rows, m)) =
      Ok (map (fun r => map (fun j => match nth_error r j with Some x => x | None => zero end) (seq 0 m)) rows)).
    { apply rowwise_to_numpy. apply Forall_forall. intros r Hr. apply M. apply in_map. exact Hr. }
    split; [exact T|]. split; [exact T|]. apply Forall2_map_r. intros r _. apply padded_map.
Qed.

Lemma dense_csr_ok nC rows : Forall (fun r => length r = nC) rows ->
  exists c, csr_matrix (InDense nC rows) = Ok c /\ c_shape c = (length rows, nC) /\
    to_numpy c = Ok rows /\
    forall i r, nth_error rows i = Some r -> row c i = Ok r /\ irow c i = Ok (seq 0 nC).
Proof.
  intros WF. exists (rowwise rows (length rows, nC)). rewrite csr_dense_rowwise by exact WF.
  split; [reflexivity|]. split; [reflexivity|]. split.
  - rewrite rowwise_to_numpy.
    + f_equal. rewrite <- map_id. apply map_ext_in. intros r Hr. rewrite Forall_forall in WF.
      rewrite <- (WF r Hr). apply padded_full.
    + eapply Forall_impl; [|exact WF]. cbn. intros r ->. lia.
  - intros i r Hr. split; [apply rowwise_row; exact Hr|].
    rewrite Forall_forall in WF. rewrite <- (WF r (nth_error_In _ _ Hr)). apply rowwise_irow. exact Hr.
Qed.

(** identity *)
Lemma nth_error_repeat {A} (x : A) n k : k < n -> nth_error (repeat x n) k = Some x.
Proof. revert k. induction n as [|n IH]; intros [|k] H; cbn; try lia; [reflexivity|]. apply IH. lia. Qed.

Lemma slice_one {A} (l : list A) i x : nth_error l i = Some x -> slice i (i + 1) l = [x].
Proof.
  intros H. unfold slice. replace (i + 1 - i) with 1 by lia.
  revert i H. induction l as [|y l IH]; intros [|i] H; try discriminate H; cbn in *.
  - injection H as ->. reflexivity.
  - apply IH. exact H.
Qed.

Lemma nth_error_seq s n k : k < n -> nth_error (seq s n) k = Some (s + k).
Proof.
  intros H. rewrite (nth_error_nth' _ 0) by (rewrite seq_length; exact H). rewrite seq_nth by exact H.
  reflexivity.
Qed.

Lemma eye_ok N : exists c, @eye F N = Ok c /\ c_shape c = (N, N) /\
  to_numpy c = Ok (map (fun i => map (fun j => if i =? j then one else zero) (seq 0 N)) (seq 0 N)) /\
  forall i, i < N -> row c i = Ok [one] /\ irow c i = Ok [i].
Proof.
  unfold eye, csr_matrix. cbn [bind]. eexists. split; [reflexivity|]. split; [reflexivity|].
  set (c := Csr _ _ _ _).
  assert (R : forall i, i < N -> row c i = Ok [one] /\ irow c i = Ok [i]).
  { intros i Hi. unfold row, irow, c. cbn [c_indptr c_data c_indices].
    rewrite !nth_error_seq by lia. cbn [Nat.add].
    rewrite (slice_one _ i one) by (apply nth_error_repeat; exact Hi).
    rewrite (slice_one _ i i) by (rewrite nth_error_seq by exact Hi; reflexivity). auto. }
  split; [|exact R].
  unfold to_numpy. subst c. cbn [c_shape c_indptr c_indices c_data].
  rewrite !seq_length, repeat_length, !Nat.eqb_refl.
  replace (nth 0 (seq 0 (N + 1)) 0) with 0 by (rewrite seq_nth by lia; reflexivity).
  replace (last (seq 0 (N + 1)) 0) with N by (rewrite Nat.add_1_r, seq_S, last_last; reflexivity).
  rewrite Nat.leb_refl. cbn [Nat.eqb andb negb].
  replace (existsb (fun k => N <=? k) (firstn N (seq 0 N))) with false.
  - f_equal. apply map_ext_in. intros i Hi. apply in_seq in Hi. apply map_ext_in. intros j Hj.
    unfold csr_entry. destruct (R i ltac:(lia)) as [R1 R2]. rewrite R1, R2. cbn [combine filter fst].
    destruct (i =? j); cbn [map snd suml]; [ring|reflexivity].
  - symmetry. apply not_true_is_false. intros E. apply existsb_exists in E. destruct E as (k & Hk & Hn).
    rewrite firstn_all2 in Hk by (rewrite seq_length; lia). apply in_seq in Hk. apply Nat.leb_le in Hn. lia.
Qed.

(** ** inferred shape *)
Lemma last_nth {A} (l : list A) n d : length l = n + 1 -> last l d = nth n l d.
Proof.
  revert n. induction l as [|x l IH]; intros n H; cbn in H; [lia|].
  destruct l as [|y l].
  - cbn in H. assert (n = 0) by lia. subst. reflexivity.
  - destruct n as [|n]; [cbn in H; lia|]. change (last (x :: y :: l) d) with (last (y :: l) d).
    rewrite (IH n) by (cbn in *; lia). reflexivity.
Qed.

Lemma inferred_shape n (data : list F) indices indptr : valid_csr n data indices indptr -> 0 < n ->
  exists m c, csr_matrix (InTriple data indices indptr None) = Ok c /\ c_shape c = (n, m) /\
    is_max (map (fun i => nth (i + 1) indptr 0 - nth i indptr 0) (seq 0 n)) m /\
    ((exists dense, to_numpy c = Ok dense) <-> Forall (fun k => k < m) indices).
Proof.
  intros (H1 & H2 & H3 & H4 & H5) Hn.
  set (ws := map (fun i => nth (i + 1) indptr 0 - nth i indptr 0) (seq 0 n)).
  assert (NE : ws <> []) by (unfold ws; destruct n; [lia|discriminate]).
  assert (E : row_widths indptr = ws) by (unfold row_widths; rewrite H1, Nat.add_sub; reflexivity).
  assert (G : get_shape_sp indptr = Ok (n, max_of ws)).
  { unfold get_shape_sp. rewrite E, H1, Nat.add_sub. clearbody ws. destruct ws; [congruence|reflexivity]. }
  clearbody ws. exists (max_of ws). unfold csr_matrix. rewrite G. cbn [bind].
  eexists. split; [reflexivity|]. split; [reflexivity|]. split; [apply max_of_is_max; exact NE|].
  unfold to_numpy. cbn [c_shape c_indptr c_indices c_data].
  rewrite H1, Nat.eqb_refl, H2, H5, Nat.eqb_refl, (last_nth indptr n 0 H1), H4, Nat.leb_refl.
  cbn [Nat.eqb andb negb]. rewrite <- H5, firstn_all, ?Nat.eqb_refl. cbn [andb negb].
  destruct (existsb (fun k => max_of ws <=? k) indices) eqn:Ex.
  - split; [intros (d & D); discriminate D|]. intros HF. exfalso.
    apply existsb_exists in Ex. destruct Ex as (k & Hk & Hle). apply Nat.leb_le in Hle.
    rewrite Forall_forall in HF. specialize (HF k Hk). lia.
  - split; [|eauto]. intros _. apply Forall_forall. intros k Hk.
    apply Nat.nle_gt. intros Hle. rewrite <- not_true_iff_false in Ex. apply Ex.
    apply existsb_exists. exists k. split; [exact Hk|]. apply Nat.leb_le. exact Hle.
Qed.

(** ** JaggedArray *)
Lemma cut_rows_ok {A} ws (l : list A) : total ws = length l ->
  concat (cut_rows ws l) = l /\ map (@length A) (cut_rows ws l) = ws.
Proof.
  revert l. induction ws as [|w ws IH]; intros l H; cbn [cut_rows concat map].
  - cbn in H. destruct l; [auto|discriminate H].
  - cbn [total fold_right] in H. fold (total ws) in H.
    destruct (IH (skipn w l)) as [I1 I2]; [rewrite skipn_length; lia|].
    rewrite I1, I2, firstn_skipn, firstn_length. split; [reflexivity|]. f_equal. lia.
Qed.

Lemma cut_rows_nth {A} ws (l : list A) i : i < length ws -> total ws = length l ->
  nth_error (cut_rows ws l) i = Some (firstn (nth i ws 0) (skipn (total (firstn i ws)) l)).
Proof.
  revert l i. induction ws as [|w ws IH]; intros l i Hi H; [cbn in Hi; lia|].
  cbn [total fold_right] in H. fold (total ws) in H. destruct i as [|i]; cbn [cut_rows nth_error nth firstn].
  - reflexivity.
  - rewrite IH by (cbn [length] in Hi; try rewrite skipn_length; lia). f_equal. f_equal.
    cbn [total fold_right]. fold (total (firstn i ws)).
    clear. revert w. generalize (total (firstn i ws)) as t. induction l as [|x l IH]; intros t [|w]; cbn [skipn Nat.add]; try reflexivity.
    + destruct t; reflexivity.
    + apply IH.
Qed.

Lemma sum_Z_total cuts : sum_Z (map Z.of_nat cuts) = Z.of_nat (total cuts).
Proof.
  unfold sum_Z, total. induction cuts as [|c cuts IH]; cbn; [reflexivity|]. rewrite IH. lia.
Qed.

Lemma unflatten_ok {A} (data : list A) cuts : total cuts = length data ->
  unflatten data (map Z.of_nat cuts) = Ok (cut_rows cuts data).
Proof.
  intros H. unfold unflatten. rewrite sum_Z_total, H, Z.eqb_refl.
  replace (forallb (fun c => 0 <=? c)%Z (map Z.of_nat cuts)) with true.
  - cbn [andb]. do 2 f_equal. rewrite map_map. rewrite <- (map_id cuts) at 2. apply map_ext. apply Nat2Z.id.
  - symmetry. apply forallb_forall. intros z Hz. apply in_map_iff in Hz. destruct Hz as (n & <- & _).
    apply Z.leb_le. lia.
Qed.

Lemma force_rows (rows : list (list F)) fn :
  exists j, (if fn && (n_widths rows =? 1) then Ok (Np (length (nth 0 rows [])) rows) else Ok (Ak rows)) = Ok j /\
    rows_of j = rows /\ jagged_wf j /\
    (fn = true -> (exists w, rows <> [] /\ Forall (fun r => length r = w) rows) -> exists w, j = Np w rows).
Proof.
  assert (G : n_widths rows = 1 <-> rows <> [] /\ Forall (fun r => length r = length (nth 0 rows [])) rows).
  { unfold n_widths. set (L := nodup Nat.eq_dec (map (@length F) rows)).
    assert (HIn : forall x, In x L <-> exists r, In r rows /\ length r = x).
    { intros x. unfold L. rewrite nodup_In, in_map_iff. split; intros (r & a & b); exists r; auto. }
    assert (ND : NoDup L) by apply NoDup_nodup. split.
    - intros HL. destruct L as [|w [|w' L']] eqn:EL; try discriminate HL.
      assert (NE : rows <> []).
      { destruct (proj1 (HIn w) (or_introl eq_refl)) as (r & Hr & _). destruct rows; [destruct Hr|discriminate]. }
      split; [exact NE|]. apply Forall_forall. intros r Hr.
      assert (H0 : In (nth 0 rows []) rows) by (apply nth_In; destruct rows; [congruence|cbn; lia]).
      assert (A1 : In (length r) [w]) by (apply HIn; eauto).
      assert (A2 : In (length (nth 0 rows [])) [w]) by (apply HIn; eauto).
      destruct A1 as [<-|[]], A2 as [->|[]]. reflexivity.
    - intros [NE HF]. rewrite Forall_forall in HF.
      assert (H0 : In (nth 0 rows []) rows) by (apply nth_In; destruct rows; [congruence|cbn; lia]).
      assert (HL : forall x, In x L -> x = length (nth 0 rows [])).
      { intros x Hx. apply HIn in Hx. destruct Hx as (r & Hr & <-). apply HF. exact Hr. }
      assert (HI : In (length (nth 0 rows [])) L) by (apply HIn; eauto).
      destruct L as [|w [|w' L']]; [destruct HI|reflexivity|].
      exfalso. inversion ND as [|? ? Hn _]; subst. apply Hn. left.
      rewrite (HL w), (HL w'); [reflexivity|right; left; reflexivity|left; reflexivity]. }
  destruct (fn && (n_widths rows =? 1)) eqn:E.
  - apply andb_prop in E. destruct E as [-> E]. apply Nat.eqb_eq in E. apply G in E.
    eexists. split; [reflexivity|]. split; [reflexivity|]. split; [exact (proj2 E)|]. intros _ _. eauto.
  - eexists. split; [reflexivity|]. split; [reflexivity|]. split; [exact I|].
    intros -> (w & NE & HF). exfalso. cbn [andb] in E. apply Nat.eqb_neq in E. apply E. apply G.
    split; [exact NE|]. rewrite Forall_forall in *. intros r Hr. rewrite (HF r Hr). symmetry. apply HF.
    apply nth_In. destruct rows; [congruence|cbn; lia].
Qed.

Lemma is_jagged_ok (j : jagged F) : rows_of j <> [] ->
  exists b, is_jagged j = Ok b /\
    (b = false <-> exists w, Forall (fun r => length r = w) (rows_of j)).
Proof.
  intros NE. unfold is_jagged, widths. destruct (rows_of j) as [|r rows] eqn:E; [congruence|].
  cbn [map]. eexists. split; [reflexivity|]. rewrite negb_false_iff, forallb_forall. split.
  - intros H. exists (length r). apply Forall_forall. intros q Hq. apply Nat.eqb_eq. apply H.
    change (length r :: map (@length F) rows) with (map (@length F) (r :: rows)). apply in_map. exact Hq.
  - intros (w & HF) x Hx. change (length r :: map (@length F) rows) with (map (@length F) (r :: rows)) in Hx.
    apply in_map_iff in Hx. destruct Hx as (q & <- & Hq). rewrite Forall_forall in HF.
    rewrite (HF q Hq), (HF r (or_introl eq_refl)). apply Nat.eqb_refl.
Qed.

Lemma jagged_from_cuts (data : list F) cuts fn : total cuts = length data ->
  exists j, jagged_array (J1d data) (Some (map Z.of_nat cuts)) fn = Ok j /\
    jflatten_cuts j = (cuts, data) /\ jflatten j = data /\
    widths j = cuts /\ jlen j = length cuts /\ size j = length data /\
    (forall i, i < length cuts ->
       nth_error (rows_of j) i = Some (firstn (nth i cuts 0) (skipn (total (firstn i cuts)) data))) /\
    (cuts <> [] -> exists b, is_jagged j = Ok b /\ (b = false <-> exists w, Forall (eq w) cuts)) /\
    (shape_of j = ShapeAk (length cuts) cuts \/
     exists w, Forall (eq w) cuts /\ shape_of j = ShapeNp (length cuts) w) /\
    jagged_wf j.
Proof.
  intros H. unfold jagged_array, get_data. rewrite unflatten_ok by exact H. cbn [bind].
  destruct (cut_rows_ok cuts data H) as [C1 C2].
  destruct (force_rows (cut_rows cuts data) fn) as (j & E & R & WF & _).
  exists j. split; [exact E|].
  assert (W : widths j = cuts) by (unfold widths; rewrite R; exact C2).
  assert (L : length (cut_rows cuts data) = length cuts).
  { transitivity (length (map (@length F) (cut_rows cuts data))); [rewrite map_length; reflexivity|].
    rewrite C2. reflexivity. }
  split; [unfold jflatten_cuts; rewrite W, R, C1; reflexivity|].
  split; [unfold jflatten; rewrite R; exact C1|].
  split; [exact W|].
  split; [unfold jlen; rewrite R; exact L|].
  split; [unfold size; rewrite W; exact H|].
  split; [intros i Hi; rewrite R; apply cut_rows_nth; assumption|].
  assert (EQ : forall w, Forall (fun r => length r = w) (rows_of j) <-> Forall (eq w) cuts).
  { intros w. rewrite <- W. unfold widths. rewrite Forall_map.
    split; apply Forall_impl; intros r Hr; symmetry; exact Hr. }
  split; [|split; [|exact WF]].
  - intros NE. destruct (is_jagged_ok j) as (b & Hb & Hw).
    { rewrite R. intros E0. apply NE. rewrite E0 in L. destruct cuts; [reflexivity|discriminate L]. }
    exists b. split; [exact Hb|]. rewrite Hw. split; intros (w & Hq); exists w; apply EQ; exact Hq.
  - unfold shape_of. destruct j as [nC r|r]; cbn [rows_of] in *.
    + right. exists nC. split; [|rewrite R, L; reflexivity]. apply EQ. exact WF.
    + left. rewrite W, R, L. reflexivity.
Qed.

Lemma bad_cuts (data : list F) cuts fn :
  ~ (Forall (fun c => (0 <= c)%Z) cuts /\ sum_Z cuts = Z.of_nat (length data)) ->
  jagged_array (J1d data) (Some cuts) fn = Err ValueError.
Proof.
  intros H. unfold jagged_array, get_data, unflatten.
  destruct (forallb (fun c => 0 <=? c)%Z cuts && (sum_Z cuts =? Z.of_nat (length data))%Z) eqn:E; [|reflexivity].
  exfalso. apply H. apply andb_prop in E. destruct E as [E1 E2]. split; [|apply Z.eqb_eq; exact E2].
  apply Forall_forall. intros c Hc. rewrite forallb_forall in E1. apply Z.leb_le. apply E1. exact Hc.
Qed.

(** ** stacking *)
Lemma all_some_map {A} (l : list A) : all_some (map Some l) = Some l.
Proof. induction l as [|x l IH]; cbn; [reflexivity|]. rewrite IH. reflexivity. Qed.

Lemma all_some_None {A} (l : list (option A)) : In None l -> all_some l = None.
Proof.
  induction l as [|[x|] l IH]; cbn; [intros []| |reflexivity].
  intros [H|H]; [discriminate H|]. rewrite (IH H). reflexivity.
Qed.

Lemma cut_rows_concat {A} (data : list (list A)) : cut_rows (map (@length A) data) (concat data) = data.
Proof.
  induction data as [|r d IH]; cbn [map cut_rows concat]; [reflexivity|].
  rewrite firstn_app, Nat.sub_diag, firstn_all, app_nil_r.
  rewrite skipn_app, Nat.sub_diag, skipn_all. cbn [app skipn]. rewrite IH. reflexivity.
Qed.

Lemma np_stack_ok axis (ts : list (jagged F)) : ts <> [] ->
  exists j, np_stack axis (map Some ts) = Ok j /\ rows_of j = concat (map rows_of ts) /\ jagged_wf j.
Proof.
  intros NE. unfold np_stack. rewrite all_some_map. unfold jstack.
  destruct ts as [|t ts]; [congruence|]. set (l := t :: ts).
  assert (E1 : concat (map jflatten l) = concat (concat (map rows_of l))).
  { unfold jflatten. clear NE. clearbody l. clear t ts. induction l as [|x l IH]; cbn; [reflexivity|].
    rewrite IH, concat_app. reflexivity. }
  assert (E2 : concat (map widths l) = map (@length F) (concat (map rows_of l))).
  { unfold widths. rewrite concat_map, map_map. reflexivity. }
  rewrite E1, E2. set (R := concat (map rows_of l)).
  unfold jagged_array, get_data. rewrite unflatten_ok by (symmetry; apply concat_length_total).
  cbn [bind]. rewrite cut_rows_concat. destruct (force_rows R true) as (j & E & HR & WF & _).
  exists j. auto.
Qed.

Lemma get_data_matrices_ok (ms : list (nat * list (list F))) :
  Forall (fun m => Forall (fun r => length r = fst m) (snd m)) ms ->
  get_data_matrices ms = Ok (Ak (concat (map snd ms))).
Proof.
  intros H. unfold get_data_matrices.
  assert (E1 : concat (map (fun m => concat (snd m)) ms) = concat (concat (map snd ms))).
  { clear H. induction ms as [|m ms IH]; cbn; [reflexivity|]. rewrite IH, concat_app. reflexivity. }
  assert (E2 : concat (map (fun m : nat * list (list F) => repeat (Z.of_nat (fst m)) (length (snd m))) ms)
             = map Z.of_nat (map (@length F) (concat (map snd ms)))).
  { clear E1. induction H as [|m ms Hm Hms IH]; cbn [map concat]; [reflexivity|]. rewrite !map_app. f_equal; [|exact IH].
    induction Hm as [|r rs Hr Hrs IHr]; cbn; [reflexivity|]. rewrite IHr, Hr. reflexivity. }
  rewrite E1, E2, unflatten_ok by (symmetry; apply concat_length_total). cbn [bind].
  rewrite cut_rows_concat. reflexivity.
Qed.
End Rowwise.

Lemma triples_length {A} (d : list A) r c : length d = length r -> length c = length r ->
  length (triples (d, r, c)) = length r.
Proof. intros H1 H2. unfold triples. rewrite !combine_length. lia. Qed.

Lemma split_parts {A} (data : list A) rows cols n L U :
  length data = n -> length rows = n -> length cols = n ->
  lower_spdata data rows cols = Ok L -> upper_spdata data rows cols = Ok U ->
  (forall t, In t (triples (data, rows, cols)) <-> In t (triples L) \/ In t (triples U)) /\
  (forall t, In t (triples L) /\ In t (triples U) <->
             In t (triples (data, rows, cols)) /\ t_row t = t_col t) /\
  length (triples L) + length (triples U) =
    n + length (filter (fun t => t_row t =? t_col t) (triples (data, rows, cols))).
Proof.
  intros H1 H2 H3 HL HU.
  destruct (lower_ok data rows cols n H1 H2 H3) as (d & r & c & E & _ & _ & EL).
  rewrite HL in E. injection E as ->.
  destruct (upper_ok data rows cols n H1 H2 H3) as (d' & r' & c' & E & _ & _ & EU).
  rewrite HU in E. injection E as ->.
  rewrite EL, EU. split; [intros t; apply split_cover|]. split; [intros t; apply split_diag|].
  rewrite split_count, triples_length; congruence.
Qed.

Lemma np_stack_type_error {F : ofield} axis (ts : list (option (jagged F))) :
  In None ts -> np_stack axis ts = Err TypeError.
Proof. intros H. unfold np_stack. rewrite (all_some_None _ H). reflexivity. Qed.
