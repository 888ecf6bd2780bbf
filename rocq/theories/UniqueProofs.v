(** Proofs about [unique2d]. *)
From Verif Require Import Prelude ArraySpec UniqueModel UniqueSpec.

(** ** np_unique *)
Lemma insert_unique_In x l v : In v (insert_unique x l) <-> v = x \/ In v l.
Proof.
  induction l as [|y l IH]; cbn [insert_unique].
  - cbn. intuition.
  - destruct (x <? y)%Z eqn:E1; [cbn; intuition|].
    destruct (x =? y)%Z eqn:E2.
    + apply Z.eqb_eq in E2. subst. cbn. intuition.
    + cbn. rewrite IH. intuition.
Qed.

Lemma insert_unique_sorted x l : StronglySorted Z.lt l -> StronglySorted Z.lt (insert_unique x l).
Proof.
  induction 1 as [|y l Hl IH HF]; cbn [insert_unique]; [constructor; constructor|].
  destruct (x <? y)%Z eqn:E1.
  - apply Z.ltb_lt in E1. constructor; [constructor; assumption|].
    constructor; [exact E1|]. rewrite Forall_forall in *. intros z Hz. specialize (HF z Hz). lia.
  - apply Z.ltb_ge in E1. destruct (x =? y)%Z eqn:E2; [constructor; assumption|].
    apply Z.eqb_neq in E2. constructor; [exact IH|]. rewrite Forall_forall in *.
    intros z Hz. apply insert_unique_In in Hz. destruct Hz as [->|Hz]; [lia|apply HF; exact Hz].
Qed.

Lemma np_unique_In l v : In v (np_unique l) <-> In v l.
Proof.
  induction l as [|x l IH]; cbn [np_unique fold_right In]; [tauto|].
  fold (np_unique l). rewrite insert_unique_In, IH. intuition.
Qed.

Lemma np_unique_sorted l : StronglySorted Z.lt (np_unique l).
Proof.
  induction l as [|x l IH]; cbn [np_unique fold_right]; [constructor|].
  apply insert_unique_sorted. exact IH.
Qed.

Lemma sorted_nodup l : StronglySorted Z.lt l -> NoDup l.
Proof.
  induction 1 as [|y l Hl IH HF]; constructor; [|exact IH].
  intros H. rewrite Forall_forall in HF. specialize (HF y H). lia.
Qed.

(** ** dictionaries *)
Lemma dget_dset {A} (d : dict A) k v k' : dget (dset d k v) k' = if (k' =? k)%Z then Some v else dget d k'.
Proof.
  unfold dset. cbn [dget]. destruct (k' =? k)%Z eqn:E; [reflexivity|].
  induction d as [|[q w] d IH]; cbn [filter dget]; [reflexivity|].
  cbn [fst]. destruct (q =? k)%Z eqn:E2; cbn [negb].
  - rewrite IH. apply Z.eqb_eq in E2. subst q. rewrite E. reflexivity.
  - cbn [dget]. rewrite IH. reflexivity.
Qed.

(** A dictionary filled by [d[unique[i]] = g(i)]. *)
Lemma dict_fill {A} (g : nat -> A) (U : list Z) : NoDup U ->
  let d := fold_left (fun m i => dset m (nth i U 0%Z) (g i)) (seq 0 (length U)) [] in
  (forall k u, nth_error U k = Some u -> dget d u = Some (g k)) /\
  (forall u, ~ In u U -> dget d u = None).
Proof.
  intros ND.
  assert (G : forall n, n <= length U ->
    let d := fold_left (fun m i => dset m (nth i U 0%Z) (g i)) (seq 0 n) [] in
    (forall k u, k < n -> nth_error U k = Some u -> dget d u = Some (g k)) /\
    (forall u, (forall k, k < n -> nth_error U k <> Some u) -> dget d u = None)).
  { induction n as [|n IH]; intros Hn; cbn zeta in *.
    - split; [lia|reflexivity].
    - destruct (IH ltac:(lia)) as [I1 I2]. rewrite seq_S, fold_left_app. cbn [fold_left Nat.add].
      assert (En : nth_error U n = Some (nth n U 0%Z)) by (apply nth_error_nth'; lia).
      split.
      + intros k u Hk Hu. rewrite dget_dset. destruct (u =? nth n U 0)%Z eqn:E.
        * apply Z.eqb_eq in E. subst u. f_equal. f_equal.
          rewrite NoDup_nth_error in ND. symmetry. apply ND; [apply nth_error_Some|]; congruence.
        * apply I1; [|exact Hu]. apply Z.eqb_neq in E.
          assert (k <> n) by (intros ->; congruence). lia.
      + intros u Hu. rewrite dget_dset. destruct (u =? nth n U 0)%Z eqn:E.
        * apply Z.eqb_eq in E. subst u. exfalso. apply (Hu n); [lia|exact En].
        * apply I2. intros k Hk. apply Hu. lia. }
  destruct (G (length U) (le_n _)) as [G1 G2]. cbn zeta. split.
  - intros k u Hk. apply G1; [apply nth_error_Some; congruence|exact Hk].
  - intros u Hu. apply G2. intros k _ E. apply Hu. eapply nth_error_In; eauto.
Qed.

(** ** the core loops *)
Section Core.
Context {P : Type} (p0 : P) (flat : list Z) (pos : nat -> P).
Let U := np_unique flat.
Let nF := length flat.
Let nU := length U.
Let val (i : nat) := nth i flat 0%Z.

Let U_nodup : NoDup U.
Proof. apply sorted_nodup, np_unique_sorted. Qed.

Lemma val_index i : i < nF -> exists k, nth_error U k = Some (val i) /\ k < nU.
Proof.
  intros Hi. assert (H : In (val i) U) by (apply np_unique_In, nth_In; exact Hi).
  apply In_nth_error in H. destruct H as [k Hk]. exists k. split; [exact Hk|].
  apply nth_error_Some. congruence.
Qed.

Definition occ (m : nat) (u : Z) : nat := count_occ Z.eq_dec (firstn m flat) u.

Lemma firstn_S_nth m : m < nF -> firstn (S m) flat = firstn m flat ++ [val m].
Proof.
  unfold nF, val. generalize flat as l. intros l. revert l. induction m as [|m IH]; intros [|x l] H; cbn in H; try lia.
  - reflexivity.
  - cbn [firstn app nth]. f_equal. apply IH. lia.
Qed.

Lemma occ_S m u : m < nF -> occ (S m) u = occ m u + (if Z.eq_dec (val m) u then 1 else 0).
Proof.
  intros H. unfold occ. rewrite firstn_S_nth by exact H. rewrite count_occ_app. f_equal.
Qed.

Lemma occ_all u : occ nF u = count_occ Z.eq_dec flat u.
Proof. unfold occ, nF. rewrite firstn_all. reflexivity. Qed.

Lemma occ_le m u : m <= nF -> occ m u <= occ nF u.
Proof.
  intros H. rewrite occ_all. unfold occ. rewrite <- (firstn_skipn m flat) at 2.
  rewrite count_occ_app. lia.
Qed.

Lemma pass1_ok : exists counts inverse,
  foldM (pass1_step (make_imap U) nU val) (seq 0 nF) ((fun _ => 0), (fun _ => 0)) = Ok (counts, inverse) /\
  (forall k u, nth_error U k = Some u -> counts k = occ nF u) /\
  (forall i, i < nF -> nth_error U (inverse i) = Some (val i)).
Proof.
  destruct (dict_fill (fun i => i) U U_nodup) as [D1 _].
  fold (make_imap U) in D1.
  assert (G : forall n m st, n + m = nF ->
     (forall k u, nth_error U k = Some u -> fst st k = occ m u) ->
     (forall i, i < m -> nth_error U (snd st i) = Some (val i)) ->
     exists counts inverse, foldM (pass1_step (make_imap U) nU val) (seq m n) st = Ok (counts, inverse) /\
       (forall k u, nth_error U k = Some u -> counts k = occ nF u) /\
       (forall i, i < nF -> nth_error U (inverse i) = Some (val i))).
  { induction n as [|n IH]; intros m [c inv] Hm Hc Hi; cbn [seq foldM].
    - cbn in Hm. subst m. exists c, inv. auto.
    - destruct (val_index m ltac:(lia)) as (k & Hk & HkU).
      unfold pass1_step at 1. rewrite (D1 k _ Hk). cbn [fst snd].
      apply Nat.ltb_lt in HkU. rewrite HkU. cbn [bind].
      apply IH; [lia| |]; cbn [fst snd].
      + intros k' u Hu. rewrite occ_S by lia. unfold upd. destruct (k' =? k) eqn:E.
        * apply Nat.eqb_eq in E. subst k'. rewrite Hk in Hu. injection Hu as <-.
          cbn [fst] in Hc. rewrite (Hc _ _ Hk). destruct (Z.eq_dec (val m) (val m)); [lia|congruence].
        * apply Nat.eqb_neq in E. cbn [fst] in Hc. rewrite (Hc _ _ Hu).
          destruct (Z.eq_dec (val m) u) as [<-|_]; [|lia]. exfalso. apply E.
          rewrite NoDup_nth_error in U_nodup. apply U_nodup; [apply nth_error_Some|]; congruence.
      + intros i Hi'. unfold upd. destruct (i =? m) eqn:E.
        * apply Nat.eqb_eq in E. subst i. exact Hk.
        * apply Nat.eqb_neq in E. apply Hi. lia. }
  apply (G nF 0); [lia| |lia]. intros k u _. reflexivity.
Qed.

(** positions of [u] among the first [m] *)
Definition pos_of (m : nat) (u : Z) : list P :=
  map pos (filter (fun i => (val i =? u)%Z) (seq 0 m)).

Lemma pos_of_S m u : pos_of (S m) u = pos_of m u ++ (if (val m =? u)%Z then [pos m] else []).
Proof.
  unfold pos_of. rewrite seq_S, filter_app, map_app. cbn [filter Nat.add].
  destruct (val m =? u)%Z; reflexivity.
Qed.

Lemma pos_of_length m u : m <= nF -> length (pos_of m u) = occ m u.
Proof.
  induction m as [|m IH]; intros H; [reflexivity|].
  rewrite pos_of_S, app_length, IH, occ_S by lia. f_equal.
  destruct (Z.eqb_spec (val m) u), (Z.eq_dec (val m) u); cbn; congruence.
Qed.

Lemma tolist_snoc {A} n (f : nat -> A) v : tolist n f ++ [v] = tolist (S n) (upd f n v).
Proof.
  unfold tolist. rewrite seq_S, map_app. cbn. f_equal.
  - apply map_ext_in. intros i Hi. apply in_seq in Hi. unfold upd.
    destruct (i =? n) eqn:E; [apply Nat.eqb_eq in E; lia|reflexivity].
  - unfold upd. rewrite Nat.eqb_refl. reflexivity.
Qed.

Lemma pass2_ok inverse counts0 :
  (forall i, i < nF -> nth_error U (inverse i) = Some (val i)) ->
  (forall k u, nth_error U k = Some u -> counts0 k = occ nF u) ->
  exists indices counts,
    foldM (pass2_step U inverse pos) (seq 0 nF) (make_indices p0 U counts0, fun _ => 0) = Ok (indices, counts) /\
    (forall k u, nth_error U k = Some u -> counts k = occ nF u) /\
    (forall u, In u U -> exists a, dget indices u = Some (occ nF u, a) /\ tolist (occ nF u) a = pos_of nF u) /\
    (forall u, ~ In u U -> dget indices u = None).
Proof.
  intros Hinv Hc0.
  destruct (dict_fill (A := arr P) (fun i => (counts0 i, fun _ : nat => p0)) U U_nodup) as [D1 D2].
  change (forall k u, nth_error U k = Some u ->
            dget (make_indices p0 U counts0) u = Some (counts0 k, fun _ => p0)) in D1.
  change (forall u, ~ In u U -> dget (make_indices p0 U counts0) u = None) in D2.
  assert (G : forall n m (d : dict (arr P)) c, n + m = nF ->
     (forall k u, nth_error U k = Some u -> c k = occ m u) ->
     (forall u, In u U -> exists a, dget d u = Some (occ nF u, a) /\ tolist (occ m u) a = pos_of m u) ->
     (forall u, ~ In u U -> dget d u = None) ->
     exists indices counts,
       foldM (pass2_step U inverse pos) (seq m n) (d, c) = Ok (indices, counts) /\
       (forall k u, nth_error U k = Some u -> counts k = occ nF u) /\
       (forall u, In u U -> exists a, dget indices u = Some (occ nF u, a) /\ tolist (occ nF u) a = pos_of nF u) /\
       (forall u, ~ In u U -> dget indices u = None)).
  { induction n as [|n IH]; intros m d c Hm Hc Hd Hn; cbn [seq foldM].
    - cbn in Hm. subst m. exists d, c. auto.
    - unfold pass2_step at 1. pose proof (Hinv m ltac:(lia)) as Hk. cbn iota beta zeta. rewrite Hk.
      assert (HU : In (val m) U) by (eapply nth_error_In; eauto).
      destruct (Hd _ HU) as (a & Ha & Hpos). rewrite Ha.
      rewrite (Hc _ _ Hk).
      assert (L : occ m (val m) < occ nF (val m)).
      { pose proof (occ_S m (val m) ltac:(lia)) as O. pose proof (occ_le (S m) (val m) ltac:(lia)).
        destruct (Z.eq_dec (val m) (val m)); [lia|congruence]. }
      apply Nat.ltb_lt in L. rewrite L. cbn [bind].
      apply IH; [lia| | |].
      + intros k u Hu. rewrite occ_S by lia. unfold upd. destruct (k =? inverse m) eqn:E.
        * apply Nat.eqb_eq in E. subst k. rewrite Hk in Hu. injection Hu as <-.
          destruct (Z.eq_dec (val m) (val m)); [lia|congruence].
        * apply Nat.eqb_neq in E. rewrite (Hc _ _ Hu).
          destruct (Z.eq_dec (val m) u) as [<-|_]; [|lia]. exfalso. apply E.
          rewrite NoDup_nth_error in U_nodup. apply U_nodup; [apply nth_error_Some|]; congruence.
      + intros u Hu. rewrite dget_dset, pos_of_S, occ_S by lia.
        destruct (u =? val m)%Z eqn:E.
        * apply Z.eqb_eq in E. subst u. eexists. split; [reflexivity|].
          rewrite Z.eqb_refl, <- Hpos. destruct (Z.eq_dec (val m) (val m)); [|congruence].
          rewrite tolist_snoc, Nat.add_1_r. reflexivity.
        * apply Z.eqb_neq in E. destruct (Hd u Hu) as (b & Hb & Hq). exists b.
          split; [exact Hb|]. destruct (Z.eq_dec (val m) u); [congruence|].
          rewrite Nat.add_0_r, Hq. destruct (Z.eqb_spec (val m) u); [congruence|].
          rewrite app_nil_r. reflexivity.
      + intros u Hu. rewrite dget_dset. destruct (u =? val m)%Z eqn:E; [|apply Hn; exact Hu].
        apply Z.eqb_eq in E. subst u. contradiction. }
  apply (G nF 0); [lia| | |exact D2].
  - intros k u _. reflexivity.
  - intros u Hu. apply In_nth_error in Hu. destruct Hu as [k Hk].
    rewrite (D1 k u Hk), (Hc0 k u Hk). eexists. split; [reflexivity|]. reflexivity.
Qed.

Lemma unique_core_ok : exists counts inverse indices,
  unique_core p0 flat pos = Ok (U, counts, inverse, indices) /\
  length counts = nU /\
  (forall k u, nth_error U k = Some u -> nth_error counts k = Some (count_occ Z.eq_dec flat u)) /\
  length inverse = nF /\
  (forall i k, nth_error inverse i = Some k -> nth_error U k = nth_error flat i) /\
  (forall u, In u U -> exists n a, dget indices u = Some (n, a) /\ tolist n a = pos_of nF u) /\
  (forall u, ~ In u U -> dget indices u = None).
Proof.
  destruct pass1_ok as (c0 & inv & E1 & Hc0 & Hinv).
  destruct (pass2_ok inv c0 Hinv Hc0) as (d & c & E2 & Hc & Hd & Hn).
  unfold unique_core. fold U. fold nU. fold nF. fold val. rewrite E1. cbn [bind].
  rewrite E2. cbn [bind]. eexists _, _, _. split; [reflexivity|].
  split; [unfold tolist; rewrite map_length, seq_length; reflexivity|]. split; [|split; [|split; [|split]]].
  - intros k u Hk. assert (L : k < nU) by (apply nth_error_Some; congruence).
    unfold tolist. rewrite nth_error_map.
    rewrite (nth_error_nth' (seq 0 nU) 0) by (rewrite seq_length; exact L).
    rewrite seq_nth by exact L. cbn. rewrite (Hc k u Hk), occ_all. reflexivity.
  - unfold tolist. rewrite map_length, seq_length. reflexivity.
  - intros i k Hik. assert (L : i < nF).
    { assert (L : i < length (tolist nF inv)) by (apply nth_error_Some; congruence).
      unfold tolist in L. rewrite map_length, seq_length in L. exact L. }
    unfold tolist in Hik. rewrite nth_error_map in Hik.
    rewrite (nth_error_nth' (seq 0 nF) 0) in Hik by (rewrite seq_length; exact L).
    rewrite seq_nth in Hik by exact L. cbn in Hik. injection Hik as <-. rewrite (Hinv i L).
    symmetry. apply nth_error_nth'. exact L.
  - intros u Hu. destruct (Hd u Hu) as (a & Ha & Hp). eauto.
  - exact Hn.
Qed.
End Core.

(** ** rebuilding *)
Lemma cut_rows_map {A B} (f : A -> B) ws l : cut_rows ws (map f l) = map (map f) (cut_rows ws l).
Proof.
  revert l. induction ws as [|w ws IH]; intros l; cbn; [reflexivity|].
  rewrite firstn_map, skipn_map, IH. reflexivity.
Qed.

Lemma cut_rows_concat {A} (data : list (list A)) : cut_rows (map (@length A) data) (concat data) = data.
Proof.
  induction data as [|r d IH]; cbn [map cut_rows concat]; [reflexivity|].
  rewrite firstn_app, Nat.sub_diag, firstn_all, app_nil_r.
  rewrite skipn_app, Nat.sub_diag, skipn_all. cbn [app skipn]. rewrite IH. reflexivity.
Qed.

Lemma rebuild_lemma (data : list (list Z)) U inverse :
  length inverse = length (concat data) ->
  (forall i k, nth_error inverse i = Some k -> nth_error U k = nth_error (concat data) i) ->
  rebuilds data U (cut_rows (map (@length Z) data) inverse).
Proof.
  intros HL H. unfold rebuilds. rewrite <- cut_rows_map.
  assert (E : map (fun k => nth_error U k) inverse = map Some (concat data)).
  { apply nth_ext with (d := None) (d' := None); [rewrite !map_length; exact HL|].
    intros n Hn. rewrite map_length in Hn.
    destruct (nth_error inverse n) as [k|] eqn:Ek; [|apply nth_error_None in Ek; lia].
    assert (E1 : nth_error (map (fun k => nth_error U k) inverse) n = Some (nth_error U k))
      by (rewrite nth_error_map, Ek; reflexivity).
    assert (E2 : nth_error (map Some (concat data)) n = Some (nth_error (concat data) n)).
    { rewrite nth_error_map. destruct (nth_error (concat data) n) as [z|] eqn:Ez; [reflexivity|].
      apply nth_error_None in Ez. lia. }
    rewrite (nth_error_nth _ _ _ E1), (nth_error_nth _ _ _ E2). apply H. exact Ek. }
  rewrite E. rewrite cut_rows_map, cut_rows_concat. reflexivity.
Qed.

Lemma widths_const {A} n (data : list (list A)) : Forall (fun r => length r = n) data ->
  map (@length A) data = map (fun _ => n) data.
Proof. intros H. apply map_ext_in. rewrite Forall_forall in H. exact H. Qed.

(** ** places *)
Lemma StronglySorted_seq_lt s n : StronglySorted lt (seq s n).
Proof.
  revert s. induction n as [|n IH]; intros s; cbn; constructor; [apply IH|].
  apply Forall_forall. intros x Hx. apply in_seq in Hx. lia.
Qed.
Lemma StronglySorted_filter_lt {A} (R : A -> A -> Prop) f l :
  StronglySorted R l -> StronglySorted R (filter f l).
Proof.
  induction 1 as [|x l Hl IH HF]; cbn; [constructor|]. destruct (f x); [|exact IH].
  constructor; [exact IH|]. apply Forall_forall. intros y Hy. apply filter_In in Hy.
  rewrite Forall_forall in HF. apply HF. tauto.
Qed.
Lemma StronglySorted_map_in {A B} (R : A -> A -> Prop) (S : B -> B -> Prop) (f : A -> B) l :
  (forall x y, In x l -> In y l -> R x y -> S (f x) (f y)) ->
  StronglySorted R l -> StronglySorted S (map f l).
Proof.
  intros H G. induction G as [|x l Hl IH HF]; cbn; constructor.
  - apply IH. intros a b Ha Hb. apply H; right; assumption.
  - rewrite Forall_forall in *. intros y Hy. apply in_map_iff in Hy. destruct Hy as (z & <- & Hz).
    apply H; [left; reflexivity|right; exact Hz|]. apply HF. exact Hz.
Qed.

Lemma pos_of_places {P} (flat : list Z) (pos : nat -> P) u p :
  In p (pos_of flat pos (length flat) u) <-> exists f, nth_error flat f = Some u /\ p = pos f.
Proof.
  unfold pos_of. rewrite in_map_iff. split.
  - intros (f & <- & Hf). apply filter_In in Hf. destruct Hf as [H1 H2]. apply in_seq in H1.
    apply Z.eqb_eq in H2. exists f. split; [|reflexivity]. rewrite <- H2. apply nth_error_nth'. lia.
  - intros (f & H1 & ->). exists f. split; [reflexivity|]. apply filter_In.
    assert (L : f < length flat) by (apply nth_error_Some; congruence).
    split; [apply in_seq; lia|]. apply Z.eqb_eq. apply nth_error_nth. exact H1.
Qed.

Lemma concat_nth_error {A} n (data : list (list A)) r c :
  Forall (fun row => length row = n) data -> c < n ->
  nth_error (concat data) (r * n + c) =
    match nth_error data r with Some row => nth_error row c | None => None end.
Proof.
  intros H Hc. revert r. induction H as [|row data Hrow Hd IH]; intros r.
  - cbn. destruct (r * n + c); destruct r; reflexivity.
  - cbn [concat]. destruct r as [|r].
    + cbn [Nat.mul Nat.add nth_error]. rewrite nth_error_app1 by lia. reflexivity.
    + cbn [nth_error]. rewrite nth_error_app2 by (cbn; lia).
      rewrite <- IH. f_equal. cbn. lia.
Qed.

Lemma place_2d_flat n data u f : Forall (fun row => length row = n) data ->
  f < length (concat data) ->
  nth_error (concat data) f = Some u <-> place_2d data u (f / n, f mod n).
Proof.
  intros H Hf. destruct (Nat.eq_dec n 0) as [->|Hn].
  - exfalso. assert (concat data = []).
    { clear Hf. induction H as [|r d Hr Hd IH]; cbn; [reflexivity|].
      destruct r; [exact IH|discriminate Hr]. }
    rewrite H0 in Hf. cbn in Hf. lia.
  - assert (E : f = f / n * n + f mod n) by (rewrite Nat.mul_comm; apply Nat.div_mod; exact Hn).
    rewrite E at 1. rewrite (concat_nth_error n) by (try exact H; apply Nat.mod_upper_bound; exact Hn).
    unfold place_2d. cbn [fst snd]. destruct (nth_error data (f / n)) as [row|].
    + split; [intros Hc; exists row; auto|]. intros (r & Er & Hr). injection Er as <-. exact Hr.
    + split; [discriminate|]. intros (r & Er & _). discriminate Er.
Qed.

Lemma concat_length_const {A} n (data : list (list A)) : Forall (fun row => length row = n) data ->
  length (concat data) = length data * n.
Proof.
  induction 1 as [|r d Hr Hd IH]; cbn; [reflexivity|]. rewrite app_length, IH, Hr. reflexivity.
Qed.

Lemma div_mod_row_lt n a b : n <> 0 -> a < b -> row_lt (a / n, a mod n) (b / n, b mod n).
Proof.
  intros Hn H. unfold row_lt. cbn [fst snd].
  pose proof (Nat.div_mod a n Hn). pose proof (Nat.div_mod b n Hn).
  pose proof (Nat.mod_upper_bound a n Hn). pose proof (Nat.mod_upper_bound b n Hn).
  assert (a / n <= b / n) by (apply Nat.div_le_mono; lia).
  destruct (Nat.eq_dec (a / n) (b / n)) as [E|E]; [right; split; [exact E|]|left; lia].
  rewrite E in *. lia.
Qed.

Lemma assemble_outputs U ix iv ct ri rv rc : assemble U ix iv ct ri rv rc = outputs U ix iv ct ri rv rc.
Proof. destruct ri, rv, rc; reflexivity. Qed.

Lemma sorted_values_unique data : sorted_values data (np_unique (concat data)).
Proof.
  split; [apply np_unique_sorted|]. intros v. rewrite np_unique_In, in_concat. reflexivity.
Qed.

Lemma unique_dense_ok nC data ri rv rc : Forall (fun row => length row = nC) data ->
  exists U ix iv ct,
    unique_dense nC data ri rv rc = Ok (outputs (Unique U) (IndexPairs ix) (Inverse iv) (Counts ct) ri rv rc) /\
    sorted_values data U /\ occurrence_counts data U ct /\ rebuilds data U iv /\
    lists_places (place_2d data) row_lt U ix.
Proof.
  intros H. unfold unique_dense.
  destruct (unique_core_ok (0, 0) (concat data) (fun f => (f / nC, f mod nC)))
    as (ct & inv & ix & E & Lc & Hc & Li & Hi & Hd & Hn).
  rewrite E. cbn [bind]. eexists _, ix, _, ct. rewrite assemble_outputs. split; [reflexivity|].
  split; [apply sorted_values_unique|]. split; [split; [exact Lc|exact Hc]|].
  split; [rewrite <- (widths_const nC) by exact H; apply rebuild_lemma; assumption|].
  split; [|exact Hn]. intros u Hu. destruct (Hd u Hu) as (n & a & Ha & Hp).
  exists n, a. split; [exact Ha|]. rewrite Hp. split.
  - unfold pos_of. apply (StronglySorted_map_in lt).
    + intros x y Hx Hy Hxy. apply div_mod_row_lt; [|exact Hxy]. intros ->.
      apply filter_In in Hx. destruct Hx as [Hx _]. apply in_seq in Hx.
      rewrite (concat_length_const 0) in Hx by exact H. lia.
    + apply StronglySorted_filter_lt, StronglySorted_seq_lt.
  - intros p. rewrite pos_of_places. split.
    + intros (f & Hf & ->). apply place_2d_flat; [exact H| |exact Hf].
      apply nth_error_Some. congruence.
    + intros (row & Hr & Hc'). destruct p as [r c]. cbn [fst snd] in *.
      assert (Hrow : length row = nC) by (rewrite Forall_forall in H; apply H; eapply nth_error_In; eauto).
      assert (Lc' : c < nC) by (rewrite <- Hrow; apply nth_error_Some; congruence).
      exists (r * nC + c). split.
      * rewrite (concat_nth_error nC) by assumption. rewrite Hr. exact Hc'.
      * f_equal; [apply (Nat.div_unique _ nC r c)|apply (Nat.mod_unique _ nC r c)]; lia.
Qed.

Lemma unique_awkward_ok data ri rv rc :
  exists U ix iv ct,
    unique_awkward 2 data ri rv rc = Ok (outputs (Unique U) (IndexFlat ix) (Inverse iv) (Counts ct) ri rv rc) /\
    sorted_values data U /\ occurrence_counts data U ct /\ rebuilds data U iv /\
    lists_places (place_flat data) lt U ix.
Proof.
  unfold unique_awkward. cbn [Nat.eqb].
  destruct (unique_core_ok 0 (concat data) (fun f => f))
    as (ct & inv & ix & E & Lc & Hc & Li & Hi & Hd & Hn).
  rewrite E. cbn [bind]. eexists _, ix, _, ct. rewrite assemble_outputs. split; [reflexivity|].
  split; [apply sorted_values_unique|]. split; [split; [exact Lc|exact Hc]|].
  split; [apply rebuild_lemma; assumption|].
  split; [|exact Hn]. intros u Hu. destruct (Hd u Hu) as (n & a & Ha & Hp).
  exists n, a. split; [exact Ha|]. rewrite Hp. split.
  - unfold pos_of. rewrite map_id. apply StronglySorted_filter_lt, StronglySorted_seq_lt.
  - intros p. rewrite pos_of_places. unfold place_flat. split; [intros (f & Hf & ->); exact Hf|eauto].
Qed.

Lemma unique_jagged_ok isj nC data ri rv rc : (isj = false -> Forall (fun row => length row = nC) data) ->
  unique2d (Jagged isj nC data) ri rv rc =
    unique2d (if isj then Awkward 2 data else Dense nC data) ri rv rc.
Proof. intros _. destruct isj; reflexivity. Qed.

Lemma awkward_reject nd data ri rv rc : nd <> 2 -> unique2d (Awkward nd data) ri rv rc = Err AssertionError.
Proof. intros H. cbn. unfold unique_awkward. apply Nat.eqb_neq in H. rewrite H. reflexivity. Qed.
