(** Proofs about level structures. *)
From Verif Require Import Prelude OField SparseModel GraphModel GraphSpec ArrayProofs.

Lemma nth_error_ext {A} (l m : list A) : (forall k, nth_error l k = nth_error m k) -> l = m.
Proof.
  revert m. induction l as [|x l IH]; intros [|y m] H; [reflexivity|specialize (H 0); discriminate H
    |specialize (H 0); discriminate H|].
  pose proof (H 0) as H0. cbn in H0. injection H0 as ->. f_equal. apply IH. intros k. exact (H (S k)).
Qed.

(** Reading a row gives the neighbours. *)
Lemma nth_slice {A} lo hi (l : list A) v : In v (slice lo hi l) <-> exists p, lo <= p < hi /\ nth_error l p = Some v.
Proof.
  unfold slice. split.
  - intros H. apply In_nth_error in H. destruct H as [q Hq].
    assert (L : q < length (firstn (hi - lo) (skipn lo l))) by (apply nth_error_Some; congruence).
    rewrite firstn_length in L. exists (lo + q). split; [lia|].
    assert (L2 : q < hi - lo) by lia.
    rewrite <- (firstn_skipn (hi - lo) (skipn lo l)) in L.
    assert (E : nth_error (skipn lo l) q = Some v).
    { rewrite <- (firstn_skipn (hi - lo) (skipn lo l)). rewrite nth_error_app1; [exact Hq|]. apply nth_error_Some. congruence. }
    rewrite <- E. clear. revert l. induction lo as [|lo IH]; intros l; [reflexivity|]. destruct l as [|x l]; [destruct q; reflexivity|].
    cbn [skipn Nat.add nth_error]. apply IH.
  - intros (p & Hp & E).
    assert (E2 : nth_error (skipn lo l) (p - lo) = Some v).
    { rewrite <- E. replace p with (lo + (p - lo)) at 2 by lia. generalize (p - lo) as q. clear. revert l.
      induction lo as [|lo IH]; intros l q; [reflexivity|]. destruct l as [|x l]; [destruct q; reflexivity|].
      cbn [skipn Nat.add nth_error]. apply IH. }
    rewrite <- (firstn_skipn (hi - lo) (skipn lo l)) in E2.
    destruct (Nat.lt_ge_cases (p - lo) (length (firstn (hi - lo) (skipn lo l)))) as [L|L].
    + rewrite nth_error_app1 in E2 by exact L. apply nth_error_In in E2. exact E2.
    + exfalso. rewrite firstn_length in L.
      assert (length (skipn lo l) <= p - lo) as L3 by lia.
      rewrite firstn_skipn in E2. apply nth_error_None in L3. congruence.
Qed.
Lemma edge_irow {F : ofield} (adj : csr F) u v : edge adj u v <-> exists nb, irow adj u = Ok nb /\ In v nb.
Proof.
  unfold edge, irow. replace (u + 1) with (S u) by lia.
  destruct (nth_error (c_indptr adj) u) as [lo|]; [destruct (nth_error (c_indptr adj) (S u)) as [hi|]|].
  - split.
    + intros (lo' & hi' & p & E1 & E2 & H). injection E1 as <-. injection E2 as <-. eexists. split; [reflexivity|].
      apply nth_slice. exists p. exact H.
    + intros (nb & E & H). injection E as <-. apply nth_slice in H. destruct H as [p H]. exists lo, hi, p. auto.
  - split; [intros (? & ? & ? & _ & E & _); discriminate|intros (? & E & _); discriminate].
  - split; [intros (? & ? & ? & E & _); discriminate|intros (? & E & _); discriminate].
Qed.

Section Graph.
Context {F : ofield}.
Variables (n : nat) (adj : csr F).
Hypothesis wf : graph_wf n adj.
Local Notation edge := (edge adj).
Local Notation walk := (walk adj).

Lemma n_nodes_ok : n_nodes adj = n.
Proof. unfold n_nodes. rewrite (proj1 wf). lia. Qed.

Lemma irow_wf i : i < n -> exists nb, irow adj i = Ok nb /\ Forall (fun v => v < n) nb.
Proof.
  intros Hi. destruct wf as [L H]. unfold irow.
  destruct (nth_error (c_indptr adj) i) as [lo|] eqn:E1; [|apply nth_error_None in E1; lia].
  destruct (nth_error (c_indptr adj) (i + 1)) as [hi|] eqn:E2; [|apply nth_error_None in E2; lia].
  eexists. split; [reflexivity|]. apply Forall_forall. intros v Hv. apply (H i). apply edge_irow.
  unfold irow. rewrite E1, E2. eauto.
Qed.

Lemma edge_dec u v : {edge u v} + {~ edge u v}.
Proof.
  destruct (irow adj u) as [nb|e] eqn:E.
  - destruct (in_dec Nat.eq_dec v nb) as [H|H].
    + left. apply edge_irow. exists nb. auto.
    + right. intros Q. apply edge_irow in Q. destruct Q as (nb' & E' & H'). rewrite E in E'. injection E' as ->. contradiction.
  - right. intros Q. apply edge_irow in Q. destruct Q as (nb & E' & _). congruence.
Qed.

Lemma edge_lt u v : u < n -> edge u v -> v < n.
Proof. intros _ H. exact (proj2 wf u v H). Qed.

Lemma walk_lt k u v : u < n -> walk k u v -> v < n.
Proof. intros Hu H. induction H as [|k u v w H IH He]; [exact Hu|]. exact (edge_lt v w (IH Hu) He). Qed.

(** Marking. *)
Lemma mark_row nb ls : Forall (fun v => v < n) nb ->
  exists ls', foldM (fun (ls : nat -> bool) v => if v <? n_nodes adj then Ok (upd ls v true) else Err IndexError)
                nb ls = Ok ls' /\ forall v, ls' v = true <-> ls v = true \/ In v nb.
Proof.
  revert ls. induction nb as [|x nb IH]; intros ls H; cbn [foldM].
  - exists ls. split; [reflexivity|]. intros v. cbn. intuition.
  - inversion H as [|? ? Hx Hnb]; subst. rewrite n_nodes_ok in *.
    destruct (Nat.ltb_spec x n) as [_|Hge]; [|lia]. cbn [bind].
    destruct (IH (upd ls x true) Hnb) as (ls' & E & HE). exists ls'. split; [exact E|].
    intros v. rewrite HE. unfold upd. cbn [In]. destruct (Nat.eqb_spec v x) as [->|Hne].
    + intuition.
    + intuition congruence.
Qed.

Lemma mark_level level : (forall u, In u level -> u < n) ->
  exists m, mark_neighbours adj level = Ok m /\
    forall v, m v = true <-> exists u, In u level /\ edge u v.
Proof.
  unfold mark_neighbours.
  assert (G : forall level ls, (forall u, In u level -> u < n) -> exists m,
    foldM (fun (levelset : nat -> bool) node => do neighbours <- irow adj node ;
           foldM (fun (ls : nat -> bool) v =>
                    if v <? n_nodes adj then Ok (upd ls v true) else Err IndexError) neighbours levelset) level ls = Ok m /\
    forall v, m v = true <-> ls v = true \/ exists u, In u level /\ edge u v).
  { clear level. induction level as [|x level IH]; intros ls H; cbn [foldM].
    - exists ls. split; [reflexivity|]. intros v. split; [auto|]. intros [Hv|(u & [] & _)]. exact Hv.
    - destruct (irow_wf x (H x (or_introl eq_refl))) as (nb & E & HF). rewrite E. cbn [bind].
      destruct (mark_row nb ls HF) as (ls' & E' & H'). rewrite E'. cbn [bind].
      destruct (IH ls') as (m & Em & Hm); [intros u Hu; apply H; right; exact Hu|].
      exists m. split; [exact Em|]. intros v. rewrite Hm, H'. split.
      + intros [[Hv|Hv]|(u & Hu & Hv)]; [left; exact Hv|right|right].
        * exists x. split; [left; reflexivity|]. apply edge_irow. exists nb. auto.
        * exists u. split; [right; exact Hu|exact Hv].
      + intros [Hv|(u & [<-|Hu] & Hv)]; [left; left; exact Hv| |].
        * apply edge_irow in Hv. destruct Hv as (nb' & E2 & Hv). rewrite E in E2. injection E2 as <-. left; right; exact Hv.
        * right. exists u. auto. }
  intros H. destruct (G level (fun _ => false) H) as (m & E & Hm). exists m. split; [exact E|].
  intros v. rewrite Hm. split; [intros [Hv|Hv]; [discriminate Hv|exact Hv]|auto].
Qed.

Section Root.
Variable root : nat.
Hypothesis root_lt : root < n.
Local Notation dist v k := (distance adj root v k).

Lemma walk_dec k v : {walk k root v} + {~ walk k root v}.
Proof.
  revert v. induction k as [|k IH]; intros v.
  - destruct (Nat.eq_dec root v) as [<-|Hne]; [left; constructor|right]. intros H. inversion H. congruence.
  - destruct (Exists_dec (fun u => walk k root u /\ edge u v) (seq 0 n)) as [H|H].
    + intros u. destruct (IH u) as [Hw|Hw]; [|right; tauto].
      destruct (edge_dec u v) as [He|He]; [left; tauto|right; tauto].
    + left. rewrite Exists_exists in H. destruct H as (u & _ & Hw & He). econstructor; eauto.
    + right. intros Hw. apply H. inversion Hw as [|k' u' u v' Hw' He]; subst.
      apply Exists_exists. exists u. split; [|auto]. apply in_seq.
      pose proof (walk_lt k root u root_lt Hw'). lia.
Qed.

Lemma walk_dist k v : walk k root v -> exists j, j <= k /\ dist v j.
Proof.
  induction k as [k IH] using lt_wf_ind. intros H.
  destruct (Exists_dec (fun j => walk j root v) (seq 0 k)) as [E|E].
  - intros j. apply walk_dec.
  - apply Exists_exists in E. destruct E as (j & Hj & Hw). apply in_seq in Hj.
    destruct (IH j ltac:(lia) Hw) as (i & Hi & Hd). exists i. split; [lia|exact Hd].
  - exists k. split; [lia|]. split; [exact H|]. intros j Hj Hw. apply E. apply Exists_exists.
    exists j. split; [apply in_seq; lia|exact Hw].
Qed.

Lemma dist_unique v j k : dist v j -> dist v k -> j = k.
Proof.
  intros [H1 H2] [H3 H4]. destruct (lt_eq_lt_dec j k) as [[H|H]|H]; [|exact H|].
  - exfalso. exact (H4 j H H1).
  - exfalso. exact (H2 k H H3).
Qed.

Lemma dist_pred v k : dist v (S k) -> exists u, dist u k /\ edge u v.
Proof.
  intros [Hw Hm]. inversion Hw as [|k' r u v' Hu He]; subst. exists u. split; [|exact He].
  split; [exact Hu|]. intros j Hj Hwj. apply (Hm (S j)); [lia|]. econstructor; eauto.
Qed.

Lemma dist_lt v k : dist v k -> v < n.
Proof. intros [H _]. exact (walk_lt k root v root_lt H). Qed.

Lemma dist_succ v k : (exists u, dist u k /\ edge u v) /\ (forall j, j <= k -> ~ dist v j) <-> dist v (S k).
Proof.
  split.
  - intros [(u & [Hw _] & He) Hn]. split; [econstructor; eauto|]. intros j Hj Hwj.
    destruct (walk_dist j v Hwj) as (i & Hi & Hd). apply (Hn i); [lia|exact Hd].
  - intros H. split; [apply dist_pred; exact H|]. intros j Hj Hd. pose proof (dist_unique _ _ _ H Hd). lia.
Qed.

Lemma dist_down v k j : dist v k -> j <= k -> exists u, dist u j.
Proof.
  revert v. induction k as [|k IH]; intros v H Hj.
  - assert (j = 0) as -> by lia. eauto.
  - destruct (Nat.eq_dec j (S k)) as [->|Hne]; [eauto|].
    destruct (dist_pred v k H) as (u & Hu & _). apply (IH u Hu). lia.
Qed.

Lemma dist_0 v : dist v 0 <-> v = root.
Proof.
  split; [intros [H _]; inversion H; reflexivity|]. intros ->. split; [constructor|]. intros j Hj. lia.
Qed.

(** The loop invariant. *)
Definition is_level (k : nat) (L : list nat) : Prop :=
  StronglySorted lt L /\ forall v, In v L <-> dist v k.

Definition Inv (k : nat) (rls : list (list nat)) (nodes : nat -> bool) (nE : nat) : Prop :=
  length rls = S k /\
  (forall j L, nth_error rls j = Some L -> is_level j L) /\
  (forall v, v < n -> (nodes v = true <-> exists j, j <= k /\ dist v j)) /\
  nE = length (filter nodes (seq 0 n)).

Lemma filter_or_disjoint {A} (p q : A -> bool) l : (forall x, In x l -> p x && q x = false) ->
  length (filter (fun x => p x || q x) l) = length (filter p l) + length (filter q l).
Proof.
  induction l as [|x l IH]; intros H; cbn [filter]; [reflexivity|].
  pose proof (H x (or_introl eq_refl)) as Hx. specialize (IH (fun y Hy => H y (or_intror Hy))).
  destruct (p x), (q x); cbn in *; try discriminate Hx; cbn [length]; lia.
Qed.

Lemma filter_eq_ext {A} (p q : A -> bool) l : (forall x, In x l -> p x = q x) -> filter p l = filter q l.
Proof.
  induction l as [|x l IH]; intros H; cbn [filter]; [reflexivity|].
  rewrite (H x (or_introl eq_refl)), IH by (intros y Hy; apply H; right; exact Hy). reflexivity.
Qed.

Lemma filter_all_length {A} (p : A -> bool) l : length (filter p l) = length l ->
  forall x, In x l -> p x = true.
Proof.
  induction l as [|x l IH]; cbn [filter length]; [intros _ y []|].
  assert (B : length (filter p l) <= length l).
  { clear. induction l as [|y l IH]; cbn; [lia|]. destruct (p y); cbn; lia. }
  destruct (p x) eqn:E; cbn [length]; intros H y; [|lia].
  intros [<-|Hy]; [exact E|]. apply IH; [lia|exact Hy].
Qed.

Lemma last_nth_error {A} (l : list A) k d : length l = S k -> nth_error l k = Some (last l d).
Proof.
  revert k. induction l as [|x l IH]; intros k H; [discriminate H|]. cbn in H.
  destruct l as [|y l]; [assert (k = 0) as -> by (cbn in H; lia); reflexivity|].
  destruct k as [|k]; [cbn in H; lia|].
  change (last (x :: y :: l) d) with (last (y :: l) d). cbn [nth_error]. apply IH. cbn in *. lia.
Qed.

Lemma Inv_start : Inv 0 [[root]] (upd (fun _ => false) root true) 1.
Proof.
  split; [reflexivity|]. split; [|split].
  - intros [|j] L H; [|destruct j; discriminate H]. injection H as <-. split.
    + constructor; [constructor|constructor].
    + intros v. rewrite dist_0. cbn. intuition.
  - intros v _. unfold upd. split.
    + destruct (Nat.eqb_spec v root) as [->|]; [|discriminate]. intros _. exists 0. split; [lia|].
      apply dist_0. reflexivity.
    + intros (j & Hj & Hd). assert (j = 0) as -> by lia. apply dist_0 in Hd. subst. rewrite Nat.eqb_refl. reflexivity.
  - assert (G : forall s m, s <= root < s + m ->
      length (filter (upd (fun _ => false) root true) (seq s m)) = 1).
    { intros s m. revert s. induction m as [|m IH]; intros s H; [lia|]. cbn [seq filter]. unfold upd at 1.
      destruct (Nat.eqb_spec s root) as [->|Hne].
      - cbn [length]. f_equal. clear. assert (G : forall t, root < t -> filter (upd (fun _ : nat => false) root true) (seq t m) = []).
        { induction m as [|m IH]; intros t Ht; cbn [seq filter]; [reflexivity|]. unfold upd at 1.
          destruct (Nat.eqb_spec t root); [lia|]. apply IH. lia. }
        rewrite G by lia. reflexivity.
      - apply IH. lia. }
    symmetry. apply G. lia.
Qed.

Lemma Inv_step k rls nodes nE : Inv k rls nodes nE ->
  exists marked, mark_neighbours adj (last rls []) = Ok marked /\
    let levelset := fun i => marked i && negb (nodes i) in
    let next := filter levelset (seq 0 n) in
    Inv (S k) (rls ++ [next]) (fun i => nodes i || (levelset i && (i <? n))) (nE + length next).
Proof.
  intros (H1 & H2 & H3 & H4).
  pose proof (H2 k _ (last_nth_error rls k [] H1)) as [Hs Hl].
  destruct (mark_level (last rls [])) as (marked & E & Hm).
  { intros u Hu. apply Hl in Hu. apply dist_lt in Hu. exact Hu. }
  exists marked. split; [exact E|]. intros levelset next.
  assert (HL : forall v, v < n -> (levelset v = true <-> dist v (S k))).
  { intros v Hv. unfold levelset. rewrite andb_true_iff, negb_true_iff, Hm, <- dist_succ.
    rewrite <- not_true_iff_false, (H3 v Hv). split.
    - intros [(u & Hu & He) Hn]. split; [exists u; split; [apply Hl; exact Hu|exact He]|].
      intros j Hj Hd. apply Hn. eauto.
    - intros [(u & Hu & He) Hn]. split; [exists u; split; [apply Hl; exact Hu|exact He]|].
      intros (j & Hj & Hd). exact (Hn j Hj Hd). }
  assert (HN : is_level (S k) next).
  { split; [apply StronglySorted_filter; apply StronglySorted_seq|]. intros v. unfold next.
    rewrite filter_In, in_seq. split.
    - intros [Hv Hls]. apply HL; [lia|exact Hls].
    - intros Hd. pose proof (dist_lt v (S k) Hd). split; [lia|]. apply HL; assumption. }
  split; [rewrite app_length; cbn; lia|]. split; [|split].
  - intros j L Hj. destruct (Nat.lt_ge_cases j (length rls)) as [Hlt|Hge].
    + rewrite nth_error_app1 in Hj by exact Hlt. apply H2. exact Hj.
    + rewrite nth_error_app2 in Hj by exact Hge. destruct (j - length rls) as [|d] eqn:Ed; [|destruct d; discriminate Hj].
      cbn in Hj. injection Hj as <-. assert (j = S k) as -> by lia. exact HN.
  - intros v Hv. rewrite orb_true_iff, andb_true_iff, (H3 v Hv), (HL v Hv), Nat.ltb_lt. split.
    + intros [(j & Hj & Hd)|[Hd _]]; [exists j; split; [lia|exact Hd]|exists (S k); split; [lia|exact Hd]].
    + intros (j & Hj & Hd). destruct (Nat.eq_dec j (S k)) as [->|Hne]; [right; auto|].
      left. exists j. split; [lia|exact Hd].
  - rewrite H4. unfold next.
    rewrite (filter_or_disjoint nodes (fun i => levelset i && (i <? n)) (seq 0 n)).
    + f_equal. f_equal. apply filter_eq_ext. intros x Hx. apply in_seq in Hx.
      destruct (Nat.ltb_spec x n); [|lia]. rewrite andb_true_r. reflexivity.
    + intros x Hx. unfold levelset. destruct (nodes x), (marked x); reflexivity.
Qed.

Lemma Inv_done k rls nodes nE : Inv k rls nodes nE -> n <= nE ->
  forall v, v < n -> exists j, j <= k /\ dist v j.
Proof.
  intros (H1 & H2 & H3 & H4) Hge v Hv. apply (H3 v Hv).
  apply (filter_all_length nodes (seq 0 n)); [|apply in_seq; lia].
  rewrite seq_length.
  assert (B : length (filter nodes (seq 0 n)) <= length (seq 0 n)).
  { clear. induction (seq 0 n) as [|y l IH]; cbn; [lia|]. destruct (nodes y); cbn; lia. }
  rewrite seq_length in B. lia.
Qed.

Lemma Inv_more k rls nodes nE : Inv k rls nodes nE -> nE < n ->
  (forall v, v < n -> reachable adj root v) -> exists v, dist v (S k).
Proof.
  intros (H1 & H2 & H3 & H4) Hlt HR.
  destruct (Exists_dec (fun v => nodes v = false) (seq 0 n)) as [E|E].
  { intros v. destruct (nodes v); [right; discriminate|left; reflexivity]. }
  - apply Exists_exists in E. destruct E as (v & Hv & Hf). apply in_seq in Hv.
    destruct (HR v ltac:(lia)) as (q & Hq). destruct (walk_dist q v Hq) as (d & _ & Hd).
    apply (dist_down v d); [exact Hd|]. apply Nat.nlt_ge. intros Hc.
    assert (T : nodes v = true) by (apply (H3 v); [lia|exists d; split; [lia|exact Hd]]). congruence.
  - exfalso. assert (T : forall v, In v (seq 0 n) -> nodes v = true).
    { intros v Hv. destruct (nodes v) eqn:Ev; [reflexivity|]. exfalso. apply E. apply Exists_exists. eauto. }
    rewrite (filter_eq_ext nodes (fun _ => true) _ T) in H4.
    assert (L : length (filter (fun _ : nat => true) (seq 0 n)) = n).
    { rewrite <- (seq_length n 0) at 2. clear. induction (seq 0 n) as [|y l IH]; cbn; [reflexivity|]. rewrite IH. reflexivity. }
    lia.
Qed.

Definition nonempty (rls : list (list nat)) : Prop := Forall (fun L : list nat => L <> []) rls.

(** The result of a search that reached all nodes. *)
Definition levels_of (rls : list (list nat)) : Prop :=
  (forall k L, nth_error rls k = Some L -> StronglySorted lt L /\ L <> [] /\ forall v, In v L <-> dist v k) /\
  (forall v, v < n -> exists k L, nth_error rls k = Some L /\ In v L).

Lemma loop_connected fuel : forall k rls nodes nE,
  (forall v, v < n -> reachable adj root v) ->
  Inv k rls nodes nE -> nonempty rls -> n - nE <= fuel ->
  exists rls', rls_loop fuel adj rls nodes nE = Ok rls' /\ levels_of rls'.
Proof.
  induction fuel as [|fuel IH]; intros k rls nodes nE HR HI HN Hf; cbn [rls_loop]; rewrite n_nodes_ok.
  - destruct (Nat.ltb_spec nE n) as [Hlt|Hge]; [lia|]. exists rls. split; [reflexivity|].
    pose proof (Inv_done k rls nodes nE HI Hge) as HD. destruct HI as (H1 & H2 & H3 & H4). split.
    + intros j L Hj. destruct (H2 j L Hj) as [Hs Hl]. split; [exact Hs|]. split; [|exact Hl].
      unfold nonempty in HN. rewrite Forall_forall in HN. apply HN. eapply nth_error_In. exact Hj.
    + intros v Hv. destruct (HD v Hv) as (j & Hj & Hd).
      destruct (nth_error rls j) as [L|] eqn:E; [|apply nth_error_None in E; lia].
      exists j, L. split; [exact E|]. apply (H2 j L E). exact Hd.
  - destruct (Nat.ltb_spec nE n) as [Hlt|Hge].
    + destruct (Inv_step k rls nodes nE HI) as (marked & E & HI'). rewrite E. cbn [bind].
      cbv zeta in HI'. set (next := filter _ (seq 0 n)) in *.
      assert (HNE : next <> []).
      { destruct (Inv_more k rls nodes nE HI Hlt HR) as (v & Hv).
        destruct HI' as (H1 & H2 & _ & _). destruct HI as (H1' & _).
        specialize (H2 (S k) next). rewrite nth_error_app2 in H2 by lia.
        rewrite H1', Nat.sub_diag in H2. destruct (H2 eq_refl) as [_ Hl].
        apply Hl in Hv. intros Hnil. rewrite Hnil in Hv. destruct Hv. }
      apply (IH (S k)); [exact HR|exact HI'| |].
      * apply Forall_app. split; [exact HN|]. constructor; [exact HNE|constructor].
      * destruct next as [|x next']; [congruence|]. cbn [length]. lia.
    + exists rls. split; [reflexivity|].
      pose proof (Inv_done k rls nodes nE HI Hge) as HD. destruct HI as (H1 & H2 & H3 & H4). split.
      * intros j L Hj. destruct (H2 j L Hj) as [Hs Hl]. split; [exact Hs|]. split; [|exact Hl].
        unfold nonempty in HN. rewrite Forall_forall in HN. apply HN. eapply nth_error_In. exact Hj.
      * intros v Hv. destruct (HD v Hv) as (j & Hj & Hd).
        destruct (nth_error rls j) as [L|] eqn:E; [|apply nth_error_None in E; lia].
        exists j, L. split; [exact E|]. apply (H2 j L E). exact Hd.
Qed.

Lemma loop_stuck fuel : forall k rls nodes nE v,
  v < n -> ~ reachable adj root v -> Inv k rls nodes nE ->
  rls_loop fuel adj rls nodes nE = Err OutOfFuel.
Proof.
  induction fuel as [|fuel IH]; intros k rls nodes nE v Hv HR HI; cbn [rls_loop]; rewrite n_nodes_ok.
  - destruct (Nat.ltb_spec nE n) as [Hlt|Hge]; [reflexivity|].
    destruct (Inv_done k rls nodes nE HI Hge v Hv) as (j & _ & [Hw _]). exfalso. apply HR. exists j. exact Hw.
  - destruct (Nat.ltb_spec nE n) as [Hlt|Hge].
    + destruct (Inv_step k rls nodes nE HI) as (marked & E & HI'). rewrite E. cbn [bind].
      cbv zeta in HI'. exact (IH (S k) _ _ _ v Hv HR HI').
    + destruct (Inv_done k rls nodes nE HI Hge v Hv) as (j & _ & [Hw _]). exfalso. apply HR. exists j. exact Hw.
Qed.

Lemma rls_connected fuel : (forall v, v < n -> reachable adj root v) -> n <= fuel ->
  exists rls, rooted_level_structure fuel adj root = Ok rls /\ levels_of rls.
Proof.
  intros HR Hf. unfold rooted_level_structure. rewrite n_nodes_ok.
  destruct (Nat.ltb_spec root n); [|lia]. apply (loop_connected fuel 0); try assumption.
  - apply Inv_start.
  - constructor; [discriminate|constructor].
  - lia.
Qed.

Lemma rls_stuck fuel v : v < n -> ~ reachable adj root v ->
  rooted_level_structure fuel adj root = Err OutOfFuel.
Proof.
  intros Hv HR. unfold rooted_level_structure. rewrite n_nodes_ok.
  destruct (Nat.ltb_spec root n); [|lia]. apply (loop_stuck fuel 0 _ _ _ v Hv HR). apply Inv_start.
Qed.

(** Facts about a complete level structure. *)
Lemma levels_root rls : levels_of rls -> nth_error rls 0 = Some [root].
Proof.
  intros [H1 H2]. destruct (H2 root root_lt) as (k & L & HL & Hr).
  assert (k = 0) as ->.
  { apply (H1 k L HL) in Hr. apply (dist_unique root k 0); [exact Hr|apply dist_0; reflexivity]. }
  rewrite HL. f_equal. destruct (H1 0 L HL) as (Hs & _ & Hl).
  destruct L as [|x [|y L]]; [destruct Hr| |].
  - destruct Hr as [->|[]]. reflexivity.
  - exfalso. assert (x = root) by (apply dist_0, Hl; left; reflexivity).
    assert (y = root) by (apply dist_0, Hl; right; left; reflexivity).
    inversion Hs as [|? ? _ Hf]; subst. inversion Hf; subst. lia.
Qed.

Lemma levels_unique r1 r2 : levels_of r1 -> levels_of r2 -> r1 = r2.
Proof.
  assert (G : forall r1 r2, levels_of r1 -> levels_of r2 -> forall k L, nth_error r1 k = Some L -> nth_error r2 k = Some L).
  { clear r1 r2. intros r1 r2 [A1 A2] [B1 B2] k L HL. destruct (A1 k L HL) as (S1 & N1 & D1).
    destruct L as [|v L'] eqn:EL; [congruence|]. rewrite <- EL in *.
    assert (Hv : dist v k) by (apply D1; rewrite EL; left; reflexivity).
    destruct (B2 v (dist_lt v k Hv)) as (j & M & HM & Hin). destruct (B1 j M HM) as (S2 & N2 & D2).
    assert (j = k) as -> by (apply (dist_unique v); [apply D2; exact Hin|exact Hv]).
    rewrite HM. f_equal.
    assert (X : forall l m, StronglySorted lt l -> StronglySorted lt m -> (forall x, In x l <-> In x m) -> l = m).
    { clear. induction l as [|x l IH]; intros m Hl Hm H.
      - destruct m as [|y m]; [reflexivity|]. exfalso. apply (H y). left. reflexivity.
      - destruct m as [|y m]; [exfalso; apply (H x); left; reflexivity|].
        inversion Hl as [|? ? Hl' Fl]; subst. inversion Hm as [|? ? Hm' Fm]; subst.
        rewrite Forall_forall in Fl, Fm.
        assert (x = y).
        { destruct (proj1 (H x) (or_introl eq_refl)) as [E|E]; [congruence|].
          destruct (proj2 (H y) (or_introl eq_refl)) as [E'|E']; [congruence|].
          specialize (Fl y E'). specialize (Fm x E). lia. }
        subst y. f_equal. apply IH; [exact Hl'|exact Hm'|]. intros z. split; intros Hz.
        + destruct (proj1 (H z) (or_intror Hz)) as [<-|]; [|assumption]. specialize (Fl x Hz). lia.
        + destruct (proj2 (H z) (or_intror Hz)) as [<-|]; [|assumption]. specialize (Fm x Hz). lia. }
    apply X; [exact S2|exact S1|]. intros x. rewrite D1, D2. reflexivity. }
  intros H1 H2. apply nth_error_ext. intros k.
  destruct (nth_error r1 k) as [L|] eqn:E1.
  - symmetry. exact (G _ _ H1 H2 k L E1).
  - destruct (nth_error r2 k) as [L|] eqn:E2; [|reflexivity]. rewrite (G _ _ H2 H1 k L E2) in E1. discriminate E1.
Qed.

Lemma last_level rls : levels_of rls ->
  exists e L, length rls = S e /\ last rls [] = L /\ nth_error rls e = Some L /\ L <> [] /\
    (forall v, In v L <-> dist v e) /\ eccentricity n adj root e.
Proof.
  intros H. pose proof (levels_root rls H) as H0. destruct H as [H1 H2].
  destruct (length rls) as [|e] eqn:E; [destruct rls; [discriminate H0|discriminate E]|].
  pose proof (last_nth_error rls e [] E) as HL. destruct (H1 e _ HL) as (Hs & HN & HD).
  exists e, (last rls []). split; [reflexivity|]. split; [reflexivity|]. split; [exact HL|].
  split; [exact HN|]. split; [exact HD|]. split.
  - destruct (last rls []) as [|v L] eqn:EL; [congruence|]. exists v.
    assert (Hv : dist v e) by (apply HD; left; reflexivity). split; [exact (dist_lt v e Hv)|exact Hv].
  - intros v j Hv Hd. destruct (H2 v Hv) as (k & L & HkL & Hin). apply (H1 k L HkL) in Hin.
    rewrite (dist_unique v j k Hd Hin). apply Nat.lt_succ_r. rewrite <- E. apply nth_error_Some. congruence.
Qed.
End Root.

(** ** pseudo-peripheral nodes *)
Section Ppn.
Hypothesis conn : connected n adj.
Hypothesis n_pos : 0 < n.

Definition widest (rls : list (list nat)) : nat := fold_left (fun w l => Nat.max w (length l)) rls 0.

Lemma level_length root rls k L : root < n -> levels_of root rls -> nth_error rls k = Some L -> length L <= n.
Proof.
  intros Hr [H1 H2] HL. destruct (H1 k L HL) as (Hs & _ & HD).
  rewrite <- (seq_length n 0). apply NoDup_incl_length.
  - clear - Hs. induction Hs as [|x L Hs IH Hf]; constructor; [|exact IH].
    intros Hin. rewrite Forall_forall in Hf. specialize (Hf x Hin). lia.
  - intros v Hv. apply in_seq. apply HD in Hv. pose proof (dist_lt root Hr v k Hv). lia.
Qed.

Lemma widest_le root rls : root < n -> levels_of root rls -> widest rls <= n.
Proof.
  intros Hr H. unfold widest.
  assert (G : forall (l : list (list nat)) w, w <= n -> (forall L, In L l -> length L <= n) ->
    fold_left (fun w l => Nat.max w (length l)) l w <= n).
  { clear. induction l as [|L l IH]; intros w Hw HL; cbn; [exact Hw|]. apply IH.
    - specialize (HL L (or_introl eq_refl)). lia.
    - intros M HM. apply HL. right. exact HM. }
  apply G; [lia|]. intros L HL. apply In_nth_error in HL. destruct HL as (k & HL).
  exact (level_length root rls k L Hr H HL).
Qed.

Lemma depth_le root rls : root < n -> levels_of root rls -> length rls <= n.
Proof.
  intros Hr [H1 H2]. 
  (* pick the first node of every level: these are pairwise different *)
  assert (ND : NoDup (map (fun L => hd 0 L) rls)).
  { apply NoDup_nth_error. intros i j Hi Hij. rewrite map_length in Hi.
    destruct (nth_error rls i) as [L|] eqn:EL; [|apply nth_error_None in EL; lia].
    rewrite !nth_error_map, EL in Hij. cbn in Hij.
    destruct (nth_error rls j) as [M|] eqn:EM; [|discriminate Hij]. cbn in Hij. injection Hij as Hh.
    destruct (H1 i L EL) as (_ & NL & DL). destruct (H1 j M EM) as (_ & NM & DM).
    apply (dist_unique root (hd 0 L)).
    - apply DL. destruct L; [congruence|left; reflexivity].
    - rewrite Hh. apply DM. destruct M; [congruence|left; reflexivity]. }
  rewrite <- (map_length (fun L : list nat => hd 0 L)). rewrite <- (seq_length n 0). apply NoDup_incl_length; [exact ND|].
  intros v Hv. apply in_map_iff in Hv. destruct Hv as (L & <- & HL).
  apply In_nth_error in HL. destruct HL as (k & HL). destruct (H1 k L HL) as (_ & NL & DL).
  apply in_seq. assert (Hd : distance adj root (hd 0 L) k) by (apply DL; destruct L; [congruence|left; reflexivity]).
  pose proof (dist_lt root Hr _ _ Hd). lia.
Qed.

(** The improvement order and its measure. *)
Definition better (l1 w1 l2 w2 : nat) : Prop := l2 < l1 \/ l1 = l2 /\ w1 < w2.

Definition good (rls : list (list nat)) (len width : nat) : Prop :=
  exists root, root < n /\ levels_of root rls /\ len = length rls /\ width = widest rls.

Lemma scan_ok fuel : n <= fuel -> forall nodes rls len width found,
  (forall v, In v nodes -> v < n) -> good rls len width ->
  exists rls' len' width' found',
    ppn_scan fuel adj nodes (rls, len, width, found) = Ok (rls', len', width', found') /\
    good rls' len' width' /\ len <= len' /\
    ((found' = found /\ (rls', len', width') = (rls, len, width) /\
       forall v r, In v nodes -> levels_of v r -> ~ better (length r) (widest r) len width) \/
     (found' = true /\ better len' width' len width)).
Proof.
  intros Hf. unfold ppn_scan. induction nodes as [|v nodes IH]; intros rls len width found Hn Hg; cbn [foldM].
  - exists rls, len, width, found. split; [reflexivity|]. split; [exact Hg|]. split; [lia|]. left.
    split; [reflexivity|]. split; [reflexivity|]. intros v r [].
  - assert (Hv : v < n) by (apply Hn; left; reflexivity).
    destruct (rls_connected v Hv fuel (fun u Hu => conn v u Hv Hu) Hf) as (r & E & Hr).
    rewrite E. cbn [bind length_width]. fold (widest r).
    destruct ((len <? length r) || (length r =? len) && (widest r <? width)) eqn:C; cbn [bind].
    + assert (HB : better (length r) (widest r) len width).
      { apply orb_prop in C. destruct C as [C|C].
        - left. apply Nat.ltb_lt. exact C.
        - apply andb_prop in C. destruct C as [C1 C2]. right. split; [apply Nat.eqb_eq; exact C1|apply Nat.ltb_lt; exact C2]. }
      destruct (IH r (length r) (widest r) true) as (rls' & len' & width' & found' & E' & Hg' & Hlen & Hcase).
      { intros u Hu. apply Hn. right. exact Hu. }
      { exists v. auto. }
      exists rls', len', width', found'. split; [exact E'|]. split; [exact Hg'|].
      split; [unfold better in HB; lia|]. right.
      destruct Hcase as [(-> & Heq & _)|(-> & HB')].
      * injection Heq as -> -> ->. auto.
      * split; [reflexivity|]. unfold better in *. lia.
    + assert (HB : ~ better (length r) (widest r) len width).
      { apply orb_false_iff in C. destruct C as [C1 C2]. apply Nat.ltb_ge in C1. intros [H|[H1 H2]]; [lia|].
        apply Nat.ltb_lt in H2. rewrite H1, Nat.eqb_refl, H2 in C2. discriminate C2. }
      destruct (IH rls len width found) as (rls' & len' & width' & found' & E' & Hg' & Hlen & Hcase).
      { intros u Hu. apply Hn. right. exact Hu. }
      { exact Hg. }
      exists rls', len', width', found'. split; [exact E'|]. split; [exact Hg'|]. split; [exact Hlen|].
      destruct Hcase as [(-> & Heq & Hno)|(-> & HB')]; [left|right; auto].
      split; [reflexivity|]. split; [exact Heq|]. intros u ru [<-|Hu] Hru.
      * rewrite (levels_unique v Hv ru r Hru Hr). exact HB.
      * exact (Hno u ru Hu Hru).
Qed.

Definition measure (len width : nat) : nat := len * S n + (n - width).

(** The result of the search: the last level of the structure of [r] and [r]
    itself; no node of that level has a better structure. *)
Definition ppn_result (e0 : nat) (res : list nat) : Prop :=
  exists r e L rls, res = L ++ [r] /\ r < n /\ e0 <= e /\ eccentricity n adj r e /\
    (forall v, In v L <-> distance adj r v e) /\ L <> [] /\ StronglySorted lt L /\
    levels_of r rls /\ length rls = S e /\
    forall v s, In v L -> levels_of v s -> ~ better (length s) (widest s) (length rls) (widest rls).

Lemma ppn_loop_ok fuel : n <= fuel -> forall outer rls len width,
  good rls len width -> S (S n * S n) <= outer + measure len width ->
  exists res, ppn_loop outer fuel adj rls len width = Ok res /\ ppn_result (len - 1) res.
Proof.
  intros Hf. induction outer as [|outer IH]; intros rls len width Hg Hm.
  - exfalso. destruct Hg as (root & Hr & Hl & -> & ->). pose proof (depth_le root rls Hr Hl).
    unfold measure in Hm. assert (length rls * S n <= n * S n) by (apply Nat.mul_le_mono_r; assumption). lia.
  - cbn [ppn_loop].
    destruct (scan_ok fuel Hf (last rls []) rls len width false) as (rls' & len' & width' & found' & E & Hg' & Hlen & Hcase).
    { destruct Hg as (root & Hr & Hl & _ & _). destruct (last_level root Hr rls Hl) as (e & L & _ & -> & _ & _ & HD & _).
      intros v Hv. apply HD in Hv. exact (dist_lt root Hr v e Hv). }
    { exact Hg. }
    rewrite E. cbn [bind].
    destruct Hcase as [(-> & Heq & Hno)|(-> & HB)].
    + injection Heq as -> -> ->. destruct Hg as (root & Hr & Hl & -> & ->).
      pose proof (levels_root root Hr rls Hl) as H0.
      destruct (last_level root Hr rls Hl) as (e & L & He & EL & HnL & HL & HD & Hecc).
      destruct rls as [|[|r0 l0] rls0] eqn:Erls; [discriminate H0|discriminate H0|]. rewrite <- Erls in *.
      assert (r0 = root) as ->.
      { rewrite Erls in H0. cbn in H0. injection H0 as -> _. reflexivity. }
      eexists. split; [reflexivity|]. exists root, e, L, rls. rewrite EL. split; [reflexivity|]. split; [exact Hr|].
      split; [lia|]. split; [exact Hecc|]. split; [exact HD|]. split; [exact HL|].
      split; [exact (proj1 (proj1 Hl e L HnL))|]. split; [exact Hl|]. split; [exact He|].
      intros v s Hv Hs. rewrite EL in Hno. exact (Hno v s Hv Hs).
    + destruct (IH rls' len' width' Hg') as (res & Eres & Hres).
      { destruct Hg' as (root & Hr & Hl & -> & ->). destruct Hg as (root0 & Hr0 & Hl0 & -> & ->).
        pose proof (widest_le root rls' Hr Hl). pose proof (widest_le root0 rls Hr0 Hl0).
        unfold measure in *. destruct HB as [HB|[HB1 HB2]].
        - assert (S (length rls) * S n <= length rls' * S n) by (apply Nat.mul_le_mono_r; exact HB). lia.
        - rewrite HB1. lia. }
      exists res. split; [exact Eres|]. destruct Hres as (r & e & L & s & Hres).
      exists r, e, L, s. destruct Hres as (A1 & A2 & A3 & A4). split; [exact A1|]. split; [exact A2|].
      split; [lia|exact A4].
Qed.

Lemma ppn_ok outer fuel e0 : n <= fuel -> S (S n * S n) <= outer -> eccentricity n adj 0 e0 ->
  exists res, pseudo_peripheral_nodes outer fuel adj = Ok res /\ ppn_result e0 res.
Proof.
  intros Hf Ho He0. unfold pseudo_peripheral_nodes.
  destruct (rls_connected 0 n_pos fuel (fun u Hu => conn 0 u n_pos Hu) Hf) as (r & E & Hr).
  rewrite E. cbn [bind length_width]. fold (widest r).
  destruct (last_level 0 n_pos r Hr) as (e & L & He & _ & _ & _ & _ & Hecc).
  assert (e0 = e).
  { destruct He0 as [(v & Hv & Hd) Hmax], Hecc as [(v' & Hv' & Hd') Hmax'].
    apply Nat.le_antisymm; [apply (Hmax' v); assumption|apply (Hmax v'); assumption]. }
  subst e0. replace e with (length r - 1) by lia. apply ppn_loop_ok; [exact Hf| |lia].
  exists 0. auto.
Qed.

Lemma eccentricity_exists u : u < n -> exists e, eccentricity n adj u e.
Proof.
  intros Hu. destruct (rls_connected u Hu n (fun v Hv => conn u v Hu Hv) (le_n n)) as (r & _ & Hr).
  destruct (last_level u Hu r Hr) as (e & L & _ & _ & _ & _ & _ & H). exists e. exact H.
Qed.

Lemma walk_app k u v m w : walk k u v -> walk m v w -> walk (k + m) u w.
Proof.
  intros H1 H2. revert H1. induction H2 as [v|m v x w H2 IH He]; intros H1.
  - rewrite Nat.add_0_r. exact H1.
  - rewrite Nat.add_succ_r. econstructor; [apply IH; exact H1|exact He].
Qed.

Lemma walk_sym : undirected adj -> forall k u v, walk k u v -> walk k v u.
Proof.
  intros HU k u v H. induction H as [|k u v w H IH He]; [constructor|].
  replace (S k) with (1 + k) by lia. eapply walk_app; [|exact IH].
  econstructor; [constructor|apply HU; exact He].
Qed.

Lemma dist_sym : undirected adj -> forall u v k, distance adj u v k -> distance adj v u k.
Proof.
  intros HU u v k [H1 H2]. split; [apply walk_sym; assumption|]. intros j Hj Hw.
  apply (H2 j Hj). apply walk_sym; assumption.
Qed.

(** All returned nodes have the same eccentricity. *)
Lemma ppn_same_ecc e0 res : undirected adj -> ppn_result e0 res ->
  exists e, e0 <= e /\ forall v, In v res -> v < n /\ eccentricity n adj v e.
Proof.
  intros HU (r & e & L & rls & -> & Hr & Hle & Hecc & HD & _ & _ & Hl & Hlen & Hno).
  exists e. split; [exact Hle|]. intros v Hv. apply in_app_or in Hv. destruct Hv as [Hv|[<-|[]]]; [|auto].
  assert (Hd : distance adj r v e) by (apply HD; exact Hv).
  assert (Hvn : v < n) by exact (dist_lt r Hr v e Hd). split; [exact Hvn|].
  destruct (rls_connected v Hvn n (fun u Hu => conn v u Hvn Hu) (le_n n)) as (s & _ & Hs).
  destruct (last_level v Hvn s Hs) as (e' & L' & Hlen' & _ & _ & _ & _ & Hecc').
  assert (e <= e') by (apply Hecc' with (v := r); [exact Hr|apply dist_sym; assumption]).
  assert (~ e < e').
  { intros Hlt. apply (Hno v s Hv Hs). left. lia. }
  assert (e' = e) as <- by lia. exact Hecc'.
Qed.
End Ppn.
End Graph.

(** Statements used by the property file. *)
Lemma rls_ok {F : ofield} n (adj : csr F) root : graph_wf n adj -> root < n ->
  (forall v, v < n -> reachable adj root v) ->
  exists rls, (forall fuel, n <= fuel -> rooted_level_structure fuel adj root = Ok rls) /\
    nth_error rls 0 = Some [root] /\
    (forall k L, nth_error rls k = Some L ->
       StronglySorted lt L /\ L <> [] /\ forall v, In v L <-> distance adj root v k) /\
    (forall v, v < n -> exists k L, nth_error rls k = Some L /\ In v L).
Proof.
  intros wf Hr HR. destruct (rls_connected n adj wf root Hr n HR (le_n n)) as (rls & _ & HL).
  exists rls. split.
  - intros fuel Hf. destruct (rls_connected n adj wf root Hr fuel HR Hf) as (rls' & E & HL').
    rewrite E. f_equal. exact (levels_unique n adj wf root Hr rls' rls HL' HL).
  - split; [exact (levels_root n adj root Hr rls HL)|]. exact HL.
Qed.

Lemma rls_returns_iff {F : ofield} n (adj : csr F) root : graph_wf n adj -> root < n ->
  (exists fuel rls, rooted_level_structure fuel adj root = Ok rls) <->
  (forall v, v < n -> reachable adj root v).
Proof.
  intros wf Hr. split.
  - intros (fuel & rls & E) v Hv.
    assert (D : forall k, {walk adj k root v} + {~ walk adj k root v}) by (intros k; apply (walk_dec n adj wf root Hr)).
    destruct (Exists_dec (fun k => walk adj k root v) (seq 0 n)) as [H|H]; [exact D| |].
    + apply Exists_exists in H. destruct H as (k & _ & Hk). exists k. exact Hk.
    + exfalso. rewrite (rls_stuck n adj wf root Hr fuel v Hv) in E; [discriminate E|].
      intros (k & Hk). apply H.
      (* a shortest walk has fewer than n edges: the nodes at distances 0..d are different *)
      destruct (walk_dist n adj wf root Hr k v Hk) as (d & _ & Hd).
      apply Exists_exists. exists d. split; [|exact (proj1 Hd)]. apply in_seq. split; [lia|]. cbn.
      assert (G : forall d v, distance adj root v d -> exists l, NoDup l /\ length l = S d /\
        (forall x, In x l -> exists j, j <= d /\ distance adj root x j)).
      { clear - Hr. induction d as [|d IH]; intros v Hd.
        - exists [v]. split; [repeat constructor; intros []|]. split; [reflexivity|].
          intros x [<-|[]]. exists 0. auto.
        - destruct (dist_pred n adj root Hr v d Hd) as (u & Hu & _). destruct (IH u Hu) as (l & ND & Hl & Hx).
          exists (v :: l). split; [|split].
          + constructor; [|exact ND]. intros Hin. destruct (Hx v Hin) as (j & Hj & Hdj).
            pose proof (dist_unique adj root v _ _ Hd Hdj). lia.
          + cbn. lia.
          + intros x [<-|Hin]; [exists (S d); auto|]. destruct (Hx x Hin) as (j & Hj & Hdj). exists j. split; [lia|exact Hdj]. }
      destruct (G d v Hd) as (l & ND & Hl & Hx).
      assert (B : length l <= length (seq 0 n)).
      { apply NoDup_incl_length; [exact ND|]. intros x Hin. destruct (Hx x Hin) as (j & _ & Hdj).
        apply in_seq. pose proof (dist_lt n adj wf root Hr x j Hdj). lia. }
      rewrite seq_length in B. lia.
  - intros HR. destruct (rls_ok n adj root wf Hr HR) as (rls & H & _). exists n, rls. apply H. lia.
Qed.

Lemma rls_never_returns {F : ofield} n (adj : csr F) root v : graph_wf n adj -> root < n -> v < n ->
  ~ reachable adj root v -> forall fuel, rooted_level_structure fuel adj root = Err OutOfFuel.
Proof. intros wf Hr Hv HR fuel. exact (rls_stuck n adj wf root Hr fuel v Hv HR). Qed.

Lemma pseudo_peripheral_ok {F : ofield} n (adj : csr F) e0 :
  graph_wf n adj -> 0 < n -> undirected adj -> connected n adj -> eccentricity n adj 0 e0 ->
  forall outer fuel, n <= fuel -> S (S n * S n) <= outer ->
  exists res r e L, pseudo_peripheral_nodes outer fuel adj = Ok res /\
    res = L ++ [r] /\ L <> [] /\ StronglySorted lt L /\
    (forall v, In v L <-> distance adj r v e) /\
    e0 <= e /\ forall v, In v res -> v < n /\ eccentricity n adj v e.
Proof.
  intros wf Hn HU HC He0 outer fuel Hf Ho.
  destruct (ppn_ok n adj wf HC Hn outer fuel e0 Hf Ho He0) as (res & E & Hres).
  destruct (ppn_same_ecc n adj wf HC Hn e0 res HU Hres) as (e & Hle & Hecc).
  destruct Hres as (r & e' & L & rls & -> & Hr & Hle' & Hecc' & HD & HNe & Hs & _).
  assert (e' = e) as ->.
  { assert (Hre : eccentricity n adj r e) by (apply Hecc; apply in_or_app; right; left; reflexivity).
    destruct Hre as [(v & Hv & Hd) Hmax], Hecc' as [(v' & Hv' & Hd') Hmax'].
    apply Nat.le_antisymm; [apply (Hmax v'); assumption|apply (Hmax' v); assumption]. }
  exists (L ++ [r]), r, e, L. auto 10.
Qed.
