(** Property C115: dtype predicates, and equal rows of arrays of machine integers. *)
From Coq Require Import ZArith QArith.
From Verif Require Import Prelude DtypeModel.

(** ** Specification *)
(** Integer and float types by their names. *)
Definition is_integer_type (d : sclass) : Prop := exists w, d = Int w \/ d = UInt w.
Definition is_float_type (d : sclass) : Prop := exists w, d = Float w.

Open Scope Z_scope.
Definition in_range (signed : bool) (w : nat) (z : Z) : Prop :=
  if signed then - 2 ^ (Z.of_nat w - 1) <= z < 2 ^ (Z.of_nat w - 1) else 0 <= z < 2 ^ Z.of_nat w.
Fixpoint dist (r s : list Z) : Z := match r, s with a :: r, b :: s => Z.abs (a - b) + dist r s | _, _ => 0 end.
(** The difference of two entries is exact if it has a place in the type; without sign it is taken modulo 2^w. *)
Definition absdiff_ok (signed : bool) (w : nat) (absdiff : Z -> Z -> Z) : Prop :=
  forall a b, if signed then Z.abs (a - b) < 2 ^ (Z.of_nat w - 1) -> absdiff a b = Z.abs (a - b)
              else exists k, absdiff a b = a - b + k * 2 ^ Z.of_nat w /\ 0 <= absdiff a b < 2 ^ Z.of_nat w.
Definition rows_of (d : nat) (x : list (list Z)) : Prop := Forall (fun r => length r = d) x.

(** ** Proofs *)
Lemma two_pow (w : nat) : (1 <= w)%nat -> 2 ^ Z.of_nat w / 2 = 2 ^ (Z.of_nat w - 1) /\ 2 ^ Z.of_nat w = 2 * 2 ^ (Z.of_nat w - 1) /\ 0 < 2 ^ (Z.of_nat w - 1).
Proof.
  intros H. assert (E : 2 ^ Z.of_nat w = 2 * 2 ^ (Z.of_nat w - 1)). { rewrite <- Z.pow_succ_r by lia. f_equal. lia. }
  split; [|split; [exact E|apply Z.pow_pos_nonneg; lia]]. rewrite E. rewrite Z.mul_comm. apply Z.div_mul. lia.
Qed.
Lemma wrap_id w z : (1 <= w)%nat -> 0 <= z < 2 ^ (Z.of_nat w - 1) -> wrap true w z = z.
Proof. intros H Z. destruct (two_pow w H) as (D & E & P). unfold wrap. rewrite D, Z.mod_small by lia. lia. Qed.
Lemma fold_sum l : forall a, fold_left Z.add l a = a + fold_left Z.add l 0.
Proof. induction l as [|x l IH]; intros a; cbn; [lia|]. rewrite (IH (a + x)), (IH x). lia. Qed.
Lemma dist_pos r : forall s, 0 <= dist r s.
Proof. induction r as [|a r IH]; intros [|b s]; cbn; try lia. specialize (IH s). lia. Qed.
Lemma dist_0 r : forall s, length r = length s -> (dist r s <= 0 <-> r = s).
Proof.
  induction r as [|a r IH]; intros [|b s] L; try discriminate L; cbn; [split; [reflexivity|lia]|]. injection L as L. pose proof (dist_pos r s). split.
  - intros E. f_equal; [lia|]. apply IH; [exact L|lia].
  - intros E. injection E as -> ->. assert (dist s s <= 0) by (apply IH; reflexivity). lia.
Qed.
Lemma sum_exact ad w r : absdiff_ok true w ad -> forall s, dist r s < 2 ^ (Z.of_nat w - 1) ->
  fold_left Z.add (map (fun ab => ad (fst ab) (snd ab)) (combine r s)) 0 = dist r s.
Proof.
  intros A. induction r as [|a r IH]; intros [|b s] D; try reflexivity. cbn in D |- *. rewrite fold_sum. pose proof (dist_pos r s). pose proof (A a b) as Aab. cbn in Aab.
  rewrite IH, Aab by lia. lia.
Qed.
Lemma row_sum_exact ad w r s : (1 <= w <= 64)%nat -> absdiff_ok true w ad -> dist r s < 2 ^ (Z.of_nat w - 1) -> row_sum ad true w r s = dist r s.
Proof.
  intros W A D. unfold row_sum. rewrite (sum_exact ad w) by assumption. pose proof (dist_pos r s).
  assert (2 ^ (Z.of_nat w - 1) <= 2 ^ (Z.of_nat 64 - 1)) by (apply Z.pow_le_mono_r; lia). rewrite (wrap_id 64) by lia. apply wrap_id; lia.
Qed.

Lemma in_where ad sg w x y nx ny tol i j : In (i, j) (where_rows ad sg w x y nx ny tol) <->
  (i < nx)%nat /\ (j < ny)%nat /\ Qle_bool (inject_Z (row_sum ad sg w (nth i x []) (nth j y []))) tol = true.
Proof.
  unfold where_rows. rewrite in_flat_map. split.
  - intros (k & Hk & H). apply in_map_iff in H. destruct H as (l & E & H). injection E as -> ->. apply filter_In in H. rewrite in_seq in *. intuition lia.
  - intros (Hi & Hj & H). exists i. rewrite in_seq. split; [lia|]. apply in_map_iff. exists j. split; [reflexivity|]. apply filter_In. rewrite in_seq. split; [lia|exact H].
Qed.
Lemma small_tol z tol : (0 <= tol < 1)%Q -> 0 <= z -> (Qle_bool (inject_Z z) tol = true <-> z <= 0).
Proof.
  intros [T0 T1] P. rewrite Qle_bool_iff. split; intros H.
  - destruct (Z.le_gt_cases z 0) as [L|L]; [exact L|]. exfalso. assert (X : (inject_Z 1 <= inject_Z z)%Q) by (rewrite <- Zle_Qle; lia).
    apply (Qlt_irrefl 1). eapply Qle_lt_trans; [|exact T1]. eapply Qle_trans; [exact X|exact H].
  - eapply Qle_trans; [|exact T0]. replace 0%Q with (inject_Z 0) by reflexivity. rewrite <- Zle_Qle. exact H.
Qed.
Lemma eq_rows_ok r : forall s, eq_rows r s = true <-> r = s.
Proof.
  induction r as [|a r IH]; intros [|b s]; cbn; try (split; [discriminate|discriminate]); [split; reflexivity|]. rewrite andb_true_iff, Z.eqb_eq, IH. split; [intros [-> ->]; reflexivity|].
  intros E. injection E as -> ->. split; reflexivity.
Qed.
Lemma in_diagonal x y i j : In (i, j) (diagonal x y) <-> i = j /\ (i < length x)%nat /\ nth i x [] = nth j y [].
Proof.
  unfold diagonal. rewrite in_map_iff. split.
  - intros (k & E & H). injection E as -> ->. apply filter_In in H. destruct H as [H E]. rewrite in_seq in H. apply eq_rows_ok in E. split; [reflexivity|]. split; [lia|exact E].
  - intros (-> & H & E). exists j. split; [reflexivity|]. apply filter_In. rewrite in_seq, eq_rows_ok. split; [lia|exact E].
Qed.
Lemma int_type long w : isintegerarray long (Int w) = (w =? long)%nat /\ isintegerarray long (UInt w) = false.
Proof. split; [|reflexivity]. cbn. rewrite orb_false_r. reflexivity. Qed.

(** ** Theorems *)

(** The predicates hold for one type each: float64, the integer of the platform, bool. *)
Theorem C115_predicates_partial :
  forall long d ndim,
  (isfloatarray long d = true <-> d = Float 64) /\ (isintegerarray long d = true <-> d = Int long) /\
  isintarray long d = isintegerarray long d /\ (isboolarray long d = true <-> d = Bool_) /\
  (is1dfloatarray long d ndim = true <-> d = Float 64 /\ ndim = 1%nat) /\ (is1dintarray long d ndim = true <-> d = Int long /\ ndim = 1%nat) /\
  (isfloatarray long d = true -> is_float_type d) /\ (isintegerarray long d = true -> is_integer_type d).
Proof.
  intros long d ndim.
  assert (Fl : isfloatarray long d = true <-> d = Float 64).
  { destruct d; cbn; try (split; discriminate). rewrite orb_false_r, Nat.eqb_eq. split; [intros ->; reflexivity|]. intros E. injection E as ->. reflexivity. }
  assert (In_ : isintegerarray long d = true <-> d = Int long).
  { destruct d; cbn; try (split; discriminate). rewrite orb_false_r, Nat.eqb_eq. split; [intros ->; reflexivity|]. intros E. injection E as ->. reflexivity. }
  assert (Bo : isboolarray long d = true <-> d = Bool_) by (destruct d; cbn; try (split; discriminate); split; reflexivity).
  split; [exact Fl|]. split; [exact In_|]. split; [reflexivity|]. split; [exact Bo|]. unfold is1dfloatarray, is1dintarray, isintarray.
  rewrite !andb_true_iff, !Nat.eqb_eq, Fl, In_. split; [reflexivity|]. split; [reflexivity|].
  split; [intros ->; exists 64%nat; reflexivity|intros ->; exists long; left; reflexivity].
Qed.
Print Assumptions C115_predicates_partial.

(** Signed integers: if the distances of rows have a place in the type, the pairs are those of equal rows; if both arrays
    have the integer type of the platform and the same number of rows, only the pairs (i, i) of them. *)
Theorem C115_rows_partial :
  forall ad long w d x y tol, (1 <= w <= 64)%nat -> absdiff_ok true w ad -> (0 <= tol < 1)%Q -> rows_of d x -> rows_of d y ->
  (forall r s, In r x -> In s y -> dist r s < 2 ^ (Z.of_nat w - 1)) ->
  exists l, equal_rows ad long true w d d x y tol = Ok l /\
  forall i j, In (i, j) l <-> (i < length x)%nat /\ (j < length y)%nat /\ nth i x [] = nth j y [] /\ (w = long -> length x = length y -> i = j).
Proof.
  intros ad long w d x y tol W A T Rx Ry D. unfold equal_rows. rewrite Nat.eqb_refl. cbn [negb]. destruct (int_type long w) as [-> _]. rewrite andb_diag.
  assert (K : forall tol, (0 <= tol < 1)%Q -> forall i j, In (i, j) (where_rows ad true w x y (length x) (length y) tol) <-> (i < length x)%nat /\ (j < length y)%nat /\ nth i x [] = nth j y []).
  { intros tol' T' i j. rewrite in_where. split.
    - intros (Hi & Hj & H). split; [exact Hi|]. split; [exact Hj|]. rewrite row_sum_exact in H by (try assumption; apply D; apply nth_In; assumption).
      apply small_tol in H; [|exact T'|apply dist_pos]. apply dist_0; [|exact H]. unfold rows_of in *. rewrite Forall_nth in Rx, Ry. rewrite Rx, Ry by assumption. reflexivity.
    - intros (Hi & Hj & H). split; [exact Hi|]. split; [exact Hj|]. rewrite row_sum_exact by (try assumption; apply D; apply nth_In; assumption).
      apply small_tol; [exact T'|apply dist_pos|]. apply dist_0; [rewrite H; reflexivity|exact H]. }
  destruct (Nat.eqb_spec w long) as [Ew|Ew], (Nat.eqb_spec (length x) (length y)) as [El|El].
  - eexists. split; [reflexivity|]. intros i j. rewrite in_diagonal. split.
    + intros (-> & Hi & E). split; [exact Hi|]. split; [lia|]. split; [exact E|reflexivity].
    + intros (Hi & Hj & E & S). split; [apply S; assumption|]. split; [exact Hi|exact E].
  - eexists. split; [reflexivity|]. intros i j. rewrite K by (split; [apply Qle_refl|reflexivity]). tauto.
  - eexists. split; [reflexivity|]. intros i j. replace (if (length x <? length y)%nat then length x else length y) with (length x) by (destruct (length x <? length y)%nat; lia).
    rewrite El at 2. rewrite K by exact T. tauto.
  - eexists. split; [reflexivity|]. intros i j. rewrite K by exact T. tauto.
Qed.
Print Assumptions C115_rows_partial.

(** Without sign: arrays with one column. *)
Theorem C115_unsigned_partial :
  forall ad long w x y tol, (1 <= w <= 64)%nat -> absdiff_ok false w ad -> (0 <= tol < 1)%Q -> rows_of 1 x -> rows_of 1 y ->
  (forall r, In r x \/ In r y -> Forall (in_range false w) r) ->
  exists l, equal_rows ad long false w 1 1 x y tol = Ok l /\
  forall i j, In (i, j) l <-> (i < length x)%nat /\ (j < length y)%nat /\ nth i x [] = nth j y [].
Proof.
  intros ad long w x y tol W A T Rx Ry B. unfold equal_rows. rewrite Nat.eqb_refl. destruct (int_type long w) as [_ ->]. cbn [andb].
  assert (K : forall i j, In (i, j) (where_rows ad false w x y (length x) (length y) tol) <-> (i < length x)%nat /\ (j < length y)%nat /\ nth i x [] = nth j y []).
  { intros i j. rewrite in_where.
    assert (G : (i < length x)%nat -> (j < length y)%nat -> (Qle_bool (inject_Z (row_sum ad false w (nth i x []) (nth j y []))) tol = true <-> nth i x [] = nth j y [])).
    { intros Hi Hj. unfold rows_of in *. rewrite Forall_nth in Rx, Ry. pose proof (Rx i [] Hi) as Lx. pose proof (Ry j [] Hj) as Ly.
      pose proof (B (nth i x []) (or_introl (nth_In x [] Hi))) as Bx. pose proof (B (nth j y []) (or_intror (nth_In y [] Hj))) as By.
      destruct (nth i x []) as [|a [|a' r]]; try discriminate Lx. destruct (nth j y []) as [|b [|b' s]]; try discriminate Ly.
      inversion Bx as [|? ? Ba _]; subst. inversion By as [|? ? Bb _]; subst. unfold in_range in Ba, Bb.
      assert (P64 : 2 ^ Z.of_nat w <= 2 ^ Z.of_nat 64) by (apply Z.pow_le_mono_r; lia).
      destruct (A a b) as (k & E & R).
      assert (S : row_sum ad false w [a] [b] = ad a b).
      { unfold row_sum. cbn [combine map fold_left fst snd]. rewrite Z.add_0_l. unfold wrap. rewrite (Z.mod_small (ad a b) (2 ^ Z.of_nat 64)) by lia. apply Z.mod_small. exact R. }
      rewrite S. rewrite small_tol by (try exact T; lia). split.
      - intros Z0. assert (Z1 : a - b = - k * 2 ^ Z.of_nat w) by lia. assert (k = 0) by nia. f_equal. nia.
      - intros X. injection X as ->. assert (k = 0 \/ k <> 0) as [->|Nk] by lia; [lia|]. exfalso. nia. }
    split; intros (Hi & Hj & H); (split; [exact Hi|]); (split; [exact Hj|]); apply (G Hi Hj); exact H. }
  destruct (Nat.eqb_spec (length x) (length y)) as [El|El].
  - eexists. split; [reflexivity|]. intros i j. replace (if (length x <? length y)%nat then length x else length y) with (length x) by (destruct (length x <? length y)%nat; lia).
    rewrite El at 2. apply K.
  - eexists. split; [reflexivity|]. apply K.
Qed.
Print Assumptions C115_unsigned_partial.

Theorem C115_assertion :
  forall ad long sg w dX dY x y tol, dX <> dY -> equal_rows ad long sg w dX dY x y tol = Err AssertionError.
Proof. intros ad long sg w dX dY x y tol N. unfold equal_rows. rewrite (proj2 (Nat.eqb_neq _ _) N). reflexivity. Qed.
Print Assumptions C115_assertion.

(** The claims fail in general.  (1) Arrays of other float and integer types are not recognized.  (2) For every
    width, rows with a distance of 2^(w-1) are reported as equal.  (3) Without sign,
    the rows (1, 0) and (0, 1) are reported as equal.  (4) The same numbers have other pairs of equal rows
    as 32 bit integers than as 64 bit integers. *)
Theorem C115_refuted :
  (exists d, is_float_type d /\ isfloatarray 64 d = false) /\ (exists d, is_integer_type d /\ isintegerarray 64 d = false) /\
  (forall ad long w, (2 <= w <= 64)%nat -> absdiff_ok true w ad ->
     exists x y l, rows_of 2 x /\ rows_of 2 y /\ (forall r, In r x \/ In r y -> Forall (in_range true w) r) /\
     equal_rows ad long true w 2 2 x y (1 # 1000000000000) = Ok l /\ In (0, 0)%nat l /\ nth 0 x [] <> nth 0 y []) /\
  (forall ad long w, (1 <= w <= 64)%nat -> absdiff_ok false w ad ->
     exists l, equal_rows ad long false w 2 2 [[1; 0]] [[0; 1]] (1 # 1000000000000) = Ok l /\ In (0, 0)%nat l) /\
  (forall ad, absdiff_ok true 32 ad -> exists x y l l', equal_rows ad 64 true 32 1 1 x y (1 # 1000000000000) = Ok l /\
     equal_rows ad 64 true 64 1 1 x y (1 # 1000000000000) = Ok l' /\ In (0, 1)%nat l /\ ~ In (0, 1)%nat l').
Proof.
  split; [exists (Float 32); split; [exists 32%nat; reflexivity|reflexivity]|]. split; [exists (Int 32); split; [exists 32%nat; left; reflexivity|reflexivity]|].
  split; [|split].
  - intros ad long w W A. set (h := 2 ^ (Z.of_nat w - 1)). exists [[h - 1; 1]], [[0; 0]; [0; 0]].
    assert (Wh : (1 <= w)%nat) by lia. destruct (two_pow w Wh) as (D & E & P). fold h in D, E, P.
    assert (H2 : 2 <= h) by (unfold h; change 2 with (2 ^ 1) at 1; apply Z.pow_le_mono_r; lia).
    assert (H64 : h <= 2 ^ 63) by (unfold h; apply Z.pow_le_mono_r; lia).
    pose proof (A (h - 1) 0) as A1. pose proof (A 1 0) as A2. cbn in A1, A2. fold h in A1, A2. rewrite Z.sub_0_r in A1.
    assert (Sum : row_sum ad true w [h - 1; 1] [0; 0] <= 0).
    { unfold row_sum. cbn [combine map fold_left fst snd]. rewrite A1, A2 by lia. replace (0 + Z.abs (h - 1) + 1) with h by lia.
      unfold wrap at 1. rewrite D. pose proof (Z.mod_pos_bound (wrap true 64 h + h) (2 ^ Z.of_nat w)) as M.
      assert (Z0 : (wrap true 64 h + h) mod 2 ^ Z.of_nat w = 0).
      { assert (Wr : exists k, wrap true 64 h = h + k * 2 ^ Z.of_nat 64).
        { unfold wrap. exists (- ((h + 2 ^ Z.of_nat 64 / 2) / 2 ^ Z.of_nat 64)). rewrite Z.mod_eq by (apply Z.pow_nonzero; lia). lia. }
        destruct Wr as [k ->]. replace (2 ^ Z.of_nat 64) with (2 ^ Z.of_nat w * 2 ^ (64 - Z.of_nat w)) by (rewrite <- Z.pow_add_r by lia; f_equal; lia).
        replace (h + k * (2 ^ Z.of_nat w * 2 ^ (64 - Z.of_nat w)) + h) with ((1 + k * 2 ^ (64 - Z.of_nat w)) * 2 ^ Z.of_nat w) by (rewrite E; ring).
        apply Z.mod_mul. lia. }
      lia. }
    exists (where_rows ad true w [[h - 1; 1]] [[0; 0]; [0; 0]] 1 2 (if isintegerarray long (Int w) && isintegerarray long (Int w) then 0 else 1 # 1000000000000)).
    split; [repeat constructor|]. split; [repeat constructor|]. split.
    { intros r [[<-|[]]|[<-|[<-|[]]]]; repeat constructor; unfold in_range; fold h; lia. }
    assert (Q0 : forall tol, (0 <= tol)%Q -> Qle_bool (inject_Z (row_sum ad true w [h - 1; 1] [0; 0])) tol = true).
    { intros tol T. apply Qle_bool_iff. eapply Qle_trans; [|exact T]. replace 0%Q with (inject_Z 0) by reflexivity. rewrite <- Zle_Qle. exact Sum. }
    unfold equal_rows. cbn [Nat.eqb length]. destruct (isintegerarray long (Int w) && isintegerarray long (Int w)).
    + split; [reflexivity|]. split; [|intros X; injection X; lia]. apply in_where. split; [lia|]. split; [lia|]. apply Q0. apply Qle_refl.
    + split; [reflexivity|]. split; [|intros X; injection X; lia]. apply in_where. split; [lia|]. split; [lia|]. apply Q0. discriminate.
  - intros ad long w W A. unfold equal_rows. cbn [Nat.eqb length]. destruct (int_type long w) as [_ ->]. cbn [andb]. eexists. split; [reflexivity|]. apply in_where. split; [cbn; lia|]. split; [cbn; lia|].
    cbn [nth]. assert (Z0 : row_sum ad false w [1; 0] [0; 1] = 0).
    { destruct (A 1 0) as (k & E & _), (A 0 1) as (k' & E' & _). unfold row_sum. cbn [combine map fold_left fst snd]. rewrite E, E'.
      replace (0 + (1 - 0 + k * 2 ^ Z.of_nat w) + (0 - 1 + k' * 2 ^ Z.of_nat w)) with ((k + k') * 2 ^ Z.of_nat w) by ring.
      unfold wrap. rewrite (Z.mod_eq _ (2 ^ Z.of_nat 64)) by (apply Z.pow_nonzero; lia). set (q := _ / _).
      replace (2 ^ Z.of_nat 64) with (2 ^ Z.of_nat w * 2 ^ (64 - Z.of_nat w)) by (rewrite <- Z.pow_add_r by lia; f_equal; lia).
      replace ((k + k') * 2 ^ Z.of_nat w - 2 ^ Z.of_nat w * 2 ^ (64 - Z.of_nat w) * q) with ((k + k' - 2 ^ (64 - Z.of_nat w) * q) * 2 ^ Z.of_nat w) by ring.
      apply Z.mod_mul. apply Z.pow_nonzero; lia. }
    rewrite Z0. reflexivity.
  - intros ad A. exists [[1]; [2]], [[3]; [1]]. do 2 eexists. split; [reflexivity|]. split; [reflexivity|]. split.
    + apply in_where. split; [cbn; lia|]. split; [cbn; lia|]. cbn [nth]. pose proof (A 1 1) as A1. cbn in A1. unfold row_sum. cbn [combine map fold_left fst snd]. rewrite A1 by lia. reflexivity.
    + rewrite in_diagonal. intros (X & _). discriminate X.
Qed.
Print Assumptions C115_refuted.

(** The exact difference, and the difference modulo 2^w, meet the hypotheses. *)
Example C115_met :
  (forall w, absdiff_ok true w (fun a b => Z.abs (a - b))) /\ absdiff_ok false 8 (fun a b => (a - b) mod 256) /\
  equal_rows (fun a b => Z.abs (a - b)) 64 true 32 2 2 [[1; 2]; [3; 4]; [1; 2]] [[1; 2]; [0; 0]; [3; 4]] (1 # 1000000000000) = Ok [(0, 0); (1, 2); (2, 0)]%nat /\
  equal_rows (fun a b => Z.abs (a - b)) 64 true 64 2 2 [[1; 2]; [3; 4]; [1; 2]] [[1; 2]; [0; 0]; [3; 4]] (1 # 1000000000000) = Ok [(0, 0)]%nat.
Proof.
  split; [intros w a b _; reflexivity|]. split; [|split; reflexivity]. intros a b. exists (- ((a - b) / 256)). change (2 ^ Z.of_nat 8) with 256. split; [|apply Z.mod_pos_bound; lia]. rewrite Z.mod_eq by lia. lia.
Qed.
