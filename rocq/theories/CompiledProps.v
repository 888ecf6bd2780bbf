(** Property C102: CSR matrices in compiled code, their memory, and row indices. *)
From Coq Require Import QArith Qcanon.
From Verif Require Import Prelude OField SparseModel SparseSpec CompiledModel.
Local Open Scope nat_scope.

(** ** Proofs *)
Section Proofs.
Context {F : ofield}.
Implicit Types (c : csr F) (h : memory F).

Lemma set_at_length {X} n (x : X) l : length (set_at n x l) = length l.
Proof. revert n. induction l; intros [|n]; cbn; auto. Qed.
Lemma set_at_nth {X} n (x : X) l k : n < length l -> nth_error (set_at n x l) k = if k =? n then Some x else nth_error l k.
Proof.
  revert n k. induction l as [|y l IH]; cbn; intros n k H; [lia|].
  destruct n as [|n], k as [|k]; cbn; try reflexivity. apply IH. lia.
Qed.
Lemma set_at_other {X} n (x : X) l k : k <> n -> nth_error (set_at n x l) k = nth_error l k.
Proof.
  revert n k. induction l as [|y l IH]; cbn; intros n k H; [destruct n; reflexivity|].
  destruct n as [|n], k as [|k]; cbn; try reflexivity; [contradiction|]. apply IH. lia.
Qed.

(** Invariant: every matrix has arrays, and no two have the same array of numbers. *)
Definition bounded h (m : matrix) : Prop := m_data m < length (floats h) /\ m_indices m < length (ints h) /\ m_indptr m < length (ints h).
Definition inv h : Prop :=
  (forall o m, nth_error (mats h) o = Some m -> bounded h m) /\
  (forall o o' m m', nth_error (mats h) o = Some m -> nth_error (mats h) o' = Some m' -> m_data m = m_data m' -> o = o').

Lemma fresh_old h c m : bounded h m -> contents_of (fst (fresh h c)) m = contents_of h m /\ bounded (fst (fresh h c)) m.
Proof.
  intros (B1 & B2 & B3). unfold contents_of, bounded, fresh. cbn. rewrite !nth_error_app1 by assumption.
  rewrite !app_length. cbn. repeat split; lia.
Qed.
Lemma fresh_new h c : contents (fst (fresh h c)) (length (mats h)) = Some c.
Proof.
  unfold contents, fresh. cbn. rewrite nth_error_app2, Nat.sub_diag by lia. cbn. unfold contents_of. cbn.
  rewrite nth_error_app2, Nat.sub_diag by lia. cbn. rewrite nth_error_app2, Nat.sub_diag by lia. cbn.
  rewrite nth_error_app2 by lia. replace (length (ints h) + 1 - length (ints h)) with 1 by lia. cbn. destruct c; reflexivity.
Qed.
Lemma fresh_inv h c : inv h -> inv (fst (fresh h c)).
Proof.
  intros [I1 I2]. assert (N : forall o m, nth_error (mats (fst (fresh h c))) o = Some m ->
    (o < length (mats h) /\ nth_error (mats h) o = Some m) \/
    (o = length (mats h) /\ m = Mat (length (floats h)) (length (ints h)) (length (ints h) + 1) (c_shape c))).
  { intros o m. unfold fresh. cbn. destruct (Nat.lt_ge_cases o (length (mats h))) as [L|L].
    - rewrite nth_error_app1 by exact L. auto.
    - rewrite nth_error_app2 by exact L. destruct (o - length (mats h)) as [|[|]] eqn:E; cbn; try discriminate.
      intros [= <-]. right. split; [lia|reflexivity]. }
  split.
  - intros o m H. destruct (N _ _ H) as [[_ H']|[_ ->]].
    + apply (proj2 (fresh_old h c m (I1 _ _ H'))).
    + unfold bounded, fresh. cbn. rewrite !app_length. cbn. lia.
  - intros o o' m m' H H' E. destruct (N _ _ H) as [[_ G]|[-> ->]], (N _ _ H') as [[_ G']|[-> ->]]; [eapply I2; eauto| | |reflexivity].
    + destruct (I1 _ _ G) as [B _]. cbn in E. lia.
    + destruct (I1 _ _ G') as [B _]. cbn in E. lia.
Qed.
Lemma fresh_contents h c o : inv h -> o <> length (mats h) -> contents (fst (fresh h c)) o = contents h o.
Proof.
  intros [I1 _] N. unfold contents. destruct (Nat.lt_ge_cases o (length (mats h))) as [L|L].
  - unfold fresh at 1. cbn [fst mats]. rewrite nth_error_app1 by exact L.
    destruct (nth_error (mats h) o) eqn:E; [|reflexivity]. apply fresh_old, (I1 _ _ E).
  - unfold fresh at 1. cbn [fst mats]. rewrite (proj2 (nth_error_None (mats h) o)) by exact L.
    rewrite (proj2 (nth_error_None _ o)); [reflexivity|]. rewrite app_length. cbn. lia.
Qed.

Lemma write_spec h r k v h' : write h r k v = Ok h' -> exists l, nth_error (floats h) r = Some l /\ k < length l /\
  mats h' = mats h /\ ints h' = ints h /\ length (floats h') = length (floats h) /\
  nth_error (floats h') r = Some (set_at k v l) /\ forall r', r' <> r -> nth_error (floats h') r' = nth_error (floats h) r'.
Proof.
  unfold write. destruct (nth_error (floats h) r) as [l|] eqn:E; [|discriminate].
  destruct (k <? length l) eqn:L; [|discriminate]. apply Nat.ltb_lt in L. intros [= <-]. cbn.
  assert (R : r < length (floats h)) by (apply nth_error_Some; congruence).
  exists l. repeat split; auto.
  - apply set_at_length.
  - rewrite set_at_nth, Nat.eqb_refl by exact R. reflexivity.
  - intros r' N. apply set_at_other, N.
Qed.
Lemma write_inv h r k v h' : inv h -> write h r k v = Ok h' -> inv h'.
Proof.
  intros [I1 I2] W. destruct (write_spec _ _ _ _ _ W) as (l & _ & _ & E1 & E2 & E3 & _). unfold inv, bounded.
  rewrite E1, E2, E3. split; assumption.
Qed.
Lemma write_other h r k v h' o : write h r k v = Ok h' ->
  (forall m, nth_error (mats h) o = Some m -> m_data m <> r) -> contents h' o = contents h o.
Proof.
  intros W N. destruct (write_spec _ _ _ _ _ W) as (l & _ & _ & E1 & E2 & E3 & _ & E4). unfold contents. rewrite E1.
  destruct (nth_error (mats h) o) as [m|] eqn:E; [|reflexivity]. unfold contents_of. rewrite E2, E4; [reflexivity|]. apply N. reflexivity.
Qed.
Lemma write_here h r k v h' o m c : write h r k v = Ok h' -> nth_error (mats h) o = Some m -> m_data m = r ->
  contents h o = Some c -> contents h' o = Some (Csr (set_at k v (c_data c)) (c_indices c) (c_indptr c) (c_shape c)) /\ k < length (c_data c).
Proof.
  intros W E D. destruct (write_spec _ _ _ _ _ W) as (l & A & B & E1 & E2 & E3 & E4 & _). unfold contents. rewrite E1, E.
  unfold contents_of. rewrite E2, D, E4, A. destruct (nth_error (ints h) (m_indices m)), (nth_error (ints h) (m_indptr m)); intros [= <-].
  cbn. split; [reflexivity|exact B].
Qed.

Lemma construct_fresh h x h' o : construct h x = Ok (h', o) -> exists c, csr_matrix x = Ok c /\ h' = fst (fresh h c) /\ o = length (mats h).
Proof. unfold construct. destruct (csr_matrix x) as [c|] eqn:E; [|discriminate]. cbn. intros [= <- <-]. exists c. auto. Qed.
Lemma construct_from_fresh h d i p s h' o : construct_from h d i p s = Ok (h', o) ->
  exists c, contents_of h (Mat d i p s) = Some c /\ h' = fst (fresh h c) /\ o = length (mats h).
Proof.
  unfold construct_from. destruct (contents_of h (Mat d i p s)) as [c|] eqn:E; [|discriminate]. intros H.
  destruct (construct_fresh _ _ _ _ H) as (c' & E' & -> & ->). exists c. repeat split. f_equal. f_equal.
  cbn in E'. injection E' as <-. revert E. unfold contents_of. cbn.
  destruct (nth_error (floats h) d), (nth_error (ints h) i), (nth_error (ints h) p); intros [= <-]; reflexivity.
Qed.
Lemma write_row_write h m i k v h' : write_row h m i k v = Ok h' ->
  exists c lo hi, contents_of h m = Some c /\ nth_error (c_indptr c) i = Some lo /\ nth_error (c_indptr c) (i + 1) = Some hi /\
    k < length (slice lo hi (c_data c)) /\ write h (m_data m) (lo + k) v = Ok h'.
Proof.
  unfold write_row. destruct (contents_of h m) as [c|]; [|discriminate]. destruct (nth_error (c_indptr c) i) as [lo|] eqn:A; [|discriminate].
  destruct (nth_error (c_indptr c) (i + 1)) as [hi|] eqn:B; [|discriminate]. destruct (k <? _) eqn:L; [|discriminate].
  apply Nat.ltb_lt in L. intros H. exists c, lo, hi. auto.
Qed.

Lemma run1_inv h k : inv h -> inv (run1 h k).
Proof.
  intros I. destruct k; cbn [run1].
  - destruct I as [I1 I2]. split; [|exact I2]. intros o m H. destruct (I1 o m H) as (B1 & B2 & B3). unfold bounded. cbn. rewrite app_length. cbn. lia.
  - destruct I as [I1 I2]. split; [|exact I2]. intros o m H. destruct (I1 o m H) as (B1 & B2 & B3). unfold bounded. cbn. rewrite app_length. cbn. lia.
  - destruct (construct h x) as [[h' o]|] eqn:E; [|exact I]. destruct (construct_fresh _ _ _ _ E) as (c & _ & -> & _). apply fresh_inv, I.
  - destruct (construct_from h d i p s) as [[h' o]|] eqn:E; [|exact I]. destruct (construct_from_fresh _ _ _ _ _ _ _ E) as (c & _ & -> & _). apply fresh_inv, I.
  - unfold through. destruct (unbox h o) as [m|]; [|exact I]. unfold box. destruct (construct_from h _ _ _ _) as [[h' o']|] eqn:E; [|exact I].
    destruct (construct_from_fresh _ _ _ _ _ _ _ E) as (c & _ & -> & _). apply fresh_inv, I.
  - destruct (write h r k v) as [h'|] eqn:E; [|exact I]. eapply write_inv; eauto.
  - unfold python_write. destruct (nth_error (mats h) o) as [m|]; [|exact I]. destruct (write_row h m i k v) as [h'|] eqn:E; [|exact I].
    destruct (write_row_write _ _ _ _ _ _ E) as (c & lo & hi & _ & _ & _ & _ & W). eapply write_inv; eauto.
  - unfold compiled_write, unbox. destruct (nth_error (mats h) o) as [m|]; [|exact I]. destruct (write_row h m i k v) as [h'|] eqn:E; [|exact I].
    destruct (write_row_write _ _ _ _ _ _ E) as (c & lo & hi & _ & _ & _ & _ & W). eapply write_inv; eauto.
Qed.
Lemma run_inv (p : list (command F)) : inv (run p).
Proof.
  unfold run. assert (I : inv (@empty_memory F)). { split; [intros [|] m; discriminate|intros [|] o' m m'; discriminate]. }
  revert I. generalize (@empty_memory F). induction p as [|k p IH]; cbn; intros h I; [exact I|]. apply IH, run1_inv, I.
Qed.

(** Element access. *)
Lemma py_get_nonneg {A} (l : list A) (i : nat) : py_get l (Z.of_nat i) = match nth_error l i with Some x => Ok x | None => Err IndexError end.
Proof. unfold py_get. destruct (Z.ltb_spec (Z.of_nat i) 0); [lia|]. cbv zeta. destruct (Z.ltb_spec (Z.of_nat i) 0); [lia|]. rewrite Nat2Z.id. reflexivity. Qed.
Lemma py_get_neg {A} (l : list A) (k : nat) : 0 < k -> py_get l (- Z.of_nat k) = if k <=? length l then py_get l (Z.of_nat (length l - k)) else Err IndexError.
Proof.
  intros H. unfold py_get at 1. destruct (Z.ltb_spec (- Z.of_nat k) 0); [|lia]. cbv zeta.
  destruct (Nat.leb_spec k (length l)); destruct (Z.ltb_spec (- Z.of_nat k + Z.of_nat (length l)) 0); try lia.
  - rewrite py_get_nonneg. replace (Z.to_nat _) with (length l - k) by lia. reflexivity.
  - reflexivity.
Qed.
Lemma py_get_err {A} (l : list A) i e : py_get l i = Err e -> e = IndexError.
Proof. unfold py_get. cbv zeta. destruct (_ <? 0)%Z; [congruence|]. destruct (nth_error _ _); congruence. Qed.
Lemma nb_get_py junk l i x : py_get l i = Ok x -> nb_get junk l i = x.
Proof.
  unfold py_get, nb_get. destruct (_ <? 0)%Z; destruct (_ <? 0)%Z; try discriminate; destruct (nth_error _ _); intros [= <-]; reflexivity.
Qed.
End Proofs.

(** ** C102 *)

(** [row] and [irow] for every integer: the documented rows for 0 <= i < n, IndexError
    beyond; negative numbers are off by one. *)
Theorem C102_rows :
  forall (F : ofield) (c : csr F) n, valid_csr n (c_data c) (c_indices c) (c_indptr c) -> forall i : Z,
  ((0 <= i < Z.of_nat n)%Z ->
     let lo := nth (Z.to_nat i) (c_indptr c) 0 in let hi := nth (Z.to_nat i + 1) (c_indptr c) 0 in
     row_z c i = Ok (firstn (hi - lo) (skipn lo (c_data c))) /\ irow_z c i = Ok (firstn (hi - lo) (skipn lo (c_indices c)))) /\
  ((Z.of_nat n <= i)%Z -> row_z c i = Err IndexError /\ irow_z c i = Err IndexError) /\
  (i = -1 -> row_z c i = Ok [] /\ irow_z c i = Ok [])%Z /\
  ((- Z.of_nat n - 1 <= i <= -2)%Z -> row_z c i = row_z c (Z.of_nat n + 1 + i) /\ irow_z c i = irow_z c (Z.of_nat n + 1 + i)) /\
  ((i < - Z.of_nat n - 1)%Z -> row_z c i = Err IndexError /\ irow_z c i = Err IndexError).
Proof.
  intros F c n (V1 & V2 & V3 & V4 & V5) i. unfold row_z, irow_z. set (p := c_indptr c) in *.
  assert (G : forall j, j <= n -> py_get p (Z.of_nat j) = Ok (nth j p 0)).
  { intros j Hj. rewrite py_get_nonneg. rewrite (nth_error_nth' p 0) by lia. reflexivity. }
  assert (GE : forall z, (Z.of_nat n < z)%Z -> py_get p z = Err IndexError).
  { intros z Hz. replace z with (Z.of_nat (Z.to_nat z)) by lia. rewrite py_get_nonneg, (proj2 (nth_error_None _ _)) by lia. reflexivity. }
  split; [|split; [|split; [|split]]].
  - intros Hi. replace (py_get p i) with (py_get p (Z.of_nat (Z.to_nat i))) by (f_equal; lia). replace (i + 1)%Z with (Z.of_nat (Z.to_nat i + 1)) by lia.
    rewrite !G by lia. split; reflexivity.
  - intros Hi. rewrite (GE (i + 1)%Z) by lia. destruct (py_get p i) as [x|e] eqn:E; [split; reflexivity|].
    enough (e = IndexError) as -> by (split; reflexivity). exact (py_get_err _ _ _ E).
  - intros ->. change (py_get p (-1)) with (py_get p (- Z.of_nat 1)). rewrite (py_get_neg p 1) by lia. rewrite (proj2 (Nat.leb_le _ _)) by lia. replace (length p - 1) with n by lia. rewrite G by lia.
    change (-1 + 1)%Z with (Z.of_nat 0). rewrite G by lia. cbn [bind]. rewrite V2, V4. split; reflexivity.
  - intros Hi. set (k := Z.to_nat (- i)). replace i with (- Z.of_nat k)%Z by lia. rewrite py_get_neg by lia.
    replace (- Z.of_nat k + 1)%Z with (- Z.of_nat (k - 1))%Z by lia. rewrite py_get_neg by lia.
    rewrite !(proj2 (Nat.leb_le _ _)) by lia. rewrite V1. replace (Z.of_nat n + 1 + - Z.of_nat k)%Z with (Z.of_nat (n + 1 - k)) by lia.
    replace (Z.of_nat (n + 1 - k) + 1)%Z with (Z.of_nat (n + 1 - (k - 1))) by lia. split; reflexivity.
  - intros Hi. replace i with (- Z.of_nat (Z.to_nat (- i)))%Z by lia. rewrite py_get_neg by lia.
    destruct (Nat.leb_spec (Z.to_nat (- i)) (length p)); [lia|]. split; reflexivity.
Qed.
Print Assumptions C102_rows.

(** In compiled code the rows are the same, whatever lies around the arrays, wherever Python
    does not raise. *)
Theorem C102_compiled :
  forall (F : ofield) (c : csr F) (junk : Z -> nat) i,
  (forall r, row_z c i = Ok r -> nb_row junk c i = r) /\ (forall r, irow_z c i = Ok r -> nb_irow junk c i = r).
Proof.
  intros F c junk i. split; intros r; unfold row_z, irow_z, nb_row, nb_irow;
    (destruct (py_get (c_indptr c) i) eqn:A; [|discriminate]); (destruct (py_get (c_indptr c) (i + 1)) eqn:B; [|discriminate]);
    cbn [bind]; intros [= <-]; rewrite (nb_get_py junk _ _ _ A), (nb_get_py junk _ _ _ B); reflexivity.
Qed.
Print Assumptions C102_compiled.

(** A matrix that passes through compiled code comes back as a new, equal matrix; no other
    matrix changes. *)
Theorem C102_through :
  forall (F : ofield) (p : list (command F)) o c, contents (run p) o = Some c ->
  exists h' o', through (run p) o = Ok (h', o') /\ contents h' o' = Some c /\ contents (run p) o' = None /\
    forall o'', o'' <> o' -> contents h' o'' = contents (run p) o''.
Proof.
  intros F p o c H. pose proof (run_inv p) as I. set (h := run p) in *.
  unfold through, unbox. unfold contents in H. destruct (nth_error (mats h) o) as [m|] eqn:E; [|discriminate].
  unfold box. destruct (construct_from h (m_data m) (m_indices m) (m_indptr m) (m_shape m)) as [[h' o']|e] eqn:K.
  - destruct (construct_from_fresh _ _ _ _ _ _ _ K) as (c' & E' & -> & ->). assert (Em : Mat (m_data m) (m_indices m) (m_indptr m) (m_shape m) = m) by (destruct m; reflexivity).
    rewrite Em, H in E'. injection E' as <-. eexists _, _. split; [reflexivity|]. split; [apply fresh_new|]. split.
    + unfold contents. rewrite (proj2 (nth_error_None _ _)) by lia. reflexivity.
    + intros o'' N. apply fresh_contents; assumption.
  - unfold construct_from in K. assert (Em : Mat (m_data m) (m_indices m) (m_indptr m) (m_shape m) = m) by (destruct m; reflexivity).
    rewrite Em, H in K. discriminate.
Qed.
Print Assumptions C102_through.

(** Matrices own their memory: writing into a row, in Python or in compiled code, changes
    exactly that stored value of that matrix and nothing of any other matrix. *)
Theorem C102_write :
  forall (F : ofield) (p : list (command F)) o i k v h', python_write (run p) o i k v = Ok h' \/ compiled_write (run p) o i k v = Ok h' ->
  exists c lo hi data', contents (run p) o = Some c /\ nth_error (c_indptr c) i = Some lo /\ nth_error (c_indptr c) (i + 1) = Some hi /\
    lo + k < hi /\ contents h' o = Some (Csr data' (c_indices c) (c_indptr c) (c_shape c)) /\
    (forall q, nth_error data' q = if q =? lo + k then Some v else nth_error (c_data c) q) /\
    forall o', o' <> o -> contents h' o' = contents (run p) o'.
Proof.
  intros F p o i k v h' H. assert (H' : python_write (run p) o i k v = Ok h') by (destruct H as [H|H]; exact H). clear H.
  pose proof (run_inv p) as [I1 I2]. set (h := run p) in *. unfold python_write in H'.
  destruct (nth_error (mats h) o) as [m|] eqn:E; [|discriminate].
  destruct (write_row_write _ _ _ _ _ _ H') as (c & lo & hi & C & A & B & L & W).
  assert (Cc : contents h o = Some c) by (unfold contents; rewrite E; exact C).
  destruct (write_here _ _ _ _ _ o m c W E eq_refl Cc) as [C' L'].
  exists c, lo, hi, (set_at (lo + k) v (c_data c)). split; [exact Cc|]. split; [exact A|]. split; [exact B|]. split.
  - unfold slice in L. pose proof (firstn_le_length (hi - lo) (skipn lo (c_data c))). rewrite firstn_length in L. lia.
  - split; [exact C'|]. split; [intros q; apply set_at_nth, L'|]. intros o' N. eapply write_other; [exact W|]. intros m' E' D.
    apply N. eapply I2; eauto.
Qed.
Print Assumptions C102_write.

(** Every stored value can be written, and nothing else. *)
Theorem C102_writable :
  forall (F : ofield) (p : list (command F)) o c i k v, contents (run p) o = Some c ->
  (forall lo hi, nth_error (c_indptr c) i = Some lo -> nth_error (c_indptr c) (i + 1) = Some hi -> k < hi - lo -> lo + k < length (c_data c) ->
     (exists h', python_write (run p) o i k v = Ok h') /\ exists h', compiled_write (run p) o i k v = Ok h') /\
  ((nth_error (c_indptr c) (i + 1) = None \/ exists lo hi, nth_error (c_indptr c) i = Some lo /\ nth_error (c_indptr c) (i + 1) = Some hi /\ hi <= lo + k) ->
     python_write (run p) o i k v = Err IndexError /\ compiled_write (run p) o i k v = Err IndexError).
Proof.
  intros F p o c i k v H. set (h := run p) in *. unfold contents in H. unfold compiled_write, unbox, python_write.
  destruct (nth_error (mats h) o) as [m|]; [|discriminate]. unfold write_row. rewrite H.
  assert (D : nth_error (floats h) (m_data m) = Some (c_data c)).
  { unfold contents_of in H. destruct (nth_error (floats h) (m_data m)); [|discriminate]. destruct (nth_error (ints h) (m_indices m)); [|discriminate].
    destruct (nth_error (ints h) (m_indptr m)); [|discriminate]. injection H as <-. reflexivity. }
  split.
  - intros lo hi A B K L. rewrite A, B.
    assert (E : (k <? length (slice lo hi (c_data c))) = true). { apply Nat.ltb_lt. unfold slice. rewrite firstn_length, skipn_length. lia. }
    rewrite E. unfold write. rewrite D, (proj2 (Nat.ltb_lt (lo + k) (length (c_data c)))) by exact L. split; eexists; reflexivity.
  - intros [B|(lo & hi & A & B & K)].
    + rewrite B. destruct (nth_error (c_indptr c) i); split; reflexivity.
    + rewrite A, B. assert (E : (k <? length (slice lo hi (c_data c))) = false). { apply Nat.ltb_ge. unfold slice. rewrite firstn_length. lia. }
      rewrite E. split; reflexivity.
Qed.
Print Assumptions C102_writable.

(** The arrays a matrix is made from are copied: writing into them later does not change
    it.  SciPy's form of a matrix is a window: writing into its numbers is seen in that
    matrix and in no other. *)
Theorem C102_sources :
  forall (F : ofield) (p : list (command F)) r k v h',
  (forall d i q s h o, construct_from (run p) d i q s = Ok (h, o) -> write h d k v = Ok h' -> contents h' o = contents h o) /\
  (forall o m c, to_scipy (run p) o = Some m -> m_data m = r -> contents (run p) o = Some c -> write (run p) r k v = Ok h' ->
     exists data', contents h' o = Some (Csr data' (c_indices c) (c_indptr c) (c_shape c)) /\
     (forall q, nth_error data' q = if q =? k then Some v else nth_error (c_data c) q) /\
     forall o', o' <> o -> contents h' o' = contents (run p) o').
Proof.
  intros F p r k v h'. pose proof (run_inv p) as I. set (h0 := run p) in *. split.
  - intros d i q s h o K W. destruct (construct_from_fresh _ _ _ _ _ _ _ K) as (c & Cc & -> & ->).
    eapply write_other; [exact W|]. intros m Em D. unfold fresh in Em. cbn in Em. rewrite nth_error_app2, Nat.sub_diag in Em by lia. injection Em as <-.
    cbn in D. unfold contents_of in Cc. cbn in Cc. rewrite <- D, (proj2 (nth_error_None _ _)) in Cc by lia. discriminate.
  - intros o m c Em D Cc W. destruct (write_here _ _ _ _ _ o m c W Em D Cc) as [C' L]. exists (set_at k v (c_data c)).
    split; [exact C'|]. split; [intros q; apply set_at_nth, L|]. intros o' N. eapply write_other; [exact W|]. intros m' E' D'.
    apply N. destruct I as [_ I2]. eapply I2; eauto. congruence.
Qed.
Print Assumptions C102_sources.

(** The last row is not at index -1: that is an empty row; index -2 gives the last one. *)
Local Notation q l := (map (fun k : Z => Q2Qc (inject_Z k) : Qc_ofield) l).
Theorem C102_negative_refuted :
  exists (c : csr Qc_ofield) last_row, valid_csr 2 (c_data c) (c_indices c) (c_indptr c) /\
    row_z c 1 = Ok last_row /\ row_z c (-1) = Ok [] /\ last_row <> [] /\ row_z c (-2) = Ok last_row.
Proof.
  exists (Csr (q [1; 2; 3]%Z) [0; 1; 1] [0; 2; 3] (2, 2)), (q [3]%Z). split.
  - unfold valid_csr. cbn. repeat split. intros i Hi. destruct i as [|[|]]; cbn; lia.
  - repeat split. discriminate.
Qed.
Print Assumptions C102_negative_refuted.

(** A program: a dense matrix, the same through compiled code, one written to. *)
Example C102_example :
  let p := [DoConstruct (InDense 2 [q [1; 2]; q [3; 4]]%Z); DoThrough 0; DoCompiledWrite 1 1 0 (Q2Qc 7 : Qc_ofield); DoConstructFrom 0 0 1 (2, 2); DoWrite 0 0 (Q2Qc 9 : Qc_ofield)] in
  map (fun o => option_map (fun c : csr Qc_ofield => map (fun x : Qc => this x) (c_data c)) (contents (run p) o)) [0; 1; 2] =
    [Some [9; 2; 3; 4]%Q; Some [1; 2; 7; 4]%Q; Some [1; 2; 3; 4]%Q].
Proof. vm_compute. reflexivity. Qed.
