(** Inverses of matrices over an ordered field: the specification of [np.linalg.inv]
    and [sympy.Matrix.inv], and a procedure that meets it.

    Matrices of size k are functions of which the entries below k count. *)
From Coq Require Import Field.
From Verif Require Import Prelude OField.

Section Inverse.
Context {F : ofield}.
Local Open Scope of_scope.
Add Field FF : (of_field F).

Definition vec : Type := nat -> F.
Definition mat : Type := nat -> nat -> F.

(** [A @ v], [A @ B] and the identity *)
Definition mv (k : nat) (A : mat) (v : vec) : vec := fun i => sum k (fun j => A i j * v j).
Definition mm (k : nat) (A B : mat) : mat := fun i j => sum k (fun l => A i l * B l j).
Definition eye : mat := fun i j => if (i =? j)%nat then 1 else 0.

(** A matrix that sends no vector but zero to zero. *)
Definition regular (k : nat) (A : mat) : Prop :=
  forall v : vec, (forall i, (i < k)%nat -> mv k A v i = 0) -> forall i, (i < k)%nat -> v i = 0.
Definition inverse_of (k : nat) (A X : mat) : Prop :=
  (forall i j, (i < k)%nat -> (j < k)%nat -> mm k A X i j = eye i j) /\
  (forall i j, (i < k)%nat -> (j < k)%nat -> mm k X A i j = eye i j).

(** What the libraries promise: the inverse of a regular matrix, an exception for the
    others (exact arithmetic). *)
Definition inv_ok (e : exc) (inv : nat -> mat -> result mat) : Prop :=
  forall k A, (regular k A -> exists X, inv k A = Ok X /\ inverse_of k A X) /\
              (~ regular k A -> inv k A = Err e).

Lemma mv_ext k (A B : mat) (v w : vec) i : (forall j, (j < k)%nat -> A i j = B i j) -> (forall j, (j < k)%nat -> v j = w j) ->
  mv k A v i = mv k B w i.
Proof. intros H1 H2. apply sum_ext. intros j Hj. rewrite H1, H2 by exact Hj. reflexivity. Qed.
Lemma mv_eye k (v : vec) i : (i < k)%nat -> mv k eye v i = v i.
Proof.
  intros Hi. unfold mv, eye. rewrite (sum_ext F k _ (fun j => if (j =? i)%nat then v j else 0)).
  - apply (sum_delta F). exact Hi.
  - intros j _. rewrite Nat.eqb_sym. destruct (j =? i)%nat; ring.
Qed.
Lemma mv_mm k (A B : mat) (v : vec) i : mv k A (mv k B v) i = mv k (mm k A B) v i.
Proof.
  unfold mv, mm. rewrite (sum_ext F k _ (fun j => sum k (fun l => A i j * (B j l * v l)))) by (intros; rewrite sum_scale; reflexivity).
  rewrite sum_swap. apply sum_ext. intros l _. rewrite <- sum_scale_r. apply sum_ext. intros j _. ring.
Qed.
Lemma mv_add k (A : mat) (v w : vec) i : mv k A (fun j => v j + w j) i = mv k A v i + mv k A w i.
Proof. unfold mv. rewrite <- sum_add. apply sum_ext. intros. ring. Qed.
Lemma mv_sub k (A : mat) (v w : vec) i : mv k A (fun j => v j - w j) i = mv k A v i - mv k A w i.
Proof. unfold mv. rewrite <- sum_sub. apply sum_ext. intros. ring. Qed.
Lemma mv_zero k (A : mat) (v : vec) i : (forall j, (j < k)%nat -> v j = 0) -> mv k A v i = 0.
Proof. intros H. apply sum_0. intros j Hj. rewrite H by exact Hj. ring. Qed.

(** Solving with the inverse. *)
Lemma inverse_solve k A X : inverse_of k A X -> forall v i, (i < k)%nat -> mv k A (mv k X v) i = v i.
Proof.
  intros [H _] v i Hi. rewrite mv_mm. rewrite (mv_ext k _ eye v v) by (intros; first [reflexivity | apply H; assumption]).
  apply mv_eye. exact Hi.
Qed.
Lemma inverse_unsolve k A X : inverse_of k A X -> forall v i, (i < k)%nat -> mv k X (mv k A v) i = v i.
Proof.
  intros [_ H] v i Hi. rewrite mv_mm. rewrite (mv_ext k _ eye v v) by (intros; first [reflexivity | apply H; assumption]).
  apply mv_eye. exact Hi.
Qed.
Lemma inverse_regular k A X : inverse_of k A X -> regular k A.
Proof.
  intros H v Z i Hi. rewrite <- (inverse_unsolve k A X H v i Hi). apply mv_zero. exact Z.
Qed.

(** ** A procedure: eliminate the first column with a pivot row *)

(** The first row below k whose entry in column 0 is not zero. *)
Fixpoint pivot (k : nat) (A : mat) : option nat :=
  match k with
  | O => None
  | S k' => match pivot k' A with
            | Some p => Some p
            | None => if A k' O =? 0 then None else Some k'
            end
  end.
(** Exchange rows 0 and p. *)
Definition swap (p i : nat) : nat := if (i =? 0)%nat then p else if (i =? p)%nat then O else i.

Fixpoint inverse (k : nat) (A : mat) : option mat :=
  match k with
  | O => Some eye
  | S k' =>
    match pivot (S k') A with
    | None => None
    | Some p =>
      let A' : mat := fun i j => A (swap p i) j in
      let a := A' O O in
      let r : vec := fun j => A' O (S j) in
      let c : vec := fun i => A' (S i) O in
      match inverse k' (fun i j => A' (S i) (S j) - c i * r j / a) with
      | None => None
      | Some Y =>
        let rY : vec := fun j => sum k' (fun l => r l * Y l j) in
        let Yc : vec := mv k' Y c in
        let X' : mat := fun i j =>
          match i, j with
          | O, O => 1 / a + sum k' (fun l => r l * Yc l) / (a * a)
          | O, S j => - (rY j / a)
          | S i, O => - (Yc i / a)
          | S i, S j => Y i j
          end in
        Some (fun i j => X' i (swap p j))
      end
    end
  end.

Lemma pivot_some k A p : pivot k A = Some p -> (p < k)%nat /\ A p O <> 0.
Proof.
  revert p. induction k as [|k IH]; intros p H; [discriminate|]. cbn [pivot] in H.
  destruct (pivot k A) as [q|].
  - injection H as <-. destruct (IH q eq_refl). split; [lia|assumption].
  - destruct (eqb_spec F (A k O) 0) as [E|E]; [discriminate|]. injection H as <-. split; [lia|exact E].
Qed.
Lemma pivot_none k A : pivot k A = None -> forall i, (i < k)%nat -> A i O = 0.
Proof.
  induction k as [|k IH]; intros H i Hi; [lia|]. cbn [pivot] in H.
  destruct (pivot k A) as [q|]; [discriminate|]. destruct (eqb_spec F (A k O) 0) as [E|E]; [|discriminate].
  destruct (Nat.eq_dec i k) as [->|N]; [exact E|]. apply IH; [reflexivity|lia].
Qed.
Lemma swap_swap p i : swap p (swap p i) = i.
Proof.
  unfold swap. destruct (Nat.eqb_spec i 0) as [->|N]; [|destruct (Nat.eqb_spec i p) as [->|N']].
  - destruct (Nat.eqb_spec p 0) as [->|N]; [reflexivity|]. rewrite Nat.eqb_refl. reflexivity.
  - reflexivity.
  - rewrite (proj2 (Nat.eqb_neq i 0) N), (proj2 (Nat.eqb_neq i p) N'). reflexivity.
Qed.
Lemma swap_lt p i k : (p < k)%nat -> (i < k)%nat -> (swap p i < k)%nat.
Proof. intros H1 H2. unfold swap. destruct (i =? 0)%nat; [exact H1|]. destruct (i =? p)%nat; lia. Qed.

(** A sum does not change when two indices are exchanged. *)
Lemma sum_swap_index k p (f : nat -> F) : (p < k)%nat -> sum k (fun i => f (swap p i)) = sum k f.
Proof.
  intros H. rewrite <- !suml_map_seq, <- (map_map (swap p) f). apply suml_perm. apply Permutation_map.
  apply NoDup_Permutation_bis.
  - apply FinFun.Injective_map_NoDup; [|apply seq_NoDup]. intros i j E. rewrite <- (swap_swap p i), E, swap_swap. reflexivity.
  - rewrite map_length. lia.
  - intros i I. apply in_map_iff in I. destruct I as (j & <- & J). apply in_seq in J. apply in_seq.
    pose proof (swap_lt p j k H). lia.
Qed.
Lemma eye_swap p i j : eye (swap p i) (swap p j) = eye i j.
Proof.
  unfold eye. destruct (Nat.eqb_spec i j) as [->|N]; [rewrite Nat.eqb_refl; reflexivity|].
  destruct (Nat.eqb_spec (swap p i) (swap p j)) as [E|E]; [|reflexivity].
  exfalso. apply N. rewrite <- (swap_swap p i), E, swap_swap. reflexivity.
Qed.

(** The block formula. *)
Section Block.
Variables (k : nat) (A Y : mat).
Let a : F := A O O.
Let r : vec := fun j => A O (S j).
Let c : vec := fun i => A (S i) O.
Let S_ : mat := fun i j => A (S i) (S j) - c i * r j / a.
Hypothesis NZ : a <> 0.
Hypothesis HY : inverse_of k S_ Y.
Let rY : vec := fun j => sum k (fun l => r l * Y l j).
Let Yc : vec := mv k Y c.
Let X : mat := fun i j =>
  match i, j with
  | O, O => 1 / a + sum k (fun l => r l * Yc l) / (a * a)
  | O, S j => - (rY j / a)
  | S i, O => - (Yc i / a)
  | S i, S j => Y i j
  end.

Lemma SY i j : (i < k)%nat -> (j < k)%nat -> sum k (fun l => A (S i) (S l) * Y l j) = eye i j + c i * rY j / a.
Proof.
  intros Hi Hj. rewrite <- (proj1 HY i j Hi Hj). unfold mm, S_.
  rewrite (sum_ext F k (fun l => (A (S i) (S l) - c i * r l / a) * Y l j) (fun l => A (S i) (S l) * Y l j - c i / a * (r l * Y l j)))
    by (intros; field; exact NZ).
  rewrite sum_sub, sum_scale. fold (rY j). field. exact NZ.
Qed.
Lemma YS i j : (i < k)%nat -> (j < k)%nat -> sum k (fun l => Y i l * A (S l) (S j)) = eye i j + Yc i * r j / a.
Proof.
  intros Hi Hj. rewrite <- (proj2 HY i j Hi Hj). unfold mm, S_.
  rewrite (sum_ext F k (fun l => Y i l * (A (S l) (S j) - c l * r j / a)) (fun l => Y i l * A (S l) (S j) - Y i l * c l * (r j / a)))
    by (intros; field; exact NZ).
  rewrite sum_sub, sum_scale_r. change (sum k (fun l => Y i l * c l)) with (Yc i). field. exact NZ.
Qed.
Lemma rYc : sum k (fun l => r l * Yc l) = sum k (fun l => rY l * c l).
Proof.
  unfold Yc, rY, mv. rewrite (sum_ext F k (fun l => r l * sum k (fun j => Y l j * c j)) (fun l => sum k (fun j => r l * Y l j * c j)))
    by (intros; rewrite <- sum_scale; apply sum_ext; intros; ring).
  rewrite sum_swap. apply sum_ext. intros. rewrite sum_scale_r. reflexivity.
Qed.
Lemma AYc i : (i < k)%nat -> sum k (fun l => A (S i) (S l) * Yc l) = c i + c i * sum k (fun l => r l * Yc l) / a.
Proof.
  intros Hi. unfold Yc at 1. unfold mv.
  rewrite (sum_ext F k _ (fun l => sum k (fun j => A (S i) (S l) * Y l j * c j))) by (intros; rewrite <- sum_scale; apply sum_ext; intros; ring).
  rewrite sum_swap.
  rewrite (sum_ext F k _ (fun j => eye i j * c j + c i / a * (rY j * c j))).
  - rewrite sum_add, sum_scale, <- rYc. fold (mv k eye c i). rewrite mv_eye by exact Hi. field. exact NZ.
  - intros j Hj. rewrite sum_scale_r, SY by assumption. field. exact NZ.
Qed.
Lemma rYA j : (j < k)%nat -> sum k (fun l => rY l * A (S l) (S j)) = r j + sum k (fun l => rY l * c l) * r j / a.
Proof.
  intros Hj. unfold rY at 1.
  rewrite (sum_ext F k _ (fun l => sum k (fun i => r i * (Y i l * A (S l) (S j))))) by (intros; rewrite <- sum_scale_r; apply sum_ext; intros; ring).
  rewrite sum_swap.
  rewrite (sum_ext F k _ (fun i => r i * eye i j + r i * Yc i * (r j / a))).
  - rewrite sum_add, sum_scale_r, rYc. rewrite (sum_ext F k (fun i => r i * eye i j) (fun i => if (i =? j)%nat then r i else 0)).
    + rewrite (sum_delta F) by exact Hj. field. exact NZ.
    + intros i _. unfold eye. destruct (i =? j)%nat; ring.
  - intros i Hi. rewrite sum_scale, YS by assumption. field. exact NZ.
Qed.

Lemma sum_over_r (f g : nat -> F) : sum k (fun l => f l * - (g l / a)) = - (sum k (fun l => f l * g l) / a).
Proof.
  rewrite (sum_ext F k _ (fun l => f l * g l * (- (1 / a)))) by (intros; field; exact NZ).
  rewrite sum_scale_r. field. exact NZ.
Qed.
Lemma sum_over_l (f g : nat -> F) : sum k (fun l => - (f l / a) * g l) = - (sum k (fun l => f l * g l) / a).
Proof.
  rewrite (sum_ext F k _ (fun l => f l * g l * (- (1 / a)))) by (intros; field; exact NZ).
  rewrite sum_scale_r. field. exact NZ.
Qed.

Lemma block_inverse : inverse_of (S k) A X.
Proof.
  split; intros [|i] [|j] Hi Hj; unfold mm; rewrite (sum_S_l F); unfold X; fold a.
  - rewrite sum_over_r. change (sum k (fun l => A O (S l) * Yc l)) with (sum k (fun l => r l * Yc l)).
    unfold eye. cbn [Nat.eqb]. field. exact NZ.
  - change (sum k (fun l => A O (S l) * Y l j)) with (rY j). unfold eye. cbn [Nat.eqb]. field. exact NZ.
  - rewrite sum_over_r, AYc by lia. unfold eye. cbn [Nat.eqb]. fold (c i). field. exact NZ.
  - rewrite SY by lia. fold (c i). change (eye (S i) (S j)) with (eye i j). field. exact NZ.
  - rewrite sum_over_l. change (sum k (fun l => rY l * A (S l) O)) with (sum k (fun l => rY l * c l)).
    rewrite rYc. unfold eye. cbn [Nat.eqb]. field. exact NZ.
  - rewrite sum_over_l, rYA, rYc by lia. fold (r j). unfold eye. cbn [Nat.eqb]. field. exact NZ.
  - change (sum k (fun l => Y i l * A (S l) O)) with (Yc i). unfold eye. cbn [Nat.eqb]. field. exact NZ.
  - rewrite YS by lia. fold (r j). change (eye (S i) (S j)) with (eye i j). field. exact NZ.
Qed.
End Block.

Theorem inverse_spec k : forall A,
  match inverse k A with Some X => inverse_of k A X | None => ~ regular k A end.
Proof.
  induction k as [|k IH]; intros A; cbn [inverse]; [split; intros; lia|].
  destruct (pivot (S k) A) as [p|] eqn:P.
  - apply pivot_some in P. destruct P as [Hp NZ].
    set (A' := fun i j => A (swap p i) j : F).
    assert (NZ' : A' O O <> 0) by exact NZ.
    specialize (IH (fun i j => A' (S i) (S j) - A' (S i) O * A' O (S j) / A' O O)).
    destruct (inverse k _) as [Y|].
    + pose proof (block_inverse k A' Y NZ' IH) as H. cbv zeta in H |- *.
      match type of H with inverse_of _ _ ?X => set (X' := X) in * end.
      change (inverse_of (S k) A (fun i j => X' i (swap p j))).
      destruct H as [H1 H2]. split; intros i j Hi Hj.
      * rewrite <- (eye_swap p i j). rewrite <- H1 by (apply swap_lt; assumption). unfold mm, A'.
        apply sum_ext. intros l _. rewrite swap_swap. reflexivity.
      * rewrite <- H2 by assumption. unfold mm, A'.
        rewrite <- (sum_swap_index (S k) p (fun l => X' i l * A (swap p l) j) Hp). apply sum_ext. intros l _.
        rewrite swap_swap. reflexivity.
    + intros R. apply IH. intros u Z.
      set (v := fun i => match i with O => - (sum k (fun j => A' O (S j) * u j) / A' O O) | S i => u i end : F).
      assert (V : forall i, (i < S k)%nat -> mv (S k) A' v i = 0).
      { intros [|i] Hi; unfold mv; rewrite (sum_S_l F); cbn [v].
        - field. exact NZ'.
        - specialize (Z i ltac:(lia)). unfold mv in Z.
          rewrite (sum_ext F k _ (fun j => A' (S i) (S j) * u j - A' (S i) O / A' O O * (A' O (S j) * u j))) in Z
            by (intros; field; exact NZ').
          rewrite sum_sub, sum_scale in Z.
          transitivity (sum k (fun j => A' (S i) (S j) * u j) - A' (S i) O / A' O O * sum k (fun j => A' O (S j) * u j)); [|exact Z].
          field. exact NZ'. }
      intros i Hi. apply (R v) with (i := S i); [|lia]. intros l Hl.
      rewrite <- (V (swap p l)) by (apply swap_lt; assumption). unfold mv, A'. rewrite swap_swap. reflexivity.
  - intros R. specialize (R (fun i => eye i O)). apply (one_nz F). 
    apply (R) with (i := O); [|lia]. intros i Hi. unfold mv. rewrite (sum_S_l F).
    rewrite (pivot_none _ _ P i Hi), sum_0; [ring|]. intros j _. unfold eye. cbn [Nat.eqb]. ring.
Qed.

Definition inv_with (e : exc) (k : nat) (A : mat) : result mat :=
  match inverse k A with Some X => Ok X | None => Err e end.
Lemma inv_with_ok e : inv_ok e (inv_with e).
Proof.
  intros k A. pose proof (inverse_spec k A) as H. unfold inv_with. destruct (inverse k A) as [X|].
  - split; [intros _; exists X; split; [reflexivity|exact H]|]. intros N. exfalso. apply N. exact (inverse_regular k A X H).
  - split; [intros R; contradiction|reflexivity].
Qed.
Lemma regular_dec k A : {X | inverse_of k A X} + {~ regular k A}.
Proof. pose proof (inverse_spec k A) as H. destruct (inverse k A) as [X|]; [left; exists X; exact H|right; exact H]. Qed.

(** The inverse of a symmetric matrix is symmetric, and inverses are unique. *)
Lemma inverse_unique k A X Y : inverse_of k A X -> inverse_of k A Y -> forall i j, (i < k)%nat -> (j < k)%nat -> X i j = Y i j.
Proof.
  intros HX HY i j Hi Hj.
  assert (E : forall Z, mv k Z (fun l => eye l j) i = Z i j).
  { intros Z. unfold mv, eye. rewrite (sum_ext F k _ (fun l => if (l =? j)%nat then Z i l else 0)).
    - apply (sum_delta F). exact Hj.
    - intros l _. destruct (l =? j)%nat; ring. }
  transitivity (mv k Y (mv k A (mv k X (fun l => eye l j))) i).
  - rewrite (inverse_unsolve k A Y HY) by exact Hi. symmetry. apply E.
  - rewrite <- (E Y). apply mv_ext; [reflexivity|]. intros l Hl. exact (inverse_solve k A X HX (fun l => eye l j) l Hl).
Qed.
Lemma inverse_sym k A X : inverse_of k A X -> (forall i j, (i < k)%nat -> (j < k)%nat -> A i j = A j i) ->
  forall i j, (i < k)%nat -> (j < k)%nat -> X i j = X j i.
Proof.
  intros H S. apply (inverse_unique k A X (fun i j => X j i) H). destruct H as [H1 H2].
  split; intros i j Hi Hj; unfold mm.
  - transitivity (mm k X A j i); [|rewrite H2 by assumption; unfold eye; rewrite Nat.eqb_sym; reflexivity].
    apply sum_ext. intros l Hl. rewrite (S i l) by assumption. ring.
  - transitivity (mm k A X j i); [|rewrite H1 by assumption; unfold eye; rewrite Nat.eqb_sym; reflexivity].
    apply sum_ext. intros l Hl. rewrite (S l j) by assumption. ring.
Qed.
End Inverse.
Arguments vec : clear implicits.
Arguments mat : clear implicits.
