(** A brute force nearest neighbour library that keeps the promise of SciPy, used to
    show that the specification can be met and for the counterexamples. *)
From Coq Require Import String QArith Qcanon Field.
From Verif Require Import Prelude OField LogicalModel LogicalSpec LogicalProofs.
Local Open Scope list_scope.
Local Open Scope nat_scope.

Section Brute.
Context {F : ofield} {Point : Type}.
Variable dist : Point -> Point -> F.

Definition cand : Type := (F * nat)%type.
Fixpoint insert_c (x : cand) (l : list cand) : list cand :=
  match l with
  | [] => [x]
  | y :: l' => if leb (fst x) (fst y) then x :: l else y :: insert_c x l'
  end.
Definition sort_c (l : list cand) : list cand := fold_right insert_c [] l.

Lemma insert_in x l a : In a (insert_c x l) <-> a = x \/ In a l.
Proof.
  induction l as [|y l IH]; cbn [insert_c In]; [intuition congruence|].
  destruct (leb (fst x) (fst y)); cbn [In]; [intuition congruence|]. rewrite IH. tauto.
Qed.
Lemma sort_in l a : In a (sort_c l) <-> In a l.
Proof.
  induction l as [|x l IH]; [tauto|]. cbn [sort_c fold_right]. fold (sort_c l). rewrite insert_in, IH.
  cbn [In]. intuition congruence.
Qed.
Definition ordered (l : list cand) : Prop := forall l1 a l2 b, l = l1 ++ a :: l2 -> In b l2 -> leb (fst a) (fst b) = true.
Lemma ordered_cons x l : ordered l -> (forall b, In b l -> leb (fst x) (fst b) = true) -> ordered (x :: l).
Proof.
  intros O H [|y l1] a l2 b E I; cbn [app] in E; injection E as -> E.
  - subst l2. apply H. exact I.
  - exact (O l1 a l2 b E I).
Qed.
Lemma ordered_inv x l : ordered (x :: l) -> ordered l /\ forall b, In b l -> leb (fst x) (fst b) = true.
Proof.
  intros O. split.
  - intros l1 a l2 b E. exact (O (x :: l1) a l2 b (f_equal (cons x) E)).
  - intros b I. exact (O [] x l b eq_refl I).
Qed.
Lemma insert_ordered x l : ordered l -> ordered (insert_c x l).
Proof.
  induction l as [|y l IH]; intros O; cbn [insert_c].
  - apply ordered_cons; [exact O|intros b []].
  - destruct (ordered_inv _ _ O) as [O1 O2]. destruct (leb (fst x) (fst y)) eqn:E.
    + apply ordered_cons; [exact O|]. intros b [<-|I]; [exact E|]. eapply (le_trans F); [exact E|exact (O2 b I)].
    + apply ordered_cons; [apply IH; exact O1|]. intros b I. apply insert_in in I. destruct I as [->|I]; [|exact (O2 b I)].
      apply (lt_le F). exact E.
Qed.
Lemma sort_ordered l : ordered (sort_c l).
Proof.
  induction l as [|x l IH]; [intros [|? ?] a l2 b E; discriminate|]. apply insert_ordered. exact IH.
Qed.

Definition cands (X : list Point) (y : Point) (ub : float F) : list cand :=
  sort_c (filter (fun c => negb (fle ub (Fin (fst c)))) (combine (map (fun x => dist x y) X) (seq 0 (List.length X)))).
Definition as_row (l : list cand) : list (float F * nat) := map (fun c => (Fin (fst c), snd c)) l.
Definition brute_row (X : list Point) (k : nat) (ub : float F) (y : Point) : list (float F * nat) :=
  let c := cands X y ub in as_row (firstn k c) ++ repeat (PInf, List.length X) (k - List.length c).

Lemma combine_in {A} (f : A -> F) (l : list A) n d i :
  In (d, i) (combine (map f l) (seq n (List.length l))) <-> exists x, nth_error l (i - n) = Some x /\ (n <= i) /\ d = f x.
Proof.
  revert n. induction l as [|x l IH]; intros n; cbn [map List.length seq combine In].
  - split; [tauto|]. intros (x & E & _). destruct (i - n); discriminate.
  - rewrite IH. split.
    + intros [E|(z & E & L & D)].
      * injection E as <- <-. exists x. rewrite Nat.sub_diag. repeat split. lia.
      * exists z. replace (i - n) with (S (i - S n)) by lia. cbn [nth_error]. repeat split; [exact E|lia|exact D].
    + intros (z & E & L & D). destruct (Nat.eq_dec i n) as [->|N].
      * left. rewrite Nat.sub_diag in E. injection E as <-. congruence.
      * right. exists z. replace (i - n) with (S (i - S n)) in E by lia. cbn [nth_error] in E. repeat split; [exact E|lia|exact D].
Qed.
Lemma cands_in X y ub d i : In (d, i) (cands X y ub) <->
  exists x, nth_error X i = Some x /\ d = dist x y /\ fle ub (Fin d) = false.
Proof.
  unfold cands. rewrite sort_in, filter_In, (combine_in (fun x => dist x y)). cbn [fst].
  rewrite negb_true_iff, Nat.sub_0_r. split.
  - intros [(x & E & _ & D) H]. exists x. auto.
  - intros (x & E & D & H). split; [exists x; repeat split; [exact E|lia|exact D]|exact H].
Qed.

Lemma insert_perm x l : Permutation (insert_c x l) (x :: l).
Proof.
  induction l as [|y l IH]; cbn [insert_c]; [reflexivity|]. destruct (leb (fst x) (fst y)); [reflexivity|].
  rewrite IH. apply perm_swap.
Qed.
Lemma sort_perm l : Permutation (sort_c l) l.
Proof.
  induction l as [|x l IH]; [reflexivity|]. cbn [sort_c fold_right]. fold (sort_c l). rewrite insert_perm, IH. reflexivity.
Qed.
Lemma nodup_filter_map {A} (f : A -> nat) p l : NoDup (map f l) -> NoDup (map f (filter p l)).
Proof.
  induction l as [|a l IH]; intros H; [constructor|]. cbn [map filter] in *. inversion_clear H as [|? ? N D].
  destruct (p a); [|auto]. cbn [map]. constructor; [|auto]. intros I. apply N. apply in_map_iff in I.
  destruct I as (b & E & I). apply filter_In in I. apply in_map_iff. exists b. tauto.
Qed.
Lemma nodup_app_l {A} (l m : list A) : NoDup (l ++ m) -> NoDup l.
Proof.
  induction l as [|a l IH]; intros H; [constructor|]. inversion_clear H as [|? ? N D]. constructor; [|auto].
  intros I. apply N. apply in_app_iff. left. exact I.
Qed.
Lemma cands_nodup X y ub : NoDup (map snd (cands X y ub)).
Proof.
  unfold cands. eapply Permutation_NoDup; [apply Permutation_sym; apply Permutation_map; apply sort_perm|].
  apply nodup_filter_map.
  assert (G : forall n, map snd (combine (map (fun x => dist x y) X) (seq n (List.length X))) = seq n (List.length X)).
  { induction X as [|x X IH]; intros n; cbn [map List.length seq combine]; [reflexivity|]. cbn [snd]. f_equal. apply IH. }
  rewrite G. apply seq_NoDup.
Qed.

Lemma brute_row_ok X y k ub : row_ok dist X y k ub (brute_row X k ub y).
Proof.
  unfold brute_row, row_ok. set (c := cands X y ub). split; [|split; [|split]].
  - unfold as_row. rewrite app_length, map_length, firstn_length, repeat_length. lia.
  - intros d i I L x N. apply in_app_iff in I. destruct I as [I|I].
    + apply in_map_iff in I. destruct I as ([d' i'] & E & I). cbn [fst snd] in E. injection E as <- <-.
      assert (I' : In (d', i') c) by (rewrite <- (firstn_skipn k c); apply in_app_iff; left; exact I).
      apply cands_in in I'. destruct I' as (x' & N' & -> & H). assert (x' = x) by congruence. subst x'.
      split; [reflexivity|exact H].
    + apply repeat_spec in I. injection I as -> ->. lia.
  - intros i x N H U d j I.
    assert (C : In (dist x y, i) c) by (apply cands_in; exists x; auto).
    rewrite <- (firstn_skipn k c) in C. apply in_app_iff in C. destruct C as [C|C].
    { exfalso. apply U. exists (Fin (dist x y)). apply in_app_iff. left. apply in_map_iff.
      exists (dist x y, i). split; [reflexivity|exact C]. }
    assert (K : k < List.length c).
    { destruct (le_lt_dec (List.length c) k) as [K|K]; [|exact K]. rewrite skipn_all2 in C by exact K. destruct C. }
    replace (k - List.length c) with 0 in I by lia. cbn [repeat] in I. rewrite app_nil_r in I.
    apply in_map_iff in I. destruct I as ([d' j'] & E & I). cbn [fst snd] in E. injection E as <- <-.
    split.
    + assert (I' : In (d', j') c) by (rewrite <- (firstn_skipn k c); apply in_app_iff; left; exact I).
      apply cands_in in I'. destruct I' as (x' & N' & _). apply nth_error_Some. congruence.
    + apply in_split in I. destruct I as (l1 & l2 & I).
      cbn [fle]. apply (sort_ordered (filter (fun c => negb (fle ub (Fin (fst c)))) (combine (map (fun x => dist x y) X) (seq 0 (List.length X)))) l1 (d', j') (l2 ++ skipn k c) (dist x y, i)).
      * fold (cands X y ub). fold c. rewrite <- (firstn_skipn k c) at 1. rewrite I, <- app_assoc. reflexivity.
      * apply in_app_iff. right. exact C.
  - rewrite map_app, filter_app.
    replace (filter _ (map snd (repeat (@PInf F, List.length X) (k - List.length c)))) with (@nil nat).
    2:{ symmetry. induction (k - List.length c) as [|n IH]; [reflexivity|]. cbn [repeat map filter snd].
        rewrite Nat.ltb_irrefl. exact IH. }
    rewrite app_nil_r. apply NoDup_filter. unfold as_row. rewrite map_map. cbn [snd].
    pose proof (cands_nodup X y ub) as D. fold c in D. rewrite <- (firstn_skipn k c), map_app in D.
    apply nodup_app_l in D. exact D.
Qed.

(** The library, for a version of SciPy. *)
Definition brute (v : nat * nat * nat) : libs F Point :=
  {| scipy_version := v; has_sklearn := false;
     sp_tree := list Point;
     sp_build := fun X _ _ => Ok X;
     sp_query := fun X Y k w kw =>
       match Y with Some Y => Ok (map (brute_row X k (bound_of kw)) Y) | None => Err IndexError end;
     sk_tree := unit;
     sk_build := fun _ _ _ => Err ImportError;
     sk_query := fun _ _ _ _ => Err ImportError;
     sk_query_radius := fun _ _ _ _ _ => Err ImportError |}.
Lemma brute_ok v : scipy_ok dist (brute v).
Proof.
  intros X ls tk tree B Y k w kw res E. cbn in B, E. injection B as <-. injection E as <-.
  induction Y as [|y Y IH]; cbn [map]; constructor; [apply brute_row_ok|exact IH].
Qed.
End Brute.
