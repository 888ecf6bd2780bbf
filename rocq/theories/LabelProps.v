(** Property C114: an array of components and the frame it names. *)
From Verif Require Import Prelude LabelModel.

(** ** Specification *)
Section Spec.
Context {V W : Type}.
Variables (show : nat -> nat -> V -> V) (std : nat) (v0 : V).
(** The physical vector with given components in a frame. *)
Variable phys : nat -> V -> W.
(** Showing a vector in another frame does not change it (C39, C87). *)
Definition shows : Prop := forall f g x, phys g (show f g x) = phys f x.
(** What an array says: its members, read in the frame it names. *)
Definition value (s : state V) (a : nat) : list W := map (phys (lab (arrs s a))) (contents s a).
(** The members of a vector or collection. *)
Definition members (s : state V) (t : nat) : list W := value s (tens s t).
Definition is_array (s : state V) (a : nat) : Prop := a < narrs s.
Definition is_vector (s : state V) (t : nat) : Prop := t < ntens s.
(** Two arrays with the same memory; an array without memory of a vector. *)
Definition shares (s : state V) (a b : nat) : Prop := buf (arrs s a) = buf (arrs s b).
Definition detached (s : state V) (a : nat) : Prop := forall t, is_vector s t -> ~ shares s a (tens s t).
(** Statements that are meant to change what the vector [t], or the array [a], stands for. *)
Definition edits_vector (s : state V) (o : op V) (t : nat) : Prop :=
  match o with
  | Write b _ _ => shares s b (tens s t)
  | Assign t' _ => t' = t
  | Relabel b _ => b = tens s t
  | _ => False
  end.
Definition edits_array (s : state V) (o : op V) (a : nat) : Prop :=
  match o with Write b _ _ => shares s b a | Relabel b _ => b = a | _ => False end.
Definition is_relabel (o : op V) : Prop := match o with Relabel _ _ => True | _ => False end.
Definition reached (s : state V) : Prop := exists ops, s = run show std v0 ops.
End Spec.

(** ** Proofs *)
Section Proofs.
Context {V W : Type}.
Variables (show : nat -> nat -> V -> V) (std : nat) (v0 : V) (phys : nat -> V -> W).
Notation step := (step show std v0).
Notation run := (run show std v0).
Notation contents := (@contents V).
Notation value := (value phys).
Notation members := (members phys).

Lemma upd_same {A} (f : nat -> A) i v : upd f i v i = v. Proof. unfold upd. rewrite Nat.eqb_refl. reflexivity. Qed.
Lemma upd_other {A} (f : nat -> A) i v j : j <> i -> upd f i v j = f j.
Proof. intros H. unfold upd. destruct (Nat.eqb_spec j i); [contradiction|reflexivity]. Qed.

Lemma fold_other (ps : list (nat * V)) : forall b j, ~ In j (map fst ps) -> fold_left (fun b p => upd b (fst p) (snd p)) ps b j = b j.
Proof.
  induction ps as [|[i x] ps IH]; intros b j N; [reflexivity|]. cbn [fold_left fst snd]. cbn in N. rewrite IH by tauto. apply upd_other. intros ->. tauto.
Qed.
Lemma filled pos : forall (xs : list V) b, NoDup pos -> length xs = length pos -> map (fold_left (fun b p => upd b (fst p) (snd p)) (combine pos xs) b) pos = xs.
Proof.
  induction pos as [|i pos IH]; intros [|x xs] b N L; try discriminate L; [reflexivity|]. inversion N; subst. injection L as L.
  cbn [combine fold_left map fst snd]. f_equal.
  - rewrite fold_other; [apply upd_same|]. intros H. apply in_map_iff in H. destruct H as ([j y] & E & H). cbn in E. subst. apply in_combine_l in H. contradiction.
  - apply IH; assumption.
Qed.

(** What holds between statements. *)
Record wf (s : state V) : Prop := Wf {
  w_buf : forall a, a < narrs s -> buf (arrs s a) < nbufs s;
  w_ten : forall t, t < ntens s -> tens s t < narrs s /\ NoDup (pos (arrs s (tens s t)));
  w_own : forall t t', t < ntens s -> t' < ntens s -> shares s (tens s t) (tens s t') -> t = t' }.

Lemma wf_empty : wf (empty v0).
Proof. split; cbn; intros; lia. Qed.

(** One statement: array objects keep their cells, and only few things change. *)
Record change (s s' : state V) (o : op V) : Prop := Change {
  c_arrs : narrs s <= narrs s'; c_tens : ntens s <= ntens s'; c_bufs : nbufs s <= nbufs s';
  c_buf : forall a, a < narrs s -> buf (arrs s' a) = buf (arrs s a) /\ pos (arrs s' a) = pos (arrs s a);
  c_lab : forall a, a < narrs s -> (forall g, o <> Relabel a g) -> (forall t g, o = Move t g -> a <> tens s t) -> lab (arrs s' a) = lab (arrs s a);
  c_mem : forall b, b < nbufs s -> (forall a i x, o = Write a i x -> buf (arrs s a) <> b) ->
          (forall t, (exists xs, o = Assign t xs) \/ (exists g, o = Move t g) -> buf (arrs s (tens s t)) <> b) -> bufs s' b = bufs s b;
  c_own : forall t, t < ntens s -> buf (arrs s' (tens s' t)) = buf (arrs s (tens s t)) /\ pos (arrs s' (tens s' t)) = pos (arrs s (tens s t));
  c_new : forall t, t < ntens s' -> ~ t < ntens s -> nbufs s <= buf (arrs s' (tens s' t)) /\ t = ntens s;
}.

Ltac known H := match type of H with context [if ?b then _ else Err NameError] => let K := fresh "K" in destruct b eqn:K; [apply Nat.ltb_lt in K|discriminate H] end.

Lemma seq_nth_id (l : list nat) : map (fun i => nth i l 0) (seq 0 (length l)) = l.
Proof.
  induction l as [|x l IH]; [reflexivity|]. cbn [length seq map nth]. f_equal. rewrite <- seq_shift, map_map. exact IH.
Qed.

Lemma create_change s ms f : wf s -> (forall o, (forall a g, o <> Relabel a g) -> (forall t g, o <> Move t g) -> change s (create v0 s ms f) o) /\
  wf (create v0 s ms f) /\ contents (create v0 s ms f) (narrs s) = ms /\ lab (arrs (create v0 s ms f) (narrs s)) = f.
Proof.
  intros H. unfold create, alloc. cbn [bufs nbufs arrs narrs tens ntens reg]. split; [|split; [|split]].
  - intros o _ _. split; cbn [bufs nbufs arrs narrs tens ntens reg]; try lia.
    + intros a Ha. rewrite upd_other by lia. split; reflexivity.
    + intros a Ha _ _. rewrite upd_other by lia. reflexivity.
    + intros b Hb _ _. apply upd_other. lia.
    + intros t Ht. rewrite (upd_other (tens s)) by lia. destruct (w_ten s H t Ht). rewrite upd_other by lia. split; reflexivity.
    + intros t Ht N. assert (t = ntens s) as -> by lia. rewrite upd_same, upd_same. cbn. split; lia.
  - split; cbn [bufs nbufs arrs narrs tens ntens reg].
    + intros a Ha. destruct (Nat.eq_dec a (narrs s)) as [->|N]; [rewrite upd_same; cbn; lia|]. rewrite upd_other by exact N. pose proof (w_buf s H a). lia.
    + intros t Ht. destruct (Nat.eq_dec t (ntens s)) as [->|N].
      * rewrite upd_same, upd_same. cbn. split; [lia|apply seq_NoDup].
      * rewrite (upd_other (tens s)) by exact N. destruct (w_ten s H t) as [A B]; [lia|]. rewrite upd_other by lia. split; [lia|exact B].
    + unfold shares. cbn [arrs tens]. intros t t' Ht Ht' E. destruct (Nat.eq_dec t (ntens s)) as [->|N], (Nat.eq_dec t' (ntens s)) as [->|N']; try reflexivity.
      * rewrite upd_same, upd_same in E. rewrite (upd_other (tens s)) in E by exact N'. destruct (w_ten s H t') as [A B]; [lia|]. rewrite upd_other in E by lia.
        cbn in E. pose proof (w_buf s H _ A). lia.
      * rewrite (upd_other (tens s) _ _ t) in E by exact N. rewrite (upd_same (tens s)), upd_same in E. destruct (w_ten s H t) as [A B]; [lia|]. rewrite upd_other in E by lia.
        cbn in E. pose proof (w_buf s H _ A). lia.
      * rewrite !(upd_other (tens s)) in E by assumption. destruct (w_ten s H t) as [A B]; [lia|]. destruct (w_ten s H t') as [A' B']; [lia|].
        rewrite !upd_other in E by lia. apply (w_own s H); [lia|lia|exact E].
  - unfold LabelModel.contents. cbn [arrs bufs]. rewrite upd_same. cbn [buf pos]. rewrite upd_same.
    clear. induction ms as [|m ms IH]; [reflexivity|]. cbn [length seq map nth]. f_equal. rewrite <- seq_shift, map_map. exact IH.
  - rewrite upd_same. reflexivity.
Qed.

Lemma alloc_change s ms f o : wf s -> change s (alloc v0 s ms f) o /\ wf (alloc v0 s ms f) /\ contents (alloc v0 s ms f) (narrs s) = ms /\
  lab (arrs (alloc v0 s ms f) (narrs s)) = f /\ buf (arrs (alloc v0 s ms f) (narrs s)) = nbufs s.
Proof.
  intros H. unfold alloc. split; [|split; [|split; [|split]]].
  - split; cbn [bufs nbufs arrs narrs tens ntens reg]; try lia.
    + intros a Ha. rewrite upd_other by lia. split; reflexivity.
    + intros a Ha _ _. rewrite upd_other by lia. reflexivity.
    + intros b Hb _ _. apply upd_other. lia.
    + intros t Ht. destruct (w_ten s H t Ht). rewrite upd_other by lia. split; reflexivity.
  - split; unfold shares; cbn [bufs nbufs arrs narrs tens ntens reg].
    + intros a Ha. destruct (Nat.eq_dec a (narrs s)) as [->|N]; [rewrite upd_same; cbn; lia|]. rewrite upd_other by exact N. pose proof (w_buf s H a). lia.
    + intros t Ht. destruct (w_ten s H t Ht) as [A B]. rewrite upd_other by lia. split; [lia|exact B].
    + intros t t' Ht Ht'. destruct (w_ten s H t Ht), (w_ten s H t' Ht'). rewrite !upd_other by lia. apply (w_own s H); assumption.
  - unfold LabelModel.contents. cbn [arrs bufs]. rewrite upd_same. cbn [buf pos]. rewrite upd_same.
    clear. induction ms as [|m ms IH]; [reflexivity|]. cbn [length seq map nth]. f_equal. rewrite <- seq_shift, map_map. exact IH.
  - cbn [arrs]. rewrite upd_same. reflexivity.
  - cbn [arrs]. rewrite upd_same. reflexivity.
Qed.

Lemma step_change s o s' : wf s -> step s o = Ok s' -> wf s' /\ change s s' o.
Proof.
  intros H E. destruct o as [ms f|a f|a is|a is|a g|a i x|t xs|t g|t]; cbn [LabelModel.step] in E; cbv zeta in E.
  - injection E as <-. destruct (create_change s ms f H) as (C & Wc & _). split; [exact Wc|]. apply C; discriminate.
  - known E. injection E as <-. destruct (create_change s (contents s a) (match f with Some f => f | None => std end) H) as (C & Wc & _). split; [exact Wc|]. apply C; discriminate.
  - known E. destruct (forallb _ is); [|discriminate]. injection E as <-. unfold view. split.
    + split; unfold shares; cbn [bufs nbufs arrs narrs tens ntens reg].
      * intros b Hb. destruct (Nat.eq_dec b (narrs s)) as [->|N]; [rewrite upd_same; cbn; apply (w_buf s H); exact K|]. rewrite upd_other by exact N. apply (w_buf s H). lia.
      * intros t Ht. destruct (w_ten s H t Ht) as [A B]. rewrite upd_other by lia. split; [lia|exact B].
      * intros t t' Ht Ht'. destruct (w_ten s H t Ht), (w_ten s H t' Ht'). rewrite !upd_other by lia. apply (w_own s H); assumption.
    + split; cbn [bufs nbufs arrs narrs tens ntens reg]; try lia; try reflexivity.
      * intros b Hb. rewrite upd_other by lia. split; reflexivity.
      * intros b Hb _ _. rewrite upd_other by lia. reflexivity.
      * intros t Ht. destruct (w_ten s H t Ht). rewrite upd_other by lia. split; reflexivity.
  - known E. destruct (forallb _ is); [|discriminate]. injection E as <-. destruct (alloc_change s (map (fun i => nth i (contents s a) v0) is) (lab (arrs s a)) (Copy a is) H) as (C & Wc & _). split; assumption.
  - known E. destruct g as [g|]; [|discriminate]. injection E as <-. unfold with_lab.
    assert (B : forall b, buf (upd (arrs s) a (Arr (buf (arrs s a)) (pos (arrs s a)) g) b) = buf (arrs s b) /\ pos (upd (arrs s) a (Arr (buf (arrs s a)) (pos (arrs s a)) g) b) = pos (arrs s b)).
    { intros b. destruct (Nat.eq_dec b a) as [->|N]; [rewrite upd_same; split; reflexivity|rewrite upd_other by exact N; split; reflexivity]. }
    split.
    + split; unfold shares; cbn [bufs nbufs arrs narrs tens ntens reg].
      * intros b Hb. rewrite (proj1 (B b)). apply (w_buf s H), Hb.
      * intros t Ht. rewrite (proj2 (B _)). apply (w_ten s H t Ht).
      * intros t t'. rewrite !(proj1 (B _)). apply (w_own s H).
    + split; cbn [bufs nbufs arrs narrs tens ntens reg]; try lia; try reflexivity.
      * intros b _. apply B.
      * intros b Hb N _. rewrite upd_other; [reflexivity|]. intros ->. exact (N (Some g) eq_refl).
      * intros t Ht. apply B.
  - known E. destruct (forallb _ [i]); [|discriminate]. injection E as <-. unfold poke, with_bufs. split.
    + split; unfold shares; cbn [bufs nbufs arrs narrs tens ntens reg]; apply H.
    + split; cbn [bufs nbufs arrs narrs tens ntens reg]; try lia; try (intros; split; reflexivity); try reflexivity.
      intros b Hb N _. rewrite upd_other; [reflexivity|]. intros ->. exact (N a i x eq_refl eq_refl).
  - known E. destruct (length xs =? _); [|discriminate]. injection E as <-. unfold fill, with_bufs. split.
    + split; unfold shares; cbn [bufs nbufs arrs narrs tens ntens reg]; apply H.
    + split; cbn [bufs nbufs arrs narrs tens ntens reg]; try lia; try (intros; split; reflexivity); try reflexivity.
      intros b Hb _ N. rewrite upd_other; [reflexivity|]. intros ->. apply (N t); [left; exists xs; reflexivity|reflexivity].
  - known E. injection E as <-. unfold register, with_lab, fill, unregister, with_bufs, with_reg. cbn [bufs nbufs arrs narrs tens ntens reg].
    set (a := tens s t). 
    assert (B : forall b, buf (upd (arrs s) a (Arr (buf (arrs s a)) (pos (arrs s a)) g) b) = buf (arrs s b) /\ pos (upd (arrs s) a (Arr (buf (arrs s a)) (pos (arrs s a)) g) b) = pos (arrs s b)).
    { intros b. destruct (Nat.eq_dec b a) as [->|N]; [rewrite upd_same; split; reflexivity|rewrite upd_other by exact N; split; reflexivity]. }
    split.
    + split; unfold shares; cbn [bufs nbufs arrs narrs tens ntens reg].
      * intros b Hb. rewrite (proj1 (B b)). apply (w_buf s H), Hb.
      * intros t' Ht. rewrite (proj2 (B _)). apply (w_ten s H t' Ht).
      * intros t' t''. rewrite !(proj1 (B _)). apply (w_own s H).
    + split; cbn [bufs nbufs arrs narrs tens ntens reg]; try lia; try reflexivity.
      * intros b _. apply B.
      * intros b Hb _ N. rewrite upd_other; [reflexivity|]. exact (N t g eq_refl).
      * intros b Hb _ N. rewrite upd_other; [reflexivity|]. intros ->. apply (N t); [right; exists g; reflexivity|reflexivity].
      * intros t' Ht. apply B.
  - known E. injection E as <-. unfold view. cbn [bufs nbufs arrs narrs tens ntens reg]. rewrite seq_nth_id. destruct (w_ten s H t K) as [At Nt].
    assert (B : forall t', t' < ntens s -> let A := upd (arrs s) (narrs s) (Arr (buf (arrs s (tens s t))) (pos (arrs s (tens s t))) (lab (arrs s (tens s t)))) in
      buf (A (upd (tens s) t (narrs s) t')) = buf (arrs s (tens s t')) /\ pos (A (upd (tens s) t (narrs s) t')) = pos (arrs s (tens s t')) /\ upd (tens s) t (narrs s) t' < S (narrs s)).
    { intros t' Ht A. subst A. destruct (Nat.eq_dec t' t) as [->|N].
      - rewrite upd_same, upd_same. cbn. repeat split. lia.
      - rewrite (upd_other (tens s)) by exact N. destruct (w_ten s H t' Ht). rewrite upd_other by lia. repeat split. lia. }
    split.
    + split; unfold shares; cbn [bufs nbufs arrs narrs tens ntens reg].
      * intros b Hb. destruct (Nat.eq_dec b (narrs s)) as [->|N]; [rewrite upd_same; cbn; apply (w_buf s H); exact At|]. rewrite upd_other by exact N. apply (w_buf s H). lia.
      * intros t' Ht. destruct (B t' Ht) as (B1 & B2 & B3). rewrite B2. split; [exact B3|apply (w_ten s H t' Ht)].
      * intros t' t'' Ht Ht' E. rewrite (proj1 (B t' Ht)), (proj1 (B t'' Ht')) in E. apply (w_own s H); assumption.
    + split; cbn [bufs nbufs arrs narrs tens ntens reg]; try lia; try reflexivity.
      * intros b Hb. rewrite upd_other by lia. split; reflexivity.
      * intros b Hb _ _. rewrite upd_other by lia. reflexivity.
      * intros t' Ht. destruct (B t' Ht) as (B1 & B2 & B3). split; assumption.
Qed.

(** The array of a vector has all cells of its buffer, in order. *)
Record whole (s : state V) : Prop := Whole {
  o_pos : forall t, t < ntens s -> pos (arrs s (tens s t)) = seq 0 (length (pos (arrs s (tens s t))));
  o_in : forall a t, a < narrs s -> t < ntens s -> shares s a (tens s t) -> Forall (fun i => i < length (pos (arrs s (tens s t)))) (pos (arrs s a)) }.
Lemma whole_step s o s' : wf s -> whole s -> step s o = Ok s' -> whole s'.
Proof.
  intros H O E. destruct (step_change s o s' H E) as [H' C].
  assert (Old : forall a t, a < narrs s -> t < ntens s -> shares s' a (tens s' t) -> Forall (fun i => i < length (pos (arrs s' (tens s' t)))) (pos (arrs s' a))).
  { intros a t Ha Ht S. unfold shares in S. destruct (c_own _ _ _ C t Ht) as [Ob Op], (c_buf _ _ _ C a Ha) as [Ab Ap]. rewrite Op, Ap. apply (o_in s O a t Ha Ht). unfold shares. congruence. }
  assert (OldP : forall t, t < ntens s -> pos (arrs s' (tens s' t)) = seq 0 (length (pos (arrs s' (tens s' t))))).
  { intros t Ht. rewrite (proj2 (c_own _ _ _ C t Ht)). apply (o_pos s O t Ht). }
  (* a new vector has a new buffer; an old array has an old one *)
  assert (Far : forall a t, a < narrs s -> t < ntens s' -> ~ t < ntens s -> ~ shares s' a (tens s' t)).
  { intros a t Ha Ht N S. unfold shares in S. destruct (c_new _ _ _ C t Ht N) as [G _]. rewrite (proj1 (c_buf _ _ _ C a Ha)) in S. pose proof (w_buf s H a Ha). lia. }
  assert (Cr : forall ms f, s' = create v0 s ms f -> whole s').
  { intros ms f ->. assert (T : tens (create v0 s ms f) (ntens s) = narrs s) by (cbn; apply upd_same).
    assert (A : arrs (create v0 s ms f) (narrs s) = Arr (nbufs s) (seq 0 (length ms)) f) by (cbn; apply upd_same).
    split.
    - intros t Ht. destruct (Nat.lt_ge_cases t (ntens s)) as [L|L]; [apply OldP, L|]. assert (t = ntens s) as -> by (cbn in Ht; lia). rewrite T, A. cbn. rewrite seq_length. reflexivity.
    - intros a t Ha Ht S. destruct (Nat.lt_ge_cases a (narrs s)) as [La|La].
      + destruct (Nat.lt_ge_cases t (ntens s)) as [L|L]; [apply Old; assumption|]. exfalso. apply (Far a t La Ht); [lia|exact S].
      + assert (a = narrs s) as -> by (cbn in Ha; lia). destruct (Nat.lt_ge_cases t (ntens s)) as [L|L].
        * exfalso. unfold shares in S. rewrite A, (proj1 (c_own _ _ _ C t L)) in S. cbn in S. destruct (w_ten s H t L) as [At _]. pose proof (w_buf s H _ At). lia.
        * assert (t = ntens s) as -> by (cbn in Ht; lia). rewrite T, A. cbn. rewrite seq_length. apply Forall_forall. intros i Hi. apply in_seq in Hi. lia. }
  destruct o as [ms f|a f|a is|a is|a g|a i x|t xs|t g|t]; cbn [LabelModel.step] in E; cbv zeta in E.
  - injection E as E. apply (Cr ms f). symmetry. exact E.
  - known E. injection E as E. eapply Cr. symmetry. exact E.
  - known E. destruct (forallb _ is) eqn:X; [|discriminate]. injection E as <-. split; [exact OldP|]. intros b t Hb Ht S. destruct (Nat.lt_ge_cases b (narrs s)) as [L|L]; [apply Old; assumption|].
    assert (b = narrs s) as -> by (cbn in Hb; lia). rewrite (proj2 (c_own _ _ _ C t Ht)). unfold shares in S. rewrite (proj1 (c_own _ _ _ C t Ht)) in S.
    unfold view in S |- *. cbn [arrs] in S |- *. rewrite upd_same in S |- *. cbn [buf pos] in S |- *. pose proof (o_in s O a t K Ht S) as F. rewrite Forall_forall in F |- *. intros j Hj. apply in_map_iff in Hj.
    destruct Hj as (i & <- & Hi). apply F, nth_In. rewrite forallb_forall in X. apply Nat.ltb_lt, X, Hi.
  - known E. destruct (forallb _ is); [|discriminate]. injection E as <-. split; [exact OldP|]. intros b t Hb Ht S. destruct (Nat.lt_ge_cases b (narrs s)) as [L|L]; [apply Old; assumption|].
    assert (b = narrs s) as -> by (cbn in Hb; lia). exfalso. unfold shares in S. rewrite (proj1 (c_own _ _ _ C t Ht)) in S. unfold alloc in S. cbn [arrs] in S. rewrite upd_same in S. cbn in S.
    destruct (w_ten s H t Ht) as [At _]. pose proof (w_buf s H _ At). lia.
  - known E. destruct g as [g|]; [|discriminate]. injection E as <-. split; [exact OldP|]. intros b t Hb Ht. apply Old; assumption.
  - known E. destruct (forallb _ [i]); [|discriminate]. injection E as <-. split; [exact OldP|]. intros b t' Hb Ht. apply Old; assumption.
  - known E. destruct (length xs =? _); [|discriminate]. injection E as <-. split; [exact OldP|]. intros b t' Hb Ht. apply Old; assumption.
  - known E. injection E as <-. split; [exact OldP|]. intros b t' Hb Ht. apply Old; assumption.
  - known E. injection E as <-. split; [exact OldP|]. intros b t' Hb Ht S. destruct (Nat.lt_ge_cases b (narrs s)) as [L|L]; [apply Old; assumption|].
    assert (b = narrs s) as -> by (cbn in Hb; lia). rewrite (proj2 (c_own _ _ _ C t' Ht)). unfold shares in S. rewrite (proj1 (c_own _ _ _ C t' Ht)) in S.
    unfold view in S |- *. cbn [arrs] in S |- *. rewrite upd_same in S |- *. cbn [buf pos] in S |- *. rewrite seq_nth_id. apply (o_in s O (tens s t) t'); [apply (w_ten s H t K)|exact Ht|exact S].
Qed.
Lemma run_whole ops : whole (run ops).
Proof.
  unfold LabelModel.run. assert (O : whole (@empty V v0)) by (split; cbn; intros; lia). revert O. generalize wf_empty. generalize (@empty V v0).
  induction ops as [|o ops IH]; intros s H O; [exact O|]. cbn [fold_left]. destruct (step s o) as [s'|] eqn:E; [|apply IH; assumption].
  apply IH; [apply (step_change s o s' H E)|apply (whole_step s o s'); assumption].
Qed.

Lemma run_wf ops : wf (run ops).
Proof.
  unfold LabelModel.run. generalize wf_empty. generalize (@empty V v0). induction ops as [|o ops IH]; intros s H; [exact H|]. cbn [fold_left]. apply IH.
  destruct (step s o) as [s'|] eqn:E; [apply (step_change s o s' H E)|exact H].
Qed.

(** Vectors. *)
Lemma vector_kept s o s' t : shows show phys -> wf s -> step s o = Ok s' -> t < ntens s -> ~ edits_vector s o t -> members s' t = members s t.
Proof.
  intros Sh H E Ht Ed. destruct (step_change s o s' H E) as [H' C]. destruct (w_ten s H t Ht) as [At Nt].
  unfold LabelProps.members, LabelProps.value, LabelModel.contents. destruct (c_own s s' o C t Ht) as [-> ->].
  assert (Q : forall b, (forall g, o <> Move t g) -> b = buf (arrs s (tens s t)) -> bufs s' b = bufs s b).
  { intros b M ->. apply (c_mem s s' o C).
    - apply (w_buf s H), At.
    - intros a i x -> S. apply Ed. exact S.
    - intros t' [[xs ->]|[g ->]] S.
      + cbn in Ed. assert (K : t' < ntens s). { cbn in E. known E. exact K. } apply Ed. apply (w_own s H); assumption.
      + assert (K : t' < ntens s). { cbn in E. known E. exact K. } apply (M g). f_equal. apply (w_own s H); assumption. }
  assert (T : (forall t', o <> Transpose t') -> tens s' t = tens s t).
  { intros N. destruct o; cbn [LabelModel.step] in E; cbv zeta in E; try (known E); try (destruct (forallb _ _); [|discriminate E]); try (destruct g; [|discriminate E]);
      try (destruct (length _ =? _); [|discriminate E]); try (injection E as <-); cbn; try reflexivity; try (apply upd_other; lia). exfalso. apply (N t0). reflexivity. }
  destruct o as [ms f|a f|a is|a is|a g|a i x|t' xs|t' g|t'].
  all: try (rewrite Q by (try discriminate; reflexivity); rewrite T by discriminate; rewrite (c_lab s s' _ C (tens s t) At); [reflexivity|discriminate|discriminate]).
  - rewrite Q by (try discriminate; reflexivity); rewrite T by discriminate. rewrite (c_lab s s' _ C (tens s t) At); [reflexivity| |discriminate].
    intros g' X. injection X as X _. apply Ed. exact X.
  - destruct (Nat.eq_dec t' t) as [->|N].
    + cbn [LabelModel.step] in E. cbv zeta in E. known E. injection E as <-.
      unfold register, with_lab, fill, unregister, with_bufs, with_reg, frame_of. cbn [bufs nbufs arrs narrs tens ntens reg]. rewrite !upd_same. cbn [lab buf pos].
      rewrite filled; [|exact Nt|unfold LabelModel.contents; rewrite !map_length; reflexivity]. unfold LabelModel.contents. rewrite !map_map. apply map_ext. intros i. apply Sh.
    + assert (K : t' < ntens s). { cbn in E. known E. exact K. }
      rewrite Q; [|intros g' X; injection X as X _; contradiction|reflexivity]. rewrite T by discriminate. rewrite (c_lab s s' _ C (tens s t) At); [reflexivity|discriminate|].
      intros t'' g' X Y. injection X as <- <-. apply N. symmetry. apply (w_own s H); [exact Ht|exact K|]. unfold shares. rewrite Y. reflexivity.
  - rewrite Q by (try discriminate; reflexivity).
    cbn [LabelModel.step] in E. cbv zeta in E. known E. injection E as <-. cbn [tens arrs view]. destruct (Nat.eq_dec t t') as [->|N].
    + rewrite upd_same, upd_same. reflexivity.
    + rewrite (upd_other (tens s)) by exact N. rewrite upd_other by lia. reflexivity.
Qed.

(** Copies. *)
Lemma array_kept s o s' a : wf s -> step s o = Ok s' -> a < narrs s -> detached s a -> ~ edits_array s o a ->
  value s' a = value s a /\ detached s' a.
Proof.
  intros H E Ha D Ed. destruct (step_change s o s' H E) as [H' C]. split.
  - unfold LabelProps.value, LabelModel.contents. destruct (c_buf s s' o C a Ha) as [-> ->].
    rewrite (c_lab s s' o C a Ha).
    + rewrite (c_mem s s' o C); [reflexivity|apply (w_buf s H), Ha| |].
      * intros b i x -> S. apply Ed. exact S.
      * intros t X S. apply (D t); [|symmetry; exact S]. unfold is_vector. destruct X as [[xs ->]|[g ->]]; cbn in E; known E; exact K.
    + intros g ->. apply Ed. reflexivity.
    + intros t g -> ->. apply (D t); [|reflexivity]. unfold is_vector. cbn in E. known E. exact K.
  - intros t Ht S. unfold is_vector, shares in *. destruct (Nat.lt_ge_cases t (ntens s)) as [L|L].
    + rewrite (proj1 (c_own s s' o C t L)), (proj1 (c_buf s s' o C a Ha)) in S. exact (D t L S).
    + destruct (c_new s s' o C t Ht) as [G _]; [lia|]. rewrite (proj1 (c_buf s s' o C a Ha)) in S. pose proof (w_buf s H a Ha). lia.
Qed.

Lemma register_in (r : nat -> list nat) f t t' h : In t' (upd r f (t :: remove Nat.eq_dec t (r f)) h) <-> In t' (r h) \/ (h = f /\ t' = t).
Proof.
  destruct (Nat.eq_dec h f) as [->|N].
  - rewrite upd_same. cbn. split.
    + intros [->|X]; [right; split; reflexivity|]. left. apply in_remove in X. apply X.
    + intros [X|[_ ->]]; [|left; reflexivity]. destruct (Nat.eq_dec t' t) as [->|N]; [left; reflexivity|]. right. apply in_in_remove; assumption.
  - rewrite upd_other by exact N. split; [tauto|]. intros [X|[X _]]; [exact X|contradiction].
Qed.
Lemma unregister_in (r : nat -> list nat) f t t' h : In t' (upd r f (remove Nat.eq_dec t (r f)) h) <-> In t' (r h) /\ (h <> f \/ t' <> t).
Proof.
  destruct (Nat.eq_dec h f) as [->|N].
  - rewrite upd_same. split.
    + intros X. apply in_remove in X. split; [apply X|right; apply X].
    + intros [X [Y|Y]]; [congruence|]. apply in_in_remove; assumption.
  - rewrite upd_other by exact N. tauto.
Qed.

Definition registered (s : state V) : Prop := forall t f, In t (reg s f) <-> t < ntens s /\ frame_of s t = f.
Lemma step_registered s o s' : wf s -> registered s -> ~ is_relabel o -> step s o = Ok s' -> registered s'.
Proof.
  intros H R N E. destruct (step_change s o s' H E) as [H' C].
  assert (Cr : forall ms f, registered (create v0 s ms f)).
  { intros ms f t h. unfold create, alloc, frame_of. cbn [bufs nbufs arrs narrs tens ntens reg]. destruct (Nat.eq_dec t (ntens s)) as [->|Nt].
    - rewrite upd_same, upd_same. cbn [lab]. destruct (Nat.eq_dec h f) as [->|Nh].
      + rewrite upd_same. cbn. split; [intros _; split; [lia|reflexivity]|]. intros _. left. reflexivity.
      + rewrite upd_other by exact Nh. split; [intros X; apply R in X; lia|]. intros [_ X]. congruence.
    - rewrite (upd_other (tens s)) by exact Nt. destruct (Nat.lt_ge_cases t (ntens s)) as [L|L].
      + destruct (w_ten s H t L). rewrite (upd_other (arrs s)) by lia. specialize (R t h). unfold frame_of in R. destruct (Nat.eq_dec h f) as [->|Nh].
        * rewrite upd_same. cbn. rewrite R. split; [intros [X|[_ X]]; [lia|split; [lia|exact X]]|]. intros [_ X]. right. split; [exact L|exact X].
        * rewrite upd_other by exact Nh. rewrite R. split; intros [A B]; split; try lia; exact B.
      + split; [|intros [X _]; lia]. intros X. assert (Y : In t (reg s h)). { destruct (Nat.eq_dec h f) as [->|Nh]; [rewrite upd_same in X; destruct X as [X|X]; [lia|exact X]|rewrite upd_other in X by exact Nh; exact X]. }
        apply R in Y. lia. }
  destruct o as [ms f|a f|a is|a is|a g|a i x|t xs|t g|t]; cbn [LabelModel.step] in E; cbv zeta in E.
  - injection E as <-. apply Cr.
  - known E. injection E as <-. apply Cr.
  - known E. destruct (forallb _ is); [|discriminate]. injection E as <-. intros t h. unfold view, frame_of. cbn [reg ntens arrs tens]. rewrite (R t h). unfold frame_of.
    split; intros [L X]; split; try exact L; destruct (w_ten s H t L); revert X; rewrite upd_other by lia; intros X; exact X.
  - known E. destruct (forallb _ is); [|discriminate]. injection E as <-. intros t h. unfold alloc, frame_of. cbn [reg ntens arrs tens]. rewrite (R t h). unfold frame_of.
    split; intros [L X]; split; try exact L; destruct (w_ten s H t L); revert X; rewrite upd_other by lia; intros X; exact X.
  - exfalso. apply N. exact I.
  - known E. destruct (forallb _ [i]); [|discriminate]. injection E as <-. exact R.
  - known E. destruct (length xs =? _); [|discriminate]. injection E as <-. exact R.
  - known E. injection E as <-. intros t' h. unfold register, with_lab, fill, unregister, with_bufs, with_reg, frame_of. cbn [bufs nbufs arrs narrs tens ntens reg].
    rewrite register_in, unregister_in. specialize (R t' h). unfold frame_of in R. rewrite R. destruct (Nat.eq_dec t' t) as [->|Nt].
    + rewrite upd_same. cbn [lab]. split.
      * intros [[[L X] [Y|Y]]|[-> _]]; [congruence|congruence|split; [exact K|reflexivity]].
      * intros [_ <-]. right. split; reflexivity.
    + split.
      * intros [[[L X] _]|[_ X]]; [|contradiction]. split; [exact L|]. rewrite upd_other; [exact X|]. intros Y. apply Nt. apply (w_own s H); [exact L|exact K|]. unfold shares. rewrite Y. reflexivity.
      * intros [L X]. left. rewrite upd_other in X; [tauto|]. intros Y. apply Nt. apply (w_own s H); [exact L|exact K|]. unfold shares. rewrite Y. reflexivity.
  - known E. injection E as <-. intros t' h. unfold view, frame_of. cbn [reg ntens arrs tens]. rewrite (R t' h). unfold frame_of. destruct (Nat.eq_dec t' t) as [->|Nt].
    + rewrite upd_same, upd_same. cbn [lab]. reflexivity.
    + rewrite (upd_other (tens s)) by exact Nt. split; intros [L X]; split; try exact L; destruct (w_ten s H t' L); revert X; rewrite upd_other by lia; intros X; exact X.
Qed.
End Proofs.

(** ** Theorems *)

(** Nothing but writing its components or renaming its own array changes a vector: not new vectors, views or
    copies, nor moving it or other vectors to other frames. *)
Theorem C114_vectors :
  forall (V W : Type) show std v0 (phys : nat -> V -> W), shows show phys ->
  forall s o s' t, reached show std v0 s -> step show std v0 s o = Ok s' -> is_vector s t -> ~ edits_vector s o t ->
  members phys s' t = members phys s t.
Proof. intros V W show std v0 phys Sh s o s' t [ops ->] E Ht Ed. apply (vector_kept show std v0 phys (run show std v0 ops) o); try assumption. apply run_wf. Qed.
Print Assumptions C114_vectors.

(** Views and copies say, when they are made, what the array says; an array without memory of a vector keeps
    what it says, whatever happens to vectors, and a copy is such an array; so do new vectors
    made from an array with the frame it names. *)
Theorem C114_copies :
  forall (V W : Type) show std v0 (phys : nat -> V -> W) w0 s a is, reached show std v0 s -> is_array s a ->
  (forall s', step show std v0 s (View a is) = Ok s' \/ step show std v0 s (Copy a is) = Ok s' ->
     value phys s' (narrs s) = map (fun i => nth i (value phys s a) w0) is) /\
  (forall s', step show std v0 s (Copy a is) = Ok s' -> detached s' (narrs s)) /\
  (forall o s', step show std v0 s o = Ok s' -> detached s a -> ~ edits_array s o a -> value phys s' a = value phys s a /\ detached s' a) /\
  (forall f, exists s', step show std v0 s (Wrap a (Some f)) = Ok s' /\ ntens s' = S (ntens s) /\ frame_of s' (ntens s) = f /\
     (f = lab (arrs s a) -> members phys s' (ntens s) = value phys s a)).
Proof.
  intros V W show std v0 phys w0 s a is [ops ->] Ha. set (s := run show std v0 ops) in *. pose proof (run_wf show std v0 ops : wf s) as H. unfold is_array in Ha.
  assert (K : (a <? narrs s) = true) by (apply Nat.ltb_lt; exact Ha).
  assert (In_ : forall is, forallb (fun i => i <? length (pos (arrs s a))) is = true -> forall i, In i is -> i < length (pos (arrs s a))).
  { intros l X i Hi. rewrite forallb_forall in X. apply Nat.ltb_lt, X, Hi. }
  split; [|split; [|split]].
  - intros s' [E|E]; cbn [step] in E; cbv zeta in E; rewrite K in E; destruct (forallb _ is) eqn:X; try discriminate; injection E as <-.
    + unfold value, contents, view. cbn [arrs bufs]. rewrite upd_same. cbn [buf pos lab]. rewrite !map_map. apply map_ext_in. intros i Hi. specialize (In_ is X i Hi).
      rewrite (nth_indep _ w0 (phys (lab (arrs s a)) (bufs s (buf (arrs s a)) 0))) by (rewrite !map_length; exact In_).
      rewrite (map_nth (fun x => phys (lab (arrs s a)) (bufs s (buf (arrs s a)) x))). reflexivity.
    + destruct (alloc_change v0 s (map (fun i => nth i (contents s a) v0) is) (lab (arrs s a)) (Copy a is) H) as (_ & _ & C & L & _).
      unfold value at 1. rewrite C, L, map_map. apply map_ext_in. intros i Hi. specialize (In_ is X i Hi). unfold value.
      rewrite (nth_indep _ w0 (phys (lab (arrs s a)) v0)) by (unfold contents; rewrite !map_length; exact In_). rewrite map_nth. reflexivity.
  - intros s' E. cbn [step] in E. cbv zeta in E. rewrite K in E. destruct (forallb _ is) eqn:X; try discriminate; injection E as <-.
    destruct (alloc_change v0 s (map (fun i => nth i (contents s a) v0) is) (lab (arrs s a)) (Copy a is) H) as (C & _ & _ & _ & B).
    intros t Ht S. unfold is_vector, shares in *. rewrite B in S. rewrite (proj1 (c_own _ _ _ C t Ht)) in S. destruct (w_ten s H t Ht) as [A _]. pose proof (w_buf s H _ A). lia.
  - intros o s' E D Ed. apply (array_kept show std v0 phys s o s' a H E Ha D Ed).
  - intros f. cbn [step]. cbv zeta. rewrite K. eexists. split; [reflexivity|]. destruct (create_change v0 s (contents s a) f H) as (_ & _ & C & L).
    split; [reflexivity|]. assert (T : tens (create v0 s (contents s a) f) (ntens s) = narrs s) by (cbn; apply upd_same).
    unfold frame_of, members, value. rewrite T, L, C. split; [reflexivity|]. intros ->. reflexivity.
Qed.
Print Assumptions C114_copies.

(** A view of the array of a vector says what the vector says as long as both name the same frame, and an array
    names the same frame until it is told otherwise or the vector whose array it is moves. *)
Theorem C114_views :
  forall (V W : Type) show std v0 (phys : nat -> V -> W) w0 s, reached show std v0 s ->
  (forall a t, is_array s a -> is_vector s t -> shares s a (tens s t) -> lab (arrs s a) = frame_of s t ->
     exists is, Forall (fun i => i < length (members phys s t)) is /\ contents s a = map (fun i => nth i (contents s (tens s t)) v0) is /\
     value phys s a = map (fun i => nth i (members phys s t) w0) is) /\
  (forall o s' a, is_array s a -> step show std v0 s o = Ok s' -> (forall g, o <> Relabel a g) -> (forall t g, o = Move t g -> a <> tens s t) ->
     lab (arrs s' a) = lab (arrs s a)).
Proof.
  intros V W show std v0 phys w0 s [ops ->]. set (s := run show std v0 ops) in *. pose proof (run_wf show std v0 ops : wf s) as H. split.
  - intros a t Ha Ht S L. pose proof (run_whole show std v0 ops) as O. pose proof (o_pos _ O t Ht) as P. pose proof (o_in _ O a t Ha Ht S) as F. exists (pos (arrs s a)).
    unfold members, value, contents, frame_of, shares in *. fold s in P, F. rewrite S, L. rewrite !map_length. split; [exact F|]. rewrite Forall_forall in F. split.
    + apply map_ext_in. intros i Hi. specialize (F i Hi). rewrite P.
      rewrite (nth_indep _ v0 (bufs s (buf (arrs s (tens s t))) 0)) by (rewrite map_length, seq_length; exact F).
      rewrite (map_nth (bufs s (buf (arrs s (tens s t))))). rewrite seq_nth by exact F. reflexivity.
    + rewrite map_map. apply map_ext_in. intros i Hi. specialize (F i Hi). rewrite P, map_map.
      rewrite (nth_indep _ w0 (phys (lab (arrs s (tens s t))) (bufs s (buf (arrs s (tens s t))) 0))) by (rewrite map_length, seq_length; exact F).
      rewrite (map_nth (fun x => phys (lab (arrs s (tens s t))) (bufs s (buf (arrs s (tens s t))) x))). rewrite seq_nth by exact F. reflexivity.
  - intros o s' a Ha E N M. destruct (step_change show std v0 s o s' H E) as [_ C]. apply (c_lab s s' o C a Ha N M).
Qed.
Print Assumptions C114_views.

(** If no array is told another frame, every vector is registered with the frame that its array names, and
    with no other. *)
Theorem C114_registered_partial :
  forall (V : Type) show std (v0 : V) ops, Forall (fun o => ~ is_relabel o) ops ->
  let s := run show std v0 ops in forall t f, In t (reg s f) <-> is_vector s t /\ frame_of s t = f.
Proof.
  intros V show std v0 ops N.
  assert (G : forall s, wf s -> registered s -> registered (fold_left (fun s o => match step show std v0 s o with Ok s' => s' | Err _ => s end) ops s)).
  { induction ops as [|o ops IH]; intros s H R; [exact R|]. inversion N; subst. cbn [fold_left]. destruct (step show std v0 s o) as [s'|] eqn:E; [|apply IH; assumption].
    apply IH; [assumption|apply (step_change show std v0 s o s' H E)|]. apply (step_registered show std v0 (fun _ _ => tt) s o s'); assumption. }
  intros s. apply (G (empty v0)); [apply wf_empty|]. intros t f. cbn. split; [tauto|]. lia.
Qed.
Print Assumptions C114_registered_partial.

(** Writing: [t.array = xs] stores all members or nothing; [a[i] = x] changes one cell, in every array with that cell. *)
Theorem C114_writes :
  forall (V : Type) show std (v0 : V) s, reached show std v0 s ->
  (forall t xs, is_vector s t ->
     match step show std v0 s (Assign t xs) with
     | Ok s' => length xs = length (contents s (tens s t)) /\ contents s' (tens s' t) = xs /\ frame_of s' t = frame_of s t
     | Err e => length xs <> length (contents s (tens s t)) /\ e = AssertionError
     end) /\
  (forall a i x s' b, step show std v0 s (Write a i x) = Ok s' ->
     contents s' b = map (fun c => if (buf (arrs s b) =? buf (arrs s a)) && (c =? nth i (pos (arrs s a)) 0) then x else bufs s (buf (arrs s b)) c) (pos (arrs s b))).
Proof.
  intros V show std v0 s [ops ->]. set (s := run show std v0 ops) in *. pose proof (run_wf show std v0 ops : wf s) as H. split.
  - intros t xs Ht. unfold is_vector in Ht. cbn [step]. cbv zeta. rewrite (proj2 (Nat.ltb_lt t (ntens s)) Ht). destruct (w_ten s H t Ht) as [_ N].
    unfold contents at 1 3. rewrite !map_length. destruct (Nat.eqb_spec (length xs) (length (pos (arrs s (tens s t))))) as [L|L]; [|split; [exact L|reflexivity]].
    split; [exact L|]. split; [|reflexivity]. unfold contents, fill, with_bufs. cbn [bufs arrs tens]. rewrite upd_same. apply (@filled V unit); try assumption; exact (fun _ _ => tt).
  - intros a i x s' b E. cbn [step] in E. cbv zeta in E. destruct (a <? narrs s); [|discriminate]. destruct (forallb _ [i]); [|discriminate]. injection E as <-.
    unfold contents, poke, with_bufs. cbn [bufs arrs]. apply map_ext. intros c. unfold upd at 1. destruct (buf (arrs s b) =? buf (arrs s a)) eqn:B; [|reflexivity].
    apply Nat.eqb_eq in B. rewrite B. unfold upd. destruct (c =? _); reflexivity.
Qed.
Print Assumptions C114_writes.

(** An array does not always name the frame of its components.  With a vector in frame 0: (1) a view that was
    taken before the vector moved still names the old frame and says something else than the vector; (2) telling
    the array of the vector another frame changes the vector, which stays registered with the old
    frame; (3) a vector made from the array without a frame is another vector. *)
Definition turn (f : nat) (x : Z) : Z := if f =? 0 then x else (- x)%Z.
Definition flip (f g : nat) (x : Z) : Z := turn g (turn f x).
Theorem C114_refuted :
  exists s, reached flip 1 0%Z s /\ is_vector s 0 /\ shares s 1 (tens s 0) /\ value turn s 1 = members turn s 0 /\
  (exists s1, step flip 1 0%Z s (Move 0 1) = Ok s1 /\ members turn s1 0 = members turn s 0 /\ shares s1 1 (tens s1 0) /\ value turn s1 1 <> members turn s1 0) /\
  (exists s2, step flip 1 0%Z s (Relabel (tens s 0) (Some 1)) = Ok s2 /\ frame_of s2 0 = 1 /\ members turn s2 0 <> members turn s 0 /\ In 0 (reg s2 0) /\ ~ In 0 (reg s2 1)) /\
  (exists s3, step flip 1 0%Z s (Wrap (tens s 0) None) = Ok s3 /\ members turn s3 1 <> members turn s 0).
Proof.
  exists (run flip 1 0%Z [New [5; 7]%Z 0; View 0 [0; 1]]). split; [eexists; reflexivity|]. cbn. split; [unfold is_vector; cbn; lia|]. split; [reflexivity|]. split; [reflexivity|].
  split; [eexists; split; [reflexivity|]; split; [reflexivity|]; split; [reflexivity|]; cbn; discriminate|]. split.
  - eexists. split; [reflexivity|]. split; [reflexivity|]. split; [cbn; discriminate|]. split; [left; reflexivity|]. cbn. tauto.
  - eexists. split; [reflexivity|]. cbn. discriminate.
Qed.
Print Assumptions C114_refuted.

Example C114_met :
  shows flip turn /\
  exists s s', reached flip 1 0%Z s /\ is_vector s 0 /\ step flip 1 0%Z s (Move 0 1) = Ok s' /\ ~ edits_vector s (Move 0 1) 0 /\
  members turn s 0 = [5; 7]%Z /\ contents s' (tens s' 0) = [-5; -7]%Z /\ reg s' 0 = [] /\ reg s' 1 = [0].
Proof.
  split.
  - intros f g x. unfold flip, turn. destruct (f =? 0), (g =? 0); lia.
  - exists (run flip 1 0%Z [New [5; 7]%Z 0; View 0 [0; 1]]). eexists. split; [eexists; reflexivity|]. split; [unfold is_vector; cbn; lia|]. split; [reflexivity|].
    split; [intros []|]. repeat split.
Qed.
