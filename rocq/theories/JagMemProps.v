(** Property C108: the memory behind jagged arrays. *)
From Coq Require Import QArith Qcanon.
From Verif Require Import Prelude OField SparseModel SparseSpec SparseProps WrapModel WrapProps JagMemModel.
Local Open Scope nat_scope.

(** ** Specification *)

Section Specification.
Context {F : ofield}.
(** Positions that exist, counted from the front, and their Python spellings. *)
Definition spells (n : nat) (i : Z) (k : nat) : Prop := k < n /\ (i = Z.of_nat k \/ i = Z.of_nat k - Z.of_nat n)%Z.
(** [rows'] is [rows] with entry (k, l) replaced by [a] and nothing else changed. *)
Definition replaced (rows rows' : list (list F)) (k l : nat) (a : F) : Prop :=
  map (@length F) rows' = map (@length F) rows /\
  forall i j, i < length rows -> j < length (nth i rows []) ->
    nth j (nth i rows' []) zero = if (i =? k) && (j =? l) then a else nth j (nth i rows []) zero.
(** Two variables hold the same editable memory. *)
Definition share (s : store F) (x y : nat) : Prop :=
  exists ox oy r, nth_error (vars s) x = Some ox /\ nth_error (vars s) y = Some oy /\
                  array_of ox = Some r /\ array_of oy = Some r.
End Specification.

(** ** Proofs *)
Section Proofs.
Context {F : ofield}.
Implicit Types s : store F.

Definition ok s : Prop := Forall (fun o => forall r, array_of o = Some r -> r < length (mem s)) (vars s).

Lemma ok_var s o : ok s -> (forall r, array_of o = Some r -> r < length (mem s)) -> ok (bind_var s o).
Proof. intros H H1. apply Forall_app. split; [exact H|]. constructor; [exact H1|constructor]. Qed.
Lemma ok_new s rows (k : nat -> obj F) : ok s -> (forall r, array_of (k r) = Some r) -> ok (bind_new s rows k).
Proof.
  intros H H1. apply Forall_app. cbn. rewrite app_length. cbn. split.
  - eapply Forall_impl; [|exact H]. cbn. intros o Ho r Hr. specialize (Ho r Hr). lia.
  - constructor; [|constructor]. rewrite H1. intros r [= <-]. lia.
Qed.

(** What one command does: old variables keep their objects, memory grows, and old
    memory changes only by an item assignment. *)
Definition grows s s' : Prop := exists m v, mem s' = mem s ++ m /\ vars s' = vars s ++ v.
Lemma grows_var s o : grows s (bind_var s o).
Proof. exists [], [o]. cbn. rewrite app_nil_r. split; reflexivity. Qed.
Lemma grows_new s rows (k : nat -> obj F) : grows s (bind_new s rows k).
Proof. exists [rows], [k (length (mem s))]. split; reflexivity. Qed.

Lemma make_list_inv s rows force s' : make_list s rows force = Ok s' ->
  s' = bind_new s rows JagNp \/ s' = bind_var s (JagAk rows).
Proof.
  unfold make_list, jagged_array. cbn. destruct (force && _); cbn; intros [= <-]; [left|right]; reflexivity.
Qed.

Lemma set_inv s x i j a s' : step s (CSet x i j a) = Ok s' ->
  exists o r rows rows', nth_error (vars s) x = Some o /\ array_of o = Some r /\
    nth_error (mem s) r = Some rows /\ put rows i j a = Ok rows' /\ s' = Store (set_nth r rows' (mem s)) (vars s).
Proof.
  cbn. unfold with_var. destruct (nth_error (vars s) x) as [o|] eqn:Ex; [|discriminate]. intros E.
  assert (Er : exists r, array_of o = Some r /\
    match nth_error (mem s) r with Some rows => do rows' <- put rows i j a ; Ok (Store (set_nth r rows' (mem s)) (vars s)) | None => Err NameError end = Ok s').
  { destruct o as [r|r|ro|ro|r]; cbn in E; try discriminate; exists r; split; try reflexivity; exact E. }
  destruct Er as (r & Er & E'). destruct (nth_error (mem s) r) as [rows|] eqn:Em; [|discriminate].
  destruct (put rows i j a) as [rows'|] eqn:Ep; [|discriminate]. injection E' as <-.
  exists o, r, rows, rows'. repeat split; assumption.
Qed.

Lemma step_inv s c s' : ok s -> step s c = Ok s' ->
  (ok s' /\ grows s s') \/
  exists x i j a o r rows rows', c = CSet x i j a /\ nth_error (vars s) x = Some o /\ array_of o = Some r /\
    nth_error (mem s) r = Some rows /\ put rows i j a = Ok rows' /\ s' = Store (set_nth r rows' (mem s)) (vars s).
Proof.
  intros H E. assert (Hn : forall rows k, (forall r, array_of (k r) = Some r) -> Ok (bind_new s rows k) = Ok s' -> ok s' /\ grows s s').
  { intros rows k Hk [= <-]. split; [apply ok_new; assumption|apply grows_new]. }
  assert (Hv : forall x o o', nth_error (vars s) x = Some o -> (forall r, array_of o' = Some r -> array_of o = Some r) ->
    Ok (bind_var s o') = Ok s' -> ok s' /\ grows s s').
  { intros x o o' Hx Ho [= <-]. split; [|apply grows_var]. apply ok_var; [exact H|].
    intros r Hr. apply (proj1 (Forall_forall _ _) H o (nth_error_In _ _ Hx)), Ho, Hr. }
  assert (Hl : forall rows force, make_list s rows force = Ok s' -> ok s' /\ grows s s').
  { intros rows force El. destruct (make_list_inv _ _ _ _ El) as [->| ->].
    - apply (Hn rows JagNp); reflexivity.
    - split; [apply ok_var; [exact H|discriminate]|apply grows_var]. }
  destruct c as [nC rows|x|rows force|x|x|x|x i j a]; cbn in E.
  - left. destruct (forallb _ _); [|discriminate]. apply (Hn _ Nd (fun _ => eq_refl) E).
  - left. unfold with_var in E. destruct (nth_error (vars s) x) as [[r|r|ro|ro|r]|] eqn:Ex; cbn in E; try discriminate.
    + apply (Hv _ _ _ Ex) in E; [exact E|auto].
    + apply (Hv _ _ _ Ex) in E; [exact E|auto].
    + destruct (nth_error (mem s) r) as [rows|]; [|discriminate]. apply (Hl _ _ E).
  - left. apply (Hl _ _ E).
  - left. unfold with_var in E. destruct (nth_error (vars s) x) as [[r|r|ro|ro|r]|] eqn:Ex; cbn in E; try discriminate;
      apply (Hv _ _ _ Ex) in E; auto.
  - left. unfold with_var in E. destruct (nth_error (vars s) x) as [[r|r|ro|ro|r]|] eqn:Ex; cbn [to_numpy] in E; try discriminate.
    + apply (Hv _ _ _ Ex) in E; [exact E|auto].
    + destruct (jto_numpy (Ak ro)) as [d|]; [|discriminate]. apply (Hn _ Nd (fun _ => eq_refl) E).
  - left. unfold with_var in E. destruct (nth_error (vars s) x) as [[r|r|ro|ro|r]|] eqn:Ex; cbn in E; try discriminate;
      try (destruct (nth_error (mem s) r) as [rows|]; [|discriminate]); apply (Hn _ Lists (fun _ => eq_refl) E).
  - right. destruct (set_inv s x i j a s' E) as (o & r & rows & rows' & H1).
    exists x, i, j, a, o, r, rows, rows'. split; [reflexivity|exact H1].
Qed.

Lemma ok_run1 s c : ok s -> ok (run1 s c).
Proof.
  intros H. unfold run1. destruct (step s c) as [s'|] eqn:E; [|exact H].
  destruct (step_inv _ _ _ H E) as [[H' _]|(x & i & j & a & o & r & rows & rows' & _ & _ & _ & _ & _ & ->)]; [exact H'|].
  unfold ok. cbn. rewrite set_nth_length. exact H.
Qed.
Lemma ok_run p : forall s, ok s -> ok (run s p).
Proof. induction p as [|c p IH]; intros s H; [exact H|]. apply IH, ok_run1, H. Qed.
Lemma ok_start p : ok (run (@start F) p).
Proof. apply ok_run. constructor. Qed.

(** Variables are never rebound. *)
Lemma vars_run1 s c : ok s -> exists v, vars (run1 s c) = vars s ++ v.
Proof.
  intros H. unfold run1. destruct (step s c) as [s'|] eqn:E; [|exists []; symmetry; apply app_nil_r].
  destruct (step_inv _ _ _ H E) as [[_ (m & v & _ & Hv)]|(x & i & j & a & o & r & rows & rows' & _ & _ & _ & _ & _ & ->)].
  - exists v. exact Hv.
  - exists []. symmetry. apply app_nil_r.
Qed.
Lemma vars_run p : forall s, ok s -> exists v, vars (run s p) = vars s ++ v.
Proof.
  induction p as [|c p IH]; intros s H; [exists []; symmetry; apply app_nil_r|].
  destruct (vars_run1 s c H) as [v1 E1]. destruct (IH _ (ok_run1 s c H)) as [v2 E2].
  exists (v1 ++ v2). change (run s (c :: p)) with (run (run1 s c) p). rewrite E2, E1, app_assoc. reflexivity.
Qed.
Lemma var_run p s x o : ok s -> nth_error (vars s) x = Some o -> nth_error (vars (run s p)) x = Some o.
Proof.
  intros H Hx. destruct (vars_run p s H) as [v E]. rewrite E. rewrite nth_error_app1; [exact Hx|].
  apply nth_error_Some. congruence.
Qed.
Lemma share_run p s x y : ok s -> share s x y -> share (run s p) x y.
Proof. intros H (ox & oy & r & H1 & H2 & H3 & H4). exists ox, oy, r. repeat split; try assumption; apply var_run; assumption. Qed.
Lemma share_view s x y : share s x y -> view s x = view s y.
Proof.
  intros (ox & oy & r & H1 & H2 & H3 & H4). unfold view. rewrite H1, H2.
  assert (P : forall o : obj F, array_of o = Some r -> rows_in s o = nth_error (mem s) r).
  { intros [q|q|ro|ro|q]; cbn; intros [= ->]; reflexivity. }
  rewrite (P _ H3), (P _ H4). reflexivity.
Qed.
(** Sharing is decided when the second variable is made. *)
Lemma share_back p s x y : ok s -> x < length (vars s) -> y < length (vars s) -> share (run s p) x y -> share s x y.
Proof.
  intros H Lx Ly (ox & oy & r & H1 & H2 & H3 & H4). destruct (vars_run p s H) as [v E].
  rewrite E in H1, H2. rewrite nth_error_app1 in H1, H2 by assumption.
  exists ox, oy, r. repeat split; assumption.
Qed.

(** Positions. *)
Lemma pos_spec n i k : pos n i = Some k <-> spells n i k.
Proof.
  unfold pos, spells. destruct (0 <=? i)%Z eqn:E0.
  - apply Z.leb_le in E0. destruct (i <? Z.of_nat n)%Z eqn:E1.
    + apply Z.ltb_lt in E1. split; [intros [= <-]; lia|intros [H1 H2]; f_equal; lia].
    + apply Z.ltb_ge in E1. split; [discriminate|lia].
  - apply Z.leb_gt in E0. destruct (- Z.of_nat n <=? i)%Z eqn:E1.
    + apply Z.leb_le in E1. split; [intros [= <-]; lia|intros [H1 H2]; f_equal; lia].
    + apply Z.leb_gt in E1. split; [discriminate|lia].
Qed.

Lemma nth_set_nth {X} (d : X) n x l i : n < length l -> nth i (set_nth n x l) d = if i =? n then x else nth i l d.
Proof.
  intros H. destruct (Nat.eqb_spec i n) as [->|Hn].
  - apply nth_error_nth. apply set_nth_same, H.
  - pose proof (set_nth_other n i x l (fun e => Hn (eq_sym e))) as E.
    destruct (nth_error l i) as [y|] eqn:E2.
    + rewrite (nth_error_nth _ _ d E), (nth_error_nth _ _ d E2). reflexivity.
    + rewrite !nth_overflow; [reflexivity| |]; apply nth_error_None; [exact E2|congruence].
Qed.
Lemma map_set_nth {X Y} (f : X -> Y) n x l : map f (set_nth n x l) = set_nth n (f x) (map f l).
Proof. revert n. induction l as [|y l IH]; intros [|n]; cbn; try reflexivity. rewrite IH. reflexivity. Qed.
Lemma set_nth_id {X} (d : X) n l : set_nth n (nth n l d) l = l.
Proof. revert n. induction l as [|y l IH]; intros [|n]; cbn; try reflexivity. rewrite IH. reflexivity. Qed.

Lemma put_replaced (rows : list (list F)) i j a rows' : put rows i j a = Ok rows' ->
  exists k l, spells (length rows) i k /\ spells (length (nth k rows [])) j l /\ replaced rows rows' k l a.
Proof.
  unfold put. destruct (pos (length rows) i) as [k|] eqn:Ek; [|discriminate].
  destruct (pos (length (nth k rows [])) j) as [l|] eqn:El; [|discriminate]. intros [= <-].
  apply pos_spec in Ek, El. exists k, l. split; [exact Ek|]. split; [exact El|].
  destruct Ek as [Lk _]. destruct El as [Ll _]. split.
  - rewrite map_set_nth, set_nth_length. rewrite <- (map_nth (@length F) rows [] k) . apply set_nth_id.
  - intros i' j' Hi Hj. rewrite nth_set_nth by exact Lk. destruct (Nat.eqb_spec i' k) as [->|]; cbn; [|reflexivity].
    apply nth_set_nth, Ll.
Qed.
Lemma put_ok (rows : list (list F)) i j a k l :
  spells (length rows) i k -> spells (length (nth k rows [])) j l -> exists rows', put rows i j a = Ok rows'.
Proof.
  intros Hk Hl. apply pos_spec in Hk, Hl. unfold put. rewrite Hk, Hl. eexists. reflexivity.
Qed.
Lemma put_err (rows : list (list F)) i j a :
  ~ (exists k l, spells (length rows) i k /\ spells (length (nth k rows [])) j l) -> put rows i j a = Err IndexError.
Proof.
  intros H. unfold put. destruct (pos (length rows) i) as [k|] eqn:Ek; [|reflexivity].
  destruct (pos (length (nth k rows [])) j) as [l|] eqn:El; [|reflexivity].
  exfalso. apply H. exists k, l. split; apply pos_spec; assumption.
Qed.

(** Reading after a write. *)
Lemma view_write s x y o r rows rows' : ok s -> nth_error (vars s) x = Some o -> array_of o = Some r ->
  nth_error (mem s) r = Some rows ->
  view (Store (set_nth r rows' (mem s)) (vars s)) x = Some rows' /\
  (share s x y -> view (Store (set_nth r rows' (mem s)) (vars s)) y = Some rows') /\
  (~ share s x y -> view (Store (set_nth r rows' (mem s)) (vars s)) y = view s y).
Proof.
  intros H Hx Ho Hm. assert (Lr : r < length (mem s)) by (apply nth_error_Some; congruence).
  assert (P : forall t (q : obj F) n, array_of q = Some n -> rows_in t q = nth_error (mem t) n).
  { intros t [q|q|ro|ro|q] n; cbn; intros [= ->]; reflexivity. }
  unfold view. cbn [vars]. rewrite Hx. rewrite (P _ _ _ Ho). cbn [mem]. split; [apply set_nth_same, Lr|]. split.
  - intros (ox & oy & q & H1 & H2 & H3 & H4). rewrite Hx in H1. injection H1 as <-. rewrite Ho in H3. injection H3 as <-.
    rewrite H2, (P _ _ _ H4). apply set_nth_same, Lr.
  - intros Hs. destruct (nth_error (vars s) y) as [oy|] eqn:Ey; [|reflexivity].
    destruct (array_of oy) as [q|] eqn:Eq.
    + rewrite !(P _ _ _ Eq). cbn. apply set_nth_other. intros ->. apply Hs. exists o, oy, q. repeat split; assumption.
    + destruct oy; cbn in Eq; try discriminate; reflexivity.
Qed.
Lemma view_grows s s' x : ok s -> grows s s' -> x < length (vars s) -> view s' x = view s x.
Proof.
  intros H (m & v & Em & Ev) Lx. unfold view. rewrite Ev, nth_error_app1 by exact Lx.
  destruct (nth_error (vars s) x) as [o|] eqn:Eo; [|reflexivity].
  assert (Lr : forall r, array_of o = Some r -> r < length (mem s)) by (apply (proj1 (Forall_forall _ _) H o (nth_error_In _ _ Eo))).
  destruct o as [r|r|ro|ro|r]; cbn; try reflexivity; rewrite Em; apply nth_error_app1, Lr; reflexivity.
Qed.
Lemma view_some s x : ok s -> x < length (vars s) -> exists rows, view s x = Some rows.
Proof.
  intros H Lx. unfold view. destruct (nth_error (vars s) x) as [o|] eqn:Eo; [|apply nth_error_None in Eo; lia].
  assert (Lr : forall r, array_of o = Some r -> r < length (mem s)) by (apply (proj1 (Forall_forall _ _) H o (nth_error_In _ _ Eo))).
  destruct o as [r|r|ro|ro|r]; cbn; try (eexists; reflexivity);
    (destruct (nth_error (mem s) r) as [ro|] eqn:E; [exists ro; reflexivity|apply nth_error_None in E; specialize (Lr r eq_refl); lia]).
Qed.
End Proofs.

(** ** Theorems *)
Section Kinds.
Context {F : ofield}.
(** Variable [x] holds a 2d ndarray; a JaggedArray around an ndarray; a JaggedArray
    around an awkward array or such an array itself. *)
Definition is_ndarray (s : store F) x := exists r, nth_error (vars s) x = Some (Nd r).
Definition is_dense_jagged (s : store F) x := exists r, nth_error (vars s) x = Some (JagNp r).
Definition is_awkward (s : store F) x := exists rows, nth_error (vars s) x = Some (JagAk rows) \/ nth_error (vars s) x = Some (AkA rows).
Definition is_awkward_jagged (s : store F) x := exists rows, nth_error (vars s) x = Some (JagAk rows).
End Kinds.

(** A JaggedArray made from a 2d array, and the arrays that to_array and to_numpy
    return for it, show the same entries as the original in every later state. *)
Theorem C108_shared :
  forall (F : ofield) (p : list (cmd F)) (x : nat) (c : cmd F),
  let s := run start p in let y := length (vars s) in
  (is_ndarray s x /\ c = CJagged x) \/ (is_dense_jagged s x /\ (c = CToArray x \/ c = CToNumpy x)) ->
  exists s', step s c = Ok s' /\ share s' x y /\ (c = CJagged x -> is_dense_jagged s' y) /\ (c <> CJagged x -> is_ndarray s' y) /\
    forall q, view (run s' q) y = view (run s' q) x.
Proof.
  intros F p x c s y H. pose proof (ok_start p) as Ho. fold s in Ho.
  assert (G : forall o o' r, nth_error (vars s) x = Some o -> array_of o = Some r -> array_of o' = Some r ->
    step s c = Ok (bind_var s o') -> (c = CJagged x -> o' = JagNp r) -> (c <> CJagged x -> o' = Nd r) ->
    exists s', step s c = Ok s' /\ share s' x y /\ (c = CJagged x -> is_dense_jagged s' y) /\ (c <> CJagged x -> is_ndarray s' y) /\
    forall q, view (run s' q) y = view (run s' q) x).
  { intros o o' r Hx H1 H2 E J1 J2. exists (bind_var s o'). split; [exact E|].
    assert (Ey : nth_error (vars (bind_var s o')) y = Some o') by apply nth_error_last.
    assert (Ex : nth_error (vars (bind_var s o')) x = Some o).
    { cbn. rewrite nth_error_app1; [exact Hx|]. apply nth_error_Some. congruence. }
    assert (Hs : share (bind_var s o') x y) by (exists o, o', r; repeat split; assumption).
    split; [exact Hs|]. split; [intros e; exists r; rewrite Ey, (J1 e); reflexivity|].
    split; [intros e; exists r; rewrite Ey, (J2 e); reflexivity|].
    intros q. symmetry. apply share_view, share_run; [|exact Hs].
    apply ok_var; [exact Ho|]. rewrite H2. intros k [= <-]. apply (proj1 (Forall_forall _ _) Ho o (nth_error_In _ _ Hx)), H1. }
  destruct H as [[[r Hr] ->]|[[r Hr] [-> | ->]]].
  - apply (G (Nd r) (JagNp r) r); try reflexivity; try assumption; [cbn; unfold with_var; rewrite Hr; reflexivity|congruence].
  - apply (G (JagNp r) (Nd r) r); try reflexivity; try assumption; [cbn; unfold with_var; rewrite Hr; reflexivity|discriminate].
  - apply (G (JagNp r) (Nd r) r); try reflexivity; try assumption; [cbn; unfold with_var; rewrite Hr; reflexivity|discriminate].
Qed.
Print Assumptions C108_shared.

(** An item assignment that goes through replaces that one entry, in the variable and
    in all that share its memory, and in nothing else. *)
Theorem C108_write :
  forall (F : ofield) (p : list (cmd F)) (x : nat) (i j : Z) (a : F) (s' : store F),
  let s := run start p in
  step s (CSet x i j a) = Ok s' ->
  exists rows rows' k l, view s x = Some rows /\ view s' x = Some rows' /\
    spells (length rows) i k /\ spells (length (nth k rows [])) j l /\ replaced rows rows' k l a /\
    forall y, (share s x y -> view s' y = Some rows') /\ (~ share s x y -> view s' y = view s y).
Proof.
  intros F p x i j a s' s E. pose proof (ok_start p) as Ho. fold s in Ho.
  destruct (set_inv _ _ _ _ _ _ E) as (o & r & rows & rows' & Hx & Hr & Hm & Hp & ->).
  destruct (put_replaced _ _ _ _ _ Hp) as (k & l & Hk & Hl & Hrep).
  assert (Vx : view s x = Some rows).
  { unfold view. rewrite Hx. destruct o as [q|q|ro|ro|q]; cbn in *; try discriminate; injection Hr as ->; exact Hm. }
  exists rows, rows', k, l. split; [exact Vx|].
  split; [exact (proj1 (view_write s x x o r rows rows' Ho Hx Hr Hm))|]. do 3 (split; [assumption|]).
  intros y. exact (proj2 (view_write s x y o r rows rows' Ho Hx Hr Hm)).
Qed.
Print Assumptions C108_write.

(** Which assignments go through: all positions that exist, counted from either end,
    unless the object is awkward. *)
Theorem C108_positions :
  forall (F : ofield) (p : list (cmd F)) (x : nat) (i j : Z) (a : F),
  let s := run start p in
  (x < length (vars s) -> ~ is_awkward s x -> exists rows, view s x = Some rows /\
     ((exists k l, spells (length rows) i k /\ spells (length (nth k rows [])) j l) ->
        exists s', step s (CSet x i j a) = Ok s') /\
     (~ (exists k l, spells (length rows) i k /\ spells (length (nth k rows [])) j l) ->
        step s (CSet x i j a) = Err IndexError)) /\
  (is_awkward s x -> step s (CSet x i j a) = Err TypeError).
Proof.
  intros F p x i j a s. pose proof (ok_start p) as Ho. fold s in Ho. split.
  - intros Lx Hn. destruct (view_some s x Ho Lx) as [rows Hv]. exists rows. split; [exact Hv|].
    unfold view in Hv. destruct (nth_error (vars s) x) as [o|] eqn:Ex; [|discriminate].
    assert (E : step s (CSet x i j a) = do rows' <- put rows i j a ;
      Ok (Store (set_nth (match array_of o with Some r => r | None => 0 end) rows' (mem s)) (vars s))).
    { cbn [step]. unfold with_var. rewrite Ex. destruct o as [r|r|ro|ro|r]; cbn in *; try (rewrite Hv; reflexivity).
      - exfalso. apply Hn. exists ro. left. exact Ex.
      - exfalso. apply Hn. exists ro. right. exact Ex. }
    rewrite E. split.
    + intros (k & l & Hk & Hl). destruct (put_ok rows i j a k l Hk Hl) as [rows' ->]. eexists. reflexivity.
    + intros Hno. rewrite (put_err rows i j a Hno). reflexivity.
  - intros [rows [E|E]]; cbn; unfold with_var; rewrite E; reflexivity.
Qed.
Print Assumptions C108_positions.

(** Nothing ever changes an awkward array, and reading never changes anything: the
    entries a variable shows change only by assignments through variables that share
    its memory. *)
Theorem C108_stable :
  forall (F : ofield) (p q : list (cmd F)) (x : nat),
  let s := run start p in x < length (vars s) ->
  (is_awkward s x \/ forall y i j a, In (CSet y i j a) q -> ~ share (run s q) x y) ->
  view (run s q) x = view s x.
Proof.
  intros F p q x s Lx. pose proof (ok_start p) as Ho. fold s in Ho. clearbody s. clear p.
  intros [[rows Hr]|Hn].
  - unfold view. assert (R : rows_in (run s q) (JagAk rows) = rows_in s (JagAk rows)) by reflexivity.
    destruct Hr as [Hr|Hr]; rewrite (var_run q s x _ Ho Hr), Hr; reflexivity.
  - revert s Ho Lx Hn. induction q as [|c q IH]; intros s Ho Lx Hn; [reflexivity|]. cbn [run fold_left].
    change (fold_left run1 q (run1 s c)) with (run (run1 s c) q).
    destruct (vars_run1 s c Ho) as [v Ev].
    assert (Lx' : x < length (vars (run1 s c))) by (rewrite Ev, app_length; lia).
    rewrite IH; [|apply ok_run1, Ho|exact Lx'|intros y i j a I; exact (Hn y i j a (or_intror I))].
    unfold run1. destruct (step s c) as [s'|] eqn:E; [|reflexivity].
    destruct (step_inv _ _ _ Ho E) as [[_ G]|(y & i & j & a & o & r & rows & rows' & -> & Hy & Hr & Hm & Hp & ->)].
    + apply view_grows; assumption.
    + apply (view_write s y x o r rows rows' Ho Hy Hr Hm). intros (o1 & o2 & n & H1 & H2 & H3 & H4).
      apply (Hn y i j a (or_introl eq_refl)). cbn [run fold_left].
      change (fold_left run1 q (run1 s (CSet y i j a))) with (run (run1 s (CSet y i j a)) q).
      apply share_run; [apply ok_run1, Ho|]. unfold run1. rewrite E. exists o2, o1, n. repeat split; assumption.
Qed.
Print Assumptions C108_stable.

(** New memory: np.array, a JaggedArray made from lists, to_list, and to_numpy of an
    awkward JaggedArray share with no variable that exists already, now or later. *)
Theorem C108_fresh :
  forall (F : ofield) (p q : list (cmd F)) (c : cmd F) (s' : store F) (x : nat),
  let s := run start p in let y := length (vars s) in
  match c with
  | CArray _ _ | CJaggedList _ _ | CToList _ => True
  | CToNumpy z => is_awkward_jagged s z
  | _ => False
  end ->
  step s c = Ok s' -> x < length (vars s) -> ~ share (run s' q) x y.
Proof.
  intros F p q c s' x s y Hc E Lx Hs. pose proof (ok_start p) as Ho. fold s in Ho.
  assert (N : (exists rows k, (forall r, array_of (k r) = Some r) /\ s' = bind_new s rows k) \/ (exists rows, s' = bind_var s (JagAk rows))).
  { destruct c as [nC rows|z|rows force|z|z|z|z i j a]; try tauto.
    - left. cbn in E. destruct (forallb _ _); [|discriminate]. injection E as <-. exists rows, Nd. split; reflexivity.
    - cbn in E. destruct (make_list_inv _ _ _ _ E) as [->| ->]; [left; exists rows, JagNp; split; reflexivity|right; exists rows; reflexivity].
    - left. destruct Hc as [rows Hz]. cbn [step] in E. unfold with_var in E. rewrite Hz in E. cbn [to_numpy] in E.
      destruct (jto_numpy (Ak rows)) as [d|]; [|discriminate]. injection E as <-. exists d, Nd. split; reflexivity.
    - left. cbn in E. unfold with_var in E. destruct (nth_error (vars s) z) as [[r|r|ro|ro|r]|]; cbn in E; try discriminate;
        try (destruct (nth_error (mem s) r) as [rows|]; [|discriminate]); injection E as <-; eexists _, Lists; split; reflexivity. }
  assert (Ho' : ok s').
  { destruct N as [(rows & k & Hk & ->)|(rows & ->)]; [apply ok_new; assumption|apply ok_var; [exact Ho|discriminate]]. }
  assert (Ly : length (vars s') = S y) by (destruct N as [(rows & k & _ & ->)|(rows & ->)]; cbn; rewrite app_length; cbn; unfold y; lia).
  apply share_back in Hs; [|exact Ho'|rewrite Ly; unfold y; lia|lia].
  destruct Hs as (ox & oy & r & H1 & H2 & H3 & H4).
  destruct N as [(rows & k & Hk & ->)|(rows & ->)]; cbn [bind_new bind_var vars] in H1, H2; unfold y in H2;
    rewrite nth_error_last in H2; injection H2 as <-; [|discriminate].
  rewrite Hk in H4. injection H4 as <-. rewrite nth_error_app1 in H1 by exact Lx.
  pose proof (proj1 (Forall_forall _ _) Ho ox (nth_error_In _ _ H1) _ H3). cbn in H. lia.
Qed.
Print Assumptions C108_fresh.

(** What the new objects show. *)
Theorem C108_reads :
  forall (F : ofield) (p : list (cmd F)) (c : cmd F) (s' : store F),
  let s := run start p in let y := length (vars s) in
  step s c = Ok s' ->
  match c with
  | CArray _ rows | CJaggedList rows _ => view s' y = Some rows
  | CJagged x | CToArray x | CToList x => view s' y = view s x
  | CToNumpy x => exists rows rows' m, view s x = Some rows /\ view s' y = Some rows' /\
                    (is_dense_jagged s x -> rows' = rows) /\
                    (is_awkward_jagged s x -> rows <> [] -> is_max (map (@length F) rows) m /\ Forall2 (fun r r' => zero_padded r m r') rows rows')
  | CSet _ _ _ _ => length (vars s') = y
  end.
Proof.
  intros F p c s' s y E. pose proof (ok_start p) as Ho. fold s in Ho.
  assert (Vn : forall rows k, (forall r, array_of (k r) = Some r) -> view (bind_new s rows k) y = Some rows).
  { intros rows k Hk. unfold view, y. cbn. rewrite nth_error_last. specialize (Hk (length (mem s))).
    destruct (k (length (mem s))); cbn in *; try discriminate; injection Hk as ->; apply nth_error_last. }
  assert (Vv : forall o, view (bind_var s o) y = rows_in s o).
  { intros o. unfold view, y. cbn. rewrite nth_error_last. destruct o; reflexivity. }
  assert (Vl : forall rows force, make_list s rows force = Ok s' -> view s' y = Some rows).
  { intros rows force El. destruct (make_list_inv _ _ _ _ El) as [->| ->]; [apply (Vn rows JagNp); reflexivity|apply Vv]. }
  destruct c as [nC rows|x|rows force|x|x|x|x i j a].
  - cbn in E. destruct (forallb _ _); [|discriminate]. injection E as <-. apply (Vn rows Nd). reflexivity.
  - cbn in E. unfold with_var in E. unfold view at 2. destruct (nth_error (vars s) x) as [[r|r|ro|ro|r]|]; cbn in E; try discriminate; cbn.
    + injection E as <-. apply Vv.
    + injection E as <-. apply Vv.
    + destruct (nth_error (mem s) r) as [rows|]; [|discriminate]. apply (Vl _ _ E).
  - apply (Vl _ _ E).
  - cbn in E. unfold with_var in E. unfold view at 2. destruct (nth_error (vars s) x) as [[r|r|ro|ro|r]|]; cbn in E; try discriminate; cbn;
      injection E as <-; apply Vv.
  - cbn [step] in E. unfold with_var in E. unfold view at 1. unfold is_dense_jagged, is_awkward_jagged.
    destruct (nth_error (vars s) x) as [[r|r|ro|ro|r]|] eqn:Ex; cbn [to_numpy] in E; try discriminate; cbn [rows_in].
    + injection E as <-. rewrite Vv. cbn [rows_in]. destruct (nth_error (mem s) r) as [rows|] eqn:Er.
      * exists rows, rows, 0. split; [reflexivity|]. split; [reflexivity|]. split; [reflexivity|]. intros [k Hk]. discriminate.
      * exfalso. apply nth_error_None in Er. pose proof (proj1 (Forall_forall _ _) Ho _ (nth_error_In _ _ Ex) r eq_refl). lia.
    + destruct (jto_numpy (Ak ro)) as [d|] eqn:Ed; [|discriminate]. injection E as <-. rewrite (Vn d Nd) by reflexivity.
      destruct ro as [|r0 ro'].
      * exists [], d, 0. split; [reflexivity|]. split; [reflexivity|]. split; [intros [k Hk]; discriminate|]. intros _ H. congruence.
      * destruct (C12_jagged_csr_dense F (Ak (r0 :: ro')) I) as (c & m & dense & _ & Hm & _ & _ & Hd & _ & Hz); [discriminate|].
        rewrite Ed in Hd. injection Hd as <-. exists (r0 :: ro'), d, m. split; [reflexivity|]. split; [reflexivity|].
        split; [intros [k Hk]; discriminate|]. intros _ _. split; [exact Hm|exact Hz].
  - cbn in E. unfold with_var in E. unfold view at 2. destruct (nth_error (vars s) x) as [[r|r|ro|ro|r]|]; cbn in E; try discriminate; cbn;
      try (destruct (nth_error (mem s) r) as [rows|]; [|discriminate]); injection E as <-; apply (Vn _ Lists); reflexivity.
  - destruct (set_inv _ _ _ _ _ _ E) as (o & r & rows & rows' & _ & _ & _ & _ & ->). reflexivity.
Qed.
Print Assumptions C108_reads.

(** What kind of object each command gives: a list of lists becomes dense exactly if
    NumPy is wanted and all rows have one width. *)
Theorem C108_kinds :
  forall (F : ofield) (p : list (cmd F)) (c : cmd F) (s' : store F),
  let s := run start p in let y := length (vars s) in
  step s c = Ok s' ->
  match c with
  | CArray _ _ => is_ndarray s' y
  | CJagged x => (is_ndarray s x -> is_dense_jagged s' y) /\ (is_awkward s x -> is_awkward_jagged s' y) /\
                 ~ is_dense_jagged s x /\ ~ is_awkward_jagged s x
  | CJaggedList rows force =>
      if force then (is_dense_jagged s' y <-> rows <> [] /\ exists w, Forall (fun r => length r = w) rows) /\
                    (is_dense_jagged s' y \/ is_awkward_jagged s' y)
      else is_awkward_jagged s' y
  | CToArray x => (is_dense_jagged s x /\ is_ndarray s' y) \/ (is_awkward_jagged s x /\ is_awkward s' y /\ ~ is_awkward_jagged s' y)
  | CToNumpy x => (is_dense_jagged s x \/ is_awkward_jagged s x) /\ is_ndarray s' y
  | CToList _ => ~ is_awkward s' y
  | CSet x _ _ _ => ~ is_awkward s x
  end.
Proof.
  intros F p c s' s y E.
  assert (Vn : forall rows (k : nat -> obj F), nth_error (vars (bind_new s rows k)) y = Some (k (length (mem s)))).
  { intros rows k. apply nth_error_last. }
  assert (Vv : forall o, nth_error (vars (bind_var s o)) y = Some o) by (intros o; apply nth_error_last).
  unfold is_ndarray, is_dense_jagged, is_awkward, is_awkward_jagged.
  destruct c as [nC rows|x|rows force|x|x|x|x i j a].
  - cbn in E. destruct (forallb _ _); [|discriminate]. injection E as <-. rewrite Vn. eexists; reflexivity.
  - cbn in E. unfold with_var in E. destruct (nth_error (vars s) x) as [[r|r|ro|ro|r]|]; cbn in E; try discriminate.
    + injection E as <-. rewrite Vv. split; [intros _; eexists; reflexivity|].
      split; [intros [k [e|e]]; discriminate|]. split; intros [k e]; discriminate.
    + injection E as <-. rewrite Vv. split; [intros [k e]; discriminate|].
      split; [intros _; eexists; reflexivity|]. split; intros [k e]; discriminate.
    + split; [intros [k e]; discriminate|]. split; [intros [k [e|e]]; discriminate|]. split; intros [k e]; discriminate.
  - cbn [step] in E. unfold make_list, jagged_array in E. cbn [bind get_data] in E. destruct force; cbn [andb] in E.
    + assert (W : (n_widths rows =? 1) = true <-> rows <> [] /\ exists w, Forall (fun r => length r = w) rows).
      { rewrite Nat.eqb_eq. unfold n_widths. split.
        - intros H. destruct (nodup Nat.eq_dec (map (@length F) rows)) as [|w [|w' l]] eqn:En; try discriminate.
          split; [intros ->; discriminate|]. exists w. apply Forall_forall. intros r Hr.
          assert (I : In (length r) (nodup Nat.eq_dec (map (@length F) rows))) by (apply nodup_In, in_map, Hr).
          rewrite En in I. destruct I as [I|[]]. auto.
        - intros [Hne [w Hw]]. pose proof (NoDup_nodup Nat.eq_dec (map (@length F) rows)) as Nd'.
          assert (A : forall v, In v (nodup Nat.eq_dec (map (@length F) rows)) -> v = w).
          { intros v Iv. apply nodup_In, in_map_iff in Iv. destruct Iv as (r & <- & Ir). exact (proj1 (Forall_forall _ _) Hw r Ir). }
          destruct rows as [|r0 rows]; [congruence|].
          assert (I0 : In (length r0) (nodup Nat.eq_dec (map (@length F) (r0 :: rows)))) by (apply nodup_In; left; reflexivity).
          destruct (nodup Nat.eq_dec (map (@length F) (r0 :: rows))) as [|v [|v' l]]; [destruct I0|reflexivity|].
          exfalso. inversion Nd' as [|? ? Hni _]; subst. apply Hni. rewrite (A v), (A v') by (cbn; auto). left. reflexivity. }
      destruct (n_widths rows =? 1) eqn:En; injection E as <-.
      * rewrite Vn. split; [|left; eexists; reflexivity]. split; [intros _; apply W; reflexivity|intros _; eexists; reflexivity].
      * rewrite Vv. split; [|right; eexists; reflexivity]. split; [intros [k e]; discriminate|]. intros H. apply W in H. discriminate.
    + injection E as <-. rewrite Vv. eexists. reflexivity.
  - cbn in E. unfold with_var in E. destruct (nth_error (vars s) x) as [[r|r|ro|ro|r]|]; cbn in E; try discriminate; injection E as <-; rewrite Vv.
    + left. split; eexists; reflexivity.
    + right. split; [eexists; reflexivity|]. split; [eexists; right; reflexivity|]. intros [k e]; discriminate.
  - cbn [step] in E. unfold with_var in E. destruct (nth_error (vars s) x) as [[r|r|ro|ro|r]|]; cbn [to_numpy] in E; try discriminate.
    + injection E as <-. rewrite Vv. split; [left|]; eexists; reflexivity.
    + destruct (jto_numpy (Ak ro)) as [d|]; [|discriminate]. injection E as <-. rewrite Vn. split; [right|]; eexists; reflexivity.
  - cbn in E. unfold with_var in E. destruct (nth_error (vars s) x) as [[r|r|ro|ro|r]|]; cbn in E; try discriminate;
      try (destruct (nth_error (mem s) r) as [rows|]; [|discriminate]); injection E as <-; rewrite Vn; intros [k [e|e]]; discriminate.
  - destruct (set_inv _ _ _ _ _ _ E) as (o & r & rows & rows' & -> & Ho & _). intros [k [e|e]]; injection e as ->; discriminate.
Qed.
Print Assumptions C108_kinds.

(** Integers as entries. *)
Definition z (n : Z) : Qc_ofield := Q2Qc (inject_Z n).

(** A jagged array cannot be edited, although the position exists. *)
Theorem C108_assign_refuted :
  exists (p : list (cmd Qc_ofield)) (x : nat) (rows : list (list Qc_ofield)),
  let s := run start p in
  is_awkward_jagged s x /\ view s x = Some rows /\ nth_error rows 0 <> Some [] /\ rows <> [] /\
  step s (CSet x 0 0 (z 9)) = Err TypeError.
Proof.
  exists [CJaggedList [[z 1; z 2]; [z 3]] true], 0, [[z 1; z 2]; [z 3]]. cbv zeta.
  split; [eexists; reflexivity|]. repeat split; discriminate.
Qed.
Print Assumptions C108_assign_refuted.

(** A JaggedArray made from a 2d array does not own its entries: an edit of the array
    shows in it, and an edit of what to_numpy returns shows in the array. *)
Theorem C108_own_refuted :
  exists (p : list (cmd Qc_ofield)),
  let s := run start p in
  view s 0 = Some [[z 1; z 2]; [z 3; z 4]] /\ is_ndarray s 0 /\ is_dense_jagged s 1 /\
  view (run s [CSet 0 0 (-1) (z 9)]) 1 = Some [[z 1; z 9]; [z 3; z 4]] /\
  view (run s [CToNumpy 1; CSet 2 1 0 (z 8)]) 0 = Some [[z 1; z 2]; [z 8; z 4]].
Proof.
  exists [CArray 2 [[z 1; z 2]; [z 3; z 4]]; CJagged 0]. cbv zeta.
  split; [reflexivity|]. split; [eexists; reflexivity|]. split; [eexists; reflexivity|]. split; reflexivity.
Qed.
Print Assumptions C108_own_refuted.

Example C108_met :
  let s := run start [CArray 2 [[z 1; z 2]; [z 3; z 4]]; CJagged 0; CToList 1; CJaggedList [[z 1]; [z 2; z 3]] true : cmd Qc_ofield] in
  is_ndarray s 0 /\ is_dense_jagged s 1 /\ is_awkward_jagged s 3 /\ share s 0 1 /\ ~ share s 0 2 /\
  (exists s', step s (CSet 1 (-1) 1 (z 7)) = Ok s' /\ view s' 0 = Some [[z 1; z 2]; [z 3; z 7]] /\ view s' 2 = view s 2) /\
  step s (CSet 1 2 0 (z 7)) = Err IndexError.
Proof.
  cbv zeta. split; [eexists; reflexivity|]. split; [eexists; reflexivity|]. split; [eexists; reflexivity|].
  split; [exists (Nd 0), (JagNp 0), 0; repeat split; reflexivity|].
  split; [intros (ox & oy & r & H1 & H2 & H3 & H4); cbn in H1, H2; injection H1 as <-; injection H2 as <-; cbn in *; congruence|].
  split; [|reflexivity]. eexists. split; [reflexivity|]. split; reflexivity.
Qed.
