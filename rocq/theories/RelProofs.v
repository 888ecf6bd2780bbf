(** Proofs about [parse_expression] and the construction of relations (C51). *)
From Coq Require Import Ascii String Field.
From Verif Require Import Prelude OField FuncModel RelModel LpModel FuncSpec FuncProofs.

(** ** Regular expression pieces *)
Lemma star_greedy_in p s m : In m (star_greedy p s) -> s = fst m ++ snd m /\ forallb p (fst m) = true.
Proof.
  revert m. induction s as [|c t IH]; cbn; intros m H.
  - destruct H as [<-|[]]. auto.
  - destruct (p c) eqn:E; [|destruct H as [<-|[]]; auto].
    apply in_app_or in H. destruct H as [H|[<-|[]]]; [|auto].
    apply in_map_iff in H. destruct H as (m' & <- & H). apply IH in H. destruct H as [-> H]. cbn. rewrite E. auto.
Qed.
Lemma star_greedy_all p s : forallb p s = true -> hd_error (star_greedy p s) = Some (s, []).
Proof.
  induction s as [|c t IH]; cbn; [reflexivity|]. intros H. apply andb_prop in H. destruct H as [-> H].
  specialize (IH H). destruct (star_greedy p t) as [|m l]; [discriminate|]. injection IH as ->. reflexivity.
Qed.
Lemma star_greedy_none p s : In ([], s) (star_greedy p s).
Proof. destruct s as [|c t]; cbn; [auto|]. destruct (p c); [apply in_or_app; right|]; left; reflexivity. Qed.
Lemma star_greedy_intro p u v : forallb p u = true -> In (u, v) (star_greedy p (u ++ v)).
Proof.
  induction u as [|c u IH]; cbn; [intros _; apply star_greedy_none|].
  intros H. apply andb_prop in H. destruct H as [-> H]. apply in_or_app. left. apply in_map_iff.
  exists (u, v). auto.
Qed.

Lemma star_lazy_in p s m : In m (star_lazy p s) -> s = fst m ++ snd m /\ forallb p (fst m) = true.
Proof.
  revert m. induction s as [|c t IH]; cbn; intros m H.
  - destruct H as [<-|[]]. auto.
  - destruct H as [<-|H]; [auto|]. destruct (p c) eqn:E; [|destruct H].
    apply in_map_iff in H. destruct H as (m' & <- & H). apply IH in H. destruct H as [-> H]. cbn. rewrite E. auto.
Qed.
Lemma star_lazy_intro p u v : forallb p u = true -> In (u, v) (star_lazy p (u ++ v)).
Proof.
  induction u as [|c u IH]; cbn.
  - intros _. destruct v; cbn; auto.
  - intros H. apply andb_prop in H. destruct H as [-> H]. right. apply in_map_iff. exists (u, v). auto.
Qed.
Lemma map_cons_split {A B} (g : A -> B) (l : list A) l1 x l2 : map g l = l1 ++ x :: l2 ->
  exists k1 y k2, l = k1 ++ y :: k2 /\ l1 = map g k1 /\ x = g y /\ l2 = map g k2.
Proof.
  revert l1. induction l as [|a l IH]; intros [|b l1] H; cbn in H; try discriminate.
  - injection H as <- <-. exists [], a, l. auto.
  - injection H as <- H. apply IH in H. destruct H as (k1 & y & k2 & -> & -> & -> & ->).
    exists (a :: k1), y, k2. auto.
Qed.
Lemma star_lazy_order p s l1 x l2 y : star_lazy p s = l1 ++ x :: l2 -> In y l2 -> length (fst x) < length (fst y).
Proof.
  revert l1 x l2 y. induction s as [|c t IH]; intros l1 x l2 y E H.
  - cbn in E. destruct l1 as [|? [|]]; cbn in E; try discriminate. injection E as <- <-. destruct H.
  - cbn in E. destruct l1 as [|z l1]; cbn in E.
    + injection E as <- <-. destruct (p c); [|destruct H]. apply in_map_iff in H. destruct H as (m & <- & _). cbn. lia.
    + injection E as _ E. destruct (p c); [|destruct l1; discriminate].
      apply map_cons_split in E. destruct E as (k1 & x' & k2 & E & -> & -> & ->).
      apply in_map_iff in H. destruct H as (m & <- & H). specialize (IH k1 x' k2 m E H). apply (proj1 (Nat.succ_lt_mono _ _) IH).
Qed.
Lemma plus_lazy_in p s m : In m (plus_of star_lazy p s) -> s = fst m ++ snd m /\ forallb p (fst m) = true /\ fst m <> [].
Proof.
  destruct s as [|c t]; cbn; [intros []|]. destruct (p c) eqn:E; [|intros []].
  intros H. apply in_map_iff in H. destruct H as (m' & <- & H). apply star_lazy_in in H. destruct H as [-> H].
  cbn. rewrite E. split; [reflexivity|]. split; [exact H|discriminate].
Qed.
Lemma plus_lazy_intro p u v : forallb p u = true -> u <> [] -> In (u, v) (plus_of star_lazy p (u ++ v)).
Proof.
  destruct u as [|c u]; [congruence|]. cbn. intros H _. apply andb_prop in H. destruct H as [-> H].
  apply in_map_iff. exists (u, v). split; [reflexivity|]. apply star_lazy_intro. exact H.
Qed.
Lemma plus_lazy_order p s l1 x l2 y : plus_of star_lazy p s = l1 ++ x :: l2 -> In y l2 -> length (fst x) < length (fst y).
Proof.
  destruct s as [|c t]; cbn; [destruct l1; discriminate|]. destruct (p c); [|destruct l1; discriminate].
  intros E H. apply map_cons_split in E. destruct E as (k1 & x' & k2 & E & -> & -> & ->).
  apply in_map_iff in H. destruct H as (m & <- & H). apply (proj1 (Nat.succ_lt_mono _ _) (star_lazy_order p t k1 x' k2 m E H)).
Qed.
Lemma plus_greedy_all p s : s <> [] -> forallb p s = true -> hd_error (plus_of star_greedy p s) = Some (s, []).
Proof.
  destruct s as [|c t]; [congruence|]. cbn. intros _ H. apply andb_prop in H. destruct H as [-> H].
  apply star_greedy_all in H. destruct (star_greedy p t) as [|m l]; [discriminate|]. injection H as ->. reflexivity.
Qed.

Lemma hd_flat_map {A B} (f : A -> list B) l y : hd_error (flat_map f l) = Some y ->
  exists l1 x l2, l = l1 ++ x :: l2 /\ (forall z, In z l1 -> f z = []) /\ hd_error (f x) = Some y.
Proof.
  induction l as [|a l IH]; cbn; [discriminate|]. destruct (f a) as [|b k] eqn:E; cbn.
  - intros H. apply IH in H. destruct H as (l1 & x & l2 & -> & H1 & H2).
    exists (a :: l1), x, l2. split; [reflexivity|]. split; [|exact H2]. intros z [<-|Hz]; auto.
  - intros H. exists [], a, l. split; [reflexivity|]. split; [intros z []|]. rewrite E. exact H.
Qed.
Lemma flat_map_nonempty {A B} (f : A -> list B) l x : In x l -> f x <> [] -> flat_map f l <> [].
Proof.
  induction l as [|a l IH]; cbn; [intros []|]. intros [->|H] N.
  - destruct (f x); [congruence|discriminate].
  - specialize (IH H N). destruct (f a); [exact IH|discriminate].
Qed.
Lemma hd_some {A} (l : list A) : l <> [] -> exists y, hd_error l = Some y.
Proof. destruct l as [|y l]; [congruence|]. exists y. reflexivity. Qed.
Lemma hd_nonempty {A} (l : list A) y : hd_error l = Some y -> l <> [].
Proof. destruct l; discriminate. Qed.

(** ** Characters *)
Lemma space_not_op c : is_space c = true -> op_char c = false.
Proof. destruct c as [[] [] [] [] [] [] [] []]; vm_compute; congruence. Qed.
Lemma strip_prefix_spec w s r : strip_prefix w s = Some r <-> s = w ++ r.
Proof.
  revert s. induction w as [|c w IH]; intros s; cbn.
  - split; congruence.
  - destruct s as [|d s]; [split; discriminate|]. destruct (Ascii.eqb_spec c d) as [->|N].
    + rewrite IH. split; congruence.
    + split; [discriminate|congruence].
Qed.

Lemma one_of_in ws s m : In m (one_of ws s) -> In (fst m) ws /\ s = fst m ++ snd m.
Proof.
  unfold one_of. intros H. apply in_flat_map in H. destruct H as (w & Hw & H).
  destruct (strip_prefix w s) as [r|] eqn:E; [|destruct H]. destruct H as [<-|[]].
  apply strip_prefix_spec in E. auto.
Qed.

Lemma op_first w : In w valid_operators -> exists c t, w = c :: t /\ op_char c = true.
Proof.
  intros H. unfold valid_operators in H. cbn in H.
  repeat (destruct H as [<-|H]; [eexists; eexists; split; reflexivity|]). destruct H.
Qed.

Lemma one_of_op w b : In w valid_operators -> no_op b -> b <> [] ->
  exists k, one_of valid_operators (w ++ b) = (w, b) :: k.
Proof.
  intros H N B. destruct b as [|c b]; [congruence|].
  assert (C : Ascii.eqb "="%char c = false).
  { specialize (N c (or_introl eq_refl)). destruct (Ascii.eqb_spec "="%char c) as [<-|]; [discriminate|reflexivity]. }
  unfold valid_operators in H. cbn [map In] in H.
  destruct H as [<-|[<-|[<-|[<-|[<-|[]]]]]]; unfold one_of, valid_operators; cbn -[Ascii.eqb];
    rewrite ?C; cbn -[Ascii.eqb]; rewrite ?C; cbn; eexists; reflexivity.
Qed.

Lemma contains_true w s : contains w s = true <-> exists a b, s = a ++ w ++ b.
Proof.
  induction s as [|c s IH]; cbn.
  - destruct (strip_prefix w []) as [r|] eqn:E.
    + apply strip_prefix_spec in E. split; [exists [], r; exact E|reflexivity].
    + split; [discriminate|]. intros (a & b & H). symmetry in H. apply app_eq_nil in H. destruct H as [_ H].
      apply app_eq_nil in H. destruct H as [-> ->]. discriminate.
  - destruct (strip_prefix w (c :: s)) as [r|] eqn:E.
    + apply strip_prefix_spec in E. split; [exists [], r; exact E|reflexivity].
    + rewrite IH. split.
      * intros (a & b & ->). exists (c :: a), b. reflexivity.
      * intros (a & b & H). destruct a as [|d a].
        -- symmetry in H. cbn in H. symmetry in H. apply (proj2 (strip_prefix_spec w (c :: s) b)) in H. congruence.
        -- injection H as -> ->. exists a, b. reflexivity.
Qed.

Lemma no_op_contains s : no_op s <-> forall w, In w valid_operators -> contains w s = false.
Proof.
  split.
  - intros N w H. destruct (contains w s) eqn:E; [|reflexivity]. apply contains_true in E. destruct E as (a & b & ->).
    destruct (op_first w H) as (c & t & -> & C). rewrite (N c) in C; [discriminate|].
    apply in_or_app. right. left. reflexivity.
  - intros H c Hc. destruct (op_char c) eqn:E; [|reflexivity].
    assert (W : In [c] valid_operators).
    { unfold op_char in E. apply existsb_exists in E. destruct E as (d & Hd & E). apply Ascii.eqb_eq in E. subst d.
      cbn in Hd. destruct Hd as [<-|[<-|[<-|[]]]]; cbn; auto 10. }
    specialize (H [c] W). assert (X : contains [c] s = true); [|congruence].
    apply contains_true. apply in_split in Hc. destruct Hc as (a & b & ->). exists a, b. reflexivity.
Qed.

Lemma check_ops l r : existsb (fun w => contains w l || contains w r) valid_operators = false <-> no_op l /\ no_op r.
Proof.
  rewrite !no_op_contains. split.
  - intros H. assert (X : forall w, In w valid_operators -> contains w l || contains w r = false).
    { intros w Hw. destruct (contains w l || contains w r) eqn:E; [|reflexivity].
      assert (existsb (fun w => contains w l || contains w r) valid_operators = true); [|congruence].
      apply existsb_exists. exists w. auto. }
    split; intros w Hw; specialize (X w Hw); apply orb_false_elim in X; tauto.
  - intros [H1 H2]. destruct (existsb _ _) eqn:E; [|reflexivity]. apply existsb_exists in E.
    destruct E as (w & Hw & E). rewrite H1, H2 in E by exact Hw. discriminate.
Qed.

Lemma has_operator_false s : has_operator s = false <-> no_op s.
Proof.
  rewrite no_op_contains. unfold has_operator. split.
  - intros H w Hw. destruct (contains w s) eqn:E; [|reflexivity].
    assert (existsb (fun w => contains w s) valid_operators = true); [|congruence]. apply existsb_exists. exists w. auto.
  - intros H. destruct (existsb _ _) eqn:E; [|reflexivity]. apply existsb_exists in E.
    destruct E as (w & Hw & E). rewrite H in E by exact Hw. discriminate.
Qed.

(** ** [strip] *)
Lemma lstrip_spaces w s : forallb is_space w = true -> lstrip (w ++ s) = lstrip s.
Proof. induction w as [|c w IH]; cbn; [reflexivity|]. intros H. apply andb_prop in H. destruct H as [-> H]. auto. Qed.
Lemma lstrip_split s : exists w, forallb is_space w = true /\ s = w ++ lstrip s.
Proof.
  induction s as [|c s (w & W & E)]; [exists []; auto|]. cbn. destruct (is_space c) eqn:C.
  - exists (c :: w). cbn. rewrite C. split; [exact W|congruence].
  - exists []. auto.
Qed.
Lemma forallb_rev {A} (p : A -> bool) l : forallb p (rev l) = forallb p l.
Proof.
  induction l as [|a l IH]; [reflexivity|]. cbn. rewrite forallb_app, IH. cbn. rewrite andb_true_r. apply andb_comm.
Qed.
Lemma strip_left w s : forallb is_space w = true -> strip (w ++ s) = strip s.
Proof. intros H. unfold strip. rewrite lstrip_spaces by exact H. reflexivity. Qed.
Lemma lstrip_app s w : (exists c, In c s /\ is_space c = false) -> lstrip (s ++ w) = lstrip s ++ w.
Proof.
  induction s as [|c s IH]; cbn; intros (d & H & D); [destruct H|].
  destruct (is_space c) eqn:C; [|reflexivity]. apply IH. exists d. split; [|exact D]. destruct H as [->|H]; [congruence|exact H].
Qed.
Lemma lstrip_blank s : forallb is_space s = true -> lstrip s = [].
Proof. intros H. rewrite <- (app_nil_r s). rewrite lstrip_spaces by exact H. reflexivity. Qed.
Lemma strip_right s w : forallb is_space w = true -> strip (s ++ w) = strip s.
Proof.
  intros W. unfold strip. destruct (forallb is_space s) eqn:S.
  - rewrite (lstrip_blank s S). rewrite (lstrip_blank (s ++ w)); [reflexivity|]. rewrite forallb_app, S, W. reflexivity.
  - assert (X : exists c, In c s /\ is_space c = false).
    { clear W w. induction s as [|c s IH]; [discriminate|]. cbn in S. destruct (is_space c) eqn:C.
      - destruct (IH S) as (d & H & D). exists d. cbn. auto.
      - exists c. cbn. auto. }
    rewrite lstrip_app by exact X. rewrite rev_app_distr, lstrip_spaces by (rewrite forallb_rev; exact W). reflexivity.
Qed.
Lemma strip_split s : exists u v, forallb is_space u = true /\ forallb is_space v = true /\ s = u ++ strip s ++ v.
Proof.
  destruct (lstrip_split s) as (u & U & E). destruct (lstrip_split (rev (lstrip s))) as (v & V & E').
  exists u, (rev v). rewrite forallb_rev. split; [exact U|]. split; [exact V|].
  rewrite E at 1. f_equal. unfold strip. rewrite <- rev_app_distr, <- E', rev_involutive. reflexivity.
Qed.
Lemma spaces_no_op w : forallb is_space w = true -> no_op w.
Proof. intros H c Hc. apply space_not_op. rewrite forallb_forall in H. auto. Qed.
Lemma no_op_app a b : no_op (a ++ b) <-> no_op a /\ no_op b.
Proof.
  unfold no_op. split.
  - intros H. split; intros c Hc; apply H, in_or_app; auto.
  - intros [H1 H2] c Hc. apply in_app_or in Hc. destruct Hc; auto.
Qed.
Lemma no_op_strip s : no_op (strip s) <-> no_op s.
Proof.
  destruct (strip_split s) as (u & v & U & V & E). split; intros H.
  - rewrite E. rewrite !no_op_app. auto using spaces_no_op.
  - rewrite E in H. rewrite !no_op_app in H. tauto.
Qed.

Lemma one_line_dot s : one_line s <-> forallb dot s = true.
Proof.
  unfold one_line, dot. rewrite forallb_forall. split; intros H c Hc; specialize (H c Hc).
  - apply negb_true_iff, Nat.eqb_neq. exact H.
  - apply negb_true_iff, Nat.eqb_neq in H. exact H.
Qed.

(** The matches of the pattern, decomposed. *)
Lemma first_match s y : one_line s -> hd_error (pattern_matches s) = Some y ->
  exists l1 m1 l2 w m3 w' g3,
    plus_of star_lazy dot s = l1 ++ m1 :: l2 /\
    (forall z, In z l1 -> forall w op w' g, snd z = w ++ op ++ w' ++ g -> forallb is_space w = true ->
       In op valid_operators -> forallb is_space w' = true -> g <> [] -> False) /\
    snd m1 = w ++ fst m3 ++ w' ++ g3 /\ forallb is_space w = true /\ forallb is_space w' = true /\
    (exists k1 k2, one_of valid_operators (fst m3 ++ snd m3) = k1 ++ m3 :: k2 /\ snd m3 = w' ++ g3 /\ 
       forall z, In z k1 -> snd z = []) /\
    g3 <> [] /\ y = (fst m1, fst m3, g3).
Proof.
  intros L H. unfold pattern_matches in H. apply hd_flat_map in H.
  destruct H as (l1 & m1 & l2 & E1 & N1 & H). apply hd_flat_map in H.
  destruct H as (j1 & m2 & j2 & E2 & _ & H). apply hd_flat_map in H.
  destruct H as (k1 & m3 & k2 & E3 & N3 & H). apply hd_flat_map in H.
  destruct H as (i1 & m4 & i2 & E4 & _ & H).
  assert (I1 : In m1 (plus_of star_lazy dot s)) by (rewrite E1; apply in_or_app; right; left; reflexivity).
  assert (I2 : In m2 (star_greedy is_space (snd m1))) by (rewrite E2; apply in_or_app; right; left; reflexivity).
  assert (I3 : In m3 (one_of valid_operators (snd m2))) by (rewrite E3; apply in_or_app; right; left; reflexivity).
  assert (I4 : In m4 (star_greedy is_space (snd m3))) by (rewrite E4; apply in_or_app; right; left; reflexivity).
  apply plus_lazy_in in I1. destruct I1 as (S1 & _ & NE1). apply star_greedy_in in I2. destruct I2 as (S2 & W2).
  apply one_of_in in I3. destruct I3 as (V3 & S3). apply star_greedy_in in I4. destruct I4 as (S4 & W4).
  assert (Ls : forallb dot s = true) by (apply one_line_dot; exact L).
  assert (D4 : forallb dot (snd m4) = true).
  { rewrite S1, S2, S3, S4 in Ls. rewrite !forallb_app in Ls.
    repeat (apply andb_prop in Ls; destruct Ls as [_ Ls]). exact Ls. }
  assert (G : snd m4 <> []).
  { intros G. rewrite G in H. discriminate. }
  pose proof (plus_greedy_all dot (snd m4) G D4) as P.
  destruct (plus_of star_greedy dot (snd m4)) as [|m5 i3]; [discriminate|]. injection P as ->. cbn in H. injection H as <-.
  exists l1, m1, l2, (fst m2), m3, (fst m4), (snd m4).
  split; [exact E1|]. split.
  { intros z Hz w op w' g Sz W O W' Hg. specialize (N1 z Hz).
    assert (Dz : forallb dot g = true).
    { assert (Iz : In z (plus_of star_lazy dot s)) by (rewrite E1; apply in_or_app; left; exact Hz).
      apply plus_lazy_in in Iz. destruct Iz as (Iz & _). rewrite Iz, Sz in Ls. rewrite !forallb_app in Ls.
      repeat (apply andb_prop in Ls; destruct Ls as [_ Ls]). exact Ls. }
    revert N1. apply (flat_map_nonempty _ _ (w, op ++ w' ++ g)); [rewrite Sz; apply star_greedy_intro; exact W|].
    apply (flat_map_nonempty _ _ (op, w' ++ g)).
    { cbn [fst snd]. unfold one_of. apply in_flat_map. exists op. split; [exact O|].
      rewrite (proj2 (strip_prefix_spec op (op ++ w' ++ g) (w' ++ g)) eq_refl). left. reflexivity. }
    apply (flat_map_nonempty _ _ (w', g)); [cbn; apply star_greedy_intro; exact W'|].
    cbn. pose proof (plus_greedy_all dot g Hg Dz) as P. destruct (plus_of star_greedy dot g); discriminate. }
  split; [rewrite S2, S3, S4; reflexivity|]. split; [exact W2|]. split; [exact W4|]. split.
  { exists k1, k2. split; [transitivity (one_of valid_operators (snd m2)); [f_equal; symmetry; exact S3|exact E3]|]. split; [exact S4|].
    intros z Hz. specialize (N3 z Hz). destruct (snd z) as [|c t] eqn:Z; [reflexivity|exfalso].
    revert N3. apply (flat_map_nonempty _ _ ([], c :: t)); [apply star_greedy_none|].
    cbn. assert (C : dot c = true).
    { assert (Iz : In z (one_of valid_operators (snd m2))) by (rewrite E3; apply in_or_app; left; exact Hz).
      apply one_of_in in Iz. destruct Iz as (_ & Iz). rewrite S1, S2, Iz, Z in Ls. rewrite !forallb_app in Ls.
      do 3 (apply andb_prop in Ls; destruct Ls as [_ Ls]). cbn in Ls. apply andb_prop in Ls. tauto. }
    rewrite C. pose proof (star_greedy_none dot t) as Q. destruct (star_greedy dot t); [destruct Q|discriminate]. }
  split; [exact G|reflexivity].
Qed.

Lemma first_op_unique a x t a' x' t' : no_op a -> no_op a' -> op_char x = true -> op_char x' = true ->
  a ++ x :: t = a' ++ x' :: t' -> a = a' /\ x = x' /\ t = t'.
Proof.
  revert a'. induction a as [|c a IH]; intros [|c' a'] N N' X X' E; cbn in E.
  - injection E as -> ->. auto.
  - injection E as <- _. rewrite (N' x) in X by (left; reflexivity). discriminate.
  - injection E as -> _. rewrite (N x') in X' by (left; reflexivity). discriminate.
  - injection E as -> E. apply IH in E; auto.
    + destruct E as (-> & -> & ->). auto.
    + intros d Hd. apply N. right. exact Hd.
    + intros d Hd. apply N'. right. exact Hd.
Qed.

(** A line with exactly one operator between two non-empty sides is split there. *)
Lemma parse_split a w b : one_line (a ++ w ++ b) -> In w valid_operators -> a <> [] -> b <> [] -> no_op a -> no_op b ->
  parse_expression (a ++ w ++ b) = Ok (strip a, w, strip b).
Proof.
  intros L O A B NA NB. unfold parse_expression.
  assert (Ds : forallb dot (a ++ w ++ b) = true) by (apply one_line_dot; exact L).
  assert (Da : forallb dot a = true) by (rewrite forallb_app in Ds; apply andb_prop in Ds; tauto).
  assert (Ia : In (a, w ++ b) (plus_of star_lazy dot (a ++ w ++ b))) by (apply plus_lazy_intro; assumption).
  assert (P : pattern_matches (a ++ w ++ b) <> []).
  { apply (flat_map_nonempty _ _ (a, w ++ b) Ia). cbn [fst snd].
    apply (flat_map_nonempty _ _ ([], w ++ b)); [apply star_greedy_none|]. cbn [fst snd].
    apply (flat_map_nonempty _ _ (w, b)).
    { destruct (one_of_op w b O NB B) as (k & ->). left. reflexivity. }
    cbn [fst snd]. apply (flat_map_nonempty _ _ ([], b)); [apply star_greedy_none|]. cbn [fst snd].
    assert (Db : forallb dot b = true) by (rewrite !forallb_app in Ds; do 2 (apply andb_prop in Ds; destruct Ds as [_ Ds]); exact Ds).
    pose proof (plus_greedy_all dot b B Db) as Q. destruct (plus_of star_greedy dot b); discriminate. }
  destruct (pattern_matches (a ++ w ++ b)) as [|y k] eqn:E; [congruence|clear P].
  assert (H : hd_error (pattern_matches (a ++ w ++ b)) = Some y) by (rewrite E; reflexivity).
  apply first_match in H; [|exact L].
  destruct H as (l1 & m1 & l2 & v & m3 & v' & g3 & E1 & N1 & S1 & V & V' & (k1 & k2 & E3 & S3 & N3) & G & ->).
  assert (Im : In m1 (plus_of star_lazy dot (a ++ w ++ b))) by (rewrite E1; apply in_or_app; right; left; reflexivity).
  apply plus_lazy_in in Im. destruct Im as (Sm & _ & Nm).
  (* the lazily matched prefix ends inside [a] *)
  assert (Len : length (fst m1) <= length a).
  { rewrite E1 in Ia. apply in_app_or in Ia. destruct Ia as [Ia|[->|Ia]].
    - exfalso. apply (N1 _ Ia [] w [] b); auto.
    - cbn. lia.
    - pose proof (plus_lazy_order dot _ l1 m1 l2 _ E1 Ia). cbn in H. lia. }
  assert (exists a2, a = fst m1 ++ a2 /\ a2 ++ w ++ b = snd m1) as (a2 & -> & Ea2).
  { clear - Sm Len. revert Sm Len. generalize (fst m1) (snd m1) (w ++ b). clear. intros g r t. revert a.
    induction g as [|c g IH]; intros a E L; cbn in *; [exists a; auto|].
    destruct a as [|d a]; cbn in *; [lia|]. injection E as -> E. destruct (IH a E) as (a2 & -> & E2); [lia|]. exists a2. auto. }
  apply no_op_app in NA. destruct NA as [Ng N2].
  assert (O3 : In (fst m3) valid_operators).
  { assert (I3 : In m3 (one_of valid_operators (fst m3 ++ snd m3))) by (rewrite E3; apply in_or_app; right; left; reflexivity).
    apply one_of_in in I3. tauto. }
  rewrite S1 in Ea2. destruct (op_first w O) as (x & xt & Ew & X). destruct (op_first (fst m3) O3) as (x' & xt' & Ew' & X').
  rewrite Ew, Ew' in Ea2. cbn [app] in Ea2. apply first_op_unique in Ea2; auto using spaces_no_op.
  destruct Ea2 as (Ea & Ex & Et). subst a2 x'.
  assert (Eop : w ++ b = fst m3 ++ snd m3) by (rewrite Ew, Ew', S3; cbn; rewrite Et; reflexivity).
  destruct (one_of_op w b O NB B) as (k' & Ek). rewrite <- Eop, Ek in E3.
  assert (m3 = (w, b)) as ->.
  { destruct k1 as [|z k1]; cbn in E3; [congruence|]. injection E3 as <- _.
    specialize (N3 _ (or_introl eq_refl)). cbn in N3. congruence. }
  cbn [fst snd] in *. subst b.
  rewrite (strip_right _ v V), (strip_left _ _ V').
  replace (existsb _ valid_operators) with false.
  2:{ symmetry. apply check_ops. rewrite !no_op_strip. apply no_op_app in NB. tauto. }
  destruct (text_in_spec w valid_operators) as [_|Q]; [reflexivity|tauto].
Qed.

(** Whatever is returned is such a split. *)
Lemma parse_sound s l w r : one_line s -> parse_expression s = Ok (l, w, r) ->
  exists a b, s = a ++ w ++ b /\ In w valid_operators /\ a <> [] /\ b <> [] /\ no_op a /\ no_op b /\ l = strip a /\ r = strip b.
Proof.
  intros L H. unfold parse_expression in H. destruct (pattern_matches s) as [|y k] eqn:E; [discriminate|].
  assert (P : hd_error (pattern_matches s) = Some y) by (rewrite E; reflexivity).
  apply first_match in P; [|exact L].
  destruct P as (l1 & m1 & l2 & v & m3 & v' & g3 & E1 & N1 & S1 & V & V' & (k1 & k2 & E3 & S3 & N3) & G & ->).
  assert (Im : In m1 (plus_of star_lazy dot s)) by (rewrite E1; apply in_or_app; right; left; reflexivity).
  apply plus_lazy_in in Im. destruct Im as (Sm & _ & Nm).
  destruct (existsb _ valid_operators) eqn:C; [discriminate|]. apply check_ops in C. rewrite !no_op_strip in C.
  destruct (text_in_spec (fst m3) valid_operators) as [O|]; [|discriminate]. cbn in H. injection H as <- <- <-.
  exists (fst m1 ++ v), (v' ++ g3). rewrite Sm, S1. rewrite <- !app_assoc. split; [reflexivity|]. split; [exact O|].
  split. { intros X. apply app_eq_nil in X. tauto. }
  split. { intros X. apply app_eq_nil in X. tauto. }
  rewrite !no_op_app. split; [split; [tauto|apply spaces_no_op; exact V]|].
  split; [split; [apply spaces_no_op; exact V'|tauto]|].
  rewrite (strip_right _ v V), (strip_left v' _ V'). auto.
Qed.

Lemma parse_error s e : parse_expression s = Err e -> e = ValueError.
Proof.
  unfold parse_expression. destruct (pattern_matches s) as [|[[g1 op] g3] k]; [congruence|].
  destruct (existsb _ _); [congruence|]. destruct (negb _); congruence.
Qed.

(** Everything else is rejected. *)
Lemma parse_reject s : one_line s ->
  (forall a w b, s = a ++ w ++ b -> In w valid_operators -> a <> [] -> b <> [] -> ~ (no_op a /\ no_op b)) ->
  parse_expression s = Err ValueError.
Proof.
  intros L H. destruct (parse_expression s) as [[[l w] r]|e] eqn:E.
  - apply parse_sound in E; [|exact L]. destruct E as (a & b & -> & O & A & B & NA & NB & _).
    destruct (H a w b eq_refl O A B); auto.
  - apply parse_error in E. congruence.
Qed.
