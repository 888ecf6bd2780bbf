(** Property C117: contractions of general tensors by commands made of letters. *)
From Verif Require Import Prelude OField ParallelModel KernModel KernProofs CollModel CollSpec CollProofs EinsumModel.

(** ** Labels *)
Lemma lookup_app e e' l : (forall p, In p e -> fst p <> l) -> lookup (e ++ e') l = lookup e' l.
Proof.
  induction e as [|p e IH]; intros H; [reflexivity|]. unfold lookup in *. cbn [app find]. destruct (Nat.eqb_spec (fst p) l) as [E|_]; [destruct (H p (or_introl eq_refl) E)|].
  apply IH. intros q Hq. apply H. right. exact Hq.
Qed.
Lemma combine_fst {A B} (l : list A) (k : list B) p : In p (combine l k) -> In (fst p) l.
Proof. destruct p as [x y]. intros H. apply in_combine_l in H. exact H. Qed.
Lemma lookup_combine L : forall c e, NoDup L -> length L = length c -> map (lookup (combine L c ++ e)) L = c.
Proof.
  induction L as [|l L IH]; intros [|x c] e N E; try discriminate E; [reflexivity|]. inversion N as [|? ? Nl NL]; subst. cbn [map combine app]. f_equal.
  - unfold lookup. cbn [find fst]. rewrite Nat.eqb_refl. reflexivity.
  - etransitivity; [|apply (IH c e NL); cbn in E; lia]. apply map_ext_in. intros k Hk. unfold lookup at 1. cbn [find fst]. destruct (Nat.eqb_spec l k) as [->|_]; [contradiction|reflexivity].
Qed.
Lemma lookup_second L c e ls : (forall l, In l ls -> ~ In l L) -> map (lookup (combine L c ++ e)) ls = map (lookup e) ls.
Proof. intros H. apply map_ext_in. intros l Hl. apply lookup_app. intros p Hp E. apply (H l Hl). rewrite <- E. apply combine_fst in Hp. exact Hp. Qed.
Lemma index_ok e t sh : inside sh (map (lookup e) t) -> index e t sh = map (lookup e) t.
Proof.
  revert sh. induction t as [|l t IH]; intros sh H; inversion H as [|x d ? sh' Hd H']; subst; [reflexivity|]. unfold index in *. cbn [combine map fst snd]. rewrite IH by exact H'.
  f_equal. destruct (Nat.eqb_spec d 1) as [->|_]; [lia|reflexivity].
Qed.
Lemma filter_all {A} (f : A -> bool) l : (forall x, In x l -> f x = true) -> filter f l = l.
Proof. induction l as [|x l IH]; intros H; [reflexivity|]. cbn. rewrite (H x (or_introl eq_refl)), IH; [reflexivity|]. intros y Hy. apply H. right. exact Hy. Qed.
Lemma filter_no {A} (f : A -> bool) l : (forall x, In x l -> f x = false) -> filter f l = [].
Proof. induction l as [|x l IH]; intros H; [reflexivity|]. cbn. rewrite (H x (or_introl eq_refl)), IH; [reflexivity|]. intros y Hy. apply H. right. exact Hy. Qed.
Lemma letter_iff c : letter c = true <-> 65 <= c < 91 \/ 97 <= c < 123.
Proof.
  unfold letter. rewrite existsb_exists. unfold alphabet. split.
  - intros (x & H & E). apply Nat.eqb_eq in E. subst x. apply in_app_or in H. rewrite !in_seq in H. lia.
  - intros H. exists c. split; [|apply Nat.eqb_refl]. apply in_or_app. rewrite !in_seq. lia.
Qed.
Lemma count_app l a b : count l (a ++ b) = count l a + count l b.
Proof. apply count_occ_app. Qed.
Lemma count_seq l a n : count l (seq a n) = if (a <=? l) && (l <? a + n) then 1 else 0.
Proof.
  revert a. induction n as [|n IH]; intros a; cbn [seq].
  - destruct (Nat.leb_spec a l), (Nat.ltb_spec l (a + 0)); cbn; try reflexivity. lia.
  - unfold count in *. cbn [count_occ]. rewrite IH.
    destruct (Nat.eq_dec a l); destruct (Nat.leb_spec (S a) l), (Nat.ltb_spec l (S a + n)), (Nat.leb_spec a l), (Nat.ltb_spec l (a + S n)); cbn [andb]; lia.
Qed.
Lemma count_one l x : count l [x] = if x =? l then 1 else 0.
Proof. unfold count. cbn. destruct (Nat.eq_dec x l), (Nat.eqb_spec x l); congruence. Qed.
Lemma map_repeat_ {A B} (f : A -> B) (l : list A) v : (forall x, In x l -> f x = v) -> map f l = repeat v (length l).
Proof. induction l as [|x l IH]; intros H; [reflexivity|]. cbn. rewrite (H x (or_introl eq_refl)), IH; [reflexivity|]. intros y Hy. apply H. right. exact Hy. Qed.
Lemma inside_length sh c : inside sh c -> length c = length sh.
Proof. induction 1; cbn; congruence. Qed.

Lemma free_used l ls : In l (free ls) -> 1 <= count l ls.
Proof. unfold free. generalize alphabet. intros al H. apply filter_In in H. destruct H as [_ H]. apply Nat.eqb_eq in H. lia. Qed.
Lemma summed_used l ls : In l (summed ls) -> 1 <= count l ls.
Proof. unfold summed. generalize alphabet. intros al H. apply filter_In in H. destruct H as [_ H]. apply Nat.ltb_lt in H. lia. Qed.

Section P.
Context {F : ofield}.
Add Field EinF : (of_field F).
Local Notation arr := (ndarray F).

Lemma occ_labels terms : forall ops : list arr, matches terms ops = true -> map fst (occurrences terms ops) = concat terms.
Proof.
  induction terms as [|t ts IH]; intros [|o os] H; try discriminate H; [reflexivity|]. cbn [matches] in H. apply andb_true_iff in H. destruct H as [L H]. apply Nat.eqb_eq in L.
  cbn [occurrences concat]. rewrite map_app, IH by exact H. f_equal. unfold ndim in L. revert L. generalize (shape o). clear. induction t as [|l t IH]; intros [|d sh] L; try discriminate L; [reflexivity|]. cbn. f_equal. apply IH. cbn in L. lia.
Qed.
Lemma dim_ok (occ : EinsumModel.env) want l : (forall p, In p occ -> snd p = want (fst p)) -> In l (map fst occ) -> dim occ l = want l.
Proof.
  intros W H. unfold dim. destruct (find _ occ) as [p|] eqn:E.
  - apply find_some in E. destruct E as [Hp E]. apply andb_true_iff in E. destruct E as [E _]. apply Nat.eqb_eq in E. rewrite <- E. apply W, Hp.
  - apply in_map_iff in H. destruct H as (p & <- & Hp). pose proof (find_none _ _ E p Hp) as X. cbn in X. rewrite Nat.eqb_refl in X. cbn in X. rewrite <- (W p Hp). destruct (Nat.eqb_spec (snd p) 1); [congruence|discriminate].
Qed.
Lemma contract_ext fs ss size want terms (ops : list arr) : map size fs = map want fs -> map size ss = map want ss -> contract fs ss size terms ops = contract fs ss want terms ops.
Proof. intros E E'. unfold contract. rewrite E, E'. reflexivity. Qed.
(** What [einsum] returns if all axes with the same label have the same length. *)
Lemma einsum_ok terms (ops : list arr) want : forallb letter (concat terms) = true -> matches terms ops = true ->
  (forall p, In p (occurrences terms ops) -> snd p = want (fst p)) ->
  np_einsum terms ops = Ok (contract (free (concat terms)) (summed (concat terms)) want terms ops).
Proof.
  intros L M W.
  assert (Used : forall l, 1 <= count l (concat terms) -> dim (occurrences terms ops) l = want l).
  { intros l H. apply dim_ok; [exact W|]. rewrite occ_labels by exact M. apply (count_occ_In Nat.eq_dec). exact H. }
  assert (Fit : forallb (fun p => (snd p =? dim (occurrences terms ops) (fst p)) || (snd p =? 1)) (occurrences terms ops) = true).
  { apply forallb_forall. intros p Hp. rewrite (dim_ok _ want); [|exact W|apply in_map, Hp]. rewrite (W p Hp), Nat.eqb_refl. reflexivity. }
  assert (Ef : map (dim (occurrences terms ops)) (free (concat terms)) = map want (free (concat terms))).
  { apply map_ext_in. intros l Hl. apply Used, free_used, Hl. }
  assert (Es : map (dim (occurrences terms ops)) (summed (concat terms)) = map want (summed (concat terms))).
  { apply map_ext_in. intros l Hl. apply Used, summed_used, Hl. }
  rewrite <- (contract_ext _ _ _ _ _ _ Ef Es). unfold np_einsum. cbv zeta. rewrite L, M, Fit. cbn [andb].  reflexivity.
Qed.

(** ** Tensors in another frame *)
Lemma command_labels r : r <= 13 -> forallb letter (concat (command r)) = true /\ free (concat (command r)) = seq 97 r /\ summed (concat (command r)) = seq (97 + r) r.
Proof. intros H. do 14 (destruct r as [|r]; [split; [vm_compute; reflexivity|split; vm_compute; reflexivity]|]). lia. Qed.
Lemma command_letters r : 14 <= r -> forallb letter (concat (command r)) = false.
Proof.
  intros H. destruct (forallb letter _) eqn:E; [|reflexivity]. rewrite forallb_forall in E. exfalso.
  assert (S : In (97 + r + 13) (concat (command r))). { apply in_concat. exists (latinrange r (97 + r)). split; [unfold command; apply in_or_app; right; left; reflexivity|]. unfold latinrange. apply in_seq. lia. }
  apply E in S. apply letter_iff in S. lia.
Qed.
Lemma pairs_matches tl sl src (a Q : arr) : length tl = length sl -> ndim Q = 2 -> length src = ndim a ->
  matches (map (fun st => [snd st; fst st]) (combine sl tl) ++ [src]) (repeat Q (length tl) ++ [a]) = true.
Proof.
  revert sl. induction tl as [|t tl IH]; intros [|s sl] E HQ Ha; try discriminate E; cbn [combine map repeat length app matches fst snd].
  - rewrite Ha, Nat.eqb_refl. reflexivity.
  - rewrite HQ. apply IH; [cbn in E; lia|exact HQ|exact Ha].
Qed.
Lemma pairs_occ tl sl src (a Q : arr) p m n : length tl = length sl -> shape Q = [m; n] ->
  In p (occurrences (map (fun st => [snd st; fst st]) (combine sl tl) ++ [src]) (repeat Q (length tl) ++ [a])) ->
  (In (fst p) tl /\ snd p = m) \/ (In (fst p) sl /\ snd p = n) \/ In p (combine src (shape a)).
Proof.
  revert sl. induction tl as [|t tl IH]; intros [|s sl] E HQ; try discriminate E; cbn [combine map repeat length app occurrences fst snd].
  - rewrite app_nil_r. auto.
  - rewrite HQ. cbn [combine app]. intros [<-|[<-|H]]; cbn; auto. destruct (IH sl) as [[X Y]|[[X Y]|X]]; [cbn in E; lia|exact HQ|exact H| | |]; auto.
Qed.
Lemma pairs_value e tl sl src (a Q : arr) m n : length tl = length sl -> shape Q = [m; n] ->
  Forall (fun i => i < m) (map (lookup e) tl) -> Forall (fun i => i < n) (map (lookup e) sl) -> inside (shape a) (map (lookup e) src) ->
  value e (map (fun st => [snd st; fst st]) (combine sl tl) ++ [src]) (repeat Q (length tl) ++ [a]) =
  mul (weight (fun i j => at_ Q [i; j]) (map (lookup e) tl) (map (lookup e) sl)) (at_ a (map (lookup e) src)).
Proof.
  intros E HQ Ht Hs Ha. revert sl E Hs. induction tl as [|t tl IH]; intros [|s sl] E Hs; try discriminate E; cbn [combine map repeat length app value fst snd weight].
  - rewrite index_ok by exact Ha. ring.
  - cbn [map] in Ht, Hs. inversion Ht; subst. inversion Hs; subst. rewrite IH; [|assumption|cbn in E; lia|assumption].
    rewrite (index_ok e [t; s] (shape Q)); [cbn [map]; ring|]. rewrite HQ. repeat constructor; assumption.
Qed.
Lemma inside_repeat n r c : inside (repeat n r) c <-> length c = r /\ Forall (fun i => i < n) c.
Proof.
  unfold inside. split.
  - revert c. induction r as [|r IH]; intros c H; inversion H as [|x y c' sh Hx H']; subst; [split; [reflexivity|constructor]|]. destruct (IH _ H') as [X Y]. split; [cbn; congruence|constructor; assumption].
  - intros [<- H]. induction H; cbn; constructor; assumption.
Qed.

(** The rule of transformation, for a matrix that need not be square. *)
Lemma transform_rule r (a Q : arr) m n : r <= 13 -> shape a = repeat n r -> shape Q = [m; n] ->
  exists res, np_einsum (command r) (repeat Q r ++ [a]) = Ok res /\ shape res = repeat m r /\
  forall c, inside (repeat m r) c -> at_ res c = rule n (fun i j => at_ Q [i; j]) (at_ a) c.
Proof.
  intros Hr Ha HQ. destruct (command_labels r Hr) as (L & Ff & Fs). set (tl := seq 97 r). set (sl := seq (97 + r) r).
  assert (Lt : length tl = r) by apply seq_length. assert (Ls : length sl = r) by apply seq_length.
  assert (Ec : command r = map (fun st => [snd st; fst st]) (combine sl tl) ++ [sl]) by reflexivity.
  assert (ER : repeat Q r = repeat Q (length tl)) by (rewrite Lt; reflexivity).
  assert (M : matches (command r) (repeat Q r ++ [a]) = true).
  { rewrite Ec, ER. apply pairs_matches; unfold ndim; [congruence|rewrite HQ; reflexivity|rewrite Ha, repeat_length; exact Ls]. }
  pose proof (einsum_ok (command r) (repeat Q r ++ [a]) (fun l => if l <? 97 + r then m else n) L M) as E.
  rewrite Ff, Fs in E. fold tl sl in E. clear L Ff Fs. eexists. split; [apply E|split].
  { intros p Hp. rewrite Ec, ER in Hp. apply (pairs_occ tl sl sl a Q p m n) in Hp; [|congruence|exact HQ].
    destruct Hp as [[Hp Hd]|[[Hp Hd]|Hp]].
    - apply in_seq in Hp. destruct (Nat.ltb_spec (fst p) (97 + r)); [exact Hd|lia].
    - apply in_seq in Hp. destruct (Nat.ltb_spec (fst p) (97 + r)); [lia|exact Hd].
    - destruct p as [l d]. pose proof (in_combine_l _ _ _ _ Hp) as X. apply in_combine_r in Hp. rewrite Ha in Hp. apply repeat_spec in Hp. apply in_seq in X. cbn [fst snd]. destruct (Nat.ltb_spec l (97 + r)); [lia|exact Hp]. }
  { cbn [contract shape]. rewrite (map_repeat_ _ tl m), Lt; [reflexivity|]. intros l Hl. apply in_seq in Hl. destruct (Nat.ltb_spec l (97 + r)); [reflexivity|lia]. }
  cbn [contract at_].
  intros c Hc. unfold rule. apply inside_repeat in Hc. destruct Hc as [Hl Hc].
  assert (Es : map (fun l => if l <? 97 + r then m else n) sl = repeat n (length c)).
  { rewrite (map_repeat_ _ sl n), Ls; [congruence|]. intros l Hs. apply in_seq in Hs. destruct (Nat.ltb_spec l (97 + r)); [lia|reflexivity]. }
  rewrite Es. f_equal. apply map_ext_in. intros s Hs. apply In_cells in Hs. apply inside_repeat in Hs. destruct Hs as [Hsl Hs].
  set (e := combine tl c ++ combine sl s).
  assert (Et : map (lookup e) tl = c) by (apply lookup_combine; [apply seq_NoDup|congruence]).
  assert (Esl : map (lookup e) sl = s).
  { unfold e. rewrite lookup_second. 2: { intros l H1 H2. apply in_seq in H1. apply in_seq in H2. lia. }
    rewrite <- (app_nil_r (combine sl s)). apply lookup_combine; [apply seq_NoDup|congruence]. }
  rewrite Ec, ER. rewrite (pairs_value e tl sl sl a Q m n); rewrite ?Et, ?Esl; try reflexivity; try assumption; [congruence|]. rewrite Ha. apply inside_repeat. split; [congruence|exact Hs].
Qed.

(** ** The dictionary *)
Lemma after_ok (calls : list (nat * arr * arr)) r c : after calls r = Some c -> c = command r.
Proof.
  unfold after. assert (G : forall m : cache, (forall r c, m r = Some c -> c = command r) -> forall r c, fold_left (fun m c => snd (transform_components m (fst (fst c)) (snd (fst c)) (snd c))) calls m r = Some c -> c = command r); [|apply G; discriminate].
  induction calls as [|[[k a] Q] calls IH]; intros m Hm; [exact Hm|]. cbn [fold_left fst snd]. apply IH. intros k' c'. unfold transform_components. cbv zeta. destruct (m k) as [c0|] eqn:E; [apply Hm|].
  destruct (np_einsum _ _) as [x|err]; cbn [snd]; [|apply Hm]. destruct (Nat.eqb_spec k' k) as [->|]; [congruence|apply Hm].
Qed.
Lemma transform_any (calls : list (nat * arr * arr)) r (a Q : arr) : fst (transform_components (after calls) r a Q) = np_einsum (command r) (repeat Q r ++ [a]).
Proof.
  unfold transform_components. cbv zeta. destruct (after calls r) as [c|] eqn:E; [apply after_ok in E; subst; reflexivity|]. destruct (np_einsum _ _); reflexivity.
Qed.

(** ** The dot product *)
Lemma seq_split a p n : p < n -> seq a n = seq a p ++ (a + p) :: seq (S (a + p)) (n - S p).
Proof. intros H. replace n with (p + S (n - S p)) at 1 by lia. rewrite seq_app. reflexivity. Qed.
(** Python's index: a negative number counts from the end. *)
Definition axis_of (r : nat) (z : Z) (p : nat) : Prop := p < r /\ (z = Z.of_nat p \/ z = (Z.of_nat p - Z.of_nat r)%Z).
Lemma set_item_ok a n z p x : axis_of n z p -> set_item (seq a n) z x = Ok (seq a p ++ x :: seq (S (a + p)) (n - S p)).
Proof.
  intros [Hp Hz]. unfold set_item. rewrite seq_length. cbv zeta.
  assert (E : (if (z <? 0)%Z then (z + Z.of_nat n)%Z else z) = Z.of_nat p) by (destruct (Z.ltb_spec z 0); lia). rewrite E.
  destruct (Z.leb_spec 0 (Z.of_nat p)); [|lia]. destruct (Z.ltb_spec (Z.of_nat p) (Z.of_nat n)); [|lia]. cbn [andb]. rewrite Nat2Z.id. do 2 f_equal.
  - rewrite (seq_split a p n Hp), firstn_app, seq_length, Nat.sub_diag. cbn [firstn]. rewrite app_nil_r. rewrite <- (seq_length p a) at 1. apply firstn_all.
  - f_equal. rewrite (seq_split a p n Hp). replace (S p) with (length (seq a p ++ [a + p])) at 1 by (rewrite app_length, seq_length; cbn; lia).
    change ((a + p) :: seq (S (a + p)) (n - S p)) with ([a + p] ++ seq (S (a + p)) (n - S p)). rewrite app_assoc, skipn_app, Nat.sub_diag, skipn_all. reflexivity.
Qed.
Lemma set_item_err a n z x : ~ (exists p, axis_of n z p) -> set_item (seq a n) z x = Err IndexError.
Proof.
  intros H. unfold set_item. rewrite seq_length. cbv zeta. destruct (Z.leb_spec 0 (if (z <? 0)%Z then (z + Z.of_nat n)%Z else z)) as [A|A]; [|reflexivity].
  destruct (Z.ltb_spec (if (z <? 0)%Z then (z + Z.of_nat n)%Z else z) (Z.of_nat n)) as [B|B]; [|reflexivity]. exfalso. apply H.
  exists (Z.to_nat (if (z <? 0)%Z then (z + Z.of_nat n)%Z else z)). unfold axis_of. destruct (Z.ltb_spec z 0); lia.
Qed.

(** The labels of the two arrays, with the axes [p] and [q] contracted. *)
Section Labels.
Variables ra rb p q : nat.
Hypotheses (Hp : p < ra) (Hq : q < rb) (Hr : ra + rb <= 25).
Definition ia := seq 97 p ++ (97 + ra + rb) :: seq (S (97 + p)) (ra - S p).
Definition ib := seq (97 + ra) q ++ (97 + ra + rb) :: seq (S (97 + ra + q)) (rb - S q).
Definition fa := seq 97 p ++ seq (S (97 + p)) (ra - S p).
Definition fb := seq (97 + ra) q ++ seq (S (97 + ra + q)) (rb - S q).
Lemma count_in l a n : a <= l < a + n -> count l (seq a n) = 1.
Proof. intros H. rewrite count_seq. destruct (Nat.leb_spec a l), (Nat.ltb_spec l (a + n)); cbn [andb]; lia. Qed.
Lemma count_out l a n : l < a \/ a + n <= l -> count l (seq a n) = 0.
Proof. intros H. rewrite count_seq. destruct (Nat.leb_spec a l), (Nat.ltb_spec l (a + n)); cbn [andb]; lia. Qed.
Lemma count_same l x : x = l -> count l [x] = 1.
Proof. intros H. rewrite count_one. destruct (Nat.eqb_spec x l); lia. Qed.
Lemma count_differ l x : x <> l -> count l [x] = 0.
Proof. intros H. rewrite count_one. destruct (Nat.eqb_spec x l); lia. Qed.
Lemma count_labels l : count l (ia ++ ib) =
  count l (seq 97 p) + (count l [97 + ra + rb] + count l (seq (S (97 + p)) (ra - S p))) +
  (count l (seq (97 + ra) q) + (count l [97 + ra + rb] + count l (seq (S (97 + ra + q)) (rb - S q)))).
Proof.
  unfold ia, ib. rewrite !count_app.
  change ((97 + ra + rb) :: seq (S (97 + p)) (ra - S p)) with ([97 + ra + rb] ++ seq (S (97 + p)) (ra - S p)).
  change ((97 + ra + rb) :: seq (S (97 + ra + q)) (rb - S q)) with ([97 + ra + rb] ++ seq (S (97 + ra + q)) (rb - S q)).
  rewrite !count_app. reflexivity.
Qed.
Lemma alphabet_split : alphabet = seq 65 26 ++ seq 97 p ++ [97 + p] ++ seq (S (97 + p)) (ra - S p) ++ seq (97 + ra) q ++ [97 + ra + q] ++ seq (S (97 + ra + q)) (rb - S q) ++ [97 + ra + rb] ++ seq (S (97 + ra + rb)) (25 - ra - rb).
Proof.
  unfold alphabet. f_equal. assert (E : 26 = ra + (rb + S (25 - ra - rb))) by lia. pose proof (f_equal (seq 97) E) as E'. rewrite E'. rewrite seq_app, (seq_split 97 p ra Hp), <- !app_assoc. cbn [app]. do 3 f_equal.
  rewrite seq_app, (seq_split (97 + ra) q rb Hq), <- !app_assoc. reflexivity.
Qed.
Ltac side := intros l Hl; rewrite count_labels; first [apply in_seq in Hl|cbn [In] in Hl];
  repeat match goal with
  | |- context [count l (seq ?a ?n)] => first [rewrite (count_in l a n) by lia|rewrite (count_out l a n) by lia]
  | |- context [count l [?x]] => first [rewrite (count_same l x) by lia|rewrite (count_differ l x) by lia]
  end; reflexivity.
Lemma free_labels : free (ia ++ ib) = fa ++ fb.
Proof.
  unfold free. rewrite alphabet_split, !filter_app.
  rewrite (filter_no _ (seq 65 26)), (filter_all _ (seq 97 p)), (filter_no _ [97 + p]), (filter_all _ (seq (S (97 + p)) _)), (filter_all _ (seq (97 + ra) q)),
    (filter_no _ [97 + ra + q]), (filter_all _ (seq (S (97 + ra + q)) _)), (filter_no _ [97 + ra + rb]), (filter_no _ (seq (S (97 + ra + rb)) _)); [|side..].
  unfold fa, fb. cbn [app]. rewrite app_nil_r, <- app_assoc. reflexivity.
Qed.
Lemma summed_labels : summed (ia ++ ib) = [97 + ra + rb].
Proof.
  unfold summed. rewrite alphabet_split, !filter_app.
  rewrite (filter_no _ (seq 65 26)), (filter_no _ (seq 97 p)), (filter_no _ [97 + p]), (filter_no _ (seq (S (97 + p)) _)), (filter_no _ (seq (97 + ra) q)),
    (filter_no _ [97 + ra + q]), (filter_no _ (seq (S (97 + ra + q)) _)), (filter_all _ [97 + ra + rb]), (filter_no _ (seq (S (97 + ra + rb)) _)); [|side..].
  reflexivity.
Qed.
End Labels.

Lemma seqs_once a n b m : a + n <= b -> NoDup (seq a n ++ seq b m).
Proof.
  intros H. revert a H. induction n as [|n IH]; intros a H; [apply seq_NoDup|]. cbn [seq app]. constructor; [|apply IH; lia]. rewrite in_app_iff, !in_seq. lia.
Qed.
Lemma alphabet_once : NoDup alphabet.
Proof. apply seqs_once. lia. Qed.
Lemma map_split {A B} (f : A -> B) x y u v : map f (x ++ y) = u ++ v -> length x = length u -> map f x = u /\ map f y = v.
Proof.
  rewrite map_app. revert u. induction x as [|c x IH]; intros [|d u] E L; try discriminate L; [split; [reflexivity|exact E]|]. cbn in E, L. injection E as E0 E. destruct (IH u E) as [X Y]; [lia|]. cbn. split; [congruence|exact Y].
Qed.
Definition insert_at (p k : nat) (c : cell) : cell := firstn p c ++ k :: skipn p c.
Lemma insert_inside n r p k c : p < r -> k < n -> inside (repeat n (r - 1)) c -> inside (repeat n r) (insert_at p k c).
Proof.
  intros Hp Hk Hc. apply inside_repeat in Hc. destruct Hc as [L H]. apply inside_repeat. unfold insert_at. split.
  - rewrite app_length, firstn_length. cbn [length]. rewrite skipn_length. lia.
  - rewrite <- (firstn_skipn p c) in H. apply Forall_app in H. destruct H as [H1 H2]. apply Forall_app. split; [exact H1|constructor; assumption].
Qed.
Lemma insert_lookup e a p ic r k c : p < r -> length c = r - 1 -> map (lookup e) (seq a p ++ seq (S (a + p)) (r - S p)) = c -> lookup e ic = k ->
  map (lookup e) (seq a p ++ ic :: seq (S (a + p)) (r - S p)) = insert_at p k c.
Proof.
  intros Hp L E K. rewrite <- (firstn_skipn p c) in E. destruct (map_split _ _ _ _ _ E) as [E1 E2]; [rewrite seq_length, firstn_length; lia|].
  rewrite map_app. cbn [map]. rewrite E1, E2, K. reflexivity.
Qed.
Lemma contraction_rule ra rb (a b : arr) za zb p q n : ra + rb <= 25 -> axis_of ra za p -> axis_of rb zb q -> shape a = repeat n ra -> shape b = repeat n rb ->
  exists res, contraction ra rb a b za zb = Ok res /\ shape res = repeat n (ra - 1) ++ repeat n (rb - 1) /\
  forall ca cb, inside (repeat n (ra - 1)) ca -> inside (repeat n (rb - 1)) cb ->
    at_ res (ca ++ cb) = sum n (fun k => mul (at_ a (insert_at p k ca)) (at_ b (insert_at q k cb))).
Proof.
  intros Hr Ha Hb Sa Sb. pose proof (proj1 Ha) as Hp. pose proof (proj1 Hb) as Hq. unfold contraction, latinrange. cbv zeta.
  rewrite (set_item_ok _ _ _ _ _ Ha), (set_item_ok _ _ _ _ _ Hb). cbn [bind].
  fold (ia ra rb p) (ib ra rb q).
  assert (Ec : concat [ia ra rb p; ib ra rb q] = ia ra rb p ++ ib ra rb q) by (cbn [concat]; rewrite app_nil_r; reflexivity).
  assert (La : length (ia ra rb p) = ra) by (unfold ia; rewrite app_length; cbn [length]; rewrite !seq_length; lia).
  assert (Lb : length (ib ra rb q) = rb) by (unfold ib; rewrite app_length; cbn [length]; rewrite !seq_length; lia).
  assert (Lfa : length (fa ra p) = ra - 1) by (unfold fa; rewrite app_length, !seq_length; lia).
  assert (Lfb : length (fb ra rb q) = rb - 1) by (unfold fb; rewrite app_length, !seq_length; lia).
  pose proof (einsum_ok [ia ra rb p; ib ra rb q] [a; b] (fun _ => n)) as E. rewrite Ec in E. rewrite (free_labels ra rb p q Hp Hq Hr), (summed_labels ra rb p q Hp Hq Hr) in E.
  eexists. split; [apply E|split].
  - apply forallb_forall. intros l Hl. apply letter_iff. right. unfold ia, ib in Hl. apply in_app_or in Hl. destruct Hl as [Hl|Hl]; apply in_app_or in Hl; (destruct Hl as [Hl|[<-|Hl]]; [apply in_seq in Hl; lia|lia|apply in_seq in Hl; lia]).
  - cbn [matches]. unfold ndim. rewrite Sa, Sb, !repeat_length, La, Lb, !Nat.eqb_refl. reflexivity.
  - cbn [occurrences]. intros [l d] H. rewrite Sa, Sb in H. cbn [snd]. apply in_app_or in H. destruct H as [H|H]; [|apply in_app_or in H; destruct H as [H|[]]]; apply in_combine_r in H; apply repeat_spec in H; exact H.
  - cbn [contract shape]. rewrite map_app, !(map_repeat_ _ _ n) by reflexivity. rewrite Lfa, Lfb. reflexivity.
  - intros ca cb Hca Hcb. cbn [contract at_]. change (map (fun _ : nat => n) [97 + ra + rb]) with [n]. etransitivity; [apply suml_cells_cons|]. apply sum_ext. intros k Hk. cbn [cells map suml].
    set (e := combine (fa ra p ++ fb ra rb q) (ca ++ cb) ++ combine [97 + ra + rb] [k]).
    pose proof (proj1 (proj1 (inside_repeat _ _ _) Hca)) as Lca. pose proof (proj1 (proj1 (inside_repeat _ _ _) Hcb)) as Lcb.
    assert (N : NoDup (fa ra p ++ fb ra rb q)) by (rewrite <- (free_labels ra rb p q Hp Hq Hr); apply NoDup_filter, alphabet_once).
    assert (El : map (lookup e) (fa ra p ++ fb ra rb q) = ca ++ cb) by (apply lookup_combine; [exact N|rewrite !app_length; lia]).
    destruct (map_split _ _ _ _ _ El) as [Eca Ecb]; [lia|].
    assert (Ek : lookup e (97 + ra + rb) = k).
    { unfold e. rewrite lookup_app.
      - unfold lookup. cbn [combine find fst]. rewrite Nat.eqb_refl. reflexivity.
      - intros x Hx X. apply combine_fst in Hx. rewrite X in Hx. unfold fa, fb in Hx. rewrite !in_app_iff, !in_seq in Hx. lia. }
    assert (Ea : map (lookup e) (ia ra rb p) = insert_at p k ca) by (apply insert_lookup; [exact Hp|exact Lca|exact Eca|exact Ek]).
    assert (Eb : map (lookup e) (ib ra rb q) = insert_at q k cb) by (apply insert_lookup; [exact Hq|exact Lcb|exact Ecb|exact Ek]).
    cbn [value]. rewrite (index_ok e (ia ra rb p) (shape a)), (index_ok e (ib ra rb q) (shape b)).
    + rewrite Ea, Eb. ring.
    + rewrite Eb, Sb. apply insert_inside; assumption.
    + rewrite Ea, Sa. apply insert_inside; assumption.
Qed.
Lemma contraction_letters ra rb (a b : arr) za zb p q : 26 <= ra + rb -> axis_of ra za p -> axis_of rb zb q -> contraction ra rb a b za zb = Err ValueError.
Proof.
  intros Hr Ha Hb. unfold contraction, latinrange. cbv zeta. rewrite (set_item_ok _ _ _ _ _ Ha), (set_item_ok _ _ _ _ _ Hb). cbn [bind]. fold (ia ra rb p) (ib ra rb q).
  unfold np_einsum. destruct (forallb letter _) eqn:E; [|reflexivity]. rewrite forallb_forall in E. exfalso.
  assert (S : In (97 + ra + rb) (concat [ia ra rb p; ib ra rb q])) by (cbn [concat]; unfold ia; apply in_or_app; left; apply in_or_app; right; left; reflexivity).
  apply E, letter_iff in S. lia.
Qed.
Lemma pairs_last tl sl src (a Q : arr) x : length tl = length sl -> In x (combine src (shape a)) ->
  In x (occurrences (map (fun st => [snd st; fst st]) (combine sl tl) ++ [src]) (repeat Q (length tl) ++ [a])).
Proof.
  intros E H. revert sl E. induction tl as [|t tl IH]; intros [|s sl] E; try discriminate E; cbn [combine map repeat length app occurrences].
  - rewrite app_nil_r. exact H.
  - apply in_or_app. right. apply IH. cbn in E. lia.
Qed.
Lemma mismatch_rule r (a Q : arr) m k n : 1 <= r -> shape a = repeat n r -> shape Q = [m; k] -> k <> n -> k <> 1 -> n <> 1 ->
  np_einsum (command r) (repeat Q r ++ [a]) = Err ValueError.
Proof.
  intros Hr Ha HQ Kn K1 N1. unfold np_einsum. cbv zeta. set (occ := occurrences (command r) (repeat Q r ++ [a])).
  destruct (forallb _ occ) eqn:E; [|rewrite andb_false_r; reflexivity]. exfalso. rewrite forallb_forall in E.
  destruct r as [|r]; [lia|].
  assert (I1 : In (97 + S r, k) occ).
  { unfold occ, command, latinrange. cbv zeta. cbn [seq combine map app repeat occurrences fst snd]. apply in_or_app. left. rewrite HQ. cbn [combine]. right. left. reflexivity. }
  assert (I2 : In (97 + S r, n) occ).
  { unfold occ, command, latinrange. cbv zeta. assert (ER : repeat Q (S r) = repeat Q (length (seq 97 (S r)))) by (rewrite seq_length; reflexivity). rewrite ER. apply pairs_last; [rewrite !seq_length; reflexivity|].
    rewrite Ha. cbn [seq repeat combine]. left. reflexivity. }
  pose proof (E _ I1) as E1. pose proof (E _ I2) as E2. cbn [fst snd] in E1, E2. apply orb_true_iff in E1, E2. rewrite !Nat.eqb_eq in E1, E2. destruct E1, E2; congruence.
Qed.
End P.

(** ** Statements *)
(** Up to rank 13, whatever was transformed before. *)
Theorem C117_transform_partial : forall (F : ofield) (calls : list (nat * ndarray F * ndarray F)) (r : nat) (a Q : ndarray F) (m n : nat),
  1 <= r <= 13 -> shape a = repeat n r -> shape Q = [m; n] ->
  exists res, fst (transform_components (after calls) r a Q) = Ok res /\ shape res = repeat m r /\
  forall c, inside (repeat m r) c -> at_ res c = rule n (fun i j => at_ Q [i; j]) (at_ a) c.
Proof. intros. rewrite transform_any. apply transform_rule; [lia|assumption..]. Qed.
Print Assumptions C117_transform_partial.

(** REFUTED for higher ranks: the letters end. *)
Theorem C117_rank_refuted : forall (F : ofield) (calls : list (nat * ndarray F * ndarray F)) (r : nat) (a Q : ndarray F),
  14 <= r -> fst (transform_components (after calls) r a Q) = Err ValueError.
Proof. intros. rewrite transform_any. unfold np_einsum. rewrite command_letters by assumption. reflexivity. Qed.
Print Assumptions C117_rank_refuted.

(** The dot product of general tensors along the axes [p] and [q], which may be counted from the end: as documented, for ranks
    that sum up to at most 25; ValueError beyond, IndexError for axes that are not there. *)
Theorem C117_dot : forall (F : ofield) (ra rb : nat) (a b : ndarray F) (za zb : Z) (p q n : nat),
  ra + rb <= 25 -> axis_of ra za p -> axis_of rb zb q -> shape a = repeat n ra -> shape b = repeat n rb ->
  exists res, contraction ra rb a b za zb = Ok res /\ shape res = repeat n (ra - 1) ++ repeat n (rb - 1) /\
  forall ca cb, inside (repeat n (ra - 1)) ca -> inside (repeat n (rb - 1)) cb ->
    at_ res (ca ++ cb) = sum n (fun k => mul (at_ a (insert_at p k ca)) (at_ b (insert_at q k cb))).
Proof. intros F. exact contraction_rule. Qed.
Print Assumptions C117_dot.
Theorem C117_dot_errors : forall (F : ofield) (ra rb : nat) (a b : ndarray F) (za zb : Z),
  ((~ exists p, axis_of ra za p) \/ (~ exists q, axis_of rb zb q) -> contraction ra rb a b za zb = Err IndexError) /\
  ((exists p, axis_of ra za p) -> (exists q, axis_of rb zb q) -> 26 <= ra + rb -> contraction ra rb a b za zb = Err ValueError).
Proof.
  intros F ra rb a b za zb. split.
  - intros H. unfold contraction, latinrange. cbv zeta. destruct H as [H|H]; [rewrite (set_item_err _ _ _ _ H); reflexivity|].
    destruct (set_item (seq 97 ra) za (97 + ra + rb)) as [x|e] eqn:E; cbn [bind]; [rewrite (set_item_err _ _ _ _ H); reflexivity|].
    unfold set_item in E. cbv zeta in E. destruct (_ && _) in E; [discriminate E|injection E as <-; reflexivity].
  - intros (p & Hp) (q & Hq) H. apply (contraction_letters ra rb a b za zb p q H Hp Hq).
Qed.
Print Assumptions C117_dot_errors.

(** A matrix that does not fit raises, unless one of the lengths is one: then the single column is used for all. *)
Theorem C117_mismatch_partial : forall (F : ofield) (calls : list (nat * ndarray F * ndarray F)) (r : nat) (a Q : ndarray F) (m k n : nat),
  1 <= r -> shape a = repeat n r -> shape Q = [m; k] -> k <> n -> k <> 1 -> n <> 1 ->
  fst (transform_components (after calls) r a Q) = Err ValueError.
Proof. intros. rewrite transform_any. eapply mismatch_rule; eassumption. Qed.
Print Assumptions C117_mismatch_partial.
(** REFUTED: that a matrix with the wrong number of columns raises. *)
Definition z (n : Z) : Qc_ofield := of_Z n.
Definition eq_all (r : result (ndarray Qc_ofield)) (sh : list nat) (vs : list Z) : bool :=
  match r with
  | Ok x => (if list_eq_dec Nat.eq_dec (shape x) sh then true else false) && forallb (fun cv => eqb (at_ x (fst cv)) (z (snd cv))) (combine (cells sh) vs)
  | Err _ => false
  end.
Definition ex_a : ndarray Qc_ofield := ND [3] (fun c => z (Z.of_nat (S (nth 0 c 0)))).
Definition ex_Q : ndarray Qc_ofield := ND [3; 1] (fun c => z (Z.of_nat (S (nth 0 c 0)))).
Theorem C117_mismatch_refuted : exists a Q : ndarray Qc_ofield, shape a = [3] /\ shape Q = [3; 1] /\
  eq_all (fst (transform_components (after (F := Qc_ofield) []) 1 a Q)) [3] [6; 12; 18]%Z = true.
Proof. exists ex_a, ex_Q. split; [reflexivity|]. split; [reflexivity|]. vm_compute. reflexivity. Qed.
Print Assumptions C117_mismatch_refuted.

(** The commands of rank 2 ("ac,bd,cd") and of the product of ranks 3 and 2 along the last and the first axis ("abf,fe"); a tensor of
    rank 2 after one of rank 1; errors. *)
Definition ex_T : ndarray Qc_ofield := ND [2; 2] (fun c => z (Z.of_nat (2 * nth 0 c 0 + nth 1 c 0 + 1))).
Definition ex_R : ndarray Qc_ofield := ND [2; 2] (fun c => z (nth (2 * nth 0 c 0 + nth 1 c 0) [0; 1; -1; 0]%Z 0%Z)).
Definition ex_S : ndarray Qc_ofield := ND [2; 2; 2] (fun c => z (Z.of_nat (4 * nth 0 c 0 + 2 * nth 1 c 0 + nth 2 c 0))).
Example C117_met :
  command 2 = [[97; 99]; [98; 100]; [99; 100]] /\
  (bind (set_item (latinrange 3 97) (-1) 102) (fun ia => bind (set_item (latinrange 2 100) 0 102) (fun ib => Ok [ia; ib])) = Ok [[97; 98; 102]; [102; 101]]) /\
  eq_all (fst (transform_components (after [(1, ex_a, ex_Q); (2, ex_S, ex_R)]) 2 ex_T ex_R)) [2; 2] [4; -3; -2; 1]%Z = true /\
  eq_all (contraction 3 2 ex_S ex_T (-1) 0) [2; 2; 2] [3; 4; 11; 16; 19; 28; 27; 40]%Z = true /\
  contraction 3 2 ex_S ex_T 3 0 = Err IndexError /\ contraction 13 13 ex_S ex_T 3 0 = Err ValueError /\
  fst (transform_components (after (F := Qc_ofield) []) 14 ex_T ex_R) = Err ValueError.
Proof. repeat split; vm_compute; reflexivity. Qed.
