(** Proofs about the operators of the genetic algorithm. *)
From Verif Require Import Prelude OField GaModel GaSpec.

(** ** Population size *)
Lemma population_size_ok n : (0 < n)%Z ->
  exists m, population_size n = Ok m /\ (m mod 4 = 0)%Z /\ (n <= m < n + 4)%Z.
Proof.
  intros H. unfold population_size, odd.
  set (n1 := if negb (n mod 2 =? 0)%Z then (n + 1)%Z else n).
  assert (H1 : (n1 mod 2 = 0 /\ n <= n1 <= n + 1 /\ (n mod 2 = 0 -> n1 = n))%Z).
  { unfold n1. destruct (Z.eqb_spec (n mod 2) 0) as [E|E]; cbn [negb]; [lia|].
    assert (n mod 2 = 1)%Z by (pose proof (Z.mod_pos_bound n 2); lia).
    repeat split; try lia. rewrite Z.add_mod, H0 by lia. reflexivity. }
  clearbody n1. destruct H1 as (A1 & A2 & A3).
  assert (Q : Z.quot n1 2 = (n1 / 2)%Z) by (apply Z.quot_div_nonneg; lia). rewrite Q.
  set (q := (n1 / 2)%Z). assert (Hq : n1 = (2 * q)%Z) by (unfold q; pose proof (Z.div_mod n1 2); lia).
  set (n2 := if negb (q mod 2 =? 0)%Z then (n1 + 2)%Z else n1).
  assert (H2 : (n2 mod 4 = 0 /\ n1 <= n2 <= n1 + 2 /\ 4 <= n2)%Z).
  { unfold n2. pose proof (Z.div_mod q 2). destruct (Z.eqb_spec (q mod 2) 0) as [E|E]; cbn [negb].
    - assert (n1 = 4 * (q / 2))%Z by lia. split; [|lia]. rewrite H1, Z.mul_comm. apply Z.mod_mul. lia.
    - assert (q mod 2 = 1)%Z by (pose proof (Z.mod_pos_bound q 2); lia).
      assert (n1 + 2 = (q / 2 + 1) * 4)%Z by lia. split; [|lia]. rewrite H2. apply Z.mod_mul. lia. }
  clearbody n2. destruct H2 as (B1 & B2 & B3). rewrite B1. cbn [Z.eqb negb].
  destruct (Z.ltb_spec n2 4); [lia|]. exists n2. split; [reflexivity|]. split; [exact B1|].
  split; [lia|]. destruct (Z.eqb_spec (n mod 2) 0) as [E|E].
  - rewrite (A3 E) in *. pose proof (Z.div_mod n2 4). lia.
  - lia.
Qed.

Lemma population_size_reject n : (n <= 0)%Z -> population_size n = Err AssertionError.
Proof.
  intros H. unfold population_size, odd.
  set (n1 := if negb (n mod 2 =? 0)%Z then (n + 1)%Z else n).
  assert (H1 : (n1 <= 0 /\ n1 mod 2 = 0)%Z).
  { unfold n1. destruct (Z.eqb_spec (n mod 2) 0) as [E|E]; cbn [negb]; [lia|].
    assert (n mod 2 = 1)%Z by (pose proof (Z.mod_pos_bound n 2); lia).
    split; [|rewrite Z.add_mod, H0 by lia; reflexivity].
    destruct (Z.eq_dec n 0) as [->|]; [rewrite Z.mod_0_l in H0 by lia|]; lia. }
  set (n2 := if negb (Z.quot n1 2 mod 2 =? 0)%Z then (n1 + 2)%Z else n1).
  assert (H2 : (n2 < 4)%Z) by (unfold n2; destruct (negb (Z.quot n1 2 mod 2 =? 0)%Z); lia).
  clearbody n2. destruct (negb (n2 mod 4 =? 0)%Z); [reflexivity|].
  destruct (Z.ltb_spec n2 4); [reflexivity|lia].
Qed.

Section Ops.
Context {F : ofield}.
Add Field GaF : (of_field F).

(** ** The random monad *)
Lemma always_ret {A} (a : A) (Q : A -> Prop) : Q a -> always (ret (F := F) a) Q.
Proof. intros H r. exists a, r. split; [reflexivity|exact H]. Qed.

Lemma always_bind {A B} (m : M (F := F) A) (f : A -> M B) P Q :
  always m P -> (forall a, P a -> always (f a) Q) -> always (mbind m f) Q.
Proof.
  intros H1 H2 r. destruct (H1 r) as (a & r1 & E1 & Ha). destruct (H2 a Ha r1) as (b & r2 & E2 & Hb).
  exists b, r2. split; [|exact Hb]. unfold mbind. rewrite E1. exact E2.
Qed.

Lemma always_weaken {A} (m : M (F := F) A) (P Q : A -> Prop) :
  (forall a, P a -> Q a) -> always m P -> always m Q.
Proof. intros H1 H2 r. destruct (H2 r) as (a & r' & E & Ha). exists a, r'. auto. Qed.

Lemma always_lift {A} (x : result A) a (Q : A -> Prop) : x = Ok a -> Q a -> always (lift (F := F) x) Q.
Proof. intros -> H r. exists a, r. split; [reflexivity|exact H]. Qed.

Lemma always_true {A} (m : M (F := F) A) Q : always m Q -> always m (fun _ => True).
Proof. apply always_weaken. auto. Qed.

Lemma always_draw : always (draw_int (F := F)) (fun _ => True).
Proof. intros r. eexists _, _. split; [reflexivity|exact I]. Qed.

Lemma always_rand : always (rand (F := F)) (fun _ => True).
Proof. intros r. eexists _, _. split; [reflexivity|exact I]. Qed.

Lemma always_randint lo hi : lo < hi -> always (randint (F := F) lo hi) (fun x => lo <= x < hi).
Proof.
  intros H. unfold randint. destruct (Nat.leb_spec hi lo); [lia|].
  eapply always_bind; [apply always_draw|]. intros x _. apply always_ret.
  pose proof (Nat.mod_upper_bound x (hi - lo)). lia.
Qed.

Lemma always_repeatM {A} n (m : M (F := F) A) P : always m P ->
  always (repeatM n m) (fun l => length l = n /\ Forall P l).
Proof.
  intros H. induction n as [|n IH]; cbn [repeatM].
  - apply always_ret. auto.
  - eapply always_bind; [exact H|]. intros x Hx. eapply always_bind; [exact IH|].
    intros xs [H1 H2]. apply always_ret. cbn. auto.
Qed.

Lemma remove_at_perm {A} (l : list A) i d : i < length l -> Permutation l (nth i l d :: remove_at i l).
Proof.
  revert i. induction l as [|x l IH]; intros i H; [cbn in H; lia|]. destruct i as [|i]; cbn; [apply Permutation_refl|].
  rewrite (IH i) at 1 by (cbn in H; lia). apply perm_swap.
Qed.

(** Draws without replacement: the drawn elements and some rest make up the list. *)
Lemma always_choice k l : k <= length l ->
  always (choice (F := F) k l) (fun p => length p = k /\ exists rest, Permutation l (p ++ rest)).
Proof.
  revert l. induction k as [|k IH]; intros l H; cbn [choice].
  - apply always_ret. split; [reflexivity|]. exists l. apply Permutation_refl.
  - destruct l as [|d l']; [cbn in H; lia|]. set (l := d :: l') in *.
    eapply always_bind; [apply always_draw|]. intros x _.
    assert (Hi : x mod length l < length l) by (apply Nat.mod_upper_bound; discriminate).
    pose proof (remove_at_perm l (x mod length l) d Hi) as HP.
    eapply always_bind; [apply IH|].
    + apply Permutation_length in HP. cbn [length] in HP. lia.
    + intros p (Hp & rest & HR). apply always_ret. split; [cbn; lia|]. exists rest.
      eapply Permutation_trans; [exact HP|]. cbn. constructor. exact HR.
Qed.

(** ** Pairs *)
Definition in_pool (n : nat) (g : gen) : list nat := filter (fst g) (seq 0 n).

(** The generator invariant: [nPool] is the size before the last draw. *)
Definition gen_ok (n : nat) (g : gen) : Prop :=
  Nat.even (length (in_pool n g)) = true /\
  (snd g = length (in_pool n g) /\ 2 < snd g \/ snd g = length (in_pool n g) + 2).

Lemma filter_ext_in' {A} (p q : A -> bool) l : (forall x, In x l -> p x = q x) -> filter p l = filter q l.
Proof.
  induction l as [|x l IH]; intros H; cbn [filter]; [reflexivity|].
  rewrite (H x (or_introl eq_refl)), IH by (intros y Hy; apply H; right; exact Hy). reflexivity.
Qed.

Lemma filter_upd_false (p : nat -> bool) a l : NoDup l -> In a l -> p a = true ->
  Permutation (filter p l) (a :: filter (upd p a false) l).
Proof.
  intros ND Hin Ha. induction ND as [|x l Hx ND IH]; [destruct Hin|]. cbn [filter].
  unfold upd at 1. destruct (Nat.eqb_spec x a) as [->|Hne].
  - rewrite Ha. constructor. rewrite (filter_ext_in' (upd p a false) p); [apply Permutation_refl|].
    intros y Hy. unfold upd. destruct (Nat.eqb_spec y a) as [->|]; [contradiction|reflexivity].
  - destruct Hin as [->|Hin]; [congruence|]. destruct (p x).
    + rewrite (IH Hin). apply perm_swap.
    + exact (IH Hin).
Qed.

Lemma even_2 n : Nat.even (S (S n)) = Nat.even n.
Proof. reflexivity. Qed.

Lemma gen_next_ok n g : gen_ok n g -> 0 < length (in_pool n g) ->
  always (gen_next (F := F) n g) (fun o => exists a b g', o = Some ((a, b), g') /\
    Permutation (in_pool n g) (a :: b :: in_pool n g') /\ gen_ok n g').
Proof.
  intros [He Hc] Hpos. destruct g as [pool nPool]. unfold gen_next.
  set (W := in_pool n (pool, nPool)) in *. change (filter pool (seq 0 n)) with W.
  cbn [fst snd] in *.
  assert (H2 : 2 <= length W) by (destruct W as [|x [|y W']]; cbn in *; [lia|discriminate|lia]).
  destruct (Nat.ltb_spec 2 nPool) as [_|Hle]; [|lia].
  eapply always_bind; [apply (always_choice 2 W H2)|].
  intros p (Hp & rest & HP). destruct p as [|a [|b [|? ?]]]; try discriminate Hp.
  apply always_ret. exists a, b, (upd (upd pool a false) b false, length W). split; [reflexivity|].
  cbn [app] in HP.
  assert (ND : NoDup (seq 0 n)) by apply seq_NoDup.
  assert (NDW : NoDup W) by (apply NoDup_filter; exact ND).
  assert (NDp : NoDup (a :: b :: rest)) by (eapply Permutation_NoDup; [exact HP|exact NDW]).
  assert (Ia : In a W) by (eapply Permutation_in; [apply Permutation_sym; exact HP|left; reflexivity]).
  assert (Ib : In b W) by (eapply Permutation_in; [apply Permutation_sym; exact HP|right; left; reflexivity]).
  assert (Hab : a <> b) by (inversion NDp as [|? ? Hn _]; subst; intros ->; apply Hn; left; reflexivity).
  unfold W, in_pool in Ia, Ib. cbn [fst] in Ia, Ib. apply filter_In in Ia. apply filter_In in Ib.
  assert (HP' : Permutation W (a :: b :: in_pool n (upd (upd pool a false) b false, length W))).
  { unfold W at 1, in_pool. cbn [fst].
    rewrite (filter_upd_false pool a (seq 0 n) ND (proj1 Ia) (proj2 Ia)). constructor.
    apply (filter_upd_false (upd pool a false) b (seq 0 n) ND (proj1 Ib)).
    unfold upd. destruct (Nat.eqb_spec b a) as [->|]; [congruence|exact (proj2 Ib)]. }
  split; [exact HP'|]. apply Permutation_length in HP'. cbn [length] in HP'.
  split; cbn [snd].
  - rewrite HP' in He. exact He.
  - right. lia.
Qed.

Lemma gen_next_end n g : gen_ok n g -> length (in_pool n g) = 0 -> forall r, gen_next (F := F) n g r = Ok (None, r).
Proof.
  intros [He Hc] H0 r. destruct g as [pool nPool]. unfold gen_next. cbn [snd] in Hc.
  destruct (Nat.ltb_spec 2 nPool); [lia|]. reflexivity.
Qed.

Definition flat_pairs (ps : list (nat * nat)) : list nat := flat_map (fun p => [fst p; snd p]) ps.

Lemma gen_all_ok fuel n g : gen_ok n g -> length (in_pool n g) < 2 * fuel ->
  always (gen_all (F := F) fuel n g) (fun ps => Permutation (flat_pairs ps) (in_pool n g)).
Proof.
  revert g. induction fuel as [|fuel IH]; intros g Hg Hf; [lia|]. cbn [gen_all].
  destruct (Nat.eq_dec (length (in_pool n g)) 0) as [H0|Hpos].
  - intros r. unfold mbind. rewrite (gen_next_end n g Hg H0). exists [], r. split; [reflexivity|].
    destruct (in_pool n g); [constructor|discriminate H0].
  - eapply always_bind; [apply gen_next_ok; [exact Hg|lia]|].
    intros o (a & b & g' & -> & HP & Hg').
    eapply always_bind; [apply IH; [exact Hg'|]|].
    + apply Permutation_length in HP. cbn [length] in HP. lia.
    + intros ps Hps. apply always_ret. cbn. rewrite Hps, HP. apply Permutation_refl.
Qed.

Lemma gen_start_ok n : Nat.even n = true -> 4 <= n -> exists g, gen_start n = Ok g /\ gen_ok n g /\ in_pool n g = seq 0 n.
Proof.
  intros He Hn. unfold gen_start. exists (fun _ => true, n).
  assert (Hm : n mod 2 = 0).
  { apply Nat.even_spec in He. destruct He as (k & ->). rewrite Nat.mul_comm. apply Nat.mod_mul. lia. }
  rewrite Hm. cbn [Nat.eqb]. split; [reflexivity|].
  assert (E : in_pool n (fun _ : nat => true, n) = seq 0 n).
  { unfold in_pool. cbn [fst]. generalize (seq 0 n). intros l. induction l as [|x l IH]; cbn; [reflexivity|]. rewrite IH. reflexivity. }
  split; [|exact E]. split; rewrite E, seq_length; [exact He|]. left. cbn [snd]. lia.
Qed.

Lemma flat_pairs_length ps : length (flat_pairs ps) = 2 * length ps.
Proof. induction ps as [|p ps IH]; [reflexivity|]. change (flat_pairs (p :: ps)) with ([fst p; snd p] ++ flat_pairs ps). rewrite app_length, IH. cbn. lia. Qed.

Lemma random_parents_ok n fuel : Nat.even n = true -> 4 <= n -> n < 2 * fuel ->
  always (random_parents (F := F) fuel n) (fun ps => 2 * length ps = n /\ Permutation (flat_pairs ps) (seq 0 n)).
Proof.
  intros He Hn Hf. unfold random_parents. destruct (gen_start_ok n He Hn) as (g & E & Hg & HW).
  eapply always_bind; [apply (always_lift _ g (eq g) E eq_refl)|]. intros g' <-.
  eapply always_weaken; [|apply gen_all_ok; [exact Hg|rewrite HW, seq_length; exact Hf]].
  cbn. intros ps Hps. rewrite HW in Hps. split; [|exact Hps].
  apply Permutation_length in Hps. rewrite seq_length, flat_pairs_length in Hps. exact Hps.
Qed.

Lemma random_parents_odd n fuel : Nat.even n = false -> always_raises (random_parents (F := F) fuel n) AssertionError.
Proof.
  intros He r. unfold random_parents, gen_start.
  destruct (Nat.eqb_spec (n mod 2) 0) as [E|E]; [|reflexivity]. exfalso.
  rewrite (Nat.div_mod n 2), E, Nat.add_0_r in He by lia. rewrite Nat.even_mul in He. discriminate He.
Qed.

Lemma random_parents_two fuel r : random_parents (F := F) (S fuel) 2 r = Ok ([], r).
Proof. reflexivity. Qed.

(** ** Mutation *)
Lemma mutate_with_nth pm (ps child : list F) i : length ps = length child ->
  nth_error (mutate_with pm ps child) i =
  match nth_error ps i, nth_error child i with
  | Some p, Some x => Some (if leb p pm then sub one x else x)
  | _, _ => None
  end.
Proof.
  revert child i. induction ps as [|p ps IH]; intros [|x child] i H; try discriminate H.
  - destruct i; reflexivity.
  - destruct i as [|i]; cbn.
    + destruct (leb p pm); reflexivity.
    + apply IH. cbn in H. lia.
Qed.

Lemma mutate_with_binary L pm ps child : length ps = L -> binary L child -> binary L (mutate_with (F := F) pm ps child).
Proof.
  intros Hp [H1 H2]. unfold binary, mutate_with. split.
  - rewrite map_length, combine_length. lia.
  - rewrite Forall_map. apply Forall_forall. intros [p x] Hin. apply in_combine_r in Hin.
    rewrite Forall_forall in H2. cbn. destruct (leb p pm); cbn; [|auto].
    destruct (H2 x Hin) as [->| ->]; [right|left]; ring.
Qed.

Lemma mutate_always L pm child : binary L child -> always (mutate L pm child) (binary (F := F) L).
Proof.
  intros H. unfold mutate. eapply always_bind; [apply always_repeatM; apply always_rand|].
  intros ps [Hl _]. apply always_ret. apply mutate_with_binary; assumption.
Qed.

Lemma mutate_ok L pm (child : list F) : binary L child ->
  always (mutate L pm child) (fun m => binary L m /\ exists draws, length draws = L /\ m = mutate_with pm draws child).
Proof.
  intros H. unfold mutate. eapply always_bind; [apply always_repeatM; apply always_rand|].
  intros ps [Hl _]. apply always_ret. split; [apply mutate_with_binary; assumption|]. exists ps. auto.
Qed.

Lemma mutate_none pm (draws child : list F) : length draws = length child ->
  Forall (fun p => leb p pm = false) draws -> mutate_with pm draws child = child.
Proof.
  intros HL H. revert child HL. induction H as [|p ps Hp H IH]; intros [|x child] HL; try discriminate HL; [reflexivity|].
  unfold mutate_with in *. cbn [combine map fst snd]. rewrite Hp. cbn [negb]. f_equal. apply IH. cbn in HL. lia.
Qed.

(** ** Crossover *)
Lemma insert_perm x l : Permutation (insert x l) (x :: l).
Proof.
  induction l as [|y l IH]; cbn; [apply Permutation_refl|]. destruct (x <=? y); [apply Permutation_refl|].
  rewrite IH. apply perm_swap.
Qed.
Lemma sort_perm l : Permutation (sort l) l.
Proof.
  unfold sort. induction l as [|x l IH]; cbn [fold_right]; [constructor|]. rewrite insert_perm. constructor. exact IH.
Qed.
Lemma insert_sorted x l : StronglySorted le l -> StronglySorted le (insert x l).
Proof.
  intros H. induction H as [|y l Hl IH Hy]; cbn; [repeat constructor|].
  destruct (Nat.leb_spec x y).
  - constructor; [constructor; assumption|]. constructor; [lia|].
    rewrite Forall_forall in *. intros z Hz. specialize (Hy z Hz). lia.
  - constructor; [exact IH|]. rewrite Forall_forall in *. intros z Hz.
    apply (Permutation_in _ (insert_perm x l)) in Hz. destruct Hz as [<-|Hz]; [lia|apply Hy; exact Hz].
Qed.
Lemma sort_sorted l : StronglySorted le (sort l).
Proof. unfold sort. induction l as [|x l IH]; cbn [fold_right]; [constructor|]. apply insert_sorted. exact IH. Qed.

Lemma sorted_nth l i j : StronglySorted le l -> i <= j -> j < length l -> nth i l 0 <= nth j l 0.
Proof.
  intros H. revert i j. induction H as [|x l Hl IH Hx]; intros i j Hij Hj; [cbn in Hj; lia|].
  destruct i as [|i], j as [|j]; cbn; try lia.
  - rewrite Forall_forall in Hx. apply Hx. apply nth_In. cbn in Hj. lia.
  - apply IH; cbn in Hj; lia.
Qed.

Lemma count_sorted l j k : StronglySorted le l -> j + 1 < length l -> nth j l 0 <= k -> k < nth (j + 1) l 0 ->
  length (filter (fun x => x <=? k) l) = j + 1.
Proof.
  intros H. revert j. induction H as [|x l Hl IH Hx]; intros j Hj H1 H2; [cbn in Hj; lia|].
  destruct j as [|j].
  - cbn [nth] in *. cbn [filter]. destruct (Nat.leb_spec x k); [|lia]. cbn [length].
    replace (filter (fun x => x <=? k) l) with (@nil nat); [reflexivity|].
    destruct l as [|y l]; [reflexivity|]. cbn [Nat.add nth] in H2. symmetry.
    assert (G : Forall (fun z => k < z) (y :: l)).
    { constructor; [exact H2|]. inversion Hl as [|? ? _ Hy]; subst. rewrite Forall_forall in *.
      intros z Hz. specialize (Hy z Hz). lia. }
    clear - G. induction G as [|z l0 Hz G IH]; cbn; [reflexivity|]. destruct (Nat.leb_spec z k); [lia|exact IH].
  - cbn [nth Nat.add length] in *. cbn [filter].
    destruct (Nat.leb_spec x k) as [_|Hc].
    + cbn [length]. rewrite (IH j) by (try lia; assumption). lia.
    + exfalso. rewrite Forall_forall in Hx. assert (Hj' : j < length l) by lia. specialize (Hx (nth j l 0) (nth_In l 0 Hj')). lia.
Qed.

Lemma nth_blit (child parent : list F) lo hi k : k < length child ->
  nth k (blit child parent lo hi) zero =
  if (lo <=? k) && (k <? hi) then nth k parent zero else nth k child zero.
Proof.
  intros H. unfold blit. set (f := fun k => _).
  rewrite (nth_indep _ zero (f 0)) by (rewrite map_length, seq_length; exact H).
  rewrite map_nth, seq_nth by exact H. reflexivity.
Qed.
Lemma blit_length (child parent : list F) lo hi : length (blit child parent lo hi) = length child.
Proof. unfold blit. rewrite map_length. apply seq_length. Qed.

Section Cross.
Variables (L : nat) (p1 p2 : list F) (p : list nat) (coin : bool).
Hypothesis Hp : Forall (fun x => 0 < x < L) p.
Let cuts := sort ([0; L] ++ p).

Lemma cuts_length : length cuts = length p + 2.
Proof. unfold cuts. rewrite (Permutation_length (sort_perm _)). cbn. lia. Qed.

Hypothesis HL : 0 < L.

Lemma cuts_first : nth 0 cuts 0 = 0.
Proof.
  assert (Hin : In 0 cuts) by (apply (Permutation_in 0 (Permutation_sym (sort_perm _))); left; reflexivity).
  apply (In_nth _ _ 0) in Hin. destruct Hin as (j & Hj & Ej).
  pose proof (sorted_nth cuts 0 j (sort_sorted _) ltac:(lia) Hj). lia.
Qed.

Lemma cuts_last : nth (length p + 1) cuts 0 = L.
Proof.
  assert (Hin : In L cuts) by (apply (Permutation_in L (Permutation_sym (sort_perm _))); right; left; reflexivity).
  apply (In_nth _ _ 0) in Hin. destruct Hin as (j & Hj & Ej). rewrite cuts_length in Hj.
  pose proof (sorted_nth cuts j (length p + 1) (sort_sorted _) ltac:(lia) ltac:(rewrite cuts_length; lia)) as H.
  assert (Hle : In (nth (length p + 1) cuts 0) ([0; L] ++ p)).
  { apply (Permutation_in _ (sort_perm _)). apply nth_In. fold cuts. rewrite cuts_length. lia. }
  cbn [app In] in Hle. rewrite Forall_forall in Hp. destruct Hle as [E|[E|E]]; [lia|lia|].
  specialize (Hp _ E). lia.
Qed.

Lemma cuts_count j k : j <= length p -> nth j cuts 0 <= k -> k < nth (j + 1) cuts 0 -> cuts_upto p k = j.
Proof.
  intros Hj H1 H2. pose proof (count_sorted cuts j k (sort_sorted _)) as HC. rewrite cuts_length in HC.
  specialize (HC ltac:(lia) H1 H2).
  assert (HP : Permutation (filter (fun x => x <=? k) cuts) (filter (fun x => x <=? k) ([0; L] ++ p))).
  { clear - cuts. pose proof (sort_perm ([0; L] ++ p)) as H. fold cuts in H. revert H.
    generalize ([0; L] ++ p). generalize cuts. clear. intros a b H. induction H; cbn [filter].
    - constructor.
    - destruct (x <=? k); [constructor|]; assumption.
    - destruct (y <=? k), (x <=? k); try apply Permutation_refl. apply perm_swap.
    - eapply Permutation_trans; eassumption. }
  apply Permutation_length in HP. rewrite HC in HP. cbn [app filter] in HP.
  destruct (Nat.leb_spec 0 k); [|lia].
  assert (HkL : k < L).
  { pose proof (sorted_nth cuts (j + 1) (length p + 1) (sort_sorted _) ltac:(lia) ltac:(rewrite cuts_length; lia)).
    rewrite cuts_last in H0. lia. }
  destruct (Nat.leb_spec L k); [lia|]. cbn [length] in HP. unfold cuts_upto. lia.
Qed.

Lemma mod2_even i : (i mod 2 =? 0) = Nat.even i.
Proof.
  destruct (Nat.even i) eqn:E.
  - apply Nat.even_spec in E. destruct E as (k & ->). rewrite Nat.mul_comm, Nat.mod_mul by lia. reflexivity.
  - apply Nat.eqb_neq. intros H. rewrite (Nat.div_mod i 2), H, Nat.add_0_r, Nat.even_mul in E by lia. discriminate E.
Qed.

Lemma children_ok : let c := children_with L p1 p2 p coin in
  length (fst c) = L /\ length (snd c) = L /\
  forall k, k < L -> nth k (fst c) zero = gene1 p1 p2 p coin k /\ nth k (snd c) zero = gene2 p1 p2 p coin k.
Proof.
  unfold children_with. fold cuts.
  set (step := fun (c : list F * list F) i =>
      let lo := nth i cuts 0 in let hi := nth (i + 1) cuts 0 in
      if Bool.eqb (i mod 2 =? 0) coin
      then (blit (fst c) p1 lo hi, blit (snd c) p2 lo hi)
      else (blit (fst c) p2 lo hi, blit (snd c) p1 lo hi)).
  change (let c := fold_left step (seq 0 (length p + 1)) (repeat zero L, repeat zero L) in
    length (fst c) = L /\ length (snd c) = L /\
    forall k, k < L -> nth k (fst c) zero = gene1 p1 p2 p coin k /\ nth k (snd c) zero = gene2 p1 p2 p coin k).
  assert (G : forall m, m <= length p + 1 ->
    let c := fold_left step (seq 0 m) (repeat zero L, repeat zero L) in
    length (fst c) = L /\ length (snd c) = L /\
    forall k, k < L -> k < nth m cuts 0 -> nth k (fst c) zero = gene1 p1 p2 p coin k /\ nth k (snd c) zero = gene2 p1 p2 p coin k).
  { induction m as [|m IH]; intros Hm; cbn zeta in *.
    - cbn [seq fold_left fst snd]. rewrite !repeat_length. split; [reflexivity|]. split; [reflexivity|].
      intros k _ Hk. rewrite cuts_first in Hk. lia.
    - rewrite seq_S, fold_left_app. cbn [fold_left Nat.add].
      destruct (IH ltac:(lia)) as (L1 & L2 & HI). set (c := fold_left step (seq 0 m) _) in *.
      unfold step. rewrite mod2_even.
      assert (HC : forall k, nth m cuts 0 <= k -> k < nth (m + 1) cuts 0 -> cuts_upto p k = m)
        by (intros k; apply cuts_count; lia).
      destruct (Bool.eqb (Nat.even m) coin) eqn:E; cbn [fst snd]; rewrite !blit_length;
        (split; [exact L1|]); (split; [exact L2|]); intros k HkL Hk;
        rewrite Nat.add_1_r in *; rewrite !nth_blit by lia;
        (destruct (Nat.leb_spec (nth m cuts 0) k) as [Hlo|Hlo]; cbn [andb];
          [destruct (Nat.ltb_spec k (nth (S m) cuts 0)); [|lia];
           unfold gene1, gene2; rewrite (HC k Hlo Hk), E; split; reflexivity
          |apply HI; [exact HkL|exact Hlo]]). }
  destruct (G (length p + 1) (le_n _)) as (L1 & L2 & H). cbn zeta. split; [exact L1|]. split; [exact L2|].
  intros k Hk. apply H; [exact Hk|]. rewrite cuts_last. exact Hk.
Qed.

Lemma children_binary : binary L p1 -> binary L p2 ->
  binary L (fst (children_with L p1 p2 p coin)) /\ binary L (snd (children_with L p1 p2 p coin)).
Proof.
  intros [A1 A2] [B1 B2]. destruct children_ok as (L1 & L2 & H). cbn zeta in *.
  rewrite Forall_forall in A2, B2.
  split; (split; [assumption|]); apply Forall_forall; intros x Hx; apply (In_nth _ _ zero) in Hx;
    destruct Hx as (k & Hk & <-).
  - rewrite (proj1 (H k ltac:(lia))). unfold gene1. destruct (Bool.eqb _ _); [apply A2|apply B2]; apply nth_In; lia.
  - rewrite (proj2 (H k ltac:(lia))). unfold gene2. destruct (Bool.eqb _ _); [apply B2|apply A2]; apply nth_In; lia.
Qed.
End Cross.

Lemma crossover_yes (r : rng F) L pc pm p1 p2 nCut : leb (rr r 0) pc = true -> length p1 = L -> length p2 = L -> 3 <= L ->
  (forall n, nCut = Some n -> n <= L - 2) ->
  exists m r', crossover L pc pm p1 p2 nCut r = Ok (m, r') /\ bred L pm p1 p2 (cuts_for L nCut) m.
Proof.
  intros Hr H1 H2 H3 Hn. unfold crossover. unfold mbind at 1. cbn [rand]. rewrite Hr. cbn [negb].
  rewrite H1, H2, Nat.eqb_refl. cbn [andb negb].
  generalize (Rng (ri r) (fun k => rr r (S k))). clear r Hr. intros r0. revert r0.
  match goal with |- forall r0, exists m r', ?X r0 = _ /\ _ =>
    enough (G : always X (bred L pm p1 p2 (cuts_for L nCut))) by exact G end.
  apply (always_bind _ _ (fun n => n <= L - 2 /\ cuts_for L nCut n)).
  { destruct nCut as [n|]; [apply always_ret; cbn; auto|]. eapply always_weaken; [|apply always_randint; lia]. cbn. lia. }
  intros n [Hle Hcut]. eapply always_bind; [apply always_choice; rewrite seq_length; exact Hle|].
  intros p (Hp & rest & HP).
  assert (ND : NoDup p).
  { assert (N : NoDup (p ++ rest)) by (eapply Permutation_NoDup; [exact HP|apply seq_NoDup]).
    clear - N. induction p as [|y p IH]; [constructor|]. cbn in N. inversion N as [|? ? Hy N']; subst.
    constructor; [|apply IH; exact N']. intros Hin. apply Hy. apply in_or_app. left. exact Hin. }
  assert (HF : Forall (fun x => 0 < x < L) p).
  { apply Forall_forall. intros y Hy. assert (In y (seq 1 (L - 2))).
    { eapply Permutation_in; [apply Permutation_sym; exact HP|]. apply in_or_app. left. exact Hy. }
    apply in_seq in H. lia. }
  eapply always_bind; [apply always_rand|]. intros y _.
  set (coin := negb (leb y (div one (add one one)))).
  destruct (children_ok L p1 p2 p coin HF ltac:(lia)) as (L1 & L2 & HC).
  destruct (children_with L p1 p2 p coin) as [c1 c2] eqn:Ec. cbn [fst snd] in *.
  unfold mutate. eapply always_bind.
  { eapply always_bind; [apply (always_repeatM L rand (fun _ => True)); apply always_rand|]. intros ps [Hps _].
    apply (always_ret _ (fun m => exists ps, length ps = L /\ m = mutate_with pm ps c1)). eauto. }
  intros m1 (ps1 & Hps1 & ->). eapply always_bind.
  { eapply always_bind; [apply (always_repeatM L rand (fun _ => True)); apply always_rand|]. intros ps [Hps _].
    apply (always_ret _ (fun m => exists ps, length ps = L /\ m = mutate_with pm ps c2)). eauto. }
  intros m2 (ps2 & Hps2 & ->). apply always_ret.
  exists p, coin, c1, c2, ps1, ps2. rewrite Hp. auto 12.
Qed.

Lemma crossover_no r L pc pm p1 p2 nCut : leb (rr r 0) pc = false ->
  exists r', crossover (F := F) L pc pm p1 p2 nCut r = Ok ((p1, p2), r').
Proof. intros H. unfold crossover, mbind, rand. rewrite H. cbn [negb]. eexists. reflexivity. Qed.

Lemma crossover_ok L (pc pm : F) p1 p2 nCut : length p1 = L -> length p2 = L -> 3 <= L ->
  (forall n, nCut = Some n -> n <= L - 2) ->
  always (crossover L pc pm p1 p2 nCut) (crossed L pm p1 p2).
Proof.
  intros H1 H2 H3 Hn r. destruct (leb (rr r 0) pc) eqn:E.
  - destruct (crossover_yes r L pc pm p1 p2 nCut E H1 H2 H3 Hn) as (m & r' & Em & Hm). exists m, r'. split; [exact Em|].
    right. destruct Hm as (p & coin & c1 & c2 & ps1 & ps2 & _ & H). exists p, coin, c1, c2, ps1, ps2. split; [exact I|exact H].
  - destruct (crossover_no r L pc pm p1 p2 nCut E) as (r' & Er). exists (p1, p2), r'. split; [exact Er|left; reflexivity].
Qed.

Lemma crossed_binary L (pm : F) p1 p2 m : 0 < L -> binary L p1 -> binary L p2 -> crossed L pm p1 p2 m ->
  binary L (fst m) /\ binary L (snd m).
Proof.
  intros HL H1 H2 [->|(p & coin & c1 & c2 & ps1 & ps2 & _ & ND & HF & L1 & L2 & HC & Hp1 & Hp2 & ->)]; [auto|].
  cbn [fst snd]. destruct H1 as [A1 A2], H2 as [B1 B2]. rewrite Forall_forall in A2, B2.
  split; apply mutate_with_binary; try assumption; (split; [assumption|]); apply Forall_forall; intros x Hx;
    apply (In_nth _ _ zero) in Hx; destruct Hx as (k & Hk & <-).
  - rewrite (proj1 (HC k ltac:(lia))). unfold gene1. destruct (Bool.eqb _ _); [apply A2|apply B2]; apply nth_In; lia.
  - rewrite (proj2 (HC k ltac:(lia))). unfold gene2. destruct (Bool.eqb _ _); [apply B2|apply A2]; apply nth_In; lia.
Qed.

End Ops.
