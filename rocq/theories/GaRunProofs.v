(** Proofs about selection, breeding, evolution and solution. *)
From Verif Require Import Prelude OField GaModel GaSpec GaProofs.

Local Notation "'mdo' x <- m ;; k" := (mbind m (fun x => k))
  (at level 200, x pattern, m at level 100, k at level 200, right associativity).

Section Run.
Context {F : ofield}.
Add Field GaR : (of_field F).

Lemma as_good_refl mini (a : F) : as_good mini a a.
Proof. destruct mini; apply le_refl. Qed.
Lemma as_good_trans mini (a b c : F) : as_good mini a b -> as_good mini b c -> as_good mini a c.
Proof. destruct mini; cbn; intros; eapply le_trans; eassumption. Qed.
Lemma better_true mini (a b : F) : better mini a b = true -> as_good mini a b.
Proof. unfold better, as_good. destruct mini; intros H; apply negb_true_iff in H; apply lt_le; exact H. Qed.
Lemma better_false mini (a b : F) : better mini a b = false -> as_good mini b a.
Proof. unfold better, as_good. destruct mini; intros H; apply negb_false_iff in H; exact H. Qed.

(** ** Best individual *)
Lemma arg_best_ok mini (l0 l : list F) : forall i best,
  best < i -> i + length l = length l0 -> l = skipn i l0 ->
  Forall (as_good mini (nth best l0 zero)) (firstn i l0) ->
  let r := arg_best mini i best (nth best l0 zero) l in
  r < length l0 /\ Forall (as_good mini (nth r l0 zero)) l0.
Proof.
  induction l as [|x l IH]; intros i best Hb Hi Hl HF; cbn zeta; cbn [arg_best].
  - split; [cbn in Hi; lia|]. assert (E : firstn i l0 = l0) by (apply firstn_all2; cbn in Hi; lia). rewrite E in HF. exact HF.
  - assert (Hx : x = nth i l0 zero).
    { rewrite <- (firstn_skipn i l0), <- Hl, app_nth2; rewrite firstn_length_le by (cbn in Hi; lia); [|lia].
      rewrite Nat.sub_diag. reflexivity. }
    assert (HS : firstn (S i) l0 = firstn i l0 ++ [x]).
    { clear - Hl. revert l0 Hl. induction i as [|i IH]; intros [|y l0] Hl; cbn in *; try discriminate Hl.
      - injection Hl as -> ->. reflexivity.
      - f_equal. apply IH. exact Hl. }
    assert (Hl' : l = skipn (S i) l0).
    { clear - Hl. revert l0 Hl. induction i as [|i IH]; intros [|y l0] Hl; cbn in *; try discriminate Hl.
      - injection Hl as -> ->. reflexivity.
      - apply IH. exact Hl. }
    destruct (better mini x (nth best l0 zero)) eqn:E.
    + rewrite Hx. apply IH; [lia|cbn in Hi; lia|exact Hl'|]. rewrite HS, Forall_app. rewrite <- Hx. apply better_true in E.
      split; [|constructor; [apply as_good_refl|constructor]]. eapply Forall_impl; [|exact HF].
      intros y Hy. cbn. eapply as_good_trans; eassumption.
    + apply IH; [lia|cbn in Hi; lia|exact Hl'|]. rewrite HS, Forall_app. apply better_false in E. auto.
Qed.

Lemma argbest_ok mini (l : list F) : l <> [] ->
  exists i, argbest mini l = Ok i /\ i < length l /\ Forall (as_good mini (nth i l zero)) l.
Proof.
  destruct l as [|v l]; [congruence|]. intros _. eexists. split; [reflexivity|].
  apply (arg_best_ok mini (v :: l) l 1 0); [lia|reflexivity|reflexivity|].
  constructor; [apply as_good_refl|constructor].
Qed.

(** ** Selection *)
Lemma best_first_rev (argsort : list F -> list nat) f : sorts argsort -> best_first false f (rev (argsort f)).
Proof.
  intros HS. destruct (HS f) as [HP HO]. split.
  - eapply Permutation_trans; [apply Permutation_sym, Permutation_rev|exact HP].
  - assert (HL : length (argsort f) = length f) by (rewrite (Permutation_length HP); apply seq_length).
    intros i j Hij Hj. rewrite !rev_nth by lia. apply HO; lia.
Qed.
Lemma best_first_fwd (argsort : list F -> list nat) f : sorts argsort -> best_first true f (argsort f).
Proof. intros HS. exact (HS f). Qed.

Lemma best_first_length mini (f : list F) s : best_first mini f s -> length s = length f.
Proof. intros [HP _]. rewrite (Permutation_length HP). apply seq_length. Qed.

Lemma elite_count_le n (x : F) : elite_count n x <= n.
Proof. unfold elite_count. rewrite <- (seq_length n 1) at 2. generalize (seq 1 n). intros l.
  induction l as [|y l IH]; cbn; [lia|]. destruct (leb _ _); cbn; lia. Qed.

Lemma divide_ok (argsort : list F -> list nat) n e mini f : sorts argsort -> length f = n -> workable n e ->
  exists s, best_first mini f s /\ divide argsort n e mini f = Ok (firstn (elites n e) s, skipn (elites n e) s).
Proof.
  intros HS HL [He _]. exists (if mini then argsort f else rev (argsort f)). split.
  - destruct mini; [apply best_first_fwd|apply best_first_rev]; exact HS.
  - unfold divide. destruct e as [|z|x]; cbn [elites]; [destruct He| |].
    + destruct (Z.ltb_spec z 1); [lia|]. reflexivity.
    + destruct He as [_ ->]. reflexivity.
Qed.

Lemma sorts_best (argsort : list F -> list nat) (mini : bool) (l : list F) : sorts argsort -> l <> [] ->
  let w := if mini then hd 0 (argsort l) else last (argsort l) 0 in
  w < length l /\ forall i, i < length l -> as_good mini (nth w l zero) (nth i l zero).
Proof.
  intros HS Hne. cbn zeta. assert (Hl : 0 < length l) by (destruct l; [congruence|cbn; lia]).
  assert (G : forall s, best_first mini l s -> nth 0 s 0 < length l /\
     forall i, i < length l -> as_good mini (nth (nth 0 s 0) l zero) (nth i l zero)).
  { intros s Hs. pose proof (best_first_length _ _ _ Hs) as HL. destruct Hs as [HP HO]. split.
    - assert (In (nth 0 s 0) (seq 0 (length l))) by (eapply Permutation_in; [exact HP|apply nth_In; lia]).
      apply in_seq in H. lia.
    - intros i Hi. assert (In i s) by (eapply Permutation_in; [apply Permutation_sym; exact HP|apply in_seq; lia]).
      apply (In_nth _ _ 0) in H. destruct H as (j & Hj & <-). destruct j as [|j]; [apply as_good_refl|].
      apply HO; lia. }
  destruct mini.
  - specialize (G _ (best_first_fwd argsort l HS)). destruct (argsort l) as [|? ?]; exact G.
  - specialize (G _ (best_first_rev argsort l HS)).
    replace (last (argsort l) 0) with (nth 0 (rev (argsort l)) 0); [exact G|].
    generalize (argsort l). intros t. induction t as [|y t _] using rev_ind; [reflexivity|]. rewrite rev_app_distr, last_last. reflexivity.
Qed.

Lemma tournaments_ok (argsort : list F -> list nat) mini f others : sorts argsort ->
  NoDup others -> forall n, (n = 0 \/ 3 <= length others) -> forall ws0,
  always (tournaments argsort n mini f others ws0)
    (fun ws => exists ws', ws = ws0 ++ ws' /\ length ws' = n /\ Forall (won mini f others) ws').
Proof.
  intros HS ND. induction n as [|n IH]; intros Hn ws0; cbn [tournaments].
  - apply always_ret. exists []. rewrite app_nil_r. auto.
  - eapply always_bind; [apply (always_choice 3 others); lia|]. intros p (Hp & rest & HP).
    destruct p as [|a [|b [|c [|? ?]]]]; try discriminate Hp.
    set (vals := map (fun id => nth id f zero) [a; b; c]).
    destruct (sorts_best argsort mini vals HS ltac:(discriminate)) as [Hw Hb]. cbn zeta in Hw, Hb.
    set (w := if mini then hd 0 (argsort vals) else last (argsort vals) 0) in *.
    eapply always_weaken; [|apply IH; right; lia]. cbn beta. intros ws (ws' & -> & Hl & HF).
    exists (nth w [a; b; c] 0 :: ws'). rewrite <- app_assoc. split; [reflexivity|]. split; [cbn; lia|].
    constructor; [|exact HF]. exists a, b, c.
    assert (N : NoDup ([a; b; c] ++ rest)) by (eapply Permutation_NoDup; eassumption).
    assert (N3 : NoDup [a; b; c]).
    { clear - N. cbn in N. inversion N as [|? ? Ha N1]; subst. inversion N1 as [|? ? Hb N2]; subst. inversion N2 as [|? ? Hc N3]; subst.
      constructor; [cbn in *; tauto|]. constructor; [cbn in *; tauto|]. constructor; [cbn in *; tauto|constructor]. }
    split; [exact N3|]. split.
    { intros x Hx. eapply Permutation_in; [apply Permutation_sym; exact HP|]. apply in_or_app. left. exact Hx. }
    split; [apply nth_In; exact Hw|]. intros x Hx. apply (In_nth _ _ 0) in Hx. destruct Hx as (i & Hi & <-).
    specialize (Hb i Hi). unfold vals in Hb.
    assert (E : forall j, j < 3 -> nth j (map (fun id => nth id f zero) [a; b; c]) zero = nth (nth j [a; b; c] 0) f zero).
    { intros [|[|[|j]]] Hj; try reflexivity. lia. }
    rewrite !E in Hb by assumption. exact Hb.
Qed.

Lemma workable_lt n (e : elit F) : 8 <= n -> workable n e -> elites n e < n.
Proof. intros Hn [_ [H|[_ H]]]; [|exact H]. assert (n / 2 < n) by (apply Nat.div_lt; lia). lia. Qed.

Lemma select_ok (argsort : list F -> list nat) n e mini f gs : sorts argsort -> 8 <= n -> workable n e ->
  length f = n -> always (select argsort n e mini f gs) (selected n (elites n e) mini f gs).
Proof.
  intros HS Hn He Hf. unfold select.
  destruct (divide_ok argsort n e mini f HS Hf He) as (s & Hs & Ed).
  eapply always_bind; [apply (always_lift _ _ (eq (firstn (elites n e) s, skipn (elites n e) s)) Ed eq_refl)|].
  intros [w o] Eo. injection Eo as <- <-.
  pose proof (best_first_length _ _ _ Hs) as HL. pose proof (workable_lt n e Hn He) as Hk.
  set (k := elites n e) in *.
  assert (ND : NoDup (skipn k s)).
  { assert (N : NoDup s) by (eapply Permutation_NoDup; [apply Permutation_sym; exact (proj1 Hs)|apply seq_NoDup]).
    rewrite <- (firstn_skipn k s) in N. clear - N. induction (firstn k s) as [|x l IH]; [exact N|].
    apply IH. inversion N; assumption. }
  assert (HT : always (tournaments argsort (n / 2 - length (firstn k s)) mini f (skipn k s) (firstn k s))
     (fun ws => exists ws', ws = firstn k s ++ ws' /\ length ws' = n / 2 - k /\ Forall (won mini f (skipn k s)) ws')).
  { rewrite firstn_length_le by lia. apply tournaments_ok; [exact HS|exact ND|].
    rewrite skipn_length. assert (4 <= n / 2) by (apply (Nat.div_le_mono 8 n 2); lia).
    assert (2 * (n / 2) <= n) by (apply Nat.mul_div_le; lia). lia. }
  assert (G : always (mdo ws <- tournaments argsort (n / 2 - length (firstn k s)) mini f (skipn k s) (firstn k s) ;;
                      ret (map (fun w => nth w gs []) ws)) (selected n k mini f gs)).
  { eapply always_bind; [exact HT|]. intros ws (ws' & -> & H1 & H2). apply always_ret.
    exists s, ws'. auto. }
  destruct e; [destruct He as [[] _]|exact G|exact G].
Qed.

Lemma selected_population n L k mini (f : list F) gs sel : selected n k mini f gs sel -> length f = n ->
  population n L gs -> k <= n -> population (k + (n / 2 - k)) L sel.
Proof.
  intros (s & ws & Hs & Hw & HW & ->) Hf [Hg HB] Hk. pose proof (best_first_length _ _ _ Hs) as HL. split.
  - rewrite map_length, app_length, firstn_length_le by lia. lia.
  - apply Forall_map. apply Forall_forall. intros w Hin.
    assert (Hws : In w s).
    { apply in_app_or in Hin. destruct Hin as [Hin|Hin].
      - rewrite <- (firstn_skipn k s). apply in_or_app. left. exact Hin.
      - rewrite Forall_forall in HW. destruct (HW w Hin) as (a & b & c & _ & Hi & Ha & _).
        rewrite <- (firstn_skipn k s). apply in_or_app. right. apply Hi. exact Ha. }
    rewrite Forall_forall in HB. apply HB. apply nth_In. rewrite Hg.
    apply (Permutation_in _ (proj1 Hs)) in Hws. apply in_seq in Hws. lia.
Qed.

Lemma select_tournaments (argsort : list F -> list nat) n (e : elit F) mini f gs : sorts argsort -> 8 <= n -> workable n e ->
  length f = n ->
  always (select argsort n e mini f gs) (fun sel => exists order ws,
    best_first mini f order /\ length ws = n / 2 - elites n e /\
    sel = map (fun w => nth w gs []) (firstn (elites n e) order ++ ws) /\
    Forall (won mini f (skipn (elites n e) order)) ws).
Proof.
  intros HS Hn He Hf. eapply always_weaken; [|apply (select_ok argsort); eassumption].
  intros sel (s & ws & H1 & H2 & H3 & H4). exists s, ws. auto.
Qed.

(** ** Breeding *)
Definition flat {A} (l : list (A * A)) : list A := flat_map (fun p => [fst p; snd p]) l.
Lemma flat_app {A} (l l' : list (A * A)) : flat (l ++ l') = flat l ++ flat l'.
Proof. apply flat_map_app. Qed.
(** Loop invariant: the offspring come from pairs that have left the pool. *)
Definition bred_from (L : nat) (pm : F) (n : nat) (gs : list (list F)) (g : gen) (off : list (list F)) : Prop :=
  exists (pairs : list (nat * nat)) kids, Permutation (flat pairs ++ in_pool n g) (seq 0 n) /\
    Forall2 (fun p k => crossed L pm (nth (fst p) gs []) (nth (snd p) gs []) k) pairs kids /\ off = flat kids.
Lemma bred_from_children L pm n gs g off : length gs = n -> bred_from L pm n gs g off -> children_of L pm gs off.
Proof.
  intros Hn (pairs & kids & HP & HF & ->). exists pairs, kids.
  assert (ND : NoDup (flat pairs ++ in_pool n g)).
  { eapply Permutation_NoDup; [apply Permutation_sym; exact HP|apply seq_NoDup]. }
  split; [|split; [|split; [exact HF|reflexivity]]].
  - clear - ND. change (NoDup (flat pairs)). induction (flat pairs) as [|x l IH]; [constructor|].
    cbn in ND. inversion ND as [|? ? Hx ND']; subst. constructor; [|apply IH; exact ND'].
    intros Hin. apply Hx. apply in_or_app. left. exact Hin.
  - apply Forall_forall. intros p Hp.
    assert (H : forall x, In x [fst p; snd p] -> x < length gs).
    { intros x Hx. assert (In x (seq 0 n)).
      { eapply Permutation_in; [exact HP|]. apply in_or_app. left. apply in_flat_map. exists p. auto. }
      apply in_seq in H. lia. }
    split; apply H; cbn; auto.
Qed.
Lemma breed_ok n L (pc pm : F) gs : population n L gs -> 3 <= L -> forall nPop, nPop <= 2 * n -> Nat.even nPop = true ->
  Nat.even n = true -> forall fuel g off,
  gen_ok n g -> Nat.even (length off) = true -> length off + length (in_pool n g) = n ->
  length off + n <= nPop -> nPop - n - length off <= fuel -> Forall (binary L) off ->
  bred_from L pm n gs g off ->
  always (breed fuel nPop L pc pm gs g off)
    (fun gs' => exists off', gs' = gs ++ off' /\ length off' = nPop - n /\ Forall (binary L) off' /\ children_of L pm gs off').
Proof.
  intros [Hn HB] HL nPop HP He Hen. induction fuel as [|fuel IH]; intros g off Hg Heo Hc Hle Hf HO HBF; cbn [breed]; rewrite Hn.
  - destruct (Nat.ltb_spec (length off + n) nPop); [lia|]. apply always_ret. exists off. split; [reflexivity|]. split; [lia|]. split; [exact HO|exact (bred_from_children _ _ _ _ _ _ Hn HBF)].
  - destruct (Nat.ltb_spec (length off + n) nPop) as [Hlt|Hge].
    + eapply always_bind; [apply gen_next_ok; [exact Hg|lia]|]. intros o (a & b & g' & -> & HPm & Hg').
      assert (Hin : forall x, In x [a; b] -> binary L (nth x gs [])).
      { intros x Hx. rewrite Forall_forall in HB. apply HB. apply nth_In. rewrite Hn.
        assert (In x (in_pool n g)).
        { eapply Permutation_in; [apply Permutation_sym; exact HPm|]. cbn in *. tauto. }
        unfold in_pool in H. apply filter_In in H. destruct H as [H _]. apply in_seq in H. lia. }
      assert (Ba : binary L (nth a gs [])) by (apply Hin; left; reflexivity).
      assert (Bb : binary L (nth b gs [])) by (apply Hin; right; left; reflexivity).
      eapply always_bind; [apply crossover_ok; [exact (proj1 Ba)|exact (proj1 Bb)|exact HL|discriminate]|].
      intros [c1 c2] Hcr.
      assert (HBF' : bred_from L pm n gs g' (off ++ [c1; c2])).
      { destruct HBF as (pairs & kids & HP1 & HF1 & ->). exists (pairs ++ [(a, b)]), (kids ++ [(c1, c2)]).
        split; [|split].
        - rewrite flat_app. cbn [flat flat_map fst snd app]. rewrite <- app_assoc. cbn [app]. rewrite <- HPm. exact HP1.
        - apply Forall2_app; [exact HF1|]. constructor; [exact Hcr|constructor].
        - rewrite flat_app. reflexivity. }
      apply crossed_binary in Hcr; [|lia|exact Ba|exact Bb]. cbn [fst snd] in Hcr.
      apply Permutation_length in HPm. cbn [length] in HPm.
      apply IH.
      * exact Hg'.
      * rewrite app_length. cbn [length]. rewrite Nat.add_comm. exact Heo.
      * rewrite app_length. cbn [length]. lia.
      * rewrite app_length. cbn [length].
        apply Nat.even_spec in He. apply Nat.even_spec in Hen. apply Nat.even_spec in Heo.
        destruct He as (x & He), Hen as (y & Hen), Heo as (z & Heo). lia.
      * rewrite app_length. cbn [length]. lia.
      * apply Forall_app. split; [exact HO|]. constructor; [tauto|]. constructor; [tauto|constructor].
      * exact HBF'.
    + apply always_ret. exists off. split; [reflexivity|]. split; [lia|]. split; [exact HO|exact (bred_from_children _ _ _ _ _ _ Hn HBF)].
Qed.

Lemma to_runtime_always {A} (m : M (F := F) A) Q : always m Q -> always (to_runtime_error m) Q.
Proof. intros H r. destruct (H r) as (a & r' & E & Ha). exists a, r'. unfold to_runtime_error. rewrite E. auto. Qed.

Lemma populate_from_ok nPop n L (pc pm : F) gs : population n L gs -> 3 <= L -> nPop <= 2 * n -> n <= nPop ->
  Nat.even nPop = true -> Nat.even n = true -> 4 <= n ->
  always (populate_from nPop L pc pm gs)
    (fun gs' => exists off, gs' = gs ++ off /\ population nPop L gs' /\ children_of L pm gs off).
Proof.
  intros Hg HL H1 H2 He Hen H4. unfold populate_from. rewrite (proj1 Hg).
  destruct (Nat.ltb_spec n nPop).
  - apply to_runtime_always. destruct (gen_start_ok n Hen H4) as (g & E & Hok & HW).
    eapply always_bind; [apply (always_lift _ g (eq g) E eq_refl)|]. intros g' <-.
    eapply always_weaken; [|apply (breed_ok n L pc pm gs Hg HL nPop H1 He Hen nPop g [] Hok eq_refl)].
    + cbn beta. intros gs' (off & -> & Hl & HF & HCh). exists off. split; [reflexivity|]. split; [|exact HCh]. split.
      * rewrite app_length, Hl, (proj1 Hg). lia.
      * apply Forall_app. split; [exact (proj2 Hg)|exact HF].
    + rewrite HW, seq_length. reflexivity.
    + cbn. exact H2.
    + cbn. lia.
    + constructor.
    + exists [], []. rewrite HW. split; [apply Permutation_refl|]. split; [constructor|reflexivity].
  - apply always_ret. exists []. rewrite app_nil_r. split; [reflexivity|]. split; [replace nPop with n by lia; exact Hg|].
    exists [], []. repeat split; constructor.
Qed.

Lemma random_bits_ok n L : always (repeatM n (repeatM L (random_bit (F := F)))) (population n L).
Proof.
  eapply always_weaken; [|apply always_repeatM; apply (always_repeatM L _ (fun x => x = zero \/ x = one))].
  - cbn beta. intros gs [H1 H2]. split; [exact H1|exact H2].
  - unfold random_bit. eapply always_bind; [apply always_randint; lia|]. intros x Hx. apply always_ret.
    destruct x as [|[|x]]; [left|right|lia]; cbn; ring.
Qed.

Lemma half_even n : n mod 4 = 0 -> 8 <= n -> Nat.even n = true /\ Nat.even (n / 2) = true /\ 4 <= n / 2 /\ n <= 2 * (n / 2) <= n.
Proof.
  intros H H8. pose proof (Nat.div_mod n 4 ltac:(lia)) as E. rewrite H, Nat.add_0_r in E.
  set (q := n / 4) in *. assert (E2 : n / 2 = 2 * q) by (rewrite E; replace (4 * q) with ((2 * q) * 2) by lia; apply Nat.div_mul; lia).
  rewrite E2. repeat split; try lia.
  - rewrite E. replace (4 * q) with (2 * (2 * q)) by lia. rewrite Nat.even_mul. reflexivity.
  - rewrite Nat.even_mul. reflexivity.
Qed.

Lemma populate_none_ok n L (pc pm : F) : n mod 4 = 0 -> 8 <= n -> 3 <= L ->
  always (populate n L pc pm None) (population n L).
Proof.
  intros H4 H8 HL. destruct (half_even n H4 H8) as (E1 & E2 & E3 & E4). cbn [populate].
  eapply always_bind; [apply random_bits_ok|]. intros g Hg.
  eapply always_weaken; [|apply (populate_from_ok n (n / 2)); try assumption; lia].
  cbn beta. intros gs (off & _ & H & _). exact H.
Qed.

Lemma populate_some_ok n L (pc pm : F) k mini f gs sel (e : elit F) : n mod 4 = 0 -> 8 <= n -> 3 <= L -> workable n e ->
  k = elites n e -> selected n k mini f gs sel -> length f = n -> population n L gs ->
  always (populate n L pc pm (Some sel)) (fun gs' => exists off, gs' = sel ++ off /\ population n L gs' /\ children_of L pm sel off).
Proof.
  intros H4 H8 HL He -> Hs Hf Hg. destruct (half_even n H4 H8) as (E1 & E2 & E3 & E4). cbn [populate].
  pose proof (workable_lt n e H8 He) as Hk. destruct He as [_ He]. set (k := elites n e) in *.
  pose proof (selected_population n L k mini f gs sel Hs Hf Hg ltac:(lia)) as HP.
  apply (populate_from_ok n (k + (n / 2 - k))); try assumption; try lia.
  destruct He as [He|[He _]].
  - replace (k + (n / 2 - k)) with (n / 2) by lia. exact E2.
  - destruct (Nat.le_gt_cases k (n / 2)).
    + replace (k + (n / 2 - k)) with (n / 2) by lia. exact E2.
    + replace (k + (n / 2 - k)) with k by lia. exact He.
Qed.

(** ** Evolution *)
Section Evolution.
Variable argsort : list F -> list nat.
Hypothesis HS : sorts argsort.
Variable c : config F.
Hypothesis Hc : valid_config c.

Definition good (s : ga F) : Prop := coherent c s /\ valid_params c (par s).

(** What reading a property does to the object. *)
Lemma read_phenotypes_ok s : coherent c s ->
  let ph := map (decode_one (len c) (ranges c)) (genotypes s) in
  read_phenotypes c s = Ok (ph, Ga (par s) (genotypes s) (Some ph) (fitness s) (champion s) (running s)
                                   (n_fev s) (n_iter s) (stage s)).
Proof.
  intros (HP & Hph & _). cbn zeta. unfold read_phenotypes. destruct (phenotypes s) as [ph|] eqn:E.
  - rewrite <- (Hph ph eq_refl), <- E. destruct s; reflexivity.
  - unfold decode. destruct HP as [H1 H2]. rewrite H1, Nat.eqb_refl. cbn [andb].
    assert (E2 : forallb (fun g => length g =? length (ranges c) * len c) (genotypes s) = true).
    { apply forallb_forall. intros g Hg. rewrite Forall_forall in H2. apply Nat.eqb_eq. exact (proj1 (H2 g Hg)). }
    rewrite E2. reflexivity.
Qed.

Definition read_state (s : ga F) : ga F :=
  match fitness s with
  | Some _ => s
  | None => Ga (par s) (genotypes s) (Some (map (decode_one (len c) (ranges c)) (genotypes s)))
               (Some (fitness_of c s)) (champion s) (running s) (n_fev s + nPop c) (n_iter s) (stage s)
  end.

Lemma read_fitness_ok s : coherent c s -> read_fitness c s = Ok (fitness_of c s, read_state s).
Proof.
  intros H. unfold read_fitness, read_state. destruct (fitness s) as [f|] eqn:E.
  - rewrite (proj1 (proj2 (proj2 H)) f E). reflexivity.
  - rewrite (read_phenotypes_ok s H). cbn [bind par genotypes phenotypes champion running n_fev n_iter stage].
    rewrite map_map, map_length, (proj1 (proj1 H)). reflexivity.
Qed.

Lemma read_state_coherent s : coherent c s -> coherent c (read_state s).
Proof.
  intros H. unfold read_state. destruct (fitness s) eqn:E; [exact H|]. destruct H as (H1 & H2 & H3 & H4).
  split; [exact H1|]. split; [|split]; cbn; [congruence| |exact H4]. intros f [= <-]. reflexivity.
Qed.
Lemma read_state_same s : par (read_state s) = par s /\ genotypes (read_state s) = genotypes s /\
  champion (read_state s) = champion s /\ running (read_state s) = running s /\
  fitness (read_state s) <> None /\ n_iter (read_state s) = n_iter s /\ stage (read_state s) = stage s /\
  n_fev (read_state s) = n_fev s + (match fitness s with None => nPop c | _ => 0 end).
Proof. unfold read_state. destruct (fitness s) eqn:E; cbn; repeat split; try congruence; try lia. Qed.

Lemma fitness_of_length s : coherent c s -> length (fitness_of c s) = nPop c.
Proof. intros H. unfold fitness_of. rewrite map_length. exact (proj1 (proj1 H)). Qed.

(** With the phenotypes read too. *)
Definition shown_state (s : ga F) : ga F :=
  let s1 := read_state s in
  Ga (par s1) (genotypes s1) (Some (map (decode_one (len c) (ranges c)) (genotypes s1))) (fitness s1)
     (champion s1) (running s1) (n_fev s1) (n_iter s1) (stage s1).

Lemma shown_state_coherent s : coherent c s -> coherent c (shown_state s).
Proof.
  intros H. destruct (read_state_coherent s H) as (H1 & H2 & H3 & H4).
  split; [exact H1|]. split; [|split]; cbn; [congruence|exact H3|exact H4].
Qed.

Lemma best_candidate_ok s : coherent c s ->
  exists x, best_candidate c s = Ok (x, shown_state s) /\ true_record c x /\ leads c (minimize (par s)) x s.
Proof.
  intros H. unfold best_candidate. rewrite (read_fitness_ok s H). cbn [bind].
  pose proof (fitness_of_length s H) as HL.
  assert (Hne : fitness_of c s <> []). { intros E. rewrite E in HL. cbn in HL. destruct Hc as (_ & H8 & _). lia. }
  destruct (read_state_same s) as (E1 & E2 & E3 & _). rewrite E1.
  destruct (argbest_ok (minimize (par s)) (fitness_of c s) Hne) as (i & Ei & Hi & HB). rewrite Ei. cbn [bind].
  rewrite (read_phenotypes_ok _ (read_state_coherent s H)). cbn [bind genotypes].
  eexists. split; [reflexivity|].
  set (gi := nth i (genotypes (read_state s)) []).
  assert (Hgi : binary (n_genes c) gi).
  { unfold gi. rewrite E2. destruct (proj1 H) as [HP1 HP2]. rewrite Forall_forall in HP2. apply HP2. apply nth_In. lia. }
  assert (Eph : nth i (map (decode_one (len c) (ranges c)) (genotypes (read_state s))) [] = decode_one (len c) (ranges c) gi).
  { rewrite (nth_indep _ [] (decode_one (len c) (ranges c) [])); [apply map_nth|].
    rewrite map_length, E2. destruct (proj1 H) as [HP1 _]. lia. }
  assert (Efit : nth i (fitness_of c s) zero = fnc c (decode_one (len c) (ranges c) gi)).
  { unfold gi. rewrite E2. unfold fitness_of. 
    rewrite (nth_indep _ zero (fnc c (decode_one (len c) (ranges c) []))) by (rewrite map_length; destruct (proj1 H) as [HP1 _]; lia).
    apply (map_nth (fun g => fnc c (decode_one (len c) (ranges c) g))). }
  split.
  - split; [exact Hgi|]. cbn [g_pheno g_geno g_fit]. split; [exact Eph|]. rewrite Eph. exact Efit.
  - exact HB.
Qed.

(** One selection and breeding step. *)
Definition offspring_of (s s' : ga F) : Prop :=
  exists sel off, selected (nPop c) (elites (nPop c) (elitism (par s))) (minimize (par s)) (fitness_of c s) (genotypes s) sel /\
    genotypes s' = sel ++ off /\ children_of (n_genes c) (p_m (par s)) sel off.

Lemma next_generation_ok s : good s ->
  always (next_generation argsort c s) (fun s' => good s' /\ par s' = par s /\ champion s' = champion s /\
    running s' = true /\ n_iter s' = n_iter s /\ stage s' = stage s /\
    if running s then offspring_of s s' /\ fitness s' = None /\
      n_fev s' = n_fev s + (match fitness s with None => nPop c | _ => 0 end)
    else genotypes s' = genotypes s /\ fitness s' = fitness s /\ n_fev s' = n_fev s).
Proof.
  intros [Hco Hp]. unfold next_generation. destruct (running s) eqn:R.
  - rewrite (read_fitness_ok s Hco).
    eapply always_bind; [apply (always_lift _ _ (eq (fitness_of c s, read_state s)) eq_refl eq_refl)|].
    intros [f s1] E. injection E as <- <-.
    destruct (read_state_same s) as (E1 & E2 & E3 & _ & _ & E6 & E7 & E8). rewrite E1, E2, E3, E6, E7, E8.
    destruct Hc as (C1 & C2 & C3). destruct Hp as (P1 & P2 & P3).
    pose proof (fitness_of_length s Hco) as HL.
    eapply always_bind; [apply (select_ok argsort); try assumption|]. intros sel Hsel.
    eapply always_bind.
    { apply (populate_some_ok (nPop c) (n_genes c) _ _ _ _ _ (genotypes s) sel (elitism (par s)) C1 C2 C3 P1 eq_refl Hsel HL (proj1 Hco)). }
    intros gs (off & Egs & HP & HCh). apply always_ret. cbn. 
    split; [|split; [reflexivity|split; [reflexivity|split; [reflexivity|split; [reflexivity|split; [reflexivity|]]]]]].
    + split; [|split; [exact P1|split; [exact P2|exact P3]]]. split; [exact HP|]. split; [|split]; cbn; try congruence.
      exact (proj2 (proj2 (proj2 Hco))).
    + split; [|auto]. exists sel, off. auto.
  - apply always_ret. cbn. split; [|auto 10]. split; [exact Hco|exact Hp].
Qed.

Definition stays_or_beaten (mini : bool) (s s' : ga F) (ch : genom F) : Prop :=
  match champion s with
  | None => g_age ch = 1
  | Some old =>
      (g_age ch = 1 /\ better mini (g_fit ch) (g_fit old) = true) \/
      (ch = Genom (g_pheno old) (g_geno old) (g_fit old) (g_age old + 1) (g_index old) /\
       forall x, In x (fitness_of c s') -> better mini x (g_fit old) = false)
  end.

(** One cycle. *)
Definition cycle (s s' : ga F) : Prop :=
  good s' /\ par s' = par s /\ running s' = true /\ fitness s' = Some (fitness_of c s') /\
  n_iter s' = n_iter s /\ stage s' = stage s /\
  (if running s then offspring_of s s' else genotypes s' = genotypes s) /\
  n_fev s' = n_fev s + (match fitness s with None => nPop c | _ => 0 end) + (if running s then nPop c else 0) /\
  exists ch, champion s' = Some ch /\ true_record c ch /\ leads c (minimize (par s)) ch s' /\
    stays_or_beaten (minimize (par s)) s s' ch /\
    (forall old, champion s = Some old -> as_good (minimize (par s)) (g_fit ch) (g_fit old)).

Lemma fitness_of_ext s s' : genotypes s = genotypes s' -> fitness_of c s = fitness_of c s'.
Proof. unfold fitness_of. intros ->. reflexivity. Qed.

Lemma evolve1_ok s : good s -> always (evolve1 argsort c s) (cycle s).
Proof.
  intros Hg. unfold evolve1. eapply always_bind; [apply next_generation_ok; exact Hg|].
  intros s1 (Hg1 & Ep & Ech & Er & En & Est & Hif).
  destruct (best_candidate_ok s1 (proj1 Hg1)) as (x & Ex & Hx & Hb).
  eapply always_bind; [apply (always_lift _ _ (eq (x, shown_state s1)) Ex eq_refl)|].
  intros [x' s2] E. injection E as <- <-. apply always_ret.
  destruct (read_state_same s1) as (E1 & E2 & E3 & E4 & E5 & E6 & E7 & E8).
  pose proof (shown_state_coherent s1 (proj1 Hg1)) as Hs.
  assert (Eg : genotypes (celebrate x (shown_state s1)) = genotypes s1) by (cbn; exact E2).
  assert (Ef : fitness_of c (celebrate x (shown_state s1)) = fitness_of c s1) by (apply fitness_of_ext; exact Eg).
  assert (Hrec : forall n, true_record c (Genom (g_pheno x) (g_geno x) (g_fit x) n (g_index x))) by (intros n; exact Hx).
  assert (Hop : op_min (par s) = minimize (par s)) by (exact (proj1 (proj2 (proj2 Hg)))).
  assert (Hold : forall old, champion s = Some old -> true_record c old) by (exact (proj2 (proj2 (proj2 (proj1 Hg))))).
  assert (HE : exists ch, champion (celebrate x (shown_state s1)) = Some ch /\ true_record c ch /\
     leads c (minimize (par s)) ch s1 /\ stays_or_beaten (minimize (par s)) s s1 ch /\
     (forall old, champion s = Some old -> as_good (minimize (par s)) (g_fit ch) (g_fit old))).
  { cbn [celebrate champion shown_state par]. rewrite E3, E1, Ech, Ep, Hop. rewrite Ep in Hb. unfold stays_or_beaten.
    destruct (champion s) as [old|].
    - destruct (better (minimize (par s)) (g_fit x) (g_fit old)) eqn:EB.
      + eexists. split; [reflexivity|]. split; [apply Hrec|]. split; [exact Hb|]. split; [left; split; [reflexivity|exact EB]|].
        intros o [= <-]. apply better_true. exact EB.
      + pose proof (better_false _ _ _ EB) as HG.
        eexists. split; [reflexivity|]. split; [exact (Hold old eq_refl)|].
        split; [unfold leads in *; eapply Forall_impl; [|exact Hb]; intros y Hy; eapply as_good_trans; [exact HG|exact Hy]|].
        split.
        * right. split; [reflexivity|]. intros y Hy. unfold leads in Hb. rewrite Forall_forall in Hb. specialize (Hb y Hy).
          pose proof (as_good_trans _ _ _ _ HG Hb) as H. cbn [g_fit]. clear - H.
          unfold better, as_good in *. destruct (minimize (par s)); rewrite H; reflexivity.
        * intros o [= <-]. apply as_good_refl.
    - eexists. split; [reflexivity|]. split; [apply Hrec|]. split; [exact Hb|]. split; [reflexivity|]. discriminate. }
  destruct HE as (ch & Ec & H1 & H2 & H3 & H4).
  assert (Epar : par (celebrate x (shown_state s1)) = par s) by (cbn; congruence).
  assert (Efit : fitness (celebrate x (shown_state s1)) = Some (fitness_of c (celebrate x (shown_state s1)))).
  { rewrite Ef. cbn [celebrate shown_state fitness]. destruct (fitness (read_state s1)) as [f|] eqn:Efr; [|congruence].
    destruct (read_state_coherent s1 (proj1 Hg1)) as (_ & _ & H & _). rewrite (H f Efr). rewrite (fitness_of_ext (read_state s1) s1 E2). reflexivity. }
  unfold cycle. rewrite Epar.
  split; [|split; [reflexivity|split; [cbn; congruence|split; [exact Efit|split; [cbn; congruence|split; [cbn; congruence|]]]]]].
  - split; [|rewrite Epar; rewrite <- Ep; exact (proj2 Hg1)].
    destruct Hs as (A1 & A2 & A3 & A4). split; [exact A1|]. split; [exact A2|]. split; [exact A3|].
    intros g Hgc. rewrite Ec in Hgc. injection Hgc as <-. exact H1.
  - split; [|split].
    + destruct (running s).
      * destruct Hif as [(sel & off & Hsel & Egs) _]. exists sel, off. split; [exact Hsel|]. rewrite Eg. exact Egs.
      * rewrite Eg. exact (proj1 Hif).
    + cbn [celebrate shown_state n_fev]. rewrite E8. destruct (running s).
      * destruct Hif as (_ & Hf & Hn). rewrite Hf, Hn. lia.
      * destruct Hif as (_ & Hf & Hn). rewrite Hf, Hn. lia.
    + exists ch. split; [exact Ec|]. split; [exact H1|]. split; [unfold leads in *; rewrite Ef; exact H2|].
      split; [|exact H4]. unfold stays_or_beaten in *. rewrite Ef. exact H3.
Qed.

(** ** Histories *)
Definition inv (p : params F) (k : nat) (looked : bool) (s : ga F) : Prop :=
  good s /\ par s = p /\
  if k =? 0
  then running s = false /\ champion s = None /\
       (if looked then fitness s <> None /\ n_fev s = nPop c else fitness s = None /\ n_fev s = 0)
  else running s = true /\ fitness s <> None /\ n_fev s = nPop c * k /\
       exists ch, champion s = Some ch /\ leads c (minimize p) ch s.

Lemma cycle_inv p k l s s' : inv p k l s -> cycle s s' -> inv p (S k) l s'.
Proof.
  intros (Hg & Ep & Hi) (A1 & A2 & A3 & A4 & A5 & A6 & A7 & A8 & ch & Ec & _ & Hl & _). unfold inv. cbn [Nat.eqb].
  split; [exact A1|]. split; [congruence|]. split; [exact A3|]. split; [congruence|].
  split; [|exists ch; rewrite <- Ep; auto]. rewrite A8.
  destruct (Nat.eqb_spec k 0) as [->|Hk].
  - destruct Hi as (R & _ & Hl'). rewrite R. destruct l; destruct Hl' as [Hf Hn]; rewrite Hn.
    + destruct (fitness s); [lia|congruence].
    + rewrite Hf. lia.
  - destruct Hi as (R & Hf & Hn & _). rewrite R, Hn. destruct (fitness s); [lia|congruence].
Qed.

Lemma evolve_inv p l n : forall k s, inv p k l s -> always (evolve argsort c n s) (inv p (n + k) l).
Proof.
  induction n as [|n IH]; intros k s H; cbn [evolve]; [apply always_ret; exact H|].
  eapply always_bind; [apply evolve1_ok; exact (proj1 H)|]. intros s1 H1.
  replace (S n + k) with (n + S k) by lia. apply IH. eapply cycle_inv; eassumption.
Qed.

Lemma inv_reset p : valid_params c p -> always (reset c p) (inv p 0 false).
Proof.
  intros Hp. unfold reset. destruct Hc as (C1 & C2 & C3).
  eapply always_bind; [apply (populate_none_ok _ _ _ _ C1 C2 C3)|]. intros g Hg. apply always_ret.
  split; [|cbn; auto]. split; [|exact Hp]. split; [exact Hg|]. cbn. repeat split; congruence.
Qed.

Lemma leads_ext mini g s s' : genotypes s = genotypes s' -> leads c mini g s -> leads c mini g s'.
Proof. unfold leads. intros E. rewrite (fitness_of_ext s s' E). auto. Qed.

Lemma read_state_good s : good s -> good (read_state s).
Proof. intros [H1 H2]. split; [apply read_state_coherent; exact H1|]. rewrite (proj1 (read_state_same s)). exact H2. Qed.

Lemma inv_seen p k l s s' : inv p k l s -> coherent c s' -> par s' = par s -> genotypes s' = genotypes s ->
  champion s' = champion s -> running s' = running s ->
  fitness s' <> None -> n_fev s' = n_fev s + (match fitness s with None => nPop c | _ => 0 end) -> inv p k true s'.
Proof.
  intros (Hg & Ep & Hi) H1 H2 H3 H4 H5 H6 H7. split; [split; [exact H1|rewrite H2; exact (proj2 Hg)]|]. split; [congruence|].
  rewrite H5, H4, H7. destruct (k =? 0).
  - destruct Hi as (R & C & L). split; [exact R|]. split; [exact C|]. split; [exact H6|].
    destruct l; destruct L as [Hf Hn]; rewrite Hn; [destruct (fitness s); [lia|congruence]|rewrite Hf; lia].
  - destruct Hi as (R & Hf & Hn & ch & Ec & Hl). split; [exact R|]. split; [exact H6|].
    split; [rewrite Hn; destruct (fitness s); [lia|congruence]|]. exists ch. split; [exact Ec|].
    eapply leads_ext; [symmetry; exact H3|exact Hl].
Qed.

Lemma inv_mono p k l s : inv p (S k) l s -> forall l', inv p (S k) l' s.
Proof. intros H l'. exact H. Qed.

Lemma apply_op_inv p k l o s : inv p k l s -> always (apply_op argsort c o s) (inv p (cycles_of o + k) (l || looks o)).
Proof.
  intros H. pose proof (proj1 (proj1 H)) as Hco. destruct o as [n| | |]; cbn [apply_op cycles_of looks].
  - rewrite orb_false_r. apply evolve_inv. exact H.
  - rewrite (read_fitness_ok s Hco), orb_true_r. cbn. intros r. eexists _, r. split; [reflexivity|]. cbn [snd].
    destruct (read_state_same s) as (E1 & E2 & E3 & E4 & E5 & E6 & E7 & E8).
    eapply inv_seen; eauto using read_state_coherent.
  - rewrite (read_phenotypes_ok s Hco), orb_false_r. intros r. eexists _, r. split; [reflexivity|]. cbn [snd].
    destruct H as ((_ & Hp) & Ep & Hi). split; [|split; [exact Ep|]].
    + split; [|exact Hp]. destruct Hco as (A1 & A2 & A3 & A4). split; [exact A1|]. split; [cbn; congruence|]. split; [exact A3|exact A4].
    + cbn. destruct (k =? 0); exact Hi.
  - destruct (best_candidate_ok s Hco) as (x & Ex & _). rewrite Ex, orb_true_r. intros r. eexists _, r. split; [reflexivity|]. cbn [snd].
    destruct (read_state_same s) as (E1 & E2 & E3 & E4 & E5 & E6 & E7 & E8).
    eapply inv_seen; try exact H; cbn [shown_state]; try assumption. apply shown_state_coherent. exact Hco.
Qed.

Lemma apply_ops_inv p os : forall k l s, inv p k l s ->
  always (apply_ops argsort c os s) (inv p (fold_right Nat.add 0 (map cycles_of os) + k) (l || existsb looks os)).
Proof.
  induction os as [|o os IH]; intros k l s H; cbn [apply_ops map fold_right existsb].
  - apply always_ret. rewrite orb_false_r. exact H.
  - eapply always_bind; [apply apply_op_inv; exact H|]. intros s1 H1.
    eapply always_weaken; [|apply IH; exact H1]. cbn beta. intros s2 H2.
    rewrite orb_assoc. replace (cycles_of o + _ + k) with (fold_right Nat.add 0 (map cycles_of os) + (cycles_of o + k)) by lia. exact H2.
Qed.

Lemma history_fev p os : valid_params c p ->
  always (mdo s <- reset c p ;; apply_ops argsort c os s)
    (fun s => coherent c s /\ n_fev s = nPop c * evaluated_populations os).
Proof.
  intros Hp. eapply always_bind; [apply inv_reset; exact Hp|]. intros s0 H0.
  eapply always_weaken; [|apply apply_ops_inv; exact H0]. cbn beta. rewrite Nat.add_0_r, orb_false_l.
  intros s (Hg & _ & Hi). split; [exact (proj1 Hg)|]. unfold evaluated_populations.
  destruct (_ =? 0); [|tauto]. destruct (existsb looks os); destruct Hi as (_ & _ & _ & ->); lia.
Qed.

(** Champions along a history. *)
Definition progress (mini : bool) (s s' : ga F) : Prop :=
  (forall ch, champion s = Some ch -> exists ch', champion s' = Some ch' /\ as_good mini (g_fit ch') (g_fit ch)).

Lemma progress_refl mini s : progress mini s s.
Proof. intros ch H. exists ch. split; [exact H|apply as_good_refl]. Qed.
Lemma progress_trans mini a b d : progress mini a b -> progress mini b d -> progress mini a d.
Proof.
  intros H1 H2 ch H. destruct (H1 ch H) as (ch1 & E1 & G1). destruct (H2 ch1 E1) as (ch2 & E2 & G2).
  exists ch2. split; [exact E2|]. eapply as_good_trans; eassumption.
Qed.

Lemma always_conj {A} (m : M (F := F) A) P Q : always m P -> always m Q -> always m (fun a => P a /\ Q a).
Proof.
  intros H1 H2 r. destruct (H1 r) as (a & r' & E & Ha). destruct (H2 r) as (b & r2 & E2 & Hb).
  rewrite E in E2. injection E2 as <- <-. exists a, r'. auto.
Qed.

Lemma evolve_progress n : forall s, good s ->
  always (evolve argsort c n s) (fun s' => good s' /\ par s' = par s /\ progress (minimize (par s)) s s').
Proof.
  induction n as [|n IH]; intros s Hg; cbn [evolve].
  - apply always_ret. split; [exact Hg|]. split; [reflexivity|apply progress_refl].
  - eapply always_bind; [apply evolve1_ok; exact Hg|]. intros s1 H1. pose proof H1 as (A1 & A2 & _ & _ & _ & _ & _ & _ & ch & Ec & _ & _ & _ & Hold).
    eapply always_weaken; [|apply IH; exact A1]. cbn beta. intros s2 (B1 & B2 & B3).
    split; [exact B1|]. split; [congruence|]. rewrite A2 in B3. eapply progress_trans; [|exact B3].
    intros old Eo. exists ch. split; [exact Ec|]. apply Hold. exact Eo.
Qed.

Lemma op_progress o s : good s ->
  always (apply_op argsort c o s) (fun s' => good s' /\ par s' = par s /\ progress (minimize (par s)) s s').
Proof.
  intros Hg. pose proof (proj1 Hg) as Hco. destruct o as [n| | |]; cbn [apply_op].
  - apply evolve_progress. exact Hg.
  - rewrite (read_fitness_ok s Hco). intros r. eexists _, r. split; [reflexivity|]. cbn [snd].
    destruct (read_state_same s) as (E1 & E2 & E3 & _). split; [apply read_state_good; exact Hg|]. split; [exact E1|].
    intros ch H. exists ch. split; [congruence|apply as_good_refl].
  - rewrite (read_phenotypes_ok s Hco). intros r. eexists _, r. split; [reflexivity|]. cbn [snd].
    split; [|split; [reflexivity|]].
    + split; [|exact (proj2 Hg)]. destruct Hco as (A1 & A2 & A3 & A4). split; [exact A1|]. split; [cbn; congruence|]. split; [exact A3|exact A4].
    + intros ch H. exists ch. split; [exact H|apply as_good_refl].
  - destruct (best_candidate_ok s Hco) as (x & Ex & _). rewrite Ex. intros r. eexists _, r. split; [reflexivity|]. cbn [snd].
    destruct (read_state_same s) as (E1 & E2 & E3 & _). split; [|split; [exact E1|]].
    + split; [apply shown_state_coherent; exact Hco|cbn; rewrite E1; exact (proj2 Hg)].
    + intros ch H. exists ch. split; [cbn; congruence|apply as_good_refl].
Qed.

Lemma ops_progress os : forall s, good s ->
  always (apply_ops argsort c os s) (fun s' => good s' /\ par s' = par s /\ progress (minimize (par s)) s s').
Proof.
  induction os as [|o os IH]; intros s Hg; cbn [apply_ops].
  - apply always_ret. split; [exact Hg|]. split; [reflexivity|apply progress_refl].
  - eapply always_bind; [apply op_progress; exact Hg|]. intros s1 (A1 & A2 & A3).
    eapply always_weaken; [|apply IH; exact A1]. cbn beta. intros s2 (B1 & B2 & B3).
    split; [exact B1|]. split; [congruence|]. rewrite A2 in B3. eapply progress_trans; eassumption.
Qed.

Lemma history_champion p os1 os2 : valid_params c p ->
  always (mdo s0 <- reset c p ;; mdo s1 <- apply_ops argsort c os1 s0 ;; mdo s2 <- apply_ops argsort c os2 s1 ;; ret (s1, s2))
    (fun ss => let '(s1, s2) := ss in
      coherent c s1 /\ coherent c s2 /\
      (fold_right Nat.add 0 (map cycles_of os1) <> 0 ->
       exists ch1 ch2, champion s1 = Some ch1 /\ champion s2 = Some ch2 /\
         leads c (minimize p) ch1 s1 /\ leads c (minimize p) ch2 s2 /\
         as_good (minimize p) (g_fit ch2) (g_fit ch1) /\ leads c (minimize p) ch2 s1)).
Proof.
  intros Hp. eapply always_bind; [apply inv_reset; exact Hp|]. intros s0 H0.
  eapply always_bind; [apply apply_ops_inv; exact H0|]. intros s1 H1.
  eapply always_bind; [apply always_conj; [apply (apply_ops_inv p os2 _ _ s1 H1)|apply ops_progress; exact (proj1 H1)]|].
  intros s2 [H2 (_ & _ & HP)]. apply always_ret.
  split; [exact (proj1 (proj1 H1))|]. split; [exact (proj1 (proj1 H2))|].
  intros Hne. destruct H1 as (G1 & P1 & I1). destruct H2 as (G2 & P2 & I2). rewrite Nat.add_0_r in *.
  apply Nat.eqb_neq in Hne. rewrite Hne in I1.
  apply Nat.eqb_neq in Hne. destruct (Nat.eqb_spec (fold_right Nat.add 0 (map cycles_of os2) + fold_right Nat.add 0 (map cycles_of os1)) 0) as [E|_]; [lia|].
  destruct I1 as (_ & _ & _ & ch1 & C1 & L1). destruct I2 as (_ & _ & _ & ch2 & C2 & L2).
  exists ch1, ch2. split; [exact C1|]. split; [exact C2|]. split; [exact L1|]. split; [exact L2|].
  rewrite P1 in HP. destruct (HP ch1 C1) as (ch2' & C2' & HG). rewrite C2 in C2'. injection C2' as <-.
  split; [exact HG|]. unfold leads in *. eapply Forall_impl; [|exact L1]. intros y Hy. eapply as_good_trans; eassumption.
Qed.

(** ** Elites *)
Lemma elite_survives s s' : good s -> offspring_of s s' ->
  exists order, best_first (minimize (par s)) (fitness_of c s) order /\
    firstn (elites (nPop c) (elitism (par s))) (genotypes s') =
    map (fun i => nth i (genotypes s) []) (firstn (elites (nPop c) (elitism (par s))) order).
Proof.
  intros [Hco Hp] (sel & off & (order & ws & Ho & _ & _ & ->) & -> & _). exists order. split; [exact Ho|].
  rewrite map_app, <- app_assoc, firstn_app, map_length, firstn_length_le.
  - rewrite Nat.sub_diag. cbn [firstn]. rewrite app_nil_r. apply firstn_all2. rewrite map_length, firstn_length. lia.
  - rewrite (best_first_length _ _ _ Ho), (fitness_of_length s Hco).
    destruct Hc as (_ & C2 & _). pose proof (workable_lt (nPop c) _ C2 (proj1 Hp)). lia.
Qed.

Lemma best_never_worse s s' : good s -> 1 <= elites (nPop c) (elitism (par s)) ->
  (offspring_of s s' \/ genotypes s' = genotypes s) ->
  exists y, In y (fitness_of c s') /\ Forall (as_good (minimize (par s)) y) (fitness_of c s).
Proof.
  intros Hg Hk [Ho|E].
  - destruct (elite_survives s s' Hg Ho) as (order & Hb & HE).
    pose proof (fitness_of_length s (proj1 Hg)) as HL. pose proof (best_first_length _ _ _ Hb) as HO.
    destruct Hc as (_ & C2 & _).
    set (i := nth 0 order 0).
    assert (Hi : i < nPop c).
    { assert (In i (seq 0 (length (fitness_of c s)))) by (eapply Permutation_in; [exact (proj1 Hb)|apply nth_In; lia]).
      apply in_seq in H. lia. }
    exists (fnc c (decode_one (len c) (ranges c) (nth i (genotypes s) []))). split.
    + unfold fitness_of. apply (in_map (fun g => fnc c (decode_one (len c) (ranges c) g))).
      rewrite <- (firstn_skipn (elites (nPop c) (elitism (par s))) (genotypes s')). apply in_or_app. left.
      rewrite HE. apply (in_map (fun i => nth i (genotypes s) [])).
      unfold i. destruct order as [|o order]; [cbn in HO; lia|]. destruct (elites _ _); [lia|]. left. reflexivity.
    + apply Forall_forall. intros y Hy. apply (In_nth _ _ zero) in Hy. destruct Hy as (j & Hj & <-).
      assert (Ei : fnc c (decode_one (len c) (ranges c) (nth i (genotypes s) [])) = nth i (fitness_of c s) zero).
      { unfold fitness_of. rewrite (nth_indep _ zero (fnc c (decode_one (len c) (ranges c) []))) by (rewrite map_length, (proj1 (proj1 (proj1 Hg))); exact Hi).
        symmetry. apply (map_nth (fun g => fnc c (decode_one (len c) (ranges c) g))). }
      rewrite Ei. assert (Hjo : In j order) by (eapply Permutation_in; [apply Permutation_sym; exact (proj1 Hb)|apply in_seq; lia]).
      apply (In_nth _ _ 0) in Hjo. destruct Hjo as (q & Hq & <-). destruct q as [|q]; [apply as_good_refl|].
      apply (proj2 Hb); lia.
  - pose proof (fitness_of_length s (proj1 Hg)) as HL. destruct Hc as (_ & C2 & _).
    destruct (argbest_ok (minimize (par s)) (fitness_of c s)) as (i & _ & Hi & HB); [intros E0; rewrite E0 in HL; cbn in HL; lia|].
    exists (nth i (fitness_of c s) zero). split; [|exact HB]. rewrite (fitness_of_ext s' s E). apply nth_In. exact Hi.
Qed.

Lemma history_population p os : valid_params c p ->
  always (mdo s <- reset c p ;; apply_ops argsort c os s)
    (fun s => length (genotypes s) = nPop c /\ Forall (binary (length (ranges c) * len c)) (genotypes s)).
Proof.
  intros Hp. eapply always_weaken; [|apply history_fev; exact Hp]. intros s [Hco _]. exact (proj1 Hco).
Qed.

Lemma history_offspring p os : valid_params c p ->
  always (mdo s0 <- reset c p ;; mdo s1 <- apply_ops argsort c os s0 ;; mdo s2 <- evolve argsort c 1 s1 ;; ret (s1, s2))
    (fun ss => let '(s1, s2) := ss in running s1 = true ->
      exists sel off,
        selected (nPop c) (elites (nPop c) (elitism p)) (minimize p) (fitness_of c s1) (genotypes s1) sel /\
        children_of (length (ranges c) * len c) (p_m p) sel off /\ genotypes s2 = sel ++ off).
Proof.
  intros Hp. eapply always_bind; [apply inv_reset; exact Hp|]. intros s0 H0.
  eapply always_bind; [apply apply_ops_inv; exact H0|]. intros s1 (Hg & Ep & _).
  eapply (always_bind _ _ (cycle s1)).
  { cbn [evolve]. eapply always_bind; [apply evolve1_ok; exact Hg|]. intros s2 H2. apply always_ret. exact H2. }
  intros s2 (_ & _ & _ & _ & _ & _ & Hif & _). apply always_ret.
  rewrite <- Ep. intros R. rewrite R in Hif. destruct Hif as (sel & off & H1 & H2 & H3). exists sel, off. auto.
Qed.
Lemma history_elites p os : valid_params c p -> let k := elites (nPop c) (elitism p) in
  always (mdo s0 <- reset c p ;; mdo s1 <- apply_ops argsort c os s0 ;; mdo s2 <- evolve argsort c 1 s1 ;; ret (s1, s2))
    (fun ss => let '(s1, s2) := ss in
      (exists order, best_first (minimize p) (fitness_of c s1) order /\
        (running s1 = true ->
         firstn k (genotypes s2) = map (fun i => nth i (genotypes s1) []) (firstn k order))) /\
      (running s1 = false -> genotypes s2 = genotypes s1) /\
      (1 <= k -> exists y, In y (fitness_of c s2) /\ Forall (as_good (minimize p) y) (fitness_of c s1))).
Proof.
  intros Hp k. eapply always_bind; [apply inv_reset; exact Hp|]. intros s0 H0.
  eapply always_bind; [apply apply_ops_inv; exact H0|]. intros s1 (Hg & Ep & _).
  eapply (always_bind _ _ (cycle s1)).
  { cbn [evolve]. eapply always_bind; [apply evolve1_ok; exact Hg|]. intros s2 H2. apply always_ret. exact H2. }
  intros s2 (_ & _ & _ & _ & _ & _ & Hif & _). apply always_ret.
  unfold k. rewrite <- Ep. destruct (running s1) eqn:R.
  - destruct (elite_survives s1 s2 Hg Hif) as (order & Ho & HE). split; [|split].
    + exists order. split; [exact Ho|intros _; exact HE].
    + discriminate.
    + intros Hk. apply best_never_worse; [exact Hg|exact Hk|left; exact Hif].
  - split; [|split].
    + exists (if minimize (par s1) then argsort (fitness_of c s1) else rev (argsort (fitness_of c s1))).
      split; [|discriminate]. destruct (minimize (par s1)); [apply best_first_fwd|apply best_first_rev]; exact HS.
    + intros _. exact Hif.
    + intros Hk. apply best_never_worse; [exact Hg|exact Hk|right; exact Hif].
Qed.
End Evolution.
End Run.
