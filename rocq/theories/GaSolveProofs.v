(** Proofs about [solve], the solution parameters and the failing configurations. *)
From Verif Require Import Prelude OField GaModel GaSpec GaProofs GaRunProofs.

Local Notation "'mdo' x <- m ;; k" := (mbind m (fun x => k))
  (at level 200, x pattern, m at level 100, k at level 200, right associativity).

Section Solve.
Context {F : ofield}.
Add Field GaS : (of_field F).
Variable argsort : list F -> list nat.
Variable c : config F.

Definition relabel (n : nat) (st : status) (x : result (ga F * rng F)) : result (ga F * rng F) :=
  match x with Ok (s, r) => Ok (with_iter s n st, r) | Err e => Err e end.

Lemma next_generation_iter s n st r :
  next_generation argsort c (with_iter s n st) r = relabel n st (next_generation argsort c s r).
Proof.
  destruct s as [p gs ph f ch run fev it stg].
  unfold next_generation, with_iter. cbn [running par genotypes phenotypes fitness champion n_fev n_iter stage].
  destruct run; [|reflexivity].
  unfold read_fitness, read_phenotypes, lift, mbind, ret, relabel.
  cbn [running par genotypes phenotypes fitness champion n_fev n_iter stage].
  destruct f as [f|]; [|destruct ph as [ph|]; [|destruct (decode (nPop c) (len c) (ranges c) gs) as [ph|e]; [|reflexivity]]];
    cbn [bind running par genotypes phenotypes fitness champion n_fev n_iter stage];
    (match goal with |- match ?X with _ => _ end = _ => destruct X as [[sel r1]|e]; [|reflexivity] end);
    (match goal with |- match ?X with _ => _ end = _ => destruct X as [[g r2]|e]; [|reflexivity] end); reflexivity.
Qed.

Lemma best_candidate_iter s n st : best_candidate c (with_iter s n st) =
  match best_candidate c s with Ok (x, s') => Ok (x, with_iter s' n st) | Err e => Err e end.
Proof.
  destruct s as [p gs ph f ch run fev it stg].
  unfold best_candidate, read_fitness, read_phenotypes, with_iter.
  cbn [running par genotypes phenotypes fitness champion n_fev n_iter stage].
  destruct f as [f|], ph as [ph|]; cbn [bind running par genotypes phenotypes fitness champion n_fev n_iter stage].
  - destruct (argbest (minimize p) f); reflexivity.
  - destruct (argbest (minimize p) f); cbn [bind]; [|reflexivity].
    destruct (decode (nPop c) (len c) (ranges c) gs); reflexivity.
  - destruct (argbest (minimize p) _); reflexivity.
  - destruct (decode (nPop c) (len c) (ranges c) gs); cbn [bind running par genotypes phenotypes fitness champion n_fev n_iter stage]; [|reflexivity].
    destruct (argbest (minimize p) _); reflexivity.
Qed.

Lemma evolve1_iter s n st r : evolve1 argsort c (with_iter s n st) r = relabel n st (evolve1 argsort c s r).
Proof.
  unfold evolve1, mbind. rewrite next_generation_iter.
  destruct (next_generation argsort c s r) as [[s1 r1]|e]; [|reflexivity]. cbn [relabel].
  unfold lift. rewrite best_candidate_iter. destruct (best_candidate c s1) as [[x s2]|e]; [|reflexivity].
  unfold ret, relabel. reflexivity.
Qed.

Lemma evolve_iter m : forall s n st r, evolve argsort c m (with_iter s n st) r = relabel n st (evolve argsort c m s r).
Proof.
  induction m as [|m IH]; intros s n st r; cbn [evolve]; [reflexivity|]. unfold mbind. rewrite evolve1_iter.
  destruct (evolve1 argsort c s r) as [[s1 r1]|e]; [|reflexivity]. cbn [relabel]. apply IH.
Qed.

Lemma evolve_last n : forall s r, evolve argsort c (S n) s r =
  match evolve argsort c n s r with Ok (s', r') => evolve1 argsort c s' r' | Err e => Err e end.
Proof.
  induction n as [|n IH]; intros s r.
  - cbn [evolve]. unfold mbind, ret. destruct (evolve1 argsort c s r) as [[s' r']|e]; reflexivity.
  - cbn [evolve] in *. unfold mbind in *. destruct (evolve1 argsort c s r) as [[s' r']|e]; [|reflexivity]. apply IH.
Qed.

Hypothesis HS : sorts argsort.
Hypothesis Hc : valid_config c.

Lemma stopping_iff (s : ga F) : stopping_criteria s = true <-> too_old (par s) s.
Proof.
  unfold stopping_criteria, too_old. destruct (champion s) as [ch|].
  - rewrite Z.ltb_lt. split; [intros H; exists ch; auto|intros (g & [= <-] & H); exact H].
  - split; [discriminate|intros (g & E & _); discriminate E].
Qed.

Lemma solve_loop_ok fuel : forall s r, good c s ->
  (Z.max (Z.of_nat (n_iter s) + 1) (maxiter (par s)) <= Z.of_nat (n_iter s + fuel))%Z ->
  exists n s' r', 1 <= n /\ evolve argsort c n s r = Ok (s', r') /\ par s' = par s /\
    solve_loop argsort c fuel s r = Ok (with_iter s' (n_iter s + n) (reason (par s) (n_iter s + n)), r') /\
    should_stop (par s) (n_iter s + n) s' /\
    (forall m sm rm, 1 <= m < n -> evolve argsort c m s r = Ok (sm, rm) -> ~ should_stop (par s) (n_iter s + m) sm).
Proof.
  induction fuel as [|fuel IH]; intros s r Hg Hf; [lia|]. cbn [solve_loop].
  destruct (evolve1_ok argsort HS c Hc s Hg r) as (s1 & r1 & E1 & Hcy).
  destruct Hcy as (A1 & A2 & _ & _ & A5 & A6 & _).
  unfold mbind. rewrite E1. set (i := n_iter s) in *.
  set (s2 := with_iter s1 (n_iter s1 + 1) (stage s1)).
  assert (Es2 : n_iter s2 = i + 1 /\ par s2 = par s /\ champion s2 = champion s1) by (cbn; rewrite A5; auto).
  destruct Es2 as (N2 & P2 & C2).
  assert (Hst : stopping_criteria s2 = stopping_criteria s1) by (unfold stopping_criteria; rewrite P2, C2, A2; reflexivity).
  rewrite N2, P2, Hst.
  assert (Hstop : ((stopping_criteria s1 || (maxiter (par s) <=? Z.of_nat (i + 1))%Z) && (miniter (par s) <=? Z.of_nat (i + 1))%Z) = true
                  <-> should_stop (par s) (i + 1) s1).
  { rewrite andb_true_iff, orb_true_iff, stopping_iff, !Z.leb_le, A2. reflexivity. }
  destruct ((stopping_criteria s1 || (maxiter (par s) <=? Z.of_nat (i + 1))%Z) && (miniter (par s) <=? Z.of_nat (i + 1))%Z) eqn:E.
  - exists 1, s1, r1. split; [lia|]. split; [cbn [evolve]; unfold mbind; rewrite E1; reflexivity|]. split; [exact A2|].
    split; [|split; [apply Hstop; reflexivity|intros m sm rm Hm; lia]].
    unfold ret. f_equal. f_equal. unfold reason. apply andb_true_iff in E. destruct E as [E _].
    destruct (maxiter (par s) <=? Z.of_nat (i + 1))%Z; [reflexivity|]. rewrite orb_false_r in E. rewrite E. reflexivity.
  - assert (Hg2 : good c s2) by exact A1.
    destruct (IH s2 r1 Hg2) as (n & s' & r' & Hn & Ev & Ep & El & Hs & Hmin).
    { rewrite N2, P2. destruct Hg as (_ & _ & _ & Hmm). cbn [par] in *.
      destruct (Z.leb_spec (maxiter (par s)) (Z.of_nat (i + 1))) as [Hle|Hgt].
      - exfalso. rewrite orb_true_r in E. cbn [andb] in E. apply Z.leb_gt in E. lia.
      - destruct fuel as [|fuel]; lia. }
    rewrite P2, N2 in *.
    assert (Evs : exists s'', evolve argsort c n s1 r1 = Ok (s'', r') /\ s' = with_iter s'' (i + 1) (stage s1)).
    { unfold s2 in Ev. rewrite evolve_iter in Ev. destruct (evolve argsort c n s1 r1) as [[s'' r'']|e]; [|discriminate Ev].
      cbn [relabel] in Ev. injection Ev as <- <-. exists s''. rewrite A5. auto. }
    destruct Evs as (s'' & Ev' & ->).
    exists (S n), s'', r'. split; [lia|]. split; [cbn [evolve]; unfold mbind; rewrite E1; exact Ev'|].
    split; [exact Ep|]. split; [|split].
    + rewrite El. f_equal. f_equal. replace (i + 1 + n) with (i + S n) by lia. reflexivity.
    + replace (i + S n) with (i + 1 + n) by lia. exact Hs.
    + intros m sm rm Hm Em. destruct m as [|m]; [lia|]. cbn [evolve] in Em. unfold mbind in Em. rewrite E1 in Em.
      destruct m as [|m].
      * cbn in Em. injection Em as <- <-. intros H. apply Hstop in H. discriminate H.
      * specialize (Hmin (S m) (with_iter sm (i + 1) (stage s1)) rm ltac:(lia)). unfold s2 in Hmin. rewrite evolve_iter, Em in Hmin.
        cbn [relabel] in Hmin. rewrite A5 in Hmin. specialize (Hmin eq_refl).
        replace (i + S (S m)) with (i + 1 + S m) by lia. exact Hmin.
Qed.

(** ** Parameters *)
Lemma set_params_ok n (k : kwargs F) p p' : set_solution_params n k p = (p', Ok tt) -> p' = overridden k p.
Proof.
  unfold set_solution_params. destruct (check_params n _) as [[]|e]; [|discriminate]. intros [= <-].
  unfold overridden. destruct k as [a b d e f g h]. destruct a, b, d, e, f, g, h; reflexivity.
Qed.

Lemma check_workable n (p : params F) : 8 <= n -> workable n (elitism p) -> (miniter p <= maxiter p)%Z -> check_params n p = Ok tt.
Proof.
  intros Hn [He _] Hm. unfold check_params. assert (E2 : (maxiter p <? miniter p)%Z = false) by (apply Z.ltb_ge; exact Hm).
  destruct (elitism p) as [|z|x]; [destruct He| |]; cbn [bind].
  - destruct (Z.leb_spec z 0); [lia|]. destruct (Z.leb_spec (Z.of_nat n) z); [lia|]. rewrite andb_false_r. cbn [bind]. rewrite E2. reflexivity.
  - destruct He as [H0 H1]. rewrite H0. rewrite (lt_le F x one H1). cbn [negb bind]. rewrite E2. reflexivity.
Qed.

Lemma check_params_iff n (p : params F) :
  (acceptable n (elitism p) /\ (miniter p <= maxiter p)%Z -> check_params n p = Ok tt) /\
  (~ (acceptable n (elitism p) /\ (miniter p <= maxiter p)%Z) -> check_params n p = Err ValueError).
Proof.
  unfold check_params, acceptable.
  assert (M : forall (A : Prop), (A /\ (miniter p <= maxiter p)%Z -> (if (maxiter p <? miniter p)%Z then Err ValueError else Ok tt) = Ok tt) /\
     (A -> ~ (A /\ (miniter p <= maxiter p)%Z) -> (if (maxiter p <? miniter p)%Z then Err ValueError else Ok tt) = Err ValueError)).
  { intros A. destruct (Z.ltb_spec (maxiter p) (miniter p)); split.
    - intros [_ ?]. lia.
    - reflexivity.
    - reflexivity.
    - intros HA HN. exfalso. apply HN. split; [exact HA|lia]. }
  destruct (elitism p) as [|z|x]; cbn [bind].
  - destruct (M True) as [M1 M2]. split; [exact M1|exact (M2 I)].
  - destruct (Z.leb_spec z 0); cbn [bind].
    { split; [intros [[? _] _]; lia|reflexivity]. }
    destruct (Z.ltb_spec 1 z); cbn [andb].
    + destruct (Z.leb_spec (Z.of_nat n) z); cbn [bind].
      * split; [intros [[_ [?|?]] _]; lia|reflexivity].
      * destruct (M ((0 < z)%Z /\ ((z < Z.of_nat n)%Z \/ z = 1%Z))) as [M1 M2]. split; [exact M1|]. apply M2. split; [lia|left; lia].
    + cbn [bind]. destruct (M ((0 < z)%Z /\ ((z < Z.of_nat n)%Z \/ z = 1%Z))) as [M1 M2]. split; [exact M1|]. apply M2. split; [lia|right; lia].
  - destruct (leb x zero) eqn:E0; cbn [bind].
    { split; [intros [[? _] _]; discriminate|reflexivity]. }
    destruct (leb x one) eqn:E1; cbn [negb bind].
    + destruct (M (false = false /\ true = true)) as [M1 M2]. split; [exact M1|]. apply M2. auto.
    + split; [intros [[_ ?] _]; discriminate|reflexivity].
Qed.
Lemma set_params_iff n (k : kwargs F) p : let p' := overridden k p in
  (acceptable n (elitism p') /\ (miniter p' <= maxiter p')%Z -> snd (set_solution_params n k p) = Ok tt) /\
  (~ (acceptable n (elitism p') /\ (miniter p' <= maxiter p')%Z) -> snd (set_solution_params n k p) = Err ValueError).
Proof.
  intros p'. unfold set_solution_params. set (p1 := Params _ _ _ _ _ _ _ _).
  assert (E : elitism p1 = elitism p' /\ miniter p1 = miniter p' /\ maxiter p1 = maxiter p').
  { unfold p1, p', overridden. destruct k as [a b d e f g h]. destruct a, b, d, e, f, g, h; auto. }
  destruct E as (<- & <- & <-). destruct (check_params_iff n p1) as [H1 H2]. split; intros H.
  - rewrite (H1 H). reflexivity.
  - rewrite (H2 H). reflexivity.
Qed.
Lemma set_params_workable n (k : kwargs F) p : 8 <= n -> workable n (elitism (overridden k p)) ->
  (miniter (overridden k p) <= maxiter (overridden k p))%Z -> set_solution_params n k p = (overridden k p, Ok tt).
Proof.
  intros Hn He Hm. unfold set_solution_params.
  set (p1 := Params _ _ _ _ _ _ _ _).
  assert (E : check_params n p1 = Ok tt).
  { apply check_workable; [exact Hn| |].
    - unfold p1, overridden in *. cbn [elitism] in *. destruct (k_elitism k); exact He.
    - unfold p1, overridden in *. cbn [miniter maxiter] in *. destruct (k_miniter k), (k_maxiter k); exact Hm. }
  rewrite E. unfold p1, overridden. destruct k as [a b d e f g h]. destruct a, b, d, e, f, g, h; reflexivity.
Qed.

(** ** solve, from scratch *)
Lemma solve_ok fuel (k : kwargs F) p r : valid_params c p -> workable (nPop c) (elitism (overridden k p)) ->
  (miniter (overridden k p) <= maxiter (overridden k p))%Z ->
  (Z.max 1 (maxiter (overridden k p)) <= Z.of_nat fuel)%Z ->
  let p' := overridden k p in
  exists s0 r0 n s' r', reset c p r = Ok (s0, r0) /\ 1 <= n /\
    let s0' := Ga p' (genotypes s0) None None None false 0 0 INITIALIZED in
    evolve argsort c n s0' r0 = Ok (s', r') /\
    solve argsort c fuel k p None r = Ok (with_iter s' n (reason p' n), r') /\
    should_stop p' n s' /\
    (forall m sm rm, 1 <= m < n -> evolve argsort c m s0' r0 = Ok (sm, rm) -> ~ should_stop p' m sm).
Proof.
  intros Hp He Hm Hf p'. destruct (inv_reset c Hc p Hp r) as (s0 & r0 & E0 & Hi).
  destruct Hi as (Hg & Ep & R & Ch & Ef & En). cbn [Nat.eqb] in *.
  assert (Hph : phenotypes s0 = None /\ n_iter s0 = 0).
  { clear - E0. unfold reset, mbind in E0. destruct (populate _ _ _ _ _ r) as [[g r1]|e]; [|discriminate E0].
    unfold ret in E0. injection E0 as <- <-. auto. }
  set (s0' := Ga p' (genotypes s0) None None None false 0 0 INITIALIZED).
  assert (Hg' : good c s0').
  { split.
    - destruct Hg as ((A & _) & _). split; [exact A|]. cbn. repeat split; congruence.
    - split; [exact He|]. split; [reflexivity|exact Hm]. }
  destruct (solve_loop_ok fuel s0' r0 Hg') as (n & s' & r' & Hn & Ev & Ep' & El & Hs & Hmin);
    [change (n_iter s0') with 0; change (par s0') with p'; fold p' in Hf; lia|].
  change (n_iter s0') with 0 in *; change (par s0') with p' in *. cbn [Nat.add] in *.
  exists s0, r0, n, s', r'. split; [exact E0|]. split; [exact Hn|]. split; [exact Ev|]. split; [|split; assumption].
  unfold solve, mbind. rewrite E0, Ep. destruct Hc as (_ & C2 & _).
  rewrite (set_params_workable (nPop c) k p C2 He Hm). rewrite (proj1 Hph), Ef, Ch, R, En, (proj2 Hph). exact El.
Qed.

Lemma stop_bounds (p : params F) n s : 1 <= n -> (miniter p <= maxiter p)%Z -> should_stop p n s ->
  (Z.max 1 (miniter p) <= Z.of_nat n)%Z.
Proof. intros Hn Hm [_ H]. lia. Qed.

Lemma first_stop_bound (p : params F) n s0 r0 sn rn : good c s0 -> par s0 = p -> 1 <= n ->
  (miniter p <= maxiter p)%Z -> evolve argsort c n s0 r0 = Ok (sn, rn) ->
  (forall m sm rm, 1 <= m < n -> evolve argsort c m s0 r0 = Ok (sm, rm) -> ~ should_stop p m sm) ->
  (Z.of_nat n <= Z.max 1 (maxiter p))%Z.
Proof.
  intros Hg Ep Hn Hm Ev Hmin. destruct (Z.le_gt_cases (Z.of_nat n) (Z.max 1 (maxiter p))) as [|Hgt]; [assumption|exfalso].
  destruct (evolve_progress argsort HS c Hc (n - 1) s0 Hg r0) as (sm & rm & Em & _).
  apply (Hmin (n - 1) sm rm); [lia|exact Em|]. split; [right; lia|lia].
Qed.

Lemma solve_full fuel (k : kwargs F) p r : valid_params c p -> let p' := overridden k p in
  workable (nPop c) (elitism p') -> (miniter p' <= maxiter p')%Z -> (Z.max 1 (maxiter p') <= Z.of_nat fuel)%Z ->
  exists s0 r0 n s' r', reset c p r = Ok (s0, r0) /\
    (Z.max 1 (miniter p') <= Z.of_nat n <= Z.max 1 (maxiter p'))%Z /\
    let s0' := Ga p' (genotypes s0) None None None false 0 0 INITIALIZED in
    evolve argsort c n s0' r0 = Ok (s', r') /\
    solve argsort c fuel k p None r = Ok (with_iter s' n (reason p' n), r') /\
    should_stop p' n s' /\
    (forall m sm rm, 1 <= m < n -> evolve argsort c m s0' r0 = Ok (sm, rm) -> ~ should_stop p' m sm).
Proof.
  intros Hp p' He Hm Hf. destruct (solve_ok fuel k p r Hp He Hm Hf) as (s0 & r0 & n & s' & r' & E0 & Hn & Ev & Es & Hs & Hmin).
  cbn zeta in Ev, Es. exists s0, r0, n, s', r'. split; [exact E0|]. split; [|auto].
  assert (Hg : good c (Ga p' (genotypes s0) None None None false 0 0 INITIALIZED)).
  { destruct (inv_reset c Hc p Hp r) as (s1 & r1 & E1 & ((A & _) & _) & _). rewrite E0 in E1. injection E1 as <- <-. split.
    - split; [exact A|]. cbn. repeat split; congruence.
    - split; [exact He|]. split; [reflexivity|exact Hm]. }
  split; [eapply stop_bounds; eassumption|]. eapply first_stop_bound; [exact Hg|reflexivity|exact Hn|exact Hm|exact Ev|exact Hmin].
Qed.

Lemma solve_fev fuel (k : kwargs F) p : valid_params c p -> let p' := overridden k p in
  workable (nPop c) (elitism p') -> (miniter p' <= maxiter p')%Z -> (Z.max 1 (maxiter p') <= Z.of_nat fuel)%Z ->
  always (solve argsort c fuel k p None) (fun s => coherent c s /\ n_fev s = nPop c * n_iter s).
Proof.
  intros Hp p' He Hm Hf r. destruct (solve_ok fuel k p r Hp He Hm Hf) as (s0 & r0 & n & s' & r' & E0 & Hn & Ev & Es & _).
  cbn zeta in Ev, Es. eexists _, r'. split; [exact Es|].
  assert (Hi : inv c p' 0 false (Ga p' (genotypes s0) None None None false 0 0 INITIALIZED)).
  { destruct (inv_reset c Hc p Hp r) as (s1 & r1 & E1 & ((A & _) & _) & _). rewrite E0 in E1. injection E1 as <- <-.
    split; [|cbn; auto]. split.
    - split; [exact A|]. cbn. repeat split; congruence.
    - split; [exact He|]. split; [reflexivity|exact Hm]. }
  destruct (evolve_inv argsort HS c Hc p' false n 0 _ Hi r0) as (s1 & r1 & E1 & Hg & _ & Hv). fold p' in Ev; rewrite Ev in E1. injection E1 as <- <-.
  split; [exact (proj1 Hg)|]. rewrite Nat.add_0_r in Hv. destruct n as [|n]; [lia|]. cbn [Nat.eqb] in Hv. cbn. tauto.
Qed.

(** The age counts the consecutive cycles the champion has led. *)
Lemma champion_age n : forall s r sn rn ch, good c s -> champion s = None ->
  evolve argsort c n s r = Ok (sn, rn) -> champion sn = Some ch ->
  1 <= g_age ch <= n /\
  forall j, j < g_age ch -> exists sm rm, evolve argsort c (n - j) s r = Ok (sm, rm) /\
    champion sm = Some (Genom (g_pheno ch) (g_geno ch) (g_fit ch) (g_age ch - j) (g_index ch)).
Proof.
  induction n as [|n IH]; intros s r sn rn ch Hg Hno Ev Ec.
  - cbn in Ev. injection Ev as <- <-. congruence.
  - pose proof Ev as Ev0. rewrite evolve_last in Ev.
    destruct (evolve_progress argsort HS c Hc n s Hg r) as (s1 & r1 & E1 & Hg1 & _). rewrite E1 in Ev.
    destruct (evolve1_ok argsort HS c Hc s1 Hg1 r1) as (s2 & r2 & E2 & Hcy). rewrite E2 in Ev. injection Ev as <- <-.
    destruct Hcy as (_ & _ & _ & _ & _ & _ & _ & _ & ch' & Ec' & _ & _ & Hst & _). rewrite Ec in Ec'. injection Ec' as <-.
    assert (Self : exists sm rm, evolve argsort c (S n - 0) s r = Ok (sm, rm) /\
       champion sm = Some (Genom (g_pheno ch) (g_geno ch) (g_fit ch) (g_age ch - 0) (g_index ch))).
    { exists s2, r2. rewrite !Nat.sub_0_r. split; [exact Ev0|]. rewrite Ec. destruct ch; reflexivity. }
    unfold stays_or_beaten in Hst. destruct (champion s1) as [old|] eqn:Eo.
    + destruct (IH s r s1 r1 old Hg Hno E1 Eo) as (Ha & Hj).
      destruct Hst as [[Hage _]|[Hch _]].
      * rewrite Hage. split; [lia|]. intros j Hj'. replace j with 0 by lia. rewrite Hage in Self. exact Self.
      * rewrite Hch in *. cbn [g_pheno g_geno g_fit g_age g_index] in *. split; [lia|].
        intros [|j] Hj'; [exact Self|]. destruct (Hj j ltac:(lia)) as (sm & rm & Em & Cm). exists sm, rm.
        cbn [Nat.sub]. split; [exact Em|]. rewrite Cm. f_equal. f_equal. lia.
    + rewrite Hst. split; [lia|]. intros j Hj'. replace j with 0 by lia. rewrite Hst in Self. exact Self.
Qed.
End Solve.

(** ** Configurations that do not work *)
Section Bad.
Context {F : ofield}.
Add Field GaB : (of_field F).

Definition keeps_rr {A} (m : M (F := F) A) : Prop := forall r a r', m r = Ok (a, r') -> rr r' = rr r.
Lemma keeps_ret {A} (a : A) : keeps_rr (ret a).
Proof. intros r b r' [= _ <-]. reflexivity. Qed.
Lemma keeps_bind {A B} (m : M (F := F) A) (f : A -> M B) : keeps_rr m -> (forall a, keeps_rr (f a)) -> keeps_rr (mbind m f).
Proof.
  intros H1 H2 r b r'. unfold mbind. destruct (m r) as [[a r1]|e] eqn:E; [|discriminate]. intros E2.
  rewrite (H2 a _ _ _ E2). exact (H1 _ _ _ E).
Qed.
Lemma keeps_fail {A} e : keeps_rr (fail (A := A) e).
Proof. intros r b r' [=]. Qed.
Lemma keeps_draw : keeps_rr (draw_int (F := F)).
Proof. intros r b r' [= _ <-]. reflexivity. Qed.
Lemma keeps_lift {A} (x : result A) : keeps_rr (lift x).
Proof. intros r b r'. unfold lift. destruct x; [|discriminate]. intros [= _ <-]. reflexivity. Qed.
Lemma keeps_randint lo hi : keeps_rr (randint (F := F) lo hi).
Proof. unfold randint. destruct (hi <=? lo); [apply keeps_fail|]. apply keeps_bind; [apply keeps_draw|]. intros a. apply keeps_ret. Qed.
Lemma keeps_repeat {A} n (m : M (F := F) A) : keeps_rr m -> keeps_rr (repeatM n m).
Proof.
  intros H. induction n as [|n IH]; cbn [repeatM]; [apply keeps_ret|]. apply keeps_bind; [exact H|]. intros x.
  apply keeps_bind; [exact IH|]. intros xs. apply keeps_ret.
Qed.
Lemma keeps_choice k : forall l, keeps_rr (choice (F := F) k l).
Proof.
  induction k as [|k IH]; intros l; cbn [choice]; [apply keeps_ret|]. destruct l as [|d l]; [apply keeps_fail|].
  apply keeps_bind; [apply keeps_draw|]. intros x. apply keeps_bind; [apply IH|]. intros p. apply keeps_ret.
Qed.
Lemma keeps_gen_next n g : keeps_rr (gen_next (F := F) n g).
Proof.
  unfold gen_next. destruct g as [pool np]. destruct (2 <? np); [|apply keeps_ret].
  apply keeps_bind; [apply keeps_choice|]. intros d. destruct d as [|a [|b [|? ?]]]; try apply keeps_fail. apply keeps_ret.
Qed.

(** Two parents are never paired. *)
Lemma populate_four L (pc pm : F) : always_raises (populate 4 L pc pm None) RuntimeError.
Proof.
  intros r. cbn [populate]. unfold mbind at 1. change (4 / 2) with 2.
  destruct (random_bits_ok 2 L r) as (g & r1 & E & Hg & _). rewrite E.
  unfold populate_from. rewrite Hg. cbn [Nat.ltb Nat.leb]. unfold to_runtime_error, mbind, lift, gen_start.
  cbn [Nat.modulo Nat.divmod fst snd Nat.sub Nat.eqb]. cbn [breed]. rewrite Hg. cbn [length Nat.add Nat.ltb Nat.leb]. reflexivity.
Qed.

(** With fewer than three genes there is no room for a cut. *)
Lemma populate_few_genes n L (pc pm : F) r : n mod 4 = 0 -> 4 <= n -> L <= 2 -> (forall k, leb (rr r k) pc = true) ->
  populate n L pc pm None r = Err RuntimeError.
Proof.
  intros H4 Hn HL Hpc. destruct (Nat.eq_dec n 4) as [->|Hne]; [apply populate_four|].
  assert (H8 : 8 <= n) by (pose proof (Nat.div_mod n 4 ltac:(lia)); lia).
  destruct (half_even n H4 H8) as (E1 & E2 & E3 & E4).
  cbn [populate]. unfold mbind at 1.
  destruct (random_bits_ok (n / 2) L r) as (g & r1 & E & Hg & HB). rewrite E.
  assert (K : rr r1 = rr r).
  { refine (keeps_repeat (n / 2) _ _ r g r1 E). apply keeps_repeat. apply keeps_bind; [apply keeps_randint|]. intros; apply keeps_ret. }
  unfold populate_from. rewrite Hg. destruct (Nat.ltb_spec (n / 2) n); [|lia].
  destruct (gen_start_ok (n / 2) E2 E3) as (g0 & Eg & Hok & HW). unfold to_runtime_error.
  unfold mbind at 1. unfold lift. rewrite Eg. destruct n as [|n']; [lia|]. set (n := S n') in *.
  change (match breed (S n') n L pc pm g g0 [] r1 with Ok x => Ok x | Err OutOfFuel => Err OutOfFuel | Err _ => Err RuntimeError end = Err RuntimeError).
  cbn [breed]. rewrite Hg. cbn [length Nat.add]. destruct (Nat.ltb_spec (n / 2) n); [|lia].
  unfold mbind at 1.
  destruct (gen_next_ok (F := F) (n / 2) g0 Hok ltac:(rewrite HW, seq_length; lia) r1) as (o & r2 & Eo & a & b & g' & -> & HP & _).
  rewrite Eo. pose proof (keeps_gen_next _ _ _ _ _ Eo) as K2.
  assert (Hlen : forall x, In x (seq 0 (n / 2)) -> length (nth x g []) = L).
  { intros x Hx. apply in_seq in Hx. rewrite Forall_forall in HB. apply (HB (nth x g [])). apply nth_In. lia. }
  rewrite HW in HP.
  assert (Ha : length (nth a g []) = L) by (apply Hlen; eapply Permutation_in; [apply Permutation_sym; exact HP|left; reflexivity]).
  assert (Hb : length (nth b g []) = L) by (apply Hlen; eapply Permutation_in; [apply Permutation_sym; exact HP|right; left; reflexivity]).
  unfold crossover, mbind, rand. rewrite K2, K, Hpc. cbn [negb]. rewrite Ha, Hb, Nat.eqb_refl. cbn [andb negb].
  unfold randint. destruct (Nat.leb_spec (L - 1) 1); [|lia]. reflexivity.
Qed.

(** An odd elite of more than half the population cannot be paired. *)
Lemma odd_elite_fails (argsort : list F -> list nat) n L z mini (pc pm : F) f gs : sorts argsort -> 8 <= n ->
  length f = n -> (Z.of_nat (n / 2) < z < Z.of_nat n)%Z -> Z.even z = false ->
  always_raises (mdo sel <- select argsort n (EInt z) mini f gs ;; populate n L pc pm (Some sel)) RuntimeError.
Proof.
  intros HS Hn Hf Hz Ho r.
  assert (Ek : exists s, best_first mini f s /\ divide argsort n (EInt z) mini f = Ok (firstn (Z.to_nat z) s, skipn (Z.to_nat z) s)).
  { exists (if mini then argsort f else rev (argsort f)). split; [destruct mini; [apply best_first_fwd|apply best_first_rev]; exact HS|].
    unfold divide. destruct (Z.ltb_spec z 1); [lia|]. reflexivity. }
  destruct Ek as (s & Hs & Ed). pose proof (best_first_length _ _ _ Hs) as HL.
  unfold select, mbind, lift. rewrite Ed. rewrite firstn_length_le by lia.
  replace (n / 2 - Z.to_nat z) with 0 by lia. cbn [tournaments]. unfold ret. cbn [populate]. unfold populate_from.
  rewrite map_length, firstn_length_le by lia. destruct (Nat.ltb_spec (Z.to_nat z) n); [|lia].
  unfold to_runtime_error, mbind, lift, gen_start.
  destruct (Nat.eqb_spec (Z.to_nat z mod 2) 0) as [E|E]; [|reflexivity]. exfalso.
  assert (H2 : (z mod 2 = 0)%Z). { apply (f_equal Z.of_nat) in E. rewrite Nat2Z.inj_mod, Z2Nat.id in E by lia. exact E. }
  rewrite Zeven_mod in Ho. rewrite H2 in Ho. discriminate Ho.
Qed.

Lemma none_fails (argsort : list F -> list nat) n mini f gs : always_raises (select argsort n ENone mini f gs) AttributeError.
Proof. intros r. reflexivity. Qed.

Lemma one_fails (argsort : list F -> list nat) n mini f gs : always_raises (select argsort n (EFloat one) mini f gs) TypeError.
Proof. intros r. unfold select, divide, mbind, lift. rewrite (le_refl F one). reflexivity. Qed.

Lemma none_accepted argsort n mini f gs (p : params F) : elitism p = ENone -> (miniter p <= maxiter p)%Z ->
  check_params n p = Ok tt /\ always_raises (select argsort n (elitism p) mini f gs) AttributeError.
Proof.
  intros E Hm. rewrite E. split; [|apply none_fails]. unfold check_params. rewrite E. cbn [bind].
  destruct (Z.ltb_spec (maxiter p) (miniter p)); [lia|reflexivity].
Qed.
Lemma one_accepted argsort n mini f gs (p : params F) : elitism p = EFloat one -> (miniter p <= maxiter p)%Z ->
  check_params n p = Ok tt /\ always_raises (select argsort n (elitism p) mini f gs) TypeError.
Proof.
  intros E Hm. rewrite E. split; [|apply one_fails]. unfold check_params. rewrite E, (le_refl F one), (lt_0_1 F). cbn [negb bind].
  destruct (Z.ltb_spec (maxiter p) (miniter p)); [lia|reflexivity].
Qed.
Lemma odd_accepted argsort n L z mini (pc pm : F) f gs p : sorts argsort -> 8 <= n ->
  length f = n -> elitism p = EInt z -> (Z.of_nat (n / 2) < z < Z.of_nat n)%Z -> Z.even z = false -> (miniter p <= maxiter p)%Z ->
  check_params (F := F) n p = Ok tt /\
  always_raises (mdo sel <- select argsort n (elitism p) mini f gs ;; populate n L pc pm (Some sel)) RuntimeError.
Proof.
  intros HS Hn Hf E Hz Ho Hm. rewrite E. split; [|apply odd_elite_fails; assumption]. unfold check_params. rewrite E.
  destruct (Z.leb_spec z 0); [lia|]. destruct (Z.leb_spec (Z.of_nat n) z); [lia|]. rewrite andb_false_r. cbn [bind].
  destruct (Z.ltb_spec (maxiter p) (miniter p)); [lia|reflexivity].
Qed.

(** [elite_count] is the integer part of [nPop * x]. *)
Lemma count_upto (P : nat -> bool) n : (forall i j, i <= j -> P j = true -> P i = true) ->
  forall m, m <= n -> (length (filter P (seq 1 n)) >= m <-> (forall k, 1 <= k <= m -> P k = true)).
Proof.
  intros HM. induction n as [|n IH]; intros m Hm.
  - cbn. split; [intros _ k Hk; lia|intros; lia].
  - rewrite seq_S, filter_app, app_length. cbn [filter Nat.add].
    assert (Hle : length (filter P (seq 1 n)) <= n).
    { rewrite <- (seq_length n 1) at 2. generalize (seq 1 n). intros l. induction l as [|y l IHl]; cbn; [lia|]. destruct (P y); cbn; lia. }
    destruct (P (S n)) eqn:E.
    + assert (Hall : length (filter P (seq 1 n)) >= n).
      { apply IH; [lia|]. intros k Hk. apply (HM k (S n)); [lia|exact E]. }
      cbn [length]. split; [|lia]. intros _ k Hk. apply (HM k (S n)); [lia|exact E].
    + cbn [length]. destruct (Nat.eq_dec m (S n)) as [->|Hne].
      * split; [lia|]. intros H. specialize (H (S n) ltac:(lia)). congruence.
      * rewrite Nat.add_0_r. apply IH. lia.
Qed.

Lemma elite_count_floor n (x : F) : leb x zero = false -> leb one x = false ->
  leb (of_nat (elite_count n x)) (mul (of_nat n) x) = true /\
  leb (of_nat (elite_count n x + 1)) (mul (of_nat n) x) = false.
Proof.
  intros H0 H1. unfold elite_count. set (P := fun k => leb (of_nat k) (mul (of_nat n) x)).
  assert (HM : forall i j, i <= j -> P j = true -> P i = true).
  { intros i j Hij Hj. unfold P in *. eapply le_trans; [|exact Hj]. apply of_nat_le. exact Hij. }
  pose proof (count_upto P n HM) as HC.
  assert (Hle : length (filter P (seq 1 n)) <= n).
  { rewrite <- (seq_length n 1) at 2. generalize (seq 1 n). intros l. induction l as [|y l IHl]; cbn; [lia|]. destruct (P y); cbn; lia. }
  set (m := length (filter P (seq 1 n))) in *. split.
  - destruct m as [|m'] eqn:Em.
    + cbn [of_nat]. apply mul_nonneg; [apply of_nat_nonneg|]. apply lt_le. exact H0.
    + apply (HC (S m')); [exact Hle|lia|lia].
  - destruct (Nat.eq_dec m n) as [E|Hne].
    + rewrite E. apply nle_lt. 
      assert (A : leb (mul (of_nat n) x) (of_nat n) = true).
      { replace (of_nat n) with (mul (of_nat n) (one : F)) at 2 by ring. apply mul_le_l; [apply of_nat_nonneg|]. apply lt_le. exact H1. }
      eapply le_lt_trans; [exact A|]. apply of_nat_lt. lia.
    + destruct (leb (of_nat (m + 1)) (mul (of_nat n) x)) eqn:E; [|reflexivity]. exfalso.
      assert (m >= m + 1); [|lia]. apply HC; [lia|]. intros k Hk. apply (HM k (m + 1)); [lia|exact E].
Qed.
End Bad.

Lemma population_size_smallest n : (0 < n)%Z ->
  exists m, population_size n = Ok m /\ (m mod 4 = 0)%Z /\ (n <= m)%Z /\
    (forall k, (k mod 4 = 0)%Z -> (n <= k)%Z -> (m <= k)%Z).
Proof.
  intros H. destruct (population_size_ok n H) as (m & E & H1 & H2). exists m. split; [exact E|]. split; [exact H1|].
  split; [lia|]. intros k Hk Hn. pose proof (Z.div_mod m 4). pose proof (Z.div_mod k 4). lia.
Qed.

(** ** A concrete argsort: stable insertion sort. *)
Section Isort.
Context {F : ofield}.
Variable l : list F.
Let v (i : nat) : F := nth i l zero.
Fixpoint ins (i : nat) (s : list nat) : list nat :=
  match s with [] => [i] | j :: s' => if leb (v i) (v j) then i :: s else j :: ins i s' end.
Definition isort_on : list nat := fold_right ins [] (seq 0 (length l)).

Lemma ins_perm i s : Permutation (ins i s) (i :: s).
Proof.
  induction s as [|j s IH]; cbn [ins]; [apply Permutation_refl|]. destruct (leb _ _); [apply Permutation_refl|].
  eapply Permutation_trans; [apply perm_skip; exact IH|apply perm_swap].
Qed.
Let R i j := leb (v i) (v j) = true.
Lemma ins_sorted i s : StronglySorted R s -> StronglySorted R (ins i s).
Proof.
  intros H. induction H as [|j s Hs IH Hj]; cbn [ins]; [repeat constructor|].
  destruct (leb (v i) (v j)) eqn:E.
  - constructor; [constructor; assumption|]. constructor; [exact E|].
    eapply Forall_impl; [|exact Hj]. intros k Hk. unfold R in *. eapply le_trans; eassumption.
  - constructor; [exact IH|]. rewrite Forall_forall in *. intros k Hk.
    apply (Permutation_in _ (ins_perm i s)) in Hk. destruct Hk as [<-|Hk]; [|apply Hj; exact Hk]. unfold R. apply lt_le. exact E.
Qed.
Lemma isort_on_ok : Permutation isort_on (seq 0 (length l)) /\ StronglySorted R isort_on.
Proof.
  unfold isort_on. generalize (seq 0 (length l)). intros s. induction s as [|i s [IH1 IH2]]; cbn [fold_right]; [split; constructor|].
  split; [eapply Permutation_trans; [apply ins_perm|constructor; exact IH1]|apply ins_sorted; exact IH2].
Qed.
Lemma isort_on_sorted i j : i < j -> j < length l -> leb (v (nth i isort_on 0)) (v (nth j isort_on 0)) = true.
Proof.
  destruct isort_on_ok as [HP HSo]. intros Hij Hj.
  assert (HL : j < length isort_on) by (rewrite (Permutation_length HP), seq_length; exact Hj). clear Hj HP.
  revert i j Hij HL. induction HSo as [|x s Hs IH Hx]; intros i j Hij HL; [cbn in HL; lia|].
  destruct j as [|j]; [lia|]. destruct i as [|i]; cbn.
  - rewrite Forall_forall in Hx. apply Hx. apply nth_In. cbn in HL. lia.
  - apply IH; cbn in HL; lia.
Qed.
End Isort.
Definition isort {F : ofield} (l : list F) : list nat := isort_on l.
Lemma isort_sorts {F : ofield} : sorts (isort (F := F)).
Proof. intros l. split; [apply isort_on_ok|apply isort_on_sorted]. Qed.
