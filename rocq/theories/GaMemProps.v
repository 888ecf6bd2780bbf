(** C110.  Who owns the arrays of a genetic algorithm. *)
From Verif Require Import Prelude WrapModel WrapProps GaMemModel.

(** * Specification *)
Section Spec.
Context {V D : Type} (pb : problem V D).
(** What the attributes of the solver give when they are read. *)
Definition genotypes (s : ga V) : list (list V) := rows s (pop s).
Definition phenotypes (s : ga V) : list (list V) := let (a, s1) := read_phen pb s in rows s1 a.
Definition fitness (s : ga V) : list V := let (a, s1) := read_fit pb s in fitness_at s1 a.
(** Genotype, phenotype and fitness of the champion. *)
Definition champion (s : ga V) : option (list V * list V * V) :=
  option_map (fun m => (items s (m_gen m), items s (m_phen m), m_fit m)) (champ s).
Definition solution (s : ga V) : option (list V) := option_map (items s) (state_x s).

(** The three attributes describe one population, the champion is a decoded and evaluated individual and the state
    shows the champion. *)
Definition coherent (s : ga V) : Prop :=
  phenotypes s = map (decode1 pb) (genotypes s) /\ fitness s = map (fnc pb) (phenotypes s) /\
  (forall g p v, champion s = Some (g, p, v) -> p = decode1 pb g /\ v = fnc pb p) /\
  solution s = option_map (fun r => snd (fst r)) (champion s).

(** Populations are not empty and the best index is an index. *)
Definition sound : Prop :=
  (forall f, f <> [] -> argbest pb f < length f) /\ (forall d g f, next_pop pb d g f <> []) /\ (forall d, first_pop pb d <> []).
Definition proper (c : cmd V D) : Prop := match c with NewArray m => m <> [] | _ => True end.

(** Memory that the solver holds at the moment. *)
Definition opt (o : option nat) : list nat := match o with Some a => [a] | None => [] end.
Definition held (s : ga V) : list nat :=
  pop s :: opt (phen s) ++ opt (fit s) ++ opt (state_x s) ++ match champ s with Some m => [m_gen m; m_phen m] | None => [] end.
(** A program that only edits what the solver does not hold at the time of the edit. *)
Fixpoint careful (w : world V) (cs : list (cmd V D)) : Prop :=
  match cs with
  | [] => True
  | c :: cs => match c with
               | Write k _ _ _ => forall r, nth_error (snd w) k = Some r -> ~ In (adr r) (held (fst w))
               | _ => True
               end /\ careful (step pb w c) cs
  end.
Definition is_write (c : cmd V D) : Prop := match c with Write _ _ _ _ => True | _ => False end.
(** What a variable of the program shows. *)
Definition value (w : world V) (k : nat) : option (cell V) :=
  match nth_error (snd w) k with Some r => nth_error (mem (fst w)) (adr r) | None => None end.
(** Has there been a cycle since the last reset? *)
Definition evolved (cs : list (cmd V D)) : bool :=
  fold_left (fun b c => match c with Evolve _ => true | Reset _ => false | _ => b end) cs false.
Definition program (d : D) (cs : list (cmd V D)) : world V := run pb (start pb d, []) cs.
End Spec.

(** * Proofs *)
Section Proofs.
Context {V D : Type} (pb : problem V D).
Local Notation ga := (ga V).
Local Notation dec := (decode1 pb).
Local Notation fn := (fnc pb).

Definition ext (m m' : list (cell V)) : Prop := exists l, m' = m ++ l.
Lemma ext_refl m : ext m m. Proof. exists []. now rewrite app_nil_r. Qed.
Lemma ext_trans m1 m2 m3 : ext m1 m2 -> ext m2 m3 -> ext m1 m3.
Proof. intros [l ->] [k ->]. exists (l ++ k). now rewrite app_assoc. Qed.
Lemma ext_nth m m' a c : ext m m' -> nth_error m a = Some c -> nth_error m' a = Some c.
Proof. intros [l ->] H. rewrite nth_error_app1; [exact H|]. apply nth_error_Some. congruence. Qed.
Lemma nth_last (m : list (cell V)) c l : nth_error (m ++ c :: l) (length m) = Some c.
Proof. rewrite nth_error_app2, Nat.sub_diag; [reflexivity|lia]. Qed.

Lemma phen_ext s : ext (mem s) (mem (snd (read_phen pb s))).
Proof. unfold read_phen. destruct (phen s); cbn; [apply ext_refl|eexists; reflexivity]. Qed.
Lemma fit_ext s : ext (mem s) (mem (snd (read_fit pb s))).
Proof.
  unfold read_fit. destruct (fit s); cbn; [apply ext_refl|].
  pose proof (phen_ext s). destruct (read_phen pb s) as [pa s1]; cbn in *.
  eapply ext_trans; [eassumption|eexists; reflexivity].
Qed.
Lemma best_ext s : ext (mem s) (mem (snd (best pb s))).
Proof.
  unfold best. pose proof (fit_ext s). destruct (read_fit pb s) as [fa s1]; cbn in *.
  pose proof (phen_ext s1). destruct (read_phen pb s1) as [pa s2]; cbn in *.
  eapply ext_trans; [eassumption|]. eapply ext_trans; [eassumption|eexists; reflexivity].
Qed.
Lemma evolve_ext d s : ext (mem s) (mem (evolve pb d s)).
Proof.
  unfold evolve.
  set (s1 := if running s then _ else _).
  assert (X : ext (mem s) (mem s1)).
  { unfold s1. destruct (running s); cbn; [|apply ext_refl].
    pose proof (fit_ext s). destruct (read_fit pb s) as [fa s0]; cbn in *. eapply ext_trans; [eassumption|eexists; reflexivity]. }
  pose proof (best_ext s1). destruct (best pb s1) as [m s2]; cbn in *. eapply ext_trans; eassumption.
Qed.
Lemma step_ext w c : ~ is_write c -> ext (mem (fst w)) (mem (fst (step pb w c))).
Proof.
  destruct w as [s vs]. intros Hc. destruct c as [d|d|[]| |m|k|k|k i j v]; cbn.
  - apply evolve_ext.
  - eexists; reflexivity.
  - apply ext_refl.
  - pose proof (phen_ext s). destruct (read_phen pb s); exact H.
  - pose proof (fit_ext s). destruct (read_fit pb s); exact H.
  - destruct (champ s); apply ext_refl.
  - destruct (champ s); apply ext_refl.
  - destruct (state_x s); apply ext_refl.
  - pose proof (best_ext s). destruct (best pb s); exact H.
  - eexists; reflexivity.
  - destruct (nth_error vs k) as [[]|]; cbn; try apply ext_refl; eexists; reflexivity.
  - destruct (nth_error vs k) as [[]|]; cbn; apply ext_refl.
  - elim Hc. exact I.
Qed.
Lemma step_vars w c : exists l, snd (step pb w c) = snd w ++ l.
Proof.
  destruct w as [s vs]. destruct c as [d|d|[]| |m|k|k|k i j v]; cbn;
    try (destruct (read_phen pb s)); try (destruct (read_fit pb s)); try (destruct (best pb s));
    try (destruct (champ s)); try (destruct (state_x s)); try (destruct (nth_error vs k) as [[]|]);
    cbn; try (destruct (nth_error _ _)); cbn; try (exists []; now rewrite app_nil_r); try (eexists; reflexivity).
Qed.

(** ** Arrays and lists are different things, whatever the program does *)
Definition arr (s : ga) a : Prop := exists m, nth_error (mem s) a = Some (Arr m).
Definition lst (s : ga) a : Prop := exists m, nth_error (mem s) a = Some (Lst m).
Definition kinds (s : ga) : Prop :=
  arr s (pop s) /\ (forall a, phen s = Some a -> arr s a) /\ (forall a, fit s = Some a -> arr s a) /\
  (forall m, champ s = Some m -> lst s (m_gen m) /\ lst s (m_phen m)) /\ (forall a, state_x s = Some a -> lst s a).
Definition vars (s : ga) (vs : list ref) : Prop := forall r, In r vs -> match r with RArr a => arr s a | RLst a => lst s a end.

Lemma arr_ext s s' a : ext (mem s) (mem s') -> arr s a -> arr s' a.
Proof. intros E [m H]. exists m. eapply ext_nth; eassumption. Qed.
Lemma lst_ext s s' a : ext (mem s) (mem s') -> lst s a -> lst s' a.
Proof. intros E [m H]. exists m. eapply ext_nth; eassumption. Qed.
Lemma vars_ext s s' vs : ext (mem s) (mem s') -> vars s vs -> vars s' vs.
Proof. intros E H r Hr. specialize (H r Hr). destruct r; [eapply arr_ext|eapply lst_ext]; eassumption. Qed.

Lemma phen_kinds s : kinds s -> kinds (snd (read_phen pb s)) /\ arr (snd (read_phen pb s)) (fst (read_phen pb s)).
Proof.
  intros K. pose proof K as (K1 & K2 & K3 & K4 & K5). pose proof (phen_ext s) as E. unfold read_phen in *.
  destruct (phen s) as [a|] eqn:Ep; cbn in *; [auto|].
  set (s1 := Ga _ _ _ _ _ _ _) in *.
  assert (A : arr s1 (length (mem s))) by (eexists; apply nth_last).
  split; [|exact A]. repeat split; cbn.
  - eapply arr_ext; eassumption.
  - intros a [= <-]. exact A.
  - intros a Ha. eapply arr_ext; eauto.
  - eapply lst_ext; [exact E|now apply K4].
  - eapply lst_ext; [exact E|now apply K4].
  - intros a Ha. eapply lst_ext; eauto.
Qed.
Lemma fit_kinds s : kinds s -> kinds (snd (read_fit pb s)) /\ arr (snd (read_fit pb s)) (fst (read_fit pb s)).
Proof.
  intros K. unfold read_fit. destruct (fit s) as [a|] eqn:Ef.
  - split; [exact K|]. destruct K as (_ & _ & K3 & _). now apply K3.
  - destruct (phen_kinds s K) as [K' _]. destruct (read_phen pb s) as [pa s1]; cbn in *.
    destruct K' as (K1 & K2 & K3 & K4 & K5).
    set (s2 := Ga _ _ _ _ _ _ _).
    assert (E : ext (mem s1) (mem s2)) by (eexists; reflexivity).
    assert (A : arr s2 (length (mem s1))) by (eexists; apply nth_last).
    split; [|exact A]. repeat split; cbn.
    + eapply arr_ext; eassumption.
    + intros a Ha. eapply arr_ext; eauto.
    + intros a [= <-]. exact A.
    + eapply lst_ext; [exact E|now apply K4].
    + eapply lst_ext; [exact E|now apply K4].
    + intros a Ha. eapply lst_ext; eauto.
Qed.
Lemma kinds_ext s s' : kinds s -> ext (mem s) (mem s') -> pop s' = pop s -> phen s' = phen s -> fit s' = fit s ->
  champ s' = champ s -> state_x s' = state_x s -> kinds s'.
Proof.
  intros (K1 & K2 & K3 & K4 & K5) E Ho Hp Hf Hc Hx. unfold kinds. rewrite Ho, Hp, Hf, Hc, Hx. repeat split.
  - eapply arr_ext; eassumption.
  - intros a Ha. eapply arr_ext; eauto.
  - intros a Ha. eapply arr_ext; eauto.
  - eapply lst_ext; [exact E|now apply K4].
  - eapply lst_ext; [exact E|now apply K4].
  - intros a Ha. eapply lst_ext; eauto.
Qed.
Lemma best_kinds s : kinds s -> let (m, s') := best pb s in kinds s' /\ lst s' (m_gen m) /\ lst s' (m_phen m).
Proof.
  intros K. unfold best. destruct (fit_kinds s K) as [K1 _]. destruct (read_fit pb s) as [fa s1]; cbn in *.
  destruct (phen_kinds s1 K1) as [K2 _]. destruct (read_phen pb s1) as [pa s2]; cbn in *.
  split; [|split].
  - eapply kinds_ext; [exact K2| |reflexivity..]. eexists; reflexivity.
  - eexists. cbn [mem m_gen]. rewrite nth_error_app2 by lia. replace (S (length (mem s2)) - length (mem s2)) with 1 by lia. reflexivity.
  - eexists. apply nth_last.
Qed.
Lemma best_champ s : champ (snd (best pb s)) = champ s.
Proof.
  unfold best, read_fit. destruct (fit s) eqn:Ef; unfold read_phen; cbn.
  - destruct (phen s) eqn:Ep; reflexivity.
  - destruct (phen s) eqn:Ep; cbn; rewrite ?Ep; reflexivity.
Qed.
Lemma new_kinds s m : kinds s -> kinds (new_pop s m).
Proof.
  intros (K1 & K2 & K3 & K4 & K5). unfold kinds, new_pop, set_pop; cbn.
  assert (E : ext (mem s) (mem (new_pop s m))) by (eexists; reflexivity).
  repeat split; try discriminate.
  - eexists; apply nth_last.
  - eapply (lst_ext s); [exact E|now apply K4].
  - eapply (lst_ext s); [exact E|now apply K4].
  - intros a Ha. eapply (lst_ext s); eauto.
Qed.
Lemma celebrate_kinds m s : kinds s -> lst s (m_gen m) -> lst s (m_phen m) -> kinds (celebrate pb m s).
Proof.
  intros (K1 & K2 & K3 & K4 & K5) Hg Hp. unfold celebrate.
  set (c := match champ s with Some c => if better pb (m_fit m) (m_fit c) then m else c | None => m end).
  assert (X : lst s (m_gen c) /\ lst s (m_phen c)).
  { unfold c. destruct (champ s) as [q|]; [destruct (better _ _ _); [split; assumption|apply K4; reflexivity]|split; assumption]. }
  repeat split; cbn; try assumption.
  - injection H as <-. apply X.
  - injection H as <-. apply X.
  - intros a [= <-]. apply X.
Qed.
Lemma evolve_kinds d s : kinds s -> kinds (evolve pb d s).
Proof.
  intros K. unfold evolve. set (s1 := if running s then _ else _).
  assert (X : kinds s1).
  { unfold s1. destruct (running s).
    - destruct (fit_kinds s K) as [K1 _]. destruct (read_fit pb s). now apply new_kinds.
    - exact K. }
  pose proof (best_kinds s1 X) as B. destruct (best pb s1) as [m s2]. destruct B as (B1 & B2 & B3). now apply celebrate_kinds.
Qed.

Lemma put_kind i j (v : V) c : match c with Arr _ => exists m, put c i j v = Arr m | Lst _ => exists m, put c i j v = Lst m end.
Proof. destruct c; eexists; reflexivity. Qed.
Lemma write_at (s : ga) a i j v c b : nth_error (mem s) a = Some c ->
  nth_error (set_nth a (put c i j v) (mem s)) b = if b =? a then Some (put c i j v) else nth_error (mem s) b.
Proof.
  intros H. destruct (Nat.eqb_spec b a) as [->|N].
  - apply set_nth_same. apply nth_error_Some. congruence.
  - apply set_nth_other. congruence.
Qed.
Lemma write_arr (s : ga) a i j v c b : nth_error (mem s) a = Some c -> arr s b -> arr (with_mem s (set_nth a (put c i j v) (mem s))) b.
Proof.
  intros H [m Hb]. unfold arr. cbn. rewrite (write_at s a i j v c b H). destruct (Nat.eqb_spec b a) as [->|N]; [|eauto].
  rewrite Hb in H. injection H as <-. eexists; reflexivity.
Qed.
Lemma write_lst (s : ga) a i j v c b : nth_error (mem s) a = Some c -> lst s b -> lst (with_mem s (set_nth a (put c i j v) (mem s))) b.
Proof.
  intros H [m Hb]. unfold lst. cbn. rewrite (write_at s a i j v c b H). destruct (Nat.eqb_spec b a) as [->|N]; [|eauto].
  rewrite Hb in H. injection H as <-. eexists; reflexivity.
Qed.

Lemma vars_snoc s vs r : vars s vs -> match r with RArr a => arr s a | RLst a => lst s a end -> vars s (vs ++ [r]).
Proof. intros H Hr q Hq. apply in_app_or in Hq as [Hq|[<-|[]]]; [now apply H|exact Hr]. Qed.

Lemma step_kinds w c : kinds (fst w) /\ vars (fst w) (snd w) -> kinds (fst (step pb w c)) /\ vars (fst (step pb w c)) (snd (step pb w c)).
Proof.
  destruct w as [s vs]. cbn [fst snd]. intros [K W].
  destruct c as [d|d|[]| |m|k|k|k i j v]; cbn.
  - split; [now apply evolve_kinds|]. eapply vars_ext; [apply evolve_ext|exact W].
  - assert (E : ext (mem s) (mem (reset pb d s))) by (eexists; reflexivity).
    split; [|eapply vars_ext; eassumption].
    unfold kinds; cbn. repeat split; try discriminate. eexists; apply nth_last.
  - split; [exact K|]. apply vars_snoc; [exact W|exact (proj1 K)].
  - pose proof (phen_kinds s K) as [K1 A]. pose proof (phen_ext s) as E. destruct (read_phen pb s) as [a s1]; cbn in *.
    split; [exact K1|]. apply vars_snoc; [eapply vars_ext; eassumption|exact A].
  - pose proof (fit_kinds s K) as [K1 A]. pose proof (fit_ext s) as E. destruct (read_fit pb s) as [a s1]; cbn in *.
    split; [exact K1|]. apply vars_snoc; [eapply vars_ext; eassumption|exact A].
  - destruct (champ s) as [m|] eqn:Ec; cbn; [|auto]. split; [exact K|]. apply vars_snoc; [exact W|]. destruct K as (_ & _ & _ & K4 & K5). now (apply K4 || apply K5).
  - destruct (champ s) as [m|] eqn:Ec; cbn; [|auto]. split; [exact K|]. apply vars_snoc; [exact W|]. destruct K as (_ & _ & _ & K4 & K5). now (apply K4 || apply K5).
  - destruct (state_x s) as [m|] eqn:Ec; cbn; [|auto]. split; [exact K|]. apply vars_snoc; [exact W|]. destruct K as (_ & _ & _ & K4 & K5). now (apply K4 || apply K5).
  - pose proof (best_kinds s K) as B. pose proof (best_ext s) as E. destruct (best pb s) as [m s1]; cbn in *.
    destruct B as (B1 & B2 & B3). split; [exact B1|].
    change [RLst (m_gen m); RLst (m_phen m)] with ([RLst (m_gen m)] ++ [RLst (m_phen m)]). rewrite app_assoc.
    apply vars_snoc; [|exact B3]. apply vars_snoc; [eapply vars_ext; eassumption|exact B2].
  - assert (E : ext (mem s) (mem (with_mem s (mem s ++ [Arr m])))) by (eexists; reflexivity).
    split; [eapply kinds_ext; [exact K|exact E|reflexivity..]|].
    apply vars_snoc; [eapply vars_ext; eassumption|]. eexists; apply nth_last.
  - destruct (nth_error vs k) as [[a|a]|] eqn:Ek; cbn; [| |auto].
    + assert (E : ext (mem s) (mem (with_mem s (mem s ++ [Arr (rows s a)])))) by (eexists; reflexivity).
      split; [eapply kinds_ext; [exact K|exact E|reflexivity..]|].
      apply vars_snoc; [eapply vars_ext; eassumption|]. eexists; apply nth_last.
    + assert (E : ext (mem s) (mem (with_mem s (mem s ++ [Lst (items s a)])))) by (eexists; reflexivity).
      split; [eapply kinds_ext; [exact K|exact E|reflexivity..]|].
      apply vars_snoc; [eapply vars_ext; eassumption|]. eexists; apply nth_last.
  - destruct (nth_error vs k) as [[a|a]|] eqn:Ek; cbn; auto. split; [|exact W].
    unfold kinds, set_pop; cbn. destruct K as (K1 & K2 & K3 & K4 & K5). repeat split; try discriminate; try (now apply K4); [|exact K5].
    apply (W (RArr a)). eapply nth_error_In, Ek.
  - destruct (nth_error vs k) as [r|] eqn:Ek; cbn; auto. destruct (nth_error (mem s) (adr r)) as [c|] eqn:Ec; cbn; auto.
    destruct K as (K1 & K2 & K3 & K4 & K5). split.
    + repeat split; cbn.
      * now apply write_arr.
      * intros a Ha. apply write_arr; auto.
      * intros a Ha. apply write_arr; auto.
      * apply write_lst; [exact Ec|now apply K4].
      * apply write_lst; [exact Ec|now apply K4].
      * intros a Ha. apply write_lst; auto.
    + intros q Hq. specialize (W q Hq). destruct q; [now apply write_arr|now apply write_lst].
Qed.
Lemma run_snoc w cs c : run pb w (cs ++ [c]) = step pb (run pb w cs) c.
Proof. unfold run. now rewrite fold_left_app. Qed.
Lemma start_kinds d : kinds (start pb d) /\ vars (start pb d) [].
Proof. split; [|intros r []]. unfold kinds; cbn. repeat split; try discriminate. now exists (first_pop pb d). Qed.
Lemma program_kinds d cs : let w := program pb d cs in kinds (fst w) /\ vars (fst w) (snd w).
Proof.
  cbv zeta. unfold program. induction cs as [|c cs IH] using rev_ind.
  - apply start_kinds.
  - rewrite run_snoc. now apply step_kinds.
Qed.
Lemma vars_value (w : world V) k : vars (fst w) (snd w) -> k < length (snd w) -> exists c, value w k = Some c.
Proof.
  intros W Hk. unfold value. destruct (nth_error (snd w) k) as [r|] eqn:E; [|apply nth_error_None in E; lia].
  specialize (W r (nth_error_In _ _ E)). destruct r; destruct W as [m Hm]; cbn; eauto.
Qed.
Lemma value_step w c k x : ~ is_write c -> value w k = Some x -> value (step pb w c) k = Some x.
Proof.
  intros Hc. pose proof (step_ext w c Hc) as E. destruct (step_vars w c) as [l Hl]. unfold value. rewrite Hl.
  destruct (nth_error (snd w) k) as [r|] eqn:Ek; [|discriminate]. rewrite nth_error_app1 by (apply nth_error_Some; congruence).
  rewrite Ek. now apply ext_nth.
Qed.

(** ** Coherence *)
Definition coh (s : ga) : Prop := exists g,
  nth_error (mem s) (pop s) = Some (Arr g) /\ g <> [] /\
  (forall a, phen s = Some a -> nth_error (mem s) a = Some (Arr (map dec g))) /\
  (forall a, fit s = Some a -> nth_error (mem s) a = Some (Arr [map fn (map dec g)])) /\
  (forall m, champ s = Some m -> exists q, nth_error (mem s) (m_gen m) = Some (Lst q) /\
     nth_error (mem s) (m_phen m) = Some (Lst (dec q)) /\ m_fit m = fn (dec q)) /\
  state_x s = option_map m_phen (champ s).
Definition full (s : ga) (vs : list ref) : Prop := forall a, In (RArr a) vs -> exists m, nth_error (mem s) a = Some (Arr m) /\ m <> [].
Definition champ_ok (s : ga) : Prop :=
  (forall m, champ s = Some m -> exists q, nth_error (mem s) (m_gen m) = Some (Lst q) /\
     nth_error (mem s) (m_phen m) = Some (Lst (dec q)) /\ m_fit m = fn (dec q)) /\
  state_x s = option_map m_phen (champ s).

Lemma coh_ext (s s' : ga) : coh s -> ext (mem s) (mem s') -> pop s' = pop s -> phen s' = phen s -> fit s' = fit s ->
  champ s' = champ s -> state_x s' = state_x s -> coh s'.
Proof.
  intros (g & H1 & H2 & H3 & H4 & H5 & H6) E Ho Hp Hf Hc Hx. exists g. rewrite Ho, Hp, Hf, Hc, Hx.
  split; [eapply ext_nth; eassumption|]. split; [exact H2|].
  split; [intros a Ha; eapply ext_nth; eauto|]. split; [intros a Ha; eapply ext_nth; eauto|]. split; [|exact H6].
  intros m Hm. destruct (H5 m Hm) as (q & Q1 & Q2 & Q3). exists q. repeat split; [eapply ext_nth; eassumption..|exact Q3].
Qed.
Lemma rows_at (s : ga) a m : nth_error (mem s) a = Some (Arr m) -> rows s a = m.
Proof. unfold rows. now intros ->. Qed.
Lemma items_at (s : ga) a m : nth_error (mem s) a = Some (Lst m) -> items s a = m.
Proof. unfold items. now intros ->. Qed.

Lemma phen_coh s : coh s -> let (a, s') := read_phen pb s in
  coh s' /\ rows s' (pop s') = rows s (pop s) /\ pop s' = pop s /\ phen s' = Some a /\ fit s' = fit s /\ champ s' = champ s /\ running s' = running s /\
  nth_error (mem s') a = Some (Arr (map dec (rows s (pop s)))).
Proof.
  intros C. pose proof C as (g & H1 & H2 & H3 & H4 & H5 & H6). pose proof (phen_ext s) as E. unfold read_phen in *.
  destruct (phen s) as [a|] eqn:Ep; cbn [snd] in *.
  - rewrite (rows_at _ _ _ H1). repeat split; auto.
  - set (s1 := Ga _ _ _ _ _ _ _) in *.
    assert (P : nth_error (mem s1) (length (mem s)) = Some (Arr (map dec g))).
    { cbn. rewrite (rows_at _ _ _ H1). apply nth_last. }
    split; [|repeat split; cbn].
    + exists g. split; [eapply ext_nth; eassumption|]. split; [exact H2|]. split; [intros a [= <-]; exact P|].
      split; [intros a Ha; eapply ext_nth; eauto|]. split; [|exact H6].
      intros m Hm. destruct (H5 m Hm) as (q & Q1 & Q2 & Q3). exists q. repeat split; [eapply ext_nth; eassumption..|exact Q3].
    + rewrite (rows_at _ _ _ H1). apply rows_at. eapply (ext_nth (mem s)); [exact E|exact H1].
    + rewrite (rows_at _ _ _ H1). cbn in P. rewrite (rows_at _ _ _ H1) in P. exact P.
Qed.
Lemma fit_coh s : coh s -> let (a, s') := read_fit pb s in
  coh s' /\ rows s' (pop s') = rows s (pop s) /\ pop s' = pop s /\ champ s' = champ s /\ running s' = running s /\
  nth_error (mem s') a = Some (Arr [map fn (map dec (rows s (pop s)))]).
Proof.
  intros C. unfold read_fit. destruct (fit s) as [a|] eqn:Ef.
  - repeat split; auto. destruct C as (g & H1 & H2 & H3 & H4 & H5 & H6). rewrite (rows_at _ _ _ H1). now apply H4.
  - pose proof (phen_coh s C) as P. destruct (read_phen pb s) as [pa s1]. destruct P as (C1 & Hr & Hpop & Hp & Hf & Hc & Hrun & P).
    pose proof C1 as (g & H1 & H2 & H3 & H4 & H5 & H6).
    set (s2 := Ga _ _ _ _ _ _ _).
    assert (E : ext (mem s1) (mem s2)) by (eexists; reflexivity).
    assert (G : rows s (pop s) = g) by (rewrite <- Hr; now apply rows_at).
    assert (F : nth_error (mem s2) (length (mem s1)) = Some (Arr [map fn (map dec g)])).
    { cbn. rewrite (rows_at _ _ _ P), G. apply nth_last. }
    rewrite G. split; [|repeat split].
    + exists g. split; [eapply ext_nth; eassumption|]. split; [exact H2|]. split; [intros a Ha; eapply ext_nth; eauto|].
      split; [intros a [= <-]; exact F|]. split; [|exact H6].
      intros m Hm. destruct (H5 m Hm) as (q & Q1 & Q2 & Q3). exists q. repeat split; [eapply ext_nth; eassumption..|exact Q3].
    + apply rows_at. eapply (ext_nth (mem s1)); [exact E|exact H1].
    + exact Hpop.
    + exact Hc.
    + exact Hrun.
    + exact F.
Qed.
Lemma best_coh s : sound pb -> coh s -> let (m, s') := best pb s in
  coh s' /\ champ s' = champ s /\
  exists q, nth_error (mem s') (m_gen m) = Some (Lst q) /\ nth_error (mem s') (m_phen m) = Some (Lst (dec q)) /\ m_fit m = fn (dec q).
Proof.
  intros [S1 _] C. unfold best. pose proof (fit_coh s C) as F. destruct (read_fit pb s) as [fa s1].
  destruct F as (C1 & R1 & P1 & Ch1 & _ & F). pose proof (phen_coh s1 C1) as P. pose proof (phen_ext s1) as E1.
  destruct (read_phen pb s1) as [pa s2]. cbn [snd] in E1.
  destruct P as (C2 & R2 & P2 & _ & _ & Ch2 & _ & P). pose proof C2 as (g & H1 & H2 & H3 & H4 & H5 & H6).
  assert (G : rows s (pop s) = g) by (rewrite <- R1, <- R2; now apply rows_at).
  assert (G1 : rows s1 (pop s1) = g) by (rewrite <- R2; now apply rows_at).
  rewrite G in F. rewrite G1 in P.
  assert (Ff : fitness_at s1 fa = map fn (map dec g)) by (unfold fitness_at; now rewrite (rows_at _ _ _ F)).
  assert (Ff2 : fitness_at s2 fa = map fn (map dec g)) by (unfold fitness_at; now rewrite (rows_at _ _ _ (ext_nth _ _ _ _ E1 F))).
  rewrite Ff, Ff2, (rows_at _ _ _ P), (rows_at _ _ _ H1).
  set (i := argbest pb (map fn (map dec g))).
  assert (Hi : i < length g).
  { unfold i. assert (X := S1 (map fn (map dec g))). rewrite !map_length in X. apply X. destruct g; [congruence|discriminate]. }
  split; [|split].
  - eapply coh_ext; [exact C2| |reflexivity..]. eexists; reflexivity.
  - cbn. now rewrite Ch2.
  - exists (nth i g []). cbn [m_gen m_phen m_fit mem]. split; [|split].
    + rewrite nth_error_app2 by lia. replace (S (length (mem s2)) - length (mem s2)) with 1 by lia. reflexivity.
    + rewrite nth_last. f_equal. f_equal. rewrite (nth_indep _ [] (dec []) ltac:(rewrite map_length; exact Hi)). apply map_nth.
    + rewrite map_map. rewrite (nth_indep _ (v0 pb) (fn (dec [])) ltac:(rewrite map_length; exact Hi)).
      exact (map_nth (fun x => fn (dec x)) g [] i).
Qed.
Lemma new_coh s m : m <> [] -> coh s -> coh (new_pop s m).
Proof.
  intros Hm (g & H1 & H2 & H3 & H4 & H5 & H6). exists m. unfold new_pop, set_pop; cbn.
  repeat split; auto; try discriminate; try apply nth_last.
  intros q Hq. destruct (H5 q Hq) as (x & Q1 & Q2 & Q3). exists x.
  repeat split; [eapply (ext_nth (mem s)); [eexists; reflexivity|assumption]..|exact Q3].
Qed.
Lemma evolve_coh d s : sound pb -> coh s -> coh (evolve pb d s).
Proof.
  intros S C. unfold evolve. set (s1 := if running s then _ else _).
  assert (X : coh s1).
  { unfold s1. destruct (running s).
    - pose proof (fit_coh s C) as F. destruct (read_fit pb s) as [fa s0]. apply new_coh; [apply S|apply F].
    - exact C. }
  pose proof (best_coh s1 S X) as B. destruct (best pb s1) as [m s2]. destruct B as ((g & H1 & H2 & H3 & H4 & H5 & H6) & Hc & Hq).
  exists g. unfold celebrate; cbn. repeat split; auto.
  intros m' [= <-]. destruct (champ s2) as [c|] eqn:Ec; [|exact Hq]. destruct (better _ _ _); [exact Hq|]. now apply H5.
Qed.

Lemma full_ext s s' vs : ext (mem s) (mem s') -> full s vs -> full s' vs.
Proof. intros E H a Ha. destruct (H a Ha) as (m & Hm & N). exists m. split; [eapply ext_nth; eassumption|exact N]. Qed.
Lemma full_snoc s vs r : full s vs -> match r with RArr a => exists m, nth_error (mem s) a = Some (Arr m) /\ m <> [] | RLst _ => True end -> full s (vs ++ [r]).
Proof. intros H Hr a Ha. apply in_app_or in Ha as [Ha|[->|[]]]; [now apply H|exact Hr]. Qed.
Lemma set_nth_nil {X} n (x : X) l : l <> [] -> set_nth n x l <> [].
Proof. destruct l, n; cbn; congruence. Qed.

Lemma step_coh w c : sound pb -> proper c -> careful pb w [c] ->
  coh (fst w) /\ full (fst w) (snd w) -> coh (fst (step pb w c)) /\ full (fst (step pb w c)) (snd (step pb w c)).
Proof.
  intros S Hp [Hw _]. destruct w as [s vs]. cbn [fst snd] in *. intros [C W].
  destruct c as [d|d|[]| |m|k|k|k i j v]; cbn [step] in *.
  - split; [now apply evolve_coh|]. eapply full_ext; [apply evolve_ext|exact W].
  - cbn. assert (E : ext (mem s) (mem (reset pb d s))) by (eexists; reflexivity).
    split; [|eapply full_ext; eassumption].
    exists (first_pop pb d). cbn. repeat split; try discriminate; [apply nth_last|apply S].
  - cbn. split; [exact C|]. apply full_snoc; [exact W|]. destruct C as (g & H1 & H2 & _). eauto.
  - pose proof (phen_coh s C) as P. pose proof (phen_ext s) as E. destruct (read_phen pb s) as [a s1]; cbn in *.
    split; [apply P|]. apply full_snoc; [eapply full_ext; eassumption|].
    destruct P as (_ & _ & _ & _ & _ & _ & _ & P). eexists; split; [exact P|].
    destruct C as (g & H1 & H2 & _). rewrite (rows_at _ _ _ H1). destruct g; [congruence|discriminate].
  - pose proof (fit_coh s C) as P. pose proof (fit_ext s) as E. destruct (read_fit pb s) as [a s1]; cbn in *.
    split; [apply P|]. apply full_snoc; [eapply full_ext; eassumption|].
    destruct P as (_ & _ & _ & _ & _ & P). eexists; split; [exact P|discriminate].
  - destruct (champ s) as [m|] eqn:Ec; cbn; [|auto]. split; [exact C|]. now apply full_snoc.
  - destruct (champ s) as [m|] eqn:Ec; cbn; [|auto]. split; [exact C|]. now apply full_snoc.
  - destruct (state_x s) as [m|] eqn:Ec; cbn; [|auto]. split; [exact C|]. now apply full_snoc.
  - pose proof (best_coh s S C) as B. pose proof (best_ext s) as E. destruct (best pb s) as [m s1]; cbn in *.
    split; [apply B|]. change [RLst (m_gen m); RLst (m_phen m)] with ([RLst (m_gen m)] ++ [RLst (m_phen m)]). rewrite app_assoc.
    apply full_snoc; [|exact I]. apply full_snoc; [eapply full_ext; eassumption|exact I].
  - cbn. assert (E : ext (mem s) (mem (with_mem s (mem s ++ [Arr m])))) by (eexists; reflexivity).
    split; [eapply coh_ext; [exact C|exact E|reflexivity..]|].
    apply full_snoc; [eapply full_ext; eassumption|]. eexists; split; [apply nth_last|exact Hp].
  - destruct (nth_error vs k) as [[a|a]|] eqn:Ek; cbn; [| |auto].
    + assert (E : ext (mem s) (mem (with_mem s (mem s ++ [Arr (rows s a)])))) by (eexists; reflexivity).
      split; [eapply coh_ext; [exact C|exact E|reflexivity..]|].
      apply full_snoc; [eapply full_ext; eassumption|]. eexists; split; [apply nth_last|].
      destruct (W a (nth_error_In _ _ Ek)) as (m & Hm & N). now rewrite (rows_at _ _ _ Hm).
    + assert (E : ext (mem s) (mem (with_mem s (mem s ++ [Lst (items s a)])))) by (eexists; reflexivity).
      split; [eapply coh_ext; [exact C|exact E|reflexivity..]|].
      apply full_snoc; [eapply full_ext; eassumption|exact I].
  - destruct (nth_error vs k) as [[a|a]|] eqn:Ek; cbn; auto. split; [|exact W].
    destruct (W a (nth_error_In _ _ Ek)) as (m & Hm & N). destruct C as (g & H1 & H2 & H3 & H4 & H5 & H6).
    exists m. cbn. repeat split; auto; discriminate.
  - destruct (nth_error vs k) as [r|] eqn:Ek; cbn; auto. destruct (nth_error (mem s) (adr r)) as [c|] eqn:Ec; cbn; auto.
    specialize (Hw r eq_refl). unfold held in Hw.
    set (s' := with_mem s _).
    assert (U : forall b, b <> adr r -> nth_error (mem s') b = nth_error (mem s) b).
    { intros b Hb. cbn. rewrite (write_at s (adr r) i j v c b Ec). apply Nat.eqb_neq in Hb. now rewrite Hb. }
    split.
    + destruct C as (g & H1 & H2 & H3 & H4 & H5 & H6). exists g.
      split; [rewrite U; [exact H1|]|]. { intros Hz. apply Hw. left. exact Hz. }
      split; [exact H2|]. split; [|split; [|split; [|exact H6]]].
      * intros a Ha. rewrite U; [now apply H3|]. intros ->. apply Hw. cbn in Ha. rewrite Ha. right. now left.
      * intros a Ha. rewrite U; [now apply H4|]. intros ->. apply Hw. cbn in Ha. rewrite Ha. right. apply in_or_app. right. now left.
      * intros m Hm. cbn in Hm. destruct (H5 m Hm) as (q & Q1 & Q2 & Q3). exists q. rewrite Hm in Hw.
        assert (Y : forall z, In z [m_gen m; m_phen m] -> z <> adr r).
        { intros z Hz ->. apply Hw. right. apply in_or_app. right. apply in_or_app. right. apply in_or_app. now right. }
        rewrite !U; [auto| |]; apply Y; cbn; auto.
    + intros a Ha. destruct (W a Ha) as (m & Hm & N). destruct (Nat.eq_dec a (adr r)) as [->|Na].
      * rewrite Hm in Ec. injection Ec as <-. eexists. split.
        -- unfold s', with_mem; cbn [mem]. rewrite (write_at s (adr r) i j v _ (adr r) Hm), Nat.eqb_refl. reflexivity.
        -- now apply set_nth_nil.
      * rewrite U by exact Na. eauto.
Qed.
Lemma coh_coherent s : coh s -> coherent pb s.
Proof.
  intros C. pose proof (phen_coh s C) as P. pose proof (fit_coh s C) as F. unfold coherent, phenotypes, fitness, genotypes.
  destruct (read_phen pb s) as [pa s1]. destruct (read_fit pb s) as [fa s2].
  destruct P as (_ & _ & _ & _ & _ & _ & _ & P). destruct F as (_ & _ & _ & _ & _ & F).
  rewrite (rows_at _ _ _ P). unfold fitness_at. rewrite (rows_at _ _ _ F). destruct C as (g & H1 & H2 & H3 & H4 & H5 & H6).
  split; [reflexivity|]. split; [reflexivity|]. unfold champion, solution. rewrite H6. split.
  - intros g' p v. destruct (champ s) as [m|]; [|discriminate]. cbn. destruct (H5 m eq_refl) as (q & Q1 & Q2 & Q3).
    rewrite (items_at _ _ _ Q1), (items_at _ _ _ Q2), Q3. intros [= <- <- <-]. auto.
  - destruct (champ s); reflexivity.
Qed.
Lemma run_coh w cs : sound pb -> Forall proper cs -> careful pb w cs -> coh (fst w) /\ full (fst w) (snd w) ->
  coh (fst (run pb w cs)) /\ full (fst (run pb w cs)) (snd (run pb w cs)).
Proof.
  intros S. revert w. induction cs as [|c cs IH]; intros w Hp Hc H; [exact H|]. inversion Hp; subst. destruct Hc as [Hc1 Hc2].
  cbn. apply IH; [assumption..|]. apply step_coh; [assumption..| |assumption]. split; [exact Hc1|exact I].
Qed.

(** ** The champion *)
Lemma champ_ext (s s' : ga) : kinds s -> ext (mem s) (mem s') -> champ s' = champ s -> champion s' = champion s.
Proof.
  intros (_ & _ & _ & K4 & _) E Hc. unfold champion. rewrite Hc. destruct (champ s) as [m|]; [|reflexivity]. cbn.
  destruct (K4 m eq_refl) as [[g Hg] [p Hp]].
  rewrite (items_at _ _ _ Hg), (items_at _ _ _ Hp), (items_at s' _ _ (ext_nth _ _ _ _ E Hg)), (items_at s' _ _ (ext_nth _ _ _ _ E Hp)).
  reflexivity.
Qed.
Lemma fit_champ s : champ (snd (read_fit pb s)) = champ s.
Proof. unfold read_fit, read_phen. destruct (fit s); [reflexivity|]. destruct (phen s); reflexivity. Qed.
Lemma phen_champ s : champ (snd (read_phen pb s)) = champ s.
Proof. unfold read_phen. destruct (phen s); reflexivity. Qed.
Lemma evolve_champion d s : kinds s ->
  champion (evolve pb d s) = champion s \/ champ s = None \/
  exists m n, champ s = Some m /\ champ (evolve pb d s) = Some n /\ better pb (m_fit n) (m_fit m) = true.
Proof.
  intros K. unfold evolve. set (s1 := if running s then _ else _).
  assert (X : kinds s1 /\ champ s1 = champ s /\ ext (mem s) (mem s1)).
  { unfold s1. destruct (running s); [|split; [exact K|split; [reflexivity|apply ext_refl]]].
    pose proof (fit_kinds s K) as [K1 _]. pose proof (fit_champ s) as F. pose proof (fit_ext s) as E.
    destruct (read_fit pb s) as [fa s0]; cbn in *.
    split; [now apply new_kinds|]. split; [exact F|]. eapply ext_trans; [exact E|eexists; reflexivity]. }
  destruct X as (K1 & Hc & E). pose proof (best_champ s1) as Bc. pose proof (best_ext s1) as Be. destruct (best pb s1) as [m s2].
  cbn [snd] in *. destruct (champ s) as [c|] eqn:Ec; [|auto].
  unfold celebrate. rewrite Bc, Hc. destruct (better pb (m_fit m) (m_fit c)) eqn:Eb.
  - right; right. exists c, m. auto.
  - left. apply champ_ext; [exact K|eapply ext_trans; [exact E|exact Be]|]. cbn. now rewrite Ec.
Qed.
End Proofs.

(** * Theorems *)
Section Theorems.
Context {V D : Type} (pb : problem V D).

(** Whatever has happened, what a program has read from the solver (arrays, lists, copies) is not
    changed by anything that the solver does later: only the program's own edits change it. *)
Theorem C110_snapshots : forall d cs cs' k, Forall (fun c => ~ is_write c) cs' ->
  k < length (snd (program pb d cs)) ->
  exists c, value (program pb d cs) k = Some c /\ value (program pb d (cs ++ cs')) k = Some c.
Proof.
  intros d cs cs' k Hw Hk. destruct (program_kinds pb d cs) as [_ W].
  destruct (vars_value (program pb d cs) k W Hk) as [c Hc]. exists c. split; [exact Hc|].
  unfold program, run in *. rewrite fold_left_app. fold (run pb (start pb d, []) cs) in *.
  revert Hc. generalize (run pb (start pb d, []) cs). induction Hw as [|x l Hx Hl IH]; intros w Hc; [exact Hc|].
  cbn. apply IH. now apply value_step.
Qed.

(** A program that edits only arrays and lists that the solver does not hold at that time (its own arrays, copies,
    populations of the past, ...) always sees a coherent solver. *)
Theorem C110_coherent : forall d cs, sound pb -> Forall proper cs -> careful pb (start pb d, []) cs ->
  coherent pb (fst (program pb d cs)).
Proof.
  intros d cs S Hp Hc. apply coh_coherent. unfold program. apply run_coh; [assumption..|]. split; [|intros a []].
  exists (first_pop pb d). cbn. repeat split; try discriminate. apply S.
Qed.

(** The champion owns its data: no edit of an array, be it the population that the solver works on, changes genotype,
    phenotype or fitness of the champion, and no other statement but a cycle of evolution or a reset does; evolution
    replaces it only by one with a better fitness. *)
Theorem C110_champion : forall d cs c, let w := program pb d cs in
  (forall k i j v, c = Write k i j v -> forall a, nth_error (snd w) k <> Some (RLst a)) ->
  champion (fst (step pb w c)) = champion (fst w) \/ (exists d', c = Reset d') \/
  (exists d', c = Evolve d' /\ forall old, champion (fst w) = Some old ->
     exists new, champion (fst (step pb w c)) = Some new /\ better pb (snd new) (snd old) = true).
Proof.
  intros d cs c w Hw. destruct (program_kinds pb d cs) as [K W]. fold w in K, W. destruct w as [s vs]; cbn [fst snd] in *.
  destruct c as [e|e|x| |m|k|k|k i j v].
  - destruct (evolve_champion pb e s K) as [H|[H|(m & n & Hm & Hn & Hb)]].
    + left. exact H.
    + right; right. exists e. split; [reflexivity|]. intros old. unfold champion. rewrite H. discriminate.
    + right; right. exists e. split; [reflexivity|]. intros old. unfold champion. rewrite Hm. cbn [step fst]. rewrite Hn. intros [= <-].
      eexists. split; [reflexivity|exact Hb].
  - eauto.
  - left. apply champ_ext; [exact K|apply (step_ext pb (s, vs) (Keep x)); exact (fun h => h)|]. destruct x; cbn.
    + reflexivity.
    + pose proof (phen_champ pb s). destruct (read_phen pb s); exact H.
    + pose proof (fit_champ pb s). destruct (read_fit pb s); exact H.
    + destruct (champ s) eqn:Ec; exact Ec.
    + destruct (champ s) eqn:Ec; exact Ec.
    + destruct (state_x s); reflexivity.
  - left. apply champ_ext; [exact K|apply (step_ext pb (s, vs) KeepBest); exact (fun h => h)|]. cbn.
    pose proof (best_champ pb s). destruct (best pb s); exact H.
  - left. apply champ_ext; [exact K|apply (step_ext pb (s, vs) (NewArray m)); exact (fun h => h)|]. reflexivity.
  - left. apply champ_ext; [exact K|apply (step_ext pb (s, vs) (Copy k)); exact (fun h => h)|]. cbn.
    destruct (nth_error vs k) as [[]|]; reflexivity.
  - left. apply champ_ext; [exact K|apply (step_ext pb (s, vs) (Assign k)); exact (fun h => h)|]. cbn.
    destruct (nth_error vs k) as [[]|]; reflexivity.
  - left. specialize (Hw k i j v eq_refl). cbn. destruct (nth_error vs k) as [[a|a]|] eqn:Ek; [|elim (Hw a); reflexivity|reflexivity].
    cbn. destruct (nth_error (mem s) a) as [c|] eqn:Ec; [|reflexivity].
    destruct (W (RArr a) (nth_error_In _ _ Ek)) as [m Hm]. destruct K as (_ & _ & _ & K4 & _).
    unfold champion. cbn. destruct (champ s) as [q|]; [|reflexivity]. cbn. destruct (K4 q eq_refl) as [[g Hg] [p Hp]].
    assert (U : forall b l, nth_error (mem s) b = Some (Lst l) -> items (with_mem s (set_nth a (put c i j v) (mem s))) b = items s b).
    { intros b l Hb. unfold items. cbn. rewrite (write_at s a i j v c b Ec). destruct (Nat.eqb_spec b a) as [->|N]; [congruence|reflexivity]. }
    now rewrite (U _ _ Hg), (U _ _ Hp).
Qed.

(** Assigning an array to [genotypes] makes the solver forget what it knew: whatever was edited before, phenotypes and fitness
    are those of that array. *)
Theorem C110_assign : forall d cs k m, value (program pb d cs) k = Some (Arr m) ->
  let s := fst (program pb d (cs ++ [Assign k])) in
  genotypes s = m /\ phenotypes pb s = map (decode1 pb) m /\ fitness pb s = map (fun g => fnc pb (decode1 pb g)) m.
Proof.
  intros d cs k m Hk. unfold program in *. rewrite run_snoc. fold (program pb d cs) in *.
  destruct (program_kinds pb d cs) as [K W].
  destruct (program pb d cs) as [s vs]; cbn [fst snd] in *. unfold value in Hk. cbn [fst snd] in Hk.
  cbn [step]. destruct (nth_error vs k) as [r|] eqn:Ek; [|discriminate].
  pose proof (W r (nth_error_In _ _ Ek)) as Wr. destruct r as [a|a]; cbn in Hk.
  2: { destruct Wr as [l Hl]. congruence. }
  cbn [fst]. set (s1 := set_pop s a).
  assert (G : rows s1 (pop s1) = m) by (unfold rows; cbn; now rewrite Hk).
  split; [exact G|]. unfold phenotypes, fitness, read_fit, read_phen. cbn [phen fit s1 set_pop]. fold s1. rewrite G.
  split.
  - unfold rows. cbn. now rewrite nth_last.
  - unfold fitness_at, rows. cbn. repeat rewrite nth_last. cbn. now rewrite map_map.
Qed.

(** The first cycle after a reset keeps the population, the others replace it by one made from what the attributes
    show; all of this whatever was edited. *)
Theorem C110_cycle : forall d cs e, let s := fst (program pb d cs) in
  genotypes (fst (program pb d (cs ++ [Evolve e]))) =
    if evolved cs then next_pop pb e (genotypes s) (fitness pb s) else genotypes s.
Proof.
  intros d cs e. cbv zeta.
  assert (X : running (fst (program pb d cs)) = evolved cs).
  { unfold program, evolved. induction cs as [|c cs IH] using rev_ind; [reflexivity|].
    rewrite run_snoc, fold_left_app. destruct (run pb (start pb d, []) cs) as [s vs]. cbn [fst fold_left] in *.
    assert (P : running (snd (read_phen pb s)) = running s) by (unfold read_phen; destruct (phen s); reflexivity).
    assert (Q : running (snd (read_fit pb s)) = running s).
    { unfold read_fit, read_phen; destruct (fit s); [reflexivity|]. destruct (phen s); reflexivity. }
    assert (R : forall s, running (snd (best pb s)) = running s).
    { intros t. unfold best, read_fit. destruct (fit t) eqn:Ef; unfold read_phen; cbn; destruct (phen t) eqn:Ep; cbn; rewrite ?Ep; reflexivity. }
    destruct c as [x|x|[]| |m|k|k|k i j v]; cbn.
    - unfold evolve. set (s1 := if running s then _ else _). pose proof (R s1) as R1. destruct (best pb s1) as [m s2]. cbn in *.
      rewrite R1. unfold s1. destruct (running s) eqn:Er; [|reflexivity]. destruct (read_fit pb s); cbn in *. congruence.
    - reflexivity.
    - exact IH.
    - destruct (read_phen pb s); cbn in *; congruence.
    - destruct (read_fit pb s); cbn in *; congruence.
    - destruct (champ s); exact IH.
    - destruct (champ s); exact IH.
    - destruct (state_x s); exact IH.
    - specialize (R s). destruct (best pb s); cbn in *; congruence.
    - exact IH.
    - destruct (nth_error vs k) as [[]|]; exact IH.
    - destruct (nth_error vs k) as [[]|]; exact IH.
    - destruct (nth_error vs k) as [r|]; [|exact IH]. destruct (nth_error (mem s) (adr r)); exact IH. }
  rewrite <- X. destruct (program_kinds pb d cs) as [K _]. unfold program. rewrite run_snoc. fold (program pb d cs).
  destruct (program pb d cs) as [s vs]. cbn [fst step] in *.
  assert (B : forall t, kinds t -> let (m, t') := best pb t in genotypes (celebrate pb m t') = genotypes t).
  { intros t ([g Hg] & _). pose proof (best_ext pb t) as E. assert (P : pop (snd (best pb t)) = pop t).
    { unfold best, read_fit. destruct (fit t) eqn:Ef; unfold read_phen; cbn; destruct (phen t) eqn:Ep; cbn; rewrite ?Ep; reflexivity. }
    destruct (best pb t) as [m t']; cbn in *. unfold genotypes. cbn. rewrite P.
    rewrite (rows_at _ _ _ Hg). apply rows_at. cbn. eapply ext_nth; eassumption. }
  unfold evolve, fitness. destruct (running s).
  - destruct (fit_kinds pb s K) as [K1 _]. pose proof (fit_ext pb s) as E.
    assert (P : pop (snd (read_fit pb s)) = pop s).
    { unfold read_fit, read_phen; destruct (fit s); [reflexivity|]. destruct (phen s); reflexivity. }
    destruct (read_fit pb s) as [fa s0]; cbn [fst snd] in *.
    set (n := next_pop pb e (rows s0 (pop s0)) (fitness_at s0 fa)).
    specialize (B (new_pop s0 n) (new_kinds s0 n K1)). destruct (best pb (new_pop s0 n)) as [m t']. rewrite B.
    destruct K as ([g Hg] & _). unfold genotypes. rewrite (rows_at _ _ _ Hg).
    unfold new_pop, set_pop, rows at 1. cbn. rewrite nth_last. unfold n. rewrite P. now rewrite (rows_at s0 _ _ (ext_nth _ _ _ _ E Hg)).
  - set (t := Ga _ _ _ _ _ _ _). specialize (B t K). destruct (best pb t) as [m t']. rewrite B. reflexivity.
Qed.

(** The solution that the state reports is the phenotype of the champion at all times, whatever is edited. *)
Theorem C110_solution : forall d cs, let s := fst (program pb d cs) in
  solution s = option_map (fun r => snd (fst r)) (champion s).
Proof.
  intros d cs. cbv zeta.
  assert (X : let s := fst (program pb d cs) in state_x s = option_map m_phen (champ s)).
  { cbv zeta. unfold program. induction cs as [|c cs IH] using rev_ind; [reflexivity|].
    rewrite run_snoc. destruct (run pb (start pb d, []) cs) as [s vs]. cbn [fst] in IH.
    destruct c as [e|e|[]| |m|k|k|k i j v]; cbn.
    - unfold evolve. destruct (best pb _). reflexivity.
    - reflexivity.
    - exact IH.
    - unfold read_phen. destruct (phen s); exact IH.
    - unfold read_fit, read_phen. destruct (fit s); [exact IH|]. destruct (phen s); exact IH.
    - destruct (champ s) eqn:Ec; cbn; rewrite Ec; exact IH.
    - destruct (champ s) eqn:Ec; cbn; rewrite Ec; exact IH.
    - destruct (state_x s) eqn:Ec; cbn; rewrite Ec; exact IH.
    - pose proof (best_champ pb s) as H. assert (Y : state_x (snd (best pb s)) = state_x s).
      { unfold best, read_fit. destruct (fit s) eqn:Ef; unfold read_phen; cbn; destruct (phen s) eqn:Ep; cbn; rewrite ?Ep; reflexivity. }
      destruct (best pb s); cbn in *. congruence.
    - exact IH.
    - destruct (nth_error vs k) as [[]|]; exact IH.
    - destruct (nth_error vs k) as [[]|]; exact IH.
    - destruct (nth_error vs k) as [r|]; [|exact IH]. destruct (nth_error (mem s) (adr r)); exact IH. }
  unfold solution, champion. rewrite X. destruct (champ _); reflexivity.
Qed.
End Theorems.

(** * Concrete programs, and what happens to programs that are not careful *)
Section Concrete.
Local Open Scope Z_scope.
(** One integer bit string per member; the phenotype is twice the genotype and the objective is the sum, to be minimized. *)
Fixpoint argmin (i best : nat) (b : Z) (l : list Z) : nat :=
  match l with [] => best | x :: l => if x <? b then argmin (S i) i x l else argmin (S i) best b l end.
Lemma argmin_bound l : forall i b z, (b < i + length l)%nat -> (argmin i b z l < i + length l)%nat.
Proof.
  induction l as [|x l IH]; intros i b z H; cbn in *; [exact H|].
  destruct (x <? z); rewrite Nat.add_succ_r; apply (IH (S i)); lia.
Qed.
Definition sums : problem Z Z :=
  Problem (map (Z.mul 2)) (fold_right Z.add 0) (fun f => match f with [] => O | x :: l => argmin 1 0 x l end) Z.ltb
    (fun d g _ => map (map (Z.add d)) g ++ [[d; d]]) (fun d => [[d; 2]; [3; 4]]) 0.
Lemma sums_sound : sound sums.
Proof.
  split; [|split].
  - intros [|x l] H; [congruence|]. cbn. apply (argmin_bound l 1 0 x). lia.
  - intros d g f. cbn. destruct (map _ g); discriminate.
  - discriminate.
Qed.

(** Two cycles; the population of before is kept and edited, so are a copy of the present one and an own
    array, which then becomes the population. *)
Definition good : list (cmd Z Z) :=
  [Evolve 0; Keep Population; Evolve (-1); Write 0 0 0 100; Keep Population; Copy 1; Write 2 1 1 (-50); Keep ChampionGenotype;
   NewArray [[7; 8]; [5; 5]]; Write 4 0 0 (-9); Assign 4; Evolve 2; Keep StateX].
Example C110_met :
  sound sums /\ Forall proper good /\ careful sums (start sums 1, []) good /\
  genotypes (fst (program sums 1 good)) = [[-7; 10]; [7; 7]; [2; 2]] /\
  champion (fst (program sums 1 good)) = Some ([-1; -1], [-2; -2], -4) /\
  value (program sums 1 good) 0 = Some (Arr [[100; 2]; [3; 4]]).
Proof.
  split; [exact sums_sound|]. split; [repeat constructor; discriminate|].
  split; [|vm_compute; auto].
  vm_compute. repeat split; intros r [= <-]; intuition discriminate.
Qed.

(** Editing the array that the solver works on leaves phenotypes and fitness behind, and the next cycle
    crowns a champion whose genotype does not have the phenotype and the fitness that are reported with it;
    editing the solution that the state reports edits the champion. *)
Theorem C110_refuted : exists (pb : problem Z Z) d cs cs', sound pb /\ Forall proper cs /\ Forall proper cs' /\
  (let s := fst (program pb d cs) in
   phenotypes pb s <> map (decode1 pb) (genotypes s) /\
   exists g p v, champion s = Some (g, p, v) /\ p <> decode1 pb g /\ v <> fnc pb (decode1 pb g)) /\
  (let s := fst (program pb d cs') in
   phenotypes pb s = map (decode1 pb) (genotypes s) /\
   exists g p v, champion s = Some (g, p, v) /\ p <> decode1 pb g /\ v <> fnc pb p).
Proof.
  exists sums, 1, [Keep Fitness; Keep Population; Write 1 0 0 (-100); Evolve 0], [Evolve 0; Keep StateX; Write 0 0 0 55].
  split; [exact sums_sound|]. split; [repeat constructor|]. split; [repeat constructor|].
  vm_compute. split; (split; [try discriminate; reflexivity|]).
  - exists [-100; 2], [2; 4], 6. split; [reflexivity|split; discriminate].
  - exists [1; 2], [55; 4], 6. split; [reflexivity|split; discriminate].
Qed.
End Concrete.
Print Assumptions C110_snapshots.
Print Assumptions C110_coherent.
Print Assumptions C110_champion.
Print Assumptions C110_assign.
Print Assumptions C110_solution.
Print Assumptions C110_cycle.
Print Assumptions C110_refuted.
