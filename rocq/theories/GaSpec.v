(** Vocabulary for the statements about the genetic algorithm. *)
From Verif Require Import Prelude OField GaModel.

Section Spec.
Context {F : ofield}.

(** The computation succeeds with a result satisfying [Q], whatever is drawn. *)
Definition always {A} (m : M (F := F) A) (Q : A -> Prop) : Prop :=
  forall r, exists a r', m r = Ok (a, r') /\ Q a.
(** The computation raises [e], whatever is drawn. *)
Definition always_raises {A} (m : M (F := F) A) (e : exc) : Prop := forall r, m r = Err e.

(** A 0/1 vector of [L] genes; a population of [n] of them. *)
Definition binary (L : nat) (g : list F) : Prop := length g = L /\ Forall (fun x => x = zero \/ x = one) g.
Definition population (n L : nat) (gs : list (list F)) : Prop := length gs = n /\ Forall (binary L) gs.

(** Number of cut points at or before position [k]. *)
Definition cuts_upto (p : list nat) (k : nat) : nat := length (filter (fun x => x <=? k) p).

(** Position-wise exchange: after an even number of cuts the first child carries the
    gene of one parent (chosen by the coin), after an odd number that of the other;
    the second child is complementary. *)
Definition gene1 (p1 p2 : list F) (p : list nat) (coin : bool) (k : nat) : F :=
  if Bool.eqb (Nat.even (cuts_upto p k)) coin then nth k p1 zero else nth k p2 zero.
Definition gene2 (p1 p2 : list F) (p : list nat) (coin : bool) (k : nat) : F :=
  if Bool.eqb (Nat.even (cuts_upto p k)) coin then nth k p2 zero else nth k p1 zero.

(** Mutated complementary children of two parents, for [cuts] cut points. *)
Definition bred (L : nat) (pm : F) (p1 p2 : list F) (n_cuts : nat -> Prop) (m : list F * list F) : Prop :=
  exists p coin c1 c2 ps1 ps2,
    n_cuts (length p) /\ NoDup p /\ Forall (fun x => 0 < x < L) p /\ length c1 = L /\ length c2 = L /\
    (forall k, k < L -> nth k c1 zero = gene1 p1 p2 p coin k /\ nth k c2 zero = gene2 p1 p2 p coin k) /\
    length ps1 = L /\ length ps2 = L /\ m = (mutate_with pm ps1 c1, mutate_with pm ps2 c2).
Definition cuts_for (L : nat) (nCut : option nat) (n : nat) : Prop :=
  match nCut with Some k => n = k | None => 1 <= n <= L - 2 end.
(** The whole call: either the parents come back, or complementary children are
    mutated. *)
Definition crossed (L : nat) (pm : F) (p1 p2 : list F) (m : list F * list F) : Prop :=
  m = (p1, p2) \/ bred L pm p1 p2 (fun _ => True) m.

(** The individuals [off] are, two by two, the outcomes of crossovers of disjoint
    pairs of members of [sel]. *)
Definition children_of (L : nat) (pm : F) (sel off : list (list F)) : Prop :=
  exists (pairs : list (nat * nat)) (kids : list (list F * list F)),
    NoDup (flat_map (fun p => [fst p; snd p]) pairs) /\
    Forall (fun p => fst p < length sel /\ snd p < length sel) pairs /\
    Forall2 (fun p k => crossed L pm (nth (fst p) sel []) (nth (snd p) sel []) k) pairs kids /\
    off = flat_map (fun k => [fst k; snd k]) kids.

(** Bits and the number they encode, lowest bit first. *)
Definition bit (b : bool) : F := if b then one else zero.
Fixpoint bits_value (bs : list bool) : nat :=
  match bs with [] => 0 | b :: bs' => (if b then 1 else 0) + 2 * bits_value bs' end.

(** The number that [bs] stands for in the range from [lo] to [hi]. *)
Definition decoded (len : nat) (bs : list bool) (lo hi : F) : F :=
  add lo (div (mul (of_nat (bits_value bs)) (sub hi lo)) (sub (pow (of_nat 2) len) one)).

(** [a] is at least as good as [b]. *)
Definition as_good (mini : bool) (a b : F) : Prop := if mini then leb a b = true else leb b a = true.

(** The contract of [np.argsort]: a permutation of the indices that sorts the values
    (ties in any order). *)
Definition sorts (argsort : list F -> list nat) : Prop :=
  forall l, Permutation (argsort l) (seq 0 (length l)) /\
    forall i j, i < j -> j < length l ->
      leb (nth (nth i (argsort l) 0) l zero) (nth (nth j (argsort l) 0) l zero) = true.

(** [s] lists all individuals, best first. *)
Definition best_first (mini : bool) (f : list F) (s : list nat) : Prop :=
  Permutation s (seq 0 (length f)) /\
  forall i j, i < j -> j < length f -> as_good mini (nth (nth i s 0) f zero) (nth (nth j s 0) f zero).

(** [w] won a tournament among three distinct members of [others]. *)
Definition won (mini : bool) (f : list F) (others : list nat) (w : nat) : Prop :=
  exists a b c, NoDup [a; b; c] /\ incl [a; b; c] others /\ In w [a; b; c] /\
    forall x, In x [a; b; c] -> as_good mini (nth w f zero) (nth x f zero).

(** The parents: the [k] best individuals, then tournament winners from the rest
    until half the population is reached. *)
Definition selected (nPop k : nat) (mini : bool) (f : list F) (gs sel : list (list F)) : Prop :=
  exists s ws, best_first mini f s /\ length ws = nPop / 2 - k /\ Forall (won mini f (skipn k s)) ws /\
    sel = map (fun w => nth w gs []) (firstn k s ++ ws).

(** The elitism values that pass the checks: None, a positive integer below the
    population size (1 always passes) or a fraction above 0 and at most 1. *)
Definition acceptable (nPop : nat) (e : elit F) : Prop :=
  match e with
  | ENone => True
  | EInt z => (0 < z)%Z /\ ((z < Z.of_nat nPop)%Z \/ z = 1%Z)
  | EFloat x => leb x zero = false /\ leb x one = true
  end.

(** The number of elites an elitism value stands for. *)
Definition elites (nPop : nat) (e : elit F) : nat :=
  match e with ENone => 0 | EInt z => Z.to_nat z | EFloat x => elite_count nPop x end.

(** Elitism values for which selection and breeding work: a positive integer or a
    proper fraction, such that the elite is at most half the population or even. *)
Definition workable (nPop : nat) (e : elit F) : Prop :=
  match e with
  | ENone => False
  | EInt z => (1 <= z < Z.of_nat nPop)%Z
  | EFloat x => leb x zero = false /\ leb one x = false
  end /\ (elites nPop e <= nPop / 2 \/ Nat.even (elites nPop e) = true /\ elites nPop e < nPop).

(** Configurations that can run: a population size produced by the constructor but
    larger than 4, and at least three genes. *)
Definition valid_config (c : config F) : Prop :=
  nPop c mod 4 = 0 /\ 8 <= nPop c /\ 3 <= n_genes c.
Definition valid_params (c : config F) (p : params F) : Prop :=
  workable (nPop c) (elitism p) /\ op_min p = minimize p /\ (miniter p <= maxiter p)%Z.

(** The fitness values of the current population. *)
Definition fitness_of (c : config F) (s : ga F) : list F :=
  map (fun g => fnc c (decode_one (len c) (ranges c) g)) (genotypes s).

(** The population, its phenotypes, its fitness and the champion's record belong
    together. *)
Definition true_record (c : config F) (g : genom F) : Prop :=
  binary (n_genes c) (g_geno g) /\ g_pheno g = decode_one (len c) (ranges c) (g_geno g) /\
  g_fit g = fnc c (g_pheno g).
Definition coherent (c : config F) (s : ga F) : Prop :=
  population (nPop c) (n_genes c) (genotypes s) /\
  (forall ph, phenotypes s = Some ph -> ph = map (decode_one (len c) (ranges c)) (genotypes s)) /\
  (forall f, fitness s = Some f -> f = fitness_of c s) /\
  (forall g, champion s = Some g -> true_record c g).

(** [g] is at least as good as every member of the current population. *)
Definition leads (c : config F) (mini : bool) (g : genom F) (s : ga F) : Prop :=
  Forall (as_good mini (g_fit g)) (fitness_of c s).

(** The stopping rule of [solve] after [n] iterations. *)
Definition too_old (p : params F) (s : ga F) : Prop :=
  exists ch, champion s = Some ch /\ (maxage p < Z.of_nat (g_age ch))%Z.
Definition should_stop (p : params F) (n : nat) (s : ga F) : Prop :=
  (too_old p s \/ (maxiter p <= Z.of_nat n)%Z) /\ (miniter p <= Z.of_nat n)%Z.
Definition reason (p : params F) (n : nat) : status :=
  if (maxiter p <=? Z.of_nat n)%Z then MAX_ITERATIONS_REACHED else CONVERGED.

(** The parameters in force after keyword arguments have been given. *)
Definition overridden (k : kwargs F) (p : params F) : params F :=
  let m := match k_minimize k with Some b => b | None => minimize p end in
  Params (match k_p_c k with Some x => x | None => p_c p end)
         (match k_p_m k with Some x => x | None => p_m p end)
         (match k_maxiter k with Some x => x | None => maxiter p end)
         (match k_miniter k with Some x => x | None => miniter p end)
         (match k_elitism k with Some x => x | None => elitism p end)
         (match k_maxage k with Some x => x | None => maxage p end) m m.

(** The operations a user can interleave. *)
Inductive op := Evolve (cycles : nat) | ReadFitness | ReadPhenotypes | BestCandidate.
Definition apply_op (argsort : list F -> list nat) (c : config F) (o : op) (s : ga F) : M (ga F) :=
  match o with
  | Evolve n => evolve argsort c n s
  | ReadFitness => mbind (lift (read_fitness c s)) (fun x => ret (snd x))
  | ReadPhenotypes => mbind (lift (read_phenotypes c s)) (fun x => ret (snd x))
  | BestCandidate => mbind (lift (best_candidate c s)) (fun x => ret (snd x))
  end.
Fixpoint apply_ops (argsort : list F -> list nat) (c : config F) (os : list op) (s : ga F) : M (ga F) :=
  match os with
  | [] => ret s
  | o :: os' => mbind (apply_op argsort c o s) (apply_ops argsort c os')
  end.

(** How many populations a history evaluates: one per evolution cycle, or one if
    there was no cycle but the fitness was looked at. *)
Definition cycles_of (o : op) : nat := match o with Evolve n => n | _ => 0 end.
Definition looks (o : op) : bool := match o with ReadFitness | BestCandidate => true | _ => false end.
Definition evaluated_populations (os : list op) : nat :=
  let k := fold_right Nat.add 0 (map cycles_of os) in
  if k =? 0 then (if existsb looks os then 1 else 0) else k.
End Spec.
Arguments op : clear implicits.
