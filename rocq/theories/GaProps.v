(** The properties of the genetic algorithm (C20 to C31, C68). *)
From Coq Require Import QArith Qcanon.
From Verif Require Import Prelude OField GaModel GaSpec GaProofs GaDecodeProofs GaRunProofs GaSolveProofs.
Local Open Scope nat_scope.

Local Notation "'mdo' x <- m ;; k" := (mbind m (fun x => k))
  (at level 200, x pattern, m at level 100, k at level 200, right associativity).
Local Notation q l := (map (fun k : Z => Q2Qc (inject_Z k) : Qc_ofield) l).

(** A concrete solver: eight individuals, two variables of three genes. *)
Definition ex_half : Qc_ofield := Q2Qc (1 # 2).
Definition ex_config : config Qc_ofield :=
  @Config Qc_ofield (fun x => suml x) [(Q2Qc 0, Q2Qc 7); (Q2Qc (-7 # 1), Q2Qc 7)] 3 8.
Definition ex_params : params Qc_ofield := @Params Qc_ofield (Q2Qc 1) ex_half 10 1 (EInt 2) 3 true true.
Definition ex_rng : rng Qc_ofield := @Rng Qc_ofield (fun k => k * k + 3 * k) (fun k => if Nat.even k then Q2Qc (1 # 4) else Q2Qc (3 # 4)).
Example ex_config_valid : valid_config ex_config.
Proof. repeat split; vm_compute; repeat constructor. Qed.
Example ex_params_valid : valid_params ex_config ex_params.
Proof. split; [split; [cbn; lia|left; vm_compute; repeat constructor]|]. split; [reflexivity|vm_compute; discriminate]. Qed.

(** ** C20 *)
Theorem C20_population_size n : (0 < n)%Z ->
  exists m, population_size n = Ok m /\ (m mod 4 = 0)%Z /\ (n <= m)%Z /\
    (forall k, (k mod 4 = 0)%Z -> (n <= k)%Z -> (m <= k)%Z).
Proof. exact (population_size_smallest n). Qed.
Print Assumptions C20_population_size.
Theorem C20_rejected n : (n <= 0)%Z -> population_size n = Err AssertionError.
Proof. exact (population_size_reject n). Qed.
Print Assumptions C20_rejected.
Example C20_ex : population_size 9 = Ok 12%Z. Proof. reflexivity. Qed.

(** ** C21 *)
(** Before mutation: complementary exchange at every position. *)
Theorem C21_children {F : ofield} L (p1 p2 : list F) cut_points coin :
  Forall (fun x => 0 < x < L) cut_points -> 0 < L ->
  let '(c1, c2) := children_with L p1 p2 cut_points coin in
  length c1 = L /\ length c2 = L /\
  forall k, k < L ->
    nth k c1 zero = (if Bool.eqb (Nat.even (cuts_upto cut_points k)) coin then nth k p1 zero else nth k p2 zero) /\
    nth k c2 zero = (if Bool.eqb (Nat.even (cuts_upto cut_points k)) coin then nth k p2 zero else nth k p1 zero).
Proof.
  intros H1 H2. pose proof (children_ok L p1 p2 cut_points coin H1 H2) as H.
  destruct (children_with L p1 p2 cut_points coin). exact H.
Qed.
Print Assumptions C21_children.
(** The whole call, for every random draw. *)
Theorem C21_no_crossover {F : ofield} (r : rng F) L pc pm p1 p2 nCut :
  leb (rr r 0) pc = false -> exists r', crossover L pc pm p1 p2 nCut r = Ok ((p1, p2), r').
Proof. exact (crossover_no r L pc pm p1 p2 nCut). Qed.
Print Assumptions C21_no_crossover.
Theorem C21_crossover {F : ofield} (r : rng F) L pc pm p1 p2 nCut :
  leb (rr r 0) pc = true -> length p1 = L -> length p2 = L -> 3 <= L -> (forall n, nCut = Some n -> n <= L - 2) ->
  exists m r', crossover L pc pm p1 p2 nCut r = Ok (m, r') /\ bred L pm p1 p2 (cuts_for L nCut) m.
Proof. exact (crossover_yes r L pc pm p1 p2 nCut). Qed.
Print Assumptions C21_crossover.
Example C21_ex : map (map this) (let '(a, b) := children_with 5 (q [1; 1; 1; 1; 1]%Z) (q [0; 0; 0; 0; 0]%Z) [3; 1] true in [a; b])
  = map (map inject_Z) [[1; 0; 0; 1; 1]; [0; 1; 1; 0; 0]]%Z.
Proof. vm_compute. reflexivity. Qed.
Example C21_ex_yes : leb (rr ex_rng 0) (p_c ex_params) = true. Proof. reflexivity. Qed.

(** ** C22 *)
Theorem C22_mutation {F : ofield} pm (draws child : list F) i : length draws = length child ->
  nth_error (mutate_with pm draws child) i =
  match nth_error draws i, nth_error child i with
  | Some p, Some x => Some (if leb p pm then sub one x else x)
  | _, _ => None
  end.
Proof. exact (mutate_with_nth pm draws child i). Qed.
Print Assumptions C22_mutation.
Theorem C22_binary {F : ofield} L pm (child : list F) : binary L child ->
  always (mutate L pm child) (fun m => binary L m /\ exists draws, length draws = L /\ m = mutate_with pm draws child).
Proof. exact (mutate_ok L pm child). Qed.
Print Assumptions C22_binary.
Theorem C22_no_mutation {F : ofield} pm (draws child : list F) : length draws = length child ->
  Forall (fun p => leb p pm = false) draws -> mutate_with pm draws child = child.
Proof. exact (mutate_none pm draws child). Qed.
Print Assumptions C22_no_mutation.
Example C22_ex : map this (mutate_with ex_half (map Q2Qc [1 # 4; 3 # 4; 1 # 2]) (q [1; 1; 0]%Z)) = map inject_Z [0; 1; 1]%Z.
Proof. vm_compute. reflexivity. Qed.

(** ** C23 *)
Theorem C23_decode {F : ofield} nPop len (ranges : list (F * F)) (pop : list (list (list bool))) : 1 <= len ->
  length pop = nPop -> Forall (fun bss => length bss = length ranges /\ Forall (fun bs => length bs = len) bss) pop ->
  decode nPop len ranges (map (fun bss => concat (map (map bit) bss)) pop) =
  Ok (map (fun bss => map (fun br : list bool * (F * F) => decoded len (fst br) (fst (snd br)) (snd (snd br)))
                          (combine bss ranges)) pop).
Proof. exact (decode_bits nPop len ranges pop). Qed.
Print Assumptions C23_decode.
(** Every genotype of the right length is such a sequence of bit blocks. *)
Theorem C23_every_genotype {F : ofield} d len (g : list F) : binary (d * len) g ->
  exists bss, length bss = d /\ Forall (fun b => length b = len) bss /\ g = concat (map (map bit) bss).
Proof. exact (binary_blocks d len g). Qed.
Print Assumptions C23_every_genotype.
Theorem C23_range {F : ofield} len (lo hi : F) bs : 1 <= len -> length bs = len -> leb lo hi = true ->
  leb lo (decoded len bs lo hi) = true /\ leb (decoded len bs lo hi) hi = true.
Proof. exact (fun H => decoded_range len lo hi H bs). Qed.
Print Assumptions C23_range.
Theorem C23_ends {F : ofield} len (lo hi : F) : 1 <= len ->
  decoded len (repeat false len) lo hi = lo /\ decoded len (repeat true len) lo hi = hi.
Proof. exact (fun H => conj (decoded_zeros len lo hi H) (decoded_ones len lo hi H)). Qed.
Print Assumptions C23_ends.
Theorem C23_injective {F : ofield} len (lo hi : F) a b : 1 <= len -> length a = len -> length b = len -> lo <> hi ->
  decoded len a lo hi = decoded len b lo hi -> a = b.
Proof. exact (fun H => decoded_inj len lo hi H a b). Qed.
Print Assumptions C23_injective.
Theorem C23_step {F : ofield} len (lo hi : F) a b : 1 <= len -> bits_value b = bits_value a + 1 ->
  decoded len b lo hi = add (decoded len a lo hi) (div (sub hi lo) (sub (pow (of_nat 2) len) one)).
Proof. exact (fun H => decoded_step len lo hi H a b). Qed.
Print Assumptions C23_step.
Example C23_ex : this (decoded 3 [true; true; false] (Q2Qc (-7 # 1) : Qc_ofield) (Q2Qc 7)) = (-1 # 1)%Q.
Proof. vm_compute. reflexivity. Qed.

(** ** C24 *)
Theorem C24_pairs {F : ofield} n fuel : Nat.even n = true -> 4 <= n -> n < 2 * fuel ->
  always (random_parents (F := F) fuel n)
    (fun ps => 2 * length ps = n /\ Permutation (flat_map (fun p => [fst p; snd p]) ps) (seq 0 n)).
Proof. exact (random_parents_ok n fuel). Qed.
Print Assumptions C24_pairs.
Theorem C24_odd {F : ofield} n fuel : Nat.even n = false -> always_raises (random_parents (F := F) fuel n) AssertionError.
Proof. exact (random_parents_odd n fuel). Qed.
Print Assumptions C24_odd.
Theorem C24_two {F : ofield} fuel (r : rng F) : random_parents (S fuel) 2 r = Ok ([], r).
Proof. exact (random_parents_two fuel r). Qed.
Print Assumptions C24_two.
Example C24_ex : match random_parents 4 6 ex_rng with Ok (ps, _) => ps | Err _ => [] end = [(0, 5); (3, 1); (2, 4)].
Proof. vm_compute. reflexivity. Qed.

(** ** C25 *)
(** The smallest accepted size never works, whatever is drawn. *)
Theorem C25_refuted : exists n : nat, population_size (Z.of_nat n) = Ok (Z.of_nat n) /\
  forall (F : ofield) L (pc pm : F), always_raises (populate n L pc pm None) RuntimeError.
Proof. exact (ex_intro _ 4 (conj eq_refl (@populate_four))). Qed.
Print Assumptions C25_refuted.
(** Neither do fewer than three genes, for any size, once a crossover is drawn. *)
Theorem C25_few_genes_refuted {F : ofield} n L (pc pm : F) r : n mod 4 = 0 -> 4 <= n -> L <= 2 ->
  (forall k, leb (rr r k) pc = true) -> populate n L pc pm None r = Err RuntimeError.
Proof. exact (populate_few_genes n L pc pm r). Qed.
Print Assumptions C25_few_genes_refuted.
Theorem C25_partial {F : ofield} n L (pc pm : F) : n mod 4 = 0 -> 8 <= n -> 3 <= L ->
  always (populate n L pc pm None) (population n L).
Proof. exact (populate_none_ok n L pc pm). Qed.
Print Assumptions C25_partial.

(** ** C26 *)
Theorem C26_population {F : ofield} argsort (c : config F) p os : sorts argsort -> valid_config c -> valid_params c p ->
  always (mdo s <- reset c p ;; apply_ops argsort c os s)
    (fun s => length (genotypes s) = nPop c /\ Forall (binary (length (ranges c) * len c)) (genotypes s)).
Proof. exact (fun HS Hc Hp => history_population argsort HS c Hc p os Hp). Qed.
Print Assumptions C26_population.
Example C26_ex : sorts (isort (F := Qc_ofield)) /\ valid_config ex_config /\ valid_params ex_config ex_params.
Proof. exact (conj isort_sorts (conj ex_config_valid ex_params_valid)). Qed.

(** ** C27 *)
(** After the history [os1] there is a champion; whatever happens next, the later
    champion is at least as good as it and as every individual of that generation. *)
Theorem C27_champion {F : ofield} argsort (c : config F) p os1 os2 : sorts argsort -> valid_config c -> valid_params c p ->
  always (mdo s0 <- reset c p ;; mdo s1 <- apply_ops argsort c os1 s0 ;; mdo s2 <- apply_ops argsort c os2 s1 ;; ret (s1, s2))
    (fun ss => let '(s1, s2) := ss in
      coherent c s1 /\ coherent c s2 /\
      (fold_right Nat.add 0 (map cycles_of os1) <> 0 ->
       exists ch1 ch2, champion s1 = Some ch1 /\ champion s2 = Some ch2 /\
         leads c (minimize p) ch1 s1 /\ leads c (minimize p) ch2 s2 /\
         as_good (minimize p) (g_fit ch2) (g_fit ch1) /\ leads c (minimize p) ch2 s1)).
Proof. exact (fun HS Hc Hp => history_champion argsort HS c Hc p os1 os2 Hp). Qed.
Print Assumptions C27_champion.
(** One cycle from any state of a history: the elite is kept, in order, at the front
    of the next generation, and the best fitness does not worsen. *)
Theorem C27_elites {F : ofield} argsort (c : config F) p os : sorts argsort -> valid_config c -> valid_params c p ->
  let k := elites (nPop c) (elitism p) in
  always (mdo s0 <- reset c p ;; mdo s1 <- apply_ops argsort c os s0 ;; mdo s2 <- evolve argsort c 1 s1 ;; ret (s1, s2))
    (fun ss => let '(s1, s2) := ss in
      (exists order, best_first (minimize p) (fitness_of c s1) order /\
        (running s1 = true ->
         firstn k (genotypes s2) = map (fun i => nth i (genotypes s1) []) (firstn k order))) /\
      (running s1 = false -> genotypes s2 = genotypes s1) /\
      (1 <= k -> exists y, In y (fitness_of c s2) /\ Forall (as_good (minimize p) y) (fitness_of c s1))).
Proof. exact (fun HS Hc Hp => history_elites argsort HS c Hc p os Hp). Qed.
Print Assumptions C27_elites.
Example C27_ex : match (mdo s0 <- reset ex_config ex_params ;; apply_ops isort ex_config [Evolve 2; ReadFitness; Evolve 1] s0) ex_rng with
  | Ok (s, _) => match champion s with Some g => Some (this (g_fit g), g_age g, n_fev s) | None => None end
  | Err _ => None end = Some ((-7 # 1)%Q, 3, 24).
Proof. vm_compute. reflexivity. Qed.

(** ** C28 *)
Theorem C28_solve {F : ofield} argsort (c : config F) fuel k p r :
  sorts argsort -> valid_config c -> valid_params c p -> let p' := overridden k p in
  workable (nPop c) (elitism p') -> (miniter p' <= maxiter p')%Z -> (Z.max 1 (maxiter p') <= Z.of_nat fuel)%Z ->
  exists s0 r0 n s' r', reset c p r = Ok (s0, r0) /\
    (Z.max 1 (miniter p') <= Z.of_nat n <= Z.max 1 (maxiter p'))%Z /\
    let s0' := Ga p' (genotypes s0) None None None false 0 0 INITIALIZED in
    evolve argsort c n s0' r0 = Ok (s', r') /\
    solve argsort c fuel k p None r = Ok (with_iter s' n (reason p' n), r') /\
    should_stop p' n s' /\
    (forall m sm rm, 1 <= m < n -> evolve argsort c m s0' r0 = Ok (sm, rm) -> ~ should_stop p' m sm).
Proof. exact (fun HS Hc => solve_full argsort c HS Hc fuel k p r). Qed.
Print Assumptions C28_solve.
(** The age of the champion is the number of consecutive cycles it has led. *)
Theorem C28_age {F : ofield} argsort (c : config F) n s r sn rn ch :
  sorts argsort -> valid_config c -> coherent c s -> valid_params c (par s) -> champion s = None ->
  evolve argsort c n s r = Ok (sn, rn) -> champion sn = Some ch ->
  1 <= g_age ch <= n /\
  forall j, j < g_age ch -> exists sm rm, evolve argsort c (n - j) s r = Ok (sm, rm) /\
    champion sm = Some (Genom (g_pheno ch) (g_geno ch) (g_fit ch) (g_age ch - j) (g_index ch)).
Proof. exact (fun HS Hc H1 H2 => champion_age argsort c HS Hc n s r sn rn ch (conj H1 H2)). Qed.
Print Assumptions C28_age.
Example C28_ex : match solve isort ex_config 10 no_kwargs ex_params None ex_rng with
  | Ok (s, _) => Some (n_iter s, stage s, n_fev s) | Err _ => None end = Some (4, CONVERGED, 32).
Proof. vm_compute. reflexivity. Qed.

(** ** C29 *)
Theorem C29_evaluations {F : ofield} argsort (c : config F) p os : sorts argsort -> valid_config c -> valid_params c p ->
  always (mdo s <- reset c p ;; apply_ops argsort c os s)
    (fun s => coherent c s /\ n_fev s = nPop c * evaluated_populations os).
Proof. exact (fun HS Hc => history_fev argsort HS c Hc p os). Qed.
Print Assumptions C29_evaluations.
(** [solve] evaluates one population per iteration. *)
Theorem C29_solve {F : ofield} argsort (c : config F) fuel k p : 
  sorts argsort -> valid_config c -> valid_params c p -> let p' := overridden k p in
  workable (nPop c) (elitism p') -> (miniter p' <= maxiter p')%Z -> (Z.max 1 (maxiter p') <= Z.of_nat fuel)%Z ->
  always (solve argsort c fuel k p None) (fun s => coherent c s /\ n_fev s = nPop c * n_iter s).
Proof. exact (fun HS Hc => solve_fev argsort c HS Hc fuel k p). Qed.
Print Assumptions C29_solve.

(** ** C30 *)
Theorem C30_refuted : exists (n : nat) (k : kwargs Qc_ofield) p,
  valid_params ex_config p /\ nPop ex_config = n /\
  snd (set_solution_params n k p) = Err ValueError /\ fst (set_solution_params n k p) <> p /\
  minimize (fst (set_solution_params n k p)) <> op_min (fst (set_solution_params n k p)).
Proof.
  exists 8, (Kwargs None None (Some 0%Z) None None None (Some false)), ex_params.
  split; [exact ex_params_valid|]. split; [reflexivity|]. split; [reflexivity|]. split; [|discriminate].
  intros H. apply (f_equal maxiter) in H. discriminate H.
Qed.
Print Assumptions C30_refuted.
Theorem C30_partial {F : ofield} n (k : kwargs F) p p' : set_solution_params n k p = (p', Ok tt) -> p' = overridden k p.
Proof. exact (set_params_ok n k p p'). Qed.
Print Assumptions C30_partial.
Theorem C30_accepted_partial {F : ofield} n (k : kwargs F) p : 8 <= n -> workable n (elitism (overridden k p)) ->
  (miniter (overridden k p) <= maxiter (overridden k p))%Z -> set_solution_params n k p = (overridden k p, Ok tt).
Proof. exact (set_params_workable n k p). Qed.
Print Assumptions C30_accepted_partial.

(** ** C31 *)
Theorem C31_none_refuted {F : ofield} argsort n mini f gs p : elitism p = ENone -> (miniter p <= maxiter p)%Z ->
  check_params (F := F) n p = Ok tt /\ always_raises (select argsort n (elitism p) mini f gs) AttributeError.
Proof. exact (none_accepted argsort n mini f gs p). Qed.
Print Assumptions C31_none_refuted.
Theorem C31_one_refuted {F : ofield} argsort n mini f gs p : elitism p = EFloat one -> (miniter p <= maxiter p)%Z ->
  check_params (F := F) n p = Ok tt /\ always_raises (select argsort n (elitism p) mini f gs) TypeError.
Proof. exact (one_accepted argsort n mini f gs p). Qed.
Print Assumptions C31_one_refuted.
Theorem C31_odd_elite_refuted {F : ofield} argsort n L z mini (pc pm : F) f gs p : sorts argsort -> 8 <= n ->
  length f = n -> elitism p = EInt z -> (Z.of_nat (n / 2) < z < Z.of_nat n)%Z -> Z.even z = false -> (miniter p <= maxiter p)%Z ->
  check_params (F := F) n p = Ok tt /\
  always_raises (mdo sel <- select argsort n (elitism p) mini f gs ;; populate n L pc pm (Some sel)) RuntimeError.
Proof. exact (odd_accepted argsort n L z mini pc pm f gs p). Qed.
Print Assumptions C31_odd_elite_refuted.
(** A small fraction is accepted and keeps nobody. *)
Theorem C31_small_fraction_refuted : exists (p : params Qc_ofield),
  check_params 8 p = Ok tt /\ elitism p <> ENone /\ elites 8 (elitism p) = 0.
Proof.
  exists (@Params Qc_ofield ex_half ex_half 10 1 (@EFloat Qc_ofield (Q2Qc (1 # 10))) 3 true true). split; [vm_compute; reflexivity|].
  split; [discriminate|vm_compute; reflexivity].
Qed.
Print Assumptions C31_small_fraction_refuted.
Theorem C31_partial {F : ofield} argsort n (e : elit F) mini f gs : sorts argsort -> 8 <= n -> workable n e ->
  length f = n -> always (select argsort n e mini f gs) (selected n (elites n e) mini f gs).
Proof. exact (select_ok argsort n e mini f gs). Qed.
Print Assumptions C31_partial.
(** The number of elites: the given integer, or the integer part of the fraction of
    the population. *)
Theorem C31_count_partial {F : ofield} n (x : F) : leb x zero = false -> leb one x = false ->
  leb (of_nat (elites n (EFloat x))) (mul (of_nat n) x) = true /\
  leb (of_nat (elites n (EFloat x) + 1)) (mul (of_nat n) x) = false.
Proof. exact (elite_count_floor n x). Qed.
Print Assumptions C31_count_partial.
Example C31_ex : workable 8 (@EFloat Qc_ofield (Q2Qc (3 # 10))) /\ elites 8 (@EFloat Qc_ofield (Q2Qc (3 # 10))) = 2.
Proof. split; [split; [split; vm_compute; reflexivity|left; vm_compute; repeat constructor]|vm_compute; reflexivity]. Qed.

(** ** C68 *)
Theorem C68_tournaments {F : ofield} argsort n (e : elit F) mini f gs : sorts argsort -> 8 <= n -> workable n e ->
  length f = n ->
  always (select argsort n e mini f gs) (fun sel => exists order ws,
    best_first mini f order /\ length ws = n / 2 - elites n e /\
    sel = map (fun w => nth w gs []) (firstn (elites n e) order ++ ws) /\
    Forall (fun w => exists a b c, NoDup [a; b; c] /\ incl [a; b; c] (skipn (elites n e) order) /\ In w [a; b; c] /\
              forall x, In x [a; b; c] -> as_good mini (nth w f zero) (nth x f zero)) ws).
Proof. exact (select_tournaments argsort n e mini f gs). Qed.
Print Assumptions C68_tournaments.

(** ** C79 *)
Theorem C79_offspring {F : ofield} argsort (c : config F) p os : sorts argsort -> valid_config c -> valid_params c p ->
  always (mdo s0 <- reset c p ;; mdo s1 <- apply_ops argsort c os s0 ;; mdo s2 <- evolve argsort c 1 s1 ;; ret (s1, s2))
    (fun ss => let '(s1, s2) := ss in running s1 = true ->
      exists sel off,
        selected (nPop c) (elites (nPop c) (elitism p)) (minimize p) (fitness_of c s1) (genotypes s1) sel /\
        children_of (length (ranges c) * len c) (p_m p) sel off /\ genotypes s2 = sel ++ off).
Proof. exact (fun HS Hc => history_offspring argsort HS c Hc p os). Qed.
Print Assumptions C79_offspring.
Example C79_ex : match (mdo s0 <- reset ex_config ex_params ;; apply_ops isort ex_config [Evolve 1] s0) ex_rng with
  | Ok (s, _) => running s | Err _ => false end = true.
Proof. vm_compute. reflexivity. Qed.

(** ** C80 *)
Theorem C80_accepted {F : ofield} n (k : kwargs F) p : let p' := overridden k p in
  acceptable n (elitism p') -> (miniter p' <= maxiter p')%Z -> snd (set_solution_params n k p) = Ok tt.
Proof. exact (fun H1 H2 => proj1 (set_params_iff n k p) (conj H1 H2)). Qed.
Print Assumptions C80_accepted.
Theorem C80_rejected {F : ofield} n (k : kwargs F) p : let p' := overridden k p in
  ~ (acceptable n (elitism p') /\ (miniter p' <= maxiter p')%Z) -> snd (set_solution_params n k p) = Err ValueError.
Proof. exact (proj2 (set_params_iff n k p)). Qed.
Print Assumptions C80_rejected.
Example C80_ex : acceptable 8 (elitism ex_params) /\ ~ acceptable 8 (@EFloat Qc_ofield (Q2Qc (3 # 2))) /\ ~ acceptable 8 (@EInt Qc_ofield 0).
Proof.
  split; [cbn; lia|]. split; [intros [_ H]; vm_compute in H; discriminate H|intros [H _]; lia].
Qed.
