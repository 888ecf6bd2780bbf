(** Model of optimize/ga.py and optimize/bga.py: the binary genetic algorithm.

    Randomness is an oracle: [ri] is the stream of raw integers and [rr] the stream
    of the numbers returned by [np.random.rand].  Every outcome of the NumPy calls
    is obtained from some pair of streams, so a theorem for all oracles covers all
    random draws.  Numbers are elements of an ordered field, so there is no rounding
    and no NaN. *)
From Verif Require Import Prelude OField.

Section Ga.
Context {F : ofield}.

Record rng := Rng { ri : nat -> nat; rr : nat -> F }.
Definition M (A : Type) := rng -> result (A * rng).
Definition ret {A} (a : A) : M A := fun r => Ok (a, r).
Definition fail {A} (e : exc) : M A := fun _ => Err e.
Definition mbind {A B} (m : M A) (f : A -> M B) : M B :=
  fun r => match m r with Ok (a, r') => f a r' | Err e => Err e end.
Definition lift {A} (x : result A) : M A := fun r => match x with Ok a => Ok (a, r) | Err e => Err e end.
Notation "'mdo' x <- m ;; k" := (mbind m (fun x => k))
  (at level 200, x pattern, m at level 100, k at level 200, right associativity).

Definition draw_int : M nat := fun r => Ok (ri r 0, Rng (fun k => ri r (S k)) (rr r)).
(** [np.random.rand()] *)
Definition rand : M F := fun r => Ok (rr r 0, Rng (ri r) (fun k => rr r (S k))).
(** [np.random.randint(lo, hi)] *)
Definition randint (lo hi : nat) : M nat :=
  if hi <=? lo then fail ValueError else (mdo x <- draw_int ;; ret (lo + x mod (hi - lo))).
Fixpoint remove_at {A} (i : nat) (l : list A) : list A :=
  match l, i with
  | [], _ => []
  | _ :: l', 0 => l'
  | x :: l', S i' => x :: remove_at i' l'
  end.
(** [np.random.choice(l, k, replace=False)] *)
Fixpoint choice (k : nat) (l : list nat) : M (list nat) :=
  match k with
  | 0 => ret []
  | S k' =>
      match l with
      | [] => fail ValueError
      | d :: _ =>
          mdo x <- draw_int ;;
          mdo rest <- choice k' (remove_at (x mod length l) l) ;;
          ret (nth (x mod length l) l d :: rest)
      end
  end.
Fixpoint repeatM {A} (n : nat) (m : M A) : M (list A) :=
  match n with
  | 0 => ret []
  | S n' => mdo x <- m ;; mdo xs <- repeatM n' m ;; ret (x :: xs)
  end.

(** ** ga.py:18-23, 202-207: the population size. *)
Definition odd (n : Z) : bool := negb (n mod 2 =? 0)%Z.
Definition population_size (nPop : Z) : result Z :=
  let n1 := if odd nPop then (nPop + 1)%Z else nPop in
  let n2 := if odd (Z.quot n1 2) then (n1 + 2)%Z else n1 in     (* int(nPop / 2) *)
  if negb (n2 mod 4 =? 0)%Z then Err AssertionError
  else if (n2 <? 4)%Z then Err AssertionError else Ok n2.

(** ** Parameters *)
Inductive elit := ENone | EInt (z : Z) | EFloat (x : F).

(** The attributes set by [set_solution_params]; [op_min] says that
    [_celebrate_op] is [operator.lt]. *)
Record params := Params {
  p_c : F; p_m : F; maxiter : Z; miniter : Z; elitism : elit; maxage : Z;
  minimize : bool; op_min : bool }.
Record kwargs := Kwargs {
  k_p_c : option F; k_p_m : option F; k_maxiter : option Z; k_miniter : option Z;
  k_elitism : option elit; k_maxage : option Z; k_minimize : option bool }.
Definition no_kwargs : kwargs := Kwargs None None None None None None None.
Definition orelse {A} (o : option A) (d : A) : A := match o with Some a => a | None => d end.

(** ga.py:359-376: the checks. *)
Definition check_params (nPop : nat) (p : params) : result unit :=
  do _ <- match elitism p with
          | ENone => Ok tt
          | EInt z => if (z <=? 0)%Z then Err ValueError
                      else if (1 <? z)%Z && (Z.of_nat nPop <=? z)%Z then Err ValueError else Ok tt
          | EFloat x => if leb x zero then Err ValueError
                        else if negb (leb x one) then Err ValueError else Ok tt
          end ;
  if (maxiter p <? miniter p)%Z then Err ValueError else Ok tt.

(** ga.py:322-378, [set_solution_params]: all attributes are assigned before the
    checks; the comparison operator is only set after them.  The result carries the
    attributes also when an exception is raised. *)
Definition set_solution_params (nPop : nat) (k : kwargs) (p : params) : params * result unit :=
  let p1 := Params (orelse (k_p_c k) (p_c p)) (orelse (k_p_m k) (p_m p))
                   (orelse (k_maxiter k) (maxiter p)) (orelse (k_miniter k) (miniter p))
                   (orelse (k_elitism k) (elitism p)) (orelse (k_maxage k) (maxage p))
                   (orelse (k_minimize k) (minimize p)) (op_min p) in
  match check_params nPop p1 with
  | Ok _ => (Params (p_c p1) (p_m p1) (maxiter p1) (miniter p1) (elitism p1) (maxage p1)
                    (minimize p1) (minimize p1), Ok tt)
  | Err e => (p1, Err e)
  end.

(** ** Pairs of parents: ga.py:576-607, [random_parents_generator].  The generator
    state is ([pool], [nPool]). *)
Definition gen : Type := (nat -> bool) * nat.
Definition gen_start (n : nat) : result gen :=
  if n mod 2 =? 0 then Ok (fun _ => true, n) else Err AssertionError.
Definition gen_next (n : nat) (g : gen) : M (option ((nat * nat) * gen)) :=
  let '(pool, nPool) := g in
  if 2 <? nPool then
    let inside := filter pool (seq 0 n) in
    mdo drawn <- choice 2 inside ;;
    match drawn with
    | [a; b] => ret (Some ((a, b), (upd (upd pool a false) b false, length inside)))
    | _ => fail ValueError
    end
  else ret None.
(** All pairs, by running the generator to its end. *)
Fixpoint gen_all (fuel n : nat) (g : gen) : M (list (nat * nat)) :=
  match fuel with
  | 0 => fail OutOfFuel
  | S fuel' =>
      mdo o <- gen_next n g ;;
      match o with
      | None => ret []
      | Some (p, g') => mdo ps <- gen_all fuel' n g' ;; ret (p :: ps)
      end
  end.
Definition random_parents (fuel n : nat) : M (list (nat * nat)) :=
  mdo g <- lift (gen_start n) ;; gen_all fuel n g.

(** ** bga.py:161-166, [mutate]. *)
Definition mutate_with (pm : F) (ps child : list F) : list F :=
  map (fun pc : F * F => if negb (leb (fst pc) pm) then snd pc else sub one (snd pc)) (combine ps child).
Definition mutate (L : nat) (pm : F) (child : list F) : M (list F) :=
  mdo ps <- repeatM L rand ;; ret (mutate_with pm ps child).

(** ** bga.py:129-159, [crossover]. *)
(** [child[lo:hi] = parent[lo:hi]] *)
Definition blit (child parent : list F) (lo hi : nat) : list F :=
  map (fun k => if (lo <=? k) && (k <? hi) then nth k parent zero else nth k child zero)
      (seq 0 (length child)).
Fixpoint insert (x : nat) (l : list nat) : list nat :=
  match l with
  | [] => [x]
  | y :: l' => if x <=? y then x :: l else y :: insert x l'
  end.
Definition sort (l : list nat) : list nat := fold_right insert [] l.

(** The loop over the [nCut + 1] segments for given cut points and coin. *)
Definition children_with (L : nat) (parent1 parent2 : list F) (p : list nat) (coin : bool)
    : list F * list F :=
  let cuts := sort ([0; L] ++ p) in
  fold_left (fun (c : list F * list F) i =>
      let lo := nth i cuts 0 in let hi := nth (i + 1) cuts 0 in
      if Bool.eqb (i mod 2 =? 0) coin
      then (blit (fst c) parent1 lo hi, blit (snd c) parent2 lo hi)
      else (blit (fst c) parent2 lo hi, blit (snd c) parent1 lo hi))
    (seq 0 (length p + 1)) (repeat zero L, repeat zero L).

(** [nCut = None] draws the number of cuts.  Parents that do not have [L] genes are
    rejected here; NumPy rejects shorter ones. *)
Definition crossover (L : nat) (pc pm : F) (parent1 parent2 : list F) (nCut : option nat)
    : M (list F * list F) :=
  mdo x <- rand ;;
  if negb (leb x pc) then ret (parent1, parent2)
  else if negb ((length parent1 =? L) && (length parent2 =? L)) then fail ValueError
  else
    mdo n <- match nCut with Some n => ret n | None => randint 1 (L - 1) end ;;
    mdo p <- choice n (seq 1 (L - 2)) ;;
    mdo y <- rand ;;
    let half := div one (add one one) in
    let '(c1, c2) := children_with L parent1 parent2 p (negb (leb y half)) in
    mdo m1 <- mutate L pm c1 ;;
    mdo m2 <- mutate L pm c2 ;;
    ret (m1, m2).

(** ** bga.py:85-110, [populate].  Any exception of the pairing and crossover is
    turned into a RuntimeError. *)
Definition to_runtime_error {A} (m : M A) : M A :=
  fun r => match m r with Ok x => Ok x | Err OutOfFuel => Err OutOfFuel | Err _ => Err RuntimeError end.
Fixpoint breed (fuel nPop L : nat) (pc pm : F) (genotypes : list (list F)) (g : gen)
    (offspring : list (list F)) : M (list (list F)) :=
  if length offspring + length genotypes <? nPop then
    match fuel with
    | 0 => fail OutOfFuel
    | S fuel' =>
        mdo o <- gen_next (length genotypes) g ;;
        match o with
        | None => fail StopIteration
        | Some ((a, b), g') =>
            mdo (c1, c2) <- crossover L pc pm (nth a genotypes []) (nth b genotypes []) None ;;
            breed fuel' nPop L pc pm genotypes g' (offspring ++ [c1; c2])
        end
    end
  else ret (genotypes ++ offspring).
Definition populate_from (nPop L : nat) (pc pm : F) (genotypes : list (list F)) : M (list (list F)) :=
  if length genotypes <? nPop
  then to_runtime_error (mdo g <- lift (gen_start (length genotypes)) ;;
                         breed nPop nPop L pc pm genotypes g [])
  else ret genotypes.
Definition random_bit : M F := mdo x <- randint 0 2 ;; ret (of_nat x).
Definition populate (nPop L : nat) (pc pm : F) (genotypes : option (list (list F))) : M (list (list F)) :=
  match genotypes with
  | None => mdo g <- repeatM (nPop / 2) (repeatM L random_bit) ;; populate_from nPop L pc pm g
  | Some g => populate_from nPop L pc pm g
  end.

(** ** bga.py:112-127, [decode]: the genes of variable [d] are the [length] genes
    starting at [d * length], lowest power first.  [ranges] lists (first, last) of
    every row of the range array; its length is the dimension. *)
Definition block (len d : nat) (g : list F) : list F := firstn len (skipn (d * len) g).
Definition code_of (genes : list F) : F :=
  suml (map (fun ib : nat * F => mul (snd ib) (pow (of_nat 2) (fst ib)))
            (combine (seq 0 (length genes)) genes)).
Definition decode_one (len : nat) (ranges : list (F * F)) (g : list F) : list F :=
  let span := sub (pow (of_nat 2) len) (pow (of_nat 2) 0) in
  map (fun dr : nat * (F * F) =>
         let '(d, (lo, hi)) := dr in
         add (mul (code_of (block len d g)) (div (sub hi lo) span)) lo)
      (combine (seq 0 (length ranges)) ranges).
Definition decode (nPop len : nat) (ranges : list (F * F)) (genotypes : list (list F))
    : result (list (list F)) :=
  if (length genotypes =? nPop) && forallb (fun g => length g =? length ranges * len) genotypes
  then Ok (map (decode_one len ranges) genotypes)
  else Err ValueError.

(** ** Fitness, elite, selection *)

(** [np.argmin] / [np.argmax]: first best index. *)
Definition better (mini : bool) (a b : F) : bool := if mini then negb (leb b a) else negb (leb a b).
Fixpoint arg_best (mini : bool) (i best : nat) (vbest : F) (l : list F) : nat :=
  match l with
  | [] => best
  | v :: l' => if better mini v vbest then arg_best mini (S i) i v l' else arg_best mini (S i) best vbest l'
  end.
Definition argbest (mini : bool) (l : list F) : result nat :=
  match l with [] => Err ValueError | v :: l' => Ok (arg_best mini 1 0 v l') end.

(** The contract of [np.argsort] (unstable: any sorting permutation). *)
Variable argsort : list F -> list nat.

(** [int(nPop * x)] for a fraction [x]: the number of positive integers up to
    [nPop] that are at most [nPop * x]. *)
Definition elite_count (nPop : nat) (x : F) : nat :=
  length (filter (fun k => leb (of_nat k) (mul (of_nat nPop) x)) (seq 1 nPop)).

(** ga.py:538-574, [divide], for an elitism value that is not None (the caller
    treats None separately); a float that is not below 1 is used as a slice bound. *)
Definition divide (nPop : nat) (e : elit) (mini : bool) (fitness : list F)
    : result (list nat * list nat) :=
  let s := argsort fitness in
  let s := if mini then s else rev s in
  match e with
  | ENone => Ok ([], seq 0 nPop)
  | EInt z => let k := if (z <? 1)%Z then 0 else Z.to_nat z in Ok (firstn k s, skipn k s)
  | EFloat x => if negb (leb one x)
                then let k := elite_count nPop x in Ok (firstn k s, skipn k s)
                else Err TypeError
  end.

(** bga.py:188-193: tournaments of three. *)
Fixpoint tournaments (n : nat) (mini : bool) (fitness : list F) (others winners : list nat) : M (list nat) :=
  match n with
  | 0 => ret winners
  | S n' =>
      mdo candidates <- choice 3 others ;;
      let s := argsort (map (fun id => nth id fitness zero) candidates) in
      let w := if mini then hd 0 s else last s 0 in
      tournaments n' mini fitness others (winners ++ [nth w candidates 0])
  end.

(** bga.py:168-194, [select].  For [elitism = None], [divide] returns a list, which
    has no [tolist]. *)
Definition select (nPop : nat) (e : elit) (mini : bool) (fitness : list F) (genotypes : list (list F))
    : M (list (list F)) :=
  mdo (winners, others) <- lift (divide nPop e mini fitness) ;;
  match e with
  | ENone => fail AttributeError
  | _ => mdo ws <- tournaments (nPop / 2 - length winners) mini fitness others winners ;;
         ret (map (fun w => nth w genotypes []) ws)
  end.

(** ** The solver object *)
Record genom := Genom { g_pheno : list F; g_geno : list F; g_fit : F; g_age : nat; g_index : nat }.
Inductive status := INITIALIZED | MAX_ITERATIONS_REACHED | CONVERGED.

(** The fixed attributes: objective, ranges, gene length, population size. *)
Record config := Config { fnc : list F -> F; ranges : list (F * F); len : nat; nPop : nat }.
Definition n_genes (c : config) : nat := length (ranges c) * len c.

(** [running]: the generator has yielded the first population; the next [next]
    selects and breeds. *)
Record ga := Ga {
  par : params; genotypes : list (list F); phenotypes : option (list (list F));
  fitness : option (list F); champion : option genom; running : bool;
  n_fev : nat; n_iter : nat; stage : status }.

Variable c : config.

(** ga.py:303-320, [reset] and the first part of the generator (ga.py:380-386). *)
Definition reset (p : params) : M ga :=
  mdo g <- populate (nPop c) (n_genes c) (p_c p) (p_m p) None ;;
  ret (Ga p g None None None false 0 0 INITIALIZED).

(** ga.py:269-278, the [phenotypes] property. *)
Definition read_phenotypes (s : ga) : result (list (list F) * ga) :=
  match phenotypes s with
  | Some ph => Ok (ph, s)
  | None =>
      do ph <- decode (nPop c) (len c) (ranges c) (genotypes s) ;
      Ok (ph, Ga (par s) (genotypes s) (Some ph) (fitness s) (champion s) (running s) (n_fev s) (n_iter s) (stage s))
  end.

(** ga.py:280-290 and 461-486: the [fitness] property and [evaluate]. *)
Definition read_fitness (s : ga) : result (list F * ga) :=
  match fitness s with
  | Some f => Ok (f, s)
  | None =>
      do (ph, s1) <- read_phenotypes s ;
      let f := map (fnc c) ph in
      Ok (f, Ga (par s1) (genotypes s1) (phenotypes s1) (Some f) (champion s1) (running s1)
                (n_fev s1 + length ph) (n_iter s1) (stage s1))
  end.

(** ga.py:380-390: one [next] on the generator. *)
Definition next_generation (s : ga) : M ga :=
  if running s then
    mdo (f, s1) <- lift (read_fitness s) ;;
    mdo sel <- select (nPop c) (elitism (par s1)) (minimize (par s1)) f (genotypes s1) ;;
    mdo g <- populate (nPop c) (n_genes c) (p_c (par s1)) (p_m (par s1)) (Some sel) ;;
    ret (Ga (par s1) g None None (champion s1) true (n_fev s1) (n_iter s1) (stage s1))
  else ret (Ga (par s) (genotypes s) (phenotypes s) (fitness s) (champion s) true (n_fev s) (n_iter s) (stage s)).

(** ga.py:500-519, [best_candidate]. *)
Definition best_candidate (s : ga) : result (genom * ga) :=
  do (f, s1) <- read_fitness s ;
  do i <- argbest (minimize (par s1)) f ;
  do (ph, s2) <- read_phenotypes s1 ;
  Ok (Genom (nth i ph []) (nth i (genotypes s2) []) (nth i f zero) 0 i, s2).

(** ga.py:521-536, [_celebrate]. *)
Definition celebrate (x : genom) (s : ga) : ga :=
  let aged (g : genom) n := Genom (g_pheno g) (g_geno g) (g_fit g) n (g_index g) in
  let ch := match champion s with
            | None => aged x 1
            | Some old => if better (op_min (par s)) (g_fit x) (g_fit old)
                          then aged x 1 else aged old (g_age old + 1)
            end in
  Ga (par s) (genotypes s) (phenotypes s) (fitness s) (Some ch) (running s) (n_fev s) (n_iter s) (stage s).

(** ga.py:392-401, one cycle of [evolve]. *)
Definition evolve1 (s : ga) : M ga :=
  mdo s1 <- next_generation s ;;
  mdo (x, s2) <- lift (best_candidate s1) ;;
  ret (celebrate x s2).
Fixpoint evolve (cycles : nat) (s : ga) : M ga :=
  match cycles with
  | 0 => ret s
  | S n => mdo s1 <- evolve1 s ;; evolve n s1
  end.

(** ga.py:609-620, [stopping_criteria] (the champion exists after a cycle). *)
Definition stopping_criteria (s : ga) : bool :=
  match champion s with Some g => (maxage (par s) <? Z.of_nat (g_age g))%Z | None => false end.

Definition with_iter (s : ga) (n : nat) (st : status) : ga :=
  Ga (par s) (genotypes s) (phenotypes s) (fitness s) (champion s) (running s) (n_fev s) n st.

(** ga.py:435-447, the [while] loop of [solve]. *)
Fixpoint solve_loop (fuel : nat) (s : ga) : M ga :=
  match fuel with
  | 0 => fail OutOfFuel
  | S fuel' =>
      mdo s1 <- evolve1 s ;;
      let s2 := with_iter s1 (n_iter s1 + 1) (stage s1) in
      let min_reached := (miniter (par s2) <=? Z.of_nat (n_iter s2))%Z in
      let max_reached := (maxiter (par s2) <=? Z.of_nat (n_iter s2))%Z in
      if (stopping_criteria s2 || max_reached) && min_reached
      then ret (with_iter s2 (n_iter s2)
                  (if max_reached then MAX_ITERATIONS_REACHED
                   else if stopping_criteria s2 then CONVERGED else stage s2))
      else solve_loop fuel' s2
  end.

(** ga.py:403-459, [solve]; [None] starts from scratch, [Some s] is
    [recycle=True] with the current object. *)
Definition solve (fuel : nat) (k : kwargs) (p : params) (recycled : option ga) : M ga :=
  mdo s <- match recycled with Some s => ret s | None => reset p end ;;
  match set_solution_params (nPop c) k (par s) with
  | (_, Err e) => fail e
  | (p', Ok _) =>
      solve_loop fuel (Ga p' (genotypes s) (phenotypes s) (fitness s) (champion s) (running s)
                          (n_fev s) (n_iter s) INITIALIZED)
  end.

(** ga.py:181-232, [__init__]: the requested size is adjusted by
    [population_size]; the parameters are checked. *)
Definition init (p : params) : M ga :=
  match set_solution_params (nPop c) no_kwargs p with
  | (_, Err e) => fail e
  | (p', Ok _) => reset p'
  end.
End Ga.
Arguments rng : clear implicits.  Arguments params : clear implicits.  Arguments kwargs : clear implicits.
Arguments config : clear implicits.  Arguments ga : clear implicits.  Arguments genom : clear implicits.
Arguments elit : clear implicits.
