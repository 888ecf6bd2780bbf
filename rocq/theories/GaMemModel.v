(** Model of the memory of a genetic algorithm: which arrays and lists the solver holds, which ones it
    hands out, and what happens if the caller edits them.  What the solver computes is modelled in GaModel;
    here decoding, objective, comparison and the making of new populations are arguments. *)
From Verif Require Import Prelude WrapModel.

Section Mem.
Context {V D : Type}.

(** [decode1]: bga.py:111-129, [decode], which treats every row for itself.  [fnc]: the objective
    (ga.py:474-479); it is a function of the values.  [argbest]: [np.argmin] or [np.argmax] (ga.py:511-512).
    [better]: [_celebrate_op] on two fitness values (ga.py:376, 531).  [next_pop]: [select] followed by
    [populate] (ga.py:388-389), a function of the draws, the genotypes and the fitness; it makes a new array
    (np.array in [select], np.vstack in [populate]).  [first_pop]: [populate()] (ga.py:384).  [v0] stands for reads outside
    of an array, which do not occur. *)
Record problem := Problem {
  decode1 : list V -> list V; fnc : list V -> V; argbest : list V -> nat; better : V -> V -> bool;
  next_pop : D -> list (list V) -> list V -> list (list V); first_pop : D -> list (list V); v0 : V }.
Variable pb : problem.

(** Editable objects: arrays (the fitness, a flat array, is stored as one row) and Python lists. *)
Inductive cell := Arr (rows : list (list V)) | Lst (items : list V).
(** ga.py:27-36, [Genom]: pydantic converts the two rows to new lists and the fitness to a number. *)
Record member := Member { m_gen : nat; m_phen : nat; m_fit : V }.
(** The solver: [_genotypes], [_phenotypes], [_fitness], whether the generator has passed its second yield, [_champion]
    and [state.x] (ga.py:534). *)
Record ga := Ga { mem : list cell; pop : nat; phen : option nat; fit : option nat; running : bool;
                  champ : option member; state_x : option nat }.

Definition rows (s : ga) (a : nat) : list (list V) := match nth_error (mem s) a with Some (Arr m) => m | _ => [] end.
Definition items (s : ga) (a : nat) : list V := match nth_error (mem s) a with Some (Lst l) => l | _ => [] end.

(** ga.py:269-278, [phenotypes]. *)
Definition read_phen (s : ga) : nat * ga :=
  match phen s with
  | Some a => (a, s)
  | None => let a := length (mem s) in
      (a, Ga (mem s ++ [Arr (map (decode1 pb) (rows s (pop s)))]) (pop s) (Some a) (fit s) (running s) (champ s) (state_x s))
  end.
(** ga.py:280-290, [fitness], with 474-486, [evaluate]. *)
Definition read_fit (s : ga) : nat * ga :=
  match fit s with
  | Some a => (a, s)
  | None => let (pa, s1) := read_phen s in let a := length (mem s1) in
      (a, Ga (mem s1 ++ [Arr [map (fnc pb) (rows s1 pa)]]) (pop s1) (phen s1) (Some a) (running s1) (champ s1) (state_x s1))
  end.
Definition fitness_at (s : ga) (a : nat) : list V := hd [] (rows s a).
(** ga.py:500-519, [best_candidate]. *)
Definition best (s : ga) : member * ga :=
  let (fa, s1) := read_fit s in
  let i := argbest pb (fitness_at s1 fa) in
  let (pa, s2) := read_phen s1 in
  let n := length (mem s2) in
  (Member (S n) n (nth i (fitness_at s2 fa) (v0 pb)),
   Ga (mem s2 ++ [Lst (nth i (rows s2 pa) []); Lst (nth i (rows s2 (pop s2)) [])])
      (pop s2) (phen s2) (fit s2) (running s2) (champ s2) (state_x s2)).
(** ga.py:521-536, [_celebrate]; [state.x] is the list of the champion itself. *)
Definition celebrate (m : member) (s : ga) : ga :=
  let c := match champ s with None => m | Some c => if better pb (m_fit m) (m_fit c) then m else c end in
  Ga (mem s) (pop s) (phen s) (fit s) (running s) (Some c) (Some (m_phen c)).
(** ga.py:260-267, assignment to [genotypes]. *)
Definition set_pop (s : ga) (a : nat) : ga := Ga (mem s) a None None (running s) (champ s) (state_x s).
Definition new_pop (s : ga) (m : list (list V)) : ga :=
  set_pop (Ga (mem s ++ [Arr m]) (pop s) (phen s) (fit s) (running s) (champ s) (state_x s)) (length (mem s)).
(** ga.py:380-402, one cycle of [evolve] with the generator [evolver]: the first cycle keeps the
    population. *)
Definition evolve (d : D) (s : ga) : ga :=
  let s1 := if running s
            then let (fa, s0) := read_fit s in new_pop s0 (next_pop pb d (rows s0 (pop s0)) (fitness_at s0 fa))
            else Ga (mem s) (pop s) (phen s) (fit s) true (champ s) (state_x s) in
  let (m, s2) := best s1 in celebrate m s2.
(** ga.py:303-321, [reset]. *)
Definition reset (d : D) (s : ga) : ga :=
  let s1 := new_pop s (first_pop pb d) in Ga (mem s1) (pop s1) None None false None None.
(** A new solver (ga.py:231). *)
Definition start (d : D) : ga := reset d (Ga [] 0 None None false None None).

(** What a program with a solver can do.  Variables hold arrays or lists. *)
Inductive attr := Population | Phenotypes | Fitness | ChampionGenotype | ChampionPhenotype | StateX.
Inductive ref := RArr (a : nat) | RLst (a : nat).
Inductive cmd :=
| Evolve (d : D) | Reset (d : D)
| Keep (w : attr)                           (* x = ga.genotypes, ... *)
| KeepBest                                  (* b = ga.best_candidate(); x = b.genotype; y = b.phenotype *)
| NewArray (m : list (list V))              (* x = np.array(m) *)
| Copy (k : nat)                            (* x = variable.copy() *)
| Assign (k : nat)                          (* ga.genotypes = variable *)
| Write (k i j : nat) (v : V).              (* variable[i, j] = v, for lists variable[j] = v *)
Definition world := (ga * list ref)%type.

Definition with_mem (s : ga) (m : list cell) : ga := Ga m (pop s) (phen s) (fit s) (running s) (champ s) (state_x s).
Definition put (c : cell) (i j : nat) (v : V) : cell :=
  match c with
  | Arr m => Arr (set_nth i (set_nth j v (nth i m [])) m)
  | Lst l => Lst (set_nth j v l)
  end.
Definition adr (r : ref) : nat := match r with RArr a => a | RLst a => a end.
(** Statements that raise (a champion that does not exist yet, an unknown variable, a list as population) change nothing. *)
Definition step (w : world) (c : cmd) : world :=
  let (s, vs) := w in
  match c with
  | Evolve d => (evolve d s, vs)
  | Reset d => (reset d s, vs)
  | Keep Population => (s, vs ++ [RArr (pop s)])
  | Keep Phenotypes => let (a, s1) := read_phen s in (s1, vs ++ [RArr a])
  | Keep Fitness => let (a, s1) := read_fit s in (s1, vs ++ [RArr a])
  | Keep ChampionGenotype => match champ s with Some m => (s, vs ++ [RLst (m_gen m)]) | None => w end
  | Keep ChampionPhenotype => match champ s with Some m => (s, vs ++ [RLst (m_phen m)]) | None => w end
  | Keep StateX => match state_x s with Some a => (s, vs ++ [RLst a]) | None => w end
  | KeepBest => let (m, s1) := best s in (s1, vs ++ [RLst (m_gen m); RLst (m_phen m)])
  | NewArray m => (with_mem s (mem s ++ [Arr m]), vs ++ [RArr (length (mem s))])
  | Copy k => match nth_error vs k with
              | Some (RArr a) => (with_mem s (mem s ++ [Arr (rows s a)]), vs ++ [RArr (length (mem s))])
              | Some (RLst a) => (with_mem s (mem s ++ [Lst (items s a)]), vs ++ [RLst (length (mem s))])
              | None => w
              end
  | Assign k => match nth_error vs k with Some (RArr a) => (set_pop s a, vs) | _ => w end
  | Write k i j v => match nth_error vs k with
                     | Some r => match nth_error (mem s) (adr r) with
                                 | Some c => (with_mem s (set_nth (adr r) (put c i j v) (mem s)), vs)
                                 | None => w
                                 end
                     | None => w
                     end
  end.
Definition run (w : world) (cs : list cmd) : world := fold_left step cs w.
End Mem.
Arguments problem : clear implicits.  Arguments cell : clear implicits.  Arguments ga : clear implicits.
Arguments member : clear implicits.  Arguments cmd : clear implicits.  Arguments world : clear implicits.
