(** Model of the contractions that are written as commands for [np.einsum]: the components of a general tensor in
    another frame (linalg/tensor.py:93-109) and the dot product of general tensors (linalg/utils.py:228-240).
    Characters are their code points.  Exact arithmetic; the order of contraction ([einsum_path]) is left out. *)
From Verif Require Import Prelude OField ParallelModel KernModel CollModel.

(** [latinrange] of sigmaepsilon.core.alphabet: consecutive characters. *)
Definition latinrange (n start : nat) : list nat := seq start n.
Definition alphabet : list nat := seq 65 26 ++ seq 97 26.
Definition letter (c : nat) : bool := existsb (Nat.eqb c) alphabet.
Definition count (l : nat) (ls : list nat) : nat := count_occ Nat.eq_dec ls l.
(** The labels of the result, in the order of the alphabet, are those that are used once; the others are summed over. *)
Definition free (ls : list nat) : list nat := filter (fun l => count l ls =? 1) alphabet.
Definition summed (ls : list nat) : list nat := filter (fun l => 1 <? count l ls) alphabet.
Definition env := list (nat * nat).
Definition lookup (e : env) (l : nat) : nat := match find (fun p => fst p =? l) e with Some p => snd p | None => 0 end.
(** The size of a label: an axis of length one goes with every size. *)
Definition dim (occ : env) (l : nat) : nat :=
  match find (fun p => (fst p =? l) && negb (snd p =? 1)) occ with Some p => snd p | None => 1 end.
Definition index (e : env) (t : list nat) (sh : list nat) : cell :=
  map (fun ld => if snd ld =? 1 then 0 else lookup e (fst ld)) (combine t sh).

Section Einsum.
Context {F : ofield}.
Local Notation arr := (ndarray F).
Fixpoint occurrences (terms : list (list nat)) (ops : list arr) : env :=
  match terms, ops with t :: ts, o :: os => combine t (shape o) ++ occurrences ts os | _, _ => [] end.
Fixpoint matches (terms : list (list nat)) (ops : list arr) : bool :=
  match terms, ops with
  | [], [] => true
  | t :: ts, o :: os => (length t =? ndim o) && matches ts os
  | _, _ => false
  end.
Fixpoint value (e : env) (terms : list (list nat)) (ops : list arr) : F :=
  match terms, ops with t :: ts, o :: os => mul (at_ o (index e t (shape o))) (value e ts os) | _, _ => one end.
(** The result with the labels [fs], summed over the labels [ss]. *)
Definition contract (fs ss : list nat) (size : nat -> nat) (terms : list (list nat)) (ops : list arr) : arr :=
  ND (map size fs) (fun c => suml (map (fun s => value (combine fs c ++ combine ss s) terms ops) (cells (map size ss)))).
(** [np.einsum("t1,t2,...", *ops)] *)
Definition np_einsum (terms : list (list nat)) (ops : list arr) : result arr :=
  let ls := concat terms in
  let occ := occurrences terms ops in
  if forallb letter ls && matches terms ops && forallb (fun p => (snd p =? dim occ (fst p)) || (snd p =? 1)) occ
  then Ok (contract (free ls) (summed ls) (dim occ) terms ops)
  else Err ValueError.

(** tensor.py:101-104, the command for rank [r] (at least one: there is no tensor of rank 0). *)
Definition command (r : nat) : list (list nat) :=
  let target := latinrange r 97 in
  let source := latinrange r (97 + r) in
  map (fun st => [snd st; fst st]) (combine source target) ++ [source].
(** tensor.py:93-109, [transform_components] of a tensor with rank [r] and components [a]; [_einsum_params_] is one dictionary
    for all tensors.  If [einsum_path] raises (whenever [einsum] would), nothing is stored. *)
Definition cache := nat -> option (list (list nat)).
Definition transform_components (m : cache) (r : nat) (a Q : arr) : result arr * cache :=
  let ops := repeat Q r ++ [a] in
  match m r with
  | Some c => (np_einsum c ops, m)
  | None =>
      match np_einsum (command r) ops with
      | Ok x => (Ok x, fun k => if k =? r then Some (command r) else m k)
      | Err e => (Err e, m)
      end
  end.
(** The dictionary after any calls. *)
Definition after (calls : list (nat * arr * arr)) : cache :=
  fold_left (fun m c => snd (transform_components m (fst (fst c)) (snd (fst c)) (snd c))) calls (fun _ => None).

(** Python's [l[z] = x] *)
Definition set_item (l : list nat) (z : Z) (x : nat) : result (list nat) :=
  let k := if (z <? 0)%Z then (z + Z.of_nat (length l))%Z else z in
  if (0 <=? k)%Z && (k <? Z.of_nat (length l))%Z
  then Ok (firstn (Z.to_nat k) l ++ x :: skipn (S (Z.to_nat k)) l) else Err IndexError.
(** utils.py:232-240: the arrays [a] and [b] have [ra] and [rb] axes (the dots in the command stand for no axes then). *)
Definition contraction (ra rb : nat) (a b : arr) (ax_a ax_b : Z) : result arr :=
  let ic := 97 + ra + rb in
  do ia <- set_item (latinrange ra 97) ax_a ic ;
  do ib <- set_item (latinrange rb (97 + ra)) ax_b ic ;
  np_einsum [ia; ib] [a; b].
End Einsum.
