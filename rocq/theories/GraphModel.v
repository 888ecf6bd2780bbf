(** Model of graph/utils.py: level structures of a graph given by a CSR adjacency
    matrix.

    Numba runs this code without bounds checks; reads and writes outside an array
    are reported by the model as [IndexError].  [while] loops run on fuel;
    [OutOfFuel] means that the loop did not stop within the given number of
    iterations. *)
From Verif Require Import Prelude OField SparseModel.

Section Graph.
Context {F : ofield}.

(** graph/utils.py:34, number of nodes. *)
Definition n_nodes (adj : csr F) : nat := length (c_indptr adj) - 1.

(** graph/utils.py:47-49: mark the neighbours of the nodes of a level. *)
Definition mark_neighbours (adj : csr F) (level : list nat) : result (nat -> bool) :=
  foldM (fun (levelset : nat -> bool) node =>
           do neighbours <- irow adj node ;
           foldM (fun (ls : nat -> bool) v =>
                    if v <? n_nodes adj then Ok (upd ls v true) else Err IndexError)
                 neighbours levelset)
        level (fun _ => false).

(** graph/utils.py:45-57, the [while] loop.  The typed dictionary with keys
    0, 1, 2, ... is the list of its values; [last] is [rls[level]]. *)
Fixpoint rls_loop (fuel : nat) (adj : csr F) (rls : list (list nat)) (nodes : nat -> bool) (nE : nat)
    : result (list (list nat)) :=
  let nN := n_nodes adj in
  if nE <? nN then
    match fuel with
    | 0 => Err OutOfFuel
    | S fuel' =>
        do marked <- mark_neighbours adj (last rls []) ;
        let levelset := fun i => marked i && negb (nodes i) in
        let next := filter levelset (seq 0 nN) in
        rls_loop fuel' adj (rls ++ [next]) (fun i => nodes i || (levelset i && (i <? nN))) (nE + length next)
    end
  else Ok rls.

(** graph/utils.py:13-57, [rooted_level_structure]. *)
Definition rooted_level_structure (fuel : nat) (adj : csr F) (root : nat) : result (list (list nat)) :=
  if root <? n_nodes adj then rls_loop fuel adj [[root]] (upd (fun _ => false) root true) 1
  else Err IndexError.

(** graph/utils.py:77-82. *)
Definition length_width (rls : list (list nat)) : nat * nat :=
  (length rls, fold_left (fun w l => Nat.max w (length l)) rls 0).

(** graph/utils.py:89-96, the [for] loop over the nodes of the last level.  The
    state is (RLS, length, width, found). *)
Definition ppn_scan (fuel : nat) (adj : csr F) (nodes : list nat)
    (st : list (list nat) * nat * nat * bool) : result (list (list nat) * nat * nat * bool) :=
  foldM (fun (st : list (list nat) * nat * nat * bool) node =>
           let '(rls, len, width, found) := st in
           do i_rls <- rooted_level_structure fuel adj node ;
           let '(il, iw) := length_width i_rls in
           if (len <? il) || ((il =? len) && (iw <? width))
           then Ok (i_rls, il, iw, true) else Ok st)
        nodes st.

(** graph/utils.py:86-102, the outer loop ([fuel] for the inner calls). *)
Fixpoint ppn_loop (outer fuel : nat) (adj : csr F) (rls : list (list nat)) (len width : nat)
    : result (list nat) :=
  match outer with
  | 0 => Err OutOfFuel
  | S outer' =>
      do st <- ppn_scan fuel adj (last rls []) (rls, len, width, false) ;
      let '(rls', len', width', found) := st in
      if found then ppn_loop outer' fuel adj rls' len' width'
      else match rls' with
           | (root :: _) :: _ => Ok (last rls' [] ++ [root])
           | _ => Err IndexError
           end
  end.

(** graph/utils.py:60-102, [pseudo_peripheral_nodes]. *)
Definition pseudo_peripheral_nodes (outer fuel : nat) (adj : csr F) : result (list nat) :=
  do rls <- rooted_level_structure fuel adj 0 ;
  let '(len, width) := length_width rls in
  ppn_loop outer fuel adj rls len width.
End Graph.
