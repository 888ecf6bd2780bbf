(** Properties C91 (histograms), C92 (squeeze), C93 (comparison of members of a
    population), C95 (chop) and C96 (symbolic inverse). *)
From Coq Require Import QArith Qcanon Field.
From Verif Require Import Prelude OField ParallelModel ParallelSpec MiscModel MiscSpec MiscProofs.
Local Open Scope nat_scope.

(** C91.  The counts are those of NumPy; with [return_edges] the edges follow unchanged;
    exceptions of NumPy are passed on; there is always a result. *)
Theorem C91_counts : forall (F : ofield) (C : Type) (np : result (C * edges F)) (return_edges : bool),
  (exists res, histogram np return_edges res) /\
  (forall res, histogram np return_edges res ->
     match np, res with
     | Err e, Err e' => e' = e
     | Ok (counts, ed), Ok (counts', pos) =>
         counts' = counts /\ (return_edges = true -> pos = Edges ed) /\ (return_edges = false -> forall ed', pos <> Edges ed')
     | _, _ => False
     end).
Proof.
  intros F C np re. split.
  - destruct np as [[c e]|e]; [|eexists; apply h_err; reflexivity]. destruct re; [eexists; eapply h_edges; reflexivity|].
    destruct e as [l|l].
    + destruct (proj1 (stores1 (@zero F) (length l - 1) (fun i => div (add (nth i l zero) (nth (S i) l zero)) two))) as [[r Hr] _].
      eexists. eapply h_float; [reflexivity|reflexivity|exact Hr].
    + destruct (proj1 (stores1 0%Z (length l - 1) (fun i => Z.quot (nth i l 0 + nth (S i) l 0) 2)%Z)) as [[r Hr] _].
      eexists. eapply h_int; [reflexivity|reflexivity|exact Hr].
  - intros res H. destruct H as [e ->|c e -> ->|c l r -> -> _|c l r -> -> _]; cbn; repeat split; congruence.
Qed.
Print Assumptions C91_counts.

(** With float edges there is one position for each bin, the middle of its edges, under
    every schedule; it lies in the bin. *)
Theorem C91_centers_partial : forall (F : ofield) (C : Type) (counts : C) (l : list F) (res : C * positions F),
  histogram (Ok (counts, Floats l)) false (Ok res) ->
  exists c, snd res = FloatCenters c /\ shape c = [length l - 1] /\
    forall i, i + 1 < length l ->
      midpoint (at_ c [i]) (nth i l zero) (nth (i + 1) l zero) /\
      (leb (nth i l zero) (nth (i + 1) l zero) = true ->
       leb (nth i l zero) (at_ c [i]) = true /\ leb (at_ c [i]) (nth (i + 1) l zero) = true).
Proof.
  intros F C counts l res H. inversion H as [|c e E H1|c l' r E _ Hr|c l' r E]; subst; try discriminate.
  injection E as <- <-. exists r. split; [reflexivity|].
  destruct (proj2 (stores1 (@zero F) (length l - 1) (fun i => div (add (nth i l zero) (nth (S i) l zero)) two)) r Hr) as [Hs Hv].
  split; [exact Hs|]. intros i Hi. rewrite Hv by lia. replace (i + 1) with (S i) by lia.
  pose proof (half_midpoint (nth i l zero) (nth (S i) l zero)) as Hm. split; [exact Hm|]. apply midpoint_between, Hm.
Qed.
Print Assumptions C91_centers_partial.

(** With integer edges the position is the middle exactly when the sum of the edges is even. *)
Theorem C91_integer_edges_partial : forall (F : ofield) (C : Type) (counts : C) (l : list Z) (res : C * positions F),
  histogram (Ok (counts, Ints l)) false (Ok res) ->
  exists c, snd res = IntCenters c /\ shape c = [length l - 1] /\
    forall i, i + 1 < length l ->
      (at_ c [i] + at_ c [i] = nth i l 0 + nth (i + 1) l 0 <-> Z.Even (nth i l 0 + nth (i + 1) l 0))%Z.
Proof.
  intros F C counts l res H. inversion H as [|c e E H1|c l' r E|c l' r E _ Hr]; subst; try discriminate.
  injection E as <- <-. exists r. split; [reflexivity|].
  destruct (proj2 (stores1 0%Z (length l - 1) (fun i => Z.quot (nth i l 0 + nth (S i) l 0) 2)%Z) r Hr) as [Hs Hv].
  split; [exact Hs|]. intros i Hi. rewrite Hv by lia. replace (i + 1) with (S i) by lia.
  set (s := (nth i l 0 + nth (S i) l 0)%Z). split.
  - intros E. exists (Z.quot s 2). lia.
  - intros [k ->]. rewrite Z.mul_comm, Z.quot_mul by lia. lia.
Qed.
Print Assumptions C91_integer_edges_partial.

(** The bins [0, 1] and [1, 2], given as integers, are reported at 0 and 1. *)
Theorem C91_integer_edges_refuted :
  exists l : list Z, forall (F : ofield) (C : Type) (counts : C) (res : C * positions F),
    histogram (Ok (counts, Ints l)) false (Ok res) ->
    exists c, snd res = IntCenters c /\ at_ c [0] = 0%Z /\ at_ c [1] = 1%Z /\
      (at_ c [0%nat] + at_ c [0%nat] <> nth 0 l 0 + nth 1 l 0)%Z /\ (at_ c [1%nat] + at_ c [1%nat] <> nth 1 l 0 + nth 2 l 0)%Z.
Proof.
  exists [0; 1; 2]%Z. intros F C counts res H. inversion H as [|c e E H1|c l' r E|c l' r E _ Hr]; subst; try discriminate.
  injection E as <- <-. exists r. split; [reflexivity|].
  destruct (proj2 (stores1 0%Z 2 (fun i => Z.quot (nth i [0; 1; 2] 0 + nth (S i) [0; 1; 2] 0) 2)%Z) r Hr) as [_ Hv].
  rewrite (Hv 0), (Hv 1) by lia. cbn. lia.
Qed.
Print Assumptions C91_integer_edges_refuted.

Example C91_met : exists res : nat * positions Qc_ofield,
  histogram (Ok (7, Floats [Q2Qc 0 : Qc_ofield; Q2Qc 1; Q2Qc 3])) false (Ok res).
Proof.
  destruct (proj1 (C91_counts Qc_ofield nat (Ok (7, Floats [Q2Qc 0 : Qc_ofield; Q2Qc 1; Q2Qc 3])) false)) as [[r|e] Hr].
  - exists r. exact Hr.
  - destruct (proj2 (C91_counts Qc_ofield nat (Ok (7, Floats [Q2Qc 0 : Qc_ofield; Q2Qc 1; Q2Qc 3])) false) _ Hr).
Qed.

(** C92.  What becomes of one value: an array is squeezed, all else is left alone. *)
Definition treated {V K O} (v w : value V K O) : Prop :=
  match v with Array a => exists b, w = Array b /\ squeezed a b | _ => w = v end.
Lemma treated_ok {V K O} (v : value V K O) : treated v (squeeze_if_array v).
Proof. destruct v; cbn; try reflexivity. eexists. split; [reflexivity|]. apply np_squeeze_spec. Qed.

(** Unless squeezing is off, an array is squeezed, a dictionary keeps its keys and their
    order while its arrays are squeezed, and the members of a tuple are treated one by one;
    lists and other objects come back unchanged.  The members of a tuple come in a list. *)
Theorem C92_on_partial : forall (V K O A : Type) (default : bool) (fnc : A -> result (value V K O)) (args : A) (squeeze : option bool),
  (squeeze = Some true \/ squeeze = None /\ default = true) ->
  match fnc args with
  | Err e => inner default fnc args squeeze = Err e
  | Ok (Tuple l) => exists l', inner default fnc args squeeze = Ok (PyList l') /\ Forall2 treated l l'
  | Ok (Dict l) => exists l', inner default fnc args squeeze = Ok (Dict l') /\
                     Forall2 (fun kv kw => fst kw = fst kv /\ treated (snd kv) (snd kw)) l l'
  | Ok v => exists w, inner default fnc args squeeze = Ok w /\ treated v w
  end.
Proof.
  intros V K O A default fnc args squeeze H.
  assert (E : match squeeze with Some b => b | None => default end = true) by (destruct H as [->|[-> ->]]; reflexivity).
  unfold inner. rewrite E. destruct (fnc args) as [v|e]; [|reflexivity]. cbn.
  destruct v as [a|l|l|l|o]; cbn [squeeze_if_array]; try (eexists; split; [reflexivity|exact (treated_ok _)]).
  - eexists. split; [reflexivity|]. induction l; cbn; constructor; [apply treated_ok|assumption].
  - eexists. split; [reflexivity|]. induction l; cbn; constructor; [split; [reflexivity|apply treated_ok]|assumption].
Qed.
Print Assumptions C92_on_partial.

(** With squeezing off, the call is the call of the original function. *)
Theorem C92_off : forall (V K O A : Type) (default : bool) (fnc : A -> result (value V K O)) (args : A) (squeeze : option bool),
  (squeeze = Some false \/ squeeze = None /\ default = false) -> inner default fnc args squeeze = fnc args.
Proof. intros V K O A default fnc args squeeze [->|[-> ->]]; reflexivity. Qed.
Print Assumptions C92_off.

(** A tuple never comes back as a tuple. *)
Theorem C92_tuple_refuted : exists (l : list (value nat nat nat)),
  inner true (fun _ : unit => Ok (Tuple l)) tt None <> Ok (Tuple l) /\
  forall l', inner true (fun _ : unit => Ok (Tuple l)) tt None <> Ok (Tuple l').
Proof. exists [Other 0; Other 1]. cbn. split; [|intros l']; discriminate. Qed.
Print Assumptions C92_tuple_refuted.

(** [foo(np.array([[1, 2]]))] of the documentation. *)
Example C92_met : exists b : ndarray nat,
  inner (K := nat) (O := nat) true (fun a : ndarray nat => Ok (Array a)) (ND [1; 2] (fun c => nth 1 c 0 + 1)) None = Ok (Array b) /\
  shape b = [2] /\ at_ b [0] = 1 /\ at_ b [1] = 2.
Proof. eexists. repeat split. Qed.

(** C93.  [==] holds exactly between members with the same genotype, [!=] is its negation,
    and equal members have equal hashes. *)
Theorem C93_equality : forall (F : ofield) (str : Z -> String.string) (hash : String.string -> Z) (a b : member F),
  (genom_eq a (IsGenom b) = true <-> genotype a = genotype b) /\
  (genom_ne a (IsGenom b) = true <-> genotype a <> genotype b) /\
  genom_eq a NotGenom = false /\ genom_ne a NotGenom = true /\
  (genom_eq a (IsGenom b) = true -> genom_hash str hash a = genom_hash str hash b).
Proof.
  intros F str hash a b. unfold genom_ne. cbn. pose proof (list_eq_spec (genotype a) (genotype b)) as H.
  split; [exact H|]. split; [rewrite negb_true_iff, <- not_true_iff_false, H; reflexivity|]. split; [reflexivity|]. split; [reflexivity|].
  rewrite H. unfold genom_hash. intros ->. reflexivity.
Qed.
Print Assumptions C93_equality.

(** The order relations compare the fitness, and raise TypeError for other objects. *)
Theorem C93_order : forall (F : ofield) (a b : member F),
  (genom_lt a (IsGenom b) = Ok true <-> leb (fitness b) (fitness a) = false) /\
  (genom_gt a (IsGenom b) = Ok true <-> leb (fitness a) (fitness b) = false) /\
  (genom_le a (IsGenom b) = Ok true <-> leb (fitness a) (fitness b) = true) /\
  (genom_ge a (IsGenom b) = Ok true <-> leb (fitness b) (fitness a) = true) /\
  (genom_lt a (IsGenom b) = Ok true -> genom_ge a (IsGenom b) = Ok false) /\
  genom_lt a NotGenom = Err TypeError /\ genom_gt a NotGenom = Err TypeError /\
  genom_le a NotGenom = Err TypeError /\ genom_ge a NotGenom = Err TypeError.
Proof.
  intros F a b. cbn. unfold ltb. destruct (leb (fitness a) (fitness b)), (leb (fitness b) (fitness a)); cbn;
  repeat split; intros; congruence.
Qed.
Print Assumptions C93_order.

(** Members of the same fitness may differ. *)
Example C93_ties : exists a b : member Qc_ofield,
  genom_le a (IsGenom b) = Ok true /\ genom_le b (IsGenom a) = Ok true /\ genom_eq a (IsGenom b) = false.
Proof.
  exists (Member (F := Qc_ofield) [] [0%Z; 1%Z] (Q2Qc 2) 0%Z 0%Z), (Member (F := Qc_ofield) [] [1%Z; 0%Z] (Q2Qc 2) 0%Z 1%Z). repeat split; vm_compute; reflexivity.
Qed.

Example C93_met : exists a b : member Qc_ofield, genom_eq a (IsGenom b) = true /\ a <> b /\ genom_lt a (IsGenom b) = Ok true.
Proof.
  exists (Member (F := Qc_ofield) [] [0%Z; 1%Z] (Q2Qc 1) 0%Z 0%Z), (Member (F := Qc_ofield) [] [0%Z; 1%Z] (Q2Qc 2) 3%Z 1%Z).
  repeat split; try (vm_compute; reflexivity). intros E. apply (f_equal age) in E. discriminate E.
Qed.

(** C95.  Exactly the components with absolute value below the tolerance become zero, the
    others and the shape do not change; repeating the call changes nothing. *)
Theorem C95_chop : forall (F : ofield) (tol : F) (a : ndarray F),
  shape (chop tol a) = shape a /\
  (forall c, leb tol (absf (at_ a c)) = false -> at_ (chop tol a) c = zero) /\
  (forall c, leb tol (absf (at_ a c)) = true -> at_ (chop tol a) c = at_ a c) /\
  (forall c, leb (absf (sub (at_ (chop tol a) c) (at_ a c))) (absf tol) = true) /\
  (forall tol' c, leb tol' tol = true -> at_ (chop tol' (chop tol a)) c = at_ (chop tol a) c).
Proof.
  intros F tol a. assert (Z0 : forall x : F, sub x x = zero) by (intros x; apply sub_eq_0; reflexivity).
  split; [reflexivity|]. cbn. unfold ltb. split; [|split; [|split]].
  - intros c ->. reflexivity.
  - intros c ->. reflexivity.
  - intros c. destruct (leb tol (absf (at_ a c))) eqn:E; cbn.
    + rewrite Z0, abs_0. apply abs_nonneg.
    + replace (sub zero (at_ a c)) with (opp (at_ a c)).
      2:{ rewrite (Rsub_def (of_ring F)). rewrite (Radd_0_l (of_ring F)). reflexivity. }
      rewrite abs_opp. apply le_trans with tol; [apply lt_le, E|apply le_abs].
  - intros tol' c Ht. destruct (leb tol (absf (at_ a c))) eqn:E; cbn.
    + rewrite (le_trans F _ _ _ Ht E). reflexivity.
    + rewrite abs_0. destruct (leb tol' zero); reflexivity.
Qed.
Print Assumptions C95_chop.

Example C95_met :
  let a := ND (V := Qc_ofield) [2] (fun c => if nth 0 c 0 =? 0 then Q2Qc (1 # 100) else Q2Qc 5) in
  leb (Q2Qc (1 # 10) : Qc_ofield) (absf (at_ a [0])) = false /\ leb (Q2Qc (1 # 10) : Qc_ofield) (absf (at_ a [1])) = true.
Proof. split; vm_compute; reflexivity. Qed.

(** C96.  For a 3x3 matrix without the symbols used inside the function the result is the
    inverse wherever the determinant is not zero, and the adjugate and the determinant are
    those of the matrix everywhere. *)
Definition entry {F : ofield} (p : nat -> nat -> F) v (m : list (expr F)) (i j : nat) : F :=
  val p v (nth (3 * (i - 1) + (j - 1)) m (Num zero)).
Theorem C96_inverse_partial : forall (F : ofield) (m : list (expr F)) (p : nat -> nat -> F) (v : nat -> F),
  length m = 9 -> Forall free_of_P m ->
  let det := val p v (fst (adj_det_3x3 m)) in
  let adj := fun i j => val p v (snd (adj_det_3x3 m) i j) in
  let inv := fun i j => val p v (inv_sym_3x3 m i j) in
  product_is (entry p v m) adj det /\ product_is adj (entry p v m) det /\
  (det <> zero -> product_is (entry p v m) inv one /\ product_is inv (entry p v m) one).
Proof.
  intros F m p v Hl Hf.
  assert (Hs : Forall (fun x => free_of_P (snd x)) (subst_list m)).
  { apply Forall_forall. intros [k e] Hin. apply in_combine_r in Hin. rewrite Forall_forall in Hf. exact (Hf e Hin). }
  set (q := fold_right (fun x q => set q (fst (fst x)) (snd (fst x)) (val p v (snd x))) p (subst_list m)).
  assert (Hq : forall i j, 1 <= i <= 3 -> 1 <= j <= 3 -> q i j = entry p v m i j).
  { unfold q. clear Hs Hf q. do 9 (destruct m as [|? m]; [discriminate|]). destruct m; [|discriminate].
    nine_cases; reflexivity. }
  assert (Hv : forall e, val p v (subs (subst_list m) e) = val q v e) by (intros e; apply val_subs, Hs).
  cbv zeta. unfold adj_det_3x3, inv_sym_3x3. cbn [fst snd]. rewrite !Hv. split; [|split; [|intros Hd; split]].
  - eapply product_ext; [exact Hq| |apply adj_right]. intros i j _ _. symmetry. apply Hv.
  - eapply product_ext; [|exact Hq|apply adj_left]. intros i j _ _. symmetry. apply Hv.
  - eapply product_ext; [exact Hq| |apply inv_right, Hd]. intros i j _ _. symmetry. apply Hv.
  - eapply product_ext; [|exact Hq|apply inv_left, Hd]. intros i j _ _. symmetry. apply Hv.
Qed.
Print Assumptions C96_inverse_partial.

(** The transpose of the matrix of the symbols themselves: the symbols are replaced one
    after the other, and the result is the inverse of another matrix. *)
Theorem C96_symbols_refuted : exists (m : list (expr Qc_ofield)) (p : nat -> nat -> Qc_ofield) (v : nat -> Qc_ofield),
  length m = 9 /\ (exists B, product_is (entry p v m) B one) /\ val p v (fst (adj_det_3x3 m)) <> zero /\
  ~ product_is (entry p v m) (fun i j => val p v (inv_sym_3x3 m i j)) one.
Proof.
  exists [P 1 1; P 2 1; P 3 1; P 1 2; P 2 2; P 3 2; P 1 3; P 2 3; P 3 3].
  exists (fun i j => match i, j with 1, 2 => Q2Qc 2 : Qc_ofield | _, _ => if i =? j then one else zero end), (fun _ => zero).
  split; [reflexivity|]. split; [|split].
  - exists (fun i j => match i, j with 2, 1 => Q2Qc (-2) : Qc_ofield | _, _ => if i =? j then one else zero end).
    nine_cases; apply Qc_is_canon; vm_compute; reflexivity.
  - intros E. apply (f_equal this) in E. vm_compute in E. discriminate.
  - intros H. specialize (H 1 2 ltac:(lia) ltac:(lia)). apply (f_equal this) in H. vm_compute in H. discriminate.
Qed.
Print Assumptions C96_symbols_refuted.

(** A smaller matrix is not refused: the result still contains the internal symbols. *)
Theorem C96_shape_refuted : exists (m : list (expr Qc_ofield)) (p p' : nat -> nat -> Qc_ofield) (v : nat -> Qc_ofield),
  length m = 4 /\ Forall free_of_P m /\ val p v (fst (adj_det_3x3 m)) <> val p' v (fst (adj_det_3x3 m)).
Proof.
  exists [Num one; Num zero; Num zero; Num one].
  exists (fun i j => if i =? j then one else zero), (fun i j => if i =? j then Q2Qc 2 : Qc_ofield else zero), (fun _ => zero).
  split; [reflexivity|]. split; [repeat constructor|]. intros E. apply (f_equal this) in E. vm_compute in E. discriminate.
Qed.
Print Assumptions C96_shape_refuted.

Example C96_met : let m := [Var 0; Num one; Num zero; Num zero; Var 1; Num zero; Num zero; Num zero; Num one] in
  length m = 9 /\ Forall (free_of_P (F := Qc_ofield)) m /\
  val (fun _ _ => zero) (fun _ => Q2Qc 2 : Qc_ofield) (fst (adj_det_3x3 m)) <> zero.
Proof.
  split; [reflexivity|]. split; [repeat constructor|]. intros E. apply (f_equal this) in E. vm_compute in E. discriminate.
Qed.
