(** Properties C60 (isclose), C61 (nearest neighbours) and C62 (is_hermitian). *)
From Coq Require Import String QArith Qcanon Field.
From Verif Require Import Prelude OField LogicalModel LogicalSpec LogicalProofs LogicalCounter.
Local Open Scope list_scope.
Local Open Scope nat_scope.

(** ** C60 *)

(** With allowed tolerances the answer has the broadcast shape of the arguments, and
    an entry is true exactly if the tests that are switched on hold; arguments that
    do not broadcast are an error. *)
Theorem C60_documented :
  forall (F : ofield) (x1 x2 : arg F) atol rtol, valid atol rtol ->
  match bcast (shape (atleast1d x1)) (shape (atleast1d x2)) with
  | None => isclose x1 x2 atol rtol = Err ValueError
  | Some s => exists r : answer, isclose x1 x2 atol rtol = Ok r /\ shape (entries r) = s /\
      (s = [1] <-> exists b, r = One b) /\
      forall idx, inside s idx ->
        let v := bget (atleast1d x1) idx in
        let w := bget (atleast1d x2) idx in
        (get (entries r) idx = true <->
         (forall a, atol = Some a -> fle (fabs (fsub v w)) a = true) /\
         (forall t, rtol = Some t -> fle (fabs (fsub v w)) (fabs (fmul t w)) = true))
  end.
Proof.
  intros F x1 x2 atol rtol V. pose proof (isclose_valid x1 x2 atol rtol V) as H.
  destruct (bcast _ _) as [s|]; [|exact H]. destruct H as (r & E & S & O & G). exists r.
  split; [exact E|]. split; [exact S|]. split; [exact O|]. intros idx I v w. rewrite (G idx I).
  unfold passes. fold v w. rewrite andb_true_iff. split.
  - intros [H1 H2]. split; [intros a ->; exact H1|intros t ->; exact H2].
  - intros [H1 H2]. split; [destruct atol; [apply H1|]; reflexivity|destruct rtol; [apply H2|]; reflexivity].
Qed.
Print Assumptions C60_documented.

(** Two finite numbers. *)
Theorem C60_numbers :
  forall (F : ofield) (x y : F) atol rtol, valid (fins atol) (fins rtol) ->
  exists b, isclose (Number (Fin x)) (Number (Fin y)) (fins atol) (fins rtol) = Ok (One b) /\
  (b = true <-> close x y atol rtol).
Proof.
  intros F x y atol rtol V. pose proof (isclose_valid (Number (Fin x)) (Number (Fin y)) _ _ V) as H.
  cbn [atleast1d shape] in H. change (bcast [1] [1]) with (Some [1]) in H. cbv iota in H. destruct H as (r & E & S & O & G). destruct (proj1 O eq_refl) as [b ->].
  exists b. split; [exact E|]. rewrite <- passes_fin. cbn [entries get] in G.
  rewrite (G [0]) by (repeat constructor). reflexivity.
Qed.
Print Assumptions C60_numbers.

(** Tolerances that are missing, zero, negative or NaN are never accepted. *)
Theorem C60_rejected :
  forall (F : ofield) (x1 x2 : arg F) atol rtol, ~ valid atol rtol ->
  isclose x1 x2 atol rtol = Err AssertionError \/
  (isclose x1 x2 atol rtol = Err ValueError /\ bcast (shape (atleast1d x1)) (shape (atleast1d x2)) = None /\
   exists a, atol = Some a /\ fpos a = true).
Proof. exact @isclose_invalid. Qed.
Print Assumptions C60_rejected.

(** Reflexive, monotone in the tolerances, never accepting a difference above atol. *)
Theorem C60_reflexive :
  forall (F : ofield) (x : F) atol rtol, valid (fins atol) (fins rtol) ->
  isclose (Number (Fin x)) (Number (Fin x)) (fins atol) (fins rtol) = Ok (One true).
Proof.
  intros F x atol rtol V. destruct (C60_numbers F x x atol rtol V) as (b & E & H). rewrite E.
  rewrite (proj2 H); [reflexivity|]. apply close_refl. intros a ->. destruct V as (_ & V & _).
  specialize (V (Fin a) eq_refl). cbn in V. apply (lt_le F). unfold ltb in V. apply negb_true_iff. exact V.
Qed.
Print Assumptions C60_reflexive.
Theorem C60_monotone :
  forall (F : ofield) (x y : F) atol rtol atol' rtol',
  valid (fins atol) (fins rtol) -> valid (fins atol') (fins rtol') ->
  (forall a', atol' = Some a' -> exists a, atol = Some a /\ leb a a' = true) ->
  (forall t', rtol' = Some t' -> exists t, rtol = Some t /\ leb t t' = true) ->
  isclose (Number (Fin x)) (Number (Fin y)) (fins atol) (fins rtol) = Ok (One true) ->
  isclose (Number (Fin x)) (Number (Fin y)) (fins atol') (fins rtol') = Ok (One true).
Proof.
  intros F x y atol rtol atol' rtol' V V' HA HR E.
  destruct (C60_numbers F x y atol rtol V) as (b & E1 & H1). rewrite E in E1. injection E1 as <-.
  destruct (C60_numbers F x y atol' rtol' V') as (b' & E2 & H2). rewrite E2. rewrite (proj2 H2); [reflexivity|].
  apply (close_mono x y atol rtol atol' rtol' HA); [|apply H1; reflexivity].
  intros t' T. destruct (HR t' T) as (t & Et & L). exists t. split; [exact Et|]. split; [|exact L].
  destruct V as (_ & _ & V). subst rtol. specialize (V (Fin t) eq_refl). cbn in V. apply (lt_le F). unfold ltb in V.
  apply negb_true_iff. exact V.
Qed.
Print Assumptions C60_monotone.
Theorem C60_bounded :
  forall (F : ofield) (x y a : F) rtol, leb a zero = false -> valid (Some (Fin a)) rtol ->
  isclose (Number (Fin x)) (Number (Fin y)) (Some (Fin a)) rtol = Ok (One true) ->
  leb (absf (sub x y)) a = true.
Proof.
  intros F x y a rtol P V E. pose proof (isclose_valid (Number (Fin x)) (Number (Fin y)) _ _ V) as H.
  cbn [atleast1d shape] in H. change (bcast [1] [1]) with (Some [1]) in H. cbv iota in H. destruct H as (r & E' & S & O & G). rewrite E in E'. injection E' as <-.
  cbn [entries get] in G. specialize (G [0] ltac:(repeat constructor)). symmetry in G.
  unfold passes in G. apply andb_true_iff in G. destruct G as [G _]. cbn in G.
  replace (add x (opp y)) with (sub x y) in G by (apply (F_R (of_field F))). exact G.
Qed.
Print Assumptions C60_bounded.

(** The absolute test is symmetric, the relative test is not. *)
Theorem C60_absolute_symmetric :
  forall (F : ofield) (x y : F) atol, valid (fins atol) (fins None) ->
  isclose (Number (Fin x)) (Number (Fin y)) (fins atol) None
  = isclose (Number (Fin y)) (Number (Fin x)) (fins atol) None.
Proof.
  intros F x y atol V.
  destruct (C60_numbers F x y atol None V) as (b & E & H). destruct (C60_numbers F y x atol None V) as (b' & E' & H').
  cbn [fins option_map] in *. rewrite E, E'. f_equal. f_equal. apply Bool.eq_true_iff_eq. rewrite H, H'.
  split; apply close_sym_abs.
Qed.
Print Assumptions C60_absolute_symmetric.
Theorem C60_relative_not_symmetric :
  exists (x y : Qc_ofield) rtol,
  isclose (Number (Fin x)) (Number (Fin y)) None (Some (Fin rtol)) = Ok (One true) /\
  isclose (Number (Fin y)) (Number (Fin x)) None (Some (Fin rtol)) = Ok (One false).
Proof.
  exists (Q2Qc 1 : Qc_ofield), (Q2Qc 2 : Qc_ofield), (Q2Qc (1 # 2) : Qc_ofield). split; vm_compute; reflexivity.
Qed.
Print Assumptions C60_relative_not_symmetric.
(** An infinity or a NaN is not close to itself, and zero is not close to itself if
    the relative tolerance is infinite. *)
Theorem C60_reflexive_all_floats_refuted :
  exists (x y z : float Qc_ofield),
  isclose (Number x) (Number x) (Some PInf) None = Ok (One false) /\
  isclose (Number y) (Number y) (Some PInf) None = Ok (One false) /\
  isclose (Number z) (Number z) None (Some PInf) = Ok (One false) /\
  x = PInf /\ y = NaN /\ z = Fin zero.
Proof. exists PInf, NaN, (Fin zero). repeat split; vm_compute; reflexivity. Qed.
Print Assumptions C60_reflexive_all_floats_refuted.

(** allclose: all entries of isclose. *)
Theorem C60_allclose :
  forall (F : ofield) (x1 x2 : arg F) atol rtol r, isclose x1 x2 atol rtol = Ok r ->
  exists b, allclose x1 x2 atol rtol = Ok b /\
  (b = true <-> forall idx, inside (shape (entries r)) idx -> get (entries r) idx = true).
Proof. exact @allclose_iff. Qed.
Print Assumptions C60_allclose.

Definition Qn (x : Q) : float Qc_ofield := Fin (Q2Qc x : Qc_ofield).
Definition vec (l : list (float Qc_ofield)) : arg Qc_ofield :=
  Nd (Array [List.length l] (fun idx => nth (hd 0 idx) l NaN)).
(** Broadcasting a row against a column; the default tolerances. *)
Example C60_valid : valid (Some (Qn (1 # 100000000))) (Some (Qn (1 # 100000))).
Proof. split; [left; discriminate|]. split; intros ? E; injection E as <-; vm_compute; reflexivity. Qed.
Example C60_example :
  match isclose (Nd (Array [2; 1] (fun idx => if hd 0 idx =? 0 then Qn 1 else Qn 2)))
                (vec [Qn 1; Qn (200001 # 100000); Qn 2]) (Some (Qn 1)) (Some (Qn (1 # 100000))) with
  | Ok (Many c) => (shape c, map (get c) (indices (shape c)))
  | _ => ([], [])
  end = ([2; 3], [true; false; false; false; true; true]).
Proof. vm_compute. reflexivity. Qed.
Example C60_shapes : isclose (vec [Qn 1; Qn 2]) (vec [Qn 1; Qn 2; Qn 3]) (Some (Qn 1)) None = Err ValueError.
Proof. vm_compute. reflexivity. Qed.

(** ** C61 *)

(** SciPy before 1.6: the maximal distance is honoured and the options are used. *)
Theorem C61_old_scipy_partial :
  forall (F : ofield) (Point : Type) (dist : Point -> Point -> F) (L : libs F Point),
  scipy_ok dist L -> released_before_1_6 (scipy_version L) ->
  (forall X Y k w tk qk ls r res,
     fst (k_nearest_neighbours L X (Some Y) Scipy k w tk qk ls (Some (Fin r))) = Ok res -> within dist X Y r res) /\
  (forall X Y k w tk qk ls md tree, sp_build L X ls (opts tk) = Ok tree ->
     exists kw, fst (k_nearest_neighbours L X Y Scipy k w tk qk ls md) = sp_query L tree Y k None kw /\
     lookup "distance_upper_bound" kw = Some (VFloat (match md with None => PInf | Some r => r end)) /\
     forall o, o <> "distance_upper_bound"%string -> lookup o kw = lookup o (opts qk)).
Proof.
  intros F Point dist L S V. apply before_1_6_spec in V. split.
  - intros X Y k w tk qk ls r res. exact (old_scipy_within dist L X Y k w tk qk ls r res S V).
  - intros X Y k w tk qk ls md tree. exact (old_scipy L X Y k w tk qk ls md tree V).
Qed.
Print Assumptions C61_old_scipy_partial.

(** scikit-learn: the options and the radius reach the library, and the dictionary
    of the caller is left alone. *)
Theorem C61_sklearn_partial :
  forall (F : ofield) (Point : Type) (L : libs F Point) X Y k w tk qk ls md tree,
  has_sklearn L = true -> sk_build L X ls (opts tk) = Ok tree ->
  k_nearest_neighbours L X Y Sklearn k w tk qk ls md =
  (match md with None => sk_query L tree Y k (opts qk) | Some r => sk_query_radius L tree Y r k (opts qk) end, qk).
Proof.
  intros F Point L X Y k w tk qk ls md tree H B. unfold k_nearest_neighbours. fold (opts tk) (opts qk).
  rewrite H, B. cbn [negb]. destruct md; reflexivity.
Qed.
Print Assumptions C61_sklearn_partial.

(** SciPy from 1.6 on: the maximal distance and all options are ignored, ... *)
Theorem C61_new_scipy_refuted :
  forall (F : ofield) (Point : Type) (L : libs F Point), ~ released_before_1_6 (scipy_version L) ->
  forall X Y k w tk qk ls md qk' md',
  fst (k_nearest_neighbours L X Y Scipy k w tk qk ls md) = fst (k_nearest_neighbours L X Y Scipy k w tk qk' ls md').
Proof.
  intros F Point L V X Y k w tk qk ls md qk' md'. apply from_1_6_spec in V. unfold k_nearest_neighbours.
  destruct (sp_build L X ls _); [|reflexivity]. rewrite V. reflexivity.
Qed.
Print Assumptions C61_new_scipy_refuted.
(** ... so that a neighbour at distance 5 is returned for a maximal distance of 1. *)
Theorem C61_max_distance_refuted :
  exists (L : libs Qc_ofield Qc) (X Y : list Qc) (r : Qc_ofield) res,
  scipy_ok (fun x y => absf (sub (x : Qc_ofield) y)) L /\
  fst (k_nearest_neighbours L X (Some Y) Scipy 1 (-1) None None 30 (Some (Fin r))) = Ok res /\
  ~ within (fun x y => absf (sub (x : Qc_ofield) y)) X Y r res.
Proof.
  exists (brute (fun x y => absf (sub (x : Qc_ofield) y)) (1, 11, 0)), [Q2Qc 0], [Q2Qc 5], (Q2Qc 1).
  eexists. split; [apply brute_ok|]. split; [reflexivity|]. intros H. inversion H as [|y row Y res H1 H2]; subst.
  specialize (H1 (Fin (F := Qc_ofield) (absf (sub (Q2Qc 0 : Qc_ofield) (Q2Qc 5)))) 0 (Q2Qc 0)).
  assert (K : leb (absf (sub (Q2Qc 0 : Qc_ofield) (Q2Qc 5))) (Q2Qc 1 : Qc_ofield) = true).
  { apply H1; [|reflexivity]. left. vm_compute. reflexivity. }
  vm_compute in K. discriminate.
Qed.
Print Assumptions C61_max_distance_refuted.
(** With every version of SciPy the dictionary of the caller is modified. *)
Theorem C61_caller_dict_refuted :
  forall (F : ofield) (Point : Type) (L : libs F Point) X Y k w tk ls md tree,
  sp_build L X ls (opts tk) = Ok tree ->
  exists after, snd (k_nearest_neighbours L X Y Scipy k w tk (Some []) ls md) = Some after /\ after <> [].
Proof.
  intros F Point L X Y k w tk ls md tree B. unfold k_nearest_neighbours. fold (opts tk). rewrite B.
  exists [("distance_upper_bound"%string, VFloat (match md with None => PInf | Some r => r end))].
  destruct (before_1_6 (scipy_version L)); split; reflexivity || discriminate.
Qed.
Print Assumptions C61_caller_dict_refuted.
(** Without query points the documentation promises those of the tree; the backend
    gets None, for which the promise of SciPy says nothing. *)
Theorem C61_default_points_refuted :
  exists (L : libs Qc_ofield Qc) (X : list Qc),
  scipy_ok (fun x y => absf (sub (x : Qc_ofield) y)) L /\
  is_ok (fst (k_nearest_neighbours L X (Some X) Scipy 1 (-1) None None 30 None)) = true /\
  is_ok (fst (k_nearest_neighbours L X None Scipy 1 (-1) None None 30 None)) = false.
Proof.
  exists (brute (fun x y => absf (sub (x : Qc_ofield) y)) (1, 11, 0)), [Q2Qc 0].
  split; [apply brute_ok|]. split; reflexivity.
Qed.
Print Assumptions C61_default_points_refuted.

(** The hypotheses are met: a library that keeps the promise, for an old version. *)
Example C61_library : scipy_ok (fun x y => absf (sub (x : Qc_ofield) y)) (brute (fun x y => absf (sub (x : Qc_ofield) y)) (1, 5, 4))
  /\ released_before_1_6 (1, 5, 4) /\ ~ released_before_1_6 (1, 6, 0).
Proof. split; [apply brute_ok|cbn; lia]. Qed.
Example C61_example :
  match fst (k_nearest_neighbours (brute (fun x y => absf (sub (x : Qc_ofield) y)) (1, 5, 4))
    (map Q2Qc [0; 7; 3; 4]%Q) (Some [Q2Qc 5]) Scipy 3 (-1) None None 30 (Some (Qn 3))) with
  | Ok [row] => map snd row
  | _ => []
  end = [3; 1; 2].
Proof. vm_compute. reflexivity. Qed.

(** ** C62 *)
(** Hermitian matrices are recognised, *)
Theorem C62_hermitian_accepted_partial :
  forall (A : Type) (conj : A -> A) (arr : array A), hermitian conj arr -> is_hermitian arr = Ok true.
Proof. intros A conj arr (n & S & _). unfold is_hermitian. rewrite S. cbn [forallb]. rewrite Nat.eqb_refl. reflexivity. Qed.
Print Assumptions C62_hermitian_accepted_partial.
(** and the answer depends on the shape alone: it is true exactly if all sides are equal;
    an array without axes is rejected. *)
Theorem C62_shape_only_partial :
  forall (A : Type) (arr : array A),
  (forall s0 s, shape arr = s0 :: s ->
   exists b, is_hermitian arr = Ok b /\ (b = true <-> forall d, In d s -> d = s0)) /\
  (shape arr = [] -> is_hermitian arr = Err IndexError).
Proof.
  intros A arr. split; [intros s0 s E|intros E; unfold is_hermitian; rewrite E; reflexivity].
  unfold is_hermitian. rewrite E. eexists. split; [reflexivity|].
  rewrite forallb_forall. split; intros H d I; specialize (H d I); [apply Nat.eqb_eq|apply Nat.eqb_eq]; exact H.
Qed.
Print Assumptions C62_shape_only_partial.
(** A matrix that is not symmetric is accepted, and so are vectors and cubes. *)
Theorem C62_refuted :
  exists arr vec cube : array Z,
  is_hermitian arr = Ok true /\ ~ hermitian (fun z => z) arr /\ shape arr = [2; 2] /\
  is_hermitian vec = Ok true /\ shape vec = [3] /\
  is_hermitian cube = Ok true /\ shape cube = [2; 2; 2].
Proof.
  exists (Array [2; 2] (fun idx => match idx with [i; j] => Z.of_nat (i + 2 * j) | _ => 0%Z end)),
    (Array [3] (fun _ => 0%Z)), (Array [2; 2; 2] (fun _ => 0%Z)).
  repeat split. intros (n & S & H). cbn in S. injection S as <-. specialize (H 0 1 ltac:(lia) ltac:(lia)). discriminate.
Qed.
Print Assumptions C62_refuted.
Example C62_example : hermitian (fun z => z) (Array [2; 2] (fun idx => match idx with [i; j] => Z.of_nat (i * j) | _ => 0%Z end)).
Proof. exists 2. split; [reflexivity|]. intros i j _ _. cbn [get]. f_equal. lia. Qed.
