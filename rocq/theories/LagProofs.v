(** Proofs about the Lagrange functions. *)
From Coq Require Import Field.
From Verif Require Import Prelude OField Inverse LagModel LagSpec.
Local Open Scope nat_scope.

Section Lagrange.
Context {F : ofield}.
Local Open Scope of_scope.
Add Field FF : (of_field F).
Notation Z0 := (@zero F).

(** ** Values of polynomials *)
Lemma value_sum (p : poly F) x : value p x = sum (length p) (fun m => nth m p 0 * pow x m).
Proof.
  induction p as [|c p IH]; cbn [value length]; [reflexivity|]. rewrite (sum_S_l F). cbn [nth pow].
  rewrite IH, <- sum_scale. f_equal; [ring|]. apply sum_ext. intros m _. ring.
Qed.
Lemma nth_map_seq {A} (f : nat -> A) N m d : (m < N)%nat -> nth m (map f (seq 0 N)) d = f m.
Proof.
  intros H. rewrite (nth_indep _ d (f O)) by (rewrite map_length, seq_length; exact H).
  rewrite map_nth, seq_nth by exact H. reflexivity.
Qed.
Lemma value_map_seq (f : nat -> F) N x : value (map f (seq 0 N)) x = sum N (fun m => f m * pow x m).
Proof.
  rewrite value_sum, map_length, seq_length. apply sum_ext. intros m H. rewrite nth_map_seq by exact H. reflexivity.
Qed.
(** A polynomial, padded with zeros *)
Lemma value_sum_pad (p : poly F) N x : (length p <= N)%nat -> value p x = sum N (fun m => nth m p 0 * pow x m).
Proof.
  intros H. rewrite value_sum. replace N with (length p + (N - length p))%nat by lia. rewrite (sum_split F).
  rewrite (sum_0 F (N - length p)); [ring|]. intros j _. rewrite nth_overflow by lia. ring.
Qed.
Lemma value_padd (p q : poly F) x : value (padd p q) x = value p x + value q x.
Proof.
  revert q. induction p as [|a p IH]; intros [|b q]; cbn [padd value]; try ring. rewrite IH. ring.
Qed.
Lemma value_pscale a (p : poly F) x : value (pscale a p) x = a * value p x.
Proof. unfold pscale. induction p as [|c p IH]; cbn [map value]; [ring|]. rewrite IH. ring. Qed.
Lemma length_padd (p q : poly F) : length (padd p q) = max (length p) (length q).
Proof. revert q. induction p as [|a p IH]; intros [|b q]; cbn [padd length Nat.max]; try reflexivity. rewrite IH. reflexivity. Qed.

(** ** A polynomial of degree less than N with N distinct roots is zero *)
Fixpoint quot (p : poly F) (r : F) : poly F :=   (* synthetic division of c :: p by (x - r), without the remainder *)
  match p with [] => [] | c :: p' => (c + r * value p' r) :: quot p' r end.
Lemma quot_spec c p r x : value (c :: p) x = value (c :: p) r + (x - r) * value (quot p r) x.
Proof.
  revert c. induction p as [|d p IH]; intros c; cbn [value quot]; [ring|].
  specialize (IH d). cbn [value] in IH |- *. rewrite IH. ring.
Qed.
Lemma quot_length p r : length (quot p r) = length p.
Proof. induction p; cbn; congruence. Qed.
Lemma quot_zero p r : Forall (fun c => c = 0) (quot p r) -> Forall (fun c => c = 0) p.
Proof.
  assert (V : forall q : poly F, Forall (fun c => c = 0) q -> value q r = 0).
  { induction 1 as [|c q E _ IH]; cbn [value]; [reflexivity|]. rewrite E, IH. ring. }
  induction p as [|c p IH]; intros H; constructor; inversion H as [|? ? H1 H2]; subst.
  - rewrite (V p (IH H2)) in H1. rewrite <- H1. ring.
  - exact (IH H2).
Qed.
Lemma roots (p : poly F) (xs : list F) : NoDup xs -> (length p <= length xs)%nat ->
  (forall x, In x xs -> value p x = 0) -> Forall (fun c => c = 0) p.
Proof.
  revert p. induction xs as [|r xs IH]; intros p ND L R.
  - destruct p; [constructor|cbn in L; lia].
  - destruct p as [|c p]; [constructor|].
    assert (Q : Forall (fun c => c = 0) (quot p r)).
    { apply IH; [inversion ND; assumption|rewrite quot_length; cbn in L; lia|].
      intros x I. assert (N : x - r <> 0).
      { intros E. inversion ND as [|? ? NI _]. apply NI. apply (proj1 (sub_eq_0 F x r)) in E. subst. exact I. }
      apply (mul_cancel_l F (x - r)); [exact N|].
      pose proof (quot_spec c p r x) as E. rewrite (R x), (R r) in E by (cbn; auto).
      transitivity (0 + (x - r) * value (quot p r) x); [ring|]. rewrite <- E. ring. }
    apply quot_zero in Q. constructor; [|exact Q].
    specialize (R r (or_introl eq_refl)). cbn [value] in R.
    assert (V : forall q : poly F, Forall (fun c => c = 0) q -> value q r = 0).
    { induction 1 as [|c' q E _ IH']; cbn [value]; [reflexivity|]. rewrite E, IH'. ring. }
    rewrite (V p Q) in R. rewrite <- R. ring.
Qed.

(** ** The matrix of the powers of the nodes *)
Lemma vandermonde_mv (xs : list F) (v : vec F) i : mv (length xs) (vandermonde xs) v i = value (map v (seq 0 (length xs))) (nth i xs 0).
Proof. rewrite value_map_seq. unfold mv, vandermonde. apply sum_ext. intros. ring. Qed.
Lemma vandermonde_regular (xs : list F) : NoDup xs -> regular (length xs) (vandermonde xs).
Proof.
  intros ND v Z i Hi.
  assert (H : Forall (fun c => c = 0) (map v (seq 0 (length xs)))).
  { apply (roots _ xs ND); [rewrite map_length, seq_length; lia|]. intros x I.
    apply (In_nth _ _ 0) in I. destruct I as (j & Hj & <-). rewrite <- vandermonde_mv. apply Z. exact Hj. }
  rewrite Forall_forall in H. apply H. apply in_map_iff. exists i. split; [reflexivity|apply in_seq; lia].
Qed.
Lemma vandermonde_singular (xs : list F) : ~ NoDup xs -> ~ regular (length xs) (vandermonde xs).
Proof.
  intros ND R. apply ND. apply (NoDup_nth xs 0). intros i j Hi Hj E.
  destruct (Nat.eq_dec i j) as [|NE]; [assumption|]. exfalso.
  destruct (regular_dec (length xs) (vandermonde xs)) as [[X HX]|N]; [|exact (N R)].
  pose proof (proj1 HX i j Hi Hj) as E1. pose proof (proj1 HX j j Hj Hj) as E2.
  assert (EE : mm (length xs) (vandermonde xs) X i j = mm (length xs) (vandermonde xs) X j j).
  { apply sum_ext. intros l _. unfold vandermonde. rewrite E. reflexivity. }
  rewrite E1, E2 in EE. unfold eye in EE. rewrite Nat.eqb_refl in EE.
  rewrite (proj2 (Nat.eqb_neq i j) NE) in EE. apply (one_nz F). symmetry. exact EE.
Qed.

Lemma basis_spec (xs : list F) (X : mat F) : inverse_of (length xs) (vandermonde xs) X -> (xs <> []) ->
  lagrange_basis xs (fun i => map (fun m => X m i) (seq 0 (length xs))).
Proof.
  intros HX NE. set (N := length xs).
  assert (RP : forall p : poly F, (length p <= N)%nat ->
    forall x, sum N (fun i => value p (nth i xs 0) * value (map (fun m => X m i) (seq 0 N)) x) = value p x).
  { intros p L x.
    rewrite (sum_ext F N _ (fun i => sum N (fun m => X m i * mv N (vandermonde xs) (fun l => nth l p 0) i * pow x m))).
    - rewrite sum_swap. rewrite (value_sum_pad p N x L). apply sum_ext. intros m Hm. rewrite sum_scale_r. f_equal.
      exact (inverse_unsolve N _ X HX (fun l => nth l p 0) m Hm).
    - intros i _. rewrite value_map_seq, <- sum_scale. apply sum_ext. intros m _.
      rewrite (value_sum_pad p N _ L). unfold mv, vandermonde.
      rewrite (sum_ext F N (fun l => nth l p 0 * pow (nth i xs 0) l) (fun j => pow (nth i xs 0) j * nth j p 0)) by (intros; ring). ring. }
  constructor.
  - intros i Hi. rewrite map_length, seq_length. lia.
  - intros i j Hi Hj. rewrite value_map_seq. pose proof (proj1 HX j i Hj Hi) as E. unfold mm, vandermonde, eye in E.
    rewrite Nat.eqb_sym. rewrite <- E. apply sum_ext. intros. ring.
  - intros x. rewrite (sum_ext F _ _ (fun i => value [1] (nth i xs 0) * value (map (fun m => X m i) (seq 0 N)) x)).
    + fold N. rewrite (RP [1]); [cbn; ring|]. destruct xs; [contradiction|cbn; lia].
    + intros i _. cbn [value]. ring.
  - exact RP.
Qed.

(** ** The dictionary *)
Lemma skipn_nth {A} (l : list A) k a : nth_error l k = Some a -> skipn k l = a :: skipn (S k) l.
Proof.
  revert k. induction l as [|b l IH]; intros [|k] H; cbn in H; try discriminate; [injection H as ->; reflexivity|].
  cbn [skipn]. rewrite (IH k H). reflexivity.
Qed.
Lemma mapM_item {A} (l : list A) n : (n <= length l)%nat -> mapM (item l) (seq 0 n) = Ok (firstn n l).
Proof.
  enough (H : forall k, (k + n <= length l)%nat -> mapM (item l) (seq k n) = Ok (firstn n (skipn k l))) by (intros H'; apply (H O H')).
  induction n as [|n IH]; intros k H; cbn [seq mapM]; [reflexivity|].
  unfold item at 1. destruct (nth_error l k) as [a|] eqn:E; [|apply nth_error_None in E; lia]. cbn [bind].
  rewrite IH by lia. cbn [bind]. rewrite (skipn_nth l k a E). reflexivity.
Qed.
Lemma item_map_seq {A} (f : nat -> A) N i : (i < N)%nat -> item (map f (seq 0 N)) i = Ok (f i).
Proof.
  intros H. unfold item. rewrite nth_error_map, (nth_error_nth' _ O) by (rewrite seq_length; exact H).
  rewrite seq_nth by exact H. reflexivity.
Qed.
Lemma dget_dset k k' (v : entry F) d : dget k (dset k' v d) = if (k =? k')%Z then Some v else dget k d.
Proof.
  induction d as [|[k1 v1] d IH]; cbn [dset dget]; [reflexivity|].
  destruct (Z.eqb_spec k' k1) as [->|N1]; cbn [dget]; [destruct (k =? k1)%Z; reflexivity|].
  destruct (Z.eqb_spec k k1) as [->|N2]; [|exact IH].
  destruct (Z.eqb_spec k1 k') as [E|_]; [congruence|reflexivity].
Qed.
Lemma dict_keys k (v : entry F) d : ~ In k (map fst d) -> map fst (dset k v d) = map fst d ++ [k].
Proof.
  induction d as [|[k1 v1] d IH]; intros N; cbn [dset map fst app]; [reflexivity|].
  destruct (Z.eqb_spec k k1) as [->|N1]; [exfalso; apply N; left; reflexivity|].
  cbn [map fst]. rewrite IH; [reflexivity|]. intros I. apply N. right. exact I.
Qed.

Definition entry_of (p : poly F) : entry F := Entry p (diff p) (diff (diff p)) (diff (diff (diff p))).

Lemma gen_loop (f : nat -> poly F) (inds : list Z) : NoDup inds ->
  exists d, foldM (fun d '(i, ind) =>
           do a0 <- item (map f (seq 0 (length inds))) i ; do a1 <- item (map diff (map f (seq 0 (length inds)))) i ;
           do a2 <- item (map diff (map diff (map f (seq 0 (length inds))))) i ;
           do a3 <- item (map diff (map diff (map diff (map f (seq 0 (length inds)))))) i ;
           Ok (dset ind (Entry a0 a1 a2 a3) d))
        (combine (seq 0 (length inds)) inds) [] = Ok d /\ map fst d = inds /\
     forall i, (i < length inds)%nat -> dget (nth i inds 0%Z) d = Some (entry_of (f i)).
Proof.
  intros ND. rewrite !map_map. set (N := length inds).
  assert (G : forall l2 l1 d, inds = l1 ++ l2 -> map fst d = l1 ->
    (forall i, (i < length l1)%nat -> dget (nth i inds 0%Z) d = Some (entry_of (f i))) ->
    exists d', foldM (fun d '(i, ind) =>
           do a0 <- item (map f (seq 0 N)) i ; do a1 <- item (map (fun x => diff (f x)) (seq 0 N)) i ;
           do a2 <- item (map (fun x => diff (diff (f x))) (seq 0 N)) i ;
           do a3 <- item (map (fun x => diff (diff (diff (f x)))) (seq 0 N)) i ;
           Ok (dset ind (Entry a0 a1 a2 a3) d))
        (combine (seq (length l1) (length l2)) l2) d = Ok d' /\ map fst d' = inds /\
     forall i, (i < N)%nat -> dget (nth i inds 0%Z) d' = Some (entry_of (f i))).
  { induction l2 as [|k l2 IH]; intros l1 d E K G; cbn [length seq combine foldM].
    - exists d. rewrite app_nil_r in E. split; [reflexivity|]. split; [rewrite K; symmetry; exact E|intros i H; apply G; rewrite <- E; exact H].
    - assert (HN : (length l1 < N)%nat) by (unfold N; rewrite E, app_length; cbn; lia).
      rewrite !item_map_seq by exact HN. cbn [bind].
      specialize (IH (l1 ++ [k]) (dset k (entry_of (f (length l1))) d)).
      rewrite app_length in IH. cbn [length] in IH. rewrite Nat.add_1_r in IH.
      assert (NI : ~ In k l1).
      { rewrite E in ND. apply NoDup_remove_2 in ND. intros I. apply ND. apply in_or_app. left. exact I. }
      apply IH; [rewrite <- app_assoc; exact E|rewrite dict_keys, K by (rewrite K; exact NI); reflexivity|].
      intros i Hi. rewrite dget_dset. destruct (Nat.eq_dec i (length l1)) as [->|Ne].
      + rewrite E, app_nth2, Nat.sub_diag by lia. cbn [nth]. rewrite Z.eqb_refl. reflexivity.
      + destruct (Z.eqb_spec (nth i inds 0%Z) k) as [E'|_]; [|apply G; lia].
        exfalso. apply NI. rewrite <- E', E, app_nth1 by lia. apply nth_In. lia. }
  destruct (G inds [] [] eq_refl eq_refl) as (d & H1 & H2 & H3); [cbn; intros; lia|].
  exists d. split; [exact H1|]. split; [exact H2|exact H3].
Qed.

Lemma shape_fn_nodup N inds (X : mat F) i : length inds = N -> NoDup inds -> (i < N)%nat ->
  shape_fn N inds X i = map (fun m => X m i) (seq 0 N).
Proof.
  intros L ND Hi. unfold shape_fn. apply map_ext. intros m.
  rewrite (sum_ext F N _ (fun l => if (l =? i)%nat then X m l else 0)).
  - apply (sum_delta F). exact Hi.
  - intros l Hl. destruct (Nat.eqb_spec l i) as [->|N1]; [rewrite Z.eqb_refl; reflexivity|].
    destruct (Z.eqb_spec (nth l inds 0%Z) (nth i inds 0%Z)) as [E|_]; [|reflexivity].
    exfalso. apply N1. apply (proj1 (NoDup_nth inds 0%Z) ND); [lia|lia|exact E].
Qed.
Lemma symbols_2 n : (2 <= n)%nat -> symbols n = Ok true.
Proof. destruct n as [|[|n]]; [lia|lia|reflexivity]. Qed.

(** The indices used: given, or 1, ..., N. *)
Definition indices_of (N : nat) (i : option (list Z)) : list Z := match i with None => map Z.of_nat (seq 1 N) | Some i => i end.

Lemma foldM_ext {A B} (f g : B -> A -> result B) l : forall b, (forall a, In a l -> forall b, f b a = g b a) -> foldM f l b = foldM g l b.
Proof.
  induction l as [|a l IH]; intros b H; cbn [foldM]; [reflexivity|].
  rewrite (H a (or_introl eq_refl)). destruct (g b a); cbn [bind]; [|reflexivity].
  apply IH. intros a' I. apply H. right. exact I.
Qed.

Theorem gen_ok inv (xs : list F) (i : option (list Z)) (n : option nat) : inv_ok ValueError inv ->
  (2 <= length xs)%nat -> (n = None \/ n = Some (length xs)) ->
  NoDup xs -> NoDup (indices_of (length xs) i) -> length (indices_of (length xs) i) = length xs ->
  exists d phi, gen_Lagrange_1d inv (Some xs) i n = Ok d /\ lagrange_basis xs phi /\
    map fst d = indices_of (length xs) i /\
    (forall l, (l < length xs)%nat -> dget (nth l (indices_of (length xs) i) 0%Z) d = Some (entry_of (phi l))).
Proof.
  intros HI L Hn NDx NDi Li. unfold gen_Lagrange_1d.
  replace (match n with Some N => Ok N | None => Ok (length xs) end) with (@Ok nat (length xs)) by (destruct Hn as [->| ->]; reflexivity).
  cbn [bind]. rewrite symbols_2 by exact L. cbn [bind]. fold (indices_of (length xs) i).
  rewrite mapM_item by lia. cbn [bind iterable]. rewrite mapM_item by lia. cbn [bind]. rewrite firstn_all.
  destruct (proj1 (HI (length xs) (vandermonde xs)) (vandermonde_regular xs NDx)) as (X & EX & HX).
  rewrite EX. cbn [bind].
  destruct (gen_loop (fun i0 => map (fun m => X m i0) (seq 0 (length xs))) (indices_of (length xs) i) NDi) as (d & E & K & G).
  exists d, (fun i0 => map (fun m => X m i0) (seq 0 (length xs))).
  split; [|split; [apply basis_spec; [exact HX|intros ->; cbn in L; lia]|split; [exact K|rewrite Li in G; exact G]]].
  rewrite Li in E. rewrite <- E. rewrite Li. f_equal.
  - apply (f_equal (fun l => fun d0 '(i0, ind) => do a0 <- item l i0; do a1 <- item (map diff l) i0; do a2 <- item (map diff (map diff l)) i0; do a3 <- item (map diff (map diff (map diff l))) i0; Ok (dset ind (Entry a0 a1 a2 a3) d0))).
    apply map_ext_in. intros l I. apply in_seq in I. apply shape_fn_nodup; [exact Li|exact NDi|lia].
Qed.

(** Without nodes: N equidistant nodes between -1 and 1 (the model passes them on). *)
Lemma gen_default inv (i : option (list Z)) N : gen_Lagrange_1d inv (@None (list F)) i (Some N) = gen_Lagrange_1d inv (Some (linspace N)) i (Some N).
Proof. reflexivity. Qed.
Lemma gen_default_i inv (i : list Z) : gen_Lagrange_1d inv (@None (list F)) (Some i) None = gen_Lagrange_1d inv (Some (linspace (length i))) (Some i) (Some (length i)).
Proof. reflexivity. Qed.
Lemma linspace_nodup N : (2 <= N)%nat -> NoDup (@linspace F N) /\ length (@linspace F N) = N.
Proof.
  intros H. split; [|unfold linspace; rewrite map_length, seq_length; reflexivity].
  unfold linspace. apply FinFun.Injective_map_NoDup; [|apply seq_NoDup]. intros a b E. cbv beta in E.
  apply (of_nat_inj F).
  assert (NZ : @of_nat F (N - 1) <> 0) by (apply (pos_neq F), (of_nat_pos F); lia).
  assert (T : (1 + 1 : F) <> 0) by (apply (two_nz F)).
  transitivity ((- (1) + of_nat a * (1 + 1) / of_nat (N - 1) + 1) * of_nat (N - 1) / (1 + 1) : F); [field; split; assumption|].
  rewrite E. field. split; assumption.
Qed.

(** Repeated nodes are refused. *)
Theorem gen_repeated inv (xs : list F) (i : option (list Z)) : inv_ok ValueError inv ->
  (2 <= length xs)%nat -> (length xs <= length (indices_of (length xs) i))%nat -> ~ NoDup xs ->
  gen_Lagrange_1d inv (Some xs) i None = Err ValueError.
Proof.
  intros HI L Li ND. unfold gen_Lagrange_1d. cbn [bind]. rewrite symbols_2 by exact L. cbn [bind]. fold (indices_of (length xs) i).
  rewrite mapM_item by lia. cbn [bind iterable]. rewrite mapM_item by lia. cbn [bind]. rewrite firstn_all.
  rewrite (proj2 (HI (length xs) (vandermonde xs)) (vandermonde_singular xs ND)). reflexivity.
Qed.
(** A single node is refused as well. *)
Theorem gen_single inv (x : F) : gen_Lagrange_1d inv (Some [x]) None None = Err TypeError.
Proof. reflexivity. Qed.
Theorem approx_single inv (x v : F) : approx_Lagrange_1d inv [x] [v] = Err TypeError.
Proof. reflexivity. Qed.

(** ** The approximation *)
Lemma value_fold (l : list (F * poly F)) acc x :
  value (fold_left (fun acc '(a, f) => padd acc (pscale a f)) l acc) x = value acc x + suml (map (fun '(a, f) => a * value f x) l).
Proof.
  revert acc. induction l as [|[a f] l IH]; intros acc; cbn [fold_left map suml]; [ring|].
  rewrite IH, value_padd, value_pscale. ring.
Qed.
Lemma length_fold n (l : list (F * poly F)) acc : (length acc <= n)%nat -> (forall a f, In (a, f) l -> (length f <= n)%nat) ->
  (length (fold_left (fun acc '(a, f) => padd acc (pscale a f)) l acc) <= n)%nat.
Proof.
  revert acc. induction l as [|[a f] l IH]; intros acc H1 H2; cbn [fold_left]; [exact H1|].
  apply IH; [|intros; apply (H2 a0); right; assumption].
  rewrite length_padd. unfold pscale. rewrite map_length. pose proof (H2 a f (or_introl eq_refl)). lia.
Qed.
Lemma mapM_map {A B C} (f : B -> result C) (g : A -> B) l : mapM f (map g l) = mapM (fun a => f (g a)) l.
Proof. induction l as [|a l IH]; cbn [map mapM]; [reflexivity|]. rewrite IH. reflexivity. Qed.
Lemma mapM_ok {A B} (f : A -> result B) (g : A -> B) l : (forall a, In a l -> f a = Ok (g a)) -> mapM f l = Ok (map g l).
Proof.
  induction l as [|a l IH]; intros H; cbn [map mapM]; [reflexivity|].
  rewrite (H a (or_introl eq_refl)). cbn [bind]. rewrite IH; [reflexivity|]. intros b I. apply H. right. exact I.
Qed.
Lemma combine_map_seq {A B} (l : list A) (g : nat -> B) d : combine l (map g (seq 0 (length l))) = map (fun i => (nth i l d, g i)) (seq 0 (length l)).
Proof.
  revert g. induction l as [|a l IH]; intros g; cbn [length seq map combine]; [reflexivity|].
  f_equal. rewrite <- seq_shift, !map_map. rewrite (IH (fun x => g (S x))). reflexivity.
Qed.

Theorem approx_ok inv (points values : list F) : inv_ok ValueError inv ->
  (2 <= length points)%nat -> length points = length values -> NoDup points ->
  exists p, approx_Lagrange_1d inv points values = Ok p /\ (length p <= length points)%nat /\
    (forall j, (j < length points)%nat -> value p (nth j points 0) = nth j values 0) /\
    (forall q : poly F, (length q <= length points)%nat ->
       (forall j, (j < length points)%nat -> value q (nth j points 0) = nth j values 0) ->
       forall x, value p x = value q x).
Proof.
  intros HI L E ND. unfold approx_Lagrange_1d. rewrite (proj2 (Nat.eqb_eq _ _) E). cbn [negb].
  assert (NDi : NoDup (map Z.of_nat (seq 0 (length points)))).
  { apply FinFun.Injective_map_NoDup; [|apply seq_NoDup]. intros a b H. lia. }
  destruct (gen_ok inv points (Some (map Z.of_nat (seq 0 (length points)))) None HI L (or_introl eq_refl) ND) as (d & phi & Ed & LB & _ & G).
  { exact NDi. } { cbn [indices_of]. rewrite map_length, seq_length. reflexivity. }
  rewrite Ed. cbn [bind]. cbn [indices_of] in G. rewrite mapM_map.
  rewrite (mapM_ok _ phi).
  2:{ intros a I. apply in_seq in I. specialize (G a ltac:(lia)). rewrite nth_map_seq in G by lia. rewrite G. reflexivity. }
  cbn [bind].
  assert (V : forall x, value (fold_left (fun acc '(a, f) => padd acc (pscale a f)) (combine values (map phi (seq 0 (length points)))) []) x =
                        sum (length points) (fun i => nth i values 0 * value (phi i) x)).
  { intros x. rewrite value_fold. cbn [value]. rewrite E, (combine_map_seq values phi 0), map_map.
    rewrite <- E. rewrite suml_map_seq. ring. }
  eexists. split; [reflexivity|]. split; [|split].
  - apply length_fold; [cbn; lia|]. intros a f I. apply in_combine_r in I. apply in_map_iff in I.
    destruct I as (i & <- & Ii). apply in_seq in Ii. apply (lb_degree _ _ LB). lia.
  - intros j Hj. rewrite V.
    rewrite (sum_ext F _ _ (fun i => if (i =? j)%nat then nth i values 0 else 0)).
    + apply (sum_delta F). exact Hj.
    + intros i Hi. rewrite (lb_delta _ _ LB) by assumption. destruct (i =? j)%nat; ring.
  - intros q Lq Q x. rewrite V, <- (lb_reproduces _ _ LB q Lq x). apply sum_ext. intros i Hi. rewrite Q by exact Hi. reflexivity.
Qed.
Theorem approx_length inv (points values : list F) : length points <> length values ->
  approx_Lagrange_1d inv points values = Err AssertionError.
Proof. intros N. unfold approx_Lagrange_1d. rewrite (proj2 (Nat.eqb_neq _ _) N). reflexivity. Qed.

(** The Lagrange basis is unique. *)
Theorem basis_unique (xs : list F) phi psi : lagrange_basis xs phi -> lagrange_basis xs psi ->
  forall i, (i < length xs)%nat -> forall x, value (phi i) x = value (psi i) x.
Proof.
  intros H1 H2 i Hi x. rewrite <- (lb_reproduces _ _ H2 (phi i) (lb_degree _ _ H1 i Hi) x).
  rewrite (sum_ext F _ _ (fun l => if (l =? i)%nat then value (psi l) x else 0)).
  - apply (sum_delta F). exact Hi.
  - intros l Hl. rewrite (lb_delta _ _ H1 i l Hi Hl), Nat.eqb_sym. destruct (l =? i)%nat; ring.
Qed.

Theorem gen_default_ok inv N : inv_ok ValueError inv -> (2 <= N)%nat ->
  NoDup (@linspace F N) /\ length (@linspace F N) = N /\ nth 0 (@linspace F N) 0 = opp 1 /\ nth (N - 1) (@linspace F N) 0 = 1 /\
  exists d phi, gen_Lagrange_1d inv (@None (list F)) None (Some N) = Ok d /\ lagrange_basis (linspace N) phi /\
    map fst d = map Z.of_nat (seq 1 N) /\
    (forall l, (l < N)%nat -> dget (Z.of_nat (S l)) d = Some (entry_of (phi l))).
Proof.
  intros HI HN. destruct (linspace_nodup N HN) as [ND L]. split; [exact ND|]. split; [exact L|].
  assert (NZ : @of_nat F (N - 1) <> 0) by (apply (pos_neq F), (of_nat_pos F); lia).
  split; [unfold linspace; rewrite nth_map_seq by lia; cbn [of_nat]; field; exact NZ|].
  split; [unfold linspace; rewrite nth_map_seq by lia; field; exact NZ|].
  rewrite gen_default.
  destruct (gen_ok inv (linspace N) None (Some N) HI) as (d & phi & E & LB & K & G); rewrite ?L in *;
    [exact HN|right; reflexivity|exact ND| | |].
  - cbn [indices_of]. apply FinFun.Injective_map_NoDup; [|apply seq_NoDup]. intros a b H. lia.
  - cbn [indices_of]. rewrite map_length, seq_length. reflexivity.
  - exists d, phi. split; [exact E|]. split; [exact LB|]. split; [exact K|].
    intros l Hl. specialize (G l Hl). cbn [indices_of] in G. rewrite <- seq_shift, map_map, nth_map_seq in G by exact Hl. exact G.
Qed.
End Lagrange.

Lemma single_node : exists (xs : list Qc_ofield) inv, inv_ok ValueError inv /\ NoDup xs /\
    (exists phi, lagrange_basis xs phi) /\
    gen_Lagrange_1d inv (Some xs) None None = Err TypeError /\
    approx_Lagrange_1d inv xs xs = Err TypeError.
Proof.
  exists [0%F : Qc_ofield], (inv_with ValueError). split; [apply inv_with_ok|]. split; [repeat constructor; intros []|].
  split; [|split; reflexivity].
  assert (ND : NoDup [0%F : Qc_ofield]) by (repeat constructor; intros []).
  destruct (regular_dec 1 (vandermonde [0%F : Qc_ofield])) as [[X HX]|N].
  - eexists. apply (basis_spec [0%F : Qc_ofield] X HX). discriminate.
  - exfalso. apply N. exact (vandermonde_regular _ ND).
Qed.
