(** The fits are best approximations. *)
From Coq Require Import Field.
From Verif Require Import Prelude OField Inverse LsModel LsSpec LsProofs LsBasis LsEq.
Local Open Scope nat_scope.

Section Fit.
Context {F : ofield}.
Local Open Scope of_scope.
Add Field FF : (of_field F).

(** The arrays of points that the functions take: numbers, or rows of two or three
    coordinates. *)
Definition cloud_ok (c : cloud F) : Prop :=
  match c with
  | Flat _ => True
  | Rows d ps => (d = 2 \/ d = 3)%nat /\ Forall (fun x => length x = d) ps
  end.
Definition grad_of (order : Z) : bool := (0 <? order)%Z.
Definition hess_of (order : Z) : bool := (1 <? order)%Z.

Lemma cloud_supported c deg : cloud_ok c -> (deg = 1 \/ deg = 2)%nat -> supported deg (cloud_dim c).
Proof. intros H D. split; [exact D|]. destruct c; cbn in *; [auto|tauto]. Qed.
Lemma cloud_lengths c : cloud_ok c -> forall x, In x (cloud_points c) -> length x = cloud_dim c.
Proof.
  intros H x I. destruct c as [xs|d ps]; cbn in *.
  - apply in_map_iff in I. destruct I as (y & <- & _). reflexivity.
  - exact (proj1 (Forall_forall _ _) (proj2 H) x I).
Qed.

Definition the_weight (c : cloud F) (w : option (weight F)) : weight F :=
  match w with Some w => w | None => constant_weight (cloud_dim c) 1 None end.

Lemma wls_eq inv c values deg order w core fam W G H :
  cloud_ok c -> length (cloud_points c) = length values -> family_of deg (cloud_dim c) = Some fam ->
  w_dim (the_weight c w) = cloud_dim c ->
  weight_at (the_weight c w) core (cloud_points c) (grad_of order) (hess_of order) W G H ->
  exists f, weighted_least_squares inv c values deg order w core =
    (do invA <- inv (nbasis deg (cloud_dim c)) (A_ fam (cloud_points c) W) ; Ok (f invA)) /\
    forall invA x, f invA x = Ok (ans (cloud_dim c) (nbasis deg (cloud_dim c)) fam (cloud_points c) values W G H invA (grad_of order) (hess_of order) x).
Proof.
  intros HC HL HF HD HW. unfold weighted_least_squares. rewrite (proj2 (Nat.eqb_eq _ _) HL). cbn [negb].
  replace (match w with Some w0 => if (cloud_dim c =? w_dim w0)%nat then Ok w0 else Err AssertionError | None => Ok (constant_weight (cloud_dim c) 1 None) end)
    with (Ok (the_weight c w)).
  2:{ destruct w as [w|]; cbn [the_weight] in HD |- *; [|reflexivity]. rewrite (proj2 (Nat.eqb_eq _ _) (eq_sym HD)). reflexivity. }
  cbn [bind]. fold (hess_of order).
  replace (if hess_of order then true else (0 <? order)%Z) with (grad_of order).
  2:{ unfold grad_of, hess_of. destruct (Z.ltb_spec 1 order), (Z.ltb_spec 0 order); try reflexivity; lia. }
  assert (HG : hess_of order = true -> grad_of order = true).
  { unfold grad_of, hess_of. intros E. apply Z.ltb_lt in E. apply Z.ltb_lt. lia. }
  destruct c as [xs|d ps]; cbn [cloud_dim cloud_points] in *.
  - exact (wls_1d_eq inv _ core _ values deg fam _ _ W G H HW HF HD HG).
  - destruct HC as [[->| ->] _].
    + exact (wls_2d_eq inv _ core _ values deg fam _ _ W G H HW HF HD HG).
    + exact (wls_3d_eq inv _ core _ values deg fam _ _ W G H HW HF HD HG).
Qed.

Lemma nth_map_bvec fam (points : list (list F)) i : (i < length points)%nat -> bi_ fam points i = bvec fam (nth i points []).
Proof.
  intros L. unfold bi_. rewrite (nth_indep _ (fun _ => 0) (bvec fam [])) by (rewrite map_length; exact L). apply map_nth.
Qed.
Lemma nth_map_W (W : list F -> F) (points : list (list F)) i : (i < length points)%nat -> wi_ points W i = W (nth i points []).
Proof.
  intros L. unfold wi_, of_list. rewrite (nth_indep _ 0 (W [])) by (rewrite map_length; exact L). apply map_nth.
Qed.

Lemma nth_map_seq {A} (f : nat -> A) N m d : (m < N)%nat -> nth m (map f (seq 0 N)) d = f m.
Proof.
  intros L. rewrite (nth_indep _ d (f O)) by (rewrite map_length, seq_length; exact L).
  rewrite map_nth, seq_nth by exact L. reflexivity.
Qed.
Definition column (values : list (list F)) (r : nat) : list F := map (fun row => nth r row 0) values.
Lemma column_nth values r i : nth i (column values r) 0 = vmat values i r.
Proof.
  unfold column, vmat. destruct (Nat.lt_ge_cases i (length values)) as [L|L].
  - rewrite (nth_indep _ 0 (nth r [] 0)) by (rewrite map_length; exact L). rewrite (map_nth (fun row => nth r row 0)). reflexivity.
  - rewrite nth_overflow by (rewrite map_length; lia). rewrite (nth_overflow values) by lia. destruct r; reflexivity.
Qed.

(** The error of a polynomial with the given coefficients. *)
Lemma err_eq deg dim fam (points : list (list F)) (W : list F -> F) (v : list F) p c :
  (forall x, In x points -> length x = dim) ->
  (forall x, length x = dim -> pval p x = dotk (nbasis deg dim) (bvec fam x) c) ->
  error (map W points) v points (pval p) = err (length points) (nbasis deg dim) (bi_ fam points) (wi_ points W) (of_list v) c.
Proof.
  intros HL HP. unfold error, err. apply sum_ext. intros i Hi. rewrite nth_map_bvec by exact Hi.
  rewrite HP by (apply HL, nth_In; exact Hi). reflexivity.
Qed.

Section Best.
Variables (deg dim : nat) (fam : family F) (points : list (list F)) (W : list F -> F).
Hypothesis HF : family_of deg dim = Some fam.
Hypothesis HL : forall x, In x points -> length x = dim.
Hypothesis W0 : forall x, In x points -> 0 <= W x.
Let n := length points.
Let k := nbasis deg dim.

Lemma W0' i : (i < n)%nat -> 0 <= wi_ points W i.
Proof. intros Hi. rewrite nth_map_W by exact Hi. apply W0, nth_In. exact Hi. Qed.

Lemma unisolvent_regular : unisolvent deg dim (map W points) points <-> regular k (A_ fam points W).
Proof.
  etransitivity; [|symmetry; exact (regular_iff n k (bi_ fam points) (wi_ points W) W0')]. split; intros U.
  - intros c Z. destruct (coef_poly deg dim fam c HF) as (p & Hp & Ep). apply (independent deg dim fam c HF).
    intros x Lx. rewrite <- Ep by exact Lx. apply (U p Hp); [|exact Lx]. intros i Hi P.
    rewrite Ep by (apply HL, nth_In; exact Hi). rewrite <- nth_map_bvec by exact Hi. apply Z; [exact Hi|].
    exact P.
  - intros p Hp Z x Lx. destruct (poly_coef deg dim fam p HF Hp) as (c & Ec). rewrite Ec by exact Lx.
    unfold dotk. apply sum_0. intros r Hr. rewrite (U c); [ring| |exact Hr].
    intros i Hi P. rewrite nth_map_bvec by exact Hi. fold k. unfold k. rewrite <- Ec by (apply HL, nth_In; exact Hi).
    apply Z; [exact Hi|exact P].
Qed.

Lemma best_fit (X : mat F) (v : list F) : inverse_of k (A_ fam points W) X ->
  exists p, best deg dim (map W points) v points p /\
    (forall x, length x = dim -> sum n (fun i => vm k (gam k fam X x) (B_ fam points W) i * nth i v 0) = pval p x) /\
    (forall q, in_space deg dim q -> (forall i, (i < n)%nat -> nth i v 0 = pval q (nth i points [])) ->
       forall x, length x = dim -> pval p x = pval q x).
Proof.
  intros HX. set (c := coef n k (bi_ fam points) (wi_ points W) X (of_list v)).
  destruct (coef_poly deg dim fam c HF) as (p & Hp & Ep).
  assert (B : best deg dim (map W points) v points p).
  { constructor; [exact Hp| |].
    - intros q Hq. destruct (poly_coef deg dim fam q HF Hq) as (c' & Ec').
      rewrite (err_eq deg dim fam points W v p c HL Ep), (err_eq deg dim fam points W v q c' HL Ec').
      exact (coef_least n k _ _ W0' X HX (of_list v) c').
    - intros q Hq LE x Lx. destruct (poly_coef deg dim fam q HF Hq) as (c' & Ec').
      rewrite (err_eq deg dim fam points W v p c HL Ep), (err_eq deg dim fam points W v q c' HL Ec') in LE.
      rewrite Ec', Ep by exact Lx. apply sum_ext. intros r Hr.
      rewrite (coef_unique n k _ _ W0' X HX (of_list v) c' LE r Hr). reflexivity. }
  exists p. split; [exact B|]. split.
  - intros x Lx. rewrite Ep by exact Lx. exact (value_coef n k _ _ X HX (of_list v) (bvec fam x)).
  - intros q Hq Ev x Lx. symmetry. apply (best_unique _ _ _ _ _ _ B q Hq); [|exact Lx].
    apply (le_trans F _ 0).
    + unfold error. rewrite sum_0; [apply le_refl|]. intros i Hi. rewrite (Ev i Hi). ring.
    + apply sum_nonneg. intros i Hi. apply mul_nonneg; [exact (W0' i Hi)|apply square_nonneg].
Qed.
End Best.

(** The value of the fit: the first component of the answer. *)
Definition value_of (a : answer F) : list F := match a with Some l :: _ => l | _ => [] end.

Theorem wls_best inv c values deg order w core W G H :
  inv_ok LinAlgError inv -> cloud_ok c -> (deg = 1 \/ deg = 2)%nat -> length (cloud_points c) = length values ->
  w_dim (the_weight c w) = cloud_dim c ->
  weight_at (the_weight c w) core (cloud_points c) (grad_of order) (hess_of order) W G H ->
  (forall x, In x (cloud_points c) -> 0 <= W x) ->
  (unisolvent deg (cloud_dim c) (map W (cloud_points c)) (cloud_points c) ->
   exists f, weighted_least_squares inv c values deg order w core = Ok f /\
     (forall x, exists a, f x = Ok a /\ length (value_of a) = records values) /\
     forall r, (r < records values)%nat ->
       exists p, best deg (cloud_dim c) (map W (cloud_points c)) (column values r) (cloud_points c) p /\
         (forall x a, length x = cloud_dim c -> f x = Ok a -> nth r (value_of a) 0 = pval p x) /\
         (forall q, in_space deg (cloud_dim c) q ->
            (forall i, (i < length (cloud_points c))%nat -> nth i (column values r) 0 = pval q (nth i (cloud_points c) [])) ->
            forall x a, length x = cloud_dim c -> f x = Ok a -> nth r (value_of a) 0 = pval q x)) /\
  (~ unisolvent deg (cloud_dim c) (map W (cloud_points c)) (cloud_points c) ->
   weighted_least_squares inv c values deg order w core = Err LinAlgError).
Proof.
  intros HI HC HDeg HLen HD HW HP.
  destruct (@supported_family F deg (cloud_dim c) (cloud_supported c deg HC HDeg)) as (fam & HF).
  destruct (wls_eq inv c values deg order w core fam W G H HC HLen HF HD HW) as (f & E & Ef).
  destruct (HI (nbasis deg (cloud_dim c)) (A_ fam (cloud_points c) W)) as [I1 I2].
  pose proof (unisolvent_regular deg (cloud_dim c) fam (cloud_points c) W HF (cloud_lengths c HC) HP) as UR.
  split; intros U.
  - destruct (I1 (proj1 UR U)) as (X & EX & HX). rewrite EX in E. cbn [bind] in E.
    exists (f X). split; [exact E|].
    assert (V : forall x a, f X x = Ok a -> value_of a = c_f (nbasis deg (cloud_dim c)) fam (cloud_points c) values W X x).
    { intros x a Ea. rewrite Ef in Ea. injection Ea as <-. unfold ans. destruct (cloud_dim c) as [|[|[|]]]; reflexivity. }
    split; [intros x; eexists; split; [apply Ef|]|].
    { erewrite V by apply Ef. unfold c_f, mls_f, dot_V. rewrite map_length, seq_length. reflexivity. }
    intros r Hr.
    destruct (best_fit deg (cloud_dim c) fam (cloud_points c) W HF (cloud_lengths c HC) HP X (column values r) HX) as (p & B & Ep & Eq).
    assert (Vr : forall x a, length x = cloud_dim c -> f X x = Ok a -> nth r (value_of a) 0 = pval p x).
    { intros x a Lx Ea. rewrite (V x a Ea), <- (Ep x Lx). unfold c_f, mls_f, dot_V.
      rewrite nth_map_seq by exact Hr. apply sum_ext. intros i _. rewrite column_nth. reflexivity. }
    exists p. split; [exact B|]. split; [exact Vr|].
    intros q Hq Eqv x a Lx Ea. rewrite (Vr x a Lx Ea). apply Eq; assumption.
  - rewrite (I2 (fun R => U (proj2 UR R))) in E. exact E.
Qed.
End Fit.
