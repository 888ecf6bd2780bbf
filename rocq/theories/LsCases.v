(** The least squares functions with the weight functions of the library. *)
From Coq Require Import Field.
From Verif Require Import Prelude OField Inverse LsModel LsSpec LsProofs LsBasis LsEq LsFit.
Local Open Scope nat_scope.

Section Cases.
Context {F : ofield}.
Local Open Scope of_scope.
Add Field FF : (of_field F).

(** ** The weight functions meet what is asked of them *)
Definition const_value (value : F) (sd : option (list F)) (core x : list F) : F :=
  match sd with None => value | Some sd => if outside core sd x then 0 else value end.
Lemma constant_at dim value sd core points g h :
  weight_at (constant_weight dim value sd) core points g h (const_value value sd core) (fun _ => zeros dim) (fun _ => zeros2 dim dim).
Proof.
  constructor; cbn.
  - intros x _. unfold const_value. destruct sd as [sd|]; [destruct (outside core sd x)|]; reflexivity.
  - intros _ x _. split; [reflexivity|apply repeat_length].
  - intros _ x _. split; [reflexivity|]. split; [apply repeat_length|].
    apply Forall_forall. intros r I. apply repeat_spec in I. subst r. apply repeat_length.
Qed.
Lemma const_value_nonneg value sd core x : 0 <= value -> 0 <= const_value value sd core x.
Proof. intros H. unfold const_value. destruct sd as [sd|]; [destruct (outside core sd x)|]; try exact H. apply le_refl. Qed.

Definition dist2 (u v : list F) : F := sum (length u) (fun j => (coord u j - coord v j) * (coord u j - coord v j)).
Definition singular_value (eps : F) (core x : list F) : F := 1 / (dist2 core x + eps * eps).
Lemma singular_at dim eps core points g h :
  weight_at (singular_weight dim eps) core points g h (singular_value eps core) (fun _ => zeros dim) (fun _ => zeros2 dim dim).
Proof.
  constructor; cbn.
  - intros x _. reflexivity.
  - intros _ x _. split; [reflexivity|apply repeat_length].
  - intros _ x _. split; [reflexivity|]. split; [apply repeat_length|].
    apply Forall_forall. intros r I. apply repeat_spec in I. subst r. apply repeat_length.
Qed.
Lemma dist2_nonneg u v : 0 <= dist2 u v.
Proof. apply sum_nonneg. intros. apply square_nonneg. Qed.
Lemma singular_pos eps core x : eps <> 0 -> 0 < singular_value eps core x.
Proof.
  intros E. unfold singular_value. apply div_pos; [apply lt_0_1|].
  pose proof (dist2_nonneg core x) as D. pose proof (square_pos F eps E) as P.
  apply (lt_le_trans F _ (eps * eps)); [exact P|]. apply (proj2 (sub_nonneg F _ _)). replace (dist2 core x + eps * eps - eps * eps) with (dist2 core x) by ring. exact D.
Qed.

Definition cubic_W (c : F * F * F) : F := fst (fst c).
Definition cubic_value (dim : nat) (sd core x : list F) : F :=
  match cubic_evaluate dim sd core x with Ok r => fst (fst r) | Err _ => 0 end.
Definition cubic_gradient (dim : nat) (sd core x : list F) : list F :=
  match cubic_evaluate dim sd core x with Ok r => snd (fst r) | Err _ => [] end.
Definition cubic_hessian (dim : nat) (sd core x : list F) : list (list F) :=
  match cubic_evaluate dim sd core x with Ok r => snd r | Err _ => [] end.
Lemma cubic_at dim sd core points g h : (dim = 1 \/ dim = 2)%nat ->
  weight_at (cubic_weight dim sd) core points g h (cubic_value dim sd core) (cubic_gradient dim sd core) (cubic_hessian dim sd core).
Proof.
  intros D.
  assert (K : forall x, exists a b c, cubic_evaluate dim sd core x = Ok (a, b, c) /\ length b = dim /\ length c = dim /\ Forall (fun r => length r = dim) c).
  { intros x. unfold cubic_evaluate. destruct D as [->| ->].
    - destruct (cubic_1d _ _) as [[? ?] ?]. do 3 eexists. split; [reflexivity|]. repeat constructor.
    - destruct (cubic_1d _ _) as [[? ?] ?]. destruct (cubic_1d _ _) as [[? ?] ?]. do 3 eexists. split; [reflexivity|]. repeat constructor. }
  constructor; cbn -[cubic_evaluate].
  - intros x _. unfold cubic_value. destruct (K x) as (a & b & c & E & _). rewrite E. reflexivity.
  - intros _ x _. unfold cubic_gradient. destruct (K x) as (a & b & c & E & L & _). rewrite E. cbn. split; [reflexivity|exact L].
  - intros _ x _. unfold cubic_hessian. destruct (K x) as (a & b & c & E & _ & L & L'). rewrite E. cbn. tauto.
Qed.

Lemma num_nonneg n : 0 <= (num n : F). Proof. apply of_nat_nonneg. Qed.
Lemma num_nz n : (0 < n)%nat -> (num n : F) <> 0.
Proof. intros H. unfold num. apply pos_neq. change 0 with (of_nat 0 : F). apply of_nat_lt. exact H. Qed.
Lemma frac_nonneg a b : (0 < b)%nat -> 0 <= (num a / num b : F).
Proof. intros H. apply div_nonneg; [apply num_nonneg|]. change 0 with (of_nat 0 : F). apply of_nat_lt. exact H. Qed.

Lemma nz2 : (1 + 1 : F) <> 0. Proof. exact (two_nz F). Qed.
Lemma nz3 : (1 + (1 + 1) : F) <> 0.
Proof. intros E. apply (num_nz 3); [lia|]. rewrite <- E. unfold num. cbn [of_nat]. ring. Qed.
Lemma nz4 : ((1 + 1) * (1 + 1) : F) <> 0. Proof. apply mul_neq_0; exact nz2. Qed.
Lemma nz6 : ((1 + 1) * (1 + (1 + 1)) : F) <> 0. Proof. apply mul_neq_0; [exact nz2|exact nz3]. Qed.
Ltac nz E := first [exact (nz2 E) | exact (nz3 E) | exact (nz4 E) | exact (nz6 E)].
(** The two pieces are non-negative. *)
Lemma inner_nonneg (r : F) : 0 <= r -> r <= 1 / num 2 -> 0 <= num 2 / num 3 - num 4 * (r * r) + num 4 * (r * r * r).
Proof.
  intros H0 H1.
  replace (num 2 / num 3 - num 4 * (r * r) + num 4 * (r * r * r))
    with (num 1 / num 6 + num 4 * ((1 / num 2 - r) * (num 1 / num 4 + r * (1 / num 2 - r)))).
  2:{ unfold num. cbn [of_nat]. field. repeat split; intros E; nz E. }
  assert (D : 0 <= 1 / num 2 - r) by (apply (proj1 (sub_nonneg F _ _)); exact H1).
  apply add_nonneg; [apply frac_nonneg; lia|]. apply mul_nonneg; [apply num_nonneg|]. apply mul_nonneg; [exact D|].
  apply add_nonneg; [apply frac_nonneg; lia|]. apply mul_nonneg; assumption.
Qed.
Lemma outer_nonneg (r : F) : r <= 1 -> 0 <= num 4 / num 3 - num 4 * r + num 4 * (r * r) - num 4 / num 3 * (r * r * r).
Proof.
  intros H1.
  replace (num 4 / num 3 - num 4 * r + num 4 * (r * r) - num 4 / num 3 * (r * r * r))
    with (num 4 / num 3 * ((1 - r) * ((1 - r) * (1 - r)))).
  2:{ unfold num. cbn [of_nat]. field. intros E. nz E. }
  apply mul_nonneg; [apply frac_nonneg; lia|]. apply mul_nonneg; [apply (proj1 (sub_nonneg F _ _)); exact H1|apply square_nonneg].
Qed.
Lemma cubic_1d_nonneg (dif dm : F) : 0 < dm -> 0 <= (fst (fst (cubic_1d dif dm)) : F).
Proof.
  intros D. unfold cubic_1d. cbv zeta. set (r := absf dif / dm).
  assert (R0 : 0 <= r) by (apply div_nonneg; [apply abs_nonneg|exact D]).
  destruct (leb r (1 / num 2)) eqn:E1; [apply inner_nonneg; assumption|].
  destruct (ltb (1 / num 2) r) eqn:E2; [|cbn; apply le_refl]. cbn [andb].
  destruct (leb r 1) eqn:E3; cbn; [apply outer_nonneg; exact E3|apply le_refl].
Qed.
Lemma cubic_nonneg dim sd core x : (forall j, (j < dim)%nat -> 0 < coord sd j) -> 0 <= cubic_value dim sd core x.
Proof.
  intros D. unfold cubic_value, cubic_evaluate. destruct dim as [|[|[|dim]]]; try apply le_refl.
  - pose proof (cubic_1d_nonneg (coord core 0 - coord x 0) _ (D 0%nat ltac:(lia))) as P.
    destruct (cubic_1d _ _) as [[? ?] ?]. exact P.
  - pose proof (cubic_1d_nonneg (coord core 0 - coord x 0) _ (D 0%nat ltac:(lia))) as P.
    pose proof (cubic_1d_nonneg (coord core 1 - coord x 1) _ (D 1%nat ltac:(lia))) as Q.
    destruct (cubic_1d _ _) as [[? ?] ?]. destruct (cubic_1d _ _) as [[? ?] ?]. cbn in *. apply mul_nonneg; assumption.
Qed.

(** ** The unweighted fit *)
Lemma map_const {A} (l : list A) (c : F) : map (fun _ => c) l = repeat c (length l).
Proof. induction l as [|a l IH]; cbn; [reflexivity|]. rewrite IH. reflexivity. Qed.
Theorem ls_best (inv : nat -> mat F -> result (mat F)) (c : cloud F) values deg order :
  inv_ok LinAlgError inv -> cloud_ok c -> (deg = 1 \/ deg = 2)%nat -> length (cloud_points c) = length values ->
  let ones : list F := repeat 1 (length values) in
  (unisolvent deg (cloud_dim c) ones (cloud_points c) ->
   exists f, least_squares inv c values deg order = Ok f /\
     (forall x, exists a, f x = Ok a /\ length (value_of a) = records values) /\
     forall r, (r < records values)%nat ->
       exists p, best deg (cloud_dim c) ones (column values r) (cloud_points c) p /\
         (forall x a, length x = cloud_dim c -> f x = Ok a -> nth r (value_of a) 0 = pval p x) /\
         (forall q, in_space deg (cloud_dim c) q ->
            (forall i, (i < length (cloud_points c))%nat -> nth i (column values r) 0 = pval q (nth i (cloud_points c) [])) ->
            forall x a, length x = cloud_dim c -> f x = Ok a -> nth r (value_of a) 0 = pval q x)) /\
  (~ unisolvent deg (cloud_dim c) ones (cloud_points c) ->
   least_squares inv c values deg order = Err LinAlgError).
Proof.
  intros HI HC HDeg HLen ones. unfold least_squares.
  assert (E : ones = map (fun _ : list F => 1) (cloud_points c)) by (unfold ones; rewrite map_const, HLen; reflexivity).
  rewrite E.
  exact (wls_best inv c values deg order None [] _ _ _ HI HC HDeg HLen eq_refl
    (constant_at (cloud_dim c) 1 None [] (cloud_points c) _ _) (fun x _ => lt_le F 0 1 (lt_0_1 F))).
Qed.

(** ** The moving fit: at every point the value of the best polynomial for the weights
    with the core there *)
Theorem mls_best (inv : nat -> mat F -> result (mat F)) (c : cloud F) values deg order w x W G H :
  inv_ok LinAlgError inv -> cloud_ok c -> (deg = 1 \/ deg = 2)%nat -> length (cloud_points c) = length values ->
  w_dim (the_weight c w) = cloud_dim c -> length x = cloud_dim c ->
  weight_at (the_weight c w) x (cloud_points c) (grad_of order) (hess_of order) W G H ->
  (forall y, In y (cloud_points c) -> 0 <= W y) ->
  (unisolvent deg (cloud_dim c) (map W (cloud_points c)) (cloud_points c) ->
   exists a, moving_least_squares inv c values deg order w x = Ok a /\
     length (value_of a) = records values /\
     forall r, (r < records values)%nat ->
       exists p, best deg (cloud_dim c) (map W (cloud_points c)) (column values r) (cloud_points c) p /\
         nth r (value_of a) 0 = pval p x /\
         (forall q, in_space deg (cloud_dim c) q ->
            (forall i, (i < length (cloud_points c))%nat -> nth i (column values r) 0 = pval q (nth i (cloud_points c) [])) ->
            nth r (value_of a) 0 = pval q x)) /\
  (~ unisolvent deg (cloud_dim c) (map W (cloud_points c)) (cloud_points c) ->
   moving_least_squares inv c values deg order w x = Err LinAlgError).
Proof.
  intros HI HC HDeg HLen HD Lx HW HP.
  destruct (wls_best inv c values deg order (Some (the_weight c w)) x W G H HI HC HDeg HLen HD HW HP) as [B1 B2].
  assert (E : moving_least_squares inv c values deg order w x =
     (do f <- weighted_least_squares inv c values deg order (Some (the_weight c w)) x ; f x)).
  { unfold moving_least_squares, the_weight. destruct w; reflexivity. }
  rewrite E. split; intros U.
  - destruct (B1 U) as (f & Ef & Ea & Er). rewrite Ef. cbn [bind]. destruct (Ea x) as (a & Ha & La). exists a. split; [exact Ha|].
    split; [exact La|]. intros r Hr. destruct (Er r Hr) as (p & Bp & Vp & Vq). exists p. split; [exact Bp|]. split; [exact (Vp x a Lx Ha)|].
    intros q Hq Hv. exact (Vq q Hq Hv x a Lx Ha).
  - rewrite (B2 U). reflexivity.
Qed.

(** ** Errors *)
Lemma wls_lengths (inv : nat -> mat F -> result (mat F)) (c : cloud F) values deg order w core : length (cloud_points c) <> length values ->
  weighted_least_squares inv c values deg order w core = Err ValueError.
Proof. intros H. unfold weighted_least_squares. rewrite (proj2 (Nat.eqb_neq _ _) H). reflexivity. Qed.
Lemma wls_dims (inv : nat -> mat F -> result (mat F)) (c : cloud F) values deg order w core : length (cloud_points c) = length values -> w_dim w <> cloud_dim c ->
  weighted_least_squares inv c values deg order (Some w) core = Err AssertionError.
Proof.
  intros H D. unfold weighted_least_squares. rewrite (proj2 (Nat.eqb_eq _ _) H). cbn [negb].
  rewrite (proj2 (Nat.eqb_neq _ _) (fun E => D (eq_sym E))). reflexivity.
Qed.
Lemma wls_unsupported (inv : nat -> mat F -> result (mat F)) (c : cloud F) values deg order w core : length (cloud_points c) = length values ->
  w_dim (the_weight c w) = cloud_dim c -> ~ supported deg (cloud_dim c) ->
  weighted_least_squares inv c values deg order w core = Err NotImplementedError.
Proof.
  intros H D S. unfold weighted_least_squares. rewrite (proj2 (Nat.eqb_eq _ _) H). cbn [negb].
  replace (match w with Some w0 => if (cloud_dim c =? w_dim w0)%nat then Ok w0 else Err AssertionError | None => Ok (constant_weight (cloud_dim c) 1 None) end)
    with (Ok (the_weight c w)).
  2:{ destruct w as [w|]; cbn [the_weight] in D |- *; [|reflexivity]. rewrite (proj2 (Nat.eqb_eq _ _) (eq_sym D)). reflexivity. }
  cbn [bind]. destruct (cloud_dim c) as [|[|[|[|d]]]]; try reflexivity.
  - destruct c as [xs|d' [|p ps]]; cbn [cloud_points].
    + unfold wls_1d. destruct deg as [|[|[|deg]]]; try reflexivity; exfalso; apply S; split; lia.
    + unfold wls_1d. destruct deg as [|[|[|deg]]]; try reflexivity; exfalso; apply S; split; lia.
    + destruct deg as [|[|[|deg]]]; try reflexivity; exfalso; apply S; split; lia.
  - unfold wls_2d. destruct deg as [|[|[|deg]]]; try reflexivity; exfalso; apply S; split; lia.
  - unfold wls_3d. destruct deg as [|[|[|deg]]]; try reflexivity; exfalso; apply S; split; lia.
Qed.
(** A column of points in one dimension *)
Lemma wls_column (inv : nat -> mat F -> result (mat F)) p ps values deg order w core : length (p :: ps) = length values ->
  w_dim (the_weight (Rows 1 (p :: ps)) w) = 1%nat -> (deg = 1 \/ deg = 2)%nat ->
  weighted_least_squares inv (Rows 1 (p :: ps)) values deg order w core = Err ValueError.
Proof.
  intros H D S. unfold weighted_least_squares. cbn [cloud_points cloud_dim]. rewrite (proj2 (Nat.eqb_eq _ _) H). cbn [negb].
  destruct w as [w|]; cbn [the_weight] in D; [rewrite (proj2 (Nat.eqb_eq _ _) (eq_sym D))|]; cbn [bind]; destruct S as [->| ->]; reflexivity.
Qed.
End Cases.
