(** The derivatives that the least squares fits return. *)
Set Warnings "-ambiguous-paths".
From Coq Require Import Reals Lra FunctionalExtensionality.
From Coquelicot Require Import Coquelicot.
From Verif Require Import Prelude OField OFieldR Inverse LsModel LsProofs LsBasis LsEq LsFit LinDeriv LsReal LsDerivSpec.
Local Open Scope nat_scope.

Notation RF := R_ofield.

Lemma sum_rsum : @sum RF = rsum.
Proof.
  apply functional_extensionality. intros n. apply functional_extensionality. intros f.
  induction n as [|n IH]; [reflexivity|]. cbn. rewrite IH. reflexivity.
Qed.

(** ** The basis functions *)
Lemma setc_length x j t : length (setc x j t) = length x.
Proof. revert j. induction x as [|y x IH]; intros [|j]; cbn; auto. Qed.
Lemma setc_same x j : setc x j (nth j x 0%R) = x.
Proof. revert j. induction x as [|y x IH]; intros [|j]; cbn; auto. rewrite IH. reflexivity. Qed.

Ltac basis_cases L :=
  repeat match goal with
  | x : list R |- _ => destruct x as [|? x]; [discriminate L|]
  end.
Ltac der := cbn; auto_derive; [exact I|]; cbn; ring.

Lemma basis_derive deg dim (fam : family RF) p j r : family_of deg dim = Some fam -> length p = dim -> j < dim -> r < nbasis deg dim ->
  is_derive (fun t => bvec fam (setc p j t) r : R) (nth j p 0%R) (dvec fam j p r).
Proof.
  intros E L Hj Hr. destruct (family_supported deg dim fam E) as [[->| ->] [->|[->| ->]]]; cbn in E; injection E as <-;
  destruct p as [|p0 [|p1 [|p2 [|p3 p4]]]]; try discriminate L;
  repeat (destruct j as [|j]; [|try lia]); try lia;
  do 11 (try (destruct r as [|r]; [der|])); exfalso; cbn in Hr; lia.
Qed.
Lemma basis_derive2 deg dim (fam : family RF) p j l r : family_of deg dim = Some fam -> length p = dim -> j < dim -> l < dim -> r < nbasis deg dim ->
  is_derive (fun t => dvec fam j (setc p l t) r : R) (nth l p 0%R) (ddvec fam j l p r).
Proof.
  intros E L Hj Hl Hr. destruct (family_supported deg dim fam E) as [[->| ->] [->|[->| ->]]]; cbn in E; injection E as <-;
  destruct p as [|p0 [|p1 [|p2 [|p3 p4]]]]; try discriminate L;
  repeat (destruct j as [|j]; [|try lia]); try lia;
  repeat (destruct l as [|l]; [|try lia]); try lia;
  do 11 (try (destruct r as [|r]; [der|])); exfalso; cbn in Hr; lia.
Qed.

Lemma diagonal_form k (X : nat -> nat -> R) (dd u v bw bg bG : nat -> R) (A1 A2 : nat -> nat -> R) :
  (rsum k (fun r => rsum k (fun s => X r s * (dd s - rsum k (fun m => A2 s m * u m) - rsum k (fun m => ((1 + (1 + 0)) * A1 s m) * v m))) * bw r) +
   rsum k (fun r => ((1 + (1 + 0)) * v r) * bg r) + rsum k (fun r => u r * bG r) =
   rsum k (fun r => rsum k (fun s => X r s * (dd s - rsum k (fun m => A2 s m * u m) - rsum k (fun m => A1 s m * v m) - rsum k (fun m => A1 s m * v m))) * bw r) +
   rsum k (fun r => v r * bg r) + rsum k (fun r => v r * bg r) + rsum k (fun r => u r * bG r))%R.
Proof.
  rewrite (rsum_ext k (fun r => ((1 + (1 + 0)) * v r) * bg r)%R (fun r => v r * bg r + v r * bg r)%R) by (intros; ring).
  rewrite rsum_plus.
  rewrite (rsum_ext k (fun r => rsum k (fun s => X r s * (dd s - rsum k (fun m => A2 s m * u m) - rsum k (fun m => ((1 + (1 + 0)) * A1 s m) * v m))) * bw r)%R
    (fun r => rsum k (fun s => X r s * (dd s - rsum k (fun m => A2 s m * u m) - rsum k (fun m => A1 s m * v m) - rsum k (fun m => A1 s m * v m))) * bw r)%R); [ring|].
  intros r _. f_equal. apply rsum_ext. intros s _. f_equal.
  rewrite (rsum_ext k (fun m => ((1 + (1 + 0)) * A1 s m) * v m)%R (fun m => A1 s m * v m + A1 s m * v m)%R) by (intros; ring).
  rewrite rsum_plus. ring.
Qed.

(** ** Weight functions whose reported derivatives are right *)
Record smooth_weight (w : weight RF) (core : list R -> list R) (points : list (list R)) (p : list R) (h : bool)
    (W : list R -> list R -> R) (G : list R -> list R -> list R) (H : list R -> list R -> list (list R)) : Prop := {
  sw_at : forall q, length q = length p -> weight_at w (core q) points true h (W q) (G q) (H q);
  sw_d : forall j x, j < length p -> In x points ->
    is_derive (fun t => W (setc p j t) x) (nth j p 0%R) (nth j (G p x) 0%R);
  sw_dd : h = true -> forall j l x, j < length p -> l < length p -> In x points ->
    is_derive (fun t => nth j (G (setc p l t) x) 0%R) (nth l p 0%R) (nth (Nat.max j l) (nth (Nat.min j l) (H p x) []) 0%R) }.

Lemma hessian_item dim k fam points (values : list (list RF)) W G H X g x j l : (dim = 1 \/ dim = 2 \/ dim = 3) -> j < dim -> l < dim ->
  nth_error (ans dim k fam points values W G H X g true x) (hpos dim j l) =
    Some (Some (if j <? l then c_dxy k fam points values W G H X j l x
                else if l <? j then c_dxy k fam points values W G H X l j x else c_dd k fam points values W G H X j x)).
Proof.
  intros E Hj Hl. destruct E as [->|[->| ->]]; destruct j as [|[|[|]]]; try lia; destruct l as [|[|[|]]]; try lia; reflexivity.
Qed.

Section Derivatives.
Variables (inv : nat -> mat RF -> result (mat RF)) (c : cloud RF) (values : list (list RF)) (deg : nat) (order : Z).
Variables (w : option (weight RF)) (core : list R -> list R) (p : list R).
Variables (W : list R -> list R -> R) (G : list R -> list R -> list R) (H : list R -> list R -> list (list R)).
Let dim := cloud_dim c.
Let k := nbasis deg dim.
Let points := cloud_points c.
Let n := length points.
Definition run (q : list R) : result (list (option (list R))) :=
  do f <- weighted_least_squares inv c values deg order w (core q) ; f q.
Hypothesis HI : inv_ok LinAlgError inv.
Hypothesis HC : cloud_ok c.
Hypothesis HLen : length points = length values.
Hypothesis HD : w_dim (the_weight c w) = dim.
Hypothesis HP : length p = dim.
Hypothesis HO : (1 <= order)%Z.
Hypothesis HW : smooth_weight (the_weight c w) core points p (hess_of order) W G H.
Variable a : list (option (list R)).
Hypothesis HR : run p = Ok a.

Variable fam : family RF.
Hypothesis HF : family_of deg dim = Some fam.

Definition Amat (q : list R) : mat RF := A_ fam points (W q).
Definition Xof (q : list R) : mat RF := match inv k (Amat q) with Ok X => X | Err _ => eye end.
Definition answer_at (q : list R) : answer RF :=
  ans dim k fam points values (W q) (G q) (H q) (Xof q) (grad_of order) (hess_of order) q.

Lemma order_grad : grad_of order = true.
Proof. unfold grad_of. apply Z.ltb_lt. lia. Qed.

Lemma run_eq q : length q = dim -> run q = (do X <- inv k (Amat q) ; Ok (answer_at q)).
Proof.
  intros L. unfold run.
  pose proof (sw_at _ _ _ _ _ _ _ _ HW q (eq_trans L (eq_sym HP))) as S. rewrite <- order_grad in S.
  destruct (wls_eq inv c values deg order w (core q) fam (W q) (G q) (H q) HC HLen HF HD S) as (f & E & Ef).
  rewrite E. fold points dim k. fold (Amat q). unfold answer_at, Xof. destruct (inv k (Amat q)) as [X|e]; [|reflexivity].
  cbn [bind]. apply Ef.
Qed.

Lemma regular_p : inverse_of k (Amat p) (Xof p).
Proof.
  pose proof HR as E. rewrite (run_eq p HP) in E. destruct (HI k (Amat p)) as [I1 I2].
  destruct (regular_dec k (Amat p)) as [[X HX]|N].
  - destruct (I1 (inverse_regular _ _ X HX)) as (Y & EY & HY). unfold Xof. rewrite EY. exact HY.
  - rewrite (I2 N) in E. discriminate E.
Qed.

Section Line.
Variable l : nat.
Hypothesis Hl : l < dim.
Let t0 := nth l p 0%R.
Let q (t : R) : list R := setc p l t.
Lemma q0 : q t0 = p. Proof. apply setc_same. Qed.
Lemma q_len t : length (q t) = dim. Proof. unfold q. rewrite setc_length. exact HP. Qed.

Let b (i r : nat) : R := bi_ fam points i r.
Definition wt (t : R) (i : nat) : R := wi_ points (W (q t)) i.
Definition gt (j : nat) (t : R) (i : nat) : R := gw_ points (G (q t)) j i.

Lemma of_list_map (f : list R -> R) i : i < n -> of_list (F := RF) (map f points) i = f (nth i points []).
Proof.
  intros Hi. unfold of_list. change (@zero RF) with 0%R. rewrite (nth_indep _ 0%R (f [])) by (rewrite map_length; exact Hi).
  apply map_nth.
Qed.
Lemma in_points i : i < n -> In (nth i points []) points. Proof. intros Hi. apply nth_In. exact Hi. Qed.

Lemma weight_derive i : i < n -> is_derive (fun t => wt t i) t0 (gt l t0 i).
Proof.
  intros Hi. unfold gt, gw_. rewrite of_list_map by exact Hi. rewrite q0.
  apply (is_derive_ext (fun t => W (q t) (nth i points []))).
  - intros t. unfold wt, wi_. symmetry. exact (of_list_map (W (q t)) i Hi).
  - apply (sw_d _ _ _ _ _ _ _ _ HW); [rewrite HP; exact Hl|exact (in_points i Hi)].
Qed.
Lemma gradient_derive j i : hess_of order = true -> j < dim -> i < n ->
  is_derive (fun t => gt j t i) t0 (Gw_ points (H p) (Nat.min j l) (Nat.max j l) i).
Proof.
  intros HH Hj Hi. unfold Gw_. rewrite (of_list_map (fun x => nth (Nat.max j l) (nth (Nat.min j l) (H p x) []) 0%R)) by exact Hi.
  apply (is_derive_ext (fun t => nth j (G (q t) (nth i points [])) 0%R)).
  - intros t. unfold gt, gw_. symmetry. exact (of_list_map (fun x => nth j (G (q t) x) 0%R) i Hi).
  - apply (sw_dd _ _ _ _ _ _ _ _ HW HH); [rewrite HP; exact Hj|rewrite HP; exact Hl|exact (in_points i Hi)].
Qed.

Let X (t : R) : nat -> nat -> R := Xof (q t).
Lemma A_eq t r s : Amat (q t) r s = matA n b (wt t) r s.
Proof. unfold Amat, A_, acc. rewrite sum_rsum. reflexivity. Qed.

Lemma left_inverse i j : i < k -> j < k -> rsum k (fun m => X t0 i m * matA n b (wt t0) m j)%R = delta i j.
Proof.
  intros Hi Hj. destruct regular_p as [_ E]. specialize (E i j Hi Hj). unfold mm in E. rewrite sum_rsum in E.
  unfold X. rewrite q0. etransitivity; [|exact E]. apply rsum_ext. intros m _.
  rewrite <- A_eq, q0. reflexivity.
Qed.
Lemma near_inverse : locally t0 (fun t => inverse_of k (Amat (q t)) (X t) /\ inv k (Amat (q t)) = Ok (Xof (q t))).
Proof.
  generalize (near_regular k t0 (fun t => matA n b (wt t)) (matA n b (gt l t0)) (X t0)
    (fun i j _ _ => matA_derive n b t0 wt (gt l t0) weight_derive i j) left_inverse).
  apply filter_imp. intros t R0. destruct (HI k (Amat (q t))) as [I1 _].
  assert (R : regular k (Amat (q t))).
  { intros v Z. apply R0. intros m Hm. specialize (Z m Hm). unfold mv in Z. rewrite sum_rsum in Z.
    etransitivity; [|exact Z]. apply rsum_ext. intros j _. rewrite A_eq. reflexivity. }
  destruct (I1 R) as (Y & EY & HY). unfold X, Xof. rewrite EY. split; [exact HY|reflexivity].
Qed.
Lemma right_inverse : locally t0 (fun t => forall v r, r < k -> rmv k (matA n b (wt t)) (rmv k (X t) v) r = v r).
Proof.
  generalize near_inverse. apply filter_imp. intros t [I _] v r Hr.
  pose proof (inverse_solve k _ _ I v r Hr) as E. unfold mv in E. rewrite sum_rsum in E.
  etransitivity; [|exact E]. apply rsum_ext. intros j _. rewrite A_eq. reflexivity.
Qed.
Lemma near_run : locally t0 (fun t => run (q t) = Ok (answer_at (q t))).
Proof.
  generalize near_inverse. apply filter_imp. intros t [_ E]. rewrite (run_eq (q t) (q_len t)), E. reflexivity.
Qed.

Variable r : nat.
Hypothesis Hr : r < records values.
Let V (i : nat) : R := vmat values i r.
Definition bt (t : R) : nat -> R := bvec fam (q t).
Definition dt (j : nat) (t : R) : nat -> R := dvec fam j (q t).
Definition gam_t (t : R) : nat -> R := rmv k (X t) (bt t).
Definition gamj_t (j : nat) (t : R) : nat -> R := rmv k (X t) (fun m => dt j t m - rmv k (matA n b (gt j t)) (gam_t t) m)%R.

Lemma dot_V_nth (V0 : mat RF) (S : vec RF) : nth_error (dot_V points values V0 S) r = Some (sum n (fun i => S i * V0 i r)%F).
Proof.
  unfold dot_V. rewrite nth_error_map. rewrite (nth_error_nth' _ 0) by (rewrite seq_length; exact Hr).
  rewrite seq_nth by exact Hr. reflexivity.
Qed.
Lemma value_eq t : nth_error (c_f k fam points values (W (q t)) (Xof (q t)) (q t)) r = Some (valf n k b V (gam_t t) (wt t)).
Proof. unfold c_f, mls_f. rewrite dot_V_nth. unfold vm, gam, mv. rewrite sum_rsum. reflexivity. Qed.
Lemma gradient_eq j t : nth_error (c_d k fam points values (W (q t)) (G (q t)) (Xof (q t)) j (q t)) r =
  Some (valg n k b V (gam_t t) (gamj_t j t) (wt t) (gt j t)).
Proof.
  unfold c_d, mls_g. rewrite dot_V_nth. unfold add_, vm, gamd, gamma_d, gam, mv, Ad_, acc. rewrite sum_rsum. reflexivity.
Qed.

(** The second derivative, in the form in which it is computed for two directions. *)
Definition hess (g g' : nat -> R) (G0 : nat -> R) (ddelta : nat -> R) (gj gl : nat -> R) : R :=
  let gjl := rmv k (X t0) (fun m => ddelta m - rmv k (matA n b G0) (gam_t t0) m - rmv k (matA n b g) gl m - rmv k (matA n b g') gj m)%R in
  rsum n (fun i => (rsum k (fun r => gjl r * (b i r * wt t0 i)) + rsum k (fun r => gj r * (b i r * g' i)) +
                     rsum k (fun r => gl r * (b i r * g i)) + rsum k (fun r => gam_t t0 r * (b i r * G0 i))) * V i)%R.
Definition hess_jl j := hess (gt j t0) (gt l t0) (Gw_ points (H p) (Nat.min j l) (Nat.max j l)) (ddvec fam j l p) (gamj_t j t0) (gamj_t l t0).

Lemma value_partial : is_derive (fun t => valf n k b V (gam_t t) (wt t)) t0 (valg n k b V (gam_t t0) (gamj_t l t0) (wt t0) (gt l t0)).
Proof.
  assert (HB : forall m, m < k -> is_derive (fun t => bt t m) t0 (dt l t0 m)).
  { intros m Hm. unfold bt, dt. rewrite q0. exact (basis_derive deg dim fam p l m HF HP Hl Hm). }
  exact (val_derive n k b V t0 wt (gt l t0) X weight_derive right_inverse left_inverse bt (dt l t0) HB).
Qed.
Lemma gradient_partial j : hess_of order = true -> j < dim ->
  is_derive (fun t => valg n k b V (gam_t t) (gamj_t j t) (wt t) (gt j t)) t0 (hess_jl j).
Proof.
  intros HH Hj.
  assert (HB : forall m, m < k -> is_derive (fun t => bt t m) t0 (dt l t0 m)).
  { intros m Hm. unfold bt, dt. rewrite q0. exact (basis_derive deg dim fam p l m HF HP Hl Hm). }
  assert (HBB : forall m, m < k -> is_derive (fun t => dt j t m) t0 (ddvec fam j l p m)).
  { intros m Hm. exact (basis_derive2 deg dim fam p j l m HF HP Hj Hl Hm). }
  exact (grad_derive n k b V t0 wt (gt l t0) X weight_derive right_inverse left_inverse bt (dt l t0) HB
    (gt j) _ (dt j) _ (fun i Hi => gradient_derive j i HH Hj Hi) HBB).
Qed.

(** The components of the Hessian. *)
Lemma mixed_eq j : j < l -> nth_error (c_dxy k fam points values (W p) (G p) (H p) (Xof p) j l p) r = Some (hess_jl j).
Proof.
  intros L. unfold c_dxy, mls_Hxy. rewrite dot_V_nth. unfold hess_jl, hess.
  rewrite (Nat.min_l j l), (Nat.max_r j l) by lia.
  unfold add_, vm, gamd, gamma_d, gam, mv, Ad_, Add_, Bd_, Bdd_, B_, col, acc, sub_. rewrite sum_rsum.
  unfold gamj_t, gam_t, dt, bt, X, gt, wt. rewrite q0. reflexivity.
Qed.
Lemma hess_swap g g' G0 dd gj gl : hess g g' G0 dd gj gl = hess g' g G0 dd gl gj.
Proof.
  unfold hess. cbv zeta. apply rsum_ext. intros i _. f_equal.
  rewrite (rsum_ext k _ (fun r0 => rmv k (X t0) (fun m => dd m - rmv k (matA n b G0) (gam_t t0) m - rmv k (matA n b g') gj m - rmv k (matA n b g) gl m)%R r0 * (b i r0 * wt t0 i))%R); [ring|].
  intros m _. f_equal. apply rsum_ext. intros s _. f_equal. ring.
Qed.
Lemma ddvec_sym j : ddvec fam j l p = ddvec fam l j p.
Proof.
  unfold ddvec. destruct (family_supported deg dim fam HF) as [[E1|E1] [E2|[E2|E2]]]; rewrite E1, E2 in HF; cbn in HF; injection HF as <-;
    destruct j as [|[|[|]]], l as [|[|[|]]]; reflexivity.
Qed.
Lemma mixed_eq' j : l < j -> nth_error (c_dxy k fam points values (W p) (G p) (H p) (Xof p) l j p) r = Some (hess_jl j).
Proof.
  intros L. unfold c_dxy, mls_Hxy. rewrite dot_V_nth. unfold hess_jl. rewrite hess_swap. unfold hess. rewrite ddvec_sym.
  rewrite (Nat.min_r j l), (Nat.max_l j l) by lia.
  unfold add_, vm, gamd, gamma_d, gam, mv, Ad_, Add_, Bd_, Bdd_, B_, col, acc, sub_. rewrite sum_rsum.
  unfold gamj_t, gam_t, dt, bt, X, gt, wt. rewrite q0. reflexivity.
Qed.
Lemma diagonal_eq : nth_error (c_dd k fam points values (W p) (G p) (H p) (Xof p) l p) r = Some (hess_jl l).
Proof.
  unfold c_dd, mls_H. rewrite dot_V_nth. unfold hess_jl, hess.
  rewrite Nat.min_id, Nat.max_id. f_equal.
  set (G0 := Gw_ points (H p) l l). set (dd := ddvec fam l l p).
  unfold add_, vm, mv, sub_. rewrite sum_rsum. cbv zeta. apply rsum_ext. intros i _. apply (f_equal (fun z => z * V i)%R).
  assert (EG : gam k fam (Xof p) p = gam_t t0).
  { unfold gam, gam_t, bt, X, mv. rewrite sum_rsum, q0. reflexivity. }
  assert (EJ : gamd k fam points (G p) (Xof p) l p = gamj_t l t0).
  { unfold gamd, gamma_d, mv, Ad_, acc. rewrite sum_rsum. rewrite EG. unfold gamj_t, dt, X, gt. rewrite q0. reflexivity. }
  rewrite EG, EJ. unfold Ad_, Add_, Bd_, Bdd_, B_, col, acc, twice, twice_. rewrite sum_rsum.
  unfold X, wt, gt. rewrite q0.
  exact (diagonal_form k (Xof p) dd (gam_t t0) (gamj_t l t0) (fun r0 => b i r0 * wi_ points (W p) i)%R (fun r0 => b i r0 * gw_ points (G p) l i)%R
    (fun r0 => b i r0 * G0 i)%R (matA n b (gw_ points (G p) l)) (matA n b G0)).
Qed.

(** ** Together *)
Lemma component_at i t l0 : nth_error (answer_at (q t)) i = Some (Some l0) -> run (q t) = Ok (answer_at (q t)) ->
  component run i r (q t) = nth_error l0 r.
Proof. intros E1 E2. unfold component. rewrite E2. exact (f_equal (fun o => match o with Some (Some l) => nth_error l r | _ => None end) E1). Qed.

Lemma item_value t : nth_error (answer_at (q t)) 0 = Some (Some (c_f k fam points values (W (q t)) (Xof (q t)) (q t))).
Proof.
  unfold answer_at, ans. destruct (family_supported deg dim fam HF) as [_ [E|[E|E]]]; rewrite E; reflexivity.
Qed.
Lemma item_gradient j t : j < dim ->
  nth_error (answer_at (q t)) (1 + j) = Some (Some (c_d k fam points values (W (q t)) (G (q t)) (Xof (q t)) j (q t))).
Proof.
  intros Hj. unfold answer_at, ans, given. rewrite order_grad.
  destruct (family_supported deg dim fam HF) as [_ [E|[E|E]]]; rewrite E in Hj |- *.
  - destruct j as [|]; [reflexivity|lia].
  - destruct j as [|[|]]; [reflexivity|reflexivity|lia].
  - destruct j as [|[|[|]]]; [reflexivity|reflexivity|reflexivity|lia].
Qed.
Lemma item_hessian j : hess_of order = true -> j < dim ->
  exists l0, nth_error (answer_at p) (hpos dim j l) = Some (Some l0) /\ nth_error l0 r = Some (hess_jl j).
Proof.
  intros HH Hj. unfold answer_at. rewrite HH.
  rewrite hessian_item; [|exact (proj2 (family_supported deg dim fam HF))|exact Hj|exact Hl].
  eexists. split; [reflexivity|].
  destruct (Nat.ltb_spec j l) as [L|L]; [exact (mixed_eq j L)|].
  destruct (Nat.ltb_spec l j) as [L'|L']; [exact (mixed_eq' j L')|].
  assert (E : j = l) by lia. rewrite E. exact diagonal_eq.
Qed.

Lemma partial_value : partial_at (component run 0 r) l p (component run (1 + l) r p).
Proof.
  exists (fun t => valf n k b V (gam_t t) (wt t)). exists (valg n k b V (gam_t t0) (gamj_t l t0) (wt t0) (gt l t0)).
  split; [|split].
  - pose proof (component_at (1 + l) t0 _ (item_gradient l t0 Hl) (locally_singleton _ _ near_run)) as E.
    rewrite gradient_eq in E. rewrite q0 in E. exact E.
  - generalize near_run. apply filter_imp. intros t E.
    change (component run 0 r (q t) = Some (valf n k b V (gam_t t) (wt t))).
    rewrite (component_at 0 t _ (item_value t) E). apply value_eq.
  - exact value_partial.
Qed.
Lemma partial_gradient j : hess_of order = true -> j < dim -> partial_at (component run (1 + j) r) l p (component run (hpos dim j l) r p).
Proof.
  intros HH Hj.
  exists (fun t => valg n k b V (gam_t t) (gamj_t j t) (wt t) (gt j t)). exists (hess_jl j).
  split; [|split].
  - destruct (item_hessian j HH Hj) as (l0 & E1 & E2). rewrite <- E2.
    pose proof (locally_singleton _ _ near_run) as E. cbv beta in E.
    rewrite <- q0 in E1. pose proof (component_at (hpos dim j l) t0 l0 E1 E) as C. rewrite q0 in C. exact C.
  - generalize near_run. apply filter_imp. intros t E.
    change (component run (1 + j) r (q t) = Some (valg n k b V (gam_t t) (gamj_t j t) (wt t) (gt j t))).
    rewrite (component_at (1 + j) t _ (item_gradient j t Hj) E). apply gradient_eq.
  - exact (gradient_partial j HH Hj).
Qed.
End Line.
End Derivatives.

Theorem fit_derivatives inv (c : cloud RF) (values : list (list RF)) deg order w core p W G H a :
  inv_ok LinAlgError inv -> cloud_ok c -> (deg = 1 \/ deg = 2) -> length (cloud_points c) = length values ->
  w_dim (the_weight c w) = cloud_dim c -> length p = cloud_dim c -> (1 <= order)%Z ->
  smooth_weight (the_weight c w) core (cloud_points c) p (hess_of order) W G H ->
  run inv c values deg order w core p = Ok a ->
  forall r, r < records values ->
    (forall j, j < cloud_dim c ->
       partial_at (component (run inv c values deg order w core) 0 r) j p (component (run inv c values deg order w core) (1 + j) r p)) /\
    ((2 <= order)%Z -> forall j l, j < cloud_dim c -> l < cloud_dim c ->
       partial_at (component (run inv c values deg order w core) (1 + j) r) l p (component (run inv c values deg order w core) (hpos (cloud_dim c) j l) r p)).
Proof.
  intros HI HC HDeg HLen HD HP HO HW HR r Hr.
  destruct (@supported_family RF deg (cloud_dim c) (cloud_supported c deg HC HDeg)) as (fam & HF). split.
  - intros j Hj. exact (partial_value inv c values deg order w core p W G H HI HC HLen HD HP HO HW a HR fam HF j Hj r Hr).
  - intros HO2 j l Hj Hl.
    refine (partial_gradient inv c values deg order w core p W G H HI HC HLen HD HP HO HW a HR fam HF l Hl r Hr j _ Hj).
    unfold hess_of. apply Z.ltb_lt. lia.
Qed.
