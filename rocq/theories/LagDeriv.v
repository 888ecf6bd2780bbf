(** The entries 1, 2 and 3 of the dictionary are derivatives. *)
Set Warnings "-ambiguous-paths".
From Coq Require Import Field Reals.
From Coquelicot Require Import Coquelicot.
From Verif Require Import Prelude OField OFieldR LagModel LagSpec.

Section Formal.
Context {F : ofield}.
Local Open Scope of_scope.
Add Field FF : (of_field F).
Lemma value_diff_from m (p : poly F) x : value (diff_from (S m) p) x = value (diff_from m p) x + value p x.
Proof.
  revert m. induction p as [|c p IH]; intros m; cbn [diff_from value]; [ring|]. rewrite IH. cbn [of_nat]. ring.
Qed.
Lemma value_diff_cons c (p : poly F) x : value (diff (c :: p)) x = value p x + x * value (diff p) x.
Proof.
  unfold diff. cbn [tl]. destruct p as [|d p]; cbn [diff_from value tl]; [ring|].
  rewrite value_diff_from. cbn [of_nat]. ring.
Qed.
End Formal.

Lemma horner_derive (c : R) (v : R -> R) (x d : R) : is_derive v x d -> is_derive (fun t => c + t * v t)%R x (v x + x * d)%R.
Proof.
  intros H. auto_derive; [exists d; exact H|]. replace (Derive (fun x0 : R => v x0) x) with d by (symmetry; apply is_derive_unique; exact H). ring.
Qed.
Lemma diff_is_derive (p : poly R_ofield) (x : R) : is_derive (value p : R -> R) x (value (diff p) x : R).
Proof.
  induction p as [|c p IH].
  - exact (is_derive_const (0%R : R) x).
  - rewrite value_diff_cons. exact (horner_derive c (value p) x (value (diff p) x) IH).
Qed.

(** Every entry of a dictionary that was returned is a polynomial with its first three
    derivatives. *)
Definition with_diffs {F : ofield} (e : entry F) : Prop :=
  d1 e = diff (d0 e) /\ d2 e = diff (d1 e) /\ d3 e = diff (d2 e).
Section Entries.
Context {F : ofield}.
Lemma item_map_inv {A B} (f : A -> B) l i b : item (map f l) i = Ok b -> exists a, item l i = Ok a /\ b = f a.
Proof.
  unfold item. rewrite nth_error_map. destruct (nth_error l i) as [a|]; cbn; [|discriminate].
  intros E. injection E as <-. exists a. split; reflexivity.
Qed.
Lemma loop_diffs (shp : list (poly F)) l : forall d d', Forall (fun '(_, e) => with_diffs e) d ->
  foldM (fun d '(i, ind) =>
           do a0 <- item shp i ; do a1 <- item (map diff shp) i ;
           do a2 <- item (map diff (map diff shp)) i ; do a3 <- item (map diff (map diff (map diff shp))) i ;
           Ok (dset ind (Entry a0 a1 a2 a3) d)) l d = Ok d' -> Forall (fun '(_, e) => with_diffs e) d'.
Proof.
  induction l as [|[i k] l IH]; intros d d' H E; cbn [foldM] in E; [injection E as <-; exact H|].
  destruct (item shp i) as [a0|] eqn:E0; cbn [bind] in E; [|discriminate].
  destruct (item (map diff shp) i) as [a1|] eqn:E1; cbn [bind] in E; [|discriminate].
  destruct (item (map diff (map diff shp)) i) as [a2|] eqn:E2; cbn [bind] in E; [|discriminate].
  destruct (item (map diff (map diff (map diff shp))) i) as [a3|] eqn:E3; cbn [bind] in E; [|discriminate].
  apply (IH _ _) in E; [exact E|].
  assert (W : with_diffs (Entry a0 a1 a2 a3)).
  { apply item_map_inv in E1, E2, E3. destruct E1 as (b1 & F1 & ->), E2 as (b2 & F2 & ->), E3 as (b3 & F3 & ->).
    apply item_map_inv in F2. destruct F2 as (c2 & F2 & ->).
    apply item_map_inv in F3. destruct F3 as (c3 & F3 & ->). apply item_map_inv in F3. destruct F3 as (c4 & F3 & ->).
    rewrite F1 in E0. rewrite F2 in F1. rewrite F3 in F2. injection E0 as ->. injection F1 as ->. injection F2 as ->.
    repeat split. }
  clear -H W. induction d as [|[k' e'] d IH]; cbn [dset]; [constructor; [exact W|constructor]|].
  inversion H; subst. destruct (k =? k')%Z; constructor; try assumption. apply IH. assumption.
Qed.
Lemma dget_in k (d : dict F) e : dget k d = Some e -> In (k, e) d.
Proof.
  induction d as [|[k' e'] d IH]; cbn [dget]; [discriminate|]. destruct (Z.eqb_spec k k') as [->|N]; intros E.
  - injection E as ->. left. reflexivity.
  - right. exact (IH E).
Qed.
Theorem gen_diffs inv x i n (d : dict F) : gen_Lagrange_1d inv x i n = Ok d ->
  forall k e, dget k d = Some e -> with_diffs e.
Proof.
  unfold gen_Lagrange_1d. intros E k e G.
  destruct (match n with Some _ => _ | None => _ end) as [N|]; cbn [bind] in E; [|discriminate].
  destruct (symbols N) as [c|]; cbn [bind] in E; [|discriminate].
  destruct (mapM _ (seq 0 N)) as [m|]; cbn [bind] in E; [|discriminate].
  destruct (iterable c) as [m'|]; cbn [bind] in E; [|discriminate].
  destruct (mapM _ (seq 0 N)) as [nodes|]; cbn [bind] in E; [|discriminate].
  destruct (inv N (vandermonde nodes)) as [X|]; cbn [bind] in E; [|discriminate].
  apply loop_diffs in E; [|constructor]. rewrite Forall_forall in E. exact (E _ (dget_in k d e G)).
Qed.
End Entries.
Lemma gen_derivatives inv x i n (d : dict R_ofield) : gen_Lagrange_1d inv x i n = Ok d ->
  forall k e, dget k d = Some e -> forall t : R,
    is_derive (value (d0 e) : R -> R) t (value (d1 e) t : R) /\
    is_derive (value (d1 e) : R -> R) t (value (d2 e) t : R) /\
    is_derive (value (d2 e) : R -> R) t (value (d3 e) t : R).
Proof.
  intros E k e G t. destruct (gen_diffs inv x i n d E k e G) as (-> & -> & ->).
  repeat apply conj; apply diff_is_derive.
Qed.
