(** The polynomial bases of the least squares fits. *)
From Coq Require Import Field.
From Verif Require Import Prelude OField Inverse LsModel LsSpec LsProofs.
Local Open Scope nat_scope.

Section Basis.
Context {F : ofield}.
Local Open Scope of_scope.
Add Field FF : (of_field F).

(** The basis functions, and their first and second derivatives by direction. *)
Record family : Type := Family { fam_b : @basis_fn F; fam_d : nat -> @basis_fn F; fam_dd : nat -> nat -> @basis_fn F }.
Definition family_1 (p : @poly1 F) : family :=
  let '(b, bdx, bdxx) := p in Family b (fun _ => bdx) (fun _ _ => bdxx).
Definition family_2 (p : @poly2 F) : family :=
  let '(b, bdx, bdy, bdxx, bdyy, bdxy) := p in
  Family b (fun j => match j with 0%nat => bdx | _ => bdy end)
    (fun j l => match j, l with 0%nat, 0%nat => bdxx | 0%nat, _ => bdxy | _, 0%nat => bdxy | _, _ => bdyy end).
Definition family_3 (p : @poly3 F) : family :=
  let '(b, bdx, bdy, bdz, bdxx, bdyy, bdzz, bdxy, bdxz, bdyz) := p in
  Family b (fun j => match j with 0%nat => bdx | 1%nat => bdy | _ => bdz end)
    (fun j l => match j, l with
                | 0%nat, 0%nat => bdxx | 1%nat, 1%nat => bdyy
                | 0%nat, 1%nat | 1%nat, 0%nat => bdxy
                | 0%nat, _ | _, 0%nat => bdxz
                | 1%nat, _ | _, 1%nat => bdyz
                | _, _ => bdzz
                end).
Definition family_of (deg dim : nat) : option family :=
  match dim with
  | 1%nat => match get_polynomial_1 deg with Ok p => Some (family_1 p) | Err _ => None end
  | 2%nat => match get_polynomial_2 deg with Ok p => Some (family_2 p) | Err _ => None end
  | 3%nat => match get_polynomial_3 deg with Ok p => Some (family_3 p) | Err _ => None end
  | _ => None
  end.

Definition supported (deg dim : nat) : Prop := (deg = 1 \/ deg = 2)%nat /\ (dim = 1 \/ dim = 2 \/ dim = 3)%nat.
Lemma supported_family deg dim : supported deg dim -> exists fam, family_of deg dim = Some fam.
Proof. intros [[->| ->] [->|[->| ->]]]; eexists; reflexivity. Qed.
Lemma family_supported deg dim fam : family_of deg dim = Some fam -> supported deg dim.
Proof.
  destruct dim as [|[|[|[|dim]]]]; cbn [family_of]; try discriminate; destruct deg as [|[|[|deg]]]; cbn;
    try discriminate; intros _; unfold supported; lia.
Qed.

(** The exponents of the basis functions. *)
Definition exps (deg dim : nat) : list (list nat) :=
  match deg, dim with
  | 1%nat, 1%nat => [[0]; [1]]
  | 1%nat, 2%nat => [[0; 0]; [1; 0]; [0; 1]]
  | 1%nat, _ => [[0; 0; 0]; [1; 0; 0]; [0; 1; 0]; [0; 0; 1]]
  | _, 1%nat => [[0]; [1]; [2]]
  | _, 2%nat => [[0; 0]; [1; 0]; [0; 1]; [2; 0]; [0; 2]; [1; 1]]
  | _, _ => [[0; 0; 0]; [1; 0; 0]; [0; 1; 0]; [0; 0; 1]; [2; 0; 0]; [0; 2; 0]; [0; 0; 2]; [1; 1; 0]; [1; 0; 1]; [0; 1; 1]]
  end%nat.
Lemma basis_exps deg dim fam : family_of deg dim = Some fam -> forall x, length x = dim ->
  fam_b fam x = map (fun e => monomial e x) (exps deg dim).
Proof.
  intros E x L. destruct (family_supported deg dim fam E) as [[->| ->] [->|[->| ->]]];
    cbn in E; injection E as <-;
    repeat (destruct x as [|? x]; [discriminate L|]); try (destruct x; [|discriminate L]);
    cbn [fam_b family_1 family_2 family_3 get_poly_1_1 get_poly_1_2 get_poly_1_3 get_poly_2_1 get_poly_2_2 get_poly_2_3 exps map monomial pow coord nth];
    repeat (f_equal; try ring).
Qed.
Lemma exps_in deg dim : supported deg dim -> forall e, length e = dim -> (list_sum e <= deg)%nat -> In e (exps deg dim).
Proof.
  intros [D E] e L S.
  destruct E as [->|[->| ->]].
  - destruct e as [|a [|]]; try discriminate L. cbn [list_sum fold_right] in S.
    destruct D as [->| ->]; destruct a as [|[|[|a]]]; try lia; cbn; tauto.
  - destruct e as [|a [|c [|]]]; try discriminate L. cbn [list_sum fold_right] in S.
    destruct D as [->| ->]; destruct a as [|[|[|a]]]; try lia; destruct c as [|[|[|c]]]; try lia; cbn; tauto.
  - destruct e as [|a [|c [|d [|]]]]; try discriminate L. cbn [list_sum fold_right] in S.
    destruct D as [->| ->]; destruct a as [|[|[|a]]]; try lia; destruct c as [|[|[|c]]]; try lia; destruct d as [|[|[|d]]]; try lia; cbn; tauto.
Qed.
Lemma exps_space deg dim : supported deg dim -> Forall (fun e => length e = dim /\ (list_sum e <= deg)%nat) (exps deg dim).
Proof. intros [[->| ->] [->|[->| ->]]]; cbn; repeat constructor. Qed.
Lemma exps_length deg dim : supported deg dim -> length (exps deg dim) = nbasis deg dim.
Proof. intros [[->| ->] [->|[->| ->]]]; reflexivity. Qed.

(** All the vectors of a family have the length of the matrices. *)
Lemma family_lengths deg dim fam : family_of deg dim = Some fam ->
  forall x, length (fam_b fam x) = nbasis deg dim /\ (forall j, length (fam_d fam j x) = nbasis deg dim) /\
            (forall j l, length (fam_dd fam j l x) = nbasis deg dim).
Proof.
  intros E x. destruct (family_supported deg dim fam E) as [[->| ->] [->|[->| ->]]];
    cbn in E; injection E as <-; (split; [reflexivity|]); split;
    try (intros [|[|j]]; reflexivity); intros [|[|[|j]]] [|[|[|l]]]; reflexivity.
Qed.

(** ** Polynomials and coefficients *)
Definition bvec (fam : family) (x : list F) : vec F := fun r => nth r (fam_b fam x) 0.

Lemma dotk_map (es : list (list nat)) x (c : vec F) :
  sum (length es) (fun r => nth r (map (fun e => monomial e x) es) 0 * c r) = suml (map (fun '(a, e) => a * monomial e x) (combine (map c (seq 0 (length es))) es)).
Proof.
  revert c. induction es as [|e es IH]; intros c; cbn [length seq map combine suml]; [reflexivity|].
  rewrite (sum_S_l F). cbn [nth]. f_equal; [ring|]. rewrite (IH (fun r => c (S r))).
  rewrite <- seq_shift, map_map. reflexivity.
Qed.
Lemma coef_poly deg dim fam (c : vec F) : family_of deg dim = Some fam ->
  exists p, in_space deg dim p /\ forall x, length x = dim -> pval p x = dotk (nbasis deg dim) (bvec fam x) c.
Proof.
  intros E. pose proof (family_supported deg dim fam E) as S.
  exists (combine (map c (seq 0 (length (exps deg dim)))) (exps deg dim)). split.
  - apply Forall_forall. intros [a e] I. apply in_combine_r in I.
    exact (proj1 (Forall_forall _ _) (exps_space deg dim S) e I).
  - intros x L. unfold pval, dotk, bvec. rewrite (basis_exps deg dim fam E x L), <- (exps_length deg dim S). symmetry. apply dotk_map.
Qed.
Lemma poly_coef deg dim fam (p : polynomial F) : family_of deg dim = Some fam -> in_space deg dim p ->
  exists c, forall x, length x = dim -> pval p x = dotk (nbasis deg dim) (bvec fam x) c.
Proof.
  intros E. pose proof (family_supported deg dim fam E) as S.
  induction p as [|[a e] p IH]; intros H.
  - exists (fun _ => 0). intros x _. unfold dotk. symmetry. apply sum_0. intros. ring.
  - inversion H as [|? ? H0 H3]; subst. cbn beta iota in H0. destruct H0 as [H1 H2]. subst dim. destruct (IH H3) as (c & Hc).
    destruct (In_nth _ _ [] (exps_in deg (length e) S e eq_refl H2)) as (s & Hs & Es).
    exists (fun r => (if (r =? s)%nat then a else 0) + c r). intros x L.
    change (pval ((a, e) :: p) x) with (a * monomial e x + pval p x). rewrite (Hc x L). unfold dotk.
    rewrite (sum_ext F _ (fun r => bvec fam x r * ((if (r =? s)%nat then a else 0) + c r))
      (fun r => (if (r =? s)%nat then bvec fam x r * a else 0) + bvec fam x r * c r)) by (intros r _; destruct (r =? s)%nat; ring).
    rewrite sum_add. f_equal. rewrite (sum_delta F) by (rewrite <- (exps_length deg (length e) S); exact Hs).
    unfold bvec. rewrite (basis_exps deg (length e) fam E x L).
    rewrite (nth_indep _ 0 (monomial [] x)) by (rewrite map_length; exact Hs).
    rewrite (map_nth (fun e => monomial e x)), Es. ring.
Qed.

(** The basis functions are independent. *)
Lemma two_nz' : (1 + 1 : F) <> 0. Proof. apply (two_nz F). Qed.
Lemma halve (a c : F) : a + c = 0 -> - a + c = 0 -> a = 0 /\ c = 0.
Proof.
  intros H1 H2. assert (E : (1 + 1) * c = 0) by (transitivity ((a + c) + (- a + c)); [ring|rewrite H1, H2; ring]).
  apply (mul_eq_0 F) in E. destruct E as [E|E]; [exfalso; exact (two_nz' E)|].
  split; [|exact E]. rewrite E in H1. rewrite <- H1. ring.
Qed.
Lemma independent deg dim fam (c : vec F) : family_of deg dim = Some fam ->
  (forall x, length x = dim -> dotk (nbasis deg dim) (bvec fam x) c = 0) -> forall r, (r < nbasis deg dim)%nat -> c r = 0.
Proof.
  intros E H. destruct (family_supported deg dim fam E) as [[->| ->] [->|[->| ->]]]; cbn in E; injection E as <-.
  - pose proof (H [0] eq_refl) as P0. pose proof (H [1] eq_refl) as P1. clear H.
    cbn in P0, P1. assert (C0 : c 0%nat = 0) by (rewrite <- P0; ring).
    assert (C1 : c 1%nat = 0) by (rewrite C0 in P1; rewrite <- P1; ring).
    intros [|[|r]] Hr; [exact C0|exact C1|cbn in Hr; lia].
  - pose proof (H [0; 0] eq_refl) as P0. pose proof (H [1; 0] eq_refl) as P1. pose proof (H [0; 1] eq_refl) as P2. clear H.
    cbn in P0, P1, P2. assert (C0 : c 0%nat = 0) by (rewrite <- P0; ring).
    assert (C1 : c 1%nat = 0) by (rewrite C0 in P1; rewrite <- P1; ring).
    assert (C2 : c 2%nat = 0) by (rewrite C0 in P2; rewrite <- P2; ring).
    intros [|[|[|r]]] Hr; [exact C0|exact C1|exact C2|cbn in Hr; lia].
  - pose proof (H [0; 0; 0] eq_refl) as P0. pose proof (H [1; 0; 0] eq_refl) as P1. pose proof (H [0; 1; 0] eq_refl) as P2.
    pose proof (H [0; 0; 1] eq_refl) as P3. clear H.
    cbn in P0, P1, P2, P3. assert (C0 : c 0%nat = 0) by (rewrite <- P0; ring).
    assert (C1 : c 1%nat = 0) by (rewrite C0 in P1; rewrite <- P1; ring).
    assert (C2 : c 2%nat = 0) by (rewrite C0 in P2; rewrite <- P2; ring).
    assert (C3 : c 3%nat = 0) by (rewrite C0 in P3; rewrite <- P3; ring).
    intros [|[|[|[|r]]]] Hr; [exact C0|exact C1|exact C2|exact C3|cbn in Hr; lia].
  - pose proof (H [0] eq_refl) as P0. pose proof (H [1] eq_refl) as P1. pose proof (H [- (1)] eq_refl) as Q1. clear H.
    cbn in P0, P1, Q1. assert (C0 : c 0%nat = 0) by (rewrite <- P0; ring).
    destruct (halve (c 1%nat) (c 2%nat)) as [C1 C2]; [rewrite C0 in P1; rewrite <- P1; ring|rewrite C0 in Q1; rewrite <- Q1; ring|].
    intros [|[|[|r]]] Hr; [exact C0|exact C1|exact C2|cbn in Hr; lia].
  - pose proof (H [0; 0] eq_refl) as P0. pose proof (H [1; 0] eq_refl) as P1. pose proof (H [- (1); 0] eq_refl) as Q1.
    pose proof (H [0; 1] eq_refl) as P2. pose proof (H [0; - (1)] eq_refl) as Q2. pose proof (H [1; 1] eq_refl) as P5. clear H.
    cbn in P0, P1, Q1, P2, Q2, P5. assert (C0 : c 0%nat = 0) by (rewrite <- P0; ring).
    destruct (halve (c 1%nat) (c 3%nat)) as [C1 C3]; [rewrite C0 in P1; rewrite <- P1; ring|rewrite C0 in Q1; rewrite <- Q1; ring|].
    destruct (halve (c 2%nat) (c 4%nat)) as [C2 C4]; [rewrite C0 in P2; rewrite <- P2; ring|rewrite C0 in Q2; rewrite <- Q2; ring|].
    assert (C5 : c 5%nat = 0) by (rewrite C0, C1, C2, C3, C4 in P5; rewrite <- P5; ring).
    intros [|[|[|[|[|[|r]]]]]] Hr; [exact C0|exact C1|exact C2|exact C3|exact C4|exact C5|cbn in Hr; lia].
  - pose proof (H [0; 0; 0] eq_refl) as P0. pose proof (H [1; 0; 0] eq_refl) as P1. pose proof (H [- (1); 0; 0] eq_refl) as Q1.
    pose proof (H [0; 1; 0] eq_refl) as P2. pose proof (H [0; - (1); 0] eq_refl) as Q2.
    pose proof (H [0; 0; 1] eq_refl) as P3. pose proof (H [0; 0; - (1)] eq_refl) as Q3.
    pose proof (H [1; 1; 0] eq_refl) as P7. pose proof (H [1; 0; 1] eq_refl) as P8. pose proof (H [0; 1; 1] eq_refl) as P9. clear H.
    cbn in P0, P1, Q1, P2, Q2, P3, Q3, P7, P8, P9. assert (C0 : c 0%nat = 0) by (rewrite <- P0; ring).
    destruct (halve (c 1%nat) (c 4%nat)) as [C1 C4]; [rewrite C0 in P1; rewrite <- P1; ring|rewrite C0 in Q1; rewrite <- Q1; ring|].
    destruct (halve (c 2%nat) (c 5%nat)) as [C2 C5]; [rewrite C0 in P2; rewrite <- P2; ring|rewrite C0 in Q2; rewrite <- Q2; ring|].
    destruct (halve (c 3%nat) (c 6%nat)) as [C3 C6]; [rewrite C0 in P3; rewrite <- P3; ring|rewrite C0 in Q3; rewrite <- Q3; ring|].
    assert (C7 : c 7%nat = 0) by (rewrite C0, C1, C2, C4, C5 in P7; rewrite <- P7; ring).
    assert (C8 : c 8%nat = 0) by (rewrite C0, C1, C3, C4, C6 in P8; rewrite <- P8; ring).
    assert (C9 : c 9%nat = 0) by (rewrite C0, C2, C3, C5, C6 in P9; rewrite <- P9; ring).
    intros [|[|[|[|[|[|[|[|[|[|r]]]]]]]]]] Hr; [exact C0|exact C1|exact C2|exact C3|exact C4|exact C5|exact C6|exact C7|exact C8|exact C9|cbn in Hr; lia].
Qed.
End Basis.
Arguments family : clear implicits.
