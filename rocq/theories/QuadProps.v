(** Property C53: the tensor product Gauss rules. *)
Set Warnings "-ambiguous-paths".
From Coq Require Import QArith Qcanon Reals Lra.
From Coquelicot Require Import Coquelicot.
From Verif Require Import Prelude OField OFieldR QuadModel QuadSpec QuadProofs.

(** The tables in row-major order, and the rule as an iterated 1d rule. *)
Theorem C53_two_dimensions :
  forall (F : ofield) (leg : Z -> result (table F)), leggauss_ok leg ->
  forall n1 n2, (0 < n1)%Z -> (0 < n2)%Z ->
  exists x1 w1 x2 w2 pos w, leg n1 = Ok (x1, w1) /\ leg n2 = Ok (x2, w2) /\
  gauss_points leg [n1; n2] = Ok (Qn pos w) /\
  length pos = Z.to_nat (n1 * n2) /\ length w = Z.to_nat (n1 * n2) /\
  (forall i j, (i < Z.to_nat n1)%nat -> (j < Z.to_nat n2)%nat ->
     nth (i * Z.to_nat n2 + j) pos [] = [nth i x1 zero; nth j x2 zero] /\
     nth (i * Z.to_nat n2 + j) w zero = mul (nth i w1 zero) (nth j w2 zero)) /\
  (forall f, rule pos w f = rule1 x1 w1 (fun x => rule1 x2 w2 (fun y => f [x; y]))).
Proof. exact @tables_2d. Qed.
Print Assumptions C53_two_dimensions.

Theorem C53_three_dimensions :
  forall (F : ofield) (leg : Z -> result (table F)), leggauss_ok leg ->
  forall n1 n2 n3, (0 < n1)%Z -> (0 < n2)%Z -> (0 < n3)%Z ->
  exists x1 w1 x2 w2 x3 w3 pos w, leg n1 = Ok (x1, w1) /\ leg n2 = Ok (x2, w2) /\ leg n3 = Ok (x3, w3) /\
  gauss_points leg [n1; n2; n3] = Ok (Qn pos w) /\
  length pos = Z.to_nat (n1 * n2 * n3) /\ length w = Z.to_nat (n1 * n2 * n3) /\
  (forall i j k, (i < Z.to_nat n1)%nat -> (j < Z.to_nat n2)%nat -> (k < Z.to_nat n3)%nat ->
     nth ((i * Z.to_nat n2 + j) * Z.to_nat n3 + k) pos [] = [nth i x1 zero; nth j x2 zero; nth k x3 zero] /\
     nth ((i * Z.to_nat n2 + j) * Z.to_nat n3 + k) w zero = mul (mul (nth i w1 zero) (nth j w2 zero)) (nth k w3 zero)) /\
  (forall f, rule pos w f = rule1 x1 w1 (fun x => rule1 x2 w2 (fun y => rule1 x3 w3 (fun z => f [x; y; z])))).
Proof. exact @tables_3d. Qed.
Print Assumptions C53_three_dimensions.

(** One dimension: the table of leggauss itself. *)
Theorem C53_one_dimension :
  forall (F : ofield) (leg : Z -> result (table F)), leggauss_ok leg ->
  forall n x w, (0 < n)%Z -> leg n = Ok (x, w) -> gauss_points leg [n] = Ok (Q1 (x, w)).
Proof. intros F leg H n x w P E. cbn [gauss_points]. rewrite (points_1d leg H n x w P E). reflexivity. Qed.
Print Assumptions C53_one_dimension.

(** Everything else is rejected. *)
Theorem C53_rejected :
  forall (F : ofield) (leg : Z -> result (table F)), leggauss_ok leg ->
  forall args,
  (length args = 0%nat \/ (3 < length args)%nat -> gauss_points leg args = Err NotImplementedError) /\
  ((1 <= length args <= 3)%nat -> (exists n, In n args /\ (n <= 0)%Z) -> gauss_points leg args = Err ValueError).
Proof. exact @rejected. Qed.
Print Assumptions C53_rejected.

(** The rule on a product of functions is the product of the rules. *)
Theorem C53_products_2d :
  forall (F : ofield) (leg : Z -> result (table F)), leggauss_ok leg ->
  forall n1 n2 x1 w1 x2 w2 pos w, (0 < n1)%Z -> (0 < n2)%Z ->
  leg n1 = Ok (x1, w1) -> leg n2 = Ok (x2, w2) -> gauss_points leg [n1; n2] = Ok (Qn pos w) ->
  forall f g, rule pos w (fun p => mul (f (nth 0 p zero)) (g (nth 1 p zero))) = mul (rule1 x1 w1 f) (rule1 x2 w2 g).
Proof.
  intros F leg H n1 n2 x1 w1 x2 w2 pos w P1 P2 E1 E2 E f g.
  destruct (tables_2d leg H n1 n2 P1 P2) as (x1' & w1' & x2' & w2' & pos' & w' & E1' & E2' & E' & _ & _ & _ & R).
  rewrite E1 in E1'. rewrite E2 in E2'. rewrite E in E'.
  injection E1' as <- <-. injection E2' as <- <-. injection E' as <- <-.
  rewrite R. exact (rule1_product2 x1 w1 x2 w2 f g).
Qed.
Print Assumptions C53_products_2d.
Theorem C53_products_3d :
  forall (F : ofield) (leg : Z -> result (table F)), leggauss_ok leg ->
  forall n1 n2 n3 x1 w1 x2 w2 x3 w3 pos w, (0 < n1)%Z -> (0 < n2)%Z -> (0 < n3)%Z ->
  leg n1 = Ok (x1, w1) -> leg n2 = Ok (x2, w2) -> leg n3 = Ok (x3, w3) -> gauss_points leg [n1; n2; n3] = Ok (Qn pos w) ->
  forall f g h, rule pos w (fun p => mul (mul (f (nth 0 p zero)) (g (nth 1 p zero))) (h (nth 2 p zero)))
    = mul (mul (rule1 x1 w1 f) (rule1 x2 w2 g)) (rule1 x3 w3 h).
Proof.
  intros F leg H n1 n2 n3 x1 w1 x2 w2 x3 w3 pos w P1 P2 P3 E1 E2 E3 E f g h.
  destruct (tables_3d leg H n1 n2 n3 P1 P2 P3) as (x1' & w1' & x2' & w2' & x3' & w3' & pos' & w' & E1' & E2' & E3' & E' & _ & _ & _ & R).
  rewrite E1 in E1'. rewrite E2 in E2'. rewrite E3 in E3'. rewrite E in E'.
  injection E1' as <- <-. injection E2' as <- <-. injection E3' as <- <-. injection E' as <- <-.
  rewrite R. exact (rule1_product3 x1 w1 x2 w2 x3 w3 f g h).
Qed.
Print Assumptions C53_products_3d.

(** If the 1d rules integrate the polynomials of degree d1, d2 (and d3) exactly, the
    product rule integrates every polynomial of these degrees in its variables:
    its value is the iterated integral over the square (cube). *)
Theorem C53_exact_2d :
  forall leg, leggauss_ok (F := R_ofield) leg ->
  forall n1 n2 x1 w1 x2 w2 pos w d1 d2, (0 < n1)%Z -> (0 < n2)%Z ->
  leg n1 = Ok (x1, w1) -> leg n2 = Ok (x2, w2) -> exact1 x1 w1 d1 -> exact1 x2 w2 d2 ->
  gauss_points leg [n1; n2] = Ok (Qn pos w) ->
  forall c, exists inner : R -> R,
  (forall x, is_RInt (fun y => @poly2 R_ofield d1 d2 c x y) (-1) 1 (inner x)) /\
  is_RInt inner (-1) 1 (@rule R_ofield pos w (fun p => @poly2 R_ofield d1 d2 c (nth 0 p R0) (nth 1 p R0))).
Proof.
  intros leg H n1 n2 x1 w1 x2 w2 pos w d1 d2 P1 P2 E1 E2 X1 X2 E c.
  destruct (tables_2d leg H n1 n2 P1 P2) as (x1' & w1' & x2' & w2' & pos' & w' & E1' & E2' & E' & _ & _ & _ & R).
  rewrite E1 in E1'. rewrite E2 in E2'. rewrite E in E'.
  injection E1' as <- <-. injection E2' as <- <-. injection E' as <- <-.
  rewrite R. exact (exact_2d x1 w1 x2 w2 d1 d2 c X1 X2).
Qed.
Print Assumptions C53_exact_2d.
Theorem C53_exact_3d :
  forall leg, leggauss_ok (F := R_ofield) leg ->
  forall n1 n2 n3 x1 w1 x2 w2 x3 w3 pos w d1 d2 d3, (0 < n1)%Z -> (0 < n2)%Z -> (0 < n3)%Z ->
  leg n1 = Ok (x1, w1) -> leg n2 = Ok (x2, w2) -> leg n3 = Ok (x3, w3) ->
  exact1 x1 w1 d1 -> exact1 x2 w2 d2 -> exact1 x3 w3 d3 ->
  gauss_points leg [n1; n2; n3] = Ok (Qn pos w) ->
  forall c, exists (inner2 : R -> R -> R) (inner1 : R -> R),
  (forall x y, is_RInt (fun z => @poly3 R_ofield d1 d2 d3 c x y z) (-1) 1 (inner2 x y)) /\
  (forall x, is_RInt (fun y => inner2 x y) (-1) 1 (inner1 x)) /\
  is_RInt inner1 (-1) 1
    (@rule R_ofield pos w (fun p => @poly3 R_ofield d1 d2 d3 c (nth 0 p R0) (nth 1 p R0) (nth 2 p R0))).
Proof.
  intros leg H n1 n2 n3 x1 w1 x2 w2 x3 w3 pos w d1 d2 d3 P1 P2 P3 E1 E2 E3 X1 X2 X3 E c.
  destruct (tables_3d leg H n1 n2 n3 P1 P2 P3) as (x1' & w1' & x2' & w2' & x3' & w3' & pos' & w' & E1' & E2' & E3' & E' & _ & _ & _ & R).
  rewrite E1 in E1'. rewrite E2 in E2'. rewrite E3 in E3'. rewrite E in E'.
  injection E1' as <- <-. injection E2' as <- <-. injection E3' as <- <-. injection E' as <- <-.
  rewrite R. exact (exact_3d x1 w1 x2 w2 x3 w3 d1 d2 d3 c X1 X2 X3).
Qed.
Print Assumptions C53_exact_3d.

(** ** The hypotheses are met *)

(** An oracle that keeps the promise of leggauss, and the table it leads to. *)
Definition sample_leg (n : Z) : result (table Qc_ofield) :=
  if (0 <? n)%Z
  then Ok (map (fun i => @of_nat Qc_ofield i) (seq 1 (Z.to_nat n)), map (fun i => @of_nat Qc_ofield (10 * i)) (seq 1 (Z.to_nat n)))
  else Err ValueError.
Example C53_oracle : leggauss_ok sample_leg.
Proof.
  intros n. unfold sample_leg. destruct (0 <? n)%Z; [|reflexivity].
  do 2 eexists. split; [reflexivity|]. rewrite !map_length, !seq_length. split; reflexivity.
Qed.
Example C53_table :
  match gauss_points sample_leg [2; 3]%Z with
  | Ok (Qn pos w) => (map (map this) pos, map this w)
  | _ => ([], [])
  end = ([[1; 1]; [1; 2]; [1; 3]; [2; 1]; [2; 2]; [2; 3]], [100; 200; 300; 200; 400; 600])%Q.
Proof. vm_compute. reflexivity. Qed.

(** The Gauss-Legendre rule with two points is exact for cubic polynomials. *)
Example C53_exactness : exact1 [- / sqrt 3; / sqrt 3]%R [1; 1]%R 3.
Proof.
  intros c. set (F := fun x : R => (c 0%nat * x + c 1%nat * x ^ 2 / 2 + c 2%nat * x ^ 3 / 3 + c 3%nat * x ^ 4 / 4)%R).
  assert (E : @rule1 R_ofield [- / sqrt 3; / sqrt 3]%R [1; 1]%R (@poly1 R_ofield 3 c) = minus (F 1%R) (F (-1)%R)).
  { unfold F, minus, plus, opp, rule1, poly1. cbn [length sum nth pow]. cbn -[sqrt].
    assert (S : (/ sqrt 3 * / sqrt 3 = / 3)%R).
    { rewrite <- Rinv_mult. rewrite sqrt_sqrt by lra. reflexivity. }
    set (s := (/ sqrt 3)%R) in *. replace (/ 3)%R with (1 / 3)%R in S by lra.
    transitivity (2 * c 0%nat + 2 * c 2%nat * (s * s))%R; [ring|]. rewrite S. field. }
  rewrite E. apply (is_RInt_derive F).
  - intros x _. unfold F. auto_derive; [exact I|].
    unfold poly1. cbn [sum pow]. cbn. field.
  - intros x _. apply (ex_derive_continuous (V := R_NormedModule)).
    unfold poly1. cbn [sum pow]. cbn. auto_derive. exact I.
Qed.
