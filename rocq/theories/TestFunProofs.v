(** Proofs about the test functions (C54). *)
From Coq Require Import Ascii String Reals Lra Psatz.
From Verif Require Import Prelude OField OFieldR FuncModel RelModel FuncSpec FuncProofs FuncCounter TestFunModel TestFunSpec.
Local Open Scope R_scope.

(** The functions as written. *)
Definition f_rosenbrock (a b x y : R) : R := (a - x) * (a - x) + b * ((y - x * x) * (y - x * x)).
Definition f_himmelblau (x y : R) : R :=
  (x * x + y - 11) * (x * x + y - 11) + (x + y * y - 7) * (x + y * y - 7).
Definition f_goldstein (x y : R) : R :=
  (1 + (x + y + 1) * (x + y + 1) * (19 - 14 * x + 3 * (x * x) - 14 * y + 6 * x * y + 3 * (y * y)))
  * (30 + (2 * x - 3 * y) * (2 * x - 3 * y) * (18 - 32 * x + 12 * (x * x) + 48 * y - 36 * x * y + 27 * (y * y))).
Definition f_beale (x y : R) : R :=
  (1.5 - x + x * y) * (1.5 - x + x * y) + (2.25 - x + x * (y * y)) * (2.25 - x + x * (y * y))
  + (2.625 - x + x * (y * y * y)) * (2.625 - x + x * (y * y * y)).
Definition f_matyas (x y : R) : R := 0.26 * (x * x + y * y) - 0.48 * x * y.

Section TestFun.
Variables (S : sympy RF) (I : interp RF).
Hypothesis (H : sympy_ok S I) (P : powers I).

Lemma pow2 (v w : R) : w = 2 -> ipow I v w = v * v.
Proof. intros ->. apply P. Qed.
Lemma pow3 (v w : R) : w = 3 -> ipow I v w = v * v * v.
Proof. intros ->. apply P. Qed.

Ltac parse :=
  eexists; split;
  [cbv -[IZR Rplus Rmult Rdiv Ropp Rminus Rinv R_leb]; reflexivity
  |split;
   [let t := fresh in let K := fresh in
    intros t; cbn [free app]; split;
    [intros K; repeat (destruct K as [<-|K]; [first [left; reflexivity|right; reflexivity]|]); destruct K
    |intros [->| ->]; cbn [In]; repeat (first [left; reflexivity|right])]
   |let env := fresh "env" in
    intros env; cbn [eval]; cbn [car zero one add mul sub opp div inv R_ofield];
    change (@pair (list ascii) nat ["x"%char] 0%nat) with vx; change (@pair (list ascii) nat ["y"%char] 0%nat) with vy;
    generalize (env vx); generalize (env vy); intros y x;
    repeat first [rewrite (pow2 _ (_ + _)%R) by lra | rewrite (pow3 _ (_ + _)%R) by lra]]].

Definition gives (s : string) (f : R -> R -> R) : Prop :=
  exists e, parse_text (F := RF) (tx s) = Some e /\
   (forall t, In t (free e) <-> (t = vx \/ t = vy)) /\ forall env, eval I env e = f (env vx) (env vy).

Lemma matyas_expr : gives "0.26*(x**2 + y**2) - 0.48*x*y" f_matyas.
Proof. parse. unfold f_matyas. nra. Qed.
Lemma himmelblau_expr : gives "(x**2 + y - 11)**2 + (x + y**2 - 7)**2" f_himmelblau.
Proof. parse. unfold f_himmelblau. ring. Qed.
Lemma beale_expr : gives "(1.5 - x + x*y)**2 + (2.25 - x + x*y**2)**2 + (2.625 - x + x*y**3)**2" f_beale.
Proof. parse. unfold f_beale. lra. Qed.
Lemma goldstein_expr : gives
  "(1+(x+y+1)**2 * (19-14*x+3*x**2-14*y+6*x*y+3*y**2))*(30+(2*x-3*y)**2 * (18-32*x+12*x**2+48*y-36*x*y+27*y**2))" f_goldstein.
Proof. parse. unfold f_goldstein. ring. Qed.

Lemma two_symbols l : NoDup l -> (forall t, In t l <-> (t = vx \/ t = vy)) -> l = [vx; vy] \/ l = [vy; vx].
Proof.
  intros N E. assert (Ix : In vx l) by (apply E; auto). assert (Iy : In vy l) by (apply E; auto).
  assert (L : (length l <= 2)%nat).
  { apply (NoDup_incl_length N (l' := [vx; vy])). intros t Ht. apply E in Ht. destruct Ht as [->| ->]; cbn; auto. }
  destruct l as [|a [|b [|c l]]]; cbn in L; [destruct Ix| | |lia].
  - destruct Ix as [->|[]]. destruct Iy as [Iy|[]]. discriminate.
  - destruct (proj1 (E a) (or_introl eq_refl)) as [->| ->], (proj1 (E b) (or_intror (or_introl eq_refl))) as [->| ->]; auto;
      inversion N as [|? ? N1 _]; destruct N1; left; reflexivity.
Qed.

Lemma symbolic_value e g f : (forall t, In t (free e) <-> (t = vx \/ t = vy)) -> (forall env, eval I env e = g (env vx) (env vy)) ->
  mk_symbolic S false e None = Ok f ->
  (fvars f = [vx; vy] /\ forall u v : R, call I f [u; v] = Ok (g u v)) \/
  (fvars f = [vy; vx] /\ forall u v : R, call I f [u; v] = Ok (g v u)).
Proof.
  intros Fr Ev E. cbn in E. injection E as <-. cbn [fvars].
  assert (D : forall vars u v, vars = [vx; vy] \/ vars = [vy; vx] ->
     call I (Symbolic (simp S e) vars false) [u; v] = Ok (g (env_of vars [u; v] vx) (env_of vars [u; v] vy))).
  { intros vars u v V. cbn [call]. replace (length [u; v] =? length vars)%nat with true by (destruct V as [->| ->]; reflexivity).
    cbn [negb]. rewrite (proj2 (forallb_forall _ _)).
    - cbn [negb]. rewrite (simp_eval S I H), Ev. reflexivity.
    - intros s Hs. apply (simp_free S I H) in Hs. apply Fr in Hs. destruct V as [->| ->], Hs as [->| ->]; reflexivity. }
  destruct (two_symbols (fsyms S e) (fsyms_nodup S I H e)) as [V|V].
  { intros t. rewrite (fsyms_in S I H). apply Fr. }
  - left. split; [exact V|]. intros u v. rewrite D by (left; exact V). rewrite V. reflexivity.
  - right. split; [exact V|]. intros u v. rewrite D by (right; exact V). rewrite V. reflexivity.
Qed.

Lemma test_value s g f : gives s g -> test_function S s = Ok f ->
  (fvars f = [vx; vy] /\ forall u v : R, call I f [u; v] = Ok (g u v)) \/
  (fvars f = [vy; vx] /\ forall u v : R, call I f [u; v] = Ok (g v u)).
Proof.
  intros (e & E1 & Fr & Ev) T. unfold test_function in T. rewrite E1 in T. exact (symbolic_value e g f Fr Ev T).
Qed.

Lemma rosenbrock_expr a b : exists e0 e, parse_text (F := RF) (tx "(a-x)**2 + b*(y-x**2)**2") = Some e0 /\
  e = substitute S e0 [ENum (a : RF); ENum (b : RF)] (Some [VStr (tx "a"); VStr (tx "b")]) false /\
  (forall t, In t (free e) <-> (t = vx \/ t = vy)) /\ forall env, eval I env e = f_rosenbrock a b (env vx) (env vy).
Proof.
  eexists _, _. split; [cbv -[IZR Rplus Rmult Rdiv Ropp Rminus Rinv R_leb]; reflexivity|]. split; [reflexivity|]. split.
  - intros t. cbv -[IZR Rplus Rmult Rdiv Ropp Rminus Rinv R_leb In iff]. split.
    + intros K. repeat (destruct K as [<-|K]; [first [left; reflexivity|right; reflexivity]|]). destruct K.
    + intros [->| ->]; cbn [In]; repeat (first [left; reflexivity|right]).
  - intros env. cbn -[vx vy].
    change (@pair (list ascii) nat ["x"%char] 0%nat) with vx; change (@pair (list ascii) nat ["y"%char] 0%nat) with vy.
    generalize (env vx); generalize (env vy); intros y x.
    repeat (rewrite (pow2 _ (_ + _)%R) by lra). unfold f_rosenbrock. ring.
Qed.
Lemma rosenbrock_value a b f : rosenbrock S a b = Ok f ->
  (fvars f = [vx; vy] /\ forall u v : R, call I f [u; v] = Ok (f_rosenbrock a b u v)) \/
  (fvars f = [vy; vx] /\ forall u v : R, call I f [u; v] = Ok (f_rosenbrock a b v u)).
Proof.
  destruct (rosenbrock_expr a b) as (e0 & e & E0 & E & Fr & Ev). unfold rosenbrock. rewrite E0, <- E.
  apply (symbolic_value e _ f Fr Ev).
Qed.

Lemma test_ok s g : gives s g -> exists f, test_function S s = Ok f.
Proof. intros (e & E & _). unfold test_function. rewrite E. cbn. eexists. reflexivity. Qed.

End TestFun.

(** ** The functions themselves *)
Lemma rosenbrock_min a b x y : 0 < b -> f_rosenbrock a b x y >= 0 /\ (f_rosenbrock a b x y = 0 <-> x = a /\ y = a * a).
Proof.
  intros B. unfold f_rosenbrock. assert (K := Rle_0_sqr (a - x)). assert (K' := Rle_0_sqr (y - x * x)). unfold Rsqr in *.
  assert (0 <= b * ((y - x * x) * (y - x * x))) by (apply Rmult_le_pos; lra). split; [lra|]. split.
  - intros E. assert (E1 : (a - x) * (a - x) = 0) by lra. assert (E2 : b * ((y - x * x) * (y - x * x)) = 0) by lra.
    apply Rmult_integral in E2. destruct E2 as [E2|E2]; [lra|]. apply Rsqr_0_uniq in E1. apply Rsqr_0_uniq in E2.
    assert (x = a) by lra. subst x. split; [reflexivity|lra].
  - intros [-> ->]. ring.
Qed.
Lemma himmelblau_min x y : f_himmelblau x y >= 0.
Proof. unfold f_himmelblau. assert (K := Rle_0_sqr (x * x + y - 11)). assert (K' := Rle_0_sqr (x + y * y - 7)). unfold Rsqr in *. lra. Qed.
Lemma himmelblau_at : f_himmelblau 3 2 = 0.
Proof. unfold f_himmelblau. lra. Qed.
Lemma himmelblau_near : forall x y, In (x, y) himmelblau_optimums -> f_himmelblau x y < 1 / 10 ^ 9 /\ (f_himmelblau x y = 0 -> (x, y) = (3, 2)).
Proof.
  intros x y [E|[E|[E|[E|[]]]]]; injection E as <- <-; (split; [unfold f_himmelblau; lra|]); intros Z; [reflexivity|exfalso..];
    unfold f_himmelblau in Z; lra.
Qed.
Lemma beale_min x y : f_beale x y >= 0.
Proof.
  unfold f_beale. assert (K1 := Rle_0_sqr (1.5 - x + x * y)). assert (K2 := Rle_0_sqr (2.25 - x + x * (y * y))).
  assert (K3 := Rle_0_sqr (2.625 - x + x * (y * y * y))). unfold Rsqr in *. lra.
Qed.
Lemma beale_zero x y : f_beale x y = 0 <-> x = 3 /\ y = 0.5.
Proof.
  split; [|intros [-> ->]; unfold f_beale; lra].
  unfold f_beale. intros E. assert (K1 := Rle_0_sqr (1.5 - x + x * y)). assert (K2 := Rle_0_sqr (2.25 - x + x * (y * y))).
  assert (K3 := Rle_0_sqr (2.625 - x + x * (y * y * y))). 
  assert (Z1 : Rsqr (1.5 - x + x * y) = 0) by (unfold Rsqr in *; lra).
  assert (Z2 : Rsqr (2.25 - x + x * (y * y)) = 0) by (unfold Rsqr in *; lra).
  apply Rsqr_0_uniq in Z1. apply Rsqr_0_uniq in Z2.
  (* x (1 - y) = 1.5 and x (1 - y^2) = 2.25, so 1 + y = 1.5 *)
  assert (A : x * (1 - y) = 1.5) by lra. assert (B : x * (1 - y) * (1 + y) = 2.25) by lra. rewrite A in B.
  assert (y = 0.5) by lra. subst y. split; lra.
Qed.
Lemma matyas_sum x y : f_matyas x y = 0.02 * (x * x + y * y) + 0.24 * ((x - y) * (x - y)).
Proof. unfold f_matyas. lra. Qed.
Lemma matyas_min x y : f_matyas x y >= 0 /\ (f_matyas x y = 0 <-> x = 0 /\ y = 0).
Proof.
  rewrite matyas_sum. assert (K1 := Rle_0_sqr x). assert (K2 := Rle_0_sqr y). assert (K3 := Rle_0_sqr (x - y)). unfold Rsqr in *.
  split; [lra|]. split; [|intros [-> ->]; ring]. intros E. split; apply Rsqr_0_uniq; unfold Rsqr; lra.
Qed.
Lemma goldstein_min x y : f_goldstein x y >= 3 /\ (f_goldstein x y = 3 <-> x = 0 /\ y = -1).
Proof.
  set (s := x + y). set (t := 2 * x - 3 * y).
  assert (E : f_goldstein x y = (1 + (s + 1) * (s + 1) * (3 * (s * s) - 14 * s + 19)) * (3 + (t - 3) * (t - 3) * (3 * (t * t) + 2 * t + 3))).
  { unfold f_goldstein, s, t. ring. }
  assert (A : 3 * (s * s) - 14 * s + 19 > 0) by (assert (K := Rle_0_sqr (s - 7 / 3)); unfold Rsqr in K; lra).
  assert (B : 3 * (t * t) + 2 * t + 3 > 0) by (assert (K := Rle_0_sqr (t + 1 / 3)); unfold Rsqr in K; lra).
  assert (KA := Rle_0_sqr (s + 1)). assert (KB := Rle_0_sqr (t - 3)). unfold Rsqr in *.
  set (p := (s + 1) * (s + 1)) in *. set (q := (t - 3) * (t - 3)) in *.
  assert (A' : 0 <= p * (3 * (s * s) - 14 * s + 19)) by (apply Rmult_le_pos; lra).
  assert (B' : 0 <= q * (3 * (t * t) + 2 * t + 3)) by (apply Rmult_le_pos; lra).
  set (u := p * (3 * (s * s) - 14 * s + 19)) in *. set (v := q * (3 * (t * t) + 2 * t + 3)) in *.
  assert (UV := Rmult_le_pos u v A' B').
  assert (E' : f_goldstein x y = 3 + v + 3 * u + u * v) by (rewrite E; ring). rewrite E'. split; [lra|]. split.
  - intros Z. assert (Zu : u = 0) by lra. assert (Zv : v = 0) by lra.
    apply Rmult_integral in Zu. apply Rmult_integral in Zv.
    assert (p = 0) by lra. assert (q = 0) by lra.
    assert (s + 1 = 0) by (apply Rsqr_0_uniq; assumption). assert (t - 3 = 0) by (apply Rsqr_0_uniq; assumption).
    unfold s, t in *. lra.
  - intros [-> ->]. unfold u, v, p, q, s, t. lra.
Qed.

(** ** The other order *)
Definition backwards : sympy RF := Sympy (fun e => e) (fun e => rev (distinct (free e))).
Lemma backwards_ok I : sympy_ok backwards I.
Proof.
  split; cbn; auto; intros.
  - apply NoDup_rev. apply distinct_nodup.
  - rewrite <- in_rev. apply distinct_in.
Qed.

Section Final.
Variables (S : sympy RF) (I : interp RF).
Hypothesis (H : sympy_ok S I) (P : powers I).

Lemma minimum_of g f x y v :
  (fvars f = [vx; vy] /\ forall a b : R, call I f [a; b] = Ok (g a b)) -> g x y = v ->
  (forall a b, g a b >= v /\ (g a b = v -> a = x /\ b = y)) -> unique_minimum I f x y v.
Proof.
  intros [_ C] E G. split; [rewrite C, E; reflexivity|]. intros a b. exists (g a b). split; [apply C|].
  destruct (G a b) as [G1 G2]. split; [lra|exact G2].
Qed.
Lemma matyas_ok f : matyas S = Ok f -> unique_minimum I f 0 0 0.
Proof.
  intros E. destruct (test_value S I H _ _ f (matyas_expr I P) E) as [[_ C]|[_ C]]; (split; [rewrite C; f_equal; apply matyas_min; auto|]).
  - intros a b. eexists. split; [apply C|]. destruct (matyas_min a b) as [M1 M2]. split; [lra|]. apply M2.
  - intros a b. eexists. split; [apply C|]. destruct (matyas_min b a) as [M1 M2]. split; [lra|]. intros Z. apply M2 in Z. tauto.
Qed.
Lemma rosenbrock_ok b f : 0 < b -> rosenbrock S 1 b = Ok f -> unique_minimum I f 1 1 0.
Proof.
  intros B E. destruct (rosenbrock_value S I H P 1 b f E) as [[_ C]|[_ C]]; (split; [rewrite C; f_equal; apply rosenbrock_min; [exact B|lra]|]).
  - intros u v. eexists. split; [apply C|]. destruct (rosenbrock_min 1 b u v B) as [M1 M2]. split; [lra|]. intros Z. apply M2 in Z. lra.
  - intros u v. eexists. split; [apply C|]. destruct (rosenbrock_min 1 b v u B) as [M1 M2]. split; [lra|]. intros Z. apply M2 in Z. lra.
Qed.
Lemma rosenbrock_general a b f : 0 < b -> rosenbrock S a b = Ok f -> fvars f = [vx; vy] -> unique_minimum I f a (a * a) 0.
Proof.
  intros B E V. destruct (rosenbrock_value S I H P a b f E) as [C|[V' _]]; [|rewrite V in V'; discriminate].
  apply (minimum_of _ f _ _ _ C); [apply rosenbrock_min; auto|].
  intros u v. destruct (rosenbrock_min a b u v B) as [M1 M2]. split; [lra|]. apply M2.
Qed.
Lemma rosenbrock_not a b f v : 0 < b -> a <> 1 -> rosenbrock S a b = Ok f -> call I f [1; 1] = Ok v -> v > 0.
Proof.
  intros B A E. assert (f_rosenbrock a b 1 1 > 0).
  { destruct (rosenbrock_min a b 1 1 B) as [M1 M2]. destruct (Req_dec (f_rosenbrock a b 1 1) 0) as [Z|Z]; [|lra]. apply M2 in Z. lra. }
  destruct (rosenbrock_value S I H P a b f E) as [[_ C]|[_ C]]; rewrite C; intros K; injection K as <-; assumption.
Qed.
Lemma goldstein_ok f : goldstein_price S = Ok f -> fvars f = [vx; vy] -> unique_minimum I f 0 (-1) 3.
Proof.
  intros E V. destruct (test_value S I H _ _ f (goldstein_expr I P) E) as [C|[V' _]]; [|rewrite V in V'; discriminate].
  apply (minimum_of _ f _ _ _ C); [apply goldstein_min; auto|].
  intros u v. destruct (goldstein_min u v) as [M1 M2]. split; [lra|]. apply M2.
Qed.
Lemma beale_ok f : beale S = Ok f -> fvars f = [vx; vy] -> unique_minimum I f 3 0.5 0.
Proof.
  intros E V. destruct (test_value S I H _ _ f (beale_expr I P) E) as [C|[V' _]]; [|rewrite V in V'; discriminate].
  apply (minimum_of _ f _ _ _ C); [apply beale_zero; auto|].
  intros u v. split; [apply beale_min|apply beale_zero].
Qed.
Lemma himmelblau_ok f : himmelblau S = Ok f -> fvars f = [vx; vy] ->
  minimum I f 3 2 0 /\
  forall x y, In (x, y) himmelblau_optimums -> exists v, call I f [x; y] = Ok v /\ 0 <= v < 1 / 10 ^ 9 /\ (v = 0 -> (x, y) = (3, 2)).
Proof.
  intros E V. destruct (test_value S I H _ _ f (himmelblau_expr I P) E) as [[_ C]|[V' _]]; [|rewrite V in V'; discriminate].
  split.
  - split; [rewrite C, himmelblau_at; reflexivity|]. intros x y. eexists. split; [apply C|]. pose proof (himmelblau_min x y). lra.
  - intros x y Hin. eexists. split; [apply C|]. destruct (himmelblau_near x y Hin) as [A B]. pose proof (himmelblau_min x y). split; [lra|exact B].
Qed.
End Final.

Lemma backwards_order s g (I : interp RF) (P : powers I) f :
  (exists e, parse_text (F := RF) (tx s) = Some e /\ distinct (free e) = [vx; vy]) -> gives I s g ->
  test_function backwards s = Ok f -> forall u v, call I f [u; v] = Ok (g v u).
Proof.
  intros (e & Ep & Ed) G T. destruct (test_value backwards I (backwards_ok I) s g f G T) as [[V _]|[_ C]]; [|exact C].
  unfold test_function in T. rewrite Ep in T. cbn in T. injection T as <-. cbn in V. rewrite Ed in V. discriminate.
Qed.
