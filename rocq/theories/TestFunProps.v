(** Property C54: the test functions and their recorded optima. *)
From Coq Require Import Ascii String Reals Lra.
From Verif Require Import Prelude OField OFieldR FuncModel RelModel FuncSpec FuncProofs FuncCounter TestFunModel TestFunSpec TestFunProofs.
Local Open Scope R_scope.

(** Matyas, and Rosenbrock with a = 1: the recorded point is the only minimum, in
    whatever order SymPy lists the variables. *)
Theorem C54_matyas :
  forall S I f, sympy_ok S I -> powers I -> matyas S = Ok f ->
  forall x y, In (x, y) matyas_optimums -> unique_minimum I f x y 0.
Proof. intros S I f H P E x y [K|[]]. injection K as <- <-. exact (matyas_ok S I H P f E). Qed.
Print Assumptions C54_matyas.

Theorem C54_rosenbrock_partial :
  forall S I b f, sympy_ok S I -> powers I -> 0 < b -> rosenbrock S 1 b = Ok f ->
  forall x y, In (x, y) rosenbrock_optimums -> unique_minimum I f x y 0.
Proof. intros S I b f H P B E x y [K|[]]. injection K as <- <-. exact (rosenbrock_ok S I H P b f B E). Qed.
Print Assumptions C54_rosenbrock_partial.

(** For other a the minimum is (a, a^2), and the recorded point is not a minimum. *)
Theorem C54_rosenbrock_other_minimum_partial :
  forall S I a b f, sympy_ok S I -> powers I -> 0 < b -> rosenbrock S a b = Ok f -> fvars f = [vx; vy] ->
  unique_minimum I f a (a * a) 0.
Proof. intros S I a b f H P B E V. exact (rosenbrock_general S I H P a b f B E V). Qed.
Print Assumptions C54_rosenbrock_other_minimum_partial.
Theorem C54_rosenbrock_refuted :
  forall S I a b f, sympy_ok S I -> powers I -> 0 < b -> a <> 1 -> rosenbrock S a b = Ok f -> fvars f = [vx; vy] ->
  exists x y, In (x, y) rosenbrock_optimums /\ forall v, ~ minimum I f x y v.
Proof.
  intros S I a b f H P B A E V. exists 1, 1. split; [left; reflexivity|]. intros v [M1 M2].
  pose proof (rosenbrock_not S I H P a b f v B A E M1) as Pv.
  destruct (rosenbrock_general S I H P a b f B E V) as [Z _].
  destruct (M2 a (a * a)) as (w & Ew & Lw). rewrite Z in Ew. injection Ew as <-. lra.
Qed.
Print Assumptions C54_rosenbrock_refuted.

(** Goldstein-Price and Beale: right if SymPy lists the variables as (x, y). *)
Theorem C54_goldstein_price_partial :
  forall S I f, sympy_ok S I -> powers I -> goldstein_price S = Ok f -> fvars f = [vx; vy] ->
  forall x y, In (x, y) goldstein_price_optimums -> unique_minimum I f x y 3.
Proof. intros S I f H P E V x y [K|[]]. injection K as <- <-. exact (goldstein_ok S I H P f E V). Qed.
Print Assumptions C54_goldstein_price_partial.
Theorem C54_beale_partial :
  forall S I f, sympy_ok S I -> powers I -> beale S = Ok f -> fvars f = [vx; vy] ->
  forall x y, In (x, y) beale_optimums -> unique_minimum I f x y 0.
Proof. intros S I f H P E V x y [K|[]]. injection K as <- <-. exact (beale_ok S I H P f E V). Qed.
Print Assumptions C54_beale_partial.

(** Himmelblau, for the same order: (3, 2) is a minimum with value 0; the other
    recorded points are not zeros, but their values are below 1e-9. *)
Theorem C54_himmelblau_partial :
  forall S I f, sympy_ok S I -> powers I -> himmelblau S = Ok f -> fvars f = [vx; vy] ->
  minimum I f 3 2 0 /\
  forall x y, In (x, y) himmelblau_optimums ->
  exists v, call I f [x; y] = Ok v /\ 0 <= v < 1 / 10 ^ 9 /\ (v = 0 -> (x, y) = (3, 2)).
Proof. intros S I f H P E V. exact (himmelblau_ok S I H P f E V). Qed.
Print Assumptions C54_himmelblau_partial.

(** If the set of free symbols is iterated in the other order, the recorded points of
    these functions are not minima. *)
Theorem C54_variable_order_refuted :
  forall I, powers I -> exists S f g h, sympy_ok S I /\
  goldstein_price S = Ok f /\ call I f [0; -1] = Ok 278 /\
  beale S = Ok g /\ (exists v, call I g [3; 0.5] = Ok v /\ v > 0) /\
  himmelblau S = Ok h /\ call I h [3; 2] = Ok 32.
Proof.
  intros I P. pose proof (backwards_ok I) as H.
  destruct (test_ok backwards I _ _ (goldstein_expr I P)) as [f Ef].
  destruct (test_ok backwards I _ _ (beale_expr I P)) as [g Eg].
  destruct (test_ok backwards I _ _ (himmelblau_expr I P)) as [h Eh].
  pose proof (fun X => backwards_order _ _ I P f X (goldstein_expr I P) Ef) as Cf. specialize (Cf ltac:(eexists; split; reflexivity)).
  pose proof (fun X => backwards_order _ _ I P g X (beale_expr I P) Eg) as Cg. specialize (Cg ltac:(eexists; split; reflexivity)).
  pose proof (fun X => backwards_order _ _ I P h X (himmelblau_expr I P) Eh) as Ch. specialize (Ch ltac:(eexists; split; reflexivity)).
  exists backwards, f, g, h. split; [exact H|]. split; [exact Ef|]. split.
  { rewrite (Cf). f_equal. unfold f_goldstein. lra. }
  split; [exact Eg|]. split.
  { exists (f_beale 0.5 3). split.
    - exact (Cg 3 0.5).
    - unfold f_beale. lra. }
  split; [exact Eh|].
  rewrite (Ch). f_equal. unfold f_himmelblau. lra.
Qed.
Print Assumptions C54_variable_order_refuted.

(** The hypotheses are met. *)
Definition ipowers : interp RF := Interp (fun _ => (0 : RF)) (fun a b : R => if Req_EM_T b 2 then a * a else a * a * a) (fun _ a => a).
Example C54_applies : sympy_ok idle ipowers /\ powers ipowers /\
  exists f g h, goldstein_price idle = Ok f /\ fvars f = [vx; vy] /\ beale idle = Ok g /\ fvars g = [vx; vy] /\
  himmelblau idle = Ok h /\ fvars h = [vx; vy].
Proof.
  split; [apply idle_ok|]. split.
  - intros v. cbn. destruct (Req_EM_T 2 2); [|lra]. destruct (Req_EM_T 3 2); [lra|]. auto.
  - eexists _, _, _. repeat split; reflexivity.
Qed.
