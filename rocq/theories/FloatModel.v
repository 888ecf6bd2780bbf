(** Model of functions of the library in double precision arithmetic (IEEE 754 binary64,
    rounding to nearest, ties to even, with infinities and NaN), by the formalisation of
    the standard in Flocq.

    Simplifications: the payload of NaN is not modelled; the operations of NumPy and of the
    code compiled by Numba without [fastmath] are those of the standard, in the order of
    the source; the order in which a parallel loop visits its elements does not matter
    (C01) and is that of the source here. *)
From Coq Require Import ZArith List.
From Flocq Require Import Core BinarySingleNaN.
Import ListNotations.
Local Open Scope Z_scope.

Definition f64 := binary_float 53 1024.
#[global] Instance prec_ok : Prec_gt_0 53 := eq_refl.
#[global] Instance emax_ok : Prec_lt_emax 53 1024 := eq_refl.
Definition fadd : f64 -> f64 -> f64 := Bplus mode_NE.
Definition fsub : f64 -> f64 -> f64 := Bminus mode_NE.
Definition fmul : f64 -> f64 -> f64 := Bmult mode_NE.
Definition fdiv : f64 -> f64 -> f64 := Bdiv mode_NE.
(** The conversion of an integer. *)
Definition of_int (z : Z) : f64 := binary_normalize 53 1024 prec_ok emax_ok mode_NE z 0 false.

(** linalg/utils.py:880-886, [linspace1d] for floats. *)
Definition linspace1d (start stop : f64) (N : nat) : list f64 :=
  let di := fdiv (fsub stop start) (of_int (Z.of_nat N - 1)) in
  map (fun i => fadd start (fmul (of_int (Z.of_nat i)) di)) (seq 0 N).

(** hist.py:18-23, [bin_centers] for floats. *)
Fixpoint bin_centers (edges : list f64) : list f64 :=
  match edges with
  | a :: (b :: _) as t => fdiv (fadd a b) (of_int 2) :: bin_centers t
  | _ => []
  end.

(** optimize/bga.py:112-127, [decode] of the genes of one variable with the range from [lo]
    to [hi].  Genes are bits here; the number is an exact integer (it has 64 bits in the
    code). *)
Fixpoint number (bs : list bool) : Z :=
  match bs with [] => 0 | b :: bs => (if b then 1 else 0) + 2 * number bs end.
Definition decode_block (len : nat) (lo hi : f64) (bs : list bool) : f64 :=
  let span := 2 ^ Z.of_nat len - 2 ^ 0 in
  let precision := fdiv (fsub hi lo) (of_int span) in
  fadd (fmul (of_int (number bs)) precision) lo.
(** One row of the result: a block of genes per variable. *)
Definition decode_row (len : nat) (ranges : list (f64 * f64)) (bss : list (list bool)) : list f64 :=
  map (fun rb => decode_block len (fst (fst rb)) (snd (fst rb)) (snd rb)) (combine ranges bss).

(** utils.py:498-507, [_to_range_1d_] for floats. *)
Definition to_range_1d (s0 s1 t0 t1 : f64) (vals : list f64) : list f64 :=
  let b := fdiv (fsub t1 t0) (fsub s1 s0) in
  let a := fsub (fdiv (fadd t0 t1) (of_int 2)) (fdiv (fmul b (fadd s0 s1)) (of_int 2)) in
  map (fun v => fadd a (fmul b v)) vals.
