(** The real numbers as an ordered field. *)
From Coq Require Import Reals Lra Field.
From Verif Require Import Prelude OField.

Definition R_leb (a b : R) : bool := if Rle_dec a b then true else false.
Lemma R_leb_iff a b : R_leb a b = true <-> (a <= b)%R.
Proof. unfold R_leb. destruct (Rle_dec a b); split; congruence || tauto. Qed.

Definition R_ofield : ofield.
Proof.
  refine (OField R 0%R 1%R Rplus Rmult Rminus Ropp Rdiv Rinv R_leb _ _ _ _ _ _);
    intros *; rewrite ?R_leb_iff; try lra.
  - split; [|exact R1_neq_R0|reflexivity|exact Rinv_l].
    split; intros; ring.
  - intros. apply Rmult_le_pos; assumption.
Defined.
