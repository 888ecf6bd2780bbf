(** Data for the examples of the least squares fits. *)
From Coq Require Import QArith Qcanon.
From Verif Require Import Prelude OField Inverse LsModel LsSpec LsProofs LsBasis LsEq LsFit LsCases.
Local Open Scope nat_scope.

Definition q (z : Z) : Qc_ofield := Q2Qc (inject_Z z).
Definition qq (a : Z) (b : positive) : Qc_ofield := Q2Qc (a # b).

(** Points determine the polynomials when the elimination finds an inverse. *)
Lemma unisolvent_by deg dim fam (points : list (list Qc_ofield)) (W : list Qc_ofield -> Qc_ofield) :
  family_of deg dim = Some fam -> (forall x, In x points -> length x = dim) -> (forall x, In x points -> 0 <= W x)%F ->
  match inverse (nbasis deg dim) (A_ fam points W) with Some _ => true | None => false end = true ->
  unisolvent deg dim (map W points) points.
Proof.
  intros HF HL HW E. apply (unisolvent_regular deg dim fam points W HF HL HW).
  pose proof (inverse_spec (nbasis deg dim) (A_ fam points W)) as S. destruct (inverse _ _) as [X|]; [|discriminate].
  exact (inverse_regular _ _ X S).
Qed.

Definition line_points : list (list Qc_ofield) := [[q 0]; [q 1]; [q 2]].
Definition line : cloud Qc_ofield := Flat [q 0; q 1; q 2].
Definition line_values : list (list Qc_ofield) := [[q 1; q 0]; [q 3; q 1]; [q 5; q 0]].
Lemma line_unisolvent : unisolvent 1 1 (repeat 1%F 3) line_points.
Proof.
  destruct (@family_of Qc_ofield 1 1) as [fam|] eqn:E; [|discriminate].
  change (repeat 1%F 3) with (map (fun _ : list Qc_ofield => 1%F : Qc_ofield) line_points).
  apply (unisolvent_by 1 1 fam); [exact E| | |].
  - intros x [<-|[<-|[<-|[]]]]; reflexivity.
  - intros x _. apply lt_le, lt_0_1.
  - injection E as <-. vm_compute. reflexivity.
Qed.

Lemma column_points : exists (points values : list (list Qc_ofield)) inv,
    inv_ok LinAlgError inv /\ Forall (fun x => length x = 1) points /\ length points = length values /\
    unisolvent 1 1 (repeat 1%F (length values)) points /\
    least_squares inv (Rows 1 points) values 1 0 = Err ValueError.
Proof.
  exists line_points, line_values, (inv_with LinAlgError). split; [apply inv_with_ok|]. split; [repeat constructor|].
  split; [reflexivity|]. split; [exact line_unisolvent|]. reflexivity.
Qed.

(** Five points of the plane and the cubic weight. *)
Definition square_points : list (list Qc_ofield) := [[q 0; q 0]; [q 1; q 0]; [q 0; q 1]; [q 1; q 1]; [q 5; q 5]].
Definition square : cloud Qc_ofield := Rows 2 square_points.
Definition square_values : list (list Qc_ofield) := [[q 1]; [q 3]; [q 4]; [q 6]; [q 100]].
Definition square_core : list Qc_ofield := [qq 1 3; qq 1 2].
Definition square_sd : list Qc_ofield := [q 2; q 3].
Definition square_weight := cubic_weight 2 square_sd.
Lemma square_unisolvent : unisolvent 1 2 (map (cubic_value 2 square_sd square_core) square_points) square_points.
Proof.
  destruct (@family_of Qc_ofield 1 2) as [fam|] eqn:E; [|discriminate].
  apply (unisolvent_by 1 2 fam); [exact E| | |].
  - intros x [<-|[<-|[<-|[<-|[<-|[]]]]]]; reflexivity.
  - intros x _. apply cubic_nonneg. intros [|[|j]] Hj; [vm_compute; reflexivity|vm_compute; reflexivity|lia].
  - injection E as <-. vm_compute. reflexivity.
Qed.

(** The value of a fit, as rational numbers. *)
Definition show (r : result (answer Qc_ofield)) : list (option (list Q)) :=
  match r with Ok a => map (option_map (map this)) a | Err _ => [] end.
Definition call (f : result (fit Qc_ofield)) (x : list Qc_ofield) : result (answer Qc_ofield) := do f <- f ; f x.
