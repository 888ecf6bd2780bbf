(** A brute force library with both backends, and counterexamples for MLSApproximator. *)
From Coq Require Import String QArith Qcanon Field.
From Verif Require Import Prelude OField ParallelModel MlsModel MlsSpec MlsProofs.
From Verif Require LogicalModel LogicalSpec LogicalCounter.
Local Open Scope list_scope.
Local Open Scope nat_scope.

Section Brute.
Context {F : ofield} {Point : Type}.
Variable dist : Point -> Point -> F.
Definition brute2 (v : nat * nat * nat) : LogicalModel.libs F Point :=
  {| LogicalModel.scipy_version := v; LogicalModel.has_sklearn := true;
     LogicalModel.sp_tree := list Point;
     LogicalModel.sp_build := fun X _ _ => Ok X;
     LogicalModel.sp_query := fun X Y k w kw =>
       match Y with Some Y => Ok (map (LogicalCounter.brute_row dist X k (LogicalSpec.bound_of kw)) Y) | None => Err IndexError end;
     LogicalModel.sk_tree := list Point;
     LogicalModel.sk_build := fun X _ _ => Ok X;
     LogicalModel.sk_query := fun X Y k kw =>
       if (length X <? k)%nat then Err ValueError
       else match Y with Some Y => Ok (map (LogicalCounter.brute_row dist X k LogicalModel.PInf) Y) | None => Err ValueError end;
     LogicalModel.sk_query_radius := fun _ _ _ _ _ => Err TypeError |}.
Lemma brute2_scipy v : LogicalSpec.scipy_ok dist (brute2 v).
Proof.
  intros X ls tk tree B Y k w kw res E. cbn in B, E. injection B as <-. injection E as <-.
  induction Y as [|y Y IH]; cbn [map]; constructor; [apply LogicalCounter.brute_row_ok|exact IH].
Qed.
Lemma brute2_sklearn v : sklearn_ok dist (brute2 v).
Proof.
  intros X ls tk tree B Y k kw res E. cbn -[Nat.ltb] in B, E. injection B as <-. destruct (length X <? k)%nat; [discriminate|]. injection E as <-.
  induction Y as [|y Y IH]; cbn [map]; constructor; [apply LogicalCounter.brute_row_ok|exact IH].
Qed.
End Brute.

Section Junk.
Variable F : ofield.
Add Field Fjunk : (of_field F).
Lemma junk_sum (v : F) :
  add (add (add (add zero (mul one (div one (of_nat 4)))) (mul one (div one (of_nat 4))))
    (mul (sub (mul (of_nat 2) v) one) (div one (of_nat 4)))) (mul (sub (mul (of_nat 2) v) one) (div one (of_nat 4))) = v.
Proof.
  assert (N : of_nat 4 <> (zero : F)) by (apply pos_neq, of_nat_pos; lia).
  assert (E : of_nat 4 = add (of_nat 2) (of_nat 2 : F)) by (rewrite <- of_nat_add; reflexivity).
  rewrite E in *. assert (T : (of_nat 2 : F) = add one one) by (cbn; ring). rewrite T in *. field. exact (mul_neq_0 F _ _ (two_nz F) (two_nz F)).
Qed.
End Junk.

(** Points on a line with rational coordinates. *)
Definition qdist (x y : Qc) : Qc_ofield := absf (sub (x : Qc_ofield) y).
Definition qlib : LogicalModel.libs Qc_ofield Qc := brute2 qdist (1, 11, 0).
Definition qline (l : list Q) : list Qc := map Q2Qc l.
(** Truncation towards zero. *)
Definition qtrunc (x : Qc_ofield) : Qc_ofield := Q2Qc (inject_Z (Z.quot (Qnum (this x)) (Zpos (Qden (this x))))).
Definition const (n : nat) (v : Qc_ofield) : ndarray Qc_ofield := ND [n] (fun _ => v).

Definition rows_of (m : approximator Qc_ofield Qc) (T : targets Qc) : LogicalModel.neighbours Qc_ofield :=
  match get_neighbours qlib m T with Ok r => r | Err _ => [] end.

Lemma rows_of_ok m T : is_ok (get_neighbours qlib m T) = true -> get_neighbours qlib m T = Ok (rows_of m T).
Proof. unfold rows_of. destruct (get_neighbours qlib m T); [reflexivity|discriminate]. Qed.

(** Integer ones, default number of neighbours. *)
Definition m_int : approximator Qc_ofield Qc :=
  Approximator (qline [0; 1; 2; 3; 4]%Q) (const 5 (Q2Qc 1)) (Integer qtrunc) None None None.
Definition two : targets Qc := Targets [2] (qline [1; 2]%Q).
Lemma int_constant junk : (exists out, approximate_run qlib m_int junk two (Ok out)) /\
  forall r, approximate_run qlib m_int junk two r -> exists out, r = Ok out /\ shape out = [2] /\ at_ out [0] = (zero : Qc_ofield).
Proof.
  destruct (run_2d qlib m_int junk two (rows_of m_int two) 2 4 5 1) as [H1 H2]; [apply rows_of_ok; vm_compute; reflexivity|vm_compute; reflexivity..|].
  split; [exact H1|]. intros r Hr. destruct (H2 r Hr) as (full & -> & Sf & V). exists (squeeze full).
  split; [reflexivity|]. unfold squeeze; cbn [shape at_]. rewrite Sf. split; [reflexivity|].
  cbn [unsqueeze Nat.eqb hd tl]. rewrite V by lia. apply Qc_is_canon. vm_compute. reflexivity.
Qed.

(** One neighbour. *)
Definition m_one (b : LogicalModel.backend) : approximator Qc_ofield Qc :=
  Approximator (qline [0; 1; 2]%Q) (const 3 (Q2Qc 1)) Floating (Some b) (Some 1) None.
Lemma one_scipy junk r : approximate_run qlib (m_one LogicalModel.Scipy) junk two r -> r = Err TypeError.
Proof. apply run_bad with (rows := rows_of (m_one LogicalModel.Scipy) two); [apply rows_of_ok; vm_compute; reflexivity|vm_compute; congruence]. Qed.

(** Fewer source points than neighbours. *)
Definition m_few : approximator Qc_ofield Qc :=
  Approximator (qline [0; 1]%Q) (const 2 (Q2Qc 1)) Floating None None None.
Lemma few_points (v : Qc_ofield) : exists junk,
  (exists out, approximate_run qlib m_few junk two (Ok out)) /\
  forall r, approximate_run qlib m_few junk two r -> exists out, r = Ok out /\ shape out = [2] /\ at_ out [0] = v.
Proof.
  exists (fun _ => sub (mul (of_nat 2) v) one).
  destruct (run_2d qlib m_few (fun _ => sub (mul (of_nat 2) v) one) two (rows_of m_few two) 2 4 2 1) as [H1 H2]; [apply rows_of_ok; vm_compute; reflexivity|vm_compute; reflexivity..|].
  split; [exact H1|]. intros r Hr. destruct (H2 r Hr) as (full & -> & Sf & V). exists (squeeze full).
  split; [reflexivity|]. unfold squeeze; cbn [shape at_]. rewrite Sf. split; [reflexivity|].
  cbn [unsqueeze Nat.eqb hd tl]. rewrite V by lia. clear H1 H2 Hr Sf V.
  set (nb := neighbour_array _ _ _ _).
  assert (I0 : at_ nb [0; 0] = 1) by (vm_compute; reflexivity).
  assert (I1 : at_ nb [0; 1] = 0) by (vm_compute; reflexivity).
  assert (I2 : at_ nb [0; 2] = 2) by (vm_compute; reflexivity).
  assert (I3 : at_ nb [0; 3] = 2) by (vm_compute; reflexivity).
  assert (IF : factor nb = div (one : Qc_ofield) (of_nat 4)) by (apply Qc_is_canon; vm_compute; reflexivity).
  clearbody nb. cbn [range seq fold_left cast m_few Y_type]. rewrite I0, I1, I2, I3, IF.
  cbn [read shape as_column Y_S m_few const at_ hd Nat.ltb Nat.leb].
  exact (junk_sum Qc_ofield v).
Qed.

(** A grid of target points. *)
Definition grid : targets Qc := Targets [2; 2] (qline [0; 1; 0; 1]%Q).
Definition m_grid (k : nat) : approximator Qc_ofield Qc :=
  Approximator (qline [0; 1; 2; 3; 4]%Q) (ND [5] (fun c => of_nat (hd 0 c))) Floating None (Some k) None.
Lemma grid_error junk r : approximate_run qlib (m_grid 2) junk grid r -> r = Err TypeError.
Proof. apply run_bad with (rows := rows_of (m_grid 2) grid); [apply rows_of_ok; vm_compute; reflexivity|vm_compute; congruence]. Qed.
(** With one neighbour the values of the target points of each row of the grid are mixed. *)
Lemma grid_mixed junk : (exists out, approximate_run qlib (m_grid 1) junk grid (Ok out)) /\
  forall r, approximate_run qlib (m_grid 1) junk grid r -> exists out, r = Ok out /\ shape out = [2] /\
    at_ out [0] = (Q2Qc (1#2) : Qc_ofield).
Proof.
  destruct (run_2d qlib (m_grid 1) junk grid (rows_of (m_grid 1) grid) 2 2 5 1) as [H1 H2]; [apply rows_of_ok; vm_compute; reflexivity|vm_compute; reflexivity..|].
  split; [exact H1|]. intros r Hr. destruct (H2 r Hr) as (full & -> & Sf & V). exists (squeeze full).
  split; [reflexivity|]. unfold squeeze; cbn [shape at_]. rewrite Sf. split; [reflexivity|].
  cbn [unsqueeze Nat.eqb hd tl]. rewrite V by lia. apply Qc_is_canon. vm_compute. reflexivity.
Qed.
