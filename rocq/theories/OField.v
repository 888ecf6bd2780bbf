(** Ordered fields: the exact numbers that stand for floating point values.

    A theorem about "all ordered fields" holds in particular for the real
    numbers [R_ofield] and for the rationals [Qc_ofield], in which the model can
    be executed.  All finite floating point numbers are rationals. *)
From Coq Require Import QArith Qcanon Field Setoid.
From Verif Require Import Prelude.

Record ofield : Type := OField {
  car :> Type;
  zero : car; one : car;
  add : car -> car -> car; mul : car -> car -> car; sub : car -> car -> car;
  opp : car -> car; div : car -> car -> car; inv : car -> car;
  leb : car -> car -> bool;
  of_field : field_theory zero one add mul sub opp div inv (@eq car);
  of_antisym : forall a b, leb a b = true -> leb b a = true -> a = b;
  of_trans : forall a b c, leb a b = true -> leb b c = true -> leb a c = true;
  of_total : forall a b, leb a b = true \/ leb b a = true;
  of_add : forall a b c, leb a b = true -> leb (add a c) (add b c) = true;
  of_mul : forall a b, leb zero a = true -> leb zero b = true -> leb zero (mul a b) = true
}.

Arguments zero {_}. Arguments one {_}. Arguments add {_}. Arguments mul {_}.
Arguments sub {_}. Arguments opp {_}. Arguments div {_}. Arguments inv {_}.
Arguments leb {_}.

Declare Scope of_scope.
Delimit Scope of_scope with F.
Bind Scope of_scope with car.
Notation "0" := zero : of_scope.
Notation "1" := one : of_scope.
Infix "+" := add : of_scope.
Infix "*" := mul : of_scope.
Infix "-" := sub : of_scope.
Infix "/" := div : of_scope.
Notation "- x" := (opp x) : of_scope.
Infix "<=?" := leb : of_scope.
Notation "a <= b" := (leb a b = true) : of_scope.
Notation "a < b" := (leb b a = false) : of_scope.
Notation "a <= b <= c" := (leb a b = true /\ leb b c = true) : of_scope.

(** [a < b] and [a == b] as decisions, and the absolute value. *)
Definition ltb {F : ofield} (a b : F) : bool := negb (leb b a).
Definition eqb {F : ofield} (a b : F) : bool := leb a b && leb b a.
Definition absf {F : ofield} (a : F) : F := if leb zero a then a else opp a.
Infix "<?" := ltb : of_scope.
Infix "=?" := eqb : of_scope.

(** Embedding of integers. *)
Fixpoint of_nat {F : ofield} (n : nat) : F :=
  match n with O => zero | S n => add one (of_nat n) end.
Definition two {F : ofield} : F := add one one.
Fixpoint pow {F : ofield} (a : F) (n : nat) : F :=
  match n with O => one | S n => mul a (pow a n) end.
Definition of_pos {F : ofield} (p : positive) : F :=
  Pos.iter_op (@add F) p one.
Definition of_Z {F : ofield} (z : Z) : F :=
  match z with Z0 => zero | Zpos p => of_pos p | Zneg p => opp (of_pos p) end.

(** Sums over [0 .. n-1] and over lists. *)
Fixpoint sum {F : ofield} (n : nat) (f : nat -> F) : F :=
  match n with O => zero | S n => add (sum n f) (f n) end.
Fixpoint suml {F : ofield} (l : list F) : F :=
  match l with [] => zero | x :: l => add x (suml l) end.

(** ** The rationals *)
Definition Qc_leb (a b : Qc) : bool := Qle_bool a b.

Lemma Qc_leb_iff a b : Qc_leb a b = true <-> (a <= b)%Qc.
Proof. unfold Qc_leb. rewrite Qle_bool_iff. reflexivity. Qed.

Definition Qc_ofield : ofield.
Proof.
  refine (OField Qc (Q2Qc 0) (Q2Qc 1) Qcplus Qcmult Qcminus Qcopp Qcdiv Qcinv Qc_leb
            Qcft _ _ _ _ _); intros *; rewrite ?Qc_leb_iff.
  - apply Qcle_antisym.
  - apply Qcle_trans.
  - destruct (Qclt_le_dec a b) as [H|H]; [left; apply Qclt_le_weak; exact H|right; exact H].
  - intros H. apply Qcplus_le_compat; [exact H|apply Qcle_refl].
  - intros Ha Hb. replace (Q2Qc 0) with (Q2Qc 0 * b)%Qc by ring.
    apply Qcmult_le_compat_r; assumption.
Defined.

(** ** Basic theory *)
Section Theory.
Variable F : ofield.
Local Open Scope of_scope.
Implicit Types a b c d : F.

Definition of_ring : ring_theory (@zero F) one add mul sub opp eq := F_R (of_field F).
Add Field FField : (of_field F).

Lemma le_refl a : a <= a.
Proof. destruct (of_total F a a); assumption. Qed.
Lemma le_trans a b c : a <= b -> b <= c -> a <= c.
Proof. apply of_trans. Qed.
Lemma le_antisym a b : a <= b -> b <= a -> a = b.
Proof. apply of_antisym. Qed.
Lemma lt_le a b : a < b -> a <= b.
Proof. intros H. destruct (of_total F a b) as [E|E]; [exact E|congruence]. Qed.
Lemma nle_lt a b : leb a b = false <-> b < a.
Proof. reflexivity. Qed.
Lemma lt_irrefl a : ~ (a < a).
Proof. rewrite le_refl. discriminate. Qed.
Lemma lt_neq a b : a < b -> a <> b.
Proof. intros H ->. rewrite le_refl in H. discriminate. Qed.
Lemma le_lt_eq a b : a <= b -> a <> b -> a < b.
Proof.
  intros H N. destruct (leb b a) eqn:E; [|reflexivity].
  exfalso. apply N. apply le_antisym; assumption.
Qed.
Lemma le_lt_trans a b c : a <= b -> b < c -> a < c.
Proof.
  intros H1 H2. destruct (leb c a) eqn:E; [|reflexivity].
  rewrite (le_trans c a b E H1) in H2. discriminate.
Qed.
Lemma lt_le_trans a b c : a < b -> b <= c -> a < c.
Proof.
  intros H1 H2. destruct (leb c a) eqn:E; [|reflexivity].
  rewrite (le_trans b c a H2 E) in H1. discriminate.
Qed.
Lemma lt_trans a b c : a < b -> b < c -> a < c.
Proof. intros H1 H2. apply (lt_le_trans a b c H1). apply lt_le. exact H2. Qed.
Lemma le_or_lt a b : {a <= b} + {b < a}.
Proof. destruct (leb a b) eqn:E; [left|right]; reflexivity. Qed.
Lemma lt_trichotomy a b : {a < b} + {a = b} + {b < a}.
Proof.
  destruct (leb b a) eqn:E; [|left; left; reflexivity].
  destruct (leb a b) eqn:E'; [left; right; apply le_antisym; assumption|right; reflexivity].
Qed.

Lemma eqb_spec a b : reflect (a = b) (eqb a b).
Proof.
  unfold eqb. destruct (leb a b) eqn:E1; cbn.
  - destruct (leb b a) eqn:E2; constructor; [apply le_antisym; assumption|].
    intros ->. rewrite le_refl in E2. discriminate.
  - constructor. intros ->. rewrite le_refl in E1. discriminate.
Qed.
Lemma eq_dec a b : {a = b} + {a <> b}.
Proof. destruct (eqb_spec a b); [left|right]; assumption. Qed.
Lemma eqb_refl a : eqb a a = true.
Proof. unfold eqb. rewrite le_refl. reflexivity. Qed.
Lemma ltb_iff a b : ltb a b = true <-> a < b.
Proof. unfold ltb. destruct (leb b a); cbn; split; congruence. Qed.
Lemma ltb_false a b : ltb a b = false <-> b <= a.
Proof. unfold ltb. destruct (leb b a); cbn; split; congruence. Qed.

Lemma add_le a b c : a <= b -> a + c <= b + c.
Proof. apply of_add. Qed.
Lemma add_le_compat a b c d : a <= b -> c <= d -> a + c <= b + d.
Proof.
  intros H1 H2. apply (le_trans _ (b + c)); [apply add_le; exact H1|].
  replace (b + c) with (c + b) by ring. replace (b + d) with (d + b) by ring.
  apply add_le. exact H2.
Qed.
Lemma sub_nonneg a b : a <= b <-> 0 <= b - a.
Proof.
  split; intros H.
  - replace 0 with (a + - a) by ring. replace (b - a) with (b + - a) by ring.
    apply add_le. exact H.
  - replace a with (0 + a) by ring. replace b with (b - a + a) by ring.
    apply add_le. exact H.
Qed.
Lemma sub_pos a b : a < b <-> 0 < b - a.
Proof.
  split; intros H.
  - apply le_lt_eq; [apply (proj1 (sub_nonneg a b)); apply lt_le; exact H|].
    intros E. apply (lt_neq _ _ H). transitivity (a + (b - a)); [rewrite <- E; ring|ring].
  - apply le_lt_eq; [apply (proj2 (sub_nonneg a b)); apply lt_le; exact H|].
    intros E. apply (lt_neq _ _ H). rewrite E. ring.
Qed.
Lemma opp_le a b : a <= b -> - b <= - a.
Proof.
  intros H. apply (proj2 (sub_nonneg _ _)). replace (- a - - b) with (b - a) by ring.
  apply sub_nonneg in H. exact H.
Qed.
Lemma opp_nonneg a : 0 <= a -> - a <= 0.
Proof. intros H. replace 0 with (- 0 : F) by ring. apply opp_le. exact H. Qed.
Lemma opp_nonpos a : a <= 0 -> 0 <= - a.
Proof. intros H. replace 0 with (- 0 : F) at 1 by ring. apply opp_le. exact H. Qed.
Lemma mul_nonneg a b : 0 <= a -> 0 <= b -> 0 <= a * b.
Proof. apply of_mul. Qed.
Lemma add_nonneg a b : 0 <= a -> 0 <= b -> 0 <= a + b.
Proof. intros. replace 0 with (0 + 0 : F) by ring. apply add_le_compat; assumption. Qed.
Lemma mul_le_l a b c : 0 <= c -> a <= b -> c * a <= c * b.
Proof.
  intros Hc H. apply (proj2 (sub_nonneg _ _)). replace (c * b - c * a) with (c * (b - a)) by ring.
  apply mul_nonneg; [exact Hc|]. apply sub_nonneg in H. exact H.
Qed.
Lemma mul_le_r a b c : 0 <= c -> a <= b -> a * c <= b * c.
Proof.
  intros Hc H. replace (a * c) with (c * a) by ring. replace (b * c) with (c * b) by ring.
  apply mul_le_l; assumption.
Qed.
Lemma square_nonneg a : 0 <= a * a.
Proof.
  destruct (of_total F 0 a) as [H|H]; [apply mul_nonneg; assumption|].
  replace (a * a) with (- a * - a) by ring. apply mul_nonneg; apply opp_nonpos; exact H.
Qed.
Lemma one_nz : (one : F) <> 0.
Proof. apply (F_1_neq_0 (of_field F)). Qed.
Lemma lt_0_1 : (0 : F) < 1.
Proof.
  apply le_lt_eq.
  - replace (1 : F) with (1 * 1 : F) by ring. apply square_nonneg.
  - intros E. apply one_nz. symmetry. exact E.
Qed.
Lemma add_pos a b : 0 < a -> 0 <= b -> 0 < a + b.
Proof.
  intros Ha Hb. apply (lt_le_trans _ a); [exact Ha|].
  replace a with (a + 0) at 1 by ring. apply add_le_compat; [apply le_refl|exact Hb].
Qed.
Lemma add_pos_r a b : 0 <= a -> 0 < b -> 0 < a + b.
Proof. intros. replace (a + b) with (b + a) by ring. apply add_pos; assumption. Qed.
Lemma mul_eq_0 a b : a * b = 0 -> a = 0 \/ b = 0.
Proof.
  intros H. destruct (eq_dec a 0) as [E|E]; [left; exact E|right].
  transitivity (inv a * (a * b)); [field; exact E|]. rewrite H. ring.
Qed.
Lemma mul_neq_0 a b : a <> 0 -> b <> 0 -> a * b <> 0.
Proof. intros Ha Hb H. destruct (mul_eq_0 a b H); contradiction. Qed.
Lemma pos_neq a : 0 < a -> a <> 0.
Proof. intros H E. apply (lt_neq _ _ H). symmetry. exact E. Qed.
Lemma mul_pos a b : 0 < a -> 0 < b -> 0 < a * b.
Proof.
  intros Ha Hb. apply le_lt_eq; [apply mul_nonneg; apply lt_le; assumption|].
  intros E. symmetry in E. destruct (mul_eq_0 _ _ E) as [Z|Z]; subst.
  - apply (lt_irrefl _ Ha).
  - apply (lt_irrefl _ Hb).
Qed.
Lemma square_pos a : a <> 0 -> 0 < a * a.
Proof.
  intros H. apply le_lt_eq; [apply square_nonneg|]. intros E. symmetry in E.
  destruct (mul_eq_0 _ _ E); contradiction.
Qed.
Lemma square_eq_0 a : a * a = 0 -> a = 0.
Proof. intros H. destruct (mul_eq_0 _ _ H); assumption. Qed.
Lemma inv_pos a : 0 < a -> 0 < inv a.
Proof.
  intros H. pose proof (pos_neq a H) as N.
  replace (inv a) with (a * (inv a * inv a)) by (field; exact N).
  apply mul_pos; [exact H|]. apply square_pos.
  intros E. apply one_nz. transitivity (a * inv a); [field; exact N|]. rewrite E. ring.
Qed.
Lemma div_nonneg a b : 0 <= a -> 0 < b -> 0 <= a / b.
Proof.
  intros Ha Hb. replace (a / b) with (a * inv b) by (field; apply pos_neq; exact Hb).
  apply mul_nonneg; [exact Ha|]. apply lt_le, inv_pos. exact Hb.
Qed.
Lemma div_pos a b : 0 < a -> 0 < b -> 0 < a / b.
Proof.
  intros Ha Hb. replace (a / b) with (a * inv b) by (field; apply pos_neq; exact Hb).
  apply mul_pos; [exact Ha|]. apply inv_pos. exact Hb.
Qed.
Lemma two_pos : (0 : F) < two.
Proof. apply add_pos; [apply lt_0_1|apply lt_le, lt_0_1]. Qed.
Lemma two_nz : (two : F) <> 0.
Proof. apply pos_neq, two_pos. Qed.

Lemma abs_nonneg a : 0 <= absf a.
Proof.
  unfold absf. destruct (leb 0 a) eqn:E; [exact E|]. apply opp_nonpos, lt_le. exact E.
Qed.
Lemma abs_opp a : absf (- a) = absf a.
Proof.
  unfold absf. destruct (leb 0 a) eqn:E, (leb 0 (- a)) eqn:E'; try reflexivity.
  - assert (a = 0); [|subst; ring]. apply le_antisym; [|exact E].
    replace a with (- - a) by ring. apply opp_nonneg. exact E'.
  - ring.
  - exfalso. pose proof (opp_nonpos a (lt_le _ _ E)). congruence.
Qed.
Lemma abs_0 : absf (0 : F) = 0.
Proof. unfold absf. rewrite le_refl. reflexivity. Qed.
Lemma abs_le_iff a b : absf a <= b <-> (- b <= a /\ a <= b).
Proof.
  unfold absf. destruct (leb 0 a) eqn:E; split.
  - intros H. split; [|exact H]. apply (le_trans _ 0); [|exact E].
    apply opp_nonneg. apply (le_trans _ a); assumption.
  - tauto.
  - intros H. split; [replace a with (- - a) by ring; apply opp_le; exact H|].
    apply (le_trans _ 0); [apply lt_le; exact E|]. apply (le_trans _ (- a)); [|exact H].
    apply opp_nonpos, lt_le. exact E.
  - intros [H _]. replace b with (- - b) by ring. apply opp_le. exact H.
Qed.
Lemma abs_eq_0 a : absf a = 0 -> a = 0.
Proof.
  unfold absf. destruct (leb 0 a); [tauto|]. intros H.
  transitivity (- - a); [ring|]. rewrite H. ring.
Qed.
Lemma le_abs a : a <= absf a.
Proof.
  unfold absf. destruct (leb 0 a) eqn:E; [apply le_refl|].
  apply (le_trans _ 0); [apply lt_le; exact E|apply opp_nonpos, lt_le; exact E].
Qed.
Lemma abs_mul a b : absf (a * b) = absf a * absf b.
Proof.
  unfold absf. destruct (leb 0 a) eqn:Ea, (leb 0 b) eqn:Eb.
  - rewrite (mul_nonneg a b Ea Eb). reflexivity.
  - destruct (leb 0 (a * b)) eqn:E; [|ring].
    assert (H : 0 <= a * - b) by (apply mul_nonneg; [exact Ea|apply opp_nonpos, lt_le, Eb]).
    assert (Z : a * b = 0); [|rewrite Z; transitivity (- (a * b)); [rewrite Z|]; ring].
    apply le_antisym; [|exact E]. replace (a * b) with (- (a * - b)) by ring.
    apply opp_nonneg. exact H.
  - destruct (leb 0 (a * b)) eqn:E; [|ring].
    assert (H : 0 <= - a * b) by (apply mul_nonneg; [apply opp_nonpos, lt_le, Ea|exact Eb]).
    assert (Z : a * b = 0); [|rewrite Z; transitivity (- (a * b)); [rewrite Z|]; ring].
    apply le_antisym; [|exact E]. replace (a * b) with (- (- a * b)) by ring.
    apply opp_nonneg. exact H.
  - replace (a * b) with (- a * - b) by ring.
    rewrite (mul_nonneg (- a) (- b)); [reflexivity| |]; apply opp_nonpos, lt_le; assumption.
Qed.
Lemma abs_triangle a b : absf (a + b) <= absf a + absf b.
Proof.
  apply abs_le_iff. split.
  - replace (- (absf a + absf b)) with (- absf a + - absf b) by ring.
    apply add_le_compat; [rewrite <- (abs_opp a)|rewrite <- (abs_opp b)].
    + replace a with (- - a) at 2 by ring. apply opp_le, le_abs.
    + replace b with (- - b) at 2 by ring. apply opp_le, le_abs.
  - apply add_le_compat; apply le_abs.
Qed.

Lemma add_cancel_l a b c : a + b = a + c -> b = c.
Proof. intros H. transitivity (- a + (a + b)); [ring|]. rewrite H. ring. Qed.
Lemma mul_cancel_l a b c : a <> 0 -> a * b = a * c -> b = c.
Proof.
  intros N H. transitivity (inv a * (a * b)); [field; exact N|]. rewrite H. field. exact N.
Qed.
Lemma sub_eq_0 a b : a - b = 0 <-> a = b.
Proof. split; intros H; [transitivity (b + (a - b)); [ring|rewrite H; ring]|subst; ring]. Qed.

Lemma of_nat_add n m : of_nat (n + m) = (of_nat n + of_nat m : F).
Proof. induction n as [|n IH]; cbn [of_nat Nat.add]; [ring|]. rewrite IH. ring. Qed.
Lemma of_nat_mul n m : of_nat (n * m) = (of_nat n * of_nat m : F).
Proof.
  induction n as [|n IH]; cbn [of_nat Nat.mul]; [ring|]. rewrite of_nat_add, IH. ring.
Qed.
Lemma of_nat_nonneg n : 0 <= (of_nat n : F).
Proof.
  induction n as [|n IH]; cbn [of_nat]; [apply le_refl|].
  apply add_nonneg; [apply lt_le, lt_0_1|exact IH].
Qed.
Lemma of_nat_pos n : (0 < n)%nat -> 0 < (of_nat n : F).
Proof. destruct n as [|n]; [lia|]. intros _. cbn [of_nat]. apply add_pos; [apply lt_0_1|apply of_nat_nonneg]. Qed.
Lemma of_nat_le n m : (n <= m)%nat -> (of_nat n : F) <= of_nat m.
Proof.
  intros H. replace m with (n + (m - n))%nat by lia. rewrite of_nat_add.
  replace (of_nat n) with (of_nat n + 0 : F) at 1 by ring.
  apply add_le_compat; [apply le_refl|apply of_nat_nonneg].
Qed.
Lemma of_nat_lt n m : (n < m)%nat -> (of_nat n : F) < of_nat m.
Proof.
  intros H. replace m with (n + (m - n))%nat by lia. rewrite of_nat_add.
  apply sub_pos. replace (of_nat n + of_nat (m - n) - of_nat n : F) with (of_nat (m - n) : F) by ring.
  apply of_nat_pos. lia.
Qed.
Lemma of_nat_inj n m : (of_nat n : F) = of_nat m -> n = m.
Proof.
  intros H. destruct (lt_eq_lt_dec n m) as [[L|E]|L]; [|exact E|]; exfalso;
    apply of_nat_lt in L; rewrite H in L; apply (lt_irrefl _ L).
Qed.

(** *** Sums *)
Lemma sum_ext n (f g : nat -> F) : (forall i, (i < n)%nat -> f i = g i) -> sum n f = sum n g.
Proof.
  induction n as [|n IH]; intros H; cbn [sum]; [reflexivity|].
  rewrite IH by (intros; apply H; lia). rewrite H by lia. reflexivity.
Qed.
Lemma sum_0 n (f : nat -> F) : (forall i, (i < n)%nat -> f i = 0) -> sum n f = 0.
Proof.
  induction n as [|n IH]; intros H; cbn [sum]; [reflexivity|].
  rewrite IH by (intros; apply H; lia). rewrite H by lia. ring.
Qed.
Lemma sum_add n (f g : nat -> F) : sum n (fun i => f i + g i) = sum n f + sum n g.
Proof. induction n as [|n IH]; cbn [sum]; [ring|]. rewrite IH. ring. Qed.
Lemma sum_sub n (f g : nat -> F) : sum n (fun i => f i - g i) = sum n f - sum n g.
Proof. induction n as [|n IH]; cbn [sum]; [ring|]. rewrite IH. ring. Qed.
Lemma sum_opp n (f : nat -> F) : sum n (fun i => - f i) = - sum n f.
Proof. induction n as [|n IH]; cbn [sum]; [ring|]. rewrite IH. ring. Qed.
Lemma sum_scale n c (f : nat -> F) : sum n (fun i => c * f i) = c * sum n f.
Proof. induction n as [|n IH]; cbn [sum]; [ring|]. rewrite IH. ring. Qed.
Lemma sum_scale_r n c (f : nat -> F) : sum n (fun i => f i * c) = sum n f * c.
Proof. induction n as [|n IH]; cbn [sum]; [ring|]. rewrite IH. ring. Qed.
Lemma sum_swap n m (f : nat -> nat -> F) :
  sum n (fun i => sum m (fun j => f i j)) = sum m (fun j => sum n (fun i => f i j)).
Proof.
  induction n as [|n IH]; cbn [sum].
  - symmetry. apply sum_0. reflexivity.
  - rewrite IH, <- sum_add. reflexivity.
Qed.
Lemma sum_const n (c : F) : sum n (fun _ => c) = of_nat n * c.
Proof. induction n as [|n IH]; cbn [sum of_nat]; [ring|]. rewrite IH. ring. Qed.
Lemma sum_delta n k (f : nat -> F) : (k < n)%nat ->
  sum n (fun i => if Nat.eqb i k then f i else 0) = f k.
Proof.
  induction n as [|n IH]; intros H; [lia|]. cbn [sum].
  destruct (Nat.eq_dec k n) as [E|E].
  - subst k. rewrite Nat.eqb_refl. rewrite sum_0; [ring|].
    intros i Hi. destruct (Nat.eqb_spec i n); [lia|reflexivity].
  - rewrite IH by lia. destruct (Nat.eqb_spec n k); [lia|ring].
Qed.
Lemma sum_nonneg n (f : nat -> F) : (forall i, (i < n)%nat -> 0 <= f i) -> 0 <= sum n f.
Proof.
  induction n as [|n IH]; intros H; cbn [sum]; [apply le_refl|].
  apply add_nonneg; [apply IH; intros; apply H; lia|apply H; lia].
Qed.
Lemma sum_le n (f g : nat -> F) : (forall i, (i < n)%nat -> f i <= g i) -> sum n f <= sum n g.
Proof.
  induction n as [|n IH]; intros H; cbn [sum]; [apply le_refl|].
  apply add_le_compat; [apply IH; intros; apply H; lia|apply H; lia].
Qed.
Lemma sum_nonneg_0 n (f : nat -> F) : (forall i, (i < n)%nat -> 0 <= f i) -> sum n f = 0 ->
  forall i, (i < n)%nat -> f i = 0.
Proof.
  induction n as [|n IH]; intros H S i Hi; [lia|]. cbn [sum] in S.
  assert (H1 : 0 <= sum n f) by (apply sum_nonneg; intros; apply H; lia).
  assert (H2 : 0 <= f n) by (apply H; lia).
  assert (E2 : f n = 0).
  { apply le_antisym; [|exact H2]. replace 0 with (sum n f + f n) by exact S.
    replace (f n) with (0 + f n) at 1 by ring. apply add_le_compat; [exact H1|apply le_refl]. }
  assert (E1 : sum n f = 0) by (rewrite E2 in S; transitivity (sum n f + 0); [ring|exact S]).
  destruct (Nat.eq_dec i n) as [->|N]; [exact E2|]. apply IH; [intros; apply H; lia|exact E1|lia].
Qed.
Lemma sum_split n m (f : nat -> F) : sum (n + m) f = sum n f + sum m (fun i => f (n + i)%nat).
Proof.
  induction m as [|m IH]; cbn [sum].
  - rewrite Nat.add_0_r. ring.
  - rewrite Nat.add_succ_r. cbn [sum]. rewrite IH. ring.
Qed.
Lemma sum_S_l n (f : nat -> F) : sum (S n) f = f 0%nat + sum n (fun i => f (S i)).
Proof. change (S n) with (1 + n)%nat. rewrite sum_split. cbn [sum Nat.add]. ring. Qed.
Lemma sum_mul n m (f g : nat -> F) :
  sum n f * sum m g = sum n (fun i => sum m (fun j => f i * g j)).
Proof.
  rewrite <- sum_scale_r. apply sum_ext. intros i _. rewrite sum_scale. reflexivity.
Qed.

Lemma suml_app (l k : list F) : suml (l ++ k) = suml l + suml k.
Proof. induction l as [|x l IH]; cbn [app suml]; [ring|]. rewrite IH. ring. Qed.
Lemma suml_map_seq (f : nat -> F) n : suml (map f (seq 0 n)) = sum n f.
Proof.
  induction n as [|n IH]; [reflexivity|].
  rewrite seq_S, map_app, suml_app, IH. cbn [map suml sum Nat.add]. ring.
Qed.
Lemma suml_perm (l k : list F) : Permutation l k -> suml l = suml k.
Proof.
  induction 1 as [|x l k H IH|x y l|l k h H IH H' IH']; cbn [suml]; try ring.
  - rewrite IH. reflexivity.
  - congruence.
Qed.

Lemma pow_add a n m : pow a (n + m) = pow a n * pow a m.
Proof. induction n as [|n IH]; cbn [pow Nat.add]; [ring|]. rewrite IH. ring. Qed.
Lemma pow_mul a b n : pow (a * b) n = pow a n * pow b n.
Proof. induction n as [|n IH]; cbn [pow]; [ring|]. rewrite IH. ring. Qed.
Lemma pow_pos a n : 0 < a -> 0 < pow a n.
Proof. intros H. induction n as [|n IH]; cbn [pow]; [apply lt_0_1|apply mul_pos; assumption]. Qed.
Lemma pow_nz a n : a <> 0 -> pow a n <> 0.
Proof. intros H. induction n as [|n IH]; cbn [pow]; [apply one_nz|apply mul_neq_0; assumption]. Qed.
Lemma one_pow n : pow (1 : F) n = 1.
Proof. induction n as [|n IH]; cbn [pow]; [reflexivity|]. rewrite IH. ring. Qed.
End Theory.
