(** Proofs about the elimination solvers. *)
From Coq Require Import Field.
From Verif Require Import Prelude OField SolveModel SolveSpec.

Section S.
Context {F : ofield}.
Add Field SolveF : (of_field F).
Local Notation mat := (mat (F := F)).
Local Notation fmat := (fmat (F := F)).

Lemma set2_spec (A : mat) i j v r c : set2 A i j v r c = if (r =? i) && (c =? j) then v else A r c.
Proof. reflexivity. Qed.

Section Steps.
Variable n : nat.

(** ** Single statements *)
Lemma prescribe_spec (pv : nat -> F) iEQ (A B : mat) : iEQ <= n ->
  let AB' := prescribe n pv iEQ (A, B) in
  (forall r c, r < n -> fst AB' r c = if (iEQ <=? r) && (c =? iEQ) then zero else A r c) /\
  (forall r k, r < n -> snd AB' r k = if iEQ <=? r then sub (B r k) (mul (A r iEQ) (pv iEQ)) else B r k).
Proof.
  intros Hi. cbn zeta. unfold prescribe.
  set (f := fun (AB : mat * mat) iROW => _).
  assert (G : forall m, let AB' := fold_left f (seq iEQ m) (A, B) in
     (forall r c, fst AB' r c = if (iEQ <=? r) && (r <? iEQ + m) && (c =? iEQ) then zero else A r c) /\
     (forall r k, snd AB' r k = if (iEQ <=? r) && (r <? iEQ + m) then sub (B r k) (mul (A r iEQ) (pv iEQ)) else B r k)).
  { induction m as [|m [IH1 IH2]]; cbn zeta.
    - split; intros r c; cbn [seq fold_left fst snd]; destruct (Nat.leb_spec iEQ r), (Nat.ltb_spec r (iEQ + 0)); try lia; reflexivity.
    - rewrite seq_S, fold_left_app. cbn [fold_left]. set (AB := fold_left f (seq iEQ m) (A, B)) in *.
      destruct AB as [A1 B1] eqn:E. cbn [fst snd] in *. unfold f at 1 2. cbn [fst snd]. split; intros r c.
      + rewrite set2_spec, IH1. destruct (Nat.eqb_spec r (iEQ + m)), (Nat.eqb_spec c iEQ), (Nat.leb_spec iEQ r), (Nat.ltb_spec r (iEQ + m)), (Nat.ltb_spec r (iEQ + S m));
          cbn [andb]; try reflexivity; try lia.
      + unfold setrow. rewrite IH2, IH2, IH1. destruct (Nat.eqb_spec r (iEQ + m)) as [->|].
        * destruct (Nat.leb_spec iEQ (iEQ + m)), (Nat.ltb_spec (iEQ + m) (iEQ + m)), (Nat.ltb_spec (iEQ + m) (iEQ + S m)); try lia; cbn [andb]; reflexivity.
        * destruct (Nat.leb_spec iEQ r), (Nat.ltb_spec r (iEQ + m)), (Nat.ltb_spec r (iEQ + S m)); cbn [andb]; try reflexivity; lia. }
  destruct (G (n - iEQ)) as [G1 G2]. split; intros r c Hr.
  - rewrite G1. destruct (Nat.leb_spec iEQ r), (Nat.ltb_spec r (iEQ + (n - iEQ))); cbn [andb]; try reflexivity; lia.
  - rewrite G2. destruct (Nat.leb_spec iEQ r), (Nat.ltb_spec r (iEQ + (n - iEQ))); cbn [andb]; try reflexivity; lia.
Qed.

Lemma subtract_row_spec iEQ iROW (factor : F) (A B : mat) : iROW <> iEQ ->
  let AB' := subtract_row n iEQ iROW factor (A, B) in
  (forall r c, fst AB' r c = if (r =? iROW) && (c <? n) then sub (A r c) (mul factor (A iEQ c)) else A r c) /\
  (forall r k, snd AB' r k = if r =? iROW then sub (B r k) (mul factor (B iEQ k)) else B r k).
Proof.
  intros Hne. cbn zeta. unfold subtract_row. cbn [fst snd].
  set (f := fun (A : mat) iCOL => _).
  assert (G : forall m r c, fold_left f (seq 0 m) A r c =
     if (r =? iROW) && (c <? m) then sub (A r c) (mul factor (A iEQ c)) else A r c).
  { induction m as [|m IH]; intros r c.
    - cbn. rewrite andb_false_r. reflexivity.
    - rewrite seq_S, fold_left_app. cbn [fold_left Nat.add]. set (A1 := fold_left f (seq 0 m) A) in *. unfold f at 1.
      rewrite set2_spec, !IH. destruct (Nat.eqb_spec r iROW) as [->|]; cbn [andb]; [|reflexivity].
      destruct (Nat.eqb_spec iEQ iROW); [congruence|]. rewrite Nat.eqb_refl. cbn [andb].
      destruct (Nat.eqb_spec c m) as [->|].
      + rewrite Nat.ltb_irrefl. destruct (Nat.ltb_spec m (S m)); [reflexivity|lia].
      + destruct (Nat.ltb_spec c m), (Nat.ltb_spec c (S m)); try reflexivity; lia. }
  split; [apply G|]. intros r k. unfold setrow. destruct (Nat.eqb_spec r iROW) as [->|]; reflexivity.
Qed.

(** A sweep over several rows with one pivot row. *)
Section Rows.
Variables (iEQ : nat) (pivot : F) (skip : nat -> F -> bool).
Hypothesis Hi : iEQ < n.
Definition sweep_step (AB : mat * mat) (iROW : nat) : mat * mat :=
  let factor := div (fst AB iROW iEQ) pivot in
  if skip iROW factor then AB else subtract_row n iEQ iROW factor AB.
Definition factor_of (A : mat) (l : list nat) (r : nat) : F :=
  let f := div (A r iEQ) pivot in
  if existsb (Nat.eqb r) l && negb (skip r f) then f else zero.

Lemma sweep_spec l : NoDup l -> (forall r, In r l -> r = iEQ -> forall f, skip r f = true) -> forall A B,
  let AB' := fold_left sweep_step l (A, B) in
  (forall r c, r < n -> c < n -> fst AB' r c = sub (A r c) (mul (factor_of A l r) (A iEQ c))) /\
  (forall r k, r < n -> snd AB' r k = sub (B r k) (mul (factor_of A l r) (B iEQ k))).
Proof.
  intros ND. induction ND as [|x l Hx ND IH]; intros Hs A B; cbn zeta.
  - cbn [fold_left fst snd]. unfold factor_of. cbn [existsb andb]. split; intros; ring.
  - cbn [fold_left]. set (f := div (A x iEQ) pivot).
    assert (Hs' : forall r, In r l -> r = iEQ -> forall f, skip r f = true) by (intros r Hr; apply Hs; right; exact Hr).
    assert (E : exists A1 B1, sweep_step (A, B) x = (A1, B1) /\
       (forall r c, c < n -> A1 r c = if (r =? x) && negb (skip x f) then sub (A r c) (mul f (A iEQ c)) else A r c) /\
       (forall r k, B1 r k = if (r =? x) && negb (skip x f) then sub (B r k) (mul f (B iEQ k)) else B r k)).
    { unfold sweep_step. cbn [fst]. fold f. destruct (skip x f) eqn:Es.
      - exists A, B. split; [reflexivity|]. split; intros; rewrite andb_false_r; reflexivity.
      - assert (Hne : x <> iEQ) by (intros ->; rewrite (Hs iEQ (or_introl eq_refl) eq_refl) in Es; discriminate Es).
        destruct (subtract_row_spec iEQ x f A B Hne) as [G1 G2]. destruct (subtract_row n iEQ x f (A, B)) as [A1 B1].
        exists A1, B1. cbn [fst snd negb] in *. split; [reflexivity|]. split; [intros r c Hc; rewrite G1|intros r k; rewrite G2; rewrite andb_true_r; reflexivity].
        destruct (Nat.ltb_spec c n); [|lia]. reflexivity. }
    destruct E as (A1 & B1 & E & EA & EB). rewrite E. destruct (IH Hs' A1 B1) as [I1 I2]. cbn zeta in *.
    assert (HiE : (iEQ =? x) && negb (skip x f) = false).
    { destruct (Nat.eqb_spec iEQ x) as [<-|]; [|reflexivity]. cbn [andb]. rewrite (Hs iEQ (or_introl eq_refl) eq_refl). reflexivity. }
    assert (EiA : forall c, c < n -> A1 iEQ c = A iEQ c) by (intros c Hc; rewrite EA, HiE by exact Hc; reflexivity).
    assert (EiB : forall k, B1 iEQ k = B iEQ k) by (intros k; rewrite EB, HiE; reflexivity).
    assert (Hf : forall r, r < n -> factor_of A1 l r = if r =? x then zero else factor_of A (x :: l) r).
    { intros r Hr. unfold factor_of. cbn [existsb]. destruct (Nat.eqb_spec r x) as [->|Hne].
      - assert (En : existsb (Nat.eqb x) l = false).
        { apply not_true_is_false. intros Ht. apply existsb_exists in Ht. destruct Ht as (y & Hy & Eq). apply Nat.eqb_eq in Eq. subst y. contradiction. }
        rewrite En. reflexivity.
      - cbn [orb]. rewrite EA by exact Hi. destruct (Nat.eqb_spec r x); [congruence|]. reflexivity. }
    assert (Hfx : factor_of A (x :: l) x = if skip x f then zero else f).
    { unfold factor_of. cbn [existsb]. rewrite Nat.eqb_refl. cbn [orb]. fold f. destruct (skip x f); reflexivity. }
    split; intros r c Hr; [intros Hc|].
    + rewrite I1 by assumption. rewrite Hf, EiA by assumption. rewrite EA by exact Hc.
      destruct (Nat.eqb_spec r x) as [->|]; cbn [andb].
      * rewrite Hfx. destruct (skip x f); cbn [negb]; ring.
      * reflexivity.
    + rewrite I2 by assumption. rewrite Hf, EiB by assumption. rewrite EB.
      destruct (Nat.eqb_spec r x) as [->|]; cbn [andb].
      * rewrite Hfx. destruct (skip x f); cbn [negb]; ring.
      * reflexivity.
Qed.
End Rows.

(** ** One equation *)
Section OneEq.
Variables (ptol dtol : F) (pb : nat -> bool) (pv : nat -> F).

Definition one_step (m : meth) (iEQ : nat) (AB : mat * mat) : (mat * mat) * result unit :=
  if pb iEQ then (prescribe n pv iEQ AB, Ok tt)
  else match m with Jordan => jordan_step n ptol dtol iEQ AB | GaussJordan => gauss_step n ptol dtol iEQ AB end.

(** A free equation that did not raise. *)
Lemma free_step m iEQ (A B : mat) (AB' : mat * mat) : iEQ < n -> pb iEQ = false -> one_step m iEQ (A, B) = (AB', Ok tt) ->
  (m = Jordan \/ iEQ < n - 1 -> leb ptol (absf (A iEQ iEQ)) = true) /\
  exists fac, fac iEQ = zero /\
    (forall r c, r < n -> c < n -> fst AB' r c = sub (A r c) (mul (fac r) (A iEQ c))) /\
    (forall r k, r < n -> snd AB' r k = sub (B r k) (mul (fac r) (B iEQ k))) /\
    (m = GaussJordan -> forall r, r <= iEQ -> fac r = zero) /\
    (dtol = zero -> (forall r, iEQ < r < n -> fac r = div (A r iEQ) (A iEQ iEQ)) /\
       (m = Jordan -> forall r, r < n -> r <> iEQ -> fac r = div (A r iEQ) (A iEQ iEQ))).
Proof.
  intros Hi Hp. unfold one_step. rewrite Hp.
  assert (Hdz : dtol = zero -> forall x : F, ltb (absf x) dtol = false).
  { intros -> x. apply ltb_false. apply abs_nonneg. }
  destruct m.
  - unfold jordan_step. cbn [fst]. destruct (ltb (absf (A iEQ iEQ)) ptol) eqn:E; [discriminate|]. intros [= <-].
    apply ltb_false in E. split; [intros _; exact E|].
    set (skip := fun iROW f => (iROW =? iEQ) || ltb (absf f) dtol).
    destruct (sweep_spec iEQ (A iEQ iEQ) skip Hi (seq 0 n) (seq_NoDup n 0)) with (A := A) (B := B) as [S1 S2].
    { intros r _ -> f. unfold skip. rewrite Nat.eqb_refl. reflexivity. }
    exists (factor_of iEQ (A iEQ iEQ) skip A (seq 0 n)). split.
    { unfold factor_of, skip. rewrite Nat.eqb_refl. cbn [orb negb]. rewrite andb_false_r. reflexivity. }
    split; [exact S1|]. split; [exact S2|]. split; [discriminate|].
    intros Hd. assert (G : forall r, r < n -> r <> iEQ -> factor_of iEQ (A iEQ iEQ) skip A (seq 0 n) r = div (A r iEQ) (A iEQ iEQ)).
    { intros r Hr Hne. unfold factor_of, skip. rewrite (Hdz Hd). destruct (Nat.eqb_spec r iEQ); [congruence|]. cbn [orb negb].
      assert (Ex : existsb (Nat.eqb r) (seq 0 n) = true) by (apply existsb_exists; exists r; split; [apply in_seq; lia|apply Nat.eqb_refl]).
      rewrite Ex. reflexivity. }
    split; [intros r Hr; apply G; lia|intros _; exact G].
  - unfold gauss_step. destruct (Nat.ltb_spec iEQ (n - 1)) as [Hlt|Hge].
    + cbn [fst]. destruct (ltb (absf (A iEQ iEQ)) ptol) eqn:E; [discriminate|]. intros [= <-].
      apply ltb_false in E. split; [intros _; exact E|].
      set (skip := fun (_ : nat) f => ltb (absf f) dtol).
      destruct (sweep_spec iEQ (A iEQ iEQ) skip Hi (seq (iEQ + 1) (n - (iEQ + 1))) (seq_NoDup _ _)) with (A := A) (B := B) as [S1 S2].
      { intros r Hr ->. apply in_seq in Hr. lia. }
      assert (Hz : forall r, r <= iEQ -> factor_of iEQ (A iEQ iEQ) skip A (seq (iEQ + 1) (n - (iEQ + 1))) r = zero).
      { intros r Hr. unfold factor_of. assert (Ex : existsb (Nat.eqb r) (seq (iEQ + 1) (n - (iEQ + 1))) = false).
        { apply not_true_is_false. intros Ht. apply existsb_exists in Ht. destruct Ht as (y & Hy & Eq). apply Nat.eqb_eq in Eq. subst y. apply in_seq in Hy. lia. }
        rewrite Ex. reflexivity. }
      exists (factor_of iEQ (A iEQ iEQ) skip A (seq (iEQ + 1) (n - (iEQ + 1)))). split; [apply Hz; lia|].
      split; [exact S1|]. split; [exact S2|]. split; [intros _; exact Hz|]. intros Hd. split; [|discriminate].
      intros r Hr. unfold factor_of, skip. rewrite (Hdz Hd). cbn [negb].
      assert (Ex : existsb (Nat.eqb r) (seq (iEQ + 1) (n - (iEQ + 1))) = true) by (apply existsb_exists; exists r; split; [apply in_seq; lia|apply Nat.eqb_refl]).
      rewrite Ex. reflexivity.
    + intros [= <-]. split; [intros [H|H]; [discriminate H|lia]|].
      exists (fun _ => zero). cbn [fst snd]. split; [reflexivity|]. split; [intros; ring|]. split; [intros; ring|].
      split; [reflexivity|]. intros _. split; [|discriminate]. intros r Hr. lia.
Qed.

(** ** Equivalence of the systems before and after *)
Variable k : nat.
Variable x : nat -> F.
Definition res (AB : mat * mat) (i : nat) : F := sub (row_dot n (fst AB) x i) (snd AB i k).

Lemma row_dot_ext A A' i : (forall j, j < n -> A i j = A' i j) -> row_dot n A x i = row_dot n A' x i.
Proof. intros H. unfold row_dot. apply sum_ext. intros j Hj. rewrite H by exact Hj. reflexivity. Qed.

Lemma row_dot_split A iEQ i : iEQ < n ->
  row_dot n A x i = add (mul (A i iEQ) (x iEQ)) (row_dot n (fun r c => if c =? iEQ then zero else A r c) x i).
Proof.
  intros Hi. unfold row_dot. rewrite <- (sum_delta F n iEQ (fun j => mul (A i j) (x j)) Hi), <- sum_add.
  apply sum_ext. intros j Hj. destruct (Nat.eqb_spec j iEQ) as [->|]; ring.
Qed.

Lemma prescribe_res iEQ AB r : iEQ < n -> x iEQ = pv iEQ -> r < n -> res (prescribe n pv iEQ AB) r = res AB r.
Proof.
  intros Hi Hx Hr. destruct AB as [A B]. destruct (prescribe_spec pv iEQ A B ltac:(lia)) as [P1 P2]. unfold res.
  rewrite P2 by exact Hr. cbn [fst snd].
  destruct (Nat.leb_spec iEQ r) as [Hle|Hgt].
  - rewrite (row_dot_split A iEQ r Hi), Hx.
    rewrite (row_dot_ext (fst (prescribe n pv iEQ (A, B))) (fun r c => if c =? iEQ then zero else A r c) r).
    + ring.
    + intros j Hj. rewrite P1 by exact Hr. destruct (Nat.leb_spec iEQ r); [|lia]. reflexivity.
  - rewrite (row_dot_ext (fst (prescribe n pv iEQ (A, B))) A r); [reflexivity|].
    intros j Hj. rewrite P1 by exact Hr. destruct (Nat.leb_spec iEQ r); [lia|]. reflexivity.
Qed.

Lemma elim_res iEQ (A B : mat) (AB' : mat * mat) fac r : r < n ->
  (forall r c, r < n -> c < n -> fst AB' r c = sub (A r c) (mul (fac r) (A iEQ c))) ->
  (forall r k, r < n -> snd AB' r k = sub (B r k) (mul (fac r) (B iEQ k))) ->
  res AB' r = sub (res (A, B) r) (mul (fac r) (res (A, B) iEQ)).
Proof.
  intros Hr H1 H2. unfold res. rewrite H2 by exact Hr. cbn [fst snd]. unfold row_dot.
  rewrite (sum_ext F n (fun j => mul (fst AB' r j) (x j)) (fun j => sub (mul (A r j) (x j)) (mul (fac r) (mul (A iEQ j) (x j))))).
  - rewrite sum_sub, sum_scale. ring.
  - intros j Hj. rewrite H1 by assumption. ring.
Qed.

Definition free_zero (AB : mat * mat) : Prop := forall i, i < n -> pb i = false -> res AB i = zero.

Lemma step_res m iEQ AB AB' : iEQ < n -> (forall i, i < n -> pb i = true -> x i = pv i) ->
  one_step m iEQ AB = (AB', Ok tt) ->
  (free_zero AB' -> free_zero AB) /\ (free_zero AB -> free_zero AB') /\
  (free_zero AB' -> forall i, i < n -> res AB' i = res AB i).
Proof.
  intros Hi Hx E. destruct AB as [A B]. destruct (pb iEQ) eqn:Hp.
  - unfold one_step in E. rewrite Hp in E. injection E as <-.
    assert (G : forall r, r < n -> res (prescribe n pv iEQ (A, B)) r = res (A, B) r) by (intros r; apply prescribe_res; auto).
    split; [|split]; [intros H i Hi' Hf; rewrite <- G by exact Hi'; auto|intros H i Hi' Hf; rewrite G by exact Hi'; auto|intros _; exact G].
  - destruct (free_step m iEQ A B AB' Hi Hp E) as (_ & fac & F0 & F1 & F2 & _).
    assert (G : forall r, r < n -> res AB' r = sub (res (A, B) r) (mul (fac r) (res (A, B) iEQ))) by (intros r Hr; apply elim_res; assumption).
    assert (Gi : res AB' iEQ = res (A, B) iEQ) by (rewrite (G iEQ Hi), F0; ring).
    assert (Back : free_zero AB' -> forall i, i < n -> res AB' i = res (A, B) i).
    { intros H i Hi'. rewrite (G i Hi'). rewrite <- Gi, (H iEQ Hi Hp). ring. }
    split; [|split; [|exact Back]].
    + intros H i Hi' Hf. rewrite <- (Back H i Hi'). apply H; assumption.
    + intros H i Hi' Hf. rewrite (G i Hi'), (H i Hi' Hf), (H iEQ Hi Hp). ring.
Qed.

Lemma eliminate_cons m iEQ eqs AB : eliminate n ptol dtol pb pv m (iEQ :: eqs) AB =
  let '(AB', r) := one_step m iEQ AB in
  match r with Ok _ => eliminate n ptol dtol pb pv m eqs AB' | Err e => (AB', Err e) end.
Proof. reflexivity. Qed.

Lemma eliminate_res m eqs : forall AB AB', (forall i, In i eqs -> i < n) -> (forall i, i < n -> pb i = true -> x i = pv i) ->
  eliminate n ptol dtol pb pv m eqs AB = (AB', Ok tt) ->
  (free_zero AB' -> free_zero AB) /\ (free_zero AB -> free_zero AB') /\
  (free_zero AB' -> forall i, i < n -> res AB' i = res AB i).
Proof.
  induction eqs as [|e eqs IH]; intros AB AB' He Hx E.
  - cbn in E. injection E as <-. auto.
  - rewrite eliminate_cons in E. destruct (one_step m e AB) as [AB1 r] eqn:E1. destruct r as [[]|]; [|discriminate E].
    destruct (step_res m e AB AB1 (He e (or_introl eq_refl)) Hx E1) as (A1 & A2 & A3).
    destruct (IH AB1 AB' (fun i Hi => He i (or_intror Hi)) Hx E) as (B1 & B2 & B3).
    split; [auto|]. split; [auto|]. intros H i Hi. rewrite (B3 H i Hi). apply A3; auto.
Qed.
End OneEq.

(** ** The shape of the reduced matrix (nothing is skipped) *)
Section Shape.
Variables (ptol : F) (pb : nat -> bool) (pv : nat -> F).
Hypothesis Hpt : leb ptol zero = false.
Let dtol : F := zero.

Definition cleared (m : meth) (s : nat) (A : mat) : Prop :=
  (forall r j, j < s -> j < r -> r < n -> A r j = zero) /\
  (forall j, j < s -> j < n -> pb j = true -> A j j = zero) /\
  (forall j, j < s -> j < n -> pb j = false -> m = Jordan \/ j < n - 1 -> leb ptol (absf (A j j)) = true) /\
  (m = Jordan -> forall r j, j < s -> j < n -> r < n -> r <> j -> pb j = false -> A r j = zero).

Lemma pivot_nz p : leb ptol (absf p) = true -> p <> zero.
Proof. intros H ->. rewrite abs_0 in H. congruence. Qed.

Lemma step_cleared m s AB AB' : s < n -> one_step ptol dtol pb pv m s AB = (AB', Ok tt) -> cleared m s (fst AB) -> cleared m (S s) (fst AB').
Proof.
  intros Hs E (C1 & C2 & C3 & C4). destruct AB as [A B]. cbn [fst] in *. destruct (pb s) eqn:Hp.
  - unfold one_step in E. rewrite Hp in E. injection E as <-.
    destruct (prescribe_spec pv s A B ltac:(lia)) as [P1 _]. cbn zeta in P1.
    split; [|split; [|split]].
    + intros r j Hj Hjr Hr. rewrite P1 by exact Hr. destruct (Nat.leb_spec s r); cbn [andb]; [|apply C1; lia].
      destruct (Nat.eqb_spec j s); [reflexivity|]. apply C1; lia.
    + intros j Hj Hjn Hpj. rewrite P1 by exact Hjn. destruct (Nat.eqb_spec j s) as [->|].
      * rewrite Nat.leb_refl. reflexivity.
      * rewrite andb_false_r. apply C2; [lia|exact Hjn|exact Hpj].
    + intros j Hj Hjn Hpj Hm. rewrite P1 by exact Hjn. destruct (Nat.eqb_spec j s) as [->|]; [congruence|].
      rewrite andb_false_r. apply C3; [lia|exact Hjn|exact Hpj|exact Hm].
    + intros Hm r j Hj Hjn Hr Hne Hpj. rewrite P1 by exact Hr. destruct (Nat.eqb_spec j s) as [->|]; [congruence|].
      rewrite andb_false_r. apply C4; auto; lia.
  - destruct (free_step ptol dtol pb pv m s A B AB' Hs Hp E) as (Hpiv & fac & F0 & F1 & _ & F3 & F4).
    destruct (F4 eq_refl) as [F5 F6].
    assert (Row : forall j, j < s -> A s j = zero) by (intros j Hj; apply C1; [exact Hj|exact Hj|exact Hs]).
    assert (Keep : forall r j, j < s -> r < n -> fst AB' r j = A r j).
    { intros r j Hj Hr. rewrite F1 by lia. rewrite (Row j Hj). ring. }
    split; [|split; [|split]].
    + intros r j Hj Hjr Hr. destruct (Nat.eq_dec j s) as [->|Hne].
      * assert (Hlt : s < n - 1) by lia. rewrite F1 by lia. rewrite (F5 r ltac:(lia)).
        field. apply pivot_nz. apply Hpiv. right. exact Hlt.
      * rewrite Keep by lia. apply C1; lia.
    + intros j Hj Hjn Hpj. destruct (Nat.eq_dec j s) as [->|Hne]; [congruence|]. rewrite Keep by lia. apply C2; [lia|exact Hjn|exact Hpj].
    + intros j Hj Hjn Hpj Hm. destruct (Nat.eq_dec j s) as [->|Hne].
      * rewrite F1, F0 by lia. replace (sub (A s s) (mul zero (A s s))) with (A s s) by ring. apply Hpiv. exact Hm.
      * rewrite Keep by lia. apply C3; [lia|exact Hjn|exact Hpj|exact Hm].
    + intros Hm r j Hj Hjn Hr Hne Hpj. destruct (Nat.eq_dec j s) as [->|Hne'].
      * rewrite F1 by lia. rewrite (F6 Hm r Hr Hne). field. apply pivot_nz. apply Hpiv. left. exact Hm.
      * rewrite Keep by lia. apply C4; auto; lia.
Qed.

Lemma eliminate_cleared m len : forall s AB AB', s + len <= n -> eliminate n ptol dtol pb pv m (seq s len) AB = (AB', Ok tt) ->
  cleared m s (fst AB) -> cleared m (s + len) (fst AB').
Proof.
  induction len as [|len IH]; intros s AB AB' Hl E HC.
  - cbn in E. injection E as <-. rewrite Nat.add_0_r. exact HC.
  - cbn [seq] in E. rewrite eliminate_cons in E. destruct (one_step ptol dtol pb pv m s AB) as [AB1 r] eqn:E1.
    destruct r as [[]|]; [|discriminate E]. replace (s + S len) with (S s + len) by lia.
    apply (IH (S s) AB1); [lia|exact E|]. eapply step_cleared; [lia|exact E1|exact HC].
Qed.

Lemma cleared_0 m A : cleared m 0 A.
Proof. split; [|split; [|split]]; intros; lia. Qed.

Lemma elimination_cleared m AB AB' : elimination n ptol dtol pb pv m AB = (AB', Ok tt) -> cleared m n (fst AB').
Proof. intros E. apply (eliminate_cleared m n 0 AB AB' (le_n _) E). apply cleared_0. Qed.
End Shape.

(** ** Back substitution *)
Section Back.
Variables (pb : nat -> bool) (pv : nat -> F) (A B : mat).

Definition back_step (XR : fmat * fmat) (iEQ : nat) : fmat * fmat :=
  let (X, R) := XR in
  let resid := fold_left (fun (resid : nat -> option F) iCOL => fun k => fsub (resid k) (fmul (A iEQ iCOL) (X iCOL k)))
                 (seq (iEQ + 1) (n - (iEQ + 1))) (fun k => Some (B iEQ k)) in
  if pb iEQ then (setfrow X iEQ (fun _ => Some (pv iEQ)), setfrow R iEQ (fun k => fopp (resid k)))
  else (setfrow X iEQ (fun k => fdiv (resid k) (A iEQ iEQ)), R).

Lemma backsub_steps : backsub n pb pv (A, B) = fold_left back_step (rev (seq 0 n)) (fun _ _ => Some zero, fun _ _ => Some zero).
Proof. reflexivity. Qed.

Definition value_of (X : fmat) (i k : nat) : F := match X i k with Some v => v | None => zero end.

Lemma resid_fold (X : fmat) a i k len s : (forall j, s <= j < s + len -> X j k <> None) ->
  fold_left (fun (resid : nat -> option F) iCOL => fun k => fsub (resid k) (fmul (A i iCOL) (X iCOL k)))
    (seq s len) (fun k => Some (a k)) k
  = Some (sub (a k) (sum len (fun t => mul (A i (s + t)) (value_of X (s + t) k)))).
Proof.
  induction len as [|len IH]; intros H.
  - cbn [seq fold_left sum]. f_equal. ring.
  - rewrite seq_S, fold_left_app. cbn [fold_left]. rewrite IH by (intros j Hj; apply H; lia).
    cbn [sum]. specialize (H (s + len) ltac:(lia)). destruct (X (s + len) k) as [v|] eqn:Ev; [|congruence].
    assert (Ew : value_of X (s + len) k = v) by (unfold value_of; rewrite Ev; reflexivity). rewrite Ew.
    cbn [fsub fmul]. f_equal. ring.
Qed.

(** Upper part of row [i]. *)
Definition upper (X : fmat) (i k : nat) : F := sum (n - (i + 1)) (fun t => mul (A i (i + 1 + t)) (value_of X (i + 1 + t) k)).

Lemma upper_ext X X' i k : (forall j, i < j < n -> X j k = X' j k) -> upper X i k = upper X' i k.
Proof. intros H. unfold upper. apply sum_ext. intros t Ht. unfold value_of. rewrite H by lia. reflexivity. Qed.

Lemma back_steps len : forall s, s + len = n -> let XR := fold_left back_step (rev (seq s len)) (fun _ _ => Some zero, fun _ _ => Some zero) in
  (forall i k, i < s -> fst XR i k = Some zero /\ snd XR i k = Some zero) /\
  ((forall i, s <= i < n -> pb i = false -> A i i <> zero) -> forall i k, s <= i < n ->
    (exists v, fst XR i k = Some v) /\
    if pb i then fst XR i k = Some (pv i) /\ snd XR i k = Some (sub (upper (fst XR) i k) (B i k))
    else snd XR i k = Some zero /\ fst XR i k = Some (div (sub (B i k) (upper (fst XR) i k)) (A i i))) /\
  (forall i k v, s <= i < n -> pb i = false -> fst XR i k = Some v -> A i i <> zero).
Proof.
  induction len as [|len IH]; intros s Hs; cbn zeta.
  - cbn. split; [auto|]. split; [intros _ i k Hi; lia|intros i k v Hi; lia].
  - cbn [seq rev]. rewrite fold_left_app. cbn [fold_left].
    destruct (IH (S s) ltac:(lia)) as (I1 & I2 & I3). cbn zeta in *.
    set (XR := fold_left back_step (rev (seq (S s) len)) _) in *. destruct XR as [X R]. cbn [fst snd] in *.
    unfold back_step.
    set (resid := fold_left _ (seq (s + 1) _) _).
    assert (Other : forall (M : fmat) row i k, i <> s -> setfrow M s row i k = M i k).
    { intros M row i k Hne. unfold setfrow. destruct (Nat.eqb_spec i s); [congruence|reflexivity]. }
    assert (Self : forall (M : fmat) row k, setfrow M s row s k = row k) by (intros; unfold setfrow; rewrite Nat.eqb_refl; reflexivity).
    split; [|split].
    + intros i k Hi. destruct (pb s); cbn [fst snd]; rewrite ?Other by lia; apply I1; lia.
    + intros Hnz i k Hi. specialize (I2 (fun i Hi => Hnz i ltac:(lia))).
      assert (Hres : resid k = Some (sub (B s k) (upper X s k))).
      { unfold resid. rewrite resid_fold; [reflexivity|]. intros j Hj. destruct (proj1 (I2 j k ltac:(lia))) as (v & ->). discriminate. }
      destruct (Nat.eq_dec i s) as [->|Hne].
      * destruct (pb s) eqn:Hp; cbn [fst snd]; rewrite !Self.
        -- split; [eauto|]. split; [reflexivity|]. rewrite Hres. cbn. f_equal.
           rewrite (upper_ext (setfrow X s _) X) by (intros j Hj; apply Other; lia). ring.
        -- rewrite Hres. cbn [fdiv]. destruct (eqb_spec F (A s s) zero) as [Ez|_]; [exfalso; exact (Hnz s ltac:(lia) Hp Ez)|].
           rewrite (upper_ext (setfrow X s _) X) by (intros j Hj; apply Other; lia).
           split; [eauto|]. split; [apply I1; lia|reflexivity].
      * specialize (I2 i k ltac:(lia)). destruct I2 as [Iv Ii].
        destruct (pb s) eqn:Hp; cbn [fst snd]; rewrite !(Other _ _ i) by exact Hne;
          (split; [exact Iv|]); rewrite (upper_ext (setfrow X s _) X) by (intros j Hj; apply Other; lia);
          destruct (pb i); exact Ii.
    + intros i k v Hi Hp. destruct (Nat.eq_dec i s) as [->|Hne].
      * rewrite Hp. cbn [fst]. rewrite Self. unfold fdiv. destruct (resid k); [|discriminate].
        destruct (eqb_spec F (A s s) zero) as [Ez|Ez]; [discriminate|]. intros _. exact Ez.
      * intros E. apply (I3 i k v); [lia|exact Hp|]. destruct (pb s); cbn [fst] in E; rewrite Other in E by exact Hne; exact E.
Qed.

(** In an upper triangular row the product reduces to the diagonal and upper part. *)
Lemma row_dot_upper i (x : nat -> F) : i < n -> (forall j, j < i -> A i j = zero) ->
  row_dot n A x i = add (mul (A i i) (x i)) (sum (n - (i + 1)) (fun t => mul (A i (i + 1 + t)) (x (i + 1 + t)))).
Proof.
  intros Hi Hz. unfold row_dot. replace n with (i + (1 + (n - (i + 1)))) at 1 by lia.
  rewrite (sum_split F i). rewrite (sum_0 F i) by (intros j Hj; rewrite (Hz j Hj); ring).
  rewrite (sum_split F 1). cbn [sum]. rewrite Nat.add_0_r.
  rewrite (sum_ext F _ (fun t => mul (A i (i + (1 + t))) (x (i + (1 + t)))) (fun t => mul (A i (i + 1 + t)) (x (i + 1 + t)))); [ring|].
  intros t Ht. rewrite Nat.add_assoc. reflexivity.
Qed.

Lemma backsub_spec : let XR := backsub n pb pv (A, B) in
  (forall r j, j < r -> r < n -> A r j = zero) -> (forall j, j < n -> pb j = true -> A j j = zero) ->
  (forall i, i < n -> pb i = false -> A i i <> zero) ->
  let x k i := value_of (fst XR) i k in
  forall i k, i < n ->
    fst XR i k = Some (x k i) /\
    snd XR i k = Some (if pb i then sub (row_dot n A (x k) i) (B i k) else zero) /\
    (pb i = true -> x k i = pv i) /\ (pb i = false -> row_dot n A (x k) i = B i k).
Proof.
  cbn zeta. rewrite backsub_steps. intros H1 H2 H3 i k Hi.
  destruct (back_steps n 0 eq_refl) as (_ & G & _). cbn zeta in G.
  set (XR := fold_left back_step (rev (seq 0 n)) _) in *.
  specialize (G (fun i Hi => H3 i ltac:(lia)) i k ltac:(lia)). destruct G as [[v Ev] G].
  assert (Eu : row_dot n A (fun i => value_of (fst XR) i k) i = add (mul (A i i) (value_of (fst XR) i k)) (upper (fst XR) i k)).
  { rewrite row_dot_upper; [reflexivity|exact Hi|]. intros j Hj. apply H1; assumption. }
  split; [unfold value_of; rewrite Ev; reflexivity|].
  destruct (pb i) eqn:Hp; destruct G as [G1 G2].
  - split; [rewrite G2, Eu, (H2 i Hi Hp); f_equal; ring|]. split; [intros _; unfold value_of; rewrite G1; reflexivity|discriminate].
  - split; [exact G1|]. split; [discriminate|]. intros _. rewrite Eu. unfold value_of. rewrite G2. field. apply H3; assumption.
Qed.

Lemma backsub_pivot i k v : i < n -> pb i = false -> fst (backsub n pb pv (A, B)) i k = Some v -> A i i <> zero.
Proof. intros Hi Hp. rewrite backsub_steps. destruct (back_steps n 0 eq_refl) as (_ & _ & G). apply G; [lia|exact Hp]. Qed.
End Back.

(** Back substitution only looks at the system itself. *)
Lemma resid_fold_ext (A1 A2 : mat) (X1 X2 : fmat) i k len : forall s (a1 a2 : nat -> option F),
  (forall j, s <= j < s + len -> A1 i j = A2 i j /\ X1 j k = X2 j k) -> a1 k = a2 k ->
  fold_left (fun (resid : nat -> option F) iCOL => fun k => fsub (resid k) (fmul (A1 i iCOL) (X1 iCOL k))) (seq s len) a1 k =
  fold_left (fun (resid : nat -> option F) iCOL => fun k => fsub (resid k) (fmul (A2 i iCOL) (X2 iCOL k))) (seq s len) a2 k.
Proof.
  induction len as [|len IH]; intros s a1 a2 H Ha; cbn [seq fold_left]; [exact Ha|].
  apply IH; [intros j Hj; apply H; lia|]. destruct (H s ltac:(lia)) as [E1 E2]. rewrite Ha, E1, E2. reflexivity.
Qed.
Lemma backsub_ext pb (pv : nat -> F) (AB1 AB2 : mat * mat) : same_on n AB1 AB2 -> forall i k,
  fst (backsub n pb pv AB1) i k = fst (backsub n pb pv AB2) i k /\ snd (backsub n pb pv AB1) i k = snd (backsub n pb pv AB2) i k.
Proof.
  intros HS. destruct AB1 as [A1 B1], AB2 as [A2 B2]. rewrite !backsub_steps.
  assert (G : forall len s, s + len = n -> forall i k,
    fst (fold_left (back_step pb pv A1 B1) (rev (seq s len)) (fun _ _ => Some zero, fun _ _ => Some zero)) i k =
    fst (fold_left (back_step pb pv A2 B2) (rev (seq s len)) (fun _ _ => Some zero, fun _ _ => Some zero)) i k /\
    snd (fold_left (back_step pb pv A1 B1) (rev (seq s len)) (fun _ _ => Some zero, fun _ _ => Some zero)) i k =
    snd (fold_left (back_step pb pv A2 B2) (rev (seq s len)) (fun _ _ => Some zero, fun _ _ => Some zero)) i k).
  { induction len as [|len IH]; intros s Hs i k; [split; reflexivity|].
    cbn [seq rev]. rewrite !fold_left_app. cbn [fold_left].
    pose proof (IH (S s) ltac:(lia)) as I. destruct (fold_left (back_step pb pv A1 B1) _ _) as [X1 R1].
    destruct (fold_left (back_step pb pv A2 B2) _ _) as [X2 R2]. cbn [fst snd] in I. unfold back_step.
    destruct (HS s ltac:(lia)) as [HA HB]. cbn [fst snd] in HA, HB.
    assert (ER : forall k, fold_left (fun (resid : nat -> option F) iCOL => fun k => fsub (resid k) (fmul (A1 s iCOL) (X1 iCOL k)))
       (seq (s + 1) (n - (s + 1))) (fun k => Some (B1 s k)) k =
       fold_left (fun (resid : nat -> option F) iCOL => fun k => fsub (resid k) (fmul (A2 s iCOL) (X2 iCOL k)))
       (seq (s + 1) (n - (s + 1))) (fun k => Some (B2 s k)) k).
    { intros k'. apply resid_fold_ext; [|rewrite HB; reflexivity]. intros j Hj. split; [apply HA; lia|apply (I j k')]. }
    destruct (pb s); cbn [fst snd]; unfold setfrow; (destruct (i =? s); [|apply I]).
    - split; [reflexivity|]. rewrite ER. reflexivity.
    - rewrite ER, (HA s ltac:(lia)). split; [reflexivity|apply I]. }
  apply (G n 0 eq_refl).
Qed.
End Steps.

(** ** The solver *)
Section Main.
Variables (m : meth) (ptol dtol : F) (n : nat) (A B : mat) (presc : option ((nat -> bool) * (nat -> F))) (inplace : bool).
Hypothesis Hpt : leb ptol zero = false.
Let pb := mask presc.
Let pv := value presc.

Lemma linsolve_unfold : linsolve m ptol dtol n A B presc inplace =
  let '(AB, r) := elimination n ptol dtol pb pv m (A, B) in
  (if inplace then AB else (A, B),
   match r with
   | Ok _ => Ok (fst (backsub n pb pv AB), match presc with Some _ => Some (snd (backsub n pb pv AB)) | None => None end)
   | Err _ => Err LinAlgError
   end).
Proof.
  unfold linsolve, pb, pv, mask, value. destruct presc as [[b v]|]; cbn [fst snd];
    destruct (elimination _ _ _ _ _ _ _) as [AB r]; destruct r; try reflexivity; destruct (backsub _ _ _ AB); reflexivity.
Qed.

(** The reduced system, if everything went well. *)
Lemma reduced AB' X R : nothing_dropped m ptol dtol n A B presc ->
  linsolve m ptol dtol n A B presc inplace = (AB', Ok (X, R)) ->
  exists U, elimination n ptol zero pb pv m (A, B) = (U, Ok tt) /\ cleared n ptol pb m n (fst U) /\
    (forall i k, X i k = fst (backsub n pb pv U) i k) /\
    R = match presc with Some _ => R | None => None end /\
    (forall r, R = Some r -> forall i k, r i k = snd (backsub n pb pv U) i k).
Proof.
  intros [HS Hr] E. rewrite linsolve_unfold in E. fold pb pv in HS, Hr. cbn beta zeta in HS, Hr.
  destruct (elimination n ptol dtol pb pv m (A, B)) as [AB r] eqn:E1. cbn [fst snd] in *.
  destruct r as [[]|]; [|discriminate E]. injection E as <- <- <-.
  destruct (elimination n ptol zero pb pv m (A, B)) as [U r0] eqn:E0. cbn [fst snd] in *. subst r0.
  exists U. split; [reflexivity|]. split; [eapply elimination_cleared; [exact Hpt|exact E0]|].
  split; [intros i k; apply (backsub_ext n pb pv AB U HS i k)|]. split; [destruct presc; reflexivity|].
  intros r Er. destruct presc; [|discriminate Er]. injection Er as <-. intros i k. apply (backsub_ext n pb pv AB U HS i k).
Qed.

(** Pivots of the reduced system. *)
Lemma reduced_pivots U X : cleared n ptol pb m n (fst U) -> (forall i k, X i k = fst (backsub n pb pv U) i k) ->
  (m = Jordan \/ exists x, finite n X x) -> forall i, i < n -> pb i = false -> fst U i i <> zero.
Proof.
  intros (_ & _ & C3 & _) EX Hm i Hi Hp. destruct Hm as [Hm|[x Hx]].
  - eapply pivot_nz; [exact Hpt|]. apply C3; auto.
  - destruct U as [UA UB]. apply (backsub_pivot n pb pv UA UB i 0 (x i 0) Hi Hp). rewrite <- EX. apply Hx. exact Hi.
Qed.

(** The main result: for every column [k] of the right-hand side. *)
Lemma linsolve_ok AB' X R : nothing_dropped m ptol dtol n A B presc ->
  linsolve m ptol dtol n A B presc inplace = (AB', Ok (X, R)) ->
  (m = Jordan \/ exists x, finite n X x) ->
  exists x, finite n X x /\
    (forall k, solves n A (fun i => B i k) pb pv (fun i => x i k)) /\
    (forall r, R = Some r -> exists v, finite n r v /\
       (forall i k, i < n -> pb i = false -> v i k = zero) /\
       (forall i k, i < n -> row_dot n A (fun j => x j k) i = add (B i k) (v i k))) /\
    (forall k y, solves n A (fun i => B i k) pb pv y -> forall i, i < n -> y i = x i k).
Proof.
  intros HN E Hm. destruct (reduced AB' X R HN E) as (U & EU & HC & EX & _ & ER).
  pose proof (reduced_pivots U X HC EX Hm) as HP.
  destruct U as [UA UB]. cbn [fst] in *. destruct HC as (C1 & C2 & C3 & C4).
  pose proof (backsub_spec n pb pv UA UB (fun r j Hj Hr => C1 r j ltac:(lia) Hj Hr) (fun j Hj => C2 j Hj Hj) HP) as HB. cbn zeta in HB.
  set (XR := backsub n pb pv (UA, UB)) in *. set (x := fun i k => value_of (fst XR) i k).
  assert (Hpre : forall k i, i < n -> pb i = true -> x i k = pv i) by (intros k i Hi Hp; apply (HB i k Hi); exact Hp).
  assert (Hfz : forall k, free_zero n pb k (fun i => x i k) (UA, UB)).
  { intros k i Hi Hp. unfold res. cbn [fst snd]. destruct (HB i k Hi) as (_ & _ & _ & H).
    assert (H' : row_dot n UA (fun i => x i k) i = UB i k) by exact (H Hp). rewrite H'. ring. }
  assert (HE : forall k y, (forall i, i < n -> pb i = true -> y i = pv i) ->
     (free_zero n pb k y (UA, UB) -> free_zero n pb k y (A, B)) /\ (free_zero n pb k y (A, B) -> free_zero n pb k y (UA, UB)) /\
     (free_zero n pb k y (UA, UB) -> forall i, i < n -> res n k y (UA, UB) i = res n k y (A, B) i)).
  { intros k y Hy. refine (eliminate_res n ptol zero pb pv k y m (seq 0 n) (A, B) (UA, UB) _ Hy EU). intros i Hi. apply in_seq in Hi. lia. }
  exists x. split.
  { intros i k Hi. rewrite EX. apply (HB i k Hi). }
  split.
  { intros k. split; [intros i Hi Hp; apply Hpre; assumption|]. intros i Hi Hp.
    destruct (HE k (fun i => x i k) (Hpre k)) as (H1 & _ & _). specialize (H1 (Hfz k) i Hi Hp).
    unfold res in H1. cbn [fst snd] in H1. apply (proj1 (sub_eq_0 F _ _)) in H1. exact H1. }
  split.
  { intros r Er. exists (fun i k => if pb i then sub (row_dot n UA (fun j => x j k) i) (UB i k) else zero). split; [|split].
    - intros i k Hi. rewrite (ER r Er). apply (HB i k Hi).
    - intros i k Hi Hp. rewrite Hp. reflexivity.
    - intros i k Hi. destruct (HE k (fun i => x i k) (Hpre k)) as (_ & _ & H3). specialize (H3 (Hfz k) i Hi).
      unfold res in H3. cbn [fst snd] in H3. destruct (pb i) eqn:Hp.
      + rewrite H3. ring.
      + pose proof (Hfz k i Hi Hp) as H4. unfold res in H4. cbn [fst snd] in H4. rewrite H4 in H3. symmetry in H3.
        apply (proj1 (sub_eq_0 F _ _)) in H3. rewrite H3. ring. }
  intros k y [Hy1 Hy2].
  assert (Hz : free_zero n pb k y (UA, UB)).
  { apply (HE k y Hy1). intros i Hi Hp. unfold res. cbn [fst snd]. rewrite (Hy2 i Hi Hp). ring. }
  (* the triangular system determines the solution, from the last equation up *)
  assert (G : forall len s, s + len = n -> forall i, s <= i < n -> y i = x i k).
  { induction len as [|len IH]; intros s Hs i Hi; [lia|]. destruct (Nat.eq_dec i s) as [->|Hne]; [|apply (IH (S s)); lia].
    destruct (pb s) eqn:Hp; [rewrite (Hy1 s ltac:(lia) Hp), (Hpre k s ltac:(lia) Hp); reflexivity|].
    pose proof (Hz s ltac:(lia) Hp) as E1. pose proof (Hfz k s ltac:(lia) Hp) as E2. unfold res in E1, E2. cbn [fst snd] in E1, E2.
    apply (proj1 (sub_eq_0 F _ _)) in E1. apply (proj1 (sub_eq_0 F _ _)) in E2. rewrite <- E2 in E1.
    rewrite !(row_dot_upper n UA s) in E1 by (try lia; intros j Hj; apply C1; lia).
    rewrite (sum_ext F _ (fun t => mul (UA s (s + 1 + t)) (y (s + 1 + t))) (fun t => mul (UA s (s + 1 + t)) (x (s + 1 + t) k))) in E1.
    - apply (mul_cancel_l F (UA s s)); [apply HP; [lia|exact Hp]|].
      match type of E1 with add ?a ?c = add ?b ?c => transitivity (sub (add a c) c); [ring|rewrite E1; ring] end.
    - intros t Ht. rewrite (IH (S s)) by lia. reflexivity. }
  intros i Hi. apply (G n 0 eq_refl). lia.
Qed.

Lemma linsolve_inplace_false AB' r : inplace = false -> linsolve m ptol dtol n A B presc inplace = (AB', r) -> AB' = (A, B).
Proof. intros -> E. unfold linsolve in E. destruct presc as [[b v]|]; cbn in E; destruct (elimination _ _ _ _ _ _ _) as [AB q]; injection E as <- _; reflexivity. Qed.

(** The residual is returned exactly when values are prescribed. *)
Lemma linsolve_residual AB' X R : linsolve m ptol dtol n A B presc inplace = (AB', Ok (X, R)) ->
  (exists r, R = Some r) <-> presc <> None.
Proof.
  intros E. rewrite linsolve_unfold in E. destruct (elimination _ _ _ _ _ _ _) as [AB q]. destruct q as [[]|]; [|discriminate E].
  injection E as _ _ <-. destruct presc; split; intros H; try congruence; try (eexists; reflexivity). destruct H as [? H]; discriminate H.
Qed.

(** An exception is always LinAlgError. *)
Lemma linsolve_error AB' e : linsolve m ptol dtol n A B presc inplace = (AB', Err e) -> e = LinAlgError.
Proof. rewrite linsolve_unfold. destruct (elimination _ _ _ _ _ _ _) as [AB q]. destruct q as [[]|]; [discriminate|]. intros [= _ <-]. reflexivity. Qed.

(** Singular systems are not solved. *)
Lemma singular_not_solved AB' X R y : nothing_dropped m ptol dtol n A B presc ->
  linsolve m ptol dtol n A B presc inplace = (AB', Ok (X, R)) ->
  solves n A (fun _ => zero) pb (fun _ => zero) y -> (exists i, i < n /\ y i <> zero) ->
  m = GaussJordan /\ exists i k, i < n /\ X i k = None.
Proof.
  intros HN E Hy (i & Hi & Hne).
  assert (NF : ~ (m = Jordan \/ exists x, finite n X x)).
  { intros Hm. destruct (linsolve_ok AB' X R HN E Hm) as (x & _ & Hs & _ & Hu). apply Hne.
    assert (H2 : solves n A (fun i => B i 0) pb pv (fun i => add (x i 0) (y i))).
    { destruct (Hs 0) as [S1 S2]. destruct Hy as [Y1 Y2]. split.
      - intros j Hj Hp. rewrite (S1 j Hj Hp), (Y1 j Hj Hp). ring.
      - intros j Hj Hp. specialize (S2 j Hj Hp). specialize (Y2 j Hj Hp). unfold row_dot in *.
        rewrite (sum_ext F n _ (fun t => add (mul (A j t) (x t 0)) (mul (A j t) (y t)))) by (intros; ring).
        rewrite sum_add, S2, Y2. ring. }
    specialize (Hu 0 _ H2 i Hi). cbn beta in Hu. transitivity (sub (add (x i 0) (y i)) (x i 0)); [ring|rewrite Hu; ring]. }
  split; [destruct m; [exfalso; apply NF; left; reflexivity|reflexivity]|].
  (* some entry of column 0 is not finite *)
  assert (D : forall k0, (forall i, i < n -> X i k0 <> None) \/ exists i, i < n /\ X i k0 = None).
  { intros k0. clear. induction n as [|p [IH|(i & Hi & E)]].
    - left. lia.
    - destruct (X p k0) eqn:E; [left; intros i Hi; destruct (Nat.eq_dec i p) as [->|]; [congruence|apply IH; lia]|right; exists p; auto].
    - right. exists i. auto. }
  destruct (D 0) as [Hall|(j & Hj & Ej)]; [|exists j, 0; auto].
  exfalso. apply NF. right.
  destruct (reduced AB' X R HN E) as (U & EU & HC & EX & _ & _).
  assert (HP : forall i, i < n -> pb i = false -> fst U i i <> zero).
  { intros j Hj Hp. destruct U as [UA UB]. destruct (X j 0) as [v|] eqn:Ex; [|exfalso; exact (Hall j Hj Ex)].
    apply (backsub_pivot n pb pv UA UB j 0 v Hj Hp). rewrite <- EX. exact Ex. }
  destruct U as [UA UB]. destruct HC as (C1 & C2 & _ & _). cbn [fst] in *.
  pose proof (backsub_spec n pb pv UA UB (fun r j Hj Hr => C1 r j ltac:(lia) Hj Hr) (fun j Hj => C2 j Hj Hj) HP) as HB. cbn zeta in HB.
  exists (fun i k => value_of (fst (backsub n pb pv (UA, UB))) i k). intros j k Hj. rewrite EX. apply (HB j k Hj).
Qed.
End Main.
End S.
