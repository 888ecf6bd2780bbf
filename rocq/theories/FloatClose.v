(** Property C111: [isclose] and [allclose] in double precision. *)
From Coq Require Import ZArith List Bool Reals Psatz Lia Lra.
From Flocq Require Import Core BinarySingleNaN Relative Plus_error.
From Verif Require Import Prelude FloatModel FloatProofs FloatDot FloatProps FloatSolve FloatWeight.
Local Open Scope R_scope.

(** ** Model

    logical.py:142-160, [isclose] for two arrays of doubles of the same shape, given as the list of the pairs of their
    entries (broadcasting is modelled in LogicalModel.v). *)
Definition fpositive (x : f64) : bool := match Bcompare x (of_int 0) with Some Gt => true | _ => false end.
(** logical.py:152, [np.abs(x1 - x2) <= atol], and 156. *)
Definition close_abs (atol x1 x2 : f64) : bool := fle (Babs (fsub x1 x2)) atol.
Definition close_rel (rtol x1 x2 : f64) : bool := fle (Babs (fsub x1 x2)) (Babs (fmul rtol x2)).
Definition isclose1 (atol rtol : option f64) (x1 x2 : f64) : bool :=
  let c := true in
  let c := match atol with None => c | Some t => c && close_abs t x1 x2 end in
  match rtol with None => c | Some t => c && close_rel t x1 x2 end.
(** logical.py:147-149, 151, 155: the assertions. *)
Definition isclose (atol rtol : option f64) (xs : list (f64 * f64)) : result (list bool) :=
  match atol, rtol with
  | None, None => Err AssertionError
  | _, _ => if match atol with Some t => fpositive t | None => true end && match rtol with Some t => fpositive t | None => true end
            then Ok (map (fun x => isclose1 atol rtol (fst x) (snd x)) xs) else Err AssertionError
  end.
(** logical.py:163-172, [allclose]. *)
Definition allclose (atol rtol : option f64) (xs : list (f64 * f64)) : result bool :=
  do l <- isclose atol rtol xs ; Ok (forallb (fun b => b) l).

(** ** Specification *)

(** The documented conditions with exact arithmetic, and with tolerances changed by factors and an absolute amount. *)
Definition within (f e : R) (atol rtol : option f64) (x1 x2 : f64) : Prop :=
  match atol with None => True | Some t => Rabs (B2R x1 - B2R x2) <= f * B2R t end /\
  match rtol with None => True | Some t => Rabs (B2R x1 - B2R x2) <= f * Rabs (B2R t * B2R x2) + e end.
Definition exactly : option f64 -> option f64 -> f64 -> f64 -> Prop := within 1 0.
Definition finite (x : f64) : Prop := is_finite x = true.
(** Tolerances that the assertions accept. *)
Definition tolerance (t : option f64) : Prop := match t with None => True | Some t => finite t /\ 0 < B2R t end.
Definition tolerances (atol rtol : option f64) : Prop := tolerance atol /\ tolerance rtol /\ (atol <> None \/ rtol <> None).
(** The scaled relative tolerance is a number. *)
Definition scaled (rtol : option f64) (x2 : f64) : Prop := match rtol with None => True | Some t => Rabs (B2R t * B2R x2) <= bpow radix2 1023 end.
(** At least as large. *)
Definition larger (t t' : option f64) : Prop :=
  match t, t' with _, None => True | Some t, Some t' => B2R t <= B2R t' | None, Some _ => False end.

(** ** Proofs *)
Lemma rnd_abs x : rnd (Rabs x) = Rabs (rnd x).
Proof. apply round_NE_abs; auto with typeclass_instances. Qed.

Lemma fsub_cases (x y : f64) : finite x -> finite y ->
  (finite (fsub x y) /\ B2R (fsub x y) = rnd (B2R x - B2R y)) \/
  (exists s, fsub x y = B754_infinity s /\ bpow radix2 1024 <= Rabs (rnd (B2R x - B2R y))).
Proof.
  intros Fx Fy. pose proof (Bminus_correct 53 1024 prec_ok emax_ok mode_NE x y Fx Fy) as C.
  change (Bminus mode_NE x y) with (fsub x y) in C.
  change (round radix2 (SpecFloat.fexp 53 1024) (round_mode mode_NE) (B2R x - B2R y)) with (rnd (B2R x - B2R y)) in C.
  destruct (Rlt_bool_spec (Rabs (rnd (B2R x - B2R y))) (bpow radix2 1024)) as [L|L].
  - left. split; apply C.
  - right. destruct C as [C _]. exists (Bsign x). split; [|exact L].
    destruct (fsub x y) as [s|s| |s m e H]; cbn in C; destruct (Bsign x); cbn in C; congruence.
Qed.
Lemma fmul_cases (x y : f64) : finite x -> finite y ->
  (finite (fmul x y) /\ B2R (fmul x y) = rnd (B2R x * B2R y)) \/
  (exists s, fmul x y = B754_infinity s /\ bpow radix2 1024 <= Rabs (rnd (B2R x * B2R y))).
Proof.
  intros Fx Fy. pose proof (Bmult_correct 53 1024 prec_ok emax_ok mode_NE x y) as C.
  change (Bmult mode_NE x y) with (fmul x y) in C.
  change (round radix2 (SpecFloat.fexp 53 1024) (round_mode mode_NE) (B2R x * B2R y)) with (rnd (B2R x * B2R y)) in C.
  destruct (Rlt_bool_spec (Rabs (rnd (B2R x * B2R y))) (bpow radix2 1024)) as [L|L].
  - left. destruct C as (C1 & C2 & _). unfold finite in *. rewrite Fx, Fy in C2. auto.
  - right. exists (xorb (Bsign x) (Bsign y)). split; [|exact L].
    destruct (fmul x y) as [s|s| |s m e H]; cbn in C; destruct (xorb (Bsign x) (Bsign y)); cbn in C; congruence.
Qed.
Lemma B2R_lt_max (x : f64) : Rabs (B2R x) < bpow radix2 1024.
Proof. apply abs_B2R_lt_emax. Qed.

Lemma abs_iff (a x y : f64) : finite a -> finite x -> finite y ->
  close_abs a x y = true <-> rnd (Rabs (B2R x - B2R y)) <= B2R a.
Proof.
  intros Fa Fx Fy. unfold close_abs. rewrite rnd_abs. destruct (fsub_cases x y Fx Fy) as [[F E]|(s & E & L)].
  - rewrite fle_finite; [|now rewrite is_finite_Babs|exact Fa]. rewrite B2R_Babs, E. reflexivity.
  - rewrite E. split.
    + destruct a as [t|t| |t m e H]; cbn; try discriminate.
    + intros H. pose proof (B2R_lt_max a). pose proof (Rle_abs (B2R a)). lra.
Qed.
Lemma rel_iff (r x y : f64) : finite r -> finite x -> finite y ->
  close_rel r x y = true <-> rnd (Rabs (B2R x - B2R y)) <= rnd (Rabs (B2R r * B2R y)) \/ bpow radix2 1024 <= rnd (Rabs (B2R r * B2R y)).
Proof.
  intros Fr Fx Fy. unfold close_rel. rewrite !rnd_abs.
  destruct (fsub_cases x y Fx Fy) as [[F E]|(s & E & L)]; destruct (fmul_cases r y Fr Fy) as [[G J]|(t & J & M)].
  - rewrite fle_finite by (now rewrite is_finite_Babs). rewrite !B2R_Babs, E, J. split; [auto|]. intros [H|H]; [exact H|].
    rewrite <- J in H. pose proof (B2R_lt_max (fmul r y)). lra.
  - rewrite J. split; [auto|]. intros _. unfold finite in F. destruct (fsub x y) as [z|z| |z m e H]; cbn in *; try discriminate; destruct z; reflexivity.
  - rewrite E. split.
    + unfold finite in G. destruct (fmul r y) as [z|z| |z m e H]; cbn in *; discriminate.
    + rewrite <- J. pose proof (B2R_lt_max (fmul r y)). lra.
  - rewrite E, J. split; [auto|reflexivity].
Qed.

Lemma u_value : u = / 9007199254740992. Proof. reflexivity. Qed.
(** A difference of doubles is rounded with a relative error also where doubles are denormal. *)
Lemma difference (x y : f64) : Rabs (B2R x - B2R y) <= (1 + u) * rnd (Rabs (B2R x - B2R y)).
Proof.
  rewrite rnd_abs. pose proof (generic_format_B2R 53 1024 x) as Gx. pose proof (generic_format_B2R 53 1024 y) as Gy.
  rewrite fexp_eq in Gx, Gy.
  destruct (FLT_plus_error_N_round_ex radix2 (-1074) 53 (fun z => negb (Z.even z)) (B2R x) (- B2R y) Gx (generic_format_opp _ _ _ Gy)) as (e & He & E).
  change (B2R x + - B2R y) with (B2R x - B2R y) in E.
  change (round radix2 (FLT_exp (-1074) 53) (Znearest (fun z => negb (Z.even z))) (B2R x - B2R y)) with (rnd (B2R x - B2R y)) in E.
  rewrite E at 1. rewrite Rabs_mult. rewrite Rmult_comm. apply Rmult_le_compat_r; [apply Rabs_pos|].
  assert (U : u_ro radix2 53 = u). { unfold u_ro, u. cbn. lra. }
  rewrite U in He. eapply Rle_trans; [apply Rabs_triang|]. rewrite Rabs_R1. lra.
Qed.

Lemma positive_ok (x : f64) : finite x -> fpositive x = true <-> 0 < B2R x.
Proof.
  intros F. unfold fpositive. destruct (of_int_ok 0 eq_refl) as [Z1 Z2]. rewrite (Bcompare_correct 53 1024 x (of_int 0) F Z2), Z1.
  destruct (Rcompare_spec (B2R x) 0); split; intros; try reflexivity; try discriminate; lra.
Qed.
Lemma accepted atol rtol xs : tolerances atol rtol ->
  isclose atol rtol xs = Ok (map (fun x => isclose1 atol rtol (fst x) (snd x)) xs).
Proof.
  intros (A & B & C). unfold isclose.
  assert (P : forall t, tolerance t -> match t with Some t => fpositive t | None => true end = true).
  { intros [t|] H; [|reflexivity]. apply positive_ok; apply H. }
  rewrite (P atol A), (P rtol B). destruct atol, rtol; try reflexivity. destruct C as [C|C]; congruence.
Qed.

(** ** Theorems *)

(** With tolerances accepted there is one answer for each pair; without tolerances, or with one that is not positive, there is
    an error. *)
Theorem C111_answers : forall atol rtol xs,
  (tolerances atol rtol -> isclose atol rtol xs = Ok (map (fun x => isclose1 atol rtol (fst x) (snd x)) xs) /\
     exists b, allclose atol rtol xs = Ok b /\ (b = true <-> forall x1 x2, In (x1, x2) xs -> isclose1 atol rtol x1 x2 = true)) /\
  (isclose None None xs = Err AssertionError) /\
  (forall t, finite t -> B2R t <= 0 -> isclose (Some t) rtol xs = Err AssertionError /\ isclose atol (Some t) xs = Err AssertionError).
Proof.
  intros atol rtol xs. split; [|split].
  - intros T. rewrite (accepted _ _ _ T). split; [reflexivity|]. unfold allclose. rewrite (accepted _ _ _ T). cbn.
    eexists. split; [reflexivity|]. rewrite forallb_forall. split.
    + intros H x1 x2 I. apply H. exact (in_map (fun x => isclose1 atol rtol (fst x) (snd x)) xs (x1, x2) I).
    + intros H b I. apply in_map_iff in I as ([x1 x2] & <- & I). cbn. now apply H.
  - reflexivity.
  - intros t F H. assert (P : fpositive t = false).
    { destruct (fpositive t) eqn:E; [|reflexivity]. apply positive_ok in E; [lra|exact F]. }
    unfold isclose. rewrite P. split; [destruct rtol; reflexivity|]. destruct atol as [a|]; [|reflexivity]. now rewrite andb_false_r.
Qed.

(** No pair that meets the documented conditions exactly is missed, for all finite numbers (also if the difference or the scaled
    tolerance overflows). *)
Theorem C111_complete : forall atol rtol x1 x2, tolerances atol rtol -> finite x1 -> finite x2 ->
  exactly atol rtol x1 x2 -> isclose1 atol rtol x1 x2 = true.
Proof.
  intros atol rtol x1 x2 (A & B & _) F1 F2 [E1 E2]. unfold isclose1.
  assert (X1 : match atol with None => true | Some t => true && close_abs t x1 x2 end = true).
  { destruct atol as [t|]; [|reflexivity]. cbn. apply abs_iff; [apply A|assumption..|]. rewrite <- (rnd_f64 t). apply rnd_le. lra. }
  destruct rtol as [t|]; [|exact X1]. rewrite X1. cbn. apply rel_iff; [apply B|assumption..|]. left. apply rnd_le. lra.
Qed.

(** A pair that is accepted meets the conditions with tolerances larger by three units of rounding (and 2^-1073 for
    scaled tolerances that are denormal). *)
Theorem C111_sound : forall atol rtol x1 x2, tolerances atol rtol -> finite x1 -> finite x2 -> scaled rtol x2 ->
  isclose1 atol rtol x1 x2 = true -> within (1 + 3 * u) (2 * eta) atol rtol x1 x2.
Proof.
  intros atol rtol x1 x2 (A & B & _) F1 F2 S H. pose proof (difference x1 x2) as D. unfold isclose1 in H.
  assert (H1 : match atol with None => true | Some t => true && close_abs t x1 x2 end = true).
  { destruct rtol; [|exact H]. now apply andb_prop in H. }
  pose proof u_value as U. split.
  - destruct atol as [t|]; [|exact I]. cbn in H1. apply abs_iff in H1; [|apply A|assumption..]. rewrite U in *.
    destruct A as [_ A]. lra.
  - destruct rtol as [t|]; [|exact I]. apply andb_prop in H as [_ H]. apply rel_iff in H; [|apply B|assumption..]. cbn in S.
    pose proof (rnd_err (Rabs (B2R t * B2R x2))) as R. rewrite Rabs_Rabsolu in R. apply Rabs_le_inv in R.
    pose proof eta_pos as P. pose proof (Rabs_pos (B2R t * B2R x2)) as P2.
    assert (L : rnd (Rabs (B2R x1 - B2R x2)) <= rnd (Rabs (B2R t * B2R x2))).
    { destruct H as [H|H]; [exact H|]. exfalso. pose proof (rnd_bound (Rabs (B2R t * B2R x2)) 1023 ltac:(lia)) as Z.
      rewrite Rabs_Rabsolu in Z. specialize (Z S). pose proof (Rle_abs (rnd (Rabs (B2R t * B2R x2)))).
      pose proof (bpow_lt radix2 1023 1024 ltac:(lia)). lra. }
    rewrite U in *. lra.
Qed.

(** Every finite number is close to itself, larger tolerances accept more, and without a relative tolerance the order of the arguments does not
    matter, for infinities and NaN as well. *)
Theorem C111_laws :
  (forall atol rtol x, tolerances atol rtol -> finite x -> isclose1 atol rtol x x = true) /\
  (forall atol rtol atol' rtol' x1 x2, tolerances atol rtol -> tolerances atol' rtol' -> larger atol atol' -> larger rtol rtol' ->
     finite x1 -> finite x2 -> isclose1 atol rtol x1 x2 = true -> isclose1 atol' rtol' x1 x2 = true) /\
  (forall atol x1 x2, isclose1 atol None x1 x2 = isclose1 atol None x2 x1).
Proof.
  split; [|split].
  - intros atol rtol x T F. apply C111_complete; [assumption..|]. destruct T as (A & B & _). split.
    + destruct atol as [t|]; [|exact I]. destruct A. replace (B2R x - B2R x) with 0 by ring. rewrite Rabs_R0. lra.
    + destruct rtol as [t|]; [|exact I]. replace (B2R x - B2R x) with 0 by ring. rewrite Rabs_R0.
      pose proof (Rabs_pos (B2R t * B2R x)). lra.
  - intros atol rtol atol' rtol' x1 x2 (A & B & _) (A' & B' & _) La Lr F1 F2 H. unfold isclose1 in *.
    assert (H1 : match atol with None => true | Some t => true && close_abs t x1 x2 end = true).
    { destruct rtol; [|exact H]. now apply andb_prop in H. }
    assert (X1 : match atol' with None => true | Some t => true && close_abs t x1 x2 end = true).
    { destruct atol' as [t'|]; [|reflexivity]. destruct atol as [t|]; [|destruct La]. cbn in *.
      apply abs_iff; [apply A'|assumption..|]. apply abs_iff in H1; [|apply A|assumption..]. lra. }
    destruct rtol' as [t'|]; [|exact X1]. rewrite X1. cbn. destruct rtol as [t|]; [|destruct Lr].
    apply andb_prop in H as [_ H]. apply rel_iff in H; [|apply B|assumption..]. apply rel_iff; [apply B'|assumption..|].
    assert (M : rnd (Rabs (B2R t * B2R x2)) <= rnd (Rabs (B2R t' * B2R x2))).
    { apply rnd_le. rewrite !Rabs_mult. apply Rmult_le_compat_r; [apply Rabs_pos|]. cbn in B, B', Lr.
      rewrite !Rabs_pos_eq by lra. exact Lr. }
    destruct H as [H|H]; [left|right]; lra.
  - intros atol x1 x2. unfold isclose1. destruct atol as [t|]; [|reflexivity]. cbn. unfold close_abs. f_equal.
    destruct (is_finite x1) eqn:F1; destruct (is_finite x2) eqn:F2.
    + destruct (fsub_cases x1 x2 F1 F2) as [[F E]|(s & E & L)]; destruct (fsub_cases x2 x1 F2 F1) as [[G J]|(t' & J & M)].
      * apply B2R_Bsign_inj; rewrite ?is_finite_Babs, ?Bsign_Babs; try assumption; [|reflexivity].
        rewrite !B2R_Babs, E, J, <- !rnd_abs. f_equal. apply Rabs_minus_sym.
      * rewrite <- E in * || idtac. exfalso. rewrite <- rnd_abs, Rabs_minus_sym, rnd_abs, <- E in M. pose proof (B2R_lt_max (fsub x1 x2)). lra.
      * exfalso. rewrite <- rnd_abs, Rabs_minus_sym, rnd_abs, <- J in L. pose proof (B2R_lt_max (fsub x2 x1)). lra.
      * rewrite E, J. reflexivity.
    + destruct x1 as [a|a| |a m e H]; destruct x2 as [b|b| |b m' e' H']; cbn in *; try discriminate; reflexivity.
    + destruct x1 as [a|a| |a m e H]; destruct x2 as [b|b| |b m' e' H']; cbn in *; try discriminate; reflexivity.
    + destruct x1 as [a|a| |a m e H]; destruct x2 as [b|b| |b m' e' H']; cbn in *; try discriminate; try reflexivity.
      destruct a, b; reflexivity.
Qed.

(** The default tolerances 1e-8 and 1e-5, rounded, and two numbers that differ by 2^-30. *)
Definition atol_default : f64 := fdiv (of_int 1) (of_int 100000000).
Definition rtol_default : f64 := fdiv (of_int 1) (of_int 100000).
Definition tick : f64 := fdiv (of_int 1) (of_int 1073741824).
Lemma quotient_value k (x : f64) : (0 < k < 2 ^ 53)%Z -> x = fdiv (of_int 1) (of_int k) -> finite x /\ B2R x = rnd (1 / IZR k).
Proof.
  intros Hk ->. destruct (of_int_ok 1 eq_refl) as [A1 A2]. destruct (of_int_ok k ltac:(lia)) as [B1 _].
  assert (K : 1 <= IZR k) by (apply (IZR_le 1); lia).
  destruct (fdiv_ok (of_int 1) (of_int k) 0 ltac:(lia) A2) as [C1 C2].
  - rewrite B1. lra.
  - rewrite A1, B1. rewrite Rabs_pos_eq; [|apply Rmult_le_pos; [lra|apply Rlt_le, Rinv_0_lt_compat; lra]].
    cbn. apply Rmult_le_reg_r with (IZR k); [lra|]. unfold Rdiv. rewrite Rmult_assoc, Rinv_l by lra. lra.
  - rewrite A1, B1 in C1. split; assumption.
Qed.
Example C111_met : tolerances (Some atol_default) (Some rtol_default) /\ finite (fadd (of_int 1) tick) /\ finite (of_int 1) /\
  scaled (Some rtol_default) (of_int 1) /\
  isclose1 (Some atol_default) (Some rtol_default) (fadd (of_int 1) tick) (of_int 1) = true /\
  isclose1 (Some atol_default) (Some rtol_default) (of_int 1001) (of_int 1000) = false.
Proof.
  assert (P : forall x : f64, is_finite x = true -> Bcompare (of_int 0) x = Some Lt -> finite x /\ 0 < B2R x).
  { intros x F H. split; [exact F|]. destruct (of_int_ok 0 eq_refl) as [Z1 Z2]. rewrite <- Z1. now apply lt_by. }
  split; [|split; [|split; [|split; [|split]]]].
  - split; [|split; [|left; discriminate]]; apply P; vm_compute; reflexivity.
  - vm_compute. reflexivity.
  - reflexivity.
  - unfold scaled. destruct (quotient_value 100000 rtol_default ltac:(lia) eq_refl) as [_ ->]. destruct (of_int_ok 1 eq_refl) as [-> _].
    rewrite Rmult_1_r. eapply Rle_trans; [apply (rnd_bound _ 0); [lia|]|apply bpow_le; lia].
    rewrite Rabs_pos_eq; cbn; lra.
  - vm_compute. reflexivity.
  - vm_compute. reflexivity.
Qed.

(** The answer is not the exact one at the boundary; an infinity is not close to itself, and with a relative tolerance the order of
    the arguments matters. *)
Theorem C111_refuted :
  (exists atol x1 x2, tolerances (Some atol) None /\ finite x1 /\ finite x2 /\
     isclose1 (Some atol) None x1 x2 = true /\ ~ exactly (Some atol) None x1 x2) /\
  (forall atol rtol s, tolerances atol rtol -> isclose1 atol rtol (B754_infinity s) (B754_infinity s) = false) /\
  (exists rtol x1 x2, tolerances None (Some rtol) /\ finite x1 /\ finite x2 /\
     isclose1 None (Some rtol) x1 x2 = true /\ isclose1 None (Some rtol) x2 x1 = false).
Proof.
  split; [|split].
  - destruct (of_int_ok (2 ^ 53 - 1) eq_refl) as [A1 A2]. destruct (of_int_ok (-2) eq_refl) as [B1 B2].
    assert (T : B2R (of_int (2 ^ 53)) = 9007199254740992 /\ is_finite (of_int (2 ^ 53)) = true).
    { split; [|vm_compute; reflexivity]. replace (B2R (of_int (2 ^ 53))) with (B2R (fmul (of_int (2 ^ 52)) (of_int 2))).
      - destruct (of_int_ok (2 ^ 52) eq_refl) as [C1 C2]. destruct (of_int_ok 2 eq_refl) as [D1 D2].
        assert (X : B2R (of_int (2 ^ 52)) * B2R (of_int 2) = bpow radix2 53) by (rewrite C1, D1; cbn; lra).
        destruct (fmul_ok (of_int (2 ^ 52)) (of_int 2) 53 ltac:(lia) C2 D2) as [E1 _].
        + rewrite X. rewrite Rabs_pos_eq; [lra|apply bpow_ge_0].
        + rewrite E1, X. transitivity (bpow radix2 53); [|cbn; lra]. apply round_generic; auto with typeclass_instances.
          apply generic_format_FLT_bpow; [reflexivity|lia].
      - f_equal. apply B2SF_inj. vm_compute. reflexivity. }
    destruct T as [T1 T2].
    exists (of_int (2 ^ 53)), (of_int (2 ^ 53 - 1)), (of_int (-2)).
    split; [|split; [exact A2|split; [exact B2|split; [vm_compute; reflexivity|]]]].
    + split; [split; [exact T2|rewrite T1; lra]|]. split; [exact I|]. left. discriminate.
    + intros [H _]. rewrite A1, B1, T1 in H. change (2 ^ 53 - 1)%Z with 9007199254740991%Z in H.
      rewrite Rabs_pos_eq in H by lra. lra.
  - intros atol rtol s (A & B & C). unfold isclose1, close_abs, close_rel.
    assert (E : fsub (B754_infinity s) (B754_infinity s) = B754_nan) by (destruct s; reflexivity). rewrite E.
    assert (N : forall t, fle (Babs B754_nan) t = false) by (intros []; reflexivity).
    destruct atol, rtol; rewrite ?N; try reflexivity. destruct C as [C|C]; congruence.
  - exists (fdiv (of_int 1) (of_int 2)), (of_int 1), (of_int 2).
    split; [|split; [|split; [|split]]]; try (vm_compute; reflexivity).
    split; [exact I|]. split; [|right; discriminate]. split; [vm_compute; reflexivity|].
    destruct (of_int_ok 0 eq_refl) as [Z1 Z2]. rewrite <- Z1. apply lt_by; vm_compute; reflexivity.
Qed.
Print Assumptions C111_answers.
Print Assumptions C111_complete.
Print Assumptions C111_sound.
Print Assumptions C111_laws.
Print Assumptions C111_refuted.
