From Coq Require Import String Field.
From Verif Require Import Prelude OField LogicalModel LogicalSpec.
Local Open Scope list_scope.

(** ** Broadcasting *)
Lemma bcast_rev_nil_r s : bcast_rev s [] = Some s.
Proof. destruct s; reflexivity. Qed.

Lemma bcast_rev_l s1 : forall s2 s, bcast_rev s1 s2 = Some s -> bcast_rev s1 s = Some s.
Proof.
  induction s1 as [|a s1 IH]; intros s2 s H; [reflexivity|].
  destruct s2 as [|b s2]; cbn [bcast_rev] in H.
  - injection H as <-. cbn [bcast_rev]. rewrite Nat.eqb_refl.
    rewrite (IH [] s1) by apply bcast_rev_nil_r. reflexivity.
  - destruct (bcast_rev s1 s2) as [t|] eqn:E; [|discriminate]. apply IH in E.
    destruct (Nat.eqb_spec a b) as [->|N]; [|destruct (Nat.eqb_spec a 1) as [->|N1];
      [|destruct (Nat.eqb_spec b 1) as [->|N2]; [|discriminate]]];
    injection H as <-; cbn [bcast_rev]; rewrite E; rewrite ?Nat.eqb_refl; try reflexivity.
    destruct (Nat.eqb_spec 1 b); [congruence|reflexivity].
Qed.
Lemma bcast_rev_comm s1 : forall s2, bcast_rev s1 s2 = bcast_rev s2 s1.
Proof.
  induction s1 as [|a s1 IH]; intros [|b s2]; try reflexivity. cbn [bcast_rev]. rewrite (IH s2).
  destruct (bcast_rev s2 s1); [|reflexivity]. rewrite (Nat.eqb_sym b a).
  destruct (Nat.eqb_spec a b) as [->|N]; [reflexivity|].
  destruct (Nat.eqb_spec a 1) as [->|N1], (Nat.eqb_spec b 1) as [->|N2]; congruence || reflexivity.
Qed.
Lemma bcast_comm s1 s2 : bcast s1 s2 = bcast s2 s1.
Proof. unfold bcast. rewrite bcast_rev_comm. reflexivity. Qed.
Lemma bcast_l s1 s2 s : bcast s1 s2 = Some s -> bcast s1 s = Some s.
Proof.
  unfold bcast. destruct (bcast_rev (rev s1) (rev s2)) as [t|] eqn:E; [|discriminate].
  intros H. injection H as <-. rewrite rev_involutive. apply bcast_rev_l in E. rewrite E. reflexivity.
Qed.
Lemma bcast_r s1 s2 s : bcast s1 s2 = Some s -> bcast s s2 = Some s.
Proof. rewrite bcast_comm. intros H. apply bcast_l in H. rewrite bcast_comm. exact H. Qed.
Lemma bcast_same s : bcast s s = Some s.
Proof.
  unfold bcast. assert (H : forall t, bcast_rev t t = Some t).
  { induction t as [|a t IH]; [reflexivity|]. cbn [bcast_rev]. rewrite IH, Nat.eqb_refl. reflexivity. }
  rewrite H, rev_involutive. reflexivity.
Qed.

Lemma clip_inside s idx : inside s idx -> clip s idx = idx.
Proof.
  intros H. induction H as [|i d idx s H1 H2 IH]; [reflexivity|]. cbn [clip]. rewrite IH.
  destruct (Nat.eqb_spec d 1) as [->|N]; [|reflexivity]. replace i with 0 by lia. reflexivity.
Qed.
Lemma inside_len s idx : inside s idx -> length idx = length s.
Proof. intros H. induction H; cbn [length]; congruence. Qed.
Lemma bget_inside {A} (a : array A) idx : inside (shape a) idx -> bget a idx = get a idx.
Proof.
  intros H. unfold bget. rewrite (inside_len _ _ H), Nat.sub_diag. cbn [skipn]. rewrite clip_inside by exact H. reflexivity.
Qed.

Lemma ufunc_some {A B C} (op : A -> B -> C) a b s : bcast (shape a) (shape b) = Some s ->
  ufunc op a b = Ok {| shape := s; get := fun idx => op (bget a idx) (bget b idx) |}.
Proof. intros H. unfold ufunc. rewrite H. reflexivity. Qed.
Lemma ufunc_none {A B C} (op : A -> B -> C) a b : bcast (shape a) (shape b) = None -> ufunc op a b = Err ValueError.
Proof. intros H. unfold ufunc. rewrite H. reflexivity. Qed.

Lemma indices_iff s idx : In idx (indices s) <-> inside s idx.
Proof.
  revert idx. induction s as [|d s IH]; intros idx; cbn [indices].
  - split; [intros [<-|[]]; constructor|intros H; inversion H; left; reflexivity].
  - rewrite in_flat_map. split.
    + intros (i & Hi & H). apply in_map_iff in H. destruct H as (t & <- & Ht). apply in_seq in Hi.
      constructor; [lia|]. apply IH. exact Ht.
    + intros H. inversion H as [|i d' t s' H1 H2]; subst. exists i. split; [apply in_seq; lia|].
      apply in_map, IH. exact H2.
Qed.

Lemma before_1_6_spec v : before_1_6 v = true <-> released_before_1_6 v.
Proof.
  destruct v as [[major minor] patch]. unfold before_1_6, released_before_1_6.
  destruct major as [|[|major]]; cbn [Nat.ltb Nat.leb Nat.eqb orb andb]; [tauto| |split; [discriminate|tauto]].
  rewrite Nat.leb_le. lia.
Qed.
Lemma from_1_6_spec v : before_1_6 v = false <-> ~ released_before_1_6 v.
Proof. rewrite <- before_1_6_spec. destruct (before_1_6 v); intuition discriminate. Qed.

Section Close.
Context {F : ofield}.
Local Open Scope of_scope.
Add Field FF : (of_field F).

(** The test that one entry has to pass. *)
Definition passes (v w : float F) (atol rtol : option (float F)) : bool :=
  match atol with None => true | Some a => fle (fabs (fsub v w)) a end &&
  match rtol with None => true | Some r => fle (fabs (fsub v w)) (fabs (fmul r w)) end.

Lemma isclose_valid x1 x2 atol rtol : valid atol rtol ->
  match bcast (shape (atleast1d x1)) (shape (atleast1d x2)) with
  | None => isclose x1 x2 atol rtol = Err ValueError
  | Some s => exists r : answer, isclose x1 x2 atol rtol = Ok r /\ shape (entries r) = s /\
      (s = [1%nat] <-> exists b, r = One b) /\
      forall idx, inside s idx ->
        get (entries r) idx = passes (bget (atleast1d x1) idx) (bget (atleast1d x2) idx) atol rtol
  end.
Proof.
  intros (V1 & V2 & V3). unfold isclose. set (a1 := atleast1d x1). set (a2 := atleast1d x2).
  assert (A : assert_ (match atol, rtol with None, None => false | _, _ => true end) = Ok tt).
  { destruct atol, rtol; try reflexivity. destruct V1; congruence. }
  rewrite A. cbn [bind]. clear A.
  destruct (bcast (shape a1) (shape a2)) as [s|] eqn:E.
  - (* the arrays after each of the two tests *)
    set (c0 := {| shape := shape a1; get := fun _ => true |}).
    assert (C1 : exists c1, (match atol with
      | None => Ok c0
      | Some atol => do _ <- assert_ (fpos atol) ; do d <- ufunc fsub a1 a2 ;
          ufunc andb c0 (amap (fun v => fle (fabs v) atol) d)
      end) = Ok c1 /\ (bcast (shape c1) s = Some s) /\ (atol <> None -> shape c1 = s) /\
      forall idx, inside s idx -> bget c1 idx = match atol with None => true | Some a => fle (fabs (fsub (bget a1 idx) (bget a2 idx))) a end).
    { destruct atol as [a|].
      - rewrite (V2 a eq_refl). cbn [assert_ bind]. rewrite (ufunc_some fsub a1 a2 s E). cbn [bind].
        rewrite (ufunc_some andb c0 _ s) by exact (bcast_l _ _ _ E). eexists. split; [reflexivity|]. cbn [shape].
        split; [apply bcast_same|]. split; [reflexivity|].
        intros idx H. rewrite bget_inside by exact H. cbn [get].
        change (bget c0 idx) with true. cbn [andb]. rewrite bget_inside by exact H. reflexivity.
      - exists c0. split; [reflexivity|]. split; [exact (bcast_l _ _ _ E)|]. split; [congruence|]. reflexivity. }
    destruct C1 as (c1 & -> & B1 & S1 & G1). cbn [bind].
    assert (C2 : exists c2, (match rtol with
      | None => Ok c1
      | Some rtol => do _ <- assert_ (fpos rtol) ; do d <- ufunc fsub a1 a2 ;
          do c_rel <- ufunc (fun v w => fle (fabs v) (fabs (fmul rtol w))) d a2 ;
          ufunc andb c1 c_rel
      end) = Ok c2 /\ (rtol <> None -> shape c2 = s) /\ (rtol = None -> c2 = c1) /\
      forall idx, inside s idx -> bget c2 idx = bget c1 idx &&
        match rtol with None => true | Some r => fle (fabs (fsub (bget a1 idx) (bget a2 idx))) (fabs (fmul r (bget a2 idx))) end).
    { destruct rtol as [r|].
      - rewrite (V3 r eq_refl). cbn [assert_ bind]. rewrite (ufunc_some fsub a1 a2 s E). cbn [bind].
        rewrite (ufunc_some _ _ a2 s) by exact (bcast_r _ _ _ E). cbn [bind].
        rewrite (ufunc_some andb c1 _ s) by exact B1. eexists. split; [reflexivity|]. cbn [shape].
        split; [reflexivity|]. split; [congruence|].
        intros idx H. rewrite bget_inside by exact H. cbn [get]. f_equal.
        match goal with |- bget ?a idx = _ => rewrite (bget_inside a) by exact H end. cbn [get].
        rewrite (bget_inside {| shape := s; get := fun idx0 => fsub (bget a1 idx0) (bget a2 idx0) |}) by exact H. reflexivity.
      - exists c1. split; [reflexivity|]. split; [congruence|]. split; [reflexivity|].
        intros idx _. rewrite andb_true_r. reflexivity. }
    destruct C2 as (c2 & -> & S2 & N2 & G2). cbn [bind].
    assert (S : shape c2 = s).
    { destruct rtol as [r|]; [apply S2; congruence|]. rewrite N2 by reflexivity.
      destruct atol as [a|]; [apply S1; congruence|]. destruct V1; congruence. }
    assert (G : forall idx, inside s idx -> get c2 idx = passes (bget a1 idx) (bget a2 idx) atol rtol).
    { intros idx H. rewrite <- (bget_inside c2) by (rewrite S; exact H). rewrite G2, G1 by exact H. reflexivity. }
    clear S1 S2 N2 G1 G2. rewrite S.
    assert (Y : s = [1%nat] \/ (s <> [1%nat] /\ match s with [n] => if (n =? 1)%nat then One (get c2 [0%nat]) else Many c2 | _ => Many c2 end = Many c2)).
    { destruct s as [|n [|m s]]; [right; split; [discriminate|reflexivity]| |right; split; [discriminate|reflexivity]].
      destruct (Nat.eqb_spec n 1) as [->|N]; [left; reflexivity|right]. split; [congruence|reflexivity]. }
    destruct Y as [Y|[Y ->]].
    + subst s. rewrite Y in *. cbn [Nat.eqb]. eexists. split; [reflexivity|]. cbn [entries shape get].
      split; [reflexivity|]. split; [split; [intros _; eexists; reflexivity|reflexivity]|].
      intros idx H. inversion H as [|i d t s' H1 H2]; subst. inversion H2; subst.
      replace i with 0%nat in * by lia. apply G. exact H.
    + eexists. split; [reflexivity|]. cbn [entries]. split; [exact S|].
      split; [split; [congruence|intros [b Hb]; discriminate]|exact G].
  - destruct atol as [a|].
    + rewrite (V2 a eq_refl). cbn [assert_ bind]. rewrite (ufunc_none fsub a1 a2 E). reflexivity.
    + destruct rtol as [r|]; [|destruct V1; congruence]. cbn [bind].
      rewrite (V3 r eq_refl). cbn [assert_ bind]. rewrite (ufunc_none fsub a1 a2 E). reflexivity.
Qed.

(** Tolerances that are not allowed. *)
Lemma isclose_invalid (x1 x2 : arg F) atol rtol : ~ valid atol rtol ->
  isclose x1 x2 atol rtol = Err AssertionError \/
  (isclose x1 x2 atol rtol = Err ValueError /\ bcast (shape (atleast1d x1)) (shape (atleast1d x2)) = None /\
   exists a, atol = Some a /\ fpos a = true).
Proof.
  intros V. unfold isclose. set (a1 := atleast1d x1). set (a2 := atleast1d x2).
  destruct atol as [a|].
  - cbn [assert_ bind]. destruct (fpos a) eqn:Pa; [|left; reflexivity]. cbn [assert_ bind].
    destruct rtol as [r|].
    + destruct (fpos r) eqn:Pr.
      { exfalso. apply V. split; [left; congruence|]. split; intros ? E; injection E as <-; assumption. }
      destruct (bcast (shape a1) (shape a2)) as [s|] eqn:E.
      * left. rewrite (ufunc_some fsub a1 a2 s E). cbn [bind]. rewrite (ufunc_some andb _ _ s) by exact (bcast_l _ _ _ E). reflexivity.
      * right. rewrite (ufunc_none fsub a1 a2 E). split; [reflexivity|]. split; [reflexivity|]. exists a. split; [reflexivity|exact Pa].
    + exfalso. apply V. split; [left; congruence|]. split; intros ? E; [injection E as <-; exact Pa|discriminate].
  - destruct rtol as [r|]; [|left; reflexivity]. cbn [assert_ bind].
    destruct (fpos r) eqn:Pr; [|left; reflexivity].
    exfalso. apply V. split; [right; congruence|]. split; intros ? E; [discriminate|injection E as <-; exact Pr].
Qed.

Lemma passes_fin (x y : F) atol rtol : passes (Fin x) (Fin y) (fins atol) (fins rtol) = true <-> close x y atol rtol.
Proof.
  unfold passes, close. rewrite andb_true_iff.
  assert (E : forall t, x + - t = x - t) by (intros; ring).
  split.
  - intros [H1 H2]. split.
    + intros a ->. cbn in H1. rewrite E in H1. exact H1.
    + intros r ->. cbn in H2. rewrite E in H2. exact H2.
  - intros [H1 H2]. split.
    + destruct atol as [a|]; [|reflexivity]. cbn. rewrite E. apply H1. reflexivity.
    + destruct rtol as [r|]; [|reflexivity]. cbn. rewrite E. apply H2. reflexivity.
Qed.

Lemma absf_0 : absf (@zero F) = 0.
Proof. unfold absf. rewrite (le_refl F). reflexivity. Qed.
Lemma absf_nonneg (x : F) : 0 <= absf x.
Proof. exact (abs_nonneg F x). Qed.

Lemma close_refl (x : F) atol rtol : (forall a, atol = Some a -> 0 <= a) -> close x x atol rtol.
Proof.
  intros H. assert (E : absf (x - x) = 0) by (replace (x - x) with (@zero F) by ring; apply absf_0).
  split; [intros a Ha; rewrite E; apply H; exact Ha|]. intros r _. rewrite E. apply absf_nonneg.
Qed.

Lemma absf_mul_le (r r' y : F) : 0 <= r -> r <= r' -> absf (r * y) <= absf (r' * y).
Proof.
  intros H1 H2. assert (H3 : 0 <= r') by (eapply (le_trans F); eassumption).
  rewrite !(abs_mul F). apply (mul_le_r F); [apply absf_nonneg|].
  unfold absf. rewrite H1, H3. exact H2.
Qed.
Lemma close_mono (x y : F) atol rtol atol' rtol' :
  (forall a', atol' = Some a' -> exists a, atol = Some a /\ a <= a') ->
  (forall r', rtol' = Some r' -> exists r, rtol = Some r /\ 0 <= r /\ r <= r') ->
  close x y atol rtol -> close x y atol' rtol'.
Proof.
  intros HA HR [H1 H2]. split.
  - intros a' E. destruct (HA a' E) as (a & Ea & L). eapply (le_trans F); [apply H1; exact Ea|exact L].
  - intros r' E. destruct (HR r' E) as (r & Er & P & L). eapply (le_trans F); [apply H2; exact Er|].
    apply absf_mul_le; assumption.
Qed.
Lemma close_sym_abs (x y : F) atol : close x y atol None -> close y x atol None.
Proof.
  intros [H _]. split; [|intros; discriminate]. intros a E. specialize (H a E).
  replace (absf (y - x)) with (absf (x - y)); [exact H|].
  replace (y - x) with (- (x - y)) by ring. symmetry. apply (abs_opp F).
Qed.

Lemma allclose_iff (x1 x2 : arg F) atol rtol r : isclose x1 x2 atol rtol = Ok r ->
  exists b, allclose x1 x2 atol rtol = Ok b /\
  (b = true <-> forall idx, inside (shape (entries r)) idx -> get (entries r) idx = true).
Proof.
  intros E. unfold allclose. rewrite E. cbn [bind]. eexists. split; [reflexivity|].
  destruct r as [b|c]; cbn [entries shape get].
  - split; [intros; assumption|]. intros H. apply (H [0%nat]). repeat constructor.
  - rewrite forallb_forall. split.
    + intros H idx I. apply H. apply indices_iff. exact I.
    + intros H idx I. apply H. apply indices_iff. exact I.
Qed.
End Close.

(** ** Nearest neighbours *)
Section Knn.
Context {F : ofield} {Point : Type}.
Variable dist : Point -> Point -> F.

Lemma lookup_setitem_same (k : string) (v : value F) d : lookup k (setitem k v d) = Some v.
Proof.
  induction d as [|[k' v'] d IH]; cbn [setitem lookup]; [rewrite String.eqb_refl; reflexivity|].
  destruct (String.eqb k k') eqn:E; cbn [lookup]; [rewrite String.eqb_refl; reflexivity|]. rewrite E. exact IH.
Qed.
Lemma lookup_setitem_other (k k' : string) (v : value F) d : k' <> k -> lookup k' (setitem k v d) = lookup k' d.
Proof.
  intros N. induction d as [|[k2 v2] d IH]; cbn [setitem lookup].
  - rewrite (proj2 (String.eqb_neq k' k) N). reflexivity.
  - destruct (String.eqb k k2) eqn:E; cbn [lookup].
    + apply String.eqb_eq in E. subst k2. rewrite (proj2 (String.eqb_neq k' k) N). reflexivity.
    + rewrite IH. reflexivity.
Qed.

Definition opts (d : option (dict F)) : dict F := match d with None => [] | Some d => d end.

(** SciPy before 1.6: the options and the distance reach the query. *)
Lemma old_scipy (L : libs F Point) X Y k w tk qk ls md tree :
  before_1_6 (scipy_version L) = true -> sp_build L X ls (opts tk) = Ok tree ->
  exists kw, fst (k_nearest_neighbours L X Y Scipy k w tk qk ls md) = sp_query L tree Y k None kw /\
  lookup "distance_upper_bound" kw = Some (VFloat (match md with None => PInf | Some r => r end)) /\
  forall o, o <> "distance_upper_bound"%string -> lookup o kw = lookup o (opts qk).
Proof.
  intros V B. unfold k_nearest_neighbours. fold (opts tk) (opts qk). rewrite B, V. eexists. split; [reflexivity|].
  split; [apply lookup_setitem_same|]. intros o N. apply lookup_setitem_other. exact N.
Qed.

Lemma fle_fin_trans (r d : F) : fle (Fin r) (Fin d) = false -> leb d r = true.
Proof. cbn [fle]. intros H. apply (lt_le F). exact H. Qed.

Lemma old_scipy_within (L : libs F Point) X Y k w tk qk ls r res :
  scipy_ok dist L -> before_1_6 (scipy_version L) = true ->
  fst (k_nearest_neighbours L X (Some Y) Scipy k w tk qk ls (Some (Fin r))) = Ok res ->
  within dist X Y r res.
Proof.
  intros S V E. destruct (sp_build L X ls (opts tk)) as [tree|e] eqn:B.
  - destruct (old_scipy L X (Some Y) k w tk qk ls (Some (Fin r)) tree V B) as (kw & E' & Hd & _).
    rewrite E' in E. specialize (S X ls (opts tk) tree B Y k None kw res E).
    assert (Bd : bound_of kw = Fin r) by (unfold bound_of; rewrite Hd; reflexivity). rewrite Bd in S.
    clear E E'. unfold within. induction S as [|y row Y' res' H1 H2 IH]; [constructor|]. constructor; [|exact IH].
    + intros d i x I N. destruct H1 as (_ & H1 & _).
      assert (Li : i < List.length X) by (apply nth_error_Some; congruence).
      destruct (H1 d i I Li x N) as [-> H3]. apply fle_fin_trans. exact H3.

  - unfold k_nearest_neighbours in E. fold (opts tk) in E. rewrite B in E. discriminate.
Qed.
End Knn.
