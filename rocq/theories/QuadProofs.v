From Coq Require Import Reals Lra Field.
Set Warnings "-ambiguous-paths".
From Coquelicot Require Import Coquelicot.
From Verif Require Import Prelude OField OFieldR QuadModel QuadSpec.

Section Store.
Local Open Scope nat_scope.
Context {A : Type}.
Lemma store_ok (a : list A) g v : g < length a ->
  store a g v = Ok (firstn g a ++ v :: skipn (S g) a).
Proof.
  revert g. induction a as [|x a IH]; intros [|g] H; cbn [length] in H; try lia; [reflexivity|].
  cbn [store firstn skipn app]. rewrite IH by lia. reflexivity.
Qed.
End Store.

Section Proofs.
Context {F : ofield}.
Local Open Scope of_scope.
Add Field FF : (of_field F).

(** After some stores the arrays are what has been written followed by what is left
    of the initial arrays. *)
Definition state (pos : list (list F)) (w : list F) (zp : list (list F)) (zw : list F) :=
  (pos ++ skipn (length pos) zp, w ++ skipn (length pos) zw, length pos).

Lemma skipn_S {A} (l : list A) n : skipn (S n) l = skipn 1 (skipn n l).
Proof. revert l. induction n as [|n IH]; intros [|x l]; try reflexivity. exact (IH l). Qed.

Lemma put_state pos w zp zw p x : length pos = length w -> (length pos < length zp)%nat -> (length pos < length zw)%nat ->
  put (state pos w zp zw) p x = Ok (state (pos ++ [p]) (w ++ [x]) zp zw).
Proof.
  intros L H1 H2. unfold put, state.
  rewrite store_ok by (rewrite app_length, skipn_length; lia). cbn [bind].
  rewrite store_ok by (rewrite app_length, skipn_length; lia). cbn [bind].
  rewrite !firstn_app, !firstn_all, Nat.sub_diag. cbn [firstn].
  rewrite L, firstn_all, Nat.sub_diag. cbn [firstn]. rewrite <- L.
  rewrite !app_nil_r.
  rewrite !skipn_app. rewrite (skipn_all2 pos), (skipn_all2 w) by lia. rewrite !app_nil_l.
  replace (S (length pos) - length pos)%nat with 1%nat by lia.
  replace (S (length pos) - length w)%nat with 1%nat by lia.
  rewrite <- !skipn_S, !app_length. cbn [length]. rewrite !Nat.add_1_r, <- !app_assoc. reflexivity.
Qed.

(** A fold of stores appends. *)
Lemma foldM_state {A} (body : list (list F) * list F * nat -> A -> result (list (list F) * list F * nat))
  (P : A -> list (list F)) (W : A -> list F) zp zw :
  (forall pos w a, length pos = length w -> (length pos + length (P a) <= length zp)%nat ->
     (length pos + length (P a) <= length zw)%nat ->
     body (state pos w zp zw) a = Ok (state (pos ++ P a) (w ++ W a) zp zw)) ->
  (forall a, length (P a) = length (W a)) ->
  forall l pos w, length pos = length w -> (length pos + length (flat_map P l) <= length zp)%nat ->
     (length pos + length (flat_map P l) <= length zw)%nat ->
     foldM body l (state pos w zp zw) = Ok (state (pos ++ flat_map P l) (w ++ flat_map W l) zp zw).
Proof.
  intros H L l. induction l as [|a l IH]; intros pos w E H1 H2; cbn [foldM flat_map] in *.
  - rewrite !app_nil_r. reflexivity.
  - rewrite app_length in H1, H2. rewrite H by lia. cbn [bind].
    rewrite IH by (rewrite ?app_length, <- ?L; lia). rewrite !app_assoc. reflexivity.
Qed.

Lemma flat_map_single {A B} (f : A -> B) l : flat_map (fun a => [f a]) l = map f l.
Proof. induction l as [|a l IH]; [reflexivity|]. cbn [flat_map map app]. rewrite IH. reflexivity. Qed.
Lemma flat_map_len {A B} (f : A -> list B) l n : (forall a, length (f a) = n) -> length (flat_map f l) = (length l * n)%nat.
Proof. intros H. induction l as [|a l IH]; [reflexivity|]. cbn [flat_map length]. rewrite app_length, H, IH. lia. Qed.
Lemma flat_map_nth {A B} (f : A -> list B) l n i j d d' : (forall a, length (f a) = n) -> (j < n)%nat -> (i < length l)%nat ->
  nth (i * n + j) (flat_map f l) d = nth j (f (nth i l d')) d.
Proof.
  intros H Hj. revert i. induction l as [|a l IH]; intros [|i] Hi; cbn [length] in Hi; try lia; cbn [flat_map nth].
  - cbn [Nat.mul Nat.add]. rewrite app_nth1 by (rewrite H; lia). reflexivity.
  - rewrite app_nth2 by (rewrite H; cbn [Nat.mul]; lia). rewrite H.
    replace (S i * n + j - n)%nat with (i * n + j)%nat by (cbn [Nat.mul]; lia). apply IH. lia.
Qed.

Variable leg : Z -> result (table F).
Hypothesis OK : leggauss_ok leg.

Lemma leg_pos n : (0 < n)%Z -> exists x w, leg n = Ok (x, w) /\ length x = Z.to_nat n /\ length w = Z.to_nat n.
Proof. intros H. specialize (OK n). rewrite (proj2 (Z.ltb_lt 0 n) H) in OK. exact OK. Qed.
Lemma leg_neg n : (n <= 0)%Z -> leg n = Err ValueError.
Proof. intros H. specialize (OK n). rewrite (proj2 (Z.ltb_ge 0 n) H) in OK. exact OK. Qed.

Lemma points_1d n x w : (0 < n)%Z -> leg n = Ok (x, w) -> gauss_points_1d leg n = Ok (x, w).
Proof.
  intros H E. destruct (leg_pos n H) as (x' & w' & E' & L1 & L2). rewrite E in E'. injection E' as <- <-.
  unfold gauss_points_1d. rewrite E. cbn [bind]. unfold zeros.
  rewrite (proj2 (Z.ltb_ge n 0)) by lia. cbn [bind]. unfold assign_row.
  rewrite L1, L2, Nat.eqb_refl. reflexivity.
Qed.
Lemma points_1d_bad n : (n <= 0)%Z -> gauss_points_1d leg n = Err ValueError.
Proof. intros H. unfold gauss_points_1d. rewrite leg_neg by exact H. reflexivity. Qed.
Lemma points_1d_or n : (exists v, gauss_points_1d leg n = Ok v) \/ gauss_points_1d leg n = Err ValueError.
Proof.
  destruct (Z_lt_le_dec 0 n) as [H|H]; [left|right; apply points_1d_bad; exact H].
  destruct (leg_pos n H) as (x & w & E & _). exists (x, w). apply points_1d; assumption.
Qed.

Lemma zeros_ok {A} (z : A) n : (0 <= n)%Z -> zeros z n = Ok (repeat z (Z.to_nat n)).
Proof. intros H. unfold zeros. rewrite (proj2 (Z.ltb_ge n 0)) by lia. reflexivity. Qed.
Lemma zeros_or {A} (z : A) n : zeros z n = Ok (repeat z (Z.to_nat n)) \/ zeros z n = Err ValueError.
Proof. unfold zeros. destruct (n <? 0)%Z; auto. Qed.

Lemma columns_len x w : length x = length w -> length (columns (x, w) : list (F * F)) = length x.
Proof. intros H. unfold columns. cbn [fst snd]. rewrite combine_length. lia. Qed.
Lemma columns_nth x w i : length x = length w -> nth i (columns (x, w) : list (F * F)) (0, 0) = (nth i x 0, nth i w 0).
Proof. intros H. unfold columns. cbn [fst snd]. apply combine_nth. exact H. Qed.

Definition grid2P (c1 c2 : list (F * F)) := flat_map (fun gi => map (fun gj => [fst gi; fst gj]) c2) c1.
Definition grid2W (c1 c2 : list (F * F)) := flat_map (fun gi => map (fun gj => snd gi * snd gj) c2) c1.
Definition grid3P (c1 c2 c3 : list (F * F)) :=
  flat_map (fun gi => flat_map (fun gj => map (fun gk => [fst gi; fst gj; fst gk]) c3) c2) c1.
Definition grid3W (c1 c2 c3 : list (F * F)) :=
  flat_map (fun gi => flat_map (fun gj => map (fun gk => snd gi * snd gj * snd gk) c3) c2) c1.

Lemma grid2P_len c1 c2 : length (grid2P c1 c2) = (length c1 * length c2)%nat.
Proof. apply flat_map_len. intros a. apply map_length. Qed.
Lemma grid2W_len c1 c2 : length (grid2W c1 c2) = (length c1 * length c2)%nat.
Proof. apply flat_map_len. intros a. apply map_length. Qed.
Lemma grid3P_len c1 c2 c3 : length (grid3P c1 c2 c3) = (length c1 * (length c2 * length c3))%nat.
Proof. apply flat_map_len. intros a. apply flat_map_len. intros b. apply map_length. Qed.
Lemma grid3W_len c1 c2 c3 : length (grid3W c1 c2 c3) = (length c1 * (length c2 * length c3))%nat.
Proof. apply flat_map_len. intros a. apply flat_map_len. intros b. apply map_length. Qed.

Lemma inner_loop {A} (f : A -> list F) (g : A -> F) c zp zw pos w : length pos = length w ->
  (length pos + length c <= length zp)%nat -> (length pos + length c <= length zw)%nat ->
  foldM (fun st a => put st (f a) (g a)) c (state pos w zp zw)
  = Ok (state (pos ++ map f c) (w ++ map g c) zp zw).
Proof.
  intros L H1 H2. rewrite <- !flat_map_single.
  assert (N : length (flat_map (fun a => [f a]) c) = length c) by (rewrite flat_map_single; apply map_length).
  apply foldM_state; rewrite ?N; try assumption.
  - intros p v a E H3 H4. cbn [length] in *. apply put_state; lia.
  - reflexivity.
Qed.

Lemma finish pos w zp zw : length pos = length w -> length zp = length pos -> length zw = length pos ->
  state pos w zp zw = (pos, w, length pos).
Proof. intros L H1 H2. unfold state. rewrite !skipn_all2 by lia. rewrite !app_nil_r. reflexivity. Qed.

Lemma points_2d n1 n2 x1 w1 x2 w2 : (0 < n1)%Z -> (0 < n2)%Z -> leg n1 = Ok (x1, w1) -> leg n2 = Ok (x2, w2) ->
  gauss_points leg [n1; n2] = Ok (Qn (grid2P (columns (x1, w1)) (columns (x2, w2))) (grid2W (columns (x1, w1)) (columns (x2, w2)))).
Proof.
  intros H1 H2 E1 E2. cbn [gauss_points]. unfold gauss_points_2d.
  rewrite !zeros_ok by nia. cbn [bind].
  rewrite (points_1d n1 x1 w1), (points_1d n2 x2 w2) by assumption. cbn [bind].
  destruct (leg_pos n1 H1) as (x1' & w1' & E1' & L1 & M1). rewrite E1 in E1'. injection E1' as <- <-.
  destruct (leg_pos n2 H2) as (x2' & w2' & E2' & L2 & M2). rewrite E2 in E2'. injection E2' as <- <-.
  set (c1 := columns (x1, w1)). set (c2 := columns (x2, w2)).
  assert (K1 : length c1 = Z.to_nat n1) by (unfold c1; rewrite columns_len; lia).
  assert (K2 : length c2 = Z.to_nat n2) by (unfold c2; rewrite columns_len; lia).
  set (zp := repeat [zero; zero] (Z.to_nat (n1 * n2))). set (zw := repeat zero (Z.to_nat (n1 * n2))).
  assert (Zp : length zp = (length c1 * length c2)%nat) by (unfold zp; rewrite repeat_length, Z2Nat.inj_mul; lia).
  assert (Zw : length zw = (length c1 * length c2)%nat) by (unfold zw; rewrite repeat_length, Z2Nat.inj_mul; lia).
  change (zp, zw, 0%nat) with (state [] [] zp zw).
  rewrite (foldM_state _ (fun gi => map (fun gj => [fst gi; fst gj]) c2) (fun gi => map (fun gj => snd gi * snd gj) c2)).
  - fold (grid2P c1 c2) (grid2W c1 c2). cbn [app].
    rewrite finish by (rewrite ?grid2P_len, ?grid2W_len; congruence). reflexivity.
  - intros pos w a L G1 G2. rewrite map_length in G1, G2. apply inner_loop; assumption.
  - intros a. rewrite !map_length. reflexivity.
  - reflexivity.
  - fold (grid2P c1 c2). rewrite grid2P_len, Zp. reflexivity.
  - fold (grid2P c1 c2). rewrite grid2P_len, Zw. reflexivity.
Qed.

Lemma points_3d n1 n2 n3 x1 w1 x2 w2 x3 w3 : (0 < n1)%Z -> (0 < n2)%Z -> (0 < n3)%Z ->
  leg n1 = Ok (x1, w1) -> leg n2 = Ok (x2, w2) -> leg n3 = Ok (x3, w3) ->
  gauss_points leg [n1; n2; n3] = Ok (Qn (grid3P (columns (x1, w1)) (columns (x2, w2)) (columns (x3, w3)))
                                         (grid3W (columns (x1, w1)) (columns (x2, w2)) (columns (x3, w3)))).
Proof.
  intros H1 H2 H3 E1 E2 E3. cbn [gauss_points]. unfold gauss_points_3d.
  rewrite !zeros_ok by nia. cbn [bind].
  rewrite (points_1d n1 x1 w1), (points_1d n2 x2 w2), (points_1d n3 x3 w3) by assumption. cbn [bind].
  destruct (leg_pos n1 H1) as (x1' & w1' & E1' & L1 & M1). rewrite E1 in E1'. injection E1' as <- <-.
  destruct (leg_pos n2 H2) as (x2' & w2' & E2' & L2 & M2). rewrite E2 in E2'. injection E2' as <- <-.
  destruct (leg_pos n3 H3) as (x3' & w3' & E3' & L3 & M3). rewrite E3 in E3'. injection E3' as <- <-.
  set (c1 := columns (x1, w1)). set (c2 := columns (x2, w2)). set (c3 := columns (x3, w3)).
  assert (K1 : length c1 = Z.to_nat n1) by (unfold c1; rewrite columns_len; lia).
  assert (K2 : length c2 = Z.to_nat n2) by (unfold c2; rewrite columns_len; lia).
  assert (K3 : length c3 = Z.to_nat n3) by (unfold c3; rewrite columns_len; lia).
  set (zp := repeat [zero; zero; zero] (Z.to_nat (n1 * n2 * n3))). set (zw := repeat zero (Z.to_nat (n1 * n2 * n3))).
  assert (Zp : length zp = (length c1 * (length c2 * length c3))%nat)
    by (unfold zp; rewrite repeat_length, !Z2Nat.inj_mul by lia; rewrite K1, K2, K3; lia).
  assert (Zw : length zw = (length c1 * (length c2 * length c3))%nat)
    by (unfold zw; rewrite repeat_length, !Z2Nat.inj_mul by lia; rewrite K1, K2, K3; lia).
  change (zp, zw, 0%nat) with (state [] [] zp zw).
  rewrite (foldM_state _ (fun gi => flat_map (fun gj => map (fun gk => [fst gi; fst gj; fst gk]) c3) c2)
                         (fun gi => flat_map (fun gj => map (fun gk => snd gi * snd gj * snd gk) c3) c2)).
  - fold (grid3P c1 c2 c3) (grid3W c1 c2 c3). cbn [app].
    rewrite finish by (rewrite ?grid3P_len, ?grid3W_len; congruence). reflexivity.
  - intros pos w a L G1 G2. apply foldM_state; try assumption.
    + intros pos' w' b L' G1' G2'. rewrite map_length in G1', G2'. apply inner_loop; assumption.
    + intros b. rewrite !map_length. reflexivity.
  - intros a. rewrite !(flat_map_len _ _ (length c3)); [reflexivity|intros; apply map_length..].
  - reflexivity.
  - fold (grid3P c1 c2 c3). rewrite grid3P_len, Zp. reflexivity.
  - fold (grid3P c1 c2 c3). rewrite grid3P_len, Zw. reflexivity.
Qed.

Local Notation Zz := ((0, 0) : F * F).
Lemma grid2_nth x1 w1 x2 w2 i j : length x1 = length w1 -> length x2 = length w2 -> (i < length x1)%nat -> (j < length x2)%nat ->
  nth (i * length x2 + j) (grid2P (columns (x1, w1)) (columns (x2, w2))) [] = [nth i x1 0; nth j x2 0] /\
  nth (i * length x2 + j) (grid2W (columns (x1, w1)) (columns (x2, w2))) 0 = nth i w1 0 * nth j w2 0.
Proof.
  intros E1 E2 Hi Hj. unfold grid2P, grid2W.
  set (c1 := columns (x1, w1)). set (c2 := columns (x2, w2)).
  assert (K1 : length c1 = length x1) by (apply columns_len, E1).
  assert (K2 : length c2 = length x2) by (apply columns_len, E2).
  split; rewrite (flat_map_nth _ _ _ _ _ _ Zz) by (try lia; intros; rewrite map_length; assumption).
  - rewrite nth_indep with (d' := (fun gj => [fst (nth i c1 Zz); fst gj]) Zz) by (rewrite map_length; lia).
    rewrite (map_nth (fun gj => [fst (nth i c1 Zz); fst gj])). unfold c1, c2.
    rewrite !columns_nth by assumption. reflexivity.
  - rewrite nth_indep with (d' := (fun gj => snd (nth i c1 Zz) * snd gj) Zz) by (rewrite map_length; lia).
    rewrite (map_nth (fun gj => snd (nth i c1 Zz) * snd gj)). unfold c1, c2.
    rewrite !columns_nth by assumption. reflexivity.
Qed.

Lemma grid3_nth x1 w1 x2 w2 x3 w3 i j k : length x1 = length w1 -> length x2 = length w2 -> length x3 = length w3 ->
  (i < length x1)%nat -> (j < length x2)%nat -> (k < length x3)%nat ->
  nth ((i * length x2 + j) * length x3 + k) (grid3P (columns (x1, w1)) (columns (x2, w2)) (columns (x3, w3))) []
    = [nth i x1 0; nth j x2 0; nth k x3 0] /\
  nth ((i * length x2 + j) * length x3 + k) (grid3W (columns (x1, w1)) (columns (x2, w2)) (columns (x3, w3))) 0
    = nth i w1 0 * nth j w2 0 * nth k w3 0.
Proof.
  intros E1 E2 E3 Hi Hj Hk. unfold grid3P, grid3W.
  set (c1 := columns (x1, w1)). set (c2 := columns (x2, w2)). set (c3 := columns (x3, w3)).
  assert (K1 : length c1 = length x1) by (apply columns_len, E1).
  assert (K2 : length c2 = length x2) by (apply columns_len, E2).
  assert (K3 : length c3 = length x3) by (apply columns_len, E3).
  replace ((i * length x2 + j) * length x3 + k)%nat with (i * (length x2 * length x3) + (j * length x3 + k))%nat by lia.
  assert (J : (j * length x3 + k < length x2 * length x3)%nat) by nia.
  split.
  - rewrite (flat_map_nth _ _ _ _ _ _ Zz) by first [lia | intros; rewrite (flat_map_len _ _ (length x3)); [lia|intros; rewrite map_length; assumption]].
    rewrite (flat_map_nth _ _ _ _ _ _ Zz) by (try lia; intros; rewrite map_length; assumption).
    set (a := nth i c1 Zz). set (b := nth j c2 Zz).
    rewrite nth_indep with (d' := (fun gk => [fst a; fst b; fst gk]) Zz) by (rewrite map_length; lia).
    rewrite (map_nth (fun gk => [fst a; fst b; fst gk])). unfold a, b, c1, c2, c3.
    rewrite !columns_nth by assumption. reflexivity.
  - rewrite (flat_map_nth _ _ _ _ _ _ Zz) by first [lia | intros; rewrite (flat_map_len _ _ (length x3)); [lia|intros; rewrite map_length; assumption]].
    rewrite (flat_map_nth _ _ _ _ _ _ Zz) by (try lia; intros; rewrite map_length; assumption).
    set (a := nth i c1 Zz). set (b := nth j c2 Zz).
    rewrite nth_indep with (d' := (fun gk => snd a * snd b * snd gk) Zz) by (rewrite map_length; lia).
    rewrite (map_nth (fun gk => snd a * snd b * snd gk)). unfold a, b, c1, c2, c3.
    rewrite !columns_nth by assumption. reflexivity.
Qed.

(** A sum over a grid is a double sum. *)
Lemma sum_grid n m (f : nat -> F) : sum (n * m) f = sum n (fun i => sum m (fun j => f (i * m + j)%nat)).
Proof.
  induction n as [|n IH]; [reflexivity|].
  replace (S n * m)%nat with (n * m + m)%nat by lia. rewrite sum_split, IH. reflexivity.
Qed.

Theorem tables_2d n1 n2 : (0 < n1)%Z -> (0 < n2)%Z ->
  exists x1 w1 x2 w2 pos w, leg n1 = Ok (x1, w1) /\ leg n2 = Ok (x2, w2) /\
  gauss_points leg [n1; n2] = Ok (Qn pos w) /\
  length pos = Z.to_nat (n1 * n2) /\ length w = Z.to_nat (n1 * n2) /\
  (forall i j, (i < Z.to_nat n1)%nat -> (j < Z.to_nat n2)%nat ->
     nth (i * Z.to_nat n2 + j) pos [] = [nth i x1 0; nth j x2 0] /\
     nth (i * Z.to_nat n2 + j) w 0 = nth i w1 0 * nth j w2 0) /\
  (forall f, rule pos w f = rule1 x1 w1 (fun x => rule1 x2 w2 (fun y => f [x; y]))).
Proof.
  intros H1 H2. destruct (leg_pos n1 H1) as (x1 & w1 & E1 & L1 & M1). destruct (leg_pos n2 H2) as (x2 & w2 & E2 & L2 & M2).
  exists x1, w1, x2, w2. do 2 eexists. split; [exact E1|]. split; [exact E2|].
  split; [apply points_2d; eassumption|].
  set (P := grid2P _ _). set (W := grid2W _ _).
  assert (LP : length P = Z.to_nat (n1 * n2)) by (unfold P; rewrite grid2P_len, !columns_len, Z2Nat.inj_mul; lia).
  assert (LW : length W = Z.to_nat (n1 * n2)) by (unfold W; rewrite grid2W_len, !columns_len, Z2Nat.inj_mul; lia).
  assert (G : forall i j, (i < Z.to_nat n1)%nat -> (j < Z.to_nat n2)%nat ->
     nth (i * Z.to_nat n2 + j) P [] = [nth i x1 0; nth j x2 0] /\
     nth (i * Z.to_nat n2 + j) W 0 = nth i w1 0 * nth j w2 0).
  { intros i j Hi Hj. rewrite <- L2. apply grid2_nth; lia. }
  split; [exact LP|]. split; [exact LW|]. split; [exact G|].
  intros f. unfold rule, rule1. rewrite LP, Z2Nat.inj_mul, sum_grid, L1, L2 by lia.
  apply sum_ext. intros i Hi. rewrite <- sum_scale. apply sum_ext. intros j Hj.
  destruct (G i j Hi Hj) as [-> ->]. ring.
Qed.

Theorem tables_3d n1 n2 n3 : (0 < n1)%Z -> (0 < n2)%Z -> (0 < n3)%Z ->
  exists x1 w1 x2 w2 x3 w3 pos w, leg n1 = Ok (x1, w1) /\ leg n2 = Ok (x2, w2) /\ leg n3 = Ok (x3, w3) /\
  gauss_points leg [n1; n2; n3] = Ok (Qn pos w) /\
  length pos = Z.to_nat (n1 * n2 * n3) /\ length w = Z.to_nat (n1 * n2 * n3) /\
  (forall i j k, (i < Z.to_nat n1)%nat -> (j < Z.to_nat n2)%nat -> (k < Z.to_nat n3)%nat ->
     nth ((i * Z.to_nat n2 + j) * Z.to_nat n3 + k) pos [] = [nth i x1 0; nth j x2 0; nth k x3 0] /\
     nth ((i * Z.to_nat n2 + j) * Z.to_nat n3 + k) w 0 = nth i w1 0 * nth j w2 0 * nth k w3 0) /\
  (forall f, rule pos w f = rule1 x1 w1 (fun x => rule1 x2 w2 (fun y => rule1 x3 w3 (fun z => f [x; y; z])))).
Proof.
  intros H1 H2 H3. destruct (leg_pos n1 H1) as (x1 & w1 & E1 & L1 & M1). destruct (leg_pos n2 H2) as (x2 & w2 & E2 & L2 & M2).
  destruct (leg_pos n3 H3) as (x3 & w3 & E3 & L3 & M3).
  exists x1, w1, x2, w2, x3, w3. do 2 eexists. split; [exact E1|]. split; [exact E2|]. split; [exact E3|].
  split; [apply points_3d; eassumption|].
  set (P := grid3P _ _ _). set (W := grid3W _ _ _).
  assert (LP : length P = Z.to_nat (n1 * n2 * n3)) by (unfold P; rewrite grid3P_len, !columns_len, !Z2Nat.inj_mul; lia).
  assert (LW : length W = Z.to_nat (n1 * n2 * n3)) by (unfold W; rewrite grid3W_len, !columns_len, !Z2Nat.inj_mul; lia).
  assert (G : forall i j k, (i < Z.to_nat n1)%nat -> (j < Z.to_nat n2)%nat -> (k < Z.to_nat n3)%nat ->
     nth ((i * Z.to_nat n2 + j) * Z.to_nat n3 + k) P [] = [nth i x1 0; nth j x2 0; nth k x3 0] /\
     nth ((i * Z.to_nat n2 + j) * Z.to_nat n3 + k) W 0 = nth i w1 0 * nth j w2 0 * nth k w3 0).
  { intros i j k Hi Hj Hk. rewrite <- L2, <- L3. apply grid3_nth; lia. }
  split; [exact LP|]. split; [exact LW|]. split; [exact G|].
  intros f. unfold rule, rule1. rewrite LP, !Z2Nat.inj_mul, !sum_grid, L1, L2, L3 by lia.
  apply sum_ext. intros i Hi. rewrite <- sum_scale. apply sum_ext. intros j Hj.
  rewrite <- !sum_scale. apply sum_ext. intros k Hk.
  destruct (G i j k Hi Hj Hk) as [-> ->]. ring.
Qed.

(** The rejected orders and dimensions. *)
Theorem rejected args : (length args = 0%nat \/ (3 < length args)%nat -> gauss_points leg args = Err NotImplementedError) /\
  ((1 <= length args <= 3)%nat -> (exists n, In n args /\ (n <= 0)%Z) -> gauss_points leg args = Err ValueError).
Proof.
  split.
  - intros [H|H]; destruct args as [|a [|b [|c [|d args]]]]; cbn [length] in H; try lia; reflexivity.
  - intros L (n & I & H). destruct args as [|a [|b [|c [|d args]]]]; cbn [length] in L; try lia; cbn [gauss_points].
    + destruct I as [<-|[]]. rewrite points_1d_bad by exact H. reflexivity.
    + unfold gauss_points_2d. destruct (zeros_or [@zero F; zero] (a * b)) as [->| ->]; [|reflexivity]. cbn [bind].
      destruct (zeros_or (zero : F) (a * b)) as [->| ->]; [|reflexivity]. cbn [bind].
      destruct (points_1d_or a) as [[v E]| ->]; [|reflexivity].
      destruct I as [<-|[<-|[]]]; [rewrite points_1d_bad in E by exact H; discriminate|].
      rewrite E. cbn [bind]. rewrite points_1d_bad by exact H. reflexivity.
    + unfold gauss_points_3d. destruct (zeros_or [@zero F; zero; zero] (a * b * c)) as [->| ->]; [|reflexivity]. cbn [bind].
      destruct (zeros_or (zero : F) (a * b * c)) as [->| ->]; [|reflexivity]. cbn [bind].
      destruct (points_1d_or a) as [[v E]| ->]; [|reflexivity].
      destruct I as [<-|I]; [rewrite points_1d_bad in E by exact H; discriminate|]. rewrite E. cbn [bind].
      destruct (points_1d_or b) as [[v' E']| ->]; [|reflexivity].
      destruct I as [<-|[<-|[]]]; [rewrite points_1d_bad in E' by exact H; discriminate|]. rewrite E'. cbn [bind].
      rewrite points_1d_bad by exact H. reflexivity.
Qed.

Lemma rule1_scale x w c (f : F -> F) : rule1 x w (fun t => c * f t) = c * rule1 x w f.
Proof. unfold rule1. rewrite <- sum_scale. apply sum_ext. intros. ring. Qed.
Lemma rule1_sum x w n (f : nat -> F -> F) : rule1 x w (fun t => sum n (fun k => f k t)) = sum n (fun k => rule1 x w (f k)).
Proof.
  unfold rule1. rewrite <- sum_swap. apply sum_ext. intros i _. rewrite sum_scale. reflexivity.
Qed.
Lemma rule1_ext x w (f g : F -> F) : (forall t, f t = g t) -> rule1 x w f = rule1 x w g.
Proof. intros H. unfold rule1. apply sum_ext. intros. rewrite H. reflexivity. Qed.

Lemma rule1_product2 x1 w1 x2 w2 (f g : F -> F) :
  rule1 x1 w1 (fun x => rule1 x2 w2 (fun y => f x * g y)) = rule1 x1 w1 f * rule1 x2 w2 g.
Proof.
  rewrite (rule1_ext _ _ _ (fun x => rule1 x2 w2 g * f x)) by (intros; rewrite rule1_scale; ring).
  rewrite rule1_scale. ring.
Qed.
Lemma rule1_product3 x1 w1 x2 w2 x3 w3 (f g h : F -> F) :
  rule1 x1 w1 (fun x => rule1 x2 w2 (fun y => rule1 x3 w3 (fun z => f x * g y * h z)))
  = rule1 x1 w1 f * rule1 x2 w2 g * rule1 x3 w3 h.
Proof.
  rewrite (rule1_ext _ _ _ (fun x => rule1 x2 w2 (fun y => f x * (rule1 x3 w3 h * g y)))).
  - rewrite rule1_product2, rule1_scale. ring.
  - intros x. apply rule1_ext. intros y. rewrite rule1_scale. ring.
Qed.
End Proofs.

(** ** Exactness over the reals *)
Local Open Scope R_scope.
Notation RF := R_ofield.

(** The inner integral of a polynomial, as a function of the outer variable, and the
    outer integral. *)
Lemma exact_2d x1 w1 x2 w2 d1 d2 c : exact1 x1 w1 d1 -> exact1 x2 w2 d2 ->
  exists inner : R -> R,
  (forall x, is_RInt (fun y => @poly2 RF d1 d2 c x y) (-1) 1 (inner x)) /\
  is_RInt inner (-1) 1 (@rule1 RF x1 w1 (fun x => @rule1 RF x2 w2 (fun y => @poly2 RF d1 d2 c x y))).
Proof.
  intros H1 H2. exists (fun x => @rule1 RF x2 w2 (fun y => @poly2 RF d1 d2 c x y)).
  assert (A : forall x y, @poly2 RF d1 d2 c x y = @poly1 RF d2 (fun l => @sum RF (S d1) (fun k => c k l * @pow RF x k)) y).
  { intros x y. unfold poly2, poly1. rewrite (@sum_swap RF). apply (@sum_ext RF). intros l _.
    rewrite <- (@sum_scale_r RF). reflexivity. }
  assert (B : forall x, @rule1 RF x2 w2 (fun y => @poly2 RF d1 d2 c x y)
    = @poly1 RF d1 (fun k => @sum RF (S d2) (fun l => c k l * @rule1 RF x2 w2 (fun y => @pow RF y l))) x).
  { intros x. unfold poly2. rewrite (rule1_sum (F := RF) x2 w2 (S d1)). unfold poly1. apply (@sum_ext RF). intros k _.
    rewrite (rule1_sum (F := RF) x2 w2 (S d2)), <- (@sum_scale_r RF). apply (@sum_ext RF). intros l _.
    rewrite (rule1_scale (F := RF) x2 w2 (c k l * @pow RF x k)). cbn. ring. }
  split.
  - intros x. cbv beta. pose proof (rule1_ext (F := RF) x2 w2 _ _ (A x)) as E. cbv beta in E.
    replace (@rule1 RF x2 w2 (fun y => @poly2 RF d1 d2 c x y)) with (@rule1 RF x2 w2 (@poly1 RF d2 (fun l => @sum RF (S d1) (fun k => c k l * @pow RF x k)))) by (symmetry; exact E).
    apply is_RInt_ext with (2 := H2 _). intros t _. symmetry. apply A.
  - pose proof (rule1_ext (F := RF) x1 w1 _ _ B) as E. cbv beta in E.
    match type of E with ?a = ?b => replace a with b by (symmetry; exact E) end.
    apply is_RInt_ext with (2 := H1 _). intros t _. symmetry. apply B.
Qed.

Lemma exact_3d x1 w1 x2 w2 x3 w3 d1 d2 d3 c : exact1 x1 w1 d1 -> exact1 x2 w2 d2 -> exact1 x3 w3 d3 ->
  exists (inner2 : R -> R -> R) (inner1 : R -> R),
  (forall x y, is_RInt (fun z => @poly3 RF d1 d2 d3 c x y z) (-1) 1 (inner2 x y)) /\
  (forall x, is_RInt (fun y => inner2 x y) (-1) 1 (inner1 x)) /\
  is_RInt inner1 (-1) 1
    (@rule1 RF x1 w1 (fun x => @rule1 RF x2 w2 (fun y => @rule1 RF x3 w3 (fun z => @poly3 RF d1 d2 d3 c x y z)))).
Proof.
  intros H1 H2 H3. exists (fun x y => @rule1 RF x3 w3 (fun z => @poly3 RF d1 d2 d3 c x y z)).
  assert (A : forall x y, forall z, @poly3 RF d1 d2 d3 c x y z
     = @poly1 RF d3 (fun m => @poly2 RF d1 d2 (fun k l => c k l m) x y) z).
  { intros x y z. unfold poly3, poly2, poly1.
    rewrite (@sum_ext RF (S d1) _ (fun k => @sum RF (S d3) (fun m => @sum RF (S d2) (fun l => (c k l m * @pow RF x k * @pow RF y l) * @pow RF z m))))
      by (intros; apply (@sum_swap RF)).
    rewrite (@sum_swap RF). apply (@sum_ext RF). intros m _.
    rewrite <- (@sum_scale_r RF). apply (@sum_ext RF). intros k _. apply (@sum_scale_r RF). }
  assert (B : forall x y, @rule1 RF x3 w3 (fun z => @poly3 RF d1 d2 d3 c x y z)
    = @poly2 RF d1 d2 (fun k l => @sum RF (S d3) (fun m => c k l m * @rule1 RF x3 w3 (fun z => @pow RF z m))) x y).
  { intros x y. unfold poly3, poly2. rewrite (rule1_sum (F := RF) x3 w3 (S d1)). apply (@sum_ext RF). intros k _.
    rewrite (rule1_sum (F := RF) x3 w3 (S d2)). apply (@sum_ext RF). intros l _.
    rewrite (rule1_sum (F := RF) x3 w3 (S d3)), <- !(@sum_scale_r RF). apply (@sum_ext RF). intros m _.
    rewrite (rule1_scale (F := RF) x3 w3 (c k l m * @pow RF x k * @pow RF y l)). cbn. ring. }
  destruct (exact_2d x1 w1 x2 w2 d1 d2 (fun k l => @sum RF (S d3) (fun m => c k l m * @rule1 RF x3 w3 (fun z => @pow RF z m))) H1 H2)
    as (inner & I1 & I2).
  exists inner. repeat apply conj.
  - intros x y. cbv beta. pose proof (rule1_ext (F := RF) x3 w3 _ _ (A x y)) as E. cbv beta in E.
    replace (@rule1 RF x3 w3 (fun z => @poly3 RF d1 d2 d3 c x y z)) with (@rule1 RF x3 w3 (@poly1 RF d3 (fun m => @poly2 RF d1 d2 (fun k l => c k l m) x y))) by (symmetry; exact E).
    apply is_RInt_ext with (2 := H3 _). intros t _. symmetry. apply A.
  - intros x. apply is_RInt_ext with (2 := I1 x). intros t _. symmetry. apply B.
  - rewrite (rule1_ext (F := RF) x1 w1 _ (fun x => @rule1 RF x2 w2 (fun y => @poly2 RF d1 d2 (fun k l => @sum RF (S d3) (fun m => c k l m * @rule1 RF x3 w3 (fun z => @pow RF z m))) x y))).
    + exact I2.
    + intros x. apply (rule1_ext (F := RF)). intros y. apply B.
Qed.
