(** Proofs about MLSApproximator. *)
From Coq Require Import String Field.
From Verif Require Import Prelude OField ParallelModel ParallelSpec ParallelProofs KernModel KernProofs MlsModel MlsSpec.
From Verif Require LogicalModel LogicalSpec LogicalProofs.
Local Open Scope list_scope.

Section Table.
Context {F : ofield} {Point : Type}.
Variable dist : Point -> Point -> F.
Lemma filter_length_le {A} (p : A -> bool) l : length (filter p l) <= length l.
Proof. induction l as [|b l IH]; cbn [filter length]; [lia|]. destruct (p b); cbn [length]; lia. Qed.
Lemma filter_length_lt {A} (p : A -> bool) l a : In a l -> p a = false -> length (filter p l) < length l.
Proof.
  induction l as [|b l IH]; intros I H; [destruct I|]. cbn [filter length].
  destruct I as [->|I]; [rewrite H; pose proof (filter_length_le p l); lia|].
  specialize (IH I H). destruct (p b); cbn [length]; lia.
Qed.
Lemma filter_all {A} (p : A -> bool) l : (forall a, In a l -> p a = true) -> filter p l = l.
Proof.
  induction l as [|a l IH]; intros H; [reflexivity|]. cbn [filter]. rewrite (H a (or_introl eq_refl)). f_equal.
  apply IH. intros b I. apply H. right. exact I.
Qed.
Lemma row_nearest X y k row : LogicalSpec.row_ok dist X y k LogicalModel.PInf row -> k <= length X -> nearest dist X y k (map snd row).
Proof.
  intros (Hl & Hd & Hu & Hn) Hk.
  assert (B : forall i, In i (map snd row) -> i < length X).
  { intros i Hi. destruct (le_lt_dec (length X) i) as [G|G]; [exfalso|exact G].
    assert (P : incl (seq 0 (length X)) (filter (fun j => j <? length X) (map snd row))).
    { intros j Hj. apply in_seq in Hj. apply filter_In. split; [|apply Nat.ltb_lt; lia].
      destruct (in_dec Nat.eq_dec j (map snd row)) as [I|N]; [exact I|exfalso].
      destruct (nth_error X j) as [x|] eqn:Ex; [|apply nth_error_None in Ex; lia].
      apply in_map_iff in Hi. destruct Hi as ([d i'] & E & Hi). cbn [snd] in E. subst i'.
      destruct (Hu j x Ex eq_refl) with (d := d) (j := i) as [L _]; [|exact Hi|lia].
      intros (d' & I'). apply N. apply in_map_iff. exists (d', j). auto. }
    apply NoDup_incl_length in P; [|apply seq_NoDup]. rewrite seq_length in P.
    assert (Q : (fun j => j <? length X) i = false) by (apply Nat.ltb_ge; exact G).
    pose proof (filter_length_lt (fun j => j <? length X) (map snd row) i Hi Q) as R.
    rewrite map_length in R. lia. }
  split; [rewrite map_length; exact Hl|]. split; [|split; [exact B|]].
  - rewrite <- (filter_all (fun i => i <? length X) (map snd row)); [exact Hn|].
    intros i I. apply Nat.ltb_lt. apply B. exact I.
  - intros i j x z Hi Hj Ex Ez. pose proof (B i Hi) as Bi. apply in_map_iff in Hi. destruct Hi as ([d i'] & E & Hi). cbn [snd] in E. subst i'.
    destruct (Hd d i Hi Bi x Ex) as [-> _].
    destruct (Hu j z Ez eq_refl) with (d := LogicalModel.Fin (dist x y)) (j := i) as [_ L]; [|exact Hi|exact L].
    intros (d' & I'). apply Hj. apply in_map_iff. exists (d', j). auto.
Qed.

Lemma k_of_wanted (m : approximator F Point) : k_of m = neighbours_wanted (opt_k m).
Proof. unfold k_of. destruct (opt_k m) as [[|k]|]; reflexivity. Qed.
(** What the library returns for a supported call. *)
Lemma rows_ok L m T rows : LogicalSpec.scipy_ok dist L -> sklearn_ok dist L -> supported L m T -> get_neighbours L m T = Ok rows ->
  Forall2 (fun y row => nearest dist (X_S m) y (k_of m) (map snd row)) (t_points T) rows.
Proof.
  intros Hsp Hsk (_ & _ & _ & _ & Hk & Hb) E. rewrite <- k_of_wanted in Hk, Hb. unfold get_neighbours, LogicalModel.k_nearest_neighbours in E.
  assert (G : Forall2 (fun y row => LogicalSpec.row_ok dist (X_S m) y (k_of m) LogicalModel.PInf row) (t_points T) rows).
  { destruct (backend_of m).
    - destruct (LogicalModel.sp_build _ _ _ _) as [tree|] eqn:B; [|discriminate]. destruct Hb as [_ Hb].
      destruct (LogicalModel.before_1_6 _) eqn:V; cbn [fst] in E.
      + destruct Hb as [Hb|Hb]; [|exfalso; apply Hb, LogicalProofs.before_1_6_spec; exact V]. rewrite Hb in E. cbn [option_map] in E.
        exact (Hsp _ _ _ _ B _ _ _ _ _ E).
      + exact (Hsp _ _ _ _ B _ _ _ _ _ E).
    - destruct (negb _); [discriminate|]. destruct (LogicalModel.sk_build _ _ _ _) as [tree|] eqn:B; [|discriminate].
      rewrite Hb in E. cbn [option_map fst] in E. exact (Hsk _ _ _ _ B _ _ _ _ E).
    - destruct Hb. }
  clear - G Hk. induction G; constructor; [apply row_nearest; assumption|assumption].
Qed.
End Table.

Section Kernel.
Context {F : ofield}.
Add Field Ffm : (of_field F).

Lemma exec_same (m : memory F) c {A} (g : A -> F -> F) l :
  exec m (map (fun k => Upd c (g k)) l) c = fold_left (fun a k => g k a) l (m c).
Proof.
  revert m. induction l as [|k l IH]; intros m; [reflexivity|]. cbn [map fold_left].
  match goal with |- exec ?m (?u :: ?l) ?c = _ => change (exec m (u :: l) c) with (exec (step m u) l c) end.
  rewrite IH. f_equal. unfold step. cbn [u_cell u_fun]. destruct (cell_dec c c); congruence.
Qed.
Lemma exec_rows (m : memory F) i sh {A} (g : A -> cell -> F -> F) l c : inside sh c ->
  exec m (concat (map (fun k => map (fun c => Upd ([i] ++ c) (g k c)) (cells sh)) l)) (i :: c)
  = fold_left (fun a k => g k c a) l (m (i :: c)).
Proof.
  intros Hc. revert m. induction l as [|k l IH]; intros m; [reflexivity|]. cbn [map concat fold_left]. rewrite exec_app, IH. f_equal.
  apply (exec_updates m [i] (cells sh) (g k) c); [apply NoDup_cells|apply In_cells; exact Hc].
Qed.
Lemma fold_sum (h : nat -> F) f l a : fold_left (fun (a : F) k => add a (mul (h k) f)) l a = add a (mul (suml (map h l)) f).
Proof.
  revert a. induction l as [|k l IH]; intros a; cbn [fold_left map suml]; [ring|]. rewrite IH. ring.
Qed.

Lemma its_2d_owned (d : dtype F) values junk nb nN nD : owned (fun i => concat (map (fun j =>
      map (fun k => Upd [i; j] (fun a => cast d (add a (mul (read values junk (at_ nb [i; k]) [j]) (factor nb)))))
          (range nN)) (range nD)) : list (update F)).
Proof.
  intros i u Hu. apply in_concat in Hu. destruct Hu as (l & Hl & Hu). apply in_map_iff in Hl. destruct Hl as (j & <- & _).
  apply in_map_iff in Hu. destruct Hu as (k & <- & _). exists [j]. reflexivity.
Qed.
Lemma its_nd_owned (values : ndarray F) junk nb nN sh : owned (fun i => concat (map (fun k =>
      map (fun c => Upd ([i] ++ c) (fun a => add a (mul (read values junk (at_ nb [i; k]) c) (factor nb)))) (cells sh))
    (range nN)) : list (update F)).
Proof.
  intros i u Hu. apply in_concat in Hu. destruct Hu as (l & Hl & Hu). apply in_map_iff in Hl. destruct Hl as (k & <- & _).
  apply in_map_iff in Hu. destruct Hu as (c & <- & _). exists c. reflexivity.
Qed.

Lemma value_2d (d : dtype F) values junk nb nT nN nD res i j : i < nT -> j < nD ->
  prange_run (zeros zero [nT; nD]) (its_2d d values junk nb nT nN nD) res ->
  at_ res [i; j] = fold_left (fun (a : F) k => cast d (add a (mul (read values junk (at_ nb [i; k]) [j]) (factor nb)))) (range nN) zero.
Proof.
  intros Hi Hj Hrun. unfold its_2d in Hrun.
  rewrite (owned_value _ _ nT res i [j] (its_2d_owned d values junk nb nN nD) Hrun Hi).
  rewrite (exec_inner _ (fun j => map (fun k => Upd [i; j] (fun a => cast d (add a (mul (read values junk (at_ nb [i; k]) [j]) (factor nb))))) (range nN)) i nD j []).
  - rewrite (exec_same _ [i; j] (fun k a => cast d (add a (mul (read values junk (at_ nb [i; k]) [j]) (factor nb))))). reflexivity.
  - intros y u Hu. apply in_map_iff in Hu. destruct Hu as (k & <- & _). exists []. reflexivity.
  - exact Hj.
Qed.
Lemma value_nd values junk nb nT nN sh res i c : i < nT -> inside sh c ->
  prange_run (zeros zero (nT :: sh)) (its_nd values junk nb nT nN sh) res ->
  at_ res (i :: c) = fold_left (fun (a : F) k => add a (mul (read values junk (at_ nb [i; k]) c) (factor nb))) (range nN) zero.
Proof.
  intros Hi Hc Hrun. unfold its_nd in Hrun.
  rewrite (owned_value _ _ nT res i c (its_nd_owned values junk nb nN sh) Hrun Hi).
  exact (exec_rows _ i sh (fun k c a => add a (mul (read values junk (at_ nb [i; k]) c) (factor nb))) (range nN) c Hc).
Qed.

(** The outcome of the kernels is determined by the arguments. *)
Definition same (r s : result (ndarray F)) : Prop :=
  match r, s with Ok a, Ok b => nd_eq a b | Err e, Err f => e = f | _, _ => False end.
Lemma inside_1 n c : inside [n] c -> exists j, c = [j] /\ j < n.
Proof. intros H. inversion_clear H as [|j ? d ? Hj H']. inversion_clear H'. exists j. auto. Qed.
Lemma approximate_2d_det d values junk nb r s : approximate_2d d values junk nb r -> approximate_2d d values junk nb s -> same r s.
Proof.
  unfold approximate_2d. destruct (shape nb) as [|nT [|nN [|]]]; intros Hr Hs; try (subst; reflexivity).
  destruct Hr as (a & -> & Ha), Hs as (b & -> & Hb). pose proof (prange_shape _ _ _ Ha) as Sa. pose proof (prange_shape _ _ _ Hb) as Sb.
  split; [congruence|]. intros c Hc. rewrite Sa in Hc. cbn [zeros shape] in Hc. inversion_clear Hc as [|i n c' l Hi Hc'].
  apply inside_1 in Hc'. destruct Hc' as (j & -> & Hj).
  rewrite (value_2d _ _ _ _ _ _ _ a i j Hi Hj Ha), (value_2d _ _ _ _ _ _ _ b i j Hi Hj Hb). reflexivity.
Qed.
Lemma approximate_nd_det values junk nb r s : approximate_nd values junk nb r -> approximate_nd values junk nb s -> same r s.
Proof.
  unfold approximate_nd. destruct (shape nb) as [|nT [|nN [|]]]; intros Hr Hs; try (subst; reflexivity).
  destruct Hr as (a & -> & Ha), Hs as (b & -> & Hb). pose proof (prange_shape _ _ _ Ha) as Sa. pose proof (prange_shape _ _ _ Hb) as Sb.
  split; [congruence|]. intros c Hc. rewrite Sa in Hc. cbn [zeros shape] in Hc. inversion_clear Hc as [|i n c' l Hi Hc'].
  rewrite (value_nd _ _ _ _ _ _ a i c' Hi Hc' Ha), (value_nd _ _ _ _ _ _ b i c' Hi Hc' Hb). reflexivity.
Qed.

Lemma inside_unsqueeze sh c : inside (filter (fun n => negb (n =? 1)) sh) c -> inside sh (unsqueeze sh c).
Proof.
  revert c. induction sh as [|n sh IH]; intros c H; cbn [filter unsqueeze] in *; [constructor|].
  destruct (Nat.eqb_spec n 1) as [->|N]; cbn [negb] in H.
  - constructor; [lia|apply IH; exact H].
  - inversion_clear H as [|i m c' l Hi Hc']. constructor; [exact Hi|apply IH; exact Hc'].
Qed.
Lemma same_squeeze (r s : result (ndarray F)) : same r s -> same (squeezed r) (squeezed s).
Proof.
  destruct r as [a|e], s as [b|f]; cbn [same squeezed]; try tauto. intros [Hs Hv]. split; cbn [squeeze shape at_]; [rewrite Hs; reflexivity|].
  intros c Hc. rewrite <- Hs. apply Hv. apply inside_unsqueeze. exact Hc.
Qed.
End Kernel.

Section Approx.
Context {F : ofield} {Point : Type}.
Variable dist : Point -> Point -> F.
Add Field Ffm2 : (of_field F).
Implicit Types (L : LogicalModel.libs F Point) (m : approximator F Point) (T : targets Point).

Lemma approximate_det L m junk T r s : approximate_run L m junk T r -> approximate_run L m junk T s -> same r s.
Proof.
  unfold approximate_run. destruct (get_neighbours L m T) as [rows|e]; [|intros -> ->; reflexivity].
  cbv zeta. intros (r' & -> & Hr) (s' & -> & Hs). apply same_squeeze.
  destruct (shape (as_column (Y_S m))) as [|a [|b [|]]].
  1,2,4: destruct Hr as [_ Hr], Hs as [_ Hs]; exact (approximate_nd_det _ _ _ _ _ Hr Hs).
  exact (approximate_2d_det _ _ _ _ _ _ Hr Hs).
Qed.

(** A call for which the library answers has an outcome. *)
Lemma approximate_exists L m junk T : Y_type m = Floating -> exists r, approximate_run L m junk T r.
Proof.
  intros HF. unfold approximate_run. destruct (get_neighbours L m T) as [rows|e]; [|eexists; reflexivity]. cbv zeta.
  set (nb := neighbour_array _ _ _ _). set (data := as_column _).
  assert (A : exists r, approximate_2d (Y_type m) data junk nb r).
  { unfold approximate_2d. destruct (shape nb) as [|nT [|nN [|]]]; try (eexists; reflexivity).
    destruct (prange_exists (zeros zero [nT; last (shape data) 0]) (its_2d (Y_type m) data junk nb nT nN (last (shape data) 0))) as [o Ho].
    exists (Ok o), o. split; [reflexivity|exact Ho]. }
  assert (B : exists r, approximate_nd data junk nb r).
  { unfold approximate_nd. destruct (shape nb) as [|nT [|nN [|]]]; try (eexists; reflexivity).
    destruct (prange_exists (zeros zero (nT :: tl (shape data))) (its_nd data junk nb nT nN (tl (shape data)))) as [o Ho].
    exists (Ok o), o. split; [reflexivity|exact Ho]. }
  destruct A as [ra Ha], B as [rb Hb].
  destruct (shape data) as [|x [|y [|]]].
  1,2,4: exists (squeezed rb), rb; auto.
  exists (squeezed ra), ra. auto.
Qed.

Lemma hd_as_column (a : ndarray F) : hd 0 (shape (as_column a)) = hd 0 (shape a).
Proof. unfold as_column. destruct (shape a) as [|n [|]] eqn:E; rewrite ?E; reflexivity. Qed.

Lemma sum_mean (data : ndarray F) junk (rows : LogicalModel.neighbours F) row i c k nb :
  nth_error rows i = Some row -> length row = k -> 1 <= k -> (forall r, In r (map snd row) -> r < hd 0 (shape data)) ->
  (forall q, at_ nb [i; q] = index_of rows i q) -> last (shape nb) 0 = k ->
  fold_left (fun (a : F) q => add a (mul (read data junk (at_ nb [i; q]) c) (factor nb))) (range k) zero
  = mean (map (fun r => at_ data (r :: c)) (map snd row)).
Proof.
  intros Hrow Hlen Hk Hin Hnb Hsh. rewrite (fold_sum (fun q => read data junk (at_ nb [i; q]) c)).
  unfold mean, factor. rewrite Hsh, !map_length, Hlen.
  replace (map (fun q => read data junk (at_ nb [i; q]) c) (range k)) with (map (fun r => at_ data (r :: c)) (map snd row)).
  - assert (N : of_nat k <> (zero : F)). { apply pos_neq. apply of_nat_pos. lia. }
    field. exact N.
  - rewrite map_map. subst k. unfold range.
    assert (G : forall l n, skipn n row = l -> map (fun x => at_ data (snd x :: c)) l = map (fun q => read data junk (at_ nb [i; q]) c) (seq n (length l))).
    { induction l as [|x l IH]; intros n E; [reflexivity|]. cbn [map length seq].
      assert (Ex : nth_error row n = Some x).
      { rewrite <- (firstn_skipn n row), nth_error_app2, E.
        - assert (n < length row). { destruct (le_lt_dec (length row) n) as [Q|Q]; [rewrite skipn_all2 in E by exact Q; discriminate|exact Q]. }
          rewrite firstn_length, Nat.min_l by lia. rewrite Nat.sub_diag. reflexivity.
        - rewrite firstn_length. lia. }
      f_equal.
      - rewrite Hnb. unfold index_of. rewrite (nth_error_nth rows i [] Hrow), (nth_error_nth row n _ Ex). unfold read.
        assert (B : (snd x <? hd 0 (shape data)) = true).
        { apply Nat.ltb_lt. apply Hin. apply in_map. apply nth_error_In in Ex. exact Ex. }
        rewrite B. reflexivity.
      - apply IH. change (x :: l) with ([x] ++ l) in E. replace (S n) with (n + 1) by lia.
        clear - E. revert n E. induction row as [|z row' IH]; intros [|n] E; cbn [skipn] in E |- *; try discriminate.
        + injection E as _ E. exact E.
        + cbn [Nat.add skipn]. apply IH. exact E. }
    rewrite (G row 0 eq_refl). reflexivity.
Qed.

Lemma approximate_means L m junk T out : LogicalSpec.scipy_ok dist L -> sklearn_ok dist L -> supported L m T ->
  approximate_run L m junk T (Ok out) ->
  exists full rows, get_neighbours L m T = Ok rows /\ out = squeeze full /\
    means dist (X_S m) (t_points T) (k_of m) (map (map snd) rows) (as_column (Y_S m)) full.
Proof.
  intros Hsp Hsk Hs. pose proof Hs as (Hrows & Hne & HF & Hsh & Hk & Hb). rewrite <- k_of_wanted in Hk, Hb.
  unfold approximate_run. destruct (get_neighbours L m T) as [rows|e] eqn:EN; [|discriminate]. cbv zeta.
  pose proof (rows_ok dist L m T rows Hsp Hsk Hs EN) as Hn.
  set (nb := neighbour_array _ _ _ _). set (data := as_column (Y_S m)). intros (r & Er & Hr).
  assert (Hdata : hd 0 (shape data) = length (X_S m)) by (unfold data; rewrite hd_as_column; exact Hrows).
  assert (K1 : 1 <= k_of m).
  { unfold k_of. destruct (opt_k m) as [[|k]|]; cbn; lia. }
  assert (Snb : shape nb = [length (t_points T); k_of m] /\ forall i q, at_ nb [i; q] = index_of rows i q).
  { unfold nb, neighbour_array. rewrite Hsh. destruct (backend_of m); [destruct Hb as [Hb _]; destruct (Nat.eqb_spec (k_of m) 1); [lia|]|..].
    all: cbn [shape app at_]; split; [reflexivity|]; intros i q; cbn [removelast last ravel fold_right]; f_equal; lia. }
  destruct Snb as [Snb Anb].
  assert (V : forall i row c, nth_error (map (map snd) rows) i = Some row ->
     i < length (t_points T) /\
     fold_left (fun (a : F) q => add a (mul (read data junk (at_ nb [i; q]) c) (factor nb))) (range (k_of m)) zero
       = mean (map (fun r => at_ data (r :: c)) row)).
  { intros i row c E. rewrite nth_error_map in E. destruct (nth_error rows i) as [row'|] eqn:Er'; [|discriminate]. injection E as <-.
    assert (Q : exists y, nth_error (t_points T) i = Some y /\ nearest dist (X_S m) y (k_of m) (map snd row')).
    { clear - Hn Er'. revert i Er'. induction Hn as [|y r Y R H Hn IH]; intros [|i] E; try discriminate.
      - injection E as <-. exists y. auto.
      - apply IH. exact E. }
    destruct Q as (y & Ey & Hl & _ & Hin & _). split; [apply nth_error_Some; congruence|].
    apply (sum_mean data junk rows row' i c (k_of m) nb Er'); auto.
    - rewrite map_length in Hl. exact Hl.
    - intros r' I. rewrite Hdata. apply Hin. exact I.
    - rewrite Snb. reflexivity. }
  assert (F2 : Forall2 (fun y row => nearest dist (X_S m) y (k_of m) row) (t_points T) (map (map snd) rows)).
  { clear - Hn. induction Hn; cbn [map]; constructor; assumption. }
  destruct (shape data) as [|n0 [|n1 [|]]] eqn:Ed.
  1,2,4: destruct Hr as [_ Hr]; unfold approximate_nd in Hr; rewrite Snb in Hr; destruct Hr as (full & -> & Hrun);
    exists full, rows; split; [reflexivity|]; split; [cbn [squeezed] in Er; injection Er as ->; reflexivity|];
    rewrite Ed in Hrun; split; [exact F2|]; split; [rewrite (prange_shape _ _ _ Hrun); rewrite Ed; reflexivity|];
    intros i row c E Hc; rewrite Ed in Hc; destruct (V i row c E) as [Hi Ev];
    rewrite <- Ev; exact (value_nd data junk nb _ _ _ full i c Hi Hc Hrun).
  unfold approximate_2d in Hr. rewrite Snb, Ed, HF in Hr. cbv zeta in Hr. cbn [last] in Hr. destruct Hr as (full & -> & Hrun).
  exists full, rows. split; [reflexivity|]. split; [cbn [squeezed] in Er; injection Er as ->; reflexivity|].
  split; [exact F2|]. split; [rewrite (prange_shape _ _ _ Hrun), Ed; reflexivity|].
  intros i row c E Hc. rewrite Ed in Hc. cbn [tl] in Hc. apply inside_1 in Hc. destruct Hc as (j & -> & Hj).
  destruct (V i row [j] E) as [Hi Ev]. rewrite <- Ev. exact (value_2d Floating data junk nb _ _ _ full i j Hi Hj Hrun).
Qed.

(** Consequences for single entries. *)
Lemma mean_bounds (l : list F) lo hi : l <> [] -> (forall v, In v l -> leb lo v = true /\ leb v hi = true) ->
  leb lo (mean l) = true /\ leb (mean l) hi = true.
Proof.
  intros Hne H.
  assert (G : leb (mul (of_nat (length l)) lo) (suml l) = true /\ leb (suml l) (mul (of_nat (length l)) hi) = true).
  { clear Hne. induction l as [|v l IH].
    - cbn. replace (mul zero lo) with (zero : F) by ring. replace (mul zero hi) with (zero : F) by ring. split; apply le_refl.
    - destruct (H v (or_introl eq_refl)) as [H1 H2]. destruct IH as [I1 I2]; [intros w I; apply H; right; exact I|].
      change (suml (v :: l)) with (add v (suml l)). change (length (v :: l)) with (1 + length l). rewrite of_nat_add.
      replace (of_nat 1) with (one : F) by (cbn; ring).
      split.
      + replace (mul (add one (of_nat (length l))) lo) with (add lo (mul (of_nat (length l)) lo)) by ring. apply add_le_compat; assumption.
      + replace (mul (add one (of_nat (length l))) hi) with (add hi (mul (of_nat (length l)) hi)) by ring. apply add_le_compat; assumption. }
  assert (P : leb (of_nat (length l) : F) zero = false). { apply of_nat_pos. destruct l; [congruence|cbn; lia]. }
  pose proof (pos_neq _ _ P) as N. pose proof (inv_pos _ _ P) as Q. apply lt_le in Q.
  destruct G as [G1 G2]. unfold mean. split.
  - replace lo with (mul (mul (of_nat (length l)) lo) (inv (of_nat (length l)))) by (field; exact N).
    replace (div (suml l) (of_nat (length l))) with (mul (suml l) (inv (of_nat (length l)))) by (field; exact N).
    apply mul_le_r; assumption.
  - replace hi with (mul (mul (of_nat (length l)) hi) (inv (of_nat (length l)))) by (field; exact N).
    replace (div (suml l) (of_nat (length l))) with (mul (suml l) (inv (of_nat (length l)))) by (field; exact N).
    apply mul_le_r; assumption.
Qed.
Lemma mean_linear {A} (f g : A -> F) a b l : l <> [] ->
  mean (map (fun x => add (mul a (f x)) (mul b (g x))) l) = add (mul a (mean (map f l))) (mul b (mean (map g l))).
Proof.
  intros Hne. unfold mean. rewrite !map_length.
  assert (N : of_nat (length l) <> (zero : F)). { apply pos_neq. apply of_nat_pos. destruct l; [congruence|cbn; lia]. }
  assert (G : suml (map (fun x => add (mul a (f x)) (mul b (g x))) l) = add (mul a (suml (map f l))) (mul b (suml (map g l)))).
  { clear. induction l as [|x l IH]; cbn [map suml]; [ring|]. rewrite IH. ring. }
  rewrite G. field. exact N.
Qed.

(** A cell of the squeezed array is an entry of the full one. *)
Lemma squeezed_cell (full : ndarray F) n sh c : shape full = n :: sh -> inside (shape (squeeze full)) c ->
  exists i c', i < n /\ inside sh c' /\ at_ (squeeze full) c = at_ full (i :: c') /\ unsqueeze (n :: sh) c = i :: c'.
Proof.
  intros E H. cbn [squeeze shape at_] in *. rewrite E in *. apply inside_unsqueeze in H.
  remember (unsqueeze (n :: sh) c) as d eqn:Ed. inversion H as [|i n' c' l Hi Hc E1 E2]. subst.
  exists i, c'. auto.
Qed.
Lemma forall2_nth {A B} (R : A -> B -> Prop) l l' i : Forall2 R l l' -> i < length l ->
  exists x y, nth_error l i = Some x /\ nth_error l' i = Some y /\ R x y.
Proof.
  intros H. revert i. induction H as [|x y l l' Hxy H IH]; intros i Hi; [cbn in Hi; lia|].
  destruct i as [|i]; [exists x, y; auto|]. cbn [nth_error length] in *. apply IH. lia.
Qed.

(** Every entry of the returned array is the mean over the nearest neighbours of a target. *)
Lemma approximate_entry L m junk T out c : LogicalSpec.scipy_ok dist L -> sklearn_ok dist L -> supported L m T ->
  approximate_run L m junk T (Ok out) -> inside (shape out) c ->
  exists rows i row c', get_neighbours L m T = Ok rows /\ nth_error (map (map snd) rows) i = Some row /\
    unsqueeze (length (t_points T) :: tl (shape (as_column (Y_S m)))) c = i :: c' /\
    row <> [] /\ (forall r, In r row -> r < length (X_S m)) /\ inside (tl (shape (as_column (Y_S m)))) c' /\
    at_ out c = mean (map (fun r => at_ (as_column (Y_S m)) (r :: c')) row).
Proof.
  intros Hsp Hsk Hs Hr Hc. destruct (approximate_means L m junk T out Hsp Hsk Hs Hr) as (full & rows & EN & -> & F2 & Sf & V).
  destruct (squeezed_cell full _ _ c Sf Hc) as (i & c' & Hi & Hc' & E & U).
  destruct (forall2_nth _ _ _ i F2 Hi) as (y & row & Ey & Er & Hl & _ & Hin & _).
  exists rows, i, row, c'. rewrite E. repeat split; auto. intros ->.
  cbn [length] in Hl. unfold k_of in Hl. destruct (opt_k m) as [[|k]|]; cbn in Hl; lia.
Qed.

Lemma approximate_bounds L m junk T out lo hi : LogicalSpec.scipy_ok dist L -> sklearn_ok dist L -> supported L m T ->
  approximate_run L m junk T (Ok out) ->
  (forall c, inside (shape (Y_S m)) c -> leb lo (at_ (Y_S m) c) = true /\ leb (at_ (Y_S m) c) hi = true) ->
  forall c, inside (shape out) c -> leb lo (at_ out c) = true /\ leb (at_ out c) hi = true.
Proof.
  intros Hsp Hsk Hs Hr H c Hc. destruct (approximate_entry L m junk T out c Hsp Hsk Hs Hr Hc) as (rows & i & row & c' & _ & _ & _ & Hne & Hin & Hc' & ->).
  apply mean_bounds; [destruct row; [congruence|discriminate]|]. intros v I. apply in_map_iff in I. destruct I as (r & <- & I).
  specialize (Hin r I). destruct Hs as (Hrows & Hne' & _).
  unfold as_column in *. destruct (shape (Y_S m)) as [|n0 [|n1 l]] eqn:Es; [congruence|..]; cbn [shape at_ tl hd] in *.
  - apply H. constructor; [lia|constructor].
  - rewrite Es in Hc'. cbn [tl] in Hc'. apply H. constructor; [lia|exact Hc'].
Qed.

Lemma approximate_linear L m junk T Y1 Y2 a b out out1 out2 : LogicalSpec.scipy_ok dist L -> sklearn_ok dist L -> supported L m T ->
  shape Y1 = shape (Y_S m) -> shape Y2 = shape (Y_S m) ->
  (forall c, inside (shape (Y_S m)) c -> at_ (Y_S m) c = add (mul a (at_ Y1 c)) (mul b (at_ Y2 c))) ->
  approximate_run L m junk T (Ok out) -> approximate_run L (with_data m Y1) junk T (Ok out1) -> approximate_run L (with_data m Y2) junk T (Ok out2) ->
  shape out1 = shape out /\ shape out2 = shape out /\
  forall c, inside (shape out) c -> at_ out c = add (mul a (at_ out1 c)) (mul b (at_ out2 c)).
Proof.
  intros Hsp Hsk Hs S1 S2 HY R R1 R2.
  assert (Hs1 : supported L (with_data m Y1) T) by (unfold supported in *; cbn [with_data X_S Y_S Y_type opt_k opt_max_distance]; rewrite S1; exact Hs).
  assert (Hs2 : supported L (with_data m Y2) T) by (unfold supported in *; cbn [with_data X_S Y_S Y_type opt_k opt_max_distance]; rewrite S2; exact Hs).
  assert (C : forall Y : ndarray F, shape Y = shape (Y_S m) -> shape (as_column Y) = shape (as_column (Y_S m))).
  { intros Y E. unfold as_column. rewrite E. destruct (shape (Y_S m)) as [|n0 [|n1 l]] eqn:Es; cbn; congruence. }
  assert (Sh : shape out1 = shape out /\ shape out2 = shape out).
  { destruct (approximate_means L _ junk T out Hsp Hsk Hs R) as (f & r & _ & -> & _ & Sf & _).
    destruct (approximate_means L _ junk T out1 Hsp Hsk Hs1 R1) as (f1 & r1 & _ & -> & _ & Sf1 & _).
    destruct (approximate_means L _ junk T out2 Hsp Hsk Hs2 R2) as (f2 & r2 & _ & -> & _ & Sf2 & _).
    cbn [squeeze shape]. rewrite Sf, Sf1, Sf2. cbn [with_data Y_S]. rewrite (C Y1 S1), (C Y2 S2). auto. }
  destruct Sh as [Sh1 Sh2]. split; [exact Sh1|]. split; [exact Sh2|]. intros c Hc.
  destruct (approximate_entry L _ junk T out c Hsp Hsk Hs R Hc) as (rows & i & row & c' & En & Er & U & Hne & Hin & Hc' & ->).
  destruct (approximate_entry L _ junk T out1 c Hsp Hsk Hs1 R1) as (rows1 & i1 & row1 & c1 & En1 & Er1 & U1 & _ & _ & _ & ->); [rewrite Sh1; exact Hc|].
  destruct (approximate_entry L _ junk T out2 c Hsp Hsk Hs2 R2) as (rows2 & i2 & row2 & c2 & En2 & Er2 & U2 & _ & _ & _ & ->); [rewrite Sh2; exact Hc|].
  cbn [with_data Y_S] in *. rewrite (C Y1 S1) in U1. rewrite (C Y2 S2) in U2.
  assert (Q1 : get_neighbours L (with_data m Y1) T = get_neighbours L m T) by reflexivity.
  assert (Q2 : get_neighbours L (with_data m Y2) T = get_neighbours L m T) by reflexivity.
  rewrite Q1, En in En1. rewrite Q2, En in En2. injection En1 as <-. injection En2 as <-.
  rewrite U in U1. injection U1 as <- <-. rewrite U in U2. injection U2 as <- <-.
  rewrite Er in Er1. injection Er1 as <-. rewrite Er in Er2. injection Er2 as <-.
  rewrite <- (mean_linear (fun r => at_ (as_column Y1) (r :: c')) (fun r => at_ (as_column Y2) (r :: c')) a b row Hne).
  f_equal. apply map_ext_in. intros r I. specialize (Hin r I). destruct Hs as (Hrows & Hne' & _).
  unfold as_column in *. rewrite S1, S2 in *. destruct (shape (Y_S m)) as [|n0 [|n1 l]] eqn:Es; [congruence|..]; cbn [shape at_ tl hd] in *.
  - apply HY. constructor; [lia|constructor].
  - rewrite Es in Hc'. apply HY. constructor; [lia|exact Hc'].
Qed.

(** A run of the two-dimensional kernel, whatever the data type. *)
Lemma run_2d L m junk T rows nT nN n nD : get_neighbours L m T = Ok rows ->
  shape (neighbour_array (backend_of m) (k_of m) (t_shape T) rows) = [nT; nN] ->
  shape (as_column (Y_S m)) = [n; nD] ->
  (exists out, approximate_run L m junk T (Ok out)) /\
  forall r, approximate_run L m junk T r -> exists full, r = Ok (squeeze full) /\ shape full = [nT; nD] /\
    forall i j, i < nT -> j < nD -> at_ full [i; j] =
      fold_left (fun (a : F) k => cast (Y_type m) (add a (mul (read (as_column (Y_S m)) junk (at_ (neighbour_array (backend_of m) (k_of m) (t_shape T) rows) [i; k]) [j])
        (factor (neighbour_array (backend_of m) (k_of m) (t_shape T) rows))))) (range nN) zero.
Proof.
  intros E Sn Sd. unfold approximate_run. rewrite E. cbv zeta. rewrite Sd. unfold approximate_2d. rewrite Sn, Sd. cbv zeta. cbn [last]. split.
  - destruct (prange_exists (zeros zero [nT; nD]) (its_2d (Y_type m) (as_column (Y_S m)) junk
      (neighbour_array (backend_of m) (k_of m) (t_shape T) rows) nT nN nD)) as [o Ho].
    exists (squeeze o), (Ok o). split; [reflexivity|]. exists o. auto.
  - intros r (r' & -> & full & -> & H). exists full. split; [reflexivity|]. split; [rewrite (prange_shape _ _ _ H); reflexivity|].
    intros i j Hi Hj. apply value_2d with (nT := nT) (nD := nD); assumption.
Qed.
(** A table of neighbours without exactly two axes. *)
Lemma run_bad L m junk T rows r : get_neighbours L m T = Ok rows ->
  length (shape (neighbour_array (backend_of m) (k_of m) (t_shape T) rows)) <> 2 ->
  approximate_run L m junk T r -> r = Err TypeError.
Proof.
  intros E Sn. unfold approximate_run. rewrite E. cbv zeta. intros (r' & -> & H).
  assert (G : r' = Err TypeError).
  { destruct (shape (as_column (Y_S m))) as [|a [|b [|]]]; [destruct H as [_ H]|destruct H as [_ H]| |destruct H as [_ H]];
    unfold approximate_nd, approximate_2d in H;
    destruct (shape (neighbour_array _ _ _ _)) as [|x [|y [|]]]; try exact H; cbn in Sn; congruence. }
  rewrite G. reflexivity.
Qed.

Lemma approximate_returns L m junk T rows : supported L m T -> get_neighbours L m T = Ok rows ->
  (exists out, approximate_run L m junk T (Ok out)) /\ forall e, ~ approximate_run L m junk T (Err e).
Proof.
  intros (Hrows & Hne & HF & Hsh & Hk & Hb) EN. rewrite <- k_of_wanted in Hk, Hb.
  assert (A : forall e, ~ approximate_run L m junk T (Err e)).
  { intros e. unfold approximate_run. rewrite EN. cbv zeta. intros (r & Er & H).
    assert (Snb : shape (neighbour_array (backend_of m) (k_of m) (t_shape T) rows) = [length (t_points T); k_of m]).
    { unfold neighbour_array. rewrite Hsh. destruct (backend_of m); [destruct Hb as [Hb _]; destruct (Nat.eqb_spec (k_of m) 1); [lia|]|..]; reflexivity. }
    assert (G : exists o, r = Ok o).
    { destruct (shape (as_column (Y_S m))) as [|a [|b [|]]]; [destruct H as [_ H]|destruct H as [_ H]| |destruct H as [_ H]];
      unfold approximate_nd, approximate_2d in H; rewrite Snb in H; destruct H as (o & -> & _); exists o; reflexivity. }
    destruct G as [o ->]. discriminate. }
  split; [|exact A]. destruct (approximate_exists L m junk T HF) as [[out|e] H]; [exists out; exact H|destruct (A e H)].
Qed.
End Approx.
