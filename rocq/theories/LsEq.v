(** The least squares functions in one equation: what the returned fit computes. *)
From Coq Require Import Field.
From Verif Require Import Prelude OField Inverse LsModel LsSpec LsProofs LsBasis.
Local Open Scope nat_scope.

Section Eq.
Context {F : ofield}.
Local Open Scope of_scope.
Add Field FF : (of_field F).

Section Ans.
Variables (dim k : nat) (fam : family F) (points values : list (list F)).
Variables (W : list F -> F) (G : list F -> list F) (H : list F -> list (list F)) (invA : mat F).
Let n := length points.
Definition bi_ : nat -> vec F := fun i => nth i (map (bvec fam) points) (fun _ => 0).
Definition wi_ : nat -> F := of_list (map W points).
Definition gw_ (j : nat) : nat -> F := of_list (map (fun x => nth j (G x) 0) points).
Definition Gw_ (j l : nat) : nat -> F := of_list (map (fun x => nth l (nth j (H x) []) 0) points).
Definition dvec (j : nat) (x : list F) : vec F := fun r => nth r (fam_d fam j x) 0.
Definition ddvec (j l : nat) (x : list F) : vec F := fun r => nth r (fam_dd fam j l x) 0.
Definition A_ : mat F := acc n bi_ wi_.
Definition Ad_ j : mat F := acc n bi_ (gw_ j).
Definition Add_ j l : mat F := acc n bi_ (Gw_ j l).
Definition B_ : mat F := col bi_ wi_.
Definition Bd_ j : mat F := col bi_ (gw_ j).
Definition Bdd_ j l : mat F := col bi_ (Gw_ j l).
Definition gam x : vec F := mv k invA (bvec fam x).
Definition gamd j x : vec F := gamma_d k invA (dvec j x) (Ad_ j) (gam x).
Definition c_f x : list F := mls_f points values k (gam x) B_ (vmat values).
Definition c_d j x : list F := mls_g points values k (gam x) (gamd j x) B_ (Bd_ j) (vmat values).
Definition c_dd j x : list F :=
  mls_H points values k invA (ddvec j j x) (Ad_ j) (Add_ j j) (gam x) (gamd j x) B_ (Bd_ j) (Bdd_ j j) (vmat values).
Definition c_dxy j l x : list F :=
  mls_Hxy points values k invA (ddvec j l x) (Ad_ j) (Ad_ l) (Add_ j l) (gam x) (gamd j x) (gamd l x)
    B_ (Bd_ j) (Bd_ l) (Bdd_ j l) (vmat values).
Definition given (c : bool) (l : list F) : option (list F) := if c then Some l else None.
Definition ans (g h : bool) (x : list F) : answer F :=
  match dim with
  | 1%nat => [Some (c_f x); given g (c_d 0 x); given h (c_dd 0 x)]
  | 2%nat => [Some (c_f x); given g (c_d 0 x); given g (c_d 1 x);
              given h (c_dd 0 x); given h (c_dd 1 x); given h (c_dxy 0 1 x)]
  | _ => [Some (c_f x); given g (c_d 0 x); given g (c_d 1 x); given g (c_d 2 x);
          given h (c_dd 0 x); given h (c_dd 1 x); given h (c_dd 2 x);
          given h (c_dxy 0 1 x); given h (c_dxy 0 2 x); given h (c_dxy 1 2 x)]
  end.
End Ans.

Lemma mapM_ok {A B} (f : A -> result B) (g : A -> B) l : (forall a, In a l -> f a = Ok (g a)) -> mapM f l = Ok (map g l).
Proof.
  induction l as [|a l IH]; intros E; cbn [map mapM]; [reflexivity|].
  rewrite (E a (or_introl eq_refl)). cbn [bind]. rewrite IH; [reflexivity|]. intros b I. apply E. right. exact I.
Qed.
Lemma item_ok {A} (l : list A) i d : (i < length l)%nat -> item l i = Ok (nth i l d).
Proof. intros L. unfold item. rewrite (nth_error_nth' l d L). reflexivity. Qed.
Lemma as_vec_ok k (l : list F) : length l = k -> as_vec k l = Ok (fun r => nth r l 0).
Proof. intros L. unfold as_vec. rewrite (proj2 (Nat.eqb_eq _ _) L). reflexivity. Qed.

Lemma b_at_ok points k (b : basis_fn) : (forall x, length (b x) = k) ->
  b_at points k b = Ok (fun i => nth i (map (fun x r => nth r (b x) 0 : F) points) (fun _ => 0)).
Proof.
  intros L. unfold b_at. rewrite (mapM_ok _ (fun x r => nth r (b x) 0)); [reflexivity|].
  intros x _. apply as_vec_ok. apply L.
Qed.

(** What is asked of the weight function at the points, for the given core. *)
Record weight_at (w : weight F) (core : list F) (points : list (list F)) (g h : bool)
    (W : list F -> F) (G : list F -> list F) (H : list F -> list (list F)) : Prop := {
  wa_f : forall x, In x points -> w_f w core x = Ok (W x);
  wa_g : g = true -> forall x, In x points -> w_g w core x = Ok (G x) /\ length (G x) = w_dim w;
  wa_G : h = true -> forall x, In x points -> w_G w core x = Ok (H x) /\ length (H x) = w_dim w /\
         Forall (fun r => length r = w_dim w) (H x) }.

Section Wls.
Variables (w : weight F) (core : list F) (points : list (list F)).
Variables (g h : bool) (W : list F -> F) (G : list F -> list F) (H : list F -> list (list F)).
Hypothesis HW : weight_at w core points g h W G H.

Lemma weights_ok : weights w core points = Ok (wi_ points W).
Proof. unfold weights. rewrite (mapM_ok _ W) by (exact (wa_f _ _ _ _ _ _ _ _ HW)). reflexivity. Qed.
Lemma gradients_ok j : (j < w_dim w)%nat -> when g (gradients w core points j) = Ok (if g then Some (gw_ points G j) else None).
Proof.
  intros Hj. unfold when. destruct g eqn:E; [|reflexivity]. unfold gradients.
  rewrite (mapM_ok _ (fun x => nth j (G x) 0)); [reflexivity|]. intros x I.
  destruct (wa_g _ _ _ _ _ _ _ _ HW eq_refl x I) as [E1 E2]. rewrite E1. cbn [bind]. apply item_ok. rewrite E2. exact Hj.
Qed.
Lemma hessians_ok j l : (j < w_dim w)%nat -> (l < w_dim w)%nat ->
  when h (hessians w core points j l) = Ok (if h then Some (Gw_ points H j l) else None).
Proof.
  intros Hj Hl. unfold when. destruct h eqn:E; [|reflexivity]. unfold hessians.
  rewrite (mapM_ok _ (fun x => nth l (nth j (H x) []) 0)); [reflexivity|]. intros x I.
  destruct (wa_G _ _ _ _ _ _ _ _ HW eq_refl x I) as (E1 & E2 & E3). rewrite E1. cbn [bind]. unfold item2.
  rewrite (item_ok (H x) j []) by (rewrite E2; exact Hj). cbn [bind]. apply item_ok.
  rewrite (proj1 (Forall_forall _ _) E3); [exact Hl|]. apply nth_In. rewrite E2. exact Hj.
Qed.
End Wls.

Lemma wls_1d_eq inv w core points values deg fam g h W G H :
  weight_at w core points g h W G H -> family_of deg 1 = Some fam -> w_dim w = 1%nat -> (h = true -> g = true) ->
  exists f, wls_1d inv w core points values deg g h =
    (do invA <- inv (nbasis deg 1) (A_ fam points W) ; Ok (f invA)) /\
    forall invA x, f invA x = Ok (ans 1 (nbasis deg 1) fam points values W G H invA g h x).
Proof.
  intros HW HF HD HG.
  unfold wls_1d. pose proof (family_lengths deg 1 fam HF) as L. cbn [family_of] in HF.
  destruct (get_polynomial_1 deg) as [[[b bdx] bdxx]|]; [|discriminate]. injection HF as <-.
  assert (L0 : forall x, length (b x) = nbasis deg 1) by (intros x; apply (proj1 (L x))).
  assert (L_bdx : forall x, length (bdx x) = nbasis deg 1) by (intros x; apply (proj1 (proj2 (L x)) 0%nat)).
  assert (L_bdxx : forall x, length (bdxx x) = nbasis deg 1) by (intros x; apply (proj2 (proj2 (L x)) 0%nat 0%nat)).
  cbn [bind]. unfold mls_preproc_1d. rewrite (b_at_ok points _ b L0). cbn [bind].
  rewrite (weights_ok _ _ _ _ _ _ _ _ HW). cbn [bind].
  rewrite !(gradients_ok _ _ _ _ _ _ _ _ HW) by lia. cbn [bind].
  rewrite !(hessians_ok _ _ _ _ _ _ _ _ HW) by lia. cbn [bind].
  eexists. split.
  - unfold A_. change (bi_ _ points) with (fun i => nth i (map (fun x r => nth r (b x) 0 : F) points) (fun _ => 0)).
    destruct (inv _ _) as [X|e]; cbn [bind]; reflexivity.
  - intros X x. cbv beta. rewrite !as_vec_ok by auto. cbn [bind].
    unfold mls_approx_1d, ans, given. destruct g, h; cbn [need bind accs cols]; try (discriminate HG; reflexivity); reflexivity.
Qed.
Lemma wls_2d_eq inv w core points values deg fam g h W G H :
  weight_at w core points g h W G H -> family_of deg 2 = Some fam -> w_dim w = 2%nat -> (h = true -> g = true) ->
  exists f, wls_2d inv w core points values deg g h =
    (do invA <- inv (nbasis deg 2) (A_ fam points W) ; Ok (f invA)) /\
    forall invA x, f invA x = Ok (ans 2 (nbasis deg 2) fam points values W G H invA g h x).
Proof.
  intros HW HF HD HG.
  unfold wls_2d. pose proof (family_lengths deg 2 fam HF) as L. cbn [family_of] in HF.
  destruct (get_polynomial_2 deg) as [[[[[[b bdx] bdy] bdxx] bdyy] bdxy]|]; [|discriminate]. injection HF as <-.
  assert (L0 : forall x, length (b x) = nbasis deg 2) by (intros x; apply (proj1 (L x))).
  assert (L_bdx : forall x, length (bdx x) = nbasis deg 2) by (intros x; apply (proj1 (proj2 (L x)) 0%nat)).
  assert (L_bdy : forall x, length (bdy x) = nbasis deg 2) by (intros x; apply (proj1 (proj2 (L x)) 1%nat)).
  assert (L_bdxx : forall x, length (bdxx x) = nbasis deg 2) by (intros x; apply (proj2 (proj2 (L x)) 0%nat 0%nat)).
  assert (L_bdyy : forall x, length (bdyy x) = nbasis deg 2) by (intros x; apply (proj2 (proj2 (L x)) 1%nat 1%nat)).
  assert (L_bdxy : forall x, length (bdxy x) = nbasis deg 2) by (intros x; apply (proj2 (proj2 (L x)) 0%nat 1%nat)).
  cbn [bind]. unfold mls_preproc_2d. rewrite (b_at_ok points _ b L0). cbn [bind].
  rewrite (weights_ok _ _ _ _ _ _ _ _ HW). cbn [bind].
  rewrite !(gradients_ok _ _ _ _ _ _ _ _ HW) by lia. cbn [bind].
  rewrite !(hessians_ok _ _ _ _ _ _ _ _ HW) by lia. cbn [bind].
  eexists. split.
  - unfold A_. change (bi_ _ points) with (fun i => nth i (map (fun x r => nth r (b x) 0 : F) points) (fun _ => 0)).
    destruct (inv _ _) as [X|e]; cbn [bind]; reflexivity.
  - intros X x. cbv beta. rewrite !as_vec_ok by auto. cbn [bind].
    unfold mls_approx_2d, ans, given. destruct g, h; cbn [need bind accs cols]; try (discriminate HG; reflexivity); reflexivity.
Qed.
Lemma wls_3d_eq inv w core points values deg fam g h W G H :
  weight_at w core points g h W G H -> family_of deg 3 = Some fam -> w_dim w = 3%nat -> (h = true -> g = true) ->
  exists f, wls_3d inv w core points values deg g h =
    (do invA <- inv (nbasis deg 3) (A_ fam points W) ; Ok (f invA)) /\
    forall invA x, f invA x = Ok (ans 3 (nbasis deg 3) fam points values W G H invA g h x).
Proof.
  intros HW HF HD HG.
  unfold wls_3d. pose proof (family_lengths deg 3 fam HF) as L. cbn [family_of] in HF.
  destruct (get_polynomial_3 deg) as [[[[[[[[[[b bdx] bdy] bdz] bdxx] bdyy] bdzz] bdxy] bdxz] bdyz]|]; [|discriminate]. injection HF as <-.
  assert (L0 : forall x, length (b x) = nbasis deg 3) by (intros x; apply (proj1 (L x))).
  assert (L_bdx : forall x, length (bdx x) = nbasis deg 3) by (intros x; apply (proj1 (proj2 (L x)) 0%nat)).
  assert (L_bdy : forall x, length (bdy x) = nbasis deg 3) by (intros x; apply (proj1 (proj2 (L x)) 1%nat)).
  assert (L_bdz : forall x, length (bdz x) = nbasis deg 3) by (intros x; apply (proj1 (proj2 (L x)) 2%nat)).
  assert (L_bdxx : forall x, length (bdxx x) = nbasis deg 3) by (intros x; apply (proj2 (proj2 (L x)) 0%nat 0%nat)).
  assert (L_bdyy : forall x, length (bdyy x) = nbasis deg 3) by (intros x; apply (proj2 (proj2 (L x)) 1%nat 1%nat)).
  assert (L_bdzz : forall x, length (bdzz x) = nbasis deg 3) by (intros x; apply (proj2 (proj2 (L x)) 2%nat 2%nat)).
  assert (L_bdxy : forall x, length (bdxy x) = nbasis deg 3) by (intros x; apply (proj2 (proj2 (L x)) 0%nat 1%nat)).
  assert (L_bdxz : forall x, length (bdxz x) = nbasis deg 3) by (intros x; apply (proj2 (proj2 (L x)) 0%nat 2%nat)).
  assert (L_bdyz : forall x, length (bdyz x) = nbasis deg 3) by (intros x; apply (proj2 (proj2 (L x)) 1%nat 2%nat)).
  cbn [bind]. unfold mls_preproc_3d. rewrite (b_at_ok points _ b L0). cbn [bind].
  rewrite (weights_ok _ _ _ _ _ _ _ _ HW). cbn [bind].
  rewrite !(gradients_ok _ _ _ _ _ _ _ _ HW) by lia. cbn [bind].
  rewrite !(hessians_ok _ _ _ _ _ _ _ _ HW) by lia. cbn [bind].
  eexists. split.
  - unfold A_. change (bi_ _ points) with (fun i => nth i (map (fun x r => nth r (b x) 0 : F) points) (fun _ => 0)).
    destruct (inv _ _) as [X|e]; cbn [bind]; reflexivity.
  - intros X x. cbv beta. rewrite !as_vec_ok by auto. cbn [bind].
    unfold mls_approx_3d, ans, given. destruct g, h; cbn [need bind accs cols]; try (discriminate HG; reflexivity); reflexivity.
Qed.
End Eq.
