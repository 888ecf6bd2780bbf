(** Proofs about linear programming problems (C48-C50). *)
From Coq Require Import Ascii String Field.
From Verif Require Import Prelude OField FuncModel RelModel LpModel FuncSpec FuncProofs RelProofs ParseProofs RelBuildProofs.

Section Dict.
Context {F : ofield}.
Add Field DF : (of_field F).
Implicit Types e k : expr F.

Lemma dget_dset {V} (d : list (expr F * V)) k v k' :
  dget (dset d k v) k' = if expr_eqb k k' then Some v else dget d k'.
Proof.
  induction d as [|[q w] d IH]; cbn.
  - reflexivity.
  - destruct (expr_eqb_spec q k) as [->|N]; cbn.
    + destruct (expr_eqb_spec k k'); reflexivity.
    + rewrite IH. destruct (expr_eqb_spec q k') as [->|N']; [|reflexivity].
      destruct (expr_eqb_spec k k'); congruence.
Qed.
Lemma dset_keys {V} (d : list (expr F * V)) k v : NoDup (map fst d) -> NoDup (map fst (dset d k v)).
Proof.
  induction d as [|[q w] d IH]; cbn; intros N; [constructor; [intros []|constructor]|].
  inversion N as [|? ? N1 N2]. subst. destruct (expr_eqb_spec q k) as [->|Nq]; cbn; constructor; auto.
  intros H. apply N1. clear - H Nq. induction d as [|[q' w'] d IH]; cbn in *.
  - destruct H as [->|[]]. congruence.
  - destruct (expr_eqb_spec q' k); cbn in *; [exact H|]. destruct H as [->|H]; auto.
Qed.
Lemma dget_in {V} (d : list (expr F * V)) k v : dget d k = Some v -> In k (map fst d).
Proof.
  induction d as [|[q w] d IH]; cbn; [discriminate|]. destruct (expr_eqb_spec q k); auto.
Qed.
Lemma dget_none {V} (d : list (expr F * V)) k : ~ In k (map fst d) -> dget d k = None.
Proof. intros H. destruct (dget d k) eqn:E; [|reflexivity]. apply dget_in in E. tauto. Qed.

(** Terms whose monomial is [k], with their coefficients added. *)
Definition hit k (t : expr F) : F := if expr_eqb (snd (as_coeff_mul t)) k then fst (as_coeff_mul t) else zero.
Definition step (d : list (expr F * F)) (t : expr F) :=
  let (c, m) := as_coeff_mul t in dset d m (match dget d m with Some c' => add c' c | None => c end).
Definition oget {V} (z : V) (o : option V) : V := match o with Some v => v | None => z end.

Lemma dict_fold ts d k : NoDup (map fst d) ->
  NoDup (map fst (fold_left step ts d)) /\
  oget zero (dget (fold_left step ts d) k) = add (oget zero (dget d k)) (suml (map (hit k) ts)) /\
  (dget (fold_left step ts d) k <> None <-> (dget d k <> None \/ exists t, In t ts /\ snd (as_coeff_mul t) = k)).
Proof.
  revert d. induction ts as [|t ts IH]; cbn -[as_coeff_mul]; intros d N.
  - split; [exact N|]. split; [ring|]. split; [auto|]. intros [H|(t & [] & _)]; exact H.
  - assert (Nd : NoDup (map fst (step d t))).
    { unfold step. destruct (as_coeff_mul t). apply dset_keys. exact N. }
    destruct (IH (step d t) Nd) as (I1 & I2 & I3). split; [exact I1|].
    assert (G : oget zero (dget (step d t) k) = add (oget zero (dget d k)) (hit k t) /\
                (dget (step d t) k <> None <-> (dget d k <> None \/ snd (as_coeff_mul t) = k))).
    { unfold step, hit. destruct (as_coeff_mul t) as [c m]. cbn [fst snd]. rewrite dget_dset.
      destruct (expr_eqb_spec m k) as [->|Nm].
      - split; [destruct (dget d k); cbn; ring|]. split; [auto|discriminate].
      - split; [ring|]. split; [auto|]. intros [H|H]; [exact H|congruence]. }
    destruct G as [G1 G2]. rewrite I2, G1, I3, G2. split; [ring|]. split.
    + intros [[H|H]|(t' & H & E)]; [auto|right; exists t; auto|right; exists t'; auto].
    + intros [H|(t' & [<-|H] & E)]; [auto|auto|right; exists t'; auto].
Qed.

Lemma coefficients_dict e k :
  NoDup (map fst (as_coefficients_dict e)) /\
  oget zero (dget (as_coefficients_dict e) k) = suml (map (hit k) (summands e)) /\
  (dget (as_coefficients_dict e) k <> None -> exists t, In t (summands e) /\ snd (as_coeff_mul t) = k).
Proof.
  destruct (dict_fold (summands e) [] k) as (H1 & H2 & H3); [constructor|].
  unfold as_coefficients_dict. fold step. split; [exact H1|]. split; [rewrite H2; cbn; ring|].
  intros H. apply H3 in H. destruct H as [H|H]; [cbn in H; congruence|exact H].
Qed.

(** [d.update(l)] for a dictionary [l]. *)
Lemma update_get {V W} (g : V -> W) (l : list (expr F * V)) d k : NoDup (map fst l) ->
  dget (fold_left (fun d kv => dset d (fst kv) (g (snd kv))) l d) k =
  match dget l k with Some v => Some (g v) | None => dget d k end.
Proof.
  revert d. induction l as [|[q v] l IH]; cbn; intros d N; [reflexivity|].
  inversion N as [|? ? N1 N2]. subst. rewrite IH by exact N2. rewrite dget_dset.
  destruct (expr_eqb_spec q k) as [->|Nq]; [|reflexivity]. rewrite (dget_none l k N1). reflexivity.
Qed.
Lemma update_keys {V W} (g : V -> W) (l : list (expr F * V)) d : NoDup (map fst d) ->
  NoDup (map fst (fold_left (fun d kv => dset d (fst kv) (g (snd kv))) l d)).
Proof. revert d. induction l as [|[q v] l IH]; cbn; intros d N; [exact N|]. apply IH, dset_keys, N. Qed.
Lemma init_get vars (d : list (expr F * expr F)) x :
  dget (fold_left (fun d x => dset d (ESym x) (ENum zero)) vars d) (ESym x) =
  if mem x vars then Some (ENum zero) else dget d (ESym x).
Proof.
  revert d. induction vars as [|v vars IH]; cbn -[mem expr_eqb]; intros d; [reflexivity|].
  rewrite IH, dget_dset. unfold mem. cbn. fold (mem x vars).
  destruct (mem x vars); [rewrite orb_true_r; reflexivity|]. rewrite orb_false_r, (sym_eqb_sym v x). reflexivity.
Qed.
Lemma init_keys vars (d : list (expr F * expr F)) : NoDup (map fst d) ->
  NoDup (map fst (fold_left (fun d x => dset d (ESym x) (ENum zero)) vars d)).
Proof. revert d. induction vars as [|v vars IH]; cbn; intros d N; [exact N|]. apply IH, dset_keys, N. Qed.

Lemma normalize_get (d r : list (expr F * expr F)) x : NoDup (map fst d) ->
  dget (fold_left (fun r kv =>
              match free (fst kv) with
              | [] => dset r (ENum one) (EMul (snd kv) (fst kv))
              | _ => dset r (fst kv) (snd kv)
              end) d r) (ESym x) =
  match dget d (ESym x) with Some v => Some v | None => dget r (ESym x) end.
Proof.
  revert r. induction d as [|[q v] d IH]; cbn -[expr_eqb]; intros r N; [reflexivity|].
  inversion N as [|? ? N1 N2]. subst. rewrite IH by exact N2.
  destruct (expr_eqb_spec q (ESym x)) as [->|Nq].
  - cbn -[expr_eqb]. rewrite (dget_none d _ N1), dget_dset, expr_eqb_refl. reflexivity.
  - destruct (dget d (ESym x)); [reflexivity|]. destruct (free q).
    + rewrite dget_dset. reflexivity.
    + rewrite dget_dset. destruct (expr_eqb_spec q (ESym x)); congruence.
Qed.
Lemma filter_get {V} (p : expr F * V -> bool) d k : (forall v, p (k, v) = true) ->
  dget (filter p d) k = dget d k.
Proof.
  intros P. induction d as [|[q v] d IH]; cbn; [reflexivity|].
  destruct (expr_eqb_spec q k) as [->|N].
  - rewrite P. cbn. rewrite expr_eqb_refl. reflexivity.
  - destruct (p (q, v)); cbn; [destruct (expr_eqb_spec q k); [congruence|exact IH]|exact IH].
Qed.

Lemma suml_zero {A} (g : A -> F) l : (forall a, In a l -> g a = zero) -> suml (map g l) = zero.
Proof. induction l as [|a l IH]; cbn; intros H; [reflexivity|]. rewrite H, IH by auto. ring. Qed.

(** What [coeffs[x]] is. *)
Lemma coeff_value S I e vars b d x v :
  linear_coefficients S (Symbolic e vars b) true = Ok d -> coeff I d x = Ok v ->
  v = suml (map (hit (ESym x)) (summands (simp S e))) /\
  (In x vars \/ exists t, In t (summands (simp S e)) /\ snd (as_coeff_mul t) = ESym x).
Proof.
  unfold linear_coefficients. cbn [coefficients bind].
  set (d0 := fold_left (fun d x => dset d (ESym x) (ENum zero)) vars []).
  set (d1 := fold_left (fun d kv => dset d (fst kv) (ENum (snd kv))) (as_coefficients_dict (simp S e)) d0).
  set (d2 := fold_left _ d1 []).
  intros E C. assert (G : dget d2 (ESym x) = dget d1 (ESym x)).
  { unfold d2. rewrite normalize_get; [destruct (dget d1 (ESym x)); reflexivity|].
    apply update_keys, init_keys. constructor. }
  assert (D : match dget d2 (ESym x) with Some v => Ok (eval I (fun _ => zero) v) | None => Err KeyError end = Ok v).
  { apply (f_equal (fun r => match r with Ok o => o | Err _ => None end)) in E. subst d. clearbody d2. clear - C.
    destruct d2 as [|p q]; [cbn in C; discriminate|]. unfold coeff in C.
    rewrite filter_get in C; [exact C|]. intros w. reflexivity. }
  rewrite G in D. unfold d1 in D. destruct (coefficients_dict (simp S e) (ESym x)) as (K1 & K2 & K3).
  rewrite update_get in D by exact K1. unfold d0 in D. rewrite init_get in D.
  destruct (dget (as_coefficients_dict (simp S e)) (ESym x)) as [c|].
  - cbn in D, K2. injection D as <-. split; [exact K2|]. right. apply K3. discriminate.
  - cbn in K2. destruct (mem_spec x vars); [|cbn in D; discriminate]. cbn in D. injection D as <-. split; [exact K2|]. auto.
Qed.

Lemma hit_free e x t : In t (summands e) -> snd (as_coeff_mul t) = ESym x -> In x (free e).
Proof.
  intros H E. assert (S : forall s, In s (free t) -> In s (free e)).
  { induction e; cbn in H |- *; try (destruct H as [<-|[]]; auto; fail).
    apply in_app_or in H. intros s Hs. apply in_or_app. destruct H as [H|H]; [left|right]; auto. }
  apply S. clear S H. destruct t as [c|q|s|a b|a b|a b|f a]; cbn in E; try discriminate.
  - injection E as ->. left. reflexivity.
  - destruct a; cbn in E; try discriminate. subst b. left. reflexivity.
Qed.

Lemma eval_summands I env e : eval I env e = suml (map (eval I env) (summands e)).
Proof.
  assert (A : forall l l' : list F, suml (l ++ l') = add (suml l) (suml l')).
  { induction l as [|a l IH]; cbn; intros; [ring|]. rewrite IH. ring. }
  induction e; cbn; try ring. rewrite map_app, A, IHe1, IHe2. reflexivity.
Qed.

(** The value of a linear expression through its coefficients. *)
Lemma env_sum vars (x : list F) s : NoDup vars -> length x = length vars -> In s vars ->
  env_of vars x s = sum (length x) (fun j => mul (if sym_eqb (nth j vars (plain [])) s then one else zero) (nth j x zero)).
Proof.
  intros N L H. apply (In_nth _ _ (plain [])) in H. destruct H as (j & Hj & <-).
  rewrite env_of_nth by assumption. rewrite (sum_ext F _ _ (fun i => if i =? j then nth i x zero else zero)).
  - rewrite sum_delta by lia. reflexivity.
  - intros i Hi. destruct (Nat.eqb_spec i j) as [->|Ne].
    + rewrite sym_eqb_refl. ring.
    + destruct (sym_eqb_spec (nth i vars (plain [])) (nth j vars (plain []))) as [E|_]; [|ring].
      exfalso. apply Ne. apply (proj1 (NoDup_nth vars (plain [])) N); [lia|lia|exact E].
Qed.

Lemma term_value I vars (x : list F) t : NoDup vars -> length x = length vars -> numeric_term t ->
  (forall s, In s (free t) -> In s vars) ->
  eval I (env_of vars x) t = add (sum (length x) (fun j => mul (hit (ESym (nth j vars (plain []))) t) (nth j x zero)))
                                 (eval I (fun _ => zero) t).
Proof.
  intros N L T Fr. destruct T as [T|[(s & ->)|(c & s & ->)]].
  - rewrite (eval_ext I (env_of vars x) (fun _ => zero)) by (rewrite T; intros s []).
    rewrite sum_0; [ring|].
    intros j _. replace (hit (ESym (nth j vars (plain []))) t) with (@zero F); [ring|].
    unfold hit. destruct (expr_eqb_spec (snd (as_coeff_mul t)) (ESym (nth j vars (plain [])))) as [E|_]; [|reflexivity].
    exfalso. assert (In (nth j vars (plain [])) (free t)); [|rewrite T in H; destruct H].
    destruct t as [c|q|s|a b|a b|a b|f a]; cbn in E; try discriminate.
    destruct a; cbn in E; try discriminate. subst b. cbn in T. discriminate.
  - cbn [eval]. rewrite (env_sum vars x s N L) by (apply Fr; left; reflexivity).
    rewrite (sum_ext F _ _ (fun j => mul (hit (ESym (nth j vars (plain []))) (ESym s)) (nth j x zero))); [ring|].
    intros j _. unfold hit. cbn. rewrite (sym_eqb_sym s). reflexivity.
  - cbn [eval]. rewrite (env_sum vars x s N L) by (apply Fr; left; reflexivity).
    rewrite <- sum_scale. replace (mul c zero) with (@zero F) by ring.
    rewrite (sum_ext F _ _ (fun j => mul (hit (ESym (nth j vars (plain []))) (EMul (ENum c) (ESym s))) (nth j x zero))); [ring|].
    intros j _. unfold hit. cbn. rewrite (sym_eqb_sym s). destruct (sym_eqb (nth j vars (plain [])) s); ring.
Qed.

Lemma linear_value I vars (x : list F) e : NoDup vars -> length x = length vars -> numeric_linear e ->
  (forall s, In s (free e) -> In s vars) ->
  eval I (env_of vars x) e =
  add (sum (length x) (fun j => mul (suml (map (hit (ESym (nth j vars (plain [])))) (summands e))) (nth j x zero)))
      (eval I (fun _ => zero) e).
Proof.
  intros N L T Fr. rewrite !eval_summands.
  assert (S : forall t s, In t (summands e) -> In s (free t) -> In s (free e)).
  { clear. intros t s. induction e; cbn; intros H Hs; try (destruct H as [<-|[]]; auto; fail).
    apply in_app_or in H. apply in_or_app. destruct H as [H|H]; [left|right]; auto. }
  assert (G : forall ts, (forall t, In t ts -> In t (summands e)) ->
     suml (map (eval I (env_of vars x)) ts) =
     add (sum (length x) (fun j => mul (suml (map (hit (ESym (nth j vars (plain [])))) ts)) (nth j x zero)))
       (suml (map (eval I (fun _ => zero)) ts))); [|apply G; auto].
  induction ts as [|t ts IH]; cbn [map suml]; intros H.
  - rewrite sum_0; [ring|]. intros; ring.
  - rewrite IH by (intros; apply H; right; assumption).
    rewrite (term_value I vars x t N L) by eauto using in_eq.
    rewrite (sum_ext F (length x) (fun j => mul (add _ _) _)
       (fun j => add (mul (hit (ESym (nth j vars (plain []))) t) (nth j x zero))
                     (mul (suml (map (hit (ESym (nth j vars (plain [])))) ts)) (nth j x zero)))).
    + rewrite sum_add. ring.
    + intros; ring.
Qed.

End Dict.

Section LpP.
Context {F : ofield}.
Add Field LF : (of_field F).

Lemma mapM_nth {A B} (f : A -> result B) l ys a b : mapM f l = Ok ys ->
  length ys = length l /\ forall i, i < length l -> f (nth i l a) = Ok (nth i ys b).
Proof.
  revert ys. induction l as [|x l IH]; cbn; intros ys H.
  - injection H as <-. split; [reflexivity|]. intros i Hi. lia.
  - destruct (f x) as [y|] eqn:E; [|discriminate]. cbn in H. destruct (mapM f l) as [ys'|]; [|discriminate].
    cbn in H. injection H as <-. destruct (IH ys' eq_refl) as [L H]. split; [cbn; congruence|].
    intros [|i] Hi; [exact E|]. apply H. lia.
Qed.

Lemma coeff_row_value S I (H : sympy_ok S I) (e : expr F) fv b vars row :
  coeff_row S I (Symbolic e fv b) vars = Ok row ->
  length row = length vars /\
  (forall j, j < length vars -> nth j row zero = suml (map (hit (ESym (nth j vars (plain [])))) (summands (simp S e)))) /\
  (forall x, In x vars -> In x fv \/ In x (free e)).
Proof.
  unfold coeff_row. intros E. destruct (linear_coefficients S (Symbolic e fv b) true) as [d|] eqn:D; [|discriminate].
  cbn [bind] in E. destruct (mapM_nth _ _ _ (plain []) zero E) as [L G]. split; [exact L|]. split.
  - intros j Hj. specialize (G j Hj). apply (coeff_value S I e fv b d) in G; [tauto|exact D].
  - intros x Hx. apply (In_nth _ _ (plain [])) in Hx. destruct Hx as (j & Hj & <-). specialize (G j Hj).
    apply (coeff_value S I e fv b d) in G; [|exact D]. destruct G as [_ [G|(t & Ht & E')]]; [auto|right].
    apply (simp_free S I H). apply (hit_free _ _ t); assumption.
Qed.

(** The value of a constraint or objective at a point of the problem. *)
Lemma row_value S I (H : sympy_ok S I) e fv b vars row (x : list F) :
  NoDup vars -> length x = length vars -> numeric_linear (simp S e) -> (forall s, In s (free e) -> In s vars) ->
  coeff_row S I (Symbolic e fv b) vars = Ok row ->
  eval I (env_of vars x) e = add (sum (length x) (fun j => mul (nth j row zero) (nth j x zero))) (eval I (fun _ => zero) e).
Proof.
  intros N L T Fr C. apply coeff_row_value in C; [|exact H]. destruct C as (Lr & Hr & _).
  rewrite <- (simp_eval S I H (env_of vars x)), <- (simp_eval S I H (fun _ => zero)).
  rewrite (linear_value I vars x _ N L T).
  2:{ intros s Hs. apply Fr. apply (simp_free S I H). exact Hs. }
  f_equal. apply sum_ext. intros j Hj. rewrite Hr by lia. reflexivity.
Qed.

(** Constraints that could be converted only mention variables of the problem. *)
Lemma row_free S I (H : sympy_ok S I) (e : expr F) fv b vars row v : NoDup vars ->
  coeff_row S I (Symbolic e fv b) vars = Ok row -> call I (Symbolic e fv b) (repeat zero (length vars)) = Ok v ->
  (forall s, In s (free e) -> In s vars) /\ v = eval I (fun _ => zero) e.
Proof.
  intros N C E. apply coeff_row_value in C; [|exact H]. destruct C as (_ & _ & C). apply call_inv in E.
  destruct E as (L & Fr & ->). rewrite repeat_length in L. split.
  - intros s Hs. apply (NoDup_length_incl N (l' := fv)); [lia| |apply Fr; exact Hs].
    intros x Hx. destruct (C x Hx); auto.
  - apply eval_ext. intros s _. apply env_of_zero.
Qed.

Lemma symbolic_row S I f vars (row : list F) : coeff_row S I f vars = Ok row -> exists e fv b, f = Symbolic e fv b.
Proof. destruct f as [e fv b|]; [eauto|]. discriminate. Qed.

(** ** Matrices *)
Definition at_pos (i0 j0 : nat) (e : F * nat * nat) : F := if (snd (fst e) =? i0) && (snd e =? j0) then fst (fst e) else zero.
Lemma suml_map_app {A} (g : A -> F) l l' : suml (map g (l ++ l')) = add (suml (map g l)) (suml (map g l')).
Proof. induction l as [|a l IH]; cbn; [ring|]. rewrite IH. ring. Qed.

Lemma coo_row_entry i0 j0 i (row : list F) k :
  suml (map (at_pos i0 j0) (flat_map (fun jv => if eqb (snd jv) zero then [] else [(snd jv, i, fst jv)]) (combine (seq k (length row)) row)))
  = if (i =? i0) && (k <=? j0) then nth (j0 - k) row zero else zero.
Proof.
  revert k. induction row as [|v row IH]; intros k; cbn [length seq combine flat_map map].
  - cbn. destruct ((i =? i0) && (k <=? j0)); [destruct (j0 - k); reflexivity|reflexivity].
  - rewrite suml_map_app, IH. cbn [fst snd].
    assert (E : suml (map (at_pos i0 j0) (if eqb v zero then [] else [(v, i, k)])) = if (i =? i0) && (k =? j0) then v else zero).
    { destruct (eqb_spec F v zero) as [->|N]; cbn; [destruct ((i =? i0) && (k =? j0)); reflexivity|].
      unfold at_pos. cbn. destruct ((i =? i0) && (k =? j0)); ring. }
    rewrite E. clear E. destruct (Nat.eqb_spec i i0) as [->|Ni]; cbn [andb]; [|ring].
    destruct (Nat.eqb_spec k j0) as [->|Nk].
    + rewrite Nat.leb_refl, Nat.sub_diag. destruct (Nat.leb_spec (S j0) j0); [lia|]. cbn. ring.
    + destruct (Nat.leb_spec k j0), (Nat.leb_spec (S k) j0); try lia.
      * replace (j0 - k) with (S (j0 - S k)) by lia. cbn. ring.
      * ring.
Qed.

Lemma coo_rows_entry i0 j0 (rows : list (list F)) k :
  suml (map (at_pos i0 j0) (flat_map (fun ir => coo_row (fst ir) (snd ir)) (combine (seq k (length rows)) rows)))
  = if k <=? i0 then nth j0 (nth (i0 - k) rows []) zero else zero.
Proof.
  revert k. induction rows as [|row rows IH]; intros k; cbn [length seq combine flat_map map].
  - cbn. destruct (k <=? i0); [destruct (i0 - k), j0; reflexivity|reflexivity].
  - rewrite suml_map_app, IH. cbn [fst snd]. unfold coo_row. rewrite coo_row_entry. change (0 <=? j0) with true. rewrite andb_true_r, Nat.sub_0_r.
    destruct (Nat.eqb_spec k i0) as [->|Nk].
    + rewrite Nat.leb_refl, Nat.sub_diag. destruct (Nat.leb_spec (S i0) i0); [lia|]. cbn. ring.
    + destruct (Nat.leb_spec k i0), (Nat.leb_spec (S k) i0); try lia.
      * replace (i0 - k) with (S (i0 - S k)) by lia. cbn. ring.
      * ring.
Qed.

Lemma assemble_entry sp (rows : list (list F)) n i j : entry (assemble sp rows n) i j = nth j (nth i rows []) zero.
Proof.
  destruct sp; [|reflexivity]. cbn. unfold coo_rows. 
  pose proof (coo_rows_entry i j rows 0) as X. cbn [Nat.leb] in X. rewrite Nat.sub_0_r in X. exact X.
Qed.
Lemma assemble_nrows sp (rows : list (list F)) n : nrows (assemble sp rows n) = length rows.
Proof. destruct sp; reflexivity. Qed.

Lemma nth_fst (rb : list (list F * F)) i : nth i (map fst rb) [] = fst (nth i rb ([], zero)).
Proof. apply (map_nth fst rb ([], zero)). Qed.
Lemma nth_snd (rb : list (list F * F)) i : nth i (map snd rb) zero = snd (nth i rb ([], zero)).
Proof. apply (map_nth snd rb ([], zero)). Qed.
Lemma meets_rows rel sp (rb : list (list F * F)) n x (l : list (relation F)) : length rb = length l ->
  (meets rel (match l with [] => None | _ => Some (assemble sp (map fst rb) n) end)
             (match l with [] => None | _ => Some (map snd rb) end) x <->
   forall i, i < length l ->
     rel (sum (length x) (fun j => mul (nth j (fst (nth i rb ([], zero))) zero) (nth j x zero))) (snd (nth i rb ([], zero)))).
Proof.
  intros L. assert (E : match l with [] => None | _ :: _ => Some (assemble sp (map fst rb) n) end =
                        if length l =? 0 then None else Some (assemble sp (map fst rb) n)) by (destruct l; reflexivity).
  assert (E' : match l with [] => None | _ :: _ => Some (map snd rb) end =
                        if length l =? 0 then None else Some (map snd rb)) by (destruct l; reflexivity).
  rewrite E, E'. destruct (Nat.eqb_spec (length l) 0) as [Z|Z]; cbn [meets].
  - split; [intros _ i Hi; lia|auto].
  - rewrite assemble_nrows, !map_length, L.
    assert (Sm : forall i, sum (length x) (fun j => mul (entry (assemble sp (map fst rb) n) i j) (nth j x zero)) =
       sum (length x) (fun j => mul (nth j (fst (nth i rb ([], zero))) zero) (nth j x zero))).
    { intros i. apply sum_ext. intros j _. rewrite assemble_entry. 
      rewrite nth_fst. reflexivity. }
    split.
    + intros [_ H] i Hi. specialize (H i Hi). rewrite Sm, nth_snd in H. exact H.
    + intros H. split; [reflexivity|]. intros i Hi. rewrite Sm, nth_snd. apply H. exact Hi.
Qed.

(** ** Constraints *)
Lemma le_shift (u v : F) : leb (add u v) zero = leb u (opp v).
Proof.
  apply Bool.eq_iff_eq_true. split; intros H.
  - pose proof (of_add F _ _ (opp v) H) as K. replace (add (add u v) (opp v)) with u in K by ring.
    replace (add zero (opp v)) with (opp v) in K by ring. exact K.
  - pose proof (of_add F _ _ v H) as K. replace (add (opp v) v) with (@zero F) in K by ring. exact K.
Qed.
Lemma le_sub (u v : F) : leb u v = true <-> leb zero (sub v u) = true.
Proof.
  split; intros H.
  - pose proof (of_add F _ _ (opp u) H) as K. replace (add u (opp u)) with (@zero F) in K by ring.
    replace (add v (opp u)) with (sub v u) in K by ring. exact K.
  - pose proof (of_add F _ _ u H) as K. replace (add zero u) with u in K by ring.
    replace (add (sub v u) u) with v in K by ring. exact K.
Qed.
Lemma ge_shift (u v : F) : leb zero (add u v) = leb (opp u) v.
Proof.
  apply Bool.eq_iff_eq_true. split; intros H.
  - pose proof (of_add F _ _ (opp u) H) as K. replace (add (add u v) (opp u)) with v in K by ring.
    replace (add zero (opp u)) with (opp u) in K by ring. exact K.
  - pose proof (of_add F _ _ u H) as K. replace (add (opp u) u) with (@zero F) in K by ring.
    replace (add v u) with (add u v) in K by ring. exact K.
Qed.

Definition dotrow (row x : list F) : F := sum (length x) (fun j => mul (nth j row zero) (nth j x zero)).

Lemma dotrow_scale row m x : length row = length x -> dotrow (map (fun c => mul c m) row) x = mul m (dotrow row x).
Proof.
  intros L. unfold dotrow. rewrite <- sum_scale. apply sum_ext. intros j Hj.
  rewrite (nth_indep _ zero (mul zero m)) by (rewrite map_length; lia). rewrite map_nth with (f := fun c => mul c m). ring.
Qed.

Lemma eq_row_holds S I (H : sympy_ok S I) vars r row v x : NoDup vars -> length x = length vars ->
  numeric_linear (simp S (expr_of (r_fun r))) -> r_opfunc r = opfunc_of Req ->
  eq_row S I vars r = Ok (row, v) -> (holds_at I r (env_of vars x) <-> dotrow row x = v).
Proof.
  intros N L T O E. unfold eq_row in E. destruct (coeff_row S I (r_fun r) vars) as [row'|] eqn:C; [|discriminate].
  cbn [bind] in E. destruct (call I (r_fun r) (repeat zero (length vars))) as [v'|] eqn:K; [|discriminate].
  cbn [bind] in E. injection E as <- <-. unfold holds_at. rewrite O.
  destruct (symbolic_row _ _ _ _ _ C) as (e & fv & b & Ef). rewrite Ef in *. cbn [expr_of] in *.
  destruct (row_free S I H e fv b vars _ _ N C K) as [Fr ->].
  rewrite (row_value S I H e fv b vars _ x N L T Fr C). fold (dotrow row' x). rewrite opfunc_holds. cbn. split; intros X.
  - transitivity (sub (add (dotrow row' x) (eval I (fun _ => zero) e)) (eval I (fun _ => zero) e)); [ring|]. rewrite X. ring.
  - rewrite X. ring.
Qed.

Lemma ub_row_holds S I (H : sympy_ok S I) small rnd vars r o row v x : NoDup vars -> length x = length vars ->
  numeric_linear (simp S (expr_of (r_fun r))) ->
  r_op r = Some o -> r_opfunc r = opfunc_of o -> o <> Req -> (o = Rlt \/ o = Rgt -> forall u, rnd u = u) ->
  ub_row S I small rnd vars r = Ok (row, v) -> (holds_margin I small r (env_of vars x) <-> leb (dotrow row x) v = true).
Proof.
  intros N L T Op Of NR Rd E. unfold ub_row in E. destruct (coeff_row S I (r_fun r) vars) as [row'|] eqn:C; [|discriminate].
  cbn [bind] in E. destruct (call I (r_fun r) (repeat zero (length vars))) as [v'|] eqn:K; [|discriminate].
  cbn [bind] in E. rewrite Op in E. injection E as <- <-. unfold holds_margin, holds_at. rewrite Op, Of.
  destruct (symbolic_row _ _ _ _ _ C) as (e & fv & b & Ef). rewrite Ef in *. cbn [expr_of] in *.
  destruct (row_free S I H e fv b vars _ _ N C K) as [Fr ->].
  assert (Lr : length row' = length x).
  { apply coeff_row_value in C; [|exact H]. rewrite L. apply C. }
  rewrite (row_value S I H e fv b vars _ x N L T Fr C). fold (dotrow row' x). rewrite dotrow_scale by exact Lr.
  set (e0 := eval I (fun _ => zero) e). set (d := dotrow row' x).
  destruct o; cbn [opfunc_of].
  - congruence.
  - rewrite Rd by auto. replace (add d e0) with (add small (add (sub d small) e0)) by ring.
    replace (mul (opp one) d) with (opp d) by ring. replace (sub (mul (opp e0) (opp one)) small) with (sub e0 small) by ring.
    pose proof (ge_shift d (sub e0 small)) as X. rewrite <- X.
    replace (leb zero (add d (sub e0 small))) with (leb small (add small (add (sub d small) e0))); [tauto|].
    pose proof (le_sub small (add small (add (sub d small) e0))) as Y.
    apply Bool.eq_iff_eq_true. rewrite Y. replace (sub (add small (add (sub d small) e0)) small) with (add d (sub e0 small)) by ring. tauto.
  - rewrite ge_shift. replace (mul (opp one) d) with (opp d) by ring.
    replace (mul (opp e0) (opp one)) with e0 by ring. tauto.
  - rewrite Rd by auto. replace (add (add d e0) small) with (add d (add e0 small)) by ring. rewrite le_shift.
    replace (mul one d) with d by ring. replace (sub (mul (opp e0) one) small) with (opp (add e0 small)) by ring. tauto.
  - rewrite le_shift. replace (mul one d) with d by ring.
    replace (mul (opp e0) one) with (opp e0) by ring. tauto.
Qed.

Lemma to_scipy_inv S I is_int small rnd (p : lp F) mx c a : to_scipy S I is_int small rnd p mx = Ok (c, a) ->
  exists c0 re ru,
    coeff_row S I (lp_obj p) (lp_vars p) = Ok c0 /\
    c = (if mx then map (fun x => mul x (opp one)) c0 else c0) /\
    mapM (eq_row S I (lp_vars p)) (filter is_equality (lp_cons p)) = Ok re /\
    mapM (ub_row S I small rnd (lp_vars p)) (filter is_inequality (lp_cons p)) = Ok ru /\
    A_ub a = match filter is_inequality (lp_cons p) with [] => None | _ => Some (assemble (lp_sparsify p) (map fst ru) (length (lp_vars p))) end /\
    b_ub a = match filter is_inequality (lp_cons p) with [] => None | _ => Some (map snd ru) end /\
    A_eq a = match filter is_equality (lp_cons p) with [] => None | _ => Some (assemble (lp_sparsify p) (map fst re) (length (lp_vars p))) end /\
    b_eq a = match filter is_equality (lp_cons p) with [] => None | _ => Some (map snd re) end /\
    a_bounds a = lp_bounds p /\
    a_int a = match lp_int p with
                 | Some k => Some k
                 | None => if existsb is_int (lp_vars p) then Some (IntEach (map (fun v => if is_int v then 1 else 0) (lp_vars p))) else None
                 end.
Proof.
  unfold to_scipy. intros E. destruct (coeff_row S I (lp_obj p) (lp_vars p)) as [c0|]; [|discriminate]. cbn [bind] in E.
  destruct (mapM (eq_row S I (lp_vars p)) _) as [re|]; [|discriminate]. cbn [bind] in E.
  destruct (mapM (ub_row S I small rnd (lp_vars p)) _) as [ru|]; [|discriminate]. cbn [bind] in E.
  injection E as <- <-. exists c0, re, ru. cbn. repeat split; reflexivity.
Qed.

Let r0 : relation F := Relation (Symbolic (ENum zero) [] false) CRelation None (fun _ _ => false).

Lemma built_class S (r : relation F) o : built S r -> r_op r = Some o ->
  r_opfunc r = opfunc_of o /\
  (o = Req /\ is_equality r = true /\ is_inequality r = false \/ o <> Req /\ is_equality r = false /\ is_inequality r = true).
Proof.
  intros (parse & cls & src & vs & op & os & B) O. destruct (mk_relation_op _ _ _ _ _ _ _ _ _ B O) as (K1 & K2 & K3 & K4).
  split; [exact K1|]. unfold is_equality, is_inequality. destruct (r_class r); [congruence|left|right]; auto.
Qed.

Lemma arrays_margin S I (H : sympy_ok S I) is_int small rnd (p : lp F) mx c a :
  NoDup (lp_vars p) ->
  (forall r, In r (lp_cons p) -> built S r /\ numeric_linear (simp S (expr_of (r_fun r))) /\
     exists o, r_op r = Some o /\ (o = Rlt \/ o = Rgt -> forall u, rnd u = u)) ->
  to_scipy S I is_int small rnd p mx = Ok (c, a) ->
  forall x, length x = length (lp_vars p) ->
  (arrays_admit a x <-> forall r, In r (lp_cons p) -> holds_margin I small r (env_of (lp_vars p) x)).
Proof.
  intros N G E x L. apply to_scipy_inv in E.
  destruct E as (c0 & re & ru & _ & _ & Re & Ru & E1 & E2 & E3 & E4 & _).
  apply mapM_nth with (a := r0) (b := ([], zero)) in Re. destruct Re as [Le Re].
  apply mapM_nth with (a := r0) (b := ([], zero)) in Ru. destruct Ru as [Lu Ru].
  unfold arrays_admit. rewrite E1, E2, E3, E4, !meets_rows by assumption.
  assert (HE : forall i r, i < length (filter is_equality (lp_cons p)) -> nth i (filter is_equality (lp_cons p)) r0 = r ->
     (holds_margin I small r (env_of (lp_vars p) x) <-> dotrow (fst (nth i re ([], zero))) x = snd (nth i re ([], zero)))).
  { intros i r Hi Er. specialize (Re i Hi). assert (Hr := nth_In _ r0 Hi). apply filter_In in Hr. destruct Hr as [Hr Q].
    rewrite Er in *. destruct (G _ Hr) as (B & T & o & O & Rd). destruct (built_class S r o B O) as [Of [(-> & _ & _)|(_ & Q' & _)]]; [|congruence].
    destruct (nth i re ([], zero)) as [row v] eqn:En. rewrite <- (eq_row_holds S I H (lp_vars p) r row v x N L T Of Re).
    unfold holds_margin. rewrite O. tauto. }
  assert (HU : forall i r, i < length (filter is_inequality (lp_cons p)) -> nth i (filter is_inequality (lp_cons p)) r0 = r ->
     (holds_margin I small r (env_of (lp_vars p) x) <-> leb (dotrow (fst (nth i ru ([], zero))) x) (snd (nth i ru ([], zero))) = true)).
  { intros i r Hi Er. specialize (Ru i Hi). assert (Hr := nth_In _ r0 Hi). apply filter_In in Hr. destruct Hr as [Hr Q].
    rewrite Er in *. destruct (G _ Hr) as (B & T & o & O & Rd). destruct (built_class S r o B O) as [Of [(_ & _ & Q')|(No & _ & _)]]; [congruence|].
    destruct (nth i ru ([], zero)) as [row v] eqn:En. 
    exact (ub_row_holds S I H small rnd (lp_vars p) r o row v x N L T O Of No Rd Ru). }
  split.
  - intros [He Hu] r Hr. destruct (G _ Hr) as (B & T & o & O & Rd).
    destruct (built_class S r o B O) as [_ [(_ & Q & _)|(_ & _ & Q)]].
    + assert (Hf : In r (filter is_equality (lp_cons p))) by (apply filter_In; auto).
      apply (In_nth _ _ r0) in Hf. destruct Hf as (i & Hi & Er). apply (HE i r Hi Er). apply He. exact Hi.
    + assert (Hf : In r (filter is_inequality (lp_cons p))) by (apply filter_In; auto).
      apply (In_nth _ _ r0) in Hf. destruct Hf as (i & Hi & Er). apply (HU i r Hi Er). apply Hu. exact Hi.
  - intros A. split; intros i Hi.
    + apply (HE i _ Hi eq_refl). apply A. assert (Hr := nth_In _ r0 Hi). apply filter_In in Hr. tauto.
    + apply (HU i _ Hi eq_refl). apply A. assert (Hr := nth_In _ r0 Hi). apply filter_In in Hr. tauto.
Qed.

Lemma arrays_faithful S I (H : sympy_ok S I) is_int small rnd (p : lp F) mx c a :
  NoDup (lp_vars p) ->
  (forall r, In r (lp_cons p) -> built S r /\ nonstrict r /\ numeric_linear (simp S (expr_of (r_fun r)))) ->
  to_scipy S I is_int small rnd p mx = Ok (c, a) ->
  forall x, length x = length (lp_vars p) ->
  (arrays_admit a x <-> forall r, In r (lp_cons p) -> holds_at I r (env_of (lp_vars p) x)).
Proof.
  intros N G E x L. rewrite (arrays_margin S I H is_int small rnd p mx c a N) with (x := x); [|intros r Hr|exact E|exact L].
  - split; intros A r Hr; specialize (A r Hr); destruct (G r Hr) as (_ & Ns & _); unfold holds_margin in *;
      destruct Ns as [O|[O|O]]; rewrite O in *; exact A.
  - destruct (G r Hr) as (B & Ns & T). split; [exact B|]. split; [exact T|].
    destruct Ns as [O|[O|O]]; eexists; (split; [exact O|]); intros [X|X]; discriminate.
Qed.

(** With a positive margin the arrays only admit points of the problem. *)
Lemma margin_holds S I small r env o : leb small (@zero F) = false -> built S r -> r_op r = Some o ->
  holds_margin I small r env -> holds_at I r env.
Proof.
  intros P B O. destruct (built_class S r o B O) as [Of _]. unfold holds_margin, holds_at. rewrite O, Of.
  set (v := eval I env (expr_of (r_fun r))). destruct o; cbn [opfunc_of]; auto; intros E.
  - apply ltb_iff. apply (lt_le_trans F _ small); assumption.
  - apply ltb_iff. apply (lt_le_trans F _ (add v small)); [|exact E].
    apply sub_pos. replace (sub (add v small) v) with small by ring. exact P.
Qed.

(** ** The cost vector *)
Lemma dotl_dotrow (row x : list F) : length row = length x -> dotl row x = dotrow row x.
Proof.
  unfold dotl, dotrow. revert x. induction row as [|c row IH]; destruct x as [|v x]; cbn [length]; intros L; try discriminate; [reflexivity|].
  rewrite sum_S_l. cbn. rewrite IH by lia. reflexivity.
Qed.

Definition sgn (mx : bool) (v : F) : F := if mx then opp v else v.
Lemma cost_value S I (H : sympy_ok S I) is_int small rnd (p : lp F) mx c a :
  NoDup (lp_vars p) -> numeric_linear (simp S (expr_of (lp_obj p))) ->
  (forall s, In s (free (expr_of (lp_obj p))) -> In s (lp_vars p)) ->
  to_scipy S I is_int small rnd p mx = Ok (c, a) ->
  length c = length (lp_vars p) /\
  forall x, length x = length (lp_vars p) ->
  dotl c x = sgn mx (sub (objective I p x) (eval I (fun _ => zero) (expr_of (lp_obj p)))).
Proof.
  intros N T Fr E. apply to_scipy_inv in E. destruct E as (c0 & re & ru & C & -> & _).
  destruct (symbolic_row _ _ _ _ _ C) as (e & fv & b & Ef). unfold objective. rewrite Ef in *. cbn [expr_of] in *.
  assert (L0 : length c0 = length (lp_vars p)) by (apply (coeff_row_value S I H) in C; apply C).
  split; [destruct mx; [rewrite map_length|]; exact L0|].
  intros x L. rewrite (row_value S I H e fv b (lp_vars p) c0 x N L T Fr C). fold (dotrow c0 x).
  rewrite dotl_dotrow by (destruct mx; rewrite ?map_length; congruence).
  destruct mx; cbn [sgn]; [rewrite dotrow_scale by congruence|]; ring.
Qed.

(** ** The optimum *)
Lemma integral_same is_int (p : lp F) (x : list F) : length x = length (lp_vars p) ->
  (integral (match lp_int p with
             | Some k => Some k
             | None => if existsb is_int (lp_vars p) then Some (IntEach (map (fun v => if is_int v then 1 else 0) (lp_vars p))) else None
             end) x <->
   match lp_int p with
   | Some k => integral (Some k) x
   | None => forall i, i < length x -> is_int (nth i (lp_vars p) (plain [])) = true -> is_whole (nth i x zero)
   end).
Proof.
  intros L. destruct (lp_int p) as [k|]; [tauto|]. destruct (existsb is_int (lp_vars p)) eqn:E; cbn [integral].
  - assert (M : forall i, i < length x -> (nth i (map (fun v => if is_int v then 1 else 0) (lp_vars p)) 0 = 1 <-> is_int (nth i (lp_vars p) (plain [])) = true)).
    { intros i Hi. rewrite (nth_indep _ 0 (if is_int (plain []) then 1 else 0)) by (rewrite map_length; lia).
      rewrite (map_nth (fun v => if is_int v then 1 else 0)). destruct (is_int _); split; congruence. }
    split; intros A i; [intros Hi K|intros K Hi]; apply A; try exact Hi; apply M; assumption.
  - split; [|auto]. intros _ i Hi K. exfalso.
    assert (X : existsb is_int (lp_vars p) = true) by (apply existsb_exists; eexists; split; [|exact K]; apply nth_In; lia). congruence.
Qed.

Lemma feasible_same S I (H : sympy_ok S I) is_int small rnd (p : lp F) mx c a :
  NoDup (lp_vars p) ->
  (forall r, In r (lp_cons p) -> built S r /\ nonstrict r /\ numeric_linear (simp S (expr_of (r_fun r)))) ->
  to_scipy S I is_int small rnd p mx = Ok (c, a) ->
  forall x, solver_feasible a (length (lp_vars p)) x <-> feasible I is_int p x.
Proof.
  intros N G E x. unfold solver_feasible, feasible.
  pose proof (arrays_faithful S I H is_int small rnd p mx c a N G E x) as A.
  apply to_scipy_inv in E. destruct E as (c0 & re & ru & _ & _ & _ & _ & _ & _ & _ & _ & Eb & Ei). rewrite Eb, Ei.
  split; intros (L & B & C & D); (split; [exact L|]); (split; [apply (A L), B|]); (split; [exact C|]);
    apply integral_same; assumption.
Qed.

Lemma sgn_le mx (u v k : F) : leb (sgn mx (sub u k)) (sgn mx (sub v k)) = true <-> if mx then leb v u = true else leb u v = true.
Proof.
  destruct mx; cbn [sgn].
  - rewrite (le_sub (opp (sub u k))), (le_sub v). replace (sub (opp (sub v k)) (opp (sub u k))) with (sub u v) by ring. tauto.
  - rewrite (le_sub (sub u k)), (le_sub u). replace (sub (sub v k) (sub u k)) with (sub v u) by ring. tauto.
Qed.

Lemma optimum_same S I (H : sympy_ok S I) is_int small rnd (p : lp F) mx c a :
  NoDup (lp_vars p) ->
  (forall r, In r (lp_cons p) -> built S r /\ nonstrict r /\ numeric_linear (simp S (expr_of (r_fun r)))) ->
  numeric_linear (simp S (expr_of (lp_obj p))) ->
  (forall s, In s (free (expr_of (lp_obj p))) -> In s (lp_vars p)) ->
  to_scipy S I is_int small rnd p mx = Ok (c, a) ->
  forall x, solver_optimum c a x <-> optimum I is_int p mx x.
Proof.
  intros N G T Fr E x. unfold solver_optimum, optimum.
  pose proof (feasible_same S I H is_int small rnd p mx c a N G E) as Fe.
  destruct (cost_value S I H is_int small rnd p mx c a N T Fr E) as [Lc Co]. rewrite Lc, Fe.
  split; intros [A B]; (split; [exact A|]); intros y Hy.
  - apply Fe in Hy. specialize (B y Hy). rewrite !Co in B by (apply Hy || apply A). apply sgn_le in B. exact B.
  - apply Fe in Hy. specialize (B y Hy). rewrite !Co by (apply Hy || apply A). apply sgn_le. exact B.
Qed.

Lemma obj_free S I (H : sympy_ok S I) (p : lp F) c0 x v : NoDup (lp_vars p) ->
  coeff_row S I (lp_obj p) (lp_vars p) = Ok c0 -> call I (lp_obj p) x = Ok v -> length x = length (lp_vars p) ->
  (forall s, In s (free (expr_of (lp_obj p))) -> In s (lp_vars p)).
Proof.
  intros N C K L. destruct (symbolic_row _ _ _ _ _ C) as (e & fv & b & Ef). rewrite Ef in *. cbn [expr_of].
  apply (coeff_row_value S I H) in C. destruct C as (_ & _ & C). apply call_inv in K. destruct K as (L' & Fr & _).
  intros s Hs. apply (NoDup_length_incl N (l' := fv)); [lia| |apply Fr; exact Hs].
  intros y Hy. destruct (C y Hy); auto.
Qed.

Lemma solve_optimum S I (H : sympy_ok S I) is_int small rnd linprog (p : lp F) mx res :
  (forall c a, success (linprog c a) = true -> solver_optimum c a (sol (linprog c a))) ->
  NoDup (lp_vars p) ->
  (forall r, In r (lp_cons p) -> built S r /\ nonstrict r /\ numeric_linear (simp S (expr_of (r_fun r)))) ->
  numeric_linear (simp S (expr_of (lp_obj p))) ->
  solve S I is_int small rnd linprog p mx = Ok res -> success res = true ->
  optimum I is_int p mx (sol res) /\ call I (lp_obj p) (sol res) = Ok (fval res) /\
  (fvars (lp_obj p) = lp_vars p -> fval res = objective I p (sol res)).
Proof.
  intros LP N G T E Sx. unfold solve in E.
  destruct (to_scipy S I is_int small rnd p mx) as [[c a]|] eqn:Et; [|discriminate]. cbn [bind] in E.
  destruct (success (linprog c a)) eqn:Es; [|injection E as <-; congruence].
  destruct (call I (lp_obj p) (sol (linprog c a))) as [v|] eqn:K; [|discriminate]. cbn [bind] in E. injection E as <-. cbn [sol fval].
  specialize (LP c a Es). set (x := sol (linprog c a)) in *.
  pose proof Et as Et'. apply to_scipy_inv in Et'. destruct Et' as (c0 & re & ru & C & Ec & _).
  assert (Lx : length x = length (lp_vars p)).
  { destruct LP as [[Lx _] _]. rewrite Lx. destruct (symbolic_row _ _ _ _ _ C) as (e & fv & b & Ef). rewrite Ef in C.
    apply (coeff_row_value S I H) in C. rewrite Ec. destruct mx; rewrite ?map_length; apply C. }
  pose proof (obj_free S I H p c0 x v N C K Lx) as Fr.
  split; [apply (optimum_same S I H is_int small rnd p mx c a N G T Fr Et), LP|]. split; [exact K|].
  intros V. unfold objective. destruct (symbolic_row _ _ _ _ _ C) as (e & fv & b & Ef). rewrite Ef in *. cbn [fvars expr_of] in *.
  apply call_inv in K. destruct K as (_ & _ & ->). rewrite V. reflexivity.
Qed.

(** If the solver only gives up when there is no optimum, so does [solve]. *)
Lemma solve_failure S I (H : sympy_ok S I) is_int small rnd linprog (p : lp F) mx res :
  (forall c a, success (linprog c a) = false -> forall x, ~ solver_optimum c a x) ->
  NoDup (lp_vars p) ->
  (forall r, In r (lp_cons p) -> built S r /\ nonstrict r /\ numeric_linear (simp S (expr_of (r_fun r)))) ->
  numeric_linear (simp S (expr_of (lp_obj p))) ->
  (forall s, In s (free (expr_of (lp_obj p))) -> In s (lp_vars p)) ->
  solve S I is_int small rnd linprog p mx = Ok res -> success res = false -> forall x, ~ optimum I is_int p mx x.
Proof.
  intros LP N G T Fr E Sx x O. unfold solve in E.
  destruct (to_scipy S I is_int small rnd p mx) as [[c a]|] eqn:Et; [|discriminate]. cbn [bind] in E.
  destruct (success (linprog c a)) eqn:Es.
  - destruct (call I (lp_obj p) (sol (linprog c a))) as [v|] eqn:K; [|discriminate]. cbn [bind] in E. injection E as <-. discriminate.
  - apply (LP c a Es x). apply (optimum_same S I H is_int small rnd p mx c a N G T Fr Et), O.
Qed.

(** Sparse and dense assembly describe the same arrays. *)
Lemma same_entries (rows : list (list F)) n i j : entry (assemble true rows n) i j = entry (assemble false rows n) i j.
Proof. rewrite !assemble_entry. reflexivity. Qed.

End LpP.
