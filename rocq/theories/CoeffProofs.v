(** Proofs about coefficient dictionaries, operators of relations and the constructor of
    linear programming problems. *)
From Coq Require Import Ascii String Field.
From Verif Require Import Prelude OField FuncModel RelModel LpModel FuncSpec FuncProofs RelProofs RelBuildProofs LpProofs CoeffSpec FuncCounter.

Section Coeff.
Context {F : ofield}.
Add Field CoF : (of_field F).
Implicit Types e k t : expr F.
Implicit Types f : func F.

(** ** Values of dictionaries *)
Definition old_value I env (d : list (expr F * expr F)) k : F :=
  eval I env (match dget d k with Some v => v | None => ENum zero end).
Lemma value_dset I env d k v :
  dict_value I env (dset d k v) =
  add (dict_value I env d) (mul (sub (eval I env v) (old_value I env d k)) (eval I env k)).
Proof.
  unfold dict_value, old_value. induction d as [|[q w] d IH]; cbn [dset dget map suml fst snd].
  - cbn [eval]. ring.
  - destruct (expr_eqb_spec q k) as [->|N]; cbn [map suml fst snd].
    + ring.
    + rewrite IH. ring.
Qed.

Lemma old_dset I env d k v k' :
  old_value I env (dset d k v) k' = if expr_eqb k k' then eval I env v else old_value I env d k'.
Proof. unfold old_value. rewrite dget_dset. destruct (expr_eqb k k'); reflexivity. Qed.

(** The number dictionary. *)
Definition num_value I env (d : list (expr F * F)) : F := suml (map (fun kv => mul (snd kv) (eval I env (fst kv))) d).
Lemma num_dset I env (d : list (expr F * F)) k v :
  num_value I env (dset d k v) = add (num_value I env d) (mul (sub v (oget zero (dget d k))) (eval I env k)).
Proof.
  unfold num_value. induction d as [|[q w] d IH]; cbn [dset dget map suml fst snd oget].
  - ring.
  - destruct (expr_eqb_spec q k) as [->|N]; cbn [map suml fst snd oget]; [ring|]. rewrite IH. ring.
Qed.
Lemma as_coeff_value I env t : mul (fst (as_coeff_mul t)) (eval I env (snd (as_coeff_mul t))) = eval I env t.
Proof. destruct t as [c|c|s|a b|a b|a b|g a]; cbn [as_coeff_mul fst snd eval]; try ring. destruct a; cbn [as_coeff_mul fst snd eval]; ring. Qed.
Lemma num_step I env d t : num_value I env (step d t) = add (num_value I env d) (eval I env t).
Proof.
  unfold step. rewrite <- (as_coeff_value I env t). destruct (as_coeff_mul t) as [c m]. cbn [fst snd].
  rewrite num_dset. destruct (dget d m); cbn [oget]; ring.
Qed.
Lemma num_dict I env e : num_value I env (as_coefficients_dict e) = eval I env e.
Proof.
  unfold as_coefficients_dict. fold (@step F).
  assert (G : forall ts d, num_value I env (fold_left step ts d) = add (num_value I env d) (suml (map (eval I env) ts))).
  { induction ts as [|t ts IH]; cbn [fold_left map suml]; intros d; [ring|]. rewrite IH, num_step. ring. }
  change (fold_left _ (summands e) []) with (fold_left step (summands e) []).
  rewrite G, <- eval_summands. unfold num_value. cbn. ring.
Qed.

Lemma init_old I env vars d k : old_value I env d k = zero ->
  old_value I env (fold_left (fun d x => dset d (ESym x) (ENum zero)) vars d) k = zero.
Proof.
  revert d. induction vars as [|x vars IH]; cbn [fold_left]; intros d H; [exact H|].
  apply IH. rewrite old_dset. destruct (expr_eqb (ESym x) k); [reflexivity|exact H].
Qed.
Lemma init_value I env vars d : (forall k, old_value I env d k = zero) ->
  dict_value I env (fold_left (fun d x => dset d (ESym x) (ENum zero)) vars d) = dict_value I env d.
Proof.
  revert d. induction vars as [|x vars IH]; cbn [fold_left]; intros d H; [reflexivity|].
  rewrite IH.
  - rewrite value_dset, H. cbn [eval]. ring.
  - intros k. rewrite old_dset. destruct (expr_eqb (ESym x) k); [reflexivity|apply H].
Qed.
Lemma update_value I env (l : list (expr F * F)) d : NoDup (map fst l) ->
  (forall k, In k (map fst l) -> old_value I env d k = zero) ->
  dict_value I env (fold_left (fun d kv => dset d (fst kv) (ENum (snd kv))) l d) = add (dict_value I env d) (num_value I env l).
Proof.
  revert d. induction l as [|[q c] l IH]; cbn [fold_left map fst snd]; intros d N H.
  - unfold num_value. cbn. ring.
  - inversion N as [|? ? N1 N2]. subst. rewrite IH; [|exact N2|].
    + rewrite value_dset, H by (left; reflexivity). unfold num_value. cbn [map suml fst snd eval]. ring.
    + intros k Hk. rewrite old_dset. destruct (expr_eqb_spec q k) as [->|_]; [tauto|]. apply H. right. exact Hk.
Qed.

Definition raw_dict (S : sympy F) e vars :=
  fold_left (fun d kv => dset d (fst kv) (ENum (snd kv))) (as_coefficients_dict (simp S e))
    (fold_left (fun d x => dset d (ESym x) (ENum zero)) vars []).
Lemma raw_value S I (H : sympy_ok S I) env e vars : dict_value I env (raw_dict S e vars) = eval I env e.
Proof.
  unfold raw_dict. rewrite update_value.
  - rewrite init_value by reflexivity. rewrite num_dict, (simp_eval S I H). unfold dict_value. cbn. ring.
  - apply (coefficients_dict (simp S e) (ENum zero)).
  - intros k _. apply init_old. reflexivity.
Qed.
Lemma raw_keys S e vars : NoDup (map fst (raw_dict S e vars)).
Proof. apply update_keys, init_keys. constructor. Qed.
Lemma raw_var S e vars x : In x vars -> exists v, dget (raw_dict S e vars) (ESym x) = Some v.
Proof.
  intros Hx. unfold raw_dict. rewrite update_get by apply (coefficients_dict (simp S e) (ENum zero)).
  destruct (dget _ _); [eauto|]. rewrite init_get. destruct (mem_spec x vars); [eauto|tauto].
Qed.
(** Every key is a variable or the monomial of a summand. *)
Lemma raw_key S e vars k : In k (map fst (raw_dict S e vars)) ->
  (exists x, In x vars /\ k = ESym x) \/ exists t, In t (summands (simp S e)) /\ snd (as_coeff_mul t) = k.
Proof.
  assert (In_get : forall (d : list (expr F * expr F)), In k (map fst d) -> dget d k <> None).
  { induction d as [|[q w] d IH]; cbn; [tauto|]. intros [->|Hk]; [rewrite expr_eqb_refl; discriminate|].
    destruct (expr_eqb q k); [discriminate|auto]. }
  intros Hk. apply In_get in Hk. unfold raw_dict in Hk.
  destruct (coefficients_dict (simp S e) k) as (K1 & _ & K3). rewrite update_get in Hk by exact K1.
  destruct (dget (as_coefficients_dict (simp S e)) k) as [c|] eqn:E.
  - right. apply K3. discriminate.
  - left. clear - Hk. assert (G : forall d : list (expr F * expr F), dget (fold_left (fun d x => dset d (ESym x) (ENum zero)) vars d) k <> None ->
      (exists x, In x vars /\ k = ESym x) \/ dget d k <> None).
    { clear Hk. induction vars as [|x vars IH]; cbn -[expr_eqb]; intros d Hd; [auto|].
      apply IH in Hd. destruct Hd as [(y & Hy & E)|Hd]; [left; exists y; auto|].
      rewrite dget_dset in Hd. destruct (expr_eqb_spec (ESym x) k) as [<-|N]; [left; exists x; auto|auto]. }
    destruct (G [] Hk) as [X|X]; [exact X|cbn in X; congruence].
Qed.

Theorem coefficients_reproduce S I (H : sympy_ok S I) f :
  (is_symbolic f = false -> forall b, coefficients S f b = Err TypeError) /\
  (is_symbolic f = true -> exists d, coefficients S f false = Ok d /\ NoDup (map fst d) /\
     (forall x, In x (fvars f) -> In (ESym x) (map fst d)) /\
     forall env, dict_value I env d = eval I env (expr_of f)).
Proof.
  destruct f as [e vars b|g vars h]; (split; [intros E|intros E]); try discriminate; try reflexivity.
  exists (raw_dict S e vars). split; [reflexivity|]. split; [apply raw_keys|]. split.
  - intros x Hx. destruct (raw_var S e vars x Hx) as (v & Hv). apply dget_in in Hv. exact Hv.
  - intros env. apply raw_value. exact H.
Qed.

(** ** Normalised dictionaries *)
Definition nstep (r : list (expr F * expr F)) (kv : expr F * expr F) :=
  match free (fst kv) with
  | [] => dset r (ENum one) (EMul (snd kv) (fst kv))
  | _ => dset r (fst kv) (snd kv)
  end.
Lemma nstep_value I env d r : NoDup (map fst d) -> constant_keys d <= 1 ->
  (forall k, In k (map fst d) -> free k <> [] -> dget r k = None) ->
  (constant_keys d = 1 -> dget r (ENum one) = None) ->
  dict_value I env (fold_left nstep d r) = add (dict_value I env r) (dict_value I env d).
Proof.
  unfold constant_keys. revert r. induction d as [|[q v] d IH]; cbn [fold_left map fst snd filter]; intros r N C Hk Hc.
  - unfold dict_value. cbn. ring.
  - inversion N as [|? ? N1 N2]. subst. unfold nstep at 2. cbn [fst snd]. 
    destruct (free q) as [|s fs] eqn:Fq.
    + cbn [length] in C, Hc. rewrite IH; [| exact N2 | lia | | lia].
      * rewrite value_dset. unfold old_value. rewrite Hc by lia. unfold dict_value. cbn [map suml fst snd eval]. ring.
      * intros k Hin Fk. rewrite dget_dset. destruct (expr_eqb_spec (ENum one) k) as [<-|_]; [cbn in Fk; congruence|].
        apply Hk; [right; exact Hin|exact Fk].
    + rewrite IH; [| exact N2 | exact C | |].
      * rewrite value_dset. unfold old_value. rewrite Hk; [|left; reflexivity|rewrite Fq; discriminate].
        unfold dict_value. cbn [map suml fst snd eval]. ring.
      * intros k Hin Fk. rewrite dget_dset. destruct (expr_eqb_spec q k) as [->|_]; [tauto|]. apply Hk; [right; exact Hin|exact Fk].
      * intros Hl. rewrite dget_dset. destruct (expr_eqb_spec q (ENum one)) as [->|_]; [cbn in Fq; discriminate|]. apply Hc. exact Hl.
Qed.
Theorem normalized_reproduce S I (H : sympy_ok S I) f d : coefficients S f false = Ok d -> constant_keys d <= 1 ->
  exists n, coefficients S f true = Ok n /\ forall env, dict_value I env n = eval I env (expr_of f).
Proof.
  destruct f as [e vars b|]; [|discriminate]. cbn. fold (raw_dict S e vars). intros E C. injection E as <-.
  eexists. split; [reflexivity|]. intros env. change (fold_left _ (raw_dict S e vars) []) with (fold_left nstep (raw_dict S e vars) []).
  rewrite nstep_value; [|apply raw_keys|exact C|reflexivity|reflexivity].
  rewrite (raw_value S I H). unfold dict_value. cbn. ring.
Qed.

(** 1 + pi: only pi is left. *)
Definition one_pi : func F := fun_of (EAdd (ENum one) (EConst (tx "pi"))) [].
Theorem normalized_wrong I : exists n, coefficients idle one_pi true = Ok n /\
  forall env, dict_value I env n <> eval I env (expr_of one_pi).
Proof.
  assert (N1 : eqb (@one F) one = true) by (destruct (eqb_spec F one one); congruence).
  eexists. cbn. rewrite N1. split; [reflexivity|]. intros env. unfold dict_value. cbn. intros E.
  apply (one_nz F). match type of E with _ = ?r => transitivity (sub r (iconst I (tx "pi"))) end; [cbn; ring|].
  rewrite <- E. cbn. ring.
Qed.

(** ** Linear coefficients *)
Lemma filter_all {A} (p : A -> bool) l : (forall a, In a l -> p a = true) -> filter p l = l.
Proof. induction l as [|a l IH]; cbn; intros Hp; [reflexivity|]. rewrite Hp, IH by auto. reflexivity. Qed.
Lemma numeric_key t : numeric_term t ->
  (exists x, snd (as_coeff_mul t) = ESym x) \/ free (snd (as_coeff_mul t)) = [].
Proof.
  intros [T|[(s & ->)|(c & s & ->)]]; [right|left; eexists; reflexivity|left; eexists; reflexivity].
  destruct t as [c|c|s|a b|a b|a b|g a]; try exact T; try reflexivity.
  destruct a; exact T.
Qed.
Lemma raw_nonempty S e vars : raw_dict S e vars <> [].
Proof.
  intros E. pose proof (coefficients_dict (simp S e) (ENum zero)) as (K1 & _ & _).
  assert (Ne : summands (simp S e) <> []).
  { clear. induction (simp S e); cbn; try discriminate. intros X. apply app_eq_nil in X. tauto. }
  destruct (summands (simp S e)) as [|t ts] eqn:Es; [congruence|].
  destruct (dict_fold (summands (simp S e)) [] (snd (as_coeff_mul t))) as (_ & _ & D); [constructor|].
  assert (G : dget (as_coefficients_dict (simp S e)) (snd (as_coeff_mul t)) <> None).
  { unfold as_coefficients_dict. fold (@step F).
    change (fold_left _ (summands (simp S e)) []) with (fold_left step (summands (simp S e)) []).
    apply D. right. exists t. rewrite Es. split; [left; reflexivity|reflexivity]. }
  assert (X : dget (raw_dict S e vars) (snd (as_coeff_mul t)) <> None).
  { unfold raw_dict. rewrite update_get by exact K1. destruct (dget _ _); congruence. }
  rewrite E in X. cbn in X. congruence.
Qed.
Theorem linear_reproduce S I (H : sympy_ok S I) f : is_symbolic f = true -> numeric_linear (simp S (expr_of f)) ->
  exists d, linear_coefficients S f false = Ok (Some d) /\
    (forall k, In k (map fst d) -> (exists x, k = ESym x) \/ free k = []) /\
    forall env, dict_value I env d = eval I env (expr_of f).
Proof.
  destruct f as [e vars b|]; [|discriminate]. intros _ T. cbn [expr_of] in T.
  assert (K : forall k, In k (map fst (raw_dict S e vars)) -> (exists x, k = ESym x) \/ free k = []).
  { intros k Hk. apply raw_key in Hk. destruct Hk as [(x & _ & ->)|(t & Ht & <-)]; [left; eauto|]. apply numeric_key, T, Ht. }
  exists (raw_dict S e vars). unfold linear_coefficients. cbn [coefficients bind]. fold (raw_dict S e vars). split.
  - destruct (raw_dict S e vars) as [|p l] eqn:E.
    + destruct (raw_nonempty S e vars E).
    + rewrite filter_all; [reflexivity|]. intros kv Hkv. destruct (K (fst kv)) as [(x & ->)|Fr].
      * rewrite <- E in *. apply in_map. exact Hkv.
      * reflexivity.
      * rewrite Fr. reflexivity.
  - split; [exact K|]. intros env. apply raw_value. exact H.
Qed.

(** x**2 is among the linear coefficients of x**2. *)
Theorem linear_wrong : exists (f : func F) d k,
  linear_coefficients idle f false = Ok (Some d) /\ In k (map fst d) /\
  k = EPow (ESym vx) (ENum (add one one)) /\ dget d k = Some (ENum one).
Proof.
  exists (fun_of (EPow (ESym vx) (ENum (add one one))) [vx]). eexists _, _. cbn -[mem]. split; [reflexivity|].
  split; [right; left; reflexivity|]. split; [reflexivity|]. cbn. 
  destruct (eqb_spec F (add one one) (add one one)); [reflexivity|congruence].
Qed.

(** ** The arrays can be built *)
Lemma norm_var S e vars x : In x vars ->
  exists v, dget (fold_left nstep (raw_dict S e vars) []) (ESym x) = Some v.
Proof.
  intros Hx. pose proof (normalize_get (raw_dict S e vars) [] x (raw_keys S e vars)) as G.
  change (dget (fold_left nstep (raw_dict S e vars) []) (ESym x) = match dget (raw_dict S e vars) (ESym x) with Some v => Some v | None => None end) in G.
  rewrite G. destruct (raw_var S e vars x Hx) as (v & ->). eauto.
Qed.
Lemma coeff_row_ok S I e fv b vars : incl vars fv -> exists row, coeff_row S I (Symbolic e fv b) vars = Ok row.
Proof.
  intros Hi. destruct vars as [|v0 vars0] eqn:Ev.
  { unfold coeff_row, linear_coefficients. cbn. eauto. }
  rewrite <- Ev in *. assert (H0 : In v0 fv) by (apply Hi; rewrite Ev; left; reflexivity). clear Ev vars0.
  unfold coeff_row, linear_coefficients. cbn [coefficients bind]. fold (raw_dict S e fv).
  change (fold_left _ (raw_dict S e fv) []) with (fold_left nstep (raw_dict S e fv) []).
  pose proof (norm_var S e fv) as G. set (d := fold_left nstep (raw_dict S e fv) []) in *.
  destruct d as [|p l] eqn:Ed; [destruct (G v0 H0) as (v & Hv); cbn in Hv; discriminate|]. rewrite <- Ed in *. clear Ed p l.
  assert (forall ws, incl ws fv -> exists row, mapM (coeff I (Some (filter (fun kv => length (distinct (free (fst kv))) <=? 1) d))) ws = Ok row); [|apply H, Hi].
  induction ws as [|w ws IH]; intros Hw; cbn [mapM]; [eauto|].
  destruct (G w) as (v & Hv); [apply Hw; left; reflexivity|].
  unfold coeff at 1. rewrite filter_get by reflexivity. rewrite Hv. cbn [bind].
  destruct IH as (row & ->); [intros z Hz; apply Hw; right; exact Hz|]. cbn. eauto.
Qed.
Lemma mapM_ok {A B} (g : A -> result B) l : (forall a, In a l -> exists y, g a = Ok y) -> exists ys, mapM g l = Ok ys.
Proof.
  induction l as [|a l IH]; cbn; intros H; [eauto|]. destruct (H a) as (y & ->); [auto|].
  destruct IH as (ys & ->); [auto|]. cbn. eauto.
Qed.
Theorem arrays_built S I is_int small rnd (p : lp F) mx :
  is_symbolic (lp_obj p) = true -> incl (lp_vars p) (fvars (lp_obj p)) ->
  (forall r, In r (lp_cons p) -> is_symbolic (r_fun r) = true /\ incl (lp_vars p) (fvars (r_fun r)) /\
     length (fvars (r_fun r)) = length (lp_vars p) /\ incl (free (expr_of (r_fun r))) (fvars (r_fun r))) ->
  exists c a, to_scipy S I is_int small rnd p mx = Ok (c, a).
Proof.
  intros So Io Hc. unfold to_scipy. destruct (lp_obj p) as [e fv b|] eqn:Eo; [|discriminate]. cbn [fvars] in Io.
  destruct (coeff_row_ok S I e fv b (lp_vars p) Io) as (c0 & ->). cbn [bind].
  assert (R : forall r, In r (lp_cons p) -> exists row v, coeff_row S I (r_fun r) (lp_vars p) = Ok row /\
              call I (r_fun r) (repeat zero (length (lp_vars p))) = Ok v).
  { intros r Hr. destruct (Hc r Hr) as (Sr & Ir & Lr & Fr). destruct (r_fun r) as [e' fv' b'|]; [|discriminate]. cbn [fvars expr_of] in *.
    destruct (coeff_row_ok S I e' fv' b' (lp_vars p) Ir) as (row & ->). eexists row, _. split; [reflexivity|].
    apply (call_ok I _ _ e' fv' b' eq_refl); [rewrite repeat_length; lia|exact Fr]. }
  destruct (mapM_ok (eq_row S I (lp_vars p)) (filter is_equality (lp_cons p))) as (re & ->).
  { intros r Hr. apply filter_In in Hr. destruct (R r (proj1 Hr)) as (row & v & E1 & E2). unfold eq_row. rewrite E1. cbn [bind]. rewrite E2. cbn. eauto. }
  destruct (mapM_ok (ub_row S I small rnd (lp_vars p)) (filter is_inequality (lp_cons p))) as (ru & ->).
  { intros r Hr. apply filter_In in Hr. destruct (R r (proj1 Hr)) as (row & v & E1 & E2). unfold ub_row. rewrite E1. cbn [bind]. rewrite E2. cbn. eauto. }
  cbn [bind]. eauto.
Qed.
Lemma nstep_nonempty d r : d <> [] \/ r <> [] -> fold_left nstep d r <> [].
Proof.
  revert r. induction d as [|kv d IH]; cbn [fold_left]; intros r [H|H]; try congruence.
  - apply IH. right. unfold nstep. destruct (free (fst kv)), r as [|[q w] r]; cbn; try discriminate; destruct (expr_eqb q _); discriminate.
  - apply IH. right. unfold nstep. destruct (free (fst kv)), r as [|[q w] r]; cbn; try discriminate; destruct (expr_eqb q _); discriminate.
Qed.
Lemma coeff_row_error S I e fv b vars er : coeff_row S I (Symbolic e fv b) vars = Err er -> er = KeyError.
Proof.
  unfold coeff_row, linear_coefficients. cbn [coefficients bind]. fold (raw_dict S e fv).
  change (fold_left _ (raw_dict S e fv) []) with (fold_left nstep (raw_dict S e fv) []).
  pose proof (nstep_nonempty (raw_dict S e fv) [] (or_introl (raw_nonempty S e fv))) as Ne.
  set (d := fold_left nstep (raw_dict S e fv) []) in *. destruct d as [|kv d']; [congruence|].
  induction vars as [|v vars IH]; cbn [mapM]; [discriminate|].
  destruct (coeff I _ v) as [c|e1] eqn:C; cbn [bind].
  - destruct (mapM _ vars) as [l|e2]; cbn [bind]; [discriminate|]. intros E. injection E as <-. apply IH. reflexivity.
  - intros E. injection E as <-. unfold coeff in C. destruct (dget _ _); [discriminate|]. injection C as <-. reflexivity.
Qed.
Theorem objective_missing S I (H : sympy_ok S I) is_int small rnd (p : lp F) mx x :
  is_symbolic (lp_obj p) = true -> In x (lp_vars p) -> ~ In x (fvars (lp_obj p)) -> ~ In x (free (expr_of (lp_obj p))) ->
  to_scipy S I is_int small rnd p mx = Err KeyError.
Proof.
  intros So Hx N1 N2. unfold to_scipy. destruct (lp_obj p) as [e fv b|] eqn:Eo; [|discriminate].
  destruct (coeff_row S I (Symbolic e fv b) (lp_vars p)) as [row|er] eqn:C.
  - exfalso. apply coeff_row_value in C; [|exact H]. destruct C as (_ & _ & C). destruct (C x Hx); [apply N1|apply N2]; assumption.
  - apply coeff_row_error in C. subst er. reflexivity.
Qed.

(** ** The constructor of a problem *)
Lemma check_ok (cs : list (py_obj F)) rs :
  check_constraints cs = Ok rs <-> cs = map (@PyRelation F) rs /\ forall r, In r rs -> is_symbolic (r_fun r) = true.
Proof.
  revert rs. induction cs as [|c cs IH]; cbn; intros rs.
  - split; [intros E; injection E as <-; split; [reflexivity|intros r []]|]. intros [E _]. destruct rs; [reflexivity|discriminate].
  - destruct c as [f|r|]; try (split; [discriminate|intros [E _]; destruct rs; discriminate]).
    destruct (is_symbolic (r_fun r)) eqn:Sr.
    + destruct (check_constraints cs) as [rs'|er] eqn:Ec; cbn [bind].
      * split.
        -- intros E. injection E as <-. destruct (proj1 (IH rs') eq_refl) as [-> Hs]. split; [reflexivity|].
           intros q [<-|Hq]; [exact Sr|apply Hs, Hq].
        -- intros [E Hs]. destruct rs as [|q rs]; [discriminate|]. cbn in E. injection E as -> E.
           assert (X : Ok rs' = Ok rs) by (apply IH; split; [exact E|intros q' Hq; apply Hs; right; exact Hq]). injection X as ->. reflexivity.
      * split; [discriminate|]. intros [E Hs]. destruct rs as [|q rs]; [discriminate|]. cbn in E. injection E as -> E.
        assert (X : Err er = Ok rs) by (apply IH; split; [exact E|intros q' Hq; apply Hs; right; exact Hq]). discriminate.
    + split; [discriminate|]. intros [E Hs]. destruct rs as [|q rs]; [discriminate|]. cbn in E. injection E as -> E.
      rewrite (Hs q) in Sr; [discriminate|left; reflexivity].
Qed.
Lemma vsym_list vs : forallb is_vsym vs = true -> vs = map VSym (map arg_symbol vs).
Proof. induction vs as [|[n|s] vs IH]; cbn; intros H; [reflexivity|discriminate|]. rewrite <- IH by exact H. reflexivity. Qed.
Lemma vsym_all ss : forallb is_vsym (map VSym ss) = true /\ map arg_symbol (map VSym ss) = ss.
Proof. induction ss as [|s ss [I1 I2]]; cbn; [auto|]. rewrite I1, I2. auto. Qed.
Lemma in_known f (rs : list (relation F)) s :
  In s (fvars f ++ concat (map (fun r => fvars (r_fun r)) rs)) <-> In s (fvars f) \/ exists r, In r rs /\ In s (fvars (r_fun r)).
Proof.
  rewrite in_app_iff, in_concat. split; (intros [H|H]; [auto|right]).
  - destruct H as (l & Hl & Hs). apply in_map_iff in Hl. destruct Hl as (r & <- & Hr). eauto.
  - destruct H as (r & Hr & Hs). exists (fvars (r_fun r)). split; [apply in_map_iff; eauto|exact Hs].
Qed.
Theorem problem_accepted obj cs vars bnds ints sp (p : lp F) :
  mk_lp obj cs vars bnds ints sp = Ok p <->
  exists f rs ss, well_posed obj cs vars f rs ss /\ p = Lp f rs ss bnds ints sp.
Proof.
  unfold mk_lp, well_posed. split.
  - destruct vars as [vs|]; [|discriminate].
    assert (O : forall k : func F -> result (lp F), (do f <- match obj with PyFunction f => Ok f | PyRelation r => Ok (r_fun r) | PyOther => Err TypeError end ; k f) = Ok p ->
        exists f, the_function obj = Some f /\ k f = Ok p).
    { destruct obj; cbn; intros k E; [eauto|eauto|discriminate]. }
    intros E. apply O in E. clear O. destruct E as (f & Of & E).
    destruct (is_symbolic f) eqn:Sf; [|discriminate]. cbn [negb] in E.
    destruct (check_constraints cs) as [rs|] eqn:Ec; [|discriminate]. cbn [bind] in E.
    destruct (forallb is_vsym vs) eqn:Ev; [|discriminate]. cbn [negb] in E.
    destruct (forallb (fun v => mem (arg_symbol v) _) vs) eqn:Em; [|discriminate]. cbn [negb] in E. injection E as <-.
    apply check_ok in Ec. destruct Ec as [Ec Er].
    exists f, rs, (map arg_symbol vs). split; [|reflexivity]. repeat split; auto.
    + f_equal. apply vsym_list. exact Ev.
    + intros s Hs. apply in_map_iff in Hs. destruct Hs as (v & <- & Hv). rewrite forallb_forall in Em. specialize (Em v Hv).
      apply in_known. match type of Em with mem ?a ?b = true => destruct (mem_spec a b); [assumption|discriminate] end.
  - intros (f & rs & ss & (Of & Sf & Ec & Er & -> & Hk) & ->).
    assert (C : check_constraints cs = Ok rs) by (apply check_ok; auto).
    assert (O : match obj with PyFunction f => Ok f | PyRelation r => Ok (r_fun r) | PyOther => Err TypeError end = Ok f).
    { destruct obj; cbn in Of; [injection Of as ->|injection Of as ->|discriminate]; reflexivity. }
    rewrite O. cbn [bind]. rewrite Sf. cbn [negb]. rewrite C. cbn [bind]. destruct (vsym_all ss) as [V1 V2]. rewrite V1, V2. cbn [negb].
    replace (forallb _ (map VSym ss)) with true; [reflexivity|]. symmetry. apply forallb_forall. intros v Hv.
    apply in_map_iff in Hv. destruct Hv as (s & <- & Hs). cbn [arg_symbol].
    match goal with |- mem ?a ?b = true => destruct (mem_spec a b) as [|M]; [reflexivity|destruct M] end.
    apply in_known. apply Hk. exact Hs.
Qed.
Theorem problem_rejected obj cs vars bnds ints sp :
  (forall f rs ss, ~ well_posed obj cs vars f rs ss) ->
  mk_lp obj cs vars bnds ints sp = Err ValueError \/ mk_lp obj cs vars bnds ints sp = Err TypeError.
Proof.
  intros N. destruct (mk_lp obj cs vars bnds ints sp) as [p|e] eqn:E.
  - apply problem_accepted in E. destruct E as (f & rs & ss & W & _). destruct (N _ _ _ W).
  - assert (C : forall cs (e : exc), check_constraints (F := F) cs = Err e -> e = ValueError \/ e = TypeError).
    { clear. induction cs as [|c cs IH]; cbn; intros e E; [discriminate|]. destruct c; try (injection E as <-; auto).
      destruct (is_symbolic _); [|injection E as <-; auto]. destruct (check_constraints cs); [discriminate|]. injection E as <-. apply IH. reflexivity. }
    unfold mk_lp in E. destruct vars as [vs|]; [|injection E as <-; auto].
    assert (X : e = ValueError \/ e = TypeError); [|destruct X as [->| ->]; auto].
    destruct (match obj with PyFunction f => Ok f | PyRelation r => Ok (r_fun r) | PyOther => Err TypeError end) as [f|e0] eqn:Eo; cbn [bind] in E.
    + destruct (negb (is_symbolic f)); [injection E as <-; auto|].
      destruct (check_constraints cs) as [rs|e0] eqn:Ec; cbn [bind] in E; [|injection E as <-; eauto].
      destruct (negb (forallb is_vsym vs)); [injection E as <-; auto|].
      destruct (negb _); [injection E as <-; auto|discriminate].
    + destruct obj; try discriminate. injection Eo as <-. injection E as <-. auto.
Qed.

(** ** The operator of a relation *)
Lemma not_valid w : text_in w valid_operators = false -> forall o, w <> rop_text o.
Proof. intros E o ->. destruct (text_in_spec (rop_text o) valid_operators) as [_|N]; [discriminate|]. apply N, valid_rop. eauto. Qed.
Lemma valid_text o : text_in (rop_text o) valid_operators = true.
Proof. destruct o; reflexivity. Qed.
Lemma valid_inv w : text_in w valid_operators = true -> exists o, w = rop_text o.
Proof. intros E. destruct (text_in_spec w valid_operators) as [H|]; [apply valid_rop; exact H|discriminate]. Qed.
Lemma rop_text_inj o o' : rop_text o = rop_text o' -> o = o'.
Proof. intros E. pose proof (rop_of_text o) as A. rewrite E, rop_of_text in A. congruence. Qed.

(** The class chosen by [__new__] and the operator and function prepared by [__init__]. *)
Lemma new_class_op cls src op op_str o : operator_of src op op_str o ->
  exists c, new_class (F := F) cls src op op_str = Ok c /\ class_of cls o op_str c.
Proof.
  intros H. unfold new_class. destruct H as [src o os|src o os|src f os|s l o r os P|src o Hs|src os Hs Hn].
  - rewrite valid_text, rop_of_text. cbn [bind]. eexists. split; [reflexivity|]. destruct cls, o; reflexivity.
  - cbn [bind]. eexists. split; [reflexivity|]. destruct cls, o; reflexivity.
  - cbn [bind]. destruct os as [w|].
    + destruct (text_in w valid_operators) eqn:V.
      * apply valid_inv in V. destruct V as (o & ->). rewrite rop_of_text. cbn [bind]. eexists. split; [reflexivity|].
        destruct cls; [|reflexivity|reflexivity]. cbn. destruct o; [left; split; reflexivity|right; left; eexists; split; [reflexivity|split; [discriminate|reflexivity]]..].
      * eexists. split; [reflexivity|]. destruct cls; [|reflexivity|reflexivity]. cbn. right. right. split; [|reflexivity].
        intros w' o E. injection E as <-. apply not_valid. exact V.
    + eexists. split; [reflexivity|]. destruct cls; [|reflexivity|reflexivity]. cbn. right. right. split; [discriminate|reflexivity].
  - rewrite (parse_has_operator _ _ P), P. cbn [bind]. rewrite rop_of_text. cbn [bind]. eexists. split; [reflexivity|]. destruct cls, o; reflexivity.
  - cbn [bind]. assert (E : match src with
                | FromStr s =>
                    if has_operator s then
                      do (_, w, _) <- parse_expression s ; do o <- rop_of w ; Ok (OpRel (F := F) o)
                    else (if text_in (rop_text o) valid_operators then do o <- rop_of (rop_text o) ; Ok (OpRel o) else Ok (OpRel Req))
                | _ => if text_in (rop_text o) valid_operators then do o <- rop_of (rop_text o) ; Ok (OpRel o) else Ok (OpRel Req)
                end = Ok (OpRel o)).
    { rewrite valid_text, rop_of_text. destruct src; [cbn [source_has_op] in Hs; rewrite Hs|..]; reflexivity. }
    rewrite E. cbn [bind]. eexists. split; [reflexivity|]. destruct cls, o; reflexivity.
  - cbn [bind]. assert (E : match src with
                | FromStr s =>
                    if has_operator s then
                      do (_, w, _) <- parse_expression s ; do o <- rop_of w ; Ok (OpRel (F := F) o)
                    else match os with
                         | Some w => if text_in w valid_operators then do o <- rop_of w ; Ok (OpRel o) else Ok (OpRel Req)
                         | None => Ok (OpRel Req)
                         end
                | _ => match os with
                       | Some w => if text_in w valid_operators then do o <- rop_of w ; Ok (OpRel o) else Ok (OpRel Req)
                       | None => Ok (OpRel Req)
                       end
                end = Ok (OpRel Req)).
    { assert (E : match os with
                         | Some w => if text_in w valid_operators then do o <- rop_of w ; Ok (OpRel (F := F) o) else Ok (OpRel Req)
                         | None => Ok (OpRel Req)
                         end = Ok (OpRel Req)).
      { destruct os as [w|]; [|reflexivity]. destruct (text_in w valid_operators) eqn:V; [|reflexivity].
        apply valid_inv in V. destruct V as (o & ->). destruct (Hn _ o eq_refl eq_refl). }
      rewrite E. destruct src; [cbn [source_has_op] in Hs; rewrite Hs|..]; reflexivity. }
    rewrite E. cbn [bind]. eexists. split; [reflexivity|]. destruct cls; reflexivity.
Qed.

Theorem relation_accepted S parse cls src vars op op_str o : operator_of src op op_str o ->
  (forall fn src', function_source src op = Ok src' -> mk_func S parse src' vars = Ok fn -> class_allows cls o ->
     exists r, mk_relation (F := F) S parse cls src vars op op_str = Ok r /\
       r_fun r = fn /\ r_op r = o /\ compares op o (r_opfunc r) /\ class_of cls o op_str (r_class r)) /\
  (forall src' (e : exc), function_source src op = Ok src' -> mk_func S parse src' vars = Err e ->
     mk_relation S parse cls src vars op op_str = Err e) /\
  (forall fn src', function_source src op = Ok src' -> mk_func S parse src' vars = Ok fn -> ~ class_allows cls o ->
     mk_relation S parse cls src vars op op_str = Err AssertionError).
Proof.
  intros H. destruct (new_class_op cls src op op_str o H) as (c & NC & Cl). unfold mk_relation. rewrite NC. cbn [bind]. clear NC.
  set (X := match op with Some (OpStr w) => _ | _ => _ end).
  assert (E : exists f : F -> F -> bool, compares op o f /\ forall src', function_source src op = Ok src' -> X = Ok (o, f, src')).
  { assert (Co : forall q, forall a b : F, opfunc_of q a b = true <-> rel_holds q a b) by (intros; apply opfunc_holds).
    subst X. destruct H as [src o os|src o os|src f os|s l o r os P|src o Hs|src os Hs Hn].
    - exists (opfunc_of o). split; [exact (Co _)|]. intros src' Es. assert (src' = src) by (cbn in Es; congruence). subst src'. rewrite valid_text, rop_of_text. reflexivity.
    - exists (opfunc_of o). split; [exact (Co _)|]. intros src' Es. assert (src' = src) by (cbn in Es; congruence). subst src'. reflexivity.
    - exists f. split; [reflexivity|]. intros src' Es. assert (src' = src) by (cbn in Es; congruence). subst src'. reflexivity.
    - exists (opfunc_of o). split; [exact (Co _)|]. cbn [function_source]. rewrite (parse_has_operator _ _ P), P. cbn [bind].
      intros src' Es. assert (Es' : src' = FromStr (l ++ tx " - (" ++ r ++ tx ")")) by congruence. subst src'. rewrite rop_of_text. reflexivity.
    - exists (opfunc_of o). split; [exact (Co _)|]. rewrite valid_text, rop_of_text.
      destruct src as [s|e|g h]; cbn [function_source]; cbn [source_has_op] in Hs; [rewrite Hs|..]; cbn [bind]; intros src' Es; injection Es as <-; reflexivity.
    - exists (opfunc_of Req). split; [exact (Co _)|].
      assert (E : forall src, match os with
                 | Some w => if text_in w valid_operators then do o <- rop_of w ; Ok (Some o, opfunc_of (F := F) o, src) else Ok (Some Req, opfunc_of Req, src)
                 | None => Ok (Some Req, opfunc_of Req, src)
                 end = Ok (Some Req, opfunc_of Req, src : source F)).
      { intros sr. destruct os as [w|]; [|reflexivity]. destruct (text_in w valid_operators) eqn:V; [|reflexivity].
        apply valid_inv in V. destruct V as (o & ->). destruct (Hn _ o eq_refl eq_refl). }
      rewrite E. destruct src as [s|e|g h]; cbn [function_source]; cbn [source_has_op] in Hs; [rewrite Hs|..]; intros src' Es; injection Es as <-; reflexivity. }
  destruct E as (f & Cf & E). repeat split.
  - intros fn src' Es M A. rewrite (E src' Es). cbn [bind]. rewrite M. cbn [bind].
    exists (Relation fn c o f). split; [|cbn; auto].
    destruct cls; cbn in Cl, A.
    + destruct o as [[]|]; subst; try reflexivity. destruct Cl as [[_ ->]|[(q & _ & _ & ->)|[_ ->]]]; reflexivity.
    + subst c. destruct o as [[]|]; try discriminate; reflexivity.
    + subst c. destruct o as [[]|]; try congruence; reflexivity.
  - intros src' e Es M. rewrite (E src' Es). cbn [bind]. rewrite M. reflexivity.
  - intros fn src' Es M A. rewrite (E src' Es). cbn [bind]. rewrite M. cbn [bind].
    destruct cls; cbn in Cl, A.
    + tauto.
    + subst c. destruct o as [[]|]; try tauto; try reflexivity.
    + subst c. destruct o as [[]|]; try reflexivity; destruct A; try discriminate. exact Logic.I.
Qed.

Lemma parse_operator s l w r : parse_expression s = Ok (l, w, r) -> exists o, w = rop_text o.
Proof.
  unfold parse_expression. destruct (pattern_matches s) as [|[[g1 op] g3] l0]; [discriminate|].
  destruct (existsb _ valid_operators); [discriminate|]. destruct (text_in op valid_operators) eqn:V; [|discriminate].
  cbn [negb]. intros E. injection E as _ <- _. apply valid_inv. exact V.
Qed.
Lemma parse_error s (e : exc) : parse_expression s = Err e -> e = ValueError.
Proof.
  unfold parse_expression. destruct (pattern_matches s) as [|[[g1 op] g3] l0]; [congruence|].
  destruct (existsb _ valid_operators); [congruence|]. destruct (negb _); congruence.
Qed.
(** Everything else is rejected: an unknown operator, or a string that can not be split. *)
Theorem relation_rejected S parse cls src vars op op_str :
  (forall o, ~ operator_of src op op_str o) ->
  mk_relation (F := F) S parse cls src vars op op_str = Err ValueError.
Proof.
  intros N. unfold mk_relation, new_class. destruct op as [[w|o|f]|].
  - destruct (text_in w valid_operators) eqn:V; [|reflexivity]. apply valid_inv in V. destruct V as (o & ->). destruct (N (Some o)). constructor.
  - destruct (N (Some o)). constructor.
  - destruct (N None). constructor.
  - cbn [bind]. destruct (source_has_op src) eqn:Hs.
    + destruct src as [s|e|g h]; try discriminate. cbn [source_has_op] in Hs. rewrite Hs.
      destruct (parse_expression s) as [[[l w] r]|e] eqn:P; cbn [bind].
      * destruct (parse_operator s l w r P) as (o & ->). destruct (N (Some o)). apply (op_inside s l o r). exact P.
      * rewrite (parse_error s e P). reflexivity.
    + exfalso. destruct op_str as [w|].
      * destruct (text_in w valid_operators) eqn:V.
        -- apply valid_inv in V. destruct V as (o & ->). apply (N (Some o)). constructor. exact Hs.
        -- apply (N (Some Req)). constructor; [exact Hs|]. intros w' o E. injection E as <-. apply not_valid. exact V.
      * apply (N (Some Req)). constructor; [exact Hs|]. discriminate.
Qed.

End Coeff.
