(** Proofs about building and calling functions (C84), [is_linear] (C85), generated
    symbols (C86) and coefficients (C81). *)
From Coq Require Import Ascii String Field.
From Verif Require Import Prelude OField FuncModel RelModel LpModel FuncSpec CoeffSpec FuncCallModel FuncCallSpec FuncProofs RelProofs RelBuildProofs LpProofs FuncCounter CoeffProofs.

Section P.
Context {F : ofield}.
Add Field FF : (of_field F).
Implicit Types e : expr F.

Lemma env_point ss xs (env : symbol -> F) s : point_of ss xs env -> length xs = length ss -> In s ss ->
  env_of ss xs s = env s.
Proof.
  revert xs. induction ss as [|z ss IH]; intros [|x xs] P L Hs; try (destruct Hs; fail); try discriminate.
  cbn. destruct (sym_eqb_spec s z) as [->|N].
  - symmetry. apply (P 0 z x z); try reflexivity. left. reflexivity.
  - apply IH; [|auto|destruct Hs; congruence]. intros j s' x' t E1 E2. apply (P (S j)); assumption.
Qed.
Lemma env_point_self ss xs : NoDup ss -> length xs = length ss ->
  forall j s x, nth_error ss j = Some s -> nth_error xs j = Some x -> env_of ss xs s = (x : F).
Proof.
  revert xs. induction ss as [|z ss IH]; intros [|y xs] N L [|j] s x E1 E2; try discriminate.
  - cbn in *. injection E1 as ->. injection E2 as ->. rewrite sym_eqb_refl. reflexivity.
  - cbn in *. inversion N as [|? ? N1 N2]. subst. destruct (sym_eqb_spec s z) as [->|_].
    + apply nth_error_In in E1. tauto.
    + apply (IH xs N2 ltac:(lia) j); assumption.
Qed.

(** A symbol renamed to the variable it means keeps its value. *)
Lemma substituted_point I ss (env : symbol -> F) t : (forall s, In s ss -> env (plain (fst s)) = env s) ->
  substituted I (map (fun s => (plain (fst s), ESym s)) ss) env t = env t.
Proof.
  induction ss as [|z ss IH]; cbn; intros H; [reflexivity|].
  destruct (sym_eqb_spec t (plain (fst z))) as [->|_]; [symmetry; auto|auto].
Qed.
Lemma eval_subs_point I ss (env : symbol -> F) e : (forall s, In s ss -> env (plain (fst s)) = env s) ->
  eval I env (subs (map (fun s => (plain (fst s), ESym s)) ss) e) = eval I env e.
Proof.
  revert e. induction ss as [|z ss IH]; intros e H; [reflexivity|].
  change (subs (map (fun s => (plain (fst s), ESym s)) (z :: ss)) e) with
    (subs (map (fun s => (plain (fst s), ESym s)) ss) (subst1 (plain (fst z)) (ESym z) e)).
  rewrite IH by (intros s Hs; apply H; right; exact Hs). rewrite eval_subst1. apply eval_ext. intros s _.
  destruct (sym_eqb_spec s (plain (fst z))) as [->|_]; [|reflexivity]. cbn. symmetry. apply H. left. reflexivity.
Qed.
Lemma point_names ss xs (env : symbol -> F) : point_of ss xs env -> length xs = length ss ->
  forall s, In s ss -> env (plain (fst s)) = env s.
Proof.
  intros P L s Hs. apply In_nth_error in Hs. destruct Hs as (j & Ej).
  assert (Hj : j < length xs) by (rewrite L; apply nth_error_Some; congruence).
  destruct (nth_error xs j) as [x|] eqn:Ex; [|apply nth_error_None in Ex; lia].
  rewrite (P j s x s Ej Ex) by (left; reflexivity). apply (P j s x _ Ej Ex). right. reflexivity.
Qed.

Lemma resolve_mixed vs : (exists n, In (VStr n) vs) -> (exists s, In (VSym s) vs) -> resolve vs = Err TypeError.
Proof.
  intros (n & Hn) (s & Hs). unfold resolve.
  destruct (forallb is_vsym vs) eqn:E; [rewrite forallb_forall in E; specialize (E _ Hn); discriminate|].
  replace (existsb is_vsym vs) with true; [reflexivity|]. symmetry. apply existsb_exists. exists (VSym s). auto.
Qed.
Lemma resolve_ok vs : ~ ((exists n, In (VStr n) vs) /\ exists s, In (VSym s) vs) -> resolve vs = Ok (map arg_symbol vs).
Proof.
  intros H. unfold resolve. destruct (forallb is_vsym vs) eqn:E; [reflexivity|].
  destruct (existsb is_vsym vs) eqn:X; [|reflexivity]. exfalso. apply H. split.
  - assert (G : exists v, In v vs /\ is_vsym v = false).
    { clear - E. induction vs as [|v vs IH]; [discriminate|]. cbn in E. destruct (is_vsym v) eqn:V.
      - destruct (IH E) as (w & Hw & Ew). exists w. cbn. auto.
      - exists v. cbn. auto. }
    destruct G as ([n|s] & Hv & Ev); [eauto|discriminate].
  - apply existsb_exists in X. destruct X as ([n|s] & Hv & Ev); [discriminate|eauto].
Qed.

(** C84 *)
Theorem function_built (S : sympy F) I (H : sympy_ok S I) parse src vars e : source_expr parse src = Some e ->
  (mixed vars -> mk_func S parse src vars = Err TypeError) /\
  (~ mixed vars -> exists f, mk_func S parse src vars = Ok f /\ is_symbolic f = true /\ gets_variables e vars (fvars f)).
Proof.
  intros E.
  assert (G : exists b, mk_func S parse src vars = mk_symbolic S b e vars).
  { destruct src as [s|e'|f0 h]; cbn in *; [rewrite E; eauto|injection E as ->; eauto|discriminate]. }
  destruct G as (b & ->). unfold mk_symbolic, symbolize, decode. split.
  - intros (vs & -> & Hn & Hs). destruct vs as [|v vs]; [destruct Hn as (n & [])|].
    rewrite (resolve_mixed _ Hn Hs). reflexivity.
  - intros M. destruct vars as [[|v vs]|].
    + eexists. split; [reflexivity|]. split; [reflexivity|]. cbn. split; [apply (fsyms_nodup S I H)|apply (fsyms_in S I H)].
    + rewrite resolve_ok by (intros [Hn Hs]; apply M; exists (v :: vs); auto). cbn [bind].
      eexists. split; [reflexivity|]. split; reflexivity.
    + eexists. split; [reflexivity|]. split; [reflexivity|]. cbn. split; [apply (fsyms_nodup S I H)|apply (fsyms_in S I H)].
Qed.
Theorem numeric_built (S : sympy F) I parse f0 h vars xs :
  exists f, mk_func S parse (FromFun f0 h) vars = Ok f /\ is_symbolic f = false /\ call I f xs = Ok (f0 xs).
Proof. eexists. split; [reflexivity|]. split; reflexivity. Qed.

Lemma built_inv (S : sympy F) parse src vars e f : source_expr parse src = Some e -> mk_func S parse src vars = Ok f ->
  exists b e' ss, f = Symbolic (simp S e') ss b /\
    ((e' = e /\ ss = fsyms S e /\ (vars = None \/ vars = Some [])) \/
     (e' = subs (map (fun s => (plain (fst s), ESym s)) ss) e)).
Proof.
  intros E M.
  assert (G : exists b, mk_symbolic S b e vars = Ok f).
  { destruct src as [s|e'|f0 h]; cbn in *; [rewrite E in M; eauto|injection E as ->; eauto|discriminate]. }
  destruct G as (b & G). unfold mk_symbolic, symbolize, decode in G.
  destruct vars as [[|v vs]|]; [| |].
  - injection G as <-. exists b, e, (fsyms S e). split; [reflexivity|]. left. auto.
  - destruct (resolve (v :: vs)) as [ss|]; [|discriminate]. cbn [bind] in G. injection G as <-.
    exists b, (subs (map (fun s => (plain (fst s), ESym s)) ss) e), ss. auto.
  - injection G as <-. exists b, e, (fsyms S e). split; [reflexivity|]. left. auto.
Qed.

Theorem function_called (S : sympy F) I (H : sympy_ok S I) parse src vars e f xs :
  source_expr parse src = Some e -> mk_func S parse src vars = Ok f ->
  (length xs <> length (fvars f) -> call I f xs = Err ValueError) /\
  (length xs = length (fvars f) ->
     (forall t, In t (free e) -> exists s, In s (fvars f) /\ means t s) ->
     forall env, point_of (fvars f) xs env -> call I f xs = Ok (eval I env e)) /\
  (length xs = length (fvars f) ->
     call I f xs = Err NameError \/ exists v, call I f xs = Ok v /\ forall env, point_of (fvars f) xs env -> v = eval I env e).
Proof.
  intros Es M. destruct (built_inv _ _ _ _ _ _ Es M) as (b & e' & ss & -> & D). cbn [fvars].
  assert (V : forall env, length xs = length ss -> point_of ss xs env -> eval I env e' = eval I env e).
  { intros env L P. destruct D as [(-> & _)| ->]; [reflexivity|]. apply eval_subs_point, (point_names _ _ _ P L). }
  assert (U : forall env, length xs = length ss -> point_of ss xs env -> (forall s, In s (free (simp S e')) -> In s ss) ->
     eval I (env_of ss xs) (simp S e') = eval I env e).
  { intros env L P Fr. rewrite <- (V env L P). rewrite <- (simp_eval S I H env e'). apply eval_ext. intros s Hs.
    apply env_point; auto. }
  split; [|split].
  - intros L. cbn. destruct (Nat.eqb_spec (length xs) (length ss)); [contradiction|reflexivity].
  - intros L Kn env P. assert (Fr : forall s, In s (free (simp S e')) -> In s ss).
    { intros s Hs. apply (simp_free S I H) in Hs. destruct D as [(-> & -> & _)| ->].
      - apply (fsyms_in S I H). exact Hs.
      - apply free_subs_self in Hs. destruct Hs as [Hs|[Hs N]]; [exact Hs|].
        destruct (Kn s Hs) as (q & Hq & [->| ->]); [exact Hq|]. exfalso. apply N. unfold by_name.
        apply in_map_iff. exists q. auto. }
    rewrite (call_ok I _ xs (simp S e') ss b eq_refl L Fr), (U env L P Fr). reflexivity.
  - intros L. destruct (call I (Symbolic (simp S e') ss b) xs) as [v|x] eqn:C.
    + right. exists v. split; [reflexivity|]. intros env P. apply call_inv in C. destruct C as (_ & Fr & ->). apply U; auto.
    + left. cbn in C. rewrite L, Nat.eqb_refl in C. cbn [negb] in C.
      destruct (forallb (fun s => mem s ss) (free (simp S e'))); [discriminate|]. cbn in C. congruence.
Qed.
(** Such points exist when the names differ. *)
Lemma point_exists ss (xs : list F) : NoDup (map fst ss) -> length xs = length ss -> exists env, point_of ss xs env.
Proof.
  intros N L. exists (fun t => env_of (by_name ss) xs (plain (fst t))). intros j s x t E1 E2 M.
  assert (plain (fst t) = plain (fst s)) as -> by (destruct M as [->| ->]; reflexivity).
  apply (env_point_self (by_name ss) xs) with (j := j).
  - unfold by_name. rewrite <- (map_map fst plain). apply FinFun.Injective_map_NoDup; [|exact N].
    intros a b' X. unfold plain in X. congruence.
  - unfold by_name. rewrite map_length. exact L.
  - exact (map_nth_error (fun s => plain (fst s)) j ss E1).
  - exact E2.
Qed.

(** C81 *)
Theorem linear_filter (S : sympy F) f normalize :
  (is_symbolic f = false -> linear_coefficients S f normalize = Err TypeError) /\
  (forall d, coefficients S f normalize = Ok d ->
     (d = [] -> linear_coefficients S f normalize = Ok None) /\
     (d <> [] -> exists l, linear_coefficients S f normalize = Ok (Some l) /\
        forall k v, In (k, v) l <-> In (k, v) d /\ forall s t, In s (free k) -> In t (free k) -> s = t)).
Proof.
  split.
  - destruct f; [discriminate|]. intros _. reflexivity.
  - intros d E. unfold linear_coefficients. rewrite E. cbn [bind]. split; [intros ->; reflexivity|].
    intros N. destruct d as [|kv d]; [congruence|]. eexists. split; [reflexivity|].
    intros k v. rewrite filter_In. cbn [fst].
    assert (G : forall l : list symbol, length (distinct l) <=? 1 = true <-> forall s t, In s l -> In t l -> s = t).
    { intros l.
      assert (D1 : forall s, In s (distinct l) <-> In s l).
      { induction l as [|x l IH]; [tauto|]. intros s. cbn. destruct (mem_spec x l) as [M|M].
        - rewrite IH. cbn. split; [auto|]. intros [<-|X]; auto.
        - cbn. rewrite IH. tauto. }
      assert (D2 : NoDup (distinct l)).
      { clear D1. assert (D1 : forall l s, In s (distinct l) -> In s l).
        { induction l0 as [|x l0 IH]; [tauto|]. intros s. cbn. destruct (mem x l0); cbn; [auto|].
          intros [->|X]; auto. }
        induction l as [|x l IH]; cbn; [constructor|]. destruct (mem_spec x l) as [M|M]; [exact IH|].
        constructor; [|exact IH]. intros X. apply M, D1, X. }
      rewrite Nat.leb_le. split.
      - intros L s t Hs Ht. apply D1 in Hs, Ht. destruct (distinct l) as [|a [|b q]]; [destruct Hs| |cbn in L; lia].
        destruct Hs as [<-|[]], Ht as [<-|[]]. reflexivity.
      - intros U. destruct (distinct l) as [|a [|b q]]; cbn; try lia. exfalso.
        assert (a = b) by (apply U; apply D1; cbn; auto). subst. inversion D2 as [|? ? X _]. apply X. left. reflexivity. }
    rewrite G. reflexivity.
Qed.

Theorem sym_reproduce (S : sympy F) I e vars :
  let d := sym_coefficients S e vars false in
  NoDup (map fst d) /\
  (forall x, In x (match vars with None => fsyms S e | Some vs => vs end) -> In (ESym x) (map fst d)) /\
  (forall env, dict_value I env d = eval I env e) /\
  (constant_keys d <= 1 -> forall env, dict_value I env (sym_coefficients S e vars true) = eval I env e).
Proof.
  set (S0 := Sympy (fun e => e) (fsyms S) : sympy F).
  set (vs := match vars with None => fsyms S e | Some vs => vs end).
  assert (E : sym_coefficients S e vars false = raw_dict S0 e vs) by reflexivity.
  assert (V : forall env, dict_value I env (raw_dict S0 e vs) = eval I env e).
  { intros env. unfold raw_dict. rewrite update_value.
    - rewrite init_value by reflexivity. rewrite num_dict. unfold dict_value. cbn. ring.
    - apply (coefficients_dict (simp S0 e) (ENum zero)).
    - intros k _. apply init_old. reflexivity. }
  cbn zeta. rewrite E. split; [apply raw_keys|]. split; [|split; [exact V|]].
  - intros x Hx. destruct (raw_var S0 e vs x Hx) as (v & Hv). apply dget_in in Hv. exact Hv.
  - intros C env.
    change (sym_coefficients S e vars true) with (fold_left nstep (raw_dict S0 e vs) []).
    rewrite nstep_value; [|apply raw_keys|exact C|reflexivity|reflexivity]. rewrite V. unfold dict_value. cbn. ring.
Qed.

(** C85 *)
Lemma is_linear_fold (deg : expr F -> symbol -> result (option nat)) e vars r :
  fold_left (fun acc v => do b <- acc ; do d <- deg e v ;
        match d with None => Err TypeError | Some d => Ok (b && (d <=? 1)) end) vars r = Ok true ->
  r = Ok true /\ forall v, In v vars -> exists d, deg e v = Ok (Some d) /\ d <= 1.
Proof.
  revert r. induction vars as [|v vars IH]; cbn; intros r H; [tauto|].
  apply IH in H. destruct H as [H1 H2]. destruct r as [b|]; [|discriminate]. cbn in H1.
  destruct (deg e v) as [[d|]|] eqn:D; try discriminate. cbn in H1. injection H1 as H1. apply andb_true_iff in H1.
  destruct H1 as [-> H1]. apply Nat.leb_le in H1. split; [reflexivity|]. intros w [<-|Hw]; eauto.
Qed.
Theorem linear_in_each I deg (f : func F) : degree_ok I deg -> is_symbolic f = true -> is_linear deg f = Ok true ->
  forall v, In v (fvars f) -> affine_in I (expr_of f) v.
Proof.
  intros H S E v Hv. destruct f as [e vars b|]; [|discriminate]. cbn in *.
  apply is_linear_fold in E. destruct E as [_ E]. destruct (E v Hv) as (d & Ed & Ld). exact (H _ _ _ Ed Ld).
Qed.
Theorem not_linear deg (f : func F) v d : is_symbolic f = true -> In v (fvars f) -> deg (expr_of f) v = Ok (Some d) -> 1 < d ->
  is_linear deg f <> Ok true.
Proof.
  intros S Hv Ed Ld E. destruct f as [e vars b|]; [|discriminate]. cbn in *.
  apply is_linear_fold in E. destruct E as [_ E]. destruct (E v Hv) as (d' & Ed' & Ld').
  rewrite Ed in Ed'. injection Ed' as <-. lia.
Qed.

(** A degree function: sums and products of symbols and constants. *)
Fixpoint deg0 (v : symbol) e : nat :=
  match e with
  | ENum _ | EConst _ => 0
  | ESym s => if sym_eqb s v then 1 else 0
  | EAdd a b => Nat.max (deg0 v a) (deg0 v b)
  | EMul a b => deg0 v a + deg0 v b
  | EPow a b => if deg0 v a + deg0 v b =? 0 then 0 else 2
  | EApp _ a => if deg0 v a =? 0 then 0 else 2
  end.
Definition degree0 e (v : symbol) : result (option nat) := Ok (Some (deg0 v e)).
Lemma deg0_const I v e env env' : deg0 v e = 0 -> (forall s, s <> v -> env' s = env s) -> eval I env' e = eval I env e.
Proof.
  intros D H. induction e as [c|k|s|a IHa b IHb|a IHa b IHb|a IHa b IHb|f a IHa]; cbn in *; auto.
  - destruct (sym_eqb_spec s v); [discriminate|auto].
  - rewrite IHa, IHb by lia. reflexivity.
  - rewrite IHa, IHb by lia. reflexivity.
  - destruct (Nat.eqb_spec (deg0 v a + deg0 v b) 0); [|discriminate]. rewrite IHa, IHb by lia. reflexivity.
  - destruct (Nat.eqb_spec (deg0 v a) 0); [|discriminate]. rewrite IHa by lia. reflexivity.
Qed.
Lemma degree0_ok I : degree_ok I degree0.
Proof.
  intros e v d E L. injection E as E. rewrite <- E in L. clear E d. intros env.
  assert (C : forall e, deg0 v e = 0 -> exists a b : F, forall env', (forall s, s <> v -> env' s = env s) -> eval I env' e = add (mul a (env' v)) b).
  { intros e' D. exists zero, (eval I env e'). intros env' H. rewrite (deg0_const I v e' env env' D H). ring. }
  induction e as [c|k|s|a IHa b IHb|a IHa b IHb|a IHa b IHb|f a IHa]; cbn in L.
  - apply C. reflexivity.
  - apply C. reflexivity.
  - destruct (sym_eqb_spec s v) as [->|N].
    + exists one, zero. intros env' _. cbn. ring.
    + apply C. cbn. destruct (sym_eqb_spec s v); [contradiction|reflexivity].
  - destruct IHa as (a1 & b1 & H1); [lia|]. destruct IHb as (a2 & b2 & H2); [lia|].
    exists (add a1 a2), (add b1 b2). intros env' H. cbn. rewrite H1, H2 by exact H. ring.
  - assert (D : deg0 v a = 0 \/ deg0 v b = 0) by lia. destruct D as [D|D].
    + destruct IHb as (a2 & b2 & H2); [lia|]. exists (mul (eval I env a) a2), (mul (eval I env a) b2).
      intros env' H. cbn. rewrite H2 by exact H. rewrite (deg0_const I v a env env' D H). ring.
    + destruct IHa as (a1 & b1 & H1); [lia|]. exists (mul a1 (eval I env b)), (mul b1 (eval I env b)).
      intros env' H. cbn. rewrite H1 by exact H. rewrite (deg0_const I v b env env' D H). ring.
  - apply C. cbn. destruct (deg0 v a + deg0 v b =? 0); [reflexivity|lia].
  - apply C. cbn. destruct (deg0 v a =? 0); [reflexivity|lia].
Qed.
Theorem product_linear I : is_linear degree0 (fun_of (EMul (ESym vx) (ESym vy)) [vx; vy]) = Ok true /\
  ~ affine I (EMul (ESym vx) (ESym vy) : expr F).
Proof.
  split; [reflexivity|]. intros (a & l & b & H).
  (** an affine function satisfies the parallelogram identity *)
  set (env := fun (u v : F) (s : symbol) => if sym_eqb s vx then u else if sym_eqb s vy then v else zero).
  assert (P : forall l, add (suml (map (fun s => mul (a s) (env one one s)) l)) (suml (map (fun s => mul (a s) (env zero zero s)) l))
     = add (suml (map (fun s => mul (a s) (env one zero s)) l)) (suml (map (fun s => mul (a s) (env zero one s)) l))).
  { induction l0 as [|s l0 IH]; cbn [map suml]; [reflexivity|].
    assert (Q : add (mul (a s) (env one one s)) (mul (a s) (env zero zero s)) = add (mul (a s) (env one zero s)) (mul (a s) (env zero one s))).
    { unfold env. destruct (sym_eqb s vx), (sym_eqb s vy); ring. }
    transitivity (add (add (mul (a s) (env one one s)) (mul (a s) (env zero zero s)))
       (add (suml (map (fun s => mul (a s) (env one one s)) l0)) (suml (map (fun s => mul (a s) (env zero zero s)) l0)))); [ring|].
    rewrite Q, IH. ring. }
  specialize (P l). pose proof (H (env one one)) as H1. pose proof (H (env zero zero)) as H2.
  pose proof (H (env one zero)) as H3. pose proof (H (env zero one)) as H4. cbn in H1, H2, H3, H4.
  apply (one_nz F).
  transitivity (sub (add (mul one one) (mul zero zero)) (add (mul one zero) (mul zero one) : F)); [ring|].
  rewrite H1, H2, H3, H4.
  match goal with |- sub (add (add ?p _) (add ?q _)) (add (add ?r _) (add ?s _)) = _ =>
    transitivity (sub (add p q) (add r s)); [ring|] end.
  rewrite P. ring.
Qed.

End P.

(** C86 *)
Lemma words_name w n s : (forall c, In c n -> is_space c = false) -> words w (n ++ s) = words (w ++ n) s.
Proof.
  revert w. induction n as [|c n IH]; intros w H; cbn; [rewrite app_nil_r; reflexivity|].
  rewrite (H c) by (left; reflexivity). rewrite IH by (intros d Hd; apply H; right; exact Hd).
  rewrite <- app_assoc. reflexivity.
Qed.
Lemma words_joined ns : Forall good_name ns -> words [] (joined ns) = ns.
Proof.
  induction ns as [|n ns IH]; intros H; [reflexivity|]. inversion H as [|? ? [N1 N2] H2]. subst.
  destruct ns as [|m ns].
  - cbn [joined]. rewrite <- (app_nil_r n). rewrite words_name by exact N2. cbn. rewrite app_nil_r. destruct n; [congruence|reflexivity].
  - cbn [joined]. rewrite words_name by exact N2. cbn [app tx list_ascii_of_string words].
    change (is_space " "%char) with true. cbn iota. destruct n; [congruence|]. f_equal. apply IH. exact H2.
Qed.
Theorem symbols_generated k ns : Forall good_name ns -> 2 <= length ns ->
  generate_symbols k ns = Ok (map (fun n => (n, k)) ns).
Proof.
  intros G L. unfold generate_symbols, sy_symbols. rewrite words_joined by exact G.
  destruct ns as [|n [|m ns]]; cbn in L; try lia. reflexivity.
Qed.
Theorem symbol_single k n : good_name n -> generate_symbols k [n] = Err TypeError.
Proof.
  intros G. unfold generate_symbols, sy_symbols. rewrite words_joined by (constructor; [exact G|constructor]). reflexivity.
Qed.
Theorem symbol_none k : generate_symbols k [] = Err ValueError.
Proof. reflexivity. Qed.
