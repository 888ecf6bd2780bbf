(** Proofs about symbolic functions (C52 and the lemmas used for C48-C51). *)
From Coq Require Import Ascii String Field.
From Verif Require Import Prelude OField FuncModel RelModel LpModel FuncSpec.

Lemma text_eqb_spec a b : reflect (a = b) (text_eqb a b).
Proof.
  revert b. induction a as [|c a IH]; intros [|d b]; cbn; try (constructor; congruence).
  destruct (Ascii.eqb_spec c d) as [->|N]; cbn; [|constructor; congruence].
  destruct (IH b) as [->|N]; constructor; congruence.
Qed.
Lemma text_eqb_refl a : text_eqb a a = true.
Proof. destruct (text_eqb_spec a a); congruence. Qed.

Lemma sym_eqb_spec a b : reflect (a = b) (sym_eqb a b).
Proof.
  destruct a as [n i], b as [m j]. unfold sym_eqb. cbn.
  destruct (text_eqb_spec n m) as [->|N]; cbn; [|constructor; congruence].
  destruct (Nat.eqb_spec i j) as [->|N]; constructor; congruence.
Qed.
Lemma sym_eqb_refl a : sym_eqb a a = true.
Proof. destruct (sym_eqb_spec a a); congruence. Qed.
Lemma sym_eqb_sym a b : sym_eqb a b = sym_eqb b a.
Proof. destruct (sym_eqb_spec a b), (sym_eqb_spec b a); congruence. Qed.

Lemma mem_spec s l : reflect (In s l) (mem s l).
Proof.
  unfold mem. destruct (existsb (sym_eqb s) l) eqn:E; constructor.
  - apply existsb_exists in E. destruct E as (t & H & E). destruct (sym_eqb_spec s t); congruence.
  - intros H. assert (X : existsb (sym_eqb s) l = true); [|congruence].
    apply existsb_exists. exists s. split; [exact H|apply sym_eqb_refl].
Qed.

Lemma text_in_spec w l : reflect (In w l) (text_in w l).
Proof.
  unfold text_in. destruct (existsb (text_eqb w) l) eqn:E; constructor.
  - apply existsb_exists in E. destruct E as (t & H & E). destruct (text_eqb_spec w t); congruence.
  - intros H. assert (X : existsb (text_eqb w) l = true); [|congruence].
    apply existsb_exists. exists w. split; [exact H|apply text_eqb_refl].
Qed.

Section Proofs.
Context {F : ofield}.
Implicit Types e : expr F.

Lemma expr_eqb_spec e e' : reflect (e = e') (expr_eqb e e').
Proof.
  revert e'. induction e as [c|k|s|a IHa b IHb|a IHa b IHb|a IHa b IHb|f a IHa];
    intros [c'|k'|s'|a' b'|a' b'|a' b'|f' a']; cbn; try (constructor; congruence).
  - destruct (eqb_spec F c c'); constructor; congruence.
  - destruct (text_eqb_spec k k'); constructor; congruence.
  - destruct (sym_eqb_spec s s'); constructor; congruence.
  - destruct (IHa a'); cbn; [|constructor; congruence]. destruct (IHb b'); constructor; congruence.
  - destruct (IHa a'); cbn; [|constructor; congruence]. destruct (IHb b'); constructor; congruence.
  - destruct (IHa a'); cbn; [|constructor; congruence]. destruct (IHb b'); constructor; congruence.
  - destruct (text_eqb_spec f f'); cbn; [|constructor; congruence]. destruct (IHa a'); constructor; congruence.
Qed.
Lemma expr_eqb_refl e : expr_eqb e e = true.
Proof. destruct (expr_eqb_spec e e); congruence. Qed.

Lemma eval_ext I env env' e : (forall s, In s (free e) -> env s = env' s) -> eval I env e = eval I env' e.
Proof.
  induction e as [c|k|s|a IHa b IHb|a IHa b IHb|a IHa b IHb|f a IHa]; cbn; intros H; auto;
    try (rewrite IHa, IHb by (intros; apply H, in_or_app; auto); reflexivity).
  rewrite IHa by auto. reflexivity.
Qed.

Lemma eval_subst1 I env s v e :
  eval I env (subst1 s v e) = eval I (fun t => if sym_eqb t s then eval I env v else env t) e.
Proof.
  induction e as [c|k|t|a IHa b IHb|a IHa b IHb|a IHa b IHb|f a IHa]; cbn; auto;
    try (rewrite IHa, IHb; reflexivity).
  - destruct (sym_eqb t s); reflexivity.
  - rewrite IHa. reflexivity.
Qed.

Lemma free_subst1 s v e t : In t (free (subst1 s v e)) ->
  (In t (free v) /\ In s (free e)) \/ (In t (free e) /\ t <> s).
Proof.
  induction e as [c|k|u|a IHa b IHb|a IHa b IHb|a IHa b IHb|f a IHa]; cbn; try tauto;
    try (rewrite !in_app_iff; intros [H|H]; [apply IHa in H|apply IHb in H]; tauto).
  destruct (sym_eqb_spec u s) as [->|N]; cbn; [tauto|intros [->|[]]; right; auto].
Qed.

Lemma substituted_other I (ps : list (symbol * expr F)) env s : ~ In s (map fst ps) -> substituted I ps env s = env s.
Proof.
  induction ps as [|[x v] ps IH]; cbn; intros H; [reflexivity|].
  destruct (sym_eqb_spec s x) as [->|N]; [tauto|]. apply IH. tauto.
Qed.

Lemma eval_subs I (ps : list (symbol * expr F)) env e : later_free ps -> eval I env (subs ps e) = eval I (substituted I ps env) e.
Proof.
  revert e. induction ps as [|[x v] ps IH]; cbn; intros e H; [reflexivity|].
  change (fold_left _ ps (subst1 x v e)) with (subs ps (subst1 x v e)).
  rewrite IH by tauto. rewrite eval_subst1. apply eval_ext. intros s _.
  destruct (sym_eqb_spec s x) as [->|N]; [|reflexivity].
  apply eval_ext. intros t Ht. apply substituted_other. intros Hin. apply (proj1 H t Hin Ht).
Qed.

Lemma free_subs ps e t : In t (free (subs ps e)) ->
  (In t (free e) /\ ~ In t (map fst ps)) \/ exists p, In p ps /\ In t (free (snd p)).
Proof.
  revert e. induction ps as [|[x v] ps IH]; cbn; intros e; [tauto|].
  change (fold_left _ ps (subst1 x v e)) with (subs ps (subst1 x v e)).
  intros H. apply IH in H. destruct H as [[H N]|(p & Hp & H)].
  - apply free_subst1 in H. destruct H as [[H _]|[H N']].
    + right. exists (x, v). auto.
    + left. split; [exact H|]. intros [E|E]; congruence.
  - right. exists p. auto.
Qed.

(** Renaming symbols without assumptions to themselves changes nothing. *)
Lemma subst1_same s e : subst1 s (ESym s) e = e.
Proof.
  induction e as [c|k|u|a IHa b IHb|a IHa b IHb|a IHa b IHb|f a IHa]; cbn; auto; try congruence.
  destruct (sym_eqb_spec u s); congruence.
Qed.
Lemma subs_self ss e : (forall s, In s ss -> snd s = 0) ->
  subs (map (fun s => (plain (fst s), ESym s)) ss) e = e.
Proof.
  revert e. induction ss as [|[n k] ss IH]; cbn; intros e H; [reflexivity|].
  assert (k = 0) as -> by (apply (H (n, k)); auto).
  rewrite subst1_same. apply IH. intros s Hs. apply H. auto.
Qed.

Lemma combine_fst {A B} (l : list A) (l' : list B) p : In p (combine l l') -> In (fst p) l.
Proof. destruct p as [a b]. apply in_combine_l. Qed.

Lemma resolve_symbols vs ss : resolve vs = Ok ss -> ss = map arg_symbol vs.
Proof. unfold resolve. destruct (forallb is_vsym vs); [|destruct (existsb is_vsym vs)]; congruence. Qed.

Lemma func_subs_value (S : sympy F) I (f : func F) values vs g (H : sympy_ok S I) :
  all_plain vs -> vs <> [] -> 
  later_free (combine (map arg_symbol vs) values) ->
  func_subs S f values (Some vs) = Ok g ->
  forall env, eval I env (expr_of g) = eval I (substituted I (combine (map arg_symbol vs) values) env) (expr_of f).
Proof.
  intros P N L E env. destruct f as [e vars b|]; [|discriminate]. cbn in E.
  unfold mk_symbolic, symbolize, decode in E. destruct vs as [|v0 vs0]; [congruence|].
  set (vs := v0 :: vs0) in *. clearbody vs.
  destruct (resolve vs) as [ss|] eqn:R; [|discriminate]. cbn in E. injection E as <-. cbn.
  apply resolve_symbols in R. subst ss.
  rewrite (simp_eval S I H). rewrite subs_self.
  2:{ intros s Hs. apply in_map_iff in Hs. destruct Hs as (v & <- & Hv). apply P. exact Hv. }
  unfold substitute.
  replace (map (fun v => if b then plain (arg_name v) else arg_symbol v) vs) with (map arg_symbol vs).
  2:{ apply map_ext_in. intros v Hv. specialize (P v Hv). unfold arg_plain in P. unfold plain, arg_name.
      destruct b; [|reflexivity]. destruct (arg_symbol v) as [n k]. cbn in *. congruence. }
  apply eval_subs. exact L.
Qed.

(** The returned function can be called when nothing but the listed variables is left. *)
Lemma env_of_nth vars xs j : NoDup vars -> j < length vars -> length xs = length vars ->
  env_of vars xs (nth j vars (plain [])) = nth j xs (@zero F).
Proof.
  intros N Hj E. revert xs j N Hj E. induction vars as [|v vars IH]; intros [|x xs] [|j] N Hj E; cbn in *; try lia.
  - rewrite sym_eqb_refl. reflexivity.
  - inversion N as [|? ? N1 N2]. subst. destruct (sym_eqb_spec (nth j vars (plain [])) v) as [E1|N3].
    + exfalso. apply N1. rewrite <- E1. apply nth_In. lia.
    + apply IH; auto; lia.
Qed.

Lemma env_of_outside vars xs s : ~ In s vars -> env_of vars xs s = @zero F.
Proof.
  revert xs. induction vars as [|v vars IH]; intros [|x xs] H; cbn in *; auto.
  destruct (sym_eqb_spec s v) as [->|N]; [tauto|]. apply IH. tauto.
Qed.

Lemma env_of_zero vars n s : env_of vars (repeat (@zero F) n) s = zero.
Proof.
  revert n. induction vars as [|v vars IH]; intros [|n]; cbn; auto. destruct (sym_eqb s v); auto.
Qed.

Lemma call_ok I f xs e vars b : f = Symbolic e vars b -> length xs = length vars ->
  (forall s, In s (free e) -> In s vars) -> call I f xs = Ok (eval I (env_of vars xs) e).
Proof.
  intros -> L H. unfold call. rewrite L, Nat.eqb_refl. cbn [negb].
  replace (forallb (fun s => mem s vars) (free e)) with true; [reflexivity|].
  symmetry. apply forallb_forall. intros s Hs. destruct (mem_spec s vars); auto.
Qed.

Lemma call_inv I e vars b xs v : call I (Symbolic e vars b) xs = Ok v ->
  length xs = length vars /\ (forall s, In s (free e) -> In s vars) /\ v = eval I (env_of vars xs) e.
Proof.
  unfold call. destruct (Nat.eqb_spec (length xs) (length vars)) as [L|L]; [|discriminate]. cbn [negb].
  destruct (forallb (fun s => mem s vars) (free e)) eqn:E; [|discriminate]. cbn. intros X. injection X as <-.
  split; [exact L|]. split; [|reflexivity]. rewrite forallb_forall in E.
  intros s Hs. specialize (E s Hs). destruct (mem_spec s vars); congruence.
Qed.

End Proofs.
