(** Proofs about the construction and evaluation of relations (C51). *)
From Coq Require Import Ascii String Field.
From Verif Require Import Prelude OField FuncModel RelModel LpModel FuncSpec FuncProofs RelProofs ParseProofs.

Lemma rop_of_text o : rop_of (rop_text o) = Ok o.
Proof. destruct o; reflexivity. Qed.
Lemma rop_of_inv w o : rop_of w = Ok o -> w = rop_text o.
Proof.
  unfold rop_of.
  repeat match goal with |- context [text_eqb w ?t] => destruct (text_eqb_spec w t) as [->|_]; [intros E; injection E as <-; reflexivity|] end.
  discriminate.
Qed.
Lemma valid_rop w : In w valid_operators <-> exists o, w = rop_text o.
Proof.
  split.
  - intros H. cbn in H. destruct H as [<-|[<-|[<-|[<-|[<-|[]]]]]];
      [exists Rle|exists Rge|exists Rlt|exists Rgt|exists Req]; reflexivity.
  - intros (o & ->). destruct o; cbn; auto 10.
Qed.

Lemma parse_has_operator s x : parse_expression s = Ok x -> has_operator s = true.
Proof.
  unfold parse_expression. destruct (pattern_matches s) as [|y k] eqn:E; [discriminate|]. intros _.
  assert (P : In y (pattern_matches s)) by (rewrite E; left; reflexivity).
  unfold pattern_matches in P. apply in_flat_map in P. destruct P as (m1 & I1 & P).
  apply in_flat_map in P. destruct P as (m2 & I2 & P). apply in_flat_map in P. destruct P as (m3 & I3 & _).
  apply plus_lazy_in in I1. apply star_greedy_in in I2. apply one_of_in in I3.
  destruct I1 as (S1 & _), I2 as (S2 & _), I3 as (V3 & S3).
  destruct (has_operator s) eqn:H; [reflexivity|]. apply has_operator_false in H. rewrite no_op_contains in H.
  specialize (H (fst m3) V3). assert (contains (fst m3) s = true); [|congruence].
  apply contains_true. exists (fst m1 ++ fst m2), (snd m3). rewrite S1, S2, S3, <- !app_assoc. reflexivity.
Qed.

Section Build.
Context {F : ofield}.
Add Field FF : (of_field F).
Implicit Types e : expr F.

Lemma opfunc_holds o (a b : F) : opfunc_of o a b = true <-> rel_holds o a b.
Proof.
  destruct o; cbn; unfold ltb; rewrite ?negb_true_iff; try tauto.
  destruct (eqb_spec F a b); split; congruence.
Qed.
Lemma rel_holds_sub o (a b : F) : rel_holds o (sub a b) zero <-> rel_holds o a b.
Proof.
  assert (L : forall x y : F, leb (sub x y) zero = leb x y).
  { intros x y. apply Bool.eq_iff_eq_true. split; intros H.
    - pose proof (of_add F _ _ y H) as K. replace (add (sub x y) y) with x in K by ring.
      replace (add zero y) with y in K by ring. exact K.
    - pose proof (of_add F _ _ (opp y) H) as K. replace (add x (opp y)) with (sub x y) in K by ring.
      replace (add y (opp y)) with (@zero F) in K by ring. exact K. }
  assert (R : forall x y : F, leb zero (sub x y) = leb y x).
  { intros x y. rewrite <- (L y x). apply Bool.eq_iff_eq_true. split; intros H.
    - pose proof (of_add F _ _ (sub y x) H) as K. replace (add zero (sub y x)) with (sub y x) in K by ring.
      replace (add (sub x y) (sub y x)) with (@zero F) in K by ring. exact K.
    - pose proof (of_add F _ _ (sub x y) H) as K. replace (add zero (sub x y)) with (sub x y) in K by ring.
      replace (add (sub y x) (sub x y)) with (@zero F) in K by ring. exact K. }
  destruct o; cbn; rewrite ?L, ?R; try tauto. apply sub_eq_0.
Qed.

(** The parser only makes symbols without assumptions. *)
Definition plain_expr e : Prop := forall s, In s (free e) -> snd s = 0.
Lemma plain_bin (c : expr F -> expr F -> expr F) a b : (forall x y, free (c x y) = free x ++ free y) ->
  plain_expr a -> plain_expr b -> plain_expr (c a b).
Proof. intros C A B s H. rewrite C in H. apply in_app_or in H. destruct H; auto. Qed.
Lemma plain_neg e : plain_expr e -> plain_expr (e_neg e).
Proof. intros H s Hs. apply H. exact Hs. Qed.
Lemma plain_pow1 e : plain_expr e -> plain_expr (EPow e (ENum (opp one))).
Proof. intros H s Hs. cbn in Hs. rewrite app_nil_r in Hs. auto. Qed.
Lemma plain_name n : plain_expr (name_expr n).
Proof. unfold name_expr. destruct (text_in n _); intros s; cbn; [tauto|]. intros [<-|[]]. reflexivity. Qed.

Lemma parser_plain n :
  (forall ts e r, p_sum n ts = Some (e, r) -> plain_expr e) /\
  (forall a ts e r, p_sum_rest n a ts = Some (e, r) -> plain_expr a -> plain_expr e) /\
  (forall ts e r, p_term n ts = Some (e, r) -> plain_expr e) /\
  (forall a ts e r, p_term_rest n a ts = Some (e, r) -> plain_expr a -> plain_expr e) /\
  (forall ts e r, p_factor n ts = Some (e, r) -> plain_expr e) /\
  (forall ts e r, p_atom n ts = Some (e, r) -> plain_expr e).
Proof.
  induction n as [|n (I1 & I2 & I3 & I4 & I5 & I6)]; [repeat apply conj; intros; cbn in *; congruence|].
  repeat apply conj.
  - intros ts e r H. rewrite p_sum_S in H. destruct (p_term n ts) as [[e1 r1]|] eqn:E; [|discriminate]. eauto.
  - intros a ts e r H A. rewrite p_sum_rest_S in H.
    destruct ts as [|[] t]; try (injection H as <- <-; exact A);
      (destruct (p_term n t) as [[e1 r1]|] eqn:E; [|discriminate]; apply (I2 _ _ _ _ H)).
    + apply plain_bin; eauto.
    + apply (plain_bin EAdd); eauto. apply plain_neg. eauto.
  - intros ts e r H. rewrite p_term_S in H. destruct (p_factor n ts) as [[e1 r1]|] eqn:E; [|discriminate]. eauto.
  - intros a ts e r H A. rewrite p_term_rest_S in H.
    destruct ts as [|[] t]; try (injection H as <- <-; exact A);
      (destruct (p_factor n t) as [[e1 r1]|] eqn:E; [|discriminate]; apply (I4 _ _ _ _ H)).
    + apply plain_bin; eauto.
    + apply (plain_bin EMul); eauto. apply plain_pow1. eauto.
  - intros ts e r H. rewrite p_factor_S in H.
    assert (G : match p_atom n ts with
             | Some (e, TPow :: r) => match p_factor n r with Some (x, r') => Some (EPow e x, r') | None => None end
             | x => x
             end = Some (e, r) -> plain_expr e).
    { destruct (p_atom n ts) as [[e1 r1]|] eqn:E; [|discriminate]. apply I6 in E.
      destruct r1 as [|[] r1]; try (intros X; injection X as <- <-; exact E).
      destruct (p_factor n r1) as [[y r']|] eqn:E'; [|discriminate]. intros X. injection X as <- <-.
      apply plain_bin; eauto. }
    destruct ts as [|[] t]; try exact (G H).
    + eauto.
    + destruct (p_factor n t) as [[y r']|] eqn:E'; [|discriminate]. injection H as <- <-. apply plain_neg. eauto.
  - intros ts e r H. rewrite p_atom_S in H. destruct ts as [|[] t]; try discriminate.
    + injection H as <- <-. intros s [].
    + destruct t as [|[] t]; try (injection H as <- <-; apply plain_name).
      destruct (p_sum n t) as [[y r']|] eqn:E'; [|discriminate].
      destruct r' as [|[] r']; try discriminate. injection H as <- <-. intros s Hs. apply (I1 _ _ _ E' s Hs).
    + destruct (p_sum n t) as [[y r']|] eqn:E'; [|discriminate].
      destruct r' as [|[] r']; try discriminate. injection H as <- <-. eauto.
Qed.
Lemma parse_text_plain s e : parse_text s = Some e -> plain_expr e.
Proof.
  unfold parse_text, parse_tokens. destruct (tokens (length s) s) as [ts|]; [|discriminate].
  destruct (p_sum (7 * length ts + 7) ts) as [[e1 [|]]|] eqn:E; try discriminate. intros H. injection H as <-.
  apply (parser_plain (7 * length ts + 7)) in E. exact E.
Qed.

(** Binding the variables of a function by name. *)
Lemma substituted_by_name I ss (xs : list F) t : NoDup (map fst ss) -> length xs = length ss -> snd t = 0 ->
  substituted I (map (fun s => (plain (fst s), ESym s)) ss) (env_of ss xs) t = env_of (by_name ss) xs t.
Proof.
  intros N L T. destruct (in_dec (fun a b => Bool.reflect_dec _ _ (sym_eqb_spec a b)) t (by_name ss)) as [H|H].
  - unfold by_name in H. apply in_map_iff in H. destruct H as (s & <- & Hs).
    assert (G : forall ps : list symbol, (forall q, In q ps -> In q ss) -> In s ps ->
              substituted I (map (fun s => (plain (fst s), ESym s)) ps) (env_of ss xs) (plain (fst s)) = env_of ss xs s).
    { induction ps as [|q ps IH]; cbn; [intros _ []|]. intros Hps [Hq|Hq].
      - subst q. rewrite sym_eqb_refl. reflexivity.
      - destruct (sym_eqb_spec (plain (fst s)) (plain (fst q))) as [E|_].
        + assert (q = s); [|subst; reflexivity]. unfold plain in E. injection E as E.
          clear - N E Hs Hps. assert (Hq : In q ss) by (apply Hps; auto). clear Hps.
          induction ss as [|z ss IH]; [destruct Hq|]. cbn in N. inversion N as [|? ? N1 N2]. subst.
          destruct Hs as [->|Hs], Hq as [->|Hq]; auto.
          * exfalso. apply N1. rewrite E. apply in_map. exact Hq.
          * exfalso. apply N1. rewrite <- E. apply in_map. exact Hs.
        + apply IH; auto. }
    rewrite (G ss) by auto. clear G.
    revert xs L. induction ss as [|z ss IH]; intros [|x xs] L; try (destruct Hs; fail); try discriminate.
    cbn in N. inversion N as [|? ? N1 N2]. subst. cbn. destruct Hs as [->|Hs].
    + rewrite !sym_eqb_refl. reflexivity.
    + destruct (sym_eqb_spec s z) as [->|Ns]; [exfalso; apply N1, in_map; exact Hs|].
      destruct (sym_eqb_spec (plain (fst s)) (plain (fst z))) as [E|_].
      * exfalso. unfold plain in E. injection E as E. apply N1. rewrite <- E. apply in_map. exact Hs.
      * apply IH; auto.
  - rewrite env_of_outside by exact H. rewrite substituted_other.
    2:{ rewrite map_map. cbn. exact H. }
    apply env_of_outside. intros Ht. apply H. unfold by_name. apply in_map_iff. exists t. split; [|exact Ht].
    destruct t as [n k]. cbn in *. subst. reflexivity.
Qed.

Lemma later_free_self ss : NoDup (map fst ss) -> later_free (map (fun s => (plain (fst s), @ESym F s)) ss).
Proof.
  induction ss as [|z ss IH]; cbn; intros N; [exact I|]. inversion N as [|? ? N1 N2]. subst. split; [|auto].
  intros s Hs [<-|[]]. rewrite map_map in Hs. cbn in Hs. apply in_map_iff in Hs. destruct Hs as (q & E & Hq).
  apply N1. rewrite <- E. cbn. apply in_map. exact Hq.
Qed.

Lemma combine_nil_in {A B} (l : list A) (p : A * B) : ~ In p (combine l []).
Proof. destruct l; intros []. Qed.

(** The value of a symbolic function made from a parsed expression, by name. *)
Lemma mk_symbolic_value S I (H : sympy_ok S I) b e vars f xs v : plain_expr e ->
  mk_symbolic S b e vars = Ok f -> NoDup (map fst (fvars f)) -> call I f xs = Ok v ->
  v = eval I (env_of (by_name (fvars f)) xs) e.
Proof.
  intros P E N C. unfold mk_symbolic, symbolize in E.
  destruct (decode S e vars) as [[e' ss]|] eqn:D; [|discriminate]. cbn in E. injection E as <-. cbn [fvars] in *.
  apply call_inv in C. destruct C as (L & Fr & ->). rewrite (simp_eval S I H).
  assert (D' : (e' = e /\ ss = fsyms S e) \/ e' = subs (map (fun s => (plain (fst s), ESym s)) ss) e).
  { unfold decode in D. destruct vars as [[|v0 vs]|]; [injection D as <- <-; auto| |injection D as <- <-; auto].
    destruct (resolve (v0 :: vs)) as [ss'|]; [|discriminate]. cbn in D. injection D as <- <-. auto. }
  destruct D' as [[-> ->]| ->].
  - replace (by_name (fsyms S e)) with (fsyms S e); [reflexivity|].
    unfold by_name. rewrite <- (map_id (fsyms S e)) at 1. apply map_ext_in. intros s Hs. apply (fsyms_in S I H) in Hs.
    apply P in Hs. destruct s as [n k]. cbn in Hs. subst. reflexivity.
  - rewrite eval_subs by (apply later_free_self; exact N). apply eval_ext. intros s Hs.
    apply substituted_by_name; auto.
Qed.

(** Relations made from a string. *)
Lemma mk_relation_str S parse s vars op_str rel l w r : parse_expression s = Ok (l, w, r) ->
  mk_relation (F := F) S parse CRelation (FromStr s) vars None op_str = Ok rel ->
  exists o e, w = rop_text o /\ r_op rel = Some o /\ r_opfunc rel = opfunc_of o /\
    r_class rel = match o with Req => CEquality | _ => CInEquality end /\
    parse (l ++ tx " - " ++ tx "(" ++ r ++ tx ")") = Some e /\ mk_symbolic S true e vars = Ok (r_fun rel).
Proof.
  intros P E. unfold mk_relation in E. unfold new_class in E.
  rewrite (parse_has_operator _ _ P), P in E. cbn [bind] in E.
  destruct (rop_of w) as [o|] eqn:O; [|discriminate]. cbn [bind] in E. apply rop_of_inv in O.
  cbn [mk_func] in E. destruct (parse _) as [e|]; [|discriminate].
  destruct (mk_symbolic S true e vars) as [f|] eqn:M; [|discriminate]. cbn [bind] in E.
  exists o, e. split; [exact O|]. destruct o; injection E as <-; cbn; auto 10.
Qed.

Theorem relation_value S I (H : sympy_ok S I) s vars op_str rel l w r el er xs b :
  parse_expression s = Ok (l, w, r) -> parse_text l = Some el -> parse_text r = Some er ->
  mk_relation (F := F) S parse_text CRelation (FromStr s) vars None op_str = Ok rel ->
  NoDup (map fst (fvars (r_fun rel))) -> relate I rel xs = Ok b ->
  exists o, w = rop_text o /\
    (b = true <-> rel_holds o (eval I (env_of (by_name (fvars (r_fun rel))) xs) el) (eval I (env_of (by_name (fvars (r_fun rel))) xs) er)).
Proof.
  intros P Pl Pr M N R. destruct (mk_relation_str _ _ _ _ _ _ _ _ _ P M) as (o & e & Ew & _ & Of & _ & Pe & Ms).
  rewrite (parse_text_difference l r el er Pl Pr) in Pe. injection Pe as <-.
  unfold relate in R. destruct (call I (r_fun rel) xs) as [v|] eqn:C; [|discriminate]. cbn in R. injection R as <-.
  exists o. split; [exact Ew|]. rewrite Of, opfunc_holds.
  apply parse_text_plain in Pl. apply parse_text_plain in Pr.
  apply (mk_symbolic_value S I H true (e_sub el er) vars) in C; auto.
  2:{ apply (plain_bin EAdd); auto. }
  rewrite C. cbn [eval e_sub e_neg]. 
  match goal with |- rel_holds o (add ?a (mul _ ?b)) zero <-> _ =>
    rewrite <- (rel_holds_sub o a b); replace (add a (mul (opp one) b)) with (sub a b) by ring end. tauto.
Qed.

Lemma free_subs_self ss e s : In s (free (subs (map (fun s => (plain (fst s), @ESym F s)) ss) e)) ->
  In s ss \/ (In s (free e) /\ ~ In s (by_name ss)).
Proof.
  intros H. apply free_subs in H. destruct H as [[H N]|(p & Hp & H)].
  - right. split; [exact H|]. rewrite map_map in N. exact N.
  - left. apply in_map_iff in Hp. destruct Hp as (q & <- & Hq). cbn in H. destruct H as [<-|[]]. exact Hq.
Qed.

(** Evaluation succeeds when the point has the right length and the names are known. *)
Theorem relation_total S I (H : sympy_ok S I) s vars op_str rel l w r (el er : expr F) xs :
  parse_expression s = Ok (l, w, r) -> parse_text l = Some el -> parse_text r = Some er ->
  mk_relation (F := F) S parse_text CRelation (FromStr s) vars None op_str = Ok rel ->
  length xs = length (fvars (r_fun rel)) ->
  (forall t, In t (free el) \/ In t (free er) -> In (fst t) (map fst (fvars (r_fun rel)))) ->
  exists b, relate I rel xs = Ok b.
Proof.
  intros P Pl Pr M L Kn. destruct (mk_relation_str _ _ _ _ _ _ _ _ _ P M) as (o & e & Ew & _ & Of & _ & Pe & Ms).
  rewrite (parse_text_difference l r el er Pl Pr) in Pe. injection Pe as <-.
  apply parse_text_plain in Pl. apply parse_text_plain in Pr.
  unfold mk_symbolic, symbolize in Ms.
  destruct (decode S (e_sub el er) vars) as [[e' ss]|] eqn:D; [|discriminate]. cbn in Ms. injection Ms as Ms.
  unfold relate. rewrite <- Ms in *. cbn [fvars] in *.
  rewrite (call_ok I _ xs (simp S e') ss true eq_refl L).
  - eexists. reflexivity.
  - intros t Ht. apply (simp_free S I H) in Ht. 
    unfold decode in D. destruct vars as [[|v0 vs]|].
    + injection D as <- <-. apply (fsyms_in S I H). exact Ht.
    + destruct (resolve (v0 :: vs)) as [ss'|]; [|discriminate]. cbn [bind] in D. injection D as <- <-.
      apply free_subs_self in Ht. destruct Ht as [Ht|[Ht N]]; [exact Ht|exfalso; apply N].
      cbn in Ht. apply in_app_or in Ht. specialize (Kn t Ht). apply in_map_iff in Kn. destruct Kn as (q & E & Hq).
      unfold by_name. apply in_map_iff. exists q. split; [|exact Hq].
      assert (T : snd t = 0) by (destruct Ht; auto). destruct t as [n k]. cbn in *. subst. reflexivity.
    + injection D as <- <-. apply (fsyms_in S I H). exact Ht.
Qed.

(** What the constructor guarantees about operator, class and comparison. *)
Lemma mk_relation_op S parse cls src vars op op_str rel o :
  mk_relation (F := F) S parse cls src vars op op_str = Ok rel -> r_op rel = Some o ->
  r_opfunc rel = opfunc_of o /\
  (r_class rel = CEquality -> o = Req) /\ (r_class rel = CInEquality -> o <> Req) /\ r_class rel <> CRelation.
Proof.
  intros M O. unfold mk_relation in M.
  destruct (new_class cls src op op_str) as [c|] eqn:NC; [|discriminate]. cbn [bind] in M.
  match type of M with bind ?x _ = _ => destruct x as [[[o' f'] src']|] eqn:E; [|discriminate] end. cbn [bind] in M.
  destruct (mk_func S parse src' vars) as [fn|]; [|discriminate]. cbn [bind] in M.
  assert (R : r_class rel = c /\ o' = Some o /\ r_opfunc rel = f' /\ (c = CEquality -> o = Req) /\ (c = CInEquality -> o <> Req)).
  { destruct c, o' as [[]|]; try discriminate; injection M as <-; cbn in *; try discriminate; injection O as <-;
      repeat split; congruence. }
  destruct R as (Rc & -> & Rf & R1 & R2).
  assert (X : f' = opfunc_of o /\ c <> CRelation); [|rewrite Rc, Rf; tauto].
  clear - NC E. unfold new_class in NC.
  destruct op as [[w|o1|f1]|].
  - destruct (text_in w valid_operators); [|discriminate]. destruct (rop_of w) as [o1|]; [|discriminate].
    cbn in E, NC. injection E as E1 E2 E3. subst. split; [reflexivity|]. destruct cls, o; injection NC as <-; discriminate.
  - cbn in E, NC. injection E as E1 E2 E3. subst. split; [reflexivity|]. destruct cls, o; injection NC as <-; discriminate.
  - injection E as E1 E2 E3. discriminate.
  - cbn [bind] in NC.
    assert (G : forall x : result (option rop * (F -> F -> bool) * source F),
       x = match op_str with
           | Some w => if text_in w valid_operators then do o <- rop_of w ; Ok (Some o, opfunc_of o, src) else Ok (Some Req, opfunc_of Req, src)
           | None => Ok (Some Req, opfunc_of Req, src)
           end -> x = Ok (Some o, f', src') ->
       (do op2 <- match op_str with
                         | Some w => if text_in w valid_operators then do o <- rop_of w ; Ok (@OpRel F o) else Ok (OpRel Req)
                         | None => Ok (OpRel Req)
                         end ; do op3 <- match op2 with
            | OpRel o => Ok (Some o)
            | _ => match op_str with
                   | Some w => if text_in w valid_operators then do o <- rop_of w ; Ok (Some o) else Ok None
                   | None => Ok None
                   end
            end ; Ok (match cls, op3 with
      | CRelation, Some Req => CEquality
      | CRelation, Some _ => CInEquality
      | _, _ => cls
      end)) = Ok c -> f' = opfunc_of o /\ c <> CRelation).
    { intros x -> X Y. destruct op_str as [w|].
      - destruct (text_in w valid_operators).
        + destruct (rop_of w) as [o1|]; [|discriminate]. cbn in X, Y. injection X as X1 X2 X3. subst. split; [reflexivity|].
          destruct cls, o; injection Y as <-; discriminate.
        + cbn in X, Y. injection X as X1 X2 X3. subst. split; [reflexivity|]. destruct cls; injection Y as <-; discriminate.
      - cbn in X, Y. injection X as X1 X2 X3. subst. split; [reflexivity|]. destruct cls; injection Y as <-; discriminate. }
    destruct src as [s|e|f0 h]; [|eapply G; [reflexivity|exact E|exact NC]|eapply G; [reflexivity|exact E|exact NC]].
    destruct (has_operator s); [|eapply G; [reflexivity|exact E|exact NC]].
    destruct (parse_expression s) as [[[l w] r]|]; [|discriminate]. cbn [bind] in *.
    destruct (rop_of w) as [o1|]; [|discriminate]. cbn in E, NC. injection E as E1 E2 E3. subst. split; [reflexivity|].
    destruct cls, o; injection NC as <-; discriminate.
Qed.

End Build.
