(** Proofs about collections of vectors and tensors. *)
From Coq Require Import Field.
From Verif Require Import Prelude OField ParallelModel ParallelSpec ParallelProofs SolveModel KernModel KernSpec KernProofs CollModel CollSpec.
Local Open Scope nat_scope.

(** ** Positions in memory *)
Lemma inside_app a b c d : length a = length c -> inside (a ++ b) (c ++ d) <-> inside a c /\ inside b d.
Proof.
  unfold inside. revert c. induction a as [|x a IH]; intros [|y c] H; cbn [app length] in *; try discriminate.
  - split; [intros K; split; [constructor|exact K]|intros [_ K]; exact K].
  - injection H as H. split.
    + intros K. inversion K as [|? ? ? ? K1 K2]; subst. apply IH in K2; [|exact H]. destruct K2. split; [constructor; assumption|assumption].
    + intros [K1 K2]. inversion K1; subst. constructor; [assumption|]. apply IH; [exact H|]. split; assumption.
Qed.
Lemma inside_length sh c : inside sh c -> length c = length sh.
Proof. induction 1; cbn; congruence. Qed.
Lemma prod_app a b : prod (a ++ b) = prod a * prod b.
Proof. unfold prod. induction a as [|x a IH]; cbn; [lia|]. rewrite IH. lia. Qed.
Lemma lin_lt sh c : inside sh c -> lin sh c < prod sh.
Proof.
  induction 1 as [|x s c sh H K IH]; cbn [lin]; [cbn; lia|]. change (prod (s :: sh)) with (s * prod sh). nia.
Qed.
Lemma unlin_lin sh c : inside sh c -> unlin sh (lin sh c) = c.
Proof.
  induction 1 as [|x s c sh H K IH]; cbn [lin unlin]; [reflexivity|]. pose proof (lin_lt sh c K) as L.
  rewrite (Nat.add_comm (x * prod sh)). rewrite Nat.div_add by lia. rewrite Nat.div_small by exact L.
  rewrite Nat.mod_add by lia. rewrite Nat.mod_small by exact L. rewrite IH. reflexivity.
Qed.
Lemma lin_app a b c d : length a = length c -> lin (a ++ b) (c ++ d) = lin a c * prod b + lin b d.
Proof.
  revert c. induction a as [|x a IH]; intros [|y c] H; cbn [app length lin] in *; try discriminate; [lia|].
  injection H as H. rewrite IH, prod_app by exact H. lia.
Qed.

Lemma last_app k (l t : list nat) : length t = k -> last_ k (l ++ t) = t.
Proof.
  intros <-. unfold last_. rewrite app_length. replace (length l + length t - length t) with (length l) by lia.
  rewrite skipn_app, skipn_all, Nat.sub_diag. reflexivity.
Qed.
Lemma inner_app k N (l t : list nat) : length t = k -> inner k ((N :: l) ++ t) = l.
Proof.
  intros <-. unfold inner. cbn [app tl length]. rewrite app_length.
  replace (S (length l + length t) - length t - 1) with (length l) by lia.
  rewrite firstn_app, firstn_all, Nat.sub_diag. cbn [firstn]. apply app_nil_r.
Qed.
Lemma inside_two n c : inside (repeat n 2) c -> exists i j, c = [i; j] /\ i < n /\ j < n.
Proof.
  cbn. intros H. inversion H as [|i ? ? ? Hi H1]; subst. inversion H1 as [|j ? ? ? Hj H2]; subst. inversion H2; subst. exists i, j. auto.
Qed.
Lemma inside_one n c : inside (repeat n 1) c -> exists i, c = [i] /\ i < n.
Proof. cbn. intros H. inversion H as [|i ? ? ? Hi H1]; subst. inversion H1; subst. exists i. auto. Qed.
Lemma inside_four n c : inside (repeat n 4) c -> exists i j k l, c = [i; j; k; l] /\ i < n /\ j < n /\ k < n /\ l < n.
Proof.
  cbn. intros H. inversion H as [|i ? ? ? Hi H1]; subst. inversion H1 as [|j ? ? ? Hj H2]; subst.
  inversion H2 as [|k ? ? ? Hk H3]; subst. inversion H3 as [|m ? ? ? Hm H4]; subst. inversion H4; subst.
  exists i, j, k, m. auto 6.
Qed.

Section P.
Context {F : ofield}.
Add Field CollF : (of_field F).
Local Notation mat := (nat -> nat -> F).
Local Notation arr := (ndarray F).
Implicit Types (a Q : arr) (o : object F).

(** ** The rule *)
Lemma rule_ext n (Q Q' : mat) (T T' : cell -> F) c :
  (forall i j, Q i j = Q' i j) -> (forall s, inside (repeat n (length c)) s -> T s = T' s) ->
  rule n Q T c = rule n Q' T' c.
Proof.
  intros HQ HT. unfold rule. f_equal. apply map_ext_in. intros s Hs. apply In_cells in Hs. rewrite (HT s Hs). f_equal.
  clear - HQ. revert s. induction c as [|i c IH]; intros [|j s]; cbn [weight]; try reflexivity. rewrite HQ, IH. reflexivity.
Qed.
Lemma rule_cons n (Q : mat) T i c :
  rule n Q T (i :: c) = sum n (fun x => mul (Q i x) (rule n Q (fun s => T (x :: s)) c)).
Proof.
  unfold rule. cbn [length repeat]. etransitivity; [apply suml_cells_cons|]. apply sum_ext. intros x _. cbn [weight].
  generalize (cells (repeat n (length c))). intros l. induction l as [|s l IH]; cbn [map suml]; [ring|]. rewrite IH. ring.
Qed.
Lemma rule_nil n (Q : mat) T : rule n Q T [] = T [].
Proof. unfold rule. cbn. ring. Qed.
Lemma einsum_rule n (Q : mat) T c : einsum n Q T c = rule n Q T c.
Proof.
  revert T. induction c as [|i c IH]; intros T; cbn [einsum]; [rewrite rule_nil; reflexivity|].
  rewrite rule_cons. apply sum_ext. intros x _. rewrite IH. reflexivity.
Qed.
Lemma rule_1 n (Q : mat) T i : rule n Q T [i] = sum n (fun k => mul (Q i k) (T [k])).
Proof. rewrite rule_cons. apply sum_ext. intros k _. rewrite rule_nil. reflexivity. Qed.
Lemma rule_2 n (Q : mat) T i j : rule n Q T [i; j] = rule2 n Q (fun u v => T [u; v]) i j.
Proof.
  rewrite rule_cons. apply sum_ext. intros x _. rewrite rule_1. rewrite <- sum_scale. apply sum_ext. intros y _. ring.
Qed.
Lemma rule_4 n (Q : mat) T i j k l : rule n Q T [i; j; k; l] = rule4 n Q (fun u v w z => T [u; v; w; z]) i j k l.
Proof.
  rewrite rule_cons. apply sum_ext. intros x _. rewrite rule_cons, <- sum_scale. apply sum_ext. intros y _.
  rewrite rule_2. unfold rule2. rewrite <- !sum_scale. apply sum_ext. intros z _. rewrite <- !sum_scale. apply sum_ext. intros w _. ring.
Qed.

(** ** Reshaping *)
Lemma matrix_for_hd Q e p p' : matrix_for Q (e :: p) = matrix_for Q (e :: p').
Proof. reflexivity. Qed.
Lemma reshape_shape a sh : prod sh = prod (shape a) ->
  reshape a sh = Ok (ND sh (fun c => at_ a (unlin (shape a) (lin sh c)))).
Proof. intros E. unfold reshape. rewrite E, Nat.eqb_refl. reflexivity. Qed.

Section Reshaped.
Variables (k N n : nat) (rest : list nat).
Let sh := (N :: rest) ++ repeat n k.
Let sh' := [N; prod rest] ++ repeat n k.
Lemma sizes : prod sh' = prod sh.
Proof. unfold sh, sh'. rewrite !prod_app. f_equal. change (N * (prod rest * 1) = N * prod rest). lia. Qed.
Lemma same_place e p c : inside rest p -> inside (repeat n k) c -> e < N ->
  lin sh' (e :: lin rest p :: c) = lin sh ((e :: p) ++ c).
Proof.
  intros Hp Hc He. unfold sh, sh'. pose proof (inside_length _ _ Hp) as L.
  change (e :: lin rest p :: c) with ([e; lin rest p] ++ c). rewrite !lin_app by (cbn; congruence).
  f_equal. f_equal. cbn [lin prod fold_right]. lia.
Qed.
Lemma inside_sh e p c : inside rest p -> inside (repeat n k) c -> e < N -> inside sh ((e :: p) ++ c).
Proof.
  intros Hp Hc He. apply inside_app; [cbn; f_equal; symmetry; apply inside_length; exact Hp|].
  split; [constructor; assumption|exact Hc].
Qed.
Lemma inside_sh' e p c : inside rest p -> inside (repeat n k) c -> e < N -> inside sh' (e :: lin rest p :: c).
Proof.
  intros Hp Hc He. constructor; [exact He|]. constructor; [apply lin_lt; exact Hp|exact Hc].
Qed.
Lemma reshaped_ok a Q (f : arr -> result arr -> Prop) out : shape a = sh ->
  (forall b r, shape b = sh' -> f b r -> exists res, r = Ok res /\ member_wise k [N; prod rest] n b Q res) ->
  reshaped k a f out -> exists res, out = Ok res /\ member_wise k (N :: rest) n a Q res.
Proof.
  intros Ha Hf H. unfold reshaped in H. rewrite Ha in H.
  assert (E1 : last_ k sh = repeat n k) by (apply last_app, repeat_length).
  assert (E2 : inner k sh = rest) by (apply inner_app, repeat_length).
  rewrite E1, E2 in H. change (axis sh 0 :: prod rest :: repeat n k) with sh' in H.
  rewrite (reshape_shape a sh') in H by (rewrite Ha; exact sizes). cbv beta iota in H. rewrite Ha in H.
  destruct H as (r & Hr & ->). pose proof (fun E => Hf _ r E Hr) as K. destruct (K eq_refl) as (res & -> & Hs & Hv). clear K. cbn [bind].
  cbn [shape] in Hs. rewrite (reshape_shape res sh) by (rewrite Hs; symmetry; exact sizes).
  eexists. split; [reflexivity|]. split; [cbn [shape]; symmetry; exact Ha|].
  intros p0 c Hp Hc. inversion Hp as [|e ? p ? He Hp' E]; subst p0. unfold member at 1. cbn [at_]. rewrite Hs.
  rewrite <- (same_place e p c Hp' Hc He). rewrite (unlin_lin _ _ (inside_sh' e p c Hp' Hc He)).
  assert (Hin : inside [N; prod rest] [e; lin rest p]) by (repeat constructor; [exact He|apply lin_lt; exact Hp']).
  specialize (Hv [e; lin rest p] c Hin Hc). unfold member at 1 in Hv. cbn [app] in Hv. rewrite Hv.
  apply rule_ext; [reflexivity|]. intros s Hs'. pose proof (inside_length _ _ Hc) as Lc. rewrite repeat_length in Lc. rewrite Lc in Hs'.
  unfold member. cbn [at_ app]. rewrite (same_place e p s Hp' Hs' He).
  rewrite (unlin_lin _ _ (inside_sh e p s Hp' Hs' He)). reflexivity.
Qed.
Lemma reshaped_runs a (f : arr -> result arr -> Prop) : shape a = sh ->
  (forall b, shape b = sh' -> exists r, f b r) -> exists out, reshaped k a f out.
Proof.
  intros Ha Hf. unfold reshaped. rewrite Ha.
  assert (E1 : last_ k sh = repeat n k) by (apply last_app, repeat_length).
  assert (E2 : inner k sh = rest) by (apply inner_app, repeat_length).
  rewrite E1, E2. change (axis sh 0 :: prod rest :: repeat n k) with sh'.
  rewrite (reshape_shape a sh') by (rewrite Ha; exact sizes). cbv beta iota.
  destruct (Hf (ND sh' (fun c => at_ a (unlin (shape a) (lin sh' c)))) eq_refl) as [r Hr]. eexists. exists r. split; [exact Hr|reflexivity].
Qed.
End Reshaped.

Lemma kernel_runs a its : exists out, kernel a its out.
Proof. destruct (prange_exists (zeros zero (shape a)) its) as [res H]. exists (Ok res), res. auto. Qed.

(** ** Second order *)
Lemma fits_2 a Q lead n : shape a = lead ++ [n; n] -> last_ 2 (shape Q) = [n; n] -> fits 2 a Q = true.
Proof.
  intros Ha HQ. unfold fits. rewrite Ha, (last_app 2 lead [n; n] eq_refl), HQ. cbn. rewrite Nat.eqb_refl. reflexivity.
Qed.
Lemma suited_last n lead Q : suited n lead Q -> last_ 2 (shape Q) = [n; n].
Proof. intros [H|H]; [rewrite H; reflexivity|]. destruct lead as [|N l]; [destruct H|]. cbn in H. rewrite H. reflexivity. Qed.

Lemma stack2_ok a Q N M n out : shape a = [N; M; n; n] -> suited n [N; M] Q -> tr2_stack a Q out ->
  exists res, out = Ok res /\ member_wise 2 [N; M] n a Q res.
Proof.
  intros Ha HQ H. unfold tr2_stack in H. rewrite (fits_2 a Q [N; M] n Ha (suited_last _ _ _ HQ)) in H.
  cbv zeta in H. rewrite Ha in H. cbn [axis nth] in H.
  destruct (rank2_kernels N M n (fun i j => at_ Q [i; j]) (fun e i j => at_ Q [e; i; j]) (fun _ _ => zero) (fun _ _ _ => zero)
              (fun e x i j => at_ a [e; x; i; j])) as (_ & _ & _ & K1 & K2).
  unfold ndim in H. destruct HQ as [HQ|HQ]; cbn in HQ; rewrite HQ in H; cbn [length Nat.eqb] in H; destruct H as (res & Hr & ->);
    rewrite Ha in Hr; exists res; (split; [reflexivity|]).
  - destruct (K1 res Hr) as [Hs Hv]. split; [rewrite Hs; symmetry; exact Ha|]. intros p c Hp Hc.
    inversion Hp as [|e ? ? ? He Hp1]; subst. inversion Hp1 as [|x ? ? ? Hx Hp2]; subst. inversion Hp2; subst.
    destruct (inside_two n c Hc) as (i & j & -> & Hi & Hj). unfold member at 1. cbn [app]. rewrite (Hv e x i j He Hx Hi Hj), rule_2.
    unfold matrix_for. rewrite HQ. reflexivity.
  - destruct (K2 res Hr) as [Hs Hv]. split; [rewrite Hs; symmetry; exact Ha|]. intros p c Hp Hc.
    inversion Hp as [|e ? ? ? He Hp1]; subst. inversion Hp1 as [|x ? ? ? Hx Hp2]; subst. inversion Hp2; subst.
    destruct (inside_two n c Hc) as (i & j & -> & Hi & Hj). unfold member at 1. cbn [app]. rewrite (Hv e x i j He Hx Hi Hj), rule_2.
    unfold matrix_for. rewrite HQ. reflexivity.
Qed.
Lemma stack2_runs a Q : exists out, tr2_stack a Q out.
Proof.
  unfold tr2_stack. cbv zeta. destruct (fits 2 a Q); [|eexists; reflexivity]. destruct (ndim Q =? 2); apply kernel_runs.
Qed.

Lemma tr_tensors2_ok a Q lead n : shape a = lead ++ [n; n] -> suited n lead Q ->
  (exists out, tr_tensors2 a Q out) /\
  forall out, tr_tensors2 a Q out -> exists res, out = Ok res /\ member_wise 2 lead n a Q res.
Proof.
  intros Ha HQ. pose proof (fits_2 a Q lead n Ha (suited_last _ _ _ HQ)) as Hf.
  destruct (rank2_kernels (axis (shape a) 0) 0 n (fun i j => at_ Q [i; j]) (fun e i j => at_ Q [e; i; j]) (fun i j => at_ a [i; j])
              (fun e i j => at_ a [e; i; j]) (fun _ _ _ _ => zero)) as (K0 & K1 & K2 & _ & _).
  unfold tr_tensors2. rewrite Hf.
  destruct lead as [|N [|M rest]].
  - destruct HQ as [HQ|HQ]; [|destruct HQ]. cbn in HQ. unfold ndim. rewrite Ha, HQ. cbn [app length Nat.eqb andb]. split.
    { eexists. reflexivity. }
    intros out ->. eexists. split; [reflexivity|]. split; [cbn [shape]; symmetry; exact Ha|]. intros p c Hp Hc. inversion Hp; subst.
    destruct (inside_two n c Hc) as (i & j & -> & Hi & Hj). unfold member at 1. cbn [app at_]. unfold row2. cbn [nth axis].
    rewrite K0, rule_2. unfold matrix_for. rewrite HQ. reflexivity.
  - unfold ndim. rewrite Ha in *. cbn [app length Nat.eqb Nat.leb andb axis nth] in *.
    destruct HQ as [HQ|HQ]; cbn in HQ; rewrite HQ; cbn [length Nat.eqb andb].
    + split; [apply kernel_runs|]. intros out (res & Hr & ->). rewrite Ha in Hr. exists res. split; [reflexivity|].
      destruct (K1 res Hr) as [Hs Hv]. split; [rewrite Hs; symmetry; exact Ha|]. intros p c Hp Hc.
      inversion Hp as [|e ? ? ? He Hp1]; subst. inversion Hp1; subst.
      destruct (inside_two n c Hc) as (i & j & -> & Hi & Hj). unfold member at 1. cbn [app]. rewrite (Hv e i j He Hi Hj), rule_2.
      unfold matrix_for. rewrite HQ. reflexivity.
    + split; [apply kernel_runs|]. intros out (res & Hr & ->). rewrite Ha in Hr. exists res. split; [reflexivity|].
      destruct (K2 res Hr) as [Hs Hv]. split; [rewrite Hs; symmetry; exact Ha|]. intros p c Hp Hc.
      inversion Hp as [|e ? ? ? He Hp1]; subst. inversion Hp1; subst.
      destruct (inside_two n c Hc) as (i & j & -> & Hi & Hj). unfold member at 1. cbn [app]. rewrite (Hv e i j He Hi Hj), rule_2.
      unfold matrix_for. rewrite HQ. reflexivity.
  - assert (R : (exists out, reshaped 2 a (fun b => tr2_stack b Q) out) /\
                forall out, reshaped 2 a (fun b => tr2_stack b Q) out -> exists res, out = Ok res /\ member_wise 2 (N :: M :: rest) n a Q res).
    { split.
      - apply (reshaped_runs 2 N n (M :: rest) a _ Ha). intros b _. apply stack2_runs.
      - intros out. apply (reshaped_ok 2 N n (M :: rest) a Q _ out Ha). intros b r Hb Hr. apply (stack2_ok b Q N (prod (M :: rest)) n r Hb); [|exact Hr].
        destruct HQ as [HQ|HQ]; [left; exact HQ|right; exact HQ]. }
    assert (L : ndim a = S (S (length rest + 2))) by (unfold ndim; rewrite Ha; cbn [app length]; rewrite app_length; reflexivity).
    rewrite L. replace (length rest + 2) with (S (S (length rest))) by lia. cbn [Nat.eqb Nat.leb andb].
    assert (HQ' := HQ). unfold ndim. destruct HQ as [HQ|HQ]; cbn in HQ; rewrite HQ; cbn [length Nat.eqb andb].
    + exact R.
    + destruct rest as [|K rest].
      * split; [apply stack2_runs|]. intros out. apply (stack2_ok a Q N M n out Ha HQ').
      * cbn [length Nat.eqb Nat.ltb Nat.leb andb]. exact R.
Qed.

(** ** Fourth order *)
Lemma stack4_ok a Q N M out : shape a = [N; M; 3; 3; 3; 3] -> many_matrices 3 [N; M] Q -> tr4_stack a Q out ->
  exists res, out = Ok res /\ member_wise 4 [N; M] 3 a Q res.
Proof.
  intros Ha HQ (res & Hr & ->). rewrite Ha in Hr. cbn [axis nth] in Hr. cbn in HQ. exists res. split; [reflexivity|].
  destruct (rank4_kernels N M (fun _ _ => zero) (fun e i j => at_ Q [e; i; j]) (fun _ _ _ _ => zero) (fun _ _ _ _ _ => zero)
              (fun e x i j k l => at_ a [e; x; i; j; k; l])) as (_ & _ & _ & K).
  destruct (K res Hr) as [Hs Hv]. split; [rewrite Hs; symmetry; exact Ha|]. intros p c Hp Hc.
  inversion Hp as [|e ? ? ? He Hp1]; subst. inversion Hp1 as [|x ? ? ? Hx Hp2]; subst. inversion Hp2; subst.
  destruct (inside_four 3 c Hc) as (i & j & k & l & -> & Hi & Hj & Hk & Hl). unfold member at 1. cbn [app].
  rewrite (Hv e x i j k l He Hx Hi Hj Hk Hl), rule_4. unfold matrix_for. rewrite HQ. reflexivity.
Qed.
Lemma tr_tensors4_ok a Q lead : shape a = lead ++ [3; 3; 3; 3] ->
  (one_matrix 3 Q /\ length lead <= 1 \/ many_matrices 3 lead Q) ->
  (exists out, tr_tensors4x3 a Q out) /\
  forall out, tr_tensors4x3 a Q out -> exists res, out = Ok res /\ member_wise 4 lead 3 a Q res.
Proof.
  intros Ha HQ.
  destruct (rank4_kernels (axis (shape a) 0) 0 (fun i j => at_ Q [i; j]) (fun e i j => at_ Q [e; i; j]) (fun i j k l => at_ a [i; j; k; l])
              (fun e i j k l => at_ a [e; i; j; k; l]) (fun _ _ _ _ _ _ => zero)) as (K0 & K1 & K2 & _).
  unfold tr_tensors4x3. cbv zeta.
  destruct lead as [|N [|M rest]].
  - destruct HQ as [[HQ _]|HQ]; [|destruct HQ]. cbn in HQ. unfold ndim. rewrite Ha, HQ. cbn [app length Nat.eqb andb]. split.
    { eexists. reflexivity. }
    intros out ->. eexists. split; [reflexivity|]. split; [cbn [shape tr_3333]; symmetry; exact Ha|]. intros p c Hp Hc. inversion Hp; subst.
    destruct (inside_four 3 c Hc) as (i & j & k & l & -> & Hi & Hj & Hk & Hl). unfold member at 1. cbn [app].
    rewrite (K0 i j k l Hi Hj Hk Hl), rule_4. unfold matrix_for. rewrite HQ. reflexivity.
  - unfold ndim. rewrite Ha in *. cbn [app length Nat.eqb Nat.leb andb axis nth] in *.
    destruct HQ as [[HQ _]|HQ]; cbn in HQ; rewrite HQ; cbn [length Nat.eqb andb].
    + split; [apply kernel_runs|]. intros out (res & Hr & ->). rewrite Ha in Hr. exists res. split; [reflexivity|].
      destruct (K1 res Hr) as [Hs Hv]. split; [rewrite Hs; symmetry; exact Ha|]. intros p c Hp Hc.
      inversion Hp as [|e ? ? ? He Hp1]; subst. inversion Hp1; subst.
      destruct (inside_four 3 c Hc) as (i & j & k & l & -> & Hi & Hj & Hk & Hl). unfold member at 1. cbn [app].
      rewrite (Hv e i j k l He Hi Hj Hk Hl), rule_4. unfold matrix_for. rewrite HQ. reflexivity.
    + split; [apply kernel_runs|]. intros out (res & Hr & ->). rewrite Ha in Hr. exists res. split; [reflexivity|].
      destruct (K2 res Hr) as [Hs Hv]. split; [rewrite Hs; symmetry; exact Ha|]. intros p c Hp Hc.
      inversion Hp as [|e ? ? ? He Hp1]; subst. inversion Hp1; subst.
      destruct (inside_four 3 c Hc) as (i & j & k & l & -> & Hi & Hj & Hk & Hl). unfold member at 1. cbn [app].
      rewrite (Hv e i j k l He Hi Hj Hk Hl), rule_4. unfold matrix_for. rewrite HQ. reflexivity.
  - destruct HQ as [[_ HL]|HQ]; [cbn in HL; lia|].
    assert (R : (exists out, reshaped 4 a (fun b => tr4_stack b Q) out) /\
                forall out, reshaped 4 a (fun b => tr4_stack b Q) out -> exists res, out = Ok res /\ member_wise 4 (N :: M :: rest) 3 a Q res).
    { split.
      - apply (reshaped_runs 4 N 3 (M :: rest) a _ Ha). intros b _. apply kernel_runs.
      - intros out. apply (reshaped_ok 4 N 3 (M :: rest) a Q _ out Ha). intros b r Hb Hr.
        apply (stack4_ok b Q N (prod (M :: rest)) r Hb); [exact HQ|exact Hr]. }
    assert (L : ndim a = S (S (length rest + 4))) by (unfold ndim; rewrite Ha; cbn [app length]; rewrite app_length; reflexivity).
    rewrite L. replace (length rest + 4) with (S (S (S (S (length rest))))) by lia. cbn [Nat.eqb andb].
    assert (HQ' := HQ). unfold ndim. cbn in HQ; rewrite HQ; cbn [length Nat.eqb andb].
    destruct rest as [|K rest].
    + split; [apply kernel_runs|]. intros out. apply (stack4_ok a Q N M out Ha HQ').
    + cbn [length Nat.eqb Nat.ltb Nat.leb andb]. exact R.
Qed.

(** ** Vectors *)
Lemma show_vector_ok a Q lead n : shape a = lead ++ [n] -> length lead <= 1 -> suited n lead Q ->
  (exists out, show_vector Q a out) /\
  forall out, show_vector Q a out -> exists res, out = Ok res /\ member_wise 1 lead n a Q res.
Proof.
  intros Ha HL HQ. assert (Hf : fits 1 a Q = true).
  { unfold fits. rewrite Ha, (last_app 1 lead [n] eq_refl), (suited_last _ _ _ HQ). cbn. rewrite Nat.eqb_refl. reflexivity. }
  unfold show_vector. rewrite Hf.
  destruct (display_kernels (fun _ _ => zero) (axis (shape a) 0) n (fun i j => at_ Q [i; j]) (fun e i j => at_ Q [e; i; j])
              (fun e i => at_ a [e; i]) (fun _ _ _ => zero)) as (K1 & K2 & _).
  destruct lead as [|N [|M rest]]; [| |cbn in HL; lia].
  - destruct HQ as [HQ|HQ]; [|destruct HQ]. cbn in HQ. unfold ndim. rewrite Ha, HQ. cbn [app length Nat.eqb andb]. split.
    { eexists. reflexivity. }
    intros out ->. eexists. split; [reflexivity|]. split; [cbn [shape]; symmetry; exact Ha|]. intros p c Hp Hc. inversion Hp; subst.
    destruct (inside_one n c Hc) as (i & -> & Hi). unfold member at 1. cbn [app at_]. unfold row1. cbn [nth axis].
    rewrite rule_1. unfold matrix_for. rewrite HQ. reflexivity.
  - unfold ndim. rewrite Ha in *. cbn [app length Nat.eqb Nat.leb andb axis nth] in *.
    destruct HQ as [HQ|HQ]; cbn in HQ; rewrite HQ; cbn [length Nat.eqb andb].
    + split; [apply kernel_runs|]. intros out (res & Hr & ->). rewrite Ha in Hr. exists res. split; [reflexivity|].
      destruct (K1 res Hr) as [Hs Hv]. split; [rewrite Hs; symmetry; exact Ha|]. intros p c Hp Hc.
      inversion Hp as [|e ? ? ? He Hp1]; subst. inversion Hp1; subst.
      destruct (inside_one n c Hc) as (i & -> & Hi). unfold member at 1. cbn [app]. rewrite (Hv e i He Hi), rule_1.
      unfold matrix_for. rewrite HQ. reflexivity.
    + split; [apply kernel_runs|]. intros out (res & Hr & ->). rewrite Ha in Hr. exists res. split; [reflexivity|].
      destruct (K2 res Hr) as [Hs Hv]. split; [rewrite Hs; symmetry; exact Ha|]. intros p c Hp Hc.
      inversion Hp as [|e ? ? ? He Hp1]; subst. inversion Hp1; subst.
      destruct (inside_one n c Hc) as (i & -> & Hi). unfold member at 1. cbn [app]. rewrite (Hv e i He Hi), rule_1.
      unfold matrix_for. rewrite HQ. reflexivity.
Qed.

(** ** Constructors *)
Lemma list_eqb_true x y : list_eqb x y = true <-> x = y.
Proof. unfold list_eqb. destruct (list_eq_dec Nat.eq_dec x y); intuition discriminate. Qed.
Lemma last_split r sh t : last_ r sh = t -> exists lead, sh = lead ++ t.
Proof. intros <-. exists (firstn (length sh - r) sh). unfold last_. symmetry. apply firstn_skipn. Qed.
Lemma equal_axes_true sh : equal_axes sh = Ok true <-> exists n r, sh = repeat n (S r).
Proof.
  destruct sh as [|s sh]; cbn [equal_axes]; split.
  - discriminate.
  - intros (n & r & E). discriminate.
  - intros H. injection H as H. exists s, (length sh). cbn [repeat]. f_equal. rewrite forallb_forall in H.
    clear - H. induction sh as [|t sh IH]; [reflexivity|]. cbn [length repeat]. f_equal.
    + apply Nat.eqb_eq, H. left. reflexivity.
    + apply IH. intros x Hx. apply H. right. exact Hx.
  - intros (n & r & E). cbn [repeat] in E. injection E as -> ->. f_equal. apply forallb_forall. intros x Hx.
    apply Nat.eqb_eq. exact (repeat_spec _ _ _ Hx).
Qed.
Lemma detect_ok r sh bulk b : detect r sh bulk = Ok b <->
  (exists lead, sh = lead ++ repeat 3 r /\
     match bulk with None => True | Some true => lead <> [] | Some false => lead = [] end /\
     b = if length lead =? 0 then bulk else Some true).
Proof.
  unfold detect. split.
  - destruct (list_eqb _ _) eqn:E; [|discriminate]. apply list_eqb_true, last_split in E. destruct E as [lead ->].
    rewrite app_length, repeat_length. exists lead. split; [reflexivity|].
    destruct lead as [|x lead]; cbn [length plus Nat.eqb] in *.
    + rewrite Nat.ltb_irrefl in H. destruct bulk as [[|]|]; try discriminate; injection H as <-; auto.
    + replace (r <? S (length lead + r)) with true in H by (symmetry; apply Nat.ltb_lt; lia).
      destruct bulk as [[|]|]; try discriminate; injection H as <-; split; auto; discriminate.
  - intros (lead & -> & Hb & ->). rewrite (last_app r lead (repeat 3 r) (repeat_length _ _)).
    replace (list_eqb (repeat 3 r) (repeat 3 r)) with true by (symmetry; apply list_eqb_true; reflexivity).
    rewrite app_length, repeat_length. destruct lead as [|x lead]; cbn [length plus Nat.eqb].
    + rewrite Nat.ltb_irrefl. destruct bulk as [[|]|]; congruence.
    + replace (r <? S (length lead + r)) with true by (symmetry; apply Nat.ltb_lt; lia).
      destruct bulk as [[|]|]; try reflexivity. discriminate.
Qed.

Lemma verify_ok c sh b : c <> Tensor2x3 -> c <> Tensor4x3 -> verify c sh b = Ok true <-> documented c sh b.
Proof.
  intros H1 H2. destruct c; try contradiction; cbn [verify documented].
  - tauto.
  - apply equal_axes_true.
  - split.
    + intros H. injection H as H. apply andb_prop in H. destruct H as [L E]. apply Nat.eqb_eq in L, E.
      destruct (flag b).
      * destruct sh as [|N [|n [|m [|? ?]]]]; try discriminate. cbn in E. subst. exists N, n. reflexivity.
      * destruct sh as [|n [|m [|? ?]]]; try discriminate. cbn in E. subst. exists n. reflexivity.
    + destruct (flag b); [intros (N & n & ->)|intros (n & ->)]; cbn; rewrite Nat.eqb_refl; reflexivity.
  - split.
    + destruct sh as [|s sh]; [discriminate|]. intros H. apply (f_equal (fun r => match r with Ok x => x | _ => false end)) in H.
      cbv beta iota in H. apply andb_prop in H. destruct H as [L E]. apply Nat.eqb_eq in L. apply list_eqb_true in E.
      destruct (flag b).
      * destruct sh as [|n [|m [|p [|q [|? ?]]]]]; try discriminate. cbn in E. injection E as <- <- <-. exists s, q. reflexivity.
      * destruct sh as [|n [|m [|p [|? ?]]]]; try discriminate. cbn in E. injection E as <- <- <-. exists p. reflexivity.
    + destruct (flag b); [intros (N & n & ->)|intros (n & ->)]; cbn [repeat length Nat.eqb andb]; f_equal; apply list_eqb_true; reflexivity.
Qed.
Lemma verify_3 r lead : let sh := lead ++ repeat 3 r in
  list_eqb (last_ r sh) (repeat 3 r) = true /\ length sh = length lead + r.
Proof.
  cbv zeta. rewrite (last_app r lead _ (repeat_length _ _)), app_length, repeat_length. split; [apply list_eqb_true|]; reflexivity.
Qed.

Definition free_rank (c : cls) (rk : option nat) : Prop := rk = None \/ cls_rank c = None.
(** The flag stored in the object. *)
Definition stored (c : cls) (sh : list nat) (bulk : option bool) : option bool :=
  match c with
  | Tensor2x3 => if 2 <? length sh then Some true else bulk
  | Tensor4x3 => if 4 <? length sh then Some true else bulk
  | _ => bulk
  end.
Definition frame_for (sh : list nat) (b : option bool) (frame : option arr) : result arr :=
  match frame with
  | Some f => Ok f
  | None => if flag b then match sh with _ :: n :: _ => Ok (eye n) | _ => Err IndexError end
            else match sh with n :: _ => Ok (eye n) | [] => Err IndexError end
  end.
Lemma init_ok c a b rk frame o : init c true a b rk frame = Ok o <->
  verify c (shape a) b = Ok true /\ free_rank c rk /\ exists f, frame_for (shape a) b frame = Ok f /\ o = Obj c a f b rk.
Proof.
  unfold init, free_rank. cbn [bind].
  destruct (verify c (shape a) b) as [[|]|e]; cbn [bind negb]; try (split; [discriminate|intros (H & _); discriminate]).
  change (match frame with Some f => Ok f | None => _ end) with (frame_for (shape a) b frame).
  destruct (frame_for (shape a) b frame) as [f|e]; cbn [bind].
  - destruct rk as [k|]; [destruct (cls_rank c) as [r|]|].
    + split; [discriminate|]. intros (_ & [H|H] & _); discriminate.
    + split; [intros H; injection H as <-; eauto 6|]. intros (_ & _ & g & H & ->). injection H as ->. reflexivity.
    + split; [intros H; injection H as <-; eauto 6|]. intros (_ & _ & g & H & ->). injection H as ->. reflexivity.
  - split; [discriminate|]. intros (_ & _ & g & H & _). discriminate.
Qed.
Lemma lead_length (lead t : list nat) r : length t = r -> (r <? length (lead ++ t)) = negb (length lead =? 0).
Proof.
  intros <-. rewrite app_length. destruct lead; cbn [length plus Nat.eqb negb]; [apply Nat.ltb_irrefl|]. apply Nat.ltb_lt. lia.
Qed.
Lemma construct_ok c a bulk rk frame o : construct c true a bulk rk frame = Ok o <->
  documented c (shape a) bulk /\ free_rank c rk /\
  exists f, frame_for (shape a) (stored c (shape a) bulk) frame = Ok f /\ o = Obj c a f (stored c (shape a) bulk) rk.
Proof.
  unfold construct.
  assert (G : forall c, c <> Tensor2x3 -> c <> Tensor4x3 -> init c true a bulk rk frame = Ok o <->
    documented c (shape a) bulk /\ free_rank c rk /\ exists f, frame_for (shape a) bulk frame = Ok f /\ o = Obj c a f bulk rk).
  { intros d H1 H2. rewrite init_ok, (verify_ok d (shape a) bulk H1 H2). tauto. }
  assert (R : forall r d, (d = Tensor2x3 /\ r = 2 \/ d = Tensor4x3 /\ r = 4) ->
    (do b <- detect r (shape a) bulk; init d true a b rk frame) = Ok o <->
    (exists lead, shape a = lead ++ repeat 3 r /\
     match bulk with None => True | Some true => lead <> [] | Some false => lead = [] end) /\ free_rank d rk /\
    exists f, frame_for (shape a) (if r <? length (shape a) then Some true else bulk) frame = Ok f /\
              o = Obj d a f (if r <? length (shape a) then Some true else bulk) rk).
  { intros r d Hd.
    assert (V : forall lead bk, shape a = lead ++ repeat 3 r ->
      match bk with None => True | Some true => lead <> [] | Some false => lead = [] end ->
      verify d (shape a) (if r <? length (shape a) then Some true else bk) = Ok true).
    { intros lead bk E Hb. destruct (verify_3 r lead) as [E1 E2]. cbv zeta in E1, E2. rewrite <- E in E1, E2.
      rewrite E, (lead_length lead _ r (repeat_length _ _)), <- E.
      destruct Hd as [[-> ->]|[-> ->]]; cbn [verify]; change [3; 3; 3; 3] with (repeat 3 4); change [3; 3] with (repeat 3 2);
        rewrite E1, E2, andb_true_r; destruct lead as [|x lead]; cbn [length Nat.eqb negb plus];
        try (destruct bk as [[|]|]; [contradiction|reflexivity|reflexivity]);
        cbn [flag]; f_equal; apply Nat.leb_le; lia. }
    split.
    - destruct (detect r (shape a) bulk) as [b|e] eqn:D; cbn [bind]; [|discriminate].
      apply detect_ok in D. destruct D as (lead & E & Hb & ->). rewrite init_ok. intros (_ & Hr & f & Hf & ->).
      split; [exists lead; auto|]. split; [exact Hr|]. exists f. rewrite E, (lead_length lead _ r (repeat_length _ _)) in *.
      destruct (length lead =? 0); cbn [negb]; auto.
    - intros ((lead & E & Hb) & Hr & f & Hf & ->).
      assert (D : detect r (shape a) bulk = Ok (if r <? length (shape a) then Some true else bulk)).
      { apply detect_ok. exists lead. split; [exact E|]. split; [exact Hb|]. rewrite E, (lead_length lead _ r (repeat_length _ _)).
        destruct (length lead =? 0); reflexivity. }
      rewrite D. cbn [bind]. rewrite init_ok. split; [exact (V lead bulk E Hb)|]. split; [exact Hr|]. exists f. auto. }
  destruct c; cbn [stored bind]; try (apply G; discriminate).
  - apply (R 2 Tensor2x3). left. auto.
  - apply (R 4 Tensor4x3). right. auto.
Qed.

(** ** Operations *)
Lemma documented_none c sh bulk : plain c bulk -> documented c sh bulk -> documented c sh None.
Proof.
  intros H. destruct c; cbn [documented flag]; intros D; try exact D.
  - destruct H as [H|[H|H]]; try discriminate. rewrite H in D. exact D.
  - destruct H as [H|[H|H]]; try discriminate. rewrite H in D. exact D.
  - destruct D as (lead & E & _). exists lead. auto.
  - destruct D as (lead & E & _). exists lead. auto.
Qed.
Lemma stored_none c sh bulk : plain c bulk -> documented c sh bulk ->
  flag (stored c sh None) = flag (stored c sh bulk).
Proof.
  intros H D. assert (K : flag bulk = false -> flag (stored c sh None) = flag (stored c sh bulk)).
  { intros K. destruct c; cbn [stored flag]; try (symmetry; exact K); destruct (_ <? _); cbn [flag]; congruence. }
  destruct H as [->|[->|H]]; cbn [documented] in D.
  - destruct D as (lead & -> & Hb). cbn [stored]. rewrite (lead_length lead _ 2 (repeat_length _ _)).
    destruct lead; cbn [length Nat.eqb negb]; [|reflexivity]. destruct bulk as [[|]|]; [contradiction|reflexivity|reflexivity].
  - destruct D as (lead & -> & Hb). cbn [stored]. rewrite (lead_length lead _ 4 (repeat_length _ _)).
    destruct lead; cbn [length Nat.eqb negb]; [|reflexivity]. destruct bulk as [[|]|]; [contradiction|reflexivity|reflexivity].
  - exact (K H).
Qed.
Lemma again_ok c a bulk frame o b : plain c bulk -> construct c true a bulk None frame = Ok o -> shape b = shape a ->
  exists o', again o b (o_frame o) = Ok o' /\ alike o o' b.
Proof.
  intros P H Hb. apply construct_ok in H. destruct H as (D & _ & f & Hf & ->). unfold again. cbn [o_cls o_frame].
  pose proof (documented_none c (shape a) bulk P D) as D'. pose proof (stored_none c (shape a) bulk P D) as S.
  exists (Obj c b f (stored c (shape b) None) None). split.
  - apply construct_ok. rewrite Hb. split; [exact D'|]. split; [left; reflexivity|]. exists f. split; reflexivity.
  - unfold alike, rank, is_bulk. cbn [o_arr o_cls o_frame o_rank o_bulk]. unfold ndim. rewrite Hb, S. auto 6.
Qed.
Lemma turn_app r (p c : cell) : length c = r -> turn r (p ++ c) = p ++ rev c.
Proof.
  intros <-. unfold turn. rewrite app_length. replace (length p + length c - length c) with (length p) by lia.
  rewrite firstn_app, firstn_all, Nat.sub_diag. cbn [firstn]. rewrite app_nil_r. f_equal. f_equal.
  rewrite skipn_app, skipn_all, Nat.sub_diag. reflexivity.
Qed.
Lemma rev_repeat (n r : nat) : rev (repeat n r) = repeat n r.
Proof.
  induction r as [|r IH]; [reflexivity|]. cbn [repeat rev]. rewrite IH. symmetry. exact (repeat_cons r n).
Qed.
(** The trailing axes of an object have one length. *)
Lemma trailing c a bulk frame o : c <> Vector -> plain c bulk -> construct c true a bulk None frame = Ok o ->
  exists lead n, shape a = lead ++ repeat n (rank o) /\ (c = Tensor -> lead = []).
Proof.
  intros V P H. apply construct_ok in H. destruct H as (D & _ & f & Hf & ->). unfold rank. cbn [o_cls o_rank o_bulk o_arr].
  destruct c; try contradiction; cbn [documented cls_rank stored] in *.
  - destruct P as [P|[P|P]]; try discriminate. rewrite P. destruct D as (n & r & E). exists [], n. unfold ndim.
    rewrite E, repeat_length. auto.
  - destruct P as [P|[P|P]]; try discriminate. rewrite P in D. destruct D as (n & E). exists [], n. rewrite E. split; [reflexivity|discriminate].
  - destruct P as [P|[P|P]]; try discriminate. rewrite P in D. destruct D as (n & E). exists [], n. rewrite E. split; [reflexivity|discriminate].
  - destruct D as (lead & E & _). exists lead, 3. split; [exact E|discriminate].
  - destruct D as (lead & E & _). exists lead, 3. split; [exact E|discriminate].
Qed.
End P.
