(** Property C97: array wrappers own their memory. *)
From Coq Require Import QArith Qcanon.
From Verif Require Import Prelude OField ParallelModel MiscModel WrapModel.
Local Open Scope nat_scope.

Section Proofs.
Context {F : ofield}.
Local Notation arr := (ndarray F).
Implicit Types h : heap F.

(** Every wrapper has its own array. *)
Definition wf h : Prop := NoDup (objs h) /\ Forall (fun r => r < length (bufs h)) (objs h).
(** The operand exists already. *)
Definition exists_in h (x : operand F) : Prop :=
  match x with W o => o < length (objs h) | A r => r < length (bufs h) | _ => True end.

Lemma set_nth_length {X} n (x : X) l : length (set_nth n x l) = length l.
Proof. revert n. induction l; intros [|n]; cbn; auto. Qed.
Lemma set_nth_same {X} n (x : X) l : n < length l -> nth_error (set_nth n x l) n = Some x.
Proof. revert n. induction l; intros [|n] H; cbn in *; try lia; [reflexivity|]. apply IHl. lia. Qed.
Lemma set_nth_other {X} n m (x : X) l : n <> m -> nth_error (set_nth n x l) m = nth_error l m.
Proof. revert n m. induction l; intros [|n] [|m] H; cbn; try reflexivity; try lia. apply IHl. lia. Qed.
Lemma app_length_nth {X} (l k : list X) n : n < length l -> nth_error (l ++ k) n = nth_error l n.
Proof. intros H. apply nth_error_app1, H. Qed.
Lemma nth_error_last {X} (l : list X) x : nth_error (l ++ [x]) (length l) = Some x.
Proof. rewrite nth_error_app2 by lia. rewrite Nat.sub_diag. reflexivity. Qed.

Lemma write_objs h r a : objs (write h r a) = objs h. Proof. reflexivity. Qed.
Lemma write_length h r a : length (bufs (write h r a)) = length (bufs h). Proof. apply set_nth_length. Qed.
Lemma wf_write h r a : wf h -> wf (write h r a).
Proof. intros [H1 H2]. split; [exact H1|]. rewrite write_length. exact H2. Qed.
Lemma wf_alloc h a : wf h -> wf (fst (alloc h a)).
Proof.
  intros [H1 H2]. split; [exact H1|]. cbn. rewrite app_length. eapply Forall_impl; [|exact H2]. cbn. lia.
Qed.
Lemma wf_wrap h a : wf h -> wf (fst (wrap h a)).
Proof.
  intros [H1 H2]. split; cbn.
  - apply (Permutation_NoDup (Permutation_cons_append (objs h) (length (bufs h)))). constructor; [|exact H1].
    intros I. rewrite Forall_forall in H2. specialize (H2 _ I). lia.
  - rewrite app_length. apply Forall_app. split; [eapply Forall_impl; [|exact H2]; cbn; lia|]. repeat constructor. cbn. lia.
Qed.
Lemma wf_wrap_all h res : wf h -> wf (fst (wrap_all h res)).
Proof.
  revert h. induction res as [|a res IH]; intros h H; [exact H|]. pose proof (wf_wrap h a H) as W1. cbn.
  destruct (wrap h a) as [h1 o] eqn:E. injection E as <- <-. specialize (IH _ W1). cbn in IH.
  destruct (wrap_all _ res). exact IH.
Qed.
Lemma wf_store_all h outs res h' : wf h -> store_all h outs res = Ok h' -> wf h'.
Proof.
  revert h res. induction outs as [|o outs IH]; intros h [|a res] H E; cbn in E; try discriminate; [injection E as <-; exact H|].
  destruct (array_of h o); [|discriminate]. destruct (content h n); [|discriminate]. destruct (list_eq_dec _ _ _); [|discriminate].
  eapply IH; [|exact E]. apply wf_write, H.
Qed.
Lemma wf_run1 h c : wf h -> wf (run1 h c).
Proof.
  intros H. destruct c as [a|x|x c v|o tol|f xs out|f x xs]; unfold run1.
  - apply wf_alloc, H.
  - unfold construct. destruct (value_of h x) as [a|]; [|exact H]. apply (wf_wrap h a H).
  - unfold setitem. destruct (array_of h x) as [r|]; [|exact H]. destruct (content h r); [|exact H]. apply wf_write, H.
  - unfold chop_. destruct (to_numpy h o) as [r|]; [|exact H]. destruct (content h r); [|exact H]. apply wf_write, H.
  - unfold array_ufunc. destruct (values h xs); [|exact H]. destruct (values h _); [|exact H].
    destruct (f l) as [res|]; [|exact H]. cbn. destruct out as [os|].
    + destruct (store_all h os res) as [h'|] eqn:E; [|exact H]. cbn. apply (wf_store_all h os res h' H) in E.
      apply (wf_wrap_all h' res) in E. destruct (wrap_all h' res). exact E.
    + pose proof (wf_wrap_all h res H) as E. destruct (wrap_all h res). exact E.
  - unfold ufunc_at. destruct (values h (x :: xs)); [|exact H]. destruct (array_of h x); [|exact H].
    destruct (f l); [|exact H]. cbn. apply wf_write, H.
Qed.
Lemma wf_run p : wf (run p).
Proof.
  unfold run. assert (H : wf empty_heap) by (split; constructor). revert H. generalize (@empty_heap F).
  induction p as [|c p IH]; intros h H; [exact H|]. cbn. apply IH, wf_run1, H.
Qed.

(** What a new wrapper leaves alone. *)
Lemma wrap_keeps h a x : wf h -> exists_in h x -> value_of (fst (wrap h a)) x = value_of h x /\ array_of (fst (wrap h a)) x = array_of h x.
Proof.
  intros [_ Hf] Hx. destruct x as [o|r|v|b|]; cbn in *; try tauto.
  - rewrite app_length_nth by exact Hx. split; [|reflexivity].
    destruct (nth_error (objs h) o) as [r|] eqn:E; [|reflexivity]. unfold content. cbn. apply app_length_nth.
    rewrite Forall_forall in Hf. apply Hf. exact (nth_error_In _ _ E).
  - split; [|reflexivity]. unfold content. cbn. apply app_length_nth, Hx.
Qed.
Lemma wrap_exists h a x : exists_in h x -> exists_in (fst (wrap h a)) x.
Proof. destruct x; cbn; rewrite ?app_length; lia. Qed.
Lemma wrap_value h a : value_of (fst (wrap h a)) (W (length (objs h))) = Some a /\
  array_of (fst (wrap h a)) (W (length (objs h))) = Some (length (bufs h)).
Proof. cbn. rewrite nth_error_last. unfold content. cbn. rewrite nth_error_last. split; reflexivity. Qed.

Lemma wrap_all_spec h res : wf h ->
  let h' := fst (wrap_all h res) in let os := snd (wrap_all h res) in
  (forall x, exists_in h x -> value_of h' x = value_of h x /\ array_of h' x = array_of h x) /\
  Forall2 (fun o a => value_of h' (W o) = Some a) os res /\
  Forall (fun o => length (objs h) <= o /\ exists r, array_of h' (W o) = Some r /\ length (bufs h) <= r) os.
Proof.
  cbv zeta. revert h. induction res as [|a res IH]; intros h H; cbn [wrap_all]; [repeat split; constructor|].
  pose proof (wf_wrap h a H) as W1. pose proof (wrap_value h a) as [V1 V2]. pose proof (fun x => wrap_keeps h a x H) as K.
  pose proof (fun x => wrap_exists h a x) as X.
  destruct (wrap h a) as [h1 o] eqn:E. injection E as E1 E2. cbn [fst] in *.
  specialize (IH h1 W1). destruct (wrap_all h1 res) as [h2 os]. cbn [fst snd] in *. destruct IH as (I1 & I2 & I3).
  assert (Xo : exists_in h1 (W o)) by (rewrite <- E1, <- E2; cbn; rewrite app_length; cbn; lia).
  assert (L1 : length (objs h1) = S (length (objs h))) by (rewrite <- E1; cbn; rewrite app_length; cbn; lia).
  assert (L2 : length (bufs h1) = S (length (bufs h))) by (rewrite <- E1; cbn; rewrite app_length; cbn; lia).
  rewrite E2 in V1, V2. split; [|split].
  - intros x Hx. destruct (I1 x (X x Hx)) as [-> ->]. apply K, Hx.
  - constructor; [|exact I2]. destruct (I1 _ Xo) as [-> _]. exact V1.
  - constructor.
    + split; [lia|]. exists (length (bufs h)). split; [|lia]. destruct (I1 _ Xo) as [_ ->]. exact V2.
    + eapply Forall_impl; [|exact I3]. cbn. intros k (Hk & r & Hr & Hl). split; [lia|]. exists r. split; [exact Hr|lia].
Qed.

(** Writing. *)
Lemma write_value h r a x : (forall q, array_of h x = Some q -> q < length (bufs h)) -> r < length (bufs h) ->
  value_of (write h r a) x = if option_map (Nat.eqb r) (array_of h x) then
      match array_of h x with Some q => if Nat.eq_dec q r then Some a else value_of h x | None => value_of h x end
    else value_of h x.
Proof.
  intros Hx Hr. destruct x as [o|q|v|b|]; cbn; try reflexivity.
  - destruct (nth_error (objs h) o) as [q|] eqn:E; cbn; [|reflexivity]. unfold content. cbn.
    destruct (Nat.eq_dec q r) as [->|N]; [apply set_nth_same, Hr|apply set_nth_other; lia].
  - unfold content. cbn. destruct (Nat.eq_dec q r) as [->|N]; [apply set_nth_same, Hr|apply set_nth_other; lia].
Qed.
Lemma write_same h r a x : array_of h x = Some r -> r < length (bufs h) -> value_of (write h r a) x = Some a.
Proof.
  intros E Hr. rewrite write_value; [|intros q Hq; congruence|exact Hr]. rewrite E. cbn.
  destruct (Nat.eq_dec r r); congruence.
Qed.
Lemma write_other h r a x : array_of h x <> Some r -> value_of (write h r a) x = value_of h x.
Proof.
  destruct x as [o|q|v|b|]; cbn; intros N; try reflexivity.
  - destruct (nth_error (objs h) o) as [q|] eqn:E; [|reflexivity]. unfold content. cbn. apply set_nth_other. congruence.
  - unfold content. cbn. apply set_nth_other. congruence.
Qed.
Lemma content_lt h r a : content h r = Some a -> r < length (bufs h).
Proof. intros E. apply nth_error_Some. unfold content in E. congruence. Qed.
End Proofs.

(** C97.  In every program, different wrappers never share memory. *)
Theorem C97_separate : forall (F : ofield) (p : list (command F)) o1 o2 r1 r2,
  to_numpy (run p) o1 = Some r1 -> to_numpy (run p) o2 = Some r2 -> o1 <> o2 -> r1 <> r2.
Proof.
  intros F p o1 o2 r1 r2 H1 H2 N E. subst r2. destruct (wf_run p) as [Hn _]. unfold to_numpy in *. apply N.
  rewrite NoDup_nth_error in Hn. apply Hn; [apply nth_error_Some; congruence|congruence].
Qed.
Print Assumptions C97_separate.

(** The constructor copies: the new wrapper holds the values of its argument in memory that
    nothing else uses, and nothing else changes. *)
Theorem C97_constructor : forall (F : ofield) (p : list (command F)) x h o,
  construct (run p) x = Ok (h, o) ->
  length (objs (run p)) <= o /\ value_of h (W o) = value_of (run p) x /\
  (exists r, to_numpy h o = Some r /\ length (bufs (run p)) <= r) /\
  (forall y, exists_in (run p) y -> value_of h y = value_of (run p) y).
Proof.
  intros F p x h o E. unfold construct in E. destruct (value_of (run p) x) as [a|] eqn:V; [|discriminate].
  pose proof (wf_run p) as H. pose proof (wrap_value (run p) a) as [V1 V2]. injection E as <- <-. cbn [fst] in *.
  split; [cbn; lia|]. split; [exact V1|]. split; [exists (length (bufs (run p))); split; [exact V2|lia]|].
  intros y Hy. apply (wrap_keeps (run p) a y H Hy).
Qed.
Print Assumptions C97_constructor.

(** Writing an element changes that element for everything that holds the same array, and
    nothing for anything else; in particular no other wrapper changes. *)
Theorem C97_write : forall (F : ofield) (p : list (command F)) x c v h,
  setitem (run p) x c v = Ok h ->
  (forall y, array_of (run p) y = array_of (run p) x ->
     getitem h y c = Some v /\ forall d, d <> c -> getitem h y d = getitem (run p) y d) /\
  (forall y, array_of (run p) y <> array_of (run p) x -> value_of h y = value_of (run p) y) /\
  (forall o o', x = W o -> o' <> o -> value_of h (W o') = value_of (run p) (W o')).
Proof.
  intros F p x c v h E. unfold setitem in E. destruct (array_of (run p) x) as [r|] eqn:R; [|discriminate].
  destruct (content (run p) r) as [a|] eqn:Ca; [|discriminate]. injection E as <-.
  pose proof (content_lt _ _ _ Ca) as Hr. split; [|split].
  - intros y Ey. unfold getitem. rewrite (write_same _ r _ y Ey Hr). cbn.
    assert (V : value_of (run p) y = Some a).
    { destruct y; cbn in Ey |- *; try discriminate; rewrite ?Ey; try exact Ca. injection Ey as ->. exact Ca. }
    split; [destruct (cell_dec c c); congruence|]. intros d Hd. rewrite V. cbn. destruct (cell_dec d c); [contradiction|reflexivity].
  - intros y Ey. apply write_other, Ey.
  - intros o o' -> N. apply write_other. intros E'. cbn in R, E'. exact (C97_separate F p o' o r r E' R N eq_refl).
Qed.
Print Assumptions C97_write.

(** A universal function without outputs changes nothing that exists, and its results are
    new wrappers, with memory of their own, holding what NumPy computes from the values. *)
Theorem C97_ufunc : forall (F : ofield) (p : list (command F)) f xs h os,
  array_ufunc (run p) f xs None = Ok (h, os) ->
  (exists vs res, Forall2 (fun x v => value_of (run p) x = Some v) xs vs /\ f vs = Ok res /\
     Forall2 (fun o a => value_of h (W o) = Some a) os res) /\
  Forall (fun o => length (objs (run p)) <= o /\ exists r, to_numpy h o = Some r /\ length (bufs (run p)) <= r) os /\
  (forall y, exists_in (run p) y -> value_of h y = value_of (run p) y).
Proof.
  intros F p f xs h os E. unfold array_ufunc in E. destruct (values (run p) xs) as [vs|] eqn:V; [|discriminate].
  cbn in E. destruct (f vs) as [res|] eqn:R; [|discriminate]. cbn in E. injection E as E.
  pose proof (wrap_all_spec (run p) res (wf_run p)) as H. cbv zeta in H. rewrite E in H. cbn in H. destruct H as (H1 & H2 & H3).
  split; [|split; [exact H3|intros y Hy; apply H1, Hy]].
  exists vs, res. split; [|split; [exact R|exact H2]]. clear - V. revert vs V. induction xs as [|x xs IH]; intros vs V; cbn in V.
  - injection V as <-. constructor.
  - destruct (value_of (run p) x) eqn:Vx; [|discriminate]. destruct (values (run p) xs); [|discriminate]. injection V as <-.
    constructor; [exact Vx|]. apply IH. reflexivity.
Qed.
Print Assumptions C97_ufunc.

(** With an output, the array of the output receives the result, nothing else that exists
    changes, and what is returned is a new wrapper with a copy. *)
Theorem C97_output : forall (F : ofield) (p : list (command F)) f xs out h os,
  array_ufunc (run p) f xs (Some [out]) = Ok (h, os) ->
  exists a o, os = [o] /\ value_of h out = Some a /\ value_of h (W o) = Some a /\
    (exists vs, Forall2 (fun x v => value_of (run p) x = Some v) xs vs /\ f vs = Ok [a]) /\
    length (objs (run p)) <= o /\ (exists r, to_numpy h o = Some r /\ length (bufs (run p)) <= r) /\
    (forall y, exists_in (run p) y -> array_of (run p) y <> array_of (run p) out -> value_of h y = value_of (run p) y).
Proof.
  intros F p f xs out h os E. unfold array_ufunc in E. destruct (values (run p) xs) as [vs|] eqn:V; [|discriminate].
  destruct (values (run p) [out]) eqn:Vo; [|discriminate]. destruct (f vs) as [res|] eqn:R; [|discriminate]. cbn [bind] in E.
  destruct res as [|a [|b res]]; cbn in E; try discriminate.
  2:{ destruct (array_of (run p) out); [|discriminate]. destruct (content (run p) n); [|discriminate]. destruct (list_eq_dec _ _ _); discriminate. }
  destruct (array_of (run p) out) as [r|] eqn:Ro; [|discriminate]. destruct (content (run p) r) as [b|] eqn:Cb; [|discriminate].
  destruct (list_eq_dec Nat.eq_dec (shape a) (shape b)); [|discriminate]. cbn [bind] in E.
  pose proof (content_lt _ _ _ Cb) as Hr. set (h1 := write (run p) r a) in *.
  pose proof (wrap_all_spec h1 [a] (wf_write _ r a (wf_run p))) as H. cbv zeta in H. 
  assert (E' : wrap_all h1 [a] = (h, os)) by (injection E as <- <-; reflexivity).
  rewrite E' in H. cbn [fst snd] in H. destruct H as (H1 & H2 & H3).
  inversion H2 as [|o a' os' l' Ho Hos]; subst. inversion Hos; subst. inversion H3 as [|? ? [G1 G2] _]; subst.
  assert (Lb : length (bufs h1) = length (bufs (run p))) by apply write_length.
  assert (X : forall y, exists_in (run p) y -> exists_in h1 y) by (intros [] Hy; cbn in *; rewrite ?set_nth_length; exact Hy).
  assert (Xout : exists_in (run p) out).
  { destruct out; cbn in *; try exact I; [apply nth_error_Some; congruence|injection Ro as ->; exact Hr]. }
  exists a, o. split; [reflexivity|]. split; [destruct (H1 out (X out Xout)) as [-> _]; apply write_same; assumption|].
  split; [exact Ho|]. split.
  { exists vs. split; [|exact R]. clear - V. revert vs V. induction xs as [|x xs IH]; intros vs V; cbn in V.
    - injection V as <-. constructor.
    - destruct (value_of (run p) x) eqn:Vx; [|discriminate]. destruct (values (run p) xs); [|discriminate]. injection V as <-.
      constructor; [exact Vx|]. apply IH. reflexivity. }
  split; [exact G1|]. split; [rewrite <- Lb; exact G2|].
  intros y Hy Ny. destruct (H1 y (X y Hy)) as [-> _]. apply write_other, Ny.
Qed.
Print Assumptions C97_output.

(** Arguments of other types raise TypeError. *)
Theorem C97_types : forall (F : ofield) (h : heap F) f xs out,
  In Foreign xs \/ (exists os, out = Some os /\ In Foreign os) -> array_ufunc h f xs out = Err TypeError.
Proof.
  intros F h f xs out H. assert (G : forall l, In Foreign l -> values h l = None).
  { induction l as [|x l IH]; [intros []|]. intros [->|I]; cbn; [reflexivity|]. rewrite (IH I). destruct (value_of h x); reflexivity. }
  unfold array_ufunc. destruct H as [H|(os & -> & H)]; rewrite (G _ H); [reflexivity|]. destruct (values h xs); reflexivity.
Qed.
Print Assumptions C97_types.

(** An operator with assignment never returns the object itself: a second name for the
    object misses all assignments but the first. *)
Theorem C97_in_place_refuted :
  (forall (F : ofield) (p : list (command F)) f x y h os, in_place (run p) f x y = Ok (h, os) -> ~ In x os) /\
  exists (p : list (command Qc_ofield)) f h1 h2 a1 a2,
    in_place (run p) f 0 (Number one) = Ok (h1, [a1]) /\ in_place h1 f a1 (Number one) = Ok (h2, [a2]) /\
    getitem (run p) (W 0) [0] = Some zero /\
    getitem h2 (W a2) [0] = Some (add one one) /\ getitem h2 (W 0) [0] = Some one.
Proof.
  split.
  - intros F p f x y h os E I. destruct (C97_output F p f [W x; y] (W x) h os E) as (a & o & -> & _ & _ & (vs & Hv & _) & Ho & _).
    destruct I as [->|[]]. inversion Hv as [|? ? ? ? Hx _]; subst. cbn in Hx.
    destruct (nth_error (objs (run p)) x) eqn:N; [|discriminate]. assert (x < length (objs (run p))) by (apply nth_error_Some; congruence). lia.
  - set (plus := fun vs : list (ndarray Qc_ofield) =>
      match vs with [a; b] => Ok [ND (shape a) (fun c => add (at_ a c) (at_ b []))] | _ => Err ValueError end).
    exists [DoConstruct (Nested (ND [1] (fun _ => zero)))], plus. do 4 eexists.
    split; [cbn; reflexivity|]. split; [cbn; reflexivity|]. cbn. split; [reflexivity|].
    split; f_equal; apply Qc_is_canon; vm_compute; reflexivity.
Qed.
Print Assumptions C97_in_place_refuted.

(** A program with two wrappers of one array: writing to the array changes neither. *)
Example C97_met :
  let p := [DoNew (ND [2] (fun _ => one)); DoConstruct (A 0); DoConstruct (A 0); DoSet (A 0) [1] zero; DoSet (W 1) [0] zero] in
  (exists r1 r2, to_numpy (run (F := Qc_ofield) p) 0 = Some r1 /\ to_numpy (run (F := Qc_ofield) p) 1 = Some r2) /\
  getitem (run (F := Qc_ofield) p) (W 0) [1] = Some one /\ getitem (run (F := Qc_ofield) p) (W 0) [0] = Some one /\
  getitem (run (F := Qc_ofield) p) (W 1) [0] = Some zero.
Proof. cbv zeta. split; [do 2 eexists; split; reflexivity|]. repeat split. Qed.
