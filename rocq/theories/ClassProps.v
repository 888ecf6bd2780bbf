(** Property C116: what calling a function object runs. *)
From Verif Require Import Prelude ClassModel.

(** ** Specification *)
Definition is_class (s : state) (c : nat) : Prop := c < length (classes s).
(** [issubclass(C, MetaFunction)] *)
Definition derives (s : state) (c : nat) : Prop := In 0 (mro (get s c)).
Inductive reached : state -> Prop :=
| r_start : reached start
| r_step s o s' : reached s -> step s o = Ok s' -> reached s'.
(** Programs that only define [value], [gradient] and [Hessian], and only in classes that derive from MetaFunction. *)
Definition tame (s : state) (o : op) : Prop :=
  match o with
  | Class bases ns =>
      ns a_f = None /\ ns a_g = None /\ ns a_G = None /\
      ((forall b, In b bases -> ~ derives s b) -> ns a_value = None /\ ns a_gradient = None /\ ns a_Hessian = None)
  | SetClass _ a _ | SetObj _ a _ => exists n, a = a_other n
  | New _ => True
  end.
Inductive regular : state -> Prop :=
| g_start : regular start
| g_step s o s' : regular s -> tame s o -> step s o = Ok s' -> regular s'.

(** ** Proofs *)
Inductive sub : list nat -> list nat -> Prop :=
| sub_nil l : sub [] l
| sub_skip s c l : sub s l -> sub s (c :: l)
| sub_take s c l : sub s l -> sub (c :: s) (c :: l).
Lemma sub_in s l : sub s l -> forall c, In c s -> In c l.
Proof. induction 1; intros d H'; [destruct H'|right; auto|]. destruct H' as [->|H']; [left; reflexivity|right; auto]. Qed.
Definition before (l : list nat) (d z : nat) : Prop := exists l1 l2, l = l1 ++ d :: l2 /\ In z l2.
Lemma before_cons c l d z : before l d z -> before (c :: l) d z.
Proof. intros (l1 & l2 & -> & H). exists (c :: l1), l2. split; [reflexivity|exact H]. Qed.
Lemma sub_before s l : sub s l -> forall d z, before s d z -> before l d z.
Proof.
  induction 1 as [l|s c l H IH|s c l H IH]; intros d z (l1 & l2 & E & Hz).
  - destruct l1; discriminate E.
  - apply before_cons, IH. exists l1, l2. split; assumption.
  - destruct l1 as [|x l1]; injection E as -> ->.
    + exists [], l. split; [reflexivity|apply (sub_in _ _ H), Hz].
    + apply before_cons, IH. exists l1, l2. split; [reflexivity|exact Hz].
Qed.
Lemma before_asym l d z : NoDup l -> before l d z -> before l z d -> False.
Proof.
  induction l as [|c l IH]; intros N (l1 & l2 & E & Hz) (k1 & k2 & E' & Hd); [destruct l1; discriminate E|]. inversion N as [|? ? Nc Nl]; subst.
  destruct l1 as [|x l1]; injection E as E0 E; subst c.
  - subst l2. destruct k1 as [|y k1]; injection E' as E0 E'; subst; [contradiction|]. apply Nc. apply in_or_app. right. right. exact Hd.
  - destruct k1 as [|y k1]; injection E' as E0' E'.
    + subst. apply Nc. apply in_or_app. right. right. exact Hz.
    + apply (IH Nl); [exists l1, l2|exists k1, k2]; split; assumption.
Qed.

Lemma memb_in c l : memb c l = true <-> In c l.
Proof. unfold memb. rewrite existsb_exists. split; [intros (d & H & E); apply Nat.eqb_eq in E; subst; exact H|intros H; exists c; split; [exact H|apply Nat.eqb_refl]]. Qed.
Lemma candidate_ok hs all c : candidate hs all = Some c -> (exists t, In (c :: t) hs) /\ forall s, In s all -> ~ In c (tl s).
Proof.
  induction hs as [|[|d t] hs IH]; cbn; [discriminate| |].
  - intros H. destruct (IH H) as [(t & Ht) B]. split; [exists t; right; exact Ht|exact B].
  - destruct (existsb _ all) eqn:E.
    + intros H. destruct (IH H) as [(t' & Ht) B]. split; [exists t'; right; exact Ht|exact B].
    + intros H. injection H as ->. split; [exists t; left; reflexivity|]. intros s Hs Hc. assert (X : existsb (fun s => memb c (tl s)) all = true) by (apply existsb_exists; exists s; split; [exact Hs|apply memb_in, Hc]). congruence.
Qed.
Lemma merge_ok fuel : forall ss l, merge fuel ss = Some l ->
  (forall s, In s ss -> sub s l) /\ (forall c, In c l -> exists s, In s ss /\ In c s) /\ NoDup l.
Proof.
  induction fuel as [|fuel IH]; intros ss l; cbn [merge]; destruct (forallb _ ss) eqn:E.
  1, 3: intros H; injection H as <-; split; [|split; [intros c []|constructor]]; intros s Hs; rewrite forallb_forall in E; specialize (E s Hs); destruct s; [constructor|discriminate].
  1: discriminate.
  destruct (candidate ss ss) as [c|] eqn:C; [|discriminate]. destruct (merge fuel _) as [l'|] eqn:M; [|discriminate]. intros H. injection H as <-.
  destruct (candidate_ok _ _ _ C) as [(t & Ht) T]. destruct (IH _ _ M) as (A & B & N). split; [|split].
  - intros s Hs. specialize (A (drop c s) (in_map (drop c) _ _ Hs)). destruct s as [|d s]; [constructor|]. cbn in A. destruct (Nat.eqb_spec d c) as [->|]; [apply sub_take, A|apply sub_skip, A].
  - intros d [<-|Hd]; [exists (c :: t); split; [exact Ht|left; reflexivity]|]. destruct (B d Hd) as (s' & Hs' & Hd'). apply in_map_iff in Hs'. destruct Hs' as (s & <- & Hs). exists s. split; [exact Hs|].
    destruct s as [|x s]; [exact Hd'|]. cbn in Hd'. destruct (x =? c); [right; exact Hd'|exact Hd'].
  - constructor; [|exact N]. intros Hc. destruct (B c Hc) as (s' & Hs' & Hc'). apply in_map_iff in Hs'. destruct Hs' as (s & <- & Hs). specialize (T s Hs).
    destruct s as [|x s]; [exact Hc'|]. cbn in Hc', T. destruct (Nat.eqb_spec x c) as [->|Nx]; [contradiction|]. destruct Hc' as [X|X]; [congruence|contradiction].
Qed.
Lemma merge_single t : forall fuel ss, NoDup t -> length t <= fuel -> (ss = [t; []] \/ exists b r, t = b :: r /\ ss = [t; [b]]) -> merge fuel ss = Some t.
Proof.
  induction t as [|b r IH]; intros fuel ss N L [->|(b' & r' & E & ->)].
  - destruct fuel; reflexivity.
  - discriminate E.
  - destruct fuel as [|fuel]; [cbn in L; lia|]. inversion N as [|? ? Nb Nr]; subst.
    cbn [merge forallb andb candidate existsb tl orb]. assert (M : memb b r = false). { destruct (memb b r) eqn:X; [apply memb_in in X; contradiction|reflexivity]. }
    rewrite M. cbn [memb existsb orb map drop]. rewrite Nat.eqb_refl. rewrite IH; [reflexivity|exact Nr|cbn in L; lia|left; reflexivity].
  - injection E as <- <-. destruct fuel as [|fuel]; [cbn in L; lia|]. inversion N as [|? ? Nb Nr]; subst.
    cbn [merge forallb andb candidate existsb tl orb]. assert (M : memb b r = false). { destruct (memb b r) eqn:X; [apply memb_in in X; contradiction|reflexivity]. }
    rewrite M. cbn [memb existsb orb map drop]. rewrite Nat.eqb_refl. rewrite IH; [reflexivity|exact Nr|cbn in L; lia|left; reflexivity].
Qed.

(** Invariant of all programs. *)
Record inv (s : state) : Prop := Inv {
  i_zero : is_class s 0;
  i_self : forall c, is_class s c -> exists t, mro (get s c) = c :: t;
  i_known : forall c d, is_class s c -> In d (mro (get s c)) -> is_class s d;
  i_once : forall c, is_class s c -> NoDup (mro (get s c));
  i_meta : forall c, is_class s c -> (meta (get s c) = true <-> derives s c) }.

Lemma get_old s k os c : c < length (classes s) -> get (State (classes s ++ [k]) os) c = get s c.
Proof. intros H. unfold get. cbn. apply app_nth1, H. Qed.
Lemma get_new s k os : get (State (classes s ++ [k]) os) (length (classes s)) = k.
Proof. unfold get. cbn. rewrite app_nth2 by lia. rewrite Nat.sub_diag. reflexivity. Qed.
Lemma set_nth_length {A} n (x : A) l : length (set_nth n x l) = length l.
Proof. revert n. induction l as [|y l IH]; intros [|n]; cbn; try reflexivity. f_equal. apply IH. Qed.
Lemma nth_set {A} n (x : A) l m d : n < length l -> nth m (set_nth n x l) d = if m =? n then x else nth m l d.
Proof.
  revert n m. induction l as [|y l IH]; intros n m H; [cbn in H; lia|]. destruct n as [|n], m as [|m]; cbn; try reflexivity. apply IH. cbn in H. lia.
Qed.

Definition new_class (s : state) bases ns l : state :=
  let m := existsb (fun b => meta (get s b)) bases in
  State (classes s ++ [Cls (length (classes s) :: l) (if m then meta_new ns else ns) m]) (objs s).
Lemma class_step s bases ns s' : inv s -> step s (Class bases ns) = Ok s' ->
  exists l, s' = new_class s bases ns l /\ (forall b, In b bases -> is_class s b /\ sub (mro (get s b)) l) /\
  (forall c, In c l -> is_class s c /\ exists b, In b bases /\ In c (mro (get s b))) /\ NoDup l.
Proof.
  intros I E. cbn [step] in E. cbv zeta in E. destruct (forallb _ bases) eqn:B; [|discriminate]. rewrite forallb_forall in B. destruct (merge _ _) as [l|] eqn:M; [|discriminate]. injection E as <-.
  exists l. split; [reflexivity|]. destruct (merge_ok _ _ _ M) as (S & In_ & N).
  assert (K : forall b, In b bases -> is_class s b) by (intros b Hb; apply Nat.ltb_lt, B, Hb). split; [|split; [|exact N]].
  - intros b Hb. split; [apply K, Hb|]. apply S. apply in_or_app. left. apply (in_map (fun b => mro (get s b))), Hb.
  - intros c Hc. destruct (In_ c Hc) as (q & Hq & Hcq). apply in_app_or in Hq. assert (X : exists b, In b bases /\ In c (mro (get s b))).
    { destruct Hq as [Hq|[<-|[]]]; [apply in_map_iff in Hq; destruct Hq as (b & <- & Hb); exists b; split; assumption|]. exists c. split; [exact Hcq|].
      destruct (i_self s I c (K c Hcq)) as (t & ->). left. reflexivity. }
    split; [|exact X]. destruct X as (b & Hb & Hcb). apply (i_known s I b); [apply K, Hb|exact Hcb].
Qed.
Lemma has_meta s bases : inv s -> (forall b, In b bases -> is_class s b) -> (existsb (fun b => meta (get s b)) bases = true <-> exists b, In b bases /\ derives s b).
Proof. intros I K. rewrite existsb_exists. split; intros (b & Hb & H); exists b; (split; [exact Hb|]); apply (i_meta s I); auto. Qed.

Lemma same_inv s s' : length (classes s') = length (classes s) -> (forall c, mro (get s' c) = mro (get s c) /\ meta (get s' c) = meta (get s c)) -> inv s -> inv s'.
Proof.
  intros L E I. unfold is_class, derives in *. split; unfold is_class, derives; rewrite L; [apply (i_zero s I)| | | |]; intros c; rewrite (proj1 (E c)).
  - apply (i_self s I).
  - intros d. apply (i_known s I).
  - apply (i_once s I).
  - rewrite (proj2 (E c)). apply (i_meta s I).
Qed.
Lemma inv_step s o s' : inv s -> step s o = Ok s' -> inv s'.
Proof.
  intros I E. destruct o as [bases ns|c a v|c|i a v].
  - destruct (class_step s bases ns s' I E) as (l & -> & Sub & El & N). set (n := length (classes s)).
    assert (Kb : forall b, In b bases -> is_class s b) by (intros b Hb; apply Sub, Hb).
    assert (Cases : forall c, is_class (new_class s bases ns l) c -> c = n \/ is_class s c).
    { intros c H. unfold is_class, new_class in *. cbn in H. rewrite app_length in H. cbn in H. fold n in H |- *. lia. }
    assert (Up : forall c, is_class s c -> is_class (new_class s bases ns l) c).
    { intros c H. unfold is_class, new_class in *. cbn. rewrite app_length. lia. }
    split; unfold derives; [apply Up, (i_zero s I)| | | |].
    + intros c H. destruct (Cases c H) as [->|H']; unfold new_class; cbv zeta; [rewrite get_new; exists l; reflexivity|]. rewrite get_old by exact H'. apply (i_self s I), H'.
    + intros c d H. destruct (Cases c H) as [->|H']; unfold new_class at 1; cbv zeta; [rewrite get_new|rewrite get_old by exact H'].
      * intros [<-|Hd]; [exact H|]. apply Up, El, Hd.
      * intros Hd. apply Up, (i_known s I c); assumption.
    + intros c H. destruct (Cases c H) as [->|H']; unfold new_class; cbv zeta; [rewrite get_new|rewrite get_old by exact H'; apply (i_once s I), H'].
      cbn. constructor; [|exact N]. intros Hn. destruct (El n Hn) as [X _]. unfold is_class in X. fold n in X. lia.
    + intros c H. destruct (Cases c H) as [->|H']; unfold new_class; cbv zeta; [rewrite get_new|rewrite get_old by exact H'; apply (i_meta s I), H'].
      cbn [meta mro]. rewrite has_meta by assumption. split.
      * intros (b & Hb & D). right. destruct (Sub b Hb) as [_ Sb]. apply (sub_in _ _ Sb), D.
      * intros [X|H0]; [|destruct (El 0 H0) as [_ (b & Hb & D)]; exists b; split; assumption].
        exfalso. pose proof (i_zero s I) as Z. unfold is_class in Z. unfold n in X. lia.
  - cbn [step] in E. destruct (c <? _) eqn:C; [|discriminate]. apply Nat.ltb_lt in C. cbv zeta in E. injection E as <-.
    apply (same_inv s); [apply set_nth_length| |exact I]. intros d. unfold get. cbn [classes]. rewrite nth_set by exact C. destruct (Nat.eqb_spec d c) as [->|]; split; reflexivity.
  - cbn [step] in E. destruct (c <? _); [|discriminate]. injection E as <-. apply (same_inv s); [reflexivity|intros d; split; reflexivity|exact I].
  - cbn [step] in E. destruct (nth_error (objs s) i); [|discriminate]. injection E as <-. apply (same_inv s); [reflexivity|intros d; split; reflexivity|exact I].
Qed.
Lemma inv_start : inv start.
Proof.
  assert (Z : forall c, is_class start c -> c = 0) by (intros c H; unfold is_class in H; cbn in H; lia).
  split; [unfold is_class; cbn; lia| | | |].
  - intros c H. rewrite (Z c H). exists []. reflexivity.
  - intros c d H. rewrite (Z c H). intros [<-|[]]. unfold is_class. cbn. lia.
  - intros c H. rewrite (Z c H). repeat constructor. intros [].
  - intros c H. rewrite (Z c H). unfold derives. cbn. tauto.
Qed.
Lemma reached_inv s : reached s -> inv s.
Proof. induction 1; [apply inv_start|eapply inv_step; eassumption]. Qed.
Lemma regular_reached s : regular s -> reached s.
Proof. induction 1; [constructor|econstructor; eassumption]. Qed.

(** What a program that keeps to [tame] maintains. *)
Definition silent (s : state) (d : nat) : Prop := attrs (get s d) a_value = None /\ attrs (get s d) a_gradient = None /\ attrs (get s d) a_Hessian = None.
Definition paired (s : state) (d : nat) : Prop :=
  attrs (get s d) a_f = attrs (get s d) a_value /\ attrs (get s d) a_g = attrs (get s d) a_gradient /\ attrs (get s d) a_G = attrs (get s d) a_Hessian.
Record tinv (s : state) : Prop := Tinv {
  t_inv : inv s;
  t_zero : forall a, (forall n, a <> a_other n) -> attrs (get s 0) a = attrs MetaFunction a;
  t_pair : forall c, is_class s c -> c <> 0 -> paired s c;
  t_order : forall c d, is_class s c -> In d (mro (get s c)) -> silent s d \/ before (mro (get s c)) d 0;
  t_objs : forall o, In o (objs s) -> is_class s (class o) /\ forall a, (forall n, a <> a_other n) -> own o a = None }.

Lemma set_nth_in {A} n (x y : A) l : In y (set_nth n x l) -> y = x \/ In y l.
Proof. revert n. induction l as [|z l IH]; intros [|n]; cbn; [intros []|intros []| |]; intros [<-|H]; auto. destruct (IH n H); auto. Qed.
Lemma bind_other d n v a : (forall n, a <> a_other n) -> bind_attr d (a_other n) v a = d a.
Proof. intros H. unfold bind_attr. destruct a; try reflexivity. destruct (H n0). reflexivity. Qed.

Lemma same_tinv s s' : inv s' -> length (classes s') = length (classes s) -> (forall c, mro (get s' c) = mro (get s c)) ->
  (forall c a, (forall n, a <> a_other n) -> attrs (get s' c) a = attrs (get s c) a) ->
  (forall o, In o (objs s') -> is_class s (class o) /\ forall a, (forall n, a <> a_other n) -> own o a = None) -> tinv s -> tinv s'.
Proof.
  intros I' L M A O T.
  assert (P : forall c, paired s c -> paired s' c) by (intros c; unfold paired; rewrite !A by discriminate; tauto).
  assert (S : forall c, silent s c -> silent s' c) by (intros c; unfold silent; rewrite !A by discriminate; tauto).
  split; [exact I'| | | |]; unfold is_class in *; try rewrite L.
  - intros a Ha. rewrite A by exact Ha. apply (t_zero s T), Ha.
  - intros c H N. apply P, (t_pair s T); assumption.
  - intros c d H. rewrite M. intros Hd. destruct (t_order s T c d H Hd); [left; apply S|right]; assumption.
  - exact O.
Qed.
Lemma tinv_step s o s' : tinv s -> tame s o -> step s o = Ok s' -> tinv s'.
Proof.
  intros T Ta E. pose proof (t_inv s T) as I. pose proof (inv_step _ _ _ I E) as I'. destruct o as [bases ns|c a v|c|i a v].
  - destruct (class_step s bases ns s' I E) as (l & -> & Sub & El & N). clear E. set (n := length (classes s)) in *.
    assert (Kb : forall b, In b bases -> is_class s b) by (intros b Hb; apply Sub, Hb).
    assert (Cases : forall c, is_class (new_class s bases ns l) c -> c = n \/ is_class s c).
    { intros c H. unfold is_class, new_class in *. cbn in H. rewrite app_length in H. cbn in H. fold n in H |- *. lia. }
    assert (Old : forall c, is_class s c -> get (new_class s bases ns l) c = get s c) by (intros c H; apply get_old, H).
    assert (New_ : get (new_class s bases ns l) n = Cls (n :: l) (if existsb (fun b => meta (get s b)) bases then meta_new ns else ns) (existsb (fun b => meta (get s b)) bases)) by apply get_new.
    destruct Ta as (Nf & Ng & NG & Plain).
    assert (Mt : (existsb (fun b => meta (get s b)) bases = true /\ In 0 l) \/
                 (existsb (fun b => meta (get s b)) bases = false /\ ns a_value = None /\ ns a_gradient = None /\ ns a_Hessian = None)).
    { destruct (existsb _ bases) eqn:X.
      - left. split; [reflexivity|]. apply (has_meta s bases I Kb) in X. destruct X as (b & Hb & D). destruct (Sub b Hb) as [_ Sb]. apply (sub_in _ _ Sb), D.
      - right. split; [reflexivity|]. apply Plain. intros b Hb D. assert (Y : existsb (fun b => meta (get s b)) bases = true) by (apply (has_meta s bases I Kb); exists b; split; assumption). congruence. }
    split; [exact I'| | | |].
    + intros a Ha. rewrite Old by apply (i_zero s I). apply (t_zero s T), Ha.
    + intros c H N0. destruct (Cases c H) as [->|H']; unfold paired; [rewrite New_|rewrite Old by exact H'; apply (t_pair s T); assumption]. cbn [attrs].
      destruct Mt as [[-> _]|(-> & Hv & Hg & HG)]; [cbn; rewrite Nf, Ng, NG; repeat split; [destruct (ns a_value)|destruct (ns a_gradient)|destruct (ns a_Hessian)]; reflexivity|].
      rewrite Nf, Ng, NG, Hv, Hg, HG. repeat split.
    + intros c d H. destruct (Cases c H) as [->|H'].
      * rewrite New_. cbn [mro]. intros [<-|Hd].
        -- destruct Mt as [[_ H0]|(X & Hv & Hg & HG)]; [right; exists [], l; split; [reflexivity|exact H0]|left]. unfold silent. rewrite New_, X. cbn [attrs]. auto.
        -- destruct (El d Hd) as [Kd (b & Hb & Hdb)]. destruct (Sub b Hb) as [Kb' Sb]. destruct (t_order s T b d Kb' Hdb) as [S|B].
           ++ left. unfold silent. rewrite Old by exact Kd. exact S.
           ++ right. apply before_cons. apply (sub_before _ _ Sb), B.
      * rewrite Old by exact H'. intros Hd. destruct (t_order s T c d H' Hd) as [S|B]; [left|right; exact B]. unfold silent. rewrite Old; [exact S|]. apply (i_known s I c); assumption.
    + cbn [new_class objs]. intros o Ho. destruct (t_objs s T o Ho) as [K A]. split; [|exact A]. unfold is_class, new_class in *. cbn. rewrite app_length. lia.
  - destruct Ta as (m & ->). cbn [step] in E. destruct (c <? _) eqn:C; [|discriminate]. apply Nat.ltb_lt in C. cbv zeta in E. injection E as <-.
    apply (same_tinv s); [exact I'|apply set_nth_length| | |exact (t_objs s T)|exact T]; intros d; unfold get; cbn [classes]; rewrite nth_set by exact C; destruct (Nat.eqb_spec d c) as [->|]; try reflexivity.
    intros a Ha. cbn [attrs]. rewrite bind_other by exact Ha. reflexivity.
  - cbn [step] in E. destruct (c <? _) eqn:C; [|discriminate]. apply Nat.ltb_lt in C. injection E as <-. apply (same_tinv s); try reflexivity; [exact I'| |exact T]. cbn [objs]. intros o Ho. apply in_app_or in Ho.
    destruct Ho as [Ho|[<-|[]]]; [apply (t_objs s T), Ho|]. split; [exact C|reflexivity].
  - destruct Ta as (m & ->). cbn [step] in E. destruct (nth_error (objs s) i) as [o|] eqn:C; [|discriminate]. injection E as <-. apply (same_tinv s); try reflexivity; [exact I'| |exact T]. cbn [objs]. intros o' Ho.
    apply set_nth_in in Ho. destruct Ho as [->|Ho]; [|apply (t_objs s T), Ho]. cbn [class own]. apply nth_error_In in C. destruct (t_objs s T o C) as [K A]. split; [exact K|].
    intros a Ha. rewrite bind_other by exact Ha. apply A, Ha.
Qed.
Lemma tinv_start : tinv start.
Proof.
  split; [apply inv_start| | | |].
  - reflexivity.
  - intros c H N. unfold is_class in H. cbn in H. lia.
  - intros c d H. unfold is_class in H. cbn in H. assert (c = 0) as -> by lia. cbn. intros [<-|[]]. left. repeat split.
  - intros o [].
Qed.
Lemma regular_tinv s : regular s -> tinv s.
Proof. induction 1; [apply tinv_start|eapply tinv_step; eassumption]. Qed.

Lemma first_none s l a : (forall d, In d l -> attrs (get s d) a = None) -> first s l a = None.
Proof. induction l as [|d l IH]; intros H; [reflexivity|]. cbn. rewrite (H d (or_introl eq_refl)). apply IH. intros e He. apply H. right. exact He. Qed.
Lemma first_pair s a b pre post k : (forall d, In d pre -> attrs (get s d) a = attrs (get s d) b) ->
  attrs (get s 0) a = Some k -> attrs (get s 0) b = None -> (forall d, In d post -> attrs (get s d) b = None) ->
  first s (pre ++ 0 :: post) a = or_else (first s (pre ++ 0 :: post) b) (Some k).
Proof.
  intros P A B N. induction pre as [|d pre IH]; cbn.
  - rewrite A, B. cbn. rewrite (first_none s post b N). reflexivity.
  - rewrite (P d (or_introl eq_refl)). destruct (attrs (get s d) b); [reflexivity|]. cbn. apply IH. intros e He. apply P. right. exact He.
Qed.

Theorem C116_calls_partial s c : regular s -> is_class s c -> derives s c ->
  class_attr s c a_f = or_else (class_attr s c a_value) (Some CallsF0) /\
  class_attr s c a_g = or_else (class_attr s c a_gradient) (Some CallsF1) /\
  class_attr s c a_G = or_else (class_attr s c a_Hessian) (Some CallsF2) /\
  forall o, In o (objs s) -> class o = c ->
    called s o = or_else (obj_attr s o a_value) (Some CallsF0) /\
    obj_attr s o a_g = or_else (obj_attr s o a_gradient) (Some CallsF1) /\
    obj_attr s o a_G = or_else (obj_attr s o a_Hessian) (Some CallsF2).
Proof.
  intros R K D. pose proof (regular_tinv s R) as T. pose proof (t_inv s T) as I.
  assert (X : class_attr s c a_f = or_else (class_attr s c a_value) (Some CallsF0) /\ class_attr s c a_g = or_else (class_attr s c a_gradient) (Some CallsF1) /\ class_attr s c a_G = or_else (class_attr s c a_Hessian) (Some CallsF2)).
  { unfold class_attr. unfold derives in D. pose proof (i_once s I c K) as N. pose proof (i_known s I c) as Kn. pose proof (t_order s T c) as Or. destruct (in_split _ _ D) as (pre & post & E). rewrite E in *.
    assert (Pre : forall d, In d pre -> paired s d).
    { intros d Hd. apply (t_pair s T); [apply (Kn d K), in_or_app; left; exact Hd|]. intros ->. apply NoDup_remove_2 in N. apply N, in_or_app. left. exact Hd. }
    assert (Post : forall d, In d post -> silent s d).
    { intros d Hd. destruct (Or d K) as [S|B]; [apply in_or_app; right; right; exact Hd|exact S|]. exfalso. apply (before_asym _ _ _ N B). exists pre, post. split; [reflexivity|exact Hd]. }
    repeat split; apply first_pair; try (intros d Hd; first [apply Pre, Hd|apply Post, Hd]); rewrite (t_zero s T) by discriminate; reflexivity. }
  destruct X as (Xf & Xg & XG). split; [exact Xf|]. split; [exact Xg|]. split; [exact XG|].
  intros o Ho <-. destruct (t_objs s T o Ho) as [_ A]. unfold called, obj_attr. rewrite !A by discriminate. cbn [or_else]. auto.
Qed.

(** Every class statement that has [value], [gradient] or [Hessian], in every program. *)
Theorem C116_defined s bases ns s' : reached s -> step s (Class bases ns) = Ok s' -> (exists b, In b bases /\ derives s b) ->
  let c := length (classes s) in
  is_class s' c /\ derives s' c /\
  (forall v, ns a_value = Some v -> class_attr s' c a_value = Some v /\ class_attr s' c a_f = Some v /\
     forall o, class o = c -> own o a_f = None -> called s' o = Some v) /\
  (forall v, ns a_gradient = Some v -> class_attr s' c a_gradient = Some v /\ class_attr s' c a_g = Some v) /\
  (forall v, ns a_Hessian = Some v -> class_attr s' c a_Hessian = Some v /\ class_attr s' c a_G = Some v) /\
  (forall d, is_class s d -> forall a, class_attr s' d a = class_attr s d a).
Proof.
  intros R E Hm c. pose proof (reached_inv s R) as I. destruct (class_step s bases ns s' I E) as (l & -> & Sub & El & N).
  assert (Kb : forall b, In b bases -> is_class s b) by (intros b Hb; apply Sub, Hb).
  assert (M : existsb (fun b => meta (get s b)) bases = true) by (apply has_meta; assumption).
  assert (New_ : get (new_class s bases ns l) c = Cls (c :: l) (meta_new ns) true). { unfold new_class. cbv zeta. rewrite M. apply get_new. }
  split; [unfold is_class, new_class, c; cbn; rewrite app_length; cbn; lia|].
  split; [unfold derives; rewrite New_; cbn; right; destruct Hm as (b & Hb & D); destruct (Sub b Hb) as [_ Sb]; apply (sub_in _ _ Sb), D|].
  split; [|split; [|split]]; try (intros v Hv; unfold class_attr; rewrite New_; cbn [mro first]; rewrite New_; cbn [attrs meta_new]; rewrite Hv; split; reflexivity).
  { intros v Hv. assert (F : class_attr (new_class s bases ns l) c a_f = Some v) by (unfold class_attr; rewrite New_; cbn [mro first]; rewrite New_; cbn [attrs meta_new]; rewrite Hv; reflexivity).
    split; [unfold class_attr; rewrite New_; cbn [mro first]; rewrite New_; cbn [attrs meta_new]; rewrite Hv; reflexivity|]. split; [exact F|]. intros o Ho Hn. unfold called, obj_attr. rewrite Hn, Ho. exact F. }
  intros d Hd a. unfold class_attr. assert (Old : forall e, is_class s e -> get (new_class s bases ns l) e = get s e) by (intros e H; apply get_old, H). rewrite Old by exact Hd.
  assert (Q : forall q, (forall e, In e q -> is_class s e) -> first (new_class s bases ns l) q a = first s q a).
  { induction q as [|e q IH]; intros H; [reflexivity|]. cbn [first]. rewrite Old by (apply H; left; reflexivity). rewrite IH; [reflexivity|]. intros x Hx. apply H. right. exact Hx. }
  apply Q. intros e. apply (i_known s I), Hd.
Qed.

(** One base: the class can always be made, and has what it does not define from its base. *)
Theorem C116_inherits s b ns : reached s -> is_class s b -> derives s b ->
  exists s', step s (Class [b] ns) = Ok s' /\
  let c := length (classes s) in
  forall a, ns a = None -> (a = a_f -> ns a_value = None) -> (a = a_g -> ns a_gradient = None) -> (a = a_G -> ns a_Hessian = None) ->
  class_attr s' c a = class_attr s b a.
Proof.
  intros R K D. pose proof (reached_inv s R) as I.
  assert (E : step s (Class [b] ns) = Ok (new_class s [b] ns (mro (get s b)))).
  { cbn [step]. cbv zeta. cbn [forallb map app]. rewrite (proj2 (Nat.ltb_lt _ _) K). cbn [andb].
    rewrite (merge_single (mro (get s b))); [reflexivity|apply (i_once s I), K|cbn; lia|]. right. destruct (i_self s I b K) as (t & ->). exists b, t. split; reflexivity. }
  exists (new_class s [b] ns (mro (get s b))). split; [exact E|]. intros c a Ha Hf Hg HG.
  destruct (C116_defined s [b] ns _ R E (ex_intro _ b (conj (or_introl eq_refl) D))) as (_ & _ & _ & _ & _ & Old). rewrite <- Old by exact K. clear E.
  assert (New_ : get (new_class s [b] ns (mro (get s b))) c = Cls (c :: mro (get s b)) (meta_new ns) true).
  { unfold new_class. cbv zeta. cbn [existsb]. rewrite (proj2 (i_meta s I b K) D). cbn [orb]. apply get_new. }
  unfold class_attr. rewrite New_. cbn [mro first]. rewrite New_. cbn [attrs].
  assert (Z : meta_new ns a = None) by (destruct a; cbn; try exact Ha; [rewrite (Hf eq_refl)|rewrite (Hg eq_refl)|rewrite (HG eq_refl)]; exact Ha).
  rewrite Z. cbn [or_else]. assert (G : get (new_class s [b] ns (mro (get s b))) b = get s b) by (apply get_old, K). rewrite G. reflexivity.
Qed.

(** ** REFUTED: that calling an object always runs its [value] *)
Definition namespace (l : list (attr * fn)) : dict := fold_right (fun p d => bind_attr d (fst p) (snd p)) (fun _ => None) l.
Definition empty : dict := namespace [].
Lemma run_reached ops : reached (run ops).
Proof.
  unfold run. assert (G : forall s, reached s -> reached (fold_left (fun s o => match step s o with Ok s' => s' | Err _ => s end) ops s)); [|apply G; constructor].
  induction ops as [|o ops IH]; intros s R; [exact R|]. cbn [fold_left]. apply IH. destruct (step s o) eqn:E; [econstructor; eassumption|exact R].
Qed.
(** (1) [value] from a class outside the hierarchy, mixed in first; (2) [value] assigned to the class afterwards;
    (3) [value] assigned to the object; (4) a class that defines [f] only. In each, [o.value] and [o(...)] are different functions. *)
Theorem C116_refuted :
  let differ ops := exists o, In o (objs (run ops)) /\ derives (run ops) (class o) /\
                    obj_attr (run ops) o a_value = Some (User 2) /\ called (run ops) o = Some (User 1) in
  differ [Class [0] (namespace [(a_value, User 1)]); Class [] (namespace [(a_value, User 2)]); Class [2; 1] empty; New 3] /\
  differ [Class [0] (namespace [(a_value, User 1)]); New 1; SetClass 1 a_value (User 2)] /\
  differ [Class [0] (namespace [(a_value, User 1)]); New 1; SetObj 0 a_value (User 2)] /\
  differ [Class [0] (namespace [(a_value, User 2)]); Class [1] (namespace [(a_f, User 1)]); New 2].
Proof.
  cbv zeta. unfold derives.
  split; [|split; [|split]]; (eexists; split; [apply (nth_error_In _ 0); vm_compute; reflexivity|]); (split; [vm_compute; tauto|split; vm_compute; reflexivity]).
Qed.

(** The library's classes: [Function], [MLSWeightFunction] with an empty [value] (approx/functions.py:11-96),
    [ConstantWeightFunction] with all three (109-135), and [TestMinFunction2D], whose two bases have a common base
    (function/testfunction.py:6-44). Then a class of a user that redefines [gradient] only. *)
Definition library : list op :=
  [Class [0] empty;                                                                       (* 1 Function *)
   Class [1] (namespace [(a_value, User 1)]);                                             (* 2 MLSWeightFunction *)
   Class [2] (namespace [(a_value, User 2); (a_gradient, User 3); (a_Hessian, User 4)]);  (* 3 ConstantWeightFunction *)
   Class [1] empty; Class [4] empty; Class [4] empty; Class [6; 5] empty;                 (* 4-7 TestFunction, 2D, Min, Min2D *)
   Class [3] (namespace [(a_gradient, User 5)]);                                          (* 8 *)
   New 8; New 7].
Lemma run_regular ops : forall s, regular s ->
  (fix ok s ops := match ops with [] => True | o :: r => tame s o /\ ok (match step s o with Ok s' => s' | Err _ => s end) r end) s ops ->
  regular (fold_left (fun s o => match step s o with Ok s' => s' | Err _ => s end) ops s).
Proof.
  induction ops as [|o ops IH]; intros s R H; [exact R|]. destruct H as [T H]. cbn [fold_left]. apply IH; [|exact H]. destruct (step s o) eqn:E; [econstructor; eassumption|exact R].
Qed.
Example C116_met_calls : regular (run library) /\ derives (run library) 8 /\ derives (run library) 7 /\
  mro (get (run library) 7) = [7; 6; 5; 4; 1; 0] /\
  map (fun o => (called (run library) o, obj_attr (run library) o a_g)) (objs (run library)) = [(Some (User 2), Some (User 5)); (Some CallsF0, Some CallsF1)].
Proof.
  split; [|split; [vm_compute; tauto|split; [vm_compute; tauto|split; vm_compute; reflexivity]]].
  apply run_regular; [constructor|]. unfold library.
  repeat (match goal with |- tame _ _ /\ _ => split; [unfold tame|] | |- True => exact Logic.I end);
    try (match goal with |- _ = None /\ _ => split; [reflexivity|split; [reflexivity|split; [reflexivity|]]] | |- True => exact Logic.I end);
    intros H; exfalso; match goal with H : forall b, In b (?x :: _) -> _ |- _ => apply (H x); [left; reflexivity|vm_compute; tauto] end.
Qed.
Example C116_met_defined : reached (run library) /\ is_class (run library) 3 /\ derives (run library) 3 /\
  (exists s', step (run library) (Class [3] (namespace [(a_value, User 6); (a_f, User 7)])) = Ok s' /\ class_attr s' 9 a_f = Some (User 6) /\ class_attr s' 9 a_g = Some (User 3)).
Proof.
  split; [apply run_reached|]. split; [vm_compute; lia|]. split; [vm_compute; tauto|]. eexists. split; [vm_compute; reflexivity|]. split; vm_compute; reflexivity.
Qed.
(** Two bases in the wrong order have no order of resolution, as in Python. *)
Example C116_met_error : step (run library) (Class [1; 7] empty) = Err TypeError /\ step (run library) (Class [7; 7] empty) = Err TypeError.
Proof. split; vm_compute; reflexivity. Qed.

Print Assumptions C116_calls_partial.
Print Assumptions C116_defined.
Print Assumptions C116_inherits.
Print Assumptions C116_refuted.
