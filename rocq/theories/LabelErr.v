(** Property C114, second part: which statements about component arrays raise. *)
From Verif Require Import Prelude LabelModel LabelProps.

Section Spec.
Context {V : Type}.
(** A statement raises the error [e]: an unknown name, an index outside of the array, something
    else than a frame as the frame, an array of another size. *)
Inductive raises (s : state V) : op V -> exc -> Prop :=
| r_name o : (exists a, ~ is_array s a /\ ((exists f, o = Wrap a f) \/ (exists is, o = View a is) \/ (exists is, o = Copy a is) \/
                        (exists g, o = Relabel a g) \/ (exists i x, o = Write a i x))) \/
             (exists t, ~ is_vector s t /\ ((exists xs, o = Assign t xs) \/ (exists g, o = Move t g) \/ o = Transpose t)) -> raises s o NameError
| r_view a is i : is_array s a -> In i is -> length (contents s a) <= i -> raises s (View a is) IndexError
| r_copy a is i : is_array s a -> In i is -> length (contents s a) <= i -> raises s (Copy a is) IndexError
| r_write a i x : is_array s a -> length (contents s a) <= i -> raises s (Write a i x) IndexError
| r_frame a : is_array s a -> raises s (Relabel a None) TypeError
| r_shape t xs : is_vector s t -> length xs <> length (contents s (tens s t)) -> raises s (Assign t xs) AssertionError.
End Spec.

Lemma outside is n : forallb (fun i => i <? n) is = false <-> exists i, In i is /\ n <= i.
Proof.
  induction is as [|i is IH]; cbn [forallb In]; [split; [discriminate|intros (i & [] & _)]|]. rewrite andb_false_iff, IH, Nat.ltb_ge. split.
  - intros [X|(j & J & X)]; [exists i; tauto|exists j; tauto].
  - intros (j & [->|J] & X); [left; exact X|right; exists j; tauto].
Qed.

(** A statement raises exactly in these cases; a statement that raises has no effect in a history. *)
Theorem C114_errors :
  forall (V : Type) show std (v0 : V) s o,
  (forall e, step show std v0 s o = Err e <-> raises s o e) /\
  (forall ops e, run show std v0 ops = s -> raises s o e -> run show std v0 (ops ++ [o]) = s).
Proof.
  intros V show std v0 s o.
  assert (Len : forall a, length (contents s a) = length (pos (arrs s a))) by (intros; unfold contents; apply map_length).
  assert (G : forall e, step show std v0 s o = Err e <-> raises s o e).
  { intros e. split.
    - intros E. destruct o as [ms f|a f|a is|a is|a g|a i x|t xs|t g|t]; cbn [step] in E; cbv zeta in E; try discriminate E;
        match type of E with context [if ?b then _ else Err NameError] => destruct b eqn:K; [apply Nat.ltb_lt in K|apply Nat.ltb_ge in K; injection E as <-; apply r_name] end;
        try discriminate E; try (left; exists a; split; [unfold is_array; lia|]; first [now left; eexists|now right; left; eexists|now right; right; left; eexists|now right; right; right; left; eexists|now right; right; right; right; do 2 eexists]);
        try (right; exists t; split; [unfold is_vector; lia|]; first [now left; eexists|now right; left; eexists|now right; right]).
      + destruct (forallb _ is) eqn:X; [discriminate|]. injection E as <-. apply outside in X. destruct X as (i & Hi & X). apply (r_view s a is i); [exact K|exact Hi|rewrite Len; exact X].
      + destruct (forallb _ is) eqn:X; [discriminate|]. injection E as <-. apply outside in X. destruct X as (i & Hi & X). apply (r_copy s a is i); [exact K|exact Hi|rewrite Len; exact X].
      + destruct g as [g|]; [discriminate|]. injection E as <-. apply r_frame. exact K.
      + destruct (forallb _ [i]) eqn:X; [discriminate|]. injection E as <-. apply outside in X. destruct X as (j & [<-|[]] & X). apply r_write; [exact K|rewrite Len; exact X].
      + destruct (length xs =? _) eqn:X; [discriminate|]. injection E as <-. apply Nat.eqb_neq in X. apply r_shape; [exact K|rewrite Len; exact X].
    - intros R. destruct R as [o [(a & N & X)|(t & N & X)]|a is i Ha Hi L|a is i Ha Hi L|a i x Ha L|a Ha|t xs Ht L]; unfold is_array, is_vector in *; try rewrite Len in L.
      + assert (K : (a <? narrs s) = false) by (apply Nat.ltb_ge; lia).
        destruct X as [[f ->]|[[is ->]|[[is ->]|[[g ->]|(i & x & ->)]]]]; cbn [step]; cbv zeta; rewrite K; reflexivity.
      + assert (K : (t <? ntens s) = false) by (apply Nat.ltb_ge; lia). destruct X as [[xs ->]|[[g ->]| ->]]; cbn [step]; cbv zeta; rewrite K; reflexivity.
      + cbn [step]. cbv zeta. rewrite (proj2 (Nat.ltb_lt _ _) Ha). rewrite (proj2 (outside is _)); [reflexivity|]. exists i. tauto.
      + cbn [step]. cbv zeta. rewrite (proj2 (Nat.ltb_lt _ _) Ha). rewrite (proj2 (outside is _)); [reflexivity|]. exists i. tauto.
      + cbn [step]. cbv zeta. rewrite (proj2 (Nat.ltb_lt _ _) Ha). rewrite (proj2 (outside [i] _)); [reflexivity|]. exists i. cbn. tauto.
      + cbn [step]. cbv zeta. rewrite (proj2 (Nat.ltb_lt _ _) Ha). reflexivity.
      + cbn [step]. cbv zeta. rewrite (proj2 (Nat.ltb_lt _ _) Ht). rewrite (proj2 (Nat.eqb_neq _ _) L). reflexivity. }
  split; [exact G|]. intros ops e <- R. apply G in R. unfold run at 1. rewrite fold_left_app. cbn [fold_left]. fold (run show std v0 ops). rewrite R. reflexivity.
Qed.
Print Assumptions C114_errors.

Example C114_errors_met : let s := run flip 1 0%Z [New [5; 7]%Z 0] in
  raises s (Write 0 2 1%Z) IndexError /\ raises s (Assign 0 [1]%Z) AssertionError /\ raises s (Move 1 0) NameError /\ forall e, ~ raises s (Write 0 1 1%Z) e.
Proof.
  cbn. split; [apply r_write; [unfold is_array; cbn; lia|cbn; lia]|]. split; [apply r_shape; [unfold is_vector; cbn; lia|cbn; lia]|].
  split; [apply r_name; right; exists 1; split; [unfold is_vector; cbn; lia|right; left; eexists; reflexivity]|].
  intros e R. apply (proj1 (C114_errors Z flip 1 0%Z _ _)) in R. discriminate R.
Qed.
