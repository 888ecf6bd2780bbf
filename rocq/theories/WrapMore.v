(** Property C97, continued: what [chop], the operators and the method [at] of a universal function do to
    their arguments. *)
From Coq Require Import QArith Qcanon.
From Verif Require Import Prelude OField ParallelModel MiscModel WrapModel WrapProps.
Local Open Scope nat_scope.

(** [chop] returns the object it was called for; that object, its array and everything else that holds that array
    show the values with those below the tolerance replaced by zero, and nothing else changes. *)
Theorem C97_chop : forall (F : ofield) (p : list (command F)) o tol h o',
  chop_ (run p) o tol = Ok (h, o') ->
  o' = o /\ to_numpy h o = to_numpy (run p) o /\
  (forall y, array_of (run p) y = to_numpy (run p) o -> exists a b,
     value_of (run p) y = Some a /\ value_of h y = Some b /\ shape b = shape a /\
     forall c, ((absf (at_ a c) < tol)%F -> at_ b c = zero) /\ ((tol <= absf (at_ a c))%F -> at_ b c = at_ a c)) /\
  (forall y, array_of (run p) y <> to_numpy (run p) o -> value_of h y = value_of (run p) y).
Proof.
  intros F p o tol h o' E. unfold chop_ in E. destruct (to_numpy (run p) o) as [r|] eqn:R; [|discriminate].
  destruct (content (run p) r) as [a|] eqn:Ca; [|discriminate]. injection E as <- <-.
  split; [reflexivity|]. split; [exact R|]. split.
  - intros y Hy. exists a, (chop tol a). split; [|split; [|split]].
    + destruct y; cbn in Hy |- *; try discriminate; [now rewrite Hy|]. injection Hy as ->. exact Ca.
    + apply write_same; [exact Hy|]. apply content_lt with a, Ca.
    + reflexivity.
    + intros c. cbn. destruct (ltb (absf (at_ a c)) tol) eqn:L; split; intros X; try reflexivity.
      * apply ltb_false in X. congruence.
      * apply ltb_iff in X. congruence.
  - intros y Hy. now apply write_other.
Qed.
Print Assumptions C97_chop.

(** An operator without assignment leaves its operands, and everything else, alone. *)
Theorem C97_operator : forall (F : ofield) (p : list (command F)) f x y h os,
  binary (run p) f x y = Ok (h, os) ->
  (exists a b res, value_of (run p) x = Some a /\ value_of (run p) y = Some b /\ f [a; b] = Ok res /\
     Forall2 (fun o c => value_of h (W o) = Some c) os res) /\
  (forall z, exists_in (run p) z -> value_of h z = value_of (run p) z).
Proof.
  intros F p f x y h os E. destruct (C97_ufunc F p f [x; y] h os E) as ((vs & res & Hv & Hf & Ho) & _ & K).
  split; [|exact K]. inversion Hv as [|? a ? ? Hx H1]; subst. inversion H1 as [|? b ? ? Hy H2]; subst. inversion H2; subst.
  exists a, b, res. auto.
Qed.
Print Assumptions C97_operator.

(** [ufunc.at] changes the array of its first argument, and nothing else. *)
Theorem C97_at : forall (F : ofield) (p : list (command F)) f x xs h,
  ufunc_at (run p) f x xs = Ok h ->
  (exists a vs b, value_of (run p) x = Some a /\ Forall2 (fun x v => value_of (run p) x = Some v) xs vs /\ f (a :: vs) = Ok b /\
     forall y, array_of (run p) y = array_of (run p) x -> value_of h y = Some b) /\
  (forall y, array_of (run p) y <> array_of (run p) x -> value_of h y = value_of (run p) y) /\
  (forall o, to_numpy h o = to_numpy (run p) o).
Proof.
  intros F p f x xs h E. unfold ufunc_at in E. cbn [values] in E. destruct (value_of (run p) x) as [a|] eqn:Vx; [|discriminate].
  destruct (values (run p) xs) as [vs|] eqn:V; [|discriminate]. destruct (array_of (run p) x) as [r|] eqn:R; [|discriminate].
  destruct (f (a :: vs)) as [b|] eqn:Ef; [|discriminate]. cbn in E. injection E as <-.
  assert (Hr : r < length (bufs (run p))).
  { destruct x; cbn in R, Vx; try discriminate; [rewrite R in Vx|injection R as ->]; apply content_lt with a; exact Vx. }
  split; [|split].
  - exists a, vs, b. repeat split; auto.
    + clear - V. revert vs V. induction xs as [|x xs IH]; intros vs V; cbn in V; [injection V as <-; constructor|].
      destruct (value_of (run p) x) eqn:Vx; [|discriminate]. destruct (values (run p) xs); [|discriminate]. injection V as <-.
      constructor; [exact Vx|]. now apply IH.
    + intros y Hy. apply write_same; assumption.
  - intros y Hy. now apply write_other.
  - reflexivity.
Qed.
Print Assumptions C97_at.

Definition q (x : Q) : Qc_ofield := Q2Qc x.
(** A wrapper, its array and an element below the tolerance; a sum; [np.negative.at]. *)
Example C97_more_met :
  let p : list (command Qc_ofield) := [DoConstruct (Nested (ND [2] (fun c => if list_eq_dec Nat.eq_dec c [0] then q (1#9) else q 5)))] in
  (exists h, chop_ (run p) 0 (q 1) = Ok (h, 0) /\ getitem h (A 0) [0] = Some zero /\ getitem h (W 0) [1] = Some (q 5)) /\
  (exists h, binary (run p) (fun l => Ok l) (W 0) (A 0) = Ok (h, [1; 2])) /\
  (exists h, ufunc_at (run p) (fun l => match l with a :: _ => Ok (ND (shape a) (fun c => opp (at_ a c))) | [] => Err TypeError end) (W 0) [] = Ok h /\
     getitem h (A 0) [1] = Some (opp (q 5))).
Proof.
  cbv zeta. split; [|split].
  - eexists. split; [reflexivity|]. split; vm_compute; reflexivity.
  - eexists. reflexivity.
  - eexists. split; reflexivity.
Qed.
