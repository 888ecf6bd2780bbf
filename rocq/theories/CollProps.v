(** Properties C87 to C89: collections of vectors and tensors. *)
From Coq Require Import Field QArith Qcanon.
From Verif Require Import Prelude OField ParallelModel KernModel CollModel CollSpec CollProofs.
Local Open Scope nat_scope.

(** * C87: a collection is transformed member by member *)

(** Second order, any number of leading axes, one matrix or one for each index of the
    first axis. *)
Theorem C87_second_order :
  forall (F : ofield) (o : object F) (Q : ndarray F) lead n, o_cls o = Tensor2 \/ o_cls o = Tensor2x3 ->
  shape (o_arr o) = lead ++ repeat n 2 -> suited n lead Q -> transforms 2 lead n o Q.
Proof.
  intros F [c a f b r] Q lead n Hc Ha HQ. unfold transforms, transform. cbn [o_arr o_cls] in *.
  destruct Hc as [->| ->]; exact (tr_tensors2_ok a Q lead n Ha HQ).
Qed.
Print Assumptions C87_second_order.

(** Fourth order in three dimensions: with one matrix there may be one leading axis. *)
Theorem C87_fourth_order_partial :
  forall (F : ofield) (o : object F) (Q : ndarray F) lead, o_cls o = Tensor4 \/ o_cls o = Tensor4x3 ->
  shape (o_arr o) = lead ++ repeat 3 4 ->
  one_matrix 3 Q /\ length lead <= 1 \/ many_matrices 3 lead Q -> transforms 4 lead 3 o Q.
Proof.
  intros F [c a f b r] Q lead Hc Ha HQ. unfold transforms, transform. cbn [o_arr o_cls] in *.
  destruct Hc as [->| ->]; exact (tr_tensors4_ok a Q lead Ha HQ).
Qed.
Print Assumptions C87_fourth_order_partial.

(** Vectors: at most one leading axis. *)
Theorem C87_vectors_partial :
  forall (F : ofield) (o : object F) (Q : ndarray F) lead n, o_cls o = Vector ->
  shape (o_arr o) = lead ++ repeat n 1 -> length lead <= 1 -> suited n lead Q -> transforms 1 lead n o Q.
Proof.
  intros F [c a f b r] Q lead n Hc Ha HL HQ. unfold transforms, transform. cbn [o_arr o_cls] in *. subst c.
  exact (show_vector_ok a Q lead n Ha HL HQ).
Qed.
Print Assumptions C87_vectors_partial.

(** A single tensor: up to rank 13.  For higher ranks there are no letters left for the command (EinsumModel.v). *)
Theorem C87_single_tensor_partial :
  forall (F : ofield) (a : ndarray F) frame o, construct Tensor true a None None frame = Ok o ->
  exists n r, 0 < r /\ shape (o_arr o) = repeat n r /\
  forall Q, one_matrix n Q -> (r <= 13 -> transforms r [] n o Q) /\ (13 < r -> forall out, transform o Q out <-> out = Err ValueError).
Proof.
  intros F a frame o H. apply construct_ok in H. destruct H as ((n & r & E) & _ & f & _ & ->).
  exists n, (S r). split; [lia|]. split; [exact E|]. intros Q HQ. unfold one_matrix in HQ. unfold transforms, transform.
  cbn [o_arr o_cls]. unfold rank. cbn [o_cls o_rank cls_rank o_bulk stored flag o_arr]. rewrite Nat.eqb_refl. unfold ndim.
  rewrite HQ. cbn [length Nat.eqb andb].
  assert (Lr : length (shape a) = S r) by (rewrite E; apply repeat_length).
  split; [intros Hr; rewrite (proj2 (Nat.leb_le (length (shape a)) 13)) by lia|intros Hr out; rewrite (proj2 (Nat.leb_gt (length (shape a)) 13)) by lia; reflexivity]. cbn [andb].
  assert (Hf : fits (length (shape a)) a Q = true).
  { unfold fits. unfold last_ at 1 2. rewrite Nat.sub_diag, HQ. cbn [skipn]. rewrite E. cbn [axis nth repeat].
    apply forallb_forall. intros x Hx. apply Nat.eqb_eq. cbn [app] in Hx.
    destruct Hx as [<-|Hx]; [reflexivity|]. apply in_app_or in Hx. destruct Hx as [Hx|Hx]; [exact (repeat_spec _ _ _ Hx)|].
    cbn in Hx. intuition. }
  rewrite Hf. split; [eexists; reflexivity|]. intros out ->. eexists. split; [reflexivity|]. split; [reflexivity|].
  intros p c Hp Hc. inversion Hp; subst. unfold member at 1. cbn [app at_]. rewrite einsum_rule. rewrite E. cbn [axis nth repeat].
  unfold matrix_for. rewrite HQ. reflexivity.
Qed.
Print Assumptions C87_single_tensor_partial.

(** With two leading axes and one matrix no collection of fourth order tensors, and no
    collection of vectors, can be transformed. *)
Theorem C87_two_axes_refuted :
  forall (F : ofield) (o : object F) (Q : ndarray F) lead n, 2 <= length lead -> one_matrix n Q ->
  (o_cls o = Tensor4 \/ o_cls o = Tensor4x3 -> shape (o_arr o) = lead ++ repeat n 4 ->
     forall out, transform o Q out <-> out = Err NotImplementedError) /\
  (o_cls o = Vector -> shape (o_arr o) = lead ++ repeat n 1 ->
     forall out, transform o Q out <-> out = Err OperationInputError).
Proof.
  intros F [c a f b r] Q lead n HL HQ. unfold transform. cbn [o_arr o_cls] in *. unfold one_matrix in HQ.
  assert (L : forall k, length (lead ++ repeat n k) = S (S (length lead - 2 + k))) by (intros k; rewrite app_length, repeat_length; lia).
  split; intros Hc Ha out.
  - assert (E : tr_tensors4x3 a Q out <-> out = Err NotImplementedError).
    { unfold tr_tensors4x3, ndim. rewrite Ha, HQ, L. cbn [length]. rewrite !(Nat.add_comm _ 4). cbn [plus Nat.eqb andb].
      rewrite !andb_false_r. reflexivity. }
    destruct Hc as [->| ->]; exact E.
  - subst c. unfold show_vector, ndim. rewrite Ha, HQ, L. rewrite (Nat.add_comm _ 1). cbn [plus length Nat.eqb andb]. reflexivity.
Qed.
Print Assumptions C87_two_axes_refuted.

(** Fourth order tensors of another dimension than 3 come back with the shape of a
    tensor in three dimensions. *)
Theorem C87_fourth_order_dimension_refuted :
  forall (F : ofield) (o : object F) (Q : ndarray F) n, n <> 3 -> o_cls o = Tensor4 ->
  shape (o_arr o) = repeat n 4 -> one_matrix n Q ->
  ~ transforms 4 [] n o Q /\ forall out, transform o Q out -> exists res, out = Ok res /\ shape res = [3; 3; 3; 3].
Proof.
  intros F [c a f b r] Q n Hn Hc Ha HQ. cbn [o_cls o_arr] in *. subst c. unfold transforms, transform. cbn [o_cls o_arr].
  assert (K : forall out, tr_tensors4x3 a Q out <-> out = Ok (tr_3333 (fun i j k l => at_ a [i; j; k; l]) (fun i j => at_ Q [i; j]))).
  { intros out. unfold tr_tensors4x3, ndim. rewrite Ha, HQ. cbn [repeat length Nat.eqb andb]. reflexivity. }
  split.
  - intros [_ H]. destruct (H _ (proj2 (K _) eq_refl)) as (res & E & Hs & _). injection E as <-. rewrite Ha in Hs. cbn in Hs.
    injection Hs as Hs. congruence.
  - intros out H. apply K in H. subst out. eexists. split; reflexivity.
Qed.
Print Assumptions C87_fourth_order_dimension_refuted.

(** A collection of general tensors cannot be transformed at all. *)
Theorem C87_general_collection_refuted :
  forall (F : ofield) (a : ndarray F) frame o, construct Tensor true a (Some true) None frame = Ok o ->
  forall Q out, transform o Q out <-> out = Err ValueError.
Proof.
  intros F a frame o H Q out. apply construct_ok in H. destruct H as ((n & r & E) & _ & f & _ & ->).
  unfold transform, rank. cbn [o_cls o_rank cls_rank o_bulk stored flag o_arr]. unfold ndim. rewrite E, repeat_length.
  replace (S r =? S r - 1) with false by (symmetry; apply Nat.eqb_neq; lia). reflexivity.
Qed.
Print Assumptions C87_general_collection_refuted.

(** Such objects exist, for the positive and the negative statements. *)
Definition some (sh : list nat) : ndarray Qc_ofield := ND sh (fun c => Q2Qc (inject_Z (Z.of_nat (lin sh c)))).
Definition builds (c : cls) (sh : list nat) (bulk : option bool) : bool :=
  is_ok (construct c true (some sh) bulk None None).
Example C87_built :
  builds Tensor2 [4; 2; 2] (Some true) = true /\ builds Tensor2x3 [5; 4; 3; 3] None = true /\
  builds Tensor4x3 [5; 4; 2; 3; 3; 3; 3] None = true /\ builds Tensor4 [2; 2; 2; 2] None = true /\
  builds Vector [5; 3] None = true /\ builds Vector [6; 5; 3] None = true /\
  builds Tensor [3; 3; 3] (Some true) = true /\ builds Tensor [2; 2; 2; 2; 2] None = true.
Proof. repeat split; vm_compute; reflexivity. Qed.
Example C87_rotation : (* a quarter turn of the second member of a collection *)
  let Q := ND [2; 2] (fun c => match c with [0; 1] => Q2Qc 1 | [1; 0] => Q2Qc (-1) | _ => Q2Qc 0 end) : ndarray Qc_ofield in
  map (fun c => this (rule 2 (matrix_for Q [1]) (member (some [2; 2; 2]) [1]) c)) (cells [2; 2]) = [7; (-6); (-5); 4]%Q.
Proof. vm_compute. reflexivity. Qed.

(** * C88: what the constructors accept, and what the objects say about themselves *)

(** Arrays are accepted exactly in the documented shapes; a rank can be given only to the
    classes that do not have one. *)
Theorem C88_accepted :
  forall (F : ofield) c (a : ndarray F) bulk rk f,
  (exists o, construct c true a bulk rk (Some f) = Ok o) <->
  documented c (shape a) bulk /\ (rk = None \/ c = Vector \/ c = Tensor).
Proof.
  intros F c a bulk rk f. assert (E : free_rank c rk <-> rk = None \/ c = Vector \/ c = Tensor).
  { unfold free_rank. destruct c; cbn [cls_rank]; intuition discriminate. }
  rewrite <- E. split.
  - intros [o H]. apply construct_ok in H. tauto.
  - intros [D R]. eexists. apply construct_ok. split; [exact D|]. split; [exact R|]. eexists. split; reflexivity.
Qed.
Print Assumptions C88_accepted.

(** The object keeps the array and the frame, and reports the rank of its class. *)
Theorem C88_rank :
  forall (F : ofield) c (a : ndarray F) bulk frame o, construct c true a bulk None frame = Ok o ->
  o_cls o = c /\ o_arr o = a /\ (forall f, frame = Some f -> o_frame o = f) /\
  rank o = match c with
           | Vector => 1 | Tensor2 | Tensor2x3 => 2 | Tensor4 | Tensor4x3 => 4
           | Tensor => length (shape a) - if flag bulk then 1 else 0
           end.
Proof.
  intros F c a bulk frame o H. apply construct_ok in H. destruct H as (_ & _ & f & Hf & ->).
  split; [reflexivity|]. split; [reflexivity|]. split; [intros g ->; injection Hf as <-; reflexivity|].
  unfold rank. cbn [o_cls o_rank o_bulk o_arr]. destruct c; try reflexivity. cbn [cls_rank stored]. unfold ndim.
  destruct (flag bulk); [reflexivity|lia].
Qed.
Print Assumptions C88_rank.

(** The default frame is the standard frame of the dimension of the members for single
    objects and for collections with one leading axis that are known to be such. *)
Theorem C88_default_frame_partial :
  forall (F : ofield) c (a : ndarray F) bulk o lead n, construct c true a bulk None None = Ok o ->
  shape a = lead ++ repeat n (rank o) -> 0 < rank o ->
  length lead <= 1 -> (is_bulk o = Some true <-> lead <> []) ->
  shape (o_frame o) = [n; n] /\ forall i j, at_ (o_frame o) [i; j] = if i =? j then one else zero.
Proof.
  intros F c a bulk o lead n H. apply construct_ok in H. destruct H as (_ & _ & f & Hf & ->). unfold is_bulk. cbn [o_bulk o_frame].
  set (r := rank _). clearbody r. set (b := stored c (shape a) bulk) in *. clearbody b. intros E Hr HL Hb. unfold frame_for in Hf. rewrite E in Hf. destruct r as [|r]; [lia|].
  assert (G : f = eye n).
  { destruct lead as [|N [|? ?]]; cbn [app repeat length] in *; [| |lia].
    - destruct (flag _); [exfalso; apply (proj1 Hb eq_refl); reflexivity|]. congruence.
    - destruct (flag _); [congruence|]. assert (K : None = Some true) by (apply Hb; discriminate). discriminate. }
  subst f. split; reflexivity.
Qed.
Print Assumptions C88_default_frame_partial.

(** The frame of five vectors of length 3 has dimension 5, and that of a collection of 5
    times 4 tensors of size 3 has dimension 4. *)
Theorem C88_default_frame_refuted :
  exists o o' : object Qc_ofield,
  construct Vector true (some [5; 3]) None None None = Ok o /\ shape (o_frame o) = [5; 5] /\
  construct Tensor2x3 true (some [5; 4; 3; 3]) None None None = Ok o' /\ shape (o_frame o') = [4; 4].
Proof. eexists. eexists. split; [reflexivity|]. split; [reflexivity|]. split; reflexivity. Qed.
Print Assumptions C88_default_frame_refuted.

(** Where the class fixes the rank, [is_bulk] is true for collections and only for them. *)
Theorem C88_is_bulk_partial :
  forall (F : ofield) c (a : ndarray F) bulk frame o, construct c true a bulk None frame = Ok o ->
  c <> Vector -> c <> Tensor -> is_bulk o = Some true <-> is_collection o.
Proof.
  intros F c a bulk frame o H Hv Ht. apply construct_ok in H. destruct H as (D & _ & f & _ & ->).
  unfold is_collection, rank, is_bulk. cbn [o_bulk o_cls o_rank o_arr].
  assert (G : forall b : bool, (if b then Some true else None) = Some true <-> b = true) by (intros []; split; congruence).
  rewrite G. destruct c; try contradiction; cbn [documented cls_rank stored] in *.
  - destruct (flag bulk) eqn:B; [destruct D as (N & n & ->)|destruct D as (n & ->)]; cbn [repeat length]; split; intros; (reflexivity || discriminate || lia).
  - destruct (flag bulk) eqn:B; [destruct D as (N & n & ->)|destruct D as (n & ->)]; cbn [repeat length]; split; intros; (reflexivity || discriminate || lia).
  - destruct D as (lead & E & Hb). rewrite <- Nat.ltb_lt. rewrite E, (lead_length lead _ 2 (repeat_length _ _)).
    destruct lead; cbn [length Nat.eqb negb flag]; [|tauto]. destruct bulk as [[|]|]; [contradiction|tauto|tauto].
  - destruct D as (lead & E & Hb). rewrite <- Nat.ltb_lt. rewrite E, (lead_length lead _ 4 (repeat_length _ _)).
    destruct lead; cbn [length Nat.eqb negb flag]; [|tauto]. destruct bulk as [[|]|]; [contradiction|tauto|tauto].
Qed.
Print Assumptions C88_is_bulk_partial.

(** [is_bulk] is never false: single objects say None, and so does a collection of
    vectors created without the flag. *)
Theorem C88_is_bulk_refuted :
  (forall (F : ofield) (o : object F), is_bulk o <> Some false) /\
  exists o : object Qc_ofield, construct Vector true (some [5; 3]) None None None = Ok o /\ is_collection o /\ is_bulk o = None.
Proof.
  split; [intros F o; unfold is_bulk; destruct (flag (o_bulk o)); discriminate|].
  eexists. split; [reflexivity|]. split; [unfold is_collection; cbn; lia|reflexivity].
Qed.
Print Assumptions C88_is_bulk_refuted.

(** Nested lists are not looked at: three numbers become a tensor of second order. *)
Theorem C88_lists_refuted :
  exists o : object Qc_ofield, construct Tensor2 false (some [3]) None None (Some (eye 3)) = Ok o /\
  rank o = 2 /\ ~ documented Tensor2 (shape (o_arr o)) None.
Proof. eexists. split; [reflexivity|]. split; [reflexivity|]. intros [n H]. discriminate. Qed.
Print Assumptions C88_lists_refuted.

Example C88_cases :
  documented Tensor2 [4; 2; 2] (Some true) /\ documented Tensor4x3 [5; 3; 3; 3; 3] None /\ ~ documented Tensor2x3 [2; 2] None /\
  ~ documented Tensor2 [2; 3] None.
Proof.
  split; [exists 4, 2; reflexivity|]. split; [exists [5]; split; [reflexivity|exact I]|].
  split; [intros (lead & H & _)|intros (n & H); cbn in H; injection H; lia].
  apply (f_equal (@rev nat)) in H. rewrite rev_app_distr in H. discriminate.
Qed.
Example C88_frame :
  let o := construct Tensor2 true (some [4; 2; 2]) (Some true) None None in
  match o with Ok o => rank o = 2 /\ is_bulk o = Some true /\ shape (o_frame o) = [2; 2] | _ => False end.
Proof. repeat split. Qed.

(** * C89: operations on collections *)

(** Scaling, negation and copies act on every component and change nothing else. *)
Theorem C89_componentwise_partial :
  forall (F : ofield) c (a : ndarray F) bulk frame o, plain c bulk -> construct c true a bulk None frame = Ok o ->
  (forall x, exists o', mul_ o x = Ok o' /\ alike o o' (ND (shape a) (fun i => mul (at_ a i) x))) /\
  (forall x, exists o', truediv o x = Ok o' /\ alike o o' (ND (shape a) (fun i => div (at_ a i) x))) /\
  (exists o', neg o = Ok o' /\ alike o o' (ND (shape a) (fun i => opp (at_ a i)))) /\
  (exists o', copy o = Ok o' /\ alike o o' a).
Proof.
  intros F c a bulk frame o P H. assert (E : o_arr o = a).
  { pose proof H as K. apply construct_ok in K. destruct K as (_ & _ & f & _ & ->). reflexivity. }
  unfold mul_, truediv, neg, copy, map_. rewrite E. repeat split; intros; apply (again_ok c a bulk frame o _ P H); reflexivity.
Qed.
Print Assumptions C89_componentwise_partial.

(** Transposition reverses the axes of every member. *)
Theorem C89_transpose_partial :
  forall (F : ofield) c (a : ndarray F) bulk frame o lead n, plain c bulk -> construct c true a bulk None frame = Ok o ->
  shape a = lead ++ repeat n (rank o) ->
  exists o' b, transpose o = Ok o' /\ alike o o' b /\ shape b = shape a /\
  forall p i, inside lead p -> inside (repeat n (rank o)) i -> member b p i = member a p (rev i).
Proof.
  intros F c a bulk frame o lead n P H Hs. assert (E : o_arr o = a).
  { pose proof H as K. apply construct_ok in K. destruct K as (_ & _ & f & _ & ->). reflexivity. }
  unfold transpose. rewrite E.
  assert (T : turn (rank o) (shape a) = shape a) by (rewrite Hs, (turn_app _ _ _ (repeat_length _ _)), rev_repeat; reflexivity).
  rewrite T.
  destruct (again_ok c a bulk frame o (ND (shape a) (fun i => at_ a (turn (rank o) i))) P H eq_refl) as (o' & E' & A).
  exists o'. eexists. split; [exact E'|]. split; [exact A|]. split; [reflexivity|].
  intros p i Hp Hi. unfold member. cbn [at_]. rewrite (turn_app (rank o)); [reflexivity|].
  rewrite (inside_length _ _ Hi). apply repeat_length.
Qed.
Print Assumptions C89_transpose_partial.
(** The hypothesis on the shape is met by all objects that are not vectors. *)
Theorem C89_tensors_have_members :
  forall (F : ofield) c (a : ndarray F) bulk frame o, c <> Vector -> plain c bulk -> construct c true a bulk None frame = Ok o ->
  exists lead n, shape a = lead ++ repeat n (rank o).
Proof.
  intros F c a bulk frame o V P H. destruct (trailing c a bulk frame o V P H) as (lead & n & E & _). exists lead, n. exact E.
Qed.
Print Assumptions C89_tensors_have_members.

(** Collections of Tensor2 and Tensor4 reject all these operations, transposition too. *)
Theorem C89_collections_refuted :
  forall (F : ofield) c (a : ndarray F) frame o, c = Tensor2 \/ c = Tensor4 ->
  construct c true a (Some true) None frame = Ok o ->
  (forall x, mul_ o x = Err ValueError) /\ (forall x, truediv o x = Err ValueError) /\
  neg o = Err ValueError /\ copy o = Err ValueError /\ transpose o = Err ValueError.
Proof.
  intros F c a frame o Hc H. apply construct_ok in H. destruct H as (D & _ & f & _ & ->).
  unfold mul_, truediv, neg, copy, transpose, again, map_, rank. cbn [o_arr o_cls o_frame o_rank].
  destruct Hc as [->| ->]; cbn [documented flag] in D; destruct D as (N & n & E); cbn [cls_rank];
    unfold construct, init; cbn [bind shape]; rewrite ?E; cbn [repeat]; repeat split.
Qed.
Print Assumptions C89_collections_refuted.

(** A collection of general tensors becomes a single tensor of the next rank; a flagged
    collection of vectors loses its flag. *)
Theorem C89_flag_refuted :
  forall (F : ofield) (a : ndarray F) frame o,
  (construct Tensor true a (Some true) None frame = Ok o ->
     exists o', neg o = Ok o' /\ rank o' = S (rank o) /\ is_bulk o = Some true /\ is_bulk o' = None) /\
  (construct Vector true a (Some true) None frame = Ok o ->
     exists o', neg o = Ok o' /\ is_bulk o = Some true /\ is_bulk o' = None).
Proof.
  intros F a frame o. split; intros H; apply construct_ok in H; destruct H as (D & _ & f & _ & ->);
    unfold neg, again; cbn [o_cls o_arr o_frame].
  - eexists. split.
    + apply construct_ok. split; [exact D|]. split; [left; reflexivity|]. eexists. split; reflexivity.
    + destruct D as (n & r & E). unfold rank, ndim. cbn [o_cls o_rank cls_rank o_bulk stored flag o_arr map_ shape]. rewrite E, repeat_length.
      split; [lia|]. split; reflexivity.
  - eexists. split; [apply construct_ok; split; [exact D|]; split; [left; reflexivity|]; eexists; split; reflexivity|]. split; reflexivity.
Qed.
Print Assumptions C89_flag_refuted.

Example C89_met :
  let o := construct Tensor2x3 true (some [2; 3; 3]) None None None in
  match o with
  | Ok o => match transpose o with Ok o' => this (at_ (o_arr o') [1; 0; 2]) = 15%Q /\ rank o' = 2 /\ is_bulk o' = Some true | _ => False end
  | _ => False
  end.
Proof. vm_compute. repeat split. Qed.
