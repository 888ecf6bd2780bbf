(** Proofs about histories of frames and tensors. *)
Set Warnings "-notation-overridden,-ambiguous-paths".
From Verif Require Import Prelude TensorModel TensorSpec TensorProofs TensorOpProofs TensorRefute FrameHistModel FrameHistSpec FrameArrayModel.
From mathcomp Require Import all_ssreflect all_algebra.
Set Implicit Arguments.
Unset Strict Implicit.
Unset Printing Implicit Defensive.
Import GRing.Theory Num.Theory.
Local Open Scope ring_scope.

Section Hist.
Variables (F : realFieldType) (rtol atol : F) (n : nat) (norm : 'rV[F]_n -> F).
Notation state := (state F n).
Notation op := (op F n).

(** The invariant of all reachable states. *)
Definition consistent (s : state) : Prop :=
  [/\ registered s,
      forall t o, objs s t = Some o -> exists fr, frames s (o_frame o) = Some fr,
      forall f fr, frames s f = Some fr -> kind_of fr = Cartesian -> orthonormal_rows (axes fr),
      forall f, (nframes s <= f)%N -> frames s f = None &
      forall t, (nobjs s <= t)%N -> objs s t = None].

Definition keeps (s s' : state) : Prop :=
  consistent s' /\ forall t r (V : tens F n r), has_value s t V -> has_value s' t V.

Lemma keeps_refl s : consistent s -> keeps s s.
Proof. by []. Qed.
Lemma keeps_trans s1 s2 s3 : keeps s1 s2 -> keeps s2 s3 -> keeps s1 s3.
Proof. by move=> [_ H] [K L]; split=> // t r V Hv; apply: L; apply: H. Qed.

Lemma fset_eq T (m : nat -> T) i v : fset m i v i = v.
Proof. by rewrite /fset eqxx. Qed.
Lemma fset_ne T (m : nat -> T) i v j : j != i -> fset m i v j = m j.
Proof. by rewrite /fset => /negbTE->. Qed.

Lemma empty_consistent : consistent (@empty F n).
Proof. by split=> // f t; split=> // -[o []]. Qed.

Lemma dcm_exact (f g : frame F n) Q : (kind_of g = Cartesian -> orthonormal_rows (axes g)) ->
  dcm_target rtol atol norm f g = Ok Q ->
  axes g \in unitmx /\ Q = (invmx (axes g))^T *m (axes f)^T.
Proof.
rewrite /dcm_target /dual /dual_frame /np_inv; case: g => [[] A] /= Hc; last first.
  by move=> [<-]; rewrite (dual_orthonormal (Hc erefl)) orthonormal_unit //; exact: Hc.
  by case: ifP => //= U; case: ifP => //= _ [<-].
by case: ifP => //= U [<-].
Qed.

Lemma dcm_value (f g : frame F n) Q r (a V : tens F n r) : (kind_of g = Cartesian -> orthonormal_rows (axes g)) ->
  dcm_target rtol atol norm f g = Ok Q -> represents (axes f) a V -> represents (axes g) (transform Q a) V.
Proof.
move=> Hc E /representsP->; have [U ->] := dcm_exact Hc E; apply/representsP.
by rewrite !transform_comp !mulmxA -trmx_mul mulVmx // trmx1 mul1mx.
Qed.

Lemma new_frame_axes k (A : 'M[F]_n) f : new_frame rtol atol norm k A = Ok f -> f = Frame k A.
Proof. by case: k => /=; repeat (case: ifP => //= _); move=> [<-]. Qed.

Lemma new_frame_keeps s c k A : consistent s -> (k = Cartesian -> orthonormal_rows A) ->
  keeps s (new_frame_op rtol atol norm s c k A).1.
Proof.
move=> C Hc; rewrite /new_frame_op.
case E: (if c then _ else _) => [f|e] /=; last exact: keeps_refl.
have Ef : f = Frame k A by case: c E => /= E; [exact: new_frame_axes E | case: E].
have [C1 C2 C3 C4 C5] := C.
have old g fr : frames s g = Some fr -> g != nframes s.
  by move=> H; apply/eqP => Eg; rewrite Eg C4 in H.
split.
  split=> /=.
  - move=> g t /=; rewrite /fset; case: eqP => [->|_]; last exact: C1.
    split=> // -[o [Ho Fo]]; have [fr] := C2 _ _ Ho.
    by rewrite Fo C4.
  - move=> t o Ho; have [fr Hf] := C2 _ _ Ho; exists fr.
    by rewrite /= fset_ne // (old _ _ Hf).
  - move=> g fr; rewrite /= /fset; case: eqP => [_ [<-]|_]; [by rewrite Ef | exact: C3].
  - by move=> g lt; rewrite /= fset_ne ?C4 ?(gtn_eqF lt) // ltnW.
  - exact: C5.
move=> t r' V [a [g [fr [H1 H2 H3]]]]; exists a, g, fr; split=> //=.
by rewrite fset_ne // (old _ _ H2).
Qed.

Lemma new_tensor_keeps s r (a : tens F n r) f : consistent s -> keeps s (new_tensor_op s a f).1.
Proof.
move=> C; rewrite /new_tensor_op; case Ef: (frames s f) => [fr|] /=; last exact: keeps_refl.
have [C1 C2 C3 C4 C5] := C.
have nf : objs s (nobjs s) = None by exact: C5.
split.
  split=> //=.
  - move=> g t /=; rewrite {2}/fset; case: eqP => [->|ne] /=.
      split=> [|[o [[<-] /= <-]]]; last by rewrite fset_eq mem_head.
      rewrite /fset; case: eqP => [->|_]; first by eexists.
      by move=> /C1 [o [Ho _]]; rewrite nf in Ho.
    rewrite -C1 /fset; case: eqP => [->|_] //.
    by rewrite inE; case: eqP => //= E; case: ne.
  - move=> t o; rewrite /= /fset; case: eqP => [_ [<-]|_]; [by exists fr | exact: C2].
  - by move=> t lt; rewrite /= fset_ne ?C5 ?(gtn_eqF lt) // ltnW.
move=> t r' V [b [g [gr [H1 H2 H3]]]]; exists b, g, gr; split=> //=.
by rewrite fset_ne //; apply/eqP => E; rewrite E nf in H1.
Qed.

Lemma set_frame_keeps s t g : consistent s -> keeps s (set_frame_op rtol atol norm s t g).1.
Proof.
move=> C; rewrite /set_frame_op.
case Et: (objs s t) => [o|] /=; last exact: keeps_refl.
case Ef: (frames s (o_frame o)) => [ff|] /=; last exact: keeps_refl.
case Eg: (frames s g) => [fg|] /=; last exact: keeps_refl.
case EQ: (dcm_target _ _ _ ff fg) => [Q|e] /=; last exact: keeps_refl.
have [C1 C2 C3 C4 C5] := C.
split.
  split=> //=.
  - move=> h x /=; rewrite [fset (objs s) t _ x]/fset.
    case: (x =P t) => [->|ne].
      split=> [|[o' [[<-] /= <-]]]; last by rewrite fset_eq mem_head.
      rewrite /fset; case: eqP => [->|Hh]; first by eexists.
      case: eqP => [_|Hf]; first by rewrite mem_filter eqxx.
      by move=> /C1 [o' [Ho Fo]]; move: Ho; rewrite Et => -[Ho]; case: Hf; rewrite Ho.
    rewrite -C1.
    have N : (x != t) by apply/eqP.
    rewrite /fset; case: eqP => [->|_].
      rewrite inE (negbTE N) /= mem_filter N /=.
      by case: eqP => [->|//]; rewrite mem_filter N.
    by case: eqP => [->|//]; rewrite mem_filter N.
  - move=> x o'; rewrite /= /fset; case: eqP => [_ [<-]|_]; [by exists fg | exact: C2].
  - move=> x lt; rewrite /= fset_ne ?C5 //.
    by apply/eqP => E; rewrite E in lt; rewrite (C5 _ lt) in Et.
move=> x r V [b [h [hr [H1 H2 H3]]]].
rewrite /has_value /=; case: (x =P t) => [E|ne].
  rewrite E Et in H1; case: H1 => Eo; rewrite Eo /= in Ef *.
  rewrite Ef in H2; case: H2 => Eh; rewrite Eh in EQ.
  exists (transform Q b), g, fg; rewrite E fset_eq; split=> //.
  by apply: dcm_value EQ H3; exact: C3 Eg.
by exists b, h, hr; rewrite fset_ne //; apply/eqP.
Qed.

Lemma set_axes_keeps s f A : consistent s ->
  (forall fr, frames s f = Some fr -> kind_of fr = Cartesian -> orthonormal_rows A) ->
  keeps s (set_axes_op rtol atol norm s f A).1.
Proof.
move=> C Hc; rewrite /set_axes_op; case Ef: (frames s f) => [ff|] /=; last exact: keeps_refl.
have [C1 C2 C3 C4 C5] := C.
have fr_some g : fset (frames s) f (Some (Frame (kind_of ff) A)) g = None <-> frames s g = None.
  by rewrite /fset; case: eqP => [->|_]; [rewrite Ef; split | split].
have cart g fr : fset (frames s) f (Some (Frame (kind_of ff) A)) g = Some fr -> kind_of fr = Cartesian -> orthonormal_rows (axes fr).
  by rewrite /fset; case: eqP => [_ [<-]|_]; [exact: (Hc _ Ef) | exact: C3].
have has g fr : frames s g = Some fr -> exists fr', fset (frames s) f (Some (Frame (kind_of ff) A)) g = Some fr'.
  by rewrite /fset; case: eqP => [_ _|_ ->]; eexists.
case Er: (reg s f) => [|t0 ts] /=.
  split.
    split=> //=; first by move=> t o /C2 [fr /has].
    by move=> g lt; apply/fr_some; apply: C4.
  move=> t r V [b [g [gr [H1 H2 H3]]]]; exists b, g, gr; split=> //=.
  rewrite fset_ne //; apply/eqP => E; rewrite E in H1.
  have : t \in reg s f by apply/C1; eexists; split; [exact: H1|].
  by rewrite Er.
rewrite -Er; case EQ: (dcm_target _ _ _ ff _) => [Q|e] /=; last exact: keeps_refl.
have objE t : (if t \in reg s f then match objs s t with Some o => Some (Obj (transform Q (o_arr o)) (o_frame o)) | None => None end else objs s t)
   = match objs s t with Some o => Some (if o_frame o == f then Obj (transform Q (o_arr o)) (o_frame o) else o) | None => None end.
  case Ht: (objs s t) => [o|]; last by case: ifP.
  case: ifP => [/C1 [o' []]|H]; first by rewrite Ht => -[->] ->; rewrite eqxx.
  case: eqP => // E; exfalso; move/negP: H; apply; apply/C1; by exists o.
split.
  split=> //=.
  - move=> g t /=; rewrite objE C1; split=> -[o []].
      by move=> -> Eo; eexists; split; [reflexivity|]; case: eqP.
    case: (objs s t) => // o' [<-] Eo; exists o'; split=> //; by case: eqP Eo.
  - move=> t o /=; rewrite objE; case Ht: (objs s t) => [o'|] // [<-].
    by have [fr /has] := C2 _ _ Ht; case: eqP.
  - by move=> g lt; apply/fr_some; apply: C4.
  - by move=> t lt; rewrite objE C5.
move=> t r V [b [g [gr [H1 H2 H3]]]]; rewrite /has_value /= objE H1 /=.
case: eqP => [E|ne].
  rewrite E in H2; rewrite Ef in H2; case: H2 => Eg; rewrite -Eg in H3.
  exists (transform Q b), g, (Frame (kind_of ff) A); rewrite E fset_eq; split=> //.
  by apply: (dcm_value (g := Frame Reference A)) EQ H3.
by exists b, g, gr; rewrite fset_ne //; apply/eqP.
Qed.

Lemma set_frame_frames s t g : frames (set_frame_op rtol atol norm s t g).1 = frames s.
Proof.
rewrite /set_frame_op; case: (objs s t) => //= o; case: (frames s (o_frame o)) => //= ff.
by case: (frames s g) => //= fg; case: (dcm_target _ _ _ _ _).
Qed.

Lemma move_all_keeps ts g : forall s, consistent s ->
  keeps s (move_all rtol atol norm s ts g).1 /\ frames (move_all rtol atol norm s ts g).1 = frames s.
Proof.
elim: ts => [|t ts IH] s C /=; first by split=> //; exact: keeps_refl.
have K := set_frame_keeps t g C; have Fr := set_frame_frames s t g.
move: K Fr; case: (set_frame_op _ _ _ s t g) => s' out /= K Fr.
case: out => [|//|//].
by have [K2 F2] := IH s' (proj1 K); split; [exact: keeps_trans K K2 | rewrite F2].
Qed.

Lemma cast_keeps s f rect A : consistent s -> keeps s (cast_op rtol atol norm s f rect A).1.
Proof.
move=> C; rewrite /cast_op; case Ef: (frames s f) => [ff|] /=; last exact: keeps_refl.
set k := if rect then _ else _.
have Hk : k <> Cartesian by rewrite /k; case rect.
have K := @new_frame_keeps s true k (axes ff) C (fun E => False_ind _ (Hk E)).
have Fr : forall fr, frames (new_frame_op rtol atol norm s true k (axes ff)).1 (nframes s) = Some fr -> kind_of fr <> Cartesian.
  rewrite /new_frame_op; case E: (new_frame _ _ _ k _) => [h|e] /= fr.
    by rewrite fset_eq => -[<-]; rewrite (new_frame_axes E).
  by have [_ _ _ C4 _] := C; rewrite C4.
move: K Fr; case: (new_frame_op _ _ _ s true k (axes ff)) => s1 out /= K Fr.
case: out => [|//|//].
have [K2 F2] := move_all_keeps (reg s f) (nframes s) (proj1 K).
move: K2 F2; case: (move_all _ _ _ s1 _ _) => s2 out /= K2 F2.
case: out => [|e|]; [|exact: keeps_trans K K2|exact: keeps_trans K K2].
apply: (keeps_trans K); apply: (keeps_trans K2); apply: set_axes_keeps; first exact: (proj1 K2).
by move=> fr; rewrite F2 => /Fr.
Qed.

Lemma collect_consistent s t : consistent s -> consistent (collect_op s t).1.
Proof.
move=> [C1 C2 C3 C4 C5]; split=> //=.
- move=> g x /=; rewrite mem_filter /fset; case: eqP => [_|ne] /=; first by split=> // -[o []].
  exact: C1.
- by move=> x o; rewrite /= /fset; case: eqP => // _ /C2.
- by move=> x lt; rewrite /= /fset; case: eqP => // _; apply: C5.
Qed.

Lemma set_array_consistent s t r (a : tens F n r) : consistent s -> consistent (set_array_op s t a).1.
Proof.
move=> C; rewrite /set_array_op; case Ht: (objs s t) => [o|] //=; case: ifP => //= _.
have [C1 C2 C3 C4 C5] := C; split=> //=.
- move=> g x /=; rewrite C1 /fset; case: eqP => [->|//]; rewrite Ht.
  by split=> -[o' [[<-] Eo]]; eexists; split.
- by move=> x o' /=; rewrite /fset; case: eqP => [_ [<-]|_]; [apply: C2 Ht|exact: C2].
- move=> x lt; rewrite /= fset_ne ?C5 //; apply/eqP => E; rewrite E in lt; by rewrite (C5 _ lt) in Ht.
Qed.

Lemma collect_others s t x r (V : tens F n r) : t <> x -> has_value s x V -> has_value (collect_op s t).1 x V.
Proof.
move=> ne [b [g [gr [H1 H2 H3]]]]; exists b, g, gr; split=> //=.
by rewrite fset_ne //; apply/eqP => E; apply: ne.
Qed.
Lemma set_array_others s t x r' (a : tens F n r') r (V : tens F n r) :
  t <> x -> has_value s x V -> has_value (set_array_op s t a).1 x V.
Proof.
rewrite /set_array_op; case: (objs s t) => [o|] //=; case: ifP => //= _ ne [b [g [gr [H1 H2 H3]]]].
exists b, g, gr; split=> //=; by rewrite fset_ne //; apply/eqP => E; apply: ne.
Qed.

Lemma step_consistent s o : no_poke o -> honest s o -> consistent s -> consistent (step rtol atol norm s o).1.
Proof.
case: o => [c k A|r a f|t g|f A|f rect A|t|t r a|f A] //= _ H C.
- by apply: (proj1 (new_frame_keeps _ C _)) => E; rewrite E in H.
- exact: (proj1 (new_tensor_keeps _ _ C)).
- exact: (proj1 (set_frame_keeps _ _ C)).
- exact: (proj1 (set_axes_keeps C H)).
- exact: (proj1 (cast_keeps _ _ _ C)).
- exact: collect_consistent.
- exact: set_array_consistent.
Qed.

Lemma step_value s o t r (V : tens F n r) : leaves t o -> honest s o -> consistent s ->
  has_value s t V -> has_value (step rtol atol norm s o).1 t V.
Proof.
case: o => [c k A|r' a f|t' g|f A|f rect A|t'|t' r' a|f A] //= L H C; last first.
- exact: set_array_others.
- exact: collect_others.
- exact: (proj2 (cast_keeps _ _ _ C)).
- exact: (proj2 (set_axes_keeps C H)).
- exact: (proj2 (set_frame_keeps _ _ C)).
- exact: (proj2 (new_tensor_keeps _ _ C)).
- by apply: (proj2 (new_frame_keeps _ C _)) => E; rewrite E in H.
Qed.

Lemma run_consistent os : forall s, consistent s -> (forall i, no_poke (nth (Collect F n 0) os i)) ->
  honest_run rtol atol norm s os -> consistent (run rtol atol norm s os).
Proof.
elim: os => [|o os IH] s C //= P [H Hr].
by apply: (IH (step rtol atol norm s o).1) => //; [apply: step_consistent => //; exact: (P 0%N) | move=> i; exact: (P i.+1)].
Qed.

Lemma run_value os t r (V : tens F n r) : forall s, consistent s -> (forall o, List.In o os -> leaves t o) ->
  honest_run rtol atol norm s os -> has_value s t V -> has_value (run rtol atol norm s os) t V.
Proof.
elim: os => [|o os IH] s C L //= [H Hr] Hv.
have Lo : leaves t o by apply: L; left.
apply: IH => //; [|by move=> o' Hin; apply: L; right|exact: step_value].
by apply: step_consistent => //; case: o Lo {L H Hr}.
Qed.

(** The main statement, from the empty heap: everything that exists after a prefix of
    operations keeps its value during the rest. *)
Lemma history pre os t r (V : tens F n r) :
  (forall o, List.In o pre -> no_poke o) -> (forall o, List.In o os -> leaves t o) ->
  honest_run rtol atol norm (@empty F n) (pre ++ os) ->
  has_value (run rtol atol norm (@empty F n) pre) t V ->
  has_value (run rtol atol norm (@empty F n) (pre ++ os)) t V.
Proof.
move=> P L; have := empty_consistent; move: (@empty F n) => s C.
elim: pre s C P => [|o pre IH] s C P /=; first by move=> H; apply: run_value.
by move=> [H Hr]; apply: IH => //; [apply: step_consistent => //; apply: P; left | move=> o' Ho; apply: P; right].
Qed.

Lemma history_consistent os :
  (forall o, List.In o os -> no_poke o) -> honest_run rtol atol norm (@empty F n) os ->
  consistent (run rtol atol norm (@empty F n) os).
Proof.
move=> P; have := empty_consistent; move: (@empty F n) => s C.
elim: os s C P => [|o os IH] s C P //=.
by move=> [H Hr]; apply: IH => //; [apply: step_consistent => //; apply: P; left | move=> o' Ho; apply: P; right].
Qed.
Lemma history_registered os :
  (forall o, List.In o os -> no_poke o) -> honest_run rtol atol norm (@empty F n) os ->
  registered (run rtol atol norm (@empty F n) os).
Proof. by move=> P H; case: (history_consistent P H). Qed.

Lemma has_value_show s t r (V : tens F n r) : 0 <= rtol -> 0 <= atol -> has_value s t V <->
  exists a f fr, [/\ objs s t = Some (Obj a f), frames s f = Some fr & show rtol atol norm (Tensor a fr) None = Ok V].
Proof.
move=> Hr Ha; split=> -[a [f [fr [H1 H2 H3]]]]; exists a, f, fr; split=> //.
  exact: show_ambient_describes.
have [W HW] := describes_exists (Tensor a fr).
by move: H3; rewrite (show_ambient_describes norm Hr Ha HW) => -[<-].
Qed.

(** Exceptions leave the heap as it was, except that an in-place operator that changes
    the class may already have created the new frame and moved some tensors. *)
Lemma raised_unchanged s o e : (forall f rect A, o <> Cast f rect A) ->
  (step rtol atol norm s o).2 = Raised e -> (step rtol atol norm s o).1 = s.
Proof.
case: o => [c k A|r a f|t g|f A|f rect A|t|t r a|f A] //= N.
- by rewrite /new_frame_op; case: (if c then _ else _).
- by rewrite /new_tensor_op; case: (frames s f).
- rewrite /set_frame_op; case: (objs s t) => // o; case: (frames s _) => // ff; case: (frames s g) => // fg.
  by case: (dcm_target _ _ _ _ _).
- rewrite /set_axes_op; case: (frames s f) => // ff; case: (reg s f) => // t ts.
  by case: (dcm_target _ _ _ _ _).
- by case: (N f rect A).
- by rewrite /set_array_op; case: (objs s t) => // o; case: ifP.
- by rewrite /poke_op; case: (frames s f).
Qed.

(** Moving a tensor to a proper frame succeeds, and so does assigning independent axes. *)
Lemma set_frame_done s t g o ff fg : objs s t = Some o -> frames s (o_frame o) = Some ff -> frames s g = Some fg ->
  0 <= rtol -> 0 <= atol -> good_frame fg ->
  (step rtol atol norm s (SetFrame F n t g)).2 = Done /\
  exists a, objs (step rtol atol norm s (SetFrame F n t g)).1 t = Some (@Obj F n (o_rank o) a g).
Proof.
move=> H1 H2 H3 Hr Ha G; rewrite /= /set_frame_op H1 H2 H3 (dcm_targetE _ Hr Ha) //=; split=> //.
by eexists; rewrite fset_eq.
Qed.
Lemma set_axes_done s f ff A : frames s f = Some ff -> independent_rows A -> 0 <= rtol -> 0 <= atol ->
  (step rtol atol norm s (SetAxes f A)).2 = Done /\
  frames (step rtol atol norm s (SetAxes f A)).1 f = Some (Frame (kind_of ff) A).
Proof.
move=> H1 I Hr Ha; rewrite /= /set_axes_op H1; case: (reg s f) => [|t ts] /=; first by rewrite fset_eq.
by rewrite (dcm_targetE _ Hr Ha) /= ?fset_eq.
Qed.
Lemma set_axes_singular s f A : reg s f <> [::] -> ~ independent_rows A ->
  forall ff, frames s f = Some ff ->
  step rtol atol norm s (SetAxes f A) = (s, Raised LinAlgError).
Proof.
move=> R I ff H1; rewrite /= /set_axes_op H1; case E: (reg s f) R => [|t ts] // _.
by rewrite /dcm_target dual_singular.
Qed.
(** Creation and assignment of components. *)
Lemma new_tensor_done s r (a : tens F n r) f fr : frames s f = Some fr ->
  let s' := (step rtol atol norm s (NewTensor a f)).1 in
  [/\ (step rtol atol norm s (NewTensor a f)).2 = Done, objs s' (nobjs s) = Some (Obj a f),
      forall t, t <> nobjs s -> objs s' t = objs s t & frames s' = frames s].
Proof.
move=> E; rewrite /= /new_tensor_op E /=; split=> //; first by rewrite fset_eq.
by move=> t /eqP Ht; rewrite fset_ne.
Qed.
Lemma set_array_done s t o r (a : tens F n r) : objs s t = Some o ->
  let s' := (step rtol atol norm s (SetArray t a)).1 in
  [/\ r = o_rank o -> (step rtol atol norm s (SetArray t a)).2 = Done /\ objs s' t = Some (Obj a (o_frame o)),
      r <> o_rank o -> step rtol atol norm s (SetArray t a) = (s, Raised AssertionError),
      forall x, x <> t -> objs s' x = objs s x & frames s' = frames s].
Proof.
move=> E; rewrite /= /set_array_op E /=; split.
- by move=> Er; have -> : (r == o_rank o) = true by [apply/eqP]; rewrite /= fset_eq.
- by move=> /eqP/negbTE->.
- by case: ifP => _ x /eqP Hx //=; rewrite fset_ne.
- by case: ifP.
Qed.

(** Moving: where the tensors are afterwards. *)
Definition in_frame (s : state) (t g : nat) : Prop := exists o, objs s t = Some o /\ o_frame o = g.
Lemma set_frame_in s t g : (set_frame_op rtol atol norm s t g).2 = Done -> in_frame (set_frame_op rtol atol norm s t g).1 t g.
Proof.
rewrite /set_frame_op; case: (objs s t) => //= o; case: (frames s (o_frame o)) => //= ff.
case: (frames s g) => //= fg; case: (dcm_target _ _ _ _ _) => //= Q _.
by eexists; split; [rewrite /= fset_eq; reflexivity|].
Qed.
Lemma set_frame_others s t g x h : x <> t -> in_frame s x h -> in_frame (set_frame_op rtol atol norm s t g).1 x h.
Proof.
move=> /eqP Hx; rewrite /set_frame_op; case: (objs s t) => //= o; case: (frames s (o_frame o)) => //= ff.
case: (frames s g) => //= fg; case: (dcm_target _ _ _ _ _) => //= Q [o' [E1 E2]].
by exists o'; rewrite /= fset_ne.
Qed.
Lemma move_all_in ts g : forall s x, in_frame s x g \/ x \in ts -> (move_all rtol atol norm s ts g).2 = Done ->
  in_frame (move_all rtol atol norm s ts g).1 x g.
Proof.
elim: ts => [|t ts IH] s x /=; first by case.
have := @set_frame_in s t g; have := @set_frame_others s t g x g; move=> H2 H1; move: H1 H2.
case E: (set_frame_op _ _ _ s t g) => [s' []] //= H1 H2 Hx Hd.
apply: IH => //; have [Ext|Ne] := x =P t; first by left; rewrite Ext; exact: H1.
case: Hx => [Hx|]; first by left; exact: H2.
by rewrite inE => /orP[/eqP //|]; right.
Qed.
Lemma set_axes_in s f A t g : in_frame s t g -> in_frame (set_axes_op rtol atol norm s f A).1 t g.
Proof.
move=> [o [E1 E2]]; rewrite /set_axes_op; case: (frames s f) => [ff|] /=; last by exists o.
case R: (reg s f) => [|y ys] /=; first by exists o.
case: (dcm_target _ _ _ _ _) => [Q|e] /=; last by exists o.
rewrite /in_frame /=; case: ifP => _; last by exists o.
by rewrite E1; eexists; split; [reflexivity|].
Qed.

Lemma set_axes_frames s f A ff : frames s f = Some ff -> (set_axes_op rtol atol norm s f A).2 = Done ->
  frames (set_axes_op rtol atol norm s f A).1 = fset (frames s) f (Some (Frame (kind_of ff) A)).
Proof.
move=> E; rewrite /set_axes_op E; case: (reg s f) => [|t ts] //=.
by case: (dcm_target _ _ _ _ _).
Qed.

(** A completed in-place operator that changes the class: the tensors are in the new
    frame, the old frame object is as before. *)
Lemma cast_facts s f rect A ff : consistent s -> frames s f = Some ff ->
  (step rtol atol norm s (Cast f rect A)).2 = Done ->
  let s' := (step rtol atol norm s (Cast f rect A)).1 in let g := nframes s in
  [/\ frames s' g = Some (Frame (if rect then Rectangular else Reference) A), g <> f, frames s' f = Some ff &
      forall t, in_frame s t f -> in_frame s' t g].
Proof.
move=> C E; rewrite /= /cast_op E.
have Hg : nframes s <> f by move=> Hf; case: C => _ _ _ C4 _; move: (C4 f); rewrite -Hf leqnn Hf E => /(_ isT).
set k := if rect then _ else _.
have Hk : k <> Cartesian by rewrite /k; case rect.
have K := @new_frame_keeps s true k (axes ff) C (fun E => False_ind _ (Hk E)).
move: K; rewrite /new_frame_op; case En: (new_frame _ _ _ k _) => [h|e] //=.
have -> := new_frame_axes En.
set s1 := State _ _ _ _ _ => K.
have [K2 F2] := move_all_keeps (reg s f) (nframes s) (proj1 K).
have MI := @move_all_in (reg s f) (nframes s) s1.
move: K2 F2 MI; case: (move_all _ _ _ s1 _ _) => s2 [] //= K2 F2 MI Hd.
have Eg : frames s2 (nframes s) = Some (Frame k (axes ff)) by rewrite F2 fset_eq.
rewrite (set_axes_frames Eg Hd) /= fset_eq; split=> //.
  by rewrite fset_ne; [rewrite F2 /= fset_ne //; apply/eqP => Ef; apply: Hg|apply/eqP => Ef; apply: Hg].
move=> t [o [E1 E2]]; apply: set_axes_in; apply: MI => //; right.
by case: C => R _ _ _ _; apply/R; exists o.
Qed.
Lemma history_cast os f rect A ff :
  (forall o, List.In o os -> no_poke o) -> honest_run rtol atol norm (@empty F n) os ->
  let s := run rtol atol norm (@empty F n) os in
  frames s f = Some ff -> (step rtol atol norm s (Cast f rect A)).2 = Done ->
  let s' := (step rtol atol norm s (Cast f rect A)).1 in let g := nframes s in
  [/\ frames s' g = Some (Frame (if rect then Rectangular else Reference) A), g <> f, frames s' f = Some ff &
      forall t o, objs s t = Some o -> o_frame o = f -> exists o', objs s' t = Some o' /\ o_frame o' = g].
Proof.
move=> H1 H2 s E Hd s' g.
have C : consistent s by exact: history_consistent.
have [G1 G2 G3 G4] := cast_facts C E Hd; split=> // t o E1 E2; apply: G4; by exists o.
Qed.
End Hist.

Section Refute.
Variables (F : realFieldType) (rtol atol : F) (norm : 'rV[F]_1 -> F).
Hypotheses (Hr : 0 <= rtol) (Ha : 0 <= atol).

Let e1 : tens F 1 1 := of_vec 1%:M.

Lemma scalar_value (c : F) (b : 'cV[F]_1) : represents (c%:M : 'M[F]_1) (of_vec b) (of_vec (c *: b)).
Proof. by apply/representsP; rewrite transform_of_vec tr_scalar_mx mul_scalar_mx. Qed.

Lemma scaled_neq (c : F) : c <> 1 -> of_vec (c *: 1%:M) <> e1.
Proof.
move=> ne /(congr1 (@vec_of F 1)); rewrite !of_vecK => /matrixP /(_ 0 0).
by rewrite !mxE /= mulr1.
Qed.

(** A CartesianFrame whose axes are replaced by 2 I: moving a vector into it changes the
    vector. *)
Definition cart_pre : seq (op F 1) :=
  [:: NewFrame true Reference 1%:M; NewTensor e1 0; NewFrame true Cartesian 1%:M; SetAxes 1 2%:R%:M].
Lemma cartesian_history : norm_rows norm 1%:M ->
  has_value (run rtol atol norm (@empty F 1) cart_pre) 0 e1 /\
  exists W, has_value (run rtol atol norm (@empty F 1) (cart_pre ++ [:: SetFrame F 1 0 1])) 0 W /\ W <> e1.
Proof.
move=> N.
have G : good_frame (Frame Cartesian (1%:M : 'M[F]_1)) by apply: scalar_good; rewrite ?expr1n //; exact/eqP/oner_neq0.
have E : new_frame rtol atol norm Cartesian (1%:M : 'M[F]_1) = Ok (Frame Cartesian 1%:M).
  by apply: (new_good Hr Ha G).
rewrite /run /cart_pre [step]lock /= -!lock /= /new_frame_op E /=.
split.
  by exists e1, 0%N, (Frame Reference 1%:M); split=> //; exact: represents1.
exists (of_vec (4%:R *: 1%:M)); split; last by apply: scaled_neq; exact: (@nat_neq F 4 1).
eexists _, 1%N, _; split; [reflexivity|reflexivity|].
rewrite transform_of_vec /= trmx1 mulmx1 mulmx1.
have -> : (4%:R : F) *: (1%:M : 'cV[F]_1) = 2%:R *: (2%:R *: 1%:M) by rewrite scalerA -natrM.
by rewrite !scalemx1; have := scalar_value 2%:R 2%:R%:M.
Qed.

Definition poke_pre : seq (op F 1) := [:: NewFrame true Reference 1%:M; NewTensor e1 0].
Lemma poke_history :
  has_value (run rtol atol norm (@empty F 1) poke_pre) 0 e1 /\
  exists W, has_value (run rtol atol norm (@empty F 1) (poke_pre ++ [:: Poke 0 2%:R%:M])) 0 W /\ W <> e1.
Proof.
split; first by exists e1, 0%N, (Frame Reference 1%:M); split=> //; exact: represents1.
exists (of_vec (2%:R *: 1%:M)); split; last by apply: scaled_neq; exact: (@nat_neq F 2 1).
eexists _, 0%N, _; split; [reflexivity|reflexivity|].
exact: (scalar_value (2%:R) 1%:M).
Qed.

(** A history that meets the hypotheses of [history]: moved, re-axed, cast. *)
Definition good_os : seq (op F 1) :=
  [:: NewFrame true Rectangular 3%:R%:M; SetFrame F 1 0 1; SetAxes 1 2%:R%:M; Cast 1 false 5%:R%:M; SetAxes 2 0].
Lemma good_history : 
  [/\ forall o, List.In o poke_pre -> no_poke o, forall o, List.In o good_os -> leaves 0 o,
      honest_run rtol atol norm (@empty F 1) (poke_pre ++ good_os) &
      has_value (run rtol atol norm (@empty F 1) poke_pre) 0 e1].
Proof.
split=> /=.
- by move=> o [<-|[<-|[]]].
- by move=> o [<-|[<-|[<-|[<-|[<-|[]]]]]].
- do 2 (split=> //); split=> //; split=> //.
  have G : good_frame (Frame Rectangular (3%:R%:M : 'M[F]_1)) by apply: scalar_good => //; exact: (@nat_neq F 3 0).
  have E : new_frame rtol atol norm Rectangular (3%:R%:M : 'M[F]_1) = Ok (Frame Rectangular 3%:R%:M).
    by apply: (new_good Hr Ha G).
  have G2 : good_frame (Frame Reference (2%:R%:M : 'M[F]_1)) by apply: scalar_good => //; exact: (@nat_neq F 2 0).
  rewrite /new_frame_op E /= /set_frame_op /= (dcm_targetE norm Hr Ha _ G) /=.
  split; first by move=> fr [<-].
  split=> //.
  rewrite /set_axes_op /= (dcm_targetE norm Hr Ha _ G2) /= /cast_op /=.
  have G3 : good_frame (Frame Rectangular (2%:R%:M : 'M[F]_1)) by apply: scalar_good => //; exact: (@nat_neq F 2 0).
  rewrite /set_frame_op /= (dcm_targetE norm Hr Ha _ G2) /=.
  have G5 : good_frame (Frame Reference (5%:R%:M : 'M[F]_1)) by apply: scalar_good => //; exact: (@nat_neq F 5 0).
  rewrite /set_axes_op /= (dcm_targetE norm Hr Ha _ G5) /=.
  by split=> // fr [<-].
- by exists e1, 0%N, (Frame Reference 1%:M); split=> //; exact: represents1.
Qed.
End Refute.

Lemma cartesian_refuted (F : realFieldType) (rtol atol : F) (norm : 'rV[F]_1 -> F) :
  0 <= rtol -> 0 <= atol -> norm_rows norm 1%:M ->
  exists (pre os : seq (op F 1)) (V W : tens F 1 1),
    [/\ forall o, List.In o (pre ++ os) -> no_poke o, forall o, List.In o os -> leaves 0 o,
        has_value (run rtol atol norm (@empty F 1) pre) 0 V, has_value (run rtol atol norm (@empty F 1) (pre ++ os)) 0 W & W <> V].
Proof.
move=> Hr Ha N; have [H [W [H1 H2]]] := cartesian_history Hr Ha N.
exists (cart_pre F), [:: SetFrame F 1 0 1], (of_vec 1%:M), W; split=> //.
  by move=> o /= [<-|[<-|[<-|[<-|[<-|[]]]]]].
by move=> o /= [<-|[]].
Qed.
Lemma poke_refuted (F : realFieldType) (rtol atol : F) (norm : 'rV[F]_1 -> F) :
  exists (V W : tens F 1 1), [/\ has_value (run rtol atol norm (@empty F 1) (poke_pre F)) 0 V,
    has_value (run rtol atol norm (@empty F 1) (poke_pre F ++ [:: Poke 0 2%:R%:M])) 0 W & W <> V].
Proof. by have [H [W [H1 H2]]] := poke_history rtol atol norm; exists (of_vec 1%:M), W. Qed.

Section Order.
Variables (F : realFieldType) (n : nat).
Lemma order_ignored :
  (forall a : nd F n, ord_of a = COrder -> value (transpose_inplace a) = value a) /\
  (forall a : nd F n, ord_of a = FOrder -> value (assigned a) = (value a)^T).
Proof. by split=> -[o m] /= ->; rewrite /value /= ?trmxK. Qed.
Lemma np_T_value (a : nd F n) : value (np_T a) = (value a)^T.
Proof. by case: a => [[] m]; rewrite /value /= ?trmxK. Qed.
Lemma c_order (a : nd F n) : ord_of a = COrder -> value (assigned a) = value a.
Proof. by case: a => o m /= ->. Qed.
Lemma transpose_wrong : exists a : nd F 2, ord_of a = COrder /\ value (transpose_inplace a) <> (value a)^T.
Proof.
exists (Nd COrder (delta_mx ord0 ord_max)); split=> //.
rewrite /value /= trmx_delta => /matrixP /(_ ord0 ord_max); rewrite !mxE /= => /eqP.
by rewrite oner_eq0.
Qed.
End Order.
