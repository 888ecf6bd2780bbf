(** Properties C39, C73 and C74: histories of frames and tensors. *)
Set Warnings "-notation-overridden,-ambiguous-paths".
From Verif Require Import Prelude TensorModel TensorSpec TensorOpProofs FrameHistModel FrameHistSpec FrameHistProofs FrameArrayModel.
From mathcomp Require Import all_ssreflect all_algebra.
Set Implicit Arguments.
Unset Strict Implicit.
Unset Printing Implicit Defensive.
Local Open Scope ring_scope.

(** C39.  Take any history of frames and tensors (creating, moving a tensor to another
    frame, assigning axes, in-place operators on frames including those that change the
    class, garbage collection, assigning components, all possibly raising exceptions) in
    which CartesianFrames only ever get orthonormal axes.  A tensor that exists after the
    first part of it describes the same ambient tensor after all of it, as long as its
    own components are not assigned and it is not collected. *)
Theorem C39_history_partial :
  forall (F : realFieldType) (rtol atol : F) (n : nat) (norm : 'rV[F]_n -> F)
    (pre os : seq (op F n)) (t r : nat) (V : tens F n r),
  (forall o, List.In o pre -> no_poke o) -> (forall o, List.In o os -> leaves t o) ->
  honest_run rtol atol norm (@empty F n) (pre ++ os) ->
  has_value (run rtol atol norm (@empty F n) pre) t V ->
  has_value (run rtol atol norm (@empty F n) (pre ++ os)) t V.
Proof. exact history. Qed.
Print Assumptions C39_history_partial.

(** What the user sees: [t.show()] is V exactly when t describes V. *)
Theorem C39_value_is_shown : forall (F : realFieldType) (rtol atol : F) (n : nat) (norm : 'rV[F]_n -> F)
    (s : state F n) (t r : nat) (V : tens F n r), 0 <= rtol -> 0 <= atol ->
  has_value s t V <->
  exists a f fr, [/\ objs s t = Some (Obj a f), frames s f = Some fr & show rtol atol norm (Tensor a fr) None = Ok V].
Proof. exact has_value_show. Qed.
Print Assumptions C39_value_is_shown.

(** Every tensor is registered with its own frame and with no other, throughout. *)
Theorem C39_registered : forall (F : realFieldType) (rtol atol : F) (n : nat) (norm : 'rV[F]_n -> F) (os : seq (op F n)),
  (forall o, List.In o os -> no_poke o) -> honest_run rtol atol norm (@empty F n) os ->
  registered (run rtol atol norm (@empty F n) os).
Proof. exact history_registered. Qed.
Print Assumptions C39_registered.

(** The operations do what they are asked: a tensor moved to a proper frame is in it, and
    independent axes are taken over; singular axes are refused. *)
Theorem C39_moves : forall (F : realFieldType) (rtol atol : F) (n : nat) (norm : 'rV[F]_n -> F)
    (s : state F n) t g o ff fg,
  objs s t = Some o -> frames s (o_frame o) = Some ff -> frames s g = Some fg ->
  0 <= rtol -> 0 <= atol -> good_frame fg ->
  (step rtol atol norm s (SetFrame F n t g)).2 = Done /\
  exists a, objs (step rtol atol norm s (SetFrame F n t g)).1 t = Some (@Obj F n (o_rank o) a g).
Proof. exact set_frame_done. Qed.
Print Assumptions C39_moves.

Theorem C39_axes_assigned : forall (F : realFieldType) (rtol atol : F) (n : nat) (norm : 'rV[F]_n -> F)
    (s : state F n) f ff A,
  frames s f = Some ff -> independent_rows A -> 0 <= rtol -> 0 <= atol ->
  (step rtol atol norm s (SetAxes f A)).2 = Done /\
  frames (step rtol atol norm s (SetAxes f A)).1 f = Some (Frame (kind_of ff) A).
Proof. exact set_axes_done. Qed.
Print Assumptions C39_axes_assigned.

Theorem C39_singular_axes_refused : forall (F : realFieldType) (rtol atol : F) (n : nat) (norm : 'rV[F]_n -> F)
    (s : state F n) f A,
  reg s f <> [::] -> ~ independent_rows A -> forall ff, frames s f = Some ff ->
  step rtol atol norm s (SetAxes f A) = (s, Raised LinAlgError).
Proof. exact set_axes_singular. Qed.
Print Assumptions C39_singular_axes_refused.

(** Creating a tensor and assigning components. *)
Theorem C39_created : forall (F : realFieldType) (rtol atol : F) (n : nat) (norm : 'rV[F]_n -> F)
    (s : state F n) r (a : tens F n r) f fr, frames s f = Some fr ->
  let s' := (step rtol atol norm s (NewTensor a f)).1 in
  [/\ (step rtol atol norm s (NewTensor a f)).2 = Done, objs s' (nobjs s) = Some (Obj a f),
      forall t, t <> nobjs s -> objs s' t = objs s t & frames s' = frames s].
Proof. exact new_tensor_done. Qed.
Print Assumptions C39_created.

Theorem C39_components_assigned : forall (F : realFieldType) (rtol atol : F) (n : nat) (norm : 'rV[F]_n -> F)
    (s : state F n) t o r (a : tens F n r), objs s t = Some o ->
  let s' := (step rtol atol norm s (SetArray t a)).1 in
  [/\ r = o_rank o -> (step rtol atol norm s (SetArray t a)).2 = Done /\ objs s' t = Some (Obj a (o_frame o)),
      r <> o_rank o -> step rtol atol norm s (SetArray t a) = (s, Raised AssertionError),
      forall x, x <> t -> objs s' x = objs s x & frames s' = frames s].
Proof. exact set_array_done. Qed.
Print Assumptions C39_components_assigned.

(** An in-place operator that changes the class, if it completes, leaves the old frame
    object alone and all its tensors in a new frame with the computed axes. *)
Theorem C39_class_changed : forall (F : realFieldType) (rtol atol : F) (n : nat) (norm : 'rV[F]_n -> F)
    (os : seq (op F n)) f rect A ff,
  (forall o, List.In o os -> no_poke o) -> honest_run rtol atol norm (@empty F n) os ->
  let s := run rtol atol norm (@empty F n) os in
  frames s f = Some ff -> (step rtol atol norm s (Cast f rect A)).2 = Done ->
  let s' := (step rtol atol norm s (Cast f rect A)).1 in let g := nframes s in
  [/\ frames s' g = Some (Frame (if rect then Rectangular else Reference) A), g <> f, frames s' f = Some ff &
      forall t o, objs s t = Some o -> o_frame o = f -> exists o', objs s' t = Some o' /\ o_frame o' = g].
Proof. exact history_cast. Qed.
Print Assumptions C39_class_changed.

(** An exception leaves the heap as it was (for every operation but the in-place
    operators that change the class; those keep all values by C39_history_partial). *)
Theorem C39_exceptions : forall (F : realFieldType) (rtol atol : F) (n : nat) (norm : 'rV[F]_n -> F)
    (s : state F n) o e,
  (forall f rect A, o <> Cast f rect A) ->
  (step rtol atol norm s o).2 = Raised e -> (step rtol atol norm s o).1 = s.
Proof. exact raised_unchanged. Qed.
Print Assumptions C39_exceptions.

(** Without the condition on CartesianFrames the property fails: the axes of a
    CartesianFrame can be replaced by 2 I, and a vector moved to it then changes. *)
Theorem C39_refuted : forall (F : realFieldType) (rtol atol : F) (norm : 'rV[F]_1 -> F),
  0 <= rtol -> 0 <= atol -> norm_rows norm 1%:M ->
  exists (pre os : seq (op F 1)) (V W : tens F 1 1),
    [/\ forall o, List.In o (pre ++ os) -> no_poke o, forall o, List.In o os -> leaves 0 o,
        has_value (run rtol atol norm (@empty F 1) pre) 0 V, has_value (run rtol atol norm (@empty F 1) (pre ++ os)) 0 W & W <> V].
Proof. exact cartesian_refuted. Qed.
Print Assumptions C39_refuted.

(** The hypotheses of C39_history_partial are met by a history that moves a vector to a
    rectangular frame, rescales that frame, casts it by an in-place operator and then
    tries to assign singular axes. *)
Example C39_history_example : forall (F : realFieldType) (rtol atol : F) (norm : 'rV[F]_1 -> F),
  0 <= rtol -> 0 <= atol ->
  [/\ forall o, List.In o (poke_pre F) -> no_poke o, forall o, List.In o (good_os F) -> leaves 0 o,
      honest_run rtol atol norm (@empty F 1) (poke_pre F ++ good_os F) &
      has_value (run rtol atol norm (@empty F 1) (poke_pre F)) 0 (of_vec 1%:M)].
Proof. exact good_history. Qed.

(** C73, refuted: writing an element of a frame (or into the array that was assigned to
    its axes) changes the physical value of the tensors registered with it. *)
Theorem C73_refuted : forall (F : realFieldType) (rtol atol : F) (norm : 'rV[F]_1 -> F),
  exists (V W : tens F 1 1),
    [/\ has_value (run rtol atol norm (@empty F 1) [:: NewFrame true Reference 1%:M; NewTensor (of_vec 1%:M) 0]) 0 V,
        has_value (run rtol atol norm (@empty F 1)
          [:: NewFrame true Reference 1%:M; NewTensor (of_vec 1%:M) 0; Poke 0 2%:R%:M]) 0 W & W <> V].
Proof. exact poke_refuted. Qed.
Print Assumptions C73_refuted.

(** C74, refuted: transposing a frame in place never changes it, and assigning a
    Fortran-ordered array assigns its transpose. *)
Theorem C74_order_ignored : forall (F : realFieldType) (n : nat),
  (forall a : nd F n, ord_of a = COrder -> value (transpose_inplace a) = value a) /\
  (forall a : nd F n, ord_of a = FOrder -> value (assigned a) = (value a)^T).
Proof. exact order_ignored. Qed.
Print Assumptions C74_order_ignored.

(** The transposed array a user sees, which the assignment should take over. *)
Theorem C74_transposed_array : forall (F : realFieldType) (n : nat) (a : nd F n), value (np_T a) = (value a)^T.
Proof. exact np_T_value. Qed.
Print Assumptions C74_transposed_array.

Theorem C74_transpose_refuted : forall F : realFieldType,
  exists a : nd F 2, ord_of a = COrder /\ value (transpose_inplace a) <> (value a)^T.
Proof. exact transpose_wrong. Qed.
Print Assumptions C74_transpose_refuted.

(** C-ordered arrays are taken over as they are. *)
Theorem C74_c_order_partial : forall (F : realFieldType) (n : nat) (a : nd F n),
  ord_of a = COrder -> value (assigned a) = value a.
Proof. exact c_order. Qed.
Print Assumptions C74_c_order_partial.
