(** Proofs about the kernels of linalg. *)
From Coq Require Import Field QArith Qcanon.
From Verif Require Import Prelude OField ParallelModel ParallelSpec ParallelProofs ArrayModel ArrayProofs SolveModel KernModel KernSpec.
Local Open Scope nat_scope.

Section K.
Context {F : ofield}.
Add Field KernF : (of_field F).
Local Notation mat := (nat -> nat -> F).

(** ** Closed forms *)
Lemma det2_ok (A : mat) : det2_expr A = det 2 A.
Proof. unfold det2_expr. cbn [det sum minor pow Nat.ltb Nat.leb]. unfold minor. cbn [Nat.ltb Nat.leb]. ring. Qed.
Lemma det3_ok (A : mat) : det3_expr A = det 3 A.
Proof. unfold det3_expr. cbn [det sum pow]. unfold minor. cbn [Nat.ltb Nat.leb]. ring. Qed.

Ltac idx i := destruct i as [|[|[|]]]; try lia.

Lemma adj_ok (A : mat) i j : i < 3 -> j < 3 ->
  sum 3 (fun k => mul (A i k) (adj_expr A k j)) = mul (det 3 A) (delta i j) /\
  sum 3 (fun k => mul (adj_expr A i k) (A k j)) = mul (det 3 A) (delta i j).
Proof.
  intros Hi Hj. rewrite <- det3_ok. unfold det3_expr.
  idx i; idx j; cbn [sum adj_expr]; unfold delta; cbn [Nat.eqb]; split; ring.
Qed.

Lemma nine_fold {V} (f : nat -> nat -> V) (b : nat -> nat -> V) i j : i < 3 -> j < 3 ->
  fold_left (fun (res : nat -> nat -> V) p => (fun r c => if (r =? fst p) && (c =? snd p) then f (fst p) (snd p) else res r c)) nine b i j = f i j.
Proof. intros Hi Hj. idx i; idx j; reflexivity. Qed.

Lemma adj3x3_ok (A buf : mat) i j : i < 3 -> j < 3 -> adj3x3 A buf i j = adj_expr A i j.
Proof. intros Hi Hj. unfold adj3x3. apply (nine_fold (adj_expr A) buf i j Hi Hj). Qed.

Lemma inverse_from_adj (A : mat) : det 3 A <> zero ->
  is_inverse 3 A (fun i j => div (adj_expr A i j) (det 3 A)).
Proof.
  intros Hd i j Hi Hj. destruct (adj_ok A i j Hi Hj) as [H1 H2]. split.
  - rewrite (sum_ext F 3 _ (fun k => mul (inv (det 3 A)) (mul (A i k) (adj_expr A k j)))) by (intros; field; exact Hd).
    rewrite sum_scale, H1. field. exact Hd.
  - rewrite (sum_ext F 3 _ (fun k => mul (inv (det 3 A)) (mul (adj_expr A i k) (A k j)))) by (intros; field; exact Hd).
    rewrite sum_scale, H2. field. exact Hd.
Qed.

Lemma fdiv_nz (x d : F) : d <> zero -> fdiv (Some x) d = Some (div x d).
Proof. intros H. unfold fdiv. destruct (eqb_spec F d zero); [contradiction|reflexivity]. Qed.
Lemma fdiv_0 (x : option F) : fdiv x zero = None.
Proof. unfold fdiv. destruct x; [|reflexivity]. rewrite eqb_refl. reflexivity. Qed.

Lemma inv3x3_value (A : mat) i j : i < 3 -> j < 3 -> inv3x3 A i j = fdiv (Some (adj_expr A i j)) (det 3 A).
Proof.
  intros Hi Hj. unfold inv3x3. rewrite det3_ok. f_equal. f_equal. apply (nine_fold (adj_expr A) (fun _ _ => zero) i j Hi Hj).
Qed.

Lemma inv3x3_ok (A : mat) : (det 3 A <> zero -> finite_inverse 3 A (inv3x3 A)) /\
  (det 3 A = zero -> forall i j, i < 3 -> j < 3 -> inv3x3 A i j = None).
Proof.
  split.
  - intros Hd. exists (fun i j => div (adj_expr A i j) (det 3 A)). split; [|apply inverse_from_adj; exact Hd].
    intros i j Hi Hj. rewrite inv3x3_value, fdiv_nz by assumption. reflexivity.
  - intros Hd i j Hi Hj. rewrite inv3x3_value by assumption. rewrite Hd. apply fdiv_0.
Qed.

Lemma inv3x3u_ok (A : mat) buf : (det 3 A <> zero -> finite_inverse 3 A (inv3x3u A buf)) /\
  (det 3 A = zero -> forall i j, i < 3 -> j < 3 -> inv3x3u A buf i j = None).
Proof.
  assert (E : forall i j, i < 3 -> j < 3 -> inv3x3u A buf i j = inv3_expr A i j).
  { intros i j Hi Hj. unfold inv3x3u. apply (nine_fold (inv3_expr A) buf i j Hi Hj). }
  split.
  - intros Hd. exists (fun i j => div (adj_expr A i j) (det 3 A)). split; [|apply inverse_from_adj; exact Hd].
    intros i j Hi Hj. rewrite E by assumption. unfold inv3_expr. rewrite det3_ok.
    idx i; idx j; rewrite !fdiv_nz by exact Hd; cbn [fsub adj_expr]; f_equal; field; exact Hd.
  - intros Hd i j Hi Hj. rewrite E by assumption. unfold inv3_expr. rewrite det3_ok, Hd.
    idx i; idx j; rewrite !fdiv_0; reflexivity.
Qed.

Definition adj2 (A : mat) (i j : nat) : F :=
  match i, j with 0, 0 => A 1 1 | 1, 1 => A 0 0 | 0, 1 => opp (A 0 1) | 1, 0 => opp (A 1 0) | _, _ => zero end.
Ltac idx2 i := destruct i as [|[|]]; try lia.
Lemma inverse_2 (A : mat) : det 2 A <> zero -> is_inverse 2 A (fun i j => div (adj2 A i j) (det 2 A)).
Proof.
  intros Hd i j Hi Hj. rewrite <- det2_ok in *. unfold det2_expr in *.
  idx2 i; idx2 j; cbn [sum adj2]; unfold delta; cbn [Nat.eqb]; split; field; exact Hd.
Qed.
Lemma inv2x2_ok (A : mat) :
  (det 2 A <> zero -> exists X, inv2x2 (fun v => v) A = Ok X /\ is_inverse 2 A X) /\
  (det 2 A = zero -> inv2x2 (fun v => v) A = Err ZeroDivisionError).
Proof.
  unfold inv2x2. rewrite det2_ok. split; intros Hd.
  - destruct (eqb_spec F (det 2 A) zero); [contradiction|]. eexists. split; [reflexivity|].
    intros i j Hi Hj. destruct (inverse_2 A Hd i j Hi Hj) as [H1 H2].
    idx2 i; idx2 j; (split; [exact H1|exact H2]).
  - rewrite Hd, eqb_refl. reflexivity.
Qed.
Lemma inv2x2u_ok (A : mat) buf : (det 2 A <> zero -> finite_inverse 2 A (inv2x2u A buf)) /\
  (det 2 A = zero -> forall i j, i < 2 -> j < 2 -> inv2x2u A buf i j = None).
Proof.
  unfold inv2x2u. rewrite det2_ok. split.
  - intros Hd. exists (fun i j => div (adj2 A i j) (det 2 A)). split; [|apply inverse_2; exact Hd].
    intros i j Hi Hj. rewrite !fdiv_nz by exact Hd. idx2 i; idx2 j; reflexivity.
  - intros Hd i j Hi Hj. rewrite Hd, !fdiv_0. idx2 i; idx2 j; reflexivity.
Qed.

(** ** Parallel loops *)
Lemma In_cells sh c : In c (cells sh) <-> inside sh c.
Proof.
  revert c. induction sh as [|n sh IH]; intros c; cbn [cells].
  - split; [intros [<-|[]]; constructor|intros H; inversion H; left; reflexivity].
  - rewrite in_flat_map. split.
    + intros (i & Hi & H). apply in_map_iff in H. destruct H as (d & <- & Hd). constructor; [apply In_range; exact Hi|apply IH; exact Hd].
    + intros H. inversion H as [|i n' d sh' Hi Hd]; subst. exists i. split; [apply In_range; exact Hi|]. apply in_map. apply IH. exact Hd.
Qed.
Lemma NoDup_flat_map {A B} (f : A -> list B) l : NoDup l -> (forall x, In x l -> NoDup (f x)) ->
  (forall x y b, In x l -> In y l -> In b (f x) -> In b (f y) -> x = y) -> NoDup (flat_map f l).
Proof.
  induction 1 as [|x l Hx ND IH]; intros Hf Hd; cbn [flat_map]; [constructor|].
  assert (Happ : forall l1 l2 : list B, NoDup l1 -> NoDup l2 -> (forall b, In b l1 -> ~ In b l2) -> NoDup (l1 ++ l2)).
  { induction l1 as [|a l1 IH1]; intros l2 N1 N2 D; [exact N2|]. inversion N1; subst. cbn. constructor.
    - rewrite in_app_iff. intros [H|H]; [contradiction|]. apply (D a); [left; reflexivity|exact H].
    - apply IH1; auto. intros b Hb. apply D. right. exact Hb. }
  apply Happ.
  - apply Hf. left. reflexivity.
  - apply IH; [intros y Hy; apply Hf; right; exact Hy|]. intros y z b Hy Hz. apply Hd; right; assumption.
  - intros b Hb Hb'. apply in_flat_map in Hb'. destruct Hb' as (y & Hy & Hb'). apply Hx.
    rewrite (Hd x y b (or_introl eq_refl) (or_intror Hy) Hb Hb'). exact Hy.
Qed.
Lemma NoDup_cells sh : NoDup (cells sh).
Proof.
  induction sh as [|n sh IH]; cbn [cells]; [constructor; [intros []|constructor]|].
  apply NoDup_flat_map.
  - apply seq_NoDup.
  - intros i _. apply FinFun.Injective_map_NoDup; [intros a b E; injection E; auto|exact IH].
  - intros i j b _ _ Hi Hj. apply in_map_iff in Hi, Hj. destruct Hi as (d & <- & _), Hj as (e & E & _). congruence.
Qed.

Section Bulk.
Context {V : Type}.
(** Iteration [i] only touches cells that start with [i]. *)
Definition owned (body : nat -> list (update V)) : Prop :=
  forall i u, In u (body i) -> exists c, u_cell u = i :: c.
Lemma owned_disjoint body n : owned body -> forall i j u w, i < n -> j < n -> i <> j -> In u (body i) -> In w (body j) -> u_cell u <> u_cell w.
Proof. intros Ho i j u w _ _ Hij Hu Hw E. destruct (Ho i u Hu) as [c Ec], (Ho j w Hw) as [d Ed]. rewrite Ec, Ed in E. injection E as E _. contradiction. Qed.
Lemma owned_schedule init body n : owned body -> schedule_independent init (map body (range n)).
Proof. intros Ho. apply disjoint_schedule. apply owned_disjoint. exact Ho. Qed.
Lemma owned_value init body n res i c : owned body -> prange_run init (map body (range n)) res -> i < n ->
  at_ res (i :: c) = exec (at_ init) (body i) (i :: c).
Proof.
  intros Ho Hrun Hi. apply (prange_cell init body n res i (i :: c) Hrun (owned_disjoint body n Ho) Hi).
  intros j u Hj Hne Hu E. destruct (Ho j u Hu) as [d Ed]. rewrite Ed in E. injection E as E _. contradiction.
Qed.

Lemma In_assign pre sh (f : cell -> V) u : In u (assign pre sh f) <-> exists c, inside sh c /\ u = store (pre ++ c) (f c).
Proof.
  unfold assign. rewrite in_map_iff. split.
  - intros (c & <- & Hc). exists c. split; [apply In_cells; exact Hc|reflexivity].
  - intros (c & Hc & ->). exists c. split; [reflexivity|apply In_cells; exact Hc].
Qed.
Lemma exec_assign m pre sh (f : cell -> V) c : inside sh c -> exec m (assign pre sh f) (pre ++ c) = f c.
Proof.
  intros Hc. apply exec_stores.
  - apply In_assign. exists c. auto.
  - intros u Hu E. apply In_assign in Hu. destruct Hu as (d & _ & ->). cbn in E |- *. apply app_inv_head in E. subst. reflexivity.
Qed.
Lemma exec_app (m : memory V) l1 l2 : exec m (l1 ++ l2) = exec (exec m l1) l2.
Proof. unfold exec. apply fold_left_app. Qed.
Lemma exec_other (m : memory V) l c : (forall u, In u l -> u_cell u <> c) -> exec m l c = m c.
Proof.
  revert m. induction l as [|u l IH]; intros m H; [reflexivity|]. change (exec m (u :: l)) with (exec (step m u) l).
  rewrite IH by (intros w Hw; apply H; right; exact Hw). unfold step. destruct (cell_dec c (u_cell u)) as [E|]; [|reflexivity].
  exfalso. apply (H u (or_introl eq_refl)). symmetry. exact E.
Qed.
(** One update per listed cell. *)
Lemma exec_updates (m : memory V) pre l (f : cell -> V -> V) c : NoDup l -> In c l ->
  exec m (map (fun c => Upd (pre ++ c) (f c)) l) (pre ++ c) = f c (m (pre ++ c)).
Proof.
  intros ND. revert m. induction ND as [|d l Hd ND IH]; intros m Hc; [destruct Hc|].
  cbn [map].
  match goal with |- exec ?m (?u :: ?l) ?c = _ => change (exec m (u :: l) c) with (exec (step m u) l c) end.
  destruct Hc as [<-|Hc].
  - rewrite exec_other.
    + unfold step. cbn [u_cell u_fun]. destruct (cell_dec (pre ++ d) (pre ++ d)); [reflexivity|congruence].
    + intros u Hu E. apply in_map_iff in Hu. destruct Hu as (e & <- & He). cbn in E. apply app_inv_head in E. subst. contradiction.
  - rewrite (IH _ Hc). f_equal. unfold step. cbn [u_cell]. destruct (cell_dec (pre ++ c) (pre ++ d)) as [E|]; [|reflexivity].
    apply app_inv_head in E. subst. contradiction.
Qed.
(** A sequential inner loop over [x], whose step only touches cells [i; x; ...]. *)
Lemma exec_inner (m : memory V) (body : nat -> list (update V)) i M x c :
  (forall y u, In u (body y) -> exists d, u_cell u = i :: y :: d) -> x < M ->
  exec m (concat (map body (range M))) (i :: x :: c) = exec m (body x) (i :: x :: c).
Proof.
  intros Ho Hx. unfold range. replace M with (x + S (M - S x)) by lia. rewrite seq_app, map_app, concat_app. cbn [seq map concat].
  rewrite !exec_app. rewrite exec_other.
  2:{ intros u Hu E. apply in_concat in Hu. destruct Hu as (l & Hl & Hu). apply in_map_iff in Hl. destruct Hl as (y & <- & Hy).
      destruct (Ho y u Hu) as [d Ed]. rewrite Ed in E. injection E as E _. apply in_seq in Hy. lia. }
  cbn [Nat.add].
  (* the cell still has its initial value when step [x] starts, and step [x] only reads this cell *)
  rewrite (exec_filter (body x) (exec m _)), (exec_filter (body x) m). f_equal. apply exec_other.
  intros u Hu E. apply in_concat in Hu. destruct Hu as (l & Hl & Hu). apply in_map_iff in Hl. destruct Hl as (y & <- & Hy).
  destruct (Ho y u Hu) as [d Ed]. rewrite Ed in E. injection E as E _. apply in_seq in Hy. lia.
Qed.

Lemma assign_owned sh (f : nat -> cell -> V) : owned (fun i => assign [i] sh (f i)).
Proof. intros i u Hu. apply In_assign in Hu. destruct Hu as (c & _ & ->). exists c. reflexivity. Qed.
Lemma assign2_owned sh M (f : nat -> nat -> cell -> V) : owned (fun i => concat (map (fun x => assign [i; x] sh (f i x)) (range M))).
Proof.
  intros i u Hu. apply in_concat in Hu. destruct Hu as (l & Hl & Hu). apply in_map_iff in Hl. destruct Hl as (x & <- & _).
  apply In_assign in Hu. destruct Hu as (c & _ & ->). exists (x :: c). reflexivity.
Qed.
(** The two loop shapes: [res[i] = f(i)] and [res[i, x] = f(i, x)]. *)
Lemma bulk1 (z : V) sh0 sh N (f : nat -> cell -> V) :
  schedule_independent (zeros z sh0) (map (fun i => assign [i] sh (f i)) (range N)) /\
  forall res, prange_run (zeros z sh0) (map (fun i => assign [i] sh (f i)) (range N)) res ->
    shape res = sh0 /\ forall i c, i < N -> inside sh c -> at_ res (i :: c) = f i c.
Proof.
  split; [apply owned_schedule, assign_owned|]. intros res Hrun. split; [rewrite (prange_shape _ _ _ Hrun); reflexivity|].
  intros i c Hi Hc. rewrite (owned_value _ _ N res i c (assign_owned sh f) Hrun Hi). apply (exec_assign _ [i]). exact Hc.
Qed.
Lemma bulk2 (z : V) sh0 sh N M (f : nat -> nat -> cell -> V) :
  schedule_independent (zeros z sh0) (map (fun i => concat (map (fun x => assign [i; x] sh (f i x)) (range M))) (range N)) /\
  forall res, prange_run (zeros z sh0) (map (fun i => concat (map (fun x => assign [i; x] sh (f i x)) (range M))) (range N)) res ->
    shape res = sh0 /\ forall i x c, i < N -> x < M -> inside sh c -> at_ res (i :: x :: c) = f i x c.
Proof.
  split; [apply owned_schedule, assign2_owned|]. intros res Hrun. split; [rewrite (prange_shape _ _ _ Hrun); reflexivity|].
  intros i x c Hi Hx Hc. rewrite (owned_value _ _ N res i (x :: c) (assign2_owned sh M f) Hrun Hi).
  rewrite (exec_inner _ (fun x => assign [i; x] sh (f i x)) i M x c).
  - apply (exec_assign _ [i; x]). exact Hc.
  - intros y u Hu. apply In_assign in Hu. destruct Hu as (d & _ & ->). exists d. reflexivity.
  - exact Hx.
Qed.
End Bulk.

Lemma inside1 n j : j < n -> inside [n] [j].
Proof. intros H. repeat constructor. exact H. Qed.
Lemma inside2 n m i j : i < n -> j < m -> inside [n; m] [i; j].
Proof. intros H H'. repeat constructor; assumption. Qed.
Lemma inside4 n i j k l : i < n -> j < n -> k < n -> l < n -> inside [n; n; n; n] [i; j; k; l].
Proof. intros. repeat constructor; assumption. Qed.

(** *** inv3x3_bulk *)
Lemma bulk3_owned (A : nat -> mat) : owned (fun i => map (fun p => store [i; fst p; snd p] (Some (adj_expr (A i) (fst p) (snd p)))) nine
                ++ map (fun c => Upd (i :: c) (fun v => fdiv v (det3_expr (A i)))) (cells [3; 3])).
Proof.
  intros i u Hu. apply in_app_or in Hu. destruct Hu as [Hu|Hu]; apply in_map_iff in Hu.
  - destruct Hu as (p & <- & _). eexists. reflexivity.
  - destruct Hu as (c & <- & _). exists c. reflexivity.
Qed.
Lemma inv3x3_bulk_run N (A : nat -> mat) :
  schedule_independent (zeros (Some zero) [N; 3; 3]) (inv3x3_bulk_its N A) /\
  forall res, prange_run (zeros (Some zero) [N; 3; 3]) (inv3x3_bulk_its N A) res ->
    shape res = [N; 3; 3] /\ forall i r c, i < N -> r < 3 -> c < 3 -> at_ res [i; r; c] = inv3x3 (A i) r c.
Proof.
  unfold inv3x3_bulk_its. split; [apply owned_schedule, bulk3_owned|]. intros res Hrun.
  split; [rewrite (prange_shape _ _ _ Hrun); reflexivity|]. intros i r c Hi Hr Hc.
  rewrite (owned_value _ _ N res i [r; c] (bulk3_owned A) Hrun Hi). rewrite inv3x3_value by assumption. rewrite <- det3_ok.
  rewrite exec_app. rewrite (exec_updates _ [i] (cells [3; 3]) (fun _ v => fdiv v (det3_expr (A i))) [r; c] (NoDup_cells _)) by (apply In_cells, inside2; assumption).
  f_equal. apply exec_stores.
  - apply in_map_iff. exists (r, c). split; [reflexivity|]. idx r; idx c; cbn; auto 20.
  - intros u Hu E. apply in_map_iff in Hu. destruct Hu as (p & <- & _). cbn in E |- *. injection E as -> ->. reflexivity.
Qed.

(** *** Tensor transformations *)
Lemma congruence_rule n (Q T : mat) i j : congruence n Q T i j = rule2 n Q T i j.
Proof.
  unfold congruence, matmul, mtr, rule2.
  rewrite (sum_ext F n _ (fun b => sum n (fun a => mul (mul (Q i a) (Q j b)) (T a b)))).
  - apply sum_swap.
  - intros b Hb. rewrite <- sum_scale_r. apply sum_ext. intros a Ha. ring.
Qed.

Lemma suml_cells_cons n sh (f : cell -> F) :
  suml (map f (cells (n :: sh))) = sum n (fun i => suml (map (fun c => f (i :: c)) (cells sh))).
Proof.
  unfold cell in *. cbn [cells]. unfold range. induction n as [|n IH].
  - reflexivity.
  - rewrite seq_S, flat_map_app, map_app, suml_app. rewrite IH. cbn [sum flat_map Nat.add]. f_equal.
    rewrite app_nil_r, map_map. reflexivity.
Qed.
Lemma suml_cells_4 n (f : cell -> F) :
  suml (map f (cells [n; n; n; n])) = sum n (fun a => sum n (fun b => sum n (fun c => sum n (fun d => f [a; b; c; d])))).
Proof.
  etransitivity; [apply suml_cells_cons|]. apply sum_ext. intros a _.
  etransitivity; [apply (suml_cells_cons n [n; n] (fun c => f (a :: c)))|]. apply sum_ext. intros b _.
  etransitivity; [apply (suml_cells_cons n [n] (fun c => f (a :: b :: c)))|]. apply sum_ext. intros c _.
  etransitivity; [apply (suml_cells_cons n [] (fun e => f (a :: b :: c :: e)))|]. apply sum_ext. intros d _.
  cbn [cells map suml]. ring.
Qed.

Lemma exec_accumulate (m : memory F) pre sh (l : list cell) (g : cell -> cell -> F) d : inside sh d ->
  exec m (flat_map (fun s => map (fun d => Upd (pre ++ d) (fun v => add v (g s d))) (cells sh)) l) (pre ++ d) =
  add (m (pre ++ d)) (suml (map (fun s => g s d) l)).
Proof.
  intros Hd. revert m. induction l as [|s l IH]; intros m; cbn [flat_map map].
  - cbn. ring.
  - rewrite exec_app, IH. rewrite (exec_updates m pre (cells sh) (fun d v => add v (g s d)) d (NoDup_cells sh)) by (apply In_cells; exact Hd).
    change (suml (g s d :: map (fun s => g s d) l)) with (add (g s d) (suml (map (fun s => g s d) l))). ring.
Qed.

Lemma tr_3333_out_value (m : memory F) pre C (Q : mat) i j k l : i < 3 -> j < 3 -> k < 3 -> l < 3 ->
  exec m (tr_3333_out pre C Q) (pre ++ [i; j; k; l]) = add (m (pre ++ [i; j; k; l])) (rule4 3 Q C i j k l).
Proof.
  intros Hi Hj Hk Hl. unfold tr_3333_out. rewrite exec_accumulate by (apply inside4; assumption). f_equal.
  rewrite suml_cells_4. reflexivity.
Qed.
Lemma tr_3333_value C (Q : mat) i j k l : i < 3 -> j < 3 -> k < 3 -> l < 3 ->
  at_ (tr_3333 C Q) [i; j; k; l] = rule4 3 Q C i j k l.
Proof.
  intros Hi Hj Hk Hl. unfold tr_3333. cbn [at_]. pose proof (tr_3333_out_value (fun _ => zero) [] C Q i j k l Hi Hj Hk Hl) as H.
  cbn [app] in H. rewrite H. ring.
Qed.
Lemma In_tr_3333_out pre C (Q : mat) u : In u (tr_3333_out pre C Q) -> exists c, u_cell u = pre ++ c.
Proof.
  unfold tr_3333_out. intros Hu. apply in_flat_map in Hu. destruct Hu as (s & _ & Hu). apply in_map_iff in Hu. destruct Hu as (d & <- & _).
  exists d. reflexivity.
Qed.
Lemma tr4_owned (arr : nat -> nat -> nat -> nat -> nat -> F) (Q : nat -> mat) : owned (fun i => tr_3333_out [i] (arr i) (Q i)).
Proof. intros i u Hu. apply In_tr_3333_out in Hu. exact Hu. Qed.
Lemma tr4_multi_run N sh0 (arr : nat -> nat -> nat -> nat -> nat -> F) (Q : nat -> mat) :
  schedule_independent (zeros zero sh0) (tr4_multi_its N arr Q) /\
  forall res, prange_run (zeros zero sh0) (tr4_multi_its N arr Q) res ->
    shape res = sh0 /\ forall e i j k l, e < N -> i < 3 -> j < 3 -> k < 3 -> l < 3 -> at_ res [e; i; j; k; l] = rule4 3 (Q e) (arr e) i j k l.
Proof.
  unfold tr4_multi_its. split; [apply owned_schedule, tr4_owned|]. intros res Hrun. split; [rewrite (prange_shape _ _ _ Hrun); reflexivity|].
  intros e i j k l He Hi Hj Hk Hl. rewrite (owned_value _ _ N res e [i; j; k; l] (tr4_owned arr Q) Hrun He).
  pose proof (tr_3333_out_value (at_ (zeros zero sh0)) [e] (arr e) (Q e) i j k l Hi Hj Hk Hl) as H. cbn [app] in H. rewrite H. cbn. ring.
Qed.
Lemma tr4_owned2 M (arr : nat -> nat -> nat -> nat -> nat -> nat -> F) (Q : nat -> mat) :
  owned (fun i => concat (map (fun x => tr_3333_out [i; x] (arr i x) (Q i)) (range M))).
Proof.
  intros i u Hu. apply in_concat in Hu. destruct Hu as (l & Hl & Hu). apply in_map_iff in Hl. destruct Hl as (x & <- & _).
  apply In_tr_3333_out in Hu. destruct Hu as [c ->]. exists (x :: c). reflexivity.
Qed.
Lemma tr4_multi2_run N M sh0 (arr : nat -> nat -> nat -> nat -> nat -> nat -> F) (Q : nat -> mat) :
  schedule_independent (zeros zero sh0) (tr4_multi2_its N M arr Q) /\
  forall res, prange_run (zeros zero sh0) (tr4_multi2_its N M arr Q) res ->
    shape res = sh0 /\ forall e x i j k l, e < N -> x < M -> i < 3 -> j < 3 -> k < 3 -> l < 3 ->
      at_ res [e; x; i; j; k; l] = rule4 3 (Q e) (arr e x) i j k l.
Proof.
  unfold tr4_multi2_its. split; [apply owned_schedule, tr4_owned2|]. intros res Hrun. split; [rewrite (prange_shape _ _ _ Hrun); reflexivity|].
  intros e x i j k l He Hx Hi Hj Hk Hl. rewrite (owned_value _ _ N res e [x; i; j; k; l] (tr4_owned2 M arr Q) Hrun He).
  rewrite (exec_inner _ (fun x => tr_3333_out [e; x] (arr e x) (Q e)) e M x [i; j; k; l]).
  - pose proof (tr_3333_out_value (at_ (zeros zero sh0)) [e; x] (arr e x) (Q e) i j k l Hi Hj Hk Hl) as H. cbn [app] in H. rewrite H. cbn. ring.
  - intros y u Hu. apply In_tr_3333_out in Hu. exact Hu.
  - exact Hx.
Qed.

(** *** The other loops *)
Lemma norm2d_owned (norm : nat -> (nat -> F) -> F) n (A : nat -> nat -> F) : owned (fun i => [store [i] (norm n (A i) : F)]).
Proof. intros i u [<-|[]]. exists []. reflexivity. Qed.
Lemma norm2d_run (norm : nat -> (nat -> F) -> F) N n (A : nat -> nat -> F) :
  schedule_independent (zeros zero [N]) (norm2d_its norm N n A) /\
  forall res, prange_run (zeros zero [N]) (norm2d_its norm N n A) res ->
    shape res = [N] /\ forall i, i < N -> at_ res [i] = norm n (A i).
Proof.
  unfold norm2d_its. split; [apply owned_schedule; apply (norm2d_owned norm)|]. intros res Hrun. split; [rewrite (prange_shape _ _ _ Hrun); reflexivity|].
  intros i Hi. rewrite (owned_value _ _ N res i [] (norm2d_owned norm n A) Hrun Hi). apply exec_stores; [left; reflexivity|].
  intros u [<-|[]] _. reflexivity.
Qed.

Lemma vpath_run (norm : nat -> (nat -> F) -> F) D n (p1 p2 : nat -> F) :
  schedule_independent (zeros (Some zero) [n; D]) (vpath_its norm D n p1 p2) /\
  forall res, prange_run (zeros (Some zero) [n; D]) (vpath_its norm D n p1 p2) res ->
    norm D (fun j => sub (p2 j) (p1 j)) <> zero -> 1 < n ->
    shape res = [n; D] /\
    forall i j, i < n -> j < D -> at_ res [i; j] = Some (add (p1 j) (mul (div (of_nat i) (of_nat (n - 1))) (sub (p2 j) (p1 j)))).
Proof.
  set (L := norm D (fun j => sub (p2 j) (p1 j))).
  set (f := fun i => row1 (fun j => match fdiv (Some (sub (p2 j) (p1 j))) L with
     Some d => Some (add (p1 j) (mul (match n with 1 => zero | _ => mul (of_nat i) (div L (of_nat (n - 1))) end) d)) | None => None end)).
  change (vpath_its norm D n p1 p2) with (map (fun i => assign [i] [D] (f i)) (range n)).
  destruct (bulk1 (Some zero) [n; D] [D] n f) as [H1 H2]. split; [exact H1|]. intros res Hrun Hl Hn.
  destruct (H2 res Hrun) as [Hs Hv]. split; [exact Hs|]. intros i j Hi Hj. rewrite (Hv i [j] Hi (inside1 D j Hj)).
  unfold f, row1. cbn [nth]. rewrite fdiv_nz by exact Hl. f_equal.
  assert (Hp : of_nat (n - 1) <> (zero : F)) by (apply pos_neq, of_nat_pos; lia).
  destruct n as [|[|n']]; [lia|lia|]. field. split; assumption.
Qed.
End K.

(** Integer matrices: the quotients are truncated when they are stored. *)
Definition mat22 (a b c d : Z) (i j : nat) : Qc_ofield :=
  of_int (match i, j with 0, 0 => a | 0, _ => b | _, 0 => c | _, _ => d end).
Lemma inv2x2_integer : exists (A : nat -> nat -> Qc_ofield) X,
  (forall i j, exists k : Z, A i j = of_int k) /\ det 2 A <> zero /\
  @inv2x2 Qc_ofield (fun v => of_int (trunc v)) A = Ok X /\ forall i j, i < 2 -> j < 2 -> X i j = zero.
Proof.
  exists (mat22 2 0 0 2). eexists. split; [intros i j; eexists; reflexivity|].
  split; [vm_compute; intros H; discriminate H|]. split.
  - unfold inv2x2. destruct (eqb_spec Qc_ofield (det2_expr (mat22 2 0 0 2)) zero) as [E|E]; [exfalso; vm_compute in E; discriminate E|]. reflexivity.
  - intros [|[|]] [|[|]] Hi Hj; try lia; vm_compute; apply Qc_is_canon; reflexivity.
Qed.

Section K2.
Context {F : ofield}.
Add Field KernF2 : (of_field F).

Lemma adj3x3_identity (A buf : nat -> nat -> F) i j : i < 3 -> j < 3 ->
  sum 3 (fun k => mul (A i k) (adj3x3 A buf k j)) = mul (det 3 A) (delta i j) /\
  sum 3 (fun k => mul (adj3x3 A buf i k) (A k j)) = mul (det 3 A) (delta i j).
Proof.
  intros Hi Hj. destruct (adj_ok A i j Hi Hj) as [H1 H2]. split; [rewrite <- H1|rewrite <- H2];
    apply sum_ext; intros k Hk; rewrite adj3x3_ok by assumption; reflexivity.
Qed.

Lemma inv3x3_bulks N (A : nat -> nat -> nat -> F) its res :
  its = inv3x3_bulk_its N A \/ its = inv3x3_bulk2_its N A ->
  prange_run (zeros (Some zero) [N; 3; 3]) its res ->
  shape res = [N; 3; 3] /\
  forall i, i < N ->
    (forall r c, r < 3 -> c < 3 -> at_ res [i; r; c] = inv3x3 (A i) r c) /\
    (det 3 (A i) <> zero -> finite_inverse 3 (A i) (fun r c => at_ res [i; r; c])).
Proof.
  intros Hits Hrun.
  assert (G : shape res = [N; 3; 3] /\ forall i r c, i < N -> r < 3 -> c < 3 -> at_ res [i; r; c] = inv3x3 (A i) r c).
  { destruct Hits as [-> | ->].
    - exact (proj2 (inv3x3_bulk_run N A) res Hrun).
    - destruct (proj2 (bulk1 (Some zero) [N; 3; 3] [3; 3] N (fun i => row2 (inv3x3 (A i)))) res Hrun) as [Hs Hv].
      split; [exact Hs|]. intros i r c Hi Hr Hc. rewrite (Hv i [r; c] Hi (inside2 3 3 r c Hr Hc)). reflexivity. }
  destruct G as [Hs Hv]. split; [exact Hs|]. intros i Hi. split; [intros r c Hr Hc; apply Hv; assumption|].
  intros Hd. destruct (proj1 (inv3x3_ok (A i)) Hd) as (x & Hx & Hinv). exists x. split; [|exact Hinv].
  intros r c Hr Hc. rewrite Hv by assumption. apply Hx; assumption.
Qed.

Lemma rank2_kernels (N M n : nat) (Q : nat -> nat -> F) (Qs : nat -> nat -> nat -> F)
    (S0 : nat -> nat -> F) (T : nat -> nat -> nat -> F) (TT : nat -> nat -> nat -> nat -> F) :
  (forall i j, congruence n Q S0 i j = rule2 n Q S0 i j) /\
  (forall res, prange_run (zeros zero [N; n; n]) (tr2_single_its N n T Q) res -> shape res = [N; n; n] /\
     forall e i j, e < N -> i < n -> j < n -> at_ res [e; i; j] = rule2 n Q (T e) i j) /\
  (forall res, prange_run (zeros zero [N; n; n]) (tr2_multi_its N n T Qs) res -> shape res = [N; n; n] /\
     forall e i j, e < N -> i < n -> j < n -> at_ res [e; i; j] = rule2 n (Qs e) (T e) i j) /\
  (forall res, prange_run (zeros zero [N; M; n; n]) (tr2_single2_its N M n TT Q) res -> shape res = [N; M; n; n] /\
     forall e x i j, e < N -> x < M -> i < n -> j < n -> at_ res [e; x; i; j] = rule2 n Q (TT e x) i j) /\
  (forall res, prange_run (zeros zero [N; M; n; n]) (tr2_multi2_its N M n TT Qs) res -> shape res = [N; M; n; n] /\
     forall e x i j, e < N -> x < M -> i < n -> j < n -> at_ res [e; x; i; j] = rule2 n (Qs e) (TT e x) i j).
Proof.
  split; [intros; apply congruence_rule|]. split; [|split; [|split]]; intros res Hrun.
  - destruct (proj2 (bulk1 zero [N; n; n] [n; n] N (fun i => row2 (congruence n Q (T i)))) res Hrun) as [Hs Hv].
    split; [exact Hs|]. intros e i j He Hi Hj. rewrite (Hv e [i; j] He (inside2 n n i j Hi Hj)). apply congruence_rule.
  - destruct (proj2 (bulk1 zero [N; n; n] [n; n] N (fun i => row2 (congruence n (Qs i) (T i)))) res Hrun) as [Hs Hv].
    split; [exact Hs|]. intros e i j He Hi Hj. rewrite (Hv e [i; j] He (inside2 n n i j Hi Hj)). apply congruence_rule.
  - destruct (proj2 (bulk2 zero [N; M; n; n] [n; n] N M (fun i x => row2 (congruence n Q (TT i x)))) res Hrun) as [Hs Hv].
    split; [exact Hs|]. intros e x i j He Hx Hi Hj. rewrite (Hv e x [i; j] He Hx (inside2 n n i j Hi Hj)). apply congruence_rule.
  - destruct (proj2 (bulk2 zero [N; M; n; n] [n; n] N M (fun i x => row2 (congruence n (Qs i) (TT i x)))) res Hrun) as [Hs Hv].
    split; [exact Hs|]. intros e x i j He Hx Hi Hj. rewrite (Hv e x [i; j] He Hx (inside2 n n i j Hi Hj)). apply congruence_rule.
Qed.

Lemma rank4_kernels (N M : nat) (Q : nat -> nat -> F) (Qs : nat -> nat -> nat -> F)
    (C0 : nat -> nat -> nat -> nat -> F) (C : nat -> nat -> nat -> nat -> nat -> F) (CC : nat -> nat -> nat -> nat -> nat -> nat -> F) :
  (forall i j k l, i < 3 -> j < 3 -> k < 3 -> l < 3 -> at_ (tr_3333 C0 Q) [i; j; k; l] = rule4 3 Q C0 i j k l) /\
  (forall res, prange_run (zeros zero [N; 3; 3; 3; 3]) (tr4_multi3_its N C Q) res -> shape res = [N; 3; 3; 3; 3] /\
     forall e i j k l, e < N -> i < 3 -> j < 3 -> k < 3 -> l < 3 -> at_ res [e; i; j; k; l] = rule4 3 Q (C e) i j k l) /\
  (forall res, prange_run (zeros zero [N; 3; 3; 3; 3]) (tr4_multi_its N C Qs) res -> shape res = [N; 3; 3; 3; 3] /\
     forall e i j k l, e < N -> i < 3 -> j < 3 -> k < 3 -> l < 3 -> at_ res [e; i; j; k; l] = rule4 3 (Qs e) (C e) i j k l) /\
  (forall res, prange_run (zeros zero [N; M; 3; 3; 3; 3]) (tr4_multi2_its N M CC Qs) res -> shape res = [N; M; 3; 3; 3; 3] /\
     forall e x i j k l, e < N -> x < M -> i < 3 -> j < 3 -> k < 3 -> l < 3 ->
       at_ res [e; x; i; j; k; l] = rule4 3 (Qs e) (CC e x) i j k l).
Proof.
  split; [intros; apply tr_3333_value; assumption|].
  split; [exact (proj2 (tr4_multi_run N _ C (fun _ => Q)))|]. split; [exact (proj2 (tr4_multi_run N _ C Qs))|].
  exact (proj2 (tr4_multi2_run N M _ CC Qs)).
Qed.

Lemma vpath_points (norm : nat -> (nat -> F) -> F) D n (p1 p2 : nat -> F) res :
  prange_run (zeros (Some zero) [n; D]) (vpath_its norm D n p1 p2) res ->
  norm D (fun j => sub (p2 j) (p1 j)) <> zero -> 1 < n ->
  shape res = [n; D] /\
  (forall i j, i < n -> j < D ->
     at_ res [i; j] = Some (add (p1 j) (mul (div (of_nat i) (of_nat (n - 1))) (sub (p2 j) (p1 j))))) /\
  (forall j, j < D -> at_ res [0; j] = Some (p1 j) /\ at_ res [n - 1; j] = Some (p2 j)).
Proof.
  intros Hrun Hl Hn. destruct (proj2 (vpath_run norm D n p1 p2) res Hrun Hl Hn) as [Hs Hv].
  split; [exact Hs|]. split; [exact Hv|]. intros j Hj. assert (Hp : of_nat (n - 1) <> (zero : F)) by (apply pos_neq, of_nat_pos; lia).
  split; rewrite Hv by lia; f_equal.
  - change (of_nat 0 : F) with (zero : F). field. exact Hp.
  - field. exact Hp.
Qed.

Lemma display_kernels (norm : nat -> (nat -> F) -> F) (N n : nat)
    (Q : nat -> nat -> F) (Qs : nat -> nat -> nat -> F) (v : nat -> nat -> F) (T : nat -> nat -> nat -> F) :
  (forall res, prange_run (zeros zero [N; n]) (show_vectors_its N n Q v) res -> shape res = [N; n] /\
     forall i j, i < N -> j < n -> at_ res [i; j] = sum n (fun k => mul (Q j k) (v i k))) /\
  (forall res, prange_run (zeros zero [N; n]) (show_vectors_multi_its N n Qs v) res -> shape res = [N; n] /\
     forall i j, i < N -> j < n -> at_ res [i; j] = sum n (fun k => mul (Qs i j k) (v i k))) /\
  (forall res, prange_run (zeros zero [n; n]) (show_frame_its n Q v) res -> shape res = [n; n] /\
     forall i j, i < n -> j < n -> at_ res [i; j] = sum n (fun k => mul (Q j k) (v i k))) /\
  (forall res, prange_run (zeros zero [N; n; n]) (show_frames_its N n Q T) res -> shape res = [N; n; n] /\
     forall e i j, e < N -> i < n -> j < n -> at_ res [e; i; j] = sum n (fun k => mul (Q j k) (T e i k))) /\
  (forall res, prange_run (zeros zero [N; n; n]) (show_frames_multi_its N n Qs T) res -> shape res = [N; n; n] /\
     forall e i j, e < N -> i < n -> j < n -> at_ res [e; i; j] = sum n (fun k => mul (Qs e j k) (T e i k))) /\
  (forall res, prange_run (zeros zero [N; n; n]) (transpose_multi_its N n T) res -> shape res = [N; n; n] /\
     forall e i j, e < N -> i < n -> j < n -> at_ res [e; i; j] = T e j i) /\
  (forall res, prange_run (zeros (Some zero) [N; n]) (normalize2d_its norm N n v) res -> shape res = [N; n] /\
     forall i j, i < N -> j < n -> norm n (v i) <> zero -> at_ res [i; j] = Some (div (v i j) (norm n (v i)))) /\
  (forall res, prange_run (zeros zero [N]) (norm2d_its norm N n v) res -> shape res = [N] /\
     forall i, i < N -> at_ res [i] = norm n (v i)).
Proof.
  split; [|split; [|split; [|split; [|split; [|split; [|split]]]]]]; intros res Hrun.
  - destruct (proj2 (bulk1 zero [N; n] [n] N (fun i => row1 (matvec n Q (v i)))) res Hrun) as [Hs Hv].
    split; [exact Hs|]. intros i j Hi Hj. exact (Hv i [j] Hi (inside1 n j Hj)).
  - destruct (proj2 (bulk1 zero [N; n] [n] N (fun i => row1 (matvec n (Qs i) (v i)))) res Hrun) as [Hs Hv].
    split; [exact Hs|]. intros i j Hi Hj. exact (Hv i [j] Hi (inside1 n j Hj)).
  - destruct (proj2 (bulk1 zero [n; n] [n] n (fun i => row1 (matvec n Q (v i)))) res Hrun) as [Hs Hv].
    split; [exact Hs|]. intros i j Hi Hj. exact (Hv i [j] Hi (inside1 n j Hj)).
  - destruct (proj2 (bulk2 zero [N; n; n] [n] N n (fun i x => row1 (matvec n Q (T i x)))) res Hrun) as [Hs Hv].
    split; [exact Hs|]. intros e i j He Hi Hj. exact (Hv e i [j] He Hi (inside1 n j Hj)).
  - destruct (proj2 (bulk2 zero [N; n; n] [n] N n (fun i x => row1 (matvec n (Qs i) (T i x)))) res Hrun) as [Hs Hv].
    split; [exact Hs|]. intros e i j He Hi Hj. exact (Hv e i [j] He Hi (inside1 n j Hj)).
  - destruct (proj2 (bulk1 zero [N; n; n] [n; n] N (fun i => row2 (mtr (T i)))) res Hrun) as [Hs Hv].
    split; [exact Hs|]. intros e i j He Hi Hj. exact (Hv e [i; j] He (inside2 n n i j Hi Hj)).
  - destruct (proj2 (bulk1 (Some zero) [N; n] [n] N (fun i => row1 (fun j => fdiv (Some (v i j)) (norm n (v i))))) res Hrun) as [Hs Hv].
    split; [exact Hs|]. intros i j Hi Hj Hne. rewrite (Hv i [j] Hi (inside1 n j Hj)). unfold row1. cbn [nth]. apply fdiv_nz. exact Hne.
  - exact (proj2 (norm2d_run norm N n v) res Hrun).
Qed.
End K2.

Lemma det_outputs_wrong : exists (A : nat -> nat -> Qc_ofield) (buf : Qc_ofield),
  det2x2 A buf <> det 2 A /\ det3x3 A buf <> det 3 A.
Proof. exists (fun i j => if i =? j then one else zero), zero. split; vm_compute; intros H; discriminate H. Qed.
