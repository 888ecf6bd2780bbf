(** Proofs about decoding genotypes. *)
From Coq Require Import Field.
From Verif Require Import Prelude OField GaModel GaSpec.

Section Dec.
Context {F : ofield}.
Add Field GaD : (of_field F).

Lemma of_nat_pow2 n : (of_nat (2 ^ n) : F) = pow (of_nat 2) n.
Proof. induction n as [|n IH]; [cbn; ring|]. cbn [Nat.pow pow]. rewrite of_nat_mul, IH. reflexivity. Qed.

Lemma bits_value_lt bs : bits_value bs < 2 ^ length bs.
Proof. induction bs as [|b bs IH]; [cbn; lia|]. cbn [bits_value length Nat.pow]. destruct b; lia. Qed.

Lemma bits_value_inj a b : length a = length b -> bits_value a = bits_value b -> a = b.
Proof.
  revert b. induction a as [|x a IH]; intros [|y b] Hl H; try discriminate Hl; [reflexivity|].
  cbn [bits_value length] in *. assert (x = y) by (destruct x, y; try reflexivity; lia).
  subst y. f_equal. apply IH; [lia|]. destruct x; lia.
Qed.

Lemma bits_value_all (b : bool) n : bits_value (repeat b n) = if b then 2 ^ n - 1 else 0.
Proof.
  induction n as [|n IH]; [destruct b; reflexivity|]. cbn [repeat bits_value Nat.pow]. rewrite IH.
  pose proof (Nat.pow_nonzero 2 n). destruct b; lia.
Qed.

Lemma code_from (gs : list bool) k :
  suml (map (fun ib : nat * F => mul (snd ib) (pow (of_nat 2) (fst ib)))
            (combine (seq k (length gs)) (map bit gs))) = mul (pow (of_nat 2) k) (of_nat (bits_value gs)) :> F.
Proof.
  revert k. induction gs as [|b gs IH]; intros k; cbn [map length seq combine suml bits_value]; [cbn; ring|].
  rewrite (IH (S k)), of_nat_add, of_nat_mul. cbn [fst snd pow].
  change (bit b) with (of_nat (if b then 1 else 0) : F) || idtac.
  destruct b; cbn [bit]; cbn [of_nat]; ring.
Qed.

Lemma code_of_bits (bs : list bool) : code_of (map bit bs) = (of_nat (bits_value bs) : F).
Proof. unfold code_of. rewrite map_length, code_from. cbn [pow]. ring. Qed.

Lemma block_concat (gs : list (list F)) n d : Forall (fun g => length g = n) gs -> d < length gs ->
  block n d (concat gs) = nth d gs [].
Proof.
  unfold block. intros H. revert d. induction H as [|g gs Hg H IH]; intros d Hd; [cbn in Hd; lia|].
  destruct d as [|d]; cbn [concat nth].
  - cbn [Nat.mul skipn]. rewrite firstn_app, Hg, Nat.sub_diag. cbn [firstn]. rewrite app_nil_r, <- Hg. apply firstn_all.
  - cbn [Nat.mul]. rewrite skipn_app, skipn_all2 by lia. cbn [app].
    replace (n + d * n - length g) with (d * n) by lia. apply IH. cbn in Hd. lia.
Qed.

Lemma span_pos len : 1 <= len -> leb (sub (pow (of_nat 2) len) one) (zero : F) = false.
Proof.
  intros H. rewrite <- of_nat_pow2. assert (H0 : 2 ^ 0 < 2 ^ len) by (apply Nat.pow_lt_mono_r; lia).
  apply (of_nat_lt F) in H0. replace (of_nat (2 ^ 0)) with (one : F) in H0 by (cbn; ring).
  apply (proj1 (sub_pos F one (of_nat (2 ^ len)))). exact H0.
Qed.

Lemma decode_one_bits len (ranges : list (F * F)) (bss : list (list bool)) : 1 <= len ->
  length bss = length ranges -> Forall (fun bs => length bs = len) bss ->
  decode_one len ranges (concat (map (map bit) bss)) =
  map (fun br : list bool * (F * F) => decoded len (fst br) (fst (snd br)) (snd (snd br))) (combine bss ranges).
Proof.
  intros Hlen HL HB. unfold decode_one.
  assert (E : forall d, d < length bss -> block len d (concat (map (map bit) bss)) = map (@bit F) (nth d bss [])).
  { intros d Hd. rewrite block_concat; [|rewrite Forall_map; eapply Forall_impl; [|exact HB]; intros; rewrite map_length; assumption
      |rewrite map_length; exact Hd].
    change [] with (map (@bit F) []) at 1. apply map_nth. }
  assert (HS : sub (pow (of_nat 2) len) one <> (zero : F)) by (apply pos_neq; apply span_pos; exact Hlen).
  assert (G : forall bs0 rs k pre, length bs0 = length rs -> bss = pre ++ bs0 -> length pre = k ->
     map (fun dr : nat * (F * F) => let '(d, (lo, hi)) := dr in
         add (mul (code_of (block len d (concat (map (map bit) bss)))) (div (sub hi lo) (sub (pow (of_nat 2) len) (pow (of_nat 2) 0)))) lo)
       (combine (seq k (length rs)) rs) =
     map (fun br : list bool * (F * F) => decoded len (fst br) (fst (snd br)) (snd (snd br))) (combine bs0 rs)).
  { induction bs0 as [|b bs0 IH]; intros [|[lo hi] rs] k pre Hl He Hk; try discriminate Hl; [reflexivity|].
    cbn [length seq combine map fst snd]. f_equal.
    - rewrite E by (rewrite He, app_length; cbn; lia).
      rewrite He, app_nth2, Hk, Nat.sub_diag by lia. cbn [nth]. rewrite code_of_bits. unfold decoded.
      change (pow (of_nat 2) 0) with (one : F). field. exact HS.
    - apply (IH rs (S k) (pre ++ [b])); [cbn in Hl; lia|rewrite He, <- app_assoc; reflexivity|rewrite app_length; cbn; lia]. }
  apply (G bss ranges 0 []); [exact HL|reflexivity|reflexivity].
Qed.

Section One.
Variables (len : nat) (lo hi : F).
Hypothesis Hlen : 1 <= len.

Lemma decoded_zeros : decoded len (repeat false len) lo hi = lo.
Proof.
  unfold decoded. rewrite bits_value_all. cbn [of_nat]. field. apply pos_neq, span_pos, Hlen.
Qed.
Lemma span_nat : sub (pow (of_nat 2) len) one = (of_nat (2 ^ len - 1) : F).
Proof.
  rewrite <- of_nat_pow2. assert (1 <= 2 ^ len) by (pose proof (Nat.pow_nonzero 2 len); lia).
  replace (2 ^ len) with ((2 ^ len - 1) + 1) at 1 by lia. rewrite of_nat_add. cbn [of_nat]. ring.
Qed.
Lemma decoded_ones : decoded len (repeat true len) lo hi = hi.
Proof.
  unfold decoded. rewrite bits_value_all, span_nat. field. rewrite <- span_nat. apply pos_neq, span_pos, Hlen.
Qed.
Lemma decoded_range bs : length bs = len -> leb lo hi = true ->
  leb lo (decoded len bs lo hi) = true /\ leb (decoded len bs lo hi) hi = true.
Proof.
  intros Hb Hr. pose proof (span_pos len Hlen) as HS. unfold decoded.
  set (S := sub (pow (of_nat 2) len) one) in *.
  apply (proj1 (sub_nonneg F lo hi)) in Hr.
  split; apply (proj2 (sub_nonneg F _ _)).
  - replace (sub (add lo (div (mul (of_nat (bits_value bs)) (sub hi lo)) S)) lo)
      with (div (mul (of_nat (bits_value bs)) (sub hi lo)) S) by (field; apply pos_neq; exact HS).
    apply div_nonneg; [|exact HS]. apply mul_nonneg; [apply of_nat_nonneg|exact Hr].
  - replace (sub hi (add lo (div (mul (of_nat (bits_value bs)) (sub hi lo)) S)))
      with (div (mul (sub S (of_nat (bits_value bs))) (sub hi lo)) S) by (field; apply pos_neq; exact HS).
    apply div_nonneg; [|exact HS]. apply mul_nonneg; [|exact Hr].
    apply (proj1 (sub_nonneg F _ _)). unfold S. rewrite span_nat. apply of_nat_le.
    pose proof (bits_value_lt bs). rewrite Hb in H. lia.
Qed.
Lemma decoded_inj a b : length a = len -> length b = len -> lo <> hi ->
  decoded len a lo hi = decoded len b lo hi -> a = b.
Proof.
  intros Ha Hb Hne H. pose proof (span_pos len Hlen) as HS. apply pos_neq in HS.
  unfold decoded in H. apply (add_cancel_l F) in H. set (S := sub (pow (of_nat 2) len) one) in *.
  assert (H1 : mul (sub hi lo) (of_nat (bits_value a)) = mul (sub hi lo) (of_nat (bits_value b))).
  { transitivity (mul S (div (mul (of_nat (bits_value a)) (sub hi lo)) S)); [field; exact HS|].
    rewrite H. field. exact HS. }
  apply (mul_cancel_l F) in H1.
  - apply of_nat_inj in H1. apply bits_value_inj; [congruence|exact H1].
  - intros E. apply (proj1 (sub_eq_0 F hi lo)) in E. auto.
Qed.
Lemma decoded_step a b : bits_value b = bits_value a + 1 ->
  decoded len b lo hi = add (decoded len a lo hi) (div (sub hi lo) (sub (pow (of_nat 2) len) one)).
Proof.
  intros E. unfold decoded. rewrite E, of_nat_add. cbn [of_nat]. field. apply pos_neq, span_pos, Hlen.
Qed.
End One.

(** Every 0/1 vector of [d * len] genes is a sequence of [d] blocks of bits. *)
Lemma binary_bits L (g : list F) : binary L g -> exists bs, length bs = L /\ g = map bit bs.
Proof.
  intros [<- H]. induction H as [|x g Hx H IH]; [exists []; auto|]. destruct IH as (bs & E1 & E2).
  destruct Hx as [->| ->]; [exists (false :: bs)|exists (true :: bs)]; cbn; rewrite E1; split; try reflexivity; f_equal; exact E2.
Qed.
Lemma bits_blocks d len (bs : list bool) : length bs = d * len ->
  exists bss, length bss = d /\ Forall (fun b => length b = len) bss /\ bs = concat bss.
Proof.
  revert bs. induction d as [|d IH]; intros bs H.
  - exists []. destruct bs; [auto|discriminate H].
  - destruct (IH (skipn len bs)) as (bss & E1 & E2 & E3); [rewrite skipn_length; lia|].
    exists (firstn len bs :: bss). cbn. split; [lia|]. split; [constructor; [rewrite firstn_length; lia|exact E2]|].
    rewrite <- E3. symmetry. apply firstn_skipn.
Qed.
Lemma binary_blocks d len (g : list F) : binary (d * len) g ->
  exists bss, length bss = d /\ Forall (fun b => length b = len) bss /\ g = concat (map (map bit) bss).
Proof.
  intros H. destruct (binary_bits _ _ H) as (bs & E1 & E2). destruct (bits_blocks d len bs E1) as (bss & A & B & C).
  exists bss. split; [exact A|]. split; [exact B|]. rewrite E2, C. apply concat_map.
Qed.

Lemma concat_const_length {A} (gs : list (list A)) n : Forall (fun g => length g = n) gs -> length (concat gs) = length gs * n.
Proof. intros H. induction H as [|g gs Hg H IH]; cbn; [reflexivity|]. rewrite app_length, IH, Hg. reflexivity. Qed.

Lemma decode_bits nPop len (ranges : list (F * F)) (pop : list (list (list bool))) : 1 <= len ->
  length pop = nPop -> Forall (fun bss => length bss = length ranges /\ Forall (fun bs => length bs = len) bss) pop ->
  decode nPop len ranges (map (fun bss => concat (map (map bit) bss)) pop) =
  Ok (map (fun bss => map (fun br : list bool * (F * F) => decoded len (fst br) (fst (snd br)) (snd (snd br)))
                          (combine bss ranges)) pop).
Proof.
  intros Hlen Hn HF. unfold decode. rewrite map_length, Hn, Nat.eqb_refl. cbn [andb].
  assert (E : forallb (fun g : list F => length g =? length ranges * len) (map (fun bss => concat (map (map bit) bss)) pop) = true).
  { apply forallb_forall. intros g Hg. apply in_map_iff in Hg. destruct Hg as (bss & <- & Hin).
    rewrite Forall_forall in HF. destruct (HF bss Hin) as [H1 H2]. apply Nat.eqb_eq.
    rewrite (concat_const_length _ len); [rewrite map_length, H1; reflexivity|].
    rewrite Forall_map. eapply Forall_impl; [|exact H2]. intros b Hb. rewrite map_length. exact Hb. }
  rewrite E, map_map. f_equal. apply map_ext_in. intros bss Hin. rewrite Forall_forall in HF.
  destruct (HF bss Hin) as [H1 H2]. apply decode_one_bits; assumption.
Qed.
End Dec.
