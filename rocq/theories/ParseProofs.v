(** Reading "lhs - (rhs)" gives the difference of the two sides (C51). *)
From Coq Require Import Ascii String Field.
From Verif Require Import Prelude OField FuncModel RelModel LpModel FuncSpec FuncProofs RelProofs.

Section Parse.
Context {F : ofield}.
Implicit Types (ts : list (token F)) (e : expr F).

(** ** Tokens *)
Definition separator (c : ascii) : Prop :=
  is_digit c = false /\ is_letter c = false /\ Ascii.eqb c "." = false /\ Ascii.eqb c "*" = false.

Lemma span_app p s c t : p c = false -> forall a b, span p s = (a, b) -> span p (s ++ c :: t) = (a, b ++ c :: t).
Proof.
  intros P. induction s as [|d s IH]; cbn; intros a b E.
  - injection E as <- <-. rewrite P. reflexivity.
  - destruct (p d); [|injection E as <- <-; reflexivity].
    destruct (span p s) as [x y]. injection E as <- <-. rewrite (IH x y eq_refl). reflexivity.
Qed.

Lemma next_token_app x s c t (k : token F) r : separator c -> next_token x s = Some (k, r) ->
  next_token x (s ++ c :: t) = Some (k, r ++ c :: t).
Proof.
  intros (D & L & P & A) H. unfold next_token in *. destruct (is_digit x) eqn:Dx.
  - destruct (span is_digit (x :: s)) as [ds q] eqn:E.
    change (x :: s ++ c :: t) with ((x :: s) ++ c :: t). rewrite (span_app is_digit _ c t D ds q E).
    destruct q as [|d q]; cbn -[Ascii.eqb].
    + injection H as <- <-. rewrite P. reflexivity.
    + destruct (Ascii.eqb d "."); [|injection H as <- <-; reflexivity].
      destruct (span is_digit q) as [fs q'] eqn:E'. rewrite (span_app is_digit _ c t D fs q' E'). injection H as <- <-. reflexivity.
  - destruct (is_letter x) eqn:Lx.
    + destruct (span (fun c => is_letter c || is_digit c) (x :: s)) as [n q] eqn:E.
      change (x :: s ++ c :: t) with ((x :: s) ++ c :: t). rewrite (span_app _ _ c t) with (a := n) (b := q); [|rewrite L, D; reflexivity|exact E].
      injection H as <- <-. reflexivity.
    + destruct (@single F x) as [k'|]; [|discriminate].
      destruct k'; destruct s as [|d s]; cbn -[Ascii.eqb] in *; try (injection H as <- <-; reflexivity).
      * rewrite A. injection H as <- <-. reflexivity.
      * destruct (Ascii.eqb d "*"); injection H as <- <-; reflexivity.
Qed.

Lemma span_length p s a b : span p s = (a, b) -> length s = length a + length b.
Proof.
  revert a b. induction s as [|c s IH]; cbn; intros a b E; [injection E as <- <-; reflexivity|].
  destruct (p c); [|injection E as <- <-; reflexivity]. destruct (span p s) as [x y]. injection E as <- <-.
  cbn. rewrite (IH x y eq_refl). reflexivity.
Qed.
Lemma span_cons_length p c s a b : p c = true -> span p (c :: s) = (a, b) -> length b <= length s.
Proof.
  cbn. intros -> E. destruct (span p s) as [x y] eqn:E'. injection E as <- <-. apply span_length in E'. lia.
Qed.
Lemma next_token_length x s (k : token F) r : next_token x s = Some (k, r) -> length r <= length s.
Proof.
  unfold next_token. destruct (is_digit x) eqn:Dx.
  - destruct (span is_digit (x :: s)) as [ds q] eqn:E. apply span_cons_length in E; [|exact Dx].
    destruct q as [|d q]; [intros H; injection H as <- <-; exact E|].
    destruct (Ascii.eqb d "."); [|intros H; injection H as <- <-; exact E].
    destruct (span is_digit q) as [fs q'] eqn:E'. apply span_length in E'. intros H. injection H as <- <-. cbn in E. lia.
  - destruct (is_letter x) eqn:Lx.
    + destruct (span (fun c => is_letter c || is_digit c) (x :: s)) as [n q] eqn:E.
      apply span_cons_length in E; [|rewrite Lx; reflexivity]. intros H; injection H as <- <-; exact E.
    + destruct (@single F x) as [k'|]; [|discriminate].
      destruct k'; destruct s as [|d s]; cbn -[Ascii.eqb]; try (intros H; injection H as <- <-; cbn; lia).
      destruct (Ascii.eqb d "*"); intros H; injection H as <- <-; cbn; lia.
Qed.

Lemma tokens_more n m s ks : tokens (F := F) n s = Some ks -> length s <= m -> tokens m s = Some ks.
Proof.
  revert m s ks. induction n as [|n IH]; intros m s ks H L.
  - destruct s; [|discriminate]. destruct m; exact H.
  - destruct s as [|c t]; [destruct m; exact H|]. destruct m as [|m]; [cbn in L; lia|]. cbn in *.
    destruct (is_space c); [apply IH; [exact H|lia]|].
    destruct (next_token c t) as [[k r]|] eqn:E; [|discriminate].
    apply next_token_length in E. destruct (tokens n r) as [ks'|] eqn:E'; [|discriminate].
    rewrite (IH m r ks' E') by lia. exact H.
Qed.

Lemma tokens_app n a ks c t ks' : separator c ->
  tokens n a = Some ks -> tokens (length (c :: t)) (c :: t) = Some ks' ->
  tokens (F := F) (length (a ++ c :: t)) (a ++ c :: t) = Some (ks ++ ks').
Proof.
  intros Sep. revert a ks. induction n as [|n IH]; intros a ks H H'.
  - destruct a; [|discriminate]. injection H as <-. exact H'.
  - destruct a as [|x a]; [injection H as <-; exact H'|]. cbn in H.
    change (length ((x :: a) ++ c :: t)) with (S (length (a ++ c :: t))). cbn [app tokens].
    destruct (is_space x); [apply IH; assumption|].
    destruct (next_token x a) as [[k r]|] eqn:E; [|discriminate].
    rewrite (next_token_app x a c t k r Sep E). destruct (tokens n r) as [ks1|] eqn:E'; [|discriminate]. injection H as <-.
    specialize (IH r ks1 E' H'). rewrite (tokens_more _ (length (a ++ c :: t)) _ _ IH); [reflexivity|].
    apply next_token_length in E. rewrite !app_length. lia.
Qed.

Lemma tokens_difference a b ka kb : tokens (length a) a = Some ka -> tokens (length b) b = Some kb ->
  let s := a ++ tx " - " ++ tx "(" ++ b ++ tx ")" in
  tokens (F := F) (length s) s = Some (ka ++ TMinus :: TLeft :: kb ++ [TRight]).
Proof.
  intros Ha Hb s. unfold s. cbn [tx list_ascii_of_string app].
  apply (tokens_app (length a)); [repeat split|exact Ha|].
  cbn -[is_space next_token app].
  change (is_space " ") with true. cbn iota.
  change (is_space "-") with false. cbn iota.
  assert (Hc : tokens (F := F) (length (b ++ [")"%char])) (b ++ [")"%char]) = Some (kb ++ [TRight])).
  { apply (tokens_app (length b)); [repeat split|exact Hb|reflexivity]. }
  change (next_token "-" (" "%char :: "("%char :: b ++ [")"%char])) with (Some (@TMinus F, " "%char :: "("%char :: b ++ [")"%char])).
  cbn -[is_space next_token app]. change (is_space " ") with true. cbn iota.
  change (is_space "(") with false. cbn iota.
  change (next_token "(" (b ++ [")"%char])) with (Some (@TLeft F, b ++ [")"%char])).
  cbn iota beta. rewrite Hc. reflexivity.
Qed.

(** ** The parser *)
Lemma p_sum_S n ts : p_sum (S n) ts = match p_term n ts with Some (e, r) => p_sum_rest n e r | None => None end.
Proof. reflexivity. Qed.
Lemma p_sum_rest_S n a ts : p_sum_rest (S n) a ts =
  match ts with
  | TPlus :: r => match p_term n r with Some (e, r') => p_sum_rest n (EAdd a e) r' | None => None end
  | TMinus :: r => match p_term n r with Some (e, r') => p_sum_rest n (e_sub a e) r' | None => None end
  | _ => Some (a, ts)
  end.
Proof. reflexivity. Qed.
Lemma p_term_S n ts : p_term (S n) ts = match p_factor n ts with Some (e, r) => p_term_rest n e r | None => None end.
Proof. reflexivity. Qed.
Lemma p_term_rest_S n a ts : p_term_rest (S n) a ts =
  match ts with
  | TStar :: r => match p_factor n r with Some (e, r') => p_term_rest n (EMul a e) r' | None => None end
  | TSlash :: r => match p_factor n r with Some (e, r') => p_term_rest n (e_div a e) r' | None => None end
  | _ => Some (a, ts)
  end.
Proof. reflexivity. Qed.
Lemma p_factor_S n ts : p_factor (S n) ts =
  match ts with
  | TPlus :: r => p_factor n r
  | TMinus :: r => match p_factor n r with Some (e, r') => Some (e_neg e, r') | None => None end
  | _ => match p_atom n ts with
         | Some (e, TPow :: r) => match p_factor n r with Some (x, r') => Some (EPow e x, r') | None => None end
         | x => x
         end
  end.
Proof. reflexivity. Qed.
Lemma p_atom_S n ts : p_atom (S n) ts =
  match ts with
  | TNum c :: r => Some (ENum c, r)
  | TName m :: TLeft :: r => match p_sum n r with Some (e, TRight :: r') => Some (EApp m e, r') | _ => None end
  | TName m :: r => Some (name_expr m, r)
  | TLeft :: r => match p_sum n r with Some (e, TRight :: r') => Some (e, r') | _ => None end
  | _ => None
  end.
Proof. reflexivity. Qed.

Lemma parser_mono n :
  (forall ts x, p_sum n ts = Some x -> p_sum (F := F) (S n) ts = Some x) /\
  (forall a ts x, p_sum_rest n a ts = Some x -> p_sum_rest (F := F) (S n) a ts = Some x) /\
  (forall ts x, p_term n ts = Some x -> p_term (F := F) (S n) ts = Some x) /\
  (forall a ts x, p_term_rest n a ts = Some x -> p_term_rest (F := F) (S n) a ts = Some x) /\
  (forall ts x, p_factor n ts = Some x -> p_factor (F := F) (S n) ts = Some x) /\
  (forall ts x, p_atom n ts = Some x -> p_atom (F := F) (S n) ts = Some x).
Proof.
  induction n as [|n (I1 & I2 & I3 & I4 & I5 & I6)]; [repeat apply conj; intros; cbn in *; congruence|].
  repeat apply conj.
  - intros ts x H. rewrite p_sum_S in H. change (match p_term (S n) ts with Some (e, r) => p_sum_rest (S n) e r | None => None end = Some x).
    destruct (p_term n ts) as [[e r]|] eqn:E; [|discriminate]. rewrite (I3 _ _ E). apply I2. exact H.
  - intros a ts x H. 
    change (match ts with
      | TPlus :: r => match p_term (S n) r with Some (e, r') => p_sum_rest (S n) (EAdd a e) r' | None => None end
      | TMinus :: r => match p_term (S n) r with Some (e, r') => p_sum_rest (S n) (e_sub a e) r' | None => None end
      | _ => Some (a, ts) end = Some x).
    rewrite p_sum_rest_S in H. destruct ts as [|[] r]; try exact H;
      (destruct (p_term n r) as [[e r']|] eqn:E; [|discriminate]; rewrite (I3 _ _ E); apply I2; exact H).
  - intros ts x H. rewrite p_term_S in H. change (match p_factor (S n) ts with Some (e, r) => p_term_rest (S n) e r | None => None end = Some x).
    destruct (p_factor n ts) as [[e r]|] eqn:E; [|discriminate]. rewrite (I5 _ _ E). apply I4. exact H.
  - intros a ts x H. 
    change (match ts with
      | TStar :: r => match p_factor (S n) r with Some (e, r') => p_term_rest (S n) (EMul a e) r' | None => None end
      | TSlash :: r => match p_factor (S n) r with Some (e, r') => p_term_rest (S n) (e_div a e) r' | None => None end
      | _ => Some (a, ts) end = Some x).
    rewrite p_term_rest_S in H. destruct ts as [|[] r]; try exact H;
      (destruct (p_factor n r) as [[e r']|] eqn:E; [|discriminate]; rewrite (I5 _ _ E); apply I4; exact H).
  - intros ts x H.
    change (match ts with
      | TPlus :: r => p_factor (S n) r
      | TMinus :: r => match p_factor (S n) r with Some (e, r') => Some (e_neg e, r') | None => None end
      | _ => match p_atom (S n) ts with
             | Some (e, TPow :: r) => match p_factor (S n) r with Some (x, r') => Some (EPow e x, r') | None => None end
             | x => x
             end
      end = Some x).
    assert (G : match p_atom n ts with
             | Some (e, TPow :: r) => match p_factor n r with Some (x, r') => Some (EPow e x, r') | None => None end
             | x => x
             end = Some x ->
            match p_atom (S n) ts with
             | Some (e, TPow :: r) => match p_factor (S n) r with Some (x, r') => Some (EPow e x, r') | None => None end
             | x => x
             end = Some x).
    { destruct (p_atom n ts) as [[e r]|] eqn:E; [|discriminate]. rewrite (I6 _ _ E).
      destruct r as [|[] r]; auto. destruct (p_factor n r) as [[y r']|] eqn:E'; [|discriminate]. rewrite (I5 _ _ E'). auto. }
    rewrite p_factor_S in H. destruct ts as [|[] r]; try exact (G H).
    + apply I5. exact H.
    + destruct (p_factor n r) as [[y r']|] eqn:E'; [|discriminate]. rewrite (I5 _ _ E'). exact H.
  - intros ts x H. 
    change (match ts with
      | TNum c :: r => Some (ENum c, r)
      | TName m :: TLeft :: r =>
          match p_sum (S n) r with Some (e, TRight :: r') => Some (EApp m e, r') | _ => None end
      | TName m :: r => Some (name_expr m, r)
      | TLeft :: r => match p_sum (S n) r with Some (e, TRight :: r') => Some (e, r') | _ => None end
      | _ => None
      end = Some x).
    rewrite p_atom_S in H. destruct ts as [|[] r]; try exact H.
    + destruct r as [|[] r]; try exact H.
      destruct (p_sum n r) as [[y r']|] eqn:E'; [|discriminate]. rewrite (I1 _ _ E'). exact H.
    + destruct (p_sum n r) as [[y r']|] eqn:E'; [|discriminate]. rewrite (I1 _ _ E'). exact H.
Qed.

Lemma p_sum_mono n m ts x : p_sum n ts = Some x -> n <= m -> p_sum (F := F) m ts = Some x.
Proof. intros H L. induction L as [|m L IH]; [exact H|]. apply parser_mono. exact IH. Qed.
Lemma p_sum_rest_mono n m a ts x : p_sum_rest n a ts = Some x -> n <= m -> p_sum_rest (F := F) m a ts = Some x.
Proof. intros H L. induction L as [|m L IH]; [exact H|]. apply parser_mono. exact IH. Qed.
Lemma p_term_mono n m ts x : p_term n ts = Some x -> n <= m -> p_term (F := F) m ts = Some x.
Proof. intros H L. induction L as [|m L IH]; [exact H|]. apply parser_mono. exact IH. Qed.
Lemma p_term_rest_mono n m a ts x : p_term_rest n a ts = Some x -> n <= m -> p_term_rest (F := F) m a ts = Some x.
Proof. intros H L. induction L as [|m L IH]; [exact H|]. apply parser_mono. exact IH. Qed.
Lemma p_factor_mono n m ts x : p_factor n ts = Some x -> n <= m -> p_factor (F := F) m ts = Some x.
Proof. intros H L. induction L as [|m L IH]; [exact H|]. apply parser_mono. exact IH. Qed.
Lemma p_atom_mono n m ts x : p_atom n ts = Some x -> n <= m -> p_atom (F := F) m ts = Some x.
Proof. intros H L. induction L as [|m L IH]; [exact H|]. apply parser_mono. exact IH. Qed.

(** Fuel: a parse that succeeds at all succeeds with fuel linear in the number of tokens. *)
Lemma parser_fuel n :
  (forall ts e r, p_sum n ts = Some (e, r) -> length r < length ts /\ p_sum (F := F) (5 * length ts + 4) ts = Some (e, r)) /\
  (forall a ts e r, p_sum_rest n a ts = Some (e, r) -> length r <= length ts /\ p_sum_rest (F := F) (5 * length ts + 1) a ts = Some (e, r)) /\
  (forall ts e r, p_term n ts = Some (e, r) -> length r < length ts /\ p_term (F := F) (5 * length ts + 3) ts = Some (e, r)) /\
  (forall a ts e r, p_term_rest n a ts = Some (e, r) -> length r <= length ts /\ p_term_rest (F := F) (5 * length ts + 1) a ts = Some (e, r)) /\
  (forall ts e r, p_factor n ts = Some (e, r) -> length r < length ts /\ p_factor (F := F) (5 * length ts + 2) ts = Some (e, r)) /\
  (forall ts e r, p_atom n ts = Some (e, r) -> length r < length ts /\ p_atom (F := F) (5 * length ts + 1) ts = Some (e, r)).
Proof.
  induction n as [|n (I1 & I2 & I3 & I4 & I5 & I6)]; [repeat apply conj; intros; cbn in *; congruence|].
  repeat apply conj.
  - intros ts e r H. rewrite p_sum_S in H. destruct (p_term n ts) as [[e1 r1]|] eqn:E; [|discriminate].
    apply I3 in E. destruct E as [L1 E]. apply I2 in H. destruct H as [L2 H]. split; [lia|].
    replace (5 * length ts + 4) with (S (5 * length ts + 3)) by lia. rewrite p_sum_S. rewrite E.
    apply (p_sum_rest_mono _ _ _ _ _ H). lia.
  - intros a ts e r H. replace (5 * length ts + 1) with (S (5 * length ts)) by lia. rewrite p_sum_rest_S in H |- *.
    destruct ts as [|[] t]; try (injection H as <- <-; split; [reflexivity|reflexivity]);
      (destruct (p_term n t) as [[e1 r1]|] eqn:E; [|discriminate]; apply I3 in E; destruct E as [L1 E];
       apply I2 in H; destruct H as [L2 H]; split; [cbn; lia|];
       match goal with |- context [p_term ?k t] => rewrite (p_term_mono _ k _ _ E) by (cbn; lia) end;
       apply (p_sum_rest_mono _ _ _ _ _ H); cbn; lia).
  - intros ts e r H. rewrite p_term_S in H. destruct (p_factor n ts) as [[e1 r1]|] eqn:E; [|discriminate].
    apply I5 in E. destruct E as [L1 E]. apply I4 in H. destruct H as [L2 H]. split; [lia|].
    replace (5 * length ts + 3) with (S (5 * length ts + 2)) by lia. rewrite p_term_S. rewrite E.
    apply (p_term_rest_mono _ _ _ _ _ H). lia.
  - intros a ts e r H. replace (5 * length ts + 1) with (S (5 * length ts)) by lia. rewrite p_term_rest_S in H |- *.
    destruct ts as [|[] t]; try (injection H as <- <-; split; [reflexivity|reflexivity]);
      (destruct (p_factor n t) as [[e1 r1]|] eqn:E; [|discriminate]; apply I5 in E; destruct E as [L1 E];
       apply I4 in H; destruct H as [L2 H]; split; [cbn; lia|];
       match goal with |- context [p_factor ?k t] => rewrite (p_factor_mono _ k _ _ E) by (cbn; lia) end;
       apply (p_term_rest_mono _ _ _ _ _ H); cbn; lia).
  - intros ts e r H. replace (5 * length ts + 2) with (S (5 * length ts + 1)) by lia.
    assert (G : match p_atom n ts with
             | Some (e, TPow :: r) => match p_factor n r with Some (x, r') => Some (EPow e x, r') | None => None end
             | x => x
             end = Some (e, r) -> length r < length ts /\
            match p_atom (5 * length ts + 1) ts with
             | Some (e, TPow :: r) => match p_factor (5 * length ts + 1) r with Some (x, r') => Some (EPow e x, r') | None => None end
             | x => x
             end = Some (e, r)).
    { destruct (p_atom n ts) as [[e1 r1]|] eqn:E; [|discriminate]. apply I6 in E. destruct E as [L1 E]. rewrite E.
      destruct r1 as [|[] r1]; try (intros X; injection X as <- <-; split; [exact L1|reflexivity]).
      destruct (p_factor n r1) as [[y r']|] eqn:E'; [|discriminate]. apply I5 in E'. destruct E' as [L2 E'].
      intros X. injection X as <- <-. cbn in L1. split; [lia|].
      rewrite (p_factor_mono _ (5 * length ts + 1) _ _ E') by lia. reflexivity. }
    rewrite p_factor_S in H |- *. destruct ts as [|[] t]; try exact (G H).
    + apply I5 in H. destruct H as [L1 H]. split; [cbn; lia|]. apply (p_factor_mono _ _ _ _ H). cbn. lia.
    + destruct (p_factor n t) as [[y r']|] eqn:E'; [|discriminate]. apply I5 in E'. destruct E' as [L1 E'].
      injection H as <- <-. split; [cbn; lia|]. rewrite (p_factor_mono _ (5 * length (TMinus :: t) + 1) _ _ E') by (cbn; lia). reflexivity.
  - intros ts e r H. replace (5 * length ts + 1) with (S (5 * length ts)) by lia. rewrite p_atom_S in H |- *.
    destruct ts as [|[] t]; try discriminate.
    + injection H as <- <-. split; [cbn; lia|reflexivity].
    + destruct t as [|[] t]; try (injection H as <- <-; split; [cbn; lia|reflexivity]).
      destruct (p_sum n t) as [[y r']|] eqn:E'; [|discriminate]. apply I1 in E'. destruct E' as [L1 E'].
      destruct r' as [|[] r']; try discriminate. injection H as <- <-. cbn in L1. split; [cbn; lia|].
      rewrite (p_sum_mono _ (5 * length (TName n0 :: TLeft :: t)) _ _ E') by (cbn; lia). reflexivity.
    + destruct (p_sum n t) as [[y r']|] eqn:E'; [|discriminate]. apply I1 in E'. destruct E' as [L1 E'].
      destruct r' as [|[] r']; try discriminate. injection H as <- <-. cbn in L1. split; [cbn; lia|].
      rewrite (p_sum_mono _ (5 * length (TLeft :: t)) _ _ E') by (cbn; lia). reflexivity.
Qed.

Lemma parse_tokens_fuel n ts e : p_sum n ts = Some (e, []) -> parse_tokens (F := F) ts = Some e.
Proof.
  intros H. apply parser_fuel in H. destruct H as [_ H]. unfold parse_tokens.
  rewrite (p_sum_mono _ (7 * length ts + 7) _ _ H) by lia. reflexivity.
Qed.

(** Tokens after which a term ends. *)
Definition stop (c : token F) : Prop := c = TMinus \/ c = TRight.

Lemma parser_suffix c u n : stop c ->
  (forall ts e r, p_sum n ts = Some (e, r) -> (r <> [] \/ c = TRight) -> p_sum (F := F) n (ts ++ c :: u) = Some (e, r ++ c :: u)) /\
  (forall a ts e r, p_sum_rest n a ts = Some (e, r) -> (r <> [] \/ c = TRight) -> p_sum_rest (F := F) n a (ts ++ c :: u) = Some (e, r ++ c :: u)) /\
  (forall ts e r, p_term n ts = Some (e, r) -> p_term (F := F) n (ts ++ c :: u) = Some (e, r ++ c :: u)) /\
  (forall a ts e r, p_term_rest n a ts = Some (e, r) -> p_term_rest (F := F) n a (ts ++ c :: u) = Some (e, r ++ c :: u)) /\
  (forall ts e r, p_factor n ts = Some (e, r) -> p_factor (F := F) n (ts ++ c :: u) = Some (e, r ++ c :: u)) /\
  (forall ts e r, p_atom n ts = Some (e, r) -> p_atom (F := F) n (ts ++ c :: u) = Some (e, r ++ c :: u)).
Proof.
  intros Hc. induction n as [|n (I1 & I2 & I3 & I4 & I5 & I6)]; [repeat apply conj; intros; cbn in *; congruence|].
  repeat apply conj.
  - intros ts e r H R. rewrite p_sum_S in H |- *. destruct (p_term n ts) as [[e1 r1]|] eqn:E; [|discriminate].
    rewrite (I3 _ _ _ E). apply I2; assumption.
  - intros a ts e r H R. rewrite p_sum_rest_S in H.
    destruct ts as [|t0 t].
    + injection H as <- <-. destruct R as [R| ->]; [congruence|]. reflexivity.
    + destruct t0; cbn [app]; rewrite p_sum_rest_S; try (injection H as <- <-; reflexivity);
      (destruct (p_term n t) as [[e1 r1]|] eqn:E; [|discriminate]; rewrite (I3 _ _ _ E); apply I2; assumption).
  - intros ts e r H. rewrite p_term_S in H |- *. destruct (p_factor n ts) as [[e1 r1]|] eqn:E; [|discriminate].
    rewrite (I5 _ _ _ E). apply I4; assumption.
  - intros a ts e r H. rewrite p_term_rest_S in H.
    destruct ts as [|t0 t].
    + injection H as <- <-. destruct Hc as [->| ->]; reflexivity.
    + destruct t0; cbn [app]; rewrite p_term_rest_S; try (injection H as <- <-; reflexivity);
      (destruct (p_factor n t) as [[e1 r1]|] eqn:E; [|discriminate]; rewrite (I5 _ _ _ E); apply I4; assumption).
  - intros ts e r H. 
    assert (G : match p_atom n ts with
             | Some (e, TPow :: r) => match p_factor n r with Some (x, r') => Some (EPow e x, r') | None => None end
             | x => x
             end = Some (e, r) -> 
            match p_atom n (ts ++ c :: u) with
             | Some (e, TPow :: r) => match p_factor n r with Some (x, r') => Some (EPow e x, r') | None => None end
             | x => x
             end = Some (e, r ++ c :: u)).
    { destruct (p_atom n ts) as [[e1 r1]|] eqn:E; [|discriminate]. rewrite (I6 _ _ _ E).
      destruct r1 as [|t1 r1].
      - intros X. injection X as <- <-. destruct Hc as [->| ->]; reflexivity.
      - destruct t1; cbn [app]; try (intros X; injection X as <- <-; reflexivity).
        destruct (p_factor n r1) as [[y r']|] eqn:E'; [|discriminate]. rewrite (I5 _ _ _ E').
        intros X. injection X as <- <-. reflexivity. }
    rewrite p_factor_S in H. destruct ts as [|t0 t].
    + destruct n; cbn in H; discriminate.
    + destruct t0; cbn [app]; rewrite p_factor_S; try exact (G H).
      * apply I5. exact H.
      * destruct (p_factor n t) as [[y r']|] eqn:E'; [|discriminate]. rewrite (I5 _ _ _ E'). injection H as <- <-. reflexivity.
  - intros ts e r H. rewrite p_atom_S in H. destruct ts as [|t0 t]; [discriminate|].
    destruct t0; try discriminate; cbn [app]; rewrite p_atom_S.
    + injection H as <- <-. reflexivity.
    + destruct t as [|t1 t].
      * injection H as <- <-. destruct Hc as [->| ->]; reflexivity.
      * destruct t1; cbn [app]; try (injection H as <- <-; reflexivity).
        destruct (p_sum n t) as [[y r']|] eqn:E'; [|discriminate].
        destruct r' as [|[] r']; try discriminate. rewrite (I1 _ _ _ E') by (left; discriminate). cbn. injection H as <- <-. reflexivity.
    + destruct (p_sum n t) as [[y r']|] eqn:E'; [|discriminate].
      destruct r' as [|[] r']; try discriminate. rewrite (I1 _ _ _ E') by (left; discriminate). cbn. injection H as <- <-. reflexivity.
Qed.

Lemma sum_rest_continue n m a ts e u x : p_sum_rest n a ts = Some (e, []) -> p_sum_rest m e (TMinus :: u) = Some x ->
  p_sum_rest (F := F) (n + m) a (ts ++ TMinus :: u) = Some x.
Proof.
  revert a ts. induction n as [|n IH]; intros a ts H H'; [discriminate|].
  assert (St : stop (@TMinus F)) by (left; reflexivity).
  rewrite p_sum_rest_S in H. destruct ts as [|t0 t].
  - injection H as <-. apply (p_sum_rest_mono m); [exact H'|lia].
  - destruct t0; try discriminate; cbn [app plus]; rewrite p_sum_rest_S;
    (destruct (p_term n t) as [[e1 r1]|] eqn:E; [|discriminate];
     apply (proj1 (proj2 (proj2 (parser_suffix TMinus u n St)))) in E;
     rewrite (p_term_mono _ (n + m) _ _ E) by lia; apply IH; assumption).
Qed.

Lemma parse_difference n m ts e us e' : p_sum n ts = Some (e, []) -> p_sum m us = Some (e', []) ->
  exists k, p_sum (F := F) k (ts ++ TMinus :: TLeft :: us ++ [TRight]) = Some (e_sub e e', []).
Proof.
  intros H H'. destruct n as [|n]; [discriminate|]. rewrite p_sum_S in H.
  destruct (p_term n ts) as [[e1 r1]|] eqn:E; [|discriminate].
  assert (St : stop (@TMinus F)) by (left; reflexivity). assert (Sr : stop (@TRight F)) by (right; reflexivity).
  apply (proj1 (parser_suffix TRight [] m Sr)) in H'; [|right; reflexivity]. cbn [app] in H'.
  assert (A : p_sum_rest (F := F) (6 + m) e (TMinus :: TLeft :: us ++ [TRight]) = Some (e_sub e e', [])).
  { cbn [plus]. rewrite p_sum_rest_S, p_term_S, p_factor_S, p_atom_S.
    rewrite (p_sum_mono m (S m) _ _ H') || idtac. 
    assert (X : p_sum (S (S m)) (us ++ [TRight]) = Some (e', [TRight])) by (apply (p_sum_mono m); [exact H'|lia]).
    rewrite X. reflexivity. }
  pose proof (sum_rest_continue _ _ _ _ _ _ _ H A) as B.
  apply (proj1 (proj2 (proj2 (parser_suffix TMinus (TLeft :: us ++ [TRight]) n St)))) in E.
  exists (S (n + (6 + m))). rewrite p_sum_S. rewrite (p_term_mono _ (n + (6 + m)) _ _ E) by lia. exact B.
Qed.

Lemma parse_text_difference a b ea eb : parse_text a = Some ea -> parse_text b = Some eb ->
  parse_text (F := F) (a ++ tx " - " ++ tx "(" ++ b ++ tx ")") = Some (e_sub ea eb).
Proof.
  unfold parse_text. destruct (tokens (length a) a) as [ka|] eqn:Ea; [|discriminate].
  destruct (tokens (length b) b) as [kb|] eqn:Eb; [|discriminate]. intros Ha Hb.
  rewrite (tokens_difference a b ka kb Ea Eb).
  unfold parse_tokens in Ha, Hb.
  destruct (p_sum (7 * length ka + 7) ka) as [[e1 [|]]|] eqn:Pa; try discriminate. injection Ha as <-.
  destruct (p_sum (7 * length kb + 7) kb) as [[e2 [|]]|] eqn:Pb; try discriminate. injection Hb as <-.
  destruct (parse_difference _ _ _ _ _ _ Pa Pb) as (k & K). apply parse_tokens_fuel in K. exact K.
Qed.

(** Surrounding blanks do not matter. *)
Lemma tokens_lspace n w s : forallb is_space w = true -> tokens n s = tokens (F := F) (length w + n) (w ++ s).
Proof. induction w as [|c w IH]; cbn -[tokens]; [reflexivity|]. intros H. apply andb_prop in H. destruct H as [C H]. cbn. rewrite C. apply IH. exact H. Qed.
Lemma tokens_blank w : forallb is_space w = true -> tokens (F := F) (length w) w = Some [].
Proof.
  intros H. pose proof (tokens_lspace 0 w [] H) as X. cbn in X. rewrite Nat.add_0_r, app_nil_r in X. congruence.
Qed.

End Parse.
