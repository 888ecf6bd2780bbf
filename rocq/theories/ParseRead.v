(** Property C51, continued: what the text of an arithmetic expression means.  A text that
    spells a formula, with any parentheses and blanks, is read as an expression that has
    the value of the formula. *)
From Coq Require Import Ascii String Field.
From Verif Require Import Prelude OField FuncModel RelModel LpModel FuncSpec FuncProofs RelProofs ParseProofs FuncProps.

(** ** Specification *)

(** Formulas; a number is given by its digits before and after the decimal point. *)
Inductive formula : Type :=
| FNum (ds : text) (fs : option text)
| FName (n : text)
| FApp (n : text) (a : formula)
| FNeg (a : formula)
| FAdd (a b : formula) | FSub (a b : formula) | FMul (a b : formula) | FDiv (a b : formula)
| FPow (a b : formula).

Fixpoint decimal (ds : text) : nat :=
  match ds with [] => 0 | c :: ds => (nat_of_ascii c - 48) * 10 ^ length ds + decimal ds end.
Definition number {F : ofield} (ds : text) (fs : option text) : F :=
  match fs with
  | None => of_nat (decimal ds)
  | Some fs => (of_nat (decimal ds) + of_nat (decimal fs) / of_nat (10 ^ length fs))%F
  end.

(** The value of a formula: [I] gives powers, functions and the constants pi and E, [env]
    gives the other names. *)
Inductive means {F : ofield} (I : interp F) (env : symbol -> F) : formula -> F -> Prop :=
| m_num ds fs : means I env (FNum ds fs) (number ds fs)
| m_const n : n = tx "pi" \/ n = tx "E" -> means I env (FName n) (iconst I n)
| m_name n : n <> tx "pi" -> n <> tx "E" -> means I env (FName n) (env (plain n))
| m_app n a v : means I env a v -> means I env (FApp n a) (iapp I n v)
| m_neg a v : means I env a v -> means I env (FNeg a) (- v)%F
| m_add a b v w : means I env a v -> means I env b w -> means I env (FAdd a b) (v + w)%F
| m_sub a b v w : means I env a v -> means I env b w -> means I env (FSub a b) (v - w)%F
| m_mul a b v w : means I env a v -> means I env b w -> means I env (FMul a b) (v * w)%F
| m_div a b v w : means I env a v -> means I env b w -> w <> 0%F -> means I env (FDiv a b) (v / w)%F
| m_pow a b v w : means I env a v -> means I env b w -> means I env (FPow a b) (ipow I v w).
(** The power with exponent -1 is the reciprocal. *)
Definition reciprocal {F : ofield} (I : interp F) : Prop := forall x : F, x <> 0%F -> ipow I x (- (1))%F = (1 / x)%F.

(** Python's grammar of expressions: the words that spell a formula.  (The reader does not
    know keywords, and accepts leading zeros.) *)
Definition member (s : string) (c : ascii) : bool := existsb (Ascii.eqb c) (tx s).
Definition digit_char : ascii -> bool := member "0123456789".
Definition letter_char : ascii -> bool := member "abcdefghijklmnopqrstuvwxyzABCDEFGHIJKLMNOPQRSTUVWXYZ_".
Definition digits (s : text) : Prop := forallb digit_char s = true.
Definition identifier (s : text) : Prop :=
  match s with [] => False | c :: t => letter_char c = true /\ forallb (fun c => letter_char c || digit_char c) t = true end.
Definition word (s : string) : text := tx s.
Inductive level := Sum | Term | Factor | Atom.
Inductive spells : level -> formula -> list text -> Prop :=
| s_num ds : ds <> [] -> digits ds -> spells Atom (FNum ds None) [ds]
| s_dec ds fs : ds <> [] -> digits ds -> digits fs -> spells Atom (FNum ds (Some fs)) [ds ++ word "." ++ fs]
| s_name n : identifier n -> spells Atom (FName n) [n]
| s_app n a ws : identifier n -> spells Sum a ws -> spells Atom (FApp n a) (n :: word "(" :: ws ++ [word ")"])
| s_paren a ws : spells Sum a ws -> spells Atom a (word "(" :: ws ++ [word ")"])
| s_atom a ws : spells Atom a ws -> spells Factor a ws
| s_pow a b ws vs : spells Atom a ws -> spells Factor b vs -> spells Factor (FPow a b) (ws ++ word "**" :: vs)
| s_neg a ws : spells Factor a ws -> spells Factor (FNeg a) (word "-" :: ws)
| s_pos a ws : spells Factor a ws -> spells Factor a (word "+" :: ws)
| s_factor a ws : spells Factor a ws -> spells Term a ws
| s_mul a b ws vs : spells Term a ws -> spells Factor b vs -> spells Term (FMul a b) (ws ++ word "*" :: vs)
| s_div a b ws vs : spells Term a ws -> spells Factor b vs -> spells Term (FDiv a b) (ws ++ word "/" :: vs)
| s_term a ws : spells Term a ws -> spells Sum a ws
| s_add a b ws vs : spells Sum a ws -> spells Term b vs -> spells Sum (FAdd a b) (ws ++ word "+" :: vs)
| s_sub a b ws vs : spells Sum a ws -> spells Term b vs -> spells Sum (FSub a b) (ws ++ word "-" :: vs).

(** A text made of these words, with blanks where wanted; a word must not run into the
    next one. *)
Definition extends (w : text) (c : ascii) : bool :=
  match w with
  | d :: _ => if digit_char d || letter_char d then digit_char c || letter_char c || Ascii.eqb c "."
              else text_eqb w (word "*") && Ascii.eqb c "*"
  | [] => false
  end.
Definition blank (b : text) : Prop := Forall (fun c => c = " "%char \/ c = "009"%char) b.
Inductive laid_out : list text -> text -> Prop :=
| l_end b : blank b -> laid_out [] b
| l_word b w ws s : blank b -> laid_out ws s -> (forall c t, s = c :: t -> extends w c = false) ->
    laid_out (w :: ws) (b ++ w ++ s).

(** ** Proofs *)
Lemma digit_iff c : digit_char c = is_digit c.
Proof. destruct c as [[] [] [] [] [] [] [] []]; reflexivity. Qed.
Lemma letter_iff c : letter_char c = is_letter c.
Proof. destruct c as [[] [] [] [] [] [] [] []]; reflexivity. Qed.
Lemma forallb_same (p q : ascii -> bool) s : (forall c, p c = q c) -> forallb p s = forallb q s.
Proof. intros E. induction s as [|c s IH]; [reflexivity|]. cbn. rewrite E, IH. reflexivity. Qed.
Lemma digits_iff s : digits s <-> forallb is_digit s = true.
Proof. unfold digits. rewrite (forallb_same _ is_digit s digit_iff). reflexivity. Qed.
Lemma identifier_iff c t : identifier (c :: t) <-> is_letter c = true /\ forallb (fun c => is_letter c || is_digit c) t = true.
Proof.
  unfold identifier. rewrite letter_iff, (forallb_same _ (fun c => is_letter c || is_digit c) t); [reflexivity|].
  intros d. rewrite letter_iff, digit_iff. reflexivity.
Qed.
Lemma blank_space b : blank b -> forallb is_space b = true.
Proof. induction 1 as [|c b [-> | ->] _ IH]; [reflexivity|exact IH|exact IH]. Qed.
Lemma extends_eq d t c : extends (d :: t) c =
  if is_digit d || is_letter d then is_digit c || is_letter c || Ascii.eqb c "." else text_eqb (d :: t) (word "*") && Ascii.eqb c "*".
Proof. unfold extends. rewrite !digit_iff, !letter_iff. reflexivity. Qed.
Section Read.
Context {F : ofield}.
Add Field ReadF : (of_field F).
Local Open Scope of_scope.
Implicit Types (ts : list (token F)) (e : expr F).

Lemma whole_value ds : forall v, fold_left (fun v c => add (mul ten v) (digit c)) ds (of_nat v) = (of_nat (v * 10 ^ length ds + decimal ds) : F).
Proof.
  induction ds as [|c ds IH]; intros v; cbn [fold_left decimal length].
  - f_equal. cbn. lia.
  - assert (E : (ten * of_nat v + digit c : F) = of_nat (10 * v + (nat_of_ascii c - 48))).
    { unfold ten, digit. rewrite of_nat_add, of_nat_mul. reflexivity. }
    rewrite E, IH. f_equal. rewrite Nat.pow_succ_r'. set (p := (10 ^ length ds)%nat). nia.
Qed.
Lemma whole_part_value ds : whole_part ds = (of_nat (decimal ds) : F).
Proof. exact (whole_value ds 0). Qed.
Lemma ten_pow n : (of_nat (10 ^ n) : F) <> 0.
Proof.
  assert (H : (0 < 10 ^ n)%nat) by (apply Nat.neq_0_lt_0, Nat.pow_nonzero; lia). intros E.
  assert (P : (0 < (of_nat (10 ^ n) : F))%F) by (apply of_nat_pos; exact H). rewrite E in P. rewrite le_refl in P. discriminate.
Qed.
Lemma frac_part_value ds : frac_part ds = (of_nat (decimal ds) / of_nat (10 ^ length ds) : F).
Proof.
  induction ds as [|c ds IH]; cbn [frac_part decimal length].
  - pose proof (ten_pow 0) as T. change (10 ^ 0)%nat with 1%nat in *. set (t := of_nat 1) in *. change (of_nat 0) with (zero : F). field. exact T.
  - pose proof (ten_pow (length ds)) as T. pose proof (ten_pow 1) as T1. rewrite Nat.pow_succ_r', of_nat_mul, of_nat_add, of_nat_mul.
    rewrite IH. unfold ten, digit. change (10 ^ 1)%nat with 10%nat in T1. set (t := of_nat 10) in *. field. split; assumption.
Qed.

Local Close Scope of_scope.

(** Words and tokens. *)
Inductive tok : text -> token F -> Prop :=
| t_num ds : ds <> [] -> digits ds -> tok ds (TNum (number ds None))
| t_dec ds fs : ds <> [] -> digits ds -> digits fs -> tok (ds ++ word "." ++ fs) (TNum (number ds (Some fs)))
| t_name n : identifier n -> tok n (TName n)
| t_left : tok (word "(") TLeft | t_right : tok (word ")") TRight
| t_plus : tok (word "+") TPlus | t_minus : tok (word "-") TMinus
| t_star : tok (word "*") TStar | t_slash : tok (word "/") TSlash | t_pow : tok (word "**") TPow.

Lemma span_all p s t : forallb p s = true -> (forall c r, t = c :: r -> p c = false) -> span p (s ++ t) = (s, t).
Proof.
  intros A N. induction s as [|c s IH]; cbn in *.
  - destruct t as [|c r]; [reflexivity|]. cbn. rewrite (N c r eq_refl). reflexivity.
  - apply andb_prop in A. destruct A as [A B]. rewrite A, (IH B). reflexivity.
Qed.
Lemma digit_not_letter c : is_digit c = true -> is_letter c = false.
Proof.
  unfold is_digit, is_letter. rewrite andb_true_iff, !Nat.leb_le. intros [A B].
  assert (X : (65 <=? nat_of_ascii c) = false) by (apply Nat.leb_gt; lia).
  assert (Y : (97 <=? nat_of_ascii c) = false) by (apply Nat.leb_gt; lia).
  assert (Z : (nat_of_ascii c =? 95) = false) by (apply Nat.eqb_neq; lia). rewrite X, Y, Z. reflexivity.
Qed.

Lemma token_of_word w k s : tok w k -> (forall c t, s = c :: t -> extends w c = false) ->
  exists c t, w = c :: t /\ is_space c = false /\ next_token c (t ++ s) = Some (k, s).
Proof.
  assert (DS : forall c, is_digit c = true -> is_space c = false).
  { intros c. unfold is_digit, is_space. rewrite andb_true_iff, !Nat.leb_le. intros [A B].
    assert (X : (nat_of_ascii c <=? 13) = false) by (apply Nat.leb_gt; lia).
    assert (Y : (nat_of_ascii c <=? 32) = false) by (apply Nat.leb_gt; lia).
    assert (Z : (nat_of_ascii c =? 133) = false) by (apply Nat.eqb_neq; lia).
    assert (W : (nat_of_ascii c =? 160) = false) by (apply Nat.eqb_neq; lia). rewrite X, Y, Z, W, !andb_false_r. reflexivity. }
  assert (LS : forall c, is_letter c = true -> is_space c = false).
  { intros c. unfold is_letter, is_space. rewrite !orb_true_iff, !andb_true_iff, !Nat.leb_le, Nat.eqb_eq. intros A.
    assert (X : (nat_of_ascii c <=? 13) = false) by (apply Nat.leb_gt; lia).
    assert (Y : (nat_of_ascii c <=? 32) = false) by (apply Nat.leb_gt; lia).
    assert (Z : (nat_of_ascii c =? 133) = false) by (apply Nat.eqb_neq; lia).
    assert (W : (nat_of_ascii c =? 160) = false) by (apply Nat.eqb_neq; lia). rewrite X, Y, Z, W, !andb_false_r. reflexivity. }
  intros T X. destruct T as [ds N D|ds fs N D D'|n Hn| | | | | | |].
  - destruct ds as [|c ds]; [congruence|]. pose proof D as D0. apply digits_iff in D, D0. cbn in D. apply andb_prop in D. destruct D as [Dc D].
    exists c, ds. repeat split; [apply DS, Dc|]. unfold next_token. rewrite Dc.
    change (c :: ds ++ s) with ((c :: ds) ++ s). rewrite (span_all is_digit (c :: ds) s); [|exact D0|].
    2:{ intros d r E. specialize (X d r E). rewrite extends_eq, Dc in X. cbn [orb] in X. apply orb_false_elim in X. destruct X as [X _]. apply orb_false_elim in X. apply X. }
    unfold number. rewrite whole_part_value. destruct s as [|d r]; [reflexivity|].
    specialize (X d r eq_refl). rewrite extends_eq, Dc in X. cbn [orb] in X. apply orb_false_elim in X. destruct X as [_ X]. rewrite X. reflexivity.
  - destruct ds as [|c ds]; [congruence|]. pose proof D as D0. apply digits_iff in D, D0. cbn in D. apply andb_prop in D. destruct D as [Dc D].
    exists c, (ds ++ word "." ++ fs). repeat split; [apply DS, Dc|]. unfold next_token. rewrite Dc.
    replace (c :: (ds ++ word "." ++ fs) ++ s) with ((c :: ds) ++ "."%char :: fs ++ s) by (cbn; rewrite <- app_assoc; reflexivity).
    rewrite (span_all is_digit (c :: ds)); [|exact D0|intros d r E; injection E as <- <-; reflexivity]. cbn [Ascii.eqb]. change (Ascii.eqb "." ".") with true. cbn iota.
    apply digits_iff in D'. rewrite (span_all is_digit fs s); [|exact D'|].
    2:{ intros d r E. specialize (X d r E). cbn [app] in X. rewrite extends_eq, Dc in X. cbn [orb] in X. apply orb_false_elim in X. destruct X as [X _]. apply orb_false_elim in X. apply X. }
    unfold number. rewrite whole_part_value, frac_part_value. reflexivity.
  - destruct n as [|c n]; [contradiction|]. apply identifier_iff in Hn. destruct Hn as [L A]. exists c, n. repeat split; [apply LS, L|]. unfold next_token.
    assert (Dc : is_digit c = false). { destruct (is_digit c) eqn:Dc; [|reflexivity]. apply digit_not_letter in Dc. congruence. }
    rewrite Dc, L. change (c :: n ++ s) with ((c :: n) ++ s).
    rewrite (span_all _ (c :: n) s); [reflexivity|cbn; rewrite L; exact A|].
    intros d r E. specialize (X d r E). rewrite extends_eq, L, orb_true_r in X. apply orb_false_elim in X. destruct X as [X _]. rewrite orb_comm. exact X.
  - exists "("%char, []. repeat split.
  - exists ")"%char, []. repeat split.
  - exists "+"%char, []. repeat split.
  - exists "-"%char, []. repeat split.
  - exists "*"%char, []. repeat split. cbn -[Ascii.eqb]. destruct s as [|d r]; [reflexivity|].
    specialize (X d r eq_refl). change (extends (word "*") d) with (Ascii.eqb d "*") in X.
    change (next_token "*" (d :: r)) with (if Ascii.eqb d "*" then Some (@TPow F, r) else Some (TStar, d :: r)). rewrite X. reflexivity.
  - exists "/"%char, []. repeat split.
  - exists "*"%char, ["*"%char]. repeat split.
Qed.

Lemma tokens_laid ws ts : Forall2 tok ws ts -> forall s, laid_out ws s -> exists n, tokens n s = Some ts.
Proof.
  induction 1 as [|w k ws ts T _ IH]; intros s L; inversion L as [b B|b w' ws' s0 B L0 X]; subst.
  - exists (length s). apply tokens_blank, blank_space. assumption.
  - destruct (IH s0 L0) as [n E]. destruct (token_of_word w k s0 T X) as (c & t & -> & Sp & Nx).
    exists (length b + S n). rewrite <- (tokens_lspace (S n) b _ (blank_space _ B)). cbn [tokens app]. rewrite Sp, Nx, E. reflexivity.
Qed.

(** The expression that is read. *)
Fixpoint reading (f : formula) : expr F :=
  match f with
  | FNum ds fs => ENum (number ds fs)
  | FName n => name_expr n
  | FApp n a => EApp n (reading a)
  | FNeg a => e_neg (reading a)
  | FAdd a b => EAdd (reading a) (reading b)
  | FSub a b => e_sub (reading a) (reading b)
  | FMul a b => EMul (reading a) (reading b)
  | FDiv a b => e_div (reading a) (reading b)
  | FPow a b => EPow (reading a) (reading b)
  end.

Lemma text_eqb_iff a b : text_eqb a b = true <-> a = b.
Proof. destruct (text_eqb_spec a b); split; congruence. Qed.

Lemma reading_value (I : interp F) env f v : reciprocal I -> means I env f v -> eval I env (reading f) = v.
Proof.
  intros R. induction 1; cbn [reading eval]; unfold e_neg, e_sub, e_div; cbn [eval]; try (rewrite ?IHmeans, ?IHmeans1, ?IHmeans2).
  all: try reflexivity; try ring.
  - unfold name_expr. assert (E : text_in n (map tx ["pi"; "E"]%string) = true).
    { unfold text_in. cbn [map existsb]. rewrite !orb_true_iff, !text_eqb_iff. tauto. }
    rewrite E. reflexivity.
  - unfold name_expr. assert (E : text_in n (map tx ["pi"; "E"]%string) = false).
    { destruct (text_in n (map tx ["pi"; "E"]%string)) eqn:E; [|reflexivity]. unfold text_in in E. cbn [map existsb] in E.
      rewrite !orb_true_iff, !text_eqb_iff in E. destruct E as [E|[E|E]]; [contradiction|contradiction|discriminate]. }
    rewrite E. reflexivity.
  - unfold e_neg. cbn [eval]. rewrite ?IHmeans1, ?IHmeans2. ring.
  - rewrite (R w H1). field. exact H1.
Qed.

(** Tokens that may follow. *)
Definition follows (l : level) (ts : list (token F)) : Prop :=
  match ts with
  | [] => True
  | k :: _ => match k with
              | TNum _ | TName _ | TLeft => False
              | TRight => True
              | TPlus | TMinus => l <> Sum
              | TStar | TSlash => l <> Sum /\ l <> Term
              | TPow => l = Atom
              end
  end.
(** What the parser does with the tokens of a formula. *)
Definition parsed (l : level) (e : expr F) (ts : list (token F)) : Prop :=
  match l with
  | Atom => forall r, follows Atom r -> exists n, p_atom n (ts ++ r) = Some (e, r)
  | Factor => forall r, follows Factor r -> exists n, p_factor n (ts ++ r) = Some (e, r)
  | Term => forall r m x, follows Factor r -> p_term_rest m e r = Some x -> exists n, p_term n (ts ++ r) = Some x
  | Sum => forall r m x, follows Term r -> p_sum_rest m e r = Some x -> exists n, p_sum n (ts ++ r) = Some x
  end.

Lemma parsed_term e ts r : parsed Term e ts -> follows Term r -> exists n, p_term n (ts ++ r) = Some (e, r).
Proof.
  intros P H. apply (P r 1%nat (e, r)).
  - destruct r as [|[] r]; cbn in *; try contradiction; try exact I; try discriminate; try (destruct H; congruence).
  - rewrite p_term_rest_S. destruct r as [|[] r]; cbn in H; try reflexivity; destruct H; congruence.
Qed.
Lemma parsed_sum e ts r : parsed Sum e ts -> follows Sum r -> exists n, p_sum n (ts ++ r) = Some (e, r).
Proof.
  intros P H. apply (P r 1%nat (e, r)).
  - destruct r as [|[] r]; cbn in *; try contradiction; try exact I; try discriminate; try (destruct H; congruence); congruence.
  - rewrite p_sum_rest_S. destruct r as [|[] r]; cbn in H; try reflexivity; congruence.
Qed.
Lemma parsed_paren e ts r : parsed Sum e ts -> exists n, p_sum n (ts ++ TRight :: r) = Some (e, TRight :: r).
Proof. intros P. apply parsed_sum; [exact P|exact Logic.I]. Qed.

Lemma atom_head n ts e r : p_atom n ts = Some (e, r) ->
  p_factor (S n) ts = match r with
                      | TPow :: r' => match p_factor n r' with Some (x, r'') => Some (EPow e x, r'') | None => None end
                      | _ => Some (e, r)
                      end.
Proof.
  intros H. rewrite p_factor_S. destruct ts as [|k ts].
  - destruct n; discriminate.
  - destruct k; try (rewrite H; destruct r as [|[] r]; reflexivity); destruct n; discriminate H.
Qed.

Lemma spells_parsed l f ws : spells l f ws -> exists ts, Forall2 tok ws ts /\ parsed l (reading f) ts.
Proof.
  induction 1 as [ds N D|ds fs N D D'|n Hn|n a ws Hn _ (ts & T & P)|a ws _ (ts & T & P)|a ws _ (ts & T & P)
    |a b ws vs _ (ts & T & P) _ (us & U & Q)|a ws _ (ts & T & P)|a ws _ (ts & T & P)|a ws _ (ts & T & P)
    |a b ws vs _ (ts & T & P) _ (us & U & Q)|a b ws vs _ (ts & T & P) _ (us & U & Q)|a ws _ (ts & T & P)
    |a b ws vs _ (ts & T & P) _ (us & U & Q)|a b ws vs _ (ts & T & P) _ (us & U & Q)].
  - exists [TNum (number ds None)]. split; [repeat constructor; assumption|]. intros r _. exists 1%nat. reflexivity.
  - exists [TNum (number ds (Some fs))]. split; [repeat constructor; assumption|]. intros r _. exists 1%nat. reflexivity.
  - exists [TName n]. split; [repeat constructor; assumption|]. intros r H. exists 1%nat. cbn [app]. rewrite p_atom_S.
    destruct r as [|[] r]; try reflexivity. destruct H.
  - exists (TName n :: TLeft :: ts ++ [TRight]). split.
    { constructor; [constructor; exact Hn|]. constructor; [constructor|]. apply Forall2_app; [exact T|repeat constructor]. }
    intros r _. destruct (parsed_paren _ _ r P) as [k K]. exists (S k). cbn [app]. rewrite p_atom_S, <- app_assoc. cbn [app]. rewrite K. reflexivity.
  - exists (TLeft :: ts ++ [TRight]). split.
    { constructor; [constructor|]. apply Forall2_app; [exact T|repeat constructor]. }
    intros r _. destruct (parsed_paren _ _ r P) as [k K]. exists (S k). cbn [app]. rewrite p_atom_S, <- app_assoc. cbn [app]. rewrite K. reflexivity.
  - exists ts. split; [exact T|]. intros r H. destruct (P r) as [k K].
    { destruct r as [|[] r]; cbn in *; try exact H; try (split; discriminate); discriminate. }
    exists (S k). rewrite (atom_head _ _ _ _ K). destruct r as [|[] r]; try reflexivity. discriminate H.
  - exists (ts ++ TPow :: us). split; [apply Forall2_app; [exact T|]; constructor; [constructor|exact U]|].
    intros r H. destruct (P (TPow :: us ++ r)) as [k K]; [reflexivity|]. destruct (Q r H) as [m M].
    exists (S (k + m)). rewrite <- app_assoc. cbn [app]. rewrite (atom_head (k + m) _ (reading a) (TPow :: us ++ r)).
    + rewrite (p_factor_mono m (k + m) _ _ M) by lia. reflexivity.
    + apply (p_atom_mono k); [exact K|lia].
  - exists (TMinus :: ts). split; [constructor; [constructor|exact T]|]. intros r H. destruct (P r H) as [k K].
    exists (S k). cbn [app]. rewrite p_factor_S, K. reflexivity.
  - exists (TPlus :: ts). split; [constructor; [constructor|exact T]|]. intros r H. destruct (P r H) as [k K].
    exists (S k). cbn [app]. rewrite p_factor_S. exact K.
  - exists ts. split; [exact T|]. intros r m x H M. destruct (P r H) as [k K].
    exists (S (k + m)). rewrite p_term_S, (p_factor_mono k (k + m) _ _ K) by lia. apply (p_term_rest_mono m); [exact M|lia].
  - exists (ts ++ TStar :: us). split; [apply Forall2_app; [exact T|]; constructor; [constructor|exact U]|].
    intros r m x H M. rewrite <- app_assoc. cbn [app]. destruct (Q r H) as [k K]. apply (P _ (S (k + m))); [split; discriminate|].
    rewrite p_term_rest_S, (p_factor_mono k (k + m) _ _ K) by lia. apply (p_term_rest_mono m); [exact M|lia].
  - exists (ts ++ TSlash :: us). split; [apply Forall2_app; [exact T|]; constructor; [constructor|exact U]|].
    intros r m x H M. rewrite <- app_assoc. cbn [app]. destruct (Q r H) as [k K]. apply (P _ (S (k + m))); [split; discriminate|].
    rewrite p_term_rest_S, (p_factor_mono k (k + m) _ _ K) by lia. apply (p_term_rest_mono m); [exact M|lia].
  - exists ts. split; [exact T|]. intros r m x H M. destruct (parsed_term _ _ _ P H) as [k K].
    exists (S (k + m)). rewrite p_sum_S, (p_term_mono k (k + m) _ _ K) by lia. apply (p_sum_rest_mono m); [exact M|lia].
  - exists (ts ++ TPlus :: us). split; [apply Forall2_app; [exact T|]; constructor; [constructor|exact U]|].
    intros r m x H M. rewrite <- app_assoc. cbn [app]. destruct (parsed_term _ _ _ Q H) as [k K]. apply (P _ (S (k + m))); [discriminate|].
    rewrite p_sum_rest_S, (p_term_mono k (k + m) _ _ K) by lia. apply (p_sum_rest_mono m); [exact M|lia].
  - exists (ts ++ TMinus :: us). split; [apply Forall2_app; [exact T|]; constructor; [constructor|exact U]|].
    intros r m x H M. rewrite <- app_assoc. cbn [app]. destruct (parsed_term _ _ _ Q H) as [k K]. apply (P _ (S (k + m))); [discriminate|].
    rewrite p_sum_rest_S, (p_term_mono k (k + m) _ _ K) by lia. apply (p_sum_rest_mono m); [exact M|lia].
Qed.

Lemma text_read f ws s : spells Sum f ws -> laid_out ws s -> parse_text s = Some (reading f).
Proof.
  intros H L. destruct (spells_parsed _ _ _ H) as (ts & T & P). destruct (tokens_laid _ _ T s L) as [n N].
  unfold parse_text. rewrite (tokens_more n (length s) s ts N (le_n _)).
  destruct (parsed_sum _ _ [] P Logic.I) as [k K]. rewrite app_nil_r in K. exact (parse_tokens_fuel _ _ _ K).
Qed.
End Read.

(** ** Theorems *)

(** A text that spells a formula is read as an expression with the value of the formula. *)
Theorem C51_reading :
  forall (F : ofield) f ws s, spells Sum f ws -> laid_out ws s ->
  exists e : expr F, parse_text s = Some e /\
    forall (I : interp F) env v, reciprocal I -> means I env f v -> eval I env e = v.
Proof.
  intros F f ws s H L. exists (reading f). split; [exact (text_read f ws s H L)|].
  intros I env v R M. exact (reading_value I env f v R M).
Qed.
Print Assumptions C51_reading.

(** A relation made from the text of two formulas with an operator between them holds at a
    point exactly when the values of the formulas there are so related. *)
Theorem C51_meaning :
  forall (F : ofield) (S : sympy F) (I : interp F), sympy_ok S I -> reciprocal I ->
  forall s vars op_str rel l w r f g wf wg,
  parse_expression s = Ok (l, w, r) -> spells Sum f wf -> laid_out wf l -> spells Sum g wg -> laid_out wg r ->
  mk_relation S parse_text CRelation (FromStr s) vars None op_str = Ok rel ->
  forall xs b, NoDup (map fst (fvars (r_fun rel))) -> relate I rel xs = Ok b ->
  exists o, w = rop_text o /\
    forall v v', means I (env_of (by_name (fvars (r_fun rel))) xs) f v -> means I (env_of (by_name (fvars (r_fun rel))) xs) g v' ->
    (b = true <-> rel_holds o v v').
Proof.
  intros F S I H R s vars op_str rel l w r f g wf wg P Sf Lf Sg Lg M xs b N E.
  destruct (C51_relation_holds F S I H s vars op_str rel l w r _ _ P (text_read f wf l Sf Lf) (text_read g wg r Sg Lg) M) as [A _].
  destruct (A xs b N E) as (o & W & B). exists o. split; [exact W|]. intros v v' V V'.
  rewrite (reading_value I _ f v R V), (reading_value I _ g v' R V') in B. exact B.
Qed.
Print Assumptions C51_meaning.

(** "-x1**2 / (2.5+y)" is the negative of a square divided by a sum. *)
Example C51_reading_met :
  exists ws, laid_out ws (tx "-x1**2 / (2.5+y)") /\
    spells Sum (FDiv (FNeg (FPow (FName (tx "x1")) (FNum (tx "2") None))) (FAdd (FNum (tx "2") (Some (tx "5"))) (FName (tx "y")))) ws.
Proof.
  exists (map tx ["-"; "x1"; "**"; "2"; "/"; "("; "2.5"; "+"; "y"; ")"]%string). split.
  - assert (L : forall b w ws s t, t = b ++ w ++ s -> blank b -> laid_out ws s ->
      match s with c :: _ => extends w c = false | [] => True end -> laid_out (w :: ws) t).
    { intros b w ws s t -> B H X. apply l_word; [exact B|exact H|]. intros c r ->. exact X. }
    apply (L [] _ _ (tx "x1**2 / (2.5+y)")); [reflexivity|repeat constructor| |reflexivity].
    apply (L [] _ _ (tx "**2 / (2.5+y)")); [reflexivity|repeat constructor| |reflexivity].
    apply (L [] _ _ (tx "2 / (2.5+y)")); [reflexivity|repeat constructor| |reflexivity].
    apply (L [] _ _ (tx " / (2.5+y)")); [reflexivity|repeat constructor| |reflexivity].
    apply (L (tx " ") _ _ (tx " (2.5+y)")); [reflexivity|repeat constructor| |reflexivity].
    apply (L (tx " ") _ _ (tx "2.5+y)")); [reflexivity|repeat constructor| |reflexivity].
    apply (L [] _ _ (tx "+y)")); [reflexivity|repeat constructor| |reflexivity].
    apply (L [] _ _ (tx "y)")); [reflexivity|repeat constructor| |reflexivity].
    apply (L [] _ _ (tx ")")); [reflexivity|repeat constructor| |reflexivity].
    apply (L [] _ _ []); [reflexivity|constructor| |exact I]. apply l_end. constructor.
  - apply s_term. apply (s_div _ _ (map tx ["-"; "x1"; "**"; "2"]%string) (map tx ["("; "2.5"; "+"; "y"; ")"]%string)).
    + apply s_factor, s_neg. apply (s_pow _ _ [tx "x1"] [tx "2"]); [apply s_name; split; reflexivity|apply s_atom, s_num; [discriminate|reflexivity]].
    + apply s_atom. apply (s_paren _ (map tx ["2.5"; "+"; "y"]%string)).
      apply (s_add _ _ [tx "2.5"] [tx "y"]).
      * apply s_term, s_factor, s_atom. apply (s_dec (tx "2") (tx "5")); [discriminate|reflexivity|reflexivity].
      * apply s_factor, s_atom, s_name. split; reflexivity.
Qed.
