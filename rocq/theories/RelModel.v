(** Relations: function/utils.py and function/relation.py, and a parser for the
    arithmetic fragment of the strings that SymPy reads. *)
From Coq Require Import Ascii String.
From Verif Require Import Prelude OField FuncModel.

(** ** Splitting a string at its operator (function/utils.py) *)

(** [str.isspace] for one character: what [\s] matches and [strip] removes. *)
Definition is_space (c : ascii) : bool :=
  let n := nat_of_ascii c in
  ((9 <=? n) && (n <=? 13)) || ((28 <=? n) && (n <=? 32)) || (n =? 133) || (n =? 160).
(** [.] in a regular expression: every character but the newline. *)
Definition dot (c : ascii) : bool := negb (nat_of_ascii c =? 10).

(** Regular expression pieces, as the list of their possible matches (matched text,
    remaining text) in the order in which Python's backtracking matcher tries them:
    [p*] greedy, [p*?] lazy, and alternatives from left to right. *)
Fixpoint star_greedy (p : ascii -> bool) (s : text) : list (text * text) :=
  match s with
  | [] => [([], [])]
  | c :: t => if p c then map (fun m => (c :: fst m, snd m)) (star_greedy p t) ++ [([], s)]
              else [([], s)]
  end.
Fixpoint star_lazy (p : ascii -> bool) (s : text) : list (text * text) :=
  match s with
  | [] => [([], [])]
  | c :: t => ([], s) :: (if p c then map (fun m => (c :: fst m, snd m)) (star_lazy p t) else [])
  end.
Definition plus_of (star : (ascii -> bool) -> text -> list (text * text)) (p : ascii -> bool) (s : text)
    : list (text * text) :=
  match s with
  | [] => []
  | c :: t => if p c then map (fun m => (c :: fst m, snd m)) (star p t) else []
  end.
Fixpoint strip_prefix (w s : text) : option text :=
  match w, s with
  | [], _ => Some s
  | c :: w, d :: s => if Ascii.eqb c d then strip_prefix w s else None
  | _ :: _, [] => None
  end.
Definition one_of (ws : list text) (s : text) : list (text * text) :=
  flat_map (fun w => match strip_prefix w s with Some r => [(w, r)] | None => [] end) ws.

(** [valid_operators] (utils.py:3); the pattern lists them in the same order. *)
Definition valid_operators : list text := map tx ["<="; ">="; "<"; ">"; "="]%string.

(** All matches of [(.+?)\s*(<=|>=|<|>|=)\s*(.+)] at the start of [s]: the three
    groups, in the order in which they are tried (utils.py:19). *)
Definition pattern_matches (s : text) : list (text * text * text) :=
  flat_map (fun m1 =>
    flat_map (fun m2 =>
      flat_map (fun m3 =>
        flat_map (fun m4 =>
          map (fun m5 => (fst m1, fst m3, fst m5)) (plus_of star_greedy dot (snd m4)))
          (star_greedy is_space (snd m3)))
        (one_of valid_operators (snd m2)))
      (star_greedy is_space (snd m1)))
    (plus_of star_lazy dot s).

(** [str.strip()] and substring test [w in s]. *)
Fixpoint lstrip (s : text) : text :=
  match s with c :: t => if is_space c then lstrip t else s | [] => [] end.
Definition strip (s : text) : text := rev (lstrip (rev (lstrip s))).
Fixpoint contains (w s : text) : bool :=
  match strip_prefix w s with
  | Some _ => true
  | None => match s with [] => false | _ :: t => contains w t end
  end.
Definition text_in (w : text) (l : list text) : bool := existsb (text_eqb w) l.

(** [parse_expression] (utils.py:6-41). *)
Definition parse_expression (s : text) : result (text * text * text) :=
  match pattern_matches s with
  | (g1, op, g3) :: _ =>
      let l := strip g1 in
      let r := strip g3 in
      if existsb (fun w => contains w l || contains w r) valid_operators then Err ValueError
      else if negb (text_in op valid_operators) then Err ValueError
      else Ok (l, op, r)
  | [] => Err ValueError
  end.

(** [has_operator] (utils.py:44-59). *)
Definition has_operator (s : text) : bool := existsb (fun w => contains w s) valid_operators.

(** ** Relations (function/relation.py) *)

(** [Relations] (relation.py:14-53). *)
Inductive rop : Set := Req | Rgt | Rge | Rlt | Rle.
Definition rop_text (o : rop) : text :=
  tx (match o with Req => "=" | Rgt => ">" | Rge => ">=" | Rlt => "<" | Rle => "<=" end)%string.
(** [Relations(value)]. *)
Definition rop_of (w : text) : result rop :=
  if text_eqb w (tx "=") then Ok Req
  else if text_eqb w (tx ">") then Ok Rgt
  else if text_eqb w (tx ">=") then Ok Rge
  else if text_eqb w (tx "<") then Ok Rlt
  else if text_eqb w (tx "<=") then Ok Rle
  else Err ValueError.
Definition opfunc_of {F : ofield} (o : rop) (a b : F) : bool :=
  match o with
  | Req => eqb a b
  | Rgt => ltb b a
  | Rge => leb b a
  | Rlt => ltb a b
  | Rle => leb a b
  end.

Inductive rclass : Set := CRelation | CEquality | CInEquality.

Section Rel.
Context {F : ofield}.

(** What the constructor is given: a string, an expression or a Python callable (with
    the variables), and the keyword arguments [op] and [op_str]. *)
Inductive source : Type :=
| FromStr (s : text)
| FromExpr (e : expr F)
| FromFun (f0 : list F -> F) (f2_given : bool).
Inductive op_arg : Type := OpStr (w : text) | OpRel (o : rop) | OpFun (f : F -> F -> bool).

Record relation : Type := Relation {
  r_fun : func F;
  r_class : rclass;
  r_op : option rop;              (* self.op; None for a callable operator *)
  r_opfunc : F -> F -> bool
}.

(** [Function.__init__] for the three kinds of source; [parse] stands for SymPy's
    [parse_expr] and returns [None] where it raises.  The variables of a numeric
    function are kept as they are given (here: the symbols they name). *)
Definition mk_func (S : sympy F) (parse : text -> option (expr F)) (src : source)
    (vars : option (list var_arg)) : result (func F) :=
  match src with
  | FromStr s => match parse s with
                 | Some e => mk_symbolic S true e vars
                 | None => Err SyntaxError
                 end
  | FromExpr e => mk_symbolic S false e vars
  | FromFun f0 h => Ok (Numeric f0 (map arg_symbol (match vars with Some vs => vs | None => [] end)) h)
  end.

Definition source_has_op (src : source) : bool :=
  match src with FromStr s => has_operator s | _ => false end.

(** The class chosen by [Relation.__new__] (relation.py:82-125). *)
Definition new_class (cls : rclass) (src : source) (op : option op_arg) (op_str : option text) : result rclass :=
  do op1 <- match op with
            | Some (OpStr w) => if text_in w valid_operators then do o <- rop_of w ; Ok (Some (OpRel o)) else Err ValueError
            | o => Ok o
            end ;
  do op2 <- match op1 with
            | Some o => Ok o
            | None =>
                match src with
                | FromStr s =>
                    if has_operator s then
                      do (_, w, _) <- parse_expression s ; do o <- rop_of w ; Ok (OpRel o)
                    else match op_str with
                         | Some w => if text_in w valid_operators then do o <- rop_of w ; Ok (OpRel o) else Ok (OpRel Req)
                         | None => Ok (OpRel Req)
                         end
                | _ => match op_str with
                       | Some w => if text_in w valid_operators then do o <- rop_of w ; Ok (OpRel o) else Ok (OpRel Req)
                       | None => Ok (OpRel Req)
                       end
                end
            end ;
  do op3 <- match op2 with
            | OpRel o => Ok (Some o)
            | _ => match op_str with
                   | Some w => if text_in w valid_operators then do o <- rop_of w ; Ok (Some o) else Ok None
                   | None => Ok None
                   end
            end ;
  Ok (match cls, op3 with
      | CRelation, Some Req => CEquality
      | CRelation, Some _ => CInEquality
      | _, _ => cls
      end).

(** [Relation.__init__] with the assertions of [Equality] and [InEquality]
    (relation.py:127-165, 213-217, 235-239).  [vars] is the keyword argument. *)
Definition mk_relation (S : sympy F) (parse : text -> option (expr F)) (cls : rclass) (src : source)
    (vars : option (list var_arg)) (op : option op_arg) (op_str : option text) : result relation :=
  do c <- new_class cls src op op_str ;
  do (o, f, src') <-
    match op with
    | Some (OpStr w) => if text_in w valid_operators then do o <- rop_of w ; Ok (Some o, opfunc_of o, src) else Err ValueError
    | Some (OpRel o) => Ok (Some o, opfunc_of o, src)
    | Some (OpFun f) => Ok (None, f, src)
    | None =>
        match src with
        | FromStr s =>
            if has_operator s then
              do (l, w, r) <- parse_expression s ;
              do o <- rop_of w ;
              Ok (Some o, opfunc_of o, FromStr (l ++ tx " - " ++ tx "(" ++ r ++ tx ")"))
            else match op_str with
                 | Some w => if text_in w valid_operators then do o <- rop_of w ; Ok (Some o, opfunc_of o, src) else Ok (Some Req, opfunc_of Req, src)
                 | None => Ok (Some Req, opfunc_of Req, src)
                 end
        | _ => match op_str with
               | Some w => if text_in w valid_operators then do o <- rop_of w ; Ok (Some o, opfunc_of o, src) else Ok (Some Req, opfunc_of Req, src)
               | None => Ok (Some Req, opfunc_of Req, src)
               end
        end
    end ;
  do fn <- mk_func S parse src' vars ;
  match c, o with
  | CEquality, Some Req | CEquality, None => Ok (Relation fn c o f)
  | CEquality, Some _ => Err AssertionError
  | CInEquality, Some Req => Err AssertionError
  | _, _ => Ok (Relation fn c o f)
  end.

(** [Relation.relate] (relation.py:190-194). *)
Definition relate (I : interp F) (r : relation) (xs : list F) : result bool :=
  do v <- call I (r_fun r) xs ; Ok (r_opfunc r v zero).

(** ** Reading arithmetic expressions

    The fragment of SymPy's [parse_expr] (that is, of Python's expression grammar)
    with numbers, names, function application, unary and binary [+ -], [* / **] and
    parentheses.  The names pi and E are constants, every other name is a symbol
    without assumptions.  Returns [None] on anything else. *)
Inductive token : Type :=
| TNum (c : F) | TName (n : text) | TPlus | TMinus | TStar | TSlash | TPow | TLeft | TRight.

Definition is_digit (c : ascii) : bool := let n := nat_of_ascii c in (48 <=? n) && (n <=? 57).
Definition is_letter (c : ascii) : bool :=
  let n := nat_of_ascii c in ((65 <=? n) && (n <=? 90)) || ((97 <=? n) && (n <=? 122)) || (n =? 95).
Definition digit (c : ascii) : F := of_nat (nat_of_ascii c - 48).
Definition ten : F := of_nat 10.
Fixpoint span (p : ascii -> bool) (s : text) : text * text :=
  match s with
  | c :: t => if p c then let (a, b) := span p t in (c :: a, b) else ([], s)
  | [] => ([], [])
  end.
Definition whole_part (ds : text) : F := fold_left (fun v c => add (mul ten v) (digit c)) ds zero.
Fixpoint frac_part (ds : text) : F :=
  match ds with [] => zero | c :: ds => div (add (digit c) (frac_part ds)) ten end.

Definition single (c : ascii) : option token :=
  if Ascii.eqb c "+" then Some TPlus
  else if Ascii.eqb c "-" then Some TMinus
  else if Ascii.eqb c "*" then Some TStar
  else if Ascii.eqb c "/" then Some TSlash
  else if Ascii.eqb c "(" then Some TLeft
  else if Ascii.eqb c ")" then Some TRight
  else None.

(** One token of a text that starts with the non-blank character [c]. *)
Definition next_token (c : ascii) (t : text) : option (token * text) :=
  if is_digit c then
    let (ds, r) := span is_digit (c :: t) in
    match r with
    | d :: r' => if Ascii.eqb d "." then let (fs, r'') := span is_digit r' in Some (TNum (add (whole_part ds) (frac_part fs)), r'')
                 else Some (TNum (whole_part ds), r)
    | [] => Some (TNum (whole_part ds), r)
    end
  else if is_letter c then
    let (n, r) := span (fun c => is_letter c || is_digit c) (c :: t) in Some (TName n, r)
  else match single c, t with
       | Some TStar, d :: t' => if Ascii.eqb d "*" then Some (TPow, t') else Some (TStar, t)
       | Some k, _ => Some (k, t)
       | None, _ => None
       end.

(** [fuel]: at least the length of the text. *)
Fixpoint tokens (fuel : nat) (s : text) : option (list token) :=
  match fuel, s with
  | _, [] => Some []
  | O, _ => None
  | S fuel, c :: t =>
      if is_space c then tokens fuel t
      else match next_token c t with
           | Some (k, r) => match tokens fuel r with Some ks => Some (k :: ks) | None => None end
           | None => None
           end
  end.

Definition e_neg (e : expr F) : expr F := EMul (ENum (opp one)) e.
Definition e_sub (a b : expr F) : expr F := EAdd a (e_neg b).
Definition e_div (a b : expr F) : expr F := EMul a (EPow b (ENum (opp one))).
Definition name_expr (n : text) : expr F :=
  if text_in n (map tx ["pi"; "E"]%string) then EConst n else ESym (plain n).

(** Recursive descent: [p_sum] reads [term (('+'|'-') term)*], [p_term] reads
    [factor (('*'|'/') factor)*], [p_factor] reads [('+'|'-') factor | power], [p_power]
    reads [atom ('**' factor)?] and [p_atom] reads a number, a name, an application or
    a parenthesis.  Every call consumes fuel. *)
Fixpoint p_sum (fuel : nat) (ts : list token) : option (expr F * list token) :=
  match fuel with
  | O => None
  | S fuel => match p_term fuel ts with Some (e, r) => p_sum_rest fuel e r | None => None end
  end
with p_sum_rest (fuel : nat) (acc : expr F) (ts : list token) : option (expr F * list token) :=
  match fuel with
  | O => None
  | S fuel =>
      match ts with
      | TPlus :: r => match p_term fuel r with Some (e, r') => p_sum_rest fuel (EAdd acc e) r' | None => None end
      | TMinus :: r => match p_term fuel r with Some (e, r') => p_sum_rest fuel (e_sub acc e) r' | None => None end
      | _ => Some (acc, ts)
      end
  end
with p_term (fuel : nat) (ts : list token) : option (expr F * list token) :=
  match fuel with
  | O => None
  | S fuel => match p_factor fuel ts with Some (e, r) => p_term_rest fuel e r | None => None end
  end
with p_term_rest (fuel : nat) (acc : expr F) (ts : list token) : option (expr F * list token) :=
  match fuel with
  | O => None
  | S fuel =>
      match ts with
      | TStar :: r => match p_factor fuel r with Some (e, r') => p_term_rest fuel (EMul acc e) r' | None => None end
      | TSlash :: r => match p_factor fuel r with Some (e, r') => p_term_rest fuel (e_div acc e) r' | None => None end
      | _ => Some (acc, ts)
      end
  end
with p_factor (fuel : nat) (ts : list token) : option (expr F * list token) :=
  match fuel with
  | O => None
  | S fuel =>
      match ts with
      | TPlus :: r => p_factor fuel r
      | TMinus :: r => match p_factor fuel r with Some (e, r') => Some (e_neg e, r') | None => None end
      | _ => match p_atom fuel ts with
             | Some (e, TPow :: r) => match p_factor fuel r with Some (x, r') => Some (EPow e x, r') | None => None end
             | x => x
             end
      end
  end
with p_atom (fuel : nat) (ts : list token) : option (expr F * list token) :=
  match fuel with
  | O => None
  | S fuel =>
      match ts with
      | TNum c :: r => Some (ENum c, r)
      | TName n :: TLeft :: r =>
          match p_sum fuel r with Some (e, TRight :: r') => Some (EApp n e, r') | _ => None end
      | TName n :: r => Some (name_expr n, r)
      | TLeft :: r => match p_sum fuel r with Some (e, TRight :: r') => Some (e, r') | _ => None end
      | _ => None
      end
  end.

Definition parse_tokens (ts : list token) : option (expr F) :=
  match p_sum (7 * length ts + 7) ts with Some (e, []) => Some e | _ => None end.
Definition parse_text (s : text) : option (expr F) :=
  match tokens (length s) s with Some ts => parse_tokens ts | None => None end.

End Rel.
Arguments source F : clear implicits.
Arguments op_arg F : clear implicits.
Arguments relation F : clear implicits.
Arguments token F : clear implicits.
