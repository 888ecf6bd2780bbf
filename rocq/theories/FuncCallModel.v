(** More of function/symutils.py and function/function.py: [generate_symbols],
    [coefficients] and [Function.is_linear]. *)
From Coq Require Import Ascii String.
From Verif Require Import Prelude OField FuncModel RelModel.

(** [str.split()] on blanks; [w] is the word being read. *)
Fixpoint words (w : text) (s : text) : list text :=
  match s with
  | [] => match w with [] => [] | _ => [w] end
  | c :: s => if is_space c then match w with [] => words [] s | _ => w :: words [] s end
              else words (w ++ [c]) s
  end.

(** [sympy.symbols(s, **assumptions)] for strings without commas, colons and
    backslashes: one symbol, or a tuple of two or more; [k] stands for the assumptions. *)
Definition sy_symbols (k : nat) (s : text) : result (symbol + list symbol) :=
  match words [] s with
  | [] => Err ValueError
  | [n] => Ok (inl (n, k))
  | ns => Ok (inr (map (fun n => (n, k)) ns))
  end.

(** [" ".join(names)]. *)
Fixpoint joined (ns : list text) : text :=
  match ns with
  | [] => []
  | [n] => n
  | n :: ns => n ++ tx " " ++ joined ns
  end.

(** [generate_symbols] (symutils.py:8-17); [names] are the formatted templates.  [list]
    of a single symbol raises. *)
Definition generate_symbols (k : nat) (names : list text) : result (list symbol) :=
  do r <- sy_symbols k (joined names) ;
  match r with inr l => Ok l | inl _ => Err TypeError end.

Section Func.
Context {F : ofield}.

(** [symutils.coefficients] (symutils.py:100-149): the expression is not simplified;
    [None]: the variables are the free symbols. *)
Definition sym_coefficients (S : sympy F) (e : expr F) (vars : option (list symbol)) (normalize : bool)
    : list (expr F * expr F) :=
  let vs := match vars with None => fsyms S e | Some vs => vs end in
  let d0 := fold_left (fun d x => dset d (ESym x) (ENum zero)) vs [] in
  let d := fold_left (fun d kv => dset d (fst kv) (ENum (snd kv))) (as_coefficients_dict e) d0 in
  if normalize then
    fold_left (fun r kv =>
      match free (fst kv) with
      | [] => dset r (ENum one) (EMul (snd kv) (fst kv))
      | _ => dset r (fst kv) (snd kv)
      end) d []
  else d.

(** [Function.is_linear] (function.py:231-241).  [deg] stands for [sympy.degree]: an
    exception for expressions that are not polynomials, [None] for the degree minus
    infinity of the zero polynomial, which has no conversion to an integer. *)
Definition is_linear (deg : expr F -> symbol -> result (option nat)) (f : func F) : result bool :=
  match f with
  | Numeric _ _ f2_given => Ok (negb f2_given)
  | Symbolic e vars _ =>
      fold_left (fun acc v =>
        do b <- acc ;
        do d <- deg e v ;
        match d with None => Err TypeError | Some d => Ok (b && (d <=? 1)) end) vars (Ok true)
  end.

End Func.
