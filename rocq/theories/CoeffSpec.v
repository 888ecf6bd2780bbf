(** Vocabulary of the properties of coefficient dictionaries, of the operator of a
    relation and of the constructor of linear programming problems. *)
From Coq Require Import Ascii String.
From Verif Require Import Prelude OField FuncModel RelModel LpModel FuncSpec.

Section Spec.
Context {F : ofield}.

(** The value of a dictionary of coefficients at a point: coefficient times key, summed. *)
Definition dict_value (I : interp F) (env : symbol -> F) (d : list (expr F * expr F)) : F :=
  suml (map (fun kv => mul (eval I env (snd kv)) (eval I env (fst kv))) d).

(** The number of keys without symbols (numbers, pi, ...). *)
Definition constant_keys (d : list (expr F * expr F)) : nat :=
  length (filter (fun kv => match free (fst kv) with [] => true | _ => false end) d).

(** The operator of a relation, from what the constructor is given: the argument [op]
    counts first, then an operator inside the string, then [op_str], then equality.
    [None] for a Python callable. *)
Inductive operator_of : source F -> option (op_arg F) -> option text -> option rop -> Prop :=
| op_string src o op_str : operator_of src (Some (OpStr (rop_text o))) op_str (Some o)
| op_member src o op_str : operator_of src (Some (OpRel o)) op_str (Some o)
| op_callable src f op_str : operator_of src (Some (OpFun f)) op_str None
| op_inside s l o r op_str : parse_expression s = Ok (l, rop_text o, r) ->
    operator_of (FromStr s) None op_str (Some o)
| op_named src o : source_has_op src = false -> operator_of src None (Some (rop_text o)) (Some o)
| op_default src op_str : source_has_op src = false ->
    (forall w o, op_str = Some w -> w <> rop_text o) -> operator_of src None op_str (Some Req).

(** The function of the relation: left minus right if the operator is inside the string. *)
Definition function_source (src : source F) (op : option (op_arg F)) : result (source F) :=
  match op, src with
  | None, FromStr s =>
      if has_operator s then
        do (l, _, r) <- parse_expression s ; Ok (FromStr (l ++ tx " - (" ++ r ++ tx ")"))
      else Ok src
  | _, _ => Ok src
  end.

(** How two numbers are compared. *)
Definition compares (op : option (op_arg F)) (o : option rop) (f : F -> F -> bool) : Prop :=
  match o, op with
  | Some o, _ => forall a b, f a b = true <-> rel_holds o a b
  | None, Some (OpFun g) => f = g
  | None, _ => False
  end.

(** The class of a relation with operator [o], created as an instance of [cls]. *)
Definition class_of (cls : rclass) (o : option rop) (op_str : option text) (c : rclass) : Prop :=
  match cls, o with
  | CRelation, Some Req => c = CEquality
  | CRelation, Some _ => c = CInEquality
  | CRelation, None =>
      (op_str = Some (rop_text Req) /\ c = CEquality) \/
      (exists o, op_str = Some (rop_text o) /\ o <> Req /\ c = CInEquality) \/
      ((forall w o, op_str = Some w -> w <> rop_text o) /\ c = CRelation)
  | _, _ => c = cls
  end.
(** Equality only takes =, InEquality anything but =; callables are not checked. *)
Definition class_allows (cls : rclass) (o : option rop) : Prop :=
  match cls, o with
  | CEquality, Some o => o = Req
  | CInEquality, Some o => o <> Req
  | _, _ => True
  end.

(** A well-posed problem: the objective and all constraints are symbolic, the variables
    are symbols and each occurs among the variables of the objective or a constraint. *)
Definition the_function (o : py_obj F) : option (func F) :=
  match o with PyFunction f => Some f | PyRelation r => Some (r_fun r) | PyOther => None end.
Definition well_posed (obj : py_obj F) (cs : list (py_obj F)) (vars : option (list var_arg))
    (f : func F) (rs : list (relation F)) (ss : list symbol) : Prop :=
  the_function obj = Some f /\ is_symbolic f = true /\
  cs = map (@PyRelation F) rs /\ (forall r, In r rs -> is_symbolic (r_fun r) = true) /\
  vars = Some (map VSym ss) /\
  (forall s, In s ss -> In s (fvars f) \/ exists r, In r rs /\ In s (fvars (r_fun r))).

End Spec.
