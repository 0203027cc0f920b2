(** The grammar of the language of build files.  Of the model only the types of tokens and of syntax
    trees are used.

    [lax] adds a rule that the language does not have: a stray not after an operand is ignored. *)
From Verif Require Import Base M_Lexer M_Parser.

(** The table of binary operators, from the weakest to the strongest: or (1), and (2), comparisons (3),
    then + (4), - (5), % (6), * (7) and / (8).  Prefix operators (9) take one operand, and bind weaker
    than calls, methods and indices (10).  Operands are 11. *)
Definition prec (op : arithmetic_type) : nat :=
  match op with arith_add => 4 | arith_sub => 5 | arith_mod => 6 | arith_mul => 7 | arith_div => 8 end.
Definition sign (op : arithmetic_type) : ttype :=
  match op with
  | arith_add => tok_plus | arith_sub => tok_minus | arith_mod => tok_modulo
  | arith_mul => tok_star | arith_div => tok_slash
  end.
Definition compare_signs (op : comparison_type) : list ttype :=
  match op with
  | comp_equal => [tok_eq] | comp_nequal => [tok_neq] | comp_lt => [tok_lt] | comp_le => [tok_leq]
  | comp_gt => [tok_gt] | comp_ge => [tok_geq] | comp_in => [tok_in] | comp_not_in => [tok_not; tok_in]
  end.

(** [expr d n ts]: the tokens ts are the expression n, with at most d expressions inside each other.
    [level k d n ts]: its outermost operator is of level k or stronger. *)
Section LAX.
Context (lax : bool).
Inductive expr : nat -> node -> list token -> Prop :=
| e_level : forall d n ts, level 1 d n ts -> expr (S d) n ts
| e_ternary : forall d c a b tc ta tb q k, level 1 d c tc -> expr d a ta -> expr d b tb ->
    ty q = tok_question_mark -> ty k = tok_colon ->
    expr (S d) (NTernary c a b) (tc ++ q :: ta ++ k :: tb)
with level : nat -> nat -> node -> list token -> Prop :=
| l_up : forall k d n ts, 1 <= k -> level (S k) d n ts -> level k d n ts
| l_or : forall d a b ta tb o, level 2 d a ta -> level 1 d b tb -> ty o = tok_or ->
    level 1 d (NOr a b) (ta ++ o :: tb)
| l_and : forall d a b ta tb o, level 3 d a ta -> level 2 d b tb -> ty o = tok_and ->
    level 2 d (NAnd a b) (ta ++ o :: tb)
| l_compare : forall d op a b ta tb o, level 4 d a ta -> level 4 d b tb -> map ty o = compare_signs op ->
    level 3 d (NCmp op a b) (ta ++ o ++ tb)
| l_stray : forall d a ta o, lax = true -> level 4 d a ta -> ty o = tok_not -> level 3 d a (ta ++ [o])
| l_arith : forall d op a b ta tb o, level (prec op) d a ta -> level (S (prec op)) d b tb -> ty o = sign op ->
    level (prec op) d (NArith op a b) (ta ++ o :: tb)
| l_not : forall d n ts o, level 10 d n ts -> ty o = tok_not -> level 9 d (NNot n) (o :: ts)
| l_minus : forall d n ts o, level 10 d n ts -> ty o = tok_minus -> level 9 d (NMinus n) (o :: ts)
| l_stringify : forall d n ts o, level 10 d n ts -> ty o = tok_stringify -> level 9 d (NStringify n) (o :: ts)
| l_chain : forall d h ls th tl, level 11 d h th -> links d ls tl -> ls <> [] -> level 10 d (NChain h ls) (th ++ tl)
| l_paren : forall d n ts o c, expr d n ts -> ty o = tok_lparen -> ty c = tok_rparen -> level 11 d n (o :: ts ++ [c])
| l_array : forall d l ts o c, args mode_array d l ts -> ty o = tok_lbrack -> ty c = tok_rbrack ->
    level 11 d (NArray l) (o :: ts ++ [c])
| l_dict : forall d l ts o c, args mode_dictionary d l ts -> ty o = tok_lcurl -> ty c = tok_rcurl ->
    level 11 d (NDict l) (o :: ts ++ [c])
| l_true : forall d o, ty o = tok_true -> level 11 d (NBool true) [o]
| l_false : forall d o, ty o = tok_false -> level 11 d (NBool false) [o]
| l_id : forall d o, ty o = tok_identifier -> level 11 d (NId (str o)) [o]
| l_number : forall d o, ty o = tok_number -> level 11 d (NNum (num o)) [o]
| l_string : forall d o, ty o = tok_string -> level 11 d (NStr (str o)) [o]
(** method calls, indices and calls after an operand *)
with links : nat -> list link -> list token -> Prop :=
| k_nil : forall d, links d [] []
| k_method : forall d l ls ts tl p i o c, args mode_arguments d l ts -> links d ls tl ->
    ty p = tok_dot -> ty i = tok_identifier -> ty o = tok_lparen -> ty c = tok_rparen ->
    links d (LMethod (str i) l :: ls) (p :: i :: o :: ts ++ c :: tl)
| k_index : forall d n ls ts tl o c, expr d n ts -> links d ls tl -> ty o = tok_lbrack -> ty c = tok_rbrack ->
    links d (LIndex n :: ls) (o :: ts ++ c :: tl)
| k_call : forall d l ls ts tl o c, args mode_arguments d l ts -> links d ls tl ->
    ty o = tok_lparen -> ty c = tok_rparen -> links d (LCall l :: ls) (o :: ts ++ c :: tl)
(** arguments, elements and entries, with an optional comma at the end *)
with args : list_mode -> nat -> list (option node * node) -> list token -> Prop :=
| a_nil : forall md d, args md (S d) [] []
| a_last : forall md d it ti, item md d it ti -> args md d [it] ti
| a_cons : forall md d it l ti tl k, item md d it ti -> args md d l tl -> ty k = tok_comma ->
    args md d (it :: l) (ti ++ k :: tl)
with item : list_mode -> nat -> option node * node -> list token -> Prop :=
| i_value : forall md d n ts, md <> mode_dictionary -> expr d n ts -> item md d (None, n) ts
| i_keyword : forall d x v tx tv k, expr d (NId x) tx -> expr d v tv -> ty k = tok_colon ->
    item mode_arguments d (Some (NId x), v) (tx ++ k :: tv)
| i_entry : forall d n v tn tv k, expr d n tn -> expr d v tv -> ty k = tok_colon ->
    item mode_dictionary d (Some n, v) (tn ++ k :: tv).
End LAX.

(** Expressions that can have an effect: those with a call or a method call in them *)
Fixpoint effectful (n : node) : bool :=
  let of_args := existsb (fun a => (match fst a with Some k => effectful k | None => false end) || effectful (snd a)) in
  match n with
  | NArray l | NDict l => of_args l
  | NNot a | NMinus a | NStringify a => effectful a
  | NArith _ a b | NCmp _ a b | NAnd a b | NOr a b => effectful a || effectful b
  | NTernary c a b => effectful c || (effectful a || effectful b)
  | NChain h l => effectful h || existsb (fun k => match k with LIndex i => effectful i | _ => true end) l
  | _ => false
  end.

(** ** Statements
    [line ign loop d st ts]: ts is the statement st, inside loop loops.  Unless ign, it must have an
    effect.  A block is a list of lines, ended by newlines except perhaps the last one. *)
Inductive stmt_effect : stmt -> Prop :=
| se_expr : forall n, effectful n = true -> stmt_effect (StExpr n)
| se_assign : forall x n, stmt_effect (StAssign x n)
| se_plus_assign : forall x n, stmt_effect (StPlusAssign x n)
| se_if_cond : forall c b r, effectful c = true -> stmt_effect (StIf c b r)
| se_if_block : forall c b r, b <> [] -> stmt_effect (StIf c b r)
| se_if_clause : forall c b r, clause_effect r -> stmt_effect (StIf c b r)
| se_foreach_list : forall x y n b, effectful n = true -> stmt_effect (StForeach x y n b)
| se_foreach_block : forall x y n b, b <> [] -> stmt_effect (StForeach x y n b)
| se_continue : stmt_effect StContinue
| se_break : stmt_effect StBreak
with clause_effect : clause -> Prop :=
| ce_elif_cond : forall c b r, effectful c = true -> clause_effect (Elif c b r)
| ce_elif_block : forall c b r, b <> [] -> clause_effect (Elif c b r)
| ce_elif_clause : forall c b r, clause_effect r -> clause_effect (Elif c b r)
| ce_else : forall b, b <> [] -> clause_effect (Else b).

Section PROGRAM.
Context (lax ign : bool) (d : nat).
Inductive line : nat -> stmt -> list token -> Prop :=
| st_line : forall k st ts, shape k st ts -> ign = true \/ stmt_effect st -> line k st ts
with shape : nat -> stmt -> list token -> Prop :=
| st_expr : forall k n ts, expr lax d n ts -> shape k (StExpr n) ts
| st_assign : forall k x n tx tn o, expr lax d (NId x) tx -> expr lax d n tn -> ty o = tok_assign ->
    shape k (StAssign x n) (tx ++ o :: tn)
| st_plus_assign : forall k x n tx tn o, expr lax d (NId x) tx -> expr lax d n tn -> ty o = tok_plus_assign ->
    shape k (StPlusAssign x n) (tx ++ o :: tn)
| st_if : forall k c b r tc tb tr i e f, expr lax d c tc -> block k b tb -> clauses k r tr ->
    ty i = tok_if -> ty e = tok_eol -> ty f = tok_endif ->
    shape k (StIf c b r) (i :: tc ++ e :: tb ++ tr ++ [f])
| st_foreach : forall k x n b tn tb i o e f, expr lax d n tn -> block (S k) b tb ->
    ty i = tok_foreach -> ty x = tok_identifier -> ty o = tok_colon -> ty e = tok_eol -> ty f = tok_endforeach ->
    shape k (StForeach (str x) None n b) (i :: x :: o :: tn ++ e :: tb ++ [f])
| st_foreach2 : forall k x y n b tn tb i p o e f, expr lax d n tn -> block (S k) b tb ->
    ty i = tok_foreach -> ty x = tok_identifier -> ty p = tok_comma -> ty y = tok_identifier ->
    ty o = tok_colon -> ty e = tok_eol -> ty f = tok_endforeach ->
    shape k (StForeach (str x) (Some (str y)) n b) (i :: x :: p :: y :: o :: tn ++ e :: tb ++ [f])
| st_continue : forall k i, ty i = tok_continue -> shape (S k) StContinue [i]
| st_break : forall k i, ty i = tok_break -> shape (S k) StBreak [i]
with clauses : nat -> clause -> list token -> Prop :=
| c_none : forall k, clauses k NoClause []
| c_elif : forall k c b r tc tb tr i e, expr lax d c tc -> block k b tb -> clauses k r tr ->
    ty i = tok_elif -> ty e = tok_eol -> clauses k (Elif c b r) (i :: tc ++ e :: tb ++ tr)
| c_else : forall k b tb i e, block k b tb -> ty i = tok_else -> ty e = tok_eol -> clauses k (Else b) (i :: e :: tb)
with block : nat -> list stmt -> list token -> Prop :=
| b_nil : forall k, block k [] []
| b_eol : forall k l ts e, block k l ts -> ty e = tok_eol -> block k l (e :: ts)
| b_last : forall k st ts, line k st ts -> block k [st] ts
| b_cons : forall k st l ts tl e, line k st ts -> block k l tl -> ty e = tok_eol -> block k (st :: l) (ts ++ e :: tl).
End PROGRAM.

(** [program lax ign d p ts]: the tokens ts are the program p *)
Definition program (lax ign : bool) (d : nat) (p : list stmt) (ts : list token) : Prop := block lax ign d 0 p ts.
