(** How to write expressions and programs so that they are read back, and how sequences of operators
    are grouped.  Of the model only the types of syntax trees are used. *)
From Verif Require Import Base M_Lexer M_Parser S_Lexer S_Parser.
Open Scope list_scope.

(** ** Decimal numbers: the digits of v, if it has no more than [n] of them *)
Definition digit_char (v : N) : ascii := ascii_of_N (48 + v).
Fixpoint decimal (n : nat) (v : N) : bytes :=
  match n with
  | 0 => []
  | S n => if (v <? 10)%N then [digit_char v] else decimal n (v / 10) ++ [digit_char (v mod 10)]
  end.

(** ** Expressions
    The words of an expression.  Operands of operators are put in parentheses unless they are names,
    literals, lists or dictionaries.  Elements, arguments, indices and the alternatives of a
    conditional expression are not. *)
Definition atomic (n : node) : bool :=
  match n with NBool _ | NId _ | NNum _ | NStr _ | NArray _ | NDict _ => true | _ => false end.
Definition arith_word (op : arithmetic_type) : bytes :=
  match op with
  | arith_add => B "+" | arith_sub => B "-" | arith_mod => B "%" | arith_mul => B "*" | arith_div => B "/"
  end.
Definition compare_words (op : comparison_type) : list bytes :=
  match op with
  | comp_equal => [B "=="] | comp_nequal => [B "!="] | comp_lt => [B "<"] | comp_le => [B "<="]
  | comp_gt => [B ">"] | comp_ge => [B ">="] | comp_in => [B "in"] | comp_not_in => [B "not"; B "in"]
  end.
Fixpoint print (n : node) : list bytes :=
  let operand n := if atomic n then print n else B "(" :: print n ++ [B ")"] in
  let items := flat_map (fun a => match fst a with Some k => print k ++ [B ":"] | None => [] end ++ print (snd a) ++ [B ","]) in
  match n with
  | NEmpty => []
  | NBool b => [if b then B "true" else B "false"]
  | NId x => [x]
  | NNum z => [decimal 19 (Z.to_N z)]
  | NStr s => [QUOTE :: escaped s ++ [QUOTE]]
  | NArray l => B "[" :: items l ++ [B "]"]
  | NDict l => B "{" :: items l ++ [B "}"]
  | NNot a => B "not" :: operand a
  | NMinus a => B "-" :: operand a
  | NStringify a => operand a
  | NArith op a b => operand a ++ arith_word op :: operand b
  | NCmp op a b => operand a ++ compare_words op ++ operand b
  | NAnd a b => operand a ++ B "and" :: operand b
  | NOr a b => operand a ++ B "or" :: operand b
  | NTernary c a b => operand c ++ B "?" :: print a ++ B ":" :: print b
  | NChain h ls =>
      operand h ++ flat_map (fun k =>
        match k with
        | LMethod m l => B "." :: m :: B "(" :: items l ++ [B ")"]
        | LIndex i => B "[" :: print i ++ [B "]"]
        | LCall l => B "(" :: items l ++ [B ")"]
        end) ls
  end.
Definition operand (n : node) : list bytes := if atomic n then print n else B "(" :: print n ++ [B ")"].
(** The text: each word is followed by a space *)
Definition text (ws : list bytes) : bytes := flat_map (fun w => w ++ B " ") ws.

(** [tree d n]: n is an expression of height at most d.  Names are identifiers, numbers are not negative
    and fit in 64 bits, the keys of keyword arguments are names, and list elements have no keys. *)
Inductive tree : nat -> node -> Prop :=
| t_bool : forall d b, tree (S d) (NBool b)
| t_id : forall d x, identifier x -> tree (S d) (NId x)
| t_num : forall d z, (0 <= z < 2 ^ 63)%Z -> tree (S d) (NNum z)
| t_str : forall d s, tree (S d) (NStr s)
| t_array : forall d l, entries mode_array d l -> tree (S d) (NArray l)
| t_dict : forall d l, entries mode_dictionary d l -> tree (S d) (NDict l)
| t_not : forall d a, tree d a -> tree (S d) (NNot a)
| t_minus : forall d a, tree d a -> tree (S d) (NMinus a)
| t_arith : forall d op a b, tree d a -> tree d b -> tree (S d) (NArith op a b)
| t_cmp : forall d op a b, tree d a -> tree d b -> tree (S d) (NCmp op a b)
| t_and : forall d a b, tree d a -> tree d b -> tree (S d) (NAnd a b)
| t_or : forall d a b, tree d a -> tree d b -> tree (S d) (NOr a b)
| t_ternary : forall d c a b, tree d c -> tree d a -> tree d b -> tree (S d) (NTernary c a b)
| t_chain : forall d h ls, tree d h -> steps d ls -> ls <> [] -> tree (S d) (NChain h ls)
with steps : nat -> list link -> Prop :=
| s_nil : forall d, steps d []
| s_method : forall d m l ls, identifier m -> entries mode_arguments d l -> steps d ls -> steps d (LMethod m l :: ls)
| s_index : forall d i ls, tree d i -> steps d ls -> steps d (LIndex i :: ls)
| s_call : forall d l ls, entries mode_arguments d l -> steps d ls -> steps d (LCall l :: ls)
with entries : list_mode -> nat -> list (option node * node) -> Prop :=
| n_nil : forall md d, entries md (S d) []
| n_value : forall md d n l, md <> mode_dictionary -> tree d n -> entries md d l -> entries md d ((None, n) :: l)
| n_keyword : forall d x v l, identifier x -> tree d v -> entries mode_arguments d l ->
    entries mode_arguments d ((Some (NId x), v) :: l)
| n_entry : forall d k v l, tree d k -> tree d v -> entries mode_dictionary d l ->
    entries mode_dictionary d ((Some k, v) :: l).

(** ** Programs: each statement is on a line *)
Fixpoint print_stmt (st : stmt) : list bytes :=
  let lines := flat_map (fun st => print_stmt st ++ [[NL]]) in
  match st with
  | StExpr n => print n
  | StAssign x n => x :: B "=" :: print n
  | StPlusAssign x n => x :: B "+=" :: print n
  | StIf c b r =>
      B "if" :: print c ++ [NL] :: lines b
      ++ (fix clauses r := match r with
                           | NoClause => []
                           | Elif c b r => B "elif" :: print c ++ [NL] :: lines b ++ clauses r
                           | Else b => B "else" :: [NL] :: lines b
                           end) r
      ++ [B "endif"]
  | StForeach x y n b =>
      B "foreach" :: x :: match y with Some y => [B ","; y] | None => [] end ++ B ":" :: print n ++ [NL] :: lines b
      ++ [B "endforeach"]
  | StContinue => [B "continue"]
  | StBreak => [B "break"]
  end.
Definition print_program (p : list stmt) : list bytes := flat_map (fun st => print_stmt st ++ [[NL]]) p.

(** [writable ign d k st]: the statement st, inside k loops, has expressions of height at most d only,
    and unless ign all its statements have an effect *)
Section WRITABLE.
Context (ign : bool) (d : nat).
Inductive writable : nat -> stmt -> Prop :=
| w_stmt : forall k st, ign = true \/ stmt_effect st -> written k st -> writable k st
with written : nat -> stmt -> Prop :=
| w_expr : forall k n, tree d n -> written k (StExpr n)
| w_assign : forall k x n, identifier x -> tree d n -> written k (StAssign x n)
| w_plus_assign : forall k x n, identifier x -> tree d n -> written k (StPlusAssign x n)
| w_if : forall k c b r, tree d c -> writable_list k b -> writable_clause k r -> written k (StIf c b r)
| w_foreach : forall k x n b, identifier x -> tree d n -> writable_list (S k) b -> written k (StForeach x None n b)
| w_foreach2 : forall k x y n b, identifier x -> identifier y -> tree d n -> writable_list (S k) b ->
    written k (StForeach x (Some y) n b)
| w_continue : forall k, written (S k) StContinue
| w_break : forall k, written (S k) StBreak
with writable_clause : nat -> clause -> Prop :=
| w_none : forall k, writable_clause k NoClause
| w_elif : forall k c b r, tree d c -> writable_list k b -> writable_clause k r -> writable_clause k (Elif c b r)
| w_else : forall k b, writable_list k b -> writable_clause k (Else b)
with writable_list : nat -> list stmt -> Prop :=
| w_nil : forall k, writable_list k []
| w_cons : forall k st l, writable k st -> writable_list k l -> writable_list k (st :: l).
End WRITABLE.

(** ** Sequences of operators and operands without parentheses
    The table, from the weakest to the strongest.  Arithmetic groups to the left, and and or to the
    right, comparisons not at all. *)
Inductive binop := bin_or | bin_and | bin_cmp (op : comparison_type) | bin_arith (op : arithmetic_type).
Definition strength (o : binop) : nat :=
  match o with bin_or => 1 | bin_and => 2 | bin_cmp _ => 3 | bin_arith op => prec op end.
Definition groups_left (o : binop) : Prop := match o with bin_arith _ => True | _ => False end.
Definition groups_right (o : binop) : Prop := match o with bin_or | bin_and => True | _ => False end.
Definition bin_words (o : binop) : list bytes :=
  match o with bin_or => [B "or"] | bin_and => [B "and"] | bin_cmp op => compare_words op | bin_arith op => [arith_word op] end.
Definition bin_node (o : binop) (a b : node) : node :=
  match o with bin_or => NOr a b | bin_and => NAnd a b | bin_cmp op => NCmp op a b | bin_arith op => NArith op a b end.

(** A grouping of a sequence of operands and operators *)
Inductive grouping := One (n : node) | Two (o : binop) (l r : grouping).
Fixpoint value (t : grouping) : node := match t with One n => n | Two o l r => bin_node o (value l) (value r) end.
(** the sequence: the first operand, and the operators with the operands after them *)
Definition sequence := (node * list (binop * node))%type.
Definition sequence_words (s : sequence) : list bytes :=
  operand (fst s) ++ flat_map (fun p => bin_words (fst p) ++ operand (snd p)) (snd s).
Fixpoint sequence_of (t : grouping) : sequence :=
  match t with
  | One n => (n, [])
  | Two o l r => (fst (sequence_of l), snd (sequence_of l) ++ (o, fst (sequence_of r)) :: snd (sequence_of r))
  end.
(** The grouping follows the table: on each side of an operator there is an operand, a stronger
    operator, or an operator of the same strength on the side to which it groups. *)
Definition stronger_left (o : binop) (t : grouping) : Prop :=
  match t with One _ => True | Two o' _ _ => strength o < strength o' \/ (strength o = strength o' /\ groups_left o) end.
Definition stronger_right (o : binop) (t : grouping) : Prop :=
  match t with One _ => True | Two o' _ _ => strength o < strength o' \/ (strength o = strength o' /\ groups_right o) end.
Fixpoint grouped (t : grouping) : Prop :=
  match t with One _ => True | Two o l r => stronger_left o l /\ stronger_right o r /\ grouped l /\ grouped r end.
