(** What the syntax trees of the formatter stand for.  Of the model only the types of the trees and of its options are
    used; the meaning of texts is that of the lexer's and the parser's specification (S_Lexer, S_Parser).

    Comments: those on lines of their own, and those after an expression that ends an argument, an element or a line.
    [c] below are the comments of the whole expression; its parts have none. *)
From Coq Require Import Permutation.
From Verif Require Import Base M_Lexer S_Lexer M_Parser S_Parser M_Fmt.

(** Comments as the lexer makes them, and not longer than 4000 bytes *)
Definition good_comment (x : bytes) : Prop := ~ In NL x /\ ~ In NUL x /\ length x <= 4000.
Definition good_comments (cs : comments) : Prop := Forall good_comment cs.

(** strings that begin with a minus sign *)
Definition option_text (s : bytes) : Prop :=
  exists q r, In q [[QUOTE]; three; "f"%char :: [QUOTE]; "f"%char :: three] /\ s = q ++ "-"%char :: r.
(** an element may have a comment after it unless it is such a string *)
Definition may_have (c : comments) (v : fnode) : Prop :=
  good_comments c /\ (c <> [] -> forall s c', v = FStr s c' -> ~ option_text s).

(** [stands_expr d c T n], [stands k d c T n]: the tree T stands for the expression n, as in the grammar S_Parser.expr and
    S_Parser.level.  Calls of files() are for the files in any order, and a list as their only argument may be opened;
    what stands after them in the chain, and the comments, are as for a call without arguments. *)
Inductive stands_expr : nat -> comments -> fnode -> node -> Prop :=
| x_level : forall d c t n, stands 1 d c t n -> stands_expr (S d) c t n
| x_ternary : forall d c q a b nq na nb, stands 1 d [] q nq -> stands_expr d [] a na -> stands_expr d [] b nb ->
    stands_expr (S d) c (FTernary q a b c) (NTernary nq na nb)
with stands : nat -> nat -> comments -> fnode -> node -> Prop :=
| x_up : forall k d c t n, 1 <= k -> stands (S k) d c t n -> stands k d c t n
| x_or : forall d c a b na nb, stands 2 d [] a na -> stands 1 d [] b nb -> stands 1 d c (FOr a b c) (NOr na nb)
| x_and : forall d c a b na nb, stands 3 d [] a na -> stands 2 d [] b nb -> stands 2 d c (FAnd a b c) (NAnd na nb)
| x_compare : forall d c op a b na nb, stands 4 d [] a na -> stands 4 d [] b nb ->
    stands 3 d c (FCmp op a b c) (NCmp op na nb)
| x_arith : forall d c op a b na nb, stands (prec op) d [] a na -> stands (S (prec op)) d [] b nb ->
    stands (prec op) d c (FArith op a b c) (NArith op na nb)
| x_format : forall d c body us n, pieces body us -> level false 4 d n us ->
    stands 4 d c (FStr ("f"%char :: QUOTE :: body ++ [QUOTE]) c) n
| x_not : forall d c a n, stands 10 d [] a n -> stands 9 d c (FNot a c) (NNot n)
| x_minus : forall d c a n, stands 10 d [] a n -> stands 9 d c (FMinus a c) (NMinus n)
| x_chain : forall d c h k l nh nl, stands 11 d [] h nh -> stands_links d c (k :: l) nl ->
    stands 10 d c (FChain h k l) (NChain nh nl)
| x_files : forall d c args comma ck l ns ns' nl,
    stands_args mode_arguments d args ns -> Permutation ns ns' -> stands_links d c (KCall [] false ck :: l) (LCall [] :: nl) ->
    stands 10 d c (FChain (FId (B "files") []) (KCall args comma ck) l) (NChain (NId (B "files")) (LCall ns' :: nl))
| x_files_list : forall d c o args comma c' comma' ck l ns ns' nl,
    stands_args mode_array d args ns -> Permutation ns ns' -> stands_links (S d) c (KCall [] false ck :: l) (LCall [] :: nl) ->
    stands 10 (S d) c (FChain (FId (B "files") []) (KCall [AVal (FArray o args comma c')] comma' ck) l)
           (NChain (NId (B "files")) (LCall ns' :: nl))
| x_paren : forall d c a n, stands_expr d [] a n -> stands 11 d c (FParen [] a c) n
| x_array : forall d c l comma ns, stands_args mode_array d l ns -> stands 11 d c (FArray [] l comma c) (NArray ns)
| x_dict : forall d c l comma ns, stands_args mode_dictionary d l ns -> stands 11 d c (FDict [] l comma c) (NDict ns)
| x_bool : forall d c b, stands 11 d c (FBool b c) (NBool b)
| x_id : forall d c x, identifier x -> stands 11 d c (FId x c) (NId x)
| x_number : forall d c s v, number_text s v -> stands 11 d c (FNum s c) (NNum (Z.of_N v))
| x_string : forall d c body s, denotes body s -> stands 11 d c (FStr (QUOTE :: body ++ [QUOTE]) c) (NStr s)
| x_raw : forall d c s, raw s -> stands 11 d c (FStr (three ++ s ++ three) c) (NStr s)
with stands_links : nat -> comments -> list flink -> list link -> Prop :=
| x_last : forall d c k nk, stands_link d c k nk -> stands_links d c [k] [nk]
| x_next : forall d c k l nk nl, stands_link d [] k nk -> stands_links d c l nl -> stands_links d c (k :: l) (nk :: nl)
with stands_link : nat -> comments -> flink -> link -> Prop :=
| x_method : forall d c m l comma ns, identifier m -> stands_args mode_arguments d l ns ->
    stands_link d c (KMethod m [] l comma c) (LMethod m ns)
| x_index : forall d c i n, stands_expr d [] i n -> stands_link d c (KIndex i c) (LIndex n)
| x_call : forall d c l comma ns, stands_args mode_arguments d l ns -> stands_link d c (KCall l comma c) (LCall ns)
with stands_args : list_mode -> nat -> list farg -> list (option node * node) -> Prop :=
| x_none : forall md d, stands_args md (S d) [] []
| x_line : forall md d c l ns, good_comments c -> stands_args md d l ns -> stands_args md d (ALine c :: l) ns
| x_value : forall md d c v l n ns, md <> mode_dictionary -> stands_expr d c v n -> may_have c v -> stands_args md d l ns ->
    stands_args md d (AVal v :: l) ((None, n) :: ns)
| x_keyword : forall d c x v l n ns, identifier x -> stands_expr d c v n -> may_have c v -> stands_args mode_arguments d l ns ->
    stands_args mode_arguments d (AKw (FId x []) v :: l) ((Some (NId x), n) :: ns)
| x_entry : forall d c k v l nk n ns, stands_expr d [] k nk -> stands_expr d c v n -> may_have c v ->
    stands_args mode_dictionary d l ns -> stands_args mode_dictionary d (AKw k v :: l) ((Some nk, n) :: ns).

(** Expressions without + - % * / outside of brackets *)
Fixpoint calm (t : fnode) : Prop :=
  match t with
  | FArith _ _ _ _ => False
  | FNot a _ | FMinus a _ => calm a
  | FCmp _ a b _ | FAnd a b _ | FOr a b _ => calm a /\ calm b
  | FTernary q a b _ => calm q /\ calm a /\ calm b
  | FChain h _ _ => calm h
  | _ => True
  end.

(** The lines of a file.  After a line there is at most one comment.  An expression that is a line of its own is calm;
    with [sp], all are: this is for the option space_array. *)
Definition after_line (c : comments) : Prop := good_comments c /\ length c <= 1.
Section PROGRAM.
Context (sp ign : bool) (d : nat).
Inductive stands_lines : nat -> list fstmt -> list stmt -> Prop :=
| y_end : forall k, stands_lines k [] []
| y_line : forall k c l ps, good_comments c -> stands_lines k l ps -> stands_lines k (TLine c :: l) ps
| y_stmt : forall k t l p ps, stands_stmt k t p -> ign = true \/ stmt_effect p -> stands_lines k l ps ->
    stands_lines k (t :: l) (p :: ps)
with stands_stmt : nat -> fstmt -> stmt -> Prop :=
| y_expr : forall k c t n, stands_expr d c t n -> after_line c -> calm t -> stands_stmt k (TExpr t) (StExpr n)
| y_assign : forall k c x t n, identifier x -> stands_expr d c t n -> after_line c -> (sp = true -> calm t) ->
    stands_stmt k (TAssign x [] t []) (StAssign x n)
| y_plus_assign : forall k c x t n, identifier x -> stands_expr d c t n -> after_line c -> (sp = true -> calm t) ->
    stands_stmt k (TPlusAssign x [] t []) (StPlusAssign x n)
| y_if : forall k cq c q nq b nb r nr, stands_expr d cq q nq -> after_line cq -> (sp = true -> calm q) ->
    stands_lines k b nb -> stands_clause k r nr ->
    after_line c -> stands_stmt k (TIf q b [] r c) (StIf nq nb nr)
| y_foreach : forall k ct c x t n b nb, identifier x -> stands_expr d ct t n -> after_line ct -> (sp = true -> calm t) ->
    stands_lines (S k) b nb ->
    after_line c -> stands_stmt k (TForeach x [] None t b [] c) (StForeach x None n nb)
| y_foreach2 : forall k ct c x y t n b nb, identifier x -> identifier y -> stands_expr d ct t n -> after_line ct -> (sp = true -> calm t) ->
    stands_lines (S k) b nb -> after_line c ->
    stands_stmt k (TForeach x [] (Some (y, [])) t b [] c) (StForeach x (Some y) n nb)
| y_continue : forall k c, after_line c -> stands_stmt (S k) (TContinue c) StContinue
| y_break : forall k c, after_line c -> stands_stmt (S k) (TBreak c) StBreak
with stands_clause : nat -> fclause -> clause -> Prop :=
| y_none : forall k, stands_clause k FNoClause NoClause
| y_elif : forall k cq q nq b nb r nr, stands_expr d cq q nq -> after_line cq -> (sp = true -> calm q) ->
    stands_lines k b nb -> stands_clause k r nr ->
    stands_clause k (FElif q b [] r) (Elif nq nb nr)
| y_else : forall k b nb, stands_lines k b nb -> stands_clause k (FElse b []) (Else nb).
End PROGRAM.
(** [stands_file]: a whole file stands for a program *)
Definition stands_file (sp ign : bool) (d : nat) (b : list fstmt) (p : list stmt) : Prop := stands_lines sp ign d 0 b p.

(** The text by which a line is indented *)
Definition blank_text (s : bytes) : Prop := Forall (fun c => c = " "%char \/ c = TAB) s.

(** ** The same program
    [same n n']: the two expressions are the same, except that the arguments of files() can be in another order, in both or
    in one of them in a list. *)
Definition listed (a l : list (option node * node)) : Prop := a = l \/ a = [(None, NArray l)].
Inductive same : node -> node -> Prop :=
| s_same : forall n, same n n
| s_array : forall l l', Forall2 same_arg l l' -> same (NArray l) (NArray l')
| s_dict : forall l l', Forall2 same_arg l l' -> same (NDict l) (NDict l')
| s_not : forall a a', same a a' -> same (NNot a) (NNot a')
| s_minus : forall a a', same a a' -> same (NMinus a) (NMinus a')
| s_arith : forall op a b a' b', same a a' -> same b b' -> same (NArith op a b) (NArith op a' b')
| s_compare : forall op a b a' b', same a a' -> same b b' -> same (NCmp op a b) (NCmp op a' b')
| s_and : forall a b a' b', same a a' -> same b b' -> same (NAnd a b) (NAnd a' b')
| s_or : forall a b a' b', same a a' -> same b b' -> same (NOr a b) (NOr a' b')
| s_ternary : forall q a b q' a' b', same q q' -> same a a' -> same b b' -> same (NTernary q a b) (NTernary q' a' b')
| s_chain : forall h l h' l', same h h' -> Forall2 same_link l l' -> same (NChain h l) (NChain h' l')
| s_files : forall a a' l m l' ls ls', listed a l -> listed a' l' -> Forall2 same_arg l m -> Permutation m l' ->
    Forall2 same_link ls ls' -> same (NChain (NId (B "files")) (LCall a :: ls)) (NChain (NId (B "files")) (LCall a' :: ls'))
with same_arg : option node * node -> option node * node -> Prop :=
| s_value : forall n n', same n n' -> same_arg (None, n) (None, n')
| s_key : forall k n k' n', same k k' -> same n n' -> same_arg (Some k, n) (Some k', n')
with same_link : link -> link -> Prop :=
| s_method : forall m l l', Forall2 same_arg l l' -> same_link (LMethod m l) (LMethod m l')
| s_index : forall i i', same i i' -> same_link (LIndex i) (LIndex i')
| s_call : forall l l', Forall2 same_arg l l' -> same_link (LCall l) (LCall l').
Inductive same_stmt : stmt -> stmt -> Prop :=
| s_expr : forall n n', same n n' -> same_stmt (StExpr n) (StExpr n')
| s_assign : forall x n n', same n n' -> same_stmt (StAssign x n) (StAssign x n')
| s_plus_assign : forall x n n', same n n' -> same_stmt (StPlusAssign x n) (StPlusAssign x n')
| s_if : forall c b r c' b' r', same c c' -> Forall2 same_stmt b b' -> same_clause r r' -> same_stmt (StIf c b r) (StIf c' b' r')
| s_foreach : forall x y n b n' b', same n n' -> Forall2 same_stmt b b' -> same_stmt (StForeach x y n b) (StForeach x y n' b')
| s_continue : same_stmt StContinue StContinue
| s_break : same_stmt StBreak StBreak
with same_clause : clause -> clause -> Prop :=
| s_no_clause : same_clause NoClause NoClause
| s_elif : forall c b r c' b' r', same c c' -> Forall2 same_stmt b b' -> same_clause r r' -> same_clause (Elif c b r) (Elif c' b' r')
| s_else : forall b b', Forall2 same_stmt b b' -> same_clause (Else b) (Else b').
