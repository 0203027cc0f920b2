(** The parser of build files: src/lang/parser.c, without the formatter's mode (pm_keep_formatting) and
    without function definitions (pm_functions).

    Simplifications.  The nodes are a tree instead of an array of nodes that refer to each other.  The
    list of arguments is a list instead of a chain of argument nodes; the empty node that a trailing
    comma leaves at its end is left out.  A chain of method calls, indices and calls is its first
    operand and the list of its links.  Lines, columns, error messages and the objects that
    the parser makes for literals are left out. *)
From Verif Require Import Base M_Format M_Lexer.

(** include/lang/parser.h 19-36 *)
Inductive comparison_type :=
| comp_equal | comp_nequal | comp_lt | comp_le | comp_gt | comp_ge | comp_in | comp_not_in.
Inductive arithmetic_type := arith_add | arith_sub | arith_mod | arith_mul | arith_div.

(** include/lang/parser.h 49-104: nodes of expressions.  An argument has a key if it is a keyword
    argument or an entry of a dictionary. *)
Inductive node :=
| NEmpty
| NBool (b : bool) | NId (x : bytes) | NNum (n : Z) | NStr (s : bytes)
| NArray (l : list (option node * node)) | NDict (l : list (option node * node))
| NNot (n : node) | NMinus (n : node) | NStringify (n : node)
| NArith (op : arithmetic_type) (a b : node)
| NCmp (op : comparison_type) (a b : node)
| NAnd (a b : node) | NOr (a b : node) | NTernary (c a b : node)
| NChain (h : node) (l : list link)
with link :=
| LMethod (m : bytes) (l : list (option node * node))
| LIndex (i : node)
| LCall (l : list (option node * node)).

(** and of statements: [clause] is what follows the block of an if: nothing, an elif, or an else *)
Inductive stmt :=
| StExpr (n : node) | StAssign (x : bytes) (n : node) | StPlusAssign (x : bytes) (n : node)
| StIf (c : node) (b : list stmt) (r : clause)
| StForeach (x : bytes) (y : option bytes) (n : node) (b : list stmt)
| StContinue | StBreak
with clause := NoClause | Elif (c : node) (b : list stmt) (r : clause) | Else (b : list stmt).

(** struct parser, src/lang/parser.c 27-37: [ptoks] are the tokens from p->last on *)
Record ps := mkPs {
  ptoks : list token; depth : N; loop_depth : nat; effect : bool; valid : bool
}.
Definition with_toks t s := mkPs t (depth s) (loop_depth s) (effect s) (valid s).
Definition with_depth d s := mkPs (ptoks s) d (loop_depth s) (effect s) (valid s).
Definition with_loops d s := mkPs (ptoks s) (depth s) d (effect s) (valid s).
Definition with_effect e s := mkPs (ptoks s) (depth s) (loop_depth s) e (valid s).
Definition with_valid v s := mkPs (ptoks s) (depth s) (loop_depth s) (effect s) v.

(** [PErr]: the function returned false after an error message; [PAbort]: a failed assertion *)
Inductive pres (A : Type) := POk (s : ps) (a : A) | PErr (s : ps) | PAbort | PNoFuel.
Arguments POk {A}. Arguments PErr {A}. Arguments PAbort {A}. Arguments PNoFuel {A}.
Definition P (A : Type) := ps -> pres A.
Definition ret {A} (a : A) : P A := fun s => POk s a.
Definition perr {A} : P A := fun s => PErr s.
Definition bind {A B} (m : P A) (f : A -> P B) : P B := fun s =>
  match m s with POk s a => f a s | PErr s => PErr s | PAbort => PAbort | PNoFuel => PNoFuel end.
Definition modify (f : ps -> ps) : P unit := fun s => POk (f s) tt.
Notation "'do' x <- a ; b" := (bind a (fun x => b)) (at level 200, x pattern, a at level 100, b at level 200).
Notation "a ;; b" := (bind a (fun _ => b)) (at level 199, right associativity).

Definition ttype_dec (a b : ttype) : {a = b} + {a <> b}.
Proof. decide equality. Defined.
Definition is_type (t : ttype) (k : token) : bool := if ttype_dec (ty k) t then true else false.

(** src/lang/parser.c 102-115 get_next_tok: the last token is never left *)
Definition next_toks (l : list token) : list token := match l with _ :: ((_ :: _) as r) => r | _ => l end.
(** src/lang/parser.c 139-156 accept *)
Definition last_is (t : ttype) (s : ps) : bool := match ptoks s with k :: _ => is_type t k | [] => false end.
Definition get_next_tok : P unit := modify (fun s => with_toks (next_toks (ptoks s)) s).
Definition accept (t : ttype) : P bool := fun s =>
  if last_is t s then POk (with_toks (next_toks (ptoks s)) s) true else POk s false.
(** src/lang/parser.c 158-169 expect *)
Definition expect (t : ttype) : P unit := do b <- accept t; if b then ret tt else perr.
(** accept of a token with data, which make_node copies (src/lang/parser.c 186-199) *)
Definition accept_data (t : ttype) : P (option token) := fun s =>
  match ptoks s with
  | k :: _ => if is_type t k then POk (with_toks (next_toks (ptoks s)) s) (Some k) else POk s None
  | [] => POk s None
  end.
(** src/lang/parser.c 171-178 consume_until *)
Fixpoint drop_until (t : ttype) (l : list token) : list token :=
  match l with
  | k :: ((_ :: _) as r) => if is_type t k || is_type tok_eof k then l else drop_until t r
  | _ => l
  end.
Definition consume_until (t : ttype) : P unit := modify (fun s => with_toks (drop_until t (ptoks s)) s).

Definition is_empty (n : node) : bool := match n with NEmpty => true | _ => false end.
(** src/lang/parser.c 345-356 check_binary_operands *)
Definition check_binary (a b : node) : P unit := if is_empty a || is_empty b then perr else ret tt.

(** enum parse_list_mode, src/lang/parser.c 453-459 *)
Inductive list_mode := mode_array | mode_dictionary | mode_arguments.

Section EXPR.
Variable E : P node.      (* parse_expr *)

(** src/lang/parser.c 461-558 parse_list_recurse *)
Fixpoint parse_list (fuel : nat) (mode : list_mode) : P (list (option node * node)) :=
  match fuel with
  | 0 => fun _ => PNoFuel
  | S fuel =>
      do s <- E;
      if is_empty s then ret []
      else
        do have_colon <- match mode with
                         | mode_arguments => accept tok_colon
                         | mode_dictionary => expect tok_colon;; ret true
                         | mode_array => ret false
                         end;
        do item <- (if have_colon then
                      match mode, s with
                      | mode_arguments, NId _ | mode_dictionary, _ =>
                          do v <- E;
                          if is_empty v then perr else ret (Some s, v)
                      | _, _ => perr
                      end
                    else ret (None, s));
        do comma <- accept tok_comma;
        if comma then do l <- parse_list fuel mode; ret (item :: l) else ret [item]
  end.

(** src/lang/parser.c 582-605 parse_index_call *)
Definition parse_index : P link :=
  do r <- E;
  if is_empty r then fun _ => PAbort
  else expect tok_rbrack;; ret (LIndex r).

(** src/lang/parser.c 659-697 parse_e9 *)
Definition parse_e9 : P node :=
  do t <- accept tok_true;
  if t then ret (NBool true) else
  do f <- accept tok_false;
  if f then ret (NBool false) else
  do i <- accept_data tok_identifier;
  match i with Some k => ret (NId (str k)) | None =>
  do n <- accept_data tok_number;
  match n with Some k => ret (NNum (num k)) | None =>
  do s <- accept_data tok_string;
  match s with Some k => ret (NStr (str k)) | None => ret NEmpty end end end.

(** src/lang/parser.c 699-749 parse_method_call *)
Definition parse_method (fuel : nat) : P link :=
  modify (with_effect true);;
  do i <- accept_data tok_identifier;
  match i with
  | None => perr
  | Some k =>
      expect tok_lparen;;
      do args <- parse_list fuel mode_arguments;
      expect tok_rparen;; ret (LMethod (str k) args)
  end.

(** src/lang/parser.c 751-814 parse_e8 *)
Definition parse_e8 (fuel : nat) : P node :=
  do p <- accept tok_lparen;
  if p then
    do v <- E;
    expect tok_rparen;;
    if is_empty v then perr else ret v
  else
    do b <- accept tok_lbrack;
    if b then do l <- parse_list fuel mode_array; expect tok_rbrack;; ret (NArray l)
    else
      do c <- accept tok_lcurl;
      if c then do l <- parse_list fuel mode_dictionary; expect tok_rcurl;; ret (NDict l)
      else parse_e9.

(** src/lang/parser.c 816-888 parse_chained: the links *)
Fixpoint parse_chained (fuel : nat) (l_empty : bool) : P (list link) :=
  match fuel with
  | 0 => fun _ => PNoFuel
  | S fuel =>
      do d <- accept tok_dot;
      if d then
        if l_empty then perr
        else do k <- parse_method fuel; do l <- parse_chained fuel false; ret (k :: l)
      else
        do b <- accept tok_lbrack;
        if b then
          if l_empty then perr
          else do k <- parse_index; do l <- parse_chained fuel false; ret (k :: l)
        else
          do p <- accept tok_lparen;
          if p then
            if l_empty then perr
            else
              modify (with_effect true);;
              do args <- parse_list fuel mode_arguments;
              expect tok_rparen;;
              do l <- parse_chained fuel false; ret (LCall args :: l)
          else ret []
  end.

(** src/lang/parser.c 890-903 parse_e7 *)
Definition parse_e7 (fuel : nat) : P node :=
  do h <- parse_e8 fuel;
  do l <- parse_chained fuel (is_empty h);
  ret (match l with [] => h | _ => NChain h l end).

(** src/lang/parser.c 905-937 parse_e6 *)
Definition parse_e6 (fuel : nat) : P node :=
  let unary (f : node -> node) := do n <- parse_e7 fuel; if is_empty n then perr else ret (f n) in
  do n <- accept tok_not;
  if n then unary NNot else
  do m <- accept tok_minus;
  if m then unary NMinus else
  do s <- accept tok_stringify;
  if s then unary NStringify else parse_e7 fuel.

(** src/lang/parser.c 939-1004 parse_arith_upper and parse_arith; [arith_types] are the levels from
    arith_add up *)
Definition arith_tok (op : arithmetic_type) : ttype :=
  match op with
  | arith_add => tok_plus | arith_sub => tok_minus | arith_mod => tok_modulo
  | arith_mul => tok_star | arith_div => tok_slash
  end.
Definition arith_types : list arithmetic_type := [arith_add; arith_sub; arith_mod; arith_mul; arith_div].
Fixpoint arith_loop (upper : P node) (op : arithmetic_type) (fuel : nat) (l : node) : P node :=
  match fuel with
  | 0 => fun _ => PNoFuel
  | S fuel =>
      do b <- accept (arith_tok op);
      if b then
        do r <- upper;
        check_binary l r;;
        arith_loop upper op fuel (NArith op l r)
      else ret l
  end.
Fixpoint parse_arith (fuel : nat) (ops : list arithmetic_type) : P node :=
  match ops with
  | [] => parse_e6 fuel
  | op :: ops =>
      do l <- parse_arith fuel ops;
      arith_loop (parse_arith fuel ops) op fuel l
  end.
(** src/lang/parser.c 1006-1010 parse_e5 *)
Definition parse_e5 (fuel : nat) : P node := parse_arith fuel arith_types.

(** src/lang/parser.c 1012-1062 make_comparison_node and parse_e4 *)
Definition comparisons : list (ttype * comparison_type) :=
  [(tok_eq, comp_equal); (tok_neq, comp_nequal); (tok_lt, comp_lt); (tok_leq, comp_le); (tok_gt, comp_gt);
   (tok_geq, comp_ge); (tok_in, comp_in)].
Definition make_comparison (fuel : nat) (l : node) (c : comparison_type) : P node :=
  do r <- parse_e5 fuel;
  check_binary l r;; ret (NCmp c l r).
Fixpoint try_comparisons (fuel : nat) (l : node) (cs : list (ttype * comparison_type)) : P node :=
  match cs with
  | (t, c) :: cs =>
      do b <- accept t;
      if b then make_comparison fuel l c else try_comparisons fuel l cs
  | [] =>
      do n <- accept tok_not;
      if n then
        do i <- accept tok_in;
        if i then make_comparison fuel l comp_not_in else ret l
      else ret l
  end.
Definition parse_e4 (fuel : nat) : P node := do l <- parse_e5 fuel; try_comparisons fuel l comparisons.

(** src/lang/parser.c 1064-1091 parse_e3 and 1093-1120 parse_e2 *)
Fixpoint parse_e3 (loop fuel : nat) : P node :=
  match loop with
  | 0 => fun _ => PNoFuel
  | S loop =>
      do l <- parse_e4 fuel;
      do b <- accept tok_and;
      if b then do r <- parse_e3 loop fuel; check_binary l r;; ret (NAnd l r)
      else ret l
  end.
Fixpoint parse_e2 (loop fuel : nat) : P node :=
  match loop with
  | 0 => fun _ => PNoFuel
  | S loop =>
      do l <- parse_e3 fuel fuel;
      do b <- accept tok_or;
      if b then do r <- parse_e2 loop fuel; check_binary l r;; ret (NOr l r)
      else ret l
  end.
End EXPR.

(** src/lang/parser.c 1122-1176 parse_expr: the depth is restored also after an error *)
Definition at_depth {A} (m : P A) : P A := fun s =>
  let s1 := with_depth (depth s + 1)%N s in
  if (4096 <? depth s1)%N then PErr s
  else match m s1 with
       | POk s2 a => POk (with_depth (depth s2 - 1)%N s2) a
       | PErr s2 => PErr (with_depth (depth s2 - 1)%N s2)
       | r => r
       end.
Fixpoint parse_expr (fuel : nat) : P node :=
  match fuel with
  | 0 => fun _ => PNoFuel
  | S f =>
      at_depth (
        do l <- parse_e2 (parse_expr f) fuel fuel;
        do q <- accept tok_question_mark;
        if q then
          do a <- parse_expr f;
          expect tok_colon;;
          do b <- parse_expr f;
          if is_empty l || is_empty a || is_empty b then perr else ret (NTernary l a b)
        else ret l)
  end.

(** src/lang/parser.c 1178-1234 parse_assignment; [None]: the node is empty *)
Definition parse_assignment (fuel : nat) : P (option stmt) :=
  do l <- parse_expr fuel;
  let rhs (f : bytes -> node -> stmt) :=
    modify (with_effect true);;
    match l with
    | NId x => do v <- parse_expr fuel; if is_empty v then perr else ret (Some (f x v))
    | _ => perr
    end in
  do p <- accept tok_plus_assign;
  if p then rhs StPlusAssign else
  do a <- accept tok_assign;
  if a then rhs StAssign
  else ret (if is_empty l then None else Some (StExpr l)).

Section STMT.
Variable ignore : bool.                  (* pm_ignore_statement_with_no_effect *)
Variable fuel : nat.                     (* of expressions *)
Variable Block : P (list stmt).          (* parse_block; an empty block is the empty node *)

(** src/lang/parser.c 1276-1278, 1358-1360: a block that is not empty has an effect *)
Definition block_effect (b : list stmt) : P unit :=
  match b with [] => ret tt | _ => modify (with_effect true) end.

(** src/lang/parser.c 1236-1288 parse_if, from after the keyword, for an elif or an else *)
Fixpoint parse_clauses (loop : nat) : P clause :=
  match loop with
  | 0 => fun _ => PNoFuel
  | S loop =>
      do e <- accept tok_elif;
      if e then
        do c <- parse_expr fuel;
        if is_empty c then perr
        else
          expect tok_eol;;
          do b <- Block;
          do r <- parse_clauses loop;
          block_effect b;; ret (Elif c b r)
      else
        do e <- accept tok_else;
        if e then
          expect tok_eol;;
          do b <- Block;
          block_effect b;; ret (Else b)
        else ret NoClause
  end.
(** ... and for the if itself *)
Definition parse_if : P stmt :=
  do c <- parse_expr fuel;
  if is_empty c then perr
  else
    expect tok_eol;;
    do b <- Block;
    do r <- parse_clauses fuel;
    block_effect b;; ret (StIf c b r).

(** src/lang/parser.c 1290-1317 parse_foreach_args and 1319-1369 parse_foreach *)
Definition expect_identifier : P bytes :=
  do i <- accept_data tok_identifier;
  match i with Some k => ret (str k) | None => perr end.
Definition parse_foreach : P stmt :=
  do x <- expect_identifier;
  do c <- accept tok_comma;
  do y <- (if c then do y <- expect_identifier; ret (Some y) else ret None);
  expect tok_colon;;
  do n <- parse_expr fuel;
  expect tok_eol;;
  if is_empty n then perr
  else
    modify (fun s => with_loops (S (loop_depth s)) s);;
    do b <- Block;
    modify (fun s => with_loops (pred (loop_depth s)) s);;
    block_effect b;; ret (StForeach x y n b).

(** src/lang/parser.c 1372-1486 parse_line.  [None]: the empty node.  [recover m t]: if m fails, the
    tokens up to t are skipped and the result is a failure after t was accepted. *)
Fixpoint drop_eols (l : list token) : list token :=
  match l with
  | k :: ((_ :: _) as r) => if is_type tok_eol k then drop_eols r else l
  | _ => l
  end.
Definition block_end (k : token) : bool :=
  is_type tok_endforeach k || is_type tok_else k || is_type tok_elif k || is_type tok_endif k
  || is_type tok_endfunc k || is_type tok_eof k.
Definition recovered (m : P stmt) (t : ttype) : P (option (option stmt)) := fun s =>
  match m s with
  | POk s a => (expect t;; ret (Some (Some a))) s
  | PErr s => (consume_until t;; expect t;; ret None) s
  | PAbort => PAbort
  | PNoFuel => PNoFuel
  end.
Definition in_loop (st : stmt) : P (option (option stmt)) :=
  modify (with_effect true);;
  fun s => if loop_depth s =? 0 then PErr s else POk s (Some (Some st)).
Definition parse_line : P (option stmt) :=
  modify (fun s => with_toks (drop_eols (ptoks s)) s);;
  fun s =>
    match ptoks s with
    | [] => PNoFuel
    | k :: _ =>
        if block_end k then POk s None
        else
          let effect_old := effect s in
          (modify (with_effect false);;
           do i <- accept tok_if;
           do r <- (if i then recovered parse_if tok_endif
                    else
                      do f <- accept tok_foreach;
                      if f then recovered parse_foreach tok_endforeach
                      else
                        do c <- accept tok_continue;
                        if c then in_loop StContinue
                        else
                          do b <- accept tok_break;
                          if b then in_loop StBreak
                          else do st <- parse_assignment fuel; ret (Some st));
           fun s =>
             match r with
             | Some st =>
                 if negb ignore && negb (effect s) then PErr s
                 else POk (with_effect effect_old s) st
             | None => PErr (with_effect effect_old s)
             end) s
    end.
End STMT.

(** src/lang/parser.c 1490-1539 parse_block: after a line that fails the parser goes on with the next
    one.  The list of statements stands for the chain of blocks; the one that stands for a failed
    line is left out (the result is then not used).  It is never false. *)
Fixpoint parse_block (ignore : bool) (fuel : nat) : P (list stmt) :=
  match fuel with
  | 0 => fun _ => PNoFuel
  | S f =>
      (fix block (loop : nat) : P (list stmt) := fun s =>
         match loop with
         | 0 => PNoFuel
         | S loop =>
             let after (l : list stmt) : P (list stmt) :=
               do e <- accept tok_eol;
               if e then do r <- block loop; ret (l ++ r) else ret l in
             match parse_line ignore fuel (parse_block ignore f) s with
             | POk s (Some st) => after [st] s
             | POk s None => after [] s
             | PErr s => (modify (with_valid false);; consume_until tok_eol;; after []) s
             | PAbort => PAbort
             | PNoFuel => PNoFuel
             end
         end) fuel
  end.

(** src/lang/parser.c 1541-1596 parser_parse.  [Some]: it returned true. *)
Inductive parsed := Parsed (p : list stmt) | Rejected | Aborted | ParseNoFuel.
Definition parse_tokens (ignore : bool) (l : list token) : parsed :=
  match (do b <- parse_block ignore (S (length l)); expect tok_eof;; ret b) (mkPs l 0 0 false true) with
  | POk s b => if valid s then Parsed b else Rejected
  | PErr _ => Rejected
  | PAbort => Aborted
  | PNoFuel => ParseNoFuel
  end.
Definition parser_parse (ignore : bool) (src : bytes) : parsed :=
  match lexer_lex (mkMode false false) src with
  | None => ParseNoFuel
  | Some (false, _) => Rejected
  | Some (true, l) => parse_tokens ignore (toks l)
  end.
