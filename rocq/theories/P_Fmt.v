(** Properties of the formatter (muon fmt). *)
From Coq Require Import Permutation Lia.
From Verif Require Import Base M_Lexer S_Lexer M_Parser S_Parser L_Print M_Fmt S_Fmt L_FmtDry L_Fmt L_FmtSame P_Parser.
Local Arguments B _ : simpl never.

(** ** C113: formatting does not change the program *)
(** For every way of sorting, every indentation of blanks, every line length and every choice of the other options: if the tree
    stands for the program [p], what is written is read, and the program read is [p] but for the order of the arguments of files(). *)
Theorem C113_formatting_keeps_the_program_partial : forall o (qsort : (M_Fmt.item -> M_Fmt.item -> Z) -> list M_Fmt.item -> list M_Fmt.item) ign d b p,
  (forall cmp l, Permutation (qsort cmp l) l) -> blank_text (indent_by o) -> (N.of_nat (S d) <= 4096)%N ->
  stands_file (space_array o) ign d b p ->
  exists p', parser_parse ign (fmt o qsort b []) = Parsed p' /\ Forall2 same_stmt p p' /\ stands_file (space_array o) ign d b p'.
Proof.
  intros o qsort ign d b p Q I L H.
  destruct (whole_file o qsort Q I ign d b p H) as (ts & p' & T & P & H').
  exists p'. split; [exact (source_parses ign (S d) p' ts _ L P T) | split; [|exact H']].
  refine (proj1 (program_same (space_array o) ign d _) 0 b p H p' H').
  unfold ok. lia.
Qed.
Print Assumptions C113_formatting_keeps_the_program_partial.

(** An ordering by the comparison, for the examples *)
Fixpoint insert_by (cmp : M_Fmt.item -> M_Fmt.item -> Z) (x : M_Fmt.item) (l : list M_Fmt.item) : list M_Fmt.item :=
  match l with
  | [] => [x]
  | y :: r => if (cmp x y <=? 0)%Z then x :: l else y :: insert_by cmp x r
  end.
Fixpoint sort_by (cmp : M_Fmt.item -> M_Fmt.item -> Z) (l : list M_Fmt.item) : list M_Fmt.item :=
  match l with [] => [] | x :: r => insert_by cmp x (sort_by cmp r) end.
Lemma insert_by_permutes cmp x l : Permutation (insert_by cmp x l) (x :: l).
Proof.
  induction l as [|y r IH]; simpl; [constructor; constructor|].
  destruct (cmp x y <=? 0)%Z; [apply Permutation_refl|].
  eapply perm_trans; [apply perm_skip; exact IH|]. apply perm_swap.
Qed.
Lemma sort_by_permutes cmp l : Permutation (sort_by cmp l) l.
Proof.
  induction l as [|x r IH]; simpl; [constructor|].
  eapply perm_trans; [apply insert_by_permutes|]. apply perm_skip. exact IH.
Qed.
(** the options if there is no configuration (fmt.c 1104-1109) *)
Definition usual : fopts := FOpts false false false false 80 (B "    ").
Definition str_ (s : bytes) (c : comments) : fnode := FStr (QUOTE :: s ++ [QUOTE]) c.
Definition call_ (f : bytes) (l : list farg) (c : comments) : fnode := FChain (FId f []) (KCall l false c) [].
Definition example_tree : list fstmt :=
  [ TLine [B " sources"];
    TAssign (B "src") [] (call_ (B "files") [AVal (str_ (B "b.c") []); AVal (str_ (B "a.c") [])] [B " both"]) [];
    TLine [];
    TIf (FAnd (call_ (B "get_option") [AVal (str_ (B "x") [])] []) (FNot (FId (B "y") []) []) [])
      [ TForeach (B "i") [] None (FArray [] [AVal (FNum (B "1") []); AVal (FNum (B "20") [])] false [])
          [ TExpr (call_ (B "executable") [AVal (str_ (B "p") [B " name"]); AVal (FId (B "src") []);
                                           AKw (FId (B "link_args") []) (str_ (B "-l") [])] []);
            TBreak [] ] [] [] ] []
      (FElse [ TPlusAssign (B "src") [] (FParen [] (FArith arith_add (FId (B "a") []) (FMinus (FNum (B "1") []) []) []) []) [] ] [])
      [] ].
Definition example_program : list stmt :=
  [ StAssign (B "src") (NChain (NId (B "files")) [LCall [(None, NStr (B "b.c")); (None, NStr (B "a.c"))]]);
    StIf (NAnd (NChain (NId (B "get_option")) [LCall [(None, NStr (B "x"))]]) (NNot (NId (B "y"))))
      [ StForeach (B "i") None (NArray [(None, NNum 1); (None, NNum 20)])
          [ StExpr (NChain (NId (B "executable")) [LCall [(None, NStr (B "p")); (None, NId (B "src"));
                                                         (Some (NId (B "link_args")), NStr (B "-l"))]]);
            StBreak ] ]
      (Else [ StPlusAssign (B "src") (NArith arith_add (NId (B "a")) (NMinus (NNum 1))) ]) ].
Definition example_text : string :=
"# sources
src = files('a.c', 'b.c') # both

if get_option('x') and not y
    foreach i : [1, 20]
        executable(
            'p', # name
            src,
            link_args: '-l',
        )
        break
    endforeach
else
    src += (a + -1)
endif
".
Example C113_example_text : fmt usual sort_by example_tree [] = B example_text.
Proof. vm_compute. reflexivity. Qed.

Lemma one_ : number_text (B "1") 1.
Proof. apply (nt_decimal "1"%char [] 1%N); [discriminate| |reflexivity]. apply (num_snoc decimal_digit 10 [] 0%N "1"%char 1%N); [constructor|reflexivity]. Qed.
Lemma twenty_ : number_text (B "20") 20.
Proof. apply (nt_decimal "2"%char (B "0") 20%N); [discriminate| |reflexivity]. apply (num_snoc decimal_digit 10 (B "2") 2%N "0"%char 0%N); [|reflexivity]. apply (num_snoc decimal_digit 10 [] 0%N "2"%char 2%N); [constructor|reflexivity]. Qed.
Local Ltac ident_ := split; [eexists; eexists; split; [reflexivity|split; [reflexivity|repeat constructor]]
  | let t := fresh in let H := fresh in intros t H; vm_compute in H; intuition discriminate].
Local Ltac denotes_ := repeat first [apply den_nil | apply den_char; [discriminate|discriminate|discriminate|discriminate|]].
Local Ltac comments_ := repeat constructor; try lia; intros HH; vm_compute in HH; intuition discriminate.
Local Ltac may_ := split; [comments_|first [congruence | intros _ ? ? HH (q & r & Hq & E); injection HH as <- _; simpl in Hq; intuition (subst; discriminate)]].
Local Ltac tree_ :=
  lazymatch goal with
  | |- stands_expr _ _ _ _ => apply x_level; tree_
  | |- stands ?k _ _ (FAnd _ _ _) _ => lazymatch k with 2 => apply x_and; tree_ | _ => apply x_up; [lia|tree_] end
  | |- stands ?k _ _ (FNot _ _) _ => lazymatch k with 9 => apply x_not; tree_ | _ => apply x_up; [lia|tree_] end
  | |- stands ?k _ _ (FMinus _ _) _ => lazymatch k with 9 => apply x_minus; tree_ | _ => apply x_up; [lia|tree_] end
  | |- stands ?k _ _ (FArith arith_add _ _ _) _ =>
      lazymatch k with 4 => apply (x_arith _ _ arith_add); simpl; tree_ | _ => apply x_up; [lia|tree_] end
  | |- stands ?k _ _ (FChain (FId (B "files") _) _ _) _ =>
      lazymatch k with 10 => eapply x_files; [tree_|apply Permutation_refl|tree_] | _ => apply x_up; [lia|tree_] end
  | |- stands ?k _ _ (FChain _ _ _) _ => lazymatch k with 10 => apply x_chain; tree_ | _ => apply x_up; [lia|tree_] end
  | |- stands 11 _ _ (FId _ _) _ => apply x_id; ident_
  | |- stands 11 _ _ (FNum (B "1") _) _ => exact (x_number _ _ (B "1") 1%N one_)
  | |- stands 11 _ _ (FNum (B "20") _) _ => exact (x_number _ _ (B "20") 20%N twenty_)
  | |- stands 11 _ _ (str_ (B ?s) _) _ => apply (x_string _ _ (B s) (B s)); denotes_
  | |- stands 11 _ _ (FArray _ _ _ _) _ => apply x_array; tree_
  | |- stands 11 _ _ (FParen _ _ _) _ => apply x_paren; tree_
  | |- stands _ _ _ _ _ => apply x_up; [lia|tree_]
  | |- stands_links _ _ [_] _ => apply x_last; tree_
  | |- stands_link _ _ (KCall _ _ _) _ => apply x_call; tree_
  | |- stands_args _ _ [] _ => apply x_none
  | |- stands_args _ _ (AVal _ :: _) _ => eapply x_value; [discriminate|tree_|may_|tree_]
  | |- stands_args _ _ (AKw _ _ :: _) _ => eapply x_keyword; [ident_|tree_|may_|tree_]
  end.
Local Ltac after_ := split; [comments_|simpl; lia].
Local Ltac lines_ :=
  lazymatch goal with
  | |- stands_lines _ _ _ _ [] _ => apply y_end
  | |- stands_lines _ _ _ _ (TLine _ :: _) _ => apply y_line; [comments_|lines_]
  | |- stands_lines _ _ _ _ _ _ => apply y_stmt; [lines_|left; reflexivity|lines_]
  | |- stands_stmt _ _ _ _ (TAssign _ _ _ _) _ => eapply y_assign; [ident_|tree_|after_|discriminate]
  | |- stands_stmt _ _ _ _ (TPlusAssign _ _ _ _) _ => eapply y_plus_assign; [ident_|tree_|after_|discriminate]
  | |- stands_stmt _ _ _ _ (TIf _ _ _ _ _) _ => eapply y_if; [tree_|after_|discriminate|lines_|lines_|after_]
  | |- stands_stmt _ _ _ _ (TForeach _ _ None _ _ _ _) _ => eapply y_foreach; [ident_|tree_|after_|discriminate|lines_|after_]
  | |- stands_stmt _ _ _ _ (TExpr _) _ => eapply y_expr; [tree_|after_|exact Coq.Init.Logic.I]
  | |- stands_stmt _ _ _ _ (TBreak _) _ => apply y_break; after_
  | |- stands_clause _ _ _ _ (FElse _ _) _ => apply y_else; lines_
  end.
Example C113_example : stands_file false true 12 example_tree example_program.
Proof. unfold stands_file, example_tree, example_program, call_. lines_. Qed.
Example C113_example_read : exists p', parser_parse true (B example_text) = Parsed p' /\ Forall2 same_stmt example_program p'.
Proof.
  destruct (C113_formatting_keeps_the_program_partial usual sort_by true 12 example_tree example_program) as (p' & P & S & _).
  - exact sort_by_permutes.
  - repeat constructor.
  - vm_compute. discriminate.
  - exact C113_example.
  - exists p'. split; [rewrite <- C113_example_text; exact P|exact S].
Qed.

(** What the exclusions leave out.  In each case [source_] is read as a program; the formatter's tree of it (comments are with the
    token before them, parser.c:120-134) is written as a text that is not read as that program. *)
Definition harmed (o : fopts) (source_ : string) (t : list fstmt) (written : string) : Prop :=
  exists p, parser_parse true (B source_) = Parsed p /\ fmt o sort_by t [] = B written
         /\ forall p', parser_parse true (B written) = Parsed p' -> p' <> p.
Local Ltac harm := eexists; split; [vm_compute; reflexivity|split; [vm_compute; reflexivity|intros p' E; vm_compute in E; congruence]].

(** a comment in an empty list is written before the bracket that ends the list *)
Theorem C113_comment_in_an_empty_list_refuted : harmed usual
"x = [ # c
]
" [TAssign (B "x") [] (FArray [B " c"] [] false []) []]
"x = [ # c]
".
Proof. harm. Qed.
Print Assumptions C113_comment_in_an_empty_list_refuted.

(** a comment between the name and the value of a keyword argument *)
Theorem C113_comment_after_a_keyword_refuted : harmed usual
"foo(a: # c
b)
" [TExpr (call_ (B "foo") [AKw (FId (B "a") [B " c"]) (FId (B "b") [])] [])]
"foo(
    a:  # cb,
)
".
Proof. harm. Qed.
Print Assumptions C113_comment_after_a_keyword_refuted.

(** a comment after an option in the list [command], if the next element is kept on its line *)
Theorem C113_comment_after_an_option_refuted : harmed usual
"foo(command: ['-a', # c
'b'])
" [TExpr (call_ (B "foo") [AKw (FId (B "command") []) (FArray [] [AVal (str_ (B "-a") [B " c"]); AVal (str_ (B "b") [])] false [])] [])]
"foo(
    command: [
        '-a', # c 'b',
    ],
)
".
Proof. harm. Qed.
Print Assumptions C113_comment_after_an_option_refuted.

(** an expression that is a line of its own and does not fit is broken at its operators, without brackets around it *)
Theorem C113_long_lines_refuted : harmed (FOpts false false false false 12 (B "    "))
"foo() + bar + x
" [TExpr (FArith arith_add (FArith arith_add (call_ (B "foo") [] []) (FId (B "bar") []) []) (FId (B "x") []) [])]
"foo() + bar +
x
".
Proof. harm. Qed.
Print Assumptions C113_long_lines_refuted.

(** with space_array the blanks are not counted when it is decided whether brackets are needed *)
Theorem C113_space_array_refuted : harmed (FOpts true false false false 11 (B "    "))
"x = [1] + b
" [TAssign (B "x") [] (FArith arith_add (FArray [] [AVal (FNum (B "1") [])] false []) (FId (B "b") []) []) []]
"x = [ 1 ] +
b
".
Proof. harm. Qed.
Print Assumptions C113_space_array_refuted.
