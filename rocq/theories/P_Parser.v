(** Properties of the parser of build files. *)
From Verif Require Import Base M_Format M_Lexer M_Parser S_Lexer L_Lexer L_Source L_LexBuf P_Lexer L_Parser L_Sound L_Print S_Parser S_Print.
Open Scope list_scope.

Ltac ident := split; [do 2 eexists; split; [reflexivity|split; [reflexivity|repeat constructor]]
  |let t := fresh in let I := fresh in intros t I; unfold words in I; cbn [In] in I; repeat (destruct I as [I|I]; [discriminate I|]); destruct I].

(** ** C46: printed expressions and programs parse back *)
(** The limit: trees of height at most 4096 (src/lang/parser.c 1129: the depth of nested expressions). *)
Theorem C46_expressions_parse_back_partial : forall d n, (N.of_nat d <= 4096)%N -> tree d n ->
  parser_parse true (text (print n)) = Parsed [StExpr n]
  /\ forall ign x, identifier x -> parser_parse ign (x ++ B " = " ++ text (print n)) = Parsed [StAssign x n].
Proof.
  intros d n L T. destruct (proj1 tree_prints d n T) as (ts & P & E & _). split.
  - apply (source_parses true d _ ts); [exact L| |apply prints_source; now apply prints_0].
    apply b_last. constructor; [now constructor|now left].
  - intros ign x Hx. assert (exists d', d = S d') as [d' ->] by (destruct d; [inversion T|eauto]).
    apply (source_parses ign (S d') _ ([mkTok tok_identifier x 0] ++ plain tok_assign :: ts)); [exact L| |].
    + apply b_last. constructor; [|right; constructor]. apply st_assign; [|exact E|reflexivity].
      apply from_atom. now apply (l_id false d' (mkTok tok_identifier x 0)).
    + assert (Q : prints (mkTok tok_identifier x 0 :: plain tok_assign :: ts) (x :: B "=" :: print n)).
      { apply prints_cons; [now constructor|]. apply prints_cons; [apply sp_symbol; cbn; tauto|exact P]. }
      replace (x ++ B " = " ++ text (print n)) with (text (x :: B "=" :: print n)) by (rewrite !text_cons; reflexivity).
      apply prints_source. now apply prints_0.
Qed.
Print Assumptions C46_expressions_parse_back_partial.
Definition sample : node :=
  NTernary (NCmp comp_not_in (NStr (B "it's")) (NChain (NId (B "foo")) [LMethod (B "bar") [(None, NNum 10); (Some (NId (B "key")), NArray [(None, NBool true)])]; LIndex (NMinus (NNum 1))]))
           (NArith arith_mul (NArith arith_add (NId (B "x")) (NNum 2)) (NDict [(Some (NStr (B "k")), NOr (NNot (NId (B "y"))) (NBool false))]))
           (NChain (NId (B "f")) [LCall []]).
Example C46_expressions_parse_back_used : tree 6 sample /\
  text (print sample) = B "( 'it\'s' not in ( foo . bar ( 10 , key : [ true , ] , ) [ - 1 ] ) ) ? ( x + 2 ) * { 'k' : ( not y ) or false , } : f ( ) ".
Proof.
  split; [|reflexivity]. unfold sample.
  repeat first [apply t_ternary|apply t_cmp|apply t_str|apply t_chain|apply t_arith|apply t_id|apply t_dict|apply t_or|apply t_not|apply t_bool|apply t_num
               |apply s_method|apply s_index|apply s_call|apply s_nil|apply n_keyword|apply n_value|apply n_entry|apply n_nil|apply t_array|apply t_minus
               |discriminate|lia|ident].
Qed.

(** Deeper expressions are rejected. *)
Fixpoint nots (k : nat) (n : node) : node := match k with 0 => n | S k => NNot (nots k n) end.
Fixpoint not_count (n : node) : nat := match n with NNot a => S (not_count a) | _ => 0 end.
Lemma not_count_bound lax :
  (forall d n ts, expr lax d n ts -> not_count n <= d)
  /\ (forall k d n ts, level lax k d n ts -> not_count n <= d + (if k <=? 9 then 1 else 0))
  /\ (forall d l ts, links lax d l ts -> True) /\ (forall md d l ts, args lax md d l ts -> True) /\ (forall md d a ts, item lax md d a ts -> True).
Proof.
  apply expr_ind5; intros; auto; cbn [not_count] in *; try lia.
  - cbn in H0. lia.
  - destruct (Nat.leb_spec (S k) 9), (Nat.leb_spec k 9); lia.
  - cbn in H0 |- *. lia.
Qed.
Lemma nots_tree k n d : tree d n -> tree (k + d) (nots k n).
Proof. intros T. induction k as [|k IH]; [exact T|]. cbn. now constructor. Qed.
Lemma nots_count k n : k <= not_count (nots k n).
Proof. induction k; cbn; lia. Qed.
Theorem C46_refuted : exists d n, tree d n /\ parser_parse true (text (print n)) <> Parsed [StExpr n].
Proof.
  exists (N.to_nat 4097 + 1), (nots (N.to_nat 4097) (NBool true)). split; [apply nots_tree; constructor|].
  set (n := nots (N.to_nat 4097) (NBool true)). assert (C := nots_count (N.to_nat 4097) (NBool true)). fold n in C. clearbody n.
  unfold parser_parse. intros E. destruct (lexer_lex _ _) as [[[|] l]|] eqn:Lx; try discriminate E.
  apply lexer_inner in Lx as (ts & Tl & F). rewrite Tl in E. pose proof (parse_tokens_sound true ts (plain tok_eof) eq_refl F) as Sd.
  rewrite E in Sd. specialize (Sd true (or_introl eq_refl)). unfold program in Sd.
  assert (Q : forall b ts, block true true (N.to_nat 4096) 0 b ts -> b = [StExpr n] -> exists ts', expr true (N.to_nat 4096) n ts').
  { clear. intros b ts B. induction B; intros E; try discriminate E; auto.
    - injection E as ->. inversion H; subst. inversion H0; subst. eauto.
    - injection E as -> ->. inversion H; subst. inversion H1; subst. eauto. }
  destruct (Q _ _ Sd eq_refl) as [ts' D]. apply not_count_bound in D. lia.
Qed.
Print Assumptions C46_refuted.

(** Whole programs: one statement on each line *)
Theorem C46_programs_parse_back_partial : forall ign d p, (N.of_nat d <= 4096)%N -> writable_list ign d 0 p ->
  parser_parse ign (text (print_program p)) = Parsed p.
Proof. intros ign d p L W. exact (program_reads ign d p L W). Qed.
Print Assumptions C46_programs_parse_back_partial.
Definition sample_program : list stmt :=
  [StAssign (B "x") (NNum 1);
   StForeach (B "k") (Some (B "v")) (NId (B "d"))
     [StIf (NId (B "k")) [StContinue] (Elif (NId (B "v")) [StBreak] (Else [StPlusAssign (B "x") (NId (B "v"))]))]].
Example C46_programs_parse_back_used : writable_list false 2 0 sample_program.
Proof.
  unfold sample_program.
  repeat first [apply w_cons|apply w_nil|apply w_stmt; [right; first [solve [constructor]|apply se_foreach_block; discriminate|apply se_if_block; discriminate]|]
               |apply w_assign|apply w_plus_assign|apply w_foreach2|apply w_if|apply w_elif|apply w_else|apply w_continue|apply w_break|apply t_num|apply t_id|lia|ident].
Qed.

(** ** C47: operators are grouped by the table *)
(** A sequence of operands and operators, without parentheses around more than operands, is read as
    the grouping that follows the table; there is one unless comparisons follow each other. *)
Theorem C47_grouping_by_the_table : forall d n l, (N.of_nat d < 4096)%N -> Forall (tree d) (n :: map snd l) ->
  (Forall (fun p => forall op, fst p <> bin_cmp op) l -> exists t, sequence_of t = (n, l) /\ grouped t)
  /\ forall t, sequence_of t = (n, l) -> grouped t ->
       parser_parse true (text (sequence_words (n, l))) = Parsed [StExpr (value t)].
Proof.
  intros d n l L F. split.
  - intros H. apply grouping_exists. eapply Forall_impl; [|exact H]. intros [[| |op|op] m] X; cbn in *; try exact Logic.I. now apply (X op).
  - intros t E G. rewrite <- E. apply (grouping_reads d); [lia|exact G|]. now rewrite operands_sequence, E.
Qed.
Print Assumptions C47_grouping_by_the_table.
Example C47_grouping_by_the_table_used :
  let a := NId (B "a") in
  let t := Two bin_or (Two (bin_cmp comp_lt) (Two (bin_arith arith_add) (Two (bin_arith arith_add) (One a) (One a)) (Two (bin_arith arith_mul) (One a) (Two (bin_arith arith_div) (One a) (One a)))) (One a)) (One a) in
  grouped t /\ tree 1 a /\ text (sequence_words (sequence_of t)) = B "a + a + a * a / a < a or a ".
Proof. cbn [grouped stronger_left stronger_right strength prec groups_left groups_right]. split; [cbn; lia|]. split; [apply t_id; ident|reflexivity]. Qed.
(** a < b < c has no grouping, and is rejected *)
Example C47_comparisons_do_not_chain :
  parser_parse true (B "a < b < c") = Rejected
  /\ (forall t, sequence_of t = (NId (B "a"), [(bin_cmp comp_lt, NId (B "b")); (bin_cmp comp_lt, NId (B "c"))]) -> ~ grouped t).
Proof.
  split; [vm_compute; reflexivity|]. intros t E G. destruct t as [|o l r]; [discriminate E|]. cbn [sequence_of] in E. injection E as E1 E2.
  destruct l as [x|ol ll lr].
  - cbn in E2. injection E2 as -> E3 E4. destruct r as [|o' rl rr]; [discriminate E4|]. cbn in E4. cbn in G.
    destruct rl as [y|oy yl yr].
    + cbn in E4. injection E4 as -> _ _. cbn in G. lia.
    + cbn in E4. destruct yl as [z|? ? ?]; cbn in E4; [injection E4 as _ _ E5; destruct (sequence_of yr) as [? [|? ?]]; discriminate E5|].
      destruct (snd (sequence_of yl1)); cbn in E4; [injection E4 as _ _ E5|injection E4 as _ E5]; repeat (match type of E5 with ?l ++ _ = [] => destruct l end; try discriminate E5).
  - cbn in E2. cbn in G. destruct G as (G & _).
    destruct (snd (sequence_of ll)) as [|p q] eqn:Q; cbn in E2.
    + injection E2 as -> E3 E4. destruct (snd (sequence_of lr)) as [|p' q']; cbn in E4; [injection E4 as -> _ _; cbn in G; lia|].
      injection E4 as _ E4. destruct q'; discriminate E4.
    + injection E2 as -> E4. destruct q as [|? ?]; cbn in E4; [injection E4 as -> E5 E6; destruct (snd (sequence_of lr)); discriminate E6|].
      injection E4 as _ E4. destruct q; discriminate E4.
Qed.

(** ** C99: only programs of the grammar are accepted, and as what they are *)
Definition source_mode := mkMode false false.
(** a not after an operand that is not part of not in *)
Definition operand_ends : list ttype := [tok_identifier; tok_number; tok_string; tok_true; tok_false; tok_rparen; tok_rbrack; tok_rcurl].
Definition stray_not (ts : list token) : Prop := exists a p k b,
  ts = a ++ p :: k :: b /\ In (ty p) operand_ends /\ ty k = tok_not /\ (forall h r, b = h :: r -> ty h <> tok_in).
Lemma ender_in t : ender t = true -> In t operand_ends.
Proof. destruct t; intros E; try discriminate E; cbn; tauto. Qed.
Lemma stray_source ts : stray (ts ++ [plain tok_eof]) -> stray_not ts.
Proof.
  intros (a & p & k & h & b & E & Ep & Tk & Nh). apply ender_in in Ep. destruct b as [|x b] using rev_ind.
  - replace (a ++ [p; k; h]) with ((a ++ [p; k]) ++ [h]) in E by now rewrite <- app_assoc. apply app_inj_tail in E as [-> _].
    exists a, p, k, []. refine (conj eq_refl (conj Ep (conj Tk _))). intros ? ? X. discriminate X.
  - clear IHb. replace (a ++ p :: k :: h :: b ++ [x]) with ((a ++ p :: k :: h :: b) ++ [x]) in E by now rewrite <- app_assoc.
    apply app_inj_tail in E as [-> _]. exists a, p, k, (h :: b). refine (conj eq_refl (conj Ep (conj Tk _))). intros ? ? X. now injection X as <- <-.
Qed.
Lemma parse_inv ign src r : parser_parse ign src = r -> r <> Rejected -> exists ts, lexes source_mode src ts
  /\ Forall (fun k => ty k <> tok_eof) ts /\ parse_tokens ign (ts ++ [plain tok_eof]) = r.
Proof.
  unfold parser_parse. intros E N. destruct (lexer_lex _ src) as [[[|] l]|] eqn:Lx; [|congruence|now apply lexer_ends in Lx].
  destruct (lexer_inner _ _ _ _ Lx) as (ts & Tl & F). exists ts. split; [exists l; auto|]. split; [exact F|]. now rewrite <- Tl.
Qed.
Theorem C99_accepted_programs_partial : forall ign src p, parser_parse ign src = Parsed p ->
  exists d ts, (N.of_nat d <= 4096)%N /\ lexes source_mode src ts /\ program true ign d p ts
    /\ (~ stray_not ts -> program false ign d p ts).
Proof.
  intros ign src p E. destruct (parse_inv _ _ _ E) as (ts & Lx & F & P); [discriminate|]. exists (N.to_nat 4096), ts.
  pose proof (parse_tokens_sound ign ts (plain tok_eof) eq_refl F) as Sd. rewrite P in Sd.
  split; [lia|]. split; [exact Lx|]. split; [apply Sd; now left|]. intros Ns. apply Sd. right. intros X. now apply Ns, stray_source.
Qed.
Print Assumptions C99_accepted_programs_partial.
(** The texts that spell a program of the grammar are accepted. *)
Theorem C99_programs_accepted : forall ign d p ts src, (N.of_nat d <= 4096)%N -> program false ign d p ts -> source 0 0 0 ts src ->
  parser_parse ign src = Parsed p.
Proof. intros ign d p ts src L P S. exact (source_parses ign d p ts src L P S). Qed.
Print Assumptions C99_programs_accepted.
(** A sequence of tokens is at most one program. *)
Theorem C99_one_meaning : forall ign d p p' ts, (N.of_nat d <= 4096)%N -> program false ign d p ts -> program false ign d p' ts -> p = p'.
Proof.
  intros ign d p p' ts L A B. pose proof (parse_tokens_complete ign d p ts (plain tok_eof) A eq_refl L) as X.
  rewrite (parse_tokens_complete ign d p' ts (plain tok_eof) B eq_refl L) in X. now injection X.
Qed.
Print Assumptions C99_one_meaning.
(** A stray not is accepted. *)
Definition stray_example : list token := [mkTok tok_identifier (B "x") 0; plain tok_assign; mkTok tok_identifier (B "a") 0; plain tok_not].
Definition ends_without_not (ts : list token) : Prop := forall d, ty d <> tok_not -> ty (last ts d) <> tok_not.
Lemma ewn_app a b : ends_without_not a -> ends_without_not b -> ends_without_not (a ++ b).
Proof.
  intros A C d N. revert d N. induction a as [|x a IH] using rev_ind; intros d N; [now apply C|].
  rewrite <- app_assoc. destruct b as [|y b]; [cbn [app]; now apply A|].
  assert (L : forall (l : list token) z r d d', last (l ++ z :: r) d = last (z :: r) d').
  { clear. induction l as [|w l IH]; intros z r d d'.
    - cbn [app]. revert z. induction r as [|v r IH]; intros z; [reflexivity|]. cbn [last] in *. destruct r; [reflexivity|]. apply (IH v).
    - cbn [app last]. destruct (l ++ z :: r) eqn:E; [now destruct l|]. rewrite <- E. apply IH. }
  rewrite app_assoc. rewrite (L (a ++ [x]) y b d d). now apply C.
Qed.
Lemma ewn_cons k l : ty k <> tok_not -> ends_without_not l -> ends_without_not (k :: l).
Proof. intros N A. apply (ewn_app [k] l); [intros d _; exact N|exact A]. Qed.
Lemma ewn_nil : ends_without_not [].
Proof. intros d N. exact N. Qed.
Lemma ewn_ender ts : last_ender ts -> ends_without_not ts.
Proof. intros (a & p & -> & E) d N. rewrite last_last. intros X. rewrite X in E. discriminate E. Qed.
Lemma strict_last :
  (forall d n ts, expr false d n ts -> last_ender ts)
  /\ (forall k d n ts, level false k d n ts -> last_ender ts)
  /\ (forall d l ts, links false d l ts -> True) /\ (forall md d l ts, args false md d l ts -> True) /\ (forall md d it ts, item false md d it ts -> True).
Proof.
  apply expr_ind5; intros; auto; try discriminate; try (apply last_ender_app, last_ender_cons; assumption); try (apply last_ender_cons; assumption);
    try (eapply last_ender_one; [eassumption|reflexivity]);
    try (apply last_ender_cons, last_ender_app; eapply last_ender_one; [eassumption|reflexivity]).
  - now apply last_ender_app, last_ender_cons, last_ender_app, last_ender_cons.
  - now apply last_ender_app, last_ender_app.
  - apply (level_last false 10 d (NChain h ls)); [now apply l_chain|lia].
Qed.
Ltac ewn := repeat first [apply ewn_app | apply ewn_cons; [congruence|] | assumption | apply ewn_nil | match goal with H : expr false _ _ ?t |- ends_without_not ?t => exact (ewn_ender _ (proj1 strict_last _ _ _ H)) end].
Lemma program_last ign d :
  (forall k st ts, line false ign d k st ts -> ends_without_not ts) /\ (forall k st ts, shape false ign d k st ts -> ends_without_not ts)
  /\ (forall k r ts, clauses false ign d k r ts -> ends_without_not ts) /\ (forall k l ts, block false ign d k l ts -> ends_without_not ts).
Proof. apply line_ind4; intros; ewn. Qed.
Theorem C99_refuted : exists src p ts, parser_parse false src = Parsed p /\ lexes source_mode src ts
  /\ forall d p', ~ program false false d p' ts.
Proof.
  exists (B "x = a not"), [StAssign (B "x") (NId (B "a"))], stray_example. split; [vm_compute; reflexivity|]. split.
  - destruct (lexer_lex source_mode (B "x = a not")) as [[ok l]|] eqn:E; vm_compute in E; [|discriminate E]. injection E as <- <-.
    eexists. split; [vm_compute; reflexivity|reflexivity].
  - intros d p' P. apply program_last in P. now apply (P (plain tok_eof)).
Qed.
Print Assumptions C99_refuted.
Example C99_programs_accepted_used :
  program false false 2 [StAssign (B "x") (NArith arith_add (NNum 1) (NNum 2))]
    [mkTok tok_identifier (B "x") 0; plain tok_assign; mkTok tok_number [] 1; plain tok_plus; mkTok tok_number [] 2; plain tok_eol]
  /\ source 0 0 0 [mkTok tok_identifier (B "x") 0; plain tok_assign; mkTok tok_number [] 1; plain tok_plus; mkTok tok_number [] 2; plain tok_eol]
      (text [B "x"; B "="; B "1"; B "+"; B "2"; [NL]]).
Proof.
  split.
  - apply (b_cons false false 2 0 _ [] [_; _; _; _; _]); [|apply b_nil|reflexivity]. constructor; [|right; constructor].
    apply (st_assign false false 2 0 (B "x") _ [mkTok tok_identifier (B "x") 0]); [|apply e_level|reflexivity].
    + apply from_atom. now apply (l_id false 1 (mkTok tok_identifier (B "x") 0)).
    + apply (to_level _ 4); [lia|lia|]. apply (l_arith false 1 arith_add (NNum 1) (NNum 2) [mkTok tok_number [] 1]); [| |reflexivity];
        (apply (to_level _ 11); [cbn; lia|cbn; lia|]).
      * now apply (l_number false 1 (mkTok tok_number [] 1)).
      * now apply (l_number false 1 (mkTok tok_number [] 2)).
  - apply prints_source. apply prints0_cons; [apply sp_identifier; ident|]. apply prints0_cons; [apply sp_symbol; cbn; tauto|].
    apply prints0_cons; [apply (number_spelled 1); lia|]. apply prints0_cons; [apply sp_symbol; cbn; tauto|].
    apply prints0_cons; [apply (number_spelled 2); lia|]. apply prints0_line. apply prints_0, prints_nil.
Qed.

(** ** C100: parsing ends, and does not crash *)
(** an opening bracket after an operand, before a token that neither begins nor continues an expression *)
Definition no_expression : list ttype :=
  [tok_eof; tok_eol; tok_rparen; tok_rbrack; tok_rcurl; tok_comma; tok_colon; tok_assign; tok_plus_assign; tok_if; tok_else; tok_elif; tok_endif;
   tok_foreach; tok_endforeach; tok_continue; tok_break; tok_func; tok_endfunc; tok_return; tok_bitor; tok_returntype; tok_comment; tok_fmt_eol].
Definition empty_index (ts : list token) : Prop := exists a p k h b,
  ts = a ++ p :: k :: h :: b /\ In (ty p) operand_ends /\ ty k = tok_lbrack /\ In (ty h) no_expression.
Lemma quiet_in t : quiet t -> In t no_expression.
Proof. intros [A C]. destruct t; try discriminate A; try discriminate C; cbn; tauto. Qed.
Theorem C100_parsing_ends_partial : forall ign src,
  (exists p, parser_parse ign src = Parsed p) \/ parser_parse ign src = Rejected
  \/ (parser_parse ign src = Aborted /\ exists ts, lexes source_mode src ts /\ empty_index (ts ++ [plain tok_eof])).
Proof.
  intros ign src. destruct (parser_parse ign src) as [p| | |] eqn:E; eauto; right; right.
  - destruct (parse_inv _ _ _ E) as (ts & Lx & F & P); [discriminate|]. split; [reflexivity|]. exists ts. split; [exact Lx|].
    pose proof (parse_tokens_sound ign ts (plain tok_eof) eq_refl F) as Sd. rewrite P in Sd.
    destruct Sd as (a & p & k & h & b & Q & Ep & Tk & Qh). exists a, p, k, h, b. auto using ender_in, quiet_in.
  - destruct (parse_inv _ _ _ E) as (ts & Lx & F & P); [discriminate|].
    pose proof (parse_tokens_sound ign ts (plain tok_eof) eq_refl F) as Sd. rewrite P in Sd. destruct Sd.
Qed.
Print Assumptions C100_parsing_ends_partial.
Theorem C100_refuted : exists src, parser_parse false src = Aborted.
Proof. exists (B "x = a[]"). vm_compute. reflexivity. Qed.
Print Assumptions C100_refuted.
Example C100_parsing_ends_used :
  parser_parse false (B "x = (((") = Rejected /\ (exists p, parser_parse false (B "x = a[0]") = Parsed p)
  /\ parser_parse false (B "if x" ++ NL :: B "y = " ++ NL :: B "endif") = Rejected.
Proof. split; [vm_compute; reflexivity|]. split; [eexists; vm_compute; reflexivity|vm_compute; reflexivity]. Qed.

(** ** C101: format strings *)
(** A format string: the text b0 that denotes s0, then names, each with the text after it and what that
    denotes.  Its value is the concatenation. *)
Definition format_text (b0 : bytes) (l : list (bytes * bytes * bytes)) : bytes :=
  B "f'" ++ b0 ++ flat_map (fun p => B "@" ++ fst (fst p) ++ B "@" ++ snd (fst p)) l ++ B "'".
Definition format_value (s0 : bytes) (l : list (bytes * bytes * bytes)) : node :=
  fold_left (fun v p => NArith arith_add (NArith arith_add v (NStringify (NId (fst (fst p))))) (NStr (snd p))) l (NStr s0).
Definition plain_text (b s : bytes) : Prop := denotes b s /\ ~ In "@"%char b.

Definition format_tokens (s0 : bytes) (l : list (bytes * bytes * bytes)) : list token :=
  string_token s0 :: flat_map (fun p => [plain tok_plus; plain tok_stringify; mkTok tok_identifier (fst (fst p)) 0; plain tok_plus; string_token (snd p)]) l.
Lemma format_pieces l : Forall (fun p => identifier (fst (fst p)) /\ plain_text (snd (fst p)) (snd p)) l -> forall b0 s0, plain_text b0 s0 ->
  pieces (b0 ++ flat_map (fun p => B "@" ++ fst (fst p) ++ B "@" ++ snd (fst p)) l) (format_tokens s0 l).
Proof.
  induction 1 as [|[[x b] s] l [Hx Hb] F IH]; intros b0 s0 [D At].
  - cbn. rewrite app_nil_r. now constructor.
  - unfold format_tokens. cbn [flat_map fst snd] in *. rewrite <- !app_assoc. change (B "@") with ["@"%char]. cbn [app].
    apply (ps_value b0 s0 x (b ++ flat_map _ l)); auto. exact (IH b s Hb).
Qed.
Lemma format_level d l : forall s0 ts v, level false 4 d v ts ->
  level false 4 d (fold_left (fun v p => NArith arith_add (NArith arith_add v (NStringify (NId (fst (fst p))))) (NStr (snd p))) l v)
    (ts ++ tl (format_tokens s0 l)).
Proof.
  induction l as [|[[x b] s] l IH]; intros s0 ts v L; cbn [fold_left format_tokens flat_map tl fst snd]; [now rewrite app_nil_r|].
  assert (L1 : level false 4 d (NArith arith_add v (NStringify (NId x))) (ts ++ plain tok_plus :: [plain tok_stringify; mkTok tok_identifier x 0])).
  { apply (l_arith false d arith_add); [exact L| |reflexivity]. apply (to_level _ 9); [cbn; lia|cbn; lia|]. apply l_stringify; [|reflexivity].
    apply (to_level _ 11); [lia|lia|]. now apply (l_id false d (mkTok tok_identifier x 0)). }
  assert (L2 : level false 4 d (NArith arith_add (NArith arith_add v (NStringify (NId x))) (NStr s))
    ((ts ++ plain tok_plus :: [plain tok_stringify; mkTok tok_identifier x 0]) ++ plain tok_plus :: [string_token s])).
  { apply (l_arith false d arith_add); [exact L1| |reflexivity]. apply (to_level _ 11); [cbn; lia|cbn; lia|]. now apply (l_string false d (string_token s)). }
  specialize (IH s _ _ L2). rewrite <- !app_assoc in IH. exact IH.
Qed.
Theorem C101_format_strings_partial : forall ign v b0 s0 l, identifier v -> plain_text b0 s0 ->
  Forall (fun p => identifier (fst (fst p)) /\ plain_text (snd (fst p)) (snd p)) l ->
  parser_parse ign (v ++ B " = " ++ format_text b0 l) = Parsed [StAssign v (format_value s0 l)].
Proof.
  intros ign v b0 s0 l Hv H0 F. apply (source_parses ign 1 _ ([mkTok tok_identifier v 0] ++ plain tok_assign :: format_tokens s0 l)); [lia| |].
  - apply b_last. constructor; [|right; constructor]. apply st_assign; [| |reflexivity].
    + apply from_atom. now apply (l_id false 0 (mkTok tok_identifier v 0)).
    + apply e_level. apply (to_level _ 4); [lia|lia|]. apply (format_level 0 l s0 [string_token s0] (NStr s0)).
      apply (to_level _ 11); [lia|lia|]. now apply (l_string false 0 (string_token s0)).
  - apply (so_token 0 0 0 v); [now constructor| |].
    { change (B " = ") with (" "%char :: B "= "). apply apart_space. }
    change (B " = ") with ([" "%char] ++ B "=" ++ [" "%char]). rewrite <- !app_assoc. apply so_blank; [apply space_blank|].
    apply (so_token 0 0 0 (B "=") (plain tok_assign)); [apply sp_symbol; cbn; tauto|apply apart_space|].
    apply so_blank; [apply space_blank|]. unfold format_text. change (B "f'") with ["f"%char; QUOTE]. change (B "'") with [QUOTE]. cbn [app].
    rewrite app_assoc. rewrite <- (app_nil_r (format_tokens s0 l)). apply so_format; [now apply format_pieces|apply apart_end|constructor].
Qed.
Print Assumptions C101_format_strings_partial.
Example C101_format_strings_used :
  plain_text (B "a\n") (B "a" ++ [NL]) /\ identifier (B "x_1") /\ plain_text [] []
  /\ format_text (B "a\n") [((B "x_1", []), []); ((B "x_1", B "a\n"), B "a" ++ [NL])] = B "f'a\n@x_1@@x_1@a\n'".
Proof.
  assert (P : plain_text (B "a\n") (B "a" ++ [NL])).
  { split; [|intros H; repeat (destruct H as [H|H]; [discriminate H|]); exact H].
    apply den_char; try discriminate. apply (den_escape "n"%char 10); [cbn; tauto|constructor]. }
  split; [exact P|]. split; [ident|]. split; [split; [constructor|auto]|reflexivity].
Qed.
(** As an operand of a stronger operator, a format string is torn apart. *)
Theorem C101_refuted : exists v b0 s0 l op, plain_text b0 s0 /\ Forall (fun p => identifier (fst (fst p)) /\ plain_text (snd (fst p)) (snd p)) l
  /\ parser_parse false (v ++ B " = " ++ format_text b0 l ++ B " " ++ op ++ B " w") <> Parsed [StAssign v (NArith arith_div (format_value s0 l) (NId (B "w")))]
  /\ parser_parse false (v ++ B " = ( " ++ format_text b0 l ++ B " ) " ++ op ++ B " w") = Parsed [StAssign v (NArith arith_div (format_value s0 l) (NId (B "w")))].
Proof.
  exists (B "v"), [], [], [((B "d", []), [])], (B "/"). split; [split; [constructor|auto]|]. split.
  - constructor; [|constructor]. split; [ident|split; [constructor|auto]].
  - split; [|vm_compute; reflexivity]. intros E. vm_compute in E. discriminate E.
Qed.
Print Assumptions C101_refuted.
