(** Lemmas about printing. *)
From Verif Require Import Base M_Lexer M_Parser S_Lexer S_Parser L_Lexer L_Source L_Parser S_Print.
Open Scope list_scope.
Local Arguments B _ : simpl never.

Scheme tree_ind3 := Minimality for tree Sort Prop
with steps_ind3 := Minimality for steps Sort Prop
with entries_ind3 := Minimality for entries Sort Prop.
Combined Scheme tree_mut from tree_ind3, steps_ind3, entries_ind3.

(** ** More room *)
Lemma more_room lax :
  (forall d n ts, expr lax d n ts -> expr lax (S d) n ts)
  /\ (forall k d n ts, level lax k d n ts -> level lax k (S d) n ts)
  /\ (forall d l ts, links lax d l ts -> links lax (S d) l ts)
  /\ (forall md d l ts, args lax md d l ts -> args lax md (S d) l ts)
  /\ (forall md d a ts, item lax md d a ts -> item lax md (S d) a ts).
Proof.
  apply expr_ind5; intros; eauto using e_level, e_ternary, l_up; first [solve [eauto using l_or, l_and, l_compare, l_stray, l_arith]
    | solve [eauto using l_not, l_minus, l_stringify, l_chain, l_paren, l_array, l_dict]
    | solve [eauto using l_true, l_false, l_id, l_number, l_string] | solve [econstructor; eauto]].
Qed.

(** ** Words and tokens *)
Definition prints (ts : list token) (ws : list bytes) : Prop :=
  forall p b c ts' txt, source p b c ts' txt -> source p b c (ts ++ ts') (text ws ++ txt).
Definition prints0 (ts : list token) (ws : list bytes) : Prop :=
  forall ts' txt, source 0 0 0 ts' txt -> source 0 0 0 (ts ++ ts') (text ws ++ txt).
Lemma text_app a b : text (a ++ b) = text a ++ text b.
Proof. apply flat_map_app. Qed.
Lemma text_cons w ws : text (w :: ws) = w ++ " "%char :: text ws.
Proof. unfold text. cbn. now rewrite <- app_assoc. Qed.
Lemma prints_0 ts ws : prints ts ws -> prints0 ts ws.
Proof. intros H ts' txt. apply H. Qed.
Lemma prints_nil : prints [] [].
Proof. intros p b c ts' txt S. exact S. Qed.
Lemma prints_app t1 w1 t2 w2 : prints t1 w1 -> prints t2 w2 -> prints (t1 ++ t2) (w1 ++ w2).
Proof. intros A C p b c ts' txt S. rewrite text_app, <- !app_assoc. apply A, C, S. Qed.
Lemma prints0_app t1 w1 t2 w2 : prints0 t1 w1 -> prints0 t2 w2 -> prints0 (t1 ++ t2) (w1 ++ w2).
Proof. intros A C ts' txt S. rewrite text_app, <- !app_assoc. apply A, C, S. Qed.
Lemma space_blank : blank [" "%char].
Proof. apply bl_char. now left. Qed.
Lemma apart_space x r : apart x (" "%char :: r).
Proof.
  intros t a c r' _ E. injection E as <- <-. refine (conj _ (conj _ _)); intros [_ X]; try discriminate X.
Qed.
Lemma prints_word w t : spelled w t -> prints [t] [w].
Proof.
  intros Sp p b c ts' txt S. rewrite text_cons, <- app_assoc. cbn [app]. apply so_token; [exact Sp|apply apart_space|].
  apply (so_blank p b c [" "%char]); [apply space_blank|exact S].
Qed.
Lemma prints_cons w t ts ws : spelled w t -> prints ts ws -> prints (t :: ts) (w :: ws).
Proof. intros Sp P. apply (prints_app [t] [w] ts ws); [now apply prints_word|exact P]. Qed.
Lemma prints0_cons w t ts ws : spelled w t -> prints0 ts ws -> prints0 (t :: ts) (w :: ws).
Proof. intros Sp P. apply (prints0_app [t] [w] ts ws); [now apply prints_0, prints_word|exact P]. Qed.
Lemma prints0_line ts ws : prints0 ts ws -> prints0 (plain tok_eol :: ts) ([NL] :: ws).
Proof.
  intros P ts' txt S. rewrite text_cons, <- !app_assoc. cbn [app]. apply so_newline.
  apply (so_blank 0 0 0 [" "%char]); [apply space_blank|now apply P].
Qed.
Ltac blank_then := match goal with |- source ?p ?b ?c ?ts (?x :: ?r) => apply (so_blank p b c [x] ts r space_blank) end.
Lemma prints_parens ts ws : prints ts ws -> prints (plain tok_lparen :: ts ++ [plain tok_rparen]) (B "(" :: ws ++ [B ")"]).
Proof.
  intros P p b c ts' txt S. rewrite text_cons, text_app, <- !app_assoc. cbn [app]. rewrite <- !app_assoc. cbn [app].
  change (B "(") with ["("%char]. cbn [app]. apply so_lparen. blank_then. apply P.
  change (text [B ")"] ++ txt) with (")"%char :: " "%char :: txt). apply so_rparen. now blank_then.
Qed.
Lemma prints_brackets ts ws : prints ts ws -> prints (plain tok_lbrack :: ts ++ [plain tok_rbrack]) (B "[" :: ws ++ [B "]"]).
Proof.
  intros P p b c ts' txt S. rewrite text_cons, text_app, <- !app_assoc. cbn [app]. rewrite <- !app_assoc. cbn [app].
  change (B "[") with ["["%char]. cbn [app]. apply so_lbrack. blank_then. apply P.
  change (text [B "]"] ++ txt) with ("]"%char :: " "%char :: txt). apply so_rbrack. now blank_then.
Qed.
Lemma prints_braces ts ws : prints ts ws -> prints (plain tok_lcurl :: ts ++ [plain tok_rcurl]) (B "{" :: ws ++ [B "}"]).
Proof.
  intros P p b c ts' txt S. rewrite text_cons, text_app, <- !app_assoc. cbn [app]. rewrite <- !app_assoc. cbn [app].
  change (B "{") with ["{"%char]. cbn [app]. apply so_lcurl. blank_then. apply P.
  change (text [B "}"] ++ txt) with ("}"%char :: " "%char :: txt). apply so_rcurl. now blank_then.
Qed.

Lemma prints_parens_app ts ws tl wl : prints ts ws -> prints tl wl ->
  prints (plain tok_lparen :: ts ++ plain tok_rparen :: tl) (B "(" :: (ws ++ [B ")"]) ++ wl).
Proof.
  intros P Q. pose proof (prints_app _ _ _ _ (prints_parens _ _ P) Q) as X. cbn [app] in X. rewrite <- app_assoc in X. exact X.
Qed.
Lemma prints_brackets_app ts ws tl wl : prints ts ws -> prints tl wl ->
  prints (plain tok_lbrack :: ts ++ plain tok_rbrack :: tl) (B "[" :: (ws ++ [B "]"]) ++ wl).
Proof.
  intros P Q. pose proof (prints_app _ _ _ _ (prints_brackets _ _ P) Q) as X. cbn [app] in X. rewrite <- app_assoc in X. exact X.
Qed.

(** ** Numbers *)
Lemma digit_char_ok v : (v < 10)%N -> decimal_digit (digit_char v) v.
Proof.
  intros H. assert (v = 0 \/ v = 1 \/ v = 2 \/ v = 3 \/ v = 4 \/ v = 5 \/ v = 6 \/ v = 7 \/ v = 8 \/ v = 9)%N as D by lia.
  unfold decimal_digit, digit_char. repeat (destruct D as [->|D]; [reflexivity|]). subst. reflexivity.
Qed.
Lemma decimal_ok : forall n v, (v < 10 ^ N.of_nat n)%N -> n <> 0 ->
  numeral decimal_digit 10 (decimal n v) v /\ (v <> 0%N -> exists c ds, decimal n v = c :: ds /\ c <> "0"%char).
Proof.
  induction n as [|n IH]; intros v L Nz; [congruence|]. cbn [decimal]. destruct (N.ltb_spec v 10) as [Lt|Ge].
  - split; [exact (num_snoc _ _ [] 0 _ _ (num_nil _ _) (digit_char_ok v Lt))|]. intros V.
    eexists _, _. split; [reflexivity|]. assert (v = 1 \/ v = 2 \/ v = 3 \/ v = 4 \/ v = 5 \/ v = 6 \/ v = 7 \/ v = 8 \/ v = 9)%N as D by lia.
    repeat (destruct D as [->|D]; [discriminate|]). subst. discriminate.
  - assert (Dm : (v = v / 10 * 10 + v mod 10)%N) by (rewrite (N.mul_comm _ 10); apply N.div_mod; lia).
    assert (Mm : (v mod 10 < 10)%N) by (apply N.mod_lt; lia).
    assert (Lq : (v / 10 < 10 ^ N.of_nat n)%N).
    { apply N.div_lt_upper_bound; [lia|]. rewrite Nat2N.inj_succ, N.pow_succ_r' in L. exact L. }
    assert (n <> 0). { intros ->. cbn in Lq. lia. }
    destruct (IH _ Lq H) as [A C]. split.
    + pose proof (num_snoc _ _ _ _ _ _ A (digit_char_ok _ Mm)) as X. now rewrite <- Dm in X.
    + intros _. destruct C as (c & ds & E & Nc); [lia|]. rewrite E. cbn [app]. eauto.
Qed.
Lemma number_spelled z : (0 <= z < 2 ^ 63)%Z -> spelled (decimal 19 (Z.to_N z)) (mkTok tok_number [] z).
Proof.
  intros H. rewrite <- (Z2N.id z) at 2 by lia. apply sp_number. set (v := Z.to_N z). assert (V : (v < 2 ^ 63)%N) by (unfold v; lia). clearbody v.
  destruct (decimal_ok 19 v) as [A C]; [|discriminate|].
  { change (10 ^ N.of_nat 19)%N with 10000000000000000000%N. change (2 ^ 63)%N with 9223372036854775808%N in V. lia. }
  destruct (N.eq_dec v 0) as [->|Nz]; [exact nt_zero|]. destruct (C Nz) as (c & ds & E & Nc). rewrite E in A |- *. now constructor.
Qed.

(** ** Expressions *)
Definition P_tree d n : Prop := exists ts, prints ts (print n) /\ expr false d n ts /\ (atomic n = true -> level false 11 d n ts).
Definition P_steps d (ls : list link) : Prop := exists ts, prints ts
  (flat_map (fun k => match k with
        | LMethod m l => B "." :: m :: B "(" :: flat_map (fun a => match fst a with Some k => print k ++ [B ":"] | None => [] end ++ print (snd a) ++ [B ","]) l ++ [B ")"]
        | LIndex i => B "[" :: print i ++ [B "]"]
        | LCall l => B "(" :: flat_map (fun a => match fst a with Some k => print k ++ [B ":"] | None => [] end ++ print (snd a) ++ [B ","]) l ++ [B ")"]
        end) ls) /\ links false d ls ts.
Definition P_entries md d (l : list (option node * node)) : Prop := exists ts, prints ts
  (flat_map (fun a => match fst a with Some k => print k ++ [B ":"] | None => [] end ++ print (snd a) ++ [B ","]) l) /\ args false md d l ts.
Lemma operand_level d n : P_tree d n -> exists ts, prints ts (operand n) /\ level false 11 d n ts.
Proof.
  intros (ts & P & E & A). unfold operand. destruct (atomic n) eqn:At; [eauto|].
  eexists. split; [apply prints_parens; exact P|]. now apply l_paren.
Qed.
Lemma to_level lax j k d n ts : 1 <= k -> k <= j -> level lax j d n ts -> level lax k d n ts.
Proof. intros K L. induction L; auto. intros H. apply IHL. apply l_up; [lia|exact H]. Qed.
Lemma from_atom lax d n ts : level lax 11 d n ts -> expr lax (S d) n ts.
Proof. intros L. apply e_level. apply (to_level _ 11); [lia|lia|exact L]. Qed.
Lemma spell_symbol w t : In (w, t) symbols -> spelled w (plain t).
Proof. apply sp_symbol. Qed.
Lemma arith_spelled op : spelled (arith_word op) (plain (sign op)).
Proof. destruct op; apply (sp_symbol (arith_word _)); cbn; tauto. Qed.
Lemma compare_prints op : exists ts, prints ts (compare_words op) /\ map ty ts = compare_signs op.
Proof.
  destruct op; cbn [compare_words compare_signs].
  1-6: eexists [_]; split; [apply prints_word; apply sp_symbol; cbn; tauto|reflexivity].
  - eexists [_]; split; [apply prints_word; apply sp_word; cbn; tauto|reflexivity].
  - eexists [_; _]; split; [apply prints_cons; [apply sp_word; cbn; tauto|apply prints_word; apply sp_word; cbn; tauto]|reflexivity].
Qed.
Lemma expr_of_level10 d n ts : level false 10 d n ts -> expr false (S d) n ts.
Proof. intros L. apply e_level. apply (to_level _ 10); [lia|lia|exact L]. Qed.
Ltac sym := apply sp_symbol; cbn; tauto.
Ltac wrd := apply sp_word; cbn; tauto.
Ltac upto := apply (to_level _ 11); [cbn; lia|cbn; lia|assumption].
Lemma tree_prints :
  (forall d n, tree d n -> P_tree d n) /\ (forall d ls, steps d ls -> P_steps d ls) /\ (forall md d l, entries md d l -> P_entries md d l).
Proof.
  assert (Leaf : forall d n w t, spelled w t -> print n = [w] -> (forall d, level false 11 d n [t]) -> P_tree (S d) n).
  { intros d n w t Sp Ep L. exists [t]. rewrite Ep. split; [now apply prints_word|]. split; [now apply from_atom|auto]. }
  assert (NotAtom : forall d n ts, prints ts (print n) -> expr false d n ts -> atomic n = false -> P_tree d n).
  { intros d n ts P E A. exists ts. rewrite A. split; [exact P|]. split; [exact E|discriminate]. }
  apply tree_mut; intros.
  - apply (Leaf d _ (if b then B "true" else B "false") (plain (if b then tok_true else tok_false))); [destruct b; wrd|reflexivity|].
    intros. destruct b; now constructor.
  - apply (Leaf d _ x (mkTok tok_identifier x 0)); [now constructor|reflexivity|]. intros. now apply (l_id false d0 (mkTok tok_identifier x 0)).
  - apply (Leaf d _ (decimal 19 (Z.to_N z)) (mkTok tok_number [] z)); [now apply number_spelled|reflexivity|].
    intros. now apply (l_number false d0 (mkTok tok_number [] z)).
  - apply (Leaf d _ (QUOTE :: escaped s ++ [QUOTE]) (mkTok tok_string s 0)); [apply sp_string; apply escaped_denotes|reflexivity|].
    intros. now apply (l_string false d0 (mkTok tok_string s 0)).
  - destruct H0 as (ts & P & A). exists (plain tok_lbrack :: ts ++ [plain tok_rbrack]).
    assert (L : level false 11 d (NArray l) (plain tok_lbrack :: ts ++ [plain tok_rbrack])) by now apply l_array.
    split; [now apply prints_brackets|]. split; [now apply from_atom|]. intros _. now apply more_room.
  - destruct H0 as (ts & P & A). exists (plain tok_lcurl :: ts ++ [plain tok_rcurl]).
    assert (L : level false 11 d (NDict l) (plain tok_lcurl :: ts ++ [plain tok_rcurl])) by now apply l_dict.
    split; [now apply prints_braces|]. split; [now apply from_atom|]. intros _. now apply more_room.
  - apply operand_level in H0 as (ts & P & L). eapply (NotAtom _ _ (plain tok_not :: ts)); [apply prints_cons; [wrd|exact P]| |reflexivity].
    apply e_level. apply (to_level _ 9); [lia|lia|]. apply l_not; [upto|reflexivity].
  - apply operand_level in H0 as (ts & P & L). eapply (NotAtom _ _ (plain tok_minus :: ts)); [apply prints_cons; [sym|exact P]| |reflexivity].
    apply e_level. apply (to_level _ 9); [lia|lia|]. apply l_minus; [upto|reflexivity].
  - apply operand_level in H0 as (ta & Pa & La). apply operand_level in H2 as (tb & Pb & Lb).
    apply (NotAtom _ _ (ta ++ plain (sign op) :: tb)); [apply prints_app; [exact Pa|apply prints_cons; [apply arith_spelled|exact Pb]]| |reflexivity].
    apply e_level. apply (to_level _ (prec op)); [lia|destruct op; cbn; lia|]. apply l_arith; [apply (to_level _ 11); [| |exact La]|apply (to_level _ 11); [| |exact Lb]|reflexivity]; destruct op; cbn; lia.
  - apply operand_level in H0 as (ta & Pa & La). apply operand_level in H2 as (tb & Pb & Lb). destruct (compare_prints op) as (tc & Pc & Tc).
    apply (NotAtom _ _ (ta ++ tc ++ tb)); [apply prints_app; [exact Pa|apply prints_app; [exact Pc|exact Pb]]| |reflexivity].
    apply e_level. apply (to_level _ 3); [lia|lia|]. apply l_compare; [upto|upto|exact Tc].
  - apply operand_level in H0 as (ta & Pa & La). apply operand_level in H2 as (tb & Pb & Lb).
    apply (NotAtom _ _ (ta ++ plain tok_and :: tb)); [apply prints_app; [exact Pa|apply prints_cons; [wrd|exact Pb]]| |reflexivity].
    apply e_level. apply (to_level _ 2); [lia|lia|]. apply l_and; [upto|upto|reflexivity].
  - apply operand_level in H0 as (ta & Pa & La). apply operand_level in H2 as (tb & Pb & Lb).
    apply (NotAtom _ _ (ta ++ plain tok_or :: tb)); [apply prints_app; [exact Pa|apply prints_cons; [wrd|exact Pb]]| |reflexivity].
    apply e_level. apply l_or; [upto|upto|reflexivity].
  - apply operand_level in H0 as (tc & Pc & Lc). destruct H2 as (ta & Pa & Ea & _). destruct H4 as (tb & Pb & Eb & _).
    apply (NotAtom _ _ (tc ++ plain tok_question_mark :: ta ++ plain tok_colon :: tb)); [| |reflexivity].
    + apply prints_app; [exact Pc|]. apply prints_cons; [sym|]. apply prints_app; [exact Pa|]. apply prints_cons; [sym|exact Pb].
    + apply e_ternary; auto. upto.
  - apply operand_level in H0 as (th & Ph & Lh). destruct H2 as (tl & Pl & Ll).
    apply (NotAtom _ _ (th ++ tl)); [apply prints_app; [exact Ph|exact Pl]| |reflexivity]. apply expr_of_level10. now apply l_chain.
  - exists []. split; [apply prints_nil|constructor].
  - destruct H1 as (ta & Pa & La). destruct H3 as (tl & Pl & Ll).
    exists (plain tok_dot :: mkTok tok_identifier m 0 :: plain tok_lparen :: ta ++ plain tok_rparen :: tl). split.
    + cbn [flat_map app]. apply prints_cons; [sym|]. apply prints_cons; [now constructor|]. apply prints_parens_app; [exact Pa|exact Pl].
    + now apply (k_method false d l ls ta tl (plain tok_dot) (mkTok tok_identifier m 0)).
  - destruct H0 as (ti & Pi & Ei & _). destruct H2 as (tl & Pl & Ll). exists (plain tok_lbrack :: ti ++ plain tok_rbrack :: tl). split.
    + cbn [flat_map app]. apply prints_brackets_app; [exact Pi|exact Pl].
    + now apply k_index.
  - destruct H0 as (ta & Pa & La). destruct H2 as (tl & Pl & Ll). exists (plain tok_lparen :: ta ++ plain tok_rparen :: tl). split.
    + cbn [flat_map app]. apply prints_parens_app; [exact Pa|exact Pl].
    + now apply k_call.
  - exists []. split; [apply prints_nil|constructor].
  - destruct H1 as (ti & Pi & Ei & _). destruct H3 as (tl & Pl & Ll). exists (ti ++ plain tok_comma :: tl). split.
    + cbn [flat_map fst snd app]. replace (ti ++ plain tok_comma :: tl) with ((ti ++ [plain tok_comma]) ++ tl) by now rewrite <- app_assoc.
      apply prints_app; [apply prints_app; [exact Pi|apply prints_word; sym]|exact Pl].
    + apply a_cons; [now constructor|exact Ll|reflexivity].
  - destruct H1 as (ti & Pi & Ei & _). destruct H3 as (tl & Pl & Ll).
    assert (exists d', d = S d') as [d' ->] by (destruct d; [inversion H0|eauto]).
    exists (((mkTok tok_identifier x 0 :: [plain tok_colon]) ++ ti ++ [plain tok_comma]) ++ tl). split.
    + cbn [flat_map fst snd print]. apply prints_app; [|exact Pl]. apply prints_app; [|apply prints_app; [exact Pi|apply prints_word; sym]].
      apply (prints_cons x); [now constructor|apply prints_word; sym].
    + cbn [app]. rewrite <- app_assoc. cbn [app]. 
      apply (a_cons false mode_arguments (S d') (Some (NId x), v) l (mkTok tok_identifier x 0 :: plain tok_colon :: ti)); [|exact Ll|reflexivity].
      apply (i_keyword false _ x v [mkTok tok_identifier x 0]); [|exact Ei|reflexivity]. apply from_atom. now apply (l_id false d' (mkTok tok_identifier x 0)).
  - destruct H0 as (tk & Pk & Ek & _). destruct H2 as (tv & Pv & Ev & _). destruct H4 as (tl & Pl & Ll).
    exists (((tk ++ [plain tok_colon]) ++ tv ++ [plain tok_comma]) ++ tl). split.
    + cbn [flat_map fst snd]. apply prints_app; [|exact Pl]. apply prints_app; [|apply prints_app; [exact Pv|apply prints_word; sym]].
      apply prints_app; [exact Pk|apply prints_word; sym].
    + rewrite <- !app_assoc. cbn [app]. rewrite app_comm_cons, app_assoc. apply a_cons; [|exact Ll|reflexivity]. now apply i_entry.
Qed.

(** ** Programs *)
Scheme writable_ind4 := Minimality for writable Sort Prop
with written_ind4 := Minimality for written Sort Prop
with writable_clause_ind4 := Minimality for writable_clause Sort Prop
with writable_list_ind4 := Minimality for writable_list Sort Prop.
Combined Scheme writable_mut from writable_ind4, written_ind4, writable_clause_ind4, writable_list_ind4.

Fixpoint print_clause (r : clause) : list bytes :=
  match r with
  | NoClause => []
  | Elif c b r => B "elif" :: print c ++ [NL] :: print_program b ++ print_clause r
  | Else b => B "else" :: [NL] :: print_program b
  end.
Lemma print_if c b r : print_stmt (StIf c b r) = B "if" :: print c ++ [NL] :: print_program b ++ print_clause r ++ [B "endif"].
Proof. reflexivity. Qed.
Lemma program_prints ign d :
  (forall k st, writable ign d k st -> exists ts, prints0 ts (print_stmt st) /\ line false ign d k st ts)
  /\ (forall k st, written ign d k st -> exists ts, prints0 ts (print_stmt st) /\ shape false ign d k st ts)
  /\ (forall k r, writable_clause ign d k r -> exists ts, prints0 ts (print_clause r) /\ clauses false ign d k r ts)
  /\ (forall k l, writable_list ign d k l -> exists ts, prints0 ts (print_program l) /\ block false ign d k l ts).
Proof.
  assert (T : forall n, tree d n -> exists ts, prints0 ts (print n) /\ expr false d n ts).
  { intros n H. destruct (proj1 tree_prints d n H) as (ts & P & E & _). exists ts. split; [now apply prints_0|exact E]. }
  assert (Id : forall x n, tree d n -> expr false d (NId x) [mkTok tok_identifier x 0]).
  { intros x n H. assert (exists d', d = S d') as [d' ->] by (destruct d; [inversion H|eauto]).
    apply from_atom. now apply (l_id false d' (mkTok tok_identifier x 0)). }
  assert (Nl : forall w t, spelled w t -> prints0 [t] [w]) by (intros; now apply prints_0, prints_word).
  apply writable_mut.
  - intros k st E _ (ts & P & S). exists ts. split; [exact P|]. now constructor.
  - intros k n H. destruct (T n H) as (ts & P & E). exists ts. split; [exact P|]. now constructor.
  - intros k x n Hx H. destruct (T n H) as (ts & P & E). exists ([mkTok tok_identifier x 0] ++ plain tok_assign :: ts). split.
    + cbn [app print_stmt]. apply prints0_cons; [now constructor|]. apply prints0_cons; [sym|exact P].
    + apply st_assign; eauto.
  - intros k x n Hx H. destruct (T n H) as (ts & P & E). exists ([mkTok tok_identifier x 0] ++ plain tok_plus_assign :: ts). split.
    + cbn [app print_stmt]. apply prints0_cons; [now constructor|]. apply prints0_cons; [sym|exact P].
    + apply st_plus_assign; eauto.
  - intros k c b r Hc _ (tb & Pb & Eb) _ (tr & Pr & Er). destruct (T c Hc) as (tc & Pc & Ec).
    exists (plain tok_if :: tc ++ plain tok_eol :: tb ++ tr ++ [plain tok_endif]). split.
    + rewrite print_if. apply prints0_cons; [wrd|]. apply prints0_app; [exact Pc|]. apply prints0_line. apply prints0_app; [exact Pb|].
      apply prints0_app; [exact Pr|]. apply Nl. wrd.
    + now apply st_if.
  - intros k x n b Hx H _ (tb & Pb & Eb). destruct (T n H) as (tn & Pn & En).
    exists (plain tok_foreach :: mkTok tok_identifier x 0 :: plain tok_colon :: tn ++ plain tok_eol :: tb ++ [plain tok_endforeach]). split.
    + cbn [print_stmt app]. apply prints0_cons; [wrd|]. apply prints0_cons; [now constructor|]. apply prints0_cons; [sym|].
      apply prints0_app; [exact Pn|]. apply prints0_line. apply prints0_app; [exact Pb|]. apply Nl. wrd.
    + now apply (st_foreach false ign d k (mkTok tok_identifier x 0)).
  - intros k x y n b Hx Hy H _ (tb & Pb & Eb). destruct (T n H) as (tn & Pn & En).
    exists (plain tok_foreach :: mkTok tok_identifier x 0 :: plain tok_comma :: mkTok tok_identifier y 0 :: plain tok_colon :: tn
            ++ plain tok_eol :: tb ++ [plain tok_endforeach]). split.
    + cbn [print_stmt app]. apply prints0_cons; [wrd|]. apply prints0_cons; [now constructor|]. apply prints0_cons; [sym|].
      apply prints0_cons; [now constructor|]. apply prints0_cons; [sym|].
      apply prints0_app; [exact Pn|]. apply prints0_line. apply prints0_app; [exact Pb|]. apply Nl. wrd.
    + now apply (st_foreach2 false ign d k (mkTok tok_identifier x 0) (mkTok tok_identifier y 0)).
  - intros k. exists [plain tok_continue]. split; [apply Nl; wrd|now constructor].
  - intros k. exists [plain tok_break]. split; [apply Nl; wrd|now constructor].
  - intros k. exists []. split; [apply prints_0, prints_nil|constructor].
  - intros k c b r Hc _ (tb & Pb & Eb) _ (tr & Pr & Er). destruct (T c Hc) as (tc & Pc & Ec).
    exists (plain tok_elif :: tc ++ plain tok_eol :: tb ++ tr). split.
    + cbn [print_clause]. apply prints0_cons; [wrd|]. apply prints0_app; [exact Pc|]. apply prints0_line. apply prints0_app; [exact Pb|exact Pr].
    + now apply c_elif.
  - intros k b _ (tb & Pb & Eb). exists (plain tok_else :: plain tok_eol :: tb). split.
    + cbn [print_clause]. apply prints0_cons; [wrd|]. now apply prints0_line.
    + now apply c_else.
  - intros k. exists []. split; [apply prints_0, prints_nil|constructor].
  - intros k st l _ (ts & P & E) _ (tl & Pl & El). exists (ts ++ plain tok_eol :: tl). split.
    + unfold print_program. cbn [flat_map]. fold (print_program l). rewrite <- app_assoc. apply prints0_app; [exact P|]. now apply prints0_line.
    + now apply b_cons.
Qed.

(** ** Reading back *)
Lemma prints_source ts ws : prints0 ts ws -> source 0 0 0 ts (text ws).
Proof. intros P. specialize (P [] [] (so_end 0 0 0)). now rewrite !app_nil_r in P. Qed.
Lemma source_parses ign d p ts txt : (N.of_nat d <= 4096)%N -> program false ign d p ts -> source 0 0 0 ts txt -> parser_parse ign txt = Parsed p.
Proof.
  intros L P S. unfold parser_parse. destruct (lex_source (mkMode false false) eq_refl eq_refl _ _ S) as (l & E1 & E2).
  rewrite E1, E2. exact (parse_tokens_complete ign d p ts (plain tok_eof) P eq_refl L).
Qed.
Lemma program_reads ign d p : (N.of_nat d <= 4096)%N -> writable_list ign d 0 p -> parser_parse ign (text (print_program p)) = Parsed p.
Proof.
  intros L W. destruct (program_prints ign d) as (_ & _ & _ & H). destruct (H 0 p W) as (ts & P & E).
  exact (source_parses ign d p ts _ L E (prints_source _ _ P)).
Qed.

(** ** Sequences of operators *)
Definition rank (t : grouping) : nat := match t with One _ => 11 | Two o _ _ => strength o end.
Fixpoint operands (t : grouping) : list node := match t with One n => [n] | Two _ l r => operands l ++ operands r end.
Lemma words_two o l r : sequence_words (sequence_of (Two o l r)) = sequence_words (sequence_of l) ++ bin_words o ++ sequence_words (sequence_of r).
Proof.
  unfold sequence_words. cbn [sequence_of fst snd]. rewrite flat_map_app. cbn [flat_map fst snd]. now rewrite <- !app_assoc.
Qed.
Lemma rank_left o t : stronger_left o t -> strength o <= rank t.
Proof. destruct t; cbn; [destruct o as [| | |[]]; cbn; lia|lia]. Qed.
Lemma rank_left_s o t : stronger_left o t -> ~ groups_left o -> S (strength o) <= rank t.
Proof. destruct t; cbn; [destruct o as [| | |[]]; cbn; lia|]. intros [H|[_ H]] N; [lia|contradiction]. Qed.
Lemma rank_right o t : stronger_right o t -> strength o <= rank t.
Proof. destruct t; cbn; [destruct o as [| | |[]]; cbn; lia|lia]. Qed.
Lemma rank_right_s o t : stronger_right o t -> ~ groups_right o -> S (strength o) <= rank t.
Proof. destruct t; cbn; [destruct o as [| | |[]]; cbn; lia|]. intros [H|[_ H]] N; [lia|contradiction]. Qed.
Lemma grouping_prints d t : grouped t -> Forall (tree d) (operands t) ->
  exists ts, prints ts (sequence_words (sequence_of t)) /\ level false (rank t) d (value t) ts.
Proof.
  induction t as [n|o l IHl r IHr]; intros G F.
  - inversion F; subst. destruct (operand_level d n (proj1 tree_prints d n H1)) as (ts & P & L). exists ts.
    unfold sequence_words. cbn [sequence_of fst snd flat_map value rank]. rewrite app_nil_r. auto.
  - cbn [grouped operands] in *. destruct G as (Sl & Sr & Gl & Gr). apply Forall_app in F as [Fl Fr].
    destruct (IHl Gl Fl) as (tl & Pl & Ll). destruct (IHr Gr Fr) as (tr & Pr & Lr). rewrite words_two. cbn [value rank].
    destruct o as [| |op|op]; cbn [bin_words bin_node strength] in *.
    + exists (tl ++ plain tok_or :: tr). split; [apply prints_app; [exact Pl|apply prints_cons; [wrd|exact Pr]]|].
      apply l_or; [|apply (to_level _ (rank r)); [lia|exact (rank_right _ _ Sr)|exact Lr]|reflexivity].
      apply (to_level _ (rank l)); [lia|exact (rank_left_s bin_or _ Sl (fun x => x))|exact Ll].
    + exists (tl ++ plain tok_and :: tr). split; [apply prints_app; [exact Pl|apply prints_cons; [wrd|exact Pr]]|].
      apply l_and; [|apply (to_level _ (rank r)); [lia|exact (rank_right _ _ Sr)|exact Lr]|reflexivity].
      apply (to_level _ (rank l)); [lia|exact (rank_left_s bin_and _ Sl (fun x => x))|exact Ll].
    + destruct (compare_prints op) as (tc & Pc & Tc). exists (tl ++ tc ++ tr). split; [apply prints_app; [exact Pl|apply prints_app; [exact Pc|exact Pr]]|].
      apply l_compare; [| |exact Tc].
      * apply (to_level _ (rank l)); [lia|exact (rank_left_s (bin_cmp op) _ Sl (fun x => x))|exact Ll].
      * apply (to_level _ (rank r)); [lia|exact (rank_right_s (bin_cmp op) _ Sr (fun x => x))|exact Lr].
    + exists (tl ++ plain (sign op) :: tr). split; [apply prints_app; [exact Pl|apply prints_cons; [apply arith_spelled|exact Pr]]|].
      apply l_arith; [| |reflexivity].
      * apply (to_level _ (rank l)); [destruct op; cbn; lia|exact (rank_left (bin_arith op) _ Sl)|exact Ll].
      * apply (to_level _ (rank r)); [lia|exact (rank_right_s (bin_arith op) _ Sr (fun x => x))|exact Lr].
Qed.
Lemma operands_sequence t : operands t = fst (sequence_of t) :: map snd (snd (sequence_of t)).
Proof. induction t as [n|o l IHl r IHr]; [reflexivity|]. cbn [operands sequence_of fst snd]. rewrite IHl, IHr, map_app. reflexivity. Qed.
Lemma rank_pos t : 1 <= rank t.
Proof. destruct t as [|[| | |[]] ? ?]; cbn; lia. Qed.
Lemma grouping_reads d t : (N.of_nat (S d) <= 4096)%N -> grouped t -> Forall (tree d) (operands t) ->
  parser_parse true (text (sequence_words (sequence_of t))) = Parsed [StExpr (value t)].
Proof.
  intros L G F. destruct (grouping_prints d t G F) as (ts & P & E). apply (source_parses true (S d) _ ts); [exact L| |].
  - apply b_last. constructor; [|now left]. constructor. apply e_level. apply (to_level _ (rank t)); [lia|apply rank_pos|exact E].
  - apply prints_source. now apply prints_0.
Qed.

(** every sequence without comparisons has a grouping *)
Definition under (o o' : binop) : Prop := strength o < strength o' \/ (strength o = strength o' /\ groups_right o).
Fixpoint insert (t : grouping) (o : binop) (n : node) : grouping :=
  match t with
  | One a => Two o t (One n)
  | Two o' l r => if (strength o' <? strength o) || ((strength o' =? strength o) && match o' with bin_arith _ => false | _ => true end)
                  then Two o' l (insert r o n) else Two o t (One n)
  end.
Lemma insert_sequence t o n : sequence_of (insert t o n) = (fst (sequence_of t), snd (sequence_of t) ++ [(o, n)]).
Proof.
  induction t as [a|o' l IHl r IHr]; [reflexivity|]. cbn [insert]. destruct (_ || _); [|reflexivity].
  cbn [sequence_of fst snd]. rewrite IHr. cbn [fst snd]. now rewrite <- app_assoc.
Qed.
Definition no_compare (o : binop) : Prop := match o with bin_cmp _ => False | _ => True end.
Fixpoint no_compares (t : grouping) : Prop := match t with One _ => True | Two o l r => no_compare o /\ no_compares l /\ no_compares r end.
Lemma insert_root t o n : (exists a b, insert t o n = Two o a b) \/ (exists o' l r b, t = Two o' l r /\ insert t o n = Two o' l b).
Proof.
  destruct t as [a|o' l r]; cbn [insert]; [left; eauto|]. destruct (_ || _); [right; eauto 10|left; eauto].
Qed.
Lemma insert_grouped t o n : no_compares t -> no_compare o -> grouped t -> grouped (insert t o n) /\ no_compares (insert t o n).
Proof.
  intros C1 C2. induction t as [a|o' l IHl r IHr]; intros G; [cbn; tauto|]. cbn [insert no_compares grouped] in *.
  destruct C1 as (Co & Cl & Cr). destruct G as (Sl & Sr & Gl & Gr).
  destruct ((strength o' <? strength o) || _) eqn:E.
  - destruct (IHr Cr Gr) as [Ir Ir2]. cbn [grouped no_compares]. refine (conj (conj Sl (conj _ (conj Gl Ir))) (conj Co (conj Cl Ir2))).
    assert (U : strength o' < strength o \/ strength o' = strength o /\ groups_right o').
    { apply orb_true_iff in E as [E|E]; [apply Nat.ltb_lt in E; auto|]. apply andb_true_iff in E as [E1 E2]. apply Nat.eqb_eq in E1.
      right. split; [exact E1|]. destruct o'; try discriminate E2; try exact Logic.I. destruct Co. }
    destruct (insert_root r o n) as [(a & b & ->)|(o2 & l2 & r2 & b & -> & ->)]; [exact U|exact Sr].
  - cbn [grouped no_compares]. refine (conj (conj _ (conj Logic.I (conj (conj Sl (conj Sr (conj Gl Gr))) Logic.I))) (conj C2 (conj (conj Co (conj Cl Cr)) Logic.I))).
    cbn [stronger_left]. apply orb_false_iff in E as [E1 E2]. apply Nat.ltb_ge in E1.
    destruct (Nat.eq_dec (strength o) (strength o')) as [Q|Q]; [|left; lia]. right. split; [exact Q|].
    rewrite Q, Nat.eqb_refl in E2. cbn [andb] in E2. destruct o' as [| |?|op']; try discriminate E2. destruct o as [| |?|op]; [| |destruct C2|exact Logic.I];
      destruct op'; discriminate Q.
Qed.
Lemma grouping_exists n l : Forall (fun p => no_compare (fst p)) l -> exists t, sequence_of t = (n, l) /\ grouped t.
Proof.
  enough (H : Forall (fun p => no_compare (fst p)) l -> exists t, sequence_of t = (n, l) /\ grouped t /\ no_compares t).
  { intros F. destruct (H F) as (t & A & C & _). eauto. }
  induction l as [|[o m] l IH] using rev_ind; intros F; [exists (One n); cbn; auto|].
  apply Forall_app in F as [F1 F2]. inversion F2; subst. destruct (IH F1) as (t & A & G & C).
  exists (insert t o m). rewrite insert_sequence, A. destruct (insert_grouped t o m C H1 G). auto.
Qed.
