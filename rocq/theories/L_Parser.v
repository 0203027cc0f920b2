(** The parser reads what the grammar writes. *)
From Verif Require Import Base M_Format M_Lexer M_Parser S_Parser.

(** ** States *)
Definition after (s : ps) (r : list token) (e : bool) : ps :=
  mkPs r (depth s) (loop_depth s) (effect s || e) (valid s).
Lemma after_after s r e r' e' : after (after s r e) r' e' = after s r' (e || e').
Proof. unfold after. cbn. now rewrite orb_assoc. Qed.
Lemma after_toks s r e : ptoks (after s r e) = r.
Proof. reflexivity. Qed.
Lemma after_depth s r e : depth (after s r e) = depth s.
Proof. reflexivity. Qed.
Lemma after_id s : after s (ptoks s) false = s.
Proof. destruct s. unfold after. cbn. now rewrite orb_false_r. Qed.
Lemma with_toks_after r s : with_toks r s = after s r false.
Proof. unfold with_toks, after. now rewrite orb_false_r. Qed.
Lemma with_effect_after s : with_effect true s = after s (ptoks s) true.
Proof. unfold with_effect, after. now rewrite orb_true_r. Qed.

Lemma bind_ok {A B} (m : P A) (f : A -> P B) s s' a : m s = POk s' a -> bind m f s = f a s'.
Proof. unfold bind. now intros ->. Qed.
Lemma is_type_yes t k : ty k = t -> is_type t k = true.
Proof. unfold is_type. intros ->. now destruct (ttype_dec t t). Qed.
Lemma is_type_no t k : ty k <> t -> is_type t k = false.
Proof. unfold is_type. intros H. now destruct (ttype_dec (ty k) t). Qed.
Lemma is_type_iff t k : is_type t k = true <-> ty k = t.
Proof. unfold is_type. destruct (ttype_dec (ty k) t); split; congruence. Qed.
Lemma accept_yes t s k r : ptoks s = k :: r -> r <> [] -> ty k = t -> accept t s = POk (after s r false) true.
Proof.
  intros E N T. unfold accept, last_is. rewrite E, (is_type_yes _ _ T). cbn. destruct r; [now destruct N|].
  now rewrite with_toks_after.
Qed.
Lemma accept_no t s k r : ptoks s = k :: r -> ty k <> t -> accept t s = POk s false.
Proof. intros E T. unfold accept, last_is. now rewrite E, (is_type_no _ _ T). Qed.
Lemma expect_yes t s k r : ptoks s = k :: r -> r <> [] -> ty k = t -> expect t s = POk (after s r false) tt.
Proof. intros E N T. unfold expect. rewrite (bind_ok _ _ _ _ _ (accept_yes _ _ _ _ E N T)). reflexivity. Qed.
Lemma accept_data_yes t s k r : ptoks s = k :: r -> r <> [] -> ty k = t -> accept_data t s = POk (after s r false) (Some k).
Proof.
  intros E N T. unfold accept_data. rewrite E, (is_type_yes _ _ T). cbn. destruct r; [now destruct N|].
  now rewrite with_toks_after.
Qed.
Lemma accept_data_no t s k r : ptoks s = k :: r -> ty k <> t -> accept_data t s = POk s None.
Proof. intros E T. unfold accept_data. now rewrite E, (is_type_no _ _ T). Qed.

(** ** Tokens that continue an expression *)
Definition cont (t : ttype) : option nat :=
  match t with
  | tok_question_mark => Some 0
  | tok_or => Some 1
  | tok_and => Some 2
  | tok_eq | tok_neq | tok_lt | tok_leq | tok_gt | tok_geq | tok_in | tok_not => Some 3
  | tok_plus => Some 4 | tok_minus => Some 5 | tok_modulo => Some 6 | tok_star => Some 7 | tok_slash => Some 8
  | tok_dot | tok_lbrack | tok_lparen => Some 10
  | _ => None
  end.
Definition stops (k : nat) (h : token) : Prop := forall j, cont (ty h) = Some j -> j < k.
Lemma stops_up k j h : stops k h -> k <= j -> stops j h.
Proof. intros Sp L i C. specialize (Sp i C). lia. Qed.
Lemma stops_not k h t j : stops k h -> cont t = Some j -> k <= j -> ty h <> t.
Proof. intros Sp C L E. rewrite <- E in C. specialize (Sp _ C). lia. Qed.
Lemma stops_at k h j : cont (ty h) = Some j -> j < k -> stops k h.
Proof. intros C L i D. congruence. Qed.
Lemma stops_none k h : cont (ty h) = None -> stops k h.
Proof. intros C i D. congruence. Qed.

Definition starts (t : ttype) : bool :=
  match t with
  | tok_lparen | tok_lbrack | tok_lcurl | tok_true | tok_false | tok_identifier | tok_number | tok_string => true
  | _ => false
  end.
Definition starts_unary (t : ttype) : bool :=
  starts t || match t with tok_not | tok_minus | tok_stringify => true | _ => false end.

(** [plevel k]: the function for level k *)
Definition ops_from (k : nat) : list arithmetic_type := skipn (k - 4) arith_types.
Definition plevel (E : P node) (k loop fuel : nat) : P node :=
  match k with
  | 1 => parse_e2 E loop fuel
  | 2 => parse_e3 E loop fuel
  | 3 => parse_e4 E fuel
  | 9 => parse_e6 E fuel
  | 10 => parse_e7 E fuel
  | 11 => parse_e8 E fuel
  | _ => parse_arith E fuel (ops_from k)
  end.
Definition op_of (k : nat) : arithmetic_type :=
  match k with 4 => arith_add | 5 => arith_sub | 6 => arith_mod | 7 => arith_mul | _ => arith_div end.
Lemma plevel_arith E k loop fuel : 4 <= k <= 8 ->
  plevel E k loop fuel = (do l <- plevel E (S k) loop fuel; arith_loop (plevel E (S k) loop fuel) (op_of k) fuel l).
Proof. intros H. do 9 (destruct k as [|k]; [try lia; try reflexivity|]). lia. Qed.
Lemma op_of_cont k : 4 <= k <= 8 -> cont (arith_tok (op_of k)) = Some k.
Proof. intros H. do 9 (destruct k as [|k]; [try lia; try reflexivity|]). lia. Qed.
Lemma prec_op op : 4 <= prec op <= 8 /\ op_of (prec op) = op /\ arith_tok op = sign op /\ cont (sign op) = Some (prec op).
Proof. destruct op; cbn; repeat split; lia. Qed.

Scheme expr_mut := Minimality for expr Sort Prop
  with level_mut := Minimality for level Sort Prop
  with links_mut := Minimality for links Sort Prop
  with args_mut := Minimality for args Sort Prop
  with item_mut := Minimality for item Sort Prop.
Combined Scheme expr_ind5 from expr_mut, level_mut, links_mut, args_mut, item_mut.

(** ** Facts about the grammar *)
Lemma level_range lax k d n ts : level lax k d n ts -> 1 <= k <= 11.
Proof.
  induction 1; try lia; try (match goal with |- context [prec ?o] => destruct o end; cbn; lia).
Qed.
Lemma grammar_nonempty lax :
  (forall d n ts, expr lax d n ts -> is_empty n = false)
  /\ (forall k d n ts, level lax k d n ts -> is_empty n = false)
  /\ (forall d l ts, links lax d l ts -> True)
  /\ (forall md d l ts, args lax md d l ts -> True)
  /\ (forall md d it ts, item lax md d it ts -> True).
Proof. apply expr_ind5; intros; auto. Qed.
Lemma expr_nonempty lax d n ts : expr lax d n ts -> is_empty n = false.
Proof. apply grammar_nonempty. Qed.
Lemma level_nonempty lax k d n ts : level lax k d n ts -> is_empty n = false.
Proof. apply grammar_nonempty. Qed.

Definition head (p : ttype -> bool) (ts : list token) : Prop := exists h t, ts = h :: t /\ p (ty h) = true.
Lemma head_app p a b : head p a -> head p (a ++ b).
Proof. intros (h & t & -> & H). exists h, (t ++ b). auto. Qed.
Lemma head_impl (p q : ttype -> bool) a : (forall t, p t = true -> q t = true) -> head p a -> head q a.
Proof. intros I (h & t & -> & H). exists h, t. auto. Qed.
Lemma head_one (p : ttype -> bool) o t x : ty o = t -> p t = true -> head p (o :: x).
Proof. intros E H. exists o, x. now rewrite E. Qed.
Lemma starts_starts t : starts t = true -> starts_unary t = true.
Proof. unfold starts_unary. now intros ->. Qed.
Lemma grammar_heads lax :
  (forall d n ts, expr lax d n ts -> head starts_unary ts)
  /\ (forall k d n ts, level lax k d n ts -> head (if 10 <=? k then starts else starts_unary) ts)
  /\ (forall d l ts, links lax d l ts -> True)
  /\ (forall md d l ts, args lax md d l ts -> True)
  /\ (forall md d it ts, item lax md d it ts -> True).
Proof.
  apply expr_ind5; intros; auto; try (apply head_app; assumption); try (eapply head_one; [eassumption|reflexivity]).
  - destruct (Nat.leb_spec 10 (S k)); destruct (Nat.leb_spec 10 k); auto; try lia.
    eapply head_impl; [|eassumption]. apply starts_starts.
Qed.
Lemma expr_head lax d n ts : expr lax d n ts -> head starts_unary ts.
Proof. apply grammar_heads. Qed.
Lemma level_head lax k d n ts : level lax k d n ts -> head starts_unary ts.
Proof.
  intros H. apply grammar_heads in H. destruct (10 <=? k); [|assumption]. eapply head_impl; [|eassumption]. apply starts_starts.
Qed.
Lemma level_head10 lax k d n ts : level lax k d n ts -> 10 <= k -> head starts ts.
Proof. intros H L. apply grammar_heads in H. apply Nat.leb_le in L. now rewrite L in H. Qed.

(** ** Nothing to read *)
Definition quiet (t : ttype) : Prop := cont t = None /\ starts_unary t = false.
Lemma quiet_empty f s h r : ptoks s = h :: r -> quiet (ty h) -> (depth s < 4096)%N ->
  parse_expr (S f) s = POk s NEmpty.
Proof.
  intros E [C Sp] D.
  assert (N : forall t, (cont t <> None \/ starts_unary t = true) -> ty h <> t).
  { intros t [X|X] Y; subst t; congruence. }
  assert (A : forall t s', (cont t <> None \/ starts_unary t = true) -> ptoks s' = ptoks s -> accept t s' = POk s' false).
  { intros t s' X Y. eapply accept_no; [rewrite Y; exact E|]. now apply N. }
  assert (AD : forall t s', starts_unary t = true -> ptoks s' = ptoks s -> accept_data t s' = POk s' None).
  { intros t s' X Y. eapply accept_data_no; [rewrite Y; exact E|]. apply N. now right. }
  cbn [parse_expr]. unfold at_depth. cbn [depth with_depth].
  destruct (N.ltb_spec 4096 (depth s + 1)) as [L|_]; [lia|].
  set (s1 := with_depth (depth s + 1)%N s). set (EX := parse_expr f).
  assert (Y1 : ptoks s1 = ptoks s) by reflexivity.
  assert (E9 : parse_e9 s1 = POk s1 NEmpty).
  { unfold parse_e9, bind. rewrite (A tok_true) by (auto; right; reflexivity).
    rewrite (A tok_false) by (auto; right; reflexivity). rewrite !AD by auto. reflexivity. }
  assert (E8 : forall fu, parse_e8 EX fu s1 = POk s1 NEmpty).
  { intros fu. unfold parse_e8, bind. rewrite (A tok_lparen), (A tok_lbrack), (A tok_lcurl) by (auto; right; reflexivity). exact E9. }
  assert (EC : forall fu, parse_chained EX (S fu) true s1 = POk s1 []).
  { intros fu. cbn [parse_chained]. unfold bind.
    rewrite (A tok_dot) by (auto; left; discriminate). rewrite (A tok_lbrack), (A tok_lparen) by (auto; right; reflexivity). reflexivity. }
  assert (E7 : forall fu, parse_e7 EX (S fu) s1 = POk s1 NEmpty).
  { intros fu. unfold parse_e7, bind. rewrite E8. cbn [is_empty]. rewrite EC. reflexivity. }
  assert (E6 : forall fu, parse_e6 EX (S fu) s1 = POk s1 NEmpty).
  { intros fu. unfold parse_e6, bind. rewrite (A tok_not), (A tok_minus), (A tok_stringify) by (auto; right; reflexivity). apply E7. }
  assert (EA : forall fu ops, parse_arith EX (S fu) ops s1 = POk s1 NEmpty).
  { intros fu ops. induction ops as [|o ops IH]; [apply E6|]. cbn [parse_arith]. unfold bind at 1. rewrite IH.
    cbn [arith_loop]. unfold bind. rewrite A; [reflexivity| |reflexivity]. left. destruct o; discriminate. }
  assert (E4 : forall fu, parse_e4 EX (S fu) s1 = POk s1 NEmpty).
  { intros fu. unfold parse_e4, parse_e5. unfold bind at 1. rewrite EA. unfold comparisons. cbn [try_comparisons]. unfold bind.
    rewrite !A by (auto; left; discriminate). reflexivity. }
  assert (E3 : forall fu, parse_e3 EX (S fu) (S fu) s1 = POk s1 NEmpty).
  { intros fu. cbn [parse_e3]. unfold bind. rewrite E4. rewrite A by (auto; left; discriminate). reflexivity. }
  assert (E2 : parse_e2 EX (S f) (S f) s1 = POk s1 NEmpty).
  { cbn [parse_e2]. unfold bind. rewrite E3. rewrite A by (auto; left; discriminate). reflexivity. }
  unfold bind. rewrite E2. rewrite A by (auto; left; discriminate). cbn [ret].
  unfold with_depth. subst s1. cbn. replace (depth s + 1 - 1)%N with (depth s) by lia. now destruct s.
Qed.

(** ** Reading *)
Definition args_effect (l : list (option node * node)) : bool :=
  existsb (fun a => (match fst a with Some k => effectful k | None => false end) || effectful (snd a)) l.
Definition links_effect (l : list link) : bool :=
  existsb (fun k => match k with LIndex i => effectful i | _ => true end) l.
Definition item_effect (a : option node * node) : bool :=
  (match fst a with Some k => effectful k | None => false end) || effectful (snd a).

Definition fits_depth (s : ps) (d : nat) : Prop := (depth s + N.of_nat d <= 4096)%N.

Definition R_expr d n ts : Prop := forall f s h r,
  ptoks s = ts ++ h :: r -> length (ptoks s) < f -> fits_depth s d -> stops 0 h ->
  parse_expr f s = POk (after s (h :: r) (effectful n)) n.
Definition R_level k d n ts : Prop := forall f loop fuel s h r,
  ptoks s = ts ++ h :: r -> length (ptoks s) <= f -> length (ptoks s) < fuel -> length (ptoks s) < loop -> fits_depth s d ->
  (stops k h -> plevel (parse_expr f) k loop fuel s = POk (after s (h :: r) (effectful n)) n)
  /\ (4 <= k <= 8 -> stops (S k) h -> exists fuel', length (h :: r) < fuel'
      /\ plevel (parse_expr f) k loop fuel s
         = arith_loop (plevel (parse_expr f) (S k) loop fuel) (op_of k) fuel' n (after s (h :: r) (effectful n))).
Definition R_links d l ts : Prop := forall f fuel s h r,
  ptoks s = ts ++ h :: r -> length (ptoks s) <= f -> length (ptoks s) < fuel -> fits_depth s d -> stops 10 h ->
  parse_chained (parse_expr f) fuel false s = POk (after s (h :: r) (links_effect l)) l.
Definition closer md : ttype :=
  match md with mode_array => tok_rbrack | mode_dictionary => tok_rcurl | mode_arguments => tok_rparen end.
Definition R_args md d l ts : Prop := forall f fuel s h r,
  ptoks s = ts ++ h :: r -> length (ptoks s) < f -> length (ptoks s) < fuel -> fits_depth s d -> ty h = closer md ->
  parse_list (parse_expr f) fuel md s = POk (after s (h :: r) (args_effect l)) l.
(** the part of parse_list that reads one item *)
Definition R_item md d it ts : Prop := forall f fuel s h r,
  ptoks s = ts ++ h :: r -> length (ptoks s) < f -> fits_depth s d ->
  ty h = closer md \/ ty h = tok_comma ->
  parse_list (parse_expr f) (S fuel) md s
  = (do comma <- accept tok_comma;
     if comma then do l <- parse_list (parse_expr f) fuel md; ret (it :: l) else ret [it])
    (after s (h :: r) (item_effect it)).

Ltac len :=
  repeat match goal with s1 := _ : ps |- _ => subst s1 end; rewrite ?after_toks; cbn [ptoks after with_depth with_loops];
  repeat match goal with
  | E : ptoks ?s = _, H : context [length (ptoks ?s)] |- _ => rewrite E in H
  | E : ptoks ?s = _ |- context [length (ptoks ?s)] => rewrite E
  end;
  repeat match goal with
  | H : context [length (_ :: _)] |- _ => progress cbn [length] in H
  | H : context [length (_ ++ _)] |- _ => rewrite app_length in H
  end;
  rewrite ?app_length; cbn [length]; rewrite ?app_length; cbn [length]; rewrite ?app_length; cbn [length]; lia.

Lemma R_of_level1 d n ts f s h r : R_level 1 d n ts -> ptoks s = ts ++ h :: r -> length (ptoks s) < S f ->
  fits_depth s (S d) -> stops 1 h ->
  parse_e2 (parse_expr f) (S f) (S f) (with_depth (depth s + 1)%N s)
  = POk (after (with_depth (depth s + 1)%N s) (h :: r) (effectful n)) n.
Proof.
  intros R E L D Sp. destruct (R f (S f) (S f) (with_depth (depth s + 1)%N s) h r) as [X _]; auto.
  - cbn. lia.
  - unfold fits_depth in *. cbn. lia.
Qed.
Lemma at_depth_ok {A} (m : P A) s s' a : (depth s < 4096)%N -> depth s' = (depth s + 1)%N ->
  m (with_depth (depth s + 1)%N s) = POk s' a -> at_depth m s = POk (with_depth (depth s) s') a.
Proof.
  intros D E H. unfold at_depth. cbn [depth with_depth]. destruct (N.ltb_spec 4096 (depth s + 1)); [lia|].
  rewrite H, E. now replace (depth s + 1 - 1)%N with (depth s) by lia.
Qed.

Ltac untoken := first [eassumption | reflexivity].
Ltac not_this :=
  first [ assumption
        | match goal with H : ty ?k = _ |- ty ?k <> _ => rewrite H; discriminate end
        | match goal with H : stops _ ?k |- ty ?k <> _ => eapply stops_not; [exact H|first [reflexivity|now apply op_of_cont|eassumption]|lia] end
        | match goal with H : starts_unary (ty ?k) = true |- ty ?k <> _ => let X := fresh in intros X; rewrite X in H; discriminate H end
        | match goal with H : starts (ty ?k) = true |- ty ?k <> _ => let X := fresh in intros X; rewrite X in H; discriminate H end ].
Ltac no := match goal with
  | |- context [bind (accept ?t) ?f ?s] => rewrite (bind_ok (accept t) f s s false) by (eapply accept_no; [untoken|not_this])
  | |- context [bind (accept_data ?t) ?f ?s] => rewrite (bind_ok (accept_data t) f s s None) by (eapply accept_data_no; [untoken|not_this])
  end; cbv iota.
Ltac some_left := first [discriminate | match goal with |- ?l ++ _ <> [] => destruct l; discriminate end
  | match goal with |- ?l ++ ?l' ++ _ <> [] => destruct l, l'; discriminate end].
Ltac yes := (match goal with
  | |- context [bind (accept ?t) ?f ?s] => erewrite (bind_ok (accept t) f s) by (eapply accept_yes; [untoken|some_left|assumption])
  | |- context [bind (accept_data ?t) ?f ?s] => erewrite (bind_ok (accept_data t) f s) by (eapply accept_data_yes; [untoken|some_left|assumption])
  | |- context [bind (expect ?t) ?f ?s] => erewrite (bind_ok (expect t) f s) by (eapply expect_yes; [untoken|some_left|assumption])
  end); cbv iota.

Theorem reads_grammar :
  (forall d n ts, expr false d n ts -> R_expr d n ts)
  /\ (forall k d n ts, level false k d n ts -> R_level k d n ts)
  /\ (forall d l ts, links false d l ts -> R_links d l ts)
  /\ (forall md d l ts, args false md d l ts -> R_args md d l ts)
  /\ (forall md d it ts, item false md d it ts -> R_item md d it ts).
Proof.
  apply expr_ind5.
  - (* e_level *)
    intros d n ts H IH f s h r E L D Sp. destruct f as [|f]; [lia|]. cbn [parse_expr].
    rewrite (at_depth_ok _ s (after (with_depth (depth s + 1)%N s) (h :: r) (effectful n)) n); [reflexivity| |reflexivity|].
    + unfold fits_depth in D. lia.
    + rewrite (bind_ok _ _ _ _ _ (R_of_level1 _ _ _ _ _ _ _ IH E L D (stops_up _ _ _ Sp (Nat.le_0_l _)))).
      no.
      reflexivity.
  - (* e_ternary *)
    intros d c a b tc ta tb q k Hc IHc Ha IHa Hb IHb Tq Tk f s h r E L D Sp. destruct f as [|f]; [lia|]. cbn [parse_expr].
    rewrite <- app_assoc in E. cbn [app] in E. rewrite <- app_assoc in E. cbn [app] in E.
    assert (D0 : (depth s < 4096)%N) by (unfold fits_depth in D; lia).
    set (s1 := with_depth (depth s + 1)%N s).
    assert (D1 : forall r0 e, fits_depth (after s1 r0 e) d) by (intros; unfold fits_depth, s1 in *; cbn; lia).
    rewrite (at_depth_ok _ s (after s1 (h :: r) (effectful (NTernary c a b))) (NTernary c a b)); [reflexivity|assumption|reflexivity|].
    fold s1.
    rewrite (bind_ok _ _ _ _ _ (R_of_level1 _ _ _ _ _ _ _ IHc E L D ltac:(eapply stops_at; [rewrite Tq; reflexivity|lia]))).
    fold s1.
    yes.
    cbv iota. rewrite after_after, orb_false_r.
    rewrite (bind_ok _ _ _ _ _ (IHa f (after s1 _ _) k (tb ++ h :: r) eq_refl ltac:(len) (D1 _ _) ltac:(eapply stops_none; rewrite Tk; reflexivity))).
    rewrite after_after.
    yes.
    rewrite after_after, orb_false_r.
    rewrite (bind_ok _ _ _ _ _ (IHb f (after s1 _ _) h r eq_refl ltac:(len) (D1 _ _) Sp)).
    rewrite (level_nonempty _ _ _ _ _ Hc), (expr_nonempty _ _ _ _ Ha), (expr_nonempty _ _ _ _ Hb). cbn [orb].
    rewrite after_after. cbn [effectful]. now rewrite orb_assoc.
  - (* l_up *)
    intros k d n ts Lk H IH f loop fuel s h r E L1 L2 L3 D. pose proof (level_range _ _ _ _ _ H) as Rg.
    assert (K : k = 1 \/ k = 2 \/ k = 3 \/ 4 <= k <= 8 \/ k = 9 \/ k = 10) by lia.
    destruct K as [->|[->|[->|[K|[->| ->]]]]].
    + split; [|lia]. intros Sp. cbn [plevel]. destruct loop as [|loop]; [lia|]. cbn [parse_e2].
      destruct (IH f fuel fuel s h r E L1 L2 L2 D) as [X _]. specialize (X ltac:(eapply stops_up; [exact Sp|lia])). cbn [plevel] in X.
      rewrite (bind_ok _ _ _ _ _ X).
      no.
      reflexivity.
    + split; [|lia]. intros Sp. cbn [plevel]. destruct loop as [|loop]; [lia|]. cbn [parse_e3].
      destruct (IH f fuel fuel s h r E L1 L2 L2 D) as [X _]. specialize (X ltac:(eapply stops_up; [exact Sp|lia])). cbn [plevel] in X.
      rewrite (bind_ok _ _ _ _ _ X).
      no.
      reflexivity.
    + split; [|lia]. intros Sp. cbn [plevel]. unfold parse_e4.
      destruct (IH f fuel fuel s h r E L1 L2 L2 D) as [X _]. specialize (X ltac:(eapply stops_up; [exact Sp|lia])).
      change (parse_e5 (parse_expr f) fuel s = POk (after s (h :: r) (effectful n)) n) in X.
      rewrite (bind_ok _ _ _ _ _ X). unfold comparisons. cbn [try_comparisons].
      do 8 (no).
      reflexivity.
    + assert (X : stops (S k) h -> plevel (parse_expr f) k loop fuel s
                 = arith_loop (plevel (parse_expr f) (S k) loop fuel) (op_of k) fuel n (after s (h :: r) (effectful n))).
      { intros Sp. rewrite plevel_arith by assumption. destruct (IH f loop fuel s h r E L1 L2 L3 D) as [X _].
        now rewrite (bind_ok _ _ _ _ _ (X Sp)). }
      split.
      * intros Sp. rewrite X by (eapply stops_up; [exact Sp|lia]). destruct fuel as [|fuel]; [lia|]. cbn [arith_loop].
        no.
        reflexivity.
      * intros _ Sp. exists fuel. split; [len|auto].
    + split; [|lia]. intros Sp. cbn [plevel]. unfold parse_e6.
      destruct (level_head10 _ _ _ _ _ H ltac:(lia)) as (h0 & t0 & Et & St). rewrite Et in E. cbn [app] in E.
      assert (No : forall t, starts t = false -> ty h0 <> t) by (intros t X Y; congruence).
      do 3 (no).
      destruct (IH f fuel fuel s h r) as [X _]; auto; [subst ts; exact E|]. apply X. eapply stops_up; [exact Sp|lia].
    + split; [|lia]. intros Sp. cbn [plevel]. unfold parse_e7.
      destruct (IH f fuel fuel s h r E L1 L2 L2 D) as [X _]. specialize (X ltac:(eapply stops_up; [exact Sp|lia])). cbn [plevel] in X.
      rewrite (bind_ok _ _ _ _ _ X). destruct fuel as [|fuel]; [lia|]. cbn [parse_chained].
      unfold bind at 1. do 3 no. reflexivity.
  - (* l_or *)
    intros d a b ta tb o Ha IHa Hb IHb To f loop fuel s h r E L1 L2 L3 D. split; [|lia]. intros Sp.
    rewrite <- app_assoc in E. cbn [app] in E. cbn [plevel]. destruct loop as [|loop]; [lia|]. cbn [parse_e2].
    destruct (IHa f fuel fuel s o (tb ++ h :: r) E L1 L2 L2 D) as [X _].
    specialize (X ltac:(eapply stops_at; [rewrite To; reflexivity|lia])). cbn [plevel] in X. rewrite (bind_ok _ _ _ _ _ X).
    yes.
    cbv iota. rewrite after_after, orb_false_r.
    destruct (IHb f loop fuel (after s (tb ++ h :: r) (effectful a)) h r eq_refl ltac:(len) ltac:(len) ltac:(len) D) as [Y _].
    specialize (Y Sp). cbn [plevel] in Y. rewrite (bind_ok _ _ _ _ _ Y).
    unfold check_binary. rewrite (level_nonempty _ _ _ _ _ Ha), (level_nonempty _ _ _ _ _ Hb). rewrite after_after. reflexivity.
  - (* l_and *)
    intros d a b ta tb o Ha IHa Hb IHb To f loop fuel s h r E L1 L2 L3 D. split; [|lia]. intros Sp.
    rewrite <- app_assoc in E. cbn [app] in E. cbn [plevel]. destruct loop as [|loop]; [lia|]. cbn [parse_e3].
    destruct (IHa f fuel fuel s o (tb ++ h :: r) E L1 L2 L2 D) as [X _].
    specialize (X ltac:(eapply stops_at; [rewrite To; reflexivity|lia])). cbn [plevel] in X. rewrite (bind_ok _ _ _ _ _ X).
    yes.
    cbv iota. rewrite after_after, orb_false_r.
    destruct (IHb f loop fuel (after s (tb ++ h :: r) (effectful a)) h r eq_refl ltac:(len) ltac:(len) ltac:(len) D) as [Y _].
    specialize (Y Sp). cbn [plevel] in Y. rewrite (bind_ok _ _ _ _ _ Y).
    unfold check_binary. rewrite (level_nonempty _ _ _ _ _ Ha), (level_nonempty _ _ _ _ _ Hb). rewrite after_after. reflexivity.
  - (* l_compare *)
    intros d op a b ta tb o Ha IHa Hb IHb To f loop fuel s h r E L1 L2 L3 D. split; [|lia]. intros Sp.
    rewrite <- !app_assoc in E. cbn [plevel]. unfold parse_e4.
    assert (MC : forall c s0, ptoks s0 = tb ++ h :: r -> length (ptoks s0) <= f -> length (ptoks s0) < fuel -> fits_depth s0 d ->
        make_comparison (parse_expr f) fuel a c s0 = POk (after s0 (h :: r) (effectful b)) (NCmp c a b)).
    { intros c s0 E0 L4 L5 D0. unfold make_comparison. destruct (IHb f fuel fuel s0 h r E0 L4 L5 L5 D0) as [Y _].
      specialize (Y ltac:(eapply stops_up; [exact Sp|lia])).
      change (parse_e5 (parse_expr f) fuel s0 = POk (after s0 (h :: r) (effectful b)) b) in Y. rewrite (bind_ok _ _ _ _ _ Y).
      unfold check_binary. rewrite (level_nonempty _ _ _ _ _ Ha), (level_nonempty _ _ _ _ _ Hb). reflexivity. }
    destruct o as [|o1 o2]; [destruct op; discriminate To|]. cbn [map] in To. cbn [app] in E.
    assert (T1 : cont (ty o1) = Some 3) by (destruct op; injection To as -> _; reflexivity).
    destruct (IHa f fuel fuel s o1 (o2 ++ tb ++ h :: r) E L1 L2 L2 D) as [X _].
    specialize (X ltac:(eapply stops_at; [exact T1|lia])).
    change (parse_e5 (parse_expr f) fuel s = POk (after s (o1 :: o2 ++ tb ++ h :: r) (effectful a)) a) in X.
    rewrite (bind_ok _ _ _ _ _ X). unfold comparisons. cbn [try_comparisons].
    set (s1 := after s (o1 :: o2 ++ tb ++ h :: r) (effectful a)).
    assert (NoN : o2 ++ tb ++ h :: r <> []) by (destruct o2, tb; discriminate).
    assert (NoM : tb ++ h :: r <> []) by (destruct tb; discriminate).
    destruct op; cbn [compare_signs] in To.
    1-7: (destruct o2; [|discriminate To]); injection To as To; cbn [app] in *;
      repeat (no);
      yes; cbv iota;
      rewrite MC; [unfold s1; rewrite !after_after, ?orb_false_r; cbn [orb]; reflexivity|reflexivity|len|len|exact D].
    destruct o2 as [|o2 [|? ?]]; [discriminate To| |discriminate To]. injection To as To To2. cbn [app] in *.
    repeat (no).
    yes. cbv iota.
    yes. cbv iota.
    rewrite MC; [unfold s1; rewrite !after_after, ?orb_false_r; cbn [orb]; reflexivity|reflexivity|len|len|exact D].
  - (* l_stray *) intros d a ta o X. discriminate X.
  - (* l_arith *)
    intros d op a b ta tb o Ha IHa Hb IHb To f loop fuel s h r E L1 L2 L3 D.
    destruct (prec_op op) as (Rg & Eop & Et & Co). rewrite <- app_assoc in E. cbn [app] in E.
    assert (X : stops (S (prec op)) h -> exists fuel', length (h :: r) < fuel'
      /\ plevel (parse_expr f) (prec op) loop fuel s
         = arith_loop (plevel (parse_expr f) (S (prec op)) loop fuel) op fuel' (NArith op a b) (after s (h :: r) (effectful (NArith op a b)))).
    { intros Sp. destruct (IHa f loop fuel s o (tb ++ h :: r) E L1 L2 L3 D) as [_ X].
      destruct (X Rg ltac:(eapply stops_at; [rewrite To; exact Co|lia])) as (fuel' & L4 & X').
      rewrite X', Eop. destruct fuel' as [|fuel']; [lia|]. cbn [arith_loop]. rewrite Et.
      yes. cbv iota.
      rewrite after_after, orb_false_r.
      destruct (IHb f loop fuel (after s (tb ++ h :: r) (effectful a)) h r eq_refl ltac:(len) ltac:(len) ltac:(len) D) as [Y _].
      rewrite (bind_ok _ _ _ _ _ (Y Sp)). unfold check_binary.
      rewrite (level_nonempty _ _ _ _ _ Ha), (level_nonempty _ _ _ _ _ Hb). rewrite after_after. cbn [orb].
      exists fuel'. split; [len|reflexivity]. }
    rewrite Eop. split; [|auto]. intros Sp. destruct (X ltac:(eapply stops_up; [exact Sp|lia])) as (fuel' & L4 & X').
    rewrite X'. destruct fuel' as [|fuel']; [lia|]. cbn [arith_loop]. rewrite Et.
    no.
    reflexivity.
  - (* l_not *)
    intros d n ts o H IH To f loop fuel s h r E L1 L2 L3 D. split; [|lia]. intros Sp. cbn [plevel]. unfold parse_e6.
    cbn [app] in E. yes. cbv iota.
    destruct (IH f fuel fuel (after s (ts ++ h :: r) false) h r eq_refl ltac:(len) ltac:(len) ltac:(len) D) as [X _].
    specialize (X ltac:(eapply stops_up; [exact Sp|lia])). cbn [plevel] in X. rewrite (bind_ok _ _ _ _ _ X).
    rewrite (level_nonempty _ _ _ _ _ H), after_after. reflexivity.
  - (* l_minus *)
    intros d n ts o H IH To f loop fuel s h r E L1 L2 L3 D. split; [|lia]. intros Sp. cbn [plevel]. unfold parse_e6.
    cbn [app] in E. no. cbv iota.
    yes. cbv iota.
    destruct (IH f fuel fuel (after s (ts ++ h :: r) false) h r eq_refl ltac:(len) ltac:(len) ltac:(len) D) as [X _].
    specialize (X ltac:(eapply stops_up; [exact Sp|lia])). cbn [plevel] in X. rewrite (bind_ok _ _ _ _ _ X).
    rewrite (level_nonempty _ _ _ _ _ H), after_after. reflexivity.
  - (* l_stringify *)
    intros d n ts o H IH To f loop fuel s h r E L1 L2 L3 D. split; [|lia]. intros Sp. cbn [plevel]. unfold parse_e6.
    cbn [app] in E. no. cbv iota.
    no. cbv iota.
    yes. cbv iota.
    destruct (IH f fuel fuel (after s (ts ++ h :: r) false) h r eq_refl ltac:(len) ltac:(len) ltac:(len) D) as [X _].
    specialize (X ltac:(eapply stops_up; [exact Sp|lia])). cbn [plevel] in X. rewrite (bind_ok _ _ _ _ _ X).
    rewrite (level_nonempty _ _ _ _ _ H), after_after. reflexivity.
  - (* l_chain *)
    intros d hd ls th tl H IH Hl IHl Ne f loop fuel s h r E L1 L2 L3 D. split; [|lia]. intros Sp. cbn [plevel]. unfold parse_e7.
    rewrite <- app_assoc in E.
    assert (exists h1 r1, tl ++ h :: r = h1 :: r1) as (h1 & r1 & E1) by (destruct tl; cbn; eauto).
    rewrite E1 in E. destruct (IH f fuel fuel s h1 r1 E L1 L2 L2 D) as [X _].
    specialize (X ltac:(intros j C; destruct (ty h1); cbn in C; try discriminate C; injection C as <-; lia)). cbn [plevel] in X.
    rewrite (bind_ok _ _ _ _ _ X). rewrite (level_nonempty _ _ _ _ _ H).
    rewrite (bind_ok _ _ _ _ _ (IHl f fuel (after s (h1 :: r1) (effectful hd)) h r (eq_sym E1) ltac:(len) ltac:(len) D Sp)).
    rewrite after_after. destruct ls; [now destruct Ne|]. reflexivity.
  - (* l_paren *)
    intros d n ts o c H IH To Tc f loop fuel s h r E L1 L2 L3 D. split; [|lia]. intros _. cbn [plevel]. unfold parse_e8.
    cbn [app] in E. rewrite <- app_assoc in E. cbn [app] in E.
    yes. cbv iota.
    rewrite (bind_ok _ _ _ _ _ (IH f (after s _ false) c (h :: r) eq_refl ltac:(len) D ltac:(eapply stops_none; rewrite Tc; reflexivity))).
    rewrite after_after.
    yes.
    rewrite (expr_nonempty _ _ _ _ H), after_after, orb_false_r. reflexivity.
  - (* l_array *)
    intros d l ts o c H IH To Tc f loop fuel s h r E L1 L2 L3 D. split; [|lia]. intros _. cbn [plevel]. unfold parse_e8.
    cbn [app] in E. rewrite <- app_assoc in E. cbn [app] in E.
    no. cbv iota.
    yes. cbv iota.
    rewrite (bind_ok _ _ _ _ _ (IH f fuel (after s _ false) c (h :: r) eq_refl ltac:(len) ltac:(len) D Tc)).
    rewrite after_after.
    yes.
    rewrite after_after, orb_false_r. reflexivity.
  - (* l_dict *)
    intros d l ts o c H IH To Tc f loop fuel s h r E L1 L2 L3 D. split; [|lia]. intros _. cbn [plevel]. unfold parse_e8.
    cbn [app] in E. rewrite <- app_assoc in E. cbn [app] in E.
    no. cbv iota.
    no. cbv iota.
    yes. cbv iota.
    rewrite (bind_ok _ _ _ _ _ (IH f fuel (after s _ false) c (h :: r) eq_refl ltac:(len) ltac:(len) D Tc)).
    rewrite after_after.
    yes.
    rewrite after_after, orb_false_r. reflexivity.
  - (* atoms *)
    intros d o To f loop fuel s h r E L1 L2 L3 D. split; [|lia]. intros _. cbn [plevel app] in *. unfold parse_e8, parse_e9.
    repeat (no).
    yes. reflexivity.
  - intros d o To f loop fuel s h r E L1 L2 L3 D. split; [|lia]. intros _. cbn [plevel app] in *. unfold parse_e8, parse_e9.
    repeat (no).
    yes. reflexivity.
  - intros d o To f loop fuel s h r E L1 L2 L3 D. split; [|lia]. intros _. cbn [plevel app] in *. unfold parse_e8, parse_e9.
    repeat (no).
    yes. reflexivity.
  - intros d o To f loop fuel s h r E L1 L2 L3 D. split; [|lia]. intros _. cbn [plevel app] in *. unfold parse_e8, parse_e9.
    repeat (no).
    yes. reflexivity.
  - intros d o To f loop fuel s h r E L1 L2 L3 D. split; [|lia]. intros _. cbn [plevel app] in *. unfold parse_e8, parse_e9.
    repeat (no).
    yes. reflexivity.
  - (* k_nil *)
    intros d f fuel s h r E L1 L2 D Sp. cbn [app] in E. destruct fuel as [|fuel]; [lia|]. cbn [parse_chained].
    do 3 (no).
    unfold ret. rewrite <- E. now rewrite after_id.
  - (* k_method *)
    intros d l ls ts tl p i o c Ha IHa Hl IHl Tp Ti To Tc f fuel s h r E L1 L2 D Sp.
    cbn [app] in E. rewrite <- app_assoc in E. cbn [app] in E. destruct fuel as [|fuel]; [lia|]. cbn [parse_chained].
    yes. cbv iota.
    assert (X : parse_method (parse_expr f) fuel (after s (i :: o :: ts ++ c :: tl ++ h :: r) false)
                = POk (after s (tl ++ h :: r) true) (LMethod (str i) l)).
    { unfold parse_method. unfold modify at 1. unfold bind at 1. rewrite with_effect_after, after_after, after_toks.
      yes. cbv iota.
      rewrite after_after. yes.
      rewrite after_after.
      rewrite (bind_ok _ _ _ _ _ (IHa f fuel (after s _ _) c (tl ++ h :: r) eq_refl ltac:(len) ltac:(len) D Tc)).
      rewrite after_after. yes.
      rewrite after_after. reflexivity. }
    rewrite (bind_ok _ _ _ _ _ X).
    rewrite (bind_ok _ _ _ _ _ (IHl f fuel (after s _ true) h r eq_refl ltac:(len) ltac:(len) D Sp)).
    rewrite after_after. reflexivity.
  - (* k_index *)
    intros d n ls ts tl o c Hn IHn Hl IHl To Tc f fuel s h r E L1 L2 D Sp.
    cbn [app] in E. rewrite <- app_assoc in E. cbn [app] in E. destruct fuel as [|fuel]; [lia|]. cbn [parse_chained].
    no. cbv iota.
    yes. cbv iota.
    assert (X : parse_index (parse_expr f) (after s (ts ++ c :: tl ++ h :: r) false)
                = POk (after s (tl ++ h :: r) (effectful n)) (LIndex n)).
    { unfold parse_index.
      rewrite (bind_ok _ _ _ _ _ (IHn f (after s _ false) c (tl ++ h :: r) eq_refl ltac:(len) D ltac:(eapply stops_none; rewrite Tc; reflexivity))).
      rewrite (expr_nonempty _ _ _ _ Hn). rewrite after_after.
      yes.
      rewrite after_after, orb_false_r. reflexivity. }
    rewrite (bind_ok _ _ _ _ _ X).
    rewrite (bind_ok _ _ _ _ _ (IHl f fuel (after s _ _) h r eq_refl ltac:(len) ltac:(len) D Sp)).
    rewrite after_after. reflexivity.
  - (* k_call *)
    intros d l ls ts tl o c Ha IHa Hl IHl To Tc f fuel s h r E L1 L2 D Sp.
    cbn [app] in E. rewrite <- app_assoc in E. cbn [app] in E. destruct fuel as [|fuel]; [lia|]. cbn [parse_chained].
    do 2 (no).
    yes. cbv iota.
    unfold modify at 1. unfold bind at 1. rewrite with_effect_after, after_after, after_toks.
    rewrite (bind_ok _ _ _ _ _ (IHa f fuel (after s _ _) c (tl ++ h :: r) eq_refl ltac:(len) ltac:(len) D Tc)).
    rewrite after_after. yes.
    rewrite after_after.
    rewrite (bind_ok _ _ _ _ _ (IHl f fuel (after s _ _) h r eq_refl ltac:(len) ltac:(len) D Sp)).
    rewrite after_after. reflexivity.
  - (* a_nil *)
    intros md d f fuel s h r E L1 L2 D Th. cbn [app] in E. destruct fuel as [|fuel]; [lia|]. cbn [parse_list].
    destruct f as [|f]; [lia|].
    rewrite (bind_ok _ _ _ _ _ (quiet_empty f s h r E ltac:(rewrite Th; destruct md; split; reflexivity) ltac:(unfold fits_depth in D; lia))).
    cbn [is_empty]. unfold ret. rewrite <- E. now rewrite after_id.
  - (* a_last *)
    intros md d it ti H IH f fuel s h r E L1 L2 D Th. destruct fuel as [|fuel]; [lia|].
    rewrite (IH f fuel s h r E L1 D (or_introl Th)).
    assert (ty h <> tok_comma) by (rewrite Th; destruct md; discriminate).
    rewrite (bind_ok (accept tok_comma) _ (after s (h :: r) (item_effect it)) _ false (accept_no tok_comma (after s (h :: r) (item_effect it)) h r eq_refl H0)).
    unfold args_effect. cbn [existsb]. rewrite orb_false_r. reflexivity.
  - (* a_cons *)
    intros md d it l ti tl k H IH Hl IHl Tk f fuel s h r E L1 L2 D Th. rewrite <- app_assoc in E. cbn [app] in E.
    destruct fuel as [|fuel]; [lia|].
    rewrite (IH f fuel s k (tl ++ h :: r) E L1 D (or_intror Tk)). yes. rewrite after_after, orb_false_r.
    rewrite (bind_ok _ _ _ _ _ (IHl f fuel (after s (tl ++ h :: r) (item_effect it)) h r eq_refl ltac:(len) ltac:(len) D Th)).
    rewrite after_after. reflexivity.
  - (* i_value *)
    intros md d n ts Nd H IH f fuel s h r E L D Th. cbn [parse_list].
    assert (Sp : stops 0 h) by (apply stops_none; destruct Th as [-> | ->]; [destruct md|]; reflexivity).
    rewrite (bind_ok _ _ _ _ _ (IH f s h r E L D Sp)). rewrite (expr_nonempty _ _ _ _ H).
    destruct md; [reflexivity|congruence|].
    assert (ty h <> tok_colon) by (destruct Th as [-> | ->]; discriminate).
    unfold bind at 1.
    rewrite (accept_no tok_colon (after s (h :: r) (effectful n)) h r eq_refl H0). reflexivity.
  - (* i_keyword *)
    intros d x v tx tv k Hx IHx Hv IHv Tk f fuel s h r E L D Th. rewrite <- app_assoc in E. cbn [app] in E. cbn [parse_list].
    assert (Sp : stops 0 h) by (apply stops_none; destruct Th as [-> | ->]; reflexivity).
    assert (Sk : stops 0 k) by (apply stops_none; now rewrite Tk).
    rewrite (bind_ok _ _ _ _ _ (IHx f s k _ E L D Sk)). cbn [is_empty]. yes. rewrite after_after. cbn [orb effectful].
    unfold bind at 1.
    rewrite (bind_ok _ _ _ _ _ (IHv f (after s (tv ++ h :: r) false) h r eq_refl ltac:(len) D Sp)).
    rewrite (expr_nonempty _ _ _ _ Hv). rewrite after_after. reflexivity.
  - (* i_entry *)
    intros d n v tn tv k Hn IHn Hv IHv Tk f fuel s h r E L D Th. rewrite <- app_assoc in E. cbn [app] in E. cbn [parse_list].
    assert (Sp : stops 0 h) by (apply stops_none; destruct Th as [-> | ->]; reflexivity).
    assert (Sk : stops 0 k) by (apply stops_none; now rewrite Tk).
    rewrite (bind_ok _ _ _ _ _ (IHn f s k _ E L D Sk)). rewrite (expr_nonempty _ _ _ _ Hn).
    unfold bind at 1. yes. cbn [ret]. cbv iota. rewrite after_after, orb_false_r.
    unfold bind at 1.
    rewrite (bind_ok _ _ _ _ _ (IHv f (after s (tv ++ h :: r) (effectful n)) h r eq_refl ltac:(len) D Sp)).
    rewrite (expr_nonempty _ _ _ _ Hv). rewrite after_after. reflexivity.
Qed.

(** ** Statements *)
Definition block_loop (ignore : bool) (f : nat) : nat -> P (list stmt) :=
  fix block (loop : nat) : P (list stmt) := fun s =>
    match loop with
    | 0 => PNoFuel
    | S loop =>
        let after (l : list stmt) : P (list stmt) :=
          do e <- accept tok_eol;
          if e then do r <- block loop; ret (l ++ r) else ret l in
        match parse_line ignore (S f) (parse_block ignore f) s with
        | POk s (Some st) => after [st] s
        | POk s None => after [] s
        | PErr s => (modify (with_valid false);; consume_until tok_eol;; after []) s
        | PAbort => PAbort
        | PNoFuel => PNoFuel
        end
    end.
Lemma parse_block_loop ign f : parse_block ign (S f) = block_loop ign f (S f).
Proof. reflexivity. Qed.

Definition nonempty (b : list stmt) : bool := match b with [] => false | _ => true end.
Fixpoint clause_effb (r : clause) : bool :=
  match r with
  | NoClause => false
  | Elif c b r => effectful c || (clause_effb r || nonempty b)
  | Else b => nonempty b
  end.
Definition stmt_effb (st : stmt) : bool :=
  match st with
  | StExpr n => effectful n
  | StIf c b r => effectful c || (clause_effb r || nonempty b)
  | StForeach _ _ n b => effectful n || nonempty b
  | _ => true
  end.
Lemma nonempty_iff b : nonempty b = true <-> b <> [].
Proof. destruct b; cbn; split; congruence. Qed.
Lemma clause_effb_iff r : clause_effb r = true <-> clause_effect r.
Proof.
  induction r as [|c b r IH|b]; cbn.
  - split; [discriminate|]. intros H; inversion H.
  - rewrite !orb_true_iff, nonempty_iff, IH. split.
    + intros [H|[H|H]]; [now apply ce_elif_cond|now apply ce_elif_clause|now apply ce_elif_block].
    + intros H; inversion H; subst; auto.
  - rewrite nonempty_iff. split; [apply ce_else|]. intros H; inversion H; auto.
Qed.
Lemma stmt_effb_iff st : stmt_effb st = true <-> stmt_effect st.
Proof.
  destruct st; cbn; try (split; [constructor|reflexivity]).
  - split; [apply se_expr|]. intros H; inversion H; auto.
  - rewrite !orb_true_iff, nonempty_iff, clause_effb_iff. split.
    + intros [H|[H|H]]; [now apply se_if_cond|now apply se_if_clause|now apply se_if_block].
    + intros H; inversion H; subst; auto.
  - rewrite !orb_true_iff, nonempty_iff. split.
    + intros [H|H]; [now apply se_foreach_list|now apply se_foreach_block].
    + intros H; inversion H; subst; auto.
Qed.

Scheme line_mut := Minimality for line Sort Prop
  with shape_mut := Minimality for shape Sort Prop
  with clauses_mut := Minimality for clauses Sort Prop
  with block_mut := Minimality for block Sort Prop.
Combined Scheme line_ind4 from line_mut, shape_mut, clauses_mut, block_mut.

Definition ends_line (h : token) : Prop := ty h = tok_eol \/ block_end h = true.
Lemma block_end_types h : block_end h = true ->
  ty h = tok_endforeach \/ ty h = tok_else \/ ty h = tok_elif \/ ty h = tok_endif \/ ty h = tok_endfunc \/ ty h = tok_eof.
Proof. unfold block_end. rewrite !orb_true_iff, !is_type_iff. tauto. Qed.
Lemma ends_line_stops h : ends_line h -> stops 0 h /\ ty h <> tok_assign /\ ty h <> tok_plus_assign.
Proof.
  intros H. assert (ty h = tok_eol \/ ty h = tok_endforeach \/ ty h = tok_else \/ ty h = tok_elif \/ ty h = tok_endif \/ ty h = tok_endfunc \/ ty h = tok_eof) as X.
  { destruct H as [->|H]; [auto|]. apply block_end_types in H. tauto. }
  split; [apply stops_none; repeat destruct X as [-> | X]; try reflexivity; now rewrite X|].
  split; intros Y; rewrite Y in X; intuition discriminate.
Qed.
Definition begins_line (t : ttype) : bool :=
  starts_unary t || match t with tok_if | tok_foreach | tok_continue | tok_break => true | _ => false end.
Lemma line_heads lax ign d :
  (forall k st ts, line lax ign d k st ts -> head begins_line ts)
  /\ (forall k st ts, shape lax ign d k st ts -> head begins_line ts)
  /\ (forall k r ts, clauses lax ign d k r ts -> r <> NoClause -> head (fun t => match t with tok_elif | tok_else => true | _ => false end) ts)
  /\ (forall k l ts, block lax ign d k l ts -> True).
Proof.
  apply line_ind4; intros; auto; try (eapply head_one; [eassumption|reflexivity]); try congruence.
  all: try (apply head_app); match goal with H : expr _ _ _ _ |- _ => apply expr_head in H; eapply head_impl; [|exact H] end;
    intros t X; unfold begins_line; now rewrite X.
Qed.
Lemma line_head lax ign d k st ts : line lax ign d k st ts -> head begins_line ts.
Proof. apply line_heads. Qed.

Lemma after_eq s r e e' : e = e' -> after s r e = after s r e'.
Proof. now intros ->. Qed.

Section READS.
Context (ign : bool) (d : nat).
Definition R_block k l ts : Prop := forall f loop s h r,
  ptoks s = ts ++ h :: r -> length (ptoks s) <= f -> length (ptoks s) < loop -> fits_depth s d -> loop_depth s = k ->
  block_end h = true ->
  block_loop ign f loop s = POk (after s (h :: r) false) l.
Definition R_line k st ts : Prop := forall f s h r,
  ptoks s = ts ++ h :: r -> length (ptoks s) <= f -> fits_depth s d -> loop_depth s = k -> ends_line h ->
  parse_line ign (S f) (parse_block ign f) s = POk (after s (h :: r) false) (Some st).
(** the part of parse_line between the changes of the flag *)
Definition line_body (f : nat) : P (option (option stmt)) :=
  do i <- accept tok_if;
  (if i then recovered (parse_if (S f) (parse_block ign f)) tok_endif
   else
     do g <- accept tok_foreach;
     if g then recovered (parse_foreach (S f) (parse_block ign f)) tok_endforeach
     else
       do c <- accept tok_continue;
       if c then in_loop StContinue
       else
         do b <- accept tok_break;
         if b then in_loop StBreak
         else do st <- parse_assignment (S f); ret (Some st)).
Definition R_shape k st ts : Prop := forall f s h r,
  ptoks s = ts ++ h :: r -> length (ptoks s) <= f -> fits_depth s d -> loop_depth s = k -> ends_line h ->
  line_body f s = POk (after s (h :: r) (stmt_effb st)) (Some (Some st)).
Definition R_clauses k r ts : Prop := forall f loop s h r0,
  ptoks s = ts ++ h :: r0 -> length (ptoks s) < f -> length (ptoks s) < loop -> fits_depth s d -> loop_depth s = k -> ty h = tok_endif ->
  parse_clauses (S f) (parse_block ign f) loop s = POk (after s (h :: r0) (clause_effb r)) r.

Lemma block_effect_after b s : block_effect b s = POk (after s (ptoks s) (nonempty b)) tt.
Proof.
  destruct b; cbn [block_effect nonempty]; unfold ret, modify.
  - now rewrite after_id.
  - now rewrite with_effect_after.
Qed.
Lemma R_nested k b tb f s h r : R_block k b tb -> ptoks s = tb ++ h :: r -> length (ptoks s) < f -> fits_depth s d ->
  loop_depth s = k -> block_end h = true -> parse_block ign f s = POk (after s (h :: r) false) b.
Proof.
  intros R E L D K B. destruct f as [|f]; [lia|]. rewrite parse_block_loop. eapply R; eauto; lia.
Qed.
Lemma drop_eols_app a h r : (forall x, In x a -> ty x = tok_eol) -> ty h <> tok_eol -> drop_eols (a ++ h :: r) = h :: r.
Proof.
  induction a as [|x a IH]; intros A N; cbn [app].
  - cbn [drop_eols]. destruct r; [reflexivity|]. now rewrite is_type_no.
  - destruct (a ++ h :: r) as [|y z] eqn:E; [now destruct a|]. cbn [drop_eols]. rewrite is_type_yes by (apply A; now left).
    fold (drop_eols (y :: z)). apply IH; auto. intros w W. apply A. now right.
Qed.
Lemma drop_eols_cons e l : ty e = tok_eol -> l <> [] -> drop_eols (e :: l) = drop_eols l.
Proof. intros T N. destruct l; [congruence|]. cbn [drop_eols]. now rewrite is_type_yes. Qed.
Lemma drop_eols_head h r : ty h <> tok_eol -> drop_eols (h :: r) = h :: r.
Proof. intros N. now apply (drop_eols_app []). Qed.
Lemma block_loop_eols f loop s s' : drop_eols (ptoks s) = drop_eols (ptoks s') -> (forall r, with_toks r s = with_toks r s') ->
  block_loop ign f loop s = block_loop ign f loop s'.
Proof.
  intros E W. destruct loop as [|loop]; [reflexivity|]. cbn [block_loop].
  assert (X : parse_line ign (S f) (parse_block ign f) s = parse_line ign (S f) (parse_block ign f) s').
  { unfold parse_line, bind at 1, modify at 1. unfold bind at 5. unfold modify at 2. rewrite E. now rewrite W. }
  now rewrite X.
Qed.
Lemma recovered_ok m t s s0 g h r e st : m s = POk (after s0 (g :: h :: r) e) st -> ty g = t ->
  recovered m t s = POk (after s0 (h :: r) e) (Some (Some st)).
Proof.
  intros M T. unfold recovered. rewrite M.
  rewrite (bind_ok _ _ _ _ _ (expect_yes t (after s0 (g :: h :: r) e) g (h :: r) eq_refl ltac:(discriminate) T)).
  rewrite after_after, orb_false_r. reflexivity.
Qed.
Lemma begins_not h : begins_line (ty h) = true -> ty h <> tok_eol /\ block_end h = false.
Proof.
  intros B. split; [intros X; rewrite X in B; discriminate|]. destruct (block_end h) eqn:X; [|reflexivity].
  apply block_end_types in X. repeat destruct X as [X|X]; rewrite X in B; discriminate.
Qed.

Theorem reads_statements :
  (forall k st ts, line false ign d k st ts -> R_line k st ts)
  /\ (forall k st ts, shape false ign d k st ts -> R_shape k st ts)
  /\ (forall k r ts, clauses false ign d k r ts -> R_clauses k r ts)
  /\ (forall k l ts, block false ign d k l ts -> R_block k l ts).
Proof.
  destruct reads_grammar as (RE & _).
  apply line_ind4.
  - (* st_line *)
    intros k st ts H IH Ef f s h r E L D K T.
    destruct (proj1 (proj2 (line_heads false ign d)) _ _ _ H) as (h0 & t0 & Et & B).
    destruct (begins_not _ B) as [N1 N2].
    unfold parse_line. unfold bind at 1, modify at 1. rewrite E, Et. cbn [app]. rewrite drop_eols_head by assumption.
    cbn [ptoks with_toks]. rewrite N2.
    specialize (IH f (with_effect false s) h r E L D K T).
    unfold bind at 1, modify at 1. unfold line_body in IH.
    assert (W : with_effect false (with_toks (h0 :: t0 ++ h :: r) s) = with_effect false s).
    { unfold with_effect, with_toks. cbn. rewrite E, Et. reflexivity. }
    rewrite W. cbn [effect with_toks].
    unfold bind at 1. unfold bind at 1 in IH.
    destruct (accept tok_if (with_effect false s)) as [s' i|s'| |] eqn:A; try discriminate IH.
    rewrite (bind_ok _ _ _ _ _ IH). cbn [effect after with_effect orb].
    assert (negb ign && negb (stmt_effb st) = false) as ->.
    { destruct Ef as [->|Ef]; [reflexivity|]. apply stmt_effb_iff in Ef. rewrite Ef. apply andb_false_r. }
    cbn [orb]. unfold after, with_effect. cbn. now rewrite orb_false_r.
  - (* st_expr *)
    intros k n ts H f s h r E L D K T. destruct (ends_line_stops _ T) as (Sp & Na & Np).
    destruct (expr_head _ _ _ _ H) as (h0 & t0 & Et & B). unfold line_body.
    assert (NB : forall t, starts_unary t = false -> ty h0 <> t) by (intros t X Y; congruence).
    rewrite Et in E. cbn [app] in E.
    no.
    no.
    no.
    no.
    unfold parse_assignment, bind at 1.
    rewrite (bind_ok _ _ _ _ _ (RE _ _ _ H (S f) s h r ltac:(rewrite Et; exact E) ltac:(lia) D Sp)).
    no.
    no.
    rewrite (expr_nonempty _ _ _ _ H). reflexivity.
  - (* st_assign *)
    intros k x n tx tn o Hx Hn To f s h r E L D K T. destruct (ends_line_stops _ T) as (Sp & Na & Np).
    destruct (expr_head _ _ _ _ Hx) as (h0 & t0 & Et & B). unfold line_body. rewrite <- app_assoc in E. cbn [app] in E.
    assert (NB : forall t, starts_unary t = false -> ty h0 <> t) by (intros t X Y; congruence).
    assert (E0 := E). rewrite Et in E0. cbn [app] in E0.
    no.
    no.
    no.
    no.
    unfold parse_assignment, bind at 1.
    rewrite (bind_ok _ _ _ _ _ (RE _ _ _ Hx (S f) s o (tn ++ h :: r) E ltac:(lia) D ltac:(apply stops_none; now rewrite To))).
    cbn [effectful].
    no. yes. unfold bind at 1, modify. rewrite with_effect_after, !after_after, after_toks.
    rewrite (bind_ok _ _ _ _ _ (RE _ _ _ Hn (S f) (after s _ _) h r eq_refl ltac:(len) D Sp)).
    rewrite (expr_nonempty _ _ _ _ Hn), after_after. reflexivity.
  - (* st_plus_assign *)
    intros k x n tx tn o Hx Hn To f s h r E L D K T. destruct (ends_line_stops _ T) as (Sp & Na & Np).
    destruct (expr_head _ _ _ _ Hx) as (h0 & t0 & Et & B). unfold line_body. rewrite <- app_assoc in E. cbn [app] in E.
    assert (NB : forall t, starts_unary t = false -> ty h0 <> t) by (intros t X Y; congruence).
    assert (E0 := E). rewrite Et in E0. cbn [app] in E0.
    no.
    no.
    no.
    no.
    unfold parse_assignment, bind at 1.
    rewrite (bind_ok _ _ _ _ _ (RE _ _ _ Hx (S f) s o (tn ++ h :: r) E ltac:(lia) D ltac:(apply stops_none; now rewrite To))).
    cbn [effectful].
    yes. unfold bind at 1, modify. rewrite with_effect_after, !after_after, after_toks.
    rewrite (bind_ok _ _ _ _ _ (RE _ _ _ Hn (S f) (after s _ _) h r eq_refl ltac:(len) D Sp)).
    rewrite (expr_nonempty _ _ _ _ Hn), after_after. reflexivity.
  - (* st_if *)
    intros k c b r tc tb tr i e g Hc Hb IHb Hr IHr Ti Te Tg f s h r0 E L D K T. unfold line_body.
    repeat (cbn [app] in E; rewrite <- app_assoc in E). cbn [app] in E. yes.
    apply (recovered_ok _ _ _ s g h r0); [|exact Tg]. unfold parse_if.
    rewrite (bind_ok _ _ _ _ _ (RE _ _ _ Hc (S f) (after s _ false) e (tb ++ tr ++ g :: h :: r0) eq_refl ltac:(len) D ltac:(apply stops_none; now rewrite Te))).
    rewrite (expr_nonempty _ _ _ _ Hc), after_after. cbn [orb]. yes. rewrite after_after, orb_false_r.
    assert (exists h1 r1, tr ++ g :: h :: r0 = h1 :: r1 /\ block_end h1 = true) as (h1 & r1 & E1 & B1).
    { pose proof (proj1 (proj2 (proj2 (line_heads false ign d))) _ _ _ Hr) as X. destruct r.
      - inversion Hr; subst. cbn. eexists _, _. split; [reflexivity|]. unfold block_end. rewrite !(is_type_no _ g) by (rewrite Tg; discriminate).
        now rewrite (is_type_yes tok_endif g).
      - destruct X as (h1 & t1 & -> & X); [discriminate|]. cbn. eexists _, _. split; [reflexivity|]. unfold block_end, is_type. now destruct (ty h1).
      - destruct X as (h1 & t1 & -> & X); [discriminate|]. cbn. eexists _, _. split; [reflexivity|]. unfold block_end, is_type. now destruct (ty h1). }
    rewrite E1.
    assert (E2 : length (h1 :: r1) = length tr + 2 + length r0) by (rewrite <- E1, app_length; cbn; lia).
    rewrite (bind_ok _ _ _ _ _ (R_nested _ _ _ f (after s (tb ++ h1 :: r1) (effectful c)) h1 r1 IHb eq_refl ltac:(len) D K B1)).
    rewrite after_after, orb_false_r.
    rewrite (bind_ok _ _ _ _ _ (IHr f (S f) (after s _ _) g (h :: r0) (eq_sym E1) ltac:(len) ltac:(len) D K Tg)).
    rewrite after_after. rewrite (bind_ok _ _ _ _ _ (block_effect_after b _)). rewrite after_after, after_toks.
    unfold ret. cbn [stmt_effb]. now rewrite orb_assoc.
  - (* st_foreach *)
    intros k x n b tn tb i o e g Hn Hb IHb Ti Tx To Te Tg f s h r E L D K T. unfold line_body.
    repeat (cbn [app] in E; rewrite <- app_assoc in E). cbn [app] in E. no. yes.
    apply (recovered_ok _ _ _ s g h r); [|exact Tg]. unfold parse_foreach, expect_identifier. unfold bind at 1. yes. rewrite after_after. unfold ret at 1.
    no. unfold bind at 1. unfold ret at 1. yes. rewrite after_after. cbn [orb].
    rewrite (bind_ok _ _ _ _ _ (RE _ _ _ Hn (S f) (after s _ false) e (tb ++ g :: h :: r) eq_refl ltac:(len) D ltac:(apply stops_none; now rewrite Te))).
    rewrite after_after. yes. rewrite (expr_nonempty _ _ _ _ Hn), after_after, orb_false_r. cbn [orb].
    unfold bind at 1, modify at 1. set (s1 := with_loops _ _).
    rewrite (bind_ok _ _ _ _ _ (R_nested _ _ _ f s1 g (h :: r) IHb eq_refl ltac:(len) D ltac:(cbn; now rewrite K)
      ltac:(unfold block_end; now rewrite (is_type_yes tok_endforeach g)))).
    unfold bind at 1, modify at 1. rewrite (bind_ok _ _ _ _ _ (block_effect_after b _)).
    unfold ret. unfold after, s1, with_loops. cbn. now rewrite !orb_false_r, orb_assoc.
  - (* st_foreach2 *)
    intros k x y n b tn tb i p o e g Hn Hb IHb Ti Tx Tp Ty To Te Tg f s h r E L D K T. unfold line_body.
    repeat (cbn [app] in E; rewrite <- app_assoc in E). cbn [app] in E. no. yes.
    apply (recovered_ok _ _ _ s g h r); [|exact Tg]. unfold parse_foreach, expect_identifier. unfold bind at 1. yes. rewrite after_after. unfold ret at 1.
    yes. rewrite after_after. unfold bind at 1. unfold bind at 1. yes. unfold ret at 1. unfold ret at 1. rewrite after_after. yes. rewrite after_after. cbn [orb].
    rewrite (bind_ok _ _ _ _ _ (RE _ _ _ Hn (S f) (after s _ false) e (tb ++ g :: h :: r) eq_refl ltac:(len) D ltac:(apply stops_none; now rewrite Te))).
    rewrite after_after. yes. rewrite (expr_nonempty _ _ _ _ Hn), after_after, orb_false_r. cbn [orb].
    unfold bind at 1, modify at 1. set (s1 := with_loops _ _).
    rewrite (bind_ok _ _ _ _ _ (R_nested _ _ _ f s1 g (h :: r) IHb eq_refl ltac:(len) D ltac:(cbn; now rewrite K)
      ltac:(unfold block_end; now rewrite (is_type_yes tok_endforeach g)))).
    unfold bind at 1, modify at 1. rewrite (bind_ok _ _ _ _ _ (block_effect_after b _)).
    unfold ret. unfold after, s1, with_loops. cbn. now rewrite !orb_false_r, orb_assoc.
  - (* st_continue *)
    intros k i Ti f s h r E L D K T. cbn [app] in E. unfold line_body. do 2 no. yes. unfold in_loop, bind, modify.
    rewrite with_effect_after, after_after. cbn [loop_depth after]. rewrite K. reflexivity.
  - (* st_break *)
    intros k i Ti f s h r E L D K T. cbn [app] in E. unfold line_body. do 3 no. yes. unfold in_loop, bind, modify.
    rewrite with_effect_after, after_after. cbn [loop_depth after]. rewrite K. reflexivity.
  - (* c_none *)
    intros k f loop s h r0 E L1 L2 D K T. destruct loop as [|loop]; [lia|]. cbn [app] in E. cbn [parse_clauses]. do 2 no.
    unfold ret. rewrite <- E. now rewrite after_id.
  - (* c_elif *)
    intros k c b r tc tb tr i e Hc Hb IHb Hr IHr Ti Te f loop s g r0 E L1 L2 D K Tg.
    repeat (cbn [app] in E; rewrite <- app_assoc in E). cbn [app] in E. destruct loop as [|loop]; [lia|]. cbn [parse_clauses]. yes.
    rewrite (bind_ok _ _ _ _ _ (RE _ _ _ Hc (S f) (after s _ false) e (tb ++ tr ++ g :: r0) eq_refl ltac:(len) D ltac:(apply stops_none; now rewrite Te))).
    rewrite (expr_nonempty _ _ _ _ Hc), after_after. cbn [orb]. yes. rewrite after_after, orb_false_r.
    assert (exists h1 r1, tr ++ g :: r0 = h1 :: r1 /\ block_end h1 = true) as (h1 & r1 & E1 & B1).
    { pose proof (proj1 (proj2 (proj2 (line_heads false ign d))) _ _ _ Hr) as X. destruct r.
      - inversion Hr; subst. cbn. eexists _, _. split; [reflexivity|]. unfold block_end. rewrite !(is_type_no _ g) by (rewrite Tg; discriminate).
        now rewrite (is_type_yes tok_endif g).
      - destruct X as (h1 & t1 & -> & X); [discriminate|]. cbn. eexists _, _. split; [reflexivity|]. unfold block_end, is_type. now destruct (ty h1).
      - destruct X as (h1 & t1 & -> & X); [discriminate|]. cbn. eexists _, _. split; [reflexivity|]. unfold block_end, is_type. now destruct (ty h1). }
    rewrite E1.
    assert (E2 : length (h1 :: r1) = length tr + 1 + length r0) by (rewrite <- E1, app_length; cbn; lia).
    rewrite (bind_ok _ _ _ _ _ (R_nested _ _ _ f (after s (tb ++ h1 :: r1) (effectful c)) h1 r1 IHb eq_refl ltac:(len) D K B1)).
    rewrite after_after, orb_false_r.
    rewrite (bind_ok _ _ _ _ _ (IHr f loop (after s _ _) g r0 (eq_sym E1) ltac:(len) ltac:(len) D K Tg)).
    rewrite after_after. rewrite (bind_ok _ _ _ _ _ (block_effect_after b _)). rewrite after_after, after_toks.
    unfold ret. cbn [clause_effb]. now rewrite orb_assoc.
  - (* c_else *)
    intros k b tb i e Hb IHb Ti Te f loop s g r0 E L1 L2 D K Tg.
    cbn [app] in E. destruct loop as [|loop]; [lia|]. cbn [parse_clauses]. no. yes. yes. rewrite after_after. cbn [orb].
    rewrite (bind_ok _ _ _ _ _ (R_nested _ _ _ f (after s (tb ++ g :: r0) false) g r0 IHb eq_refl ltac:(len) D K
       ltac:(unfold block_end; rewrite (is_type_yes tok_endif g Tg); now rewrite !orb_true_r))).
    rewrite after_after. rewrite (bind_ok _ _ _ _ _ (block_effect_after b _)). rewrite after_after, after_toks. reflexivity.
  - (* b_nil *)
    intros k f loop s h r E L1 L2 D K B. destruct loop as [|loop]; [lia|]. cbn [app] in E. cbn [block_loop].
    assert (Ne : ty h <> tok_eol) by (apply block_end_types in B; intros X; rewrite X in B; intuition discriminate).
    unfold parse_line. unfold bind at 1, modify at 1. rewrite E. rewrite drop_eols_head by assumption.
    cbn [ptoks with_toks]. rewrite B.
    rewrite with_toks_after. no. reflexivity.
  - (* b_eol *)
    intros k l ts e H IH Te f loop s h r E L1 L2 D K B. cbn [app] in E.
    rewrite (block_loop_eols f loop s (after s (ts ++ h :: r) false)).
    + rewrite (IH f loop (after s (ts ++ h :: r) false) h r eq_refl ltac:(len) ltac:(len) D K B). now rewrite after_after.
    + rewrite E, after_toks. apply drop_eols_cons; [assumption|]. now destruct ts.
    + intros r1. unfold with_toks, after. cbn. now rewrite orb_false_r.
  - (* b_last *)
    intros k st ts H IH f loop s h r E L1 L2 D K B. destruct loop as [|loop]; [lia|]. cbn [block_loop].
    assert (Ne : ty h <> tok_eol) by (apply block_end_types in B; intros X; rewrite X in B; intuition discriminate).
    rewrite (IH f s h r E L1 D K (or_intror B)).
    no. reflexivity.
  - (* b_cons *)
    intros k st l ts tl e H IH Hl IHl Te f loop s h r E L1 L2 D K B. destruct loop as [|loop]; [lia|].
    rewrite <- app_assoc in E. cbn [app] in E. cbn [block_loop].
    rewrite (IH f s e (tl ++ h :: r) E L1 D K (or_introl Te)). yes.
    fold (block_loop ign f). rewrite after_after.
    rewrite (bind_ok _ _ _ _ _ (IHl f loop (after s _ _) h r eq_refl ltac:(len) ltac:(len) D K B)). now rewrite after_after.
Qed.
End READS.

(** ** Whole programs *)
Theorem parse_tokens_complete ign d p ts e : program false ign d p ts -> ty e = tok_eof -> (N.of_nat d <= 4096)%N ->
  parse_tokens ign (ts ++ [e]) = Parsed p.
Proof.
  intros H T D. unfold parse_tokens.
  destruct (reads_statements ign d) as (_ & _ & _ & RB).
  pose proof (RB _ _ _ H (length (ts ++ [e])) (S (length (ts ++ [e]))) (mkPs (ts ++ [e]) 0 0 false true) e [] eq_refl
    (le_n _) (le_n _)) as X.
  rewrite parse_block_loop.
  rewrite (bind_ok _ _ _ _ _ (X ltac:(unfold fits_depth; cbn [depth]; lia) eq_refl
     ltac:(unfold block_end; rewrite (is_type_yes tok_eof e T); now rewrite !orb_true_r))).
  unfold expect, accept, last_is, bind. cbn [ptoks after]. rewrite (is_type_yes tok_eof e T). reflexivity.
Qed.
