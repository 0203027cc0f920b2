(** What the formatter writes for expressions is read as the tokens of the expression. *)
From Coq Require Import Permutation.
From Verif Require Import Base M_Lexer S_Lexer M_Parser S_Parser L_Parser M_Fmt S_Fmt L_FmtDry.
Local Arguments B _ : simpl never.

(** ** Pieces of text
    [frag e st t ts]: before any text with the property st, the text t is read as the tokens ts (with e: inside brackets) *)
Definition frag (e : bool) (st : bytes -> Prop) (t : bytes) (ts : list token) : Prop :=
  forall p b c rest us, (e = true -> 0 < p + b + c) -> st rest -> source p b c us rest -> source p b c (ts ++ us) (t ++ rest).
Definition any (_ : bytes) : Prop := True.
Definition stop_chars : list ascii := NL :: B " ,)]}:.[(".
Definition stop (rest : bytes) : Prop := exists c r, rest = c :: r /\ In c stop_chars.
Definition closes (rest : bytes) : Prop := exists c r, rest = c :: r /\ In c (B ")]}").
Definition nlstop (rest : bytes) : Prop := exists r, rest = NL :: r.
Lemma frag_nil e st : frag e st [] [].
Proof. intros p b c rest us _ _ H. exact H. Qed.
Lemma frag_app e st1 st2 t1 ts1 t2 ts2 : frag e st1 t1 ts1 -> frag e st2 t2 ts2 -> (forall rest, st2 rest -> st1 (t2 ++ rest)) ->
  frag e st2 (t1 ++ t2) (ts1 ++ ts2).
Proof. intros H1 H2 H p b c rest us E S X. rewrite <- !app_assoc. apply H1; auto. Qed.
Lemma frag_any e st t ts : frag e any t ts -> frag e st t ts.
Proof. intros H p b c rest us E _ X. apply H; auto. exact Logic.I. Qed.
Lemma frag_st e (st st' : bytes -> Prop) t ts : frag e st t ts -> (forall r, st' r -> st r) -> frag e st' t ts.
Proof. intros H I p b c rest us E S X. apply H; auto. Qed.
Lemma frag_all e st t ts : frag false st t ts -> frag e st t ts.
Proof. intros H p b c rest us E S X. apply H; auto. discriminate. Qed.
Lemma frag_pre e st t1 ts1 t2 ts2 : frag e any t1 ts1 -> frag e st t2 ts2 -> frag e st (t1 ++ t2) (ts1 ++ ts2).
Proof. intros H1 H2. eapply frag_app; eauto. intros; exact Logic.I. Qed.
Lemma frag_blank_char e c : In c [" "%char; TAB; CR] -> frag e any [c] [].
Proof. intros H p b q rest us _ _ X. apply (so_blank p b q [c]); [apply bl_char, H|exact X]. Qed.
Lemma frag_space e : frag e any (B " ") [].
Proof. apply frag_blank_char. left; reflexivity. Qed.
Lemma frag_newline : frag true any [NL] [].
Proof. intros p b q rest us E _ X. apply so_inside; auto. Qed.
Lemma frag_blanks e s : blank_text s -> frag e any s [].
Proof.
  induction 1 as [|c s Hc Hs IH]; [apply frag_nil|]. apply (frag_pre e any [c] [] s []); [|exact IH].
  apply frag_blank_char. destruct Hc as [-> | ->]; cbn; auto.
Qed.
Lemma stop_apart x rest : stop rest -> apart x rest.
Proof.
  intros (c & r & -> & Hc) t a c' r' _ E. injection E as <- <-.
  assert (N : word_char c = false /\ c <> "="%char /\ c <> QUOTE).
  { unfold stop_chars in Hc. cbn in Hc. repeat destruct Hc as [<-|Hc]; try contradiction; repeat split; vm_compute; congruence. }
  destruct N as (N1 & N2 & N3). repeat split.
  - intros [_ W]. rewrite N1 in W. discriminate.
  - intros [_ W]. auto.
  - intros [_ W]. auto.
Qed.
Lemma frag_token e x t : spelled x t -> frag e stop x [t].
Proof. intros H p b c rest us _ S X. apply so_token; auto. apply stop_apart, S. Qed.
Definition sign_char (a : ascii) : Prop := word_char a = false /\ ~ In a (B "+=<>!") /\ a <> QUOTE.
Lemma frag_sign e x t a : spelled (x ++ [a]) t -> sign_char a -> frag e any (x ++ [a]) [t].
Proof.
  intros H (N1 & N2 & N3) p b c rest us _ _ X. apply so_token; auto.
  intros t0 a' c' r' E _. apply app_inj_tail in E. destruct E as [_ <-]. repeat split.
  - intros [W _]. rewrite N1 in W. discriminate.
  - intros [W _]. auto.
  - intros [[W|[W|[]]] _]; subst; [|congruence]. discriminate N1.
Qed.
Lemma frag_lparen e t ts : frag true closes t ts -> frag e any ("("%char :: t ++ B ")") (plain tok_lparen :: ts ++ [plain tok_rparen]).
Proof.
  intros H p b c rest us _ _ X. cbn [app]. apply so_lparen. rewrite <- !app_assoc. apply H; [lia|exists ")"%char, rest; split; [reflexivity|vm_compute; auto]|].
  apply so_rparen. exact X.
Qed.
Lemma frag_lbrack e t ts : frag true closes t ts -> frag e any ("["%char :: t ++ B "]") (plain tok_lbrack :: ts ++ [plain tok_rbrack]).
Proof.
  intros H p b c rest us _ _ X. cbn [app]. apply so_lbrack. rewrite <- !app_assoc. apply H; [lia|exists "]"%char, rest; split; [reflexivity|vm_compute; auto]|].
  apply so_rbrack. exact X.
Qed.
Lemma frag_lcurl e t ts : frag true closes t ts -> frag e any ("{"%char :: t ++ B "}") (plain tok_lcurl :: ts ++ [plain tok_rcurl]).
Proof.
  intros H p b c rest us _ _ X. cbn [app]. apply so_lcurl. rewrite <- !app_assoc. apply H; [lia|exists "}"%char, rest; split; [reflexivity|vm_compute; auto]|].
  apply so_rcurl. exact X.
Qed.
(** followed by a stop *)
Lemma frag_close e st t ts t2 ts2 c r : frag e stop t ts -> frag e st t2 ts2 -> t2 = c :: r -> In c stop_chars -> frag e st (t ++ t2) (ts ++ ts2).
Proof. intros H1 H2 -> Hc. eapply frag_app; eauto. intros rest _. exists c, (r ++ rest). auto. Qed.

Scheme stands_expr_mut := Minimality for stands_expr Sort Prop
  with stands_mut := Minimality for stands Sort Prop
  with stands_links_mut := Minimality for stands_links Sort Prop
  with stands_link_mut := Minimality for stands_link Sort Prop
  with stands_args_mut := Minimality for stands_args Sort Prop.
Combined Scheme stands_ind5 from stands_expr_mut, stands_mut, stands_links_mut, stands_link_mut, stands_args_mut.
Scheme stands_lines_mut := Minimality for stands_lines Sort Prop
  with stands_stmt_mut := Minimality for stands_stmt Sort Prop
  with stands_clause_mut := Minimality for stands_clause Sort Prop.
Combined Scheme stands_ind3 from stands_lines_mut, stands_stmt_mut, stands_clause_mut.
(** ** Running *)
Definition wrote (c c' : fctx) (t : bytes) (tr : bool) : Prop :=
  out c' = out c ++ t /\ indent c' = indent c /\ enclosed c' = enclosed c /\ trailing c' = tr.
Definition nonempty {A} (l : list A) : bool := match l with [] => false | _ => true end.
Definition sep_text (f : fst_) : bytes := match f_sep f with Some s => s | None => [] end.
Definition rel := fst_ -> nat -> nat -> bytes -> bool -> Prop.

Section RUN.
Variable o : fopts.
Variable qsort : (item -> item -> Z) -> list item -> list item.
Hypothesis sorts : forall cmp l, Permutation (qsort cmp l) l.
Hypothesis blanks : blank_text (indent_by o).
Notation maxl := (max_line_len o).
Notation node_ := (fmt_node o qsort).
Notation fine := (fine o).

Definition indtext (i : nat) : bytes := concat (repeat (indent_by o) i).
Lemma indtext_blank i : blank_text (indtext i).
Proof. induction i as [|i IH]; cbn; [constructor|]. apply Forall_app. split; [exact blanks|exact IH]. Qed.
Fixpoint comment_text (i : nat) (cs : comments) (leading : bool) : bytes :=
  match cs with
  | [] => []
  | x :: cs' => (if leading then B " " else []) ++ B "#" ++ x
                ++ match cs' with [] => [] | _ => NL :: indtext i ++ comment_text i cs' false end
  end.

Definition dryfit (a : fst_ -> F) f c : Prop :=
  space_array o = false /\ f_ml f = false /\ f_and_or f = false /\
  exists c1 L d1, trailing c1 = false /\ a (set_write false f) c1 = (L, d1) /\ force_ml d1 = false /\ (col c + L <= maxl)%N.
Definition regime (a : fst_ -> F) (cm : Prop) f c : Prop := 0 < enclosed c \/ (f_and_or f = false /\ cm) \/ dryfit a f c.
Definition does (a : fst_ -> F) (cm : Prop) (R : rel) : Prop :=
  forall f c, f_write f = true -> f_parent f = [] -> trailing c = false -> regime a cm f c ->
  exists L c' t tr, a f c = (L, c') /\ wrote c c' t tr /\ R f (enclosed c) (indent c) t tr.
Definition still (R : rel) : Prop := forall f e i t tr, R f e i t tr -> tr = false.

Lemma does_weaken a (cm cm' : Prop) (R R' : rel) : does a cm R -> (cm' -> cm) -> (forall f e i t tr, f_parent f = [] -> (0 < e \/ f_and_or f = false) -> R f e i t tr -> R' f e i t tr) -> does a cm' R'.
Proof.
  intros H Hc HR f c W P Tr G. destruct (H f c W P Tr) as (L & c' & t & tr & E & Wr & X).
  - destruct G as [G|[[G1 G2]|G]]; [left|right; left|right; right]; auto.
  - exists L, c', t, tr. repeat split; try apply Wr; auto. apply HR; auto. destruct G as [G|[[G1 G2]|G]]; auto. right. apply G.
Qed.
Lemma does_ext a b cm R : (forall f c, a f c = b f c) -> does a cm R -> does b cm R.
Proof.
  intros E H f c W P Tr G. destruct (H f c W P Tr) as (L & c' & t & tr & E' & X).
  - destruct G as [G|[G|G]]; [left; auto|right; left; auto|right; right].
    destruct G as (S & M & A & c1 & L & d1 & T1 & E1 & X). repeat split; auto. exists c1, L, d1. rewrite E. auto.
  - exists L, c', t, tr. rewrite <- E. auto.
Qed.
Lemma does_map h a cm R :
  (forall f, f_write (h f) = f_write f) -> (forall f, f_ml (h f) = f_ml f) -> (forall f, f_and_or (h f) = f_and_or f) ->
  (forall f, f_parent f = [] -> f_parent (h f) = []) ->
  (forall w f, h (set_write w f) = set_write w (h f)) -> does a cm R -> does (fun f => a (h f)) cm (fun f => R (h f)).
Proof.
  intros H1 H2 H3 H4 H5 H f c W P Tr G. apply H; [rewrite H1; auto|auto|auto|].
  destruct G as [G|[G|G]]; [left; auto|right; left; rewrite H3; auto|right; right].
  destruct G as (S & M & A & c1 & L & d1 & T1 & E1 & X). split; [auto|]. split; [rewrite H2; auto|]. split; [rewrite H3; auto|].
  exists c1, L, d1. rewrite <- H5. auto.
Qed.
Lemma does_setup a cm R : does a cm R -> does (fun f => a (setup f)) cm (fun f => R (setup f)).
Proof. apply does_map; auto. Qed.
(** sequences *)
Lemma fit_first a b f c : fine a -> fine b -> dryfit (fun f => a f +> b f) f c -> dryfit a f c.
Proof.
  intros [Da _] [Db _] (S & M & A & c1 & L & d1 & T1 & E1 & X1 & X2). repeat split; auto.
  unfold seq in E1. destruct (Da (set_write false f) c1 eq_refl T1) as (La & ba & Ea & Fa). rewrite Ea in E1.
  destruct (Db (set_write false f) (set_force ba c1) eq_refl T1) as (Lb & bb & Eb & Fb). rewrite Eb in E1.
  injection E1 as <- <-. cbn in X1. subst bb. exists c1, La, (set_force ba c1). repeat split; auto; [|lia].
  cbn. destruct ba; [|reflexivity]. discriminate (Fb eq_refl).
Qed.
Lemma set_write_back f : f_write f = true -> set_write true (set_write false f) = f.
Proof. destruct f; cbn; intros ->; reflexivity. Qed.
Lemma fit_second a b f c L c' : fine a -> fine b -> f_write f = true -> trailing c = false -> dryfit (fun f => a f +> b f) f c -> a f c = (L, c') ->
  dryfit b f c'.
Proof.
  intros [Da Ta] [Db _] W Tr (S & M & A & c1 & L1 & d1 & T1 & E1 & X1 & X2) E. repeat split; auto.
  unfold seq in E1. destruct (Da (set_write false f) c1 eq_refl T1) as (La & ba & Ea & Fa). rewrite Ea in E1.
  destruct (Db (set_write false f) (set_force ba c1) eq_refl T1) as (Lb & bb & Eb & Fb). rewrite Eb in E1.
  injection E1 as <- <-. cbn in X1. subst bb.
  assert (ba = false) by (destruct ba; [discriminate (Fb eq_refl)|reflexivity]). subst ba.
  destruct (Ta S (set_write false f) c1 La _ eq_refl M A T1 Ea eq_refl true c Tr ltac:(lia)) as (t & Et).
  rewrite set_write_back in Et by exact W. rewrite Et in E. injection E as <- <-.
  exists (set_force false c1), Lb, (set_force false (set_force false c1)). repeat split; auto. cbn. lia.
Qed.
Definition rseq (Ra Rb : rel) : rel := fun f e i t tr => exists t1 t2, t = t1 ++ t2 /\ Ra f e i t1 false /\ Rb f e i t2 tr.
Lemma does_seq a b cma cmb Ra Rb : fine a -> fine b -> still Ra -> does a cma Ra -> does b cmb Rb ->
  does (fun f => a f +> b f) (cma /\ cmb) (rseq Ra Rb).
Proof.
  intros Fa Fb St Ha Hb f c W P Tr G.
  destruct (Ha f c W P Tr) as (La & ca & ta & tra & Ea & (Wa1 & Wa2 & Wa3 & Wa4) & Xa).
  { destruct G as [G|[[G1 [G2 _]]|G]]; [left; auto|right; left; auto|right; right; apply (fit_first a b f c Fa Fb G)]. }
  assert (tra = false) by (eapply St; eauto). subst tra.
  destruct (Hb f ca W P) as (Lb & cb & tb & trb & Eb & (Wb1 & Wb2 & Wb3 & Wb4) & Xb); [assumption| |].
  { destruct G as [G|[[G1 [_ G2]]|G]]; [left; rewrite Wa3; auto|right; left; auto|right; right; apply (fit_second a b f c La ca Fa Fb W Tr G Ea)]. }
  exists (La + Lb)%N, cb, (ta ++ tb), trb. unfold seq. rewrite Ea, Eb. split; [reflexivity|]. split.
  - repeat split; try congruence. rewrite Wb1, Wa1, app_assoc. reflexivity.
  - exists ta, tb. rewrite Wa2, Wa3 in Xb. rewrite H in Xa. auto.
Qed.
Lemma still_seq Ra Rb : still Rb -> still (rseq Ra Rb).
Proof. intros H f e i t tr (t1 & t2 & _ & _ & X). eapply H; eauto. Qed.

(** the basic functions *)
Definition rtext (s : bytes) : rel := fun _ _ _ t tr => t = s /\ tr = false.
Lemma still_text s : still (rtext s).
Proof. intros f e i t tr [_ H]. exact H. Qed.
Lemma writes_run s f c : f_write f = true -> exists L n, fmt_writes f s c = (L, adv s n c).
Proof.
  intros W. revert c. induction s as [|ch s IH]; intros c.
  - exists 0%N, 0%N. rewrite adv_nil. reflexivity.
  - cbn [fmt_writes]. unfold seq, fmt_write at 1. rewrite W.
    destruct (IH (Ctx (out c ++ [ch]) (col c + width ch)%N (indent c) (enclosed c) (force_ml c) (trailing c))) as (L & n & E).
    rewrite E. eexists _, (width ch + n)%N. unfold adv. cbn. rewrite <- app_assoc, N.add_assoc. reflexivity.
Qed.
Lemma does_writes s cm : does (fun f => fmt_writes f s) cm (rtext s).
Proof.
  intros f c W P Tr _. destruct (writes_run s f c W) as (L & n & E). rewrite E.
  exists L, (adv s n c), s, false. repeat split; auto.
Qed.
Lemma does_write ch cm : does (fun f => fmt_write f ch) cm (rtext [ch]).
Proof.
  intros f c W P Tr _. unfold fmt_write. rewrite W. eexists _, _, [ch], false. split; [reflexivity|]. repeat split; auto.
Qed.
Lemma does_nothing cm : does (fun _ => nothing) cm (rtext []).
Proof. intros f c W P Tr _. exists 0%N, c, [], false. repeat split; auto. rewrite app_nil_r. reflexivity. Qed.
Lemma does_writef s cm : length s <= 4090 -> does (fun f => fmt_writef f s) cm (rtext s).
Proof.
  intros Hs f c W P Tr _. unfold fmt_writef. rewrite W, firstn_short by lia.
  destruct (writes_run s f c W) as (L & n & E). rewrite E.
  exists L, (adv s n c), s, false. repeat split; auto.
Qed.
Lemma does_writeml s cm : does (fun f => fmt_writeml f s) cm (rtext s).
Proof.
  intros f c W P Tr _.
  assert (G : exists L c', fmt_writeml f s c = (L, c') /\ wrote c c' s false).
  { clear P. revert c Tr. induction s as [|ch s IH]; intros c Tr.
    - exists 0%N, c. repeat split; auto. rewrite app_nil_r. reflexivity.
    - cbn [fmt_writeml]. destruct (ceqb_spec ch NL) as [->|_].
      + unfold seq, upd_ctx. rewrite W.
        destruct (IH (Ctx (out c ++ [NL]) 0 (indent c) (enclosed c) true (trailing c)) Tr) as (L & c' & E & (W1 & W2 & W3 & W4)).
        rewrite E. eexists _, c'. split; [reflexivity|]. repeat split; auto. rewrite W1. cbn. rewrite <- app_assoc. reflexivity.
      + unfold seq, fmt_write. rewrite W.
        destruct (IH (Ctx (out c ++ [ch]) (col c + width ch)%N (indent c) (enclosed c) (force_ml c) (trailing c)) Tr) as (L & c' & E & (W1 & W2 & W3 & W4)).
        rewrite E. eexists _, c'. split; [reflexivity|]. repeat split; auto. rewrite W1. cbn. rewrite <- app_assoc. reflexivity. }
  destruct G as (L & c' & E & Wr). exists L, c', s, false. repeat split; auto; apply Wr.
Qed.
Lemma newline_run f blank c : f_write f = true -> f_ml f = true ->
  exists L c', fmt_newline o f blank c = (L, c') /\ wrote c c' (NL :: if blank then [] else indtext (indent c)) false.
Proof.
  intros W M. unfold fmt_newline. rewrite W, M. cbn [andb]. destruct blank; cbn [uncounted].
  - eexists _, _. split; [reflexivity|]. repeat split; auto.
  - unfold uncounted. cbn [indent set_trailing]. fold (indtext (indent c)).
    destruct (writes_run (indtext (indent c)) f (Ctx (out (set_trailing false c) ++ [NL]) 0 (indent (set_trailing false c)) (enclosed (set_trailing false c)) (force_ml (set_trailing false c)) (trailing (set_trailing false c))) W) as (L & n & E).
    cbn [indent set_trailing] in E. rewrite E. eexists _, _. split; [reflexivity|]. repeat split; auto. cbn. rewrite <- app_assoc. reflexivity.
Qed.
Lemma newline_force_run f blank c : f_write f = true ->
  exists L c', fmt_newline_force o f blank c = (L, c') /\ wrote c c' (NL :: if blank then [] else indtext (indent c)) false.
Proof. intros W. apply newline_run; auto. Qed.
Definition is_gap (e i : nat) (t : bytes) : Prop := t = B " " \/ (0 < e /\ t = NL :: indtext i).
Definition rgap : rel := fun _ e i t tr => is_gap e i t /\ tr = false.
Lemma still_gap : still rgap.
Proof. intros f e i t tr [_ H]. exact H. Qed.
Lemma gap_frag e i t : is_gap e i t -> frag (0 <? e) any t [].
Proof.
  intros [->|[H ->]]; [apply frag_space|]. apply Nat.ltb_lt in H. rewrite H.
  apply (frag_pre true any [NL] [] _ []); [apply frag_newline|apply frag_blanks, indtext_blank].
Qed.
Lemma gap_stop e i t r : is_gap e i t -> stop (t ++ r).
Proof. intros [->|[_ ->]]; [exists " "%char, r|exists NL, (indtext i ++ r)]; (split; [reflexivity|unfold stop_chars, B; cbn; auto]). Qed.
Lemma does_breaking_space (cm : Prop) : (cm -> False) -> does (fun f => fmt_breaking_space o f) cm rgap.
Proof.
  intros NC f c W P Tr G. unfold fmt_breaking_space. destruct (maxl <=? col c)%N eqn:E.
  - assert (He : 0 < enclosed c).
    { destruct G as [G|[[_ G]|G]]; [auto|destruct (NC G)|].
      destruct G as (_ & _ & _ & c1 & L & d1 & T1 & E1 & X1 & X2). exfalso. unfold fmt_breaking_space in E1.
      destruct (maxl <=? col c1)%N eqn:E2.
      - unfold seq in E1. rewrite newline_force_dry in E1 by auto. injection E1 as <- <-. discriminate X1.
      - unfold fmt_write in E1. injection E1 as <- <-. apply N.leb_le in E. change (width " "%char) with 1%N in X2. lia. }
    destruct (newline_force_run f false c W) as (L & c' & E1 & Wr). unfold seq, upd_ctx. rewrite E1.
    eexists _, (set_force true c'), _, false. split; [reflexivity|]. split; [exact Wr|]. split; [right; auto|reflexivity].
  - unfold fmt_write. rewrite W. eexists _, _, (B " "), false. split; [reflexivity|]. repeat split; auto. left; reflexivity.
Qed.
Lemma does_comment_or_space cm : does (fun f => fmt_comment_or_space o f) cm (rtext (B " ")).
Proof.
  intros f c W P Tr G. unfold fmt_comment_or_space, fmt_write. rewrite Tr, W. eexists _, _, (B " "), false. split; [reflexivity|].
  repeat split; auto.
Qed.
Lemma does_after_comment cm : does (fun f => after_comment o f) cm (rtext []).
Proof. intros f c W P Tr G. unfold after_comment. rewrite Tr. apply (does_nothing True f c W P Tr). destruct G as [G|[G|G]]; [left; auto|right; left; tauto|right; left; split; [apply G|auto]]. Qed.
Lemma comments_run f cs leading c : f_write f = true -> trailing c = false -> good_comments cs ->
  exists L c', fmt_comments o f cs leading c = (L, c') /\ wrote c c' (comment_text (indent c) cs leading) (nonempty cs).
Proof.
  intros W Tr Hg. unfold fmt_comments. destruct cs as [|x cs].
  - exists 0%N, c. split; [reflexivity|]. repeat split; auto. rewrite app_nil_r. reflexivity.
  - assert (G : forall cs leading c, cs <> [] -> good_comments cs -> exists L c', comment_lines o f cs leading c = (L, c') /\ wrote c c' (comment_text (indent c) cs leading) true).
    { clear - W blanks. induction cs as [|x cs IH]; intros leading c Hn Hg; [congruence|]. inversion Hg as [|? ? Hx Hcs]; subst.
      cbn [comment_lines comment_text]. unfold seq, fmt_writef. rewrite W.
      set (s := (if leading then B " " else []) ++ B "#" ++ x).
      rewrite firstn_short. 2:{ unfold s. rewrite !app_length. destruct Hx as (_ & _ & Hx). destruct leading; cbn [length]; change (length (B " ")) with 1; change (length (B "#")) with 1; lia. }
      destruct (writes_run s f c W) as (L & n & E). rewrite E. destruct cs as [|y cs].
      - unfold upd_ctx. eexists _, _. split; [reflexivity|]. repeat split; auto. cbn [set_trailing out adv]. unfold s. rewrite app_nil_r. reflexivity.
      - destruct (newline_force_run f false (adv s n c) W) as (L2 & c2 & E2 & (W1 & W2 & W3 & W4)). rewrite E2.
        destruct (IH false c2 ltac:(discriminate) Hcs) as (L3 & c3 & E3 & (V1 & V2 & V3 & V4)). rewrite E3.
        eexists _, c3. split; [reflexivity|]. repeat split; try (cbn in *; congruence).
        rewrite V1, W1, W2. cbn [adv out indent]. unfold s. rewrite <- !app_assoc. reflexivity. }
    destruct (G (x :: cs) leading (set_force true c) ltac:(discriminate) Hg) as (L & c' & E & Wr).
    unfold seq, upd_ctx at 1. rewrite E. exists (0 + L)%N, c'. split; [reflexivity|]. exact Wr.
Qed.
Definition rtail (cs : comments) : rel := fun f e i t tr => t = sep_text f ++ comment_text i cs true /\ tr = nonempty cs.
Lemma does_tail cs cm : good_comments cs -> does (fun f => fmt_tail o f cs) cm (rtail cs).
Proof.
  intros Hg f c W P Tr G. unfold fmt_tail, seq.
  assert (X : exists L c1, match f_sep f with Some s => fmt_writes f s | None => nothing end c = (L, c1) /\ wrote c c1 (sep_text f) false).
  { unfold sep_text. destruct (f_sep f) as [s|].
    - destruct (writes_run s f c W) as (L & n & E). rewrite E. eexists _, _. split; [reflexivity|]. repeat split; auto.
    - eexists _, c. split; [reflexivity|]. repeat split; auto. rewrite app_nil_r. reflexivity. }
  destruct X as (L & c1 & E & (W1 & W2 & W3 & W4)). rewrite E.
  destruct (comments_run f cs true c1 W W4 Hg) as (L2 & c2 & E2 & (V1 & V2 & V3 & V4)). rewrite E2.
  eexists _, c2, _, _. split; [reflexivity|]. split; [|split; reflexivity].
  repeat split; try congruence. rewrite V1, W1, W2, app_assoc. reflexivity.
Qed.
Lemma comment_frag e i cs leading : good_comments cs -> (e = true \/ length cs <= 1) -> frag e nlstop (comment_text i cs leading) [].
Proof.
  intros Hg. revert leading. induction Hg as [|x cs (H1 & H2 & _) Hcs IH]; intros leading He; [apply frag_nil|].
  cbn [comment_text]. apply (frag_pre e nlstop _ [] _ []).
  { destruct leading; [apply frag_space|apply frag_nil]. }
  intros p b c rest us E (r & ->) X. cbn [app].
  change (source p b c us ((B "#" ++ x ++ match cs with [] => [] | _ :: _ => NL :: indtext i ++ comment_text i cs false end) ++ NL :: r)).
  change (B "#") with ["#"%char]. cbn [app]. rewrite <- app_assoc. apply so_comment; auto.
  - right. destruct cs as [|y cs]; [exists r; reflexivity|]. eexists. reflexivity.
  - destruct cs as [|y cs]; [exact X|]. destruct He as [->|He]; [|cbn in He; lia].
    cbn [app]. apply so_inside; [auto|]. rewrite <- app_assoc.
    apply (frag_blanks true (indtext i) (indtext_blank i) p b c _ us E Logic.I).
    apply (IH false (or_introl eq_refl) p b c (NL :: r) us E); [exists r; reflexivity|exact X].
Qed.

(** formatting after a dry run *)
Definition unf (a : fst_ -> F) (f : fst_) : Prop :=
  exists c1 L d1, trailing c1 = false /\ a (set_write false (with_ml false f)) c1 = (L, d1) /\ force_ml d1 = false.
Lemma with_ml_same f b : f_ml f = b -> with_ml b f = f.
Proof. destruct f; cbn; intros <-; reflexivity. Qed.
Lemma does_check_gen a cm (R : rel) : fine a ->
  (forall f c, f_write f = true -> f_parent f = [] -> trailing c = false -> regime a cm f c -> (f_ml f = true \/ unf a f) ->
     exists L c' t tr, a f c = (L, c') /\ wrote c c' t tr /\ R f (enclosed c) (indent c) t tr) ->
  does (fun f => fmt_check o a f) cm (fun f e i t tr => exists ml, R (with_ml ml f) e i t tr).
Proof.
  intros [D T] H f c W P Tr G. unfold fmt_check. rewrite W. cbn [negb].
  change (Fst (f_sep f) false false (f_and_or f) (f_cmd f) (f_parent f)) with (set_write false (with_ml false f)).
  destruct (D (set_write false (with_ml false f)) (set_force false c) eq_refl Tr) as (L & b & E & _). rewrite E.
  set (ml := force_ml (set_force b (set_force false c)) || _).
  destruct (H (with_ml ml f) (set_force b (set_force false c)) W P Tr) as (L2 & c2 & t & tr & E2 & Wr & X).
  - destruct G as [G|[G|G]]; [left; exact G|right; left; exact G|right; right].
    destruct G as (Sp & M & A & c1 & L1 & d1 & T1 & E1 & X1 & X2). unfold fmt_check in E1. cbn [set_write f_write negb] in E1.
    assert (Ef : set_write false (with_ml false f) = set_write false f) by (rewrite with_ml_same by exact M; reflexivity).
    rewrite Ef in E.
    destruct (T Sp (set_write false f) c1 L1 d1 eq_refl M A T1 E1 X1 false (set_force false c) Tr X2) as (t0 & E0).
    change (set_write false (set_write false f)) with (set_write false f) in E0. rewrite E in E0. injection E0 as -> E0.
    assert (b = false) by (destruct b; [|reflexivity]; discriminate E0). subst b.
    assert (Eml : ml = false). { unfold ml. cbn [set_force force_ml orb col]. apply N.ltb_ge. lia. }
    rewrite Eml. rewrite with_ml_same by exact M. repeat split; auto. exists c1, L1, d1. repeat split; auto.
  - destruct ml eqn:Eml; [left; reflexivity|right]. exists (set_force false c), L, (set_force b (set_force false c)).
    split; [exact Tr|]. split; [exact E|]. unfold ml in Eml. apply orb_false_iff in Eml. apply Eml.
  - rewrite E2. exists L2, (set_force (force_ml c) c2), t, tr. split; [reflexivity|]. split; [exact Wr|]. exists ml. exact X.
Qed.
Lemma does_check a cm R : fine a -> does a cm R -> does (fun f => fmt_check o a f) cm (fun f e i t tr => exists ml, R (with_ml ml f) e i t tr).
Proof. intros Fa H. apply does_check_gen; auto. Qed.
Lemma unf_seq a b f : fine a -> fine b -> unf (fun f => a f +> b f) f -> unf a f /\ unf b f.
Proof.
  intros [Da _] [Db _] (c1 & L & d1 & T1 & E1 & X1). unfold seq in E1.
  destruct (Da (set_write false (with_ml false f)) c1 eq_refl T1) as (La & ba & Ea & Fa). rewrite Ea in E1.
  destruct (Db (set_write false (with_ml false f)) (set_force ba c1) eq_refl T1) as (Lb & bb & Eb & Fb). rewrite Eb in E1.
  injection E1 as <- <-. cbn in X1. subst bb.
  assert (ba = false) by (destruct ba; [discriminate (Fb eq_refl)|reflexivity]). subst ba.
  split; [exists c1, La, (set_force false c1)|exists (set_force false c1), Lb, (set_force false (set_force false c1))]; auto.
Qed.

(** ** Expressions *)
Ltac seqs := cbv zeta; unfold seq; repeat match goal with |- context [let (_, _) := ?X in _] => lazymatch X with (let (_, _) := _ in _) => fail | _ => destruct X end end; try f_equal; try lia.
Definition rbody (P : list token -> Prop) : rel := fun f e i t tr => tr = false /\ exists ts, frag (0 <? e) stop t ts /\ P ts.
Definition rnode (cs : comments) (P : list token -> Prop) : rel := fun f e i t tr =>
  exists body ts, t = body ++ sep_text f ++ comment_text i cs true /\ tr = nonempty cs /\ frag (0 <? e) stop body ts /\ P ts.
Lemma still_body P : still (rbody P).
Proof. intros f e i t tr [H _]. exact H. Qed.
(** an expression with comments sets force_ml *)
Definition noisy (a : fst_ -> F) : Prop := forall f c L c', f_write f = false -> trailing c = false -> a f c = (L, c') -> force_ml c' = true.
Lemma noisy_after a b : fine a -> noisy b -> noisy (fun f => a f +> b f).
Proof.
  intros [D _] H f c L c' W Tr E. unfold seq in E. destruct (D f c W Tr) as (La & ba & Ea & _). rewrite Ea in E.
  destruct (b f (set_force ba c)) as [Lb cb] eqn:Eb. injection E as _ <-. apply (H f _ Lb cb W) in Eb; auto.
Qed.
Lemma noisy_comments cs : cs <> [] -> noisy (fun f => fmt_comments o f cs true).
Proof.
  intros N f c L c' W Tr E. destruct cs as [|x cs]; [congruence|]. unfold fmt_comments, seq, upd_ctx in E.
  assert (D : fine (fun f => fmt_comments o f (x :: cs) true)) by apply fine_comments.
  destruct D as [D _]. destruct (D f (set_force true c) W Tr) as (La & ba & Ea & Fa). specialize (Fa eq_refl). subst ba.
  unfold fmt_comments, seq, upd_ctx in Ea. rewrite force_force in Ea. rewrite Ea in E. injection E as _ <-. reflexivity.
Qed.
Lemma noisy_tail cs : cs <> [] -> noisy (fun f => fmt_tail o f cs).
Proof. intros N. apply noisy_after; [apply fine_sep|apply noisy_comments, N]. Qed.
Lemma noisy_ext a b : (forall f c, a f c = b f c) -> noisy a -> noisy b.
Proof. intros E H f c L c' W Tr X. rewrite <- E in X. eapply H; eauto. Qed.
Lemma noisy_finish n cs body : cs <> [] -> fine body -> (forall f c, node_body o qsort n f c = (body f +> fmt_tail o f cs) c) -> noisy (node_ n).
Proof.
  intros N Fb E. apply (noisy_ext (fun f => after_comment o f +> (body f +> fmt_tail o f cs))).
  { intros f c. rewrite node_eq. unfold seq at 1 3. destruct (after_comment o f c) as [n1 c1]. rewrite E. reflexivity. }
  apply noisy_after; [apply fine_after_comment|]. apply noisy_after; [exact Fb|apply noisy_tail, N].
Qed.
Definition prints (n : fnode) (cs : comments) (P : list token -> Prop) : Prop :=
  good_comments cs -> does (node_ n) (calm n) (rnode cs P) /\ (cs <> [] -> noisy (node_ n)).
Lemma does_finish n cs P cm body : good_comments cs -> fine body ->
  (forall f c, node_body o qsort n f c = (body f +> fmt_tail o f cs) c) -> does body cm (rbody P) -> does (node_ n) cm (rnode cs P).
Proof.
  intros Hg Fb E H.
  apply (does_ext (fun f => after_comment o f +> (body f +> fmt_tail o f cs))).
  { intros f c. rewrite node_eq. unfold seq at 1 3. destruct (after_comment o f c) as [n1 c1]. rewrite E. reflexivity. }
  eapply does_weaken.
  - apply does_seq; [apply fine_after_comment|apply fine_seq; [exact Fb|apply fine_tail]|apply still_text|apply (does_after_comment True)|].
    apply does_seq; [exact Fb|apply fine_tail|apply still_body|exact H|apply (does_tail cs True Hg)].
  - tauto.
  - intros f e i t tr _ _ (t1 & t2 & -> & [-> _] & (t3 & t4 & -> & (_ & ts & X & Y) & [-> ->])).
    exists t3, ts. auto.
Qed.
Lemma does_operand a cm P : does (node_ a) cm (rnode [] P) -> does (fun f => node_ a (setup f)) cm (rbody P).
Proof.
  intros H. eapply does_weaken; [apply (does_setup (node_ a)), H|auto|].
  intros f e i t tr _ _ (body & ts & -> & -> & X & Y). cbn. rewrite !app_nil_r. split; [reflexivity|]. exists ts. auto.
Qed.
Lemma fine_operand a : fine (fun f => node_ a (setup f)).
Proof. apply (fine_setup o (fun f => node_ a f)), fine_node, sorts. Qed.
(** what stands between two operands *)
Definition rmid (om : list token) : rel := fun f e i t tr => tr = false /\ frag (0 <? e) any t om /\ forall r, stop (t ++ r).
Lemma does_binary a b mid om cma cmb cmm Pa Pb : fine mid -> does (node_ a) cma (rnode [] Pa) -> does mid cmm (rmid om) -> does b cmb (rbody Pb) -> fine b ->
  does (fun f => node_ a (setup f) +> mid f +> b f) (cma /\ cmm /\ cmb)
    (rbody (fun ts => exists ta tb, ts = ta ++ om ++ tb /\ Pa ta /\ Pb tb)).
Proof.
  intros Fm Ha Hm Hb Fb. eapply does_weaken.
  - apply does_seq; [apply fine_operand|apply fine_seq; [exact Fm|exact Fb]|apply (still_body Pa)|apply does_operand, Ha|].
    apply does_seq; [exact Fm|exact Fb| |exact Hm|exact Hb]. intros f e i t tr X. apply X.
  - tauto.
  - intros f e i t tr _ _ (t1 & t2 & -> & (_ & ta & A1 & A2) & (t3 & t4 & -> & (_ & M1 & M2) & (-> & tb & B1 & B2))).
    split; [reflexivity|]. exists (ta ++ om ++ tb). split; [|eauto].
    eapply frag_app; [exact A1| |].
    + eapply frag_pre; [exact M1|exact B1].
    + intros rest _. rewrite <- app_assoc. apply M2.
Qed.
Lemma sep_stop : In ","%char stop_chars. Proof. vm_compute; tauto. Qed.
Lemma plain_of t : ty (plain t) = t. Proof. reflexivity. Qed.
Lemma frag_space_tail e st x ts : frag e stop x ts -> frag e st (x ++ B " ") ts.
Proof.
  intros H. rewrite <- (app_nil_r ts). apply (frag_close e st x ts (B " ") [] " "%char []); auto; [apply frag_any, frag_space|vm_compute; tauto].
Qed.
Lemma symbol_spelled x t : In (x, t) symbols -> spelled x (plain t). Proof. apply sp_symbol. Qed.

Lemma does_setup_text (a : fst_ -> F) (cm : Prop) x : does a cm (rtext x) -> does (fun f => a (setup f)) cm (rtext x).
Proof. apply (does_setup a cm (rtext x)). Qed.
Lemma does_arith_mid op : does (fun f => fmt_comment_or_space o (setup f) +> fmt_write (setup f) (arith_sign op) +> fmt_breaking_space o (setup f)) False (rmid [plain (sign op)]).
Proof.
  eapply does_weaken.
  - apply does_seq; [apply (fine_setup o (fun f => fmt_comment_or_space o f)), fine_comment_or_space| |apply (still_text (B " "))|apply (does_setup_text (fun f => fmt_comment_or_space o f)), (does_comment_or_space True)|].
    { apply fine_seq; [apply (fine_setup o (fun f => fmt_write f _)), fine_write|apply (fine_setup o (fun f => fmt_breaking_space o f)), fine_breaking_space]. }
    apply does_seq; [apply (fine_setup o (fun f => fmt_write f _)), fine_write|apply (fine_setup o (fun f => fmt_breaking_space o f)), fine_breaking_space|apply still_text|apply (does_setup_text (fun f => fmt_write f (arith_sign op))), (does_write _ True)|].
    apply (does_setup (fun f => fmt_breaking_space o f)), (does_breaking_space False). tauto.
  - tauto.
  - intros f e i t tr _ _ (t1 & t2 & -> & [-> _] & (t3 & t4 & -> & [-> _] & [G ->])). split; [reflexivity|]. split.
    + apply (frag_pre _ any (B " ") []); [apply frag_space|].
      rewrite <- (app_nil_r [plain (sign op)]). eapply frag_app; [|apply (gap_frag e i t4 G)|].
      * apply (frag_token _ [arith_sign op]). apply sp_symbol. destruct op; vm_compute; tauto.
      * intros rest _. eapply gap_stop; exact G.
    + intros r. exists " "%char, (([arith_sign op] ++ t4) ++ r). split; [reflexivity|vm_compute; tauto].
Qed.
Lemma does_text_mid w om : (N.of_nat (length w) <= 4095)%N -> length w <= 4090 -> ~ In TAB w -> (forall e, frag e any w om) ->
  does (fun f => fmt_comment_or_space o (setup f) +> fmt_writef (setup f) w) True (rmid om).
Proof.
  intros H1 H2 NT Hw. eapply does_weaken.
  - apply does_seq; [apply (fine_setup o (fun f => fmt_comment_or_space o f)), fine_comment_or_space|apply (fine_setup o (fun f => fmt_writef f w)), fine_writef; auto|apply (still_text (B " "))|apply (does_setup_text (fun f => fmt_comment_or_space o f)), (does_comment_or_space True)|].
    apply (does_setup_text (fun f => fmt_writef f w)), (does_writef w True H2).
  - tauto.
  - intros f e i t tr _ _ (t1 & t2 & -> & [-> _] & [-> ->]). split; [reflexivity|]. split.
    + apply (frag_pre _ any (B " ") []); [apply frag_space|apply Hw].
    + intros r. exists " "%char, (w ++ r). split; [reflexivity|vm_compute; tauto].
Qed.
Definition cmp_tokens (op : comparison_type) : list token := map plain (compare_signs op).
Lemma cmp_frag e op : frag e any (cmp_sign op ++ B " ") (cmp_tokens op).
Proof.
  destruct op; try (apply frag_space_tail, (frag_token _ _ (plain _)), sp_symbol; vm_compute; tauto).
  - apply frag_space_tail, (frag_token _ _ (plain _)), sp_word; vm_compute; tauto.
  - change (cmp_sign comp_not_in ++ B " ") with ((B "not" ++ B " ") ++ (B "in" ++ B " ")).
    change (cmp_tokens comp_not_in) with ([plain tok_not] ++ [plain tok_in]).
    apply frag_pre; apply frag_space_tail, (frag_token _ _ (plain _)), sp_word; vm_compute; tauto.
Qed.
(** and, or *)
Lemma checked_operand a cm P : does (node_ a) cm (rnode [] P) -> does (fun f => fmt_check o (node_ a) f) cm (rnode [] P).
Proof.
  intros H. eapply does_weaken; [apply does_check; [apply fine_node, sorts|exact H]|auto|].
  intros f e i t tr _ _ (ml & X). exact X.
Qed.
Lemma checked_bare a cm P : does (node_ a) cm (rnode [] P) -> does (fun f => fmt_check o (node_ a) (setup f)) cm (rbody P).
Proof.
  intros H. eapply does_weaken; [apply (does_setup (fun f => fmt_check o (node_ a) f)), checked_operand, H|auto|].
  intros f e i t tr _ _ (body & ts & -> & -> & X & Y). cbn. rewrite !app_nil_r. split; [reflexivity|]. exists ts. auto.
Qed.
Lemma fine_checked a : fine (fun f => fmt_check o (node_ a) (setup f)).
Proof. apply (fine_setup o (fun f => fmt_check o (node_ a) f)), fine_check, fine_node, sorts. Qed.
Lemma dryfit_ext a b f c : (forall f c, f_ml f = false -> f_and_or f = false -> a f c = b f c) -> dryfit a f c -> dryfit b f c.
Proof.
  intros E (S & M & A & c1 & L & d1 & T1 & E1 & X). repeat split; auto. exists c1, L, d1. rewrite <- E; auto.
Qed.
Lemma setup_setup f : setup (setup f) = setup f. Proof. reflexivity. Qed.
Lemma does_and_or a b word w Pa Pb : does (node_ a) (calm a) (rnode [] Pa) -> does (node_ b) (calm b) (rnode [] Pb) -> (forall e, frag e any word [w]) ->
  does (fun f => and_or o qsort a b word (setup f)) (calm a /\ calm b) (rbody (fun ts => exists ta tb, ts = ta ++ [w] ++ tb /\ Pa ta /\ Pb tb)).
Proof.
  intros Ha Hb Hw f0 c W P Tr G. set (f := setup f0) in *.
  assert (W' : f_write f = true) by exact W. assert (P' : f_parent f = []) by exact P. assert (Sf : setup f = f) by reflexivity.
  assert (Gd : 0 < enclosed c \/ (f_and_or f = false /\ (calm a /\ calm b)) \/
               dryfit (fun f => fmt_check o (node_ a) (setup f) +> fmt_writes (setup f) (B " ") +> fmt_writes (setup f) word +> fmt_check o (node_ b) (setup f)) f c).
  { destruct G as [G|[G|G]]; [left; auto|right; left; exact G|right; right].
    apply (dryfit_ext (fun f => and_or o qsort a b word (setup f))).
    - clear. intros f c M A. unfold and_or, seq. destruct (fmt_check o (node_ a) (setup f) c) as [l1 c1].
      change (f_ml (setup f)) with (f_ml f). change (f_and_or (setup f)) with (f_and_or f).
      rewrite M, A, andb_false_r. cbn [orb]. destruct (fmt_writes (setup f) (B " ") c1) as [l2 c2].
      destruct (fmt_writes (setup f) word c2) as [l3 c3]. destruct (fmt_check o (node_ b) (setup f) c3) as [l4 c4]. reflexivity.
    - destruct G as (S & M & A & c1 & L & d1 & X). split; [exact S|]. split; [exact M|]. split; [exact A|]. exists c1, L, d1. exact X. }
  assert (F3 : fine (fun f => fmt_writes (setup f) word +> fmt_check o (node_ b) (setup f))).
  { apply fine_seq; [apply (fine_setup o (fun f => fmt_writes f word)), fine_writes|apply fine_checked]. }
  assert (F2 : fine (fun f => fmt_writes (setup f) (B " ") +> fmt_writes (setup f) word +> fmt_check o (node_ b) (setup f))).
  { apply fine_seq; [apply (fine_setup o (fun f => fmt_writes f (B " "))), fine_writes|exact F3]. }
  destruct (checked_bare a _ _ Ha f c W' P' Tr) as (La & ca & ta & tra & Ea & (Wa1 & Wa2 & Wa3 & Wa4) & (-> & tsa & A1 & A2)).
  { destruct Gd as [Gd|[[G1 [G2 G3]]|Gd]]; [left; auto|right; left; auto|right; right].
    apply (fit_first _ _ f c (fine_checked a) F2 Gd). }
  assert (D3 : does (fun f => fmt_writes (setup f) word +> fmt_check o (node_ b) (setup f)) (calm b) (rseq (rtext word) (rbody Pb))).
  { eapply does_weaken; [apply does_seq; [apply (fine_setup o (fun f => fmt_writes f word)), fine_writes|apply fine_checked|apply (still_text word)|apply (does_setup_text (fun f => fmt_writes f word)), (does_writes word True)|apply checked_bare, Hb]|tauto|auto]. }
  unfold and_or. rewrite Sf in Ea. rewrite Ea.
  set (forced := negb (enclosed ca =? 0) && f_ml f || f_and_or f).
  assert (Fin : exists g l2 c2 l3 c3 t3, setup g = g /\ f_write g = true /\ f_parent g = [] /\ g = (if forced then with_and_or true f else f) /\
     (if forced then fmt_newline_force o g false else fmt_writes g (B " ")) ca = (l2, c2) /\ (exists gap, is_gap (enclosed c) (indent c) gap /\ wrote ca c2 gap false) /\
     (fmt_writes g word +> fmt_check o (node_ b) g) c2 = (l3, c3) /\ wrote c2 c3 t3 false /\ rseq (rtext word) (rbody Pb) g (enclosed c) (indent c) t3 false).
  { destruct forced eqn:Ef.
    - assert (He : 0 < enclosed c).
      { unfold forced in Ef. rewrite Wa3 in Ef. destruct Gd as [Gd|[[G1 _]|(_ & M & A & _)]]; [auto| |].
        - rewrite G1, orb_false_r in Ef. apply andb_true_iff in Ef. destruct Ef as [Ef _]. apply negb_true_iff, Nat.eqb_neq in Ef. lia.
        - rewrite M, A, andb_false_r in Ef. discriminate. }
      destruct (newline_force_run (with_and_or true f) false ca W') as (l2 & c2 & E2 & (V1 & V2 & V3 & V4)).
      destruct (D3 (with_and_or true f) c2 W' P' V4) as (l3 & c3 & t3 & tr3 & E3 & Wr3 & R3).
      { left. congruence. }
      assert (tr3 = false). { destruct R3 as (? & ? & _ & _ & X & _). exact X. } subst tr3.
      exists (with_and_or true f), l2, c2, l3, c3, t3. rewrite V2, V3, Wa2, Wa3 in R3.
      repeat split; auto; try apply Wr3.
      exists (NL :: indtext (indent ca)). split; [right; rewrite Wa2; auto|repeat split; auto].
    - destruct (writes_run (B " ") f ca W') as (l2 & n & E2).
      destruct (D3 f (adv (B " ") n ca) W' P' Wa4) as (l3 & c3 & t3 & tr3 & E3 & Wr3 & R3).
      { destruct Gd as [Gd|[[G1 [G2 G3]]|Gd]]; [left; cbn; congruence|right; left; auto|right; right].
        apply (fit_second (fun f => fmt_writes (setup f) (B " ")) _ f ca l2 (adv (B " ") n ca)); auto.
        - apply (fine_setup o (fun f => fmt_writes f (B " "))), fine_writes.
        - apply (fit_second _ _ f c La ca (fine_checked a) F2 W' Tr Gd). rewrite Sf. exact Ea. }
      assert (tr3 = false). { destruct R3 as (? & ? & _ & _ & X & _). exact X. } subst tr3.
      exists f, l2, (adv (B " ") n ca), l3, c3, t3. cbn [adv enclosed indent] in R3. rewrite Wa2, Wa3 in R3.
      repeat split; auto; try apply Wr3.
      exists (B " "). split; [left; reflexivity|repeat split; auto]. }
  destruct Fin as (g & l2 & c2 & l3 & c3 & t3 & Sg & Wg & Pg & Eg & E2 & (gap & Hgap & (V1 & V2 & V3 & V4)) & E3 & (U1 & U2 & U3 & U4) & R3).
  cbv zeta. rewrite <- Eg. rewrite E2, E3.
  destruct R3 as (tw & tb & -> & [-> _] & (_ & tsb & B1 & B2)).
  eexists _, c3, (ta ++ gap ++ word ++ tb), false. split; [reflexivity|]. split; [repeat split; try congruence|].
  { rewrite U1, V1, Wa1, <- !app_assoc. reflexivity. }
  split; [reflexivity|]. exists (tsa ++ [w] ++ tsb). split; [|eauto].
  eapply frag_app; [exact A1| |].
  - apply (frag_pre _ _ gap []); [apply (gap_frag _ _ _ Hgap)|]. apply (frag_pre _ _ word [w] tb tsb); [apply Hw|exact B1].
  - intros rest _. rewrite <- app_assoc. eapply gap_stop; exact Hgap.
Qed.
(** parentheses *)
Lemma parens_run a P : does (node_ a) (calm a) (rnode [] P) ->
  does (parens o qsort [] a) True (fun f e i t tr => tr = false /\ exists ts, (forall e, frag e any t (plain tok_lparen :: ts ++ [plain tok_rparen])) /\ P ts).
Proof.
  intros Ha f0 c W Pr Tr G. unfold parens. set (f := setup f0) in *. cbv zeta.
  assert (W' : f_write f = true) by exact W.
  unfold fmt_write at 1. unfold seq at 1. rewrite W'.
  set (c0 := Ctx (out c ++ ["("%char]) _ _ _ _ _).
  unfold seq at 1, enter, upd_ctx at 1. set (c1 := set_enclosed _ c0).
  assert (O : exists l2 c2 s1, (if f_ml f then fmt_begin_block +> fmt_newline o f false else nothing) c1 = (l2, c2)
     /\ out c2 = out c1 ++ s1 /\ enclosed c2 = enclosed c1 /\ indent c2 = (if f_ml f then S (indent c1) else indent c1) /\ trailing c2 = false /\ frag true any s1 []).
  { destruct (f_ml f) eqn:M.
    - unfold seq, fmt_begin_block, upd_ctx. destruct (newline_run f false (set_indent (S (indent c1)) c1) W' M) as (l & c2 & E & (V1 & V2 & V3 & V4)).
      rewrite E. eexists _, c2, _. split; [reflexivity|]. split; [exact V1|]. repeat split; auto.
      apply (frag_pre true any [NL] [] _ []); [apply frag_newline|apply frag_blanks, indtext_blank].
    - exists 0%N, c1, []. rewrite app_nil_r. repeat split; auto. apply frag_nil. }
  destruct O as (l2 & c2 & s1 & E2 & O1 & O2 & O3 & O4 & O5). unfold seq at 1. rewrite E2.
  cbn [fmt_comments]. unfold seq at 1, nothing at 1.
  destruct (does_operand a _ _ Ha f c2 W' Pr O4) as (l3 & c3 & ta & tra & E3 & (A1 & A2 & A3 & A4) & (-> & tsa & X1 & X2)).
  { left. rewrite O2. cbn. lia. }
  unfold seq at 1. change (setup f) with f in E3. rewrite E3.
  assert (Q : exists l4 c4 s2, (if f_ml f then fmt_end_block +> fmt_newline o f false else nothing) c3 = (l4, c4)
     /\ out c4 = out c3 ++ s2 /\ enclosed c4 = enclosed c3 /\ indent c4 = indent c1 /\ trailing c4 = false /\ frag true any s2 [] /\ (s2 = [] \/ exists r, s2 = NL :: r)).
  { destruct (f_ml f) eqn:M.
    - unfold seq, fmt_end_block, upd_ctx. destruct (newline_run f false (set_indent (pred (indent c3)) c3) W' M) as (l & c4 & E & (V1 & V2 & V3 & V4)).
      rewrite E. eexists _, c4, _. split; [reflexivity|]. split; [exact V1|]. repeat split; auto.
      + rewrite V2. cbn. rewrite A2, O3. reflexivity.
      + apply (frag_pre true any [NL] [] _ []); [apply frag_newline|apply frag_blanks, indtext_blank].
      + right. eexists. reflexivity.
    - exists 0%N, c3, []. rewrite app_nil_r. repeat split; auto; [congruence|apply frag_nil]. }
  destruct Q as (l4 & c4 & s2 & E4 & Q1 & Q2 & Q3 & Q4 & Q5 & Q6). unfold seq at 1. rewrite E4.
  unfold seq, leave, upd_ctx, fmt_write. rewrite W'.
  eexists _, _, ("("%char :: (s1 ++ ta ++ s2) ++ B ")"), false. split; [reflexivity|]. split.
  { repeat split; auto.
    - cbn [out set_enclosed]. rewrite Q1, A1, O1. unfold c1, c0. cbn [out set_enclosed]. rewrite <- !app_assoc. reflexivity.
    - cbn. rewrite Q2, A3, O2. reflexivity. }
  split; [reflexivity|]. exists tsa. split; [|exact X2]. intros e. apply frag_lparen.
  apply (frag_pre true closes s1 [] _ tsa); [exact O5|]. rewrite <- (app_nil_r tsa).
  assert (Ee : 0 <? enclosed c2 = true) by (apply Nat.ltb_lt; rewrite O2; cbn; lia). rewrite Ee in X1.
  eapply frag_app; [exact X1|apply frag_any, Q5|].
  intros rest (ch & r & -> & Hch). destruct Q6 as [->|(r2 & ->)].
  - exists ch, r. split; [reflexivity|]. revert Hch. vm_compute. tauto.
  - exists NL, (r2 ++ ch :: r). split; [reflexivity|left; reflexivity].
Qed.

(** ** Arguments *)
Definition info := option (comments * (option node * node -> Prop)).
Definition item_prints (md : list_mode) (d : nat) (x : item) (nf : info) : Prop :=
  match nf with
  | None => i_line x = true /\ i_dash x = false /\ i_kw x = None /\ exists cs, good_comments cs /\ i_val x = fmt_line o cs
  | Some (cs, E) =>
      i_line x = false /\ good_comments cs /\ (cs <> [] -> i_dash x = false) /\ (cs <> [] -> noisy (i_val x)) /\ fine (i_val x) /\
      match i_kw x with
      | None => does (i_val x) False (rnode cs (fun ts => exists en, S_Parser.item false md d en ts /\ E en))
      | Some k => fine k /\ exists Pk Pv, does k False (rnode [] Pk) /\ does (i_val x) False (rnode cs Pv) /\
                  forall tk tv, Pk tk -> Pv tv -> exists en, S_Parser.item false md d en (tk ++ plain tok_colon :: tv) /\ E en
      end
  end.
Definition entries (l : list info) : list (option node * node -> Prop) := flat_map (fun nf => match nf with Some (_, E) => [E] | None => [] end) l.
Definition quiet (nf : info) : Prop := match nf with None => False | Some (cs, _) => cs = [] end.
Lemma item_fine md d x nf : item_prints md d x nf -> fine_item o x.
Proof.
  destruct nf as [[cs E]|]; cbn.
  - intros (_ & _ & _ & _ & Fv & H). split; [exact Fv|]. intros k Ek. rewrite Ek in H. apply H.
  - intros (_ & _ & Ek & cs & _ & Ev). split; [rewrite Ev; apply fine_line|]. intros k E. congruence.
Qed.
Definition colon_text : bytes := if wide_colon o then B " : " else B ": ".
Lemma colon_frag e : frag e any colon_text [plain tok_colon].
Proof.
  assert (X : frag e any (B ": ") [plain tok_colon]).
  { change (B ": ") with (([] ++ [":"%char]) ++ B " "). apply frag_space_tail, frag_any, frag_sign; [apply sp_symbol; vm_compute; tauto|].
    repeat split; vm_compute; intuition discriminate. }
  unfold colon_text. destruct (wide_colon o); [|exact X]. apply (frag_pre e any (B " ") [] (B ": ") _ (frag_space e) X).
Qed.
Lemma colon_stop r : stop (colon_text ++ r).
Proof. unfold colon_text. destruct (wide_colon o); eexists _, _; (split; [reflexivity|vm_compute; tauto]). Qed.
Lemma comma_frag e : frag e any (B ",") [plain tok_comma].
Proof. apply (frag_sign e []); [apply sp_symbol; vm_compute; tauto|]. repeat split; vm_compute; intuition discriminate. Qed.
Definition sep_of (comma : bool) : bytes := if comma then B "," else [].
Definition key_part (x : item) (f : fst_) : F := match i_kw x with Some k => k (with_sep (Some colon_text) f) | None => nothing end.
Lemma check_rnode a cs P f c : fine a -> does a False (rnode cs P) -> f_write f = true -> f_parent f = [] -> trailing c = false -> 0 < enclosed c ->
  exists L c' body ts, fmt_check o a f c = (L, c') /\ wrote c c' (body ++ sep_text f ++ comment_text (indent c) cs true) (nonempty cs)
    /\ frag true stop body ts /\ P ts.
Proof.
  intros Fa H W Pr Tr En. destruct (does_check a _ _ Fa H f c W Pr Tr (or_introl En)) as (L & c' & t & tr & E & Wr & (ml & body & ts & -> & -> & X & Y)).
  apply Nat.ltb_lt in En. rewrite En in X. exists L, c', body, ts. auto.
Qed.
Lemma entry_run md d x cs E f c (comma : bool) : item_prints md d x (Some (cs, E)) -> f_write f = true -> f_parent f = [] -> trailing c = false -> 0 < enclosed c ->
  exists (L : N) c' body ts en, (key_part x f +> fmt_check o (i_val x) (with_sep (if comma then Some (B ",") else None) f)) c = (L, c')
    /\ wrote c c' (body ++ sep_of comma ++ comment_text (indent c) cs true) (nonempty cs)
    /\ frag true stop body ts /\ S_Parser.item false md d en ts /\ E en.
Proof.
  intros (_ & Hg & _ & _ & Fv & H) W Pr Tr En. unfold key_part.
  assert (Es : sep_text (with_sep (if comma then Some (B ",") else None) f) = sep_of comma) by (destruct comma; reflexivity).
  destruct (i_kw x) as [k|].
  - destruct H as (Fk & Pk & Pv & Hk & Hv & Hi).
    destruct (Hk (with_sep (Some colon_text) f) c W Pr Tr (or_introl En)) as (Lk & ck & tk & trk & Ek & (K1 & K2 & K3 & K4) & (bk & tsk & -> & -> & Fk1 & Pk1)).
    cbn [comment_text nonempty sep_text with_sep f_sep] in *. rewrite app_nil_r in K1.
    destruct (check_rnode _ _ _ (with_sep (if comma then Some (B ",") else None) f) ck Fv Hv W Pr K4 ltac:(congruence)) as (L & c' & body & ts & Ev & (V1 & V2 & V3 & V4) & X & Y).
    destruct (Hi tsk ts Pk1 Y) as (en & I1 & I2). unfold seq. rewrite Ek, Ev, Es in *.
    eexists _, c', (bk ++ colon_text ++ body), (tsk ++ [plain tok_colon] ++ ts), en. split; [reflexivity|]. split; [|split; [|split; assumption]].
    + repeat split; try congruence. rewrite V1, K1, K2. rewrite <- !app_assoc. reflexivity.
    + apply Nat.ltb_lt in En. rewrite En in Fk1. eapply frag_app; [exact Fk1| |].
      * apply frag_pre; [apply colon_frag|exact X].
      * intros rest _. rewrite <- app_assoc. apply colon_stop.
  - destruct (check_rnode _ _ _ (with_sep (if comma then Some (B ",") else None) f) c Fv H W Pr Tr En) as (L & c' & body & ts & Ev & Wr & X & (en & I1 & I2)).
    unfold seq, nothing. rewrite Ev, Es in *. eexists _, c', body, ts, en. split; [reflexivity|]. auto.
Qed.
Lemma line_run cs f c : good_comments cs -> f_write f = true -> f_parent f = [] -> trailing c = false ->
  exists L c', fmt_check o (fmt_line o cs) (with_sep None f) c = (L, c') /\ wrote c c' (comment_text (indent c) cs false) (nonempty cs).
Proof.
  intros Hg W Pr Tr. unfold fmt_check. cbn [f_write with_sep]. rewrite W. cbn [negb].
  assert (D : fine (fun f => fmt_line o cs f)) by apply fine_line. destruct D as [D _].
  match goal with |- context [fmt_line o cs ?g (set_force false c)] => destruct (D g (set_force false c) eq_refl Tr) as (L & b & E & _) end.
  rewrite E. unfold fmt_line at 1. cbn [with_ml with_sep f_sep]. unfold seq at 1, nothing at 1.
  match goal with |- context [fmt_comments o ?g cs false ?c1] => destruct (comments_run g cs false c1 W Tr Hg) as (L2 & c2 & E2 & Wr) end.
  rewrite E2. eexists _, _. split; [reflexivity|]. exact Wr.
Qed.
Definition lstop (tr : bool) (rest : bytes) : Prop := stop rest /\ (tr = true -> nlstop rest).
Lemma nl_stop rest : nlstop rest -> stop rest.
Proof. intros (r & ->). exists NL, r. split; [reflexivity|left; reflexivity]. Qed.
Lemma comments_frag i cs leading : good_comments cs -> frag true (fun rest => nonempty cs = true -> nlstop rest) (comment_text i cs leading) [].
Proof.
  intros Hg. destruct cs as [|x cs]; [apply frag_nil|]. eapply frag_st; [apply comment_frag; [exact Hg|auto]|]. auto.
Qed.
Lemma sep_frag (comma : bool) : frag true any (sep_of comma) (if comma then [plain tok_comma] else []).
Proof. destruct comma; [apply comma_frag|apply frag_nil]. Qed.
(** one element and what follows it *)
Lemma entry_frag body ts (comma : bool) i cs : frag true stop body ts -> good_comments cs ->
  frag true (lstop (nonempty cs)) (body ++ sep_of comma ++ comment_text i cs true) (ts ++ if comma then [plain tok_comma] else []).
Proof.
  intros Hb Hg. rewrite <- (app_nil_r (if comma then _ else _)).
  eapply frag_app; [exact Hb| |].
  - apply frag_pre; [apply sep_frag|]. eapply frag_st; [apply comments_frag, Hg|]. intros r [_ H]. exact H.
  - intros rest [H1 H2]. destruct comma; cbn [sep_of app].
    + eexists _, _. split; [reflexivity|vm_compute; tauto].
    + destruct cs as [|y cs]; [exact H1|]. cbn [comment_text]. eexists _, _. split; [reflexivity|vm_compute; tauto].
Qed.
(** what follows an element that is not the last one *)
Lemma between_run x cmd f c tr : f_write f = true -> trailing c = tr -> (tr = true -> i_dash x = false /\ f_ml f = true) ->
  exists L c' g, (if cmd && i_dash x && negb (i_next_dash x) then fmt_write f " "%char else fmt_newline_or_space o f (i_next_blank x)) c = (L, c')
    /\ wrote c c' g false /\ frag true any g [] /\ forall r, lstop tr (g ++ r).
Proof.
  intros W Tr H.
  assert (Sp : tr = false -> exists L c' g, fmt_write f " "%char c = (L, c') /\ wrote c c' g false /\ frag true any g [] /\ forall r, lstop tr (g ++ r)).
  { intros ->. unfold fmt_write. rewrite W. eexists _, _, (B " "). split; [reflexivity|]. split; [repeat split; auto|]. split; [apply frag_space|].
    intros r. split; [|discriminate]. eexists _, _. split; [reflexivity|vm_compute; tauto]. }
  destruct (cmd && i_dash x && negb (i_next_dash x)) eqn:E.
  - apply Sp. destruct tr; [|reflexivity]. destruct (H eq_refl) as [H1 _]. rewrite H1, andb_false_r in E. discriminate.
  - unfold fmt_newline_or_space. destruct (f_ml f) eqn:M.
    + destruct (newline_run f (i_next_blank x) c W M) as (L & c' & E1 & Wr). rewrite E1. eexists _, _, _. split; [reflexivity|]. split; [exact Wr|]. split.
      * apply (frag_pre true any [NL] [] _ []); [apply frag_newline|]. destruct (i_next_blank x); [apply frag_nil|apply frag_blanks, indtext_blank].
      * intros r. assert (N : nlstop ((NL :: (if i_next_blank x then [] else indtext (indent c))) ++ r)) by (eexists; reflexivity). split; [apply nl_stop, N|auto].
    + apply Sp. destruct tr; [|reflexivity]. destruct (H eq_refl). congruence.
Qed.
Lemma loop_cons f paren cmd single x l c : items_loop o f paren cmd single (x :: l) c =
  let last := match l with [] => true | _ => false end in
  let g := with_cmd (some (i_kw x) && i_command x) f in
  let comma := if i_line x then false else if paren && no_single_comma o && single && negb (some (i_kw x)) then false else negb (last && negb (f_ml g)) in
  ((key_part x g +> fmt_check o (i_val x) (with_sep (if comma then Some (B ",") else None) g)) +>
   (if last then nothing
    else (if cmd && i_dash x && negb (i_next_dash x) then fmt_write g " "%char else fmt_newline_or_space o g (i_next_blank x))
         +> items_loop o g paren cmd single l)) c.
Proof. cbn [items_loop]. cbv zeta. rewrite seq_assoc. reflexivity. Qed.
Lemma loop_run md d paren cmd single l : forall nfs f c, Forall2 (item_prints md d) l nfs -> 1 <= d -> l <> [] ->
  f_write f = true -> f_parent f = [] -> trailing c = false -> 0 < enclosed c -> (single = true -> length l <= 1) ->
  (f_ml f = true \/ Forall quiet nfs) ->
  exists L c' t tr ts ens, items_loop o f paren cmd single l c = (L, c') /\ wrote c c' t tr /\ frag true (lstop tr) t ts /\
    args false md d ens ts /\ Forall2 (fun (E : option node * node -> Prop) en => E en) (entries nfs) ens /\ (tr = true -> f_ml f = true).
Proof.
  induction l as [|x l IH]; intros nfs f c H Hd Hn W Pr Tr En Hs Hq; [congruence|]. inversion H as [|? nf ? nfs' Hx Hl]; subst.
  rewrite loop_cons. cbv zeta. set (g := with_cmd _ f).
  set (comma := if i_line x then false else _).
  assert (Wg : f_write g = true) by exact W. assert (Pg : f_parent g = []) by exact Pr.
  (* the first element *)
  assert (El : exists L c1 t tr, (key_part x g +> fmt_check o (i_val x) (with_sep (if comma then Some (B ",") else None) g)) c = (L, c1) /\ wrote c c1 t tr
     /\ (tr = true -> i_dash x = false /\ f_ml f = true)
     /\ match nf with
        | None => frag true (lstop tr) t []
        | Some (cs, E) => exists ts en, frag true (lstop tr) t (ts ++ if comma then [plain tok_comma] else []) /\ S_Parser.item false md d en ts /\ E en
        end).
  { destruct nf as [[cs E]|].
    - destruct (entry_run md d x cs E g c comma Hx Wg Pg Tr En) as (L & c1 & body & ts & en & E1 & Wr & X & Y & Z).
      exists L, c1, (body ++ sep_of comma ++ comment_text (indent c) cs true), (nonempty cs). split; [exact E1|]. split; [exact Wr|]. split.
      + intros N. destruct Hx as (_ & _ & Hdash & _). split; [apply Hdash; destruct cs; discriminate|].
        destruct Hq as [Hq|Hq]; [exact Hq|]. apply Forall_inv in Hq. cbn in Hq. subst cs. discriminate.
      + exists ts, en. split; [|auto]. apply entry_frag; [exact X|apply Hx].
    - destruct Hx as (Hline & Hdash & Hk & cs & Hg & Ev).
      assert (Ec : comma = false) by (unfold comma; rewrite Hline; reflexivity). rewrite Ec.
      destruct (line_run cs g c Hg Wg Pg Tr) as (L & c1 & E1 & Wr). unfold key_part. rewrite Hk, Ev. unfold seq, nothing. rewrite E1.
      eexists _, c1, _, _. split; [reflexivity|]. split; [exact Wr|]. split.
      + intros _. split; [exact Hdash|]. destruct Hq as [Hq|Hq]; [exact Hq|]. apply Forall_inv in Hq. contradiction.
      + eapply frag_st; [apply comments_frag, Hg|]. intros r [_ Z]. exact Z. }
  destruct El as (L & c1 & t & tr & E1 & (V1 & V2 & V3 & V4) & Hdash & Fr). unfold seq at 1. rewrite E1.
  destruct l as [|y l].
  - inversion Hl; subst nfs'. unfold nothing. eexists _, c1, t, tr.
    destruct nf as [[cs E]|].
    + destruct Fr as (ts & en & F1 & I1 & I2).
      exists (ts ++ if comma then [plain tok_comma] else []), [en]. split; [reflexivity|]. split; [repeat split; auto|].
      split; [exact F1|]. split; [|split; [cbn; auto|intros N; apply Hdash, N]].
      destruct comma; [|rewrite app_nil_r; apply a_last, I1]. apply a_cons; [exact I1| |reflexivity].
      destruct d; [lia|]. constructor.
    + exists [], []. split; [reflexivity|]. split; [repeat split; auto|]. split; [exact Fr|]. split; [|split; [cbn; auto|intros N; apply Hdash, N]].
      destruct d; [lia|]. constructor.
  - assert (Esin : single = false) by (destruct single; [|reflexivity]; specialize (Hs eq_refl); cbn in Hs; lia).
    destruct (between_run x cmd g c1 tr Wg V4 Hdash) as (L2 & c2 & gap & E2 & (U1 & U2 & U3 & U4) & G1 & G2).
    destruct (IH nfs' g c2 Hl Hd ltac:(discriminate) Wg Pg U4 ltac:(congruence)) as (L3 & c3 & t3 & tr3 & ts3 & ens3 & E3 & (T1 & T2 & T3 & T4) & F3 & A3 & X3 & M3).
    { rewrite Esin. discriminate. }
    { destruct Hq as [Hq|Hq]; [left; exact Hq|right]. inversion Hq; assumption. }
    unfold seq at 1. rewrite E2, E3. eexists _, c3, (t ++ gap ++ t3), tr3.
    destruct nf as [[cs E]|].
    + assert (Ec : comma = true). { unfold comma. destruct Hx as (Hline & _). rewrite Hline, Esin, andb_false_r. reflexivity. }
      rewrite Ec in Fr. destruct Fr as (ts & en & F1 & I1 & I2).
      exists ((ts ++ [plain tok_comma]) ++ ts3), (en :: ens3). split; [reflexivity|]. split; [repeat split; try congruence; rewrite T1, U1, V1, <- !app_assoc; reflexivity|].
      split; [|split; [|split; [cbn; constructor; auto|exact M3]]].
      * eapply frag_app; [exact F1| |].
        { apply (frag_pre true (lstop tr3) gap [] t3 ts3 G1 F3). }
        intros rest _. rewrite <- app_assoc. apply G2.
      * rewrite <- app_assoc. apply a_cons; auto.
    + exists ts3, ens3. split; [reflexivity|]. split; [repeat split; try congruence; rewrite T1, U1, V1, <- !app_assoc; reflexivity|].
      split; [|split; [exact A3|split; [exact X3|exact M3]]].
      apply (frag_app true (lstop tr) (lstop tr3) t [] (gap ++ t3) ts3 Fr).
      * apply (frag_pre true (lstop tr3) gap [] t3 ts3 G1 F3).
      * intros rest _. rewrite <- app_assoc. apply G2.
Qed.
(** when nothing forces the elements onto lines of their own, they have no comments *)
Definition dryF (A : F) : Prop := forall c, trailing c = false -> exists L b, A c = (L, set_force b c) /\ (force_ml c = true -> b = true).
Definition clrF (A : F) : Prop := exists c L d, trailing c = false /\ A c = (L, d) /\ force_ml d = false.
Lemma clr_seq A A' : dryF A -> dryF A' -> clrF (A +> A') -> clrF A /\ clrF A'.
Proof.
  intros Da Db (c1 & L & d1 & T1 & E1 & X1). unfold seq in E1.
  destruct (Da c1 T1) as (La & ba & Ea & Fa). rewrite Ea in E1.
  destruct (Db (set_force ba c1) T1) as (Lb & bb & Eb & Fb). rewrite Eb in E1.
  injection E1 as <- <-. cbn in X1. subst bb.
  assert (ba = false) by (destruct ba; [discriminate (Fb eq_refl)|reflexivity]). subst ba.
  split; [exists c1, La, (set_force false c1)|exists (set_force false c1), Lb, (set_force false (set_force false c1))]; auto.
Qed.
Lemma dryF_seq A A' : dryF A -> dryF A' -> dryF (A +> A').
Proof.
  intros Da Db c T1. unfold seq. destruct (Da c T1) as (La & ba & Ea & Fa). rewrite Ea.
  destruct (Db (set_force ba c) T1) as (Lb & bb & Eb & Fb). rewrite Eb. eexists _, bb. split; [reflexivity|]. intros X. apply Fb, Fa, X.
Qed.
Lemma fine_dryF a f : fine a -> f_write f = false -> dryF (a f).
Proof. intros [D _] W c T. apply (D f c W T). Qed.
Lemma clr_noisy a f : noisy a -> f_write f = false -> clrF (a f) -> False.
Proof. intros N W (c & L & d & T & E & X). rewrite (N f c L d W T E) in X. discriminate. Qed.
Lemma clr_ext A A' : (forall c, A c = A' c) -> clrF A -> clrF A'.
Proof. intros E (c & L & d & T & E1 & X). exists c, L, d. rewrite <- E. auto. Qed.
Lemma dryF_ext A A' : (forall c, A c = A' c) -> dryF A -> dryF A'.
Proof. intros E H c T. rewrite <- E. apply H, T. Qed.
Lemma loop_quiet md d paren cmd single l : forall nfs f, Forall2 (item_prints md d) l nfs -> Forall (fun x => i_line x = false) l -> f_write f = false ->
  clrF (items_loop o f paren cmd single l) -> Forall quiet nfs.
Proof.
  induction l as [|x l IH]; intros nfs f H Hl W U; inversion H as [|? nf ? nfs' Hx Hr]; subst; constructor.
  - inversion Hl as [|? ? Hx' _]; subst. destruct nf as [[cs E]|]; [|destruct Hx as (Hx & _); cbn; congruence].
    cbn. destruct cs as [|y cs]; [reflexivity|]. exfalso. destruct (item_fine _ _ _ _ Hx) as [Fv Fk].
    destruct Hx as (_ & _ & _ & N & _). specialize (N ltac:(discriminate)).
    apply (clr_ext _ _ (loop_cons _ _ _ _ _ _)) in U. cbv zeta in U. apply clr_seq in U.
    + destruct U as [U _]. apply clr_seq in U.
      * destruct U as [_ U]. unfold fmt_check in U. cbn [f_write with_sep with_cmd] in U. rewrite W in U. cbn [negb] in U.
        eapply clr_noisy; [exact N| |exact U]. exact W.
      * unfold key_part. destruct (i_kw x) as [k|]; [apply (fine_dryF k); auto|]. apply (fine_dryF (fun _ => nothing) f (fine_nothing o)), W.
      * apply (fine_dryF (fun f => fmt_check o (i_val x) f)); [apply fine_check, Fv|exact W].
    + apply dryF_seq.
      * unfold key_part. destruct (i_kw x) as [k|]; [apply (fine_dryF k); auto|]. apply (fine_dryF (fun _ => nothing) f (fine_nothing o)), W.
      * apply (fine_dryF (fun f => fmt_check o (i_val x) f)); [apply fine_check, Fv|exact W].
    + destruct l as [|y' l]; [apply (fine_dryF (fun _ => nothing) f (fine_nothing o)), W|].
      apply dryF_seq; [destruct (cmd && i_dash x && negb (i_next_dash x)); [apply (fine_dryF (fun f => fmt_write f " "%char)); [apply fine_write|exact W]|apply (fine_dryF (fun f => fmt_newline_or_space o f (i_next_blank x))); [apply fine_newline_or_space|exact W]]|].
      apply (fine_dryF (fun f => items_loop o f paren cmd single (y' :: l))); [|exact W]. apply fine_items.
      clear - Hr. induction Hr as [|? ? ? ? Hi Hr IH]; constructor; auto. eapply item_fine; eauto.
  - destruct l as [|y l]; [inversion Hr; constructor|].
    assert (Fr : Forall (fine_item o) (y :: l)). { clear - Hr. revert Hr. generalize (y :: l). intros z Hr. induction Hr as [|? ? ? ? Hi Hr IH]; constructor; auto. eapply item_fine; eauto. }
    destruct (item_fine _ _ _ _ Hx) as [Fv Fk].
    apply (IH nfs' (with_cmd (some (i_kw x) && i_command x) f) Hr); [inversion Hl; assumption|exact W|].
    apply (clr_ext _ _ (loop_cons _ _ _ _ _ _)) in U. cbv zeta in U.
    assert (D1 : dryF (if cmd && i_dash x && negb (i_next_dash x) then fmt_write (with_cmd (some (i_kw x) && i_command x) f) " "%char else fmt_newline_or_space o (with_cmd (some (i_kw x) && i_command x) f) (i_next_blank x))).
    { destruct (cmd && i_dash x && negb (i_next_dash x)); [apply (fine_dryF (fun f => fmt_write f " "%char)); [apply fine_write|exact W]|apply (fine_dryF (fun f => fmt_newline_or_space o f (i_next_blank x))); [apply fine_newline_or_space|exact W]]. }
    assert (D2 : dryF (items_loop o (with_cmd (some (i_kw x) && i_command x) f) paren cmd single (y :: l))).
    { apply (fine_dryF (fun f => items_loop o f paren cmd single (y :: l))); [|exact W]. apply fine_items, Fr. }
    apply clr_seq in U.
    + destruct U as [_ U]. apply clr_seq in U; auto. apply U.
    + apply dryF_seq.
      * unfold key_part. destruct (i_kw x) as [k|]; [apply (fine_dryF k); auto|]. apply (fine_dryF (fun _ => nothing) f (fine_nothing o)), W.
      * apply (fine_dryF (fun f => fmt_check o (i_val x) f)); [apply fine_check, Fv|exact W].
    + apply dryF_seq; assumption.
Qed.
(** the edges inside the brackets *)
Lemma edge_run brack f c tr : f_write f = true -> trailing c = tr -> (tr = true -> f_ml f = true) ->
  exists L c' g, edge o brack f c = (L, c') /\ wrote c c' g false /\ frag true any g [] /\ forall r, closes r -> lstop tr (g ++ r).
Proof.
  intros W Tr H. unfold edge. destruct (f_ml f) eqn:M.
  - assert (X : exists L c' g, fmt_newline o f false c = (L, c') /\ wrote c c' g false /\ frag true any g [] /\ forall r, closes r -> lstop tr (g ++ r)).
    { destruct (newline_run f false c W M) as (L & c' & E1 & Wr). rewrite E1. eexists _, _, _. split; [reflexivity|]. split; [exact Wr|]. split.
      * apply (frag_pre true any [NL] [] _ []); [apply frag_newline|]. apply frag_blanks, indtext_blank.
      * intros r _. assert (N : nlstop ((NL :: indtext (indent c)) ++ r)) by (eexists; reflexivity). split; [apply nl_stop, N|auto]. }
    destruct brack; [|exact X]. unfold uncounted, fmt_newline_or_space. rewrite M. destruct X as (L & c' & g & E & X). rewrite E. exists 0%N, c', g. auto.
  - assert (tr = false) by (destruct tr; [discriminate (H eq_refl)|reflexivity]). subst tr. rewrite H0 in *.
    destruct brack.
    + unfold uncounted, fmt_newline_or_space. rewrite M. unfold fmt_write. rewrite W. eexists _, _, (B " "). split; [reflexivity|].
      split; [repeat split; auto|]. split; [apply frag_space|]. intros r _. split; [|discriminate]. eexists _, _. split; [reflexivity|vm_compute; tauto].
    + unfold fmt_newline. rewrite W, M. cbn [andb]. exists 0%N, c, []. split; [reflexivity|]. split; [repeat split; auto; rewrite app_nil_r; reflexivity|].
      split; [apply frag_nil|]. intros r (ch & r' & -> & Hch). split; [|discriminate]. exists ch, r'. split; [reflexivity|]. revert Hch. vm_compute. tauto.
Qed.
Definition closing_of (opening : ascii) (po pc : ttype) : Prop :=
  In (opening, po, pc) [("("%char, tok_lparen, tok_rparen); ("["%char, tok_lbrack, tok_rbrack); ("{"%char, tok_lcurl, tok_rcurl)].
Lemma frag_bracket e opening po pc t ts : closing_of opening po pc -> frag true closes t ts ->
  frag e any (opening :: t ++ [closing opening]) (plain po :: ts ++ [plain pc]).
Proof.
  intros [H|[H|[H|[]]]] X; injection H as <- <- <-; [apply frag_lparen|apply frag_lbrack|apply frag_lcurl]; exact X.
Qed.
Definition rargs (po pc : ttype) (opening : ascii) (md : list_mode) (d : nat) (sorted : bool) (nfs : list info) : rel := fun f e i t tr =>
  tr = false /\ exists ts ens nfs' t', t = opening :: t' /\ (forall e, frag e any t (plain po :: ts ++ [plain pc])) /\ args false md d ens ts /\
    (if sorted then Permutation nfs nfs' else nfs = nfs') /\ Forall2 (fun (E : option node * node -> Prop) en => E en) (entries nfs') ens.
Lemma items_fine md d l nfs : Forall2 (item_prints md d) l nfs -> Forall (fine_item o) l.
Proof. intros Hr. induction Hr as [|? ? ? ? Hi Hr IH]; constructor; auto. eapply item_fine; eauto. Qed.
Lemma container_run opening po pc md d sorted l comma nfs f c : closing_of opening po pc -> Forall2 (item_prints md d) l nfs -> 1 <= d ->
  f_write f = true -> f_parent f = [] -> trailing c = false -> (f_ml f = true \/ unf (fun f => fmt_arg_container o qsort opening sorted l comma f) f) ->
  exists L c' t tr, fmt_arg_container o qsort opening sorted l comma f c = (L, c') /\ wrote c c' t tr /\
    rargs po pc opening md d sorted nfs f (enclosed c) (indent c) t tr.
Proof.
  intros Ho Hl Hd W Pr Tr Hq. unfold fmt_arg_container. rewrite Pr. cbn [fmt_comments].
  set (g := setup f). assert (Wg : f_write g = true) by exact W. assert (Pg : f_parent g = []) by exact Pr.
  unfold fmt_write at 1. unfold seq at 1. rewrite Wg. set (c0 := Ctx (out c ++ [opening]) _ _ _ _ _).
  unfold seq at 1, nothing at 1.
  assert (Fi := items_fine _ _ _ _ Hl).
  assert (Ar : exists L c' t ts ens nfs', fmt_args o qsort opening sorted l comma g c0 = (L, c') /\ wrote c0 c' t false /\ frag true closes t ts /\ args false md d ens ts /\
            (if sorted then Permutation nfs nfs' else nfs = nfs') /\ Forall2 (fun (E : option node * node -> Prop) en => E en) (entries nfs') ens).
  { destruct l as [|x l].
    - inversion Hl; subst nfs. exists 0%N, c0, [], [], [], []. split; [reflexivity|]. split; [repeat split; auto; rewrite app_nil_r; reflexivity|].
      split; [apply frag_nil|]. split; [destruct d; [lia|constructor]|]. split; [destruct sorted; constructor|constructor].
    - rewrite args_split by discriminate. unfold bracketed, inside. cbv beta iota zeta.
      set (brack := ceqb opening "["%char && space_array o).
      set (l' := if sorted then qsort sort_cmp (x :: l) else x :: l).
      assert (Perm : Permutation (x :: l) l'). { unfold l'. destruct sorted; [apply Permutation_sym, sorts|apply Permutation_refl]. }
      assert (Hl' : exists nfs', Forall2 (item_prints md d) l' nfs' /\ (if sorted then Permutation nfs nfs' else nfs = nfs')).
      { unfold l' in *. destruct sorted; [|exists nfs; auto]. destruct (Permutation_Forall2 Perm Hl) as (nfs' & P1 & P2). eauto. }
      destruct Hl' as (nfs' & Hl' & Hp).
      assert (Nl' : l' <> []). { intros E. rewrite E in Perm. apply Permutation_sym, Permutation_nil in Perm. discriminate. }
      assert (Q : f_ml g = true \/ Forall quiet nfs').
      { destruct Hq as [Hq|(c1 & L & d1 & T1 & E1 & X1)]; [left; exact Hq|right].
        set (h := set_write false (with_ml false f)) in *. unfold fmt_arg_container in E1. change (f_parent h) with (f_parent f) in E1. rewrite Pr in E1. cbn [fmt_comments] in E1.
        set (k := setup h) in *. assert (Wk : f_write k = false) by reflexivity.
        assert (Da : dryF (fmt_args o qsort opening sorted (x :: l) comma k)) by (apply (fine_dryF (fun f => fmt_args o qsort opening sorted (x :: l) comma f)); [apply fine_args; auto|exact Wk]).
        assert (Dw : forall ch, dryF (fmt_write k ch)) by (intros ch; apply (fine_dryF (fun f => fmt_write f ch)); [apply fine_write|exact Wk]).
        assert (Dn : dryF nothing) by (apply (fine_dryF (fun _ => nothing) k (fine_nothing o)), Wk).
        assert (U : clrF (fmt_write k opening +> nothing +> fmt_args o qsort opening sorted (x :: l) comma k +> fmt_write k (closing opening))) by (exists c1, L, d1; auto).
        apply clr_seq in U; auto; [|apply dryF_seq; [exact Dn|apply dryF_seq; auto]]. destruct U as [_ U].
        apply clr_seq in U; auto; [|apply dryF_seq; auto]. destruct U as [_ U]. apply clr_seq in U; auto. destruct U as [U _].
        apply (clr_ext _ _ (fun c => args_split o qsort opening sorted (x :: l) comma k c ltac:(discriminate))) in U.
        assert (De : dryF (edge o brack k)) by (apply (fine_dryF (edge o brack)); [apply fine_edge|exact Wk]).
        assert (Df : forall b : bool, dryF (if b then upd_ctx (set_force true) else nothing)).
        { intros b. destruct b; [apply (fine_dryF (fun _ => _) k (fine_force o)), Wk|exact Dn]. }
        assert (Dl : dryF (items_loop o k (ceqb opening "("%char) (f_cmd k) (length l' =? 1) l')).
        { apply (fine_dryF (fun f => items_loop o f (ceqb opening "("%char) (f_cmd k) (length l' =? 1) l')); [|exact Wk]. apply fine_items. eapply items_fine; eauto. }
        assert (Dm : dryF (inside o qsort opening sorted (x :: l) comma (f_cmd k) k)).
        { unfold inside. cbv zeta. fold brack l'. repeat apply dryF_seq; auto. }
        apply clr_seq in U; auto.
        - destruct U as [(c2 & L2 & d2 & T2 & E2 & X2) _]. unfold bracketed in E2.
          set (c3 := set_enclosed _ _) in E2. destruct (inside o qsort opening sorted (x :: l) comma (f_cmd k) k c3) as [L3 d3] eqn:E3.
          injection E2 as _ <-. assert (U : clrF (inside o qsort opening sorted (x :: l) comma (f_cmd k) k)) by (exists c3, L3, d3; auto).
          unfold inside in U. cbv zeta in U. fold brack l' in U. apply clr_seq in U; auto; [|repeat apply dryF_seq; auto]. destruct U as [_ U].
          apply clr_seq in U; auto; [|repeat apply dryF_seq; auto]. destruct U as [Ul U].
          apply clr_seq in U; auto. destruct U as [_ U].
          refine (loop_quiet md d _ _ _ _ nfs' k Hl' _ Wk U).
          assert (Ex : existsb i_line (x :: l) = false).
          { destruct (existsb i_line (x :: l)); [|reflexivity]. destruct Ul as (c4 & L4 & d4 & T4 & E4 & X4). cbn [orb] in E4. unfold upd_ctx in E4. injection E4 as _ <-. discriminate X4. }
          apply Forall_forall. intros y Hy. apply (Permutation_in _ (Permutation_sym Perm)) in Hy.
          destruct (i_line y) eqn:Ey; [|reflexivity]. assert (existsb i_line (x :: l) = true) by (apply existsb_exists; eauto). congruence.
        - apply (fine_dryF (bracketed true (fun f => inside o qsort opening sorted (x :: l) comma (f_cmd k) f))); [|exact Wk]. apply fine_bracketed.
          unfold inside. apply fine_seq; [apply fine_edge|]. apply fine_seq; [|apply fine_seq].
          + apply (fine_if o _ (fun _ => _) (fun _ => _)); [apply fine_force|apply fine_nothing].
          + apply (fine_if o _ (fun _ => _) (fun _ => _)); [apply fine_force|apply fine_nothing].
          + cbv zeta. apply fine_items. fold l'. eapply items_fine; eauto. }
      set (c1 := set_enclosed (S (enclosed c0)) (set_indent (S (indent c0)) c0)).
      destruct (edge_run brack g c1 false Wg Tr ltac:(discriminate)) as (L1 & c2 & g1 & E1 & (V1 & V2 & V3 & V4) & G1 & _).
      assert (Fo : forall (b : bool) c, exists c', (if b then upd_ctx (set_force true) else nothing) c = (0%N, c') /\ wrote c c' [] (trailing c)).
      { intros b cc. destruct b; eexists; (split; [reflexivity|]); repeat split; rewrite app_nil_r; reflexivity. }
      unfold seq at 1. cbv beta. fold c1. unfold seq at 1. rewrite E1.
      destruct (Fo (existsb i_line (x :: l) || comma) c2) as (c3 & E3 & (A1 & A2 & A3 & A4)). unfold seq at 1. rewrite E3.
      destruct (Fo ((1 <? length (filter (fun x => some (i_kw x)) (x :: l))) && kwa_ml o) c3) as (c4 & E4 & (B1 & B2 & B3 & B4)). unfold seq at 1. rewrite E4.
      destruct (loop_run md d (ceqb opening "("%char) (f_cmd g) (length l' =? 1) l' nfs' g c4 Hl' Hd Nl' Wg Pg) as (L5 & c5 & t5 & tr5 & ts5 & ens5 & E5 & (D1 & D2 & D3 & D4) & F5 & I5 & X5 & M5); auto.
      { congruence. }
      { rewrite B3, A3, V3. cbn. lia. }
      { intros E. apply Nat.eqb_eq in E. lia. }
      rewrite E5. set (c6 := set_enclosed (pred (enclosed c5)) (set_indent (pred (indent c5)) c5)).
      destruct (edge_run brack g c6 tr5 Wg D4 M5) as (L7 & c7 & g7 & E7 & (H1 & H2 & H3 & H4) & G7 & G8). rewrite E7.
      eexists _, c7, (g1 ++ t5 ++ g7), (ts5 ++ []), ens5, nfs'. split; [reflexivity|]. split.
      { repeat split.
        - rewrite H1. unfold c6. cbn [set_enclosed set_indent out]. rewrite D1, B1, A1, V1, !app_nil_r. unfold c1. cbn [set_enclosed set_indent out]. rewrite <- !app_assoc. reflexivity.
        - rewrite H2. unfold c6. cbn [set_enclosed set_indent indent]. rewrite D2, B2, A2, V2. reflexivity.
        - rewrite H3. unfold c6. cbn [set_enclosed set_indent enclosed]. rewrite D3, B3, A3, V3. reflexivity.
        - exact H4. }
      split; [|split; [rewrite app_nil_r; exact I5|split; assumption]].
      apply (frag_pre true closes g1 [] _ _ G1). eapply frag_app; [exact F5|apply frag_any, G7|exact G8]. }
  destruct Ar as (L1 & c1 & t & ts & ens & nfs' & E1 & (V1 & V2 & V3 & V4) & X1 & X2 & X3 & X4).
  unfold seq at 1. rewrite E1. unfold fmt_write. rewrite Wg.
  eexists _, _, (opening :: t ++ [closing opening]), false. split; [reflexivity|]. split.
  - repeat split; auto. cbn [out]. rewrite V1. unfold c0. cbn [out]. rewrite <- !app_assoc. reflexivity.
  - split; [reflexivity|]. exists ts, ens, nfs', (t ++ [closing opening]). split; [reflexivity|]. split; [|auto].
    intros e. apply frag_bracket; assumption.
Qed.

(** ** Every expression *)
(** deeper nesting *)
Lemma deeper :
  (forall d n ts, expr false d n ts -> expr false (S d) n ts) /\ (forall k d n ts, level false k d n ts -> level false k (S d) n ts) /\
  (forall d ls ts, links false d ls ts -> links false (S d) ls ts) /\ (forall md d l ts, args false md d l ts -> args false md (S d) l ts) /\
  (forall md d en ts, S_Parser.item false md d en ts -> S_Parser.item false md (S d) en ts).
Proof.
  apply expr_ind5; intros;
  [apply e_level; assumption|apply e_ternary; assumption|apply l_up; assumption|apply l_or; assumption|apply l_and; assumption|apply l_compare; assumption|apply l_stray; assumption|apply l_arith; assumption|apply l_not; assumption|apply l_minus; assumption|apply l_stringify; assumption|apply l_chain; assumption|apply l_paren; assumption|apply l_array; assumption|apply l_dict; assumption|apply l_true; assumption|apply l_false; assumption|apply l_id; assumption|apply l_number; assumption|apply l_string; assumption|constructor|apply k_method; assumption|apply k_index; assumption|apply k_call; assumption|constructor|apply a_last; assumption|apply a_cons; assumption|apply i_value; assumption|apply i_keyword; assumption|apply i_entry; assumption].
Qed.
Lemma args_deeper d l ts : args false mode_array d l ts -> args false mode_arguments (S d) l ts.
Proof.
  intros H. remember mode_array as md eqn:E. induction H; subst.
  - constructor.
  - apply a_last. inversion H; subst. constructor; [discriminate|]. apply deeper; assumption.
  - apply a_cons; auto. inversion H; subst. constructor; [discriminate|]. apply deeper; assumption.
Qed.

Definition args_prop (md : list_mode) (d : nat) (l : list farg) : Prop :=
  1 <= d /\ exists nfs, Forall2 (item_prints md d) (items o qsort l) nfs /\
    forall ens, Forall2 (fun (E : option node * node -> Prop) en => E en) (entries nfs) ens -> stands_args md d l ens.
Definition arr_prop (d : nat) (T : fnode) : Prop := match T with FArray _ l _ _ => args_prop mode_array d l | _ => True end.
Definition lone_prop (d : nat) (l : list farg) : Prop :=
  match l with [AVal (FArray _ l' _ _)] => args_prop mode_array (pred d) l' | _ => True end.
Definition tree_prop (cs : comments) (T : fnode) (Q : list token -> Prop) : Prop :=
  good_comments cs -> does (node_ T) (calm T) (rnode cs Q) /\ (cs <> [] -> noisy (node_ T)).
Lemma tree_finish T cs Q (cm : Prop) body : (calm T -> cm) -> fine body -> (forall f c, node_body o qsort T f c = (body f +> fmt_tail o f cs) c) ->
  does body cm (rbody Q) -> tree_prop cs T Q.
Proof.
  intros Hc Fb E H Hg. split.
  - eapply does_weaken; [eapply does_finish; eauto|exact Hc|auto].
  - intros N. eapply noisy_finish; eauto.
Qed.
Lemma tree_weaken cs T (Q Q' : list token -> Prop) : tree_prop cs T Q -> (forall ts, Q ts -> Q' ts) -> tree_prop cs T Q'.
Proof.
  intros H I Hg. destruct (H Hg) as [H1 H2]. split; [|exact H2]. eapply does_weaken; [exact H1|auto|].
  intros f e i t tr _ _ (body & ts & A & B' & C & D). exists body, ts. auto.
Qed.
Lemma tree_operand T Q : tree_prop [] T Q -> does (node_ T) (calm T) (rnode [] Q).
Proof. intros H. apply H. constructor. Qed.
Lemma does_rtext_body (a : fst_ -> F) (cm : Prop) x ts : does a cm (rtext x) -> (forall e, frag e stop x ts) -> does a cm (rbody (fun us => us = ts)).
Proof.
  intros H X. eapply does_weaken; [exact H|auto|]. intros f e i t tr _ _ [-> ->]. split; [reflexivity|]. exists ts. auto.
Qed.
Lemma tree_token T cs x t (body : fst_ -> F) : fine body -> (forall f c, node_body o qsort T f c = (body f +> fmt_tail o f cs) c) ->
  does body True (rtext x) -> spelled x t -> tree_prop cs T (fun us => us = [t]).
Proof.
  intros Fb E H Sp. apply (tree_finish T cs _ True body); auto. apply (does_rtext_body _ _ x); [exact H|]. intros e. apply frag_token, Sp.
Qed.
Lemma word_frag e w t : In (w, t) words -> frag e any (w ++ B " ") [plain t].
Proof. intros H. apply frag_space_tail, frag_token, sp_word, H. Qed.
Ltac fines := repeat first
    [ assumption
    | match goal with
      | |- fine (fun f => _ +> _) => apply fine_seq
      | |- fine (fun f => fmt_tail _ f _) => apply fine_tail
      | |- fine (fun f => fmt_write (setup f) ?x) => apply (fine_setup o (fun f => fmt_write f x)), fine_write
      | |- fine (fun f => fmt_writes (setup f) ?x) => apply (fine_setup o (fun f => fmt_writes f x)), fine_writes
      | |- fine (fun f => fmt_writeml (setup f) ?x) => apply (fine_setup o (fun f => fmt_writeml f x)), fine_writeml
      | |- fine (fun f => fmt_writef (setup f) ?x) => apply (fine_setup o (fun f => fmt_writef f x)), fine_writef
      | |- fine (fun f => fmt_comment_or_space _ (setup f)) => apply (fine_setup o (fun f => fmt_comment_or_space o f)), fine_comment_or_space
      | |- fine (fun f => fmt_breaking_space _ (setup f)) => apply (fine_setup o (fun f => fmt_breaking_space o f)), fine_breaking_space
      | |- fine (fun f => node_ ?a (setup f)) => apply fine_operand
      | |- fine (fun f => and_or _ _ ?a ?b ?w (setup f)) => apply (fine_setup o (fun f => and_or o qsort a b w f)), fine_and_or; apply fine_node, sorts
      | |- fine (fun f => fmt_check _ (parens _ _ ?p ?a) (setup f)) => apply (fine_setup o (fun f => fmt_check o (parens o qsort p a) f)), fine_check, fine_parens, fine_node, sorts
      | |- ~ In TAB _ => try match goal with op : comparison_type |- _ => destruct op end; vm_compute; intuition discriminate
      | |- (_ <= _)%N => try match goal with op : comparison_type |- _ => destruct op end; vm_compute; discriminate
      end ].

Lemma tree_or cs a b Pa Pb : tree_prop [] a Pa -> tree_prop [] b Pb ->
  tree_prop cs (FOr a b cs) (fun ts => exists ta tb, ts = ta ++ [plain tok_or] ++ tb /\ Pa ta /\ Pb tb).
Proof.
  intros Ha Hb. apply (tree_finish _ _ _ (calm a /\ calm b) (fun f => and_or o qsort a b (B "or ") (setup f))); auto; [fines|].
  apply does_and_or; [apply tree_operand, Ha|apply tree_operand, Hb|]. intros e. apply (word_frag e (B "or")). vm_compute; tauto.
Qed.
Lemma tree_and cs a b Pa Pb : tree_prop [] a Pa -> tree_prop [] b Pb ->
  tree_prop cs (FAnd a b cs) (fun ts => exists ta tb, ts = ta ++ [plain tok_and] ++ tb /\ Pa ta /\ Pb tb).
Proof.
  intros Ha Hb. apply (tree_finish _ _ _ (calm a /\ calm b) (fun f => and_or o qsort a b (B "and ") (setup f))); auto; [fines|].
  apply does_and_or; [apply tree_operand, Ha|apply tree_operand, Hb|]. intros e. apply (word_frag e (B "and")). vm_compute; tauto.
Qed.
Lemma tree_compare cs op a b Pa Pb : tree_prop [] a Pa -> tree_prop [] b Pb ->
  tree_prop cs (FCmp op a b cs) (fun ts => exists ta tb, ts = ta ++ cmp_tokens op ++ tb /\ Pa ta /\ Pb tb).
Proof.
  intros Ha Hb.
  apply (tree_finish _ _ _ (calm a /\ True /\ calm b) (fun f => node_ a (setup f) +> (fmt_comment_or_space o (setup f) +> fmt_writef (setup f) (cmp_sign op ++ B " ")) +> node_ b (setup f))).
  - cbn. tauto.
  - fines.
  - intros f c. cbn [node_body]. seqs.
  - apply does_binary; [fines|apply tree_operand, Ha| |apply does_operand, tree_operand, Hb|fines].
    apply does_text_mid; [destruct op; vm_compute; discriminate|destruct op; vm_compute; lia|destruct op; vm_compute; intuition discriminate|].
    intros e. apply cmp_frag.
Qed.
Lemma tree_arith cs op a b Pa Pb : tree_prop [] a Pa -> tree_prop [] b Pb ->
  tree_prop cs (FArith op a b cs) (fun ts => exists ta tb, ts = ta ++ [plain (sign op)] ++ tb /\ Pa ta /\ Pb tb).
Proof.
  intros Ha Hb.
  apply (tree_finish _ _ _ (calm a /\ False /\ calm b) (fun f => node_ a (setup f) +> (fmt_comment_or_space o (setup f) +> fmt_write (setup f) (arith_sign op) +> fmt_breaking_space o (setup f)) +> node_ b (setup f))).
  - cbn. tauto.
  - fines.
  - intros f c. cbn [node_body]. seqs.
  - apply does_binary; [fines|apply tree_operand, Ha|apply does_arith_mid|apply does_operand, tree_operand, Hb|fines].
Qed.
Lemma tree_ternary cs q a b Pq Pa Pb : tree_prop [] q Pq -> tree_prop [] a Pa -> tree_prop [] b Pb ->
  tree_prop cs (FTernary q a b cs) (fun ts => exists tq ta tb, ts = tq ++ plain tok_question_mark :: ta ++ plain tok_colon :: tb /\ Pq tq /\ Pa ta /\ Pb tb).
Proof.
  intros Hq Ha Hb.
  apply (tree_finish _ _ _ (calm q /\ True /\ calm a /\ True /\ calm b)
     (fun f => node_ q (setup f) +> (fmt_comment_or_space o (setup f) +> fmt_writef (setup f) (B "? ")) +>
               (node_ a (setup f) +> (fmt_comment_or_space o (setup f) +> fmt_writef (setup f) (B ": ")) +> node_ b (setup f)))).
  - cbn. tauto.
  - fines.
  - intros f c. cbn [node_body]. seqs.
  - assert (M1 : does (fun f => fmt_comment_or_space o (setup f) +> fmt_writef (setup f) (B "? ")) True (rmid [plain tok_question_mark])).
    { apply does_text_mid; [vm_compute; discriminate|vm_compute; lia|vm_compute; intuition discriminate|].
      intros e. apply (frag_space_tail e any (B "?")), frag_token, sp_symbol; vm_compute; tauto. }
    assert (M2 : does (fun f => fmt_comment_or_space o (setup f) +> fmt_writef (setup f) (B ": ")) True (rmid [plain tok_colon])).
    { apply does_text_mid; [vm_compute; discriminate|vm_compute; lia|vm_compute; intuition discriminate|].
      intros e. apply (frag_space_tail e any (B ":")), frag_token, sp_symbol; vm_compute; tauto. }
    assert (F1 : fine (fun f => fmt_comment_or_space o (setup f) +> fmt_writef (setup f) (B "? "))) by fines.
    assert (F2 : fine (fun f => fmt_comment_or_space o (setup f) +> fmt_writef (setup f) (B ": "))) by fines.
    assert (F3 : fine (fun f => node_ a (setup f) +> (fmt_comment_or_space o (setup f) +> fmt_writef (setup f) (B ": ")) +> node_ b (setup f))) by fines.
    eapply does_weaken; [exact (does_binary _ _ _ _ _ _ _ _ _ F1 (tree_operand _ _ Hq) M1
      (does_binary _ _ _ _ _ _ _ _ _ F2 (tree_operand _ _ Ha) M2 (does_operand _ _ _ (tree_operand _ _ Hb)) (fine_operand b)) F3)|tauto|].
    + intros f e i t tr _ _ (-> & ts & X & (tq & tr2 & -> & Y & (ta & tb & -> & Z1 & Z2))). split; [reflexivity|].
      eexists. split; [exact X|]. exists tq, ta, tb. cbn [app]. auto.
Qed.
Lemma tree_prefix cs T a w t Pa (body : fst_ -> F) : tree_prop [] a Pa -> (forall f c, node_body o qsort T f c = ((body f +> node_ a (setup f)) +> fmt_tail o f cs) c) ->
  (calm T -> calm a) -> fine body -> does body True (rtext w) -> (forall e, frag e any w [t]) -> tree_prop cs T (fun ts => exists ta, ts = t :: ta /\ Pa ta).
Proof.
  intros Ha E Hc Fb Hb Hw. apply (tree_finish _ _ _ (calm a) (fun f => body f +> node_ a (setup f))); auto.
  - fines.
  - eapply does_weaken; [apply does_seq; [exact Fb|apply fine_operand|apply (still_text w)|exact Hb|apply does_operand, tree_operand, Ha]|auto|].
    intros f e i tt tr _ _ (t1 & t2 & -> & [-> _] & (-> & ts & X & Y)). split; [reflexivity|]. exists (t :: ts). split; [|eauto].
    apply (frag_pre _ stop w [t] t2 ts); auto.
Qed.
Lemma tree_not cs a Pa : tree_prop [] a Pa -> tree_prop cs (FNot a cs) (fun ts => exists ta, ts = plain tok_not :: ta /\ Pa ta).
Proof.
  intros Ha. apply (tree_prefix _ _ a (B "not ") _ _ (fun f => fmt_writes (setup f) (B "not ")) Ha); auto.
  - intros f c. cbn [node_body]. seqs.
  - fines.
  - apply (does_setup_text (fun f => fmt_writes f (B "not "))), does_writes.
  - intros e. apply (word_frag e (B "not")). vm_compute; tauto.
Qed.
Lemma tree_minus cs a Pa : tree_prop [] a Pa -> tree_prop cs (FMinus a cs) (fun ts => exists ta, ts = plain tok_minus :: ta /\ Pa ta).
Proof.
  intros Ha. apply (tree_prefix _ _ a (B "-") _ _ (fun f => fmt_write (setup f) "-"%char) Ha); auto.
  - intros f c. cbn [node_body]. seqs.
  - fines.
  - apply (does_setup_text (fun f => fmt_write f "-"%char)), does_write.
  - intros e. apply (frag_sign e []); [apply sp_symbol; vm_compute; tauto|]. repeat split; vm_compute; intuition discriminate.
Qed.
Lemma tree_paren cs a Pa : tree_prop [] a Pa -> tree_prop cs (FParen [] a cs) (fun ts => exists ta, ts = plain tok_lparen :: ta ++ [plain tok_rparen] /\ Pa ta).
Proof.
  intros Ha. apply (tree_finish _ _ _ True (fun f => fmt_check o (parens o qsort [] a) (setup f))); auto; [fines|].
  eapply does_weaken; [apply (does_setup (fun f => fmt_check o (parens o qsort [] a) f)), does_check; [apply fine_parens, fine_node, sorts|apply parens_run, tree_operand, Ha]|auto|].
  intros f e i t tr _ _ (ml & -> & ts & X & Y). split; [reflexivity|]. eexists. split; [apply frag_any, X|]. eauto.
Qed.
(** lists *)
Lemma does_container opening po pc md d sorted l comma nfs h : closing_of opening po pc -> Forall2 (item_prints md d) l nfs -> 1 <= d ->
  (forall f, f_write (h f) = f_write f) -> (forall f, f_ml (h f) = f_ml f) -> (forall f, f_parent f = [] -> f_parent (h f) = []) ->
  (forall w f, h (set_write w f) = set_write w (h f)) -> (forall m f, h (with_ml m f) = with_ml m (h f)) -> (forall f, f_and_or (h f) = f_and_or f) ->
  does (fun f => fmt_check o (fun f => fmt_arg_container o qsort opening sorted l comma (h f)) f) True (rargs po pc opening md d sorted nfs).
Proof.
  intros Ho Hl Hd H1 H2 H3 H4 H5 H6. eapply does_weaken.
  - apply (does_check_gen _ True (rargs po pc opening md d sorted nfs)).
    + apply (fine_map o h (fun f => fmt_arg_container o qsort opening sorted l comma f)); auto. apply fine_container; [exact sorts|]. eapply items_fine; eauto.
    + intros f c W Pr Tr _ Hq. destruct (container_run opening po pc md d sorted l comma nfs (h f) c Ho Hl Hd) as (L & c' & t & tr & E & Wr & X); auto.
      * rewrite H1. exact W.
      * destruct Hq as [Hq|(c1 & L & d1 & T1 & E1 & X1)]; [left; rewrite H2; exact Hq|right].
        exists c1, L, d1. split; [exact T1|]. split; [|exact X1]. rewrite H4, H5 in E1. exact E1.
      * exists L, c', t, tr. auto.
  - auto.
  - intros f e i t tr _ _ (ml & X). exact X.
Qed.
Lemma args_plain md d l nfs ens ts : args false md d ens ts -> Forall2 (fun (E : option node * node -> Prop) en => E en) (entries nfs) ens ->
  (forall ens, Forall2 (fun (E : option node * node -> Prop) en => E en) (entries nfs) ens -> stands_args md d l ens) ->
  exists ns, args false md d ns ts /\ stands_args md d l ns.
Proof. intros A X H. exists ens. auto. Qed.
Lemma tree_list cs T opening po pc md d l comma : closing_of opening po pc ->
  (forall f c, node_body o qsort T f c = (fmt_check o (fmt_arg_container o qsort opening false (items o qsort l) comma) (with_parent [] (setup f)) +> fmt_tail o f cs) c) ->
  args_prop md d l -> tree_prop cs T (fun ts => exists ta ns, ts = plain po :: ta ++ [plain pc] /\ args false md d ns ta /\ stands_args md d l ns).
Proof.
  intros Ho E (Hd & nfs & Hl & Hs).
  apply (tree_finish _ _ _ True (fun f => fmt_check o (fmt_arg_container o qsort opening false (items o qsort l) comma) (with_parent [] (setup f)))); auto.
  - apply (fine_map o (fun f => with_parent [] (setup f)) (fun f => fmt_check o (fmt_arg_container o qsort opening false (items o qsort l) comma) f)); try reflexivity.
    apply fine_check, fine_container; [exact sorts|]. eapply items_fine; eauto.
  - eapply does_weaken.
    + apply (does_map (fun f => with_parent [] (setup f)) (fun f => fmt_check o (fmt_arg_container o qsort opening false (items o qsort l) comma) f)); try reflexivity.
      apply (does_container opening po pc md d false (items o qsort l) comma nfs (fun f => f)); auto.
    + auto.
    + intros f e i t tr _ _ (-> & ts & ens & nfs' & t' & -> & X & A & <- & Y). split; [reflexivity|]. eexists. split; [apply frag_any, X|]. exists ts, ens. auto.
Qed.

(** calls, methods and indices *)
Definition rlink (P : list token -> Prop) : rel := fun f e i t tr =>
  tr = false /\ exists ts, frag (0 <? e) any t ts /\ P ts /\ forall r, stop (t ++ r).
Definition rlinks (P : list token -> Prop) : rel := fun f e i t tr =>
  tr = false /\ exists ts, frag (0 <? e) any t ts /\ P ts /\ (t = [] \/ forall r, stop (t ++ r)).
Lemma still_link P : still (rlink P). Proof. intros f e i t tr [H _]. exact H. Qed.
Lemma fine_link_any b k : fine (link_ o qsort b k).
Proof.
  apply fine_link; [exact sorts|]. pose proof (fine_node_list o qsort sorts) as H.
  assert (A : forall l, Forall (arg_all (fun v => fine (node_ v) /\ fine_list o qsort v)) l).
  { intros l. apply Forall_forall. intros [c|v|k' v] _; cbn; auto. }
  destruct k; cbn; auto.
Qed.
Definition starts (nk : link) (d : nat) (ts : list token) : Prop := forall ls tl, links false d ls tl -> links false d (nk :: ls) (ts ++ tl).
Lemma link_weaken b k (P Q : list token -> Prop) : does (link_ o qsort b k) True (rlink P) -> (forall ts, P ts -> Q ts) -> does (link_ o qsort b k) True (rlink Q).
Proof.
  intros H I. eapply does_weaken; [exact H|auto|]. intros f e i t tr _ _ (-> & ts & X & Y & Z). split; [reflexivity|]. exists ts. auto.
Qed.
Lemma link_method d m l comma c : identifier m -> args_prop mode_arguments d l ->
  does (link_ o qsort false (KMethod m [] l comma c)) True (rlink (fun ts => exists nk, starts nk d ts /\ stands_link d c (KMethod m [] l comma c) nk)).
Proof.
  intros Hm (Hd & nfs & Hl & Hs). cbn [link_].
  assert (Fm : fine (method_body o qsort m [] l comma)).
  { unfold method_body. cbv zeta. apply fine_seq; [apply (fine_setup o (fun f => fmt_writes f m)), fine_writes|].
    apply (fine_map o (fun f => with_parent [] (setup f)) (fun f => fmt_arg_container o qsort "("%char false (items o qsort l) comma f)); try reflexivity.
    apply fine_container; [exact sorts|]. eapply items_fine; eauto. }
  assert (Fc : fine (fun f => fmt_arg_container o qsort "("%char false (items o qsort l) comma (with_parent [] (setup f)))).
  { apply (fine_map o (fun f => with_parent [] (setup f)) (fun f => fmt_arg_container o qsort "("%char false (items o qsort l) comma f)); try reflexivity.
    apply fine_container; [exact sorts|]. eapply items_fine; eauto. }
  assert (D : does (fun f => fmt_check o (method_body o qsort m [] l comma) f) True
     (fun f e i t tr => tr = false /\ exists t' ts ns, t = m ++ t' /\ (forall r, stop (t' ++ r)) /\ (forall e, frag e any t' (plain tok_lparen :: ts ++ [plain tok_rparen])) /\ args false mode_arguments d ns ts /\ stands_args mode_arguments d l ns)).
  { eapply does_weaken.
    - apply (does_check_gen _ True (fun f e i t tr => tr = false /\ exists t' ts ns, t = m ++ t' /\ (forall r, stop (t' ++ r)) /\ (forall e, frag e any t' (plain tok_lparen :: ts ++ [plain tok_rparen])) /\ args false mode_arguments d ns ts /\ stands_args mode_arguments d l ns)); [exact Fm|].
      intros f cc W Pr Tr _ Hq. unfold method_body. cbv zeta.
      destruct (writes_run m (setup f) cc W) as (L1 & n1 & E1). unfold seq. rewrite E1.
      destruct (container_run "("%char tok_lparen tok_rparen mode_arguments d false (items o qsort l) comma nfs (with_parent [] (setup f)) (adv m n1 cc)) as (L2 & c2 & t2 & tr2 & E2 & (V1 & V2 & V3 & V4) & (-> & ts & ens & nfs' & t' & -> & X & A & <- & Y)); auto.
      { left. reflexivity. }
      { destruct Hq as [Hq|Hq]; [left; exact Hq|right]. unfold method_body in Hq. cbv zeta in Hq.
        apply (unf_seq (fun f => fmt_writes (setup f) m) _ f) in Hq; [|apply (fine_setup o (fun f => fmt_writes f m)), fine_writes|exact Fc].
        destruct Hq as [_ Hq]. exact Hq. }
      rewrite E2. eexists _, c2, (m ++ "("%char :: t'), false. split; [reflexivity|]. split.
      { repeat split; auto. rewrite V1. cbn [adv out]. rewrite <- app_assoc. reflexivity. }
      split; [reflexivity|]. exists ("("%char :: t'), ts, ens. split; [reflexivity|]. split; [|auto].
      intros r. eexists _, _. split; [reflexivity|vm_compute; tauto].
    - auto.
    - intros f e i t tr _ _ (ml & X). exact X. }
  eapply does_weaken.
  - apply does_seq; [apply fine_write|apply (fine_setup o (fun f => fmt_check o (method_body o qsort m [] l comma) f)), fine_check, Fm|apply (still_text (B "."))|apply (does_write "."%char True)|].
    apply (does_setup (fun f => fmt_check o (method_body o qsort m [] l comma) f)), D.
  - auto.
  - intros f e i t tr _ _ (t1 & t2 & -> & [-> _] & (-> & t' & ts & ns & -> & St & X & A & Y)). split; [reflexivity|].
    exists ([plain tok_dot] ++ [mkTok tok_identifier m 0] ++ plain tok_lparen :: ts ++ [plain tok_rparen]). split; [|split].
    + apply (frag_pre _ any (B ".") [plain tok_dot]).
      { apply (frag_sign _ []); [apply sp_symbol; vm_compute; tauto|]. repeat split; vm_compute; intuition discriminate. }
      eapply frag_app; [apply frag_token, sp_identifier, Hm|apply X|]. intros rest _. apply St.
    + exists (LMethod m ns). split; [|constructor; auto].
      intros ls tl Hls. cbn [app]. rewrite <- app_assoc. cbn [app].
      apply (k_method false d ns ls ts tl (plain tok_dot) (mkTok tok_identifier m 0) (plain tok_lparen) (plain tok_rparen)); auto.
    + intros r. eexists _, _. split; [reflexivity|vm_compute; tauto].
Qed.
Lemma link_index d i c (Pi : list token -> Prop) : tree_prop [] i Pi -> (forall ts, Pi ts -> exists n, expr false d n ts /\ stands_expr d [] i n) ->
  does (link_ o qsort false (KIndex i c)) True (rlink (fun ts => exists nk, starts nk d ts /\ stands_link d c (KIndex i c) nk)).
Proof.
  intros Hi HP f cc W Pr Tr _. cbn [link_]. unfold fmt_write at 1. unfold seq at 1. rewrite W.
  unfold seq at 1, enter, upd_ctx at 1. set (c1 := set_enclosed _ _).
  destruct (checked_bare i _ _ (tree_operand _ _ Hi) f c1 W Pr Tr) as (L2 & c2 & t2 & tr2 & E2 & (V1 & V2 & V3 & V4) & (-> & ts & X & Y)).
  { left. cbn. lia. }
  unfold seq at 1. rewrite E2. unfold seq at 1, leave, upd_ctx at 1. unfold fmt_write. rewrite W.
  eexists _, _, ("["%char :: t2 ++ B "]"), false. split; [reflexivity|]. split.
  { repeat split; auto; cbn [out set_enclosed enclosed].
    - rewrite V1. unfold c1. cbn [out set_enclosed]. rewrite <- !app_assoc. reflexivity.
    - rewrite V3. reflexivity. }
  split; [reflexivity|]. exists (plain tok_lbrack :: ts ++ [plain tok_rbrack]). split; [|split].
  - apply frag_lbrack. assert (En : 0 <? enclosed c1 = true) by (apply Nat.ltb_lt; cbn; lia). rewrite En in X.
    eapply frag_st; [exact X|]. intros r (ch & r' & -> & Hch). exists ch, r'. split; [reflexivity|]. revert Hch. vm_compute. tauto.
  - destruct (HP ts Y) as (n & A1 & A2). exists (LIndex n). split; [|constructor; auto].
    intros ls tl Hls. cbn [app]. rewrite <- app_assoc. cbn [app]. apply k_index; auto.
  - intros r. eexists _, _. split; [reflexivity|vm_compute; tauto].
Qed.
Lemma call_args_run d md sorted l comma nfs : Forall2 (item_prints md d) (items o qsort l) nfs -> 1 <= d ->
  does (fun f => fmt_check o (fun f => fmt_arg_container o qsort "("%char sorted (items o qsort l) comma (with_cmd false (setup f))) (setup f)) True
    (rlink (fun ts => exists ta ens nfs', ts = plain tok_lparen :: ta ++ [plain tok_rparen] /\ args false md d ens ta /\
      (if sorted then Permutation nfs nfs' else nfs = nfs') /\ Forall2 (fun (E : option node * node -> Prop) en => E en) (entries nfs') ens)).
Proof.
  intros Hl Hd. eapply does_weaken.
  - apply (does_setup (fun f => fmt_check o (fun f => fmt_arg_container o qsort "("%char sorted (items o qsort l) comma (with_cmd false (setup f))) f)).
    apply (does_container "("%char tok_lparen tok_rparen md d sorted (items o qsort l) comma nfs (fun f => with_cmd false (setup f))); auto. left; reflexivity.
  - auto.
  - intros f e i t tr _ _ (-> & ts & ens & nfs' & t' & -> & X & A & B' & C). split; [reflexivity|].
    exists (plain tok_lparen :: ts ++ [plain tok_rparen]). split; [apply X|]. split; [exists ts, ens, nfs'; auto|].
    intros r. eexists _, _. split; [reflexivity|vm_compute; tauto].
Qed.
Lemma starts_call d ens ta : args false mode_arguments d ens ta -> starts (LCall ens) d (plain tok_lparen :: ta ++ [plain tok_rparen]).
Proof. intros H ls tl Hls. cbn [app]. rewrite <- app_assoc. cbn [app]. apply k_call; auto. Qed.
Lemma link_call d l comma c : args_prop mode_arguments d l ->
  does (link_ o qsort false (KCall l comma c)) True (rlink (fun ts => exists nk, starts nk d ts /\ stands_link d c (KCall l comma c) nk)).
Proof.
  intros (Hd & nfs & Hl & Hs). eapply link_weaken; [exact (call_args_run d mode_arguments false l comma nfs Hl Hd)|].
  intros ts (ta & ens & nfs' & -> & A & <- & X). exists (LCall ens). split; [apply starts_call, A|constructor; auto].
Qed.
Lemma entries_perm nfs nfs' ens : Permutation nfs nfs' -> Forall2 (fun (E : option node * node -> Prop) en => E en) (entries nfs') ens ->
  exists ens0, Permutation ens0 ens /\ Forall2 (fun (E : option node * node -> Prop) en => E en) (entries nfs) ens0.
Proof.
  intros P H. assert (Q : Permutation (entries nfs') (entries nfs)) by (apply Permutation_flat_map, Permutation_sym, P).
  destruct (Permutation_Forall2 Q H) as (e0 & H1 & H2). exists e0. split; [apply Permutation_sym, H1|exact H2].
Qed.
Definition files_prop (d : nat) (l : list farg) : Prop :=
  match l with [AVal (FArray _ l' _ _)] => args_prop mode_array (pred d) l' /\ 1 <= d | _ => args_prop mode_arguments d l end.
Lemma link_files d l comma ck : files_prop d l ->
  does (link_ o qsort true (KCall l comma ck)) True (rlink (fun ts => exists ns, starts (LCall ns) d ts /\
    forall c ls nl, stands_links d c (KCall [] false ck :: ls) (LCall [] :: nl) ->
      stands 10 d c (FChain (FId (B "files") []) (KCall l comma ck) ls) (NChain (NId (B "files")) (LCall ns :: nl)))).
Proof.
  intros Hf.
  assert (Plain : (forall f, link_ o qsort true (KCall l comma ck) f = fmt_check o (fun f => fmt_arg_container o qsort "("%char true (items o qsort l) comma (with_cmd false (setup f))) (setup f)) ->
     args_prop mode_arguments d l -> does (link_ o qsort true (KCall l comma ck)) True (rlink (fun ts => exists ns, starts (LCall ns) d ts /\
    forall c ls nl, stands_links d c (KCall [] false ck :: ls) (LCall [] :: nl) ->
      stands 10 d c (FChain (FId (B "files") []) (KCall l comma ck) ls) (NChain (NId (B "files")) (LCall ns :: nl))))).
  { intros E (Hd & nfs & Hl & Hs). eapply link_weaken.
    - apply (does_ext (fun f => fmt_check o (fun f => fmt_arg_container o qsort "("%char true (items o qsort l) comma (with_cmd false (setup f))) (setup f))); [intros f c; rewrite E; reflexivity|]. exact (call_args_run d mode_arguments true l comma nfs Hl Hd).
    - intros ts (ta & ens & nfs' & -> & A & P & X). exists ens. split; [apply starts_call, A|].
      destruct (entries_perm _ _ _ P X) as (ens0 & P0 & X0). intros c ls nl Hls. eapply x_files; [apply Hs, X0|exact P0|exact Hls]. }
  unfold files_prop in Hf.
  destruct l as [|[c0|v|k v] [|a2 l]]; try (apply Plain; [reflexivity|exact Hf]).
  all: destruct v; try (apply Plain; [reflexivity|exact Hf]).
  destruct Hf as [(Hd & nfs & Hl & Hs) Hd1]. destruct d as [|d]; [lia|]. cbn [pred] in *.
  eapply link_weaken; [exact (call_args_run d mode_array true l comma0 nfs Hl Hd)|].
  intros ts (ta & ens & nfs' & -> & A & P & X). exists ens. split; [apply starts_call, args_deeper, A|].
  destruct (entries_perm _ _ _ P X) as (ens0 & P0 & X0). intros c1 ls nl Hls. eapply x_files_list; [apply Hs, X0|exact P0|exact Hls].
Qed.
Fixpoint links_body (l : list flink) (f : fst_) : F := match l with [] => nothing | k :: l' => link_ o qsort false k f +> links_body l' f end.
Fixpoint last_comments (k : flink) (l : list flink) : comments := match l with [] => link_comments k | k' :: l' => last_comments k' l' end.
Lemma links_split k l f c : links_ o qsort k l f c = (links_body l f +> fmt_tail o f (last_comments k l)) c.
Proof.
  revert k c. induction l as [|k' l IH]; intros k c; cbn [links_ links_body last_comments].
  - unfold seq at 1, nothing. destruct (fmt_tail o f (link_comments k) c). reflexivity.
  - rewrite seq_assoc. unfold seq at 1 2. destruct (link_ o qsort false k' f c) as [n1 c1]. rewrite IH. reflexivity.
Qed.
Lemma fine_links_body l : fine (links_body l).
Proof. induction l as [|k l IH]; cbn [links_body]; [apply fine_nothing|apply fine_seq; [apply fine_link_any|exact IH]]. Qed.
Lemma tree_chain cs h k l b (Ph Pk Pl : list token -> Prop) : tree_prop [] h Ph -> node_is (B "files") h = b -> does (link_ o qsort b k) True (rlink Pk) ->
  does (links_body l) True (rlinks Pl) -> last_comments k l = cs ->
  tree_prop cs (FChain h k l) (fun ts => exists th tk tl, ts = th ++ tk ++ tl /\ Ph th /\ Pk tk /\ Pl tl).
Proof.
  intros Hh Hb Hk Hl <-. apply (tree_finish _ _ _ (calm h /\ True /\ True) (fun f => node_ h (setup f) +> link_ o qsort b k f +> links_body l f)).
  - cbn. tauto.
  - apply fine_seq; [apply fine_operand|apply fine_seq; [apply fine_link_any|apply fine_links_body]].
  - intros f c. cbn [node_body]. cbv zeta. rewrite Hb. unfold seq. destruct (node_ h (setup f) c) as [n1 c1].
    destruct (link_ o qsort b k f c1) as [n2 c2]. rewrite links_split. unfold seq.
    destruct (links_body l f c2) as [n3 c3]. destruct (fmt_tail o f _ c3) as [n4 c4]. f_equal. lia.
  - eapply does_weaken.
    + apply does_seq; [apply fine_operand|apply fine_seq; [apply fine_link_any|apply fine_links_body]|apply (still_body Ph)|apply does_operand, tree_operand, Hh|].
      apply does_seq; [apply fine_link_any|apply fine_links_body|apply (still_link Pk)|exact Hk|exact Hl].
    + tauto.
    + intros f e i t tr _ _ (t1 & t2 & -> & (_ & th & A1 & A2) & (t3 & t4 & -> & (_ & tk & M1 & M2 & M3) & (-> & tl & B1 & B2 & B3))).
      split; [reflexivity|]. exists (th ++ tk ++ tl). split; [|exists th, tk, tl; auto].
      eapply frag_app; [exact A1| |].
      * apply frag_any, frag_pre; assumption.
      * intros rest _. rewrite <- app_assoc. apply M3.
Qed.

(** ** The main induction *)
Definition expr_prop (d : nat) (cs : comments) (T : fnode) (_ : node) : Prop :=
  tree_prop cs T (fun ts => exists n, expr false d n ts /\ stands_expr d cs T n) /\ arr_prop (pred d) T /\ 1 <= d.
Definition level_prop (k d : nat) (cs : comments) (T : fnode) (_ : node) : Prop :=
  tree_prop cs T (fun ts => exists n, level false k d n ts /\ stands k d cs T n) /\ arr_prop d T.
Definition rest_prop (d : nat) (cs : comments) (k : flink) (l : list flink) : Prop :=
  last_comments k l = cs /\ does (links_body l) True (rlinks (fun ts => exists nl, links false d nl ts /\
    stands_links d cs (KCall [] false (link_comments k) :: l) (LCall [] :: nl))).
Definition link_prop (d : nat) (c : comments) (k : flink) (_ : link) : Prop :=
  link_comments k = c /\ 1 <= d /\
  does (link_ o qsort false k) True (rlink (fun ts => exists nk, starts nk d ts /\ stands_link d c k nk)) /\
  match k with KCall l _ _ => files_prop d l | _ => True end.
Definition links_prop (d : nat) (cs : comments) (L : list flink) (_ : list link) : Prop :=
  match L with [] => False | k :: l => rest_prop d cs k l /\ exists ck nk, link_prop d ck k nk end.
Definition argl_prop (md : list_mode) (d : nat) (l : list farg) (_ : list (option node * node)) : Prop :=
  args_prop md d l /\ (md = mode_arguments -> files_prop d l).

Lemma level_above k j d n ts : 1 <= k -> k <= j -> level false j d n ts -> level false k d n ts.
Proof. intros H1 H2. induction H2 as [|j H2 IH]; auto. intros H. apply IH, l_up; [lia|exact H]. Qed.
Lemma expr_id d x : 1 <= d -> expr false d (NId x) [mkTok tok_identifier x 0].
Proof.
  intros H. destruct d as [|d]; [lia|]. apply e_level, (level_above 1 11); [lia|lia|]. apply (l_id false d (mkTok tok_identifier x 0)). reflexivity.
Qed.
Lemma stands_str k d c T n : stands k d c T n -> forall s c', T = FStr s c' ->
  exists r, s = QUOTE :: r \/ s = "f"%char :: QUOTE :: r.
Proof.
  induction 1; intros s0 c0 E0; try discriminate; [eauto|injection E0 as <- <-|injection E0 as <- <-|injection E0 as <- <-].
  - eexists. right. reflexivity.
  - eexists. left. reflexivity.
  - eexists. left. reflexivity.
Qed.
Lemma stands_expr_str d c s c' n : stands_expr d c (FStr s c') n -> starts_dash s = true -> option_text s.
Proof.
  intros H. assert (X : exists r, s = QUOTE :: r \/ s = "f"%char :: QUOTE :: r) by (inversion H; subst; eapply stands_str; eauto).
  destruct X as (r & [-> | ->]); unfold starts_dash.
  - change (ceqb QUOTE "f"%char) with false. cbv iota.
    destruct (starts_with [QUOTE; QUOTE; QUOTE] (QUOTE :: r)) eqn:E; intros D.
    + apply starts_with_spec in E. destruct E as (r' & E). rewrite E in *. apply starts_with_spec in D. destruct D as (r2 & D).
      cbn [app skipn] in D. exists three, r2. split; [right; left; reflexivity|]. rewrite D. reflexivity.
    + apply starts_with_spec in D. destruct D as (r2 & D). cbn [skipn] in D. exists [QUOTE], r2. split; [left; reflexivity|]. rewrite D. reflexivity.
  - change (ceqb "f" "f"%char) with true. cbv iota.
    destruct (starts_with [QUOTE; QUOTE; QUOTE] (QUOTE :: r)) eqn:E; intros D.
    + apply starts_with_spec in E. destruct E as (r' & E). rewrite E in *. apply starts_with_spec in D. destruct D as (r2 & D).
      cbn [app skipn] in D. exists ("f"%char :: three), r2. split; [right; right; right; left; reflexivity|]. rewrite D. reflexivity.
    + apply starts_with_spec in D. destruct D as (r2 & D). cbn [skipn] in D. exists ("f"%char :: [QUOTE]), r2. split; [right; right; left; reflexivity|]. rewrite D. reflexivity.
Qed.
Lemma stands_id k d c T n : stands k d c T n -> forall x c', T = FId x c' -> c' = c /\ n = NId x.
Proof. induction 1; intros x0 c0 E0; try discriminate; auto. injection E0 as <- <-. auto. Qed.
Lemma dash_free d c v n : stands_expr d c v n -> may_have c v -> c <> [] -> node_dash v = false.
Proof.
  intros H [_ M] N. destruct v; try reflexivity. cbn. destruct (starts_dash s) eqn:E; [|reflexivity].
  exfalso. eapply M; eauto. eapply stands_expr_str; eauto.
Qed.
Lemma swap_link d c k nk l nl : stands_links d c (KCall [] false (link_comments k) :: l) (LCall [] :: nl) -> stands_link d (link_comments k) k nk ->
  stands_links d c (k :: l) (nk :: nl).
Proof.
  intros H Hk. inversion H as [? ? ? ? Hc|? ? ? ? ? ? Hc Hr]; subst; inversion Hc; subst; [constructor|apply x_next]; congruence.
Qed.
Lemma prints_false T cs Q : tree_prop cs T Q -> good_comments cs -> does (node_ T) False (rnode cs Q).
Proof. intros H Hg. eapply does_weaken; [apply (H Hg)|tauto|auto]. Qed.
Lemma items_value v l : exists nb nd, items o qsort (AVal v :: l) = Item None false (node_ v) false (node_dash v) (node_text v) nb nd :: items o qsort l.
Proof. eexists _, _. reflexivity. Qed.
Lemma rnode_weaken a (cm : Prop) cs (P Q : list token -> Prop) : does a cm (rnode cs P) -> (forall ts, P ts -> Q ts) -> does a cm (rnode cs Q).
Proof. intros H I. eapply does_weaken; [exact H|auto|]. intros f e i t tr _ _ (body & ts & A & B' & C & D). exists body, ts. auto. Qed.
Lemma files_args d l : args_prop mode_arguments d l -> lone_prop d l -> files_prop d l.
Proof.
  intros H L. unfold files_prop, lone_prop in *. destruct l as [|[c0|v|k v] [|a2 l]]; auto. all: destruct v; auto. split; [exact L|apply H].
Qed.
Lemma rest_last d k : 1 <= d -> rest_prop d (link_comments k) k [].
Proof.
  intros Hd. split; [reflexivity|]. eapply does_weaken; [apply (does_nothing True)|auto|].
  intros f e i t tr _ _ [-> ->]. split; [reflexivity|]. exists []. split; [apply frag_nil|]. split; [|left; reflexivity].
  exists []. split; [constructor|]. destruct d as [|d]; [lia|]. repeat constructor.
Qed.
Lemma rest_next d cs k k' l' ck nk : rest_prop d cs k' l' -> link_prop d ck k' nk -> link_comments k = [] -> rest_prop d cs k (k' :: l').
Proof.
  intros [E Hr] (Ek & Hd & Hk & _) N. split; [exact E|]. cbn [links_body]. eapply does_weaken.
  - apply does_seq; [apply fine_link_any|apply fine_links_body| |exact Hk|exact Hr]. apply still_link.
  - auto.
  - intros f e i t tr _ _ (t1 & t2 & -> & (_ & ts1 & A1 & (nk' & A2 & A3) & A4) & (-> & ts2 & B1 & (nl & B2 & B3) & B4)).
    split; [reflexivity|]. exists (ts1 ++ ts2). split; [apply frag_pre; assumption|]. split.
    + exists (nk' :: nl). split; [apply A2, B2|]. rewrite N. apply x_next.
      * destruct d as [|d]; [lia|]. repeat constructor.
      * apply swap_link; [exact B3|]. rewrite Ek. exact A3.
    + right. intros r. rewrite <- app_assoc. apply A4.
Qed.
Lemma last_same k k' l : link_comments k = link_comments k' -> last_comments k l = last_comments k' l.
Proof. destruct l; auto. Qed.
Theorem every_expression :
  (forall d cs T n, stands_expr d cs T n -> expr_prop d cs T n) /\ (forall k d cs T n, stands k d cs T n -> level_prop k d cs T n) /\
  (forall d cs l nl, stands_links d cs l nl -> links_prop d cs l nl) /\ (forall d c k nk, stands_link d c k nk -> link_prop d c k nk) /\
  (forall md d l ns, stands_args md d l ns -> argl_prop md d l ns).
Proof.
  apply stands_ind5.
  - (* level *) intros d c t n _ [H1 H2]. split; [|split; [exact H2|lia]]. eapply tree_weaken; [exact H1|]. intros ts (m & A & C). exists m. split; constructor; auto.
  - (* ternary *) intros d c q a b nq na nb _ [Hq _] _ (Ha & _ & _) _ (Hb & _ & _). split; [|split; [exact Logic.I|lia]].
    eapply tree_weaken; [apply tree_ternary; [exact Hq|exact Ha|exact Hb]|].
    intros ts (tq & ta & tb & -> & (n1 & A1 & A2) & (n2 & B1 & B2) & (n3 & C1 & C2)). exists (NTernary n1 n2 n3). split; [|apply x_ternary; auto].
    apply e_ternary; auto.
  - (* up *) intros k d c t n Hk _ [H1 H2]. split; [|exact H2]. eapply tree_weaken; [exact H1|]. intros ts (m & A & C). exists m. split; [apply l_up|apply x_up]; auto.
  - (* or *) intros d c a b na nb _ [Ha _] _ [Hb _]. split; [|exact Logic.I]. eapply tree_weaken; [apply tree_or; [exact Ha|exact Hb]|].
    intros ts (ta & tb & -> & (n1 & A1 & A2) & (n2 & B1 & B2)). exists (NOr n1 n2). split; [apply l_or|apply x_or]; auto.
  - (* and *) intros d c a b na nb _ [Ha _] _ [Hb _]. split; [|exact Logic.I]. eapply tree_weaken; [apply tree_and; [exact Ha|exact Hb]|].
    intros ts (ta & tb & -> & (n1 & A1 & A2) & (n2 & B1 & B2)). exists (NAnd n1 n2). split; [apply l_and|apply x_and]; auto.
  - (* comparison *) intros d c op a b na nb _ [Ha _] _ [Hb _]. split; [|exact Logic.I]. eapply tree_weaken; [apply tree_compare; [exact Ha|exact Hb]|].
    intros ts (ta & tb & -> & (n1 & A1 & A2) & (n2 & B1 & B2)). exists (NCmp op n1 n2). split; [apply l_compare|apply x_compare]; auto.
    unfold cmp_tokens. rewrite map_map. apply map_id.
  - (* arithmetic *) intros d c op a b na nb _ [Ha _] _ [Hb _]. split; [|exact Logic.I]. eapply tree_weaken; [apply tree_arith; [exact Ha|exact Hb]|].
    intros ts (ta & tb & -> & (n1 & A1 & A2) & (n2 & B1 & B2)). exists (NArith op n1 n2). split; [apply l_arith|apply x_arith]; auto.
  - (* format string *) intros d c body us n Hp Hl. split; [|exact Logic.I].
    eapply tree_weaken; [apply (tree_finish _ _ (fun ts => ts = us) True (fun f => fmt_writeml (setup f) ("f"%char :: QUOTE :: body ++ [QUOTE]))); auto; [fines|]|].
    + apply (does_rtext_body _ _ ("f"%char :: QUOTE :: body ++ [QUOTE])); [apply (does_setup_text (fun f => fmt_writeml f _)), does_writeml|].
      intros e p b q rest ws _ St X. cbn [app]. rewrite <- app_assoc. apply so_format; auto. apply stop_apart, St.
    + intros ts ->. exists n. split; [exact Hl|eapply x_format; eauto].
  - (* not *) intros d c a n _ [Ha _]. split; [|exact Logic.I]. eapply tree_weaken; [apply tree_not, Ha|].
    intros ts (ta & -> & (m & A1 & A2)). exists (NNot m). split; [apply l_not|apply x_not]; auto.
  - (* minus *) intros d c a n _ [Ha _]. split; [|exact Logic.I]. eapply tree_weaken; [apply tree_minus, Ha|].
    intros ts (ta & -> & (m & A1 & A2)). exists (NMinus m). split; [apply l_minus|apply x_minus]; auto.
  - (* chain *) intros d c h k l nh nl Sh [Hh _] _ [[El Hr] (ck & nk & (Ek & Hd & Hk & Hf))]. split; [|exact Logic.I].
    assert (Std : does (link_ o qsort (node_is (B "files") h) k) True (rlink (fun ts => exists nk, starts nk d ts /\ stands_link d ck k nk)) ->
      tree_prop c (FChain h k l) (fun ts => exists n, level false 10 d n ts /\ stands 10 d c (FChain h k l) n)).
    { intros Hk'. eapply tree_weaken; [eapply tree_chain; [exact Hh|reflexivity|exact Hk'|exact Hr|exact El]|].
      intros ts (th & tk & tl & -> & (m & A1 & A2) & (nk' & B1 & B2) & (nl' & C1 & C2)). exists (NChain m (nk' :: nl')). split.
      - apply l_chain; [exact A1|apply B1, C1|discriminate].
      - apply x_chain; [exact A2|]. apply swap_link; [exact C2|]. rewrite Ek. exact B2. }
    destruct (node_is (B "files") h) eqn:Ef; [|apply Std, Hk].
    destruct k as [m mc args comma kc|i kc|args comma kc]; try (apply Std, Hk).
    assert (Eh : h = FId (B "files") []).
    { destruct h; try discriminate Ef. cbn in Ef. destruct (beqb_spec (B "files") x) as [<-|]; [|discriminate]. destruct (stands_id _ _ _ _ _ Sh _ _ eq_refl) as [-> _]. reflexivity. }
    subst h. eapply tree_weaken; [eapply tree_chain; [exact Hh|exact Ef|apply link_files; exact Hf|exact Hr|exact El]|].
    intros ts (th & tk & tl & -> & (m & A1 & A2) & (ns & B1 & B2) & (nl' & C1 & C2)).
    destruct (stands_id _ _ _ _ _ A2 _ _ eq_refl) as [_ ->].
    exists (NChain (NId (B "files")) (LCall ns :: nl')). split; [|apply B2; exact C2].
    apply l_chain; [exact A1|apply B1, C1|discriminate].
  - (* files *) intros d c args comma ck l ns ns' nl _ [_ Hf] _ _ [[El Hr] _]. split; [|exact Logic.I]. specialize (Hf eq_refl).
    assert (Hh : tree_prop [] (FId (B "files") []) (fun us => us = [mkTok tok_identifier (B "files") 0])).
    { apply (tree_token _ _ (B "files") _ (fun f => fmt_writes (setup f) (B "files"))); [fines|reflexivity|apply (does_setup_text (fun f => fmt_writes f _)), does_writes|].
      apply sp_identifier. split; [exists "f"%char, (B "iles"); repeat split; repeat constructor|]. intros t. vm_compute. intuition discriminate. }
    eapply tree_weaken; [eapply tree_chain; [exact Hh|reflexivity|apply (link_files d args comma ck Hf)|exact Hr|rewrite <- El; apply last_same; reflexivity]|].
    intros ts (th & tk & tl & -> & -> & (ns2 & B1 & B2) & (nl' & C1 & C2)).
    exists (NChain (NId (B "files")) (LCall ns2 :: nl')). split; [|apply B2; exact C2].
    apply l_chain; [apply (l_id false d (mkTok tok_identifier (B "files") 0)); reflexivity|apply B1, C1|discriminate].
  - (* files of a list *) intros d c op args comma c' comma' ck l ns ns' nl _ [Ha _] _ _ [[El Hr] (_ & _ & (_ & Hd & _))]. split; [|exact Logic.I].
    assert (Hh : tree_prop [] (FId (B "files") []) (fun us => us = [mkTok tok_identifier (B "files") 0])).
    { apply (tree_token _ _ (B "files") _ (fun f => fmt_writes (setup f) (B "files"))); [fines|reflexivity|apply (does_setup_text (fun f => fmt_writes f _)), does_writes|].
      apply sp_identifier. split; [exists "f"%char, (B "iles"); repeat split; repeat constructor|]. intros t. vm_compute. intuition discriminate. }
    eapply tree_weaken; [eapply tree_chain; [exact Hh|reflexivity|apply (link_files (S d) [AVal (FArray op args comma c')] comma' ck); split; [exact Ha|lia]|exact Hr|rewrite <- El; apply last_same; reflexivity]|].
    intros ts (th & tk & tl & -> & -> & (ns2 & B1 & B2) & (nl' & C1 & C2)).
    exists (NChain (NId (B "files")) (LCall ns2 :: nl')). split; [|apply B2; exact C2].
    apply l_chain; [apply (l_id false (S d) (mkTok tok_identifier (B "files") 0)); reflexivity|apply B1, C1|discriminate].
  - (* parentheses *) intros d c a n _ (Ha & _ & _). split; [|exact Logic.I]. eapply tree_weaken; [apply tree_paren, Ha|].
    intros ts (ta & -> & (m & A1 & A2)). exists m. split; [apply l_paren|apply x_paren]; auto.
  - (* array *) intros d c l comma ns _ [Ha _]. split; [|exact Ha].
    eapply tree_weaken; [apply (tree_list c (FArray [] l comma c) "["%char tok_lbrack tok_rbrack mode_array d l comma); [right; left; reflexivity|reflexivity|exact Ha]|].
    intros ts (ta & ns' & -> & A1 & A2). exists (NArray ns'). split; [apply l_array|apply x_array]; auto.
  - (* dictionary *) intros d c l comma ns _ [Ha _]. split; [|exact Logic.I].
    eapply tree_weaken; [apply (tree_list c (FDict [] l comma c) "{"%char tok_lcurl tok_rcurl mode_dictionary d l comma); [right; right; left; reflexivity|reflexivity|exact Ha]|].
    intros ts (ta & ns' & -> & A1 & A2). exists (NDict ns'). split; [apply l_dict|apply x_dict]; auto.
  - (* true, false *) intros d c b. split; [|exact Logic.I].
    eapply tree_weaken; [apply (tree_token _ _ (if b then B "true" else B "false") (plain (if b then tok_true else tok_false)) (fun f => fmt_writes (setup f) (if b then B "true" else B "false"))); [fines|reflexivity|apply (does_setup_text (fun f => fmt_writes f _)), does_writes|]|].
    + apply sp_word. destruct b; vm_compute; tauto.
    + intros ts ->. exists (NBool b). split; [destruct b; [apply l_true|apply l_false]; reflexivity|apply x_bool].
  - (* name *) intros d c x Hx. split; [|exact Logic.I].
    eapply tree_weaken; [apply (tree_token _ _ x (mkTok tok_identifier x 0) (fun f => fmt_writes (setup f) x)); [fines|reflexivity|apply (does_setup_text (fun f => fmt_writes f _)), does_writes|apply sp_identifier, Hx]|].
    intros ts ->. exists (NId x). split; [apply (l_id false d (mkTok tok_identifier x 0)); reflexivity|apply x_id; exact Hx].
  - (* number *) intros d c s v Hx. split; [|exact Logic.I].
    eapply tree_weaken; [apply (tree_token _ _ s (mkTok tok_number [] (Z.of_N v)) (fun f => fmt_writes (setup f) s)); [fines|reflexivity|apply (does_setup_text (fun f => fmt_writes f _)), does_writes|apply sp_number, Hx]|].
    intros ts ->. exists (NNum (Z.of_N v)). split; [apply (l_number false d (mkTok tok_number [] (Z.of_N v))); reflexivity|apply x_number; exact Hx].
  - (* string *) intros d c body s Hx. split; [|exact Logic.I].
    eapply tree_weaken; [apply (tree_token _ _ (QUOTE :: body ++ [QUOTE]) (mkTok tok_string s 0) (fun f => fmt_writeml (setup f) (QUOTE :: body ++ [QUOTE]))); [fines|reflexivity|apply (does_setup_text (fun f => fmt_writeml f _)), does_writeml|apply sp_string, Hx]|].
    intros ts ->. exists (NStr s). split; [apply (l_string false d (mkTok tok_string s 0)); reflexivity|apply x_string; exact Hx].
  - (* raw string *) intros d c s Hx. split; [|exact Logic.I].
    eapply tree_weaken; [apply (tree_token _ _ (three ++ s ++ three) (mkTok tok_string s 0) (fun f => fmt_writeml (setup f) (three ++ s ++ three))); [fines|reflexivity|apply (does_setup_text (fun f => fmt_writeml f _)), does_writeml|apply sp_raw, Hx]|].
    intros ts ->. exists (NStr s). split; [apply (l_string false d (mkTok tok_string s 0)); reflexivity|apply x_raw; exact Hx].
  - (* last link *) intros d c k nk _ Hk. split; [|exists c, nk; exact Hk]. destruct Hk as (E & Hd & _). rewrite <- E. apply rest_last, Hd.
  - (* next link *) intros d c k l nk nl _ Hk _ Hl. destruct l as [|k' l']; [destruct Hl|]. destruct Hl as [Hr (ck & nk' & Hk')].
    split; [|exists [], nk; exact Hk]. eapply rest_next; eauto. apply Hk.
  - (* method *) intros d c m l comma ns Hm _ [Ha Hf]. split; [reflexivity|]. split; [apply Ha|]. split; [apply link_method; auto|exact Logic.I].
  - (* index *) intros d c i n _ (Hi & _ & Hd). split; [reflexivity|]. split; [exact Hd|]. split; [|exact Logic.I]. eapply link_index; [exact Hi|auto].
  - (* call *) intros d c l comma ns _ [Ha Hf]. split; [reflexivity|]. split; [apply Ha|]. split; [apply link_call; auto|apply Hf; reflexivity].
  - (* no arguments *) intros md d. assert (X : args_prop md (S d) []).
    { split; [lia|]. exists []. split; [constructor|]. intros ens He. inversion He. constructor. }
    split; [exact X|]. intros ->. exact X.
  - (* line *) intros md d c l ns Hg _ [(Hd & nfs & Hl & Hs) _].
    assert (X : args_prop md d (ALine c :: l)).
    { split; [exact Hd|]. exists (None :: nfs). split; [constructor; [|exact Hl]|]; [repeat split; eauto|]. intros ens He. constructor; [exact Hg|]. apply Hs, He. }
    split; [exact X|]. intros ->. exact X.
  - (* value *) intros md d c v l n ns Hmd Sv (Hv & Har & _) Hm _ [(Hd & nfs & Hl & Hs) _]. pose proof (proj1 Hm) as Hg.
    assert (X : args_prop md d (AVal v :: l)).
    { split; [exact Hd|]. exists (Some (c, fun en => exists m, en = (None, m) /\ stands_expr d c v m) :: nfs). split.
      - constructor; [|exact Hl]. split; [reflexivity|]. split; [exact Hg|]. split; [intros N; eapply dash_free; eauto|].
        split; [apply (Hv Hg)|]. split; [apply fine_node, sorts|]. eapply rnode_weaken; [apply (prints_false _ _ _ Hv Hg)|].
        intros ts (m & A1 & A2). exists (None, m). split; [constructor; auto|eauto].
      - intros ens He. cbn in He. inversion He as [|? en ? ens' X0 Hr]; subst. destruct X0 as (m & -> & A). eapply x_value; eauto. }
    split; [exact X|]. intros ->. apply files_args; [exact X|]. unfold lone_prop. destruct v; auto. destruct l; auto.
  - (* keyword *) intros d c x v l n ns Hx Sv (Hv & Har & _) Hm _ [(Hd & nfs & Hl & Hs) _]. pose proof (proj1 Hm) as Hg.
    assert (X : args_prop mode_arguments d (AKw (FId x []) v :: l)).
    { split; [exact Hd|]. exists (Some (c, fun en => exists m, en = (Some (NId x), m) /\ stands_expr d c v m) :: nfs). split.
      - constructor; [|exact Hl]. split; [reflexivity|]. split; [exact Hg|]. split; [intros N; eapply dash_free; eauto|].
        split; [apply (Hv Hg)|]. split; [apply fine_node, sorts|]. cbn [i_kw]. split; [apply fine_node, sorts|].
        exists (fun ts => ts = [mkTok tok_identifier x 0]), (fun ts => exists m, expr false d m ts /\ stands_expr d c v m).
        split; [|split; [apply (prints_false _ _ _ Hv Hg)|]].
        + apply (prints_false (FId x [])); [|constructor].
          apply (tree_token _ _ x (mkTok tok_identifier x 0) (fun f => fmt_writes (setup f) x)); [fines|reflexivity|apply (does_setup_text (fun f => fmt_writes f _)), does_writes|apply sp_identifier, Hx].
        + intros tk tv -> (m & A1 & A2). exists (Some (NId x), m). split; [|eauto]. constructor; auto. apply expr_id, Hd.
      - intros ens He. cbn in He. inversion He as [|? en ? ens' X0 Hr]; subst. destruct X0 as (m & -> & A). eapply x_keyword; eauto. }
    split; [exact X|]. intros _. exact X.
  - (* entry *) intros d c k v l nk n ns Sk (Hk & _ & _) Sv (Hv & Har & _) Hm _ [(Hd & nfs & Hl & Hs) _]. pose proof (proj1 Hm) as Hg.
    assert (X : args_prop mode_dictionary d (AKw k v :: l)).
    { split; [exact Hd|]. exists (Some (c, fun en => exists mk m, en = (Some mk, m) /\ stands_expr d [] k mk /\ stands_expr d c v m) :: nfs). split.
      - constructor; [|exact Hl]. split; [reflexivity|]. split; [exact Hg|]. split; [intros N; eapply dash_free; eauto|].
        split; [apply (Hv Hg)|]. split; [apply fine_node, sorts|]. cbn [i_kw]. split; [apply fine_node, sorts|].
        exists (fun ts => exists m, expr false d m ts /\ stands_expr d [] k m), (fun ts => exists m, expr false d m ts /\ stands_expr d c v m).
        split; [apply (prints_false _ _ _ Hk); constructor|split; [apply (prints_false _ _ _ Hv Hg)|]].
        intros tk tv (mk & K1 & K2) (m & A1 & A2). exists (Some mk, m). split; [|eauto]. constructor; auto.
      - intros ens He. cbn in He. inversion He as [|? en ? ens' X0 Hr]; subst. destruct X0 as (mk & m & -> & A & C). eapply x_entry; eauto. }
    split; [exact X|]. discriminate.
Qed.

(** ** Lines and statements *)
Notation eol := (plain tok_eol).
Definition sfrag (st : bytes -> Prop) (t : bytes) (ts : list token) : Prop :=
  forall rest us, st rest -> source 0 0 0 us rest -> source 0 0 0 (ts ++ us) (t ++ rest).
Lemma sfrag_of st t ts : frag false st t ts -> sfrag st t ts.
Proof. intros H rest us S X. apply H; auto. discriminate. Qed.
Lemma sfrag_app (st1 st2 : bytes -> Prop) t1 ts1 t2 ts2 : sfrag st1 t1 ts1 -> sfrag st2 t2 ts2 -> (forall rest, st2 rest -> st1 (t2 ++ rest)) ->
  sfrag st2 (t1 ++ t2) (ts1 ++ ts2).
Proof. intros H1 H2 H rest us S X. rewrite <- !app_assoc. apply H1; auto. Qed.
Lemma sfrag_pre st t1 ts1 t2 ts2 : sfrag any t1 ts1 -> sfrag st t2 ts2 -> sfrag st (t1 ++ t2) (ts1 ++ ts2).
Proof. intros H1 H2. eapply sfrag_app; eauto. intros; exact Logic.I. Qed.
Lemma sfrag_any st t ts : sfrag any t ts -> sfrag st t ts.
Proof. intros H rest us S X. apply H; auto. exact Logic.I. Qed.
Lemma sfrag_line (blank : bool) i : sfrag any (NL :: if blank then [] else indtext i) [eol].
Proof.
  intros rest us _ X. cbn [app]. apply so_newline. destruct blank; [exact X|].
  apply (frag_blanks false (indtext i) (indtext_blank i) 0 0 0 rest us); auto; [discriminate|exact Logic.I].
Qed.
Lemma sfrag_comments i cs : good_comments cs -> sfrag nlstop (comment_text i cs false) (repeat eol (pred (length cs))).
Proof.
  intros Hg. induction Hg as [|x cs Hx Hcs IH]; [intros rest us _ X; exact X|].
  destruct cs as [|y cs].
  - apply sfrag_of. apply (comment_frag false i [x] false); [constructor; auto|auto].
  - change (comment_text i (x :: y :: cs) false) with (B "#" ++ x ++ NL :: indtext i ++ comment_text i (y :: cs) false).
    intros rest us S X. change (B "#") with ["#"%char]. cbn [app]. rewrite <- app_assoc. apply so_comment; [apply Hx|apply Hx|right; eexists; reflexivity|].
    cbn [length pred repeat app]. apply so_newline. rewrite <- app_assoc.
    apply (frag_blanks false (indtext i) (indtext_blank i) 0 0 0 _ _); [discriminate|exact Logic.I|]. apply (IH rest us S X).
Qed.

Definition run (a : F) (c : fctx) (R : bytes -> bool -> Prop) : Prop := exists L c' t tr, a c = (L, c') /\ wrote c c' t tr /\ R t tr.
Definition ready (f : fst_) (c : fctx) : Prop := f_write f = true /\ f_parent f = [] /\ f_and_or f = false /\ enclosed c = 0.
Lemma wrote_seq c c1 c2 t1 t2 tr1 tr2 : wrote c c1 t1 tr1 -> wrote c1 c2 t2 tr2 -> wrote c c2 (t1 ++ t2) tr2.
Proof. intros (A1 & A2 & A3 & A4) (C1 & C2 & C3 & C4). repeat split; try congruence. rewrite C1, A1, app_assoc. reflexivity. Qed.
Lemma run_seq a b c (R : bytes -> bool -> Prop) :
  run a c (fun t1 tr1 => forall c1, wrote c c1 t1 tr1 -> run b c1 (fun t2 tr2 => R (t1 ++ t2) tr2)) -> run (a +> b) c R.
Proof.
  intros (L & c1 & t1 & tr1 & E & W & H). destruct (H c1 W) as (L2 & c2 & t2 & tr2 & E2 & W2 & X).
  exists (L + L2)%N, c2, (t1 ++ t2), tr2. unfold seq. rewrite E, E2. split; [reflexivity|]. split; [eapply wrote_seq; eauto|exact X].
Qed.
Lemma run_uncounted a c R : run a c R -> run (uncounted a) c R.
Proof. intros (L & c' & t & tr & E & X). exists 0%N, c', t, tr. unfold uncounted. rewrite E. auto. Qed.
Lemma run_mono a c (R R' : bytes -> bool -> Prop) : run a c R -> (forall t tr, R t tr -> R' t tr) -> run a c R'.
Proof. intros (L & c' & t & tr & E & W & X) H. exists L, c', t, tr. auto. Qed.
Lemma run_writes f s c (R : bytes -> bool -> Prop) : f_write f = true -> R s (trailing c) -> run (fmt_writes f s) c R.
Proof.
  intros W H. destruct (writes_run s f c W) as (L & n & E). exists L, (adv s n c), s, (trailing c). split; [exact E|]. repeat split; auto.
Qed.
Lemma run_writef f s c (R : bytes -> bool -> Prop) : f_write f = true -> length s <= 4090 -> R s (trailing c) -> run (fmt_writef f s) c R.
Proof. intros W Hs H. unfold fmt_writef. rewrite W, firstn_short by lia. apply run_writes; auto. Qed.
Lemma run_nothing c (R : bytes -> bool -> Prop) : R [] (trailing c) -> run nothing c R.
Proof. intros H. exists 0%N, c, [], (trailing c). repeat split; auto. rewrite app_nil_r. reflexivity. Qed.
Lemma run_after f c (R : bytes -> bool -> Prop) : trailing c = false -> R [] false -> run (after_comment o f) c R.
Proof. intros T H. unfold after_comment, run. rewrite T. exists 0%N, c, [], false. repeat split; auto. rewrite app_nil_r. reflexivity. Qed.
Lemma run_line f (blank : bool) c (R : bytes -> bool -> Prop) : f_write f = true -> R (NL :: if blank then [] else indtext (indent c)) false ->
  run (fmt_newline_force o f blank) c R.
Proof. intros W H. destruct (newline_force_run f blank c W) as (L & c' & E & X). eexists L, c', _, false. eauto. Qed.
Lemma run_tail f cs c (R : bytes -> bool -> Prop) : f_write f = true -> f_sep f = None -> trailing c = false -> good_comments cs ->
  R (comment_text (indent c) cs true) (nonempty cs) -> run (fmt_tail o f cs) c R.
Proof.
  intros W E T Hg H. unfold fmt_tail. rewrite E. apply run_seq. apply run_nothing. intros c1 (W1 & W2 & W3 & W4).
  rewrite T in W4. destruct (comments_run f cs true c1 W W4 Hg) as (L & c' & E' & X). exists L, c', (comment_text (indent c1) cs true), (nonempty cs).
  rewrite W2 in *. auto.
Qed.
Lemma ready_wrote f c c' t tr : ready f c -> wrote c c' t tr -> ready f c'.
Proof. intros (A1 & A2 & A3 & A4) (_ & _ & W & _). repeat split; auto. congruence. Qed.
Lemma ready_setup f c : ready f c -> ready (setup f) c. Proof. auto. Qed.
Lemma ready_ml f c ml : ready f c -> ready (with_ml ml f) c. Proof. auto. Qed.
Lemma ready_force f c b : ready f c -> ready f (set_force b c). Proof. auto. Qed.

Lemma check_run a f c (R : bytes -> bool -> Prop) : dry a -> ready f c -> trailing c = false ->
  (forall ml b, (f_ml (with_ml ml f) = true \/ space_array o = true \/ dryfit a (with_ml ml f) (set_force b c)) -> run (a (with_ml ml f)) (set_force b c) R) ->
  run (fmt_check o a f) c R.
Proof.
  intros D (W & P & A & _) Tr H. unfold run, fmt_check. rewrite W. cbn [negb].
  change (Fst (f_sep f) false false (f_and_or f) (f_cmd f) (f_parent f)) with (set_write false (with_ml false f)).
  destruct (D (set_write false (with_ml false f)) (set_force false c) eq_refl Tr) as (L & b & E & _). rewrite E.
  set (ml := force_ml (set_force b (set_force false c)) || _).
  destruct (H ml b) as (L2 & c2 & t & tr & E2 & Wr & X).
  - destruct ml eqn:Em; [left; reflexivity|]. right. destruct (space_array o) eqn:Sp; [left; reflexivity|right].
    unfold ml in Em. apply orb_false_iff in Em. destruct Em as [E1 E3]. cbn in E1. subst b. apply N.ltb_ge in E3. cbn in E3.
    repeat split; auto. exists (set_force false c), L, (set_force false (set_force false c)). repeat split; auto. cbn. lia.
  - change (set_force b (set_force false c)) with (set_force b c). rewrite E2. exists L2, (set_force (force_ml c) c2), t, tr. auto.
Qed.

(** an expression after a keyword or a sign *)
Lemma stands_atom k d c T n : stands k d c T n -> k >= 11 -> calm T.
Proof.
  intros H. induction H; intros Hk; cbn; auto; try lia.
  all: try (apply IHstands; lia).
  destruct op; cbn in Hk; lia.
Qed.
Lemma stands_bare d c T n : stands_expr d c T n -> needs_paren T = false -> calm T.
Proof.
  intros H Hp. destruct T as [| | | | | | | | | | | | | |h k l]; cbn; try exact Logic.I; try discriminate Hp.
  inversion H as [? ? ? ? Hs|]; subst. clear H Hp. remember (FChain h k l) as T eqn:E. revert h k l E.
  induction Hs; intros h' k' l' E; try discriminate E; try (injection E as <- <- <-); eauto.
  - eapply stands_atom; [eassumption|lia].
  - exact Logic.I.
  - exact Logic.I.
Qed.
Lemma dry_wrapped T : dry (fmt_node_wrapped o qsort T).
Proof.
  intros f c W Tr. unfold fmt_node_wrapped. destruct (fine_node o qsort sorts T) as [D _].
  destruct (needs_paren T && (enclosed c =? 0) && f_ml (setup f)); [|apply (D (setup f) c W Tr)].
  unfold seq, enter, leave, fmt_begin_block, fmt_end_block, upd_ctx, fmt_write.
  assert (Wg : f_write (setup f) = false) by exact W. rewrite Wg. cbn [set_enclosed set_indent].
  assert (Nl : forall c', trailing c' = false -> fmt_newline o (setup f) false c' = (0%N, c')).
  { intros c' T'. unfold fmt_newline. rewrite Wg. cbn [andb]. destruct (f_ml (setup f)); [rewrite trailing_same by exact T'|]; reflexivity. }
  rewrite Nl by exact Tr.
  destruct (D (setup f) (set_indent (S (indent (set_enclosed (S (enclosed c)) c))) (set_enclosed (S (enclosed c)) c)) W Tr) as (L & b & E & Fb).
  rewrite E. rewrite Nl by exact Tr. eexists _, b. split; [f_equal; destruct c; reflexivity|]. exact Fb.
Qed.
Lemma fine_wrapped T : fine (fmt_node_wrapped o qsort T).
Proof.
  apply (fine_ext_flat o _ (fun f => node_ T (setup f))); [|apply dry_wrapped|apply fine_operand].
  intros f c M A. unfold fmt_node_wrapped. cbn [setup with_sep f_ml]. rewrite M, andb_false_r. reflexivity.
Qed.
Lemma wrapped_run d cs T n f c : stands_expr d cs T n -> after_line cs -> ready f c -> trailing c = false ->
  (f_ml f = true \/ calm T \/ dryfit (fmt_node_wrapped o qsort T) f c) ->
  run (fmt_node_wrapped o qsort T f) c (fun t tr => exists ts n', sfrag nlstop t ts /\ expr false (S d) n' ts /\ stands_expr d cs T n').
Proof.
  intros Hs (Hg & Hl) (W & P & A & En) Tr G. destruct (proj1 every_expression d cs T n Hs) as (Ht & _ & _).
  destruct (Ht Hg) as [Hd _]. unfold run, fmt_node_wrapped. cbn [setup with_sep f_ml].
  destruct (needs_paren T && (enclosed c =? 0) && f_ml f) eqn:Np.
  - set (g := setup f). apply andb_true_iff in Np. destruct Np as [_ M].
    unfold seq at 1 2 3 4 5 6 7 8, enter, leave, fmt_begin_block, fmt_end_block, upd_ctx, fmt_write.
    assert (Wg : f_write g = true) by exact W. rewrite Wg. cbn [set_enclosed set_indent out col indent enclosed force_ml trailing].
    match goal with |- context [fmt_newline o g false ?C] => set (c1 := C) end.
    destruct (newline_run g false c1 Wg M) as (L2 & c2 & E2 & (V1 & V2 & V3 & V4)). rewrite E2.
    destruct (Hd g c2 Wg P V4) as (L3 & c3 & t3 & tr3 & E3 & (U1 & U2 & U3 & U4) & X3).
    { left. rewrite V3. cbn. lia. }
    fold g. rewrite E3.
    match goal with |- context [fmt_newline o g false ?C] => set (c4 := C) end.
    destruct (newline_run g false c4 Wg M) as (L5 & c5 & E5 & (Y1 & Y2 & Y3 & Y4)). rewrite E5.
    eexists _, _, ("("%char :: (NL :: indtext (indent c1) ++ t3 ++ NL :: indtext (indent c4)) ++ B ")"), false. split; [reflexivity|]. split; [repeat split|].
    + cbn [out]. rewrite Y1. unfold c4 at 1. cbn [out set_indent set_enclosed]. rewrite U1, V1. unfold c1 at 1. cbn [out set_indent]. change (B ")") with [")"%char]. rewrite <- !app_assoc. cbn [app]. rewrite <- !app_assoc. reflexivity.
    + cbn. rewrite Y2. unfold c4. cbn. rewrite U2, V2. reflexivity.
    + cbn. rewrite Y3. unfold c4. cbn. rewrite U3, V3. reflexivity.
    + cbn. rewrite Y4. reflexivity.
    + destruct X3 as (body & ts & -> & -> & Fr & (n' & Ex & St)). change (sep_text g) with (@nil ascii). cbn [app].
      exists (plain tok_lparen :: ts ++ [plain tok_rparen]), n'. split; [|split; [apply e_level; apply (level_above 1 11); [lia|lia|]; apply l_paren; auto|exact St]].
      apply sfrag_of, frag_any.
      rewrite V3 in Fr. unfold c1 in Fr. cbn [enclosed set_enclosed] in Fr. change (0 <? S (enclosed c)) with true in Fr.
      set (i4 := indent c4). set (i1 := indent c1). set (i2 := indent c2).
      apply (frag_lparen false (NL :: indtext i1 ++ (body ++ comment_text i2 cs true) ++ NL :: indtext i4)). apply (frag_pre true closes [NL] [] _ ts); [apply frag_newline|].
      apply (frag_pre true closes (indtext i1) [] _ ts); [apply frag_blanks, indtext_blank|].
      assert (Ec : frag true closes (comment_text i2 cs true ++ NL :: indtext i4) []).
      { apply (frag_app true nlstop closes _ [] _ []); [apply comment_frag; auto| |intros rest _; eexists; reflexivity].
        apply (frag_pre true closes [NL] [] _ []); [apply frag_newline|apply frag_any, frag_blanks, indtext_blank]. }
      rewrite <- app_assoc. rewrite <- (app_nil_r ts). apply (frag_app true stop closes body ts _ []); auto.
      intros rest _. destruct cs as [|x cs]; [exists NL|exists " "%char]; eexists; (split; [reflexivity|vm_compute; tauto]).
  - destruct (Hd (setup f) c W P Tr) as (L & c' & t & tr & E & Wr & (body & ts & Et & Etr & Fr & (n' & Ex & St))).
    { right. destruct (needs_paren T) eqn:Ep; [|left; split; [exact A|eapply stands_bare; eauto]].
      rewrite En in Np. cbn in Np. destruct G as [G|[G|G]]; [congruence|left; auto|right].
      apply (dryfit_ext _ (fun f => node_ T (setup f))) in G; [exact G|].
      intros f0 c0 M0 A0. unfold fmt_node_wrapped. cbn [setup with_sep f_ml]. rewrite M0, andb_false_r. reflexivity. }
    exists L, c', t, tr. split; [exact E|]. split; [exact Wr|]. exists ts, n'. split; [|split; [apply deeper, Ex|exact St]].
    subst t. change (sep_text (setup f)) with (@nil ascii). cbn [app]. rewrite En in Fr. apply sfrag_of. rewrite <- (app_nil_r ts).
    apply (frag_app false stop nlstop body ts _ []); [exact Fr|apply comment_frag; auto|].
    intros rest (r & ->). destruct cs as [|x cs]; [exists NL|exists " "%char]; eexists; (split; [reflexivity|vm_compute; tauto]).
Qed.

(** the parts of statements *)
Notation stmt_ := (fmt_stmt o qsort).
Notation lines_ := (fmt_lines o qsort).
Definition body_ (b : list fstmt) (bc : comments) (f : fst_) : F :=
  match b with
  | [] => fmt_comments o f bc true +> fmt_newline_force o (setup f) false
  | _ => fmt_begin_block +> fmt_newline_force o (setup f) (block_blank b) +> lines_ b (setup f) +> fmt_end_block +> fmt_newline_force o (setup f) false
  end.
Definition clause_ (f : fst_) : fclause -> F := fix clause (r : fclause) : F :=
  match r with
  | FNoClause => nothing
  | FElif q b bc r => fmt_writef (setup f) (B "elif ") +> fmt_check o (fmt_node_wrapped o qsort q) (setup f) +> body_ b bc f +> clause r
  | FElse b bc => fmt_writes (setup f) (B "else") +> body_ b bc f
  end.
Lemma stmt_if q b bc r c f : stmt_ (TIf q b bc r c) f =
  (after_comment o f
      +> uncounted (fmt_writef (setup f) (B "if ") +> fmt_check o (fmt_node_wrapped o qsort q) (setup f) +> body_ b bc f +> clause_ f r +> fmt_writes (setup f) (B "endif"))
      +> fmt_tail o f c).
Proof. reflexivity. Qed.
Lemma stmt_foreach x xc y n b bc c f : stmt_ (TForeach x xc y n b bc c) f =
  (after_comment o f
      +> uncounted (fmt_writes (setup f) (B "foreach ") +> node_ (FId x xc) (setup f)
           +> match y with Some (y, yc) => fmt_writes (setup f) (B ", ") +> node_ (FId y yc) (setup f) | None => nothing end
           +> fmt_writes (setup f) (B " : ") +> fmt_check o (fmt_node_wrapped o qsort n) (setup f) +> body_ b bc f +> fmt_writes (setup f) (B "endforeach"))
      +> fmt_tail o f c).
Proof. reflexivity. Qed.

(** without writing *)
Lemma dryF_uncounted A : dryF A -> dryF (uncounted A).
Proof. intros D c T. destruct (D c T) as (L & b & E & X). exists 0%N, b. unfold uncounted. rewrite E. auto. Qed.
Lemma dryF_nothing : dryF nothing.
Proof. intros c T. exists 0%N, (force_ml c). rewrite force_same. auto. Qed.
Lemma dryF_newline f blank : f_write f = false -> dryF (fmt_newline_force o f blank).
Proof. intros W c T. exists 0%N, (force_ml c). rewrite force_same. rewrite newline_force_dry by auto. auto. Qed.
Lemma dryF_block f blank A : f_write f = false -> dryF A -> dryF (fmt_begin_block +> fmt_newline_force o f blank +> A +> fmt_end_block +> fmt_newline_force o f false).
Proof.
  intros W D c T. unfold seq, fmt_begin_block, fmt_end_block, upd_ctx.
  rewrite newline_force_dry by (auto; exact T).
  destruct (D (set_indent (S (indent c)) c) T) as (L & b & E & X). rewrite E.
  rewrite newline_force_dry by (auto; exact T). eexists _, b. split; [f_equal; destruct c; reflexivity|exact X].
Qed.
Lemma dryF_check a f : dry a -> f_write f = false -> dryF (fmt_check o a f).
Proof. intros D W c T. unfold fmt_check. rewrite W. cbn [negb]. apply (D f c W T). Qed.
Lemma dry_dryF a : (forall f, f_write f = false -> dryF (a f)) -> dry a.
Proof. intros H f c W T. apply (H f W c T). Qed.

Lemma dryF_lines l f : (forall st, In st l -> dry (stmt_ st)) -> f_write f = false -> dryF (lines_ l f).
Proof.
  revert f. induction l as [|st l IH]; intros f H W; [apply dryF_nothing|].
  cbn [fmt_lines]. apply dryF_seq; [apply (fine_dryF (fun f => after_comment o f)); [apply fine_after_comment|exact W]|].
  apply dryF_seq; [apply dryF_check; [apply H; left; reflexivity|exact W]|].
  destruct l as [|st' l]; [apply dryF_nothing|]. apply dryF_uncounted, dryF_seq; [apply dryF_newline, W|].
  apply IH; [intros; apply H; right; assumption|exact W].
Qed.
Lemma dryF_body b bc f : (forall st, In st b -> dry (stmt_ st)) -> f_write f = false -> dryF (body_ b bc f).
Proof.
  intros H W. unfold body_. destruct b as [|st b].
  - apply dryF_seq; [apply (fine_dryF (fun f => fmt_comments o f bc true)); [apply fine_comments|exact W]|apply dryF_newline, W].
  - apply dryF_block; [exact W|]. apply dryF_lines; auto.
Qed.
Ltac dries W := repeat lazymatch goal with
  | |- dryF (seq _ _) => apply dryF_seq
  | |- dryF (uncounted _) => apply dryF_uncounted
  | |- dryF nothing => apply dryF_nothing
  | |- dryF (after_comment o ?g) => exact (fine_dryF (fun f => after_comment o f) g (fine_after_comment o) W)
  | |- dryF (fmt_writes ?g ?s) => exact (fine_dryF (fun f => fmt_writes f s) g (fine_writes o s) W)
  | |- dryF (fmt_node o qsort ?n ?g) => exact (fine_dryF (fun f => node_ n f) g (fine_node o qsort sorts n) W)
  | |- dryF (fmt_comment_or_space o ?g) => exact (fine_dryF (fun f => fmt_comment_or_space o f) g (fine_comment_or_space o) W)
  | |- dryF (fmt_tail o ?g ?cs) => exact (fine_dryF (fun f => fmt_tail o f cs) g (fine_tail o cs) W)
  | |- dryF (fmt_node_wrapped o qsort ?n ?g) => exact (fine_dryF (fun f => fmt_node_wrapped o qsort n f) g (fine_wrapped n) W)
  | |- dryF (fmt_check o (fmt_node_wrapped o qsort ?n) ?g) => exact (dryF_check (fmt_node_wrapped o qsort n) g (dry_wrapped n) W)
  | |- dryF (fmt_writef ?g ?s) => apply (fine_dryF (fun f => fmt_writef f s) g); [apply fine_writef; [vm_compute; intuition discriminate|vm_compute; discriminate]|exact W]
  end.
Lemma dry_stmt : forall st, dry (stmt_ st)
with dry_clause : forall r f, f_write f = false -> dryF (clause_ f r).
Proof.
  - intros st. apply dry_dryF. intros f W.
    destruct st as [c|n|x xc n c|x xc n c|q b bc r c|x xc y n b bc c|c|c].
    + apply (fine_dryF (fun f => fmt_line o c f)); [apply fine_line|exact W].
    + apply (fine_dryF (fun f => node_ n f)); [apply fine_node, sorts|exact W].
    + cbn [fmt_stmt]. dries W.
    + cbn [fmt_stmt]. dries W.
    + rewrite stmt_if. dries W; [|apply dry_clause, W].
      apply dryF_body; [|exact W]. clear - dry_stmt. induction b as [|s b IH]; intros st Hi; [destruct Hi|].
      destruct Hi as [<-|Hi]; [apply dry_stmt|apply IH, Hi].
    + rewrite stmt_foreach. dries W.
      * destruct y as [[y yc]|]; dries W.
      * apply dryF_body; [|exact W]. clear - dry_stmt. induction b as [|s b IH]; intros st Hi; [destruct Hi|].
        destruct Hi as [<-|Hi]; [apply dry_stmt|apply IH, Hi].
    + cbn [fmt_stmt]. dries W.
    + cbn [fmt_stmt]. dries W.
  - intros r f W. destruct r as [|q b bc r|b bc].
    + apply dryF_nothing.
    + cbn [clause_]. dries W; [|apply dry_clause, W].
      apply dryF_body; [|exact W]. clear - dry_stmt. induction b as [|s b IH]; intros st Hi; [destruct Hi|].
      destruct Hi as [<-|Hi]; [apply dry_stmt|apply IH, Hi].
    + cbn [clause_]. dries W.
      apply dryF_body; [|exact W]. clear - dry_stmt. induction b as [|s b IH]; intros st Hi; [destruct Hi|].
      destruct Hi as [<-|Hi]; [apply dry_stmt|apply IH, Hi].
Qed.

(** ** Effects *)
Definition has_call (ts : list token) : Prop := exists t, In t ts /\ ty t = tok_lparen.
Lemma call_l a b : has_call a -> has_call (a ++ b).
Proof. intros (t & H & E). exists t. split; [apply in_or_app; auto|exact E]. Qed.
Lemma call_r a b : has_call b -> has_call (a ++ b).
Proof. intros (t & H & E). exists t. split; [apply in_or_app; auto|exact E]. Qed.
Lemma call_cons x b : has_call b -> has_call (x :: b). Proof. apply (call_r [x]). Qed.
Lemma call_here x b : ty x = tok_lparen -> has_call (x :: b). Proof. exists x. split; [left; reflexivity|assumption]. Qed.
Definition arg_effect (a : option node * node) : bool := (match fst a with Some k => effectful k | None => false end) || effectful (snd a).
Definition link_effect (k : link) : bool := match k with LIndex i => effectful i | _ => true end.
Lemma effect_call :
  (forall d n ts, expr false d n ts -> effectful n = true -> has_call ts) /\
  (forall k d n ts, level false k d n ts -> effectful n = true -> has_call ts) /\
  (forall d ls ts, links false d ls ts -> existsb link_effect ls = true -> has_call ts) /\
  (forall md d l ts, args false md d l ts -> existsb arg_effect l = true -> has_call ts) /\
  (forall md d en ts, S_Parser.item false md d en ts -> arg_effect en = true -> has_call ts).
Proof.
  apply expr_ind5; intros; cbn [effectful existsb link_effect arg_effect fst snd] in *; try discriminate; auto;
  repeat match goal with H : _ || _ = true |- _ => apply orb_prop in H; destruct H end; try discriminate;
  try (solve [eauto 6 using call_l, call_r, call_cons, call_here]).
  unfold arg_effect in H4. cbn [fst snd] in H4. apply orb_prop in H4. destruct H4; auto using call_l, call_r, call_cons.
Qed.
Lemma pieces_quiet body us : pieces body us -> ~ has_call us.
Proof.
  induction 1 as [|b s x r ts _ _ _ _ IH]; intros (t & Hi & E); cbn in Hi; repeat destruct Hi as [<-|Hi]; try discriminate E; try contradiction.
  apply IH. exists t. auto.
Qed.
Fixpoint feffect (T : fnode) : bool :=
  let of_arg (a : farg) := match a with ALine _ => false | AVal v => feffect v | AKw k v => feffect k || feffect v end in
  let of_link (k : flink) := match k with KIndex i _ => feffect i | _ => true end in
  match T with
  | FArray _ l _ _ | FDict _ l _ _ => existsb of_arg l
  | FNot a _ | FMinus a _ | FParen _ a _ => feffect a
  | FArith _ a b _ | FCmp _ a b _ | FAnd a b _ | FOr a b _ => feffect a || feffect b
  | FTernary q a b _ => feffect q || (feffect a || feffect b)
  | FChain h k l => feffect h || (of_link k || existsb of_link l)
  | _ => false
  end.
Definition farg_effect (a : farg) : bool := match a with ALine _ => false | AVal v => feffect v | AKw k v => feffect k || feffect v end.
Definition flink_effect (k : flink) : bool := match k with KIndex i _ => feffect i | _ => true end.
Lemma stands_effect :
  (forall d c T n, stands_expr d c T n -> effectful n = feffect T) /\
  (forall k d c T n, stands k d c T n -> effectful n = feffect T) /\
  (forall d c l nl, stands_links d c l nl -> existsb link_effect nl = existsb flink_effect l) /\
  (forall d c k nk, stands_link d c k nk -> link_effect nk = flink_effect k) /\
  (forall md d l ns, stands_args md d l ns -> existsb arg_effect ns = existsb farg_effect l).
Proof.
  apply stands_ind5; intros; cbn [effectful feffect]; auto; try congruence.
  - destruct (effectful n) eqn:E; [|reflexivity]. destruct (pieces_quiet _ _ H). apply (proj1 (proj2 effect_call) _ _ _ _ H0 E).
  - rewrite H0. f_equal. exact H2.
  - cbn [existsb]. rewrite H0. reflexivity.
  - cbn [existsb]. rewrite H0, H2. reflexivity.
  - cbn [existsb]. unfold arg_effect at 1, farg_effect at 1. cbn [fst snd effectful feffect orb]. rewrite H1, H4. reflexivity.
  - cbn [existsb]. unfold arg_effect at 1, farg_effect at 1. cbn [fst snd effectful feffect orb]. rewrite H1, H4. reflexivity.
  - cbn [existsb]. unfold arg_effect at 1, farg_effect at 1. cbn [fst snd effectful feffect orb]. rewrite H0, H2, H5. reflexivity.
Qed.
Lemma same_effect d c T n n' : stands_expr d c T n -> stands_expr d c T n' -> effectful n = effectful n'.
Proof. intros H1 H2. rewrite (proj1 stands_effect _ _ _ _ H1), (proj1 stands_effect _ _ _ _ H2). reflexivity. Qed.

(** ** The parts of statements *)
Lemma name_run x g c (R : bytes -> bool -> Prop) : f_write g = true -> f_sep g = None -> trailing c = false -> R x false -> run (node_ (FId x []) g) c R.
Proof.
  intros W Sg T H. rewrite node_eq. apply run_seq, run_after; [exact T|]. intros c1 (_ & _ & _ & T1). cbn [app].
  unfold node_body. apply run_seq, run_writes; [exact W|]. intros c2 (_ & _ & _ & T2). rewrite T1 in T2.
  apply run_tail; auto. apply Forall_nil. rewrite app_nil_r. exact H.
Qed.
Definition assign_body (op x : bytes) (n : fnode) (f : fst_) : F :=
  after_comment o f +> node_ (FId x []) (setup f) +> fmt_comment_or_space o (setup f) +> fmt_writes (setup f) op +> fmt_node_wrapped o qsort n (setup f) +> fmt_tail o f [].
Definition assign_pre (op x : bytes) (f : fst_) : F :=
  after_comment o f +> node_ (FId x []) (setup f) +> fmt_comment_or_space o (setup f) +> fmt_writes (setup f) op.
Lemma fine_pre op x : fine (assign_pre op x).
Proof.
  apply fine_seq; [apply fine_after_comment|]. apply fine_seq; [apply fine_operand|].
  apply fine_seq; [apply (fine_setup o (fun f => fmt_comment_or_space o f)), fine_comment_or_space|apply (fine_setup o (fun f => fmt_writes f op)), fine_writes].
Qed.
Lemma fine_post n : fine (fun f => fmt_node_wrapped o qsort n (setup f) +> fmt_tail o f []).
Proof. apply fine_seq; [apply (fine_setup o (fmt_node_wrapped o qsort n)), fine_wrapped|apply fine_tail]. Qed.
Lemma assign_split op x n f c : assign_body op x n f c = (assign_pre op x f +> (fmt_node_wrapped o qsort n (setup f) +> fmt_tail o f [])) c.
Proof. unfold assign_body, assign_pre. seqs. Qed.
Lemma assign_run d cs op x n m f c : stands_expr d cs n m -> after_line cs -> (space_array o = true -> calm n) -> ready f c -> f_sep f = None -> trailing c = false ->
  (f_ml f = true \/ space_array o = true \/ dryfit (assign_body op x n) f c) ->
  run (assign_body op x n f) c (fun t tr => exists t2 ts m', t = (x ++ B " " ++ op) ++ t2 /\ sfrag nlstop t2 ts /\ expr false (S d) m' ts /\ stands_expr d cs n m').
Proof.
  intros Hs Hl Hc Hr Sf Tr G. pose proof Hr as (W & P & A & En).
  assert (X : run (assign_pre op x f) c (fun t tr => t = x ++ B " " ++ op /\ tr = false)).
  { unfold assign_pre. apply run_seq, run_after; [exact Tr|]. intros c1 (_ & _ & _ & T1). apply run_seq, name_run; auto. intros c2 (_ & _ & _ & T2).
    apply run_seq. destruct (does_comment_or_space True (setup f) c2 W P T2) as (L & c3 & t & tr & E & Wr & (-> & ->)).
    { right. left. auto. }
    exists L, c3, (B " "), false. split; [exact E|]. split; [exact Wr|]. intros c4 (_ & _ & _ & T4). apply run_writes; auto. }
  destruct X as (L & c1 & t1 & tr1 & E & Wr & (-> & ->)).
  assert (Y : run (fmt_node_wrapped o qsort n (setup f) +> fmt_tail o f []) c1 (fun t tr => exists ts m', sfrag nlstop t ts /\ expr false (S d) m' ts /\ stands_expr d cs n m')).
  { apply run_seq. eapply run_mono; [eapply (wrapped_run d cs n m (setup f) c1); eauto|].
    - eapply ready_wrote; eauto.
    - apply Wr.
    - destruct G as [G|[G|G]]; [left; exact G|right; left; auto|right; right].
      apply (dryfit_ext _ _ f c (fun f c _ _ => assign_split op x n f c)) in G.
      apply (fit_second _ _ f c L c1 (fine_pre op x) (fine_post n) W Tr G) in E.
      apply (fit_first (fun f => fmt_node_wrapped o qsort n (setup f)) (fun f => fmt_tail o f []) f c1) in E; [|apply (fine_setup o (fmt_node_wrapped o qsort n)), fine_wrapped|apply fine_tail].
      exact E.
    - intros t tr (ts & m' & Fr & Ex & St) c2 Wr2. unfold fmt_tail. rewrite Sf. exists 0%N, c2, [], (trailing c2). split; [reflexivity|]. split; [repeat split; rewrite ?app_nil_r; reflexivity|].
      rewrite app_nil_r. eauto. }
  destruct Y as (L2 & c2 & t2 & tr2 & E2 & Wr2 & (ts & m' & Fr & Ex & St)).
  unfold run. rewrite assign_split. unfold seq at 1. rewrite E, E2. eexists _, c2, _, tr2. split; [reflexivity|]. split; [eapply wrote_seq; eauto|].
  exists t2, ts, m'. auto.
Qed.
Lemma word_end e w t : In (w, t) words -> frag e stop w [plain t].
Proof. intros H. apply frag_token, sp_word, H. Qed.
Lemma sfrag_end (st : bytes -> Prop) w t i c : In (w, t) words -> after_line c -> (forall r, st r -> nlstop r) -> sfrag st (w ++ comment_text i c true) [plain t].
Proof.
  intros Hw [Hg Hl] Hst. apply sfrag_of. rewrite <- (app_nil_r [plain t]). apply (frag_app false stop st w _ _ []); [apply word_end, Hw| |].
  - eapply frag_st; [apply comment_frag; auto|exact Hst].
  - intros rest Hr. destruct (Hst rest Hr) as (r & ->). destruct c as [|x c]; [exists NL|exists " "%char]; eexists; (split; [reflexivity|vm_compute; tauto]).
Qed.

Section STATEMENTS.
Variable ign : bool.
Variable d : nat.
Notation sp := (space_array o).
Notation blk := (block false ign (S d)).
Definition lines_ok (k : nat) (l : list fstmt) (ps : list stmt) : Prop := forall f c, ready f c -> trailing c = false -> l <> [] ->
  run (lines_ l f) c (fun t tr => exists ts ps', sfrag nlstop t ts /\ blk k ps' (ts ++ [eol]) /\ stands_lines sp ign d k l ps' /\ (ps <> [] -> ps' <> [])).
Definition stmt_ok (k : nat) (T : fstmt) (p : stmt) : Prop := forall f c, ready f c -> f_sep f = None -> trailing c = false ->
  (f_ml f = true \/ sp = true \/ dryfit (stmt_ T) f c) ->
  run (stmt_ T f) c (fun t tr => exists ts p', sfrag nlstop t ts /\ shape false ign (S d) k p' ts /\ stands_stmt sp ign d k T p' /\ (stmt_effect p -> stmt_effect p')).
Definition clause_ok (k : nat) (r : fclause) (nr : clause) : Prop := forall f c, ready f c -> trailing c = false ->
  run (clause_ f r) c (fun t tr => tr = false /\ exists ts r', sfrag any t ts /\ clauses false ign (S d) k r' ts /\ stands_clause sp ign d k r r' /\ (clause_effect nr -> clause_effect r')).
Definition body_ok (k : nat) (b : list fstmt) (nb : list stmt) : Prop := forall f c, ready f c ->
  run (body_ b [] f) c (fun t tr => tr = false /\ (exists t', t = NL :: t') /\
    exists tb ps', sfrag any t (eol :: tb) /\ blk k ps' tb /\ stands_lines sp ign d k b ps' /\ (nb <> [] -> ps' <> [])).
Lemma body_run k b nb : stands_lines sp ign d k b nb -> lines_ok k b nb -> body_ok k b nb.
Proof.
  intros Hs H f c Hr. pose proof Hr as (W & P & A & En). unfold body_. destruct b as [|st b].
  - inversion Hs; subst. cbn [fmt_comments]. apply run_seq, run_nothing. intros c1 _. apply run_line; [exact W|].
    split; [reflexivity|]. split; [eexists; reflexivity|]. exists [], []. split; [apply (sfrag_line false)|]. split; [constructor|]. split; [constructor|congruence].
  - set (b' := st :: b) in *. set (c1 := set_indent (S (indent c)) c).
    destruct (newline_force_run (setup f) (block_blank b') c1 W) as (L2 & c2 & E2 & (V1 & V2 & V3 & V4)).
    destruct (H (setup f) c2) as (L3 & c3 & t3 & tr3 & E3 & (U1 & U2 & U3 & U4) & (ts & ps' & Fr & Bl & St & Ne)).
    { repeat split; auto. rewrite V3. exact En. }
    { exact V4. }
    { discriminate. }
    set (c4 := set_indent (pred (indent c3)) c3).
    destruct (newline_force_run (setup f) false c4 W) as (L5 & c5 & E5 & (Y1 & Y2 & Y3 & Y4)).
    unfold run, seq, fmt_begin_block, fmt_end_block, upd_ctx. fold c1. rewrite E2, E3. fold c4. rewrite E5.
    eexists _, c5, ((NL :: if block_blank b' then [] else indtext (indent c1)) ++ t3 ++ NL :: indtext (indent c4)), false.
    split; [reflexivity|]. split; [repeat split|].
    + rewrite Y1. unfold c4 at 1. cbn [set_indent out]. rewrite U1, V1. unfold c1 at 1. cbn [set_indent out]. rewrite <- !app_assoc. reflexivity.
    + rewrite Y2. unfold c4. cbn. rewrite U2, V2. reflexivity.
    + rewrite Y3. unfold c4. cbn. rewrite U3, V3. reflexivity.
    + exact Y4.
    + split; [reflexivity|]. split; [eexists; reflexivity|]. exists (ts ++ [eol]), ps'. split; [|auto].
      apply (sfrag_pre any _ [eol] _ (ts ++ [eol])); [apply sfrag_line|].
      apply (sfrag_app nlstop any t3 ts _ [eol]); [exact Fr|apply (sfrag_line false)|]. intros rest _. eexists. reflexivity.
Qed.

Lemma cond_run cs q n f c : stands_expr d cs q n -> after_line cs -> (sp = true -> calm q) -> ready f c -> trailing c = false ->
  run (fmt_check o (fmt_node_wrapped o qsort q) (setup f)) c (fun t tr => exists ts n', sfrag nlstop t ts /\ expr false (S d) n' ts /\ stands_expr d cs q n').
Proof.
  intros Hs Hl Hc Hr T. apply check_run; [apply dry_wrapped|exact Hr|exact T|]. intros ml b G.
  eapply wrapped_run; eauto. destruct G as [G|[G|G]]; auto.
Qed.
Lemma lines_cons k T l ps f c (Q : list token -> stmt -> Prop) :
  ready f c -> trailing c = false -> dry (stmt_ T) ->
  (forall g c', ready g c' -> f_sep g = None -> trailing c' = false -> (f_ml g = true \/ sp = true \/ dryfit (stmt_ T) g c') ->
     run (stmt_ T g) c' (fun t tr => exists ts p', sfrag nlstop t ts /\ Q ts p')) ->
  lines_ok k l ps ->
  run (lines_ (T :: l) f) c (fun t tr => exists ts p', Q ts p' /\
    ((l = [] /\ sfrag nlstop t ts) \/
     exists ts2 ps', sfrag nlstop t (ts ++ eol :: ts2) /\ blk k ps' (ts2 ++ [eol]) /\ stands_lines sp ign d k l ps' /\ (ps <> [] -> ps' <> []))).
Proof.
  intros Hr Tr D H Hl. pose proof Hr as (W & P & A & En). cbn [fmt_lines]. apply run_seq, run_after; [exact Tr|]. intros c1 W1. cbn [app].
  apply run_seq. apply check_run; [exact D|eapply ready_wrote; [apply ready_setup, Hr|exact W1]|apply W1|]. intros ml b G.
  eapply run_mono; [apply H; auto|].
  { apply ready_force, ready_ml. eapply ready_wrote; [apply ready_setup, Hr|exact W1]. }
  { apply W1. }
  intros t tr (ts & p' & Fr & X) c2 W2. destruct l as [|T2 l].
  - apply run_nothing. rewrite app_nil_r. exists ts, p'. auto.
  - apply run_uncounted, run_seq, run_line; [exact W|]. intros c3 W3.
    assert (R3 : ready (setup f) c3). { eapply ready_wrote; [|exact W3]. eapply ready_wrote; [|exact W2]. eapply ready_wrote; [apply ready_setup, Hr|exact W1]. }
    eapply run_mono; [apply (Hl (setup f) c3 R3); [apply W3|discriminate]|].
    intros t2 tr2 (ts2 & ps' & Fr2 & Y). exists ts, p'. split; [exact X|]. right. exists ts2, ps'. split; [|exact Y].
    apply (sfrag_app nlstop nlstop t ts _ (eol :: ts2)); [exact Fr| |intros rest _; eexists; reflexivity].
    apply (sfrag_pre nlstop _ [eol] t2 ts2); [apply sfrag_line|exact Fr2].
Qed.
Lemma block_eols k m ps ts : blk k ps ts -> blk k ps (repeat eol m ++ ts).
Proof. intros H. induction m as [|m IH]; [exact H|]. apply b_eol; [exact IH|reflexivity]. Qed.
Lemma if_part k w kt cq q nq b nb f c : In (w, kt) words -> length (w ++ B " ") <= 4090 -> stands_expr d cq q nq -> after_line cq -> (sp = true -> calm q) -> stands_lines sp ign d k b nb -> lines_ok k b nb ->
  ready f c -> trailing c = false -> forall (R : bytes -> bool -> Prop) (A : F),
  (forall c1 t tc n' tb ps', ready f c1 -> trailing c1 = false -> indent c1 = indent c -> sfrag any t (plain kt :: tc ++ eol :: tb) -> expr false (S d) n' tc -> stands_expr d cq q n' ->
     blk k ps' tb -> stands_lines sp ign d k b ps' -> (nb <> [] -> ps' <> []) -> run A c1 (fun t2 tr2 => R (t ++ t2) tr2)) ->
  run (fmt_writef (setup f) (w ++ B " ") +> fmt_check o (fmt_node_wrapped o qsort q) (setup f) +> body_ b [] f +> A) c R.
Proof.
  intros Hw Hlen Hs Hl Hc Hb Hlb Hr Tr R A H. pose proof Hr as (W & P & An & En).
  apply run_seq, run_writef; [exact W|exact Hlen|]. intros c1 W1. apply run_seq.
  assert (R1 : ready f c1) by (eapply ready_wrote; eauto).
  eapply run_mono; [eapply (cond_run cq q nq f c1); eauto; rewrite <- Tr; apply W1|].
  intros t1 tr1 (tc & n' & Fr & Ex & St) c2 W2. apply run_seq.
  assert (R2 : ready f c2) by (eapply ready_wrote; eauto).
  eapply run_mono; [apply (body_run k b nb Hb Hlb f c2 R2)|].
  intros t2 tr2 (-> & (t' & Et) & tb & ps' & Fb & Bl & Sl & Ne) c3 W3.
  assert (R3 : ready f c3) by (eapply ready_wrote; eauto).
  eapply run_mono; [apply (H c3 ((w ++ B " ") ++ t1 ++ t2) tc n' tb ps' R3)|]; auto.
  - apply W3.
  - destruct W1 as (_ & W1 & _), W2 as (_ & W2 & _), W3 as (_ & W3 & _). congruence.
  - apply (sfrag_pre any (w ++ B " ") [plain kt] _ (tc ++ eol :: tb)); [apply sfrag_of, word_frag, Hw|].
    apply (sfrag_app nlstop any t1 tc t2 (eol :: tb)); [exact Fr|exact Fb|]. intros rest _. rewrite Et. eexists. reflexivity.
  - intros t tr X. rewrite <- !app_assoc in X. rewrite <- !app_assoc. exact X.
Qed.
Lemma every_statement :
  (forall k l ps, stands_lines sp ign d k l ps -> lines_ok k l ps) /\
  (forall k T p, stands_stmt sp ign d k T p -> stmt_ok k T p) /\
  (forall k r nr, stands_clause sp ign d k r nr -> clause_ok k r nr).
Proof.
  apply stands_ind3.
  - (* end *) intros k f c _ _ N. congruence.
  - (* line *) intros k cs l ps Hg Hs Hl f c Hr Tr _.
    eapply run_mono; [apply (lines_cons k (TLine cs) l ps f c (fun ts _ => ts = repeat eol (pred (length cs)))); auto|].
    + apply dry_stmt.
    + intros g c' Hg' Sg T' _. cbn [fmt_stmt]. unfold fmt_line. rewrite Sg. apply run_seq, run_nothing. intros c1 (_ & _ & _ & T1). rewrite T' in T1.
      destruct (comments_run g cs false c1 (proj1 Hg') T1 Hg) as (L & c2 & E & Wr). exists L, c2, (comment_text (indent c1) cs false), (nonempty cs).
      split; [exact E|]. split; [exact Wr|]. exists (repeat eol (pred (length cs))), StContinue. split; [apply sfrag_comments, Hg|reflexivity].
    + intros t tr (ts & p' & -> & [[-> Fr]|(ts2 & ps' & Fr & Bl & St & Ne)]).
      * inversion Hs; subst. exists (repeat eol (pred (length cs))), []. split; [exact Fr|]. split; [|split; [apply y_line; auto; constructor|auto]].
        apply block_eols. apply b_eol; [constructor|reflexivity].
      * eexists _, ps'. split; [exact Fr|]. split; [|split; [apply y_line; auto|exact Ne]].
        rewrite <- app_assoc. apply block_eols. apply b_eol; [exact Bl|reflexivity].
  - (* statement *) intros k T l p ps Hp Hk He Hs Hl f c Hr Tr _.
    eapply run_mono; [apply (lines_cons k T l ps f c (fun ts p' => shape false ign (S d) k p' ts /\ stands_stmt sp ign d k T p' /\ (stmt_effect p -> stmt_effect p'))); auto|].
    + apply dry_stmt.
    + intros t tr (ts & p' & (Sh & St & Ef) & X).
      assert (He' : ign = true \/ stmt_effect p') by tauto.
      destruct X as [[-> Fr]|(ts2 & ps' & Fr & Bl & Sl & Ne)].
      * exists ts, [p']. split; [exact Fr|]. split; [|split; [apply y_stmt; auto; constructor|discriminate]].
        apply b_cons; [constructor; auto|constructor|reflexivity].
      * exists (ts ++ eol :: ts2), (p' :: ps'). split; [exact Fr|]. split; [|split; [apply y_stmt; auto|discriminate]].
        rewrite <- app_assoc. cbn [app]. apply b_cons; [constructor; auto|exact Bl|reflexivity].
  - (* expression *) intros k cs T n Hs Hl Hc f c (W & P & A & En) Sf Tr _. cbn [fmt_stmt].
    destruct (proj1 (proj1 every_expression d cs T n Hs) (proj1 Hl)) as [Hd _].
    destruct (Hd f c W P Tr) as (L & c' & t & tr & E & Wr & (body & ts & -> & -> & Fr & (n' & Ex & St))); [right; left; auto|].
    eexists L, c', _, _. split; [exact E|]. split; [exact Wr|]. exists ts, (StExpr n'). split; [|split; [constructor; apply deeper, Ex|split; [eapply y_expr; eauto|]]].
    + unfold sep_text. rewrite Sf. cbn [app]. rewrite En in Fr. apply sfrag_of. rewrite <- (app_nil_r ts).
      apply (frag_app false stop nlstop body ts _ []); [exact Fr|apply comment_frag; [apply Hl|right; apply Hl]|].
      intros rest (r & ->). destruct cs as [|x cs]; [exists NL|exists " "%char]; eexists; (split; [reflexivity|vm_compute; tauto]).
    + intros Ef. inversion Ef; subst. constructor. rewrite <- (same_effect d cs T n n'); auto.
  - (* assignment *) intros k cs x T n Hx Hs Hl Hc f c Hr Sf Tr G.
    change (stmt_ (TAssign x [] T []) f) with (assign_body (B "= ") x T f).
    eapply run_mono; [eapply (assign_run d cs (B "= ") x T n f c); eauto|].
    intros t tr (t2 & ts & m' & -> & Fr & Ex & St). exists ([mkTok tok_identifier x 0] ++ plain tok_assign :: ts), (StAssign x m').
    split; [|split; [apply st_assign; [apply expr_id; lia|exact Ex|reflexivity]|split; [eapply y_assign; eauto|constructor]]].
    rewrite <- app_assoc. apply (sfrag_app stop nlstop x _ _ (plain tok_assign :: ts)); [apply sfrag_of, frag_token, sp_identifier, Hx| |].
    + apply (sfrag_pre nlstop (B " = ") [plain tok_assign] t2 ts); [|exact Fr]. apply sfrag_of.
      apply (frag_pre false any (B " ") [] (B "=" ++ B " ") [plain tok_assign]); [apply frag_space|]. apply frag_space_tail, frag_token, sp_symbol. vm_compute. tauto.
    + intros rest _. exists " "%char. eexists. split; [reflexivity|vm_compute; tauto].
  - (* += *) intros k cs x T n Hx Hs Hl Hc f c Hr Sf Tr G.
    change (stmt_ (TPlusAssign x [] T []) f) with (assign_body (B "+= ") x T f).
    eapply run_mono; [eapply (assign_run d cs (B "+= ") x T n f c); eauto|].
    intros t tr (t2 & ts & m' & -> & Fr & Ex & St). exists ([mkTok tok_identifier x 0] ++ plain tok_plus_assign :: ts), (StPlusAssign x m').
    split; [|split; [apply st_plus_assign; [apply expr_id; lia|exact Ex|reflexivity]|split; [eapply y_plus_assign; eauto|constructor]]].
    rewrite <- app_assoc. apply (sfrag_app stop nlstop x _ _ (plain tok_plus_assign :: ts)); [apply sfrag_of, frag_token, sp_identifier, Hx| |].
    + apply (sfrag_pre nlstop (B " += ") [plain tok_plus_assign] t2 ts); [|exact Fr]. apply sfrag_of.
      apply (frag_pre false any (B " ") [] (B "+=" ++ B " ") [plain tok_plus_assign]); [apply frag_space|]. apply frag_space_tail, frag_token, sp_symbol. vm_compute. tauto.
    + intros rest _. exists " "%char. eexists. split; [reflexivity|vm_compute; tauto].
  - (* if *) intros k cq cs q nq b nb r nr Hs Hl Hc Hb Hlb Hr' Hcl Hls f c Hr Sf Tr _. pose proof Hr as (W & P & A & En).
    rewrite stmt_if. apply run_seq, run_after; [exact Tr|]. intros c1 W1. cbn [app]. apply run_seq, run_uncounted.
    apply (if_part k (B "if") tok_if cq q nq b nb f c1); auto; [vm_compute; tauto|vm_compute; lia|eapply ready_wrote; eauto|apply W1|].
    intros c2 t tc n' tb ps' R2 T2 I2 Fr Ex St Bl Sl Ne. apply run_seq.
    eapply run_mono; [apply (Hcl f c2 R2 T2)|]. intros t2 tr2 (-> & ts2 & r' & Fr2 & Cl & Sc & Ce) c3 W3.
    apply run_writes; [exact W|]. intros c4 W4. apply run_tail; [exact W|exact Sf| |apply Hls|].
    { destruct W4 as (_ & _ & _ & ->). apply W3. }
    exists (plain tok_if :: tc ++ eol :: tb ++ ts2 ++ [plain tok_endif]), (StIf n' ps' r'). split; [|split; [apply st_if; auto|split; [eapply y_if; eauto|]]].
    + rewrite <- !app_assoc. replace (plain tok_if :: tc ++ eol :: tb ++ ts2 ++ [plain tok_endif]) with ((plain tok_if :: tc ++ eol :: tb) ++ ts2 ++ [plain tok_endif]) by (cbn [app]; rewrite <- app_assoc; reflexivity).
      apply sfrag_pre; [exact Fr|]. apply sfrag_pre; [exact Fr2|]. apply sfrag_end; [vm_compute; tauto|exact Hls|auto].
    + intros Ef. inversion Ef; subst.
      * apply se_if_cond. rewrite <- (same_effect d cq q nq n'); auto.
      * apply se_if_block. auto.
      * apply se_if_clause. auto.
  - (* foreach *) intros k ct cs x T n b nb Hx Hs Hl Hc Hb Hlb Hls f c Hr Sf Tr _. pose proof Hr as (W & P & A & En).
    rewrite stmt_foreach. apply run_seq, run_after; [exact Tr|]. intros c1 W1. cbn [app]. apply run_seq, run_uncounted.
    apply run_seq, run_writes; [exact W|]. intros c2 W2. apply run_seq, name_run; [exact W|reflexivity|destruct W2 as (_ & _ & _ & ->); apply W1|]. intros c3 W3.
    apply run_seq, run_nothing. intros c4 W4. apply run_seq, run_writes; [exact W|]. intros c5 W5. apply run_seq.
    assert (R5 : ready f c5) by (repeat (eapply ready_wrote; [|eassumption]); exact Hr).
    assert (T5 : trailing c5 = false) by (destruct W5 as (_ & _ & _ & ->), W4 as (_ & _ & _ & ->); apply W3).
    eapply run_mono; [eapply (cond_run ct T n f c5); eauto|]. intros t1 tr1 (tn & n' & Fr & Ex & St) c6 W6. apply run_seq.
    assert (R6 : ready f c6) by (eapply ready_wrote; eauto).
    eapply run_mono; [apply (body_run (S k) b nb Hb Hlb f c6 R6)|].
    intros t2 tr2 (-> & (t' & Et) & tb & ps' & Fb & Bl & Sl & Ne) c7 W7. apply run_writes; [exact W|]. intros c8 W8.
    apply run_tail; [exact W|exact Sf| |apply Hls|].
    { destruct W8 as (_ & _ & _ & ->). apply W7. }
    exists (plain tok_foreach :: mkTok tok_identifier x 0 :: plain tok_colon :: tn ++ eol :: tb ++ [plain tok_endforeach]), (StForeach x None n' ps').
    split; [|split; [apply (st_foreach false ign (S d) k (mkTok tok_identifier x 0)); auto|split; [eapply y_foreach; eauto|]]].
    + rewrite <- !app_assoc. cbn [app].
      apply (sfrag_pre nlstop (B "foreach" ++ B " ") [plain tok_foreach]); [apply sfrag_of, word_frag; vm_compute; tauto|].
      apply (sfrag_app stop nlstop x [mkTok tok_identifier x 0] _ (plain tok_colon :: tn ++ eol :: tb ++ [plain tok_endforeach])); [apply sfrag_of, frag_token, sp_identifier, Hx| |intros rest _; exists " "%char; eexists; split; [reflexivity|vm_compute; tauto]].
      apply (sfrag_pre nlstop (B " " ++ B ":" ++ B " ") [plain tok_colon]).
      { apply sfrag_of. apply (frag_pre false any (B " ") [] _ [plain tok_colon]); [apply frag_space|]. apply frag_space_tail, frag_token, sp_symbol. vm_compute. tauto. }
      apply (sfrag_app nlstop nlstop t1 tn _ ((eol :: tb) ++ [plain tok_endforeach])); [exact Fr| |intros rest _; rewrite Et; eexists; reflexivity].
      apply sfrag_pre; [exact Fb|]. apply sfrag_end; [vm_compute; tauto|exact Hls|auto].
    + intros Ef. inversion Ef; subst.
      * apply se_foreach_list. rewrite <- (same_effect d ct T n n'); auto.
      * apply se_foreach_block. auto.
  - (* foreach with two names *) intros k ct cs x y T n b nb Hx Hy Hs Hl Hc Hb Hlb Hls f c Hr Sf Tr _. pose proof Hr as (W & P & A & En).
    rewrite stmt_foreach. apply run_seq, run_after; [exact Tr|]. intros c1 W1. cbn [app]. apply run_seq, run_uncounted.
    apply run_seq, run_writes; [exact W|]. intros c2 W2. apply run_seq, name_run; [exact W|reflexivity|destruct W2 as (_ & _ & _ & ->); apply W1|]. intros c3 W3.
    apply run_seq, run_seq, run_writes; [exact W|]. intros c3' W3'. apply name_run; [exact W|reflexivity|destruct W3' as (_ & _ & _ & ->); apply W3|].
    intros c4 W4. apply run_seq, run_writes; [exact W|]. intros c5 W5. apply run_seq.
    assert (R5 : ready f c5). { eapply ready_wrote; [|exact W5]. eapply ready_wrote; [|exact W4]. eapply ready_wrote; [|exact W3]. eapply ready_wrote; [|exact W2]. eapply ready_wrote; [exact Hr|exact W1]. }
    assert (T5 : trailing c5 = false) by (destruct W5 as (_ & _ & _ & ->); apply W4).
    eapply run_mono; [eapply (cond_run ct T n f c5); eauto|]. intros t1 tr1 (tn & n' & Fr & Ex & St) c6 W6. apply run_seq.
    assert (R6 : ready f c6) by (eapply ready_wrote; eauto).
    eapply run_mono; [apply (body_run (S k) b nb Hb Hlb f c6 R6)|].
    intros t2 tr2 (-> & (t' & Et) & tb & ps' & Fb & Bl & Sl & Ne) c7 W7. apply run_writes; [exact W|]. intros c8 W8.
    apply run_tail; [exact W|exact Sf| |apply Hls|].
    { destruct W8 as (_ & _ & _ & ->). apply W7. }
    exists (plain tok_foreach :: mkTok tok_identifier x 0 :: plain tok_comma :: mkTok tok_identifier y 0 :: plain tok_colon :: tn ++ eol :: tb ++ [plain tok_endforeach]), (StForeach x (Some y) n' ps').
    split; [|split; [apply (st_foreach2 false ign (S d) k (mkTok tok_identifier x 0) (mkTok tok_identifier y 0)); auto|split; [eapply y_foreach2; eauto|]]].
    + rewrite <- !app_assoc. cbn [app].
      apply (sfrag_pre nlstop (B "foreach" ++ B " ") [plain tok_foreach]); [apply sfrag_of, word_frag; vm_compute; tauto|].
      apply (sfrag_app stop nlstop x [mkTok tok_identifier x 0] _ (plain tok_comma :: mkTok tok_identifier y 0 :: plain tok_colon :: tn ++ eol :: tb ++ [plain tok_endforeach])); [apply sfrag_of, frag_token, sp_identifier, Hx| |intros rest _; exists ","%char; eexists; split; [reflexivity|vm_compute; tauto]].
      apply (sfrag_pre nlstop (B "," ++ B " ") [plain tok_comma]).
      { apply sfrag_of, frag_space_tail, frag_token, sp_symbol. vm_compute. tauto. }
      apply (sfrag_app stop nlstop y [mkTok tok_identifier y 0] _ (plain tok_colon :: tn ++ eol :: tb ++ [plain tok_endforeach])); [apply sfrag_of, frag_token, sp_identifier, Hy| |intros rest _; exists " "%char; eexists; split; [reflexivity|vm_compute; tauto]].
      apply (sfrag_pre nlstop (B " " ++ B ":" ++ B " ") [plain tok_colon]).
      { apply sfrag_of. apply (frag_pre false any (B " ") [] _ [plain tok_colon]); [apply frag_space|]. apply frag_space_tail, frag_token, sp_symbol. vm_compute. tauto. }
      apply (sfrag_app nlstop nlstop t1 tn _ ((eol :: tb) ++ [plain tok_endforeach])); [exact Fr| |intros rest _; rewrite Et; eexists; reflexivity].
      apply sfrag_pre; [exact Fb|]. apply sfrag_end; [vm_compute; tauto|exact Hls|auto].
    + intros Ef. inversion Ef; subst.
      * apply se_foreach_list. rewrite <- (same_effect d ct T n n'); auto.
      * apply se_foreach_block. auto.
  - (* continue *) intros k cs Hls f c Hr Sf Tr _. pose proof Hr as (W & P & A & En). cbn [fmt_stmt].
    apply run_seq, run_after; [exact Tr|]. intros c1 W1. apply run_seq, run_writes; [exact W|]. intros c2 W2.
    apply run_tail; [exact W|exact Sf|destruct W2 as (_ & _ & _ & ->); apply W1|apply Hls|].
    exists [plain tok_continue], StContinue. split; [|split; [constructor; reflexivity|split; [constructor; exact Hls|constructor]]].
    cbn [app]. apply sfrag_end; [vm_compute; tauto|exact Hls|auto].
  - (* break *) intros k cs Hls f c Hr Sf Tr _. pose proof Hr as (W & P & A & En). cbn [fmt_stmt].
    apply run_seq, run_after; [exact Tr|]. intros c1 W1. apply run_seq, run_writes; [exact W|]. intros c2 W2.
    apply run_tail; [exact W|exact Sf|destruct W2 as (_ & _ & _ & ->); apply W1|apply Hls|].
    exists [plain tok_break], StBreak. split; [|split; [constructor; reflexivity|split; [constructor; exact Hls|constructor]]].
    cbn [app]. apply sfrag_end; [vm_compute; tauto|exact Hls|auto].
  - (* no clause *) intros k f c Hr Tr. cbn [clause_]. apply run_nothing. split; [exact Tr|]. exists [], NoClause.
    split; [apply sfrag_of, frag_nil|]. repeat split; try constructor. auto.
  - (* elif *) intros k cq q nq b nb r nr Hs Hl Hc Hb Hlb Hr' Hcl f c Hr Tr.
    apply (if_part k (B "elif") tok_elif cq q nq b nb f c); auto; [vm_compute; tauto|vm_compute; lia|].
    intros c2 t tc n' tb ps' R2 T2 I2 Fr Ex St Bl Sl Ne.
    eapply run_mono; [apply (Hcl f c2 R2 T2)|]. intros t2 tr2 (-> & ts2 & r' & Fr2 & Cl & Sc & Ce). split; [reflexivity|].
    exists (plain tok_elif :: tc ++ eol :: tb ++ ts2), (Elif n' ps' r'). split; [|split; [apply c_elif; auto|split; [eapply y_elif; eauto|]]].
    + replace (plain tok_elif :: tc ++ eol :: tb ++ ts2) with ((plain tok_elif :: tc ++ eol :: tb) ++ ts2) by (cbn [app]; rewrite <- app_assoc; reflexivity).
      apply sfrag_pre; [exact Fr|exact Fr2].
    + intros Ef. inversion Ef; subst.
      * apply ce_elif_cond. rewrite <- (same_effect d cq q nq n'); auto.
      * apply ce_elif_block. auto.
      * apply ce_elif_clause. auto.
  - (* else *) intros k b nb Hb Hlb f c Hr Tr. pose proof Hr as (W & P & A & En). cbn [clause_].
    apply run_seq, run_writes; [exact W|]. intros c1 W1.
    eapply run_mono; [apply (body_run k b nb Hb Hlb f c1); eapply ready_wrote; eauto|].
    intros t tr (-> & (t' & Et) & tb & ps' & Fb & Bl & Sl & Ne). split; [reflexivity|].
    exists (plain tok_else :: eol :: tb), (Else ps'). split; [|split; [apply c_else; auto|split; [apply y_else; auto|]]].
    + apply (sfrag_app stop any (B "else") [plain tok_else] t (eol :: tb)); [apply sfrag_of, word_end; vm_compute; tauto|exact Fb|].
      intros rest _. rewrite Et. exists NL. eexists. split; [reflexivity|vm_compute; tauto].
    + intros Ef. inversion Ef; subst. apply ce_else. auto.
Qed.
Lemma whole_file b p : stands_lines sp ign d 0 b p -> exists ts p', source 0 0 0 ts (fmt o qsort b []) /\ program false ign (S d) p' ts /\ stands_lines sp ign d 0 b p'.
Proof.
  intros Hs. unfold fmt. set (f := Fst None true false false false []). set (c := Ctx [] 0 0 0 false false). destruct b as [|T b].
  - assert (X : run (fmt_tail o f [] +> fmt_newline_force o f false) c (fun t tr => t = [NL])).
    { apply run_seq, run_tail; auto; [constructor|]. intros c1 (_ & W1 & _). apply run_line; [reflexivity|]. rewrite W1. reflexivity. }
    destruct X as (L & c' & t & tr & E & (W1 & _) & ->). rewrite E. cbn [snd]. rewrite W1. cbn [out c app]. exists [eol], []. split; [apply so_newline, so_end|].
    split; [apply b_eol; [constructor|reflexivity]|]. inversion Hs; subst. constructor.
  - assert (X : run (lines_ (T :: b) f +> fmt_newline_force o f false) c (fun t tr => exists ts ps', sfrag any t (ts ++ [eol]) /\ blk 0 ps' (ts ++ [eol]) /\ stands_lines sp ign d 0 (T :: b) ps')).
    { apply run_seq. eapply run_mono; [apply (proj1 every_statement 0 (T :: b) p Hs f c); [repeat split|reflexivity|discriminate]|].
      intros t tr (ts & ps' & Fr & Bl & Sl & _) c1 W1. apply run_line; [reflexivity|]. exists ts, ps'. split; [|auto].
      apply (sfrag_app nlstop any t ts _ [eol]); [exact Fr|apply (sfrag_line false)|]. intros rest _. eexists. reflexivity. }
    destruct X as (L & c' & t & tr & E & (W1 & _) & (ts & ps' & Fr & Bl & Sl)). rewrite E. cbn [snd]. rewrite W1. cbn [out c app].
    exists (ts ++ [eol]), ps'. split; [|auto]. specialize (Fr [] [] Logic.I (so_end 0 0 0)). rewrite !app_nil_r in Fr. exact Fr.
Qed.
End STATEMENTS.
End RUN.
