(** What the formatter's first pass, which writes nothing, tells about the second. *)
From Coq Require Import Permutation.
From Verif Require Import Base M_Parser M_Fmt.
Local Arguments B _ : simpl never.

Definition arg_all (P : fnode -> Prop) (a : farg) : Prop :=
  match a with ALine _ => True | AVal v => P v | AKw k v => P k /\ P v end.
Definition link_all (P : fnode -> Prop) (k : flink) : Prop :=
  match k with KMethod _ _ l _ _ | KCall l _ _ => Forall (arg_all P) l | KIndex i _ => P i end.
Lemma fnode_ind' (P : fnode -> Prop) :
  (forall b c, P (FBool b c)) -> (forall s c, P (FStr s c)) -> (forall x c, P (FId x c)) -> (forall s c, P (FNum s c)) ->
  (forall o l m c, Forall (arg_all P) l -> P (FArray o l m c)) -> (forall o l m c, Forall (arg_all P) l -> P (FDict o l m c)) ->
  (forall a c, P a -> P (FNot a c)) -> (forall a c, P a -> P (FMinus a c)) ->
  (forall op a b c, P a -> P b -> P (FArith op a b c)) -> (forall op a b c, P a -> P b -> P (FCmp op a b c)) ->
  (forall a b c, P a -> P b -> P (FAnd a b c)) -> (forall a b c, P a -> P b -> P (FOr a b c)) ->
  (forall q a b c, P q -> P a -> P b -> P (FTernary q a b c)) -> (forall o a c, P a -> P (FParen o a c)) ->
  (forall h k l, P h -> link_all P k -> Forall (link_all P) l -> P (FChain h k l)) -> forall n, P n.
Proof.
  intros H1 H2 H3 H4 H5 H6 H7 H8 H9 H10 H11 H12 H13 H14 H15.
  fix IH 1. intros n.
  assert (A : forall l, Forall (arg_all P) l).
  { fix IA 1. intros [|a l]; constructor; [|apply IA]. destruct a; cbn; [exact Logic.I|apply IH|split; apply IH]. }
  assert (K : forall k, link_all P k). { intros [m mc l cm c|i c|l cm c]; cbn; [apply A|apply IH|apply A]. }
  assert (KL : forall l, Forall (link_all P) l). { fix IL 1. intros [|k l]; constructor; [apply K|apply IL]. }
  destruct n; [apply H1|apply H2|apply H3|apply H4|apply H5, A|apply H6, A|apply H7, IH|apply H8, IH|apply H9; apply IH
    |apply H10; apply IH|apply H11; apply IH|apply H12; apply IH|apply H13; apply IH|apply H14, IH|apply H15; [apply IH|apply K|apply KL]].
Qed.

(** ** Families of functions
    [fine a]: without writing, a changes at most the flag force_ml, and never clears it; and if it leaves it clear, then a
    counts right: in a line that is long enough, it takes as much place when it does write, without starting a new line. *)
Definition set_write w f := Fst (f_sep f) w (f_ml f) (f_and_or f) (f_cmd f) (f_parent f).
Definition adv (t : bytes) (L : N) (c : fctx) := Ctx (out c ++ t) (col c + L)%N (indent c) (enclosed c) (force_ml c) (trailing c).
Lemma force_force a b c : set_force a (set_force b c) = set_force a c.
Proof. reflexivity. Qed.
Lemma force_same c : set_force (force_ml c) c = c.
Proof. destruct c; reflexivity. Qed.
Lemma trailing_same c : trailing c = false -> set_trailing false c = c.
Proof. destruct c; cbn. intros ->. reflexivity. Qed.
Lemma adv_adv t1 L1 t2 L2 c : adv t2 L2 (adv t1 L1 c) = adv (t1 ++ t2) (L1 + L2) c.
Proof. unfold adv; cbn. rewrite app_assoc, N.add_assoc. reflexivity. Qed.
Lemma adv_nil c : adv [] 0 c = c.
Proof. unfold adv. rewrite app_nil_r, N.add_0_r. destruct c; reflexivity. Qed.

Section FINE.
Variable o : fopts.
Notation maxl := (max_line_len o).
Definition dry (a : fst_ -> F) : Prop := forall f c, f_write f = false -> trailing c = false ->
  exists L b, a f c = (L, set_force b c) /\ (force_ml c = true -> b = true).
Definition tame (a : fst_ -> F) : Prop := forall f c1 L d1,
  f_write f = false -> f_ml f = false -> f_and_or f = false -> trailing c1 = false -> a f c1 = (L, d1) -> force_ml d1 = false ->
  forall w c2, trailing c2 = false -> (col c2 + L <= maxl)%N ->
  exists t, a (set_write w f) c2 = (L, if w then adv t L c2 else c2).
Definition fine (a : fst_ -> F) : Prop := dry a /\ (space_array o = false -> tame a).

Lemma fine_ext a b : (forall f c, a f c = b f c) -> fine a -> fine b.
Proof.
  intros E [D T]. split.
  - intros f c W Tr. rewrite <- E. apply D; auto.
  - intros S f c1 L d1 W M A Tr H Fo w c2 Tr2 Hc. destruct (T S f c1 L d1 W M A Tr (eq_trans (E _ _) H) Fo w c2 Tr2 Hc) as (t & Et). exists t. rewrite <- E. exact Et.
Qed.
Lemma fine_nothing : fine (fun _ => nothing).
Proof.
  split.
  - intros f c W Tr. exists 0%N, (force_ml c). rewrite force_same. auto.
  - intros S f c1 L d1 W M A Tr H Fo w c2 Tr2 Hc. inversion H; subst. exists []. rewrite adv_nil. destruct w; reflexivity.
Qed.
Lemma fine_seq a b : fine a -> fine b -> fine (fun f => a f +> b f).
Proof.
  intros [Da Ta] [Db Tb]. split.
  - intros f c W Tr. destruct (Da f c W Tr) as (La & ba & Ea & Fa).
    destruct (Db f (set_force ba c) W) as (Lb & bb & Eb & Fb); [exact Tr|].
    exists (La + Lb)%N, bb. unfold seq. rewrite Ea, Eb. split; [reflexivity|]. intros X. apply Fb, Fa, X.
  - intros S f c1 L d1 W M A Tr H Fo w c2 Tr2 Hc. unfold seq in H.
    destruct (Da f c1 W Tr) as (La & ba & Ea & Fa). rewrite Ea in H.
    destruct (Db f (set_force ba c1) W) as (Lb & bb & Eb & Fb); [exact Tr|]. rewrite Eb in H. injection H as HL Hd. subst.
    rewrite force_force in Fo. cbn in Fo. subst bb.
    assert (ba = false). { destruct ba; [|reflexivity]. discriminate (Fb eq_refl). } subst ba.
    destruct (Ta S f c1 La _ W M A Tr Ea eq_refl w c2 Tr2 ltac:(lia)) as (t1 & E1).
    destruct (Tb S f (set_force false c1) Lb _ W M A Tr Eb eq_refl w (if w then adv t1 La c2 else c2)) as (t2 & E2).
    + destruct w; exact Tr2.
    + destruct w; cbn; lia.
    + exists (t1 ++ t2). unfold seq. rewrite E1, E2. destruct w; [|reflexivity]. rewrite adv_adv. reflexivity.
Qed.
Lemma fine_map h a :
  (forall f, f_write (h f) = f_write f) -> (forall f, f_ml (h f) = f_ml f) -> (forall f, f_and_or (h f) = f_and_or f) ->
  (forall w f, h (set_write w f) = set_write w (h f)) -> fine a -> fine (fun f => a (h f)).
Proof.
  intros H1 H2 H3 H4 [D T]. split.
  - intros f c W Tr. apply D; [rewrite H1|]; auto.
  - intros S f c1 L d1 W M A Tr H Fo w c2 Tr2 Hc. rewrite H4.
    apply (T S (h f) c1 L d1 (eq_trans (H1 f) W) (eq_trans (H2 f) M) (eq_trans (H3 f) A) Tr H Fo w c2 Tr2 Hc).
Qed.
Lemma fine_setup a : fine a -> fine (fun f => a (setup f)).
Proof. apply fine_map; intros; reflexivity. Qed.
Lemma fine_if (b : bool) a a' : fine a -> fine a' -> fine (fun f => if b then a f else a' f).
Proof. destruct b; auto. Qed.
Lemma fine_write ch : fine (fun f => fmt_write f ch).
Proof.
  split.
  - intros f c W Tr. exists (width ch), (force_ml c). unfold fmt_write. rewrite W, force_same. auto.
  - intros S f c1 L d1 W M A Tr H Fo w c2 Tr2 Hc. unfold fmt_write in *. inversion H; subst. exists [ch].
    cbn. destruct w; reflexivity.
Qed.
Lemma fine_writes s : fine (fun f => fmt_writes f s).
Proof. induction s as [|ch s IH]; cbn [fmt_writes]; [apply fine_nothing|]. apply fine_seq; [apply fine_write|exact IH]. Qed.
(** functions that always set the flag *)
Lemma fine_forcing a : (forall f c, f_write f = false -> trailing c = false -> exists L, a f c = (L, set_force true c)) -> fine a.
Proof.
  intros H. split.
  - intros f c W Tr. destruct (H f c W Tr) as (L & E). exists L, true. auto.
  - intros S f c1 L d1 W M A Tr E Fo. destruct (H f c1 W Tr) as (L' & E'). rewrite E' in E. inversion E; subst. discriminate.
Qed.
Lemma fine_force : fine (fun _ => upd_ctx (set_force true)).
Proof. apply fine_forcing. intros. exists 0%N. reflexivity. Qed.
Lemma fine_writeml s : fine (fun f => fmt_writeml f s).
Proof.
  induction s as [|ch s IH]; cbn [fmt_writeml]; [apply fine_nothing|]. destruct (ceqb ch NL).
  - apply fine_seq; [|exact IH]. apply fine_forcing. intros f c W Tr. exists 0%N. unfold upd_ctx. rewrite W. reflexivity.
  - apply fine_seq; [apply fine_write|exact IH].
Qed.
Lemma writes_len s : ~ In TAB s -> forall f c, fmt_writes f s c = (N.of_nat (length s), if f_write f then adv s (N.of_nat (length s)) c else c).
Proof.
  induction s as [|ch s IH]; intros NT f c.
  - cbn. rewrite adv_nil. destruct (f_write f); reflexivity.
  - cbn [fmt_writes]. unfold seq, fmt_write at 1. rewrite IH by (intros X; apply NT; right; exact X).
    assert (W : width ch = 1%N).
    { unfold width. destruct (ceqb_spec ch TAB) as [E|_]; [|reflexivity]. destruct NT. left. exact E. }
    rewrite W. f_equal; [cbn [length]; lia|]. destruct (f_write f); [|reflexivity].
    unfold adv; cbn [out col indent enclosed force_ml trailing length]. rewrite <- app_assoc. f_equal. lia.
Qed.
Lemma firstn_short {A} n (l : list A) : length l <= n -> firstn n l = l.
Proof. revert l; induction n; intros [|x l] H; cbn in *; try reflexivity; [lia|]. f_equal. apply IHn. lia. Qed.
Lemma writef_len s : ~ In TAB s -> (N.of_nat (length s) <= 4095)%N -> forall f c,
  fmt_writef f s c = (N.of_nat (length s), if f_write f then adv s (N.of_nat (length s)) c else c).
Proof.
  intros NT H f c. unfold fmt_writef. destruct (f_write f) eqn:W.
  - rewrite firstn_short by lia. rewrite writes_len by exact NT. rewrite W. reflexivity.
  - reflexivity.
Qed.
Lemma fine_writef s : ~ In TAB s -> (N.of_nat (length s) <= 4095)%N -> fine (fun f => fmt_writef f s).
Proof.
  intros NT H. apply (fine_ext (fun f => fmt_writes f s)); [|apply fine_writes].
  intros f c. rewrite writes_len, writef_len by assumption. reflexivity.
Qed.
Lemma fine_newline blank : fine (fun f => fmt_newline o f blank).
Proof.
  split.
  - intros f c W Tr. exists 0%N, (force_ml c). unfold fmt_newline. rewrite W, force_same. cbn.
    destruct (f_ml f); [rewrite (trailing_same c Tr)|]; auto.
  - intros S f c1 L d1 W M A Tr H Fo w c2 Tr2 Hc. unfold fmt_newline in *. rewrite M in H. rewrite andb_false_r in H.
    inversion H; subst. exists []. cbn. rewrite M, andb_false_r, adv_nil. destruct w; reflexivity.
Qed.
Lemma newline_force_dry f blank c : f_write f = false -> trailing c = false -> fmt_newline_force o f blank c = (0%N, c).
Proof. intros W Tr. unfold fmt_newline_force, fmt_newline. cbn. rewrite W. cbn. rewrite trailing_same by exact Tr. reflexivity. Qed.
Lemma fine_newline_or_space blank : fine (fun f => fmt_newline_or_space o f blank).
Proof.
  destruct (fine_newline blank) as [D1 T1]. destruct (fine_write " "%char) as [D2 T2]. unfold fmt_newline_or_space. split.
  - intros f c W Tr. destruct (f_ml f); auto.
  - intros S f c1 L d1 W M A Tr H Fo w c2 Tr2 Hc. rewrite M in H. cbn [set_write f_ml]. rewrite M. apply (T2 S f c1 L d1 W M A Tr H Fo w c2 Tr2 Hc).
Qed.
Lemma fine_breaking_space : fine (fun f => fmt_breaking_space o f).
Proof.
  destruct (fine_write " "%char) as [D2 T2]. unfold fmt_breaking_space. split.
  - intros f c W Tr. destruct (maxl <=? col c)%N; [|auto]. exists 0%N, true. unfold seq. rewrite newline_force_dry by auto.
    split; reflexivity.
  - intros S f c1 L d1 W M A Tr H Fo w c2 Tr2 Hc. destruct (maxl <=? col c1)%N eqn:E.
    + unfold seq in H. rewrite newline_force_dry in H by auto. inversion H; subst. discriminate.
    + assert (X : L = 1%N) by (unfold fmt_write in H; inversion H; reflexivity). subst L.
      destruct (maxl <=? col c2)%N eqn:E2; [apply N.leb_le in E2; lia|]. apply (T2 S f c1 1%N d1 W M A Tr H Fo w c2 Tr2 Hc).
Qed.
Lemma fine_comments cs leading : fine (fun f => fmt_comments o f cs leading).
Proof.
  unfold fmt_comments. destruct cs as [|x cs]; [apply fine_nothing|]. apply fine_forcing. intros f c W Tr.
  assert (G : forall cs leading c, trailing c = false -> exists L, comment_lines o f cs leading c = (L, c)).
  { clear - W. induction cs as [|x cs IH]; intros leading c Tr; [exists 0%N; reflexivity|].
    cbn [comment_lines]. unfold seq, fmt_writef. rewrite W. destruct cs as [|y cs].
    - eexists; reflexivity.
    - rewrite newline_force_dry by auto. destruct (IH false c Tr) as (L & E). rewrite E. eexists; reflexivity. }
  destruct (G (x :: cs) leading (set_force true c) Tr) as (L & E). exists (0 + L)%N. unfold seq, upd_ctx at 1. rewrite E. reflexivity.
Qed.
Lemma fine_comment_or_space : fine (fun f => fmt_comment_or_space o f).
Proof.
  destruct (fine_write " "%char) as [D2 T2]. unfold fmt_comment_or_space. split.
  - intros f c W Tr. rewrite Tr. auto.
  - intros S f c1 L d1 W M A Tr H Fo w c2 Tr2 Hc. rewrite Tr in H. rewrite Tr2. apply (T2 S f c1 L d1 W M A Tr H Fo w c2 Tr2 Hc).
Qed.
Lemma fine_after_comment : fine (fun f => after_comment o f).
Proof.
  unfold after_comment. split.
  - intros f c W Tr. rewrite Tr. exists 0%N, (force_ml c). rewrite force_same. auto.
  - intros S f c1 L d1 W M A Tr H Fo w c2 Tr2 Hc. rewrite Tr in H. rewrite Tr2. inversion H; subst. exists []. rewrite adv_nil. destruct w; reflexivity.
Qed.
Lemma fine_sep : fine (fun f => match f_sep f with Some s => fmt_writes f s | None => nothing end).
Proof.
  split.
  - intros f c W Tr. destruct (f_sep f) as [s|]; [apply (proj1 (fine_writes s) f c W Tr)|apply (proj1 fine_nothing f c W Tr)].
  - intros S f c1 L d1 W M A Tr H Fo w c2 Tr2 Hc. cbn [set_write f_sep].
    destruct (f_sep f) as [s|]; [apply (proj2 (fine_writes s) S f c1 L d1 W M A Tr H Fo w c2 Tr2 Hc)|apply (proj2 fine_nothing S f c1 L d1 W M A Tr H Fo w c2 Tr2 Hc)].
Qed.
Lemma fine_tail cs : fine (fun f => fmt_tail o f cs).
Proof. unfold fmt_tail. apply fine_seq; [apply fine_sep|apply fine_comments]. Qed.
Lemma fine_line cs : fine (fun f => fmt_line o cs f).
Proof. unfold fmt_line. apply fine_seq; [apply fine_sep|apply fine_comments]. Qed.
Lemma fine_check a : fine a -> fine (fun f => fmt_check o a f).
Proof.
  intros [D T]. unfold fmt_check. split.
  - intros f c W Tr. rewrite W. cbn [negb]. auto.
  - intros S f c1 L d1 W M A Tr H Fo w c2 Tr2 Hc. rewrite W in H. cbn [negb] in H.
    destruct w; cbn [set_write f_write negb]; [|apply (T S f c1 L d1 W M A Tr H Fo false c2 Tr2 Hc)].
    change (f_sep (set_write true f)) with (f_sep f). change (f_and_or (set_write true f)) with (f_and_or f).
    change (f_cmd (set_write true f)) with (f_cmd f). change (f_parent (set_write true f)) with (f_parent f).
    assert (Ef : f = Fst (f_sep f) false false (f_and_or f) (f_cmd f) (f_parent f)) by (destruct f; cbn in *; congruence).
    rewrite <- Ef.
    destruct (T S f c1 L d1 W M A Tr H Fo false (set_force false c2) Tr2 Hc) as (t0 & E0).
    assert (Es : set_write false f = f) by (rewrite Ef; reflexivity). rewrite Es in E0. rewrite E0. cbn [set_force force_ml col orb].
    destruct (T S f c1 L d1 W M A Tr H Fo true (set_force false c2) Tr2 Hc) as (t & E).
    assert (X : (maxl <? L + col c2)%N = false) by (apply N.ltb_ge; lia). rewrite X.
    replace (with_ml false (set_write true f)) with (set_write true f)
      by (unfold with_ml, set_write; cbn; rewrite M; reflexivity).
    change (Ctx (out c2) (col c2) (indent c2) (enclosed c2) false (trailing c2)) with (set_force false c2).
    rewrite E. exists t. reflexivity.
Qed.
(** inside brackets *)
Definition bracketed (i : bool) (a : fst_ -> F) : fst_ -> F := fun f c =>
  let (L, c') := a f (set_enclosed (S (enclosed c)) (if i then set_indent (S (indent c)) c else c)) in
  (L, set_enclosed (pred (enclosed c')) (if i then set_indent (pred (indent c')) c' else c')).
Lemma fine_bracketed i a : fine a -> fine (bracketed i a).
Proof.
  intros [D T]. unfold bracketed. split.
  - intros f c W Tr. destruct (D f (set_enclosed (S (enclosed c)) (if i then set_indent (S (indent c)) c else c)) W) as (L & b & E & Fo).
    { destruct i; exact Tr. }
    rewrite E. exists L, b. split; [destruct c, i; reflexivity|]. intros X. apply Fo. destruct i; exact X.
  - intros S f c1 L d1 W M A Tr H Fo w c2 Tr2 Hc.
    destruct (a f (set_enclosed (Datatypes.S (enclosed c1)) (if i then set_indent (Datatypes.S (indent c1)) c1 else c1))) as [L' c'] eqn:E.
    injection H as -> <-.
    assert (Fo' : force_ml c' = false) by (destruct i; exact Fo).
    destruct (fun Z => T S f _ L c' W M A Z E Fo' w
                (set_enclosed (Datatypes.S (enclosed c2)) (if i then set_indent (Datatypes.S (indent c2)) c2 else c2))) as (t & E2).
    + destruct i; exact Tr.
    + destruct i; exact Tr2.
    + destruct i; exact Hc.
    + rewrite E2. exists t. destruct w, i, c2; reflexivity.
Qed.

Variable qsort : (item -> item -> Z) -> list item -> list item.
Hypothesis sorts : forall cmp l, Permutation (qsort cmp l) l.

Definition fine_item (x : item) : Prop := fine (i_val x) /\ forall k, i_kw x = Some k -> fine k.
Lemma fine_items paren cmd single l : Forall fine_item l -> fine (fun f => items_loop o f paren cmd single l).
Proof.
  induction 1 as [|x l [Hv Hk] Hl IH]; [apply fine_nothing|]. cbn [items_loop].
  set (last := match l with [] => true | _ => false end).
  apply fine_seq; [|apply fine_seq].
  - destruct (i_kw x) as [k|]; [|apply fine_nothing].
    apply (fine_map (fun f => with_sep _ (with_cmd _ f))); try reflexivity. apply Hk. reflexivity.
  - cbn [f_ml with_cmd].
    apply (fine_map (fun f => with_sep (if (if i_line x then false else if paren && no_single_comma o && single && negb (some (i_kw x)) then false else negb (last && negb (f_ml f))) then Some (B ",") else None) (with_cmd (some (i_kw x) && i_command x) f)) (fun f => fmt_check o (i_val x) f)); try reflexivity.
    apply fine_check. exact Hv.
  - destruct last; [apply fine_nothing|].
    apply (fine_seq (fun f => if cmd && i_dash x && negb (i_next_dash x) then fmt_write (with_cmd _ f) " "%char else fmt_newline_or_space o (with_cmd _ f) (i_next_blank x))
             (fun f => items_loop o (with_cmd _ f) paren cmd single l)).
    + apply fine_if; [apply (fine_map (with_cmd _) (fun f => fmt_write f " "%char)); try reflexivity; apply fine_write|].
      apply (fine_map (with_cmd _) (fun f => fmt_newline_or_space o f (i_next_blank x))); try reflexivity. apply fine_newline_or_space.
    + apply (fine_map (with_cmd _) (fun f => items_loop o f paren cmd single l)); try reflexivity. exact IH.
Qed.

Lemma fine_ext_flat a b : (forall f c, f_ml f = false -> f_and_or f = false -> a f c = b f c) -> dry a -> fine b -> fine a.
Proof.
  intros E D [_ T]. split; [exact D|].
  intros S f c1 L d1 W M A Tr H Fo w c2 Tr2 Hc.
  destruct (T S f c1 L d1 W M A Tr (eq_trans (eq_sym (E f c1 M A)) H) Fo w c2 Tr2 Hc) as (t & Et).
  exists t. rewrite E by assumption. exact Et.
Qed.
Lemma dry_uncounted a : dry a -> dry (fun f => uncounted (a f)).
Proof. intros D f c W Tr. destruct (D f c W Tr) as (L & b & E & Fo). exists 0%N, b. unfold uncounted. rewrite E. auto. Qed.
Definition edge (brack : bool) (f : fst_) : F := if brack then uncounted (fmt_newline_or_space o f false) else fmt_newline o f false.
Lemma fine_edge opening : fine (edge (ceqb opening "["%char && space_array o)).
Proof.
  unfold edge. destruct (ceqb opening "["%char && space_array o) eqn:E; [|apply fine_newline].
  split; [apply dry_uncounted, fine_newline_or_space|]. intros S. rewrite S, andb_false_r in E. discriminate.
Qed.
Lemma seq_assoc (a b c : F) x : ((a +> b) +> c) x = (a +> b +> c) x.
Proof.
  unfold seq. destruct (a x) as [n1 x1]. destruct (b x1) as [n2 x2]. destruct (c x2) as [n3 x3]. rewrite N.add_assoc. reflexivity.
Qed.
(** what is written between the brackets *)
Definition inside (opening : ascii) (sorted : bool) (l : list item) (comma cmd : bool) (f : fst_) : F :=
  edge (ceqb opening "["%char && space_array o) f
  +> (if existsb i_line l || comma then upd_ctx (set_force true) else nothing)
  +> (if (1 <? length (filter (fun x => some (i_kw x)) l)) && kwa_ml o then upd_ctx (set_force true) else nothing)
  +> (let l := if sorted then qsort sort_cmp l else l in items_loop o f (ceqb opening "("%char) cmd (length l =? 1) l).
Lemma args_split opening sorted l comma f c : l <> [] ->
  fmt_args o qsort opening sorted l comma f c
  = (bracketed true (inside opening sorted l comma (f_cmd f)) f +> edge (ceqb opening "["%char && space_array o) f) c.
Proof.
  intros Hl. unfold fmt_args, inside, bracketed. destruct l as [|x l]; [congruence|]. clear Hl. cbv zeta.
  set (e := edge _ f). change (if ceqb opening "["%char && space_array o then uncounted (fmt_newline_or_space o f false) else fmt_newline o f false) with e.
  set (f1 := if existsb i_line (x :: l) || comma then _ else _). set (f2 := if _ && kwa_ml o then _ else _).
  set (lo := items_loop _ _ _ _ _ _).
  unfold seq, enter, leave, fmt_begin_block, fmt_end_block, upd_ctx.
  change (set_indent (S (indent (set_enclosed (S (enclosed c)) c))) (set_enclosed (S (enclosed c)) c))
    with (set_enclosed (S (enclosed c)) (set_indent (S (indent c)) c)).
  destruct (e _) as [n1 c1]. destruct (f1 c1) as [n2 c2]. destruct (f2 c2) as [n3 c3]. destruct (lo c3) as [n4 c4].
  change (set_indent (pred (indent (set_enclosed (pred (enclosed c4)) c4))) (set_enclosed (pred (enclosed c4)) c4))
    with (set_enclosed (pred (enclosed c4)) (set_indent (pred (indent c4)) c4)).
  destruct (e _) as [n5 c5]. f_equal. lia.
Qed.
Lemma fine_args opening sorted l comma : Forall fine_item l -> fine (fun f => fmt_args o qsort opening sorted l comma f).
Proof.
  intros Hl. destruct l as [|x l]; [apply fine_nothing|].
  assert (I : forall cmd, fine (inside opening sorted (x :: l) comma cmd)).
  { intros cmd. unfold inside. apply fine_seq; [apply fine_edge|]. apply fine_seq; [|apply fine_seq].
    - apply (fine_if _ (fun _ => _) (fun _ => _)); [apply fine_force|apply fine_nothing].
    - apply (fine_if _ (fun _ => _) (fun _ => _)); [apply fine_force|apply fine_nothing].
    - cbv zeta. apply fine_items. destruct sorted; [|exact Hl]. rewrite Forall_forall in *. intros y Hy. apply Hl.
      apply (Permutation_in _ (sorts _ _) Hy). }
  split.
  - intros f c W Tr. rewrite args_split by discriminate.
    apply (proj1 (fine_seq _ _ (fine_bracketed true _ (I (f_cmd f))) (fine_edge opening)) f c W Tr).
  - intros S f c1 L d1 W M A Tr H Fo w c2 Tr2 Hc. rewrite args_split in * by discriminate.
    apply (proj2 (fine_seq _ _ (fine_bracketed true _ (I (f_cmd f))) (fine_edge opening)) S f c1 L d1 W M A Tr H Fo w c2 Tr2 Hc).
Qed.
Lemma fine_parent : fine (fun f => fmt_comments o f (f_parent f) true).
Proof.
  split.
  - intros f c W Tr. apply (proj1 (fine_comments (f_parent f) true) f c W Tr).
  - intros S f c1 L d1 W M A Tr H Fo w c2 Tr2 Hc.
    apply (proj2 (fine_comments (f_parent f) true) S f c1 L d1 W M A Tr H Fo w c2 Tr2 Hc).
Qed.
Lemma fine_container opening sorted l comma : Forall fine_item l -> fine (fun f => fmt_arg_container o qsort opening sorted l comma f).
Proof.
  intros Hl. unfold fmt_arg_container. apply fine_seq; [apply (fine_setup (fun f => fmt_write f opening)), fine_write|].
  apply fine_seq; [apply fine_parent|]. apply fine_seq; [apply (fine_setup (fun f => fmt_args o qsort opening sorted l comma f)), fine_args, Hl|].
  apply (fine_setup (fun f => fmt_write f _)), fine_write.
Qed.

(** ** The parts of fmt_node *)
Notation node_ := (fmt_node o qsort).
Definition items := items_of node_ (fmt_line o).
Definition and_or (a b : fnode) (word : bytes) (g : fst_) : F := fun c =>
  let (l1, c) := fmt_check o (node_ a) g c in
  let forced := (negb (enclosed c =? 0) && f_ml g) || f_and_or g in
  let g := if forced then with_and_or true g else g in
  let (l2, c) := (if forced then fmt_newline_force o g false else fmt_writes g (B " ")) c in
  let (l3, c) := (fmt_writes g word +> fmt_check o (node_ b) g) c in
  ((l1 + (l2 + l3))%N, c).
Definition method_body (m : bytes) (mc : comments) (l : list farg) (comma : bool) (f : fst_) : F :=
  let g := setup f in fmt_writes g m +> fmt_arg_container o qsort "("%char false (items l) comma (with_parent mc g).
Definition call_body (files : bool) (l : list farg) (comma : bool) (f : fst_) : F :=
  match (if files then lone_array l else None) with
  | Some _ =>
      match l with
      | [AVal (FArray _ l comma _)] => fmt_arg_container o qsort "("%char true (items l) comma (with_cmd false (setup f))
      | _ => nothing
      end
  | None => fmt_arg_container o qsort "("%char files (items l) comma (with_cmd false (setup f))
  end.
Definition link_ (files : bool) (k : flink) (f : fst_) : F :=
  match k with
  | KMethod m mc l comma _ => fmt_write f "."%char +> fmt_check o (method_body m mc l comma) (setup f)
  | KIndex i _ => fmt_write f "["%char +> enter +> fmt_check o (node_ i) (setup f) +> leave +> fmt_write f "]"%char
  | KCall l comma _ => fmt_check o (call_body files l comma) (setup f)
  end.
Definition link_comments (k : flink) : comments := match k with KMethod _ _ _ _ c | KIndex _ c | KCall _ _ c => c end.
Fixpoint links_ (k : flink) (l : list flink) (f : fst_) : F :=
  match l with
  | [] => fmt_tail o f (link_comments k)
  | k' :: l' => link_ false k' f +> links_ k' l' f
  end.
Definition parens (op : comments) (a : fnode) (f : fst_) : F :=
  let g := setup f in
  fmt_write g "("%char +> enter
  +> (if f_ml g then fmt_begin_block +> fmt_newline o g false else nothing)
  +> fmt_comments o g op false +> node_ a g
  +> (if f_ml g then fmt_end_block +> fmt_newline o g false else nothing)
  +> leave +> fmt_write g ")"%char.
Definition node_body (n : fnode) (f : fst_) : F :=
  let g := setup f in
  match n with
  | FBool b c => fmt_writes g (if b then B "true" else B "false") +> fmt_tail o f c
  | FStr s c => fmt_writeml g s +> fmt_tail o f c
  | FId x c => fmt_writes g x +> fmt_tail o f c
  | FNum s c => fmt_writes g s +> fmt_tail o f c
  | FArray op l comma c => fmt_check o (fmt_arg_container o qsort "["%char false (items l) comma) (with_parent op g) +> fmt_tail o f c
  | FDict op l comma c => fmt_check o (fmt_arg_container o qsort "{"%char false (items l) comma) (with_parent op g) +> fmt_tail o f c
  | FNot a c => fmt_writes g (B "not ") +> node_ a g +> fmt_tail o f c
  | FMinus a c => fmt_write g "-"%char +> node_ a g +> fmt_tail o f c
  | FArith op a b c =>
      node_ a g +> fmt_comment_or_space o g +> fmt_write g (arith_sign op) +> fmt_breaking_space o g +> node_ b g +> fmt_tail o f c
  | FCmp op a b c =>
      node_ a g +> fmt_comment_or_space o g +> fmt_writef g (cmp_sign op ++ B " ") +> node_ b g +> fmt_tail o f c
  | FAnd a b c => and_or a b (B "and ") g +> fmt_tail o f c
  | FOr a b c => and_or a b (B "or ") g +> fmt_tail o f c
  | FTernary q a b c =>
      node_ q g +> fmt_comment_or_space o g +> fmt_writef g (B "? ") +> node_ a g +> fmt_comment_or_space o g
      +> fmt_writef g (B ": ") +> node_ b g +> fmt_tail o f c
  | FParen op a c => fmt_check o (parens op a) g +> fmt_tail o f c
  | FChain h k l => node_ h g +> link_ (node_is (B "files") h) k f +> links_ k l f
  end.
Lemma node_eq n f : fmt_node o qsort n f = (after_comment o f +> node_body n f).
Proof.
  destruct n; try reflexivity.
  cbn [fmt_node node_body]. f_equal. f_equal. f_equal.
  revert k. induction l as [|k' l IH]; intros k; [destruct k; reflexivity|]. cbn [links_]. rewrite <- IH. destruct k'; reflexivity.
Qed.

Lemma fine_items_of l : Forall (arg_all (fun v => fine (fmt_node o qsort v))) l -> Forall fine_item (items l).
Proof.
  induction 1 as [|a l Ha Hl IH]; [constructor|]. cbn [items items_of]. constructor; [|exact IH].
  destruct a as [c|v|k v]; cbn in Ha.
  - split; [apply fine_line|]. intros k Hk; discriminate Hk.
  - split; [exact Ha|]. intros k Hk; discriminate Hk.
  - split; [apply Ha|]. intros k' Hk. injection Hk as <-. apply Ha.
Qed.
Lemma fine_and_or a b word : fine (node_ a) -> fine (node_ b) -> fine (and_or a b word).
Proof.
  intros Ha Hb. apply fine_check in Ha as Ca. apply fine_check in Hb as Cb.
  apply (fine_ext_flat _ (fun f => fmt_check o (node_ a) f +> fmt_writes f (B " ") +> fmt_writes f word +> fmt_check o (node_ b) f)).
  - intros f c M A. unfold and_or, seq. destruct (fmt_check o (node_ a) f c) as [l1 c1].
    rewrite M, A, andb_false_r. cbn [orb]. destruct (fmt_writes f (B " ") c1) as [l2 c2].
    destruct (fmt_writes f word c2) as [l3 c3]. destruct (fmt_check o (node_ b) f c3) as [l4 c4]. reflexivity.
  - intros f c W Tr. unfold and_or. destruct (proj1 Ca f c W Tr) as (L1 & b1 & E1 & F1). rewrite E1.
    set (forced := _ || _). set (g := if forced then with_and_or true f else f).
    assert (Wg : f_write g = false) by (unfold g; destruct forced; exact W).
    assert (X : exists L2, (if forced then fmt_newline_force o g false else fmt_writes g (B " ")) (set_force b1 c) = (L2, set_force b1 c)).
    { destruct forced; [exists 0%N; apply newline_force_dry; assumption|].
      exists (N.of_nat (length (B " "))). rewrite writes_len by (vm_compute; intuition discriminate). rewrite Wg. reflexivity. }
    destruct X as (L2 & E2). rewrite E2.
    destruct (proj1 (fine_seq _ _ (fine_writes word) Cb) g (set_force b1 c) Wg Tr) as (L3 & b3 & E3 & F3). rewrite E3.
    eexists _, b3. split; [reflexivity|]. intros X. apply F3, F1, X.
  - apply fine_seq; [exact Ca|]. apply fine_seq; [apply fine_writes|]. apply fine_seq; [apply fine_writes|exact Cb].
Qed.
Lemma fine_parens op a : fine (node_ a) -> fine (parens op a).
Proof.
  intros Ha.
  assert (G : forall ml : bool, fine (fun f => fmt_write (setup f) "("%char +>
              (bracketed ml (fun f => (if ml then fmt_newline o (setup f) false else nothing) +> fmt_comments o (setup f) op false +> node_ a (setup f)) f
              +> (if ml then fmt_newline o (setup f) false else nothing)
              +> fmt_write (setup f) ")"%char))).
  { intros ml. apply fine_seq; [apply (fine_setup (fun f => fmt_write f _)), fine_write|]. apply fine_seq.
    - apply fine_bracketed. apply fine_seq; [|apply fine_seq].
      + apply (fine_if ml (fun f => fmt_newline o (setup f) false) (fun _ => nothing)); [apply (fine_setup (fun f => fmt_newline o f false)), fine_newline|apply fine_nothing].
      + apply (fine_setup (fun f => fmt_comments o f op false)), fine_comments.
      + apply (fine_setup (fun f => node_ a f)), Ha.
    - apply fine_seq; [|apply (fine_setup (fun f => fmt_write f _)), fine_write].
      apply (fine_if ml (fun f => fmt_newline o (setup f) false) (fun _ => nothing)); [apply (fine_setup (fun f => fmt_newline o f false)), fine_newline|apply fine_nothing]. }
  assert (E : forall f c, f_ml f = false \/ (f_write f = false /\ trailing c = false) -> parens op a f c = (fmt_write (setup f) "("%char +>
              (bracketed (f_ml f) (fun f' => (if f_ml f then fmt_newline o (setup f') false else nothing) +> fmt_comments o (setup f') op false +> node_ a (setup f')) f
              +> (if f_ml f then fmt_newline o (setup f) false else nothing)
              +> fmt_write (setup f) ")"%char)) c).
  { intros f c Hc. unfold parens, bracketed. cbv zeta. change (f_ml (setup f)) with (f_ml f). destruct (f_ml f) eqn:M.
    - destruct Hc as [X|[W Tr]]; [discriminate|].
      assert (NL0 : forall x, trailing x = false -> fmt_newline o (setup f) false x = (0%N, x)).
      { intros x Hx. unfold fmt_newline. cbn. rewrite W, M. cbn. rewrite trailing_same by exact Hx. reflexivity. }
      unfold seq, enter, leave, fmt_begin_block, fmt_end_block, upd_ctx. unfold fmt_write at 1 3. change (f_write (setup f)) with (f_write f). rewrite W.
      rewrite !NL0 by exact Tr.
      destruct (proj1 (fine_comments op false) (setup f) (set_indent (S (indent (set_enclosed (S (enclosed c)) c))) (set_enclosed (S (enclosed c)) c)) W Tr) as (L1 & b1 & E1 & _).
      rewrite E1. change (set_indent (S (indent (set_enclosed (S (enclosed c)) c))) (set_enclosed (S (enclosed c)) c)) with (set_enclosed (S (enclosed c)) (set_indent (S (indent c)) c)) in *.
      rewrite E1.
      destruct (proj1 Ha (setup f) (set_force b1 (set_enclosed (S (enclosed c)) (set_indent (S (indent c)) c))) W Tr) as (L2 & b2 & E2 & _).
      rewrite E2. rewrite !NL0 by exact Tr. unfold fmt_write. cbn [setup f_write with_sep]. rewrite W. cbn. f_equal. lia.
    - unfold seq, enter, leave, upd_ctx, nothing.
      destruct (fmt_write (setup f) "("%char c) as [n1 c1]. destruct (fmt_comments o (setup f) op false _) as [n2 c2].
      destruct (node_ a (setup f) c2) as [n3 c3]. destruct (fmt_write (setup f) ")"%char _) as [n4 c4]. f_equal. lia. }
  apply (fine_ext_flat _ (fun f => fmt_write (setup f) "("%char +>
              (bracketed false (fun f => nothing +> fmt_comments o (setup f) op false +> node_ a (setup f)) f
              +> nothing +> fmt_write (setup f) ")"%char))).
  - intros f c M A. rewrite E by (left; exact M). rewrite M. reflexivity.
  - intros f c W Tr. rewrite E by (right; auto). apply (proj1 (G (f_ml f)) f c W Tr).
  - apply (G false).
Qed.
Definition fine_list (n : fnode) : Prop :=
  match n with FArray _ l _ _ => Forall (arg_all (fun v => fine (node_ v))) l | _ => True end.
Lemma fine_link files k : link_all (fun v => fine (node_ v) /\ fine_list v) k -> fine (link_ files k).
Proof.
  assert (W : forall l, Forall (arg_all (fun v => fine (node_ v) /\ fine_list v)) l -> Forall (arg_all (fun v => fine (node_ v))) l).
  { intros l. apply Forall_impl. intros [c|v|k' v]; cbn; tauto. }
  destruct k as [m mc l comma c|i c|l comma c]; cbn [link_all link_]; intros H.
  - apply fine_seq; [apply fine_write|]. apply (fine_setup (fun f => fmt_check o (method_body m mc l comma) f)), fine_check.
    unfold method_body. cbv zeta. apply fine_seq; [apply (fine_setup (fun f => fmt_writes f m)), fine_writes|].
    apply (fine_map (fun f => with_parent mc (setup f)) (fun f => fmt_arg_container o qsort "("%char false (items l) comma f)); try reflexivity.
    apply fine_container, fine_items_of, W, H.
  - apply (fine_ext (fun f => fmt_write f "["%char +> bracketed false (fun f => fmt_check o (node_ i) (setup f)) f +> fmt_write f "]"%char)).
    { intros f x. unfold link_, bracketed, seq, enter, leave, upd_ctx. destruct (fmt_write f "["%char x) as [n1 x1].
      destruct (fmt_check o (node_ i) (setup f) _) as [n2 x2]. destruct (fmt_write f "]"%char _) as [n3 x3]. f_equal. }
    apply fine_seq; [apply fine_write|]. apply fine_seq; [|apply fine_write].
    apply fine_bracketed. apply (fine_setup (fun f => fmt_check o (node_ i) f)), fine_check, H.
  - apply (fine_setup (fun f => fmt_check o (call_body files l comma) f)), fine_check.
    assert (N : forall s l m, Forall (arg_all (fun v => fine (node_ v))) l -> fine (fun f => fmt_arg_container o qsort "("%char s (items l) m (with_cmd false (setup f)))).
    { intros s l0 m Hl. apply (fine_map (fun f => with_cmd false (setup f)) (fun f => fmt_arg_container o qsort "("%char s (items l0) m f)); try reflexivity.
      apply fine_container, fine_items_of, Hl. }
    unfold call_body. destruct files; [|apply N, W, H]. unfold lone_array.
    destruct l as [|[c0|v|k v] [|a2 l]]; try (apply N, W, H).
    all: destruct v; try (apply N, W, H). apply N. destruct (Forall_inv H) as [_ X]. exact X.
Qed.
Lemma fine_links k l : Forall (link_all (fun v => fine (node_ v) /\ fine_list v)) l -> fine (links_ k l).
Proof.
  intros H. revert k. induction H as [|k' l Hk Hl IH]; intros k; cbn [links_]; [apply fine_tail|].
  apply fine_seq; [apply fine_link, Hk|apply IH].
Qed.
Lemma fine_node_list n : fine (node_ n) /\ fine_list n.
Proof.
  induction n using fnode_ind'; (split; [|cbn; try exact Logic.I]);
    try (match goal with |- fine (node_ ?n) => apply (fine_ext (fun f => after_comment o f +> node_body n f)); [intros f0 x0; rewrite node_eq; reflexivity|] end;
         apply fine_seq; [apply fine_after_comment|]; unfold node_body; cbv beta iota zeta).
  all: try match goal with H : _ /\ _ |- _ => destruct H as [? _] end.
  all: try match goal with H : _ /\ fine_list _ |- _ => destruct H as [? _] end.
  all: try match goal with H : _ /\ fine_list _ |- _ => destruct H as [? _] end.
  all: try match goal with H : Forall (arg_all _) ?l |- _ =>
     assert (Forall (arg_all (fun v => fine (node_ v))) l) by (revert H; apply Forall_impl; intros [?|?|? ?]; cbn; tauto) end.
  all: repeat first
    [ assumption
    | match goal with
      | |- fine (fun f => _ +> _) => apply fine_seq
      | |- fine (fun f => fmt_tail _ f _) => apply fine_tail
      | |- fine (fun f => fmt_write (setup f) ?x) => apply (fine_setup (fun f => fmt_write f x)), fine_write
      | |- fine (fun f => fmt_writes (setup f) ?x) => apply (fine_setup (fun f => fmt_writes f x)), fine_writes
      | |- fine (fun f => fmt_writeml (setup f) ?x) => apply (fine_setup (fun f => fmt_writeml f x)), fine_writeml
      | |- fine (fun f => fmt_writef (setup f) ?x) => apply (fine_setup (fun f => fmt_writef f x)), fine_writef
      | |- fine (fun f => fmt_comment_or_space _ (setup f)) => apply (fine_setup (fun f => fmt_comment_or_space o f)), fine_comment_or_space
      | |- fine (fun f => fmt_breaking_space _ (setup f)) => apply (fine_setup (fun f => fmt_breaking_space o f)), fine_breaking_space
      | |- fine (fun f => node_ ?a (setup f)) => apply (fine_setup (fun f => node_ a f))
      | |- fine (fun f => and_or ?a ?b ?w (setup f)) => apply (fine_setup (fun f => and_or a b w f)), fine_and_or
      | |- fine (fun f => fmt_check _ (parens ?p ?a) (setup f)) => apply (fine_setup (fun f => fmt_check o (parens p a) f)), fine_check, fine_parens
      | |- fine (fun f => fmt_check _ ?a (with_parent ?op (setup f))) => apply (fine_map (fun f => with_parent op (setup f)) (fun f => fmt_check o a f)); try reflexivity; apply fine_check, fine_container, fine_items_of
      | |- fine (link_ ?b ?k) => apply fine_link
      | |- fine (links_ ?k ?l) => apply fine_links
      | |- fine (fun f => link_ ?b ?k f) => apply fine_link
      | |- fine (fun f => links_ ?k ?l f) => apply fine_links
      | |- ~ In TAB _ => try destruct op; vm_compute; intuition discriminate
      | |- (_ <= _)%N => try destruct op; vm_compute; discriminate
      end ].
Qed.
Lemma fine_node n : fine (node_ n).
Proof. apply fine_node_list. Qed.
End FINE.
