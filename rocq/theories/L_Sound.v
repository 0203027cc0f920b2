(** What the parser accepts is in the grammar. *)
From Verif Require Import Base M_Format M_Lexer M_Parser S_Parser L_Parser.

(** ** Inputs *)
(** the tokens that can end an operand *)
Definition ender (t : ttype) : bool :=
  match t with
  | tok_identifier | tok_number | tok_string | tok_true | tok_false | tok_rparen | tok_rbrack | tok_rcurl => true
  | _ => false
  end.
(** an index without an expression *)
Definition bad (l : list token) : Prop := exists a p k h b,
  l = a ++ p :: k :: h :: b /\ ender (ty p) = true /\ ty k = tok_lbrack /\ quiet (ty h).
(** a not after an operand without an in *)
Definition stray (l : list token) : Prop := exists a p k h b,
  l = a ++ p :: k :: h :: b /\ ender (ty p) = true /\ ty k = tok_not /\ ty h <> tok_in.
Definition ends_eof (l : list token) : Prop := exists a e, l = a ++ [e] /\ ty e = tok_eof.
Definition sfx (l L : list token) : Prop := exists a, L = a ++ l.

Lemma sfx_refl l : sfx l l. Proof. now exists []. Qed.
Lemma sfx_trans a b c : sfx a b -> sfx b c -> sfx a c.
Proof. intros [x ->] [y ->]. exists (y ++ x). now rewrite app_assoc. Qed.
Lemma sfx_cons k l : sfx l (k :: l). Proof. now exists [k]. Qed.
Lemma sfx_len a b : sfx a b -> length a <= length b.
Proof. intros [x ->]. rewrite app_length. lia. Qed.
Lemma bad_sfx a b : sfx a b -> bad a -> bad b.
Proof. intros [x ->] (y & p & k & h & z & -> & H). exists (x ++ y), p, k, h, z. now rewrite <- app_assoc. Qed.
Lemma stray_sfx a b : sfx a b -> stray a -> stray b.
Proof. intros [x ->] (y & p & k & h & z & -> & H). exists (x ++ y), p, k, h, z. now rewrite <- app_assoc. Qed.
Lemma ends_eof_ne l : ends_eof l -> l <> [].
Proof. intros (a & e & -> & _). now destruct a. Qed.
Lemma ends_eof_tail k r : ends_eof (k :: r) -> ty k <> tok_eof -> ends_eof r.
Proof.
  intros (a & e & E & T) N. destruct a as [|x a]; injection E as <- E; [congruence|]. exists a, e. auto.
Qed.
Lemma ends_eof_sfx l L : sfx l L -> ends_eof L -> l <> [] -> ends_eof l.
Proof.
  intros [x ->] (a & e & E & T) N. destruct l as [|k l] using rev_ind; [congruence|]. clear IHl.
  rewrite app_assoc in E. apply app_inj_tail in E as [_ ->]. now exists l, e.
Qed.

(** ** Outcomes *)
Definition good {A} (L : list token) (Q : ps -> A -> Prop) (r : pres A) : Prop :=
  match r with
  | POk s a => Q s a
  | PErr s => sfx (ptoks s) L /\ ends_eof (ptoks s)
  | PAbort => bad L
  | PNoFuel => False
  end.
Lemma good_bind {A B} L (Q : ps -> A -> Prop) (R : ps -> B -> Prop) m f s :
  good L Q (m s) -> (forall s' a, Q s' a -> good L R (f a s')) -> good L R (bind m f s).
Proof. unfold bind. destruct (m s); cbn; auto. Qed.
Lemma good_weaken {A} L L' (Q Q' : ps -> A -> Prop) r :
  good L Q r -> sfx L L' -> (forall s a, Q s a -> Q' s a) -> good L' Q' r.
Proof.
  intros G S W. destruct r; cbn in *; auto.
  - destruct G. split; [now apply (sfx_trans _ L)|assumption].
  - now apply (bad_sfx L).
Qed.
Lemma good_accept {B} L (R : ps -> B -> Prop) t f s : t <> tok_eof -> ends_eof (ptoks s) ->
  ((forall k r, ptoks s = k :: r -> ty k <> t) -> good L R (f false s)) ->
  (forall k r, ptoks s = k :: r -> ty k = t -> ends_eof r -> good L R (f true (after s r false))) ->
  good L R (bind (accept t) f s).
Proof.
  intros Nt E F T. destruct (ptoks s) as [|k r] eqn:P; [now apply ends_eof_ne in E|].
  destruct (ttype_dec (ty k) t) as [D|D].
  - assert (ends_eof r) by (apply (ends_eof_tail k); [assumption|congruence]).
    rewrite (bind_ok _ _ _ _ _ (accept_yes t s k r P (ends_eof_ne _ H) D)). eauto.
  - rewrite (bind_ok _ _ _ _ _ (accept_no t s k r P D)). apply F. intros k' r' X. congruence.
Qed.
Lemma good_expect {B} L (R : ps -> B -> Prop) t f s : t <> tok_eof -> ends_eof (ptoks s) -> sfx (ptoks s) L ->
  (forall k r, ptoks s = k :: r -> ty k = t -> ends_eof r -> good L R (f tt (after s r false))) ->
  good L R (bind (expect t) f s).
Proof.
  intros Nt E S T. destruct (ptoks s) as [|k r] eqn:P; [now apply ends_eof_ne in E|].
  destruct (ttype_dec (ty k) t) as [D|D].
  - assert (ends_eof r) by (apply (ends_eof_tail k); [assumption|congruence]).
    rewrite (bind_ok _ _ _ _ _ (expect_yes t s k r P (ends_eof_ne _ H) D)). eauto.
  - unfold expect. unfold bind at 1. rewrite (bind_ok _ _ _ _ _ (accept_no t s k r P D)). cbn. now rewrite P.
Qed.
Lemma good_data {B} L (R : ps -> B -> Prop) t f s : t <> tok_eof -> ends_eof (ptoks s) ->
  ((forall k r, ptoks s = k :: r -> ty k <> t) -> good L R (f None s)) ->
  (forall k r, ptoks s = k :: r -> ty k = t -> ends_eof r -> good L R (f (Some k) (after s r false))) ->
  good L R (bind (accept_data t) f s).
Proof.
  intros Nt E F T. destruct (ptoks s) as [|k r] eqn:P; [now apply ends_eof_ne in E|].
  destruct (ttype_dec (ty k) t) as [D|D].
  - assert (ends_eof r) by (apply (ends_eof_tail k); [assumption|congruence]).
    rewrite (bind_ok _ _ _ _ _ (accept_data_yes t s k r P (ends_eof_ne _ H) D)). eauto.
  - rewrite (bind_ok _ _ _ _ _ (accept_data_no t s k r P D)). apply F. intros k' r' X. congruence.
Qed.
Lemma good_perr {A} L (Q : ps -> A -> Prop) s : sfx (ptoks s) L -> ends_eof (ptoks s) -> good L Q (perr s).
Proof. now split. Qed.

(** ** Moves *)
Definition avail (s : ps) : nat := N.to_nat (4096 - depth s).
Definition okl (lax : bool) (s : ps) : Prop := lax = true \/ ~ stray (ptoks s).
Definition moved (s0 : ps) (ts : list token) (e : bool) (s : ps) : Prop :=
  ptoks s0 = ts ++ ptoks s /\ s = after s0 (ptoks s) e /\ ends_eof (ptoks s).
Lemma moved_refl s : ends_eof (ptoks s) -> moved s [] false s.
Proof. intros E. refine (conj eq_refl (conj _ E)). now rewrite after_id. Qed.
Lemma moved_trans s0 ts e s ts' e' s' : moved s0 ts e s -> moved s ts' e' s' -> moved s0 (ts ++ ts') (e || e') s'.
Proof.
  intros (A & B & C) (A' & B' & C'). refine (conj _ (conj _ C')).
  - now rewrite A, A', app_assoc.
  - rewrite B' at 1. rewrite B. now rewrite after_after.
Qed.
Lemma moved_step s0 ts e s k r : moved s0 ts e s -> ptoks s = k :: r -> ends_eof r -> moved s0 (ts ++ [k]) e (after s r false).
Proof.
  intros (A & B & C) P E. refine (conj _ (conj _ E)).
  - cbn. rewrite A, P. now rewrite <- app_assoc.
  - rewrite B at 1. rewrite after_after, orb_false_r. reflexivity.
Qed.
Lemma moved_effect s0 ts e s : moved s0 ts e s -> moved s0 ts true (with_effect true s).
Proof.
  intros (A & B & C). refine (conj A (conj _ C)). rewrite with_effect_after. rewrite B at 1. rewrite after_after, orb_true_r. reflexivity.
Qed.
Lemma moved_sfx s0 ts e s : moved s0 ts e s -> sfx (ptoks s) (ptoks s0).
Proof. intros (A & _). now exists ts. Qed.
Lemma moved_len s0 ts e s : moved s0 ts e s -> length (ptoks s0) = length ts + length (ptoks s).
Proof. intros (-> & _). apply app_length. Qed.
Lemma moved_avail s0 ts e s : moved s0 ts e s -> avail s = avail s0.
Proof. intros (_ & -> & _). reflexivity. Qed.
Lemma moved_okl s0 ts e s lax : moved s0 ts e s -> okl lax s0 -> okl lax s.
Proof. intros M [O|O]; [now left|]. right. intros H. apply O. eapply stray_sfx; [|exact H]. eapply moved_sfx; eauto. Qed.
Lemma moved_eof s0 ts e s : moved s0 ts e s -> ends_eof (ptoks s).
Proof. now intros (_ & _ & H). Qed.

(** ** Posts *)
Definition quietk (k : nat) (h : token) : Prop :=
  starts (ty h) = false /\ (k <= 9 -> starts_unary (ty h) = false) /\ stops k h.
Definition quietl (k : nat) (l : list token) : Prop := exists h r, l = h :: r /\ quietk k h.
Definition PL (k : nat) (s0 s : ps) (n : node) : Prop :=
  (n = NEmpty /\ s = s0 /\ ends_eof (ptoks s0) /\ quietl k (ptoks s0))
  \/ (exists ts, moved s0 ts (effectful n) s /\ forall lax, okl lax s0 -> level lax k (avail s0) n ts).
Definition PE (s0 s : ps) (n : node) : Prop :=
  (n = NEmpty /\ s = s0 /\ ends_eof (ptoks s0) /\ quietl 0 (ptoks s0) /\ 1 <= avail s0)
  \/ (exists ts, moved s0 ts (effectful n) s /\ forall lax, okl lax s0 -> expr lax (avail s0) n ts).
Lemma PL_empty k s0 s n : PL k s0 s n -> is_empty n = true -> n = NEmpty /\ s = s0 /\ quietl k (ptoks s0).
Proof.
  intros [(-> & -> & _ & Q)|(ts & M & D)] E; [auto|]. specialize (D true (or_introl eq_refl)).
  apply level_nonempty in D. congruence.
Qed.
Lemma PL_some k s0 s n : PL k s0 s n -> is_empty n = false -> exists ts, moved s0 ts (effectful n) s /\ forall lax, okl lax s0 -> level lax k (avail s0) n ts.
Proof. intros [(-> & _)|H] E; [discriminate E|assumption]. Qed.
Lemma PL_eof k s0 s n : PL k s0 s n -> ends_eof (ptoks s) /\ sfx (ptoks s) (ptoks s0).
Proof.
  intros [(-> & -> & E & _)|(ts & M & D)]; [split; [assumption|apply sfx_refl]|].
  split; [eapply moved_eof; eauto|eapply moved_sfx; eauto].
Qed.
Lemma PE_empty s0 s n : PE s0 s n -> is_empty n = true -> n = NEmpty /\ s = s0 /\ quietl 0 (ptoks s0) /\ 1 <= avail s0.
Proof.
  intros [(-> & -> & _ & Q)|(ts & M & D)] E; [auto|]. specialize (D true (or_introl eq_refl)).
  apply expr_nonempty in D. congruence.
Qed.
Lemma PE_some s0 s n : PE s0 s n -> is_empty n = false -> exists ts, moved s0 ts (effectful n) s /\ forall lax, okl lax s0 -> expr lax (avail s0) n ts.
Proof. intros [(-> & _)|H] E; [discriminate E|assumption]. Qed.
Lemma PE_eof s0 s n : PE s0 s n -> ends_eof (ptoks s) /\ sfx (ptoks s) (ptoks s0).
Proof.
  intros [(-> & -> & E & _)|(ts & M & D)]; [split; [assumption|apply sfx_refl]|].
  split; [eapply moved_eof; eauto|eapply moved_sfx; eauto].
Qed.

(** the last token of an operand *)
Definition last_ender (ts : list token) : Prop := exists a p, ts = a ++ [p] /\ ender (ty p) = true.
Lemma last_ender_app a b : last_ender b -> last_ender (a ++ b).
Proof. intros (x & p & -> & H). exists (a ++ x), p. now rewrite app_assoc. Qed.
Lemma last_ender_cons k b : last_ender b -> last_ender (k :: b).
Proof. apply (last_ender_app [k]). Qed.
Lemma last_ender_one o t : ty o = t -> ender t = true -> last_ender [o].
Proof. intros <- H. now exists [], o. Qed.
Lemma grammar_lasts lax :
  (forall d n ts, expr lax d n ts -> True)
  /\ (forall k d n ts, level lax k d n ts -> 4 <= k -> last_ender ts)
  /\ (forall d l ts, links lax d l ts -> l = [] \/ last_ender ts)
  /\ (forall md d l ts, args lax md d l ts -> True)
  /\ (forall md d it ts, item lax md d it ts -> True).
Proof.
  apply expr_ind5; intros; auto; try lia; try (eapply last_ender_one; [eassumption|reflexivity]).
  - apply last_ender_app, last_ender_cons. apply H2. pose proof (prec_op op). lia.
  - apply last_ender_cons. apply H0. lia.
  - apply last_ender_cons. apply H0. lia.
  - apply last_ender_cons. apply H0. lia.
  - apply last_ender_app. destruct H2; [congruence|assumption].
  - apply last_ender_cons, last_ender_app. eapply last_ender_one; [eassumption|reflexivity].
  - apply last_ender_cons, last_ender_app. eapply last_ender_one; [eassumption|reflexivity].
  - apply last_ender_cons, last_ender_app. eapply last_ender_one; [eassumption|reflexivity].
  - right. do 3 apply last_ender_cons. apply last_ender_app.
    destruct H2 as [->|X]; [inversion H1; subst; eapply last_ender_one; [eassumption|reflexivity]|now apply last_ender_cons].
  - right. apply last_ender_cons. apply last_ender_app.
    destruct H2 as [->|X]; [inversion H1; subst; eapply last_ender_one; [eassumption|reflexivity]|now apply last_ender_cons].
  - right. apply last_ender_cons. apply last_ender_app.
    destruct H2 as [->|X]; [inversion H1; subst; eapply last_ender_one; [eassumption|reflexivity]|now apply last_ender_cons].
Qed.
Lemma level_last lax k d n ts : level lax k d n ts -> 4 <= k -> last_ender ts.
Proof. apply grammar_lasts. Qed.

(** ** Expressions *)
Section EXPR.
Context (f : nat).
Hypothesis IHE : forall s, ends_eof (ptoks s) -> length (ptoks s) < f -> good (ptoks s) (PE s) (parse_expr f s).
Notation E := (parse_expr f).

Ltac eof := first [eassumption | eapply moved_eof; eassumption | now (eapply PE_eof; eassumption) | now (eapply PL_eof; eassumption)].
Ltac suffix := first [apply sfx_refl | eapply moved_sfx; eassumption].

Lemma use_E {B} L (R : ps -> B -> Prop) g s : ends_eof (ptoks s) -> length (ptoks s) < f -> sfx (ptoks s) L ->
  (forall s' n, PE s s' n -> good L R (g n s')) -> good L R (bind E g s).
Proof. intros A B' S H. apply (good_bind L (PE s)); [|exact H]. eapply good_weaken; [now apply IHE|exact S|auto]. Qed.

Definition PA (md : list_mode) (s0 s : ps) (l : list (option node * node)) : Prop :=
  exists ts, moved s0 ts (args_effect l) s /\ forall lax, okl lax s0 -> args lax md (avail s0) l ts.
Lemma list_ok md : forall fuel s, ends_eof (ptoks s) -> length (ptoks s) < f -> length (ptoks s) < fuel ->
  good (ptoks s) (PA md s) (parse_list E fuel md s).
Proof.
  induction fuel as [|fuel IH]; intros s Eo L1 L2; [lia|]. cbn [parse_list].
  apply use_E; auto; [suffix|]. intros s1 n H.
  destruct (is_empty n) eqn:En.
  { destruct (PE_empty _ _ _ H En) as (-> & -> & Q & A). exists []. split; [now apply moved_refl|].
    intros lax _. destruct (avail s); [lia|]. constructor. }
  destruct (PE_some _ _ _ H En) as (tn & Mn & Dn).
  (* what happens after an item *)
  assert (Rest : forall it ti s2, moved s ti (item_effect it) s2 -> ti <> [] -> (forall lax, okl lax s -> item lax md (avail s) it ti) ->
     good (ptoks s) (PA md s) ((do comma <- accept tok_comma; if comma then do l <- parse_list E fuel md; ret (it :: l) else ret [it]) s2)).
  { intros it ti s2 M Ne D. apply good_accept; [discriminate|eof| |].
    - intros _. exists ti. split; [|intros lax O; apply a_last; auto]. unfold args_effect. cbn [existsb]. rewrite orb_false_r. exact M.
    - intros k r P T Er. pose proof (moved_step _ _ _ _ _ _ M P Er) as M2.
      assert (Len := moved_len _ _ _ _ M2). rewrite app_length in Len. cbn in Len.
      apply (good_bind _ (PA md (after s2 r false))).
      + eapply good_weaken; [apply IH; [exact Er|cbn;lia|cbn;lia]|eapply moved_sfx; exact M2|auto].
      + intros s3 l (tl & M3 & D3). exists ((ti ++ [k]) ++ tl). split; [exact (moved_trans _ _ _ _ _ _ _ M2 M3)|].
        intros lax O. rewrite <- app_assoc. cbn [app]. apply a_cons; auto.
        specialize (D3 lax (moved_okl _ _ _ _ _ M2 O)). rewrite (moved_avail _ _ _ _ M2) in D3. exact D3. }
  assert (Nn : tn <> []).
  { destruct (expr_head _ _ _ _ (Dn true (or_introl eq_refl))) as (? & ? & -> & _). discriminate. }
  assert (Len := moved_len _ _ _ _ Mn).
  (* the value after a colon *)
  assert (Val : forall (R : option node * node -> Prop) k r, ptoks s1 = k :: r -> ends_eof r ->
     (forall v tv s3, moved s (tn ++ k :: tv) (item_effect (Some n, v)) s3 -> (forall lax, okl lax s -> expr lax (avail s) v tv) ->
        good (ptoks s) (PA md s) ((do comma <- accept tok_comma; if comma then do l <- parse_list E fuel md; ret ((Some n, v) :: l) else ret [(Some n, v)]) s3)) ->
     good (ptoks s) (PA md s) ((do it <- (do v <- E; if is_empty v then perr else ret (Some n, v));
        do comma <- accept tok_comma; if comma then do l <- parse_list E fuel md; ret (it :: l) else ret [it]) (after s1 r false))).
  { intros _ k r P Er H3. pose proof (moved_step _ _ _ _ _ _ Mn P Er) as M2.
    assert (Len2 := moved_len _ _ _ _ M2). rewrite app_length in Len2. cbn in Len2.
    apply (good_bind _ (fun s3 it => exists v tv, it = (Some n, v) /\ moved s (tn ++ k :: tv) (item_effect (Some n, v)) s3 /\ forall lax, okl lax s -> expr lax (avail s) v tv)).
    - apply use_E; [exact Er|cbn; lia|eapply moved_sfx; exact M2|]. intros s3 v Hv. destruct (is_empty v) eqn:Ev.
      + destruct (PE_eof _ _ _ Hv) as [X1 X2]. apply good_perr; [|exact X1]. eapply sfx_trans; [exact X2|]. eapply moved_sfx; exact M2.
      + destruct (PE_some _ _ _ Hv Ev) as (tv & Mv & Dv). exists v, tv. split; [reflexivity|]. split.
        * pose proof (moved_trans _ _ _ _ _ _ _ M2 Mv) as M3. rewrite <- app_assoc in M3. exact M3.
        * intros lax O. specialize (Dv lax (moved_okl _ _ _ _ _ M2 O)). rewrite (moved_avail _ _ _ _ M2) in Dv. exact Dv.
    - intros s3 it (v & tv & -> & M3 & D3). now apply (H3 v tv). }
  destruct md.
  - (* arrays *)
    unfold bind at 1. unfold ret at 1. unfold bind at 1. unfold ret at 1.
    apply (Rest (None, n) tn); auto. intros lax O. apply i_value; [discriminate|auto].
  - (* dictionaries *)
    unfold bind at 1.
    change (good (ptoks s) (PA mode_dictionary s) (bind (bind (expect tok_colon) (fun _ => ret true)) (fun have_colon =>
       do it <- (if (have_colon : bool) then do v <- E; if is_empty v then perr else ret (Some n, v) else ret (None, n));
       do comma <- accept tok_comma; if comma then do l <- parse_list E fuel mode_dictionary; ret (it :: l) else ret [it]) s1)).
    apply (good_bind _ (fun s2 b => b = true /\ exists k r, ptoks s1 = k :: r /\ ty k = tok_colon /\ ends_eof r /\ s2 = after s1 r false)).
    + apply good_expect; [discriminate|eof|suffix|]. intros k r P T Er. split; [reflexivity|]. exists k, r. auto.
    + intros s2 b (-> & k & r & P & T & Er & ->). apply (Val (fun _ => True) k); auto. intros v tv s3 M3 D3.
      apply (Rest (Some n, v) (tn ++ k :: tv)); auto; [now destruct tn|]. intros lax O. apply i_entry; auto.
  - (* arguments *)
    apply good_accept; [discriminate|eof| |].
    + intros _. unfold bind at 1. unfold ret at 1. apply (Rest (None, n) tn); auto. intros lax O. apply i_value; [discriminate|auto].
    + intros k r P T Er. pose proof (moved_step _ _ _ _ _ _ Mn P Er) as M2.
      assert (Other : good (ptoks s) (PA mode_arguments s) ((do it <- perr;
        do comma <- accept tok_comma; if comma then do l <- parse_list E fuel mode_arguments; ret (it :: l) else ret [it]) (after s1 r false))).
      { cbn. split; [exact (moved_sfx _ _ _ _ M2)|exact Er]. }
      destruct n; try exact Other. apply (Val (fun _ => True) k); auto. intros v tv s3 M3 D3.
      apply (Rest (Some (NId x), v) (tn ++ k :: tv)); auto; [now destruct tn|]. intros lax O. apply i_keyword; auto.
Qed.
Lemma use_list {B} L (R : ps -> B -> Prop) md fuel g s : ends_eof (ptoks s) -> length (ptoks s) < f -> length (ptoks s) < fuel ->
  sfx (ptoks s) L -> (forall s' l, PA md s s' l -> good L R (g l s')) -> good L R (bind (parse_list E fuel md) g s).
Proof. intros A B' C S H. apply (good_bind L (PA md s)); [|exact H]. eapply good_weaken; [now apply list_ok|exact S|auto]. Qed.

Lemma atom_ok s k r n : ptoks s = k :: r -> ends_eof r -> effectful n = false -> (forall lax, level lax 11 (avail s) n [k]) ->
  PL 11 s (after s r false) n.
Proof.
  intros P Er En D. right. exists [k]. split; [|auto]. rewrite En. refine (conj P (conj eq_refl Er)).
Qed.
Lemma e9_ok s : ends_eof (ptoks s) -> (forall k r, ptoks s = k :: r -> ty k <> tok_lparen /\ ty k <> tok_lbrack /\ ty k <> tok_lcurl) ->
  good (ptoks s) (PL 11 s) (parse_e9 s).
Proof.
  intros Eo N. unfold parse_e9.
  apply good_accept; [discriminate|assumption| |intros; eapply atom_ok; eauto; intros; now constructor]. intros N1.
  apply good_accept; [discriminate|assumption| |intros; eapply atom_ok; eauto; intros; now constructor]. intros N2.
  apply good_data; [discriminate|assumption| |intros; eapply atom_ok; eauto; intros; now constructor]. intros N3.
  apply good_data; [discriminate|assumption| |intros; eapply atom_ok; eauto; intros; now constructor]. intros N4.
  apply good_data; [discriminate|assumption| |intros; eapply atom_ok; eauto; intros; now constructor]. intros N5.
  left. refine (conj eq_refl (conj eq_refl (conj Eo _))). destruct (ptoks s) as [|h r] eqn:P; [now apply ends_eof_ne in Eo|].
  exists h, r. split; [reflexivity|]. destruct (N h r eq_refl) as (N6 & N7 & N8).
  specialize (N1 h r eq_refl). specialize (N2 h r eq_refl). specialize (N3 h r eq_refl). specialize (N4 h r eq_refl). specialize (N5 h r eq_refl).
  split; [destruct (ty h); cbn; congruence|]. split; [lia|]. intros j C. destruct (ty h); cbn in C; try discriminate C; injection C as <-; lia.
Qed.
Lemma e8_ok fuel s : ends_eof (ptoks s) -> length (ptoks s) <= f -> length (ptoks s) <= fuel ->
  good (ptoks s) (PL 11 s) (parse_e8 E fuel s).
Proof.
  intros Eo L1 L2. unfold parse_e8.
  apply good_accept; [discriminate|assumption| |].
  2:{ intros k r P T Er. pose proof (moved_step _ _ _ _ _ _ (moved_refl _ Eo) P Er) as M1. cbn [app] in M1.
      assert (Len := moved_len _ _ _ _ M1). cbn [length] in Len.
      apply use_E; [exact Er|lia|eapply moved_sfx; exact M1|]. intros s2 n Hn. destruct (PE_eof _ _ _ Hn) as [X1 X2].
      apply good_expect; [discriminate|exact X1|eapply sfx_trans; [exact X2|eapply moved_sfx; exact M1]|].
      intros c r2 P2 T2 Er2. destruct (is_empty n) eqn:En.
      - apply good_perr; [|exact Er2]. cbn. apply (sfx_trans _ (ptoks s2)); [rewrite P2; apply sfx_cons|].
        eapply sfx_trans; [exact X2|]. eapply moved_sfx; exact M1.
      - destruct (PE_some _ _ _ Hn En) as (tn & Mn & Dn). right. exists (k :: tn ++ [c]). split.
        + exact (moved_step _ _ _ _ _ _ (moved_trans _ _ _ _ _ _ _ M1 Mn) P2 Er2).
        + intros lax O. specialize (Dn lax (moved_okl _ _ _ _ _ M1 O)). rewrite (moved_avail _ _ _ _ M1) in Dn. now apply l_paren. }
  intros N1. apply good_accept; [discriminate|assumption| |].
  2:{ intros k r P T Er. pose proof (moved_step _ _ _ _ _ _ (moved_refl _ Eo) P Er) as M1. cbn [app] in M1.
      assert (Len := moved_len _ _ _ _ M1). cbn [length] in Len.
      apply use_list; [exact Er|lia|lia|eapply moved_sfx; exact M1|]. intros s2 l (tl & Ml & Dl).
      pose proof (moved_trans _ _ _ _ _ _ _ M1 Ml) as M2.
      apply good_expect; [discriminate|eof|suffix|].
      intros c r2 P2 T2 Er2. right. exists (k :: tl ++ [c]). split.
      + exact (moved_step _ _ _ _ _ _ M2 P2 Er2).
      + intros lax O. specialize (Dl lax (moved_okl _ _ _ _ _ M1 O)). rewrite (moved_avail _ _ _ _ M1) in Dl. now apply l_array. }
  intros N2. apply good_accept; [discriminate|assumption| |].
  2:{ intros k r P T Er. pose proof (moved_step _ _ _ _ _ _ (moved_refl _ Eo) P Er) as M1. cbn [app] in M1.
      assert (Len := moved_len _ _ _ _ M1). cbn [length] in Len.
      apply use_list; [exact Er|lia|lia|eapply moved_sfx; exact M1|]. intros s2 l (tl & Ml & Dl).
      pose proof (moved_trans _ _ _ _ _ _ _ M1 Ml) as M2.
      apply good_expect; [discriminate|eof|suffix|].
      intros c r2 P2 T2 Er2. right. exists (k :: tl ++ [c]). split.
      + exact (moved_step _ _ _ _ _ _ M2 P2 Er2).
      + intros lax O. specialize (Dl lax (moved_okl _ _ _ _ _ M1 O)). rewrite (moved_avail _ _ _ _ M1) in Dl. now apply l_dict. }
  intros N3. apply e9_ok; [assumption|]. intros k r P. refine (conj _ (conj _ _)); eauto.
Qed.

(** links: [p] is the token before them *)
Definition PK (s0 s : ps) (l : list link) : Prop :=
  exists ts, moved s0 ts (links_effect l) s /\ forall lax, okl lax s0 -> links lax (avail s0) l ts.
Lemma chained_ok : forall fuel p s, ender (ty p) = true -> ends_eof (ptoks s) -> length (ptoks s) <= f -> length (ptoks s) < fuel ->
  good (p :: ptoks s) (PK s) (parse_chained E fuel false s).
Proof.
  induction fuel as [|fuel IH]; intros p s Hp Eo L1 L2; [lia|]. cbn [parse_chained].
  assert (Next : forall k tk c (e : bool) s1, moved s (tk ++ [c]) e s1 -> ender (ty c) = true ->
      (match k with LIndex i => effectful i | _ => true end = e) ->
      (forall lax ls tl, okl lax s -> links lax (avail s) ls tl -> links lax (avail s) (k :: ls) (tk ++ c :: tl)) ->
      good (p :: ptoks s) (PK s) ((do l <- parse_chained E fuel false; ret (k :: l)) s1)).
  { intros k tk c e s1 M1 Ec Ee D. assert (Len := moved_len _ _ _ _ M1). rewrite app_length in Len. cbn in Len.
    apply (good_bind _ (PK s1)).
    - eapply good_weaken; [apply (IH c); [exact Ec|eof|lia|lia]| |auto].
      destruct M1 as (M1 & _). rewrite M1. exists (p :: tk). rewrite <- app_assoc. reflexivity.
    - intros s2 l (tl & M2 & D2). exists (tk ++ c :: tl). split.
      + pose proof (moved_trans _ _ _ _ _ _ _ M1 M2) as M3. rewrite <- app_assoc in M3. unfold links_effect. cbn [existsb]. rewrite Ee. exact M3.
      + intros lax O. apply D; [assumption|]. specialize (D2 lax (moved_okl _ _ _ _ _ M1 O)). rewrite (moved_avail _ _ _ _ M1) in D2. exact D2. }
  assert (Sp : forall s1 ts e, moved s ts e s1 -> sfx (ptoks s1) (p :: ptoks s)).
  { intros s1 ts e M. eapply sfx_trans; [eapply moved_sfx; exact M|apply sfx_cons]. }
  apply good_accept; [discriminate|assumption| |].
  2:{ (* a method *)
      intros k r P T Er. pose proof (moved_step _ _ _ _ _ _ (moved_refl _ Eo) P Er) as M1. cbn [app] in M1.
      assert (Len := moved_len _ _ _ _ M1). cbn [length] in Len.
      apply (good_bind _ (fun s2 (x : link) => exists l i o c tl, x = LMethod (str i) l /\ moved s ((k :: i :: o :: tl) ++ [c]) true s2
          /\ ty i = tok_identifier /\ ty o = tok_lparen /\ ty c = tok_rparen
          /\ forall lax, okl lax s -> args lax mode_arguments (avail s) l tl)).
      - unfold parse_method. unfold bind at 1, modify.
        pose proof (moved_effect _ _ _ _ M1) as M1'. set (s1 := with_effect true _) in *. clearbody s1.
        apply good_data; [discriminate|eof| |]; [intros _; apply good_perr; [eapply Sp; exact M1'|eof]|].
        intros i r2 P2 T2 Er2. pose proof (moved_step _ _ _ _ _ _ M1' P2 Er2) as M2. set (s2 := after s1 r2 false) in *. clearbody s2.
        apply good_expect; [discriminate|eof|eapply Sp; exact M2|].
        intros o r3 P3 T3 Er3. pose proof (moved_step _ _ _ _ _ _ M2 P3 Er3) as M3. set (s3 := after s2 r3 false) in *. clearbody s3.
        assert (Len3 := moved_len _ _ _ _ M3). cbn in Len3.
        apply use_list; [eof|lia|lia|eapply Sp; exact M3|]. intros s4 l (tl & Ml & Dl).
        pose proof (moved_trans _ _ _ _ _ _ _ M3 Ml) as M4. cbn [orb] in M4.
        apply good_expect; [discriminate|eof|eapply Sp; exact M4|].
        intros c r5 P5 T5 Er5. pose proof (moved_step _ _ _ _ _ _ M4 P5 Er5) as M5.
        exists l, i, o, c, tl. split; [reflexivity|]. split; [exact M5|]. refine (conj T2 (conj T3 (conj T5 _))).
        intros lax O. specialize (Dl lax (moved_okl _ _ _ _ _ M3 O)). rewrite (moved_avail _ _ _ _ M3) in Dl. exact Dl.
      - intros s2 x (l & i & o & c & tl & -> & M & Ti & To & Tc & D).
        apply (Next _ (k :: i :: o :: tl) c true); [exact M|now rewrite Tc|reflexivity|].
        intros lax ls tl' O H. cbn [app]. apply k_method; auto. }
  intros N1. apply good_accept; [discriminate|assumption| |].
  2:{ (* an index *)
      intros k r P T Er. pose proof (moved_step _ _ _ _ _ _ (moved_refl _ Eo) P Er) as M1. cbn [app] in M1.
      assert (Len := moved_len _ _ _ _ M1). cbn [length] in Len.
      apply (good_bind _ (fun s2 (x : link) => exists n c tn, x = LIndex n /\ moved s ((k :: tn) ++ [c]) (effectful n) s2
          /\ ty c = tok_rbrack /\ forall lax, okl lax s -> expr lax (avail s) n tn)).
      - unfold parse_index. apply use_E; [exact Er|lia|eapply Sp; exact M1|].
        intros s2 n Hn. destruct (is_empty n) eqn:En.
        + destruct (PE_empty _ _ _ Hn En) as (-> & -> & (h & r' & Eh & Q1 & Q2 & Q3) & _). cbn in Eh.
          exists [], p, k, h, r'. cbn. rewrite P, Eh. refine (conj eq_refl (conj Hp (conj T _))).
          split; [|apply Q2; lia]. destruct (cont (ty h)) eqn:C; [|reflexivity]. apply Q3 in C. lia.
        + destruct (PE_some _ _ _ Hn En) as (tn & Mn & Dn).
          pose proof (moved_trans _ _ _ _ _ _ _ M1 Mn) as M2. cbn [orb] in M2.
          apply good_expect; [discriminate|eof|eapply Sp; exact M2|].
          intros c r2 P2 T2 Er2. exists n, c, tn. split; [reflexivity|]. split; [exact (moved_step _ _ _ _ _ _ M2 P2 Er2)|]. split; [exact T2|].
          intros lax O. specialize (Dn lax (moved_okl _ _ _ _ _ M1 O)). rewrite (moved_avail _ _ _ _ M1) in Dn. exact Dn.
      - intros s2 x (n & c & tn & -> & M & Tc & D).
        apply (Next _ (k :: tn) c (effectful n)); [exact M|now rewrite Tc|reflexivity|].
        intros lax ls tl' O H. cbn [app]. apply k_index; auto. }
  intros N2. apply good_accept; [discriminate|assumption| |].
  2:{ (* a call *)
      intros k r P T Er. pose proof (moved_step _ _ _ _ _ _ (moved_refl _ Eo) P Er) as M1. cbn [app] in M1.
      assert (Len := moved_len _ _ _ _ M1). cbn [length] in Len.
      unfold bind at 1, modify. pose proof (moved_effect _ _ _ _ M1) as M1'. set (s1 := with_effect true _) in *. clearbody s1.
      assert (Len' := moved_len _ _ _ _ M1'). cbn [length] in Len'.
      apply use_list; [eof|lia|lia|eapply Sp; exact M1'|]. intros s4 l (tl & Ml & Dl).
      pose proof (moved_trans _ _ _ _ _ _ _ M1' Ml) as M4. cbn [orb] in M4.
      apply good_expect; [discriminate|eof|eapply Sp; exact M4|].
      intros c r5 P5 T5 Er5. pose proof (moved_step _ _ _ _ _ _ M4 P5 Er5) as M5.
      apply (Next _ (k :: tl) c true); [exact M5|now rewrite T5|reflexivity|].
      intros lax ls tl' O H. cbn [app]. apply k_call; auto.
      specialize (Dl lax (moved_okl _ _ _ _ _ M1' O)). rewrite (moved_avail _ _ _ _ M1') in Dl. exact Dl. }
  intros N3. exists []. split; [now apply moved_refl|]. intros lax _. constructor.
Qed.

Lemma quietl_up k s : 1 <= k -> quietl (S k) (ptoks s) -> (forall h r, ptoks s = h :: r -> cont (ty h) <> Some k) ->
  (k = 9 -> forall h r, ptoks s = h :: r -> starts_unary (ty h) = false) -> quietl k (ptoks s).
Proof.
  intros K (h & r & P & A & B' & C) N1 N2. exists h, r. split; [exact P|]. split; [exact A|]. split.
  - intros L. destruct (Nat.eq_dec k 9); [eapply N2; eauto|]. apply B'. lia.
  - intros j Cj. specialize (C j Cj). destruct (Nat.eq_dec j k) as [->|]; [|lia]. now apply (N1 h r) in P.
Qed.
Lemma PL_up k s0 s n : 1 <= k -> PL (S k) s0 s n -> ((forall h r, ptoks s0 = h :: r -> starts (ty h) = false -> cont (ty h) <> Some k) \/ is_empty n = false) ->
  (k = 9 -> forall h r, ptoks s0 = h :: r -> starts (ty h) = false -> starts_unary (ty h) = false) -> PL k s0 s n.
Proof.
  intros K [(-> & -> & Eo & Q)|(ts & M & D)] N1 N2.
  - left. refine (conj eq_refl (conj eq_refl (conj Eo _))). destruct Q as (h & r & P & Q1 & Q2 & Q3).
    apply quietl_up; [exact K|now exists h, r| |].
    + intros h' r' P'. destruct N1 as [N1|N1]; [|discriminate N1]. apply (N1 h' r' P'). congruence.
    + intros K9 h' r' P'. apply (N2 K9 h' r' P'). congruence.
  - right. exists ts. split; [exact M|]. intros lax O. apply l_up; auto.
Qed.

Lemma e7_ok fuel s : ends_eof (ptoks s) -> length (ptoks s) <= f -> length (ptoks s) < fuel ->
  good (ptoks s) (PL 10 s) (parse_e7 E fuel s).
Proof.
  intros Eo L1 L2. unfold parse_e7. apply (good_bind _ (PL 11 s)); [apply e8_ok; auto; lia|].
  intros s1 h H. destruct (is_empty h) eqn:Eh.
  - destruct (PL_empty _ _ _ _ H Eh) as (-> & -> & Q). destruct fuel as [|fuel]; [lia|]. cbn [parse_chained].
    apply (good_bind _ (fun s1 l => s1 = s /\ l = [] /\ forall h r, ptoks s = h :: r -> ty h <> tok_dot /\ ty h <> tok_lbrack /\ ty h <> tok_lparen)).
    + assert (X : forall k r, ptoks s = k :: r -> ends_eof r -> good (ptoks s) (fun s1 (l : list link) => s1 = s /\ l = [] /\ forall h r, ptoks s = h :: r -> ty h <> tok_dot /\ ty h <> tok_lbrack /\ ty h <> tok_lparen) (perr (after s r false))).
      { intros k r P Er. apply good_perr; [cbn; rewrite P; apply sfx_cons|exact Er]. }
      apply good_accept; [discriminate|assumption| |eauto]. intros N1.
      apply good_accept; [discriminate|assumption| |eauto]. intros N2.
      apply good_accept; [discriminate|assumption| |eauto]. intros N3.
      refine (conj eq_refl (conj eq_refl _)). intros k r P. refine (conj _ (conj _ _)); eauto.
    + intros s1 l (-> & -> & N). apply PL_up; [lia|now left| |lia]. left. intros h r P _ C. destruct (N h r P) as (N1 & N2 & N3).
      destruct (ty h); cbn in C; try discriminate C; congruence.
  - destruct (PL_some _ _ _ _ H Eh) as (th & Mh & Dh).
    destruct (level_last _ _ _ _ _ (Dh true (or_introl eq_refl)) ltac:(lia)) as (a & p & Et & Ep).
    assert (Len := moved_len _ _ _ _ Mh).
    apply (good_bind _ (PK s1)).
    + eapply good_weaken; [apply (chained_ok fuel p); [exact Ep|eof|lia|lia]| |auto].
      destruct Mh as (Mh & _). rewrite Mh, Et. exists a. now rewrite <- app_assoc.
    + intros s2 l (tl & Ml & Dl). pose proof (moved_trans _ _ _ _ _ _ _ Mh Ml) as M. right. exists (th ++ tl).
      destruct l as [|x l].
      * pose proof (Dl true (or_introl eq_refl)) as X. inversion X; subst. rewrite app_nil_r in *. cbn in M. rewrite orb_false_r in M.
        split; [exact M|]. intros lax O. apply l_up; [lia|auto].
      * split; [exact M|]. intros lax O. apply l_chain; [auto| |discriminate].
        specialize (Dl lax (moved_okl _ _ _ _ _ Mh O)). rewrite (moved_avail _ _ _ _ Mh) in Dl. exact Dl.
Qed.

Lemma e6_ok fuel s : ends_eof (ptoks s) -> length (ptoks s) <= f -> length (ptoks s) < fuel ->
  good (ptoks s) (PL 9 s) (parse_e6 E fuel s).
Proof.
  intros Eo L1 L2. unfold parse_e6.
  assert (U : forall (g : node -> node) k r, ptoks s = k :: r -> ends_eof r -> (forall n, effectful (g n) = effectful n) ->
     (forall lax n ts, level lax 10 (avail s) n ts -> level lax 9 (avail s) (g n) (k :: ts)) ->
     good (ptoks s) (PL 9 s) ((do n <- parse_e7 E fuel; if is_empty n then perr else ret (g n)) (after s r false))).
  { intros g k r P Er Eg D. pose proof (moved_step _ _ _ _ _ _ (moved_refl _ Eo) P Er) as M1. cbn [app] in M1.
    assert (Len := moved_len _ _ _ _ M1). cbn [length] in Len.
    apply (good_bind _ (PL 10 (after s r false))).
    - eapply good_weaken; [apply e7_ok; [exact Er|lia|lia]|eapply moved_sfx; exact M1|auto].
    - intros s2 n Hn. destruct (is_empty n) eqn:En.
      + destruct (PL_eof _ _ _ _ Hn) as [X1 X2]. apply good_perr; [|exact X1]. eapply sfx_trans; [exact X2|]. eapply moved_sfx; exact M1.
      + destruct (PL_some _ _ _ _ Hn En) as (tn & Mn & Dn). right. exists (k :: tn). split.
        * rewrite Eg. exact (moved_trans _ _ _ _ _ _ _ M1 Mn).
        * intros lax O. apply D. specialize (Dn lax (moved_okl _ _ _ _ _ M1 O)). rewrite (moved_avail _ _ _ _ M1) in Dn. exact Dn. }
  apply good_accept; [discriminate|assumption| |intros k r P T Er; apply (U NNot k r); auto; intros; now apply l_not]. intros N1.
  apply good_accept; [discriminate|assumption| |intros k r P T Er; apply (U NMinus k r); auto; intros; now apply l_minus]. intros N2.
  apply good_accept; [discriminate|assumption| |intros k r P T Er; apply (U NStringify k r); auto; intros; now apply l_stringify]. intros N3.
  eapply good_weaken; [now apply e7_ok|apply sfx_refl|]. intros s1 n H.
  assert (Em : is_empty n = true -> forall h r, ptoks s = h :: r -> starts (ty h) = false).
  { intros En h r P. destruct (PL_empty _ _ _ _ H En) as (_ & _ & h' & r' & P' & Q & _). congruence. }
  apply PL_up; [lia|exact H| |].
  - left. intros h r P _ C. destruct (ty h); discriminate C.
  - intros _ h r P Es. specialize (N1 h r P). specialize (N2 h r P). specialize (N3 h r P). unfold starts_unary. rewrite Es.
    destruct (ty h); try reflexivity; congruence.
Qed.

Lemma arith_loop_ok k op upper F : 4 <= k <= 8 -> op_of k = op ->
  (forall s, ends_eof (ptoks s) -> length (ptoks s) <= f -> length (ptoks s) < F -> good (ptoks s) (PL (S k) s) (upper s)) ->
  forall fuel s0 s l, length (ptoks s0) <= f -> length (ptoks s0) < F -> length (ptoks s) < fuel ->
  ((l = NEmpty /\ s = s0 /\ ends_eof (ptoks s0) /\ quietl (S k) (ptoks s0))
   \/ (exists ts, moved s0 ts (effectful l) s /\ forall lax, okl lax s0 -> level lax k (avail s0) l ts)) ->
  good (ptoks s0) (PL k s0) (arith_loop upper op fuel l s).
Proof.
  intros K Eop U. pose proof (op_of_cont _ K) as Co. rewrite Eop in Co.
  assert (Epr : prec op = k) by (do 9 (destruct k as [|k]; [try lia; subst op; reflexivity|]); lia).
  destruct (prec_op op) as (_ & _ & Es & _).
  induction fuel as [|fuel IH]; intros s0 s l L0 LF L1 H; [lia|]. cbn [arith_loop].
  assert (Eo : ends_eof (ptoks s)) by (destruct H as [(_ & -> & Eo & _)|(ts & M & _)]; [exact Eo|eof]).
  assert (Sx : sfx (ptoks s) (ptoks s0)) by (destruct H as [(_ & -> & _)|(ts & M & _)]; [apply sfx_refl|suffix]).
  apply good_accept; [now destruct op|assumption| |].
  - intros N. destruct H as [(-> & -> & _ & Q)|(ts & M & D)].
    + left. refine (conj eq_refl (conj eq_refl (conj Eo _))). apply quietl_up; [lia|exact Q| |lia].
      intros h r P C. apply (N h r P). destruct (ty h), op; cbn in C, Co |- *; congruence.
    + right. now exists ts.
  - intros o r P T Er. assert (Lr : length (ptoks s) = S (length r)) by now rewrite P. pose proof (sfx_len _ _ Sx) as Ls.
    apply (good_bind _ (PL (S k) (after s r false))).
    { eapply good_weaken; [apply U; [exact Er|cbn; lia|cbn; lia]| |auto]. cbn. eapply sfx_trans; [|exact Sx]. rewrite P. apply sfx_cons. }
    intros s2 b Hb. destruct (PL_eof _ _ _ _ Hb) as [X1 X2].
    assert (Sx2 : sfx (ptoks s2) (ptoks s0)).
    { eapply sfx_trans; [exact X2|]. cbn. eapply sfx_trans; [|exact Sx]. rewrite P. apply sfx_cons. }
    unfold check_binary. destruct (is_empty l) eqn:El; [cbn [orb]; now split|]. destruct (is_empty b) eqn:Eb; [cbn [orb]; now split|].
    cbn [orb]. unfold bind at 1. unfold ret at 1.
    destruct H as [(-> & _)|(ts & M & D)]; [discriminate El|]. destruct (PL_some _ _ _ _ Hb Eb) as (tb & Mb & Db).
    pose proof (moved_step _ _ _ _ _ _ M P Er) as M1. pose proof (moved_trans _ _ _ _ _ _ _ M1 Mb) as M2.
    pose proof (sfx_len _ _ X2) as L2. cbn in L2.
    apply IH; [exact L0|exact LF|lia|]. right. exists ((ts ++ [o]) ++ tb). split; [exact M2|]. intros lax O. rewrite <- app_assoc. cbn [app].
    rewrite <- Epr. apply l_arith; [rewrite Epr; auto| |congruence].
    specialize (Db lax (moved_okl _ _ _ _ _ M1 O)). rewrite (moved_avail _ _ _ _ M1) in Db. rewrite Epr. exact Db.
Qed.
Lemma arith_ok fuel : forall j k, k + j = 9 -> 4 <= k -> forall s, ends_eof (ptoks s) -> length (ptoks s) <= f -> length (ptoks s) < fuel ->
  good (ptoks s) (PL k s) (parse_arith E fuel (ops_from k) s).
Proof.
  induction j as [|j IH]; intros k Ej K s Eo L1 L2.
  - replace k with 9 by lia. now apply e6_ok.
  - assert (Eops : ops_from k = op_of k :: ops_from (S k)) by (do 9 (destruct k as [|k]; [try lia; reflexivity|]); lia).
    rewrite Eops. cbn [parse_arith]. 
    apply (good_bind _ (PL (S k) s)); [apply IH; auto; lia|]. intros s1 l H.
    destruct (PL_eof _ _ _ _ H) as [X1 X2]. pose proof (sfx_len _ _ X2).
    apply (arith_loop_ok k _ _ fuel); [lia|reflexivity| |lia|lia|lia|].
    + intros s2 A B' C. apply IH; auto; lia.
    + destruct H as [H|(ts & M & D)]; [now left|]. right. exists ts. split; [exact M|]. intros lax O. apply l_up; [lia|auto].
Qed.
Lemma e5_ok fuel s : ends_eof (ptoks s) -> length (ptoks s) <= f -> length (ptoks s) < fuel ->
  good (ptoks s) (PL 4 s) (parse_e5 E fuel s).
Proof. apply (arith_ok fuel 5 4); lia. Qed.

Lemma e4_ok fuel s : ends_eof (ptoks s) -> length (ptoks s) <= f -> length (ptoks s) < fuel ->
  good (ptoks s) (PL 3 s) (parse_e4 E fuel s).
Proof.
  intros Eo L1 L2. unfold parse_e4. apply (good_bind _ (PL 4 s)); [now apply e5_ok|]. intros s1 l H.
  destruct (PL_eof _ _ _ _ H) as [X1 X2]. pose proof (sfx_len _ _ X2) as Ls.
  assert (MC : forall c o s2, sfx (o ++ ptoks s2) (ptoks s1) -> (forall ts, moved s ts (effectful l) s1 -> moved s (ts ++ o) (effectful l) s2) ->
     ends_eof (ptoks s2) -> o <> [] -> map ty o = compare_signs c ->
     good (ptoks s) (PL 3 s) (make_comparison E fuel l c s2)).
  { intros c o s2 Sx Mv Eo2 No To. unfold make_comparison.
    assert (Sx2 : sfx (ptoks s2) (ptoks s)).
    { eapply sfx_trans; [|exact X2]. eapply sfx_trans; [|exact Sx]. now exists o. }
    pose proof (sfx_len _ _ Sx2) as Ls2.
    apply (good_bind _ (PL 4 s2)); [eapply good_weaken; [apply e5_ok; [exact Eo2|lia|lia]|exact Sx2|auto]|].
    intros s3 b Hb. destruct (PL_eof _ _ _ _ Hb) as [Y1 Y2]. pose proof (sfx_trans _ _ _ Y2 Sx2) as Y3.
    unfold check_binary. destruct (is_empty l) eqn:El; [cbn [orb]; now split|]. destruct (is_empty b) eqn:Eb; [cbn [orb]; now split|].
    cbn [orb]. unfold bind at 1. unfold ret at 1.
    destruct (PL_some _ _ _ _ H El) as (ts & M & D). destruct (PL_some _ _ _ _ Hb Eb) as (tb & Mb & Db).
    pose proof (Mv _ M) as M1. pose proof (moved_trans _ _ _ _ _ _ _ M1 Mb) as M2.
    right. exists ((ts ++ o) ++ tb). split; [exact M2|]. intros lax O. rewrite <- app_assoc. apply l_compare; auto.
    specialize (Db lax (moved_okl _ _ _ _ _ M1 O)). rewrite (moved_avail _ _ _ _ M1) in Db. exact Db. }
  assert (MC1 : forall c k r, ptoks s1 = k :: r -> ends_eof r -> [ty k] = compare_signs c ->
     good (ptoks s) (PL 3 s) (make_comparison E fuel l c (after s1 r false))).
  { intros c k r P Er T. apply (MC c [k]); [cbn; rewrite P; apply sfx_refl| |exact Er|discriminate|exact T].
    intros ts M. exact (moved_step _ _ _ _ _ _ M P Er). }
  unfold comparisons. cbn [try_comparisons].
  apply good_accept; [discriminate|exact X1| |intros k r P T Er; apply (MC1 _ k); auto; now rewrite T]. intros N1.
  apply good_accept; [discriminate|exact X1| |intros k r P T Er; apply (MC1 _ k); auto; now rewrite T]. intros N2.
  apply good_accept; [discriminate|exact X1| |intros k r P T Er; apply (MC1 _ k); auto; now rewrite T]. intros N3.
  apply good_accept; [discriminate|exact X1| |intros k r P T Er; apply (MC1 _ k); auto; now rewrite T]. intros N4.
  apply good_accept; [discriminate|exact X1| |intros k r P T Er; apply (MC1 _ k); auto; now rewrite T]. intros N5.
  apply good_accept; [discriminate|exact X1| |intros k r P T Er; apply (MC1 _ k); auto; now rewrite T]. intros N6.
  apply good_accept; [discriminate|exact X1| |intros k r P T Er; apply (MC1 _ k); auto; now rewrite T]. intros N7.
  apply good_accept; [discriminate|exact X1| |].
  - intros N8. destruct (is_empty l) eqn:El; [|apply PL_up; [lia|exact H|now right|lia]].
    destruct (PL_empty _ _ _ _ H El) as (-> & -> & _). apply PL_up; [lia|exact H| |lia].
    left. intros h r P _ C. specialize (N1 h r P). specialize (N2 h r P). specialize (N3 h r P). specialize (N4 h r P). specialize (N5 h r P).
    specialize (N6 h r P). specialize (N7 h r P). specialize (N8 h r P). destruct (ty h); cbn in C; try discriminate C; congruence.
  - intros k r P T Er. apply good_accept; [discriminate|exact Er| |].
    + (* a stray not *)
      intros Ni. destruct (is_empty l) eqn:El.
      { destruct (PL_empty _ _ _ _ H El) as (-> & -> & h & r' & P' & _ & Q & _). specialize (Q ltac:(lia)).
        rewrite P in P'. injection P' as <- <-. rewrite T in Q. discriminate Q. }
      destruct (PL_some _ _ _ _ H El) as (ts & M & D). right. exists (ts ++ [k]). split; [exact (moved_step _ _ _ _ _ _ M P Er)|].
      intros lax [->|O]; [apply l_stray; auto; apply D; now left|]. exfalso. apply O.
      destruct (level_last _ _ _ _ _ (D true (or_introl eq_refl)) (le_n _)) as (a & p & Et & Ep).
      destruct r as [|h r]; [now apply ends_eof_ne in Er|]. destruct M as (M & _). exists a, p, k, h, r.
      rewrite M, P, Et, <- app_assoc. refine (conj eq_refl (conj Ep (conj T _))). apply (Ni h r eq_refl).
    + intros i r2 P2 T2 Er2. apply (MC comp_not_in [k; i]); [cbn in P2 |- *; rewrite P, P2; apply sfx_refl| |exact Er2|discriminate|cbn; now rewrite T, T2].
      intros ts M. pose proof (moved_step _ _ _ _ _ _ (moved_step _ _ _ _ _ _ M P Er) P2 Er2) as X. rewrite <- app_assoc in X. exact X.
Qed.

(** or and and *)
Lemma right_ok k t (mk : node -> node -> node) lower (self : nat -> P node) F : 1 <= k -> t <> tok_eof -> cont t = Some k ->
  (forall j, cont j = Some k -> j = t) -> k <> 9 ->
  (forall a b, effectful (mk a b) = effectful a || effectful b) ->
  (forall lax d a b ta tb o, level lax (S k) d a ta -> level lax k d b tb -> ty o = t -> level lax k d (mk a b) (ta ++ o :: tb)) ->
  (forall s, ends_eof (ptoks s) -> length (ptoks s) <= f -> length (ptoks s) < F -> good (ptoks s) (PL (S k) s) (lower s)) ->
  (forall s, self 0 s = PNoFuel) ->
  (forall n s, self (S n) s = (do l <- lower; do b <- accept t; if b then do r <- self n; check_binary l r;; ret (mk l r) else ret l) s) ->
  forall n s, ends_eof (ptoks s) -> length (ptoks s) <= f -> length (ptoks s) < F -> length (ptoks s) < n ->
  good (ptoks s) (PL k s) (self n s).
Proof.
  intros K Nt Ct Ut K9 Em Dm Lo S0 SS. induction n as [|n IH]; intros s Eo L1 L2 L3; [lia|]. rewrite SS.
  apply (good_bind _ (PL (S k) s)); [now apply Lo|]. intros s1 l H.
  destruct (PL_eof _ _ _ _ H) as [X1 X2]. pose proof (sfx_len _ _ X2) as Ls.
  apply good_accept; [exact Nt|exact X1| |].
  - intros N. destruct (is_empty l) eqn:El; [|apply PL_up; [lia|exact H|now right|lia]].
    destruct (PL_empty _ _ _ _ H El) as (-> & -> & _). apply PL_up; [lia|exact H| |lia].
    left. intros h r P _ C. apply (N h r P). auto.
  - intros o r P T Er. assert (Lr : length (ptoks s1) = S (length r)) by now rewrite P.
    assert (Sr : sfx r (ptoks s)) by (eapply sfx_trans; [|exact X2]; rewrite P; apply sfx_cons).
    apply (good_bind _ (PL k (after s1 r false))).
    { eapply good_weaken; [apply IH; [exact Er|cbn; lia|cbn; lia|cbn; lia]|exact Sr|auto]. }
    intros s3 b Hb. destruct (PL_eof _ _ _ _ Hb) as [Y1 Y2]. pose proof (sfx_trans _ _ _ Y2 Sr) as Y3.
    unfold check_binary. destruct (is_empty l) eqn:El; [cbn [orb]; now split|]. destruct (is_empty b) eqn:Eb; [cbn [orb]; now split|].
    cbn [orb]. unfold bind at 1. unfold ret at 1.
    destruct (PL_some _ _ _ _ H El) as (ts & M & D). destruct (PL_some _ _ _ _ Hb Eb) as (tb & Mb & Db).
    pose proof (moved_step _ _ _ _ _ _ M P Er) as M1. pose proof (moved_trans _ _ _ _ _ _ _ M1 Mb) as M2.
    right. exists ((ts ++ [o]) ++ tb). split; [rewrite Em; exact M2|]. intros lax O. rewrite <- app_assoc. apply Dm; auto.
    specialize (Db lax (moved_okl _ _ _ _ _ M1 O)). rewrite (moved_avail _ _ _ _ M1) in Db. exact Db.
Qed.
Lemma e3_ok fuel : forall n s, ends_eof (ptoks s) -> length (ptoks s) <= f -> length (ptoks s) < fuel -> length (ptoks s) < n ->
  good (ptoks s) (PL 2 s) (parse_e3 E n fuel s).
Proof.
  apply (right_ok 2 tok_and NAnd (parse_e4 E fuel) (fun n => parse_e3 E n fuel) fuel); auto; try discriminate; try reflexivity.
  - intros j C. destruct j; cbn in C; congruence.
  - intros. now apply l_and.
  - intros. now apply e4_ok.
Qed.
Lemma e2_ok fuel : forall n s, ends_eof (ptoks s) -> length (ptoks s) <= f -> length (ptoks s) < fuel -> length (ptoks s) < n ->
  good (ptoks s) (PL 1 s) (parse_e2 E n fuel s).
Proof.
  apply (right_ok 1 tok_or NOr (parse_e3 E fuel fuel) (fun n => parse_e2 E n fuel) fuel); auto; try discriminate; try reflexivity.
  - intros j C. destruct j; cbn in C; congruence.
  - intros. now apply l_or.
  - intros. now apply e3_ok.
Qed.
End EXPR.

Lemma stray_depth s d : okl false (with_depth d s) <-> okl false s.
Proof. reflexivity. Qed.
Theorem expr_ok : forall f s, ends_eof (ptoks s) -> length (ptoks s) < f -> good (ptoks s) (PE s) (parse_expr f s).
Proof.
  induction f as [|f IH]; intros s Eo L; [lia|]. cbn [parse_expr]. unfold at_depth. cbn [depth with_depth].
  destruct (N.ltb_spec 4096 (depth s + 1)) as [X|X]; [now split; [apply sfx_refl|]|].
  set (s1 := with_depth (depth s + 1)%N s).
  assert (A : avail s = S (avail s1)) by (unfold avail, s1; cbn [depth with_depth]; lia).
  assert (G : good (ptoks s) (fun s2 n => exists s3, s2 = with_depth (depth s + 1)%N s3 /\ PE s s3 n) ((do l <- parse_e2 (parse_expr f) (S f) (S f);
        do q <- accept tok_question_mark;
        if q then do a <- parse_expr f; expect tok_colon;; do b <- parse_expr f;
          if is_empty l || is_empty a || is_empty b then perr else ret (NTernary l a b)
        else ret l) s1)).
  { assert (Mv : forall ts e s2, moved s1 ts e s2 -> exists s3, s2 = with_depth (depth s + 1)%N s3 /\ moved s ts e s3).
    { intros ts e s2 (M1 & M2 & M3). exists (after s (ptoks s2) e). split; [exact M2|]. now refine (conj M1 (conj eq_refl M3)). }
    apply (good_bind _ (PL 1 s1)); [apply (e2_ok f IH (S f) (S f) s1); [exact Eo|cbn; lia|cbn; lia|cbn; lia]|].
    intros s2 l H. destruct (PL_eof _ _ _ _ H) as [X1 X2]. pose proof (sfx_len _ _ X2) as Ls. cbn in Ls.
    apply good_accept; [discriminate|exact X1| |].
    - intros N. destruct (is_empty l) eqn:El.
      + destruct (PL_empty _ _ _ _ H El) as (-> & -> & h & r & P & Q1 & Q2 & Q3). exists s. split; [reflexivity|].
        left. refine (conj eq_refl (conj eq_refl (conj Eo (conj _ _)))); [|lia]. exists h, r. split; [exact P|]. split; [exact Q1|]. split; [intros _; apply Q2; lia|].
        intros j C. specialize (Q3 j C). assert (j = 0) as -> by lia. exfalso. apply (N h r P). destruct (ty h); cbn in C; congruence.
      + destruct (PL_some _ _ _ _ H El) as (ts & M & D). destruct (Mv _ _ _ M) as (s3 & -> & M3). exists s3. split; [reflexivity|].
        right. exists ts. split; [exact M3|]. intros lax O. rewrite A. apply e_level. now apply D.
    - intros q r P T Er. assert (Lr : length (ptoks s2) = S (length r)) by now rewrite P.
      assert (Sr : sfx r (ptoks s)) by (eapply sfx_trans; [|exact X2]; rewrite P; apply sfx_cons).
      apply (good_bind _ (PE (after s2 r false))); [eapply good_weaken; [apply IH; [exact Er|cbn; lia]|exact Sr|auto]|].
      intros s3 a Ha. destruct (PE_eof _ _ _ Ha) as [Y1 Y2]. pose proof (sfx_trans _ _ _ Y2 Sr) as Y3. pose proof (sfx_len _ _ Y2) as Ly. cbn in Ly.
      apply good_expect; [discriminate|exact Y1|exact Y3|]. intros k r2 P2 T2 Er2.
      assert (Lr2 : length (ptoks s3) = S (length r2)) by now rewrite P2.
      assert (Sr2 : sfx r2 (ptoks s)) by (eapply sfx_trans; [|exact Y3]; rewrite P2; apply sfx_cons).
      apply (good_bind _ (PE (after s3 r2 false))); [eapply good_weaken; [apply IH; [exact Er2|cbn; lia]|exact Sr2|auto]|].
      intros s4 b Hb. destruct (PE_eof _ _ _ Hb) as [Z1 Z2]. pose proof (sfx_trans _ _ _ Z2 Sr2) as Z3.
      destruct (is_empty l) eqn:El; [now split|]. destruct (is_empty a) eqn:Ea; [now split|]. destruct (is_empty b) eqn:Eb; [now split|].
      cbn [orb]. destruct (PL_some _ _ _ _ H El) as (ts & M & D). destruct (PE_some _ _ _ Ha Ea) as (ta & Ma & Da). destruct (PE_some _ _ _ Hb Eb) as (tb & Mb & Db).
      pose proof (moved_step _ _ _ _ _ _ M P Er) as M1. pose proof (moved_trans _ _ _ _ _ _ _ M1 Ma) as M2.
      pose proof (moved_step _ _ _ _ _ _ M2 P2 Er2) as M3. pose proof (moved_trans _ _ _ _ _ _ _ M3 Mb) as M4.
      destruct (Mv _ _ _ M4) as (s5 & -> & M5). exists s5. split; [reflexivity|]. right. exists (ts ++ q :: ta ++ k :: tb). split.
      + cbn [effectful]. rewrite orb_assoc. rewrite <- !app_assoc in M5. exact M5.
      + intros lax O. rewrite A. apply e_ternary; auto.
        * specialize (Da lax (moved_okl _ _ _ _ _ M1 O)). rewrite (moved_avail _ _ _ _ M1) in Da. exact Da.
        * specialize (Db lax (moved_okl _ _ _ _ _ M3 O)). rewrite (moved_avail _ _ _ _ M3) in Db. exact Db. }
  match goal with |- good _ _ (match ?x with _ => _ end) => destruct x as [s2 n|s2| |] end; cbn [good] in *; auto.
  destruct G as (s3 & -> & H). cbn [depth with_depth].
  replace (with_depth (depth s + 1 - 1)%N (with_depth (depth s + 1)%N s3)) with s3; [exact H|].
  assert (D3 : depth s3 = depth s).
  { destruct H as [(_ & -> & _)|(ts & (_ & -> & _) & _)]; reflexivity. }
  unfold with_depth. cbn. replace (depth s + 1 - 1)%N with (depth s3) by lia. now destruct s3.
Qed.

(** ** Statements *)
Lemma use_expr {B} f L (R : ps -> B -> Prop) g s : ends_eof (ptoks s) -> length (ptoks s) < f -> sfx (ptoks s) L ->
  (forall s' n, PE s s' n -> good L R (g n s')) -> good L R (bind (parse_expr f) g s).
Proof. intros A B' S H. apply (good_bind L (PE s)); [|exact H]. eapply good_weaken; [now apply expr_ok|exact S|auto]. Qed.
Lemma drop_until_sfx t l : l <> [] -> sfx (drop_until t l) l /\ drop_until t l <> [].
Proof.
  induction l as [|k l IH]; [congruence|]. intros _. destruct l as [|k' l].
  - split; [apply sfx_refl|discriminate].
  - cbn [drop_until]. destruct (_ || _); [split; [apply sfx_refl|discriminate]|]. destruct IH as [A B]; [discriminate|].
    fold (drop_until t (k' :: l)) in *. split; [|exact B]. eapply sfx_trans; [exact A|apply sfx_cons].
Qed.
Lemma drop_eols_split l : ends_eof l -> exists es, l = es ++ drop_eols l /\ Forall (fun k => ty k = tok_eol) es /\ ends_eof (drop_eols l)
  /\ forall h r, drop_eols l = h :: r -> ty h <> tok_eol.
Proof.
  induction l as [|k l IH]; intros E; [now apply ends_eof_ne in E|]. destruct l as [|k' l].
  - exists []. cbn [drop_eols]. refine (conj eq_refl (conj (Forall_nil _) (conj E _))). intros h r X. injection X as <- <-.
    destruct E as (a & e & E & T). destruct a as [|? [|? ?]]; try discriminate E. injection E as ->. congruence.
  - destruct (ttype_dec (ty k) tok_eol) as [T|T].
    + rewrite drop_eols_cons by (auto; discriminate). destruct IH as (es & A & B & C & D); [apply (ends_eof_tail k); [exact E|congruence]|].
      exists (k :: es). cbn [app]. rewrite <- A. refine (conj eq_refl (conj _ (conj C D))). now constructor.
    + exists []. rewrite drop_eols_head by assumption. refine (conj eq_refl (conj (Forall_nil _) (conj E _))). intros h r X. now injection X as <- <-.
Qed.
Lemma block_eols lax ign d k l es ts : Forall (fun k => ty k = tok_eol) es -> block lax ign d k l ts -> block lax ign d k l (es ++ ts).
Proof. induction 1; intros B; [exact B|]. cbn. apply b_eol; auto. Qed.
Lemma moved_valid s0 ts e s : moved s0 ts e s -> valid s = valid s0.
Proof. intros (_ & -> & _). reflexivity. Qed.
Lemma moved_loops s0 ts e s : moved s0 ts e s -> loop_depth s = loop_depth s0.
Proof. intros (_ & -> & _). reflexivity. Qed.
Lemma moved_effect_of s0 ts e s : moved s0 ts e s -> effect s = effect s0 || e.
Proof. intros (_ & -> & _). reflexivity. Qed.

Section STMTS.
Context (ign : bool).
(** the result if there was no error *)
Definition PV {A} (s0 s : ps) (eff : A -> bool) (X : bool -> list token -> A -> Prop) (a : A) : Prop :=
  sfx (ptoks s) (ptoks s0) /\ ends_eof (ptoks s)
  /\ (valid s = true -> exists ts, moved s0 ts (eff a) s /\ forall lax, okl lax s0 -> X lax ts a).
Definition PB (s0 s : ps) (l : list stmt) : Prop :=
  PV s0 s (fun _ => false) (fun lax ts l => block lax ign (avail s0) (loop_depth s0) l ts) l.

Section LINE.
Context (f : nat).
Hypothesis IHB : forall s, ends_eof (ptoks s) -> length (ptoks s) < f -> good (ptoks s) (PB s) (parse_block ign f s).
Notation Block := (parse_block ign f).
Lemma use_block {B} L (R : ps -> B -> Prop) g s : ends_eof (ptoks s) -> length (ptoks s) < f -> sfx (ptoks s) L ->
  (forall s' n, PB s s' n -> good L R (g n s')) -> good L R (bind Block g s).
Proof. intros A B' S H. apply (good_bind L (PB s)); [|exact H]. eapply good_weaken; [now apply IHB|exact S|auto]. Qed.

Lemma moved_nonempty s0 ts e s b : moved s0 ts e s -> moved s0 ts (e || nonempty b) (after s (ptoks s) (nonempty b)).
Proof. intros (A & B & C). refine (conj A (conj _ C)). cbn [ptoks after]. rewrite B at 1. now rewrite after_after. Qed.

Definition PC (s0 s : ps) (r : clause) : Prop :=
  PV s0 s clause_effb (fun lax ts r => clauses lax ign (avail s0) (loop_depth s0) r ts) r.
Lemma clauses_ok : forall loop s, ends_eof (ptoks s) -> length (ptoks s) <= f -> length (ptoks s) < loop ->
  good (ptoks s) (PC s) (parse_clauses (S f) Block loop s).
Proof.
  induction loop as [|loop IH]; intros s Eo L1 L2; [lia|]. cbn [parse_clauses].
  apply good_accept; [discriminate|exact Eo| |].
  2:{ intros i r P T Er. pose proof (moved_step _ _ _ _ _ _ (moved_refl _ Eo) P Er) as M1. cbn [app] in M1.
      assert (Len1 := moved_len _ _ _ _ M1). cbn [length] in Len1. set (s1 := after s r false) in *. clearbody s1.
      apply use_expr; [eapply moved_eof; eassumption|lia|eapply moved_sfx; eassumption|]. intros s2 c Hc.
      destruct (PE_eof _ _ _ Hc) as [X1 X2]. pose proof (sfx_trans _ _ _ X2 (moved_sfx _ _ _ _ M1)) as X3.
      destruct (is_empty c) eqn:Ec; [now apply good_perr|].
      destruct (PE_some _ _ _ Hc Ec) as (tc & Mc & Dc). pose proof (moved_trans _ _ _ _ _ _ _ M1 Mc) as M2.
      apply good_expect; [discriminate|exact X1|exact X3|]. intros e r3 P3 T3 Er3.
      pose proof (moved_step _ _ _ _ _ _ M2 P3 Er3) as M3. assert (Len3 := moved_len _ _ _ _ M3). cbn [length app] in Len3.
      set (s3 := after s2 r3 false) in *. clearbody s3.
      apply use_block; [eapply moved_eof; eassumption|lia|eapply moved_sfx; eassumption|]. intros s4 b (B1 & B2 & B3).
      pose proof (sfx_len _ _ B1) as Lb. pose proof (sfx_trans _ _ _ B1 (moved_sfx _ _ _ _ M3)) as B4.
      apply (good_bind _ (PC s4)); [eapply good_weaken; [apply IH; [exact B2|lia|lia]|exact B4|auto]|].
      intros s5 r5 (C1 & C2 & C3). rewrite (bind_ok _ _ _ _ _ (block_effect_after b s5)). cbn [good ret].
      split; [exact (sfx_trans _ _ _ C1 B4)|]. split; [exact C2|]. cbn [valid after]. intros V. destruct (C3 V) as (tr & Mr & Dr).
      rewrite (moved_valid _ _ _ _ Mr) in V. destruct (B3 V) as (tb & Mb & Db).
      pose proof (moved_trans _ _ _ _ _ _ _ M3 Mb) as M4. pose proof (moved_trans _ _ _ _ _ _ _ M4 Mr) as M5.
      pose proof (moved_nonempty _ _ _ _ b M5) as M6. exists (i :: tc ++ e :: tb ++ tr). split.
      - cbn [clause_effb]. cbn [orb] in M6. rewrite orb_false_r in M6. rewrite orb_assoc. cbn [app] in M6. rewrite <- !app_assoc in M6. exact M6.
      - intros lax O. apply c_elif; auto.
        + specialize (Dc lax (moved_okl _ _ _ _ _ M1 O)). now rewrite (moved_avail _ _ _ _ M1) in Dc.
        + specialize (Db lax (moved_okl _ _ _ _ _ M3 O)). now rewrite (moved_avail _ _ _ _ M3), (moved_loops _ _ _ _ M3) in Db.
        + specialize (Dr lax (moved_okl _ _ _ _ _ M4 O)). now rewrite (moved_avail _ _ _ _ M4), (moved_loops _ _ _ _ M4) in Dr. }
  intros N1. apply good_accept; [discriminate|exact Eo| |].
  2:{ intros i r P T Er. pose proof (moved_step _ _ _ _ _ _ (moved_refl _ Eo) P Er) as M1. cbn [app] in M1.
      assert (Len1 := moved_len _ _ _ _ M1). cbn [length] in Len1. set (s1 := after s r false) in *. clearbody s1.
      apply good_expect; [discriminate|eapply moved_eof; eassumption|eapply moved_sfx; eassumption|]. intros e r3 P3 T3 Er3.
      pose proof (moved_step _ _ _ _ _ _ M1 P3 Er3) as M3. assert (Len3 := moved_len _ _ _ _ M3). cbn [length app] in Len3.
      set (s3 := after s1 r3 false) in *. clearbody s3.
      apply use_block; [eapply moved_eof; eassumption|lia|eapply moved_sfx; eassumption|]. intros s4 b (B1 & B2 & B3).
      pose proof (sfx_trans _ _ _ B1 (moved_sfx _ _ _ _ M3)) as B4.
      rewrite (bind_ok _ _ _ _ _ (block_effect_after b s4)). cbn [good ret].
      split; [exact B4|]. split; [exact B2|]. cbn [valid after]. intros V. destruct (B3 V) as (tb & Mb & Db).
      pose proof (moved_trans _ _ _ _ _ _ _ M3 Mb) as M4. pose proof (moved_nonempty _ _ _ _ b M4) as M6. exists (i :: e :: tb). split; [exact M6|].
      intros lax O. apply c_else; auto.
      specialize (Db lax (moved_okl _ _ _ _ _ M3 O)). now rewrite (moved_avail _ _ _ _ M3), (moved_loops _ _ _ _ M3) in Db. }
  intros N2. split; [apply sfx_refl|]. split; [exact Eo|]. intros _. exists []. split; [now apply moved_refl|]. intros lax _. constructor.
Qed.

(** the statements, from after the first keyword *)
Definition PS (s0 s : ps) (i : token) (rest : bool) (st : stmt) : Prop :=
  sfx (ptoks s) (ptoks s0) /\ ends_eof (ptoks s)
  /\ (valid s = true -> exists ts, moved s0 ts (stmt_effb st) s
      /\ forall lax g, okl lax s0 -> ty g = (if rest then tok_endif else tok_endforeach) -> shape lax ign (avail s0) (loop_depth s0) st (i :: ts ++ [g])).
Lemma if_ok s i : ty i = tok_if -> ends_eof (ptoks s) -> length (ptoks s) <= f ->
  good (ptoks s) (fun s' => PS s s' i true) (parse_if (S f) Block s).
Proof.
  intros T Eo L. unfold parse_if.
  apply use_expr; [exact Eo|lia|apply sfx_refl|]. intros s2 c Hc.
  destruct (PE_eof _ _ _ Hc) as [X1 X3].
  destruct (is_empty c) eqn:Ec; [now apply good_perr|].
  destruct (PE_some _ _ _ Hc Ec) as (tc & M2 & Dc).
  apply good_expect; [discriminate|exact X1|exact X3|]. intros e r3 P3 T3 Er3.
  pose proof (moved_step _ _ _ _ _ _ M2 P3 Er3) as M3. assert (Len3 := moved_len _ _ _ _ M3). rewrite app_length in Len3. cbn [length app] in Len3.
  set (s3 := after s2 r3 false) in *. clearbody s3.
  apply use_block; [eapply moved_eof; eassumption|lia|eapply moved_sfx; eassumption|]. intros s4 b (B1 & B2 & B3).
  pose proof (sfx_len _ _ B1) as Lb. pose proof (sfx_trans _ _ _ B1 (moved_sfx _ _ _ _ M3)) as B4.
  apply (good_bind _ (PC s4)); [eapply good_weaken; [apply clauses_ok; [exact B2|lia|lia]|exact B4|auto]|].
  intros s5 r5 (C1 & C2 & C3). rewrite (bind_ok _ _ _ _ _ (block_effect_after b s5)). cbn [good ret].
  split; [exact (sfx_trans _ _ _ C1 B4)|]. split; [exact C2|]. cbn [valid after]. intros V. destruct (C3 V) as (tr & Mr & Dr).
  rewrite (moved_valid _ _ _ _ Mr) in V. destruct (B3 V) as (tb & Mb & Db).
  pose proof (moved_trans _ _ _ _ _ _ _ M3 Mb) as M4. pose proof (moved_trans _ _ _ _ _ _ _ M4 Mr) as M5.
  pose proof (moved_nonempty _ _ _ _ b M5) as M6. exists (tc ++ e :: tb ++ tr). split.
  - cbn [stmt_effb]. rewrite orb_false_r in M6. rewrite orb_assoc. cbn [app] in M6. rewrite <- !app_assoc in M6. exact M6.
  - intros lax g O Tg. rewrite <- app_assoc. cbn [app]. rewrite <- app_assoc. apply st_if; auto.
    + specialize (Db lax (moved_okl _ _ _ _ _ M3 O)). now rewrite (moved_avail _ _ _ _ M3), (moved_loops _ _ _ _ M3) in Db.
    + specialize (Dr lax (moved_okl _ _ _ _ _ M4 O)). now rewrite (moved_avail _ _ _ _ M4), (moved_loops _ _ _ _ M4) in Dr.
Qed.
Lemma foreach_ok s i : ty i = tok_foreach -> ends_eof (ptoks s) -> length (ptoks s) <= f ->
  good (ptoks s) (fun s' => PS s s' i false) (parse_foreach (S f) Block s).
Proof.
  intros T Eo L. unfold parse_foreach.
  (* from the colon on *)
  assert (Rest : forall x y hs s1, moved s hs false s1 -> hs <> [] ->
     (forall lax n b tn tb o e g, expr lax (avail s) n tn -> block lax ign (avail s) (S (loop_depth s)) b tb -> ty o = tok_colon -> ty e = tok_eol -> ty g = tok_endforeach ->
        shape lax ign (avail s) (loop_depth s) (StForeach x y n b) (i :: hs ++ o :: tn ++ e :: tb ++ [g])) ->
     good (ptoks s) (fun s' => PS s s' i false) ((expect tok_colon;; do n <- parse_expr (S f); expect tok_eol;;
       if is_empty n then perr else modify (fun s => with_loops (S (loop_depth s)) s);; do b <- Block;
         modify (fun s => with_loops (pred (loop_depth s)) s);; block_effect b;; ret (StForeach x y n b)) s1)).
  { intros x y hs s1 M1 Nh D. assert (Len1 := moved_len _ _ _ _ M1).
    apply good_expect; [discriminate|eapply moved_eof; eassumption|eapply moved_sfx; eassumption|]. intros o r2 P2 T2 Er2.
    pose proof (moved_step _ _ _ _ _ _ M1 P2 Er2) as M2. set (s2 := after s1 r2 false) in *. clearbody s2. assert (Len2 := moved_len _ _ _ _ M2).
    apply use_expr; [eapply moved_eof; eassumption|lia|eapply moved_sfx; eassumption|]. intros s3 n Hn.
    destruct (PE_eof _ _ _ Hn) as [X1 X2]. pose proof (sfx_trans _ _ _ X2 (moved_sfx _ _ _ _ M2)) as X3.
    apply good_expect; [discriminate|exact X1|exact X3|]. intros e r4 P4 T4 Er4.
    destruct (is_empty n) eqn:En.
    { apply good_perr; [|exact Er4]. cbn. eapply sfx_trans; [|exact X3]. rewrite P4. apply sfx_cons. }
    destruct (PE_some _ _ _ Hn En) as (tn & Mn & Dn). pose proof (moved_trans _ _ _ _ _ _ _ M2 Mn) as M3.
    pose proof (moved_step _ _ _ _ _ _ M3 P4 Er4) as M4. set (s4 := after s3 r4 false) in *. clearbody s4.
    assert (Len4 := moved_len _ _ _ _ M4). rewrite !app_length in Len4. cbn in Len4.
    unfold bind at 1, modify at 1. set (s5 := with_loops _ s4).
    apply use_block; [exact (moved_eof _ _ _ _ M4)|cbn; lia|exact (moved_sfx _ _ _ _ M4)|]. intros s6 b (B1 & B2 & B3).
    unfold bind at 1, modify at 1. rewrite (bind_ok _ _ _ _ _ (block_effect_after b _)). cbn [good ret].
    split; [exact (sfx_trans _ _ _ B1 (moved_sfx _ _ _ _ M4))|]. split; [exact B2|]. cbn [valid after with_loops]. intros V.
    destruct (B3 V) as (tb & (Q1 & Q2 & Q3) & Db).
    assert (Mb : moved s4 tb false (with_loops (pred (loop_depth s6)) s6)).
    { refine (conj Q1 (conj _ Q3)). rewrite Q2. unfold with_loops, after. cbn. reflexivity. }
    pose proof (moved_trans _ _ _ _ _ _ _ M4 Mb) as M5. pose proof (moved_nonempty _ _ _ _ b M5) as M6.
    exists (hs ++ o :: tn ++ e :: tb). split.
    - cbn [stmt_effb]. rewrite orb_false_r in M6. rewrite <- !app_assoc in M6. exact M6.
    - intros lax g O Tg. rewrite <- app_assoc. cbn [app]. rewrite <- app_assoc. cbn [app]. apply D; auto.
      + specialize (Dn lax (moved_okl _ _ _ _ _ M2 O)). now rewrite (moved_avail _ _ _ _ M2) in Dn.
      + specialize (Db lax (moved_okl _ _ _ _ _ M4 O)).
        change (avail s5) with (avail s4) in Db. change (loop_depth s5) with (S (loop_depth s4)) in Db.
        now rewrite (moved_avail _ _ _ _ M4), (moved_loops _ _ _ _ M4) in Db. }
  apply (good_bind _ (fun s' x => exists k, x = str k /\ ty k = tok_identifier /\ moved s [k] false s')).
  { unfold expect_identifier. apply good_data; [discriminate|exact Eo|intros _; apply good_perr; [apply sfx_refl|exact Eo]|].
    intros k r P Tk Er. exists k. refine (conj eq_refl (conj Tk _)). exact (moved_step _ _ _ _ _ _ (moved_refl _ Eo) P Er). }
  intros s1 x (k & -> & Tk & M1). apply good_accept; [discriminate|eapply moved_eof; eassumption| |].
  - intros _. unfold bind at 1. unfold ret at 1. apply (Rest (str k) None [k]); [exact M1|discriminate|].
    intros. cbn [app]. now apply st_foreach.
  - intros p r P Tp Er. pose proof (moved_step _ _ _ _ _ _ M1 P Er) as M2. set (s2 := after s1 r false) in *. clearbody s2.
    apply (good_bind _ (fun s' y => exists k', y = Some (str k') /\ ty k' = tok_identifier /\ moved s [k; p; k'] false s')).
    + unfold expect_identifier. unfold bind at 1.
      change (good (ptoks s) (fun s' y => exists k', y = Some (str k') /\ ty k' = tok_identifier /\ moved s [k; p; k'] false s')
        (bind (bind (accept_data tok_identifier) (fun i0 => match i0 with Some k0 => ret (str k0) | None => perr end)) (fun y => ret (Some y)) s2)).
      apply (good_bind _ (fun s' y => exists k', y = str k' /\ ty k' = tok_identifier /\ moved s [k; p; k'] false s')).
      * apply good_data; [discriminate|eapply moved_eof; eassumption|intros _; apply good_perr; [eapply moved_sfx; eassumption|eapply moved_eof; eassumption]|].
        intros k' r' P' Tk' Er'. exists k'. refine (conj eq_refl (conj Tk' _)). exact (moved_step _ _ _ _ _ _ M2 P' Er').
      * intros s' y (k' & -> & Tk' & M'). exists k'. auto.
    + intros s3 y (k' & -> & Tk' & M3). apply (Rest (str k) (Some (str k')) [k; p; k']); [exact M3|discriminate|].
      intros. cbn [app]. now apply st_foreach2.
Qed.

Lemma recovered_good m t s i (b : bool) : t = (if b then tok_endif else tok_endforeach) -> ends_eof (ptoks s) ->
  good (ptoks s) (fun s' => PS s s' i b) (m s) ->
  good (ptoks s) (fun s' r => sfx (ptoks s') (ptoks s) /\ ends_eof (ptoks s') /\
    match r with
    | None => True
    | Some None => False
    | Some (Some st) => valid s' = true -> exists ts, moved s ts (stmt_effb st) s' /\ forall lax, okl lax s -> shape lax ign (avail s) (loop_depth s) st (i :: ts)
    end) (recovered m t s).
Proof.
  intros Et Eo G. unfold recovered. destruct (m s) as [s1 st|s1| |]; cbn [good] in G; auto.
  - destruct G as (S1 & E1 & V1). apply good_expect; [rewrite Et; now destruct b|exact E1|exact S1|].
    intros g r P T Er. cbn. split; [eapply sfx_trans; [|exact S1]; rewrite P; apply sfx_cons|]. split; [exact Er|].
    intros V. destruct (V1 V) as (ts & M & D). exists (ts ++ [g]). split; [exact (moved_step _ _ _ _ _ _ M P Er)|].
    intros lax O. apply D; [exact O|]. now rewrite T.
  - destruct G as (S1 & E1). unfold bind at 1, consume_until, modify.
    destruct (drop_until_sfx t (ptoks s1) (ends_eof_ne _ E1)) as [D1 D2].
    pose proof (ends_eof_sfx _ _ D1 E1 D2) as E2.
    apply good_expect; [rewrite Et; now destruct b|exact E2|exact (sfx_trans _ _ _ D1 S1)|].
    intros g r P T Er. cbn in *. split; [|split; [exact Er|exact I]]. apply (sfx_trans _ (drop_until t (ptoks s1))); [rewrite P; apply sfx_cons|].
    exact (sfx_trans _ _ _ D1 S1).
Qed.

(** parse_line after the newlines *)
Definition PLN (s0 s : ps) (r : option (option stmt)) : Prop :=
  sfx (ptoks s) (ptoks s0) /\ ends_eof (ptoks s) /\
  match r with
  | None => True
  | Some None => s = s0
  | Some (Some st) => valid s = true -> exists ts, moved s0 ts (stmt_effb st) s /\ forall lax, okl lax s0 -> shape lax ign (avail s0) (loop_depth s0) st ts
  end.
Lemma after_keyword s i r (b : bool) st s' (M1 : moved s [i] false (after s r false)) :
  (valid s' = true -> exists ts, moved (after s r false) ts (stmt_effb st) s' /\ forall lax, okl lax (after s r false) -> shape lax ign (avail s) (loop_depth s) st (i :: ts)) ->
  valid s' = true -> exists ts, moved s ts (stmt_effb st) s' /\ forall lax, okl lax s -> shape lax ign (avail s) (loop_depth s) st ts.
Proof.
  intros H V. destruct (H V) as (ts & M & D). exists (i :: ts). split; [exact (moved_trans _ _ _ _ _ _ _ M1 M)|].
  intros lax O. apply D. exact (moved_okl _ _ _ _ _ M1 O).
Qed.
Lemma assignment_ok s : ends_eof (ptoks s) -> length (ptoks s) <= f ->
  good (ptoks s) (fun s' st => PLN s s' (Some st)) (parse_assignment (S f) s).
Proof.
  intros Eo L. unfold parse_assignment. apply use_expr; [exact Eo|lia|apply sfx_refl|]. intros s1 l H.
  destruct (PE_eof _ _ _ H) as [X1 X2]. pose proof (sfx_len _ _ X2) as Lx.
  assert (Rhs : forall (F : bytes -> node -> stmt) o r, ptoks s1 = o :: r -> ends_eof r -> (forall x v, stmt_effb (F x v) = true) ->
     (forall lax x v tx tv, expr lax (avail s) (NId x) tx -> expr lax (avail s) v tv -> shape lax ign (avail s) (loop_depth s) (F x v) (tx ++ o :: tv)) ->
     good (ptoks s) (fun s' st => PLN s s' (Some st)) ((modify (with_effect true);;
        match l with NId x => do v <- parse_expr (S f); if is_empty v then perr else ret (Some (F x v)) | _ => perr end) (after s1 r false))).
  { intros F o r P Er Ef D. assert (Sr : sfx r (ptoks s)) by (eapply sfx_trans; [|exact X2]; rewrite P; apply sfx_cons).
    pose proof (sfx_len _ _ Sr) as Lr.
    unfold bind at 1, modify. destruct l; try (apply good_perr; [exact Sr|exact Er]).
    destruct (PE_some _ _ _ H eq_refl) as (tx & Mx & Dx).
    pose proof (moved_effect _ _ _ _ (moved_step _ _ _ _ _ _ Mx P Er)) as M1. set (s2 := with_effect true _) in *.
    assert (P2 : ptoks s2 = r) by reflexivity. clearbody s2.
    apply use_expr; [now rewrite P2|rewrite P2; lia|now rewrite P2|]. intros s3 v Hv.
    destruct (PE_eof _ _ _ Hv) as [Y1 Y2]. rewrite P2 in Y2. pose proof (sfx_trans _ _ _ Y2 Sr) as Y3.
    destruct (is_empty v) eqn:Ev; [now apply good_perr|]. destruct (PE_some _ _ _ Hv Ev) as (tv & Mv & Dv).
    pose proof (moved_trans _ _ _ _ _ _ _ M1 Mv) as M2. split; [exact Y3|]. split; [exact Y1|]. intros _. exists (tx ++ o :: tv). split.
    - rewrite Ef. rewrite <- app_assoc in M2. exact M2.
    - intros lax O. apply D; [auto|]. specialize (Dv lax (moved_okl _ _ _ _ _ M1 O)). now rewrite (moved_avail _ _ _ _ M1) in Dv. }
  apply good_accept; [discriminate|exact X1| |intros o r P T Er; apply (Rhs StPlusAssign o r); auto; intros; now apply st_plus_assign]. intros N1.
  apply good_accept; [discriminate|exact X1| |intros o r P T Er; apply (Rhs StAssign o r); auto; intros; now apply st_assign]. intros N2.
  destruct (is_empty l) eqn:El.
  - destruct (PE_empty _ _ _ H El) as (_ & -> & _). split; [exact X2|]. split; [exact X1|reflexivity].
  - destruct (PE_some _ _ _ H El) as (ts & M & D). split; [exact X2|]. split; [exact X1|]. intros _. exists ts. split; [exact M|].
    intros lax O. apply st_expr. auto.
Qed.
Lemma body_ok s : ends_eof (ptoks s) -> length (ptoks s) <= f -> good (ptoks s) (PLN s) (line_body ign f s).
Proof.
  intros Eo L. unfold line_body.
  assert (Kw : forall i r b m t, ptoks s = i :: r -> ends_eof r -> t = (if b : bool then tok_endif else tok_endforeach) ->
     good r (fun s' => PS (after s r false) s' i b) (m (after s r false)) ->
     good (ptoks s) (PLN s) (recovered m t (after s r false))).
  { intros i r b m t P Er Et G. eapply good_weaken; [apply (recovered_good m t (after s r false) i b Et Er G)|cbn; rewrite P; apply sfx_cons|].
    pose proof (moved_step _ _ _ _ _ _ (moved_refl _ Eo) P Er) as M1. cbn [app] in M1.
    intros s' [[st|]|] (A & B & C); [|contradiction|].
    - split; [eapply sfx_trans; [exact A|eapply moved_sfx; exact M1]|]. split; [exact B|]. exact (after_keyword s i r b st s' M1 C).
    - split; [eapply sfx_trans; [exact A|eapply moved_sfx; exact M1]|]. split; [exact B|exact I]. }
  apply good_accept; [discriminate|exact Eo| |].
  2:{ intros i r P T Er. apply (Kw i r true); auto. assert (length (ptoks s) = S (length r)) by now rewrite P.
      apply (if_ok (after s r false) i T Er). cbn. lia. }
  intros N1. apply good_accept; [discriminate|exact Eo| |].
  2:{ intros i r P T Er. apply (Kw i r false); auto. assert (length (ptoks s) = S (length r)) by now rewrite P.
      apply (foreach_ok (after s r false) i T Er). cbn. lia. }
  intros N2.
  assert (Lp : forall i r st, ptoks s = i :: r -> ends_eof r -> stmt_effb st = true -> (forall lax k, loop_depth s = S k -> shape lax ign (avail s) (S k) st [i]) ->
     good (ptoks s) (PLN s) (in_loop st (after s r false))).
  { intros i r st P Er Es D. unfold in_loop, bind, modify. cbn [loop_depth with_effect after].
    assert (Sr : sfx r (ptoks s)) by (rewrite P; apply sfx_cons).
    destruct (Nat.eqb_spec (loop_depth s) 0) as [Z|Z]; [now split|]. cbn [good].
    split; [exact Sr|]. split; [exact Er|]. intros _. exists [i]. split.
    - rewrite Es. exact (moved_effect _ _ _ _ (moved_step _ _ _ _ _ _ (moved_refl _ Eo) P Er)).
    - intros lax _. destruct (loop_depth s) eqn:K; [congruence|]. now apply D. }
  apply good_accept; [discriminate|exact Eo| |intros i r P T Er; apply (Lp i r); auto; intros; now apply st_continue]. intros N3.
  apply good_accept; [discriminate|exact Eo| |intros i r P T Er; apply (Lp i r); auto; intros; now apply st_break]. intros N4.
  apply (good_bind _ (fun s' st => PLN s s' (Some st))); [now apply assignment_ok|]. auto.
Qed.

Definition PI (s0 s : ps) (r : option stmt) : Prop :=
  sfx (ptoks s) (ptoks s0) /\ ends_eof (ptoks s) /\
  match r with
  | None => exists es, Forall (fun k => ty k = tok_eol) es /\ moved s0 es false s /\ forall h t, ptoks s = h :: t -> ty h <> tok_eol
  | Some st => valid s = true -> exists es ts, Forall (fun k => ty k = tok_eol) es /\ moved s0 (es ++ ts) false s
      /\ forall lax, okl lax s0 -> line lax ign (avail s0) (loop_depth s0) st ts
  end.
Lemma line_ok s : ends_eof (ptoks s) -> length (ptoks s) <= f -> good (ptoks s) (PI s) (parse_line ign (S f) Block s).
Proof.
  intros Eo L. unfold parse_line. unfold bind at 1, modify at 1.
  destruct (drop_eols_split _ Eo) as (es & E1 & E2 & E3 & E4). rewrite with_toks_after. set (s1 := after s (drop_eols (ptoks s)) false).
  assert (M1 : moved s es false s1) by (refine (conj E1 (conj eq_refl E3))).
  assert (P1 : ptoks s1 = drop_eols (ptoks s)) by reflexivity. rewrite <- P1 in E3, E4. clearbody s1.
  pose proof (moved_sfx _ _ _ _ M1) as S1. pose proof (sfx_len _ _ S1) as Ls1.
  destruct (ptoks s1) as [|h t] eqn:P; [now apply ends_eof_ne in E3|].
  destruct (block_end h) eqn:Bh.
  { cbn [good]. split; [now rewrite P|]. split; [now rewrite P|]. exists es. split; [exact E2|]. split; [exact M1|]. rewrite P. exact E4. }
  set (s2 := with_effect false s1).
  assert (B : good (ptoks s2) (PLN s2) (line_body ign f s2)).
  { apply body_ok; [unfold s2; cbn; now rewrite P|unfold s2; cbn; rewrite P; lia]. }
  unfold bind at 1, modify at 1. fold s2. unfold line_body in B. unfold bind at 1 in B. unfold bind at 1.
  destruct (accept tok_if s2) as [s3 i|s3| |] eqn:Ai; cbn [good] in B |- *; auto.
  2:{ destruct B as [B1 B2]. split; [|exact B2]. eapply sfx_trans; [exact B1|]. unfold s2. cbn. now rewrite P. }
  2:{ eapply bad_sfx; [|exact B]. unfold s2. cbn. now rewrite P. }
  eapply (good_bind _ (PLN s2)).
  { eapply good_weaken; [exact B| |auto]. unfold s2. cbn. now rewrite P. }
  intros s4 r (A1 & A2 & A3). assert (S4 : sfx (ptoks s4) (ptoks s)).
  { eapply sfx_trans; [exact A1|]. unfold s2. cbn. now rewrite P. }
  destruct r as [[st|]|].
  - destruct (negb ign && negb (effect s4)) eqn:En; [now split|]. cbn [good]. split; [exact S4|]. split; [exact A2|]. cbn [valid with_effect].
    intros V. destruct (A3 V) as (ts & (Q1 & Q2 & Q3) & D). exists es, ts. split; [exact E2|]. split.
    + assert (moved s1 ts false (with_effect (effect s1) s4)).
      { refine (conj Q1 (conj _ Q3)). cbn [ptoks with_effect]. rewrite Q2. unfold with_effect, after. cbn. now rewrite orb_false_r. }
      exact (moved_trans _ _ _ _ _ _ _ M1 H).
    + intros lax O. specialize (D lax (moved_okl _ _ _ _ _ M1 O)). change (avail s2) with (avail s1) in D. change (loop_depth s2) with (loop_depth s1) in D.
      rewrite (moved_avail _ _ _ _ M1), (moved_loops _ _ _ _ M1) in D. constructor; [exact D|].
      destruct ign; [now left|]. right. cbn [negb andb] in En. apply negb_false_iff in En. rewrite Q2 in En. cbn in En. now apply stmt_effb_iff.
  - subst s4. destruct (negb ign && negb (effect s2)) eqn:En; [now split|]. cbn [good]. split; [exact S4|]. split; [exact A2|].
    exists es. split; [exact E2|]. split; [|cbn [ptoks with_effect]; unfold s2; cbn [ptoks with_effect]; rewrite P; exact E4].
    replace (with_effect (effect s1) s2) with s1; [exact M1|]. unfold s2, with_effect. cbn. now destruct s1.
  - cbn [good]. now split.
Qed.
End LINE.

Theorem block_ok : forall f, (forall s, ends_eof (ptoks s) -> length (ptoks s) < f -> good (ptoks s) (PB s) (parse_block ign f s)).
Proof.
  induction f as [|f IH]; intros s Eo L; [lia|]. rewrite parse_block_loop.
  assert (G : forall loop s, ends_eof (ptoks s) -> length (ptoks s) <= f -> length (ptoks s) < loop -> good (ptoks s) (PB s) (block_loop ign f loop s)).
  { clear s Eo L. induction loop as [|loop IHl]; intros s Eo L1 L2; [lia|]. cbn [block_loop].
    pose proof (line_ok f IH s Eo L1) as G. destruct (parse_line ign (S f) (parse_block ign f) s) as [s1 [st|]|s1| |]; cbn [good] in G; auto.
    - destruct G as (S1 & E1 & V1). pose proof (sfx_len _ _ S1) as Ls. apply good_accept; [discriminate|exact E1| |].
      + intros _. cbn. split; [exact S1|]. split; [exact E1|]. intros V. destruct (V1 V) as (es & ts & F & M & D). exists (es ++ ts). split; [exact M|].
        intros lax O. apply block_eols; [exact F|]. apply b_last. auto.
      + intros e r P T Er. assert (Lr : length (ptoks s1) = S (length r)) by now rewrite P.
        assert (Sr : sfx r (ptoks s)) by (eapply sfx_trans; [|exact S1]; rewrite P; apply sfx_cons).
        apply (good_bind _ (PB (after s1 r false))); [eapply good_weaken; [apply IHl; [exact Er|cbn; lia|cbn; lia]|exact Sr|auto]|].
        intros s3 l (B1 & B2 & B3). cbn. split; [exact (sfx_trans _ _ _ B1 Sr)|]. split; [exact B2|]. intros V.
        destruct (B3 V) as (tl & Ml & Dl). rewrite (moved_valid _ _ _ _ Ml) in V. cbn in V.
        destruct (V1 V) as (es & ts & F & M & D). pose proof (moved_step _ _ _ _ _ _ M P Er) as M1.
        pose proof (moved_trans _ _ _ _ _ _ _ M1 Ml) as M2. exists (es ++ ts ++ e :: tl). split; [rewrite <- !app_assoc in M2; exact M2|].
        intros lax O. apply block_eols; [exact F|]. apply b_cons; auto.
        specialize (Dl lax (moved_okl _ _ _ _ _ M1 O)). now rewrite (moved_avail _ _ _ _ M1), (moved_loops _ _ _ _ M1) in Dl.
    - destruct G as (S1 & E1 & es & F & M & N). apply good_accept; [discriminate|exact E1| |].
      + intros _. cbn. split; [exact S1|]. split; [exact E1|]. intros V. exists es. split; [exact M|]. intros lax O.
        rewrite <- (app_nil_r es). apply block_eols; [exact F|constructor].
      + intros e r P T Er. now destruct (N e r P).
    - destruct G as (S1 & E1). unfold bind at 1, modify at 1. unfold bind at 1, consume_until, modify. cbn [ptoks with_valid].
      destruct (drop_until_sfx tok_eol (ptoks s1) (ends_eof_ne _ E1)) as [D1 D2]. pose proof (ends_eof_sfx _ _ D1 E1 D2) as E2.
      pose proof (sfx_trans _ _ _ D1 S1) as S2. pose proof (sfx_len _ _ S2) as Ls.
      set (s2 := with_toks _ _). assert (P2 : ptoks s2 = drop_until tok_eol (ptoks s1)) by reflexivity. assert (V2 : valid s2 = false) by reflexivity.
      rewrite <- P2 in *. clearbody s2. apply good_accept; [discriminate|exact E2| |].
      + intros _. cbn. split; [exact S2|]. split; [exact E2|]. congruence.
      + intros e r P T Er. assert (Lr : length (ptoks s2) = S (length r)) by now rewrite P.
        assert (Sr : sfx r (ptoks s)) by (eapply sfx_trans; [|exact S2]; rewrite P; apply sfx_cons).
        apply (good_bind _ (PB (after s2 r false))); [eapply good_weaken; [apply IHl; [exact Er|cbn; lia|cbn; lia]|exact Sr|auto]|].
        intros s3 l (B1 & B2 & B3). cbn. split; [exact (sfx_trans _ _ _ B1 Sr)|]. split; [exact B2|]. intros V.
        destruct (B3 V) as (tl & Ml & Dl). rewrite (moved_valid _ _ _ _ Ml) in V. cbn in V. congruence. }
  apply G; [exact Eo|lia|lia].
Qed.
End STMTS.

(** ** Whole programs *)
Theorem parse_tokens_sound ign ts e : ty e = tok_eof -> Forall (fun k => ty k <> tok_eof) ts ->
  match parse_tokens ign (ts ++ [e]) with
  | Parsed p => forall lax, lax = true \/ ~ stray (ts ++ [e]) -> program lax ign (N.to_nat 4096) p ts
  | Rejected => True
  | Aborted => bad (ts ++ [e])
  | ParseNoFuel => False
  end.
Proof.
  intros T F. unfold parse_tokens. set (l := ts ++ [e]). set (s0 := mkPs l 0 0 false true).
  assert (Eo : ends_eof (ptoks s0)) by (exists ts, e; auto).
  pose proof (block_ok ign (S (length l)) s0 Eo (le_n _)) as G. unfold bind at 1.
  destruct (parse_block ign (S (length l)) s0) as [s1 b|s1| |]; cbn [good] in G; auto.
  destruct G as (S1 & E1 & V1). unfold expect, bind, accept, last_is.
  destruct (ptoks s1) as [|k r] eqn:P; [now apply ends_eof_ne in E1|].
  destruct (is_type tok_eof k) eqn:Tk; [|exact Logic.I]. cbn [ret valid with_toks].
  destruct (valid s1) eqn:V; [|exact Logic.I]. destruct (V1 eq_refl) as (tb & (M & _) & D). intros lax O.
  specialize (D lax O). cbn in M. unfold l in M. rewrite P in M. apply is_type_iff in Tk.
  assert (tb = ts) as <-.
  { clear -M F Tk. revert tb M. induction ts as [|x ts IH]; intros tb M.
    - destruct tb as [|? [|? ?]]; [reflexivity|discriminate M|discriminate M].
    - inversion F as [|? ? F1 F2]; subst. destruct tb as [|y tb]; injection M as -> M; [congruence|]. f_equal. auto. }
  exact D.
Qed.
