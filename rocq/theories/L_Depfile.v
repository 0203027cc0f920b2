From Coq Require Import Arith Lia.
From Verif Require Import Base M_Depfile S_Depfile.

(** ** Characters *)
Definition simple (c : ascii) : Prop := c <> CR /\ cval c <> 255.
Lemma getc_simple : forall c s, simple c -> src_getc (c :: s) = (Some c, s).
Proof.
  intros c s [A A']. unfold src_getc. destruct (ceqb_spec c CR) as [->|_]; [tauto|].
  destruct (Nat.eqb_spec (cval c) 255); [tauto|reflexivity].
Qed.
Ltac letters H :=
  cbn in H; repeat destruct H as [H|H]; try contradiction H; subst.
Lemma alnum_simple : forall c, is_alnum c = true -> simple c.
Proof.
  intros c H. unfold is_alnum, is_alpha, is_lower, is_upper, is_digit in H. split.
  - intros ->. vm_compute in H. discriminate.
  - intros E. rewrite E in H. vm_compute in H. discriminate.
Qed.
Lemma letter_simple : forall c, name_letter c -> simple c.
Proof.
  intros c [H|[H|[H|H]]]; [apply alnum_simple, H| | |]; try (subst c; split; vm_compute; discriminate).
  letters H; split; vm_compute; discriminate.
Qed.
Lemma getc_end : forall e s, line_end e -> src_getc (e ++ s) = (Some NL, s).
Proof. intros e s [->| ->]; reflexivity. Qed.
Lemma is_eq : forall c d, is d (Some c) = true <-> c = d.
Proof. intros c d. cbn. destruct (ceqb_spec c d); split; congruence. Qed.
Lemma is_neq : forall c d, c <> d -> is d (Some c) = false.
Proof. intros c d N. cbn. destruct (ceqb_spec c d); congruence. Qed.
Lemma letter_char : forall c, name_letter c -> c <> "#"%char -> ~ blank c -> name_char (Some c) = true.
Proof.
  intros c [H|[H|H]] N1 N2; [unfold name_char; rewrite H; reflexivity| |tauto].
  letters H; try reflexivity; congruence.
Qed.
Lemma blank_isblank : forall c, blank c <-> isblank (Some c) = true.
Proof.
  intros c. unfold isblank, blank. rewrite orb_true_iff, !is_eq. tauto.
Qed.
Lemma blank_b_eq : forall c, blank_b c = isblank (Some c).
Proof. reflexivity. Qed.

(** ** Backslashes *)
Lemma pairs_count : forall n, 1 <= n -> Nat.div2 n + pairs n = n - 1.
Proof.
  induction n as [n IH] using (well_founded_induction lt_wf). intros L.
  destruct n as [|[|[|n]]]; [lia|reflexivity|reflexivity|].
  specialize (IH (S n) ltac:(lia) ltac:(lia)).
  change (pairs (S (S (S n)))) with (S (pairs (S n))). change (Nat.div2 (S (S (S n)))) with (S (Nat.div2 (S n))). lia.
Qed.
Lemma repeat_snoc : forall A (x : A) n, repeat x n ++ [x] = repeat x (S n).
Proof. intros. symmetry. rewrite <- Nat.add_1_r. apply repeat_app. Qed.
Lemma div2_next : forall n, Nat.div2 (S n) = if Nat.even (S n) then S (Nat.div2 n) else Nat.div2 n.
Proof.
  intros n. destruct (Nat.even (S n)) eqn:E.
  - rewrite Nat.even_succ in E. apply Nat.odd_spec in E. destruct E as [m ->].
    replace (S (2 * m + 1)) with (2 * (S m)) by lia. replace (2 * m + 1) with (S (2 * m)) by lia.
    rewrite Nat.div2_double, Nat.div2_succ_double. reflexivity.
  - rewrite Nat.even_succ in E. assert (Ev : Nat.even n = true) by (rewrite <- Nat.negb_odd, E; reflexivity).
    apply Nat.even_spec in Ev. destruct Ev as [m ->]. rewrite Nat.div2_double, Nat.div2_succ_double. reflexivity.
Qed.
Lemma slashes_run : forall m fuel n buf t c s, src_getc t = (c, s) -> is BSLASH c = false -> m < fuel ->
  slashes fuel n (repeat BSLASH m ++ t) buf
  = Ok (n + m + 1, c, s, buf ++ repeat BSLASH (Nat.div2 (n + m + 1) - Nat.div2 n)).
Proof.
  assert (Odd : forall n (buf : bytes), (if Nat.even (S n) then buf ++ [BSLASH] else buf)
    = buf ++ repeat BSLASH (Nat.div2 (S n) - Nat.div2 n)).
  { intros n buf. rewrite div2_next. destruct (Nat.even (S n)).
    - replace (S (Nat.div2 n) - Nat.div2 n) with 1 by lia. reflexivity.
    - rewrite Nat.sub_diag. cbn. rewrite app_nil_r. reflexivity. }
  assert (Mono : forall a b, a <= b -> Nat.div2 a <= Nat.div2 b).
  { intros a b L. induction L as [|b L IH]; [lia|]. rewrite div2_next. destruct (Nat.even (S b)); lia. }
  induction m as [|m IH]; intros fuel n buf t c s G N F; (destruct fuel as [|fuel]; [lia|]); cbn [slashes repeat app].
  - rewrite G, N, Odd. replace (n + 0 + 1) with (S n) by lia. reflexivity.
  - change (src_getc (BSLASH :: repeat BSLASH m ++ t)) with (Some BSLASH, repeat BSLASH m ++ t). cbv iota beta.
    change (is BSLASH (Some BSLASH)) with true. cbv iota.
    rewrite (IH fuel (S n) _ t c s G N ltac:(lia)), Odd, <- app_assoc, <- repeat_app.
    replace (n + S m + 1) with (S n + m + 1) by lia. do 4 f_equal.
    assert (A := Mono n (S n) ltac:(lia)). assert (B' := Mono (S n) (S n + m + 1) ltac:(lia)). lia.
Qed.

(** ** Reading a name *)
(** after [t], which ends a name, the reader looks at [c] and [s] follows *)
Inductive stop : nat -> bytes -> int_ -> bytes -> Prop :=
| stop_char t c s : src_getc t = (c, s) -> name_char c = false -> stop 0 t c s
| stop_line e s : line_end e -> stop 1 (BSLASH :: e ++ s) (Some " "%char) s.

Lemma run_split : forall n : bytes, (exists c r, n = r ++ [c] /\ c <> BSLASH) ->
  exists k c r, n = repeat BSLASH k ++ c :: r /\ c <> BSLASH.
Proof.
  induction n as [|c n IH]; intros (d & r & E & N); [destruct r; discriminate|].
  destruct (ceqb_spec c BSLASH) as [->|C]; [|exists 0, c, n; auto].
  destruct n as [|c' n]; [destruct r as [|? [|? ?]]; [injection E as E; congruence|discriminate|discriminate]|].
  destruct IH as (k & x & y & E2 & N2).
  - destruct r as [|a r]; [discriminate|]. injection E as _ E. exists d, r. auto.
  - rewrite E2. exists (S k), x, y. auto.
Qed.
Lemma before_blank_run : forall k c r, c <> BSLASH -> before_blank (repeat BSLASH k ++ c :: r) = blank_b c.
Proof.
  induction k as [|k IH]; intros c r N; cbn [repeat app before_blank].
  - destruct (ceqb_spec c BSLASH); [tauto|reflexivity].
  - apply IH, N.
Qed.
Lemma escaped_run : forall k c r, c <> BSLASH ->
  escaped (repeat BSLASH k ++ c :: r) = repeat BSLASH (if blank_b c then 2 * k else k) ++ escaped (c :: r).
Proof.
  induction k as [|k IH]; intros c r N; [destruct (blank_b c); reflexivity|].
  specialize (IH c r N). assert (Bb := before_blank_run k c r N). cbn [repeat app].
  change (escaped (BSLASH :: repeat BSLASH k ++ c :: r))
    with ((if before_blank (repeat BSLASH k ++ c :: r) then [BSLASH; BSLASH] else [BSLASH])
          ++ escaped (repeat BSLASH k ++ c :: r)).
  rewrite Bb, IH. generalize (escaped (c :: r)). intros tl. destruct (blank_b c).
  - replace (2 * S k) with (S (S (2 * k))) by lia. reflexivity.
  - reflexivity.
Qed.
Lemma last_tail : forall k (c : ascii) r, (exists d r', repeat BSLASH k ++ c :: r = r' ++ [d] /\ d <> BSLASH) ->
  r = [] \/ exists d r', r = r' ++ [d] /\ d <> BSLASH.
Proof.
  intros k c r (d & r' & E & N). destruct r as [|x r]; [left; reflexivity|right].
  destruct (exists_last (l := x :: r) ltac:(discriminate)) as (r2 & y & E2). exists y, r2. split; [exact E2|].
  rewrite E2 in E. change (repeat BSLASH k ++ (c :: r2) ++ [y] = r' ++ [d]) in E. rewrite app_assoc in E.
  apply app_inj_tail in E. destruct E as [_ ->]. exact N.
Qed.

Lemma word_reads : forall n k t c' s', Forall name_letter n ->
  n = [] \/ (exists c r, n = r ++ [c] /\ c <> BSLASH) -> stop k t c' s' ->
  forall fuel buf, length n + k < fuel ->
  forall c s, src_getc (escaped n ++ t) = (c, s) -> word fuel c s buf = Ok (c', s', buf ++ n).
Proof.
  intros n. induction n as [n IH] using (well_founded_induction (well_founded_ltof _ (@length ascii))).
  unfold ltof in IH. intros k t c' s' F L Sp fuel buf Fu c s G.
  destruct n as [|c0 n0] eqn:En.
  - (* the end of the name *)
    cbn [escaped app] in G. rewrite app_nil_r. destruct fuel as [|fuel]; [cbn in Fu; lia|].
    destruct Sp as [t c' s' G' N|e s' E].
    + rewrite G in G'. injection G' as -> ->. cbn [word]. rewrite N. reflexivity.
    + change (src_getc (BSLASH :: e ++ s')) with (Some BSLASH, e ++ s') in G. injection G as <- <-.
      cbn [word]. change (name_char (Some BSLASH)) with true. change (is BSLASH (Some BSLASH)) with true. cbv iota.
      assert (R := slashes_run 0 (S (length (e ++ s'))) 0 buf (e ++ s') (Some NL) s' (getc_end e s' E) eq_refl ltac:(lia)).
      cbn [repeat app Nat.add] in R. rewrite R. cbn [Nat.div2 Nat.sub repeat]. rewrite app_nil_r.
      change (isblank (Some NL)) with false. change (is "#" (Some NL)) with false. change (is NL (Some NL)) with true.
      cbn [andb pairs repeat]. rewrite app_nil_r. cbn in Fu. destruct fuel as [|fuel]; [lia|]. reflexivity.
  - destruct L as [L|L]; [discriminate|]. destruct (run_split (c0 :: n0) L) as (j & d & r & E & Nd).
    rewrite E in *. clear En E c0 n0. assert (Lr := last_tail j d r L). clear L.
    rewrite escaped_run, <- app_assoc in G by exact Nd. apply Forall_app in F. destruct F as [_ F].
    assert (Fd := Forall_inv F). assert (Fr := Forall_inv_tail F).
    rewrite app_length, repeat_length in Fu. cbn [length] in Fu.
    assert (Sd := letter_simple d Fd).
    (* the rest of the name *)
    assert (Rest : forall fuel' buf', length r + k < fuel' ->
      let '(c1, s1) := src_getc (escaped r ++ t) in word fuel' c1 s1 buf' = Ok (c', s', buf' ++ r)).
    { intros fuel' buf' Lf. destruct (src_getc (escaped r ++ t)) as [c1 s1] eqn:G1.
      apply (IH r ltac:(rewrite app_length; cbn; lia) k t c' s' Fr Lr Sp fuel' buf' Lf c1 s1 G1). }
    destruct fuel as [|fuel]; [lia|].
    assert (Cat : forall x : bytes, (buf ++ x) ++ r = buf ++ x ++ r) by (intros; symmetry; apply app_assoc).
    destruct (blank_b d) eqn:Bd.
    + (* a blank *)
      assert (Ed : escaped (d :: r) = BSLASH :: d :: escaped r).
      { cbn [escaped]. rewrite Bd, orb_true_r. apply blank_isblank in Bd. destruct Bd as [-> | ->]; reflexivity. }
      rewrite Ed in G. change ((BSLASH :: d :: escaped r) ++ t) with ([BSLASH] ++ d :: escaped r ++ t) in G.
      rewrite app_assoc, repeat_snoc in G. cbn [repeat app] in G. rewrite (getc_simple BSLASH) in G by (split; vm_compute; discriminate).
      injection G as <- <-. cbn [word]. change (name_char (Some BSLASH)) with true.
      change (is BSLASH (Some BSLASH)) with true. cbv iota.
      rewrite (slashes_run (2 * j) _ 0 buf (d :: escaped r ++ t) (Some d) (escaped r ++ t));
        [|apply getc_simple, Sd|apply is_neq, Nd|rewrite app_length, repeat_length; lia].
      cbn [Nat.add Nat.div2]. rewrite Nat.sub_0_r. rewrite blank_b_eq in Bd. rewrite Bd.
      replace (2 * j + 1) with (S (2 * j)) by lia. rewrite Nat.div2_succ_double, Nat.odd_succ.
      assert (Ev : Nat.even (2 * j) = true) by (apply Nat.even_spec; exists j; lia). rewrite Ev. cbn [andb].
      specialize (Rest fuel ((buf ++ repeat BSLASH j) ++ [d]) ltac:(lia)).
      destruct (src_getc (escaped r ++ t)) as [c1 s1]. rewrite Rest, <- !app_assoc. reflexivity.
    + destruct (ceqb_spec d "#") as [->|Nh].
      * (* a number sign *)
        change (escaped ("#"%char :: r)) with ([BSLASH] ++ "#"%char :: escaped r) in G.
        rewrite <- app_assoc in G. rewrite app_assoc, repeat_snoc in G. cbn [repeat app] in G.
        rewrite (getc_simple BSLASH) in G by (split; vm_compute; discriminate).
        injection G as <- <-. cbn [word]. change (name_char (Some BSLASH)) with true.
        change (is BSLASH (Some BSLASH)) with true. cbv iota.
        rewrite (slashes_run j _ 0 buf ("#"%char :: escaped r ++ t) (Some "#"%char) (escaped r ++ t));
          [|reflexivity|reflexivity|rewrite app_length, repeat_length; lia].
        change (isblank (Some "#"%char)) with false. change (is "#" (Some "#"%char)) with true. cbn [andb Nat.add Nat.div2].
        rewrite (app_assoc_reverse buf (repeat BSLASH (Nat.div2 (j + 1) - 0))), <- repeat_app.
        replace (Nat.div2 (j + 1) - 0 + pairs (j + 1)) with j by (assert (Pc := pairs_count (j + 1)); lia).
        specialize (Rest fuel ((buf ++ repeat BSLASH j) ++ ["#"%char]) ltac:(lia)).
        destruct (src_getc (escaped r ++ t)) as [c1 s1]. rewrite Rest, <- !app_assoc. reflexivity.
      * assert (Bd' : ~ blank d). { rewrite blank_isblank, <- blank_b_eq, Bd. discriminate. }
        assert (Nc := letter_char d Fd Nh Bd').
        assert (Head : exists h, escaped (d :: r) = d :: h).
        { cbn [escaped]. destruct (ceqb_spec d "$") as [->|]; [eexists; reflexivity|].
          destruct (ceqb_spec d "#") as [|_]; [tauto|]. rewrite Bd. destruct (ceqb_spec d BSLASH); [tauto|].
          eexists; reflexivity. }
        destruct j as [|j].
        -- (* another character *)
           cbn [repeat app] in G |- *. destruct (ceqb_spec d "$") as [->|Nd'].
           ++ change (escaped ("$"%char :: r)) with ("$"%char :: "$"%char :: escaped r) in G.
              cbn [app] in G. rewrite getc_simple in G by exact Sd. injection G as <- <-.
              cbn [word]. change (name_char (Some "$"%char)) with true. change (is BSLASH (Some "$"%char)) with false.
              change (is "$" (Some "$"%char)) with true. cbv iota. rewrite getc_simple by exact Sd.
              change (is "$" (Some "$"%char)) with true. cbn [negb].
              specialize (Rest fuel (buf ++ ["$"%char]) ltac:(lia)).
              destruct (src_getc (escaped r ++ t)) as [c1 s1]. rewrite Rest, <- app_assoc. reflexivity.
           ++ assert (Ed : escaped (d :: r) = d :: escaped r).
              { cbn [escaped]. destruct (ceqb_spec d "$"); [tauto|]. destruct (ceqb_spec d "#") as [|_]; [tauto|].
                rewrite Bd. destruct (ceqb_spec d BSLASH); [tauto|]. reflexivity. }
              rewrite Ed in G. cbn [app] in G. rewrite getc_simple in G by exact Sd. injection G as <- <-.
              cbn [word]. rewrite Nc, !is_neq by assumption.
              specialize (Rest fuel (buf ++ [d]) ltac:(lia)).
              destruct (src_getc (escaped r ++ t)) as [c1 s1]. rewrite Rest, <- app_assoc. reflexivity.
        -- (* backslashes before another character *)
           destruct Head as [h Hh]. cbn [repeat app] in G.
           rewrite (getc_simple BSLASH) in G by (split; vm_compute; discriminate). injection G as <- <-.
           cbn [word]. change (name_char (Some BSLASH)) with true. change (is BSLASH (Some BSLASH)) with true. cbv iota.
           assert (G2 : src_getc (escaped (d :: r) ++ t) = (Some d, h ++ t)).
           { rewrite Hh. cbn [app]. apply getc_simple, Sd. }
           rewrite (slashes_run j _ 0 buf _ (Some d) (h ++ t) G2);
             [|apply is_neq, Nd|rewrite app_length, repeat_length; lia].
           rewrite blank_b_eq in Bd. rewrite Bd. cbn [andb]. rewrite (is_neq d "#" Nh).
           assert (Nnl : d <> NL).
           { intros ->. vm_compute in Nc. discriminate. }
           rewrite (is_neq d NL Nnl). cbn [Nat.add Nat.div2]. rewrite (app_assoc_reverse buf (repeat BSLASH (Nat.div2 (j + 1) - 0))), <- repeat_app.
           replace (Nat.div2 (j + 1) - 0 + pairs (j + 1)) with j by (assert (Pc := pairs_count (j + 1)); lia).
           rewrite <- app_assoc, repeat_snoc.
           rewrite (IH (d :: r) ltac:(rewrite app_length, repeat_length; cbn; lia) k t c' s' F) with (fuel := fuel) (c := Some d) (s := h ++ t).
           ++ rewrite <- app_assoc. reflexivity.
           ++ right. destruct Lr as [->|(y & r2 & -> & Ny)]; [exists d, []; auto|].
              exists y, (d :: r2). auto.
           ++ exact Sp.
           ++ cbn [length]. lia.
           ++ exact G2.
Qed.

(** ** Gaps and ends of lines *)
(** the characters that are still to be looked at *)
Definition size (c : int_) (s : bytes) : nat := length s + match c with Some _ => 1 | None => 0 end.
Lemma getc_size : forall t c s, src_getc t = (c, s) -> size c s <= length t.
Proof.
  intros t c s E. unfold size. destruct t as [|d t]; [injection E as <- <-; cbn; lia|]. cbn [src_getc] in E.
  destruct (if ceqb d CR then t else []) as [|d' t'] eqn:T.
  - destruct (cval d =? 255); injection E as <- <-; cbn; lia.
  - destruct (ceqb_spec d CR) as [_|]; [|discriminate]. subst t.
    destruct (ceqb d' NL); injection E as <- <-; cbn; lia.
Qed.
Lemma size_fuel : forall c s, size c s < S (S (length s)).
Proof. intros [c|] s; unfold size; lia. Qed.
Lemma blank_simple : forall c, blank c -> simple c.
Proof. intros c H. apply letter_simple. right. right. exact H. Qed.
Lemma blank_not_slash : forall c, blank c -> is BSLASH (Some c) = false.
Proof. intros c [-> | ->]; reflexivity. Qed.
Lemma skip_gap_ok : forall g, gap g -> forall t c s, src_getc t = (c, s) -> is BSLASH c = false -> isblank c = false ->
  forall fuel c0 s0, src_getc (g ++ t) = (c0, s0) -> size c0 s0 < fuel -> skip_gap fuel c0 s0 = Ok (c, s).
Proof.
  induction 1 as [|d g Hd Hg IH|e g He Hg IH]; intros t c s G N1 N2 fuel c0 s0 G0 L;
    (destruct fuel as [|fuel]; [lia|]); cbn [skip_gap].
  - cbn [app] in G0. rewrite G in G0. injection G0 as <- <-. rewrite N1, N2. reflexivity.
  - cbn [app] in G0. rewrite getc_simple in G0 by apply blank_simple, Hd. injection G0 as <- <-.
    rewrite (blank_not_slash d Hd). apply blank_isblank in Hd. rewrite Hd.
    destruct (src_getc (g ++ t)) as [c1 s1] eqn:G1. apply (IH t c s G N1 N2 fuel c1 s1 G1).
    apply getc_size in G1. unfold size in *. lia.
  - cbn [app] in G0. rewrite (getc_simple BSLASH) in G0 by (split; vm_compute; discriminate). injection G0 as <- <-.
    change (is BSLASH (Some BSLASH)) with true. cbv iota. rewrite <- app_assoc, (getc_end e _ He).
    change (negb (is NL (Some NL))) with false. cbv iota.
    destruct (src_getc (g ++ t)) as [c1 s1] eqn:G1. apply (IH t c s G N1 N2 fuel c1 s1 G1).
    apply getc_size in G1. unfold size in *. rewrite !app_length in *. lia.
Qed.
Lemma skip_ends_ok : forall e, ends e -> forall t c s, src_getc t = (c, s) -> is NL c = false ->
  forall fuel c0 s0, src_getc (e ++ t) = (c0, s0) -> size c0 s0 < fuel -> skip_while (is NL) fuel c0 s0 = Ok (c, s).
Proof.
  induction 1 as [e He|e r He Hr IH]; intros t c s G N fuel c0 s0 G0 L;
    (destruct fuel as [|fuel]; [lia|]); cbn [skip_while].
  - rewrite getc_end in G0 by exact He. injection G0 as <- <-. change (is NL (Some NL)) with true. cbv iota.
    rewrite G. unfold size in L. destruct fuel as [|fuel]; [lia|]. cbn [skip_while]. rewrite N. reflexivity.
  - rewrite <- app_assoc, getc_end in G0 by exact He. injection G0 as <- <-. change (is NL (Some NL)) with true. cbv iota.
    destruct (src_getc (r ++ t)) as [c1 s1] eqn:G1. apply (IH t c s G N fuel c1 s1 G1).
    apply getc_size in G1. unfold size in *. lia.
Qed.
Lemma skip_blanks_ok : forall b, Forall blank b -> forall t c s, src_getc t = (c, s) -> isblank c = false ->
  forall fuel c0 s0, src_getc (b ++ t) = (c0, s0) -> size c0 s0 < fuel -> skip_while isblank fuel c0 s0 = Ok (c, s).
Proof.
  induction 1 as [|d b Hd Hb IH]; intros t c s G N fuel c0 s0 G0 L;
    (destruct fuel as [|fuel]; [lia|]); cbn [skip_while].
  - cbn [app] in G0. rewrite G in G0. injection G0 as <- <-. rewrite N. reflexivity.
  - cbn [app] in G0. rewrite getc_simple in G0 by apply blank_simple, Hd. injection G0 as <- <-.
    apply blank_isblank in Hd. rewrite Hd. destruct (src_getc (b ++ t)) as [c1 s1] eqn:G1.
    apply (IH t c s G N fuel c1 s1 G1). apply getc_size in G1. unfold size in *. lia.
Qed.

(** ** Names *)
Lemma escaped_length : forall n, length n <= length (escaped n).
Proof.
  induction n as [|c n IH]; [reflexivity|]. cbn [escaped]. rewrite app_length.
  destruct (ceqb c "$"); [cbn; lia|]. destruct (ceqb c "#" || blank_b c); [cbn; lia|].
  destruct (ceqb c BSLASH && before_blank n); cbn; lia.
Qed.
Lemma escaped_head : forall n, file_name n -> exists c h, escaped n = c :: h /\ simple c /\
  ~ blank c /\ c <> BSLASH /\ c <> NL.
Proof.
  intros n (F & (c & r & -> & N1 & N2 & N3) & _). apply Forall_inv in F. exists c.
  assert (Nl : c <> NL).
  { intros ->. assert (X := letter_char NL F N2 N1). vm_compute in X. discriminate. }
  assert (Sc := letter_simple c F). cbn [escaped].
  destruct (ceqb_spec c "$") as [->|]; [eexists; repeat split; try apply Sc; auto|].
  destruct (ceqb_spec c "#"); [tauto|]. destruct (blank_b c) eqn:Bc.
  { exfalso. apply N1, blank_isblank. exact Bc. }
  destruct (ceqb_spec c BSLASH); [tauto|]. eexists. repeat split; try apply Sc; auto.
Qed.
Lemma stop_length : forall k t c s, stop k t c s -> k <= length t.
Proof. intros k t c s [t' c' s' _ _|e s' _]; cbn; lia. Qed.
Lemma name_reads : forall n k t c' s' c s, file_name n -> stop k t c' s' ->
  src_getc (escaped n ++ t) = (c, s) -> word (S (S (length s))) c s [] = Ok (c', s', n).
Proof.
  intros n k t c' s' c s Hn Sp G. destruct (escaped_head n Hn) as (d & h & E & Sd & _).
  assert (Le := escaped_length n). assert (Lk := stop_length k t c' s' Sp).
  destruct Hn as (F & _ & La). apply (word_reads n k t c' s' F (or_intror La) Sp _ [] ); [|exact G].
  rewrite E in G, Le. cbn [app] in G. rewrite getc_simple in G by exact Sd. injection G as <- <-.
  rewrite app_length. cbn [length] in Le. lia.
Qed.
Lemma no_word : forall c s, name_char c = false -> word (S (S (length s))) c s [] = Ok (c, s, []).
Proof. intros c s N. cbn [word]. rewrite N. reflexivity. Qed.
(** what follows a name *)
Lemma gap_stop : forall g, gap g -> forall rest c1 s1, src_getc rest = (c1, s1) -> name_char c1 = false ->
  is BSLASH c1 = false -> isblank c1 = false ->
  exists k c' s', stop k (g ++ rest) c' s' /\
    (g = [] /\ c' = c1 /\ s' = s1 \/
     g <> [] /\ isblank c' = true /\ skip_gap (S (S (length s'))) c' s' = Ok (c1, s1)).
Proof.
  intros g Hg rest c1 s1 G N1 N2 N3. destruct Hg as [|d g Hd Hg|e g He Hg].
  - exists 0, c1, s1. split; [constructor; assumption|]. left. auto.
  - exists 0, (Some d), (g ++ rest). assert (Gd := getc_simple d (g ++ rest) (blank_simple d Hd)).
    split; [constructor; [exact Gd|destruct Hd as [-> | ->]; reflexivity]|]. right.
    split; [discriminate|]. split; [apply blank_isblank, Hd|].
    apply (skip_gap_ok (d :: g) (g_blank d g Hd Hg) rest c1 s1 G N2 N3); [exact Gd|unfold size; lia].
  - exists 1, (Some " "%char), (g ++ rest). split.
    + cbn [app]. rewrite <- app_assoc. constructor. exact He.
    + right. split; [discriminate|]. split; [reflexivity|].
      apply (skip_gap_ok (" "%char :: g) (g_blank " " g (or_introl eq_refl) Hg) rest c1 s1 G N2 N3);
        [reflexivity|unfold size; lia].
Qed.
Lemma gap_stop_name : forall g, gap g -> g <> [] -> forall n t c1 s1, file_name n -> src_getc (escaped n ++ t) = (c1, s1) ->
  exists k c' s', stop k (g ++ escaped n ++ t) c' s' /\
    isblank c' = true /\ skip_gap (S (S (length s'))) c' s' = Ok (c1, s1).
Proof.
  intros g Hg Ng n t c1 s1 Hn G. destruct (escaped_head n Hn) as (x & h & E & Sx & B1 & B2 & _).
  assert (C1 : c1 = Some x). { rewrite E in G. cbn [app] in G. rewrite getc_simple in G by exact Sx. congruence. }
  assert (N2 : is BSLASH c1 = false) by (rewrite C1; apply is_neq, B2).
  assert (N3 : isblank c1 = false).
  { rewrite C1. destruct (isblank (Some x)) eqn:Bx; [|reflexivity]. apply blank_isblank in Bx. tauto. }
  destruct Hg as [|d g Hd Hg|e g He Hg]; [tauto| |].
  - exists 0, (Some d), (g ++ escaped n ++ t). assert (Gd := getc_simple d (g ++ escaped n ++ t) (blank_simple d Hd)).
    split; [constructor; [exact Gd|destruct Hd as [-> | ->]; reflexivity]|].
    split; [apply blank_isblank, Hd|].
    apply (skip_gap_ok (d :: g) (g_blank d g Hd Hg) _ c1 s1 G N2 N3); [exact Gd|unfold size; lia].
  - exists 1, (Some " "%char), (g ++ escaped n ++ t). split.
    + cbn [app]. rewrite <- app_assoc. constructor. exact He.
    + split; [reflexivity|].
      apply (skip_gap_ok (" "%char :: g) (g_blank " " g (or_introl eq_refl) Hg) _ c1 s1 G N2 N3);
        [reflexivity|unfold size; lia].
Qed.

(** ** Rules *)
(** the end of a rule: what happens at the end of the file or of a line *)
Definition close (fuel : nat) (c : int_) (s : bytes) (out : option bytes) (deps : list bytes) : outcome (list bytes) :=
  match c with
  | None => Ok deps
  | Some _ =>
      match skip_while (is NL) (S (S (length s))) c s with
      | Ok (None, _) => Ok deps
      | Ok (Some c, s) =>
          match skip_gap (S (S (length s))) (Some c) s with
          | Ok (c, s) => rules fuel c s false out deps
          | Error => Error | Exit => Exit | NoFuel => NoFuel
          end
      | Error => Error | Exit => Exit | NoFuel => NoFuel
      end
  end.
Definition line_over (c : int_) : Prop := c = None \/ c = Some NL.
Lemma over_char : forall c, line_over c -> name_char c = false /\ is BSLASH c = false /\ isblank c = false.
Proof. intros c [-> | ->]; repeat split. Qed.
Lemma close_now : forall fuel c s out deps buf c0 s0, word (S (S (length s0))) c0 s0 [] = Ok (c, s, buf) -> line_over c ->
  rules (S fuel) c0 s0 true out deps = close fuel c s out (match buf with [] => deps | _ => deps ++ [buf] end).
Proof.
  intros fuel c s out deps buf c0 s0 W [-> | ->]; cbn [rules]; rewrite W; [reflexivity|].
  change (negb (isspace (Some NL))) with false. change (is NL (Some NL)) with true. cbn [andb]. unfold close.
  destruct (skip_while (is NL) (S (S (length s))) (Some NL) s) as [[[c|] s']| | |]; reflexivity.
Qed.
Lemma next_word : forall fuel c s out deps buf c0 s0 c1 s1, word (S (S (length s0))) c0 s0 [] = Ok (c, s, buf) ->
  isblank c = true -> skip_gap (S (S (length s))) c s = Ok (c1, s1) ->
  rules (S fuel) c0 s0 true out deps = rules fuel c1 s1 true out (match buf with [] => deps | _ => deps ++ [buf] end).
Proof.
  intros fuel c s out deps buf c0 s0 c1 s1 W Bl Sg. cbn [rules]. rewrite W.
  destruct c as [c|]; [|discriminate]. assert (Bc := Bl). apply blank_isblank in Bc.
  assert (Sp : isspace (Some c) = true) by (destruct Bc as [-> | ->]; reflexivity).
  assert (Nn : is NL (Some c) = false) by (destruct Bc as [-> | ->]; reflexivity).
  rewrite Sp, Nn. cbn [negb andb]. rewrite Sg. reflexivity.
Qed.
Lemma more_reads : forall ns t, more ns t -> forall rest c1 s1, src_getc rest = (c1, s1) -> line_over c1 ->
  forall n c s out deps, file_name n -> src_getc (escaped n ++ t ++ rest) = (c, s) ->
  exists k, forall fuel, rules (k + fuel) c s true out deps = close fuel c1 s1 out (deps ++ n :: ns).
Proof.
  induction 1 as [g Hg|g n' ns t Hg Ng Hn' Hm IH]; intros rest c1 s1 G Ov n c s out deps Hn G0.
  - destruct (over_char c1 Ov) as (N1 & N2 & N3).
    destruct (gap_stop g Hg rest c1 s1 G N1 N2 N3) as (k & c' & s' & Sp & Cases).
    assert (W := name_reads n k (g ++ rest) c' s' c s Hn Sp G0).
    assert (Nn : match n with [] => deps | _ => deps ++ [n] end = deps ++ [n]).
    { destruct Hn as (_ & (x & y & -> & _) & _). reflexivity. }
    destruct Cases as [(_ & -> & ->)|(_ & Bl & Sg)].
    + exists 1. intros fuel. cbn [Nat.add]. rewrite (close_now _ _ _ _ _ _ _ _ W Ov), Nn. reflexivity.
    + exists 2. intros fuel. cbn [Nat.add]. rewrite (next_word _ _ _ _ _ _ _ _ _ _ W Bl Sg), Nn.
      rewrite (close_now _ _ _ _ _ _ _ _ (no_word c1 s1 N1) Ov). reflexivity.
  - rewrite <- !app_assoc in G0. destruct (src_getc (escaped n' ++ t ++ rest)) as [c2 s2] eqn:G2.
    destruct (gap_stop_name g Hg Ng n' (t ++ rest) c2 s2 Hn' G2) as (k & c' & s' & Sp & Bl & Sg).
    assert (W := name_reads n k _ c' s' c s Hn Sp G0).
    assert (Nn : match n with [] => deps | _ => deps ++ [n] end = deps ++ [n]).
    { destruct Hn as (_ & (x & y & -> & _) & _). reflexivity. }
    destruct (IH rest c1 s1 G Ov n' c2 s2 out (deps ++ [n]) Hn' G2) as (k' & R).
    exists (S k'). intros fuel. cbn [Nat.add]. rewrite (next_word _ _ _ _ _ _ _ _ _ _ W Bl Sg), Nn, R, <- app_assoc.
    reflexivity.
Qed.
(** after the colon *)
Lemma listing_reads : forall ns t, listing ns t -> forall rest c1 s1, src_getc rest = (c1, s1) -> line_over c1 ->
  forall c s out deps, src_getc (t ++ rest) = (c, s) ->
  exists k c2 s2, skip_gap (S (S (length s))) c s = Ok (c2, s2) /\
    forall fuel, rules (k + fuel) c2 s2 true out deps = close fuel c1 s1 out (deps ++ ns).
Proof.
  intros ns t Hl rest c1 s1 G Ov c s out deps G0.
  assert (Sz : forall c s, size c s < S (S (length s))).
  { intros [x|] y; unfold size; lia. }
  assert (Head : forall n t', file_name n -> forall c3 s3, src_getc (escaped n ++ t') = (c3, s3) ->
            is BSLASH c3 = false /\ isblank c3 = false).
  { intros n t' Hn c3 s3 G3. destruct (escaped_head n Hn) as (x & h & E & Sx & B1 & B2 & _).
    rewrite E in G3. cbn [app] in G3. rewrite getc_simple in G3 by exact Sx. injection G3 as <- _.
    split; [apply is_neq, B2|]. destruct (isblank (Some x)) eqn:Bx; [|reflexivity]. apply blank_isblank in Bx. tauto. }
  destruct Hl as [ns t Hm|n ns t Hn Hm].
  - destruct Hm as [g Hg|g n ns t Hg Ng Hn Hm].
    + destruct (over_char c1 Ov) as (N1 & N2 & N3). exists 1, c1, s1.
      split; [apply (skip_gap_ok g Hg rest c1 s1 G N2 N3 _ c s G0 (Sz c s))|].
      intros fuel. cbn [Nat.add]. rewrite (close_now _ _ _ _ _ _ _ _ (no_word c1 s1 N1) Ov), app_nil_r. reflexivity.
    + rewrite <- !app_assoc in G0. destruct (src_getc (escaped n ++ t ++ rest)) as [c3 s3] eqn:G3.
      destruct (Head n _ Hn c3 s3 G3) as [N2 N3].
      destruct (more_reads ns t Hm rest c1 s1 G Ov n c3 s3 out deps Hn G3) as (k & R).
      exists k, c3, s3. split; [apply (skip_gap_ok g Hg _ c3 s3 G3 N2 N3 _ c s G0 (Sz c s))|exact R].
  - rewrite <- !app_assoc in G0. destruct (Head n _ Hn c s G0) as [N2 N3].
    destruct (more_reads ns t Hm rest c1 s1 G Ov n c s out deps Hn G0) as (k & R).
    exists k, c, s. split; [|exact R]. cbn [skip_gap]. rewrite N2, N3. reflexivity.
Qed.
(** a target, and the names of its rule *)
Lemma rule_reads : forall target ns b t, file_name target -> Forall blank b -> listing ns t ->
  forall rest c1 s1, src_getc rest = (c1, s1) -> line_over c1 ->
  forall c s out deps, src_getc (escaped target ++ b ++ ":"%char :: t ++ rest) = (c, s) ->
  out = None \/ out = Some target ->
  exists k, forall fuel, rules (k + fuel) c s false out deps = close fuel c1 s1 (Some target) (deps ++ ns).
Proof.
  intros target ns b t Ht Hb Hl rest c1 s1 G Ov c s out deps G0 Ho.
  assert (Gc : src_getc (":"%char :: t ++ rest) = (Some ":"%char, t ++ rest)) by reflexivity.
  destruct (src_getc (b ++ ":"%char :: t ++ rest)) as [c' s'] eqn:G'.
  assert (Sp : stop 0 (b ++ ":"%char :: t ++ rest) c' s').
  { constructor; [exact G'|]. destruct Hb as [|d b Hd Hb]; cbn [app] in G'.
    - rewrite Gc in G'. injection G' as <- _. reflexivity.
    - rewrite getc_simple in G' by apply blank_simple, Hd. injection G' as <- _. destruct Hd as [-> | ->]; reflexivity. }
  assert (W := name_reads target 0 _ c' s' c s Ht Sp G0).
  assert (Sk : skip_while isblank (S (S (length s'))) c' s' = Ok (Some ":"%char, t ++ rest)).
  { apply (skip_blanks_ok b Hb (":"%char :: t ++ rest) _ _ Gc eq_refl _ c' s' G'). unfold size. destruct c'; lia. }
  destruct (src_getc (t ++ rest)) as [c2 s2] eqn:G2.
  destruct (listing_reads ns t Hl rest c1 s1 G Ov c2 s2 (Some target) deps G2) as (k & c3 & s3 & Sg & R).
  exists (S k). intros fuel. cbn [Nat.add rules]. rewrite W, Sk. change (negb (is ":" (Some ":"%char))) with false.
  cbv iota beta.
  assert (No : match out with Some o => negb (beqb o target) | None => false end = false).
  { destruct Ho as [-> | ->]; [reflexivity|]. rewrite beqb_refl. reflexivity. }
  rewrite No, G2, Sg. destruct Ho as [-> | ->]; apply R.
Qed.
Lemma ends_head : forall e t, ends e -> exists s, src_getc (e ++ t) = (Some NL, s).
Proof.
  intros e t [e' He|e' r He _]; [|rewrite <- app_assoc]; rewrite getc_end by exact He; eexists; reflexivity.
Qed.
Lemma depfile_head : forall target ns text, file_name target -> depfile target ns text ->
  exists x s, src_getc text = (Some x, s) /\ x <> NL /\ is BSLASH (Some x) = false /\ isblank (Some x) = false.
Proof.
  intros target ns text Ht D. destruct (escaped_head target Ht) as (x & h & E & Sx & B1 & B2 & B3).
  assert (Bx : isblank (Some x) = false).
  { destruct (isblank (Some x)) eqn:Bx; [|reflexivity]. apply blank_isblank in Bx. tauto. }
  destruct D; rewrite E; cbn [app]; rewrite getc_simple by exact Sx; exists x; eexists;
    repeat split; try exact B3; try exact Bx; apply is_neq, B2.
Qed.
Lemma depfile_reads : forall target ns text, file_name target -> depfile target ns text ->
  forall c s out deps, src_getc text = (c, s) -> out = None \/ out = Some target ->
  exists k, forall fuel, rules (k + fuel) c s false out deps = Ok (deps ++ ns).
Proof.
  intros target ns text Ht D. induction D as [ns b t Hb Hl|ns b t e Hb Hl He|ns b t e b' ns' t' Hb Hl He Hb' Hd IH];
    intros c s out deps G Ho.
  - assert (G' : src_getc (escaped target ++ b ++ ":"%char :: t ++ []) = (c, s)) by (rewrite app_nil_r; exact G).
    destruct (rule_reads target ns b t Ht Hb Hl [] None [] eq_refl (or_introl eq_refl) c s out deps G' Ho) as (k & R).
    exists k. intros fuel. rewrite R. reflexivity.
  - destruct (ends_head e [] He) as (s1 & Ge). assert (Ge' := Ge). rewrite app_nil_r in Ge.
    destruct (rule_reads target ns b t Ht Hb Hl e _ _ Ge (or_intror eq_refl) c s out deps G Ho) as (k & R).
    exists k. intros fuel. rewrite R. unfold close.
    rewrite (skip_ends_ok e He [] None [] eq_refl eq_refl _ _ _ Ge' (size_fuel _ _)). reflexivity.
  - destruct (ends_head e (b' ++ t') He) as (s1 & Ge).
    destruct (rule_reads target ns b t Ht Hb Hl _ _ _ Ge (or_intror eq_refl) c s out deps G Ho) as (k & R).
    destruct (depfile_head target ns' t' Ht Hd) as (x & sx & Gx & X1 & X2 & X3).
    destruct (IH (Some x) sx (Some target) (deps ++ ns) Gx (or_intror eq_refl)) as (k' & R').
    destruct (src_getc (b' ++ t')) as [c2 s2] eqn:G2.
    assert (C2 : exists d, c2 = Some d /\ is NL c2 = false).
    { destruct Hb' as [|d b' Hbd Hb']; cbn [app] in G2.
      - rewrite Gx in G2. injection G2 as <- _. exists x. split; [reflexivity|apply is_neq, X1].
      - rewrite getc_simple in G2 by apply blank_simple, Hbd. injection G2 as <- _. exists d. split; [reflexivity|].
        destruct Hbd as [-> | ->]; reflexivity. }
    destruct C2 as (d & Ed & Nd).
    exists (k + k'). intros fuel. rewrite <- Nat.add_assoc, R. unfold close.
    rewrite (skip_ends_ok e He _ c2 s2 G2 Nd _ _ _ Ge (size_fuel _ _)), Ed.
    assert (Gb : gap b') by (clear -Hb'; induction Hb'; constructor; assumption).
    rewrite Ed in G2.
    rewrite (skip_gap_ok b' Gb t' (Some x) sx Gx X2 X3 _ _ _ G2 (size_fuel _ _)), R', app_assoc. reflexivity.
Qed.

(** ** The reader ends *)
Definition calm (c : int_) : Prop := match c with Some c => c <> VT /\ c <> FF /\ c <> CR | None => True end.
Lemma tidy_tail : forall c s, tidy (c :: s) -> tidy s.
Proof. intros c s T a d b ->. apply (T (c :: a) d b eq_refl). Qed.
Lemma getc_tidy : forall t c s, src_getc t = (c, s) -> tidy t -> calm c /\ tidy s.
Proof.
  intros t c s G T. destruct t as [|d t]; cbn [src_getc] in G.
  - injection G as <- <-. split; [exact I|exact T].
  - destruct (T [] d t eq_refl) as (T1 & T2 & T3). assert (T' := tidy_tail d t T).
    destruct (ceqb_spec d CR) as [E|N].
    + destruct (T3 E) as (r & ->). change (ceqb NL NL) with true in G. injection G as <- <-.
      split; [repeat split; vm_compute; discriminate|]. apply (tidy_tail NL r T').
    + destruct (cval d =? 255); injection G as <- <-; (split; [|exact T']); [exact I|repeat split; assumption].
Qed.
(** what a step may leave *)
Definition left_of (m : nat) (c : int_) (s : bytes) : Prop := size c s <= m /\ (calm c /\ tidy s).
Lemma getc_left : forall s c' s', src_getc s = (c', s') -> tidy s -> left_of (length s) c' s'.
Proof. intros s c' s' G T. split; [apply (getc_size s c' s' G)|apply (getc_tidy s c' s' G T)]. Qed.
Lemma slashes_ends : forall fuel n s buf, length s < fuel -> tidy s ->
  exists n' c' s' buf', slashes fuel n s buf = Ok (n', c', s', buf') /\ left_of (length s) c' s'.
Proof.
  induction fuel as [|fuel IH]; intros n s buf L T; [lia|]. cbn [slashes].
  destruct (src_getc s) as [c1 s1] eqn:G. assert (Lf := getc_left s c1 s1 G T).
  destruct (is BSLASH c1) eqn:Bc; [|do 4 eexists; split; [reflexivity|exact Lf]].
  destruct Lf as (Ls & _ & T1). destruct c1 as [c1|]; [|discriminate]. unfold size in Ls.
  destruct (IH (S n) s1 (if Nat.even (S n) then buf ++ [BSLASH] else buf)) as (n' & c' & s' & buf' & E & L1 & L2);
    [lia|exact T1|]. rewrite E. do 4 eexists. split; [reflexivity|]. split; [lia|exact L2].
Qed.
Lemma word_ends : forall fuel c s buf, size c s < fuel -> calm c -> tidy s ->
  word fuel c s buf = Error \/
  exists c' s' buf', word fuel c s buf = Ok (c', s', buf') /\ name_char c' = false /\ left_of (size c s) c' s'.
Proof.
  induction fuel as [|fuel IH]; intros c s buf L C T; [lia|].
  assert (Step : forall c1 s1 buf1, left_of (length s) c1 s1 -> name_char c = true ->
            word fuel c1 s1 buf1 = Error \/
            exists c' s' buf', word fuel c1 s1 buf1 = Ok (c', s', buf') /\ name_char c' = false /\ left_of (size c s) c' s').
  { intros c1 s1 buf1 (L1 & C1 & T1) N. destruct c as [c|]; [|discriminate]. unfold size in L |- *.
    destruct (IH c1 s1 buf1) as [E|(c' & s' & buf' & E & N' & L' & R')]; [unfold size in *; lia|assumption|assumption|..].
    - left. exact E.
    - right. exists c', s', buf'. split; [exact E|]. split; [exact N'|]. split; [lia|exact R']. }
  cbn [word]. destruct (name_char c) eqn:N;
    [|right; exists c, s, buf; split; [reflexivity|]; split; [exact N|]; split; [unfold size; lia|split; assumption]].
  assert (Next : forall s1 buf1, tidy s1 -> length s1 <= length s ->
            (let '(c', s2) := src_getc s1 in word fuel c' s2 buf1) = Error \/
            exists c' s' buf', (let '(c', s2) := src_getc s1 in word fuel c' s2 buf1) = Ok (c', s', buf') /\
              name_char c' = false /\ left_of (size c s) c' s').
  { intros s1 buf1 T1 L1. destruct (src_getc s1) as [c2 s2] eqn:G. destruct (getc_left s1 c2 s2 G T1) as [L2 R2].
    apply Step; [split; [lia|exact R2]|reflexivity]. }
  destruct (is BSLASH c) eqn:Bs.
  - destruct (slashes_ends (S (length s)) 0 s buf ltac:(lia) T) as (n & c1 & s1 & buf1 & E & L1 & C1 & T1).
    rewrite E. destruct (isblank c1 && Nat.odd n).
    { apply Next; [exact T1|unfold size in L1; destruct c1; lia]. }
    destruct (is "#" c1). { apply Next; [exact T1|unfold size in L1; destruct c1; lia]. }
    destruct (is NL c1) eqn:Nl; (apply Step; [|reflexivity]).
    + destruct c1 as [c1|]; [|discriminate]. split; [exact L1|]. split; [repeat split; vm_compute; discriminate|exact T1].
    + split; [exact L1|split; assumption].
  - destruct (is "$" c) eqn:Ds.
    + destruct (src_getc s) as [c1 s1] eqn:G. destruct (getc_left s c1 s1 G T) as (L1 & _ & T1).
      destruct (negb (is "$" c1)); [left; reflexivity|]. apply Next; [exact T1|]. unfold size in L1. destruct c1; lia.
    + apply Next; [exact T|lia].
Qed.
Lemma skip_while_ends : forall p, p None = false -> forall fuel c s, size c s < fuel -> calm c -> tidy s ->
  exists c' s', skip_while p fuel c s = Ok (c', s') /\
    (p c = false /\ c' = c /\ s' = s \/ p c = true /\ left_of (length s) c' s').
Proof.
  intros p P0. induction fuel as [|fuel IH]; intros c s L C T; [lia|]. cbn [skip_while].
  destruct (p c) eqn:Pc; [|exists c, s; auto]. destruct c as [c|]; [|congruence].
  destruct (src_getc s) as [c1 s1] eqn:G. destruct (getc_left s c1 s1 G T) as (L1 & C1 & T1).
  unfold size in L. destruct (IH c1 s1) as (c' & s' & E & Cs); [lia|assumption..|].
  exists c', s'. split; [exact E|]. right. split; [reflexivity|].
  destruct Cs as [(_ & -> & ->)|(_ & L2 & R2)]; [split; [exact L1|split; assumption]|].
  split; [unfold size in L1; destruct c1; lia|exact R2].
Qed.
Lemma skip_gap_ends : forall fuel c s, size c s < fuel -> calm c -> tidy s ->
  skip_gap fuel c s = Error \/
  exists c' s', skip_gap fuel c s = Ok (c', s') /\
    (is BSLASH c = false /\ isblank c = false /\ c' = c /\ s' = s \/ left_of (length s) c' s').
Proof.
  induction fuel as [|fuel IH]; intros c s L C T; [lia|]. cbn [skip_gap].
  assert (Next : forall d s1, c = Some d -> tidy s1 -> length s1 <= length s ->
            (let '(c', s2) := src_getc s1 in skip_gap fuel c' s2) = Error \/
            exists c' s', (let '(c', s2) := src_getc s1 in skip_gap fuel c' s2) = Ok (c', s') /\ left_of (length s) c' s').
  { intros d s1 Ec T1 L1. subst c. unfold size in L. destruct (src_getc s1) as [c2 s2] eqn:G.
    destruct (getc_left s1 c2 s2 G T1) as (L2 & C2 & T2).
    destruct (IH c2 s2) as [E|(c' & s' & E & Cs)]; [lia|assumption..|left; exact E|]. right. exists c', s'. split; [exact E|].
    destruct Cs as [(_ & _ & -> & ->)|(L3 & R3)]; [split; [lia|split; assumption]|].
    split; [unfold size in L2; destruct c2; lia|exact R3]. }
  destruct (is BSLASH c) eqn:Bc.
  - destruct c as [c|]; [|discriminate]. destruct (src_getc s) as [d s1] eqn:G.
    destruct (getc_left s d s1 G T) as (L1 & _ & T1). destruct (negb (is NL d)); [left; reflexivity|].
    destruct (Next c s1 eq_refl T1 ltac:(unfold size in L1; destruct d; lia)) as [E|(c' & s' & E & Lf)];
      [left; exact E|right; exists c', s'; auto].
  - destruct (isblank c) eqn:Bl; [|right; exists c, s; auto 8]. destruct c as [c|]; [|discriminate].
    destruct (Next c s eq_refl T ltac:(lia)) as [E|(c' & s' & E & Lf)]; [left; exact E|right; exists c', s'; auto].
Qed.
Lemma calm_space : forall c, calm c -> isspace c = true -> is NL c = true \/ isblank c = true.
Proof.
  intros [c|] C Sp; [|discriminate]. destruct C as (C1 & C2 & C3). unfold isspace in Sp.
  apply Bool.orb_true_iff in Sp. destruct Sp as [R|E]; [|right; unfold isblank, is; rewrite E; reflexivity].
  apply Bool.andb_true_iff in R. destruct R as [R1 R2]. apply Nat.leb_le in R1, R2.
  destruct c as [b0 b1 b2 b3 b4 b5 b6 b7]; destruct b0, b1, b2, b3, b4, b5, b6, b7; try (vm_compute in R1, R2; lia);
    solve [left; reflexivity | right; reflexivity | exfalso; first [apply C1; reflexivity | apply C2; reflexivity | apply C3; reflexivity]].
Qed.
Lemma rules_end : forall fuel c s sawcolon out deps, size c s < fuel -> calm c -> tidy s ->
  rules fuel c s sawcolon out deps <> NoFuel.
Proof.
  induction fuel as [|fuel IH]; intros c s sawcolon out deps L C T; [lia|]. cbn [rules].
  destruct (word_ends (S (S (length s))) c s [] (size_fuel c s) C T) as [E|(c1 & s1 & buf & E & N & L1 & C1 & T1)];
    rewrite E; [discriminate|].
  assert (Next : forall c2 s2 sc o d, calm c2 -> tidy s2 ->
            size c2 s2 < fuel \/ size c2 s2 = fuel /\ isblank c2 = true ->
            match skip_gap (S (S (length s2))) c2 s2 with
            | Ok (c, s) => rules fuel c s sc o d
            | Error => Error | Exit => Exit | NoFuel => NoFuel
            end <> NoFuel).
  { intros c2 s2 sc o d C2 T2 L2. destruct (skip_gap_ends _ c2 s2 (size_fuel c2 s2) C2 T2) as [E2|(c3 & s3 & E2 & Cs)];
      rewrite E2; [discriminate|].
    destruct Cs as [(_ & B2 & -> & ->)|(L3 & C3 & T3)].
    - destruct L2 as [L2|[_ B3]]; [|congruence]. apply IH; assumption.
    - apply IH; try assumption. unfold size in L3, L2 |- *. destruct L2 as [L2|[L2 B3]]; [destruct c2; lia|].
      destruct c2; [|discriminate]. lia. }
  destruct sawcolon.
  - destruct (negb (isspace c1) && match c1 with Some _ => true | None => false end) eqn:Sp; [discriminate|].
    destruct c1 as [c1|]; [|discriminate]. rewrite Bool.andb_true_r in Sp. apply Bool.negb_false_iff in Sp.
    destruct (is NL (Some c1)) eqn:Nl.
    + destruct (skip_while_ends (is NL) eq_refl _ (Some c1) s1 (size_fuel (Some c1) s1) C1 T1) as (c2 & s2 & E2 & Cs).
      rewrite E2. destruct Cs as [(X & _)|(_ & L2 & C2 & T2)]; [congruence|].
      destruct c2 as [c2|]; [|discriminate]. apply Next; try assumption. left. unfold size in *. lia.
    + destruct (calm_space (Some c1) C1 Sp) as [X|Bl]; [congruence|]. apply Next; try assumption.
      destruct (Nat.eq_dec (size (Some c1) s1) fuel) as [Eq|Ne]; [right; split; [exact Eq|exact Bl]|left; lia].
  - destruct (skip_while_ends isblank eq_refl _ c1 s1 (size_fuel c1 s1) C1 T1) as (c2 & s2 & E2 & Cs). rewrite E2.
    destruct c2 as [c2|]; [|discriminate]. destruct (negb (is ":" (Some c2))); [discriminate|].
    destruct (match out with Some o => negb (beqb o buf) | None => false end); [discriminate|].
    destruct (src_getc s2) as [c3 s3] eqn:G.
    assert (T2 : tidy s2 /\ S (length s2) <= size c s).
    { destruct Cs as [(_ & Ec & ->)|(B1 & L2 & _ & T2)].
      - subst c1. split; [exact T1|]. unfold size in L1 |- *. lia.
      - split; [exact T2|]. destruct c1; [|discriminate]. unfold size in L1, L2 |- *. lia. }
    destruct T2 as [T2 Ls]. destruct (getc_left s2 c3 s3 G T2) as (L3 & C3 & T3).
    apply Next; try assumption. left. lia.
Qed.
Lemma depsparse_ends : forall text fuel, tidy text -> length text < fuel -> depsparse fuel text <> NoFuel.
Proof.
  intros text fuel T L. unfold depsparse. destruct (src_getc text) as [c s] eqn:G.
  destruct (getc_left text c s G T) as (L1 & C1 & T1). apply rules_end; try assumption. lia.
Qed.

(** ** The loop that does not end *)
Lemma stuck : forall fuel c s out deps, c = CR \/ c = VT \/ c = FF ->
  rules fuel (Some c) s true out deps = NoFuel.
Proof.
  induction fuel as [|fuel IH]; intros c s out deps H; [reflexivity|]. cbn [rules].
  rewrite no_word by (destruct H as [->|[->| ->]]; reflexivity).
  assert (E1 : isspace (Some c) = true) by (destruct H as [->|[->| ->]]; reflexivity).
  assert (E2 : is NL (Some c) = false) by (destruct H as [->|[->| ->]]; reflexivity).
  assert (E3 : skip_gap (S (S (length s))) (Some c) s = Ok (Some c, s)) by (destruct H as [->|[->| ->]]; reflexivity).
  rewrite E1, E2, E3. cbn [negb andb]. apply IH. exact H.
Qed.
