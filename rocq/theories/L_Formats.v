(** Lemmas about line iteration, TAP and ini parsing. *)
From Verif Require Import Base M_Str M_Format M_Formats S_Format S_Formats L_Str L_Format.
Local Arguments B _ : simpl never.
Local Arguments each_line_loop : simpl never.

(** ** lines *)
Lemma find_nl_nl l r : ~ In NL l -> ~ In NUL l -> find_nl (l ++ NL :: r) = Some (l, Some r).
Proof.
  induction l as [|c l IH]; intros H1 H2; [reflexivity|]. cbn [In app find_nl] in *.
  destruct (ceqb_spec c NL); [subst; tauto|]. destruct (ceqb_spec c NUL); [subst; tauto|]. now rewrite IH by tauto.
Qed.
Lemma find_nl_nul l r : ~ In NL l -> ~ In NUL l -> find_nl (l ++ NUL :: r) = Some (l, None).
Proof.
  induction l as [|c l IH]; intros H1 H2; [reflexivity|]. cbn [In app find_nl] in *.
  destruct (ceqb_spec c NL); [subst; tauto|]. destruct (ceqb_spec c NUL); [subst; tauto|]. now rewrite IH by tauto.
Qed.
Lemma find_nl_end l : ~ In NL l -> ~ In NUL l -> find_nl l = None.
Proof.
  induction l as [|c l IH]; intros H1 H2; [reflexivity|]. cbn [In find_nl] in *.
  destruct (ceqb_spec c NL); [subst; tauto|]. destruct (ceqb_spec c NUL); [subst; tauto|]. now rewrite IH by tauto.
Qed.
Lemma each_line_loop_eq {S} f (cb : S -> option ascii -> bytes -> option (S * bool)) st prev m off len :
  each_line_loop (Datatypes.S f) cb st prev m off len =
      match find_nl m with
      | None => None
      | Some (line, Some rest) =>
          match cb st prev line with
          | None => None
          | Some (st, false) => Some st
          | Some (st, true) =>
              let off := off + length line + 1 in
              if len <=? off then Some st else each_line_loop f cb st (Some NUL) rest off len
          end
      | Some (line, None) =>
          match line with
          | [] => Some st
          | _ => match cb st prev line with Some (st, _) => Some st | None => None end
          end
      end.
Proof. reflexivity. Qed.
Lemma lines_fun t : exists ls, lines_of t ls.
Proof.
  remember (length t) as n eqn:En. assert (H : length t <= n) by lia. clear En. revert t H. induction n as [|n IH]; intros t H.
  - destruct t; [exists []; constructor|simpl in H; lia].
  - destruct (break_at NL t) as [a b] eqn:E. pose proof (break_at_app _ _ _ _ E) as E1. pose proof (break_at_notin _ _ _ _ E) as E2. subst t.
    destruct (break_at_rest _ _ _ _ E) as [->|[b' ->]].
    + rewrite app_nil_r. destruct a; [exists []; constructor|]. eexists. constructor; [discriminate|exact E2].
    + destruct (IH b') as [ls Hls]; [rewrite app_length in H; simpl in H; lia|]. exists (a :: ls). now constructor.
Qed.
Lemma each_line_terminated {S} (cb : S -> option ascii -> bytes -> option (S * bool)) text ls junk : lines_of text ls -> ~ In NUL text ->
  forall f st prev off len, length text < f -> len = off + length text ->
  each_line_loop f cb st prev (text ++ NUL :: junk) off len = feed cb st prev ls.
Proof.
  induction 1 as [|l Hne Hl|l r ls Hl Hr IH]; intros Hn f st prev off len Hf Hlen; (destruct f as [|f]; [lia|]); rewrite each_line_loop_eq.
  - reflexivity.
  - rewrite find_nl_nul by assumption. destruct l as [|c l]; [congruence|]. cbn [feed]. destruct (cb st prev (c :: l)) as [[st' []]|]; reflexivity.
  - rewrite in_app_iff in Hn. cbn [In] in Hn. rewrite <- app_assoc. cbn [app]. rewrite find_nl_nl by tauto. cbn [feed].
    destruct (cb st prev l) as [[st' []]|]; try reflexivity. cbv zeta. rewrite app_length in Hf, Hlen. cbn [length] in Hf, Hlen.
    destruct (len <=? off + length l + 1) eqn:E.
    + apply Nat.leb_le in E. destruct r as [|c r]; [|cbn [length] in Hlen; lia]. inversion Hr; subst; [reflexivity|congruence|].
      match goal with X : _ ++ NL :: _ = [] |- _ => destruct (app_cons_not_nil _ _ _ (eq_sym X)) end.
    + apply IH; [tauto|lia|lia].
Qed.
Definition ends_nl (t : bytes) : Prop := exists a, t = a ++ [NL].
Lemma ends_nl_rest l r : ends_nl (l ++ NL :: r) -> r <> [] -> ends_nl r.
Proof.
  intros [a E] Hr. destruct (exists_last Hr) as (r' & c & ->). exists r'.
  rewrite app_comm_cons, app_assoc in E. apply app_inj_tail in E as [_ <-]. reflexivity.
Qed.
Lemma each_line_exact {S} (cb : S -> option ascii -> bytes -> option (S * bool)) text ls : lines_of text ls -> ~ In NUL text -> ends_nl text ->
  forall f st prev off len, length text < f -> len = off + length text ->
  each_line_loop f cb st prev text off len = feed cb st prev ls.
Proof.
  induction 1 as [|l Hne Hl|l r ls Hl Hr IH]; intros Hn He f st prev off len Hf Hlen; (destruct f as [|f]; [lia|]); rewrite each_line_loop_eq.
  - destruct He as [a E]. destruct (app_cons_not_nil _ _ _ E).
  - destruct He as [a ->]. rewrite in_app_iff in Hl. cbn [In] in Hl. tauto.
  - rewrite in_app_iff in Hn. cbn [In] in Hn. rewrite find_nl_nl by tauto. cbn [feed].
    destruct (cb st prev l) as [[st' []]|]; try reflexivity. cbv zeta. rewrite app_length in Hf, Hlen. cbn [length] in Hf, Hlen.
    destruct (len <=? off + length l + 1) eqn:E.
    + apply Nat.leb_le in E. destruct r as [|c r]; [|cbn [length] in Hlen; lia]. inversion Hr; subst; [reflexivity|congruence|].
      match goal with X : _ ++ NL :: _ = [] |- _ => destruct (app_cons_not_nil _ _ _ (eq_sym X)) end.
    + apply Nat.leb_nle in E. assert (r <> []) by (intros ->; cbn [length] in Hlen; lia). apply IH; [tauto|now apply (ends_nl_rest l)|lia|lia].
Qed.
(** without a final newline the search for one leaves the buffer *)
Lemma each_line_overrun {S} (cb : S -> option ascii -> bytes -> option (S * bool)) text ls : lines_of text ls -> ~ In NUL text -> ~ ends_nl text ->
  (forall st prev l r, cb st prev l = Some r -> snd r = true) ->
  forall f st prev off len, len = off + length text -> each_line_loop f cb st prev text off len = None.
Proof.
  induction 1 as [|l Hne Hl|l r ls Hl Hr IH]; intros Hn He Hcb f st prev off len Hlen; (destruct f as [|f]; [reflexivity|]); rewrite each_line_loop_eq.
  - reflexivity.
  - now rewrite find_nl_end.
  - rewrite in_app_iff in Hn. cbn [In] in Hn. rewrite find_nl_nl by tauto. rewrite app_length in Hlen. cbn [length] in Hlen.
    destruct (cb st prev l) as [[st' b]|] eqn:E; [|reflexivity]. pose proof (Hcb _ _ _ _ E) as Eb. cbn [snd] in Eb. subst b. cbv zeta.
    assert (r <> []) by (intros ->; apply He; now exists l). assert (X : len <=? off + length l + 1 = false) by (apply Nat.leb_nle; destruct r; [congruence|cbn [length] in *; lia]).
    rewrite X. apply IH; [tauto| |exact Hcb|lia]. intros [a ->]. apply He. exists (l ++ NL :: a). now rewrite <- app_assoc.
Qed.

(** ** TAP *)
Lemma strstr_spec x s : match strstr s x with
  | Some r => exists a b, s = a ++ r /\ r = x ++ b /\ (forall a' d', s = a' ++ x ++ d' -> length a <= length a')
  | None => forall a d, s <> a ++ x ++ d
  end.
Proof.
  induction s as [|c s IH]; cbn [strstr].
  - destruct (starts_with x []) eqn:E.
    + apply starts_with_spec in E as [r E]. exists [], r. split; [reflexivity|]. split; [exact E|]. simpl. lia.
    + intros a d H. destruct a; [|discriminate]. cbn [app] in H. assert (starts_with x [] = true) by (apply starts_with_spec; eauto). congruence.
  - destruct (starts_with x (c :: s)) eqn:E.
    + apply starts_with_spec in E as [r E]. exists [], r. split; [reflexivity|]. split; [exact E|]. simpl. lia.
    + destruct (strstr s x) as [r|].
      * destruct IH as (a & b & -> & -> & Hm). exists (c :: a), b. split; [reflexivity|]. split; [reflexivity|]. intros a' d' H. destruct a' as [|c' a'].
        -- cbn [app] in H. assert (starts_with x (c :: a ++ x ++ b) = true) by (apply starts_with_spec; eauto). congruence.
        -- cbn [app] in H. injection H as -> H. cbn [length]. apply Hm in H. lia.
      * intros a d H. destruct a as [|c' a].
        -- cbn [app] in H. assert (starts_with x (c :: s) = true) by (apply starts_with_spec; eauto). congruence.
        -- cbn [app] in H. injection H as -> H. now apply IH in H.
Qed.
Lemma says_spec w d : Forall (fun c => is_upper c = false) w -> str_startswithi d w = true <-> says w d.
Proof.
  intros Hw. assert (Hl : map lower w = w). { induction Hw as [|c w Hc _ IH]; [reflexivity|]. cbn [map]. unfold lower at 1. rewrite Hc. now f_equal. }
  unfold str_startswithi, says. split.
  - destruct (length d <? length w) eqn:E; [discriminate|]. apply Nat.ltb_ge in E. intros H. apply cmp_lower_spec in H; [|exact E].
    exists (firstn (length w) d), (skipn (length w) d). split; [now rewrite firstn_skipn|]. change lower with char_to_lower. rewrite H. exact Hl.
  - intros (x & y & -> & <-). rewrite app_length, map_length. destruct (length x + length y <? length x) eqn:E; [apply Nat.ltb_lt in E; lia|].
    apply cmp_lower_spec; rewrite ?app_length, ?map_length; [lia|]. rewrite firstn_app, firstn_all, Nat.sub_diag. cbn [firstn]. rewrite app_nil_r.
    change char_to_lower with lower. symmetry. rewrite map_map in Hl |- *. exact Hl.
Qed.
Lemma directive_unique rest d d' : directive_text rest d -> directive_text rest d' -> d = d'.
Proof.
  intros (a & E & H) (a' & E' & H'). assert (L : length a = length a') by (specialize (H _ _ E'); specialize (H' _ _ E); lia).
  rewrite E in E'. destruct (app_eq_len _ _ _ _ E') as (e & E1 & E2); [lia|]. assert (e = []) as -> by (apply (f_equal (@length ascii)) in E1; rewrite app_length in E1; destruct e; [reflexivity|simpl in E1; lia]).
  cbn [app] in E2. apply app_inv_head in E2. exact E2.
Qed.
Definition point_directive (rest : bytes) : directive :=
  match strstr rest (B " # ") with
  | Some s => let s := skipn 3 s in
              if str_startswithi s (B "todo") then DTodo else if str_startswithi s (B "skip") then DSkip else DNone
  | None => DNone
  end.
Lemma point_directive_spec rest : (point_directive rest = DSkip <-> has_directive (B "skip") rest) /\ (point_directive rest = DTodo <-> has_directive (B "todo") rest).
Proof.
  assert (Hs : Forall (fun c => is_upper c = false) (B "skip")) by (repeat constructor). assert (Ht : Forall (fun c => is_upper c = false) (B "todo")) by (repeat constructor).
  unfold point_directive, has_directive. pose proof (strstr_spec (B " # ") rest) as H. destruct (strstr rest (B " # ")) as [s|].
  - destruct H as (a & b & E & -> & Hm). change (skipn 3 (B " # " ++ b)) with b. cbv zeta.
    assert (D : directive_text rest b) by (exists a; auto).
    assert (U : forall w, Forall (fun c => is_upper c = false) w -> (exists d, directive_text rest d /\ says w d) <-> str_startswithi b w = true).
    { intros w Hw. rewrite says_spec by exact Hw. split; [|eauto]. intros (d & Hd & Hy). now rewrite (directive_unique _ _ _ D Hd). }
    rewrite !U by assumption. destruct (str_startswithi b (B "todo")) eqn:E1; destruct (str_startswithi b (B "skip")) eqn:E2; split; split; intros X; try discriminate; try reflexivity.
    exfalso. apply says_spec in E1 as (x & y & -> & Ex); [|exact Ht]. apply says_spec in E2 as (x' & y' & E3 & Ex'); [|exact Hs].
    destruct x as [|c x]; [discriminate Ex|]. destruct x' as [|c' x']; [discriminate Ex'|]. cbn [app] in E3. injection E3 as -> _. cbn [map] in Ex, Ex'.
    apply (f_equal (hd NUL)) in Ex, Ex'. cbn [hd] in Ex, Ex'. vm_compute in Ex, Ex'. congruence.
  - split; split; try discriminate; intros (d & (a & E & _) & _); now apply H in E.
Qed.
Definition apply_kind (t : tap) (k : tap_kind) : tap :=
  match k with Plan n => set_plan n t | Bail => set_bail t | Pass => add_pass t | Skip => add_skip t | Fail => add_fail t | Other => t end.
Lemma sw_app p r : str_startswith (p ++ r) p = true.
Proof. apply startswith_spec. eauto. Qed.
Lemma sw_no s p : ~ begins p s -> str_startswith s p = false.
Proof. intros H. apply startswith_false. intros r E. apply H. now exists r. Qed.
Lemma clamp_pos z : (0 < z)%Z -> clamp z = Z.min z LONG_MAX.
Proof. intros H. unfold clamp, LONG_MIN, LONG_MAX in *. lia. Qed.
Lemma tap_point_eq t ok rest : tap_point t ok rest = match point_directive rest with
  | DSkip => add_skip t
  | d => if ok then add_pass t else match d with DTodo => add_skip t | _ => add_fail t end end.
Proof. unfold tap_point, point_directive. cbv zeta. destruct (strstr rest (B " # ")) as [s|]; [|reflexivity]. destruct (str_startswithi (skipn 3 s) (B "todo")); [reflexivity|]. destruct (str_startswithi (skipn 3 s) (B "skip")); reflexivity. Qed.
Lemma tap_line_cb_spec l k : tap_line l k -> forall t, tap_line_cb t l = apply_kind t k.
Proof.
  intros H t. unfold tap_line_cb. destruct H as [d z Hz Hp|d Hd|r|r H|r H|r H1 H2|r H|l H1 H2 H3 H4].
  - rewrite sw_app. change (skipn 3 (B "1.." ++ d)) with d. assert (Hne : d <> []). { intros ->. destruct Hz as (w & sg & ds & E & _ & [Hne _] & _). apply Hne. destruct w; [|discriminate E]. destruct sg; [|discriminate E]. destruct ds; [reflexivity|discriminate E]. }
    assert (L : 3 <? length (B "1.." ++ d) = true) by (apply Nat.ltb_lt; rewrite app_length; destruct d; [congruence|simpl; lia]). rewrite L. cbn [andb].
    pose proof (str_to_i_key d Hne) as K. destruct (str_to_i d false) as [v|]; [|exfalso; now apply (K z)]. destruct K as (z' & Hz' & ->).
    pose proof (strtol_reads d z [] Hz I) as S1. pose proof (strtol_reads d z' [] Hz' I) as S2. rewrite S1 in S2. injection S2 as S2. rewrite <- S2, (clamp_pos z Hp).
    assert (P : (0 <? Z.min z LONG_MAX)%Z = true) by (apply Z.ltb_lt; unfold LONG_MAX; lia). rewrite P. reflexivity.
  - rewrite sw_app. change (skipn 3 (B "1.." ++ d)) with d. destruct d as [|c d]; [reflexivity|].
    assert (L : 3 <? length (B "1.." ++ c :: d) = true) by (apply Nat.ltb_lt; rewrite app_length; simpl; lia). rewrite L. cbn [andb].
    pose proof (str_to_i_key (c :: d) ltac:(discriminate)) as K. destruct (str_to_i (c :: d) false) as [v|]; [|reflexivity]. destruct K as (z' & Hz' & ->).
    apply Hd in Hz'. assert (P : (0 <? clamp z')%Z = false) by (apply Z.ltb_ge; unfold clamp, LONG_MIN, LONG_MAX; lia). rewrite P. reflexivity.
  - rewrite sw_app. rewrite sw_no; [reflexivity|]. intros [x E]. discriminate E.
  - rewrite (sw_app (B "ok")). rewrite !sw_no; try (intros [x E]; discriminate E). cbn [andb]. change (skipn 2 (B "ok" ++ r)) with r. rewrite tap_point_eq.
    destruct (point_directive_spec r) as [P1 P2]. destruct (point_directive r); try reflexivity. exfalso. tauto.
  - rewrite (sw_app (B "ok")). rewrite !sw_no; try (intros [x E]; discriminate E). cbn [andb]. change (skipn 2 (B "ok" ++ r)) with r. rewrite tap_point_eq.
    destruct (point_directive_spec r) as [P1 P2]. apply P1 in H. rewrite H. reflexivity.
  - rewrite (sw_app (B "not ok")). rewrite !sw_no; try (intros [x E]; discriminate E). cbn [andb]. change (skipn 6 (B "not ok" ++ r)) with r. rewrite tap_point_eq.
    destruct (point_directive_spec r) as [P1 P2]. destruct (point_directive r); try reflexivity; exfalso; tauto.
  - rewrite (sw_app (B "not ok")). rewrite !sw_no; try (intros [x E]; discriminate E). cbn [andb]. change (skipn 6 (B "not ok" ++ r)) with r. rewrite tap_point_eq.
    destruct (point_directive_spec r) as [P1 P2]. destruct H as [H|H]; [apply P1 in H|apply P2 in H]; rewrite H; reflexivity.
  - rewrite !sw_no by assumption. reflexivity.
Qed.
Lemma tap_line_total l : exists k, tap_line l k.
Proof.
  destruct (str_startswith l (B "1..")) eqn:E1.
  { apply startswith_spec in E1 as [d ->]. destruct d as [|c d].
    - exists Other. apply (T_bad_plan []). intros z (w & sg & ds & E & _ & [Hne _] & _). exfalso. apply Hne. destruct w; [|discriminate E]. destruct sg; [|discriminate E]. destruct ds; [reflexivity|discriminate E].
    - pose proof (str_to_i_key (c :: d) ltac:(discriminate)) as K. destruct (str_to_i (c :: d) false) as [v|].
      + destruct K as (z & Hz & _). destruct (Z_lt_le_dec 0 z) as [P|P]; [eexists; eapply T_plan; eauto|]. exists Other. apply T_bad_plan. intros z' Hz'.
        pose proof (strtol_reads _ z [] Hz I) as S1. pose proof (strtol_reads _ z' [] Hz' I) as S2. rewrite S1 in S2. injection S2 as S2. unfold clamp, LONG_MIN, LONG_MAX in S2. lia.
      + exists Other. apply T_bad_plan. intros z Hz. exfalso. exact (K z Hz). }
  destruct (str_startswith l (B "Bail out!")) eqn:E2. { apply startswith_spec in E2 as [d ->]. eexists. apply T_bail. }
  destruct (str_startswith l (B "ok")) eqn:E3.
  { apply startswith_spec in E3 as [r ->]. destruct (point_directive_spec r) as [P1 P2]. destruct (point_directive r) eqn:E; [exists Pass|exists Pass|exists Skip].
    - apply T_ok. intros X. apply P1 in X. discriminate.
    - apply T_ok. intros X. apply P1 in X. discriminate.
    - apply T_ok_skip. now apply P1. }
  destruct (str_startswith l (B "not ok")) eqn:E4.
  { apply startswith_spec in E4 as [r ->]. destruct (point_directive_spec r) as [P1 P2]. destruct (point_directive r) eqn:E; [exists Fail|exists Skip|exists Skip].
    - apply T_fail; intros X; [apply P1 in X|apply P2 in X]; discriminate.
    - apply T_fail_skip. right. now apply P2.
    - apply T_fail_skip. left. now apply P1. }
  rewrite startswith_false in E1, E2, E3, E4.
  exists Other. apply T_other; intros [r E]; [exact (E1 r E)|exact (E2 r E)|exact (E3 r E)|exact (E4 r E)].
Qed.

Local Open Scope Z_scope.
Definition is_pass k := match k with Pass => true | _ => false end.
Definition is_skip k := match k with Skip => true | _ => false end.
Lemma u32_add a : u32 (u32 a + 1) = u32 (a + 1).
Proof. unfold u32. now rewrite Zplus_mod_idemp_l. Qed.
Lemma count_cons f k ks : count f (k :: ks) = (if f k then 1 else 0) + count f ks.
Proof. unfold count. cbn [filter]. destruct (f k); cbn [length]; lia. Qed.
Lemma tap_fold ks : forall t p s f, pass t = u32 p -> skip t = u32 s -> fail t = u32 f ->
  let t' := fold_left apply_kind ks t in
  pass t' = u32 (p + count is_pass ks) /\ skip t' = u32 (s + count is_skip ks) /\ fail t' = u32 (f + count is_fail ks) /\
  have_plan t' = (match last_plan ks with Some _ => true | None => have_plan t end) /\
  total t' = (match last_plan ks with Some n => u32 n | None => total t end).
Proof.
  induction ks as [|k ks IH]; intros t p s f Hp Hs Hf; cbn [fold_left].
  - unfold count. cbn [filter length]. rewrite !Z.add_0_r. auto 6.
  - cbv zeta in *. rewrite !count_cons. cbn [last_plan].
    destruct k; cbn [is_pass is_skip is_fail apply_kind].
    + destruct (IH (set_plan n t) p s f Hp Hs Hf) as (A & B' & C & D & E). destruct (last_plan ks); cbn [set_plan have_plan total] in *; auto 7.
    + destruct (IH (set_bail t) p s f Hp Hs Hf) as (A & B' & C & D & E). destruct (last_plan ks); cbn [set_bail have_plan total] in *; auto 7.
    + destruct (IH (add_pass t) (p + 1) s f) as (A & B' & C & D & E); [cbn [add_pass pass]; now rewrite Hp, u32_add|auto|auto|].
      rewrite Z.add_assoc. destruct (last_plan ks); cbn [add_pass have_plan total] in *; auto 7.
    + destruct (IH (add_skip t) p (s + 1) f) as (A & B' & C & D & E); [auto|cbn [add_skip skip]; now rewrite Hs, u32_add|auto|].
      rewrite (Z.add_assoc s). destruct (last_plan ks); cbn [add_skip have_plan total] in *; auto 7.
    + destruct (IH (add_fail t) p s (f + 1)) as (A & B' & C & D & E); [auto|auto|cbn [add_fail fail]; now rewrite Hf, u32_add|].
      rewrite (Z.add_assoc f). destruct (last_plan ks); cbn [add_fail have_plan total] in *; auto 7.
    + destruct (IH t p s f Hp Hs Hf) as (A & B' & C & D & E). destruct (last_plan ks); auto 7.
Qed.
Lemma count_ok ks : count is_ok ks = count is_pass ks + count is_skip ks.
Proof. induction ks as [|k ks IH]; [reflexivity|]. rewrite !count_cons, IH. destruct k; cbn [is_ok is_pass is_skip]; lia. Qed.
Lemma count_nonneg f ks : 0 <= count f ks.
Proof. unfold count. lia. Qed.
Lemma tap_feed ls ks : Forall2 tap_line ls ks -> forall t prev, feed (fun t (_ : option ascii) l => Some (tap_line_cb t l, true)) t prev ls = Some (fold_left apply_kind ks t).
Proof.
  induction 1 as [|l k ls ks H _ IH]; intros t prev; [reflexivity|]. cbn [feed fold_left]. rewrite (tap_line_cb_spec _ _ H). apply IH.
Qed.
Lemma tap_kinds ls : exists ks, Forall2 tap_line ls ks.
Proof. induction ls as [|l ls [ks IH]]; [exists []; constructor|]. destruct (tap_line_total l) as [k Hk]. exists (k :: ks). now constructor. Qed.
Local Close Scope Z_scope.

(** ** ini *)
Lemma rtrim_ws w : ws w -> rtrim w = [].
Proof. induction 1 as [|c w Hc _ IH]; [reflexivity|]. cbn [rtrim]. now rewrite IH, Hc. Qed.
Lemma rtrim_app a w : no_ws_end a -> ws w -> rtrim (a ++ w) = a.
Proof.
  intros Ha Hw. induction a as [|c a IH]; [now apply rtrim_ws|]. cbn [app rtrim]. destruct a as [|c' a].
  - cbn [app]. rewrite rtrim_ws by exact Hw. now rewrite (Ha [] c eq_refl).
  - rewrite IH; [reflexivity|]. intros r x E. apply (Ha (c :: r) x). cbn [app]. now rewrite <- E.
Qed.
Lemma ws_forallb l : forallb is_whitespace l = true <-> ws l.
Proof. unfold ws. rewrite forallb_forall, Forall_forall. reflexivity. Qed.
Lemma ws_not_in c w : is_whitespace c = false -> ws w -> ~ In c w.
Proof. intros Hc Hw Hi. unfold ws in Hw. rewrite Forall_forall in Hw. apply Hw in Hi. congruence. Qed.
Lemma drop_value w2 v w3 : ws w2 -> no_ws_start v -> no_ws_end v -> ws w3 -> rtrim (dropw is_whitespace (w2 ++ v ++ w3)) = v.
Proof.
  intros H2 Hs He H3. rewrite dropw_app by now apply ws_forallb. destruct v as [|c v].
  - cbn [app]. replace (dropw is_whitespace w3) with (@nil ascii); [reflexivity|]. clear -H3. induction H3 as [|c w Hc _ IH]; [reflexivity|]. cbn [dropw]. now rewrite Hc.
  - cbn [app dropw]. rewrite (Hs c v eq_refl). apply (rtrim_app (c :: v)); assumption.
Qed.
Definition sect_after (s : option bytes) (it : ini_item) := match it with ISect n => Some n | _ => s end.
Definition event_of (s : option bytes) (n : nat) (it : ini_item) : list ini_call :=
  match it with
  | ISect name => [{| c_sect := Some name; c_kv := None; c_line := n |}]
  | IPair k v => [{| c_sect := s; c_kv := Some (k, v); c_line := n |}]
  | INothing => []
  end.
Lemma events_cons s n it r : ini_events s n (it :: r) = event_of s n it ++ ini_events (sect_after s it) (n + 1) r.
Proof. destruct it; reflexivity. Qed.
Lemma ini_cb_spec comment keyval ucb l it st prev : ini_line keyval comment l it -> ~ In NUL l -> forallb ucb (event_of (sect st) (lineno st) it) = true ->
  ini_line_cb comment keyval ucb st prev l =
    Some ({| sect := sect_after (sect st) it; lineno := lineno st + 1; success := success st; calls := calls st ++ event_of (sect st) (lineno st) it |}, true).
Proof.
  intros H Hn Hu. unfold ini_line_cb. destruct H as [l Hw|c l Hc|name r Hk Hc Hb|key w1 w2 v w3 Hne Heq Hst Hend H1 H2 Hs He H3|l Hk Hc].
  - assert (E : (exists c r, l = c :: r) \/ l = []) by (destruct l; eauto). destruct E as [(c & r & ->)| ->]; cbn [event_of sect_after]; rewrite app_nil_r; [|reflexivity].
    rewrite (proj2 (ws_forallb _) Hw), orb_true_r. reflexivity.
  - cbn [event_of sect_after]. rewrite app_nil_r. rewrite (proj2 (mem_char_In c comment) Hc). reflexivity.
  - cbn [event_of forallb] in Hu. apply andb_true_iff in Hu as [Hu _].
    rewrite (proj2 (mem_char_not_In _ _) Hc). cbn [forallb orb]. change (is_whitespace "[") with false. subst keyval. cbn [andb negb]. change (ceqb "[" "[") with true. cbv iota.
    change ("["%char :: name ++ "]"%char :: r) with (("["%char :: name) ++ "]"%char :: r). rewrite break_at_compute; [|cbn [In]; intros [X|X]; [discriminate X|tauto]|eauto].
    cbn [skipn]. rewrite Hu. reflexivity.
  - cbn [event_of forallb] in Hu. apply andb_true_iff in Hu as [Hu _].
    destruct key as [|c key]; [congruence|]. destruct (Hst c key eq_refl) as [S1 S2]. cbn [app]. rewrite (proj2 (mem_char_not_In _ _) S1).
    assert (W : forallb is_whitespace (c :: key ++ w1 ++ "="%char :: w2 ++ v ++ w3) = false).
    { apply not_true_is_false. intros X. rewrite forallb_forall in X. specialize (X "="%char). discriminate X. right. rewrite !in_app_iff. right. right. now left. }
    rewrite W. cbn [orb]. assert (K : negb keyval && ceqb c "[" = false) by (destruct keyval; [reflexivity|]; apply ceqb_neq; now apply S2). rewrite K.
    replace (c :: key ++ w1 ++ "="%char :: w2 ++ v ++ w3) with (((c :: key) ++ w1) ++ "="%char :: w2 ++ v ++ w3) by (rewrite <- app_assoc; reflexivity).
    rewrite break_at_compute; [|rewrite in_app_iff; intros [X|X]; [exact (Heq X)|exact (ws_not_in "="%char w1 eq_refl H1 X)]|eauto].
    cbv zeta. rewrite rtrim_app by assumption. rewrite drop_value by assumption. cbn [lineno]. rewrite Hu. reflexivity.
  - cbn [event_of sect_after]. rewrite app_nil_r. destruct l as [|x l']; [reflexivity|].
    destruct (mem_char x comment || forallb is_whitespace (x :: l')); [reflexivity|]. subst keyval. cbn [negb andb].
    rewrite <- (app_nil_r (x :: l')) at 1. rewrite break_at_compute; [reflexivity|exact Hc|auto].
Qed.

Lemma ini_feed comment keyval ucb ls items : Forall2 (ini_line keyval comment) ls items -> Forall (fun l => ~ In NUL l) ls ->
  forall st prev rest, forallb ucb (ini_events (sect st) (lineno st) items) = true ->
  exists st', feed (ini_line_cb comment keyval ucb) st prev (ls ++ rest) = feed (ini_line_cb comment keyval ucb) st' (match ls with [] => prev | _ => Some NUL end) rest /\
    success st' = success st /\ calls st' = calls st ++ ini_events (sect st) (lineno st) items /\ lineno st' = lineno st + length ls.
Proof.
  induction 1 as [|l it ls items H _ IH]; intros Hn st prev rest Hu.
  - exists st. cbn [app ini_events length]. rewrite app_nil_r. repeat split; lia.
  - inversion Hn as [|? ? N1 N2]; subst. rewrite events_cons, forallb_app in Hu. apply andb_true_iff in Hu as [U1 U2]. cbn [app feed]. rewrite (ini_cb_spec _ _ _ _ it) by assumption.
    match goal with |- context [feed _ ?s (Some NUL) (ls ++ rest)] => destruct (IH N2 s (Some NUL) rest) as (st' & E & Hs & Hc & Hl) end.
    + exact U2.
    + exists st'. rewrite E. cbn [sect lineno success calls] in *. split; [destruct ls; reflexivity|]. split; [exact Hs|]. split; [|cbn [length]; lia].
      rewrite Hc, <- app_assoc, events_cons. reflexivity.
Qed.
Lemma ini_bad_spec comment ucb l st prev : ini_bad comment l -> ini_line_cb comment false ucb st prev l =
  Some ({| sect := sect st; lineno := lineno st; success := false; calls := calls st |}, false).
Proof.
  intros (Hw & Hc & Hb). unfold ini_line_cb. destruct l as [|c r]; [exfalso; apply Hw; constructor|].
  rewrite (proj2 (mem_char_not_In _ _) (Hc c r eq_refl)). assert (W : forallb is_whitespace (c :: r) = false) by (apply not_true_is_false; intros X; now apply ws_forallb in X). rewrite W. cbn [orb negb andb].
  destruct Hb as [(r' & E & Hr)|[Hn Hq]].
  - injection E as -> ->. change (ceqb "[" "[") with true. rewrite <- (app_nil_r ("["%char :: r')). rewrite break_at_compute; [reflexivity| |auto]. intros [X|X]; [discriminate|tauto].
  - assert (K : ceqb c "[" = false) by (apply ceqb_neq; intros ->; now apply (Hn r)). rewrite K. rewrite <- (app_nil_r (c :: r)). rewrite break_at_compute; [reflexivity|exact Hq|auto].
Qed.
Lemma lines_nonul t ls : lines_of t ls -> ~ In NUL t -> Forall (fun l => ~ In NUL l) ls.
Proof.
  induction 1 as [|l _ _|l r ls _ _ IH]; intros H; [constructor|now repeat constructor|]. rewrite in_app_iff in H. cbn [In] in H. constructor; [tauto|apply IH; tauto].
Qed.
