From Verif Require Import Base M_Str S_Str.
Local Arguments B _ : simpl never.

Lemma startswith_spec s p : str_startswith s p = true <-> exists r, s = p ++ r.
Proof.
  unfold str_startswith. destruct (Nat.ltb_spec (length s) (length p)) as [L|L].
  - split; [discriminate|]. intros [r ->]. rewrite app_length in L. lia.
  - rewrite beqb_eq. split.
    + intros E. exists (skipn (length p) s). rewrite <- E at 1. symmetry. apply firstn_skipn.
    + intros [r ->]. rewrite firstn_app, Nat.sub_diag, firstn_O, app_nil_r. apply firstn_all.
Qed.
Lemma startswith_false s p : str_startswith s p = false <-> forall r, s <> p ++ r.
Proof.
  split.
  - intros H r E. assert (str_startswith s p = true) by (apply startswith_spec; eauto). congruence.
  - intros H. destruct (str_startswith s p) eqn:E; [|reflexivity]. apply startswith_spec in E as [r E]. exfalso. eapply H; eauto.
Qed.
Lemma endswith_spec s p : str_endswith s p = true <-> exists r, s = r ++ p.
Proof.
  unfold str_endswith. destruct (Nat.ltb_spec (length s) (length p)) as [L|L].
  - split; [discriminate|]. intros [r ->]. rewrite app_length in L. lia.
  - rewrite beqb_eq. split.
    + intros E. exists (firstn (length s - length p) s). rewrite <- E at 2. symmetry. apply firstn_skipn.
    + intros [r ->]. rewrite app_length. replace (length r + length p - length p) with (length r) by lia.
      rewrite skipn_app, Nat.sub_diag, skipn_all. reflexivity.
Qed.

Lemma lower_id_spec c d : ceqb (char_to_lower c) (char_to_lower d) = true <-> char_to_lower c = char_to_lower d.
Proof. apply ceqb_eq. Qed.
Lemma cmp_lower_spec b : forall a, length b <= length a ->
  (cmp_lower a b = true <-> map char_to_lower (firstn (length b) a) = map char_to_lower b).
Proof.
  induction b as [|y b IH]; intros a H; simpl in *; [destruct a; simpl; tauto|].
  destruct a as [|x a]; simpl in *; [lia|]. rewrite andb_true_iff, lower_id_spec, IH by lia. split.
  - intros [-> ->]. reflexivity.
  - intros E. inversion E. auto.
Qed.

(** ** split *)
Lemma app_eq_len {X} (a b c d : list X) : a ++ b = c ++ d -> length a <= length c -> exists e, c = a ++ e /\ b = e ++ d.
Proof.
  revert c. induction a as [|x a IH]; intros c H L; simpl in *.
  - exists c. auto.
  - destruct c as [|y c]; simpl in *; [lia|]. inversion H; subst. destruct (IH c H2 ltac:(lia)) as (e & -> & ->). exists e. auto.
Qed.

(** no occurrence of [sep] in [cur ++ s] starts inside [cur] *)
Definition clear_of (sep cur s : bytes) : Prop := forall a b, cur ++ s = a ++ sep ++ b -> length cur <= length a.

Lemma split_loop_spec sep fuel : sep <> [] -> forall s cur res, length s < fuel -> clear_of sep cur s ->
  exists ps, split_loop fuel sep s cur res = Some (res ++ ps) /\ leftmost_split sep (cur ++ s) ps.
Proof.
  intros Hsep. induction fuel as [|fuel IH]; intros s cur res Hf Hc; [lia|]. cbn [split_loop].
  destruct s as [|c s'].
  - exists [cur]. split; [reflexivity|]. rewrite app_nil_r. constructor. intros (a & b & E).
    specialize (Hc a b). rewrite app_nil_r in Hc. specialize (Hc E). apply (f_equal (@length _)) in E. rewrite !app_length in E.
    destruct sep; [congruence|simpl in E; lia].
  - destruct (str_startswith (c :: s') sep) eqn:Es.
    + apply startswith_spec in Es as [r Er]. rewrite Er. rewrite skipn_app, Nat.sub_diag, skipn_all, skipn_O. simpl app.
      destruct (IH r [] (res ++ [cur])) as (ps & E & HL).
      { apply (f_equal (@length _)) in Er. rewrite app_length in Er. destruct sep; [congruence|]. simpl in *. lia. }
      { intros a b _. simpl. lia. }
      exists (cur :: ps). split; [rewrite E, <- app_assoc; reflexivity|]. econstructor; [reflexivity| |exact HL].
      intros a b E2. apply Hc with b. rewrite Er. exact E2.
    + destruct (IH s' (cur ++ [c]) res) as (ps & E & HL).
      { simpl in Hf. lia. }
      { intros a b E2. rewrite <- app_assoc in E2. simpl in E2. pose proof (Hc a b E2) as L. rewrite app_length. simpl.
        destruct (Nat.eq_dec (length cur) (length a)) as [El|El]; [|lia]. exfalso.
        apply app_eq_len in E2 as (e & Ea & Eb); [|lia]. subst a. rewrite app_length in El. destruct e; [|simpl in El; lia].
        simpl in Eb. apply startswith_false with (r := b) in Es. congruence. }
      exists ps. split; [exact E|]. rewrite <- app_assoc in HL. exact HL.
Qed.

Lemma leftmost_join sep s ps : leftmost_split sep s ps -> joinb sep ps = s /\ ps <> [].
Proof.
  induction 1 as [s H|s p r ps E Hl H IH].
  - split; [reflexivity|discriminate].
  - destruct IH as [IH Hne]. split; [|discriminate]. destruct ps as [|x ps]; [congruence|]. rewrite joinb_cons, IH. congruence.
Qed.
Lemma leftmost_clear sep s ps : sep <> [] -> leftmost_split sep s ps -> Forall (fun p => ~ occurs sep p) ps.
Proof.
  intros Hs. induction 1 as [s H|s p r ps E Hl H IH]; constructor; auto.
  intros (a & b & Ep). assert (L : length p <= length a).
  { apply (Hl a (b ++ sep ++ r)). rewrite E, Ep. now rewrite <- !app_assoc. }
  apply (f_equal (@length _)) in Ep. rewrite !app_length in Ep. destruct sep; [congruence|simpl in Ep; lia].
Qed.
Lemma leftmost_unique sep s ps qs : sep <> [] -> leftmost_split sep s ps -> leftmost_split sep s qs -> ps = qs.
Proof.
  intros Hs H. revert qs. induction H as [s H|s p r ps E Hl H IH]; intros qs HQ; inversion HQ as [s' H'|s' p' r' qs' E' Hl' H']; subst.
  - reflexivity.
  - exfalso. apply H. exists p', r'. reflexivity.
  - exfalso. apply H'. exists p, r. reflexivity.
  - assert (L1 := Hl _ _ E'). assert (L2 := Hl' _ _ eq_refl).
    assert (Le : length p = length p') by lia.
    apply app_eq_len in E' as (e & -> & Eb); [|lia]. rewrite app_length in Le. destruct e; [|simpl in Le; lia].
    rewrite app_nil_r in *. simpl in Eb. apply app_inv_head in Eb. subst r'. f_equal. now apply IH.
Qed.

Lemma split_empty_diverges fuel : forall s cur res, s <> [] -> split_loop fuel [] s cur res = None.
Proof.
  induction fuel as [|fuel IH]; intros s cur res Hs; [reflexivity|]. cbn [split_loop].
  destruct s as [|c s']; [congruence|]. change (str_startswith (c :: s') []) with true. cbv iota. simpl skipn. apply IH. discriminate.
Qed.

Lemma join_iter_spec sep l : forall i len res, len = i + length l ->
  join_iter sep l i len res = res ++ joinb sep l.
Proof.
  induction l as [|x l IH]; intros i len res H; simpl in *; [now rewrite app_nil_r|].
  rewrite IH by lia. destruct (Nat.ltb_spec i (len - 1)) as [L|L].
  - destruct l; simpl in *; [lia|]. now rewrite <- !app_assoc.
  - destruct l; simpl in *; [|lia]. now rewrite app_nil_r.
Qed.
Lemma array_join_spec sep l : str_array_join sep l = joinb sep l.
Proof. unfold str_array_join. rewrite join_iter_spec by reflexivity. reflexivity. Qed.

Lemma split_single c l : leftmost_split [c] l (split_on c l).
Proof.
  remember (length l) as n eqn:En. revert l En. induction n as [n IH] using lt_wf_ind. intros l En.
  destruct (in_dec ascii_dec c l) as [Hin|Hn].
  - destruct (break_at c l) as [a b] eqn:Eb.
    pose proof (break_at_app _ _ _ _ Eb). pose proof (break_at_notin _ _ _ _ Eb) as Hna.
    destruct (break_at_rest _ _ _ _ Eb) as [->|[b' ->]].
    + rewrite app_nil_r in H. subst. contradiction.
    + subst l. rewrite split_on_cons by assumption. apply LS_cut with b'.
      * reflexivity.
      * intros x y E. destruct (le_gt_dec (length a) (length x)); [assumption|]. exfalso. apply Hna.
        symmetry in E. apply app_eq_len in E as (e & -> & E2); [|lia]. destruct e as [|z e]; [rewrite app_nil_r in g; lia|].
        inversion E2. apply in_or_app. right. now left.
      * eapply IH; [|reflexivity]. subst n. rewrite app_length. simpl. lia.
  - rewrite split_on_nosep by assumption. constructor. intros (a & b & ->). apply Hn. apply in_or_app. right. now left.
Qed.

(** ** whitespace split *)
Lemma cut_at_ws_run f w s : Forall (fun c => f c = true) w ->
  filter nonempty (cut_at f (w ++ s)) = filter nonempty (cut_at f s).
Proof. induction 1 as [|c w H _ IH]; [reflexivity|]. simpl. rewrite H. simpl. exact IH. Qed.
Lemma cut_at_nonempty f s : cut_at f s <> [].
Proof. destruct s as [|c s]; simpl; [discriminate|]. destruct (f c); [discriminate|]. destruct (cut_at f s); discriminate. Qed.
Lemma cut_at_word f w s : Forall (fun c => f c = false) w -> (s = [] \/ exists c s', s = c :: s' /\ f c = true) ->
  w <> [] -> filter nonempty (cut_at f (w ++ s)) = w :: filter nonempty (cut_at f s).
Proof.
  intros HF Hs Hne.
  assert (E : cut_at f (w ++ s) = match cut_at f s with [] => [] | h :: t => (w ++ h) :: t end).
  { clear Hne. induction HF as [|c w Hc _ IH]; simpl.
    - destruct (cut_at f s) eqn:E; [exfalso; eapply cut_at_nonempty; eauto|reflexivity].
    - rewrite Hc, IH. destruct (cut_at f s) eqn:E; [exfalso; eapply cut_at_nonempty; eauto|reflexivity]. }
  rewrite E. destruct Hs as [->|(c & s' & -> & Hc)].
  - simpl. rewrite app_nil_r. destruct w; [congruence|reflexivity].
  - simpl. rewrite Hc. simpl. rewrite app_nil_r. destruct w; [congruence|reflexivity].
Qed.

Lemma split_ws_spec fuel : forall s res, length s < fuel ->
  split_ws_loop fuel s res = Some (res ++ filter nonempty (cut_at ws_strchr s)).
Proof.
  induction fuel as [|fuel IH]; intros s res Hf; [lia|]. cbn [split_ws_loop].
  destruct s as [|c s'] eqn:Es; [simpl; now rewrite app_nil_r|]. rewrite <- Es in *.
  destruct (dropw_spec ws_strchr s) as (w0 & E0 & F0 & N0).
  set (s1 := dropw ws_strchr s) in *.
  destruct (span (fun c => negb (ws_strchr c)) s1) as [w s2] eqn:Esp.
  destruct (span_spec _ _ _ _ Esp) as (E1 & F1 & N1).
  assert (F1' : Forall (fun c => ws_strchr c = false) w) by (eapply Forall_impl; [|exact F1]; intros a H; now apply negb_true_iff).
  assert (H2 : s2 = [] \/ exists c s', s2 = c :: s' /\ ws_strchr c = true).
  { destruct s2 as [|x s2']; [now left|]. right. exists x, s2'. split; [reflexivity|]. specialize (N1 _ _ eq_refl). now apply negb_false_iff. }
  rewrite E0, cut_at_ws_run by assumption. rewrite E1.
  assert (Hl : length s2 < fuel).
  { assert (length s = length w0 + length s1) by (rewrite E0 at 1; now rewrite app_length).
    assert (length s1 = length w + length s2) by (rewrite E1; now rewrite app_length).
    destruct w as [|x w]; [|simpl in *; lia]. simpl in E1. destruct w0 as [|y w0]; [|simpl in *; lia]. simpl in E0.
    destruct H2 as [->|(c2 & s3 & Hs2 & Hc2)]; [subst s; simpl in *; lia|].
    exfalso. rewrite Hs2 in E1. specialize (N0 c2 s3 E1). congruence. }
  rewrite IH by assumption. destruct w as [|x w].
  - reflexivity.
  - rewrite (cut_at_word _ (x :: w) s2) by (auto; discriminate). now rewrite <- app_assoc.
Qed.

Lemma cut_at_ext f g s : (forall c, In c s -> f c = g c) -> cut_at f s = cut_at g s.
Proof.
  induction s as [|c s IH]; intros H; [reflexivity|]. simpl. rewrite (H c) by now left. rewrite IH by (intros; apply H; now right). reflexivity.
Qed.

(** ** replace *)
Lemma replace_loop_spec find repl fuel : find <> [] -> forall s cur res, length s < fuel -> clear_of find cur s ->
  exists ps, replace_loop fuel find repl s cur res = Some (res ++ joinb repl ps) /\ leftmost_split find (cur ++ s) ps.
Proof.
  intros Hsep. induction fuel as [|fuel IH]; intros s cur res Hf Hc; [lia|]. cbn [replace_loop].
  destruct s as [|c s'].
  - exists [cur]. split; [reflexivity|]. rewrite app_nil_r. constructor. intros (a & b & E).
    specialize (Hc a b). rewrite app_nil_r in Hc. specialize (Hc E). apply (f_equal (@length _)) in E. rewrite !app_length in E.
    destruct find; [congruence|simpl in E; lia].
  - destruct (str_startswith (c :: s') find) eqn:Es.
    + apply startswith_spec in Es as [r Er]. rewrite Er. rewrite skipn_app, Nat.sub_diag, skipn_all, skipn_O. simpl app.
      destruct (IH r [] (res ++ cur ++ repl)) as (ps & E & HL).
      { apply (f_equal (@length _)) in Er. rewrite app_length in Er. destruct find; [congruence|]. simpl in *. lia. }
      { intros a b _. simpl. lia. }
      exists (cur :: ps). pose proof (proj2 (leftmost_join _ _ _ HL)). split.
      * rewrite E. destruct ps as [|q ps]; [congruence|]. rewrite joinb_cons, <- !app_assoc. reflexivity.
      * econstructor; [reflexivity| |exact HL].
        intros a b E2. apply Hc with b. rewrite Er. exact E2.
    + destruct (IH s' (cur ++ [c]) res) as (ps & E & HL).
      { simpl in Hf. lia. }
      { intros a b E2. rewrite <- app_assoc in E2. simpl in E2. pose proof (Hc a b E2) as L. rewrite app_length. simpl.
        destruct (Nat.eq_dec (length cur) (length a)) as [El|El]; [|lia]. exfalso.
        apply app_eq_len in E2 as (e & Ea & Eb); [|lia]. subst a. rewrite app_length in El. destruct e; [|simpl in El; lia].
        simpl in Eb. apply startswith_false with (r := b) in Es. congruence. }
      exists ps. split; [exact E|]. rewrite <- app_assoc in HL. exact HL.
Qed.
Lemma replace_empty_diverges fuel : forall s repl cur res, s <> [] -> replace_loop fuel [] repl s cur res = None.
Proof.
  induction fuel as [|fuel IH]; intros s repl cur res Hs; [reflexivity|]. cbn [replace_loop].
  destruct s as [|c s']; [congruence|]. change (str_startswith (c :: s') []) with true. cbv iota. simpl skipn. apply IH. discriminate.
Qed.

(** ** contains *)
Lemma contains_spec s x : str_contains s x = true <-> s <> [] /\ occurs x s.
Proof.
  induction s as [|c s IH].
  - split; [discriminate|]. intros [H _]. congruence.
  - cbn [str_contains]. destruct (str_startswith (c :: s) x) eqn:E.
    + apply startswith_spec in E as [r E]. split; [|reflexivity]. intros _. split; [discriminate|]. exists [], r. exact E.
    + rewrite IH. pose proof (proj1 (startswith_false _ _) E) as HN. split.
      * intros [_ (a & b & ->)]. split; [discriminate|]. exists (c :: a), b. reflexivity.
      * intros [_ (a & b & Eq)]. destruct a as [|z a]; [exfalso; eapply HN; exact Eq|].
        inversion Eq; subst. split; [|exists a, b; reflexivity].
        intros En. apply app_eq_nil in En as [-> En]. apply app_eq_nil in En as [-> ->].
        apply (HN (z :: [])). reflexivity.
Qed.

(** ** strip *)
Lemma has_chr_spec c l : str_has_chr c l = true <-> In c l.
Proof.
  induction l as [|x l IH]; simpl; [split; [discriminate|tauto]|]. destruct (ceqb_spec x c) as [->|H].
  - tauto.
  - rewrite IH. split; [tauto|]. intros [E|E]; [congruence|assumption].
Qed.
Lemma strip_start_shift strip s : forall i, strip_start strip s i = i + strip_start strip s 0.
Proof.
  induction s as [|c s IH]; intros i; simpl; [lia|]. destruct (str_has_chr c strip); [|lia]. rewrite IH, (IH 1). lia.
Qed.
Lemma strip_start_spec strip s : exists pre rest, s = pre ++ rest /\ strip_start strip s 0 = length pre /\
  Forall (fun c => In c strip) pre /\ (forall c r, rest = c :: r -> ~ In c strip).
Proof.
  induction s as [|c s IH]; simpl.
  - exists [], []. repeat split; auto. discriminate.
  - destruct (str_has_chr c strip) eqn:E.
    + destruct IH as (pre & rest & -> & E2 & F & N). exists (c :: pre), rest. rewrite strip_start_shift, E2.
      repeat split; auto. constructor; [now apply has_chr_spec|assumption].
    + exists [], (c :: s). repeat split; auto. intros x r [= <- <-] Hin. apply has_chr_spec in Hin. congruence.
Qed.
Lemma strip_end_spec strip pre : forall rest suf,
  Forall (fun c => In c strip) suf ->
  exists r suf', rest = r ++ suf' /\ strip_end strip (pre ++ rest ++ suf) (length pre) (length pre + length rest) = length pre + length r /\
    Forall (fun c => In c strip) suf' /\ (forall x y, r = x ++ [y] -> ~ In y strip).
Proof.
  intros rest. induction rest as [|y rest IH] using rev_ind; intros suf HF.
  - exists [], []. repeat split; auto.
    + simpl. rewrite Nat.add_0_r. destruct (length pre) as [|n] eqn:E; [reflexivity|]. cbn [strip_end].
      destruct (Nat.ltb_spec n (S n)); [reflexivity|lia].
    + intros x y E. destruct x; discriminate.
  - rewrite app_length. simpl length. rewrite Nat.add_assoc, Nat.add_1_r. cbn [strip_end].
    destruct (Nat.ltb_spec (length pre + length rest) (length pre)); [lia|].
    assert (En : nth (length pre + length rest) (pre ++ (rest ++ [y]) ++ suf) NUL = y).
    { rewrite app_nth2 by lia. replace (length pre + length rest - length pre) with (length rest) by lia.
      rewrite <- app_assoc. rewrite app_nth2 by lia. rewrite Nat.sub_diag. reflexivity. }
    rewrite En. destruct (str_has_chr y strip) eqn:Ey.
    + apply has_chr_spec in Ey. destruct (IH (y :: suf) ltac:(now constructor)) as (r & suf' & -> & E & F & N).
      exists r, (suf' ++ [y]). rewrite <- !app_assoc in *. simpl in *. repeat split; auto. apply Forall_app. split; auto.
    + exists (rest ++ [y]), []. rewrite app_nil_r. repeat split; auto.
      * rewrite app_length. simpl. lia.
      * intros x z E. apply app_inj_tail in E as [_ <-]. intros Hin. apply has_chr_spec in Hin. congruence.
Qed.

(** ** glob *)
Definition plain (p : bytes) : Prop := ~ In "*"%char p /\ ~ In NUL p.
Lemma glob_for_plain rec p : plain p -> forall fuel t m, length p < fuel ->
  glob_for rec fuel p t m = Some (if str_startswith t p then Some (m + length p) else None).
Proof.
  induction p as [|c p IH]; intros [H1 H2] fuel t m Hf; (destruct fuel as [|fuel]; [lia|]); cbn [glob_for].
  - change (str_startswith t []) with true. simpl. now rewrite Nat.add_0_r.
  - assert (Hc : ceqb c "*"%char = false) by (apply ceqb_neq; intros ->; apply H1; now left).
    assert (Hc0 : ceqb c NUL = false) by (apply ceqb_neq; intros ->; apply H2; now left).
    rewrite Hc. destruct t as [|x t].
    + rewrite Hc0. reflexivity.
    + destruct (ceqb_spec c x) as [->|Hx].
      * rewrite IH; [|split; intros Hin; [apply H1|apply H2]; now right|simpl in Hf; lia].
        assert (E : str_startswith (x :: t) (x :: p) = str_startswith t p).
        { unfold str_startswith. simpl. rewrite ceqb_refl. reflexivity. }
        rewrite E. destruct (str_startswith t p); [|reflexivity]. do 2 f_equal. simpl. lia.
      * assert (E : str_startswith (x :: t) (c :: p) = false).
        { apply startswith_false. intros r E. inversion E. congruence. }
        rewrite E. reflexivity.
Qed.

Lemma glob_for_app rec p : plain p -> forall q fuel t m, q <> [] -> length p + length q < fuel ->
  glob_for rec fuel (p ++ q) t m = (if str_startswith t p then glob_for rec (fuel - length p) q (skipn (length p) t) (m + length p) else Some None).
Proof.
  induction p as [|c p IH]; intros [H1 H2] q fuel t m Hq Hf.
  - simpl. change (str_startswith t []) with true. rewrite Nat.sub_0_r, Nat.add_0_r. reflexivity.
  - destruct fuel as [|fuel]; [lia|]. cbn [glob_for app].
    assert (Hc : ceqb c "*"%char = false) by (apply ceqb_neq; intros ->; apply H1; now left).
    assert (Hc0 : ceqb c NUL = false) by (apply ceqb_neq; intros ->; apply H2; now left).
    rewrite Hc. destruct t as [|x t].
    + rewrite Hc0. reflexivity.
    + destruct (ceqb_spec c x) as [->|Hx].
      * rewrite IH; [|split; intros Hin; [apply H1|apply H2]; now right|assumption|simpl in Hf; lia].
        assert (E : str_startswith (x :: t) (x :: p) = str_startswith t p).
        { unfold str_startswith. simpl. rewrite ceqb_refl. reflexivity. }
        rewrite E. destruct (str_startswith t p); [|reflexivity]. simpl. f_equal. lia.
      * assert (E : str_startswith (x :: t) (c :: p) = false).
        { apply startswith_false. intros r E. inversion E. congruence. }
        rewrite E. reflexivity.
Qed.

Lemma glob_plain p t : plain p -> t <> [] -> str_eql_glob p t = Some (beqb p t).
Proof.
  intros Hp Ht. unfold str_eql_glob. destruct p as [|c p].
  - destruct t; [congruence|]. reflexivity.
  - cbn [glob_impl]. destruct t as [|x t]; [congruence|].
    rewrite glob_for_plain by (auto; simpl; lia). destruct (str_startswith (x :: t) (c :: p)) eqn:E.
    + apply startswith_spec in E as [r E]. rewrite E. rewrite app_length. simpl. f_equal.
      destruct r as [|y r].
      * rewrite app_nil_r. simpl. rewrite Nat.add_0_r, Nat.eqb_refl, ceqb_refl, beqb_refl. reflexivity.
      * simpl. destruct (Nat.eqb_spec (length p) (length p + S (length r))); [lia|]. symmetry.
        apply andb_false_iff. right. apply beqb_neq. intros E2. apply (f_equal (@length _)) in E2. rewrite app_length in E2. simpl in E2. lia.
    + symmetry. f_equal. apply beqb_neq. intros E2. rewrite E2 in E.
      assert (H : str_startswith (x :: t) (x :: t) = true) by (apply startswith_spec; exists []; now rewrite app_nil_r). congruence.
Qed.

Lemma glob_while_spec (rec : bytes -> bytes -> option (option nat)) q t : plain q -> q <> [] ->
  (forall s, s <> [] -> rec q s = Some (if str_startswith s q then Some (length q) else None)) -> rec q [] = Some (Some 0) ->
  forall fuel c, length t < fuel ->
  exists k m, glob_while rec fuel q t c = Some (m, c + k) /\ k <= length t /\
    ((m = length q /\ str_startswith (skipn k t) q = true /\ (forall j, j < k -> str_startswith (skipn j t) q = false)) \/
     (m = 0 /\ k = length t /\ (forall j, j < k -> str_startswith (skipn j t) q = false))).
Proof.
  intros Hq Hne HR HR0. induction t as [|x t IH]; intros fuel c Hf; (destruct fuel as [|fuel]; [lia|]); cbn [glob_while].
  - rewrite HR0. exists 0, 0. rewrite Nat.add_0_r. split; [reflexivity|]. split; [simpl; lia|]. right. repeat split; auto. lia.
  - rewrite HR by discriminate. destruct (str_startswith (x :: t) q) eqn:E.
    + exists 0, (length q). rewrite Nat.add_0_r. split; [reflexivity|]. split; [lia|]. left. repeat split; auto. lia.
    + destruct (IH fuel (S c) ltac:(simpl in Hf; lia)) as (k & m & Ew & Hk & Hcase).
      exists (S k), m. split; [rewrite Ew; do 2 f_equal; lia|]. split; [simpl; lia|].
      destruct Hcase as [(Hm & Hs & Hj)|(Hm & Hs & Hj)]; [left|right]; repeat split; auto.
      * intros [|j] Hlt; [exact E|]. simpl. apply Hj. lia.
      * simpl. lia.
      * intros [|j] Hlt; [exact E|]. simpl. apply Hj. lia.
Qed.

Lemma glob_impl_sub q s d : plain q -> q <> [] -> s <> [] ->
  glob_impl (S d) false q s = Some (if str_startswith s q then Some (length q) else None).
Proof.
  intros Hq Hne Hs. destruct q as [|c q]; [congruence|]. cbn [glob_impl]. destruct s as [|x s]; [congruence|].
  rewrite glob_for_plain by (auto; simpl; lia). reflexivity.
Qed.

Lemma glob_single p q t : plain p -> plain q -> t <> [] ->
  str_eql_glob (p ++ "*"%char :: q) t = Some true <->
  exists x, t = p ++ x ++ q /\ (q <> [] -> forall a b, x ++ q = a ++ q ++ b -> length x <= length a).
Proof.
  intros Hp Hq Ht. unfold str_eql_glob.
  assert (Hne : p ++ "*"%char :: q <> []) by (destruct p; discriminate).
  cbn [glob_impl].
  replace (match p ++ "*"%char :: q with [] => _ | _ :: _ => _ end) with
    (glob_for (glob_impl (length (p ++ "*"%char :: q)) false) (S (length (p ++ "*"%char :: q))) (p ++ "*"%char :: q) t 0).
  2:{ destruct (p ++ "*"%char :: q); [congruence|]. destruct t; [congruence|reflexivity]. }
  rewrite app_length. cbn [length]. replace (length p + S (length q)) with (S (length p + length q)) by lia.
  rewrite glob_for_app; [|exact Hp|discriminate|cbn [length]; lia].
  destruct (str_startswith t p) eqn:Es.
  2:{ split; [discriminate|]. intros (x & -> & _). exfalso. apply (proj1 (startswith_false _ _) Es (x ++ q)). reflexivity. }
  apply startswith_spec in Es as [r ->].
  rewrite skipn_app, Nat.sub_diag, skipn_all, skipn_O. cbn [app].
  replace (S (S (length p + length q)) - length p) with (S (S (length q))) by lia.
  set (d := length p + length q). cbn [glob_for]. rewrite ceqb_refl. cbn [Nat.add].
  destruct q as [|c q].
  - (* trailing star *)
    cbn [glob_while]. change (glob_impl (S d) false [] r) with (Some (Some (length r))). cbn [skipn].
    destruct (Nat.eqb_spec (length r) 0) as [E|E].
    + rewrite !app_length, E. cbn [glob_for skipn]. rewrite Nat.add_0_r, Nat.eqb_refl. split; [intros _|reflexivity].
      exists r. rewrite app_nil_r. split; [reflexivity|]. congruence.
    + rewrite skipn_nil. cbn [glob_for]. rewrite app_length, Nat.add_0_r. rewrite Nat.eqb_refl. split; [intros _|reflexivity].
      exists r. rewrite app_nil_r. split; [reflexivity|]. congruence.
  - set (q' := c :: q) in *.
    destruct (glob_while_spec (glob_impl (S d) false) q' r Hq ltac:(discriminate)) with (fuel := S (length r)) (c := 0) as (k & m & -> & Hk & Hcase).
    { intros s Hs. apply glob_impl_sub; auto. discriminate. }
    { reflexivity. }
    { lia. }
    cbn [Nat.add]. destruct Hcase as [(-> & Hs & Hj)|(-> & -> & Hj)].
    + assert (Hlq : length q' <> 0) by (unfold q'; discriminate).
      destruct (Nat.eqb_spec (length q') 0); [contradiction|].
      rewrite skipn_all2 by lia. cbn [glob_for].
      apply startswith_spec in Hs as [y Hy].
      assert (Er : r = firstn k r ++ q' ++ y) by (rewrite <- Hy; symmetry; apply firstn_skipn).
      assert (Lk : length (firstn k r) = k) by (rewrite firstn_length; lia).
      rewrite app_length. assert (Lr : length r = k + length q' + length y) by (rewrite Er at 1; rewrite !app_length, Lk; lia).
      split.
      * intros E. injection E as E. apply Nat.eqb_eq in E. assert (y = []) by (destruct y; [reflexivity|simpl in Lr; lia]). subst y.
        rewrite app_nil_r in Er. exists (firstn k r). split; [now rewrite <- Er|]. intros _ a b Ea. rewrite Lk.
        destruct (le_gt_dec k (length a)); [assumption|]. exfalso. specialize (Hj (length a) ltac:(lia)).
        rewrite <- Er in Ea. rewrite Ea in Hj. rewrite skipn_app, Nat.sub_diag, skipn_all, skipn_O in Hj. simpl app in Hj.
        apply (proj1 (startswith_false _ _) Hj (b)). reflexivity.
      * intros (x & E & Hl). apply app_inv_head in E. specialize (Hl ltac:(discriminate)). f_equal. apply Nat.eqb_eq.
        assert (L1 : length x <= k). { rewrite <- Lk. apply (Hl _ y). rewrite <- E. exact Er. }
        assert (Lx : length r = length x + length q') by (rewrite E; now rewrite app_length).
        lia.
    + cbn [Nat.eqb]. cbn [skipn]. rewrite skipn_all. unfold q'. cbn [glob_for].
      assert (Hc : ceqb c "*"%char = false) by (apply ceqb_neq; intros ->; apply (proj1 Hq); now left).
      assert (Hc0 : ceqb c NUL = false) by (apply ceqb_neq; intros ->; apply (proj2 Hq); now left).
      rewrite Hc, Hc0. split; [discriminate|]. intros (x & E & _). exfalso. apply app_inv_head in E.
      assert (Lx : length r = length x + length q') by (rewrite E; now rewrite app_length).
      specialize (Hj (length x)). assert (length x < length r) by (unfold q' in Lx; simpl in Lx; lia). specialize (Hj H).
      rewrite E in Hj. rewrite skipn_app, Nat.sub_diag, skipn_all, skipn_O in Hj. simpl app in Hj.
      apply (proj1 (startswith_false _ _) Hj ([])). now rewrite app_nil_r.
Qed.

Lemma gmatch_plain p : ~ In "*"%char p -> forall t, gmatch p t <-> t = p.
Proof.
  induction p as [|c p IH]; intros Hn t.
  - split; [inversion 1; reflexivity|intros ->; constructor].
  - assert (c <> "*"%char) by (intros ->; apply Hn; now left). split.
    + inversion 1; subst; [congruence|]. f_equal. apply IH; [intros Hin; apply Hn; now right|assumption].
    + intros ->. constructor; [assumption|]. apply IH; [intros Hin; apply Hn; now right|reflexivity].
Qed.
Lemma gmatch_single p q : ~ In "*"%char p -> ~ In "*"%char q -> forall t,
  gmatch (p ++ "*"%char :: q) t <-> exists x, t = p ++ x ++ q.
Proof.
  intros Hp Hq. induction p as [|c p IH]; intros t.
  - simpl. split.
    + inversion 1; subst; [|congruence]. exists x. f_equal. now apply gmatch_plain.
    + intros (x & ->). constructor. now apply gmatch_plain.
  - assert (c <> "*"%char) by (intros ->; apply Hp; now left).
    assert (Hp' : ~ In "*"%char p) by (intros Hin; apply Hp; now right). simpl. split.
    + inversion 1; subst; [congruence|]. apply IH in H5 as (x & ->); [|assumption]. exists x. reflexivity.
    + intros (x & ->). constructor; [assumption|]. apply IH; [assumption|]. now exists x.
Qed.
