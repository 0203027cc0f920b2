(** Properties C18-C21, C23-C25 and C76: string methods.  The vocabulary is in S_Str. *)
From Verif Require Import Base M_Str S_Str L_Str.

(** C18: splitting on a non-empty separator always ends, cuts at the leftmost non-overlapping
    occurrences, and the pieces contain no separator and join to the original string. *)
Theorem C18_split : forall s sep, sep <> [] ->
  exists ps, str_split (S (length s)) s sep = Some ps /\
    leftmost_split sep s ps /\ Forall (fun p => ~ occurs sep p) ps /\
    str_array_join sep ps = s.
Proof.
  intros s sep H. destruct (split_loop_spec sep (S (length s)) H s [] [] ltac:(lia)) as (ps & E & L).
  { intros a b _. simpl. lia. }
  exists ps. simpl in E, L. split; [exact E|]. split; [exact L|]. split; [eapply leftmost_clear; eauto|].
  rewrite array_join_spec. now apply leftmost_join.
Qed.
Print Assumptions C18_split.
Example C18_witness : str_split 9 (B "aaXXbXXX") (B "XX") = Some [B "aa"; B "b"; B "X"].
Proof. vm_compute. reflexivity. Qed.

(** C18, the other direction: for a one-byte separator, splitting what was joined gives the
    pieces back. *)
Theorem C18_join_split : forall c ps, ps <> [] -> Forall (fun p => ~ In c p) ps ->
  exists fuel, str_split fuel (str_array_join [c] ps) [c] = Some ps.
Proof.
  intros c ps Hne HF. rewrite array_join_spec. set (s := joinb [c] ps). exists (S (length s)).
  destruct (C18_split s [c] ltac:(discriminate)) as (qs & E & L & _). rewrite E. f_equal.
  assert (L2 : leftmost_split [c] s ps). { rewrite <- (split_on_joinb c ps Hne HF). apply split_single. }
  eapply leftmost_unique; eauto. discriminate.
Qed.
Print Assumptions C18_join_split.
Example C18_join_split_witness : str_split 20 (str_array_join [","%char] [B "a"; []; B "bc"]) [","%char] = Some [B "a"; []; B "bc"].
Proof. vm_compute. reflexivity. Qed.

(** With an empty separator the code never ends on a non-empty string. *)
Theorem C18_empty_separator_diverges : forall s fuel, s <> [] -> str_split fuel s [] = None.
Proof. intros s fuel H. now apply split_empty_diverges. Qed.
Print Assumptions C18_empty_separator_diverges.

(** C19: without a separator, and for strings without NUL bytes, the result is the non-empty
    pieces between whitespace bytes, i.e. the maximal runs of other bytes. *)
Theorem C19_whitespace_split_partial : forall s, ~ In NUL s ->
  str_split_ws s = Some (filter nonempty (cut_at is_space s)).
Proof.
  intros s H. unfold str_split_ws. rewrite split_ws_spec by lia. simpl. do 2 f_equal. apply cut_at_ext.
  intros c Hc. unfold ws_strchr, is_space.
  assert (E : ceqb c NUL = false) by (apply ceqb_neq; intros ->; contradiction). rewrite E.
  destruct (ceqb c NL), (ceqb c CR), (ceqb c TAB), (ceqb c " "%char); reflexivity.
Qed.
Print Assumptions C19_whitespace_split_partial.
Example C19_witness : str_split_ws (B "  ab c   d ") = Some [B "ab"; B "c"; B "d"].
Proof. vm_compute. reflexivity. Qed.

(** what happens in general: NUL counts as whitespace *)
Theorem C19_whitespace_split : forall s,
  str_split_ws s = Some (filter nonempty (cut_at (fun c => is_space c || ceqb c NUL) s)).
Proof.
  intros s. unfold str_split_ws. rewrite split_ws_spec by lia. simpl. do 2 f_equal. apply cut_at_ext.
  intros c _. unfold ws_strchr, is_space. destruct (ceqb c NL), (ceqb c CR), (ceqb c TAB), (ceqb c " "%char); reflexivity.
Qed.
Print Assumptions C19_whitespace_split.
Theorem C19_nul_refuted : exists s, str_split_ws s <> Some (filter nonempty (cut_at is_space s)).
Proof. exists ["a"%char; NUL; "b"%char]. vm_compute. discriminate. Qed.
Print Assumptions C19_nul_refuted.

(** C20: replacing a non-empty string replaces its leftmost non-overlapping occurrences and
    keeps the text between them. *)
Theorem C20_replace : forall s find repl, find <> [] ->
  exists ps, leftmost_split find s ps /\ str_replace (S (length s)) s find repl = Some (joinb repl ps).
Proof.
  intros s f r H. destruct (replace_loop_spec f r (S (length s)) H s [] [] ltac:(lia)) as (ps & E & L).
  { intros a b _. simpl. lia. }
  exists ps. split; [exact L|exact E].
Qed.
Print Assumptions C20_replace.
Example C20_witness : str_replace 20 (B "aXaXXa") (B "a") (B "--") = Some (B "--X--XX--").
Proof. vm_compute. reflexivity. Qed.
Theorem C20_empty_find_diverges : forall s repl fuel, s <> [] -> str_replace fuel s [] repl = None.
Proof. intros s repl fuel H. now apply replace_empty_diverges. Qed.
Print Assumptions C20_empty_find_diverges.

(** C21: strip removes the longest prefix and the longest suffix made of the given bytes. *)
Theorem C21_strip : forall s strip,
  let set := match strip with Some x => x | None => B " " ++ [NL; TAB] end in
  exists pre r suf, str_strip s strip = Some r /\ s = pre ++ r ++ suf /\
    Forall (fun c => In c set) pre /\ Forall (fun c => In c set) suf /\
    (forall c t, r = c :: t -> ~ In c set) /\ (forall t c, r = t ++ [c] -> ~ In c set).
Proof.
  intros s strip set. unfold str_strip.
  replace (match strip with Some x => x | None => default_strip end) with set by (destruct strip; reflexivity).
  destruct (strip_start_spec set s) as (pre & rest & Es & E & F & N). rewrite E.
  destruct (strip_end_spec set pre rest [] (Forall_nil _)) as (r & suf & Er & E2 & F2 & N2).
  rewrite app_nil_r in E2. rewrite <- Es in E2. assert (El : length s = length pre + length rest) by (rewrite Es; apply app_length).
  rewrite El, E2. destruct (Nat.leb_spec (length pre) (length pre + length r)); [|lia].
  exists pre, r, suf. split; [|split; [|split; [|split; [|split]]]]; auto.
  - f_equal. rewrite Es, Er. rewrite skipn_app, Nat.sub_diag, skipn_all, skipn_O. simpl app.
    replace (length pre + length r - length pre) with (length r) by lia.
    rewrite firstn_app, Nat.sub_diag, firstn_O, app_nil_r. apply firstn_all.
  - now rewrite Es, Er.
  - intros c t ->. eapply N. rewrite Er. simpl. reflexivity.
Qed.
Print Assumptions C21_strip.
Example C21_witness : str_strip (B "  a b  ") None = Some (B "a b") /\ str_strip (B "xxaxbyx") (Some (B "xy")) = Some (B "axb").
Proof. vm_compute. auto. Qed.

(** C23: for indices within -len..len the result is the Python slice. *)
Theorem C23_substring_partial : forall s a b,
  let len := Z.of_nat (length s) in
  (- len <= a <= len)%Z -> (- len <= b <= len)%Z ->
  str_substring s (Some a) (Some b) = Some (py_slice s a b).
Proof.
  intros s a b len Ha Hb. unfold str_substring, py_slice, py_bound. fold len.
  set (a' := (if a <? 0 then len + a else a)%Z). set (b' := (if b <? 0 then len + b else b)%Z).
  assert (A : (0 <= a' <= len)%Z) by (unfold a'; destruct (Z.ltb_spec a 0); lia).
  assert (Bb : (0 <= b' <= len)%Z) by (unfold b'; destruct (Z.ltb_spec b 0); lia).
  replace (Z.max 0 (Z.min len a')) with a' by lia. replace (Z.max 0 (Z.min len b')) with b' by lia.
  replace (Z.max 0 a') with a' by lia.
  destruct (Z.leb_spec 0 a'); [|lia]. cbn [andb].
  assert (Hn : forall n, (0 <= n)%Z -> (a' + n <= len)%Z ->
     firstn (Z.to_nat n) (skipn (Z.to_nat a') (s ++ [NUL])) = firstn (Z.to_nat n) (skipn (Z.to_nat a') s)).
  { intros n H0 H1. rewrite skipn_app, firstn_app. rewrite skipn_length.
    replace (Z.to_nat n - (length s - Z.to_nat a')) with 0 by (unfold len in *; lia). now rewrite firstn_O, app_nil_r. }
  destruct (Z.ltb_spec b' a') as [L|L].
  - replace (Z.min (a' - a') len) with 0%Z by lia. destruct (Z.leb_spec (a' + 0) (len + 1)); [|lia].
    replace (Z.to_nat (b' - a')) with 0 by lia. reflexivity.
  - replace (Z.min (b' - a') len) with (b' - a')%Z by lia. destruct (Z.leb_spec (a' + (b' - a')) (len + 1)); [|lia].
    f_equal. apply Hn; lia.
Qed.
Print Assumptions C23_substring_partial.
Theorem C23_substring_defaults : forall s,
  str_substring s None None = Some s /\
  forall a, (- Z.of_nat (length s) <= a <= Z.of_nat (length s))%Z ->
    str_substring s (Some a) None = Some (py_slice s a (Z.of_nat (length s))).
Proof.
  intros s.
  assert (E : forall a, (- Z.of_nat (length s) <= a <= Z.of_nat (length s))%Z ->
    str_substring s (Some a) None = Some (py_slice s a (Z.of_nat (length s)))).
  { intros a H. rewrite <- (C23_substring_partial s a (Z.of_nat (length s))) by lia. reflexivity. }
  split; [|exact E].
  change (str_substring s None None) with (str_substring s (Some 0%Z) None). rewrite E by lia.
  unfold py_slice, py_bound. destruct (Z.ltb_spec 0 0); [lia|]. destruct (Z.ltb_spec (Z.of_nat (length s)) 0); [lia|].
  f_equal. replace (Z.max 0 (Z.min (Z.of_nat (length s)) 0)) with 0%Z by lia.
  rewrite Z.min_id, Z.max_r, Z.sub_0_r, Nat2Z.id by lia. simpl. apply firstn_all.
Qed.
Print Assumptions C23_substring_defaults.
(** a start before the beginning is taken as the beginning: nothing outside is read *)
Theorem C23_start_before_begin : forall s a b, (a < - Z.of_nat (length s))%Z ->
  exists n, str_substring s (Some a) (Some b) = Some (firstn n s).
Proof.
  intros s a b H. unfold str_substring. set (len := Z.of_nat (length s)) in *.
  destruct (Z.ltb_spec a 0) as [_|]; [|lia]. set (b' := (if b <? 0 then len + b else b)%Z).
  set (e := (if b' <? len + a then len + a else b')%Z).
  assert (He : (len + a <= e)%Z) by (unfold e; destruct (Z.ltb_spec b' (len + a)); lia).
  rewrite Z.max_l by lia. set (n := Z.min (e - (len + a)) len).
  assert (Hn : (0 <= n <= len)%Z) by (unfold n; lia).
  destruct (Z.leb_spec (0 + n) (len + 1)); [|lia]. exists (Z.to_nat n).
  change (0 <=? 0)%Z with true. cbn [andb]. change (Z.to_nat 0) with 0. rewrite skipn_O, firstn_app.
  replace (Z.to_nat n - length s) with 0 by (unfold len in *; lia). now rewrite firstn_O, app_nil_r.
Qed.
Print Assumptions C23_start_before_begin.
Example C23_witness : str_substring (B "abcdef") (Some (-4)%Z) (Some (-1)%Z) = Some (B "cde").
Proof. vm_compute. reflexivity. Qed.
(** Outside that range: a wrong text, a text with a NUL byte in it, and reads outside the
    string's memory. *)
Theorem C23_out_of_range_refuted :
  (exists s a b, str_substring s (Some a) (Some b) <> Some (py_slice s a b) /\ str_substring s (Some a) (Some b) <> None) /\
  (exists s a b r, str_substring s (Some a) (Some b) = Some r /\ ~ In NUL s /\ In NUL r) /\
  (exists s a b, str_substring s (Some a) (Some b) = None).
Proof.
  split; [|split].
  - exists (B "abc"), (-5)%Z, 2%Z. vm_compute. split; discriminate.
  - exists (B "abc"), 1%Z, 10%Z, (B "bc" ++ [NUL]). vm_compute. repeat split; [intuition discriminate|tauto].
  - exists (B "abc"), 5%Z, 9%Z. vm_compute. reflexivity.
Qed.
Print Assumptions C23_out_of_range_refuted.

(** C24 *)
Theorem C24_case : forall s,
  to_upper s = map upper_of s /\ to_lower s = map lower_of s /\
  underscorify s = map (fun c => if word_char c then c else "_"%char) s.
Proof.
  intros s. split; [|split]; apply map_ext; intros [[] [] [] [] [] [] [] []]; vm_compute; reflexivity.
Qed.
Print Assumptions C24_case.
Theorem C24_prefix_suffix : forall s p,
  (str_startswith s p = true <-> exists r, s = p ++ r) /\ (str_endswith s p = true <-> exists r, s = r ++ p).
Proof. intros. split; [apply startswith_spec|apply endswith_spec]. Qed.
Print Assumptions C24_prefix_suffix.
(** the case-insensitive variants compare the lower-case forms *)
Theorem C24_prefix_suffix_nocase : forall s p,
  (str_startswithi s p = true <-> exists a r, s = a ++ r /\ map lower_of a = map lower_of p) /\
  (str_endswithi s p = true <-> exists a r, s = r ++ a /\ map lower_of a = map lower_of p).
Proof.
  assert (El : forall l, map char_to_lower l = map lower_of l).
  { intros l. apply map_ext. intros [[] [] [] [] [] [] [] []]; vm_compute; reflexivity. }
  assert (S : forall s p, str_startswithi s p = true <-> exists a r, s = a ++ r /\ map lower_of a = map lower_of p).
  { intros s p. unfold str_startswithi. destruct (Nat.ltb_spec (length s) (length p)) as [L|L].
    - split; [discriminate|]. intros (a & r & -> & E). apply (f_equal (@length _)) in E. rewrite !map_length in E. rewrite app_length in L. lia.
    - rewrite cmp_lower_spec, !El by assumption. split.
      + intros E. exists (firstn (length p) s), (skipn (length p) s). split; [symmetry; apply firstn_skipn|exact E].
      + intros (a & r & -> & E). pose proof (f_equal (@length _) E) as Ln. rewrite !map_length in Ln.
        rewrite <- Ln, firstn_app, Nat.sub_diag, firstn_O, app_nil_r, firstn_all. exact E. }
  intros s p. split; [apply S|].
  assert (Er : str_endswithi s p = str_startswithi (rev s) (rev p)) by (unfold str_endswithi, str_startswithi; now rewrite !rev_length).
  rewrite Er, S. split.
  - intros (a & r & E & M). exists (rev a), (rev r). split.
    + rewrite <- rev_app_distr, <- E. symmetry. apply rev_involutive.
    + rewrite map_rev, M, <- map_rev, rev_involutive. reflexivity.
  - intros (a & r & -> & M). exists (rev a), (rev r). split; [apply rev_app_distr|]. now rewrite !map_rev, M.
Qed.
Print Assumptions C24_prefix_suffix_nocase.
Example C24_witness : to_upper (B "aZ-9z") = B "AZ-9Z" /\ underscorify (B "a.b-c9") = B "a_b_c9" /\ str_endswith (B "abc") (B "bc") = true.
Proof. vm_compute. auto. Qed.

(** C25: for a name that is not empty, a pattern without a star matches exactly itself, and a
    pattern ending in its only star matches exactly the names with that prefix. *)
Theorem C25_glob_partial : forall p name, ~ In "*"%char p -> ~ In NUL p -> name <> [] ->
  (exists b, str_eql_glob p name = Some b /\ (b = true <-> gmatch p name)) /\
  (str_eql_glob (p ++ B "*") name = Some true <-> gmatch (p ++ B "*") name).
Proof.
  intros p name H1 H2 Hn. split.
  - exists (beqb p name). split; [apply glob_plain; auto; now split|]. rewrite beqb_eq, gmatch_plain by assumption. split; congruence.
  - change (B "*") with ["*"%char]. rewrite glob_single; [|now split|split; intros []|assumption].
    rewrite gmatch_single by (auto; intros []). split; intros (x & E); exists x; [tauto|]. split; [assumption|congruence].
Qed.
Print Assumptions C25_glob_partial.
(** a pattern with one star never accepts a name it should not, and accepts exactly those
    where the text after the star does not occur earlier *)
Theorem C25_single_star_partial : forall p q name,
  ~ In "*"%char p -> ~ In NUL p -> ~ In "*"%char q -> ~ In NUL q -> name <> [] ->
  (str_eql_glob (p ++ "*"%char :: q) name = Some true -> gmatch (p ++ "*"%char :: q) name) /\
  (str_eql_glob (p ++ "*"%char :: q) name = Some true <->
   exists x, name = p ++ x ++ q /\ (q <> [] -> forall a b, x ++ q = a ++ q ++ b -> length x <= length a)).
Proof.
  intros p q name H1 H2 H3 H4 Hn. assert (G := glob_single p q name (conj H1 H2) (conj H3 H4) Hn). split; [|exact G].
  intros E. apply G in E as (x & E & _). apply gmatch_single; auto. now exists x.
Qed.
Print Assumptions C25_single_star_partial.
Example C25_witness : str_eql_glob (B "unit/*") (B "unit/a/b") = Some true /\ str_eql_glob (B "a*b") (B "a--b") = Some true.
Proof. vm_compute. auto. Qed.
(** Names that should match but do not (the text after the star occurs twice; two stars in a
    row), and a name that should not match but does (the empty name). *)
Theorem C25_glob_refuted :
  (gmatch (B "*ab") (B "abxab") /\ str_eql_glob (B "*ab") (B "abxab") = Some false) /\
  (gmatch (B "a**b") (B "ab") /\ str_eql_glob (B "a**b") (B "ab") = Some false) /\
  (~ gmatch (B "abc") [] /\ str_eql_glob (B "abc") [] = Some true).
Proof.
  split; [|split].
  - split; [|vm_compute; reflexivity]. apply (GM_star (B "ab") (B "abx") (B "ab")). apply gmatch_plain; [|reflexivity]. vm_compute. intuition discriminate.
  - split; [|vm_compute; reflexivity]. apply GM_char; [discriminate|]. apply (GM_star (B "*b") [] (B "b")). apply (GM_star (B "b") [] (B "b")).
    apply gmatch_plain; [|reflexivity]. vm_compute. intuition discriminate.
  - split; [|vm_compute; reflexivity]. intros H. apply gmatch_plain in H; [discriminate|]. vm_compute. intuition discriminate.
Qed.
Print Assumptions C25_glob_refuted.

(** C76: contains *)
Theorem C76_contains : forall s x, s <> [] -> (str_contains s x = true <-> occurs x s).
Proof. intros s x H. rewrite contains_spec. tauto. Qed.
Print Assumptions C76_contains.
Theorem C76_contains_empty_refuted : str_contains [] [] = false /\ occurs [] [].
Proof. split; [reflexivity|]. exists [], []. reflexivity. Qed.
Print Assumptions C76_contains_empty_refuted.
Example C76_witness : str_contains (B "hello") (B "ll") = true /\ str_contains (B "hello") (B "lll") = false.
Proof. vm_compute. auto. Qed.
