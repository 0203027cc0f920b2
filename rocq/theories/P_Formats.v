(** Properties of line iteration, TAP and ini files. *)
From Verif Require Import Base M_Str M_Format M_Formats S_Format S_Formats L_Formats.
Local Arguments B _ : simpl never.

(** ** C34 *)
(** A text without NUL, in a buffer where a NUL follows it: the callback is fed exactly the lines
    of the text, in order, until it stops. *)
Theorem C34_lines_partial : forall S (cb : S -> option ascii -> bytes -> option (S * bool)) st text ls junk,
  ~ In NUL text -> lines_of text ls -> each_line cb st (text ++ NUL :: junk) (length text) = feed cb st None ls.
Proof. intros. unfold each_line. apply each_line_terminated; auto. rewrite app_length. simpl. lia. Qed.
Print Assumptions C34_lines_partial.
(** The same in a buffer that ends with the text, if that ends with a newline. *)
Theorem C34_exact_buffer_partial : forall S (cb : S -> option ascii -> bytes -> option (S * bool)) st text ls,
  ~ In NUL text -> (exists a, text = a ++ [NL]) -> lines_of text ls -> each_line cb st text (length text) = feed cb st None ls.
Proof. intros. unfold each_line. apply each_line_exact; auto. Qed.
Print Assumptions C34_exact_buffer_partial.
(** Every text has lines, and they join to the text. *)
Theorem C34_lines_cover : forall text, exists ls, lines_of text ls /\
  (text = concat (map (fun l => l ++ [NL]) ls) \/ text = joinb [NL] ls) /\ Forall (fun l => ~ In NL l) ls.
Proof.
  intros text. destruct (lines_fun text) as [ls H]. exists ls. split; [exact H|]. induction H as [|l Hne Hl|l r ls Hl Hr [IH1 IH2]].
  - split; [left; reflexivity|constructor].
  - split; [right; reflexivity|repeat constructor; auto].
  - split; [|constructor; auto]. destruct IH1 as [E|E].
    + left. cbn [map concat]. rewrite <- E, <- app_assoc. reflexivity.
    + destruct ls as [|l' ls].
      * left. cbn [joinb] in E. subst r. cbn [map concat]. now rewrite app_nil_r.
      * right. rewrite joinb_cons, <- E. reflexivity.
Qed.
Print Assumptions C34_lines_cover.
Definition recorder (st : list bytes) (_ : option ascii) (l : bytes) : option (list bytes * bool) := Some (st ++ [l], true).
Example C34_witness :
  each_line recorder [] (B "ab" ++ NL :: NL :: B "c" ++ NUL :: B "zz") 5 = Some [B "ab"; []; B "c"] /\
  each_line recorder [] (B "ab" ++ NL :: B "c" ++ [NL]) 5 = Some [B "ab"; B "c"] /\
  lines_of (B "ab" ++ NL :: B "c" ++ NL :: []) [B "ab"; B "c"].
Proof.
  split; [vm_compute; reflexivity|]. split; [vm_compute; reflexivity|].
  apply (Lines_cons (B "ab")); [vm_compute; intuition discriminate|]. apply (Lines_cons (B "c")); [vm_compute; intuition discriminate|constructor].
Qed.
(** A NUL byte hides the rest of the text; and without a NUL after it, the search for the end of
    an unterminated last line leaves the buffer. *)
Theorem C34_nul_and_overrun_refuted :
  (forall a b, ~ In NL a -> ~ In NUL a -> a <> [] -> each_line recorder [] (a ++ NUL :: NL :: b ++ [NUL]) (length a + length b + 2) = Some [a]) /\
  (forall text, ~ In NUL text -> (forall a, text <> a ++ [NL]) -> each_line recorder [] text (length text) = None).
Proof.
  split.
  - intros a b H1 H2 H3. unfold each_line. rewrite each_line_loop_eq, find_nl_nul by assumption. destruct a; [congruence|reflexivity].
  - intros text H1 H2. destruct (lines_fun text) as [ls Hls]. unfold each_line. apply (each_line_overrun _ _ ls); auto.
    + intros [a E]. now apply (H2 a).
    + intros st prev l r E. unfold recorder in E. injection E as <-. reflexivity.
Qed.
Print Assumptions C34_nul_and_overrun_refuted.

(** ** C33 *)
(** Every line is of some kind; and for output without NUL and bail-out, fewer than 2^32 points
    and no more points than planned: the output is accepted exactly when no point failed and, if
    there is a plan, the points that passed or were skipped are as many as planned. *)
Theorem C33_verdict_partial : forall text ls junk, ~ In NUL text -> lines_of text ls ->
  exists kinds res ok, Forall2 tap_line ls kinds /\ tap_parse (text ++ NUL :: junk) (length text) = Some (res, ok) /\
  (~ In Bail kinds -> (Z.of_nat (length kinds) < 2 ^ 32)%Z ->
   (forall n, last_plan kinds = Some n -> (n < 2 ^ 32 /\ count is_ok kinds + count is_fail kinds <= n)%Z) ->
   (ok = true <-> count is_fail kinds = 0%Z /\ (forall n, last_plan kinds = Some n -> count is_ok kinds = n))).
Proof.
  intros text ls junk Hn Hl. destruct (tap_kinds ls) as [ks Hk]. exists ks. unfold tap_parse.
  assert (E : each_line (fun t (_ : option ascii) l => Some (tap_line_cb t l, true)) tap0 (text ++ NUL :: junk) (length text) = Some (fold_left apply_kind ks tap0)).
  { unfold each_line. rewrite (each_line_terminated _ text ls junk Hl Hn); auto; [|rewrite app_length; simpl; lia]. now apply tap_feed. }
  rewrite E. destruct (tap_fold ks tap0 0 0 0 eq_refl eq_refl eq_refl) as (P & S & F & H & T). cbv zeta in *. remember (fold_left apply_kind ks tap0) as t.
  eexists _, _. split; [exact Hk|]. split; [reflexivity|]. intros _ Hlen Hplan. cbn [total]. rewrite P, S, F, T, H. cbn [Z.add tap0 have_plan total].
  pose proof (count_ok ks) as Hok. pose proof (count_nonneg is_pass ks). pose proof (count_nonneg is_skip ks). pose proof (count_nonneg is_fail ks).
  assert (Hb : (count is_ok ks + count is_fail ks <= Z.of_nat (length ks))%Z).
  { clear. unfold count. induction ks as [|k ks IH]; [simpl; lia|]. cbn [filter length]. destruct k; cbn [is_ok is_fail length]; lia. }
  assert (M : forall x, (0 <= x < 2 ^ 32)%Z -> u32 x = x) by (intros x Hx; unfold u32; apply Z.mod_small; exact Hx).
  rewrite !(M (count _ ks)) by lia. rewrite (M (count is_pass ks + count is_skip ks)%Z) by lia.
  assert (Hpos : forall n, last_plan ks = Some n -> (0 < n)%Z).
  { clear -Hk. induction Hk as [|l k ls ks Hl _ IH]; intros n; cbn [last_plan]; [discriminate|]. destruct (last_plan ks) as [m|]; [intros X; apply IH; congruence|].
    destruct k; try discriminate. intros X. injection X as ->. inversion Hl; subst. unfold LONG_MAX. lia. }
  destruct (last_plan ks) as [n|] eqn:Ep.
  - destruct (Hplan n eq_refl) as [B1 B2]. specialize (Hpos n eq_refl). rewrite (M n) by lia. rewrite Z.eqb_eq. split.
    + intros X. split; [lia|]. intros m Em. injection Em as <-. lia.
    + intros [X Y]. specialize (Y n eq_refl). lia.
  - rewrite (M (count is_pass ks + count is_skip ks + count is_fail ks)%Z) by lia. rewrite Z.eqb_eq. split.
    + intros X. split; [lia|]. discriminate.
    + intros [X _]. lia.
Qed.
Print Assumptions C33_verdict_partial.
Definition tap_text := B "1..3" ++ NL :: B "ok 1 - a" ++ NL :: B "not ok 2 # TODO later" ++ NL :: B "# comment" ++ NL :: B "ok 3 # SKIP no" ++ [NL].
Example C33_witness :
  tap_parse (tap_text ++ [NUL]) (length tap_text) = Some ({| total := 3; pass := 1; fail := 0; skip := 2; have_plan := true; bail_out := false |}, true) /\
  snd (match tap_parse (tap_text ++ B "not ok" ++ [NUL]) (length tap_text + 6) with Some x => x | None => (tap0, false) end) = true.
Proof. vm_compute. auto. Qed.
(** Accepted although a point failed (more points than planned), although the test bailed out,
    and although 2^32 points are missing; and "okay" is a passing point. *)
Theorem C33_accepted_failures_refuted :
  (exists r, tap_parse (B "1..1" ++ NL :: B "ok 1" ++ NL :: B "not ok 2" ++ [NUL]) 18 = Some (r, true) /\ fail r = 1%Z) /\
  (exists r, tap_parse (B "ok 1" ++ NL :: B "Bail out! disk full" ++ [NUL]) 24 = Some (r, true) /\ bail_out r = true) /\
  (exists r, tap_parse (B "1..4294967297" ++ NL :: B "ok 1" ++ [NUL]) 18 = Some (r, true)) /\
  tap_line (B "okay") Pass.
Proof.
  split; [eexists; vm_compute; auto|]. split; [eexists; vm_compute; auto|]. split; [eexists; vm_compute; reflexivity|].
  apply (T_ok (B "ay")). intros (d & (a & E & _) & _). assert (H : In "#"%char (B "ay")) by (rewrite E, !in_app_iff; right; left; right; left; reflexivity). vm_compute in H. intuition discriminate.
Qed.
Print Assumptions C33_accepted_failures_refuted.

(** ** C35 *)
Definition accept_all (_ : ini_call) : bool := true.
(** A well-formed file that ends with a newline: exactly its sections and pairs are reported, in
    order, with their line numbers; for ini files and for key=value files. *)
Theorem C35_ini_partial : forall text ls items, ~ In NUL text -> (exists a, text = a ++ [NL]) -> lines_of text ls ->
  (Forall2 (ini_line false (B ";#")) ls items -> ini_parse accept_all text = Some (ini_events None 1 items, true)) /\
  (Forall2 (ini_line true (B "#")) ls items -> keyval_parse accept_all text = Some (ini_events None 1 items, true)).
Proof.
  assert (U : forall l, forallb accept_all l = true) by (induction l; auto).
  intros text ls items Hn He Hl. split; intros H; [unfold ini_parse|unfold keyval_parse]; unfold ini_run, each_line;
    rewrite (each_line_exact _ text ls Hl Hn He) by (auto; lia);
    destruct (ini_feed _ _ accept_all ls items H (lines_nonul _ _ Hl Hn) {| sect := None; lineno := 1; success := true; calls := [] |} None [] (U _)) as (st & E & S & C & _);
    rewrite app_nil_r in E; rewrite E; cbn [feed]; rewrite C, S; reflexivity.
Qed.
Print Assumptions C35_ini_partial.
(** The first malformed line ends the parse with an error, after the calls for the lines before it. *)
Theorem C35_bad_line_partial : forall text good bad rest items, ~ In NUL text -> (exists a, text = a ++ [NL]) -> lines_of text (good ++ bad :: rest) ->
  Forall2 (ini_line false (B ";#")) good items -> ini_bad (B ";#") bad -> ini_parse accept_all text = Some (ini_events None 1 items, false).
Proof.
  assert (U : forall l, forallb accept_all l = true) by (induction l; auto).
  intros text good bad rest items Hn He Hl H Hb. unfold ini_parse, ini_run, each_line. rewrite (each_line_exact _ text _ Hl Hn He) by (auto; lia).
  pose proof (lines_nonul _ _ Hl Hn) as N. apply Forall_app in N as [N _].
  destruct (ini_feed _ _ accept_all good items H N {| sect := None; lineno := 1; success := true; calls := [] |} None (bad :: rest) (U _)) as (st & E & S & C & _).
  rewrite E. cbn [feed]. rewrite ini_bad_spec by exact Hb. cbn [calls success]. rewrite C. reflexivity.
Qed.
Print Assumptions C35_bad_line_partial.
Definition ini_text := B "; hi" ++ NL :: B "[wrap-file]" ++ NL :: B "a b =  x=y z  " ++ NL :: NL :: B "k=" ++ [NL].
Example C35_witness :
  ini_parse accept_all ini_text = Some ([
    {| c_sect := Some (B "wrap-file"); c_kv := None; c_line := 2 |};
    {| c_sect := Some (B "wrap-file"); c_kv := Some (B "a b", B "x=y z"); c_line := 3 |};
    {| c_sect := Some (B "wrap-file"); c_kv := Some (B "k", []); c_line := 5 |}], true) /\
  ini_line false (B ";#") (B "a b" ++ B " " ++ "="%char :: B "  " ++ B "x=y z" ++ B "  ") (IPair (B "a b") (B "x=y z")).
Proof.
  split; [vm_compute; reflexivity|]. apply I_pair; try (repeat constructor; fail); try discriminate.
  - vm_compute. intuition discriminate.
  - intros c r E. injection E as <- _. split; [vm_compute; intuition discriminate|discriminate].
  - intros r c E. change (B "a b") with (B "a " ++ ["b"%char]) in E. apply app_inj_tail in E as [_ <-]. reflexivity.
  - intros c r E. injection E as <- _. reflexivity.
  - intros r c E. change (B "x=y z") with (B "x=y " ++ ["z"%char]) in E. apply app_inj_tail in E as [_ <-]. reflexivity.
Qed.
(** Without a final newline, and for a first line whose key is blank, memory outside the buffer
    is read. *)
Theorem C35_overrun_refuted :
  ini_parse accept_all (B "[s]" ++ NL :: B "k=v") = None /\
  ini_parse accept_all (B "=v" ++ [NL]) = None /\
  keyval_parse accept_all (B "k=v") = None /\
  ini_parse accept_all (B "k=v" ++ NL :: B "=w" ++ [NL]) = Some ([{| c_sect := None; c_kv := Some (B "k", B "v"); c_line := 1 |}; {| c_sect := None; c_kv := Some ([], B "w"); c_line := 2 |}], true).
Proof. vm_compute. auto. Qed.
Print Assumptions C35_overrun_refuted.
