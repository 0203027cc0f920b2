(** The text that the build file writer produces is a manifest. *)
From Verif Require Import Base S_Path S_Escape M_Escape L_Escape M_Path M_Backend S_Backend L_Places S_Env S_Manifest.
Local Arguments B _ : simpl never.

Definition Chars (s : bytes) : list atom := map Chr s.
Lemma expand_chars scopes s : expand scopes (Chars s) = s.
Proof. unfold expand, Chars. rewrite map_map. cbn. induction s as [|c s IH]; [reflexivity|]. cbn [map concat app]. now rewrite IH. Qed.
Lemma pieces_chars s : s <> [] -> pieces_of (Chars s) = [PStr s].
Proof.
  induction s as [|c s IH]; [congruence|]. intros _. unfold Chars in *. cbn [map pieces_of]. destruct s as [|d s]; [reflexivity|].
  rewrite IH by discriminate. reflexivity.
Qed.
Lemma chars_nonempty s : s <> [] -> Chars s <> [].
Proof. now destruct s. Qed.

Lemma written_path s : forallb path_char s = true -> written true (Chars s) (nesc s).
Proof.
  induction s as [|c s IH]; intros H; [constructor|]. cbn [forallb] in H. apply andb_true_iff in H as [H1 H2].
  unfold Chars. cbn [map nesc]. destruct (mem_char c (B " :$")) eqn:E.
  - change ([DOLLAR; c] ++ nesc s) with (B "$" ++ c :: nesc s). apply w_quoted; [|now apply IH].
    rewrite mem_nesc in E. change (mem_char c (B "$ :")) with (ceqb c "$" || (ceqb c " " || (ceqb c ":" || false))).
    destruct (ceqb c " "), (ceqb c ":"), (ceqb c "$"); simpl in *; congruence.
  - cbn [app]. apply w_char; [|now apply IH]. rewrite mem_nesc in E. destruct (path_char_inv c H1) as (C0 & C1 & C2 & C3 & C4).
    unfold plain. apply ceqb_neq in C0, C1, C2, C3, C4.
    change (mem_char c [NUL; NL; CR; "$"%char; ch 255]) with (ceqb c NUL || (ceqb c NL || (ceqb c CR || (ceqb c "$" || (ceqb c EOFB || false))))).
    change (mem_char c (B " :|")) with (ceqb c " " || (ceqb c ":" || (ceqb c "|" || false))).
    rewrite C0, C1, C2, C3, C4. destruct (ceqb c " "), (ceqb c ":"), (ceqb c "$"); simpl in *; congruence.
Qed.
Lemma written_value s : forallb var_char s = true -> written false (Chars s) (desc s).
Proof.
  induction s as [|c s IH]; intros H; [constructor|]. cbn [forallb] in H. apply andb_true_iff in H as [H1 H2].
  unfold Chars. cbn [map desc]. destruct (ceqb_spec c DOLLAR) as [->|D].
  - apply (w_quoted false DOLLAR); [reflexivity|now apply IH].
  - cbn [app]. apply w_char; [|now apply IH]. unfold plain. cbn [andb negb]. rewrite andb_true_r. apply negb_true_iff, mem_char_not_In.
    unfold var_char in H1. apply negb_true_iff, mem_char_not_In in H1. cbn in *. unfold EOFB, DOLLAR in *. intuition.
Qed.
Lemma desc_plain s : ~ In "$"%char s -> desc s = s.
Proof.
  induction s as [|c s IH]; intros H; [reflexivity|]. cbn [desc]. destruct (ceqb_spec c DOLLAR) as [->|D]; [exfalso; apply H; now left|].
  cbn [app]. f_equal. apply IH. intros Hs. apply H. now right.
Qed.

Lemma begins_blank_inv t : begins_blank t -> exists r, t = " "%char :: r \/ t = "$"%char :: NL :: r \/ t = "$"%char :: CR :: r.
Proof.
  intros (b & r & [->|(e & [->| ->] & ->)] & ->); [exists r; now left|exists r; right; now left|exists (NL :: r); right; now right].
Qed.
Lemma nesc_no_blank s tail : path_ok s -> ~ begins_blank (nesc s ++ tail).
Proof.
  intros [Hn H] X. destruct s as [|c s]; [congruence|]. cbn [forallb] in H. apply andb_true_iff in H as [H1 _].
  destruct (path_char_inv c H1) as (C0 & C1 & C2 & C3 & C4). apply begins_blank_inv in X as (r & X). cbn [nesc] in X. rewrite mem_nesc in X.
  destruct (ceqb_spec c " "%char) as [->|D1]; [cbn in X; destruct X as [X|[X|X]]; discriminate X|].
  destruct (ceqb_spec c ":"%char) as [->|D2]; [cbn in X; destruct X as [X|[X|X]]; discriminate X|].
  destruct (ceqb_spec c "$"%char) as [->|D3]; [cbn in X; destruct X as [X|[X|X]]; discriminate X|].
  cbn in X. destruct X as [X|[X|X]]; injection X as X; congruence.
Qed.

(** ** paths *)
Lemma blank_space : blanks (B " "). Proof. apply (bs_more (B " ") []); [now left|constructor]. Qed.
Lemma blank_two : blanks (B "  "). Proof. apply (bs_more (B " ") (B " ")); [now left|apply blank_space]. Qed.
Lemma end_nl : eol [NL]. Proof. now left. Qed.
Lemma gap_space : gap (B " "). Proof. exists []. split; [reflexivity|constructor]. Qed.

Lemma words_cons s l : l <> [] -> words (s :: l) = nesc s ++ B " " ++ words l.
Proof. destruct l; [congruence|]. reflexivity. Qed.
Lemma paths_words l : Forall path_ok l -> paths (map Chars l) (words l).
Proof.
  induction 1 as [|s l Hs Hl IH]; [constructor|]. destruct l as [|s' l].
  - unfold words. cbn [map joinb]. rewrite <- (app_nil_r (nesc s)). apply (ps_more _ (nesc s) [] [] []).
    + apply chars_nonempty, Hs.
    + apply written_path, Hs.
    + rewrite <- (app_nil_r (nesc s)). now apply nesc_no_blank.
    + right. auto.
    + constructor.
  - rewrite words_cons by discriminate. cbn [map]. apply ps_more.
    + apply chars_nonempty, Hs.
    + apply written_path, Hs.
    + rewrite <- (app_nil_r (nesc s)). now apply nesc_no_blank.
    + left. apply gap_space.
    + exact IH.
Qed.
Lemma paths_words_blank l : l <> [] -> Forall path_ok l -> paths (map Chars l) (words l ++ B " ").
Proof.
  intros Hn H. induction H as [|s l Hs Hl IH]; [congruence|]. destruct l as [|s' l].
  - unfold words. cbn [map joinb]. rewrite <- (app_nil_r (B " ")). apply (ps_more _ (nesc s) (B " ") [] []).
    + apply chars_nonempty, Hs.
    + apply written_path, Hs.
    + rewrite <- (app_nil_r (nesc s)). now apply nesc_no_blank.
    + left. apply gap_space.
    + constructor.
  - rewrite words_cons by discriminate. rewrite <- !app_assoc. cbn [map]. apply ps_more.
    + apply chars_nonempty, Hs.
    + apply written_path, Hs.
    + rewrite <- (app_nil_r (nesc s)). now apply nesc_no_blank.
    + left. apply gap_space.
    + apply IH. discriminate.
Qed.

(** ** statements *)
Lemma let_text n v w : a_name n -> written false v w -> ~ begins_blank w -> let_line (n, v) (n ++ B " = " ++ w ++ [NL]).
Proof. intros Hn Hw Hb. apply (let_intro n (B " ") (B " ") v w [NL]); auto using blank_space, end_nl. Qed.
Lemma block_text n v w xs t : a_name n -> written false v w -> ~ begins_blank w -> block xs t ->
  block ((n, v) :: xs) (B " " ++ n ++ B " = " ++ w ++ [NL] ++ t).
Proof.
  intros Hn Hw Hb Ht. pose proof (bk_let (B " ") _ _ _ _ blank_space ltac:(discriminate) (let_text n v w Hn Hw Hb) Ht) as X.
  rewrite <- !app_assoc in X. exact X.
Qed.
Lemma rule_text n vs w : a_name n -> block vs w -> spelled (SRule n vs) (B "rule " ++ n ++ [NL] ++ w).
Proof. intros Hn Hw. apply (sp_rule (B " ") n [] [NL] vs w); auto using blank_space, end_nl; [discriminate|constructor]. Qed.
(** the statement for a target: explicit inputs, then a bar and implicit inputs *)
Lemma build_text outs rule ins imp vs w : outs <> [] -> Forall path_ok outs -> Forall path_ok ins -> Forall path_ok imp -> a_name rule -> block vs w ->
  spelled (SBuild (map Chars outs) [] rule (map Chars ins) (map Chars imp) [] vs)
    (B "build " ++ words outs ++ B ": " ++ rule ++ B " " ++ words ins ++ B " | " ++ words imp ++ [NL] ++ w).
Proof.
  intros Ho H1 H2 H3 Hr Hb.
  assert (Si : section (B "|") (map Chars imp) (B "|" ++ B " " ++ words imp)).
  { apply se_some; [apply blank_space|now apply paths_words|discriminate]. }
  destruct ins as [|i ins].
  - pose proof (sp_build (B " ") (map Chars outs) (words outs) [] [] (B " ") rule (B "  ") [] [] (map Chars imp) (B "|" ++ B " " ++ words imp) [] [] [NL] vs w) as X.
    cbn [app] in X. rewrite <- !app_assoc in X. apply X; auto using blank_space, blank_two, end_nl, paths_words; try discriminate; try constructor.
    destruct outs; [congruence|discriminate].
  - pose proof (sp_build (B " ") (map Chars outs) (words outs) [] [] (B " ") rule (B " ") (map Chars (i :: ins)) (words (i :: ins) ++ B " ")
      (map Chars imp) (B "|" ++ B " " ++ words imp) [] [] [NL] vs w) as X.
    cbn [app] in X. rewrite <- !app_assoc in X. apply X; auto using blank_space, blank_two, end_nl, paths_words; try discriminate; try constructor.
    + destruct outs; [congruence|discriminate].
    + apply paths_words_blank; [discriminate|auto].
Qed.
(** without a bar *)
Lemma build_text_plain outs rule ins vs w : outs <> [] -> Forall path_ok outs -> Forall path_ok ins -> a_name rule -> block vs w ->
  spelled (SBuild (map Chars outs) [] rule (map Chars ins) [] [] vs)
    (B "build " ++ words outs ++ B ": " ++ rule ++ B " " ++ words ins ++ [NL] ++ w).
Proof.
  intros Ho H1 H2 Hr Hb.
  pose proof (sp_build (B " ") (map Chars outs) (words outs) [] [] (B " ") rule (B " ") (map Chars ins) (words ins) [] [] [] [] [NL] vs w) as X.
  cbn [app] in X. apply X; auto using blank_space, end_nl, paths_words; try discriminate; try constructor.
  destruct outs; [congruence|discriminate].
Qed.
Lemma phony_text outs : outs <> [] -> Forall path_ok outs ->
  spelled (SBuild (map Chars outs) [] (B "phony") [] [] [] []) (B "build " ++ words outs ++ B ": phony" ++ [NL]).
Proof.
  intros Ho H1.
  pose proof (sp_build (B " ") (map Chars outs) (words outs) [] [] (B " ") (B "phony") [] [] [] [] [] [] [] [NL] [] []) as X.
  cbn [app] in X. apply X; auto using blank_space, end_nl, paths_words; try discriminate; try constructor; try discriminate.
  destruct outs; [congruence|discriminate].
  reflexivity.
Qed.
Lemma default_text outs : outs <> [] -> Forall path_ok outs -> spelled (SDefault (map Chars outs)) (B "default " ++ words outs ++ [NL]).
Proof. intros Ho H. apply (sp_default (B " ") _ (words outs) [NL]); auto using blank_space, end_nl, paths_words. discriminate. Qed.
Lemma var_text n v w : a_name n -> ~ In n words_of_the_language -> written false v w -> ~ begins_blank w -> spelled (SVar n v) (n ++ B " = " ++ w ++ [NL]).
Proof. intros. apply sp_var; [auto|]. now apply let_text. Qed.

(** ** manifests *)
Lemma mf_statement s w ss t : spelled s w -> manifest ss t -> manifest (s :: ss) (w ++ t).
Proof. intros. apply (mf_more [] s w ss t); auto. constructor. Qed.
Lemma mf_empty_line ss t : manifest ss t -> manifest ss ([NL] ++ t).
Proof.
  intros H. inversion H as [f Hf|f s w ss' t' Hf Hs Hm]; subst.
  - constructor. apply fi_empty; [apply end_nl|auto].
  - rewrite app_assoc. apply mf_more; auto. apply fi_empty; [apply end_nl|auto].
Qed.
Lemma mf_comment c ss t : (forall x, In x c -> x <> NL /\ x <> CR) -> manifest ss t -> manifest ss (B "#" ++ c ++ [NL] ++ t).
Proof.
  intros Hc H. inversion H as [f Hf|f s w ss' t' Hf Hs Hm]; subst.
  - constructor. pose proof (fi_comment (B "#" ++ c ++ [NL]) t (comment_intro c [NL] Hc end_nl) Hf) as X. rewrite <- !app_assoc in X. exact X.
  - pose proof (mf_more (B "#" ++ c ++ [NL] ++ f) s w ss' t') as X. rewrite <- !app_assoc in X. apply X; auto.
    pose proof (fi_comment (B "#" ++ c ++ [NL]) f (comment_intro c [NL] Hc end_nl) Hf) as Y. rewrite <- !app_assoc in Y. exact Y.
Qed.

(** ** shell lines *)
Lemma line_no_blank args tail : ~ begins_blank (desc (shell_line args) ++ NL :: tail).
Proof.
  intros X. apply begins_blank_inv in X as (r & X). unfold shell_line in X. destruct args as [|s args]; [cbn in X; destruct X as [X|[X|X]]; discriminate X|].
  destruct (shell_escape_head s) as (c & r0 & E & C1 & C2).
  assert (Y : exists r', desc (joinb (B " ") (map shell_escape (s :: args))) = c :: r').
  { cbn [map]. destruct (map shell_escape args) as [|y ys].
    - cbn [joinb]. rewrite E. cbn [desc]. apply ceqb_neq in C2. fold DOLLAR in C2. rewrite C2. cbn [app]. eauto.
    - change (joinb (B " ") (shell_escape s :: y :: ys)) with (shell_escape s ++ B " " ++ joinb (B " ") (y :: ys)).
      rewrite desc_app, E. cbn [desc]. apply ceqb_neq in C2. fold DOLLAR in C2. rewrite C2. cbn [app]. eauto. }
  destruct Y as [r' Y]. rewrite Y in X. cbn in X. destruct X as [X|[X|X]]; injection X as X; congruence.
Qed.
Lemma line_no_blank' args : ~ begins_blank (desc (shell_line args)).
Proof. intros (b & r & Hb & E). apply (line_no_blank args []). exists b, (r ++ [NL]). split; [auto|]. rewrite E, <- app_assoc. reflexivity. Qed.
Lemma words_chars args : Forall line_chars args -> Forall (fun s => forallb var_char s = true) args.
Proof.
  apply Forall_impl. intros s H. apply forallb_forall. intros c Hc. destruct (H c Hc) as (A1 & A2 & A3 & A4).
  unfold var_char. apply negb_true_iff, mem_char_not_In. simpl. intuition.
Qed.
Lemma shell_line_chars args : Forall line_chars args -> forallb var_char (shell_line args) = true.
Proof.
  intros H. apply joinb_chars. rewrite Forall_map. eapply Forall_impl; [|apply words_chars, H]. intros s. apply shell_escape_chars.
Qed.
Lemma join_shell_ninja args : Forall line_chars args -> join_args_shell_ninja args = Some (desc (shell_line args)).
Proof.
  intros H. apply words_chars in H. unfold join_args_shell_ninja. rewrite join_args_spec.
  rewrite all_some_map with (g := fun s => desc (shell_escape s)).
  2: { intros s Hs. unfold shell_ninja_escape. apply simple_escape_desc, shell_escape_chars. rewrite Forall_forall in H. now apply H. }
  rewrite <- map_map. cbn [option_map]. now rewrite joinb_desc.
Qed.
Lemma join_shell args : join_args_shell args = Some (shell_line args).
Proof. unfold join_args_shell. rewrite join_args_spec. rewrite all_some_map with (g := shell_escape) by reflexivity. reflexivity. Qed.
Lemma in_shell_quote c s : In c (shell_quote_body s) -> In c s \/ c = QUOTE \/ c = BSLASH.
Proof.
  induction s as [|x s IH]; [intros []|]. cbn [shell_quote_body]. rewrite in_app_iff. intros [H|H].
  - destruct (ceqb_spec x QUOTE) as [->|]; cbn in H; [intuition|]. destruct H as [<-|[]]. left. now left.
  - destruct (IH H) as [|[|]]; auto. left. now right.
Qed.
Lemma in_shell_line c args : In c (shell_line args) -> c = " "%char \/ c = QUOTE \/ c = BSLASH \/ exists s, In s args /\ In c s.
Proof.
  unfold shell_line. induction args as [|s args IH]; [intros []|]. cbn [map]. intros H.
  assert (E : In c (shell_escape s) -> c = QUOTE \/ c = BSLASH \/ In c s).
  { unfold shell_escape. destruct s as [|x s']; [cbn; intuition|]. destruct (existsb _ _); [|auto]. intros [<-|Hc]; [auto|].
    apply in_app_or in Hc as [Hc|[<-|[]]]; [|auto]. destruct (in_shell_quote c _ Hc) as [|[|]]; auto. }
  destruct (map shell_escape args) as [|y ys].
  - cbn [joinb] in H. destruct (E H) as [|[|]]; auto. right. right. right. exists s. split; [now left|auto].
  - change (joinb (B " ") (shell_escape s :: y :: ys)) with (shell_escape s ++ B " " ++ joinb (B " ") (y :: ys)) in H.
    apply in_app_or in H as [H|H].
    + destruct (E H) as [|[|]]; auto. right. right. right. exists s. split; [now left|auto].
    + apply in_app_or in H as [H|H]; [change (B " ") with [" "%char] in H; destruct H as [<-|[]]; auto|].
      destruct (IH H) as [|[|[|(z & Hz & Hc)]]]; auto. right. right. right. exists z. split; [now right|auto].
Qed.
Lemma shell_line_words args : Forall a_word args -> sh_words (shell_line args) = Some args.
Proof.
  intros H. apply sh_words_join. intros s tail Hs. apply shell_escape_word. rewrite Forall_forall in H. destruct (H s Hs) as [_ Hw].
  destruct Hw as [->|[(c & Hc & Hm)|Hw]]; unfold sh_arg_ok; auto. right. left. apply existsb_exists. exists c. split; [exact Hc|].
  cbn in Hm. repeat (destruct Hm as [<-|Hm]; [vm_compute; reflexivity|]). destruct Hm.
Qed.
