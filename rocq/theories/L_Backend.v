(** Lemmas about the build file writer: what it writes for each target, that this is a manifest, and what the
    manifest says. *)
From Verif Require Import Base S_Path S_Escape M_Escape L_Escape M_Path L_Path L_Path2 L_Path3 M_Format S_Format L_Format M_Backend S_Backend L_Places S_Tree S_Env S_Manifest L_Spelling P_Escape.
Local Arguments B _ : simpl never.

Definition rel (root p : bytes) : bytes := match path_relative_to root p with Some r => r | None => [] end.
Lemma rel_file root p : is_abs root = true -> a_file p -> path_relative_to root p = Some (rel root p) /\ stands root p (rel root p).
Proof. intros Hr (Hp & _). destruct (relative_stands root p Hr Hp) as (r & E & Hs). unfold rel. rewrite E. auto. Qed.

(** ** names that can be written and read *)
Definition nameable (r : bytes) : Prop := path_ok r /\ canonical r (resolved r).
Lemma chars_path_ok s : s <> [] -> writable_chars s -> path_ok s.
Proof. intros Hn H. apply writable_ok. split; auto. Qed.
Lemma walk_depth l k : length (snd (walk (firstn k l))) <= length l.
Proof. eapply Nat.le_trans; [apply (walk_len _ (0, []))|]. cbn [snd length]. rewrite firstn_length. lia. Qed.
Lemma label_nameable s : a_label s -> nameable s.
Proof.
  intros (Hn & Hl & Ha & Hc). split; [now apply chars_path_ok|]. repeat apply conj; auto.
  - intros k. eapply Nat.le_trans; [apply walk_depth|auto].
  - intros E W. apply (Ha E). unfold location. now rewrite W.
Qed.
Lemma file_nameable root p : is_abs root = true -> a_file p -> nameable (rel root p).
Proof.
  intros Hr Hf. destruct (rel_file root p Hr Hf) as [_ Hs]. destruct Hf as (Ha & Hn & Hl & Hc). pose proof (stands_nonempty _ _ _ Hs) as Hne. split.
  - apply chars_path_ok; [auto|]. intros c Hi. destruct (stands_chars _ _ _ _ Hs Hi) as [Hi'|[->| ->]]; [now apply Hc|repeat split; discriminate..].
  - repeat apply conj; auto.
    + intros k. eapply Nat.le_trans; [apply (st_depth _ _ _ Hs)|auto].
    + intros E W. apply Hn. unfold location. rewrite (st_absolute _ _ _ Hs E) in W. now rewrite W.
Qed.
Lemma rel_place root p : is_abs root = true -> a_file p -> place root (resolved (rel root p)) = place root p.
Proof. intros Hr Hf. rewrite place_resolved. destruct (rel_file root p Hr Hf) as [_ Hs]. apply (st_place _ _ _ Hs). Qed.

Lemma all_rel w ps : is_abs (wk_build_root w) = true -> Forall a_file ps -> all (relativize w) ps = Some (map (rel (wk_build_root w)) ps).
Proof.
  intros Hr. induction 1 as [|p ps Hp Hps IH]; [reflexivity|]. cbn [all map]. rewrite IH. unfold relativize.
  destruct (rel_file (wk_build_root w) p Hr Hp) as [-> _]. reflexivity.
Qed.
Lemma files_nameable root ps : is_abs root = true -> Forall a_file ps -> Forall nameable (map (rel root) ps).
Proof. intros Hr H. rewrite Forall_map. eapply Forall_impl; [|exact H]. intros p. now apply file_nameable. Qed.
Lemma nameable_ok l : Forall nameable l -> Forall path_ok l.
Proof. apply Forall_impl. now intros s []. Qed.
Lemma nameable_places scopes l : Forall nameable l -> places scopes (map Chars l) (map resolved l).
Proof.
  unfold places. induction 1 as [|s l [Ho Hc] Hl IH]; [constructor|]. cbn [map]. constructor; [|exact IH]. now rewrite expand_chars.
Qed.

(** ** what is written for a target *)
Definition files_of (l : option (list bytes)) : list bytes := match l with Some ps => ps | None => [] end.
Definition raw_outs (root : bytes) (sub : option bytes) (c : custom) : list bytes :=
  match c_out c with Some ps => map (rel root) ps | None => match c_name c with Some n => [run_name sub n] | None => [] end end.
Definition raw_ins (root : bytes) (c : custom) : list bytes := map (rel root) (files_of (c_in c)).
Definition raw_item (root : bytes) (i : item) : bytes := match i with IStr s => s | IFile p => rel root p end.
Definition raw_imps (root : bytes) (c : custom) : list bytes :=
  map (raw_item root) (c_deps c) ++ (if c_stale c then [B "build_always_stale"] else []).
Definition raw_adep (root : bytes) (d : adep) : list bytes :=
  match d with AAlias n => [n] | ACustom None n => [n] | ACustom (Some ps) _ => map (rel root) ps end.
Definition rule_of (c : custom) : bytes := match c_depfile c with Some _ => B "CUSTOM_COMMAND_DEP" | None => B "CUSTOM_COMMAND" end.
Definition own_of (root : bytes) (c : custom) (line : bytes) : list (bytes * bytes) :=
  (B "COMMAND", line) :: (match c_depfile c with Some p => [(B "DEPFILE", rel root p)] | None => [] end)
  ++ (if c_console c then [(B "pool", B "console")] else []).
Definition custom_text (root : bytes) (sub : option bytes) (c : custom) (line : bytes) : bytes :=
  B "build " ++ words (raw_outs root sub c) ++ B ": " ++ rule_of c ++ B " " ++ words (raw_ins root c) ++ B " | " ++ words (raw_imps root c) ++ [NL]
  ++ B " COMMAND = " ++ desc line ++ [NL]
  ++ (match c_depfile c with Some p => B " DEPFILE = " ++ rel root p ++ [NL] | None => [] end)
  ++ (if c_console c then B " pool = console" ++ [NL] else [])
  ++ (if c_default c then B "default " ++ words (raw_outs root sub c) ++ [NL] else [])
  ++ [NL].
Definition alias_text (root n : bytes) (deps : list adep) : bytes :=
  B "build " ++ nesc n ++ B ": phony | " ++ words (concat (map (raw_adep root) deps)) ++ [NL] ++ [NL].

Definition chars_of (vs : list (bytes * bytes)) : list (bytes * list atom) := map (fun x => (fst x, Chars (snd x))) vs.
(** a target and the command line that is written for it *)
Definition entry := ((option bytes * target) * bytes)%type.
Definition entry_text (root : bytes) (x : entry) : bytes :=
  match x with ((sub, TCustom c), line) => custom_text root sub c line | ((_, TAlias n deps), _) => alias_text root n deps end.
Definition entry_stmts (root : bytes) (x : entry) : list stmt :=
  match x with
  | ((sub, TCustom c), line) =>
      SBuild (map Chars (raw_outs root sub c)) [] (rule_of c) (map Chars (raw_ins root c)) (map Chars (raw_imps root c)) [] (chars_of (own_of root c line))
      :: (if c_default c then [SDefault (map Chars (raw_outs root sub c))] else [])
  | ((_, TAlias n deps), _) => [SBuild [Chars n] [] (B "phony") [] (map Chars (concat (map (raw_adep root) deps))) [] []]
  end.
Definition entry_build (root : bytes) (x : entry) : build :=
  match x with
  | ((sub, TCustom c), line) =>
      Build (map resolved (raw_outs root sub c)) [] (map resolved (raw_ins root c)) (map resolved (raw_imps root c)) [] (rule_of c) (own_of root c line)
        (if c_console c then Some (B "console") else None)
  | ((_, TAlias n deps), _) => Build [resolved n] [] [] (map resolved (concat (map (raw_adep root) deps))) [] (B "phony") [] None
  end.
Definition entry_defaults (root : bytes) (x : entry) : list bytes :=
  match x with
  | ((sub, TCustom c), _) => if c_default c then map resolved (raw_outs root sub c) else []
  | _ => []
  end.

(** ** it is a manifest *)
Definition fine_entry (x : entry) : Prop := ok_target (fst x) /\ exists args, snd x = shell_line args /\ Forall line_chars args.
Lemma outs_nameable root sub c : is_abs root = true -> ok_custom sub c -> raw_outs root sub c <> [] /\ Forall nameable (raw_outs root sub c).
Proof.
  intros Hr H. unfold raw_outs. destruct (c_out c) as [ps|] eqn:E.
  - destruct (ok_out _ _ H ps E) as [Hn Hf]. split; [destruct ps; [congruence|discriminate]|]. now apply files_nameable.
  - destruct (ok_run _ _ H E) as (n & -> & Hl). split; [discriminate|]. constructor; [now apply label_nameable|constructor].
Qed.
Lemma ins_nameable root sub c : is_abs root = true -> ok_custom sub c -> Forall nameable (raw_ins root c).
Proof. intros Hr H. unfold raw_ins. destruct (c_in c) as [ps|] eqn:E; [|constructor]. apply files_nameable; [auto|]. exact (ok_in _ _ H ps E). Qed.
Lemma stale_label : a_label (B "build_always_stale").
Proof. split; [discriminate|]. split; [vm_compute; lia|]. split; [discriminate|]. intros c Hc. cbv in Hc. repeat (destruct Hc as [<-|Hc]; [repeat split; discriminate|]). destruct Hc. Qed.
Lemma imps_nameable root sub c : is_abs root = true -> ok_custom sub c -> Forall nameable (raw_imps root c).
Proof.
  intros Hr H. unfold raw_imps. apply Forall_app. split.
  - rewrite Forall_map. eapply Forall_impl; [|exact (ok_deps _ _ H)]. intros [s|p] Hi; [now apply label_nameable|now apply file_nameable].
  - destruct (c_stale c); [|constructor]. constructor; [apply label_nameable, stale_label|constructor].
Qed.
Lemma adeps_nameable root deps : is_abs root = true -> Forall ok_adep deps -> Forall nameable (concat (map (raw_adep root) deps)).
Proof.
  intros Hr. induction 1 as [|d deps Hd Hds IH]; [constructor|]. cbn [map concat]. apply Forall_app. split; [|exact IH].
  destruct d as [n|[ps|] n]; cbn in *; [constructor; [now apply label_nameable|constructor]|now apply files_nameable|constructor; [now apply label_nameable|constructor]].
Qed.
Lemma var_name : forall n, In n [B "COMMAND"; B "DEPFILE"; B "pool"; B "command"; B "description"; B "generator"; B "restat"; B "deps"; B "depfile";
  B "CUSTOM_COMMAND"; B "CUSTOM_COMMAND_DEP"; B "REGENERATE_BUILD"; B "phony"; B "ninja_required_version"; B "builddir"] -> a_name n.
Proof. intros n H. cbn in H. repeat (destruct H as [<-|H]; [split; [discriminate|reflexivity]|]). destruct H. Qed.
Ltac known_name := apply var_name; cbn; tauto.
Lemma rule_name c : a_name (rule_of c).
Proof. unfold rule_of. destruct (c_depfile c); known_name. Qed.
Lemma depfile_written root p : is_abs root = true -> a_file p -> ~ In "$"%char p -> ~ In " "%char p ->
  written false (Chars (rel root p)) (rel root p) /\ ~ begins_blank (rel root p).
Proof.
  intros Hr Hf Hd Hb. destruct (rel_file root p Hr Hf) as [_ Hs]. destruct Hf as (_ & _ & _ & Hc).
  assert (Nd : ~ In "$"%char (rel root p)).
  { intros Hi. destruct (stands_chars _ _ _ _ Hs Hi) as [Hi'|[E|E]]; [auto|discriminate E..]. }
  assert (Nb : ~ In " "%char (rel root p)).
  { intros Hi. destruct (stands_chars _ _ _ _ Hs Hi) as [Hi'|[E|E]]; [auto|discriminate E..]. }
  split.
  - rewrite <- (desc_plain (rel root p) Nd) at 2. apply written_value. apply forallb_forall. intros c Hi.
    unfold var_char. apply negb_true_iff, mem_char_not_In. destruct (stands_chars _ _ _ _ Hs Hi) as [Hi'|[->| ->]].
    + destruct (Hc c Hi') as (A1 & A2 & A3 & A4 & A5). simpl. intuition.
    + simpl. intuition discriminate.
    + simpl. intuition discriminate.
  - intros X. apply begins_blank_inv in X as (r & [X|[X|X]]); rewrite X in *; [apply Nb|apply Nd|apply Nd]; now left.
Qed.
Ltac plain_text := repeat (first [apply w_nil | apply w_char; [reflexivity|]]).
Ltac not_blank := let E := fresh "E" in intros (? & ? & [->|(? & [->| ->] & ->)] & E); discriminate E.

Lemma own_block root sub c line args : is_abs root = true -> ok_custom sub c -> line = shell_line args -> Forall line_chars args ->
  block (chars_of (own_of root c line))
    (B " COMMAND = " ++ desc line ++ [NL] ++ (match c_depfile c with Some p => B " DEPFILE = " ++ rel root p ++ [NL] | None => [] end)
     ++ (if c_console c then B " pool = console" ++ [NL] else [])).
Proof.
  intros Hr H -> Ha. unfold own_of.
  assert (Hpool : block (chars_of (if c_console c then [(B "pool", B "console")] else [])) (if c_console c then B " pool = console" ++ [NL] else [])).
  { destruct (c_console c); [|constructor]. apply (block_text (B "pool") (Chars (B "console")) (B "console") [] []); [known_name|plain_text|not_blank|constructor]. }
  set (pooltext := if c_console c then B " pool = console" ++ [NL] else []) in *.
  set (pool := chars_of (if c_console c then _ else _)) in *.
  unfold chars_of. cbn [map fst snd]. apply (block_text (B "COMMAND")).
  - known_name.
  - now apply written_value, shell_line_chars.
  - apply line_no_blank'.
  - rewrite map_app. change (map (fun x => (fst x, Chars (snd x))) (if c_console c then [(B "pool", B "console")] else [])) with pool.
    destruct (c_depfile c) as [p|] eqn:E; [|exact Hpool]. destruct (ok_depfile _ _ H p E) as (Hf & Hd & Hb).
    destruct (depfile_written root p Hr Hf Hd Hb) as [W1 W2]. cbn [map fst snd app]. rewrite <- !app_assoc.
    apply (block_text (B "DEPFILE") (Chars (rel root p)) (rel root p) pool pooltext); [known_name|auto|auto|exact Hpool].
Qed.
Lemma alias_spelled n imp : path_ok n -> Forall path_ok imp ->
  spelled (SBuild [Chars n] [] (B "phony") [] (map Chars imp) [] []) (B "build " ++ nesc n ++ B ": phony | " ++ words imp ++ [NL]).
Proof.
  intros Hn Hi.
  pose proof (sp_build (B " ") [Chars n] (words [n]) [] [] (B " ") (B "phony") (B " ") [] [] (map Chars imp) (B "|" ++ B " " ++ words imp) [] [] [NL] [] []) as X.
  cbn [app] in X. rewrite <- !app_assoc in X. apply X; auto using blank_space, end_nl; try discriminate; try constructor.
  - apply (paths_words [n]). now constructor.
  - discriminate.
  - reflexivity.
  - apply blank_space.
  - now apply paths_words.
  - discriminate.
Qed.
Lemma entry_manifest root x ss t : is_abs root = true -> fine_entry x -> manifest ss t ->
  manifest (entry_stmts root x ++ ss) (entry_text root x ++ t).
Proof.
  intros Hr [Hx (args & El & Ha)] Ht. destruct x as [[sub [c|n deps]] line]; cbn [fst snd] in *.
  - cbn in Hx. destruct (outs_nameable root sub c Hr Hx) as [Hne Ho]. cbn [entry_stmts entry_text app]. unfold custom_text. rewrite <- !app_assoc.
    pose proof (build_text (raw_outs root sub c) (rule_of c) (raw_ins root c) (raw_imps root c) _ _ Hne (nameable_ok _ Ho)
      (nameable_ok _ (ins_nameable root sub c Hr Hx)) (nameable_ok _ (imps_nameable root sub c Hr Hx)) (rule_name c)
      (own_block root sub c line args Hr Hx El Ha)) as X.
    assert (Hd : manifest ((if c_default c then [SDefault (map Chars (raw_outs root sub c))] else []) ++ ss)
      ((if c_default c then B "default " ++ words (raw_outs root sub c) ++ [NL] else []) ++ [NL] ++ t)).
    { apply mf_empty_line in Ht. destruct (c_default c); [|exact Ht]. cbn [app]. apply mf_statement; [|exact Ht]. apply default_text; [auto|now apply nameable_ok]. }
    pose proof (mf_statement _ _ _ _ X Hd) as Y. rewrite <- !app_assoc in Y. exact Y.
  - destruct Hx as [Hn Hd]. cbn [entry_stmts entry_text app]. unfold alias_text. rewrite <- !app_assoc.
    apply mf_empty_line in Ht. pose proof (alias_spelled n (concat (map (raw_adep root) deps)) (proj1 (label_nameable n Hn)) (nameable_ok _ (adeps_nameable root deps Hr Hd))) as X.
    pose proof (mf_statement _ _ _ _ X Ht) as Y. rewrite <- !app_assoc in Y. exact Y.
Qed.
Lemma entries_manifest root xs ss t : is_abs root = true -> Forall fine_entry xs -> manifest ss t ->
  manifest (concat (map (entry_stmts root) xs) ++ ss) (concat (map (entry_text root) xs) ++ t).
Proof.
  intros Hr H Ht. induction H as [|x xs Hx Hxs IH]; [exact Ht|]. cbn [map concat]. rewrite <- !app_assoc. now apply entry_manifest.
Qed.

(** ** what it says *)
Definition the_vars : list (bytes * bytes) := [(B "ninja_required_version", B "1.7.1"); (B "builddir", B ".muon")].
Definition regen_rule (command : list part) : bytes * list (bytes * list part) :=
  (B "REGENERATE_BUILD", [(B "command", command); (B "description", [PStr (B "Regenerating build files.")]); (B "generator", [PStr (B "1")])]).
Definition custom_rule : bytes * list (bytes * list part) :=
  (B "CUSTOM_COMMAND", [(B "command", [PVar (B "COMMAND")]); (B "description", [PVar (B "COMMAND")]); (B "restat", [PStr (B "1")])]).
Definition dep_rule : bytes * list (bytes * list part) :=
  (B "CUSTOM_COMMAND_DEP", [(B "command", [PVar (B "COMMAND")]); (B "description", [PVar (B "COMMAND")]); (B "deps", [PStr (B "gcc")]);
    (B "depfile", [PVar (B "DEPFILE")]); (B "restat", [PStr (B "1")])]).
Definition the_rules (command : list part) : list (bytes * list (bytes * list part)) := [(B "phony", []); regen_rule command; custom_rule; dep_rule].
Definition the_pools : list (bytes * Z) := [(B "console", 1%Z)].
Definition stated (command : list part) (bs : list build) (ds : list bytes) : said := Said the_vars (the_rules command) bs ds the_pools.

Lemma entry_places root x : is_abs root = true -> ok_target (fst x) -> map (place root) (all_outs (entry_build root x)) = map (place root) (produces (fst x)).
Proof.
  intros Hr H. destruct x as [[sub [c|n deps]] line]; cbn [fst] in *; unfold all_outs, produces; cbn.
  - rewrite app_nil_r, map_map. unfold raw_outs. cbn in H. destruct (c_out c) as [ps|] eqn:E.
    + rewrite map_map. apply map_ext_in. intros p Hi. apply rel_place; [auto|]. destruct (ok_out _ _ H ps E) as [_ Hf]. now apply (proj1 (Forall_forall _ _) Hf).
    + destruct (c_name c); [cbn; now rewrite place_resolved|reflexivity].
  - now rewrite place_resolved.
Qed.
Lemma expand_own scopes vs : map (fun x => (fst x, expand scopes (snd x))) (chars_of vs) = vs.
Proof. induction vs as [|[n v] vs IH]; [reflexivity|]. unfold chars_of in *. cbn [map fst snd]. now rewrite expand_chars, IH. Qed.
Lemma NoDup_parts {A} (a b : list A) : NoDup (a ++ b) -> NoDup a /\ NoDup b.
Proof.
  induction a as [|x a IH]; intros H; [split; [constructor|auto]|]. cbn [app] in H. inversion H; subst. destruct (IH H3). split; [|auto].
  constructor; [|auto]. intros Hi. apply H2, in_or_app. auto.
Qed.
Lemma entry_steps root command x bs ds : is_abs root = true -> ok_target (fst x) ->
  NoDup (map (place root) (concat (map all_outs bs) ++ produces (fst x))) ->
  steps nodepath (stated command bs ds) (entry_stmts root x) (stated command (bs ++ [entry_build root x]) (ds ++ entry_defaults root x)).
Proof.
  intros Hr H Hn. rewrite map_app, <- (entry_places root x Hr H), <- map_app in Hn. apply NoDup_map_inv in Hn.
  assert (N1 : NoDup (all_outs (entry_build root x))) by now apply NoDup_parts in Hn.
  assert (N2 : forall p b', In p (all_outs (entry_build root x)) -> In b' bs -> ~ In p (all_outs b')).
  { intros p b' Hp Hb Hp'. assert (Hi : In p (concat (map all_outs bs))) by (apply in_concat; exists (all_outs b'); split; [now apply in_map|auto]).
    clear -Hn Hp Hi. induction (concat (map all_outs bs)) as [|q l IH]; [destruct Hi|]. cbn [app] in Hn. inversion Hn; subst. destruct Hi as [->|Hi]; [|auto]. apply H1, in_or_app. auto. }
  destruct x as [[sub [c|n deps]] line]; cbn [fst] in *.
  - cbn in H. destruct (outs_nameable root sub c Hr H) as [Hne Ho]. cbn [entry_stmts entry_defaults].
    eapply ss_more.
    + eapply (st_build nodepath (stated command bs ds) _ _ _ _ _ _ _ (entry_build root ((sub, TCustom c), line))); cbn [entry_build b_rule b_vars b_outs b_outimp b_ins b_imp b_ord b_pool stated vars rules builds defaults pools].
      * unfold rule_of. destruct (c_depfile c); discriminate.
      * reflexivity.
      * symmetry. apply expand_own.
      * now apply nameable_places.
      * constructor.
      * eapply nameable_places, ins_nameable; eauto.
      * eapply nameable_places, imps_nameable; eauto.
      * constructor.
      * exact N1.
      * exact N2.
      * unfold own_of. destruct (c_console c).
        -- apply v_own; [intros [X|[X|X]]; discriminate X|]. destruct (c_depfile c); reflexivity.
        -- rewrite app_nil_r. set (d := sees _ _). change (@None bytes) with (innermost (scopes d) (B "pool")). unfold rule_of in d. apply v_scope; [intros [X|[X|X]]; discriminate X|subst d; destruct (c_depfile c); reflexivity..].
      * intros p. destruct (c_console c); [|discriminate]. intros [= <-]. discriminate.
    + destruct (c_default c); [|rewrite app_nil_r; constructor]. eapply ss_more; [|constructor].
      apply (st_default nodepath (stated command (bs ++ [entry_build root ((sub, TCustom c), line)]) ds)); [now apply nameable_places|]. cbn [builds]. intros q Hq. exists (entry_build root ((sub, TCustom c), line)).
      split; [apply in_or_app; right; now left|]. left. unfold all_outs. apply in_or_app. now left.
  - destruct H as [Hl Hd]. cbn [entry_stmts entry_defaults]. rewrite app_nil_r. eapply ss_more; [|constructor].
    eapply (st_build nodepath (stated command bs ds) _ _ _ _ _ _ _ (entry_build root ((sub, TAlias n deps), line))); cbn [entry_build b_rule b_vars b_outs b_outimp b_ins b_imp b_ord b_pool stated vars rules builds defaults pools].
    + discriminate.
    + reflexivity.
    + reflexivity.
    + apply (nameable_places _ [n]). constructor; [now apply label_nameable|constructor].
    + constructor.
    + constructor.
    + eapply nameable_places, adeps_nameable; eauto.
    + constructor.
    + exact N1.
    + exact N2.
    + set (d := sees _ _). change (@None bytes) with (innermost (scopes d) (B "pool")). apply v_scope; [intros [X|[X|X]]; discriminate X|reflexivity..].
    + discriminate.
Qed.
Lemma steps_app q s a s' b s'' : steps q s a s' -> steps q s' b s'' -> steps q s (a ++ b) s''.
Proof. induction 1; intros H2; [exact H2|]. cbn [app]. econstructor; eauto. Qed.
Lemma entries_steps root command xs : forall bs ds, is_abs root = true -> Forall (fun x => ok_target (fst x)) xs ->
  NoDup (map (place root) (concat (map all_outs bs) ++ concat (map (fun x => produces (fst x)) xs))) ->
  steps nodepath (stated command bs ds) (concat (map (entry_stmts root) xs))
    (stated command (bs ++ map (entry_build root) xs) (ds ++ concat (map (entry_defaults root) xs))).
Proof.
  intros bs ds Hr H. revert bs ds. induction H as [|x xs Hx Hxs IH]; intros bs ds Hn; [cbn; rewrite !app_nil_r; constructor|].
  cbn [map concat] in *. rewrite app_assoc in Hn. eapply steps_app.
  - apply entry_steps; [auto|auto|]. rewrite map_app in Hn. now apply NoDup_parts in Hn.
  - replace (bs ++ entry_build root x :: map (entry_build root) xs) with ((bs ++ [entry_build root x]) ++ map (entry_build root) xs) by now rewrite <- app_assoc.
    rewrite app_assoc. apply IH. rewrite (map_app all_outs), concat_app. cbn [map concat]. rewrite app_nil_r.
    rewrite !map_app in *. now rewrite (entry_places root x Hr Hx).
Qed.

(** ** data files *)
Definition data_path (w : wk) (dir n : bytes) (k : N) : bytes :=
  render true (comps (wk_private w) ++ [dir; n ++ print_nat_dec k ++ B ".dat"]).
Definition a_data_file (w : wk) (p : bytes) (k : N) : Prop :=
  exists dir n, In dir [B "custom_tgt_env"; B "custom_tgt_args"] /\ data_name n /\ p = data_path w dir n k.
Fixpoint numbered (w : wk) (k : N) (files : list (bytes * data)) : Prop :=
  match files with [] => True | (p, _) :: files => a_data_file w p k /\ numbered w (k + 1) files end.

Lemma digits_apart n m a b : (forall l c, n = l ++ [c] -> is_digit c = false) -> (forall l c, m = l ++ [c] -> is_digit c = false) ->
  forallb is_digit a = true -> forallb is_digit b = true -> n ++ a = m ++ b -> a = b.
Proof.
  intros Hn Hm Ha Hb. revert b Hb. induction a as [|c a IH] using rev_ind; intros b Hb E.
  - rewrite app_nil_r in E. destruct b as [|d b] using rev_ind; [reflexivity|]. rewrite app_assoc in E. specialize (Hn _ _ E).
    rewrite forallb_app in Hb. apply andb_true_iff in Hb as [_ Hb]. cbn in Hb. rewrite andb_true_r in Hb. congruence.
  - rewrite forallb_app in Ha. apply andb_true_iff in Ha as [Ha Hc]. cbn in Hc. rewrite andb_true_r in Hc.
    destruct b as [|d b _] using rev_ind.
    + rewrite app_nil_r, app_assoc in E. symmetry in E. specialize (Hm _ _ E). congruence.
    + rewrite !app_assoc in E. apply app_inj_tail in E as [E ->]. rewrite forallb_app in Hb. apply andb_true_iff in Hb as [Hb _].
      now rewrite (IH Ha b Hb E).
Qed.
Lemma dat_good n k : ~ In "/"%char n -> good (n ++ print_nat_dec k ++ B ".dat").
Proof.
  intros H. destruct (print_nat_dec_spec k) as [[Hn Hd] _]. split.
  - assert (L : 4 <= length (n ++ print_nat_dec k ++ B ".dat")) by (rewrite !app_length; change (length (B ".dat")) with 4; lia).
    unfold moves. destruct (beqb_spec (n ++ print_nat_dec k ++ B ".dat") []) as [E|]; [rewrite E in L; cbn in L; lia|].
    destruct (beqb_spec (n ++ print_nat_dec k ++ B ".dat") (B ".")) as [E|]; [rewrite E in L; change (length (B ".")) with 1 in L; lia|reflexivity].
  - intros X. apply in_app_or in X as [X|X]; [contradiction|]. apply in_app_or in X as [X|X].
    + rewrite forallb_forall in Hd. specialize (Hd _ X). discriminate Hd.
    + change (B ".dat") with ["."; "d"; "a"; "t"]%char in X. repeat (destruct X as [X|X]; [discriminate X|]). destruct X.
Qed.
Lemma dir_good dir : In dir [B "custom_tgt_env"; B "custom_tgt_args"] -> good dir.
Proof. intros [<-|[<-|[]]]; (split; [reflexivity|]; intros X; apply mem_char_In in X; discriminate X). Qed.
Lemma data_path_inj w p k j : a_data_file w p k -> a_data_file w p j -> k = j.
Proof.
  intros (dir & n & Hd & (_ & Hn & Hn') & ->) (dir' & n' & Hd' & (_ & Hm & Hm') & E). unfold data_path in E.
  apply (f_equal comps) in E.
  rewrite !comps_render in E by (apply Forall_app; split; [apply comps_good|constructor; [now apply dir_good|constructor; [now apply dat_good|constructor]]]).
  apply app_inv_head in E. injection E as _ E. rewrite !app_assoc in E. apply app_inv_tail in E.
  destruct (print_nat_dec_spec k) as [[_ Hd1] V1]. destruct (print_nat_dec_spec j) as [[_ Hd2] V2].
  apply digits_apart in E; auto. rewrite E in V1. rewrite V1 in V2. lia.
Qed.
Lemma numbered_app w files : forall k more, numbered w k files -> numbered w (k + N.of_nat (length files)) more -> numbered w k (files ++ more).
Proof.
  induction files as [|[p d] files IH]; intros k more H1 H2.
  - cbn in H2. now rewrite N.add_0_r in H2.
  - destruct H1 as [H1 H1']. split; [auto|]. apply IH; [auto|]. replace (k + 1 + N.of_nat (length files))%N with (k + N.of_nat (length ((p, d) :: files)))%N by (cbn [length]; lia). exact H2.
Qed.
Lemma numbered_above w files : forall k p d, numbered w k files -> In (p, d) files -> exists j, (k <= j)%N /\ a_data_file w p j.
Proof.
  induction files as [|[q d'] files IH]; intros k p d H Hi; [destruct Hi|]. destruct H as [H H']. destruct Hi as [[= -> ->]|Hi].
  - exists k. split; [lia|auto].
  - destruct (IH _ _ _ H' Hi) as (j & L & A). exists j. split; [lia|auto].
Qed.
Lemma numbered_found w files : forall k p d, numbered w k files -> In (p, d) files -> data_file files p = Some d.
Proof.
  induction files as [|[q d'] files IH]; intros k p d H Hi; [destruct Hi|]. destruct H as [H H']. cbn [data_file].
  destruct Hi as [[= -> ->]|Hi].
  - destruct (data_file files p) as [d2|] eqn:E; [|now rewrite beqb_refl]. exfalso.
    assert (Hi : In (p, d2) files).
    { clear -E. induction files as [|[q d3] files IH]; [discriminate|]. cbn [data_file] in E. destruct (data_file files p) as [d4|].
      - right. auto.
      - destruct (beqb_spec p q) as [->|]; [|discriminate]. injection E as ->. now left. }
    destruct (numbered_above w files _ _ _ H' Hi) as (j & L & A). pose proof (data_path_inj w p k j H A). lia.
  - now rewrite (IH _ _ _ H' Hi).
Qed.

(** ** the command of a target *)
Lemma lit_word s : forallb (fun c => negb (mem_char c [NUL; NL; CR; ch 255])) s = true -> sh_plain s = true -> a_word s.
Proof.
  intros H H'. split; [|auto]. intros c Hc. rewrite forallb_forall in H. specialize (H c Hc). apply negb_true_iff, mem_char_not_In in H. cbn in H. intuition.
Qed.
Lemma dat_word n k : a_word n -> a_word (n ++ print_nat_dec k ++ B ".dat").
Proof.
  intros [Hl Hw]. destruct (print_nat_dec_spec k) as [[Hn Hd] _].
  assert (Hdig : forall c, is_digit c = true -> (c <> NUL /\ c <> NL /\ c <> CR /\ c <> ch 255) /\ plainc c = true /\ sh_start_special c = false).
  { intros c. destruct c as [[] [] [] [] [] [] [] []]; vm_compute; intros X; try discriminate X; repeat split; discriminate. }
  assert (P : forallb plainc (print_nat_dec k ++ B ".dat") = true).
  { rewrite forallb_app. apply andb_true_iff. split; [|reflexivity]. apply forallb_forall. intros c Hc. rewrite forallb_forall in Hd. now apply Hdig, Hd. }
  split.
  - intros c Hc. apply in_app_or in Hc as [Hc|Hc]; [now apply Hl|]. apply in_app_or in Hc as [Hc|Hc].
    + rewrite forallb_forall in Hd. now apply Hdig, Hd.
    + change (B ".dat") with ["."; "d"; "a"; "t"]%char in Hc. repeat (destruct Hc as [<-|Hc]; [repeat split; discriminate|]). destruct Hc.
  - right. destruct Hw as [->|[(c & Hc & Ho)|Hw]].
    + right. cbn [app]. unfold sh_plain. change (forallb (fun c => negb (sh_special c || sh_blank c || ceqb c QUOTE || ceqb c BSLASH))) with (forallb plainc). rewrite P, andb_true_r.
      destruct (print_nat_dec k) as [|d r]; [contradiction|]. cbn [app]. apply negb_true_iff. apply Hdig. cbn in Hd. now apply andb_true_iff in Hd as [Hd _].
    + left. exists c. split; [apply in_or_app; now left|auto].
    + right. unfold sh_plain in *. change (forallb (fun c => negb (sh_special c || sh_blank c || ceqb c QUOTE || ceqb c BSLASH))) with (forallb plainc) in *.
      apply andb_true_iff in Hw as [Hw1 Hw2]. rewrite forallb_app, Hw2, P. destruct n as [|x n]; [discriminate|]. cbn [app]. now rewrite Hw1.
Qed.
Lemma data_path_word w dir n k : word_file (wk_private w) -> In dir [B "custom_tgt_env"; B "custom_tgt_args"] -> a_word n -> a_word (data_path w dir n k).
Proof.
  intros Hp Hd Hn. apply render_word. apply Forall_app. split; [exact Hp|]. constructor.
  - destruct Hd as [<-|[<-|[]]]; (split; [discriminate|apply lit_word; reflexivity]).
  - constructor; [|constructor]. split; [|now apply dat_word]. destruct (print_nat_dec_spec k) as [[Hne _] _]. destruct n; [|discriminate]. cbn [app]. destruct (print_nat_dec k); [contradiction|discriminate].
Qed.
Lemma write_dat_ok w c d dir o n : is_abs (wk_private w) = true -> In dir [B "custom_tgt_env"; B "custom_tgt_args"] -> c_name c = Some n -> data_name n ->
  write_dat w c d dir o = Some (data_path w dir n (o_seq o), Out (o_text o) (o_files o ++ [(data_path w dir n (o_seq o), d)]) (o_seq o + 1) (o_default o)).
Proof.
  intros Ha Hd Hn (Hw & Hs & Hl). unfold write_dat. rewrite Hn. pose proof (dir_good dir Hd) as Hg.
  assert (Np : wk_private w <> []) by (intros X; rewrite X in Ha; discriminate).
  assert (Hdc : comps dir = [dir] /\ dir <> [] /\ is_abs dir = false) by (destruct Hd as [<-|[<-|[]]]; repeat split; discriminate).
  destruct Hdc as (Hdc & Hdn & Hda). rewrite path_join_rel by assumption. rewrite Ha, Hdc.
  assert (Hgl : Forall good (comps (wk_private w) ++ [dir])) by (apply Forall_app; split; [apply comps_good|constructor; [auto|constructor]]).
  pose proof (dat_good n (o_seq o) Hs) as Hf.
  assert (Hfa : is_abs (n ++ print_nat_dec (o_seq o) ++ B ".dat") = false).
  { destruct Hf as [_ Hf]. destruct (n ++ print_nat_dec (o_seq o) ++ B ".dat") as [|x y]; [reflexivity|]. cbn. destruct (ceqb_spec x "/"%char) as [->|]; [|now destruct (ceqb_spec x SEP)].
    exfalso. apply Hf. now left. }
  assert (Hfc : comps (n ++ print_nat_dec (o_seq o) ++ B ".dat") = [n ++ print_nat_dec (o_seq o) ++ B ".dat"]).
  { apply (comps_joinb [_]). constructor; [exact Hf|constructor]. }
  rewrite path_join_rel; [|discriminate| |exact Hfa].
  - rewrite is_abs_render, comps_render by exact Hgl. rewrite Hfc, <- app_assoc. reflexivity.
  - destruct n; [|discriminate]. cbn [app]. destruct (print_nat_dec_spec (o_seq o)) as [[X _] _]. destruct (print_nat_dec (o_seq o)); [contradiction|discriminate].
Qed.

Definition fed (root : bytes) (c : custom) : option bytes := if c_feed c then option_map (rel root) (first (c_in c)) else None.
Definition captured (root : bytes) (c : custom) : option bytes := if c_capture c then option_map (rel root) (first (c_out c)) else None.
Definition opt_words (o : bytes) (v : option bytes) : list bytes := match v with Some r => [o; r] | None => [] end.
Lemma stream_ok w sub c : is_abs (wk_build_root w) = true -> ok_custom sub c ->
  stream_args w c = Some (opt_words (B "-c") (captured (wk_build_root w) c) ++ opt_words (B "-f") (fed (wk_build_root w) c)) /\
  Forall a_word (opt_words (B "-c") (captured (wk_build_root w) c) ++ opt_words (B "-f") (fed (wk_build_root w) c)).
Proof.
  intros Hr H. unfold stream_args, captured, fed, relativize.
  assert (X : (if c_capture c then do p <- first (c_out c); do r <- path_relative_to (wk_build_root w) p; Some [B "-c"; r] else Some []) =
    Some (opt_words (B "-c") (if c_capture c then option_map (rel (wk_build_root w)) (first (c_out c)) else None)) /\
    Forall a_word (opt_words (B "-c") (if c_capture c then option_map (rel (wk_build_root w)) (first (c_out c)) else None))).
  { destruct (c_capture c) eqn:E; [|split; [reflexivity|constructor]]. destruct (ok_capture _ _ H E) as (p & ps & Ep & Hw). rewrite Ep.
    destruct (ok_out _ _ H _ Ep) as [_ Hf]. inversion Hf; subst. destruct (rel_file (wk_build_root w) p Hr H2) as [Er Hs]. cbn [first option_map opt_words]. rewrite Er.
    split; [reflexivity|]. constructor; [apply lit_word; reflexivity|]. constructor; [|constructor]. eapply stands_word; eauto. }
  assert (Y : (if c_feed c then do p <- first (c_in c); do r <- path_relative_to (wk_build_root w) p; Some [B "-f"; r] else Some []) =
    Some (opt_words (B "-f") (if c_feed c then option_map (rel (wk_build_root w)) (first (c_in c)) else None)) /\
    Forall a_word (opt_words (B "-f") (if c_feed c then option_map (rel (wk_build_root w)) (first (c_in c)) else None))).
  { destruct (c_feed c) eqn:E; [|split; [reflexivity|constructor]]. destruct (ok_feed _ _ H E) as (p & ps & Ep & Hw). rewrite Ep.
    pose proof (ok_in _ _ H _ Ep) as Hf. inversion Hf; subst. destruct (rel_file (wk_build_root w) p Hr H2) as [Er Hs]. cbn [first option_map opt_words]. rewrite Er.
    split; [reflexivity|]. constructor; [apply lit_word; reflexivity|]. constructor; [|constructor]. eapply stands_word; eauto. }
  destruct X as [-> X]. destruct Y as [-> Y]. split; [reflexivity|]. apply Forall_app. auto.
Qed.
Lemma escapable_spec args : Forall (fun s => ~ In NUL s) args -> args_are_escapable args = true <-> Forall (fun s => ~ In NL s) args.
Proof.
  intros H. unfold args_are_escapable. rewrite forallb_forall, Forall_forall. rewrite Forall_forall in H. split; intros X s Hs; specialize (X s Hs).
  - apply andb_true_iff in X as [_ X]. now apply negb_true_iff, mem_char_not_In in X.
  - apply andb_true_iff. split; apply negb_true_iff, mem_char_not_In; auto.
Qed.
Lemma getopt_opt c v rest x : mem_char c (B "fceaR") = true -> ceqb c "h" = false -> ceqb c "-" = false ->
  getopt ([ "-"%char; c] :: v :: rest) x = getopt rest (set_opt c v x).
Proof. intros H1 H2 H3. cbn [getopt]. change (ceqb "-" "-") with true. rewrite H1, H2, H3. reflexivity. Qed.

Lemma write_custom_ok w sub c o : ok_workspace w -> ok_custom sub c -> exists ws files,
  write_custom w sub c o = Some (Out (o_text o ++ custom_text (wk_build_root w) sub c (shell_line ([wk_argv0 w; B "internal"; B "exe"] ++ ws)))
    (o_files o ++ files) (o_seq o + N.of_nat (length files)) (o_default o || c_default c)) /\
  numbered w (o_seq o) files /\ Forall a_word ws /\
  forall written, (forall p d, In (p, d) files -> data_file written p = Some d) ->
    exe written ws = Runs (c_args c) (c_env c) (fed (wk_build_root w) c) (captured (wk_build_root w) c) None.
Proof.
  intros Hw H. pose proof (ok_root _ Hw) as Hr. destruct (ok_private _ Hw) as [Hpa Hpw]. destruct (stream_ok w sub c Hr H) as [Es Ws].
  set (ss := opt_words (B "-c") _ ++ opt_words (B "-f") _) in *.
  assert (XE : exists ws files, env_args w c o = Some (ws, Out (o_text o) (o_files o ++ files) (o_seq o + N.of_nat (length files)) (o_default o)) /\
    numbered w (o_seq o) files /\ Forall a_word ws /\
    (ws = [] /\ files = [] /\ c_env c = None \/ exists p e, ws = [B "-e"; p] /\ files = [(p, DEnv e)] /\ c_env c = Some e)).
  { unfold env_args. destruct (c_env c) as [e|] eqn:Ee.
    - destruct (ok_data _ _ H) as (n & En & Hn); [left; congruence|].
      rewrite (write_dat_ok w c _ _ o n); auto; [|now left].
      eexists _, [(data_path w (B "custom_tgt_env") n (o_seq o), DEnv e)]. split; [reflexivity|]. split; [|split].
      + split; [|constructor]. exists (B "custom_tgt_env"), n. repeat (split; [auto|]); [now left|auto].
      + constructor; [apply lit_word; reflexivity|]. constructor; [|constructor]. apply data_path_word; [auto|now left|apply Hn].
      + right. eauto.
    - exists [], []. cbn [length]. rewrite app_nil_r, N.add_0_r. split; [now destruct o|]. split; [constructor|]. split; [constructor|]. now left. }
  destruct XE as (we & fe & Ee & Ne & We & De). set (o1 := Out (o_text o) (o_files o ++ fe) (o_seq o + N.of_nat (length fe)) (o_default o)) in *.
  assert (XA : exists ws files, command_args w c o1 = Some (ws, Out (o_text o1) (o_files o1 ++ files) (o_seq o1 + N.of_nat (length files)) (o_default o1)) /\
    numbered w (o_seq o1) files /\ Forall a_word ws /\
    (ws = B "--" :: c_args c /\ files = [] \/ exists p, ws = [B "-a"; p] /\ files = [(p, DArgs (c_args c))])).
  { unfold command_args. destruct (ok_args _ _ H) as [Ha Hz]. destruct (args_are_escapable (c_args c)) eqn:Ex.
    - exists (B "--" :: c_args c), []. cbn [length]. rewrite app_nil_r, N.add_0_r. split; [now destruct o1|]. split; [constructor|]. split; [|now left].
      constructor; [apply lit_word; reflexivity|]. apply (ok_words _ _ H). now apply escapable_spec.
    - destruct (ok_data _ _ H) as (n & En & Hn).
      { right. intros X. apply escapable_spec in X; [congruence|auto]. }
      rewrite (write_dat_ok w c _ _ o1 n); auto; [|right; now left].
      eexists _, [(data_path w (B "custom_tgt_args") n (o_seq o1), DArgs (c_args c))]. split; [reflexivity|]. split; [|split].
      + split; [|constructor]. exists (B "custom_tgt_args"), n. repeat (split; [auto|]); [right; now left|auto].
      + constructor; [apply lit_word; reflexivity|]. constructor; [|constructor]. apply data_path_word; [auto|right; now left|apply Hn].
      + right. eauto. }
  destruct XA as (wa & fa & Ea & Na & Wa & Da).
  exists (ss ++ we ++ wa), (fe ++ fa). split; [|split; [|split]].
  - assert (E1 : (match c_in c with Some ps => all (relativize w) ps | None => Some [] end) = Some (raw_ins (wk_build_root w) c)).
    { unfold raw_ins. destruct (c_in c) as [ps|] eqn:E; [|reflexivity]. apply all_rel; [auto|]. exact (ok_in _ _ H ps E). }
    assert (E2 : output_names w sub c = Some (raw_outs (wk_build_root w) sub c)).
    { unfold output_names, raw_outs. destruct (c_out c) as [ps|] eqn:E; [apply all_rel; [auto|]; now apply (ok_out _ _ H ps E)|].
      destruct (ok_run _ _ H E) as (n & -> & _). reflexivity. }
    assert (E3 : all (relativize_item w) (c_deps c) = Some (map (raw_item (wk_build_root w)) (c_deps c))).
    { pose proof (ok_deps _ _ H) as Hd. induction Hd as [|i l Hi Hl IH]; [reflexivity|]. cbn [all map]. rewrite IH. destruct i as [s|p]; [reflexivity|]. cbn [relativize_item raw_item].
      unfold relativize. destruct (rel_file (wk_build_root w) p Hr Hi) as [-> _]. reflexivity. }
    unfold write_custom. rewrite E1, E2, Es, Ee. cbv beta iota. rewrite Ea, E3. cbv beta iota.
    fold (raw_imps (wk_build_root w) c).
    rewrite (join_args_ninja_words (raw_imps (wk_build_root w) c)) by (eapply nameable_ok, imps_nameable; eauto).
    rewrite (join_args_ninja_words (raw_outs (wk_build_root w) sub c)) by (eapply nameable_ok, outs_nameable; eauto).
    rewrite (join_args_ninja_words (raw_ins (wk_build_root w) c)) by (eapply nameable_ok, ins_nameable; eauto).
    rewrite join_shell_ninja.
    2: { apply Forall_app. split; [constructor; [apply (ok_argv0 _ Hw)|]; constructor; [apply lit_word; reflexivity|]; constructor; [apply lit_word; reflexivity|constructor]|].
         apply Forall_app. split; [|apply Forall_app; split]; (eapply Forall_impl; [|eassumption]); now intros ? []. }
    assert (E4 : match c_depfile c with Some p => do r <- relativize w p; Some (B " DEPFILE = " ++ r ++ [NL]) | None => Some [] end =
      Some (match c_depfile c with Some p => B " DEPFILE = " ++ rel (wk_build_root w) p ++ [NL] | None => [] end)).
    { destruct (c_depfile c) as [p|] eqn:E; [|reflexivity]. destruct (ok_depfile _ _ H p E) as (Hf & _). unfold relativize. destruct (rel_file (wk_build_root w) p Hr Hf) as [-> _]. reflexivity. }
    rewrite E4. unfold custom_text, o1. cbn [o_text o_files o_seq o_default]. f_equal. f_equal.
    + now rewrite <- app_assoc.
    + rewrite app_length. lia.
  - apply numbered_app; [auto|exact Na].
  - apply Forall_app. split; [exact Ws|]. apply Forall_app. auto.
  - intros written HF. unfold exe.
    assert (G1 : forall rest x, getopt (ss ++ rest) x = getopt rest (EOpts (match fed (wk_build_root w) c with Some r => Some r | None => x_feed x end)
      (match captured (wk_build_root w) c with Some r => Some r | None => x_capture x end) (x_env x) (x_args x) (x_remove x))).
    { intros rest [x1 x2 x3 x4 x5]. unfold ss. destruct (captured _ c) as [r|]; cbn [opt_words app].
      - change (B "-c") with ["-"; "c"]%char. rewrite getopt_opt by reflexivity. destruct (fed _ c) as [r'|]; cbn [opt_words app]; [|reflexivity].
        change (B "-f") with ["-"; "f"]%char. now rewrite getopt_opt by reflexivity.
      - destruct (fed _ c) as [r'|]; cbn [opt_words app]; [|reflexivity].
        change (B "-f") with ["-"; "f"]%char. now rewrite getopt_opt by reflexivity. }
    rewrite G1. cbn [x_feed x_capture x_env x_args x_remove].
    replace (match fed (wk_build_root w) c with Some r => Some r | None => None end) with (fed (wk_build_root w) c) by now destruct (fed _ c).
    replace (match captured (wk_build_root w) c with Some r => Some r | None => None end) with (captured (wk_build_root w) c) by now destruct (captured _ c).
    set (f := fed (wk_build_root w) c). set (cp := captured (wk_build_root w) c).
    assert (G2 : forall rest, getopt (we ++ rest) (EOpts f cp None None None) =
      getopt rest (EOpts f cp (match we with [_; p] => Some p | _ => None end) None None)).
    { intros rest. destruct De as [(-> & _)|(p & e & -> & _)]; [reflexivity|]. cbn [app]. change (B "-e") with ["-"; "e"]%char. now rewrite getopt_opt by reflexivity. }
    rewrite G2. set (en := match we with [_; p] => Some p | _ => None end).
    assert (HE : match en with None => Some None | Some p => match data_file written p with
        | Some (DEnv e) => let '(s, n) := env_to_envstr e in option_map Some (envstr_calls s (Some []) 0 n) | _ => None end end = Some (c_env c)).
    { unfold en. destruct De as [(-> & _ & ->)|(p & e & -> & Ef & Ec)]; [reflexivity|]. rewrite (HF p (DEnv e)) by (rewrite Ef; now left).
      destruct (env_to_envstr e) as [s n] eqn:X. destruct (ok_env _ _ H e Ec) as [Hne Hz]. rewrite (C29_environment e s n); [now rewrite Ec|auto| |auto].
      eapply Forall_impl; [|exact Hz]. now intros []. }
    destruct Da as [(-> & _)|(p & -> & Ef)].
    + change (getopt (B "--" :: c_args c) (EOpts f cp en None None)) with (@inr exe_end _ (EOpts f cp en None None, c_args c)).
      cbv iota beta. cbn [x_args x_env x_feed x_capture x_remove]. destruct (c_args c) as [|a l] eqn:El; [destruct (ok_args _ _ H); congruence|]. now rewrite HE.
    + change (B "-a") with ["-"; "a"]%char. rewrite getopt_opt by reflexivity. cbn [getopt set_opt x_args x_env x_feed x_capture x_remove].
      change (set_opt "a" p (EOpts f cp en None None)) with (EOpts f cp en (Some p) None). cbn [x_args x_env x_feed x_capture x_remove].
      cbv zeta. rewrite HE. rewrite (HF p (DArgs (c_args c))) by (rewrite Ef; apply in_or_app; right; now left).
      destruct (join_args_argstr (c_args c)) as [s n] eqn:X. destruct (ok_args _ _ H) as [Ha Hz]. destruct (C29_argv (c_args c) s n Ha Hz X) as [-> _]. reflexivity.
Qed.

(** ** all targets *)
Definition write_one (w : wk) (x : option bytes * target) (o : out) : option out :=
  match snd x with TCustom c => write_custom w (fst x) c o | TAlias n deps => write_alias w n deps o end.
Fixpoint write_all (w : wk) (l : list (option bytes * target)) (o : out) : option out :=
  match l with [] => Some o | x :: l => do o <- write_one w x o; write_all w l o end.
Lemma write_all_app w l l' o : write_all w (l ++ l') o = do o <- write_all w l o; write_all w l' o.
Proof. revert o. induction l as [|x l IH]; intros o; [reflexivity|]. cbn [app write_all]. destruct (write_one w x o); [apply IH|reflexivity]. Qed.
Lemma write_targets_all w sub ts : forall o, write_targets w sub ts o = write_all w (map (fun t => (sub, t)) ts) o.
Proof.
  induction ts as [|t ts IH]; intros o; [reflexivity|]. destruct t as [c|n deps]; cbn [write_targets map write_all write_one fst snd].
  - destruct (write_custom w sub c o); [apply IH|reflexivity].
  - destruct (write_alias w n deps o); [apply IH|reflexivity].
Qed.
Lemma write_projects_all w ps : forall o,
  write_projects w ps o = write_all w (concat (map (fun p => map (fun t => (p_sub p, t)) (p_targets p)) (filter p_ok ps))) o.
Proof.
  induction ps as [|p ps IH]; intros o; [reflexivity|]. cbn [write_projects filter]. destruct (p_ok p); [|apply IH]. cbn [map concat].
  rewrite write_all_app, <- write_targets_all. destruct (write_targets w (p_sub p) (p_targets p) o); [apply IH|reflexivity].
Qed.
Lemma write_alias_ok w n deps o : ok_workspace w -> a_label n -> Forall ok_adep deps ->
  write_alias w n deps o = Some (Out (o_text o ++ alias_text (wk_build_root w) n deps) (o_files o) (o_seq o) (o_default o)).
Proof.
  intros Hw Hn Hd. pose proof (ok_root _ Hw) as Hr. unfold write_alias. rewrite ninja_escape_nesc by apply (label_nameable n Hn).
  assert (E : all (alias_dep w) deps = Some (map (raw_adep (wk_build_root w)) deps)).
  { clear Hn. induction Hd as [|d l H Hl IH]; [reflexivity|]. cbn [all map]. rewrite IH. destruct d as [m|[ps|] m]; cbn [alias_dep raw_adep]; [reflexivity| |reflexivity].
    rewrite all_rel; auto. }
  rewrite E. rewrite join_args_ninja_words by (apply nameable_ok, adeps_nameable; auto). reflexivity.
Qed.
Definition is_default (x : option bytes * target) : bool := match snd x with TCustom c => c_default c | TAlias _ _ => false end.
(** the command line of an entry does what the target says *)
Definition runs_right (w : wk) (files : list (bytes * data)) (x : entry) : Prop :=
  match snd (fst x) with
  | TCustom c => exists ws, snd x = shell_line ([wk_argv0 w; B "internal"; B "exe"] ++ ws) /\ Forall a_word ws /\
      forall written, (forall p d, In (p, d) files -> data_file written p = Some d) ->
        exe written ws = Runs (c_args c) (c_env c) (fed (wk_build_root w) c) (captured (wk_build_root w) c) None
  | TAlias _ _ => snd x = []
  end.
Lemma runs_right_more w files files' x : (forall y, In y files -> In y files') -> runs_right w files x -> runs_right w files' x.
Proof.
  intros H. unfold runs_right. destruct (snd (fst x)) as [c|]; [|auto]. intros (ws & E & Ha & He). exists ws. split; [auto|]. split; [auto|].
  intros written Hw. apply He. intros p d Hi. apply Hw, H, Hi.
Qed.
Lemma write_all_ok w l : ok_workspace w -> Forall ok_target l -> forall o, exists xs files, map fst xs = l /\
  write_all w l o = Some (Out (o_text o ++ concat (map (entry_text (wk_build_root w)) xs)) (o_files o ++ files)
    (o_seq o + N.of_nat (length files)) (o_default o || existsb is_default l)) /\
  numbered w (o_seq o) files /\ Forall (runs_right w files) xs.
Proof.
  intros Hw. induction 1 as [|[sub t] l Hx Hl IH]; intros o.
  - exists [], []. cbn. rewrite !app_nil_r, N.add_0_r, orb_false_r. repeat split; [now destruct o|constructor].
  - assert (X : exists line files, write_one w (sub, t) o = Some (Out (o_text o ++ entry_text (wk_build_root w) ((sub, t), line)) (o_files o ++ files)
        (o_seq o + N.of_nat (length files)) (o_default o || is_default (sub, t))) /\ numbered w (o_seq o) files /\ runs_right w files ((sub, t), line)).
    { destruct t as [c|n deps].
      - cbn in Hx. destruct (write_custom_ok w sub c o Hw Hx) as (ws & files & E & Hn & Ha & He).
        exists (shell_line ([wk_argv0 w; B "internal"; B "exe"] ++ ws)), files. split; [exact E|]. split; [auto|]. exists ws. auto.
      - destruct Hx as [Hn Hd]. exists [], []. unfold write_one. cbn [fst snd]. rewrite write_alias_ok by auto. cbn [length N.of_nat entry_text is_default snd]. rewrite app_nil_r, N.add_0_r, orb_false_r.
        repeat split. }
    destruct X as (line & f1 & E1 & N1 & R1). cbn [write_all]. rewrite E1. set (o1 := Out _ _ _ _).
    destruct (IH o1) as (xs & f2 & Em & E2 & N2 & R2). exists (((sub, t), line) :: xs), (f1 ++ f2). split; [cbn [map fst]; now rewrite Em|]. split; [|split].
    + rewrite E2. unfold o1. cbn [o_text o_files o_seq o_default map concat existsb]. rewrite <- !app_assoc, app_length, orb_assoc. f_equal. f_equal. lia.
    + apply numbered_app; auto.
    + constructor; [apply (runs_right_more w f1); [intros y Hy; apply in_or_app; auto|auto]|].
      eapply Forall_impl; [|exact R2]. intros a. apply runs_right_more. intros y Hy. apply in_or_app. auto.
Qed.
Lemma runs_right_fine w files x : ok_workspace w -> ok_target (fst x) -> runs_right w files x -> fine_entry x.
Proof.
  intros Hw Ht H. split; [auto|]. unfold runs_right in H. destruct (snd (fst x)) as [c|].
  - destruct H as (ws & E & Ha & _). exists ([wk_argv0 w; B "internal"; B "exe"] ++ ws). split; [auto|]. apply Forall_app. split.
    + constructor; [apply (ok_argv0 _ Hw)|]. constructor; [apply lit_word; reflexivity|]. constructor; [apply lit_word; reflexivity|constructor].
    + eapply Forall_impl; [|exact Ha]. now intros ? [].
  - exists []. split; [exact H|constructor].
Qed.

(** ** the beginning and the end of the file *)
Lemma dedup_spec l : (forall x, In x (dedup l) <-> In x l) /\ NoDup (dedup l).
Proof.
  unfold dedup. enough (X : forall l acc, NoDup acc -> (forall x, In x (fold_left (fun acc s => if existsb (beqb s) acc then acc else acc ++ [s]) l acc) <-> In x acc \/ In x l) /\
    NoDup (fold_left (fun acc s => if existsb (beqb s) acc then acc else acc ++ [s]) l acc)).
  { destruct (X l [] (NoDup_nil _)) as [X1 X2]. split; [|auto]. intros x. rewrite X1. cbn. tauto. }
  clear l. induction l as [|s l IH]; intros acc Ha; cbn [fold_left]; [split; [cbn; tauto|auto]|].
  destruct (existsb (beqb s) acc) eqn:E.
  - destruct (IH acc Ha) as [I1 I2]. split; [|auto]. intros x. rewrite I1. cbn. apply existsb_exists in E as (y & Hy & E). destruct (beqb_spec s y) as [->|]; [|discriminate]. intuition (subst; auto).
  - assert (N : ~ In s acc).
    { intros Hi. assert (existsb (beqb s) acc = true); [|congruence]. apply existsb_exists. exists s. split; [auto|apply beqb_refl]. }
    destruct (IH (acc ++ [s])) as [I1 I2].
    { clear -Ha N. induction Ha as [|y acc Hy Ha IH]; [repeat constructor; auto|]. cbn [app]. constructor; [rewrite in_app_iff; cbn; intros [X|[X|[]]]; [auto|subst; apply N; now left]|].
      apply IH. intros X. apply N. now right. }
    split; [|auto]. intros x. rewrite I1, in_app_iff. cbn. tauto.
Qed.
Definition regen_deps (w : wk) : list bytes := map (rel (wk_build_root w)) (dedup (wk_regen_deps w)).
Lemma regen_deps_nameable w : ok_workspace w -> Forall a_file (dedup (wk_regen_deps w)) /\ Forall nameable (regen_deps w).
Proof.
  intros Hw. assert (F : Forall a_file (dedup (wk_regen_deps w))).
  { pose proof (ok_setup_files _ Hw) as F. rewrite Forall_forall in *. intros x Hx. apply F. now apply dedup_spec. }
  split; [auto|]. apply files_nameable; [apply (ok_root _ Hw)|auto].
Qed.
Definition cache_path (w : wk) : bytes := render true (comps (wk_private w) ++ [B "compiler_check_cache.dat"]).
Lemma cache_good w : Forall good (comps (wk_private w) ++ [B "compiler_check_cache.dat"]).
Proof. apply Forall_app. split; [apply comps_good|]. constructor; [|constructor]. split; [reflexivity|]. intros X. apply mem_char_In in X. discriminate X. Qed.
Lemma regen_command w : ok_workspace w -> regenerate_build_command w = Some (setup_words w (cache_path w)) /\
  Forall (fun s => a_word s /\ ~ In "$"%char s) (setup_words w (cache_path w)).
Proof.
  intros Hw. destruct (ok_private _ Hw) as [Hpa Hpw]. destruct (ok_setup _ Hw) as (D1 & D2 & D3). destruct (ok_source _ Hw) as [S1 S2]. split.
  - unfold regenerate_build_command. rewrite path_join_rel; [|intros X; rewrite X in Hpa; discriminate|discriminate|reflexivity]. rewrite Hpa.
    change (comps (B "compiler_check_cache.dat")) with [B "compiler_check_cache.dat"]. unfold setup_words. f_equal. f_equal. f_equal. apply map_ext. now intros [].
  - unfold setup_words. apply Forall_app. split; [|exact D3].
    assert (L : forall s, forallb (fun c => negb (mem_char c [NUL; NL; CR; ch 255])) s = true -> sh_plain s = true -> mem_char "$"%char s = false -> a_word s /\ ~ In "$"%char s).
    { intros s X1 X2 X3. split; [now apply lit_word|now apply mem_char_not_In]. }
    repeat (apply Forall_cons); [split; [apply (ok_argv0 _ Hw)|auto]|apply L; reflexivity|auto|apply L; reflexivity|apply L; reflexivity| |constructor].
    split.
    + apply render_word. apply Forall_app. split; [exact Hpw|]. constructor; [split; [discriminate|apply lit_word; reflexivity]|constructor].
    + intros X. destruct (in_render _ _ _ X) as [E|[E|(y & Hy & Hc)]]; [discriminate E..|]. apply in_app_or in Hy as [Hy|[<-|[]]].
      * apply D2. eapply in_comps; eauto.
      * apply mem_char_In in Hc. discriminate Hc.
Qed.
Definition regen_line (w : wk) : bytes := shell_line (setup_words w (cache_path w)).
Lemma regen_line_ok w : ok_workspace w -> written false (Chars (regen_line w)) (regen_line w) /\ ~ begins_blank (regen_line w) /\ regen_line w <> [] /\ sh_words (regen_line w) = Some (setup_words w (cache_path w)).
Proof.
  intros Hw. destruct (regen_command w Hw) as [_ F].
  assert (D : desc (regen_line w) = regen_line w).
  { apply desc_plain. intros X. apply in_shell_line in X as [X|[X|[X|(s & Hs & Hc)]]]; [discriminate X..|]. rewrite Forall_forall in F. now apply (F s Hs). }
  split; [|split; [|split]].
  - rewrite <- D at 2. apply written_value, shell_line_chars. eapply Forall_impl; [|exact F]. now intros s [[] _].
  - rewrite <- D. apply line_no_blank'.
  - unfold regen_line, shell_line, setup_words. cbn [map app joinb]. intros X. apply app_eq_nil in X as [_ X]. apply app_eq_nil in X as [X _]. discriminate X.
  - apply shell_line_words. eapply Forall_impl; [|exact F]. now intros s [].
Qed.
Definition stale_stmts (b : bool) : list stmt := if b then [SBuild [Chars (B "build_always_stale")] [] (B "phony") [] [] [] []] else [].
Definition first_stmts (w : wk) : list stmt := [
  SVar (B "ninja_required_version") (Chars (B "1.7.1"));
  SVar (B "builddir") (Chars (B ".muon"));
  SRule (B "REGENERATE_BUILD") [(B "command", Chars (regen_line w)); (B "description", Chars (B "Regenerating build files.")); (B "generator", Chars (B "1"))];
  SBuild [Chars (B "build.ninja")] [] (B "REGENERATE_BUILD") (map Chars (regen_deps w)) [] [] [(B "pool", Chars (B "console"))];
  SRule (B "CUSTOM_COMMAND") [(B "command", [Var (B "COMMAND")]); (B "description", [Var (B "COMMAND")]); (B "restat", Chars (B "1"))];
  SRule (B "CUSTOM_COMMAND_DEP") [(B "command", [Var (B "COMMAND")]); (B "description", [Var (B "COMMAND")]); (B "deps", Chars (B "gcc")); (B "depfile", [Var (B "DEPFILE")]); (B "restat", Chars (B "1"))]].
Lemma literal_path s : s <> [] -> forallb path_char s = true -> path_ok s.
Proof. now split. Qed.
Lemma head_text w b : ok_workspace w -> exists text, write_head w b = Some text /\
  forall ss t, manifest ss t -> manifest (first_stmts w ++ stale_stmts b ++ ss) (text ++ t).
Proof.
  intros Hw. destruct (regen_command w Hw) as [E1 _]. destruct (regen_line_ok w Hw) as (W1 & W2 & W3 & _). destruct (regen_deps_nameable w Hw) as [F1 F2].
  unfold write_head. rewrite E1, join_shell. fold (regen_line w). rewrite all_rel; [|apply (ok_root _ Hw)|auto]. fold (regen_deps w).
  rewrite join_args_ninja_words by (now apply nameable_ok). eexists. split; [reflexivity|]. intros ss t Hm. rewrite <- !app_assoc.
  rename Hm into H1. rename t into t1.
  assert (H2 : manifest (stale_stmts b ++ ss) ((if b then B "build build_always_stale: phony" ++ [NL] ++ [NL] else []) ++ t1)).
  { destruct b; [|exact H1]. apply mf_empty_line in H1. pose proof (phony_text [B "build_always_stale"] ltac:(discriminate) ltac:(constructor; [now apply literal_path|constructor])) as X.
    exact (mf_statement _ _ _ _ X H1). }
  set (t2 := (if b then _ else _) ++ t1) in *.
  assert (NB : forall c r, c <> " "%char -> c <> "$"%char -> ~ begins_blank (c :: r)).
  { intros c r N1 N2 X. apply begins_blank_inv in X as (r' & [X|[X|X]]); congruence. }
  assert (VB : forall v, simple_char (hd " "%char v) = true -> forallb simple_char v = true -> v <> [] -> written false [Var v] (B "$" ++ v) /\ ~ begins_blank (B "$" ++ v)).
  { intros v Hh Hv Hn. split; [rewrite <- (app_nil_r v) at 2; apply w_short; [auto|auto|discriminate|constructor]|].
    intros X. apply begins_blank_inv in X as (r' & [X|[X|X]]); [discriminate X|..]; change (B "$" ++ v) with ("$"%char :: v) in X; injection X as X; rewrite X in Hh; discriminate Hh. }
  destruct (VB (B "COMMAND")) as [VC1 VC2]; [reflexivity..|discriminate|]. destruct (VB (B "DEPFILE")) as [VD1 VD2]; [reflexivity..|discriminate|].
  assert (one : written false (Chars (B "1")) (B "1")) by plain_text. assert (one' : ~ begins_blank (B "1")) by (apply NB; discriminate).
  assert (H3 : manifest (SRule (B "CUSTOM_COMMAND_DEP") [(B "command", [Var (B "COMMAND")]); (B "description", [Var (B "COMMAND")]); (B "deps", Chars (B "gcc")); (B "depfile", [Var (B "DEPFILE")]); (B "restat", Chars (B "1"))]
      :: stale_stmts b ++ ss) (B "rule CUSTOM_COMMAND_DEP" ++ [NL] ++ B " command = $COMMAND" ++ [NL] ++ B " description = $COMMAND" ++ [NL]
    ++ B " deps = gcc" ++ [NL] ++ B " depfile = $DEPFILE" ++ [NL] ++ B " restat = 1" ++ [NL] ++ [NL] ++ t2)).
  { pose proof (mf_statement _ _ _ _ (rule_text (B "CUSTOM_COMMAND_DEP") _ _ ltac:(known_name)
      (block_text (B "command") _ _ _ _ ltac:(known_name) VC1 VC2
      (block_text (B "description") _ _ _ _ ltac:(known_name) VC1 VC2
      (block_text (B "deps") (Chars (B "gcc")) (B "gcc") _ _ ltac:(known_name) ltac:(plain_text) ltac:(apply NB; discriminate)
      (block_text (B "depfile") _ _ _ _ ltac:(known_name) VD1 VD2
      (block_text (B "restat") _ (B "1") [] [] ltac:(known_name) one one' bk_nil)))))) (mf_empty_line _ _ H2)) as X.
    rewrite <- !app_assoc in X. exact X. }
  set (t3 := B "rule CUSTOM_COMMAND_DEP" ++ _) in *.
  assert (H4 : manifest (SRule (B "CUSTOM_COMMAND") [(B "command", [Var (B "COMMAND")]); (B "description", [Var (B "COMMAND")]); (B "restat", Chars (B "1"))]
      :: SRule (B "CUSTOM_COMMAND_DEP") [(B "command", [Var (B "COMMAND")]); (B "description", [Var (B "COMMAND")]); (B "deps", Chars (B "gcc")); (B "depfile", [Var (B "DEPFILE")]); (B "restat", Chars (B "1"))]
      :: stale_stmts b ++ ss) (B "rule CUSTOM_COMMAND" ++ [NL] ++ B " command = $COMMAND" ++ [NL] ++ B " description = $COMMAND" ++ [NL]
    ++ B " restat = 1" ++ [NL] ++ [NL] ++ t3)).
  { pose proof (mf_statement _ _ _ _ (rule_text (B "CUSTOM_COMMAND") _ _ ltac:(known_name)
      (block_text (B "command") _ _ _ _ ltac:(known_name) VC1 VC2
      (block_text (B "description") _ _ _ _ ltac:(known_name) VC1 VC2
      (block_text (B "restat") _ (B "1") [] [] ltac:(known_name) one one' bk_nil)))) (mf_empty_line _ _ H3)) as X.
    rewrite <- !app_assoc in X. exact X. }
  set (t4 := B "rule CUSTOM_COMMAND" ++ _) in *.
  set (ss4 := SRule (B "CUSTOM_COMMAND") _ :: _) in *.
  assert (H5 : manifest (SBuild [Chars (B "build.ninja")] [] (B "REGENERATE_BUILD") (map Chars (regen_deps w)) [] [] [(B "pool", Chars (B "console"))] :: ss4)
    (B "build build.ninja: REGENERATE_BUILD " ++ words (regen_deps w) ++ [NL] ++ B " pool = console" ++ [NL] ++ [NL] ++ t4)).
  { pose proof (mf_statement _ _ _ _ (build_text_plain [B "build.ninja"] (B "REGENERATE_BUILD") (regen_deps w) [(B "pool", Chars (B "console"))] (B " pool = console" ++ [NL])
      ltac:(discriminate) ltac:(constructor; [now apply literal_path|constructor]) ltac:(now apply nameable_ok) ltac:(known_name)
      (block_text (B "pool") _ (B "console") [] [] ltac:(known_name) ltac:(plain_text) ltac:(apply NB; discriminate) bk_nil)) (mf_empty_line _ _ H4)) as X.
    rewrite <- !app_assoc in X. exact X. }
  set (t5 := B "build build.ninja: REGENERATE_BUILD " ++ _) in *.
  set (ss5 := SBuild [Chars (B "build.ninja")] _ _ _ _ _ _ :: _) in *.
  assert (H6 : manifest (SRule (B "REGENERATE_BUILD") [(B "command", Chars (regen_line w)); (B "description", Chars (B "Regenerating build files.")); (B "generator", Chars (B "1"))] :: ss5)
    (B "rule REGENERATE_BUILD" ++ [NL] ++ B " command = " ++ regen_line w
    ++ [NL] ++ B " description = Regenerating build files." ++ [NL] ++ B " generator = 1" ++ [NL] ++ [NL] ++ t5)).
  { pose proof (mf_statement _ _ _ _ (rule_text (B "REGENERATE_BUILD") _ _ ltac:(known_name)
      (block_text (B "command") _ _ _ _ ltac:(known_name) W1 W2
      (block_text (B "description") (Chars (B "Regenerating build files.")) (B "Regenerating build files.") _ _ ltac:(known_name) ltac:(plain_text) ltac:(apply NB; discriminate)
      (block_text (B "generator") _ (B "1") [] [] ltac:(known_name) one one' bk_nil)))) (mf_empty_line _ _ H5)) as X.
    rewrite <- !app_assoc in X. exact X. }
  set (t6 := B "rule REGENERATE_BUILD" ++ _) in *.
  set (ss6 := SRule (B "REGENERATE_BUILD") _ :: _) in *.
  assert (H7 : manifest (SVar (B "builddir") (Chars (B ".muon")) :: ss6) (B "builddir = .muon" ++ [NL] ++ [NL] ++ t6)).
  { refine (mf_statement _ _ _ _ (var_text (B "builddir") (Chars (B ".muon")) (B ".muon") _ _ _ _) (mf_empty_line _ _ H6)); [known_name| |plain_text|apply NB; discriminate].
    unfold words_of_the_language. cbn [In]. intros X. repeat (destruct X as [X|X]; [discriminate X|]). exact X. }
  set (t7 := B "builddir = .muon" ++ _) in *.
  assert (H8 : manifest (SVar (B "ninja_required_version") (Chars (B "1.7.1")) :: SVar (B "builddir") (Chars (B ".muon")) :: ss6) (B "ninja_required_version = 1.7.1" ++ [NL] ++ t7)).
  { refine (mf_statement _ _ _ _ (var_text (B "ninja_required_version") (Chars (B "1.7.1")) (B "1.7.1") _ _ _ _) H7); [known_name| |plain_text|apply NB; discriminate].
    unfold words_of_the_language. cbn [In]. intros X. repeat (destruct X as [X|X]; [discriminate X|]). exact X. }
  set (t8 := B "ninja_required_version = 1.7.1" ++ _) in *.
  assert (C2 : forall x, In x (B " It is autogenerated by the muon build system.") -> x <> NL /\ x <> CR).
  { intros x Hx. cbv in Hx. repeat (destruct Hx as [<-|Hx]; [split; discriminate|]). destruct Hx. }
  pose proof (mf_comment (B " It is autogenerated by the muon build system.") _ _ C2 H8) as H9.
  assert (C1 : forall x, In x (B " This is the build file for project " ++ [DQUOTE] ++ wk_name w ++ [DQUOTE]) -> x <> NL /\ x <> CR).
  { intros x Hx. rewrite !in_app_iff in Hx. destruct Hx as [Hx|[[<-|[]]|[Hx|[<-|[]]]]]; [|split; discriminate|now apply (ok_name _ Hw)|split; discriminate].
    cbv in Hx; repeat (destruct Hx as [<-|Hx]; [split; discriminate|]); destruct Hx. }
  pose proof (mf_comment _ _ _ C1 H9) as H10. rewrite <- !app_assoc in H10. exact H10.
Qed.
Lemma targets_comment_text ss t : manifest ss t -> manifest ss (targets_comment ++ t).
Proof.
  intros Hm. unfold targets_comment. rewrite <- !app_assoc. apply (mf_comment (B " targets")); [|now apply mf_empty_line]. intros x Hx. cbv in Hx.
  repeat (destruct Hx as [<-|Hx]; [split; discriminate|]). destruct Hx.
Qed.
Lemma preamble_text w b : ok_workspace w -> exists text, write_rules w b = Some text /\
  forall ss t, manifest ss t -> manifest (first_stmts w ++ stale_stmts b ++ ss) (text ++ t).
Proof.
  intros Hw. destruct (head_text w b Hw) as (text & E & H). unfold write_rules. rewrite E. eexists. split; [reflexivity|]. intros ss t Hm. rewrite <- app_assoc. apply H.
  now apply targets_comment_text.
Qed.
