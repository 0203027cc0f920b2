(** C108-C110: the build file for custom, run and alias targets (src/backend/ninja.c and src/backend/ninja/), read by
    the build tool (C105), and the commands it runs through muon internal exe (src/main.c). *)
From Verif Require Import Base S_Path S_Escape M_Escape L_Escape M_Path M_Format M_Tree S_Tree M_Env S_Env M_Manifest S_Manifest P_Manifest M_Backend S_Backend L_Path L_Places L_Spelling L_Backend L_BuildFile.
Local Arguments B _ : simpl never.

(** ** C108: the build file has one edge for each target *)
(** an edge without a command *)
Definition only_names (e : medge) (outs : list bytes) : Prop :=
  me_out e = outs /\ me_outimp e = length outs /\ me_in e = [] /\ me_rule e = B "phony" /\ me_pool e = None.
(** the edge for a target *)
Definition edge_for (name : bytes -> bytes) (x : option bytes * target) (e : medge) : Prop :=
  me_out e = out_names name x /\ me_outimp e = length (me_out e) /\
  me_in e = in_names name x ++ dep_names name x /\ me_inimp e = length (in_names name x) /\ me_inorder e = length (me_in e) /\
  me_pool e = (if in_console x then Some (B "console") else None) /\
  (me_rule e = B "phony" <-> exists n deps, snd x = TAlias n deps).

Lemma is_build_parts s st b e : is_build s st b e ->
  me_out e = b_outs b ++ b_outimp b /\ me_outimp e = length (b_outs b) /\ me_in e = b_ins b ++ b_imp b ++ b_ord b /\
  me_inimp e = length (b_ins b) /\ me_inorder e = length (b_ins b) + length (b_imp b) /\ me_rule e = b_rule b /\ me_pool e = b_pool b.
Proof. intros (H1 & H2 & H3 & H4 & H5 & H6 & H7 & _). auto 10. Qed.
Definition the_name (w : wk) (p : bytes) : bytes := resolved (rel (wk_build_root w) p).
Lemma stale_resolved : resolved (B "build_always_stale") = B "build_always_stale". Proof. reflexivity. Qed.
Lemma entry_outs w x line : b_outs (entry_build (wk_build_root w) (x, line)) = out_names (the_name w) x.
Proof.
  destruct x as [sub [c|n deps]]; [|reflexivity]. unfold out_names. cbn. unfold raw_outs. destruct (c_out c); [now rewrite map_map|]. now destruct (c_name c).
Qed.
Lemma entry_edge w s st x line e : is_build s st (entry_build (wk_build_root w) (x, line)) e -> edge_for (the_name w) x e.
Proof.
  intros H. apply is_build_parts in H as (H1 & H2 & H3 & H4 & H5 & H6 & H7). rewrite entry_outs in *. unfold edge_for.
  destruct x as [sub [c|n deps]].
  - cbn [entry_build b_outs b_outimp b_ins b_imp b_ord b_rule b_pool] in *. rewrite !app_nil_r in *. rewrite H1, H2, H3, H4, H5, H7, H6.
    assert (E1 : map resolved (raw_ins (wk_build_root w) c) = in_names (the_name w) (sub, TCustom c)).
    { unfold raw_ins, in_names, files_of. cbn [snd]. destruct (c_in c); [now rewrite map_map|reflexivity]. }
    assert (E2 : map resolved (raw_imps (wk_build_root w) c) = dep_names (the_name w) (sub, TCustom c)).
    { unfold raw_imps, dep_names. cbn [snd]. rewrite map_app, map_map. f_equal; [|now destruct (c_stale c)]. apply map_ext. now intros []. }
    rewrite E1, E2. repeat (split; [reflexivity|]). split; [now rewrite app_length|]. split; [reflexivity|]. split.
    + unfold rule_of. destruct (c_depfile c); discriminate.
    + intros (n & deps & X). discriminate X.
  - cbn [entry_build b_outs b_outimp b_ins b_imp b_ord b_rule b_pool] in *. rewrite !app_nil_r in *. rewrite H1, H2, H3, H4, H5, H7, H6.
    assert (E2 : map resolved (concat (map (raw_adep (wk_build_root w)) deps)) = dep_names (the_name w) (sub, TAlias n deps)).
    { unfold dep_names. cbn [snd]. rewrite concat_map, map_map. f_equal. apply map_ext. intros [m|[ps|] m]; [reflexivity|cbn [raw_adep]; now rewrite map_map|reflexivity]. }
    rewrite <- E2. repeat (split; [reflexivity|]). split; [intros _; exists n, deps; reflexivity|reflexivity].
Qed.
Lemma Forall2_split {A C} (R : A -> C -> Prop) a b l : Forall2 R (a ++ b) l -> exists l1 l2, l = l1 ++ l2 /\ Forall2 R a l1 /\ Forall2 R b l2.
Proof. intros H. apply Forall2_app_inv_l in H as (l1 & l2 & H1 & H2 & E). eauto. Qed.
Lemma Forall2_map_l {A A' C} (f : A -> A') (R : A' -> C -> Prop) a l : Forall2 R (map f a) l -> Forall2 (fun x => R (f x)) a l.
Proof. revert l. induction a as [|x a IH]; intros l H; inversion H; subst; constructor; auto. Qed.
Lemma defaults_entries w xs : map fst xs = targets w ->
  concat (map (entry_defaults (wk_build_root w)) xs) = concat (map (out_names (the_name w)) (filter built_by_default (targets w))).
Proof.
  intros <-. induction xs as [|[[sub t] line] xs IH]; [reflexivity|]. cbn [map concat filter fst]. rewrite IH. destruct t as [c|n deps]; [|reflexivity].
  cbn [built_by_default snd entry_defaults]. destruct (c_default c); [|reflexivity]. cbn [map concat]. f_equal. exact (entry_outs w (sub, TCustom c) line).
Qed.
Lemma default_outs w : ok_workspace w -> existsb is_default (targets w) = true -> concat (map (out_names (the_name w)) (filter built_by_default (targets w))) <> [].
Proof.
  intros Hw. pose proof (ok_targets _ Hw) as F. induction F as [|[sub t] l Hx Hl IH]; [discriminate|]. cbn [existsb filter]. change (is_default (sub, t)) with (built_by_default (sub, t)).
  destruct (built_by_default (sub, t)) eqn:E; [|exact IH]. intros _. cbn [map concat]. destruct t as [c|]; [|discriminate]. cbn in Hx.
  unfold out_names at 1. cbn [snd]. destruct (c_out c) as [ps|] eqn:Eo.
  - destruct (ok_out _ _ Hx ps Eo) as [Hn _]. destruct ps; [congruence|discriminate].
  - destruct (ok_run _ _ Hx Eo) as (n & -> & _). discriminate.
Qed.
Lemma existsb_filter {A} (f : A -> bool) l : existsb f l = match filter f l with [] => false | _ => true end.
Proof. induction l as [|x l IH]; [reflexivity|]. cbn [existsb filter]. destruct (f x); [reflexivity|exact IH]. Qed.

(** The build file can be written, and the build tool finds in it one edge for each target, with the target's outputs,
    inputs, dependencies and pool, in the order of the targets; apart from these there are the edge that runs muon
    setup again and the two names without a command that muon adds.  What is built by default are the outputs of the
    targets that ask for it. *)
Theorem C108_targets_are_written_partial : forall w, ok_workspace w -> exists text files name,
  write_build w = Some (text, files) /\
  (forall p, a_file p -> place (wk_build_root w) (name p) = place (wk_build_root w) p) /\
  forall fuel, length text < fuel -> exists st regen added es last,
    parse fuel false text = Ok st /\ ms_edges st = regen :: added ++ es ++ last /\
    Forall2 (edge_for name) (targets w) es /\
    me_out regen = [B "build.ninja"] /\
    (stale w -> exists e, added = [e] /\ only_names e [B "build_always_stale"]) /\ (~ stale w -> added = []) /\
    (filter built_by_default (targets w) <> [] ->
       last = [] /\ default_nodes st = concat (map (out_names name) (filter built_by_default (targets w)))) /\
    (filter built_by_default (targets w) = [] ->
       exists e, last = [e] /\ only_names e [B "muon_do_nothing"] /\ default_nodes st = [B "muon_do_nothing"]).
Proof.
  intros w Hw. destruct (build_file w Hw) as (text & files & xs & [F1 F2 F3 F4 F5 F6]). exists text, files, (the_name w). split; [exact F1|]. split.
  { intros p Hp. apply rel_place; [apply (ok_root _ Hw)|auto]. }
  intros fuel Hf. destruct F6 as (ss & Hm & Hs). destruct (C105_manifest_is_read_as_written ss text _ fuel Hm F2 Hs Hf) as (st & Ep & (He & _ & _ & Hd & _)).
  cbn [stated builds defaults] in *. inversion He as [|b regen bs es0 Hregen He1 Eb Ees]. subst b bs. apply Forall2_split in He1 as (added & es1 & -> & Ha & He2).
  apply Forall2_split in He2 as (es & last & -> & He3 & Hl). exists st, regen, added, es, last. split; [exact Ep|]. split; [now rewrite <- Ees|].
  split; [|split; [|split; [|split; [|split]]]].
  - rewrite <- F3. apply Forall2_map_l in He3. clear - He3. induction He3 as [|[x line] e xs0 es0 H H0 IH]; [constructor|]. cbn [map fst]. constructor; [|exact IH].
    eapply entry_edge; eauto.
  - apply is_build_parts in Hregen as (H1 & _). exact H1.
  - intros Hst. apply stale_iff in Hst. rewrite Hst in Ha. unfold stale_builds in Ha. inversion Ha as [|b e ? ? Hb Hnil]. subst. inversion Hnil. subst. exists e. split; [reflexivity|].
    apply is_build_parts in Hb as (H1 & H2 & H3 & _ & _ & H6 & H7). unfold only_names. auto.
  - intros Hst. destruct (need_phony (wk_projects w)) eqn:E; [exfalso; apply Hst; now apply stale_iff|]. unfold stale_builds in Ha. now inversion Ha.
  - intros Hn. rewrite (existsb_filter is_default) in *. change is_default with built_by_default in *. destruct (filter built_by_default (targets w)) as [|y ys] eqn:E; [congruence|].
    unfold last_builds in Hl. inversion Hl. split; [reflexivity|]. unfold last_defaults in Hd. rewrite app_nil_r in Hd. rewrite (defaults_entries w xs F3), E in Hd. apply Hd.
    rewrite <- E. apply default_outs; [auto|]. rewrite (existsb_filter is_default). change is_default with built_by_default. now rewrite E.
  - intros Hn. rewrite (existsb_filter is_default) in *. change is_default with built_by_default in *. rewrite Hn in *. unfold last_builds in Hl. inversion Hl as [|b e ? ? Hb Hnil]. subst. inversion Hnil. subst.
    exists e. split; [reflexivity|]. split.
    + apply is_build_parts in Hb as (H1 & H2 & H3 & _ & _ & H6 & H7). unfold only_names. auto.
    + rewrite (defaults_entries w xs F3), Hn in Hd. now apply Hd.
Qed.
Print Assumptions C108_targets_are_written_partial.

Lemma custom_edge w text files st fuel sub c : ok_workspace w -> write_build w = Some (text, files) -> length text < fuel -> parse fuel false text = Ok st ->
  In (sub, TCustom c) (targets w) -> exists s line e, In e (ms_edges st) /\ runs_right w files ((sub, TCustom c), line) /\ numbered w 0 files /\
    is_build s st (entry_build (wk_build_root w) ((sub, TCustom c), line)) e /\ rules s = the_rules (command_parts w).
Proof.
  intros Hw Hb Hf Hp Hi. destruct (build_file w Hw) as (text' & files' & xs & [F1 F2 F3 F4 F5 (ss & Hm & Hs)]). rewrite Hb in F1. injection F1 as <- <-.
  destruct (C105_manifest_is_read_as_written ss text _ fuel Hm F2 Hs Hf) as (st' & Ep & (He & _)). rewrite Hp in Ep. injection Ep as <-.
  rewrite <- F3 in Hi. apply in_map_iff in Hi as ([x line] & E & Hx). cbn [fst] in E. subst x. cbn [stated builds] in He.
  destruct (Forall2_in_l _ _ _ (entry_build (wk_build_root w) ((sub, TCustom c), line)) He) as (e & Hin & Hbe).
  - right. apply in_or_app. right. apply in_or_app. left. now apply in_map.
  - eexists _, line, e. split; [exact Hin|]. split; [rewrite Forall_forall in F5; now apply F5|]. split; [exact F4|]. split; [exact Hbe|reflexivity].
Qed.
Lemma custom_places w sub c line e s st : ok_workspace w -> In (sub, TCustom c) (targets w) -> is_build s st (entry_build (wk_build_root w) ((sub, TCustom c), line)) e ->
  map (place (wk_build_root w)) (me_out e) = map (place (wk_build_root w)) (produces (sub, TCustom c)).
Proof.
  intros Hw Hi H. apply is_build_parts in H as (H1 & _). change (b_outs (entry_build (wk_build_root w) ((sub, TCustom c), line)) ++ b_outimp (entry_build (wk_build_root w) ((sub, TCustom c), line)))
    with (all_outs (entry_build (wk_build_root w) ((sub, TCustom c), line))) in H1. rewrite H1. apply (entry_places (wk_build_root w) ((sub, TCustom c), line)); [apply (ok_root _ Hw)|].
  pose proof (ok_targets _ Hw) as F. rewrite Forall_forall in F. now apply (F _ Hi).
Qed.
Lemma not_built_in : forall n, In n [B "command"; B "COMMAND"; B "DEPFILE"; B "depfile"; B "deps"; B "restat"; B "generator"; B "pool"] -> ~ built_in n.
Proof. intros n H. cbn [In] in H. repeat (destruct H as [<-|H]; [intros [X|[X|X]]; discriminate X|]). destruct H. Qed.
Ltac plain_name := apply not_built_in; cbn [In]; tauto.

(** The edge of a target with a dependency file says where that file is and how it is to be read. *)
Theorem C108_dependency_files_partial : forall w text files st fuel sub c p,
  ok_workspace w -> write_build w = Some (text, files) -> length text < fuel -> parse fuel false text = Ok st ->
  In (sub, TCustom c) (targets w) -> c_depfile c = Some p ->
  exists e d, In e (ms_edges st) /\ map (place (wk_build_root w)) (me_out e) = map (place (wk_build_root w)) (produces (sub, TCustom c)) /\
    edgevar (var_edge st e) false (B "depfile") = Val (Some d) /\ place (wk_build_root w) d = place (wk_build_root w) p /\
    edgevar (var_edge st e) true (B "deps") = Val (Some (B "gcc")).
Proof.
  intros w text files st fuel sub c p Hw Hb Hf Hp Hi Hd. destruct (custom_edge w text files st fuel sub c Hw Hb Hf Hp Hi) as (s & line & e & Hin & _ & _ & Hbe & Hrules).
  pose proof (ok_targets _ Hw) as F. rewrite Forall_forall in F. pose proof (F _ Hi) as Hc. cbn in Hc. destruct (ok_depfile _ _ Hc p Hd) as (Hpf & _).
  exists e, (rel (wk_build_root w) p). split; [exact Hin|]. split; [now apply (custom_places w sub c line e s st)|].
  destruct Hbe as (_ & _ & _ & _ & _ & _ & _ & Hv). split; [|split].
  - apply Hv. eapply v_rule; [plain_name| | |].
    + unfold sees. cbn [own entry_build b_vars own_of]. unfold own_of. rewrite Hd. destruct (c_console c); reflexivity.
    + unfold sees. cbn [rule entry_build b_rule]. rewrite Hrules. unfold rule_of. rewrite Hd. reflexivity.
    + rewrite <- (app_nil_r (rel _ p)). apply (t_var _ _ (B "DEPFILE") (Some (rel (wk_build_root w) p))); [|constructor]. apply v_own; [plain_name|].
      unfold sees. cbn [own entry_build b_vars]. unfold own_of. rewrite Hd. destruct (c_console c); reflexivity.
  - destruct (rel_file (wk_build_root w) p (ok_root _ Hw) Hpf) as [_ Hs]. apply (st_place _ _ _ Hs).
  - apply Hv. eapply v_rule; [plain_name| | |].
    + unfold sees. cbn [own entry_build b_vars]. unfold own_of. rewrite Hd. destruct (c_console c); reflexivity.
    + unfold sees. cbn [rule entry_build b_rule]. rewrite Hrules. unfold rule_of. rewrite Hd. reflexivity.
    + apply (t_str _ _ (B "gcc") [] []). constructor.
Qed.
Print Assumptions C108_dependency_files_partial.

(** ** C109: the command of a target runs with the target's arguments *)
(** The command line of a target's edge is one that the shell splits into words with which muon internal exe runs the
    target's command: with its arguments and environment, its input coming from its first input file and its output
    going to its first output file if it asks for that. *)
Theorem C109_commands_are_run_as_given_partial : forall w text files st fuel sub c,
  ok_workspace w -> write_build w = Some (text, files) -> length text < fuel -> parse fuel false text = Ok st ->
  In (sub, TCustom c) (targets w) ->
  exists e line words stdin stdout, In e (ms_edges st) /\
    map (place (wk_build_root w)) (me_out e) = map (place (wk_build_root w)) (produces (sub, TCustom c)) /\
    edgevar (var_edge st e) true (B "command") = Val (Some line) /\
    sh_words line = Some ([wk_argv0 w; B "internal"; B "exe"] ++ words) /\
    exe files words = Runs (c_args c) (c_env c) stdin stdout None /\
    option_map (place (wk_build_root w)) stdin =
      (match c_in c with Some (p :: _) => if c_feed c then Some (place (wk_build_root w) p) else None | _ => None end) /\
    option_map (place (wk_build_root w)) stdout =
      (match c_out c with Some (p :: _) => if c_capture c then Some (place (wk_build_root w) p) else None | _ => None end).
Proof.
  intros w text files st fuel sub c Hw Hb Hf Hp Hi. destruct (custom_edge w text files st fuel sub c Hw Hb Hf Hp Hi) as (s & line & e & Hin & Hrun & Hnum & Hbe & Hrules).
  destruct Hrun as (ws & El & Ha & He). cbn [snd] in El.
  exists e, line, ws, (fed (wk_build_root w) c), (captured (wk_build_root w) c). split; [exact Hin|]. split; [now apply (custom_places w sub c line e s st)|].
  pose proof (ok_targets _ Hw) as F. rewrite Forall_forall in F. pose proof (F _ Hi) as Hc. cbn in Hc.
  destruct Hbe as (_ & _ & _ & _ & _ & _ & _ & Hv). split; [|split; [|split; [|split]]].
  - apply Hv. eapply v_rule; [plain_name| | |].
    + unfold sees. cbn [own entry_build b_vars]. unfold own_of. destruct (c_depfile c), (c_console c); reflexivity.
    + unfold sees. cbn [rule entry_build b_rule]. rewrite Hrules. instantiate (1 := [PVar (B "COMMAND")]). unfold rule_of. destruct (c_depfile c); reflexivity.
    + rewrite <- (app_nil_r line). apply (t_var _ _ (B "COMMAND") (Some line)); [|constructor]. apply v_own; [plain_name|].
      unfold sees. cbn [own entry_build b_vars]. rewrite app_nil_r. unfold own_of. destruct (c_depfile c), (c_console c); reflexivity.
  - rewrite El. apply shell_line_words. apply Forall_app. split; [|auto].
    constructor; [apply (ok_argv0 _ Hw)|]. constructor; [apply lit_word; reflexivity|]. constructor; [apply lit_word; reflexivity|constructor].
  - apply He. intros p d Hpd. eapply numbered_found; eauto.
  - unfold fed. destruct (c_feed c) eqn:E; [|destruct (c_in c) as [[|]|]; reflexivity]. destruct (ok_feed _ _ Hc E) as (p & ps & Ep & _). rewrite Ep. cbn [first option_map].
    f_equal. pose proof (ok_in _ _ Hc _ Ep) as Ff. inversion Ff; subst. destruct (rel_file (wk_build_root w) p (ok_root _ Hw) H1) as [_ Hs]. apply (st_place _ _ _ Hs).
  - unfold captured. destruct (c_capture c) eqn:E; [|destruct (c_out c) as [[|]|]; reflexivity]. destruct (ok_capture _ _ Hc E) as (p & ps & Ep & _). rewrite Ep. cbn [first option_map].
    f_equal. destruct (ok_out _ _ Hc _ Ep) as [_ Ff]. inversion Ff; subst. destruct (rel_file (wk_build_root w) p (ok_root _ Hw) H1) as [_ Hs]. apply (st_place _ _ _ Hs).
Qed.
Print Assumptions C109_commands_are_run_as_given_partial.

Lemma text_one show d x : text show d [PStr x] x.
Proof. pose proof (t_str show d x [] [] (t_nil show d)) as H. now rewrite app_nil_r in H. Qed.
(** ** C110: the build file is made again with the same options *)
Theorem C110_regeneration_partial : forall w text files st fuel,
  ok_workspace w -> write_build w = Some (text, files) -> length text < fuel -> parse fuel false text = Ok st ->
  exists e line cache, In e (ms_edges st) /\ me_out e = [B "build.ninja"] /\ me_pool e = Some (B "console") /\
    (forall q, In q (map (place (wk_build_root w)) (me_in e)) <-> In q (map (place (wk_build_root w)) (wk_regen_deps w))) /\
    edgevar (var_edge st e) true (B "command") = Val (Some line) /\ sh_words line = Some (setup_words w cache) /\
    is_abs cache = true /\ comps cache = comps (wk_private w) ++ [B "compiler_check_cache.dat"] /\
    edgevar (var_edge st e) true (B "generator") = Val (Some (B "1")).
Proof.
  intros w text files st fuel Hw Hb Hf Hp. destruct (build_file w Hw) as (text' & files' & xs & [F1 F2 F3 F4 F5 (ss & Hm & Hs)]). rewrite Hb in F1. injection F1 as <- <-.
  destruct (C105_manifest_is_read_as_written ss text _ fuel Hm F2 Hs Hf) as (st' & Ep & (He & _)). rewrite Hp in Ep. injection Ep as <-.
  cbn [stated builds] in He. destruct (Forall2_in_l _ _ _ (regen_build w) He) as (e & Hin & Hbe); [now left|].
  destruct (regen_line_ok w Hw) as (_ & _ & Hne & Hws). destruct (regen_deps_nameable w Hw) as [Hfl _].
  exists e, (regen_line w), (cache_path w). pose proof (is_build_parts _ _ _ _ Hbe) as (H1 & _ & H3 & _ & _ & _ & H7). destruct Hbe as (_ & _ & _ & _ & _ & _ & _ & Hv).
  split; [exact Hin|]. split; [exact H1|]. split; [exact H7|]. split; [|split; [|split; [exact Hws|split; [|split]]]].
  - intros q. rewrite H3. cbn [regen_build b_ins b_imp b_ord]. rewrite !app_nil_r. unfold regen_deps. rewrite !map_map.
    rewrite !in_map_iff. rewrite Forall_forall in Hfl. split; intros (x & Ex & Hx).
    + exists x. rewrite rel_place in Ex; [|apply (ok_root _ Hw)|auto]. split; [auto|]. now apply dedup_spec.
    + apply dedup_spec in Hx. exists x. rewrite rel_place; [|apply (ok_root _ Hw)|auto]. auto.
  - apply Hv. eapply v_rule; [plain_name|reflexivity|reflexivity|]. unfold command_parts. rewrite (pieces_chars _ Hne). apply text_one.
  - unfold cache_path. rewrite is_abs_render; [reflexivity|apply cache_good].
  - unfold cache_path. apply comps_render, cache_good.
  - apply Hv. eapply v_rule; [plain_name|reflexivity|reflexivity|]. apply (t_str _ _ (B "1") [] []), t_nil.
Qed.
Print Assumptions C110_regeneration_partial.

(** ** Examples *)
(** two projects: a target that writes its output to a file, with an environment, a dependency file and an argument
    that contains a newline, a run target in a subproject, and an alias; an unusable project is left out *)
Definition a_custom : custom := Custom (Some (B "gen")) (Some [B "/src/a b.in"; B "/src/c$.in"]) (Some [B "/build/sub/out.h"])
  [B "/usr/bin/tool"; B "it's"; B "two" ++ [NL] ++ B "lines"] [IFile (B "/src/tool.py"); IFile (B "/build/x")] (Some [(B "A", B "1 2"); (B "B", [])])
  (Some (B "/build/sub/out.d")) true true true false true.
Definition a_run : custom := Custom (Some (B "check")) None None [B "echo"; B "$HOME"; B "a;b'"] [] None None false false false true false.
Definition ex_workspace : wk := Wk (B "/usr/bin/muon") (B "/my src") (B "/build") (B "/build/.muon") (B "example") [(B "prefix", B "/usr")] [B "-Db=c d"; B "build"]
  [B "/src/meson.build"; B "/src/sub/meson.build"; B "/src/meson.build"]
  [Proj None true [TCustom a_custom; TAlias (B "all things") [ACustom (Some [B "/build/sub/out.h"]) (B "gen"); AAlias (B "other")]];
   Proj (Some (B "broken")) false [TAlias (B "x") []];
   Proj (Some (B "lib")) true [TCustom a_run]].
Ltac each := repeat (apply Forall_cons || apply Forall_nil).
Ltac chars := let c := fresh in let Hc := fresh in intros c Hc; cbv in Hc; repeat (destruct Hc as [<-|Hc]; [repeat split; discriminate|]); destruct Hc.
Ltac file := split; [reflexivity|]; split; [vm_compute; discriminate|]; split; [vm_compute; lia|]; chars.
Ltac label := split; [discriminate|]; split; [vm_compute; lia|]; split; [discriminate|]; chars.
Ltac plain_word := split; [chars|right; right; reflexivity].
Lemma not_in_mem c s : mem_char c s = false -> ~ In c s. Proof. now apply mem_char_not_In. Qed.
Ltac absent := apply not_in_mem; reflexivity.
Example ex_ok : ok_workspace ex_workspace.
Proof.
  assert (W1 : word_file (B "/build/sub/out.h")) by (unfold word_file; vm_compute comps; each; (split; [discriminate|plain_word])).
  assert (W2 : word_file (B "/src/a b.in")).
  { unfold word_file. vm_compute comps. each; (split; [discriminate|]); [plain_word|]. split; [chars|]. right. left. exists " "%char. split; [right; now left|]. right. right. right. now left. }
  assert (Wp : word_file (B "/build/.muon")) by (unfold word_file; vm_compute comps; each; (split; [discriminate|plain_word])).
  constructor.
  - reflexivity.
  - split; [reflexivity|exact Wp].
  - plain_word.
  - intros c Hc. cbv in Hc. repeat (destruct Hc as [<-|Hc]; [split; discriminate|]). destruct Hc.
  - split; [split; [chars|]|absent]. right. left. exists " "%char. split; [cbv; auto 10|]. right. right. right. now left.
  - split; [absent|]. split; [absent|]. cbn [ex_workspace wk_env_opts wk_cmdline map app]. each.
    + split; [plain_word|absent].
    + split; [split; [chars|]|absent]. right. left. exists " "%char. split; [cbv; auto 10|]. right. right. right. now left.
    + split; [plain_word|absent].
  - cbn [ex_workspace wk_regen_deps]. each; file.
  - change (targets ex_workspace) with [(None, TCustom a_custom); (None, TAlias (B "all things") [ACustom (Some [B "/build/sub/out.h"]) (B "gen"); AAlias (B "other")]); (Some (B "lib"), TCustom a_run)].
    each.
    + cbn [ok_target snd fst]. constructor; cbn [a_custom c_name c_in c_out c_args c_deps c_env c_depfile c_capture c_feed].
      * intros ps [= <-]. each; file.
      * intros ps [= <-]. split; [discriminate|]. each; file.
      * discriminate.
      * each; file.
      * split; [discriminate|]. each; absent.
      * intros F. exfalso. inversion F as [|? ? _ F1]. inversion F1 as [|? ? _ F2]. inversion F2 as [|? ? X _]. apply X. right. right. right. now left.
      * intros e [= <-]. split; [discriminate|]. each; (split; absent).
      * intros _. exists (B "gen"). split; [reflexivity|]. split; [plain_word|]. split; [absent|]. intros m c E. change (B "gen") with ([("g"%char); "e"%char] ++ ["n"%char]) in E. apply app_inj_tail in E as [_ <-]. reflexivity.
      * intros _. exists (B "/build/sub/out.h"), []. split; [reflexivity|exact W1].
      * intros _. exists (B "/src/a b.in"), [B "/src/c$.in"]. split; [reflexivity|exact W2].
      * intros p [= <-]. split; [file|]. split; absent.
    + split; [label|]. each; [cbn; each; file|label].
    + cbn [ok_target snd fst]. constructor; cbn [a_run c_name c_in c_out c_args c_deps c_env c_depfile c_capture c_feed]; try discriminate.
      * intros _. exists (B "check"). split; [reflexivity|label].
      * each.
      * split; [discriminate|]. each; absent.
      * intros _. each.
        -- plain_word.
        -- split; [chars|]. right. left. exists "$"%char. split; [now left|right; right; now left].
        -- split; [chars|]. right. left. exists QUOTE. split; [right; right; right; now left|right; now left].
      * intros [X|X]; [congruence|]. exfalso. apply X. each; absent.
  - vm_compute. repeat (apply NoDup_cons; [let X := fresh in intros X; cbn [In] in X; repeat (destruct X as [X|X]; [discriminate X|]); destruct X|]). apply NoDup_nil.
Qed.

(** the hypotheses of the theorems are met *)
Example ex_read : match write_build ex_workspace with
  | Some (text, files) => match parse (S (length text)) false text with
      | Ok st => map me_out (ms_edges st) = [[B "build.ninja"]; [B "build_always_stale"]; [B "sub/out.h"]; [B "all things"]; [B "lib@@check"]] /\ default_nodes st = [B "sub/out.h"]
          /\ length files = 2
      | _ => False
      end
  | None => False
  end.
Proof. vm_compute. auto. Qed.

(** ** What is missing *)
Definition minimal (root_name : bytes) (ps : list proj) : wk :=
  Wk (B "muon") (B "/src") (B "/build") (B "/build/.muon") root_name [] [] [] ps.
Definition named (n : bytes) (args : list bytes) : custom := Custom (Some n) None None args [] (Some [(B "NAME", n)]) None false false false false false.
Definition parsed (w : wk) : option mstate :=
  match write_build w with Some (text, _) => match parse (S (length text)) false text with Ok st => Some st | _ => None end | None => None end.
(** A newline in the name of the project ends the comment in which it is written: the build file cannot be read, or
    says what the project's name says. *)
Theorem C108_project_name_refuted :
  parsed (minimal (B "a" ++ [NL] ++ B "b") []) = None /\
  exists st e, parsed (minimal (B "a" ++ [NL] ++ B "build mine: phony" ++ [NL] ++ B "#") []) = Some st /\ In e (ms_edges st) /\ me_out e = [B "mine"].
Proof. split; [reflexivity|]. eexists _, _. split; [vm_compute; reflexivity|]. split; [left; reflexivity|reflexivity]. Qed.
Print Assumptions C108_project_name_refuted.
(** An alias of a run target in a subproject depends on a name that nothing produces. *)
Theorem C108_alias_of_run_target_refuted :
  exists st a, parsed (minimal (B "p") [Proj (Some (B "lib")) true [TCustom (named (B "run") [B "true"]); TAlias (B "alias") [ACustom None (B "run")]]]) = Some st /\
    In a (ms_edges st) /\ me_out a = [B "alias"] /\ me_in a = [B "run"] /\ forall e, In e (ms_edges st) -> ~ In (B "run") (me_out e).
Proof.
  eexists _, _. split; [vm_compute; reflexivity|]. split; [right; right; left; reflexivity|]. split; [reflexivity|]. split; [reflexivity|].
  intros e He. cbn [ms_edges In] in He. repeat (destruct He as [<-|He]; [intros X; cbn [me_out In] in X; repeat (destruct X as [X|X]; [discriminate X|]); destruct X|]). destruct He.
Qed.
Print Assumptions C108_alias_of_run_target_refuted.
(** An argument that contains a carriage return makes the build file unreadable. *)
Theorem C109_carriage_return_refuted : parsed (minimal (B "p") [Proj None true [TCustom (named (B "t") [B "echo"; [CR]; B "b"])]]) = None.
Proof. reflexivity. Qed.
Print Assumptions C109_carriage_return_refuted.
(** The number of a data file follows the name of its target: that of the target a1, the first one, and that of the
    target a, the eleventh one, are the same file, and a1 runs with the environment of a. *)
Theorem C109_data_files_refuted :
  exists w text files st e line words,
    targets w = map (fun n => (None, TCustom (named n [B "env"]))) [B "a1"; B "b"; B "c"; B "d"; B "e"; B "f"; B "g"; B "h"; B "i"; B "j"; B "a"] /\
    write_build w = Some (text, files) /\ parse (S (length text)) false text = Ok st /\ In e (ms_edges st) /\ me_out e = [B "a1"] /\
    edgevar (var_edge st e) true (B "command") = Val (Some line) /\ sh_words line = Some ([wk_argv0 w; B "internal"; B "exe"] ++ words) /\
    exe files words = Runs [B "env"] (Some [(B "NAME", B "a")]) None None None.
Proof.
  exists (minimal (B "p") [Proj None true (map (fun n => TCustom (named n [B "env"])) [B "a1"; B "b"; B "c"; B "d"; B "e"; B "f"; B "g"; B "h"; B "i"; B "j"; B "a"])]).
  eexists _, _, _, _, _, [B "-e"; B "/build/.muon/custom_tgt_env/a10.dat"; B "--"; B "env"]. split; [reflexivity|]. split; [vm_compute; reflexivity|]. split; [vm_compute; reflexivity|].
  split; [right; left; reflexivity|]. split; [reflexivity|]. split; [vm_compute; reflexivity|]. split; vm_compute; reflexivity.
Qed.
Print Assumptions C109_data_files_refuted.
(** A dollar sign in an option is taken for the start of a variable: muon setup is run again with another option. *)
Theorem C110_dollar_refuted :
  exists w text files st e line,
    wk_cmdline w = [B "-Dflags=$ORIGIN/lib"] /\ write_build w = Some (text, files) /\ parse (S (length text)) false text = Ok st /\
    In e (ms_edges st) /\ me_out e = [B "build.ninja"] /\ edgevar (var_edge st e) true (B "command") = Val (Some line) /\
    sh_words line = Some ([wk_argv0 w; B "-C"; wk_source_root w; B "setup"; B "-c"; B "/build/.muon/compiler_check_cache.dat"] ++ [B "-Dflags=/lib"]).
Proof.
  exists (Wk (B "muon") (B "/src") (B "/build") (B "/build/.muon") (B "p") [] [B "-Dflags=$ORIGIN/lib"] [] []).
  eexists _, _, _, _, _. split; [reflexivity|]. split; [vm_compute; reflexivity|]. split; [vm_compute; reflexivity|].
  split; [left; reflexivity|]. split; [reflexivity|]. split; vm_compute; reflexivity.
Qed.
Print Assumptions C110_dollar_refuted.

