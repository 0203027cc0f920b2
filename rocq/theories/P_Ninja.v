(** C120 and C121: the build file for projects with executables and libraries (src/backend/ninja/rules.c and
    build_target.c), read by the build tool (C105): what is made from what, and with which commands. *)
From Coq Require Import Lia.
From Verif Require L_Meaning.
From Verif Require Import Base S_Path S_Escape M_Escape L_Escape M_Path M_Format M_Tree S_Tree M_Env S_Env M_Manifest S_Manifest P_Manifest M_Toolchain M_Backend S_Backend L_Path L_Places L_Spelling L_Backend L_BuildFile P_Backend L_Words M_Compile S_Compile L_Compile L_Rules L_Naming L_Ninja.
Import L_Words.
Local Arguments B _ : simpl never.

(** ** C120: the edges of build targets *)
(** an edge with one output, no pool, and these inputs: explicit ones, implicit ones and those that must be there first *)
Definition joins (e : medge) (out : bytes) (ins imp first : list bytes) : Prop :=
  me_out e = [out] /\ me_outimp e = 1 /\ me_in e = ins ++ imp ++ first /\ me_inimp e = length ins /\ me_inorder e = length ins + length imp /\ me_pool e = None.
(** The edges for an executable or a library, when [name] gives the names of files: one for each source, which makes its
    object, and one which makes the target of its objects.  All wait for what must be there first; if that is more than
    one thing, an edge without a command collects these things. *)
Definition edges_for_build (w : wk) (name : bytes -> bytes) (t : btarget) (es : list medge) : Prop :=
  exists first collected compiled link, es = collected ++ compiled ++ [link] /\
    NoDup first /\ (forall x, In x first <-> In x (b_order t)) /\
    let several := 1 <? length first in
    let imp := if several then [name (order_file t)] else [] in
    let ord := if several then [] else map resolved first in
    (if several then exists e, collected = [e] /\ joins e (name (order_file t)) [] [] (map resolved first) /\ me_rule e = B "phony" else collected = []) /\
    Forall2 (fun src e => joins e (name (object_file w t src)) [name src] imp ord) (b_src t) compiled /\
    joins link (name (b_path t)) (map name (b_objects t ++ map (object_file w t) (b_src t)))
      (imp ++ (match b_type t with StaticLib => [] | _ => map name (b_with t ++ b_whole t) end)
           ++ map (fun i => match i with IFile p => name p | IStr s => resolved s end) (b_depends t)) ord.
Definition edges_for (w : wk) (name : bytes -> bytes) (x : cproj * ctarget) (es : list medge) : Prop :=
  match snd x with
  | COther t => exists e, es = [e] /\ edge_for name (cp_sub (fst x), t) e
  | CBuild t => edges_for_build w name t es
  end.
(** what a target adds to what is built by default *)
Definition default_names (name : bytes -> bytes) (x : cproj * ctarget) : list bytes :=
  match snd x with
  | COther t => if built_by_default (cp_sub (fst x), t) then out_names name (cp_sub (fst x), t) else []
  | CBuild t => if b_default t then [name (b_path t)] else []
  end.

Lemma raw_joins s st r out e : is_build s st (raw_build r) e -> r_outs r = [out] -> joins e (resolved out) (map resolved (r_ins r)) (map resolved (r_imp r)) (map resolved (r_ord r)).
Proof.
  intros H E. apply is_build_parts in H as (H1 & H2 & H3 & H4 & H5 & _ & H7). cbn [raw_build b_outs S_Manifest.b_outimp b_ins b_imp b_ord b_pool] in *. rewrite E in *. cbn [map length app] in *.
  unfold joins. auto 10.
Qed.
Lemma build_edges s st w nd t rs es : Forall2 (is_build s st) (map raw_build (target_raws w nd t rs)) es -> edges_for_build w (the_name w) t es.
Proof.
  intros H. unfold target_raws in H. rewrite !map_app in H. apply Forall2_split in H as (col & es1 & -> & Hc & H). apply Forall2_split in H as (com & es2 & -> & Hs & Hl).
  cbn [map] in Hl. inversion Hl as [|? link ? ? Hlink Hnil]; subst. inversion Hnil; subst. destruct (dedup_spec (b_order t)) as [D1 D2].
  exists (dedup (b_order t)), col, com, link. split; [reflexivity|]. split; [exact D2|]. split; [exact D1|]. fold (many_order t). cbv zeta.
  assert (Ei : map resolved (imp_names (wk_build_root w) t) = if many_order t then [the_name w (order_file t)] else []) by (unfold imp_names; destruct (many_order t); reflexivity).
  assert (Eo : map resolved (ord_names t) = if many_order t then [] else map resolved (dedup (b_order t))) by (unfold ord_names; destruct (many_order t); reflexivity).
  split; [|split].
  - destruct (many_order t); [|now inversion Hc]. inversion Hc as [|? e ? ? He Hn]; subst. inversion Hn; subst. exists e. split; [reflexivity|]. split.
    + exact (raw_joins _ _ (order_raw w t) _ _ He eq_refl).
    + apply is_build_parts in He as (_ & _ & _ & _ & _ & H6 & _). exact H6.
  - rewrite <- Ei, <- Eo. clear - Hs. apply Forall2_map_l, Forall2_map_l in Hs. eapply Forall2_impl; [|exact Hs]. intros src e He. exact (raw_joins _ _ (src_raw w t rs src) _ _ He eq_refl).
  - rewrite <- Ei, <- Eo. pose proof (raw_joins _ _ (link_raw w nd t) _ _ Hlink eq_refl) as X. cbn [link_raw r_ins r_imp r_ord] in X.
    rewrite !map_app, !map_map in X. rewrite !map_app, !map_map.
    assert (E1 : map resolved (match b_type t with StaticLib => [] | _ => map (rel (wk_build_root w)) (b_with t) ++ map (rel (wk_build_root w)) (b_whole t) end)
      = match b_type t with StaticLib => [] | _ => map (the_name w) (b_with t) ++ map (the_name w) (b_whole t) end).
    { destruct (b_type t); [|reflexivity|..]; now rewrite map_app, !map_map. }
    rewrite E1 in X. assert (E2 : map (fun x => resolved (raw_item (wk_build_root w) x)) (b_depends t) = map (fun i => match i with IFile p => the_name w p | IStr s => resolved s end) (b_depends t)).
    { apply map_ext. now intros []. }
    rewrite E2 in X. exact X.
Qed.
Lemma concat_edges s st w rl files xs : Forall (ce_right w rl files) xs -> forall es, Forall2 (is_build s st) (concat (map (ce_builds w) xs)) es ->
  exists ess, es = concat ess /\ Forall2 (edges_for w (the_name w)) (map ce_target xs) ess.
Proof.
  induction 1 as [|x xs Hx Hxs IH]; intros es H; cbn [map concat] in *.
  - inversion H. exists []. split; [reflexivity|constructor].
  - apply Forall2_split in H as (e1 & e2 & -> & H1 & H2). destruct (IH _ H2) as (ess & -> & HH). exists (e1 :: ess). split; [reflexivity|]. constructor; [|exact HH].
    destruct x as [p [[sub t] line]|nd t rs]; unfold edges_for; cbn [ce_target ce_builds snd fst] in *.
    + inversion H1 as [|? e ? ? He Hn]; subst. inversion Hn; subst. exists e. split; [reflexivity|]. destruct Hx as (E & _). cbn [fst] in E. rewrite <- E. eapply entry_edge; eauto.
    + eapply build_edges; eauto.
Qed.
Lemma ce_default_names w rl files x : ce_right w rl files x -> ce_defaults w x = default_names (the_name w) (ce_target x).
Proof.
  intros Hx. destruct x as [p [[sub t] line]|nd t rs]; unfold default_names; cbn [ce_target ce_defaults snd fst] in *; [|reflexivity]. destruct Hx as (E & _). cbn [fst] in E. rewrite <- E.
  destruct t as [c|]; [|reflexivity]. unfold entry_defaults, built_by_default. cbn [snd fst]. destruct (c_default c); [|reflexivity]. exact (entry_outs w (sub, TCustom c) line).
Qed.
Lemma ce_default_some w rl files x : ce_right w rl files x -> ce_default x = true <-> default_names (the_name w) (ce_target x) <> [].
Proof.
  intros Hx. destruct x as [p [[sub t] line]|nd t rs]; unfold default_names; cbn [ce_target ce_default snd fst] in *; [|destruct (b_default t); split; congruence].
  destruct Hx as (E & Ht & _). cbn [fst] in E, Ht. rewrite <- E. change (is_default (sub, t)) with (built_by_default (sub, t)). destruct (built_by_default (sub, t)) eqn:Eb; [|split; congruence].
  split; [intros _|reflexivity]. destruct t as [c|]; [|discriminate]. cbn in Ht. unfold out_names. cbn [snd]. destruct (c_out c) as [ps|] eqn:Eo.
  - destruct (ok_out _ _ Ht ps Eo) as [Hn _]. destruct ps; [congruence|discriminate].
  - destruct (ok_run _ _ Ht Eo) as (n & -> & _). discriminate.
Qed.
Lemma ces_default_some w rl files xs : Forall (ce_right w rl files) xs -> existsb ce_default xs = false <-> concat (map (default_names (the_name w)) (map ce_target xs)) = [].
Proof.
  induction 1 as [|x xs Hx Hxs IH]; [split; reflexivity|]. cbn [existsb map concat]. pose proof (ce_default_some _ _ _ _ Hx) as X. destruct (ce_default x); cbn [orb].
  - split; [discriminate|]. intros E. apply app_eq_nil in E as [E _]. destruct (proj1 X eq_refl E).
  - rewrite IH. destruct (default_names (the_name w) (ce_target x)) as [|a l]; [reflexivity|]. assert (Y : false = true) by (apply X; discriminate). discriminate Y.
Qed.
Lemma ce_defaults_concat w rl files xs : Forall (ce_right w rl files) xs -> concat (map (ce_defaults w) xs) = concat (map (default_names (the_name w)) (map ce_target xs)).
Proof. induction 1 as [|x xs Hx Hxs IH]; [reflexivity|]. cbn [map concat]. rewrite IH. f_equal. eapply ce_default_names; eauto. Qed.

(** The build file can be written, and the build tool finds in it for each target of the usable projects, in order, its
    edges, and beside these only the edge that runs muon setup again and the two names without a command that muon
    adds.  What is built by default are the targets that ask for it. *)
Theorem C120_build_targets_are_written_partial : forall c, ok_cworkspace c -> exists text files name,
  write_ninja c = Some (text, files) /\
  (forall p, a_file p -> place (wk_build_root (cw_base c)) (name p) = place (wk_build_root (cw_base c)) p) /\
  (forall p t q, In (p, CBuild t) (ctargets c) -> In q (cproduces c (p, CBuild t)) -> place (wk_build_root (cw_base c)) (name q) = place (wk_build_root (cw_base c)) q) /\
  forall fuel, length text < fuel -> exists st regen added es last,
    parse fuel false text = Ok st /\ ms_edges st = regen :: added ++ concat es ++ last /\
    Forall2 (edges_for (cw_base c) name) (ctargets c) es /\
    me_out regen = [B "build.ninja"] /\
    (cstale c -> exists e, added = [e] /\ only_names e [B "build_always_stale"]) /\ (~ cstale c -> added = []) /\
    let defaults := concat (map (default_names name) (ctargets c)) in
    (defaults <> [] -> last = [] /\ default_nodes st = defaults) /\
    (defaults = [] -> exists e, last = [e] /\ only_names e [B "muon_do_nothing"] /\ default_nodes st = [B "muon_do_nothing"]).
Proof.
  intros c Hc. destruct (ninja_file c Hc) as (text & files & rl & xs & [F1 F2 F3 F4 F5 F6 F7 F8 F9]). pose proof (oc_base _ Hc) as Hw. pose proof (ok_root _ Hw) as Hr.
  set (w := cw_base c) in *. exists text, files, (the_name w). split; [exact F1|]. split; [intros p Hp; now apply rel_place|]. split.
  { intros p t q Hi Hq. rewrite <- F3 in Hi. apply in_map_iff in Hi as (x & Ex & Hx). rewrite Forall_forall in F5. specialize (F5 x Hx). destruct x as [p' [[sub t'] line]|nd t' rs]; [discriminate Ex|].
    injection Ex as _ ->. cbn [ce_right] in F5. destruct (target_facts_ok w _ t Hr (fb_ok _ _ _ _ _ F5)) as [_ T2 (_ & T3) T4 _]. apply rel_place; [exact Hr|].
    unfold cproduces in Hq. cbn [snd] in Hq. destruct Hq as [<-|Hq]; [exact T3|]. apply in_app_or in Hq as [Hq|[<-|[]]]; [|exact T2].
    apply in_map_iff in Hq as (src & <- & Hs). rewrite Forall_forall in T4. apply (T4 src Hs). }
  intros fuel Hf. destruct F9 as (ss & Hm & Hs). destruct (C105_manifest_is_read_as_written ss text _ fuel Hm F2 Hs Hf) as (st & Ep & (He & _ & _ & Hd & _)).
  cbn [full plus stated builds S_Manifest.defaults] in *. inversion He as [|b regen bs es0 Hregen He1 Eb Ees]. subst b bs. apply Forall2_split in He1 as (added & es1 & -> & Ha & He2).
  apply Forall2_split in He2 as (es & last & -> & He3 & Hl). destruct (concat_edges _ _ _ _ _ _ F5 _ He3) as (ess & -> & Hess). rewrite F3 in Hess.
  exists st, regen, added, ess, last. split; [exact Ep|]. split; [now rewrite <- Ees|]. split; [exact Hess|].
  pose proof (ces_default_some w rl files xs F5) as Dn. pose proof (ce_defaults_concat w rl files xs F5) as Dc. rewrite F3 in Dn, Dc. cbv zeta. rewrite Dc in Hd.
  split; [|split; [|split; [|split]]].
  - apply is_build_parts in Hregen as (H1 & _). exact H1.
  - intros Hst. apply cstale_iff in Hst. rewrite Hst in Ha. unfold stale_builds in Ha. inversion Ha as [|b e ? ? Hb Hnil]. subst. inversion Hnil. subst. exists e. split; [reflexivity|].
    apply is_build_parts in Hb as (H1 & H2 & H3 & _ & _ & H6 & H7). unfold only_names. auto.
  - intros Hst. destruct (needs_phony (cw_projects c)) eqn:E; [exfalso; apply Hst; now apply cstale_iff|]. unfold stale_builds in Ha. now inversion Ha.
  - intros Hn. destruct (existsb ce_default xs) eqn:E; [|destruct Hn; now apply Dn]. unfold last_builds in Hl. inversion Hl. split; [reflexivity|]. unfold last_defaults in Hd. rewrite app_nil_r in Hd. now apply Hd.
  - intros Hn. rewrite (proj2 Dn Hn) in *. unfold last_builds in Hl. inversion Hl as [|b e ? ? Hb Hnil]. subst. inversion Hnil. subst.
    exists e. split; [reflexivity|]. split.
    + apply is_build_parts in Hb as (H1 & H2 & H3 & _ & _ & H6 & H7). unfold only_names. auto.
    + rewrite Hn in Hd. now apply Hd.
Qed.
Print Assumptions C120_build_targets_are_written_partial.

(** ** C121: the commands of build targets *)
Lemma build_edge c text files st fuel p t : ok_cworkspace c -> write_ninja c = Some (text, files) -> length text < fuel -> parse fuel false text = Ok st -> In (p, CBuild t) (ctargets c) ->
  exists s rl nd rs, nd_proj nd = p /\ fine_build (cw_base c) rl nd t rs /\ knows s rl /\ vars s = the_vars /\
    forall r, In r (target_raws (cw_base c) nd t rs) -> exists e, In e (ms_edges st) /\ is_build s st (raw_build r) e.
Proof.
  intros Hc Hb Hf Hp Hi. destruct (ninja_file c Hc) as (text' & files' & rl & xs & [F1 F2 F3 F4 F5 F6 F7 F8 (ss & Hm & Hs)]). rewrite Hb in F1. injection F1 as <- <-.
  destruct (C105_manifest_is_read_as_written ss text _ fuel Hm F2 Hs Hf) as (st' & Ep & (He & _)). rewrite Hp in Ep. injection Ep as <-.
  rewrite <- F3 in Hi. apply in_map_iff in Hi as (x & Ex & Hx). rewrite Forall_forall in F5. pose proof (F5 x Hx) as Hr. destruct x as [p' [[sub t'] line]|nd t' rs]; [discriminate Ex|]. injection Ex as <- ->.
  match type of Hs with steps _ _ _ ?s0 => exists s0, rl, nd, rs end. split; [reflexivity|]. split; [exact Hr|]. split; [|split; [reflexivity|]].
  2: { intros r Hin. destruct (Forall2_in_l _ _ _ (raw_build r) He) as (e & Hie & Hbe); [|exists e; split; [exact Hie|exact Hbe]].
       cbn [full plus stated builds]. right. apply in_or_app. right. apply in_or_app. left. apply in_concat. exists (ce_builds (cw_base c) (EBuild nd t rs)). split; [now apply in_map|]. now apply in_map. }
  now apply full_knows.
Qed.
Lemma var_command a l k : last_value (map (fun x : bytes * list atom => (fst x, pieces_of (snd x))) (compiler_vars a l k)) (B "command")
  = Some (pieces_of (joina (map Chars (k_cmd k) ++ [a] ++ option_atoms (k_type k) ++ [IN]))).
Proof. unfold compiler_vars. destruct (gcc_like (k_type k)); reflexivity. Qed.
Lemma bare_plain l : Forall bare_word l -> Forall (fun s => sh_plain s = true) l.
Proof. apply Forall_impl. now intros s []. Qed.
Lemma expands_bare d l : Forall2 (expands d) (map Chars l) l.
Proof. induction l; constructor; [apply expands_chars|auto]. Qed.
Definition shown (n : bytes) : bytes := or_empty (listed nodepath " " [n]).
Definition compile_parts (k : comp) (args out src : bytes) : list bytes :=
  k_cmd k ++ [args] ++ ((if gcc_like (k_type k) then [B "-MD"; B "-MQ"; shown out; B "-MF"; shown out ++ B ".d"] else []) ++ [B "-o"; shown out] ++ (if assembler (k_type k) then [] else [B "-c"])) ++ [shown src].
Lemma compile_line d a k args out src : expands d a args -> S_Env.outputs d = [out] -> S_Env.inputs d = [src] ->
  expands d (joina (map Chars (k_cmd k) ++ [a] ++ option_atoms (k_type k) ++ [IN])) (joinb (B " ") (compile_parts k args out src)).
Proof.
  intros Ha Eo Ei. assert (Xo : expands d OUT (shown out)) by (unfold shown; rewrite <- Eo; apply (expands_var d (B "out")), v_out).
  assert (Xi : expands d IN (shown src)) by (unfold shown; rewrite <- Ei; apply (expands_var d (B "in")), v_in).
  assert (Xd : expands d DOTD (shown out ++ B ".d")) by (apply (expands_app d OUT (Chars (B ".d"))); [exact Xo|apply expands_chars]).
  apply expands_join. unfold compile_parts. apply Forall2_app; [apply expands_bare|]. apply Forall2_app; [constructor; [exact Ha|constructor]|].
  unfold option_atoms. apply Forall2_app; [apply Forall2_app; [|apply Forall2_app]|].
  - destruct (gcc_like (k_type k)); [|constructor]. repeat (constructor; [first [exact Xo|exact Xd|apply expands_chars]|]). constructor.
  - repeat (constructor; [first [exact Xo|apply expands_chars]|]). constructor.
  - destruct (assembler (k_type k)); [constructor|]. constructor; [apply expands_chars|constructor].
  - constructor; [exact Xi|constructor].
Qed.
Lemma shown_word n : n <> [] -> yields (shown n) [n].
Proof. intros H. apply yields_names. constructor; [exact H|constructor]. Qed.
Lemma compile_words_line k args flags out src : Forall bare_word (k_cmd k) -> yields args flags -> out <> [] -> src <> [] ->
  sh_words (joinb (B " ") (compile_parts k args out src)) = Some (k_cmd k ++ compile_words (k_type k) flags out src).
Proof.
  intros Hb Ha Ho Hs. apply yields_words.
  replace (k_cmd k ++ compile_words (k_type k) flags out src) with (concat (map (fun s => [s]) (k_cmd k) ++ [flags] ++
    ((if gcc_like (k_type k) then [[B "-MD"]; [B "-MQ"]; [out]; [B "-MF"]; [out ++ B ".d"]] else []) ++ [[B "-o"]; [out]] ++ (if assembler (k_type k) then [] else [[B "-c"]])) ++ [[src]])).
  - apply yields_join. unfold compile_parts. apply Forall2_app; [now apply yields_plains, bare_plain|]. apply Forall2_app; [constructor; [exact Ha|constructor]|].
    apply Forall2_app; [apply Forall2_app; [|apply Forall2_app]|].
    + destruct (gcc_like (k_type k)); [|constructor]. repeat (constructor; [first [now apply shown_word|now apply yields_dotd|apply yields_plain; reflexivity]|]). constructor.
    + repeat (constructor; [first [now apply shown_word|apply yields_plain; reflexivity]|]). constructor.
    + destruct (assembler (k_type k)); [constructor|]. constructor; [apply yields_plain; reflexivity|constructor].
    + constructor; [now apply shown_word|constructor].
  - rewrite !concat_app, concat_singles. unfold compile_words, gcc_like, assembler. destruct (k_type k); cbn [concat app]; rewrite ?app_nil_r; reflexivity.
Qed.
Lemma resolved_nonempty n : resolved n <> [].
Proof. apply render_nonempty, resolved_good. Qed.

Definition like_gcc (t : ctype) : Prop := In t [gcc; clang; apple_clang].
Lemma src_raw_in w nd t rs src : In src (b_src t) -> In (src_raw w t rs src) (target_raws w nd t rs).
Proof. intros H. unfold target_raws. apply in_or_app. right. apply in_or_app. left. now apply in_map. Qed.
Lemma link_raw_in w nd t rs : In (link_raw w nd t) (target_raws w nd t rs).
Proof. unfold target_raws. apply in_or_app. right. apply in_or_app. right. now left. Qed.
Lemma sees_rule s rl r vs : knows s rl -> In (r_rule r, vs) rl -> rule (sees s (raw_build r)) = map (fun x => (fst x, pieces_of (snd x))) vs.
Proof. intros H Hi. unfold sees. cbn [rule raw_build b_rule]. now rewrite (kn_rules _ _ H _ _ Hi). Qed.

(** The edge of a source runs the compiler of the source's language with the target's flags for that language, and says
    where it writes what the source includes, if it does. *)
Theorem C121_sources_are_compiled_partial : forall c text files st fuel p t src,
  ok_cworkspace c -> write_ninja c = Some (text, files) -> length text < fuel -> parse fuel false text = Ok st ->
  In (p, CBuild t) (ctargets c) -> In src (b_src t) ->
  exists e obj from rest l k line, In e (ms_edges st) /\
    me_out e = [obj] /\ place (wk_build_root (cw_base c)) obj = place (wk_build_root (cw_base c)) (object_file (cw_base c) t src) /\
    me_in e = from :: rest /\ place (wk_build_root (cw_base c)) from = place (wk_build_root (cw_base c)) src /\
    in_language src l /\ In (l, k) (cp_comps p) /\
    edgevar (var_edge st e) true (B "command") = Val (Some line) /\
    sh_words line = Some (k_cmd k ++ compile_words (k_type k) (b_flags t l) obj from) /\
    (like_gcc (k_type k) -> edgevar (var_edge st e) false (B "depfile") = Val (Some (obj ++ B ".d")) /\ edgevar (var_edge st e) true (B "deps") = Val (Some (B "gcc"))) /\
    (~ like_gcc (k_type k) -> edgevar (var_edge st e) false (B "depfile") = Val None /\ edgevar (var_edge st e) true (B "deps") = Val None).
Proof.
  intros c text files st fuel p t src Hc Hb Hf Hp Hi Hs. destruct (build_edge c text files st fuel p t Hc Hb Hf Hp Hi) as (s & rl & nd & rs & <- & Fb & Hk & Hv & He).
  pose proof (ok_root _ (oc_base _ Hc)) as Hr. set (w := cw_base c) in *. pose proof (target_facts_ok w _ t Hr (fb_ok _ _ _ _ _ Fb)) as Tf.
  destruct (src_rule_in w rl nd t rs src Hr Fb Hs) as (l & sp & k & L1 & L2 & L3 & L4 & L5 & L6).
  destruct (He _ (src_raw_in w nd t rs src Hs)) as (e & He1 & He2). pose proof (raw_joins _ _ _ _ _ He2 eq_refl) as (J1 & _ & J3 & _). cbn [src_raw r_ins r_imp r_ord map app] in J3.
  pose proof (tf_src _ _ _ Tf) as Ts. rewrite Forall_forall in Ts. destruct (Ts src Hs) as (T1 & T2 & _).
  pose proof (fb_ok _ _ _ _ _ Fb) as Ob. assert (Hcomp : ok_comp k).
  { assert (Hp1 : In (nd_proj nd) (cw_projects c)).
    { unfold ctargets in Hi. apply in_concat in Hi as (l0 & Hl & Hi). apply in_map_iff in Hl as (q & <- & Hq). apply filter_In in Hq as [Hq1 _]. apply in_map_iff in Hi as (t' & [= E _] & _). now rewrite <- E. }
    destruct (oc_comps _ Hc _ Hp1) as [_ F]. rewrite Forall_forall in F. exact (F _ L3). }
  exists e, (the_name w (object_file w t src)), (the_name w src). eexists. exists l, k. 
  set (d := sees s (raw_build (src_raw w t rs src))). pose proof (sees_rule s rl (src_raw w t rs src) _ Hk L5) as Ru. fold d in Ru.
  assert (Ow : own d = src_own t rs src) by reflexivity.
  assert (Ea : exists args, expands d (args_atoms t l sp) args /\ yields args (b_flags t l)).
  { exists (shell_line (b_flags t l)). split; [|apply yields_line, (ob_flags _ _ _ Ob)]. unfold args_atoms. destruct sp; [apply expands_chars|].
    apply (expands_var d (B "ARGS") (Some (shell_line (b_flags t l)))), v_own; [intros [X|[X|X]]; discriminate X|]. rewrite Ow, L6. reflexivity. }
  destruct Ea as (args & Ea1 & Ea2). exists (joinb (B " ") (compile_parts k args (the_name w (object_file w t src)) (the_name w src))).
  destruct He2 as (_ & _ & _ & _ & _ & _ & _ & Hval). fold d in Hval.
  assert (No : forall n, In n [B "command"; B "deps"; B "depfile"] -> last_value (own d) n = None).
  { intros n Hn. rewrite Ow, L6. destruct sp; [reflexivity|]. cbn [In] in Hn. destruct Hn as [<-|[<-|[<-|[]]]]; reflexivity. }
  assert (Gl : gcc_like (k_type k) = true <-> like_gcc (k_type k)) by (unfold like_gcc; destruct (k_type k); cbn; intuition congruence).
  split; [exact He1|]. split; [exact J1|]. split; [now apply rel_place|]. split; [exact J3|]. split; [now apply rel_place|]. split; [now apply language_of_spec|]. split; [exact L3|].
  split; [|split; [|split]].
  - apply Hval. eapply v_rule; [plain_name|apply No; cbn; auto|rewrite Ru; apply var_command|]. apply expands_text. apply compile_line; [exact Ea1|reflexivity|reflexivity].
  - apply compile_words_line; [apply (ok_cmd _ Hcomp)|exact Ea2|apply resolved_nonempty|apply resolved_nonempty].
  - intros G. apply Gl in G. split; apply Hval; (eapply v_rule; [plain_name|apply No; cbn; auto|rewrite Ru; unfold compiler_vars; rewrite G; reflexivity|]).
    + apply (t_var _ _ (B "out") (Some (the_name w (object_file w t src)))); [exact (v_out (fun q => q) d)|]. apply (t_str _ _ (B ".d") [] []), t_nil.
    + apply (t_str _ _ (B "gcc") [] []), t_nil.
  - intros G. assert (G' : gcc_like (k_type k) = false) by (destruct (gcc_like (k_type k)); [exfalso; apply G, Gl; reflexivity|reflexivity]).
    assert (Nr : forall n, In n [B "deps"; B "depfile"] -> last_value (rule d) n = None).
    { intros n Hn. rewrite Ru. unfold compiler_vars. rewrite G'. cbn [In] in Hn. destruct Hn as [<-|[<-|[]]]; reflexivity. }
    assert (Sc : scopes d = [the_vars]) by (unfold d, sees; cbn [scopes]; now rewrite Hv).
    split; apply Hval; (match goal with |- value ?sh ?d0 ?n None => replace (@None bytes) with (innermost (scopes d0) n) by (rewrite Sc; reflexivity) end; apply v_scope; [plain_name|apply No; cbn; auto|apply Nr; cbn; auto]).
Qed.
Print Assumptions C121_sources_are_compiled_partial.

Definition names_shown (l : list bytes) : bytes := or_empty (listed nodepath " " l).
Lemma comp_ok c p l k : ok_cworkspace c -> (exists t, In (p, t) (ctargets c)) -> In (l, k) (cp_comps p) -> ok_comp k.
Proof.
  intros Hc (t & Hi) Hk. assert (Hp1 : In p (cw_projects c)).
  { unfold ctargets in Hi. apply in_concat in Hi as (l0 & Hl & Hi). apply in_map_iff in Hl as (q & <- & Hq). apply filter_In in Hq as [Hq1 _]. apply in_map_iff in Hi as (t' & [= E _] & _). now rewrite <- E. }
  destruct (oc_comps _ Hc _ Hp1) as [_ F]. rewrite Forall_forall in F. exact (F _ Hk).
Qed.
Lemma link_places w cs t : ok_btarget w cs t -> target_facts w cs t ->
  map (place (wk_build_root w)) (map (the_name w) (b_objects t ++ map (object_file w t) (b_src t))) = map (place (wk_build_root w)) (b_objects t ++ map (object_file w t) (b_src t)).
Proof.
  intros Ob [T1 T2 _ T4 _]. rewrite map_map. apply map_ext_in. intros x Hx. apply rel_place; [exact T1|]. apply in_app_or in Hx as [Hx|Hx].
  - pose proof (ob_objects _ _ _ Ob) as F. rewrite Forall_forall in F. auto.
  - apply in_map_iff in Hx as (src & <- & Hs). rewrite Forall_forall in T4. apply (T4 src Hs).
Qed.
Lemma names_nonempty w l : Forall (fun s => s <> []) (map (the_name w) l).
Proof. rewrite Forall_map. apply Forall_forall. intros x _. apply resolved_nonempty. Qed.
Lemma link_ins w nd t : map resolved (r_ins (link_raw w nd t)) = map (the_name w) (b_objects t ++ map (object_file w t) (b_src t)).
Proof. cbn [link_raw r_ins]. rewrite !map_app, !map_map. reflexivity. Qed.

(** The edge of an executable or a shared library runs the compiler of the target's language with the target's objects
    and flags. *)
Theorem C121_targets_are_linked_partial : forall c text files st fuel p t,
  ok_cworkspace c -> write_ninja c = Some (text, files) -> length text < fuel -> parse fuel false text = Ok st ->
  In (p, CBuild t) (ctargets c) -> b_type t <> StaticLib ->
  exists e out objects rest k line, In e (ms_edges st) /\
    me_out e = [out] /\ place (wk_build_root (cw_base c)) out = place (wk_build_root (cw_base c)) (b_path t) /\
    me_in e = objects ++ rest /\
    map (place (wk_build_root (cw_base c))) objects = map (place (wk_build_root (cw_base c))) (b_objects t ++ map (object_file (cw_base c) t) (b_src t)) /\
    In (b_lang t, k) (cp_comps p) /\
    edgevar (var_edge st e) true (B "command") = Val (Some line) /\
    sh_words line = Some (k_cmd k ++ link_words (b_link_flags t) out objects).
Proof.
  intros c text files st fuel p t Hc Hb Hf Hp Hi Hs. destruct (build_edge c text files st fuel p t Hc Hb Hf Hp Hi) as (s & rl & nd & rs & <- & Fb & Hk & Hv & He).
  pose proof (ok_root _ (oc_base _ Hc)) as Hr. set (w := cw_base c) in *. pose proof (target_facts_ok w _ t Hr (fb_ok _ _ _ _ _ Fb)) as Tf.
  destruct (link_rule_in w rl nd t rs Fb) as (k & K1 & K2). pose proof (fb_ok _ _ _ _ _ Fb) as Ob.
  destruct (He _ (link_raw_in w nd t rs)) as (e & He1 & He2). pose proof (raw_joins _ _ _ _ _ He2 eq_refl) as (J1 & _ & J3 & _). rewrite link_ins in J3.
  set (objects := map (the_name w) (b_objects t ++ map (object_file w t) (b_src t))) in *. set (out := the_name w (b_path t)) in *.
  assert (K3 : In (b_lang t, k) (cp_comps (nd_proj nd))) by (destruct (b_type t); congruence || exact K1).
  assert (K4 : link_vars w k t = linker_vars k) by (unfold link_vars; destruct (b_type t); congruence).
  assert (K5 : r_own (link_raw w nd t) = [(B "LINK_ARGS", shell_line (b_link_flags t))]) by (cbn [link_raw r_own]; destruct (b_type t); congruence).
  rewrite K4 in K2. pose proof (comp_ok c (nd_proj nd) _ k Hc (ex_intro (fun t0 => In (nd_proj nd, t0) (ctargets c)) _ Hi) K3) as Hcomp.
  set (d := sees s (raw_build (link_raw w nd t))). pose proof (sees_rule s rl (link_raw w nd t) _ Hk K2) as Ru. fold d in Ru.
  assert (Ow : own d = [(B "LINK_ARGS", shell_line (b_link_flags t))]) by (unfold d, sees; cbn [own raw_build b_vars]; exact K5).
  assert (Sc : scopes d = [the_vars]) by (unfold d, sees; cbn [scopes]; now rewrite Hv).
  assert (Ei : S_Env.inputs d = objects) by (apply link_ins). assert (Eo : S_Env.outputs d = [out]) by reflexivity.
  set (parts := k_cmd k ++ [[]; B "-o"; shown out; names_shown objects; shell_line (b_link_flags t)]).
  exists e, out, objects. eexists. exists k, (joinb (B " ") parts). destruct He2 as (_ & _ & _ & _ & _ & _ & _ & Hval). fold d in Hval.
  split; [exact He1|]. split; [exact J1|]. split; [apply rel_place; [exact Hr|apply (tf_path _ _ _ Tf)]|]. split; [exact J3|]. split; [eapply link_places; eauto|]. split; [exact K3|]. split.
  - apply Hval. eapply v_rule; [plain_name|rewrite Ow; reflexivity|rewrite Ru; reflexivity|]. apply expands_text. apply expands_join. unfold parts. apply Forall2_app; [apply expands_bare|].
    constructor; [|constructor; [apply expands_chars|constructor; [|constructor; [|constructor; [|constructor]]]]].
    + apply (expands_var d (B "ARGS") None). replace (@None bytes) with (innermost (scopes d) (B "ARGS")) by (rewrite Sc; reflexivity). apply v_scope; [intros [X|[X|X]]; discriminate X|rewrite Ow; reflexivity|rewrite Ru; reflexivity].
    + unfold shown. rewrite <- Eo. apply (expands_var d (B "out")), v_out.
    + unfold names_shown. rewrite <- Ei. apply (expands_var d (B "in")), v_in.
    + apply (expands_var d (B "LINK_ARGS") (Some (shell_line (b_link_flags t)))), v_own; [intros [X|[X|X]]; discriminate X|]. rewrite Ow. reflexivity.
  - apply yields_words. unfold parts. replace (k_cmd k ++ link_words (b_link_flags t) out objects) with (concat (map (fun s => [s]) (k_cmd k) ++ [[]; [B "-o"]; [out]; objects; b_link_flags t])).
    + apply yields_join. apply Forall2_app; [apply yields_plains, bare_plain, (ok_cmd _ Hcomp)|].
      constructor; [apply yields_nil|]. constructor; [apply yields_plain; reflexivity|]. constructor; [apply shown_word, resolved_nonempty|].
      constructor; [apply yields_names, names_nonempty|]. constructor; [apply yields_line, (ob_link_flags _ _ _ Ob)|constructor].
    + rewrite concat_app, concat_singles. unfold link_words. cbn [concat app]. now rewrite app_nil_r.
Qed.
Print Assumptions C121_targets_are_linked_partial.

(** The edge of a static library removes the library if there is one, and runs the archiver of the first of the
    project's compilers with the target's objects. *)
Theorem C121_libraries_are_archived_partial : forall c text files st fuel p t,
  ok_cworkspace c -> write_ninja c = Some (text, files) -> length text < fuel -> parse fuel false text = Ok st ->
  In (p, CBuild t) (ctargets c) -> b_type t = StaticLib ->
  exists e out objects rest k line words, In e (ms_edges st) /\
    me_out e = [out] /\ place (wk_build_root (cw_base c)) out = place (wk_build_root (cw_base c)) (b_path t) /\
    me_in e = objects ++ rest /\
    map (place (wk_build_root (cw_base c))) objects = map (place (wk_build_root (cw_base c))) (b_objects t ++ map (object_file (cw_base c) t) (b_src t)) /\
    archiver (cp_comps p) k /\
    edgevar (var_edge st e) true (B "command") = Val (Some line) /\
    sh_words line = Some ([wk_argv0 (cw_base c); B "internal"; B "exe"] ++ words) /\
    exe files words = Runs (k_static_cmd k ++ archive_words (k_static k) out objects) None None None (Some out).
Proof.
  intros c text files st fuel p t Hc Hb Hf Hp Hi Hs. destruct (build_edge c text files st fuel p t Hc Hb Hf Hp Hi) as (s & rl & nd & rs & <- & Fb & Hk & Hv & He).
  pose proof (ok_root _ (oc_base _ Hc)) as Hr. set (w := cw_base c) in *. pose proof (target_facts_ok w _ t Hr (fb_ok _ _ _ _ _ Fb)) as Tf.
  destruct (link_rule_in w rl nd t rs Fb) as (k & K1 & K2). pose proof (fb_ok _ _ _ _ _ Fb) as Ob.
  destruct (He _ (link_raw_in w nd t rs)) as (e & He1 & He2). pose proof (raw_joins _ _ _ _ _ He2 eq_refl) as (J1 & _ & J3 & _). rewrite link_ins in J3.
  set (objects := map (the_name w) (b_objects t ++ map (object_file w t) (b_src t))) in *. set (out := the_name w (b_path t)) in *.
  rewrite Hs in K1. assert (K4 : link_vars w k t = static_vars w k) by (unfold link_vars; now rewrite Hs).
  assert (K5 : r_own (link_raw w nd t) = []) by (cbn [link_raw r_own]; now rewrite Hs).
  destruct (static_comp_in _ _ _ K1) as (before & l & after & A1 & A2 & A3).
  rewrite K4 in K2. pose proof (comp_ok c (nd_proj nd) _ k Hc (ex_intro (fun t0 => In (nd_proj nd, t0) (ctargets c)) _ Hi) A2) as Hcomp.
  set (d := sees s (raw_build (link_raw w nd t))). pose proof (sees_rule s rl (link_raw w nd t) _ Hk K2) as Ru. fold d in Ru.
  assert (Ow : own d = []) by (unfold d, sees; cbn [own raw_build b_vars]; exact K5).
  assert (Ei : S_Env.inputs d = objects) by (apply link_ins). assert (Eo : S_Env.outputs d = [out]) by reflexivity.
  set (parts := [wk_argv0 w; B "internal"; B "exe"; B "-R"; shown out; B "--"] ++ k_static_cmd k ++ [archive_flags (k_static k); shown out; names_shown objects]).
  set (cmd := k_static_cmd k ++ archive_words (k_static k) out objects).
  exists e, out, objects. eexists. exists k, (joinb (B " ") parts), ([B "-R"; out; B "--"] ++ cmd). destruct He2 as (_ & _ & _ & _ & _ & _ & _ & Hval). fold d in Hval.
  assert (Xo : expands d OUT (shown out)) by (unfold shown; rewrite <- Eo; apply (expands_var d (B "out")), v_out).
  split; [exact He1|]. split; [exact J1|]. split; [apply rel_place; [exact Hr|apply (tf_path _ _ _ Tf)]|]. split; [exact J3|]. split; [eapply link_places; eauto|].
  split; [exists before, l; split; [exact A2|]; split; [now exists after|exact A3]|]. split; [|split].
  - apply Hval. eapply v_rule; [plain_name|rewrite Ow; reflexivity|rewrite Ru; reflexivity|]. apply expands_text. apply expands_join. unfold parts. apply Forall2_app; [|apply Forall2_app; [apply expands_bare|]].
    + repeat (constructor; [first [exact Xo|apply expands_chars]|]). constructor.
    + constructor; [apply expands_chars|]. constructor; [exact Xo|]. constructor; [|constructor]. unfold names_shown. rewrite <- Ei. apply (expands_var d (B "in")), v_in.
  - apply yields_words. unfold parts, cmd.
    replace ([wk_argv0 w; B "internal"; B "exe"] ++ [B "-R"; out; B "--"] ++ k_static_cmd k ++ archive_words (k_static k) out objects)
      with (concat ([[wk_argv0 w]; [B "internal"]; [B "exe"]; [B "-R"]; [out]; [B "--"]] ++ map (fun s => [s]) (k_static_cmd k) ++ [[archive_flags (k_static k)]; [out]; objects])).
    + apply yields_join. apply Forall2_app; [|apply Forall2_app; [apply yields_plains, bare_plain, (ok_static _ Hcomp)|]].
      * constructor; [apply yields_plain, (oc_argv0 _ Hc)|]. repeat (constructor; [first [apply shown_word, resolved_nonempty|apply yields_plain; reflexivity]|]). constructor.
      * constructor; [apply yields_plain; destruct (k_static k); reflexivity|]. constructor; [apply shown_word, resolved_nonempty|]. constructor; [apply yields_names, names_nonempty|constructor].
    + rewrite !concat_app, concat_singles. unfold archive_words, archive_flags. cbn [concat app]. now rewrite app_nil_r.
  - unfold exe. cbn [app]. change (getopt (B "-R" :: out :: B "--" :: cmd) (EOpts None None None None None)) with (@inr exe_end _ (EOpts None None None None (Some out), cmd)).
    unfold cmd. destruct (k_static_cmd k); reflexivity.
Qed.
Print Assumptions C121_libraries_are_archived_partial.

(** ** C109, in a build file with executables and libraries too *)
Lemma ccustom_edge c text files st fuel p k : ok_cworkspace c -> write_ninja c = Some (text, files) -> length text < fuel -> parse fuel false text = Ok st ->
  In (p, COther (TCustom k)) (ctargets c) -> exists s line e, In e (ms_edges st) /\ ok_custom (cp_sub p) k /\ runs_right (cw_base c) files ((cp_sub p, TCustom k), line) /\ numbered (cw_base c) 0 files /\
    is_build s st (entry_build (wk_build_root (cw_base c)) ((cp_sub p, TCustom k), line)) e /\
    (forall n vs, last_value (the_rules (command_parts (cw_base c))) n = Some vs -> last_value (rules s) n = Some vs).
Proof.
  intros Hc Hb Hf Hp Hi. destruct (ninja_file c Hc) as (text' & files' & rl & xs & [F1 F2 F3 F4 F5 F6 F7 F8 (ss & Hm & Hs)]). rewrite Hb in F1. injection F1 as <- <-.
  destruct (C105_manifest_is_read_as_written ss text _ fuel Hm F2 Hs Hf) as (st' & Ep & (He & _)). rewrite Hp in Ep. injection Ep as <-.
  rewrite <- F3 in Hi. apply in_map_iff in Hi as (x & Ex & Hx). rewrite Forall_forall in F5. pose proof (F5 x Hx) as Hr. destruct x as [p' [[sub t'] line]|nd t' rs]; [|discriminate Ex].
  cbn [ce_target fst snd] in Ex. injection Ex as -> ->. cbn [ce_right fst] in Hr. destruct Hr as (-> & Ht & Hrun). cbn [ok_target snd fst] in Ht.
  match type of Hs with steps _ _ _ ?s0 => exists s0, line end.
  destruct (Forall2_in_l _ _ _ (entry_build (wk_build_root (cw_base c)) ((cp_sub p, TCustom k), line)) He) as (e & Hin & Hbe).
  { cbn [full plus stated builds]. right. apply in_or_app. right. apply in_or_app. left. apply in_concat. eexists. split; [apply in_map; exact Hx|]. now left. }
  exists e. split; [exact Hin|]. split; [exact Ht|]. split; [exact Hrun|]. split; [exact F4|]. split; [exact Hbe|].
  intros n vs E. cbn [full plus stated rules]. rewrite L_Meaning.last_value_app, (F7 n); [exact E|congruence].
Qed.
(** The command of a custom or run target runs with the target's arguments also in such a build file. *)
Theorem C109_commands_beside_build_targets_partial : forall c text files st fuel p k,
  ok_cworkspace c -> write_ninja c = Some (text, files) -> length text < fuel -> parse fuel false text = Ok st ->
  In (p, COther (TCustom k)) (ctargets c) ->
  exists e line words stdin stdout, In e (ms_edges st) /\
    map (place (wk_build_root (cw_base c))) (me_out e) = map (place (wk_build_root (cw_base c))) (produces (cp_sub p, TCustom k)) /\
    edgevar (var_edge st e) true (B "command") = Val (Some line) /\
    sh_words line = Some ([wk_argv0 (cw_base c); B "internal"; B "exe"] ++ words) /\
    exe files words = Runs (c_args k) (c_env k) stdin stdout None /\
    option_map (place (wk_build_root (cw_base c))) stdin =
      (match c_in k with Some (q :: _) => if c_feed k then Some (place (wk_build_root (cw_base c)) q) else None | _ => None end) /\
    option_map (place (wk_build_root (cw_base c))) stdout =
      (match c_out k with Some (q :: _) => if c_capture k then Some (place (wk_build_root (cw_base c)) q) else None | _ => None end).
Proof.
  intros c text files st fuel p k Hc Hb Hf Hp Hi. destruct (ccustom_edge c text files st fuel p k Hc Hb Hf Hp Hi) as (s & line & e & Hin & Ht & Hrun & Hnum & Hbe & Hrules).
  pose proof (oc_base _ Hc) as Hw. set (w := cw_base c) in *. destruct Hrun as (ws & El & Ha & He). cbn [snd] in El.
  exists e, line, ws, (fed (wk_build_root w) k), (captured (wk_build_root w) k). split; [exact Hin|]. split.
  { apply is_build_parts in Hbe as (H1 & _). rewrite H1. exact (entry_places (wk_build_root w) ((cp_sub p, TCustom k), line) (ok_root _ Hw) Ht). }
  destruct Hbe as (_ & _ & _ & _ & _ & _ & _ & Hv). split; [|split; [|split; [|split]]].
  - apply Hv. eapply v_rule; [plain_name| | |].
    + unfold sees. cbn [own entry_build b_vars]. unfold own_of. destruct (c_depfile k), (c_console k); reflexivity.
    + unfold sees. cbn [rule entry_build b_rule]. instantiate (1 := [PVar (B "COMMAND")]). unfold rule_of. destruct (c_depfile k); (erewrite Hrules by reflexivity); reflexivity.
    + rewrite <- (app_nil_r line). apply (t_var _ _ (B "COMMAND") (Some line)); [|constructor]. apply v_own; [plain_name|].
      unfold sees. cbn [own entry_build b_vars]. rewrite app_nil_r. unfold own_of. destruct (c_depfile k), (c_console k); reflexivity.
  - rewrite El. apply shell_line_words. apply Forall_app. split; [|auto].
    constructor; [apply (ok_argv0 _ Hw)|]. constructor; [apply lit_word; reflexivity|]. constructor; [apply lit_word; reflexivity|constructor].
  - apply He. intros q d Hpd. eapply numbered_found; eauto.
  - unfold fed. destruct (c_feed k) eqn:E; [|destruct (c_in k) as [[|]|]; reflexivity]. destruct (ok_feed _ _ Ht E) as (q & ps & Ep & _). rewrite Ep. cbn [first option_map].
    f_equal. pose proof (ok_in _ _ Ht _ Ep) as Ff. inversion Ff; subst. destruct (rel_file (wk_build_root w) q (ok_root _ Hw) H1) as [_ Hs]. apply (st_place _ _ _ Hs).
  - unfold captured. destruct (c_capture k) eqn:E; [|destruct (c_out k) as [[|]|]; reflexivity]. destruct (ok_capture _ _ Ht E) as (q & ps & Ep & _). rewrite Ep. cbn [first option_map].
    f_equal. destruct (ok_out _ _ Ht _ Ep) as [_ Ff]. inversion Ff; subst. destruct (rel_file (wk_build_root w) q (ok_root _ Hw) H1) as [_ Hs]. apply (st_place _ _ _ Hs).
Qed.
Print Assumptions C109_commands_beside_build_targets_partial.

(** ** Examples *)
Definition a_cc : comp := Comp [B "ccache"; B "cc"] gcc l_gcc [B "cc"] ar_gcc [B "ar"].
Definition a_cxx : comp := Comp [B "c++"] clang l_clang [B "c++"] ar_posix [B "llvm-ar"].
Definition the_flags (l : lang) : list bytes := match l with LC => [B "-O2"; B "-DX=$Y"; B "-I."] | _ => [B "-std=c++20"] end.
(** a static library of four sources, one of them generated *)
Definition a_library : btarget := BTarget (B "lib") (B "/s/build/libx.a") (B "/s/build/libx.a.p") (B "/s/build") (B "/s") StaticLib
  [B "/s/a.c"; B "/s/my b.c"; B "/s/build/gen.c"; B "/t/d.c"] [(LC, 4)] [] [B "gen.h"; B "gen2.h"; B "gen.h"] LC [] [] [] the_flags [] false.
(** an executable of a source and an object, linked with the library *)
Definition a_program : btarget := BTarget (B "prog") (B "/s/build/sub/prog") (B "/s/build/sub/prog.p") (B "/s/build/sub") (B "/s/sub") Executable
  [B "/s/sub/main.cpp"] [(LCpp, 1)] [B "/s/old.o"] [B "gen.h"] LCpp [B "/s/build/libx.a"] [] [IFile (B "/s/link.map")] the_flags [B "libx.a"; B "-Wl,-rpath,$ORIGIN"] true.
Definition a_generator : custom := Custom (Some (B "gen")) None (Some [B "/s/build/gen.h"; B "/s/build/gen2.h"; B "/s/build/gen.c"]) [B "gen.py"] [] None None false false false false true.
Definition ex_cwk : cwk := CWk (Wk (B "/usr/bin/muon") (B "/s") (B "/s/build") (B "/s/build/.muon") (B "example") [] [] [B "/s/meson.build"] [])
  [CProj (B "my project") None true [(LC, a_cc); (LCpp, a_cxx)] [COther (TCustom a_generator); CBuild a_library];
   CProj (B "broken") (Some (B "broken")) false [] [];
   CProj (B "my-project") (Some (B "sub")) true [(LCpp, a_cxx)] [CBuild a_program]].
Ltac plain_words := each; plain_word.
Ltac in_lang := apply language_of_spec; reflexivity.
Ltac not_among := let X := fresh in intros X; vm_compute in X; repeat (destruct X as [X|X]; [discriminate X|]); destruct X.
Ltac a_src := constructor; [split; [file|not_among]|eexists; split; [in_lang|split; [cbn; auto 10|cbn; auto]]|vm_compute; lia|not_among].
Example ex_cok : ok_cworkspace ex_cwk.
Proof.
  assert (Wf : forall l, Forall a_word (the_flags l)).
  { intros l. destruct l; cbn [the_flags]; each; try plain_word. split; [chars|]. right. left. exists "$"%char. split; [cbv; auto 10|right; right; now left]. }
  assert (Oc : ok_comp a_cc) by (constructor; [split; [discriminate|each; (split; [chars|reflexivity])]|cbn; auto|split; [discriminate|each; (split; [chars|reflexivity])]]).
  assert (Ox : ok_comp a_cxx) by (constructor; [split; [discriminate|each; (split; [chars|reflexivity])]|cbn; auto|split; [discriminate|each; (split; [chars|reflexivity])]]).
  constructor.
  - constructor.
    + reflexivity.
    + split; [reflexivity|]. unfold word_file. vm_compute comps. each; (split; [discriminate|plain_word]).
    + plain_word.
    + intros c Hc. cbv in Hc. repeat (destruct Hc as [<-|Hc]; [split; discriminate|]). destruct Hc.
    + split; [plain_word|absent].
    + split; [absent|]. split; [absent|]. constructor.
    + cbn [ex_cwk cw_base wk_regen_deps]. each; file.
    + constructor.
    + vm_compute. repeat (apply NoDup_cons; [not_among|]). apply NoDup_nil.
  - split; [chars|reflexivity].
  - intros p Hp. cbn [ex_cwk cw_projects In] in Hp. destruct Hp as [<-|[<-|[<-|[]]]]; cbn [cp_comps map fst].
    + split; [repeat (apply NoDup_cons; [not_among|]); apply NoDup_nil|each; assumption].
    + split; constructor.
    + split; [repeat (apply NoDup_cons; [not_among|]); apply NoDup_nil|each; assumption].
  - intros p t Hi E. cbn in Hi. destruct Hi as [X|[X|[X|[]]]]; try discriminate X.
    + injection X as <- <-. exists LC. cbn. auto.
    + injection X as <- <-. discriminate E.
  - unfold ctargets. cbn [ex_cwk cw_projects filter cp_ok map cp_targets concat app]. each; unfold ok_ctarget; cbn [snd fst cp_sub cp_comps].
    + constructor; cbn [a_generator c_name c_in c_out c_args c_deps c_env c_depfile c_capture c_feed]; try discriminate.
      * intros ps [= <-]. split; [discriminate|]. each; file.
      * each.
      * split; [discriminate|]. each; absent.
      * intros _. plain_words.
      * intros [X|X]; [congruence|]. exfalso. apply X. each; absent.
    + constructor; cbn [a_library b_name b_path b_private b_dir b_cwd b_src b_count b_objects b_order b_lang b_with b_whole b_depends b_flags b_link_flags ex_cwk cw_base wk_build_root wk_source_root seen_from app].
      * split; [file|]. split; [not_among|]. exists (B "libx.a"), []. reflexivity.
      * split; [chars|]. exists (B "libx.a.p"), []. reflexivity.
      * each; (split; [reflexivity|split; [not_among|discriminate]]).
      * each; a_src.
      * split; [repeat (apply NoDup_cons; [not_among|]); apply NoDup_nil|]. intros l Hl. cbn [map fst In] in *. intuition congruence.
      * each.
      * each; label.
      * split; each.
      * exact Wf.
      * each.
      * intros m c E. exfalso. apply (f_equal (@length ascii)) in E. rewrite app_length in E. change (3 = length m + 7) in E. lia.
    + constructor; cbn [a_program b_name b_path b_private b_dir b_cwd b_src b_count b_objects b_order b_lang b_with b_whole b_depends b_flags b_link_flags ex_cwk cw_base wk_build_root wk_source_root seen_from app].
      * split; [file|]. split; [not_among|]. exists (B "sub"), [B "prog"]. reflexivity.
      * split; [chars|]. exists (B "sub"), [B "prog.p"]. reflexivity.
      * each; (split; [reflexivity|split; [not_among|discriminate]]).
      * each; a_src.
      * split; [repeat (apply NoDup_cons; [not_among|]); apply NoDup_nil|]. intros l Hl. cbn [map fst In] in *. intuition congruence.
      * each; file.
      * each; label.
      * split; each; file.
      * exact Wf.
      * each; [plain_word|]. split; [chars|]. right. left. exists "$"%char. split; [cbv; auto 20|right; right; now left].
      * intros m c E. exfalso. apply (f_equal (@length ascii)) in E. rewrite app_length in E. change (4 = length m + 7) in E. lia.
  - vm_compute. repeat (apply NoDup_cons; [not_among|]). apply NoDup_nil.
Qed.
(** the hypotheses of the theorems are met *)
Definition cparsed (c : cwk) : option mstate :=
  match write_ninja c with Some (text, _) => match parse (S (length text)) false text with Ok st => Some st | _ => None end | None => None end.
Definition command_words (st : mstate) (e : medge) : option (list bytes) :=
  match edgevar (var_edge st e) true (B "command") with Val (Some line) => sh_words line | _ => None end.
Example ex_cread : match cparsed ex_cwk with
  | Some st => map me_out (ms_edges st) = [[B "build.ninja"]; [B "gen.h"; B "gen2.h"; B "gen.c"]; [B "libx.a-order_deps"]; [B "libx.a.p/a.c.o"]; [B "libx.a.p/my b.c.o"];
        [B "libx.a.p/gen.c.o"]; [B "libx.a.p/_t_d.c.o"]; [B "libx.a"]; [B "sub/prog.p/main.cpp.o"]; [B "sub/prog"]]
      /\ default_nodes st = [B "gen.h"; B "gen2.h"; B "gen.c"; B "sub/prog"]
      /\ map (command_words st) (skipn 3 (ms_edges st)) =
         map (fun x => Some ([B "ccache"; B "cc"; B "-O2"; B "-DX=$Y"; B "-I."; B "-MD"; B "-MQ"; fst x; B "-MF"; fst x ++ B ".d"; B "-o"; fst x; B "-c"; snd x]))
             [(B "libx.a.p/a.c.o", B "../a.c"); (B "libx.a.p/my b.c.o", B "../my b.c"); (B "libx.a.p/gen.c.o", B "gen.c"); (B "libx.a.p/_t_d.c.o", B "/t/d.c")]
         ++ [Some [B "/usr/bin/muon"; B "internal"; B "exe"; B "-R"; B "libx.a"; B "--"; B "ar"; B "csrD"; B "libx.a"; B "libx.a.p/a.c.o"; B "libx.a.p/my b.c.o"; B "libx.a.p/gen.c.o"; B "libx.a.p/_t_d.c.o"];
             Some [B "c++"; B "-std=c++20"; B "-MD"; B "-MQ"; B "sub/prog.p/main.cpp.o"; B "-MF"; B "sub/prog.p/main.cpp.o.d"; B "-o"; B "sub/prog.p/main.cpp.o"; B "-c"; B "../sub/main.cpp"];
             Some [B "c++"; B "-o"; B "sub/prog"; B "../old.o"; B "sub/prog.p/main.cpp.o"; B "libx.a"; B "-Wl,-rpath,$ORIGIN"]]
  | None => False
  end.
Proof. vm_compute. repeat split. Qed.

(** ** What is missing *)
Definition with_cc (cmd name : bytes) (ts : list ctarget) : cproj := CProj name None true [(LC, Comp [cmd] gcc l_gcc [cmd] ar_gcc [B "ar"])] ts.
Definition one_source (src : bytes) : btarget := BTarget (B "prog") (B "/s/build/prog") (B "/s/build/prog.p") (B "/s/build") (B "/s") Executable
  [src] [(LC, 1)] [] [] LC [] [] [] (fun _ => []) [] true.
Definition alone (ps : list cproj) : cwk := CWk (Wk (B "muon") (B "/s") (B "/s/build") (B "/s/build/.muon") (B "example") [] [] [] []) ps.
(** The words of a compiler's command are written as they are: one that contains a space is taken for two. *)
Theorem C121_compiler_commands_refuted :
  exists st e, cparsed (alone [with_cc (B "/opt/my cc") (B "p") [CBuild (one_source (B "/s/a.c"))]]) = Some st /\
    In e (ms_edges st) /\ me_out e = [B "prog.p/a.c.o"] /\ exists rest, command_words st e = Some (B "/opt/my" :: B "cc" :: rest).
Proof. eexists _, _. split; [vm_compute; reflexivity|]. split; [right; left; reflexivity|]. split; [reflexivity|]. eexists. vm_compute. reflexivity. Qed.
Print Assumptions C121_compiler_commands_refuted.
(** The rule of a target with more than two sources can have the name of another project's rule for linking: the build
    file cannot be read. *)
Theorem C120_rule_names_refuted :
  cparsed (alone [with_cc (B "cc") (B "p") [CBuild (BTarget (B "x_c_linker") (B "/s/build/x") (B "/s/build/x.p") (B "/s/build") (B "/s") Executable
      [B "/s/a.c"; B "/s/b.c"; B "/s/c.c"] [(LC, 3)] [] [] LC [] [] [] (fun _ => []) [] true)];
    with_cc (B "cc") (B "p_c_compiler_for_x") []]) = None /\
  cparsed (alone [with_cc (B "cc") (B "p") [CBuild (BTarget (B "x_c_linker") (B "/s/build/x") (B "/s/build/x.p") (B "/s/build") (B "/s") Executable
      [B "/s/a.c"; B "/s/b.c"; B "/s/c.c"] [(LC, 3)] [] [] LC [] [] [] (fun _ => []) [] true)];
    with_cc (B "cc") (B "q") []]) <> None.
Proof. split; [vm_compute; reflexivity|]. vm_compute. discriminate. Qed.
Print Assumptions C120_rule_names_refuted.
