(** Properties of custom targets: what their commands say (C111), and where what they and generators make lies and how
    they are built (C112). *)
From Verif Require Import Base M_Path M_Format M_Escape M_Backend M_Custom S_Path S_Format S_Backend S_Custom
  L_Path L_Path2 L_Path3 L_Format L_Places L_Custom.
Local Arguments B _ : simpl never.
Local Ltac notin := let X := fresh in intros X; vm_compute in X; intuition discriminate.

(** ** C111 *)
(** Every argument of a command gives the words it stands for, in order: files, targets and programs give words that
    lead to them from the build directory, '@INPUT@' and '@OUTPUT@' the whole lists, and the placeholders in other
    strings are replaced by words that lead to what they stand for.  The target depends on all files and programs the
    command names.  A file that is run is never looked up in PATH.  The command is refused if an argument stands for
    nothing, or if there are no words. *)
Theorem C111_commands_partial : forall o vs, ok_opts o -> Forall (ok_value o) vs ->
  match process_commandline o vs with
  | Some (ws, ds) =>
      ws <> [] /\ (exists wss, Forall2 (words o) vs wss /\ ws = concat wss) /\
      (exists dss, Forall2 (needs o) vs dss /\ ds = concat dss) /\
      match vs with v :: _ => runs_a_file v -> exists w r, ws = w :: r /\ In "/"%char w | [] => True end
  | None => forall wss, Forall2 (words o) vs wss -> concat wss = []
  end.
Proof.
  intros o vs Ok Vv. unfold process_commandline. pose proof (fmt_values_spec o vs Ok Vv (St [] [] 0)) as H.
  destruct (fmt_values o vs (St [] [] 0)) as [s|].
  - destruct H as (wss & dss & i & -> & Hw & Hn & Hr). cbn [st_words st_deps st_i app] in *.
    destruct (concat wss) as [|w ws] eqn:E.
    + intros wss' Hw'. apply length_zero_iff_nil. rewrite <- (concat_len (words o) (words_len o) vs wss wss' Hw Hw'). now rewrite E.
    + split; [discriminate|]. split; [exists wss; auto|]. split; [exists dss; auto|]. now apply Hr.
  - intros wss Hw. now apply H in Hw.
Qed.
Print Assumptions C111_commands_partial.

Definition ex_opts : cmd_opts :=
  Opts (B "/w/b") (B "/w") (B "/w/b/sub") (B "/w/sub") (Some (B "gen")) (Some [B "/w/sub/a.in"; B "/w/sub/b.in"])
    (Some [B "/w/b/sub/a.c"]) (Some (B "/w/b/sub/a.d")) None false None.
Definition ex_command : list value :=
  [VProg true [B "/w/tools/gen.py"; B "-q"]; VStr (B "@INPUT@"); VStr (B "-o"); VStr (B "--out=@OUTPUT@"); VStr (B "@INPUT1@:@OUTDIR@");
   VTarget (B "/w/b/lib") (B "x.so"); VStr (B "@PRIVATE_DIR@"); VStr (B "a@b.c"); VCustom (Some [B "/w/b/t"])].
Example ex_opts_ok : ok_opts ex_opts.
Proof.
  constructor; try reflexivity.
  - intros n H. inversion H. subst. split; [discriminate|]. split; [discriminate|]. notin.
  - intros l H. inversion H. subst. split; [|reflexivity]. repeat constructor; cbn; discriminate.
  - intros l H. inversion H. subst. split; [|reflexivity]. repeat constructor.
  - intros p H. inversion H. reflexivity.
  - intros p H. discriminate H.
Qed.
Example ex_command_ok : Forall (ok_value ex_opts) ex_command.
Proof.
  assert (T : forall s, ~ In BSLASH s -> tidy ex_opts s) by (intros s H m _; now apply plain_clean).
  repeat constructor; try discriminate; apply T; notin.
Qed.
Example C111_witness : process_commandline ex_opts ex_command =
  Some ([B "../tools/gen.py"; B "-q"; B "../sub/a.in"; B "../sub/b.in"; B "-o"; B "--out=sub/a.c"; B "../sub/b.in:sub"; B "lib/x.so";
         B "sub/gen.p"; B "a@b.c"; B "t"], [B "../tools/gen.py"; B "lib/x.so"; B "t"]).
Proof. vm_compute. reflexivity. Qed.

(** A key that stands for nothing should be an error.  @INPUT0@ in the command of a target without inputs, and an index
    below minus the number of inputs, abort muon. *)
Theorem C111_index_refuted : exists o key, ok_opts o /\ a_key key /\ (forall p, ~ stands_for o key p) /\ cmd_key o key = KCrash.
Proof.
  exists (Opts (B "/w/b") (B "/w") (B "/w/b") (B "/w") (Some (B "t")) None (Some [B "/w/b/a.c"]) None None false None), (B "INPUT0").
  assert (Ok : ok_opts (Opts (B "/w/b") (B "/w") (B "/w/b") (B "/w") (Some (B "t")) None (Some [B "/w/b/a.c"]) None None false None)).
  { constructor; try reflexivity; try discriminate.
    - intros n H. inversion H. subst. split; [discriminate|]. split; [discriminate|]. notin.
    - intros l H. inversion H. subst. split; [|reflexivity]. repeat constructor. }
  pose proof (cmd_key_spec _ (B "INPUT0") Ok ltac:(discriminate)) as H.
  assert (E : cmd_key (Opts (B "/w/b") (B "/w") (B "/w/b") (B "/w") (Some (B "t")) None (Some [B "/w/b/a.c"]) None None false None) (B "INPUT0") = KCrash) by reflexivity.
  rewrite E in H. tauto.
Qed.
Print Assumptions C111_index_refuted.
Theorem C111_negative_index_refuted : exists o key, ok_opts o /\ a_key key /\ (forall p, ~ stands_for o key p) /\ cmd_key o key = KCrash /\ o_in o <> None.
Proof.
  exists ex_opts, (B "INPUT-3"). pose proof (cmd_key_spec _ (B "INPUT-3") ex_opts_ok ltac:(discriminate)) as H.
  assert (E : cmd_key ex_opts (B "INPUT-3") = KCrash) by (vm_compute; reflexivity). rewrite E in H. split; [exact ex_opts_ok|]. split; [tauto|]. split; [tauto|].
  split; [exact E|discriminate].
Qed.
Print Assumptions C111_negative_index_refuted.

(** ** C112 *)
(** An output (or depfile) lies in the directory of the target, under the name given, with @PLAINNAME@ and @BASENAME@
    replaced; it is refused if anything else is between two '@', or if there is not exactly one input. *)
Theorem C112_outputs_partial : forall dir ins n, is_abs dir = true -> ~ In "@"%char dir -> (forall l, ins = Some l -> Forall abs_file l) ->
  (one_name n -> out_tidy ins n -> match output_file dir ins n with Some p => lies dir ins n p | None => forall n', ~ written ins n n' end) /\
  (In "/"%char n -> output_file dir ins n = None).
Proof.
  intros dir ins n Hd Ha F. split; [intros Hn Ht; exact (output_file_spec dir ins n Hd Ha Hn F Ht)|].
  intros Hs. unfold output_file, path_is_basename. apply mem_char_In in Hs. change SEP with "/"%char. now rewrite Hs.
Qed.
Print Assumptions C112_outputs_partial.
Example C112_outputs_witness : output_file (B "/w/b") (Some [B "/w/x/a.tab.y"]) (B "p_@BASENAME@.c") = Some (B "/w/b/p_a.tab.c")
  /\ output_file (B "/w/b") (Some [B "/w/x/a.y"]) (B "@PLAINNAME@.c") = Some (B "/w/b/a.y.c").
Proof. vm_compute. auto. Qed.
(** The whole path is searched for placeholders, so a build directory with two '@' in its path makes every custom
    target fail. *)
Theorem C112_at_sign_refuted : exists dir n, is_abs dir = true /\ written None n n /\ output_file dir None n = None.
Proof.
  exists (B "/home/a@b@c/build"), (B "out.c"). split; [reflexivity|]. split; [|vm_compute; reflexivity].
  exists (out_cb None). split; [intros key _; apply out_cb_replaced; discriminate|]. reflexivity.
Qed.
Print Assumptions C112_at_sign_refuted.

Definition kw_make (root source build_dir cwd : bytes) (k : custom_kw) (name : bytes) : make_opts :=
  Make root source build_dir cwd (Some name) (k_in k) (Some (k_out k)) build_dir None (k_command k) (k_depfile k) false None
    (set_true (k_capture k)) (set_true (k_feed k)).
(** What custom_target() adds to the project: a target with the given inputs, outputs in the build directory of the
    project, and the command as in C111.  It depends on what its command names, on depend_files and on depends.  It is
    always out of date with build_always_stale or build_always; it is built by default with build_by_default or
    build_always, and when it is installed, unless build_by_default is false; it uses the console with console. *)
Theorem C112_custom_target_partial : forall root source build_dir cwd k c,
  func_custom_target root source build_dir cwd k = Some c ->
  exists name, (k_name k = Some name \/ k_name k = None /\ exists ns, k_out k = name :: ns) /\
    (ok_make (kw_make root source build_dir cwd k name) ->
     made (kw_make root source build_dir cwd k name) c /\
     (exists ds, needed (kw_make root source build_dir cwd k name) (c_out c) (c_depfile c) ds /\
        c_deps c = map IStr ds ++ map IFile (k_depend_files k ++ k_depends k)) /\
     c_env c = k_env k /\
     (c_stale c = true <-> k_stale k = Some true \/ k_always k = Some true) /\
     (c_console c = true <-> k_console k = Some true) /\ ~ (c_console c = true /\ c_capture c = true) /\
     (c_default c = true <-> k_default k = Some true \/ k_always k = Some true \/
        k_default k = None /\ (k_install k = Some true \/ k_install k = None /\ k_install_dir k <> None))).
Proof.
  intros root source build_dir cwd k c H. unfold func_custom_target in H.
  destruct (match k_name k with Some n => Some n | None => hd_error (k_out k) end) as [name|] eqn:En; [|discriminate].
  exists name. split.
  { destruct (k_name k) as [n|]; [left; congruence|]. right. split; [reflexivity|]. destruct (k_out k) as [|n ns]; [discriminate|]. inversion En; subst. eauto. }
  intros Ok. pose proof (make_spec _ Ok) as M. fold (kw_make root source build_dir cwd k name) in H.
  destruct (make_custom_target (kw_make root source build_dir cwd k name)) as [c0|]; [|discriminate].
  destruct M as (Md & (ds & Nd & Ed) & _ & _ & _ & _).
  destruct (set_true (k_console k) && set_true (k_capture k)) eqn:Ecc; [discriminate|].
  match type of H with (if ?x then _ else _) = _ => destruct x eqn:Ei; [discriminate|] end. inversion H; subst c. clear H.
  cbn [c_name c_in c_out c_args c_deps c_env c_depfile c_capture c_feed c_stale c_console c_default].
  assert (T : forall x, set_true x = true <-> x = Some true) by (intros [[|]|]; cbn; split; congruence).
  split; [destruct Md; constructor; cbn [c_name c_in c_out c_args c_depfile c_capture c_feed]; auto|].
  split; [exists ds; split; [exact Nd|rewrite Ed, map_app; reflexivity]|].
  split; [reflexivity|]. split; [rewrite orb_true_iff, !T; tauto|]. split; [apply T|]. split.
  { intros [X1 X2]. rewrite (md_capture _ _ Md) in X2. cbn [kw_make m_capture] in X2. rewrite X1, X2 in Ecc. discriminate. }
  rewrite !orb_true_iff, !T, andb_true_iff.
  destruct (k_default k) as [[|]|], (k_always k) as [[|]|], (k_install k) as [[|]|], (k_install_dir k); cbn; intuition congruence.
Qed.
Print Assumptions C112_custom_target_partial.
(** It is refused only if there is no such target, with console and capture together, or if it is to be installed and
    no directory is given. *)
Theorem C112_refused_partial : forall root source build_dir cwd k name,
  k_name k = Some name \/ k_name k = None /\ (exists ns, k_out k = name :: ns) -> ok_make (kw_make root source build_dir cwd k name) ->
  (func_custom_target root source build_dir cwd k = None ->
   cannot_make (kw_make root source build_dir cwd k name) \/ k_console k = Some true /\ k_capture k = Some true \/
   k_install k = Some true /\ k_install_dir k = None \/ k_install k <> Some false /\ k_install_dir k = Some 0) /\
  (k_console k = Some true /\ k_capture k = Some true \/ k_install k = Some true /\ k_install_dir k = None ->
   func_custom_target root source build_dir cwd k = None).
Proof.
  intros root source build_dir cwd k name Hn Ok. unfold func_custom_target.
  assert (En : match k_name k with Some n => Some n | None => hd_error (k_out k) end = Some name).
  { destruct Hn as [->|[-> [ns ->]]]; reflexivity. }
  rewrite En. pose proof (make_spec _ Ok) as M. fold (kw_make root source build_dir cwd k name).
  destruct (make_custom_target (kw_make root source build_dir cwd k name)) as [c0|]; [|split; [intros _; now left|reflexivity]].
  split.
  - intros H. right. destruct (k_console k) as [[|]|], (k_capture k) as [[|]|], (k_install k) as [[|]|], (k_install_dir k) as [[|i]|]; cbn in H;
      try discriminate; intuition congruence.
  - intros [[-> ->]|[-> ->]]; [reflexivity|]. now destruct (set_true (k_console k) && set_true (k_capture k)).
Qed.
Print Assumptions C112_refused_partial.
Example C112_refused_witness : func_custom_target (B "/w/b") (B "/w") (B "/w/b") (B "/w")
  (Kw None (Some [B "/w/a.y"]) [B "@INPUT@.c"] [VStr (B "bison")] None None None [] [] None None None None None (Some 1) None) = None.
Proof. vm_compute. reflexivity. Qed.
Definition ex_kw : custom_kw :=
  Kw None (Some [B "/w/a.y"]) [B "@BASENAME@.c"] [VProg true [B "/usr/bin/bison"]; VStr (B "@INPUT@"); VStr (B "-o@OUTPUT@")] None None None [B "/w/x"] []
    None None None None None (Some 1) None.
Example ex_kw_ok : ok_make (kw_make (B "/w/b") (B "/w") (B "/w/b") (B "/w") ex_kw (B "@BASENAME@.c")).
Proof.
  assert (O : one_name (B "@BASENAME@.c")) by (split; [discriminate|]; split; [discriminate|]; notin).
  constructor; try reflexivity.
  - notin.
  - intros n H. inversion H; subst. exact O.
  - intros l H. inversion H. subst. split; [|reflexivity]. repeat constructor; cbn; discriminate.
  - intros l H. inversion H. subst. split; [|reflexivity]. repeat constructor; try apply O. intros m _. apply plain_clean. notin.
  - discriminate.
  - discriminate.
  - intros outs dep. repeat constructor; intros m _; apply plain_clean; notin.
Qed.
Example C112_witness : func_custom_target (B "/w/b") (B "/w") (B "/w/b") (B "/w") ex_kw =
  Some (Custom (Some (B "@BASENAME@.c")) (Some [B "/w/a.y"]) (Some [B "/w/b/a.c"]) [B "/usr/bin/bison"; B "../a.y"; B "-oa.c"]
     [IStr (B "/usr/bin/bison"); IFile (B "/w/x")] None None false false false false true).
Proof. vm_compute. reflexivity. Qed.

(** A generator makes one target for each source, in order.  Its outputs lie in the private directory of the target
    that uses them, and with preserve_path_from, in the directories below it that the source is in below
    preserve_path_from; the command is as in C111, with '@EXTRA_ARGS@' standing for the extra arguments. *)
Definition gen_make (root source build_dir cwd dir : bytes) (g : generator) (extra : option (list bytes)) (out_dir src : bytes) : make_opts :=
  Make root source build_dir cwd None (Some [src]) (Some (g_out g)) out_dir (Some dir) (g_command g) (g_depfile g) true extra (g_capture g) (g_feed g).
Definition out_dir_for (preserve : option bytes) (dir src out_dir : bytes) : Prop :=
  match preserve with
  | None => out_dir = dir
  | Some base => is_abs out_dir = true /\ exists sub f, comps src = comps base ++ sub ++ [f] /\ comps out_dir = comps dir ++ sub
  end.
Theorem C112_generators_partial : forall root source build_dir cwd dir g extra preserve srcs,
  is_abs dir = true -> Forall (fun s => is_abs s = true /\ ~ In (B "..") (comps s)) srcs ->
  (forall base, preserve = Some base -> comps base <> [] /\ Forall (fun s => comps s <> comps base) srcs) ->
  (forall out_dir src, In src srcs -> out_dir_for preserve dir src out_dir -> ok_make (gen_make root source build_dir cwd dir g extra out_dir src)) ->
  process_ok preserve srcs = true ->
  match generate root source build_dir cwd dir g extra preserve srcs with
  | Some cs => Forall2 (fun src c => exists out_dir, out_dir_for preserve dir src out_dir /\ made (gen_make root source build_dir cwd dir g extra out_dir src) c) srcs cs
  | None => exists src out_dir, In src srcs /\ out_dir_for preserve dir src out_dir /\ cannot_make (gen_make root source build_dir cwd dir g extra out_dir src)
  end.
Proof.
  intros root source build_dir cwd dir g extra preserve srcs Hd Fs Hp Ok Pk.
  induction srcs as [|src srcs IH]; cbn [generate]; [constructor|].
  inversion Fs as [|? ? [Hs Hu] Fs']; subst.
  assert (Pk' : process_ok preserve srcs = true).
  { unfold process_ok in *. destruct preserve as [base|]; [|reflexivity]. cbn [forallb] in Pk. apply andb_true_iff in Pk as [P1 P2]. apply andb_true_iff in P2 as [_ P2]. now rewrite P1, P2. }
  assert (D : exists out_dir, match preserve with None => Some dir | Some base => do r <- path_relative_to base src; do d <- path_dirname r; path_join dir d end = Some out_dir
       /\ out_dir_for preserve dir src out_dir).
  { destruct preserve as [base|]; [|exists dir; split; reflexivity]. destruct (Hp base eq_refl) as [Nb Fb]. inversion Fb as [|? ? Nsb _]; subst.
    unfold process_ok in Pk. cbn [forallb] in Pk. apply andb_true_iff in Pk as [P1 P2]. apply andb_true_iff in P2 as [P2 _]. rewrite is_abs_same in P1.
    destruct (path_is_subpath_spec base src) as (r & Er & Ir); [intros ->; discriminate|intros ->; discriminate|auto|]. rewrite Er in P2. apply Ir in P2 as [_ [rel Erel]].
    destruct (snoc_case rel) as [->|(sub & f & ->)]; [exfalso; apply Nsb; now rewrite Erel, app_nil_r|].
    assert (Nu : Forall noup (comps src)).
    { apply Forall_forall. intros x Hx. unfold noup, is_up. destruct (beqb_spec x (B "..")) as [->|]; [contradiction|reflexivity]. }
    destruct (preserved_dir dir base src sub f Hd P1 Hs Nb Erel Nu) as (d & Ed & Ad & Cd & _). exists d. split; [exact Ed|]. split; [exact Ad|]. exists sub, f. auto. }
  destruct D as (out_dir & Eo & Ho). unfold generate_one. rewrite Eo.
  assert (O : ok_make (gen_make root source build_dir cwd dir g extra out_dir src)) by (apply Ok; [now left|exact Ho]).
  pose proof (make_spec _ O) as M. fold (gen_make root source build_dir cwd dir g extra out_dir src).
  destruct (make_custom_target (gen_make root source build_dir cwd dir g extra out_dir src)) as [c|].
  - assert (IH' := IH Fs'). destruct (generate root source build_dir cwd dir g extra preserve srcs) as [cs'|].
    + constructor; [exists out_dir; split; [exact Ho|apply M]|]. apply IH'; auto.
      * intros base Eb. destruct (Hp base Eb) as [H1 H2]. split; [exact H1|]. now inversion H2.
      * intros od s Hi. apply Ok. now right.
    + destruct IH' as (s & od & Hi & Hr); auto.
      * intros base Eb. destruct (Hp base Eb) as [H1 H2]. split; [exact H1|]. now inversion H2.
      * intros od s Hi. apply Ok. now right.
      * exists s, od. split; [now right|exact Hr].
  - exists src, out_dir. split; [now left|]. auto.
Qed.
Print Assumptions C112_generators_partial.
(** process() accepts exactly the sources below preserve_path_from. *)
Theorem C112_process : forall preserve srcs, Forall (fun s => is_abs s = true) srcs ->
  (process_ok preserve srcs = true <->
   forall base, preserve = Some base -> is_abs base = true /\ Forall (fun s => exists rest, comps s = comps base ++ rest) srcs).
Proof.
  intros [base|] srcs F; cbn [process_ok]; [|split; [intros _ b H; discriminate|reflexivity]]. rewrite andb_true_iff, is_abs_same.
  assert (K : is_abs base = true -> forall s, is_abs s = true ->
     (match path_is_subpath base s with Some b => b | None => false end = true <-> exists rest, comps s = comps base ++ rest)).
  { intros Hb s Hs. destruct (path_is_subpath_spec base s) as (r & Er & Ir); [intros ->; discriminate|intros ->; discriminate|auto|]. rewrite Er, Ir, Hb, Hs. unfold prefix_of. tauto. }
  split.
  - intros [Hb H] b E. inversion E; subst b. split; [exact Hb|]. rewrite forallb_forall in H. rewrite Forall_forall in F |- *. intros s Hs. apply K; auto.
  - intros H. destruct (H base eq_refl) as [Hb Hs]. split; [exact Hb|]. apply forallb_forall. rewrite Forall_forall in F, Hs. intros s Hi. apply K; auto.
Qed.
Print Assumptions C112_process.
Definition ex_gen : generator := Gen [B "@BASENAME@.c"; B "@BASENAME@.h"] [VStr (B "gen"); VStr (B "@EXTRA_ARGS@"); VStr (B "@INPUT@"); VStr (B "@BUILD_DIR@")] None false false.
Example C112_generator_witness : generate (B "/w/b") (B "/w") (B "/w/b") (B "/w") (B "/w/b/t.p") ex_gen (Some [B "-x"]) (Some (B "/w/src")) [B "/w/src/k/a.y"] =
  Some [Custom None (Some [B "/w/src/k/a.y"]) (Some [B "/w/b/t.p/k/a.c"; B "/w/b/t.p/k/a.h"]) [B "gen"; B "-x"; B "../src/k/a.y"; B "t.p"] [] None None false false false false false]
  /\ process_ok (Some (B "/w/src")) [B "/w/src/k/a.y"] = true.
Proof. vm_compute. auto. Qed.
Example C112_generator_hypotheses : forall out_dir src, In src [B "/w/src/k/a.y"] -> out_dir_for (Some (B "/w/src")) (B "/w/b/t.p") src out_dir ->
  ok_make (gen_make (B "/w/b") (B "/w") (B "/w/b") (B "/w") (B "/w/b/t.p") ex_gen (Some [B "-x"]) out_dir src).
Proof.
  intros out_dir src [<-|[]] [Ad (sub & f & E & Ec)]. change (comps (B "/w/src/k/a.y")) with ([B "w"; B "src"] ++ [B "k"] ++ [B "a.y"]) in E.
  change (comps (B "/w/src")) with [B "w"; B "src"] in E. apply app_inv_head in E. apply app_inj_tail in E as [<- _].
  constructor; try reflexivity; try discriminate; try exact Ad.
  - intros X. destruct (char_in_comps "@"%char ltac:(discriminate) ltac:(discriminate) out_dir X) as (x & Hx & Hc).
    cbn [gen_make m_dir] in Hx. rewrite Ec in Hx. vm_compute in Hx. repeat (destruct Hx as [<-|Hx]; [cbn in Hc; intuition discriminate|]). destruct Hx.
  - intros l H. inversion H. subst. split; [|reflexivity]. repeat constructor; cbn; discriminate.
  - intros l H. inversion H. subst. split; [|reflexivity]. repeat constructor; try discriminate; try notin; intros m _; apply plain_clean; notin.
  - intros p H. inversion H. reflexivity.
  - intros outs dep. repeat constructor; intros m _; apply plain_clean; notin.
Qed.
(** With preserve_path_from: '/' the outputs do not lie in the private directory: they lie beside the source. *)
Theorem C112_preserve_root_refuted : exists root source build_dir cwd dir g src c,
  is_abs dir = true /\ process_ok (Some (B "/")) [src] = true /\
  generate root source build_dir cwd dir g None (Some (B "/")) [src] = Some [c] /\ c_out c = Some [B "/w/src/a.c"] /\ src = B "/w/src/a.y" /\ dir = B "/w/b/t.p".
Proof.
  exists (B "/w/b"), (B "/w"), (B "/w/b"), (B "/w"), (B "/w/b/t.p"), (Gen [B "@BASENAME@.c"] [VStr (B "gen")] None false false), (B "/w/src/a.y").
  eexists. split; [reflexivity|]. split; [vm_compute; reflexivity|]. split; [vm_compute; reflexivity|]. repeat split.
Qed.
Print Assumptions C112_preserve_root_refuted.
