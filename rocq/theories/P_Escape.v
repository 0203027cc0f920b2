(** Properties of escaping: build files, shell lines, argument vectors. *)
From Verif Require Import Base M_Escape S_Escape L_Escape.
Local Arguments B _ : simpl never.

(** ** C26 *)
(** A file name that can be written: not empty, and without NUL, newline, carriage return,
    '|' and byte 255. *)
Definition writable (s : bytes) : Prop :=
  s <> [] /\ forall c, In c s -> c <> NUL /\ c <> NL /\ c <> CR /\ c <> "|"%char /\ c <> ch 255.
Lemma writable_ok s : writable s -> path_ok s.
Proof.
  intros [H1 H2]. split; [exact H1|]. apply forallb_forall. intros c Hc. destruct (H2 c Hc) as (A1 & A2 & A3 & A4 & A5).
  unfold path_char. apply negb_true_iff. apply mem_char_not_In. simpl. intuition.
Qed.
Lemma writable_all l : Forall writable l -> Forall path_ok l.
Proof. intros H. eapply Forall_impl; [|exact H]. apply writable_ok. Qed.

(** Any list of file names, escaped and joined, is read back as exactly those names. *)
Theorem C26_paths : forall names text env rest, Forall writable names ->
  join_args_ninja names = Some text -> (rest = [] \/ exists r, rest = NL :: r \/ rest = ":"%char :: r \/ rest = "|"%char :: r) ->
  exists parts, scan_paths (text ++ rest) = Some (parts, rest) /\ map (eval_parts env) parts = names.
Proof.
  intros names text env rest Hw Ht Hr. apply writable_all in Hw. rewrite (join_args_ninja_words names Hw) in Ht.
  apply (f_equal (fun o => match o with Some x => x | None => [] end)) in Ht. cbv beta iota in Ht. subst text.
  assert (He : ends_paths rest) by (destruct Hr as [->|[r [->|[->| ->]]]]; simpl; auto).
  exists (lits names). split.
  - exact (scan_paths_any names 0 rest Hw He (ends_head rest He) (fun _ => eq_refl)).
  - unfold lits, eval_parts. rewrite map_map. cbn [map concat]. rewrite <- (map_id names) at 2. apply map_ext. intros s. apply app_nil_r.
Qed.
Print Assumptions C26_paths.

(** A whole build statement as muon writes it is read back by the build tool as the same
    outputs, rule, inputs, implicit inputs and order-only inputs. *)
Theorem C26_build_statement : forall outs rule ins imp ord text env rest,
  outs <> [] -> Forall writable outs -> Forall writable ins ->
  (forall l, imp = Some l -> Forall writable l) -> (forall l, ord = Some l -> Forall writable l) ->
  rule <> [] -> forallb isvar rule = true ->
  write_edge outs rule ins imp ord = Some text ->
  exists body e, scan_keyword (text ++ rest) = Some (B "build", body) /\ parse_edge body = Some (e, rest) /\
    map (eval_parts env) (e_outs e) = outs /\ e_outimp e = [] /\ e_rule e = rule /\ map (eval_parts env) (e_ins e) = ins /\
    map (eval_parts env) (e_imp e) = (match imp with Some l => l | None => [] end) /\
    map (eval_parts env) (e_ord e) = (match ord with Some l => l | None => [] end).
Proof.
  intros outs rule ins imp ord text env rest H1 H2 H3 H4 H5 H6 H7 Hw.
  assert (L : forall l, map (eval_parts env) (lits l) = l).
  { intros l. unfold lits, eval_parts. rewrite map_map. cbn [map concat]. rewrite <- (map_id l) at 2. apply map_ext. intros s. apply app_nil_r. }
  destruct (parse_edge_written outs rule ins imp ord text rest) as (body & K & E); auto using writable_all.
  - destruct imp; [now apply writable_all, H4|constructor].
  - destruct ord; [now apply writable_all, H5|constructor].
  - split; auto.
  - eexists body, _. split; [exact K|]. split; [exact E|]. cbn [e_outs e_outimp e_rule e_ins e_imp e_ord]. rewrite !L. auto 7.
Qed.
Print Assumptions C26_build_statement.
Example C26_witness :
  write_edge [B "a b"; B "c$d"] (B "CUSTOM_COMMAND") [B "x:y"] (Some []) (Some [B "z"]) =
    Some (B "build a$ b c$$d: CUSTOM_COMMAND x$:y |  || z" ++ [NL]) /\
  option_map fst (parse_edge (B "a$ b c$$d: CUSTOM_COMMAND x$:y |  || z" ++ [NL])) =
    Some {| e_outs := [[PStr (B "a b")]; [PStr (B "c$d")]]; e_outimp := []; e_rule := B "CUSTOM_COMMAND";
            e_ins := [[PStr (B "x:y")]]; e_imp := []; e_ord := [[PStr (B "z")]] |}.
Proof. vm_compute. auto. Qed.
(** A '|' in a name is not escaped and ends it; a newline cannot be written at all; a carriage
    return and byte 255 end the name. *)
Theorem C26_exclusions_are_needed :
  (exists t, join_args_ninja [B "a|b"] = Some t /\ scan_paths (t ++ [NL]) = Some ([[PStr (B "a")]], B "|b" ++ [NL])) /\
  ninja_escape [NL] = None /\
  (exists t, join_args_ninja ["a"%char :: ch 255 :: B "b"] = Some t /\ scan_paths (t ++ [NL]) = Some ([[PStr (B "a")]], ch 255 :: B "b" ++ [NL])).
Proof. split; [|split]; [exists (B "a|b"); vm_compute; auto|vm_compute; reflexivity|exists ("a"%char :: ch 255 :: B "b"); vm_compute; auto]. Qed.
Print Assumptions C26_exclusions_are_needed.

(** ** C27 *)
Lemma obvious_ok s : s = [] \/ sh_obvious s \/ sh_plain s = true -> sh_arg_ok s.
Proof.
  intros [H|[(c & Hc & Hm)|H]]; unfold sh_arg_ok; auto. right. left. apply existsb_exists. exists c. split; [exact Hc|].
  cbn in Hm. repeat (destruct Hm as [<-|Hm]; [vm_compute; reflexivity|]). destruct Hm.
Qed.
(** Arguments that contain one of the obvious special characters, and arguments made of harmless characters only, are
    each one shell word equal to the argument; so is a whole line of them. *)
Theorem C27_shell_line_partial : forall args text,
  Forall (fun s => s = [] \/ sh_obvious s \/ sh_plain s = true) args ->
  join_args_shell args = Some text -> sh_words text = Some args.
Proof.
  intros args text H Ht. unfold join_args_shell in Ht. rewrite join_args_spec in Ht.
  rewrite all_some_map with (g := shell_escape) in Ht by reflexivity. cbn [option_map] in Ht.
  apply (f_equal (fun o => match o with Some x => x | None => [] end)) in Ht. cbv beta iota in Ht. subst text.
  apply sh_words_join. intros s tail Hs. apply shell_escape_word. rewrite Forall_forall in H. apply obvious_ok, (H s Hs).
Qed.
Print Assumptions C27_shell_line_partial.
(** ... also through a variable of the build file: the value the build tool reads is that line *)
Theorem C27_build_variable_partial : forall name args text env rest,
  name <> [] -> forallb isvar name = true ->
  Forall (fun s => s = [] \/ sh_obvious s \/ sh_plain s = true) args ->
  (forall s c, In s args -> In c s -> c <> NUL /\ c <> NL /\ c <> CR /\ c <> ch 255) ->
  write_var name args = Some text ->
  exists body value, space (text ++ rest) = Some (true, body) /\ parse_let body = Some (name, value, rest) /\
    sh_words (eval_parts env value) = Some args.
Proof.
  intros name args text env rest H1 H2 Ha Hc Hw.
  assert (Hv : Forall (fun s => forallb var_char s = true) args).
  { apply Forall_forall. intros s Hs. apply forallb_forall. intros c Hcs. destruct (Hc s c Hs Hcs) as (A1 & A2 & A3 & A4).
    unfold var_char. apply negb_true_iff. apply mem_char_not_In. simpl. intuition. }
  destruct (parse_let_written name args text rest (conj H1 H2) Hv Hw) as (body & S & P).
  exists body, (flush (shell_line args) []). split; [exact S|]. split; [exact P|].
  assert (E : eval_parts env (flush (shell_line args) []) = shell_line args).
  { unfold flush, eval_parts. destruct (shell_line args); [reflexivity|]. cbn [app map concat]. now rewrite app_nil_r. }
  rewrite E. apply (C27_shell_line_partial args); [exact Ha|]. unfold join_args_shell. rewrite join_args_spec.
  rewrite all_some_map with (g := shell_escape) by reflexivity. reflexivity.
Qed.
Print Assumptions C27_build_variable_partial.
Example C27_witness :
  join_args_shell [B "echo"; []; B "a b"; B "it's"; B "$x"; B "p/q~"] = Some (B "echo '' 'a b' 'it'\''s' '$x' p/q~") /\
  sh_words (B "echo '' 'a b' 'it'\''s' '$x' p/q~") = Some [B "echo"; []; B "a b"; B "it's"; B "$x"; B "p/q~"] /\
  write_var (B "COMMAND") [B "echo"; B "$x"] = Some (B " COMMAND = echo '$$x'" ++ [NL]) /\
  sh_plain (B "p/q~") = true.
Proof. vm_compute. auto. Qed.
(** Other shell syntax is passed on unquoted, and a newline is lost on the way through the build file. *)
Theorem C27_unquoted_refuted :
  (forall c, In c (B ";|()*?[`") -> shell_escape ["a"%char; c; "b"%char] = ["a"%char; c; "b"%char] /\ sh_words ["a"%char; c; "b"%char] = None) /\
  (sh_words (shell_escape ["a"%char; TAB; "b"%char]) = Some [B "a"; B "b"]) /\
  (exists text body, write_var (B "ARGS") [["a"%char; NL; "b"%char]] = Some text /\ space text = Some (true, body) /\
     parse_let body = Some (B "ARGS", [PStr (B "'ab'")], [])).
Proof.
  split; [|split].
  - intros c Hc. cbn in Hc. repeat (destruct Hc as [<-|Hc]; [vm_compute; auto|]). destruct Hc.
  - vm_compute. reflexivity.
  - exists (B " ARGS = 'a$" ++ NL :: B "b'" ++ [NL]), (B "ARGS = 'a$" ++ NL :: B "b'" ++ [NL]). vm_compute. auto.
Qed.
Print Assumptions C27_unquoted_refuted.

(** ** C28 *)
Theorem C28_node_path_is_one_word : forall path, path <> [] -> sh_words (nodepath path) = Some [path].
Proof. intros p H. unfold sh_words. rewrite <- (app_nil_r (nodepath p)). rewrite nodepath_word by auto. reflexivity. Qed.
Print Assumptions C28_node_path_is_one_word.
(** $in and $out are the paths, one word each *)
Theorem C28_path_list_words : forall paths text, Forall (fun p => p <> []) paths -> pathlist paths " " = Some text ->
  sh_words text = Some paths.
Proof.
  intros paths text H E. apply pathlist_join in E. subst text. apply (sh_words_join nodepath). intros s tail Hs. apply nodepath_word.
  rewrite Forall_forall in H. now apply H.
Qed.
Print Assumptions C28_path_list_words.
Example C28_witness : pathlist [B "a b"; B "it's"; B "x/y.c"] " " = Some (B "'a b' 'it'\''s' x/y.c") /\
  sh_words (B "'a b' 'it'\''s' x/y.c") = Some [B "a b"; B "it's"; B "x/y.c"].
Proof. vm_compute. auto. Qed.

(** ** C29 *)
Theorem C29_argv : forall args argstr argc, args <> [] -> Forall (fun s => ~ In NUL s) args ->
  join_args_argstr args = (argstr, argc) ->
  argstr_to_argv argstr argc None = Some args /\ forall a, argstr_to_argv argstr argc (Some a) = Some (a :: args).
Proof.
  intros args argstr argc Hne Hn E. unfold join_args_argstr in E. injection E as <- <-. unfold argstr_to_argv. split.
  - rewrite pushall_spec; auto.
  - intros a. rewrite pushall_spec; auto. simpl. lia.
Qed.
Print Assumptions C29_argv.
Theorem C29_environment : forall env envstr envc, env <> [] -> Forall (fun '(k, v) => ~ In NUL k /\ ~ In NUL v) env ->
  env_to_envstr env = (envstr, envc) -> envstr_calls envstr (Some []) 0 envc = Some env.
Proof.
  intros env envstr envc Hne Hn E. unfold env_to_envstr in E. injection E as <- <-. now apply envstr_spec.
Qed.
Print Assumptions C29_environment.
Example C29_witness :
  argstr_to_argv (fst (join_args_argstr [B "cc"; []; B "-o x"])) 3 None = Some [B "cc"; []; B "-o x"] /\
  envstr_calls (fst (env_to_envstr [(B "A", B "1"); (B "B", [])])) (Some []) 0 2 = Some [(B "A", B "1"); (B "B", [])].
Proof. vm_compute. auto. Qed.
