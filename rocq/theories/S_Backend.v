(** What a build file for custom, run and alias targets should say, in terms of the targets, and which targets can
    be written.  Paths (comps, walk, is_abs) are in S_Path, shell words in S_Escape. *)
From Verif Require Import Base M_Backend S_Path S_Escape.

(** ** Places *)
(** where a name leads, seen from the directory [root] *)
Definition place (root n : bytes) : list bytes := snd (walk (if is_abs n then comps n else comps root ++ comps n)).
(** a name with its "." and ".." taken out *)
Definition resolved (n : bytes) : bytes := render (is_abs n) (repeat (B "..") (fst (walk (comps n))) ++ snd (walk (comps n))).

(** ** What can be written *)
Definition writable_chars (s : bytes) : Prop := forall c, In c s -> c <> NUL /\ c <> NL /\ c <> CR /\ c <> "|"%char /\ c <> ch 255.
Definition a_file (p : bytes) : Prop :=
  is_abs p = true /\ location p <> [] /\ length (comps p) <= 60 /\ writable_chars p.
(** a name that is not a file: that of an alias or of a run target *)
Definition a_label (s : bytes) : Prop :=
  s <> [] /\ length (comps s) <= 60 /\ (is_abs s = true -> location s <> []) /\ writable_chars s.
(** a word that survives the shell and the build file (C27) *)
Definition line_chars (s : bytes) : Prop := forall c, In c s -> c <> NUL /\ c <> NL /\ c <> CR /\ c <> ch 255.
Definition a_word (s : bytes) : Prop := line_chars s /\ (s = [] \/ sh_obvious s \/ sh_plain s = true).
(** a file all of whose names are such words *)
Definition word_file (p : bytes) : Prop := Forall (fun n => n <> [] /\ a_word n) (comps p).
(** a target's name that can be part of a file name, and does not run into the number that follows it *)
Definition data_name (n : bytes) : Prop :=
  a_word n /\ ~ In "/"%char n /\ (forall m c, n = m ++ [c] -> is_digit c = false).

Definition run_name (sub : option bytes) (n : bytes) : bytes := match sub with Some s => s ++ B "@@" ++ n | None => n end.
Definition ok_item (i : item) : Prop := match i with IStr s => a_label s | IFile p => a_file p end.
Record ok_custom (sub : option bytes) (c : custom) : Prop := {
  ok_in : forall ps, c_in c = Some ps -> Forall a_file ps;
  ok_out : forall ps, c_out c = Some ps -> ps <> [] /\ Forall a_file ps;
  ok_run : c_out c = None -> exists n, c_name c = Some n /\ a_label (run_name sub n);
  ok_deps : Forall ok_item (c_deps c);
  ok_args : c_args c <> [] /\ Forall (fun s => ~ In NUL s) (c_args c);
  (** arguments with a newline go through a data file *)
  ok_words : Forall (fun s => ~ In NL s) (c_args c) -> Forall a_word (c_args c);
  ok_env : forall e, c_env c = Some e -> e <> [] /\ Forall (fun x => ~ In NUL (fst x) /\ ~ In NUL (snd x)) e;
  ok_data : c_env c <> None \/ ~ Forall (fun s => ~ In NL s) (c_args c) -> exists n, c_name c = Some n /\ data_name n;
  ok_capture : c_capture c = true -> exists p ps, c_out c = Some (p :: ps) /\ word_file p;
  ok_feed : c_feed c = true -> exists p ps, c_in c = Some (p :: ps) /\ word_file p;
  ok_depfile : forall p, c_depfile c = Some p -> a_file p /\ ~ In "$"%char p /\ ~ In " "%char p }.
Definition ok_adep (d : adep) : Prop :=
  match d with AAlias n => a_label n | ACustom None n => a_label n | ACustom (Some ps) _ => Forall a_file ps end.
Definition ok_target (x : option bytes * target) : Prop :=
  match snd x with TCustom c => ok_custom (fst x) c | TAlias n deps => a_label n /\ Forall ok_adep deps end.

(** the targets of all usable projects, with the name of their project *)
Definition targets (w : wk) : list (option bytes * target) :=
  concat (map (fun p => map (fun t => (p_sub p, t)) (p_targets p)) (filter p_ok (wk_projects w))).
(** the names of what a target produces, before they are resolved *)
Definition produces (x : option bytes * target) : list bytes :=
  match snd x with
  | TCustom c => match c_out c with Some ps => ps | None => match c_name c with Some n => [run_name (fst x) n] | None => [] end end
  | TAlias n _ => [n]
  end.
Definition reserved : list bytes := [B "build.ninja"; B "build_always_stale"; B "muon_do_nothing"].
Definition stale (w : wk) : Prop := exists sub c, In (sub, TCustom c) (targets w) /\ c_stale c = true.

Definition option_text (x : bytes * bytes) : bytes := B "-D" ++ fst x ++ B "=" ++ snd x.
(** the words of the command that runs muon setup again *)
Definition setup_words (w : wk) (cache : bytes) : list bytes :=
  [wk_argv0 w; B "-C"; wk_source_root w; B "setup"; B "-c"; cache] ++ map option_text (wk_env_opts w) ++ wk_cmdline w.

Record ok_workspace (w : wk) : Prop := {
  ok_root : is_abs (wk_build_root w) = true;
  ok_private : is_abs (wk_private w) = true /\ word_file (wk_private w);
  ok_argv0 : a_word (wk_argv0 w);
  ok_name : forall c, In c (wk_name w) -> c <> NL /\ c <> CR;
  ok_source : a_word (wk_source_root w) /\ ~ In "$"%char (wk_source_root w);
  ok_setup : ~ In "$"%char (wk_argv0 w) /\ ~ In "$"%char (wk_private w) /\
    Forall (fun s => a_word s /\ ~ In "$"%char s) (map option_text (wk_env_opts w) ++ wk_cmdline w);
  ok_setup_files : Forall a_file (wk_regen_deps w);
  ok_targets : Forall ok_target (targets w);
  (** nothing is produced twice *)
  ok_once : NoDup (map (place (wk_build_root w)) (reserved ++ concat (map produces (targets w)))) }.

(** ** What the build file should say *)
(** the outputs, inputs and further dependencies of a target, when [name] gives the names of files *)
Definition out_names (name : bytes -> bytes) (x : option bytes * target) : list bytes :=
  match snd x with
  | TCustom c => match c_out c with
                 | Some ps => map name ps
                 | None => match c_name c with Some n => [resolved (run_name (fst x) n)] | None => [] end
                 end
  | TAlias n _ => [resolved n]
  end.
Definition in_names (name : bytes -> bytes) (x : option bytes * target) : list bytes :=
  match snd x with TCustom c => match c_in c with Some ps => map name ps | None => [] end | TAlias _ _ => [] end.
Definition dep_names (name : bytes -> bytes) (x : option bytes * target) : list bytes :=
  match snd x with
  | TCustom c => map (fun i => match i with IFile p => name p | IStr s => resolved s end) (c_deps c)
                 ++ (if c_stale c then [B "build_always_stale"] else [])
  | TAlias _ deps => concat (map (fun d => match d with
                                           | AAlias n | ACustom None n => [resolved n]
                                           | ACustom (Some ps) _ => map name ps
                                           end) deps)
  end.
Definition in_console (x : option bytes * target) : bool := match snd x with TCustom c => c_console c | TAlias _ _ => false end.
Definition built_by_default (x : option bytes * target) : bool := match snd x with TCustom c => c_default c | TAlias _ _ => false end.
