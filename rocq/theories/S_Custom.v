(** What the command and the outputs of a custom target stand for: which file or directory each placeholder is, which
    words each argument gives and which files it makes the target depend on.  Paths are in S_Path, [place] is in
    S_Backend, what a text with placeholders stands for ([format_spec]) and numbers are in S_Format. *)
From Verif Require Import Base M_Format M_Custom S_Path S_Format S_Backend.

(** the word [w], used in the directory [root], leads to the absolute path [p]; anything else is used as it is *)
Definition names (root w p : bytes) : Prop := if is_abs p then place root w = location p else w = p.

(** ** placeholders *)
(** @PLAINNAME@ is the name of the only input, @BASENAME@ that name up to its last dot *)
Inductive input_name (ins : option (list bytes)) : bytes -> bytes -> Prop :=
| in_plain p cs n : ins = Some [p] -> comps p = cs ++ [n] -> input_name ins (B "PLAINNAME") n
| in_base p cs b e : ins = Some [p] -> comps p = cs ++ [b ++ B "." ++ e] -> ~ In "."%char e -> input_name ins (B "BASENAME") b
| in_whole p cs n : ins = Some [p] -> comps p = cs ++ [n] -> ~ In "."%char n -> input_name ins (B "BASENAME") n.

Inductive stands_for (o : cmd_opts) : bytes -> bytes -> Prop :=
| sf_input p ps : o_in o = Some (p :: ps) -> stands_for o (B "INPUT") p
| sf_output p ps : o_out o = Some (p :: ps) -> stands_for o (B "OUTPUT") p
| sf_input_n ps k z p : o_in o = Some ps -> reads_as k z -> py_index ps z = Some p -> stands_for o (B "INPUT" ++ k) p
| sf_output_n ps k z p : o_out o = Some ps -> reads_as k z -> py_index ps z = Some p -> stands_for o (B "OUTPUT" ++ k) p
| sf_outdir ps : o_out o = Some ps -> stands_for o (B "OUTDIR") (o_out_dir o)
| sf_depfile p : o_depfile o = Some p -> stands_for o (B "DEPFILE") p
| sf_name key n : input_name (o_in o) key n -> stands_for o key n
| sf_private ps n : o_out o = Some ps -> o_name o = Some n -> stands_for o (B "PRIVATE_DIR") (o_out_dir o ++ B "/" ++ n ++ B ".p")
| sf_source : stands_for o (B "SOURCE_ROOT") (o_source o)
| sf_root : stands_for o (B "BUILD_ROOT") (o_root o)
| sf_gen p : o_gen_dir o = Some p -> stands_for o (B "BUILD_DIR") p
| sf_cwd : stands_for o (B "CURRENT_SOURCE_DIR") (o_cwd o).
Definition a_key (key : bytes) : Prop :=
  In key (map B ["INPUT"; "OUTPUT"; "OUTDIR"; "DEPFILE"; "PLAINNAME"; "BASENAME"; "PRIVATE_DIR"; "SOURCE_ROOT"; "BUILD_ROOT";
                 "BUILD_DIR"; "CURRENT_SOURCE_DIR"]%string)
  \/ exists k z, reads_as k z /\ (key = B "INPUT" ++ k \/ key = B "OUTPUT" ++ k).

(** a key is replaced by a word that leads to what it stands for; it is an error if it stands for nothing here; and
    what is not a key stays *)
Definition replaced (o : cmd_opts) (key : bytes) (r : cb_result) : Prop :=
  match r with
  | CbFound t => exists p, stands_for o key p /\ names (o_root o) t p
  | CbSkip => ~ a_key key
  | CbNotFound | CbError => a_key key /\ forall p, ~ stands_for o key p
  end.
(** in an output, only the names of the input are keys, and nothing else may be between two '@' *)
Definition out_replaced (ins : option (list bytes)) (key : bytes) (r : cb_result) : Prop :=
  match r with
  | CbFound t => input_name ins key t
  | CbSkip => False
  | CbNotFound | CbError => forall t, ~ input_name ins key t
  end.

(** ** arguments *)
Inductive string_words (o : cmd_opts) : bytes -> list bytes -> Prop :=
| sw_input ps ws : o_in o = Some ps -> Forall2 (names (o_root o)) ws ps -> string_words o (B "@INPUT@") ws
| sw_output ps ws : o_out o = Some ps -> Forall2 (names (o_root o)) ws ps -> string_words o (B "@OUTPUT@") ws
| sw_extra l : o_extra_valid o = true -> o_extra o = Some l -> string_words o (B "@EXTRA_ARGS@") l
| sw_no_extra : o_extra_valid o = true -> o_extra o = None -> string_words o (B "@EXTRA_ARGS@") []
| sw_text s m w : ~ (s = B "@INPUT@" /\ o_in o <> None) -> ~ (s = B "@OUTPUT@" /\ o_out o <> None) ->
    ~ (s = B "@EXTRA_ARGS@" /\ o_extra_valid o = true) ->
    (forall key, key <> [] -> replaced o key (m key)) -> format_spec m s = Some w -> string_words o s [w].
Inductive words (o : cmd_opts) : value -> list bytes -> Prop :=
| w_str s ws : string_words o s ws -> words o (VStr s) ws
| w_file p w : names (o_root o) w p -> words o (VFile p) [w]
| w_target dir n w : names (o_root o) w (dir ++ B "/" ++ n) -> words o (VTarget dir n) [w]
| w_prog c args w : names (o_root o) w c -> words o (VProg true (c :: args)) (w :: args)
| w_custom outs ws : Forall2 (names (o_root o)) ws outs -> words o (VCustom (Some outs)) ws
| w_compiler cmd wss : Forall2 (string_words o) cmd wss -> words o (VCompiler cmd) (concat wss).
(** the files an argument makes the target depend on; inputs are not among them *)
Inductive needs (o : cmd_opts) : value -> list bytes -> Prop :=
| n_str s : needs o (VStr s) []
| n_file p w : names (o_root o) w p -> needs o (VFile p) [w]
| n_target dir n w : names (o_root o) w (dir ++ B "/" ++ n) -> needs o (VTarget dir n) [w]
| n_prog c args w : names (o_root o) w c -> needs o (VProg true (c :: args)) [w]
| n_custom outs ws : Forall2 (names (o_root o)) ws outs -> needs o (VCustom (Some outs)) ws
| n_compiler cmd : needs o (VCompiler cmd) [].
(** arguments that run a file when they come first *)
Definition runs_a_file (v : value) : Prop :=
  match v with
  | VFile _ | VTarget _ _ | VCustom (Some (_ :: _)) => True
  | VProg true (c :: _) => is_abs c = true
  | _ => False
  end.

(** ** what is assumed *)
Definition abs_file (p : bytes) : Prop := is_abs p = true /\ comps p <> [].
Definition few {A} (l : list A) : Prop := (Z.of_nat (length l) < 2 ^ 63)%Z.
(** a name that is one component of a path *)
Definition one_name (n : bytes) : Prop := n <> [] /\ n <> B "." /\ ~ In "/"%char n.
Record ok_opts (o : cmd_opts) : Prop := {
  oo_root : is_abs (o_root o) = true;
  oo_source : is_abs (o_source o) = true;
  oo_out_dir : is_abs (o_out_dir o) = true;
  oo_cwd : is_abs (o_cwd o) = true;
  oo_name : forall n, o_name o = Some n -> one_name n;
  oo_in : forall l, o_in o = Some l -> Forall abs_file l /\ few l;
  oo_out : forall l, o_out o = Some l -> Forall (fun p => is_abs p = true) l /\ few l;
  oo_depfile : forall p, o_depfile o = Some p -> is_abs p = true;
  oo_gen : forall p, o_gen_dir o = Some p -> is_abs p = true }.
(** in a text, no '@' is left open when an escaped '@' comes (see C22) *)
Definition tidy (o : cmd_opts) (s : bytes) : Prop :=
  forall m, (forall key, key <> [] -> replaced o key (m key)) -> format_clean m s = true.
Definition ok_value (o : cmd_opts) (v : value) : Prop :=
  match v with
  | VStr s => tidy o s
  | VFile p => is_abs p = true
  | VTarget dir n => is_abs dir = true /\ n <> [] /\ is_abs n = false
  | VProg _ cmd => True
  | VCustom (Some outs) => Forall (fun p => is_abs p = true) outs
  | VCustom None => True
  | VCompiler cmd => Forall (tidy o) cmd
  | VOther => True
  end.
(** the name [n] given for an output (or depfile) is written as [n'] *)
Definition written (ins : option (list bytes)) (n n' : bytes) : Prop :=
  exists m, (forall key, key <> [] -> out_replaced ins key (m key)) /\ format_spec m n = Some n'.
Definition out_tidy (ins : option (list bytes)) (n : bytes) : Prop :=
  forall m, (forall key, key <> [] -> out_replaced ins key (m key)) -> format_clean m n = true.

(** ** whole targets *)
(** [p] is the file in [dir] that the output (or depfile) [n] stands for *)
Definition lies (dir : bytes) (ins : option (list bytes)) (n p : bytes) : Prop :=
  is_abs p = true /\ exists n', written ins n n' /\ comps p = comps dir ++ comps n'.
(** what the placeholders of the command refer to, once the outputs are known *)
Definition target_opts (m : make_opts) (outs : option (list bytes)) (dep : option bytes) : cmd_opts :=
  Opts (m_root m) (m_source m) (m_build_dir m) (m_cwd m) (m_name m) (m_in m) outs dep (m_gen_dir m) (m_extra_valid m) (m_extra m).
Record made (m : make_opts) (c : M_Backend.custom) : Prop := {
  md_name : M_Backend.c_name c = m_name m;
  md_in : M_Backend.c_in c = m_in m;
  md_no_out : m_out m = None -> M_Backend.c_out c = None;
  md_out : forall ns, m_out m = Some ns -> exists ps, M_Backend.c_out c = Some ps /\ ps <> [] /\ Forall2 (lies (m_dir m) (m_in m)) ns ps;
  md_no_depfile : m_depfile m = None -> M_Backend.c_depfile c = None;
  md_depfile : forall n, m_depfile m = Some n -> exists p, M_Backend.c_depfile c = Some p /\ lies (m_dir m) (m_in m) n p;
  md_args : M_Backend.c_args c <> [] /\ exists wss,
    Forall2 (words (target_opts m (M_Backend.c_out c) (M_Backend.c_depfile c))) (m_command m) wss /\ M_Backend.c_args c = concat wss;
  md_runs : match m_command m with v :: _ => runs_a_file v -> exists w r, M_Backend.c_args c = w :: r /\ In "/"%char w | [] => True end;
  md_capture : M_Backend.c_capture c = m_capture m;
  md_feed : M_Backend.c_feed c = m_feed m }.
(** the dependencies that come from the command *)
Definition needed (m : make_opts) (outs : option (list bytes)) (dep : option bytes) (ds : list bytes) : Prop :=
  exists dss, Forall2 (needs (target_opts m outs dep)) (m_command m) dss /\ ds = concat dss.
Record ok_make (m : make_opts) : Prop := {
  om_root : is_abs (m_root m) = true;
  om_source : is_abs (m_source m) = true;
  om_build_dir : is_abs (m_build_dir m) = true;
  om_cwd : is_abs (m_cwd m) = true;
  om_dir : is_abs (m_dir m) = true;
  om_at : ~ In "@"%char (m_dir m);
  om_name : forall n, m_name m = Some n -> one_name n;
  om_in : forall l, m_in m = Some l -> Forall abs_file l /\ few l;
  om_out : forall ns, m_out m = Some ns -> Forall (fun n => one_name n /\ out_tidy (m_in m) n) ns /\ few ns;
  om_depfile : forall n, m_depfile m = Some n -> one_name n /\ out_tidy (m_in m) n;
  om_gen : forall p, m_gen_dir m = Some p -> is_abs p = true;
  om_command : forall outs dep, Forall (ok_value (target_opts m outs dep)) (m_command m) }.
(** there is no such target: no outputs, an output or the depfile that stands for no name, or, whatever paths the outputs
    and the depfile are written as, a command that stands for no words *)
Inductive cannot_make (m : make_opts) : Prop :=
| cm_empty : m_out m = Some [] -> cannot_make m
| cm_output ns n : m_out m = Some ns -> In n ns -> (forall n', ~ written (m_in m) n n') -> cannot_make m
| cm_depfile n : m_depfile m = Some n -> (forall n', ~ written (m_in m) n n') -> cannot_make m
| cm_command outs dep :
    match m_out m with Some ns => exists ps, outs = Some ps /\ Forall2 (lies (m_dir m) (m_in m)) ns ps | None => outs = None end ->
    match m_depfile m with Some n => exists p, dep = Some p /\ lies (m_dir m) (m_in m) n p | None => dep = None end ->
    (forall wss, Forall2 (words (target_opts m outs dep)) (m_command m) wss -> concat wss = []) -> cannot_make m.
