(** What the build file should say about build targets: the languages of files, the names of objects, the words of the
    commands, and which targets can be written.  Paths are in S_Path, names and words that can be written in
    S_Backend. *)
From Verif Require Import Base S_Path S_Escape M_Toolchain M_Backend S_Backend M_Compile.

(** ** Languages *)
(** the endings of files' names *)
Definition endings : list (bytes * lang) :=
  [(B ".c", LC); (B ".cc", LCpp); (B ".cpp", LCpp); (B ".cxx", LCpp); (B ".C", LCpp); (B ".m", LObjc); (B ".mm", LObjc); (B ".M", LObjc);
   (B ".S", LAsm); (B ".ll", LLlvm); (B ".asm", LNasm); (B ".h", LCHdr); (B ".hh", LCppHdr); (B ".hpp", LCppHdr); (B ".hxx", LCppHdr);
   (B ".o", LObj); (B ".obj", LObj)].
Definition in_language (p : bytes) (l : lang) : Prop := exists m e, In (e, l) endings /\ p = m ++ e.
Definition compiled_language (l : lang) : Prop := In l [LC; LCpp; LObjc; LAsm; LLlvm; LNasm].

(** ** The sources of a target *)
(** a library's name *)
Definition library (p : bytes) : Prop := exists m e, In e [B ".a"; B ".so"; B ".dylib"; B ".dll"; B ".lib"] /\ p = m ++ e.
(** the elements of a list that satisfy a condition, in order *)
Inductive selected {A} (P : A -> Prop) : list A -> list A -> Prop :=
| sel_nil : selected P [] []
| sel_yes x l r : P x -> selected P l r -> selected P (x :: l) (x :: r)
| sel_no x l r : ~ P x -> selected P l r -> selected P (x :: l) r.
Definition an_object (p : bytes) : Prop := ~ library p /\ in_language p LObj.
Definition a_source (p : bytes) : Prop := ~ library p /\ exists l, compiled_language l /\ in_language p l.
(** a header, or a file in no language that muon knows, that is made by the build *)
Definition a_generated (root p : bytes) : Prop :=
  ~ library p /\ (forall l, in_language p l -> In l [LCHdr; LCppHdr]) /\ exists l, comps p = comps root ++ l.
(** a file of which an object is named: the object's name is the file's with an ending *)
Definition made_from (o : bytes) (l : lang) : Prop :=
  exists dirs stem e, comps o = dirs ++ [stem ++ "."%char :: e] /\ ~ In "."%char e /\ in_language stem l.
(** an object with an ending *)
Definition has_ending (o : bytes) : Prop := exists dirs n, comps o = dirs ++ [n] /\ In "."%char n.

(** ** Objects *)
(** what is left of a path below a directory *)
Fixpoint below (dir p : list bytes) : option (list bytes) :=
  match dir, p with
  | [], _ => Some p
  | x :: dir, y :: p => if beqb x y then below dir p else None
  | _ :: _, [] => None
  end.
Fixpoint first_below (dirs : list (list bytes)) (p : list bytes) : option (list bytes) :=
  match dirs with
  | [] => None
  | d :: dirs => match below d p with Some r => Some r | None => first_below dirs p end
  end.
(** the directories a source is seen from: the first that contains it counts *)
Definition seen_from (w : wk) (t : btarget) : list bytes := [b_private t; b_dir t; b_cwd t; wk_source_root w].
Definition within (w : wk) (t : btarget) (src : bytes) : list bytes :=
  match first_below (map comps (seen_from w t)) (comps src) with
  | Some r => r
  | None => [map (fun c => if ceqb c "/" then "_"%char else c) (render true (comps src))]
  end.
(** The object of a source is in the private directory of its target. *)
Definition object_file (w : wk) (t : btarget) (src : bytes) : bytes := render true (comps (b_private t) ++ within w t src) ++ B ".o".
(** the name under which a target's order-only dependencies are collected *)
Definition order_file (t : btarget) : bytes := render true (comps (b_path t)) ++ B "-order_deps".

(** ** What can be written *)
Definition clean (p : bytes) : Prop := ~ In (B "..") (comps p).
Definition strictly_below (dir p : bytes) : Prop := exists x l, comps p = comps dir ++ x :: l.
(** What is needed of a target and a source for the name of the object *)
Record placed (w : wk) (t : btarget) (src : bytes) : Prop := {
  pl_root : is_abs (wk_build_root w) = true /\ comps (wk_build_root w) <> [];
  pl_private : writable_chars (b_private t) /\ strictly_below (wk_build_root w) (b_private t);
  pl_dirs : Forall (fun d => is_abs d = true /\ clean d /\ comps d <> []) (seen_from w t);
  pl_src : is_abs src = true /\ clean src /\ writable_chars src;
  pl_not_dir : ~ In (comps src) (map comps (seen_from w t)) }.
(** a word of a command that is written as it is *)
Definition bare_word (s : bytes) : Prop := line_chars s /\ sh_plain s = true.
(** a compiler that takes the options of cc, or an assembler that takes some of them *)
Definition unix_like (t : ctype) : Prop := In t [posix; gcc; clang; apple_clang; clang_llvm_ir; nasm; yasm].
Record ok_comp (k : comp) : Prop := {
  ok_cmd : k_cmd k <> [] /\ Forall bare_word (k_cmd k);
  ok_ctype : unix_like (k_type k);
  ok_static : k_static k <> s_msvc /\ Forall bare_word (k_static_cmd k) }.
Record ok_source (w : wk) (t : btarget) (src : bytes) : Prop := {
  os_file : a_file src /\ clean src;
  os_lang : exists l, in_language src l /\ compiled_language l /\ In l (map fst (b_count t));
  os_depth : length (comps (b_private t)) + length (comps src) <= 58;
  os_not_dir : ~ In (comps src) (map comps (seen_from w t)) }.
Record ok_btarget (w : wk) (comps' : list (lang * comp)) (t : btarget) : Prop := {
  ob_path : a_file (b_path t) /\ clean (b_path t) /\ strictly_below (wk_build_root w) (b_path t);
  ob_private : writable_chars (b_private t) /\ strictly_below (wk_build_root w) (b_private t);
  ob_dirs : Forall (fun d => is_abs d = true /\ clean d /\ comps d <> []) (wk_build_root w :: seen_from w t);
  ob_src : Forall (ok_source w t) (b_src t);
  ob_langs : NoDup (map fst (b_count t)) /\ forall l, In l (b_lang t :: map fst (b_count t)) -> In l (map fst comps');
  ob_objects : Forall a_file (b_objects t);
  ob_order : Forall a_label (b_order t);
  ob_link : Forall a_file (b_with t ++ b_whole t) /\ Forall ok_item (b_depends t);
  ob_flags : forall l, Forall a_word (b_flags t l);
  ob_link_flags : Forall a_word (b_link_flags t);
  (** a target whose name ends like that of a linker's rule can take that name *)
  ob_name : forall m c, b_name t = m ++ c :: B "linker" -> is_alnum c = true }.

(** the targets of all usable projects with their projects *)
Definition ctargets (c : cwk) : list (cproj * ctarget) :=
  concat (map (fun p => map (pair p) (cp_targets p)) (filter cp_ok (cw_projects c))).
Definition ok_ctarget (c : cwk) (x : cproj * ctarget) : Prop :=
  match snd x with COther t => ok_target (cp_sub (fst x), t) | CBuild t => ok_btarget (cw_base c) (cp_comps (fst x)) t end.
Definition cproduces (c : cwk) (x : cproj * ctarget) : list bytes :=
  match snd x with
  | COther t => produces (cp_sub (fst x), t)
  | CBuild t => order_file t :: map (object_file (cw_base c) t) (b_src t) ++ [b_path t]
  end.
Definition cstale (c : cwk) : Prop := exists p k, In (p, COther (TCustom k)) (ctargets c) /\ c_stale k = true.
Record ok_cworkspace (c : cwk) : Prop := {
  oc_base : ok_workspace (cw_base c);
  oc_argv0 : bare_word (wk_argv0 (cw_base c));
  oc_comps : forall p, In p (cw_projects c) -> NoDup (map fst (cp_comps p)) /\ Forall (fun x => ok_comp (snd x)) (cp_comps p);
  oc_static : forall p t, In (p, CBuild t) (ctargets c) -> b_type t = StaticLib -> exists l, In l [LC; LCpp; LObjc; LNasm] /\ In l (map fst (cp_comps p));
  oc_targets : Forall (ok_ctarget c) (ctargets c);
  oc_once : NoDup (map (place (wk_build_root (cw_base c))) (reserved ++ concat (map (cproduces c) (ctargets c)))) }.

(** ** Commands *)
Definition compile_words (t : ctype) (flags : list bytes) (obj src : bytes) : list bytes :=
  flags
  ++ (if match t with gcc | clang | apple_clang => true | _ => false end then [B "-MD"; B "-MQ"; obj; B "-MF"; obj ++ B ".d"] else [])
  ++ [B "-o"; obj]
  ++ (if match t with nasm | yasm => true | _ => false end then [] else [B "-c"])
  ++ [src].
Definition link_words (flags : list bytes) (target : bytes) (objects : list bytes) : list bytes := [B "-o"; target] ++ objects ++ flags.
Definition archive_words (t : stype) (target : bytes) (objects : list bytes) : list bytes :=
  (match t with ar_gcc => B "csrD" | _ => B "csr" end) :: target :: objects.
(** the compiler whose archiver makes the static libraries of a project *)
Definition archiver (comps' : list (lang * comp)) (k : comp) : Prop :=
  exists before l, In (l, k) comps' /\ (exists after, [LC; LCpp; LObjc; LNasm] = before ++ l :: after) /\ forall g, In g before -> ~ In g (map fst comps').
