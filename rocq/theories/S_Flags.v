(** What the command lines of compilers and linkers should have beside the flags of options (S_Toolchain). *)
From Verif Require Import Base S_Path S_Backend M_Compile M_Toolchain S_Toolchain M_Link M_Flags.

(** each element once, at its first place *)
Section Once.
Context {A : Type} (dec : forall x y : A, {x = y} + {x <> y}).
Fixpoint once (l : list A) : list A := match l with [] => [] | x :: l => x :: remove dec x (once l) end.
End Once.
Definition bytes_dec : forall x y : bytes, {x = y} + {x <> y} := list_eq_dec Ascii.ascii_dec.
Definition inc_dec : forall x y : inc, {x = y} + {x <> y}.
Proof. decide equality; try apply bytes_dec. decide equality. Defined.

(** ** Compilers *)
(** the words that name a directory [n]; with compilers that know no system directories these are ordinary ones *)
Definition include_words (t : ctype) (system : bool) (n : bytes) : list bytes :=
  if is_cl t then [B "/I"; n] else if is_gcc t && system then [B "-isystem"; n] else [B "-I"; n].
(** the words for directories, in order, by names that lead to them from [root] *)
Inductive included (root : bytes) (t : ctype) : list inc -> list bytes -> Prop :=
| no_dirs : included root t [] []
| a_dir i l n ws : place root n = location (inc_path i) -> included root t l ws ->
    included root t (i :: l) (include_words t (inc_system i) n ++ ws).
(** the directories of a target: a private one, its own, then those of the project *)
Definition dirs (k : cflags) : list inc :=
  (match k_private k with Some p => [IncStr p] | None => [] end) ++ k_incs k ++ k_project k.
Definition visibility_words (v : vis) : list bytes :=
  match v with
  | Vdefault => [B "-fvisibility=default"] | Vhidden => [B "-fvisibility=hidden"] | Vinternal => [B "-fvisibility=internal"]
  | Vprotected => [B "-fvisibility=protected"] | Vinlineshidden => [B "-fvisibility=hidden"; B "-fvisibility-inlines-hidden"]
  end.
Definition last_words (t : ctype) (k : cflags) : list bytes :=
  when (is_gcc t) (when (k_pic k) [B "-fpic"] ++ when (k_pie k) [B "-fpie"] ++ match k_visibility k with Some v => visibility_words v | None => [] end).

(** ** include_directories() *)
(** [a] is the path that [p] stands for in the directory [cwd] *)
Definition absolute (cwd p a : bytes) : Prop :=
  if is_abs p then a = p else is_abs a = true /\ comps a = comps cwd ++ comps p.
(** a path means that directory, after the one at the same place in the build directory if it is in the source directory *)
Inductive meant (source build cwd : bytes) (exists_dir : bytes -> bool) (system : bool) : bytes + inc -> list inc -> Prop :=
| m_object i : meant source build cwd exists_dir system (inr i) [i]
| m_outside p a : absolute cwd p a -> exists_dir a = true -> ~ prefix_of (comps source) (location a) ->
    meant source build cwd exists_dir system (inl p) [IncDir a system]
| m_inside p a l q : absolute cwd p a -> exists_dir a = true -> location a = comps source ++ l -> is_abs q = true -> location q = comps build ++ l ->
    meant source build cwd exists_dir system (inl p) [IncDir q system; IncDir a system].
Definition all_meant source build cwd exists_dir system (l : list (bytes + inc)) (r : list inc) : Prop :=
  exists ls, Forall2 (meant source build cwd exists_dir system) l ls /\ r = concat ls.

(** ** Linkers *)
(** names that lead to files, each once *)
Definition named (root : bytes) (files names : list bytes) : Prop :=
  exists all, Forall2 (fun p n => place root n = location p) files all /\ names = once bytes_dec all.
Definition gnu (t : ltype) : bool := match t with l_gcc | l_clang => true | _ => false end.
Definition microsoft (t : ltype) : bool := match t with l_msvc | l_lld_link => true | _ => false end.
Definition apple (t : ltype) : bool := match t with l_apple => true | _ => false end.
Definition lib_words (t : ltype) (n : bytes) : list bytes := if microsoft t then [n] else [B "-l"; n].
(** the libraries: in a group, those that are linked whole first *)
Definition library_words (t : ltype) (whole libs missing : list bytes) : list bytes :=
  match whole, libs, missing with
  | [], [], [] => []
  | _, _, _ =>
      when (gnu t) [B "-Wl,--start-group"] ++
      match whole with
      | [] => []
      | _ => when (gnu t) [B "-Wl,--whole-archive"] ++ match t with l_lld_link => [B "/whole-archive"] | _ => [] end ++ whole ++
             when (gnu t) [B "-Wl,--no-whole-archive"]
      end ++ libs ++ concat (map (lib_words t) missing) ++ when (gnu t) [B "-Wl,--end-group"]
  end.
Definition is_module (w : lflags) : bool := match w_type w with SharedModule => true | _ => false end.
Definition is_shared (w : lflags) : bool := match w_type w with SharedModule | SharedLib => true | _ => false end.
Definition expected_link (t : ltype) (w : lflags) (whole libs missing : list bytes) : list bytes :=
  d_link (w_pass w) ++
  when (gnu t) ([B "-Wl,--as-needed"] ++ when (negb (is_module w)) [B "-Wl,--no-undefined"] ++ when (w_export w) [B "-Wl,-export-dynamic"] ++
    when (beqb (o_pgo (w_options w)) (B "generate")) [B "-fprofile-generate"] ++
    when (beqb (o_pgo (w_options w)) (B "use")) [B "-fprofile-use"; B "-fprofile-correction"]) ++
  when (gnu t || apple t) (
    when (negb (beqb (o_sanitize (w_options w)) (B "none"))) [B "-fsanitize=" ++ o_sanitize (w_options w)] ++
    when (o_lto (w_options w)) [B "-flto"]) ++
  w_option_args w ++ w_global w ++ w_project w ++
  when (gnu t) (map (fun d => B "-Wl,-rpath," ++ d) (filter (fun d => negb (beqb d [])) (d_rpath (w_pass w)))) ++
  library_words t whole libs missing ++
  when (is_shared w) (
    (if microsoft t then [B "/DYNAMICBASE"; B "/OUT:" ++ w_soname w] else [B "-shared"] ++ when (gnu t) [B "-Wl,-soname," ++ w_soname w]) ++
    when (is_module w && gnu t) [B "-Wl,--allow-shlib-undefined"]).
(** the values that options and names can have *)
Record linkable (root : bytes) (w : lflags) : Prop := {
  li_root : is_abs root = true;
  li_files : Forall (fun p => is_abs p = true) (d_with (w_pass w) ++ d_whole (w_pass w));
  li_pgo : In (o_pgo (w_options w)) [B "off"; B "generate"; B "use"];
  li_sanitize : length (o_sanitize (w_options w)) <= 243;
  li_rpath : Forall (fun d => length d <= 243) (d_rpath (w_pass w));
  li_soname : length (w_soname w) <= 242 }.
