(** What a user expects of the flags given to compilers and linkers.  Only the names of toolchains, of requests and of
    options are taken from the model. *)
From Verif Require Import Base M_Toolchain.

(** the requests that, once made, make [later] answer nothing: the defect that C114 is about *)
Definition gcc_like (t : ctype) : Prop := t = gcc \/ t = clang \/ t = apple_clang.
Definition posix_like (t : ctype) : Prop := t = posix \/ t = nasm \/ t = yasm.
Definition cl_like (t : ctype) : Prop := t = msvc \/ t = clang_cl.
Definition silences (earlier later : ask) : Prop :=
  (exists t l u, earlier = Optimization t Lnone /\ later = Optimization u l /\ gcc_like t /\ gcc_like u) \/
  (exists t k u l, earlier = Optimization t k /\ later = Optimization u l /\ posix_like t /\ posix_like u /\
                   (k = Lnone \/ k = Lg \/ k = Ls)) \/
  (exists t u w, earlier = Warning t W0 /\ later = Warning u w /\ cl_like t /\ cl_like u).

(** ** the spelling of the requests that carry a name: a word by itself, or a word made of a flag, the name and an end *)
Inductive piece := Word (w : bytes) | Joined (flag name rest : bytes).
Definition text (p : piece) : bytes := match p with Word w => w | Joined f n r => f ++ n ++ r end.
Definition spelling (a : ask) : list piece :=
  match a with
  | Compiler1s (gcc | clang | apple_clang) r s =>
      match r with
      | output => [Word (B "-o"); Word s]
      | set_std => [Joined (B "-std=") s []]
      | include => [Word (B "-I"); Word s]
      | include_system => [Word (B "-isystem"); Word s]
      | sanitize => [Joined (B "-fsanitize=") s []]
      | define => [Word (B "-D"); Word s]
      | specify_lang => [Word (B "-x"); Word s]
      | color_output => [Joined (B "-fdiagnostics-color=") s []]
      end
  | Compiler1s (posix | nasm | yasm) r s =>
      match r with
      | output => [Word (B "-o"); Word s]
      | include | include_system => [Word (B "-I"); Word s]
      | define => [Word (B "-D"); Word s]
      | _ => []
      end
  | Compiler1s clang_llvm_ir r s => match r with output => [Word (B "-o"); Word s] | _ => [] end
  | Compiler1s ((msvc | clang_cl) as t) r s =>
      match r with
      | output => [Joined (if beqb (M_Str.to_lower (skipn (length s - 4) s)) (B ".exe") then B "/Fe" else B "/Fo") s []]
      | set_std => [Joined (B "/std:") s []]
      | include => [Word (B "/I"); Word s]
      | sanitize => [Joined (B "-fsanitize=") s []]
      | define => [Word (B "/D"); Word s]
      | color_output => match t with clang_cl => [Word (B "-fcolor-diagnostics")] | _ => [] end
      | _ => []
      end
  | CompilerDeps (gcc | clang | apple_clang) s u => [Word (B "-MD"); Word (B "-MQ"); Word s; Word (B "-MF"); Word u]
  | CompilerDeps (msvc | clang_cl) s _ => [Word (B "/showIncludes"); Word (B "/MD"); Joined (B "/Fd") s (B ".pdb")]
  | Linker1s (l_gcc | l_clang) r s =>
      match r with
      | lib => [Word (B "-l"); Word s]
      | soname => [Joined (B "-Wl,-soname,") s []]
      | rpath => [Joined (B "-Wl,-rpath,") s []]
      | l_sanitize => [Joined (B "-fsanitize=") s []]
      end
  | Linker1s l_posix r s => match r with lib => [Word (B "-l"); Word s] | _ => [] end
  | Linker1s l_apple r s => match r with lib => [Word (B "-l"); Word s] | l_sanitize => [Joined (B "-fsanitize=") s []] | _ => [] end
  | Linker1s (l_msvc | l_lld_link) r s => match r with lib => [Word s] | soname => [Joined (B "/OUT:") s []] | _ => [] end
  | LinkerInputOutput (l_msvc | l_lld_link) i o | StaticInputOutput s_msvc i o => [Joined (B "/out:") o []; Word i]
  | LinkerInputOutput _ i o | StaticInputOutput _ i o => [Word o; Word i]
  | _ => []
  end.
(** the requests that the table is about *)
Definition names_something (a : ask) : Prop :=
  match a with
  | Compiler1s _ _ _ | CompilerDeps _ _ _ | Linker1s _ _ _ | LinkerInputOutput _ _ _ | StaticInputOutput _ _ _ => True
  | _ => False
  end.
(** the names that are joined to their flag fit in 254 bytes together with it *)
Definition fits (a : ask) : Prop := forall f n r, In (Joined f n r) (spelling a) -> length (f ++ n ++ r) <= 254.

(** ** the flags that options stand for *)
Definition level_flags (t : ctype) (l : level) : list bytes :=
  match t with
  | gcc | clang | apple_clang =>
      match l with
      | Lnone => [] | L0 => [B "-O0"] | L1 => [B "-O1"] | L2 => [B "-O2"] | L3 => [B "-O3"] | Lg => [B "-Og"] | Ls => [B "-Os"]
      end
  | posix | nasm | yasm =>
      match l with L0 => [B "-O0"] | L1 | L2 | L3 => [B "-O1"] | Lnone | Lg | Ls => [] end
  | msvc | clang_cl =>
      match l with
      | Lnone | Lg => [] | L0 => [B "/Od"] | L1 => [B "/O1"] | L2 => [B "/O2"] | L3 => [B "/O2"; B "/Gw"] | Ls => [B "/O1"; B "/Gw"]
      end
  | clang_llvm_ir => []
  end.
Definition debug_flags (t : ctype) : list bytes :=
  match t with clang_llvm_ir => [] | msvc | clang_cl => [B "/Zi"] | _ => [B "-g"] end.
(** what the options say about optimization and debug information *)
Definition level_named (s : bytes) : level :=
  if beqb s (B "0") then L0 else if beqb s (B "1") then L1 else if beqb s (B "2") then L2 else if beqb s (B "3") then L3
  else if beqb s (B "g") then Lg else if beqb s (B "s") then Ls else Lnone.
Definition wanted (o : options) : level * bool :=
  if beqb (o_buildtype o) (B "custom") || o_default o then (level_named (o_optimization o), o_debug o)
  else if beqb (o_buildtype o) (B "debug") then (L0, true)
  else if beqb (o_buildtype o) (B "debugoptimized") then (Lg, true)
  else if beqb (o_buildtype o) (B "release") then (L3, false)
  else if beqb (o_buildtype o) (B "minsize") then (Ls, false)
  else (Lnone, false).
Definition warning_flags (t : ctype) (s : bytes) : list bytes :=
  match t with
  | gcc | clang | apple_clang =>
      if beqb s (B "1") then [B "-Wall"] else if beqb s (B "2") then [B "-Wextra"; B "-Wall"]
      else if beqb s (B "3") then [B "-Wpedantic"; B "-Wextra"; B "-Wall"] else []
  | msvc | clang_cl =>
      if beqb s (B "1") then [B "/W2"] else if beqb s (B "2") then [B "/W3"] else if beqb s (B "3") then [B "/W4"] else []
  | _ => []
  end.
Definition when (b : bool) (l : list bytes) : list bytes := if b then l else [].
Definition is_gcc (t : ctype) : bool := match t with gcc | clang | apple_clang => true | _ => false end.
Definition is_cl (t : ctype) : bool := match t with msvc | clang_cl => true | _ => false end.
(** the flags, in their order; [everything] is the list for warning_level=everything, which is not spelled out here *)
Definition expected_flags (t : ctype) (o : options) (everything : list bytes) : list bytes :=
  when (is_cl t) [B "/nologo"] ++
  (match o_std o with
   | Some s => when (negb (beqb s (B "none"))) (when (is_gcc t) [B "-std=" ++ s] ++ when (is_cl t) [B "/std:" ++ s])
   | None => []
   end) ++
  when (snd (wanted o)) (debug_flags t) ++ level_flags t (fst (wanted o)) ++
  (if beqb (o_warning_level o) (B "everything") then everything else warning_flags t (o_warning_level o)) ++
  when (o_werror o) (when (is_gcc t) [B "-Werror"] ++ when (is_cl t) [B "/WX"]) ++
  when (beqb (o_pgo o) (B "generate") && is_gcc t) [B "-fprofile-generate"] ++
  when (beqb (o_pgo o) (B "use") && is_gcc t) [B "-fprofile-use"; B "-fprofile-correction"] ++
  when (negb (beqb (o_sanitize o) (B "none")) && (is_gcc t || is_cl t)) [B "-fsanitize=" ++ o_sanitize o] ++
  when (beqb (o_ndebug o) (B "true") || (beqb (o_ndebug o) (B "if-release") && beqb (o_buildtype o) (B "release")))
    (when (negb (is_cl t)) (match t with clang_llvm_ir => [] | _ => [B "-D"; B "NDEBUG"] end) ++ when (is_cl t) [B "/D"; B "NDEBUG"]) ++
  when (negb (beqb (o_colorout o) (B "never")))
    (when (is_gcc t) [B "-fdiagnostics-color=" ++ o_colorout o] ++ match t with clang_cl => [B "-fcolor-diagnostics"] | _ => [] end) ++
  when (o_lto o) (match t with gcc | clang | apple_clang | clang_cl => [B "-flto"] | _ => [] end) ++
  o_args o.
(** the values that the options can have: the choices of src/script/global_options.meson and per_project_options.meson;
    the names that are copied fit in 254 bytes together with their flag *)
Definition sensible (o : options) : Prop :=
  In (o_buildtype o) [B "plain"; B "debug"; B "debugoptimized"; B "release"; B "minsize"; B "custom"] /\
  In (o_optimization o) [B "0"; B "g"; B "1"; B "2"; B "3"; B "s"] /\
  In (o_warning_level o) [B "0"; B "1"; B "2"; B "3"; B "everything"] /\
  In (o_pgo o) [B "off"; B "generate"; B "use"] /\
  (forall s, o_std o = Some s -> length s <= 249) /\ length (o_sanitize o) <= 243 /\ length (o_colorout o) <= 234.
(** the flags of one target after another *)
Fixpoint each_target (l : list (ctype * options * list bytes)) (g : statics) : list (outcome (list bytes)) :=
  match l with
  | [] => []
  | (t, o, more) :: l =>
      match base_args t o more g with
      | Done (ws, g) => Done ws :: each_target l g
      | Refused => [Refused]
      | Aborts => [Aborts]
      end
  end.
