(** Model of the tables of compiler and linker arguments (src/compilers.c 596-1585) and of the flags that a target's
    options stand for (src/backend/common_args.c 29-195, 248-345).  Detection of the toolchain is not modelled.  The
    macro COMPILER_ARGS (596-601) makes the array of words and its length static, so that every function keeps them
    from call to call: this state is modelled. *)
From Verif Require Import Base M_Str.

(** a word of an argument array: a null pointer, a string, or a pointer to the function's static buffer *)
Inductive slot := Null | Lit (s : bytes) | Buf.
(** the static variables of a function: argv, args.len and buf *)
Record static := Static { s_argv : list slot; s_len : nat; s_buf : bytes }.
Definition lits (l : list bytes) : static := Static (map Lit l) (length l) [].
(** a function that formats its argument into its buffer, which is the word [n] of [k] *)
Definition buffered (before : list bytes) (after : list slot) : static :=
  Static (map Lit before ++ [Buf] ++ after) (S (length before + length after)) [].
Fixpoint set_slot (l : list slot) (n : nat) (s : slot) : list slot :=
  match l, n with
  | [], _ => []
  | _ :: l, O => s :: l
  | x :: l, S n => x :: set_slot l n s
  end.
Definition put (n : nat) (s : bytes) (st : static) : static := Static (set_slot (s_argv st) n (Lit s)) (s_len st) (s_buf st).
Definition len (n : nat) (st : static) : static := Static (s_argv st) n (s_buf st).
(** snprintf into a buffer of BUF_SIZE_S (255) bytes *)
Definition print (s : bytes) (st : static) : static := Static (s_argv st) (s_len st) (firstn 254 s).

(** the functions, by the type of their arguments *)
Inductive fn0 :=
| posix_compile_only | posix_preprocess_only | posix_debug | gcc_preprocess_only | gcc_werror | gcc_warn_everything
| clang_warn_everything | gcc_pic | gcc_pie | gcc_lto | cl_always | cl_compile_only | cl_preprocess_only | cl_debug
| cl_warn_everything | cl_werror | clang_cl_lto | empty_0
| posix_shared | gcc_as_needed | gcc_no_undefined | gcc_start_group | gcc_end_group | gcc_allow_shlib_undefined
| gcc_export_dynamic | gcc_fatal_warnings | gcc_whole_archive | gcc_no_whole_archive | link_shared | lld_link_whole_archive
| ar_posix_base | ar_gcc_base.
Inductive fn1i := posix_optimization | gcc_optimization | gcc_warning_lvl | gcc_pgo | gcc_visibility | cl_optimization | cl_warning_lvl | empty_1i.
Inductive fn1s :=
| posix_output | posix_include | posix_define | gcc_include_system | gcc_set_std | gcc_sanitize | gcc_specify_lang | gcc_color_output
| cl_output | cl_set_std | cl_include | cl_sanitize | cl_define | clang_cl_color_output | empty_1s
| posix_lib | gcc_soname | gcc_rpath | link_lib | link_soname.
Inductive fn2s := gcc_deps | cl_deps | empty_2s | posix_input_output | msvc_input_output.

(** include/compilers.h 68-97: the enumerations of the functions that take a number.  (The callers pass no other
    number.) *)
Inductive level := Lnone | L0 | L1 | L2 | L3 | Lg | Ls.
Inductive warning := W0 | W1 | W2 | W3 | Weverything.
Inductive stage := Generate | Use.
Inductive vis := Vdefault | Vhidden | Vinternal | Vprotected | Vinlineshidden.
Definition lvl_none : N := 0. Definition lvl_0 : N := 1. Definition lvl_1 : N := 2. Definition lvl_2 : N := 3.
Definition lvl_3 : N := 4. Definition lvl_g : N := 5. Definition lvl_s : N := 6.
Definition pgo_generate : N := 0. Definition pgo_use : N := 1.
Definition vis_default : N := 0. Definition vis_hidden : N := 1. Definition vis_internal : N := 2.
Definition vis_protected : N := 3. Definition vis_inlineshidden : N := 4.

Definition level_code (l : level) : N :=
  match l with Lnone => lvl_none | L0 => lvl_0 | L1 => lvl_1 | L2 => lvl_2 | L3 => lvl_3 | Lg => lvl_g | Ls => lvl_s end.
Definition warning_code (w : warning) : N := match w with W0 => 0 | W1 => 1 | W2 => 2 | W3 => 3 | Weverything => 4 end.
Definition stage_code (p : stage) : N := match p with Generate => pgo_generate | Use => pgo_use end.
Definition vis_code (v : vis) : N :=
  match v with
  | Vdefault => vis_default | Vhidden => vis_hidden | Vinternal => vis_internal | Vprotected => vis_protected
  | Vinlineshidden => vis_inlineshidden
  end.

(** ** functions without arguments: compilers.c 606-620, 656-662, 686-692, 777-826, 860-871, 937-943, 949-955, 968-982,
    1035-1041, 1071-1083, 1134-1150, 1336-1369, 1393-1427, 1438-1443, 1456-1461, 1548-1560 *)
Definition init0 (f : fn0) : static :=
  match f with
  | posix_compile_only => lits [B "-c"]
  | posix_preprocess_only => lits [B "-E"]
  | posix_debug => lits [B "-g"]
  | gcc_preprocess_only => lits [B "-E"; B "-P"]
  | gcc_werror => lits [B "-Werror"]
  | gcc_warn_everything => lits [
    B "-Wall"; B "-Winvalid-pch"; B "-Wextra"; B "-Wpedantic"; B "-Wcast-qual"; B "-Wconversion"; B "-Wfloat-equal";
    B "-Wformat=2"; B "-Winline"; B "-Wmissing-declarations"; B "-Wredundant-decls"; B "-Wshadow"; B "-Wundef";
    B "-Wuninitialized"; B "-Wwrite-strings"; B "-Wdisabled-optimization"; B "-Wpacked"; B "-Wpadded";
    B "-Wmultichar"; B "-Wswitch-default"; B "-Wswitch-enum"; B "-Wunused-macros"; B "-Wmissing-include-dirs";
    B "-Wunsafe-loop-optimizations"; B "-Wstack-protector"; B "-Wstrict-overflow=5"; B "-Warray-bounds=2";
    B "-Wlogical-op"; B "-Wstrict-aliasing=3"; B "-Wvla"; B "-Wdouble-promotion"; B "-Wsuggest-attribute=const";
    B "-Wsuggest-attribute=noreturn"; B "-Wsuggest-attribute=pure"; B "-Wtrampolines";
    B "-Wvector-operation-performance"; B "-Wsuggest-attribute=format"; B "-Wdate-time"; B "-Wformat-signedness";
    B "-Wnormalized=nfc"; B "-Wduplicated-cond"; B "-Wnull-dereference"; B "-Wshift-negative-value";
    B "-Wshift-overflow=2"; B "-Wunused-const-variable=2"; B "-Walloca"; B "-Walloc-zero"; B "-Wformat-overflow=2";
    B "-Wformat-truncation=2"; B "-Wstringop-overflow=3"; B "-Wduplicated-branches"; B "-Wattribute-alias=2";
    B "-Wcast-align=strict"; B "-Wsuggest-attribute=cold"; B "-Wsuggest-attribute=malloc"; B "-Wanalyzer-too-complex";
    B "-Warith-conversion"; B "-Wbidi-chars=ucn"; B "-Wopenacc-parallelism"; B "-Wtrivial-auto-var-init";
    B "-Wbad-function-cast"; B "-Wmissing-prototypes"; B "-Wnested-externs"; B "-Wstrict-prototypes";
    B "-Wold-style-definition"; B "-Winit-self"; B "-Wc++-compat"; B "-Wunsuffixed-float-constants"]
  | clang_warn_everything => lits [B "-Weverything"]
  | gcc_pic => lits [B "-fpic"]
  | gcc_pie => lits [B "-fpie"]
  | gcc_lto => lits [B "-flto"]
  | cl_always => lits [B "/nologo"]
  | cl_compile_only => lits [B "/c"]
  | cl_preprocess_only => lits [B "/EP"]
  | cl_debug => lits [B "/Zi"]
  | cl_warn_everything => lits [B "/Wall"]
  | cl_werror => lits [B "/WX"]
  | clang_cl_lto => lits [B "-flto"]
  | empty_0 => Static [Null] 1 []
  | posix_shared => lits [B "-shared"]
  | gcc_as_needed => lits [B "-Wl,--as-needed"]
  | gcc_no_undefined => lits [B "-Wl,--no-undefined"]
  | gcc_start_group => lits [B "-Wl,--start-group"]
  | gcc_end_group => lits [B "-Wl,--end-group"]
  | gcc_allow_shlib_undefined => lits [B "-Wl,--allow-shlib-undefined"]
  | gcc_export_dynamic => lits [B "-Wl,-export-dynamic"]
  | gcc_fatal_warnings => lits [B "-Wl,--fatal-warnings"]
  | gcc_whole_archive => lits [B "-Wl,--whole-archive"]
  | gcc_no_whole_archive => lits [B "-Wl,--no-whole-archive"]
  | link_shared => lits [B "/DYNAMICBASE"]
  | lld_link_whole_archive => lits [B "/whole-archive"]
  | ar_posix_base => lits [B "csr"]
  | ar_gcc_base => lits [B "csrD"]
  end.
Definition body0 (f : fn0) (st : static) : static := match f with empty_0 => len 0 st | _ => st end.

(** ** functions of a number; [None] is a failed assertion *)
Definition init1i (f : fn1i) : static :=
  match f with
  | posix_optimization | gcc_optimization | cl_warning_lvl | empty_1i => Static [Null] 1 []
  | gcc_warning_lvl => Static [Null; Null; Null] 3 []
  | gcc_pgo | gcc_visibility | cl_optimization => Static [Null; Null] 2 []
  end.
(** compilers.c 748-775: argv[args.len] is set and args.len counted up *)
Definition append_word (s : bytes) (st : static) : static := len (S (s_len st)) (put (s_len st) s st).
Definition body1i (f : fn1i) (n : N) (st : static) : option static :=
  match f with
  (** 632-654 *)
  | posix_optimization =>
      Some (if (n =? lvl_0)%N then put 0 (B "-O0") st
            else if ((n =? lvl_1) || (n =? lvl_2) || (n =? lvl_3))%N then put 0 (B "-O1") st
            else if ((n =? lvl_none) || (n =? lvl_g) || (n =? lvl_s))%N then len 0 st
            else st)
  (** 715-745 *)
  | gcc_optimization =>
      Some (if (n =? lvl_none)%N then len 0 st
            else if (n =? lvl_0)%N then put 0 (B "-O0") st
            else if (n =? lvl_1)%N then put 0 (B "-O1") st
            else if (n =? lvl_2)%N then put 0 (B "-O2") st
            else if (n =? lvl_3)%N then put 0 (B "-O3") st
            else if (n =? lvl_g)%N then put 0 (B "-Og") st
            else if (n =? lvl_s)%N then put 0 (B "-Os") st
            else st)
  (** 747-775 *)
  | gcc_warning_lvl =>
      let st := len 0 st in
      if (n =? 4)%N then None
      else let st := if (n =? 3)%N then append_word (B "-Wpedantic") st else st in
           let st := if ((n =? 3) || (n =? 2))%N then append_word (B "-Wextra") st else st in
           Some (if ((n =? 3) || (n =? 2) || (n =? 1))%N then append_word (B "-Wall") st else st)
  (** 839-858 *)
  | gcc_pgo =>
      let st := len 1 st in
      Some (if (n =? pgo_generate)%N then put 0 (B "-fprofile-generate") st
            else if (n =? pgo_use)%N then put 0 (B "-fprofile-use") (len 2 (put 1 (B "-fprofile-correction") st))
            else st)
  (** 885-914 *)
  | gcc_visibility =>
      let st := len 1 st in
      if (n =? vis_default)%N then Some (put 0 (B "-fvisibility=default") st)
      else if (n =? vis_internal)%N then Some (put 0 (B "-fvisibility=internal") st)
      else if (n =? vis_protected)%N then Some (put 0 (B "-fvisibility=protected") st)
      else if (n =? vis_inlineshidden)%N then
        Some (put 0 (B "-fvisibility=hidden") (len 2 (put 1 (B "-fvisibility-inlines-hidden") st)))
      else if (n =? vis_hidden)%N then Some (put 0 (B "-fvisibility=hidden") st)
      else None
  (** 999-1033 *)
  | cl_optimization =>
      Some (if ((n =? lvl_none) || (n =? lvl_g))%N then len 0 st
            else if (n =? lvl_0)%N then put 0 (B "/Od") (len 1 st)
            else if (n =? lvl_1)%N then put 0 (B "/O1") (len 1 st)
            else if (n =? lvl_2)%N then put 0 (B "/O2") (len 1 st)
            else if (n =? lvl_3)%N then put 1 (B "/Gw") (put 0 (B "/O2") (len 2 st))
            else if (n =? lvl_s)%N then put 1 (B "/Gw") (put 0 (B "/O1") (len 2 st))
            else st)
  (** 1043-1069 *)
  | cl_warning_lvl =>
      Some (if (n =? 0)%N then len 0 st
            else if (n =? 1)%N then put 0 (B "/W2") st
            else if (n =? 2)%N then put 0 (B "/W3") st
            else if ((n =? 4) || (n =? 3))%N then put 0 (B "/W4") st
            else st)
  (** 1152-1158 *)
  | empty_1i => Some (len 0 st)
  end.

(** ** functions of a string: compilers.c 622-630, 664-682, 694-702, 828-837, 874-883, 916-935, 984-997, 1085-1132,
    1160-1166, 1314-1321, 1371-1391, 1430-1437, 1445-1454 *)
Definition init1s (f : fn1s) : static :=
  match f with
  | posix_output => Static [Lit (B "-o"); Null] 2 []
  | posix_include => Static [Lit (B "-I"); Null] 2 []
  | posix_define => Static [Lit (B "-D"); Null] 2 []
  | gcc_include_system => Static [Lit (B "-isystem"); Null] 2 []
  | gcc_specify_lang => Static [Lit (B "-x"); Null] 2 []
  | cl_include => Static [Lit (B "/I"); Null] 2 []
  | cl_define => Static [Lit (B "/D"); Null] 2 []
  | posix_lib => Static [Lit (B "-l"); Null] 2 []
  | link_lib | empty_1s => Static [Null] 1 []
  | clang_cl_color_output => lits [B "-fcolor-diagnostics"]
  | gcc_set_std | gcc_sanitize | gcc_color_output | cl_output | cl_set_std | cl_sanitize | gcc_soname | gcc_rpath | link_soname =>
      buffered [] []
  end.
Definition body1s (f : fn1s) (s : bytes) (st : static) : static :=
  match f with
  | posix_output | posix_include | posix_define | gcc_include_system | gcc_specify_lang | cl_include | cl_define | posix_lib => put 1 s st
  | link_lib => put 0 s st
  | empty_1s => len 0 st
  | clang_cl_color_output => st
  | gcc_set_std => print (B "-std=" ++ s) st
  | gcc_sanitize | cl_sanitize => print (B "-fsanitize=" ++ s) st
  | gcc_color_output => print (B "-fdiagnostics-color=" ++ s) st
  | cl_output => if str_endswithi s (B ".exe") then print (B "/Fe" ++ s) st else print (B "/Fo" ++ s) st
  | cl_set_std => print (B "/std:" ++ s) st
  | gcc_soname => print (B "-Wl,-soname," ++ s) st
  | gcc_rpath => print (B "-Wl,-rpath," ++ s) st
  | link_soname => print (B "/OUT:" ++ s) st
  end.
(** ** functions of two strings: compilers.c 704-713, 957-966, 1168-1174, 1324-1331, 1463-1474 *)
Definition init2s (f : fn2s) : static :=
  match f with
  | gcc_deps => Static [Lit (B "-MD"); Lit (B "-MQ"); Null; Lit (B "-MF"); Null] 5 []
  | cl_deps => buffered [B "/showIncludes"; B "/MD"] []
  | empty_2s => Static [Null] 1 []
  | posix_input_output => Static [Null; Null] 2 []
  | msvc_input_output => buffered [] [Null]
  end.
Definition body2s (f : fn2s) (s t : bytes) (st : static) : static :=
  match f with
  | gcc_deps => put 4 t (put 2 s st)
  | cl_deps => print (B "/Fd" ++ s ++ B ".pdb") st
  | empty_2s => len 0 st
  | posix_input_output => put 1 s (put 0 t st)
  | msvc_input_output => put 1 s (print (B "/out:" ++ t) st)
  end.

(** ** calls *)
Inductive call := F0 (f : fn0) | F1i (f : fn1i) (n : N) | F1s (f : fn1s) (s : bytes) | F2s (f : fn2s) (s t : bytes).
Record statics := Statics { st0 : fn0 -> static; st1i : fn1i -> static; st1s : fn1s -> static; st2s : fn2s -> static }.
Definition at_start : statics := Statics init0 init1i init1s init2s.
Scheme Equality for fn0. Scheme Equality for fn1i. Scheme Equality for fn1s. Scheme Equality for fn2s.
(** args.c 24-31 push_args: the first args.len words; [None] is a null pointer or a word past the end *)
Fixpoint words_of (buf : bytes) (l : list slot) (n : nat) : option (list bytes) :=
  match n, l with
  | O, _ => Some []
  | S n, Lit s :: l => match words_of buf l n with Some ws => Some (s :: ws) | None => None end
  | S n, Buf :: l => match words_of buf l n with Some ws => Some (buf :: ws) | None => None end
  | S _, _ => None
  end.
Definition pushed (st : static) : option (list bytes) := words_of (s_buf st) (s_argv st) (s_len st).
(** the words that a call pushes, and the static variables after it; [None] if it does not return *)
Definition perform (c : call) (g : statics) : option (list bytes * statics) :=
  match c with
  | F0 f => let st := body0 f (st0 g f) in
      match pushed st with
      | Some ws => Some (ws, Statics (fun h => if fn0_beq h f then st else st0 g h) (st1i g) (st1s g) (st2s g))
      | None => None
      end
  | F1i f n => match body1i f n (st1i g f) with
      | Some st => match pushed st with
          | Some ws => Some (ws, Statics (st0 g) (fun h => if fn1i_beq h f then st else st1i g h) (st1s g) (st2s g))
          | None => None
          end
      | None => None
      end
  | F1s f s => let st := body1s f s (st1s g f) in
      match pushed st with
      | Some ws => Some (ws, Statics (st0 g) (st1i g) (fun h => if fn1s_beq h f then st else st1s g h) (st2s g))
      | None => None
      end
  | F2s f s t => let st := body2s f s t (st2s g f) in
      match pushed st with
      | Some ws => Some (ws, Statics (st0 g) (st1i g) (st1s g) (fun h => if fn2s_beq h f then st else st2s g h))
      | None => None
      end
  end.

(** ** compilers: build_compilers, 1196-1311 *)
Inductive ctype := posix | gcc | clang | apple_clang | clang_llvm_ir | clang_cl | msvc | nasm | yasm.
Inductive c0 := compile_only | preprocess_only | debug | warn_everything | werror | pic | pie | enable_lto | always.
Inductive c1i := optimization | warning_lvl | pgo | visibility.
Inductive c1s := output | set_std | include | include_system | sanitize | define | specify_lang | color_output.
Definition posix_c0 (r : c0) : fn0 :=
  match r with
  | compile_only => posix_compile_only
  | preprocess_only => posix_preprocess_only
  | debug => posix_debug
  | _ => empty_0
  end.
Definition gcc_c0 (r : c0) : fn0 :=
  match r with
  | preprocess_only => gcc_preprocess_only
  | warn_everything => gcc_warn_everything
  | werror => gcc_werror
  | pic => gcc_pic
  | pie => gcc_pie
  | enable_lto => gcc_lto
  | _ => posix_c0 r
  end.
Definition clang_c0 (r : c0) : fn0 := match r with warn_everything => clang_warn_everything | _ => gcc_c0 r end.
Definition msvc_c0 (r : c0) : fn0 :=
  match r with
  | compile_only => cl_compile_only
  | preprocess_only => cl_preprocess_only
  | debug => cl_debug
  | warn_everything => cl_warn_everything
  | werror => cl_werror
  | always => cl_always
  | _ => empty_0
  end.
Definition compiler0 (t : ctype) (r : c0) : fn0 :=
  match t with
  | posix => posix_c0 r
  | gcc => gcc_c0 r
  | clang | apple_clang => clang_c0 r
  | clang_llvm_ir => match r with compile_only => posix_compile_only | _ => empty_0 end
  | msvc => msvc_c0 r
  | clang_cl => match r with enable_lto => clang_cl_lto | _ => msvc_c0 r end
  | nasm | yasm => match r with debug => posix_debug | _ => empty_0 end
  end.
Definition compiler1i (t : ctype) (r : c1i) : fn1i :=
  match t, r with
  | (posix | nasm | yasm), optimization => posix_optimization
  | (gcc | clang | apple_clang), optimization => gcc_optimization
  | (gcc | clang | apple_clang), warning_lvl => gcc_warning_lvl
  | (gcc | clang | apple_clang), pgo => gcc_pgo
  | (gcc | clang | apple_clang), visibility => gcc_visibility
  | (msvc | clang_cl), optimization => cl_optimization
  | (msvc | clang_cl), warning_lvl => cl_warning_lvl
  | _, _ => empty_1i
  end.
Definition posix_c1s (r : c1s) : fn1s :=
  match r with
  | output => posix_output
  | include | include_system => posix_include
  | define => posix_define
  | _ => empty_1s
  end.
Definition gcc_c1s (r : c1s) : fn1s :=
  match r with
  | set_std => gcc_set_std
  | include_system => gcc_include_system
  | sanitize => gcc_sanitize
  | specify_lang => gcc_specify_lang
  | color_output => gcc_color_output
  | _ => posix_c1s r
  end.
Definition msvc_c1s (r : c1s) : fn1s :=
  match r with
  | output => cl_output
  | set_std => cl_set_std
  | include => cl_include
  | sanitize => cl_sanitize
  | define => cl_define
  | _ => empty_1s
  end.
Definition compiler1s (t : ctype) (r : c1s) : fn1s :=
  match t with
  | posix | nasm | yasm => posix_c1s r
  | gcc | clang | apple_clang => gcc_c1s r
  | clang_llvm_ir => match r with output => posix_output | _ => empty_1s end
  | msvc => msvc_c1s r
  | clang_cl => match r with color_output => clang_cl_color_output | _ => msvc_c1s r end
  end.
Definition compiler_deps (t : ctype) : fn2s :=
  match t with gcc | clang | apple_clang => gcc_deps | msvc | clang_cl => cl_deps | _ => empty_2s end.

(** ** linkers: build_linkers 1476-1544, build_static_linkers 1562-1585 *)
Inductive ltype := l_posix | l_gcc | l_clang | l_apple | l_lld_link | l_msvc.
Inductive l0 := as_needed | no_undefined | start_group | end_group | shared | allow_shlib_undefined | export_dynamic | fatal_warnings
  | whole_archive | no_whole_archive | l_enable_lto.
Inductive l1s := lib | soname | rpath | l_sanitize.
Definition posix_l0 (r : l0) : fn0 := match r with shared => posix_shared | _ => empty_0 end.
Definition gcc_l0 (r : l0) : fn0 :=
  match r with
  | as_needed => gcc_as_needed | no_undefined => gcc_no_undefined | start_group => gcc_start_group | end_group => gcc_end_group
  | allow_shlib_undefined => gcc_allow_shlib_undefined | export_dynamic => gcc_export_dynamic | fatal_warnings => gcc_fatal_warnings
  | whole_archive => gcc_whole_archive | no_whole_archive => gcc_no_whole_archive | l_enable_lto => gcc_lto
  | shared => posix_l0 r
  end.
Definition link_l0 (r : l0) : fn0 := match r with shared => link_shared | _ => empty_0 end.
Definition linker0 (t : ltype) (r : l0) : fn0 :=
  match t with
  | l_posix => posix_l0 r
  | l_gcc | l_clang => gcc_l0 r
  | l_apple => match r with l_enable_lto => gcc_lto | _ => posix_l0 r end
  | l_msvc => link_l0 r
  | l_lld_link => match r with whole_archive => lld_link_whole_archive | _ => link_l0 r end
  end.
Definition linker1s (t : ltype) (r : l1s) : fn1s :=
  match t, r with
  | (l_posix | l_gcc | l_clang | l_apple), lib => posix_lib
  | (l_gcc | l_clang), soname => gcc_soname
  | (l_gcc | l_clang), rpath => gcc_rpath
  | (l_gcc | l_clang | l_apple), l_sanitize => gcc_sanitize
  | (l_msvc | l_lld_link), lib => link_lib
  | (l_msvc | l_lld_link), soname => link_soname
  | _, _ => empty_1s
  end.
Definition linker_pgo (t : ltype) : fn1i := match t with l_gcc | l_clang => gcc_pgo | _ => empty_1i end.
Definition linker_input_output (t : ltype) : fn2s := match t with l_msvc | l_lld_link => msvc_input_output | _ => posix_input_output end.
Inductive stype := ar_posix | ar_gcc | s_msvc.
Definition static_base (t : stype) : fn0 := match t with ar_posix => ar_posix_base | ar_gcc => ar_gcc_base | s_msvc => empty_0 end.
Definition static_input_output (t : stype) : fn2s := match t with s_msvc => msvc_input_output | _ => posix_input_output end.

(** what a caller can ask for *)
Inductive ask :=
| Compiler0 (t : ctype) (r : c0)
| Optimization (t : ctype) (l : level)
| Warning (t : ctype) (w : warning)
| Pgo (t : ctype) (p : stage)
| Visibility (t : ctype) (v : vis)
| Compiler1s (t : ctype) (r : c1s) (s : bytes)
| CompilerDeps (t : ctype) (target file : bytes)
| Linker0 (t : ltype) (r : l0)
| Linker1s (t : ltype) (r : l1s) (s : bytes)
| LinkerPgo (t : ltype) (p : stage)
| LinkerInputOutput (t : ltype) (i o : bytes)
| StaticBase (t : stype)
| StaticInputOutput (t : stype) (i o : bytes).
Definition call_of (a : ask) : call :=
  match a with
  | Compiler0 t r => F0 (compiler0 t r)
  | Optimization t l => F1i (compiler1i t optimization) (level_code l)
  | Warning t w => F1i (compiler1i t warning_lvl) (warning_code w)
  | Pgo t p => F1i (compiler1i t pgo) (stage_code p)
  | Visibility t v => F1i (compiler1i t visibility) (vis_code v)
  | Compiler1s t r s => F1s (compiler1s t r) s
  | CompilerDeps t s f => F2s (compiler_deps t) s f
  | Linker0 t r => F0 (linker0 t r)
  | Linker1s t r s => F1s (linker1s t r) s
  | LinkerPgo t p => F1i (linker_pgo t) (stage_code p)
  | LinkerInputOutput t i o => F2s (linker_input_output t) i o
  | StaticBase t => F0 (static_base t)
  | StaticInputOutput t i o => F2s (static_input_output t) i o
  end.
Definition asks (a : ask) (g : statics) : option (list bytes * statics) := perform (call_of a) g.
(** the static variables after some requests *)
Fixpoint after (h : list ask) (g : statics) : option statics :=
  match h with
  | [] => Some g
  | a :: h => match asks a g with Some (_, g) => after h g | None => None end
  end.

(** ** common_args.c 29-345: the flags of a target *)
(** the values of the options that are looked at; [o_default] says that buildtype has its default value *)
Record options := Options {
  o_std : option bytes; o_buildtype : bytes; o_default : bool; o_optimization : bytes; o_debug : bool;
  o_warning_level : bytes; o_werror : bool;
  o_pgo : bytes; o_sanitize : bytes; o_ndebug : bytes; o_colorout : bytes; o_lto : bool;
  o_args : list bytes }.
Inductive outcome (A : Type) := Done (a : A) | Refused | Aborts.
Arguments Done {A}. Arguments Refused {A}. Arguments Aborts {A}.
(** push_args of what is asked for, one after the other *)
Fixpoint push_all (l : list ask) (args : list bytes) (g : statics) : outcome (list bytes * statics) :=
  match l with
  | [] => Done (args, g)
  | a :: l => match asks a g with Some (ws, g) => push_all l (args ++ ws) g | None => Aborts end
  end.
(** 68-86: the value of the option optimization; UNREACHABLE is a failed assertion *)
Definition custom_level (s : bytes) : option level :=
  if negb (beqb s (B "plain")) && negb (length s =? 1)%nat then None
  else match s with
       | c :: _ =>
           if ceqb c "0" then Some L0
           else if ceqb c "1" then Some L1
           else if ceqb c "2" then Some L2
           else if ceqb c "3" then Some L3
           else if ceqb c "g" then Some Lg
           else if ceqb c "s" then Some Ls
           else None
       | [] => None
       end.
(** 37-48 *)
Definition buildtypes : list (bytes * (level * bool)) :=
  [(B "plain", (Lnone, false)); (B "debug", (L0, true)); (B "debugoptimized", (Lg, true));
   (B "release", (L3, false)); (B "minsize", (Ls, false))].
(** 29-109 get_buildtype_args *)
Definition buildtype_asks (t : ctype) (o : options) : outcome (list ask) :=
  let asked (x : level * bool) := Done ((if snd x then [Compiler0 t debug] else []) ++ [Optimization t (fst x)]) in
  if beqb (o_buildtype o) (B "custom") || o_default o then
    match custom_level (o_optimization o) with Some n => asked (n, o_debug o) | None => Aborts end
  else match find (fun x => beqb (o_buildtype o) (fst x)) buildtypes with
       | Some x => asked (snd x)
       | None => Refused
       end.
(** 111-145 get_warning_args *)
Definition warning_asks (t : ctype) (o : options) : outcome (list ask) :=
  if beqb (o_warning_level o) (B "everything") then Done [Compiler0 t warn_everything]
  else match o_warning_level o with
       | [c] =>
           if ceqb c "0" then Done [Warning t W0]
           else if ceqb c "1" then Done [Warning t W1]
           else if ceqb c "2" then Done [Warning t W2]
           else if ceqb c "3" then Done [Warning t W3]
           else Aborts
       | _ => Aborts
       end.
(** 247-297 setup_optional_b_args_compiler, of a bootstrapped muon *)
Definition b_asks (t : ctype) (o : options) : outcome (list ask) :=
  match (if beqb (o_pgo o) (B "off") then Done []
         else if beqb (o_pgo o) (B "generate") then Done [Pgo t Generate]
         else if beqb (o_pgo o) (B "use") then Done [Pgo t Use]
         else Aborts) with
  | Done p => Done (p
      ++ (if beqb (o_sanitize o) (B "none") then [] else [Compiler1s t sanitize (o_sanitize o)])
      ++ (if beqb (o_ndebug o) (B "true") || (beqb (o_ndebug o) (B "if-release") && beqb (o_buildtype o) (B "release"))
          then [Compiler1s t define (B "NDEBUG")] else [])
      ++ (if beqb (o_colorout o) (B "never") then [] else [Compiler1s t color_output (o_colorout o)])
      ++ (if o_lto o then [Compiler0 t enable_lto] else []))
  | Refused => Refused
  | Aborts => Aborts
  end.
(** 299-345 get_base_compiler_args; [o_std] is the option c_std or cpp_std of the language, if it has one, [o_args] its
    c_args or cpp_args; [more] are the global and the project arguments *)
Definition base_args (t : ctype) (o : options) (more : list bytes) (g : statics) : outcome (list bytes * statics) :=
  match buildtype_asks t o with
  | Done x => match warning_asks t o with
    | Done y => match b_asks t o with
      | Done z =>
          match push_all ([Compiler0 t always]
            ++ (match o_std o with Some s => if beqb s (B "none") then [] else [Compiler1s t set_std s] | None => [] end)
            ++ x ++ y ++ (if o_werror o then [Compiler0 t werror] else []) ++ z) [] g with
          | Done (ws, g) => Done (ws ++ o_args o ++ more, g)
          | Refused => Refused
          | Aborts => Aborts
          end
      | Refused => Refused
      | Aborts => Aborts
      end
    | Refused => Refused
    | Aborts => Aborts
    end
  | Refused => Refused
  | Aborts => Aborts
  end.
