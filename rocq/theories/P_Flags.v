(** C124, C125: the command lines of compilers and linkers (src/backend/common_args.c, src/coerce.c).
    Spec: S_Flags.v, with S_Toolchain.v for the flags of options *)
From Coq Require Import Lia.
From Verif Require Import Base M_Path S_Path L_Path M_Backend S_Backend M_Compile S_Compile M_Toolchain S_Toolchain L_Toolchain M_Link M_Flags S_Flags L_Flags.
Local Arguments B _ : simpl never.

(** ** C124: the flags that a target is compiled with *)
(** After the flags of its options come the directories to search that exist, each once, in order and by a name that leads
    to it; then the arguments of dependencies and its own. *)
Theorem C124_what_a_target_is_compiled_with_partial t : exists everything : list bytes,
  (t = gcc -> In (B "-Wall") everything /\ In (B "-Wextra") everything) /\
  (t = clang \/ t = apple_clang -> everything = [B "-Weverything"]) /\
  (cl_like t -> everything = [B "/Wall"]) /\
  forall root exists_dir k earlier g,
    is_abs root = true -> Forall (fun i => is_abs (inc_path i) = true) (dirs k) ->
    gcc_like t \/ posix_like t \/ (cl_like t /\ Forall (fun i => inc_system i = false) (dirs k)) ->
    sensible (k_options k) -> after earlier at_start = Some g ->
    (forall b, In b earlier -> (forall l, ~ silences b (Optimization t l)) /\ (forall w, ~ silences b (Warning t w))) ->
    exists g' incs, compile_flags root exists_dir t k g =
      Done (expected_flags t (k_options k) everything ++ k_more k ++ incs ++ k_deps k ++ k_args k ++ last_words t k, g') /\
      included root t (filter (fun i => exists_dir (inc_path i)) (once inc_dec (dirs k))) incs.
Proof.
  exists (everything_of t). split; [|split; [|split]].
  - intros ->. split; [left; reflexivity | right; right; left; reflexivity].
  - intros [->| ->]; reflexivity.
  - intros [->| ->]; reflexivity.
  - intros root ex k h g Hr F Ht So H U. exact (compile_flags_ok root ex t k h g Hr Ht F So U H).
Qed.
Print Assumptions C124_what_a_target_is_compiled_with_partial.

(** What include_directories() means: the directory, after the one of the build directory at the same place; it fails
    exactly if one does not exist. *)
Theorem C124_what_include_directories_mean_partial source build cwd exists_dir system l :
  is_abs source = true -> comps source <> [] -> is_abs build = true -> is_abs cwd = true -> clean build -> clean cwd ->
  Forall (fun x => match x with inl p => clean p | inr _ => True end) l ->
  match coerce_incs source build cwd exists_dir system l with
  | Some r => all_meant source build cwd exists_dir system l r
  | None => exists p a, In (inl p) l /\ absolute cwd p a /\ exists_dir a = false
  end.
Proof. apply coerce_incs_ok. Qed.
Print Assumptions C124_what_include_directories_mean_partial.

(** no spelling of the directory of the other side is a failure by chance: what is meant is accepted only if all exist *)
Theorem C124_all_directories_exist source build cwd exists_dir system l r :
  all_meant source build cwd exists_dir system l r ->
  forall p, In (inl p) l -> exists a, absolute cwd p a /\ exists_dir a = true /\ In (IncDir a system) r.
Proof.
  intros (ls & F & ->). induction F as [|x y l ls H F IH]; intros p Hp; [contradiction|]. cbn [concat]. destruct Hp as [->|Hp].
  - inversion H; subst; eexists; (split; [eassumption|]); (split; [eassumption|]); apply in_or_app; left; cbn; auto.
  - destruct (IH p Hp) as (a & A1 & A2 & A3). exists a. repeat split; auto. apply in_or_app. now right.
Qed.
Print Assumptions C124_all_directories_exist.

Definition an_options : options :=
  Options (Some (B "c99")) (B "release") false (B "0") true (B "2") true (B "off") (B "none") (B "false") (B "never") false [B "-DX=1"].
Definition target_dirs (l : list inc) : cflags := CFlags an_options [B "-DALL"] (Some (B "/b/t.p")) l [IncStr (B "/s")] [B "-DDEP"] [B "-DOWN"] true false (Some Vhidden).

(** the words of a command line *)
Definition line (o : outcome (list bytes * statics)) : option (list bytes) := match o with Done x => Some (fst x) | _ => None end.

(** With cl no word names a system directory: it is not searched at all. *)
Theorem C124_system_directories_of_cl_refuted :
  (forall t p earlier g, cl_like t -> after earlier at_start = Some g -> option_map fst (asks (Compiler1s t include_system p) g) = Some []) /\
  line (compile_flags (B "/b") (fun _ => true) msvc (target_dirs [IncDir (B "/x") true]) at_start) = line (compile_flags (B "/b") (fun _ => true) msvc (target_dirs []) at_start) /\
  line (compile_flags (B "/b") (fun _ => true) msvc (target_dirs []) at_start) <> None.
Proof.
  split.
  - intros t p h g Ht H. change (answer (Compiler1s t include_system p) g = Some []). rewrite answer_same.
    + destruct Ht as [->| ->]; reflexivity.
    + exact (after_good h at_start g good_start H).
    + apply plain_later, plain1s.
  - split; [vm_compute; reflexivity|]. vm_compute. discriminate.
Qed.
Print Assumptions C124_system_directories_of_cl_refuted.

(** A path with ".." that leaves the source directory counts as inside: a directory that has nothing to do with the
    project is searched first. *)
Theorem C124_directories_outside_by_dots_refuted :
  coerce_incs (B "/w/s") (B "/w/s/build") (B "/w/s/sub") (fun _ => true) false [inl (B "../../x")] =
    Some [IncDir (B "/w/s/build/../x") false; IncDir (B "/w/s/sub/../../x") false] /\
  location (B "/w/s/sub/../../x") = [B "w"; B "x"] /\ ~ prefix_of (comps (B "/w/s")) (location (B "/w/s/sub/../../x")) /\
  location (B "/w/s/build/../x") = [B "w"; B "s"; B "x"].
Proof.
  split; [vm_compute; reflexivity|]. split; [vm_compute; reflexivity|]. split; [|vm_compute; reflexivity].
  intros (l & E). vm_compute in E. discriminate.
Qed.
Print Assumptions C124_directories_outside_by_dots_refuted.

Example C124_hypotheses_can_hold :
  let k := target_dirs [IncDir (B "/b/inc") false; IncDir (B "/s/inc") true; IncDir (B "/s/inc") true; IncDir (B "/b/none") false] in
  Forall (fun i => is_abs (inc_path i) = true) (dirs k) /\ sensible an_options /\ gcc_like gcc /\
  line (compile_flags (B "/b") (fun p => negb (beqb p (B "/b/none"))) gcc k at_start) =
    Some [B "-std=c99"; B "-O3"; B "-Wextra"; B "-Wall"; B "-Werror"; B "-DX=1"; B "-DALL"; B "-I"; B "t.p"; B "-I"; B "inc"; B "-isystem"; B "/s/inc";
          B "-I"; B "/s"; B "-DDEP"; B "-DOWN"; B "-fpic"; B "-fvisibility=hidden"] /\
  coerce_incs (B "/s") (B "/b") (B "/s/sub") (fun _ => true) false [inl (B "inc"); inl (B "."); inl (B "/usr/include")] =
    Some [IncDir (B "/b/sub/inc") false; IncDir (B "/s/sub/inc") false; IncDir (B "/b/sub") false; IncDir (B "/s/sub") false; IncDir (B "/usr/include") false] /\
  clean (B "/s/sub") /\ clean (B "inc") /\ clean (B ".").
Proof.
  split; [repeat constructor|]. split.
  { unfold sensible; (split; [cbn; tauto|]); (split; [cbn; tauto|]); (split; [cbn; tauto|]); (split; [cbn; tauto|]);
      (split; [intros s E; injection E as <-|split]); cbv; repeat constructor. }
  split; [now left|]. split; [vm_compute; reflexivity|]. split; [vm_compute; reflexivity|].
  unfold clean. repeat split; intros H; vm_compute in H; repeat destruct H as [H|H]; try discriminate H; contradiction.
Qed.

(** ** C125: the flags that a target is linked with *)
Theorem C125_what_a_target_is_linked_with root t w earlier g :
  linkable root w -> after earlier at_start = Some g ->
  exists g' whole libs, S_Flags.named root (d_whole (w_pass w)) whole /\ S_Flags.named root (d_with (w_pass w)) libs /\
    link_flags root t w g = Done (expected_link t w whole libs (once bytes_dec (d_missing (w_pass w))), g').
Proof.
  intros L H. destruct (link_flags_ok root t w g L (after_good earlier at_start g good_start H)) as (g' & whole & libs & N1 & N2 & E & _).
  exists g', whole, libs. auto.
Qed.
Print Assumptions C125_what_a_target_is_linked_with.

Definition linking (whole libs : list bytes) : lflags :=
  LFlags SharedLib (Pass None whole libs [B "m"; B "z"; B "m"] [B "-Wl,-z,now"] [] [] [] [] [] [B "/b/lib"; []]) false an_options [B "-s"] [B "-g"] [B "-p"] (B "libx.so.1").

Lemma is_linkable whole libs : Forall (fun p => is_abs p = true) (libs ++ whole) -> linkable (B "/b") (linking whole libs).
Proof. intros F. split; [reflexivity|exact F|now left|cbv; lia|repeat constructor; cbv; lia|cbv; lia]. Qed.
(** With three linkers "link_whole" is the same as "link_with"; with lld-link it holds for all that follow. *)
Theorem C125_link_whole_refuted :
  (forall t, In t [l_posix; l_apple; l_msvc] ->
     linkable (B "/b") (linking [B "/b/liba.a"] [B "/b/libb.a"]) /\
     line (link_flags (B "/b") t (linking [B "/b/liba.a"] [B "/b/libb.a"]) at_start) = line (link_flags (B "/b") t (linking [] [B "/b/liba.a"; B "/b/libb.a"]) at_start)) /\
  line (link_flags (B "/b") l_lld_link (linking [B "/b/liba.a"] [B "/b/libb.a"]) at_start) =
    Some [B "-Wl,-z,now"; B "-s"; B "-g"; B "-p"; B "/whole-archive"; B "liba.a"; B "libb.a"; B "m"; B "z"; B "/DYNAMICBASE"; B "/OUT:libx.so.1"].
Proof.
  split; [|vm_compute; reflexivity]. intros t Ht. split.
  - apply is_linkable; repeat constructor.
  - repeat destruct Ht as [<-|Ht]; try contradiction; vm_compute; reflexivity.
Qed.
Print Assumptions C125_link_whole_refuted.

Example C125_hypotheses_can_hold :
  linkable (B "/b") (linking [B "/b/liba.a"] [B "/b/libb.a"; B "/s/libc.a"; B "/b/libb.a"]) /\
  line (link_flags (B "/b") l_gcc (linking [B "/b/liba.a"] [B "/b/libb.a"; B "/s/libc.a"; B "/b/libb.a"]) at_start) =
    Some [B "-Wl,-z,now"; B "-Wl,--as-needed"; B "-Wl,--no-undefined"; B "-s"; B "-g"; B "-p"; B "-Wl,-rpath,/b/lib";
          B "-Wl,--start-group"; B "-Wl,--whole-archive"; B "liba.a"; B "-Wl,--no-whole-archive"; B "libb.a"; B "/s/libc.a"; B "-l"; B "m"; B "-l"; B "z"; B "-Wl,--end-group";
          B "-shared"; B "-Wl,-soname,libx.so.1"].
Proof.
  split; [|vm_compute; reflexivity]. apply is_linkable; repeat constructor.
Qed.
