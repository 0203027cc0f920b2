(** C114-C116: the flags given to compilers and linkers.  Spec: S_Toolchain.v *)
From Verif Require Import Base M_Str M_Toolchain S_Toolchain L_Toolchain.

(** C114: what is passed for a request (an optimization level, a warning level, a library ...) depends on that request
    only, not on what was asked for other targets before.  Refuted for the optimization levels of gcc, clang and the
    assemblers and for the warning levels of cl: the answer for the level that has no flag is remembered. *)
Theorem C114_a_request_answers_the_same_whatever_was_asked_before_partial :
  forall (earlier : list ask) (a : ask) (g : statics),
    after earlier at_start = Some g ->
    (forall b, In b earlier -> ~ silences b a) ->
    option_map fst (asks a g) = option_map fst (asks a at_start).
Proof.
  intros h a g H Q. apply answer_same.
  - exact (after_good h at_start g good_start H).
  - exact (after_later a h at_start g H (start_later a) Q).
Qed.
Print Assumptions C114_a_request_answers_the_same_whatever_was_asked_before_partial.

(** the excluded requests do break it, and for ever: whatever else is asked, no flag is passed any more *)
Theorem C114_a_silenced_request_answers_nothing_refuted :
  (forall (earlier : list ask) (b a : ask) (g : statics),
     after earlier at_start = Some g -> In b earlier -> silences b a ->
     option_map fst (asks a g) = Some []) /\
  option_map fst (asks (Optimization gcc L2) at_start) = Some [B "-O2"] /\
  silences (Optimization clang Lnone) (Optimization gcc L2).
Proof.
  split; [|split].
  - intros h b a g H I Q. apply answer_silenced; [exact (after_silenced a b h at_start g H I Q) | exists b; exact Q].
  - reflexivity.
  - left. exists clang, L2, gcc. unfold gcc_like. tauto.
Qed.
Print Assumptions C114_a_silenced_request_answers_nothing_refuted.

Example C114_hypotheses_met :
  let earlier := [Optimization gcc L0; Warning gcc W3; Linker1s l_gcc rpath (B "/usr/lib"); Optimization msvc Lnone; Visibility gcc Vhidden] in
  (exists g, after earlier at_start = Some g) /\
  (forall b, In b earlier -> ~ silences b (Optimization clang L3)) /\
  (forall b, In b earlier -> ~ silences b (Visibility clang Vinlineshidden)).
Proof.
  split; [|split].
  - eexists. reflexivity.
  - intros b I Q. apply quiet_silences in Q. repeat destruct I as [<-|I]; try discriminate Q. destruct I.
  - intros b I Q. apply quiet_silences in Q. repeat destruct I as [<-|I]; try discriminate Q. destruct I.
Qed.

(** C115: a name given with a request (a file, a directory, a standard, a run path, a soname) reaches the command line
    whole, spelled as the toolchain spells it.  Refuted for the names that are joined to their flag: the word is cut
    after 254 bytes. *)
Theorem C115_a_name_reaches_the_command_line_whole_partial :
  forall (earlier : list ask) (a : ask) (g : statics),
    after earlier at_start = Some g ->
    names_something a ->
    fits a ->
    option_map fst (asks a g) = Some (map text (spelling a)).
Proof.
  intros h a g H N F. change (option_map fst (asks a g)) with (answer a g). rewrite (answer_same a g).
  - apply spelled_whole; assumption.
  - exact (after_good h at_start g good_start H).
  - apply (after_later a h at_start g H (start_later a)). intros b _ Q. destruct (silences_kind _ _ Q) as [_ K].
    apply K. destruct a; try destruct N; reflexivity.
Qed.
Print Assumptions C115_a_name_reaches_the_command_line_whole_partial.

(** two run paths that differ only after 254 bytes are passed as the same word *)
Theorem C115_long_names_are_cut_refuted :
  forall d, length d = 254 ->
    option_map fst (asks (Linker1s l_gcc rpath (d ++ B "/lib")) at_start) =
    option_map fst (asks (Linker1s l_gcc rpath (d ++ B "/tmp")) at_start).
Proof.
  intros d L. unfold asks. cbn [call_of linker1s perform at_start st1s init1s body1s]. unfold buffered, print, pushed.
  cbn [map app s_argv s_len s_buf length words_of Nat.add fst option_map].
  rewrite !(app_assoc (B "-Wl,-rpath,")), !firstn_app, app_length, L.
  change (length (B "-Wl,-rpath,")) with 11. reflexivity.
Qed.
Print Assumptions C115_long_names_are_cut_refuted.

Example C115_hypotheses_met :
  (exists g, after [Linker1s l_gcc soname (B "libold.so.1"); Compiler1s gcc set_std (B "c99")] at_start = Some g) /\
  names_something (Linker1s l_gcc soname (B "libnew.so.2")) /\ fits (Linker1s l_gcc soname (B "libnew.so.2")) /\
  map text (spelling (Linker1s l_gcc soname (B "libnew.so.2"))) = [B "-Wl,-soname,libnew.so.2"] /\
  (* a directory of 1000 bytes *)
  fits (Compiler1s gcc include (repeat "d"%char 1000)) /\
  length (repeat "d"%char 254) = 254.
Proof.
  split; [eexists; reflexivity|]. split; [exact Logic.I|]. split; [|split; [reflexivity|split; [|reflexivity]]].
  - intros f n r [E|[]]. injection E as <- <- <-. cbv. repeat constructor.
  - intros f n r [E|[E|[]]]; discriminate E.
Qed.

(** C116: the flags of a target are those that its options stand for, in a fixed order, followed by the arguments of
    the option c_args, of the whole build and of the project.  Refuted for optimization=plain, which aborts, and for
    targets that come after one whose optimization or warning level has no flag (C114). *)
Theorem C116_the_flags_of_a_target_are_those_of_its_options_partial :
  forall t : ctype, exists everything : list bytes,
    (t = gcc -> In (B "-Wall") everything /\ In (B "-Wextra") everything) /\
    (t = clang \/ t = apple_clang -> everything = [B "-Weverything"]) /\
    (cl_like t -> everything = [B "/Wall"]) /\
    forall (o : options) (more : list bytes) (earlier : list ask) (g : statics),
      sensible o ->
      after earlier at_start = Some g ->
      (forall b, In b earlier -> (forall l, ~ silences b (Optimization t l)) /\ (forall w, ~ silences b (Warning t w))) ->
      exists g', base_args t o more g = Done (expected_flags t o everything ++ more, g').
Proof.
  intros t. exists (everything_of t). split; [|split; [|split]].
  - intros ->. split; [left; reflexivity | right; right; left; reflexivity].
  - intros [->| ->]; reflexivity.
  - intros [->| ->]; reflexivity.
  - intros o more h g S H U. destruct (base_args_spec t o more h g S U H) as (g' & E & _). exists g'. exact E.
Qed.
Print Assumptions C116_the_flags_of_a_target_are_those_of_its_options_partial.

(** ... of every target of a build, as long as none of them has a level without a flag *)
Theorem C116_every_target_gets_the_flags_of_its_options_partial :
  forall targets : list (ctype * options * list bytes),
    (forall t o more, In (t, o, more) targets ->
       sensible o /\
       (gcc_like t -> fst (wanted o) <> Lnone) /\
       (posix_like t -> fst (wanted o) <> Lnone /\ fst (wanted o) <> Lg /\ fst (wanted o) <> Ls) /\
       (cl_like t -> o_warning_level o <> B "0")) ->
    exists everything : ctype -> list bytes,
      each_target targets at_start =
      map (fun x => match x with (t, o, more) => Done (expected_flags t o (everything t) ++ more) end) targets.
Proof.
  intros l F. exists everything_of. apply (each_target_spec l []); [intros t b [] | reflexivity | exact F].
Qed.
Print Assumptions C116_every_target_gets_the_flags_of_its_options_partial.

Definition example_options : options :=
  Options (Some (B "c99")) (B "release") false (B "0") true (B "2") true (B "off") (B "address") (B "if-release") (B "auto") false [B "-DX=1"].
Definition plain_options : options :=
  Options (Some (B "c99")) (B "plain") false (B "0") true (B "2") true (B "off") (B "none") (B "false") (B "never") false [].
Definition custom_plain_options : options :=
  Options (Some (B "c99")) (B "custom") false (B "plain") true (B "2") true (B "off") (B "none") (B "false") (B "never") false [].

(** a target with override_options: ['buildtype=plain'] takes the optimization flags from the targets after it; the
    allowed value optimization=plain aborts *)
Theorem C116_levels_without_a_flag_refuted :
  sensible plain_options /\ sensible example_options /\
  each_target [(gcc, example_options, [])] at_start = [Done
    [B "-std=c99"; B "-O3"; B "-Wextra"; B "-Wall"; B "-Werror"; B "-fsanitize=address"; B "-D"; B "NDEBUG"; B "-fdiagnostics-color=auto"; B "-DX=1"]] /\
  each_target [(gcc, plain_options, []); (gcc, example_options, [])] at_start =
    [Done [B "-std=c99"; B "-Wextra"; B "-Wall"; B "-Werror"];
     Done [B "-std=c99"; B "-Wextra"; B "-Wall"; B "-Werror"; B "-fsanitize=address"; B "-D"; B "NDEBUG"; B "-fdiagnostics-color=auto"; B "-DX=1"]] /\
  each_target [(gcc, custom_plain_options, [])] at_start = [Aborts].
Proof.
  assert (X : forall o, o = plain_options \/ o = example_options -> sensible o).
  { intros o [->| ->]; unfold sensible; (split; [cbn; tauto|]); (split; [cbn; tauto|]); (split; [cbn; tauto|]); (split; [cbn; tauto|]);
      (split; [intros s E; injection E as <-|split]); cbv; repeat constructor. }
  split; [apply X; left; reflexivity|]. split; [apply X; right; reflexivity|]. repeat split.
Qed.
Print Assumptions C116_levels_without_a_flag_refuted.

Example C116_hypotheses_met :
  sensible example_options /\ fst (wanted example_options) = L3 /\ o_warning_level example_options <> B "0" /\
  expected_flags clang_cl example_options [] =
    [B "/nologo"; B "/std:c99"; B "/O2"; B "/Gw"; B "/W3"; B "/WX"; B "-fsanitize=address"; B "/D"; B "NDEBUG"; B "-fcolor-diagnostics"; B "-DX=1"].
Proof.
  split; [apply C116_levels_without_a_flag_refuted|]. split; [reflexivity|]. split; [discriminate | reflexivity].
Qed.
