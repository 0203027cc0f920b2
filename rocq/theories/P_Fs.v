(** C138, C139: the path functions of the fs module. *)
From Coq Require Import List Lia.
From Verif Require Import Base M_Path S_Path L_Path L_Path2 L_Path3 M_Fs S_Fs L_Fs.
Import ListNotations.
Local Arguments B _ : simpl never.

(** ** C138: names *)

(** name() is the last name of the place that the path leads to. *)
Theorem C138_name : forall home cwd x front n,
  is_abs cwd = true -> a_path (text x) -> snd (place cwd (text x)) = front ++ [n] ->
  fs_name home cwd x = Gives n.
Proof. intros home cwd x front n A P E. exact (name_of home cwd A x front n P E). Qed.
Print Assumptions C138_name.

(** stem() is the name without its last dot and what follows. *)
Theorem C138_stem_partial : forall home cwd x front stem ending,
  is_abs cwd = true -> a_path (text x) ->
  snd (place cwd (text x)) = front ++ [stem ++ "."%char :: ending] -> ~ In "."%char ending -> stem <> [] ->
  fs_stem home cwd x = Gives stem.
Proof.
  intros home cwd x front stem e A P E N0 _. unfold fs_stem.
  rewrite (name_of home cwd A x front _ P E). cbn [obind]. rewrite cut_at by exact N0. reflexivity.
Qed.
Print Assumptions C138_stem_partial.

Theorem C138_stem_without_ending : forall home cwd x front n,
  is_abs cwd = true -> a_path (text x) ->
  snd (place cwd (text x)) = front ++ [n] -> ~ In "."%char n ->
  fs_stem home cwd x = Gives n.
Proof.
  intros home cwd x front n A P E N0. unfold fs_stem.
  rewrite (name_of home cwd A x front _ P E). cbn [obind]. rewrite cut_none by exact N0. reflexivity.
Qed.
Print Assumptions C138_stem_without_ending.

Lemma nonul : forall s, mem_char NUL s = false -> ~ In NUL s.
Proof. intros s. apply mem_char_not_In. Qed.

Example C138_ex : is_abs (B "/src") = true /\ a_path (B "a/../lib/foo.tar.gz")
  /\ place (B "/src") (B "a/../lib/foo.tar.gz") = (0, [B "src"; B "lib"] ++ [B "foo.tar" ++ "."%char :: B "gz"])
  /\ ~ In "."%char (B "gz")
  /\ fs_name None (B "/src") (AString (B "a/../lib/foo.tar.gz")) = Gives (B "foo.tar.gz")
  /\ fs_stem None (B "/src") (AString (B "a/../lib/foo.tar.gz")) = Gives (B "foo.tar").
Proof.
  split; [reflexivity|]. split; [split; [discriminate|apply nonul; reflexivity]|].
  split; [vm_compute; reflexivity|]. split; [intros [X|[X|[]]]; discriminate|].
  split; vm_compute; reflexivity.
Qed.

(** The stem of a hidden file is empty. *)
Theorem C138_stem_of_hidden_files_refuted :
  fs_name None (B "/src") (AString (B ".bashrc")) = Gives (B ".bashrc")
  /\ fs_stem None (B "/src") (AString (B ".bashrc")) = Gives [].
Proof. split; vm_compute; reflexivity. Qed.
Print Assumptions C138_stem_of_hidden_files_refuted.

(** parent() leads to the directory that has the last name. *)
Theorem C138_parent_partial : forall home cwd x u front n,
  a_path (text x) -> ~ tilde (text x) -> walk (comps (text x)) = (u, front ++ [n]) ->
  exists p, fs_parent home cwd x = Gives p /\ is_abs p = is_abs (text x) /\ walk (comps p) = (u, front).
Proof.
  intros home cwd x u front n P T E. unfold fs_parent.
  rewrite fix_rel; [|destruct x; cbn; first [exact I|reflexivity]|exact P|right; exact T|reflexivity].
  cbn [obind]. pose proof (flat_good _ (comps_good (text x))) as G.
  assert (Sp : flat (walk (comps (text x))) = (repeat (B "..") u ++ front) ++ [n])
    by (rewrite E; unfold flat; cbn [fst snd]; apply app_assoc).
  assert (C : comps (render (is_abs (text x)) (flat (walk (comps (text x))))) = (repeat (B "..") u ++ front) ++ [n])
    by (rewrite comps_render by exact G; exact Sp).
  destruct (dirname_basename _ _ _ (render_nonempty _ _ G) C) as (_ & ->). cbn [path].
  rewrite is_abs_render by exact G. rewrite Sp in G. apply Forall_app in G as (G & _).
  eexists. split; [reflexivity|]. rewrite is_abs_render by exact G. split; [reflexivity|].
  rewrite comps_render by exact G. change (repeat (B "..") u ++ front) with (flat (u, front)).
  apply walk_flat. cbn [snd].
  pose proof (walk_noup (comps (text x))) as W. rewrite E in W. cbn [snd] in W.
  apply Forall_app in W as (W & _). exact W.
Qed.
Print Assumptions C138_parent_partial.

(** A path that leads up has itself or less as its parent. *)
Theorem C138_parent_of_up_refuted :
  fs_parent None (B "/a/b/c") (AString (B "..")) = Gives (B ".")
  /\ place (B "/a/b/c") (B "..") = (0, [B "a"; B "b"])
  /\ place (B "/a/b/c") (B ".") = (0, [B "a"; B "b"; B "c"]).
Proof. repeat split; vm_compute; reflexivity. Qed.
Print Assumptions C138_parent_of_up_refuted.

(** replace_suffix() changes what follows the last dot of the name and nothing else, if the name has
    a dot. *)
Theorem C138_replace_suffix_partial : forall home cwd x suf u front stem ending,
  a_path (text x) -> walk (comps (text x)) = (u, front ++ [stem ++ "."%char :: ending]) ->
  ~ In "."%char ending -> a_name (stem ++ suf) ->
  exists r, fs_replace_suffix home cwd x suf = Gives r /\ is_abs r = is_abs (text x)
    /\ walk (comps r) = (u, front ++ [stem ++ suf]).
Proof.
  intros home cwd x suf u front stem e P E N0 Nm. unfold fs_replace_suffix.
  rewrite fix_rel; [|destruct x; cbn; first [exact I|reflexivity]|exact P|left; reflexivity|reflexivity].
  cbn [obind]. pose proof (flat_good _ (comps_good (text x))) as G.
  assert (Sp : flat (walk (comps (text x))) = (repeat (B "..") u ++ front) ++ [stem ++ "."%char :: e])
    by (rewrite E; unfold flat; cbn [fst snd]; apply app_assoc).
  destruct (render_snoc (is_abs (text x)) (repeat (B "..") u ++ front) (stem ++ "."%char :: e))
    as (pre & R1 & R2).
  rewrite Sp, R1, app_assoc, cut_at by exact N0. rewrite <- app_assoc, <- R2.
  rewrite Sp in G. apply Forall_app in G as (G & _).
  destruct (name_good _ Nm) as (Gn & Un).
  assert (G' : Forall good ((repeat (B "..") u ++ front) ++ [stem ++ suf]))
    by (apply Forall_app; split; [exact G|constructor; [exact Gn|constructor]]).
  eexists. split; [reflexivity|]. rewrite is_abs_render by exact G'. split; [reflexivity|].
  rewrite comps_render by exact G'. rewrite <- app_assoc.
  change (repeat (B "..") u ++ front ++ [stem ++ suf]) with (flat (u, front ++ [stem ++ suf])).
  apply walk_flat. cbn [snd]. pose proof (walk_noup (comps (text x))) as W. rewrite E in W. cbn [snd] in W.
  apply Forall_app in W as (W & _). apply Forall_app. split; [exact W|]. constructor; [exact Un|constructor].
Qed.
Print Assumptions C138_replace_suffix_partial.

Example C138_paths_ex : a_path (B "../a/./b.d/foo.c") /\ ~ tilde (B "../a/./b.d/foo.c")
  /\ walk (comps (B "../a/./b.d/foo.c")) = (1, [B "a"; B "b.d"] ++ [B "foo" ++ "."%char :: B "c"])
  /\ ~ In "."%char (B "c") /\ a_name (B "foo" ++ B ".h")
  /\ fs_replace_suffix None (B "/src") (AString (B "../a/./b.d/foo.c")) (B ".h") = Gives (B "../a/b.d/foo.h")
  /\ fs_parent None (B "/src") (AString (B "../a/./b.d/foo.c")) = Gives (B "../a/b.d").
Proof.
  split; [split; [discriminate|apply nonul; reflexivity]|]. split; [intros (r & X); discriminate|].
  split; [vm_compute; reflexivity|]. split; [intros [X|[]]; discriminate|].
  split; [|split; vm_compute; reflexivity].
  split; [discriminate|]. split; [discriminate|]. split; [discriminate|]. cbn.
  intros X; repeat (destruct X as [X|X]; [discriminate X|]); exact X.
Qed.

(** If the name has no dot, the last dot of a directory, or of the way up, is taken. *)
Theorem C138_replace_suffix_refuted :
  fs_replace_suffix None (B "/src") (AString (B "lib.d/foo")) (B ".c") = Gives (B "lib.c")
  /\ fs_replace_suffix None (B "/src") (AString (B "../foo")) (B ".c") = Gives (B "..c").
Proof. split; vm_compute; reflexivity. Qed.
Print Assumptions C138_replace_suffix_refuted.

(** as_posix() puts slashes between the names that backslashes are between. *)
Theorem C138_as_posix_partial : forall names,
  Forall (fun n => n <> [] /\ ~ In BSLASH n) names ->
  fs_as_posix (joinb [BSLASH] names) = joinb (B "/") names.
Proof.
  assert (W : forall n r, ~ In BSLASH n -> fs_as_posix (n ++ r) = n ++ fs_as_posix r).
  { induction n as [|c n IH]; intros r N0; [reflexivity|]. cbn [app fs_as_posix].
    destruct (ceqb_spec c BSLASH) as [->|_]; [destruct N0; left; reflexivity|].
    rewrite IH; [reflexivity|]. intros X. apply N0. right. exact X. }
  induction names as [|n names IH]; intros F; [reflexivity|].
  inversion F as [|? ? (Nn & Nb) F']; subst. specialize (IH F').
  destruct names as [|m names].
  - cbn [joinb]. rewrite <- (app_nil_r n) at 1. rewrite W by exact Nb. cbn [fs_as_posix]. apply app_nil_r.
  - cbn [joinb]. change (fs_as_posix (n ++ [BSLASH] ++ joinb [BSLASH] (m :: names))
      = n ++ B "/" ++ joinb (B "/") (m :: names)). rewrite W by exact Nb. f_equal. rewrite <- IH.
    inversion F' as [|? ? (Nm & Nmb) _]; subst. destruct m as [|c m]; [congruence|].
    assert (Hd : exists t, joinb [BSLASH] ((c :: m) :: names) = c :: t)
      by (destruct names; eexists; reflexivity).
    destruct Hd as (t & ->). cbn [app fs_as_posix]. rewrite ceqb_refl.
    destruct (ceqb_spec c BSLASH) as [->|_]; [destruct Nmb; left; reflexivity|]. reflexivity.
Qed.
Print Assumptions C138_as_posix_partial.

Example C138_as_posix_ex : Forall (fun n => n <> [] /\ ~ In BSLASH n) [B "C:"; B "a b"; B "c"]
  /\ fs_as_posix (B "C:\a b\c") = B "C:/a b/c".
Proof.
  split; [|vm_compute; reflexivity].
  repeat (constructor; [split; [discriminate|cbn; intros X; repeat (destruct X as [X|X]; [discriminate X|]); exact X]|]).
  constructor.
Qed.

(** Two backslashes, as before the name of a server, become one slash. *)
Theorem C138_as_posix_refuted : fs_as_posix (B "\\server\share") = B "/server/share".
Proof. vm_compute. reflexivity. Qed.
Print Assumptions C138_as_posix_refuted.

(** ** C139: which file is meant *)

(** All functions that look at files look at the place that the path leads to from the directory of
    the build file. *)
Theorem C139_looks_at : forall home cwd x file,
  is_abs cwd = true -> a_path (text x) -> ~ tilde (text x) -> (file = true \/ exists s, x = AString s) ->
  exists p, looks_at home cwd file x = Gives p /\ is_abs p = true /\ walk (comps p) = place cwd (text x).
Proof.
  intros home cwd x file A P T K. unfold looks_at.
  rewrite (fix_abs home cwd A); [|destruct x; cbn; [exact I|destruct K as [K|(s0 & K)]; [exact K|discriminate]]
                                 |exact P|right; exact T|reflexivity].
  eexists. split; [reflexivity|]. split; [reflexivity|]. apply place_walk.
Qed.
Print Assumptions C139_looks_at.

Theorem C139_reads : forall home cwd x,
  is_abs cwd = true -> a_path (text x) ->
  exists p, reads home cwd x = Gives p /\ is_abs p = true /\ walk (comps p) = place cwd (text x).
Proof.
  intros home cwd x A P. unfold reads.
  rewrite (fix_abs home cwd A); [|destruct x; cbn; first [exact I|reflexivity]|exact P|left; reflexivity|reflexivity].
  eexists. split; [reflexivity|]. split; [reflexivity|]. apply place_walk.
Qed.
Print Assumptions C139_reads.

(** is_samepath() is whether two paths lead to the same place, if they do not climb above the root. *)
Theorem C139_samepath_partial : forall home cwd x y,
  is_abs cwd = true -> a_path (text x) -> a_path (text y) ->
  fst (place cwd (text x)) = 0 -> fst (place cwd (text y)) = 0 ->
  exists b, fs_is_samepath home cwd x y = Gives b
    /\ (b = true <-> snd (place cwd (text x)) = snd (place cwd (text y))).
Proof.
  intros home cwd x y A Px Py Ux Uy. unfold fs_is_samepath, reads.
  rewrite (fix_abs home cwd A x); [|destruct x; cbn; first [exact I|reflexivity]|exact Px|left; reflexivity|reflexivity].
  rewrite (fix_abs home cwd A y); [|destruct y; cbn; first [exact I|reflexivity]|exact Py|left; reflexivity|reflexivity].
  cbn [obind]. eexists. split; [reflexivity|].
  destruct (beqb_spec (render true (flat (place cwd (text x)))) (render true (flat (place cwd (text y))))) as [E|N0].
  - split; [intros _|reflexivity].
    rewrite <- (place_walk cwd (text x)), <- (place_walk cwd (text y)), E. reflexivity.
  - split; [discriminate|]. intros E. destruct N0. f_equal. f_equal.
    destruct (place cwd (text x)), (place cwd (text y)). cbn [fst snd] in *. congruence.
Qed.
Print Assumptions C139_samepath_partial.

Example C139_ex : is_abs (B "/src/lib") = true /\ a_path (B "../a//b") /\ a_path (B "/src/./a/c/../b")
  /\ ~ tilde (B "../a//b") /\ place (B "/src/lib") (B "../a//b") = (0, [B "src"; B "a"; B "b"])
  /\ place (B "/src/lib") (B "/src/./a/c/../b") = (0, [B "src"; B "a"; B "b"])
  /\ looks_at None (B "/src/lib") false (AString (B "../a//b")) = Gives (B "/src/a/b")
  /\ fs_is_samepath None (B "/src/lib") (AString (B "../a//b")) (AFile (B "/src/./a/c/../b")) = Gives true.
Proof.
  split; [reflexivity|]. split; [split; [discriminate|apply nonul; reflexivity]|].
  split; [split; [discriminate|apply nonul; reflexivity]|]. split; [intros (r & X); discriminate|].
  repeat split; vm_compute; reflexivity.
Qed.

(** Above the root there is nothing, so that these are the same. *)
Theorem C139_samepath_above_root_refuted :
  location (B "/../a") = location (B "/a")
  /\ fs_is_samepath None (B "/src") (AString (B "/../a")) (AString (B "/a")) = Gives false.
Proof. split; vm_compute; reflexivity. Qed.
Print Assumptions C139_samepath_above_root_refuted.

(** A tilde is the home directory, if it stands alone. *)
Theorem C139_home_partial : forall h cwd,
  is_abs h = true -> exists p, fs_expanduser (Some h) cwd (B "~") = Gives p
    /\ is_abs p = true /\ walk (comps p) = walk (comps h).
Proof.
  intros h cwd A. assert (Nh : h <> []) by (intros ->; discriminate).
  unfold fs_expanduser. rewrite fix_path; [|exact I|split; [discriminate|apply nonul; reflexivity]].
  cbn [text expand]. change (path_is_absolute (B "~")) with false. cbv iota.
  change (B "~") with ["~"%char]. cbv iota. rewrite path_join_nil_r by exact Nh. cbn [path obind].
  pose proof (comps_good h) as G.
  assert (Ne : render (is_abs h) (comps h) ++ [SEP] <> [])
    by (intros X; apply app_eq_nil in X as (_ & X); discriminate).
  rewrite normalize_true by exact Ne. cbn [path].
  rewrite is_abs_app by (apply render_nonempty; exact G). rewrite is_abs_render by exact G. rewrite A.
  rewrite comps_app. change (comps []) with (@nil bytes). rewrite app_nil_r, comps_render by exact G.
  eexists. split; [reflexivity|]. split; [reflexivity|].
  apply walk_comps_flat. apply flat_walk_good.
Qed.
Print Assumptions C139_home_partial.

Example C139_home_ex : is_abs (B "/home/me") = true
  /\ fs_expanduser (Some (B "/home/me")) (B "/src") (B "~") = Gives (B "/home/me").
Proof. split; vm_compute; reflexivity. Qed.

(** What follows a tilde and a slash is looked for in the root directory, and the home of another
    user in one's own. *)
Theorem C139_home_refuted : forall h cwd r,
  is_abs h = true -> ~ In NUL r ->
  exists p, fs_expanduser (Some h) cwd (B "~/" ++ r) = Gives p
    /\ is_abs p = true /\ walk (comps p) = walk (comps r)
    /\ fs_expanduser (Some (B "/home/me")) (B "/src") (B "~you") = Gives (B "/home/me/you").
Proof.
  intros h cwd r A N0. unfold fs_expanduser at 1.
  rewrite fix_path; [|exact I|split; [discriminate|]].
  2:{ cbn [text]. intros X. apply in_app_or in X as [X|X]; [|exact (N0 X)].
      revert X. apply nonul. reflexivity. }
  cbn [text expand].
  change (B "~/" ++ r) with ("~"%char :: "/"%char :: r). change (path_is_absolute ("~"%char :: "/"%char :: r)) with false.
  cbv iota. rewrite path_join_abs by reflexivity. rewrite path_copy_nonempty by discriminate. cbn [path obind].
  rewrite normal_of_render by apply comps_good. cbn [path].
  pose proof (flat_walk_good ("/"%char :: r)) as G.
  eexists. split; [reflexivity|]. split; [apply is_abs_render; exact G|].
  split; [|vm_compute; reflexivity]. rewrite walk_comps_flat by exact G.
  change "/"%char with SEP. rewrite comps_root. reflexivity.
Qed.
Print Assumptions C139_home_refuted.

(** Empty paths and paths with a NUL are errors, and nothing makes these functions abort. *)
Theorem C139_rejects : forall home cwd x o,
  text x = [] \/ In NUL (text x) -> fix_file_path home cwd x o = Fails.
Proof.
  intros home cwd x o C. unfold fix_file_path.
  assert (K : forall s, s = [] \/ In NUL s -> forall k : out bytes,
    (if mem_char NUL s then Fails else if beqb s [] then Fails else k) = Fails).
  { intros s [->|X] k; [reflexivity|]. apply mem_char_In in X. rewrite X. reflexivity. }
  destruct x as [s|s]; cbn [text] in C; cbn [obind]; [apply (K s C)|].
  destruct (allow_file o); [apply (K s C)|reflexivity].
Qed.
Print Assumptions C139_rejects.

Theorem C139_never_aborts : forall home cwd x y suf file,
  looks_at home cwd file x <> Crash /\ reads home cwd x <> Crash /\ fs_parent home cwd x <> Crash
  /\ fs_name home cwd x <> Crash /\ fs_stem home cwd x <> Crash
  /\ fs_replace_suffix home cwd x suf <> Crash /\ fs_is_samepath home cwd x y <> Crash.
Proof.
  intros home cwd x y suf file.
  assert (F : forall x o (k : bytes -> out bytes), (forall p, k p <> Crash) ->
     obind (fix_file_path home cwd x o) k <> Crash).
  { intros x0 o k K. pose proof (fix_total home cwd x0 o) as T.
    destruct (fix_file_path home cwd x0 o); cbn [obind]; [apply K|discriminate|congruence]. }
  assert (Nm : fs_name home cwd x <> Crash).
  { apply F. intros p. destruct (basename_total p) as (q & ->). discriminate. }
  split; [apply fix_total|]. split; [apply fix_total|].
  split; [apply F; intros p; destruct (dirname_total p) as (q & ->); discriminate|].
  split; [exact Nm|].
  split; [unfold fs_stem; destruct (fs_name home cwd x); cbn [obind]; [discriminate|discriminate|congruence]|].
  split; [apply F; intros p; discriminate|]. unfold fs_is_samepath, reads.
  pose proof (fix_total home cwd x {| allow_file := true; expand := false; noabs := false |}) as T1.
  pose proof (fix_total home cwd y {| allow_file := true; expand := false; noabs := false |}) as T2.
  destruct (fix_file_path home cwd x _); cbn [obind]; [|discriminate|congruence].
  destruct (fix_file_path home cwd y _); cbn [obind]; [discriminate|discriminate|congruence].
Qed.
Print Assumptions C139_never_aborts.
