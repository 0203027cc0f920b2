(** C136, C137: what a pkg-config file written by pkgconfig.generate() names and what its
    variables mean. *)
From Coq Require Import List Lia.
From Verif Require Import Base M_Path M_Escape S_Path M_Pkgconf S_Pkgconf L_Pkgconf L_Pkgvars P_Path.
Import ListNotations.
Local Arguments B _ : simpl never.

(** no required file has a name that looks like a word for the linker *)
Definition requires_names (c : call) : Prop :=
  forall v r, call_brings c (IReq v ("-"%char :: r)) -> False.

(** ** C136 *)
Lemma generate_lists : forall opt c t t1 f, generate opt c t = Good (t1, f) ->
  exists a rpub rpriv lpub lpriv ex1 ex2 ex3 ex4,
    (forall i, (forall w, i <> IFlag w) -> (has a i <-> call_brings c i))
    /\ remove_dups (reqs a Pub) (exclude a) = (rpub, ex1)
    /\ remove_dups (libs a Pub) ex1 = (lpub, ex2)
    /\ remove_dups (reqs a Priv) ex2 = (rpriv, ex3)
    /\ remove_dups (libs a Priv) ex3 = (lpriv, ex4)
    /\ with_dir opt c (internal a Pub) lpub = Good (f_libs f Pub)
    /\ with_dir opt c (internal a Priv) lpriv = Good (f_libs f Priv)
    /\ process_reqs (g_requires c) rpub = Good (f_reqs f Pub)
    /\ process_reqs (g_requires_private c) rpriv = Good (f_reqs f Priv)
    /\ exists cf, (match g_subdirs c with Some ds => subdirs_cflags ds | None => Good [B "-I${includedir}"] end)
           = Good cf
         /\ (forall w, In w (cflags a) <-> In w cf \/ call_brings c (IFlag w))
         /\ f_cflags f = if g_dataonly c then [] else cflags a ++ g_cflags c.
Proof.
  intros opt c t t1 f H. unfold generate in H.
  destruct (match g_subdirs c with Some ds => subdirs_cflags ds | None => Good [B "-I${includedir}"] end)
    as [cf| |] eqn:Ec; try discriminate. cbn [rbind] in H.
  destruct (given_libs c (push_cflags cf acc0)) as [a| |] eqn:Ea; try discriminate. cbn [rbind] in H.
  destruct (remove_dups (reqs a Pub) (exclude a)) as [rpub ex1] eqn:R1.
  destruct (remove_dups (libs a Pub) ex1) as [lpub ex2] eqn:R2.
  destruct (remove_dups (reqs a Priv) ex2) as [rpriv ex3] eqn:R3.
  destruct (remove_dups (libs a Priv) ex3) as [lpriv ex4] eqn:R4.
  destruct (with_dir opt c (internal a Pub) lpub) as [lpub'| |] eqn:W1; try discriminate. cbn [rbind] in H.
  destruct (with_dir opt c (internal a Priv) lpriv) as [lpriv'| |] eqn:W2; try discriminate. cbn [rbind] in H.
  destruct (process_reqs (g_requires c) rpub) as [rpub'| |] eqn:Q1; try discriminate. cbn [rbind] in H.
  destruct (process_reqs (g_requires_private c) rpriv) as [rpriv'| |] eqn:Q2; try discriminate. cbn [rbind] in H.
  destruct (process_vars true _ _ _) as [[t2 vs1]| |]; try discriminate. cbn [rbind] in H.
  destruct (process_vars false _ _ _) as [[t3 vs2]| |]; try discriminate. cbn [rbind] in H.
  destruct (builtin_vars opt diropts t3) as [bs| |]; try discriminate. cbn [rbind] in H.
  injection H as _ <-. exists a, rpub, rpriv, lpub, lpriv, ex1, ex2, ex3, ex4. cbn [f_libs f_reqs].
  split.
  { intros i Nf. rewrite (given_has _ _ _ Ea i). rewrite has_cflags. split; [|tauto].
    intros [[X|(w & _ & X)]|X]; [|destruct (Nf w X)|exact X].
    destruct i; cbn in X; first [contradiction|discriminate]. }
  repeat (split; [assumption|]). exists cf. split; [reflexivity|]. split; [|reflexivity].
  intros w. rewrite (given_has _ _ _ Ea (IFlag w) : In w (cflags a) <-> _), has_cflags. cbn [has acc0 cflags].
  split; [intros [[[]|(w' & J & E)]|X]; [injection E as ->; left; exact J|right; exact X]|].
  intros [J|X]; [left; right; exists w; split; [exact J|reflexivity]|right; exact X].
Qed.

Lemma with_dir_spec : forall opt c own ws r, with_dir opt c own ws = Good r ->
  exists dir, r = dir ++ ws
    /\ (own = true -> ws <> [] -> g_install_dir c = None -> dir = [B "-L${libdir}"])
    /\ (own = false \/ ws = [] -> dir = []).
Proof.
  intros opt c own [|w ws] r H; cbn [with_dir] in H.
  - injection H as <-. exists []. split; [reflexivity|]. split; [congruence|reflexivity].
  - destruct own.
    + destruct (libdir_word opt (g_install_dir c)) as [d| |] eqn:E; try discriminate. cbn [rbind] in H.
      injection H as <-. exists [d]. split; [reflexivity|]. split.
      * intros _ _ N0. rewrite N0 in E. injection E as <-. reflexivity.
      * intros [X|X]; discriminate.
    + injection H as <-. exists []. split; [reflexivity|]. split; [discriminate|reflexivity].
Qed.

(** The Libs of the file are exactly the words of what is publicly linked, each once and without
    what is wholly part of another library; Libs.private has what is privately linked and not
    among the Libs.  A library of the project itself is preceded by its directory. *)
Theorem C136_libraries : forall opt c t t1 f v,
  generate opt c t = Good (t1, f) -> requires_names c ->
  exists dir ws, f_libs f v = dir ++ ws /\ NoDup ws
    /\ (forall w, In w ws <-> call_brings c (ILib v w) /\ ~ call_brings c (IWhole w)
          /\ (v = Priv -> ~ call_brings c (ILib Pub w)))
    /\ (call_brings c (IOwn v) -> ws <> [] -> g_install_dir c = None -> dir = [B "-L${libdir}"])
    /\ (~ call_brings c (IOwn v) \/ ws = [] -> dir = []).
Proof.
  intros opt c t t1 f v H Rn.
  destruct (generate_lists _ _ _ _ _ H)
    as (a & rpub & rpriv & lpub & lpriv & ex1 & ex2 & ex3 & ex4 & Ha & R1 & R2 & R3 & R4 & W1 & W2 & _).
  destruct (remove_dups_spec _ _ _ _ R1) as (A1 & N1 & X1).
  destruct (remove_dups_spec _ _ _ _ R2) as (A2 & N2 & X2).
  destruct (remove_dups_spec _ _ _ _ R3) as (A3 & N3 & X3).
  destruct (remove_dups_spec _ _ _ _ R4) as (A4 & N4 & X4).
  assert (Hl : forall v w, In w (libs a v) <-> call_brings c (ILib v w)) by (intros v' w; apply (Ha (ILib v' w)); discriminate).
  assert (Hr : forall v w, In w (reqs a v) <-> call_brings c (IReq v w)) by (intros v' w; apply (Ha (IReq v' w)); discriminate).
  assert (Hw : forall w, In w (exclude a) <-> call_brings c (IWhole w)) by (intros w; apply (Ha (IWhole w)); discriminate).
  assert (Ho : forall v, internal a v = true <-> call_brings c (IOwn v)) by (intros v'; apply (Ha (IOwn v')); discriminate).
  assert (Nr : forall v w, call_brings c (ILib v w) -> forall v', ~ In w (reqs a v')).
  { intros v1 w L v2 I0. apply Hr in I0. destruct (call_dash _ _ L) as (r & ->). exact (Rn _ _ I0). }
  assert (D : forall own ws r, with_dir opt c own ws = Good r -> own = internal a v ->
     exists dir, r = dir ++ ws
       /\ (call_brings c (IOwn v) -> ws <> [] -> g_install_dir c = None -> dir = [B "-L${libdir}"])
       /\ (~ call_brings c (IOwn v) \/ ws = [] -> dir = [])).
  { intros own ws r E ->. destruct (with_dir_spec _ _ _ _ _ E) as (dir & E1 & E2 & E3). exists dir.
    split; [exact E1|]. split.
    - intros O. apply E2. apply Ho. exact O.
    - intros [O|O]; apply E3; [left|right; exact O].
      destruct (internal a v) eqn:I0; [|reflexivity]. destruct O. apply Ho. exact I0. }
  destruct v.
  - destruct (D _ _ _ W1 eq_refl) as (dir & -> & E2 & E3). exists dir, lpub.
    split; [reflexivity|]. split; [exact N2|]. split; [|split; [exact E2|exact E3]].
    intros w. rewrite A2, X1, Hw, Hl. split.
    + intros (L & N0). split; [exact L|]. split; [tauto|discriminate].
    + intros (L & N0 & _). split; [exact L|]. intros [X|X]; [tauto|exact (Nr _ _ L _ X)].
  - destruct (D _ _ _ W2 eq_refl) as (dir & -> & E2 & E3). exists dir, lpriv.
    split; [reflexivity|]. split; [exact N4|]. split; [|split; [exact E2|exact E3]].
    intros w. rewrite A4, X3, X2, X1, Hw, !Hl. split.
    + intros (L & N0). split; [exact L|]. split; [tauto|]. intros _. tauto.
    + intros (L & N0 & N5). split; [exact L|]. specialize (N5 eq_refl).
      intros [[[X|X]|X]|X]; [tauto|exact (Nr _ _ L _ X)|tauto|exact (Nr _ _ L _ X)].
Qed.
Print Assumptions C136_libraries.

(** Requires and Requires.private name the files of what is linked and those that are given. *)
Theorem C136_requires : forall opt c t t1 f,
  generate opt c t = Good (t1, f) -> requires_names c ->
  (forall r, In r (f_reqs f Pub) <-> call_brings c (IReq Pub r)
     \/ exists l, In l (g_requires c) /\ names_file l r)
  /\ (forall r, In r (f_reqs f Priv) <->
        (call_brings c (IReq Priv r) /\ ~ call_brings c (IReq Pub r))
        \/ exists l, In l (g_requires_private c) /\ names_file l r).
Proof.
  intros opt c t t1 f H Rn.
  destruct (generate_lists _ _ _ _ _ H)
    as (a & rpub & rpriv & lpub & lpriv & ex1 & ex2 & ex3 & ex4 & Ha & R1 & R2 & R3 & R4 & _ & _ & Q1 & Q2 & _).
  destruct (remove_dups_spec _ _ _ _ R1) as (A1 & N1 & X1).
  destruct (remove_dups_spec _ _ _ _ R2) as (A2 & N2 & X2).
  destruct (remove_dups_spec _ _ _ _ R3) as (A3 & N3 & X3).
  assert (Hl : forall v w, In w (libs a v) <-> call_brings c (ILib v w)) by (intros v' w; apply (Ha (ILib v' w)); discriminate).
  assert (Hr : forall v w, In w (reqs a v) <-> call_brings c (IReq v w)) by (intros v' w; apply (Ha (IReq v' w)); discriminate).
  assert (Hw : forall w, In w (exclude a) <-> call_brings c (IWhole w)) by (intros w; apply (Ha (IWhole w)); discriminate).
  assert (Nw : forall v r, call_brings c (IReq v r) -> ~ call_brings c (IWhole r)).
  { intros v r X Y. destruct (call_dash _ _ Y) as (r' & ->). exact (Rn _ _ X). }
  assert (Nl : forall v r, call_brings c (IReq v r) -> forall v', ~ call_brings c (ILib v' r)).
  { intros v r X v' Y. destruct (call_dash _ _ Y) as (r' & ->). exact (Rn _ _ X). }
  split; intros r.
  - rewrite (reqs_spec _ _ _ Q1 r), A1, Hr, Hw. split.
    + intros [(X & _)|X]; [left; exact X|right; exact X].
    + intros [X|X]; [left; split; [exact X|exact (Nw _ _ X)]|right; exact X].
  - rewrite (reqs_spec _ _ _ Q2 r), A3, X2, X1, !Hr, Hw, Hl. split.
    + intros [(X & Y)|X]; [left; split; [exact X|tauto]|right; exact X].
    + intros [(X & Y)|X]; [left|right; exact X]. split; [exact X|].
      intros [[Z|Z]|Z]; [exact (Nw _ _ X Z)|exact (Y Z)|exact (Nl _ _ X _ Z)].
Qed.
Print Assumptions C136_requires.

(** the options of an installation *)
Definition opts (d : bytes) : bytes :=
  if beqb d (B "prefix") then B "/usr/local"
  else if beqb d (B "libdir") then B "lib"
  else if beqb d (B "includedir") then B "include"
  else if beqb d (B "bindir") then B "bin"
  else if beqb d (B "sysconfdir") then B "/etc"
  else B "share".

Definition base_call (l : lib) : call :=
  {| g_main := Some l; g_name := B "foo"; g_libs := []; g_libs_private := []; g_subdirs := None;
     g_requires := []; g_requires_private := []; g_cflags := []; g_vars := VList [];
     g_unescaped := VList []; g_dataonly := false; g_install_dir := None |}.

Definition static (n : bytes) (installed : bool) : lib := LTarget Static installed None n [] [] [].

(** a shared library that is linked with a static one that is not installed, wholly with another,
    and with a dependency that pkg-config knows; all of them are given once more *)
Definition a_lib : lib :=
  LTarget Shared true None (B "foo") [LPackage true (B "zlib"); LThreads true]
    [static (B "helper") false] [static (B "core") true].
Definition a_call : call :=
  {| g_main := Some a_lib; g_name := B "foo"; g_libs := [LString (B "-lm"); static (B "core") true];
     g_libs_private := [LPackage true (B "ssl"); LString (B "-lm"); LString (B "dl")];
     g_subdirs := Some [B "."; B "foo"]; g_requires := [LString (B "glib-2.0")];
     g_requires_private := []; g_cflags := [B "-DFOO"];
     g_vars := VList [B "tool=${bindir}/foo"; B "kind=x"]; g_unescaped := VList [];
     g_dataonly := false; g_install_dir := None |}.

Example C136_ex : exists t1 f, generate opts a_call dirs0 = Good (t1, f) /\ requires_names a_call
  /\ f_libs f Pub = [B "-L${libdir}"; B "-lfoo"; B "-lm"]
  /\ f_libs f Priv = [B "-pthread"; B "-ldl"]
  /\ f_reqs f Pub = [B "glib-2.0"] /\ f_reqs f Priv = [B "zlib"; B "ssl"]
  /\ f_cflags f = [B "-I${includedir}"; B "-I${includedir}/foo"; B "-DFOO"]
  /\ f_builtin f = [(B "prefix", B "/usr/local"); (B "bindir", B "${prefix}/bin");
                    (B "includedir", B "${prefix}/include"); (B "libdir", B "${prefix}/lib")]
  /\ f_vars f = [(B "tool", B "${bindir}/foo"); (B "kind", B "x")].
Proof.
  eexists _, _. split; [vm_compute; reflexivity|]. split; [|vm_compute; repeat split; reflexivity].
  intros v r H. assert (G : exists a, given_libs a_call acc0 = Good a
    /\ (forall v, forallb (fun x => negb (starts_with (B "-") x)) (reqs a v) = true)).
  { eexists. split; [vm_compute; reflexivity|]. intros []; reflexivity. }
  destruct G as (a & Ea & F). pose proof (proj2 (given_has _ _ _ Ea (IReq v ("-"%char :: r))) (or_intror H)) as X.
  cbn [has] in X. pose proof (proj1 (forallb_forall _ _) (F v) _ X) as E. discriminate E.
Qed.

(** Cflags has exactly the words for the subdirectories, or else for the include directory, those
    that the declared dependencies bring and those given; a relative subdirectory, which has a
    name, is looked for below the include directory. *)
Theorem C136_flags : forall opt c t t1 f,
  generate opt c t = Good (t1, f) -> g_dataonly c = false ->
  exists ws,
    match g_subdirs c with
    | Some ds => Forall2 (fun d w => d <> [] -> is_abs d = false -> includes d w) ds ws
    | None => ws = [B "-I${includedir}"]
    end
    /\ forall w, In w (f_cflags f) <-> In w ws \/ call_brings c (IFlag w) \/ In w (g_cflags c).
Proof.
  intros opt c t t1 f H Da.
  destruct (generate_lists _ _ _ _ _ H)
    as (a & rpub & rpriv & lpub & lpriv & ex1 & ex2 & ex3 & ex4 & _ & _ & _ & _ & _ & _ & _ & _ & _ & cf & Ec & Hc & Ef).
  rewrite Da in Ef. exists cf. split.
  - destruct (g_subdirs c) as [ds|]; [|injection Ec as <-; reflexivity].
    clear H Hc Ef. revert cf Ec. induction ds as [|x ds IH]; intros cf Ec; cbn [subdirs_cflags] in Ec.
    { injection Ec as <-. constructor. }
    destruct (if beqb x (B ".") then Good (B "-I${includedir}")
              else path (path_join (B "-I${includedir}") x)) as [w| |] eqn:E; try discriminate.
    cbn [rbind] in Ec. destruct (subdirs_cflags ds) as [r| |] eqn:Er; try discriminate.
    cbn [rbind] in Ec. injection Ec as <-. constructor; [|exact (IH r eq_refl)].
    intros Ne Ab. destruct (beqb_spec x (B ".")) as [->|Nd].
    + injection E as <-. apply inc_here.
    + destruct (C03_join_location (B "-I${includedir}") x ltac:(discriminate) Ne) as (q & Eq & Aq & Cq).
      rewrite Eq in E. injection E as ->. rewrite Ab in Aq, Cq.
      exact (inc_below x w Ne Nd Ab Aq Cq).
  - intros w. rewrite Ef, in_app_iff, Hc. tauto.
Qed.
Print Assumptions C136_flags.

(** A file for data only has none. *)
Theorem C136_dataonly : forall opt c t t1 f,
  generate opt c t = Good (t1, f) -> g_dataonly c = true -> f_cflags f = [].
Proof.
  intros opt c t t1 f H Da.
  destruct (generate_lists _ _ _ _ _ H)
    as (a & rpub & rpriv & lpub & lpriv & ex1 & ex2 & ex3 & ex4 & _ & _ & _ & _ & _ & _ & _ & _ & _ & cf & _ & _ & Ef).
  rewrite Da in Ef. exact Ef.
Qed.
Print Assumptions C136_dataonly.

(** a dependency that is not found brings nothing, one that is brings its words *)
Example C136_flags_ex : exists t1 f,
  generate opts {| g_main := None; g_name := B "foo";
     g_libs := [LDeclared true [B "-DX"] [] [] [LDeclared true [B "-DY"] [] [] []];
                LDeclared false [B "-DZ"] [] [] []];
     g_libs_private := []; g_subdirs := Some [B "foo"]; g_requires := [];
     g_requires_private := []; g_cflags := [B "-DFOO"]; g_vars := VList []; g_unescaped := VList [];
     g_dataonly := false; g_install_dir := None |} dirs0 = Good (t1, f)
  /\ f_cflags f = [B "-I${includedir}/foo"; B "-DX"; B "-DY"; B "-DFOO"].
Proof. eexists _, _. split; vm_compute; reflexivity. Qed.

(** All the code is about the file's own directory when install_dir is given: a library in
    [libdir] is then looked for where the file itself is installed. *)
Theorem C136_install_dir_refuted : exists c t1 f,
  generate opts c dirs0 = Good (t1, f) /\ requires_names c
  /\ g_main c = Some (LTarget Shared true None (B "foo") [] [] [])
  /\ g_install_dir c = Some (B "share/pkgconfig")
  /\ f_libs f Pub = [B "-L${prefix}/share/pkgconfig"; B "-lfoo"].
Proof.
  eexists {| g_main := Some (LTarget Shared true None (B "foo") [] [] []); g_name := B "foo"; g_libs := [];
     g_libs_private := []; g_subdirs := None; g_requires := []; g_requires_private := [];
     g_cflags := []; g_vars := VList []; g_unescaped := VList []; g_dataonly := false;
     g_install_dir := Some (B "share/pkgconfig") |}, _, _.
  split; [vm_compute; reflexivity|]. split; [|repeat split; vm_compute; reflexivity].
  intros v r H. inversion H as [l i E X|l i E X|l i E X]; subst; cbn in E; try contradiction.
  injection E as <-. inversion X; subst; contradiction.
Qed.
Print Assumptions C136_install_dir_refuted.

(** A library called libfoo, whose file is liblibfoo.so, and a file of a versioned library are
    linked by names that are not theirs; an absolute subdirectory loses its -I. *)
Theorem C136_names_refuted :
  (exists t1 f, generate opts (base_call (LTarget Shared true None (B "libfoo") [] [] [])) dirs0 = Good (t1, f)
     /\ f_libs f Pub = [B "-L${libdir}"; B "-lfoo"])
  /\ (exists t1 f, generate opts (base_call (LFile true false (B "/usr/lib/libfoo.so.1.2"))) dirs0 = Good (t1, f)
     /\ f_libs f Pub = [B "-lfoo.so.1"])
  /\ subdirs_cflags [B "/opt/include"] = Good [B "/opt/include"].
Proof.
  split; [|split; [|vm_compute; reflexivity]]; eexists _, _; split; vm_compute; reflexivity.
Qed.
Print Assumptions C136_names_refuted.

(** A requirement whose name is that of a word for the linker keeps the word from the file. *)
Theorem C136_exclusion_is_needed : exists c t1 f,
  generate opts c dirs0 = Good (t1, f) /\ call_brings c (ILib Pub (B "-lfoo"))
  /\ ~ call_brings c (IWhole (B "-lfoo")) /\ ~ In (B "-lfoo") (f_libs f Pub).
Proof.
  set (c := {| g_main := Some (LPackage true (B "-lfoo")); g_name := B "foo"; g_libs := [LString (B "foo")];
     g_libs_private := []; g_subdirs := None; g_requires := []; g_requires_private := [];
     g_cflags := []; g_vars := VList []; g_unescaped := VList []; g_dataonly := false;
     g_install_dir := None |}).
  exists c. eexists _, _. split; [vm_compute; reflexivity|]. split; [|split].
  - apply (c_libs c (LString (B "foo"))); [left; reflexivity|]. apply b_string. apply lname_spec. reflexivity.
  - intros H. inversion H as [l i E X|l i E X|l i E X]; subst; cbn in E.
    + injection E as <-. inversion X.
    + destruct E as [<-|[]]. inversion X.
    + contradiction.
  - cbn. intros [].
Qed.
Print Assumptions C136_exclusion_is_needed.

(** ** C137 *)

(** In every file that is not for data only, prefix and includedir are declared, and so is libdir
    if the file has libraries: whatever was generated before. *)
Theorem C137_its_own_directories : forall opt before t1 fs c t2 f d,
  generate_all opt before dirs0 = Good (t1, fs) -> generate opt c t1 = Good (t2, f) ->
  g_dataonly c = false ->
  d = B "prefix" \/ d = B "includedir" \/ (d = B "libdir" /\ exists v, f_libs f v <> []) ->
  In d (map fst (f_builtin f ++ f_vars f)).
Proof.
  intros opt before t1 fs c t2 f d Hb H Da C.
  assert (T : In d three) by (destruct C as [->|[->|(-> & _)]]; cbn; tauto).
  apply (declared opt c t1 t2 f d H).
  - destruct C as [->|[->|(-> & _)]]; unfold diropts; cbn [In]; tauto.
  - exact (started opt c t1 t2 f d H Da C).
  - intros A. destruct (all_added opt _ _ _ _ Hb d A) as [[]|(N0 & _)]. exact (N0 T).
Qed.
Print Assumptions C137_its_own_directories.

(** A directory that a variable begins with is declared, unless an earlier file had a variable of
    that name. *)
Theorem C137_references_are_declared_partial : forall opt before t1 fs c t2 f k d r,
  generate_all opt before dirs0 = Good (t1, fs) -> generate opt c t1 = Good (t2, f) ->
  g_dataonly c = false ->
  has_var c k (B "${" ++ d ++ B "}" ++ r) -> In d directories ->
  (forall b val, In b before -> g_dataonly b = false -> ~ has_var b d val) ->
  In d (map fst (f_builtin f ++ f_vars f)).
Proof.
  intros opt before t1 fs c t2 f k d r Hb H Da G D Nb.
  apply (declared opt c t1 t2 f d H D).
  - apply (referenced opt c t1 t2 f k (B "${" ++ d ++ B "}" ++ r) d r H Da G D).
    unfold var_ref. rewrite <- !app_assoc. reflexivity.
  - intros A. destruct (all_added opt _ _ _ _ Hb d A) as [[]|(_ & b & val & Ib & Db & Gb)].
    exact (Nb b val Ib Db Gb).
Qed.
Print Assumptions C137_references_are_declared_partial.

(** Reading the file gives every directory its path, and every variable that is plain text, or text
    after a directory, what it was given as. *)
Theorem C137_variables_mean_partial : forall opt before t1 fs c t2 f,
  (forall d, In d directories -> simple (opt d)) ->
  generate_all opt before dirs0 = Good (t1, fs) -> generate opt c t1 = Good (t2, f) ->
  g_dataonly c = false ->
  (forall b d val, In b (c :: before) -> g_dataonly b = false -> In d directories -> ~ has_var b d val) ->
  (forall k val, has_var c k val -> simple val
     \/ exists d r, In d directories /\ val = B "${" ++ d ++ B "}" ++ r /\ simple r) ->
  exists env, read_vars [] (f_builtin f ++ f_vars f) = Some env
    /\ (forall d v, In (d, v) env -> In d directories -> v = dir_path opt d)
    /\ (forall d, d = B "prefix" \/ d = B "includedir" \/ (d = B "libdir" /\ exists v, f_libs f v <> []) ->
        In (d, dir_path opt d) env)
    /\ (forall k val, has_var c k val -> simple val -> In (k, val) env)
    /\ (forall k d r, has_var c k (B "${" ++ d ++ B "}" ++ r) -> In d directories -> simple r ->
        In (k, dir_path opt d ++ r) env).
Proof.
  intros opt before t1 fs c t2 f So Hb H Da Nv Pv.
  assert (Nf : forall d, In d directories -> ~ In d (map fst (f_vars f)) /\ ~ In d (added t2)).
  { intros d D.
    destruct (generate_inv _ _ _ _ _ H) as (kv1 & kv2 & t0 & t3 & vs1 & vs2 & P1 & P2 & A0 & _ & D1 & D2 & Bu & V).
    rewrite Da in D1, D2. destruct (dict_spec _ _ _ _ _ D1) as (_ & _ & X1 & _ & F1).
    destruct (dict_spec _ _ _ _ _ D2) as (_ & _ & X2 & _ & F2).
    assert (M1 : ~ In d (map fst kv1)).
    { intros J. apply in_map_iff in J as ([k val] & <- & J).
      apply (Nv c k val (or_introl eq_refl) Da D). left. apply (pairs_gives _ _ P1). exact J. }
    assert (M2 : ~ In d (map fst kv2)).
    { intros J. apply in_map_iff in J as ([k val] & <- & J).
      apply (Nv c k val (or_introl eq_refl) Da D). right. apply (pairs_gives _ _ P2). exact J. }
    split.
    - rewrite V, map_app, in_app_iff, (given_nil _ _ _ F1), (given_nil _ _ _ F2). tauto.
    - intros J. destruct (X2 d J) as [J1|J1]; [|tauto]. destruct (X1 d J1) as [J2|J2]; [|tauto].
      rewrite A0 in J2. destruct (all_added opt _ _ _ _ Hb d J2) as [[]|(_ & b & val & Ib & Db & Gb)].
      exact (Nv b d val (or_intror Ib) Db D Gb). }
  assert (Known : forall d, In d directories -> In d (refd t2) -> In d (map fst (f_builtin f))).
  { intros d D R.
    destruct (generate_inv _ _ _ _ _ H) as (kv1 & kv2 & t0 & t3 & vs1 & vs2 & P1 & P2 & A0 & _ & D1 & D2 & Bu & V).
    destruct (builtin_spec _ _ _ _ Bu) as (M & _). rewrite M, filter_In. split; [exact D|].
    apply mem_spec in R. rewrite R. destruct (mem d (added t2)) eqn:Ma; [|reflexivity].
    apply mem_spec in Ma. destruct (proj2 (Nf d D) Ma). }
  destruct (generate_inv _ _ _ _ _ H) as (kv1 & kv2 & t0 & t3 & vs1 & vs2 & P1 & P2 & A0 & _ & D1 & D2 & Bu & V).
  destruct (builtin_spec _ _ _ _ Bu) as (M & Fb).
  assert (Pr : In (B "prefix") (map fst (f_builtin f))).
  { apply Known; [left; reflexivity|]. apply (started opt c t1 t2 f _ H Da). left. reflexivity. }
  (* the prefix comes first *)
  assert (Sh : exists rest, f_builtin f = (B "prefix", opt (B "prefix")) :: rest
    /\ Forall (fun kv => In (fst kv) directories /\ fst kv <> B "prefix" /\ builtin_var opt (fst kv) = Good kv) rest).
  { rewrite M in Pr. apply filter_In in Pr as (_ & Pp). unfold diropts in M. cbn [filter] in M.
    rewrite Pp in M. destruct (f_builtin f) as [|[k v] rest] eqn:Ef; [discriminate|].
    cbn [map fst] in M. injection M as -> M. inversion Fb as [|? ? E0 F']; subst. cbn [fst] in E0.
    exists rest. split.
    - pose proof (builtin_value opt So (B "prefix") v (or_introl eq_refl) E0) as ->. reflexivity.
    - apply Forall_forall. intros kv I0. pose proof (proj1 (Forall_forall _ _) F' kv I0) as E1.
      assert (J : In (fst kv) (tl directories)).
      { assert (J : In (fst kv) (map fst rest)) by (apply in_map; exact I0).
        rewrite M in J. change (In (fst kv) (filter (fun d => mem d (refd t2) && negb (mem d (added t2))) (tl directories))) in J.
        apply filter_In in J as (J & _). exact J. }
      split; [right; exact J|]. split; [|exact E1]. intros X. rewrite X in J. clear -J.
      cbn [tl directories] in J. repeat (destruct J as [J|J]; [discriminate J|]). exact J. }
  destruct Sh as (rest & Ef & Fr).
  destruct (read_builtin opt So rest [(B "prefix", dir_path opt (B "prefix"))] (knows_new opt _ _) Fr)
    as (env1 & E1 & K1 & K2 & K3).
  assert (Kn : forall d, In d (map fst (f_builtin f)) -> knows opt env1 d).
  { rewrite Ef. intros d [<-|I0]; [apply K1, knows_new|exact (K2 d I0)]. }
  rewrite Da in D1, D2. destruct (dict_spec _ _ _ _ _ D1) as (_ & _ & _ & _ & F1).
  destruct (dict_spec _ _ _ _ _ D2) as (_ & _ & _ & _ & F2).
  assert (Same : forall e kvs vs, (forall k val, In (k, val) kvs -> has_var c k val) ->
     Forall2 (given_value e) kvs vs -> vs = kvs).
  { intros e kvs vs G F. induction F as [|[k val] [k' v'] kvs vs (Ek & Ev) F IH]; [reflexivity|].
    cbn in Ek, Ev. subst k'.
    pose proof (plain_same e val v' (Pv k val (G k val (or_introl eq_refl))) Ev) as ->.
    rewrite IH; [reflexivity|]. intros k1 v1 I0. apply G. right. exact I0. }
  assert (G1 : forall k val, In (k, val) kv1 -> has_var c k val)
    by (intros k val I0; left; apply (pairs_gives _ _ P1); exact I0).
  assert (G2 : forall k val, In (k, val) kv2 -> has_var c k val)
    by (intros k val I0; right; apply (pairs_gives _ _ P2); exact I0).
  rewrite (Same _ _ _ G1 F1), (Same _ _ _ G2 F2) in V.
  assert (Vs : forall k val, has_var c k val <-> In (k, val) (f_vars f)).
  { intros k val. rewrite V, in_app_iff. unfold has_var.
    rewrite (pairs_gives _ _ P1), (pairs_gives _ _ P2). tauto. }
  set (ok := fun d => In d directories /\ exists k r, has_var c k (B "${" ++ d ++ B "}" ++ r)).
  assert (Ok : forall d, ok d -> In d directories /\ knows opt env1 d).
  { intros d (D & k & r & G). split; [exact D|]. apply Kn. apply Known; [exact D|].
    apply (referenced opt c t1 t2 f k (B "${" ++ d ++ B "}" ++ r) d r H Da G D).
    unfold var_ref. rewrite <- !app_assoc. reflexivity. }
  assert (Fv : Forall (fun kv => ~ In (fst kv) directories
      /\ (simple (snd kv) \/ exists d r, ok d /\ snd kv = B "${" ++ d ++ B "}" ++ r /\ simple r)) (f_vars f)).
  { apply Forall_forall. intros [k val] I0. cbn [fst snd]. pose proof (proj2 (Vs k val) I0) as G. split.
    - intros D. exact (Nv c k val (or_introl eq_refl) Da D G).
    - destruct (Pv k val G) as [X|(d & r & D & E & R)]; [left; exact X|right].
      exists d, r. split; [|split; [exact E|exact R]]. split; [exact D|]. exists k, r. rewrite <- E. exact G. }
  destruct (read_given opt (f_vars f) env1 ok Ok Fv) as (env & E2 & J1 & J2 & J3 & J4 & J5).
  exists env. split; [|split; [|split; [|split]]].
  - rewrite read_app, Ef. cbn [read_vars].
    rewrite (value_simple [] (opt (B "prefix")) (So _ (or_introl eq_refl))).
    change (opt (B "prefix")) with (dir_path opt (B "prefix")). rewrite E1. exact E2.
  - intros d v I0 D. destruct (J2 _ I0) as [X|X]; [|destruct (X D)].
    destruct (K3 _ X) as [[Y|[]]|(d' & Y)]; injection Y as <- <-; reflexivity.
  - intros d C. apply J5. apply find_in. apply Kn. apply Known.
    + destruct C as [->|[->|(-> & _)]]; unfold directories; cbn [In]; tauto.
    + exact (started opt c t1 t2 f d H Da C).
  - intros k val G Si. apply J3; [apply Vs; exact G|exact Si].
  - intros k d r G D R. apply J4; [apply Vs; exact G| |exact R]. split; [exact D|]. exists k, r. exact G.
Qed.
Print Assumptions C137_variables_mean_partial.

Definition opts2 (d : bytes) : bytes := if beqb d (B "sysconfdir") then B "etc" else opts d.

Example C137_ex : exists t1 fs t2 f,
  (forall d, In d directories -> simple (opts2 d))
  /\ generate_all opts2 [base_call a_lib] dirs0 = Good (t1, fs) /\ generate opts2 a_call t1 = Good (t2, f)
  /\ g_dataonly a_call = false /\ has_var a_call (B "tool") (B "${" ++ B "bindir" ++ B "}" ++ B "/foo")
  /\ (forall b d val, In b [a_call; base_call a_lib] -> g_dataonly b = false -> In d directories -> ~ has_var b d val)
  /\ (forall k val, has_var a_call k val -> simple val
     \/ exists d r, In d directories /\ val = B "${" ++ d ++ B "}" ++ r /\ simple r)
  /\ read_vars [] (f_builtin f ++ f_vars f)
     = Some [(B "kind", B "x"); (B "tool", B "/usr/local/bin/foo"); (B "libdir", B "/usr/local/lib");
             (B "includedir", B "/usr/local/include"); (B "bindir", B "/usr/local/bin");
             (B "prefix", B "/usr/local")].
Proof.
  assert (Si : forall s, forallb (fun c => negb (ceqb c "$") && negb (ceqb c " ") && negb (ceqb c NL)) s = true ->
    simple s).
  { intros s F. assert (Q : forall c, In c s -> c <> "$"%char /\ c <> " "%char /\ c <> NL).
    { intros c I0. pose proof (proj1 (forallb_forall _ _) F c I0) as E. cbv beta in E.
      repeat match type of E with (_ && _)%bool = true => apply andb_prop in E as [E ?] end.
      repeat split; intros ->; discriminate. }
    unfold simple. repeat split; intros X; apply Q in X; tauto. }
  assert (Vars : forall k val, has_var a_call k val ->
     (k = B "tool" /\ val = B "${bindir}/foo") \/ (k = B "kind" /\ val = B "x")).
  { assert (Pp : pairs_of (g_vars a_call) [(B "tool", B "${bindir}/foo"); (B "kind", B "x")]).
    { repeat constructor; cbn; intros X; repeat (destruct X as [X|X]; [discriminate X|]); exact X. }
    assert (Pq : pairs_of (g_unescaped a_call) []) by constructor.
    intros k val [G|G].
    - apply (pairs_gives _ _ Pp) in G as [[= <- <-]|[[= <- <-]|[]]]; tauto.
    - apply (pairs_gives _ _ Pq) in G as []. }
  eexists _, _, _, _. split; [|split; [vm_compute; reflexivity|split; [vm_compute; reflexivity|]]].
  { intros d D. apply Si. assert (F : forallb (fun d => forallb (fun c => negb (ceqb c "$") && negb (ceqb c " ")
      && negb (ceqb c NL)) (opts2 d)) directories = true) by (vm_compute; reflexivity).
    exact (proj1 (forallb_forall _ _) F d D). }
  split; [reflexivity|]. split; [|split; [|split; [|vm_compute; reflexivity]]].
  - left. apply in_list; [left; reflexivity|]. cbn.
    intros X; repeat (destruct X as [X|X]; [discriminate X|]); exact X.
  - intros b d val [<-|[<-|[]]] _ D G.
    + destruct (Vars d val G) as [(-> & _)|(-> & _)];
        repeat (destruct D as [D|D]; [discriminate D|]); exact D.
    + destruct G as [G|G]; inversion G; subst; contradiction.
  - intros k val G. destruct (Vars k val G) as [(-> & ->)|(-> & ->)].
    + right. exists (B "bindir"), (B "/foo"). split; [right; left; reflexivity|].
      split; [reflexivity|]. apply Si. reflexivity.
    + left. apply Si. reflexivity.
Qed.

(** the call that gives these variables *)
Definition vcall (vs : list bytes) (data : bool) : call :=
  {| g_main := None; g_name := B "foo"; g_libs := []; g_libs_private := []; g_subdirs := None;
     g_requires := []; g_requires_private := []; g_cflags := []; g_vars := VList vs;
     g_unescaped := VList []; g_dataonly := data; g_install_dir := None |}.

(** A file that declares bindir keeps it from being declared in all later files. *)
Theorem C137_later_files_refuted : exists t1 f1 t2 f2,
  generate opts (vcall [B "bindir=/opt/bin"] false) dirs0 = Good (t1, f1)
  /\ generate opts (vcall [B "tool=${bindir}/foo"] false) t1 = Good (t2, f2)
  /\ f_vars f2 = [(B "tool", B "${bindir}/foo")]
  /\ ~ In (B "bindir") (map fst (f_builtin f2 ++ f_vars f2))
  /\ read_vars [] (f_builtin f2 ++ f_vars f2) = None.
Proof.
  eexists _, _, _, _. split; [vm_compute; reflexivity|]. split; [vm_compute; reflexivity|].
  split; [reflexivity|]. split; [|vm_compute; reflexivity]. cbn.
  intros X; repeat (destruct X as [X|X]; [discriminate X|]); exact X.
Qed.
Print Assumptions C137_later_files_refuted.

(** A file for data only declares none of the directories that its variables refer to, and no file
    declares one that is referred to after the beginning of a value. *)
Theorem C137_data_and_inner_references_refuted :
  (exists t1 f, generate opts (vcall [B "dir=${datadir}/foo"] true) dirs0 = Good (t1, f)
     /\ f_builtin f = [] /\ read_vars [] (f_builtin f ++ f_vars f) = None)
  /\ (exists t1 f, generate opts (vcall [B "run=env ${bindir}/foo"] false) dirs0 = Good (t1, f)
     /\ ~ In (B "bindir") (map fst (f_builtin f)) /\ read_vars [] (f_builtin f ++ f_vars f) = None).
Proof.
  split; eexists _, _; (split; [vm_compute; reflexivity|]); (split; [|vm_compute; reflexivity]).
  - reflexivity.
  - cbn. intros X; repeat (destruct X as [X|X]; [discriminate X|]); exact X.
Qed.
Print Assumptions C137_data_and_inner_references_refuted.

(** A directory that is given as an absolute path is put below the prefix. *)
Theorem C137_absolute_directories_refuted : exists t1 f env,
  generate opts (vcall [B "conf=${sysconfdir}/foo"] false) dirs0 = Good (t1, f)
  /\ opts (B "sysconfdir") = B "/etc"
  /\ read_vars [] (f_builtin f ++ f_vars f) = Some env /\ In (B "conf", B "/usr/local//etc/foo") env.
Proof.
  eexists _, _, _. split; [vm_compute; reflexivity|]. split; [reflexivity|].
  split; [vm_compute; reflexivity|]. left. reflexivity.
Qed.
Print Assumptions C137_absolute_directories_refuted.
