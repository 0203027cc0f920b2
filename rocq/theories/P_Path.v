(** Properties C01-C07: paths.  The vocabulary (is_abs, comps, walk, location, prefix_of)
    is in S_Path; the code is modelled in M_Path. *)
From Verif Require Import Base M_Path S_Path L_Path L_Path2 L_Path3.

(** C01: normalisation keeps kind and steps, and its result has only moving components and
    no trailing slash (except the two special texts "/" and "."). *)
Theorem C01_normalize_canonical : forall p, p <> [] ->
  exists q, path_normalize false p = Some q /\
    is_abs q = is_abs p /\ comps q = comps p /\
    (q = B "/" \/ q = B "." \/ (last q NUL <> "/"%char /\
       forall c, In c (split_on "/"%char (if is_abs q then tl q else q)) -> moves c = true)).
Proof. exact normalize_canonical. Qed.
Print Assumptions C01_normalize_canonical.
Example C01_ex : path_normalize false (B "/usr//./lib/../") = Some (B "/usr/lib/..").
Proof. vm_compute. reflexivity. Qed.

Theorem C01_normalize_same_iff : forall p q, p <> [] -> q <> [] ->
  (path_normalize false p = path_normalize false q <-> is_abs p = is_abs q /\ comps p = comps q).
Proof. exact normalize_same_iff. Qed.
Print Assumptions C01_normalize_same_iff.
Example C01_same_ex : is_abs (B "a//b") = is_abs (B "./a/b/") /\ comps (B "a//b") = comps (B "./a/b/").
Proof. vm_compute. auto. Qed.

Theorem C01_normalize_idempotent : forall p q,
  path_normalize false p = Some q -> path_normalize false q = Some q.
Proof. exact normalize_idempotent. Qed.
Print Assumptions C01_normalize_idempotent.

(** C02 *)
Theorem C02_optimize_lexical : forall p, p <> [] ->
  exists q, path_normalize true p = Some q /\ is_abs q = is_abs p /\
    walk (comps q) = walk (comps p) /\
    exists u st, comps q = repeat (B "..") u ++ st /\ ~ In (B "..") st.
Proof. exact optimize_spec. Qed.
Print Assumptions C02_optimize_lexical.
Example C02_ex : path_normalize true (B "a/../../b/c/../d") = Some (B "../b/d").
Proof. vm_compute. reflexivity. Qed.

(** C03 *)
Theorem C03_join_location : forall a b, a <> [] -> b <> [] ->
  exists r, path_join a b = Some r /\
    is_abs r = (is_abs a || is_abs b) /\
    comps r = (if is_abs b then comps b else comps a ++ comps b).
Proof. exact join_spec. Qed.
Print Assumptions C03_join_location.

Theorem C03_join_assoc : forall a b c, a <> [] -> b <> [] -> c <> [] ->
  is_abs b = false -> is_abs c = false ->
  exists ab bc r, path_join a b = Some ab /\ path_join b c = Some bc /\
    path_join ab c = Some r /\ path_join a bc = Some r.
Proof. exact join_assoc. Qed.
Print Assumptions C03_join_assoc.
Example C03_ex : is_abs (B "b/../x") = false /\ path_join (B "/a") (B "b/../x") = Some (B "/a/b/../x").
Proof. vm_compute. auto. Qed.

Theorem C03_join_empty_tail : forall a, a <> [] ->
  exists n, path_normalize false a = Some n /\ path_join a [] = Some (n ++ B "/").
Proof. exact join_nil. Qed.
Print Assumptions C03_join_empty_tail.

(** The same for the script function join_paths with any number of arguments. *)
Theorem C03_join_paths : forall p ps, p <> [] -> ps <> [] ->
  Forall (fun q => q <> [] /\ is_abs q = false) ps ->
  exists r, join_paths (p :: ps) = Some r /\ is_abs r = is_abs p /\
    comps r = concat (map comps (p :: ps)).
Proof. exact join_paths_spec. Qed.
Print Assumptions C03_join_paths.
Example C03_join_paths_ex : join_paths [B "/a"; B "b/"; B "./c"] = Some (B "/a/b/c").
Proof. vm_compute. reflexivity. Qed.

(** C04 *)
Theorem C04_relative_leads_back : forall base path,
  is_abs base = true -> is_abs path = true ->
  exists rel j, path_relative_to base path = Some rel /\ path_join base rel = Some j /\
    is_abs j = true /\ location j = location path.
Proof.
  intros base path Hb Hp.
  apply relative_to_join; auto; intro; subst; discriminate.
Qed.
Print Assumptions C04_relative_leads_back.
Example C04_ex : path_relative_to (B "/home/u/build/x") (B "/home/u/src/../a.c") = Some (B "../../a.c").
Proof. vm_compute. reflexivity. Qed.

(** C05: for a base with at least one step, or an absolute one *)
Theorem C05_is_subpath_prefix_partial : forall base sub,
  base <> [] -> sub <> [] -> (is_abs base = true \/ comps base <> []) ->
  exists r, path_is_subpath base sub = Some r /\
    (r = true <-> is_abs base = is_abs sub /\ prefix_of (comps base) (comps sub)).
Proof. exact path_is_subpath_spec. Qed.
Print Assumptions C05_is_subpath_prefix_partial.
Example C05_ex : path_is_subpath (B "/a/b") (B "/a//b/c") = Some true
  /\ path_is_subpath (B "/a/b") (B "/a/bc") = Some false.
Proof. vm_compute. auto. Qed.

(** The missing case: the relative base "." has no steps, so by the property every relative
    path lies below it, but the code answers false. *)
Theorem C05_dot_base_refuted : exists base sub,
  base <> [] /\ sub <> [] /\ is_abs base = is_abs sub /\ prefix_of (comps base) (comps sub) /\
  path_is_subpath base sub = Some false.
Proof.
  exists (B "."), (B "a"). repeat split; try discriminate. exists [B "a"]. reflexivity.
Qed.
Print Assumptions C05_dot_base_refuted.

(** C06 *)
Theorem C06_dirname_basename : forall p, p <> [] -> comps p <> [] ->
  exists d b n, path_dirname p = Some d /\ path_basename p = Some b /\
    path_normalize false p = Some n /\
    ~ In "/"%char b /\ comps p = comps d ++ [b] /\ path_join d b = Some n.
Proof. exact dirname_join_basename. Qed.
Print Assumptions C06_dirname_basename.
Example C06_ex : path_dirname (B "/a/b//c/") = Some (B "/a/b") /\ path_basename (B "/a/b//c/") = Some (B "c").
Proof. vm_compute. auto. Qed.

Theorem C06_no_component : forall p, p <> [] -> comps p = [] ->
  path_basename p = Some (if is_abs p then [] else B ".") /\
  path_dirname p = Some (if is_abs p then B "/" else B ".").
Proof. intros p Hp Hc. destruct (dirname_basename_root p Hp Hc) as [H1 H2].
  split; [exact H1|]. rewrite H2. destruct (is_abs p); reflexivity. Qed.
Print Assumptions C06_no_component.

(** C07: with an absolute DESTDIR, a destination without ".." ends up below it. *)
Theorem C07_destdir_confined : forall destdir dest,
  is_abs destdir = true -> ~ In (B "..") (comps dest) ->
  exists r, path_join_absolute destdir dest = Some r /\ is_abs r = true /\
    location r = location destdir ++ comps dest.
Proof. exact destdir_confined. Qed.
Print Assumptions C07_destdir_confined.
Example C07_ex : path_join_absolute (B "/tmp/d/") (B "/usr/bin/x") = Some (B "/tmp/d/usr/bin/x").
Proof. vm_compute. reflexivity. Qed.
