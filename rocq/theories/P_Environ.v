(** Properties of environments. *)
From Coq Require Import Lia.
From Verif Require Import Base M_Environ S_Environ L_Environ.

(** C55: a command that is run with an environment object has, for every variable, the value that
    results from the operations on it, in order, starting from what was inherited; variables without
    operations are inherited. *)
Theorem C55_environments_replay_their_operations : forall (env : environ) (l : list call),
  (forall k v, env k = Some v -> no_nul v) -> Forall call_ok l -> l <> [] ->
  exists acts child, environment_calls [] l = Ok acts /\ run_with env acts = Ok child
    /\ forall k, child k = replay k (env k) l.
Proof.
  intros env l He F NE. exists (map act l). rewrite calls_acts by assumption.
  destruct (to_dict_ok env l He [] ltac:(split; constructor) F) as (d & E & [N P] & _ & ND & R).
  destruct (set_all_ok d [NUL] env N P (ND NE)) as (child & C & H).
  exists child. split; [reflexivity|]. split.
  - unfold run_with. rewrite E. exact C.
  - intros k. rewrite H, R. reflexivity.
Qed.
Print Assumptions C55_environments_replay_their_operations.

(** with operations of all kinds, on a variable that is inherited and on one that is not *)
Definition ex_calls : list call :=
  [ {| c_mode := Append; c_key := B "PATH"; c_vals := [B "/a"; B "/b"]; c_sep := None |};
    {| c_mode := Append; c_key := B "NEW"; c_vals := [B "x"]; c_sep := Some (B ",") |};
    {| c_mode := Prepend; c_key := B "PATH"; c_vals := [B "/c"]; c_sep := None |};
    {| c_mode := Append; c_key := B "NEW"; c_vals := [B "y"; B "z"]; c_sep := Some (B ",") |};
    {| c_mode := Set_; c_key := B "HOME"; c_vals := [B "/h"]; c_sep := None |} ].
Definition ex_env : environ := fun k => if beqb k (B "PATH") then Some (B "/bin") else if beqb k (B "LANG") then Some (B "C") else None.
Example ex_meets : Forall call_ok ex_calls /\ (forall k v, ex_env k = Some v -> no_nul v).
Proof.
  split.
  - unfold ex_calls. repeat constructor; cbn; try discriminate; repeat match goal with |- ~ _ => intros H end;
      try (intros s [= <-]); unfold no_nul; cbn; intuition discriminate.
  - intros k v. unfold ex_env. destruct (beqb k _); [intros [= <-]|destruct (beqb k _); [intros [= <-]|discriminate]]; unfold no_nul; cbn; intuition discriminate.
Qed.
Example ex_replay : map (fun k => replay k (ex_env k) ex_calls) [B "PATH"; B "NEW"; B "HOME"; B "LANG"; B "NONE"]
  = [Some (B "/c:/bin:/a:/b"); Some (B "x,y,z"); Some (B "/h"); Some (B "C"); None].
Proof. vm_compute. reflexivity. Qed.
Example ex_runs : match environment_calls [] ex_calls with
  | Ok acts => match run_with ex_env acts with
               | Ok e => map e [B "PATH"; B "NEW"; B "HOME"; B "LANG"; B "NONE"]
               | _ => [] end
  | _ => [] end = [Some (B "/c:/bin:/a:/b"); Some (B "x,y,z"); Some (B "/h"); Some (B "C"); None].
Proof. vm_compute. reflexivity. Qed.

(** what the hypotheses exclude does go wrong: a NUL byte in a value that is set defines another
    variable, a name with '=' keeps the command from being run, and an object without operations
    makes the program read behind the end of a buffer *)
Theorem C55_exclusions_are_needed :
  (exists acts child, environment_calls [] [ {| c_mode := Set_; c_key := B "A"; c_vals := [B "1" ++ [NUL] ++ B "B"]; c_sep := None |};
       {| c_mode := Set_; c_key := B "C"; c_vals := [B "2"]; c_sep := None |} ] = Ok acts /\
     run_with (fun _ => None) acts = Ok child /\ child (B "B") = Some (B "C") /\ child (B "C") = None)
  /\ run_with (fun _ => None) [act {| c_mode := Set_; c_key := B "A=B"; c_vals := [B "1"]; c_sep := None |}] = Error
  /\ (forall env, run_with env [] = Abort).
Proof.
  split; [|split].
  - eexists. eexists. split; [vm_compute; reflexivity|]. split; [vm_compute; reflexivity|]. split; vm_compute; reflexivity.
  - vm_compute. reflexivity.
  - intros env. reflexivity.
Qed.
Print Assumptions C55_exclusions_are_needed.

Lemma starts_with_spec p s : starts_with p s = true <-> exists t, s = p ++ t.
Proof.
  revert s. induction p as [|c p IH]; intros s; cbn; [split; [now exists s|reflexivity]|].
  destruct s as [|d s]; [split; [discriminate|now intros (t & [=])]|].
  destruct (ceqb_spec c d) as [->|N]; cbn.
  - rewrite IH. split; intros (t & E); exists t; congruence.
  - split; [discriminate|]. intros (t & [=]). congruence.
Qed.
Lemma name_value_unique k k' v v' : k ++ "="%char :: v = k' ++ "="%char :: v' -> ~ In "="%char k -> ~ In "="%char k' -> k = k' /\ v = v'.
Proof.
  revert k'. induction k as [|c k IH]; intros [|c' k'] E H H'; cbn in E.
  - split; [reflexivity|congruence].
  - injection E as <- E. exfalso. apply H'. now left.
  - injection E as -> E. exfalso. apply H. now left.
  - injection E as <- E. destruct (IH k' E) as [-> ->]; [intros K; apply H; now right|intros K; apply H'; now right|tauto].
Qed.
Lemma coerce_list_ok (pairs : list (bytes * bytes)) : Forall (fun p => is_name (fst p) /\ no_nul (snd p)) pairs -> forall d, fine d ->
  exists d', coerce_list d (map (fun p => fst p ++ "="%char :: snd p) pairs) = Ok d' /\ fine d'
    /\ forall k, ~ In "="%char k -> dict_index d' k = last_of k (dict_index d k) (map (fun p => fst p ++ "="%char :: snd p) pairs).
Proof.
  induction 1 as [|[n v] pairs [Hn Hv] P IH]; intros d Fd; cbn [map coerce_list fst snd] in *.
  - exists d. split; [reflexivity|]. split; [assumption|]. reflexivity.
  - unfold coerce_iter.
    assert (mem_char NUL (n ++ "="%char :: v) = false) as ->.
    { apply mem_char_not_In. rewrite in_app_iff. cbn. intros [K|[[=]|K]]; [now apply (proj1 Hn)|now apply Hv]. }
    assert (split_eql (n ++ "="%char :: v) = Some (n, v)) as -> by (apply split_eql_some; split; [reflexivity|apply Hn]).
    cbn [bind]. destruct (IH (dict_set d n v)) as (d' & -> & Fd' & R); [now apply fine_set|].
    exists d'. split; [reflexivity|]. split; [assumption|]. intros k Hk. rewrite R by assumption. cbn [last_of]. f_equal.
    destruct (starts_with (k ++ B "=") (n ++ "="%char :: v)) eqn:S.
    + apply starts_with_spec in S as (t & E). change (B "=") with ["="%char] in E. rewrite <- app_assoc in E. cbn [app] in E.
      destruct (name_value_unique _ _ _ _ E) as [-> ->]; [apply Hn|assumption|]. rewrite dict_set_same. f_equal.
      rewrite skipn_app. rewrite skipn_all2 by lia. replace (length k + 1 - length k) with 1 by lia. reflexivity.
    + apply dict_set_other. intros ->.
      assert (starts_with (k ++ B "=") (k ++ "="%char :: v) = true) by (apply starts_with_spec; exists v; now rewrite <- app_assoc).
      congruence.
Qed.
Lemma set_defaults_dict (defaults : list (bytes * bytes)) : forall d, Forall (fun p => is_name (fst p) /\ no_nul (snd p)) defaults -> fine d ->
  exists d', set_defaults defaults (ODict d) = ODict d' /\ fine d'
    /\ (defaults <> [] -> d' <> [])
    /\ forall k, ~ In k (map fst defaults) -> dict_index d' k = dict_index d k.
Proof.
  unfold set_defaults. induction defaults as [|[k v] ds IH]; intros d F Fd; cbn [fold_left].
  - exists d. split; [reflexivity|]. split; [assumption|]. split; [easy|]. reflexivity.
  - inversion F as [|? ? [Hk Hv] F']; subst. cbn [or_dict_set fst snd] in *.
    destruct (IH (dict_set d k v) F') as (d' & E & Fd' & _ & R); [now apply fine_set|].
    rewrite E. exists d'. split; [reflexivity|]. split; [assumption|]. split.
    + intros _ ->.
      assert (forall ds o, (exists d, o = ODict d /\ d <> []) -> exists d, fold_left (fun o '(k, v) => or_dict_set o k v) ds o = ODict d /\ d <> []) as K.
      { clear. induction ds as [|[k v] ds IH]; intros o H; cbn [fold_left]; [assumption|]. apply IH. destruct H as (d & -> & N). cbn.
        eexists. split; [reflexivity|]. destruct d as [|[a b] d]; [contradiction|]. cbn. destruct (beqb a k); discriminate. }
      destruct (K ds (ODict (dict_set d k v))) as (d' & E' & N').
      { eexists. split; [reflexivity|]. destruct d as [|[a b] d]; [discriminate|]. cbn. destruct (beqb a k); discriminate. }
      congruence.
    + intros j H. cbn in H. rewrite R by tauto. apply dict_set_other. tauto.
Qed.
(** C88, the part that holds: of a list of strings 'NAME=value', a command gets exactly these
    variables, the last of several for a name, next to the variables muon sets itself; a string
    without '=' or with a NUL byte is an error. *)
Theorem C88_environment_lists_partial : forall defaults heap (pairs : list (bytes * bytes)) (env : environ),
  Forall (fun p => is_name (fst p) /\ no_nul (snd p)) defaults -> defaults <> [] ->
  Forall (fun p => is_name (fst p) /\ no_nul (snd p)) pairs ->
  exists d child, coerce_environment defaults heap (Some (AList (map (fun p => fst p ++ "="%char :: snd p) pairs)))
      = Ok (heap ++ [ODict d], length heap)
    /\ child_environ env d = Ok child
    /\ forall k, is_name k -> ~ In k (map fst defaults) ->
       child k = match last_of k None (map (fun p => fst p ++ "="%char :: snd p) pairs) with Some v => Some v | None => env k end.
Proof.
  intros defaults heap pairs env D ND P.
  destruct (coerce_list_ok pairs P [] ltac:(split; constructor)) as (d & E & Fd & R).
  destruct (set_defaults_dict defaults d D Fd) as (d' & E' & [N' P'] & NE & R').
  destruct (set_all_ok d' [NUL] env N' P' (NE ND)) as (child & C & H).
  exists d', child. split; [|split].
  - cbn [coerce_environment]. rewrite E. cbn [bind]. now rewrite E'.
  - exact C.
  - intros k Hk NI. rewrite H. unfold look. rewrite R' by assumption. rewrite R by apply Hk. reflexivity.
Qed.
Print Assumptions C88_environment_lists_partial.

(** C88: malformed strings. *)
Theorem C88_malformed_strings_are_rejected : forall defaults heap l,
  (exists s, In s l /\ (~ In "="%char s \/ In NUL s)) -> coerce_environment defaults heap (Some (AList l)) = Error.
Proof.
  intros defaults heap l (s & I & H). cbn [coerce_environment].
  assert (forall d, coerce_list d l = Error) as ->; [|reflexivity].
  induction l as [|t l IH]; intros d; [destruct I|]. cbn [coerce_list]. unfold coerce_iter.
  destruct I as [->|I].
  - destruct (mem_char NUL s) eqn:M; [reflexivity|]. apply mem_char_not_In in M. destruct H as [H|H]; [|contradiction].
    destruct (split_eql s) as [[k v]|] eqn:E; [|reflexivity]. exfalso. apply split_eql_some in E as [-> _]. apply H, in_elt.
  - destruct (mem_char NUL t); [reflexivity|]. destruct (split_eql t) as [[k v]|]; [|reflexivity]. cbn [bind]. now apply IH.
Qed.
Print Assumptions C88_malformed_strings_are_rejected.

Example ex_list : exists d child, coerce_environment [(B "MESON_BUILD_ROOT", B "/b")] [] (Some (AList [B "A=1"; B "X=a=b"; B "A=2"])) = Ok ([ODict d], 0)
  /\ child_environ ex_env d = Ok child /\ map child [B "A"; B "X"; B "PATH"; B "MESON_BUILD_ROOT"] = [Some (B "2"); Some (B "a=b"); Some (B "/bin"); Some (B "/b")].
Proof. eexists. eexists. split; [vm_compute; reflexivity|]. split; vm_compute; reflexivity. Qed.

(** C88 as it stands is false: an empty name is accepted in a list (and then keeps the command from
    being run), though it is rejected in a dictionary *)
Theorem C88_refuted : exists d, coerce_environment [(B "MESON_BUILD_ROOT", B "/b")] [] (Some (AList [B "=1"])) = Ok ([ODict d], 0)
  /\ (forall env, child_environ env d = Error)
  /\ coerce_environment [] [ODict [([], B "1")]] (Some (ARef 0)) = Error.
Proof. eexists. split; [vm_compute; reflexivity|]. split; [intros env; vm_compute; reflexivity|]. vm_compute. reflexivity. Qed.
Print Assumptions C88_refuted.

(** C89, the part that holds: to pass a list of strings, or nothing, changes no object of the build file. *)
Theorem C89_passing_a_list_changes_nothing_partial : forall defaults heap a h' r,
  (forall i, a <> Some (ARef i)) -> coerce_environment defaults heap a = Ok (h', r) ->
  (forall i, i < length heap -> nth_error h' i = nth_error heap i) /\ length heap <= r < length h'.
Proof.
  intros defaults heap a h' r NR E. assert (exists o, h' = heap ++ [o] /\ r = length heap) as (o & -> & ->).
  { destruct a as [[l|i]|]; cbn [coerce_environment] in E.
    - destruct (coerce_list [] l); cbn [bind] in E; try discriminate. injection E as <- <-. now eexists.
    - destruct (NR i eq_refl).
    - injection E as <- <-. now eexists. }
  rewrite app_length. cbn. split; [|lia]. intros i L. now apply nth_error_app1.
Qed.
Print Assumptions C89_passing_a_list_changes_nothing_partial.
Example ex_passing : exists h', coerce_environment [(B "X", B "y")] [ODict [(B "A", B "1")]] None = Ok (h', 1) /\ nth_error h' 0 = Some (ODict [(B "A", B "1")]).
Proof. eexists. split; vm_compute; reflexivity. Qed.

(** C89 as it stands is false: a dictionary, or an environment object, that is passed gets the
    variables of muon added. *)
Theorem C89_refuted : exists h',
  coerce_environment [(B "MESON_BUILD_ROOT", B "/b")] [ODict [(B "A", B "1")]] (Some (ARef 0)) = Ok (h', 0)
  /\ nth_error h' 0 = Some (ODict [(B "A", B "1"); (B "MESON_BUILD_ROOT", B "/b")]).
Proof. eexists. split; vm_compute; reflexivity. Qed.
Print Assumptions C89_refuted.
