(** C128: where install_data and install_headers put files; C129: manual pages; C130: directories and links. *)
From Coq Require Import NArith.
From Verif Require Import Base M_Path S_Path L_Path L_Path2 L_Path3 M_Install S_Install P_Install M_Custom S_Custom L_Custom M_Dest S_Dest L_Dest.
Local Arguments B _ : simpl never.

(** ** C128 *)
(** Every header goes to the directory of headers, or the one asked for, under its own name or (preserve_path) the path given. *)
Theorem C128_headers : forall there d a ts, is_abs (d_cwd d) = true -> is_abs (d_prefix d) = true -> there [] = false ->
  (forall i, In i (h_items a) -> has_name i) ->
  install_headers (fun p => there (location p)) d a = ROk ts ->
  Forall2 (fun i t => exists perm, mode_means (h_mode a) perm /\ there_is there (d_cwd d) i /\
    goes_below (d_cwd d) (headers_go d a) (is_on (h_preserve a)) perm i t) (h_items a) ts.
Proof.
  intros there d a ts Hc Hp Hr Hn H. unfold install_headers in H.
  assert (X : exists dir, along [d_prefix d; dir] = along (headers_go d a) /\ (forall s, along ([d_prefix d; dir] ++ [s]) = along (headers_go d a ++ [s])) /\
    push_targets (fun p => there (location p)) d (h_items a) dir (h_mode a) (match h_preserve a with Some b => b | None => false end) = ROk ts).
  { unfold headers_go. destruct (h_dir a) as [s|], (h_subdir a) as [s'|]; try discriminate H.
    - exists s. auto.
    - destruct (join_any (d_include d) s') as (r & E & _). rewrite E in H. exists r. pose proof (along_join (d_prefix d) _ _ _ E) as W. split; [exact W|]. split; [|exact H].
      intros q. rewrite !along_snoc. now rewrite W.
    - exists (d_include d). auto. }
  destruct X as (dir & W1 & W2 & E). replace (match h_preserve a with Some b => b | None => false end) with (is_on (h_preserve a)) in E by (destruct (h_preserve a) as [[]|]; reflexivity).
  apply (targets_is there d Hc Hp Hr) in E; [|exact Hn]. eapply forall2_map; [|exact E]. cbn beta. intros i t _ (perm & M & T & F & G). exists perm. split; [exact M|]. split; [exact T|]. split; [exact F|].
  destruct (is_on (h_preserve a)).
  - destruct G as (s & Ei & G). exists s. split; [exact Ei|]. now rewrite <- W2.
  - destruct G as (n & L & G). exists n. split; [exact L|]. now rewrite <- W1.
Qed.
Print Assumptions C128_headers.
(** It is an error exactly if a named file does not exist, preserve_path meets a file object, the mode is malformed, or both
    directories are given. *)
Theorem C128_headers_accepted : forall there d a, is_abs (d_cwd d) = true -> is_abs (d_prefix d) = true -> there [] = false ->
  (forall i, In i (h_items a) -> has_name i) ->
  (exists ts, install_headers (fun p => there (location p)) d a = ROk ts) <->
  (h_dir a = None \/ h_subdir a = None) /\
  forall i, In i (h_items a) -> (exists perm, mode_means (h_mode a) perm) /\ there_is there (d_cwd d) i /\ (is_on (h_preserve a) = true -> exists s, i = IStr s).
Proof.
  intros there d a Hc Hp Hr Hn. unfold install_headers.
  replace (match h_preserve a with Some b => b | None => false end) with (is_on (h_preserve a)) by (destruct (h_preserve a) as [[]|]; reflexivity).
  pose proof (fun dir => targets_can there d Hc Hp Hr (h_items a) dir (h_mode a) (is_on (h_preserve a)) Hn) as C.
  destruct (h_dir a) as [s|], (h_subdir a) as [s'|].
  - split; [intros (ts & X); discriminate X|]. intros [[X|X] _]; discriminate X.
  - cbn [rbind]. rewrite (C s). split; [auto|]. now intros [_ X].
  - destruct (join_any (d_include d) s') as (r & E & _). rewrite E. cbn [must rbind]. rewrite (C r). split; [auto|]. now intros [_ X].
  - cbn [rbind]. rewrite (C (d_include d)). split; [auto|]. now intros [_ X].
Qed.
Print Assumptions C128_headers_accepted.

Lemma data_dir d a : exists dir, (match a_dir a with Some s => ROk s | None => must (path_join (d_data d) (d_project d)) end) = ROk dir /\
  along [d_prefix d; dir] = along (data_goes d a).
Proof.
  unfold data_goes. destruct (a_dir a) as [s|]; [exists s; auto|]. destruct (join_any (d_data d) (d_project d)) as (r & E & _). rewrite E. exists r. split; [reflexivity|].
  exact (along_join _ _ _ _ E).
Qed.
(** Every file of install_data goes to the project's directory of data, or the one asked for. *)
Theorem C128_data : forall there d a ts, is_abs (d_cwd d) = true -> is_abs (d_prefix d) = true -> there [] = false ->
  (forall i, In i (a_items a ++ a_sources a) -> has_name i) -> a_rename a = None ->
  install_data (fun p => there (location p)) d a = ROk ts ->
  Forall2 (fun i t => exists perm, mode_means (a_mode a) perm /\ there_is there (d_cwd d) i /\
    goes_below (d_cwd d) (data_goes d a) (is_on (a_preserve a)) perm i t) (a_items a ++ a_sources a) ts.
Proof.
  intros there d a ts Hc Hp Hr Hn Rn H. unfold install_data in H. rewrite Rn in H. destruct (data_dir d a) as (dir & E & W). rewrite E in H. cbn [rbind] in H.
  assert (P : push_targets (fun p => there (location p)) d (a_items a ++ a_sources a) dir (a_mode a) (is_on (a_preserve a)) = ROk ts) by (destruct (a_preserve a) as [[]|]; exact H).
  apply (targets_is there d Hc Hp Hr) in P; [|exact Hn]. eapply forall2_map; [|exact P]. cbn beta. intros i t _ (perm & M & T & F & G). exists perm. split; [exact M|]. split; [exact T|]. split; [exact F|].
  destruct (is_on (a_preserve a)).
  - destruct G as (s & Ei & G). exists s. split; [exact Ei|]. rewrite along_snoc in *. now rewrite <- W.
  - destruct G as (n & L & G). exists n. split; [exact L|]. now rewrite <- W.
Qed.
Print Assumptions C128_data.
Theorem C128_data_accepted : forall there d a, is_abs (d_cwd d) = true -> is_abs (d_prefix d) = true -> there [] = false ->
  (forall i, In i (a_items a ++ a_sources a) -> has_name i) -> a_rename a = None ->
  (exists ts, install_data (fun p => there (location p)) d a = ROk ts) <->
  forall i, In i (a_items a ++ a_sources a) ->
    (exists perm, mode_means (a_mode a) perm) /\ there_is there (d_cwd d) i /\ (is_on (a_preserve a) = true -> exists s, i = IStr s).
Proof.
  intros there d a Hc Hp Hr Hn Rn. unfold install_data. rewrite Rn. destruct (data_dir d a) as (dir & E & W). rewrite E. cbn [rbind].
  rewrite <- (targets_can there d Hc Hp Hr _ dir (a_mode a) (is_on (a_preserve a)) Hn). destruct (a_preserve a) as [[]|]; reflexivity.
Qed.
Print Assumptions C128_data_accepted.
(** With rename, the files go to that directory under the new names, one by one, if the mode is well formed. *)
Theorem C128_data_renamed_partial : forall there d a names ts perm, is_abs (d_cwd d) = true -> is_abs (d_prefix d) = true -> there [] = false ->
  a_rename a = Some names -> mode_means (a_mode a) perm ->
  install_data (fun p => there (location p)) d a = ROk ts ->
  length ts = length (a_items a ++ a_sources a) /\ length names = length (a_items a ++ a_sources a) /\
  forall k i n, nth_error (a_items a ++ a_sources a) k = Some i -> nth_error names k = Some n ->
    there_is there (d_cwd d) i /\
    exists t, nth_error ts k = Some t /\ the_file (d_cwd d) i (tsrc t) /\ put_at perm (along (data_goes d a ++ [n])) t.
Proof.
  intros there d a names ts perm Hc Hp Hr Rn M H. unfold install_data in H. rewrite Rn in H. destruct (a_preserve a); [discriminate H|].
  destruct (data_dir d a) as (dir & E & W). rewrite E in H. cbn [rbind] in H. destruct (Nat.eqb_spec (length names) (length (a_items a ++ a_sources a))) as [L|]; [|discriminate H].
  apply rbind_ok in H as (files & F & H). apply (coerce_items there d Hc Hr) in F. pose proof (forall2_len _ _ _ F) as Lf.
  destruct (rename_can d Hp dir (a_mode a) perm names files M) as (ts' & E' & L' & K); [congruence|]. rewrite H in E'. injection E' as <-.
  split; [congruence|]. split; [exact L|]. intros k i n Hi Hk.
  assert (X : exists p, nth_error files k = Some p /\ the_file (d_cwd d) i p /\ there_is there (d_cwd d) i).
  { clear -F Hi. revert k Hi. induction F as [|i' p l ps [F1 F2] F IH]; intros [|k] Hi; cbn in *; try discriminate; [|eauto]. injection Hi as <-. eauto. }
  destruct X as (p & Hp' & F1 & F2). split; [exact F2|]. destruct (K k p n Hp' Hk) as (t & T1 & T2 & T3). exists t. rewrite T2. split; [exact T1|]. split; [exact F1|].
  change [d_prefix d; dir; n] with ([d_prefix d; dir] ++ [n]) in T3. rewrite along_snoc in *. now rewrite <- W.
Qed.
Print Assumptions C128_data_renamed_partial.
Theorem C128_renamed_accepted_partial : forall there d a names perm, is_abs (d_cwd d) = true -> is_abs (d_prefix d) = true -> there [] = false ->
  a_rename a = Some names -> mode_means (a_mode a) perm ->
  (exists ts, install_data (fun p => there (location p)) d a = ROk ts) <->
  a_preserve a = None /\ length names = length (a_items a ++ a_sources a) /\ forall i, In i (a_items a ++ a_sources a) -> there_is there (d_cwd d) i.
Proof.
  intros there d a names perm Hc Hp Hr Rn M. unfold install_data. rewrite Rn. destruct (a_preserve a); [split; [intros (ts & X); discriminate X|intros (X & _); discriminate X]|].
  destruct (data_dir d a) as (dir & E & W). rewrite E. cbn [rbind]. destruct (Nat.eqb_spec (length names) (length (a_items a ++ a_sources a))) as [L|L].
  - split.
    + intros (ts & X). split; [reflexivity|]. split; [exact L|]. apply rbind_ok in X as (files & F & _). apply (coerce_items there d Hc Hr) in F. clear -F. intros i Hi.
      induction F as [|i' p l ps [F1 F2] F IH]; [destruct Hi|]. destruct Hi as [<-|Hi]; auto.
    + intros (_ & _ & T). destruct (coerce_all_can there d Hc (map SItem (a_items a ++ a_sources a))) as (files & F).
      { intros s Hs. apply in_map_iff in Hs as (i & <- & Hi). exact (T i Hi). }
      rewrite F. cbn [rbind]. apply (coerce_items there d Hc Hr) in F. pose proof (forall2_len _ _ _ F) as Lf. destruct (rename_can d Hp dir (a_mode a) perm names files M) as (ts & X & _); [congruence|]. eauto.
  - split; [intros (ts & X); discriminate X|]. intros (_ & X & _). congruence.
Qed.
Print Assumptions C128_renamed_accepted_partial.
(** A malformed mode is noticed without rename; with it the call succeeds and nothing is installed. *)
Definition C128_dirs := {| d_prefix := B "/usr"; d_data := B "share"; d_include := B "include"; d_man := B "share/man"; d_project := B "p"; d_cwd := B "/src/sub" |}.
Definition C128_args (r : option (list bytes)) := {| a_items := [IStr (B "../x.txt")]; a_sources := []; a_dir := None; a_mode := Some [MStr (B "rwx")]; a_rename := r; a_preserve := None |}.
Theorem C128_rename_bad_mode_refuted : exists there d a, is_abs (d_cwd d) = true /\ is_abs (d_prefix d) = true /\ there [] = false /\
  (forall perm, ~ mode_means (a_mode a) perm) /\ a_items a <> [] /\ install_data (fun p => there (location p)) d a = ROk [].
Proof.
  exists (fun l => match l with [] => false | _ => true end), C128_dirs, (C128_args (Some [B "y.txt"])). repeat split; try discriminate.
  intros perm (_ & m & _ & E & _). apply (f_equal (@length _)) in E. vm_compute in E. discriminate.
Qed.
Print Assumptions C128_rename_bad_mode_refuted.
(** The outputs of custom targets: those with [false] for a directory stay, the others go to theirs. *)
Definition kept (items : list item) (ds : list (option bytes)) : list (item * bytes) :=
  flat_map (fun x => match snd x with Some s => [(fst x, s)] | None => [] end) (combine items ds).
Theorem C128_outputs : forall there d items ds mode ts, is_abs (d_cwd d) = true -> is_abs (d_prefix d) = true -> there [] = false ->
  (forall i, In i items -> has_name i) ->
  push_targets_arr (fun p => there (location p)) d items ds mode = ROk ts ->
  length items = length ds /\
  Forall2 (fun x t => exists perm, mode_means mode perm /\ goes_below (d_cwd d) [d_prefix d; snd x] false perm (fst x) t) (kept items ds) ts.
Proof.
  intros there d items ds mode ts Hc Hp Hr Hn H. unfold push_targets_arr in H. destruct (Nat.eqb_spec (length items) (length ds)) as [L|]; [|discriminate H]. split; [exact L|].
  revert ds ts L H. induction items as [|i items IH]; intros [|[dir|] ds] ts L H; try discriminate L; cbn [push_zip] in H.
  - injection H as <-. constructor.
  - apply rbind_ok in H as (t & E & H). apply rbind_ok in H as (ts' & H & [= <-]). injection L as L. unfold kept. cbn [combine flat_map snd fst app]. constructor.
    + apply (push_one_is there d Hc Hp Hr) in E as (perm & M & _ & G); [eauto|]. apply Hn. now left.
    + apply (IH (fun j Hj => Hn j (or_intror Hj)) ds ts' L H).
  - injection L as L. unfold kept. cbn [combine flat_map snd fst app]. exact (IH (fun j Hj => Hn j (or_intror Hj)) ds ts L H).
Qed.
Print Assumptions C128_outputs.
(** And that is where muon install copies them: if nothing fails, every header is there, below DESTDIR if there is one. *)
Theorem C128_installed_partial : forall there d a ts w o cwd m r l, is_abs (d_cwd d) = true -> is_abs (d_prefix d) = true -> there [] = false ->
  (forall i, In i (h_items a) -> has_name i) -> is_on (h_preserve a) = false ->
  install_headers (fun p => there (location p)) d a = ROk ts -> incl ts (targets m) ->
  dry_run o = false -> (forall l d, exists_ w l d = true -> is_dir w l d = true) ->
  (forall t n tr, In t (targets m) -> In (n, tr) (entries_of w (tsrc t)) -> plain tr) ->
  install_run w o cwd (Loaded m) = Some (r, l) -> clean l ->
  forall i, In i (h_items a) -> exists src n dest t, the_file (d_cwd d) i src /\ last_name src n /\
    comps (tdest t) = along (headers_go d a) ++ [n] /\ goes_to o cwd t dest /\ (done (CopyFile src dest) l \/ done (CopyDir src dest) l).
Proof.
  intros there d a ts w o cwd m r l Hc Hp Hr Hn Pr H Inc Hd Ho Hpl Run Cl i Hi.
  pose proof (C58_no_failure_partial w o cwd m r l Hd Ho Hpl Run Cl) as [Inst _].
  pose proof (C128_headers there d a ts Hc Hp Hr Hn H) as F. rewrite Pr in F.
  assert (X : exists t, In t ts /\ exists perm, goes_below (d_cwd d) (headers_go d a) false perm i t).
  { clear -F Hi. induction F as [|i' t l ts (perm & _ & _ & G) F IH]; [destruct Hi|]. destruct Hi as [->|Hi]; [exists t; split; [now left|eauto]|].
    destruct (IH Hi) as (t' & T1 & T2). exists t'. split; [now right|exact T2]. }
  destruct X as (t & Ht & perm & G1 & n & G2 & K & _ & _ & _ & G3). destruct (Inst t (Inc t Ht)) as (dest & D1 & D2 & _). rewrite K in D2. destruct D2 as [D2 _].
  exists (tsrc t), n, dest, t. auto.
Qed.
Print Assumptions C128_installed_partial.

Definition C128_there (l : list bytes) : bool := match l with [] => false | _ => true end.
Definition C128_h := {| h_items := [IStr (B "../a/x.h"); IFile (B "/build/y.h")]; h_dir := None; h_mode := Some [MStr (B "rw-r--r--")]; h_subdir := Some (B "p"); h_preserve := None |}.
Example C128_ex : (exists ts, install_headers (fun p => C128_there (location p)) C128_dirs C128_h = ROk ts /\
    map tsrc ts = [B "/src/a/x.h"; B "/build/y.h"] /\ map tdest ts = [B "/usr/include/p/x.h"; B "/usr/include/p/y.h"] /\ map tperm ts = [Some 420%N; Some 420%N]) /\
  (forall i, In i (h_items C128_h) -> has_name i) /\ headers_go C128_dirs C128_h = [B "/usr"; B "include"; B "p"] /\
  mode_means (h_mode C128_h) (Some 420%N).
Proof.
  split; [eexists; split; [vm_compute; reflexivity|]; repeat split|]. split; [|split; [reflexivity|]].
  - intros i [<-|[<-|[]]]; [exact I|]. exists (B "y.h"). split; [discriminate|]. exists [B "build"]. reflexivity.
  - split; [cbn; lia|]. exists 420%N. repeat split.
Qed.
Example C128_ex_rename : exists ts, install_data (fun p => C128_there (location p)) C128_dirs
    {| a_items := [IStr (B "x.txt")]; a_sources := [IFile (B "/b/y")]; a_dir := None; a_mode := None; a_rename := Some [B "1.txt"; B "q/2"]; a_preserve := None |} = ROk ts /\
  map tsrc ts = [B "/src/sub/x.txt"; B "/b/y"] /\ map tdest ts = [B "/usr/share/p/1.txt"; B "/usr/share/p/q/2"].
Proof. eexists. split; [vm_compute; reflexivity|]. repeat split. Qed.
Example C128_ex_outputs : exists ts, push_targets_arr (fun p => C128_there (location p)) C128_dirs [IFile (B "/b/x"); IFile (B "/b/y")] [None; Some (B "/etc")] None = ROk ts /\
  map tdest ts = [B "/etc/y"].
Proof. eexists. split; [vm_compute; reflexivity|]. reflexivity. Qed.

(** ** C129 *)
(** Every page goes to its section's directory below mandir (and the locale), or to the directory asked for.  What is
    missing: names with more parts, or with a part that starts like the locale. *)
Theorem C129_pages_partial : forall there d l dir locale mode ts, is_abs (d_cwd d) = true -> is_abs (d_prefix d) = true -> there [] = false -> d_man d <> [] ->
  (forall s, In s l -> outputs_have_names s) ->
  install_man (fun p => there (location p)) d l dir locale mode = ROk ts ->
  exists files, stand_for (d_cwd d) l files /\ (forall s, In s l -> source_is_there there (d_cwd d) s) /\
  Forall2 (fun p t => tsrc t = p /\ exists n perm, last_name p n /\ mode_means mode perm /\
     ((forall lc, dir = None -> locale = Some lc -> simple_for lc n) -> exists place, page_goes d dir locale n place /\ put_at perm place t)) files ts.
Proof.
  intros there d l dir locale mode ts Hc Hp Hr Hm Hn H. unfold install_man in H. apply rbind_ok in H as (x & X & H). apply rbind_ok in H as (files & F & H).
  destruct (coerce_all there d Hc Hr l files F Hn) as (C1 & C2 & C3). exists files. split; [exact C1|]. split; [exact C2|].
  apply each_ok in H. eapply forall2_map; [|exact H]. cbn beta. intros p t Hp' E. destruct (C3 p Hp') as (n & L). pose proof L as (Nn & front & Cn).
  destruct (base_ok p front n Cn) as (Bn & An & Kn). unfold man_one in E. rewrite Bn in E. cbn [must rbind] in E.
  assert (N0 : n <> []) by (intros ->; discriminate Kn). destruct n as [|c0 n0] eqn:En; [congruence|]. rewrite <- En in *. clear En c0 n0.
  destruct (Nat.leb (length n - 1) 1 || negb (ceqb (nth (length n - 1 - 1) n NUL) "."%char) || negb (is_digit (nth (length n - 1) n NUL))) eqn:T; [discriminate E|].
  apply page_test in T as (stem & T); [|exact N0]. set (c := nth (length n - 1) n NUL) in *. clearbody c.
  match type of E with rbind (must (path_join ?dd ?nm)) _ = _ => destruct (join_any dd nm) as (r & Er & _); rewrite Er in E; cbn [must rbind] in E end.
  apply (push_is d Hp) in E as (perm & M & S1 & P). split; [exact S1|]. exists n, perm. split; [exact L|]. split; [exact M|]. intros Sf.
  rewrite (along_join _ _ _ _ Er) in P. clear Er. eexists. split; [|exact P]. exists stem, c. split; [exact T|].
  assert (Cm : comps (B "man" ++ [c]) = [B "man" ++ [c]] /\ is_abs (B "man" ++ [c]) = false).
  { destruct T as (_ & _ & T). vm_compute in T. repeat destruct T as [<-|T]; try (split; reflexivity). destruct T. }
  assert (Dm : forall dd, dd <> [] -> comps (dd ++ B "/man" ++ [c]) = comps dd ++ [B "man" ++ [c]] /\ is_abs (dd ++ B "/man" ++ [c]) = is_abs dd).
  { intros dd Nd. split; [|now apply is_abs_app]. change (B "/man" ++ [c]) with (SEP :: (B "man" ++ [c])). rewrite comps_app. now rewrite (proj1 Cm). }
  destruct dir as [s|].
  - injection X as <-. cbn [fst snd]. change [d_prefix d; s; n] with ([d_prefix d; s] ++ [n]). now apply along_one.
  - destruct locale as [lc|].
    + apply rbind_ok in X as (p0 & X & [= <-]). apply must_ok in X. cbn [fst snd]. destruct (join_any (d_man d) lc) as (p1 & X' & _ & _ & Q). rewrite X in X'. injection X' as <-.
      pose proof (locale_name lc n stem c T (Sf lc eq_refl eq_refl)) as WL. eexists. split; [exact WL|].
      assert (Nm : exists m, without_locale lc n m /\ m = (let '(x, y) := at_dot n in if starts_with lc y then x ++ B "." ++ [c] else n)) by eauto.
      assert (Km : let m := (let '(x, y) := at_dot n in if starts_with lc y then x ++ B "." ++ [c] else n) in is_abs m = false /\ comps m = [m]).
      { cbn zeta. destruct (at_dot n) as [x y] eqn:Ed. destruct (starts_with lc y); [|auto].
        assert (On : one_name (x ++ B "." ++ [c])).
        { split; [destruct x; discriminate|]. split.
          - intros Z. apply (f_equal (@length _)) in Z. rewrite !app_length in Z. change (length (B ".")) with 1 in Z. cbn in Z. lia.
          - pose proof (at_dot_app n) as Px. rewrite Ed in Px. cbn [fst] in Px.
            intros Z. apply in_app_iff in Z as [Z|[Z|[Z|[]]]].
            + destruct Px as (z & Px). pose proof (comps_moves p) as Mv. rewrite Cn in Mv. apply Forall_app in Mv as [_ Mv]. inversion Mv as [|? ? [_ Mv2] _]. apply Mv2. rewrite Px. apply in_app_iff. now left.
            + discriminate Z.
            + destruct T as (_ & _ & T). rewrite Z in T. vm_compute in T. repeat destruct T as [T|T]; first [discriminate T|exact T]. }
        destruct (one_name_comps _ On). auto. }
      destruct Km as [K1 K2]. set (m := let '(x, y) := at_dot n in if starts_with lc y then x ++ B "." ++ [c] else n) in *.
      destruct (Dm p0) as [D1 D2]; [apply Q; now left|]. change [d_prefix d; p0 ++ B "/man" ++ [c]; m] with ([d_prefix d; p0 ++ B "/man" ++ [c]] ++ [m]).
      rewrite along_one by assumption. rewrite along_cons2, D1, D2. rewrite <- (along_join _ _ _ _ X), along_cons2. destruct (is_abs p0); rewrite <- !app_assoc; reflexivity.
    + injection X as <-. cbn [fst snd]. destruct (Dm (d_man d) Hm) as [D1 D2].
      change [d_prefix d; d_man d ++ B "/man" ++ [c]; n] with ([d_prefix d; d_man d ++ B "/man" ++ [c]] ++ [n]).
      rewrite along_one by assumption. rewrite !along_cons2, D1, D2. destruct (is_abs (d_man d)); rewrite <- !app_assoc; reflexivity.
Qed.
Print Assumptions C129_pages_partial.
(** A call is accepted exactly if all files exist and are manual pages, and the mode is well formed. *)
Theorem C129_accepted : forall there d l dir locale mode, is_abs (d_cwd d) = true -> is_abs (d_prefix d) = true -> there [] = false ->
  (forall s, In s l -> outputs_have_names s) ->
  (exists ts, install_man (fun p => there (location p)) d l dir locale mode = ROk ts) <->
  (forall s, In s l -> source_is_there there (d_cwd d) s) /\
  exists files, stand_for (d_cwd d) l files /\
    forall p, In p files -> (exists perm, mode_means mode perm) /\ exists n stem c, last_name p n /\ man_page n stem c.
Proof.
  intros there d l dir locale mode Hc Hp Hr Hn. unfold install_man.
  assert (X : exists x, (match dir with
             | Some s => ROk (s, false, None)
             | None => match locale with
                       | Some lc => let! p := must (path_join (d_man d) lc) in ROk (p, true, Some lc)
                       | None => ROk (d_man d, true, None)
                       end
             end) = ROk x).
  { destruct dir as [s|]; [eauto|]. destruct locale as [lc|]; [|eauto]. destruct (join_any (d_man d) lc) as (r & E & _). rewrite E. cbn. eauto. }
  destruct X as (x & X). rewrite X. cbn [rbind].
  assert (One : forall files p, (forall p, In p files -> exists n, last_name p n) -> In p files -> (exists t, man_one d (fst (fst x)) (snd (fst x)) (snd x) mode p = ROk t) <-> (exists perm, mode_means mode perm) /\ exists n stem c, last_name p n /\ man_page n stem c).
  { intros files p C3 Hi. destruct (C3 p Hi) as (n & L). pose proof L as (Nn & front & Cn). destruct (base_ok p front n Cn) as (Bn & An & Kn). unfold man_one. rewrite Bn. cbn [must rbind].
    assert (N0 : n <> []) by (intros ->; discriminate Kn). destruct n as [|c0 n0] eqn:En; [congruence|]. rewrite <- En in *. clear En c0 n0.
    destruct (Nat.leb (length n - 1) 1 || negb (ceqb (nth (length n - 1 - 1) n NUL) "."%char) || negb (is_digit (nth (length n - 1) n NUL))) eqn:T.
    - split; [intros (t & Z); discriminate Z|]. intros (_ & n' & stem & c & (_ & front' & Cn') & P). rewrite Cn in Cn'. apply app_inj_tail in Cn' as [_ <-].
      assert (Z : exists stem, man_page n stem (nth (length n - 1) n NUL)) by (exists stem; now rewrite (page_section _ _ _ P)). apply page_test in Z; [congruence|exact N0].
    - apply page_test in T as (stem & T); [|exact N0].
      match goal with |- context [path_join ?dd ?nm] => destruct (join_any dd nm) as (r & Er & _); rewrite Er; cbn [must rbind] end. split.
      + intros (t & Z). apply (push_is d Hp) in Z as (perm & M & _). split; eauto 6.
      + intros ((perm & M) & _). destruct (push_can d Hp p r mode perm M) as (t & Z & _). eauto. }
  split.
  - intros (ts & H). apply rbind_ok in H as (files & F & H). destruct (coerce_all there d Hc Hr l files F Hn) as (C1 & C2 & C3). split; [exact C2|]. exists files. split; [exact C1|].
    assert (H' : exists ts, each_of (man_one d (fst (fst x)) (snd (fst x)) (snd x) mode) files = ROk ts) by eauto. rewrite each_can in H'. intros p Hi. apply (One files p C3 Hi). auto.
  - intros (Ht & files' & S' & H). destruct (coerce_all_can there d Hc l Ht) as (files & F). destruct (coerce_all there d Hc Hr l files F Hn) as (C1 & C2 & C3). rewrite F. cbn [rbind].
    apply each_can. intros p Hi. apply (One files p C3 Hi). destruct (stand_same _ _ _ _ C1 S' p Hi) as (p' & Hi' & Lp). destruct (H p' Hi') as (M & n & stem & c & L & P). split; [exact M|].
    destruct (C3 p Hi) as (n' & L'). exists n', stem, c. split; [exact L'|]. now rewrite (Lp n' n L' L).
Qed.
Print Assumptions C129_accepted.
(** The locale is looked for after the first dot only, and is taken for found when the part merely starts with it. *)
Definition C129_run (l : list bytes) := install_man (fun p => C128_there (location p)) C128_dirs (map (fun s => SItem (IStr s)) l) None (Some (B "fr")) None.
Theorem C129_locale_refuted :
  (exists t, C129_run [B "nsswitch.conf.fr.5"] = ROk [t] /\ tdest t = B "/usr/share/man/fr/man5/nsswitch.conf.fr.5" /\
     forall m, without_locale (B "fr") (B "nsswitch.conf.fr.5") m -> m = B "nsswitch.conf.5") /\
  (exists t u, C129_run [B "git.fr.1"; B "git.frotz.1"] = ROk [t; u] /\ tsrc t <> tsrc u /\ tdest t = tdest u).
Proof.
  split.
  - eexists. split; [vm_compute; reflexivity|]. split; [reflexivity|]. intros m [(x & c & E & ->)|[N _]].
    + change (B "nsswitch.conf.fr.5") with (B "nsswitch.conf" ++ B "." ++ B "fr" ++ B "." ++ B "5") in E. change (B "5") with ["5"%char] in E. rewrite !app_assoc in E. apply app_inj_tail in E as [E <-].
      apply app_inv_tail in E. apply app_inv_tail in E. apply app_inv_tail in E. subst. reflexivity.
    + exfalso. apply (N (B "nsswitch.conf") "5"%char). reflexivity.
  - eexists. eexists. split; [vm_compute; reflexivity|]. split; [discriminate|reflexivity].
Qed.
Print Assumptions C129_locale_refuted.
(** An empty mandir leads out of the prefix. *)
Theorem C129_empty_mandir_refuted : exists d t, is_abs (d_cwd d) = true /\ d_prefix d = B "/usr" /\ d_man d = [] /\
  install_man (fun p => C128_there (location p)) d [SItem (IStr (B "a.1"))] None None None = ROk [t] /\ tdest t = B "/man1/a.1".
Proof.
  exists {| d_prefix := B "/usr"; d_data := B "share"; d_include := B "include"; d_man := []; d_project := B "p"; d_cwd := B "/src" |}. eexists. split; [reflexivity|]. split; [reflexivity|]. split; [reflexivity|]. split; [vm_compute; reflexivity|reflexivity].
Qed.
Print Assumptions C129_empty_mandir_refuted.
Example C129_ex : (exists ts, C129_run [B "git.fr.1"; B "x.5"; B "y.de.3"] = ROk ts /\
    map tdest ts = [B "/usr/share/man/fr/man1/git.1"; B "/usr/share/man/fr/man5/x.5"; B "/usr/share/man/fr/man3/y.de.3"]) /\
  simple_for (B "fr") (B "git.fr.1") /\ simple_for (B "fr") (B "x.5") /\ simple_for (B "fr") (B "y.de.3") /\
  install_man (fun p => C128_there (location p)) C128_dirs [SItem (IStr (B "x.txt"))] None None None = RErr.
Proof.
  split; [eexists; split; [vm_compute; reflexivity|reflexivity]|].
  assert (N : ~ In "."%char (B "fr")) by (vm_compute; intros [H|[H|[]]]; discriminate H).
  split; [|split; [|split; [|reflexivity]]]; (split; [exact N|]).
  - exists (B "git"), "1"%char. split; [vm_compute; intuition discriminate|]. split; [vm_compute; tauto|]. right. exists (B "fr"). split; [exact N|]. split; [reflexivity|]. now left.
  - exists (B "x"), "5"%char. split; [vm_compute; intuition discriminate|]. split; [vm_compute; tauto|]. left. reflexivity.
  - exists (B "y"), "3"%char. split; [vm_compute; intuition discriminate|]. split; [vm_compute; tauto|]. right. exists (B "de"). split; [vm_compute; intuition discriminate|]. split; [reflexivity|]. right. intros r E. discriminate E.
Qed.

(** ** C130 *)
(** A link is made in the directory asked for, with the text given. *)
Theorem C130_symlink : forall d name dir to, is_abs (d_prefix d) = true ->
  exists t, install_symlink d name dir to = ROk [t] /\ tkind t = KSymlink /\ tsrc t = to /\ tperm t = None /\
    is_abs (tdest t) = true /\ comps (tdest t) = along [d_prefix d; dir; name].
Proof.
  intros d name dir to Hp. unfold install_symlink. destruct (join_any dir name) as (r & E & _). rewrite E. cbn [must rbind].
  destruct (push_can d Hp to r None None eq_refl) as (t & Et & S1 & _ & P1 & _ & P2 & P3). rewrite Et. cbn [rbind]. eexists. split; [reflexivity|]. cbn. rewrite (along_join _ _ _ _ E) in P3. auto.
Qed.
Print Assumptions C130_symlink.
(** Empty directories are made where asked. *)
Theorem C130_emptydir : forall d names mode ts, is_abs (d_prefix d) = true -> install_emptydir d names mode = ROk ts ->
  Forall2 (fun n t => tkind t = KEmptydir /\ mode_means mode (tperm t) /\ is_abs (tdest t) = true /\ comps (tdest t) = along [d_prefix d; n]) names ts.
Proof.
  intros d names mode ts Hp H. apply each_ok in H. eapply forall2_map; [|exact H]. cbn beta. intros n t _ E. apply rbind_ok in E as (t' & E & [= <-]).
  apply (push_is d Hp) in E as (perm & M & _ & _ & P1 & _ & P2 & P3). cbn. rewrite P1. auto.
Qed.
Print Assumptions C130_emptydir.
Theorem C130_emptydir_accepted : forall d names mode, is_abs (d_prefix d) = true -> names <> [] ->
  (exists ts, install_emptydir d names mode = ROk ts) <-> exists perm, mode_means mode perm.
Proof.
  intros d names mode Hp Ne. unfold install_emptydir. rewrite each_can. split.
  - intros H. destruct names as [|n names]; [congruence|]. destruct (H n (or_introl eq_refl)) as (t & E). apply rbind_ok in E as (t' & E & _). apply (push_is d Hp) in E as (perm & M & _). eauto.
  - intros (perm & M) n _. destruct (push_can d Hp [] n mode perm M) as (t & E & _). rewrite E. cbn. eauto.
Qed.
Print Assumptions C130_emptydir_accepted.
Lemma after_slash_none n : ~ In "/"%char n -> after_slash n = None.
Proof. induction n as [|c n IH]; intros N; cbn; [reflexivity|]. destruct (ceqb_spec c SEP) as [->|]; [exfalso; apply N; now left|]. apply IH. intros H. apply N. now right. Qed.
Lemma after_slash_some x y : ~ In "/"%char x -> after_slash (x ++ "/"%char :: y) = Some y.
Proof. induction x as [|c x IH]; intros N; cbn; [reflexivity|]. destruct (ceqb_spec c SEP) as [->|]; [exfalso; apply N; now left|]. apply IH. intros H. apply N. now right. Qed.
(** A directory is installed under its own name, or with strip_directory its contents are installed, if its path has one or
    two parts. *)
Theorem C130_subdir_partial : forall d name dir mode exd exf strip ts, is_abs (d_cwd d) = true -> is_abs (d_prefix d) = true ->
  install_subdir d name dir mode exd exf strip = ROk ts ->
  exists t, ts = [t] /\ tkind t = KSubdir /\ texdirs t = exd /\ texfiles t = exf /\ mode_means mode (tperm t) /\
    is_abs (tsrc t) = true /\ comps (tsrc t) = along [d_cwd d; name] /\ is_abs (tdest t) = true /\
    (strip = true -> comps (tdest t) = along [d_prefix d; dir]) /\
    (strip = false -> forall n, one_name n -> (name = n \/ exists x, one_name x /\ name = x ++ B "/" ++ n) -> comps (tdest t) = along [d_prefix d; dir] ++ [n]).
Proof.
  intros d name dir mode exd exf strip ts Hc Hp H. unfold install_subdir in H. apply rbind_ok in H as (dest & D & H). apply rbind_ok in H as (src & S1 & H). apply must_ok in S1.
  apply rbind_ok in H as (t & E & [= <-]). eexists. split; [reflexivity|]. cbn [tkind texdirs texfiles tperm tsrc tdest].
  destruct (join_any (d_cwd d) name) as (src' & S2 & Q1 & Q2 & _). rewrite S1 in S2. injection S2 as <-. apply (push_is d Hp) in E as (perm & M & -> & _ & P1 & _ & P2 & P3).
  rewrite along_cons2, Q1, Q2, P1, P3, Hc. repeat (split; [auto; fail|]). split.
  - intros ->. injection D as <-. reflexivity.
  - intros -> n On Hn. destruct (one_name_comps n On) as [Cn An].
    assert (Tl : match after_slash name with Some tl => tl | None => name end = n).
    { destruct Hn as [->|(x & Ox & ->)]; [rewrite after_slash_none; [reflexivity|apply On]|]. change (B "/" ++ n) with ("/"%char :: n). rewrite after_slash_some; [reflexivity|apply Ox]. }
    rewrite Tl in D. apply must_ok in D. rewrite (along_join _ _ _ _ D). change [d_prefix d; dir; n] with ([d_prefix d; dir] ++ [n]). now apply along_one.
Qed.
Print Assumptions C130_subdir_partial.
(** Of longer paths only the first part is taken off; a slash at the end takes the name off altogether. *)
Theorem C130_subdir_refuted :
  (exists t, install_subdir C128_dirs (B "a/b/c") (B "share") None [] [] false = ROk [t] /\ tdest t = B "/usr/share/b/c") /\
  (exists t, install_subdir C128_dirs (B "a/") (B "share") None [] [] false = ROk [t] /\ comps (tdest t) = along [B "/usr"; B "share"] /\ comps (tsrc t) = along [B "/src/sub"; B "a"]).
Proof. split; eexists; (split; [vm_compute; reflexivity|]); repeat split. Qed.
Print Assumptions C130_subdir_refuted.
Example C130_ex : (exists t, install_subdir C128_dirs (B "a/b") (B "share") None [B "x"] [] false = ROk [t] /\ tsrc t = B "/src/sub/a/b" /\ tdest t = B "/usr/share/b") /\
  (exists t, install_symlink C128_dirs (B "l") (B "/opt") (B "../x") = ROk [t] /\ tdest t = B "/opt/l") /\
  (exists t, install_emptydir C128_dirs [B "var/x"] (Some [MStr (B "rwxr-x---")]) = ROk [t] /\ tdest t = B "/usr/var/x").
Proof. repeat split; (eexists; split; [vm_compute; reflexivity|]); repeat split. Qed.
