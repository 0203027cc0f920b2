(** What the whole build file says. *)
From Verif Require Import Base S_Path S_Escape M_Escape L_Escape M_Path L_Path M_Format S_Format L_Format M_Backend S_Backend L_Places S_Tree S_Env S_Manifest L_Spelling L_Backend.
Local Arguments B _ : simpl never.

Definition command_parts (w : wk) : list part := pieces_of (Chars (regen_line w)).
Definition regen_build (w : wk) : build :=
  Build [B "build.ninja"] [] (map resolved (regen_deps w)) [] [] (B "REGENERATE_BUILD") [(B "pool", B "console")] (Some (B "console")).
Definition phony_build (n : bytes) : build := Build [n] [] [] [] [] (B "phony") [] None.
Definition stale_builds (b : bool) : list build := if b then [phony_build (B "build_always_stale")] else [].

Lemma literal_place scopes s q : nameable s -> resolved s = q -> places scopes [Chars s] [q].
Proof. intros [Ho Hc] <-. constructor; [|constructor]. now rewrite expand_chars. Qed.
Lemma literal_label s : s <> [] -> length (comps s) <= 60 -> is_abs s = false -> forallb path_char s = true -> nameable s.
Proof.
  intros H1 H2 H3 H4. split; [now split|]. split; [auto|]. split; [intros k; eapply Nat.le_trans; [apply walk_depth|auto]|]. split; [congruence|reflexivity].
Qed.
Lemma first_steps w : ok_workspace w -> steps nodepath at_first (first_stmts w) (stated (command_parts w) [regen_build w] []).
Proof.
  intros Hw. destruct (regen_line_ok w Hw) as (_ & _ & Hne & _). destruct (regen_deps_nameable w Hw) as [_ Hd]. unfold first_stmts.
  eapply ss_more.
  { apply st_var. intros _. exists 1%Z, 7%Z. split; [|lia]. rewrite expand_chars. exists (B "1"), (B ".7.1"). split; [reflexivity|]. split; [split; [discriminate|reflexivity]|].
    split; [reflexivity|]. split; [lia|]. right. exists (B "7"), (B ".1"). split; [reflexivity|]. split; [split; [discriminate|reflexivity]|]. split; [reflexivity|]. split; [lia|].
    intros x y [= <- _]. reflexivity. }
  eapply ss_more; [apply st_var; discriminate|].
  eapply ss_more.
  { apply st_rule; [reflexivity| |].
    - exists (Chars (regen_line w)). split; [now left|now apply chars_nonempty].
    - split; intros (v & Hv & _); cbn in Hv; repeat (destruct Hv as [Hv|Hv]; [discriminate Hv|]); destruct Hv. }
  eapply ss_more.
  { eapply st_build with (b := regen_build w); cbn [regen_build b_rule b_vars b_outs b_outimp b_ins b_imp b_ord b_pool vars rules builds defaults pools].
    - discriminate.
    - reflexivity.
    - cbn [map fst snd]. now rewrite expand_chars.
    - apply literal_place; [apply literal_label; [discriminate|vm_compute; lia|reflexivity|reflexivity]|reflexivity].
    - constructor.
    - now apply nameable_places.
    - constructor.
    - constructor.
    - unfold all_outs. cbn. repeat constructor. intros [].
    - intros p b' _ [].
    - apply v_own; [intros [X|[X|X]]; discriminate X|reflexivity].
    - intros p [= <-]. discriminate. }
  eapply ss_more.
  { apply st_rule; [reflexivity| |].
    - exists [Var (B "COMMAND")]. split; [now left|discriminate].
    - split; intros (v & Hv & _); cbn in Hv; repeat (destruct Hv as [Hv|Hv]; [discriminate Hv|]); destruct Hv. }
  eapply ss_more.
  { apply st_rule; [reflexivity| |].
    - exists [Var (B "COMMAND")]. split; [now left|discriminate].
    - split; intros (v & Hv & _); cbn in Hv; repeat (destruct Hv as [Hv|Hv]; [discriminate Hv|]); destruct Hv. }
  cbn [vars rules builds defaults pools at_first app]. rewrite !expand_chars. apply ss_nil.
Qed.
Lemma phony_step command n bs ds : nameable n -> resolved n = n -> (forall b, In b bs -> ~ In n (all_outs b)) ->
  step nodepath (stated command bs ds) (SBuild [Chars n] [] (B "phony") [] [] [] []) (stated command (bs ++ [phony_build n]) ds).
Proof.
  intros Hn Hr Hu. eapply (st_build nodepath (stated command bs ds)) with (b := phony_build n); cbn [phony_build b_rule b_vars b_outs b_outimp b_ins b_imp b_ord b_pool stated vars rules builds defaults pools].
  - discriminate.
  - reflexivity.
  - reflexivity.
  - now apply literal_place.
  - constructor.
  - constructor.
  - constructor.
  - constructor.
  - unfold all_outs. cbn. repeat constructor. intros [].
  - intros p b' Hp Hb. cbn in Hp. destruct Hp as [<-|[]]. now apply Hu.
  - set (d := sees _ _). change (@None bytes) with (innermost (scopes d) (B "pool")). apply v_scope; [intros [X|[X|X]]; discriminate X|reflexivity..].
  - discriminate.
Qed.
Definition last_stmts (b : bool) : list stmt :=
  if b then [] else [SBuild [Chars (B "muon_do_nothing")] [] (B "phony") [] [] [] []; SDefault [Chars (B "muon_do_nothing")]].
Definition last_builds (b : bool) : list build := if b then [] else [phony_build (B "muon_do_nothing")].
Definition last_defaults (b : bool) : list bytes := if b then [] else [B "muon_do_nothing"].
Lemma last_text b : manifest (last_stmts b) (if b then [] else B "build muon_do_nothing: phony" ++ [NL] ++ B "default muon_do_nothing" ++ [NL]).
Proof.
  destruct b; [apply mf_nil; constructor|].
  pose proof (default_text [B "muon_do_nothing"] ltac:(discriminate) ltac:(constructor; [now apply literal_path|constructor])) as X.
  pose proof (phony_text [B "muon_do_nothing"] ltac:(discriminate) ltac:(constructor; [now apply literal_path|constructor])) as Y.
  pose proof (mf_statement _ _ _ _ Y (mf_statement _ _ _ _ X (mf_nil [] fi_nil))) as Z. exact Z.
Qed.
Lemma last_steps command bs ds b : (forall x, In x bs -> ~ In (B "muon_do_nothing") (all_outs x)) ->
  steps nodepath (stated command bs ds) (last_stmts b) (stated command (bs ++ last_builds b) (ds ++ last_defaults b)).
Proof.
  intros H. destruct b; [cbn; rewrite !app_nil_r; constructor|]. unfold last_stmts, last_builds, last_defaults.
  assert (N : nameable (B "muon_do_nothing")) by (apply literal_label; [discriminate|vm_compute; lia|reflexivity|reflexivity]).
  eapply ss_more; [apply phony_step; [exact N|reflexivity|exact H]|]. eapply ss_more; [|apply ss_nil].
  apply (st_default nodepath (stated command (bs ++ [phony_build (B "muon_do_nothing")]) ds)).
  - now apply literal_place.
  - intros q [<-|[]]. exists (phony_build (B "muon_do_nothing")). split; [apply in_or_app; right; now left|]. left. now left.
Qed.
Lemma need_phony_targets ps : need_phony ps =
  existsb (fun x => match snd x with TCustom c => c_stale c | TAlias _ _ => false end) (concat (map (fun p => map (fun t => (p_sub p, t)) (p_targets p)) (filter p_ok ps))).
Proof.
  induction ps as [|p ps IH]; [reflexivity|]. cbn [need_phony existsb filter]. fold (need_phony ps). rewrite IH. destruct (p_ok p); [|reflexivity].
  cbn [map concat andb]. rewrite existsb_app. f_equal. induction (p_targets p) as [|t ts IH']; [reflexivity|]. cbn [existsb map snd]. now rewrite IH'.
Qed.
Lemma stale_iff w : need_phony (wk_projects w) = true <-> stale w.
Proof.
  rewrite need_phony_targets, existsb_exists. fold (targets w). unfold stale. split.
  - intros ([sub [c|n deps]] & Hi & E); [|discriminate]. eauto.
  - intros (sub & c & Hi & E). exists (sub, TCustom c). auto.
Qed.

Record file_facts (w : wk) (text : bytes) (files : list (bytes * data)) (xs : list entry) : Prop := {
  ff_written : write_build w = Some (text, files);
  ff_nonempty : text <> [];
  ff_entries : map fst xs = targets w;
  ff_numbered : numbered w 0 files;
  ff_runs : Forall (runs_right w files) xs;
  ff_says : exists ss, manifest ss text /\ steps nodepath at_first ss
    (stated (command_parts w) (regen_build w :: stale_builds (need_phony (wk_projects w)) ++ map (entry_build (wk_build_root w)) xs ++ last_builds (existsb is_default (targets w)))
      (concat (map (entry_defaults (wk_build_root w)) xs) ++ last_defaults (existsb is_default (targets w)))) }.
Lemma build_file w : ok_workspace w -> exists text files xs, file_facts w text files xs.
Proof.
  intros Hw. pose proof (ok_root _ Hw) as Hr. destruct (preamble_text w (need_phony (wk_projects w)) Hw) as (pre & Ep & Hp).
  destruct (write_all_ok w (targets w) Hw (ok_targets _ Hw) (Out pre [] 0 false)) as (xs & files & Em & Ew & Hn & Hrun). cbn [o_text o_files o_seq o_default app orb] in *.
  set (dflt := existsb is_default (targets w)) in *.
  set (tail := if dflt then [] else B "build muon_do_nothing: phony" ++ [NL] ++ B "default muon_do_nothing" ++ [NL]).
  exists ((pre ++ concat (map (entry_text (wk_build_root w)) xs)) ++ tail), files, xs.
  assert (Hok : Forall (fun x => ok_target (fst x)) xs).
  { pose proof (ok_targets _ Hw) as F. rewrite <- Em, Forall_map in F. exact F. }
  assert (Hfine : Forall fine_entry xs).
  { rewrite Forall_forall in *. intros x Hx. eapply runs_right_fine; eauto. }
  pose proof (last_text dflt) as H1. fold tail in H1.
  pose proof (entries_manifest (wk_build_root w) xs _ _ Hr Hfine H1) as H2. pose proof (Hp _ _ H2) as H3. rewrite (app_assoc pre) in H3.
  assert (P0 : pre <> []).
  { intros E. unfold write_rules, write_head in Ep. destruct (regenerate_build_command w); [|discriminate]. destruct (join_args_shell l); [|discriminate].
    destruct (all (relativize w) _); [|discriminate]. destruct (join_args_ninja l1); [|discriminate]. injection Ep as Ep. rewrite E in Ep. discriminate Ep. }
  constructor; auto.
  - unfold write_build. rewrite Ep. rewrite write_projects_all. fold (targets w). rewrite Ew. reflexivity.
  - intros E. apply app_eq_nil in E as [E _]. apply app_eq_nil in E as [E _]. contradiction.
  - eexists. split; [exact H3|]. eapply steps_app; [apply first_steps; exact Hw|].
    pose proof (ok_once _ Hw) as Hu. rewrite <- Em in Hu. rewrite map_map in Hu. unfold reserved in Hu.
    set (L := concat (map (fun x => produces (fst x)) xs)) in *. cbn [app map] in Hu.
    inversion Hu as [|? ? U1 Hu1]; subst. inversion Hu1 as [|? ? U2 Hu2]; subst. inversion Hu2 as [|? ? U3 Hu3]; subst.
    set (root := wk_build_root w) in *.
    set (bs := regen_build w :: stale_builds (need_phony (wk_projects w))).
    assert (E0 : concat (map all_outs bs) = B "build.ninja" :: (if need_phony (wk_projects w) then [B "build_always_stale"] else [])).
    { unfold bs, stale_builds. destruct (need_phony _); reflexivity. }
    assert (Hsteps : steps nodepath (stated (command_parts w) [regen_build w] []) (stale_stmts (need_phony (wk_projects w))) (stated (command_parts w) bs [])).
    { unfold bs, stale_stmts, stale_builds. destruct (need_phony _); [|constructor]. eapply ss_more; [|apply ss_nil].
      apply (phony_step _ _ [regen_build w]); [apply label_nameable, stale_label|reflexivity|]. intros b [<-|[]] [X|[]]. discriminate X. }
    eapply steps_app; [exact Hsteps|]. eapply steps_app.
    + apply entries_steps; [exact Hr|exact Hok|]. rewrite E0. fold L. destruct (need_phony _); cbn [app map].
      * constructor; [|constructor; [|auto]].
        -- intros X. apply U1. destruct X as [X|X]; [now left|right; right; auto].
        -- intros X. apply U2. now right.
      * constructor; [|auto]. intros X. apply U1. right. now right.
    + fold dflt. replace (regen_build w :: stale_builds (need_phony (wk_projects w)) ++ map (entry_build root) xs ++ last_builds dflt)
        with ((bs ++ map (entry_build root) xs) ++ last_builds dflt) by (unfold bs; cbn [app]; now rewrite <- app_assoc).
      apply last_steps. intros x Hx Hi.
      assert (Hpl : In (place root (B "muon_do_nothing")) (map (place root) (all_outs x))) by now apply in_map.
      apply in_app_or in Hx as [Hx|Hx].
      * assert (Y : In (B "muon_do_nothing") (concat (map all_outs bs))) by (apply in_concat; exists (all_outs x); split; [now apply in_map|auto]).
        rewrite E0 in Y. destruct Y as [Y|Y]; [discriminate Y|]. destruct (need_phony _); [|destruct Y]. destruct Y as [Y|[]]. discriminate Y.
      * apply in_map_iff in Hx as (y & <- & Hy). rewrite entry_places in Hpl; [|auto|].
        -- apply U3. unfold L. rewrite concat_map. apply in_concat. eexists. split; [|exact Hpl]. rewrite map_map. apply in_map_iff. eauto.
        -- rewrite Forall_forall in Hok. now apply Hok.
Qed.
