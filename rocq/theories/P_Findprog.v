(** C146, C147: what find_program() finds, and the versions that are read from what programs say. *)
From Verif Require Import Base S_Str M_Path M_Version S_Version M_Feature S_Feature P_Feature M_Findprog S_Findprog L_Findprog.
Local Arguments B _ : simpl never.

Lemma required_is : forall g kw, required g kw -> coerce_requirement g kw = Some RRequired.
Proof.
  intros g kw H. assert (X : exists r, coerce_requirement g kw = Some r).
  { destruct H as [->|[->|(fo & -> & _)]]; eexists; reflexivity. }
  destruct X as (r & E). rewrite E. f_equal. apply (C90_requirements g kw r E). exact H.
Qed.
Lemma optional_is : forall g kw, optional g kw -> coerce_requirement g kw = Some RAuto.
Proof.
  intros g kw H. assert (X : exists r, coerce_requirement g kw = Some r).
  { destruct H as [->|(fo & -> & _)]; eexists; reflexivity. }
  destruct X as (r & E). rewrite E. f_equal. apply (C90_requirements g kw r E). exact H.
Qed.
Lemma disabled_is : forall g kw, disabled g kw -> coerce_requirement g kw = Some RSkip.
Proof.
  intros g kw H. assert (X : exists r, coerce_requirement g kw = Some r).
  { destruct H as (fo & -> & _); eexists; reflexivity. }
  destruct X as (r & E). rewrite E. f_equal. apply (C90_requirements g kw r E). exact H.
Qed.

Lemma first_unique : forall A n (l : list (bytes * A)) x y, first_for n l x -> first_for n l y -> x = y.
Proof. intros A n l x y H1 H2. apply look_first in H1, H2. congruence. Qed.

Lemma with_override : forall w versions s n x p, first_for n (overrides s) x -> (forall c, x <> GPython c) -> offers w versions x p ->
  check_override w versions s n = Ok (Some p).
Proof.
  intros w versions s n x p Hx Np O. destruct (override_offers w versions s n) as (r & -> & H).
  { intros c Hc. apply (Np c). exact (first_unique _ _ _ _ _ Hx Hc). }
  f_equal. apply H. exists x. split; assumption.
Qed.

Lemma no_override : forall w versions s n, (forall x p, first_for n (overrides s) x -> (forall c, x <> GPython c) /\ ~ offers w versions x p) ->
  check_override w versions s n = Ok None.
Proof.
  intros w versions s n N. destruct (override_offers w versions s n) as (r & -> & H).
  { intros c Hc. destruct (N _ (Command []) Hc) as (X & _). exact (X c eq_refl). }
  destruct r as [p|]; [|reflexivity]. destruct (proj1 (H p) eq_refl) as (x & Hx & O). destruct (N x p Hx) as (_ & X). destruct (X O).
Qed.

(** nothing that was overridden is of use to the call *)
Definition not_overridden (w : world) (versions : option (list bytes)) (s : st) (n : bytes) : Prop :=
  forall x p, first_for n (overrides s) x -> (forall c, x <> GPython c) /\ ~ offers w versions x p.

(** C146: an override that is of use to the call is what is found, whatever there is in the file
    system and whatever subprojects provide; nothing is configured for it. *)
Theorem C146_override_partial : forall w g kw disabler versions dirs s n rest x p, required g kw \/ optional g kw ->
  first_for n (overrides s) x -> (forall c, x <> GPython c) -> offers w versions x p ->
  func_find_program w g kw disabler versions dirs s (Str n :: rest) = (s, Ok (Found p)).
Proof.
  intros w g kw disabler versions dirs s n rest x p R Hx Np O.
  assert (F : forall req, find_names w req versions dirs s (Str n :: rest) = (s, Ok (Some p))).
  { intros req. cbn [find_names]. unfold find_program. cbn [text]. rewrite (with_override w versions s n x p Hx Np O). reflexivity. }
  unfold func_find_program. destruct R as [R|R]; [rewrite (required_is g kw R)|rewrite (optional_is g kw R)]; rewrite F; reflexivity.
Qed.
Print Assumptions C146_override_partial.

(** C146: without an override, and if fallbacks are not forced, the first of the places where there
    is something decides: it is found if no version is asked for, or if its version is known and
    is what is asked for. Nothing is configured for it. *)
Theorem C146_place_partial : forall w g kw disabler versions dirs s n rest p, required g kw \/ optional g kw ->
  not_overridden w versions s n -> wrap_mode w <> Forcefallback \/ none_for n (provided w) ->
  n <> [] -> first_there w (places w dirs n) p -> suits w versions p ->
  func_find_program w g kw disabler versions dirs s (Str n :: rest) = (s, Ok (Found (Command [p]))).
Proof.
  intros w g kw disabler versions dirs s n rest p R No Nf Hp Ft Su.
  assert (F : forall req, find_names w req versions dirs s (Str n :: rest) = (s, Ok (Some (Command [p])))).
  { intros req. cbn [find_names]. unfold find_program. cbn [text]. rewrite (no_override w versions s n No). cbn [orelse].
    assert (E : match wrap_mode w with Forcefallback => check_fallback w versions s n | _ => (s, Ok None) end = (s, Ok None)).
    { destruct (wrap_mode w) eqn:E; try reflexivity. destruct Nf as [Nf|Nf]; [congruence|].
      unfold check_fallback. apply look_not in Nf. rewrite Nf. reflexivity. }
    rewrite E. cbn [orelse]. rewrite (file_scan w dirs n Hp). apply scan_first in Ft. rewrite Ft.
    destruct (file_suits w versions p) as (r & -> & [(-> & _)|(_ & N)]); [reflexivity|contradiction]. }
  unfold func_find_program. destruct R as [R|R]; [rewrite (required_is g kw R)|rewrite (optional_is g kw R)]; rewrite F; reflexivity.
Qed.
Print Assumptions C146_place_partial.

(** C146: a file given by its path is looked for in the same places, and never overridden nor
    provided by a subproject. *)
Theorem C146_file_partial : forall w g kw disabler versions dirs s f rest p, required g kw \/ optional g kw ->
  f <> [] -> first_there w (places w dirs f) p -> suits w versions p ->
  func_find_program w g kw disabler versions dirs s (File f :: rest) = (s, Ok (Found (Command [p]))).
Proof.
  intros w g kw disabler versions dirs s n rest p R Hp Ft Su.
  assert (F : forall req, find_names w req versions dirs s (File n :: rest) = (s, Ok (Some (Command [p])))).
  { intros req. cbn [find_names]. unfold find_program. cbn [text orelse]. rewrite (file_scan w dirs n Hp). apply scan_first in Ft. rewrite Ft.
    destruct (file_suits w versions p) as (r & -> & [(-> & _)|(_ & N)]); [reflexivity|contradiction]. }
  unfold func_find_program. destruct R as [R|R]; [rewrite (required_is g kw R)|rewrite (optional_is g kw R)]; rewrite F; reflexivity.
Qed.
Print Assumptions C146_file_partial.

(** the state after a subproject was configured *)
Definition after (w : world) (s : st) (sub : bytes) (s' : st) : Prop :=
  (In sub (configured s) -> s' = s)
  /\ (~ In sub (configured s) -> configured s' = configured s ++ [sub] /\ overrides s' = sub_overrides w sub ++ overrides s).

Lemma configure_after : forall w s sub s', after w s sub s' -> configure w s sub = s'.
Proof.
  intros w s sub [o c] (H1 & H2). unfold configure. destruct (existsb (beqb sub) (configured s)) eqn:E.
  - symmetry. apply H1. apply existsb_exists in E as (y & I & Ey). destruct (beqb_spec sub y) as [->|]; [exact I|discriminate].
  - destruct H2 as (Hc & Ho).
    { intros I. assert (X : existsb (beqb sub) (configured s) = true); [|congruence]. apply existsb_exists. exists sub. split; [exact I|].
      destruct (beqb_spec sub sub); congruence. }
    cbn [configured overrides] in *. congruence.
Qed.

(** C146: a program that is nowhere, is required and is provided by a subproject is what the
    subproject overrides it with; the subproject is configured, once. *)
Theorem C146_fallback_partial : forall w g kw disabler versions dirs s n rest sub s' x p, required g kw ->
  not_overridden w versions s n -> wrap_mode w = Othermode ->
  n <> [] -> none_there w (places w dirs n) ->
  first_for n (provided w) sub -> after w s sub s' ->
  first_for n (overrides s') x -> (forall c, x <> GPython c) -> offers w versions x p ->
  func_find_program w g kw disabler versions dirs s (Str n :: rest) = (s', Ok (Found p)).
Proof.
  intros w g kw disabler versions dirs s n rest sub s' x p R No Wm Hp Nt Pv Af Hx Np O.
  assert (F : find_names w RRequired versions dirs s (Str n :: rest) = (s', Ok (Some p))).
  { cbn [find_names]. unfold find_program. cbn [text]. rewrite (no_override w versions s n No). cbn [orelse]. rewrite Wm. cbn [orelse].
    rewrite (file_scan w dirs n Hp). apply scan_none in Nt. rewrite Nt. unfold check_fallback. apply look_first in Pv. rewrite Pv.
    cbv zeta. rewrite (configure_after w s sub s' Af). rewrite (with_override w versions s' n x p Hx Np O). reflexivity. }
  unfold func_find_program. rewrite (required_is g kw R), F. reflexivity.
Qed.
Print Assumptions C146_fallback_partial.

(** C146: if fallbacks are forced, what a subproject provides is found before anything that is in
    the file system, required or not. *)
Theorem C146_forced_partial : forall w g kw disabler versions dirs s n rest sub s' x p, required g kw \/ optional g kw ->
  not_overridden w versions s n -> wrap_mode w = Forcefallback ->
  first_for n (provided w) sub -> after w s sub s' ->
  first_for n (overrides s') x -> (forall c, x <> GPython c) -> offers w versions x p ->
  func_find_program w g kw disabler versions dirs s (Str n :: rest) = (s', Ok (Found p)).
Proof.
  intros w g kw disabler versions dirs s n rest sub s' x p R No Wm Pv Af Hx Np O.
  assert (F : forall req, find_names w req versions dirs s (Str n :: rest) = (s', Ok (Some p))).
  { intros req. cbn [find_names]. unfold find_program. cbn [text]. rewrite (no_override w versions s n No). cbn [orelse]. rewrite Wm.
    unfold check_fallback. apply look_first in Pv. rewrite Pv.
    cbv zeta. rewrite (configure_after w s sub s' Af). rewrite (with_override w versions s' n x p Hx Np O). reflexivity. }
  unfold func_find_program. destruct R as [R|R]; [rewrite (required_is g kw R)|rewrite (optional_is g kw R)]; rewrite F; reflexivity.
Qed.
Print Assumptions C146_forced_partial.

(** ** Everything that is found *)
(** what a program that is found for a name is *)
Inductive is_for (w : world) (versions : option (list bytes)) (dirs : list bytes) (s : st) : name -> program -> Prop :=
| by_override n x p : first_for n (overrides s) x -> offers w versions x p -> is_for w versions dirs s (Str n) p
| by_place nm p : first_there w (places w dirs (text nm)) p -> suits w versions p -> is_for w versions dirs s nm (Command [p])
| by_muon n : is_samurai w n -> is_for w versions dirs s (Str n) (Command [argv0 w; B "samu"]).

Lemma override_sound : forall w versions dirs s n p, check_override w versions s n = Ok (Some p) -> is_for w versions dirs s (Str n) p.
Proof.
  intros w versions dirs s n p H. destruct (look n (overrides s)) as [x|] eqn:E.
  - assert (Np : forall c, x <> GPython c). { intros c ->. unfold check_override in H. rewrite E in H. discriminate. }
    apply look_first in E. destruct (override_offers w versions s n) as (r & Hr & I).
    { intros c Hc. apply (Np c). exact (first_unique _ _ _ _ _ E Hc). }
    rewrite Hr in H. injection H as ->. destruct (proj1 (I p) eq_refl) as (y & Hy & O). exact (by_override _ _ _ _ n y p Hy O).
  - unfold check_override in H. rewrite E in H. discriminate.
Qed.

Lemma fallback_sound : forall w versions dirs s n s' p, check_fallback w versions s n = (s', Ok (Some p)) -> is_for w versions dirs s' (Str n) p.
Proof.
  intros w versions dirs s n s' p H. unfold check_fallback in H. destruct (look n (provided w)) as [sub|]; [|discriminate]. cbv zeta in H.
  injection H as <- H. apply override_sound. exact H.
Qed.

Lemma file_sound : forall w dirs n p, find_file w dirs n = Ok (Some p) -> first_there w (places w dirs n) p.
Proof.
  intros w dirs n p H. destruct n as [|c n].
  - apply scan_first. unfold find_file in H. unfold places. rewrite custom_scan in H. rewrite !scan_app.
    destruct (scan w (map (fun d => Regular (join_paths [d; []])) dirs)) as [q|]; [congruence|]. cbn [scan]. rewrite join_pair.
    destruct (join_total (source_dir w) []) as (q & Eq). rewrite Eq in H |- *. destruct (is_file w q); [congruence|discriminate].
  - rewrite file_scan in H by discriminate. apply scan_first. congruence.
Qed.

Lemma orelse_some : forall r k s' p, orelse r k = (s', Ok (Some p)) ->
  r = (s', Ok (Some p)) \/ exists s, r = (s, Ok None) /\ k s = (s', Ok (Some p)).
Proof. intros [s [[q|]| |]] k s' p H; cbn [orelse] in H; [left|right; exists s; split; [reflexivity|exact H]|discriminate..]. exact H. Qed.

Lemma program_sound : forall w req versions dirs s nm s' p, find_program w req versions dirs s nm = (s', Ok (Some p)) ->
  is_for w versions dirs s' nm p.
Proof.
  intros w req versions dirs s nm s' p H. unfold find_program in H.
  apply orelse_some in H as [H|(s1 & _ & H)].
  { destruct nm as [n|f]; [|discriminate]. injection H as <- H. apply override_sound. exact H. }
  apply orelse_some in H as [H|(s2 & _ & H)].
  { destruct nm as [n|f]; [|discriminate]. destruct (wrap_mode w); try discriminate. apply (fallback_sound w versions dirs s1). exact H. }
  destruct (find_file w dirs (text nm)) as [[q|]| |] eqn:F; try discriminate.
  - injection H as <- H. apply file_sound in F. destruct (file_suits w versions q) as (r & E & [(-> & Su)|(-> & _)]); rewrite E in H; [|discriminate].
    injection H as <-. apply by_place; assumption.
  - apply orelse_some in H as [H|(s3 & _ & H)].
    { destruct nm as [n|f]; [|discriminate]. destruct (wrap_mode w), req; try discriminate; apply (fallback_sound w versions dirs s2); exact H. }
    destruct nm as [n|f]; [|discriminate]. cbn [text] in H. destruct (samurai w) eqn:Sm; [|discriminate]. cbn [andb] in H.
    destruct (beqb_spec n (B "ninja")) as [->|N1].
    + injection H as <- <-. apply by_muon. split; [exact Sm|left; reflexivity].
    + destruct (beqb_spec n (B "samu")) as [->|N2]; [|discriminate]. injection H as <- <-. apply by_muon. split; [exact Sm|right; reflexivity].
Qed.

(** C146: whatever is found is found for one of the names: an override, or the first thing there is
    in the places for it, or muon itself; and a version that is known is what the call asks for. *)
Theorem C146_found : forall w g kw disabler versions dirs s ns s' p,
  func_find_program w g kw disabler versions dirs s ns = (s', Ok (Found p)) ->
  ~ disabled g kw /\ exists l1 nm l2, ns = l1 ++ nm :: l2 /\ is_for w versions dirs s' nm p.
Proof.
  intros w g kw disabler versions dirs s ns s' p H. split.
  - intros D. unfold func_find_program in H. rewrite (disabled_is g kw D) in H. destruct disabler; discriminate.
  - assert (F : exists req, find_names w req versions dirs s ns = (s', Ok (Some p))).
    { unfold func_find_program in H. destruct (coerce_requirement g kw) as [[]|]; [destruct disabler; discriminate| | |discriminate];
        destruct (find_names w _ versions dirs s ns) as [s2 [[q|]| |]] eqn:E; try discriminate; try (destruct disabler; discriminate);
        injection H as <- <-; eexists; exact E. }
    destruct F as (req & F). clear H. revert s F. induction ns as [|nm ns IH]; intros s F; cbn [find_names] in F; [discriminate|].
    apply orelse_some in F as [F|(s1 & _ & F)].
    + exists [], nm, ns. split; [reflexivity|]. exact (program_sound _ _ _ _ _ _ _ _ F).
    + destruct (IH s1 F) as (l1 & m & l2 & -> & I). exists (nm :: l1), m, l2. split; [reflexivity|exact I].
Qed.
Print Assumptions C146_found.

(** ** Names for which nothing is found *)
(** there is nothing for a name, and no subproject is to be configured for it *)
Definition nowhere (w : world) (versions : option (list bytes)) (dirs : list bytes) (s : st) (nm : name) : Prop :=
  text nm <> [] /\ (none_there w (places w dirs (text nm)) \/ exists p, first_there w (places w dirs (text nm)) p /\ ~ suits w versions p)
  /\ match nm with
     | File _ => True
     | Str n => not_overridden w versions s n /\ none_for n (provided w) /\ ~ is_samurai w n
     end.

Lemma nowhere_none : forall w req versions dirs s nm, nowhere w versions dirs s nm -> find_program w req versions dirs s nm = (s, Ok None).
Proof.
  intros w req versions dirs s nm (N & P & M). unfold find_program.
  assert (F : find_file w dirs (text nm) = Ok None \/ exists p, find_file w dirs (text nm) = Ok (Some p) /\ found_file w versions p = Ok None).
  { rewrite file_scan by exact N. destruct P as [P|(p & P & Ns)].
    - left. apply scan_none in P. congruence.
    - right. exists p. apply scan_first in P. split; [congruence|]. destruct (file_suits w versions p) as (r & -> & [(_ & X)|(-> & _)]); [contradiction|reflexivity]. }
  destruct nm as [n|f]; cbn [text] in *.
  - destruct M as (No & Pv & Ns). rewrite (no_override w versions s n No). cbn [orelse]. apply look_not in Pv.
    assert (E : check_fallback w versions s n = (s, Ok None)) by (unfold check_fallback; rewrite Pv; reflexivity).
    rewrite E. assert (E2 : match wrap_mode w with Forcefallback => (s, Ok None) | _ => (s, Ok (A:=option program) None) end = (s, Ok None)) by (destruct (wrap_mode w); reflexivity).
    rewrite E2. cbn [orelse]. destruct F as [->|(p & -> & ->)]; [|reflexivity].
    assert (M : (if samurai w && (beqb n (B "ninja") || beqb n (B "samu")) then (s, Ok (Some (Command [argv0 w; B "samu"]))) else (s, Ok None)) = (s, Ok None));
      [|destruct (wrap_mode w), req; rewrite ?E; exact M].
    destruct (samurai w) eqn:Sm; [|reflexivity]. cbn [andb].
    destruct (beqb_spec n (B "ninja")) as [->|N1]; [destruct Ns; split; [exact Sm|left; reflexivity]|].
    destruct (beqb_spec n (B "samu")) as [->|N2]; [destruct Ns; split; [exact Sm|right; reflexivity]|reflexivity].
  - cbn [orelse]. destruct F as [->|(p & -> & ->)]; reflexivity.
Qed.

Lemma names_skip : forall w req versions dirs s ns rest, Forall (nowhere w versions dirs s) ns ->
  find_names w req versions dirs s (ns ++ rest) = find_names w req versions dirs s rest.
Proof.
  intros w req versions dirs s ns rest F. induction F as [|nm ns H F IH]; [reflexivity|]. cbn [app find_names].
  rewrite (nowhere_none w req versions dirs s nm H). cbn [orelse]. exact IH.
Qed.

(** C146: names for which there is nothing do not matter. *)
Theorem C146_names_partial : forall w g kw disabler versions dirs s ns rest, Forall (nowhere w versions dirs s) ns ->
  func_find_program w g kw disabler versions dirs s (ns ++ rest) = func_find_program w g kw disabler versions dirs s rest.
Proof.
  intros w g kw disabler versions dirs s ns rest F. unfold func_find_program.
  destruct (coerce_requirement g kw) as [[]|]; try reflexivity; rewrite names_skip by exact F; reflexivity.
Qed.
Print Assumptions C146_names_partial.

(** C146: if there is nothing for any of the names, the call is an error exactly if the program is
    required, and gives an object that is not found (or a disabler) otherwise; nothing is
    configured. For a disabled feature, nothing is looked for. *)
Theorem C146_not_found : forall w g kw (disabler : bool) versions dirs s ns,
  (Forall (nowhere w versions dirs s) ns -> required g kw -> func_find_program w g kw disabler versions dirs s ns = (s, Err))
  /\ (Forall (nowhere w versions dirs s) ns -> optional g kw ->
      func_find_program w g kw disabler versions dirs s ns = (s, Ok (if disabler then Disabler else Notfound)))
  /\ (disabled g kw -> func_find_program w g kw disabler versions dirs s ns = (s, Ok (if disabler then Disabler else Notfound))).
Proof.
  intros w g kw disabler versions dirs s ns.
  assert (G : Forall (nowhere w versions dirs s) ns -> forall req, find_names w req versions dirs s ns = (s, Ok None)).
  { intros F req. pose proof (names_skip w req versions dirs s ns [] F) as X. rewrite app_nil_r in X. rewrite X. reflexivity. }
  unfold func_find_program. split; [|split].
  - intros F R. rewrite (required_is g kw R), (G F). reflexivity.
  - intros F R. rewrite (optional_is g kw R), (G F). reflexivity.
  - intros D. rewrite (disabled_is g kw D). reflexivity.
Qed.
Print Assumptions C146_not_found.

(** C146: no subproject is configured if fallbacks are turned off, nor for a program that is not
    required unless they are forced. *)
Theorem C146_no_subproject : forall w g kw disabler versions dirs s ns,
  wrap_mode w = Nofallback \/ wrap_mode w = Othermode /\ ~ required g kw ->
  fst (func_find_program w g kw disabler versions dirs s ns) = s.
Proof.
  intros w g kw disabler versions dirs s ns H. unfold func_find_program. destruct (coerce_requirement g kw) as [req|] eqn:E; [|reflexivity].
  assert (Q : wrap_mode w = Nofallback \/ wrap_mode w = Othermode /\ req <> RRequired).
  { destruct H as [H|(H & N)]; [left; exact H|right; split; [exact H|]]. intros ->. apply N. apply (C90_requirements g kw RRequired E). reflexivity. }
  assert (K : forall (r : st * out (option program)) k s0, fst r = s0 -> (fst (k s0) = s0) -> fst (orelse r k) = s0).
  { intros [a [[p|]| |]] k s0 Hr Hk; cbn [orelse fst] in *; subst; congruence. }
  assert (P : forall s nm, fst (find_program w req versions dirs s nm) = s).
  { intros s0 nm. unfold find_program. apply K; [destruct nm; reflexivity|]. apply K.
    - destruct nm; [|reflexivity]. destruct Q as [->|(-> & _)]; reflexivity.
    - destruct (find_file w dirs (text nm)) as [[p|]| |]; try reflexivity. apply K.
      + destruct nm; [|reflexivity]. destruct Q as [->|(-> & Nr)]; [reflexivity|]. destruct req; [reflexivity|congruence|reflexivity].
      + destruct nm; [|reflexivity]. destruct (samurai w && _); reflexivity. }
  assert (N : forall s ns, fst (find_names w req versions dirs s ns) = s).
  { intros s0 l. revert s0. induction l as [|nm l IH]; intros s0; [reflexivity|]. cbn [find_names]. apply K; [apply P|apply IH]. }
  specialize (N s ns). destruct req; [reflexivity| |]; destruct (find_names w _ versions dirs s ns) as [s2 [[p|]| |]]; exact N.
Qed.
Print Assumptions C146_no_subproject.

(** ** Examples *)
Definition a_world : world := {|
  is_file := fun p => existsb (beqb p) [B "/src/tools/gen"; B "/src/check.py"];
  is_exe := fun p => existsb (beqb p) [B "/usr/bin/gen"; B "/usr/bin/cc"; B "/opt/x/run"];
  env_path := Some (B "/usr/local/bin:/usr/bin");
  source_dir := B "/src"; started_in := B "/build";
  version_of := fun c => match c with
                         | [p] => if beqb p (B "/usr/bin/gen") then Some (B "2.1") else if beqb p (B "/src/tools/gen") then Some (B "1.0") else None
                         | _ => None
                         end;
  provided := [(B "prot", B "protsub")];
  sub_overrides := fun sub => if beqb sub (B "protsub") then [(B "prot", GTarget (B "prot-exe") (Some (B "3.2")))] else [];
  wrap_mode := Othermode; samurai := true; argv0 := B "muon" |}.
Definition a_state : st := {| overrides := [(B "tool", GFile (B "/src/tool.sh") None); (B "old", GProgram true [B "/usr/bin/gen"])]; configured := [] |}.

Definition find (kw : option kwarg) versions dirs ns := func_find_program a_world None kw false versions dirs a_state ns.
Example ex_find_override : find None None [] [Str (B "tool")] = (a_state, Ok (Found (Command [B "/src/tool.sh"]))). Proof. reflexivity. Qed.
Example ex_find_override_version : find None (Some [B ">=2"]) [] [Str (B "old")] = (a_state, Ok (Found (Command [B "/usr/bin/gen"]))). Proof. reflexivity. Qed.
Example ex_find_dirs : find None None [B "/src/tools"] [Str (B "gen")] = (a_state, Ok (Found (Command [B "/src/tools/gen"]))). Proof. reflexivity. Qed.
Example ex_find_path : find None (Some [B ">=2"]) [] [Str (B "none"); Str (B "gen")] = (a_state, Ok (Found (Command [B "/usr/bin/gen"]))).
Proof. vm_compute. reflexivity. Qed.
Example ex_find_source : find None None [] [Str (B "check.py")] = (a_state, Ok (Found (Command [B "/src/check.py"]))). Proof. reflexivity. Qed.
Example ex_find_absolute : find None None [] [Str (B "/opt/x/run")] = (a_state, Ok (Found (Command [B "/opt/x/run"]))). Proof. reflexivity. Qed.
Example ex_find_sub : find None (Some [B ">3"]) [] [Str (B "prot")]
  = ({| overrides := sub_overrides a_world (B "protsub") ++ overrides a_state; configured := [B "protsub"] |}, Ok (Found (Target (B "prot-exe")))).
Proof. vm_compute. reflexivity. Qed.
Example ex_find_optional : find (Some (KBool false)) None [] [Str (B "prot")] = (a_state, Ok Notfound). Proof. vm_compute. reflexivity. Qed.
Example ex_find_samu : find None None [] [Str (B "ninja")] = (a_state, Ok (Found (Command [B "muon"; B "samu"]))). Proof. vm_compute. reflexivity. Qed.

(** the hypotheses of the theorems are met *)
Example ex_find_place : not_overridden a_world (Some [B ">=2"]) a_state (B "gen") /\ first_there a_world (places a_world [] (B "gen")) (B "/usr/bin/gen")
  /\ suits a_world (Some [B ">=2"]) (B "/usr/bin/gen").
Proof.
  split; [|split].
  - intros x p H. apply look_first in H. discriminate.
  - apply scan_first. vm_compute. reflexivity.
  - right. exists (B "2.1"). split; [reflexivity|]. cbn [meets]. apply compare_true. vm_compute. reflexivity.
Qed.
Example ex_find_nowhere : nowhere a_world None [] a_state (Str (B "none")) /\ nowhere a_world (Some [B ">9"]) [] a_state (Str (B "gen")).
Proof.
  split; (split; [discriminate|split]).
  - left. apply scan_none. vm_compute. reflexivity.
  - split; [intros x p H; apply look_first in H; discriminate|]. split; [apply look_not; reflexivity|]. intros (_ & [E|E]); discriminate.
  - right. exists (B "/usr/bin/gen"). split; [apply scan_first; vm_compute; reflexivity|]. intros [[=]|(v & Ev & H)].
    vm_compute in Ev. injection Ev as <-. cbn [meets] in H. apply compare_true in H. vm_compute in H. discriminate.
  - split; [intros x p H; apply look_first in H; discriminate|]. split; [apply look_not; reflexivity|]. intros (_ & [E|E]); discriminate.
Qed.
Example ex_find_after : after a_world a_state (B "protsub") {| overrides := sub_overrides a_world (B "protsub") ++ overrides a_state; configured := [B "protsub"] |}
  /\ none_there a_world (places a_world [] (B "prot")) /\ first_for (B "prot") (provided a_world) (B "protsub").
Proof.
  split; [|split].
  - split; [intros []|]. intros _. split; reflexivity.
  - apply scan_none. vm_compute. reflexivity.
  - apply look_first. reflexivity.
Qed.

(** ** What does not hold *)
(** A program that is what the call asks for is not found if a file of the same name, whose version
    is not, is in one of the directories. *)
Theorem C146_hidden_refuted : exists w versions dirs s n p, there w (Executable (Some p)) p /\ In (Executable (Some p)) (places w dirs n)
  /\ suits w versions p /\ not_overridden w versions s n
  /\ func_find_program w None None false versions dirs s [Str n] = (s, Err).
Proof.
  exists a_world, (Some [B ">=2"]), [B "/src/tools"], a_state, (B "gen"), (B "/usr/bin/gen").
  split; [split; reflexivity|]. split; [vm_compute; auto|]. split; [apply ex_find_place|]. split; [apply ex_find_place|]. vm_compute. reflexivity.
Qed.
Print Assumptions C146_hidden_refuted.

(** An override by an installation of python is never found: muon aborts. *)
Theorem C146_python_refuted : forall w g kw disabler versions dirs s n rest cmd, required g kw \/ optional g kw ->
  func_find_program w g kw disabler versions dirs (override_find_program n (GPython cmd) s) (Str n :: rest)
  = (override_find_program n (GPython cmd) s, Crash).
Proof.
  intros w g kw disabler versions dirs s n rest cmd R.
  assert (F : forall req, find_names w req versions dirs (override_find_program n (GPython cmd) s) (Str n :: rest) = (override_find_program n (GPython cmd) s, Crash)).
  { intros req. cbn [find_names]. unfold find_program. cbn [text]. unfold check_override, override_find_program. cbn [overrides look].
    destruct (beqb_spec n n) as [_|X]; [|congruence]. reflexivity. }
  unfold func_find_program. destruct R as [R|R]; [rewrite (required_is g kw R)|rewrite (optional_is g kw R)]; rewrite F; reflexivity.
Qed.
Print Assumptions C146_python_refuted.

(** The empty name aborts muon, if there are no files at the directories themselves. *)
Theorem C146_empty_refuted : forall w g kw disabler versions s rest, required g kw \/ optional g kw ->
  none_for [] (overrides s) -> none_for [] (provided w) -> (forall p, is_file w p = false) ->
  func_find_program w g kw disabler versions [] s (Str [] :: rest) = (s, Crash).
Proof.
  intros w g kw disabler versions s rest R No Np Nf.
  assert (F : forall req, find_names w req versions [] s (Str [] :: rest) = (s, Crash)).
  { intros req. cbn [find_names]. unfold find_program. cbn [text]. unfold check_override. apply look_not in No, Np. rewrite No. cbn [orelse].
    unfold check_fallback. rewrite Np.
    assert (E2 : match wrap_mode w with Forcefallback => (s, Ok None) | _ => (s, Ok (A:=option program) None) end = (s, Ok None)) by (destruct (wrap_mode w); reflexivity).
    rewrite E2. cbn [orelse]. unfold find_file. cbn [custom_dir]. destruct (join_total (source_dir w) []) as (q & ->). rewrite Nf. reflexivity. }
  unfold func_find_program. destruct R as [R|R]; [rewrite (required_is g kw R)|rewrite (optional_is g kw R)]; rewrite F; reflexivity.
Qed.
Print Assumptions C146_empty_refuted.

(** An override whose version is not known is found whatever version is asked for. *)
Theorem C146_unknown_version_refuted : forall w g kw disabler versions dirs s n rest f, required g kw \/ optional g kw ->
  func_find_program w g kw disabler versions dirs (override_find_program n (GFile f None) s) (Str n :: rest)
  = (override_find_program n (GFile f None) s, Ok (Found (Command [f]))).
Proof.
  intros w g kw disabler versions dirs s n rest f R. apply C146_override_partial with (x := GFile f None); [exact R| |discriminate|].
  - exists [], (overrides s). split; [reflexivity|]. intros y [].
  - split; [reflexivity|]. intros u [=].
Qed.
Print Assumptions C146_unknown_version_refuted.

(** ** Versions *)
(** C147: the version that is read from what a program says is, of the words of digits and dots, the
    first of those with the most dots. *)
Theorem C147_guess : forall s r, guess_version s = Some r <->
  exists l1 l2, words s = l1 ++ r :: l2 /\ 0 < count_dots r
    /\ Forall (fun x => count_dots x < count_dots r) l1 /\ Forall (fun x => count_dots x <= count_dots r) l2.
Proof.
  intros s r. unfold guess_version. rewrite guess_words by lia. rewrite best_spec.
  assert (D : forall l (P : nat -> Prop), Forall (fun x => P (dots x)) l <-> Forall (fun x => P (count_dots x)) l).
  { intros l P. split; apply Forall_impl; intros a; rewrite dots_count; auto. }
  split.
  - intros [(l1 & l2 & E & N & F1 & F2)|([=] & _)]. exists l1, l2. rewrite dots_count in *. split; [exact E|]. split; [exact N|].
    split; [apply (D l1 (fun k => k < count_dots r)); exact F1|apply (D l2 (fun k => k <= count_dots r)); exact F2].
  - intros (l1 & l2 & E & N & F1 & F2). left. exists l1, l2. rewrite dots_count. split; [exact E|]. split; [exact N|].
    split; [apply (D l1 (fun k => k < count_dots r)); exact F1|apply (D l2 (fun k => k <= count_dots r)); exact F2].
Qed.
Print Assumptions C147_guess.

(** C147: none is read exactly if there is no dot in what a program says. *)
Theorem C147_no_version : forall s, guess_version s = None <-> ~ In "."%char s.
Proof.
  intros s. unfold guess_version. rewrite guess_words by lia.
  assert (B0 : forall ws, best_word ws None 0 = None <-> Forall (fun x => dots x = 0) ws).
  { intros ws. split.
    - intros H. destruct (Forall_Exists_dec (fun x => dots x = 0) (fun x => Nat.eq_dec (dots x) 0) ws) as [F|F]; [exact F|exfalso].
      assert (G : forall ws b n, b <> None -> best_word ws b n <> None).
      { induction ws0 as [|x l IH]; intros b n Nb; cbn [best_word]; [exact Nb|]. destruct (n <? dots x); apply IH; [discriminate|exact Nb]. }
      induction F as [x l Hx|x l F IH]; cbn [best_word] in H; destruct (Nat.ltb_spec 0 (dots x)) as [L|L];
        try (refine (G _ _ _ _ H); discriminate); [cbn beta in Hx; lia|exact (IH H)].
    - intros F. induction F as [|x l Hx F IH]; [reflexivity|]. cbn [best_word]. rewrite Hx. exact IH. }
  rewrite B0. unfold words. clear B0.
  assert (C0 : forall s, Forall (fun x => dots x = 0) (cut_at (fun c => negb (version_char c)) s) <-> ~ In "."%char s); [|apply C0].
  clear s. induction s as [|c s IH]; [split; [intros _ []|intros _; repeat constructor]|]. cbn [cut_at].
  destruct (negb (version_char c)) eqn:V.
  - split.
    + intros F [->|I]; [discriminate|]. apply Forall_inv_tail in F. apply IH in F. exact (F I).
    + intros N. constructor; [reflexivity|]. apply IH. intros I. apply N. right. exact I.
  - destruct (cut_at (fun c => negb (version_char c)) s) as [|x l] eqn:E.
    { exfalso. destruct s as [|d s]; cbn [cut_at] in E; [discriminate|]. destruct (negb (version_char d)); [discriminate|].
      destruct (cut_at _ s); discriminate. }
    assert (D : dots (c :: x) = 0 <-> c <> "."%char /\ dots x = 0).
    { unfold dots. cbn [filter]. destruct (Ascii.eqb_spec c "."%char) as [->|N].
      - replace (ceqb "." ".")%char with true by reflexivity. cbn [length]. split; [discriminate|intros (X & _); congruence].
      - replace (ceqb c "."%char) with false by (symmetry; apply Ascii.eqb_neq; exact N). tauto. }
    split.
    + intros F. pose proof (Forall_inv F) as Fx. cbn beta in Fx. apply D in Fx as (Nc & Fx). apply Forall_inv_tail in F.
      assert (I : ~ In "."%char s) by (apply IH; constructor; assumption). intros [H|H]; [congruence|exact (I H)].
    + intros N. assert (I : ~ In "."%char s) by (intros H; apply N; right; exact H). apply IH in I.
      constructor; [apply D; split; [intros ->; apply N; left; reflexivity|exact (Forall_inv I)]|exact (Forall_inv_tail I)].
Qed.
Print Assumptions C147_no_version.
Example ex_guess : guess_version (B "gen 10 (core 1.4) version 2.10.3, lib 7.7.7") = Some (B "2.10.3") /\ guess_version (B "version 10") = None.
Proof. split; reflexivity. Qed.
Example ex_guess_words : words (B "gen 2.1b 3") = [[]; []; []; []; B "2.1"; []; B "3"]. Proof. reflexivity. Qed.

(** Dots alone are taken for a version. *)
Theorem C147_dots_refuted : exists s r, guess_version s = Some r /\ Forall (fun c => c = "."%char) r /\ In (B "2.1") (words s).
Proof. exists (B "loading... gen 2.1"), (B "..."). split; [reflexivity|]. split; [repeat constructor|]. vm_compute. tauto. Qed.
Print Assumptions C147_dots_refuted.
