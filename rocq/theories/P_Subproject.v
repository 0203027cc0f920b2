(** C148: which subprojects are configured and what subproject() returns. *)
From Verif Require Import Base M_Path M_Version S_Version P_Version M_Feature S_Feature P_Feature M_Subproject S_Subproject.
From Verif Require L_Fs.
Local Arguments B _ : simpl never.

Lemma required_is : forall g kw, required g kw -> coerce_requirement g kw = Some RRequired.
Proof.
  intros g kw H. assert (X : exists r, coerce_requirement g kw = Some r).
  { destruct H as [->|[->|(fo & -> & _)]]; eexists; reflexivity. }
  destruct X as (r & E). rewrite E. f_equal. apply (C90_requirements g kw r E). exact H.
Qed.
Lemma optional_is : forall g kw, optional g kw -> coerce_requirement g kw = Some RAuto.
Proof.
  intros g kw H. assert (X : exists r, coerce_requirement g kw = Some r).
  { destruct H as [->|(fo & -> & _)]; eexists; reflexivity. }
  destruct X as (r & E). rewrite E. f_equal. apply (C90_requirements g kw r E). exact H.
Qed.
Lemma disabled_is : forall g kw, disabled g kw -> coerce_requirement g kw = Some RSkip.
Proof.
  intros g kw H. assert (X : exists r, coerce_requirement g kw = Some r).
  { destruct H as (fo & -> & _); eexists; reflexivity. }
  destruct X as (r & E). rewrite E. f_equal. apply (C90_requirements g kw r E). exact H.
Qed.

Lemma compare_true v reqs : version_compare v reqs = Some true <-> reqs <> [] /\ Forall (requirement_holds v) reqs.
Proof.
  destruct reqs as [|q reqs]; [split; [discriminate|intros [H _]; congruence]|].
  destruct (C10_requirements_partial v (q :: reqs) ltac:(discriminate)) as (r & E & H). rewrite E. split.
  - intros [= ->]. split; [discriminate|now apply H].
  - intros [_ F]. f_equal. now apply H.
Qed.

Lemma look_first : forall A n (l : list (bytes * A)) x, look n l = Some x <-> first_for n l x.
Proof.
  intros A n l x. induction l as [|[k v] l IH]; cbn [look].
  - split; [discriminate|]. intros (l1 & l2 & E & _). destruct l1; discriminate.
  - destruct (beqb_spec n k) as [<-|N].
    + split.
      * intros [= ->]. exists [], l. split; [reflexivity|]. intros y [].
      * intros ([|y l1] & l2 & E & F); [injection E as ->; reflexivity|]. injection E as <- _. exfalso. apply (F v). left. reflexivity.
    + rewrite IH. split.
      * intros (l1 & l2 & -> & F). exists ((k, v) :: l1), l2. split; [reflexivity|]. intros y [E|I]; [congruence|exact (F y I)].
      * intros ([|y l1] & l2 & E & F); [injection E; congruence|]. injection E as <- ->. exists l1, l2. split; [reflexivity|]. intros y I. apply (F y). right. exact I.
Qed.
Lemma look_not : forall A n (l : list (bytes * A)), look n l = None <-> none_for n l.
Proof.
  intros A n l. unfold none_for. induction l as [|[k v] l IH]; cbn [look In]; [tauto|].
  destruct (beqb_spec n k) as [<-|N].
  - split; [discriminate|]. intros H. exfalso. apply (H v). left. reflexivity.
  - rewrite IH. split; [intros H y [E|I]; [congruence|exact (H y I)]|intros H y I; exact (H y (or_intror I))].
Qed.

Lemma join_pair : forall a b, join_paths [a; b] = path_join a b.
Proof.
  intros a b. unfold join_paths, path_join. cbn [join_paths_from]. destruct (path_push [] a) as [s|]; [|reflexivity].
  destruct (path_push s b); reflexivity.
Qed.
Lemma join_three : forall a b c, join_paths [a; b; c] = bind (path_join a b) (fun d => path_push d c).
Proof.
  intros a b c. unfold join_paths, path_join. cbn [join_paths_from]. destruct (path_push [] a) as [s|]; [|reflexivity].
  destruct (path_push s b) as [t|]; [|reflexivity]. cbn [bind]. destruct (path_push t c); reflexivity.
Qed.

(** where a subproject is looked for *)
Definition place (w : world) (root subdir name : bytes) : option bytes :=
  bind (path_join root subdir) (fun d => bind (path_push d name) (prepare w)).

Lemma place_is : forall w root subdir name d, place w root subdir name = Some d <-> located w root subdir name d /\ has_build w d.
Proof.
  intros w root subdir name d. pose proof (join_three root subdir name) as J.
  assert (HB : forall e, bind (path_join e (B "meson.build")) (fun src => if is_file w src then Some e else None) = Some d <-> e = d /\ has_build w d).
  { intros e. unfold has_build. split.
    - destruct (path_join e (B "meson.build")) as [p|] eqn:E; [|discriminate]. cbn [bind]. destruct (is_file w p) eqn:F; [|discriminate].
      intros [= ->]. split; [reflexivity|]. exists p. rewrite join_pair. split; assumption.
    - intros (-> & p & E & F). rewrite join_pair in E. rewrite E. cbn [bind]. rewrite F. reflexivity. }
  unfold place. destruct (path_join root subdir) as [r|]; cbn [bind] in *.
  2:{ split; [discriminate|]. intros ([? E|? E|? ? ? ? E] & _); congruence. }
  destruct (path_push r name) as [c|]; cbn [bind] in *.
  2:{ split; [discriminate|]. intros ([? E|? E|? ? ? ? E] & _); congruence. }
  unfold prepare. destruct (is_dir w c) eqn:D.
  - rewrite HB. split.
    + intros (-> & H). split; [apply (there _ _ _ _ d); assumption|exact H].
    + intros ([e E X|e E X|e b f k E X] & Hbd); assert (c = e) by congruence; subst; [split; [reflexivity|exact Hbd]|congruence..].
  - cbv zeta. destruct (is_file w (c ++ B ".wrap")) eqn:F.
    2:{ split; [discriminate|]. intros ([e E X|e E X|e b f k E X] & _); assert (c = e) by congruence; subst; congruence. }
    destruct (wrapped w (c ++ B ".wrap")) as [[dir|]|] eqn:W.
    + destruct (path_dirname c) as [base|] eqn:Dn; cbn [bind].
      2:{ split; [discriminate|]. intros ([e E X|e E X|e b f k E X] & _); assert (c = e) by congruence; subst; congruence. }
      destruct (path_join base dir) as [e|] eqn:Je; cbn [bind].
      2:{ split; [discriminate|]. intros ([e E X|e E X|e b f k E X F1 W1 Dn1 J1] & _); assert (c = e) by congruence; subst; try congruence.
          rewrite join_pair in J1. congruence. }
      rewrite HB. split.
      * intros (-> & H). split; [|exact H]. apply (fetched_to _ _ _ _ c base dir d); try assumption. rewrite join_pair. exact Je.
      * intros ([e' E X|e' E X|e' b f k E X F1 W1 Dn1 J1] & Hbd); assert (c = e') by congruence; subst; try congruence.
        rewrite join_pair in J1. split; [congruence|exact Hbd].
    + rewrite HB. split.
      * intros (-> & H). split; [|exact H]. apply fetched; assumption.
      * intros ([e' E X|e' E X|e' b f k E X F1 W1 Dn1 J1] & Hbd); assert (c = e') by congruence; subst; try congruence. split; [reflexivity|exact Hbd].
    + split; [discriminate|]. intros ([e' E X|e' E X|e' b f k E X F1 W1 Dn1 J1] & _); assert (c = e') by congruence; subst; congruence.
Qed.

(** ** The calls of a project *)
(** C148: the calls of a project go well exactly if each does with what those before it have left, and
    they fail exactly if there is a first one that does. *)
Theorem C148_calls : forall f l s s',
  (calls f s l = (s', Done true) <-> in_turn f s l s')
  /\ (calls f s l = (s', Done false) <-> stopped f s l s')
  /\ (calls f s l = (s', Diverged) <-> exists l1 c l2 s1, l = l1 ++ c :: l2 /\ in_turn f s l1 s1 /\ f s1 c = (s', Diverged)).
Proof.
  unfold stopped. intros f l. induction l as [|c l IH]; intros s s'; cbn [calls].
  - split; [split; [intros [= ->]; constructor|intros H; inversion H; reflexivity]|].
    split; (split; [discriminate|intros ([|? ?] & ? & ? & ? & E & _); discriminate]).
  - destruct (f s c) as [s1 r] eqn:E. destruct r as [x| |].
    + destruct (IH s1 s') as (I1 & I2 & I3). split; [|split].
      * rewrite I1. split; [intros H; econstructor; eassumption|]. intros H. inversion H; subst. congruence.
      * rewrite I2. split.
        -- intros (l1 & d & l2 & s2 & -> & T & F). exists (c :: l1), d, l2, s2. split; [reflexivity|]. split; [econstructor; eassumption|exact F].
        -- intros (l1 & d & l2 & s2 & El & T & F). inversion T; subst; cbn [app] in El; injection El as -> ->; [congruence|].
           eexists _, d, l2, s2. split; [reflexivity|]. split; [|exact F]. congruence.
      * rewrite I3. split.
        -- intros (l1 & d & l2 & s2 & -> & T & F). exists (c :: l1), d, l2, s2. split; [reflexivity|]. split; [econstructor; eassumption|exact F].
        -- intros (l1 & d & l2 & s2 & El & T & F). inversion T; subst; cbn [app] in El; injection El as -> ->; [congruence|].
           eexists _, d, l2, s2. split; [reflexivity|]. split; [|exact F]. congruence.
    + split; [|split].
      * split; [discriminate|]. intros H. inversion H; subst. congruence.
      * split; [intros [= ->]; exists [], c, l, s; split; [reflexivity|]; split; [constructor|exact E]|].
        intros (l1 & d & l2 & s2 & El & T & F). inversion T; subst; cbn [app] in El; injection El as -> ->; congruence.
      * split; [discriminate|].
        intros (l1 & d & l2 & s2 & El & T & F). inversion T; subst; cbn [app] in El; injection El as -> ->; congruence.
    + split; [|split].
      * split; [discriminate|]. intros H. inversion H; subst. congruence.
      * split; [discriminate|].
        intros (l1 & d & l2 & s2 & El & T & F). inversion T; subst; cbn [app] in El; injection El as -> ->; congruence.
      * split; [intros [= ->]; exists [], c, l, s; split; [reflexivity|]; split; [constructor|exact E]|].
        intros (l1 & d & l2 & s2 & El & T & F). inversion T; subst; cbn [app] in El; injection El as -> ->; congruence.
Qed.
Print Assumptions C148_calls.

(** ** What is found stays *)
Definition keeps (s s' : st) : Prop := forall n x, look n (subs s) = Some x -> look n (subs s') = Some x.

Lemma calls_keep : forall f l s, (forall s c, keeps s (fst (f s c))) -> keeps s (fst (calls f s l)).
Proof.
  intros f l. induction l as [|c l IH]; intros s H n x E; cbn [calls]; [exact E|].
  pose proof (H s c n x E) as X. destruct (f s c) as [s1 [y| |]]; cbn [fst] in *; try exact X. apply IH; assumption.
Qed.

Lemma subproject_keeps : forall fuel w g root subdir s c, keeps s (fst (subproject fuel w g root subdir s c)).
Proof.
  induction fuel as [|fuel IH]; intros w g root subdir s c n x E; cbn [subproject]; [exact E|].
  destruct (coerce_requirement g (c_required c)) as [req|]; [|exact E].
  destruct (look (c_name c) (subs s)) as [y|] eqn:L; [exact E|].
  assert (K : forall missing good, look n (subs (fst match bind (path_join root subdir) (fun d => bind (path_push d (c_name c)) (prepare w)) with
      | None => (s, missing)
      | Some dir => match calls (subproject fuel w g dir (p_subdir (build w dir))) {| subs := subs s; entered := entered s ++ [dir] |} (p_calls (build w dir)) with
          | (s, Diverged) => (s, Diverged)
          | (s, Done true) => if p_ok (build w dir) && good (build w dir)
              then ({| subs := (c_name c, {| s_dir := dir; s_vars := p_vars (build w dir) |}) :: subs s; entered := entered s |}, Done (Some {| s_dir := dir; s_vars := p_vars (build w dir) |}))
              else (s, missing)
          | (s, _) => (s, missing)
          end
      end)) = Some x).
  { intros missing good. destruct (bind _ _) as [dir|]; [|exact E].
    pose proof (calls_keep (subproject fuel w g dir (p_subdir (build w dir))) (p_calls (build w dir)) {| subs := subs s; entered := entered s ++ [dir] |}
      (fun s c => IH w g dir _ s c) n x E) as X.
    destruct (calls _ _ _) as [s1 [[]| |]]; cbn [fst] in *; try exact X.
    destruct (p_ok (build w dir) && good (build w dir)); [|exact X]. cbn [subs fst look].
    destruct (beqb_spec n (c_name c)) as [->|]; [congruence|exact X]. }
  destruct req; [exact E|exact (K Failed (fun p => match c_version c with None => true | Some reqs => match version_compare (p_version p) reqs with None => false | Some b => b || false end end))|
    exact (K (Done None) (fun p => match c_version c with None => true | Some reqs => match version_compare (p_version p) reqs with None => false | Some b => b || true end end))].
Qed.

Lemma history_keeps : forall w g s s', history w g s s' -> keeps s s'.
Proof.
  intros w g s s' H. induction H as [s|s s' fuel root subdir c H IH]; intros n x E; [exact E|]. apply subproject_keeps. exact (IH n x E).
Qed.

(** a call whose outcome is a subproject *)
Lemma found_inv : forall fuel w g root subdir s c s' x, subproject fuel w g root subdir s c = (s', Done (Some x)) ->
  s' = s /\ look (c_name c) (subs s) = Some x
  \/ look (c_name c) (subs s) = None /\ look (c_name c) (subs s') = Some x
     /\ exists req dir s1 f, coerce_requirement g (c_required c) = Some req /\ req <> RSkip /\ place w root subdir (c_name c) = Some dir
        /\ calls (subproject f w g dir (p_subdir (build w dir))) {| subs := subs s; entered := entered s ++ [dir] |} (p_calls (build w dir)) = (s1, Done true)
        /\ p_ok (build w dir) = true /\ x = {| s_dir := dir; s_vars := p_vars (build w dir) |}
        /\ (req = RRequired -> forall reqs, c_version c = Some reqs -> version_compare (p_version (build w dir)) reqs = Some true).
Proof.
  intros [|fuel] w g root subdir s c s' x H; cbn [subproject] in H; [discriminate|].
  destruct (coerce_requirement g (c_required c)) as [req|] eqn:R; [|discriminate].
  destruct (look (c_name c) (subs s)) as [y|] eqn:L; [left; split; congruence|right]. split; [reflexivity|].
  destruct (place w root subdir (c_name c)) as [dir|] eqn:P; unfold place in P; rewrite P in H; [|destruct req; discriminate].
  assert (Nr : req <> RSkip) by (intros ->; discriminate).
  cbv zeta in H.
  destruct (calls (subproject fuel w g dir (p_subdir (build w dir))) {| subs := subs s; entered := entered s ++ [dir] |} (p_calls (build w dir))) as [s1 [[]| |]] eqn:C;
    [|destruct req; discriminate..].
  destruct req; [congruence| |].
  - destruct (p_ok (build w dir)) eqn:O; [|discriminate]. cbn [andb] in H.
    assert (V : forall reqs, c_version c = Some reqs -> version_compare (p_version (build w dir)) reqs = Some true).
    { intros reqs Ev. rewrite Ev in H. destruct (version_compare (p_version (build w dir)) reqs) as [[]|]; [reflexivity|discriminate..]. }
    assert (X : s' = {| subs := (c_name c, {| s_dir := dir; s_vars := p_vars (build w dir) |}) :: subs s1; entered := entered s1 |} /\ x = {| s_dir := dir; s_vars := p_vars (build w dir) |}).
    { destruct (c_version c) as [reqs|]; [rewrite (V reqs eq_refl) in H; cbn [orb] in H|]; split; congruence. }
    destruct X as (-> & ->). split; [cbn [subs look]; destruct (beqb_spec (c_name c) (c_name c)); [reflexivity|congruence]|].
    exists RRequired, dir, s1, fuel. repeat split; auto; discriminate.
  - destruct (p_ok (build w dir)) eqn:O; [|discriminate]. cbn [andb] in H.
    assert (X : s' = {| subs := (c_name c, {| s_dir := dir; s_vars := p_vars (build w dir) |}) :: subs s1; entered := entered s1 |} /\ x = {| s_dir := dir; s_vars := p_vars (build w dir) |}).
    { destruct (c_version c) as [reqs|]; [destruct (version_compare (p_version (build w dir)) reqs) as [[]|]; cbn [orb] in H; try discriminate|]; split; congruence. }
    destruct X as (-> & ->). split; [cbn [subs look]; destruct (beqb_spec (c_name c) (c_name c)); [reflexivity|congruence]|].
    exists RAuto, dir, s1, fuel. repeat split; auto; discriminate.
Qed.

(** C148: a subproject that was found is found again by every call with its name, whatever is
    configured in between, and is not configured again. *)
Theorem C148_again : forall fuel w g root subdir s c s1 x s2 fuel' root' subdir' c',
  subproject fuel w g root subdir s c = (s1, Done (Some x)) -> history w g s1 s2 ->
  c_name c' = c_name c -> required g (c_required c') \/ optional g (c_required c') ->
  subproject (S fuel') w g root' subdir' s2 c' = (s2, Done (Some x)).
Proof.
  intros fuel w g root subdir s c s1 x s2 fuel' root' subdir' c' H Hh En R.
  assert (L : look (c_name c) (subs s1) = Some x) by (apply found_inv in H as [(-> & L)|(_ & L & _)]; exact L).
  apply (history_keeps w g s1 s2 Hh) in L. cbn [subproject]. rewrite En, L.
  destruct R as [R|R]; [rewrite (required_is g _ R)|rewrite (optional_is g _ R)]; reflexivity.
Qed.
Print Assumptions C148_again.

(** C148: a subproject that is found by the first call for it is the project in the directory of
    that name, or where its wrap file put it; everything in its meson.build succeeded, all
    subprojects that it required were found, and its variables are those that it set. *)
Theorem C148_found : forall fuel w g root subdir s c s' x,
  subproject fuel w g root subdir s c = (s', Done (Some x)) -> none_for (c_name c) (subs s) ->
  located w root subdir (c_name c) (s_dir x) /\ has_build w (s_dir x) /\ p_ok (build w (s_dir x)) = true
  /\ (exists f s1, in_turn (subproject f w g (s_dir x) (p_subdir (build w (s_dir x)))) {| subs := subs s; entered := entered s ++ [s_dir x] |} (p_calls (build w (s_dir x))) s1)
  /\ s_vars x = p_vars (build w (s_dir x)) /\ ~ disabled g (c_required c).
Proof.
  intros fuel w g root subdir s c s' x H N. apply look_not in N.
  destruct (found_inv _ _ _ _ _ _ _ _ _ H) as [(_ & L)|(_ & _ & req & dir & s1 & f & R & Nr & P & C & O & -> & _)]; [congruence|].
  cbn [s_dir s_vars]. apply place_is in P as (P & Hb). split; [exact P|]. split; [exact Hb|]. split; [exact O|]. split; [exists f, s1; apply C148_calls; exact C|]. split; [reflexivity|].
  intros D. rewrite (disabled_is g _ D) in R. congruence.
Qed.
Print Assumptions C148_found.

(** C148: if it is required and a version is asked for, the subproject has such a version. *)
Theorem C148_version_partial : forall fuel w g root subdir s c s' x reqs,
  subproject fuel w g root subdir s c = (s', Done (Some x)) -> none_for (c_name c) (subs s) ->
  required g (c_required c) -> c_version c = Some reqs -> Forall (requirement_holds (p_version (build w (s_dir x)))) reqs.
Proof.
  intros fuel w g root subdir s c s' x reqs H N R V. apply look_not in N.
  destruct (found_inv _ _ _ _ _ _ _ _ _ H) as [(_ & L)|(_ & _ & req & dir & s1 & f & Rq & Nr & P & C & O & -> & G)]; [congruence|].
  rewrite (required_is g _ R) in Rq. assert (E : req = RRequired) by congruence. cbn [s_dir]. apply compare_true. exact (G E reqs V).
Qed.
Print Assumptions C148_version_partial.

(** C148: a call for a required subproject never returns one that is not found, one for an optional
    subproject never fails, and for a disabled feature nothing is configured. *)
Theorem C148_required : forall fuel w g root subdir s c,
  (required g (c_required c) -> snd (subproject fuel w g root subdir s c) <> Done None)
  /\ (optional g (c_required c) -> snd (subproject fuel w g root subdir s c) <> Failed)
  /\ (disabled g (c_required c) -> none_for (c_name c) (subs s) -> subproject (S fuel) w g root subdir s c = (s, Done None)).
Proof.
  intros fuel w g root subdir s c. split; [|split].
  - intros R. destruct fuel as [|fuel]; cbn [subproject]; [discriminate|]. rewrite (required_is g _ R). cbv zeta.
    destruct (look (c_name c) (subs s)); [discriminate|]. destruct (bind _ _) as [dir|]; [|discriminate].
    destruct (calls _ _ _) as [s1 [[]| |]]; try discriminate. destruct (p_ok _ && _); discriminate.
  - intros R. destruct fuel as [|fuel]; cbn [subproject]; [discriminate|]. rewrite (optional_is g _ R). cbv zeta.
    destruct (look (c_name c) (subs s)); [discriminate|]. destruct (bind _ _) as [dir|]; [|discriminate].
    destruct (calls _ _ _) as [s1 [[]| |]]; try discriminate. destruct (p_ok _ && _); discriminate.
  - intros D N. apply look_not in N. cbn [subproject]. rewrite (disabled_is g _ D), N. reflexivity.
Qed.
Print Assumptions C148_required.

(** C148: a subproject that is there, whose meson.build succeeds with all the subprojects that it
    configures itself, is found, unless its version is not asked for, and nothing but it and these
    is configured. *)
Theorem C148_complete : forall fuel w g root subdir s c d s1, required g (c_required c) \/ optional g (c_required c) ->
  none_for (c_name c) (subs s) -> located w root subdir (c_name c) d -> has_build w d -> p_ok (build w d) = true ->
  in_turn (subproject fuel w g d (p_subdir (build w d))) {| subs := subs s; entered := entered s ++ [d] |} (p_calls (build w d)) s1 ->
  (c_version c = None \/ exists reqs, c_version c = Some reqs /\ reqs <> [] /\ Forall (requirement_holds (p_version (build w d))) reqs) ->
  exists s', subproject (S fuel) w g root subdir s c = (s', Done (Some {| s_dir := d; s_vars := p_vars (build w d) |}))
    /\ entered s' = entered s1 /\ first_for (c_name c) (subs s') {| s_dir := d; s_vars := p_vars (build w d) |}
    /\ forall n x, n <> c_name c -> (first_for n (subs s') x <-> first_for n (subs s1) x).
Proof.
  intros fuel w g root subdir s c d s1 R N L Hb O C V. apply look_not in N. apply C148_calls in C.
  assert (P : place w root subdir (c_name c) = Some d) by (apply place_is; split; assumption). unfold place in P.
  exists {| subs := (c_name c, {| s_dir := d; s_vars := p_vars (build w d) |}) :: subs s1; entered := entered s1 |}. split; [|split; [reflexivity|split]].
  - cbn [subproject]. rewrite N, P. cbv zeta. rewrite C, O. cbn [andb].
    destruct V as [V|(reqs & V & Ne & F)]; [rewrite V|rewrite V, (proj2 (compare_true _ _) (conj Ne F))]; cbn [orb];
      destruct R as [R|R]; [rewrite (required_is g _ R)|rewrite (optional_is g _ R)|rewrite (required_is g _ R)|rewrite (optional_is g _ R)]; reflexivity.
  - apply look_first. cbn [subs look]. destruct (beqb_spec (c_name c) (c_name c)); [reflexivity|congruence].
  - intros n x Hn. rewrite <- !look_first. cbn [subs look]. destruct (beqb_spec n (c_name c)); [congruence|reflexivity].
Qed.
Print Assumptions C148_complete.

(** C148: one that is required but is not there, or fails, makes the call fail; an optional one is
    then not found. *)
Theorem C148_missing : forall fuel w g root subdir s c, none_for (c_name c) (subs s) ->
  ((forall d, located w root subdir (c_name c) d -> ~ has_build w d) ->
     (required g (c_required c) -> subproject (S fuel) w g root subdir s c = (s, Failed))
     /\ (optional g (c_required c) -> subproject (S fuel) w g root subdir s c = (s, Done None)))
  /\ (forall d s1, located w root subdir (c_name c) d -> has_build w d ->
     stopped (subproject fuel w g d (p_subdir (build w d))) {| subs := subs s; entered := entered s ++ [d] |} (p_calls (build w d)) s1
     \/ in_turn (subproject fuel w g d (p_subdir (build w d))) {| subs := subs s; entered := entered s ++ [d] |} (p_calls (build w d)) s1 /\ p_ok (build w d) = false ->
     (required g (c_required c) -> subproject (S fuel) w g root subdir s c = (s1, Failed))
     /\ (optional g (c_required c) -> subproject (S fuel) w g root subdir s c = (s1, Done None))).
Proof.
  intros fuel w g root subdir s c N. apply look_not in N. split.
  - intros H. assert (P : place w root subdir (c_name c) = None).
    { destruct (place w root subdir (c_name c)) as [d|] eqn:P; [|reflexivity]. apply place_is in P as (L & Hb). destruct (H d L Hb). }
    unfold place in P. split; intros R; cbn [subproject]; [rewrite (required_is g _ R)|rewrite (optional_is g _ R)]; rewrite N, P; reflexivity.
  - intros d s1 L Hb X.
    assert (Y : exists b, calls (subproject fuel w g d (p_subdir (build w d))) {| subs := subs s; entered := entered s ++ [d] |} (p_calls (build w d)) = (s1, Done b) /\ (b = false \/ p_ok (build w d) = false)).
    { destruct X as [X|(X & O)]; apply C148_calls in X; eexists; (split; [exact X|]); [left; reflexivity|right; exact O]. }
    destruct Y as (b & C & O). assert (P : place w root subdir (c_name c) = Some d) by (apply place_is; split; assumption). unfold place in P.
    split; intros R; cbn [subproject]; [rewrite (required_is g _ R)|rewrite (optional_is g _ R)]; rewrite N, P; cbv zeta; rewrite C;
      (destruct O as [->|O]; [reflexivity|]); rewrite O; destruct b; reflexivity.
Qed.
Print Assumptions C148_missing.

(** The bound on the depth of subprojects in subprojects does not matter once it is large enough. *)
Lemma calls_more : forall f f' l s s' b, (forall s c s' r, f s c = (s', r) -> r <> Diverged -> f' s c = (s', r)) ->
  calls f s l = (s', Done b) -> calls f' s l = (s', Done b).
Proof.
  intros f f' l. induction l as [|c l IH]; intros s s' b H E; cbn [calls] in *; [exact E|].
  destruct (f s c) as [s1 [y| |]] eqn:F; [rewrite (H _ _ _ _ F) by discriminate; exact (IH _ _ _ H E)|rewrite (H _ _ _ _ F) by discriminate; exact E|discriminate].
Qed.
Theorem C148_depth : forall fuel w g root subdir s c s' r, subproject fuel w g root subdir s c = (s', r) -> r <> Diverged ->
  subproject (S fuel) w g root subdir s c = (s', r).
Proof.
  induction fuel as [|fuel IH]; intros w g root subdir s c s' r H Nd; [cbn [subproject] in H; congruence|].
  remember (S fuel) as fuel1 eqn:E1. cbn [subproject]. rewrite E1 in H. cbn [subproject] in H.
  destruct (coerce_requirement g (c_required c)) as [req|]; [|exact H]. cbv zeta in *.
  destruct (look (c_name c) (subs s)); [exact H|]. destruct (bind _ _) as [dir|]; [|exact H].
  destruct (calls (subproject fuel w g dir (p_subdir (build w dir))) {| subs := subs s; entered := entered s ++ [dir] |} (p_calls (build w dir))) as [s1 [b| |]] eqn:C.
  - rewrite (calls_more _ (subproject fuel1 w g dir (p_subdir (build w dir))) _ _ _ _ (fun s c s' r => IH w g dir _ s c s' r) C). exact H.
  - exfalso. clear - C. revert C. generalize {| subs := subs s; entered := entered s ++ [dir] |}. induction (p_calls (build w dir)) as [|y l IHl]; intros q C; cbn [calls] in C; [discriminate|].
    destruct (subproject fuel w g dir (p_subdir (build w dir)) q y) as [s2 [z| |]]; [exact (IHl _ C)|discriminate..].
  - destruct req; [exact H|exfalso; congruence..].
Qed.
Print Assumptions C148_depth.

(** C148: get_variable() of a subproject is the value of its variable, else the fallback if there is
    one, else an error; of one that is not found it is an error. *)
Theorem C148_variables : forall x n fb,
  (forall v, first_for n (s_vars x) v -> get_variable (Some x) n fb = Some v)
  /\ (none_for n (s_vars x) -> get_variable (Some x) n fb = fb)
  /\ get_variable None n fb = None /\ found (Some x) = true /\ found None = false.
Proof.
  intros x n fb. split; [|split; [|repeat split]].
  - intros v H. apply look_first in H. cbn [get_variable]. rewrite H. reflexivity.
  - intros H. apply look_not in H. cbn [get_variable]. rewrite H. reflexivity.
Qed.
Print Assumptions C148_variables.

(** ** Examples *)
Definition sp (n : string) (kw : option kwarg) (v : option (list bytes)) : call := {| c_name := B n; c_required := kw; c_version := v |}.
Definition a_proj (v : bytes) (cs : list call) (ok : bool) : proj := {| p_version := v; p_subdir := B "subprojects"; p_calls := cs; p_ok := ok; p_vars := [(B "x", v)] |}.
Definition a_world : world := {|
  is_dir := fun p => existsb (beqb p) [B "/s"; B "/s/subprojects/a"; B "/s/subprojects/b"; B "/s/subprojects/bad"];
  is_file := fun p => existsb (beqb p) [B "/s/meson.build"; B "/s/subprojects/a/meson.build"; B "/s/subprojects/b/meson.build"; B "/s/subprojects/bad/meson.build";
                                        B "/s/subprojects/w.wrap"; B "/s/subprojects/w-1.0/meson.build"];
  wrapped := fun p => if beqb p (B "/s/subprojects/w.wrap") then Some (Some (B "w-1.0")) else None;
  build := fun d => if beqb d (B "/s") then a_proj (B "9") [sp "/s" None None] true
                    else if beqb d (B "/s/subprojects/a") then a_proj (B "1.2") [sp "b" (Some (KBool false)) None] true
                    else if beqb d (B "/s/subprojects/b") then a_proj (B "2.0") [] true
                    else if beqb d (B "/s/subprojects/bad") then a_proj (B "3") [] false
                    else a_proj (B "4") [] true |}.
Definition none : st := {| subs := []; entered := [] |}.
Definition do (s : st) (c : call) := subproject 5 a_world None (B "/s") (B "subprojects") s c.
Example ex_sub_a : do none (sp "a" None (Some [B ">1"]))
  = ({| subs := [(B "a", {| s_dir := B "/s/subprojects/a"; s_vars := [(B "x", B "1.2")] |})]; entered := [B "/s/subprojects/a"] |},
     Done (Some {| s_dir := B "/s/subprojects/a"; s_vars := [(B "x", B "1.2")] |})).
Proof. vm_compute. reflexivity. Qed.
Example ex_sub_wrap : snd (do none (sp "w" None None)) = Done (Some {| s_dir := B "/s/subprojects/w-1.0"; s_vars := [(B "x", B "4")] |}). Proof. vm_compute. reflexivity. Qed.
Example ex_sub_missing : snd (do none (sp "c" None None)) = Failed /\ snd (do none (sp "c" (Some (KBool false)) None)) = Done None
  /\ snd (do none (sp "a" None (Some [B ">2"]))) = Failed /\ snd (do none (sp "bad" None None)) = Failed.
Proof. vm_compute. repeat split. Qed.
Example ex_sub_skip : do none (sp "a" (Some (KFeature Disabled)) None) = (none, Done None). Proof. reflexivity. Qed.
Example ex_sub_located : located a_world (B "/s") (B "subprojects") (B "b") (B "/s/subprojects/b") /\ has_build a_world (B "/s/subprojects/b").
Proof. split; [apply there; vm_compute; reflexivity|]. exists (B "/s/subprojects/b/meson.build"). split; vm_compute; reflexivity. Qed.
Example ex_sub_turn : exists s1, in_turn (subproject 5 a_world None (B "/s") (B "subprojects")) none [sp "a" None None; sp "b" None None; sp "a" None None] s1 /\ length (subs s1) = 2.
Proof. eexists. split; [apply C148_calls; vm_compute; reflexivity|reflexivity]. Qed.
Example ex_sub_stopped : exists s1, stopped (subproject 5 a_world None (B "/s") (B "subprojects")) none [sp "a" None None; sp "bad" None None; sp "b" None None] s1 /\ length (subs s1) = 1.
Proof. eexists. split; [apply C148_calls; vm_compute; reflexivity|reflexivity]. Qed.

(** ** What does not hold *)
(** A subproject that is not required is found although its version is not the one asked for. *)
Theorem C148_version_refuted : exists w s c s' x reqs, none_for (c_name c) (subs s) /\ c_version c = Some reqs
  /\ subproject 5 w None (B "/s") (B "subprojects") s c = (s', Done (Some x)) /\ ~ Forall (requirement_holds (p_version (build w (s_dir x)))) reqs.
Proof.
  exists a_world, none, (sp "b" (Some (KBool false)) (Some [B ">3"])). eexists. eexists. exists [B ">3"].
  split; [intros y []|]. split; [reflexivity|]. split; [vm_compute; reflexivity|].
  intros F. assert (X : version_compare (B "2.0") [B ">3"] = Some true) by (apply compare_true; split; [discriminate|exact F]). vm_compute in X. discriminate.
Qed.
Print Assumptions C148_version_refuted.

(** One that was found before is found again whatever version is asked for, even if it is required. *)
Theorem C148_version_again_refuted : forall fuel w g root subdir s c s1 x fuel' reqs,
  subproject fuel w g root subdir s c = (s1, Done (Some x)) ->
  subproject (S fuel') w g root subdir s1 {| c_name := c_name c; c_required := None; c_version := Some reqs |} = (s1, Done (Some x)).
Proof.
  intros fuel w g root subdir s c s1 x fuel' reqs H. apply (C148_again fuel w g root subdir s c s1 x s1 fuel' root subdir); [exact H|constructor|reflexivity|].
  left. left. reflexivity.
Qed.
Print Assumptions C148_version_again_refuted.

(** A subproject in a disabled feature is found if it was configured before. *)
Theorem C148_disabled_refuted : forall fuel w g root subdir s c s1 x fuel' v,
  subproject fuel w g root subdir s c = (s1, Done (Some x)) ->
  subproject (S fuel') w g root subdir s1 {| c_name := c_name c; c_required := Some (KFeature Disabled); c_version := v |} = (s1, Done (Some x)).
Proof.
  intros fuel w g root subdir s c s1 x fuel' v H.
  assert (L : look (c_name c) (subs s1) = Some x) by (apply found_inv in H as [(-> & L)|(_ & L & _)]; exact L).
  cbn [subproject c_name c_required]. rewrite L. reflexivity.
Qed.
Print Assumptions C148_disabled_refuted.

(** A subproject that fails is evaluated again by the next call for it. *)
Theorem C148_once_refuted : exists w c s1 s2 d, subproject 5 w None (B "/s") (B "subprojects") none c = (s1, Done None)
  /\ subproject 5 w None (B "/s") (B "subprojects") s1 c = (s2, Done None) /\ entered s2 = [d; d].
Proof. exists a_world, (sp "bad" (Some (KBool false)) None). eexists. eexists. eexists. repeat split; vm_compute; reflexivity. Qed.
Print Assumptions C148_once_refuted.

(** Whether a subproject of a subproject is found depends on what was configured before. *)
Theorem C148_order_refuted : exists w inner outer s1 s2, (forall s, subs s = [] -> snd (subproject 5 w None (B "/s/subprojects/a") (B "subprojects") s inner) = Failed)
  /\ subproject 5 w None (B "/s") (B "subprojects") none outer = (s1, Done s2) /\ exists x, snd (subproject 5 w None (B "/s/subprojects/a") (B "subprojects") s1 inner) = Done (Some x).
Proof.
  exists a_world, (sp "b" None None), (sp "b" None None). eexists. eexists. split.
  - intros [l e] E. cbn [subs] in E. subst l. vm_compute. reflexivity.
  - split; [vm_compute; reflexivity|]. eexists. vm_compute. reflexivity.
Qed.
Print Assumptions C148_order_refuted.

(** A project that names itself as its subproject, by its path, is configured without end. *)
Theorem C148_circular_refuted : exists w c, forall fuel s, none_for (c_name c) (subs s) -> snd (subproject fuel w None (B "/s") (B "subprojects") s c) = Diverged.
Proof.
  exists a_world, (sp "/s" None None). induction fuel as [|fuel IH]; intros s N; [reflexivity|]. cbn [subproject c_required coerce_requirement sp].
  pose proof N as L. apply look_not in L. cbn [c_name sp] in L |- *. rewrite L.
  assert (P : bind (path_join (B "/s") (B "subprojects")) (fun d => bind (path_push d (B "/s")) (prepare a_world)) = Some (B "/s")) by (vm_compute; reflexivity).
  rewrite P. cbv zeta.
  assert (C : p_calls (build a_world (B "/s")) = [sp "/s" None None]) by reflexivity.
  assert (D : p_subdir (build a_world (B "/s")) = B "subprojects") by reflexivity.
  rewrite C, D. cbn [calls]. specialize (IH {| subs := subs s; entered := entered s ++ [B "/s"] |} N).
  unfold sp in IH. unfold sp. destruct (subproject fuel a_world None (B "/s") (B "subprojects") _ _) as [s1 o]. cbn [snd] in IH. rewrite IH. reflexivity.
Qed.
Print Assumptions C148_circular_refuted.
