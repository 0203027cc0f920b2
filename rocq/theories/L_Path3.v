(** Corollaries of the closed forms, in the shape used by P_Path. *)
From Verif Require Import Base M_Path S_Path L_Path L_Path2.

Lemma comps_moves p : Forall (fun c => moves c = true /\ ~ In "/"%char c) (comps p).
Proof. exact (comps_good p). Qed.

Lemma normalize_canonical p : p <> [] ->
  exists q, path_normalize false p = Some q /\
    is_abs q = is_abs p /\ comps q = comps p /\
    (q = B "/" \/ q = B "." \/ (last q NUL <> "/"%char /\
       forall c, In c (split_on "/"%char (if is_abs q then tl q else q)) -> moves c = true)).
Proof.
  intros Hp. pose proof (comps_good p) as G. rewrite normalize_false by assumption.
  exists (render (is_abs p) (comps p)). split; [reflexivity|].
  rewrite is_abs_render, comps_render by assumption. split; [reflexivity|]. split; [reflexivity|].
  destruct (comps p) as [|c cs] eqn:E.
  { destruct (is_abs p); [left|right; left]; reflexivity. }
  right. right.
  assert (Hj : last (joinb [SEP] (c :: cs)) NUL <> SEP) by (apply joinb_last; [discriminate|assumption]).
  assert (Hs : split_on SEP (joinb [SEP] (c :: cs)) = c :: cs).
  { apply split_on_joinb; [discriminate|]. eapply Forall_impl; [|exact G]. now intros a [_ ?]. }
  assert (Hn : joinb [SEP] (c :: cs) <> []) by (apply joinb_nonempty; [discriminate|assumption]).
  destruct (is_abs p).
  - change (render true (c :: cs)) with (SEP :: joinb [SEP] (c :: cs)). cbn [tl].
    split.
    + destruct (joinb [SEP] (c :: cs)) eqn:Ej; [congruence|]. exact Hj.
    + change "/"%char with SEP. rewrite Hs. intros x Hx.
      rewrite Forall_forall in G. now apply G.
  - change (render false (c :: cs)) with (joinb [SEP] (c :: cs)).
    split; [exact Hj|]. change "/"%char with SEP. rewrite Hs. intros x Hx.
    rewrite Forall_forall in G. now apply G.
Qed.

Lemma normalize_same_iff p q : p <> [] -> q <> [] ->
  (path_normalize false p = path_normalize false q <-> is_abs p = is_abs q /\ comps p = comps q).
Proof.
  intros Hp Hq. rewrite !normalize_false by assumption. split.
  - intros H. injection H as H. split.
    + rewrite <- (is_abs_render (is_abs p) (comps p)), <- (is_abs_render (is_abs q) (comps q))
        by apply comps_good. now rewrite H.
    + rewrite <- (comps_render (is_abs p) (comps p)), <- (comps_render (is_abs q) (comps q))
        by apply comps_good. now rewrite H.
  - now intros [-> ->].
Qed.

Lemma normalize_idempotent p q : path_normalize false p = Some q -> path_normalize false q = Some q.
Proof.
  destruct p as [|c p0] eqn:Ep; [now intros [= <-]|]. rewrite <- Ep. intros H.
  rewrite normalize_false in H by (subst; discriminate). injection H as <-.
  rewrite normalize_false by (apply render_nonempty, comps_good).
  now rewrite is_abs_render, comps_render by apply comps_good.
Qed.

Lemma flat_walk_good p : Forall good (flat (walk (comps p))).
Proof.
  unfold flat. apply Forall_app. split; [apply Forall_repeat_dd|].
  unfold walk. rewrite <- fold_step_true. apply fold_step_snd_good; [apply comps_good|constructor].
Qed.

Lemma optimize_spec p : p <> [] ->
  exists q, path_normalize true p = Some q /\ is_abs q = is_abs p /\
    walk (comps q) = walk (comps p) /\
    exists u st, comps q = repeat (B "..") u ++ st /\ ~ In (B "..") st.
Proof.
  intros Hp. rewrite normalize_true by assumption. eexists. split; [reflexivity|].
  pose proof (flat_walk_good p) as G.
  rewrite is_abs_render, comps_render by assumption. split; [reflexivity|].
  split; [apply walk_flat, walk_noup|].
  exists (fst (walk (comps p))), (snd (walk (comps p))). split; [reflexivity|].
  intros Hin. pose proof (walk_noup (comps p)) as N. rewrite Forall_forall in N.
  specialize (N _ Hin). discriminate.
Qed.

Lemma join_spec a b : a <> [] -> b <> [] ->
  exists r, path_join a b = Some r /\
    is_abs r = (is_abs a || is_abs b) /\
    comps r = (if is_abs b then comps b else comps a ++ comps b).
Proof.
  intros Ha Hb. destruct (is_abs b) eqn:E.
  - rewrite path_join_abs, path_copy_nonempty by assumption.
    eexists. split; [reflexivity|]. rewrite is_abs_render, comps_render by apply comps_good.
    split; [|reflexivity]. now rewrite E, orb_true_r.
  - rewrite path_join_rel by assumption. eexists. split; [reflexivity|].
    rewrite is_abs_render, comps_render by (apply Forall_app; auto using comps_good).
    split; [now rewrite orb_false_r|reflexivity].
Qed.

Lemma join_assoc a b c : a <> [] -> b <> [] -> c <> [] ->
  is_abs b = false -> is_abs c = false ->
  exists ab bc r, path_join a b = Some ab /\ path_join b c = Some bc /\
    path_join ab c = Some r /\ path_join a bc = Some r.
Proof.
  intros Ha Hb Hc Eb Ec. 
  assert (G1 : Forall good (comps a ++ comps b)) by (apply Forall_app; auto using comps_good).
  assert (G2 : Forall good (comps b ++ comps c)) by (apply Forall_app; auto using comps_good).
  exists (render (is_abs a) (comps a ++ comps b)), (render (is_abs b) (comps b ++ comps c)),
    (render (is_abs a) (comps a ++ comps b ++ comps c)).
  rewrite !path_join_rel; auto using render_nonempty.
  - rewrite !is_abs_render, !comps_render by assumption. rewrite <- app_assoc. auto.
  - rewrite is_abs_render; assumption.
Qed.

Lemma join_nil a : a <> [] ->
  exists n, path_normalize false a = Some n /\ path_join a [] = Some (n ++ B "/").
Proof.
  intros Ha. rewrite normalize_false, path_join_nil_r by assumption. eauto.
Qed.

Lemma join_paths_spec p ps : p <> [] -> ps <> [] ->
  Forall (fun q => q <> [] /\ is_abs q = false) ps ->
  exists r, join_paths (p :: ps) = Some r /\ is_abs r = is_abs p /\
    comps r = concat (map comps (p :: ps)).
Proof.
  intros Hp Hps HF. unfold join_paths. cbn [join_paths_from].
  rewrite path_push_nil, path_copy_nonempty by assumption.
  pose proof (comps_good p) as G.
  rewrite join_paths_from_rel; auto using render_nonempty.
  rewrite is_abs_render, comps_render by assumption.
  eexists. split; [reflexivity|].
  assert (G2 : Forall good (comps p ++ concat (map comps ps))).
  { apply Forall_app. split; [assumption|]. apply Forall_concat. apply Forall_map.
    apply Forall_forall. intros. apply comps_good. }
  rewrite is_abs_render, comps_render by assumption. auto.
Qed.

Lemma dirname_join_basename p : p <> [] -> comps p <> [] ->
  exists d b n, path_dirname p = Some d /\ path_basename p = Some b /\
    path_normalize false p = Some n /\
    ~ In "/"%char b /\ comps p = comps d ++ [b] /\ path_join d b = Some n.
Proof.
  intros Hp Hc. destruct (snoc_case (comps p)) as [E|(cs & c & E)]; [congruence|].
  destruct (dirname_basename p cs c Hp E) as [Eb Ed].
  pose proof (comps_good p) as G. rewrite E in G. apply Forall_app in G as [Gcs Gc].
  inversion Gc as [|? ? Hg _]; subst.
  exists (render (is_abs p) cs), c, (render (is_abs p) (comps p)).
  rewrite Eb, Ed, normalize_false by assumption.
  split; [reflexivity|]. split; [reflexivity|]. split; [reflexivity|].
  split; [apply Hg|]. rewrite comps_render by assumption. split; [exact E|].
  assert (Ecomp : comps c = [c]).
  { change (comps c) with (comps (joinb [SEP] [c])). apply comps_joinb. now constructor. }
  assert (Erel : is_abs c = false).
  { destruct c as [|x c]; [reflexivity|]. simpl. apply ceqb_neq. intro; subst. apply Hg. now left. }
  rewrite path_join_rel; auto using render_nonempty, good_nonempty.
  rewrite is_abs_render, comps_render, Ecomp, E by assumption. reflexivity.
Qed.

Lemma join_absolute_spec a b : a <> [] ->
  exists r, path_join_absolute a b = Some r /\ is_abs r = is_abs a /\ comps r = comps a ++ comps b.
Proof.
  intros Ha. unfold path_join_absolute. rewrite path_copy_nonempty by assumption.
  pose proof (comps_good a) as G. pose proof (render_nonempty (is_abs a) _ G) as Hne.
  rewrite normalize_false by (destruct (render (is_abs a) (comps a)); discriminate).
  rewrite is_abs_app, comps_app, comps_render by assumption.
  rewrite is_abs_render by assumption.
  eexists. split; [reflexivity|].
  assert (G2 : Forall good (comps a ++ comps b)) by (apply Forall_app; auto using comps_good).
  now rewrite is_abs_render, comps_render by assumption.
Qed.

Lemma destdir_confined destdir dest : is_abs destdir = true -> ~ In (B "..") (comps dest) ->
  exists r, path_join_absolute destdir dest = Some r /\ is_abs r = true /\
    location r = location destdir ++ comps dest.
Proof.
  intros Ha Hd. assert (Hne : destdir <> []) by (intro; subst; discriminate).
  destruct (join_absolute_spec destdir dest Hne) as (r & E & H1 & H2).
  exists r. rewrite E. split; [reflexivity|]. split; [congruence|].
  unfold location. rewrite H2, walk_app. destruct (walk (comps destdir)) as [u st].
  rewrite fold_walk_noup; [reflexivity|]. apply Forall_forall. intros c Hc. unfold noup, is_up.
  apply beqb_neq. intro; subst. contradiction.
Qed.
