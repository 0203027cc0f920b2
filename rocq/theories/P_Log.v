(** Properties of the build log. *)
From Coq Require Import NArith ZArith Lia.
From Verif Require Import Base M_Log S_Log L_Log.
Local Arguments B _ : simpl never.

(** the log the program writes for the given records, and their lengths *)
Definition written (rs : list logfact) : bytes :=
  version_line ++ flat_map (fun '(p, m, h) => logrecord p m h) rs.
Definition lengths (rs : list logfact) : list nat := map (fun '(p, m, h) => length (logrecord p m h)) rs.
(** what is known of an output without record *)
Definition none : Z * N := (2%Z, 0%N).

(** C71.  A log cut at any byte can be loaded.  Outputs get what their last complete record says.
    There are two exceptions.  The output of the record that was cut may have its time stamp,
    and a hash whose last digits are missing.  An output whose path is a prefix of that path
    may have its time stamp. *)
Theorem C71_damage_is_limited : forall gen rs k, Forall fact_fine rs ->
  exists st, loginit gen (firstn k (written rs)) = Some st /\
    let j := fitting (k - length version_line) (lengths rs) in
    forall q,
      st q = (if gen q then last_fact (firstn j rs) q none else none) \/
      exists p m h, nth_error rs j = Some (p, m, h) /\ gen q = true /\
        ((q = p /\ exists i, st q = (m, h / 16 ^ i)%N) \/
         (prefix q p /\ st q = (m, snd (last_fact (firstn j rs) q none)))).
Proof.
  intros gen rs k F.
  assert (W : written rs = log_text rs). { reflexivity. }
  assert (Le : lengths rs = map (fun r => length (line r)) rs). { unfold lengths. apply map_ext. now intros [[p m] h]. }
  rewrite W, Le. change (length version_line) with 15. destruct (Nat.leb_spec 15 k) as [L|L].
  - unfold log_text. rewrite firstn_app. change (length version_line) with 15. rewrite firstn_all2 by exact L.
    destruct (cut_text (k - 15) rs) as (x & E & H). rewrite E. set (j := fitting (k - 15) (map (fun r => length (line r)) rs)) in *.
    assert (Fj : Forall fact_fine (firstn j rs)). { apply Forall_forall. intros r I. rewrite Forall_forall in F. apply F. rewrite <- (firstn_skipn j rs). apply in_or_app. now left. }
    assert (Hx : ~ In NL x /\ ~ In NUL x).
    { destruct H as [[-> _]|(r & k' & Hr & ->)]; [easy|]. apply nth_error_In in Hr. rewrite Forall_forall in F. specialize (F r Hr).
      split; apply firstn_notin; intros I; apply content_free in I; tauto. }
    destruct (load_text gen (firstn j rs) x Fj (proj1 Hx) (proj2 Hx)) as (st & V & E1). unfold log_text in E1. rewrite app_assoc, E1.
    destruct x as [|c x]. { exists st. split; [reflexivity|]. intros q. left. rewrite V. now destruct (gen q). }
    destruct H as [[H _]|(r & k' & Hr & Hk)]; [discriminate|]. rewrite Hk. destruct r as [[p m] h].
    assert (Ff : fact_fine (p, m, h)). { rewrite Forall_forall in F. apply F. eapply nth_error_In; exact Hr. }
    destruct (cut_line gen st None p m h k' Ff) as (st' & E2 & D & _). rewrite E2. exists st'. split; [reflexivity|].
    intros q. fold j. destruct D as [D4|[(p' & D1 & D2 & D3 & D4)|[(D1 & D4)|(i & D1 & D4)]]]; rewrite D4.
    + left. rewrite V. now destruct (gen q).
    + destruct (beqb_spec p' q) as [Eq|Eq]; [subst q|left; rewrite V; now destruct (gen q)]. right. exists p, m, h. refine (conj Hr (conj D3 (or_intror _))).
      split; [exact D1|]. now rewrite V, D3.
    + destruct (beqb_spec p q) as [Eq|Eq]; [subst q|left; rewrite V; now destruct (gen q)]. right. exists p, m, h. refine (conj Hr (conj D1 (or_intror _))).
      split; [exists []; now rewrite app_nil_r|]. now rewrite V, D1.
    + destruct (beqb_spec p q) as [Eq|Eq]; [subst q|left; rewrite V; now destruct (gen q)]. right. exists p, m, h. refine (conj Hr (conj D1 (or_introl _))).
      split; [reflexivity|]. now exists i.
  - unfold log_text. rewrite firstn_app. change (length version_line) with 15. replace (k - 15) with 0 by lia. cbn [firstn]. rewrite app_nil_r.
    exists no_records. split.
    + do 15 (destruct k as [|k]; [reflexivity|]). lia.
    + intros q. left. assert (J : fitting 0 (map (fun r => length (line r)) rs) = 0).
      { destruct rs as [|r rs]; [reflexivity|]. cbn [map fitting]. rewrite line_content, app_length. cbn [length]. rewrite Nat.add_1_r. reflexivity. }
      rewrite J. cbn. now destruct (gen q).
Qed.
Print Assumptions C71_damage_is_limited.

(** If no path of an output is a proper prefix of another one, the record that was cut does not
    affect another output. *)
Theorem C71_never_another_output_partial : forall gen rs k st, Forall fact_fine rs ->
  (forall p m h q, In (p, m, h) rs -> gen q = true -> prefix q p -> q = p) ->
  loginit gen (firstn k (written rs)) = Some st ->
  let j := fitting (k - length version_line) (lengths rs) in
  forall q, (forall m h, nth_error rs j <> Some (q, m, h)) ->
    st q = if gen q then last_fact (firstn j rs) q none else none.
Proof.
  intros gen rs k st F Hp H j q Hq. destruct (C71_damage_is_limited gen rs k F) as (st' & H' & V). assert (st' = st) by congruence. subst st'.
  destruct (V q) as [K|(p & m & h & Hr & G & [(-> & _)|(K & _)])]; [exact K|now apply Hq in Hr|].
  apply (Hp p m h) in K; [subst; now apply Hq in Hr| |assumption]. eapply nth_error_In; exact Hr.
Qed.
Print Assumptions C71_never_another_output_partial.

(** What is missing: here the record of ab, cut after the first byte of its path, changes the time
    stamp of the output a, which had been recorded before. *)
Theorem C71_never_another_output_refuted : exists gen rs k st,
  Forall fact_fine rs /\ loginit gen (firstn k (written rs)) = Some st /\
  let kept := firstn (fitting (k - length version_line) (lengths rs)) rs in
  last_fact kept (B "a") none = (3%Z, 17%N) /\ st (B "a") = (9%Z, 17%N) /\
  forall m h, ~ In (B "a", m, h) (skipn (length kept) rs).
Proof.
  exists (fun q => beqb q (B "a") || beqb q (B "ab")), [(B "a", 3%Z, 17%N); (B "ab", 9%Z, 18%N)], 33.
  eexists. refine (conj _ (conj eq_refl _)).
  - assert (forall c p, c <> TAB -> c <> NL -> c <> NUL -> ~ In TAB p -> ~ In NL p -> ~ In NUL p -> path_fine (c :: p)).
    { intros c p. intros. repeat split; [discriminate| | |]; intros [|]; auto. }
    repeat constructor; try lia; try discriminate; intros I; repeat (destruct I as [I|I]; [discriminate|]); destruct I.
  - refine (conj eq_refl (conj eq_refl _)). intros m h. vm_compute. intuition discriminate.
Qed.
Print Assumptions C71_never_another_output_refuted.

(** A log that was not cut gives every output its last record. *)
Theorem C71_whole_log : forall gen rs, Forall fact_fine rs ->
  exists st, loginit gen (written rs) = Some st /\
    forall q, st q = if gen q then last_fact rs q none else none.
Proof.
  intros gen rs F. destruct (load_text gen rs [] F) as (st & V & E); [easy|easy|]. rewrite app_nil_r in E. exists st. split; [exact E|]. intros q. apply V.
Qed.
Print Assumptions C71_whole_log.

(** The log is written anew when it has been loaded, whatever was in it: the next run knows the
    same about every output with a hash, and whatever was recorded since. *)
Theorem C71_the_log_is_kept : forall gen file st outs rs, loginit gen file = Some st ->
  Forall path_fine outs -> Forall fact_fine rs ->
  exists st', loginit gen (write_graph outs st ++ flat_map (fun '(p, m, h) => logrecord p m h) rs) = Some st' /\
    forall q, In q outs -> gen q = true ->
      st' q = last_fact rs q (if (snd (st q) =? 0)%N then none else st q).
Proof.
  intros gen file st outs rs L Fo Fr. pose proof (loginit_range _ _ _ L) as R.
  set (old := flat_map (fun p => let '(m, h) := st p in if (h =? 0)%N then [] else [(p, m, h)]) outs).
  assert (Ff : Forall fact_fine old).
  { apply Forall_forall. intros r I. unfold old in I. apply in_flat_map in I. destruct I as (p & Ip & I). rewrite Forall_forall in Fo.
    specialize (R p). destruct (st p) as [m h]. destruct (h =? 0)%N; [destruct I|]. destruct I as [<-|[]]. cbn in R. exact (conj (Fo p Ip) R). }
  assert (W : write_graph outs st ++ flat_map (fun '(p, m, h) => logrecord p m h) rs = written (old ++ rs)).
  { unfold written, write_graph. rewrite flat_map_app, app_assoc. f_equal. f_equal. unfold old. clear. induction outs as [|p outs IH]; [reflexivity|]. cbn [flat_map].
    rewrite flat_map_app, <- IH. f_equal. destruct (st p) as [m h]. destruct (h =? 0)%N; [reflexivity|]. cbn [flat_map]. now rewrite app_nil_r. }
  rewrite W. destruct (C71_whole_log gen (old ++ rs)) as (st' & E & V). { apply Forall_app. now split. }
  exists st'. split; [exact E|]. intros q Hq G. rewrite V, G.
  assert (A : forall a b d, last_fact (a ++ b) q d = last_fact b q (last_fact a q d)).
  { intros a b. induction a as [|[[p m] h] a IH]; intros d; [reflexivity|]. cbn [app last_fact]. apply IH. }
  rewrite A. f_equal. unfold old. clear - Hq A.
  assert (K : forall d, (d = none \/ d = (if (snd (st q) =? 0)%N then none else st q)) ->
     (In q outs \/ d = (if (snd (st q) =? 0)%N then none else st q)) ->
     last_fact (flat_map (fun p => let '(m, h) := st p in if (h =? 0)%N then [] else [(p, m, h)]) outs) q d = (if (snd (st q) =? 0)%N then none else st q)).
  { clear Hq. induction outs as [|p outs IH]; intros d Hd Hi; cbn [flat_map last_fact]. { destruct Hi as [[]|Hi]; exact Hi. }
    rewrite A. apply IH.
    - destruct (st p) as [m h] eqn:S0. destruct (N.eqb_spec h 0) as [Z0|Z0]; cbn [last_fact]; [exact Hd|]. destruct (beqb_spec p q) as [Eq|Eq]; [|exact Hd].
      subst q. right. rewrite S0. cbn [snd]. destruct (N.eqb_spec h 0); [contradiction|reflexivity].
    - destruct (beqb_spec p q) as [Eq|Eq].
      + right. subst q. destruct (st p) as [m h] eqn:S0. cbn [snd] in *. destruct (N.eqb_spec h 0) as [Z0|Z0]; cbn [last_fact].
        * destruct Hd; assumption.
        * destruct (beqb_spec p p); [reflexivity|congruence].
      + destruct Hi as [[Hi|Hi]|Hi]; [congruence|now left|right].
        destruct (st p) as [m h]. destruct (h =? 0)%N; cbn [last_fact]; [exact Hi|]. destruct (beqb_spec p q); [congruence|exact Hi]. }
  apply K; auto.
Qed.
Print Assumptions C71_the_log_is_kept.

(** a log of three records, cut in the last one *)
Example ex_log : exists st,
  loginit (fun _ => true) (firstn 58 (written [(B "a.o", 3%Z, 17%N); (B "b.o", (-4)%Z, 65535%N); (B "a.o", 12%Z, 4660%N)])) = Some st /\
  st (B "b.o") = ((-4)%Z, 65535%N) /\ st (B "a.o") = (12%Z, 291%N) /\ st (B "c.o") = none.
Proof. eexists. split; [reflexivity|]. vm_compute. auto. Qed.
