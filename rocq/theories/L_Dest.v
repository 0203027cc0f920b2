(** Proofs about where installed files go. *)
From Coq Require Import NArith.
From Verif Require Import Base M_Path S_Path L_Path L_Path2 L_Path3 M_Escape M_Install S_Install L_Install M_Custom S_Custom L_Custom M_Dest S_Dest.
Local Arguments B _ : simpl never.

Lemma rbind_ok {A C} (r : res A) (f : A -> res C) c : rbind r f = ROk c <-> exists a, r = ROk a /\ f a = ROk c.
Proof. destruct r; cbn; split; try discriminate; try (intros (a & X & _); discriminate X); [eauto|]. intros (a0 & X & Y). congruence. Qed.
Lemma must_ok {A} (o : option A) a : must o = ROk a <-> o = Some a.
Proof. destruct o; cbn; split; congruence. Qed.
Lemma mode_spec mode perm : install_mode mode = ROk perm <-> mode_means mode perm.
Proof.
  destruct mode as [l|]; [|cbn; split; congruence]. destruct l as [|e l]; [cbn; split; [discriminate|tauto]|].
  unfold install_mode, mode_means. cbn [length]. destruct (Nat.ltb_spec 3 (S (length l))) as [L|L].
  - split; [discriminate|]. destruct e; try tauto; intros [X _]; lia.
  - destruct e as [b|s|]; [split; [intros [= <-]; split; [lia|reflexivity]|intros [_ ->]; reflexivity]| |split; [discriminate|tauto]].
    destruct (rwx_to_perm s) as [m|] eqn:E.
    + pose proof (rwx_sound _ _ E) as [R1 R2]. split; [intros [= <-]; split; [lia|eauto]|].
      intros (_ & m' & M1 & M2 & ->). f_equal. f_equal. rewrite M2, ls_bits in E. rewrite N.mod_small in E by exact M1. congruence.
    + split; [discriminate|]. intros (_ & m' & M1 & M2 & _). rewrite M2, ls_bits in E. discriminate.
Qed.

(** ** paths *)
Lemma join_any a b : exists r, path_join a b = Some r /\ is_abs r = (is_abs a || is_abs b) /\ comps r = (if is_abs b then comps b else comps a ++ comps b) /\ (a <> [] \/ b <> [] -> r <> []).
Proof.
  destruct a as [|x a].
  - assert (E : path_join [] b = path_copy b). { unfold path_join, path_push. cbn [path_is_absolute beqb orb]. destruct (path_is_absolute b); reflexivity. }
    rewrite E. destruct b as [|y b]; [exists []; repeat split; intros [H|H]; congruence|].
    rewrite path_copy_nonempty by discriminate. eexists. split; [reflexivity|]. rewrite is_abs_render, comps_render by apply comps_good. split; [reflexivity|].
    split; [now destruct (is_abs (y :: b))|]. intros _. apply render_nonempty, comps_good.
  - remember (x :: a) as aa eqn:Ea. assert (Na : aa <> []) by (subst; discriminate). clear Ea. destruct b as [|y b].
    + rewrite path_join_nil_r by exact Na. eexists. split; [reflexivity|].
      assert (Nr : render (is_abs aa) (comps aa) <> []) by apply render_nonempty, comps_good.
      split; [rewrite is_abs_app by exact Nr; rewrite is_abs_render by apply comps_good; cbn; now rewrite orb_false_r|]. cbn [is_abs]. split.
      * rewrite comps_app, comps_render by apply comps_good. reflexivity.
      * intros _ H. apply app_eq_nil in H as [H _]. contradiction.
    + destruct (is_abs (y :: b)) eqn:A.
      * rewrite path_join_abs, path_copy_nonempty by first [exact A|discriminate]. eexists. split; [reflexivity|].
        rewrite is_abs_render, comps_render by apply comps_good. split; [now rewrite A, orb_true_r|]. split; [reflexivity|]. intros _. apply render_nonempty, comps_good.
      * rewrite path_join_rel by first [exact Na|exact A|discriminate]. eexists. split; [reflexivity|].
        assert (G : Forall good (comps aa ++ comps (y :: b))) by (apply Forall_app; split; apply comps_good).
        rewrite is_abs_render, comps_render by exact G. split; [now rewrite orb_false_r|]. split; [reflexivity|]. intros _. now apply render_nonempty.
Qed.
Lemma along_cons2 p q : along [p; q] = if is_abs q then comps q else comps p ++ comps q.
Proof. unfold along. cbn [fold_left]. destruct (is_abs p); reflexivity. Qed.
Lemma along_snoc ps p : along (ps ++ [p]) = if is_abs p then comps p else along ps ++ comps p.
Proof. unfold along. now rewrite fold_left_app. Qed.
Lemma along_join p a b r : path_join a b = Some r -> along [p; r] = along [p; a; b].
Proof.
  intros E. destruct (join_any a b) as (r' & E' & Q1 & Q2 & _). rewrite E in E'. injection E' as <-.
  rewrite along_cons2. change [p; a; b] with ([p; a] ++ [b]). rewrite along_snoc, along_cons2, Q1, Q2.
  destruct (is_abs a), (is_abs b); cbn [orb]; try reflexivity. now rewrite app_assoc.
Qed.
Lemma along_one dir n : is_abs n = false -> comps n = [n] -> along (dir ++ [n]) = along dir ++ [n].
Proof. intros A C. now rewrite along_snoc, A, C. Qed.
Lemma base_ok p front n : comps p = front ++ [n] -> path_basename p = Some n /\ is_abs n = false /\ comps n = [n].
Proof.
  intros E. assert (p <> []) by (intros ->; destruct front; discriminate E).
  split; [now apply (dirname_basename p front n)|]. pose proof (comps_moves p) as M. rewrite E in M. apply Forall_app in M as [_ M]. inversion M as [|? ? [M1 M2] _]; subst.
  assert (On : one_name n).
  { unfold moves in M1. apply andb_prop in M1 as [X Y]. apply negb_true_iff in X, Y. apply beqb_neq in X, Y. repeat split; assumption. }
  destruct (one_name_comps n On). auto.
Qed.

(** ** files *)
Section FILES.
Variable there : list bytes -> bool.
Variable d : dirs.
Hypothesis Hcwd : is_abs (d_cwd d) = true.
Hypothesis Hpre : is_abs (d_prefix d) = true.
Hypothesis Hroot : there [] = false.
Let isf := fun p => there (location p).

Lemma string_file s : exists p, string_to_file (d_cwd d) s = Some p /\ the_file (d_cwd d) (IStr s) p /\
  (location p <> [] -> exists n, last_name p n).
Proof.
  assert (P : exists q, (if path_is_absolute s then path_copy s else path_join (d_cwd d) s) = Some q /\ q <> [] /\ is_abs q = true /\ comps q = along [d_cwd d; s]).
  { rewrite is_abs_same. destruct (is_abs s) eqn:A.
    - assert (s <> []) by (intros ->; discriminate). rewrite path_copy_nonempty by assumption. eexists. split; [reflexivity|].
      rewrite is_abs_render, comps_render, along_cons2, A by apply comps_good. repeat split. apply render_nonempty, comps_good.
    - destruct (join_any (d_cwd d) s) as (r & E & Q1 & Q2 & Q3). exists r. rewrite along_cons2, Q1, Q2, A, Hcwd. repeat split; auto. apply Q3. left. intros X. rewrite X in Hcwd. discriminate. }
  destruct P as (q & E & Nq & Aq & Cq). destruct (optimize_spec q Nq) as (p & Ep & Ap & Wp & u & st & Cp & Np).
  exists p. unfold string_to_file. rewrite E. split; [exact Ep|]. unfold the_file, location. rewrite Ap, Wp, Cq. split; [auto|].
  rewrite <- Cq, <- Wp. intros Ne. rewrite Cp in Ne. unfold last_name. rewrite Cp. destruct st as [|y st] using rev_ind.
  - exfalso. apply Ne. rewrite app_nil_r. clear. assert (X : forall k, fold_left walk1 (repeat (B "..") u) (k, []) = (k + u, [])).
    { induction u as [|u IH]; intros k; [now rewrite Nat.add_0_r|]. cbn [repeat fold_left]. change (walk1 (k, []) (B "..")) with (S k, @nil bytes). rewrite IH. f_equal. lia. }
    unfold walk. now rewrite X.
  - exists y. split; [intros ->; apply Np; apply in_app_iff; right; now left|]. exists (repeat (B "..") u ++ st). now rewrite app_assoc.
Qed.
Lemma coerce_ok i p : coerce_file isf d i = ROk p -> the_file (d_cwd d) i p /\ there_is there (d_cwd d) i /\ (has_name i -> exists n, last_name p n).
Proof.
  destruct i as [s|q]; cbn [coerce_file].
  - destruct (string_file s) as (p' & E & F & L). rewrite E. cbn [must rbind]. unfold isf. destruct (there (location p')) eqn:T; [|discriminate].
    intros [= <-]. split; [exact F|]. destruct F as [F1 F2]. split; [unfold there_is; now rewrite <- F2|]. intros _. apply L. intros X. rewrite X in T. congruence.
  - intros [= <-]. repeat split; auto.
Qed.
Lemma coerce_can i : there_is there (d_cwd d) i -> exists p, coerce_file isf d i = ROk p.
Proof.
  destruct i as [s|q]; cbn [coerce_file there_is]; [|eauto]. intros T. destruct (string_file s) as (p' & E & [F1 F2] & L). rewrite E. cbn [must rbind]. unfold isf. rewrite F2, T. eauto.
Qed.
Lemma push_ok src dest mode t : push_target d src dest mode = ROk t <->
  exists perm full, mode_means mode perm /\ is_abs full = true /\ comps full = along [d_prefix d; dest] /\
    (if is_abs dest then full = dest else path_join (d_prefix d) dest = Some full) /\
    t = {| tkind := KDefault; tsrc := src; tdest := full; tperm := perm; tbuild := false; texdirs := []; texfiles := [] |}.
Proof.
  unfold push_target. rewrite rbind_ok. split.
  - intros (perm & E & F). apply mode_spec in E. rewrite rbind_ok in F. destruct F as (full & F & [= <-]). rewrite is_abs_same in F. destruct (is_abs dest) eqn:A.
    + injection F as <-. exists perm, dest. rewrite along_cons2, A. auto 10.
    + apply must_ok in F. destruct (join_any (d_prefix d) dest) as (r & E' & Q1 & Q2 & _). rewrite F in E'. injection E' as <-. exists perm, full.
      rewrite along_cons2, Q1, Q2, A, Hpre. auto 10.
  - intros (perm & full & M & A & C & F & ->). exists perm. split; [now apply mode_spec|]. rewrite rbind_ok. exists full. split; [|reflexivity].
    rewrite is_abs_same. destruct (is_abs dest); [now rewrite F|now apply must_ok].
Qed.
Lemma push_can src dest mode perm : mode_means mode perm -> exists t, push_target d src dest mode = ROk t /\ tsrc t = src /\ put_at perm (along [d_prefix d; dest]) t.
Proof.
  intros M. destruct (join_any (d_prefix d) dest) as (r & E & Q1 & Q2 & _).
  assert (X : exists full, is_abs full = true /\ comps full = along [d_prefix d; dest] /\ (if is_abs dest then full = dest else path_join (d_prefix d) dest = Some full)).
  { rewrite along_cons2. destruct (is_abs dest) eqn:A; [exists dest; auto|]. exists r. rewrite Q1, Hpre. auto. }
  destruct X as (full & A & C & F). eexists. split; [apply push_ok; exists perm, full; repeat split; eauto|]. cbn. split; [reflexivity|]. unfold put_at. cbn. auto.
Qed.
Lemma push_is src dest mode t : push_target d src dest mode = ROk t -> exists perm, mode_means mode perm /\ tsrc t = src /\ put_at perm (along [d_prefix d; dest]) t.
Proof. intros H. apply push_ok in H as (perm & full & M & A & C & F & ->). exists perm. unfold put_at. cbn. auto 10. Qed.
Lemma mode_one mode p q : mode_means mode p -> mode_means mode q -> p = q.
Proof. intros A C. apply mode_spec in A, C. congruence. Qed.

Lemma push_one_is dir mode preserve i t : has_name i -> push_one isf d dir mode preserve i = ROk t ->
  exists perm, mode_means mode perm /\ there_is there (d_cwd d) i /\ goes_below (d_cwd d) [d_prefix d; dir] preserve perm i t.
Proof.
  intros Hn.
  assert (Plain : forall f, the_file (d_cwd d) i f -> there_is there (d_cwd d) i -> (exists n, last_name f n) ->
    (let! n := must (path_basename f) in let! dest := must (path_join dir n) in push_target d f dest mode) = ROk t ->
    exists perm, mode_means mode perm /\ there_is there (d_cwd d) i /\ goes_below (d_cwd d) [d_prefix d; dir] false perm i t).
  { intros f F T (n & Nn & front & C) H. destruct (base_ok f front n C) as (Bf & An & Cn). rewrite Bf in H. cbn [must rbind] in H.
    destruct (join_any dir n) as (r & E & _). rewrite E in H. cbn [must rbind] in H. apply push_is in H as (perm & M & S1 & P). exists perm. split; [exact M|]. split; [exact T|].
    unfold goes_below. rewrite S1. split; [exact F|]. exists n. split; [split; [exact Nn|eauto]|]. rewrite (along_join _ _ _ _ E) in P.
    change [d_prefix d; dir; n] with ([d_prefix d; dir] ++ [n]) in P. now rewrite along_one in P by assumption. }
  destruct i as [s|f]; cbn [push_one].
  - rewrite rbind_ok. intros (f & E & H). pose proof (coerce_ok _ _ E) as (F & T & L). destruct preserve; [|apply (Plain f); auto].
    destruct (join_any dir s) as (r & E' & _). rewrite E' in H. cbn [must rbind] in H. apply push_is in H as (perm & M & S1 & P). exists perm. split; [exact M|]. split; [exact T|].
    unfold goes_below. rewrite S1. split; [exact F|]. exists s. split; [reflexivity|]. now rewrite (along_join _ _ _ _ E') in P.
  - destruct preserve; [discriminate|]. apply Plain; cbn; auto.
Qed.
Lemma push_one_can dir mode preserve i perm : has_name i -> mode_means mode perm -> there_is there (d_cwd d) i -> (preserve = true -> exists s, i = IStr s) ->
  exists t, push_one isf d dir mode preserve i = ROk t.
Proof.
  intros Hn M T Pr.
  assert (Plain : forall f, (exists n, last_name f n) -> exists t, (let! n := must (path_basename f) in let! dest := must (path_join dir n) in push_target d f dest mode) = ROk t).
  { intros f (n & Nn & front & C). destruct (base_ok f front n C) as (Bf & An & Cn). rewrite Bf. cbn [must rbind].
    destruct (join_any dir n) as (r & E & _). rewrite E. cbn [must rbind]. destruct (push_can f r mode perm M) as (t & X & _). eauto. }
  destruct i as [s|f]; cbn [push_one].
  - destruct (coerce_can _ T) as (f & E). rewrite E. cbn [rbind]. pose proof (coerce_ok _ _ E) as (F & _ & L). destruct preserve; [|apply Plain; auto].
    destruct (join_any dir s) as (r & E' & _). rewrite E'. cbn [must rbind]. destruct (push_can f r mode perm M) as (t & X & _). eauto.
  - destruct preserve; [destruct (Pr eq_refl); discriminate|]. now apply Plain.
Qed.
Lemma each_ok {A} (f : A -> res target) l ts : each_of f l = ROk ts <-> Forall2 (fun a t => f a = ROk t) l ts.
Proof.
  revert ts. induction l as [|a l IH]; intros ts; cbn [each_of].
  - split; [intros [= <-]; constructor|]. intros H. inversion H. reflexivity.
  - rewrite rbind_ok. split.
    + intros (t & E & H). rewrite rbind_ok in H. destruct H as (ts' & H & [= <-]). constructor; [exact E|now apply IH].
    + intros H. inversion H as [|? t ? ts' H1 H2]; subst. exists t. split; [exact H1|]. rewrite rbind_ok. exists ts'. split; [now apply IH|reflexivity].
Qed.
Lemma each_can {A} (f : A -> res target) l : (exists ts, each_of f l = ROk ts) <-> forall a, In a l -> exists t, f a = ROk t.
Proof.
  split.
  - intros (ts & H) a Ha. apply each_ok in H. induction H as [|a' t l ts H1 H2 IH]; [destruct Ha|]. destruct Ha as [<-|Ha]; eauto.
  - induction l as [|a l IH]; intros H; [now exists []|]. destruct (H a) as (t & E); [now left|]. destruct IH as (ts & Es); [intros b Hb; apply H; now right|].
    exists (t :: ts). cbn [each_of]. now rewrite E, Es.
Qed.
Lemma forall2_map {A C} (P Q : A -> C -> Prop) l ts : (forall a t, In a l -> P a t -> Q a t) -> Forall2 P l ts -> Forall2 Q l ts.
Proof. intros H F. induction F; constructor; [apply H; [now left|assumption]|]. apply IHF. intros b t Hb. apply H. now right. Qed.
Lemma targets_is items dir mode preserve ts : (forall i, In i items -> has_name i) -> push_targets isf d items dir mode preserve = ROk ts ->
  Forall2 (fun i t => exists perm, mode_means mode perm /\ there_is there (d_cwd d) i /\ goes_below (d_cwd d) [d_prefix d; dir] preserve perm i t) items ts.
Proof. intros Hn H. apply each_ok in H. eapply forall2_map; [|exact H]. intros i t Hi E. apply push_one_is; auto. Qed.
Lemma targets_can items dir mode preserve : (forall i, In i items -> has_name i) ->
  ((exists ts, push_targets isf d items dir mode preserve = ROk ts) <->
   forall i, In i items -> (exists perm, mode_means mode perm) /\ there_is there (d_cwd d) i /\ (preserve = true -> exists s, i = IStr s)).
Proof.
  intros Hn. unfold push_targets. rewrite each_can. split.
  - intros H i Hi. destruct (H i Hi) as (t & E). apply push_one_is in E as (perm & M & T & G); auto. split; [eauto|]. split; [exact T|].
    intros ->. destruct G as (_ & s & -> & _). eauto.
  - intros H i Hi. destruct (H i Hi) as ((perm & M) & T & Pr). eapply push_one_can; eauto.
Qed.

(** ** rename *)
Lemma coerce_all l ps : coerce_files isf d l = ROk ps -> (forall s, In s l -> outputs_have_names s) ->
  stand_for (d_cwd d) l ps /\ (forall s, In s l -> source_is_there there (d_cwd d) s) /\ forall p, In p ps -> exists n, last_name p n.
Proof.
  revert ps. induction l as [|[i|qs] l IH]; intros ps H Hn; cbn [coerce_files] in H.
  - injection H as <-. split; [constructor|]. split; intros x [].
  - apply rbind_ok in H as (p & E & H). apply rbind_ok in H as (ps' & H & [= <-]). destruct (IH ps' H) as (I1 & I2 & I3); [intros s Hs; apply Hn; now right|].
    pose proof (coerce_ok _ _ E) as (F & T & L). split; [now constructor|]. split; [intros s [<-|Hs]; auto|]. intros x [<-|Hx]; [|auto]. apply L. apply (Hn (SItem i)). now left.
  - apply rbind_ok in H as (ps' & H & [= <-]). destruct (IH ps' H) as (I1 & I2 & I3); [intros s Hs; apply Hn; now right|].
    split; [now constructor|]. split; [intros s [<-|Hs]; [exact I|auto]|]. intros x Hx. apply in_app_iff in Hx as [Hx|Hx]; [|auto]. apply (Hn (SOutputs qs)); [now left|exact Hx].
Qed.
Lemma coerce_all_can l : (forall s, In s l -> source_is_there there (d_cwd d) s) -> exists ps, coerce_files isf d l = ROk ps.
Proof.
  induction l as [|[i|qs] l IH]; intros H; cbn [coerce_files]; [eauto| |].
  - destruct (coerce_can i) as (p & E); [apply (H (SItem i)); now left|]. destruct IH as (ps & Es); [intros s Hs; apply H; now right|]. rewrite E, Es. cbn. eauto.
  - destruct IH as (ps & Es); [intros s Hs; apply H; now right|]. rewrite Es. cbn. eauto.
Qed.
Lemma coerce_items items ps : coerce_files isf d (map SItem items) = ROk ps -> Forall2 (fun i p => the_file (d_cwd d) i p /\ there_is there (d_cwd d) i) items ps.
Proof.
  revert ps. induction items as [|i l IH]; intros ps H; cbn [map coerce_files] in H; [injection H as <-; constructor|].
  apply rbind_ok in H as (p & E & H). apply rbind_ok in H as (ps' & H & [= <-]). pose proof (coerce_ok _ _ E) as (F & T & L). constructor; auto.
Qed.
Lemma rename_can dir mode perm names : forall files, mode_means mode perm -> length files = length names ->
  exists ts, rename_each d dir mode files names = ROk ts /\ length ts = length files /\
    forall k f n, nth_error files k = Some f -> nth_error names k = Some n -> exists t, nth_error ts k = Some t /\ tsrc t = f /\ put_at perm (along [d_prefix d; dir; n]) t.
Proof.
  induction names as [|n names IH]; intros [|f files] M L; try discriminate L; cbn [rename_each].
  - exists []. repeat split. intros [|k] f n H; discriminate H.
  - injection L as L. destruct (IH files M L) as (ts & E & Ln & K). destruct (join_any dir n) as (r & Er & _). rewrite Er. cbn [must rbind].
    destruct (push_can f r mode perm M) as (t & Et & S1 & P). rewrite Et, E. cbn [rbind]. exists (t :: ts). split; [reflexivity|]. split; [cbn; now rewrite Ln|].
    rewrite (along_join _ _ _ _ Er) in P. intros [|k] f' n' H1 H2; cbn [nth_error] in *; [|eauto]. injection H1 as <-. injection H2 as <-. eauto.
Qed.

(** ** manual pages *)
Lemma page_last (man : bytes) (c0 : ascii) : man <> [] -> let len := length man - 1 in nth len man c0 = last man c0 /\ nth (len - 1) man c0 = last (removelast man) (last man c0).
Proof.
  destruct man as [|c man _] using rev_ind; [congruence|]. intros _. cbn zeta. rewrite app_length. cbn [length]. replace (length man + 1 - 1) with (length man) by lia.
  rewrite app_nth2, Nat.sub_diag by lia. rewrite last_last, removelast_last. split; [reflexivity|].
  destruct man as [|x man _] using rev_ind; [reflexivity|]. rewrite app_length. cbn [length]. replace (length man + 1 - 1) with (length man) by lia.
  rewrite app_nth1 by (rewrite app_length; cbn; lia). rewrite app_nth2, Nat.sub_diag by lia. now rewrite last_last.
Qed.
Lemma digit_in c : is_digit c = true <-> In c (B "0123456789").
Proof. split; [|intros H; vm_compute in H; repeat destruct H as [<-|H]; try reflexivity; destruct H]. destruct c as [[] [] [] [] [] [] [] []]; intros H; try discriminate H; vm_compute; tauto. Qed.
Lemma page_test man : man <> [] ->
  (Nat.leb (length man - 1) 1 || negb (ceqb (nth (length man - 1 - 1) man NUL) "."%char) || negb (is_digit (nth (length man - 1) man NUL))) = false <->
  exists stem, man_page man stem (nth (length man - 1) man NUL).
Proof.
  intros Ne. destruct (page_last man NUL Ne) as [L1 L2]. rewrite L1, L2. destruct man as [|c man _] using rev_ind; [congruence|]. rewrite last_last, removelast_last, app_length. cbn [length].
  replace (length man + 1 - 1) with (length man) by lia. rewrite !orb_false_iff, !negb_false_iff, digit_in, Nat.leb_gt. unfold man_page. split.
  - intros ((H1 & H2) & H3). destruct man as [|x man _] using rev_ind; [cbn in H1; lia|]. rewrite last_last in H2. destruct (ceqb_spec x "."%char) as [->|]; [|discriminate].
    exists man. split; [now rewrite <- app_assoc|]. split; [|exact H3]. intros ->. cbn in H1. lia.
  - intros (stem & H1 & H2 & H3). rewrite app_assoc in H1. apply app_inj_tail in H1 as [-> _]. change (B ".") with ["."%char]. rewrite last_last, app_length. cbn [length].
    destruct stem; [congruence|]. cbn [length]. split; [split; [lia|reflexivity]|exact H3].
Qed.
Lemma page_section man stem c : man_page man stem c -> nth (length man - 1) man NUL = c.
Proof. intros (-> & _). rewrite app_assoc, app_length. cbn [length]. rewrite app_nth2 by lia. replace (_ - _) with 0 by lia. reflexivity. Qed.
Lemma at_dot_first x y : ~ In "."%char x -> at_dot (x ++ "."%char :: y) = (x, y).
Proof.
  induction x as [|c x IH]; intros N; cbn [app at_dot]; [reflexivity|]. destruct (ceqb_spec c "."%char) as [->|]; [exfalso; apply N; now left|].
  rewrite IH; [reflexivity|]. intros H. apply N. now right.
Qed.
Lemma starts_iff l s : starts_with l s = true <-> exists r, s = l ++ r.
Proof.
  revert s. induction l as [|c l IH]; intros s; [cbn; split; [eauto|destruct s; reflexivity]|]. destruct s as [|x s]; cbn; [split; [discriminate|intros (r & H); discriminate H]|].
  rewrite andb_true_iff, IH. split.
  - intros [E (r & ->)]. destruct (ceqb_spec c x) as [->|]; [eauto|discriminate].
  - intros (r & [= <- ->]). split; [destruct (ceqb_spec x x); congruence|eauto].
Qed.
Lemma split_dot (x x' y y' : bytes) : ~ In "."%char y -> ~ In "."%char y' -> x ++ "."%char :: y = x' ++ "."%char :: y' -> x = x' /\ y = y'.
Proof.
  revert x'. induction x as [|c x IH]; intros [|c' x'] N N' E; cbn [app] in E.
  - injection E as ->. auto.
  - injection E as <- ->. exfalso. apply N. apply in_app_iff. right. now left.
  - injection E as -> <-. exfalso. apply N'. apply in_app_iff. right. now left.
  - injection E as -> E. destruct (IH x' N N' E). split; congruence.
Qed.
Lemma nodot_digit c : In c (B "0123456789") -> ~ In "."%char [c].
Proof. intros H [->|[]]. vm_compute in H. repeat destruct H as [H|H]; first [discriminate H|exact H]. Qed.
Lemma locale_name lc man stem c : man_page man stem c -> simple_for lc man ->
  without_locale lc man (let '(x, y) := at_dot man in if starts_with lc y then x ++ B "." ++ [c] else man).
Proof.
  intros (Em & Ne & Hc) (Nl & x & c' & Nx & Hc' & H).
  assert (Sec : c' = c).
  { destruct H as [E|(z & _ & E & _)]; rewrite Em in E; rewrite !app_assoc in E; apply app_inj_tail in E as [_ ->]; reflexivity. }
  subst c'. pose proof (nodot_digit c Hc) as Nc. destruct H as [E|(z & Nz & E & H)].
  - rewrite E. change (x ++ B "." ++ [c]) with (x ++ "."%char :: [c]). rewrite at_dot_first by exact Nx. right. split; [|destruct (starts_with lc [c]); reflexivity].
    intros x' c'' X. apply Nx. assert (W : x' ++ B "." ++ lc ++ B "." ++ [c''] = (x' ++ "."%char :: lc) ++ "."%char :: [c'']) by (rewrite <- app_assoc; reflexivity).
    rewrite W in X. assert (Nc'' : ~ In "."%char [c'']).
    { intros [->|[]]. change (x ++ "."%char :: [c]) with (x ++ ["."%char] ++ [c]) in X. change ((x' ++ "."%char :: lc) ++ ["."%char; "."%char]) with ((x' ++ "."%char :: lc) ++ ["."%char] ++ ["."%char]) in X.
      rewrite !app_assoc in X. apply app_inj_tail in X as [_ X]. apply Nc. left. congruence. }
    destruct (split_dot _ _ _ _ Nc Nc'' X) as [X1 _]. rewrite X1. apply in_app_iff. right. now left.
  - assert (W : man = x ++ "."%char :: (z ++ B "." ++ [c])) by (rewrite E; reflexivity). rewrite W at 2. rewrite at_dot_first by exact Nx.
    destruct (starts_with lc (z ++ B "." ++ [c])) eqn:St.
    + left. exists x, c. split; [|reflexivity]. rewrite E. destruct H as [->|H]; [reflexivity|]. exfalso. apply starts_iff in St as (r & St).
      assert (X : exists r', z = lc ++ r').
      { clear -St Nl Nz. revert z Nz St. induction lc as [|a lc IH]; intros z Nz St; [now exists z|]. destruct z as [|b z].
        - cbn in St. injection St as <- _. exfalso. apply Nl. now left.
        - injection St as -> St. destruct (IH (fun X => Nl (or_intror X)) z (fun X => Nz (or_intror X)) St) as (r' & ->). now exists r'. }
      destruct X as (r' & X). exact (H r' X).
    + right. split; [|reflexivity]. intros x' c'' X. destruct H as [->|H].
      * assert (Y : starts_with lc (lc ++ B "." ++ [c]) = true) by (apply starts_iff; eauto). congruence.
      * rewrite E in X. change (B ".") with ["."%char] in X. rewrite !app_assoc in X. apply app_inj_tail in X as [X _]. apply app_inj_tail in X as [X _].
        rewrite <- !app_assoc in X. cbn [app] in X. destruct (split_dot _ _ _ _ Nz Nl X) as [_ ->]. apply (H []). now rewrite app_nil_r.
Qed.
End FILES.

Lemma forall2_len {A C} (P : A -> C -> Prop) l l' : Forall2 P l l' -> length l = length l'.
Proof. intros H. induction H; cbn; congruence. Qed.
Lemma last_loc p n : last_name p n -> exists f, location p = f ++ [n].
Proof.
  intros (N & front & E). unfold location, walk. rewrite E, fold_left_app. cbn [fold_left]. destruct (fold_left walk1 front (0, [])) as [u st]. unfold walk1, is_up.
  destruct (beqb_spec n (B "..")); [contradiction|]. cbn. eauto.
Qed.
Lemma same_last p q n m : location p = location q -> last_name p n -> last_name q m -> n = m.
Proof. intros E L L'. apply last_loc in L as (f & L). apply last_loc in L' as (g & L'). rewrite L, L' in E. now apply app_inj_tail in E as [_ ->]. Qed.
Lemma stand_same cwd l ps qs : stand_for cwd l ps -> stand_for cwd l qs ->
  forall p, In p ps -> exists q, In q qs /\ forall n m, last_name p n -> last_name q m -> n = m.
Proof.
  intros H. revert qs. induction H as [|i p l ps F H IH|os l ps H IH]; intros qs Q p' Hp.
  - destruct Hp.
  - inversion Q as [|? q ? qs' F' Q'|]; subst. destruct Hp as [<-|Hp]; [|destruct (IH qs' Q' p' Hp) as (x & X1 & X2); exists x; split; [now right|exact X2]].
    exists q. split; [now left|]. intros n m. apply same_last. destruct i as [s|f]; cbn [the_file] in F, F'; [|congruence]. destruct F, F'. congruence.
  - inversion Q as [| |? ? qs' Q']; subst. apply in_app_iff in Hp as [Hp|Hp].
    + exists p'. split; [apply in_app_iff; now left|]. intros n m. now apply same_last.
    + destruct (IH qs' Q' p' Hp) as (x & X1 & X2). exists x. split; [apply in_app_iff; now right|exact X2].
Qed.
Lemma at_dot_app n : exists z, n = fst (at_dot n) ++ z.
Proof.
  induction n as [|a n [z IH]]; [now exists []|]. cbn [at_dot]. destruct (ceqb a "."%char); [now exists (a :: n)|]. destruct (at_dot n) as [x y]. cbn [fst] in *. exists z. cbn. congruence.
Qed.
