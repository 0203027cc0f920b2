(** Lemmas about generated pkg-config files. *)
From Coq Require Import List Lia.
From Verif Require Import Base M_Path M_Escape L_Path2 M_Pkgconf S_Pkgconf.
Import ListNotations.
Local Arguments B _ : simpl never.

Lemma mem_spec : forall x l, mem x l = true <-> In x l.
Proof.
  intros x l. unfold mem. rewrite existsb_exists. split.
  - intros (y & I0 & E). destruct (beqb_spec x y) as [->|_]; [exact I0|discriminate].
  - intros I0. exists x. split; [exact I0|apply beqb_refl].
Qed.

Lemma lname_spec : forall s w, links_as s w <-> w = lname s.
Proof.
  intros s w. split.
  - intros H. destruct H as [r|n|n N1 N2].
    + reflexivity.
    + cbn. reflexivity.
    + unfold lname. destruct n as [|c n]; [reflexivity|].
      destruct (starts_with (B "lib") (c :: n)) eqn:E.
      { apply starts_with_spec in E as (r & E). destruct (N2 r E). }
      destruct c as [[] [] [] [] [] [] [] []]; try reflexivity. destruct (N1 n eq_refl).
  - intros ->. unfold lname.
    assert (D : (exists r, s = "-"%char :: r) \/ (forall r, s <> "-"%char :: r)).
    { destruct s as [|c s]; [right; discriminate|].
      destruct (ceqb_spec c "-"%char) as [->|N0]; [left; eauto|right]. intros r [= E _]. congruence. }
    destruct D as [(r & ->)|D]; [apply as_is|].
    assert (E : match s with "-"%char :: _ => s
                | _ => if starts_with (B "lib") s then B "-l" ++ skipn 3 s else B "-l" ++ s end
                = if starts_with (B "lib") s then B "-l" ++ skipn 3 s else B "-l" ++ s).
    { destruct s as [|c s]; [reflexivity|]. specialize (D s).
      destruct c as [[] [] [] [] [] [] [] []]; try reflexivity. congruence. }
    rewrite E. destruct (starts_with (B "lib") s) eqn:St.
    + apply starts_with_spec in St as (r & ->). apply without_lib.
    + apply plain; [exact D|]. intros r ->.
      assert (starts_with (B "lib") (B "lib" ++ r) = true) by (apply starts_with_spec; eauto). congruence.
Qed.

Lemma last_at : forall stem e, ~ In "."%char e ->
  last_index "."%char (stem ++ "."%char :: e) 0 None = Some (length stem).
Proof.
  intros stem e N0. rewrite last_index_app. cbn [last_index]. rewrite ceqb_refl.
  apply last_index_notin. exact N0.
Qed.

Lemma last_dot : forall b, (last_index "."%char b 0 None = None /\ ~ In "."%char b)
  \/ exists stem e, b = stem ++ "."%char :: e /\ ~ In "."%char e
       /\ last_index "."%char b 0 None = Some (length stem).
Proof.
  intros b. destruct (in_dec Ascii.ascii_dec "."%char b) as [I0|N0].
  - right. assert (S0 : exists stem e, b = stem ++ "."%char :: e /\ ~ In "."%char e).
    { clear -I0. induction b as [|c b IH]; [destruct I0|].
      destruct (in_dec Ascii.ascii_dec "."%char b) as [J|J].
      - destruct (IH J) as (s & e & -> & N0). exists (c :: s), e. split; [reflexivity|exact N0].
      - destruct I0 as [->|I0]; [|destruct (J I0)]. exists [], b. split; [reflexivity|exact J]. }
    destruct S0 as (stem & e & -> & N0). exists stem, e. split; [reflexivity|]. split; [exact N0|].
    apply last_at. exact N0.
  - left. split; [apply last_index_notin; exact N0|exact N0].
Qed.

Lemma file_lname_spec : forall p x, file_lname p = Good x -> forall w, file_links_as p w <-> w = x.
Proof.
  intros p x H w. unfold file_lname in H. destruct (path_basename p) as [b|] eqn:Eb; [|discriminate].
  cbn [path rbind] in H. injection H as <-.
  destruct (last_dot b) as [(-> & N0)|(stem & e & -> & N0 & ->)].
  - rewrite <- lname_spec. split.
    + intros H. destruct H as [p stem e w E _ L|p b' w E _ L]; rewrite Eb in E; injection E as ->.
      * destruct N0. apply in_or_app. right. left. reflexivity.
      * exact L.
    + intros L. apply (without_ending p b w Eb N0 L).
  - rewrite firstn_app, firstn_all, Nat.sub_diag. cbn [firstn]. rewrite app_nil_r, <- lname_spec. split.
    + intros H. destruct H as [p stem' e' w E N1 L|p b' w E N1 L]; rewrite Eb in E; injection E as E.
      * assert (stem' = stem) as ->; [|exact L].
        pose proof (f_equal (fun l => last_index "."%char l 0 None) E) as Q. cbv beta in Q.
        rewrite !last_at in Q by assumption. injection Q as Q.
        pose proof (f_equal (firstn (length stem)) E) as F. rewrite Q in F at 2.
        rewrite !firstn_app, !firstn_all, !Nat.sub_diag in F. cbn [firstn] in F.
        rewrite !app_nil_r in F. symmetry. exact F.
      * subst b'. destruct N1. apply in_or_app. right. left. reflexivity.
    + intros L. apply (with_ending p stem e w Eb N0 L).
Qed.

Lemma ends_with_spec : forall suf s, ends_with suf s = true <-> exists r, s = r ++ suf.
Proof.
  intros suf s. unfold ends_with. rewrite starts_with_spec. split.
  - intros (r & E). exists (rev r). rewrite <- (rev_involutive s), E, rev_app_distr, rev_involutive.
    reflexivity.
  - intros (r & ->). exists (rev r). apply rev_app_distr.
Qed.

(** ** what processing does *)
Definition has (a : acc) (i : item) : Prop :=
  match i with
  | ILib v w => In w (libs a v)
  | IReq v r => In r (reqs a v)
  | IWhole w => In w (exclude a)
  | IOwn v => internal a v = true
  | IFlag w => In w (cflags a)
  end.

Lemma in_at : forall (f : vis -> list bytes) v v' w x,
  In x (at_vis f v (f v ++ [w]) v') <-> In x (f v') \/ (v' = v /\ x = w).
Proof.
  intros f v v' w x. destruct v, v'; cbn [at_vis]; rewrite ?in_app_iff; cbn [In];
    (split; [intros H|intros H]); intuition (try congruence).
Qed.

Lemma has_lib : forall a v w i, has (push_lib v w a) i <-> has a i \/ i = ILib v w.
Proof.
  intros a v w [v' x|v' r|x|v'|x]; cbn [has push_lib libs reqs exclude internal cflags].
  - rewrite in_at. intuition congruence.
  - intuition congruence.
  - intuition congruence.
  - intuition congruence.
  - intuition congruence.
Qed.

Lemma has_req : forall a v w i, has (push_req v w a) i <-> has a i \/ i = IReq v w.
Proof.
  intros a v w [v' x|v' r|x|v'|x]; cbn [has push_req libs reqs exclude internal cflags].
  - intuition congruence.
  - rewrite in_at. intuition congruence.
  - intuition congruence.
  - intuition congruence.
  - intuition congruence.
Qed.

Lemma has_exclude : forall a w i, has (push_exclude w a) i <-> has a i \/ i = IWhole w.
Proof.
  intros a w [v' x|v' r|x|v'|x]; cbn [has push_exclude libs reqs exclude internal cflags];
    rewrite ?in_app_iff; cbn [In]; intuition congruence.
Qed.

Lemma has_cflags : forall a ws i,
  has (push_cflags ws a) i <-> has a i \/ exists w, In w ws /\ i = IFlag w.
Proof.
  intros a ws i. assert (K : forall w, (exists w', In w' ws /\ IFlag w = IFlag w') <-> In w ws).
  { intros w. split; [intros (w' & J & E); congruence|]. intros J. exists w. split; [exact J|reflexivity]. }
  destruct i as [v' x|v' r|x|v'|x]; cbn [has push_cflags libs reqs exclude internal cflags].
  5:{ rewrite K, in_app_iff. tauto. }
  all: split; [tauto|]; intros [X|(w & _ & X)]; [exact X|discriminate].
Qed.

Lemma has_own : forall a v i, has (set_internal v a) i <-> has a i \/ i = IOwn v.
Proof.
  intros a v [v' x|v' r|x|v'|x]; cbn [has set_internal libs reqs exclude internal cflags];
    try (intuition congruence).
  destruct v, v'; cbn [at_vis]; intuition congruence.
Qed.

Definition brings_all (v : vis) (wh : bool) (ls : list lib) (i : item) : Prop :=
  exists l, In l ls /\ brings v wh l i.

Definition right (l : lib) : Prop := forall v wh a a1, process v wh l a = Good a1 ->
  forall i, has a1 i <-> has a i \/ brings v wh l i.

Lemma process_all_has : forall ls, Forall right ls -> forall v wh a a1,
  process_all v wh ls a = Good a1 -> forall i, has a1 i <-> has a i \/ brings_all v wh ls i.
Proof.
  induction ls as [|l ls IH]; intros F v wh a a1 H i; cbn [process_all] in H.
  - injection H as <-. unfold brings_all. split; [intros X; left; exact X|].
    intros [X|(l & [] & _)]. exact X.
  - inversion F as [|? ? R F']; subst. destruct (process v wh l a) as [a2| |] eqn:E; try discriminate.
    cbn [rbind] in H. rewrite (IH F' v wh a2 a1 H i), (R v wh a a2 E i).
    unfold brings_all. split.
    + intros [[X|X]|(l' & I0 & X)]; [left; exact X|right; exists l; split; [left; reflexivity|exact X]
                                      |right; exists l'; split; [right; exact I0|exact X]].
    + intros [X|(l' & [<-|I0] & X)]; [left; left; exact X|left; right; exact X|].
      right. exists l'. split; [exact I0|exact X].
Qed.

Section LibInd.
Variable P : lib -> Prop.
Hypothesis H1 : forall s, P (LString s).
Hypothesis H2 : forall k i p, P (LFile k i p).
Hypothesis H3 : forall ty ins pc n ds lw lh, Forall P ds -> Forall P lw -> Forall P lh ->
  P (LTarget ty ins pc n ds lw lh).
Hypothesis H4 : forall k p, P (LCustom k p).
Hypothesis H5 : forall f args lw lh ds, Forall P lw -> Forall P lh -> Forall P ds ->
  P (LDeclared f args lw lh ds).
Hypothesis H6 : forall f n, P (LPackage f n).
Hypothesis H7 : forall f, P (LThreads f).
Hypothesis H8 : forall f fs, Forall P fs -> P (LExternal f fs).
Hypothesis H9 : P LOther.
Fixpoint lib_ind2 (l : lib) : P l :=
  let all := fix all (ls : list lib) : Forall P ls :=
    match ls with [] => Forall_nil P | l :: ls => Forall_cons l (lib_ind2 l) (all ls) end in
  match l with
  | LString s => H1 s
  | LFile k i p => H2 k i p
  | LTarget ty ins pc n ds lw lh => H3 ty ins pc n ds lw lh (all ds) (all lw) (all lh)
  | LCustom k p => H4 k p
  | LDeclared f args lw lh ds => H5 f args lw lh ds (all lw) (all lh) (all ds)
  | LPackage f n => H6 f n
  | LThreads f => H7 f
  | LExternal f fs => H8 f fs (all fs)
  | LOther => H9
  end.
End LibInd.

Lemma process_target : forall v wh ty ins n ds lw lh a, process v wh (LTarget ty ins None n ds lw lh) a
  = match ty with
    | Executable => Bad
    | _ =>
        let lv := match ty with Static => Pub | _ => Priv end in
        rbind (process_all Priv false ds a) (fun a =>
        rbind (process_all lv false lw a) (fun a =>
        rbind (process_all lv true lh a) (fun a =>
        if wh then Good (push_exclude (lname n) a)
        else match ty, ins with
             | Static, false => Good a
             | _, _ => Good (push_lib v (lname n) (set_internal v a))
             end)))
    end.
Proof. reflexivity. Qed.

Lemma process_declared : forall v wh args lw lh ds a, process v wh (LDeclared true args lw lh ds) a
  = rbind (process_all v false lw (push_cflags args a)) (fun a =>
    rbind (process_all v true lh a) (fun a => process_all Priv false ds a)).
Proof. reflexivity. Qed.

Lemma process_external : forall v wh fs a,
  process v wh (LExternal true fs) a = process_all v false fs a.
Proof. reflexivity. Qed.

Lemma process_right : forall l, right l.
Proof.
  apply lib_ind2; unfold right.
  - intros s v wh a a1 H i. cbn in H. injection H as <-. rewrite has_lib. split.
    + intros [X| ->]; [left; exact X|right]. apply b_string. apply lname_spec. reflexivity.
    + intros [X|X]; [left; exact X|right]. inversion X; subst.
      match goal with L : links_as _ _ |- _ => apply lname_spec in L as -> end. reflexivity.
  - intros k int p v wh a a1 H i. cbn [process] in H. destruct k; cbn [negb] in H; [|discriminate].
    destruct (file_lname p) as [w| |] eqn:E; try discriminate. cbn [rbind] in H. injection H as <-.
    pose proof (file_lname_spec p w E) as F. rewrite has_lib.
    assert (O : has (if int then set_internal v a else a) i <-> has a i \/ (int = true /\ i = IOwn v)).
    { destruct int; [rewrite has_own|]; intuition congruence. }
    rewrite O. split.
    + intros [[X|(-> & ->)]| ->]; [left; exact X|right; apply b_file_own|right; apply b_file].
      apply F. reflexivity.
    + intros [X|X]; [left; left; exact X|]. inversion X; subst.
      * match goal with L : file_links_as _ _ |- _ => apply F in L as -> end. right. reflexivity.
      * left. right. split; reflexivity.
  - intros ty ins pc n ds lw lh F1 F2 F3 v wh a a1 H i. destruct pc as [r|].
    { cbn in H. injection H as <-. rewrite has_req. split.
      - intros [X| ->]; [left; exact X|right]. apply b_pc.
      - intros [X|X]; [left; exact X|right]. inversion X. reflexivity. }
    rewrite process_target in H.
    assert (Own : forall a0, (if wh then Good (push_exclude (lname n) a0)
        else match ty, ins with
             | Static, false => Good a0
             | _, _ => Good (push_lib v (lname n) (set_internal v a0)) end) = Good a1 ->
        ty <> Executable ->
        (has a1 i <-> has a0 i \/ (wh = true /\ i = IWhole (lname n))
           \/ (wh = false /\ can_be_linked ty ins /\ (i = IOwn v \/ i = ILib v (lname n))))).
    { intros a0 H0 Ty. unfold can_be_linked. destruct wh.
      - injection H0 as <-. rewrite has_exclude. intuition congruence.
      - assert (C : (ty = Static /\ ins = false /\ a1 = a0)
          \/ ((ty = Shared \/ ins = true) /\ a1 = push_lib v (lname n) (set_internal v a0))).
        { destruct ty, ins; try congruence; injection H0 as <-; tauto. }
        destruct C as [(-> & -> & ->)|(C & ->)].
        + intuition congruence.
        + rewrite has_lib, has_own. intuition congruence. }
    destruct ty; [discriminate| |].
    all: cbv zeta in H.
    + destruct (process_all Priv false ds a) as [a2| |] eqn:E1; try discriminate. cbn [rbind] in H.
      destruct (process_all Pub false lw a2) as [a3| |] eqn:E2; try discriminate. cbn [rbind] in H.
      destruct (process_all Pub true lh a3) as [a4| |] eqn:E3; try discriminate. cbn [rbind] in H.
      specialize (Own a4 H ltac:(discriminate)).
      rewrite Own, (process_all_has lh F3 Pub true a3 a4 E3 i),
        (process_all_has lw F2 Pub false a2 a3 E2 i), (process_all_has ds F1 Priv false a a2 E1 i).
      unfold brings_all. split.
      * intros [[[[X|(d & D & X)]|(d & D & X)]|(d & D & X)]|[(-> & ->)|(-> & C & [-> | ->])]].
        -- left. exact X.
        -- right. exact (b_target_deps _ _ _ _ _ _ _ _ d i D X).
        -- right. exact (b_static_links _ _ _ _ _ _ _ d i D X).
        -- right. exact (b_static_wholes _ _ _ _ _ _ _ d i D X).
        -- right. apply b_target_whole. apply lname_spec. reflexivity.
        -- right. apply b_target_own. exact C.
        -- right. apply b_target; [exact C|apply lname_spec; reflexivity].
      * intros [X|X]; [left; left; left; left; exact X|].
        inversion X; subst;
          try match goal with L : links_as _ _ |- _ => apply lname_spec in L; subst end; eauto 9.
    + destruct (process_all Priv false ds a) as [a2| |] eqn:E1; try discriminate. cbn [rbind] in H.
      destruct (process_all Priv false lw a2) as [a3| |] eqn:E2; try discriminate. cbn [rbind] in H.
      destruct (process_all Priv true lh a3) as [a4| |] eqn:E3; try discriminate. cbn [rbind] in H.
      specialize (Own a4 H ltac:(discriminate)).
      rewrite Own, (process_all_has lh F3 Priv true a3 a4 E3 i),
        (process_all_has lw F2 Priv false a2 a3 E2 i), (process_all_has ds F1 Priv false a a2 E1 i).
      unfold brings_all. split.
      * intros [[[[X|(d & D & X)]|(d & D & X)]|(d & D & X)]|[(-> & ->)|(-> & C & [-> | ->])]].
        -- left. exact X.
        -- right. exact (b_target_deps _ _ _ _ _ _ _ _ d i D X).
        -- right. exact (b_shared_links _ _ _ _ _ _ _ d i D X).
        -- right. exact (b_shared_wholes _ _ _ _ _ _ _ d i D X).
        -- right. apply b_target_whole. apply lname_spec. reflexivity.
        -- right. apply b_target_own. exact C.
        -- right. apply b_target; [exact C|apply lname_spec; reflexivity].
      * intros [X|X]; [left; left; left; left; exact X|].
        inversion X; subst;
          try match goal with L : links_as _ _ |- _ => apply lname_spec in L; subst end; eauto 9.
  - intros k p v wh a a1 H i. cbn [process] in H. destruct k; cbn [negb] in H; [|discriminate].
    destruct (ends_with (B ".a") p) eqn:Ea.
    + injection H as <-. apply ends_with_spec in Ea as (r & Ea). split; [tauto|].
      intros [X|X]; [exact X|]. inversion X; subst;
        match goal with N0 : forall r, _ <> r ++ B ".a" |- _ => destruct (N0 r eq_refl) end.
    + assert (Na : forall r, p <> r ++ B ".a").
      { intros r ->. assert (ends_with (B ".a") (r ++ B ".a") = true) by (apply ends_with_spec; eauto).
        congruence. }
      destruct (file_lname p) as [w| |] eqn:E; try discriminate. cbn [rbind] in H. injection H as <-.
      pose proof (file_lname_spec p w E) as F. rewrite has_lib, has_own. split.
      * intros [[X| ->]| ->]; [left; exact X|right; apply b_custom_own; exact Na|right].
        apply b_custom; [exact Na|apply F; reflexivity].
      * intros [X|X]; [left; left; exact X|]. inversion X; subst.
        -- match goal with L : file_links_as _ _ |- _ => apply F in L as -> end. right. reflexivity.
        -- left. right. reflexivity.
  - intros f args lw lh ds F1 F2 F3 v wh a a1 H i. destruct f.
    + rewrite process_declared in H.
      destruct (process_all v false lw (push_cflags args a)) as [a2| |] eqn:E1; try discriminate.
      cbn [rbind] in H.
      destruct (process_all v true lh a2) as [a3| |] eqn:E2; try discriminate. cbn [rbind] in H.
      rewrite (process_all_has ds F3 Priv false a3 a1 H i),
        (process_all_has lh F2 v true a2 a3 E2 i), (process_all_has lw F1 v false _ a2 E1 i), has_cflags.
      unfold brings_all. split.
      * intros [[[[X|(w & D & ->)]|(d & D & X)]|(d & D & X)]|(d & D & X)].
        -- left. exact X.
        -- right. exact (b_declared_args _ _ _ _ _ _ w D).
        -- right. exact (b_declared_links _ _ _ _ _ _ d i D X).
        -- right. exact (b_declared_wholes _ _ _ _ _ _ d i D X).
        -- right. exact (b_declared_deps _ _ _ _ _ _ d i D X).
      * intros [X|X]; [left; left; left; left; exact X|]. inversion X; subst; eauto 9.
    + cbn in H. injection H as <-. split; [tauto|]. intros [X|X]; [exact X|]. inversion X.
  - intros f n v wh a a1 H i. cbn in H. injection H as <-. destruct f.
    + rewrite has_req. split.
      * intros [X| ->]; [left; exact X|right; apply b_package].
      * intros [X|X]; [left; exact X|right]. inversion X. reflexivity.
    + split; [tauto|]. intros [X|X]; [exact X|]. inversion X.
  - intros f v wh a a1 H i. cbn in H. injection H as <-. destruct f.
    + rewrite has_lib. split.
      * intros [X| ->]; [left; exact X|right; apply b_threads].
      * intros [X|X]; [left; exact X|right]. inversion X. reflexivity.
    + split; [tauto|]. intros [X|X]; [exact X|]. inversion X.
  - intros f fs F v wh a a1 H i. destruct f.
    + rewrite process_external in H. rewrite (process_all_has fs F v false a a1 H i).
      unfold brings_all. split.
      * intros [X|(d & D & X)]; [left; exact X|right; exact (b_external _ _ _ d i D X)].
      * intros [X|X]; [left; exact X|]. inversion X; subst. eauto.
    + cbn in H. injection H as <-. split; [tauto|]. intros [X|X]; [exact X|]. inversion X.
  - intros v wh a a1 H i. cbn in H. injection H as <-. split; [tauto|].
    intros [X|X]; [exact X|]. inversion X.
Qed.

Lemma all_right : forall ls, Forall right ls.
Proof. intros ls. apply Forall_forall. intros l _. apply process_right. Qed.

Lemma given_has : forall c a a1, given_libs c a = Good a1 ->
  forall i, has a1 i <-> has a i \/ call_brings c i.
Proof.
  intros c a a1 H i. unfold given_libs in H.
  destruct (process_all Pub false (match g_main c with Some l => [l] | None => [] end) a)
    as [a2| |] eqn:E1; try discriminate. cbn [rbind] in H.
  destruct (process_all Pub false (g_libs c) a2) as [a3| |] eqn:E2; try discriminate. cbn [rbind] in H.
  rewrite (process_all_has _ (all_right _) Priv false a3 a1 H i),
    (process_all_has _ (all_right _) Pub false a2 a3 E2 i),
    (process_all_has _ (all_right _) Pub false a a2 E1 i).
  unfold brings_all. split.
  - intros [[[X|(l & I0 & X)]|(l & I0 & X)]|(l & I0 & X)].
    + left. exact X.
    + right. destruct (g_main c) as [m|] eqn:Em; [|destruct I0]. destruct I0 as [<-|[]].
      exact (c_main c m i Em X).
    + right. exact (c_libs c l i I0 X).
    + right. exact (c_private c l i I0 X).
  - intros [X|X]; [left; left; left; exact X|]. destruct X as [l i E X|l i E X|l i E X].
    + left. left. right. exists l. rewrite E. split; [left; reflexivity|exact X].
    + left. right. exists l. split; [exact E|exact X].
    + right. exists l. split; [exact E|exact X].
Qed.

(** ** removing what is there already *)
Lemma remove_dups_spec : forall l ex r ex1, remove_dups l ex = (r, ex1) ->
  (forall x, In x r <-> In x l /\ ~ In x ex) /\ NoDup r
  /\ (forall x, In x ex1 <-> In x ex \/ In x l).
Proof.
  induction l as [|y l IH]; intros ex r ex1 H; cbn [remove_dups] in H.
  - injection H as <- <-. cbn. split; [tauto|]. split; [constructor|tauto].
  - destruct (mem y ex) eqn:M.
    + apply mem_spec in M. destruct (IH ex r ex1 H) as (A & D & C). split; [|split].
      * intros x. rewrite A. cbn. split; [intros (P & Q); tauto|]. intros ([->|P] & Q); tauto.
      * exact D.
      * intros x. rewrite C. cbn. split; [tauto|]. intros [P|[->|P]]; tauto.
    + assert (M' : ~ In y ex) by (rewrite <- mem_spec; congruence).
      destruct (remove_dups l (ex ++ [y])) as [r2 ex2] eqn:E. injection H as <- <-.
      destruct (IH _ _ _ E) as (A & D & C). split; [|split].
      * intros x. cbn. rewrite A, in_app_iff. cbn.
        destruct (beqb_spec x y) as [->|N0]; [tauto|]. intuition congruence.
      * constructor; [|exact D]. rewrite A, in_app_iff. cbn. tauto.
      * intros x. rewrite C, in_app_iff. cbn. tauto.
Qed.

Lemma lname_dash : forall s, exists r, lname s = "-"%char :: r.
Proof.
  intros s. assert (L : links_as s (lname s)) by (apply lname_spec; reflexivity).
  destruct L as [r|n|n _ _]; [exists r; reflexivity|exists (B "l" ++ n); reflexivity|exists (B "l" ++ n); reflexivity].
Qed.

Lemma links_dash : forall s w, links_as s w -> exists r, w = "-"%char :: r.
Proof. intros s w L. apply lname_spec in L as ->. apply lname_dash. Qed.

Lemma word_dash : forall v wh l i, brings v wh l i ->
  match i with ILib _ w | IWhole w => exists r, w = "-"%char :: r | _ => True end.
Proof.
  intros v wh l i H. induction H; cbn; try exact I; try assumption;
    try (eapply links_dash; eassumption).
  - destruct H as [p stem e w _ _ L|p b w _ _ L]; eapply links_dash; eassumption.
  - destruct H0 as [p stem e w _ _ L|p b w _ _ L]; eapply links_dash; eassumption.
  - eexists. reflexivity.
Qed.

Lemma call_dash : forall c i, call_brings c i ->
  match i with ILib _ w | IWhole w => exists r, w = "-"%char :: r | _ => True end.
Proof. intros c i H. destruct H as [l i _ X|l i _ X|l i _ X]; exact (word_dash _ _ _ _ X). Qed.

Lemma reqs_spec : forall ls dest r, process_reqs ls dest = Good r ->
  forall x, In x r <-> In x dest \/ exists l, In l ls /\ names_file l x.
Proof.
  induction ls as [|l ls IH]; intros dest r H x; cbn [process_reqs] in H.
  - injection H as <-. split; [tauto|]. intros [X|(l & [] & _)]. exact X.
  - destruct (process_req l dest) as [d2| |] eqn:E; try discriminate. cbn [rbind] in H.
    rewrite (IH d2 r H x).
    assert (S1 : In x d2 <-> In x dest \/ names_file l x).
    { destruct l as [s|k i p|ty ins [pc|] n ds lw lh|k p|[] args lw lh ds|[] n|f|[] fs|]; cbn in E;
        try discriminate; injection E as <-; rewrite ?in_app_iff; cbn [In];
        (split; [intros X|intros [X|X]]; try tauto).
      all: try (destruct X as [X|[<-|[]]]; [left; exact X|right; constructor]).
      all: try (inversion X; subst; tauto). }
    rewrite S1. split.
    + intros [[X|X]|(l' & I0 & X)]; [left; exact X|right; exists l; split; [left; reflexivity|exact X]
                                     |right; exists l'; split; [right; exact I0|exact X]].
    + intros [X|(l' & [<-|I0] & X)]; [left; left; exact X|left; right; exact X|].
      right. exists l'. split; [exact I0|exact X].
Qed.

