(** C104: glob patterns of muon test. *)
From Verif Require Import Base M_Glob S_Glob L_Glob.

(** Test names are not empty, and an argument of a program has no NUL byte. *)
Definition plain (p : bytes) : Prop := ~ In "*"%char p /\ ~ In NUL p.

(** C104, no star: the pattern matches itself only. *)
Theorem C104_plain_patterns : forall p s fuel, plain p -> s <> [] -> length p + 1 < fuel ->
  exists b, str_eql_glob fuel p s = Some b /\ (b = true <-> matches p s).
Proof.
  intros p s fuel Pp Ns L. unfold str_eql_glob. destruct fuel as [|fuel]; [lia|]. cbn [impl].
  rewrite Bool.andb_false_r. destruct s as [|d s]; [tauto|]. rewrite loop_literal by (try assumption; lia).
  assert (M : matches p (d :: s) <-> p = d :: s).
  { assert (G : forall p s, ~ In "*"%char p -> matches p s <-> p = s).
    { clear. induction p as [|c p IH]; intros s N.
      - split; [intros M; inversion M; reflexivity|intros <-; constructor].
      - assert (Np : ~ In "*"%char p) by (intros H; apply N; right; exact H). split.
        + intros M. inversion M as [|c' p' s' Nc M' E1 E2|p' w s' M' E1 E2]; subst.
          * f_equal. apply IH; assumption.
          * exfalso. apply N. left. reflexivity.
        + intros <-. constructor; [intros ->; apply N; left; reflexivity|apply IH; [exact Np|reflexivity]]. }
    apply G, Pp. }
  destruct (starts_with p (d :: s)) eqn:Sw.
  - apply starts_spec in Sw. destruct Sw as [r E]. eexists. split; [reflexivity|]. rewrite M, Nat.eqb_eq, E, app_length. cbn [Nat.add].
    split; [|intros H; apply (f_equal (@length ascii)) in H; rewrite app_length in H; lia].
    intros Lr. destruct r; [rewrite app_nil_r; reflexivity|cbn in Lr; lia].
  - eexists. split; [reflexivity|]. split; [discriminate|]. intros H. apply M in H. subst p. exfalso.
    assert (X : starts_with (d :: s) (d :: s) = true) by (apply starts_spec; exists []; rewrite app_nil_r; reflexivity). congruence.
Qed.
Print Assumptions C104_plain_patterns.

(** C104, one star.  Such a pattern matches nothing that it should not.  It matches what it should if the part
    after the star occurs at the very end of the name only.  Missing: the other names, and patterns with more
    stars; see [C104_refuted]. *)
Lemma one_star : forall p q s, plain p -> plain q -> matches (p ++ "*"%char :: q) s <-> exists w, s = p ++ w ++ q.
Proof.
  intros p q s [Np _] [Nq _]. revert s. assert (G : forall q s, ~ In "*"%char q -> matches q s <-> q = s).
  { clear. induction q as [|c p IH]; intros s N.
    - split; [intros M; inversion M; reflexivity|intros <-; constructor].
    - assert (Np : ~ In "*"%char p) by (intros H; apply N; right; exact H). split.
      + intros M. inversion M as [|c' p' s' Nc M' E1 E2|p' w s' M' E1 E2]; subst.
        * f_equal. apply IH; assumption.
        * exfalso. apply N. left. reflexivity.
      + intros <-. constructor; [intros ->; apply N; left; reflexivity|apply IH; [exact Np|reflexivity]]. }
  induction p as [|c p IH]; intros s; cbn [app].
  - split.
    + intros M. inversion M as [|c' p' s' Nc M' E1 E2|p' w s' M' E1 E2]; subst; [tauto|]. exists w.
      apply (G q s' Nq) in M'. rewrite M'. reflexivity.
    + intros [w ->]. constructor. apply G; [exact Nq|reflexivity].
  - assert (Np' : ~ In "*"%char p) by (intros H; apply Np; right; exact H). split.
    + intros M. inversion M as [|c' p' s' Nc M' E1 E2|p' w s' M' E1 E2]; subst; [|exfalso; apply Np; left; reflexivity].
      apply (IH Np') in M'. destruct M' as [w ->]. exists w. reflexivity.
    + intros [w ->]. constructor; [intros ->; apply Np; left; reflexivity|]. apply (IH Np'). exists w. reflexivity.
Qed.
Theorem C104_one_star_partial : forall p q s fuel, plain p -> plain q -> s <> [] ->
  length p + length q + length s + 6 < fuel ->
  exists b, str_eql_glob fuel (p ++ "*"%char :: q) s = Some b /\
    (b = true <-> matches (p ++ "*"%char :: q) s /\ (forall w r, q <> [] -> s = p ++ w ++ q ++ r -> r = [])).
Proof.
  intros p q s fuel Pp Pq Ns L. setoid_rewrite (one_star p q s Pp Pq). unfold str_eql_glob. destruct fuel as [|fuel]; [lia|].
  cbn [impl]. rewrite Bool.andb_false_r. destruct s as [|d s]; [tauto|]. set (s0 := d :: s) in *. clearbody s0. clear d s.
  change ("*"%char :: q) with (STAR :: q). rewrite loop_prefix by (try assumption; lia). destruct (starts_with p s0) eqn:Sw.
  2:{ eexists. split; [reflexivity|]. split; [discriminate|]. intros [[w E] _]. exfalso.
      assert (X : starts_with p s0 = true) by (apply starts_spec; eauto). congruence. }
  apply starts_spec in Sw. destruct Sw as [t E]. rewrite E, skipn_app, skipn_all, Nat.sub_diag. cbn [skipn app Nat.add].
  assert (Lt : length s0 = length p + length t) by (rewrite E; apply app_length).
  destruct (fuel - length p) as [|f] eqn:Ef; [lia|]. cbn [loop]. change (ceqb STAR STAR) with true. cbv iota.
  destruct (list_eq_dec ascii_dec q []) as [->|Nq].
  - destruct f as [|f]; [lia|]. destruct f as [|f]; [lia|]. cbn [scan impl negb andb].
    assert (R : forall n m, loop (S (S f)) (skipn n []) t m = Some (Some m)) by (intros n m; rewrite skipn_nil; reflexivity).
    rewrite R. eexists. split; [reflexivity|]. split.
    + intros _. split; [exists t; rewrite app_nil_r; reflexivity|]. intros w r X. tauto.
    + intros _. apply Nat.eqb_eq. rewrite app_length. destruct (length t =? 0) eqn:Z; lia.
  - destruct (scan_literal q Pq Nq t 0 f ltac:(lia)) as [(w & r & Et & Sc & Fi)|(Na & Sc)]; rewrite Sc.
    + cbn [Nat.add]. destruct (length q =? 0) eqn:Z; [apply Nat.eqb_eq in Z; destruct q; [tauto|discriminate]|].
      rewrite skipn_all2 by lia. destruct f as [|f]; [lia|]. cbn [loop]. eexists. split; [reflexivity|].
      rewrite Nat.eqb_eq, Et, !app_length. split.
      * intros Lr. assert (r = []) by (destruct r; [reflexivity|cbn in Lr; lia]). subst r. rewrite app_nil_r in *. split; [exists w; reflexivity|].
        intros w' r' _ E'. apply app_inv_head in E'. assert (E2 := E'). rewrite <- Et in E2. apply Fi in E2.
        assert (X : length (w ++ q) = length (w' ++ q ++ r')) by congruence. rewrite !app_length in X.
        destruct r'; [reflexivity|cbn in X; lia].
      * intros [_ H]. rewrite (H w r Nq eq_refl). cbn. lia.
    + cbn [Nat.eqb skipn]. rewrite loop_literal by (try assumption; lia).
      replace (starts_with q []) with false by (destruct q; [tauto|reflexivity]).
      eexists. split; [reflexivity|]. split; [discriminate|]. intros [[w Ew] _]. exfalso. apply app_inv_head in Ew.
      apply (Na w []). rewrite app_nil_r. exact Ew.
Qed.
Print Assumptions C104_one_star_partial.
Example ex_star : exists b, str_eql_glob 100 (B "unit*_ok") (B "unit/list_ok") = Some b /\ b = true /\
  plain (B "unit") /\ plain (B "_ok") /\ matches (B "unit*_ok") (B "unit/list_ok").
Proof.
  exists true. split; [reflexivity|]. split; [reflexivity|].
  split; [split; intros H; cbn in H; intuition discriminate|]. split; [split; intros H; cbn in H; intuition discriminate|].
  repeat (apply mt_char; [discriminate|]). apply (mt_star (B "_ok") (B "/list") (B "_ok")).
  repeat (apply mt_char; [discriminate|]). constructor.
Qed.
(** A pattern that ends in its only star matches exactly what begins with the rest. *)
Theorem C104_beginnings : forall p s fuel, plain p -> s <> [] -> length p + length s + 6 < fuel ->
  exists b, str_eql_glob fuel (p ++ B "*") s = Some b /\ (b = true <-> matches (p ++ B "*") s).
Proof.
  intros p s fuel Pp Ns L. assert (Pq : plain []) by (split; intros []).
  destruct (C104_one_star_partial p [] s fuel Pp Pq Ns ltac:(cbn; lia)) as (b & E & R). exists b. split; [exact E|].
  rewrite R. split; [intros [H _]; exact H|]. intros H. split; [exact H|]. intros w r X. tauto.
Qed.
Print Assumptions C104_beginnings.

(** Matching ends, for all patterns and names. *)
Theorem C104_matching_ends : forall p s fuel, length p * (length s + 3) + 1 < fuel -> str_eql_glob fuel p s <> None.
Proof.
  intros p s fuel L. unfold str_eql_glob. destruct (proj1 (ends fuel) true p s L) as (r & E & _). rewrite E.
  destruct r; discriminate.
Qed.
Print Assumptions C104_matching_ends.

Theorem C104_refuted :
  (* what is after the star occurs earlier as well *)
  matches (B "*_ok") (B "is_ok_ok") /\ str_eql_glob 100 (B "*_ok") (B "is_ok_ok") = Some false /\
  (* a star that stands for nothing *)
  matches (B "*a*") (B "a") /\ str_eql_glob 100 (B "*a*") (B "a") = Some false /\
  matches (B "a*b*c") (B "abc") /\ str_eql_glob 100 (B "a*b*c") (B "abc") = Some false /\
  (* something that should not match *)
  ~ matches (B "*a*a") (B "aab") /\ str_eql_glob 100 (B "*a*a") (B "aab") = Some true.
Proof.
  split; [|split; [reflexivity|split; [|split; [reflexivity|split; [|split; [reflexivity|split; [|reflexivity]]]]]]].
  - apply (mt_star (B "_ok") (B "is_ok") (B "_ok")). repeat (apply mt_char; [discriminate|]). constructor.
  - apply (mt_star (B "a*") [] (B "a")). apply mt_char; [discriminate|]. apply (mt_star [] [] []). constructor.
  - apply mt_char; [discriminate|]. apply (mt_star (B "b*c") [] (B "bc")). apply mt_char; [discriminate|].
    apply (mt_star (B "c") [] (B "c")). apply mt_char; [discriminate|]. constructor.
  - assert (La : forall p s, matches p s -> forall q, p = q ++ B "a" -> exists t, s = t ++ B "a").
    { induction 1 as [|c p s Nc M IH|p w s M IH]; intros q E.
      - destruct q; discriminate.
      - destruct q as [|x q]; [injection E as -> ->; inversion M; subst; exists []; reflexivity|].
        injection E as <- E. destruct (IH q E) as [t ->]. exists (c :: t). reflexivity.
      - destruct q as [|x q]; [discriminate|]. injection E as _ E. destruct (IH q E) as [t ->]. exists (w ++ t). apply app_assoc. }
    intros M. destruct (La _ _ M (B "*a*") eq_refl) as [t E].
    assert (X : last (B "aab") NUL = last (t ++ B "a") NUL) by (rewrite E; reflexivity).
    change (B "a") with ["a"%char] in X. rewrite last_last in X. vm_compute in X. discriminate X.
Qed.
Print Assumptions C104_refuted.
