From Verif Require Import Base M_Hash M_Htab S_Htab L_Hash.

Section H.
Context {V : Type}.
Variable hash_of : bytes -> N.
Notation htab := (htab V).
Notation keyindex := (keyindex hash_of).
Notation cell := (option (bytes * option V)).

Lemma keyequal_eq a b : keyequal hash_of a b = true <-> a = b.
Proof.
  unfold keyequal. rewrite !andb_true_iff, beqb_eq. split; [tauto|].
  intros ->. rewrite N.eqb_refl, Nat.eqb_refl. auto.
Qed.

Definition full (s : cell) : bool := match s with Some _ => true | None => false end.
Definition at_ (h : htab) i k v := i < length (hslots h) /\ hslot h i = Some (k, v).
Definition hstart (h : htab) k := home0 (hcap h) (hash_of k).

Record hinv (h : htab) : Prop := {
  hi_pow : exists k, hcap h = 2 ^ k;
  hi_cap : 4 <= hcap h;
  hi_len : length (hslots h) = hcap h;
  hi_cnt : length (filter full (hslots h)) <= hlen h;
  hi_load : hlen h <= S (Nat.div2 (hcap h));
  hi_path : forall i k v, at_ h i k v ->
     exists d, d < hcap h /\ pos (hcap h) (hstart h k) d = i /\
       forall d', d' < d -> full (hslot h (pos (hcap h) (hstart h k) d')) = true;
  hi_uniq : forall i j k v w, at_ h i k v -> at_ h j k w -> i = j;
}.

Lemma div2_lt c : 4 <= c -> S (Nat.div2 c) < c.
Proof. intros. pose proof (Nat.div2_odd c). destruct (Nat.odd c); simpl in *; lia. Qed.

Lemma hfind_empty (l : list cell) : length (filter full l) < length l ->
  exists i, i < length l /\ nth i l None = None.
Proof.
  induction l as [|x l IH]; simpl; [lia|]. intros H. destruct x; simpl in H.
  - destruct IH as (i & Hi & E); [lia|]. exists (S i). split; [lia|exact E].
  - exists 0. split; [lia|reflexivity].
Qed.

Lemma hi_has_empty h : hinv h -> exists i, i < hcap h /\ hslot h i = None.
Proof.
  intros I. destruct (hfind_empty (hslots h)) as (i & Hi & E).
  - pose proof (hi_cnt _ I). pose proof (hi_load _ I). pose proof (div2_lt _ (hi_cap _ I)).
    rewrite (hi_len _ I). lia.
  - exists i. rewrite <- (hi_len _ I). auto.
Qed.

Lemma hstart_lt h k : hinv h -> hstart h k < hcap h.
Proof.
  intros I. destruct (hi_pow _ I) as [n Hn]. unfold hstart, home0. rewrite (land_capm _ _ _ Hn).
  pose proof (hi_cap _ I). pose proof (N.mod_upper_bound (hash_of k) (N.of_nat (hcap h))). lia.
Qed.

Definition hstops (k : bytes) (s : cell) : bool :=
  match s with None => true | Some (k', _) => keyequal hash_of k' k end.

Lemma keyindex_from_spec (h : htab) k n0 : hcap h = 2 ^ n0 ->
  forall n d, d + n = hcap h ->
  (exists d2, d <= d2 < hcap h /\ hstops k (hslot h (pos (hcap h) (hstart h k) d2)) = true) ->
  exists d2, d <= d2 < hcap h /\
    keyindex_from hash_of n h k (pos (hcap h) (hstart h k) d) = Some (pos (hcap h) (hstart h k) d2) /\
    hstops k (hslot h (pos (hcap h) (hstart h k) d2)) = true /\
    forall d', d <= d' < d2 -> hstops k (hslot h (pos (hcap h) (hstart h k) d')) = false.
Proof.
  intros Hk. assert (Hc : 0 < hcap h) by (rewrite Hk; apply pow2_pos).
  induction n as [|n IH]; intros d Hd (d2 & Hd2 & Hs); [lia|].
  cbn [keyindex_from].
  destruct (hstops k (hslot h (pos (hcap h) (hstart h k) d))) eqn:E.
  - exists d. split; [lia|]. split; [|split; [exact E|intros; lia]].
    unfold hstops in E. destruct (hslot h (pos (hcap h) (hstart h k) d)) as [[k' v]|]; [now rewrite E|reflexivity].
  - assert (d <> d2) by (intro; subst; congruence).
    destruct (IH (S d) ltac:(lia)) as (d3 & H3 & E3 & S3 & F3).
    { exists d2. split; [lia|assumption]. }
    exists d3. split; [lia|]. split; [|split; [exact S3|]].
    + rewrite <- E3. rewrite (next_mod _ _ n0 Hk), pos_next by assumption.
      unfold hstops in E. destruct (hslot h (pos (hcap h) (hstart h k) d)) as [[k' v]|]; [now rewrite E|discriminate].
    + intros d' Hd'. destruct (Nat.eq_dec d' d); [now subst|]. apply F3. lia.
Qed.

Lemma keyindex_spec h k : hinv h ->
  exists d, d < hcap h /\ keyindex h k = Some (pos (hcap h) (hstart h k) d) /\
    (forall d', d' < d -> full (hslot h (pos (hcap h) (hstart h k) d')) = true) /\
    ((hslot h (pos (hcap h) (hstart h k) d) = None /\ (forall i v, ~ at_ h i k v)) \/
     (exists v, at_ h (pos (hcap h) (hstart h k) d) k v)).
Proof.
  intros I. destruct (hi_pow _ I) as [n0 Hk]. pose proof (hstart_lt h k I) as Hst.
  assert (Hc : 0 < hcap h) by (pose proof (hi_cap _ I); lia).
  destruct (hi_has_empty h I) as (e & He & Ee).
  destruct (pos_surj (hcap h) (hstart h k) e Hst He) as (de & Hde & Epe).
  destruct (keyindex_from_spec h k n0 Hk (hcap h) 0 ltac:(lia)) as (d & Hd & Ep & Hs & Hf).
  { exists de. split; [lia|]. rewrite Epe, Ee. reflexivity. }
  rewrite pos_0 in Ep by assumption. exists d. split; [lia|]. split; [exact Ep|].
  split.
  { intros d' Hd'. specialize (Hf d' ltac:(lia)).
    destruct (hslot h (pos (hcap h) (hstart h k) d')); [reflexivity|discriminate]. }
  assert (Hpl : pos (hcap h) (hstart h k) d < length (hslots h)).
  { rewrite (hi_len _ I). now apply pos_lt. }
  remember (hslot h (pos (hcap h) (hstart h k) d)) as s eqn:Es. symmetry in Es.
  destruct s as [[k' v]|].
  - right. cbn [hstops] in Hs. apply keyequal_eq in Hs. subst k'. exists v. split; assumption.
  - left. split; [reflexivity|]. intros i v Hst2.
    destruct (hi_path _ I _ _ _ Hst2) as (d2 & Hd2 & Ei & Hp).
    destruct (Nat.lt_trichotomy d d2) as [L|[L|L]].
    + specialize (Hp d L). rewrite Es in Hp. discriminate.
    + subst d2. rewrite Ei in Es. destruct Hst2 as (_ & E2). congruence.
    + specialize (Hf d2 ltac:(lia)). rewrite Ei in Hf.
      destruct Hst2 as (Hil & E2). rewrite E2 in Hf. cbn [hstops] in Hf.
      assert (keyequal hash_of k k = true) by now apply keyequal_eq. congruence.
Qed.

Lemma hslot_upd_same (h h' : htab) i s : hslots h' = upd i s (hslots h) -> i < length (hslots h) -> hslot h' i = s.
Proof. intros E Hi. unfold hslot. rewrite E. apply nth_error_nth. now apply nth_error_upd_same. Qed.
Lemma hslot_upd_other (h h' : htab) i j s : hslots h' = upd i s (hslots h) -> i <> j -> hslot h' j = hslot h j.
Proof.
  intros E Hi. unfold hslot. rewrite E.
  pose proof (nth_error_upd_other i j s (hslots h) Hi) as H.
  destruct (nth_error (hslots h) j) eqn:E2.
  - rewrite (nth_error_nth _ _ _ E2). now apply nth_error_nth.
  - apply nth_error_None in E2. rewrite !nth_overflow; auto. now rewrite upd_length.
Qed.
Lemma hcount_upd (l : list cell) i s : i < length l ->
  length (filter full (upd i s l)) + (if full (nth i l None) then 1 else 0) =
  length (filter full l) + (if full s then 1 else 0).
Proof.
  revert i. induction l as [|x l IH]; intros [|i] Hi; simpl in Hi; try lia.
  - simpl. destruct (full s), (full x); simpl; lia.
  - simpl. specialize (IH i ltac:(lia)). destruct (full x); simpl; lia.
Qed.

(** put a key at the end of its probe path *)
Lemma hinsert h k v ln d :
  hinv h -> d < hcap h ->
  hslot h (pos (hcap h) (hstart h k) d) = None ->
  (forall d', d' < d -> full (hslot h (pos (hcap h) (hstart h k) d')) = true) ->
  (forall i w, ~ at_ h i k w) ->
  S (length (filter full (hslots h))) <= ln -> ln <= S (Nat.div2 (hcap h)) ->
  let i := pos (hcap h) (hstart h k) d in
  let h' := {| hslots := upd i (Some (k, v)) (hslots h); hcap := hcap h; hlen := ln |} in
  hinv h' /\ (forall j k' w, at_ h' j k' w <-> at_ h j k' w \/ (j = i /\ k' = k /\ w = v)).
Proof.
  intros I Hd He Hpath Hnot Hcnt Hld i h'.
  assert (Hil : i < length (hslots h)).
  { unfold i. rewrite (hi_len _ I). apply pos_lt. pose proof (hi_cap _ I). lia. }
  assert (Hsame : hslot h' i = Some (k, v)) by (now apply (hslot_upd_same h)).
  assert (Hoth : forall j, i <> j -> hslot h' j = hslot h j).
  { intros j Hj. eapply hslot_upd_other; [reflexivity|assumption]. }
  assert (Hlen : length (hslots h') = length (hslots h)) by apply upd_length.
  assert (Hst : forall j k' w, at_ h' j k' w <-> at_ h j k' w \/ (j = i /\ k' = k /\ w = v)).
  { intros j k' w. unfold at_. rewrite Hlen. split.
    - intros (Hj & E). destruct (Nat.eq_dec i j) as [<-|Hne].
      + right. rewrite Hsame in E. now inversion E.
      + left. rewrite Hoth in E by assumption. auto.
    - intros [(Hj & E) | (-> & -> & ->)]; [|auto].
      assert (i <> j) by (intros <-; unfold i in E; congruence). rewrite Hoth by assumption. auto. }
  assert (Hne : forall j, full (hslot h j) = true -> full (hslot h' j) = true).
  { intros j Hj. destruct (Nat.eq_dec i j) as [<-|Hn]; [now rewrite Hsame|now rewrite Hoth]. }
  split; [|exact Hst]. constructor.
  - apply (hi_pow _ I).
  - apply (hi_cap _ I).
  - rewrite Hlen. apply (hi_len _ I).
  - pose proof (hcount_upd (hslots h) i (Some (k, v)) Hil) as C.
    unfold hslot in He. fold i in He. rewrite He in C. simpl in C. simpl. lia.
  - exact Hld.
  - intros j k' w Hs. apply Hst in Hs. destruct Hs as [Hs | (-> & -> & ->)].
    + destruct (hi_path _ I _ _ _ Hs) as (d2 & Hd2 & Ep & Hp). exists d2. repeat split; auto.
    + exists d. repeat split; auto.
  - intros j1 j2 k' w1 w2 H1 H2. apply Hst in H1, H2.
    destruct H1 as [H1|(-> & -> & ->)], H2 as [H2|(E1 & E2 & E3)]; subst; auto.
    + eapply (hi_uniq _ I); eauto.
    + exfalso. eapply Hnot; eauto.
    + exfalso. eapply Hnot; eauto.
Qed.

Definition nodup_cells (l : list cell) : Prop :=
  NoDup (map fst (flat_map (fun s => match s with Some kv => [kv] | None => [] end) l)).

Lemma flat_count (l : list cell) :
  length (flat_map (fun s => match s with Some kv => [kv] | None => [] end) l) = length (filter full l).
Proof. induction l as [|[kv|] l IH]; simpl; auto. Qed.

Lemma hcopy_spec (old : list cell) : forall h, hinv h -> nodup_cells old ->
  (forall k v w i, In (Some (k, v)) old -> ~ at_ h i k w) ->
  length (filter full (hslots h)) + length (filter full old) <= hlen h ->
  exists h', hcopy hash_of old h = Some h' /\ hinv h' /\ hcap h' = hcap h /\ hlen h' = hlen h /\
    (forall k v, (exists i, at_ h' i k v) <-> (exists i, at_ h i k v) \/ In (Some (k, v)) old).
Proof.
  induction old as [|[[k v]|] old IH]; intros h I Hnd Hnot Hcnt.
  - exists h. do 4 (split; [auto|]). intros. simpl. tauto.
  - unfold nodup_cells in Hnd. simpl in Hnd. inversion Hnd as [|? ? Hnin Hnd']; subst.
    cbn [hcopy].
    assert (Hns : forall i w, ~ at_ h i k w) by (intros i w; apply (Hnot k v w i); now left).
    destruct (keyindex_spec h k I) as (d & Hdl & -> & Hp & [[He _]|[w Hs]]); [|exfalso; eapply Hns; eauto].
    simpl in Hcnt.
    destruct (hinsert h k v (hlen h) d I Hdl He Hp Hns) as [I2 Hst2]; [lia|apply (hi_load _ I)|].
    set (i := pos (hcap h) (hstart h k) d) in *.
    set (h2 := {| hslots := _; hcap := _; hlen := _ |}) in *.
    change (hset h i (Some (k, v))) with h2.
    destruct (IH h2 I2 Hnd') as (h' & E & I' & Ec & El & Hst).
    { intros k' v' w j Hin Hs. apply Hst2 in Hs. destruct Hs as [Hs|(-> & -> & ->)].
      - eapply (Hnot k' v' w j); eauto. now right.
      - apply Hnin. apply in_map_iff. exists (k, v'). split; [reflexivity|].
        apply in_flat_map. exists (Some (k, v')). split; [assumption|now left]. }
    { assert (i < length (hslots h)). { unfold i. rewrite (hi_len _ I). apply pos_lt. pose proof (hi_cap _ I). lia. }
      pose proof (hcount_upd (hslots h) i (Some (k, v)) H) as C.
      unfold hslot in He. fold i in He. rewrite He in C. simpl in C. simpl. lia. }
    exists h'. split; [exact E|]. do 3 (split; [assumption|]).
    intros k' w. rewrite Hst. split.
    + intros [(j & Hj)|Hin]; [|right; now right].
      apply Hst2 in Hj. destruct Hj as [Hj|(-> & -> & ->)]; [left; eauto|right; now left].
    + intros [(j & Hj)|[Hin|Hin]].
      * left. exists j. apply Hst2. now left.
      * left. exists i. apply Hst2. right. now inversion Hin.
      * now right.
  - destruct (IH h I) as (h' & E & I' & Ec & El & Hst); auto.
    { intros k v w i Hin. apply (Hnot k v w i). now right. }
    exists h'. split; [exact E|]. do 3 (split; [assumption|]).
    intros k v. rewrite Hst. simpl. split; [tauto|]. intros [H|[H|H]]; [auto|discriminate|auto].
Qed.

Lemma hempty_inv c ln : (exists k, c = 2 ^ k) -> 4 <= c -> ln <= S (Nat.div2 c) ->
  hinv {| hslots := repeat None c; hcap := c; hlen := ln |} /\
  forall i k v, ~ at_ {| hslots := repeat None c; hcap := c; hlen := ln |} i k v.
Proof.
  intros Hp Hc Hl.
  assert (Hs : forall i, hslot {| hslots := repeat (None : cell) c; hcap := c; hlen := ln |} i = None).
  { intros i. unfold hslot. simpl. clear. revert i. induction c; intros [|i]; simpl; auto. }
  assert (Hns : forall i k v, ~ at_ {| hslots := repeat (None : cell) c; hcap := c; hlen := ln |} i k v).
  { intros i k v (_ & E). rewrite Hs in E. discriminate. }
  split; [|exact Hns]. constructor; simpl; auto.
  - apply repeat_length.
  - assert (F : filter full (repeat (None : cell) c) = []) by (clear; induction c; simpl; auto).
    rewrite F. simpl. lia.
  - intros i k v H. exfalso. eapply Hns; eauto.
  - intros i j k v w H. exfalso. eapply Hns; eauto.
Qed.

Lemma at_in (h : htab) k v : (exists i, at_ h i k v) <-> In (Some (k, v)) (hslots h).
Proof.
  unfold at_, hslot. split.
  - intros (i & Hl & E). rewrite <- E. now apply nth_In.
  - intros H. apply (In_nth _ _ None) in H as (i & Hi & E). eauto.
Qed.

Lemma hinv_nodup h : hinv h -> nodup_cells (hslots h).
Proof.
  intros I. unfold nodup_cells.
  assert (H : forall i j k v w, nth_error (hslots h) i = Some (Some (k, v)) -> nth_error (hslots h) j = Some (Some (k, w)) -> i = j).
  { intros i j k v w H1 H2. apply (hi_uniq _ I i j k v w); split.
    - apply nth_error_Some; congruence.
    - unfold hslot. now apply nth_error_nth.
    - apply nth_error_Some; congruence.
    - unfold hslot. now apply nth_error_nth. }
  revert H. generalize (hslots h). induction l as [|[[k v]|] l IH]; intros H; simpl.
  - constructor.
  - constructor.
    + intros Hin. apply in_map_iff in Hin as ([k2 w] & E & Hin). simpl in E. subst k2.
      apply in_flat_map in Hin as (s & Hs & Hk). destruct s as [kv|]; [|contradiction]. destruct Hk as [->|[]].
      apply In_nth_error in Hs as (j & Hj).
      specialize (H 0 (S j) k v w eq_refl Hj). discriminate.
    + apply IH. intros i j k' v' w' H1 H2. specialize (H (S i) (S j) k' v' w' H1 H2). lia.
  - apply IH. intros i j k' v' w' H1 H2. specialize (H (S i) (S j) k' v' w' H1 H2). lia.
Qed.

Lemma div2_double c : Nat.div2 (c * 2) = c.
Proof. rewrite Nat.mul_comm. apply Nat.div2_double. Qed.

Lemma hgrow_spec h : hinv h -> exists h', hgrow hash_of h = Some h' /\ hinv h' /\ hlen h' <= Nat.div2 (hcap h') /\
  forall k v, (exists i, at_ h' i k v) <-> (exists i, at_ h i k v).
Proof.
  intros I. unfold hgrow. destruct (Nat.ltb_spec (Nat.div2 (hcap h)) (hlen h)) as [L|L].
  - destruct (hi_pow _ I) as [n Hn]. pose proof (hi_load _ I) as Hl. pose proof (div2_lt _ (hi_cap _ I)).
    destruct (hempty_inv (hcap h * 2) (hlen h)) as [I0 N0].
    { exists (S n). rewrite Hn. simpl. lia. }
    { pose proof (hi_cap _ I). lia. }
    { rewrite div2_double. lia. }
    destruct (hcopy_spec (hslots h) _ I0 (hinv_nodup h I)) as (h' & E & I' & Ec & El & Hst).
    { intros. apply N0. }
    { simpl. assert (F : filter full (repeat (None : cell) (hcap h * 2)) = []) by (clear; induction (hcap h * 2); simpl; auto).
      rewrite F. simpl. apply (hi_cnt _ I). }
    exists h'. split; [exact E|]. split; [assumption|]. split.
    { rewrite Ec, El. simpl. rewrite div2_double. lia. }
    intros k v. rewrite Hst, <- at_in. split; [|now right]. intros [(i & Hi)|H0]; [|exact H0].
    exfalso. eapply N0; eauto.
  - exists h. split; [reflexivity|]. split; [assumption|]. split; [lia|]. intros. reflexivity.
Qed.

(** the put: the key is at the returned slot, everything else unchanged *)
Lemma htabput_spec h k : hinv h ->
  exists h' i v, htabput hash_of h k = Some (h', i) /\ hinv h' /\ at_ h' i k v /\
    (forall w, (exists j, at_ h j k w) -> v = w) /\ ((forall j w, ~ at_ h j k w) -> v = None) /\
    (forall k' w, k' <> k -> (exists j, at_ h' j k' w) <-> (exists j, at_ h j k' w)).
Proof.
  intros I. unfold htabput. destruct (hgrow_spec h I) as (h1 & -> & I1 & L1 & S1).
  destruct (keyindex_spec h1 k I1) as (d & Hd & -> & Hp & [[He Hn]|[w0 Hs]]).
  - rewrite He.
    destruct (hinsert h1 k None (S (hlen h1)) d I1 Hd He Hp Hn) as [I2 Hst2];
      [pose proof (hi_cnt _ I1); lia|lia|].
    eexists. eexists. exists None. split; [reflexivity|]. split; [exact I2|].
    split; [apply Hst2; right; auto|]. split; [|split].
    + intros w Hw. apply S1 in Hw as (j & Hj). exfalso. eapply Hn; eauto.
    + auto.
    + intros k' w Hne. rewrite <- S1. split.
      * intros (j & Hj). apply Hst2 in Hj as [Hj|(_ & -> & _)]; [eauto|congruence].
      * intros (j & Hj). exists j. apply Hst2. now left.
  - pose proof Hs as [_ E]. rewrite E. exists h1. eexists. exists w0. split; [reflexivity|].
    split; [assumption|]. split; [exact Hs|]. split; [|split].
    + intros w Hw. apply S1 in Hw as (j & Hj).
      assert (pos (hcap h1) (hstart h1 k) d = j) by (eapply (hi_uniq _ I1); eauto). subst j.
      destruct Hs as [_ Ha], Hj as [_ Hb]. congruence.
    + intros Hno. exfalso. destruct (proj1 (S1 k w0)) as (j & Hj); [eauto|]. eapply Hno; eauto.
    + intros. apply S1.
Qed.

Lemma hwrite_spec h i k v w : hinv h -> at_ h i k v ->
  hinv (hwrite h i w) /\ at_ (hwrite h i w) i k w /\
  (forall k' u, k' <> k -> (exists j, at_ (hwrite h i w) j k' u) <-> (exists j, at_ h j k' u)).
Proof.
  intros I [Hl E]. unfold hwrite. rewrite E.
  set (h2 := hset h i (Some (k, w))).
  assert (Hsame : hslot h2 i = Some (k, w)) by (now apply (hslot_upd_same h)).
  assert (Hoth : forall j, i <> j -> hslot h2 j = hslot h j).
  { intros j Hj. eapply hslot_upd_other; [reflexivity|assumption]. }
  assert (Hlen : length (hslots h2) = length (hslots h)) by apply upd_length.
  assert (Hex : forall j k' u, at_ h2 j k' u -> exists u', at_ h j k' u').
  { intros j k' u [Hj E2]. destruct (Nat.eq_dec i j) as [<-|Hne].
    - rewrite Hsame in E2. inversion E2; subst. exists v. split; assumption.
    - rewrite Hoth in E2 by assumption. exists u. split; [congruence|assumption]. }
  assert (Hne : forall j, full (hslot h j) = true -> full (hslot h2 j) = true).
  { intros j Hj. destruct (Nat.eq_dec i j) as [<-|Hn]; [now rewrite Hsame|now rewrite Hoth]. }
  split; [|split].
  - constructor.
    + apply (hi_pow _ I).
    + apply (hi_cap _ I).
    + rewrite Hlen. apply (hi_len _ I).
    + pose proof (hcount_upd (hslots h) i (Some (k, w)) Hl) as C. unfold hslot in E. rewrite E in C. simpl in C.
      pose proof (hi_cnt _ I). unfold h2, hset. cbn [hslots hlen]. lia.
    + apply (hi_load _ I).
    + intros j k' u H. apply Hex in H as (u' & H). destruct (hi_path _ I _ _ _ H) as (d & Hd & Ep & Hp).
      exists d. repeat split; auto.
    + intros j1 j2 k' w1 w2 H1 H2. apply Hex in H1 as (? & H1). apply Hex in H2 as (? & H2).
      eapply (hi_uniq _ I); eauto.
  - split; [now rewrite Hlen|assumption].
  - intros k' u Hk. split; intros (j & Hj & E2).
    + destruct (Nat.eq_dec i j) as [<-|Hn]; [rewrite Hsame in E2; inversion E2; congruence|].
      rewrite Hoth in E2 by assumption. exists j. split; [congruence|assumption].
    + exists j. split; [congruence|]. rewrite Hoth; [assumption|]. intros <-. congruence.
Qed.

Definition hrep (h : htab) (m : bytes -> option V) : Prop :=
  forall k, match m k with
            | Some v => exists i, at_ h i k (Some v)
            | None => forall i v, ~ at_ h i k (Some v)
            end.

Lemma hrep_get h m k : hinv h -> hrep h m -> htabget hash_of h k = Some (m k).
Proof.
  intros I R. unfold htabget. destruct (keyindex_spec h k I) as (d & Hd & -> & Hp & [[He Hn]|[w0 Hs]]).
  - rewrite He. specialize (R k). destruct (m k); [|reflexivity]. destruct R as (i & Hi). exfalso. eapply Hn; eauto.
  - pose proof Hs as [_ E]. rewrite E. f_equal. specialize (R k). destruct (m k) as [v|].
    + destruct R as (i & Hi). assert (i = pos (hcap h) (hstart h k) d) by (eapply (hi_uniq _ I); eauto).
      subst i. destruct Hi as [_ E2]. congruence.
    + destruct w0; [exfalso; eapply R; eauto|reflexivity].
Qed.

Lemma at_det h i j k v w : hinv h -> at_ h i k v -> at_ h j k w -> v = w.
Proof. intros I H1 H2. assert (i = j) by (eapply (hi_uniq _ I); eauto). subst. destruct H1, H2. congruence. Qed.

Lemma htstep_spec h m o : hinv h -> hrep h m ->
  exists h', htstep hash_of h o = Some h' /\ hinv h' /\ hrep h' (htspec_step m o).
Proof.
  intros I R. destruct o as [k|k v]; cbn [htstep].
  - destruct (htabput_spec h k I) as (h' & i & w & -> & I' & A & Hold & Hnew & Hoth). simpl.
    exists h'. split; [reflexivity|]. split; [assumption|]. intros k'.
    destruct (bytes_eq_dec k' k) as [->|Hne].
    + specialize (R k). destruct (m k) as [v|].
      * exists i. rewrite <- (Hold _ R). assumption.
      * intros j u Hj. assert (w = Some u) by (eapply at_det; [exact I'|exact A|exact Hj]). subst w.
        destruct (keyindex_spec h k I) as (d & Hd & _ & _ & [[He Hn]|[w0 Hs]]).
        -- specialize (Hnew Hn). discriminate.
        -- assert (Some u = w0) by eauto. subst. eapply R; eauto.
    + specialize (R k'). destruct (m k') as [v|].
      * now apply Hoth.
      * intros j u Hj. destruct (proj1 (Hoth k' (Some u) Hne)) as (j2 & Hj2); [eauto|]. eapply R; eauto.
  - destruct (htabput_spec h k I) as (h' & i & w & -> & I' & A & _ & _ & Hoth).
    destruct (hwrite_spec h' i k w (Some v) I' A) as (I2 & A2 & Hoth2).
    exists (hwrite h' i (Some v)). split; [reflexivity|]. split; [assumption|]. intros k'. simpl.
    destruct (beqb_spec k k') as [<-|Hne].
    + exists i. assumption.
    + assert (Hne' : k' <> k) by congruence. specialize (R k'). destruct (m k') as [u|].
      * apply Hoth2; [assumption|]. now apply Hoth.
      * intros j u Hj. destruct (proj1 (Hoth2 k' (Some u) Hne')) as (j2 & Hj2); [eauto|].
        destruct (proj1 (Hoth k' (Some u) Hne')) as (j3 & Hj3); [eauto|]. eapply R; eauto.
Qed.

Lemma htrun_spec ops : forall h m, hinv h -> hrep h m ->
  exists h', htrun hash_of h ops = Some h' /\ hinv h' /\ hrep h' (fold_left htspec_step ops m).
Proof.
  induction ops as [|o ops IH]; intros h m I R; [exists h; auto|].
  cbn [htrun fold_left]. destruct (htstep_spec h m o I R) as (h1 & -> & I1 & R1). now apply IH.
Qed.

Lemma mkhtab_inv k : 4 <= 2 ^ k -> hinv (mkhtab (2 ^ k)) /\ hrep (mkhtab (2 ^ k)) (fun _ => None).
Proof.
  intros H. destruct (hempty_inv (2 ^ k) 0) as [I N]; eauto; [lia|]. split; [exact I|]. intros key i v. apply N.
Qed.
End H.
