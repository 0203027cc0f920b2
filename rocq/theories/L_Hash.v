From Verif Require Import Base M_Hash S_Hash.

(** ** index arithmetic *)
Lemma land_capm c n k : c = 2 ^ k -> N.land n (N.of_nat c - 1) = (n mod N.of_nat c)%N.
Proof.
  intros ->. rewrite Nat2N.inj_pow. change (N.of_nat 2) with 2%N.
  rewrite <- N.land_ones. f_equal. rewrite N.ones_equiv. lia.
Qed.

Lemma pow2_pos k : 0 < 2 ^ k.
Proof. pose proof (Nat.pow_nonzero 2 k). lia. Qed.

Lemma home_lt c hv k : c = 2 ^ k -> home c hv < c.
Proof.
  intros E. unfold home. rewrite (land_capm _ _ _ E). pose proof (pow2_pos k).
  pose proof (N.mod_upper_bound (N.shiftr hv 7) (N.of_nat c)). lia.
Qed.

Lemma next_mod c i k : c = 2 ^ k -> next c i = (i + 1) mod c.
Proof.
  intros E. unfold next. rewrite (land_capm _ _ _ E).
  replace (N.of_nat i + 1)%N with (N.of_nat (i + 1)) by lia.
  pose proof (pow2_pos k).
  rewrite <- Nat2N.inj_mod by lia. now rewrite Nat2N.id.
Qed.

Definition pos (c s d : nat) : nat := (s + d) mod c.

Lemma pos_lt c s d : 0 < c -> pos c s d < c.
Proof. intros. apply Nat.mod_upper_bound. lia. Qed.
Lemma pos_0 c s : s < c -> pos c s 0 = s.
Proof. intros. unfold pos. rewrite Nat.add_0_r. now apply Nat.mod_small. Qed.
Lemma pos_next c s d : 0 < c -> (pos c s d + 1) mod c = pos c s (S d).
Proof.
  intros. unfold pos. rewrite Nat.add_mod_idemp_l by lia. f_equal. lia.
Qed.
Lemma pos_surj c s i : s < c -> i < c -> exists d, d < c /\ pos c s d = i.
Proof.
  intros Hs Hi. unfold pos. destruct (Nat.le_gt_cases s i).
  - exists (i - s). split; [lia|]. replace (s + (i - s)) with i by lia. now apply Nat.mod_small.
  - exists (i + c - s). split; [lia|]. replace (s + (i + c - s)) with (i + 1 * c) by lia.
    rewrite Nat.mod_add by lia. now apply Nat.mod_small.
Qed.
Lemma pos_inj c s d1 d2 : s < c -> d1 < c -> d2 < c -> pos c s d1 = pos c s d2 -> d1 = d2.
Proof.
  intros Hs H1 H2 H. unfold pos in H.
  assert (Hc : c <> 0) by lia.
  pose proof (Nat.div_mod (s + d1) c Hc). pose proof (Nat.div_mod (s + d2) c Hc).
  rewrite H in H0.
  assert (Hd : (s + d1) / c = (s + d2) / c \/ (s + d1) / c <> (s + d2) / c) by lia.
  assert ((s + d1) / c <= 1).
  { apply Nat.lt_succ_r. apply Nat.div_lt_upper_bound; lia. }
  assert ((s + d2) / c <= 1).
  { apply Nat.lt_succ_r. apply Nat.div_lt_upper_bound; lia. }
  destruct Hd as [Hd|Hd]; [rewrite Hd in H0; lia|].
  assert (((s + d1) / c = 0 /\ (s + d2) / c = 1) \/ ((s + d1) / c = 1 /\ (s + d2) / c = 0)) as [[E1 E2]|[E1 E2]] by lia;
    rewrite E1, E2 in *; lia.
Qed.

Section H.
Context {K V : Type}.
Variable keycmp : K -> K -> bool.
Variable hash_func : K -> N.
Hypothesis keycmp_eq : forall a b, keycmp a b = true <-> a = b.
Notation hash := (hash K V).
Notation slot := (slot V).
Notation probe := (probe keycmp hash_func).
Notation probe_from := (probe_from keycmp).
Notation slot_matches := (slot_matches keycmp).

Definition nonempty (s : slot) : bool := match s with SEmpty => false | _ => true end.

(** [key] is stored in slot [i] with value [v] *)
Definition stored (h : hash) (i : nat) (key : K) (v : V) : Prop :=
  exists ki, i < length (slots h) /\ slot_at h i = SFull (h2_of (hash_func key)) v ki /\ nth_error (keys h) ki = Some key.

Definition start (h : hash) (key : K) : nat := home (cap h) (hash_func key).

Record inv (h : hash) : Prop := {
  inv_pow : exists k, cap h = 2 ^ k;
  inv_cap : 8 <= cap h;
  inv_len : length (slots h) = cap h;
  inv_max : max_load h = half (cap h);
  inv_cnt : length (filter nonempty (slots h)) <= load h;
  inv_load : load h <= S (max_load h);
  inv_full : forall i m v ki, slot_at h i = SFull m v ki ->
     exists key, nth_error (keys h) ki = Some key /\ m = h2_of (hash_func key);
  inv_path : forall i key v, stored h i key v ->
     exists d, d < cap h /\ pos (cap h) (start h key) d = i /\
       forall d', d' < d -> nonempty (slot_at h (pos (cap h) (start h key) d')) = true;
  inv_uniq : forall i j key v w, stored h i key v -> stored h j key w -> i = j;
}.

Lemma half_lt c : 8 <= c -> S (half c) < c.
Proof.
  intros. unfold half. pose proof (Nat.div2_odd c). destruct (Nat.odd c); simpl in *; lia.
Qed.

Lemma filter_all_length (l : list slot) : (forall i, i < length l -> nonempty (nth i l SEmpty) = true) ->
  length (filter nonempty l) = length l.
Proof.
  induction l as [|x l IH]; intros H; [reflexivity|]. simpl.
  pose proof (H 0 ltac:(simpl; lia)) as H0. simpl in H0. rewrite H0. simpl. f_equal. apply IH.
  intros i Hi. apply (H (S i)). simpl. lia.
Qed.

Lemma find_empty (l : list slot) : length (filter nonempty l) < length l ->
  exists i, i < length l /\ nth i l SEmpty = SEmpty.
Proof.
  induction l as [|x l IH]; simpl; [lia|]. intros H. destruct x; simpl in H.
  - exists 0. split; [lia|reflexivity].
  - destruct IH as (i & Hi & E); [lia|]. exists (S i). split; [lia|exact E].
  - destruct IH as (i & Hi & E); [lia|]. exists (S i). split; [lia|exact E].
Qed.

Lemma inv_has_empty h : inv h -> exists i, i < cap h /\ slot_at h i = SEmpty.
Proof.
  intros I. destruct (find_empty (slots h)) as (i & Hi & E).
  - pose proof (inv_cnt _ I). pose proof (inv_load _ I). pose proof (half_lt _ (inv_cap _ I)).
    rewrite (inv_max _ I) in *. rewrite (inv_len _ I). lia.
  - exists i. rewrite <- (inv_len _ I). auto.
Qed.

Lemma matches_iff h i key v0 : inv h -> slot_at h i = v0 -> i < length (slots h) ->
  (slot_matches h (h2_of (hash_func key)) key v0 = true <-> exists v, stored h i key v).
Proof.
  intros I E Hi. unfold M_Hash.slot_matches. destruct v0 as [| |m v ki].
  - split; [discriminate|]. intros (v & ki & _ & E2 & _). congruence.
  - split; [discriminate|]. intros (v & ki & _ & E2 & _). congruence.
  - destruct (inv_full _ I _ _ _ _ E) as (k & Hk & ->). rewrite Hk. rewrite andb_true_iff, keycmp_eq.
    split.
    + intros [_ ->]. exists v, ki. auto.
    + intros (v' & ki' & _ & E2 & Hk2). rewrite E in E2. inversion E2; subst.
      rewrite Hk in Hk2. inversion Hk2; subst. rewrite N.eqb_refl. auto.
Qed.

(** a slot at which the probe for [key] stops *)
Definition stops (h : hash) (key : K) (s : slot) : bool :=
  match s with
  | SEmpty => true
  | SDeleted => false
  | SFull _ _ _ => slot_matches h (h2_of (hash_func key)) key s
  end.

Lemma probe_from_spec h key k : cap h = 2 ^ k ->
  forall n d, d + n = cap h ->
  (exists d2, d <= d2 < cap h /\ stops h key (slot_at h (pos (cap h) (start h key) d2)) = true) ->
  exists d2, d <= d2 < cap h /\
    probe_from n h (h2_of (hash_func key)) key (pos (cap h) (start h key) d)
      = Some (pos (cap h) (start h key) d2) /\
    stops h key (slot_at h (pos (cap h) (start h key) d2)) = true /\
    forall d', d <= d' < d2 -> stops h key (slot_at h (pos (cap h) (start h key) d')) = false.
Proof.
  intros Hk. assert (Hc : 0 < cap h) by (rewrite Hk; apply pow2_pos).
  induction n as [|n IH]; intros d Hd (d2 & Hd2 & Hs); [lia|].
  cbn [M_Hash.probe_from].
  destruct (stops h key (slot_at h (pos (cap h) (start h key) d))) eqn:E.
  - exists d. split; [lia|]. split; [|split; [exact E|intros; lia]].
    unfold stops in E. destruct (slot_at h (pos (cap h) (start h key) d)) as [| |m v ki];
      [reflexivity|discriminate|]. now rewrite E.
  - assert (d <> d2) by (intro; subst; congruence).
    destruct (IH (S d) ltac:(lia)) as (d3 & H3 & E3 & S3 & F3).
    { exists d2. split; [lia|assumption]. }
    exists d3. split; [lia|]. split; [|split; [exact S3|]].
    + rewrite <- E3. rewrite (next_mod _ _ k Hk), pos_next by assumption.
      unfold stops in E. destruct (slot_at h (pos (cap h) (start h key) d)) as [| |m v ki];
        [discriminate|reflexivity|]. now rewrite E.
    + intros d' Hd'. destruct (Nat.eq_dec d' d); [now subst|]. apply F3. lia.
Qed.

Lemma start_lt h key : inv h -> start h key < cap h.
Proof. intros I. destruct (inv_pow _ I) as [k Hk]. unfold start. eapply home_lt; eauto. Qed.

Lemma probe_spec h key : inv h ->
  exists d, d < cap h /\ probe h key = Some (pos (cap h) (start h key) d) /\
    (forall d', d' < d -> nonempty (slot_at h (pos (cap h) (start h key) d')) = true) /\
    ((slot_at h (pos (cap h) (start h key) d) = SEmpty /\ (forall i v, ~ stored h i key v)) \/
     (exists v, stored h (pos (cap h) (start h key) d) key v)).
Proof.
  intros I. destruct (inv_pow _ I) as [k Hk]. pose proof (start_lt h key I) as Hst.
  assert (Hc : 0 < cap h) by (pose proof (inv_cap _ I); lia).
  destruct (inv_has_empty h I) as (e & He & Ee).
  destruct (pos_surj (cap h) (start h key) e Hst He) as (de & Hde & Epe).
  destruct (probe_from_spec h key k Hk (cap h) 0 ltac:(lia)) as (d & Hd & Ep & Hs & Hf).
  { exists de. split; [lia|]. rewrite Epe, Ee. reflexivity. }
  rewrite pos_0 in Ep by assumption. exists d. split; [lia|]. split; [exact Ep|].
  split.
  { intros d' Hd'. specialize (Hf d' ltac:(lia)).
    destruct (slot_at h (pos (cap h) (start h key) d')); [discriminate|reflexivity|reflexivity]. }
  assert (Hpl : pos (cap h) (start h key) d < length (slots h)).
  { rewrite (inv_len _ I). now apply pos_lt. }
  remember (slot_at h (pos (cap h) (start h key) d)) as s eqn:Es. symmetry in Es.
  destruct s as [| |m v ki].
  - left. split; [reflexivity|]. intros i v Hst2.
    destruct (inv_path _ I _ _ _ Hst2) as (d2 & Hd2 & Ei & Hp).
    destruct (Nat.lt_trichotomy d d2) as [L|[L|L]].
    + specialize (Hp d L). rewrite Es in Hp. discriminate.
    + subst d2. rewrite Ei in Es. destruct Hst2 as (ki & _ & E2 & _). congruence.
    + specialize (Hf d2 ltac:(lia)). rewrite Ei in Hf.
      destruct Hst2 as (ki & Hil & E2 & Hk2). rewrite E2 in Hf. cbn [stops] in Hf.
      assert (slot_matches h (h2_of (hash_func key)) key (SFull (h2_of (hash_func key)) v ki) = true).
      { apply (matches_iff h i key _ I E2 Hil). exists v, ki. auto. }
      congruence.
  - discriminate.
  - right. cbn [stops] in Hs. now apply (matches_iff h _ key _ I Es Hpl) in Hs.
Qed.

Lemma get_spec h key : inv h ->
  (exists v, hash_get keycmp hash_func h key = Some (Some v) /\ exists i, stored h i key v) \/
  (hash_get keycmp hash_func h key = Some None /\ forall i v, ~ stored h i key v).
Proof.
  intros I. unfold hash_get. destruct (probe_spec h key I) as (d & Hd & -> & _ & [[E N]|[v Hs]]).
  - right. now rewrite E.
  - left. exists v. destruct Hs as (ki & Hl & E & Hk). rewrite E. split; [reflexivity|].
    eexists. exists ki. eauto.
Qed.

(** ** single-slot updates *)
Lemma slot_at_upd_same (h : hash) i s (h' : hash) : slots h' = upd i s (slots h) -> i < length (slots h) ->
  slot_at h' i = s.
Proof.
  intros E Hi. unfold slot_at. rewrite E. apply nth_error_nth. now apply nth_error_upd_same.
Qed.
Lemma slot_at_upd_other (h : hash) i j s (h' : hash) : slots h' = upd i s (slots h) -> i <> j ->
  slot_at h' j = slot_at h j.
Proof.
  intros E Hi. unfold slot_at. rewrite E. 
  pose proof (nth_error_upd_other i j s (slots h) Hi) as H.
  destruct (nth_error (slots h) j) eqn:E2.
  - rewrite (nth_error_nth _ _ _ E2). now apply nth_error_nth.
  - apply nth_error_None in E2. rewrite !nth_overflow; auto. now rewrite upd_length.
Qed.

Lemma count_upd (l : list slot) i s : i < length l ->
  length (filter nonempty (upd i s l)) + (if nonempty (nth i l SEmpty) then 1 else 0) =
  length (filter nonempty l) + (if nonempty s then 1 else 0).
Proof.
  revert i. induction l as [|x l IH]; intros [|i] Hi; simpl in Hi; try lia.
  - simpl. destruct (nonempty s), (nonempty x); simpl; lia.
  - simpl. specialize (IH i ltac:(lia)). destruct (nonempty x); simpl; lia.
Qed.

(** inserting a key not yet present at the first empty slot of its path; used by set and by
    resize.  [ks] is the new key array, in which index [ki] holds the key. *)
Lemma insert_inv h key v ki ks ld ln d :
  inv h ->
  (exists more, ks = keys h ++ more) ->
  nth_error ks ki = Some key ->
  d < cap h ->
  slot_at h (pos (cap h) (start h key) d) = SEmpty ->
  (forall d', d' < d -> nonempty (slot_at h (pos (cap h) (start h key) d')) = true) ->
  (forall i w, ~ stored h i key w) ->
  S (length (filter nonempty (slots h))) <= ld -> ld <= S (max_load h) ->
  let i := pos (cap h) (start h key) d in
  let h' := {| slots := upd i (SFull (h2_of (hash_func key)) v ki) (slots h); keys := ks;
               cap := cap h; len := ln; load := ld; max_load := max_load h |} in
  inv h' /\ (forall j k w, stored h' j k w <-> stored h j k w \/ (j = i /\ k = key /\ w = v)).
Proof.
  intros I (more & Eks) Hki Hd He Hpath Hnot Hcnt Hld i h'.
  assert (Hil : i < length (slots h)).
  { unfold i. rewrite (inv_len _ I). apply pos_lt. pose proof (inv_cap _ I). lia. }
  assert (Hsame : slot_at h' i = SFull (h2_of (hash_func key)) v ki) by (now apply (slot_at_upd_same h)).
  assert (Hoth : forall j, i <> j -> slot_at h' j = slot_at h j).
  { intros j Hj. eapply slot_at_upd_other; [reflexivity|assumption]. }
  assert (Hlen : length (slots h') = length (slots h)) by apply upd_length.
  assert (Hkeys : forall n k, nth_error (keys h) n = Some k -> nth_error ks n = Some k).
  { intros n k Hn. rewrite Eks. rewrite nth_error_app1; [assumption|]. apply nth_error_Some. congruence. }
  assert (Hst : forall j k w, stored h' j k w <-> stored h j k w \/ (j = i /\ k = key /\ w = v)).
  { intros j k w. unfold stored. rewrite Hlen. split.
    - intros (n & Hj & E & Hn). destruct (Nat.eq_dec i j) as [<-|Hne].
      + right. rewrite Hsame in E. inversion E; subst n. simpl in Hn. rewrite Hki in Hn.
        inversion Hn. auto.
      + left. rewrite Hoth in E by assumption. exists n. repeat split; auto.
        destruct (inv_full _ I _ _ _ _ E) as (k2 & Hk2 & _). rewrite Hk2.
        apply Hkeys in Hk2. simpl in Hn. congruence.
    - intros [(n & Hj & E & Hn) | (-> & -> & ->)].
      + assert (i <> j).
        { intros <-. unfold i in E. rewrite He in E. discriminate. }
        exists n. rewrite Hoth by assumption. do 2 (split; [assumption|]). simpl. now apply Hkeys.
      + exists ki. auto. }
  assert (Hne : forall j, nonempty (slot_at h j) = true -> nonempty (slot_at h' j) = true).
  { intros j Hj. destruct (Nat.eq_dec i j) as [<-|Hn]; [now rewrite Hsame|now rewrite Hoth]. }
  split; [|exact Hst]. constructor.
  - apply (inv_pow _ I).
  - apply (inv_cap _ I).
  - rewrite Hlen. apply (inv_len _ I).
  - apply (inv_max _ I).
  - pose proof (count_upd (slots h) i (SFull (h2_of (hash_func key)) v ki) Hil) as C.
    unfold slot_at in He. fold i in He. rewrite He in C. simpl in C. simpl. lia.
  - exact Hld.
  - intros j m w n E. destruct (Nat.eq_dec i j) as [<-|Hn].
    + rewrite Hsame in E. inversion E; subst. exists key. auto.
    + rewrite Hoth in E by assumption. destruct (inv_full _ I _ _ _ _ E) as (k2 & Hk2 & ->).
      exists k2. auto.
  - intros j k w Hs. apply Hst in Hs. destruct Hs as [Hs | (-> & -> & ->)].
    + destruct (inv_path _ I _ _ _ Hs) as (d2 & Hd2 & Ep & Hp). exists d2. repeat split; auto.
    + exists d. repeat split; auto.
  - intros j1 j2 k w1 w2 H1 H2. apply Hst in H1, H2.
    destruct H1 as [H1|(-> & -> & ->)], H2 as [H2|(E1 & E2 & E3)]; subst; auto.
    + eapply (inv_uniq _ I); eauto.
    + exfalso. eapply Hnot; eauto.
    + exfalso. eapply Hnot; eauto.
Qed.

(** ** resize *)
Definition listed (l : list slot) (ks : list K) (key : K) (v : V) : Prop :=
  exists m ki, In (SFull m v ki) l /\ nth_error ks ki = Some key.

(** the keys of the full slots of [l], in order *)
Definition fkeys (l : list slot) : list nat :=
  flat_map (fun s => match s with SFull _ _ ki => [ki] | _ => [] end) l.

Definition distinct_keys (l : list slot) (ks : list K) : Prop :=
  NoDup (map (fun ki => nth_error ks ki) (fkeys l)) /\
  forall ki, In ki (fkeys l) -> nth_error ks ki <> None.

Lemma rehash_spec old : forall nh,
  inv nh -> distinct_keys old (keys nh) ->
  (forall key v w i, listed old (keys nh) key v -> ~ stored nh i key w) ->
  length (filter nonempty (slots nh)) + length (fkeys old) <= load nh ->
  exists nh', rehash keycmp hash_func old nh = Some nh' /\ inv nh' /\
    keys nh' = keys nh /\ cap nh' = cap nh /\ load nh' = load nh /\ max_load nh' = max_load nh /\
    len nh' = len nh /\
    (forall key v, (exists i, stored nh' i key v) <-> (exists i, stored nh i key v) \/ listed old (keys nh) key v).
Proof.
  induction old as [|s old IH]; intros nh I Hd Hnot Hcnt.
  - exists nh. split; [reflexivity|]. split; [assumption|]. do 5 (split; [reflexivity|]).
    intros. split; [now left|]. intros [H|(m & ki & [] & _)]. exact H.
  - destruct s as [| |m v ki].
    1,2: destruct (IH nh I) as (nh' & E & I' & Ek & Ec & El & Em & En & Hst);
      [exact Hd | intros key v w i (m & ki & Hin & Hk); apply (Hnot key v w i); exists m, ki; split; [now right|assumption]
      | exact Hcnt | exists nh'; split; [exact E|]; split; [assumption|]; do 5 (split; [assumption|]);
        intros key v; rewrite Hst; split; intros [H|(m & ki & Hin & Hk)];
        [now left | right; exists m, ki; split; [now right|assumption] | now left
        | destruct Hin as [Hin|Hin]; [discriminate|right; exists m, ki; auto]]].
    destruct Hd as [Hnd Hall]. cbn [fkeys flat_map app map] in Hnd, Hall.
    inversion Hnd as [|? ? Hnin Hnd']; subst.
    destruct (nth_error (keys nh) ki) as [key|] eqn:Ekey; [|exfalso; apply (Hall ki); [now left|assumption]].
    cbn [rehash]. rewrite Ekey.
    assert (Hns : forall i w, ~ stored nh i key w).
    { intros i w. apply (Hnot key v w i). exists m, ki. split; [now left|assumption]. }
    destruct (probe_spec nh key I) as (d & Hdl & -> & Hp & [[He _]|[w Hs]]);
      [|exfalso; eapply Hns; eauto].
    rewrite He.
    destruct (insert_inv nh key v ki (keys nh) (load nh) (len nh) d I) as [I2 Hst2]; auto.
    { exists []. now rewrite app_nil_r. }
    { cbn [fkeys flat_map app length] in Hcnt. fold fkeys in Hcnt. simpl in Hcnt. lia. }
    { apply (inv_load _ I). }
    set (i := pos (cap nh) (start nh key) d) in *.
    set (nh2 := {| slots := _; keys := keys nh; cap := _; len := _; load := _; max_load := _ |}) in *.
    change (set_slot nh i (SFull (h2_of (hash_func key)) v ki)) with nh2.
    destruct (IH nh2 I2) as (nh' & E & I' & Ek & Ec & El & Em & En & Hst).
    { split; [exact Hnd'|]. intros k Hk. apply Hall. now right. }
    { intros k w u j (m2 & ki2 & Hin & Hk) Hs. apply Hst2 in Hs. destruct Hs as [Hs|(-> & -> & ->)].
      - eapply (Hnot k w u j); eauto. exists m2, ki2. split; [now right|exact Hk].
      - apply Hnin. apply in_map_iff. exists ki2. split; [|].
        + unfold nh2 in Hk. simpl in Hk. congruence.
        + apply in_flat_map. exists (SFull m2 w ki2). split; [assumption|]. now left. }
    { simpl slots. simpl load.
      pose proof (count_upd (slots nh) i (SFull (h2_of (hash_func key)) v ki)) as C.
      unfold slot_at in He. fold i in He. rewrite He in C. simpl in C.
      assert (i < length (slots nh)). { unfold i. rewrite (inv_len _ I). apply pos_lt. pose proof (inv_cap _ I). lia. }
      specialize (C H). cbn [fkeys flat_map app length] in Hcnt. simpl in Hcnt.
      fold (fkeys old) in Hcnt. simpl. lia. }
    exists nh'. split; [exact E|]. split; [assumption|]. do 5 (split; [assumption|]).
    intros k w. rewrite Hst. split.
    + intros [(j & Hj)|(m2 & ki2 & Hin & Hk)].
      * apply Hst2 in Hj. destruct Hj as [Hj|(-> & -> & ->)]; [left; eauto|].
        right. exists m, ki. split; [now left|assumption].
      * right. exists m2, ki2. split; [now right|assumption].
    + intros [(j & Hj)|(m2 & ki2 & [Hin|Hin] & Hk)].
      * left. exists j. apply Hst2. now left.
      * left. exists i. apply Hst2. right. inversion Hin; subst. rewrite Ekey in Hk. inversion Hk. auto.
      * right. exists m2, ki2. auto.
Qed.

Lemma empty_inv c ks l ld : (exists k, c = 2 ^ k) -> 8 <= c -> ld <= S (half c) ->
  inv {| slots := repeat SEmpty c; keys := ks; cap := c; len := l; load := ld; max_load := half c |} /\
  (forall i k v, ~ stored {| slots := repeat SEmpty c; keys := ks; cap := c; len := l; load := ld; max_load := half c |} i k v).
Proof.
  intros Hp Hc Hl.
  assert (Hs : forall i, slot_at {| slots := repeat SEmpty c; keys := ks; cap := c; len := l; load := ld; max_load := half c |} i = SEmpty (V:=V)).
  { intros i. unfold slot_at. simpl. clear. revert i. induction c; intros [|i]; simpl; auto. }
  assert (Hns : forall i k v, ~ stored {| slots := repeat SEmpty c; keys := ks; cap := c; len := l; load := ld; max_load := half c |} i k v).
  { intros i k v (ki & _ & E & _). rewrite Hs in E. discriminate. }
  split; [|exact Hns]. constructor; simpl; auto.
  - apply repeat_length.
  - assert (F : filter nonempty (repeat (SEmpty (V:=V)) c) = []).
    { clear. induction c; simpl; auto. }
    rewrite F. simpl. lia.
  - intros i m v ki E. rewrite Hs in E. discriminate.
  - intros i k v H. exfalso. eapply Hns; eauto.
  - intros i j k v w H. exfalso. eapply Hns; eauto.
Qed.

Lemma fkeys_count (l : list slot) : length (fkeys l) <= length (filter nonempty l).
Proof. induction l as [|x l IH]; simpl; [lia|]. rewrite app_length. destruct x; simpl; lia. Qed.

Lemma fkeys_nth (l : list slot) : forall n ki, nth_error (fkeys l) n = Some ki ->
  exists i m v, nth_error l i = Some (SFull m v ki).
Proof.
  intros n ki H. apply nth_error_In in H. apply in_flat_map in H as (s & Hin & Hs).
  destruct s as [| |m v k]; try contradiction. destruct Hs as [->|[]].
  apply In_nth_error in Hin as (i & Hi). eauto.
Qed.

Lemma fkeys_nodup (l : list slot) (f : nat -> option K) :
  (forall i j m v ki m' v' ki', nth_error l i = Some (SFull m v ki) -> nth_error l j = Some (SFull m' v' ki') ->
     f ki = f ki' -> i = j) ->
  NoDup (map f (fkeys l)).
Proof.
  induction l as [|s l IH]; intros H; [constructor|].
  assert (IHl : NoDup (map f (fkeys l))).
  { apply IH. intros i j m v ki m' v' ki' H1 H2 H3.
    assert (S i = S j) by (eapply H; eauto). lia. }
  destruct s as [| |m v ki]; simpl; auto.
  constructor; [|exact IHl]. intros Hin. apply in_map_iff in Hin as (k2 & Ef & Hin).
  apply In_nth_error in Hin as (n & Hn). apply fkeys_nth in Hn as (i & m' & v' & Hi).
  assert (0 = S i); [|discriminate]. eapply (H 0 (S i)); [reflexivity|exact Hi|congruence].
Qed.

Lemma slot_at_nth_error (h : hash) i s : s <> SEmpty -> (nth_error (slots h) i = Some s <-> slot_at h i = s).
Proof.
  intros Hs. unfold slot_at. split.
  - intros H. now apply nth_error_nth.
  - intros H. destruct (nth_error (slots h) i) eqn:E.
    + f_equal. rewrite <- H. symmetry. now apply nth_error_nth.
    + apply nth_error_None in E. rewrite nth_overflow in H by assumption. congruence.
Qed.

Lemma inv_distinct h : inv h -> distinct_keys (slots h) (keys h).
Proof.
  intros I. split.
  - apply fkeys_nodup. intros i j m v ki m' v' ki' H1 H2 H3.
    assert (Hi : i < length (slots h)) by (apply nth_error_Some; congruence).
    assert (Hj : j < length (slots h)) by (apply nth_error_Some; congruence).
    apply slot_at_nth_error in H1; [|discriminate]. apply slot_at_nth_error in H2; [|discriminate].
    destruct (inv_full _ I _ _ _ _ H1) as (k1 & Hk1 & ->).
    destruct (inv_full _ I _ _ _ _ H2) as (k2 & Hk2 & ->).
    assert (k1 = k2) by congruence. subst k2.
    apply (inv_uniq _ I i j k1 v v'); [exists ki|exists ki']; auto.
  - intros ki Hin. apply In_nth_error in Hin as (n & Hn). apply fkeys_nth in Hn as (i & m & v & Hi).
    apply slot_at_nth_error in Hi; [|discriminate].
    destruct (inv_full _ I _ _ _ _ Hi) as (k & Hk & _). congruence.
Qed.

Lemma listed_stored h key v : inv h -> (listed (slots h) (keys h) key v <-> exists i, stored h i key v).
Proof.
  intros I. split.
  - intros (m & ki & Hin & Hk). apply In_nth_error in Hin as (i & Hi).
    assert (Hl : i < length (slots h)) by (apply nth_error_Some; congruence).
    apply slot_at_nth_error in Hi; [|discriminate].
    destruct (inv_full _ I _ _ _ _ Hi) as (k & Hk2 & ->). assert (k = key) by congruence. subst.
    exists i, ki. auto.
  - intros (i & ki & Hl & E & Hk). exists (h2_of (hash_func key)), ki. split; [|assumption].
    apply slot_at_nth_error in E; [|discriminate]. eapply nth_error_In; eauto.
Qed.

Lemma half_double c : half (c * 2) = c.
Proof. unfold half. rewrite Nat.mul_comm. apply Nat.div2_double. Qed.

Lemma half_le c : half c <= c.
Proof. unfold half. pose proof (Nat.div2_odd c). destruct (Nat.odd c); simpl in *; lia. Qed.

Lemma resize_spec h : inv h ->
  exists h', resize keycmp hash_func h (cap h * 2) = Some h' /\ inv h' /\ load h' <= max_load h' /\
    len h' = len h /\
    (forall key v, (exists i, stored h' i key v) <-> (exists i, stored h i key v)).
Proof.
  intros I. unfold resize. destruct (inv_pow _ I) as [k Hk].
  assert (Hld : load h <= cap h).
  { pose proof (inv_load _ I). rewrite (inv_max _ I) in H. pose proof (half_lt _ (inv_cap _ I)). lia. }
  destruct (empty_inv (cap h * 2) (keys h) (len h) (load h)) as [I0 N0].
  { exists (S k). rewrite Hk. simpl. lia. }
  { pose proof (inv_cap _ I). lia. }
  { rewrite half_double. lia. }
  destruct (rehash_spec (slots h) _ I0) as (h' & E & I' & Ek & Ec & El & Em & En & Hst).
  { exact (inv_distinct h I). }
  { intros. apply N0. }
  { simpl. assert (F : filter nonempty (repeat (SEmpty (V:=V)) (cap h * 2)) = []).
    { clear. induction (cap h * 2); simpl; auto. }
    rewrite F. simpl. pose proof (fkeys_count (slots h)). pose proof (inv_cnt _ I). lia. }
  exists h'. split; [exact E|]. split; [assumption|]. split.
  { rewrite El, Em. simpl. rewrite half_double. lia. }
  split; [assumption|].
  intros key v. rewrite Hst. simpl. rewrite listed_stored by assumption. split; [|now right].
  intros [(i & Hi)|H]; [|exact H]. exfalso. eapply N0; eauto.
Qed.

(** ** the operations *)
Lemma set_spec h key v : inv h ->
  exists h', hash_set keycmp hash_func h key v = Some h' /\ inv h' /\
   (forall k w, (exists i, stored h' i k w) <->
      (if keycmp key k then w = v else exists i, stored h i k w)).
Proof.
  intros I. unfold hash_set.
  assert (exists h1, (if max_load h <? load h then resize keycmp hash_func h (cap h * 2) else Some h) = Some h1
    /\ inv h1 /\ load h1 <= max_load h1 /\ len h1 = len h /\
     (forall key v, (exists i, stored h1 i key v) <-> (exists i, stored h i key v)))
    as (h1 & -> & I1 & L1 & _ & S1).
  { destruct (Nat.ltb_spec (max_load h) (load h)).
    - destruct (resize_spec h I) as (h' & E & I' & L & Ln & S). exists h'. auto.
    - exists h. split; [reflexivity|]; split; [assumption|]; split; [assumption|]; split; [reflexivity|]; intros; reflexivity. }
  destruct (probe_spec h1 key I1) as (d & Hd & -> & Hp & [[He Hn]|[w0 Hs]]).
  - rewrite He.
    destruct (insert_inv h1 key v (length (keys h1)) (keys h1 ++ [key]) (S (load h1)) (S (len h1)) d I1)
      as [I2 Hst2]; auto.
    { eauto. }
    { rewrite nth_error_app2 by lia. now rewrite Nat.sub_diag. }
    { pose proof (inv_cnt _ I1). lia. }
    { lia. }
    eexists. split; [reflexivity|]. split; [exact I2|].
    intros k w. destruct (keycmp key k) eqn:Ek.
    + apply keycmp_eq in Ek. subst k. split.
      * intros (i & Hi). apply Hst2 in Hi. destruct Hi as [Hi|(_ & _ & ->)]; [exfalso; eapply Hn; eauto|reflexivity].
      * intros ->. eexists. apply Hst2. right. auto.
    + rewrite <- S1. split.
      * intros (i & Hi). apply Hst2 in Hi. destruct Hi as [Hi|(_ & -> & _)]; [eauto|].
        assert (keycmp key key = true) by now apply keycmp_eq. congruence.
      * intros (i & Hi). exists i. apply Hst2. now left.
  - pose proof Hs as (ki & Hl & E & Hk). rewrite E.
    set (i := pos (cap h1) (start h1 key) d) in *.
    set (h2 := set_slot h1 i (SFull (h2_of (hash_func key)) v ki)).
    assert (Hsame : slot_at h2 i = SFull (h2_of (hash_func key)) v ki) by (now apply (slot_at_upd_same h1)).
    assert (Hoth : forall j, i <> j -> slot_at h2 j = slot_at h1 j).
    { intros j Hj. eapply slot_at_upd_other; [reflexivity|assumption]. }
    assert (Hlen : length (slots h2) = length (slots h1)) by apply upd_length.
    assert (Hst : forall j k w, stored h2 j k w <-> (j <> i /\ stored h1 j k w) \/ (j = i /\ k = key /\ w = v)).
    { intros j k w. unfold stored. rewrite Hlen. split.
      - intros (n & Hj & E2 & Hn). destruct (Nat.eq_dec i j) as [<-|Hne].
        + right. rewrite Hsame in E2. inversion E2; subst. simpl in Hn. rewrite Hk in Hn. inversion Hn. auto.
        + left. rewrite Hoth in E2 by assumption. split; [lia|]. exists n. auto.
      - intros [(Hne & n & Hj & E2 & Hn) | (-> & -> & ->)].
        + exists n. rewrite Hoth by lia. auto.
        + exists ki. auto. }
    assert (Hne : forall j, nonempty (slot_at h1 j) = true -> nonempty (slot_at h2 j) = true).
    { intros j Hj. destruct (Nat.eq_dec i j) as [<-|Hn]; [now rewrite Hsame|now rewrite Hoth]. }
    exists h2. split; [reflexivity|]. split.
    + constructor.
      * apply (inv_pow _ I1).
      * apply (inv_cap _ I1).
      * rewrite Hlen. apply (inv_len _ I1).
      * apply (inv_max _ I1).
      * pose proof (count_upd (slots h1) i (SFull (h2_of (hash_func key)) v ki) Hl) as C.
        unfold slot_at in E. rewrite E in C. simpl in C. pose proof (inv_cnt _ I1).
        unfold h2, set_slot. cbn [slots load]. lia.
      * apply (inv_load _ I1).
      * intros j m w n E2. destruct (Nat.eq_dec i j) as [<-|Hn].
        -- rewrite Hsame in E2. inversion E2; subst. exists key. auto.
        -- rewrite Hoth in E2 by assumption. apply (inv_full _ I1 _ _ _ _ E2).
      * intros j k w H. apply Hst in H. destruct H as [(Hn & H) | (-> & -> & ->)].
        -- destruct (inv_path _ I1 _ _ _ H) as (d2 & Hd2 & Ep & Hp2). exists d2. repeat split; auto.
        -- exists d. repeat split; auto.
      * intros j1 j2 k w1 w2 H1 H2. apply Hst in H1, H2.
        destruct H1 as [(N1 & H1)|(-> & -> & ->)], H2 as [(N2 & H2)|(E1 & E2 & E3)]; subst; auto.
        -- eapply (inv_uniq _ I1); eauto.
        -- exfalso. apply N1. eapply (inv_uniq _ I1); eauto.
        -- exfalso. apply N2. eapply (inv_uniq _ I1); eauto.
    + intros k w. destruct (keycmp key k) eqn:Ek.
      * apply keycmp_eq in Ek. subst k. split.
        -- intros (j & Hj). apply Hst in Hj. destruct Hj as [(Hn & Hj)|(_ & _ & ->)]; [|reflexivity].
           exfalso. apply Hn. eapply (inv_uniq _ I1); eauto.
        -- intros ->. exists i. apply Hst. right. auto.
      * rewrite <- S1. split.
        -- intros (j & Hj). apply Hst in Hj. destruct Hj as [(_ & Hj)|(_ & -> & _)]; [eauto|].
           assert (keycmp key key = true) by now apply keycmp_eq. congruence.
        -- intros (j & Hj). exists j. apply Hst. left. split; [|assumption]. intros ->.
           destruct Hj as (n & _ & E2 & Hn). rewrite E in E2. inversion E2; subst.
           rewrite Hk in Hn. inversion Hn; subst.
           assert (keycmp k k = true) by now apply keycmp_eq. congruence.
Qed.

Lemma unset_spec h key : inv h ->
  exists h', hash_unset keycmp hash_func h key = Some h' /\ inv h' /\
   (forall k w, (exists i, stored h' i k w) <->
      (if keycmp key k then False else exists i, stored h i k w)).
Proof.
  intros I. unfold hash_unset.
  destruct (probe_spec h key I) as (d & Hd & -> & Hp & [[He Hn]|[w0 Hs]]).
  - rewrite He. destruct (get_spec h key I) as [(v & _ & i & Hi)|[-> _]]; [exfalso; eapply Hn; eauto|].
    exists h. split; [reflexivity|]. split; [assumption|]. intros k w. split.
    + destruct (keycmp key k) eqn:Ek; [|auto]. apply keycmp_eq in Ek. subst. intros (i & Hi). eapply Hn; eauto.
    + destruct (keycmp key k) eqn:Ek; [contradiction|auto].
  - pose proof Hs as (ki & Hl & E & Hk). rewrite E.
    set (i := pos (cap h) (start h key) d) in *.
    set (h2 := {| slots := _; keys := _; cap := _; len := _; load := _; max_load := _ |}).
    assert (Hsame : slot_at h2 i = SDeleted) by (now apply (slot_at_upd_same h)).
    assert (Hoth : forall j, i <> j -> slot_at h2 j = slot_at h j).
    { intros j Hj. eapply slot_at_upd_other; [reflexivity|assumption]. }
    assert (Hlen : length (slots h2) = length (slots h)) by apply upd_length.
    assert (Hst : forall j k w, stored h2 j k w <-> (j <> i /\ stored h j k w)).
    { intros j k w. unfold stored. rewrite Hlen. split.
      - intros (n & Hj & E2 & Hn). destruct (Nat.eq_dec i j) as [<-|Hne].
        + rewrite Hsame in E2. discriminate.
        + rewrite Hoth in E2 by assumption. split; [lia|]. exists n. auto.
      - intros (Hne & n & Hj & E2 & Hn). exists n. rewrite Hoth by lia. auto. }
    assert (Hne : forall j, nonempty (slot_at h j) = true -> nonempty (slot_at h2 j) = true).
    { intros j Hj. destruct (Nat.eq_dec i j) as [<-|Hn]; [now rewrite Hsame|now rewrite Hoth]. }
    assert (I2 : inv h2).
    { constructor.
      * apply (inv_pow _ I).
      * apply (inv_cap _ I).
      * rewrite Hlen. apply (inv_len _ I).
      * apply (inv_max _ I).
      * pose proof (count_upd (slots h) i SDeleted Hl) as C.
        unfold slot_at in E. rewrite E in C. simpl in C. pose proof (inv_cnt _ I).
        unfold h2. cbn [slots load]. lia.
      * apply (inv_load _ I).
      * intros j m w n E2. destruct (Nat.eq_dec i j) as [<-|Hn].
        -- rewrite Hsame in E2. discriminate.
        -- rewrite Hoth in E2 by assumption. apply (inv_full _ I _ _ _ _ E2).
      * intros j k w H. apply Hst in H. destruct H as (Hn & H).
        destruct (inv_path _ I _ _ _ H) as (d2 & Hd2 & Ep & Hp2). exists d2. repeat split; auto.
      * intros j1 j2 k w1 w2 H1 H2. apply Hst in H1, H2. destruct H1, H2.
        eapply (inv_uniq _ I); eauto. }
    assert (Hgone : forall j v, ~ stored h2 j key v).
    { intros j v H. apply Hst in H as (Hn & H). apply Hn. eapply (inv_uniq _ I); eauto. }
    destruct (get_spec h2 key I2) as [(v & _ & j & Hj)|[-> _]]; [exfalso; eapply Hgone; eauto|].
    exists h2. split; [reflexivity|]. split; [assumption|].
    intros k w. destruct (keycmp key k) eqn:Ek.
    + apply keycmp_eq in Ek. subst. split; [|contradiction]. intros (j & Hj). eapply Hgone; eauto.
    + split.
      * intros (j & Hj). apply Hst in Hj as [_ Hj]. eauto.
      * intros (j & Hj). exists j. apply Hst. split; [|assumption]. intros ->.
        destruct Hj as (n & _ & E2 & Hn). rewrite E in E2. inversion E2; subst.
        rewrite Hk in Hn. inversion Hn; subst.
        assert (keycmp k k = true) by now apply keycmp_eq. congruence.
Qed.

Lemma clear_spec h : inv h -> inv (hash_clear h) /\ forall i k v, ~ stored (hash_clear h) i k v.
Proof.
  intros I. unfold hash_clear. rewrite (inv_max _ I). apply empty_inv.
  - apply (inv_pow _ I).
  - apply (inv_cap _ I).
  - lia.
Qed.

(** the table [h] represents the finite map [m] *)
Definition represents (h : hash) (m : K -> option V) : Prop :=
  forall k v, (exists i, stored h i k v) <-> m k = Some v.

Lemma run_spec ops : forall h m, inv h -> represents h m ->
  exists h', hrun keycmp hash_func h ops = Some h' /\ inv h' /\ represents h' (fold_left (spec_step keycmp) ops m).
Proof.
  induction ops as [|o ops IH]; intros h m I R; [exists h; auto|].
  cbn [hrun fold_left]. destruct o as [k v|k|]; cbn [hstep].
  - destruct (set_spec h k v I) as (h1 & -> & I1 & S1). apply IH; [assumption|].
    intros k' w. rewrite S1. simpl. destruct (keycmp k k'); [|apply R]. split; congruence.
  - destruct (unset_spec h k I) as (h1 & -> & I1 & S1). apply IH; [assumption|].
    intros k' w. rewrite S1. simpl. destruct (keycmp k k'); [|apply R]. split; [contradiction|discriminate].
  - destruct (clear_spec h I) as [I1 S1]. apply IH; [assumption|].
    intros k' w. simpl. split; [|discriminate]. intros (i & Hi). exfalso. eapply S1; eauto.
Qed.

Lemma represents_get h m key : inv h -> represents h m -> hash_get keycmp hash_func h key = Some (m key).
Proof.
  intros I R. destruct (get_spec h key I) as [(v & -> & Hi)|[-> Hn]].
  - f_equal. symmetry. now apply R.
  - f_equal. destruct (m key) eqn:E; [|reflexivity]. apply R in E as (i & Hi). exfalso. eapply Hn; eauto.
Qed.

Lemma init_inv k : 8 <= 2 ^ k -> inv (hash_init (2 ^ k)) /\ represents (hash_init (2 ^ k)) (fun _ => None).
Proof.
  intros H. destruct (empty_inv (2 ^ k) [] 0 0) as [I N]; eauto; [lia|].
  split; [exact I|]. intros key v. split; [|discriminate]. intros (i & Hi). exfalso. eapply N; eauto.
Qed.

Lemma entries_spec h m : inv h -> represents h m ->
  (forall k v, In (k, v) (hash_entries h) <-> m k = Some v) /\ NoDup (map fst (hash_entries h)).
Proof.
  intros I R. split.
  - intros k v. rewrite <- (R k v), <- listed_stored by assumption. unfold hash_entries, listed.
    rewrite in_flat_map. split.
    + intros (s & Hin & Hs). destruct s as [| |m0 v0 ki]; try contradiction.
      destruct (nth_error (keys h) ki) eqn:E; [|contradiction]. destruct Hs as [[= -> ->]|[]].
      exists m0, ki. auto.
    + intros (m0 & ki & Hin & Hk). exists (SFull m0 v ki). split; [assumption|]. rewrite Hk. now left.
  - destruct (inv_distinct h I) as [Hnd Hall].
    unfold hash_entries. revert Hnd Hall. generalize (slots h). intros l.
    induction l as [|s l IHl]; intros Hnd Hall; [constructor|].
    destruct s as [| |m0 v0 ki]; simpl in *; auto.
    inversion Hnd as [|? ? Hnin Hnd']; subst.
    destruct (nth_error (keys h) ki) as [k|] eqn:E; [|exfalso; apply (Hall ki); auto].
    simpl. constructor; [|apply IHl; auto].
    intros Hin. apply Hnin. apply in_map_iff in Hin as ([k2 v2] & E2 & Hin). simpl in E2. subst k2.
    apply in_flat_map in Hin as (s & Hs & Hks). destruct s as [| |m1 v1 ki1]; try contradiction.
    destruct (nth_error (keys h) ki1) eqn:E3; [|contradiction]. destruct Hks as [[= -> ->]|[]].
    apply in_map_iff. exists ki1. split; [assumption|]. apply in_flat_map. eexists. split; [exact Hs|]. now left.
Qed.
End H.

(** ** string keys *)
Lemma fnv_str_loop_spec key : (N.of_nat (length key) < two16)%N -> forall l pre h,
  key = pre ++ l ->
  fnv_str_loop (S (length l)) key (N.of_nat (length pre)) h =
  Some (fold_left (fun h c => fnv_step h (sext8 c)) l h).
Proof.
  intros Hk. induction l as [|c l IH]; intros pre h E.
  - cbn [fnv_str_loop length fold_left]. rewrite E, app_nil_r.
    rewrite N.ltb_irrefl. reflexivity.
  - cbn [length]. 
    change (fnv_str_loop (S (S (length l))) key (N.of_nat (length pre)) h)
      with (if N.ltb (N.of_nat (length pre)) (N.of_nat (length key)) then
        fnv_str_loop (S (length l)) key (N.modulo (N.of_nat (length pre) + 1) two16)
          (fnv_step h (sext8 (nth (N.to_nat (N.of_nat (length pre))) key NUL)))
      else Some h).
    assert (L : length key = length pre + S (length l)) by (rewrite E, app_length; reflexivity).
    destruct (N.ltb_spec (N.of_nat (length pre)) (N.of_nat (length key))); [|lia].
    rewrite Nat2N.id. rewrite N.mod_small by lia.
    replace (nth (length pre) key NUL) with c
      by (rewrite E, app_nth2, Nat.sub_diag by lia; reflexivity).
    replace (N.of_nat (length pre) + 1)%N with (N.of_nat (length (pre ++ [c])))
      by (rewrite app_length; simpl; lia).
    rewrite IH by (rewrite <- app_assoc; exact E). reflexivity.
Qed.

Lemma fnv_str_loop_diverges key : (two16 <= N.of_nat (length key))%N -> forall fuel i h,
  (i < two16)%N -> fnv_str_loop fuel key i h = None.
Proof.
  intros Hk. induction fuel as [|fuel IH]; intros i h Hi; [reflexivity|].
  cbn [fnv_str_loop]. destruct (N.ltb_spec i (N.of_nat (length key))); [|lia].
  apply IH. apply N.mod_upper_bound. unfold two16. lia.
Qed.

Definition no_nul (k : bytes) : bool := negb (mem_char NUL k).

Lemma strn_equal_nonul a : forall b, no_nul a = true -> strn_equal a b = true <-> a = b.
Proof.
  unfold no_nul. induction a as [|x a IH]; intros [|y b] Ha; simpl in *; try (split; [discriminate|discriminate]).
  - split; auto.
  - rewrite negb_orb, andb_true_iff in Ha. destruct Ha as [H1 H2].
    rewrite andb_true_iff, orb_true_iff. unfold ceqb in *. rewrite !Ascii.eqb_eq.
    rewrite negb_true_iff, Ascii.eqb_neq in H1. split.
    + intros [-> [->|H]]; [congruence|]. f_equal. now apply IH.
    + intros [= -> ->]. split; [reflexivity|]. right. now apply IH.
Qed.

Lemma keycmp_strcmp_nonul a b : no_nul a = true -> hash_keycmp_strcmp a b = true <-> a = b.
Proof.
  intros Ha. unfold hash_keycmp_strcmp. rewrite andb_true_iff, Nat.eqb_eq, strn_equal_nonul by assumption.
  split; [tauto|]. intros ->. auto.
Qed.
