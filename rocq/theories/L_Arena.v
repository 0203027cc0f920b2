From Verif Require Import Base M_Arena S_Arena.

(** ** arena *)
Section A.
Variable BLK : N.

Definition ainv (a : arena) : Prop :=
  ablocks a <> [] /\ (forall s, In s (ablocks a) -> (BLK <= s)%N) .

(** a region that is allocated and lies below the cursor of its block *)
Definition placed (a : arena) (r : nat * N * N) : Prop :=
  let '(b, o, s) := r in
  exists sz, nth_error (ablocks a) b = Some sz /\ (o + s <= sz)%N /\ (o mod 8 = 0)%N /\
    (b = length (ablocks a) - 1 -> (o + s <= ai a)%N).

Lemma align_mod i : ((i + (8 - i mod 8) mod 8) mod 8 = 0)%N.
Proof.
  rewrite N.add_mod_idemp_r by lia. pose proof (N.mod_upper_bound i 8 ltac:(lia)).
  rewrite (N.div_mod i 8) at 1 by lia.
  replace (8 * (i / 8) + i mod 8 + (8 - i mod 8))%N with ((i / 8 + 1) * 8)%N by lia.
  apply N.mod_mul. lia.
Qed.

Lemma alloc_spec a s : ainv a ->
  let '(a', (b, o)) := arena_alloc BLK a s in
  ainv a' /\ placed a' (b, o, s) /\
  (forall r, placed a r -> placed a' r /\ disjoint r (b, o, s)).
Proof.
  intros [Hne Hb]. unfold arena_alloc.
  set (align := ((8 - ai a mod 8) mod 8)%N).
  pose proof (align_mod (ai a)) as Hal. fold align in Hal.
  destruct ((BLK <? ai a + align + s) || (BLK <? s))%N eqn:E.
  - set (sz := if (BLK <? s)%N then s else BLK).
    assert (Hsz : (BLK <= sz /\ s <= sz)%N) by (unfold sz; destruct (N.ltb_spec BLK s); lia).
    split; [|split].
    + split; [simpl; destruct (ablocks a); discriminate|]. simpl. intros x Hx. apply in_app_or in Hx as [Hx|[<-|[]]]; [auto|lia].
    + exists sz. simpl. rewrite app_length. simpl. rewrite Nat.add_sub. split; [|split; [|split]].
      * rewrite nth_error_app2 by lia. now rewrite Nat.sub_diag.
      * lia.
      * reflexivity.
      * lia.
    + intros [[b o] s'] (sz' & Hn & Hr & Hm & Hc). split.
      * exists sz'. simpl. assert (b < length (ablocks a)) by (apply nth_error_Some; congruence).
        rewrite nth_error_app1 by assumption. repeat split; auto. rewrite app_length. simpl. lia.
      * left. rewrite app_length. simpl. assert (b < length (ablocks a)) by (apply nth_error_Some; congruence). lia.
  - apply orb_false_iff in E as [E1 E2]. apply N.ltb_ge in E1, E2.
    split; [split; assumption|]. split.
    + destruct (nth_error (ablocks a) (length (ablocks a) - 1)) as [sz|] eqn:En.
      * exists sz. simpl. split; [exact En|]. split; [|split; [assumption|lia]].
        apply nth_error_In in En. apply Hb in En. lia.
      * apply nth_error_None in En. destruct (ablocks a); [congruence|simpl in En; lia].
    + intros [[b o] s'] (sz' & Hn & Hr & Hm & Hc). split.
      * exists sz'. simpl. repeat split; auto. intros. specialize (Hc H). lia.
      * destruct (Nat.eq_dec b (length (ablocks a) - 1)) as [->|Hne2]; [|now left].
        right. left. specialize (Hc eq_refl). lia.
Qed.

Lemma allocs_spec sizes : forall a, ainv a ->
  let '(a', rs) := arena_allocs BLK a sizes in
  ainv a' /\ (forall r, In r rs -> placed a' r) /\ (forall r, placed a r -> placed a' r) /\
  (forall r0 r, placed a r0 -> In r rs -> disjoint r0 r) /\
  (forall i j r1 r2, nth_error rs i = Some r1 -> nth_error rs j = Some r2 -> i < j -> disjoint r1 r2).
Proof.
  induction sizes as [|s ss IH]; intros a Ia; simpl.
  - repeat split; try apply Ia; auto; try contradiction. intros [|i] j r1 r2 H; discriminate.
  - pose proof (alloc_spec a s Ia) as H. destruct (arena_alloc BLK a s) as [a1 [b o]].
    destruct H as (I1 & P1 & K1). specialize (IH a1 I1). destruct (arena_allocs BLK a1 ss) as [a2 rs].
    destruct IH as (I2 & P2 & K2 & D2 & E2). split; [assumption|]. split; [|split; [|split]].
    + intros r [<-|Hr]; auto.
    + intros r Hr. apply K2. now apply K1.
    + intros r0 r Hr0 [<-|Hr]; [now apply K1|]. apply D2; [now apply K1|assumption].
    + intros [|i] [|j] r1 r2 H1 H2 Hlt; try lia; simpl in *.
      * inversion H1; subst. apply D2; [assumption|]. eapply nth_error_In; eauto.
      * eapply E2; eauto. lia.
Qed.
End A.

Lemma skipn_skipn {X} a b : forall l : list X, skipn a (skipn b l) = skipn (a + b) l.
Proof.
  induction b; intros l.
  - now rewrite Nat.add_0_r, skipn_O.
  - rewrite Nat.add_succ_r. destruct l; simpl; [now rewrite skipn_nil|apply IHb].
Qed.

(** ** bucket arrays *)
Section Bk.
Context {A : Type}.
Variable zero : A.
Notation barr := (barr A).
Notation bucket := (bucket A).

Definition b_full (n : nat) (b : bucket) := length (bmem b) = n /\ blen b = n.
Definition b_cur (n : nat) (b : bucket) :=
  length (bmem b) = n /\ blen b <= n /\ skipn (blen b) (bmem b) = repeat zero (n - blen b).
Definition b_empty (n : nat) (b : bucket) := bmem b = repeat zero n /\ blen b = 0.

Definition rep (ba : barr) (l : list A) : Prop :=
  exists F c E, buckets ba = F ++ c :: E /\ btail ba = length F /\
    Forall (b_full (bsz ba)) F /\ b_cur (bsz ba) c /\ Forall (b_empty (bsz ba)) E /\
    l = concat (map (@bmem A) F) ++ firstn (blen c) (bmem c) /\ btotal ba = length l /\
    (F <> [] -> 0 < blen c).

Lemma concat_full_length n (F : list bucket) : Forall (b_full n) F -> length (concat (map (@bmem A) F)) = length F * n.
Proof. induction 1 as [|b F [H1 _] _ IH]; simpl; [reflexivity|]. rewrite app_length, IH, H1. lia. Qed.

Lemma nth_error_mid {X} (F : list X) c E : nth_error (F ++ c :: E) (length F) = Some c.
Proof. rewrite nth_error_app2 by lia. now rewrite Nat.sub_diag. Qed.
Lemma upd_mid {X} (F : list X) c E x : upd (length F) x (F ++ c :: E) = F ++ x :: E.
Proof. induction F; simpl; congruence. Qed.

Lemma firstn_memwrite (mem : list A) off data : off + length data <= length mem ->
  firstn (off + length data) (memwrite mem off data) = firstn off mem ++ data.
Proof.
  intros H. unfold memwrite. rewrite app_assoc.
  assert (L : length (firstn off mem ++ data) = off + length data) by (rewrite app_length, firstn_length; lia).
  rewrite firstn_app, L, Nat.sub_diag, firstn_O, app_nil_r. apply firstn_all2. lia.
Qed.
Lemma length_memwrite (mem : list A) off data : off + length data <= length mem -> length (memwrite mem off data) = length mem.
Proof. intros H. unfold memwrite. rewrite !app_length, firstn_length, skipn_length. lia. Qed.
Lemma skipn_memwrite (mem : list A) off data n : off + length data <= length mem -> off + length data <= n ->
  skipn n (memwrite mem off data) = skipn n mem.
Proof.
  intros H Hn. unfold memwrite. rewrite app_assoc.
  assert (L : length (firstn off mem ++ data) = off + length data) by (rewrite app_length, firstn_length; lia).
  rewrite skipn_app, L. rewrite skipn_all2 by lia. simpl. rewrite skipn_skipn.
  f_equal. lia.
Qed.
Lemma skipn_repeat {X} (x : X) k : forall n, skipn k (repeat x n) = repeat x (n - k).
Proof. induction k; intros [|n]; simpl; auto. Qed.
Lemma firstn_repeat {X} (x : X) k : forall n, k <= n -> firstn k (repeat x n) = repeat x k.
Proof. induction k; intros [|n] H; simpl; auto; try lia. f_equal. apply IHk. lia. Qed.

Lemma cur_push n (c : bucket) x : b_cur n c -> blen c < n ->
  b_cur n {| bmem := memwrite (bmem c) (blen c) [x]; blen := blen c + 1 |} /\
  firstn (blen c + 1) (memwrite (bmem c) (blen c) [x]) = firstn (blen c) (bmem c) ++ [x].
Proof.
  intros (H1 & H2 & H3) Hlt. assert (L : blen c + length [x] <= length (bmem c)) by (simpl; lia). split.
  - split; [|split]; cbn [bmem blen].
    + now rewrite length_memwrite.
    + lia.
    + rewrite skipn_memwrite by (simpl; lia).
      replace (blen c + 1) with (1 + blen c) by lia. rewrite <- skipn_skipn, H3, skipn_repeat. f_equal. lia.
  - exact (firstn_memwrite (bmem c) (blen c) [x] L).
Qed.

Lemma push_spec ba l x : 2 <= bsz ba -> rep ba l ->
  exists ba' b o, push zero ba x = Some (ba', (b, o)) /\ bsz ba' = bsz ba /\ rep ba' (l ++ [x]) /\
    length l = b * bsz ba + o /\ o < bsz ba.
Proof.
  intros Hb (F & c & E & Eb & Et & HF & Hc & HE & -> & Etot & Hpos).
  unfold push, pushn. cbn [length].
  change (negb (1 <=? 1)) with false. cbv iota.
  destruct (Nat.ltb_spec 1 (bsz ba)); [|lia]. cbn [negb].
  rewrite Eb, Et, nth_error_mid.
  pose proof Hc as (C1 & C2 & C3).
  pose proof (concat_full_length _ _ HF) as LF.
  assert (Ll : length (firstn (blen c) (bmem c)) = blen c) by (rewrite firstn_length; lia).
  destruct (Nat.ltb_spec (bsz ba) (blen c + 1)) as [L|L].
  - assert (Ec : blen c = bsz ba) by lia.
    assert (Hfc : b_full (bsz ba) c) by (split; [assumption|lia]).
    assert (Hinit : b_cur (bsz ba) (init_bucket zero (bsz ba))).
    { split; [|split]; simpl; [apply repeat_length|lia|]. now rewrite Nat.sub_0_r. }
    assert (Hfirst : firstn (blen c) (bmem c) = bmem c) by (apply firstn_all2; lia).
    destruct E as [|e E'].
    + rewrite app_length. simpl length. destruct (Nat.leb_spec (length F + 1 - 1) (length F)); [|lia].
      replace (S (length F)) with (length (F ++ [c])) by (rewrite app_length; simpl; lia).
      rewrite nth_error_mid.
      destruct (cur_push (bsz ba) (init_bucket zero (bsz ba)) x Hinit ltac:(simpl; lia)) as [P1 P2].
      rewrite upd_mid. do 3 eexists. split; [reflexivity|]. split; [reflexivity|]. split.
      * exists (F ++ [c]). eexists. exists []. simpl. split; [reflexivity|]. split; [reflexivity|].
        split; [apply Forall_app; split; [assumption|now constructor]|].
        split; [exact P1|]. split; [constructor|]. split; [|split].
        -- rewrite Hfirst, map_app, concat_app. simpl. rewrite app_nil_r, <- !app_assoc. reflexivity.
        -- rewrite Etot, !app_length. simpl. lia.
        -- intros _. simpl. lia.
      * simpl. rewrite !app_length, LF, Ll. simpl. lia.
    + inversion HE as [|? ? He HE']; subst. destruct He as [He1 He2].
      rewrite app_length. simpl length.
      destruct (Nat.leb_spec (length F + S (S (length E')) - 1) (length F)); [lia|].
      assert (Ee : nth_error (F ++ c :: e :: E') (S (length F)) = Some e).
      { replace (S (length F)) with (length (F ++ [c])) by (rewrite app_length; simpl; lia).
        replace (F ++ c :: e :: E') with ((F ++ [c]) ++ e :: E') by (rewrite <- app_assoc; reflexivity).
        apply nth_error_mid. }
      rewrite Ee, He2. change (0 =? 0) with true. cbv iota. rewrite Ee, He2.
      assert (Hce : b_cur (bsz ba) e).
      { split; [|split]; rewrite ?He1, ?He2; simpl; [apply repeat_length|lia|]. now rewrite Nat.sub_0_r. }
      destruct (cur_push (bsz ba) e x Hce ltac:(lia)) as [P1 P2]. rewrite He2 in P1, P2.
      do 3 eexists. split; [reflexivity|]. split; [reflexivity|]. split.
      * exists (F ++ [c]). eexists. exists E'. cbn [buckets btail bsz btotal].
        split.
        { replace (S (length F)) with (length (F ++ [c])) by (rewrite app_length; simpl; lia).
          replace (F ++ c :: e :: E') with ((F ++ [c]) ++ e :: E') by (rewrite <- app_assoc; reflexivity).
          rewrite upd_mid. reflexivity. }
        split; [rewrite app_length; simpl; lia|].
        split; [apply Forall_app; split; [assumption|now constructor]|].
        split; [exact P1|]. split; [assumption|]. split; [|split].
        -- rewrite Hfirst, map_app, concat_app. cbn [bmem blen]. rewrite P2. simpl. rewrite app_nil_r, <- !app_assoc. reflexivity.
        -- rewrite Etot, !app_length. simpl. lia.
        -- simpl. lia.
      * simpl. rewrite !app_length, LF, Ll. simpl. lia.
  - rewrite nth_error_mid.
    destruct (cur_push (bsz ba) c x Hc ltac:(lia)) as [P1 P2].
    rewrite upd_mid. do 3 eexists. split; [reflexivity|]. split; [reflexivity|]. split.
    + exists F. eexists. exists E. cbn [buckets btail bsz btotal]. split; [reflexivity|]. split; [reflexivity|].
      split; [assumption|]. split; [exact P1|]. split; [assumption|]. split; [|split].
      * cbn [bmem blen]. rewrite P2, <- app_assoc. reflexivity.
      * rewrite Etot, !app_length. simpl. lia.
      * simpl. lia.
    + rewrite app_length, LF, Ll. lia.
Qed.

Lemma nth_error_concat n (F : list bucket) : Forall (b_full n) F -> forall q r, r < n ->
  nth_error (concat (map (@bmem A) F)) (q * n + r) =
  match nth_error F q with Some b => nth_error (bmem b) r | None => None end.
Proof.
  induction 1 as [|b F [H1 _] _ IH]; intros q r Hr; simpl.
  - rewrite !(proj2 (nth_error_None _ _)) by (simpl; lia). now destruct q.
  - destruct q as [|q]; simpl.
    + rewrite nth_error_app1 by lia. reflexivity.
    + rewrite nth_error_app2 by lia. replace (n + q * n + r - length (bmem b)) with (q * n + r) by lia. now apply IH.
Qed.

Lemma nth_error_firstn {X} k : forall (l : list X) i, i < k -> nth_error (firstn k l) i = nth_error l i.
Proof. induction k; intros [|x l] [|i] H; simpl; auto; try lia. apply IHk. lia. Qed.

Lemma rep_get ba l i : 0 < bsz ba -> rep ba l ->
  get ba i = nth_error l i /\
  (i < length l -> get_addr ba i = Some (i / bsz ba, i mod bsz ba)) /\ btotal ba = length l.
Proof.
  intros Hb (F & c & E & Eb & Et & HF & Hc & HE & -> & Etot & Hpos). destruct Hc as (C1 & C2 & C3).
  pose proof (concat_full_length _ _ HF) as LF.
  assert (Ll : length (firstn (blen c) (bmem c)) = blen c) by (rewrite firstn_length; lia).
  assert (Hm : i mod bsz ba < bsz ba) by (apply Nat.mod_upper_bound; lia).
  pose proof (Nat.div_mod i (bsz ba) ltac:(lia)) as Hdm.
  unfold get, get_addr, deref. rewrite Eb.
  set (q := i / bsz ba) in *. set (r := i mod bsz ba) in *. rewrite app_length, LF, Ll.
  split; [|split; [|rewrite Etot, app_length, LF, Ll; reflexivity]].
  - destruct (Nat.lt_trichotomy q (length F)) as [Q|[Q|Q]].
    + rewrite nth_error_app1 by assumption.
      destruct (nth_error F q) as [b|] eqn:En; [|apply nth_error_None in En; lia].
      assert (Hbf : b_full (bsz ba) b) by (rewrite Forall_forall in HF; apply HF; eapply nth_error_In; eauto).
      destruct Hbf as [F1 F2]. rewrite F2. destruct (Nat.ltb_spec r (bsz ba)); [|lia]. cbn [fst snd].
      rewrite nth_error_app1 by assumption. rewrite En.
      rewrite nth_error_app1 by (rewrite LF; nia). 
      replace i with (q * bsz ba + r) by lia. rewrite (nth_error_concat _ _ HF) by assumption. now rewrite En.
    + rewrite Q, nth_error_mid. destruct (Nat.ltb_spec r (blen c)).
      * cbn [fst snd]. rewrite nth_error_mid. rewrite nth_error_app2 by (rewrite LF; nia).
        rewrite LF. replace (i - length F * bsz ba) with r by nia. now rewrite nth_error_firstn.
      * symmetry. apply nth_error_None. rewrite app_length, LF, Ll. nia.
    + destruct (nth_error (F ++ c :: E) q) as [b|] eqn:En.
      * rewrite nth_error_app2 in En by lia. destruct (q - length F) as [|k] eqn:Ek; [lia|]. simpl in En.
        apply nth_error_In in En. rewrite Forall_forall in HE. destruct (HE _ En) as [_ ->].
        symmetry. apply nth_error_None. rewrite app_length, LF, Ll. nia.
      * symmetry. apply nth_error_None. rewrite app_length, LF, Ll. nia.
  - intros Hi. destruct (Nat.lt_trichotomy q (length F)) as [Q|[Q|Q]]; [..|nia].
    + rewrite nth_error_app1 by assumption.
      destruct (nth_error F q) as [b|] eqn:En; [|apply nth_error_None in En; lia].
      assert (Hbf : b_full (bsz ba) b) by (rewrite Forall_forall in HF; apply HF; eapply nth_error_In; eauto).
      destruct Hbf as [F1 F2]. rewrite F2. destruct (Nat.ltb_spec r (bsz ba)); [|lia]. reflexivity.
    + rewrite Q, nth_error_mid. destruct (Nat.ltb_spec r (blen c)); [reflexivity|nia].
Qed.

(** ** save points *)
Definition sval (n : nat) (s : nat * nat) (k : nat) : Prop :=
  k = fst s * n + snd s /\ snd s <= n /\ (0 < fst s -> 0 < snd s).

Lemma save_spec ba l : rep ba l -> exists s, bsave ba = Some s /\ sval (bsz ba) s (length l).
Proof.
  intros (F & c & E & Eb & Et & HF & Hc & HE & -> & Etot & Hpos). destruct Hc as (C1 & C2 & C3).
  unfold bsave. rewrite Eb, Et, nth_error_mid. eexists. split; [reflexivity|]. split; [|split]; cbn [fst snd].
  - rewrite app_length, (concat_full_length _ _ HF), firstn_length. lia.
  - assumption.
  - intros. apply Hpos. destruct F; [simpl in *; lia|discriminate].
Qed.

Lemma zeroed n (b : bucket) : b_full n b \/ b_cur n b \/ b_empty n b ->
  b_empty n {| bmem := zero_first zero (blen b) (bmem b); blen := 0 |}.
Proof.
  intros H. split; [|reflexivity]. cbn [bmem]. unfold zero_first. destruct H as [[H1 H2]|[(H1 & H2 & H3)|[H1 H2]]].
  - rewrite H2, skipn_all2 by lia. apply app_nil_r.
  - rewrite H3, <- repeat_app. f_equal. lia.
  - rewrite H1, H2. reflexivity.
Qed.

Lemma zero_from_cur n (b : bucket) k : length (bmem b) = n -> k <= n ->
  b_cur n {| bmem := zero_from zero k (bmem b); blen := k |} /\ firstn k (zero_from zero k (bmem b)) = firstn k (bmem b).
Proof.
  intros H Hk. unfold zero_from. assert (L : length (firstn k (bmem b)) = k) by (rewrite firstn_length; lia). split.
  - split; [|split]; cbn [bmem blen].
    + rewrite app_length, repeat_length, L. lia.
    + assumption.
    + rewrite skipn_app, L, Nat.sub_diag, skipn_O, skipn_all2 by lia. simpl. now rewrite H.
  - rewrite firstn_app, L, Nat.sub_diag, firstn_O, app_nil_r. apply firstn_all2. lia.
Qed.

Lemma sum_full n (F : list bucket) : Forall (b_full n) F -> list_sum (map (@blen A) F) = length F * n.
Proof. induction 1 as [|b F [_ H] _ IH]; [reflexivity|]. change (blen b + list_sum (map (@blen A) F) = S (length F) * n). rewrite IH, H. lia. Qed.
Lemma sum_empty n (F : list bucket) : Forall (b_empty n) F -> list_sum (map (@blen A) F) = 0.
Proof. induction 1 as [|b F [_ H] _ IH]; [reflexivity|]. change (blen b + list_sum (map (@blen A) F) = 0). lia. Qed.

Lemma restore_spec ba l s k : 0 < bsz ba -> rep ba l -> sval (bsz ba) s k -> k <= length l ->
  exists ba', brestore zero ba s = Some ba' /\ bsz ba' = bsz ba /\ rep ba' (firstn k l).
Proof.
  intros Hb (F & c & E & Eb & Et & HF & Hc & HE & -> & Etot & Hpos) (-> & S2 & S3) Hk.
  destruct s as [tb tl]. cbn [fst snd] in *.
  pose proof Hc as (C1 & C2 & C3).
  pose proof (concat_full_length _ _ HF) as LF.
  assert (Ll : length (firstn (blen c) (bmem c)) = blen c) by (rewrite firstn_length; lia).
  rewrite app_length, LF, Ll in Hk.
  assert (Htb : tb <= length F).
  { destruct (Nat.le_gt_cases tb (length F)); [assumption|]. exfalso. nia. }
  unfold brestore. rewrite Eb. cbn [fst snd].
  destruct (Nat.eq_dec tb (length F)) as [->|Hne].
  - rewrite nth_error_mid. assert (tl <= blen c) by nia.
    destruct (Nat.leb_spec tl (blen c)); [|lia].
    rewrite firstn_app, Nat.sub_diag, firstn_O, app_nil_r, firstn_all.
    rewrite skipn_app. rewrite skipn_all2 by lia. replace (S (length F) - length F) with 1 by lia. cbn [skipn app].
    destruct (zero_from_cur (bsz ba) c tl C1 S2) as [Z1 Z2].
    eexists. split; [reflexivity|]. split; [reflexivity|].
    exists F. eexists. eexists. cbn [buckets btail bsz btotal]. split; [reflexivity|]. split; [reflexivity|].
    split; [assumption|]. split; [exact Z1|]. split; [|split; [|split]].
    + apply Forall_forall. intros x Hx. apply in_map_iff in Hx as (b & <- & Hx). apply zeroed.
      rewrite Forall_forall in HE. auto.
    + cbn [bmem blen]. rewrite Z2. rewrite firstn_app. rewrite firstn_all2 by lia. f_equal.
      rewrite firstn_firstn. f_equal. lia.
    + rewrite Etot. rewrite (sum_empty _ _ HE). rewrite firstn_length, !app_length, LF, Ll. lia.
    + cbn [blen]. intros HFne. apply S3. destruct F; [congruence|simpl; lia].
  - assert (Hlt : tb < length F) by lia.
    destruct (nth_error F tb) as [b|] eqn:Eb2; [|apply nth_error_None in Eb2; lia].
    apply nth_error_split in Eb2 as (F1 & F2 & -> & L1).
    apply Forall_app in HF as [HF1 HF2]. inversion HF2 as [|? ? Hbf HF2']; subst.
    rewrite <- app_assoc. simpl app at 2. rewrite nth_error_mid.
    destruct Hbf as [B1 B2]. rewrite B2. destruct (Nat.leb_spec tl (bsz ba)); [|lia].
    rewrite firstn_app, Nat.sub_diag, firstn_O, app_nil_r, firstn_all.
    rewrite skipn_app. rewrite (skipn_all2 F1) by lia. replace (S (length F1) - length F1) with 1 by lia. cbn [skipn app].
    destruct (zero_from_cur (bsz ba) b tl B1 S2) as [Z1 Z2].
    pose proof (concat_full_length _ _ HF1) as LF1.
    eexists. split; [reflexivity|]. split; [reflexivity|].
    exists F1. eexists. eexists. cbn [buckets btail bsz btotal]. split; [reflexivity|]. split; [reflexivity|].
    split; [assumption|]. split; [exact Z1|]. split; [|split; [|split]].
    + apply Forall_forall. intros x Hx. apply in_map_iff in Hx as (b' & <- & Hx). apply zeroed.
      rewrite Forall_forall in HF2', HE. apply in_app_or in Hx as [Hx|[<-|Hx]]; auto.
    + cbn [bmem blen]. rewrite Z2. rewrite map_app, concat_app. simpl. rewrite <- !app_assoc.
      rewrite firstn_app. rewrite LF1. rewrite firstn_all2 by lia. f_equal.
      replace (length F1 * bsz ba + tl - length F1 * bsz ba) with tl by lia.
      rewrite firstn_app. replace (tl - length (bmem b)) with 0 by lia. now rewrite firstn_O, app_nil_r.
    + rewrite Etot. rewrite (map_app (@blen A)), list_sum_app. change (map (@blen A) (c :: E)) with (blen c :: map (@blen A) E).
      change (list_sum (blen c :: map (@blen A) E)) with (blen c + list_sum (map (@blen A) E)).
      rewrite (sum_empty _ _ HE), (sum_full _ _ HF2').
      rewrite firstn_length. rewrite !app_length, LF, Ll, app_length. simpl length. nia.
    + cbn [blen]. intros HFne. apply S3. destruct F1; [congruence|simpl; lia].
Qed.

Lemma brun_spec ops : forall ba saves l ks, 2 <= bsz ba -> rep ba l -> Forall2 (sval (bsz ba)) saves ks ->
  forall l' ks', bspec (l, ks) ops = Some (l', ks') ->
  exists ba' saves', brun zero (ba, saves) ops = Some (ba', saves') /\ bsz ba' = bsz ba /\ rep ba' l'.
Proof.
  induction ops as [|o ops IH]; intros ba saves l ks Hb R HS l' ks' H.
  - simpl in H. inversion H; subst. exists ba, saves. auto.
  - cbn [bspec] in H. cbn [brun]. destruct o as [x| |n]; cbn [bspec_step bstep] in *.
    + destruct (push_spec ba l x Hb R) as (ba1 & b & o & E & Es & R1 & _). rewrite E.
      destruct (IH ba1 saves _ ks ltac:(lia) R1 ltac:(rewrite Es; assumption) _ _ H) as (ba' & s' & E' & Es' & R').
      exists ba', s'. repeat split; [exact E'|congruence|assumption].
    + destruct (save_spec ba l R) as (s & E & V). rewrite E.
      destruct (IH ba (saves ++ [s]) l (ks ++ [length l]) Hb R ltac:(apply Forall2_app; [assumption|repeat constructor; apply V]) _ _ H) as (ba' & s' & E' & Es' & R').
      exists ba', s'. auto.
    + destruct (nth_error ks n) as [k|] eqn:En; [|discriminate].
      destruct (Nat.leb_spec k (length l)); [|discriminate].
      assert (exists s, nth_error saves n = Some s /\ sval (bsz ba) s k) as (s & Ens & V).
      { clear - HS En. revert n En. induction HS as [|s k0 ss ks V HS IH]; intros [|n] En; simpl in *; try discriminate.
        - inversion En; subst. eauto.
        - apply IH. assumption. }
      rewrite Ens. destruct (restore_spec ba l s k ltac:(lia) R V H0) as (ba1 & E & Es & R1). rewrite E.
      destruct (IH ba1 saves _ ks ltac:(lia) R1 ltac:(rewrite Es; assumption) _ _ H) as (ba' & s' & E' & Es' & R').
      exists ba', s'. repeat split; [exact E'|congruence|assumption].
Qed.

Lemma init_rep n : rep (bucket_arr_init zero n) [].
Proof.
  exists [], (init_bucket zero n), []. simpl. split; [reflexivity|]. split; [reflexivity|]. split; [constructor|].
  split; [|split; [constructor|split; [reflexivity|split; [reflexivity|congruence]]]].
  split; [apply repeat_length|]. split; [simpl; lia|]. simpl. now rewrite Nat.sub_0_r.
Qed.

(** ** regions of arbitrary size *)
Definition winv (ba : barr) : Prop :=
  exists F c E, buckets ba = F ++ c :: E /\ btail ba = length F /\
    Forall (fun b : bucket => length (bmem b) = bsz ba /\ blen b <= bsz ba) F /\ b_cur (bsz ba) c /\ Forall (b_empty (bsz ba)) E.
Definition live (ba : barr) (b o : nat) : Prop :=
  exists bk, nth_error (buckets ba) b = Some bk /\ o < blen bk.

Lemma rep_winv ba l : rep ba l -> winv ba.
Proof.
  intros (F & c & E & Eb & Et & HF & Hc & HE & _). exists F, c, E. repeat split; auto; try apply Hc.
  eapply Forall_impl; [|exact HF]. intros b [H1 H2]. split; [assumption|lia].
Qed.

Lemma nth_error_memwrite_low (mem : list A) off data i : i < off -> off <= length mem ->
  nth_error (memwrite mem off data) i = nth_error mem i.
Proof.
  intros H Hl. unfold memwrite. rewrite nth_error_app1 by (rewrite firstn_length; lia). now apply nth_error_firstn.
Qed.
Lemma nth_error_skipn {X} k : forall (l : list X) i, nth_error (skipn k l) i = nth_error l (k + i).
Proof. induction k; intros [|x l] i; simpl; auto. now destruct i. Qed.

Lemma cur_pushn n (c : bucket) data r : b_cur n c -> length data <= r -> blen c + r <= n ->
  b_cur n {| bmem := memwrite (bmem c) (blen c) data; blen := blen c + r |} /\
  (forall i, i < r -> nth_error (memwrite (bmem c) (blen c) data) (blen c + i) = nth_error (data ++ repeat zero (r - length data)) i).
Proof.
  intros (H1 & H2 & H3) Hd Hr. split.
  - split; [|split]; cbn [bmem blen].
    + rewrite length_memwrite by lia. assumption.
    + assumption.
    + rewrite skipn_memwrite by lia.
      replace (blen c + r) with (r + blen c) by lia. rewrite <- skipn_skipn, H3, skipn_repeat. f_equal. lia.
  - intros i Hi. unfold memwrite.
    rewrite nth_error_app2 by (rewrite firstn_length; lia). rewrite firstn_length.
    replace (blen c + i - Nat.min (blen c) (length (bmem c))) with i by lia.
    destruct (Nat.lt_ge_cases i (length data)).
    + rewrite !nth_error_app1 by lia. reflexivity.
    + rewrite !nth_error_app2 by lia. rewrite nth_error_skipn.
      assert (Hn : forall j, j < n - blen c -> nth_error (bmem c) (blen c + j) = Some zero).
      { intros j Hj. rewrite <- nth_error_skipn, H3. rewrite nth_error_repeat by assumption. reflexivity. }
      replace (blen c + length data + (i - length data)) with (blen c + i) by lia.
      rewrite Hn by lia. symmetry. apply nth_error_repeat. lia.
Qed.

Lemma live_app F (c : bucket) E n1 n2 n3 b o : live (mkBarr (F ++ c :: E) n1 n2 n3) b o <->
  (b < length F /\ exists bk, nth_error F b = Some bk /\ o < blen bk) \/
  (b = length F /\ o < blen c) \/
  (length F < b /\ exists bk, nth_error E (b - length F - 1) = Some bk /\ o < blen bk).
Proof.
  unfold live. cbn [buckets]. split.
  - intros (bk & H & Ho). destruct (Nat.lt_trichotomy b (length F)) as [L|[->|L]].
    + left. rewrite nth_error_app1 in H by assumption. eauto.
    + right. left. rewrite nth_error_mid in H. inversion H; subst. auto.
    + right. right. split; [assumption|]. rewrite nth_error_app2 in H by lia.
      destruct (b - length F) as [|k] eqn:Ek; [lia|]. simpl in H. exists bk. simpl. rewrite Nat.sub_0_r. auto.
  - intros [(L & bk & H & Ho)|[(-> & Ho)|(L & bk & H & Ho)]].
    + exists bk. rewrite nth_error_app1 by assumption. auto.
    + exists c. rewrite nth_error_mid. auto.
    + exists bk. rewrite nth_error_app2 by lia. destruct (b - length F) as [|k] eqn:Ek; [lia|]. simpl in *.
      rewrite Nat.sub_0_r in H. auto.
Qed.

Lemma pushn_spec ba data r : winv ba -> length data <= r -> r < bsz ba ->
  exists ba' t off, pushn zero ba data r = Some (ba', (t, off)) /\ bsz ba' = bsz ba /\ winv ba' /\
    off + r <= bsz ba /\
    (forall i, i < r -> live ba' t (off + i) /\ deref ba' (t, off + i) = nth_error (data ++ repeat zero (r - length data)) i) /\
    (forall b o, live ba b o -> live ba' b o /\ deref ba' (b, o) = deref ba (b, o) /\ (b <> t \/ o < off)).
Proof.
  intros (F & c & E & Eb & Et & HF & Hc & HE) Hd Hr.
  unfold pushn. destruct (Nat.leb_spec (length data) r); [|lia]. destruct (Nat.ltb_spec r (bsz ba)); [|lia]. cbn [negb].
  rewrite Eb, Et, nth_error_mid. pose proof Hc as (C1 & C2 & C3).
  (* writing to the bucket [c1] in the middle of [F1 ++ c1 :: E1] *)
  assert (W : forall F1 c1 E1, b_cur (bsz ba) c1 -> blen c1 + r <= bsz ba ->
     Forall (fun b : bucket => length (bmem b) = bsz ba /\ blen b <= bsz ba) F1 -> Forall (b_empty (bsz ba)) E1 ->
     forall tot, let ba' := {| buckets := F1 ++ {| bmem := memwrite (bmem c1) (blen c1) data; blen := blen c1 + r |} :: E1;
         bsz := bsz ba; btotal := tot; btail := length F1 |} in
     winv ba' /\
     (forall i, i < r -> live ba' (length F1) (blen c1 + i) /\ deref ba' (length F1, blen c1 + i) = nth_error (data ++ repeat zero (r - length data)) i) /\
     (forall b o, live (mkBarr (F1 ++ c1 :: E1) (bsz ba) tot (length F1)) b o -> live ba' b o /\
        deref ba' (b, o) = deref (mkBarr (F1 ++ c1 :: E1) (bsz ba) tot (length F1)) (b, o) /\ (b <> length F1 \/ o < blen c1))).
  { intros F1 c1 E1 Hc1 Hfit HF1 HE1 tot ba'. destruct (cur_pushn (bsz ba) c1 data r Hc1 Hd Hfit) as [P1 P2].
    pose proof Hc1 as (D1 & D2 & D3). split; [|split].
    - exists F1. eexists. exists E1. cbn [buckets btail bsz]. repeat split; try eassumption; try reflexivity; apply P1.
    - intros i Hi. split.
      + apply live_app. right. left. cbn [blen]. split; [reflexivity|lia].
      + unfold ba', deref. cbn [buckets fst snd]. rewrite nth_error_mid. cbn [bmem]. apply P2. assumption.
    - intros b o Hl. apply live_app in Hl. unfold ba', deref. cbn [buckets fst snd].
      destruct Hl as [(L & bk & Hn & Ho)|[(-> & Ho)|(L & bk & Hn & Ho)]].
      + split; [apply live_app; left; eauto|]. rewrite !nth_error_app1 by assumption. split; [reflexivity|left; lia].
      + split; [apply live_app; right; left; cbn [blen]; split; [reflexivity|lia]|]. rewrite !nth_error_mid. cbn [bmem].
        split; [|now right]. apply nth_error_memwrite_low; lia.
      + split; [apply live_app; right; right; eauto|]. split; [|left; lia].
        rewrite !nth_error_app2 by lia. destruct (b - length F1) as [|k] eqn:Ek; [lia|]. reflexivity. }
  assert (Lv : forall b o, live ba b o <-> live (mkBarr (F ++ c :: E) (bsz ba) (btotal ba + r) (length F)) b o).
  { intros. unfold live. cbn [buckets]. rewrite Eb. reflexivity. }
  assert (Dv : forall p, deref ba p = deref (mkBarr (F ++ c :: E) (bsz ba) (btotal ba + r) (length F)) p).
  { intros. unfold deref. cbn [buckets]. rewrite Eb. reflexivity. }
  destruct (Nat.ltb_spec (bsz ba) (blen c + r)) as [L|L].
  - assert (HF' : Forall (fun b : bucket => length (bmem b) = bsz ba /\ blen b <= bsz ba) (F ++ [c])).
    { apply Forall_app. split; [assumption|]. constructor; auto. }
    destruct E as [|e E'].
    + rewrite app_length. simpl length. destruct (Nat.leb_spec (length F + 1 - 1) (length F)); [|lia].
      replace (S (length F)) with (length (F ++ [c])) by (rewrite app_length; simpl; lia).
      rewrite nth_error_mid, upd_mid.
      assert (Hi : b_cur (bsz ba) (init_bucket zero (bsz ba))).
      { split; [|split]; simpl; [apply repeat_length|lia|]. now rewrite Nat.sub_0_r. }
      destruct (W (F ++ [c]) (init_bucket zero (bsz ba)) [] Hi ltac:(simpl; lia) HF' HE (btotal ba + r)) as (W1 & W2 & W3).
      do 3 eexists. split; [reflexivity|]. split; [reflexivity|]. split; [exact W1|]. split; [simpl; lia|]. split; [exact W2|].
      intros b o Hl. rewrite Dv. rewrite Lv in Hl.
      assert (Hl2 : live (mkBarr ((F ++ [c]) ++ [init_bucket zero (bsz ba)]) (bsz ba) (btotal ba + r) (length (F ++ [c]))) b o /\ b < length (F ++ [c])).
      { destruct Hl as (bk & Hn & Ho). cbn [buckets] in Hn. assert (b < length (F ++ [c])) by (apply nth_error_Some; congruence).
        split; [|assumption]. exists bk. cbn [buckets]. rewrite nth_error_app1 by assumption. auto. }
      destruct Hl2 as [Hl2 Hlt]. destruct (W3 b o Hl2) as (Q1 & Q2 & Q3). split; [exact Q1|]. split; [|left; lia].
      rewrite Q2. unfold deref. cbn [buckets fst snd]. rewrite nth_error_app1 by assumption. reflexivity.
    + inversion HE as [|? ? He HE']; subst. pose proof He as [He1 He2].
      rewrite app_length. simpl length.
      destruct (Nat.leb_spec (length F + S (S (length E')) - 1) (length F)); [lia|].
      assert (Es : F ++ c :: e :: E' = (F ++ [c]) ++ e :: E') by (rewrite <- app_assoc; reflexivity).
      rewrite Es in *.
      replace (S (length F)) with (length (F ++ [c])) by (rewrite app_length; simpl; lia).
      rewrite nth_error_mid, He2. change (0 =? 0) with true. cbv iota. rewrite nth_error_mid, upd_mid.
      assert (Hce : b_cur (bsz ba) e).
      { split; [|split]; rewrite ?He1, ?He2; simpl; [apply repeat_length|lia|]. now rewrite Nat.sub_0_r. }
      destruct (W (F ++ [c]) e E' Hce ltac:(lia) HF' HE' (btotal ba + r)) as (W1 & W2 & W3).
      do 3 eexists. split; [reflexivity|]. split; [reflexivity|]. split; [exact W1|]. split; [lia|]. split; [exact W2|].
      intros b o Hl. rewrite Dv. rewrite Lv in Hl. apply (W3 b o) in Hl. exact Hl.
  - rewrite nth_error_mid, upd_mid.
    destruct (W F c E Hc ltac:(lia) HF HE (btotal ba + r)) as (W1 & W2 & W3).
    do 3 eexists. split; [reflexivity|]. split; [reflexivity|]. split; [exact W1|]. split; [lia|]. split; [exact W2|].
    intros b o Hl. rewrite Dv. rewrite Lv in Hl. apply (W3 b o) in Hl. exact Hl.
Qed.

(** region (b, off, r, d): the [r] items from [off] of bucket [b], given content [d] *)
Definition region_holds (ba : barr) (g : nat * nat * nat * list A) : Prop :=
  let '(b, off, r, d) := g in
  off + r <= bsz ba /\
  forall i, i < r -> live ba b (off + i) /\ deref ba (b, off + i) = nth_error (d ++ repeat zero (r - length d)) i.
Definition region_disjoint (g1 g2 : nat * nat * nat * list A) : Prop :=
  let '(b1, o1, r1, _) := g1 in let '(b2, o2, r2, _) := g2 in
  forall i1 i2, i1 < r1 -> i2 < r2 -> (b1, o1 + i1) <> (b2, o2 + i2).

Lemma pushns_spec ops : forall ba, winv ba -> Forall (fun dr => length (fst dr) <= snd dr < bsz ba) ops ->
  exists ba' regs, pushns zero ba ops = Some (ba', regs) /\ bsz ba' = bsz ba /\
    map (fun g => let '(_, _, r, d) := g in (d, r)) regs = ops /\
    Forall (region_holds ba') regs /\
    (forall g, region_holds ba g -> region_holds ba' g /\ Forall (region_disjoint g) regs) /\
    (forall i j g1 g2, nth_error regs i = Some g1 -> nth_error regs j = Some g2 -> i < j -> region_disjoint g1 g2).
Proof.
  induction ops as [|[d r] ops IH]; intros ba Wb HO.
  - exists ba, []. simpl. repeat split; auto. intros [|i] j g1 g2 H; discriminate.
  - inversion HO as [|? ? [H1 H2] HO']; subst. cbn [fst snd] in *. cbn [pushns].
    destruct (pushn_spec ba d r Wb H1 H2) as (ba1 & t & off & -> & Es & W1 & Hf & Hreg & Hold).
    destruct (IH ba1 W1) as (ba2 & regs & -> & Es2 & Em & HR & HK & HD).
    { rewrite Es. assumption. }
    assert (R1 : region_holds ba1 (t, off, r, d)) by (split; [lia|exact Hreg]).
    exists ba2, ((t, off, r, d) :: regs). split; [reflexivity|]. split; [congruence|]. split; [simpl; congruence|].
    split; [|split].
    + constructor; [|assumption]. now apply HK.
    + intros [[[b0 o0] r0] d0] [G1 G2].
      assert (G : region_holds ba1 (b0, o0, r0, d0)).
      { split; [lia|]. intros i Hi. destruct (G2 i Hi) as [Gl Gd]. destruct (Hold _ _ Gl) as (Q1 & Q2 & _).
        split; [assumption|]. now rewrite Q2. }
      destruct (HK _ G) as [K1 K2]. split; [exact K1|]. constructor; [|exact K2].
      intros i1 i2 Hi1 Hi2 Heq. inversion Heq. destruct (G2 i1 Hi1) as [Gl _].
      destruct (Hold _ _ Gl) as (_ & _ & [Q|Q]); [congruence|]. lia.
    + intros [|i] [|j] g1 g2 E1 E2 Hlt; try lia; simpl in E1, E2.
      * inversion E1; subst. destruct (HK _ R1) as [_ K2]. rewrite Forall_forall in K2. apply K2. eapply nth_error_In; eauto.
      * eapply HD; eauto. lia.
Qed.
End Bk.
