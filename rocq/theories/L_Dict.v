From Verif Require Import Base M_Hash L_Hash M_Dict S_Dict.
Require Verif.L_Array.

(** ** Facts about the hash table that dictionaries need and L_Hash does not state *)
Section H.
Context {K V : Type}.
Variable keycmp : K -> K -> bool.
Variable hash_func : K -> N.
Hypothesis keycmp_eq : forall a b, keycmp a b = true <-> a = b.
Notation hash := (@M_Hash.hash K V).
Notation inv := (@L_Hash.inv K V hash_func).
Notation stored := (L_Hash.stored hash_func).

Lemma rehash_keys old : forall nh h', rehash keycmp hash_func old nh = Some h' ->
  keys h' = keys nh /\ len h' = @len K V nh.
Proof.
  induction old as [|s old IH]; intros nh h' E; cbn [rehash] in E.
  - injection E as <-. auto.
  - destruct s as [| |m v ki]; eauto.
    destruct (nth_error (keys nh) ki) as [key|]; [|discriminate].
    destruct (probe keycmp hash_func nh key) as [i|]; [|discriminate].
    destruct (slot_at nh i); try discriminate; apply IH in E; exact E.
Qed.

Lemma set_new h key v : inv h -> ~ In key (keys h) ->
  exists h', hash_set keycmp hash_func h key v = Some h' /\ inv h' /\
   keys h' = keys h ++ [key] /\ len h' = S (len h) /\
   (forall k w, (exists i, stored h' i k w) <->
      (if keycmp key k then w = v else exists i, stored h i k w)).
Proof.
  intros I N. destruct (set_spec keycmp hash_func keycmp_eq h key v I) as (h' & E & I' & S).
  exists h'. split; [exact E|]. split; [exact I'|].
  assert (X : keys h' = keys h ++ [key] /\ len h' = Datatypes.S (len h)); [|destruct X; auto].
  unfold hash_set in E.
  destruct (if max_load h <? load h then resize keycmp hash_func h (cap h * 2) else Some h) as [h1|] eqn:R;
    [|discriminate].
  assert (KL : keys h1 = keys h /\ len h1 = len h).
  { destruct (max_load h <? load h).
    - apply rehash_keys in R. exact R.
    - injection R as <-. auto. }
  destruct KL as [K1 L1].
  destruct (probe keycmp hash_func h1 key) as [i|]; [|discriminate].
  destruct (slot_at h1 i); injection E as <-; cbn [keys len]; rewrite ?K1, ?L1; auto.
  exfalso. apply N. destruct (proj2 (S key v)) as (j & ki & _ & _ & Hk).
  - destruct (keycmp key key) eqn:Ek; [reflexivity|].
    assert (keycmp key key = true) by now apply keycmp_eq. congruence.
  - cbn [set_slot keys] in Hk. rewrite K1 in Hk. eapply nth_error_In; exact Hk.
Qed.
End H.

Section A.
Context {K : Type}.
Variable keycmp : K -> K -> bool.
Variable hash_func : K -> N.
Hypothesis keycmp_eq : forall a b, keycmp a b = true <-> a = b.
Notation hash := (@M_Hash.hash K (nat * nat)).
Notation inv := (@L_Hash.inv K (nat * nat) hash_func).
Notation stored := (L_Hash.stored hash_func).

Lemma assign_spec h key v w0 : inv h -> (exists i, stored h i key w0) ->
  exists h', hash_assign keycmp hash_func h key v = Some h' /\ inv h' /\
   keys h' = keys h /\ len h' = len h /\
   (forall k w, (exists i, stored h' i k w) <->
      (if keycmp key k then w = v else exists i, stored h i k w)).
Proof.
  intros I (i0 & H0). unfold hash_assign.
  destruct (probe_spec keycmp hash_func keycmp_eq h key I) as (d & Hd & -> & Hp & [[He Hn]|[w1 Hs]]).
  { exfalso. eapply Hn; eauto. }
  pose proof Hs as (ki & Hl & E & Hk). cbn [M_Array.bind]. rewrite E.
  set (i := pos (cap h) (start hash_func h key) d) in *.
  set (h2 := set_slot h i (SFull (h2_of (hash_func key)) v ki)).
  assert (Hsame : slot_at h2 i = SFull (h2_of (hash_func key)) v ki) by (now apply (slot_at_upd_same h)).
  assert (Hoth : forall j, i <> j -> slot_at h2 j = slot_at h j).
  { intros j Hj. eapply slot_at_upd_other; [reflexivity|assumption]. }
  assert (Hlen : length (slots h2) = length (slots h)) by apply upd_length.
  assert (Hst : forall j k w, stored h2 j k w <-> (j <> i /\ stored h j k w) \/ (j = i /\ k = key /\ w = v)).
  { intros j k w. unfold stored. rewrite Hlen. split.
    - intros (n & Hj & E2 & Hn). destruct (Nat.eq_dec i j) as [<-|Hne].
      + right. rewrite Hsame in E2. inversion E2; subst. simpl in Hn. rewrite Hk in Hn. inversion Hn. auto.
      + left. rewrite Hoth in E2 by assumption. split; [lia|]. exists n. auto.
    - intros [(Hne & n & Hj & E2 & Hn) | (-> & -> & ->)].
      + exists n. rewrite Hoth by lia. auto.
      + exists ki. auto. }
  assert (Hne : forall j, nonempty (slot_at h j) = true -> nonempty (slot_at h2 j) = true).
  { intros j Hj. destruct (Nat.eq_dec i j) as [<-|Hn]; [now rewrite Hsame|now rewrite Hoth]. }
  exists h2. split; [reflexivity|]. split; [|split; [reflexivity|split; [reflexivity|]]].
  + constructor.
    * apply (inv_pow _ _ I).
    * apply (inv_cap _ _ I).
    * rewrite Hlen. apply (inv_len _ _ I).
    * apply (inv_max _ _ I).
    * pose proof (count_upd (slots h) i (SFull (h2_of (hash_func key)) v ki) Hl) as C.
      unfold slot_at in E. rewrite E in C. simpl in C. pose proof (inv_cnt _ _ I).
      unfold h2, set_slot. cbn [slots load]. lia.
    * apply (inv_load _ _ I).
    * intros j m w n E2. destruct (Nat.eq_dec i j) as [<-|Hn].
      -- rewrite Hsame in E2. inversion E2; subst. exists key. auto.
      -- rewrite Hoth in E2 by assumption. apply (inv_full _ _ I _ _ _ _ E2).
    * intros j k w H. apply Hst in H. destruct H as [(Hn & H) | (-> & -> & ->)].
      -- destruct (inv_path _ _ I _ _ _ H) as (d2 & Hd2 & Ep & Hp2). exists d2. repeat split; auto.
      -- exists d. repeat split; auto.
    * intros j1 j2 k w1' w2 H1 H2. apply Hst in H1, H2.
      destruct H1 as [(N1 & H1)|(-> & -> & ->)], H2 as [(N2 & H2)|(E1 & E2 & E3)]; subst; auto.
      -- eapply (inv_uniq _ _ I); eauto.
      -- exfalso. apply N1. eapply (inv_uniq _ _ I); eauto.
      -- exfalso. apply N2. eapply (inv_uniq _ _ I); eauto.
  + intros k w. destruct (keycmp key k) eqn:Ek.
    * apply keycmp_eq in Ek. subst k. split.
      -- intros (j & Hj). apply Hst in Hj. destruct Hj as [(Hn & Hj)|(_ & _ & ->)]; [|reflexivity].
         exfalso. apply Hn. eapply (inv_uniq _ _ I); eauto.
      -- intros ->. exists i. apply Hst. right. auto.
    * split.
      -- intros (j & Hj). apply Hst in Hj. destruct Hj as [(_ & Hj)|(_ & -> & _)]; [eauto|].
         assert (keycmp key key = true) by now apply keycmp_eq. congruence.
      -- intros (j & Hj). exists j. apply Hst.
         destruct (Nat.eq_dec j i) as [->|]; [|left; auto].
         exfalso. destruct Hj as (n & _ & E2 & Hn). rewrite E in E2. inversion E2; subst.
         rewrite Hk in Hn. inversion Hn; subst.
         assert (keycmp k k = true) by now apply keycmp_eq. congruence.
Qed.
End A.

(** ** Lists *)
Lemma nth_snoc_old {A} (l : list A) x i : i < length l -> nth_error (l ++ [x]) i = nth_error l i.
Proof. intros. now apply nth_error_app1. Qed.
Lemma nth_snoc_new {A} (l : list A) x : nth_error (l ++ [x]) (length l) = Some x.
Proof. rewrite nth_error_app2, Nat.sub_diag by lia. reflexivity. Qed.
Lemma nth_lt {A} (l : list A) i x : nth_error l i = Some x -> i < length l.
Proof. intros E. apply nth_error_Some. congruence. Qed.

Lemma last_cons {A} (l : list A) a b : last (a :: l) b = last l a.
Proof. revert a b. induction l as [|x l IH]; intros; [reflexivity|]. change (last (x :: l) b = last (x :: l) a). now rewrite !IH. Qed.

Section D.
Context {K : Type}.
Variables str_eql keycmp eqb : K -> K -> bool.
Variable hash_func : K -> N.
Variable str_of : nat -> K.
Hypothesis str_eql_eq : forall a b, str_eql a b = true <-> a = b.
Hypothesis keycmp_eq : forall a b, keycmp a b = true <-> a = b.
Hypothesis eqb_eq : forall a b, eqb a b = true <-> a = b.
Notation hash := (@M_Hash.hash K (nat * nat)).
Notation inv := (@L_Hash.inv K (nat * nat) hash_func).
Notation stored := (L_Hash.stored hash_func).
Notation world := (world K).
Notation omap := (@omap K).

Lemma eqb_refl k : eqb k k = true.
Proof. now apply eqb_eq. Qed.
Lemma eqb_neq a b : a <> b -> eqb a b = false.
Proof. intros N. destruct (eqb a b) eqn:E; [|reflexivity]. apply eqb_eq in E. contradiction. Qed.
Lemma keycmp_neq a b : keycmp a b = false <-> a <> b.
Proof.
  assert (R : forall b, keycmp b b = true) by (intros; now apply keycmp_eq). split; [intros E ->; rewrite R in E; discriminate|].
  intros N. destruct (keycmp a b) eqn:E; [|reflexivity]. apply keycmp_eq in E. contradiction.
Qed.
Lemma key_dec (a b : K) : {a = b} + {a <> b}.
Proof. destruct (eqb a b) eqn:E; [left; now apply eqb_eq|right; intros ->; rewrite eqb_refl in E; discriminate]. Qed.

(** *** the specification's maps *)
Lemma existsb_key (l : omap) k : existsb (fun p => eqb (fst p) k) l = true <-> In k (map fst l).
Proof.
  rewrite existsb_exists, in_map_iff. split; intros ([a v] & H1 & H2).
  - exists (a, v). apply eqb_eq in H2. auto.
  - exists (a, v). cbn in *. split; [assumption|]. now apply eqb_eq.
Qed.
Lemma lookup_in (l : omap) k v : NoDup (map fst l) -> (lookup eqb l k = Some v <-> In (k, v) l).
Proof.
  intros N. unfold lookup. induction l as [|[a x] l IH]; [cbn; split; [discriminate|contradiction]|].
  inversion N as [|? ? Hn N']; subst. cbn [find fst].
  destruct (eqb a k) eqn:E.
  - apply eqb_eq in E as ->. cbn. split; [intros [= ->]; now left|].
    intros [[= ->]|H]; [reflexivity|]. exfalso. apply Hn. now apply (in_map fst) in H.
  - rewrite IH by assumption. split; [now right|]. intros [[= -> ->]|H]; [|assumption].
    rewrite eqb_refl in E. discriminate.
Qed.
Lemma lookup_none (l : omap) k : lookup eqb l k = None <-> ~ In k (map fst l).
Proof.
  unfold lookup. split.
  - intros H I. apply existsb_key in I. apply existsb_exists in I as (p & Hp & E).
    destruct (find _ l) eqn:F; [discriminate|]. apply find_none with (x := p) in F; [|assumption].
    cbn in F. congruence.
  - intros H. destruct (find _ l) as [p|] eqn:F; [|reflexivity].
    apply find_some in F as [Hp E]. exfalso. apply H. apply existsb_key, existsb_exists. eauto.
Qed.
Lemma set_old (l : omap) k v : In k (map fst l) ->
  set_entry eqb l k v = map (fun p => if eqb (fst p) k then (k, v) else p) l.
Proof. intros H. unfold set_entry. apply existsb_key in H. now rewrite H. Qed.
Lemma set_new_entry (l : omap) k v : ~ In k (map fst l) -> set_entry eqb l k v = l ++ [(k, v)].
Proof.
  intros H. unfold set_entry. destruct (existsb _ l) eqn:E; [|reflexivity].
  exfalso. apply H. now apply existsb_key.
Qed.
Lemma replaced_keys (l : omap) k v : map fst (map (fun p => if eqb (fst p) k then (k, v) else p) l) = map fst l.
Proof.
  rewrite map_map. apply map_ext. intros [a x]. cbn. destruct (eqb a k) eqn:E; [|reflexivity].
  apply eqb_eq in E. now subst.
Qed.
Lemma in_replaced (l : omap) k v a x : In k (map fst l) ->
  (In (a, x) (map (fun p => if eqb (fst p) k then (k, v) else p) l) <->
   (a = k /\ x = v) \/ (a <> k /\ In (a, x) l)).
Proof.
  intros Hk. rewrite in_map_iff. split.
  - intros ([b y] & E & H). cbn in E. destruct (eqb b k) eqn:F.
    + injection E as <- <-. auto.
    + injection E as -> ->. right. split; [|assumption]. intros ->. rewrite eqb_refl in F. discriminate.
  - intros [[-> ->]|[N H]].
    + apply in_map_iff in Hk as ([b y] & <- & H). exists (b, y). cbn. now rewrite eqb_refl.
    + exists (a, x). cbn. rewrite eqb_neq by assumption. auto.
Qed.
Lemma set_keys_nodup (l : omap) k v : NoDup (map fst l) -> NoDup (map fst (set_entry eqb l k v)).
Proof.
  intros N. destruct (in_dec key_dec k (map fst l)) as [H|H].
  - rewrite set_old by assumption. now rewrite replaced_keys.
  - rewrite set_new_entry by assumption. rewrite map_app. cbn.

    rewrite <- rev_involutive with (l := map fst l ++ [k]). apply NoDup_rev. rewrite rev_app_distr. cbn.
    constructor; [rewrite <- in_rev; assumption|]. now apply NoDup_rev.
Qed.
Lemma written_snoc e (m : omap) p : written eqb e (m ++ [p]) =
  (set_entry eqb (fst (written eqb e m)) (fst p) (snd p),
   snd (written eqb e m) || (15 <=? length (fst (written eqb e m)))).
Proof. unfold written. rewrite fold_left_app. cbn. destruct (fold_left _ m e). reflexivity. Qed.

(** *** tables *)
Definition hrep (h : hash) (l : omap) : Prop :=
  inv h /\ keys h = map fst l /\ len h = length l /\
  (forall i k ko v, stored h i k (ko, v) -> str_of ko = k /\ ko <> 0 /\ In (k, v) l) /\
  (forall k v, In (k, v) l -> exists i ko, stored h i k (ko, v)).

Lemma hrep_init : hrep (hash_init 16) [].
Proof.
  destruct (init_inv (K := K) (V := nat * nat) hash_func 4 ltac:(cbn; lia)) as [I R]. split; [exact I|].
  split; [reflexivity|]. split; [reflexivity|]. split.
  - intros i k ko v H. assert (X : exists i, stored (hash_init (2 ^ 4)) i k (ko, v)) by (exists i; exact H).
    apply R in X. discriminate.
  - intros k v [].
Qed.
Lemma hrep_new h l key v : hrep h l -> key <> 0 -> ~ In (str_of key) (map fst l) ->
  exists h', hash_set keycmp hash_func h (str_of key) (key, v) = Some h' /\ hrep h' (l ++ [(str_of key, v)]).
Proof.
  intros (I & Ek & El & H1 & H2) Hk Hn.
  destruct (set_new keycmp hash_func keycmp_eq h (str_of key) (key, v) I) as (h' & E & I' & K' & L' & S').
  { now rewrite Ek. }
  exists h'. split; [exact E|]. split; [exact I'|].
  split; [now rewrite K', Ek, map_app|]. split; [rewrite L', El, app_length; cbn; lia|]. split.
  - intros i k ko w Hs. assert (X : exists i, stored h' i k (ko, w)) by eauto. apply S' in X.
    destruct (keycmp (str_of key) k) eqn:C.
    + apply keycmp_eq in C. subst k. injection X as -> ->. split; [reflexivity|]. split; [assumption|].
      apply in_app_iff. right. now left.
    + destruct X as (j & X). apply H1 in X as (-> & ? & X). split; [reflexivity|]. split; [assumption|].
      apply in_app_iff. now left.
  - intros k w Hin. apply in_app_iff in Hin as [Hin|[[= <- <-]|[]]].
    + destruct (H2 _ _ Hin) as (i & ko & Hs). assert (X : exists i, stored h' i k (ko, w)).
      { apply S'. replace (keycmp (str_of key) k) with false; [eauto|]. symmetry. apply keycmp_neq. intros <-.
        apply Hn. now apply (in_map fst) in Hin. }
      destruct X as (j & X). eauto.
    + assert (X : exists i, stored h' i (str_of key) (key, v)).
      { apply S'. replace (keycmp (str_of key) (str_of key)) with true; [reflexivity|]. symmetry. now apply keycmp_eq. }
      destruct X as (j & X). eauto.
Qed.
Lemma hrep_assign h l key v : NoDup (map fst l) -> hrep h l -> key <> 0 -> In (str_of key) (map fst l) ->
  exists h', hash_assign keycmp hash_func h (str_of key) (key, v) = Some h' /\
    hrep h' (set_entry eqb l (str_of key) v).
Proof.
  intros N (I & Ek & El & H1 & H2) Hk Hin.
  assert (X : exists i w0, stored h i (str_of key) w0).
  { apply in_map_iff in Hin as ([a x] & E & Hin). cbn in E. subst a. apply H2 in Hin as (i & ko & Hs). eauto. }
  destruct X as (i0 & w0 & X).
  destruct (assign_spec keycmp hash_func keycmp_eq h (str_of key) (key, v) w0 I) as (h' & E & I' & K' & L' & S').
  { eauto. }
  exists h'. split; [exact E|]. rewrite set_old by assumption. split; [exact I'|].
  split; [now rewrite K', Ek, replaced_keys|]. split; [now rewrite L', El, map_length|]. split.
  - intros i k ko w Hs. rewrite in_replaced by assumption.
    assert (Y : exists i, stored h' i k (ko, w)) by eauto. apply S' in Y.
    destruct (keycmp (str_of key) k) eqn:C.
    + apply keycmp_eq in C. subst k. injection Y as -> ->. auto.
    + destruct Y as (j & Y). apply H1 in Y as (-> & ? & Y). split; [reflexivity|]. split; [assumption|].
      right. split; [|assumption]. apply keycmp_neq in C. congruence.
  - intros k w Hr. apply in_replaced in Hr; [|assumption]. destruct Hr as [[-> ->]|[Hne Hr]].
    + assert (Y : exists i, stored h' i (str_of key) (key, v)).
      { apply S'. replace (keycmp (str_of key) (str_of key)) with true; [reflexivity|]. symmetry. now apply keycmp_eq. }
      destruct Y as (j & Y). eauto.
    + destruct (H2 _ _ Hr) as (i & ko & Hs). assert (Y : exists i, stored h' i k (ko, w)).
      { apply S'. replace (keycmp (str_of key) k) with false; [eauto|]. symmetry. apply keycmp_neq. congruence. }
      destruct Y as (j & Y). eauto.
Qed.
Lemma hrep_get h l k : NoDup (map fst l) -> hrep h l ->
  (exists ko v, hash_get keycmp hash_func h k = Some (Some (ko, v)) /\ str_of ko = k /\ ko <> 0 /\ In (k, v) l) \/
  (hash_get keycmp hash_func h k = Some None /\ ~ In k (map fst l)).
Proof.
  intros N (I & Ek & El & H1 & H2).
  destruct (get_spec keycmp hash_func keycmp_eq h k I) as [([ko v] & E & i & Hi)|[E Hn]].
  - left. exists ko, v. destruct (H1 _ _ _ _ Hi) as (? & ? & ?). auto.
  - right. split; [exact E|]. intros Hin. apply in_map_iff in Hin as ([a x] & Ea & Hin). cbn in Ea. subst a.
    apply H2 in Hin as (i & ko & Hs). eapply Hn; eauto.
Qed.
Lemma hrep_unset_absent h l k : NoDup (map fst l) -> hrep h l -> ~ In k (map fst l) ->
  hash_unset keycmp hash_func h k = Some h.
Proof.
  intros N R Hn. destruct (hrep_get h l k N R) as [(ko & v & _ & _ & _ & H)|[E _]].
  { exfalso. apply Hn. now apply (in_map fst) in H. }
  unfold hash_unset. pose proof E as G. unfold hash_get in E.
  destruct (probe keycmp hash_func h k) as [i|]; [|discriminate].
  destruct (slot_at h i); try discriminate; rewrite G; reflexivity.
Qed.

(** *** chains *)
Definition abs (kvs : list (nat * nat)) : omap := map (fun p => (str_of (fst p), snd p)) kvs.
Fixpoint seg (es : list elem) (cs : list nat) (kvs : list (nat * nat)) (stop : nat) : Prop :=
  match cs, kvs with
  | [], [] => True
  | c :: cs, (k, v) :: kvs => nth_error es c = Some (mkElem (hd stop cs) k v) /\ seg es cs kvs stop
  | _, _ => False
  end.

Lemma seg_len es cs : forall kvs stop, seg es cs kvs stop -> length kvs = length cs.
Proof. induction cs as [|c cs IH]; intros [|[k v] kvs] stop H; cbn in *; try contradiction; [reflexivity|]. f_equal. destruct H. eauto. Qed.
Lemma seg_app es cs1 : forall kvs1 cs2 kvs2 stop, length cs1 = length kvs1 ->
  (seg es (cs1 ++ cs2) (kvs1 ++ kvs2) stop <-> seg es cs1 kvs1 (hd stop cs2) /\ seg es cs2 kvs2 stop).
Proof.
  induction cs1 as [|c cs1 IH]; intros [|[k v] kvs1] cs2 kvs2 stop L; try discriminate L; [cbn; tauto|].
  cbn [app seg]. rewrite IH by (cbn in L; lia). replace (hd stop (cs1 ++ cs2)) with (hd (hd stop cs2) cs1) by (destruct cs1; reflexivity).
  tauto.
Qed.
Lemma seg_frame es es' cs : forall kvs stop, seg es cs kvs stop ->
  (forall c, In c cs -> nth_error es' c = nth_error es c) -> seg es' cs kvs stop.
Proof.
  induction cs as [|c cs IH]; intros [|[k v] kvs] stop H F; cbn in *; try contradiction; [exact I|].
  destruct H as [H1 H2]. split; [rewrite F by auto; assumption|]. apply IH; auto.
Qed.
Lemma seg_in es cs : forall kvs stop c, seg es cs kvs stop -> In c cs -> c < length es.
Proof.
  induction cs as [|c cs IH]; intros kvs stop x H Hx; [destruct Hx|].
  destruct kvs as [|[k v] kvs]; [contradiction|]. destruct H as [H1 H2]. destruct Hx as [<-|Hx].
  - now apply nth_lt in H1.
  - eauto.
Qed.

(** *** who owns what *)
Notation res := (nat + nat)%type.
Definition valid (w : world) (r : res) : Prop :=
  match r with inl c => c < length (elems w) | inr h => h < length (hashes w) end.
Definition same (w w' : world) (r : res) : Prop :=
  match r with
  | inl c => nth_error (elems w') c = nth_error (elems w) c
  | inr h => nth_error (hashes w') h = nth_error (hashes w) h
  end.
Definition agree (w w' : world) (own : list res) : Prop := forall r, In r own -> same w w' r.
Definition evolves (w w' : world) (own own' : list res) : Prop :=
  (forall r, valid w r -> ~ In r own -> same w w' r) /\ (forall r, valid w r -> valid w' r) /\
  (forall r, In r own' -> In r own \/ ~ valid w r).

Definition rep (w : world) (d : dict) (l : omap) (own : list res) : Prop :=
  NoDup (map fst l) /\ dlen d = length l /\
  (if big d then exists h, get_hash w (data d) = Some h /\ hrep h l /\ l <> [] /\ own = [inr (data d)]
   else (l = [] /\ own = []) \/
        exists cs kvs, seg (elems w) cs kvs 0 /\ abs kvs = l /\ cs <> [] /\ data d = hd 0 cs /\ dtail d = last cs 0 /\
          NoDup cs /\ Forall (fun c => c <> 0) cs /\ Forall (fun p => fst p <> 0) kvs /\ own = map inl cs).

Lemma rep_agree w w' d l own : rep w d l own -> agree w w' own -> rep w' d l own.
Proof.
  intros (N & L & R) A. split; [assumption|]. split; [assumption|]. destruct (big d).
  - destruct R as (h & G & R & Ne & ->). exists h. split; [|auto].
    unfold get_hash in *. specialize (A (inr (data d)) (or_introl eq_refl)). cbn in A. congruence.
  - destruct R as [R|(cs & kvs & Sg & R)]; [now left|]. right. exists cs, kvs. split; [|assumption].
    apply (seg_frame (elems w)); [assumption|]. intros c Hc. destruct R as (_ & _ & _ & _ & _ & _ & _ & ->).
    apply (A (inl c)). now apply in_map.
Qed.
Lemma rep_valid w d l own r : rep w d l own -> In r own -> valid w r.
Proof.
  intros (N & L & R) H. destruct (big d).
  - destruct R as (h & G & _ & _ & ->). destruct H as [<-|[]]. cbn. now apply nth_lt in G.
  - destruct R as [[_ ->]|(cs & kvs & Sg & _ & _ & _ & _ & _ & _ & _ & ->)]; [contradiction|].
    apply in_map_iff in H as (c & <- & Hc). cbn. eapply seg_in; eauto.
Qed.
Lemma agree_trans w1 w2 w3 own : agree w1 w2 own -> agree w2 w3 own -> agree w1 w3 own.
Proof. intros A B r H. specialize (A r H). specialize (B r H). destruct r; cbn in *; congruence. Qed.
Lemma agree_refl w own : agree w w own.
Proof. intros [c|h] _; reflexivity. Qed.

(** *** searching *)
Lemma find_elem_spec w k : forall cs kvs fuel, seg (elems w) cs kvs 0 -> cs <> [] -> length cs <= fuel ->
  Forall (fun c => c <> 0) cs ->
  (find_elem str_eql str_of fuel w k (hd 0 cs) = Some None /\ ~ In k (map fst (abs kvs))) \/
  (exists cs1 c cs2 kvs1 ko v kvs2, cs = cs1 ++ c :: cs2 /\ kvs = kvs1 ++ (ko, v) :: kvs2 /\
    length cs1 = length kvs1 /\ str_of ko = k /\ ~ In k (map fst (abs kvs1)) /\
    find_elem str_eql str_of fuel w k (hd 0 cs) = Some (Some c)).
Proof.
  induction cs as [|c cs IH]; intros kvs fuel Sg Ne L Nz; [congruence|].
  destruct kvs as [|[ko v] kvs]; [contradiction|]. destruct Sg as [G Sg].
  destruct fuel as [|fuel]; [cbn in L; lia|]. cbn [find_elem hd]. unfold get_elem. rewrite G. cbn [M_Array.bind ekey enext].
  destruct (str_eql (str_of ko) k) eqn:E.
  - apply str_eql_eq in E. right. exists [], c, cs, [], ko, v, kvs. repeat split; auto.
  - assert (Hne : str_of ko <> k) by (intros X; apply str_eql_eq in X; congruence).
    destruct cs as [|c' cs].
    + cbn [hd]. rewrite Nat.eqb_refl. left. split; [reflexivity|]. destruct kvs; [|contradiction].
      cbn. intros [H|[]]. contradiction.
    + cbn [hd]. inversion Nz as [|? ? _ Nz']; subst. inversion Nz' as [|? ? Hc _]; subst.
      replace (c' =? 0) with false by (symmetry; now apply Nat.eqb_neq).
      destruct (IH kvs fuel Sg ltac:(discriminate) ltac:(cbn in *; lia) Nz')
        as [[F H]|(cs1 & x & cs2 & kvs1 & ko1 & v1 & kvs2 & E0 & -> & L1 & E1 & N1 & F)].
      * cbn [hd] in F. rewrite F. left. split; [reflexivity|]. cbn. intros [?|?]; contradiction.
      * right. exists (c :: cs1), x, cs2, ((ko, v) :: kvs1), ko1, v1, kvs2.
        split; [now rewrite E0|]. repeat split; auto; [cbn; lia|cbn; intros [?|?]; contradiction].
Qed.
Lemma del_find_spec w k : forall cs kvs fuel prev, seg (elems w) cs kvs 0 -> cs <> [] -> length cs <= fuel ->
  Forall (fun c => c <> 0) cs ->
  (del_find str_eql str_of fuel w k prev (hd 0 cs) = Some None /\ ~ In k (map fst (abs kvs))) \/
  (exists cs1 c cs2 kvs1 ko v kvs2, cs = cs1 ++ c :: cs2 /\ kvs = kvs1 ++ (ko, v) :: kvs2 /\
    length cs1 = length kvs1 /\ str_of ko = k /\ ~ In k (map fst (abs kvs1)) /\
    del_find str_eql str_of fuel w k prev (hd 0 cs) = Some (Some (last cs1 prev, c))).
Proof.
  induction cs as [|c cs IH]; intros kvs fuel prev Sg Ne L Nz; [congruence|].
  destruct kvs as [|[ko v] kvs]; [contradiction|]. destruct Sg as [G Sg].
  destruct fuel as [|fuel]; [cbn in L; lia|]. cbn [del_find hd]. unfold get_elem. rewrite G. cbn [M_Array.bind ekey enext].
  destruct (str_eql (str_of ko) k) eqn:E.
  - apply str_eql_eq in E. right. exists [], c, cs, [], ko, v, kvs. repeat split; auto.
  - assert (Hne : str_of ko <> k) by (intros X; apply str_eql_eq in X; congruence).
    destruct cs as [|c' cs].
    + cbn [hd]. rewrite Nat.eqb_refl. left. split; [reflexivity|]. destruct kvs; [|contradiction].
      cbn. intros [H|[]]. contradiction.
    + cbn [hd]. inversion Nz as [|? ? _ Nz']; subst. inversion Nz' as [|? ? Hc _]; subst.
      replace (c' =? 0) with false by (symmetry; now apply Nat.eqb_neq).
      destruct (IH kvs fuel c Sg ltac:(discriminate) ltac:(cbn in *; lia) Nz')
        as [[F H]|(cs1 & x & cs2 & kvs1 & ko1 & v1 & kvs2 & E0 & -> & L1 & E1 & N1 & F)].
      * cbn [hd] in F. rewrite F. left. split; [reflexivity|]. cbn. intros [?|?]; contradiction.
      * right. exists (c :: cs1), x, cs2, ((ko, v) :: kvs1), ko1, v1, kvs2.
        split; [now rewrite E0|]. repeat split; auto; [cbn; lia|cbn; intros [?|?]; contradiction|].
        cbn [hd] in F. rewrite F. f_equal. f_equal. f_equal. symmetry. apply last_cons.
Qed.
Lemma seg_fuel es cs kvs stop : seg es cs kvs stop -> NoDup cs -> length cs <= length es.
Proof. intros Sg N. apply L_Array.nodup_bound; [assumption|]. intros c Hc. eapply seg_in; eauto. Qed.

Lemma index_ok w i d l own k : get_dict w i = Some d -> rep w d l own ->
  dict_index str_eql keycmp hash_func str_of w i k = Some (lookup eqb l k).
Proof.
  intros G (N & L & R). unfold dict_index, find_key. rewrite G. cbn [M_Array.bind]. rewrite L.
  destruct l as [|p0 l0] eqn:El; [reflexivity|]. rewrite <- El in *.
  replace (length l =? 0) with false by (rewrite El; reflexivity).
  destruct (big d).
  - destruct R as (h & -> & R & _). cbn [M_Array.bind].
    destruct (hrep_get h l k N R) as [(ko & v & -> & _ & _ & H)|[-> H]]; cbn [M_Array.bind].
    + f_equal. symmetry. now apply lookup_in.
    + f_equal. symmetry. now apply lookup_none.
  - destruct R as [[-> _]|(cs & kvs & Sg & Ea & Ne & -> & _ & Nc & Nz & _)]; [discriminate|].
    destruct (find_elem_spec w k cs kvs (length (elems w)) Sg Ne ltac:(eapply seg_fuel; eauto) Nz)
      as [[-> H]|(cs1 & c & cs2 & kvs1 & ko & v & kvs2 & -> & -> & L1 & Ek & Nk & ->)]; cbn [M_Array.bind].
    + f_equal. symmetry. apply lookup_none. now rewrite <- Ea.
    + apply seg_app in Sg as [_ Sg]; [|assumption]. destruct Sg as [Gc _]. unfold get_elem. rewrite Gc. cbn.
      f_equal. symmetry. apply lookup_in; [assumption|]. rewrite <- Ea. unfold abs. rewrite map_app.
      apply in_app_iff. right. left. cbn. now rewrite Ek.
Qed.

(** *** switching to the table *)
Lemma expand_loop_ok w : forall cs kvs fuel h pre, seg (elems w) cs kvs 0 -> cs <> [] -> length cs <= fuel ->
  Forall (fun c => c <> 0) cs -> Forall (fun p => fst p <> 0) kvs ->
  NoDup (map fst (pre ++ abs kvs)) -> hrep h pre ->
  exists h', expand_loop keycmp hash_func str_of fuel w h (hd 0 cs) = Some h' /\ hrep h' (pre ++ abs kvs).
Proof.
  induction cs as [|c cs IH]; intros kvs fuel h pre Sg Ne L Nz Nk Nd R; [congruence|].
  destruct kvs as [|[ko v] kvs]; [contradiction|]. destruct Sg as [G Sg].
  destruct fuel as [|fuel]; [cbn in L; lia|]. cbn [expand_loop hd]. unfold get_elem. rewrite G.
  cbn [M_Array.bind ekey enext eval]. inversion Nk as [|? ? Hk Nk']; subst. cbn [fst] in Hk.
  assert (Hn : ~ In (str_of ko) (map fst pre)).
  { rewrite map_app in Nd. cbn in Nd. apply NoDup_remove_2 in Nd. intros H. apply Nd. apply in_app_iff. now left. }
  destruct (hrep_new h pre ko v R Hk Hn) as (h' & -> & R'). cbn [M_Array.bind].
  assert (E : pre ++ abs ((ko, v) :: kvs) = (pre ++ [(str_of ko, v)]) ++ abs kvs) by (rewrite <- app_assoc; reflexivity).
  destruct cs as [|c' cs].
  - cbn [hd]. rewrite Nat.eqb_refl. destruct kvs; [|contradiction]. exists h'. split; [reflexivity|].
    rewrite E. now rewrite app_nil_r.
  - cbn [hd]. inversion Nz as [|? ? _ Nz']; subst. inversion Nz' as [|? ? Hc _]; subst.
    replace (c' =? 0) with false by (symmetry; now apply Nat.eqb_neq).
    rewrite E. apply (IH kvs fuel h' (pre ++ [(str_of ko, v)])); auto; [discriminate|cbn in *; lia|now rewrite <- E].
Qed.
Lemma expand_ok w i d l own : get_dict w i = Some d -> rep w d l own ->
  exists w' d' own', expand keycmp hash_func str_of w i = Some w' /\ dicts w' = upd i d' (dicts w) /\
    elems w' = elems w /\
    rep w' d' l own' /\ big d' = (big d || (15 <=? length l)) /\ evolves w w' own own'.
Proof.
  intros G R. pose proof R as (N & L & R'). unfold expand. rewrite G. cbn [M_Array.bind]. rewrite L.
  destruct (negb (big d) && (15 <=? length l)) eqn:B.
  - apply andb_prop in B as [B1 B2]. apply negb_true_iff in B1. rewrite B1 in *.
    destruct R' as [[-> _]|(cs & kvs & Sg & Ea & Ne & -> & Et & Nc & Nz & Nk & ->)]; [discriminate|].
    destruct (expand_loop_ok w cs kvs (length (elems w)) (hash_init 16) [] Sg Ne) as (h & -> & Rh); auto.
    { eapply seg_fuel; eauto. }
    { cbn. now rewrite Ea. }
    { apply hrep_init. }
    cbn [M_Array.bind]. eexists _, _, [inr (length (hashes w))]. split; [reflexivity|]. split; [reflexivity|].
    split; [reflexivity|]. split; [|split; [now rewrite B2|]].
    + split; [assumption|]. split; [reflexivity|]. cbn [big data]. exists h. split; [apply nth_snoc_new|].
      split; [now rewrite <- Ea|]. split; [intros ->; discriminate|reflexivity].
    + split; [|split].
      * intros [c|x] V _; cbn in *; [reflexivity|]. now apply nth_snoc_old.
      * intros [c|x] V; cbn in *; [assumption|]. rewrite app_length. cbn. lia.
      * intros r [<-|[]]. right. cbn. lia.
  - exists w, d, own. split; [reflexivity|]. unfold get_dict in G. rewrite L_Array.upd_same by assumption.
    split; [reflexivity|]. split; [reflexivity|]. split; [assumption|]. split.
    { destruct (big d); [reflexivity|]. cbn [negb andb orb] in *. now rewrite B. }
    split; [|split]; auto. intros [c|x] _ _; reflexivity.
Qed.

Lemma in_map_inl (cs : list nat) c : In (@inl nat nat c) (map inl cs) <-> In c cs.
Proof. rewrite in_map_iff. split; [intros (x & [= ->] & H); assumption|eauto]. Qed.

Lemma nodup_split (cs1 : list nat) c cs2 : NoDup (cs1 ++ c :: cs2) -> ~ In c cs1 /\ ~ In c cs2 /\ NoDup (cs1 ++ cs2).
Proof.
  intros N. pose proof (NoDup_remove_2 _ _ _ N) as H. rewrite in_app_iff in H.
  apply NoDup_remove_1 in N. tauto.
Qed.

Lemma upd_shadow {A} i (x y : A) l : upd i x (upd i y l) = upd i x l.
Proof. revert i. induction l as [|z l IH]; intros [|i]; cbn; f_equal; auto. Qed.

(** *** setting *)
Lemma evolves_trans w w1 w2 o o1 o2 : evolves w w1 o o1 -> evolves w1 w2 o1 o2 -> evolves w w2 o o2.
Proof.
  intros (A1 & B1 & C1) (A2 & B2 & C2). split; [|split].
  - intros r V N. assert (N1 : ~ In r o1) by (intros H; apply C1 in H as [?|?]; contradiction).
    specialize (A1 r V N). specialize (A2 r (B1 r V) N1). destruct r; cbn in *; congruence.
  - auto.
  - intros r H. apply C2 in H as [H|H]; [auto|]. right. intros V. apply H. auto.
Qed.

Notation dict_set := (dict_set str_eql keycmp hash_func str_of).
Lemma set_ok w i d l own key v : 1 <= length (elems w) -> get_dict w i = Some d -> rep w d l own -> key <> 0 ->
  exists w' d' own', dict_set w i key v = Some w' /\ dicts w' = upd i d' (dicts w) /\
    rep w' d' (set_entry eqb l (str_of key) v) own' /\ big d' = (big d || (15 <=? length l)) /\
    evolves w w' own own'.
Proof.
  intros W G R Hk. unfold M_Dict.dict_set. rewrite G. cbn [M_Array.bind].
  replace (key =? 0) with false by (symmetry; now apply Nat.eqb_neq). cbn [negb M_Array.assert M_Array.bind].
  destruct (Nat.eqb_spec (dlen d) 0) as [D0|D0].
  { pose proof R as (N & L & R'). assert (l = []) by (destruct l; [reflexivity|cbn in L; lia]). subst l.
    destruct (big d) eqn:B. { destruct R' as (? & ? & ? & ? & ?); congruence. }
    eexists _, _, [inl (length (elems w))]. split; [reflexivity|]. split; [reflexivity|].
    split; [|split; [reflexivity|]].
    - split; [apply (set_keys_nodup []); constructor|]. rewrite D0. split; [reflexivity|]. cbn [big]. right.
      exists [length (elems w)], [(key, v)]. cbn [elems put_dict set_elems].
      split; [cbn [seg hd]; split; [now rewrite nth_snoc_new|exact I]|].
      split; [reflexivity|]. split; [discriminate|]. split; [reflexivity|]. split; [reflexivity|].
      split; [constructor; [intros []|constructor]|]. split; [constructor; [lia|constructor]|].
      split; [constructor; [assumption|constructor]|reflexivity].
    - destruct R' as [[_ ->]|(cs & kvs & Sg & Ea & Ne & _)].
      2: { exfalso. apply seg_len in Sg. destruct kvs; [destruct cs; [congruence|discriminate]|discriminate]. }
      split; [|split].
      + intros [c|x] V _; cbn in *; [|reflexivity]. now apply nth_snoc_old.
      + intros [c|x] V; cbn in *; [|assumption]. rewrite app_length. cbn. lia.
      + intros r [<-|[]]. right. cbn. lia. }
  assert (Hl : l <> []) by (pose proof R as (_ & L & _); intros ->; cbn in L; lia).
  destruct (expand_ok w i d l own G R) as (w1 & d1 & own1 & -> & Ed & Ee & R1 & B1 & V1). cbn [M_Array.bind].
  assert (G1 : get_dict w1 i = Some d1).
  { unfold get_dict. rewrite Ed. apply nth_error_upd_same. now apply nth_lt in G. }
  assert (X : exists w' d' own',
    (do f <- find_key str_eql keycmp hash_func str_of w1 i (str_of key); do d <- get_dict w1 i;
     match f with
     | InElem e =>
         do x <- get_elem w1 e;
         Some (set_elems w1 (upd e (mkElem (enext x) (ekey x) v) (elems w1)))
     | InHash _ _ =>
         do h <- get_hash w1 (data d);
         do h <- hash_assign keycmp hash_func h (str_of key) (key, v);
         Some (set_hashes w1 (upd (data d) h (hashes w1)))
     | Nowhere =>
         if big d then
           do h <- get_hash w1 (data d);
           do h <- hash_set keycmp hash_func h (str_of key) (key, v);
           let w := set_hashes w1 (upd (data d) h (hashes w1)) in
           Some (put_dict w i (mkDict (data d) (len h) (dtail d) (big d)))
         else
           let e_idx := length (elems w1) in
           let w := set_elems w1 (elems w1 ++ [mkElem 0 key v]) in
           do t <- get_elem w (dtail d);
           let w := set_elems w (upd (dtail d) (mkElem e_idx (ekey t) (eval t)) (elems w)) in
           Some (put_dict w i (mkDict (data d) (dlen d + 1) e_idx (big d)))
     end) = Some w' /\ dicts w' = upd i d' (dicts w1) /\
    rep w' d' (set_entry eqb l (str_of key) v) own' /\ big d' = big d1 /\ evolves w1 w' own1 own').
  2: { destruct X as (w' & d' & own' & E & Ed' & R' & B' & V'). exists w', d', own'.
       split; [exact E|]. split; [rewrite Ed', Ed, upd_shadow; reflexivity|]. split; [assumption|].
       split; [congruence|]. eapply evolves_trans; eauto. }
  assert (W1 : 1 <= length (elems w1)) by (rewrite Ee; assumption).
  clear dependent w. clear dependent d. try clear own. rename w1 into w, d1 into d, own1 into own.
  pose proof R1 as (N & L & R'). unfold find_key. rewrite G1. cbn [M_Array.bind]. rewrite L.
  replace (length l =? 0) with false by (destruct l; [congruence|reflexivity]).
  destruct (big d) eqn:B.
  - destruct R' as (h & Gh & Rh & _ & ->). rewrite Gh. cbn [M_Array.bind].
    pose proof (nth_lt _ _ _ Gh) as Lh.
    destruct (hrep_get h l (str_of key) N Rh) as [(ko & x & -> & E1 & E2 & H)|[-> H]]; cbn [M_Array.bind].
    + assert (Hin : In (str_of key) (map fst l)) by now apply (in_map fst) in H.
      rewrite ?Gh. cbn [M_Array.bind].
      destruct (hrep_assign h l key v N Rh Hk Hin) as (h' & -> & Rh'). cbn [M_Array.bind].
      eexists _, d, [inr (data d)]. split; [reflexivity|]. unfold get_dict in G1.
      cbn [dicts set_hashes]. rewrite L_Array.upd_same by assumption. split; [reflexivity|].
      split; [|split; [assumption|]].
      * split; [now apply set_keys_nodup|]. rewrite set_old, map_length by assumption. split; [assumption|].
        rewrite B. exists h'. split; [unfold get_hash; cbn; now apply nth_error_upd_same|].
        split; [now rewrite <- set_old|]. split; [|reflexivity]. destruct l; [congruence|discriminate].
      * split; [|split].
        -- intros [c|y] Vr Nr; cbn in *; [reflexivity|]. apply nth_error_upd_other. intros <-. apply Nr. now left.
        -- intros [c|y] Vr; cbn in *; [assumption|]. now rewrite upd_length.
        -- auto.
    + rewrite ?Gh. cbn [M_Array.bind].
      destruct (hrep_new h l key v Rh Hk H) as (h' & -> & Rh'). cbn [M_Array.bind].
      eexists _, _, [inr (data d)]. split; [reflexivity|]. split; [reflexivity|]. split; [|split; [reflexivity|]].
      * split; [now apply set_keys_nodup|]. rewrite set_new_entry by assumption.
        pose proof Rh' as (_ & _ & Ln & _). cbn [dlen big data]. split; [assumption|].
        exists h'. split; [unfold get_hash; cbn; now apply nth_error_upd_same|].
        split; [assumption|]. split; [|reflexivity]. destruct l; discriminate.
      * split; [|split].
        -- intros [c|y] Vr Nr; cbn in *; [reflexivity|]. apply nth_error_upd_other. intros <-. apply Nr. now left.
        -- intros [c|y] Vr; cbn in *; [assumption|]. now rewrite upd_length.
        -- auto.
  - destruct R' as [[-> _]|(cs & kvs & Sg & Ea & Ne & Eh & Et & Nc & Nz & Nk & ->)]; [congruence|]. rewrite Eh.
    destruct (find_elem_spec w (str_of key) cs kvs (length (elems w)) Sg Ne ltac:(eapply seg_fuel; eauto) Nz)
      as [[-> H]|(cs1 & c & cs2 & kvs1 & ko & x & kvs2 & -> & -> & L1 & Ek & Nk1 & ->)]; cbn [M_Array.bind].
    + (* a new element at the end *)
      assert (Sp : exists cs' t kvs' kt vt, cs = cs' ++ [t] /\ kvs = kvs' ++ [(kt, vt)] /\ length cs' = length kvs').
      { destruct (exists_last Ne) as (cs' & t & ->). pose proof (seg_len _ _ _ _ Sg) as Ll.
        destruct (@exists_last _ kvs) as (kvs' & [kt vt] & ->). { intros ->. rewrite app_length in Ll. cbn in Ll. lia. }
        exists cs', t, kvs', kt, vt. rewrite !app_length in Ll. cbn in Ll. repeat split; lia. }
      destruct Sp as (cs' & t & kvs' & kt & vt & -> & -> & Ll).
      rewrite L_Array.last_app_one in Et.
      pose proof (proj1 (seg_app _ _ _ _ _ _ Ll) Sg) as [S1 [Gt _]]. cbn [hd] in *.
      pose proof (nth_lt _ _ _ Gt) as Lt.
      rewrite Et. unfold get_elem. cbn [elems set_elems]. rewrite nth_snoc_old by assumption.
      rewrite Gt. cbn [M_Array.bind ekey eval].
      destruct (nodup_split _ _ _ Nc) as (Nt & _ & Nc').
      assert (Fresh : forall y, In y (cs' ++ [t]) -> y < length (elems w)) by (intros; eapply seg_in; [exact Sg|assumption]).
      eexists _, _, (map inl ((cs' ++ [t]) ++ [length (elems w)])). split; [reflexivity|]. split; [reflexivity|].
      cbn [big]. split; [|split; [reflexivity|]].
      * split; [now apply set_keys_nodup|]. rewrite set_new_entry by (now rewrite <- Ea).
        split; [cbn [dlen]; rewrite app_length; reflexivity|]. cbn [big]. right.
        exists ((cs' ++ [t]) ++ [length (elems w)]), ((kvs' ++ [(kt, vt)]) ++ [(key, v)]).
        cbn [elems put_dict set_elems data dtail].
        split.
        { apply seg_app; [rewrite !app_length; cbn; lia|]. split.
          - apply seg_app; [assumption|]. split.
            + apply (seg_frame (elems w)); [assumption|]. intros y Hy.
              rewrite nth_error_upd_other by (intros ->; contradiction).
              apply nth_snoc_old. apply Fresh. apply in_app_iff. now left.
            + cbn [seg hd]. split; [|exact I]. rewrite nth_error_upd_same; [reflexivity|]. rewrite app_length. lia.
          - cbn [seg hd]. split; [|exact I]. rewrite nth_error_upd_other by lia. apply nth_snoc_new. }
        split; [unfold abs; rewrite map_app; fold (abs (kvs' ++ [(kt, vt)])); rewrite Ea; reflexivity|].
        split; [intros X; destruct (cs' ++ [t]); discriminate X|].
        split; [destruct cs'; reflexivity|].
        split; [now rewrite L_Array.last_app_one|].
        split; [apply L_Array.nodup_app; [assumption|constructor; [tauto|constructor]|]; intros y Hy [<-|[]]; apply Fresh in Hy; lia|].
        split; [apply Forall_app; split; [assumption|constructor; [lia|constructor]]|].
        split; [apply Forall_app; split; [assumption|constructor; [assumption|constructor]]|reflexivity].
      * split; [|split].
        -- intros [y|y] Vr Nr; cbn in *; [|reflexivity]. rewrite nth_error_upd_other.
           ++ now apply nth_snoc_old.
           ++ intros ->. apply Nr. apply in_map_inl. apply in_app_iff. right. now left.
        -- intros [y|y] Vr; cbn in *; [|assumption]. rewrite upd_length, app_length. cbn. lia.
        -- intros r Hr. rewrite map_app in Hr. apply in_app_iff in Hr as [Hr|[<-|[]]]; [auto|]. right. cbn. lia.
    + (* an element that is there *)
      pose proof (proj1 (seg_app _ _ _ _ _ _ L1) Sg) as [S1 [Gc S2]]. unfold get_elem. rewrite Gc.
      cbn [M_Array.bind enext ekey].
      pose proof (nth_lt _ _ _ Gc) as Lc.
      destruct (nodup_split _ _ _ Nc) as (N1 & N2 & _).
      assert (Hin : In (str_of key) (map fst l)).
      { rewrite <- Ea. unfold abs. rewrite map_app, map_app. apply in_app_iff. right. left. assumption. }
      eexists _, d, (map inl (cs1 ++ c :: cs2)). split; [reflexivity|]. unfold get_dict in G1.
      cbn [dicts set_elems]. rewrite L_Array.upd_same by assumption. split; [reflexivity|].
      split; [|split; [assumption|]].
      * split; [now apply set_keys_nodup|]. rewrite set_old, map_length by assumption. split; [assumption|].
        rewrite B. right. exists (cs1 ++ c :: cs2), (kvs1 ++ (ko, v) :: kvs2). cbn [elems set_elems].
        split.
        { apply seg_app; [assumption|]. split.
          - apply (seg_frame (elems w)); [exact S1|]. intros y Hy. apply nth_error_upd_other. intros ->. contradiction.
          - cbn [seg]. split; [now apply nth_error_upd_same|].
            apply (seg_frame (elems w)); [exact S2|]. intros y Hy. apply nth_error_upd_other. intros ->. contradiction. }
        split.
        { rewrite <- Ea in N |- *. unfold abs in N, Nk1 |- *. rewrite !map_app in *. cbn [map fst snd] in *.
          rewrite Ek in *. apply NoDup_remove_2 in N. rewrite in_app_iff in N. rewrite eqb_refl. f_equal; [|f_equal].
          - rewrite <- map_id at 1. apply map_ext_in. intros [a y] Ha. cbn [fst]. rewrite eqb_neq; [reflexivity|].
            intros ->. apply N. left. now apply (in_map fst) in Ha.
          - rewrite <- map_id at 1. apply map_ext_in. intros [a y] Ha. cbn [fst]. rewrite eqb_neq; [reflexivity|].
            intros ->. apply N. right. now apply (in_map fst) in Ha. }
        split; [assumption|]. split; [assumption|]. split; [assumption|]. split; [assumption|]. split; [assumption|].
        split; [|reflexivity]. apply Forall_app in Nk as [Nk0 Nk2]. apply Forall_app. split; [assumption|].
        inversion Nk2; subst. constructor; assumption.
      * split; [|split].
        -- intros [y|y] Vr Nr; cbn in *; [|reflexivity]. apply nth_error_upd_other.
           intros ->. apply Nr. apply in_map_inl. apply in_app_iff. right. now left.
        -- intros [y|y] Vr; cbn in *; [|assumption]. now rewrite upd_length.
        -- auto.
Qed.

(** *** deleting *)
Lemma del_entry_absent (l : omap) k : ~ In k (map fst l) -> del_entry eqb l k = l.
Proof.
  intros H. unfold del_entry. induction l as [|[a x] l IH]; [reflexivity|]. cbn [filter fst].
  rewrite eqb_neq by (intros ->; apply H; now left). cbn [negb]. f_equal. apply IH. intros X. apply H. now right.
Qed.
Lemma del_ok w i d l own k : get_dict w i = Some d -> rep w d l own ->
  big d && existsb (fun p => eqb (fst p) k) l = false ->
  exists w' d' own', dict_del str_eql keycmp hash_func str_of w i k = Some w' /\ dicts w' = upd i d' (dicts w) /\
    rep w' d' (del_entry eqb l k) own' /\ big d' = big d /\ evolves w w' own own'.
Proof.
  intros G R Hb. pose proof R as (N & L & R'). unfold dict_del. rewrite G. cbn [M_Array.bind].
  assert (Same : ~ In k (map fst l) -> exists w' d' own', Some w = Some w' /\ dicts w' = upd i d' (dicts w) /\
    rep w' d' (del_entry eqb l k) own' /\ big d' = big d /\ evolves w w' own own').
  { intros H. exists w, d, own. split; [reflexivity|]. unfold get_dict in G. rewrite L_Array.upd_same by assumption.
    split; [reflexivity|]. rewrite del_entry_absent by assumption. split; [assumption|]. split; [reflexivity|].
    split; [|split]; auto. intros [c|x] _ _; reflexivity. }
  destruct (Nat.eqb_spec (dlen d) 0) as [D0|D0].
  { apply Same. destruct l; [cbn; tauto|cbn in L; lia]. }
  destruct (big d) eqn:B.
  - assert (H : ~ In k (map fst l)).
    { intros H. apply existsb_key in H. rewrite H in Hb. discriminate. }
    destruct R' as (h & Gh & Rh & Ne & ->). rewrite Gh. cbn [M_Array.bind].
    rewrite (hrep_unset_absent h l k N Rh H). cbn [M_Array.bind].
    unfold get_hash in Gh. rewrite L_Array.upd_same by assumption.
    replace (set_hashes w (hashes w)) with w by (destruct w; reflexivity). auto.
  - destruct R' as [[-> _]|(cs & kvs & Sg & Ea & Ne & Eh & Et & Nc & Nz & Nk & ->)]; [cbn in L; lia|]. rewrite Eh.
    destruct (del_find_spec w k cs kvs (length (elems w)) 0 Sg Ne ltac:(eapply seg_fuel; eauto) Nz)
      as [[-> H]|(cs1 & c & cs2 & kvs1 & ko & x & kvs2 & -> & -> & L1 & Ek & Nk1 & ->)]; cbn [M_Array.bind].
    { apply Same. now rewrite <- Ea. }
    pose proof (proj1 (seg_app _ _ _ _ _ _ L1) Sg) as [S1 [Gc S2]]. unfold get_elem. rewrite Gc. cbn [M_Array.bind enext].
    destruct (nodup_split _ _ _ Nc) as (N1 & N2 & Nc').
    apply Forall_app in Nz as [Nz1 Nz2]. assert (Nz2' : Forall (fun c => c <> 0) cs2) by (inversion Nz2; assumption).
    apply Forall_app in Nk as [Nk0 Nk2]. assert (Nk2' : Forall (fun p => fst p <> 0) kvs2) by (inversion Nk2; assumption).
    assert (Ed : del_entry eqb l k = abs (kvs1 ++ kvs2)).
    { rewrite <- Ea in N |- *. unfold abs in N, Nk1 |- *. rewrite !map_app in *. cbn [map fst snd] in *.
      rewrite Ek in *. apply NoDup_remove_2 in N. rewrite in_app_iff in N. unfold del_entry.
      rewrite filter_app. cbn [filter fst]. rewrite eqb_refl. cbn [negb]. f_equal.
      - apply del_entry_absent. tauto.
      - apply del_entry_absent. tauto. }
    assert (Nd' : NoDup (map fst (del_entry eqb l k))).
    { rewrite Ed. rewrite <- Ea in N. unfold abs in *. rewrite !map_app in *. cbn [map] in N. now apply NoDup_remove_1 in N. }
    assert (Ld : dlen d - 1 = length (del_entry eqb l k)).
    { rewrite Ed, L, <- Ea. unfold abs. rewrite !map_length, !app_length. cbn. lia. }
    destruct cs1 as [|c0 cs1].
    + (* the head *)
      destruct kvs1; [|discriminate]. cbn [hd app]. rewrite Nat.eqb_refl.
      eexists _, _, (map inl cs2). split; [reflexivity|]. split; [reflexivity|]. cbn [big].
      split; [|split; [reflexivity|]].
      * split; [assumption|]. split; [assumption|]. cbn [big data dtail elems put_dict]. rewrite ?B.
        destruct cs2 as [|c2 cs2].
        { left. destruct kvs2; [|contradiction]. split; [assumption|reflexivity]. }
        right. exists (c2 :: cs2), kvs2. split; [assumption|]. split; [now rewrite Ed|]. split; [discriminate|].
        split; [reflexivity|]. split; [rewrite Et; reflexivity|]. split; [exact Nc'|]. auto.
      * split; [|split]; auto.
        { intros [y|y] _ _; reflexivity. }
        intros r Hr. left. cbn. now right.
    + cbn [hd app]. cbn [app] in Nc, Eh.
      replace (c =? c0) with false by (symmetry; apply Nat.eqb_neq; intros ->; apply N1; now left).
      destruct (exists_last (l := c0 :: cs1) ltac:(discriminate)) as (cs1' & p & Ep).
      destruct (@exists_last _ kvs1) as (kvs1' & [kp vp] & ->).
      { intros ->. cbn in L1. discriminate L1. }
      rewrite Ep in *. rewrite L_Array.last_app_one.
      assert (L1' : length cs1' = length kvs1') by (rewrite !app_length in L1; cbn in L1; lia).
      pose proof (proj1 (seg_app _ _ _ _ _ _ L1') S1) as [S0 [Gp _]]. cbn [hd] in *. rewrite Gp.
      cbn [M_Array.bind ekey eval].
      pose proof (nth_lt _ _ _ Gp) as Lp.
      rewrite <- app_assoc in Nc'. destruct (nodup_split _ _ _ Nc') as (Np1 & Np2 & _).
      assert (Res : forall (t : nat), t = last ((cs1' ++ [p]) ++ cs2) 0 ->
        let es := upd p (mkElem (hd 0 cs2) kp vp) (elems w) in
        rep (put_dict (set_elems w es) i (mkDict (hd 0 (c0 :: cs1)) (dlen d - 1) t (big d)))
            (mkDict (hd 0 (c0 :: cs1)) (dlen d - 1) t (big d)) (del_entry eqb l k) (map inl ((cs1' ++ [p]) ++ cs2))).
      { intros t Ht es. split; [assumption|]. split; [assumption|]. cbn [big data dtail elems put_dict set_elems]. rewrite B.
        right. exists ((cs1' ++ [p]) ++ cs2), ((kvs1' ++ [(kp, vp)]) ++ kvs2). split.
        { apply seg_app; [assumption|]. split; [apply seg_app; [assumption|]; split|].
          - apply (seg_frame (elems w)); [exact S0|]. intros y Hy. apply nth_error_upd_other. intros ->. contradiction.
          - cbn [seg hd]. split; [|exact I]. now apply nth_error_upd_same.
          - apply (seg_frame (elems w)); [exact S2|]. intros y Hy. apply nth_error_upd_other. intros ->. contradiction. }
        split; [now rewrite Ed|]. split; [destruct cs1'; discriminate|].
        split; [rewrite Ep; destruct cs1'; reflexivity|]. split; [assumption|].
        split; [now rewrite <- app_assoc|]. split; [now apply Forall_app|]. split; [now apply Forall_app|reflexivity]. }
      assert (Ev : forall nd, evolves w (put_dict (set_elems w (upd p (mkElem (hd 0 cs2) kp vp) (elems w))) i nd)
         (map inl ((c0 :: cs1) ++ c :: cs2)) (map inl ((cs1' ++ [p]) ++ cs2))).
      { intros nd. rewrite Ep. split; [|split].
        - intros [y|y] Vr Nr; cbn in *; [|reflexivity]. apply nth_error_upd_other. intros ->. apply Nr.
          apply in_map_inl. apply in_app_iff. left. apply in_app_iff. right. now left.
        - intros [y|y] Vr; cbn in *; [|assumption]. now rewrite upd_length.
        - intros r Hr. left. rewrite map_app in *. apply in_app_iff. apply in_app_iff in Hr as [?|?]; [auto|]. right. now right. }
      rewrite B in Res. assert (Eh2 : data d = hd 0 (c0 :: cs1)) by exact Eh.
      destruct (Nat.eqb_spec (hd 0 cs2) 0) as [H0|H0].
      * assert (cs2 = []) by (destruct cs2; [reflexivity|]; inversion Nz2'; subst; cbn in H0; contradiction). subst cs2.
        cbn [negb hd] in *. eexists _, _, _. split; [reflexivity|]. split; [reflexivity|].
        split; [apply Res; rewrite app_nil_r; now rewrite L_Array.last_app_one|]. split; [reflexivity|]. apply Ev.
      * cbn [negb]. eexists _, _, _. split; [reflexivity|]. split; [reflexivity|].
        split; [apply Res|split; [reflexivity|apply Ev]].
        rewrite Et. destruct cs2 as [|c2 cs2]; [cbn in H0; congruence|].
        rewrite !L_Array.last_app_cons. reflexivity.
Qed.

(** *** iteration *)
Lemma foreach_rule {S} (cb : world -> S -> nat -> nat -> option (world * S)) (P : omap -> world -> S -> Prop)
    w j d l own st :
  get_dict w j = Some d -> rep w d l own -> P [] w st ->
  (forall pre k v post ko w1 st1, l = pre ++ (k, v) :: post -> str_of ko = k -> ko <> 0 ->
     agree w w1 own -> P pre w1 st1 ->
     exists w2 st2, cb w1 st1 ko v = Some (w2, st2) /\ agree w w2 own /\ P (pre ++ [(k, v)]) w2 st2) ->
  exists w' st', dict_foreach keycmp hash_func cb w j st = Some (w', st') /\ agree w w' own /\ P l w' st'.
Proof.
  intros G R P0 Step. pose proof R as (N & L & R'). unfold dict_foreach. rewrite G. cbn [M_Array.bind]. rewrite L.
  destruct (Nat.eqb_spec (length l) 0) as [L0|L0].
  { destruct l; [|discriminate]. exists w, st. split; [reflexivity|]. split; [apply agree_refl|assumption]. }
  destruct (big d).
  - destruct R' as (h & Gh & Rh & _ & ->). rewrite Gh. cbn [M_Array.bind].
    pose proof Rh as (_ & Ek & _ & _ & _).
    assert (X : forall post pre fuel w1 st1, l = pre ++ post -> length post <= fuel -> agree w w1 [inr (data d)] ->
      P pre w1 st1 ->
      exists w' st', big_loop keycmp hash_func cb fuel w1 st1 (data d) (length pre) = Some (w', st') /\
        agree w w' [inr (data d)] /\ P l w' st').
    { induction post as [|[k v] post IH]; intros pre fuel w1 st1 El Lf A P1.
      - assert (Gh1 : get_hash w1 (data d) = Some h).
        { specialize (A (inr (data d)) (or_introl eq_refl)). cbn in A. unfold get_hash in *. congruence. }
        rewrite app_nil_r in El. subst pre.
        exists w1, st1. split; [|auto]. destruct fuel; cbn [big_loop]; rewrite Gh1; cbn [M_Array.bind];
          rewrite Ek; replace (nth_error (map fst l) (length l)) with (@None K); auto;
          symmetry; apply nth_error_None; rewrite map_length; lia.
      - assert (Gh1 : get_hash w1 (data d) = Some h).
        { specialize (A (inr (data d)) (or_introl eq_refl)). cbn in A. unfold get_hash in *. congruence. }
        destruct fuel as [|fuel]; [cbn in Lf; lia|]. cbn [big_loop]. rewrite Gh1. cbn [M_Array.bind].
        assert (Gk : nth_error (keys h) (length pre) = Some k).
        { rewrite Ek, El, map_app. cbn [map fst]. rewrite nth_error_app2; rewrite map_length; [|lia]. now rewrite Nat.sub_diag. }
        rewrite Gk.
        destruct (hrep_get h l k N Rh) as [(ko & v' & -> & E1 & E2 & Hin)|[_ Hn]].
        2: { exfalso. apply Hn. rewrite El, map_app. apply in_app_iff. right. now left. }
        cbn [M_Array.bind].
        assert (v' = v).
        { apply lookup_in in Hin; [|assumption]. assert (Y : lookup eqb l k = Some v).
          { apply lookup_in; [assumption|]. rewrite El. apply in_app_iff. right. now left. }
          congruence. }
        subst v'. destruct (Step pre k v post ko w1 st1 El E1 E2 A P1) as (w2 & st2 & -> & A2 & P2).
        cbn [M_Array.bind]. specialize (IH (pre ++ [(k, v)]) fuel w2 st2).
        rewrite app_length in IH. apply IH; auto; [now rewrite <- app_assoc|cbn in Lf; lia]. }
    apply (X l []); auto; [rewrite Ek, map_length; lia|apply agree_refl].
  - destruct R' as [[-> _]|(cs & kvs & Sg & Ea & Ne & -> & _ & Nc & Nz & Nk & ->)]; [cbn in L0; lia|].
    assert (X : forall cs2 cs1 kvs1 kvs2 fuel w1 st1, cs = cs1 ++ cs2 -> kvs = kvs1 ++ kvs2 -> length cs1 = length kvs1 ->
      cs2 <> [] -> length cs2 <= fuel -> agree w w1 (map inl cs) -> P (abs kvs1) w1 st1 ->
      exists w' st', small_loop cb fuel w1 st1 (hd 0 cs2) = Some (w', st') /\ agree w w' (map inl cs) /\ P l w' st').
    { induction cs2 as [|c cs2 IH]; intros cs1 kvs1 kvs2 fuel w1 st1 Ec Ekv L1 Ne2 Lf A P1; [congruence|].
      rewrite Ec, Ekv in Sg. apply seg_app in Sg as [_ Sg]; [|assumption].
      destruct kvs2 as [|[ko v] kvs2]; [contradiction|]. destruct Sg as [Gc Sg].
      assert (Rd : forall w', agree w w' (map inl cs) -> get_elem w' c = Some (mkElem (hd 0 cs2) ko v)).
      { intros w' A'. unfold get_elem. assert (Hc : In (inl c) (map (@inl nat nat) cs)).
        { apply in_map_inl. rewrite Ec. apply in_app_iff. right. now left. }
        specialize (A' _ Hc). cbn in A'. congruence. }
      destruct fuel as [|fuel]; [cbn in Lf; lia|]. cbn [small_loop hd]. rewrite (Rd w1 A). cbn [M_Array.bind ekey eval].
      destruct (Step (abs kvs1) (str_of ko) v (abs kvs2) ko w1 st1) as (w2 & st2 & -> & A2 & P2); auto.
      { rewrite <- Ea, Ekv. unfold abs. now rewrite map_app. }
      { rewrite Ekv in Nk. apply Forall_app in Nk as [_ Nk]. now inversion Nk. }
      cbn [M_Array.bind]. rewrite (Rd w2 A2). cbn [M_Array.bind enext].
      assert (Ekv' : kvs = (kvs1 ++ [(ko, v)]) ++ kvs2) by (rewrite <- app_assoc; assumption).
      assert (Ec' : cs = (cs1 ++ [c]) ++ cs2) by (rewrite <- app_assoc; assumption).
      assert (Ea' : abs kvs1 ++ [(str_of ko, v)] = abs (kvs1 ++ [(ko, v)])) by (unfold abs; now rewrite map_app).
      rewrite Ea' in P2.
      destruct cs2 as [|c2 cs2].
      - cbn [hd]. rewrite Nat.eqb_refl. exists w2, st2. split; [reflexivity|]. split; [assumption|].
        destruct kvs2; [|contradiction]. rewrite app_nil_r in Ekv'. now rewrite <- Ea, Ekv'.
      - cbn [hd]. assert (Hc2 : c2 <> 0).
        { rewrite Ec' in Nz. apply Forall_app in Nz as [_ Nz]. now inversion Nz. }
        replace (c2 =? 0) with false by (symmetry; now apply Nat.eqb_neq).
        apply (IH (cs1 ++ [c]) (kvs1 ++ [(ko, v)]) kvs2); auto; [rewrite !app_length; cbn; lia|discriminate|cbn in *; lia]. }
    apply (X cs [] [] kvs); auto; [eapply seg_fuel; eauto|apply agree_refl].
Qed.

(** *** all dictionaries at once *)
Definition Inv (w : world) (s : @store K) (owns : list (list res)) : Prop :=
  1 <= length (elems w) /\ length (dicts w) = length s /\ length owns = length s /\
  (forall i e own, nth_error s i = Some e -> nth_error owns i = Some own ->
     exists d, get_dict w i = Some d /\ rep w d (fst e) own /\ big d = snd e) /\
  (forall i j oi oj r, nth_error owns i = Some oi -> nth_error owns j = Some oj -> i <> j -> In r oi -> ~ In r oj).

Lemma inv_at w s owns i e : Inv w s owns -> nth_error s i = Some e ->
  exists d own, nth_error owns i = Some own /\ get_dict w i = Some d /\ rep w d (fst e) own /\ big d = snd e.
Proof.
  intros (_ & _ & L & R & _) E. pose proof (nth_lt _ _ _ E) as Hi.
  destruct (nth_error owns i) as [own|] eqn:O; [|apply nth_error_None in O; lia].
  destruct (R i e own E O) as (d & G & Rd & B). exists d, own. auto.
Qed.
Lemma inv_write w s owns i own e w' d' own' :
  Inv w s owns -> nth_error owns i = Some own -> dicts w' = upd i d' (dicts w) ->
  rep w' d' (fst e) own' -> big d' = snd e -> evolves w w' own own' ->
  Inv w' (upd i e s) (upd i own' owns).
Proof.
  intros (W & Ld & Lo & R & Dj) O Ed Rd B (A & V & C).
  pose proof (nth_lt _ _ _ O) as Hi.
  split; [apply (V (inl 0)); exact W|]. split; [rewrite Ed, !upd_length; assumption|].
  split; [rewrite !upd_length; assumption|]. split.
  - intros j ej oj Ej Oj. destruct (Nat.eq_dec i j) as [<-|Hne].
    + rewrite nth_error_upd_same in Ej by lia. rewrite nth_error_upd_same in Oj by lia. injection Ej as <-. injection Oj as <-.
      exists d'. split; [unfold get_dict; rewrite Ed; apply nth_error_upd_same; lia|]. auto.
    + rewrite nth_error_upd_other in Ej by assumption. rewrite nth_error_upd_other in Oj by assumption. destruct (R j ej oj Ej Oj) as (d & G & Rj & Bj).
      exists d. split; [unfold get_dict in *; rewrite Ed, nth_error_upd_other; assumption|]. split; [|assumption].
      apply (rep_agree w); [assumption|]. intros r Hr. apply A; [eapply rep_valid; eauto|].
      intros X. eapply (Dj i j); eauto.
  - intros a b oa ob r Oa Ob Hab Ha Hb.
    destruct (Nat.eq_dec i a) as [<-|Hia]; [rewrite nth_error_upd_same in Oa by lia|rewrite nth_error_upd_other in Oa by assumption];
    (destruct (Nat.eq_dec i b) as [<-|Hib]; [rewrite nth_error_upd_same in Ob by lia|rewrite nth_error_upd_other in Ob by assumption]).
    + congruence.
    + injection Oa as <-. apply C in Ha as [Ha|Ha].
      * apply (Dj i b own ob r); auto.
      * apply Ha. destruct (nth_error s b) as [eb|] eqn:Eb; [|apply nth_error_None in Eb; apply nth_lt in Ob; lia].
        destruct (R b eb ob Eb Ob) as (d & _ & Rb & _). eapply rep_valid; eauto.
    + injection Ob as <-. apply C in Hb as [Hb|Hb].
      * apply (Dj i a own oa r); auto.
      * apply Hb. destruct (nth_error s a) as [ea|] eqn:Eb; [|apply nth_error_None in Eb; apply nth_lt in Oa; lia].
        destruct (R a ea oa Eb Oa) as (d & _ & Rb & _). eapply rep_valid; eauto.
    + apply (Dj a b oa ob r); auto.
Qed.
Lemma inv_fresh w s owns : Inv w s owns -> Inv (fst (make_dict w)) (s ++ [([], false)]) (owns ++ [[]]).
Proof.
  intros (W & Ld & Lo & R & Dj). split; [assumption|]. cbn [fst make_dict dicts].
  split; [rewrite !app_length; cbn; lia|]. split; [rewrite !app_length; cbn; lia|]. split.
  - intros i e own E O. destruct (Nat.lt_ge_cases i (length s)) as [Hi|Hi].
    + rewrite nth_snoc_old in E by assumption. rewrite nth_snoc_old in O by lia.
      destruct (R i e own E O) as (d & G & Rd & B). exists d. split; [|split; [|assumption]].
      * unfold get_dict in *. cbn. rewrite nth_snoc_old by lia. assumption.
      * apply (rep_agree w); [assumption|]. intros [c|h] _; reflexivity.
    + assert (i = length s). { apply nth_lt in E. rewrite app_length in E. cbn in E. lia. } subst i.
      rewrite nth_snoc_new in E. injection E as <-. rewrite <- Lo, nth_snoc_new in O. injection O as <-.
      eexists. split; [unfold get_dict; cbn; rewrite <- Ld; apply nth_snoc_new|]. split; [|reflexivity].
      split; [constructor|]. split; [reflexivity|]. cbn. now left.
  - intros i j oi oj r Oi Oj Hij Hi Hj.
    assert (X : forall a o, nth_error (owns ++ [[]]) a = Some o -> In r o -> nth_error owns a = Some o).
    { intros a o Oa Ha. destruct (Nat.lt_ge_cases a (length owns)) as [Hl|Hl].
      - now rewrite nth_snoc_old in Oa by assumption.
      - assert (a = length owns). { apply nth_lt in Oa. rewrite app_length in Oa. cbn in Oa. lia. } subst a.
        rewrite nth_snoc_new in Oa. injection Oa as <-. contradiction. }
    eapply (Dj i j); eauto.
Qed.

Lemma merge_ok w s owns i j ei ej : Inv w s owns -> i <> j -> nth_error s i = Some ei -> nth_error s j = Some ej ->
  exists w' owns', dict_foreach keycmp hash_func (set_iter str_eql keycmp hash_func str_of) w j i = Some (w', i) /\
    Inv w' (upd i (written eqb ei (fst ej)) s) owns'.
Proof.
  intros In0 Hij Ei Ej. destruct (inv_at _ _ _ _ _ In0 Ej) as (dj & oj & Oj & Gj & Rj & Bj).
  destruct (foreach_rule (set_iter str_eql keycmp hash_func str_of)
    (fun pre w1 r => r = i /\ exists owns1, Inv w1 (upd i (written eqb ei pre) s) owns1 /\ nth_error owns1 j = Some oj)
    w j dj (fst ej) oj i Gj Rj) as (w' & st' & E & _ & -> & owns' & I' & _).
  - split; [reflexivity|]. exists owns. cbn. rewrite L_Array.upd_same by assumption. auto.
  - intros pre k v post ko w1 st1 El Ek Hk A (-> & owns1 & I1 & O1).
    assert (Ei1 : nth_error (upd i (written eqb ei pre) s) i = Some (written eqb ei pre)).
    { apply nth_error_upd_same. now apply nth_lt in Ei. }
    destruct (inv_at _ _ _ _ _ I1 Ei1) as (d & own & O & G & R & B).
    destruct (set_ok w1 i d _ own ko v (proj1 I1) G R Hk) as (w2 & d2 & own2 & E2 & Ed2 & R2 & B2 & V2).
    exists w2, i. unfold set_iter. rewrite E2. split; [reflexivity|]. split.
    + apply (agree_trans _ w1); [assumption|]. intros r Hr. destruct V2 as (V2 & _). apply V2.
      * assert (Ej1 : nth_error (upd i (written eqb ei pre) s) j = Some ej) by (now rewrite nth_error_upd_other).
        destruct I1 as (_ & _ & _ & R1 & _). destruct (R1 j ej oj Ej1 O1) as (dj1 & _ & Rj1 & _). eapply rep_valid; eauto.
      * intros X. destruct I1 as (_ & _ & _ & _ & Dj). eapply (Dj i j); eauto.
    + split; [reflexivity|]. exists (upd i own2 owns1). split; [|rewrite nth_error_upd_other; assumption].
      rewrite <- (upd_shadow i _ (written eqb ei pre) s).
      eapply inv_write; eauto; rewrite written_snoc; cbn [fst snd]; [now rewrite <- Ek|now rewrite B2, B].
  - exists w', owns'. auto.
Qed.
Lemma inv_dup w s owns j ej : Inv w s owns -> nth_error s j = Some ej ->
  exists w' owns', dict_dup str_eql keycmp hash_func str_of w j = Some (w', length s) /\
    Inv w' (s ++ [written eqb ([], false) (fst ej)]) owns'.
Proof.
  intros In0 Ej. pose proof (inv_fresh _ _ _ In0) as In1. pose proof (nth_lt _ _ _ Ej) as Hj.
  assert (Ej1 : nth_error (s ++ [([], false)]) j = Some ej) by (now rewrite nth_snoc_old).
  destruct (merge_ok _ _ _ (length s) j _ _ In1 ltac:(lia) (nth_snoc_new s _) Ej1) as (w' & owns' & E & I').
  exists w', owns'. unfold dict_dup. cbn [make_dict]. cbn [fst make_dict] in E.
  replace (length (dicts w)) with (length s) by (destruct In0 as (_ & ? & _); lia).
  split; [exact E|]. assert (X : forall (x y : omap * bool), upd (length s) x (s ++ [y]) = s ++ [x]).
  { intros x y. clear. induction s as [|a s IH]; [reflexivity|]. cbn. now rewrite IH. }
  now rewrite X in I'.
Qed.

Lemma entries_ok w i d l own : get_dict w i = Some d -> rep w d l own ->
  entries keycmp hash_func str_of w i = Some l.
Proof.
  intros G R. unfold entries.
  destruct (foreach_rule (entries_iter str_of) (fun pre w1 (acc : omap) => acc = pre) w i d l own [] G R eq_refl)
    as (w' & st & -> & _ & ->); [|reflexivity].
  intros pre k v post ko w1 st1 El Ek Hk A ->. unfold entries_iter. exists w1, (pre ++ [(k, v)]). now rewrite Ek.
Qed.

Notation step := (step str_eql keycmp hash_func str_of).
Notation run := (run str_eql keycmp hash_func str_of).
Notation spec_step := (spec_step eqb str_of).
Notation spec_run := (spec_run eqb str_of).

Lemma step_ok w s owns c s' r : Inv w s owns -> spec_step s c = Some (s', r) -> deletes_from_big eqb str_of s c = false ->
  exists w' owns', step w c = Some (w', r) /\ Inv w' s' owns'.
Proof.
  intros I0 Sp Hb. destruct c as [|i k v|i k|i k|i|i j|i j|i|i]; cbn [S_Dict.spec_step] in Sp; cbn [M_Dict.step].
  - injection Sp as <- <-. eexists _, _. split; [reflexivity|]. apply inv_fresh; eauto.
  - destruct (Nat.eqb_spec k 0) as [|Hk]; [discriminate|].
    destruct (nth_error s i) as [e|] eqn:E; [|discriminate]. cbn [M_Array.bind] in Sp. injection Sp as <- <-.
    destruct (inv_at _ _ _ _ _ I0 E) as (d & own & O & G & R & B).
    destruct (set_ok w i d _ own k v (proj1 I0) G R Hk) as (w2 & d2 & own2 & -> & Ed2 & R2 & B2 & V2).
    cbn [M_Array.bind]. eexists _, _. split; [reflexivity|]. eapply inv_write; eauto; cbn.
    + destruct e; exact R2.
    + destruct e; cbn in *. now rewrite B2, B.
  - destruct (nth_error s i) as [[l b]|] eqn:E; [|discriminate]. cbn [M_Array.bind] in Sp. injection Sp as <- <-.
    destruct (inv_at _ _ _ _ _ I0 E) as (d & own & O & G & R & B).
    rewrite (index_ok w i d l own (str_of k) G R). cbn. eauto.
  - destruct (nth_error s i) as [[l b]|] eqn:E; [|discriminate]. cbn [M_Array.bind] in Sp. injection Sp as <- <-.
    destruct (inv_at _ _ _ _ _ I0 E) as (d & own & O & G & R & B). cbn [fst snd] in *.
    destruct (del_ok w i d l own (str_of k) G R) as (w2 & d2 & own2 & -> & Ed2 & R2 & B2 & V2).
    { cbn in Hb. rewrite E in Hb. rewrite B. destruct b; [assumption|reflexivity]. }
    cbn [M_Array.bind]. eexists _, _. split; [reflexivity|]. eapply inv_write; eauto.
  - destruct (nth_error s i) as [[l b]|] eqn:E; [|discriminate]. cbn [M_Array.bind] in Sp. injection Sp as <- <-.
    destruct (inv_dup _ _ _ _ _ I0 E) as (w' & owns' & -> & I'). cbn [M_Array.bind]. eauto.
  - destruct (nth_error s i) as [[l b]|] eqn:E; [|discriminate]. cbn [M_Array.bind] in Sp.
    destruct (nth_error s j) as [[m b2]|] eqn:E2; [|discriminate]. cbn [M_Array.bind] in Sp. injection Sp as <- <-.
    unfold dict_merge.
    destruct (inv_dup _ _ _ _ _ I0 E) as (w' & owns' & -> & I'). cbn [M_Array.bind]. unfold merge_nodup.
    pose proof (nth_lt _ _ _ E2) as Hj. cbn [fst] in *.
    assert (Ej1 : nth_error (s ++ [written eqb ([], false) l]) j = Some (m, b2)) by (now rewrite nth_snoc_old).
    destruct (merge_ok _ _ _ (length s) j _ _ I' ltac:(lia) (nth_snoc_new s _) Ej1) as (w2 & owns2 & -> & I2).
    cbn [M_Array.bind]. exists w2, owns2. split; [reflexivity|].
    assert (X : forall (x y : omap * bool), upd (length s) x (s ++ [y]) = s ++ [x]).
    { intros x y. clear. induction s as [|a s IH]; [reflexivity|]. cbn. now rewrite IH. }
    now rewrite X in I2.
  - destruct (Nat.eqb_spec i j) as [|Hij]; [discriminate|].
    destruct (nth_error s i) as [e|] eqn:E; [|discriminate]. cbn [M_Array.bind] in Sp.
    destruct (nth_error s j) as [[m b2]|] eqn:E2; [|discriminate]. cbn [M_Array.bind] in Sp. injection Sp as <- <-.
    unfold merge_nodup. destruct (merge_ok _ _ _ _ _ _ _ I0 Hij E E2) as (w2 & owns2 & -> & I2). cbn [M_Array.bind]. eauto.
  - destruct (nth_error s i) as [[l b]|] eqn:E; [|discriminate]. cbn [M_Array.bind] in Sp. injection Sp as <- <-.
    destruct (inv_at _ _ _ _ _ I0 E) as (d & own & O & G & R & B).
    rewrite (entries_ok w i d l own G R). cbn. eauto.
  - destruct (nth_error s i) as [[l b]|] eqn:E; [|discriminate]. cbn [M_Array.bind] in Sp. injection Sp as <- <-.
    destruct (inv_at _ _ _ _ _ I0 E) as (d & own & O & G & (_ & L & _) & B).
    unfold dict_len. rewrite G. cbn [M_Array.bind]. rewrite L. eauto.
Qed.

Lemma start_inv : Inv start_world [] [].
Proof.
  split; [cbn; lia|]. split; [reflexivity|]. split; [reflexivity|]. split; intros i; intros;
  destruct i; discriminate.
Qed.

Lemma run_ok cs : forall w s owns s' rs, Inv w s owns -> spec_run s cs = Some (s', rs) ->
  never_deletes_from_big eqb str_of s cs -> exists w', run w cs = Some (w', rs).
Proof.
  induction cs as [|c cs IH]; intros w s owns s' rs I0 Sp Hb; cbn [S_Dict.spec_run M_Dict.run] in *.
  - injection Sp as <- <-. eauto.
  - destruct (spec_step s c) as [[s1 r]|] eqn:E; [|discriminate]. cbn [M_Array.bind] in Sp.
    destruct (spec_run s1 cs) as [[s2 rs2]|] eqn:E2; [|discriminate]. cbn [M_Array.bind] in Sp. injection Sp as <- <-.
    destruct Hb as [Hb1 Hb2]. destruct (step_ok w s owns c s1 r I0 E Hb1) as (w1 & owns1 & -> & I1). cbn [M_Array.bind].
    destruct (IH w1 s1 owns1 _ _ I1 E2 (Hb2 _ _ E)) as (w' & ->). cbn. eauto.
Qed.
End D.
