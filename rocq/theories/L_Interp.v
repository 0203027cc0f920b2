(** Lemmas about values and equality. *)
From Verif Require Import Base M_Interp S_Interp.

Section ValueInd.
Variable P : value -> Prop.
Hypothesis Hb : forall b, P (VBool b).
Hypothesis Hn : forall b, P (VNum b).
Hypothesis Hs : forall b, P (VStr b).
Hypothesis Ha : forall l, Forall P l -> P (VArr l).
Hypothesis Hd : forall l, Forall (fun p => P (snd p)) l -> P (VDict l).
Hypothesis Ho : forall o, P (VOther o).
Fixpoint value_ind2 (v : value) : P v :=
  match v with
  | VBool b => Hb b | VNum n => Hn n | VStr s => Hs s | VOther o => Ho o
  | VArr l => Ha l ((fix go l := match l return Forall P l with
                                 | [] => Forall_nil _
                                 | x :: l => Forall_cons _ (value_ind2 x) (go l)
                                 end) l)
  | VDict l => Hd l ((fix go l := match l return Forall (fun p => P (snd p)) l with
                                 | [] => Forall_nil _
                                 | x :: l => Forall_cons _ (value_ind2 (snd x)) (go l)
                                 end) l)
  end.
End ValueInd.

Fixpoint vdepth (v : value) : nat :=
  match v with
  | VArr l => S (list_max (map vdepth l))
  | VDict l => S (list_max (map (fun p => vdepth (snd p)) l))
  | _ => 0
  end.

Lemma list_max_in : forall l x, In x l -> x <= list_max l.
Proof.
  induction l as [|y l IH]; intros x I; cbn in *; [contradiction|].
  fold (list_max l). destruct I as [->|I]; [lia|]. specialize (IH _ I). lia.
Qed.

Lemma obj_at_nth : forall s o x, nth_error (heap s) o = Some x -> obj_at s o = x.
Proof. intros s o x H. unfold obj_at. apply nth_error_nth. exact H. Qed.

Lemma lookup_in : forall {A} (l : list (bytes * A)) k v,
  NoDup (map fst l) -> In (k, v) l -> dict_lookup l k = Some v.
Proof.
  unfold dict_lookup. induction l as [|[k1 v1] l IH]; intros k v N I; cbn in *; [contradiction|].
  inversion N as [|? ? N1 N2]; subst.
  destruct I as [E|I].
  - inversion E; subst. rewrite beqb_refl. reflexivity.
  - destruct (beqb k1 k) eqn:Eb.
    + apply beqb_eq in Eb. subst. exfalso. apply N1. apply (in_map fst) in I. exact I.
    + apply IH; assumption.
Qed.
Lemma lookup_some : forall {A} (l : list (bytes * A)) k v, dict_lookup l k = Some v -> In (k, v) l.
Proof.
  unfold dict_lookup. intros A l k v H.
  destruct (find _ l) as [[k1 v1]|] eqn:F; inversion H; subst.
  apply find_some in F. destruct F as [I E]. cbn in E. apply beqb_eq in E. subst. exact I.
Qed.
Lemma lookup_none : forall {A} (l : list (bytes * A)) k, dict_lookup l k = None -> ~ In k (map fst l).
Proof.
  unfold dict_lookup. intros A l k H I.
  destruct (find _ l) as [p|] eqn:F; [discriminate|].
  apply in_map_iff in I. destruct I as ([k1 v1] & E & I). cbn in E. subst.
  apply find_none with (x := (k, v1)) in F; [|exact I]. cbn in F. rewrite beqb_refl in F. discriminate.
Qed.

Lemma nodup_key : forall {A} (l : list (bytes * A)) k v w,
  NoDup (map fst l) -> In (k, v) l -> In (k, w) l -> v = w.
Proof.
  intros A l k v w N I J. apply lookup_in in I; [|exact N]. apply lookup_in in J; [|exact N]. congruence.
Qed.

Lemma forall2_in_l : forall {A B} (R : A -> B -> Prop) l m x,
  Forall2 R l m -> In x l -> exists y, In y m /\ R x y.
Proof.
  induction 1; intros I; [destruct I|]. destruct I as [->|I].
  - exists y. split; [now left|assumption].
  - destruct (IHForall2 I) as (z & Iz & Hz). exists z. split; [now right|assumption].
Qed.
Lemma forall2_in_r : forall {A B} (R : A -> B -> Prop) l m y,
  Forall2 R l m -> In y m -> exists x, In x l /\ R x y.
Proof.
  induction 1; intros I; [destruct I|]. destruct I as [->|I].
  - exists x. split; [now left|assumption].
  - destruct (IHForall2 I) as (z & Iz & Hz). exists z. split; [now right|assumption].
Qed.

Lemma forall2_length : forall {A B} (R : A -> B -> Prop) l m, Forall2 R l m -> length l = length m.
Proof. induction 1; cbn; congruence. Qed.

Lemma dict_keys : forall h (l : list (bytes * nat)) kvs,
  Forall2 (fun p q => fst p = fst q /\ denotes h (snd p) (snd q)) l kvs -> map fst l = map fst kvs.
Proof. induction 1 as [|x y l m [E _] _ IH]; cbn; congruence. Qed.


(** an object and its value are of the same kind *)
Definition den_as (h : list obj) (o : nat) (x : obj) (v : value) : Prop :=
  match v with
  | VBool b => x = OBool b
  | VNum n => x = ONum n
  | VStr t => x = OStr t
  | VArr vs => exists l, x = OArr l /\ Forall2 (denotes h) l vs
  | VDict kvs => exists l, x = ODict l /\ NoDup (map fst l) /\
      Forall2 (fun p q => fst p = fst q /\ denotes h (snd p) (snd q)) l kvs
  | VOther o' => o' = o /\ is_other x
  end.
Lemma den_inv : forall h o v, denotes h o v -> exists x, nth_error h o = Some x /\ den_as h o x v.
Proof. intros h o v D. inversion D; subst; eexists; (split; [eassumption|]); cbn; eauto. Qed.
Lemma den_intro : forall h o v x, nth_error h o = Some x -> den_as h o x v -> denotes h o v.
Proof.
  intros h o v x E D. destruct v; cbn in D; subst.
  - now constructor.
  - now constructor.
  - now constructor.
  - destruct D as (l0 & -> & F). econstructor; eassumption.
  - destruct D as (l0 & -> & N & F). econstructor; eassumption.
  - destruct D as [-> F]. econstructor; eassumption.
Qed.

Lemma denotes_fun : forall h v o w, denotes h o v -> denotes h o w -> v = w.
Proof.
  intros h. induction v as [b|n|t|l IH|l IH|o'] using value_ind2; intros o w D1 D2;
    apply den_inv in D1; apply den_inv in D2;
    destruct D1 as (x & E & D1); destruct D2 as (x' & E' & D2);
    rewrite E in E'; inversion E'; subst x'; clear E E'; cbn in D1.
  - subst x. destruct w; cbn in D2; try congruence;
      repeat match goal with H : exists _, _ |- _ => destruct H | H : _ /\ _ |- _ => destruct H end;
      try congruence; cbn in *; tauto.
  - subst x. destruct w; cbn in D2; try congruence;
      repeat match goal with H : exists _, _ |- _ => destruct H | H : _ /\ _ |- _ => destruct H end;
      try congruence; cbn in *; tauto.
  - subst x. destruct w; cbn in D2; try congruence;
      repeat match goal with H : exists _, _ |- _ => destruct H | H : _ /\ _ |- _ => destruct H end;
      try congruence; cbn in *; tauto.
  - destruct D1 as (a & -> & F1). destruct w as [b|n|t|m|m|o2]; cbn in D2; try congruence;
      repeat match goal with H : exists _, _ |- _ => destruct H | H : _ /\ _ |- _ => destruct H end;
      try congruence; [|cbn in *; tauto].
    match goal with H : OArr a = OArr ?b |- _ => inversion H; subst b end.
    f_equal. revert m a F1 H0 H. induction l as [|v l IHl]; intros m a F1 F2 H;
      inversion F1; subst; inversion F2; subst; [reflexivity|].
    inversion IH; subst. f_equal; eauto.
  - destruct D1 as (a & -> & N1 & F1). destruct w as [b|n|t|m|m|o2]; cbn in D2; try congruence;
      repeat match goal with H : exists _, _ |- _ => destruct H | H : _ /\ _ |- _ => destruct H end;
      try congruence; [|cbn in *; tauto].
    match goal with H : ODict a = ODict ?b |- _ => inversion H; subst b end.
    f_equal. clear N1 H H0. revert m a F1 H1. induction l as [|[k v] l IHl]; intros m a F1 F2;
      inversion F1; subst; inversion F2; subst; [reflexivity|].
    inversion IH; subst. f_equal; eauto.
    destruct y as [k' w]. cbn in *.
    repeat match goal with H : _ /\ _ |- _ => destruct H end. subst. f_equal. eauto.
  - destruct D1 as [-> O]. destruct w; cbn in D2; subst; cbn in O; try contradiction;
      repeat match goal with H : exists _, _ |- _ => destruct H | H : _ /\ _ |- _ => destruct H end; subst;
      cbn in *; try contradiction. reflexivity.
Qed.

Lemma same_refl : forall v, same v v.
Proof.
  induction v using value_ind2; constructor; auto.
  - induction H; constructor; auto.
  - intros k v I. exists v. split; [exact I|]. rewrite Forall_forall in H. apply (H (k, v) I).
  - intros k v I. exists v. split; [exact I|]. rewrite Forall_forall in H. apply (H (k, v) I).
Qed.
Lemma same_sym : forall v w, same v w -> same w v.
Proof.
  induction v using value_ind2; intros w S; inversion S; subst; constructor.
  - clear S. revert m H1. induction H; intros m F; inversion F; subst; constructor; auto.
  - intros k w I. destruct (H2 k w I) as (v & J & Sv). exists v. split; [exact J|].
    rewrite Forall_forall in H. apply (H (k, v) J). exact Sv.
  - intros k v I. destruct (H1 k v I) as (w & J & Sv). exists w. split; [exact J|].
    rewrite Forall_forall in H. apply (H (k, v) I). exact Sv.
Qed.
Lemma same_trans : forall v w x, same v w -> same w x -> same v x.
Proof.
  induction v using value_ind2; intros w x S T; inversion S; subst; inversion T; subst; constructor.
  - clear S T. revert m m0 H1 H2. induction H; intros m m0 F G; inversion F; subst; inversion G; subst; constructor; eauto.
  - intros k v I. destruct (H1 k v I) as (w & J & Sv). destruct (H3 k w J) as (x & K & Sx).
    exists x. split; [exact K|]. rewrite Forall_forall in H. apply (H (k, v) I w); assumption.
  - intros k x I. destruct (H4 k x I) as (w & J & Sv). destruct (H2 k w J) as (v & K & Sx).
    exists v. split; [exact K|]. rewrite Forall_forall in H. apply (H (k, v) K w); assumption.
Qed.

Lemma same_dict_length : forall l m, NoDup (map fst l) -> NoDup (map fst m) ->
  same (VDict l) (VDict m) -> length l = length m.
Proof.
  intros l m Nl Nm S. inversion S; subst.
  rewrite <- (map_length fst l), <- (map_length fst m). apply Nat.le_antisymm.
  - apply NoDup_incl_length; [exact Nl|]. intros k I. apply in_map_iff in I. destruct I as ([k' v] & <- & I).
    destruct (H1 _ _ I) as (w & J & _). apply (in_map fst) in J. exact J.
  - apply NoDup_incl_length; [exact Nm|]. intros k I. apply in_map_iff in I. destruct I as ([k' v] & <- & I).
    destruct (H2 _ _ I) as (w & J & _). apply (in_map fst) in J. exact J.
Qed.
(** for lists of the same length without a key twice, one direction is enough *)
Lemma same_dict_half : forall l m, NoDup (map fst l) -> NoDup (map fst m) -> length l = length m ->
  (forall k v, In (k, v) l -> exists w, In (k, w) m /\ same v w) -> same (VDict l) (VDict m).
Proof.
  intros l m Nl Nm L F. constructor; [exact F|].
  assert (I : incl (map fst m) (map fst l)).
  { apply NoDup_length_incl; [exact Nl| rewrite !map_length; lia |].
    intros k J. apply in_map_iff in J. destruct J as ([k' v] & <- & J).
    destruct (F _ _ J) as (w & K & _). apply (in_map fst) in K. exact K. }
  intros k w J. assert (K := I k (in_map fst _ _ J)). apply in_map_iff in K.
  destruct K as ([k' v] & E & K). cbn in E. subst k'. exists v. split; [exact K|].
  destruct (F _ _ K) as (w' & J' & S). now rewrite (nodup_key _ _ _ _ Nm J J').
Qed.

(** object.c 430-491 obj_equal decides structural equality *)
Lemma equal_spec : forall s v w l r fuel,
  denotes (heap s) l v -> denotes (heap s) r w -> vdepth v < fuel ->
  exists b, equal fuel s l r = Some b /\ (b = true <-> same v w).
Proof.
  intros s. induction v as [b|n|t|vs IH|kvs IH|o'] using value_ind2; intros w l r fuel D1 D2 F;
    (destruct fuel as [|fuel]; [lia|]); cbn [equal]; (destruct (l =? r) eqn:Elr;
      [apply Nat.eqb_eq in Elr; subst r; rewrite (denotes_fun _ _ _ _ D2 D1); exists true; split; [reflexivity|];
       split; [intros _; apply same_refl|reflexivity]|]);
    apply Nat.eqb_neq in Elr;
    apply den_inv in D1; destruct D1 as (x & E1 & D1); apply den_inv in D2; destruct D2 as (y & E2 & D2);
    rewrite (obj_at_nth _ _ _ E1), (obj_at_nth _ _ _ E2); cbn in D1.
  - subst x. destruct w; cbn in D2;
      repeat match goal with H : exists _, _ |- _ => destruct H | H : _ /\ _ |- _ => destruct H end; subst; cbn;
      try (eexists; split; [reflexivity|]; split; [discriminate|intros S; inversion S]).
    + eexists; split; [reflexivity|]. rewrite Bool.eqb_true_iff. split; [intros ->; constructor|intros S; inversion S; auto].
    + destruct y; try contradiction; (eexists; split; [reflexivity|]; split; [discriminate|intros S; inversion S]).
  - subst x. destruct w; cbn in D2;
      repeat match goal with H : exists _, _ |- _ => destruct H | H : _ /\ _ |- _ => destruct H end; subst; cbn;
      try (eexists; split; [reflexivity|]; split; [discriminate|intros S; inversion S]).
    + eexists; split; [reflexivity|]. rewrite Z.eqb_eq. split; [intros ->; constructor|intros S; inversion S; auto].
    + destruct y; try contradiction; (eexists; split; [reflexivity|]; split; [discriminate|intros S; inversion S]).
  - subst x. destruct w; cbn in D2;
      repeat match goal with H : exists _, _ |- _ => destruct H | H : _ /\ _ |- _ => destruct H end; subst; cbn;
      try (eexists; split; [reflexivity|]; split; [discriminate|intros S; inversion S]).
    + eexists; split; [reflexivity|]. rewrite beqb_eq. split; [intros ->; constructor|intros S; inversion S; auto].
    + destruct y; try contradiction; (eexists; split; [reflexivity|]; split; [discriminate|intros S; inversion S]).
  - destruct D1 as (a & -> & F1). destruct w as [b|n|t|m|m|o2]; cbn in D2;
      repeat match goal with H : exists _, _ |- _ => destruct H | H : _ /\ _ |- _ => destruct H end; subst; cbn [andb];
      try (eexists; split; [reflexivity|]; split; [discriminate|intros S; inversion S]).
    + rename x into c. rename H0 into F2.
      assert (La := forall2_length _ _ _ F1). assert (Lc := forall2_length _ _ _ F2).
      destruct (length a =? length c) eqn:Ln.
      * apply Nat.eqb_eq in Ln. clear E1 E2 Elr La Lc.
        cbn [vdepth] in F.
        assert (B : forall v, In v vs -> vdepth v < fuel).
        { intros v I. assert (vdepth v <= list_max (map vdepth vs)) by (apply list_max_in, in_map, I). lia. }
        clear F. revert m a c F1 F2 Ln. induction vs as [|v vs IHl]; intros m a c F1 F2 Ln.
        { inversion F1; subst. destruct c; [|discriminate]. inversion F2; subst.
          exists true. split; [reflexivity|]. split; [intros _; constructor; constructor|reflexivity]. }
        inversion F1 as [|x1 ? a1 ? Dx F1']; subst. destruct c as [|z c]; [discriminate|].
        inversion F2 as [|? y1 ? m1 Dz F2']; subst.
        inversion IH as [|? ? IHv IHvs]; subst.
        destruct (IHv _ _ _ fuel Dx Dz (B v (or_introl eq_refl))) as (b & Eb & Hb). rewrite Eb.
        destruct b.
        -- destruct (IHl IHvs (fun v I => B v (or_intror I)) _ _ _ F1' F2') as (b' & Eb' & Hb').
           { cbn in Ln. lia. }
           exists b'. split; [exact Eb'|]. rewrite Hb'. split; intros S.
           ++ inversion S as [| | |? ? S'| |]; subst. constructor. constructor; [now apply Hb|assumption].
           ++ inversion S as [| | |? ? S'| |]; subst. constructor. inversion S'; subst. assumption.
        -- exists false. split; [reflexivity|]. split; [discriminate|]. intros S.
           inversion S as [| | |? ? S'| |]; subst.
           inversion S' as [|? ? ? ? Sv]; subst. apply Hb in Sv. discriminate.
      * apply Nat.eqb_neq in Ln. eexists; split; [reflexivity|]; split; [discriminate|].
        intros S; inversion S; subst. apply forall2_length in H1. lia.
    + destruct y; try contradiction; (eexists; split; [reflexivity|]; split; [discriminate|intros S; inversion S]).
  - destruct D1 as (a & -> & N1 & F1). destruct w as [b|n|t|m|m|o2]; cbn in D2;
      repeat match goal with H : exists _, _ |- _ => destruct H | H : _ /\ _ |- _ => destruct H end; subst; cbn [andb];
      try (eexists; split; [reflexivity|]; split; [discriminate|intros S; inversion S]).
    + rename x into c. rename H0 into N2. rename H1 into F2.
      assert (La := forall2_length _ _ _ F1). assert (Lc := forall2_length _ _ _ F2).
      assert (K1 := dict_keys _ _ _ F1). assert (K2 := dict_keys _ _ _ F2).
      assert (M1 : NoDup (map fst kvs)) by (rewrite <- K1; exact N1).
      assert (M2 : NoDup (map fst m)) by (rewrite <- K2; exact N2).
      destruct (length a =? length c) eqn:Ln.
      * apply Nat.eqb_eq in Ln. clear E1 E2 Elr.
        cbn [vdepth] in F.
        assert (B : forall p, In p kvs -> vdepth (snd p) < fuel).
        { intros v I. assert (vdepth (snd v) <= list_max (map (fun p => vdepth (snd p)) kvs)) by (apply list_max_in, (in_map (fun p => vdepth (snd p))), I). lia. }
        match goal with |- exists b, ?X = Some b /\ _ =>
          assert (Y : exists b, X = Some b /\ (b = true <-> forall k v, In (k, v) kvs -> exists w, In (k, w) m /\ same v w)) end.
        { clear F N1 M1 K1 La Ln Lc. revert a F1. induction kvs as [|[k v] kvs IHl]; intros a F1.
          { inversion F1; subst. exists true. split; [reflexivity|]. split; [intros _ ? ? []|reflexivity]. }
          inversion F1 as [|[k' i] ? a' ? [Ek Dv] F1']; subst. cbn in Ek, Dv. subst k'.
          inversion IH as [|? ? IHv IHvs]; subst. cbn in IHv.
          destruct (dict_lookup c k) as [j|] eqn:Lk.
          - apply lookup_some in Lk. destruct (forall2_in_l _ _ _ _ F2 Lk) as ([k' w] & Iw & Ek & Dw).
            cbn in Ek, Dw. subst k'.
            destruct (IHv _ _ _ fuel Dv Dw (B _ (or_introl eq_refl))) as (b & Eb & Hb). rewrite Eb.
            destruct b.
            + destruct (IHl IHvs (fun v I => B v (or_intror I)) _ F1') as (b' & Eb' & Hb').
              exists b'. split; [exact Eb'|]. rewrite Hb'. split; intros S.
              * intros k0 v0 [E|I]; [|now apply S]. inversion E; subst. exists w. split; [exact Iw|now apply Hb].
              * intros k0 v0 I. apply S. now right.
            + exists false. split; [reflexivity|]. split; [discriminate|]. intros S.
              destruct (S k v (or_introl eq_refl)) as (w' & Iw' & Sw).
              rewrite (nodup_key _ _ _ _ M2 Iw' Iw) in Sw. apply Hb in Sw. discriminate.
          - apply lookup_none in Lk. exists false. split; [reflexivity|]. split; [discriminate|]. intros S.
            destruct (S k v (or_introl eq_refl)) as (w' & Iw' & Sw). exfalso. apply Lk. rewrite K2.
            apply (in_map fst) in Iw'. exact Iw'. }
        destruct Y as (b & Eb & Hb). exists b. split; [exact Eb|]. rewrite Hb. split.
        -- intros S. apply same_dict_half; auto. lia.
        -- intros S. inversion S; subst. assumption.
      * apply Nat.eqb_neq in Ln. eexists; split; [reflexivity|]; split; [discriminate|].
        intros S. apply same_dict_length in S; auto. lia.
    + destruct y; try contradiction; (eexists; split; [reflexivity|]; split; [discriminate|intros S; inversion S]).
  - destruct D1 as [-> O1]. destruct w; cbn in D2;
      repeat match goal with H : exists _, _ |- _ => destruct H | H : _ /\ _ |- _ => destruct H end; subst;
      destruct x; try contradiction; cbn; try (eexists; split; [reflexivity|]; split; [discriminate|intros S; inversion S]; congruence).
    all: destruct y; try contradiction; (eexists; split; [reflexivity|]; split; [discriminate|intros S; inversion S]; congruence).
Qed.
