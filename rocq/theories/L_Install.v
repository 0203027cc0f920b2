(** Lemmas about permission strings and installation. *)
From Verif Require Import Base M_Path M_Install S_Install.
From Coq Require Import NArith.
Local Open Scope N_scope.

(** ** Permission strings *)
Lemma rwx_r : forall i c b, i = 0%nat \/ i = 3%nat \/ i = 6%nat -> rwx_special i c = Some b ->
  exists x : bool, c = (if x then "r" else "-")%char /\ b = 0.
Proof.
  intros i c b Hi H. unfold rwx_special in H.
  destruct (ceqb_spec c "-"); [exists false; now inversion H|].
  destruct (ceqb_spec c "t"); [destruct Hi as [->|[->| ->]]; discriminate H|].
  destruct (ceqb_spec c "T"); [destruct Hi as [->|[->| ->]]; discriminate H|].
  destruct (ceqb_spec c "s"); [destruct Hi as [->|[->| ->]]; discriminate H|].
  destruct (ceqb_spec c "S"); [destruct Hi as [->|[->| ->]]; discriminate H|].
  destruct (ceqb_spec c "r"); [exists true; destruct Hi as [->|[->| ->]]; inversion H; auto|].
  destruct (ceqb_spec c "w"); [destruct Hi as [->|[->| ->]]; discriminate H|].
  destruct (ceqb_spec c "x"); [destruct Hi as [->|[->| ->]]; discriminate H|discriminate H].
Qed.
Lemma rwx_w : forall i c b, i = 1%nat \/ i = 4%nat \/ i = 7%nat -> rwx_special i c = Some b ->
  exists x : bool, c = (if x then "w" else "-")%char /\ b = 0.
Proof.
  intros i c b Hi H. unfold rwx_special in H.
  destruct (ceqb_spec c "-"); [exists false; now inversion H|].
  destruct (ceqb_spec c "t"); [destruct Hi as [->|[->| ->]]; discriminate H|].
  destruct (ceqb_spec c "T"); [destruct Hi as [->|[->| ->]]; discriminate H|].
  destruct (ceqb_spec c "s"); [destruct Hi as [->|[->| ->]]; discriminate H|].
  destruct (ceqb_spec c "S"); [destruct Hi as [->|[->| ->]]; discriminate H|].
  destruct (ceqb_spec c "r"); [destruct Hi as [->|[->| ->]]; discriminate H|].
  destruct (ceqb_spec c "w"); [exists true; destruct Hi as [->|[->| ->]]; inversion H; auto|].
  destruct (ceqb_spec c "x"); [destruct Hi as [->|[->| ->]]; discriminate H|discriminate H].
Qed.
Definition xl (x sp : bool) (both only : ascii) : ascii :=
  if sp then if x then both else only else if x then "x"%char else "-"%char.
Lemma rwx_x : forall i v c b, i = 2%nat /\ v = 2048 \/ i = 5%nat /\ v = 1024 -> rwx_special i c = Some b ->
  exists x sp : bool, c = xl x sp "s" "S" /\ b = if sp then v else 0.
Proof.
  intros i v c b Hi H. unfold rwx_special in H.
  destruct (ceqb_spec c "-"); [exists false, false; now inversion H|].
  destruct (ceqb_spec c "t"); [destruct Hi as [[-> ->]|[-> ->]]; discriminate H|].
  destruct (ceqb_spec c "T"); [destruct Hi as [[-> ->]|[-> ->]]; discriminate H|].
  destruct (ceqb_spec c "s"); [exists true, true; destruct Hi as [[-> ->]|[-> ->]]; inversion H; auto|].
  destruct (ceqb_spec c "S"); [exists false, true; destruct Hi as [[-> ->]|[-> ->]]; inversion H; auto|].
  destruct (ceqb_spec c "r"); [destruct Hi as [[-> ->]|[-> ->]]; discriminate H|].
  destruct (ceqb_spec c "w"); [destruct Hi as [[-> ->]|[-> ->]]; discriminate H|].
  destruct (ceqb_spec c "x"); [exists true, false; destruct Hi as [[-> ->]|[-> ->]]; inversion H; auto|discriminate H].
Qed.
Lemma rwx_t : forall c b, rwx_special 8 c = Some b ->
  exists x sp : bool, c = xl x sp "t" "T" /\ b = if sp then 512 else 0.
Proof.
  intros c b H. unfold rwx_special in H.
  destruct (ceqb_spec c "-"); [exists false, false; now inversion H|].
  destruct (ceqb_spec c "t"); [exists true, true; inversion H; auto|].
  destruct (ceqb_spec c "T"); [exists false, true; inversion H; auto|].
  destruct (ceqb_spec c "s"); [discriminate H|].
  destruct (ceqb_spec c "S"); [discriminate H|].
  destruct (ceqb_spec c "r"); [discriminate H|].
  destruct (ceqb_spec c "w"); [discriminate H|].
  destruct (ceqb_spec c "x"); [exists true, false; inversion H; auto|discriminate H].
Qed.
(** checking a boolean function on all its arguments at once *)
Definition allb (f : bool -> bool) : bool := f true && f false.
Lemma allb_all : forall f, allb f = true -> forall b, f b = true.
Proof. intros f H b. apply andb_true_iff in H. destruct H, b; assumption. Qed.
Lemma rwx_sound : forall s m, rwx_to_perm s = Some m -> m < 4096 /\ s = ls_l m.
Proof.
  intros s m H. unfold rwx_to_perm in H.
  do 9 (destruct s as [|? s]; [discriminate H|]). destruct s; [|discriminate H].
  cbn [length Nat.eqb rwx_loop] in H.
  repeat match type of H with
  | match rwx_special ?i ?c with _ => _ end = _ => destruct (rwx_special i c) as [?b|] eqn:?E; [|discriminate H]
  end.
  apply rwx_r in E; [|tauto]. apply rwx_w in E0; [|tauto]. apply (rwx_x 2 2048) in E1; [|tauto].
  apply rwx_r in E2; [|tauto]. apply rwx_w in E3; [|tauto]. apply (rwx_x 5 1024) in E4; [|tauto].
  apply rwx_r in E5; [|tauto]. apply rwx_w in E6; [|tauto]. apply rwx_t in E7.
  destruct E as (x8 & -> & ->), E0 as (x7 & -> & ->), E1 as (x6 & s6 & -> & ->), E2 as (x5 & -> & ->), E3 as (x4 & -> & ->),
    E4 as (x3 & s3 & -> & ->), E5 as (x2 & -> & ->), E6 as (x1 & -> & ->), E7 as (x0 & s0 & -> & ->).
  injection H as <-.
  match goal with |- ?m < 4096 /\ ?s = ls_l ?m =>
    assert (X : (m <? 4096) && beqb s (ls_l m) = true);
    [|apply andb_true_iff in X; destruct X as [X1 X2]; split; [apply N.ltb_lt; exact X1|apply beqb_eq; exact X2]] end.
  revert s0. apply allb_all. revert x0. apply allb_all. revert x1. apply allb_all. revert x2. apply allb_all.
  revert s3. apply allb_all. revert x3. apply allb_all. revert x4. apply allb_all. revert x5. apply allb_all.
  revert s6. apply allb_all. revert x6. apply allb_all. revert x7. apply allb_all. revert x8. apply allb_all.
  vm_compute. reflexivity.
Qed.
Lemma ls_bits : forall m, rwx_to_perm (ls_l m) = Some (m mod 4096).
Proof.
  intros m. unfold ls_l, letter, xletter.
  assert (E : m mod 4096 = fold_right (fun n a => N.lor (if N.testbit m n then 2 ^ n else 0) a) 0 [0;1;2;3;4;5;6;7;8;9;10;11]).
  { change 4096 with (2 ^ 12). apply N.bits_inj. intros n.
    assert (C : n < 12 \/ 12 <= n) by (destruct (N.lt_ge_cases n 12); auto).
    cbn [fold_right]. rewrite !N.lor_spec, N.bits_0, orb_false_r.
    assert (X : forall k, N.testbit (if N.testbit m k then 2 ^ k else 0) n = (N.testbit m k && (k =? n))).
    { intros k. destruct (N.testbit m k) eqn:Ek; cbn [andb]; [apply N.pow2_bits_eqb|apply N.bits_0]. }
    rewrite !X. destruct C as [C|C].
    - rewrite N.mod_pow2_bits_low by exact C.
      assert (Cs : n = 0 \/ n = 1 \/ n = 2 \/ n = 3 \/ n = 4 \/ n = 5 \/ n = 6 \/ n = 7 \/ n = 8 \/ n = 9 \/ n = 10 \/ n = 11) by lia.
      repeat match type of Cs with _ \/ _ => destruct Cs as [->|Cs] end; [..|subst n];
        cbn [N.eqb Pos.eqb]; rewrite ?andb_false_r, ?andb_true_r; cbn [orb]; rewrite ?orb_false_r; reflexivity.
    - rewrite N.mod_pow2_bits_high by exact C.
      repeat match goal with |- context [?k =? n] => replace (k =? n) with false by (symmetry; apply N.eqb_neq; lia) end.
      rewrite !andb_false_r. reflexivity. }
  rewrite E. clear E. cbn [fold_right].
  generalize (N.testbit m 0) (N.testbit m 1) (N.testbit m 2) (N.testbit m 3) (N.testbit m 4) (N.testbit m 5)
    (N.testbit m 6) (N.testbit m 7) (N.testbit m 8) (N.testbit m 9) (N.testbit m 10) (N.testbit m 11).
  intros b0 b1 b2 b3 b4 b5 b6 b7 b8 b9 b10 b11.
  match goal with |- ?l = Some ?r => assert (X : match l with Some x => x =? r | None => false end = true);
    [|destruct l; [apply N.eqb_eq in X; now rewrite X|discriminate X]] end.
  revert b0. apply allb_all. revert b1. apply allb_all. revert b2. apply allb_all. revert b3. apply allb_all.
  revert b4. apply allb_all. revert b5. apply allb_all. revert b6. apply allb_all. revert b7. apply allb_all.
  revert b8. apply allb_all. revert b9. apply allb_all. revert b10. apply allb_all. revert b11. apply allb_all.
  vm_compute. reflexivity.
Qed.

(** ** Installation *)
Definition meets (l : log) (r : outcome) (P : log -> Prop) (Q : Prop) : Prop :=
  match r with
  | None => True
  | Some (true, l') => exists k, l' = l ++ k /\ clean k /\ P l'
  | Some (false, l') => exists k, l' = l ++ k /\ (~ clean k \/ Q)
  end.
Lemma done_app : forall o l k, done o l -> done o (l ++ k).
Proof. intros. apply in_or_app. now left. Qed.
Lemma meets_ok : forall l (P : log -> Prop) Q, P l -> meets l (ok l) P Q.
Proof. intros l P Q H. exists []. rewrite app_nil_r. repeat split; [constructor|exact H]. Qed.
Lemma meets_fail : forall l P (Q : Prop), Q -> meets l (fail l) P Q.
Proof. intros l P Q H. exists []. rewrite app_nil_r. split; [reflexivity|now right]. Qed.
Lemma clean_app : forall a b, clean (a ++ b) <-> clean a /\ clean b.
Proof. intros. unfold clean. apply Forall_app. Qed.
Lemma meets_more : forall l k r P Q, clean k -> meets (l ++ k) r P Q -> meets l r P Q.
Proof.
  intros l k r P Q C M. destruct r as [[[] l']|]; [| |exact I]; cbn [meets] in *.
  - destruct M as (k' & -> & Ck & HP). exists (k ++ k'). rewrite app_assoc. repeat split; [|exact HP]. apply clean_app. now split.
  - destruct M as (k' & -> & HQ). exists (k ++ k'). rewrite app_assoc. split; [reflexivity|].
    destruct HQ as [HQ|HQ]; [|now right]. left. intros H. apply clean_app in H. now apply HQ.
Qed.
Lemma meets_need : forall w o l k P Q,
  (forall l', done o l' -> (exists x, l' = l ++ x) -> meets l' (k l') P Q) -> meets l (need w o l k) P Q.
Proof.
  intros w o l k P Q H. unfold need, act. destruct (does w l o) eqn:E.
  - apply (meets_more l [(o, true)]); [repeat constructor|]. apply H; [apply in_or_app; right; now left|eauto].
  - exists [(o, false)]. split; [reflexivity|left]. intros C. inversion C as [|? ? Hb]. discriminate Hb.
Qed.
Lemma meets_then : forall l r k P1 P Q,
  meets l r P1 Q -> (forall l', P1 l' -> (exists x, l' = l ++ x) -> meets l' (k l') P Q) -> meets l (need_ r k) P Q.
Proof.
  intros l r k P1 P Q M H. destruct r as [[[] l']|]; cbn [need_]; [|exact M|exact I].
  destruct M as (x & -> & C & HP). apply (meets_more l x); [exact C|]. apply H; eauto.
Qed.
Lemma meets_weaken : forall l r (P P' : log -> Prop) (Q Q' : Prop),
  (forall l', P l' -> P' l') -> (Q -> Q') -> meets l r P Q -> meets l r P' Q'.
Proof.
  intros l r P P' Q Q' HP HQ M. destruct r as [[[] l']|]; [| |exact I]; cbn [meets] in *.
  - destruct M as (k & E & C & X). eauto.
  - destruct M as (k & E & [X|X]); exists k; auto.
Qed.
Lemma meets_finish : forall w l d perm (P : log -> Prop) Q,
  (forall x, P l -> P (l ++ x)) -> P l ->
  meets l (finish w d perm l) (fun l' => P l' /\ forall m, perm = Some m -> done (Chmod d m) l') Q.
Proof.
  intros w l d perm P Q Mo H. destruct perm as [m|]; cbn [finish].
  - apply meets_need. intros l' D [x ->]. apply meets_ok. split; [auto|]. now intros ? [= <-].
  - apply meets_ok. split; [exact H|discriminate].
Qed.

Definition below (t : target) (root name : bytes) (tr : tree) (sb db : bytes) (l : log) : Prop :=
  forall s d, wanted t root name tr sb db s d -> done (CopyFile s d) l.
Lemma below_app : forall t root n tr sb db l x, below t root n tr sb db l -> below t root n tr sb db (l ++ x).
Proof. intros t root n tr sb db l x H s d W. apply done_app. now apply H. Qed.

Fixpoint tree_size (t : tree) : nat :=
  match t with TDir es => S (list_sum (map (fun e => S (tree_size (snd e))) es)) | _ => 1%nat end.
Lemma tree_size_in : forall n t es, In (n, t) es -> (tree_size t < tree_size (TDir es))%nat.
Proof.
  intros n t es H. cbn [tree_size]. induction es as [|e es IH]; [destruct H|]. cbn [map list_sum fold_right].
  destruct H as [->|H]; [cbn [snd]; lia|]. specialize (IH H). unfold list_sum in IH. lia.
Qed.
Lemma not_in_existsb : forall x l, existsb (beqb x) l = false -> ~ In x l.
Proof.
  intros x l H Hi. assert (E : existsb (beqb x) l = true) by (apply existsb_exists; exists x; split; [exact Hi|apply beqb_refl]). congruence.
Qed.
Lemma existsb_in : forall x l, existsb (beqb x) l = true -> In x l.
Proof. intros x l H. apply existsb_exists in H. destruct H as (y & Hy & E). apply beqb_eq in E. now subst y. Qed.
Lemma copy_subdir_meets : forall w t root n tr, (tree_size tr <= n)%nat -> forall name sb db l,
  meets l (copy_subdir w (tperm t) (texdirs t) (texfiles t) root name tr sb db l) (below t root name tr sb db) (~ plain tr).
Proof.
  intros w t root. induction n as [|n IH]; intros tr L name sb db l; [destruct tr; cbn in L; lia|].
  destruct tr as [|es|]; cbn [copy_subdir].
  - destruct (path_join sb name) as [src|] eqn:E1; [|exact I]. destruct (path_join db name) as [dst|] eqn:E2; [|exact I].
    destruct (path_relative_to root src) as [rel|] eqn:E3; [|exact I].
    destruct (existsb (beqb rel) (texfiles t)) eqn:Ex.
    + apply meets_ok. intros s d W. inversion W as [? ? ? ? ? rel' J1 J2 J3 Nin|]; subst. exfalso. apply Nin.
      assert (s = src) by congruence. subst s. assert (rel' = rel) by congruence. subst. now apply existsb_in.
    + apply meets_need. intros l' D _. eapply meets_weaken; [| |apply (meets_finish w l' dst (tperm t) (done (CopyFile src dst)))]; [| |intros; now apply done_app|exact D].
      * intros l2 [X _] s d W. inversion W; subst. assert (s = src) by congruence. assert (d = dst) by congruence. now subst.
      * intros F. exact F.
  - destruct (path_join sb name) as [src|] eqn:E1; [|exact I]. destruct (path_join db name) as [dst|] eqn:E2; [|exact I].
    destruct (path_relative_to root src) as [rel|] eqn:E3; [|exact I].
    destruct (existsb (beqb rel) (texdirs t)) eqn:Ex.
    + apply meets_ok. intros s d W. inversion W as [|? ? ? ? ? ? rel' ? ? ? ? J1 J2 J3 Nin]; subst. exfalso. apply Nin.
      assert (s0 = src) by congruence. subst s0. assert (rel' = rel) by congruence. subst. now apply existsb_in.
    + assert (M : forall l, meets l
        (need w (ListDir src) l (fun l0 =>
           need_ ((fix go es l := match es with
                                  | [] => ok l
                                  | (n, t') :: es' => need_ (copy_subdir w (tperm t) (texdirs t) (texfiles t) root n t' src dst l) (go es')
                                  end) es l0) (finish w dst (tperm t))))
        (below t root name (TDir es) sb db) (~ plain (TDir es))).
      { intros l1. apply meets_need. intros l2 _ _.
        apply meets_then with (P1 := fun l' => forall n tr, In (n, tr) es -> below t root n tr src dst l').
        - assert (S : forall n0 t0, In (n0, t0) es -> (tree_size t0 <= n)%nat).
          { intros n0 t0 Hi. apply tree_size_in in Hi. lia. }
          assert (Gen : forall es', (forall n0 t0, In (n0, t0) es' -> In (n0, t0) es) -> forall l3,
            meets l3 ((fix go es l := match es with
                                  | [] => ok l
                                  | (n, t') :: es' => need_ (copy_subdir w (tperm t) (texdirs t) (texfiles t) root n t' src dst l) (go es')
                                  end) es' l3)
              (fun l' => forall n tr, In (n, tr) es' -> below t root n tr src dst l') (~ plain (TDir es))).
          { induction es' as [|[n1 t1] es' IHe]; intros Sub l3; [apply meets_ok; intros ? ? []|].
            eapply meets_then.
            - eapply meets_weaken; [| |apply (IH t1); apply (S n1); apply Sub; now left]; [intros l' X; exact X|].
              intros Np Pl. apply Np. inversion Pl as [|? Hp]; subst. apply (Hp n1). apply Sub. now left.
            - intros l4 B1 _. specialize (IHe (fun n0 t0 Hi => Sub n0 t0 (or_intror Hi)) l4).
              assert (K : forall r P Q (R : log -> Prop), R l4 -> (forall x, R (l4 ++ x)) -> meets l4 r P Q -> meets l4 r (fun l' => P l' /\ R l') Q).
              { intros r P Q R R0 Rx M. destruct r as [[[] l']|]; cbn [meets] in *; [|exact M|exact I].
                destruct M as (k & -> & C & X). exists k. auto. }
              apply (K _ _ _ (below t root n1 t1 src dst)) in IHe; [|exact B1|intros x; now apply below_app].
              eapply meets_weaken; [| |exact IHe]; [|auto]. intros l' [X Y] n0 t0 [E|Hi]; [injection E as <- <-; exact Y|now apply X]. }
          apply Gen. auto.
        - intros l3 HB _. eapply meets_weaken; [| |apply (meets_finish w l3 dst (tperm t) (fun l' => forall n tr, In (n, tr) es -> below t root n tr src dst l'))].
          + intros l' [X _] s d W. inversion W as [|? ? ? ? s1 d1 rel' n1 t1 ? ? J1 J2 J3 Nin Hin W']; subst.
            assert (s1 = src) by congruence. assert (d1 = dst) by congruence. subst. now apply (X n1 t1).
          + intros F. exact F.
          + intros x X n0 t0 Hi. apply below_app. now apply X.
          + exact HB. }
      destruct (is_dir w l dst); [apply M|]. apply meets_need. intros l' _ _. apply M.
  - destruct (path_join sb name) as [src|] eqn:E1; [|exact I]. destruct (path_join db name) as [dst|] eqn:E2; [|exact I].
    destruct (path_relative_to root src) as [rel|] eqn:E3; [|exact I]. apply meets_fail. intros H. inversion H.
Qed.

Lemma in_place_app : forall w t d l x, in_place w t d l -> in_place w t d (l ++ x).
Proof.
  intros w t d l x [H1 H2]. split.
  - destruct (tkind t).
    + destruct H1 as [[H|H] H3]; (split; [|intros; apply done_app; auto]); [left|right]; now apply done_app.
    + intros n tr s d' Hi W. apply done_app. eauto.
    + now apply done_app.
    + now apply done_app.
  - intros. apply done_app. auto.
Qed.
(** what can go wrong without a failing action *)
Definition obstacle (w : world) (t : target) : Prop :=
  (exists l d, exists_ w l d = true /\ is_dir w l d = false) \/
  (tkind t = KSubdir /\ exists n tr, In (n, tr) (entries_of w (tsrc t)) /\ ~ plain tr).
Lemma install_iter_meets : forall w o dd t l d, dry_run o = false -> full_dest dd (tdest t) = Some d ->
  meets l (install_iter w o dd t l) (in_place w t d) (obstacle w t).
Proof.
  intros w o dd t l d Hd Hf. unfold install_iter.
  destruct (match tkind t with KSymlink | KEmptydir => false | _ => negb (path_is_absolute (tsrc t)) end); [exact I|].
  rewrite Hf, Hd.
  assert (Dir : forall (k : log -> outcome) P, (forall l', meets l' (k l') P (obstacle w t)) ->
    meets l (match path_dirname d with
             | None => None
             | Some dir => if exists_ w l dir && negb (is_dir w l dir) then fail l else need w (MkdirP dir) l k end) P (obstacle w t)).
  { intros k P Hk. destruct (path_dirname d) as [dir|]; [|exact I].
    destruct (exists_ w l dir && negb (is_dir w l dir)) eqn:Eo.
    - apply meets_fail. left. exists l, dir. apply andb_true_iff in Eo. destruct Eo as [X Y]. apply negb_true_iff in Y. auto.
    - apply meets_need. auto. }
  destruct (tkind t) eqn:Ek.
  - apply Dir. intros l1.
    assert (Rest : forall cp l2, (cp = CopyFile (tsrc t) d \/ cp = CopyDir (tsrc t) d) -> done cp l2 ->
      meets l2 (if tbuild t then need w (FixRpaths d) l2 (finish w d (tperm t)) else finish w d (tperm t) l2) (in_place w t d) (obstacle w t)).
    { intros cp l2 Hc Dc.
      assert (D1 : forall l', done cp l' -> done (CopyFile (tsrc t) d) l' \/ done (CopyDir (tsrc t) d) l')
        by (intros l' X; destruct Hc as [-> | ->]; auto).
      destruct (tbuild t) eqn:Eb.
      - apply meets_need. intros l3 D3 [x ->].
        eapply meets_weaken; [| |apply (meets_finish w (l2 ++ x) d (tperm t) (fun l' => done cp l' /\ done (FixRpaths d) l'))].
        + intros l' [[X Y] Z]. split; [rewrite Ek; auto|exact Z].
        + intros F. exact F.
        + intros y [X Y]. split; now apply done_app.
        + split; [now apply done_app|exact D3].
      - eapply meets_weaken; [| |apply (meets_finish w l2 d (tperm t) (fun l' => done cp l'))].
        + intros l' [X Z]. split; [rewrite Ek; split; [auto|congruence]|exact Z].
        + intros F. exact F.
        + intros y X. now apply done_app.
        + exact Dc. }
    destruct (is_dir w l1 (tsrc t)); apply meets_need; intros l2 D2 _; (eapply Rest; [|exact D2]); auto.
  - apply meets_need. intros l1 _ _. apply meets_need. intros l2 _ _.
    apply meets_then with (P1 := fun l' => forall n tr, In (n, tr) (entries_of w (tsrc t)) -> below t (tsrc t) n tr (tsrc t) d l').
    + assert (Gen : forall es, (forall e, In e es -> In e (entries_of w (tsrc t))) -> forall l3,
        meets l3 (each (fun e => copy_subdir w (tperm t) (texdirs t) (texfiles t) (tsrc t) (fst e) (snd e) (tsrc t) d) es l3)
          (fun l' => forall n tr, In (n, tr) es -> below t (tsrc t) n tr (tsrc t) d l') (obstacle w t)).
      { induction es as [|[n1 t1] es IHe]; intros Sub l3; [apply meets_ok; intros ? ? []|]. cbn [each fst snd].
        eapply meets_then.
        - eapply meets_weaken; [| |apply (copy_subdir_meets w t (tsrc t) (tree_size t1) t1 (Nat.le_refl _))]; [intros l' X; exact X|].
          intros Np. right. split; [exact Ek|]. exists n1, t1. split; [apply Sub; now left|exact Np].
        - intros l4 B1 _. specialize (IHe (fun e Hi => Sub e (or_intror Hi)) l4).
          destruct (each _ es l4) as [[[] l5]|]; cbn [meets] in *; [|exact IHe|exact I].
          destruct IHe as (k & -> & C & X). exists k. repeat split; [exact C|].
          intros n0 t0 [E|Hi]; [injection E as <- <-; now apply below_app|now apply X]. }
      apply Gen. auto.
    + intros l3 HB _. eapply meets_weaken; [| |apply (meets_finish w l3 d (tperm t) (fun l' => forall n tr, In (n, tr) (entries_of w (tsrc t)) -> below t (tsrc t) n tr (tsrc t) d l'))].
      * intros l' [X Z]. split; [rewrite Ek|exact Z]. intros n tr s d' Hi W. now apply (X n tr).
      * intros F. exact F.
      * intros x X n0 t0 Hi. apply below_app. now apply X.
      * exact HB.
  - apply Dir. intros l1. apply meets_need. intros l2 D2 _.
    eapply meets_weaken; [| |apply (meets_finish w l2 d (tperm t) (done (Symlink (tsrc t) d)))].
    + intros l' [X Z]. split; [now rewrite Ek|exact Z].
    + intros F. exact F.
    + intros x X. now apply done_app.
    + exact D2.
  - apply meets_need. intros l2 D2 _.
    eapply meets_weaken; [| |apply (meets_finish w l2 d (tperm t) (done (MkdirP d)))].
    + intros l' [X Z]. split; [now rewrite Ek|exact Z].
    + intros F. exact F.
    + intros x X. now apply done_app.
    + exact D2.
Qed.
Lemma each_meets : forall A (f : A -> log -> outcome) (R : A -> log -> Prop) (Q : Prop) xs,
  (forall x l k, R x l -> R x (l ++ k)) ->
  (forall x l, In x xs -> meets l (f x l) (R x) Q) ->
  forall l, meets l (each f xs l) (fun l' => forall x, In x xs -> R x l') Q.
Proof.
  intros A f R Q xs Mo. induction xs as [|x xs IH]; intros H l; [apply meets_ok; intros ? []|]. cbn [each].
  eapply meets_then; [apply H; now left|]. intros l1 H1 _.
  specialize (IH (fun x l Hi => H x l (or_intror Hi)) l1). destruct (each f xs l1) as [[[] l2]|]; cbn [meets] in *; [|exact IH|exact I].
  destruct IH as (k & -> & C & X). exists k. repeat split; [exact C|]. intros y [<-|Hy]; [now apply Mo|now apply X].
Qed.
Lemma script_meets : forall w o dd p fp s l, dry_run o = false ->
  meets l (install_script w o dd p fp s l) (ran s) False.
Proof.
  intros w o dd p fp s l H. unfold install_script. rewrite H. cbn [andb]. apply meets_need. intros l' D _. apply meets_ok. eexists. exact D.
Qed.
