From Verif Require Import Base M_Tree S_Tree.
From Coq Require Import Sorting.Sorted.

(** ** the byte order *)
Lemma cval_inj a b : cval a = cval b -> a = b.
Proof. unfold cval. intros H. rewrite <- (ascii_nat_embedding a), <- (ascii_nat_embedding b). now rewrite H. Qed.

Lemma strcmp_lt a : forall b, (strcmp a b < 0)%Z <-> blt a b.
Proof.
  induction a as [|x a IH]; intros [|y b]; simpl.
  - split; [lia|inversion 1].
  - split; [constructor|lia].
  - split; [lia|inversion 1].
  - destruct (Nat.ltb_spec (cval x) (cval y)); [split; [now constructor|lia]|].
    destruct (Nat.ltb_spec (cval y) (cval x)).
    + split; [lia|]. inversion 1; subst; lia.
    + assert (x = y) by (apply cval_inj; lia). subst y. rewrite IH. split.
      * now constructor.
      * inversion 1; subst; [lia|assumption].
Qed.

Lemma strcmp_gt a : forall b, (0 < strcmp a b)%Z <-> blt b a.
Proof.
  induction a as [|x a IH]; intros [|y b]; simpl.
  - split; [lia|inversion 1].
  - split; [lia|inversion 1].
  - split; [constructor|lia].
  - destruct (Nat.ltb_spec (cval x) (cval y)).
    + split; [lia|]. inversion 1; subst; lia.
    + destruct (Nat.ltb_spec (cval y) (cval x)); [split; [now constructor|lia]|].
      assert (x = y) by (apply cval_inj; lia). subst y. rewrite IH. split.
      * now constructor.
      * inversion 1; subst; [lia|assumption].
Qed.

Lemma strcmp_eq a : forall b, strcmp a b = 0%Z <-> a = b.
Proof.
  induction a as [|x a IH]; intros [|y b]; simpl; try (split; [lia|discriminate]).
  - split; auto.
  - destruct (Nat.ltb_spec (cval x) (cval y)); [split; [lia|intros [= -> ->]; lia]|].
    destruct (Nat.ltb_spec (cval y) (cval x)); [split; [lia|intros [= -> ->]; lia]|].
    assert (x = y) by (apply cval_inj; lia). subst y. rewrite IH. split; [congruence|now intros [= ->]].
Qed.

Lemma blt_trans a b c : blt a b -> blt b c -> blt a c.
Proof.
  intros H. revert c. induction H as [y b|x a y b Hl|x a b H IH]; intros c Hc; inversion Hc; subst;
    first [ apply blt_nil | apply blt_head; lia | apply blt_tail; auto ].
Qed.
Lemma blt_irrefl a : ~ blt a a.
Proof. intros H. apply strcmp_lt in H. assert (strcmp a a = 0%Z) by now apply strcmp_eq. lia. Qed.

Lemma ss_app {A} (R : A -> A -> Prop) (a b : list A) :
  StronglySorted R (a ++ b) <-> StronglySorted R a /\ StronglySorted R b /\ forall x y, In x a -> In y b -> R x y.
Proof.
  induction a as [|x a IH]; simpl.
  - split; [|tauto]. intros H. repeat split; [constructor|assumption|contradiction].
  - split.
    + intros H. inversion H as [|? ? H1 H2]; subst. apply IH in H1 as (H3 & H4 & H5).
      rewrite Forall_app in H2. destruct H2 as [H6 H7]. split; [constructor; assumption|]. split; [assumption|].
      intros u w [<-|Hu] Hw; [|auto]. rewrite Forall_forall in H7. auto.
    + intros (H1 & H2 & H3). inversion H1 as [|? ? H4 H5]; subst. constructor.
      * apply IH. repeat split; auto.
      * apply Forall_app. split; [assumption|]. apply Forall_forall. auto.
Qed.

Section T.
Context {V : Type}.
Notation tree := (tree V).

(** ** heights *)
Fixpoint hok (t : tree) : Prop :=
  match t with
  | Leaf => True
  | Node l _ _ h r => hok l /\ hok r /\ h = Z.of_nat (S (Nat.max (depth l) (depth r)))
  end.
Definition avl (t : tree) : Prop := hok t /\ balanced t.

Lemma hok_height t : hok t -> height t = Z.of_nat (depth t).
Proof. destruct t; simpl; [reflexivity|]. now intros (_ & _ & ->). Qed.

Lemma avl_node l k v h r : avl (Node l k v h r) <->
  avl l /\ avl r /\ h = Z.of_nat (S (Nat.max (depth l) (depth r))) /\ depth l <= depth r + 1 /\ depth r <= depth l + 1.
Proof. unfold avl. simpl. tauto. Qed.

Lemma avl_mk dir a b k v h : avl (mk dir a b k v h) <->
  avl a /\ avl b /\ h = Z.of_nat (S (Nat.max (depth a) (depth b))) /\ depth a <= depth b + 1 /\ depth b <= depth a + 1.
Proof. unfold mk. destruct dir; rewrite avl_node; [rewrite (Nat.max_comm (depth b))|]; tauto. Qed.
Lemma depth_mk dir a b k v h : depth (mk dir a b k v h : tree) = S (Nat.max (depth a) (depth b)).
Proof. unfold mk. destruct dir; simpl; lia. Qed.

Lemma mk_child dir l r k v h : mk dir (child dir l r) (child (negb dir) l r) k v h = Node l k v h r :> tree.
Proof. destruct dir; reflexivity. Qed.

(** the rotation of a node whose [dir] side is two deeper *)
Lemma rot_spec dir y a k v h : avl y -> avl a -> depth y = depth a + 2 ->
  exists t, rot (mk dir y a k v h) dir = Some (t, (Z.of_nat (depth t) - h)%Z) /\ avl t /\
    (depth t = depth y \/ depth t = S (depth y)).
Proof.
  intros Hy Ha Hd.
  assert (E : rot (mk dir y a k v h) dir = 
     match y with
      | Leaf => None
      | Node yl yk yv yh yr =>
          let z := child (negb dir) yl yr in
          let d := child dir yl yr in
          let hz := height z in
          if (height d <? hz)%Z then
            match z with
            | Leaf => None
            | Node zl zk zv zh zr =>
                let x' := mk dir (child (negb dir) zl zr) a k v hz in
                let y' := mk dir d (child dir zl zr) yk yv hz in
                let z' := mk dir y' x' zk zv (hz + 1)%Z in
                Some (z', (hz + 1 - h)%Z)
            end
          else
            let x' := mk dir z a k v (hz + 1)%Z in
            let y' := mk dir d x' yk yv (hz + 2)%Z in
            Some (y', (hz + 2 - h)%Z)
      end) by (destruct dir; reflexivity).
  rewrite E. clear E.
  destruct y as [|yl yk yv yh yr]; [simpl in Hd; lia|].
  rewrite <- (mk_child dir) in Hy, Hd. rewrite depth_mk in Hd. rewrite <- (mk_child dir yl yr yk yv yh), depth_mk.
  apply avl_mk in Hy as (Hdd & Hz & -> & B1 & B2).
  cbv zeta. remember (child (negb dir) yl yr) as z eqn:Ez. remember (child dir yl yr) as d eqn:Ed. clear Ez Ed yl yr.
  rewrite (hok_height z), (hok_height d) by (apply Hz || apply Hdd).
  destruct (Z.ltb_spec (Z.of_nat (depth d)) (Z.of_nat (depth z))).
  - destruct z as [|zl zk zv zh zr]; [simpl in H; lia|].
    assert (Dz2 : depth (Node zl zk zv zh zr) = S (Nat.max (depth (child dir zl zr)) (depth (child (negb dir) zl zr)))).
    { destruct dir; simpl; lia. }
    rewrite Dz2 in *. clear Dz2.
    rewrite <- (mk_child dir) in Hz. apply avl_mk in Hz as (Hz1 & Hz2 & Hzh & C1 & C2).
    remember (child dir zl zr) as z1. remember (child (negb dir) zl zr) as z2.
    eexists. split; [f_equal; f_equal|].
    + rewrite !depth_mk. lia.
    + split; [|rewrite !depth_mk; lia].
      apply avl_mk. rewrite !depth_mk. split; [|split].
      * apply avl_mk. repeat split; try assumption; try apply Hdd; try apply Hz1; lia.
      * apply avl_mk. repeat split; try assumption; try apply Hz2; try apply Ha; lia.
      * repeat split; lia.
  - eexists. split; [f_equal; f_equal|].
    + rewrite !depth_mk. lia.
    + split; [|rewrite !depth_mk; lia].
      apply avl_mk. rewrite !depth_mk. split; [assumption|]. split.
      * apply avl_mk. repeat split; try apply Hz; try apply Ha; lia.
      * repeat split; lia.
Qed.

Lemma balance_spec dir s a k v h : avl s -> avl a ->
  depth s <= depth a + 2 -> depth a <= depth s + 1 ->
  exists t, balance (mk dir s a k v h) = Some (t, (Z.of_nat (depth t) - h)%Z) /\ avl t /\
    (depth s <= depth a + 1 -> depth t = S (Nat.max (depth s) (depth a))) /\
    (depth s = depth a + 2 -> depth t = depth s \/ depth t = S (depth s)).
Proof.
  intros Hs Ha D1 D2.
  assert (Es : height s = Z.of_nat (depth s)) by (apply hok_height, Hs).
  assert (Ea : height a = Z.of_nat (depth a)) by (apply hok_height, Ha).
  destruct (Nat.eq_dec (depth s) (depth a + 2)) as [E|E].
  - destruct (rot_spec dir s a k v h Hs Ha E) as (t & Er & Ht & Hd).
    exists t. split; [|repeat split; try apply Ht; auto; lia]. rewrite <- Er. unfold mk. destruct dir; cbn [balance]; rewrite Es, Ea.
    + destruct (Z.leb_spec (-1) (Z.of_nat (depth a) - Z.of_nat (depth s))); [lia|]. cbn [andb].
      destruct (Z.ltb_spec (Z.of_nat (depth a)) (Z.of_nat (depth s))); [reflexivity|lia].
    + destruct (Z.leb_spec (Z.of_nat (depth s) - Z.of_nat (depth a)) 1); [lia|]. rewrite andb_false_r.
      destruct (Z.ltb_spec (Z.of_nat (depth s)) (Z.of_nat (depth a))); [lia|reflexivity].
  - exists (mk dir s a k v (Z.of_nat (S (Nat.max (depth s) (depth a))))). split; [|split; [|split]].
    + rewrite depth_mk. unfold mk. destruct dir; cbn [balance]; rewrite Es, Ea.
      * destruct (Z.leb_spec (-1) (Z.of_nat (depth a) - Z.of_nat (depth s))); [|lia].
        destruct (Z.leb_spec (Z.of_nat (depth a) - Z.of_nat (depth s)) 1); [|lia]. cbn [andb].
        replace (if (Z.of_nat (depth a) <? Z.of_nat (depth s))%Z then (Z.of_nat (depth s) + 1)%Z else (Z.of_nat (depth a) + 1)%Z)
          with (Z.of_nat (S (Nat.max (depth s) (depth a)))); [reflexivity|].
        destruct (Z.ltb_spec (Z.of_nat (depth a)) (Z.of_nat (depth s))); lia.
      * destruct (Z.leb_spec (-1) (Z.of_nat (depth s) - Z.of_nat (depth a))); [|lia].
        destruct (Z.leb_spec (Z.of_nat (depth s) - Z.of_nat (depth a)) 1); [|lia]. cbn [andb].
        replace (if (Z.of_nat (depth s) <? Z.of_nat (depth a))%Z then (Z.of_nat (depth a) + 1)%Z else (Z.of_nat (depth s) + 1)%Z)
          with (Z.of_nat (S (Nat.max (depth s) (depth a)))); [reflexivity|].
        destruct (Z.ltb_spec (Z.of_nat (depth s)) (Z.of_nat (depth a))); lia.
    + apply avl_mk. repeat split; try apply Hs; try apply Ha; lia.
    + intros _. apply depth_mk.
    + lia.
Qed.

(** ** contexts *)
Fixpoint ctx_ok (path : list (frame (V:=V))) (d : nat) : Prop :=
  match path with
  | [] => True
  | f :: p => avl (f_other f) /\ depth (f_other f) <= d + 1 /\ d <= depth (f_other f) + 1 /\
              f_h f = Z.of_nat (S (Nat.max d (depth (f_other f)))) /\ ctx_ok p (S (Nat.max d (depth (f_other f))))
  end.

Lemma plug_all_avl path : forall s, avl s -> ctx_ok path (depth s) -> avl (plug_all path s).
Proof.
  induction path as [|f p IH]; intros s Hs H; [exact Hs|].
  destruct H as (H1 & H2 & H3 & H4 & H5). apply IH.
  - unfold plug. apply avl_mk. auto.
  - unfold plug. now rewrite depth_mk.
Qed.

Lemma rebalance_avl path : forall s, avl s -> 1 <= depth s -> ctx_ok path (pred (depth s)) ->
  exists t, rebalance path s = Some t /\ avl t.
Proof.
  induction path as [|f p IH]; intros s Hs Hd H; [exists s; auto|].
  destruct H as (H1 & H2 & H3 & H4 & H5). cbn [rebalance]. unfold plug.
  destruct (balance_spec (f_dir f) s (f_other f) (f_key f) (f_val f) (f_h f) Hs H1) as (t & E & Ht & D1 & D2); [lia|lia|].
  rewrite E. rewrite H4.
  destruct (Z.eqb_spec (Z.of_nat (depth t) - Z.of_nat (S (Nat.max (pred (depth s)) (depth (f_other f))))) 0).
  - eexists. split; [reflexivity|]. apply plug_all_avl; [assumption|].
    replace (depth t) with (S (Nat.max (pred (depth s)) (depth (f_other f)))) by lia. assumption.
  - apply IH; [assumption| |].
    + destruct (Nat.eq_dec (depth s) (depth (f_other f) + 2)) as [Q|Q]; [destruct (D2 Q); lia|]. rewrite D1; lia.
    + replace (pred (depth t)) with (S (Nat.max (pred (depth s)) (depth (f_other f)))); [assumption|].
      destruct (Nat.eq_dec (depth s) (depth (f_other f) + 2)) as [Q|Q]; [destruct (D2 Q); lia|].
      rewrite D1 in * by lia. lia.
Qed.

(** ** order *)
Fixpoint pre (path : list (frame (V:=V))) : list (bytes * V) :=
  match path with
  | [] => []
  | f :: p => pre p ++ (if f_dir f then inorder (f_other f) ++ [(f_key f, f_val f)] else [])
  end.
Fixpoint post (path : list (frame (V:=V))) : list (bytes * V) :=
  match path with
  | [] => []
  | f :: p => (if f_dir f then [] else (f_key f, f_val f) :: inorder (f_other f)) ++ post p
  end.

Lemma inorder_plug (f : frame (V:=V)) t : inorder (plug f t) =
  (if f_dir f then inorder (f_other f) ++ [(f_key f, f_val f)] else []) ++ inorder t ++
  (if f_dir f then [] else (f_key f, f_val f) :: inorder (f_other f)).
Proof.
  unfold plug, mk. destruct (f_dir f); simpl.
  - rewrite app_nil_r, <- app_assoc. reflexivity.
  - reflexivity.
Qed.

Lemma inorder_plug_all path : forall t : tree, inorder (plug_all path t) = pre path ++ inorder t ++ post path.
Proof.
  induction path as [|f p IH]; intros t; simpl; [now rewrite app_nil_r|].
  rewrite IH, inorder_plug, <- !app_assoc. reflexivity.
Qed.

Lemma rot_inorder (x : tree) dir t d : rot x dir = Some (t, d) -> inorder t = inorder x.
Proof.
  destruct x as [|xl xk xv hx xr]; [discriminate|]. destruct dir; simpl.
  - destruct xr as [|yl yk yv yh yr]; [discriminate|].
    destruct (height yr <? height yl)%Z.
    + destruct yl; [discriminate|]. intros [= <- _]. simpl. now repeat (rewrite <- !app_assoc; simpl).
    + intros [= <- _]. simpl. now repeat (rewrite <- !app_assoc; simpl).
  - destruct xl as [|yl yk yv yh yr]; [discriminate|].
    destruct (height yl <? height yr)%Z.
    + destruct yr; [discriminate|]. intros [= <- _]. simpl. now repeat (rewrite <- !app_assoc; simpl).
    + intros [= <- _]. simpl. now repeat (rewrite <- !app_assoc; simpl).
Qed.

Lemma balance_inorder (x : tree) t d : balance x = Some (t, d) -> inorder t = inorder x.
Proof.
  destruct x as [|l k v h r]; [discriminate|]. cbn [balance].
  destruct ((-1 <=? height l - height r) && (height l - height r <=? 1))%Z.
  - now intros [= <- _].
  - apply rot_inorder.
Qed.

Lemma rebalance_inorder path : forall s t : tree, rebalance path s = Some t -> inorder t = pre path ++ inorder s ++ post path.
Proof.
  induction path as [|f p IH]; intros s t H; cbn [rebalance] in H.
  - inversion H; subst. simpl. now rewrite app_nil_r.
  - destruct (balance (plug f s)) as [[t' d]|] eqn:E; [|discriminate].
    apply balance_inorder in E. rewrite inorder_plug in E. destruct (d =? 0)%Z.
    + inversion H; subst. rewrite inorder_plug_all, E. simpl. now rewrite <- !app_assoc.
    + apply IH in H. rewrite H, E. simpl. now rewrite <- !app_assoc.
Qed.

Definition below (key : bytes) (l : list (bytes * V)) := Forall (fun kv => blt (fst kv) key) l.
Definition above (key : bytes) (l : list (bytes * V)) := Forall (fun kv => blt key (fst kv)) l.

Lemma ordered_node l k v h r : ordered (Node l k v h r : tree) <->
  ordered l /\ ordered r /\ below k (inorder l) /\ above k (inorder r).
Proof.
  unfold ordered, below, above. simpl. rewrite map_app. simpl. rewrite ss_app, !Forall_forall. split.
  - intros (H1 & H2 & H3). inversion H2 as [|? ? H4 H5]; subst. rewrite Forall_forall in H5.
    repeat split; auto.
    + intros [k' v'] Hin. apply H3; [|now left]. apply in_map_iff. exists (k', v'). auto.
    + intros [k' v'] Hin. apply H5. apply in_map_iff. exists (k', v'). auto.
  - intros (H1 & H2 & H3 & H4). split; [assumption|]. split.
    + constructor; [assumption|]. apply Forall_forall. intros x Hx. apply in_map_iff in Hx as (kv & <- & Hx). auto.
    + intros x y Hx [<-|Hy].
      * apply in_map_iff in Hx as (kv & <- & Hx). auto.
      * apply in_map_iff in Hx as (kv & <- & Hx). apply in_map_iff in Hy as (kv2 & <- & Hy).
        eapply blt_trans; eauto.
Qed.

Lemma treefind_spec (t : tree) key v : ordered t -> (treefind t key = Some v <-> In (key, v) (inorder t)).
Proof.
  induction t as [|l IHl k v' h r IHr]; intros H; simpl; [split; [discriminate|contradiction]|].
  apply ordered_node in H as (Hl & Hr & Hb & Ha). rewrite in_app_iff. simpl.
  unfold below, above in *. rewrite Forall_forall in Hb, Ha.
  destruct (Z.eqb_spec (strcmp key k) 0) as [E|E].
  - apply strcmp_eq in E. subst k. split.
    + intros [= ->]. auto.
    + intros [Hin|[Hin|Hin]].
      * exfalso. apply (blt_irrefl key). exact (Hb _ Hin).
      * congruence.
      * exfalso. apply (blt_irrefl key). exact (Ha _ Hin).
  - destruct (Z.ltb_spec 0 (strcmp key k)) as [G|G].
    + apply strcmp_gt in G. rewrite IHr by assumption. split; [auto|].
      intros [Hin|[Hin|Hin]]; [| |assumption].
      * exfalso. apply (blt_irrefl key). eapply blt_trans; [exact (Hb _ Hin)|exact G].
      * inversion Hin; subst. exfalso. eapply blt_irrefl; eauto.
    + assert (blt key k) by (apply strcmp_lt; lia). rewrite IHl by assumption. split; [auto|].
      intros [Hin|[Hin|Hin]]; [assumption|..].
      * inversion Hin; subst. exfalso. eapply blt_irrefl; eauto.
      * exfalso. apply (blt_irrefl key). eapply blt_trans; [exact H|exact (Ha _ Hin)].
Qed.

(** ** the descent *)
Lemma descend_spec (n : tree) : forall key path, avl n -> ordered n -> ctx_ok path (depth n) ->
  below key (pre path) -> above key (post path) ->
  match descend n key path with
  | Found p l k old h r => k = key /\ avl (Node l k old h r) /\ ctx_ok p (depth (Node l k old h r)) /\
      plug_all p (Node l k old h r) = plug_all path n /\ length p <= length path + depth n
  | Missing p => ctx_ok p 0 /\ below key (pre p) /\ above key (post p) /\
      plug_all p Leaf = plug_all path n /\ length p <= length path + depth n
  end.
Proof.
  induction n as [|l IHl k v h r IHr]; intros key path Ha Ho Hc Hb Hab.
  - simpl. repeat split; auto. lia.
  - cbn [descend]. apply ordered_node in Ho as (Ol & Or & Bl & Ar).
    destruct (Z.eqb_spec (strcmp key k) 0) as [E|E].
    + apply strcmp_eq in E. subst k. repeat split; try apply Ha; auto. simpl. lia.
    + pose proof Ha as Ha'. apply avl_node in Ha' as (Al & Ar' & Eh & D1 & D2).
      destruct (Z.ltb_spec 0 (strcmp key k)) as [G|G].
      * apply strcmp_gt in G.
        specialize (IHr key (mkFrame true l k v h :: path) Ar' Or).
        assert (P1 : ctx_ok (mkFrame true l k v h :: path) (depth r)).
        { simpl. repeat split; try apply Al; try lia. replace (Nat.max (depth r) (depth l)) with (Nat.max (depth l) (depth r)) by lia. exact Hc. }
        assert (P2 : below key (pre (mkFrame true l k v h :: path))).
        { simpl. unfold below in *. rewrite !Forall_app. split; [assumption|]. split.
          { eapply Forall_impl; [|exact Bl]. intros kv H. eapply blt_trans; [exact H|exact G]. }
          constructor; [exact G|constructor]. }
        assert (P3 : above key (post (mkFrame true l k v h :: path))) by (simpl; assumption).
        specialize (IHr P1 P2 P3). destruct (descend r key (mkFrame true l k v h :: path)).
        -- destruct IHr as (H1 & H2 & H3 & H4 & H5). repeat split; auto; try apply H2. simpl in *. lia.
        -- destruct IHr as (H1 & H2 & H3 & H4 & H5). repeat split; auto. simpl in *. lia.
      * assert (Hlt : blt key k) by (apply strcmp_lt; lia).
        specialize (IHl key (mkFrame false r k v h :: path) Al Ol).
        assert (P1 : ctx_ok (mkFrame false r k v h :: path) (depth l)).
        { simpl. repeat split; try apply Ar'; try lia. exact Hc. }
        assert (P2 : below key (pre (mkFrame false r k v h :: path))) by (simpl; now rewrite app_nil_r).
        assert (P3 : above key (post (mkFrame false r k v h :: path))).
        { simpl. unfold above in *. constructor; [assumption|]. rewrite Forall_app. split; [|assumption].
          eapply Forall_impl; [|exact Ar]. intros kv H. eapply blt_trans; [exact Hlt|exact H]. }
        specialize (IHl P1 P2 P3). destruct (descend l key (mkFrame false r k v h :: path)).
        -- destruct IHl as (H1 & H2 & H3 & H4 & H5). repeat split; auto; try apply H2. simpl in *. lia.
        -- destruct IHl as (H1 & H2 & H3 & H4 & H5). repeat split; auto. simpl in *. lia.
Qed.
Lemma ordered_plug_all path (t : tree) : ordered (plug_all path t) ->
  StronglySorted blt (map fst (pre path ++ post path)).
Proof.
  unfold ordered. rewrite inorder_plug_all, !map_app, !ss_app. intros (H1 & (H2 & H3 & H4) & H5).
  repeat split; auto. intros x y Hx Hy. apply H5; [assumption|]. apply in_or_app. now right.
Qed.

Lemma treeinsert_spec (t : tree) key v : avl t -> ordered t ->
  exists t' n, treeinsert t key v = Some (t', treefind t key, n) /\ n <= S (depth t) /\
    avl t' /\ ordered t' /\
    forall k w, In (k, w) (inorder t') <-> (k = key /\ w = v) \/ (k <> key /\ In (k, w) (inorder t)).
Proof.
  intros Ha Ho. unfold treeinsert.
  pose proof (descend_spec t key [] Ha Ho I (Forall_nil _) (Forall_nil _)) as D.
  assert (F : forall w, treefind t key = Some w <-> In (key, w) (inorder t)) by (intros; now apply treefind_spec).
  destruct (descend t key []) as [p l k old h r|p].
  - destruct D as (-> & A & C & E & L). simpl in E, L.
    assert (Ei : inorder t = pre p ++ inorder (Node l key old h r) ++ post p) by (rewrite <- E; apply inorder_plug_all).
    assert (Ft : treefind t key = Some old).
    { apply F. rewrite Ei. apply in_or_app. right. apply in_or_app. left. simpl. apply in_or_app. right. now left. }
    eexists. exists (S (length p)). rewrite Ft. split; [reflexivity|]. split; [lia|].
    assert (A' : avl (Node l key v h r)) by (apply avl_node; now apply avl_node in A).
    assert (Ei' : inorder (plug_all p (Node l key v h r)) = pre p ++ inorder (Node l key v h r) ++ post p) by apply inorder_plug_all.
    split; [|split].
    + apply plug_all_avl; [assumption|]. exact C.
    + unfold ordered in *. rewrite Ei'. rewrite Ei in Ho. simpl in *. rewrite !map_app in *. simpl in *. exact Ho.
    + intros k w. rewrite Ei', Ei. 
      unfold ordered in Ho. rewrite Ei in Ho. simpl in Ho. 
      assert (Hn : forall w', ~ In (key, w') (pre p ++ inorder l ++ inorder r ++ post p)).
      { intros w' Hin. rewrite <- app_assoc in Ho. simpl in Ho. rewrite app_assoc, map_app in Ho. simpl in Ho.
        apply ss_app in Ho as (_ & H2 & H3). inversion H2 as [|? ? _ H4]; subst. rewrite Forall_forall in H4.
        rewrite app_assoc in Hin. apply in_app_or in Hin as [Hin|Hin].
        - apply (blt_irrefl key). apply H3; [|now left]. apply in_map_iff. exists (key, w'). auto.
        - apply (blt_irrefl key). apply H4. apply in_map_iff. exists (key, w'). auto. }
      simpl. rewrite !in_app_iff in *. simpl. split.
      * intros [H|[[H|[H|H]]|H]].
        -- right. split; [|tauto]. intros ->. apply (Hn w). rewrite !in_app_iff. tauto.
        -- right. split; [|tauto]. intros ->. apply (Hn w). rewrite !in_app_iff. tauto.
        -- left. inversion H; auto.
        -- right. split; [|tauto]. intros ->. apply (Hn w). rewrite !in_app_iff. tauto.
        -- right. split; [|tauto]. intros ->. apply (Hn w). rewrite !in_app_iff. tauto.
      * intros [[-> ->]|[H [H1|[[H1|[H1|H1]]|H1]]]]; try tauto. inversion H1; congruence.
  - destruct D as (C & B1 & B2 & E & L). simpl in E, L.
    assert (Ei : inorder t = pre p ++ post p) by (rewrite <- E, inorder_plug_all; reflexivity).
    destruct (rebalance_avl p (Node Leaf key v 1 Leaf)) as (t' & Et & At').
    { apply avl_node. repeat split; simpl; auto. }
    { simpl. lia. }
    { exact C. }
    assert (Hn : forall w', ~ In (key, w') (inorder t)).
    { intros w' Hin. rewrite Ei in Hin. unfold below, above in *. rewrite Forall_forall in B1, B2.
      apply in_app_or in Hin as [Hin|Hin]; apply (blt_irrefl key); [exact (B1 _ Hin)|exact (B2 _ Hin)]. }
    assert (Ft : treefind t key = None).
    { destruct (treefind t key) as [w|]; [|reflexivity]. exfalso. apply (Hn w). now apply F. }
    rewrite Et, Ft. exists t', (S (length p)). split; [reflexivity|]. split; [lia|]. split; [assumption|].
    pose proof (rebalance_inorder _ _ _ Et) as Ei'. simpl in Ei'. split.
    + unfold ordered in *. rewrite Ei'. rewrite Ei, map_app, ss_app in Ho. destruct Ho as (H1 & H2 & H3).
      unfold below, above in *. rewrite Forall_forall in B1, B2.
      rewrite map_app. simpl. apply ss_app. split; [assumption|]. split.
      * constructor; [assumption|]. apply Forall_forall. intros x Hx. apply in_map_iff in Hx as (kv & <- & Hx). auto.
      * intros x y Hx [<-|Hy]; [|auto]. apply in_map_iff in Hx as (kv & <- & Hx). auto.
    + intros k w. rewrite Ei', Ei, !in_app_iff. simpl. rewrite Ei in Hn. split.
      * intros [H|[H|H]]; [|inversion H; auto|].
        -- right. split; [|tauto]. intros ->. apply (Hn w). rewrite in_app_iff. tauto.
        -- right. split; [|tauto]. intros ->. apply (Hn w). rewrite in_app_iff. tauto.
      * intros [[-> ->]|[_ H]]; tauto.
Qed.

Lemma insert_all_spec kvs : forall (t : tree) (m : bytes -> option V), avl t -> ordered t ->
  (forall k, treefind t k = m k) ->
  exists t', insert_all t kvs = Some t' /\ avl t' /\ ordered t' /\
    forall k, treefind t' k = fold_left (fun acc kv => if beqb (fst kv) k then Some (snd kv) else acc) kvs (m k).
Proof.
  induction kvs as [|[key v] kvs IH]; intros t m Ha Ho Hm; [exists t; auto|].
  cbn [insert_all]. destruct (treeinsert_spec t key v Ha Ho) as (t1 & n & -> & _ & A1 & O1 & S1).
  destruct (IH t1 (fun k => if beqb key k then Some v else m k) A1 O1) as (t' & E & A' & O' & S').
  - intros k. destruct (beqb_spec key k) as [<-|Hne].
    + apply treefind_spec; [assumption|]. apply S1. auto.
    + rewrite <- Hm. destruct (treefind t k) as [w|] eqn:Q.
      * apply treefind_spec; [assumption|]. apply S1. right. split; [congruence|]. now apply treefind_spec.
      * destruct (treefind t1 k) as [w|] eqn:Q1; [|reflexivity].
        apply treefind_spec in Q1; [|assumption]. apply S1 in Q1 as [[-> _]|[_ Q1]]; [congruence|].
        apply treefind_spec in Q1; [congruence|assumption].
  - exists t'. split; [exact E|]. split; [exact A'|]. split; [exact O'|]. intros k. now rewrite S'.
Qed.

(** ** the size of balanced trees *)
Fixpoint fib2 (n : nat) : N * N := match n with 0 => (1, 2)%N | S n' => let '(a, b) := fib2 n' in (b, a + b)%N end.
Definition minsize (n : nat) : N := fst (fib2 n).   (* 1 + the least size of an AVL tree of depth n *)

Lemma minsize_SS n : minsize (S (S n)) = (minsize n + minsize (S n))%N.
Proof. unfold minsize. simpl. destruct (fib2 n). reflexivity. Qed.
Lemma minsize_mono1 n : (minsize n <= minsize (S n))%N.
Proof.
  unfold minsize. simpl. assert (fst (fib2 n) <= snd (fib2 n))%N.
  { induction n; simpl; [lia|]. destruct (fib2 n). simpl in *. lia. }
  destruct (fib2 n). simpl in *. assumption.
Qed.
Lemma minsize_mono n m : n <= m -> (minsize n <= minsize m)%N.
Proof. induction 1; [lia|]. pose proof (minsize_mono1 m). lia. Qed.

Lemma balanced_size (t : tree) : balanced t -> (minsize (depth t) <= N.of_nat (size t) + 1)%N.
Proof.
  unfold size. induction t as [|l IHl k v h r IHr]; intros H; [unfold minsize; simpl; lia|].
  simpl in H. destruct H as (Bl & Br & D1 & D2). specialize (IHl Bl). specialize (IHr Br).
  simpl. rewrite app_length. simpl.
  destruct (Nat.max_spec (depth l) (depth r)) as [[L ->]|[L ->]].
  - destruct (depth r) as [|d] eqn:Dr; [lia|]. rewrite minsize_SS.
    assert (minsize d <= minsize (depth l))%N by (apply minsize_mono; lia). lia.
  - destruct (depth l) as [|d] eqn:Dl.
    + change (minsize 1) with 2%N. lia.
    + rewrite minsize_SS. assert (minsize d <= minsize (depth r))%N by (apply minsize_mono; lia). lia.
Qed.

Lemma depth_bound (t : tree) : balanced t -> (N.of_nat (size t) < 2 ^ 64)%N -> depth t <= 95.
Proof.
  intros B S. destruct (Nat.le_gt_cases (depth t) 95) as [|G]; [assumption|]. exfalso.
  pose proof (balanced_size t B). pose proof (minsize_mono 96 (depth t) ltac:(lia)).
  assert (2 ^ 64 + 1 < minsize 96)%N by (vm_compute; reflexivity). lia.
Qed.
End T.
