(** Lemmas about the names of files in a build file: relative paths and resolved names lead to the same place, and
    consist of the characters and names of the path. *)
From Verif Require Import Base S_Path M_Path L_Path L_Path2 L_Path3 M_Escape S_Escape L_Escape M_Backend S_Backend.
Local Arguments B _ : simpl never.

(** ** walking *)
Lemma removelast_app1 {A} (a : list A) x : removelast (a ++ [x]) = a.
Proof. rewrite removelast_app by discriminate. cbn. apply app_nil_r. Qed.
Lemma removelast_firstn_last {A} (l : list A) : removelast l = firstn (length l - 1) l.
Proof. rewrite removelast_firstn_len. f_equal. lia. Qed.
(** walking on from (u, st): what goes up cuts [st], what goes down is added *)
Lemma fold_walk_from cs : forall u st,
  fold_left walk1 cs (u, st) = (u + (fst (walk cs) - length st), firstn (length st - fst (walk cs)) st ++ snd (walk cs)).
Proof.
  induction cs as [|c cs IH] using rev_ind; intros u st.
  - cbn. rewrite Nat.sub_0_r, firstn_all, app_nil_r. f_equal. lia.
  - unfold walk. rewrite !fold_left_app. fold (walk cs). rewrite IH. cbn [fold_left]. destruct (walk cs) as [v k]. cbn [fst snd] in *.
    unfold walk1. destruct (is_up c); cbn [fst snd].
    + destruct k as [|x k].
      * rewrite !app_nil_r. cbn [fst snd]. destruct (Nat.leb_spec (length st) v) as [L|L].
        -- replace (length st - v) with 0 by lia. cbn [firstn]. replace (length st - S v) with 0 by lia. cbn [firstn]. f_equal. lia.
        -- assert (Hn : firstn (length st - v) st <> []).
           { intros E. apply (f_equal (@length _)) in E. rewrite firstn_length in E. cbn in E. lia. }
           destruct (firstn (length st - v) st) as [|y ys] eqn:E; [congruence|]. rewrite <- E.
           rewrite removelast_firstn_last, firstn_length, firstn_firstn. f_equal; [lia|]. f_equal. lia.
      * assert (Hn : firstn (length st - v) st ++ x :: k <> []) by (destruct (firstn _ st); discriminate).
        destruct (firstn (length st - v) st ++ x :: k) as [|y ys] eqn:E; [congruence|]. rewrite <- E.
        cbn [fst snd]. rewrite removelast_app by discriminate. reflexivity.
    + rewrite app_assoc. reflexivity.
Qed.
Lemma fold_walk_same cs ds st : walk cs = walk ds -> fold_left walk1 cs st = fold_left walk1 ds st.
Proof. destruct st as [u st]. intros E. now rewrite !fold_walk_from, E. Qed.
Lemma walk_resolved cs : walk (repeat (B "..") (fst (walk cs)) ++ snd (walk cs)) = walk cs.
Proof. exact (walk_flat (walk cs) (walk_noup cs)). Qed.

Lemma resolved_good n : Forall good (repeat (B "..") (fst (walk (comps n))) ++ snd (walk (comps n))).
Proof. exact (flat_walk_good n). Qed.
Lemma is_abs_resolved n : is_abs (resolved n) = is_abs n.
Proof. unfold resolved. apply is_abs_render, resolved_good. Qed.
Lemma comps_resolved n : comps (resolved n) = repeat (B "..") (fst (walk (comps n))) ++ snd (walk (comps n)).
Proof. unfold resolved. apply comps_render, resolved_good. Qed.
Lemma place_resolved root n : place root (resolved n) = place root n.
Proof.
  unfold place. rewrite is_abs_resolved, comps_resolved. destruct (is_abs n).
  - now rewrite walk_resolved.
  - rewrite !walk_app. f_equal. apply fold_walk_same, walk_resolved.
Qed.

(** ** relative paths *)
Lemma in_joinb c l : In c (joinb (B "/") l) -> c = "/"%char \/ exists x, In x l /\ In c x.
Proof.
  induction l as [|x l IH]; [intros []|]. destruct l as [|y l].
  - cbn [joinb]. intros H. right. exists x. split; [now left|auto].
  - change (joinb (B "/") (x :: y :: l)) with (x ++ B "/" ++ joinb (B "/") (y :: l)). rewrite !in_app_iff. intros [H|[H|H]].
    + right. exists x. split; [now left|auto].
    + change (B "/") with ["/"%char] in H. destruct H as [<-|[]]. now left.
    + destruct (IH H) as [E|(z & Hz & Hc)]; [now left|]. right. exists z. split; [now right|auto].
Qed.
Lemma in_render c abs l : In c (render abs l) -> c = "/"%char \/ c = "."%char \/ exists x, In x l /\ In c x.
Proof.
  unfold render. destruct abs.
  - intros [<-|H]; [now left|]. destruct (in_joinb c l H); auto.
  - destruct l as [|x l]; [change (B ".") with ["."%char]; intros [<-|[]]; auto|]. intros H. destruct (in_joinb c _ H); auto.
Qed.
Lemma in_comps x p : In x (comps p) -> forall c, In c x -> In c p.
Proof.
  unfold comps. rewrite filter_In. intros [H _] c Hc. revert x H Hc.
  enough (X : forall l x, In x (split_on "/" l) -> In c x -> In c l) by (intros; eapply X; eauto).
  intros l. remember (length l) as n eqn:E. assert (L : length l <= n) by lia. clear E. revert l L. induction n as [|n IH]; intros l L x Hx Hc.
  - destruct l; [|cbn in L; lia]. cbn in Hx. destruct Hx as [<-|[]]. destruct Hc.
  - revert x Hx Hc. induction l as [|a l IHl]; intros x Hx Hc; [cbn in Hx; destruct Hx as [<-|[]]; destruct Hc|].
    cbn [split_on] in Hx. destruct (ceqb_spec a "/"%char) as [->|Ha].
    + destruct Hx as [<-|Hx]; [destruct Hc|]. right. cbn in L. eapply IH; [|exact Hx|exact Hc]. lia.
    + destruct (split_on "/" l) as [|y ys] eqn:Es.
      * destruct Hx as [<-|[]]. destruct Hc as [<-|[]]. now left.
      * cbn in L. destruct Hx as [<-|Hx].
        -- destruct Hc as [<-|Hc]; [now left|]. right. eapply (IH l); [lia|rewrite Es; left; reflexivity|exact Hc].
        -- right. eapply (IH l); [lia|rewrite Es; right; exact Hx|exact Hc].
Qed.

Lemma in_walk cs : forall x st, In x (snd (fold_left walk1 cs st)) -> In x (snd st) \/ In x cs.
Proof.
  induction cs as [|c cs IH]; intros x [u st] H; [now left|]. cbn [fold_left] in H. destruct (IH _ _ H) as [H1|H1]; [|right; now right].
  unfold walk1 in H1. destruct (is_up c).
  - destruct st as [|y st]; [destruct H1|]. cbn [snd] in *. left. rewrite removelast_firstn_last in H1.
    rewrite <- (firstn_skipn (length (y :: st) - 1) (y :: st)). apply in_or_app. now left.
  - cbn [snd] in *. apply in_app_or in H1 as [H1|[<-|[]]]; [now left|right; now left].
Qed.
Lemma walk_len cs : forall st, length (snd (fold_left walk1 cs st)) <= length (snd st) + length cs.
Proof.
  induction cs as [|c cs IH]; intros [u k]; cbn [fold_left length snd]; [lia|]. eapply Nat.le_trans; [apply IH|].
  unfold walk1. destruct (is_up c); [|cbn [snd]; rewrite app_length; cbn; lia].
  destruct k as [|x k]; cbn [snd]; [cbn; lia|]. rewrite removelast_firstn_last, firstn_length. cbn [length]. lia.
Qed.
Lemma walk_total cs : forall st, fst (fold_left walk1 cs st) + length (snd (fold_left walk1 cs st)) <= fst st + length (snd st) + length cs.
Proof.
  induction cs as [|c cs IH]; intros [u k]; cbn [fold_left length fst snd]; [lia|]. eapply Nat.le_trans; [apply IH|].
  unfold walk1. destruct (is_up c); [|cbn [fst snd]; rewrite app_length; cbn; lia].
  destruct k as [|x k]; cbn [fst snd]; [cbn; lia|]. rewrite removelast_firstn_last, firstn_length. cbn [length]. lia.
Qed.

(** What a relative path has of the path it stands for. *)
Record stands (root p r : bytes) : Prop := {
  st_place : place root r = place root p;
  st_names : forall x, In x (comps r) -> x = B ".." \/ In x (comps p);
  st_text : r = render (is_abs r) (comps r);
  st_depth : forall k, length (snd (walk (firstn k (comps r)))) <= length (comps p);
  st_absolute : is_abs r = true -> walk (comps r) = walk (comps p) }.
Lemma firstn_ups_snd k n l : length (snd (walk (firstn k (repeat (B "..") n ++ l)))) <= length l.
Proof.
  rewrite firstn_app, repeat_length. unfold walk. rewrite fold_left_app.
  assert (E : exists m, fold_left walk1 (firstn k (repeat (B "..") n)) (0, []) = (m, [])).
  { clear. revert n. enough (X : forall n k u, exists m, fold_left walk1 (firstn k (repeat (B "..") n)) (u, []) = (m, [])) by (intros; apply X).
    clear. induction n as [|n IH]; intros k u; [destruct k; cbn; eauto|]. destruct k; [cbn; eauto|]. cbn [repeat firstn fold_left].
    change (walk1 (u, []) (B "..")) with (S u, @nil bytes). apply IH. }
  destruct E as [m ->]. eapply Nat.le_trans; [apply walk_len|]. cbn [snd length]. rewrite firstn_length. lia.
Qed.
Lemma relative_stands root p : is_abs root = true -> is_abs p = true ->
  exists r, path_relative_to root p = Some r /\ stands root p r.
Proof.
  intros Hr Hp.
  assert (Nr : root <> []) by (intros ->; discriminate). assert (Np : p <> []) by (intros ->; discriminate).
  destruct (relative_to_shape root p Nr Np Hr Hp) as (C & B' & P' & EB & EP & H).
  pose proof (flat_walk_good root) as Gb. pose proof (flat_walk_good p) as Gp.
  assert (Lp : forall x, In x (flat (walk (comps p))) -> x = B ".." \/ In x (comps p)).
  { intros x Hx. unfold flat in Hx. apply in_app_or in Hx as [Hx|Hx]; [left; now apply repeat_spec in Hx|].
    right. destruct (in_walk (comps p) x (0, []) Hx) as [[]|]; auto. }
  assert (Len : length (flat (walk (comps p))) <= length (comps p)).
  { unfold flat. rewrite app_length, repeat_length. apply (walk_total (comps p) (0, [])). }
  destruct H as [H|H]; (eexists; split; [exact H|]).
  - rewrite EP in Gp. rewrite EP.
    assert (Ec : comps (render true (C ++ P')) = C ++ P') by (now apply comps_render).
    assert (Ea : is_abs (render true (C ++ P')) = true) by (now apply is_abs_render).
    assert (Ew : walk (C ++ P') = walk (comps p)) by (rewrite <- EP; apply walk_flat, walk_noup).
    constructor; rewrite ?Ec, ?Ea.
    + unfold place. rewrite Ea, Ec, Hp. now rewrite Ew.
    + intros x Hx. apply Lp. now rewrite EP.
    + reflexivity.
    + intros k. eapply Nat.le_trans; [apply (walk_len _ (0, []))|]. cbn [snd length]. rewrite <- EP. rewrite firstn_length. lia.
    + auto.
  - rewrite EP in Gp, Len. apply Forall_app in Gp as [GC GP].
    assert (Gr : Forall good (repeat (B "..") (length B') ++ P')) by (apply Forall_app; split; [apply Forall_repeat_dd|auto]).
    assert (Ec : comps (render false (repeat (B "..") (length B') ++ P')) = repeat (B "..") (length B') ++ P') by (now apply comps_render).
    assert (Ea : is_abs (render false (repeat (B "..") (length B') ++ P')) = false) by (now apply is_abs_render).
    constructor; rewrite ?Ec, ?Ea.
    + unfold place. rewrite Ea, Ec, Hp. rewrite walk_app. rewrite <- (walk_flat (walk (comps root)) (walk_noup _)). rewrite EB.
      rewrite <- walk_app, <- app_assoc. destruct (walk (comps root)) as [u st] eqn:Ew.
      rewrite (relative_location C B' P' u st).
      * rewrite <- EP. now rewrite (walk_flat (walk (comps p)) (walk_noup _)).
      * pose proof (walk_noup (comps root)) as X. now rewrite Ew in X.
      * now rewrite <- EB.
    + intros x Hx. apply in_app_or in Hx as [Hx|Hx]; [left; now apply repeat_spec in Hx|]. apply Lp. rewrite EP. apply in_or_app. now right.
    + reflexivity.
    + intros k. eapply Nat.le_trans; [apply firstn_ups_snd|]. rewrite app_length in Len. lia.
    + discriminate.
Qed.

Lemma stands_chars root p r c : stands root p r -> In c r -> In c p \/ c = "/"%char \/ c = "."%char.
Proof.
  intros [_ Hn Ht _ _] Hc. rewrite Ht in Hc. destruct (in_render c _ _ Hc) as [->|[->|(x & Hx & Hc')]]; auto.
  destruct (Hn x Hx) as [->|Hp]; [change (B "..") with ["."%char; "."%char] in Hc'; destruct Hc' as [<-|[<-|[]]]; auto|].
  left. eapply in_comps; eauto.
Qed.
Lemma stands_nonempty root p r : stands root p r -> r <> [].
Proof. intros H E. pose proof (st_text _ _ _ H) as Ht. rewrite E in Ht. discriminate Ht. Qed.

(** words *)
Lemma in_joinb_conv x c l : In x l -> In c x -> In c (joinb (B "/") l).
Proof.
  induction l as [|y l IH]; [intros []|]. intros [->|H] Hc.
  - destruct l as [|b l]; [auto|]. change (joinb (B "/") (x :: b :: l)) with (x ++ B "/" ++ joinb (B "/") (b :: l)). apply in_or_app. now left.
  - destruct l as [|z l]; [destruct H|]. change (joinb (B "/") (y :: z :: l)) with (y ++ B "/" ++ joinb (B "/") (z :: l)). apply in_or_app. right. apply in_or_app. right. auto.
Qed.
Definition plainc (c : ascii) : bool := negb (sh_special c || sh_blank c || ceqb c QUOTE || ceqb c BSLASH).
Lemma joinb_plain l : Forall (fun x => forallb plainc x = true) l -> forallb plainc (joinb (B "/") l) = true.
Proof.
  induction 1 as [|x l Hx Hl IH]; [reflexivity|]. destruct l as [|b l]; [exact Hx|].
  change (joinb (B "/") (x :: b :: l)) with (x ++ B "/" ++ joinb (B "/") (b :: l)). rewrite !forallb_app, Hx, IH. reflexivity.
Qed.
Lemma render_word abs l : Forall (fun n => n <> [] /\ a_word n) l -> a_word (render abs l).
Proof.
  intros H. split.
  - intros c Hc. destruct (in_render c _ _ Hc) as [->|[->|(x & Hx & Hc')]]; [repeat split; discriminate..|].
    rewrite Forall_forall in H. destruct (H x Hx) as [_ [Hl _]]. now apply Hl.
  - right. destruct (existsb (fun n => existsb (fun c => mem_char c need_escaping) n) l) eqn:E.
    + left. apply existsb_exists in E as (x & Hx & E). apply existsb_exists in E as (c & Hc & Hm). exists c. split.
      * unfold render. assert (In c (joinb (B "/") l)) by (eapply in_joinb_conv; eauto). destruct abs; [now right|]. destruct l; [destruct Hx|auto].
      * clear - Hm. unfold need_escaping in Hm. apply mem_char_In in Hm. cbn in Hm. cbn. intuition.
    + right. assert (F : Forall (fun x => sh_plain x = true) l).
      { rewrite Forall_forall in *. intros x Hx. destruct (H x Hx) as (Hne & _ & [->|[(c & Hc & Ho)|Hs]]); [congruence| |auto].
        exfalso. assert (existsb (fun n => existsb (fun c => mem_char c need_escaping) n) l = true); [|congruence].
        apply existsb_exists. exists x. split; [auto|]. apply existsb_exists. exists c. split; [auto|].
        clear - Ho. cbn in Ho. repeat (destruct Ho as [<-|Ho]; [vm_compute; reflexivity|]). destruct Ho. }
      assert (P : forallb plainc (joinb (B "/") l) = true).
      { apply joinb_plain. eapply Forall_impl; [|exact F]. intros x Hx. unfold sh_plain in Hx. now apply andb_true_iff in Hx as [_ Hx]. }
      unfold render. destruct abs.
      * unfold sh_plain. cbn [forallb]. fold plainc. change (forallb (fun c => negb (sh_special c || sh_blank c || ceqb c QUOTE || ceqb c BSLASH))) with (forallb plainc).
        rewrite P. reflexivity.
      * destruct l as [|x l]; [reflexivity|]. unfold sh_plain. change (forallb (fun c => negb (sh_special c || sh_blank c || ceqb c QUOTE || ceqb c BSLASH))) with (forallb plainc).
        rewrite P, andb_true_r. inversion F as [|? ? Hx Hl]; subst. unfold sh_plain in Hx. apply andb_true_iff in Hx as [Hx _].
        destruct x as [|c x]; [discriminate|]. destruct l; exact Hx.
Qed.
Lemma stands_word root p r : stands root p r -> word_file p -> a_word r.
Proof.
  intros [_ Hn Ht _ _] H. rewrite Ht. apply render_word. rewrite Forall_forall. intros x Hx. destruct (Hn x Hx) as [->|Hp].
  - split; [discriminate|]. split; [intros c Hc; change (B "..") with ["."%char; "."%char] in Hc; destruct Hc as [<-|[<-|[]]]; repeat split; discriminate|].
    right. right. reflexivity.
  - unfold word_file in H. rewrite Forall_forall in H. auto.
Qed.
