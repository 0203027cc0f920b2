(** Lemmas about path_relative_to, path_basename and path_dirname. *)
From Verif Require Import Base M_Path S_Path L_Path.
Local Arguments B _ : simpl never.

Definition noup (c : bytes) : Prop := is_up c = false.

Lemma good_noup_step c u st : noup c -> walk1 (u, st) c = (u, st ++ [c]).
Proof. unfold noup, walk1. now intros ->. Qed.

Lemma fold_walk_noup cs u st : Forall noup cs ->
  fold_left walk1 cs (u, st) = (u, st ++ cs).
Proof.
  intros H. revert st. induction H as [|c cs Hc _ IH]; intros st; simpl.
  - now rewrite app_nil_r.
  - change (if is_up c then _ else _) with (walk1 (u, st) c).
    rewrite good_noup_step by assumption. rewrite IH, <- app_assoc. reflexivity.
Qed.

Lemma fold_walk_snd_noup cs : forall u st, Forall noup st ->
  Forall noup (snd (fold_left walk1 cs (u, st))).
Proof.
  induction cs as [|c cs IH]; intros u st H; [assumption|].
  cbn [fold_left]. unfold walk1 at 2. destruct (is_up c) eqn:E.
  - destruct st as [|x st]; apply IH; [constructor|].
    now apply removelast_Forall.
  - apply IH. apply Forall_app. split; [assumption|]. now constructor.
Qed.

Lemma walk_noup cs : Forall noup (snd (walk cs)).
Proof. apply fold_walk_snd_noup. constructor. Qed.

Lemma fold_ups n u : fold_left walk1 (repeat (B "..") n) (u, []) = (n + u, []).
Proof.
  revert u. induction n as [|n IH]; intros u; [reflexivity|].
  cbn [repeat fold_left]. change (walk1 (u, []) (B "..")) with (S u, @nil bytes).
  rewrite IH. f_equal. lia.
Qed.

Lemma walk_flat acc : Forall noup (snd acc) -> walk (flat acc) = acc.
Proof.
  destruct acc as [u st]. unfold flat, walk. cbn [fst snd]. intros H.
  rewrite fold_left_app, fold_ups, fold_walk_noup by assumption.
  rewrite Nat.add_0_r. reflexivity.
Qed.

Lemma walk_app a b : walk (a ++ b) = fold_left walk1 b (walk a).
Proof. apply fold_left_app. Qed.

Lemma walk_snd_indep cs : forall u v st,
  snd (fold_left walk1 cs (u, st)) = snd (fold_left walk1 cs (v, st)).
Proof.
  induction cs as [|c cs IH]; intros u v st; [reflexivity|].
  cbn [fold_left]. unfold walk1 at 2 4. destruct (is_up c); [|apply IH].
  destruct st; apply IH.
Qed.

Lemma fold_pops st2 u st : 
  fold_left walk1 (repeat (B "..") (length st2)) (u, st ++ st2) = (u, st).
Proof.
  induction st2 as [|z st2 IH] using rev_ind.
  - now rewrite app_nil_r.
  - rewrite app_length, Nat.add_1_r. cbn [repeat fold_left].
    rewrite app_assoc, walk1_up_snoc. apply IH.
Qed.

(** going to base, up |B'| levels, and down P' is the same as going to C and down P' *)
Lemma relative_location C B' P' u st :
  Forall noup st ->
  C ++ B' = flat (u, st) ->
  snd (walk (C ++ B' ++ repeat (B "..") (length B') ++ P')) = snd (walk (C ++ P')).
Proof.
  unfold flat. cbn [fst snd]. intros Hst HE.
  rewrite !walk_app, !fold_left_app.
  destruct (Nat.le_gt_cases u (length C)) as [Hle|Hgt].
  - (* B' lies in the downward part *)
    assert (exists st1, C = repeat (B "..") u ++ st1 /\ st = st1 ++ B') as (st1 & -> & ->).
    { exists (skipn u C).
      assert (E : firstn u (C ++ B') = repeat (B "..") u).
      { rewrite HE. rewrite firstn_app, repeat_length, Nat.sub_diag. simpl.
        rewrite app_nil_r. rewrite firstn_all2; [reflexivity|]. rewrite repeat_length. lia. }
      rewrite firstn_app in E. replace (u - length C) with 0 in E by lia.
      simpl in E. rewrite app_nil_r in E.
      split.
      - now rewrite <- E, firstn_skipn.
      - assert (E2 : skipn u (C ++ B') = st).
        { rewrite HE, skipn_app, repeat_length, Nat.sub_diag. rewrite skipn_all2; [reflexivity|].
          rewrite repeat_length. lia. }
        rewrite skipn_app in E2. replace (u - length C) with 0 in E2 by lia.
        simpl in E2. now rewrite E2. }
    apply Forall_app in Hst as [H1 H2].
    replace (walk (repeat (B "..") u ++ st1)) with (u, st1).
    2:{ symmetry. apply (walk_flat (u, st1)). assumption. }
    rewrite fold_walk_noup by assumption. rewrite fold_pops. reflexivity.
  - (* C consists of ups only *)
    assert (EC : C = repeat (B "..") (length C)).
    { assert (E : firstn (length C) (C ++ B') = C).
      { rewrite firstn_app, Nat.sub_diag, firstn_all. simpl. apply app_nil_r. }
      rewrite HE in E. rewrite firstn_app, repeat_length in E.
      replace (length C - u) with 0 in E by lia. simpl in E. rewrite app_nil_r in E.
      rewrite <- E at 1. replace u with (length C + (u - length C)) by lia.
      rewrite repeat_app. rewrite firstn_app, repeat_length, Nat.sub_diag. simpl.
      rewrite app_nil_r, firstn_all2; [reflexivity|]. rewrite repeat_length. lia. }
    assert (EB : B' = repeat (B "..") (u - length C) ++ st).
    { assert (E : skipn (length C) (C ++ B') = B').
      { rewrite skipn_app, Nat.sub_diag, skipn_all. reflexivity. }
      rewrite HE in E. rewrite skipn_app, repeat_length in E.
      replace (length C - u) with 0 in E by lia. simpl in E. rewrite <- E. f_equal.
      replace u with (length C + (u - length C)) at 1 by lia.
      rewrite repeat_app, skipn_app, repeat_length, Nat.sub_diag.
      rewrite skipn_all2; [reflexivity|]. rewrite repeat_length. lia. }
    replace (walk C) with (length C, @nil bytes).
    2:{ rewrite EC at 2. unfold walk. rewrite fold_ups. now rewrite Nat.add_0_r. }
    rewrite EB at 2. rewrite fold_left_app, fold_ups, fold_walk_noup by assumption.
    replace (length B') with (length st + (u - length C)).
    2:{ rewrite EB, app_length, repeat_length. lia. }
    rewrite repeat_app, fold_left_app. rewrite (fold_pops st _ []). rewrite fold_ups.
    apply walk_snd_indep.
Qed.

(** ** the character-level common prefix *)
Lemma common_scan_same c : forall x y i ce,
  common_scan (c ++ x) (c ++ y) i ce =
  common_scan x y (i + length c)
    (match last_index SEP c i None with Some j => j | None => ce end).
Proof.
  induction c as [|a c IH]; intros; simpl app.
  - simpl. now rewrite Nat.add_0_r.
  - cbn [common_scan last_index length]. rewrite ceqb_refl, IH.
    replace (S i + length c) with (i + S (length c)) by lia. f_equal.
    assert (Hacc : forall l k acc, last_index SEP l k acc =
               match last_index SEP l k None with Some j => Some j | None => acc end).
    { clear. induction l as [|x l IH]; intros; [reflexivity|]. cbn [last_index].
      rewrite IH. rewrite (IH (S k) (if ceqb x SEP then Some k else None)).
      destruct (last_index SEP l (S k) None); [reflexivity|]. destruct (ceqb x SEP); reflexivity. }
    rewrite (Hacc c (S i) (if ceqb a SEP then Some i else None)).
    destruct (last_index SEP c (S i) None); [reflexivity|]. destruct (ceqb a SEP); reflexivity.
Qed.

Lemma last_index_snoc c l i acc : last_index c (l ++ [c]) i acc = Some (i + length l).
Proof.
  revert i acc. induction l as [|x l IH]; intros; simpl app; cbn [last_index length].
  - rewrite ceqb_refl. f_equal. lia.
  - rewrite IH. f_equal. lia.
Qed.

Lemma last_index_notin c l i acc : ~ In c l -> last_index c l i acc = acc.
Proof.
  revert i acc. induction l as [|x l IH]; intros i acc H; [reflexivity|]. cbn [last_index].
  destruct (ceqb_spec x c); [subst; exfalso; apply H; now left|].
  apply IH. intro; apply H; now right.
Qed.

Lemma last_index_app c a b i acc : 
  last_index c (a ++ b) i acc = last_index c b (i + length a) (last_index c a i acc).
Proof.
  revert i acc. induction a as [|x a IH]; intros; simpl app; cbn [last_index length].
  - now rewrite Nat.add_0_r.
  - rewrite IH. f_equal. lia.
Qed.

(** two different components: where the scan stops *)
Lemma common_scan_diff b : forall p brest prest i ce,
  ~ In SEP b -> ~ In SEP p -> b <> p ->
  (brest = [] \/ exists r, brest = SEP :: r) ->
  (prest = [] \/ exists r, prest = SEP :: r) ->
  exists k, common_scan (b ++ brest) (p ++ prest) i ce = (i + k, ce) /\
    k <= length b /\ k <= length p /\
    (k = length b -> k < length p /\ nth k (p ++ prest) NUL <> SEP) /\
    (k = length p -> k < length b /\ nth k (b ++ brest) NUL <> SEP).
Proof.
  induction b as [|x b IH]; intros p brest prest i ce Hb Hp Hne Hbr Hpr.
  - destruct p as [|y p]; [congruence|].
    assert (Hy : y <> SEP) by (intro; subst; apply Hp; now left).
    exists 0. rewrite Nat.add_0_r. split; [|simpl; repeat split; intros; try lia; auto].
    destruct Hbr as [->|[r ->]]; [reflexivity|]. simpl.
    destruct (ceqb_spec SEP y); [congruence|reflexivity].
  - assert (Hx : x <> SEP) by (intro; subst; apply Hb; now left).
    destruct p as [|y p].
    + exists 0. rewrite Nat.add_0_r. split; [|simpl; repeat split; intros; try lia; auto].
      destruct Hpr as [->|[r ->]]; [reflexivity|]. simpl.
      destruct (ceqb_spec x SEP); [congruence|reflexivity].
    + assert (Hy : y <> SEP) by (intro; subst; apply Hp; now left).
      simpl app. cbn [common_scan]. destruct (ceqb_spec x y) as [->|Hxy].
      * destruct (IH p brest prest (S i) (if ceqb y SEP then i else ce)) as (k & E & H1 & H2 & H3 & H4);
          auto; try congruence.
        { intro; apply Hb; now right. } { intro; apply Hp; now right. }
        exists (S k). apply ceqb_neq in Hy. rewrite Hy in E |- *. rewrite E.
        split; [f_equal; lia|]. simpl. repeat split; try lia.
        -- apply H3. lia.
        -- apply H4. lia.
      * exists 0. rewrite Nat.add_0_r. split; [reflexivity|]. simpl. repeat split; try lia; auto.
Qed.

Lemma dotdots_nosep l : ~ In SEP l -> forall have, dotdots l have = if have then match l with [] => [] | _ => B "../" end else [].
Proof.
  induction l as [|x l IH]; intros H have; cbn [dotdots]; [now destruct have|].
  destruct (ceqb_spec x SEP); [subst; exfalso; apply H; now left|].
  rewrite IH by (intro; apply H; now right). rewrite app_nil_r. reflexivity.
Qed.

Lemma dotdots_app_sep l r : ~ In SEP l -> l <> [] ->
  dotdots (l ++ SEP :: r) true = B "../" ++ dotdots r true.
Proof.
  intros H Hne. assert (G : forall l have, ~ In SEP l -> l <> [] ->
    dotdots (l ++ SEP :: r) have = (if have then B "../" else []) ++ dotdots r true).
  { clear. induction l as [|x l IH]; intros have H Hne; [congruence|].
    simpl app. cbn [dotdots].
    destruct (ceqb_spec x SEP); [subst; exfalso; apply H; now left|].
    destruct l as [|y l].
    - simpl app. cbn [dotdots]. rewrite ceqb_refl. reflexivity.
    - rewrite IH; [reflexivity| |discriminate]. intro; apply H; now right. }
  now apply G.
Qed.

Lemma dotdots_joinb cs : Forall good cs -> cs <> [] ->
  dotdots (joinb [SEP] cs) true = concat (repeat (B "../") (length cs)).
Proof.
  intros H. induction H as [|c cs Hc HF IH]; intros Hne; [congruence|].
  pose proof (good_nonempty _ Hc) as Hcne. destruct Hc as [_ Hn].
  destruct cs as [|d cs].
  - simpl joinb. rewrite dotdots_nosep by assumption.
    destruct c; [congruence|]. reflexivity.
  - rewrite joinb_cons. change ([SEP] ++ joinb [SEP] (d :: cs)) with (SEP :: joinb [SEP] (d :: cs)).
    rewrite dotdots_app_sep by assumption. rewrite IH by discriminate. reflexivity.
Qed.

Lemma comps_dots n tail : comps (concat (repeat (B "../") n) ++ tail) = repeat (B "..") n ++ comps tail.
Proof.
  induction n as [|n IH]; [reflexivity|]. cbn [repeat concat].
  rewrite <- app_assoc.
  change (B "../" ++ concat (repeat (B "../") n) ++ tail)
    with (B ".." ++ SEP :: (concat (repeat (B "../") n) ++ tail)).
  rewrite comps_app, IH. reflexivity.
Qed.

(** longest common prefix of two lists *)
Lemma common_split (a b : list bytes) :
  exists C A' B', a = C ++ A' /\ b = C ++ B' /\
    (A' = [] \/ B' = [] \/ exists x y A2 B2, A' = x :: A2 /\ B' = y :: B2 /\ x <> y).
Proof.
  revert b. induction a as [|x a IH]; intros b.
  - exists [], [], b. repeat split; auto.
  - destruct b as [|y b]; [exists [], (x :: a), []; repeat split; auto|].
    destruct (beqb_spec x y) as [->|Hn].
    + destruct (IH b) as (C & A' & B' & -> & -> & H). exists (y :: C), A', B'. auto.
    + exists [], (x :: a), (y :: b). repeat split; auto. right. right. eauto 10.
Qed.

Lemma joinb_split C A : C <> [] -> A <> [] ->
  joinb [SEP] (C ++ A) = joinb [SEP] C ++ SEP :: joinb [SEP] A.
Proof. intros. now rewrite joinb_app. Qed.

Lemma joinb_body C A : joinb [SEP] (C ++ A) = match A with [] => joinb [SEP] C | _ => body C ++ joinb [SEP] A end.
Proof.
  destruct A as [|a A]; [now rewrite app_nil_r|].
  destruct C as [|c C]; [reflexivity|].
  rewrite joinb_split by discriminate. rewrite body_joinb by discriminate.
  rewrite <- app_assoc. reflexivity.
Qed.

Lemma joinb_shape c cs : joinb [SEP] (c :: cs) =
            c ++ (match cs with [] => [] | _ => SEP :: joinb [SEP] cs end).
Proof. destruct cs; simpl; [now rewrite app_nil_r|reflexivity]. Qed.

Lemma skipn_pre {A} (a : list A) b : skipn (length a) (a ++ b) = b.
Proof. rewrite skipn_app, skipn_all, Nat.sub_diag. reflexivity. Qed.

Lemma nth_pre (a : bytes) b d : nth (length a) (a ++ b) d = nth 0 b d.
Proof. rewrite app_nth2 by lia. now rewrite Nat.sub_diag. Qed.

(** Either the answer is the (normalised) absolute path, or it is the relative path that
    goes up once per remaining component of base and then down to path. *)
Lemma relative_to_shape base path :
  base <> [] -> path <> [] -> is_abs base = true -> is_abs path = true ->
  let bs := flat (walk (comps base)) in
  let ps := flat (walk (comps path)) in
  exists C B' P', bs = C ++ B' /\ ps = C ++ P' /\
    (path_relative_to base path = Some (render true ps) \/
     path_relative_to base path = Some (render false (repeat (B "..") (length B') ++ P'))).
Proof.
  intros Hb Hp Hab Hap bs ps.
  unfold path_relative_to. rewrite !normalize_true, Hab, Hap by assumption.
  fold bs ps.
  assert (Gb : Forall good bs).
  { unfold bs, flat. apply Forall_app. split; [apply Forall_repeat_dd|].
    unfold walk. rewrite <- fold_step_true. apply fold_step_snd_good; [apply comps_good|constructor]. }
  assert (Gp : Forall good ps).
  { unfold ps, flat. apply Forall_app. split; [apply Forall_repeat_dd|].
    unfold walk. rewrite <- fold_step_true. apply fold_step_snd_good; [apply comps_good|constructor]. }
  clearbody bs ps.
  change (path_is_absolute (render true bs)) with true.
  change (path_is_absolute (render true ps)) with true. cbn [negb orb].
  destruct (beqb_spec (render true bs) (render true ps)) as [E|Hneq].
  { exists bs, [], []. assert (bs = ps) as <-.
    { rewrite <- (comps_render true bs), <- (comps_render true ps) by assumption. now rewrite E. }
    rewrite app_nil_r. repeat split; auto. }
  destruct (common_split bs ps) as (C & B' & P' & -> & -> & Hd).
  exists C, B', P'. repeat split.
  apply Forall_app in Gb as [GC GB]. apply Forall_app in Gp as [_ GP].
  assert (Hnn : ~ (B' = [] /\ P' = [])).
  { intros [-> ->]. now apply Hneq. }
  assert (Hfin : forall tail, comps tail = P' -> is_abs tail = false ->
     (B' <> [] \/ tail <> []) ->
     path_normalize false (concat (repeat (B "../") (length B')) ++ tail) =
     Some (render false (repeat (B "..") (length B') ++ P'))).
  { intros tail Ht Hat Hne. rewrite normalize_false.
    - rewrite comps_dots, Ht. f_equal. f_equal. destruct B'; [|reflexivity]. exact Hat.
    - destruct B'; [|discriminate]. destruct Hne; [congruence|]. simpl. assumption. }
  assert (Htail : comps (joinb [SEP] P') = P') by now apply comps_joinb.
  assert (Htabs : is_abs (joinb [SEP] P') = false) by now apply joinb_head.
  assert (Hrt : forall l, render true l = SEP :: joinb [SEP] l) by reflexivity.
  assert (HcopyP : path_copy (render true (C ++ P')) = Some (render true (C ++ P'))).
  { rewrite path_copy_nonempty by discriminate.
    rewrite is_abs_render, comps_render; [reflexivity| |]; now apply Forall_app. }
  destruct Hd as [-> | [-> | (b & p & B2 & P2 & -> & -> & Hbp)]].
  - (* base is a proper prefix *)
    assert (HP : P' <> []) by (intro; subst; now apply Hnn).
    rewrite app_nil_r.
    destruct C as [|c C].
    + left. simpl app in *. 
      change (render true []) with [SEP]. rewrite (Hrt P').
      cbn [common_scan]. rewrite ceqb_refl. destruct (joinb [SEP] P') eqn:EP.
      { exfalso. now apply (joinb_nonempty P' HP GP). }
      cbn [common_scan length nth]. rewrite <- EP, <- Hrt. exact HcopyP.
    + right. set (base' := render true (c :: C)).
      assert (Epath : render true ((c :: C) ++ P') = base' ++ SEP :: joinb [SEP] P').
      { unfold base'. rewrite !Hrt. rewrite joinb_split by (assumption || discriminate). reflexivity. }
      rewrite Epath.
      assert (Ecs : forall i ce, exists ce', common_scan base' (base' ++ SEP :: joinb [SEP] P') i ce = (i + length base', ce')).
      { intros. pose proof (common_scan_same base' [] (SEP :: joinb [SEP] P') i ce) as E.
        rewrite app_nil_r in E. eexists. rewrite E. reflexivity. }
      destruct (Ecs 0 0) as (ce' & ->). rewrite Nat.add_0_l.
      rewrite nth_pre. cbn [nth]. rewrite ceqb_refl.
      replace (length base' <=? length base') with true by (symmetry; apply Nat.leb_refl).
      replace (length (base' ++ SEP :: joinb [SEP] P') <=? length base') with false.
      2:{ symmetry. apply Nat.leb_gt. rewrite app_length. simpl. lia. }
      cbn [andb negb].
      assert (Hl : 1 < length base').
      { unfold base'. rewrite Hrt. cbn [length]. 
        pose proof (joinb_nonempty (c :: C)). destruct (joinb [SEP] (c :: C)); [|simpl; lia].
        exfalso. apply H; auto. discriminate. }
      destruct (Nat.eqb_spec (length base') 0); [lia|].
      destruct (Nat.eqb_spec (length base') 1); [lia|].
      replace (S (length base') <? length base') with false by (symmetry; apply Nat.ltb_ge; lia).
      replace (length base' <? length (base' ++ SEP :: joinb [SEP] P')) with true.
      2:{ symmetry. apply Nat.ltb_lt. rewrite app_length. simpl. lia. }
      change (base' ++ SEP :: joinb [SEP] P') with (base' ++ [SEP] ++ joinb [SEP] P').
      rewrite app_assoc. replace (S (length base')) with (length (base' ++ [SEP])).
      2:{ rewrite app_length. simpl. lia. }
      rewrite skipn_pre. apply (Hfin (joinb [SEP] P')); auto.
      right. now apply joinb_nonempty.
  - (* path is a proper prefix *)
    assert (HB : B' <> []) by (intro; subst; now apply Hnn).
    rewrite !app_nil_r in *.
    destruct C as [|c C].
    + left. simpl app in *. 
      change (render true []) with [SEP] in *. rewrite (Hrt B').
      cbn [common_scan]. rewrite ceqb_refl. destruct (joinb [SEP] B') eqn:EP.
      { exfalso. now apply (joinb_nonempty B' HB GB). }
      cbn [common_scan length nth]. exact HcopyP.
    + right. set (path' := render true (c :: C)) in *.
      assert (Ebase : render true ((c :: C) ++ B') = path' ++ SEP :: joinb [SEP] B').
      { unfold path'. rewrite !Hrt. rewrite joinb_split by (assumption || discriminate). reflexivity. }
      rewrite Ebase.
      assert (Ecs : forall i ce, exists ce', common_scan (path' ++ SEP :: joinb [SEP] B') path' i ce = (i + length path', ce')).
      { intros. pose proof (common_scan_same path' (SEP :: joinb [SEP] B') [] i ce) as E.
        rewrite app_nil_r in E. eexists. rewrite E. reflexivity. }
      destruct (Ecs 0 0) as (ce' & ->). rewrite Nat.add_0_l.
      rewrite nth_pre. cbn [nth]. rewrite ceqb_refl.
      replace (length path' <=? length path') with true by (symmetry; apply Nat.leb_refl).
      replace (length (path' ++ SEP :: joinb [SEP] B') <=? length path') with false.
      2:{ symmetry. apply Nat.leb_gt. rewrite app_length. simpl. lia. }
      cbn [andb negb].
      assert (Hl : 1 < length path').
      { unfold path'. rewrite Hrt. cbn [length]. 
        pose proof (joinb_nonempty (c :: C)). destruct (joinb [SEP] (c :: C)); [|simpl; lia].
        exfalso. apply H; auto. discriminate. }
      destruct (Nat.eqb_spec (length path') 0); [lia|].
      destruct (Nat.eqb_spec (length path') 1); [lia|].
      pose proof (joinb_nonempty B' HB GB) as HjB.
      replace (S (length path') <? length (path' ++ SEP :: joinb [SEP] B')) with true.
      2:{ symmetry. apply Nat.ltb_lt. rewrite app_length. destruct (joinb [SEP] B'); [congruence|simpl; lia]. }
      replace (length path' <? length path') with false by (symmetry; apply Nat.ltb_irrefl).
      change (path' ++ SEP :: joinb [SEP] B') with (path' ++ [SEP] ++ joinb [SEP] B').
      rewrite app_assoc. replace (S (length path')) with (length (path' ++ [SEP])).
      2:{ rewrite app_length. simpl. lia. }
      rewrite skipn_pre. rewrite dotdots_joinb by assumption.
      apply (Hfin []); auto.
  - (* they part at a component *)
    inversion GB as [|? ? Hgb GB2]; subst. inversion GP as [|? ? Hgp GP2]; subst.
    set (pre := SEP :: body C).
    assert (Ebase : render true (C ++ b :: B2) = pre ++ joinb [SEP] (b :: B2)).
    { rewrite Hrt, joinb_body. reflexivity. }
    assert (Epath : render true (C ++ p :: P2) = pre ++ joinb [SEP] (p :: P2)).
    { rewrite Hrt, joinb_body. reflexivity. }
    rewrite Ebase, Epath in *.
    assert (Epre : exists k, pre = k ++ [SEP]).
    { unfold pre. destruct C as [|c C]; [exists []; reflexivity|].
      rewrite body_joinb by discriminate. exists (SEP :: joinb [SEP] (c :: C)). reflexivity. }
    destruct Epre as [k Ek].
    assert (Elast : last_index SEP pre 0 None = Some (length k)).
    { rewrite Ek, last_index_snoc. reflexivity. }
    rewrite common_scan_same, Elast. cbn [plus].
    rewrite (joinb_shape b B2), (joinb_shape p P2).
    destruct (common_scan_diff b p 
       (match B2 with [] => [] | _ => SEP :: joinb [SEP] B2 end)
       (match P2 with [] => [] | _ => SEP :: joinb [SEP] P2 end) (length pre) (length k))
      as (n & E & H1 & H2 & H3 & H4); auto.
    { apply Hgb. } { apply Hgp. } 
    { destruct B2; [now left|right; eauto]. } { destruct P2; [now left|right; eauto]. }
    rewrite !E. cbv beta iota zeta. rewrite <- (joinb_shape b B2), <- (joinb_shape p P2).
    rewrite <- (joinb_shape p P2) in H3. rewrite <- (joinb_shape b B2) in H4.
    rewrite !app_nth2 by lia. replace (length pre + n - length pre) with n by lia.
    assert (Hlen : forall c cs, length c <= length (joinb [SEP] (c :: cs))).
    { intros. rewrite joinb_shape, app_length. lia. }
    assert (Hlen2 : forall c cs, length (joinb [SEP] (c :: cs)) <= length c -> cs = []).
    { intros c0 cs. rewrite joinb_shape, app_length. destruct cs; [auto|]. simpl. lia. }
    set (ce := if _ && _ && _ then _ else _).
    assert (Hce : ce = length k).
    { unfold ce. rewrite !app_length.
      pose proof (Hlen b B2) as Lb. pose proof (Hlen p P2) as Lp.
      destruct (Nat.leb_spec (length pre + length (joinb [SEP] (b :: B2))) (length pre + n)) as [L|L].
      - assert (n = length b) by lia. destruct (H3 H) as [_ Hns]. apply ceqb_neq in Hns.
        rewrite Hns. cbn [negb]. now rewrite !andb_false_r.
      - cbn [andb]. rewrite ?andb_false_l.
        destruct (Nat.leb_spec (length pre + length (joinb [SEP] (p :: P2))) (length pre + n)) as [L2|L2].
        + assert (n = length p) by lia. destruct (H4 H) as [_ Hns]. apply ceqb_neq in Hns.
          now rewrite Hns.
        + reflexivity. }
    rewrite Hce. clearbody ce.
    assert (Hlpre : length pre = S (length k)). { rewrite Ek, app_length. simpl. lia. }
    destruct (Nat.eqb_spec (length pre + n) 0); [lia|].
    destruct (Nat.eqb_spec (length pre + n) 1).
    + left. exact HcopyP.
    + right. rewrite <- Hlpre.
      pose proof (good_nonempty _ Hgb) as Nb. pose proof (good_nonempty _ Hgp) as Np.
      replace (length pre <? length (pre ++ joinb [SEP] (b :: B2))) with true.
      2:{ symmetry. apply Nat.ltb_lt. rewrite app_length. pose proof (Hlen b B2).
          destruct b; [congruence|simpl in *; lia]. }
      replace (length k <? length (pre ++ joinb [SEP] (p :: P2))) with true.
      2:{ symmetry. apply Nat.ltb_lt. rewrite app_length. lia. }
      rewrite !skipn_pre. rewrite dotdots_joinb by (assumption || discriminate).
      apply Hfin; auto. left. discriminate.
Qed.

Lemma relative_to_join base path :
  base <> [] -> path <> [] -> is_abs base = true -> is_abs path = true ->
  exists rel j, path_relative_to base path = Some rel /\ path_join base rel = Some j /\
    is_abs j = true /\ location j = location path.
Proof.
  intros Hb Hp Hab Hap.
  destruct (relative_to_shape base path Hb Hp Hab Hap) as (C & B' & P' & EB & EP & H).
  assert (HsB : Forall noup (snd (walk (comps base)))) by apply walk_noup.
  assert (HsP : Forall noup (snd (walk (comps path)))) by apply walk_noup.
  assert (Gb : Forall good (C ++ B')).
  { rewrite <- EB. unfold flat. apply Forall_app. split; [apply Forall_repeat_dd|].
    unfold walk. rewrite <- fold_step_true. apply fold_step_snd_good; [apply comps_good|constructor]. }
  assert (Gp : Forall good (C ++ P')).
  { rewrite <- EP. unfold flat. apply Forall_app. split; [apply Forall_repeat_dd|].
    unfold walk. rewrite <- fold_step_true. apply fold_step_snd_good; [apply comps_good|constructor]. }
  rewrite EP in H.
  assert (Eloc : location path = snd (walk (C ++ P'))).
  { unfold location. rewrite <- EP. now rewrite walk_flat. }
  destruct H as [H|H]; rewrite H.
  - exists (render true (C ++ P')), (render true (C ++ P')). split; [reflexivity|]. 
    rewrite path_join_abs by reflexivity. rewrite path_copy_nonempty by discriminate.
    rewrite is_abs_render, comps_render by assumption.
    split; [reflexivity|]. split; [reflexivity|].
    unfold location. rewrite comps_render by assumption. now rewrite <- EP, walk_flat.
  - apply Forall_app in Gp as [GC GP].
    assert (Gr : Forall good (repeat (B "..") (length B') ++ P')).
    { apply Forall_app. split; [apply Forall_repeat_dd|assumption]. }
    exists (render false (repeat (B "..") (length B') ++ P')),
      (render true (comps base ++ repeat (B "..") (length B') ++ P')). split; [reflexivity|].
    rewrite path_join_rel; [|assumption|now apply render_nonempty|now rewrite is_abs_render].
    rewrite comps_render by assumption. rewrite Hab. split; [reflexivity|].
    assert (Gall : Forall good (comps base ++ repeat (B "..") (length B') ++ P')).
    { apply Forall_app. split; [apply comps_good|assumption]. }
    rewrite is_abs_render by assumption. split; [reflexivity|].
    rewrite Eloc. unfold location. rewrite comps_render by assumption.
    rewrite walk_app. rewrite <- (walk_flat (walk (comps base))) by assumption.
    rewrite EB. rewrite <- walk_app, <- app_assoc.
    destruct (walk (comps base)) as [u st] eqn:Ew.
    apply (relative_location C B' P' u st); [exact HsB|]. now rewrite <- EB.
Qed.

(** ** basename and dirname *)
Lemma dirbase_shape abs cs c : Forall good (cs ++ [c]) ->
  last_index SEP (render abs (cs ++ [c])) 0 None =
    match (if abs then S (length (body cs)) else length (body cs)) with
    | 0 => None | S n => Some n end
  /\ render abs (cs ++ [c]) = rootb abs ++ body cs ++ c.
Proof.
  intros H. apply Forall_app in H as [Hcs Hc]. inversion Hc as [|? ? [_ Hn] _]; subst.
  assert (E : render abs (cs ++ [c]) = rootb abs ++ body cs ++ c).
  { destruct abs; simpl rootb.
    - change (render true (cs ++ [c])) with (SEP :: joinb [SEP] (cs ++ [c])).
      now rewrite joinb_snoc.
    - unfold render. destruct (cs ++ [c]) eqn:Ecc; [now destruct cs|].
      rewrite <- Ecc. simpl. apply joinb_snoc. }
  split; [|exact E]. rewrite E, app_assoc.
  rewrite last_index_app, (last_index_notin SEP c) by assumption.
  assert (Hb : body cs = [] \/ exists k, body cs = k ++ [SEP]).
  { destruct cs as [|x cs]; [now left|]. right. rewrite body_joinb by discriminate. eauto. }
  destruct Hb as [Eb | [k Eb]]; rewrite Eb.
  - destruct abs; reflexivity.
  - rewrite app_assoc, last_index_snoc. rewrite !app_length. destruct abs; simpl.
    + f_equal. lia.
    + rewrite Nat.add_comm. reflexivity.
Qed.

Lemma dirname_basename p cs c : p <> [] -> comps p = cs ++ [c] ->
  path_basename p = Some c /\ path_dirname p = Some (render (is_abs p) cs).
Proof.
  intros Hp E. pose proof (comps_good p) as Hg. rewrite E in Hg.
  destruct (dirbase_shape (is_abs p) cs c Hg) as [HL HR].
  apply Forall_app in Hg as [Hcs Hc]. inversion Hc as [|? ? Hgc _]; subst.
  destruct p as [|x p0] eqn:Ep; [congruence|]. rewrite <- Ep in *. 
  unfold path_basename, path_dirname. rewrite Ep. rewrite <- Ep. clear Ep x p0.
  rewrite path_copy_nonempty by assumption. rewrite E, HL.
  assert (Hnc : path_normalize false c = Some c).
  { rewrite normalize_false by now apply good_nonempty.
    replace (comps c) with [c].
    - f_equal. destruct Hgc as [? Hn]. replace (is_abs c) with false; [reflexivity|].
      destruct c; [reflexivity|]. simpl. symmetry. apply ceqb_neq. intro; subst. apply Hn. now left.
    - rewrite <- (comps_joinb [c]); [reflexivity|]. now constructor. }
  assert (Hbody : length (body cs) = 0 -> cs = []).
  { destruct cs as [|d cs0]; [reflexivity|]. intros H0. exfalso.
    rewrite body_joinb, app_length in H0 by discriminate. simpl in H0. lia. }
  split.
  - destruct (is_abs p) eqn:Ea.
    + rewrite HR. simpl rootb. change (([SEP] ++ body cs ++ c)) with ((SEP :: body cs) ++ c).
      change (S (length (body cs))) with (length (SEP :: body cs)). now rewrite skipn_pre.
    + rewrite HR. simpl rootb. simpl app.
      destruct (length (body cs)) eqn:El.
      * rewrite (Hbody eq_refl). exact Hnc.
      * rewrite <- El, skipn_pre. exact Hnc.
  - destruct cs as [|d cs].
    + destruct (is_abs p); [|reflexivity]. reflexivity.
    + assert (Eb : body (d :: cs) = joinb [SEP] (d :: cs) ++ [SEP]) by now rewrite body_joinb.
      pose proof (joinb_nonempty (d :: cs) ltac:(discriminate) Hcs) as Hj.
      rewrite HR. rewrite Eb.
      assert (Hj0 : length (joinb [SEP] (d :: cs)) <> 0) by (destruct (joinb [SEP] (d :: cs)); [congruence|discriminate]).
      destruct (is_abs p) eqn:Ea; simpl rootb.
      * rewrite app_length. cbn [length]. rewrite Nat.add_1_r.
        change ([SEP] ++ (joinb [SEP] (d :: cs) ++ [SEP]) ++ c)
          with ((SEP :: (joinb [SEP] (d :: cs) ++ [SEP]) ++ c)).
        rewrite <- app_assoc.
        change (SEP :: joinb [SEP] (d :: cs) ++ [SEP] ++ c)
          with ((SEP :: joinb [SEP] (d :: cs)) ++ [SEP] ++ c).
        change (S (length (joinb [SEP] (d :: cs)))) with (length (SEP :: joinb [SEP] (d :: cs))).
        cbv iota. cbn [length]. change (S (length (joinb [SEP] (d :: cs)))) with (length (SEP :: joinb [SEP] (d :: cs))).
        rewrite firstn_app_exact. change (SEP :: joinb [SEP] (d :: cs)) with (render true (d :: cs)).
        rewrite normalize_false by discriminate. rewrite comps_render by assumption. reflexivity.
      * rewrite app_length. cbn [length]. rewrite Nat.add_1_r, app_nil_l.
        rewrite <- app_assoc.
        destruct (length (joinb [SEP] (d :: cs))) eqn:El; [congruence|]. rewrite <- El.
        rewrite firstn_app_exact. rewrite normalize_false by assumption.
        rewrite joinb_head, comps_joinb by assumption. reflexivity.
Qed.

Lemma dirname_basename_root p : p <> [] -> comps p = [] ->
  path_basename p = Some (if is_abs p then [] else B ".") /\
  path_dirname p = Some (render (is_abs p) []).
Proof.
  intros Hp E. destruct p as [|x p0] eqn:Ep; [congruence|]. rewrite <- Ep in *.
  unfold path_basename, path_dirname. rewrite Ep. rewrite <- Ep. clear Ep x p0.
  rewrite path_copy_nonempty by assumption. rewrite E. destruct (is_abs p); split; reflexivity.
Qed.
