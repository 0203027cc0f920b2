(** Proofs about the path library. *)
From Verif Require Import Base M_Path S_Path.

Definition good (c : bytes) : Prop := moves c = true /\ ~ In SEP c.

Definition body (cs : list bytes) : bytes := concat (map (fun c => c ++ [SEP]) cs).

Definition rootb (abs : bool) : bytes := if abs then [SEP] else [].

Definition step (opt : bool) (acc : nat * list bytes) (c : bytes) : nat * list bytes :=
  if opt then walk1 acc c else (fst acc, snd acc ++ [c]).

Definition flat (acc : nat * list bytes) : list bytes := repeat (B "..") (fst acc) ++ snd acc.

Lemma body_app a b : body (a ++ b) = body a ++ body b.
Proof. unfold body. now rewrite map_app, concat_app. Qed.

Lemma body_snoc a c : body (a ++ [c]) = body a ++ c ++ [SEP].
Proof. rewrite body_app. unfold body at 2. simpl. now rewrite app_nil_r. Qed.

Lemma body_joinb cs : cs <> [] -> body cs = joinb [SEP] cs ++ [SEP].
Proof.
  induction cs as [|c cs IH]; intros H; [congruence|].
  destruct cs as [|d cs].
  - unfold body. simpl. now rewrite app_nil_r.
  - rewrite joinb_cons. change (body (c :: d :: cs)) with ((c ++ [SEP]) ++ body (d :: cs)).
    rewrite IH by discriminate. rewrite <- !app_assoc. reflexivity.
Qed.

Lemma joinb_snoc cs c : joinb [SEP] (cs ++ [c]) = body cs ++ c.
Proof.
  induction cs as [|d cs IH]; simpl app; [reflexivity|].
  destruct (cs ++ [c]) eqn:E.
  - destruct cs; discriminate.
  - rewrite joinb_cons, IH. change (body (d :: cs)) with ((d ++ [SEP]) ++ body cs).
    now rewrite <- !app_assoc.
Qed.

Lemma good_nonempty c : good c -> c <> [].
Proof. intros [H _] ->. discriminate. Qed.

Lemma good_dotdot : good (B "..").
Proof. split; [reflexivity|]. unfold B, SEP. simpl. intuition discriminate. Qed.

Lemma good_last c : good c -> last c NUL <> SEP.
Proof.
  intros Hg. pose proof (good_nonempty _ Hg) as Hne. destruct Hg as [_ Hn].
  destruct (exists_last Hne) as (c' & x & ->). rewrite last_last.
  intro; subst. apply Hn. apply in_or_app. right. now left.
Qed.

Lemma last_app_nonempty {A} (a b : list A) d : b <> [] -> last (a ++ b) d = last b d.
Proof.
  intros H. destruct (exists_last H) as (b' & x & ->).
  now rewrite app_assoc, !last_last.
Qed.

Lemma joinb_last cs : cs <> [] -> Forall good cs -> last (joinb [SEP] cs) NUL <> SEP.
Proof.
  intros Hne HF. destruct (exists_last Hne) as (cs' & c & ->).
  rewrite joinb_snoc. apply Forall_app in HF as [_ HF]. inversion HF; subst.
  rewrite last_app_nonempty by now apply good_nonempty. now apply good_last.
Qed.

Lemma joinb_nonempty cs : cs <> [] -> Forall good cs -> joinb [SEP] cs <> [].
Proof.
  intros Hne HF. destruct (exists_last Hne) as (cs' & c & ->).
  rewrite joinb_snoc. apply Forall_app in HF as [_ HF]. inversion HF; subst.
  pose proof (good_nonempty _ H1). destruct (body cs'); [assumption|discriminate].
Qed.

Lemma render_rootb abs cs :
  cs <> [] -> render abs cs = rootb abs ++ joinb [SEP] cs.
Proof. destruct abs, cs; simpl; congruence || reflexivity. Qed.

Lemma norm_finish_body abs cs :
  Forall good cs -> norm_finish (rootb abs ++ body cs) = render abs cs.
Proof.
  intros HF. destruct cs as [|c cs].
  - destruct abs; reflexivity.
  - rewrite render_rootb by discriminate. rewrite body_joinb by discriminate.
    pose proof (joinb_nonempty (c :: cs) ltac:(discriminate) HF) as Hj.
    rewrite app_assoc. set (l := rootb abs ++ joinb [SEP] (c :: cs)).
    assert (Hl : l <> []).
    { unfold l. destruct (joinb [SEP] (c :: cs)); [congruence|]. destruct abs; discriminate. }
    unfold norm_finish. destruct (l ++ [SEP]) eqn:E.
    { destruct l; discriminate. }
    rewrite <- E. rewrite last_last, ceqb_refl, removelast_last.
    rewrite app_length. simpl. destruct l as [|x l']; [congruence|].
    simpl length. replace (1 <? S (length l') + 1) with true; [reflexivity|].
    symmetry. apply Nat.ltb_lt. lia.
Qed.

Lemma norm_finish_joinb abs cs :
  cs <> [] -> Forall good cs ->
  norm_finish (rootb abs ++ joinb [SEP] cs) = render abs cs.
Proof.
  intros Hne HF. rewrite render_rootb by assumption.
  pose proof (joinb_nonempty cs Hne HF) as Hj. pose proof (joinb_last cs Hne HF) as Hl.
  set (l := rootb abs ++ joinb [SEP] cs).
  assert (last l NUL <> SEP).
  { unfold l. now rewrite last_app_nonempty. }
  assert (l <> []).
  { unfold l. destruct (joinb [SEP] cs); [congruence|]. destruct abs; discriminate. }
  unfold norm_finish. destruct l eqn:E; [congruence|]. rewrite <- E in *.
  apply ceqb_neq in H. rewrite H. now rewrite andb_false_r.
Qed.

Lemma comps_last part : ~ In SEP part ->
  comps part = if moves part then [part] else [].
Proof. intros H. unfold comps. rewrite split_on_nosep by exact H. simpl. reflexivity. Qed.

Lemma comps_cons part r : ~ In SEP part ->
  comps (part ++ SEP :: r) = (if moves part then [part] else []) ++ comps r.
Proof.
  intros H. unfold comps. rewrite split_on_cons by exact H. simpl.
  destruct (moves part); reflexivity.
Qed.

Lemma moves_skip part : (beqb part [] || beqb part (B ".")) = negb (moves part).
Proof. unfold moves. now rewrite negb_andb, !negb_involutive. Qed.

(** popping one component *)
Lemma back_scan_notsep pre c k :
  ~ In SEP c -> k < length c ->
  back_scan (pre ++ [SEP] ++ c ++ [SEP]) (length pre + S k) = length pre.
Proof.
  intros Hc. induction k as [|k IH]; intros Hk.
  - rewrite Nat.add_1_r. simpl back_scan.
    replace (nth (S (length pre)) (pre ++ SEP :: c ++ [SEP]) NUL) with (nth 0 c NUL).
    2:{ rewrite app_nth2 by lia. replace (S (length pre) - length pre) with 1 by lia.
        simpl. rewrite app_nth1 by assumption. reflexivity. }
    replace (ceqb (nth 0 c NUL) SEP) with false.
    2:{ symmetry. apply ceqb_neq. intro E. apply Hc. rewrite <- E. now apply nth_In. }
    destruct (length pre) eqn:El; [reflexivity|]. cbn [back_scan].
    rewrite <- El. rewrite app_nth2 by lia. rewrite Nat.sub_diag. cbn [nth app].
    now rewrite ceqb_refl.
  - replace (length pre + S (S k)) with (S (length pre + S k)) by lia. simpl back_scan.
    replace (nth (S (length pre + S k)) (pre ++ SEP :: c ++ [SEP]) NUL) with (nth (S k) c NUL).
    2:{ rewrite app_nth2 by lia. replace (S (length pre + S k) - length pre) with (S (S k)) by lia.
        simpl. rewrite app_nth1 by assumption. reflexivity. }
    replace (ceqb (nth (S k) c NUL) SEP) with false.
    2:{ symmetry. apply ceqb_neq. intro E. apply Hc. rewrite <- E. now apply nth_In. }
    apply IH. lia.
Qed.

Lemma back_scan_notsep0 c k :
  ~ In SEP c -> k < length c -> back_scan (c ++ [SEP]) k = 0.
Proof.
  intros Hc. induction k as [|k IH]; intros Hk; [reflexivity|]. simpl back_scan.
  rewrite app_nth1 by assumption.
  replace (ceqb (nth (S k) c NUL) SEP) with false.
  2:{ symmetry. apply ceqb_neq. intro E. apply Hc. rewrite <- E. now apply nth_In. }
  apply IH. lia.
Qed.

Lemma pop_index_spec pre c :
  good c -> (pre = [] \/ exists p, pre = p ++ [SEP]) ->
  pop_index (pre ++ c ++ [SEP]) = length pre.
Proof.
  intros Hg Hp. pose proof (good_nonempty _ Hg) as Hne. destruct Hg as [_ Hn].
  assert (Hlen : 0 < length c) by (destruct c; [congruence|simpl; lia]).
  unfold pop_index. destruct Hp as [->|[p ->]].
  - simpl app. rewrite app_length. simpl.
    rewrite back_scan_notsep0; [|assumption|lia].
    rewrite app_nth1 by assumption.
    replace (ceqb (nth 0 c NUL) SEP) with false; [reflexivity|].
    symmetry. apply ceqb_neq. intro E. apply Hn. rewrite <- E. now apply nth_In.
  - rewrite <- app_assoc. rewrite !app_length. simpl length.
    replace (length p + (1 + (length c + 1)) - 2) with (length p + S (length c - 1)) by lia.
    change ([SEP] ++ c ++ [SEP]) with ([SEP] ++ (c ++ [SEP])).
    rewrite back_scan_notsep; [|assumption|lia].
    rewrite app_nth2 by lia. rewrite Nat.sub_diag. cbn [app nth]. rewrite ceqb_refl. lia.
Qed.

Lemma body_root_shape abs cs :
  rootb abs ++ body cs = [] \/ exists p, rootb abs ++ body cs = p ++ [SEP].
Proof.
  destruct cs as [|c cs].
  - destruct abs; simpl; [right; now exists []|now left].
  - right. rewrite body_joinb by discriminate.
    eexists. now rewrite app_assoc.
Qed.

Lemma firstn_app_exact {A} (a b : list A) : firstn (length a) (a ++ b) = a.
Proof. rewrite firstn_app, Nat.sub_diag, firstn_all. simpl. apply app_nil_r. Qed.

Lemma Forall_repeat_dd (n : nat) : Forall good (repeat (B "..") n).
Proof. induction n; simpl; constructor; auto using good_dotdot. Qed.

Lemma repeat_snoc {A} (x : A) n : repeat x n ++ [x] = x :: repeat x n.
Proof. induction n; simpl; [reflexivity|]. now rewrite IHn. Qed.

Lemma repeat_S_snoc {A} (x : A) n : repeat x (S n) = repeat x n ++ [x].
Proof. symmetry. apply repeat_snoc. Qed.

Lemma removelast_Forall {A} (P : A -> Prop) l : Forall P l -> Forall P (removelast l).
Proof.
  intros H. destruct l as [|x l]; [constructor|].
  assert (Hne : x :: l <> []) by discriminate.
  destruct (exists_last Hne) as (l' & y & E). rewrite E in *.
  rewrite removelast_last. now apply Forall_app in H.
Qed.

Lemma fold_step_snd_good opt cs acc :
  Forall good cs -> Forall good (snd acc) -> Forall good (snd (fold_left (step opt) cs acc)).
Proof.
  revert acc. induction cs as [|c cs IH]; intros [u st] HF Hst; simpl; [assumption|].
  inversion HF; subst. apply IH; [assumption|]. unfold step, walk1. simpl in Hst.
  destruct opt; simpl.
  - destruct (is_up c).
    + destruct st as [|x st']; [simpl; constructor|].
      exact (removelast_Forall good (x :: st') Hst).
    + simpl. apply Forall_app; auto.
  - apply Forall_app; auto.
Qed.

Lemma comps_good p : Forall good (comps p).
Proof.
  unfold comps. pose proof (split_on_notin SEP p) as H.
  change "/"%char with SEP. induction (split_on SEP p) as [|x l IH]; simpl; [constructor|].
  inversion H; subst. destruct (moves x) eqn:E; auto. constructor; auto. now split.
Qed.

Lemma snoc_case {A} (l : list A) : l = [] \/ exists l' z, l = l' ++ [z].
Proof.
  destruct l as [|x l]; [now left|]. right.
  destruct (exists_last (l := x :: l) ltac:(discriminate)) as (l' & z & E). eauto.
Qed.

Lemma walk1_up_snoc u l z : walk1 (u, l ++ [z]) (B "..") = (u, l).
Proof.
  unfold walk1, is_up. rewrite beqb_refl.
  destruct (l ++ [z]) eqn:E; [destruct l; discriminate|]. rewrite <- E.
  now rewrite removelast_last.
Qed.

(** One loop iteration, abstractly. *)
Lemma norm_loop_spec opt abs fuel : forall u st rest,
  length rest < fuel -> Forall good st ->
  exists r, norm_loop fuel opt (length st) (rootb abs ++ body (repeat (B "..") u ++ st)) rest
              = Some r /\
            norm_finish r = render abs (flat (fold_left (step opt) (comps rest) (u, st))).
Proof.
  induction fuel as [|fuel IH]; intros u st rest Hlen Hst; [lia|].
  assert (HF : Forall good (repeat (B "..") u ++ st)).
  { apply Forall_app. split; auto using Forall_repeat_dd. }
  destruct rest as [|x rest0].
  { simpl. eexists. split; [reflexivity|]. unfold flat. simpl.
    now apply norm_finish_body. }
  set (rest := x :: rest0) in *.
  cbn [norm_loop].
  replace (match rest with [] => Some (rootb abs ++ body (repeat (B "..") u ++ st)) | _ :: _ => _ end)
    with (let '(part, r) := break_at SEP rest in
          let '(sepstr, rest') :=
            match r with [] => ([], []) | c :: r' => ([c], r') end in
          let skip_empty := beqb part [] || beqb part (B ".") in
          let '(parents', pre') :=
            if skip_empty then (length st, rootb abs ++ body (repeat (B "..") u ++ st))
            else if opt && beqb part (B "..") then
              match length st with
              | S p => (p, firstn (pop_index (rootb abs ++ body (repeat (B "..") u ++ st)))
                                  (rootb abs ++ body (repeat (B "..") u ++ st)))
              | 0 => (0, (rootb abs ++ body (repeat (B "..") u ++ st)) ++ part ++ sepstr)
              end
            else (S (length st), (rootb abs ++ body (repeat (B "..") u ++ st)) ++ part ++ sepstr) in
          norm_loop fuel opt parents' pre' rest') by reflexivity.
  destruct (break_at SEP rest) as [part r] eqn:Eb.
  pose proof (break_at_app _ _ _ _ Eb) as Hr.
  pose proof (break_at_notin _ _ _ _ Eb) as Hni.
  assert (Hfuel : 0 < fuel) by (unfold rest in Hlen; simpl in Hlen; lia).
  rewrite moves_skip.
  destruct (break_at_rest _ _ _ _ Eb) as [->|[r' ->]].
  - (* last part *)
    rewrite app_nil_r in Hr. rewrite Hr. rewrite comps_last by assumption.
    destruct fuel as [|fuel']; [lia|].
    destruct (moves part) eqn:Em; simpl negb; cbv iota.
    + assert (Hgp : good part) by now split.
      cbn [fold_left]. unfold step at 1. rewrite app_nil_r.
      destruct opt; cbn [andb]; cbv iota.
      * destruct (beqb_spec part (B "..")) as [->|Hnd].
        -- destruct (snoc_case st) as [->|(l & z & ->)].
           ++ simpl length. cbv iota. simpl norm_loop.
              eexists. split; [reflexivity|]. unfold flat. simpl fst. simpl snd.
              rewrite !app_nil_r in *. rewrite <- app_assoc.
              rewrite <- joinb_snoc, repeat_snoc.
              change (B ".." :: repeat (B "..") u) with (repeat (B "..") (S u)).
              apply norm_finish_joinb; [discriminate|apply Forall_repeat_dd].
           ++ rewrite walk1_up_snoc. rewrite app_length, Nat.add_1_r. simpl norm_loop.
              eexists. split; [reflexivity|]. unfold flat. simpl fst. simpl snd.
              apply Forall_app in Hst as [Hl Hz]. inversion Hz; subst.
              rewrite (app_assoc (repeat _ _)). rewrite body_snoc. rewrite (app_assoc (rootb abs)).
              rewrite pop_index_spec; [|assumption|apply body_root_shape].
              rewrite firstn_app_exact.
              apply norm_finish_body. apply Forall_app. split; auto using Forall_repeat_dd.
        -- unfold walk1, is_up. apply beqb_neq in Hnd. rewrite Hnd.
           simpl norm_loop. eexists. split; [reflexivity|]. unfold flat. simpl.
           rewrite <- app_assoc, <- joinb_snoc, <- app_assoc.
           apply norm_finish_joinb.
           ++ intro E. apply app_eq_nil in E as [_ E]. apply app_eq_nil in E as [_ E]. discriminate.
           ++ rewrite app_assoc. apply Forall_app. split; auto.
      * simpl norm_loop. eexists. split; [reflexivity|]. unfold flat. simpl.
        rewrite <- app_assoc, <- joinb_snoc, <- app_assoc.
        apply norm_finish_joinb.
        -- intro E. apply app_eq_nil in E as [_ E]. apply app_eq_nil in E as [_ E]. discriminate.
        -- rewrite app_assoc. apply Forall_app. split; auto.
    + simpl norm_loop. eexists. split; [reflexivity|]. unfold flat. simpl.
      now apply norm_finish_body.
  - (* part followed by a separator *)
    rewrite Hr. rewrite comps_cons by assumption.
    assert (Hlen' : length r' < fuel).
    { rewrite Hr in Hlen. rewrite app_length in Hlen. simpl in Hlen. lia. }
    rewrite fold_left_app.
    destruct (moves part) eqn:Em; simpl negb; cbv iota.
    + assert (Hgp : good part) by now split.
      cbn [fold_left].
      destruct opt; cbn [andb]; cbv iota.
      * change (step true (u, st) part) with (walk1 (u, st) part).
        destruct (beqb_spec part (B "..")) as [->|Hnd].
        -- destruct (snoc_case st) as [->|(l & z & ->)].
           ++ simpl length. cbv iota.
              rewrite <- app_assoc, app_nil_r, <- body_snoc, repeat_snoc.
              change (B ".." :: repeat (B "..") u) with (repeat (B "..") (S u)).
              specialize (IH (S u) [] r' Hlen' ltac:(constructor)).
              rewrite app_nil_r in IH. exact IH.
           ++ rewrite walk1_up_snoc. rewrite app_length, Nat.add_1_r. cbv iota.
              apply Forall_app in Hst as [Hl Hz]. inversion Hz; subst.
              rewrite (app_assoc (repeat _ _)). rewrite body_snoc. rewrite (app_assoc (rootb abs)).
              rewrite pop_index_spec; [|assumption|apply body_root_shape].
              rewrite firstn_app_exact. apply IH; assumption.
        -- replace (walk1 (u, st) part) with (u, st ++ [part])
             by (unfold walk1, is_up; apply beqb_neq in Hnd; now rewrite Hnd).
           rewrite <- app_assoc, <- body_snoc, <- app_assoc.
           specialize (IH u (st ++ [part]) r' Hlen' ltac:(apply Forall_app; auto)).
           rewrite app_length, Nat.add_1_r in IH. exact IH.
      * rewrite <- app_assoc, <- body_snoc, <- app_assoc.
        specialize (IH u (st ++ [part]) r' Hlen' ltac:(apply Forall_app; auto)).
        rewrite app_length, Nat.add_1_r in IH. exact IH.
    + apply IH; assumption.
Qed.

Lemma is_abs_same p : path_is_absolute p = is_abs p.
Proof. destruct p; reflexivity. Qed.

Lemma comps_root rest : comps (SEP :: rest) = comps rest.
Proof.
  unfold comps. change "/"%char with SEP. cbn [split_on]. rewrite ceqb_refl. reflexivity.
Qed.

Lemma normalize_spec opt p : p <> [] ->
  path_normalize opt p
  = Some (render (is_abs p) (flat (fold_left (step opt) (comps p) (0, [])))).
Proof.
  intros Hp. destruct p as [|c rest]; [congruence|]. cbn [path_normalize].
  unfold is_abs. change "/"%char with SEP. destruct (ceqb_spec c SEP) as [->|Hc].
  - destruct (norm_loop_spec opt true (S (length rest)) 0 [] rest) as (r & E & F);
      [lia|constructor|].
    change (rootb true ++ body (repeat (B "..") 0 ++ [])) with [SEP] in E.
    change (length (@nil bytes)) with 0 in E. rewrite E, F. now rewrite comps_root.
  - destruct (norm_loop_spec opt false (S (length (c :: rest))) 0 [] (c :: rest)) as (r & E & F);
      [lia|constructor|].
    change (rootb false ++ body (repeat (B "..") 0 ++ [])) with (@nil ascii) in E.
    change (length (@nil bytes)) with 0 in E. rewrite E, F. reflexivity.
Qed.

Lemma fold_step_false cs u st : fold_left (step false) cs (u, st) = (u, st ++ cs).
Proof.
  revert st. induction cs as [|c cs IH]; intros st; simpl.
  - now rewrite app_nil_r.
  - change (step false (u, st) c) with (u, st ++ [c]). now rewrite IH, <- app_assoc.
Qed.

Lemma normalize_false p : p <> [] ->
  path_normalize false p = Some (render (is_abs p) (comps p)).
Proof. intros H. rewrite normalize_spec by assumption. now rewrite fold_step_false. Qed.

Lemma fold_step_true cs acc : fold_left (step true) cs acc = fold_left walk1 cs acc.
Proof. revert acc. induction cs as [|c cs IH]; intros; simpl; auto. Qed.

Lemma normalize_true p : p <> [] ->
  path_normalize true p = Some (render (is_abs p) (flat (walk (comps p)))).
Proof. intros H. rewrite normalize_spec by assumption. now rewrite fold_step_true. Qed.

Lemma render_nonempty abs cs : Forall good cs -> render abs cs <> [].
Proof.
  intros H. destruct abs; [discriminate|]. destruct cs as [|c cs]; [discriminate|].
  change (B "/") with [SEP].
  unfold render. apply (joinb_nonempty (c :: cs)); [discriminate|assumption].
Qed.

Lemma good_comps_filter cs : Forall good cs -> filter moves cs = cs.
Proof.
  induction 1 as [|c cs [Hm _] _ IH]; simpl; [reflexivity|]. now rewrite Hm, IH.
Qed.

Lemma comps_joinb cs : Forall good cs -> comps (joinb [SEP] cs) = cs.
Proof.
  intros H. destruct cs as [|c cs]; [reflexivity|].
  unfold comps. change "/"%char with SEP. rewrite split_on_joinb.
  - now apply good_comps_filter.
  - discriminate.
  - eapply Forall_impl; [|exact H]. now intros a [_ ?].
Qed.

Lemma comps_render abs cs : Forall good cs -> comps (render abs cs) = cs.
Proof.
  intros H. destruct abs.
  - change (render true cs) with (SEP :: joinb [SEP] cs). rewrite comps_root.
    now apply comps_joinb.
  - destruct cs as [|c cs]; [reflexivity|].
    change (render false (c :: cs)) with (joinb [SEP] (c :: cs)). now apply comps_joinb.
Qed.

Lemma joinb_head cs : Forall good cs -> is_abs (joinb [SEP] cs) = false.
Proof.
  intros H. destruct cs as [|c cs]; [reflexivity|]. inversion H; subst.
  pose proof (good_nonempty _ H2) as Hne. destruct H2 as [_ Hn].
  destruct c as [|x c]; [congruence|].
  assert (x <> SEP) by (intro; subst; apply Hn; now left).
  apply ceqb_neq in H0. destruct cs; simpl; exact H0.
Qed.

Lemma is_abs_render abs cs : Forall good cs -> is_abs (render abs cs) = abs.
Proof.
  intros H. destruct abs; [reflexivity|]. destruct cs as [|c cs]; [reflexivity|].
  change (render false (c :: cs)) with (joinb [SEP] (c :: cs)). now apply joinb_head.
Qed.

Lemma comps_app x y : comps (x ++ SEP :: y) = comps x ++ comps y.
Proof. unfold comps. change "/"%char with SEP. now rewrite split_on_app_sep, filter_app. Qed.

Lemma is_abs_app x y : x <> [] -> is_abs (x ++ y) = is_abs x.
Proof. destruct x; [congruence|reflexivity]. Qed.

(** ** join *)
Lemma path_copy_nonempty p : p <> [] -> path_copy p = Some (render (is_abs p) (comps p)).
Proof. apply normalize_false. Qed.

Lemma path_push_nil b : path_push [] b = path_copy b.
Proof. unfold path_push. now rewrite orb_true_r. Qed.

Lemma path_join_abs a b : is_abs b = true -> path_join a b = path_copy b.
Proof.
  intros H. unfold path_join. rewrite path_push_nil.
  assert (exists s, path_copy a = Some s) as [s ->].
  { destruct a; [now exists []|]. rewrite path_copy_nonempty by discriminate. eauto. }
  unfold path_push. now rewrite is_abs_same, H.
Qed.

Lemma path_join_rel a b : a <> [] -> b <> [] -> is_abs b = false ->
  path_join a b = Some (render (is_abs a) (comps a ++ comps b)).
Proof.
  intros Ha Hb Hr. unfold path_join. rewrite path_push_nil, path_copy_nonempty by assumption.
  pose proof (comps_good a) as Hg. pose proof (render_nonempty (is_abs a) _ Hg) as Hne.
  unfold path_push. rewrite is_abs_same, Hr. apply beqb_neq in Hne. rewrite Hne. simpl orb.
  cbv iota. apply beqb_neq in Hne. destruct b as [|x b]; [congruence|].
  rewrite normalize_false.
  - rewrite is_abs_app by assumption. rewrite comps_app, comps_render by assumption.
    rewrite is_abs_render by assumption. reflexivity.
  - destruct (render (is_abs a) (comps a)); discriminate.
Qed.

Lemma path_join_nil_r a : a <> [] ->
  path_join a [] = Some (render (is_abs a) (comps a) ++ [SEP]).
Proof.
  intros Ha. unfold path_join. rewrite path_push_nil, path_copy_nonempty by assumption.
  pose proof (comps_good a) as Hg. pose proof (render_nonempty (is_abs a) _ Hg) as Hne.
  unfold path_push. rewrite is_abs_same. simpl is_abs.
  pose proof Hne as Hne'. apply beqb_neq in Hne. rewrite Hne. simpl orb. cbv iota.
  rewrite normalize_false by assumption.
  now rewrite is_abs_render, comps_render.
Qed.

Lemma join_paths_from_rel ps : forall sb, sb <> [] ->
  Forall (fun p => p <> [] /\ is_abs p = false) ps ->
  ps <> [] ->
  join_paths_from sb ps = Some (render (is_abs sb) (comps sb ++ concat (map comps ps))).
Proof.
  induction ps as [|p ps IH]; intros sb Hsb HF Hne; [congruence|].
  inversion HF as [|? ? [Hp Hr] HF']; subst. cbn [join_paths_from].
  unfold path_push. rewrite is_abs_same, Hr. pose proof Hsb as Hsb'.
  apply beqb_neq in Hsb. rewrite Hsb. simpl orb. cbv iota.
  destruct p as [|x p0] eqn:Ep; [congruence|]. rewrite <- Ep in *. clear Ep.
  assert (Hg : Forall good (comps sb ++ comps p)) by (apply Forall_app; auto using comps_good).
  rewrite normalize_false by (destruct sb; discriminate).
  rewrite is_abs_app, comps_app by assumption.
  destruct ps as [|q ps].
  - simpl. now rewrite app_nil_r.
  - rewrite IH; [|now apply render_nonempty|assumption|discriminate].
    rewrite is_abs_render, comps_render by assumption.
    cbn [map concat]. now rewrite <- !app_assoc.
Qed.

(** ** subpath *)
Lemma subpath_scan_same c : forall rest sub prev,
  subpath_scan (c ++ rest) (c ++ sub) prev = subpath_scan rest sub (last c prev).
Proof.
  induction c as [|x c IH]; intros; simpl app; [reflexivity|].
  cbn [subpath_scan]. rewrite ceqb_refl, IH. destruct c; [reflexivity|].
  f_equal. simpl. clear. revert a. induction c; intros; simpl; auto.
Qed.

Lemma prefix_cons_inv {A} (x y : A) a b : prefix_of (x :: a) (y :: b) <-> x = y /\ prefix_of a b.
Proof.
  split.
  - intros [r H]. inversion H; subst. split; [reflexivity|now exists r].
  - intros [-> [r ->]]. now exists r.
Qed.

(** comparing component by component *)
Lemma subpath_comps bs : forall ss prev,
  prev = SEP \/ prev = NUL ->
  Forall good bs -> Forall good ss -> bs <> [] ->
  (subpath_scan (joinb [SEP] bs) (joinb [SEP] ss) prev = true <-> prefix_of bs ss).
Proof.
  assert (Hpre : forall (b s brest srest : bytes) prev,
    ~ In SEP b -> ~ In SEP s -> b <> [] ->
    (brest = [] \/ exists r, brest = SEP :: r) -> (srest = [] \/ exists r, srest = SEP :: r) ->
    subpath_scan (b ++ brest) (s ++ srest) prev = true ->
    b = s).
  { induction b as [|x b IH]; intros s brest srest prev Hb Hs Hne Hbr Hsr H; [congruence|].
    destruct s as [|y s].
    - simpl in H. destruct Hsr as [->|[r ->]]; [discriminate|].
      destruct (ceqb_spec x SEP); [|discriminate]. subst. exfalso. apply Hb. now left.
    - simpl in H. destruct (ceqb_spec x y) as [->|]; [|discriminate]. f_equal.
      destruct b as [|z b].
      + destruct s as [|w s]; [reflexivity|]. exfalso. simpl in H.
        assert (w <> SEP) by (intro; subst; apply Hs; right; now left).
        assert (y <> SEP) by (intro; subst; apply Hs; now left).
        destruct Hbr as [->|[r ->]]; simpl in H.
        * apply ceqb_neq in H0. apply ceqb_neq in H1. rewrite H0, H1 in H. discriminate.
        * destruct (ceqb_spec SEP w); congruence.
      + apply (IH s brest srest y); auto; try discriminate; simpl in *; tauto. }
  induction bs as [|b bs IH]; intros ss prev Hprev HFb HFs Hne; [congruence|].
  inversion HFb as [|? ? Hgb HFb']; subst.
  destruct ss as [|s ss].
  { simpl. pose proof (good_nonempty _ Hgb). destruct b as [|x b]; [congruence|].
    split; intros H0.
    - destruct bs; simpl in H0; discriminate.
    - destruct H0 as [r H0]. discriminate. }
  inversion HFs as [|? ? Hgs HFs']; subst.
  assert (Ejoin : forall c cs, joinb [SEP] (c :: cs) =
            c ++ (match cs with [] => [] | _ => SEP :: joinb [SEP] cs end)).
  { intros c cs. destruct cs; simpl; [now rewrite app_nil_r|reflexivity]. }
  rewrite !Ejoin. rewrite prefix_cons_inv. split.
  - intros H. assert (b = s) as ->.
    { eapply Hpre; [apply Hgb|apply Hgs|now apply good_nonempty| | |exact H].
      - destruct bs; [now left|right; eauto].
      - destruct ss; [now left|right; eauto]. }
    split; [reflexivity|]. rewrite subpath_scan_same in H.
    destruct bs as [|b2 bs]; [now exists ss|].
    destruct ss as [|s2 ss]; [simpl in H; discriminate|].
    cbn [subpath_scan] in H. rewrite ceqb_refl in H.
    apply IH in H; auto. discriminate.
  - intros [-> Hp]. rewrite subpath_scan_same.
    destruct bs as [|b2 bs].
    + destruct ss as [|s2 ss]; [reflexivity|reflexivity].
    + destruct ss as [|s2 ss]; [destruct Hp; discriminate|].
      cbn [subpath_scan]. rewrite ceqb_refl. apply IH; auto. discriminate.
Qed.

Lemma path_is_subpath_spec base sub :
  base <> [] -> sub <> [] -> (is_abs base = true \/ comps base <> []) ->
  exists r, path_is_subpath base sub = Some r /\
    (r = true <-> is_abs base = is_abs sub /\ prefix_of (comps base) (comps sub)).
Proof.
  intros Hb Hs Hc. unfold path_is_subpath.
  rewrite !path_copy_nonempty by assumption.
  destruct base as [|x0 base0] eqn:Ebase; [congruence|]. rewrite <- Ebase in *. clear Ebase x0 base0.
  eexists. split; [reflexivity|].
  pose proof (comps_good base) as Hgb. pose proof (comps_good sub) as Hgs.
  destruct (comps base) as [|b bs] eqn:Eb.
  { destruct Hc as [Hc|Hc]; [|congruence]. rewrite Hc.
    change (render true []) with [SEP].
    destruct (is_abs sub) eqn:Ea.
    - split; [intros _; split; [reflexivity|now exists (comps sub)]|]. intros _.
      change (render true (comps sub)) with (SEP :: joinb [SEP] (comps sub)).
      cbn [subpath_scan]. rewrite ceqb_refl.
      destruct (joinb [SEP] (comps sub)); [reflexivity|]. apply orb_true_r.
    - split; [|now intros []]. intros H. exfalso.
      destruct (comps sub) as [|s ss] eqn:Es.
      + discriminate.
      + pose proof (joinb_head _ Hgs) as Hh.
        change (render false (s :: ss)) with (joinb [SEP] (s :: ss)) in H.
        destruct (joinb [SEP] (s :: ss)) as [|y l]; [discriminate|].
        simpl in H. unfold is_abs in Hh. change "/"%char with SEP in Hh.
        rewrite ceqb_sym, Hh in H. discriminate. }
  assert (Hne : b :: bs <> []) by discriminate.
  destruct (is_abs base) eqn:Eab, (is_abs sub) eqn:Eas.
  - change (render true (b :: bs)) with (SEP :: joinb [SEP] (b :: bs)).
    change (render true (comps sub)) with (SEP :: joinb [SEP] (comps sub)).
    cbn [subpath_scan]. rewrite ceqb_refl, subpath_comps; auto. tauto.
  - split; [|intros [H _]; discriminate]. intros H. exfalso.
    change (render true (b :: bs)) with (SEP :: joinb [SEP] (b :: bs)) in H.
    destruct (comps sub) as [|s ss] eqn:Es.
    + simpl in H. discriminate.
    + pose proof (joinb_head _ Hgs) as Hh.
      change (render false (s :: ss)) with (joinb [SEP] (s :: ss)) in H.
      destruct (joinb [SEP] (s :: ss)) as [|y l]; [discriminate|].
      simpl in H. unfold is_abs in Hh. change "/"%char with SEP in Hh.
      rewrite ceqb_sym, Hh in H. discriminate.
  - split; [|intros [H _]; discriminate]. intros H. exfalso.
    change (render false (b :: bs)) with (joinb [SEP] (b :: bs)) in H.
    change (render true (comps sub)) with (SEP :: joinb [SEP] (comps sub)) in H.
    pose proof (joinb_head _ Hgb) as Hh.
    pose proof (joinb_nonempty _ Hne Hgb) as Hne2.
    destruct (joinb [SEP] (b :: bs)) as [|y l]; [congruence|].
    simpl in H. unfold is_abs in Hh. change "/"%char with SEP in Hh.
    rewrite Hh in H. discriminate.
  - destruct (comps sub) as [|s ss] eqn:Es.
    + change (render false []) with (B ".").
      change (render false (b :: bs)) with (joinb [SEP] (b :: bs)).
      split.
      * intros H. exfalso. inversion Hgb as [|? ? Hg Hgb']; subst.
        destruct b as [|x b]; [now apply good_nonempty in Hg|].
        assert (Hx : exists l, joinb [SEP] ((x :: b) :: bs) = x :: l /\ (l = [] -> b = [])).
        { destruct bs; simpl; eexists; split; try reflexivity; auto.
          destruct b; discriminate. }
        destruct Hx as (l & Ex & Hl). rewrite Ex in H. simpl in H.
        destruct (ceqb_spec x "."%char) as [->|]; [|discriminate].
        destruct l; [|discriminate]. rewrite Hl in Hg by reflexivity.
        destruct Hg; discriminate.
      * intros [_ [r H]]. discriminate.
    + change (render false (b :: bs)) with (joinb [SEP] (b :: bs)).
      change (render false (s :: ss)) with (joinb [SEP] (s :: ss)).
      rewrite subpath_comps; auto. tauto.
Qed.
