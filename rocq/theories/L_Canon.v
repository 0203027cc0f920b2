From Verif Require Import Base M_Path S_Path L_Path M_Canon.
Local Arguments B _ : simpl never.

(** one iteration, in terms of the text up to the next slash *)
Lemma canon_step f s out stk part rest : s <> [] -> break_at SEP s = (part, rest) ->
  canon_loop (S f) s out stk =
  if beqb part [] || beqb part (B ".") then canon_loop f (tl rest) out stk
  else if is_up part then
    match stk with
    | d :: stk' => canon_loop f (tl rest) (firstn d out) stk'
    | [] => canon_loop f (tl rest) (out ++ B ".." ++ [sep_byte rest]) []
    end
  else if length stk =? 60 then CFatal
  else canon_loop f (tl rest) (out ++ part ++ [sep_byte rest]) (length out :: stk).
Proof.
  intros Hne E. destruct s as [|c s1]; [congruence|]. cbn [canon_loop]. change "/"%char with SEP. rewrite E.
  pose proof (break_at_app _ _ _ _ E) as Es. pose proof (break_at_notin _ _ _ _ E) as Hn.
  pose proof (break_at_rest _ _ _ _ E) as Hr.
  destruct (ceqb_spec c SEP) as [->|Hc].
  - destruct part as [|x part]; [|exfalso; apply Hn; inversion Es; now left]. simpl in Es. subst rest. reflexivity.
  - destruct part as [|x part].
    { simpl in Es. subst rest. destruct Hr as [Hr|[r Hr]]; [discriminate|]. inversion Hr. contradiction. }
    simpl in Es. inversion Es; subst x s1. clear Es.
    change (beqb (c :: part) []) with false. cbn [orb].
    change (beqb (c :: part) (B ".")) with (ceqb c "."%char && beqb part []).
    change (is_up (c :: part)) with (ceqb c "."%char && beqb part ["."%char]).
    destruct (ceqb_spec c "."%char) as [->|Hd]; cbn [andb]; [|reflexivity].
    destruct part as [|y part]; cbn [app].
    + assert (at_end rest = true) as -> by (destruct Hr as [->|[r ->]]; [reflexivity|apply ceqb_refl]). reflexivity.
    + assert (Hy : ceqb y SEP = false) by (apply ceqb_neq; intros ->; apply Hn; right; now left).
      cbn [at_end]. change "/"%char with SEP. rewrite Hy.
      change (beqb (y :: part) ["."%char]) with (ceqb y "."%char && beqb part []).
      change (beqb (y :: part) []) with false. cbv iota.
      destruct (ceqb_spec y "."%char) as [->|Hy2]; cbn [andb]; [|reflexivity].
      destruct part as [|z part]; cbn [app].
      * assert (at_end rest = true) as -> by (destruct Hr as [->|[r ->]]; [reflexivity|apply ceqb_refl]). reflexivity.
      * assert (Hz : ceqb z SEP = false) by (apply ceqb_neq; intros ->; apply Hn; right; right; now left).
        cbn [at_end]. change "/"%char with SEP. rewrite Hz. reflexivity.
Qed.

Inductive pos_ok (base : bytes) (u : nat) : list bytes -> list nat -> Prop :=
| pos_nil : pos_ok base u [] []
| pos_snoc st stk c : pos_ok base u st stk ->
    pos_ok base u (st ++ [c]) (length (base ++ body (flat (u, st))) :: stk).

Lemma pos_ok_length base u st stk : pos_ok base u st stk -> length stk = length st.
Proof. induction 1; simpl; [reflexivity|]. rewrite app_length. simpl. lia. Qed.

Definition same_but_sep (a b : bytes) : Prop := removelast a = removelast b /\ length a = length b.
Lemma same_refl a : same_but_sep a a. Proof. split; reflexivity. Qed.
Lemma same_last a x y : same_but_sep (a ++ [x]) (a ++ [y]).
Proof. split; [now rewrite !removelast_last|rewrite !app_length; reflexivity]. Qed.

Lemma canon_loop_spec base f : forall s u st stk, length s < f -> pos_ok base u st stk -> Forall good st ->
  length st <= 60 ->
  ((forall k, length (snd (fold_left walk1 (firstn k (comps s)) (u, st))) <= 60) ->
   exists o, canon_loop f s (base ++ body (flat (u, st))) stk = CDone o /\
     same_but_sep o (base ++ body (flat (fold_left walk1 (comps s) (u, st))))) /\
  ((exists k, 60 < length (snd (fold_left walk1 (firstn k (comps s)) (u, st)))) ->
   canon_loop f s (base ++ body (flat (u, st))) stk = CFatal).
Proof.
  induction f as [|f IH]; intros s u st stk Hf HP HG Hd; [lia|].
  destruct s as [|c0 s0] eqn:Es.
  { simpl. split.
    - intros _. eexists. split; [reflexivity|]. apply same_refl.
    - intros [k Hk]. change (comps []) with (@nil bytes) in Hk. rewrite firstn_nil in Hk. simpl in Hk. lia. }
  rewrite <- Es in *. assert (Hne : s <> []) by (subst; discriminate). clear c0 s0 Es.
  destruct (break_at SEP s) as [part rest] eqn:Eb.
  rewrite (canon_step f s _ stk part rest Hne Eb).
  pose proof (break_at_app _ _ _ _ Eb) as Ea. pose proof (break_at_notin _ _ _ _ Eb) as Hn.
  pose proof (break_at_rest _ _ _ _ Eb) as Hr.
  assert (Hl : length (tl rest) < f).
  { subst s. rewrite app_length in Hf. destruct Hr as [->|[r ->]]; simpl in *; [|lia]. destruct part; [exfalso; apply Hne; reflexivity|simpl in *; lia]. }
  assert (Ec : comps s = (if moves part then [part] else []) ++ comps (tl rest)).
  { subst s. destruct Hr as [->|[r ->]].
    - rewrite app_nil_r. rewrite comps_last by assumption. destruct (moves part); reflexivity.
    - now rewrite comps_cons by assumption. }
  rewrite moves_skip. rewrite Ec. destruct (moves part) eqn:Em; cbn [negb app].
  2:{ exact (IH (tl rest) u st stk Hl HP HG Hd). }
  assert (Hg : good part) by (split; assumption).
  (* writing the separator: a slash, or the final NUL *)
  assert (Sep : rest = [] \/ sep_byte rest = SEP) by (destruct Hr as [->|[r ->]]; auto).
  assert (Gen : forall u' st' stk' x pre,
    walk1 (u, st) part = (u', st') -> pos_ok base u' st' stk' -> Forall good st' -> length st' <= 60 ->
    base ++ body (flat (u', st')) = pre ++ [SEP] -> x = SEP \/ rest = [] ->
    ((forall k, length (snd (fold_left walk1 (firstn k (part :: comps (tl rest))) (u, st))) <= 60) ->
     exists o, canon_loop f (tl rest) (pre ++ [x]) stk' = CDone o /\
       same_but_sep o (base ++ body (flat (fold_left walk1 (part :: comps (tl rest)) (u, st))))) /\
    ((exists k, 60 < length (snd (fold_left walk1 (firstn k (part :: comps (tl rest))) (u, st)))) ->
     canon_loop f (tl rest) (pre ++ [x]) stk' = CFatal)).
  { intros u' st' stk' x pre W HP' HG' Hd' Epre Hx. cbn [fold_left]. rewrite W.
    destruct (IH (tl rest) u' st' stk' Hl HP' HG' Hd') as [IH1 IH2].
    destruct Hx as [->|Hx].
    - rewrite <- Epre. split.
      + intros H. apply IH1. intros k. specialize (H (S k)). cbn [firstn fold_left] in H. rewrite W in H. exact H.
      + intros [k Hk]. apply IH2. destruct k as [|k]; [simpl in Hk; lia|]. exists k. cbn [firstn fold_left] in Hk. rewrite W in Hk. exact Hk.
    - rewrite Hx in *. cbn [tl] in *. change (comps []) with (@nil bytes) in *. cbn [fold_left].
      destruct f as [|f']; [simpl in Hl; lia|]. cbn [canon_loop]. split.
      + intros _. eexists. split; [reflexivity|]. rewrite Epre. apply same_last.
      + intros [k Hk]. exfalso. destruct k as [|k]; [simpl in Hk; lia|]. cbn [firstn fold_left] in Hk. rewrite W, firstn_nil in Hk. simpl in Hk. lia. }
  destruct (is_up part) eqn:Eu.
  - unfold is_up in Eu. apply beqb_eq in Eu. subst part.
    inversion HP as [|st0 stk0 c HP0]; subst.
    + replace (base ++ body (flat (u, []))) with (base ++ body (flat (u, []))) by reflexivity.
      assert (E2 : (base ++ body (flat (u, []))) ++ B ".." ++ [sep_byte rest] = ((base ++ body (flat (u, []))) ++ B "..") ++ [sep_byte rest]) by now rewrite !app_assoc.
      rewrite E2. apply (Gen (S u) []); [reflexivity|constructor|constructor|simpl; lia| |tauto].
      unfold flat. cbn [fst snd]. rewrite !app_nil_r, repeat_S_snoc, body_snoc, <- !app_assoc. reflexivity.
    + assert (Hpop : firstn (length (base ++ body (flat (u, st0)))) (base ++ body (flat (u, st0 ++ [c]))) = base ++ body (flat (u, st0))).
      { unfold flat. cbn [fst snd]. rewrite (app_assoc (repeat _ _)), body_snoc, app_assoc. apply firstn_app_exact. }
      rewrite Hpop. apply Forall_app in HG as [HG0 _]. rewrite app_length in Hd. simpl in Hd.
      destruct (IH (tl rest) u st0 stk0 Hl HP0 HG0 ltac:(lia)) as [IH1 IH2].
      cbn [fold_left]. rewrite walk1_up_snoc. split.
      * intros H. apply IH1. intros k. specialize (H (S k)). cbn [firstn fold_left] in H. rewrite walk1_up_snoc in H. exact H.
      * intros [k Hk]. apply IH2. destruct k as [|k]; [simpl in Hk; rewrite app_length in Hk; simpl in Hk; lia|].
        exists k. cbn [firstn fold_left] in Hk. rewrite walk1_up_snoc in Hk. exact Hk.
  - assert (W : walk1 (u, st) part = (u, st ++ [part])) by (unfold walk1; rewrite Eu; reflexivity).
    rewrite (pos_ok_length _ _ _ _ HP). destruct (Nat.eqb_spec (length st) 60) as [L|L].
    + split; [|reflexivity]. intros H. specialize (H 1). cbn [firstn fold_left] in H. rewrite W in H. cbn [snd] in H.
      rewrite app_length in H. simpl in H. lia.
    + assert (E2 : (base ++ body (flat (u, st))) ++ part ++ [sep_byte rest] = ((base ++ body (flat (u, st))) ++ part) ++ [sep_byte rest]) by now rewrite !app_assoc.
      rewrite E2. apply (Gen u (st ++ [part])); [exact W|now constructor| | | |tauto].
      * apply Forall_app. split; [assumption|now constructor].
      * rewrite app_length. simpl. lia.
      * unfold flat. cbn [fst snd]. rewrite app_assoc, body_snoc, <- !app_assoc. reflexivity.
Qed.

Definition too_deep (p : bytes) : Prop := exists k, 60 < length (snd (walk (firstn k (comps p)))).

Lemma canonpath_spec p : p <> [] ->
  (~ too_deep p -> canonpath p = Some
     (match flat (walk (comps p)) with
      | [] => if is_abs p then [] else B "."
      | l => rootb (is_abs p) ++ joinb [SEP] l
      end)) /\
  (too_deep p -> canonpath p = None).
Proof.
  intros Hne. destruct p as [|c p']; [congruence|]. unfold canonpath, is_abs, too_deep, walk.
  change "/"%char with SEP.
  assert (Gen : forall s base, base = [] \/ base = [SEP] ->
    let r := match canon_loop (S (length s)) s base [] with
      | CDone [] => Some (B ".") | CDone o => Some (removelast o) | CFatal => None | CNoFuel => None end in
    (~ (exists k, 60 < length (snd (fold_left walk1 (firstn k (comps s)) (0, [])))) ->
     r = Some (match flat (fold_left walk1 (comps s) (0, [])) with
               | [] => match base with [] => B "." | _ => [] end
               | l => base ++ joinb [SEP] l end)) /\
    ((exists k, 60 < length (snd (fold_left walk1 (firstn k (comps s)) (0, [])))) -> r = None)).
  { intros s base Hb r. unfold r.
    destruct (canon_loop_spec base (S (length s)) s 0 [] [] ltac:(lia) (pos_nil _ _) (Forall_nil _) ltac:(simpl; lia)) as [H1 H2].
    change (base ++ body (flat (0, []))) with (base ++ []) in *. rewrite app_nil_r in *. split.
    - intros Hd. destruct H1 as (o & -> & Ho & Hlen).
      { intros k. destruct (le_gt_dec (length (snd (fold_left walk1 (firstn k (comps s)) (0, [])))) 60); [assumption|]. exfalso. apply Hd. exists k. lia. }
      destruct (flat (fold_left walk1 (comps s) (0, []))) as [|x l] eqn:Ef.
      + change (body []) with (@nil ascii) in *. rewrite app_nil_r in *.
        destruct Hb as [->| ->]; [destruct o; [reflexivity|discriminate]|].
        destruct o as [|? [|? ?]]; try discriminate. reflexivity.
      + rewrite body_joinb in * by discriminate. rewrite app_assoc in *.
        destruct o as [|? ?]; [rewrite !app_length in Hlen; simpl in Hlen; lia|].
        rewrite Ho, removelast_last. reflexivity.
    - intros Hd. rewrite (H2 Hd). reflexivity. }
  destruct (ceqb_spec c SEP) as [->|Hc].
  - rewrite comps_root. destruct (Gen p' [SEP] ltac:(auto)) as [G1 G2]. split.
    + intros H. specialize (G1 H). cbv zeta in G1. etransitivity; [exact G1|reflexivity].
    + exact G2.
  - destruct (Gen (c :: p') [] ltac:(auto)) as [G1 G2]. split.
    + intros H. specialize (G1 H). cbv zeta in G1. etransitivity; [exact G1|reflexivity].
    + exact G2.
Qed.

Lemma walk_good cs : forall acc, Forall good cs -> Forall good (snd acc) -> ~ In (B "..") (snd acc) ->
  Forall good (snd (fold_left walk1 cs acc)) /\ ~ In (B "..") (snd (fold_left walk1 cs acc)).
Proof.
  induction cs as [|c cs IH]; intros [u st] HG Hs Hn; [auto|]. cbn [fold_left]. inversion HG; subst.
  apply IH; [assumption|..]; unfold walk1; destruct (is_up c) eqn:E; cbn [snd].
  - destruct st; [constructor|]. apply removelast_Forall. exact Hs.
  - apply Forall_app. split; [exact Hs|now constructor].
  - destruct st as [|x st']; [auto|]. cbn [snd]. intros Hin. apply Hn. cbn [snd].
    destruct (snoc_case (x :: st')) as [En|(l' & z & En)]; [discriminate|]. rewrite En in *.
    rewrite removelast_last in Hin. apply in_or_app. now left.
  - intros Hin. apply in_app_or in Hin as [Hin|[Hin|[]]]; [now apply Hn|]. unfold is_up in E. subst c. discriminate.
Qed.

Lemma walk_down st : forall u l, ~ In (B "..") st -> fold_left walk1 st (u, l) = (u, l ++ st).
Proof.
  induction st as [|c st IH]; intros u l H; simpl; [now rewrite app_nil_r|].
  assert (E : is_up c = false) by (unfold is_up; apply beqb_neq; intros ->; apply H; now left).
  rewrite E, IH by (intros Hin; apply H; now right). now rewrite <- app_assoc.
Qed.
Lemma walk_flat u : forall st v, ~ In (B "..") st -> fold_left walk1 (repeat (B "..") u ++ st) (v, []) = (v + u, st).
Proof.
  induction u as [|u IH]; intros st v H; cbn [repeat app].
  - rewrite walk_down by assumption. rewrite Nat.add_0_r. reflexivity.
  - cbn [fold_left]. change (walk1 (v, []) (B "..")) with (S v, @nil bytes). rewrite IH by assumption. f_equal. lia.
Qed.

Lemma firstn_flat k u : forall st : list bytes, exists u', firstn k (repeat (B "..") u ++ st) = repeat (B "..") u' ++ firstn (k - u) st.
Proof.
  intros st. exists (Nat.min k u). rewrite firstn_app, repeat_length. f_equal.
  revert u. induction k as [|k IH]; intros [|u]; cbn [repeat firstn Nat.min]; [reflexivity..|]. now rewrite IH.
Qed.

Lemma canon_idempotent p q : p <> [] -> canonpath p = Some q -> q <> [] -> canonpath q = Some q.
Proof.
  intros Hp E Hq. destruct (canonpath_spec p Hp) as [S1 S2].
  assert (Hd : ~ too_deep p) by (intros H; rewrite (S2 H) in E; discriminate).
  rewrite (S1 Hd) in E.
  destruct (walk_good (comps p) (0, []) (comps_good p) (Forall_nil _) (fun x => x)) as [G1 G2].
  assert (Hl : length (snd (walk (comps p))) <= 60).
  { destruct (le_gt_dec (length (snd (walk (comps p)))) 60); [assumption|]. exfalso. apply Hd.
    exists (length (comps p)). rewrite firstn_all. lia. }
  change (fold_left walk1 (comps p) (0, [])) with (walk (comps p)) in *.
  destruct (walk (comps p)) as [u st]. cbn [snd] in *. unfold flat in E. cbn [fst snd] in E.
  assert (GF : Forall good (repeat (B "..") u ++ st)) by (apply Forall_app; split; [apply Forall_repeat_dd|assumption]).
  assert (Eq : q = render (is_abs p) (repeat (B "..") u ++ st)).
  { destruct (repeat (B "..") u ++ st) as [|x l] eqn:Ef.
    - destruct (is_abs p); injection E as <-; [congruence|reflexivity].
    - unfold render. unfold rootb in E.
      assert (E0 := f_equal (fun o => match o with Some x => x | None => [] end) E). cbv beta iota in E0. rewrite <- E0.
      destruct (is_abs p); reflexivity. }
  destruct (canonpath_spec q Hq) as [T1 _].
  assert (Ec : comps q = repeat (B "..") u ++ st) by (rewrite Eq; apply comps_render; exact GF).
  assert (Ea : is_abs q = is_abs p) by (rewrite Eq; apply is_abs_render; exact GF).
  rewrite T1.
  - rewrite Ec, Ea. unfold walk. rewrite walk_flat by assumption. unfold flat. cbn [fst snd]. exact E.
  - intros [k Hk]. rewrite Ec in Hk. destruct (firstn_flat k u st) as [u' Ef]. rewrite Ef in Hk. unfold walk in Hk.
    rewrite walk_flat in Hk.
    + cbn [snd] in Hk. rewrite firstn_length in Hk. lia.
    + intros Hin. apply G2. rewrite <- (firstn_skipn (k - u) st). apply in_or_app. now left.
Qed.
