From Coq Require Import NArith ZArith Lia.
From Verif Require Import Base M_Format M_Formats S_Format S_Formats L_Format L_Formats M_Log S_Log.
Local Arguments B _ : simpl never.

(** ** Hexadecimal numbers *)
Lemma hex_small (P : N -> Prop) : P 0%N -> P 1%N -> P 2%N -> P 3%N -> P 4%N -> P 5%N -> P 6%N -> P 7%N -> P 8%N -> P 9%N ->
  P 10%N -> P 11%N -> P 12%N -> P 13%N -> P 14%N -> P 15%N -> forall n, (n < 16)%N -> P n.
Proof.
  intros. assert (C : (n = 0 \/ n = 1 \/ n = 2 \/ n = 3 \/ n = 4 \/ n = 5 \/ n = 6 \/ n = 7 \/ n = 8 \/ n = 9 \/ n = 10 \/ n = 11 \/ n = 12 \/ n = 13 \/ n = 14 \/ n = 15)%N) by lia.
  repeat (destruct C as [->|C]; [assumption|]). now subst.
Qed.
Definition hexchar (c : ascii) : Prop :=
  c_isspace c = false /\ ceqb c "-" = false /\ ceqb c "+" = false /\ ceqb c "x" = false /\ ceqb c "X" = false /\
  c <> TAB /\ c <> NL /\ c <> NUL.
Lemma hexc_spec n : (n < 16)%N -> hexv (hexc n) = Some n /\ hexchar (hexc n).
Proof. revert n. apply hex_small; (split; [reflexivity|repeat split; try reflexivity; discriminate]). Qed.
Definition hval (ds : list N) : N := fold_left (fun a d => a * 16 + d)%N ds 0%N.
Lemma print_hex_spec f : forall n acc, (N.log2 n < N.of_nat f)%N ->
  exists ds, print_hex f n acc = map hexc ds ++ acc /\ ds <> [] /\ Forall (fun d => d < 16)%N ds /\ hval ds = n.
Proof.
  induction f as [|f IH]; intros n acc H; [lia|]. cbn [print_hex].
  assert (Hm : (n mod 16 < 16)%N) by (apply N.mod_lt; lia).
  destruct (N.ltb_spec n 16) as [L|L].
  - exists [(n mod 16)%N]. split; [reflexivity|]. split; [discriminate|]. split; [constructor; auto|].
    unfold hval. cbn [fold_left]. rewrite N.mod_small by lia. lia.
  - destruct (IH (n / 16)%N (hexc (n mod 16) :: acc)) as (ds & E & Hne & Hds & Hv).
    { assert (Hle : (n / 16 <= n / 2)%N) by (apply N.div_le_compat_l; lia).
      apply N.log2_le_mono in Hle. rewrite <- N.div2_div in Hle.
      assert (E2 : N.log2 (N.div2 n) = N.pred (N.log2 n)).
      { rewrite N.div2_spec, N.log2_shiftr. lia. }
      assert (0 < N.log2 n)%N by (apply N.log2_pos; lia). lia. }
    exists (ds ++ [(n mod 16)%N]). split; [rewrite E, map_app, <- app_assoc; reflexivity|].
    split; [destruct ds; discriminate|]. split; [apply Forall_app; split; [assumption|constructor; auto]|].
    unfold hval in *. rewrite fold_left_app, Hv. cbn [fold_left].
    pose proof (N.div_mod n 16 ltac:(lia)). lia.
Qed.
Lemma hex_of_spec n : exists ds, hex_of n = map hexc ds /\ ds <> [] /\ Forall (fun d => d < 16)%N ds /\ hval ds = n.
Proof.
  unfold hex_of. destruct (print_hex_spec (S (N.to_nat (N.log2 n))) n []) as (ds & E & H); [lia|]. exists ds. rewrite app_nil_r in E. auto.
Qed.
Lemma hex_digits_spec ds : forall acc, Forall (fun d => d < 16)%N ds -> hex_digits (map hexc ds) acc = (fold_left (fun a d => a * 16 + d)%N ds acc, []).
Proof.
  induction ds as [|d ds IH]; intros acc F; [reflexivity|]. inversion F; subst. cbn [map hex_digits fold_left].
  destruct (hexc_spec d) as [-> _]; auto.
Qed.
Lemma strtoull16_spec ds : Forall (fun d => d < 16)%N ds -> (hval ds < 2 ^ 64)%N -> strtoull16 (map hexc ds) = (hval ds, []).
Proof.
  intros F H. unfold strtoull16. destruct ds as [|d ds]; [reflexivity|]. inversion F as [|? ? F1 F2]; subst.
  destruct (hexc_spec d F1) as [Hv (S1 & S2 & S3 & S4 & S5 & _)]. cbn [map dropw]. rewrite S1, S2, S3.
  assert (L3 : match map hexc ds with
               | x :: (c :: _) as r => if ceqb (hexc d) "0" && (ceqb x "x" || ceqb x "X") && (if hexv c then true else false) then r else hexc d :: map hexc ds
               | _ => hexc d :: map hexc ds end = hexc d :: map hexc ds).
  { destruct ds as [|d1 [|d2 ds]]; cbn [map]; try reflexivity. inversion F2 as [|? ? F3 _]; subst.
    destruct (hexc_spec d1 F3) as [_ (_ & _ & _ & X1 & X2 & _)]. rewrite X1, X2. cbn. now rewrite Bool.andb_false_r. }
  cbv zeta. rewrite L3, Hv. change (hexc d :: map hexc ds) with (map hexc (d :: ds)). rewrite hex_digits_spec by assumption.
  fold (hval (d :: ds)). destruct (N.ltb_spec (hval (d :: ds)) (2 ^ 64)); [reflexivity|lia].
Qed.
Lemma hval_prefix a b : (hval a <= hval (a ++ b))%N.
Proof.
  unfold hval. rewrite fold_left_app. generalize (fold_left (fun a d => a * 16 + d)%N a 0%N) as x.
  induction b as [|d b IH]; intros x; cbn [fold_left]; [lia|]. etransitivity; [|apply IH]. lia.
Qed.
Lemma hex_text_free ds c : Forall (fun d => d < 16)%N ds -> In c (map hexc ds) -> c <> TAB /\ c <> NL /\ c <> NUL.
Proof.
  intros F H. apply in_map_iff in H. destruct H as (d & <- & Hd). rewrite Forall_forall in F. destruct (hexc_spec d (F _ Hd)) as [_ K]. unfold hexchar in K. tauto.
Qed.
Lemma dec_text_free m c : In c (number_to_string m) -> c <> TAB /\ c <> NL /\ c <> NUL.
Proof.
  assert (D : forall n, In c (print_nat_dec n) -> is_digit c = true).
  { intros n Hc. destruct (print_nat_dec_spec n) as [[_ F] _]. rewrite forallb_forall in F. auto. }
  assert (Q : is_digit c = true -> c <> TAB /\ c <> NL /\ c <> NUL). { intros H. repeat split; intros ->; discriminate. }
  unfold number_to_string. destruct (_ <? _)%Z; [intros [<-|H]; [repeat split; discriminate|]|intros H]; apply Q; eapply D; eassumption.
Qed.
Lemma hval_app a b : Forall (fun d => d < 16)%N b -> hval a = (hval (a ++ b) / 16 ^ N.of_nat (length b))%N.
Proof.
  intros F. unfold hval. rewrite fold_left_app. generalize (fold_left (fun a d => a * 16 + d)%N a 0%N) as x.
  assert (K : forall x, exists r, (fold_left (fun a d => a * 16 + d) b x = x * 16 ^ N.of_nat (length b) + r /\ r < 16 ^ N.of_nat (length b))%N).
  { induction F as [|d b Hd F IH]; intros x; cbn [fold_left length].
    - exists 0%N. cbn. lia.
    - destruct (IH (x * 16 + d)%N) as (r & -> & Hr). exists (d * 16 ^ N.of_nat (length b) + r)%N.
      rewrite Nat2N.inj_succ, N.pow_succ_r'. nia. }
  intros x. destruct (K x) as (r & -> & Hr). rewrite N.div_add_l by (apply N.pow_nonzero; lia). rewrite N.div_small by assumption. lia.
Qed.

(** ** Lines *)
Definition content (r : logfact) : bytes :=
  let '(p, m, h) := r in B "0" ++ TAB :: B "0" ++ TAB :: number_to_string m ++ TAB :: p ++ TAB :: hex_of h.
Lemma logrecord_content p m h : logrecord p m h = content (p, m, h) ++ [NL].
Proof. unfold logrecord, content. repeat (rewrite <- !app_assoc; cbn [app]). reflexivity. Qed.
Lemma firstn_sep {A} k (a : list A) c b : firstn k (a ++ c :: b) = if k <=? length a then firstn k a else a ++ c :: firstn (k - length a - 1) b.
Proof.
  destruct (Nat.leb_spec k (length a)).
  - rewrite firstn_app. replace (k - length a) with 0 by lia. cbn. apply app_nil_r.
  - rewrite firstn_app, firstn_all2 by lia. f_equal. replace (k - length a) with (S (k - length a - 1)) by lia. cbn. do 2 f_equal. lia.
Qed.
Lemma firstn_notin {A} (x : A) k l : ~ In x l -> ~ In x (firstn k l).
Proof. intros H I. apply H. rewrite <- (firstn_skipn k l). apply in_or_app. now left. Qed.
Lemma clamp_id m : (- 2 ^ 63 <= m < 2 ^ 63)%Z -> clamp m = m.
Proof. intros H. unfold clamp, LONG_MIN, LONG_MAX. change (2 ^ 63)%Z with 9223372036854775808%Z in H. lia. Qed.
Lemma strtol_print m : (- 2 ^ 63 <= m < 2 ^ 63)%Z -> strtol (number_to_string m) = (m, []).
Proof. intros H. pose proof (strtol_reads _ _ [] (number_to_string_reads m) I) as E. rewrite app_nil_r in E. rewrite E. now rewrite clamp_id. Qed.

Lemma cut_line gen st prev p m h k : fact_fine (p, m, h) ->
  exists st', parse_cb gen (false, st) prev (firstn k (content (p, m, h))) = Some ((false, st'), true) /\
   ((forall q, st' q = st q) \/
    (exists p', prefix p' p /\ p' <> p /\ gen p' = true /\ forall q, st' q = if beqb p' q then (m, snd (st q)) else st q) \/
    (gen p = true /\ forall q, st' q = if beqb p q then (m, snd (st q)) else st q) \/
    (exists j, gen p = true /\ forall q, st' q = if beqb p q then (m, (h / 16 ^ j)%N) else st q)) /\
   (length (content (p, m, h)) <= k -> forall q, st' q = if beqb p q && gen p then (m, h) else st q).
Proof.
  intros ((Hp & Ht & _ & _) & Hm & Hh). destruct (hex_of_spec h) as (ds & Eh & Hne & Fd & Hv).
  assert (Td : ~ In TAB (number_to_string m)). { intros I. apply dec_text_free in I. tauto. }
  assert (Tk : forall l, Forall (fun d => d < 16)%N l -> ~ In TAB (map hexc l)). { intros l F I. apply hex_text_free in I; tauto. }
  assert (T0 : ~ In TAB (B "0")) by (intros [I|[]]; discriminate).
  unfold parse_cb. cbv zeta beta iota. unfold content. rewrite Eh.
  rewrite firstn_sep. destruct (Nat.leb_spec k (length (B "0"))) as [L0|L0].
  { rewrite split_on_nosep by (now apply firstn_notin). cbn [firstn nth_error]. eexists. split; [reflexivity|]. split; [now left|].
    intros L. exfalso. rewrite app_length in L. simpl in L, L0. lia. }
  rewrite split_on_cons by assumption. set (k1 := k - length (B "0") - 1).
  rewrite firstn_sep. destruct (Nat.leb_spec k1 (length (B "0"))) as [L1|L1].
  { rewrite split_on_nosep by (now apply firstn_notin). cbn [firstn nth_error]. eexists. split; [reflexivity|]. split; [now left|].
    intros L. exfalso. rewrite app_length in L. cbn [length] in L. rewrite app_length in L. cbn [length] in L. unfold k1 in L1. change (length (B "0")) with 1 in *. lia. }
  rewrite split_on_cons by assumption. set (k2 := k1 - length (B "0") - 1).
  rewrite firstn_sep. destruct (Nat.leb_spec k2 (length (number_to_string m))) as [L2|L2].
  { rewrite split_on_nosep by (now apply firstn_notin). cbn [firstn nth_error]. eexists. split; [reflexivity|]. split; [now left|].
    intros L. exfalso. do 5 (rewrite ?app_length in L; cbn [length] in L).
    unfold k2, k1 in L2. change (length (B "0")) with 1 in *. lia. }
  rewrite split_on_cons by assumption. set (k3 := k2 - length (number_to_string m) - 1).
  rewrite firstn_sep. destruct (Nat.leb_spec k3 (length p)) as [L3|L3].
  { rewrite split_on_nosep by (now apply firstn_notin). cbn [firstn nth_error].
    assert (Hk : length (content (p, m, h)) <= k -> False).
    { unfold content. rewrite Eh. do 5 (rewrite ?app_length; cbn [length]). unfold k3, k2, k1 in L3. change (length (B "0")) with 1 in *. lia. }
    unfold content in Hk. rewrite Eh in Hk.
    destruct (gen (firstn k3 p)) eqn:G; cbn [negb].
    - rewrite strtol_print by assumption. eexists. split; [reflexivity|]. split; [|intros L; exfalso; exact (Hk L)].
      right. destruct (beqb_spec (firstn k3 p) p) as [Ep|Ep].
      + right. left. rewrite Ep in *. split; [assumption|]. intros q. unfold set. destruct (beqb_spec p q); [now subst|reflexivity].
      + left. exists (firstn k3 p). refine (conj _ (conj Ep (conj G _))).
        * exists (skipn k3 p). now rewrite firstn_skipn.
        * intros q. unfold set. destruct (beqb_spec (firstn k3 p) q) as [E|E]; [now rewrite E|reflexivity].
    - eexists. split; [reflexivity|]. split; [now left|intros L; exfalso; exact (Hk L)]. }
  rewrite split_on_cons by assumption. rewrite firstn_map. set (k4 := k3 - length p - 1).
  assert (Fk : Forall (fun d => d < 16)%N (firstn k4 ds)). { apply Forall_forall. intros d I. rewrite Forall_forall in Fd. apply Fd. rewrite <- (firstn_skipn k4 ds). apply in_or_app. now left. }
  rewrite split_on_nosep by (now apply Tk). cbn [firstn nth_error].
  destruct (gen p) eqn:G; cbn [negb].
  2:{ eexists. split; [reflexivity|]. split; [now left|]. intros _ q. now rewrite Bool.andb_false_r. }
  rewrite strtol_print by assumption.
  assert (Hx : hval (firstn k4 ds) = (h / 16 ^ N.of_nat (length (skipn k4 ds)))%N).
  { rewrite (hval_app _ (skipn k4 ds)). { now rewrite firstn_skipn, Hv. } apply Forall_forall. intros d I. rewrite Forall_forall in Fd. apply Fd. rewrite <- (firstn_skipn k4 ds). apply in_or_app. now right. }
  assert (Hb : (hval (firstn k4 ds) < 2 ^ 64)%N). { eapply N.le_lt_trans; [apply (hval_prefix _ (skipn k4 ds))|]. rewrite firstn_skipn, Hv. exact Hh. }
  rewrite strtoull16_spec by assumption. cbn [fst]. eexists. split; [reflexivity|].
  assert (SS : forall x y q, set p (m, x) (set p (m, y) st) q = if beqb p q then (m, x) else st q).
  { intros. unfold set. now destruct (beqb p q). }
  split.
  - do 3 right. exists (N.of_nat (length (skipn k4 ds))). split; [reflexivity|]. intros q. rewrite SS, Hx. reflexivity.
  - intros L q. rewrite SS, Bool.andb_true_r. destruct (beqb p q); [|reflexivity]. f_equal.
    assert (L4 : length ds <= k4). { do 5 (rewrite ?app_length in L; cbn [length] in L). rewrite map_length in L. unfold k4, k3, k2, k1. change (length (B "0")) with 1 in *. lia. }
    rewrite firstn_all2 by assumption. exact Hv.
Qed.

Definition line (r : logfact) : bytes := let '(p, m, h) := r in logrecord p m h.
Lemma line_content r : line r = content r ++ [NL].
Proof. destruct r as [[p m] h]. apply logrecord_content. Qed.
Lemma content_free r c : fact_fine r -> In c (content r) -> c <> NL /\ c <> NUL.
Proof.
  destruct r as [[p m] h]. intros ((_ & _ & Hn & Hz) & _). unfold content. destruct (hex_of_spec h) as (ds & -> & _ & Fd & _). intros I.
  apply in_app_or in I. destruct I as [[<-|[]]|[<-|I]]; try (split; discriminate).
  apply in_app_or in I. destruct I as [[<-|[]]|[<-|I]]; try (split; discriminate).
  apply in_app_or in I. destruct I as [I|[<-|I]]; try (split; discriminate). { apply dec_text_free in I. tauto. }
  apply in_app_or in I. destruct I as [I|[<-|I]]; try (split; discriminate). { split; intros ->; contradiction. }
  apply hex_text_free in I; tauto.
Qed.
Lemma lines_of_log rs x : Forall fact_fine rs -> ~ In NL x ->
  lines_of (flat_map line rs ++ x) (map content rs ++ match x with [] => [] | _ => [x] end).
Proof.
  induction 1 as [|r rs Hr F IH]; intros Hx; cbn [flat_map map app].
  - destruct x; [constructor|constructor; [discriminate|assumption]].
  - rewrite line_content, <- !app_assoc. cbn [app]. constructor; [|auto]. intros I. apply (content_free r NL) in I; tauto.
Qed.
Lemma log_free rs : Forall fact_fine rs -> ~ In NUL (flat_map line rs).
Proof.
  induction 1 as [|r rs Hr F IH]; [easy|]. cbn [flat_map]. rewrite line_content. intros I. apply in_app_or in I. destruct I as [I|I]; [|contradiction].
  apply in_app_or in I. destruct I as [I|[I|[]]]; [apply (content_free r NUL) in I; tauto|discriminate].
Qed.
Lemma cut_text k : forall rs, exists x, firstn k (flat_map line rs) = flat_map line (firstn (fitting k (map (fun r => length (line r)) rs)) rs) ++ x /\
  ((x = [] /\ fitting k (map (fun r => length (line r)) rs) = length rs) \/
   exists r k', nth_error rs (fitting k (map (fun r => length (line r)) rs)) = Some r /\ x = firstn k' (content r)).
Proof.
  intros rs. revert k. induction rs as [|r rs IH]; intros k; cbn [map fitting flat_map].
  - exists []. rewrite firstn_nil. split; [reflexivity|now left].
  - destruct (Nat.leb_spec (length (line r)) k) as [L|L].
    + destruct (IH (k - length (line r))) as (x & E & H). exists x. cbn [firstn flat_map nth_error]. rewrite firstn_app, firstn_all2, E, <- app_assoc by assumption. split; [reflexivity|].
      destruct H as [[H1 H2]|H]; [left|right; exact H]. split; [assumption|]. cbn [length]. now rewrite H2.
    + exists (firstn k (content r)). split.
      * cbn [firstn flat_map app]. rewrite firstn_app. replace (k - length (line r)) with 0 by lia. cbn [firstn]. rewrite app_nil_r.
        rewrite line_content in *. rewrite app_length in L. cbn [length] in L. rewrite firstn_app. replace (k - length (content r)) with 0 by lia. cbn. apply app_nil_r.
      * right. exists r, k. split; reflexivity.
Qed.
Lemma parse_prev gen s a b l : parse_cb gen s a l = parse_cb gen s b l.
Proof. reflexivity. Qed.
Lemma feed_prev gen s a b ls : feed (parse_cb gen) s a ls = feed (parse_cb gen) s b ls.
Proof. destruct ls; reflexivity. Qed.
Lemma feed_lines gen rs tl : Forall fact_fine rs -> forall st prev, exists st',
  feed (parse_cb gen) (false, st) prev (map content rs ++ tl) = feed (parse_cb gen) (false, st') None tl /\
  forall q, st' q = if gen q then last_fact rs q (st q) else st q.
Proof.
  induction 1 as [|[[p m] h] rs Hr F IH]; intros st prev; cbn [map app feed].
  - exists st. split; [apply feed_prev|]. intros q. now destruct (gen q).
  - destruct (cut_line gen st prev p m h (length (content (p, m, h))) Hr) as (st1 & E & _ & V). rewrite firstn_all in E. rewrite E.
    specialize (V (le_n _)). destruct (IH st1 (Some NUL)) as (st' & E' & V'). exists st'. split; [exact E'|]. intros q. rewrite V', V. cbn [last_fact].
    destruct (beqb_spec p q) as [->|]; destruct (gen q) eqn:G; cbn [andb]; reflexivity.
Qed.
Definition log_text (rs : list logfact) : bytes := version_line ++ flat_map line rs.
Lemma version_ok gen : parse_cb gen (true, no_records) None (B "# ninja log v5") = Some ((false, no_records), true).
Proof. reflexivity. Qed.
Lemma load_text (gen : bytes -> bool) rs x : Forall fact_fine rs -> ~ In NL x -> ~ In NUL x ->
  exists st : nodes, (forall q, st q = if gen q then last_fact rs q (2%Z, 0%N) else (2%Z, 0%N)) /\
   loginit gen (log_text rs ++ x) =
   match x with [] => Some st
   | _ => match parse_cb gen (false, st) None x with Some ((_, st'), _) => Some st' | None => None end
   end.
Proof.
  intros F Hx Hz. unfold loginit, each_line. set (file := log_text rs ++ x).
  assert (Li : lines_of file (B "# ninja log v5" :: map content rs ++ match x with [] => [] | _ => [x] end)).
  { unfold file, log_text, version_line. rewrite <- !app_assoc. cbn [app]. constructor; [|now apply lines_of_log].
    intros I. vm_compute in I. intuition discriminate. }
  assert (Nf : ~ In NUL file).
  { unfold file, log_text. intros I. apply in_app_or in I. destruct I as [I|I]; [|contradiction]. apply in_app_or in I. destruct I as [I|I]; [vm_compute in I; intuition discriminate|now apply log_free in I]. }
  rewrite (each_line_terminated _ _ _ [] Li Nf) by (rewrite ?app_length; simpl; lia).
  cbn [feed]. rewrite version_ok.
  destruct (feed_lines gen rs (match x with [] => [] | _ => [x] end) F no_records (Some NUL)) as (st & E & V).
  exists st. split; [intros q; rewrite V; reflexivity|]. rewrite E. destruct x as [|c x]; [reflexivity|]. cbn [feed].
  destruct (parse_cb gen (false, st) None (c :: x)) as [[[b st'] [|]]|]; reflexivity.
Qed.

(** ** Values are in range *)
Lemma each_line_inv {S} (cb : S -> option ascii -> bytes -> option (S * bool)) (P : S -> Prop) :
  (forall s prev l s' b, P s -> cb s prev l = Some (s', b) -> P s') ->
  forall f s prev m off len s', P s -> each_line_loop f cb s prev m off len = Some s' -> P s'.
Proof.
  intros H f. induction f; intros s prev m off len s' Hs E; [discriminate|]. rewrite each_line_loop_eq in E.
  destruct (find_nl m) as [[l [r|]]|]; [| |discriminate].
  - destruct (cb s prev l) as [[s1 [|]]|] eqn:C; [|injection E as <-; eauto|discriminate].
    assert (P s1) by eauto. cbv zeta in E. destruct (_ <=? _); [injection E as <-; assumption|eauto].
  - destruct l; [injection E as <-; assumption|]. destruct (cb s prev _) as [[s1 b]|] eqn:C; [injection E as <-; eauto|discriminate].
Qed.
Definition in_range (st : nodes) : Prop := forall q, (- 2 ^ 63 <= fst (st q) < 2 ^ 63)%Z /\ (snd (st q) < 2 ^ 64)%N.
Lemma strtol_range l : (- 2 ^ 63 <= fst (strtol l) < 2 ^ 63)%Z.
Proof.
  assert (C : forall z, (- 2 ^ 63 <= clamp z < 2 ^ 63)%Z) by (intros; unfold clamp, LONG_MIN, LONG_MAX; change (2 ^ 63)%Z with 9223372036854775808%Z; lia).
  assert (Z0 : (- 2 ^ 63 <= 0 < 2 ^ 63)%Z) by lia.
  unfold strtol. destruct (match dropw c_isspace l with [] => _ | _ => _ end) as [neg l2]. destruct l2 as [|c l2]; [exact Z0|].
  destruct (is_digit c); [|exact Z0]. destruct (digits_val _ _) as [v rest]. apply C.
Qed.
Lemma strtoull_range l : (fst (strtoull16 l) < 2 ^ 64)%N.
Proof.
  unfold strtoull16. destruct (match dropw c_isspace l with [] => _ | _ => _ end) as [neg l2]. cbv zeta.
  destruct (match l2 with [] => _ | _ => _ end) as [|c l3]; [reflexivity|]. destruct (hexv c); [|reflexivity].
  destruct (hex_digits _ _) as [v rest]. cbn [fst]. destruct (N.ltb_spec v (2 ^ 64)); [|reflexivity]. destruct neg; [|assumption]. apply N.mod_lt. discriminate.
Qed.
Lemma set_range p x st : (- 2 ^ 63 <= fst x < 2 ^ 63)%Z /\ (snd x < 2 ^ 64)%N -> in_range st -> in_range (set p x st).
Proof. intros H I q. unfold set. destruct (beqb p q); auto. Qed.
Lemma loginit_range gen file st : loginit gen file = Some st -> in_range st.
Proof.
  unfold loginit, each_line. destruct (each_line_loop _ _ _ _ _ _ _) as [[b st']|] eqn:E; [|discriminate]. intros [= <-].
  change (in_range (snd (b, st'))). revert E. apply each_line_inv with (P := fun s => in_range (snd s)).
  2:{ intros q. cbn. lia. }
  intros [first s] prev l s' b0 I H. cbn [snd] in I. unfold parse_cb in H. cbv zeta in H. destruct first.
  - destruct (scan_version l) as [v|]; [destruct (v =? 5)%Z|]; injection H as <- <-; exact I.
  - destruct (nth_error _ 3) as [p|]; [|injection H as <- <-; exact I]. destruct (gen p); cbn [negb] in H; [|injection H as <- <-; exact I].
    destruct (nth_error _ 2) as [t|]; [|injection H as <- <-; exact I]. pose proof (strtol_range t) as R. destruct (strtol t) as [m rest]. cbn [fst] in R.
    assert (I1 : in_range (set p (m, snd (s p)) s)) by (apply set_range; [split; [exact R|apply I]|exact I]).
    destruct rest; [|injection H as <- <-; exact I1]. destruct (nth_error _ 4) as [t2|]; injection H as <- <-; [|exact I1].
    apply set_range; [split; [exact R|apply strtoull_range]|exact I1].
Qed.
