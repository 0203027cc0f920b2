From Verif Require Import Base M_Version S_Version.

(** ** classes *)
Lemma digit_not_alpha c : is_digit c = true -> is_alpha c = false.
Proof.
  unfold is_digit, is_alpha, is_lower, is_upper. intros H.
  apply andb_true_iff in H as [H1 H2]. apply Nat.leb_le in H1, H2.
  apply orb_false_iff. split; apply andb_false_iff; left; apply Nat.leb_gt; lia.
Qed.

Lemma kind_digit c : kind_of c = KDigit <-> is_digit c = true.
Proof. unfold kind_of. destruct (is_digit c); [tauto|]. destruct (is_alpha c); split; discriminate. Qed.
Lemma kind_letter c : kind_of c = KLetter <-> is_alpha c = true.
Proof.
  unfold kind_of. destruct (is_digit c) eqn:E.
  - rewrite (digit_not_alpha _ E). split; discriminate.
  - destruct (is_alpha c); split; congruence.
Qed.
Lemma kind_sep c : kind_of c = KSep <-> is_alnum c = false.
Proof.
  unfold kind_of, is_alnum. destruct (is_digit c).
  - rewrite orb_true_r. split; discriminate.
  - rewrite orb_false_r. destruct (is_alpha c); split; congruence.
Qed.

Lemma kind_eqb_spec a b : reflect (a = b) (kind_eqb a b).
Proof. destruct a, b; constructor; congruence. Qed.

(** ** runs *)
Lemma runs_head l : forall k w rest, runs l = (k, w) :: rest ->
  exists c l', l = c :: l' /\ k = kind_of c.
Proof.
  destruct l as [|c l]; intros k w rest H; [discriminate|].
  exists c, l. split; [reflexivity|]. simpl in H.
  destruct (runs l) as [|[k1 w1] r1].
  - now inversion H.
  - destruct (kind_eqb_spec (kind_of c) k1); inversion H; congruence.
Qed.

Lemma runs_app k a b : a <> [] -> Forall (fun c => kind_of c = k) a ->
  (forall x b', b = x :: b' -> kind_of x <> k) ->
  runs (a ++ b) = (k, a) :: runs b.
Proof.
  intros Hne HF Hb. induction HF as [|c a Hc HF IH]; [congruence|].
  destruct a as [|c2 a].
  - simpl. destruct (runs b) as [|[k1 w1] r1] eqn:E.
    + rewrite Hc. destruct b; [reflexivity|]. simpl in E.
      destruct (runs b) as [|[? ?] ?]; [discriminate|]. destruct (kind_eqb _ _); discriminate.
    + destruct (runs_head _ _ _ _ E) as (x & b' & -> & ->).
      specialize (Hb x b' eq_refl). rewrite Hc.
      destruct (kind_eqb_spec k (kind_of x)); [congruence|reflexivity].
  - change ((c :: c2 :: a) ++ b) with (c :: ((c2 :: a) ++ b)).
    cbn [runs]. rewrite IH by discriminate. rewrite Hc.
    destruct (kind_eqb_spec k k); [reflexivity|congruence].
Qed.

Lemma segments_drop_sep l : segments (dropw (fun c => negb (is_alnum c)) l) = segments l.
Proof.
  destruct (dropw_spec (fun c => negb (is_alnum c)) l) as (a & E & Ha & Hr).
  set (r := dropw _ l) in *. clearbody r. subst l. destruct a as [|c a]; [reflexivity|].
  unfold segments. rewrite (runs_app KSep (c :: a) r).
  - reflexivity.
  - discriminate.
  - eapply Forall_impl; [|exact Ha]. intros x Hx. apply kind_sep. now apply negb_true_iff in Hx.
  - intros x b' ->. specialize (Hr x b' eq_refl). intro Hk. apply kind_sep in Hk.
    rewrite Hk in Hr. discriminate.
Qed.

Lemma segments_nil_iff l : segments (dropw (fun c => negb (is_alnum c)) l) = [] <->
  dropw (fun c => negb (is_alnum c)) l = [].
Proof.
  destruct (dropw_spec (fun c => negb (is_alnum c)) l) as (a & E & Ha & Hr).
  set (r := dropw _ l) in *. clearbody r. split; [|now intros ->].
  destruct r as [|x r]; [reflexivity|]. intros H. exfalso.
  specialize (Hr x r eq_refl). apply negb_false_iff in Hr.
  unfold segments in H. 
  assert (Hk : kind_of x <> KSep) by (rewrite kind_sep; congruence).
  simpl in H. destruct (runs r) as [|[k1 w1] r1].
  - simpl in H. destruct (kind_of x); try discriminate. congruence.
  - destruct (kind_eqb_spec (kind_of x) k1); simpl in H; subst; destruct (kind_of x); try discriminate; congruence.
Qed.

Lemma ends_in_sep_app a b : b <> [] -> ends_in_sep (a ++ b) = ends_in_sep b.
Proof.
  intros Hb. unfold ends_in_sep.
  destruct (a ++ b) eqn:E; [destruct a; [simpl in E; congruence|discriminate]|]. rewrite <- E.
  assert (L : last (a ++ b) NUL = last b NUL).
  { clear E. induction a as [|x a IH]; [reflexivity|]. simpl.
    destruct (a ++ b) eqn:E; [destruct a; [simpl in E; congruence|discriminate]|]. exact IH. }
  rewrite L. destruct b; [congruence|reflexivity].
Qed.

Lemma last_Forall {A} (P : A -> Prop) l d : l <> [] -> Forall P l -> P (last l d).
Proof.
  intros Hne HF. induction HF as [|x l Hx HF IH]; [congruence|].
  destruct l; [assumption|]. apply IH. discriminate.
Qed.

Lemma ends_in_sep_all l : l <> [] -> Forall (fun c => is_alnum c = false) l -> ends_in_sep l = true.
Proof.
  intros Hne HF. unfold ends_in_sep. destruct l as [|x l0] eqn:E; [congruence|]. rewrite <- E in *.
  pose proof (last_Forall _ l NUL Hne HF) as H. cbv beta in H. apply kind_sep in H. now rewrite H.
Qed.

Lemma ends_in_sep_none l : Forall (fun c => is_alnum c = true) l -> ends_in_sep l = false.
Proof.
  intros HF. unfold ends_in_sep. destruct l as [|x l]; [reflexivity|].
  assert (H : is_alnum (last (x :: l) NUL) = true).
  { apply (last_Forall (fun c => is_alnum c = true)); [discriminate|assumption]. }
  destruct (kind_of (last (x :: l) NUL)) eqn:K; try reflexivity.
  apply kind_sep in K. congruence.
Qed.

Lemma dropped_all l : dropw (fun c => negb (is_alnum c)) l = [] ->
  Forall (fun c => is_alnum c = false) l.
Proof.
  intros H. destruct (dropw_spec (fun c => negb (is_alnum c)) l) as (a & E & Ha & _).
  rewrite H, app_nil_r in E. subst. eapply Forall_impl; [|exact Ha]. intros c Hc.
  now apply negb_true_iff in Hc.
Qed.

Lemma ends_in_sep_drop l : dropw (fun c => negb (is_alnum c)) l <> [] ->
  ends_in_sep (dropw (fun c => negb (is_alnum c)) l) = ends_in_sep l.
Proof.
  intros H. destruct (dropw_spec (fun c => negb (is_alnum c)) l) as (a & E & _).
  rewrite E at 2. now rewrite ends_in_sep_app.
Qed.

(** ** numbers *)
Definition dval (c : ascii) : N := (N_of_ascii c - 48)%N.

Lemma decimal_acc w : forall acc, 
  fold_left (fun acc c => (acc * 10 + (N_of_ascii c - 48))%N) w acc =
  (acc * 10 ^ N.of_nat (length w) + decimal w)%N.
Proof.
  unfold decimal. induction w as [|c w IH]; intros acc; cbn [fold_left length].
  - simpl. lia.
  - rewrite IH, (IH (0 * 10 + _)%N). rewrite Nat2N.inj_succ, N.pow_succ_r'. lia.
Qed.

Lemma decimal_cons c w : decimal (c :: w) = (dval c * 10 ^ N.of_nat (length w) + decimal w)%N.
Proof. unfold decimal at 1. cbn [fold_left]. rewrite decimal_acc. unfold dval. lia. Qed.

Lemma cval_N c : N_of_ascii c = N.of_nat (cval c).
Proof. unfold cval, nat_of_ascii. now rewrite N2Nat.id. Qed.

Lemma digit_range c : is_digit c = true -> 48 <= cval c <= 57.
Proof. unfold is_digit. intros H. apply andb_true_iff in H as [H1 H2]. apply Nat.leb_le in H1, H2. lia. Qed.

Lemma dval_lt c : is_digit c = true -> (dval c < 10)%N.
Proof. intros H. apply digit_range in H. unfold dval. rewrite cval_N. lia. Qed.

Lemma decimal_lt w : Forall (fun c => is_digit c = true) w -> (decimal w < 10 ^ N.of_nat (length w))%N.
Proof.
  induction 1 as [|c w Hc HF IH]; [vm_compute; reflexivity|].
  rewrite decimal_cons. cbn [length]. rewrite Nat2N.inj_succ, N.pow_succ_r'.
  apply dval_lt in Hc. nia.
Qed.

Lemma decimal_ge c w : is_digit c = true -> c <> "0"%char -> 
  (10 ^ N.of_nat (length w) <= decimal (c :: w))%N.
Proof.
  intros Hc H0. rewrite decimal_cons. apply digit_range in Hc.
  assert (1 <= dval c)%N.
  { unfold dval. rewrite cval_N. assert (cval c <> 48); [|lia].
    intro E. apply H0. rewrite <- (ascii_nat_embedding c). unfold cval in E. rewrite E. reflexivity. }
  nia.
Qed.

Lemma decimal_zeros z w : Forall (fun c => ceqb "0"%char c = true) z -> decimal (z ++ w) = decimal w.
Proof.
  induction 1 as [|c z Hc HF IH]; [reflexivity|]. simpl app. rewrite decimal_cons, IH.
  apply ceqb_eq in Hc. subst. change (dval "0"%char) with 0%N. lia.
Qed.

(** longer number (without leading zero) is larger *)
Lemma decimal_longer a b : Forall (fun c => is_digit c = true) a -> Forall (fun c => is_digit c = true) b ->
  (forall x a', a = x :: a' -> x <> "0"%char) ->
  length b < length a -> (decimal b < decimal a)%N.
Proof.
  intros Ha Hb H0 Hl. destruct a as [|c a]; [simpl in Hl; lia|].
  inversion Ha; subst. pose proof (decimal_ge c a ltac:(assumption) (H0 c a eq_refl)).
  pose proof (decimal_lt b Hb). simpl in Hl.
  assert (10 ^ N.of_nat (length b) <= 10 ^ N.of_nat (length a))%N by (apply N.pow_le_mono_r; lia).
  lia.
Qed.

Lemma memcmp_bytes_cmp n : forall a b, n <= length a -> n <= length b ->
  memcmp_sign n a b = sign (bytes_cmp (firstn n a) (firstn n b)).
Proof.
  induction n as [|n IH]; intros a b Ha Hb; [now destruct a, b|].
  destruct a as [|x a]; [simpl in Ha; lia|]. destruct b as [|y b]; [simpl in Hb; lia|].
  simpl. destruct (Nat.compare_spec (cval x) (cval y)) as [E|E|E].
  - destruct (Nat.ltb_spec (cval x) (cval y)); [lia|]. destruct (Nat.ltb_spec (cval y) (cval x)); [lia|].
    apply IH; simpl in *; lia.
  - apply Nat.ltb_lt in E. now rewrite E.
  - destruct (Nat.ltb_spec (cval x) (cval y)); [lia|]. apply Nat.ltb_lt in E. now rewrite E.
Qed.

Lemma bytes_cmp_prefix : forall a b n, n = Nat.min (length a) (length b) ->
  bytes_cmp a b = match bytes_cmp (firstn n a) (firstn n b) with
                  | Eq => Nat.compare (length a) (length b)
                  | c => c end.
Proof.
  induction a as [|x a IH]; intros b n Hn; destruct b as [|y b]; simpl in Hn; subst n; try reflexivity.
  simpl. destruct (Nat.compare (cval x) (cval y)); try reflexivity. now apply IH.
Qed.

Lemma decimal_same_length a b : length a = length b ->
  Forall (fun c => is_digit c = true) a -> Forall (fun c => is_digit c = true) b ->
  N.compare (decimal a) (decimal b) = bytes_cmp a b.
Proof.
  revert b. induction a as [|x a IH]; intros b Hl Ha Hb; destruct b as [|y b]; simpl in Hl; try lia; [reflexivity|].
  inversion Ha; inversion Hb; subst. rewrite !decimal_cons. cbn [bytes_cmp].
  assert (L : length a = length b) by lia. rewrite <- L.
  pose proof (decimal_lt a ltac:(assumption)). pose proof (decimal_lt b ltac:(assumption)) as Hlb.
  rewrite <- L in Hlb. pose proof (digit_range x ltac:(assumption)). pose proof (digit_range y ltac:(assumption)).
  destruct (Nat.compare_spec (cval x) (cval y)) as [E|E|E].
  - rewrite <- IH by (auto; lia). unfold dval. rewrite !cval_N, E.
    destruct (N.compare_spec (decimal a) (decimal b)) as [Hd|Hd|Hd].
    + rewrite Hd. apply N.compare_refl.
    + apply N.compare_lt_iff. lia.
    + apply N.compare_gt_iff. lia.
  - apply N.compare_lt_iff. unfold dval. rewrite !cval_N. nia.
  - apply N.compare_gt_iff. unfold dval. rewrite !cval_N. nia.
Qed.

(** ** one segment *)
Lemma span_head p x l a b : p x = true -> span p (x :: l) = (a, b) -> a <> [].
Proof. simpl. intros ->. destruct (span p l). intros [= <- <-]. discriminate. Qed.

Lemma zeros_in_segment sa ra a1 a2 : a1 = sa ++ ra ->
  Forall (fun c => is_digit c = true) sa -> (forall x b', ra = x :: b' -> is_digit x = false) ->
  a2 = dropw (ceqb "0"%char) a1 ->
  exists z s, sa = z ++ s /\ Forall (fun c => ceqb "0"%char c = true) z /\ a2 = s ++ ra /\
    (forall x s', s = x :: s' -> x <> "0"%char).
Proof.
  intros -> HF Hr ->. induction HF as [|c sa Hc HF IH].
  - exists [], []. repeat split; auto; [|discriminate]. simpl.
    destruct ra as [|x ra]; [reflexivity|]. simpl. 
    destruct (ceqb_spec "0"%char x); [|reflexivity]. subst.
    specialize (Hr _ _ eq_refl). discriminate.
  - cbn [app dropw]. destruct (ceqb "0"%char c) eqn:E.
    + destruct IH as (z & s & -> & Hz & H2 & H3). exists (c :: z), s. repeat split; auto.
    + exists [], (c :: sa). repeat split; auto. intros x s' [= <- <-] ->. discriminate.
Qed.

Lemma segments_app_num w r : w <> [] -> Forall (fun c => is_digit c = true) w ->
  (forall x b', r = x :: b' -> is_digit x = false) ->
  segments (w ++ r) = Num (decimal w) :: segments r.
Proof.
  intros Hne HF Hr. unfold segments. rewrite (runs_app KDigit); auto.
  - eapply Forall_impl; [|exact HF]. intros c. apply kind_digit.
  - intros x b' E. rewrite kind_digit. rewrite (Hr _ _ E). discriminate.
Qed.

Lemma segments_app_word w r : w <> [] -> Forall (fun c => is_alpha c = true) w ->
  (forall x b', r = x :: b' -> is_alpha x = false) ->
  segments (w ++ r) = Word w :: segments r.
Proof.
  intros Hne HF Hr. unfold segments. rewrite (runs_app KLetter); auto.
  - eapply Forall_impl; [|exact HF]. intros c. apply kind_letter.
  - intros x b' E. rewrite kind_letter. rewrite (Hr _ _ E). discriminate.
Qed.

Lemma ends_in_sep_seg w r : Forall (fun c => is_alnum c = true) w -> ends_in_sep (w ++ r) = ends_in_sep r.
Proof.
  intros HF. destruct r as [|x r].
  - rewrite app_nil_r. now apply ends_in_sep_none.
  - apply ends_in_sep_app. discriminate.
Qed.

Lemma version_cmp_final a b : a = [] \/ b = [] -> sign (version_cmp a b) = rpm_final a b.
Proof.
  assert (G : forall x l, segments (x :: l) = [] -> ends_in_sep (x :: l) = true).
  { intros x l H. apply ends_in_sep_all; [discriminate|]. apply dropped_all.
    apply segments_nil_iff. now rewrite segments_drop_sep. }
  unfold version_cmp. intros [-> | ->].
  - destruct b as [|x b]; [reflexivity|]. change (segments []) with (@nil seg).
    destruct (segments (x :: b)) eqn:E; [|reflexivity]. rewrite (G _ _ E). reflexivity.
  - destruct a as [|x a]; [reflexivity|]. change (segments []) with (@nil seg).
    destruct (segments (x :: a)) eqn:E; [|reflexivity]. rewrite (G _ _ E). reflexivity.
Qed.

Lemma sign_compare m n : sign (Nat.compare m n) = if m =? n then 0%Z else if n <? m then 1%Z else (-1)%Z.
Proof.
  destruct (Nat.compare_spec m n).
  - subst. now rewrite Nat.eqb_refl.
  - destruct (Nat.eqb_spec m n); [lia|]. destruct (Nat.ltb_spec n m); [lia|]. reflexivity.
  - destruct (Nat.eqb_spec m n); [lia|]. apply Nat.ltb_lt in H. now rewrite H.
Qed.

Lemma sign_norm c : (if (sign c <? 1)%Z then (-1)%Z else 1%Z) = sign c \/ c = Eq.
Proof. destruct c; auto. Qed.

Lemma Forall_imp_alnum_d w : Forall (fun c => is_digit c = true) w -> Forall (fun c => is_alnum c = true) w.
Proof. intros H. eapply Forall_impl; [|exact H]. intros c Hc. unfold is_alnum. rewrite Hc. apply orb_true_r. Qed.
Lemma Forall_imp_alnum_a w : Forall (fun c => is_alpha c = true) w -> Forall (fun c => is_alnum c = true) w.
Proof. intros H. eapply Forall_impl; [|exact H]. intros c Hc. unfold is_alnum. now rewrite Hc. Qed.

Lemma bytes_cmp_sign_loop sa sb n : n = Nat.min (length sa) (length sb) ->
  forall ra rb (k : option Z),
  (let rc := memcmp_sign n (sa ++ ra) (sb ++ rb) in
   if (rc =? 0)%Z then
     if length sa =? length sb then k
     else Some (if length sb <? length sa then 1%Z else (-1)%Z)
   else Some (if (rc <? 1)%Z then (-1)%Z else 1%Z)) =
  match bytes_cmp sa sb with Eq => k | c => Some (sign c) end.
Proof.
  intros -> ra rb k. cbv zeta. rewrite memcmp_bytes_cmp by (rewrite app_length; lia).
  rewrite !firstn_app.
  replace (Nat.min (length sa) (length sb) - length sa) with 0 by lia.
  replace (Nat.min (length sa) (length sb) - length sb) with 0 by lia.
  rewrite !firstn_O, !app_nil_r.
  rewrite (bytes_cmp_prefix sa sb _ eq_refl).
  destruct (bytes_cmp (firstn _ sa) (firstn _ sb)); try reflexivity.
  cbn [sign]. change (0 =? 0)%Z with true. cbv iota.
  pose proof (sign_compare (length sa) (length sb)) as H.
  destruct (Nat.compare_spec (length sa) (length sb)).
  - apply Nat.eqb_eq in H0. now rewrite H0.
  - destruct (Nat.eqb_spec (length sa) (length sb)); [lia|]. now rewrite <- H.
  - destruct (Nat.eqb_spec (length sa) (length sb)); [lia|]. now rewrite <- H.
Qed.

Lemma bytes_cmp_eq a b : bytes_cmp a b = Eq -> a = b.
Proof.
  revert b. induction a as [|x a IH]; intros [|y b]; simpl; try discriminate; [reflexivity|].
  destruct (Nat.compare_spec (cval x) (cval y)) as [E|E|E]; try discriminate.
  intros H. f_equal; [|now apply IH].
  rewrite <- (ascii_nat_embedding x), <- (ascii_nat_embedding y). unfold cval in E. now rewrite E.
Qed.

Lemma version_cmp_step sa sb ra rb x y a b :
  segments a = x :: segments ra -> segments b = y :: segments rb ->
  ends_in_sep a = ends_in_sep ra -> ends_in_sep b = ends_in_sep rb ->
  sa = seg_cmp x y -> sb = version_cmp ra rb ->
  version_cmp a b = match sa with Eq => sb | c => c end.
Proof.
  intros Ha Hb Hea Heb -> ->. unfold version_cmp at 1. rewrite Ha, Hb. cbn [segs_cmp].
  destruct (seg_cmp x y); try reflexivity. unfold version_cmp. rewrite Hea, Heb. reflexivity.
Qed.

Lemma rpm_loop_spec fuel : forall a b, length a < fuel -> rpm_loop fuel a b = Some (sign (version_cmp a b)).
Proof.
  induction fuel as [|fuel IH]; intros a b Hf; [lia|].
  destruct a as [|xa a0] eqn:Ea.
  { cbn [rpm_loop]. rewrite version_cmp_final by now left. destruct b; reflexivity. }
  destruct b as [|xb b0] eqn:Eb.
  { cbn [rpm_loop]. now rewrite version_cmp_final by now right. }
  cbn [rpm_loop]. rewrite <- Ea, <- Eb in *.
  assert (Hane : a <> []) by (subst; discriminate). assert (Hbne : b <> []) by (subst; discriminate).
  clear Ea Eb xa a0 xb b0.
  set (a1 := dropw (fun c => negb (is_alnum c)) a) in *.
  set (b1 := dropw (fun c => negb (is_alnum c)) b) in *.
  assert (Sa : segments a1 = segments a) by apply segments_drop_sep.
  assert (Sb : segments b1 = segments b) by apply segments_drop_sep.
  assert (Na : segments a1 = [] <-> a1 = []) by apply segments_nil_iff.
  assert (Nb : segments b1 = [] <-> b1 = []) by apply segments_nil_iff.
  assert (Ta : a1 = [] -> ends_in_sep a = true).
  { intros H. apply ends_in_sep_all; [assumption|]. now apply dropped_all. }
  assert (Tb : b1 = [] -> ends_in_sep b = true).
  { intros H. apply ends_in_sep_all; [assumption|]. now apply dropped_all. }
  assert (Da : a1 <> [] -> ends_in_sep a1 = ends_in_sep a) by apply ends_in_sep_drop.
  assert (Db : b1 <> [] -> ends_in_sep b1 = ends_in_sep b) by apply ends_in_sep_drop.
  assert (La : length a1 <= length a) by apply dropw_length.
  assert (Ha1 : forall x l, a1 = x :: l -> is_alnum x = true).
  { intros x l E. destruct (dropw_spec (fun c => negb (is_alnum c)) a) as (? & _ & _ & H).
    specialize (H x l E). now apply negb_false_iff in H. }
  assert (Hb1 : forall x l, b1 = x :: l -> is_alnum x = true).
  { intros x l E. destruct (dropw_spec (fun c => negb (is_alnum c)) b) as (? & _ & _ & H).
    specialize (H x l E). now apply negb_false_iff in H. }
  clearbody a1 b1.
  destruct a1 as [|ca a1'] eqn:Ea1.
  { destruct b1 as [|cb b1'] eqn:Eb1.
    - unfold version_cmp. rewrite <- Sa, <- Sb, Ta, Tb by reflexivity. reflexivity.
    - unfold version_cmp. rewrite <- Sa, <- Sb. change (segments []) with (@nil seg).
      destruct (segments (cb :: b1')) eqn:E; [|reflexivity].
      exfalso. destruct Nb as [Nb _]. specialize (Nb eq_refl). discriminate. }
  destruct b1 as [|cb b1'] eqn:Eb1.
  { unfold version_cmp. rewrite <- Sa, <- Sb. change (segments []) with (@nil seg).
    destruct (segments (ca :: a1')) eqn:E; [|reflexivity].
    exfalso. destruct Na as [Na _]. specialize (Na eq_refl). discriminate. }
  specialize (Ha1 _ _ eq_refl). specialize (Hb1 _ _ eq_refl).
  specialize (Da ltac:(discriminate)). specialize (Db ltac:(discriminate)).
  rewrite <- Ea1, <- Eb1 in *.
  destruct (is_digit ca) eqn:Dca.
  - (* numeric *)
    destruct (span is_digit a1) as [sa ra] eqn:Spa. destruct (span is_digit b1) as [sb rb] eqn:Spb.
    destruct (span_spec _ _ _ _ Spa) as (E1 & F1 & R1). destruct (span_spec _ _ _ _ Spb) as (E2 & F2 & R2).
    assert (Hsa : sa <> []) by (rewrite Ea1 in Spa; now apply span_head in Spa).
    pose proof Hsa as Hsa'. apply beqb_neq in Hsa'. rewrite Hsa'. clear Hsa'.
    destruct (beqb_spec sb []) as [Esb|Hsb].
    { (* b's segment is a word *)
      subst sb. simpl in E2.
      assert (Dcb : is_digit cb = false) by (apply (R2 cb b1'); congruence).
      assert (Acb : is_alpha cb = true) by (unfold is_alnum in Hb1; rewrite Dcb, orb_false_r in Hb1; exact Hb1).
      destruct (span is_alpha b1) as [wb rb'] eqn:Spw. destruct (span_spec _ _ _ _ Spw) as (E3 & F3 & R3).
      assert (Hw : wb <> []) by (rewrite Eb1 in Spw; now apply span_head in Spw).
      unfold version_cmp. rewrite <- Sa, <- Sb, E1, E3.
      rewrite segments_app_num, segments_app_word by assumption. reflexivity. }
    cbv beta iota zeta. cbn [andb].
    destruct (zeros_in_segment sa ra a1 _ E1 F1 R1 eq_refl) as (za & s1 & Z1 & Z2 & Z3 & Z4).
    destruct (zeros_in_segment sb rb b1 _ E2 F2 R2 eq_refl) as (zb & s2 & Y1 & Y2 & Y3 & Y4).
    replace (length sa - (length a1 - length (dropw (ceqb "0"%char) a1))) with (length s1).
    2:{ rewrite Z3, E1, Z1, !app_length. lia. }
    replace (length sb - (length b1 - length (dropw (ceqb "0"%char) b1))) with (length s2).
    2:{ rewrite Y3, E2, Y1, !app_length. lia. }
    rewrite Z3, Y3.
    assert (Fs1 : Forall (fun c => is_digit c = true) s1) by (subst sa; now apply Forall_app in F1).
    assert (Fs2 : Forall (fun c => is_digit c = true) s2) by (subst sb; now apply Forall_app in F2).
    assert (V1 : decimal sa = decimal s1) by (rewrite Z1; now apply decimal_zeros).
    assert (V2 : decimal sb = decimal s2) by (rewrite Y1; now apply decimal_zeros).
    rewrite (version_cmp_step (N.compare (decimal s1) (decimal s2)) (version_cmp ra rb)
       ra rb (Num (decimal sa)) (Num (decimal sb)) a b).
    2:{ rewrite <- Sa, E1. now apply segments_app_num. }
    2:{ rewrite <- Sb, E2. now apply segments_app_num. }
    2:{ rewrite <- Da, E1. apply ends_in_sep_seg. now apply Forall_imp_alnum_d. }
    2:{ rewrite <- Db, E2. apply ends_in_sep_seg. now apply Forall_imp_alnum_d. }
    2:{ simpl. now rewrite V1, V2. }
    2:{ reflexivity. }
    destruct (Nat.ltb_spec (length s2) (length s1)) as [L|L].
    { pose proof (decimal_longer s1 s2 Fs1 Fs2 Z4 L) as H. apply N.compare_gt_iff in H. now rewrite H. }
    destruct (Nat.ltb_spec (length s1) (length s2)) as [L2|L2].
    { pose proof (decimal_longer s2 s1 Fs2 Fs1 Y4 L2) as H. apply N.compare_lt_iff in H. now rewrite H. }
    pose proof (bytes_cmp_sign_loop s1 s2 _ eq_refl ra rb (rpm_loop fuel ra rb)) as HL.
    cbv zeta in HL. destruct (Nat.ltb_spec (length s2) (length s1)); [lia|].
    rewrite HL.
    rewrite decimal_same_length by (auto; lia).
    destruct (bytes_cmp s1 s2); try reflexivity. apply IH.
    assert (length a1 = length sa + length ra) by (rewrite E1, app_length; lia).
    destruct sa; [congruence|]. simpl in H0. lia.
  - (* word *)
    assert (Aca : is_alpha ca = true) by (unfold is_alnum in Ha1; rewrite Dca, orb_false_r in Ha1; exact Ha1).
    destruct (span is_alpha a1) as [sa ra] eqn:Spa. destruct (span is_alpha b1) as [sb rb] eqn:Spb.
    destruct (span_spec _ _ _ _ Spa) as (E1 & F1 & R1). destruct (span_spec _ _ _ _ Spb) as (E2 & F2 & R2).
    assert (Hsa : sa <> []) by (rewrite Ea1 in Spa; now apply span_head in Spa).
    pose proof Hsa as Hsa'. apply beqb_neq in Hsa'. rewrite Hsa'. clear Hsa'.
    destruct (beqb_spec sb []) as [Esb|Hsb].
    { subst sb. simpl in E2.
      assert (Acb : is_alpha cb = false) by (apply (R2 cb b1'); congruence).
      assert (Dcb : is_digit cb = true) by (unfold is_alnum in Hb1; rewrite Acb in Hb1; exact Hb1).
      destruct (span is_digit b1) as [wb rb'] eqn:Spw. destruct (span_spec _ _ _ _ Spw) as (E3 & F3 & R3).
      assert (Hw : wb <> []) by (rewrite Eb1 in Spw; now apply span_head in Spw).
      unfold version_cmp. rewrite <- Sa, <- Sb, E1, E3.
      rewrite (segments_app_word sa ra), (segments_app_num wb rb') by assumption. reflexivity. }
    cbv beta iota zeta. cbn [andb].
    rewrite !Nat.sub_diag, !Nat.sub_0_r.
    rewrite (version_cmp_step (bytes_cmp sa sb) (version_cmp ra rb) ra rb (Word sa) (Word sb) a b).
    2:{ rewrite <- Sa, E1. now apply segments_app_word. }
    2:{ rewrite <- Sb, E2. now apply segments_app_word. }
    2:{ rewrite <- Da, E1. apply ends_in_sep_seg. now apply Forall_imp_alnum_a. }
    2:{ rewrite <- Db, E2. apply ends_in_sep_seg. now apply Forall_imp_alnum_a. }
    2:{ reflexivity. }
    2:{ reflexivity. }
    pose proof (bytes_cmp_sign_loop sa sb _ eq_refl ra rb (rpm_loop fuel ra rb)) as HL.
    cbv zeta in HL. rewrite E1, E2, HL.
    destruct (bytes_cmp sa sb); try reflexivity. apply IH.
    assert (length a1 = length sa + length ra) by (rewrite E1, app_length; lia).
    destruct sa; [congruence|]. simpl in H. lia.
Qed.

(** ** order laws of the specification *)
Lemma bytes_cmp_refl a : bytes_cmp a a = Eq.
Proof. induction a; simpl; [reflexivity|]. now rewrite Nat.compare_refl. Qed.

Lemma seg_cmp_refl x : seg_cmp x x = Eq.
Proof. destruct x; simpl; [apply N.compare_refl|apply bytes_cmp_refl]. Qed.

Lemma segs_cmp_refl l : segs_cmp l l = Eq.
Proof. induction l; simpl; [reflexivity|]. now rewrite seg_cmp_refl. Qed.

Lemma version_cmp_refl a : version_cmp a a = Eq.
Proof. unfold version_cmp. rewrite segs_cmp_refl. now destruct (ends_in_sep a). Qed.

Lemma bytes_cmp_anti a : forall b, bytes_cmp b a = CompOpp (bytes_cmp a b).
Proof.
  induction a as [|x a IH]; intros [|y b]; try reflexivity. simpl.
  rewrite (Nat.compare_antisym (cval x) (cval y)).
  destruct (Nat.compare (cval x) (cval y)); simpl; auto.
Qed.
Lemma seg_cmp_anti x y : seg_cmp y x = CompOpp (seg_cmp x y).
Proof. destruct x, y; simpl; try reflexivity; [apply N.compare_antisym|apply bytes_cmp_anti]. Qed.
Lemma segs_cmp_anti a : forall b, segs_cmp b a = CompOpp (segs_cmp a b).
Proof.
  induction a as [|x a IH]; intros [|y b]; try reflexivity. simpl.
  rewrite (seg_cmp_anti x y). destruct (seg_cmp x y); simpl; auto.
Qed.
Lemma version_cmp_anti a b : version_cmp b a = CompOpp (version_cmp a b).
Proof.
  unfold version_cmp. rewrite (segs_cmp_anti (segments a)).
  destruct (segs_cmp (segments a) (segments b)); simpl; try reflexivity.
  destruct (ends_in_sep a), (ends_in_sep b); reflexivity.
Qed.

(** transitivity: generic in the three-way comparison *)
Definition le3 (c : comparison) : Prop := c <> Gt.

Definition trans3 {A} (cmp : A -> A -> comparison) : Prop :=
  forall x y z, le3 (cmp x y) -> le3 (cmp y z) ->
    le3 (cmp x z) /\ (cmp x z = Eq -> cmp x y = Eq /\ cmp y z = Eq).

Lemma nat_trans3 : trans3 Nat.compare.
Proof.
  intros x y z. unfold le3. rewrite !Nat.compare_gt_iff, !Nat.compare_eq_iff. lia.
Qed.
Lemma N_trans3 : trans3 N.compare.
Proof.
  intros x y z. unfold le3. rewrite !N.compare_gt_iff, !N.compare_eq_iff. lia.
Qed.

(** lexicographic composition *)
Definition lex3 (c d : comparison) : comparison := match c with Eq => d | _ => c end.

Lemma lex3_trans c12 c23 c13 d12 d23 d13 :
  (le3 c12 -> le3 c23 -> le3 c13 /\ (c13 = Eq -> c12 = Eq /\ c23 = Eq)) ->
  (c12 = Eq -> c23 = Eq -> c13 = Eq) ->
  (c12 = Eq -> c23 = Eq -> le3 d12 -> le3 d23 -> le3 d13 /\ (d13 = Eq -> d12 = Eq /\ d23 = Eq)) ->
  le3 (lex3 c12 d12) -> le3 (lex3 c23 d23) ->
  le3 (lex3 c13 d13) /\ (lex3 c13 d13 = Eq -> lex3 c12 d12 = Eq /\ lex3 c23 d23 = Eq).
Proof.
  unfold le3, lex3. intros Hc He Hd H1 H2.
  assert (L12 : c12 <> Gt) by (destruct c12; congruence).
  assert (L23 : c23 <> Gt) by (destruct c23; congruence).
  destruct (Hc L12 L23) as [H3 H4].
  destruct c13; [| |congruence].
  - destruct (H4 eq_refl) as [-> ->]. apply Hd; auto.
  - split; [discriminate|]. discriminate.
Qed.

Lemma eq_trans3 {A} (cmp : A -> A -> comparison) : trans3 cmp ->
  (forall x y, cmp y x = CompOpp (cmp x y)) ->
  forall x y z, cmp x y = Eq -> cmp y z = Eq -> cmp x z = Eq.
Proof.
  intros T An x y z H1 H2.
  destruct (T x y z) as [L _]; [rewrite H1; discriminate|rewrite H2; discriminate|].
  destruct (T z y x) as [L2 _].
  - rewrite (An y z), H2. discriminate.
  - rewrite (An x y), H1. discriminate.
  - unfold le3 in *. rewrite (An x z) in L2. destruct (cmp x z); simpl in *; congruence.
Qed.

Lemma list_trans3 {A} (cmp : A -> A -> comparison) (lc : list A -> list A -> comparison) :
  trans3 cmp -> (forall x y, cmp y x = CompOpp (cmp x y)) ->
  (forall a b, lc a b = match a, b with [], [] => Eq | [], _ => Lt | _, [] => Gt
                        | x :: a', y :: b' => lex3 (cmp x y) (lc a' b') end) ->
  trans3 lc.
Proof.
  intros T An Elc a. induction a as [|x a IH]; intros b c.
  - rewrite !(Elc []). intros H1 H2. destruct c as [|z c].
    + destruct b; [rewrite Elc; split; [discriminate|]; auto|]. rewrite Elc in H2. exfalso. now apply H2.
    + split; discriminate.
  - destruct b as [|y b]; [rewrite Elc; intros H; exfalso; now apply H|].
    destruct c as [|z c]; [rewrite (Elc (y :: b)); intros _ H; exfalso; now apply H|].
    rewrite !(Elc (x :: a)), !(Elc (y :: b)).
    apply lex3_trans.
    + apply T.
    + apply eq_trans3; assumption.
    + intros _ _. apply IH.
Qed.

Lemma bytes_cmp_trans3 : trans3 bytes_cmp.
Proof.
  apply (list_trans3 (fun x y => Nat.compare (cval x) (cval y))).
  - intros x y z. apply nat_trans3.
  - intros. apply Nat.compare_antisym.
  - intros [|x a] [|y b]; try reflexivity. simpl. now destruct (Nat.compare (cval x) (cval y)).
Qed.

Lemma seg_cmp_trans3 : trans3 seg_cmp.
Proof.
  intros [m|v] [n|w] [k|u]; simpl; unfold le3; try (split; congruence); try congruence.
  - apply N_trans3.
  - apply bytes_cmp_trans3.
Qed.

Lemma segs_cmp_trans3 : trans3 segs_cmp.
Proof.
  apply (list_trans3 seg_cmp); [apply seg_cmp_trans3|apply seg_cmp_anti|].
  intros [|x a] [|y b]; try reflexivity. simpl. now destruct (seg_cmp x y).
Qed.

Definition flag_cmp (a b : bool) : comparison :=
  match a, b with true, false => Gt | false, true => Lt | _, _ => Eq end.

Lemma version_cmp_trans3 : trans3 version_cmp.
Proof.
  intros a b c. 
  assert (E : forall x y, version_cmp x y =
      lex3 (segs_cmp (segments x) (segments y)) (flag_cmp (ends_in_sep x) (ends_in_sep y))).
  { intros. unfold version_cmp, lex3. now destruct (segs_cmp _ _). }
  rewrite !E. apply lex3_trans.
  - apply segs_cmp_trans3.
  - apply eq_trans3; [apply segs_cmp_trans3|apply segs_cmp_anti].
  - intros _ _. destruct (ends_in_sep a), (ends_in_sep b), (ends_in_sep c); unfold le3; simpl; split; congruence || auto.
Qed.

Lemma rpmvercmp_spec a b : rpmvercmp a b = Some (sign (version_cmp a b)).
Proof.
  unfold rpmvercmp. destruct (beqb_spec a b) as [->|_].
  - now rewrite version_cmp_refl.
  - apply rpm_loop_spec. lia.
Qed.

Lemma sign_eq c : (sign c =? 0)%Z = true <-> c = Eq.
Proof. destruct c; simpl; split; congruence. Qed.

Lemma version_check_spec ver req : exists r,
  version_check ver req = Some r /\ (r = true <-> requirement_holds ver req).
Proof.
  unfold version_check. destruct (split_op ver_ops req) as [op v2] eqn:E.
  rewrite rpmvercmp_spec. eexists. split; [reflexivity|].
  assert (H : (op_holds op (sign (version_cmp ver v2)) = true <->
    match op with
    | op_ge => version_cmp ver v2 <> Lt | op_gt => version_cmp ver v2 = Gt
    | op_eq => version_cmp ver v2 = Eq | op_ne => version_cmp ver v2 <> Eq
    | op_le => version_cmp ver v2 <> Gt | op_lt => version_cmp ver v2 = Lt end)).
  { destruct op, (version_cmp ver v2); cbv; split; congruence || auto. }
  rewrite H. clear H. revert E. unfold split_op, ver_ops.
  destruct req as [|[b0 b1 b2 b3 b4 b5 b6 b7] req].
  { cbn. intros [= <- <-]. reflexivity. }
  destruct req as [|[c0 c1 c2 c3 c4 c5 c6 c7] req].
  { destruct b0, b1, b2, b3, b4, b5, b6, b7; cbn; intros [= <- <-]; reflexivity. }
  destruct b0, b1, b2, b3, b4, b5, b6, b7; try (cbn; intros [= <- <-]; reflexivity);
  destruct c0, c1, c2, c3, c4, c5, c6, c7; cbn; intros [= <- <-]; reflexivity.
Qed.

Lemma version_compare_from_spec ver reqs : forall res, exists r,
  version_compare_from res ver reqs = Some r /\
  (r = true <-> match reqs with [] => res = true | _ => Forall (requirement_holds ver) reqs end).
Proof.
  induction reqs as [|q reqs IH]; intros res; simpl.
  - eauto. exists res. tauto.
  - destruct (version_check_spec ver q) as (r & -> & H). destruct r.
    + destruct (IH true) as (r & -> & Hr). exists r. split; [reflexivity|]. rewrite Hr.
      destruct reqs; split; auto.
      * intros _. constructor; [now apply H|constructor].
      * intros HF. constructor; [now apply H|assumption].
      * intros HF. now inversion HF.
    + exists false. split; [reflexivity|]. split; [discriminate|].
      intros HF. inversion HF; subst. now apply H.
Qed.
