From Verif Require Import Base M_Format S_Format.
Local Arguments B _ : simpl never.

Definition AT : ascii := "@"%char.
Definition esc_here (c : ascii) (r : bytes) : bool := ceqb c BSLASH && (match r with x :: _ => ceqb x AT | [] => false end).

(** [k] can be read, before [rest], without meeting '@' or an escape *)
Fixpoint plain_run (k rest : bytes) : Prop :=
  match k with [] => True | c :: k' => c <> AT /\ esc_here c (k' ++ rest) = false /\ plain_run k' rest end.

Lemma scan_key_spec s : forall key,
  match scan_key s key with
  | Closed key' rest => exists k, key' = key ++ k /\ s = k ++ AT :: rest /\ plain_run k (AT :: rest)
  | Escaped => exists k rest, s = k ++ BSLASH :: AT :: rest /\ plain_run k (BSLASH :: AT :: rest)
  | Open => plain_run s []
  end.
Proof.
  induction s as [|c r IH]; intros key; cbn [scan_key]; [exact I|]. fold AT.
  destruct (ceqb_spec c AT) as [->|Hc].
  - exists []. rewrite app_nil_r. simpl. auto.
  - change (ceqb c BSLASH && match r with [] => false | x :: _ => ceqb x AT end) with (esc_here c r).
    destruct (esc_here c r) eqn:E.
    + unfold esc_here in E. apply andb_true_iff in E as [E1 E2]. apply ceqb_eq in E1. subst c.
      destruct r as [|x r]; [discriminate|]. apply ceqb_eq in E2. subst x. exists [], r. simpl. auto.
    + specialize (IH (key ++ [c])). destruct (scan_key r (key ++ [c])) as [key' rest| |].
      * destruct IH as (k & -> & -> & P). exists (c :: k). rewrite <- app_assoc. simpl. auto.
      * destruct IH as (k & rest & -> & P). exists (c :: k), rest. simpl. auto.
      * simpl. rewrite app_nil_r. auto.
Qed.

Section F.
Variable cb : bytes -> cb_result.
Notation loop := (fmt_loop cb).

Lemma nth_app_here (p : bytes) c r : nth (length p) (p ++ c :: r) NUL = c.
Proof. rewrite app_nth2 by lia. now rewrite Nat.sub_diag. Qed.
Lemma nth_app_next (p : bytes) c r : nth (length p + 1) (p ++ c :: r) NUL = match r with x :: _ => x | [] => NUL end.
Proof. rewrite app_nth2 by lia. replace (length p + 1 - length p) with 1 by lia. destruct r; reflexivity. Qed.
Lemma slice_mid (a b c : bytes) : slice (a ++ b ++ c) (length a) (length a + length b) = b.
Proof.
  unfold slice. rewrite skipn_app, Nat.sub_diag, skipn_all, skipn_O. simpl app.
  replace (length a + length b - length a) with (length b) by lia.
  rewrite firstn_app, Nat.sub_diag, firstn_O, app_nil_r. apply firstn_all.
Qed.
Lemma esc_test (p : bytes) c r : ceqb (nth (length p) (p ++ c :: r) NUL) BSLASH && ceqb (nth (length p + 1) (p ++ c :: r) NUL) AT = esc_here c r.
Proof. rewrite nth_app_here, nth_app_next. unfold esc_here. destruct r; [|reflexivity]. reflexivity. Qed.

Lemma advance k : forall p rest f ids ide rd res, plain_run k rest ->
  loop (length k + f) (p ++ k ++ rest) (length p) ids ide rd res = loop f (p ++ k ++ rest) (length p + length k) ids ide rd res.
Proof.
  induction k as [|c k IH]; intros p rest f ids ide rd res P.
  - simpl. now rewrite Nat.add_0_r.
  - destruct P as (P1 & P2 & P3). cbn [length Nat.add fmt_loop]. fold AT.
    destruct (Nat.leb_spec (length (p ++ (c :: k) ++ rest)) (length p)) as [L|L]; [rewrite !app_length in L; simpl in L; lia|].
    cbn [app]. rewrite esc_test, P2, nth_app_here. apply ceqb_neq in P1. rewrite P1.
    specialize (IH (p ++ [c]) rest f ids ide rd res P3). rewrite <- app_assoc in IH. cbn [app] in IH.
    rewrite app_length in IH. cbn [length] in IH. rewrite IH. f_equal. lia.
Qed.

Definition out (pre : bytes) (r : option bytes) : fmt_result := match r with Some o => FOk (pre ++ o) | None => FErr end.
Lemma out_map pre x r : out pre (option_map (app x) r) = out (pre ++ x) r.
Proof. destruct r; simpl; [now rewrite app_assoc|reflexivity]. Qed.
Lemma out_cons pre c r : out pre (option_map (cons c) r) = out (pre ++ [c]) r.
Proof. destruct r; simpl; [now rewrite <- app_assoc|reflexivity]. Qed.

Definition stops (s : bytes) (i ids ide : nat) (rd : bool) (res : bytes) (r : fmt_result) : Prop :=
  exists F, forall f, F <= f -> loop f s i ids ide rd res = r.
Lemma stops_step s i ids ide rd res r i' ids' ide' rd' res' n :
  (forall f, loop (n + f) s i ids ide rd res = loop f s i' ids' ide' rd' res') ->
  stops s i' ids' ide' rd' res' r -> stops s i ids ide rd res r.
Proof. intros H [F HF]. exists (n + F). intros f L. replace f with (n + (f - n)) by lia. rewrite H. apply HF. lia. Qed.

(** an unterminated tail without '@' is copied *)
Lemma spec_plain_tail k : plain_run k [] -> forall n, length k < n -> fmt_spec cb n k = Some k.
Proof.
  induction k as [|c k IH]; intros P n Hn; (destruct n as [|n]; [lia|]); cbn [fmt_spec]; [reflexivity|].
  destruct P as (P1 & P2 & P3). rewrite app_nil_r in P2. fold AT.
  change (ceqb c BSLASH && match k with [] => false | x :: _ => ceqb x AT end) with (esc_here c k).
  rewrite P2. apply ceqb_neq in P1. rewrite P1. simpl in Hn. rewrite IH by (auto; lia). reflexivity.
Qed.


(** the two states of the loop: copying text, and reading a key behind an '@' *)
Definition P_copy n := forall rest p txt ids res, length rest < n -> fmt_clean cb n rest = true ->
  stops (p ++ txt ++ rest) (length p + length txt) ids (length p) false res (out (res ++ txt) (fmt_spec cb n rest)).
Definition P_read n := forall r q0 ide res, length (AT :: r) < n -> fmt_clean cb n (AT :: r) = true ->
  stops ((q0 ++ [AT]) ++ r) (length (q0 ++ [AT])) (length (q0 ++ [AT])) ide true res (out res (fmt_spec cb n (AT :: r))).

Lemma esc_at r : esc_here AT r = false. Proof. reflexivity. Qed.

Lemma read_step n : P_copy n -> P_read n -> P_read (S n).
Proof.
  intros IHc IHr r q0 ide res Hn Hc. remember (q0 ++ [AT]) as q eqn:Eq.
  cbn [fmt_spec]. cbn [fmt_clean] in Hc. fold AT. fold AT in Hc. simpl in Hn.
  change (ceqb AT BSLASH && match r with [] => false | x :: _ => ceqb x AT end) with (esc_here AT r) in *.
  rewrite esc_at in *. rewrite ceqb_refl in *.
  pose proof (scan_key_spec r []) as Hk.
  assert (Again : fmt_clean cb n r = true -> forall ids,
    stops (q ++ r) (length q) ids (length q) false (res ++ [AT]) (out res (option_map (cons AT) (fmt_spec cb n r)))).
  { intros Hc' ids. pose proof (IHc r q [] ids (res ++ [AT]) ltac:(lia) Hc') as H. cbn [app length] in H.
    rewrite Nat.add_0_r, app_nil_r in H. rewrite out_cons. exact H. }
  destruct (scan_key r []) as [key rest| |] eqn:Esc.
  - destruct Hk as (k & Ek & Er & Pk). cbn [app] in Ek. subst key.
    assert (Ln : (length (q ++ r) <=? length q + length k) = false) by (apply Nat.leb_gt; rewrite Er, !app_length; simpl; lia).
    assert (En : nth (length q + length k) (q ++ r) NUL = AT).
    { rewrite Er, app_assoc, <- app_length. apply nth_app_here. }
    destruct k as [|k0 k'].
    + (* "@@" *)
      cbn [app] in Er. rewrite Er in Hc |- *.
      apply stops_step with (n := 1) (i' := length (q ++ [AT])) (ids' := length (q ++ [AT])) (ide' := length (q ++ [AT]))
        (rd' := true) (res' := res ++ [AT]).
      { intros f. cbn [length] in Ln, En. rewrite Nat.add_0_r, Er in Ln, En.
        rewrite (app_length q [AT]). cbn [length Nat.add fmt_loop]. fold AT. rewrite Ln, En, ceqb_refl, Nat.eqb_refl. reflexivity. }
      rewrite out_cons. replace (q ++ AT :: rest) with ((q ++ [AT]) ++ rest) by (rewrite <- app_assoc; reflexivity).
      apply IHr; [subst r; simpl in *; lia|exact Hc].
    + cbv beta iota in Hc |- *. set (key := k0 :: k') in *.
      assert (Hkne : length key <> 0) by (simpl; lia).
      apply stops_step with (n := length key) (i' := length q + length key) (ids' := length q) (ide' := ide) (rd' := true) (res' := res).
      { intros f. rewrite Er. apply advance. exact Pk. }
      assert (Esl : slice (q ++ r) (length q) (length q + length key) = key) by (rewrite Er; apply slice_mid).
      assert (Ei : (length q + length key =? length q) = false) by (apply Nat.eqb_neq; lia).
      destruct (cb key) as [t| | |] eqn:Ecb.
      * apply stops_step with (n := 1) (i' := length q + length key + 1) (ids' := length q) (ide' := length q + length key + 1)
          (rd' := false) (res' := res ++ t).
        { intros f. cbn [Nat.add fmt_loop]. fold AT. rewrite Ln, En, ceqb_refl, Ei, Esl, Ecb. reflexivity. }
        pose proof (IHc rest (q ++ key ++ [AT]) [] (length q) (res ++ t)) as H.
        rewrite !app_length in H. cbn [length] in H. rewrite Nat.add_0_r, app_nil_r in H.
        replace ((q ++ key ++ [AT]) ++ [] ++ rest) with (q ++ r) in H by (rewrite Er, <- !app_assoc; reflexivity).
        rewrite Nat.add_assoc in H. rewrite out_map. apply H; [|exact Hc]. subst r. rewrite app_length in Hn. simpl in Hn. lia.
      * exists 1. intros [|f] Hf; [lia|]. cbn [fmt_loop]. fold AT. rewrite Ln, En, ceqb_refl, Ei, Esl, Ecb. reflexivity.
      * exists 1. intros [|f] Hf; [lia|]. cbn [fmt_loop]. fold AT. rewrite Ln, En, ceqb_refl, Ei, Esl, Ecb. reflexivity.
      * apply stops_step with (n := 1) (i' := length q) (ids' := 0) (ide' := length q) (rd' := false) (res' := res ++ [AT]).
        { intros f. cbn [Nat.add fmt_loop]. fold AT. rewrite Ln, En, ceqb_refl, Ei, Esl, Ecb. reflexivity. }
        apply Again. exact Hc.
  - discriminate Hc.
  - (* never closed *)
    apply stops_step with (n := length r) (i' := length q + length r) (ids' := length q) (ide' := ide) (rd' := true) (res' := res).
    { intros f. pose proof (advance r q [] f (length q) ide true res Hk) as H. rewrite !app_nil_r in H. exact H. }
    exists 1. intros [|f] Hf; [lia|]. cbn [fmt_loop].
    destruct (Nat.leb_spec (length (q ++ r)) (length q + length r)) as [_|L]; [|rewrite app_length in L; lia].
    rewrite spec_plain_tail by (auto; lia). cbn [option_map out]. f_equal. f_equal.
    change (B "@") with [AT]. cbn [app]. f_equal. pose proof (slice_mid q r []) as H. rewrite app_nil_r in H. exact H.
Qed.

Lemma copy_step n : P_copy n -> P_read (S n) -> P_copy (S n).
Proof.
  intros IH IHr rest p txt ids res Hn Hc.
  destruct rest as [|c r].
  - exists 1. intros [|f] Hf; [lia|]. cbn [fmt_loop]. rewrite app_nil_r.
    destruct (Nat.leb_spec (length (p ++ txt)) (length p + length txt)) as [_|L]; [|rewrite app_length in L; lia].
    cbn [fmt_spec out]. rewrite app_nil_r. destruct (Nat.ltb_spec (length p) (length p + length txt)) as [L|L].
    + f_equal. f_equal. pose proof (slice_mid p txt []) as H. rewrite app_nil_r in H. exact H.
    + assert (txt = []) as -> by (destruct txt; [reflexivity|simpl in L; lia]). now rewrite app_nil_r.
  - remember (p ++ txt ++ c :: r) as s eqn:Es0.
    assert (Es : s = (p ++ txt) ++ c :: r) by (rewrite Es0; now rewrite app_assoc).
    assert (Li : length (p ++ txt) = length p + length txt) by apply app_length.
    assert (Ln : (length s <=? length p + length txt) = false) by (apply Nat.leb_gt; rewrite Es, app_length; simpl; lia).
    assert (Enth : nth (length p + length txt) s NUL = c) by (rewrite <- Li, Es; apply nth_app_here).
    assert (Eesc : ceqb (nth (length p + length txt) s NUL) BSLASH && ceqb (nth (length p + length txt + 1) s NUL) AT = esc_here c r)
      by (rewrite <- Li, Es; apply esc_test).
    assert (Esl : slice s (length p) (length p + length txt) = txt) by (rewrite Es0; apply slice_mid).
    destruct (ceqb_spec c AT) as [->|Hne].
    + (* '@' *)
      apply stops_step with (n := 1) (i' := length ((p ++ txt) ++ [AT])) (ids' := length ((p ++ txt) ++ [AT])) (ide' := length p)
           (rd' := true) (res' := res ++ txt).
      { intros f. rewrite app_length, Li. cbn [length Nat.add fmt_loop]. fold AT. rewrite Ln, Enth, ceqb_refl, Esl.
        destruct (Nat.eqb_spec (length p + length txt) 0) as [Z0|Z0]; [|reflexivity].
        assert (txt = []) as -> by (destruct txt; [reflexivity|simpl in Z0; lia]). now rewrite app_nil_r. }
      replace s with (((p ++ txt) ++ [AT]) ++ r) by (rewrite Es, <- !app_assoc; reflexivity).
      apply IHr; auto.
    + simpl in Hn. cbn [fmt_spec]. cbn [fmt_clean] in Hc. fold AT. fold AT in Hc.
      change (ceqb c BSLASH && match r with [] => false | x :: _ => ceqb x AT end) with (esc_here c r) in *.
      apply ceqb_neq in Hne. rewrite Hne in *.
      destruct (esc_here c r) eqn:E.
      * (* escaped '@' *)
        pose proof E as E0. unfold esc_here in E0. apply andb_true_iff in E0 as [E1 E2]. apply ceqb_eq in E1. revert Enth. subst c. intros Enth.
        destruct r as [|x r]; [discriminate|]. apply ceqb_eq in E2. subst x. cbn [tl] in *. simpl in Hn.
        apply stops_step with (n := 1) (i' := length p + length txt + 2) (ids' := length p + length txt + 1) (ide' := length p + length txt + 1)
           (rd' := false) (res' := res ++ txt).
        { intros f. cbn [Nat.add fmt_loop]. fold AT. rewrite Ln, Eesc, Enth, Hne. cbv zeta. rewrite Esl.
          destruct (Nat.eqb_spec (length p + length txt) 0) as [Z0|Z0]; [|reflexivity].
          assert (txt = []) as -> by (destruct txt; [reflexivity|simpl in Z0; lia]). now rewrite app_nil_r. }
        specialize (IH r (p ++ txt ++ [BSLASH]) [AT] (length p + length txt + 1) (res ++ txt) ltac:(lia) Hc).
        rewrite !app_length in IH. cbn [length] in IH.
        replace ((p ++ txt ++ [BSLASH]) ++ [AT] ++ r) with s in IH by (rewrite Es, <- !app_assoc; reflexivity).
        replace (length p + (length txt + 1) + 1) with (length p + length txt + 2) in IH by lia.
        replace (length p + (length txt + 1)) with (length p + length txt + 1) in IH by lia.
        change (option_map (cons "@"%char) (fmt_spec cb n r)) with (option_map (cons AT) (fmt_spec cb n r)).
        rewrite out_cons. exact IH.
      * apply stops_step with (n := 1) (i' := length p + length txt + 1) (ids' := ids) (ide' := length p) (rd' := false) (res' := res).
        { intros f. cbn [Nat.add fmt_loop]. fold AT. rewrite Ln, Eesc, Enth, Hne. reflexivity. }
        specialize (IH r p (txt ++ [c]) ids res ltac:(lia) Hc). rewrite !app_length in IH. cbn [length] in IH.
        replace (p ++ (txt ++ [c]) ++ r) with s in IH by (rewrite Es, <- !app_assoc; reflexivity).
        rewrite Nat.add_assoc in IH. rewrite out_cons. rewrite <- app_assoc. exact IH.
Qed.

Lemma fmt_both n : P_copy n /\ P_read n.
Proof.
  induction n as [|n [IHc IHr]].
  - split; repeat intro; simpl in *; lia.
  - pose proof (read_step n IHc IHr). split; [apply copy_step|]; auto.
Qed.

Theorem string_format_spec s : format_clean cb s = true ->
  exists F, forall f, F <= f -> string_format cb f s = match format_spec cb s with Some o => FOk o | None => FErr end.
Proof.
  intros Hc. destruct (fmt_both (S (length s))) as [H _].
  specialize (H s [] [] 0 [] ltac:(lia) Hc). exact H.
Qed.
End F.

(** ** numbers *)
Local Open Scope Z_scope.
Lemma digits_val_spec ds : forall rest acc, forallb is_digit ds = true ->
  match rest with c :: _ => is_digit c = false | [] => True end ->
  digits_val (ds ++ rest) acc = (fold_left (fun a c => a * 10 + (Z.of_nat (cval c) - 48)) ds acc, rest).
Proof.
  induction ds as [|d ds IH]; intros rest acc H Hr; cbn [app fold_left].
  - destruct rest as [|c r]; [reflexivity|]. cbn [digits_val]. now rewrite Hr.
  - cbn [forallb] in H. apply andb_true_iff in H as [H1 H2]. cbn [digits_val]. rewrite H1. apply IH; auto.
Qed.
Lemma digits_val_inv l : forall acc v rest, digits_val l acc = (v, rest) ->
  exists ds, l = ds ++ rest /\ forallb is_digit ds = true /\ v = fold_left (fun a c => a * 10 + (Z.of_nat (cval c) - 48)) ds acc
    /\ match rest with c :: _ => is_digit c = false | [] => True end.
Proof.
  induction l as [|c l IH]; intros acc v rest H; cbn [digits_val] in H.
  - inversion H; subst. exists []. simpl. auto.
  - destruct (is_digit c) eqn:E.
    + apply IH in H as (ds & -> & H1 & H2 & H3). exists (c :: ds). simpl. rewrite E. auto.
    + inversion H; subst. exists []. simpl. auto.
Qed.
Lemma dropw_app {f : ascii -> bool} ws l : forallb f ws = true -> dropw f (ws ++ l) = dropw f l.
Proof. induction ws as [|c ws IH]; cbn [app forallb dropw]; [reflexivity|]. intros H. apply andb_true_iff in H as [H1 H2]. now rewrite H1, IH. Qed.
Lemma dropw_inv {f : ascii -> bool} l : exists ws, l = ws ++ dropw f l /\ forallb f ws = true /\
  match dropw f l with c :: _ => f c = false | [] => True end.
Proof.
  induction l as [|c l (ws & IH & H1 & H2)]; [exists []; simpl; auto|]. cbn [dropw].
  destruct (f c) eqn:E.
  - exists (c :: ws). cbn [app forallb]. rewrite E. rewrite IH at 1. auto.
  - exists []. simpl. rewrite E. auto.
Qed.
Lemma digit_not_space c : is_digit c = true -> c_isspace c = false.
Proof. destruct c as [[] [] [] [] [] [] [] []]; vm_compute; congruence. Qed.
Lemma digit_not_sign c : is_digit c = true -> ceqb c "-"%char = false /\ ceqb c "+"%char = false.
Proof. destruct c as [[] [] [] [] [] [] [] []]; vm_compute; intuition congruence. Qed.

Definition nondigit_head (l : bytes) := match l with c :: _ => is_digit c = false | [] => True end.
Lemma strtol_reads k z tail : reads_as k z -> nondigit_head tail -> strtol (k ++ tail) = (clamp z, tail).
Proof.
  intros (ws & sg & ds & -> & Hws & [Hne Hds] & Hz) Ht. unfold strtol. rewrite <- !app_assoc.
  rewrite dropw_app by auto. destruct ds as [|d ds]; [contradiction|].
  assert (Hd : is_digit d = true) by (cbn [forallb] in Hds; now apply andb_true_iff in Hds).
  assert (F : forall n : bool, (let '(v, rest) := digits_val ((d :: ds) ++ tail) 0 in (clamp (if n then - v else v), rest)) = (clamp (if n then - dec_value (d :: ds) else dec_value (d :: ds)), tail)).
  { intros n. rewrite (digits_val_spec (d :: ds) tail 0 Hds Ht). reflexivity. }
  destruct (digit_not_sign d Hd) as [D1 D2]. pose proof (digit_not_space d Hd) as D3.
  destruct Hz as [[[->| ->] ->]|[-> ->]].
  - cbn [app dropw]. rewrite D3. rewrite D1, D2. rewrite Hd. apply (F false).
  - change (B "+") with ["+"%char]. cbn [app dropw]. change (c_isspace "+"%char) with false. cbv iota.
    change (ceqb "+"%char "-"%char) with false. rewrite ceqb_refl. rewrite Hd. apply (F false).
  - change (B "-") with ["-"%char]. cbn [app dropw]. change (c_isspace "-"%char) with false. cbv iota.
    rewrite ceqb_refl. rewrite Hd. apply (F true).
Qed.
Lemma strtol_inv l v rest : strtol l = (v, rest) ->
  (exists k z, l = k ++ rest /\ reads_as k z /\ v = clamp z /\ nondigit_head rest) \/ (v = 0 /\ rest = l /\ forall k r z, reads_as k z -> l <> k ++ r).
Proof.
  unfold strtol. destruct (dropw_inv (f := c_isspace) l) as (ws & El & Hws & Hh). remember (dropw c_isspace l) as l1 eqn:El1.
  destruct (match l1 with [] => (false, l1) | c :: r => if ceqb c "-" then (true, r) else if ceqb c "+" then (false, r) else (false, l1) end) as [neg l2] eqn:E2.
  assert (S2 : exists sg, l1 = sg ++ l2 /\ ((sg = [] \/ sg = B "+") /\ neg = false \/ sg = B "-" /\ neg = true)).
  { clear - E2. destruct l1 as [|c r]; [inversion E2; subst; exists []; simpl; auto|].
    destruct (ceqb_spec c "-"%char) as [->|]; [inversion E2; subst; exists (B "-"); auto|].
    destruct (ceqb_spec c "+"%char) as [->|]; [inversion E2; subst; exists (B "+"); auto|].
    inversion E2; subst. exists []; auto. }
  assert (No : match l2 with c :: _ => is_digit c = false | [] => True end -> forall k r z, reads_as k z -> l <> k ++ r).
  { intros Hnd k r z (ws' & sg' & ds & -> & Hws' & [Hne Hds] & Hz) ->.
    destruct ds as [|d ds]; [contradiction|]. assert (Hd : is_digit d = true) by (cbn [forallb] in Hds; now apply andb_true_iff in Hds).
    assert (E : l1 = sg' ++ (d :: ds) ++ r).
    { rewrite El1, <- !app_assoc. rewrite dropw_app by auto. destruct Hz as [[[->| ->] _]|[-> _]]; cbn [app dropw B]; [rewrite (digit_not_space d Hd)| |]; reflexivity. }
    destruct (digit_not_sign d Hd) as [D1 D2]. rewrite E in E2.
    destruct Hz as [[[->| ->] _]|[-> _]].
    - cbn [app] in E2. rewrite D1, D2 in E2. inversion E2; subst l2. congruence.
    - change (B "+") with ["+"%char] in E2. cbn in E2. inversion E2; subst l2. congruence.
    - change (B "-") with ["-"%char] in E2. cbn in E2. inversion E2; subst l2. congruence. }
  destruct l2 as [|c r2].
  - intros H. inversion H; subst. right. split; [reflexivity|split; [reflexivity|]]. apply No. exact I.
  - destruct (is_digit c) eqn:Ed.
    + intros H. destruct (digits_val (c :: r2) 0) as [dv rest'] eqn:Ev. inversion H; subst. left.
      apply digits_val_inv in Ev as (ds & Eds & Hds & -> & Hr).
      destruct S2 as (sg & El2 & Hsg). exists (ws ++ sg ++ ds), (if neg then - dec_value ds else dec_value ds).
      split; [rewrite El, El2, Eds, <- !app_assoc; reflexivity|]. split; [|split; [destruct neg; reflexivity|exact Hr]].
      exists ws, sg, ds. split; [reflexivity|]. split; [exact Hws|]. split.
      * split; [|exact Hds]. destruct ds; [|discriminate]. cbn [app] in Eds. subst rest. simpl in Hr. congruence.
      * destruct Hsg as [[Hs ->]|[Hs ->]]; auto.
    + intros H. inversion H; subst. right. split; [reflexivity|split; [reflexivity|]]. apply No. reflexivity.
Qed.

(** a number is read whole or not at all *)
Lemma str_to_i_key key : key <> [] ->
  match str_to_i key false with
  | Some v => exists z, reads_as key z /\ v = clamp z
  | None => forall z, ~ reads_as key z
  end.
Proof.
  intros Hk. unfold str_to_i. destruct (strtol key) as [v rest] eqn:E.
  destruct (strtol_inv _ _ _ E) as [(k & z & E1 & H & -> & Hr)|(-> & -> & No)].
  - destruct rest as [|c rest].
    + rewrite app_nil_r in E1. subst k. eauto.
    + intros z' Hz'. pose proof (strtol_reads key z' [] Hz' I) as E'. rewrite app_nil_r, E in E'. inversion E'.
  - destruct key as [|c key]; [contradiction|]. intros z Hz. apply (No (c :: key) [] z Hz). now rewrite app_nil_r.
Qed.

(** ** decimal printing *)
Lemma print_N_spec f : forall n acc, (N.log2 n < N.of_nat f)%N ->
  exists ds, print_N f n acc = ds ++ acc /\ all_digits ds /\ dec_value ds = Z.of_N n.
Proof.
  induction f as [|f IH]; intros n acc H; [lia|]. cbn [print_N].
  assert (Hm : (n mod 10 < 10)%N) by (apply N.mod_lt; lia).
  assert (Hd : forall m, (m < 10)%N -> is_digit (ch (N.to_nat m + 48)) = true /\ (Z.of_nat (cval (ch (N.to_nat m + 48))) - 48 = Z.of_N m)).
  { intros m Hm'. assert (C : (m = 0 \/ m = 1 \/ m = 2 \/ m = 3 \/ m = 4 \/ m = 5 \/ m = 6 \/ m = 7 \/ m = 8 \/ m = 9)%N) by lia.
    repeat (destruct C as [->|C]; [vm_compute; auto|]). subst; vm_compute; auto. }
  destruct (Hd _ Hm) as [D1 D2].
  destruct (N.ltb_spec n 10) as [L|L].
  - exists [ch (N.to_nat (n mod 10) + 48)]. split; [reflexivity|]. split.
    + split; [discriminate|]. cbn [forallb]. now rewrite D1.
    + unfold dec_value. cbn [fold_left]. rewrite D2. rewrite N.mod_small by lia. lia.
  - destruct (IH (n / 10)%N (ch (N.to_nat (n mod 10) + 48) :: acc)) as (ds & E & [Hne Hds] & Hv).
    { assert (Hle : (n / 10 <= n / 2)%N) by (apply N.div_le_compat_l; lia).
      apply N.log2_le_mono in Hle. rewrite <- N.div2_div in Hle.
      assert (E2 : N.log2 (N.div2 n) = N.pred (N.log2 n)).
      { rewrite N.div2_spec, N.log2_shiftr. lia. }
      assert (0 < N.log2 n)%N by (apply N.log2_pos; lia). lia. }
    exists (ds ++ [ch (N.to_nat (n mod 10) + 48)]). split; [rewrite E, <- app_assoc; reflexivity|]. split.
    + split; [destruct ds; discriminate|]. rewrite forallb_app, Hds. cbn [forallb]. now rewrite D1.
    + unfold dec_value in *. rewrite fold_left_app, Hv. cbn [fold_left]. rewrite D2.
      pose proof (N.div_mod n 10 ltac:(lia)). lia.
Qed.
Lemma print_nat_dec_spec n : all_digits (print_nat_dec n) /\ dec_value (print_nat_dec n) = Z.of_N n.
Proof.
  unfold print_nat_dec. destruct (print_N_spec (S (N.to_nat (N.log2 n))) n []) as (ds & E & H1 & H2); [lia|].
  rewrite E, app_nil_r. auto.
Qed.
Lemma number_to_string_reads z : reads_as (number_to_string z) z.
Proof.
  unfold number_to_string. destruct (Z.ltb_spec z 0) as [L|L].
  - destruct (print_nat_dec_spec (Z.to_N (- z))) as [H1 H2]. exists [], (B "-"), (print_nat_dec (Z.to_N (- z))).
    split; [reflexivity|]. split; [reflexivity|]. split; [exact H1|]. right. split; [reflexivity|]. lia.
  - destruct (print_nat_dec_spec (Z.to_N z)) as [H1 H2]. exists [], [], (print_nat_dec (Z.to_N z)).
    split; [reflexivity|]. split; [reflexivity|]. split; [exact H1|]. left. split; [auto|]. lia.
Qed.
Lemma is_ws_space c : is_whitespace c = true -> c_isspace c = true /\ is_digit c = false.
Proof. destruct c as [[] [] [] [] [] [] [] []]; vm_compute; auto. Qed.
Lemma reads_as_drop_ws ws k z : forallb is_whitespace ws = true -> reads_as (ws ++ k) z <-> reads_as k z.
Proof.
  intros Hw. split.
  - intros (w & sg & ds & E & Hws & Hds & Hz). revert w E Hws.
    induction ws as [|c ws IH]; intros w E Hws; [exists w, sg, ds; auto|].
    cbn [forallb] in Hw. apply andb_true_iff in Hw as [Hc Hw']. destruct w as [|c' w].
    + exfalso. cbn [app] in E. destruct (is_ws_space c Hc) as [C1 C2].
      destruct Hz as [[[->| ->] _]|[-> _]].
      * destruct Hds as [Hne Hd]. destruct ds as [|d ds]; [contradiction|]. inversion E; subst. cbn [forallb] in Hd. apply andb_true_iff in Hd. destruct Hd. congruence.
      * change (B "+") with ["+"%char] in E. inversion E; subst. discriminate C1.
      * change (B "-") with ["-"%char] in E. inversion E; subst. discriminate C1.
    + inversion E; subst. cbn [forallb] in Hws. apply andb_true_iff in Hws as [_ Hws]. apply (IH Hw' w); auto.
  - intros (w & sg & ds & -> & Hws & Hds & Hz). exists (ws ++ w), sg, ds. split; [now rewrite app_assoc|].
    split; [|auto]. rewrite forallb_app, Hws, andb_true_r.
    clear - Hw. induction ws as [|c ws IH]; [reflexivity|]. cbn [forallb] in *. apply andb_true_iff in Hw as [H1 H2].
    rewrite (proj1 (is_ws_space c H1)). auto.
Qed.
