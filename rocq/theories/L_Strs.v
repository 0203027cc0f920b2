(** Lemmas about the memory of strings. *)
From Coq Require Import NArith Lia List.
From Verif Require Import Base M_Sbuf S_Sbuf L_Sbuf.
Import ListNotations.
Local Open Scope N_scope.

Lemma set_length : forall A (l : list A) i a, length (set l i a) = length l.
Proof. induction l as [|x l IH]; intros [|i] a; cbn; [reflexivity..|]. rewrite IH. reflexivity. Qed.

Lemma set_same : forall A (l : list A) i a, (i < length l)%nat -> nth_error (set l i a) i = Some a.
Proof.
  induction l as [|x l IH]; intros [|i] a L; cbn in *; try lia; [reflexivity|].
  apply IH. lia.
Qed.

Lemma set_other : forall A (l : list A) i k a, i <> k -> nth_error (set l i a) k = nth_error l k.
Proof.
  induction l as [|x l IH]; intros [|i] [|k] a D; cbn; try reflexivity; try congruence.
  apply IH. congruence.
Qed.

Lemma nth_lt : forall A (l : list A) i a, nth_error l i = Some a -> (i < length l)%nat.
Proof. intros A l i a H. apply nth_error_Some. rewrite H. discriminate. Qed.

(** an object with its memory *)
Definition good (h : heap) (o : nat) (s : str) (m : bytes) : Prop :=
  nth_error (strs h) o = Some s /\ nth_error (regs h) (sreg s) = Some (Some m)
  /\ nth_error m (N.to_nat (stlen s)) = Some NUL.

Record wf (h : heap) : Prop := {
  w_good : forall o s, nth_error (strs h) o = Some s ->
             exists m, good h o s m /\ stlen s < 2147483648;
  w_own : forall o o' s s', nth_error (strs h) o = Some s -> nth_error (strs h) o' = Some s' ->
             sreg s = sreg s' -> o = o';
  w_hash : forall o, In o (hashed h) -> exists s, nth_error (strs h) o = Some s /\ smut s = false
}.

Lemma wf0 : wf heap0.
Proof.
  constructor; cbn.
  - intros [|o] s H; discriminate.
  - intros [|o] o' s s' H; discriminate.
  - intros o [].
Qed.

Lemma good_read : forall h o s m, good h o s m ->
  str_mem h s = Some m /\ read h o = Some (firstn (N.to_nat (stlen s)) m)
  /\ (N.to_nat (stlen s) < length m)%nat.
Proof.
  intros h o s m (A & C & D). apply nth_lt in D as L.
  assert (S1 : str_mem h s = Some m).
  { unfold str_mem. rewrite C. destruct (N.leb_spec (stlen s) (nlen m)) as [_|X]; [reflexivity|].
    unfold nlen in X. lia. }
  split; [exact S1|]. split; [|exact L]. unfold read. rewrite A, S1. reflexivity.
Qed.

Lemma wf_read : forall h o t, wf h -> read h o = Some t ->
  exists s m, good h o s m /\ t = firstn (N.to_nat (stlen s)) m /\ stlen s = nlen t
              /\ stlen s < 2147483648.
Proof.
  intros h o t W R. unfold read in R. destruct (nth_error (strs h) o) as [s|] eqn:E; [|discriminate].
  destruct (w_good h W o s E) as (m & G & B). destruct (good_read h o s m G) as (A & _ & L).
  rewrite A in R. injection R as <-. exists s, m. split; [exact G|]. split; [reflexivity|].
  split; [|exact B]. unfold nlen. rewrite firstn_length. lia.
Qed.

(** objects that keep their memory keep their text *)
Lemma read_kept : forall h h1 o s, nth_error (strs h) o = Some s -> nth_error (strs h1) o = Some s ->
  nth_error (regs h1) (sreg s) = nth_error (regs h) (sreg s) -> read h1 o = read h o.
Proof. intros h h1 o s A C D. unfold read. rewrite A, C. unfold str_mem. rewrite D. reflexivity. Qed.

Lemma reserve_spec : forall l, l < 2147483648 ->
  (l = 4095 /\ reserve_str l = Abort)
  \/ (l <> 4095 /\ exists big, reserve_str l = Ok (zeros (l + 1), big)).
Proof.
  intros l B. unfold reserve_str. rewrite u32_small by lia. unfold chrs_bucket_size.
  destruct (N.ltb_spec 4096 (l + 1)) as [A|A]; [right; split; [lia|eexists; reflexivity]|].
  destruct (N.ltb_spec (l + 1) 4096) as [C|C]; [right; split; [lia|eexists; reflexivity]|].
  left. split; [lia|reflexivity].
Qed.

Lemma zeros_nth : forall n k, (k < N.to_nat n)%nat -> nth_error (zeros n) k = Some NUL.
Proof. intros. unfold zeros. apply nth_error_repeat. assumption. Qed.

(** a heap in which object [o] has new memory [m] at its end, and nothing else is changed *)
Lemma wf_new : forall h s m hs,
  wf h -> nth_error m (N.to_nat (stlen s)) = Some NUL -> stlen s < 2147483648 ->
  sreg s = length (regs h) ->
  (forall o, In o hs -> In o (hashed h) \/ (o = length (strs h) /\ smut s = false)) ->
  let h1 := {| regs := regs h ++ [Some m]; strs := strs h ++ [s]; hashed := hs |} in
  wf h1 /\ read h1 (length (strs h)) = Some (firstn (N.to_nat (stlen s)) m)
  /\ (forall o, (o < length (strs h))%nat -> read h1 o = read h o).
Proof.
  intros h s m hs W N0 B R Hs h1.
  assert (G : good h1 (length (strs h)) s m).
  { split; [|split].
    - cbn. rewrite nth_error_app2 by lia. rewrite Nat.sub_diag. reflexivity.
    - cbn. rewrite R, nth_error_app2 by lia. rewrite Nat.sub_diag. reflexivity.
    - exact N0. }
  assert (Old : forall o s', nth_error (strs h1) o = Some s' ->
            (nth_error (strs h) o = Some s' /\ (o < length (strs h))%nat) \/ (o = length (strs h) /\ s' = s)).
  { intros o s' E. cbn in E. destruct (Nat.lt_ge_cases o (length (strs h))) as [L|L].
    - rewrite nth_error_app1 in E by exact L. left. split; [exact E|exact L].
    - rewrite nth_error_app2 in E by exact L. right.
      destruct (o - length (strs h))%nat as [|k] eqn:K; cbn in E; [|destruct k; discriminate].
      injection E as <-. split; [lia|reflexivity]. }
  assert (Rg : forall o s', nth_error (strs h) o = Some s' ->
            nth_error (regs h1) (sreg s') = nth_error (regs h) (sreg s')
            /\ (sreg s' < length (regs h))%nat).
  { intros o s' E. destruct (w_good h W o s' E) as (m' & (_ & G2 & _) & _).
    apply nth_lt in G2 as L. split; [|exact L]. cbn. rewrite nth_error_app1 by exact L. reflexivity. }
  split; [constructor|split].
  - intros o s' E. destruct (Old o s' E) as [(E1 & L)|(-> & ->)].
    + destruct (w_good h W o s' E1) as (m' & (G1 & G2 & G3) & B'). exists m'. split; [|exact B'].
      split; [exact E|]. split; [|exact G3]. rewrite (proj1 (Rg o s' E1)). exact G2.
    + exists m. split; [exact G|exact B].
  - intros o o' s1 s2 E1 E2 Q.
    destruct (Old o s1 E1) as [(F1 & L1)|(-> & ->)]; destruct (Old o' s2 E2) as [(F2 & L2)|(-> & ->)].
    + apply (w_own h W o o' s1 s2 F1 F2 Q).
    + destruct (Rg o s1 F1) as (_ & L). lia.
    + destruct (Rg o' s2 F2) as (_ & L). lia.
    + reflexivity.
  - intros o I0. cbn [hashed h1] in I0. destruct (Hs o I0) as [I1|(-> & M)].
    + destruct (w_hash h W o I1) as (s' & E & M). exists s'. split; [|exact M].
      cbn. rewrite nth_error_app1; [exact E|apply nth_lt in E; exact E].
    + exists s. split; [apply G|exact M].
  - apply (good_read h1 _ s m G).
  - intros o L. destruct (nth_error (strs h) o) as [s'|] eqn:E;
      [|apply nth_error_None in E; lia].
    apply (read_kept h h1 o s' E).
    + cbn. rewrite nth_error_app1 by exact L. exact E.
    + apply (proj1 (Rg o s' E)).
Qed.

(** a heap in which object [o] is changed to new memory, its old memory may be gone *)
Lemma wf_moved : forall h o s s0 m rg,
  wf h -> nth_error (strs h) o = Some s0 -> smut s0 = true ->
  nth_error m (N.to_nat (stlen s)) = Some NUL -> stlen s < 2147483648 ->
  length rg = length (regs h) -> (forall k, k <> sreg s0 -> nth_error rg k = nth_error (regs h) k) ->
  sreg s = length rg ->
  let h1 := {| regs := rg ++ [Some m]; strs := set (strs h) o s; hashed := hashed h |} in
  wf h1 /\ read h1 o = Some (firstn (N.to_nat (stlen s)) m)
  /\ (forall o', o' <> o -> read h1 o' = read h o').
Proof.
  intros h o s s0 m rg W E0 Mu N0 B Lr Kr R h1.
  apply nth_lt in E0 as Lo.
  assert (G : good h1 o s m).
  { split; [|split].
    - cbn. apply set_same. exact Lo.
    - cbn. rewrite R, nth_error_app2 by lia. rewrite Nat.sub_diag. reflexivity.
    - exact N0. }
  assert (Rg : forall o' s', o' <> o -> nth_error (strs h) o' = Some s' ->
            nth_error (regs h1) (sreg s') = nth_error (regs h) (sreg s')
            /\ (sreg s' < length (regs h))%nat).
  { intros o' s' D E. destruct (w_good h W o' s' E) as (m' & (_ & G2 & _) & _).
    apply nth_lt in G2 as L. split; [|exact L]. cbn. rewrite nth_error_app1 by lia.
    apply Kr. intros Q. apply D. apply (w_own h W o' o s' s0 E E0 Q). }
  assert (Old : forall o' s', o' <> o -> nth_error (strs h1) o' = Some s' ->
            nth_error (strs h) o' = Some s').
  { intros o' s' D E. cbn in E. rewrite set_other in E by congruence. exact E. }
  assert (New : forall s', nth_error (strs h1) o = Some s' -> s' = s).
  { intros s' E. cbn in E. rewrite set_same in E by exact Lo. congruence. }
  split; [constructor|split].
  - intros o' s' E. destruct (Nat.eq_dec o' o) as [->|D].
    + rewrite (New s' E). exists m. split; [exact G|exact B].
    + pose proof (Old o' s' D E) as E1.
      destruct (w_good h W o' s' E1) as (m' & (G1 & G2 & G3) & B'). exists m'. split; [|exact B'].
      split; [exact E|]. split; [|exact G3]. rewrite (proj1 (Rg o' s' D E1)). exact G2.
  - intros o1 o2 s1 s2 E1 E2 Q.
    destruct (Nat.eq_dec o1 o) as [->|D1]; destruct (Nat.eq_dec o2 o) as [->|D2].
    + reflexivity.
    + rewrite (New s1 E1) in Q. destruct (Rg o2 s2 D2 (Old o2 s2 D2 E2)) as (_ & L). lia.
    + rewrite (New s2 E2) in Q. destruct (Rg o1 s1 D1 (Old o1 s1 D1 E1)) as (_ & L). lia.
    + apply (w_own h W o1 o2 s1 s2 (Old o1 s1 D1 E1) (Old o2 s2 D2 E2) Q).
  - intros o' I0. cbn [hashed h1] in I0. destruct (w_hash h W o' I0) as (s' & E & M).
    exists s'. split; [|exact M]. cbn. rewrite set_other; [exact E|].
    intros <-. rewrite E0 in E. injection E as <-. congruence.
  - apply (good_read h1 o s m G).
  - intros o' D. destruct (nth_error (strs h) o') as [s'|] eqn:E.
    + apply (read_kept h h1 o' s' E).
      * cbn. rewrite set_other by congruence. exact E.
      * apply (proj1 (Rg o' s' D E)).
    + unfold read. cbn [strs h1]. rewrite set_other by congruence. rewrite E. reflexivity.
Qed.

(** immutable strings stay so *)
Definition keeps_immutable (h h1 : heap) : Prop :=
  forall o s, nth_error (strs h) o = Some s -> smut s = false -> nth_error (strs h1) o = Some s.

Lemma set_app_last : forall A (l : list A) a a', set (l ++ [a]) (length l) a' = l ++ [a'].
Proof. induction l as [|x l IH]; intros; cbn; [reflexivity|]. rewrite IH. reflexivity. Qed.

(** what an operation does: it gives the text, other strings are kept *)
Definition does (h : heap) (x : sop) (t : bytes) (h1 : heap) (r : nat) : Prop :=
  wf h1 /\ read h1 r = Some t /\ keeps_immutable h h1
  /\ (forall o, read h o <> None -> o <> r \/ target x = None -> read h1 o = read h o)
  /\ (forall p, x = Make p -> exists s, nth_error (strs h1) r = Some s /\ smut s = false)
  /\ (target x <> None -> exists s, nth_error (strs h1) r = Some s /\ smut s = true).

Lemma read_lt : forall h o, read h o <> None -> (o < length (strs h))%nat.
Proof.
  intros h o R. unfold read in R. destruct (nth_error (strs h) o) as [s|] eqn:E; [|congruence].
  apply nth_lt in E. exact E.
Qed.

Lemma write_full : forall p l, nlen p = l ->
  write (zeros (l + 1)) 0 p = Ok (p ++ [NUL]).
Proof.
  intros p l <-. unfold write. rewrite nlen_zeros.
  destruct (N.leb_spec (0 + nlen p) (nlen p + 1)) as [_|X]; [|lia]. cbn [N.to_nat firstn app].
  do 2 f_equal. unfold zeros. replace (N.to_nat (nlen p + 1)) with (length p + 1)%nat
    by (unfold nlen; lia).
  rewrite repeat_app. cbn [Nat.add].
  rewrite skipn_app, repeat_length, Nat.sub_diag, skipn_all2 by (rewrite repeat_length; lia).
  reflexivity.
Qed.

Lemma full_nth : forall p l, nlen p = l -> nth_error (p ++ [NUL]) (N.to_nat l) = Some NUL.
Proof. intros p l <-. rewrite to_nat_nlen, nth_error_app2, Nat.sub_diag by lia. reflexivity. Qed.

Lemma full_first : forall p r l, nlen p = l -> firstn (N.to_nat l) (p ++ r) = p.
Proof.
  intros p r l <-. rewrite to_nat_nlen, firstn_app, firstn_all, Nat.sub_diag.
  cbn [firstn]. apply app_nil_r.
Qed.

Section Mark.
Variable mark : bool.

Lemma make_does : forall h p mu x, wf h -> nlen p < 2147483648 ->
  target x = None -> (forall q, x = Make q -> mu = false) ->
  (nlen p = 4095 /\ make_str_ mark h p mu = Abort)
  \/ exists h1 r, make_str_ mark h p mu = Ok (h1, r) /\ does h x p h1 r.
Proof.
  intros h p mu x W B T M. unfold make_str_.
  destruct (if negb mu && (nlen p <=? 64) then hash_get h p else None) as [o|] eqn:Hg.
  - right. exists h, o. split; [reflexivity|].
    destruct mu; cbn [negb andb] in Hg; [discriminate|].
    destruct (nlen p <=? 64); [|discriminate]. unfold hash_get in Hg.
    apply find_some in Hg as (I0 & R).
    destruct (read h o) as [t|] eqn:Rd; [|discriminate].
    destruct (beqb_spec t p) as [->|_]; [|discriminate].
    split; [exact W|]. split; [exact Rd|]. split; [intros o' s' E _; exact E|].
    split; [reflexivity|]. split; [intros q _; apply (w_hash h W o I0)|]. rewrite T. congruence.
  - destruct (reserve_spec (nlen p) B) as [(X & R)|(_ & big & R)].
    { left. split; [exact X|]. unfold new_str. rewrite R. reflexivity. }
    right. unfold new_str. rewrite R. cbn [obind regs strs hashed].
    rewrite nth_error_app2, Nat.sub_diag by lia. cbn [nth_error].
    unfold write_str. cbn [sreg regs strs hashed stlen sbig].
    rewrite nth_error_app2, Nat.sub_diag by lia. cbn [nth_error].
    rewrite (write_full p (nlen p) eq_refl). cbn [obind].
    rewrite set_app_last. unfold set_str. cbn [regs strs hashed]. rewrite set_app_last.
    assert (Fin : forall s hs, sreg s = length (regs h) -> stlen s = nlen p -> smut s = mu ->
       (forall o, In o hs -> In o (hashed h) \/ o = length (strs h) /\ smut s = false) ->
       does h x p {| regs := regs h ++ [Some (p ++ [NUL])]; strs := strs h ++ [s]; hashed := hs |}
            (length (strs h))).
    { intros s hs S1 S2 S3 Hs.
      destruct (wf_new h s (p ++ [NUL]) hs W) as (V1 & V2 & V3); try assumption.
      - apply full_nth. symmetry. exact S2.
      - rewrite S2. exact B.
      - split; [exact V1|]. split; [rewrite V2; f_equal; apply full_first; symmetry; exact S2|].
        split; [|split; [|split; [|rewrite T; congruence]]].
        + intros o' s' E _. cbn. rewrite nth_error_app1; [exact E|apply nth_lt in E; exact E].
        + intros o' Rd _. apply V3. apply read_lt. exact Rd.
        + intros q Q. exists s. split; [|rewrite S3; apply (M q Q)].
          cbn. rewrite nth_error_app2, Nat.sub_diag by lia. reflexivity. }
    destruct mu.
    + eexists _, _. split; [reflexivity|]. apply Fin; try reflexivity. intros o I0. left. exact I0.
    + destruct (negb mark && (nlen p <=? 64)).
      * eexists _, _. split; [reflexivity|]. apply Fin; try reflexivity.
        intros o [<-|I0]; [right; split; reflexivity|left; exact I0].
      * eexists _, _. split; [reflexivity|]. apply Fin; try reflexivity.
        intros o I0. left. exact I0.
Qed.

Lemma write_tail : forall (t d : bytes) n, nlen d + 1 = n ->
  write (t ++ zeros n) (nlen t) d = Ok (t ++ d ++ [NUL]).
Proof.
  intros t d n <-. unfold write. rewrite nlen_app, nlen_zeros.
  destruct (N.leb_spec (nlen t + nlen d) (nlen t + (nlen d + 1))) as [_|X]; [|lia].
  rewrite (full_first t _ (nlen t) eq_refl). do 3 f_equal. rewrite to_nat_nlen.
  rewrite skipn_app. rewrite skipn_all2 by lia. cbn [app].
  replace (length t + length d - length t)%nat with (length d) by lia.
  unfold zeros. replace (N.to_nat (nlen d + 1)) with (length d + 1)%nat by (unfold nlen; lia).
  rewrite repeat_app, skipn_app, repeat_length, Nat.sub_diag, skipn_all2
    by (rewrite repeat_length; lia).
  reflexivity.
Qed.

(** growing and appending: the bytes may be read after the growth *)
Lemma app_does : forall h o d t x (get : heap -> option bytes),
  wf h -> read h o = Some t -> nlen (t ++ d) < 2147483648 ->
  target x = Some o ->
  (forall h1, (forall o', o' <> o -> read h o' <> None -> read h1 o' = read h o') ->
     (forall o' s', nth_error (strs h) o' = Some s' -> o' <> o ->
        nth_error (regs h1) (sreg s') = nth_error (regs h) (sreg s')) -> get h1 = Some d) ->
  let res :=
    obind (grow_str h o (nlen d)) (fun '(h, o) =>
      match nth_error (strs h) o, get h with
      | Some ss, Some d =>
          obind (write_str h ss (stlen ss) d) (fun h =>
          Ok (set_str h o {| sreg := sreg ss; stlen := u32 (stlen ss + nlen d);
                             sbig := sbig ss; smut := smut ss |}, o))
      | _, _ => Overflow
      end) in
  (nlen (t ++ d) = 4095 /\ res = Abort)
  \/ exists h1 r, res = Ok (h1, r) /\ does h x (t ++ d) h1 r.
Proof.
  intros h o d t x get W R B T Get res. subst res.
  destruct (wf_read h o t W R) as (s & m & G & Et & El & Bs).
  destruct (good_read h o s m G) as (Sm & _ & Lm). destruct G as (G1 & G2 & G3).
  rewrite nlen_app in B |- *.
  assert (Ft : firstn (N.to_nat (stlen s)) m = t) by (symmetry; exact Et).
  assert (X : forall p, x <> Make p) by (intros p ->; discriminate).
  assert (Regs : forall o' s', nth_error (strs h) o' = Some s' -> (sreg s' < length (regs h))%nat).
  { intros o' s' E. destruct (w_good h W o' s' E) as (m' & (_ & Q & _) & _). apply nth_lt in Q. exact Q. }
  unfold grow_str. rewrite G1. rewrite (u32_small (stlen s + nlen d)) by lia.
  destruct (smut s) eqn:Mu; cbn [negb].
  - (* in place *)
    right. rewrite Sm. rewrite (u32_small (stlen s + nlen d + 1)) by lia.
    replace (stlen s + nlen d + 1 - stlen s) with (nlen d + 1) by lia. rewrite Ft.
    set (rg := if sbig s then set (regs h) (sreg s) None else regs h).
    assert (Lr : length rg = length (regs h)).
    { subst rg. destruct (sbig s); [apply set_length|reflexivity]. }
    assert (Kr : forall k, k <> sreg s -> nth_error rg k = nth_error (regs h) k).
    { intros k D. subst rg. destruct (sbig s); [apply set_other; congruence|reflexivity]. }
    cbn [obind]. unfold set_str. cbn [regs strs hashed].
    apply nth_lt in G1 as Lo. rewrite set_same by exact Lo. cbn [stlen sreg sbig smut].
    rewrite (Get _).
    2:{ intros o' D Rd. destruct (nth_error (strs h) o') as [s'|] eqn:E.
        - apply (read_kept h _ o' s' E).
          + cbn. rewrite set_other by congruence. exact E.
          + cbn. rewrite nth_error_app1 by (rewrite Lr; apply (Regs o' s' E)).
            apply Kr. intros Q. apply D. apply (w_own h W o' o s' s E G1 Q).
        - exfalso. apply Rd. unfold read. rewrite E. reflexivity. }
    2:{ intros o' s' E D. cbn. rewrite nth_error_app1 by (rewrite Lr; apply (Regs o' s' E)).
        apply Kr. intros Q. apply D. apply (w_own h W o' o s' s E G1 Q). }
    unfold write_str. cbn [regs strs hashed sreg].
    rewrite nth_error_app2, Nat.sub_diag by lia. cbn [nth_error].
    rewrite El, (write_tail t d _ eq_refl). cbn [obind regs strs hashed].
    rewrite set_app_last.
    assert (Ss : forall A (l : list A) i a b, set (set l i a) i b = set l i b).
    { clear. induction l as [|y l IH]; intros [|i] a b; cbn; try reflexivity. rewrite IH. reflexivity. }
    rewrite Ss. rewrite (u32_small (nlen t + nlen d)) by lia.
    eexists _, _. split; [reflexivity|].
    destruct (wf_moved h o {| sreg := length rg; stlen := nlen t + nlen d;
        sbig := sbig s || (chrs_bucket_size <=? nlen t + nlen d + 1); smut := true |} s
        (t ++ d ++ [NUL]) rg W G1 Mu) as (V1 & V2 & V3); cbn [stlen sreg]; try assumption; try lia.
    { rewrite app_assoc. apply full_nth. rewrite nlen_app. reflexivity. }
    split; [exact V1|]. split.
    { rewrite V2. cbn [stlen]. f_equal. rewrite app_assoc. apply full_first. apply nlen_app. }
    split; [|split; [|split]].
    4:{ intros _. eexists. split; [cbn; apply set_same; exact Lo|reflexivity]. }
    + intros o' s' E F. cbn. rewrite set_other; [exact E|]. intros <-. rewrite G1 in E. congruence.
    + intros o' _ [D|D]; [apply V3; exact D|congruence].
    + intros p E. exfalso. exact (X p E).
  - (* into a new object *)
    destruct (reserve_spec (stlen s + nlen d)) as [(Q & Rs)|(_ & big & Rs)]; [lia| |].
    { left. split; [lia|]. unfold new_str. rewrite Rs. reflexivity. }
    right. unfold new_str. rewrite Rs. cbn [obind regs strs hashed].
    rewrite nth_error_app2, Nat.sub_diag by lia. cbn [nth_error].
    assert (Lo : (sreg s < length (regs h))%nat) by (apply (Regs o s G1)).
    assert (Sm1 : str_mem {| regs := regs h ++ [Some (zeros (stlen s + nlen d + 1))];
                             strs := strs h ++ [{| sreg := length (regs h); stlen := stlen s + nlen d;
                                                   sbig := big; smut := false |}];
                             hashed := hashed h |} s = Some m).
    { unfold str_mem in *. cbn [regs]. rewrite nth_error_app1 by exact Lo. exact Sm. }
    rewrite Sm1, Ft. clear Sm1. unfold write_str at 1. cbn [regs strs hashed sreg].
    rewrite nth_error_app2, Nat.sub_diag by lia. cbn [nth_error].
    assert (W1 : write (zeros (stlen s + nlen d + 1)) 0 t = Ok (t ++ zeros (nlen d + 1))).
    { unfold write. rewrite nlen_zeros.
      destruct (N.leb_spec (0 + nlen t) (stlen s + nlen d + 1)) as [_|Y]; [|lia].
      cbn [N.to_nat firstn app]. do 2 f_equal. unfold zeros.
      replace (N.to_nat (stlen s + nlen d + 1)) with (length t + N.to_nat (nlen d + 1))%nat
        by (rewrite El; unfold nlen; lia).
      rewrite repeat_app, skipn_app, repeat_length. cbn [Nat.add].
      rewrite Nat.sub_diag, skipn_all2 by (rewrite repeat_length; lia). reflexivity. }
    rewrite W1. cbn [obind]. rewrite set_app_last. unfold set_str. cbn [regs strs hashed].
    rewrite set_app_last. cbn [sbig].
    rewrite nth_error_app2, Nat.sub_diag by lia. cbn [nth_error stlen sreg sbig smut].
    rewrite (Get _).
    2:{ intros o' D Rd. apply read_lt in Rd as Ld.
        destruct (nth_error (strs h) o') as [s'|] eqn:E; [|apply nth_error_None in E; lia].
        apply (read_kept h _ o' s' E).
        - cbn. rewrite nth_error_app1 by exact Ld. exact E.
        - cbn. rewrite nth_error_app1 by (apply (Regs o' s' E)). reflexivity. }
    2:{ intros o' s' E D. cbn. rewrite nth_error_app1 by (apply (Regs o' s' E)). reflexivity. }
    unfold write_str. cbn [regs strs hashed sreg].
    rewrite nth_error_app2, Nat.sub_diag by lia. cbn [nth_error].
    rewrite El, (write_tail t d _ eq_refl). cbn [obind regs strs hashed].
    rewrite !set_app_last. rewrite (u32_small (nlen t + nlen d)) by lia.
    eexists _, _. split; [reflexivity|].
    destruct (wf_new h {| sreg := length (regs h); stlen := nlen t + nlen d; sbig := big; smut := true |}
        (t ++ d ++ [NUL]) (hashed h) W) as (V1 & V2 & V3); cbn [stlen sreg]; try assumption; try lia.
    { rewrite app_assoc. apply full_nth. rewrite nlen_app. reflexivity. }
    { intros o' I0. left. exact I0. }
    split; [exact V1|]. split.
    { rewrite V2. cbn [stlen]. f_equal. rewrite app_assoc. apply full_first. apply nlen_app. }
    split; [|split; [|split]].
    4:{ intros _. eexists. split; [cbn; rewrite nth_error_app2, Nat.sub_diag by lia; reflexivity|reflexivity]. }
    + intros o' s' E F. cbn. rewrite nth_error_app1; [exact E|apply nth_lt in E; exact E].
    + intros o' Rd _. apply V3. apply read_lt. exact Rd.
    + intros p E. exfalso. exact (X p E).
Qed.

Lemma sstep_does : forall h x t, wf h -> gives (read h) x = Some t -> nlen t < 2147483648 ->
  (forall o, x <> AppStr o o) ->
  (nlen t = 4095 /\ sstep mark h x = Abort)
  \/ exists h1 r, sstep mark h x = Ok (h1, r) /\ does h x t h1 r.
Proof.
  intros h x t W G B X. destruct x as [p|o|o d|o src]; cbn [gives sstep] in *.
  - injection G as ->. apply make_does; try assumption; reflexivity.
  - rewrite G. apply make_does; try assumption; try reflexivity. discriminate.
  - destruct (read h o) as [t0|] eqn:R; [|discriminate]. injection G as <-.
    assert (Get : forall h1 : heap, (forall o', o' <> o -> read h o' <> None -> read h1 o' = read h o') ->
     (forall o' s', nth_error (strs h) o' = Some s' -> o' <> o ->
        nth_error (regs h1) (sreg s') = nth_error (regs h) (sreg s')) -> (fun _ => Some d) h1 = Some d)
      by reflexivity.
    pose proof (app_does h o d t0 (App o d) (fun _ => Some d) W R B eq_refl Get) as P.
    cbv zeta in P. unfold str_appn.
    destruct (grow_str h o (nlen d)) as [[h2 o2]| | | |]; exact P.
  - destruct (read h o) as [t0|] eqn:R; [|discriminate].
    destruct (read h src) as [d|] eqn:Rs; [|discriminate]. injection G as <-.
    destruct (wf_read h src d W Rs) as (sr & m & Gs & Ed & Els & _).
    destruct (good_read h src sr m Gs) as (Sm & _ & _).
    assert (Ds : src <> o) by (intros ->; apply (X o); reflexivity).
    rewrite (proj1 Gs).
    assert (Get : forall h1 : heap, (forall o', o' <> o -> read h o' <> None -> read h1 o' = read h o') ->
     (forall o' s', nth_error (strs h) o' = Some s' -> o' <> o ->
        nth_error (regs h1) (sreg s') = nth_error (regs h) (sreg s')) ->
     (fun h => option_map (firstn (N.to_nat (stlen sr))) (str_mem h sr)) h1 = Some d).
    { intros h1 _ K. unfold str_mem in *. rewrite (K src sr (proj1 Gs) Ds), Sm. rewrite Ed. reflexivity. }
    pose proof (app_does h o d t0 (AppStr o src) _ W R B eq_refl Get) as P.
    cbv zeta in P. rewrite <- Els in P.
    destruct (grow_str h o (stlen sr)) as [[h2 o2]| | | |]; try exact P. cbn [obind] in *.
    destruct (nth_error (strs h2) o2); [|exact P].
    destruct (str_mem h2 sr); exact P.
Qed.

(** an operation on strings that are not there *)
Lemma sstep_none : forall h x, wf h -> gives (read h) x = None -> sstep mark h x = Overflow.
Proof.
  intros h x W G.
  assert (No : forall o, read h o = None -> nth_error (strs h) o = None).
  { intros o R. destruct (nth_error (strs h) o) as [s|] eqn:E; [|reflexivity].
    destruct (w_good h W o s E) as (m & Gd & _). destruct (good_read h o s m Gd) as (_ & Q & _).
    congruence. }
  destruct x as [p|o|o d|o src]; cbn [gives sstep] in *.
  - discriminate.
  - rewrite G. reflexivity.
  - destruct (read h o) as [t|] eqn:R; [discriminate|]. unfold str_appn, grow_str.
    rewrite (No o R). reflexivity.
  - destruct (nth_error (strs h) src) as [sr|] eqn:E; [|reflexivity].
    destruct (read h o) as [t|] eqn:R.
    + destruct (read h src) as [d|] eqn:Rs; [discriminate|]. rewrite (No src Rs) in E. discriminate.
    + unfold grow_str. rewrite (No o R). reflexivity.
Qed.

Lemma srun_app : forall xs ys h, srun mark h (xs ++ ys) =
  obind (srun mark h xs) (fun '(h, os) =>
  obind (srun mark h ys) (fun '(h, os') => Ok (h, os ++ os'))).
Proof.
  induction xs as [|x xs IH]; intros ys h; cbn [app srun].
  - cbn [obind]. destruct (srun mark h ys) as [[h1 os]| | | |]; reflexivity.
  - destruct (sstep mark h x) as [[h1 o]| | | |]; try reflexivity. cbn [obind]. rewrite IH.
    destruct (srun mark h1 xs) as [[h2 os]| | | |]; try reflexivity. cbn [obind].
    destruct (srun mark h2 ys) as [[h3 os']| | | |]; reflexivity.
Qed.

Lemma small_prefix : forall xs ys, small_history mark (xs ++ ys) -> small_history mark xs.
Proof.
  intros xs ys H before x after E. apply (H before x (after ++ ys)). rewrite E, <- app_assoc. reflexivity.
Qed.

Lemma srun_inv : forall xs h os, small_history mark xs -> srun mark heap0 xs = Ok (h, os) ->
  wf h /\ length os = length xs
  /\ forall i p o, nth_error xs i = Some (Make p) -> nth_error os i = Some o ->
       read h o = Some p /\ exists s, nth_error (strs h) o = Some s /\ smut s = false.
Proof.
  induction xs as [|x xs IH] using rev_ind; intros h os Sm R.
  - cbn in R. injection R as <- <-. split; [exact wf0|]. split; [reflexivity|].
    intros [|i] p o E; discriminate.
  - rewrite srun_app in R. destruct (srun mark heap0 xs) as [[h1 os1]| | | |] eqn:E1; try discriminate.
    cbn [obind srun] in R. destruct (sstep mark h1 x) as [[h2 r]| | | |] eqn:E2; try discriminate.
    cbn [obind] in R. injection R as <- <-.
    destruct (IH h1 os1 (small_prefix xs [x] Sm) eq_refl) as (W & L & M).
    destruct (Sm xs x [] eq_refl) as (X & B).
    destruct (gives (read h1) x) as [t|] eqn:G.
    2:{ rewrite (sstep_none h1 x W G) in E2. discriminate. }
    destruct (sstep_does h1 x t W G (B h1 os1 t E1 G) X) as [(_ & A)|(h3 & r3 & A & D)];
      rewrite A in E2; [discriminate|]. injection E2 as -> ->.
    destruct D as (D1 & D2 & D3 & D4 & D5 & D6).
    split; [exact D1|]. split; [rewrite !app_length; cbn [length]; lia|].
    intros i p o Ex Eo. destruct (Nat.lt_ge_cases i (length xs)) as [Li|Li].
    + rewrite nth_error_app1 in Ex by exact Li. rewrite nth_error_app1 in Eo by lia.
      destruct (M i p o Ex Eo) as (Rd & s & Es & Ms). pose proof (D3 o s Es Ms) as Es2.
      split; [|exists s; split; [exact Es2|exact Ms]].
      destruct (Nat.eq_dec o r) as [->|Dr].
      * destruct (target x) as [o'|] eqn:T.
        -- exfalso. destruct D6 as (s6 & F6 & M6); [discriminate|]. congruence.
        -- rewrite D4; [exact Rd|rewrite Rd; discriminate|right; reflexivity].
      * rewrite D4; [exact Rd|rewrite Rd; discriminate|left; exact Dr].
    + rewrite nth_error_app2 in Ex by exact Li. rewrite nth_error_app2 in Eo by lia.
      replace (length os1) with (length xs) in Eo.
      destruct (i - length xs)%nat as [|k]; cbn in Ex, Eo; [|destruct k; discriminate].
      injection Ex as ->. injection Eo as <-. split; [|apply (D5 p eq_refl)].
      cbn in G. injection G as ->. exact D2.
Qed.
End Mark.
