(** Lemmas about string buffers. *)
From Coq Require Import NArith Lia List.
From Verif Require Import Base M_Sbuf S_Sbuf.
Import ListNotations.
Local Open Scope N_scope.

Lemma nlen_app : forall a b, nlen (a ++ b) = nlen a + nlen b.
Proof. intros. unfold nlen. rewrite app_length. lia. Qed.

Lemma nlen_zeros : forall n, nlen (zeros n) = n.
Proof. intros. unfold nlen, zeros. rewrite repeat_length. lia. Qed.

Lemma to_nat_nlen : forall s, N.to_nat (nlen s) = length s.
Proof. intros. unfold nlen. lia. Qed.

Lemma u32_small : forall n, n < 4294967296 -> u32 n = n.
Proof. intros. unfold u32. apply N.mod_small. assumption. Qed.

Lemma write_ok : forall m i d, i + nlen d <= nlen m ->
  exists m1, write m i d = Ok m1 /\ nlen m1 = nlen m
    /\ firstn (N.to_nat i) m1 = firstn (N.to_nat i) m
    /\ firstn (N.to_nat i + length d) m1 = firstn (N.to_nat i) m ++ d
    /\ (forall k, (N.to_nat i + length d <= k)%nat -> nth_error m1 k = nth_error m k).
Proof.
  intros m i d L. unfold write. destruct (N.leb_spec (i + nlen d) (nlen m)) as [_|X]; [|lia].
  unfold nlen in *.
  assert (Lf : length (firstn (N.to_nat i) m) = N.to_nat i) by (rewrite firstn_length; lia).
  eexists. split; [reflexivity|]. repeat split.
  - rewrite !app_length, skipn_length, Lf. lia.
  - rewrite firstn_app, Lf, firstn_firstn, Nat.min_id, Nat.sub_diag. cbn [firstn]. apply app_nil_r.
  - rewrite firstn_app, Lf. rewrite firstn_all2 by lia.
    replace (N.to_nat i + length d - N.to_nat i)%nat with (length d) by lia.
    rewrite firstn_app, firstn_all, Nat.sub_diag. cbn [firstn]. rewrite app_nil_r. reflexivity.
  - intros k K. rewrite nth_error_app2 by lia. rewrite Lf.
    rewrite nth_error_app2 by lia. rewrite nth_error_skipn || idtac.
    rewrite <- (firstn_skipn (N.to_nat i + length d) m) at 2.
    rewrite nth_error_app2; rewrite firstn_length; [|lia]. f_equal. lia.
Qed.

Lemma write_over : forall m i d, nlen m < i + nlen d -> write m i d = Overflow.
Proof. intros. unfold write. destruct (N.leb_spec (i + nlen d) (nlen m)); [lia|reflexivity]. Qed.

Lemma double_spec : forall fuel c n, (0 < fuel)%nat -> 0 < c -> c < 2147483648 -> n <= 2147483648 ->
  n <= c * 2 ^ N.of_nat fuel ->
  exists j, 1 <= j /\ double fuel c n = Some (c * 2 ^ j) /\ n <= c * 2 ^ j
            /\ c * 2 ^ j < 4294967296.
Proof.
  induction fuel as [|fuel IH]; intros c n F C0 C N0 B; [lia|].
  cbn [double]. rewrite u32_small by lia.
  destruct (N.ltb_spec (c * 2) n) as [L|L].
  - destruct fuel as [|fuel].
    { exfalso. change (2 ^ N.of_nat 1) with 2 in B. lia. }
    destruct (IH (c * 2) n) as (j & J & D & X & Y); try lia.
    + rewrite Nat2N.inj_succ, N.pow_succ_r' in B. lia.
    + exists (N.succ j). rewrite N.pow_succ_r'.
      replace (c * (2 * 2 ^ j)) with (c * 2 * 2 ^ j) by lia. repeat split; try assumption. lia.
  - exists 1. change (2 ^ 1) with 2. repeat split; try lia.
Qed.

Lemma strlen_text : forall t r, ~ In NUL t -> strlen (t ++ NUL :: r) = Some (nlen t).
Proof.
  induction t as [|c t IH]; intros r X; cbn [app strlen].
  - reflexivity.
  - destruct (ceqb_spec c NUL) as [->|_]; [exfalso; apply X; left; reflexivity|].
    rewrite IH by (intros Y; apply X; right; exact Y). cbn [option_map]. unfold nlen.
    cbn [length]. f_equal. lia.
Qed.

Lemma split_at : forall (m : bytes) n c, nth_error m n = Some c ->
  m = firstn n m ++ c :: skipn (S n) m.
Proof.
  induction m as [|x m IH]; intros n c H; destruct n; cbn in H; try discriminate.
  - injection H as ->. reflexivity.
  - cbn [firstn app]. rewrite <- (IH n c H) || (f_equal; apply IH; exact H).
Qed.

(** ** the invariant of a buffer that began with [c0] bytes and holds [t] *)
Record holds (c0 : N) (md : smode) (sb : sbuf) (t : bytes) : Prop := {
  h_mode : mode sb = md;
  h_len : len sb = nlen t;
  h_text : firstn (length t) (mem sb) = t;
  h_cap : (cap sb = 0 /\ c0 = 0 /\ over sb = false /\ t = [])
          \/ (nlen t < cap sb /\ cap sb <= nlen (mem sb) /\ cap sb < 4294967296
              /\ nth_error (mem sb) (length t) = Some NUL
              /\ exists j, cap sb = (if c0 =? 0 then 1024 else c0) * 2 ^ j);
  h_slen : over sb = true -> md = ObjStr -> slen sb = cap sb;
  h_err : over sb = true -> md <> Error;
  h_first : over sb = false -> cap sb = c0
}.

Lemma holds_init : forall buf md, nlen buf < 2147483648 ->
  holds (nlen buf) md (sbuf_init buf md) [].
Proof.
  intros buf md L. constructor; try reflexivity; try discriminate.
  unfold sbuf_init; cbn [cap over mem]. destruct buf as [|c b]; [left; repeat split|right].
  assert (P : 0 < nlen (c :: b)) by (unfold nlen; cbn [length]; lia).
  split; [exact P|]. split; [unfold nlen; cbn [length]; lia|]. split; [lia|].
  split; [reflexivity|].
  - exists 0. destruct (N.eqb_spec (nlen (c :: b)) 0); [lia|]. change (2 ^ 0) with 1. lia.
Qed.

Lemma start_small : forall c0 cp n, n < 2147483648 -> cp <= n ->
  (cp = 0 \/ exists j, cp = (if c0 =? 0 then 1024 else c0) * 2 ^ j) ->
  exists k, 1 <= k
    /\ double 33 (if cp =? 0 then 1024 else cp) n = Some ((if cp =? 0 then 1024 else cp) * 2 ^ k)
    /\ n <= (if cp =? 0 then 1024 else cp) * 2 ^ k
    /\ (if cp =? 0 then 1024 else cp) * 2 ^ k < 4294967296.
Proof.
  intros c0 cp n N0 C J. apply double_spec; try lia.
  - destruct (N.eqb_spec cp 0); lia.
  - destruct (N.eqb_spec cp 0); lia.
  - change (2 ^ N.of_nat 33) with 8589934592. destruct (N.eqb_spec cp 0); lia.
Qed.

Section Junk.
Variable junk : nat -> ascii.

Lemma realloc_len : forall m n, nlen (realloc junk m n) = n.
Proof.
  intros. unfold realloc, nlen. rewrite app_length, firstn_length, map_length, seq_length. lia.
Qed.

Lemma realloc_text : forall m n k, (k <= length m)%nat -> (k <= N.to_nat n)%nat ->
  firstn k (realloc junk m n) = firstn k m.
Proof.
  intros m n k A C. unfold realloc. rewrite firstn_app, firstn_firstn, firstn_length.
  replace (k - _)%nat with 0%nat by lia. cbn [firstn]. rewrite app_nil_r. f_equal. lia.
Qed.

(** growing: either it stops because the buffer must not grow, or there is more room *)
Lemma grow_ok : forall c0 md sb t inc,
  holds c0 md sb t -> nlen t + inc < 2147483648 ->
  (md = Error /\ over sb = false /\ c0 <= nlen t + inc /\ sbuf_grow junk sb inc = Fatal)
  \/ exists sb1, sbuf_grow junk sb inc = Ok sb1 /\ mode sb1 = md /\ len sb1 = len sb
       /\ firstn (length t) (mem sb1) = t
       /\ nlen t + inc <= cap sb1 /\ cap sb1 <= nlen (mem sb1) /\ 0 < cap sb1
       /\ cap sb1 < 4294967296
       /\ (nlen t + inc = cap sb1 -> grown_size c0 (nlen t + inc))
       /\ (exists j, cap sb1 = (if c0 =? 0 then 1024 else c0) * 2 ^ j)
       /\ (over sb1 = true -> md = ObjStr -> slen sb1 = cap sb1)
       /\ (over sb1 = true -> md <> Error)
       /\ (over sb1 = false -> cap sb1 = c0 /\ nlen t + inc < c0).
Proof.
  intros c0 md sb t inc H B. destruct H as [Hm Hl Ht Hc Hs He Hf].
  unfold sbuf_grow. rewrite Hl. rewrite (u32_small (nlen t + inc)) by lia.
  destruct (N.ltb_spec (nlen t + inc) (cap sb)) as [L|L].
  { right. destruct Hc as [(C & _)|(C1 & C2 & C3 & C4 & j & C5)]; [lia|].
    exists sb. rewrite Hl. split; [reflexivity|]. repeat split; try assumption; try lia.
    - exists j. exact C5.
    - apply Hf. assumption.
    - rewrite <- (Hf H). exact L. }
  destruct (start_small c0 (cap sb) (nlen t + inc)) as (k & K & D & X & Y); try lia.
  { destruct Hc as [(C & _)|(_ & _ & _ & _ & j & C5)]; [left; exact C|right; exists j; exact C5]. }
  rewrite D. set (nc := (if cap sb =? 0 then 1024 else cap sb) * 2 ^ k) in *.
  assert (G2 : exists j, 1 <= j /\ nc = (if c0 =? 0 then 1024 else c0) * 2 ^ j).
  { destruct Hc as [(C & C' & _)|(_ & _ & _ & _ & j & C5)].
    - exists k. subst nc. rewrite C, C'. split; [exact K|reflexivity].
    - exists (j + k). split; [lia|]. subst nc. rewrite N.pow_add_r, N.mul_assoc, <- C5.
      destruct (N.eqb_spec (cap sb) 0) as [E|E]; [|reflexivity].
      exfalso. rewrite E in C5. symmetry in C5. apply N.mul_eq_0 in C5.
      destruct C5 as [C5|C5]; [destruct (N.eqb_spec c0 0); lia|].
      revert C5. apply N.pow_nonzero. lia. }
  assert (G : nlen t + inc = nc -> grown_size c0 (nlen t + inc)).
  { intros E. destruct G2 as (j & J & E2). exists j. split; [exact J|]. rewrite E. exact E2. }
  assert (G3 : exists j, nc = (if c0 =? 0 then 1024 else c0) * 2 ^ j).
  { destruct G2 as (j & _ & E2). exists j. exact E2. }
  assert (Nc : cap sb < nc).
  { subst nc. assert (2 ^ 1 <= 2 ^ k) by (apply N.pow_le_mono_r; lia). change (2 ^ 1) with 2 in H.
    destruct (N.eqb_spec (cap sb) 0); [lia|]. nia. }
  assert (Lt : (length t <= length (mem sb))%nat).
  { rewrite <- Ht, firstn_length. lia. }
  assert (Ltn : nlen t <= cap sb).
  { destruct Hc as [(C & _ & _ & ->)|(C & _)]; [unfold nlen; cbn; lia|lia]. }
  assert (E64 : nlen t <= nc) by lia.
  destruct (over sb) eqn:Eo.
  - (* it had grown before *)
    destruct Hc as [(_ & _ & X1 & _)|(C1 & C2 & C3 & C4 & j & C5)]; [discriminate|].
    rewrite Hm. destruct md.
    + right. eexists. split; [reflexivity|]. cbn [mode len mem cap over slen].
      rewrite Hs by reflexivity.
      assert (Lg : nlen (grow_mem (mem sb) (cap sb) (nc - cap sb)) = nc).
      { unfold grow_mem. rewrite u32_small by lia. rewrite nlen_app, nlen_zeros.
        unfold nlen at 1. rewrite firstn_length. unfold nlen in C2. lia. }
      repeat split; try assumption; try lia; try discriminate.
      * unfold grow_mem. rewrite firstn_app, firstn_firstn, firstn_length.
        unfold nlen in C1, C2.
        replace (length t - Nat.min _ _)%nat with 0%nat by lia. cbn [firstn]. rewrite app_nil_r.
        rewrite Nat.min_l by lia. exact Ht.
    + right.
      destruct (write_ok (realloc junk (mem sb) nc) (nlen t) (zeros (nc - cap sb)))
        as (m1 & W & W1 & W2 & W3 & W4).
      { rewrite realloc_len, nlen_zeros. lia. }
      rewrite W. cbn [obind]. rewrite realloc_len in W1. rewrite to_nat_nlen in W2.
      eexists. split; [reflexivity|]. cbn [mode len mem cap over slen].
      repeat split; try assumption; try lia; try discriminate.
      rewrite W2, realloc_text; [exact Ht|lia|]. unfold nlen in E64. lia.
    + exfalso. apply He; reflexivity.
  - rewrite Hm. destruct md.
    + assert (R : exists big, reserve_str nc = Ok (zeros (nc + 1), big) \/
                  nc + 1 = 4294967296).
      { unfold reserve_str. destruct (N.eq_dec (nc + 1) 4294967296) as [E|E];
          [exists true; right; exact E|].
        rewrite u32_small by lia.
        destruct (N.ltb_spec chrs_bucket_size (nc + 1)) as [A|A]; [exists true; left; reflexivity|].
        destruct (N.ltb_spec (nc + 1) chrs_bucket_size) as [A'|A']; [exists false; left; reflexivity|].
        exfalso. unfold chrs_bucket_size in *.
        assert (E2 : nc = 4095) by lia. revert E2. clear - K. subst nc.
        replace k with (N.succ (k - 1)) by lia. rewrite N.pow_succ_r'. lia. }
      destruct R as (big & [R|R]).
      2:{ exfalso. revert R. subst nc. replace k with (N.succ (k - 1)) by lia.
          rewrite N.pow_succ_r'. lia. }
      right. rewrite R. cbn [obind].
      destruct (write_ok (zeros (nc + 1)) 0 (firstn (N.to_nat (nlen t)) (mem sb)))
        as (m1 & W & W1 & W2 & W3 & W4).
      { rewrite to_nat_nlen, Ht, nlen_zeros. lia. }
      rewrite W. cbn [obind]. rewrite nlen_zeros in W1. rewrite to_nat_nlen, Ht in W3.
      eexists. split; [reflexivity|]. cbn [mode len mem cap over slen].
      repeat split; try assumption; try lia; try discriminate.
    + right.
      destruct (write_ok (zeros nc) 0 (firstn (N.to_nat (nlen t)) (mem sb)))
        as (m1 & W & W1 & W2 & W3 & W4).
      { rewrite to_nat_nlen, Ht, nlen_zeros. lia. }
      rewrite W. cbn [obind]. rewrite nlen_zeros in W1. rewrite to_nat_nlen, Ht in W3.
      eexists. split; [reflexivity|]. cbn [mode len mem cap over slen].
      repeat split; try assumption; try lia; try discriminate.
    + left. rewrite (Hf eq_refl) in L. repeat split; lia.
Qed.

(** putting a text with its NUL at the end *)
Lemma put_ok : forall c0 md sb t s,
  mode sb = md -> len sb = nlen t -> firstn (length t) (mem sb) = t ->
  nlen t + nlen s < cap sb -> cap sb <= nlen (mem sb) -> cap sb < 4294967296 ->
  (exists j, cap sb = (if c0 =? 0 then 1024 else c0) * 2 ^ j) ->
  (over sb = true -> md = ObjStr -> slen sb = cap sb) ->
  (over sb = true -> md <> Error) ->
  (over sb = false -> cap sb = c0) ->
  exists sb1, put sb (s ++ [NUL]) (nlen s) = Ok sb1 /\ holds c0 md sb1 (t ++ s)
              /\ over sb1 = over sb.
Proof.
  intros c0 md sb t s Hm Hl Ht L1 L2 L3 Hj Hs He Hf. unfold put.
  destruct (write_ok (mem sb) (len sb) (s ++ [NUL])) as (m1 & W & W1 & W2 & W3 & W4).
  { rewrite nlen_app, Hl. change (nlen [NUL]) with 1. lia. }
  rewrite W. cbn [obind]. eexists. split; [reflexivity|]. split; [|reflexivity].
  rewrite Hl, to_nat_nlen, Ht in W3. rewrite app_length in W3. cbn [length] in W3.
  assert (T : firstn (length (t ++ s)) m1 = t ++ s).
  { rewrite app_length. replace (length t + length s)%nat with
      (Nat.min (length t + length s) (length t + (length s + 1))) by lia.
    rewrite <- firstn_firstn, W3, app_assoc, firstn_app.
    rewrite <- app_length, firstn_all, Nat.sub_diag. cbn [firstn]. apply app_nil_r. }
  constructor; cbn [mode len mem cap over slen]; try assumption.
  - rewrite Hl, u32_small, nlen_app by lia. reflexivity.
  - right. rewrite nlen_app. repeat split; try lia; try assumption.
    assert (Q : nth_error (firstn (length t + (length s + 1)) m1) (length (t ++ s)) = Some NUL).
    { rewrite W3, app_assoc, nth_error_app2 by lia. rewrite Nat.sub_diag. reflexivity. }
    rewrite <- Q. rewrite <- (firstn_skipn (length t + (length s + 1)) m1) at 1.
    apply nth_error_app1. rewrite W3, !app_length. cbn [length]. lia.
Qed.

(** what an operation needs *)
Definition fine (c0 : N) (t : bytes) (o : op) : Prop :=
  nlen (adds t o) < 2147483646
  /\ match o with Pushf s => ~ grown_size c0 (nlen (t ++ s)) | _ => True end.

Lemma step_ok : forall c0 md sb t o, holds c0 md sb t -> nlen t < 2147483646 -> fine c0 t o ->
  (md = Error /\ step junk sb o = Fatal /\ c0 <= nlen (adds t o) + 1)
  \/ exists sb1, step junk sb o = Ok sb1 /\ holds c0 md sb1 (adds t o)
       /\ (md = Error -> nlen t < c0 \/ t = [] -> nlen (adds t o) < c0 \/ adds t o = []).
Proof.
  intros c0 md sb t o H T0 (F1 & F2).
  assert (P : forall s inc, nlen (t ++ s) < 2147483646 ->
      (inc = nlen s + 1 \/ (inc = nlen s /\ ~ grown_size c0 (nlen (t ++ s)))) ->
      (md = Error /\ obind (sbuf_grow junk sb inc) (fun sb => put sb (s ++ [NUL]) (nlen s)) = Fatal
         /\ c0 <= nlen (t ++ s) + 1)
      \/ exists sb1, obind (sbuf_grow junk sb inc) (fun sb => put sb (s ++ [NUL]) (nlen s)) = Ok sb1
           /\ holds c0 md sb1 (t ++ s) /\ (md = Error -> nlen (t ++ s) < c0)).
  { intros s inc L I. rewrite nlen_app in *.
    destruct (grow_ok c0 md sb t inc H) as [(E & _ & C & ->)|(sb1 & -> & M1 & M2 & M3 & M4 & M5 & M6 & M7 & M8 & M9 & M10 & M11 & M12)].
    - lia.
    - left. split; [exact E|]. split; [reflexivity|]. lia.
    - right. cbn [obind].
      assert (Room : nlen t + nlen s < cap sb1).
      { destruct I as [->|(-> & X)]; [lia|].
        assert (nlen t + nlen s <> cap sb1) by (intros Q; apply X; apply M8; exact Q). lia. }
      destruct (put_ok c0 md sb1 t s) as (sb2 & P1 & P2 & P3); try assumption.
      + rewrite M2. apply (h_len _ _ _ _ H).
      + intros O. apply M12. exact O.
      + exists sb2. split; [exact P1|]. split; [exact P2|]. intros E.
        destruct (over sb1) eqn:O; [exfalso; apply M11; [reflexivity|exact E]|].
        destruct (M12 eq_refl) as (Q1 & Q2). rewrite <- Q1. lia. }
  destruct o as [|c|s|s|s]; cbn [adds step] in *.
  - (* Clear *)
    right. destruct H as [Hm Hl Ht Hc Hs He Hf].
    destruct (write_ok (mem sb) 0 (zeros (len sb))) as (m1 & W & W1 & W2 & W3 & W4).
    { rewrite nlen_zeros, Hl. destruct Hc as [(_ & _ & _ & ->)|Hc]; [unfold nlen; cbn; lia|lia]. }
    rewrite W. cbn [obind]. eexists. split; [reflexivity|]. split.
    + constructor; cbn [mode len mem cap over slen]; try assumption; try reflexivity.
      destruct Hc as [(A & A1 & A2 & A3)|(A1 & A2 & A3 & A4 & A5)].
      * left. repeat split; assumption.
      * right. rewrite W1. change (nlen []) with 0. repeat split; try lia; try assumption.
        cbn [N.to_nat] in W3. cbn [Nat.add firstn app] in W3.
        unfold zeros in W3. rewrite repeat_length, Hl, to_nat_nlen in W3.
        unfold zeros in W4. rewrite repeat_length, Hl, to_nat_nlen in W4. cbn [N.to_nat] in W4.
        destruct t as [|c t]; cbn [length] in *.
        -- rewrite W4 by lia. exact A4.
        -- cbn [repeat] in W3. destruct m1 as [|x m1]; cbn [firstn] in W3; [discriminate|].
           injection W3 as -> _. reflexivity.
    + intros. right. reflexivity.
  - destruct (P [c] 2 F1) as [A|(sb1 & A1 & A2 & A3)].
    + left. reflexivity.
    + left. exact A.
    + right. exists sb1. split; [exact A1|]. split; [exact A2|]. intros E _. left. apply A3. exact E.
  - destruct (N.eqb_spec (nlen s) 0) as [E0|E0].
    + assert (s = []) as -> by (destruct s; [reflexivity|unfold nlen in E0; cbn in E0; lia]).
      rewrite app_nil_r in *. right. exists sb. split; [reflexivity|]. split; [exact H|]. tauto.
    + rewrite nlen_app in F1. rewrite (u32_small (nlen s + 1)) by lia.
      destruct (P s (nlen s + 1)) as [A|(sb1 & A1 & A2 & A3)].
      * rewrite nlen_app. exact F1.
      * left. reflexivity.
      * left. exact A.
      * right. exists sb1. split; [exact A1|]. split; [exact A2|]. intros E _. left. apply A3. exact E.
  - rewrite nlen_app in F1. rewrite (u32_small (nlen s + 1)) by lia.
    destruct (N.ltb_spec (nlen s + 1) 2) as [E0|E0].
    + assert (s = []) as -> by (destruct s; [reflexivity|unfold nlen in E0; cbn [length] in E0; lia]).
      rewrite app_nil_r in *. right. exists sb. split; [reflexivity|]. split; [exact H|]. tauto.
    + replace (nlen s + 1 - 1) with (nlen s) by lia.
      destruct (P s (nlen s + 1)) as [A|(sb1 & A1 & A2 & A3)].
      * rewrite nlen_app. exact F1.
      * left. reflexivity.
      * left. exact A.
      * right. exists sb1. split; [exact A1|]. split; [exact A2|]. intros E _. left. apply A3. exact E.
  - destruct (P s (nlen s) F1) as [A|(sb1 & A1 & A2 & A3)].
    + right. split; [reflexivity|exact F2].
    + left. exact A.
    + right. exists sb1. split; [exact A1|]. split; [exact A2|]. intros E _. left. apply A3. exact E.
Qed.
End Junk.
