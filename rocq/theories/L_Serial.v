(** Lemmas about saving and loading objects. *)
From Coq Require Import NArith Lia.
From Verif Require Import Base M_Serial S_Serial.

Lemma Ok_inj {A} (a b : A) : Ok a = Ok b -> a = b.
Proof. congruence. Qed.

(** ** Lists *)
Lemma nth_upd {A} (l : list A) i j x : nth_error (upd i x l) j = if i =? j then (match nth_error l j with Some _ => Some x | None => None end) else nth_error l j.
Proof.
  revert i j. induction l as [|a l IH]; intros [|i] [|j]; try reflexivity.
  - cbn. now destruct (i =? j).
  - cbn [upd nth_error Nat.eqb]. apply IH.
Qed.
Lemma length_upd {A} (l : list A) i x : length (upd i x l) = length l.
Proof. revert i. induction l as [|a l IH]; intros [|i]; cbn; auto. Qed.
Lemma upd_app_l {A} (a b : list A) i x : i < length a -> upd i x (a ++ b) = upd i x a ++ b.
Proof. revert i. induction a as [|y a IH]; intros [|i] H; cbn in *; try lia; [reflexivity|]. f_equal. apply IH. lia. Qed.
Lemma upd_app_r {A} (a b : list A) i x : upd (length a + i) x (a ++ b) = a ++ upd i x b.
Proof. induction a as [|y a IH]; cbn; [reflexivity|]. now rewrite IH. Qed.
Lemma nth_error_some {A} (l : list A) i x : nth_error l i = Some x -> i < length l.
Proof. intros H. apply nth_error_Some. congruence. Qed.

(** ** Elements of dictionaries *)
Section Buckets.
Lemma full_tail b c bs : full_but_last (b :: c :: bs) -> length b = N.to_nat ELEMS_BUCKET /\ full_but_last (c :: bs).
Proof. intros H. exact H. Qed.
Local Opaque ELEMS_BUCKET.
Lemma EB : N.to_nat ELEMS_BUCKET = 1024. Proof. reflexivity. Qed.
Lemma EB0 : ELEMS_BUCKET <> 0%N. Proof. discriminate. Qed.
Lemma bget_concat bs i : full_but_last bs -> bget ELEMS_BUCKET bs i = nth_error (concat bs) (N.to_nat i).
Proof.
  unfold bget. revert i. induction bs as [|b bs IH]; intros i F; [destruct F|].
  destruct bs as [|c bs].
  - destruct F as [F1 F2]. cbn [concat]. rewrite app_nil_r. destruct (N.lt_ge_cases i ELEMS_BUCKET) as [L|L].
    + rewrite N.div_small, N.mod_small by exact L. reflexivity.
    + assert (H1 : (1 <= i / ELEMS_BUCKET)%N). { apply N.div_le_lower_bound; [apply EB0|lia]. }
      replace (N.to_nat (i / ELEMS_BUCKET)) with (S (N.to_nat (i / ELEMS_BUCKET - 1))) by lia. cbn [nth_error].
      replace (nth_error [] (N.to_nat (i / ELEMS_BUCKET - 1))) with (@None (list elem)) by now destruct (N.to_nat (i / ELEMS_BUCKET - 1)).
      symmetry. apply nth_error_None. lia.
  - apply full_tail in F. destruct F as [F1 F2]. cbn [concat]. destruct (N.lt_ge_cases i ELEMS_BUCKET) as [L|L].
    + rewrite N.div_small, N.mod_small by exact L. cbn [nth_error N.to_nat]. rewrite nth_error_app1; [reflexivity|lia].
    + rewrite nth_error_app2 by lia. replace (N.to_nat i - length b) with (N.to_nat (i - ELEMS_BUCKET)) by lia.
      specialize (IH (i - ELEMS_BUCKET)%N F2). change (concat (c :: bs)) with (c ++ concat bs) in IH. rewrite <- IH.
      assert (E : (i = ELEMS_BUCKET * 1 + (i - ELEMS_BUCKET))%N) by lia.
      assert (H1 : (i / ELEMS_BUCKET = 1 + (i - ELEMS_BUCKET) / ELEMS_BUCKET)%N).
      { rewrite E at 1. rewrite N.mul_comm, N.div_add_l by apply EB0. reflexivity. }
      assert (H2 : (i mod ELEMS_BUCKET = (i - ELEMS_BUCKET) mod ELEMS_BUCKET)%N).
      { rewrite E at 1. rewrite N.mul_comm, N.add_comm, N.mod_add by apply EB0. reflexivity. }
      rewrite H1, H2. replace (N.to_nat (1 + (i - ELEMS_BUCKET) / ELEMS_BUCKET)) with (S (N.to_nat ((i - ELEMS_BUCKET) / ELEMS_BUCKET))) by lia.
      reflexivity.
Qed.
Lemma bset_concat bs i x : full_but_last bs -> N.to_nat i < length (concat bs) ->
  concat (bset ELEMS_BUCKET bs i x) = upd (N.to_nat i) x (concat bs) /\ full_but_last (bset ELEMS_BUCKET bs i x).
Proof.
  unfold bset. cbv zeta. revert i. induction bs as [|b bs IH]; intros i F H; [destruct F|].
  destruct bs as [|c bs].
  - cbn [concat] in *. rewrite app_nil_r in *. destruct F as [F1 F2].
    rewrite N.div_small, N.mod_small by lia. cbn [N.to_nat nth upd concat]. rewrite app_nil_r. split; [reflexivity|]. cbn. rewrite length_upd. lia.
  - apply full_tail in F. destruct F as [F1 F2]. change (concat (b :: c :: bs)) with (b ++ concat (c :: bs)) in *.
    destruct (N.lt_ge_cases i ELEMS_BUCKET) as [L|L].
    + rewrite N.div_small, N.mod_small by exact L. cbn [nth upd N.to_nat].
      change (concat (?y :: c :: bs)) with (y ++ concat (c :: bs)). rewrite upd_app_l by lia. split; [reflexivity|].
      split; [rewrite length_upd; exact F1|exact F2].
    + assert (E : (i = ELEMS_BUCKET * 1 + (i - ELEMS_BUCKET))%N) by lia.
      assert (H1 : (i / ELEMS_BUCKET = 1 + (i - ELEMS_BUCKET) / ELEMS_BUCKET)%N).
      { rewrite E at 1. rewrite N.mul_comm, N.div_add_l by apply EB0. reflexivity. }
      assert (H2 : (i mod ELEMS_BUCKET = (i - ELEMS_BUCKET) mod ELEMS_BUCKET)%N).
      { rewrite E at 1. rewrite N.mul_comm, N.add_comm, N.mod_add by apply EB0. reflexivity. }
      rewrite H1, H2. replace (N.to_nat (1 + (i - ELEMS_BUCKET) / ELEMS_BUCKET)) with (S (N.to_nat ((i - ELEMS_BUCKET) / ELEMS_BUCKET))) by lia.
      rewrite app_length in H. destruct (IH (i - ELEMS_BUCKET)%N F2) as [I1 I2]; [lia|].
      replace (N.to_nat i) with (length b + N.to_nat (i - ELEMS_BUCKET)) by lia. rewrite upd_app_r, <- I1.
      cbn [nth upd]. split; [reflexivity|]. set (q := upd _ _ (c :: bs)) in *. destruct q as [|y q]; [destruct I2|]. split; [exact F1|exact I2].
Qed.
Lemma epush bs x : full_but_last bs ->
  concat (fst (pushn ELEMS_BUCKET bs [x])) = concat bs ++ [x] /\ full_but_last (fst (pushn ELEMS_BUCKET bs [x])).
Proof.
  unfold pushn. cbv zeta. induction bs as [|b bs IH]; intros F; [destruct F|]. destruct bs as [|c bs].
  - destruct F as [F1 F2]. cbn [length Nat.sub nth concat]. rewrite app_nil_r. destruct (N.ltb_spec ELEMS_BUCKET (N.of_nat (length b + 1))) as [L|L].
    + cbn [fst app concat]. split; [reflexivity|]. split; [lia|]. cbn. rewrite EB. lia.
    + cbn [fst upd concat]. rewrite app_nil_r. split; [reflexivity|]. cbn. rewrite app_length. cbn. lia.
  - apply full_tail in F. destruct F as [F1 F2]. specialize (IH F2). cbn [length Nat.sub] in *. rewrite Nat.sub_0_r in *.
    revert IH. cbn [nth]. change (match length bs with 0 => c | S m => nth m bs [] end) with (nth (length bs) (c :: bs) []).
    destruct (N.ltb_spec ELEMS_BUCKET (N.of_nat (length (nth (length bs) (c :: bs) []) + 1))) as [L|L]; intros IH.
    + cbn [fst] in *. destruct IH as [I1 I2]. change (concat ((b :: c :: bs) ++ [[x]])) with (b ++ concat ((c :: bs) ++ [[x]])).
      change (concat (b :: c :: bs)) with (b ++ concat (c :: bs)). rewrite I1, app_assoc. split; [reflexivity|]. split; [exact F1|exact I2].
    + cbn [fst] in *. destruct IH as [I1 I2]. cbn [upd]. change (concat (b :: ?y)) with (b ++ concat y).
      rewrite I1, app_assoc. split; [reflexivity|]. set (q := upd _ _ (c :: bs)) in *. destruct q as [|y q]; [destruct I2|]. split; [exact F1|exact I2].
Qed.
End Buckets.
Lemma elemat_flat w e : sane w -> elemat w e = nth_error (concat (elems w)) (N.to_nat e).
Proof. intros S0. apply bget_concat, S0. Qed.

(** ** How workspaces grow *)
Definition nobj (w : wk) : N := N.of_nat (length (objs w)).
Definition nelem (w : wk) : N := blen (elems w).
(** an upper bound of the position in wk->chrs *)
Definition cap (w : wk) : N := (CHRS_BUCKET * N.of_nat (length (chrs w) - 1) + N.of_nat (length (last (chrs w) [])))%N.
Definition heap (w : wk) : N := N.of_nat (length (big_strings (objs w))).
Definition imm (c : cell) : bool := match c with Str _ _ _ => true | Simple t _ => (t =? 0)%N | _ => false end.
Definition chrs_ext (w w' : wk) : Prop :=
  forall b l, nth_error (chrs w) b = Some l -> exists x, nth_error (chrs w') b = Some (l ++ x).
Record agree (X Y : N -> Prop) (w w' : wk) : Prop := {
  ag_c : forall i c, get w i = Some c -> ~ X i -> get w' i = Some c;
  ag_i : forall i c, get w i = Some c -> imm c = true -> get w' i = Some c;
  ag_e : forall e x, elemat w e = Some x -> ~ Y e -> elemat w' e = Some x;
  ag_s : chrs_ext w w'
}.
Definition nowhere (_ : N) : Prop := False.

Lemma chrs_ext_refl w : chrs_ext w w.
Proof. intros b l H. exists []. now rewrite app_nil_r. Qed.
Lemma chrs_ext_trans w w1 w2 : chrs_ext w w1 -> chrs_ext w1 w2 -> chrs_ext w w2.
Proof. intros H K b l E. destruct (H _ _ E) as (x & E1). destruct (K _ _ E1) as (y & E2). exists (x ++ y). now rewrite app_assoc. Qed.
Lemma agree_refl X Y w : agree X Y w w.
Proof. constructor; auto using chrs_ext_refl. Qed.
Lemma agree_trans X Y w w1 w2 : agree X Y w w1 -> agree X Y w1 w2 -> agree X Y w w2.
Proof. intros [A1 A2 A3 A4] [B1 B2 B3 B4]. constructor; eauto using chrs_ext_trans. Qed.
Lemma agree_weaken (X Y X' Y' : N -> Prop) w w' : (forall i, X i -> X' i) -> (forall i, Y i -> Y' i) -> agree X Y w w' -> agree X' Y' w w'.
Proof. intros H K [A1 A2 A3 A4]. constructor; eauto. Qed.

Lemma placed_read w p len fl l s : string_placed w (Str p len fl) -> chars w p len = Ok s -> p = InBucket (fst l) (snd l) ->
  exists b, nth_error (chrs w) (N.to_nat (fst l)) = Some b /\ (snd l + len <= N.of_nat (length b))%N /\
    s = firstn (N.to_nat len) (skipn (N.to_nat (snd l)) b).
Proof.
  intros P C E. subst p. destruct l as [b off]. cbn [fst snd] in *. destruct P as (l & E & L). exists l. refine (conj E (conj L _)).
  cbn [chars] in C. rewrite E in C. destruct (_ <=? _)%N; [|discriminate]. apply Ok_inj in C. subst s.
  rewrite skipn_app, firstn_app. replace (N.to_nat len - length (skipn (N.to_nat off) l)) with 0 by (rewrite skipn_length; lia).
  cbn [firstn]. now rewrite app_nil_r.
Qed.
Lemma strat_agree X Y w w' o s : sane w -> agree X Y w w' -> (forall b l, nth_error (chrs w') b = Some l -> length l <= N.to_nat CHRS_BUCKET) ->
  strat w o = Some s -> strat w' o = Some s.
Proof.
  intros S0 [A1 A2 A3 A4] L H. unfold strat, str in *. destruct (get w o) as [c|] eqn:G; [|discriminate].
  destruct c as [| |p len fl| | | |]; try discriminate. rewrite (A2 _ _ G eq_refl).
  destruct p as [b off|l]; [|exact H]. cbn [chars] in *. pose proof (sane_strs _ S0) as P. rewrite Forall_forall in P.
  unfold get in G. apply nth_error_In in G. apply P in G. destruct G as (l & E & Lo). rewrite E in H. destruct (A4 _ _ E) as (x & E'). rewrite E'.
  destruct (_ <=? _)%N; [|discriminate]. rewrite <- H. f_equal.
  rewrite <- app_assoc. rewrite !skipn_app, !firstn_app, !skipn_length.
  replace (N.to_nat len - (length l - N.to_nat off)) with 0 by lia. cbn [firstn]. reflexivity.
Qed.

(** what is known of new objects, if the workspace is not too large *)
Definition fields_small (sch : list (kind * nat)) (fs : list N) : Prop := Forall2 (fun kw v => (v < 256 ^ N.of_nat (snd kw))%N) sch fs.
Definition small (w : wk) (c : cell) : Prop :=
  match c with
  | Simple t v => (t < 7 /\ v < 2 ^ 32)%N
  | Number v => (v < 2 ^ 64)%N
  | Str (InBucket b off) len fl => (fl = 0 /\ len < 2 ^ 32 /\ b * CHRS_BUCKET + off < 2 ^ 32)%N /\
      exists l, nth_error (chrs w) (N.to_nat b) = Some l /\ (off + len < N.of_nat (length l))%N
  | Str (OnHeap l) len fl => (fl = 1 /\ len < 2 ^ 32)%N /\ exists s, l = s ++ [NUL] /\ len = N.of_nat (length s)
  | Arr v n t l h => (v < 2 ^ 32 /\ n < 2 ^ 32 /\ t < 2 ^ 32 /\ l < 2 ^ 32)%N
  | Dict d l t f => (d < 2 ^ 32 /\ l < 2 ^ 32 /\ t < 2 ^ 32 /\ f < 2 ^ 32)%N
  | Rec t fs => exists sch order, schema t = Some (sch, order) /\ fields_small sch fs
  | Opaque _ _ => False
  end.
Definition elem_small (e : elem) : Prop := let '(n, k, v) := e in (n < 2 ^ 32 /\ k < 2 ^ 32 /\ v < 2 ^ 32)%N.
Definition new_ok (w w' : wk) : Prop :=
  (forall i c, (nobj w <= i)%N -> get w' i = Some c -> small w' c) /\
  (forall e x, (nelem w <= e)%N -> elemat w' e = Some x -> elem_small x).
Definition roomy (r : N) (w : wk) : Prop := (nobj w + r <= 2 ^ 32 /\ nelem w + r <= 2 ^ 32 /\ cap w + r <= 2 ^ 32)%N.
Record grow (r : N) (w w' : wk) : Prop := {
  g_sane : sane w';
  g_agree : agree nowhere nowhere w w';
  g_n : (nobj w <= nobj w' <= nobj w + r)%N;
  g_m : (nelem w <= nelem w' <= nelem w + r)%N;
  g_cap : (cap w' <= cap w + r)%N;
  g_heap : (heap w' <= heap w + r)%N;
  g_new : roomy r w -> new_ok w w';
  g_hash : hashes w' = hashes w
}.
Lemma small_ext w w' c : chrs_ext w w' -> small w c -> small w' c.
Proof.
  intros E. destruct c as [| |[b off|l] len fl| | | |]; cbn [small]; auto. intros (H & l & E1 & L). split; [exact H|].
  destruct (E _ _ E1) as (x & E2). exists (l ++ x). split; [exact E2|]. rewrite app_length. lia.
Qed.
Lemma get_lt w i c : get w i = Some c -> (i < nobj w)%N.
Proof. intros H. apply nth_error_some in H. unfold nobj. lia. Qed.
Lemma get_ge w i : (nobj w <= i)%N -> get w i = None.
Proof. intros H. apply nth_error_None. unfold nobj in H. lia. Qed.
Lemma get_some w i : (i < nobj w)%N -> exists c, get w i = Some c.
Proof. intros H. destruct (get w i) as [c|] eqn:E; [eauto|]. apply nth_error_None in E. unfold nobj in H. lia. Qed.
Lemma elem_lt w e x : sane w -> elemat w e = Some x -> (e < nelem w)%N.
Proof. intros S0 H. rewrite elemat_flat in H by exact S0. apply nth_error_some in H. unfold nelem, blen. lia. Qed.
Lemma elem_some w e : sane w -> (e < nelem w)%N -> exists x, elemat w e = Some x.
Proof. intros S0 H. destruct (elemat w e) as [c|] eqn:E; [eauto|]. rewrite elemat_flat in E by exact S0. apply nth_error_None in E. unfold nelem, blen in H. lia. Qed.

Lemma grow_refl w : sane w -> grow 0 w w.
Proof.
  intros S0. constructor; try lia; try exact S0; try apply agree_refl; try reflexivity. intros _. split.
  - intros i c H G. apply get_lt in G. lia.
  - intros e x H G. apply elem_lt in G; [lia|exact S0].
Qed.
Lemma grow_trans r1 r2 w w1 w2 : sane w -> grow r1 w w1 -> grow r2 w1 w2 -> grow (r1 + r2) w w2.
Proof.
  intros S0 G1 G2. constructor.
  - apply G2.
  - eapply agree_trans; [apply G1|apply G2].
  - pose proof (g_n _ _ _ G1). pose proof (g_n _ _ _ G2). lia.
  - pose proof (g_m _ _ _ G1). pose proof (g_m _ _ _ G2). lia.
  - pose proof (g_cap _ _ _ G1). pose proof (g_cap _ _ _ G2). lia.
  - pose proof (g_heap _ _ _ G1). pose proof (g_heap _ _ _ G2). lia.
  - intros (R1 & R2 & R3). assert (N1 : new_ok w w1). { apply (g_new _ _ _ G1). repeat split; lia. }
    assert (N2 : new_ok w1 w2). { apply (g_new _ _ _ G2). pose proof (g_n _ _ _ G1). pose proof (g_m _ _ _ G1). pose proof (g_cap _ _ _ G1). repeat split; lia. }
    split.
    + intros i c H G. destruct (N.lt_ge_cases i (nobj w1)) as [L|L]; [|now apply (proj1 N2 i)].
      destruct (get_some w1 i L) as (c1 & E1). pose proof (ag_c _ _ _ _ (g_agree _ _ _ G2) _ _ E1 (fun x => x)) as E2.
      assert (c1 = c) by congruence. subst c1. eapply small_ext; [apply (ag_s _ _ _ _ (g_agree _ _ _ G2))|]. now apply (proj1 N1 i).
    + intros e x H G. destruct (N.lt_ge_cases e (nelem w1)) as [L|L]; [|now apply (proj2 N2 e)].
      destruct (elem_some w1 e (g_sane _ _ _ G1) L) as (c1 & E1). pose proof (ag_e _ _ _ _ (g_agree _ _ _ G2) _ _ E1 (fun x => x)) as E2.
      assert (c1 = x) by congruence. subst c1. now apply (proj2 N1 e).
  - rewrite (g_hash _ _ _ G2). apply G1.
Qed.
Lemma grow_more r r' w w' : (r <= r')%N -> grow r w w' -> grow r' w w'.
Proof.
  intros L [A B C D E F G H]. constructor; try assumption; try lia. intros (R1 & R2 & R3). apply G. repeat split; lia.
Qed.

(** *** single steps *)
Lemma get_put w o c i : get (put o c w) i = if (o =? i)%N then (match get w i with Some _ => Some c | None => None end) else get w i.
Proof.
  unfold get, put, set_objs. cbn [objs]. rewrite nth_upd. destruct (N.eqb_spec o i) as [E|E]; [subst; now rewrite Nat.eqb_refl|].
  replace (N.to_nat o =? N.to_nat i) with false; [reflexivity|]. symmetry. apply Nat.eqb_neq. lia.
Qed.
Lemma get_add w c i : get (fst (add c w)) i = if (i =? nobj w)%N then Some c else get w i.
Proof.
  unfold get, add, set_objs, nobj. cbn [objs fst]. destruct (N.eqb_spec i (N.of_nat (length (objs w)))) as [E|E].
  - subst i. rewrite Nat2N.id, nth_error_app2, Nat.sub_diag by lia. reflexivity.
  - destruct (Nat.lt_ge_cases (N.to_nat i) (length (objs w))); [now rewrite nth_error_app1 by lia|].
    rewrite nth_error_app2 by lia. replace (N.to_nat i - length (objs w)) with (S (N.to_nat i - length (objs w) - 1)) by lia.
    cbn [nth_error]. destruct (N.to_nat i - length (objs w) - 1); symmetry; apply nth_error_None; lia.
Qed.
Lemma nobj_put o c w : nobj (put o c w) = nobj w.
Proof. unfold nobj, put, set_objs. cbn [objs]. now rewrite length_upd. Qed.
Lemma nobj_add c w : nobj (fst (add c w)) = (nobj w + 1)%N.
Proof. unfold nobj, add, set_objs. cbn [objs fst]. rewrite app_length. cbn. lia. Qed.
Definition is_str (c : cell) : bool := match c with Str _ _ _ => true | _ => false end.
Lemma big_upd cs i c : (forall d, nth_error cs i = Some d -> is_str d = false) -> is_str c = false -> big_strings (upd i c cs) = big_strings cs.
Proof.
  revert i. induction cs as [|d cs IH]; intros i H Hc; [now destruct i|]. destruct i as [|i]; cbn [upd].
  - specialize (H d eq_refl). destruct c; try discriminate; destruct d; try discriminate; reflexivity.
  - cbn [big_strings]. rewrite IH by (auto using H). reflexivity.
Qed.
Lemma big_app a b : big_strings (a ++ b) = big_strings a ++ big_strings b.
Proof.
  induction a as [|c a IH]; [reflexivity|]. cbn [app big_strings]. rewrite IH. destruct c as [| |[b0 off|l] len fl| | | |]; try reflexivity.
  destruct (N.testbit fl 0); [now rewrite app_assoc|reflexivity].
Qed.
Lemma not_imm_str c : imm c = false -> is_str c = false.
Proof. now destruct c. Qed.
Lemma str_placed_put w o c d : string_placed (put o c w) d <-> string_placed w d.
Proof. reflexivity. Qed.
Lemma Forall_upd {A} (P : A -> Prop) l i x : Forall P l -> P x -> Forall P (upd i x l).
Proof. intros H K. revert i. induction H; intros [|i]; cbn; constructor; auto. Qed.
Lemma sane_bound w : sane w -> forall b l, nth_error (chrs w) b = Some l -> length l <= N.to_nat CHRS_BUCKET.
Proof. intros S0 b l H. destruct (sane_chrs _ S0) as [_ F]. rewrite Forall_forall in F. apply F. eapply nth_error_In; exact H. Qed.

Lemma sane_put w o c c0 : sane w -> get w o = Some c0 -> imm c0 = false -> is_str c = false ->
  sane (put o c w) /\ agree (fun i => i = o) nowhere w (put o c w).
Proof.
  intros S0 G I0 I. assert (A : agree (fun i => i = o) nowhere w (put o c w)).
  { constructor.
    - intros i d H K. rewrite get_put. destruct (N.eqb_spec o i); [congruence|exact H].
    - intros i d H K. rewrite get_put. destruct (N.eqb_spec o i); [congruence|exact H].
    - intros e x H _. exact H.
    - exact (chrs_ext_refl w). }
  split; [|exact A]. pose proof S0 as S1. destruct S0 as [N0 Ch St El Ha]. constructor; try assumption.
  - rewrite get_put. destruct (N.eqb_spec o 0) as [E|E]; [|exact N0]. subst o. rewrite N0 in G. injection G as <-. discriminate.
  - cbn [objs put set_objs]. apply Forall_upd; [exact St|]. now destruct c.
  - intros s x H. eapply strat_agree; [exact S1|exact A|apply (sane_bound _ S1)|]. apply Ha. exact H.
Qed.
Lemma grow_put r w0 w o c c0 : grow r w0 w -> (nobj w0 <= o)%N -> get w o = Some c0 -> imm c0 = false -> is_str c = false ->
  (roomy r w0 -> small w c) -> grow r w0 (put o c w).
Proof.
  intros G L E I0 I Sm. destruct (sane_put w o c c0 (g_sane _ _ _ G) E I0 I) as [S1 A1]. destruct G as [A B C D F H J K].
  constructor; try assumption.
  - destruct B as [B1 B2 B3 B4]. constructor.
    + intros i d Hd _. rewrite get_put. destruct (N.eqb_spec o i) as [Q|Q]; [apply get_lt in Hd; lia|]. now apply B1.
    + intros i d Hd _. rewrite get_put. destruct (N.eqb_spec o i) as [Q|Q]; [apply get_lt in Hd; lia|]. now apply B1.
    + intros e x He _. apply (B3 e x He). easy.
    + exact B4.
  - rewrite nobj_put. exact C.
  - unfold heap, put, set_objs. cbn [objs]. rewrite big_upd; [exact H| |exact I]. intros d Hd. unfold get in E. rewrite E in Hd. injection Hd as <-. now apply not_imm_str.
  - intros R. destruct (J R) as [J1 J2]. split; [|exact J2]. intros i d Hi Hd. rewrite get_put in Hd. destruct (N.eqb_spec o i) as [Q|Q].
    + subst i. rewrite E in Hd. injection Hd as <-. exact (Sm R).
    + exact (J1 _ _ Hi Hd).
Qed.
Lemma sane_add w c : sane w -> is_str c = false \/ string_placed w c -> sane (fst (add c w)) /\ agree nowhere nowhere w (fst (add c w)).
Proof.
  intros S0 I. assert (A : agree nowhere nowhere w (fst (add c w))).
  { constructor.
    - intros i d H K. rewrite get_add. destruct (N.eqb_spec i (nobj w)); [apply get_lt in H; lia|exact H].
    - intros i d H K. rewrite get_add. destruct (N.eqb_spec i (nobj w)); [apply get_lt in H; lia|exact H].
    - intros e x H _. exact H.
    - exact (chrs_ext_refl w). }
  split; [|exact A]. pose proof S0 as S1. destruct S0 as [N0 Ch St El Ha]. constructor; try assumption.
  - rewrite get_add. destruct (N.eqb_spec 0 (nobj w)) as [E|E]; [|exact N0]. apply get_lt in N0. lia.
  - cbn [objs add set_objs fst]. apply Forall_app. split; [exact St|]. constructor; [|constructor]. destruct I as [I|I]; [now destruct c|exact I].
  - intros s x H. eapply strat_agree; [exact S1|exact A|apply (sane_bound _ S1)|]. apply Ha. exact H.
Qed.
Lemma grow_add r w0 w c : grow r w0 w -> is_str c = false -> (roomy (r + 1) w0 -> small w c) -> grow (r + 1) w0 (fst (add c w)).
Proof.
  intros G I Sm. destruct (sane_add w c (g_sane _ _ _ G) (or_introl I)) as [S1 A1]. destruct G as [A B C D F H J K].
  constructor; try assumption; try lia.
  - eapply agree_trans; eassumption.
  - rewrite nobj_add. lia.
  - change (nelem (fst (add c w))) with (nelem w). lia.
  - change (cap (fst (add c w))) with (cap w). lia.
  - unfold heap, add, set_objs in *. cbn [objs fst]. rewrite big_app, app_length. destruct c; try discriminate; cbn; lia.
  - intros R. assert (R' : roomy r w0) by (destruct R as (? & ? & ?); repeat split; lia). destruct (J R') as [J1 J2]. split; [|exact J2]. intros i d Hi Hd. rewrite get_add in Hd. destruct (N.eqb_spec i (nobj w)) as [Q|Q].
    + injection Hd as <-. exact (Sm R).
    + exact (J1 _ _ Hi Hd).
Qed.
(** strings *)
Lemma pushn_ext (bs : list bytes) l b off bs' : bs <> [] -> pushn CHRS_BUCKET bs l = (bs', (b, off)) -> length l <= N.to_nat CHRS_BUCKET -> Forall (fun b => length b <= N.to_nat CHRS_BUCKET) bs ->
  (forall i x, nth_error bs i = Some x -> exists y, nth_error bs' i = Some (x ++ y)) /\
  Forall (fun b => length b <= N.to_nat CHRS_BUCKET) bs' /\ bs' <> [] /\
  (exists x, nth_error bs' (N.to_nat b) = Some (x ++ l) /\ off = N.of_nat (length x)) /\
  (b * CHRS_BUCKET + off + N.of_nat (length l) <= CHRS_BUCKET * N.of_nat (length bs' - 1) + N.of_nat (length (last bs' [])))%N /\
  (CHRS_BUCKET * N.of_nat (length bs' - 1) + N.of_nat (length (last bs' [])) <= CHRS_BUCKET * N.of_nat (length bs - 1) + N.of_nat (length (last bs [])) + 2 * N.of_nat (length l))%N.
Proof.
  intros Ne E L F. destruct (exists_last Ne) as (a & z & ->). unfold pushn in E. rewrite app_length in E. cbn [length] in E. replace (length a + 1 - 1) with (length a) in E by lia.
  rewrite nth_middle in E. rewrite last_last, app_length. cbn [length]. replace (length a + 1 - 1) with (length a) by lia.
  destruct (N.ltb_spec CHRS_BUCKET (N.of_nat (length z + length l))) as [K|K]; injection E as <- <- <-.
  - split; [|split; [|split; [|split; [|split]]]].
    + intros i x H. exists []. rewrite app_nil_r. rewrite nth_error_app1; [exact H|]. eapply nth_error_some; exact H.
    + apply Forall_app. split; [exact F|]. constructor; [exact L|constructor].
    + intros H. now apply app_eq_nil in H as [_ H].
    + exists []. split; [|reflexivity]. rewrite Nat2N.id. rewrite nth_error_app2 by (rewrite app_length; cbn; lia). rewrite app_length. cbn [length]. rewrite Nat.sub_diag. reflexivity.
    + rewrite last_last. rewrite !app_length. cbn [length]. lia.
    + rewrite last_last. rewrite !app_length. cbn [length]. lia.
  - replace (upd (length a) (z ++ l) (a ++ [z])) with (a ++ [z ++ l]) by (rewrite <- (Nat.add_0_r (length a)), upd_app_r; reflexivity).
    apply Forall_app in F. destruct F as [F1 F2]. split; [|split; [|split; [|split; [|split]]]].
    + intros i x H. destruct (Nat.lt_ge_cases i (length a)).
      * exists []. rewrite app_nil_r. rewrite nth_error_app1 in * by lia. exact H.
      * rewrite nth_error_app2 in * by lia. destruct (i - length a) as [|k]; [|now destruct k]. injection H as <-. exists l. reflexivity.
    + apply Forall_app. split; [exact F1|]. constructor; [|constructor]. rewrite app_length. lia.
    + intros H. now apply app_eq_nil in H as [_ H].
    + exists z. split; [|reflexivity]. rewrite Nat2N.id, nth_error_app2, Nat.sub_diag by lia. reflexivity.
    + rewrite last_last, !app_length. cbn [length]. lia.
    + rewrite last_last, !app_length. cbn [length]. lia.
Qed.
Lemma assoc_in l s o : assoc l s = Some o -> In (s, o) l.
Proof. induction l as [|[k v] l IH]; [discriminate|]. cbn [assoc]. destruct (beqb_spec k s) as [->|]; [intros [= ->]; now left|]. right. auto. Qed.
Lemma strat_lt w o s : strat w o = Some s -> (o < nobj w)%N.
Proof. unfold strat, str. destruct (get w o) eqn:E; [|discriminate]. intros _. eapply get_lt; exact E. Qed.
Lemma sane_strh w s o : sane w -> strat w o = Some s -> sane (set_strh ((s, o) :: strh w) w).
Proof.
  intros [N0 Ch St El Ha] H. constructor; try assumption. intros s' o' [I|I]; [|now apply Ha]. injection I as <- <-. exact H.
Qed.
Lemma make_str_ok w s : sane w -> string_fits s -> exists w' o, make_str w s = Ok (w', o) /\ strat w' o = Some s /\ grow (string_room s) w w'.
Proof.
  intros S0 Fs. unfold make_str. cbv zeta. set (smallb := (N.of_nat (length s) <=? SMALL_STR_LEN)%N).
  destruct (if smallb then assoc (strh w) s else None) as [o|] eqn:A.
  { exists w, o. split; [reflexivity|]. destruct smallb; [|discriminate]. apply assoc_in in A. split; [now apply (sane_hash _ S0)|].
    apply (grow_more 0); [apply N.le_0_l|]. now apply grow_refl. }
  clear A.
  assert (K : exists w1 c,
     (if (CHRS_BUCKET <? N.of_nat (length s) + 1)%N then Ok (w, Str (OnHeap (s ++ [NUL])) (N.of_nat (length s)) 1)
      else if negb (N.of_nat (length s) + 1 <? CHRS_BUCKET)%N then Abort
      else let '(bs, (b, off)) := pushn CHRS_BUCKET (chrs w) (s ++ [NUL]) in Ok (set_chrs bs w, Str (InBucket b off) (N.of_nat (length s)) 0)) = Ok (w1, c) /\
     sane w1 /\ chrs_ext w w1 /\ objs w1 = objs w /\ elems w1 = elems w /\ hashes w1 = hashes w /\ strh w1 = strh w /\
     (cap w1 <= cap w + string_room s)%N /\ string_placed w1 c /\ is_str c = true /\ chars w1 (match c with Str p _ _ => p | _ => OnHeap [] end) (N.of_nat (length s)) = Ok s /\
     (exists p f, c = Str p (N.of_nat (length s)) f) /\ (length (big_strings [c]) <= length s + 1) /\
     (roomy (string_room s) w -> small w1 c)).
  { destruct (N.ltb_spec CHRS_BUCKET (N.of_nat (length s) + 1)) as [L|L].
    - exists w, (Str (OnHeap (s ++ [NUL])) (N.of_nat (length s)) 1). split; [reflexivity|]. split; [exact S0|]. split; [apply chrs_ext_refl|].
      split; [reflexivity|]. split; [reflexivity|]. split; [reflexivity|]. split; [reflexivity|].
      split; [lia|]. split; [exact I|]. split; [reflexivity|]. split; [|split; [eauto|split]].
      + cbn [chars]. rewrite app_length. cbn [length]. destruct (N.leb_spec (N.of_nat (length s)) (N.of_nat (length s + 1))); [|lia].
        rewrite Nat2N.id, firstn_app, Nat.sub_diag, firstn_all. cbn. now rewrite app_nil_r.
      + cbn [big_strings]. change (N.testbit 1 0) with true. cbv iota. rewrite app_nil_r, firstn_length, app_length. cbn [length]. lia.
      + intros (R1 & _). cbn [small]. split; [split; [reflexivity|]|exists s; split; reflexivity]. unfold string_room in R1. lia.
    - destruct (N.ltb_spec (N.of_nat (length s) + 1) CHRS_BUCKET) as [L2|L2].
      2:{ exfalso. unfold string_fits in Fs. apply Fs. unfold CHRS_BUCKET in *. lia. }
      cbn [negb]. destruct (pushn CHRS_BUCKET (chrs w) (s ++ [NUL])) as [bs [b off]] eqn:E.
      destruct (sane_chrs _ S0) as [Ne Fb].
      destruct (pushn_ext _ _ _ _ _ Ne E) as (X1 & X2 & X3 & (x & X4 & X5) & X6 & X7); [rewrite app_length; cbn [length]; unfold CHRS_BUCKET in *; lia|exact Fb|].
      assert (Ex : chrs_ext w (set_chrs bs w)) by exact X1.
      assert (Ag : agree nowhere nowhere w (set_chrs bs w)).
      { constructor; [intros i d H _; exact H|intros i d H _; exact H|intros i d H _; exact H|exact Ex]. }
      exists (set_chrs bs w), (Str (InBucket b off) (N.of_nat (length s)) 0). split; [reflexivity|]. split.
      { pose proof S0 as S1. destruct S0 as [N0 Ch St El Ha]. constructor; try assumption.
        - split; [exact X3|exact X2].
        - cbn [objs set_chrs]. eapply Forall_impl; [|exact St]. intros d Hd. destruct d as [| |[b' o'|l'] len' fl'| | | |]; try exact I.
          destruct Hd as (l & H1 & H2). destruct (Ex _ _ H1) as (y & H3). exists (l ++ y). split; [exact H3|]. rewrite app_length. lia.
        - intros s' o' H. eapply strat_agree; [exact S1|exact Ag| |now apply Ha]. intros b' l' H'. rewrite Forall_forall in X2. apply X2. eapply nth_error_In; exact H'. }
      split; [exact Ex|]. split; [reflexivity|]. split; [reflexivity|]. split; [reflexivity|]. split; [reflexivity|].
      assert (Pl : (off + N.of_nat (length s) < N.of_nat (length (x ++ s ++ [NUL])))%N) by (rewrite !app_length; cbn [length]; lia).
      split. { unfold cap at 1. cbn [chrs set_chrs]. unfold cap. rewrite app_length in X7. cbn [length] in X7. unfold string_room. lia. }
      split. { exists (x ++ s ++ [NUL]). split; [exact X4|]. lia. }
      split; [reflexivity|]. split; [|split; [eauto|split]].
      + cbn [chars set_chrs chrs]. rewrite X4. assert (Le : length (x ++ s ++ [NUL]) <= N.to_nat CHRS_BUCKET). { rewrite Forall_forall in X2. apply X2. eapply nth_error_In; exact X4. }
        destruct (N.leb_spec (off + N.of_nat (length s)) CHRS_BUCKET); [|lia]. subst off. rewrite !Nat2N.id, <- app_assoc, skipn_app, skipn_all, Nat.sub_diag. cbn [skipn app].
        rewrite <- app_assoc, firstn_app, Nat.sub_diag, firstn_all. cbn. now rewrite app_nil_r.
      + cbn [big_strings length]. lia.
      + intros (R1 & R2 & R3). cbn [small]. split; [|exists (x ++ s ++ [NUL]); split; [exact X4|exact Pl]].
        split; [reflexivity|]. unfold string_room in *. split; [lia|]. unfold cap in R3. rewrite app_length in X6, X7. cbn [length] in X6, X7. lia. }
  destruct K as (w1 & c & -> & S1 & Ex & Eo & Ee & Eh & Es & Ca & Pl & Is & Chs & (p & f & ->) & Bg & Sm). cbn [bind].
  destruct (add (Str p (N.of_nat (length s)) f) w1) as [w2 o] eqn:Ad.
  assert (E2 : w2 = fst (add (Str p (N.of_nat (length s)) f) w1)) by now rewrite Ad.
  assert (Eo2 : o = nobj w1) by (unfold add in Ad; now injection Ad as _ <-).
  destruct (sane_add w1 _ S1 (or_intror Pl)) as [S2 A2]. rewrite <- E2 in S2, A2.
  assert (St : strat w2 o = Some s).
  { unfold strat, str. rewrite E2, get_add, Eo2, N.eqb_refl. change (chars (fst (add _ w1)) p ?n) with (chars w1 p n). now rewrite Chs. }
  set (w3 := if smallb then set_strh ((s, o) :: strh w2) w2 else w2).
  assert (S3 : sane w3) by (unfold w3; destruct smallb; [now apply sane_strh|exact S2]).
  assert (Q : objs w3 = objs w2 /\ chrs w3 = chrs w2 /\ elems w3 = elems w2 /\ hashes w3 = hashes w2) by (unfold w3; now destruct smallb).
  destruct Q as (Q1 & Q2 & Q3 & Q4).
  assert (St3 : strat w3 o = Some s). { unfold strat, str, get, chars in *. rewrite Q1, Q2. exact St. }
  exists w3, o. split; [reflexivity|]. split; [exact St3|].
  assert (No : nobj w3 = (nobj w + 1)%N). { unfold nobj at 1. rewrite Q1. fold (nobj w2). rewrite E2, nobj_add. unfold nobj. now rewrite Eo. }
  assert (G3 : forall i, get w3 i = get w2 i) by (intros; unfold get; now rewrite Q1).
  constructor.
  - exact S3.
  - constructor.
    + intros i d H _. rewrite G3. apply (ag_c _ _ _ _ A2); [|easy]. unfold get in *. now rewrite Eo.
    + intros i d H _. rewrite G3. apply (ag_c _ _ _ _ A2); [|easy]. unfold get in *. now rewrite Eo.
    + intros e x H _. unfold elemat in *. rewrite Q3. rewrite E2. cbn [add fst set_objs elems]. now rewrite Ee.
    + intros b l H. rewrite Q2. rewrite E2. cbn [add fst set_objs chrs]. now apply Ex.
  - rewrite No. unfold string_room. lia.
  - unfold nelem. rewrite Q3, E2. cbn [add fst set_objs elems]. rewrite Ee. unfold string_room. lia.
  - unfold cap at 1. rewrite Q2, E2. exact Ca.
  - unfold heap. rewrite Q1, E2. cbn [add fst set_objs objs]. rewrite big_app, app_length, Eo. unfold string_room. lia.
  - intros R. split.
    + intros i d Hi H. rewrite G3, E2, get_add in H. assert (i < nobj w3)%N. { eapply get_lt. rewrite G3, E2, get_add. exact H. }
      destruct (N.eqb_spec i (nobj w1)) as [Q|Q].
      * injection H as <-. eapply small_ext; [|exact (Sm R)]. intros b l Hb. exists []. rewrite app_nil_r, Q2, E2. exact Hb.
      * exfalso. unfold nobj in Q. rewrite Eo in Q. fold (nobj w) in Q. lia.
    + intros e x He H. unfold elemat in H. rewrite Q3, E2 in H. cbn [add fst set_objs elems] in H. rewrite Ee in H. apply elem_lt in H; [lia|exact S0].
  - rewrite Q4, E2. cbn [add fst set_objs hashes]. exact Eh.
Qed.
Lemma str_clone_ok src w o s : sane w -> strat src o = Some s -> string_fits s ->
  exists w' o', str_clone src w o = Ok (w', o') /\ strat w' o' = Some s /\ grow (string_room s) w w'.
Proof.
  intros S0 H Fs. unfold str_clone. unfold strat in H. destruct (str src o) as [x| | | |]; try discriminate. injection H as ->. cbn [bind]. now apply make_str_ok.
Qed.
Lemma strat_nonzero w o s : sane w -> strat w o = Some s -> o <> 0%N.
Proof. intros S0 H ->. unfold strat, str in H. rewrite (sane_null _ S0) in H. discriminate. Qed.
Lemma strat_grow r w w' o s : sane w -> grow r w w' -> strat w o = Some s -> strat w' o = Some s.
Proof. intros S0 G H. eapply strat_agree; [exact S0|apply G|apply sane_bound, G|exact H]. Qed.

(** ** Meaning in a part of a workspace *)
Definition cin (D : N -> bool) (w : wk) (i : N) : option cell :=
  match get w i with Some c => if D i || imm c then Some c else None | None => None end.
Definition ein (E : N -> bool) (w : wk) (e : N) : option elem := if E e then elemat w e else None.
Definition no_table (_ : nat) : option (list (N * N)) := None.
Definition den_in (D E : N -> bool) (w : wk) : N -> value -> Prop := den (cin D w) (ein E w) (strat w) no_table.

Scheme den_mut := Induction for den Sort Prop
with chain_mut := Induction for chain Sort Prop
with echain_mut := Induction for echain Sort Prop
with pairs_mut := Induction for pairs Sort Prop.
Combined Scheme den_all from den_mut, chain_mut, echain_mut, pairs_mut.

Section Mono.
Variables (c1 c2 : N -> option cell) (e1 e2 : N -> option elem) (s1 s2 : N -> option bytes) (t1 t2 : nat -> option (list (N * N))).
Hypothesis Hc : forall i c, c1 i = Some c -> c2 i = Some c.
Hypothesis He : forall i c, e1 i = Some c -> e2 i = Some c.
Hypothesis Hs : forall i c, s1 i = Some c -> s2 i = Some c.
Hypothesis Ht : forall i c, t1 i = Some c -> t2 i = Some c.
Lemma den_mono_all :
  (forall o v, den c1 e1 s1 t1 o v -> den c2 e2 s2 t2 o v) /\
  (forall v n h l, chain c1 e1 s1 t1 v n h l -> chain c2 e2 s2 t2 v n h l) /\
  (forall e l, echain c1 e1 s1 t1 e l -> echain c2 e2 s2 t2 e l) /\
  (forall ps l, pairs c1 e1 s1 t1 ps l -> pairs c2 e2 s2 t2 ps l).
Proof.
  apply den_all; intros; try (econstructor; eauto; fail).
  - eapply d_test; eauto. destruct wv; [|assumption]. cbn in *. destruct o0. split; auto.
Qed.
Lemma den_mono o v : den c1 e1 s1 t1 o v -> den c2 e2 s2 t2 o v.
Proof. apply den_mono_all. Qed.
End Mono.

Definition ivl (a b i : N) : bool := ((a <=? i) && (i <? b))%N.
Lemma ivl_spec a b i : ivl a b i = true <-> (a <= i < b)%N.
Proof. unfold ivl. rewrite andb_true_iff, N.leb_le, N.ltb_lt. reflexivity. Qed.
Lemma den_in_agree (D E D' E' : N -> bool) X Y w w' o v : sane w -> sane w' -> agree X Y w w' ->
  (forall i, D i = true -> ~ X i /\ D' i = true) -> (forall e, E e = true -> ~ Y e /\ E' e = true) ->
  den_in D E w o v -> den_in D' E' w' o v.
Proof.
  intros S0 S1 A HD HE. apply den_mono.
  - intros i c. unfold cin. destruct (get w i) as [d|] eqn:G; [|discriminate]. destruct (D i) eqn:Di; cbn [orb].
    + intros [= ->]. destruct (HD i Di) as [Xi Di']. rewrite (ag_c _ _ _ _ A _ _ G Xi), Di'. reflexivity.
    + destruct (imm d) eqn:Im; [|discriminate]. intros [= ->]. rewrite (ag_i _ _ _ _ A _ _ G Im), Im, orb_true_r. reflexivity.
  - intros e x. unfold ein. destruct (E e) eqn:Ee; [|discriminate]. intros H. destruct (HE e Ee) as [Ye ->]. exact (ag_e _ _ _ _ A _ _ H Ye).
  - intros i s. apply (strat_agree X Y); [exact S0|exact A|now apply sane_bound].
  - discriminate.
Qed.
Lemma den_in_grow (D E D' E' : N -> bool) r w w' o v : sane w -> grow r w w' ->
  (forall i, D i = true -> D' i = true) -> (forall e, E e = true -> E' e = true) ->
  den_in D E w o v -> den_in D' E' w' o v.
Proof. intros S0 G HD HE. eapply den_in_agree; [exact S0|apply G|apply G| |]; unfold nowhere; intuition. Qed.
Lemma den_in_lt D E w o v : den_in D E w o v -> (o < nobj w)%N.
Proof.
  intros H. assert (K : (exists c, cin D w o = Some c) \/ (exists s, strat w o = Some s)) by (inversion H; eauto).
  destruct K as [[c K]|[s K]]; [|eapply strat_lt; exact K]. unfold cin in K. destruct (get w o) eqn:G; [|discriminate]. eapply get_lt; exact G.
Qed.
Definition post (w w' : wk) (o : N) (v : value) : Prop :=
  grow (room v) w w' /\ den_in (ivl (nobj w) (nobj w')) (ivl (nelem w) (nelem w')) w' o v.

Lemma Forall2_mono {A C} (P Q : A -> C -> Prop) l m : (forall x y, P x y -> Q x y) -> Forall2 P l m -> Forall2 Q l m.
Proof. intros H. induction 1; constructor; auto. Qed.

(** ** Arrays *)
Inductive spine (lo : N) (g : N -> option cell) : N -> list N -> N -> Prop :=
| sp1 i v n t l : (lo <= i)%N -> g i = Some (Arr v n t l false) -> spine lo g i [v] i
| sp2 i v n t l vs z : (lo <= i)%N -> g i = Some (Arr v n t l true) -> spine lo g n vs z -> spine lo g i (v :: vs) z.
Lemma spine_last lo g i vs z : spine lo g i vs z -> (lo <= z)%N /\ exists v n t l, g z = Some (Arr v n t l false).
Proof. induction 1; eauto 6. Qed.
Lemma spine_mono lo g g' i vs z : (forall j c, g j = Some c -> g' j = Some c) -> spine lo g i vs z -> spine lo g' i vs z.
Proof. intros H. induction 1; [eapply sp1|eapply sp2]; eauto. Qed.
Lemma spine_push lo g g' i vs z c x : spine lo g i vs z ->
  (forall j v n t l, g j = Some (Arr v n t l true) -> exists t' l', g' j = Some (Arr v n t' l' true)) ->
  (forall v n t l, g z = Some (Arr v n t l false) -> exists t' l', g' z = Some (Arr v c t' l' true)) ->
  (exists n t l, g' c = Some (Arr x n t l false)) -> (lo <= c)%N -> spine lo g' i (vs ++ [x]) c.
Proof.
  intros H K1 K2 (n' & t' & l' & K3) Lc. induction H as [i v n t l Li G|i v n t l vs z Li G H IH].
  - destruct (K2 _ _ _ _ G) as (t2 & l2 & G2). cbn [app]. eapply sp2; [exact Li|exact G2|]. eapply sp1; eauto.
  - destruct (K1 _ _ _ _ _ G) as (t2 & l2 & G2). cbn [app]. eapply sp2; [exact Li|exact G2|]. now apply IH.
Qed.
Lemma spine_chain lo D E w i vs z l : spine lo (get w) i vs z -> (forall j, (lo <= j < nobj w)%N -> D j = true) ->
  Forall2 (den_in D E w) vs l ->
  exists v n t len h, get w i = Some (Arr v n t len h) /\ chain (cin D w) (ein E w) (strat w) no_table v n h l.
Proof.
  intros H HD. revert l. induction H as [i v n t len Li G|i v n t len vs z Li G H IH]; intros l F.
  - inversion F as [|a x b y Hx Hy]; subst. inversion Hy; subst. exists v, n, t, len, false. split; [exact G|]. now constructor.
  - inversion F as [|a x b y Hx Hy]; subst. destruct (IH _ Hy) as (v' & n' & t' & len' & h' & G' & Ch). exists v, n, t, len, true. split; [exact G|].
    econstructor; [exact Hx| |exact Ch]. unfold cin. rewrite G'.
    replace (D n) with true; [reflexivity|]. symmetry. apply HD. split; [inversion H; assumption|]. eapply get_lt; exact G'.
Qed.

Section ArrayLoop.
Variable w0 : wk.
Hypothesis S0 : sane w0.
Let r := nobj w0.
Definition kid (w : wk) (z v : N) (x : value) : Prop :=
  exists a b a' b', (r < a /\ (z < a \/ b <= z) /\ b <= nobj w /\ nelem w0 <= a' /\ b' <= nelem w)%N /\ den_in (ivl a b) (ivl a' b') w v x.
Definition arr_st (rho : N) (w : wk) (l : list value) : Prop :=
  grow rho w0 w /\ (N.of_nat (length l) + 1 <= rho)%N /\
  match l with
  | [] => get w r = Some (Arr 0 0 0 0 false)
  | _ => exists z vs v n h, get w r = Some (Arr v n z (N.of_nat (length l)) h) /\ spine r (get w) r vs z /\ Forall2 (kid w z) vs l
  end.
Lemma arr_push rho rho' w w1 l x v : arr_st rho w l -> grow rho' w w1 ->
  den_in (ivl (nobj w) (nobj w1)) (ivl (nelem w) (nelem w1)) w1 x v ->
  exists w2, array_push w1 r x = Ok w2 /\ arr_st (rho + rho' + 1) w2 (l ++ [v]).
Proof.
  intros (G & Rl & St) G1 Dx. pose proof (g_sane _ _ _ G) as S1. pose proof (g_sane _ _ _ G1) as S2.
  assert (GG : grow (rho + rho') w0 w1) by (eapply grow_trans; eassumption).
  pose proof (den_in_lt _ _ _ _ _ Dx) as Lx. pose proof (g_n _ _ _ GG) as Nn. pose proof (g_n _ _ _ G1) as Nn1. pose proof (g_m _ _ _ G) as Nm. pose proof (g_m _ _ _ G1) as Nm1.
  pose proof (g_n _ _ _ G) as Nn0. unfold array_push. destruct l as [|v1 l].
  - pose proof (ag_c _ _ _ _ (g_agree _ _ _ G1) _ _ St (fun f => f)) as Gr. rewrite Gr. change (0 =? 0)%N with true. cbv iota.
    eexists. split; [reflexivity|]. assert (P : grow (rho + rho') w0 (put r (Arr x 0 r 1 false) w1)).
    { eapply grow_put; [exact GG|apply N.le_refl|exact Gr|reflexivity|reflexivity|]. intros (R1 & R2 & R3). cbn [small]. apply get_lt in Gr. fold r in R1. lia. }
    split; [eapply grow_more; [|exact P]; lia|]. split; [cbn; lia|]. cbn [app].
    exists r, [x], x, 0%N, false. split; [rewrite get_put, N.eqb_refl, Gr; reflexivity|]. split.
    + eapply sp1; [apply N.le_refl|]. rewrite get_put, N.eqb_refl, Gr. reflexivity.
    + constructor; [|constructor]. exists (nobj w), (nobj w1), (nelem w), (nelem w1). apply get_lt in St. rewrite nobj_put. split.
      { refine (conj St (conj (or_introl St) (conj (N.le_refl _) (conj _ _)))); [lia|]. change (nelem (put r _ w1)) with (nelem w1). lia. }
      destruct (sane_put w1 r (Arr x 0 r 1 false) _ S2 Gr eq_refl eq_refl) as [S3 A3].
      eapply den_in_agree; [exact S2|exact S3|exact A3| | |exact Dx].
      * intros i Hi. split; [|exact Hi]. apply ivl_spec in Hi. lia.
      * intros e He. split; [easy|exact He].
  - destruct St as (z & vs & hv & hn & hh & Gr0 & Sp0 & Kids).
    pose proof (ag_c _ _ _ _ (g_agree _ _ _ G1) _ _ Gr0 (fun f => f)) as Gr. rewrite Gr.
    assert (Sp : spine r (get w1) r vs z). { eapply spine_mono; [|exact Sp0]. intros j c Hj. exact (ag_c _ _ _ _ (g_agree _ _ _ G1) _ _ Hj (fun f => f)). }
    destruct (N.eqb_spec (N.of_nat (length (v1 :: l))) 0) as [Z|_]; [cbn in Z; lia|].
    destruct (spine_last _ _ _ _ _ Sp) as (Lz & vz & nz & tz & lz & Gz). destruct (spine_last _ _ _ _ _ Sp0) as (_ & vz0 & nz0 & tz0 & lz0 & Gz0).
    set (c := nobj w1). assert (Ad : add (Arr x 0 0 0 false) w1 = (fst (add (Arr x 0 0 0 false) w1), c)) by reflexivity. rewrite Ad.
    set (w2 := fst (add (Arr x 0 0 0 false) w1)).
    assert (Zc : (z < c)%N) by (apply get_lt in Gz; exact Gz). assert (Rc : (r < c)%N) by (apply get_lt in Gr; exact Gr).
    assert (Gz2 : get w2 z = Some (Arr vz nz tz lz false)). { unfold w2. rewrite get_add. destruct (N.eqb_spec z (nobj w1)); [fold c in e; lia|exact Gz]. }
    rewrite Gz2. set (w3 := put z (Arr vz c tz lz true) w2).
    assert (Gr2 : get w2 r = Some (Arr hv hn z (N.of_nat (length (v1 :: l))) hh)). { unfold w2. rewrite get_add. destruct (N.eqb_spec r (nobj w1)); [fold c in e; lia|exact Gr]. }
    assert (Gr3 : exists hv3 hn3 hh3, get w3 r = Some (Arr hv3 hn3 z (N.of_nat (length (v1 :: l))) hh3)).
    { unfold w3. rewrite get_put. destruct (N.eqb_spec z r) as [E|E]; [|eauto]. rewrite Gr2. rewrite E in Gz2. rewrite Gr2 in Gz2. injection Gz2 as _ _ E1 E2 _. rewrite <- E1, <- E2. eauto. }
    destruct Gr3 as (hv3 & hn3 & hh3 & Gr3). rewrite Gr3. eexists. split; [reflexivity|]. set (w4 := put r (Arr hv3 hn3 c (N.of_nat (length (v1 :: l)) + 1) hh3) w3).
    assert (G2 : grow (rho + rho' + 1) w0 w2). { apply grow_add; [exact GG|reflexivity|]. intros (R1 & R2 & R3). cbn [small]. lia. }
    pose proof (g_n _ _ _ G2) as Nn2. assert (Nw2 : nobj w2 = (c + 1)%N) by apply nobj_add.
    assert (G3 : grow (rho + rho' + 1) w0 w3).
    { eapply grow_put; [exact G2|fold r; lia|exact Gz2|reflexivity|reflexivity|]. intros R. destruct (g_new _ _ _ G2 R) as [Nw _].
      assert (Sz : small w2 (Arr vz nz tz lz false)) by (apply (Nw z); [exact Lz|exact Gz2]). destruct R as (R1 & R2 & R3). cbn [small] in *. lia. }
    assert (Sr : roomy (rho + rho' + 1) w0 -> small w3 (Arr hv3 hn3 z (N.of_nat (length (v1 :: l))) hh3)).
    { intros R. destruct (g_new _ _ _ G3 R) as [Nw _]. apply (Nw r); [apply N.le_refl|exact Gr3]. }
    assert (G4 : grow (rho + rho' + 1) w0 w4).
    { eapply grow_put; [exact G3|apply N.le_refl|exact Gr3|reflexivity|reflexivity|]. intros R. specialize (Sr R). destruct R as (R1 & R2 & R3). cbn [small] in *. cbn [length] in *. lia. }
    split; [exact G4|]. split; [rewrite app_length; cbn [length]; cbn [length] in Rl; lia|]. cbn [app].
    destruct (sane_add w1 (Arr x 0 0 0 false) S2 (or_introl eq_refl)) as [S3 A3]. fold w2 in S3, A3.
    destruct (sane_put w2 z (Arr vz c tz lz true) _ S3 Gz2 eq_refl eq_refl) as [S4 A4]. fold w3 in S4, A4.
    destruct (sane_put w3 r (Arr hv3 hn3 c (N.of_nat (length (v1 :: l)) + 1) hh3) _ S4 Gr3 eq_refl eq_refl) as [S5 A5]. fold w4 in S5, A5.
    assert (AA : agree (fun i => i = z \/ i = r) nowhere w1 w4).
    { eapply agree_trans; [eapply agree_weaken; [| |exact A3]; unfold nowhere; intuition|]. eapply agree_trans; eapply agree_weaken; [| |exact A4| | |exact A5]; auto. }
    exists c, (vs ++ [x]), hv3, hn3, hh3. split; [|split].
    + unfold w4. rewrite get_put, N.eqb_refl, Gr3. rewrite app_comm_cons, app_length. cbn [length]. do 2 f_equal. lia.
    + eapply spine_push with (z := z); [exact Sp| | | |].
      * intros j v' n' t' l' Hj. assert (j <> z). { intros ->. rewrite Gz in Hj. discriminate. }
        assert (H2 : get w2 j = Some (Arr v' n' t' l' true)). { unfold w2. rewrite get_add. pose proof (get_lt _ _ _ Hj). destruct (N.eqb_spec j (nobj w1)); [lia|exact Hj]. }
        assert (H3 : get w3 j = Some (Arr v' n' t' l' true)). { unfold w3. rewrite get_put. destruct (N.eqb_spec z j); [congruence|exact H2]. }
        unfold w4. rewrite get_put. destruct (N.eqb_spec r j) as [E|E]; [|eauto]. subst j. rewrite Gr3. rewrite H3 in Gr3. injection Gr3 as -> -> -> -> ->. eauto.
      * intros v' n' t' l' Hz. rewrite Gz in Hz. injection Hz as <- <- <- <-.
        assert (H3 : get w3 z = Some (Arr vz c tz lz true)). { unfold w3. rewrite get_put, N.eqb_refl, Gz2. reflexivity. }
        unfold w4. rewrite get_put. destruct (N.eqb_spec r z) as [E|E]; [|eauto]. rewrite H3. rewrite <- E in H3. rewrite H3 in Gr3. injection Gr3 as <- <- ? ? <-. eauto.
      * assert (H2 : get w2 c = Some (Arr x 0 0 0 false)). { unfold w2. rewrite get_add. fold c. now rewrite N.eqb_refl. }
        exists 0%N, 0%N, 0%N. unfold w4, w3. rewrite !get_put. destruct (N.eqb_spec r c); [lia|]. destruct (N.eqb_spec z c); [lia|]. exact H2.
      * lia.
    + assert (Nw4 : nobj w4 = (c + 1)%N) by (unfold w4, w3; now rewrite !nobj_put).
      assert (Nm4 : nelem w4 = nelem w1) by reflexivity.
      change (v1 :: l ++ [v]) with ((v1 :: l) ++ [v]). apply Forall2_app.
      * eapply Forall2_mono; [|exact Kids]. intros v' x' (a & b & a' & b' & (K1 & K2 & K3 & K4 & K5) & Dk). exists a, b, a', b'. split.
        { refine (conj K1 (conj (or_intror _) (conj _ (conj K4 _)))); lia. }
        assert (Dk1 : den_in (ivl a b) (ivl a' b') w1 v' x') by (eapply den_in_grow; [exact S1|exact G1| | |exact Dk]; auto).
        eapply den_in_agree; [exact S2|exact S5|exact AA| | |exact Dk1].
        { intros i Hi. split; [|exact Hi]. apply ivl_spec in Hi. lia. }
        { intros e He. split; [easy|exact He]. }
      * constructor; [|constructor]. exists (nobj w), (nobj w1), (nelem w), (nelem w1). apply get_lt in Gr0 as Hr0. apply get_lt in Gz0. split.
        { rewrite Nw4, Nm4. refine (conj Hr0 (conj (or_intror _) (conj _ (conj _ _)))); fold c; lia. }
        eapply den_in_agree; [exact S2|exact S5|exact AA| | |exact Dx].
        { intros i Hi. split; [|exact Hi]. apply ivl_spec in Hi. intros [->| ->]; lia. }
        { intros e He. split; [easy|exact He]. }
Qed.
Lemma arr_done rho w l : arr_st rho w l -> den_in (ivl r (nobj w)) (ivl (nelem w0) (nelem w)) w r (VArray l).
Proof.
  intros (G & _ & St). assert (Rr : forall c, get w r = Some c -> cin (ivl r (nobj w)) w r = Some c).
  { intros c H. unfold cin. rewrite H. replace (ivl r (nobj w) r) with true; [reflexivity|]. symmetry. apply ivl_spec. apply get_lt in H. lia. }
  destruct l as [|v1 l]; [eapply d_array0, Rr, St|].
  destruct St as (z & vs & hv & hn & hh & Gr & Sp & Kids).
  destruct (spine_chain r (ivl r (nobj w)) (ivl (nelem w0) (nelem w)) w r vs z (v1 :: l) Sp) as (v & n & t & len & h & G2 & Ch).
  - intros j Hj. apply ivl_spec. exact Hj.
  - eapply Forall2_mono; [|exact Kids]. intros v' x' (a & b & a' & b' & (K1 & K2 & K3 & K4 & K5) & Dk).
    eapply den_in_grow; [apply G|apply grow_refl, G| | |exact Dk]; intros i Hi; apply ivl_spec; apply ivl_spec in Hi; lia.
  - rewrite Gr in G2. injection G2 as <- <- <- <- <-. eapply d_array; [apply Rr, Gr|exact Ch].
Qed.
End ArrayLoop.

(** ** Dictionaries *)
Lemma sane_elems_set w es : sane w -> full_but_last es -> sane (set_elems es w).
Proof. intros [N0 Ch St El Ha] F. constructor; assumption. Qed.
Lemma grow_epush r w0 w x : grow r w0 w -> (roomy (r + 1) w0 -> elem_small x) ->
  let w' := set_elems (fst (pushn ELEMS_BUCKET (elems w) [x])) w in
  grow (r + 1) w0 w' /\ (forall e, elemat w' e = if (e =? nelem w)%N then Some x else elemat w e) /\ nelem w' = (nelem w + 1)%N.
Proof.
  intros G Sm w'. destruct (epush (elems w) x (sane_elems _ (g_sane _ _ _ G))) as [C F].
  assert (S1 : sane w') by (apply sane_elems_set; [apply G|exact F]).
  assert (El : forall e, elemat w' e = if (e =? nelem w)%N then Some x else elemat w e).
  { intros e. rewrite (elemat_flat w' e S1), (elemat_flat w e (g_sane _ _ _ G)). unfold w'. cbn [elems set_elems]. rewrite C. unfold nelem, blen.
    destruct (N.eqb_spec e (N.of_nat (length (concat (elems w))))) as [E|E].
    - subst e. rewrite Nat2N.id, nth_error_app2, Nat.sub_diag by lia. reflexivity.
    - destruct (Nat.lt_ge_cases (N.to_nat e) (length (concat (elems w)))); [now rewrite nth_error_app1 by lia|].
      transitivity (@None elem); [|symmetry]; apply nth_error_None; try rewrite app_length; cbn [length]; lia. }
  assert (Nm : nelem w' = (nelem w + 1)%N). { unfold nelem, blen, w'. cbn [elems set_elems]. rewrite C, app_length. cbn [length]. lia. }
  refine (conj _ (conj El Nm)). destruct G as [A B0 C0 D F0 H J K]. constructor; try assumption.
  - destruct B0 as [B1 B2 B3 B4]. constructor; [exact B1|exact B2| |exact B4]. intros e y He _. rewrite El. pose proof (B3 e y He (fun f => f)) as Q.
    destruct (N.eqb_spec e (nelem w)) as [E|E]; [apply elem_lt in Q; [lia|exact A]|exact Q].
  - change (nobj w') with (nobj w). lia.
  - lia.
  - change (cap w') with (cap w). lia.
  - change (heap w') with (heap w). lia.
  - intros R. assert (R' : roomy r w0) by (destruct R as (? & ? & ?); repeat split; lia). destruct (J R') as [J1 J2]. split; [exact J1|].
    intros e y He Hy. rewrite El in Hy. destruct (N.eqb_spec e (nelem w)); [injection Hy as <-; exact (Sm R)|exact (J2 _ _ He Hy)].
Qed.
Lemma grow_eset r w0 w e x : sane w0 -> grow r w0 w -> (nelem w0 <= e < nelem w)%N -> (roomy r w0 -> elem_small x) ->
  let w' := set_elems (bset ELEMS_BUCKET (elems w) e x) w in
  grow r w0 w' /\ (forall i, elemat w' i = if (i =? e)%N then Some x else elemat w i) /\ nelem w' = nelem w.
Proof.
  intros S0 G L Sm w'. destruct (bset_concat (elems w) e x (sane_elems _ (g_sane _ _ _ G))) as [C F]; [unfold nelem, blen in L; lia|].
  assert (S1 : sane w') by (apply sane_elems_set; [apply G|exact F]).
  assert (El : forall i, elemat w' i = if (i =? e)%N then Some x else elemat w i).
  { intros i. rewrite (elemat_flat w' i S1), (elemat_flat w i (g_sane _ _ _ G)). unfold w'. cbn [elems set_elems]. rewrite C, nth_upd.
    destruct (N.eqb_spec i e) as [E|E].
    - subst i. rewrite Nat.eqb_refl. destruct (nth_error (concat (elems w)) (N.to_nat e)) eqn:Q; [reflexivity|].
      apply nth_error_None in Q. unfold nelem, blen in L. lia.
    - replace (N.to_nat e =? N.to_nat i) with false; [reflexivity|]. symmetry. apply Nat.eqb_neq. lia. }
  assert (Nm : nelem w' = nelem w). { unfold nelem, blen, w'. cbn [elems set_elems]. now rewrite C, length_upd. }
  refine (conj _ (conj El Nm)). destruct G as [A B0 C0 D F0 H J K]. constructor; try assumption.
  - destruct B0 as [B1 B2 B3 B4]. constructor; [exact B1|exact B2| |exact B4]. intros i y He _. rewrite El.
    destruct (N.eqb_spec i e) as [E|E]; [|exact (B3 i y He (fun f => f))].
    exfalso. subst i. apply elem_lt in He; [lia|exact S0].
  - rewrite Nm. exact D.
  - intros R. destruct (J R) as [J1 J2]. split; [exact J1|].
    intros i y He Hy. rewrite El in Hy. destruct (N.eqb_spec i e); [injection Hy as <-; exact (Sm R)|exact (J2 _ _ He Hy)].
Qed.
Inductive espine (lo : N) (g : N -> option elem) : N -> list (N * N) -> N -> Prop :=
| es1 e k v : (lo <= e)%N -> g e = Some (0%N, k, v) -> espine lo g e [(k, v)] e
| es2 e n k v kvs z : (lo <= e < n)%N -> g e = Some (n, k, v) -> espine lo g n kvs z -> espine lo g e ((k, v) :: kvs) z.
Lemma espine_last lo g e kvs z : espine lo g e kvs z -> (lo <= z)%N /\ exists k v, g z = Some (0%N, k, v).
Proof. induction 1; eauto. Qed.
Lemma espine_mono lo g g' i vs z : (forall j c, g j = Some c -> g' j = Some c) -> espine lo g i vs z -> espine lo g' i vs z.
Proof. intros H. induction 1; [eapply es1|eapply es2]; eauto. Qed.
Lemma espine_push lo g g' e kvs z c k x : espine lo g e kvs z ->
  (forall j y, g j = Some y -> j <> z -> g' j = Some y) ->
  (forall k v, g z = Some (0%N, k, v) -> g' z = Some (c, k, v)) ->
  g' c = Some (0%N, k, x) -> (z < c)%N -> espine lo g' e (kvs ++ [(k, x)]) c.
Proof.
  intros H K1 K2 K3 Lc. induction H as [e k0 v Li G|e n k0 v kvs z Li G H IH].
  - cbn [app]. eapply es2; [|apply K2, G|]; [lia|]. apply es1; [lia|exact K3].
  - cbn [app]. eapply es2; [exact Li| |apply IH; assumption]. apply K1; [exact G|].
    intros ->. pose proof (espine_last _ _ _ _ _ H) as (_ & k' & v' & G'). rewrite G in G'. injection G' as Q _ _. lia.
Qed.
Lemma strat_str w o s : strat w o = Some s -> str w o = Ok s.
Proof. unfold strat. destruct (str w o); try discriminate. now intros [= ->]. Qed.
Lemma dict_find_none g w key lo e kvs z : sane w -> espine lo (elemat w) e kvs z ->
  Forall (fun kv => exists s, strat w (fst kv) = Some s /\ s <> key) kvs ->
  (N.to_nat (nelem w) - N.to_nat e <= g) -> dict_find g w key e = Ok None.
Proof.
  intros S0 H. revert g. induction H as [e k v Li G|e n k v kvs z Li G H IH]; intros g F L.
  - pose proof (elem_lt _ _ _ S0 G). destruct g as [|g]; [lia|]. cbn [dict_find]. unfold elemat in G. rewrite G. cbn [or_abort bind].
    inversion F as [|? ? (s & E & Ne) _]; subst. cbn [fst] in E. rewrite (strat_str _ _ _ E). cbn [bind].
    destruct (beqb_spec key s); [congruence|]. reflexivity.
  - pose proof (elem_lt _ _ _ S0 G). destruct g as [|g]; [lia|]. cbn [dict_find]. unfold elemat in G. rewrite G. cbn [or_abort bind].
    inversion F as [|? ? (s & E & Ne) F']; subst. cbn [fst] in E. rewrite (strat_str _ _ _ E). cbn [bind].
    destruct (beqb_spec key s); [congruence|]. destruct (N.eqb_spec n 0); [lia|]. apply IH; [exact F'|lia].
Qed.
Lemma espine_chain lo D E w e kvs z l : sane w -> espine lo (elemat w) e kvs z -> (forall j, (lo <= j < nelem w)%N -> E j = true) ->
  Forall2 (fun kv sx => strat w (fst kv) = Some (fst sx) /\ den_in D E w (snd kv) (snd sx)) kvs l ->
  echain (cin D w) (ein E w) (strat w) no_table e l.
Proof.
  intros S0 H HE. revert l. induction H as [e k v Li G|e n k v kvs z Li G H IH]; intros l F.
  - inversion F as [|a [s x] b y [H1 H2] Hy]; subst. inversion Hy; subst. cbn [fst snd] in *. pose proof (elem_lt _ _ _ S0 G).
    eapply e_last; [|exact H1|exact H2]. unfold ein. rewrite HE by lia. exact G.
  - inversion F as [|a [s x] b y [H1 H2] Hy]; subst. cbn [fst snd] in *. pose proof (elem_lt _ _ _ S0 G).
    eapply e_next; [| |exact H1|exact H2|apply IH, Hy]; [|lia]. unfold ein. rewrite HE by lia. exact G.
Qed.

Section DictLoop.
Variable w0 : wk.
Hypothesis S0 : sane w0.
Let r := nobj w0.
Definition ekid (w : wk) (z : N) (kv : N * N) (sx : bytes * value) : Prop :=
  strat w (fst kv) = Some (fst sx) /\
  exists a b a' b', (r < a /\ b <= nobj w /\ nelem w0 <= a' /\ (z < a' \/ b' <= z) /\ b' <= nelem w)%N /\ den_in (ivl a b) (ivl a' b') w (snd kv) (snd sx).
Definition dict_st (rho : N) (w : wk) (l : list (bytes * value)) : Prop :=
  grow rho w0 w /\ (N.of_nat (length l) + 1 <= rho)%N /\
  match l with
  | [] => get w r = Some (Dict 0 0 0 0)
  | _ => exists z d kvs, get w r = Some (Dict d (N.of_nat (length l)) z 0) /\ espine (nelem w0) (elemat w) d kvs z /\ Forall2 (ekid w z) kvs l
  end.
Lemma dict_push rho rho' w w1 l k s x v : dict_st rho w l -> grow rho' w w1 -> strat w1 k = Some s ->
  den_in (ivl (nobj w) (nobj w1)) (ivl (nelem w) (nelem w1)) w1 x v -> ~ In s (map fst l) ->
  exists w2, dict_set w1 r k x = Ok w2 /\ dict_st (rho + rho' + 1) w2 (l ++ [(s, v)]).
Proof.
  intros (G & Rl & St) G1 Ks Dx Nin. pose proof (g_sane _ _ _ G) as S1. pose proof (g_sane _ _ _ G1) as S2.
  assert (GG : grow (rho + rho') w0 w1) by (eapply grow_trans; eassumption).
  pose proof (den_in_lt _ _ _ _ _ Dx) as Lx. pose proof (strat_lt _ _ _ Ks) as Lk. pose proof (g_n _ _ _ GG) as Nn. pose proof (g_n _ _ _ G1) as Nn1.
  pose proof (g_m _ _ _ G) as Nm. pose proof (g_m _ _ _ G1) as Nm1. pose proof (g_m _ _ _ GG) as Nm2.
  pose proof (g_n _ _ _ G) as Nn0. unfold dict_set. rewrite (strat_str _ _ _ Ks). cbn [bind]. pose proof (strat_nonzero _ _ _ S2 Ks) as K0.
  set (e := nelem w1). change (blen (elems w1)) with e.
  assert (Sme : roomy (rho + rho' + 1) w0 -> elem_small (0%N, k, x)). { intros (R1 & R2 & R3). cbn [elem_small]. lia. }
  destruct (grow_epush _ _ _ (0%N, k, x) GG Sme) as (G2 & El2 & Nm3). set (w2 := set_elems (fst (pushn ELEMS_BUCKET (elems w1) [(0%N, k, x)])) w1) in *.
  change (nelem w2 = (nelem w1 + 1)%N) in Nm3. change (grow (rho + rho' + 1) w0 w2) in G2. change (forall e, elemat w2 e = if (e =? nelem w1)%N then Some (0%N, k, x) else elemat w1 e) in El2. destruct l as [|v1 l].
  - pose proof (ag_c _ _ _ _ (g_agree _ _ _ G1) _ _ St (fun f => f)) as Gr. rewrite Gr. destruct (N.eqb_spec k 0) as [|_]; [congruence|].
    change (0 =? 0)%N with true. cbv iota zeta. fold w2. eexists. split; [reflexivity|].
    assert (Gr2 : get w2 r = Some (Dict 0 0 0 0)) by exact Gr. set (w3 := put r (Dict e 1 e 0) w2).
    assert (G3 : grow (rho + rho' + 1) w0 w3).
    { eapply grow_put; [exact G2|apply N.le_refl|exact Gr2|reflexivity|reflexivity|]. intros (R1 & R2 & R3). cbn [small]. unfold e. lia. }
    split; [exact G3|]. split; [cbn; lia|]. cbn [app]. exists e, e, [(k, x)]. split; [unfold w3; rewrite get_put, N.eqb_refl, Gr2; reflexivity|]. split.
    + apply es1; [unfold e; lia|]. change (elemat w3 e) with (elemat w2 e). rewrite El2. fold e. now rewrite N.eqb_refl.
    + destruct (sane_put w2 r (Dict e 1 e 0) _ (g_sane _ _ _ G2) Gr2 eq_refl eq_refl) as [S3 A3]. fold w3 in S3, A3.
      assert (A2 : agree nowhere nowhere w1 w2).
      { constructor; [intros i c H _; exact H|intros i c H _; exact H| |exact (chrs_ext_refl w1)]. intros i y H _. rewrite El2. apply elem_lt in H as H'; [|exact S2]. destruct (N.eqb_spec i (nelem w1)); [lia|exact H]. }
      constructor; [|constructor]. split; [cbn [fst]; eapply strat_agree; [exact S2| |apply sane_bound, S3|exact Ks]|].
      { eapply agree_trans; [eapply agree_weaken; [| |exact A2]|exact A3]; auto. intros i []. }
      exists (nobj w), (nobj w1), (nelem w), (nelem w1). apply get_lt in St. unfold w3. rewrite nobj_put. change (nelem (put r _ w2)) with (nelem w2). split.
      { refine (conj St (conj (N.le_refl _) (conj _ (conj (or_intror _) _)))); unfold e; lia. }
      cbn [snd]. fold w3. eapply den_in_agree; [exact S2|exact S3| | | |exact Dx].
      { eapply agree_trans; [eapply agree_weaken; [| |exact A2]|exact A3]; auto. intros i []. }
      * intros i Hi. split; [|exact Hi]. apply ivl_spec in Hi. lia.
      * intros i Hi. split; [easy|exact Hi].
  - destruct St as (z & d & kvs & Gr0 & Sp0 & Kids).
    pose proof (ag_c _ _ _ _ (g_agree _ _ _ G1) _ _ Gr0 (fun f => f)) as Gr. rewrite Gr. destruct (N.eqb_spec k 0) as [|_]; [congruence|].
    assert (Sp : espine (nelem w0) (elemat w1) d kvs z). { eapply espine_mono; [|exact Sp0]. intros j c Hj. exact (ag_e _ _ _ _ (g_agree _ _ _ G1) _ _ Hj (fun f => f)). }
    destruct (N.eqb_spec (N.of_nat (length (v1 :: l))) 0) as [Z|_]; [cbn in Z; lia|].
    erewrite dict_find_none; [|exact S2|exact Sp| |].
    2:{ apply Forall_forall. intros kv Hkv. clear - Hkv Kids Nin S1 G1. revert Nin. induction Kids as [|kv' sx kvs l0 (K1 & _) _ IH]; intros Nin; [destruct Hkv|].
        destruct Hkv as [->|Hkv]; [|apply IH; [exact Hkv|]; intros F; apply Nin; now right].
        exists (fst sx). split; [eapply strat_grow; [exact S1|exact G1|exact K1]|]. intros E. apply Nin. left. exact E. }
    2:{ unfold e, nelem. lia. }
    cbn [bind]. cbv zeta. destruct (espine_last _ _ _ _ _ Sp) as (Lz & kz & vz & Gz). destruct (espine_last _ _ _ _ _ Sp0) as (_ & kz0 & vz0 & Gz0).
    apply elem_lt in Gz0 as Lz0; [|exact S1]. apply elem_lt in Gz as Lz1; [|exact S2].
    change (bget ELEMS_BUCKET (fst (pushn ELEMS_BUCKET (elems w1) [(0%N, k, x)])) z) with (elemat w2 z).
    assert (Gz2 : elemat w2 z = Some (0%N, kz, vz)). { rewrite El2. destruct (N.eqb_spec z (nelem w1)); [lia|exact Gz]. }
    rewrite Gz2. cbn [or_abort bind]. change (blen (elems w1)) with e.
    change (set_elems (bset ELEMS_BUCKET ?es z ?y) w1) with (set_elems (bset ELEMS_BUCKET (elems w2) z y) w2).
    destruct (grow_eset _ _ _ z (e, kz, vz) S0 G2) as (G3 & El3 & Nm4); [lia| |].
    { intros R. destruct (g_new _ _ _ G2 R) as [_ Nw]. pose proof (Nw z (0%N, kz, vz) Lz Gz2) as Sz. destruct R as (R1 & R2 & R3). cbn [elem_small] in *. unfold e. lia. }
    set (w3 := set_elems (bset ELEMS_BUCKET (elems w2) z (e, kz, vz)) w2) in *. change (nelem w3 = nelem w2) in Nm4. change (grow (rho + rho' + 1) w0 w3) in G3. change (forall i, elemat w3 i = if (i =? z)%N then Some (e, kz, vz) else elemat w2 i) in El3.
    eexists. split; [reflexivity|]. assert (Gr3 : get w3 r = Some (Dict d (N.of_nat (length (v1 :: l))) z 0)) by exact Gr.
    set (w4 := put r (Dict d (N.of_nat (length (v1 :: l)) + 1) e 0) w3).
    assert (G4 : grow (rho + rho' + 1) w0 w4).
    { eapply grow_put; [exact G3|apply N.le_refl|exact Gr3|reflexivity|reflexivity|]. intros R. destruct (g_new _ _ _ G3 R) as [Nw _].
      pose proof (Nw r _ (N.le_refl _) Gr3) as Sr. destruct R as (R1 & R2 & R3). cbn [small] in *. cbn [length] in *. unfold e. lia. }
    split; [exact G4|]. split; [rewrite app_length; cbn [length]; cbn [length] in Rl; lia|]. cbn [app].
    destruct (sane_put w3 r (Dict d (N.of_nat (length (v1 :: l)) + 1) e 0) _ (g_sane _ _ _ G3) Gr3 eq_refl eq_refl) as [S4 A4]. fold w4 in S4, A4.
    assert (AA : agree (fun i => i = r) (fun i => i = z) w1 w4).
    { eapply agree_trans; [|eapply agree_weaken; [| |exact A4]; auto; intros i []].
      constructor; [intros i c H _; exact H|intros i c H _; exact H| |exact (chrs_ext_refl w1)].
      intros i y H Hz. rewrite El3, El2. apply elem_lt in H as H'; [|exact S2]. destruct (N.eqb_spec i z); [contradiction|]. destruct (N.eqb_spec i (nelem w1)); [lia|exact H]. }
    exists e, d, (kvs ++ [(k, x)]). split; [|split].
    + unfold w4. rewrite get_put, N.eqb_refl, Gr3. rewrite app_comm_cons, app_length. cbn [length]. do 2 f_equal. lia.
    + eapply espine_push with (z := z); [exact Sp| | | |].
      * intros j y Hj Hz. apply (ag_e _ _ _ _ AA); assumption.
      * intros k' v' Hz. rewrite Gz in Hz. injection Hz as <- <-. change (elemat w4 z) with (elemat w3 z). now rewrite El3, N.eqb_refl.
      * change (elemat w4 e) with (elemat w3 e). rewrite El3, El2. fold e. rewrite N.eqb_refl. destruct (N.eqb_spec e z); [unfold e in *; lia|reflexivity].
      * exact Lz1.
    + assert (Nw4 : nobj w4 = nobj w1) by (unfold w4; now rewrite !nobj_put).
      assert (Nm5 : nelem w4 = (nelem w1 + 1)%N) by (change (nelem w4) with (nelem w3); lia).
      change (v1 :: l ++ [(s, v)]) with ((v1 :: l) ++ [(s, v)]). apply Forall2_app.
      * eapply Forall2_mono; [|exact Kids]. intros kv' x' (Q & a & b & a' & b' & (K1 & K2 & K3 & K4 & K5) & Dk). split.
        { eapply strat_agree; [exact S2|exact AA|apply sane_bound, S4|]. eapply strat_grow; [exact S1|exact G1|exact Q]. }
        exists a, b, a', b'. split.
        { rewrite Nw4, Nm5. refine (conj K1 (conj _ (conj K3 (conj (or_intror _) _)))); unfold e; lia. }
        assert (Dk1 : den_in (ivl a b) (ivl a' b') w1 (snd kv') (snd x')) by (eapply den_in_grow; [exact S1|exact G1| | |exact Dk]; auto).
        eapply den_in_agree; [exact S2|exact S4|exact AA| | |exact Dk1]; intros i Hi; (split; [|exact Hi]); apply ivl_spec in Hi; lia.
      * constructor; [|constructor]. split; [eapply strat_agree; [exact S2|exact AA|apply sane_bound, S4|exact Ks]|].
        exists (nobj w), (nobj w1), (nelem w), (nelem w1). apply get_lt in Gr0 as Hr0. split.
        { rewrite Nw4, Nm5. refine (conj Hr0 (conj _ (conj _ (conj (or_intror _) _)))); unfold e; lia. }
        eapply den_in_agree; [exact S2|exact S4|exact AA| | |exact Dx]; intros i Hi; (split; [|exact Hi]); apply ivl_spec in Hi; lia.
Qed.
Lemma dict_done rho w l : dict_st rho w l -> den_in (ivl r (nobj w)) (ivl (nelem w0) (nelem w)) w r (VDict l).
Proof.
  intros (G & _ & St). assert (Rr : forall c, get w r = Some c -> cin (ivl r (nobj w)) w r = Some c).
  { intros c H. unfold cin. rewrite H. replace (ivl r (nobj w) r) with true; [reflexivity|]. symmetry. apply ivl_spec. apply get_lt in H. lia. }
  destruct l as [|v1 l]; [eapply d_dict0, Rr, St|].
  destruct St as (z & d & kvs & Gr & Sp & Kids). eapply d_dict; [apply Rr, Gr|reflexivity|].
  eapply espine_chain; [apply G|exact Sp| |].
  - intros j Hj. apply ivl_spec. exact Hj.
  - eapply Forall2_mono; [|exact Kids]. intros kv' x' (Q & a & b & a' & b' & (K1 & K2 & K3 & K4 & K5) & Dk). split; [exact Q|].
    eapply den_in_grow; [apply G|apply grow_refl, G| | |exact Dk]; intros i Hi; apply ivl_spec; apply ivl_spec in Hi; lia.
Qed.
End DictLoop.

(** ** Structures *)
Definition clones (cl : wk -> N -> res (wk * N)) (o : N) (v : value) : Prop :=
  forall w, sane w -> exists w' o', cl w o = Ok (w', o') /\ post w w' o' v.
Inductive fval := FObj (v : value) | FStr (s : bytes) | FOpt (s : option bytes).
Definition field_room (f : fval) : N :=
  match f with FObj v => room v | FStr s => string_room s | FOpt (Some s) => string_room s | FOpt None => 0 end.
Definition field_in (D E : N -> bool) (w : wk) (x : N) (f : fval) : Prop :=
  match f with FObj v => den_in D E w x v | FStr s => strat w x = Some s | FOpt s => opt_str (strat w) x s end.
Definition field_cl (cl : wk -> N -> res (wk * N)) (src : wk) (k : kind) (o : N) (f : fval) : Prop :=
  match k, f with
  | KObj, FObj v => clones cl o v
  | KStr, FStr s => strat src o = Some s /\ string_fits s
  | KOpt, FOpt s => opt_str (strat src) o s /\ opt_fits s
  | _, _ => False
  end.
Fixpoint updates (order : list nat) (xs gs : list N) : list N :=
  match order, xs with i :: order, x :: xs => updates order xs (upd i x gs) | _, _ => gs end.
Lemma field_in_agree (D E D' E' : N -> bool) X Y w w' x f : sane w -> sane w' -> agree X Y w w' ->
  (forall i, D i = true -> ~ X i /\ D' i = true) -> (forall e, E e = true -> ~ Y e /\ E' e = true) ->
  field_in D E w x f -> field_in D' E' w' x f.
Proof.
  intros S0 S1 A HD HE. destruct f as [v|s|[s|]]; cbn [field_in opt_str].
  - now apply (den_in_agree D E D' E' X Y).
  - apply (strat_agree X Y); [exact S0|exact A|now apply sane_bound].
  - intros [N0 H]. split; [exact N0|]. revert H. apply (strat_agree X Y); [exact S0|exact A|now apply sane_bound].
  - auto.
Qed.
Lemma field_ok cl src k o f w : sane w -> field_cl cl src k o f ->
  exists w' x, match k with
               | KObj => cl w o
               | KStr => str_clone src w o
               | KOpt => if (o =? 0)%N then Ok (w, 0%N) else str_clone src w o
               | _ => Ok (w, o)
               end = Ok (w', x) /\ grow (field_room f) w w' /\ (x < nobj w')%N /\
               field_in (ivl (nobj w) (nobj w')) (ivl (nelem w) (nelem w')) w' x f.
Proof.
  intros S0 H. destruct k; try destruct H; destruct f as [v|s|s]; try contradiction.
  - destruct (H w S0) as (w' & x & E & G & Dn). exists w', x. refine (conj E (conj G (conj _ Dn))). eapply den_in_lt; exact Dn.
  - destruct H as [H F]. destruct (str_clone_ok src w o s S0 H F) as (w' & x & E & St & G). exists w', x. refine (conj E (conj G (conj _ St))). eapply strat_lt; exact St.
  - destruct H as [H F]. destruct s as [s|].
    + destruct H as [N0 H]. destruct (N.eqb_spec o 0); [contradiction|].
      destruct (str_clone_ok src w o s S0 H F) as (w' & x & E & St & G). exists w', x. refine (conj E (conj G (conj _ _))); [eapply strat_lt; exact St|].
      split; [|exact St]. eapply strat_nonzero; [apply G|exact St].
    + cbn [opt_str] in H. subst o. exists w, 0%N. refine (conj eq_refl (conj (grow_refl _ S0) (conj _ eq_refl))). eapply get_lt, (sane_null _ S0).
Qed.
Lemma fields_small_upd sch gs i x : fields_small sch gs -> snd (nth i sch (KRaw, 4)) = 4 -> (x < 2 ^ 32)%N -> fields_small sch (upd i x gs).
Proof.
  intros F. revert i. induction F as [|kw v sch gs H F IH]; intros i W L; [destruct i; constructor|]. destruct i as [|i]; cbn [upd nth] in *.
  - constructor; [|exact F]. rewrite W. exact L.
  - constructor; [exact H|]. now apply IH.
Qed.
Lemma clone_fields_ok cl src sch fs ord order fvs :
  Forall2 (fun i f => snd (nth i sch (KRaw, 4)) = 4 /\ field_cl cl src (fst (nth i sch (KRaw, 0))) (nth i fs 0%N) f) order fvs ->
  forall w0 w rho t gs, sane w0 -> grow rho w0 w -> get w (nobj w0) = Some (Rec t gs) -> schema t = Some (sch, ord) ->
  exists w' xs, clone_fields cl src sch fs order w (nobj w0) = Ok w' /\ grow (rho + fold_right N.add 0%N (map field_room fvs)) w0 w' /\
    get w' (nobj w0) = Some (Rec t (updates order xs gs)) /\ agree (fun i => i = nobj w0) nowhere w w' /\ (nobj w <= nobj w')%N /\ (nelem w <= nelem w')%N /\
    Forall2 (field_in (ivl (nobj w0 + 1) (nobj w')) (ivl (nelem w0) (nelem w')) w') xs fvs.
Proof.
  induction 1 as [|i f order fvs [W H] _ IH]; intros w0 w rho t gs S0 G Gr Sc.
  - exists w, []. refine (conj eq_refl (conj _ (conj Gr (conj (agree_refl _ _ _) (conj (N.le_refl _) (conj (N.le_refl _) _)))))); [|constructor].
    eapply grow_more; [|exact G]. cbn. lia.
  - destruct (field_ok _ _ _ _ _ w (g_sane _ _ _ G) H) as (w1 & x & E1 & G1 & Lx & Fx). cbn [clone_fields]. rewrite E1. cbn [bind].
    pose proof (ag_c _ _ _ _ (g_agree _ _ _ G1) _ _ Gr (fun q => q)) as Gr1. rewrite Gr1.
    assert (GG : grow (rho + field_room f) w0 w1) by (eapply grow_trans; eassumption).
    assert (G2 : grow (rho + field_room f) w0 (put (nobj w0) (Rec t (upd i x gs)) w1)).
    { eapply grow_put; [exact GG|apply N.le_refl|exact Gr1|reflexivity|reflexivity|]. intros R. destruct (g_new _ _ _ GG R) as [Nw _].
      destruct (Nw _ _ (N.le_refl _) Gr1) as (sch' & ord' & Sc' & Fs). rewrite Sc in Sc'. injection Sc' as <- <-. exists sch, ord. split; [exact Sc|].
      apply fields_small_upd; [exact Fs|exact W|]. pose proof (g_n _ _ _ GG). destruct R as (R1 & _). lia. }
    destruct (sane_put w1 (nobj w0) (Rec t (upd i x gs)) _ (g_sane _ _ _ G1) Gr1 eq_refl eq_refl) as [S2 A2].
    set (w2 := put (nobj w0) (Rec t (upd i x gs)) w1) in *.
    assert (Gr2 : get w2 (nobj w0) = Some (Rec t (upd i x gs))). { unfold w2. now rewrite get_put, N.eqb_refl, Gr1. }
    destruct (IH w0 w2 _ t _ S0 G2 Gr2 Sc) as (w' & xs & E & G' & Gr' & A' & L1 & L2 & F').
    pose proof (g_n _ _ _ G1) as Nn. pose proof (g_m _ _ _ G1) as Nm. pose proof (g_m _ _ _ G) as Nm0.
    change (nelem w2) with (nelem w1) in L2. unfold w2 in L1. rewrite nobj_put in L1. apply get_lt in Gr as Lr.
    exists w', (x :: xs). split; [exact E|]. split; [eapply grow_more; [|exact G']; cbn; lia|]. split; [exact Gr'|]. split.
    { eapply agree_trans; [eapply agree_weaken; [| |apply (g_agree _ _ _ G1)]; unfold nowhere; easy|]. eapply agree_trans; eassumption. }
    split; [lia|]. split; [lia|]. constructor; [|exact F'].
    eapply field_in_agree; [apply (g_sane _ _ _ G1)|apply (g_sane _ _ _ G')|eapply agree_trans; [exact A2|exact A']| | |exact Fx].
    + intros j Hj. apply ivl_spec in Hj. split; [lia|]. apply ivl_spec. lia.
    + intros j Hj. apply ivl_spec in Hj. split; [easy|]. apply ivl_spec. lia.
Qed.

(** ** obj_clone *)
Definition ev (Q : nat -> Prop) : Prop := exists n0, forall n, n0 <= n -> Q n.
Lemma ev_and (P Q : nat -> Prop) : ev P -> ev Q -> ev (fun n => P n /\ Q n).
Proof. intros [a HP] [b HQ]. exists (a + b). intros n L. split; [apply HP|apply HQ]; lia. Qed.
Lemma ev_all (P : nat -> Prop) : (forall n, P n) -> ev P.
Proof. intros H. exists 0. auto. Qed.
Lemma ev_imp (P Q : nat -> Prop) : (forall n, P n -> Q n) -> ev P -> ev Q.
Proof. intros H [n K]. exists n. auto. Qed.
Lemma ev_S (P Q : nat -> Prop) : (forall n, P n -> Q (S n)) -> ev P -> ev Q.
Proof. intros H [n K]. exists (S n). intros [|m] L; [lia|]. apply H, K. lia. Qed.
Lemma ev_ge m : ev (fun n => m <= n).
Proof. exists m. auto. Qed.

Fixpoint vroom (l : list value) : N := match l with [] => 0 | x :: l => 1 + room x + vroom l end.
Fixpoint droom (l : list (bytes * value)) : N := match l with [] => 0 | (k, x) :: l => 1 + string_room k + room x + droom l end.
Lemma room_array l : room (VArray l) = (1 + vroom l)%N.
Proof. reflexivity. Qed.
Lemma room_dict l : room (VDict l) = (1 + droom l)%N.
Proof. reflexivity. Qed.
Lemma fits_array a l : fits a (VArray l) <-> Forall (fits a) l.
Proof.
  cbn [fits]. induction l as [|x l IH]; [split; constructor|]. split.
  - intros [H K]. constructor; [exact H|]. now apply IH.
  - intros H. inversion H; subst. split; [assumption|]. now apply IH.
Qed.
Lemma fits_dict a l : fits a (VDict l) <-> NoDup (map fst l) /\ Forall (fun kx => string_fits (fst kx) /\ fits a (snd kx)) l.
Proof.
  cbn [fits]. assert (K : (fix all (l : list (bytes * value)) : Prop := match l with [] => True | (k, x) :: l => string_fits k /\ fits a x /\ all l end) l
    <-> Forall (fun kx => string_fits (fst kx) /\ fits a (snd kx)) l); [|now rewrite K].
  induction l as [|[k x] l IH]; [split; constructor|]. split.
  - intros (H & H1 & K). constructor; [now split|]. now apply IH.
  - intros H. inversion H as [|? ? [Q1 Q2] Q3]; subst. split; [assumption|]. split; [assumption|]. now apply IH.
Qed.

Lemma key_clones src k s n w : strat src k = Some s -> string_fits s -> sane w ->
  exists w' k', clone (S n) src w k = Ok (w', k') /\ strat w' k' = Some s /\ grow (string_room s) w w'.
Proof.
  intros H F S0. cbn [clone]. assert (K : exists p l f, get src k = Some (Str p l f)).
  { unfold strat, str in H. destruct (get src k) as [[]|]; try discriminate. eauto. }
  destruct K as (p & l & f & ->). now apply str_clone_ok.
Qed.
Lemma entry_ok src n k v s x w0 w rho l : strat src k = Some s -> string_fits s -> clones (clone (S n) src) v x ->
  sane w0 -> dict_st w0 rho w l -> ~ In s (map fst l) ->
  exists w', clone_entry (clone (S n) src) w (nobj w0) k v = Ok w' /\ dict_st w0 (rho + (1 + string_room s + room x)) w' (l ++ [(s, x)]).
Proof.
  intros H F C S0 St Nin. pose proof (g_sane _ _ _ (proj1 St)) as S1. unfold clone_entry.
  destruct (key_clones _ _ _ n w H F S1) as (w1 & k' & E1 & St1 & G1). rewrite E1. cbn [bind].
  destruct (C w1 (g_sane _ _ _ G1)) as (w2 & v' & E2 & G2 & Dn). rewrite E2. cbn [bind].
  destruct (dict_push w0 S0 rho (string_room s + room x) w w2 l k' s v' x St) as (w3 & E3 & St3).
  - eapply grow_trans; eassumption.
  - eapply strat_grow; [apply (g_sane _ _ _ G1)|exact G2|exact St1].
  - eapply den_in_grow; [apply (g_sane _ _ _ G2)|apply grow_refl, (g_sane _ _ _ G2)| | |exact Dn]; intros i Hi; apply ivl_spec; apply ivl_spec in Hi;
      pose proof (g_n _ _ _ G1); pose proof (g_m _ _ _ G1); lia.
  - exact Nin.
  - exists w3. split; [exact E3|]. replace (rho + (1 + string_room s + room x))%N with (rho + (string_room s + room x) + 1)%N by lia. exact St3.
Qed.

Section Clone.
Variable src : wk.
Let a := autof src.
Let Pd (o : N) (v : value) : Prop := fits a v -> ev (fun n => clones (clone n src) o v).
Let Pc (v n : N) (h : bool) (l : list value) : Prop := Forall (fits a) l ->
  ev (fun m => forall g w0 w rho l0, length l <= g -> sane w0 -> arr_st w0 rho w l0 ->
    exists w', clone_array (clone m src) src g w (nobj w0) v n h = Ok w' /\ arr_st w0 (rho + vroom l) w' (l0 ++ l)).
Definition dict_fits (l : list (bytes * value)) : Prop := Forall (fun kx => string_fits (fst kx) /\ fits a (snd kx)) l.
Let Pe (e : N) (l : list (bytes * value)) : Prop := dict_fits l ->
  ev (fun m => forall g w0 w rho l0, length l <= g -> sane w0 -> dict_st w0 rho w l0 -> NoDup (map fst (l0 ++ l)) ->
    exists w', clone_elems (clone m src) src g w (nobj w0) e = Ok w' /\ dict_st w0 (rho + droom l) w' (l0 ++ l)).
Let Pp (ps : list (N * N)) (l : list (bytes * value)) : Prop := dict_fits l ->
  ev (fun m => forall w0 w rho l0, sane w0 -> dict_st w0 rho w l0 -> NoDup (map fst (l0 ++ l)) ->
    exists w', clone_pairs (clone m src) ps w (nobj w0) = Ok w' /\ dict_st w0 (rho + droom l) w' (l0 ++ l)).

Lemma nodup_middle (l0 : list (bytes * value)) s x l : NoDup (map fst (l0 ++ (s, x) :: l)) -> ~ In s (map fst l0).
Proof. rewrite map_app. cbn [map fst]. intros H. apply NoDup_remove_2 in H. intros K. apply H. apply in_or_app. now left. Qed.
Lemma app_one {A} (l0 : list A) x l : l0 ++ x :: l = (l0 ++ [x]) ++ l.
Proof. now rewrite <- app_assoc. Qed.

Lemma simple_ok w c x : sane w -> is_str c = false -> (roomy 1 w -> small w c) -> room x = 1%N ->
  (forall D E w' o, cin D w' o = Some c -> den_in D E w' o x) ->
  exists w' o', Ok (add c w) = Ok (w', o') /\ post w w' o' x.
Proof.
  intros S0 I Sm R H. exists (fst (add c w)), (nobj w). split; [reflexivity|]. split.
  - rewrite R. apply (grow_add 0 w w c (grow_refl _ S0) I). exact Sm.
  - apply H. unfold cin. rewrite get_add, N.eqb_refl. replace (ivl _ _ _) with true; [reflexivity|].
    symmetry. apply ivl_spec. rewrite nobj_add. lia.
Qed.
Lemma rec_ok t sch order fs fvs n o x : get src o = Some (Rec t fs) -> schema t = Some (sch, order) ->
  (forall w, roomy 1 w -> fields_small sch (raw_copy sch fs)) ->
  room x = (1 + fold_right N.add 0%N (map field_room fvs))%N ->
  Forall2 (fun i f => snd (nth i sch (KRaw, 4)) = 4 /\ field_cl (clone n src) src (fst (nth i sch (KRaw, 0))) (nth i fs 0%N) f) order fvs ->
  (forall D E w' r xs, cin D w' r = Some (Rec t (updates order xs (raw_copy sch fs))) -> Forall2 (field_in D E w') xs fvs -> den_in D E w' r x) ->
  clones (clone (S n) src) o x.
Proof.
  intros G Sc Sm R F H w S0. cbn [clone]. rewrite G, Sc.
  set (c := Rec t (raw_copy sch fs)). assert (Ad : add c w = (fst (add c w), nobj w)) by reflexivity. rewrite Ad.
  assert (G1 : grow 1 w (fst (add c w))). { apply (grow_add 0 w w c (grow_refl _ S0) eq_refl). intros Rm. exists sch, order. split; [exact Sc|]. exact (Sm w Rm). }
  destruct (clone_fields_ok _ _ _ _ order _ _ F w _ 1%N t (raw_copy sch fs) S0 G1) as (w' & xs & E & G' & Gr & A & L1 & L2 & F').
  - rewrite get_add, N.eqb_refl. reflexivity.
  - exact Sc.
  - rewrite E. cbn [bind]. exists w', (nobj w). split; [reflexivity|]. split; [rewrite R; exact G'|]. eapply H.
    + unfold cin. rewrite Gr. replace (ivl _ _ _) with true; [reflexivity|]. symmetry. apply ivl_spec. apply get_lt in Gr. lia.
    + eapply Forall2_mono; [|exact F']. intros y f. apply (field_in_agree _ _ _ _ nowhere nowhere); [apply G'|apply G'|apply agree_refl| |]; intros i Hi; (split; [easy|]); apply ivl_spec; apply ivl_spec in Hi; lia.
Qed.

Lemma width4 : (256 ^ N.of_nat 4 = 2 ^ 32)%N. Proof. reflexivity. Qed.
Lemma width1 : (256 ^ N.of_nat 1 = 256)%N. Proof. reflexivity. Qed.
Lemma width2 : (256 ^ N.of_nat 2 = 65536)%N. Proof. reflexivity. Qed.
Lemma width3 : (256 ^ N.of_nat 3 = 16777216)%N. Proof. reflexivity. Qed.
Ltac widths := intros; unfold raw_copy; cbn [combine map fst snd]; unfold fields_small;
  repeat (apply Forall2_cons; [cbn [snd]; rewrite ?width4, ?width1, ?width2, ?width3; lia|]); apply Forall2_nil.
Ltac rooms := cbn [room map field_room fold_right]; lia.
Ltac cls := repeat (apply Forall2_cons; [cbn [nth fst snd field_cl]; repeat split; assumption|]); apply Forall2_nil.
Ltac unF2 := repeat match goal with H : Forall2 _ _ (_ :: _) |- _ => inversion H; subst; clear H | H : Forall2 _ _ [] |- _ => inversion H; subst; clear H end;
  cbn [updates upd raw_copy combine map field_in] in *.
Lemma clone_all :
  (forall o v, den (get src) (elemat src) (strat src) (nth_error (hashes src)) o v -> Pd o v) /\
  (forall v n h l, chain (get src) (elemat src) (strat src) (nth_error (hashes src)) v n h l -> Pc v n h l) /\
  (forall e l, echain (get src) (elemat src) (strat src) (nth_error (hashes src)) e l -> Pe e l) /\
  (forall ps l, pairs (get src) (elemat src) (strat src) (nth_error (hashes src)) ps l -> Pp ps l).
Proof.
  apply den_all; unfold Pd, Pc, Pe, Pp.
  - (* null *) intros o v G _. exists 1. intros [|n] L; [lia|]. intros w S0. cbn [clone]. rewrite G. cbn [N.eqb]. exists w, 0%N. split; [reflexivity|]. split; [now apply grow_refl|].
    eapply d_null. unfold cin. rewrite (sane_null _ S0). cbn [imm N.eqb]. rewrite orb_true_r. reflexivity.
  - (* bool *) intros o v G _. exists 1. intros [|n] L; [lia|]. intros w S0. cbn [clone]. rewrite G. change (4 =? 0)%N with false. change (4 =? 4)%N with true. cbv iota.
    apply simple_ok; [exact S0|reflexivity| |reflexivity|].
    + intros _. cbn [small]. destruct (_ =? 0)%N; lia.
    + intros D E w' r C. destruct (v mod 256 =? 0)%N; exact (d_bool _ _ _ _ _ _ C).
  - (* file *) intros o s x G H F. cbn [fits] in F. exists 1. intros [|n] L; [lia|]. intros w S0. cbn [clone]. rewrite G.
    change (5 =? 0)%N with false. change (5 =? 4)%N with false. change (5 =? 5)%N with true. cbv iota.
    set (c := Simple 5 0). assert (Ad : add c w = (fst (add c w), nobj w)) by reflexivity. rewrite Ad.
    assert (G1 : grow 1 w (fst (add c w))). { apply (grow_add 0 w w c (grow_refl _ S0) eq_refl). intros _. cbn. lia. }
    assert (Gr : get (fst (add c w)) (nobj w) = Some c) by (rewrite get_add, N.eqb_refl; reflexivity).
    destruct (str_clone_ok src (fst (add c w)) s x (g_sane _ _ _ G1) H F) as (w2 & k & E & St & G2). rewrite E. cbn [bind].
    pose proof (ag_c _ _ _ _ (g_agree _ _ _ G2) _ _ Gr (fun q => q)) as Gr2.
    assert (GG : grow (1 + string_room x) w w2) by (eapply grow_trans; eassumption).
    assert (G3 : grow (1 + string_room x) w (put (nobj w) (Simple 5 k) w2)).
    { eapply grow_put; [exact GG|apply N.le_refl|exact Gr2|reflexivity|reflexivity|]. intros (R1 & _). cbn [small]. pose proof (g_n _ _ _ GG). pose proof (strat_lt _ _ _ St). lia. }
    destruct (sane_put w2 (nobj w) (Simple 5 k) _ (g_sane _ _ _ G2) Gr2 eq_refl eq_refl) as [S3 A3].
    eexists _, _. split; [reflexivity|]. split; [exact G3|]. eapply d_file.
    + unfold cin. rewrite get_put, N.eqb_refl, Gr2. replace (ivl _ _ _) with true; [reflexivity|]. symmetry. apply ivl_spec. rewrite nobj_put. apply get_lt in Gr2. lia.
    + eapply strat_agree; [apply (g_sane _ _ _ G2)|exact A3|apply sane_bound, S3|exact St].
  - (* feature *) intros o v G [F1 F2]. exists 1. intros [|n] L; [lia|]. intros w S0. cbn [clone]. rewrite G.
    change (6 =? 0)%N with false. change (6 =? 4)%N with false. change (6 =? 5)%N with false. change (6 =? 6)%N with true. cbv iota zeta.
    assert (E : (if (v =? 0)%N then match autof src with Some a => a | None => v end else v) = v).
    { destruct (N.eqb_spec v 0) as [->|]; [|reflexivity]. fold a. destruct (F2 eq_refl) as [-> | ->]; reflexivity. }
    rewrite E. apply simple_ok; [exact S0|reflexivity| |reflexivity|].
    + intros _. cbn [small]. lia.
    + intros D E' w' r C. exact (d_feature _ _ _ _ _ _ C).
  - (* number *) intros o v G F. exists 1. intros [|n] L; [lia|]. intros w S0. cbn [clone]. rewrite G.
    apply simple_ok; [exact S0|reflexivity|intros _; exact F|reflexivity|]. intros D E' w' r C. exact (d_number _ _ _ _ _ _ C).
  - (* string *) intros o s H F. exists 1. intros [|n] L; [lia|]. intros w S0.
    destruct (key_clones src o s n w H F S0) as (w' & k & E & St & G). exists w', k. split; [exact E|]. split; [exact G|]. now apply d_string.
  - (* empty array *) intros o v n t h G _. exists 1. intros [|m] L; [lia|]. intros w S0. cbn [clone]. rewrite G. cbn [N.eqb].
    change (let '(dst, r) := add (Arr 0 0 0 0 false) w in Ok (dst, r)) with (Ok (add (Arr 0 0 0 0 false) w)).
    apply simple_ok; [exact S0|reflexivity|intros _; cbn; lia|reflexivity|]. intros D E w' r C. exact (d_array0 _ _ _ _ _ _ _ _ _ C).
  - (* array *) intros o v n t h l G Ch IH F. rewrite fits_array in F. apply (ev_S (fun m => length l <= m /\ forall g w0 w rho l0, length l <= g -> sane w0 -> arr_st w0 rho w l0 ->
      exists w', clone_array (clone m src) src g w (nobj w0) v n h = Ok w' /\ arr_st w0 (rho + vroom l) w' (l0 ++ l))); [|apply ev_and; [apply ev_ge|exact (IH F)]].
    intros m [Lm K] w S0. cbn [clone]. rewrite G.
    set (c := Arr 0 0 0 0 false). assert (Ad : add c w = (fst (add c w), nobj w)) by reflexivity. rewrite Ad.
    assert (Ne : (N.of_nat (length l) =? 0)%N = false). { apply N.eqb_neq. inversion Ch; subst; cbn [length]; lia. } rewrite Ne.
    destruct (K m w (fst (add c w)) 1%N [] Lm S0) as (w' & E & St).
    { split; [|split; [cbn; lia|rewrite get_add, N.eqb_refl; reflexivity]]. apply (grow_add 0 w w c (grow_refl _ S0) eq_refl). intros _. cbn. lia. }
    rewrite E. cbn [bind]. exists w', (nobj w). split; [reflexivity|]. cbn [app] in St. split; [rewrite room_array; apply St|]. eapply arr_done. exact St.
  - (* empty dict *) intros o d t f G _. exists 1. intros [|m] L; [lia|]. intros w S0. cbn [clone]. rewrite G. cbn [N.eqb].
    change (let '(dst, r) := add (Dict 0 0 0 0) w in Ok (dst, r)) with (Ok (add (Dict 0 0 0 0) w)).
    apply simple_ok; [exact S0|reflexivity|intros _; cbn; lia|reflexivity|]. intros D E w' r C. exact (d_dict0 _ _ _ _ _ _ _ _ C).
  - (* dict *) intros o d t f l G Tb Ch IH F. rewrite fits_dict in F. destruct F as [Nd F]. apply (ev_S (fun m => length l <= m /\ forall g w0 w rho l0, length l <= g -> sane w0 -> dict_st w0 rho w l0 -> NoDup (map fst (l0 ++ l)) ->
      exists w', clone_elems (clone m src) src g w (nobj w0) d = Ok w' /\ dict_st w0 (rho + droom l) w' (l0 ++ l))); [|apply ev_and; [apply ev_ge|exact (IH F)]].
    intros m [Lm K] w S0. cbn [clone]. rewrite G, Tb.
    set (c := M_Serial.Dict 0 0 0 0). assert (Ad : add c w = (fst (add c w), nobj w)) by reflexivity. rewrite Ad.
    assert (Ne : (N.of_nat (length l) =? 0)%N = false). { apply N.eqb_neq. inversion Ch; subst; cbn [length]; lia. } rewrite Ne.
    destruct (K m w (fst (add c w)) 1%N [] Lm S0) as (w' & E & St).
    { split; [|split; [cbn; lia|rewrite get_add, N.eqb_refl; reflexivity]]. apply (grow_add 0 w w c (grow_refl _ S0) eq_refl). intros _. cbn. lia. }
    { exact Nd. }
    rewrite E. cbn [bind]. exists w', (nobj w). split; [reflexivity|]. cbn [app] in St. split; [rewrite room_dict; apply St|]. eapply dict_done. exact St.
  - (* big dict *) intros o d t f ps x l G Tb Tab Ch IH F. rewrite fits_dict in F. destruct F as [Nd F]. apply (ev_S (fun m => forall w0 w rho l0, sane w0 -> dict_st w0 rho w l0 -> NoDup (map fst (l0 ++ x :: l)) ->
      exists w', clone_pairs (clone m src) ps w (nobj w0) = Ok w' /\ dict_st w0 (rho + droom (x :: l)) w' (l0 ++ x :: l))); [|exact (IH F)].
    intros m K w S0. cbn [clone]. rewrite G, Tb.
    set (c := M_Serial.Dict 0 0 0 0). assert (Ad : add c w = (fst (add c w), nobj w)) by reflexivity. rewrite Ad.
    assert (Ne : (N.of_nat (length (x :: l)) =? 0)%N = false). { apply N.eqb_neq. cbn [length]; lia. } rewrite Ne, Tab. cbn [or_abort bind].
    destruct (K w (fst (add c w)) 1%N [] S0) as (w' & E & St).
    { split; [|split; [cbn; lia|rewrite get_add, N.eqb_refl; reflexivity]]. apply (grow_add 0 w w c (grow_refl _ S0) eq_refl). intros _. cbn. lia. }
    { exact Nd. }
    rewrite E. cbn [bind]. exists w', (nobj w). split; [reflexivity|]. cbn [app] in St. split; [rewrite room_dict; apply St|]. eapply dict_done. exact St.
  - (* env *) intros o k x G D1 I1 F. cbn [fits] in F. refine (ev_S _ _ _ (I1 F)). intros m C1.
    eapply rec_ok with (fvs := [FObj x]); [exact G|reflexivity|widths|rooms|cls|]. intros D E w' r xs Cn Fx. unF2. eapply d_env; eassumption.
  - (* conf *) intros o k x G D1 I1 F. cbn [fits] in F. refine (ev_S _ _ _ (I1 F)). intros m C1.
    eapply rec_ok with (fvs := [FObj x]); [exact G|reflexivity|widths|rooms|cls|]. intros D E w' r xs Cn Fx. unF2. eapply d_conf; eassumption.
  - (* run *) intros o k1 k2 x y st fl G D1 I1 D2 I2 F. cbn [fits] in F. destruct F as (F1 & F2 & F3). refine (ev_S _ _ _ (ev_and _ _ (I1 F1) (I2 F2))). intros m [C1 C2].
    eapply rec_ok with (fvs := [FObj x; FObj y]); [exact G|reflexivity|widths|rooms|cls|]. intros D E w' r xs Cn Fx. unF2. eapply d_run; eassumption.
  - (* test *) intros o n e aa en su wd d t p pad nv ev' wv av env suv dv tv pv sf ip vb c pr G Pd' Sn Se Sw D1 I1 D2 I2 D3 I3 D4 I4 D5 I5 D6 I6 F. cbn [fits] in F.
    destruct F as ((Fn & Fe & Fw) & (F1 & F2 & F3 & F4 & F5 & F6) & Fz).
    refine (ev_S _ _ _ (ev_and _ _ (I1 F1) (ev_and _ _ (I2 F2) (ev_and _ _ (I3 F3) (ev_and _ _ (I4 F4) (ev_and _ _ (I5 F5) (I6 F6))))))). intros m (C1 & C2 & C3 & C4 & C5 & C6).
    eapply rec_ok with (fvs := [FStr nv; FStr ev'; FOpt wv; FObj av; FObj env; FObj suv; FObj dv; FObj tv; FObj pv]); [exact G|reflexivity|widths| |cls|].
    { cbn [room map field_room fold_right]. destruct wv; lia. }
    intros D E w' r xs Cn Fx. unF2. eapply d_test; eassumption.
  - (* install *) intros o s d hp p1 pm ed ef ty bt p2 sv dv edv efv G Ss Sd D1 I1 D2 I2 F. cbn [fits] in F. destruct F as ((Fs & Fd) & (F1 & F2) & Fz).
    refine (ev_S _ _ _ (ev_and _ _ (I1 F1) (I2 F2))). intros m (C1 & C2).
    eapply rec_ok with (fvs := [FStr sv; FStr dv; FObj edv; FObj efv]); [exact G|reflexivity|widths|rooms|cls|].
    intros D E w' r xs Cn Fx. unF2. eapply d_install; eassumption.
  - (* option *) intros o n v c mx mn dp ds so ty ki yi bu pad nv vv cv mxv mnv dpv dsv G D1 I1 D2 I2 D3 I3 D4 I4 D5 I5 D6 I6 D7 I7 F. cbn [fits] in F.
    destruct F as ((F1 & F2 & F3 & F4 & F5 & F6 & F7) & Fz).
    refine (ev_S _ _ _ (ev_and _ _ (I1 F1) (ev_and _ _ (I2 F2) (ev_and _ _ (I3 F3) (ev_and _ _ (I4 F4) (ev_and _ _ (I5 F5) (ev_and _ _ (I6 F6) (I7 F7)))))))). intros m (C1 & C2 & C3 & C4 & C5 & C6 & C7).
    eapply rec_ok with (fvs := [FObj nv; FObj vv; FObj cv; FObj mxv; FObj mnv; FObj dpv; FObj dsv]); [exact G|reflexivity|widths|rooms|cls|].
    intros D E w' r xs Cn Fx. unF2. destruct Fz as (_ & _ & -> & _). eapply d_option; eassumption.
  - (* last *) intros v n x Dn IH F. inversion F as [|? ? F1 _]; subst. refine (ev_imp _ _ _ (IH F1)).
    intros m C g w0 w rho l0 Lg S0 St. destruct g as [|g]; [cbn in Lg; lia|]. cbn [clone_array].
    destruct (C w (g_sane _ _ _ (proj1 St))) as (w1 & x' & E & G1 & D1). rewrite E. cbn [bind].
    destruct (arr_push w0 S0 _ _ _ _ _ _ _ St G1 D1) as (w2 & E2 & St2). rewrite E2. cbn [bind negb]. exists w2. split; [reflexivity|].
    replace (rho + vroom [x])%N with (rho + room x + 1)%N by (cbn [vroom]; lia). exact St2.
  - (* next *) intros v n x v' n' t' l' h' l Dn IH G Ch IH2 F. inversion F as [|? ? F1 F2]; subst. refine (ev_imp _ _ _ (ev_and _ _ (IH F1) (IH2 F2))).
    intros m [C K] g w0 w rho l0 Lg S0 St. destruct g as [|g]; [cbn in Lg; lia|]. cbn [clone_array].
    destruct (C w (g_sane _ _ _ (proj1 St))) as (w1 & x' & E & G1 & D1). rewrite E. cbn [bind].
    destruct (arr_push w0 S0 _ _ _ _ _ _ _ St G1 D1) as (w2 & E2 & St2). rewrite E2. cbn [bind negb]. rewrite G.
    destruct (K g w0 w2 _ _ ltac:(cbn in Lg; lia) S0 St2) as (w3 & E3 & St3). exists w3. split; [exact E3|].
    rewrite app_one. replace (rho + vroom (x :: l))%N with (rho + room x + 1 + vroom l)%N by (cbn [vroom]; lia). exact St3.
  - (* elem last *) intros e k v s x G Ks Dn IH F. inversion F as [|? ? [F0 F1] _]; subst. cbn [fst snd] in *. refine (ev_imp _ _ _ (ev_and _ _ (ev_ge 1) (IH F1))).
    intros m [Lm C] g w0 w rho l0 Lg S0 St Nd. destruct g as [|g]; [cbn in Lg; lia|]. destruct m as [|m]; [lia|]. cbn [clone_elems]. unfold elemat in G. rewrite G. cbn [or_abort bind].
    destruct (entry_ok src m k v s x w0 w rho l0 Ks F0 C S0 St (nodup_middle _ _ _ _ Nd)) as (w' & E & St'). rewrite E. cbn [bind N.eqb]. exists w'. split; [reflexivity|].
    replace (droom [(s, x)]) with (1 + string_room s + room x)%N by (cbn [droom]; lia). exact St'.
  - (* elem next *) intros e n k v s x l G Nz Ks Dn IH Ch IH2 F. inversion F as [|? ? [F0 F1] F2]; subst. cbn [fst snd] in *. refine (ev_imp _ _ _ (ev_and _ _ (ev_ge 1) (ev_and _ _ (IH F1) (IH2 F2)))).
    intros m [Lm [C K]] g w0 w rho l0 Lg S0 St Nd. destruct g as [|g]; [cbn in Lg; lia|]. destruct m as [|m]; [lia|]. cbn [clone_elems]. unfold elemat in G. rewrite G. cbn [or_abort bind].
    destruct (entry_ok src m k v s x w0 w rho l0 Ks F0 C S0 St (nodup_middle _ _ _ _ Nd)) as (w' & E & St'). rewrite E. cbn [bind]. destruct (N.eqb_spec n 0); [contradiction|].
    rewrite app_one in Nd. destruct (K g w0 w' _ _ ltac:(cbn in Lg; lia) S0 St' Nd) as (w3 & E3 & St3). exists w3. split; [exact E3|].
    rewrite app_one. replace (rho + droom ((s, x) :: l))%N with (rho + (1 + string_room s + room x) + droom l)%N by (cbn [droom]; lia). exact St3.
  - (* no pairs *) intros _. apply ev_all. intros m w0 w rho l0 S0 St Nd. exists w. split; [reflexivity|]. rewrite app_nil_r. cbn [droom]. rewrite N.add_0_r. exact St.
  - (* pairs *) intros k v s x ps l Ks Dn IH Ch IH2 F. inversion F as [|? ? [F0 F1] F2]; subst. cbn [fst snd] in *. refine (ev_imp _ _ _ (ev_and _ _ (ev_ge 1) (ev_and _ _ (IH F1) (IH2 F2)))).
    intros m [Lm [C K]] w0 w rho l0 S0 St Nd. destruct m as [|m]; [lia|]. cbn [clone_pairs].
    destruct (entry_ok src m k v s x w0 w rho l0 Ks F0 C S0 St (nodup_middle _ _ _ _ Nd)) as (w' & E & St'). rewrite E. cbn [bind].
    rewrite app_one in Nd. destruct (K w0 w' _ _ S0 St' Nd) as (w3 & E3 & St3). exists w3. split; [exact E3|].
    rewrite app_one. replace (rho + droom ((s, x) :: l))%N with (rho + (1 + string_room s + room x) + droom l)%N by (cbn [droom]; lia). exact St3.
Qed.
End Clone.
Theorem clone_ok src o v : denotes src o v -> fits (autof src) v ->
  exists n0, forall n, n0 <= n -> forall w, sane w -> exists w' o', clone n src w o = Ok (w', o') /\ post w w' o' v.
Proof. intros H F. exact (proj1 (clone_all src) o v H F). Qed.
