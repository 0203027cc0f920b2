(** Lemmas about types. *)
From Coq Require Import NArith Lia.
From Verif Require Import Base M_Types S_Types.

(** ** Bits *)
Lemma has_bit t n : has t (2 ^ n)%N = N.testbit t n.
Proof.
  unfold has. destruct (N.testbit t n) eqn:E.
  - destruct (N.eqb_spec (N.land t (2 ^ n)) 0) as [H|]; [|reflexivity].
    assert (F : N.testbit (N.land t (2 ^ n)) n = false) by (rewrite H; apply N.bits_0).
    rewrite N.land_spec, E, N.pow2_bits_true in F. discriminate.
  - destruct (N.eqb_spec (N.land t (2 ^ n)) 0) as [H|H]; [reflexivity|].
    destruct H. apply N.bits_inj. intros i. rewrite N.land_spec, N.bits_0, N.pow2_bits_eqb.
    destruct (N.eqb_spec n i) as [->|]; [now rewrite E|apply Bool.andb_false_r].
Qed.
Lemma has_none t m : (forall i, N.testbit t i && N.testbit m i = false) -> has t m = false.
Proof.
  intros H. unfold has. destruct (N.eqb_spec (N.land t m) 0) as [|N]; [reflexivity|].
  destruct N. apply N.bits_inj. intros i. now rewrite N.land_spec, N.bits_0.
Qed.
Lemma has_some t m i : N.testbit t i = true -> N.testbit m i = true -> has t m = true.
Proof.
  intros H1 H2. unfold has. destruct (N.eqb_spec (N.land t m) 0) as [E|]; [|reflexivity].
  assert (F : N.testbit (N.land t m) i = false) by (rewrite E; apply N.bits_0).
  now rewrite N.land_spec, H1, H2 in F.
Qed.
Lemma has_sym t m : has t m = has m t.
Proof. unfold has. now rewrite N.land_comm. Qed.
Lemma testbit_mask i : N.testbit MASK i = ((59 =? i) || (60 =? i) || (61 =? i) || (62 =? i) || (63 =? i))%N.
Proof.
  unfold MASK, ALLOW_VOID, COMPLEX, GLOB, LISTIFY, TAG. rewrite !N.lor_spec, !N.pow2_bits_eqb.
  now rewrite !Bool.orb_assoc.
Qed.
Lemma testbit_tc k i : N.testbit (tc k) i = ((63 =? i) || (k - 1 =? i))%N.
Proof. unfold tc, TAG. now rewrite N.lor_spec, !N.pow2_bits_eqb. Qed.
Lemma testbit_low i : N.testbit (2 ^ 32 - 1) i = (i <? 32)%N.
Proof.
  change (2 ^ 32 - 1)%N with (N.ones 32). destruct (N.ltb_spec i 32).
  - now apply N.ones_spec_low. - now apply N.ones_spec_high.
Qed.

(** ** Types without lists and dicts *)
Fixpoint simple (s : syntax) : bool :=
  match s with SList _ | SDict _ => false | SOr a b => simple a && simple b | _ => true end.
Fixpoint kinds (s : syntax) (k : N) : bool :=
  match s with
  | SName j => (k =? j)%N
  | SAny | SAnyVoid => true
  | SExe => existsb (N.eqb k) [8; 5; 16; 17; 12; 13; 29]%N
  | SOr a b => kinds a k || kinds b k
  | _ => false
  end.
Fixpoint allows (s : syntax) : bool :=
  match s with SAnyVoid => true | SOr a b => allows a || allows b | _ => false end.

Definition simple_bits (s : syntax) (t : N) : Prop :=
  forall i, N.testbit t i = ((63 =? i) || ((59 =? i) && allows s) || ((i <? 32) && kinds s (i + 1)))%N.

Lemma simple_not_complex s t : simple_bits s t -> has t COMPLEX = false.
Proof. intros H. unfold COMPLEX. rewrite has_bit, H. simpl. reflexivity. Qed.

Lemma simple_parse s tb : named s -> simple s = true -> exists t, parse_type s tb = (t, tb) /\ simple_bits s t.
Proof.
  revert tb. induction s; intros tb N P; cbn in P; try discriminate; cbn [parse_type].
  - eexists; split; [reflexivity|]. intros i. unfold obj_type_to_tc_type. cbn [named] in N. cbn [allows kinds].
    rewrite Bool.andb_false_r, Bool.orb_false_r. destruct (N.eqb_spec k 0) as [->|K].
    + unfold TAG. rewrite N.pow2_bits_eqb. destruct (N.eqb_spec (i + 1) 0); [lia|]. now rewrite Bool.andb_false_r, Bool.orb_false_r.
    + rewrite testbit_tc. f_equal. destruct (N.eqb_spec (k - 1) i), (N.eqb_spec (i + 1) k), (N.ltb_spec i 32); try lia; reflexivity.
  - eexists; split; [reflexivity|]. intros i. unfold tc_any, TAG. rewrite N.lor_spec, N.pow2_bits_eqb, testbit_low. cbn [allows kinds].
    now rewrite Bool.andb_false_r, Bool.orb_false_r, Bool.andb_true_r.
  - eexists; split; [reflexivity|]. intros i. cbn [allows]. rewrite Bool.andb_false_r, Bool.orb_false_r.
    unfold tc_exe. cbn [map fold_left]. rewrite !N.lor_spec, !testbit_tc. unfold TAG. rewrite N.pow2_bits_eqb.
    cbn [kinds existsb].
    repeat match goal with |- context [(?a - 1)%N] => let b := eval vm_compute in (a - 1)%N in change (a - 1)%N with b end.
    repeat match goal with |- context [(?a =? i)%N] => destruct (N.eqb_spec a i); [subst; reflexivity|] end.
    repeat match goal with |- context [(i + 1 =? ?a)%N] => destruct (N.eqb_spec (i + 1) a); [lia|] end.
    cbn. now rewrite Bool.andb_false_r.
  - eexists; split; [reflexivity|]. intros i. unfold tc_any, TAG, ALLOW_VOID. rewrite !N.lor_spec, !N.pow2_bits_eqb, testbit_low. cbn [allows kinds].
    rewrite !Bool.andb_true_r. now destruct (63 =? i)%N, (59 =? i)%N, (i <? 32)%N.
  - apply Bool.andb_true_iff in P. destruct P as [P1 P2], N as [N1 N2].
    destruct (IHs1 tb N1 P1) as (t1 & E1 & H1), (IHs2 tb N2 P2) as (t2 & E2 & H2). rewrite E1, E2.
    rewrite (simple_not_complex _ _ H1), (simple_not_complex _ _ H2). cbn [orb].
    eexists; split; [reflexivity|]. intros i. rewrite N.lor_spec, H1, H2. cbn [allows kinds].
    now destruct (63 =? i)%N, (59 =? i)%N, (i <? 32)%N, (allows s1), (allows s2), (kinds s1 (i + 1)), (kinds s2 (i + 1)).
Qed.

(** ** Checking simple types *)
Definition decides (r : res) (P : Prop) : Prop := (r = Yes /\ P) \/ (r = No /\ ~ P).
Lemma decides_iff r P : decides r P -> (r = Yes <-> P) /\ (r = No <-> ~ P).
Proof. intros [[-> H]|[-> H]]; split; split; intros; try discriminate; tauto. Qed.
Lemma decides_bool (b : bool) P : (b = true <-> P) -> decides (if b then Yes else No) P.
Proof. intros H. destruct b; [left|right]; split; auto; [now apply H|]. intros F. apply H in F. discriminate. Qed.
Lemma kind_eq v : get_obj_type v = kind v.
Proof. now destruct v. Qed.
Lemma kind_range v : wellformed v -> (kind v <= 32)%N.
Proof. destruct 1; cbn; try lia. Qed.
Lemma kind_null v : wellformed v -> kind v = 0%N <-> v = ONull.
Proof. intros W. split; [|now intros ->]. destruct W; cbn; intros; try discriminate; auto. lia. Qed.
Lemma kind_disabler v : wellformed v -> kind v = 2%N <-> v = ODisabler.
Proof. intros W. split; [|now intros ->]. destruct W as [| | | |k id R NI]; cbn; intros; try discriminate; auto. subst. destruct NI. now left. Qed.

Lemma member_simple s v : simple s = true -> wellformed v -> v <> ONull ->
  member s v <-> (kinds s (kind v) = true \/ v = ODisabler).
Proof.
  induction s; intros P W N; cbn in P; try discriminate; cbn [member kinds].
  - rewrite N.eqb_eq. tauto.
  - tauto.
  - rewrite existsb_exists. split; [intros [H|H]; [tauto|left]|intros [H|H]; [right|tauto]].
    + exists (kind v). split; [exact H|apply N.eqb_refl].
    + destruct H as (x & Hx & E). apply N.eqb_eq in E. now rewrite E.
  - tauto.
  - apply Bool.andb_true_iff in P. destruct P as [P1 P2]. rewrite Bool.orb_true_iff, (IHs1 P1 W N), (IHs2 P2 W N). tauto.
Qed.

Lemma member_null s : simple s = true -> ~ void_in_union s ONull ->
  member s ONull <-> (allows s = true \/ s = SName 0).
Proof.
  induction s; intros P V; cbn in P; try discriminate; cbn [member allows kind].
  - split; [intros [H|H]; [discriminate|right; now rewrite H]|intros [H|H]; [discriminate|right; now injection H]].
  - split; [intros [H|H]; [discriminate|now destruct H]|intros [H|H]; discriminate].
  - split; [intros [H|H]; [discriminate|cbn in H; repeat destruct H as [H|H]; try discriminate; destruct H]|intros [H|H]; discriminate].
  - tauto.
  - apply Bool.andb_true_iff in P. destruct P as [P1 P2]. cbn [void_in_union] in V.
    rewrite (IHs1 P1), (IHs2 P2) by tauto. rewrite Bool.orb_true_iff.
    split; [intros [H|[[H|H]|[H|H]]]; try discriminate; try tauto; destruct V; left; tauto
           |intros [[H|H]|H]; try discriminate; tauto].
Qed.
Lemma some_kind s : simple s = true -> named s -> ~ void_in_union s ONull -> s <> SName 0 ->
  exists i, (i < 32)%N /\ kinds s (i + 1) = true.
Proof.
  induction s; intros P N V D; cbn in P; try discriminate; cbn [kinds].
  - cbn in N. exists (k - 1)%N. assert (k <> 0%N) by congruence. split; [lia|]. apply N.eqb_eq. lia.
  - exists 0%N. split; [lia|reflexivity].
  - exists 7%N. split; [lia|reflexivity].
  - exists 0%N. split; [lia|reflexivity].
  - apply Bool.andb_true_iff in P. destruct P as [P1 P2], N as [N1 N2]. cbn [void_in_union] in V.
    destruct (IHs1 P1 N1) as (i & L & E); [tauto|intros ->; apply V; left; tauto|].
    exists i. split; [exact L|]. now rewrite E.
Qed.
Lemma only_func s : simple s = true -> named s -> ~ void_in_union s ONull -> s <> SName 0 ->
  (forall i, (i < 31)%N -> kinds s (i + 1) = false) -> meets s ONull.
Proof.
  induction s; intros P N V D K; cbn in P; try discriminate; cbn [meets].
  - split; [|reflexivity]. cbn in N. cbn [kinds] in K. assert (k <> 0%N) by congruence.
    destruct (N.ltb_spec (k - 1) 31) as [L|]; [|lia]. specialize (K _ L). apply N.eqb_neq in K. lia.
  - specialize (K 0%N ltac:(lia)). discriminate.
  - specialize (K 7%N ltac:(lia)). discriminate.
  - specialize (K 0%N ltac:(lia)). discriminate.
  - apply Bool.andb_true_iff in P. destruct P as [P1 P2], N as [N1 N2]. cbn [void_in_union] in V.
    left. apply (IHs1 P1 N1); [tauto|intros ->; apply V; left; tauto|].
    intros i L. specialize (K i L). cbn [kinds] in K. now apply Bool.orb_false_iff in K.
Qed.

Lemma got_bits k : (1 <= k <= 32)%N -> N.ldiff (tc k) TAG = (2 ^ (k - 1))%N.
Proof.
  intros R. apply N.bits_inj. intros i. unfold TAG. rewrite N.ldiff_spec, testbit_tc, !N.pow2_bits_eqb.
  destruct (N.eqb_spec 63 i), (N.eqb_spec (k - 1) i); subst; try reflexivity; lia.
Qed.
Lemma checked_bits s t i : simple_bits s t ->
  N.testbit (N.ldiff (N.lor t (tc k_disabler)) (N.lor TAG ALLOW_VOID)) i = ((i <? 32) && (kinds s (i + 1) || (i =? 1)))%N.
Proof.
  intros H. rewrite N.ldiff_spec, !N.lor_spec, testbit_tc, H. unfold TAG, ALLOW_VOID, k_disabler. rewrite !N.pow2_bits_eqb.
  change (2 - 1)%N with 1%N. rewrite (N.eqb_sym 1 i).
  destruct (N.eqb_spec 63 i) as [<-|]; [cbn; now rewrite ?Bool.andb_false_r|].
  destruct (N.eqb_spec 59 i) as [<-|]; [cbn; now rewrite ?Bool.andb_false_r|]. cbn [orb andb negb].
  destruct (N.ltb_spec i 32); cbn [andb]; [now rewrite Bool.andb_true_r|].
  destruct (N.eqb_spec i 1); [lia|reflexivity].
Qed.

Lemma checked_mask s t : simple_bits s t -> has (N.ldiff (N.lor t (tc k_disabler)) (N.lor TAG ALLOW_VOID)) MASK = false.
Proof.
  intros H. apply has_none. intros i. rewrite (checked_bits _ _ _ H), testbit_mask. destruct (N.ltb_spec i 32); [|reflexivity].
  repeat match goal with |- context [(?a =? i)%N] => destruct (N.eqb_spec a i); [lia|] end. apply Bool.andb_false_r.
Qed.

Lemma simple_decides s t v : simple s = true -> named s -> simple_bits s t -> wellformed v ->
  ~ void_in_union s v -> ~ meets s v ->
  decides (typecheck_simple (obj_type_to_tc_type (get_obj_type v)) t) (member s v).
Proof.
  intros P N H W V M. unfold typecheck_simple, obj_type_to_tc_type. rewrite kind_eq.
  destruct (N.eqb_spec (kind v) 0) as [K|K].
  - apply (kind_null _ W) in K. subst v. rewrite N.ldiff_diag, (N.eqb_refl 0). cbn [andb].
    assert (A : has t ALLOW_VOID = allows s). { unfold ALLOW_VOID. rewrite has_bit, H. cbn. now rewrite Bool.orb_false_r. }
    rewrite A. destruct (allows s) eqn:AS; cbn [orb].
    { left. split; [reflexivity|]. apply (member_null s P V). now left. }
    destruct (N.eqb_spec (N.ldiff t MASK) 0) as [Z|Z].
    { left. split; [reflexivity|]. apply (member_null s P V). right.
      assert (D : {s = SName 0} + {s <> SName 0}).
      { destruct s; try (right; discriminate). destruct (N.eq_dec k 0) as [->|]; [left; reflexivity|right; congruence]. }
      destruct D as [->|D]; [reflexivity|].
      destruct (some_kind s P N V D) as (i & L & E). exfalso.
      assert (F : N.testbit (N.ldiff t MASK) i = false) by (rewrite Z; apply N.bits_0).
      rewrite N.ldiff_spec, H, E, testbit_mask in F. destruct (N.ltb_spec i 32); [|lia].
      repeat match goal with F : context [(?a =? i)%N] |- _ => destruct (N.eqb_spec a i); [lia|] end. discriminate. }
    assert (D : s <> SName 0).
    { intros ->. apply Z. apply N.bits_inj. intros i. rewrite N.ldiff_spec, H, testbit_mask, N.bits_0. cbn [allows kinds].
      destruct (N.eqb_spec (i + 1) 0); [lia|]. rewrite !Bool.andb_false_r, !Bool.orb_false_r.
      destruct (63 =? i)%N; cbn; [now rewrite !Bool.orb_true_r|reflexivity]. }
    destruct (N.eqb_spec t (tc k_func)) as [F|F].
    { destruct M. apply (only_func s P N V D). intros i L.
      assert (E : N.testbit t i = N.testbit (tc k_func) i) by now rewrite F. rewrite H, testbit_tc in E.
      unfold k_func in E. destruct (N.ltb_spec i 32); [|lia].
      repeat match goal with E : context [(?a =? i)%N] |- _ => destruct (N.eqb_spec a i); [lia|] end. cbn in E. destruct (kinds s (i + 1)); congruence. }
    rewrite (checked_mask _ _ H). cbn [has]. replace (has 0 MASK) with false by reflexivity. cbn [orb].
    destruct (N.eqb_spec (N.ldiff (N.lor t (tc k_disabler)) (N.lor TAG ALLOW_VOID)) 0) as [Z'|Z'].
    { exfalso. assert (E : N.testbit (N.ldiff (N.lor t (tc k_disabler)) (N.lor TAG ALLOW_VOID)) 1 = false) by (rewrite Z'; apply N.bits_0).
      rewrite (checked_bits _ _ _ H) in E. cbn in E. now rewrite Bool.orb_true_r in E. }
    cbn [orb]. replace (has 0 _) with false by (symmetry; apply has_none; intros; now rewrite N.bits_0).
    right. split; [reflexivity|]. rewrite (member_null s P V). intros [X|X]; congruence.
  - assert (R := kind_range v W). assert (K1 : (1 <= kind v <= 32)%N) by lia. rewrite (got_bits _ K1).
    destruct (N.eqb_spec (2 ^ (kind v - 1)) 0) as [Z|Z]; [exfalso; revert Z; now apply N.pow_nonzero|]. cbn [andb].
    rewrite (checked_mask _ _ H).
    assert (G : has (2 ^ (kind v - 1)) MASK = false).
    { rewrite has_sym, has_bit, testbit_mask.
      repeat match goal with |- context [(?a =? ?b)%N] => destruct (N.eqb_spec a b); [lia|] end. reflexivity. }
    rewrite G. cbn [orb]. rewrite has_sym, has_bit, (checked_bits _ _ _ H).
    destruct (N.ltb_spec (kind v - 1) 32); [|lia]. cbn [andb].
    replace (kind v - 1 + 1)%N with (kind v) by lia.
    apply decides_bool. rewrite (member_simple s v P W). 2: { intros ->. now apply K. }
    rewrite Bool.orb_true_iff, N.eqb_eq, <- (kind_disabler v W). split; intros [X|X]; auto; right; lia.
Qed.

(** ** Complex types *)
Lemma complex_bits idx ct i : N.testbit (complex_type idx ct) i =
  (N.testbit idx i || (N.testbit (N.shiftl ct 48) i) || (60 =? i) || (63 =? i))%N.
Proof. unfold complex_type, COMPLEX, TAG. rewrite !N.lor_spec, !N.pow2_bits_eqb. now rewrite !Bool.orb_assoc. Qed.
Lemma small_bits x n i : (x < 2 ^ n)%N -> (n <= i)%N -> N.testbit x i = false.
Proof.
  intros L I. destruct (N.eq_dec x 0) as [->|Z]; [apply N.bits_0|]. apply N.bits_above_log2.
  assert (N.log2 x < n)%N by (apply N.log2_lt_pow2; lia). lia.
Qed.
Lemma complex_is_complex idx ct : has (complex_type idx ct) COMPLEX = true.
Proof. unfold COMPLEX. rewrite has_bit, complex_bits. cbn. now rewrite !Bool.orb_true_r. Qed.
Lemma complex_is_tagged idx ct : has (complex_type idx ct) TAG = true.
Proof. unfold TAG. rewrite has_bit, complex_bits. cbn. now rewrite !Bool.orb_true_r. Qed.
Lemma complex_idx idx ct : (idx < 2 ^ 32)%N -> complex_index (complex_type idx ct) = idx.
Proof.
  intros L. apply N.bits_inj. intros i. unfold complex_index. rewrite N.land_spec, testbit_low, complex_bits.
  destruct (N.ltb_spec i 32).
  - rewrite N.shiftl_spec_low by lia. repeat match goal with |- context [(?a =? ?b)%N] => destruct (N.eqb_spec a b); [lia|] end.
    now rewrite !Bool.orb_false_r, Bool.andb_true_r.
  - rewrite Bool.andb_false_r. symmetry. now apply (small_bits idx 32).
Qed.
Lemma complex_ct idx ct : (idx < 2 ^ 32)%N -> (ct < 2 ^ 8)%N -> complex_type_type (complex_type idx ct) = ct.
Proof.
  intros L C. apply N.bits_inj. intros i. unfold complex_type_type. change 255%N with (N.ones 8).
  rewrite N.land_spec, N.shiftr_spec, complex_bits by apply N.le_0_l.
  destruct (N.ltb_spec i 8).
  - rewrite N.ones_spec_low by assumption. rewrite (small_bits idx 32) by (auto; lia).
    rewrite N.shiftl_spec_high by lia. replace (i + 48 - 48)%N with i by lia.
    repeat match goal with |- context [(?a =? ?b)%N] => destruct (N.eqb_spec a b); [lia|] end.
    cbn. now rewrite !Bool.orb_false_r, Bool.andb_true_r.
  - rewrite N.ones_spec_high by assumption. rewrite Bool.andb_false_r. symmetry. now apply (small_bits ct 8).
Qed.

Lemma nth_middle {A} (l : list A) x r n : N.to_nat n = length l -> nth_error ((l ++ [x]) ++ r) (N.to_nat n) = Some x.
Proof. intros ->. rewrite <- app_assoc, nth_error_app2, Nat.sub_diag by lia. reflexivity. Qed.

Lemma parse_grows s : forall tb t tb', parse_type s tb = (t, tb') -> exists ext, tb' = tb ++ ext.
Proof.
  induction s; intros tb t' tb' E; cbn [parse_type] in E.
  1-4: injection E as <- <-; exists []; now rewrite app_nil_r.
  1-2: destruct (parse_type s tb) as [u tu] eqn:P; destruct (IHs _ _ _ P) as (e & ->); injection E as <- <-;
    eexists; now rewrite <- app_assoc.
  destruct (parse_type s1 tb) as [u1 tu1] eqn:P1, (parse_type s2 tu1) as [u2 tu2] eqn:P2.
  destruct (IHs1 _ _ _ P1) as (e1 & ->), (IHs2 _ _ _ P2) as (e2 & ->).
  destruct (has u2 COMPLEX || has u1 COMPLEX); injection E as <- <-; eexists; now rewrite <- ?app_assoc.
Qed.
Lemma parse_tagged s : forall tb t tb', named s -> parse_type s tb = (t, tb') -> has t TAG = true.
Proof.
  assert (S : forall s tb t tb', simple s = true -> named s -> parse_type s tb = (t, tb') -> has t TAG = true).
  { intros s0 tb t tb' P N E. destruct (simple_parse s0 tb N P) as (t1 & E1 & H). rewrite E in E1. injection E1 as -> ->.
    unfold TAG. rewrite has_bit, H. reflexivity. }
  induction s; intros tb t' tb' N E.
  1-4: refine (S _ _ _ _ _ N E); reflexivity.
  1-2: cbn [parse_type] in E; destruct (parse_type s tb) as [u tu]; injection E as <- <-; apply complex_is_tagged.
  cbn [parse_type] in E. destruct (parse_type s1 tb) as [u1 tu1] eqn:P1, (parse_type s2 tu1) as [u2 tu2] eqn:P2. destruct N as [N1 N2].
  destruct (has u2 COMPLEX || has u1 COMPLEX); injection E as <- <-; [apply complex_is_tagged|].
  specialize (IHs1 _ _ _ N1 P1). unfold TAG in *. rewrite has_bit in *. now rewrite N.lor_spec, IHs1.
Qed.
Lemma parse_complex s : forall tb t tb', named s -> parse_type s tb = (t, tb') -> has t COMPLEX = negb (simple s).
Proof.
  assert (S : forall s tb t tb', simple s = true -> named s -> parse_type s tb = (t, tb') -> has t COMPLEX = negb (simple s)).
  { intros s0 tb t tb' P N E. destruct (simple_parse s0 tb N P) as (t1 & E1 & H). rewrite E in E1. injection E1 as -> ->.
    rewrite P. now apply simple_not_complex with (1 := H). }
  induction s; intros tb t' tb' N E.
  1-4: refine (S _ _ _ _ _ N E); reflexivity.
  1-2: cbn [parse_type] in E; destruct (parse_type s tb) as [u tu]; injection E as <- <-; apply complex_is_complex.
  destruct (simple (SOr s1 s2)) eqn:Q; [rewrite <- Q; now apply (S _ _ _ _ Q N E)|].
  cbn [parse_type] in E. destruct (parse_type s1 tb) as [u1 tu1] eqn:P1, (parse_type s2 tu1) as [u2 tu2] eqn:P2. destruct N as [N1 N2].
  rewrite (IHs1 _ _ _ N1 P1), (IHs2 _ _ _ N2 P2) in E. cbn [simple] in Q.
  replace (negb (simple s2) || negb (simple s1)) with true in E by (now destruct (simple s1), (simple s2)).
  injection E as <- <-. apply complex_is_complex.
Qed.

Lemma all_yes_decides {A} (f : A -> res) (P : A -> Prop) l :
  Forall (fun x => decides (f x) (P x)) l -> decides (all_yes (map f l)) (Forall P l).
Proof.
  induction 1 as [|x l [[E H]|[E H]] _ IH]; cbn [map all_yes]; [left; auto|rewrite E|rewrite E].
  - destruct IH as [[-> F]|[-> F]]; [left; auto|right; split; [reflexivity|]]. intros G. inversion G; auto.
  - right. split; [reflexivity|]. intros G. inversion G; auto.
Qed.

Lemma typecheck_complex_fuel_simple fuel tb v got t :
  has t COMPLEX = false -> typecheck_complex (S fuel) tb v got t = typecheck_simple got t.
Proof. intros H. cbn [typecheck_complex]. now rewrite H. Qed.

Lemma outer_array v : wellformed v ->
  typecheck_simple (obj_type_to_tc_type (get_obj_type v)) (tc k_array) = Yes /\ (v = ODisabler \/ exists l, v = OArray l)
  \/ typecheck_simple (obj_type_to_tc_type (get_obj_type v)) (tc k_array) = No /\ ~ (v = ODisabler \/ exists l, v = OArray l).
Proof.
  intros W. destruct (simple_parse (SName 9) [] ltac:(cbn; lia) eq_refl) as (t & E & H). injection E as <-.
  destruct (simple_decides (SName 9) (tc k_array) v eq_refl ltac:(cbn; lia) H W) as [[E M]|[E M]]; [cbn; tauto|cbn; intros [? ?]; discriminate| |].
  - left. split; [exact E|]. destruct M as [M|M]; [now left|right]. destruct v; try discriminate; eauto.
    inversion W; subst. cbn in M. subst. exfalso. apply H3. cbn. tauto.
  - right. split; [exact E|]. intros [->|[l ->]]; apply M; [left; reflexivity|right; reflexivity].
Qed.
Lemma outer_dict v : wellformed v ->
  typecheck_simple (obj_type_to_tc_type (get_obj_type v)) (tc k_dict) = Yes /\ (v = ODisabler \/ exists l, v = ODict l)
  \/ typecheck_simple (obj_type_to_tc_type (get_obj_type v)) (tc k_dict) = No /\ ~ (v = ODisabler \/ exists l, v = ODict l).
Proof.
  intros W. destruct (simple_parse (SName 10) [] ltac:(cbn; lia) eq_refl) as (t & E & H). injection E as <-.
  destruct (simple_decides (SName 10) (tc k_dict) v eq_refl ltac:(cbn; lia) H W) as [[E M]|[E M]]; [cbn; tauto|cbn; intros [? ?]; discriminate| |].
  - left. split; [exact E|]. destruct M as [M|M]; [now left|right]. destruct v; try discriminate; eauto.
    inversion W; subst. cbn in M. subst. exfalso. apply H3. cbn. tauto.
  - right. split; [exact E|]. intros [->|[l ->]]; apply M; [left; reflexivity|right; reflexivity].
Qed.

Lemma parse_decides s : forall tb t made, named s -> parse_type s tb = (t, made) -> (N.of_nat (length made) <= 2 ^ 32)%N ->
  forall fuel later v, length made < fuel -> wellformed v -> ~ void_in_union s v -> ~ meets s v ->
  decides (typecheck_complex fuel (made ++ later) v (obj_type_to_tc_type (get_obj_type v)) t) (member s v).
Proof.
  assert (SI : forall s tb t made, simple s = true -> named s -> parse_type s tb = (t, made) ->
    forall fuel later v, length made < fuel -> wellformed v -> ~ void_in_union s v -> ~ meets s v ->
    decides (typecheck_complex fuel (made ++ later) v (obj_type_to_tc_type (get_obj_type v)) t) (member s v)).
  { intros s0 tb t made P N E fuel later v F W V M. destruct (simple_parse s0 tb N P) as (t1 & E1 & H).
    rewrite E in E1. injection E1 as -> ->. destruct fuel as [|fuel]; [lia|].
    rewrite typecheck_complex_fuel_simple by now apply simple_not_complex with (1 := H). now apply simple_decides. }
  induction s; intros tb t' made N E L.
  1-4: refine (SI _ _ _ _ _ N E); reflexivity.
  - cbn [parse_type] in E. destruct (parse_type s tb) as [u tu] eqn:P. injection E as <- <-.
    rewrite app_length in L. cbn [length] in L.
    intros fuel later v F W V M. destruct fuel as [|fuel]; [lia|]. rewrite app_length in F. cbn [length] in F.
    cbn [typecheck_complex]. rewrite complex_is_complex. cbn [negb].
    rewrite complex_idx by lia. rewrite nth_middle by (now rewrite Nnat.Nat2N.id).
    rewrite complex_ct by (try lia; now vm_compute). change (ct_nested =? ct_or)%N with false. cbv iota.
    destruct fuel as [|fuel]; [lia|].
    rewrite typecheck_complex_fuel_simple by reflexivity. rewrite (N.eqb_refl (tc k_array)).
    destruct (outer_array v W) as [[-> H]|[-> H]].
    + destruct H as [->|[l ->]]; [destruct M; left; reflexivity|].
      rewrite <- app_assoc. inversion W; subst.
      assert (D : decides (all_yes (map (fun x => typecheck_complex (S fuel) (tu ++ [(tc k_array, u)] ++ later) x (obj_type_to_tc_type (get_obj_type x)) u) l))
        (Forall (member s) l)).
      { apply all_yes_decides. apply Forall_forall. intros x Hx. apply (IHs tb u tu N P); try lia.
        - now apply (proj1 (Forall_forall _ _) H0).
        - intros V'. apply V. cbn [void_in_union]. exists l. split; [reflexivity|]. apply Exists_exists. eauto.
        - intros V'. apply M. cbn [meets]. right. exists l. split; [reflexivity|]. apply Exists_exists. eauto. }
      destruct D as [[-> D]|[-> D]]; [left|right]; (split; [reflexivity|]).
      * cbn [member]. right. eauto.
      * cbn [member]. intros [X|(l' & X & Y)]; [discriminate|]. injection X as <-. auto.
    + right. split; [reflexivity|]. cbn [member]. intros [X|(l & X & _)]; apply H; eauto.
  - cbn [parse_type] in E. destruct (parse_type s tb) as [u tu] eqn:P. injection E as <- <-.
    rewrite app_length in L. cbn [length] in L.
    intros fuel later v F W V M. destruct fuel as [|fuel]; [lia|]. rewrite app_length in F. cbn [length] in F.
    cbn [typecheck_complex]. rewrite complex_is_complex. cbn [negb].
    rewrite complex_idx by lia. rewrite nth_middle by (now rewrite Nnat.Nat2N.id).
    rewrite complex_ct by (try lia; now vm_compute). change (ct_nested =? ct_or)%N with false. cbv iota.
    destruct fuel as [|fuel]; [lia|].
    rewrite typecheck_complex_fuel_simple by reflexivity. change (tc k_dict =? tc k_array)%N with false. rewrite (N.eqb_refl (tc k_dict)).
    destruct (outer_dict v W) as [[-> H]|[-> H]].
    + destruct H as [->|[l ->]]; [destruct M; left; reflexivity|].
      rewrite <- app_assoc. inversion W; subst.
      assert (D : decides (all_yes (map (fun kv : bytes * obj => typecheck_complex (S fuel) (tu ++ [(tc k_dict, u)] ++ later) (snd kv) (obj_type_to_tc_type (get_obj_type (snd kv))) u) l))
        (Forall (fun kv => member s (snd kv)) l)).
      { apply all_yes_decides. apply Forall_forall. intros x Hx. apply (IHs tb u tu N P); try lia.
        - now apply (proj1 (Forall_forall _ _) H0).
        - intros V'. apply V. cbn [void_in_union]. exists l. split; [reflexivity|]. apply Exists_exists. eauto.
        - intros V'. apply M. cbn [meets]. right. exists l. split; [reflexivity|]. apply Exists_exists. eauto. }
      destruct D as [[-> D]|[-> D]]; [left|right]; (split; [reflexivity|]).
      * cbn [member]. right. eauto.
      * cbn [member]. intros [X|(l' & X & Y)]; [discriminate|]. injection X as <-. auto.
    + right. split; [reflexivity|]. cbn [member]. intros [X|(l & X & _)]; apply H; eauto.
  - destruct (simple (SOr s1 s2)) eqn:Q; [now apply (SI _ _ _ _ Q N E)|].
    cbn [parse_type] in E. destruct (parse_type s1 tb) as [u1 tu1] eqn:P1, (parse_type s2 tu1) as [u2 tu2] eqn:P2. destruct N as [N1 N2].
    rewrite (parse_complex _ _ _ _ N1 P1), (parse_complex _ _ _ _ N2 P2) in E. cbn [simple] in Q.
    replace (negb (simple s2) || negb (simple s1)) with true in E by (now destruct (simple s1), (simple s2)).
    injection E as <- <-. destruct (parse_grows _ _ _ _ P2) as (e & ->).
    rewrite !app_length in L. cbn [length] in L.
    intros fuel later v F W V M. destruct fuel as [|fuel]; [lia|]. rewrite !app_length in F. cbn [length] in F.
    cbn [typecheck_complex]. rewrite complex_is_complex. cbn [negb].
    rewrite complex_idx by (rewrite app_length; lia). rewrite nth_middle by (now rewrite Nnat.Nat2N.id).
    rewrite complex_ct by (try (rewrite app_length; lia); now vm_compute). change (ct_or =? ct_or)%N with true. cbv iota.
    cbn [void_in_union] in V. cbn [meets] in M.
    assert (D1 : decides (typecheck_complex fuel (((tu1 ++ e) ++ [(u1, u2)]) ++ later) v (obj_type_to_tc_type (get_obj_type v)) u1) (member s1 v)).
    { rewrite <- !app_assoc. apply (IHs1 tb u1 tu1 N1 P1); auto; try lia; tauto. }
    assert (D2 : decides (typecheck_complex fuel (((tu1 ++ e) ++ [(u1, u2)]) ++ later) v (obj_type_to_tc_type (get_obj_type v)) u2) (member s2 v)).
    { rewrite <- (app_assoc (tu1 ++ e)). apply (IHs2 tu1 u2 (tu1 ++ e) N2 P2); auto; rewrite ?app_length; try lia; tauto. }
    destruct D1 as [[-> D1]|[-> D1]]; [left; split; [reflexivity|cbn [member]; tauto]|].
    destruct D2 as [[-> D2]|[-> D2]]; [left; split; [reflexivity|cbn [member]; tauto]|].
    right. split; [reflexivity|]. cbn [member]. intros [->|[X|X]]; auto.
    (* a disabler is a member of every alternative *)
    apply D1. destruct s1; cbn; now left.
Qed.

Lemma stands_decides tb tag s : named s -> stands_for tb tag s -> (N.of_nat (length tb) <= 2 ^ 32)%N ->
  forall fuel v, length tb < fuel -> wellformed v -> ~ void_in_union s v -> ~ meets s v ->
  decides (typecheck fuel tb v tag) (member s v).
Proof.
  intros N [(before & made & later & E & ->)|(k & K & -> & ->)] L fuel v F W V M; rewrite ?app_length in *; unfold typecheck.
  - rewrite (parse_tagged _ _ _ _ N E). cbn [negb]. apply (parse_decides s before tag made N E); auto; lia.
  - replace (has k TAG) with false. 2: { symmetry. unfold TAG. rewrite has_bit. apply (small_bits k 6); [|lia]. apply N.le_lt_trans with (1 := proj2 K). now vm_compute. }
    cbn [negb]. apply (parse_decides (SName k) [] (obj_type_to_tc_type k) [] N eq_refl ltac:(cbn; lia) fuel tb v); auto. cbn [length]. lia.
Qed.
