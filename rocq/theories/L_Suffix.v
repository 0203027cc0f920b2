(** Maximal suffixes of a word and the shifts that they allow.  A word of length [l] is a function
    [x] from positions to the keys of an order on bytes. *)
From Coq Require Import Arith Lia Wf_nat.

Section Word.
Variables (x : nat -> nat) (l : nat).

(** the suffix at [j] is below the one at [a], and this is seen at a byte of both *)
Definition dom (j a : nat) : Prop := exists m,
  a + m < l /\ j + m < l /\ (forall i, i < m -> x (j + i) = x (a + i)) /\ x (j + m) < x (a + m).
Lemma dom_trans : forall i j k, dom i j -> dom j k -> dom i k.
Proof.
  intros i j k [m (A & A' & E & L)] [n (B & B' & F & M)].
  destruct (lt_eq_lt_dec m n) as [[H|H]|H].
  - exists m. rewrite <- (F m) by exact H. repeat split; try lia.
    intros z Z. rewrite E by exact Z. apply F. lia.
  - subst n. exists m. repeat split; try lia. intros z Z. rewrite E by exact Z. apply F, Z.
  - exists n. rewrite (E n) by exact H. repeat split; try lia.
    intros z Z. rewrite E by lia. apply F, Z.
Qed.

Definition period (a e p : nat) : Prop := forall i, a <= i -> i + p < e -> x (i + p) = x i.
Definition beats (a p : nat) : Prop := forall t, 0 < t < p -> exists m,
  t + m < p /\ (forall i, i < m -> x (a + t + i) = x (a + i)) /\ x (a + t + m) < x (a + m).

Lemma period_times : forall a e p, period a e p ->
  forall c r, a + r + c * p < e -> x (a + r + c * p) = x (a + r).
Proof.
  intros a e p P. induction c as [|c IH]; intros r L; [rewrite Nat.mul_0_l, Nat.add_0_r; reflexivity|].
  cbn [Nat.mul] in *. replace (a + r + (p + c * p)) with (a + r + c * p + p) by lia.
  rewrite P by lia. apply IH. lia.
Qed.

Record inv (a b k q p : nat) : Prop := {
  i_q : 1 <= q; i_b : b = a + q * p; i_k : k < p; i_l : b + k <= l;
  i_per : period a (b + k) p; i_beats : beats a p; i_before : forall j, j < a -> dom j a }.

Lemma inv_start : 1 <= l -> inv 0 1 0 1 1.
Proof.
  intros L. split; try lia.
  - intros i A B. lia.
  - intros t T. lia.
Qed.
Lemma inv_next : forall a b k q p, inv a b k q p -> b + k < l -> x (b + k) = x (a + k) ->
  k + 1 < p -> inv a b (k + 1) q p.
Proof.
  intros a b k q p [Q E K L P D Bf] Lt X K1. split; auto; try lia.
  intros i A B. destruct (Nat.eq_dec (i + p) (b + k)) as [H|H]; [|apply P; lia].
  rewrite H, X. destruct q as [|q]; [lia|]. cbn [Nat.mul] in E.
  replace i with (a + k + q * p) by lia. symmetry. apply (period_times a (b + k) p P). lia.
Qed.
Lemma inv_turn : forall a b k q p, inv a b k q p -> b + k < l -> x (b + k) = x (a + k) ->
  k + 1 = p -> inv a (b + p) 0 (q + 1) p.
Proof.
  intros a b k q p [Q E K L P D Bf] Lt X K1. split; auto; try lia.
  intros i A B. destruct (Nat.eq_dec (i + p) (b + k)) as [H|H]; [|apply P; lia].
  rewrite H, X. destruct q as [|q]; [lia|]. cbn [Nat.mul] in E.
  replace i with (a + k + q * p) by lia. symmetry. apply (period_times a (b + k) p P). lia.
Qed.

Lemma split_t : forall p t, 0 < p -> exists c r, t = r + c * p /\ r < p.
Proof.
  intros p t P. exists (t / p), (t mod p). split; [|apply Nat.mod_upper_bound; lia].
  rewrite Nat.add_comm, Nat.mul_comm. apply Nat.div_mod. lia.
Qed.

Lemma inv_longer : forall a b k q p, inv a b k q p -> b + k < l -> x (b + k) < x (a + k) ->
  inv a (b + k + 1) 0 1 (b + k + 1 - a).
Proof.
  intros a b k q p [Q E K L P D Bf] Lt X. split; auto; try lia.
  - intros i A B. lia.
  - intros t T. destruct (split_t p t ltac:(lia)) as (c & r & Et & R).
    destruct (Nat.eq_dec r 0) as [Z|Z].
    + subst r. cbn [Nat.add] in Et. assert (C : c <= q).
      { destruct (le_lt_dec c q) as [|C]; [assumption|]. exfalso. nia. }
      assert (C1 : 1 <= c). { destruct c; [lia|lia]. }
      exists ((q - c) * p + k). assert (Sum : (q - c) * p + c * p = q * p) by nia.
      assert (cp : p <= c * p) by nia.
      split; [lia|]. split.
      * intros i I. replace (a + t + i) with (a + i + c * p) by lia. apply (period_times a (b + k) p P). lia.
      * replace (a + t + ((q - c) * p + k)) with (b + k) by lia.
        replace (a + ((q - c) * p + k)) with (a + k + (q - c) * p) by lia.
        rewrite (period_times a (b + k) p P) by lia. exact X.
    + destruct (D r ltac:(lia)) as (m & M1 & M2 & M3).
      assert (Y : forall i, a + t + i < b + k -> x (a + t + i) = x (a + r + i)).
      { intros i I. replace (a + t + i) with (a + (r + i) + c * p) by lia.
        rewrite (period_times a (b + k) p P) by lia. f_equal. lia. }
      destruct (lt_eq_lt_dec (a + t + m) (b + k)) as [[H|H]|H].
      * exists m. split; [lia|]. rewrite Y by exact H. split; [|exact M3].
        intros i I. rewrite Y by lia. apply M2, I.
      * exists m. split; [lia|]. split; [intros i I; rewrite Y by lia; apply M2, I|].
        rewrite H. eapply Nat.lt_trans; [exact X|].
        assert (Ec : c = q) by nia. subst c. replace k with (r + m) by lia.
        replace (a + (r + m)) with (a + r + m) by lia. exact M3.
      * assert (Ec : c = q) by nia. subst c. exists (b + k - (a + t)).
        split; [lia|]. split; [intros i I; rewrite Y by lia; apply M2; lia|].
        replace (a + t + (b + k - (a + t))) with (b + k) by lia.
        rewrite <- M2 by lia. replace (a + r + (b + k - (a + t))) with (a + k) by lia. exact X.
Qed.
Lemma inv_replace : forall a b k q p, inv a b k q p -> b + k < l -> x (a + k) < x (b + k) ->
  inv b (b + 1) 0 1 1.
Proof.
  intros a b k q p [Q E K L P D Bf] Lt X. split; try lia.
  - intros i A B. lia.
  - intros t T. lia.
  - assert (AB : a + p <= b) by nia.
    assert (In : forall j, a <= j < b -> dom j b).
    { intros j J. destruct (split_t p (j - a) ltac:(lia)) as (c & r & Et & R).
      assert (C : c < q) by nia. assert (C2 : c * p + p <= q * p) by nia.
      assert (W : forall i, i < k -> x (b + i) = x (a + i)).
      { intros i I. replace (b + i) with (a + i + q * p) by lia. apply (period_times a (b + k) p P). lia. }
      assert (Y : forall i, j + i < b + k -> x (j + i) = x (a + r + i)).
      { intros i I. replace (j + i) with (a + (r + i) + c * p) by lia.
        rewrite (period_times a (b + k) p P) by lia. f_equal. lia. }
      destruct (Nat.eq_dec r 0) as [Z|Z].
      - subst r. exists k. split; [lia|]. split; [lia|].
        rewrite Y by lia. rewrite Nat.add_0_r. split; [|exact X].
        intros i I. rewrite Y, W by lia. rewrite Nat.add_0_r. reflexivity.
      - destruct (D r ltac:(lia)) as (m & M1 & M2 & M3).
        destruct (le_lt_dec k m) as [H|H].
        + exists k. split; [lia|]. split; [lia|]. split.
          * intros i I. rewrite Y, W, M2 by lia. reflexivity.
          * rewrite Y by lia. destruct (Nat.eq_dec k m) as [->|H2]; [lia|]. rewrite M2 by lia. exact X.
        + exists m. split; [lia|]. split; [lia|]. split.
          * intros i I. rewrite Y, W, M2 by lia. reflexivity.
          * rewrite Y, W by lia. exact M3. }
    intros j J. destruct (le_lt_dec a j) as [H|H]; [apply In; lia|].
    apply dom_trans with a; [apply Bf, H|apply In; lia].
Qed.

(** the suffix at [a] is the maximal one and [p] is its smallest period *)
Record maximal (a p : nat) : Prop := {
  m_p : 1 <= p; m_l : a + p <= l; m_per : period a l p;
  m_min : forall t, 0 < t -> a + t <= l -> period a l t -> p <= t;
  m_before : forall j, j < a -> dom j a;
  m_after : forall t k, 0 < t -> a + t + k < l -> (forall i, i < k -> x (a + t + i) = x (a + i)) ->
              x (a + t + k) <= x (a + k) }.
Lemma inv_end : forall a b k q p, inv a b k q p -> l <= b + k -> maximal a p.
Proof.
  intros a b k q p [Q E K L P D Bf] Le. assert (El : b + k = l) by lia. rewrite El in P.
  assert (AB : a + p <= b) by nia. split; auto; try lia.
  - intros t T1 T2 Pt. destruct (le_lt_dec p t) as [H|H]; [exact H|].
    destruct (D t ltac:(lia)) as (m & M1 & M2 & M3). exfalso.
    replace (a + t + m) with (a + m + t) in M3 by lia. rewrite Pt in M3 by lia. lia.
  - intros t z T Z F. destruct (split_t p t ltac:(lia)) as (c & r & Et & R).
    assert (Y : forall i, a + t + i < l -> x (a + t + i) = x (a + r + i)).
    { intros i I. replace (a + t + i) with (a + (r + i) + c * p) by lia.
      rewrite (period_times a l p P) by lia. f_equal. lia. }
    rewrite Y by exact Z. destruct (Nat.eq_dec r 0) as [R0|R0]; [subst r; rewrite Nat.add_0_r; lia|].
    destruct (D r ltac:(lia)) as (m & M1 & M2 & M3).
    destruct (lt_eq_lt_dec z m) as [[H|H]|H]; [rewrite M2 by exact H; lia|subst z; lia|].
    specialize (F m H). rewrite Y in F by lia. lia.
Qed.
End Word.

(** ** Shifts *)
Section Shift.
Variables (x : nat -> nat) (l c p : nat).
Hypothesis M : maximal x l c p.
(** a maximal suffix of the opposite order starts at or before [c] *)
Hypothesis other : exists c', c' <= c /\ forall t k, 0 < t -> c' + t + k < l ->
  (forall i, i < k -> x (c' + t + i) = x (c' + i)) -> x (c' + k) <= x (c' + t + k).

(** the bytes before [c] do not repeat those after it *)
Lemma no_repetition : forall r, 0 < r <= c -> c + r <= l ->
  ~ (forall i, i < r -> x (c - r + i) = x (c + i)).
Proof.
  intros r R L E. destruct (m_before _ _ _ _ M (c - r) ltac:(lia)) as (m & M1 & M2 & M3 & M4).
  destruct (le_lt_dec r m) as [H|H]; [|rewrite E in M4 by exact H; lia].
  assert (A := m_after _ _ _ _ M r (m - r) ltac:(lia) ltac:(lia)).
  replace (c + r + (m - r)) with (c + m) in A by lia.
  replace (c - r + m) with (c + (m - r)) in M4 by lia.
  assert (x (c + m) <= x (c + (m - r))); [apply A|lia].
  intros i I. rewrite <- (Nat.add_assoc c r i), <- M3 by lia. f_equal. lia.
Qed.
(** nor is there a repetition that begins before the word and breaks off after [c] *)
Lemma no_break : forall s k, 0 < s -> c + s <= k -> k < l ->
  (forall i, s <= i -> i < k -> x i = x (i - s)) -> x k = x (k - s).
Proof.
  intros s k Sp L1 L2 E. destruct other as (c' & C & O).
  assert (A := m_after _ _ _ _ M s (k - s - c) Sp ltac:(lia)).
  replace (c + s + (k - s - c)) with k in A by lia. replace (c + (k - s - c)) with (k - s) in A by lia.
  specialize (O s (k - s - c') Sp ltac:(lia)).
  replace (c' + s + (k - s - c')) with k in O by lia. replace (c' + (k - s - c')) with (k - s) in O by lia.
  assert (x k <= x (k - s)).
  { apply A. intros i I. rewrite (E (c + s + i)) by lia. f_equal. lia. }
  assert (x (k - s) <= x k); [|lia].
  apply O. intros i I. rewrite (E (c' + s + i)) by lia. f_equal. lia.
Qed.

(** [w] is the window on the haystack *)
Variable w : nat -> nat.
Definition occurs (s : nat) : Prop := forall i, i < l -> w (s + i) = x i.
Lemma occurs_back : forall s, occurs s -> forall i, s <= i -> i < s + l -> w i = x (i - s).
Proof. intros s O i I1 I2. rewrite <- (O (i - s)) by lia. f_equal. lia. Qed.

Lemma right_shift : forall k s, c <= k < l -> (forall i, c <= i < k -> w i = x i) -> w k <> x k ->
  0 < s <= k - c -> ~ occurs s.
Proof.
  intros k s K E N Sp O. assert (Ob := occurs_back s O).
  assert (F : forall i, c <= i -> s <= i -> i < k -> x i = x (i - s)).
  { intros i I1 I2 I3. rewrite <- E by lia. apply Ob; lia. }
  rewrite (Ob k) in N by lia. destruct (le_lt_dec s c) as [H|H].
  - (* the suffix at c - s *)
    apply (no_repetition s); try lia. intros i I. rewrite (F (c + i)) by lia. f_equal. lia.
  - apply N. symmetry. apply no_break; try lia. intros i I1 I2. apply F; lia.
Qed.
Lemma matched_small : forall s, (forall i, c <= i < l -> w i = x i) -> 0 < s <= c -> ~ occurs s.
Proof.
  intros s E Sp O. destruct (m_before _ _ _ _ M (c - s) ltac:(lia)) as (m & M1 & M2 & M3 & M4).
  assert (Ob := occurs_back s O (c + m) ltac:(lia) ltac:(lia)). rewrite E in Ob by lia.
  rewrite Ob in M4. replace (c + m - s) with (c - s + m) in M4 by lia. lia.
Qed.
Lemma matched_period : forall s, (forall i, c <= i < l -> w i = x i) -> c < s -> c + s <= l ->
  occurs s -> forall i, s <= i < l -> x i = x (i - s).
Proof.
  intros s E C L O i I. rewrite <- E by lia. apply (occurs_back s O); lia.
Qed.
Lemma matched_periodic : forall s, (forall i, c <= i < l -> w i = x i) -> 0 < s < p -> ~ occurs s.
Proof.
  intros s E Sp O. destruct (le_lt_dec s c) as [H|H]; [apply (matched_small s E); [lia|exact O]|].
  assert (A := m_l _ _ _ _ M). assert (F := matched_period s E H ltac:(lia) O).
  enough (p <= s) by lia. apply (m_min _ _ _ _ M); try lia.
  intros i I1 I2. rewrite F by lia. f_equal. lia.
Qed.
Lemma matched_other : forall s, (forall i, c <= i < l -> w i = x i) ->
  ~ (forall i, i < c -> x i = x (p + i)) -> 0 < s < Nat.max (c - 1) (l - c) + 1 -> ~ occurs s.
Proof.
  intros s E N Sp O. destruct (le_lt_dec s c) as [H|H]; [apply (matched_small s E); [lia|exact O]|].
  assert (L : c + s <= l) by lia. assert (A := m_l _ _ _ _ M). assert (P1 := m_p _ _ _ _ M).
  assert (F := matched_period s E H L O).
  assert (Pe : p <= s).
  { apply (m_min _ _ _ _ M); try lia. intros i I1 I2. rewrite F by lia. f_equal. lia. }
  destruct (split_t p s ltac:(lia)) as (q & r & Es & R).
  (* u is the end of the first s bytes of v *)
  assert (U : forall i, i < c -> x i = x (s + i)).
  { intros i I. rewrite (F (s + i)) by lia. f_equal. lia. }
  assert (Q1 : 1 <= q) by (destruct q; [lia|lia]).
  assert (qp : p <= q * p) by nia.
  destruct (Nat.eq_dec r 0) as [R0|R0].
  - subst r. assert (V : forall i, i < c -> c <= p + i -> x i = x (p + i)).
    { intros i I1 I2. rewrite U by exact I1.
      replace (s + i) with (c + (p + i - c) + (q - 1) * p) by nia.
      rewrite (period_times x c l p (m_per _ _ _ _ M)) by nia. f_equal. lia. }
    destruct (le_lt_dec c p) as [C|C]; [apply N; intros i I; apply V; lia|].
    apply (no_repetition p); try lia. intros i I. rewrite V by lia. f_equal. lia.
  - assert (V : forall i, i < c -> c <= r + i -> x i = x (r + i)).
    { intros i I1 I2. rewrite U by exact I1. replace (s + i) with (c + (r + i - c) + q * p) by lia.
      rewrite (period_times x c l p (m_per _ _ _ _ M)) by lia. f_equal. lia. }
    destruct (le_lt_dec r c) as [C|C].
    + apply (no_repetition r); try lia. intros i I. rewrite V by lia. f_equal. lia.
    + enough (p <= r) by lia. apply (m_min _ _ _ _ M); try lia.
      assert (Pr : forall n, n < l -> r <= n -> x n = x (n - r)).
      { induction n as [n IH] using (well_founded_induction lt_wf). intros L1 L2.
        destruct (le_lt_dec (c + r) n) as [G|G].
        - apply no_break; try lia. intros i I1 I2. apply IH; lia.
        - rewrite (V (n - r)) by lia. f_equal. lia. }
      intros i I1 I2. rewrite Pr by lia. f_equal. lia.
Qed.
(** if the bytes before [c] agree with those [p] further, then [p] is a period of the word *)
Lemma whole_period : (forall i, i < c -> x i = x (p + i)) -> c <= p /\ period x 0 l p.
Proof.
  intros E. assert (A := m_l _ _ _ _ M). assert (P1 := m_p _ _ _ _ M). split.
  - destruct (le_lt_dec c p) as [C|C]; [exact C|]. exfalso.
    apply (no_repetition p); try lia. intros i I. rewrite E by lia. f_equal. lia.
  - intros i _ I. destruct (le_lt_dec c i) as [C|C]; [apply (m_per _ _ _ _ M); lia|].
    rewrite (E i C). f_equal. lia.
Qed.
(** the bytes that are known after a shift by the period; a wrong last byte *)
Lemma remembered : forall s, (forall i, i < c -> x i = x (p + i)) ->
  (forall i, i < l - p -> w i = x i) -> w (l - 1) <> x (l - 1) -> 0 < s < l - p -> ~ occurs s.
Proof.
  intros s E K N Sp O. destruct (whole_period E) as [_ P]. assert (P1 := m_p _ _ _ _ M).
  assert (Ob := occurs_back s O). apply N. rewrite Ob by lia.
  replace (l - 1) with (l - 1 - p + p) at 2 by lia. rewrite P by lia.
  rewrite <- (K (l - 1 - p)) by lia. rewrite Ob by lia.
  replace (l - 1 - s) with (l - 1 - p - s + p) by lia. apply P; lia.
Qed.
Lemma remember : (forall i, i < c -> x i = x (p + i)) -> (forall i, c <= i < l -> w i = x i) ->
  forall i, i < l - p -> w (p + i) = x i.
Proof.
  intros E K i I. destruct (whole_period E) as [C P]. rewrite K by lia. rewrite Nat.add_comm. apply P; lia.
Qed.
End Shift.
