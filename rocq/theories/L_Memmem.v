From Coq Require Import NArith Arith Lia.
From Verif Require Import Base M_Memmem S_Memmem L_Suffix.

Definition at_ (s : bytes) (i : nat) : ascii := nth i s NUL.
Lemma nth_at : forall s i, i < length s -> nth_error s i = Some (at_ s i).
Proof. intros s i L. apply nth_error_nth'. exact L. Qed.

(** ** Occurrences by position *)
Definition occ (n h : bytes) (o : nat) : Prop :=
  o + length n <= length h /\ forall i, i < length n -> at_ h (o + i) = at_ n i.
Lemma same_bytes : forall a b, length a = length b -> (forall i, i < length a -> at_ a i = at_ b i) -> a = b.
Proof. intros a b L E. apply (nth_ext a b NUL NUL L E). Qed.
Lemma at_skip : forall s o i, at_ (skipn o s) i = at_ s (o + i).
Proof.
  intros s o. revert s. induction o as [|o IH]; intros s i; [reflexivity|].
  destruct s as [|c s]; [destruct i; reflexivity|]. apply IH.
Qed.
Lemma at_first : forall s k i, i < k -> at_ (firstn k s) i = at_ s i.
Proof.
  induction s as [|c s IH]; intros k i L; [rewrite firstn_nil; reflexivity|].
  destruct k; [lia|]. destruct i; [reflexivity|]. apply IH. lia.
Qed.
Lemma occurs_occ : forall n h o, occurs_at n h o <-> occ n h o.
Proof.
  intros n h o. split.
  - intros (a & b & -> & <-). split; [rewrite !app_length; lia|]. intros i L. unfold at_.
    rewrite app_nth2 by lia. rewrite app_nth1 by lia. f_equal. lia.
  - intros [L E]. exists (firstn o h), (skipn (length n) (skipn o h)).
    split; [|apply firstn_length_le; lia].
    rewrite <- (firstn_skipn o h) at 1. f_equal.
    rewrite <- (firstn_skipn (length n) (skipn o h)) at 1. f_equal.
    assert (Le : length (firstn (length n) (skipn o h)) = length n).
    { apply firstn_length_le. rewrite skipn_length. lia. }
    apply same_bytes; [exact Le|]. rewrite Le. intros i I. rewrite at_first, at_skip by exact I. apply E, I.
Qed.

(** ** The maximal suffix *)
Lemma ceqb_key : forall (v : ascii -> nat), (forall a b, v a = v b -> a = b) ->
  forall a b, ceqb a b = true <-> v a = v b.
Proof.
  intros v Inj a b. destruct (ceqb_spec a b) as [->|N]; split; intros E; try reflexivity; [discriminate|].
  destruct (N (Inj _ _ E)).
Qed.
Ltac again h :=
  match type of h with ?P -> ?Q -> _ =>
    let a' := fresh in let p' := fresh in let Y := fresh in let Mx := fresh in
    let X := fresh in
    assert (X : P); [|destruct (h X ltac:(lia)) as (a' & p' & Y & Mx);
      exists a', p'; split; [rewrite <- Y; f_equal; lia|exact Mx]]
  end.
Lemma max_suffix_ok : forall gt (v : ascii -> nat) n,
  (forall a b, v a = v b -> a = b) -> (forall a b, gt a b = true <-> v b < v a) ->
  forall fuel a b k q p, inv (fun i => v (at_ n i)) (length n) a b k q p ->
  2 * length n < fuel + (a + b + k) ->
  exists a' p', max_suffix gt n fuel a (b - 1) (k + 1) p = Ok (a', p') /\
                maximal (fun i => v (at_ n i)) (length n) a' p'.
Proof.
  intros gt v n Inj G. set (x := fun i => v (at_ n i)). set (l := length n).
  induction fuel as [|fuel IH]; intros a b k q p H F.
  - exfalso. assert (L := i_l _ _ _ _ _ _ _ H). assert (E := i_b _ _ _ _ _ _ _ H).
    assert (Q := i_q _ _ _ _ _ _ _ H). assert (K := i_k _ _ _ _ _ _ _ H). nia.
  - cbn [max_suffix]. assert (L := i_l _ _ _ _ _ _ _ H). assert (E := i_b _ _ _ _ _ _ _ H).
    assert (Q := i_q _ _ _ _ _ _ _ H). assert (K := i_k _ _ _ _ _ _ _ H).
    assert (AB : a + p <= b) by nia.
    replace (b - 1 + (k + 1)) with (b + k) by lia. replace (a + (k + 1) - 1) with (a + k) by lia.
    fold l. destruct (Nat.ltb_spec (b + k) l) as [Lt|Ge].
    + rewrite !nth_at by (fold l; lia). destruct (ceqb (at_ n (a + k)) (at_ n (b + k))) eqn:C.
      * apply (ceqb_key v Inj) in C. destruct (Nat.eqb_spec (k + 1) p) as [Kp|Kp].
        -- again (IH a (b + p) 0 (q + 1) p).
           apply (inv_turn x l a b k q p H Lt); [symmetry; exact C|exact Kp].
        -- again (IH a b (k + 1) q p).
           apply (inv_next x l a b k q p H Lt); [symmetry; exact C|lia].
      * assert (N : v (at_ n (a + k)) <> v (at_ n (b + k))).
        { intros X. apply (ceqb_key v Inj) in X. congruence. }
        destruct (gt (at_ n (a + k)) (at_ n (b + k))) eqn:Gt.
        -- apply G in Gt. again (IH a (b + k + 1) 0 1 (b + k + 1 - a)).
           apply (inv_longer x l a b k q p H Lt Gt).
        -- assert (Gt' : v (at_ n (a + k)) < v (at_ n (b + k))).
           { destruct (Nat.lt_trichotomy (v (at_ n (a + k))) (v (at_ n (b + k)))) as [X|[X|X]]; [exact X|tauto|].
             apply G in X. congruence. }
           again (IH b (b + 1) 0 1 1).
           apply (inv_replace x l a b k q p H Lt Gt').
    + exists a, p. split; [reflexivity|]. apply (inv_end x l a b k q p H). exact Ge.
Qed.

(** ** The table *)
Lemma fill_spec : forall n i t c,
  match fill i n t c with
  | Some s => (exists j, j < length n /\ s = i + j + 1 /\ at_ n j = c /\
                 forall z, j < z < length n -> at_ n z <> c)
              \/ (t c = Some s /\ ~ In c n)
  | None => t c = None /\ ~ In c n
  end.
Proof.
  induction n as [|d n IH]; intros i t c; cbn [fill].
  - destruct (t c) eqn:T; [right|]; split; auto.
  - specialize (IH (S i) (fun d0 => if ceqb d0 d then Some (i + 1) else t d0) c).
    destruct (fill (S i) n _ c) as [s|].
    + destruct IH as [(j & J & Es & A & L)|[T N]].
      * left. exists (S j). cbn [length]. split; [lia|]. split; [lia|]. split; [exact A|].
        intros z Z. destruct z as [|z]; [lia|]. apply L. lia.
      * destruct (ceqb_spec c d) as [->|D].
        -- injection T as <-. left. exists 0. cbn [length]. split; [lia|]. split; [lia|]. split; [reflexivity|].
           intros z Z E. destruct z as [|z]; [lia|]. change (at_ n z = d) in E. apply N. rewrite <- E. apply nth_In. lia.
        -- right. split; [exact T|]. intros E. destruct E as [E|E]; [congruence|exact (N E)].
    + destruct IH as [T N]. destruct (ceqb_spec c d) as [E|D]; [discriminate|].
      split; [exact T|]. intros E. destruct E as [E|E]; [congruence|exact (N E)].
Qed.
Definition table_ok (n : bytes) (t : table) : Prop := forall c,
  match t c with
  | Some s => exists j, j < length n /\ s = j + 1 /\ at_ n j = c /\ forall z, j < z < length n -> at_ n z <> c
  | None => forall z, z < length n -> at_ n z <> c
  end.
Lemma fill_ok : forall n, table_ok n (fill 0 n (fun _ => None)).
Proof.
  intros n c. assert (H := fill_spec n 0 (fun _ => None) c). destruct (fill 0 n (fun _ => None) c) as [s|].
  - destruct H as [(j & J & E & R)|[T _]]; [|discriminate]. exists j. auto.
  - destruct H as [_ H]. intros z Z E. apply H. rewrite <- E. apply nth_In, Z.
Qed.

(** ** The two halves *)
Lemma right_half_ok : forall n h o, o + length n <= length h ->
  forall fuel k, k <= length n -> length n < fuel + k ->
  exists k', right_half n h o fuel k = Ok k' /\ k <= k' <= length n /\
    (forall i, k <= i < k' -> at_ h (o + i) = at_ n i) /\
    (k' < length n -> at_ h (o + k') <> at_ n k').
Proof.
  intros n h o L. induction fuel as [|fuel IH]; intros k K F; [lia|]. cbn [right_half].
  destruct (Nat.ltb_spec k (length n)) as [Lt|Ge].
  - rewrite !nth_at by lia. destruct (ceqb_spec (at_ n k) (at_ h (o + k))) as [E|E].
    + destruct (IH (S k) ltac:(lia) ltac:(lia)) as (k' & R & B & Eq & N). exists k'.
      split; [exact R|]. split; [lia|]. split; [|exact N].
      intros i I. destruct (Nat.eq_dec i k) as [->|]; [symmetry; exact E|]. apply Eq. lia.
    + exists k. split; [reflexivity|]. split; [lia|]. split; [lia|]. congruence.
  - exists k. split; [reflexivity|]. split; [lia|]. split; lia.
Qed.
Lemma left_half_ok : forall n h o mem, o + length n <= length h ->
  forall k, k <= length n ->
  exists k', left_half n h o mem k = Ok k' /\ k' <= k /\
    (forall i, k' <= i < k -> at_ h (o + i) = at_ n i) /\
    (mem < k' -> at_ h (o + (k' - 1)) <> at_ n (k' - 1)).
Proof.
  intros n h o mem L. induction k as [|k IH]; intros K; cbn [left_half].
  - exists 0. split; [reflexivity|]. split; [lia|]. split; lia.
  - destruct (Nat.ltb_spec mem (S k)) as [Lt|Ge].
    + rewrite !nth_at by lia. destruct (ceqb_spec (at_ n k) (at_ h (o + k))) as [E|E].
      * destruct (IH ltac:(lia)) as (k' & R & B & Eq & N). exists k'. split; [exact R|]. split; [lia|].
        split; [|exact N]. intros i I. destruct (Nat.eq_dec i k) as [->|]; [symmetry; exact E|]. apply Eq. lia.
      * exists (S k). split; [reflexivity|]. split; [lia|]. split; [lia|].
        intros _. replace (S k - 1) with k by lia. congruence.
    + exists (S k). split; [reflexivity|]. split; [lia|]. split; lia.
Qed.

(** ** The search *)
Definition answer (n h : bytes) (r : option nat) : Prop :=
  match r with
  | Some o => occ n h o /\ forall o', occ n h o' -> o <= o'
  | None => forall o, ~ occ n h o
  end.
Lemma answer_first : forall n h r, answer n h r <-> first_occurrence n h r.
Proof.
  intros n h [o|]; cbn; [rewrite occurs_occ|]; split.
  - intros [A B]. split; [exact A|]. intros o' O. apply B, occurs_occ, O.
  - intros [A B]. split; [exact A|]. intros o' O. apply B, occurs_occ, O.
  - intros A o O. apply (A o), occurs_occ, O.
  - intros A o O. apply (A o), occurs_occ, O.
Qed.

Section Search.
Variables (v : ascii -> nat) (n h : bytes) (t : table) (c p0 p mem0 : nat).
Hypothesis Inj : forall a b, v a = v b -> a = b.
Hypothesis T : table_ok n t.
Let x (i : nat) : nat := v (at_ n i).
Let l := length n.
Hypothesis M : maximal x l c p0.
Hypothesis other : exists c', c' <= c /\ forall s k, 0 < s -> c' + s + k < l ->
  (forall i, i < k -> x (c' + s + i) = x (c' + i)) -> x (c' + k) <= x (c' + s + k).
(** periodic or not *)
Hypothesis kind :
  (forall i, i < c -> x i = x (p0 + i)) /\ p = p0 /\ mem0 = l - p0 \/
  ~ (forall i, i < c -> x i = x (p0 + i)) /\ p = Nat.max (c - 1) (l - c) + 1 /\ mem0 = 0.

Definition known (o mem : nat) : Prop :=
  mem = 0 \/ (forall i, i < c -> x i = x (p0 + i)) /\ mem = l - p0 /\
             forall i, i < mem -> at_ h (o + i) = at_ n i.
Lemma c_in : c < l.
Proof. assert (A := m_l _ _ _ _ M). assert (B := m_p _ _ _ _ M). lia. Qed.
Lemma p_in : 1 <= p <= l.
Proof.
  assert (A := m_l _ _ _ _ M). assert (B := m_p _ _ _ _ M).
  destruct kind as [(_ & -> & _)|(K & -> & _)]; [lia|].
  destruct (Nat.eq_dec c 0) as [->|]; [|lia]. exfalso. apply K. intros i I. lia.
Qed.
Lemma occ_occurs : forall o s, occ n h (o + s) -> occurs x l (fun i => v (at_ h (o + i))) s.
Proof. intros o s [L E] i I. unfold x. rewrite <- E by exact I. f_equal. f_equal. lia. Qed.
Lemma skip : forall o o', o <= o' -> (forall z, occ n h z -> o <= z) ->
  (forall s, s < o' - o -> ~ occ n h (o + s)) -> forall z, occ n h z -> o' <= z.
Proof.
  intros o o' L B N z Z. destruct (le_lt_dec o' z) as [|H]; [assumption|].
  exfalso. apply (N (z - o)); [specialize (B z Z); lia|]. replace (o + (z - o)) with z by (specialize (B z Z); lia).
  exact Z.
Qed.

Lemma search_ok : forall fuel o mem, o <= length h -> length h < fuel + o -> known o mem ->
  (forall z, occ n h z -> o <= z) ->
  exists r, search t n h c p mem0 fuel o mem = Ok r /\ answer n h r.
Proof.
  assert (Cl := c_in). assert (Pl := p_in). assert (L1 := m_l _ _ _ _ M). assert (P1 := m_p _ _ _ _ M).
  induction fuel as [|fuel IH]; intros o mem Ol F K B; [lia|]. cbn [search].
  destruct (Nat.ltb_spec (length h) o) as [|_]; [lia|]. fold l.
  destruct (Nat.ltb_spec (length h - o) l) as [Sh|Sh].
  { exists None. split; [reflexivity|]. intros z Z. specialize (B z Z). destruct Z as [Z _]. fold l in Z. lia. }
  assert (Room : o + l <= length h) by lia.
  rewrite nth_at by lia. set (last := at_ h (o + (l - 1))).
  assert (Oat : forall s, occ n h (o + s) -> s < l -> forall i, s <= i < l -> at_ h (o + i) = at_ n (i - s)).
  { intros s [_ E] Sl i I. specialize (E (i - s) ltac:(fold l; lia)).
    replace (o + s + (i - s)) with (o + i) in E by lia. exact E. }
  assert (Tc := T last). destruct (t last) as [s|].
  - destruct Tc as (j & J & -> & Aj & After). fold l in J, After.
    replace (l - (j + 1)) with (l - 1 - j) by lia.
    destruct (Nat.eqb_spec (l - 1 - j) 0) as [Z|Z]; cbn [negb].
    + (* the last byte is right *)
      assert (Ej : j = l - 1) by lia. subst j. clear Z.
      assert (Kc : Nat.max c mem <= l).
      { destruct K as [->|(_ & -> & _)]; lia. }
      destruct (right_half_ok n h o ltac:(fold l; lia) (S l) (Nat.max c mem) ltac:(fold l; lia) ltac:(fold l; lia))
        as (k & -> & Kb & Eq & Ne). fold l in Kb, Ne.
      assert (Known : forall i, i < mem -> at_ h (o + i) = at_ n i).
      { destruct K as [->|(_ & _ & K)]; [lia|exact K]. }
      assert (Right : forall i, c <= i < k -> at_ h (o + i) = at_ n i).
      { intros i I. destruct (le_lt_dec mem i) as [G|G]; [apply Eq; lia|apply Known, G]. }
      destruct (Nat.ltb_spec k l) as [Kl|Kl].
      * apply IH; try lia; [left; reflexivity|]. apply (skip o); [lia|exact B|].
        intros s Sb O. destruct (Nat.eq_dec s 0) as [->|S0].
        { rewrite Nat.add_0_r in O. destruct O as [_ O]. apply (Ne Kl). apply O. exact Kl. }
        apply (right_shift x l c p0 M other (fun i => v (at_ h (o + i))) k s); try lia.
        -- intros i I. unfold x. f_equal. apply Right, I.
        -- intros E. apply Inj in E. exact (Ne Kl E).
        -- apply occ_occurs, O.
      * assert (k = l) by lia. subst k. clear Kl Ne.
        destruct (left_half_ok n h o mem ltac:(fold l; lia) c ltac:(fold l; lia)) as (k & -> & Kb2 & Eq2 & Ne2).
        destruct (Nat.leb_spec k mem) as [Km|Km].
        -- exists (Some o). split; [reflexivity|]. split; [|exact B]. split; [fold l; lia|]. fold l.
           intros i I. destruct (le_lt_dec c i) as [G|G]; [apply Right; lia|].
           destruct (le_lt_dec mem i) as [G2|G2]; [apply Eq2; lia|apply Known, G2].
        -- specialize (Ne2 Km). assert (Rw : forall i, c <= i < l -> v (at_ h (o + i)) = x i).
           { intros i I. unfold x. f_equal. apply Right, I. }
           apply IH; try lia.
           ++ destruct kind as [(Kd & -> & ->)|(Kd & -> & ->)]; [|left; reflexivity].
              right. split; [exact Kd|]. split; [reflexivity|]. intros i I. apply Inj.
              assert (R := remember x l c p0 M (fun i => v (at_ h (o + i))) Kd Rw i I). cbn beta in R.
              rewrite <- Nat.add_assoc. exact R.
           ++ apply (skip o); [lia|exact B|]. intros s Sb O. destruct (Nat.eq_dec s 0) as [->|S0].
              { rewrite Nat.add_0_r in O. destruct O as [_ O]. apply Ne2. apply O. fold l. lia. }
              assert (Oc := occ_occurs o s O).
              destruct kind as [(Kd & -> & _)|(Kd & -> & _)].
              ** apply (matched_periodic x l c p0 M (fun i => v (at_ h (o + i))) s Rw); [lia|exact Oc].
              ** apply (matched_other x l c p0 M other (fun i => v (at_ h (o + i))) s Rw Kd); [lia|exact Oc].
    + (* a wrong last byte *)
      assert (Nl : last <> at_ n (l - 1)). { intros E. apply (After (l - 1)); [lia|]. symmetry. exact E. }
      assert (Small : forall s, s < l - 1 - j -> ~ occ n h (o + s)).
      { intros s Sb O. assert (E := Oat s O ltac:(lia) (l - 1) ltac:(lia)). fold last in E.
        apply (After (l - 1 - s)); [lia|]. symmetry. exact E. }
      destruct (Nat.ltb_spec (l - 1 - j) mem) as [Km|Km].
      * destruct K as [->|(Kd & Em & K)]; [lia|].
        apply IH; try lia; [left; reflexivity|]. apply (skip o); [lia|exact B|].
        intros s Sb O. destruct (le_lt_dec (l - 1 - j) s) as [G|G]; [|exact (Small s G O)].
        apply (remembered x l c p0 M (fun i => v (at_ h (o + i))) s Kd); try lia.
        -- intros i I. unfold x. f_equal. apply K. lia.
        -- intros E. apply Inj in E. exact (Nl E).
        -- apply occ_occurs, O.
      * apply IH; try lia; [left; reflexivity|]. apply (skip o); [lia|exact B|].
        intros s Sb O. apply (Small s); [lia|exact O].
  - apply IH; try lia; [left; reflexivity|]. apply (skip o); [lia|exact B|].
    intros s Sb O. assert (E := Oat s O ltac:(lia) (l - 1) ltac:(lia)). fold last in E.
    apply (Tc (l - 1 - s)); [fold l; lia|]. symmetry. exact E.
Qed.
End Search.

(** ** twoway_memmem *)
Lemma cval_inj : forall a b, cval a = cval b -> a = b.
Proof.
  intros a b E. unfold cval in E. rewrite <- (ascii_nat_embedding a), <- (ascii_nat_embedding b), E. reflexivity.
Qed.
Lemma cval_small : forall a, cval a < 256.
Proof. exact nat_ascii_bounded. Qed.
Definition down (a : ascii) : nat := 255 - cval a.
Lemma down_inj : forall a b, down a = down b -> a = b.
Proof. unfold down. intros a b E. apply cval_inj. assert (A := cval_small a). assert (B := cval_small b). lia. Qed.
Lemma differ_ok : forall n p k, p + k <= length n -> exists d, differ n p k = Some d /\
  (d = false <-> forall i, i < k -> at_ n i = at_ n (p + i)).
Proof.
  intros n p k L. unfold differ. destruct (Nat.leb_spec (p + k) (length n)) as [_|]; [|lia].
  eexists. split; [reflexivity|].
  assert (L1 : length (firstn k n) = k) by (apply firstn_length_le; lia).
  assert (L2 : length (firstn k (skipn p n)) = k) by (apply firstn_length_le; rewrite skipn_length; lia).
  destruct (beqb_spec (firstn k n) (firstn k (skipn p n))) as [E|E]; cbn [negb]; split; try easy.
  - intros _ i I. rewrite <- (at_first n k i I), E, at_first, at_skip by exact I. reflexivity.
  - intros H. exfalso. apply E. apply same_bytes; [lia|]. rewrite L1. intros i I.
    rewrite !at_first, at_skip by exact I. apply H, I.
Qed.
Lemma twoway_ok : forall n h fuel, 1 <= length n -> 2 * length n + length h < fuel ->
  exists r, twoway_memmem fuel h n = Ok r /\ answer n h r.
Proof.
  intros n h fuel L F. unfold twoway_memmem.
  destruct (max_suffix_ok above cval n cval_inj) with (fuel := fuel) (a := 0) (b := 1) (k := 0) (q := 1) (p := 1)
    as (c1 & p1 & E1 & M1).
  { intros a b. unfold above. rewrite Nat.ltb_lt. reflexivity. }
  { apply inv_start, L. }
  { lia. }
  destruct (max_suffix_ok below down n down_inj) with (fuel := fuel) (a := 0) (b := 1) (k := 0) (q := 1) (p := 1)
    as (c2 & p2 & E2 & M2).
  { intros a b. unfold below, down. rewrite Nat.ltb_lt. assert (A := cval_small a). assert (B := cval_small b). lia. }
  { apply inv_start, L. }
  { lia. }
  cbn [Nat.sub Nat.add] in E1, E2. rewrite E1, E2.
  assert (Fin : forall v c p0, (forall a b, v a = v b -> a = b) -> maximal (fun i => v (at_ n i)) (length n) c p0 ->
    (exists c', c' <= c /\ forall s k, 0 < s -> c' + s + k < length n ->
       (forall i, i < k -> v (at_ n (c' + s + i)) = v (at_ n (c' + i))) ->
       v (at_ n (c' + k)) <= v (at_ n (c' + s + k))) ->
    exists r, match differ n p0 c with
      | Some true => search (fill 0 n (fun _ => None)) n h c (Nat.max (c - 1) (length n - c) + 1) 0 fuel 0 0
      | Some false => search (fill 0 n (fun _ => None)) n h c p0 (length n - p0) fuel 0 0
      | None => OutOfRange end = Ok r /\ answer n h r).
  { intros v c p0 Inj Mx Ot. assert (Ml := m_l _ _ _ _ Mx).
    destruct (differ_ok n p0 c ltac:(lia)) as (d & -> & D).
    assert (Dv : d = false <-> forall i, i < c -> v (at_ n i) = v (at_ n (p0 + i))).
    { rewrite D. split; intros H i I; [f_equal; apply H, I|apply Inj, H, I]. }
    destruct d; apply (search_ok v n h _ c p0 _ _ Inj (fill_ok n) Mx Ot); try lia; try (left; reflexivity).
    - right. split; [|auto]. intros X. apply Dv in X. discriminate.
    - left. split; [|auto]. apply Dv. reflexivity. }
  destruct (Nat.ltb_spec c1 c2) as [C|C].
  - apply (Fin down c2 p2 down_inj M2). exists c1. split; [lia|]. intros s k Sp Lk E.
    assert (A := m_after _ _ _ _ M1 s k Sp Lk). cbn beta in A.
    assert (cval (at_ n (c1 + s + k)) <= cval (at_ n (c1 + k))); [|unfold down; lia].
    apply A. intros i I. f_equal. apply down_inj. apply E, I.
  - apply (Fin cval c1 p1 cval_inj M1). exists c2. split; [lia|]. intros s k Sp Lk E.
    assert (A := m_after _ _ _ _ M2 s k Sp Lk). cbn beta in A.
    assert (X : down (at_ n (c2 + s + k)) <= down (at_ n (c2 + k))).
    { apply A. intros i I. f_equal. apply cval_inj. apply E, I. }
    unfold down in X. assert (B1 := cval_small (at_ n (c2 + s + k))). assert (B2 := cval_small (at_ n (c2 + k))). lia.
Qed.

(** ** Short needles *)
Fixpoint scan (n h : bytes) (off : nat) : option nat :=
  if starts_with n h then Some off else match h with [] => None | _ :: h' => scan n h' (S off) end.
Lemma occ_zero : forall n h, starts_with n h = true <-> occ n h 0.
Proof.
  intros n h. rewrite <- occurs_occ. split.
  - intros E. exists []. assert (X : exists a, h = n ++ a); [|destruct X as [a ->]; exists a; auto].
    revert h E. induction n as [|c n IH]; intros h E; [exists h; reflexivity|].
    destruct h as [|d h]; [discriminate|]. cbn in E. apply andb_true_iff in E. destruct E as [E1 E2].
    destruct (ceqb_spec c d) as [->|]; [|discriminate]. destruct (IH h E2) as [a ->]. exists a. reflexivity.
  - intros (b & a & -> & L). destruct b; [|discriminate]. cbn [app].
    induction n as [|c n IH]; [reflexivity|]. cbn. rewrite ceqb_refl. exact IH.
Qed.
Lemma occ_succ : forall n c h o, occ n (c :: h) (S o) <-> occ n h o.
Proof. intros n c h o. unfold occ. cbn [length]. split; intros [L E]; (split; [lia|exact E]). Qed.
Lemma scan_ok : forall n h off, exists r, scan n h off = option_map (fun i => off + i) r /\ answer n h r.
Proof.
  intros n. induction h as [|c h IH]; intros off; cbn [scan].
  - destruct (starts_with n []) eqn:E.
    + exists (Some 0). cbn. split; [f_equal; lia|]. split; [apply occ_zero, E|lia].
    + exists None. split; [reflexivity|]. intros [|o] O; [apply occ_zero in O; congruence|].
      destruct O as [L _]. cbn in L. lia.
  - destruct (starts_with n (c :: h)) eqn:E.
    + exists (Some 0). cbn [option_map]. split; [f_equal; lia|]. split; [apply occ_zero, E|lia].
    + assert (N : ~ occ n (c :: h) 0). { rewrite <- occ_zero. congruence. }
      destruct (IH (S off)) as ([o|] & -> & A).
      * exists (Some (S o)). cbn [option_map]. split; [f_equal; lia|]. destruct A as [A1 A2].
        split; [apply occ_succ, A1|]. intros [|z] Z; [destruct (N Z)|]. apply occ_succ in Z. specialize (A2 z Z). lia.
      * exists None. split; [reflexivity|]. intros [|o] O; [exact (N O)|]. apply occ_succ in O. exact (A o O).
Qed.
Lemma uc_small : forall c, (uc c < 256)%N.
Proof. exact N_ascii_bounded. Qed.
Lemma uc_inj : forall a b, uc a = uc b -> a = b.
Proof. unfold uc. intros a b E. rewrite <- (ascii_N_embedding a), <- (ascii_N_embedding b), E. reflexivity. Qed.
Lemma lor_add : forall a b k, (b < 2 ^ k)%N -> N.lor (a * 2 ^ k) b = (a * 2 ^ k + b)%N.
Proof.
  intros a b k L. rewrite <- N.lxor_lor, <- N.add_nocarry_lxor; try reflexivity.
  all: rewrite <- N.shiftl_mul_pow2; apply N.bits_inj; intros i; rewrite N.land_spec, N.bits_0;
    destruct (N.ltb_spec i k) as [H|H];
    [rewrite N.shiftl_spec_low by exact H; reflexivity|].
  all: assert (Z : N.testbit b i = false); [|rewrite Z; apply andb_false_r].
  all: destruct (N.eq_dec b 0) as [->|B0]; [apply N.bits_0|apply N.bits_above_log2; apply N.log2_lt_pow2; [lia|]].
  all: eapply N.lt_le_trans; [exact L|apply N.pow_le_mono_r; lia].
Qed.
Lemma wrap : forall a r m, (r < m)%N -> ((a * m + r) mod m = r)%N.
Proof. intros a r m L. rewrite N.add_comm, N.mod_add by lia. apply N.mod_small, L. Qed.

Definition W2 (a b : ascii) : N := (uc a * 256 + uc b)%N.
Definition W3 (a b c : ascii) : N := ((uc a * 65536 + uc b * 256 + uc c) * 256)%N.
Definition W4 (a b c d : ascii) : N := (uc a * 16777216 + uc b * 65536 + uc c * 256 + uc d)%N.
Ltac bytes_small := repeat match goal with c : ascii |- _ =>
  lazymatch goal with H : (uc c < 256)%N |- _ => fail | _ => assert (uc c < 256)%N by apply uc_small end end.
Lemma word2 : forall a b, u16 (N.lor (shl (uc a) 8) (uc b)) = W2 a b.
Proof.
  intros a b. unfold u16, shl, W2. rewrite N.shiftl_mul_pow2, lor_add by apply uc_small.
  bytes_small. change (2 ^ 8)%N with 256%N. change (2 ^ 16)%N with 65536%N. apply N.mod_small. lia.
Qed.
Lemma next2 : forall a b c, u16 (N.lor (shl (W2 a b) 8) (uc c)) = W2 b c.
Proof.
  intros a b c. unfold u16, shl, W2. rewrite N.shiftl_mul_pow2, lor_add by apply uc_small.
  bytes_small. change (2 ^ 8)%N with 256%N. change (2 ^ 16)%N with 65536%N.
  replace ((uc a * 256 + uc b) * 256 + uc c)%N with (uc a * 65536 + (uc b * 256 + uc c))%N by lia.
  apply wrap. lia.
Qed.
Lemma word3 : forall a b c, u32 (N.lor (N.lor (shl (uc a) 24) (shl (uc b) 16)) (shl (uc c) 8)) = W3 a b c.
Proof.
  intros a b c. unfold u32, shl, W3. rewrite !N.shiftl_mul_pow2. bytes_small.
  rewrite lor_add by (change (2 ^ 16)%N with 65536%N; change (2 ^ 24)%N with 16777216%N; lia).
  replace (uc a * 2 ^ 24 + uc b * 2 ^ 16)%N with ((uc a * 256 + uc b) * 2 ^ 16)%N
    by (change (2 ^ 16)%N with 65536%N; change (2 ^ 24)%N with 16777216%N; lia).
  rewrite lor_add by (change (2 ^ 16)%N with 65536%N; change (2 ^ 8)%N with 256%N; lia).
  change (2 ^ 16)%N with 65536%N; change (2 ^ 8)%N with 256%N; change (2 ^ 32)%N with 4294967296%N.
  rewrite N.mod_small by lia. lia.
Qed.
Lemma next3 : forall a b c d, u32 (shl (N.lor (W3 a b c) (uc d)) 8) = W3 b c d.
Proof.
  intros a b c d. unfold u32, shl, W3. change 256%N with (2 ^ 8)%N at 2.
  rewrite lor_add by apply uc_small. rewrite N.shiftl_mul_pow2. bytes_small.
  change (2 ^ 8)%N with 256%N; change (2 ^ 32)%N with 4294967296%N.
  replace (((uc a * 65536 + uc b * 256 + uc c) * 256 + uc d) * 256)%N
    with (uc a * 4294967296 + ((uc b * 65536 + uc c * 256 + uc d) * 256))%N by lia.
  apply wrap. lia.
Qed.
Lemma word4 : forall a b c d,
  u32 (N.lor (N.lor (N.lor (shl (uc a) 24) (shl (uc b) 16)) (shl (uc c) 8)) (uc d)) = W4 a b c d.
Proof.
  intros a b c d. unfold u32, shl, W4. rewrite !N.shiftl_mul_pow2. bytes_small.
  rewrite lor_add by (change (2 ^ 16)%N with 65536%N; change (2 ^ 24)%N with 16777216%N; lia).
  replace (uc a * 2 ^ 24 + uc b * 2 ^ 16)%N with ((uc a * 256 + uc b) * 2 ^ 16)%N
    by (change (2 ^ 16)%N with 65536%N; change (2 ^ 24)%N with 16777216%N; lia).
  rewrite lor_add by (change (2 ^ 16)%N with 65536%N; change (2 ^ 8)%N with 256%N; lia).
  replace ((uc a * 256 + uc b) * 2 ^ 16 + uc c * 2 ^ 8)%N with ((uc a * 65536 + uc b * 256 + uc c) * 2 ^ 8)%N
    by (change (2 ^ 16)%N with 65536%N; change (2 ^ 8)%N with 256%N; lia).
  rewrite lor_add by assumption.
  change (2 ^ 8)%N with 256%N; change (2 ^ 32)%N with 4294967296%N.
  rewrite N.mod_small by lia. lia.
Qed.
Lemma next4 : forall a b c d e, u32 (N.lor (shl (W4 a b c d) 8) (uc e)) = W4 b c d e.
Proof.
  intros a b c d e. unfold u32, shl, W4. rewrite N.shiftl_mul_pow2, lor_add by apply uc_small. bytes_small.
  change (2 ^ 8)%N with 256%N; change (2 ^ 32)%N with 4294967296%N.
  replace ((uc a * 16777216 + uc b * 65536 + uc c * 256 + uc d) * 256 + uc e)%N
    with (uc a * 4294967296 + (uc b * 16777216 + uc c * 65536 + uc d * 256 + uc e))%N by lia.
  apply wrap. lia.
Qed.
Lemma eq2 : forall a b c d, (W2 a b =? W2 c d)%N = ceqb c a && ceqb d b.
Proof.
  intros a b c d. destruct (N.eqb_spec (W2 a b) (W2 c d)) as [E|E].
  - unfold W2 in E. bytes_small. assert (uc a = uc c) by lia. assert (uc b = uc d) by lia.
    rewrite (uc_inj a c), (uc_inj b d), !ceqb_refl by assumption. reflexivity.
  - destruct (ceqb_spec c a) as [->|]; [|reflexivity]. destruct (ceqb_spec d b) as [->|]; [|reflexivity]. tauto.
Qed.
Lemma eq3 : forall a b c x y z, (W3 a b c =? W3 x y z)%N = ceqb x a && (ceqb y b && ceqb z c).
Proof.
  intros a b c x y z. destruct (N.eqb_spec (W3 a b c) (W3 x y z)) as [E|E].
  - unfold W3 in E. bytes_small. assert (uc a = uc x) by lia. assert (uc b = uc y) by lia. assert (uc c = uc z) by lia.
    rewrite (uc_inj a x), (uc_inj b y), (uc_inj c z), !ceqb_refl by assumption. reflexivity.
  - destruct (ceqb_spec x a) as [->|]; [|reflexivity]. destruct (ceqb_spec y b) as [->|]; [|reflexivity].
    destruct (ceqb_spec z c) as [->|]; [|reflexivity]. tauto.
Qed.
Lemma eq4 : forall a b c d x y z w, (W4 a b c d =? W4 x y z w)%N = ceqb x a && (ceqb y b && (ceqb z c && ceqb w d)).
Proof.
  intros a b c d x y z w. destruct (N.eqb_spec (W4 a b c d) (W4 x y z w)) as [E|E].
  - unfold W4 in E. bytes_small. assert (uc a = uc x) by lia. assert (uc b = uc y) by lia.
    assert (uc c = uc z) by lia. assert (uc d = uc w) by lia.
    rewrite (uc_inj a x), (uc_inj b y), (uc_inj c z), (uc_inj d w), !ceqb_refl by assumption. reflexivity.
  - destruct (ceqb_spec x a) as [->|]; [|reflexivity]. destruct (ceqb_spec y b) as [->|]; [|reflexivity].
    destruct (ceqb_spec z c) as [->|]; [|reflexivity]. destruct (ceqb_spec w d) as [->|]; [|reflexivity]. tauto.
Qed.
Lemma scan_short : forall n h off, length h < length n -> scan n h off = None.
Proof.
  intros n h. induction h as [|c h IH]; intros off L; cbn [scan];
    destruct (starts_with n _) eqn:E; try (apply occ_zero in E; destruct E as [E _]; cbn in *; lia); [reflexivity|].
  apply IH. cbn in L. lia.
Qed.
Lemma loop2 : forall x y h a b off, twobyte_loop (W2 x y) (W2 a b) off h = scan [x; y] (a :: b :: h) off.
Proof.
  intros x y. induction h as [|c h IH]; intros a b off; cbn [twobyte_loop]; rewrite eq2;
    cbn [scan starts_with]; rewrite andb_true_r; destruct (ceqb x a && ceqb y b); try reflexivity.
  - change (None = scan [x; y] [b] (S off)). rewrite scan_short by (cbn; lia). reflexivity.
  - rewrite next2, IH. reflexivity.
Qed.
Lemma loop3 : forall x y z h a b c off,
  threebyte_loop (W3 x y z) (W3 a b c) off h = scan [x; y; z] (a :: b :: c :: h) off.
Proof.
  intros x y z. induction h as [|d h IH]; intros a b c off; cbn [threebyte_loop]; rewrite eq3;
    cbn [scan starts_with]; rewrite andb_true_r; destruct (ceqb x a && (ceqb y b && ceqb z c)); try reflexivity.
  - change (None = scan [x; y; z] [b; c] (S off)). rewrite scan_short by (cbn; lia). reflexivity.
  - rewrite next3, IH. reflexivity.
Qed.
Lemma loop4 : forall x y z w h a b c d off,
  fourbyte_loop (W4 x y z w) (W4 a b c d) off h = scan [x; y; z; w] (a :: b :: c :: d :: h) off.
Proof.
  intros x y z w. induction h as [|e h IH]; intros a b c d off; cbn [fourbyte_loop]; rewrite eq4;
    cbn [scan starts_with]; rewrite andb_true_r;
    destruct (ceqb x a && (ceqb y b && (ceqb z c && ceqb w d))); try reflexivity.
  - change (None = scan [x; y; z; w] [b; c; d] (S off)). rewrite scan_short by (cbn; lia). reflexivity.
  - rewrite next4, IH. reflexivity.
Qed.
Lemma scan_answer : forall n h, answer n h (scan n h 0).
Proof.
  intros n h. destruct (scan_ok n h 0) as (r & -> & A). destruct r; exact A.
Qed.

(** ** memmem *)
Lemma memchr_ok : forall h c, match memchr h c with
  | Some o => o < length h /\ at_ h o = c /\ forall i, i < o -> at_ h i <> c
  | None => forall i, i < length h -> at_ h i <> c end.
Proof.
  induction h as [|d h IH]; intros c; cbn [memchr]; [cbn; lia|].
  destruct (ceqb_spec d c) as [E|E]; [cbn; split; [lia|]; split; [exact E|lia]|].
  specialize (IH c). destruct (memchr h c) as [o|]; cbn [option_map length].
  - destruct IH as (A & B & C). split; [lia|]. split; [exact B|].
    intros [|i] I; [exact E|]. apply C. lia.
  - intros [|i] I; [exact E|]. apply IH. lia.
Qed.
Lemma occ_skip : forall n h o i, o <= length h -> (occ n (skipn o h) i <-> occ n h (o + i)).
Proof.
  intros n h o i L. unfold occ. rewrite skipn_length. split; intros [A B]; (split; [lia|]); intros z Z.
  - rewrite <- B by exact Z. rewrite at_skip. f_equal. lia.
  - rewrite at_skip, Nat.add_assoc. apply B, Z.
Qed.
Lemma memmem_ok : forall n h fuel, 2 * length n + length h < fuel ->
  exists r, memmem fuel h n = Ok r /\ answer n h r.
Proof.
  intros n h fuel F. unfold memmem. destruct n as [|c n'].
  { exists (Some 0). split; [reflexivity|]. split; [apply occ_zero; reflexivity|lia]. }
  set (n := c :: n') in *. assert (L1 : 1 <= length n) by (cbn; lia).
  destruct (Nat.ltb_spec (length h) (length n)) as [Sh|Sh].
  { exists None. split; [reflexivity|]. intros o [O _]. lia. }
  assert (Mc := memchr_ok h c). destruct (memchr h c) as [o|].
  2:{ exists None. split; [reflexivity|]. intros o [O1 O2]. apply (Mc o); [lia|].
      rewrite <- (Nat.add_0_r o). apply (O2 0). lia. }
  destruct Mc as (Ol & Oc & Of).
  assert (Min : forall z, occ n h z -> o <= z).
  { intros z [Z1 Z2]. destruct (le_lt_dec o z) as [|G]; [assumption|]. exfalso. apply (Of z G).
    rewrite <- (Nat.add_0_r z). apply (Z2 0). lia. }
  destruct (Nat.eqb_spec (length n) 1) as [N1|N1].
  { exists (Some o). split; [reflexivity|]. split; [|exact Min]. split; [lia|].
    intros i I. assert (i = 0) by lia. subst i. rewrite Nat.add_0_r. exact Oc. }
  set (h' := skipn o h). assert (Lh : length h' = length h - o) by apply skipn_length.
  assert (Lift : forall r, answer n h' r -> answer n h (option_map (fun i => o + i) r)).
  { intros [i|] A; cbn [option_map answer] in *.
    - destruct A as [A1 A2]. apply occ_skip in A1; [|lia]. split; [exact A1|]. intros z Z.
      specialize (Min z Z). assert (Z' : occ n h' (z - o)).
      { apply occ_skip; [lia|]. replace (o + (z - o)) with z by lia. exact Z. }
      specialize (A2 _ Z'). lia.
    - intros z Z. specialize (Min z Z). apply (A (z - o)). apply occ_skip; [lia|].
      replace (o + (z - o)) with z by lia. exact Z. }
  destruct (Nat.ltb_spec (length h') (length n)) as [Sh'|Sh'].
  { exists None. split; [reflexivity|]. apply (Lift None). intros z [Z _]. lia. }
  assert (R : exists r, (if length n =? 2 then twobyte_memmem h' n
                         else if length n =? 3 then threebyte_memmem h' n
                         else if length n =? 4 then fourbyte_memmem h' n
                         else twoway_memmem fuel h' n) = Ok r /\ answer n h' r).
  { clearbody h'. destruct (Nat.eqb_spec (length n) 2) as [E|_].
    { destruct n' as [|y [|? ?]]; try discriminate E. destruct h' as [|a [|b h']]; cbn in Sh'; try lia.
      subst n. eexists. split; [cbn [twobyte_memmem]; rewrite !word2, loop2; reflexivity|]. apply scan_answer. }
    destruct (Nat.eqb_spec (length n) 3) as [E|_].
    { destruct n' as [|y [|z [|? ?]]]; try discriminate E. destruct h' as [|a [|b [|d h']]]; cbn in Sh'; try lia.
      subst n. eexists. split; [cbn [threebyte_memmem]; rewrite !word3, loop3; reflexivity|]. apply scan_answer. }
    destruct (Nat.eqb_spec (length n) 4) as [E|_].
    { destruct n' as [|y [|z [|w [|? ?]]]]; try discriminate E.
      destruct h' as [|a [|b [|d [|e h']]]]; cbn in Sh'; try lia.
      subst n. eexists. split; [cbn [fourbyte_memmem]; rewrite !word4, loop4; reflexivity|]. apply scan_answer. }
    apply twoway_ok; [lia|lia]. }
  destruct R as (r & -> & A). eexists. split; [reflexivity|]. apply Lift, A.
Qed.
