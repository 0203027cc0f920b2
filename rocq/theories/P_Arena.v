(** Property theorems for the arena (C15) and the bucket arrays (C16). *)
From Verif Require Import Base M_Arena S_Arena L_Arena.

(** C15: for every sequence of allocation sizes, every region handed out lies inside its
    block, starts at a multiple of 8, and shares no byte with any other region handed out. *)
Theorem C15_arena_regions : forall BLK sizes,
  let '(a, regs) := arena_allocs BLK (arena_init BLK) sizes in
  map (fun r => let '(_, _, s) := r in s) regs = sizes /\
  (forall b off s, In (b, off, s) regs ->
     exists size, nth_error (ablocks a) b = Some size /\ (off + s <= size)%N /\ (off mod 8 = 0)%N) /\
  (forall i j r1 r2, nth_error regs i = Some r1 -> nth_error regs j = Some r2 -> i <> j -> disjoint r1 r2).
Proof.
  intros BLK sizes.
  assert (I : ainv BLK (arena_init BLK)).
  { split; [discriminate|]. simpl. intros s [<-|[]]. lia. }
  assert (M : forall a, map (fun r => let '(_, _, s) := r in s) (snd (arena_allocs BLK a sizes)) = sizes).
  { clear. induction sizes as [|s ss IH]; intros a; simpl; [reflexivity|].
    destruct (arena_alloc BLK a s) as [a1 [b o]]. specialize (IH a1). destruct (arena_allocs BLK a1 ss). simpl in *. congruence. }
  specialize (M (arena_init BLK)).
  pose proof (allocs_spec BLK sizes _ I) as H.
  destruct (arena_allocs BLK (arena_init BLK) sizes) as [a regs]. simpl in M.
  destruct H as (_ & H1 & _ & _ & H2). split; [assumption|]. split.
  - intros b off s Hin. apply H1 in Hin. destruct Hin as (sz & E & Hle & Hm & _). eauto.
  - intros i j r1 r2 E1 E2 Hne. destruct (Nat.lt_trichotomy i j) as [L|[L|L]].
    + eauto.
    + contradiction.
    + assert (D : disjoint r2 r1) by (eapply H2; eauto). destruct r1 as [[? ?] ?], r2 as [[? ?] ?].
      unfold disjoint in *. destruct D as [D|[D|D]]; [left; congruence|tauto|tauto].
Qed.
Print Assumptions C15_arena_regions.

Example C15_witness :
  snd (arena_allocs 64 (arena_init 64) [5; 40; 100; 8; 1; 60]%N) =
  [(0, 0%N, 5%N); (0, 8%N, 40%N); (1, 0%N, 100%N); (2, 0%N, 8%N); (2, 16%N, 1%N); (3, 0%N, 60%N)].
Proof. vm_compute. reflexivity. Qed.

(** C16: for every history of pushes, save points and restores to a save point no longer than
    the present list, the bucket array behaves as that list: it never hits an assertion, its
    length is the list's, and looking up any index gives the list's item (and fails exactly
    out of range). *)
Theorem C16_bucket_arr_is_a_list : forall (A : Type) (zero : A) sz ops l saves,
  2 <= sz -> bspec ([], []) ops = Some (l, saves) ->
  exists ba ss, brun zero (bucket_arr_init zero sz, []) ops = Some (ba, ss) /\
    btotal ba = length l /\ (forall i, get ba i = nth_error l i).
Proof.
  intros A zero sz ops l saves Hs H.
  destruct (brun_spec zero ops (bucket_arr_init zero sz) [] [] [] Hs (init_rep zero sz) (Forall2_nil _) _ _ H)
    as (ba & ss & E & Es & R).
  exists ba, ss. split; [exact E|]. simpl in Es. split.
  - apply (rep_get zero ba l 0); [lia|assumption].
  - intros i. apply (rep_get zero ba l i); [lia|assumption].
Qed.
Print Assumptions C16_bucket_arr_is_a_list.

(** C16: a push puts its item at an address that depends only on its index, so the address of
    an item never changes while the item is in the array; and looking the address up gives
    the index back. *)
Theorem C16_addresses_are_stable : forall (A : Type) (zero : A) sz ops l saves i,
  2 <= sz -> bspec ([], []) ops = Some (l, saves) -> i < length l ->
  exists ba ss, brun zero (bucket_arr_init zero sz, []) ops = Some (ba, ss) /\
    get_addr ba i = Some (i / sz, i mod sz) /\
    lookup_pointer ba (i / sz, i mod sz) = Some i /\
    (forall x ba' p, push zero ba x = Some (ba', p) -> p = (length l / sz, length l mod sz)).
Proof.
  intros A zero sz ops l saves i Hs H Hi.
  destruct (brun_spec zero ops (bucket_arr_init zero sz) [] [] [] Hs (init_rep zero sz) (Forall2_nil _) _ _ H)
    as (ba & ss & E & Es & R). simpl in Es.
  exists ba, ss. split; [exact E|].
  destruct (rep_get zero ba l i ltac:(lia) R) as (_ & Ha & _). specialize (Ha Hi). rewrite Es in Ha.
  split; [exact Ha|]. split.
  - unfold get_addr in Ha. unfold lookup_pointer. cbn [fst snd]. rewrite Es in *.
    destruct (nth_error (buckets ba) (i / sz)) as [b|]; [|discriminate].
    destruct (i mod sz <? blen b); [|discriminate]. f_equal.
    pose proof (Nat.div_mod i sz ltac:(lia)). lia.
  - intros x ba' p Hp. destruct (push_spec zero ba l x ltac:(lia) R) as (ba1 & b & o & E1 & _ & _ & Hl & Ho).
    rewrite E1 in Hp. inversion Hp; subst p. rewrite Es in *. f_equal.
    + symmetry. rewrite Hl. rewrite Nat.div_add_l by lia. rewrite Nat.div_small by lia. lia.
    + rewrite Hl, Nat.add_comm, Nat.mod_add by lia. symmetry. now apply Nat.mod_small.
Qed.
Print Assumptions C16_addresses_are_stable.

Example C16_witness :
  let ops := [BPush 1; BPush 2; BPush 3; BSave; BPush 4; BPush 5; BRestore 0; BPush 9] in
  bspec ([], []) ops = Some ([1; 2; 3; 9], [3]) /\
  (exists ba ss, brun 0 (bucket_arr_init 0 2, []) ops = Some (ba, ss) /\ map (get ba) [0; 1; 2; 3; 4] = [Some 1; Some 2; Some 3; Some 9; None]).
Proof. split; [vm_compute; reflexivity|]. do 2 eexists. split; vm_compute; reflexivity. Qed.

(** C16: for every history of multi-item pushes, every region stays inside one bucket, holds
    the pushed items followed by zeros after all later pushes, and shares no item with
    another region. *)
Theorem C16_regions : forall (A : Type) (zero : A) sz ops,
  Forall (fun dr => length (fst dr) <= snd dr < sz) ops ->
  exists ba regs, pushns zero (bucket_arr_init zero sz) ops = Some (ba, regs) /\
    map (fun g => let '(_, _, r, d) := g in (d, r)) regs = ops /\
    (forall b off r d, In (b, off, r, d) regs -> off + r <= sz /\
       forall i, i < r -> deref ba (b, off + i) = nth_error (d ++ repeat zero (r - length d)) i) /\
    (forall j k b1 o1 r1 d1 b2 o2 r2 d2 i1 i2, j <> k ->
       nth_error regs j = Some (b1, o1, r1, d1) -> nth_error regs k = Some (b2, o2, r2, d2) ->
       i1 < r1 -> i2 < r2 -> (b1, o1 + i1) <> (b2, o2 + i2)).
Proof.
  intros A zero sz ops H.
  destruct (pushns_spec zero ops (bucket_arr_init zero sz) (rep_winv _ _ _ (init_rep zero sz)) H)
    as (ba & regs & E & Es & Em & HR & _ & HD).
  exists ba, regs. split; [exact E|]. split; [exact Em|]. simpl in Es. split.
  - intros b off r d Hin. rewrite Forall_forall in HR. destruct (HR _ Hin) as [Q1 Q2]. rewrite Es in Q1.
    split; [assumption|]. intros i Hi. now apply Q2.
  - intros j k b1 o1 r1 d1 b2 o2 r2 d2 i1 i2 Hne E1 E2 H1 H2.
    destruct (Nat.lt_trichotomy j k) as [L|[L|L]].
    + apply (HD _ _ _ _ E1 E2 L); assumption.
    + contradiction.
    + apply not_eq_sym. apply (HD _ _ _ _ E2 E1 L); assumption.
Qed.
Print Assumptions C16_regions.

Example C16_regions_witness :
  match pushns 0 (bucket_arr_init 0 4) [([7], 2); ([1; 2; 3], 3); ([8], 1)] with
  | Some (_, regs) => map fst regs | None => [] end = [(0, 0, 2); (1, 0, 3); (1, 3, 1)].
Proof. vm_compute. reflexivity. Qed.

(** C16: clearing does not reset the array: after two buckets have been used, clearing and
    then pushing fails an assertion. *)
Theorem C16_clear_refuted : exists (ops : list (bop nat)) ba ss,
  brun 0 (bucket_arr_init 0 2, []) ops = Some (ba, ss) /\ forall x, push 0 (bclear ba) x = None.
Proof.
  exists [BPush 1; BPush 2; BPush 3]. do 2 eexists. split; [reflexivity|]. intros x. reflexivity.
Qed.
Print Assumptions C16_clear_refuted.
