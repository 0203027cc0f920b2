From Verif Require Import Base M_Deps S_Deps L_Sha.
From Coq Require Import NArith Lia ZArith.

(** ** Words *)
Lemma le4 v : le 4 v = word v.
Proof.
  unfold word. cbn [le]. rewrite !N.div_div by lia. reflexivity.
Qed.
Lemma asc_N n : (n < 256)%N -> N_of_ascii (ascii_of_N n) = n.
Proof. apply N_ascii_embedding. Qed.
Lemma unle_word v : unle (word v) = (v mod 2 ^ 32)%N.
Proof.
  unfold word. cbn [unle]. rewrite !asc_N by (apply N.mod_lt; lia).
  change (2 ^ 32)%N with (256 * (256 * (256 * 256)))%N.
  rewrite !N.mod_mul_r by lia. rewrite !N.div_div by lia. change (256 * 256)%N with 65536%N. change (65536 * 256)%N with 16777216%N. lia.
Qed.
Lemma word_len v : length (word v) = 4. Proof. reflexivity. Qed.
Lemma words_word v r : words (word v ++ r) = (v mod 2 ^ 32)%N :: words r.
Proof. rewrite <- unle_word. reflexivity. Qed.
Lemma fread_app n a r : N.to_nat n = length a -> (n <> 0)%N -> fread n (a ++ r) = Some (a, r).
Proof.
  intros H H0. unfold fread. destruct (N.eqb_spec n 0); [contradiction|].
  destruct (N.ltb_spec (N.of_nat (length (a ++ r))) n) as [L|L].
  - rewrite app_length in L. lia.
  - rewrite H, firstn_app, Nat.sub_diag, firstn_all, skipn_app, skipn_all, Nat.sub_diag. simpl. now rewrite app_nil_r.
Qed.
Lemma fread_short n l : length l < N.to_nat n -> fread n l = None.
Proof.
  intros H. unfold fread. destruct (N.eqb_spec n 0); [reflexivity|].
  destruct (N.ltb_spec (N.of_nat (length l)) n); [reflexivity|lia].
Qed.
Lemma fread_word v r : fread 4 (word v ++ r) = Some (word v, r).
Proof. apply fread_app; [reflexivity|lia]. Qed.

Lemma lxor_ones x : (x < 2 ^ 32)%N -> N.lxor x (2 ^ 32 - 1) = (4294967295 - x)%N.
Proof.
  intros H. change (2 ^ 32 - 1)%N with (N.ones 32). change (N.lxor x (N.ones 32)) with (N.lnot x 32).
  destruct (N.eq_dec x 0) as [->|N0]; [reflexivity|]. rewrite N.lnot_sub_low; [reflexivity|].
  apply N.log2_lt_pow2; lia.
Qed.
Lemma lor_high x : (x < 2 ^ 31)%N -> N.lor x HIGH = (2147483648 + x)%N.
Proof.
  intros H. assert (L : N.land x HIGH = 0%N).
  { apply N.bits_inj_0. intros i. rewrite N.land_spec. unfold HIGH. change 2147483648%N with (2 ^ 31)%N. rewrite N.pow2_bits_eqb.
    destruct (N.eqb_spec 31 i) as [E|]; [|apply Bool.andb_false_r]. subst i. rewrite Bool.andb_true_r.
    destruct (N.eq_dec x 0) as [->|]; [reflexivity|]. apply N.bits_above_log2. apply N.log2_lt_pow2; lia. }
  rewrite <- N.lxor_lor, <- N.add_nocarry_lxor by assumption. unfold HIGH. lia.
Qed.
Lemma bit31 x : (x < 2 ^ 31)%N -> N.testbit (2147483648 + x) 31 = true /\ N.testbit x 31 = false.
Proof.
  intros H. rewrite !N.testbit_eqb. change 2147483648%N with (1 * 2 ^ 31)%N.
  rewrite N.div_add_l by lia. rewrite N.div_small by assumption. split; reflexivity.
Qed.
Lemma low31 x : (x < 2 ^ 31)%N -> N.land (2147483648 + x) 2147483647 = x /\ N.land x 2147483647 = x.
Proof.
  intros H. change 2147483647%N with (N.ones 31). rewrite !N.land_ones. change 2147483648%N with (1 * 2 ^ 31)%N.
  rewrite N.add_comm, N.mod_add by lia. now rewrite N.mod_small.
Qed.
Lemma int64_split m : (- 2 ^ 63 <= m < 2 ^ 63)%Z ->
  let t := Z.to_N (m mod 18446744073709551616) in int64 (t mod 4294967296) (t / 4294967296) = m.
Proof.
  intros H t. unfold int64. change (2 ^ 32)%N with 4294967296%N.
  rewrite N.mul_comm, <- N.div_mod' by lia. unfold t.
  assert (0 <= m mod 18446744073709551616 < 18446744073709551616)%Z by (apply Z.mod_pos_bound; lia).
  rewrite Z2N.id by lia. destruct (Z.ltb_spec (m mod 18446744073709551616) (2 ^ 63)).
  - destruct (Z.leb_spec 0 m). { apply Z.mod_small. lia. }
    exfalso. rewrite <- (Z.mod_add _ 1) in H1 by lia. rewrite Z.mod_small in H1 by lia. lia.
  - destruct (Z.leb_spec 0 m). { exfalso. rewrite Z.mod_small in H1 by lia. lia. }
    rewrite <- (Z.mod_add _ 1) by lia. rewrite Z.mod_small by lia. lia.
Qed.
Lemma t_bound m : let t := Z.to_N (m mod 18446744073709551616) in
  (t mod 4294967296 < 2 ^ 32)%N /\ (t / 4294967296 < 2 ^ 32)%N.
Proof.
  intros t. split. { apply N.mod_lt. lia. }
  apply N.div_lt_upper_bound; [lia|]. unfold t.
  assert (0 <= m mod 18446744073709551616 < 18446744073709551616)%Z by (apply Z.mod_pos_bound; lia). lia.
Qed.

(** ** Loading one record *)
Lemma words_app a b : (exists q, length a = 4 * q) -> words (a ++ b) = words a ++ words b.
Proof.
  intros [q H]. revert a H. induction q; intros a H.
  - destruct a; [reflexivity|discriminate].
  - destruct a as [|x [|y [|z [|t a]]]]; simpl in H; try lia. cbn [app words]. f_equal. apply IHq. lia.
Qed.
Lemma words_length a q : length a = 4 * q -> length (words a) = q.
Proof.
  revert a. induction q; intros a H.
  - destruct a; [reflexivity|discriminate].
  - destruct a as [|x [|y [|z [|t a]]]]; simpl in H; try lia. cbn [words length]. f_equal. apply IHq. lia.
Qed.
Lemma strip_pad k a c : c <> NUL -> strip (rev ((a ++ [c]) ++ repeat NUL k)) = Some (a ++ [c]).
Proof.
  intros H. rewrite rev_app_distr. replace (rev (repeat NUL k)) with (repeat NUL k).
  2:{ induction k; [reflexivity|]. cbn [repeat rev]. rewrite <- IHk, <- repeat_cons. reflexivity. }
  induction k; cbn [repeat app].
  - rewrite rev_app_distr. cbn [rev app strip]. destruct (ceqb c NUL) eqn:E.
    + unfold ceqb in E. apply Ascii.eqb_eq in E. contradiction.
    + rewrite rev_involutive. reflexivity.
  - cbn [strip]. unfold ceqb. rewrite Ascii.eqb_refl. exact IHk.
Qed.
Definition pad (n : nat) : nat := (4 - n mod 4) mod 4.
Lemma pad_spec n : exists q, n + pad n = 4 * q /\ pad n < 4.
Proof.
  unfold pad. exists ((n + (4 - n mod 4) mod 4) / 4).
  assert (n mod 4 < 4) by (apply Nat.mod_upper_bound; lia).
  assert ((4 - n mod 4) mod 4 < 4) by (apply Nat.mod_upper_bound; lia). split; [|assumption].
  assert ((n + (4 - n mod 4) mod 4) mod 4 = 0).
  { rewrite Nat.add_mod_idemp_r by lia. rewrite (Nat.div_mod n 4) at 1 by lia.
    replace (4 * (n / 4) + n mod 4 + (4 - n mod 4)) with ((n / 4 + 1) * 4) by lia. apply Nat.mod_mul. lia. }
  rewrite (Nat.div_mod (n + (4 - n mod 4) mod 4) 4) at 1 by lia. lia.
Qed.

Lemma step_node f hd n p r es : good_path p -> (N.of_nat n < 2147483647)%N -> length es = n ->
  load_loop (S f) hd (encode1 n (NodeR p) ++ r) es = load_loop f hd r (es ++ [Entry p 0 []]).
Proof.
  intros [[a [c [Ep Hc]]] Hl] Hn He. unfold encode1. fold (pad (length p)). destruct (pad_spec (length p)) as [q [Hq Hp]].
  set (k := pad (length p)) in *. assert (Hq1 : 1 <= q). { subst p. rewrite app_length in Hq. simpl in Hq. lia. }
  unfold wordn. rewrite <- !app_assoc. cbn [load_loop]. rewrite fread_word. cbv zeta beta iota. rewrite unle_word.
  set (sz := N.of_nat (length p + k + 4)).
  assert (Hs : (sz < 2 ^ 31)%N) by (unfold sz; change (2 ^ 31)%N with 2147483648%N; lia).
  rewrite N.mod_small by lia. destruct (bit31 sz Hs) as [_ ->]. destruct (low31 sz Hs) as [_ ->].
  assert (M : (MAX_RECORD_SIZE <? sz)%N = false). { apply N.ltb_ge. unfold MAX_RECORD_SIZE, sz. lia. } rewrite M.
  replace (p ++ repeat NUL k ++ word (4294967295 - N.of_nat n) ++ r)
    with ((p ++ repeat NUL k ++ word (4294967295 - N.of_nat n)) ++ r) by (now rewrite <- !app_assoc).
  rewrite fread_app; [|rewrite !app_length, repeat_length, word_len; unfold sz; lia|unfold sz; lia].
  assert (M4 : (sz mod 4 =? 0)%N = true).
  { apply N.eqb_eq. unfold sz. rewrite Hq. replace (N.of_nat (4 * q + 4)) with (N.of_nat (q + 1) * 4)%N by lia. apply N.mod_mul. lia. }
  rewrite M4. cbn [negb]. unfold load_node.
  replace (length (p ++ repeat NUL k ++ word (4294967295 - N.of_nat n))) with (4 * q + 4)
    by (rewrite !app_length, repeat_length, word_len; lia).
  destruct (Nat.leb_spec (4 * q + 4) 4); [lia|].
  rewrite app_assoc. rewrite words_app by (exists q; rewrite app_length, repeat_length; lia).
  replace ((4 * q + 4) / 4 - 1) with q.
  2:{ replace (4 * q + 4) with ((q + 1) * 4) by lia. rewrite Nat.div_mul; lia. }
  rewrite app_nth2; rewrite (words_length _ q) by (rewrite app_length, repeat_length; lia); [|lia].
  rewrite Nat.sub_diag. rewrite <- (app_nil_r (word _)), words_word. cbn [nth].
  rewrite N.mod_small by (change (2 ^ 32)%N with 4294967296%N; lia).
  rewrite lxor_ones by (change (2 ^ 32)%N with 4294967296%N; lia). rewrite He.
  replace (N.of_nat n =? 4294967295 - (4294967295 - N.of_nat n))%N with true by (symmetry; apply N.eqb_eq; lia).
  cbn [negb]. replace (N.of_nat n =? INT32_MAX)%N with false by (symmetry; apply N.eqb_neq; unfold INT32_MAX; lia).
  rewrite app_nil_r. rewrite firstn_app.
  replace (4 * q + 4 - 4 - length (p ++ repeat NUL k)) with 0 by (rewrite app_length, repeat_length; lia).
  rewrite firstn_all2 by (rewrite app_length, repeat_length; lia). cbn [firstn]. rewrite app_nil_r.
  rewrite Ep, strip_pad by assumption. reflexivity.
Qed.

Definition apply_dep (hd : bytes -> bool) (es : list entry) (id : nat) (m : Z) (ids : list nat) : list entry :=
  let e := nth id es (Entry [] 0 []) in
  if hd (node e) then upd id (Entry (node e) m (map (fun i => nth i (map node es) []) ids)) es
  else upd id (Entry (node e) m (deps e)) es.
Lemma map_node_upd id e es : node e = node (nth id es (Entry [] 0 [])) -> map node (upd id e es) = map node es.
Proof.
  revert id. induction es; intros [|id] H; simpl in *; [reflexivity| |congruence|f_equal; auto]. reflexivity.
Qed.
Lemma upd_upd {A} i (x y : A) l : upd i x (upd i y l) = upd i x l.
Proof. revert i. induction l; intros [|i]; simpl; f_equal; auto. Qed.
Lemma resolve_ok es ids : Forall (fun i => i < length es) ids ->
  resolve es (map N.of_nat ids) = Some (map (fun i => nth i (map node es) []) ids).
Proof.
  induction 1 as [|i ids Hi _ IH]; [reflexivity|]. cbn [map resolve]. rewrite Nat2N.id, IH.
  destruct (nth_error es i) eqn:E. 2:{ apply nth_error_None in E. lia. }
  f_equal. f_equal. symmetry. apply nth_error_nth. now apply map_nth_error.
Qed.
Lemma words_flat ids : Forall (fun i => (N.of_nat i < 2 ^ 32)%N) ids -> words (flat_map wordn ids) = map N.of_nat ids.
Proof.
  induction 1 as [|i ids Hi _ IH]; [reflexivity|]. cbn [flat_map map]. unfold wordn at 1. rewrite words_word, IH, N.mod_small by assumption. reflexivity.
Qed.
Lemma flat_wordn_len ids : length (flat_map wordn ids) = 4 * length ids.
Proof. induction ids; [reflexivity|]. cbn [flat_map]. rewrite app_length, IHids. unfold wordn. rewrite word_len. simpl length. lia. Qed.
Lemma encode_dep_len n id m ids : length (encode1 n (DepR id m ids)) = 16 + 4 * length ids.
Proof. unfold encode1, wordn. rewrite !app_length, !word_len. fold wordn. rewrite flat_wordn_len. lia. Qed.

Lemma step_dep f hd n id m ids r es : id < n -> Forall (fun i => i < n) ids -> (- 2 ^ 63 <= m < 2 ^ 63)%Z ->
  (N.of_nat (length ids) < 131068)%N -> (N.of_nat n <= 2147483647)%N -> length es = n ->
  load_loop (S f) hd (encode1 n (DepR id m ids) ++ r) es = load_loop f hd r (apply_dep hd es id m ids).
Proof.
  intros Hid Hids Hm Hl Hn He. unfold encode1.
  set (t := Z.to_N (m mod 18446744073709551616)). destruct (t_bound m) as [T1 T2]. fold t in T1, T2.
  rewrite <- !app_assoc. cbn [load_loop]. rewrite fread_word. cbv zeta beta iota. rewrite unle_word.
  set (sz := (12 + 4 * N.of_nat (length ids))%N).
  assert (Hs : (sz < 2 ^ 31)%N) by (unfold sz; change (2 ^ 31)%N with 2147483648%N; lia).
  replace (2147483648 + 12 + 4 * N.of_nat (length ids))%N with (2147483648 + sz)%N by (unfold sz; lia).
  rewrite N.mod_small by (change (2 ^ 32)%N with 4294967296%N; change (2 ^ 31)%N with 2147483648%N in Hs; lia).
  destruct (bit31 sz Hs) as [-> _]. destruct (low31 sz Hs) as [-> _].
  assert (M : (MAX_RECORD_SIZE <? sz)%N = false). { apply N.ltb_ge. unfold MAX_RECORD_SIZE, sz. lia. } rewrite M.
  replace (wordn id ++ word (t mod 4294967296) ++ word (t / 4294967296) ++ flat_map wordn ids ++ r)
    with ((wordn id ++ word (t mod 4294967296) ++ word (t / 4294967296) ++ flat_map wordn ids) ++ r) by (now rewrite <- !app_assoc).
  rewrite fread_app; [|rewrite !app_length, flat_wordn_len; unfold wordn; rewrite !word_len; unfold sz; lia|unfold sz; lia].
  assert (M4 : (sz mod 4 =? 0)%N = true).
  { apply N.eqb_eq. unfold sz. replace (12 + 4 * N.of_nat (length ids))%N with ((3 + N.of_nat (length ids)) * 4)%N by lia. apply N.mod_mul. lia. }
  rewrite M4. cbn [negb].
  assert (B32 : forall i, i < n -> (N.of_nat i < 2 ^ 32)%N) by (intros; change (2 ^ 32)%N with 4294967296%N; lia).
  unfold wordn at 1. rewrite !words_word, words_flat by (eapply Forall_impl; [|exact Hids]; auto).
  rewrite (N.mod_small (N.of_nat id)), (N.mod_small (t mod _)), (N.mod_small (t / _)) by auto.
  unfold load_dep. rewrite Nat2N.id. unfold t. rewrite int64_split by assumption. clear t T1 T2.
  destruct (nth_error es id) as [e|] eqn:E. 2:{ apply nth_error_None in E. lia. }
  unfold apply_dep. rewrite (nth_error_nth _ _ _ E). cbn [node mtime deps].
  destruct (hd (node e)); cbn [negb]; [|reflexivity].
  set (es1 := upd id (Entry (node e) m (deps e)) es).
  assert (Mn : map node es1 = map node es). { apply map_node_upd. now rewrite (nth_error_nth _ _ _ E). }
  rewrite resolve_ok. 2:{ rewrite <- (map_length node es1), Mn, map_length, He. exact Hids. }
  rewrite Mn. unfold es1. now rewrite upd_upd.
Qed.

(** ** Loading a log that was cut *)
Lemma step_cut f hd n r k es : good n [r] -> k < length (encode1 n r) -> load_loop (S f) hd (firstn k (encode1 n r)) es = Ok es.
Proof.
  intros G Hk. destruct (Nat.leb_spec 4 k) as [L|L].
  2:{ cbn [load_loop]. rewrite fread_short; [reflexivity|]. rewrite firstn_length. change (N.to_nat 4) with 4. lia. }
  assert (D : exists v rest, encode1 n r = word v ++ rest /\
               (v mod 2 ^ 32 = v)%N /\ N.to_nat (N.land v 2147483647) = length rest).
  { destruct r as [p|id m ids]; cbn [good] in G.
    - destruct G as [[_ Hl] _]. unfold encode1. fold (pad (length p)). destruct (pad_spec (length p)) as [q [Hq Hp]].
      unfold wordn. do 2 eexists. split; [reflexivity|].
      assert (Hs : (N.of_nat (length p + pad (length p) + 4) < 2 ^ 31)%N) by (change (2 ^ 31)%N with 2147483648%N; lia).
      split; [apply N.mod_small; change (2 ^ 31)%N with 2147483648%N in Hs; change (2 ^ 32)%N with 4294967296%N; lia|].
      destruct (low31 _ Hs) as [_ ->]. rewrite !app_length, repeat_length, word_len. lia.
    - destruct G as (_ & _ & _ & Hl & _). unfold encode1. do 2 eexists. split; [reflexivity|].
      assert (Hs : (12 + 4 * N.of_nat (length ids) < 2 ^ 31)%N) by (change (2 ^ 31)%N with 2147483648%N; lia).
      split; [apply N.mod_small; change (2 ^ 32)%N with 4294967296%N; lia|].
      replace (2147483648 + 12 + 4 * N.of_nat (length ids))%N with (2147483648 + (12 + 4 * N.of_nat (length ids)))%N by lia.
      destruct (low31 _ Hs) as [-> _]. rewrite !app_length, flat_wordn_len. unfold wordn. rewrite !word_len. lia. }
  destruct D as (v & rest & E & Hv & Hr). rewrite E in *. rewrite app_length, word_len in Hk.
  rewrite firstn_app, word_len, (firstn_all2 (word v)) by (rewrite word_len; lia). cbn [load_loop]. rewrite fread_word. cbv zeta beta iota.
  rewrite unle_word, Hv. destruct (MAX_RECORD_SIZE <? _)%N; [reflexivity|].
  rewrite fread_short; [reflexivity|]. rewrite Hr, firstn_length. lia.
Qed.
Definition apply (hd : bytes -> bool) (es : list entry) (r : record) : list entry :=
  match r with NodeR p => es ++ [Entry p 0 []] | DepR id m ids => apply_dep hd es id m ids end.
Lemma upd_length {A} i (x : A) l : length (upd i x l) = length l.
Proof. revert i. induction l; intros [|i]; simpl; auto. Qed.
Lemma apply_length hd es r n : length es = n -> length (apply hd es r) = count n r.
Proof.
  intros H. destruct r; cbn [apply count].
  - rewrite app_length. simpl. lia.
  - unfold apply_dep. destruct (hd _); rewrite upd_length; exact H.
Qed.
Lemma encode1_len n r : 4 <= length (encode1 n r).
Proof. destruct r; [|rewrite encode_dep_len; lia]. unfold encode1, wordn. rewrite app_length, word_len. lia. Qed.
Lemma good_cons n r rs : good n (r :: rs) -> good n [r] /\ good (count n r) rs.
Proof. destruct r; cbn [good count]; tauto. Qed.
Lemma load_cut hd rs : forall n k f es, good n rs -> (N.of_nat n <= 2147483647)%N -> length es = n -> length (firstn k (encode n rs)) < f ->
  load_loop f hd (firstn k (encode n rs)) es = Ok (fold_left (apply hd) (complete n k rs) es).
Proof.
  induction rs as [|r rs IH]; intros n k f es G Hn He Hf; cbn [encode complete].
  - cbn [encode] in Hf. rewrite firstn_nil in *. destruct f; [simpl in Hf; lia|]. reflexivity.
  - cbn [encode] in Hf. destruct (good_cons _ _ _ G) as [G1 G2]. destruct f; [lia|]. pose proof (encode1_len n r).
    destruct (Nat.leb_spec (length (encode1 n r)) k) as [L|L].
    + rewrite firstn_app, (firstn_all2 (encode1 n r)) in * by assumption.
      assert (Hn' : (N.of_nat (count n r) <= 2147483647)%N). { destruct r; cbn [count good] in *; lia. }
      transitivity (load_loop f hd (firstn (k - length (encode1 n r)) (encode (count n r) rs)) (apply hd es r)).
      * destruct r; cbn [good] in G; cbn [apply].
        -- now apply step_node.
        -- apply step_dep; tauto.
      * cbn [fold_left]. apply IH; auto. { now apply apply_length. } rewrite app_length in Hf. lia.
    + rewrite firstn_app. replace (k - length (encode1 n r)) with 0 by lia. cbn [firstn]. rewrite app_nil_r. cbn [fold_left]. now apply step_cut.
Qed.
Lemma header_len : length header = 16. Proof. reflexivity. Qed.
Lemma starts_app a b : starts_with a (a ++ b) = true.
Proof. induction a; [reflexivity|]. simpl. unfold ceqb. rewrite Ascii.eqb_refl. exact IHa. Qed.
Lemma load_log hd rs k : good 0 rs -> load hd (firstn k (log_of rs)) = Ok (fold_left (apply hd) (complete_in k rs) []).
Proof.
  intros G. unfold log_of, complete_in. unfold load. destruct (Nat.leb_spec 16 k) as [L|L].
  - rewrite firstn_app, header_len, (firstn_all2 header) by (rewrite header_len; lia).
    change (header ++ firstn (k - 16) (encode 0 rs)) with (depsheader ++ (word 4 ++ firstn (k - 16) (encode 0 rs))).
    rewrite starts_app. cbn [negb]. change (skipn 12 (depsheader ++ ?x)) with x. rewrite fread_word, unle_word. cbn [negb].
    change (4 mod 2 ^ 32 =? depsver)%N with true. cbn [negb]. apply load_cut; auto; simpl; lia.
  - assert (C : complete 0 (k - 16) rs = []). { replace (k - 16) with 0 by lia. destruct rs as [|r rs]; [reflexivity|]. cbn [complete].
      pose proof (encode1_len 0 r). destruct (Nat.leb_spec (length (encode1 0 r)) 0); [lia|reflexivity]. }
    rewrite C. cbn [fold_left]. rewrite firstn_app, header_len. replace (k - 16) with 0 by lia. cbn [firstn]. rewrite app_nil_r.
    do 16 (destruct k as [|k]; [reflexivity|]). lia.
Qed.

(** ** What the loaded entries are *)
Lemma paths_app a b : paths (a ++ b) = paths a ++ paths b.
Proof. unfold paths. apply flat_map_app. Qed.
Lemma good_app n a b : good n (a ++ b) <-> good n a /\ good (n + length (paths a)) b.
Proof.
  revert n. induction a as [|[p|id m ids] a IH]; intros n; cbn [app good].
  - change (paths []) with (@nil bytes). cbn [length]. rewrite Nat.add_0_r. tauto.
  - rewrite IH. change (paths (NodeR p :: a)) with (p :: paths a). cbn [length].
    replace (S n + length (paths a)) with (n + S (length (paths a))) by lia. tauto.
  - rewrite IH. change (paths (DepR id m ids :: a)) with (paths a). tauto.
Qed.
Lemma good_nodes n rs : good n rs -> (N.of_nat n <= 2147483647)%N -> (N.of_nat (n + length (paths rs)) <= 2147483647)%N.
Proof.
  revert n. induction rs as [|[p|id m ids] rs IH]; intros n G H.
  - simpl. lia.
  - cbn [good] in G. change (paths (NodeR p :: rs)) with (p :: paths rs). cbn [length].
    replace (n + S (length (paths rs))) with (S n + length (paths rs)) by lia. apply IH; [tauto|lia].
  - cbn [good] in G. apply IH; tauto.
Qed.
Lemma latest_app ps a b p acc : latest ps (a ++ b) p acc = latest ps b p (latest ps a p acc).
Proof. revert acc. induction a as [|[q|id m ids] a IH]; intros acc; cbn [app latest]; auto. Qed.
Lemma latest_ext ps x rs p : forall n acc, good n rs -> n + length (paths rs) <= length ps ->
  latest (ps ++ x) rs p acc = latest ps rs p acc.
Proof.
  induction rs as [|[q|id m ids] rs IH]; intros n acc G L; cbn [latest]; [reflexivity| |].
  - cbn [good] in G. apply (IH (S n)); [tauto|]. change (paths (NodeR q :: rs)) with (q :: paths rs) in L. cbn [length] in L. lia.
  - cbn [good] in G. destruct G as (G1 & G2 & _ & _ & G3). change (paths (DepR id m ids :: rs)) with (paths rs) in L.
    rewrite app_nth1 by lia. rewrite (IH n) by assumption. f_equal.
    destruct (beqb (nth id ps []) p); [|reflexivity]. f_equal. f_equal. apply map_ext_in. intros i Hi.
    rewrite Forall_forall in G2. apply app_nth1. specialize (G2 i Hi). lia.
Qed.
Lemma latest_notin ps rs p : forall n acc, ~ In p ps -> good n rs -> n + length (paths rs) <= length ps -> latest ps rs p acc = acc.
Proof.
  induction rs as [|[q|id m ids] rs IH]; intros n acc N G L; cbn [latest]; [reflexivity| |]; cbn [good] in G.
  - apply (IH (S n)); [assumption|tauto|]. change (paths (NodeR q :: rs)) with (q :: paths rs) in L. cbn [length] in L. lia.
  - destruct G as (G1 & G2 & _ & _ & G3). change (paths (DepR id m ids :: rs)) with (paths rs) in L.
    destruct (beqb_spec (nth id ps []) p) as [E|E].
    + exfalso. apply N. rewrite <- E. apply nth_In. lia.
    + now apply (IH n).
Qed.
Definition E (hd : bytes -> bool) (ps : list bytes) (rs : list record) (p : bytes) : entry :=
  match latest ps rs p None with
  | None => Entry p 0 []
  | Some (m, ds) => Entry p m (if hd p then ds else [])
  end.
Lemma node_E hd ps rs p : node (E hd ps rs p) = p.
Proof. unfold E. now destruct (latest ps rs p None) as [[m ds]|]. Qed.
Lemma upd_map {A C} (f g : A -> C) (d : A) x l : forall i, NoDup l -> i < length l -> g (nth i l d) = x ->
  (forall a, In a l -> a <> nth i l d -> g a = f a) -> upd i x (map f l) = map g l.
Proof.
  induction l as [|a l IH]; intros i N L G H; simpl in L; [lia|]. inversion N as [|? ? N1 N2]; subst. destruct i; cbn [map upd nth].
  - f_equal. apply map_ext_in. intros b Hb. symmetry. apply H; [now right|]. cbn [nth]. intros ->. contradiction.
  - f_equal.
    + symmetry. apply H; [now left|]. cbn [nth]. intros ->. apply N1. apply nth_In. lia.
    + apply IH; auto; [lia|]. intros b Hb. apply H. now right.
Qed.
Lemma loaded hd rs : good 0 rs -> NoDup (paths rs) -> fold_left (apply hd) rs [] = map (E hd (paths rs) rs) (paths rs).
Proof.
  induction rs as [|r rs IH] using rev_ind; intros G N; [reflexivity|].
  rewrite good_app in G. destruct G as [G1 G2]. rewrite paths_app in *. rewrite fold_left_app. cbn [fold_left].
  assert (N' : NoDup (paths rs)). { destruct r; [|now rewrite app_nil_r in N]. apply NoDup_remove_1 in N. now rewrite app_nil_r in N. }
  rewrite IH by assumption. destruct r as [p|id m ids]; cbn [apply].
  - change (paths [NodeR p]) with [p] in *. rewrite map_app. cbn [map]. f_equal.
    + apply map_ext. intros q. unfold E. rewrite latest_app, (latest_ext _ _ rs _ 0) by (simpl; auto). reflexivity.
    + f_equal. unfold E. rewrite latest_app, (latest_ext _ _ rs _ 0) by (simpl; auto). cbn [latest].
      rewrite (latest_notin _ _ _ 0); auto. apply NoDup_remove_2 in N. now rewrite app_nil_r in N.
  - change (paths [DepR id m ids]) with (@nil bytes) in *. rewrite app_nil_r in *. cbn [good] in G2. simpl plus in G2.
    set (ps := paths rs) in *. destruct G2 as (Hid & Hids & _). unfold apply_dep.
    assert (Q : nth id (map (E hd ps rs) ps) (Entry [] 0 []) = E hd ps rs (nth id ps [])).
    { rewrite (nth_indep _ _ (E hd ps rs [])) by (now rewrite map_length). apply map_nth. }
    rewrite Q, node_E. rewrite map_map, (map_ext _ (fun x => x)) by (intros; apply node_E). rewrite map_id.
    assert (L : forall q, latest ps (rs ++ [DepR id m ids]) q None =
                  if beqb (nth id ps []) q then Some (m, map (fun i => nth i ps []) ids) else latest ps rs q None).
    { intros q. rewrite latest_app. reflexivity. }
    assert (O : forall q, In q ps -> q <> nth id ps [] -> E hd ps (rs ++ [DepR id m ids]) q = E hd ps rs q).
    { intros q _ Hq. unfold E. rewrite L. destruct (beqb_spec (nth id ps []) q); [congruence|reflexivity]. }
    assert (S0 : E hd ps (rs ++ [DepR id m ids]) (nth id ps []) =
                  Entry (nth id ps []) m (if hd (nth id ps []) then map (fun i => nth i ps []) ids else [])).
    { unfold E. rewrite L. destruct (beqb_spec (nth id ps []) (nth id ps [])); [reflexivity|congruence]. }
    destruct (hd (nth id ps [])) eqn:H; apply upd_map with (d := []); auto.
    rewrite S0. f_equal. unfold E. destruct (latest ps rs (nth id ps []) None) as [[m' ds']|]; [now rewrite H|reflexivity].
Qed.
Lemma complete_prefix rs : forall n k, exists tl, rs = complete n k rs ++ tl.
Proof.
  induction rs as [|r rs IH]; intros n k; cbn [complete]. { now exists []. }
  destruct (_ <=? k); [|now exists (r :: rs)]. destruct (IH (count n r) (k - length (encode1 n r))) as [tl E0]. exists tl. cbn [app]. now rewrite <- E0.
Qed.
Lemma NoDup_app_l {A} (a b : list A) : NoDup (a ++ b) -> NoDup a.
Proof.
  induction a as [|x a IH]; intros H; [constructor|]. inversion H; subst. constructor; auto. intros Hx. apply H2. apply in_or_app. now left.
Qed.
Lemma NoDup_app_intro2 {A} (a : list A) x : NoDup a -> ~ In x a -> NoDup (a ++ [x]).
Proof.
  induction a as [|y a IH]; intros H N; [constructor; [easy|constructor]|]. inversion H; subst. cbn. constructor.
  - intros I. apply in_app_or in I. destruct I as [I|[I|[]]]; [contradiction|]. subst. apply N. now left.
  - apply IH; auto. intros I. apply N. now right.
Qed.
Lemma well_formed_cut k rs : well_formed rs -> well_formed (complete_in k rs).
Proof.
  intros [G N]. destruct (complete_prefix rs 0 (k - 16)) as [tl H]. unfold complete_in. rewrite H in G, N.
  apply good_app in G. rewrite paths_app in N. split; [tauto|]. eapply NoDup_app_l, N.
Qed.

(** ** Writing *)
Definition WI (w : writer) (rs : list record) : Prop :=
  out w = log_of rs /\ order w = paths rs /\ good 0 rs /\ NoDup (paths rs).
Definition ends_well (p : bytes) : Prop := exists a c, p = a ++ [c] /\ c <> NUL.
Lemma encode_app n a b : encode n (a ++ b) = encode n a ++ encode (n + length (paths a)) b.
Proof.
  revert n. induction a as [|[p|id m ids] a IH]; intros n; cbn [app encode].
  - change (paths []) with (@nil bytes). cbn [length]. now rewrite Nat.add_0_r.
  - rewrite IH, app_assoc. cbn [count]. change (paths (NodeR p :: a)) with (p :: paths a). cbn [length].
    now replace (S n + length (paths a)) with (n + S (length (paths a))) by lia.
  - rewrite IH, app_assoc. reflexivity.
Qed.
Lemma log_app a r : log_of (a ++ [r]) = log_of a ++ encode1 (length (paths a)) r.
Proof. unfold log_of. rewrite encode_app. cbn [encode]. rewrite app_nil_r, app_assoc. reflexivity. Qed.
Lemma id_of_some p l i : id_of p l = Some i -> i < length l /\ nth i l [] = p.
Proof.
  revert i. induction l as [|q l IH]; intros i H; [discriminate|]. cbn [id_of] in H.
  destruct (beqb_spec p q) as [e|e]. { inversion H; subst. cbn. split; [lia|reflexivity]. }
  destruct (id_of p l) as [j|]; [|discriminate]. inversion H; subst. destruct (IH j eq_refl). cbn. split; [lia|assumption].
Qed.
Lemma id_of_none p l : id_of p l = None <-> ~ In p l.
Proof.
  induction l as [|q l IH]; cbn [id_of In]. { tauto. }
  destruct (beqb_spec p q) as [e|e]. { split; [discriminate|]. intros H. exfalso. apply H. left. congruence. }
  destruct (id_of p l) as [j|]. { split; [discriminate|]. intros H. exfalso. assert (N : ~ In p l) by tauto. apply IH in N. discriminate. }
  split; [|reflexivity]. intros _ [H|H]; [congruence|]. now apply IH.
Qed.
Lemma id_of_in p l : In p l -> exists i, id_of p l = Some i.
Proof. intros H. destruct (id_of p l) as [i|] eqn:F; [now exists i|]. apply id_of_none in F. contradiction. Qed.
Lemma id_of_app p l x i : id_of p l = Some i -> id_of p (l ++ x) = Some i.
Proof.
  revert i. induction l as [|q l IH]; intros i H; [discriminate|]. cbn [id_of app] in *.
  destruct (beqb p q); [assumption|]. destruct (id_of p l) as [j|]; [|discriminate]. now rewrite (IH j eq_refl).
Qed.
Lemma recorded_node rs p : good 0 (rs ++ [NodeR p]) -> forall q, recorded (rs ++ [NodeR p]) q = recorded rs q.
Proof.
  intros G q. apply good_app in G. unfold recorded. rewrite paths_app, latest_app. cbn [latest].
  apply (latest_ext _ _ _ _ 0); [tauto|simpl; lia].
Qed.
Lemma recorded_dep rs id m ids q : recorded (rs ++ [DepR id m ids]) q =
  if beqb (nth id (paths rs) []) q then Some (m, map (fun i => nth i (paths rs) []) ids) else recorded rs q.
Proof.
  unfold recorded. rewrite paths_app. change (paths [DepR id m ids]) with (@nil bytes). rewrite app_nil_r, latest_app. reflexivity.
Qed.
Lemma pad_div n : (4 * ((N.of_nat n + 7) / 4))%N = N.of_nat (n + pad n + 4).
Proof.
  destruct (pad_spec n) as [q [Hq Hp]]. rewrite Hq.
  assert (D : ((N.of_nat n + 7) / 4 = N.of_nat (q + 1))%N).
  { symmetry. apply (N.div_unique _ 4 _ (N.of_nat n + 7 - 4 * N.of_nat (q + 1))); lia. }
  rewrite D. lia.
Qed.

Lemma recordid_ok w rs p w' b : WI w rs -> ends_well p -> recordid p w = Ok (w', b) ->
  exists rs', WI w' rs' /\ tbl w' = tbl w /\ (forall q, recorded rs' q = recorded rs q) /\
    (if b then ~ In p (order w) /\ order w' = order w ++ [p] else In p (order w) /\ w' = w).
Proof.
  intros (Ho & Hd & G & N) Hp H. unfold recordid in H. destruct (id_of p (order w)) as [i|] eqn:F.
  - inversion H; subst. exists rs. refine (conj _ (conj eq_refl (conj (fun _ => eq_refl) _))); [now repeat split|].
    split; [|reflexivity]. destruct (in_dec (list_eq_dec Ascii.ascii_dec) p (order w')) as [I|I]; [exact I|]. apply id_of_none in I. congruence.
  - apply id_of_none in F. destruct (N.eqb_spec (N.of_nat (length (order w))) INT32_MAX) as [Z|Z]; [discriminate|].
    rewrite pad_div in H. destruct (N.leb_spec MAX_RECORD_SIZE (N.of_nat (length p + pad (length p) + 4) + 4)) as [Z1|Z1]; [discriminate|].
    rewrite !le4 in H. injection H as <- <-. unfold MAX_RECORD_SIZE in Z1. unfold INT32_MAX in Z. rewrite Hd in *.
    pose proof (good_nodes 0 rs G ltac:(lia)) as B. cbn [plus] in B. destruct (pad_spec (length p)) as [q [Hq Hq1]].
    assert (G' : good 0 (rs ++ [NodeR p])). { apply good_app. split; [assumption|]. cbn [good plus]. repeat split; try lia. exact Hp. }
    exists (rs ++ [NodeR p]). refine (conj _ (conj eq_refl (conj (recorded_node _ _ G') (conj F eq_refl)))).
    repeat split; cbn [out order].
    + rewrite log_app, Ho. unfold encode1. fold (pad (length p)). unfold wordn.
      replace (N.to_nat (N.of_nat (length p + pad (length p) + 4) - N.of_nat (length p) - 4)) with (pad (length p)) by lia.
      rewrite lxor_ones by (change (2 ^ 32)%N with 4294967296%N; lia). reflexivity.
    + now rewrite paths_app.
    + exact G'.
    + rewrite paths_app. apply NoDup_app_intro2; assumption.
Qed.
Lemma recordid_total w rs p : WI w rs -> good_path p -> (In p (order w) \/ N.of_nat (length (order w)) < 2147483647)%N -> exists r, recordid p w = Ok r.
Proof.
  intros _ [_ Hl] H. unfold recordid. destruct (id_of p (order w)) as [i|] eqn:F; [eauto|]. apply id_of_none in F. destruct H as [H|H]; [contradiction|].
  destruct (N.eqb_spec (N.of_nat (length (order w))) INT32_MAX) as [Z|Z]; [unfold INT32_MAX in Z; lia|].
  rewrite pad_div. destruct (pad_spec (length p)) as [q [Hq Hq1]].
  destruct (N.leb_spec MAX_RECORD_SIZE (N.of_nat (length p + pad (length p) + 4) + 4)) as [Z1|Z1]; [unfold MAX_RECORD_SIZE in Z1; lia|]. eauto.
Qed.

Lemma Ok_inj {A} (a b : A) : Ok a = Ok b -> a = b.
Proof. now intros [= ->]. Qed.
Lemma recorddeps_ok w rs p ds m w' : WI w rs -> In p (order w) -> incl ds (order w) -> (- 2 ^ 63 <= m < 2 ^ 63)%Z ->
  recorddeps p ds m w = Ok w' ->
  exists rs', WI w' rs' /\ tbl w' = tbl w /\ order w' = order w /\
    (forall q, recorded rs' q = if beqb p q then Some (m, ds) else recorded rs q).
Proof.
  intros (Ho & Hd & G & N) Hp Hds Hm H. unfold recorddeps in H.
  destruct (N.leb_spec MAX_RECORD_SIZE (12 + 4 * N.of_nat (length ds) + 4)) as [Z|Z]; [discriminate|].
  unfold MAX_RECORD_SIZE in Z. pose proof (good_nodes 0 rs G ltac:(lia)) as B. cbn [plus] in B.
  set (idx q := match id_of q (order w) with Some i => i | None => 0 end).
  assert (I : forall q, In q (order w) -> idx q < length (paths rs) /\ nth (idx q) (paths rs) [] = q /\
               match id_of q (order w) with Some i => N.of_nat i | None => (2 ^ 32 - 1)%N end = N.of_nat (idx q)).
  { intros q Hq. unfold idx. destruct (id_of_in _ _ Hq) as [i Hi]. rewrite Hi. apply id_of_some in Hi. rewrite Hd in Hi. tauto. }
  cbv zeta in H. apply Ok_inj in H. rewrite !le4 in H. subst w'.
  set (t := Z.to_N (m mod 2 ^ 64)).
  assert (G' : good 0 (rs ++ [DepR (idx p) m (map idx ds)])).
  { apply good_app. split; [assumption|]. cbn [good plus]. repeat split; try lia.
    - now apply I.
    - apply Forall_forall. intros i Hi. apply in_map_iff in Hi. destruct Hi as (q & <- & Hq). apply I. auto.
    - rewrite map_length. lia. }
  exists (rs ++ [DepR (idx p) m (map idx ds)]).
  refine (conj _ (conj eq_refl (conj eq_refl _))).
  - repeat split; cbn [out order].
    + rewrite log_app, Ho. unfold encode1. rewrite map_length, lor_high by (change (2 ^ 31)%N with 2147483648%N; lia).
      change (m mod 18446744073709551616)%Z with (m mod 2 ^ 64)%Z. fold t.
      change (2 ^ 32 - 1)%N with (N.ones 32). rewrite N.land_ones, N.shiftr_div_pow2. change (2 ^ 32)%N with 4294967296%N.
      replace (2147483648 + 12 + 4 * N.of_nat (length ds))%N with (2147483648 + (12 + 4 * N.of_nat (length ds)))%N by lia.
      f_equal. f_equal. f_equal.
      { unfold wordn. f_equal. destruct (I p Hp) as (_ & _ & <-). reflexivity. }
      do 2 f_equal. clear Hp G' Z. induction ds as [|q ds IH]; [reflexivity|]. cbn [flat_map map]. rewrite IH by (intros x Hx; apply Hds; now right).
      f_equal. rewrite le4. unfold wordn. f_equal. destruct (I q) as (_ & _ & <-); [apply Hds; now left|]. reflexivity.
    + now rewrite paths_app, app_nil_r.
    + exact G'.
    + rewrite paths_app. change (paths [DepR (idx p) m (map idx ds)]) with (@nil bytes). now rewrite app_nil_r.
  - intros q. rewrite recorded_dep. destruct (I p Hp) as (_ & -> & _). destruct (beqb p q); [|reflexivity]. f_equal. f_equal.
    rewrite map_map. rewrite <- (map_id ds) at 2. apply map_ext_in. intros x Hx. apply I. auto.
Qed.
Lemma recorddeps_total w p ds m : (N.of_nat (length ds) < 131068)%N -> exists w', recorddeps p ds m w = Ok w'.
Proof.
  intros H. unfold recorddeps. destruct (N.leb_spec MAX_RECORD_SIZE (12 + 4 * N.of_nat (length ds) + 4)) as [Z|Z]; [unfold MAX_RECORD_SIZE in Z; lia|]. eauto.
Qed.
Lemma recordids_ok ps : forall w rs any w' b, WI w rs -> Forall ends_well ps -> recordids ps w any = Ok (w', b) ->
  exists rs' new, WI w' rs' /\ tbl w' = tbl w /\ (forall q, recorded rs' q = recorded rs q) /\
    order w' = order w ++ new /\ incl new ps /\ incl ps (order w') /\ b = any || negb (length new =? 0).
Proof.
  induction ps as [|p ps IH]; intros w rs any w' b I Hp H; cbn [recordids] in H.
  - inversion H; subst. exists rs, []. rewrite app_nil_r, Bool.orb_false_r. repeat split; auto; try apply I; easy.
  - inversion Hp as [|? ? P1 P2]; subst. destruct (recordid p w) as [[w1 r]| |] eqn:R; try discriminate. cbn [bind] in H.
    destruct (recordid_ok _ _ _ _ _ I P1 R) as (rs1 & I1 & T1 & Q1 & O1).
    destruct (IH _ _ _ _ _ I1 P2 H) as (rs2 & new & I2 & T2 & Q2 & O2 & N2 & M2 & B2).
    exists rs2. destruct r.
    + exists (p :: new). destruct O1 as [_ O1]. rewrite O1, <- app_assoc in O2. refine (conj I2 (conj _ (conj _ (conj O2 (conj _ (conj _ _)))))).
      * congruence.
      * intros q. now rewrite Q2.
      * intros x [<-|Hx]; [now left|right; auto].
      * intros x [<-|Hx]; [|auto]. rewrite O2. apply in_or_app. right. now left.
      * rewrite B2. cbn. rewrite !Bool.orb_true_r. reflexivity.
    + exists new. destruct O1 as [Hin ->]. refine (conj I2 (conj _ (conj _ (conj O2 (conj _ (conj _ _)))))).
      * congruence.
      * intros q. now rewrite Q2.
      * intros x Hx; right; auto.
      * intros x [<-|Hx]; [|auto]. rewrite O2. apply in_or_app. now left.
      * rewrite B2. now rewrite Bool.orb_false_r.
Qed.

(** ** Rewriting the log *)
Fixpoint last_of (es : list entry) (q : bytes) (acc : option (Z * list bytes)) : option (Z * list bytes) :=
  match es with
  | [] => acc
  | e :: es' => last_of es' q (if beqb (node e) q && negb (length (deps e) =? 0) then Some (mtime e, deps e) else acc)
  end.
Lemma last_of_app a b q acc : last_of (a ++ b) q acc = last_of b q (last_of a q acc).
Proof. revert acc. induction a; intros acc; cbn [app last_of]; auto. Qed.
Definition entry_ok (es0 : list entry) (e : entry) : Prop :=
  ends_well (node e) /\ (- 2 ^ 63 <= mtime e < 2 ^ 63)%Z /\ In (node e) (map node es0) /\ incl (deps e) (map node es0).
Definition RI (es0 : list entry) (w : writer) (rs : list record) (done : list entry) : Prop :=
  WI w rs /\ length (tbl w) = length es0 /\ incl (order w) (map node es0) /\
  (forall q, recorded rs q = last_of done q None) /\
  (forall q m ds, last_of done q None = Some (m, ds) ->
     exists i, id_of q (order w) = Some i /\ nth_error (tbl w) i = Some (Entry q m ds)) /\
  (forall q, In q (order w) -> last_of done q None <> None \/ exists e, In e done /\ In q (deps e)).
Lemma nth_upd_same {A} i (x : A) l : i < length l -> nth_error (upd i x l) i = Some x.
Proof. revert i. induction l; intros [|i] H; simpl in *; try lia; auto. apply IHl. lia. Qed.
Lemma nth_upd_other {A} i j (x : A) l : i <> j -> nth_error (upd i x l) j = nth_error l j.
Proof. revert i j. induction l; intros [|i] [|j] H; simpl; auto; congruence. Qed.
Lemma rewrite_entry_ok es0 e w rs done w' : Forall (fun e => ends_well (node e)) es0 -> entry_ok es0 e -> RI es0 w rs done -> rewrite_entry e w = Ok w' ->
  exists rs', RI es0 w' rs' (done ++ [e]).
Proof.
  intros Fw (Hp & Hm & Hn & Hd) (I & TL & Oi & Q & T & O) H. unfold rewrite_entry in H.
  assert (LA : forall q, last_of (done ++ [e]) q None = if beqb (node e) q && negb (length (deps e) =? 0) then Some (mtime e, deps e) else last_of done q None).
  { intros q. now rewrite last_of_app. }
  destruct (deps e) as [|d ds] eqn:De.
  - inversion H; subst. exists rs. refine (conj I (conj TL (conj Oi (conj _ (conj _ _))))).
    + intros q. rewrite LA, Bool.andb_false_r. apply Q.
    + intros q m ds. rewrite LA, Bool.andb_false_r. apply T.
    + intros q Hq. rewrite LA, Bool.andb_false_r. destruct (O q Hq) as [K|(e' & K1 & K2)]; [now left|right; exists e'; split; [apply in_or_app; now left|assumption]].
  - rewrite <- De in *. assert (NE : negb (length (deps e) =? 0) = true) by (now rewrite De). clear De d ds.
    destruct (recordid (node e) w) as [[w1 b]| |] eqn:R; try discriminate. cbn [bind] in H.
    destruct (recordid_ok _ _ _ _ _ I Hp R) as (rs1 & I1 & T1 & Q1 & O1).
    assert (Hin : In (node e) (order w1)). { destruct b; [destruct O1 as [_ ->]; apply in_or_app; right; now left|destruct O1 as [K ->]; assumption]. }
    destruct (id_of (node e) (order w1)) as [i|] eqn:Ei; [|discriminate].
    destruct (Nat.ltb_spec i (length (tbl w1))) as [L|L]; [|discriminate].
    set (w2 := W (order w1) (upd i e (tbl w1)) (out w1)) in *.
    assert (I2 : WI w2 rs1) by exact I1.
    destruct (recordids (deps e) w2 false) as [[w3 b3]| |] eqn:R3; try discriminate. cbn [bind] in H.
    assert (Fd : Forall ends_well (deps e)).
    { apply Forall_forall. intros q Hq. apply Hd in Hq. apply in_map_iff in Hq. destruct Hq as (e' & <- & He'). rewrite Forall_forall in Fw. auto. }
    destruct (recordids_ok _ _ _ _ _ _ I2 Fd R3) as (rs3 & new & I3 & T3 & Q3 & O3 & N3 & M3 & _).
    assert (Hin3 : In (node e) (order w3)). { rewrite O3. apply in_or_app. now left. }
    destruct (recorddeps_ok _ _ _ _ _ _ I3 Hin3 M3 Hm H) as (rs4 & I4 & T4 & O4 & Q4).
    exists rs4. refine (conj I4 (conj _ (conj _ (conj _ (conj _ _))))).
    + rewrite T4, T3. cbn [w2 tbl]. rewrite upd_length, T1. exact TL.
    + rewrite O4, O3. intros q Hq. apply in_app_or in Hq. destruct Hq as [Hq|Hq]; [|now apply Hd, N3].
      cbn [w2 order] in Hq. destruct b; [|destruct O1 as [_ ->]; auto]. destruct O1 as [_ O1]. rewrite O1 in Hq.
      apply in_app_or in Hq. destruct Hq as [Hq|[<-|[]]]; auto.
    + intros q. rewrite Q4, Q3, Q1, Q, LA, NE, Bool.andb_true_r. reflexivity.
    + intros q m ds. rewrite LA, NE, Bool.andb_true_r. rewrite T4, T3, O4. destruct (beqb_spec (node e) q) as [Eq|Eq].
      * intros [= <- <-]. exists i. subst q. rewrite O3. split; [now apply id_of_app|]. cbn [w2 tbl].
        rewrite nth_upd_same by assumption. now destruct e.
      * intros K. destruct (T _ _ _ K) as (j & J1 & J2). exists j.
        assert (J3 : id_of q (order w1) = Some j). { destruct b; [destruct O1 as [_ ->]; now apply id_of_app|destruct O1 as [_ ->]; assumption]. }
        split. { rewrite O3. now apply id_of_app. } cbn [w2 tbl]. rewrite nth_upd_other; [now rewrite T1|].
        intros <-. apply id_of_some in Ei, J3. destruct Ei as [_ Ei], J3 as [_ J3]. congruence.
    + intros q. rewrite O4, O3. intros Hq. rewrite LA, NE, Bool.andb_true_r. destruct (beqb_spec (node e) q) as [Eq|Eq]; [left; discriminate|].
      apply in_app_or in Hq. destruct Hq as [Hq|Hq].
      * assert (Hq' : In q (order w)). { cbn [w2 order] in Hq. destruct b; [|destruct O1 as [_ ->]; assumption]. destruct O1 as [_ O1]. rewrite O1 in Hq.
          apply in_app_or in Hq. destruct Hq as [Hq|[Hq|[]]]; [assumption|congruence]. }
        destruct (O q Hq') as [K|(e' & K1 & K2)]; [now left|right; exists e'; split; [apply in_or_app; now left|assumption]].
      * right. exists e. split; [apply in_or_app; right; now left|]. now apply N3.
Qed.
Lemma rewrite_all_ok es0 : Forall (fun e => ends_well (node e)) es0 -> forall es w rs done w', Forall (entry_ok es0) es -> RI es0 w rs done -> rewrite_all es w = Ok w' ->
  exists rs', RI es0 w' rs' (done ++ es).
Proof.
  intros Fw es. induction es as [|e es IH]; intros w rs done w' F I H; cbn [rewrite_all] in H.
  - inversion H; subst. exists rs. now rewrite app_nil_r.
  - inversion F as [|? ? F1 F2]; subst. destruct (rewrite_entry e w) as [w1| |] eqn:R; try discriminate. cbn [bind] in H.
    destruct (rewrite_entry_ok _ _ _ _ _ _ Fw F1 I R) as (rs1 & I1). destruct (IH _ _ _ _ F2 I1 H) as (rs2 & I2).
    exists rs2. now rewrite <- app_assoc in I2.
Qed.
Lemma RI_start es0 : RI es0 (W [] es0 (depsheader ++ le 4 depsver)) [] [].
Proof.
  refine (conj _ (conj eq_refl (conj _ (conj (fun q => eq_refl) (conj _ _))))).
  - repeat split; constructor.
  - intros q [].
  - intros q m ds [=].
  - intros q [].
Qed.
(** the entries can be rewritten if they are not too large *)
Lemma rewrite_entry_total es0 e w rs done : Forall (fun e => good_path (node e)) es0 -> entry_ok es0 e -> (N.of_nat (length (deps e)) < 131068)%N ->
  (N.of_nat (length es0) <= 2147483647)%N -> RI es0 w rs done -> exists w', rewrite_entry e w = Ok w'.
Proof.
  intros Fg (Hp & Hm & Hn & Hd) Hl Hs (I & TL & Oi & Q & T & O). unfold rewrite_entry. destruct (deps e) as [|d ds] eqn:De; [eauto|]. rewrite <- De in *. clear De d ds.
  assert (Fw : Forall (fun e => ends_well (node e)) es0) by (eapply Forall_impl; [|exact Fg]; intros ? K; apply K).
  assert (GP : forall q, In q (map node es0) -> good_path q). { intros q Hq. apply in_map_iff in Hq. destruct Hq as (e' & <- & He'). rewrite Forall_forall in Fg. auto. }
  assert (CAP : forall w rs q, WI w rs -> incl (order w) (map node es0) -> In q (map node es0) -> (In q (order w) \/ N.of_nat (length (order w)) < 2147483647)%N).
  { intros w0 rs0 q (_ & E0 & _ & N0) Oi0 Hq. destruct (in_dec (list_eq_dec Ascii.ascii_dec) q (order w0)) as [K|K]; [now left|right].
    assert (L : length (q :: order w0) <= length (map node es0)). { apply NoDup_incl_length; [constructor; [assumption|rewrite E0; assumption]|]. intros x [<-|Hx]; auto. }
    rewrite map_length in L. simpl in L. lia. }
  destruct (recordid_total w rs (node e) I (GP _ Hn) (CAP _ _ _ I Oi Hn)) as [[w1 b] R]. rewrite R. cbn [bind].
  destruct (recordid_ok _ _ _ _ _ I Hp R) as (rs1 & I1 & T1 & Q1 & O1).
  assert (Hin : In (node e) (order w1)). { destruct b; [destruct O1 as [_ ->]; apply in_or_app; right; now left|destruct O1 as [K ->]; assumption]. }
  assert (Oi1 : incl (order w1) (map node es0)).
  { destruct b; [destruct O1 as [_ ->]|destruct O1 as [_ ->]; assumption]. intros q Hq. apply in_app_or in Hq. destruct Hq as [Hq|[<-|[]]]; auto. }
  destruct (id_of_in _ _ Hin) as [i Hi]. rewrite Hi. destruct (id_of_some _ _ _ Hi) as [Li _].
  assert (LO : length (order w1) <= length es0). { rewrite <- (map_length node es0). apply NoDup_incl_length; [|assumption]. destruct I1 as (_ & -> & _ & K); exact K. }
  destruct (Nat.ltb_spec i (length (tbl w1))) as [L|L]; [|rewrite T1 in L; lia].
  set (w2 := W (order w1) (upd i e (tbl w1)) (out w1)).
  assert (X : forall ds w rs any, incl ds (map node es0) -> WI w rs -> incl (order w) (map node es0) -> exists r, recordids ds w any = Ok r).
  { clear - CAP GP Fw. induction ds as [|q ds IH]; intros w rs any Hd I Oi; cbn [recordids]; [eauto|].
    assert (Hq : In q (map node es0)) by (apply Hd; now left).
    destruct (recordid_total w rs q I (GP _ Hq) (CAP _ _ _ I Oi Hq)) as [[w1 b] R]. rewrite R. cbn [bind].
    destruct (recordid_ok _ _ _ _ _ I (proj1 (GP _ Hq)) R) as (rs1 & I1 & _ & _ & O1). apply (IH w1 rs1); auto. { intros x Hx; apply Hd; now right. }
    destruct b; [destruct O1 as [_ ->]|destruct O1 as [_ ->]; assumption]. intros x Hx. apply in_app_or in Hx. destruct Hx as [Hx|[<-|[]]]; auto. }
  destruct (X (deps e) w2 rs1 false Hd I1 Oi1) as [[w3 b3] R3]. rewrite R3. cbn [bind]. now apply recorddeps_total.
Qed.
Lemma rewrite_all_total es0 : Forall (fun e => good_path (node e)) es0 -> (N.of_nat (length es0) <= 2147483647)%N ->
  forall es w rs done, Forall (fun e => entry_ok es0 e /\ (N.of_nat (length (deps e)) < 131068)%N) es -> RI es0 w rs done -> exists w', rewrite_all es w = Ok w'.
Proof.
  intros Fg Hs es. assert (Fw : Forall (fun e => ends_well (node e)) es0) by (eapply Forall_impl; [|exact Fg]; intros ? K; apply K).
  induction es as [|e es IH]; intros w rs done F I; cbn [rewrite_all]; [eauto|]. inversion F as [|? ? [F1 F1'] F2]; subst.
  destruct (rewrite_entry_total _ _ _ _ _ Fg F1 F1' Hs I) as [w1 R]. rewrite R. cbn [bind].
  destruct (rewrite_entry_ok _ _ _ _ _ _ Fw F1 I R) as (rs1 & I1). eapply IH; eassumption.
Qed.

(** ** Starting from a log that was written *)
Lemma latest_prop ps rs p : forall n acc, good n rs -> n + length (paths rs) <= length ps ->
  (forall m ds, acc = Some (m, ds) -> (- 2 ^ 63 <= m < 2 ^ 63)%Z /\ incl ds ps /\ (N.of_nat (length ds) < 131068)%N) ->
  forall m ds, latest ps rs p acc = Some (m, ds) -> (- 2 ^ 63 <= m < 2 ^ 63)%Z /\ incl ds ps /\ (N.of_nat (length ds) < 131068)%N.
Proof.
  induction rs as [|[q|id m0 ids] rs IH]; intros n acc G L A m ds H; cbn [latest] in H; [auto| |]; cbn [good] in G.
  - apply (IH (S n) acc); [tauto| |assumption|assumption]. change (paths (NodeR q :: rs)) with (q :: paths rs) in L. cbn [length] in L. lia.
  - change (paths (DepR id m0 ids :: rs)) with (paths rs) in L. destruct G as (G1 & G2 & G3 & G4 & G5).
    eapply (IH n); [eassumption|assumption| |exact H]. intros m1 ds1. destruct (beqb _ _); [|apply A]. intros [= <- <-].
    refine (conj G3 (conj _ _)); [|now rewrite map_length]. intros x Hx. apply in_map_iff in Hx. destruct Hx as (i & <- & Hi).
    rewrite Forall_forall in G2. specialize (G2 i Hi). apply nth_In. lia.
Qed.
Lemma good_paths n rs : good n rs -> Forall good_path (paths rs).
Proof.
  revert n. induction rs as [|[q|id m0 ids] rs IH]; intros n G; cbn [good] in G; [constructor| |].
  - change (paths (NodeR q :: rs)) with (q :: paths rs). constructor; [tauto|apply (IH (S n)); tauto].
  - apply (IH n); tauto.
Qed.
Lemma last_of_map hd ps rs q : forall l, NoDup l -> forall acc, last_of (map (E hd ps rs) l) q acc =
   if in_dec (list_eq_dec Ascii.ascii_dec) q l then
     match latest ps rs q None with Some (m, d :: ds) => if hd q then Some (m, d :: ds) else acc | _ => acc end
   else acc.
Proof.
  induction l as [|p l IH]; intros N acc; [reflexivity|]. inversion N as [|? ? N1 N2]; subst. cbn [map last_of]. rewrite IH by assumption. rewrite node_E.
  destruct (beqb_spec p q) as [Eq|Eq].
  - subst q. destruct (in_dec _ p l) as [K|_]; [contradiction|]. destruct (in_dec _ p (p :: l)) as [_|K]; [|exfalso; apply K; now left].
    unfold E. destruct (latest ps rs p None) as [[m [|d ds]]|]; [now destruct (hd p)| |reflexivity]. destruct (hd p); reflexivity.
  - cbn [andb]. destruct (in_dec _ q l) as [K|K]; destruct (in_dec _ q (p :: l)) as [K'|K']; auto.
    + exfalso. apply K'. now right.
    + destruct K' as [K'|K']; [congruence|contradiction].
Qed.
Lemma loaded_entries hd rs : well_formed rs ->
  let es := map (E hd (paths rs) rs) (paths rs) in
  Forall (fun e => good_path (node e)) es /\ Forall (fun e => entry_ok es e /\ (N.of_nat (length (deps e)) < 131068)%N) es /\
  (N.of_nat (length es) <= 2147483647)%N /\ forall q, last_of es q None = dependencies hd rs q.
Proof.
  intros [G N] es. assert (MN : map node es = paths rs). { unfold es. rewrite map_map, (map_ext _ (fun x => x)) by (intros; apply node_E). apply map_id. }
  pose proof (good_paths _ _ G) as GP. rewrite Forall_forall in GP.
  assert (P : forall p, In p (paths rs) -> entry_ok es (E hd (paths rs) rs p) /\ (N.of_nat (length (deps (E hd (paths rs) rs p))) < 131068)%N).
  { intros p Hp. unfold entry_ok. rewrite node_E, MN.
    assert (Q : (- 2 ^ 63 <= mtime (E hd (paths rs) rs p) < 2 ^ 63)%Z /\ incl (deps (E hd (paths rs) rs p)) (paths rs) /\ (N.of_nat (length (deps (E hd (paths rs) rs p))) < 131068)%N).
    { unfold E. destruct (latest (paths rs) rs p None) as [[m ds]|] eqn:L.
      - destruct (latest_prop _ _ _ 0 None G (le_n _) ltac:(discriminate) _ _ L) as (A1 & A2 & A3). cbn [mtime deps].
        destruct (hd p); (split; [assumption|split; [easy|simpl; lia]]).
      - cbn. split; [lia|split; [easy|lia]]. }
    destruct Q as (Q1 & Q2 & Q3). split; [|assumption]. refine (conj _ (conj Q1 (conj Hp Q2))). apply GP. assumption. }
  refine (conj _ (conj _ (conj _ _))).
  - apply Forall_forall. intros e He. unfold es in He. apply in_map_iff in He. destruct He as (p & <- & Hp). rewrite node_E. auto.
  - apply Forall_forall. intros e He. unfold es in He. apply in_map_iff in He. destruct He as (p & <- & Hp). auto.
  - unfold es. rewrite map_length. apply (good_nodes 0); [assumption|lia].
  - intros q. unfold es. rewrite last_of_map by assumption. unfold dependencies, recorded. destruct (in_dec _ q (paths rs)) as [K|K].
    + destruct (latest _ _ _ _) as [[m [|d ds]]|]; reflexivity.
    + now rewrite (latest_notin _ _ _ 0) by (auto; lia).
Qed.
Lemma depsinit_ok hd rs k : well_formed rs -> let es := map (E hd (paths (complete_in k rs)) (complete_in k rs)) (paths (complete_in k rs)) in
  exists w rs', depsinit hd (firstn k (log_of rs)) = Ok w /\ RI es w rs' es.
Proof.
  intros Wf es. pose proof (well_formed_cut k _ Wf) as Wk. unfold depsinit. rewrite load_log by apply Wf. rewrite loaded by apply Wk. cbn [bind]. fold es.
  destruct (loaded_entries hd _ Wk) as (F1 & F2 & F3 & _). fold es in F1, F2, F3. unfold rewrite_log.
  destruct (rewrite_all_total es F1 F3 es _ _ _ F2 (RI_start es)) as [w H]. rewrite H.
  assert (Fw : Forall (fun e => ends_well (node e)) es) by (eapply Forall_impl; [|exact F1]; intros ? K; apply K).
  assert (F2' : Forall (entry_ok es) es) by (eapply Forall_impl; [|exact F2]; intros ? K; apply K).
  destruct (rewrite_all_ok es Fw es _ _ _ _ F2' (RI_start es) H) as (rs' & I). exists w, rs'. split; [reflexivity|exact I].
Qed.

(** ** Any file *)
Lemma words_small l : Forall (fun v => (v < 2 ^ 32)%N) (words l).
Proof.
  remember (length l) as n eqn:Hn. assert (H : length l <= n) by lia. clear Hn. revert l H.
  induction n; intros l H; destruct l as [|a [|b [|c [|d l]]]]; simpl in H; try lia; cbn [words]; constructor; try apply IHn; try lia.
  cbn [unle]. change (2 ^ 32)%N with 4294967296%N.
  assert (Q : forall x, (N_of_ascii x < 256)%N) by apply N_ascii_bounded.
  pose proof (Q a); pose proof (Q b); pose proof (Q c); pose proof (Q d). lia.
Qed.
Lemma int64_range lo hi : (lo < 2 ^ 32)%N -> (hi < 2 ^ 32)%N -> (- 2 ^ 63 <= int64 lo hi < 2 ^ 63)%Z.
Proof.
  intros H1 H2. unfold int64. change (2 ^ 32)%N with 4294967296%N in *. change (2 ^ 63)%Z with 9223372036854775808%Z. change (2 ^ 64)%Z with 18446744073709551616%Z.
  destruct (Z.ltb_spec (Z.of_N (hi * 4294967296 + lo)) 9223372036854775808); lia.
Qed.
Lemma strip_spec l p : strip l = Some p -> ends_well p.
Proof.
  induction l as [|c l IH]; [discriminate|]. cbn [strip]. destruct (ceqb_spec c NUL) as [->|K]; [apply IH|].
  intros [= <-]. exists (rev l), c. split; [reflexivity|assumption].
Qed.
Definition LI (es : list entry) : Prop :=
  Forall (fun e => ends_well (node e)) es /\ Forall (entry_ok es) es.
Lemma entry_ok_nodes es es' e : map node es = map node es' -> entry_ok es e -> entry_ok es' e.
Proof. unfold entry_ok. intros ->. tauto. Qed.
Lemma Forall_upd {A} (P : A -> Prop) i x l : P x -> Forall P l -> Forall P (upd i x l).
Proof. intros Hx. revert i. induction l; intros [|i] H; simpl; inversion H; subst; constructor; auto. Qed.
Lemma LI_upd es i e x : LI es -> nth_error es i = Some e -> node x = node e -> (- 2 ^ 63 <= mtime x < 2 ^ 63)%Z -> incl (deps x) (map node es) -> LI (upd i x es).
Proof.
  intros [F1 F2] He Hn Hm Hd. assert (MN : map node (upd i x es) = map node es). { apply map_node_upd. now rewrite (nth_error_nth _ _ _ He). }
  apply nth_error_In in He. rewrite Forall_forall in F1, F2. split.
  - apply Forall_upd; [rewrite Hn; auto|now apply Forall_forall].
  - apply Forall_upd.
    + unfold entry_ok. rewrite MN, Hn. refine (conj (F1 _ He) (conj Hm (conj _ Hd))). now apply in_map.
    + apply Forall_forall. intros y Hy. eapply entry_ok_nodes; [symmetry; exact MN|auto].
Qed.
Lemma resolve_incl es ids ds : resolve es ids = Some ds -> incl ds (map node es).
Proof.
  revert ds. induction ids as [|i ids IH]; intros ds H; cbn [resolve] in H; [injection H as <-; easy|].
  destruct (nth_error es (N.to_nat i)) as [d|] eqn:N1; [|discriminate]. destruct (resolve es ids) as [ds'|]; [|discriminate]. injection H as <-.
  intros x [<-|Hx]; [apply in_map; eapply nth_error_In; exact N1|now apply (IH ds')].
Qed.
Definition next_ok (x : next) : Prop := match x with Continue es | Rewrite es => LI es | Bad => True end.
Lemma load_dep_inv hd ws es : Forall (fun v => (v < 2 ^ 32)%N) ws -> LI es -> next_ok (load_dep hd ws es).
Proof.
  intros Fw I. unfold load_dep. destruct ws as [|id [|lo [|hi ids]]]; try exact I.
  inversion Fw as [|? ? _ Fw1]; subst. inversion Fw1 as [|? ? W1 Fw2]; subst. inversion Fw2 as [|? ? W2 Fw3]; subst.
  destruct (nth_error es (N.to_nat id)) as [e|] eqn:He; [|exact I]. cbv zeta. cbn [node mtime deps].
  pose proof (int64_range lo hi W1 W2) as Hm.
  assert (I1 : LI (upd (N.to_nat id) (Entry (node e) (int64 lo hi) (deps e)) es)).
  { eapply LI_upd; eauto. destruct I as [_ I]. rewrite Forall_forall in I. apply (I e). eapply nth_error_In; exact He. }
  destruct (hd (node e)); cbn [negb]; [|exact I1].
  destruct (resolve _ ids) as [ds|] eqn:R; [|exact Logic.I]. cbn [next_ok].
  apply resolve_incl in R. eapply LI_upd; [exact I1| | |exact Hm|exact R].
  - apply nth_upd_same. apply nth_error_Some. congruence.
  - reflexivity.
Qed.
Lemma load_node_inv buf es : LI es -> next_ok (load_node buf es).
Proof.
  intros I. unfold load_node. destruct (_ <=? 4); [exact I|]. destruct (negb _); [exact I|]. destruct (_ =? _)%N; [exact I|].
  destruct (strip _) as [p|] eqn:Es; [|exact Logic.I]. apply strip_spec in Es. cbn [next_ok]. destruct I as [F1 F2]. split.
  - apply Forall_app. split; [assumption|]. constructor; [exact Es|constructor].
  - apply Forall_app. split.
    + eapply Forall_impl; [|exact F2]. intros e (A & A1 & A2 & A3). unfold entry_ok. rewrite map_app. refine (conj A (conj A1 (conj _ _))).
      * apply in_or_app. now left.
      * intros x Hx. apply in_or_app. left. auto.
    + constructor; [|constructor]. unfold entry_ok. cbn. rewrite map_app. split; [exact Es|split; [lia|split; [|easy]]]. apply in_or_app. right. now left.
Qed.
Lemma load_loop_inv f : forall hd src es es', LI es -> load_loop f hd src es = Ok es' -> LI es'.
Proof.
  induction f; intros hd src es es' I H; cbn [load_loop] in H; [discriminate|].
  destruct (fread 4 src) as [[b src1]|]; [|now injection H as <-].
  destruct (_ <? _)%N; [now injection H as <-|]. destruct (fread _ src1) as [[buf src2]|]; [|now injection H as <-].
  destruct (negb _); [now injection H as <-|].
  assert (N1 : next_ok (if N.testbit (unle b) 31 then load_dep hd (words buf) es else load_node buf es)).
  { destruct (N.testbit _ _); [apply load_dep_inv; [apply words_small|assumption]|now apply load_node_inv]. }
  destruct (if N.testbit _ _ then _ else _) as [es1|es1|]; [|now injection H as <-|discriminate]. eapply IHf; eassumption.
Qed.
Lemma load_inv hd file es : load hd file = Ok es -> LI es.
Proof.
  assert (LI []) as L0 by (split; constructor). unfold load. destruct (negb _); [now intros [= <-]|].
  destruct (fread _ _) as [[v src]|]; [|now intros [= <-]]. destruct (negb _); [now intros [= <-]|]. now apply load_loop_inv.
Qed.
Lemma depsinit_inv hd file w : depsinit hd file = Ok w -> exists es rs, load hd file = Ok es /\ RI es w rs es.
Proof.
  unfold depsinit. destruct (load hd file) as [es| |] eqn:L; try discriminate. cbn [bind]. intros H. destruct (load_inv _ _ _ L) as [F1 F2].
  destruct (rewrite_all_ok es F1 es _ _ _ _ F2 (RI_start es) H) as (rs & I). exists es, rs. split; [reflexivity|exact I].
Qed.

(** ** Recording *)
Lemma same_deps_spec e m ds : same_deps e m ds = true -> mtime e = m /\ deps e = ds.
Proof.
  unfold same_deps. intros H. apply andb_prop in H. destruct H as [H H3]. apply andb_prop in H. destruct H as [H1 H2].
  apply Z.eqb_eq in H1. apply Nat.eqb_eq in H2. split; [assumption|]. clear H1. revert ds H2 H3.
  induction (deps e) as [|a l IH]; intros [|b ds] H2 H3; try discriminate; [reflexivity|]. cbn in H3. apply andb_prop in H3. destruct H3 as [H3 H4].
  destruct (beqb_spec a b); [|discriminate]. f_equal; [assumption|]. apply IH; [now injection H2|assumption].
Qed.
Lemma depsrecord_ok w rs p m ds w' : WI w rs -> fact_ok (p, m, ds) -> depsrecord p m ds w = Ok w' ->
  exists rs' new, WI w' rs' /\ tbl w' = tbl w /\ order w' = order w ++ new /\ incl new (p :: ds) /\ In p (order w') /\
   (forall q, q <> p -> recorded rs' q = recorded rs q) /\
   (recorded rs' p = Some (m, ds) \/
    (recorded rs' p = recorded rs p /\ exists i e, id_of p (order w) = Some i /\ nth_error (tbl w) i = Some e /\ mtime e = m /\ deps e = ds)).
Proof.
  intros I (Hp & Hds & Hm) H. unfold depsrecord in H. destruct (recordid p w) as [[w1 b]| |] eqn:R; try discriminate. cbn [bind] in H.
  destruct (recordid_ok _ _ _ _ _ I Hp R) as (rs1 & I1 & T1 & Q1 & O1).
  assert (Hin : In p (order w1)). { destruct b; [destruct O1 as [_ ->]; apply in_or_app; right; now left|destruct O1 as [K ->]; assumption]. }
  match type of H with bind ?x _ = _ => destruct x as [u| |] eqn:U; try discriminate end. cbn [bind] in H.
  destruct (recordids ds w1 u) as [[w2 u2]| |] eqn:R2; try discriminate. cbn [bind] in H.
  destruct (recordids_ok _ _ _ _ _ _ I1 Hds R2) as (rs2 & new & I2 & T2 & Q2 & O2 & N2 & M2 & B2).
  assert (Hin2 : In p (order w2)) by (rewrite O2; apply in_or_app; now left).
  assert (ON : exists new', order w2 = order w ++ new' /\ incl new' (p :: ds)).
  { destruct b.
    - destruct O1 as [_ O1]. exists ([p] ++ new). rewrite O2, O1, <- app_assoc. split; [reflexivity|]. intros x [<-|Hx]; [now left|right; auto].
    - destruct O1 as [_ ->]. exists new. split; [assumption|]. intros x Hx. right. auto. }
  destruct ON as (new' & ON1 & ON2). destruct u2.
  - destruct (recorddeps_ok _ _ _ _ _ _ I2 Hin2 M2 Hm H) as (rs3 & I3 & T3 & O3 & Q3).
    exists rs3, new'. rewrite O3. refine (conj I3 (conj _ (conj ON1 (conj ON2 (conj Hin2 (conj _ _)))))).
    + congruence.
    + intros q Hq. rewrite Q3. destruct (beqb_spec p q); [congruence|]. now rewrite Q2, Q1.
    + left. rewrite Q3. destruct (beqb_spec p p); [reflexivity|congruence].
  - injection H as <-. exists rs2, new'. refine (conj I2 (conj _ (conj ON1 (conj ON2 (conj Hin2 (conj _ _)))))).
    + congruence.
    + intros q Hq. now rewrite Q2, Q1.
    + right. rewrite Q2, Q1. split; [reflexivity|]. destruct u; [discriminate|]. destruct b; [discriminate|]. destruct O1 as [_ ->].
      destruct (id_of p (order w)) as [i|]; [|discriminate]. destruct (nth_error (tbl w) i) as [e|] eqn:Ne; [|discriminate]. injection U as U.
      apply Bool.negb_false_iff in U. apply same_deps_spec in U. exists i, e. tauto.
Qed.
Lemma record_all_wf facts : forall w rs w', WI w rs -> Forall fact_ok facts -> record_all facts w = Ok w' -> exists rs', WI w' rs'.
Proof.
  induction facts as [|[[p m] ds] facts IH]; intros w rs w' I F H; cbn [record_all] in H; [injection H as <-; eauto|].
  inversion F as [|? ? F1 F2]; subst. destruct (depsrecord p m ds w) as [w1| |] eqn:R; try discriminate. cbn [bind] in H.
  destruct (depsrecord_ok _ _ _ _ _ _ I F1 R) as (rs1 & _ & I1 & _). eapply IH; eassumption.
Qed.
(** the state of the log while outputs are recorded: [done] have been *)
Lemma record_all_ok (dep : bytes -> option (Z * list bytes)) facts : forall w rs w',
  WI w rs -> Forall fact_ok facts -> NoDup (map (fun r => fst (fst r)) facts) ->
  (forall p m ds, In (p, m, ds) facts -> recorded rs p = dep p) ->
  (forall p m ds, In (p, m, ds) facts -> dep p = None \/ exists i m' ds', dep p = Some (m', ds') /\ id_of p (order w) = Some i /\ nth_error (tbl w) i = Some (Entry p m' ds')) ->
  (forall p m ds, In (p, m, ds) facts -> dep p = None -> ~ In p (order w) /\ forall p' m' ds', In (p', m', ds') facts -> ~ In p ds') ->
  record_all facts w = Ok w' ->
  exists rs', WI w' rs' /\ (forall p m ds, In (p, m, ds) facts -> recorded rs' p = Some (m, ds)) /\
    (forall q, ~ In q (map (fun r => fst (fst r)) facts) -> recorded rs' q = recorded rs q).
Proof.
  induction facts as [|[[p m] ds] facts IH]; intros w rs w' I F N Hr Ht Hs H; cbn [record_all] in H.
  - injection H as <-. exists rs. refine (conj I (conj _ (fun _ _ => eq_refl))). intros ? ? ? [].
  - inversion F as [|? ? F1 F2]; subst. cbn [map fst] in N. inversion N as [|? ? N1 N2]; subst.
    destruct (depsrecord p m ds w) as [w1| |] eqn:R; try discriminate. cbn [bind] in H.
    destruct (depsrecord_ok _ _ _ _ _ _ I F1 R) as (rs1 & new & I1 & T1 & O1 & M1 & Hin & Qo & Qp).
    assert (NP : forall q m' ds', In (q, m', ds') facts -> q <> p).
    { intros q m' ds' Hq ->. apply N1. apply in_map_iff. now exists (p, m', ds'). }
    assert (RP : recorded rs1 p = Some (m, ds)).
    { destruct Qp as [Qp|(Qp & i & e & Hi & He & Em & Ed)]; [exact Qp|]. rewrite Qp, (Hr p m ds (or_introl eq_refl)).
      destruct (Ht p m ds (or_introl eq_refl)) as [K|(j & m' & ds' & K & J1 & J2)].
      - destruct (Hs p m ds (or_introl eq_refl) K) as [K1 _]. apply id_of_none in K1. congruence.
      - rewrite K. assert (j = i) by congruence. subst j. rewrite J2 in He. injection He as <-. cbn in Em, Ed. congruence. }
    destruct (IH w1 rs1 w' I1 F2 N2) as (rs2 & I2 & A2 & B2); auto.
    + intros q m' ds' Hq. rewrite Qo by eauto. apply (Hr q m' ds'). now right.
    + intros q m' ds' Hq. destruct (Ht q m' ds' (or_intror Hq)) as [K|(j & m'' & ds'' & K & J1 & J2)]; [now left|right].
      exists j, m'', ds''. rewrite T1, O1. repeat split; auto. now apply id_of_app.
    + intros q m' ds' Hq K. destruct (Hs q m' ds' (or_intror Hq) K) as [K1 K2]. split.
      * rewrite O1. intros X. apply in_app_or in X. destruct X as [X|X]; [contradiction|]. apply M1 in X. destruct X as [X|X]; [now apply (NP _ _ _ Hq)|].
        now apply (K2 p m ds (or_introl eq_refl)).
      * intros p' m'' ds'' Hp'. apply (K2 p' m'' ds''). now right.
    + exists rs2. refine (conj I2 (conj _ _)).
      * intros q m' ds' [Hq|Hq]; [injection Hq as <- <- <-; now rewrite B2|eauto].
      * intros q Hq. cbn [map fst In] in Hq. rewrite B2 by tauto. apply Qo. intros ->. tauto.
Qed.
