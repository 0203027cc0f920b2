(** Lemmas for P_Custom: placeholders, arguments and outputs of custom targets. *)
From Coq Require Import ZArith.
From Verif Require Import Base M_Path M_Format M_Escape M_Backend M_Custom S_Path S_Format S_Backend S_Custom
  L_Path L_Path2 L_Path3 L_Format L_Places.
Local Arguments B _ : simpl never.

(** ** string_format always ends *)
Section Fuel.
Variable cb : bytes -> cb_result.
Lemma fmt_loop_mono f : forall f' s i a b rd res r, f <= f' -> fmt_loop cb f s i a b rd res = r -> r <> FNoFuel ->
  fmt_loop cb f' s i a b rd res = r.
Proof.
  induction f as [|f IH]; intros f' s i a b rd res r L E N; [cbn in E; congruence|].
  destruct f' as [|f']; [lia|]. assert (L' : f <= f') by lia. cbn [fmt_loop] in *.
  repeat match type of E with
  | (if ?x then _ else _) = _ => destruct x eqn:?
  | match ?x with _ => _ end = _ => destruct x eqn:?
  end; try exact E; eapply IH; eauto.
Qed.
Definition cost (s : bytes) (i a : nat) (rd : bool) : nat :=
  if rd then (length s + 1 - a) * (length s + 2) + (length s + 1 - i) else (length s + 1 - i) * (length s + 2).
Lemma fmt_loop_ends f : forall s i a b rd res, cost s i a rd < f -> (rd = true -> a <= i) -> fmt_loop cb f s i a b rd res <> FNoFuel.
Proof.
  induction f as [|f IH]; intros s i a b rd res L A; [lia|]. cbn [fmt_loop]. set (n := length s) in *.
  destruct (Nat.leb_spec n i) as [Hi|Hi]; [destruct rd; [discriminate|destruct (_ <? _); discriminate]|].
  assert (Q : forall j, i < j -> (rd = true -> a <= i) -> cost s j j false < cost s i a rd).
  { intros j Hj A'. unfold cost. fold n. destruct rd.
    - specialize (A' eq_refl). assert ((n + 1 - j) * (n + 2) + (n + 2) <= (n + 1 - a) * (n + 2)); [|lia].
      replace ((n + 1 - j) * (n + 2) + (n + 2)) with ((n + 1 - j + 1) * (n + 2)) by lia. apply Nat.mul_le_mono_r. lia.
    - assert ((n + 1 - j) * (n + 2) + (n + 2) <= (n + 1 - i) * (n + 2)); [|lia].
      replace ((n + 1 - j) * (n + 2) + (n + 2)) with ((n + 1 - j + 1) * (n + 2)) by lia. apply Nat.mul_le_mono_r. lia. }
  destruct (ceqb (nth i s NUL) "@"%char).
  - destruct rd.
    + specialize (A eq_refl). destruct (Nat.eqb_spec i a) as [->|Ne].
      * apply IH; [|lia]. unfold cost in *. fold n in L. fold n.
        assert ((n + 1 - (a + 1)) * (n + 2) + (n + 2) <= (n + 1 - a) * (n + 2)); [|lia].
        replace ((n + 1 - (a + 1)) * (n + 2) + (n + 2)) with ((n + 1 - (a + 1) + 1) * (n + 2)) by lia. apply Nat.mul_le_mono_r. lia.
      * destruct (cb _); try discriminate; (apply IH; [|discriminate]).
        -- specialize (Q (i + 1) ltac:(lia) (fun _ => A)). unfold cost in *. fold n in Q, L |- *. lia.
        -- unfold cost in *. fold n in L |- *. lia.
    + apply IH; [|lia]. unfold cost in *. fold n in L |- *.
      replace (n + 1 - i) with (n + 1 - (i + 1) + 1) in L by lia. lia.
  - destruct (_ && _).
    + apply IH; [|discriminate]. specialize (Q (i + 2) ltac:(lia) A). unfold cost in *. fold n in Q, L |- *. destruct rd; lia.
    + apply IH; [|intros E; specialize (A E); lia]. unfold cost in *. fold n in L |- *. destruct rd; [lia|].
      replace (n + 1 - i) with (n + 1 - (i + 1) + 1) in L by lia. lia.
Qed.
Lemma formatted_spec s : format_clean cb s = true -> formatted cb s = format_spec cb s.
Proof.
  intros C. destruct (string_format_spec cb s C) as [F HF]. unfold formatted.
  set (f := Nat.max F (format_fuel s)). specialize (HF f ltac:(lia)).
  assert (E : string_format cb (format_fuel s) s = string_format cb f s).
  { symmetry. unfold string_format. apply fmt_loop_mono with (f := format_fuel s); [lia|reflexivity|].
    apply fmt_loop_ends; [|discriminate]. unfold cost, format_fuel. lia. }
  rewrite E, HF. destruct (format_spec cb s); reflexivity.
Qed.
End Fuel.

(** whether a text has a value does not depend on what exactly the keys are replaced by *)
Definition same_kind (a b : cb_result) : Prop :=
  match a, b with CbFound _, CbFound _ | CbSkip, CbSkip => True | (CbNotFound | CbError), (CbNotFound | CbError) => True | _, _ => False end.
Lemma fmt_spec_kind m m' (H : forall key, key <> [] -> same_kind (m key) (m' key)) n : forall s,
  (exists w, fmt_spec m n s = Some w) -> exists w, fmt_spec m' n s = Some w.
Proof.
  induction n as [|n IH]; intros s [w E]; [discriminate|]. cbn [fmt_spec] in *. destruct s as [|c r]; [eauto|].
  assert (M : forall (g : bytes -> bytes) x, (exists y, option_map g (fmt_spec m n x) = Some y) -> exists y, option_map g (fmt_spec m' n x) = Some y).
  { intros g x [y Ey]. destruct (fmt_spec m n x) eqn:E1; [|discriminate]. destruct (IH x ltac:(eauto)) as [z ->]. cbn. eauto. }
  destruct (_ && _); [eapply M; eauto|]. destruct (ceqb c "@"%char); [|eapply M; eauto].
  destruct (scan_key r []) as [[|k0 k] rest| |]; try (eapply M; eauto; fail).
  specialize (H (k0 :: k) ltac:(discriminate)). destruct (m (k0 :: k)), (m' (k0 :: k)); try contradiction; try discriminate.
  - assert (X : exists y, option_map (app text) (fmt_spec m n rest) = Some y) by eauto.
    destruct (fmt_spec m n rest) eqn:E1; [|discriminate]. destruct (IH rest ltac:(eauto)) as [z ->]. cbn. eauto.
  - eapply M; eauto.
Qed.
Lemma format_kind m m' s w : (forall key, key <> [] -> same_kind (m key) (m' key)) -> format_spec m s = Some w -> exists w', format_spec m' s = Some w'.
Proof. intros H E. eapply fmt_spec_kind; [exact H|]. eauto. Qed.

(** ** words that lead to files *)
Lemma names_rel o i p : is_abs (o_root o) = true ->
  exists w, rel_to_root o i p = Some w /\ names (o_root o) w p /\ (i = 0 -> is_abs p = true -> In "/"%char w).
Proof.
  intros Hr. unfold rel_to_root, names. rewrite is_abs_same. destruct (is_abs p) eqn:Ap; cbn [negb]; [|exists p; repeat split; discriminate].
  - destruct (relative_stands (o_root o) p Hr Ap) as (r & Er & St). rewrite Er.
    assert (P : place (o_root o) r = location p) by (rewrite (st_place _ _ _ St); unfold place; now rewrite Ap).
    destruct i as [|i]; cbn [Nat.eqb]; [|exists r; repeat split; auto; discriminate].
    unfold path_executable, path_is_basename. destruct (mem_char SEP r) eqn:Em; cbn [negb].
    + assert (Er' : path_copy r = Some r).
      { rewrite path_copy_nonempty by (eapply stands_nonempty; eauto). f_equal.
        pose proof (st_text _ _ _ St) as T. rewrite T at 3. reflexivity. }
      rewrite Er'. exists r. repeat split; auto. intros _ _. now apply mem_char_In.
    + exists (B "./" ++ r). split; [reflexivity|]. split.
      * assert (Ar : is_abs r = false) by (destruct r as [|c r']; [reflexivity|]; cbn [mem_char existsb] in Em; unfold is_abs;
          destruct (ceqb_spec c "/"%char) as [->|]; [cbn in Em; discriminate|reflexivity]).
        unfold place in *. rewrite Ar in P. change (is_abs (B "./" ++ r)) with false. cbn iota. rewrite <- P. do 3 f_equal.
      * intros _ _. right. now left.
Qed.

(** ** placeholders *)
Lemma last_comp_basename p cs n : p <> [] -> comps p = cs ++ [n] -> path_basename p = Some n.
Proof. intros Hp E. now destruct (dirname_basename p cs n Hp E) as [H _]. Qed.
Lemma one_comp n : ~ In "/"%char n -> comps n = if moves n then [n] else [].
Proof. intros H. unfold comps. now rewrite <- (comps_last n H). Qed.
Lemma normalize_name b : ~ In "/"%char b -> path_normalize false b = Some b.
Proof.
  intros H. destruct b as [|c b]; [reflexivity|]. rewrite normalize_false by discriminate. f_equal.
  assert (A : is_abs (c :: b) = false) by (unfold is_abs; destruct (ceqb_spec c "/"%char) as [->|]; [exfalso; apply H; now left|reflexivity]).
  rewrite A, one_comp by exact H. unfold moves. destruct (beqb_spec (c :: b) (B ".")) as [E|_]; [now rewrite E|].
  change (beqb (c :: b) []) with false. reflexivity.
Qed.
Lemma without_ext n : n <> [] -> ~ In "/"%char n ->
  (forall b e, n = b ++ B "." ++ e -> ~ In "."%char e -> path_without_ext n = Some b) /\
  (~ In "."%char n -> path_without_ext n = Some n).
Proof.
  intros Hn Hs. unfold path_without_ext. destruct n as [|c0 n0] eqn:En; [contradiction|]. rewrite <- En in *.
  assert (E0 : match n with [] => Some [] | _ :: _ => match path_copy n with
    | Some t => match (match last_index "."%char t 0 None, last_index SEP t 0 None with
       | Some d, Some sl => if sl <? d then Some (firstn d t) else path_copy t | Some d, None => Some (firstn d t) | None, _ => path_copy t end)
       with Some b => path_normalize false b | None => None end | None => None end end
    = match last_index "."%char n 0 None with Some d => path_normalize false (firstn d n) | None => Some n end).
  { rewrite En. rewrite <- En. unfold path_copy. rewrite (normalize_name n Hs). rewrite (last_index_notin SEP n 0 None Hs).
    destruct (last_index "."%char n 0 None); [reflexivity|]. now rewrite !(normalize_name n Hs). }
  rewrite En in E0 at 1. cbn zeta. rewrite En at 1 2. cbn iota. rewrite <- En. rewrite En in E0. cbn iota in E0. rewrite <- En in E0.
  split.
  - intros b e Eb He. rewrite E0. rewrite Eb at 1. change (B ".") with ["."%char]. rewrite app_assoc, last_index_app, last_index_snoc, last_index_notin by exact He.
    cbn [Nat.add]. rewrite Eb, firstn_app_exact. apply normalize_name. intros X. apply Hs. rewrite Eb. apply in_or_app. now left.
  - intros Hd. now rewrite E0, last_index_notin.
Qed.
Lemma in_name_spec l base : Forall abs_file l ->
  match in_name l base with
  | KPath n => input_name (Some l) (if base then B "BASENAME" else B "PLAINNAME") n /\ is_abs n = false
  | KError => forall n, ~ input_name (Some l) (if base then B "BASENAME" else B "PLAINNAME") n
  | _ => False
  end.
Proof.
  intros F. destruct l as [|p [|q l]]; cbn [in_name].
  1,3: intros n H; inversion H as [p0 cs0 n0 E1|p0 cs0 b0 e0 E1|p0 cs0 n0 E1]; discriminate E1.
  inversion F as [|? ? [Ha Hc] _]; subst. assert (Hp : p <> []) by (intros ->; discriminate).
  destruct (exists_last Hc) as (cs & n & E). rewrite (last_comp_basename p cs n Hp E).
  pose proof (comps_moves p) as Fm. rewrite E in Fm. apply Forall_app in Fm as [_ Fm]. inversion Fm as [|? ? [Hm Hs] _]; subst.
  assert (Hn : n <> []) by (intros ->; discriminate Hm).
  assert (NA : forall b e, n = b ++ e -> is_abs b = false).
  { intros b e Eb. destruct b as [|c b]; [reflexivity|]. unfold is_abs. destruct (ceqb_spec c "/"%char) as [->|]; [|reflexivity].
    exfalso. apply Hs. rewrite Eb. now left. }
  destruct base; cbn [of_path].
  - destruct (without_ext n Hn Hs) as [X Y]. destruct (in_dec Ascii.ascii_dec "."%char n) as [Hd|Hd].
    + assert (exists b e, n = b ++ B "." ++ e /\ ~ In "."%char e) as (b & e & Eb & He).
      { clear - Hd. induction n as [|c n IH]; [destruct Hd|]. destruct (in_dec Ascii.ascii_dec "."%char n) as [I1|I1].
        - destruct (IH I1) as (b & e & -> & He). exists (c :: b), e. auto.
        - destruct Hd as [->|Hd]; [|contradiction]. exists [], n. auto. }
      rewrite (X b e Eb He). cbn [of_path]. split; [|eapply NA; eauto]. apply in_base with (p := p) (cs := cs) (e := e); [reflexivity| |exact He]. now rewrite E, Eb.
    + rewrite (Y Hd). cbn [of_path]. split; [eapply in_whole; eauto|]. apply (NA n []). now rewrite app_nil_r.
  - split; [eapply in_plain; eauto|]. apply (NA n []). now rewrite app_nil_r.
Qed.

Lemma py_clamp {A} (l : list A) z : few l -> py_index l (clamp z) = py_index l z.
Proof.
  unfold few, py_index, clamp, LONG_MAX, LONG_MIN. intros F.
  destruct (Z_le_dec z 9223372036854775807) as [H1|H1]; [destruct (Z_le_dec (-9223372036854775808) z) as [H2|H2]|].
  - do 2 f_equal; try lia. replace (Z.max (-9223372036854775808) (Z.min 9223372036854775807 z)) with z by lia. reflexivity.
  - replace (Z.max (-9223372036854775808) (Z.min 9223372036854775807 z)) with (-9223372036854775808)%Z by lia.
    destruct (Z.leb_spec 0 z); [lia|]. destruct (Z.leb_spec (- Z.of_nat (length l)) z); [lia|].
    destruct (Z.leb_spec 0 (-9223372036854775808)); [lia|]. destruct (Z.leb_spec (- Z.of_nat (length l)) (-9223372036854775808)); [lia|reflexivity].
  - replace (Z.max (-9223372036854775808) (Z.min 9223372036854775807 z)) with 9223372036854775807%Z by lia.
    destruct (Z.leb_spec 0 z); [|lia]. destruct (Z.leb_spec 0 9223372036854775807); [|lia].
    transitivity (@None A); [|symmetry]; apply nth_error_None; lia.
Qed.
Lemma key_index_spec l z :
  match key_index (Some l) z with KPath p => py_index l z = Some p | KError | KCrash => py_index l z = None | _ => False end.
Proof.
  unfold key_index, interp_index_array, bounds_adjust, py_index, obj_array_index. set (n := Z.of_nat (length l)).
  destruct (Z.ltb_spec z 0) as [L|L].
  - destruct (Z.leb_spec 0 z); [lia|]. destruct (Z.ltb_spec (z + n) n); [|lia]. destruct (Z.leb_spec 0 (z + n)); destruct (Z.leb_spec (- n) z); try lia; [|reflexivity].
    rewrite (Z.add_comm n z). destruct (nth_error l (Z.to_nat (z + n))); reflexivity.
  - destruct (Z.leb_spec 0 z); [|lia]. destruct (Z.ltb_spec z n).
    + destruct (nth_error l (Z.to_nat z)); reflexivity.
    + apply nth_error_None. lia.
Qed.
Lemma reads_nonempty k z : reads_as k z -> k <> [].
Proof. intros (ws & sg & ds & -> & _ & [Hd _] & _) E. apply app_eq_nil in E as [_ E]. apply app_eq_nil in E as [_ E]. contradiction. Qed.
Lemma reads_str_to_i k z : reads_as k z -> str_to_i k false = Some (clamp z).
Proof. intros H. unfold str_to_i. pose proof (strtol_reads k z [] H I) as E. rewrite app_nil_r in E. now rewrite E. Qed.
Lemma prefix_index_spec key pre : key <> pre ->
  match prefix_plus_index key pre with
  | Some v => exists k z, key = pre ++ k /\ reads_as k z /\ v = clamp z
  | None => forall k z, reads_as k z -> key <> pre ++ k
  end.
Proof.
  intros N. unfold prefix_plus_index. destruct (starts_with pre key) eqn:E.
  - apply starts_with_spec in E as [k ->]. rewrite skipn_pre. assert (Hk : k <> []) by (intros ->; rewrite app_nil_r in N; contradiction).
    pose proof (str_to_i_key k Hk) as H. destruct (str_to_i k false) as [v|].
    + destruct H as (z & Hz & ->). eauto.
    + intros k' z Hz E'. apply app_inv_head in E'. subst k'. now apply H in Hz.
  - intros k z _ ->. assert (X : starts_with pre (pre ++ k) = true) by (apply starts_with_spec; eauto). congruence.
Qed.

(** two spellings of the same path *)
Definition alike (p q : bytes) : Prop := is_abs p = is_abs q /\ (if is_abs q then location p = location q else p = q).
Lemma alike_refl p : alike p p. Proof. split; [reflexivity|]. now destruct (is_abs p). Qed.
Lemma alike_names root w p q : alike p q -> names root w p -> names root w q.
Proof. intros [E H]. unfold names. rewrite E. destruct (is_abs q); congruence. Qed.

Lemma join_name dir n : is_abs dir = true -> n <> [] -> is_abs n = false ->
  path_join dir n = Some (render true (comps dir ++ comps n)).
Proof.
  intros Hd Hn An. assert (N : dir <> []) by (intros ->; discriminate). rewrite (path_join_rel dir n N Hn An). now rewrite Hd.
Qed.
Lemma one_name_comps n : one_name n -> comps n = [n] /\ is_abs n = false.
Proof.
  intros (H1 & H2 & H3). split.
  - rewrite one_comp by exact H3. unfold moves. destruct (beqb_spec n []); [contradiction|]. destruct (beqb_spec n (B ".")); [contradiction|reflexivity].
  - destruct n as [|c n]; [contradiction|]. unfold is_abs. destruct (ceqb_spec c "/"%char) as [->|]; [exfalso; apply H3; now left|reflexivity].
Qed.
Lemma private_dir dir n : is_abs dir = true -> one_name n ->
  exists p, path_join dir n = Some p /\ alike (p ++ B ".p") (dir ++ B "/" ++ n ++ B ".p").
Proof.
  intros Hd Hn. destruct (one_name_comps n Hn) as [Cn An]. assert (N0 : n <> []) by apply Hn. rewrite (join_name dir n Hd N0 An). eexists. split; [reflexivity|].
  assert (Nd : dir <> []) by (intros ->; discriminate).
  assert (A1 : is_abs (render true (comps dir ++ comps n) ++ B ".p") = true) by reflexivity.
  assert (A2 : is_abs (dir ++ B "/" ++ n ++ B ".p") = true) by (rewrite is_abs_app; auto).
  split; [now rewrite A1, A2|]. rewrite A2. unfold location. do 2 f_equal.
  assert (On : one_name (n ++ B ".p")).
  { destruct Hn as (H1 & H2 & H3). split; [intros E; apply app_eq_nil in E as [_ E]; discriminate E|]. split.
    - intros E. assert (L : length (n ++ B ".p") = 1) by now rewrite E. rewrite app_length in L. change (length (B ".p")) with 2 in L. lia.
    - intros E. apply in_app_or in E as [E|E]; [contradiction|]. change (B ".p") with ["."%char; "p"%char] in E. destruct E as [E|[E|[]]]; discriminate E. }
  destruct (one_name_comps _ On) as [Cp _].
  change (dir ++ B "/" ++ n ++ B ".p") with (dir ++ SEP :: (n ++ B ".p")). rewrite comps_app, Cp.
  rewrite Cn. unfold render. change (B "/") with [SEP]. rewrite joinb_snoc.
  pose proof (comps_good dir) as G. change ("/"%char :: body (comps dir) ++ n) with (([SEP] ++ body (comps dir)) ++ n). rewrite <- app_assoc.
  destruct (snoc_case (comps dir)) as [E0|(l & z & E0)]; rewrite E0.
  - cbn [body concat map app]. rewrite comps_root. exact Cp.
  - rewrite body_joinb by (now destruct l). rewrite <- !app_assoc. cbn [app]. rewrite comps_root, comps_app, Cp.
    rewrite E0 in G. rewrite (comps_joinb (l ++ [z]) G), <- app_assoc. reflexivity.
Qed.

Lemma not_key l key : (forall s, In s l -> beqb key (B s) = false) -> ~ In key (map B l).
Proof. intros H I1. apply in_map_iff in I1 as (s & <- & Hs). specialize (H s Hs). rewrite beqb_refl in H. discriminate. Qed.

Lemma fixed_key s : In s ["OUTDIR"; "DEPFILE"; "PLAINNAME"; "BASENAME"; "PRIVATE_DIR"; "SOURCE_ROOT"; "BUILD_ROOT"; "BUILD_DIR"; "CURRENT_SOURCE_DIR"; "INPUT"; "OUTPUT"]%string ->
  forall k z, reads_as k z -> B s <> B "INPUT" ++ k /\ B s <> B "OUTPUT" ++ k.
Proof.
  intros Hs k z Hk. pose proof (reads_nonempty k z Hk) as Hn. destruct k as [|c k]; [contradiction|].
  cbn in Hs. repeat (destruct Hs as [<-|Hs]; [split; discriminate|]). destruct Hs.
Qed.

Lemma key_cases (key : bytes) :
  (exists s, In s ["INPUT"; "OUTPUT"; "OUTDIR"; "DEPFILE"; "PLAINNAME"; "BASENAME"; "PRIVATE_DIR"; "SOURCE_ROOT"; "BUILD_ROOT"; "BUILD_DIR"; "CURRENT_SOURCE_DIR"]%string /\ key = B s)
  \/ forall s, In s ["INPUT"; "OUTPUT"; "OUTDIR"; "DEPFILE"; "PLAINNAME"; "BASENAME"; "PRIVATE_DIR"; "SOURCE_ROOT"; "BUILD_ROOT"; "BUILD_DIR"; "CURRENT_SOURCE_DIR"]%string -> beqb key (B s) = false.
Proof.
  generalize ["INPUT"; "OUTPUT"; "OUTDIR"; "DEPFILE"; "PLAINNAME"; "BASENAME"; "PRIVATE_DIR"; "SOURCE_ROOT"; "BUILD_ROOT"; "BUILD_DIR"; "CURRENT_SOURCE_DIR"]%string.
  induction l as [|s l IH]; [right; intros s []|]. destruct (beqb_spec key (B s)) as [->|N]; [left; exists s; split; [now left|reflexivity]|].
  destruct IH as [(x & Hx & ->)|H]; [left; exists x; split; [now right|reflexivity]|]. right. intros x [<-|Hx]; [|auto].
  destruct (beqb_spec key (B s)); [contradiction|reflexivity].
Qed.
(** what stands for what, by key *)
Lemma stands_fixed o s p : stands_for o (B s) p ->
  In s ["INPUT"; "OUTPUT"; "OUTDIR"; "DEPFILE"; "PLAINNAME"; "BASENAME"; "PRIVATE_DIR"; "SOURCE_ROOT"; "BUILD_ROOT"; "BUILD_DIR"; "CURRENT_SOURCE_DIR"]%string ->
  (s = "INPUT"%string -> exists ps, o_in o = Some (p :: ps)) /\ (s = "OUTPUT"%string -> exists ps, o_out o = Some (p :: ps)) /\
  (s = "OUTDIR"%string -> o_out o <> None) /\ (s = "DEPFILE"%string -> o_depfile o = Some p) /\
  (s = "PLAINNAME"%string \/ s = "BASENAME"%string -> input_name (o_in o) (B s) p) /\
  (s = "PRIVATE_DIR"%string -> o_out o <> None /\ o_name o <> None) /\ (s = "BUILD_DIR"%string -> o_gen_dir o = Some p).
Proof.
  intros H Hs. remember (B s) as key eqn:E.
  assert (Inp : forall k z, reads_as k z -> key <> B "INPUT" ++ k /\ key <> B "OUTPUT" ++ k).
  { intros k z Hk. subst key. apply (fixed_key s) with (z := z); [|exact Hk]. cbn in Hs |- *. tauto. }
  destruct H as [p ps H|p ps H|ps k z p H Hk Hp|ps k z p H Hk Hp|ps H|p H|key n H|ps n H Hn| | |p H| ].
  3: now destruct (Inp k z Hk). 3: now destruct (Inp k z Hk).
  5: { cbn in Hs. repeat split; intros Es; try (intros ->);
       repeat (destruct Hs as [<-|Hs]; [try discriminate Es; try (destruct Es as [Es|Es]; discriminate Es); subst key; try exact H;
         try (inversion H; discriminate)|]); try destruct Hs. }
  all: cbn in Hs; repeat (destruct Hs as [<-|Hs]; [try discriminate E; repeat split; intros Es; try discriminate Es;
         try (destruct Es as [Es|Es]; discriminate Es); eauto; try congruence|]); try destruct Hs.
Qed.
Lemma a_key_fixed s : In s ["INPUT"; "OUTPUT"; "OUTDIR"; "DEPFILE"; "PLAINNAME"; "BASENAME"; "PRIVATE_DIR"; "SOURCE_ROOT"; "BUILD_ROOT"; "BUILD_DIR"; "CURRENT_SOURCE_DIR"]%string ->
  a_key (B s).
Proof. intros H. left. now apply in_map. Qed.
Lemma cmd_key_spec o key : ok_opts o -> key <> [] ->
  match cmd_key o key with
  | KPath p => exists q, stands_for o key q /\ alike p q
  | KSkip => ~ a_key key
  | _ => a_key key /\ forall p, ~ stands_for o key p
  end.
Proof.
  intros Ok _. destruct (key_cases key) as [(s & Hs & ->)|No].
  - pose proof (a_key_fixed s Hs) as Ak. pose proof (fun p H => stands_fixed o s p H Hs) as Sf.
    assert (Found : forall q, stands_for o (B s) q -> exists q', stands_for o (B s) q' /\ alike q q') by (intros q Hq; exists q; split; [exact Hq|apply alike_refl]).
    cbn in Hs. repeat (destruct Hs as [<-|Hs]; [change (B "INPUT") with (B "INPUT") in *; unfold cmd_key;
      repeat match goal with |- context [beqb (B ?a) (B ?b)] => let v := eval vm_compute in (beqb (B a) (B b)) in change (beqb (B a) (B b)) with v; cbn iota end|]); [..|destruct Hs].
    + destruct (o_in o) as [l|] eqn:E.
      * destruct l as [|p l].
        -- change (key_index (Some []) 0) with KError. split; [exact Ak|]. intros p Hp. destruct (proj1 (Sf p Hp) eq_refl) as [ps X]. congruence.
        -- change (key_index (Some (p :: l)) 0) with (KPath p). apply Found. eapply sf_input; eauto.
      * split; [exact Ak|]. intros p Hp. destruct (proj1 (Sf p Hp) eq_refl) as [ps X]. congruence.
    + destruct (o_out o) as [l|] eqn:E.
      * destruct l as [|p l].
        -- change (key_index (Some []) 0) with KError. split; [exact Ak|]. intros p Hp. destruct (proj1 (proj2 (Sf p Hp)) eq_refl) as [ps X]. congruence.
        -- change (key_index (Some (p :: l)) 0) with (KPath p). apply Found. eapply sf_output; eauto.
      * split; [exact Ak|]. intros p Hp. destruct (proj1 (proj2 (Sf p Hp)) eq_refl) as [ps X]. congruence.
    + destruct (o_out o) as [l|] eqn:E; [apply Found; eapply sf_outdir; eauto|]. split; [exact Ak|]. intros p Hp.
      destruct (Sf p Hp) as (_ & _ & X & _). now apply X.
    + destruct (o_depfile o) as [d|] eqn:E; [apply Found; now apply sf_depfile|]. split; [exact Ak|]. intros p Hp.
      destruct (Sf p Hp) as (_ & _ & _ & X & _). specialize (X eq_refl). congruence.
    + destruct (o_in o) as [l|] eqn:E.
      * destruct (oo_in o Ok l E) as [F _]. pose proof (in_name_spec l false F) as H. cbn iota in H. destruct (in_name l false); try contradiction.
        -- apply Found. apply sf_name. rewrite E. apply H.
        -- split; [exact Ak|]. intros p Hp. destruct (Sf p Hp) as (_ & _ & _ & _ & X & _). specialize (X (or_introl eq_refl)). rewrite ?E in X. eapply H; exact X.
      * split; [exact Ak|]. intros p Hp. destruct (Sf p Hp) as (_ & _ & _ & _ & X & _). specialize (X (or_introl eq_refl)). rewrite ?E in X. inversion X; discriminate.
    + destruct (o_in o) as [l|] eqn:E.
      * destruct (oo_in o Ok l E) as [F _]. pose proof (in_name_spec l true F) as H. cbn iota in H. destruct (in_name l true); try contradiction.
        -- apply Found. apply sf_name. rewrite E. apply H.
        -- split; [exact Ak|]. intros p Hp. destruct (Sf p Hp) as (_ & _ & _ & _ & X & _). specialize (X (or_intror eq_refl)). rewrite ?E in X. eapply H; exact X.
      * split; [exact Ak|]. intros p Hp. destruct (Sf p Hp) as (_ & _ & _ & _ & X & _). specialize (X (or_intror eq_refl)). rewrite ?E in X. inversion X; discriminate.
    + destruct (o_out o) as [l|] eqn:E, (o_name o) as [n|] eqn:En.
      * destruct (private_dir (o_out_dir o) n (oo_out_dir o Ok) (oo_name o Ok n En)) as (p & -> & Hp). cbn [of_path].
        exists (o_out_dir o ++ B "/" ++ n ++ B ".p"). split; [eapply sf_private; eauto|exact Hp].
      * split; [exact Ak|]. intros p Hp. destruct (Sf p Hp) as (_ & _ & _ & _ & _ & X & _). destruct (X eq_refl) as [_ Y]. congruence.
      * split; [exact Ak|]. intros p Hp. destruct (Sf p Hp) as (_ & _ & _ & _ & _ & X & _). destruct (X eq_refl) as [Y _]. congruence.
      * split; [exact Ak|]. intros p Hp. destruct (Sf p Hp) as (_ & _ & _ & _ & _ & X & _). destruct (X eq_refl) as [Y _]. congruence.
    + apply Found. exact (sf_source o).
    + apply Found. exact (sf_root o).
    + destruct (o_gen_dir o) as [d|] eqn:E; [apply Found; now apply sf_gen|]. split; [exact Ak|]. intros p Hp.
      destruct (Sf p Hp) as (_ & _ & _ & _ & _ & _ & X). specialize (X eq_refl). congruence.
    + apply Found. exact (sf_cwd o).
  - unfold cmd_key. assert (N : forall s, In s ["INPUT"; "OUTPUT"; "OUTDIR"; "DEPFILE"; "PLAINNAME"; "BASENAME"; "PRIVATE_DIR"; "SOURCE_ROOT"; "BUILD_ROOT"; "BUILD_DIR"; "CURRENT_SOURCE_DIR"]%string -> key <> B s).
    { intros s Hs ->. specialize (No s Hs). rewrite beqb_refl in No. discriminate. }
    rewrite !No by (cbn; tauto). cbn iota.
    pose proof (prefix_index_spec key (B "INPUT") (N "INPUT"%string ltac:(cbn; tauto))) as Hi.
    assert (Sn : forall p, stands_for o key p -> (exists ps k z, o_in o = Some ps /\ reads_as k z /\ py_index ps z = Some p /\ key = B "INPUT" ++ k)
        \/ (exists ps k z, o_out o = Some ps /\ reads_as k z /\ py_index ps z = Some p /\ key = B "OUTPUT" ++ k)).
    { intros p H. destruct H as [p ps H|p ps H|ps k z p H Hk Hp|ps k z p H Hk Hp|ps H|p H|key n H|ps n H Hn| | |p H| ];
        try (exfalso; eapply N; [|reflexivity]; cbn; tauto); [left; eauto 8|right; eauto 8|].
      exfalso. destruct H; (eapply N; [|reflexivity]; cbn; tauto). }
    destruct (prefix_plus_index key (B "INPUT")) as [v|].
    + destruct Hi as (k & z & -> & Hk & ->). assert (Ak : a_key (B "INPUT" ++ k)) by (right; eauto).
      assert (Only : forall p, stands_for o (B "INPUT" ++ k) p -> exists ps, o_in o = Some ps /\ py_index ps (clamp z) = Some p).
      { intros p Hp. destruct (Sn p Hp) as [(ps & k' & z' & H1 & H2 & H3 & H4)|(ps & k' & z' & _ & _ & _ & H4)]; [|discriminate H4].
        apply app_inv_head in H4. subst k'. exists ps. split; [exact H1|]. destruct (oo_in o Ok ps H1) as [_ F].
        pose proof (reads_str_to_i k z Hk) as X1. rewrite (reads_str_to_i k z' H2) in X1. assert (X2 : clamp z = clamp z') by congruence. rewrite X2, py_clamp by exact F. exact H3. }
      destruct (o_in o) as [l|] eqn:E.
      * pose proof (key_index_spec l (clamp z)) as X. destruct (oo_in o Ok l E) as [_ F]. destruct (key_index (Some l) (clamp z)) as [p| | | |]; try contradiction.
        -- exists p. split; [|apply alike_refl]. eapply sf_input_n; eauto. now rewrite <- py_clamp.
        -- split; [exact Ak|]. intros p Hp. destruct (Only p Hp) as (ps & Y1 & Y2). congruence.
        -- split; [exact Ak|]. intros p Hp. destruct (Only p Hp) as (ps & Y1 & Y2). congruence.
      * cbn [key_index]. split; [exact Ak|]. intros p Hp. destruct (Only p Hp) as (ps & Y1 & Y2). congruence.
    + pose proof (prefix_index_spec key (B "OUTPUT") (N "OUTPUT"%string ltac:(cbn; tauto))) as Ho.
      destruct (prefix_plus_index key (B "OUTPUT")) as [v|].
      * destruct Ho as (k & z & -> & Hk & ->). assert (Ak : a_key (B "OUTPUT" ++ k)) by (right; eauto).
        assert (Only : forall p, stands_for o (B "OUTPUT" ++ k) p -> exists ps, o_out o = Some ps /\ py_index ps (clamp z) = Some p).
        { intros p Hp. destruct (Sn p Hp) as [(ps & k' & z' & _ & _ & _ & H4)|(ps & k' & z' & H1 & H2 & H3 & H4)]; [discriminate H4|].
          apply app_inv_head in H4. subst k'. exists ps. split; [exact H1|]. destruct (oo_out o Ok ps H1) as [_ F].
          pose proof (reads_str_to_i k z Hk) as X1. rewrite (reads_str_to_i k z' H2) in X1. assert (X2 : clamp z = clamp z') by congruence. rewrite X2, py_clamp by exact F. exact H3. }
        destruct (o_out o) as [l|] eqn:E.
        -- pose proof (key_index_spec l (clamp z)) as X. destruct (oo_out o Ok l E) as [_ F]. destruct (key_index (Some l) (clamp z)) as [p| | | |]; try contradiction.
           ++ exists p. split; [|apply alike_refl]. eapply sf_output_n; eauto. now rewrite <- py_clamp.
           ++ split; [exact Ak|]. intros p Hp. destruct (Only p Hp) as (ps & Y1 & Y2). congruence.
           ++ split; [exact Ak|]. intros p Hp. destruct (Only p Hp) as (ps & Y1 & Y2). congruence.
        -- cbn [key_index]. split; [exact Ak|]. intros p Hp. destruct (Only p Hp) as (ps & Y1 & Y2). congruence.
      * intros [H|(k & z & Hk & [H|H])]; [|exact (Hi k z Hk H)|exact (Ho k z Hk H)].
        apply in_map_iff in H as (s & <- & Hs). now apply (N s Hs).
Qed.
Lemma cmd_arg_replaced o i key : ok_opts o -> key <> [] -> replaced o key (cmd_arg_cb o i key).
Proof.
  intros Ok Hk. pose proof (cmd_key_spec o key Ok Hk) as H. unfold cmd_arg_cb. destruct (cmd_key o key) as [p| | | |]; try exact H.
  destruct H as (q & Hq & A). destruct (names_rel o i p (oo_root o Ok)) as (w & -> & Hw & _). exists q. split; [exact Hq|]. eapply alike_names; eauto.
Qed.
Lemma replaced_kind o key a b : replaced o key a -> replaced o key b -> same_kind a b.
Proof.
  intros Ha Hb. destruct a, b; cbn in *; try exact I; try tauto.
  - destruct Ha as (p & Hp & _). destruct Hb as [_ Hb]. now apply Hb in Hp.
  - destruct Ha as (p & Hp & _). destruct Hb as [_ Hb]. now apply Hb in Hp.
  - destruct Ha as (p & Hp & _). apply Hb. clear - Hp.
    destruct Hp as [p ps H|p ps H|ps k z p H Hk Hp|ps k z p H Hk Hp|ps H|p H|key n H|ps n H Hn| | |p H| ];
      try (left; apply in_map; cbn; tauto); try (right; eauto; fail).
    destruct H; (left; apply in_map; cbn; tauto).
  - destruct Hb as (p & Hp & _). destruct Ha as [_ Ha]. now apply Ha in Hp.
  - destruct Hb as (p & Hp & _). destruct Ha as [_ Ha]. now apply Ha in Hp.
  - destruct Hb as (p & Hp & _). apply Ha. clear - Hp.
    destruct Hp as [p ps H|p ps H|ps k z p H Hk Hp|ps k z p H Hk Hp|ps H|p H|key n H|ps n H Hn| | |p H| ];
      try (left; apply in_map; cbn; tauto); try (right; eauto; fail).
    destruct H; (left; apply in_map; cbn; tauto).
Qed.

(** ** arguments *)
Notation nm o := (names (o_root o)).
Lemma fmt_exe_spec o skip p args s : is_abs (o_root o) = true ->
  exists w, fmt_exe o skip p args s = Some (St (st_words s ++ w :: args) (st_deps s ++ if skip then [] else [w])
      (match args with [] => S (st_i s) | _ => st_i s end)) /\ nm o w p /\ (st_i s = 0 -> is_abs p = true -> In "/"%char w).
Proof.
  intros Hr. unfold fmt_exe. destruct (names_rel o (st_i s) p Hr) as (w & -> & Hw & Hf). exists w. split; [|auto].
  destruct args; destruct skip; rewrite ?app_nil_r; reflexivity.
Qed.
Lemma fmt_files_spec o skip ps : is_abs (o_root o) = true -> forall s,
  exists ws i, fmt_files o skip ps s = Some (St (st_words s ++ ws) (st_deps s ++ if skip then [] else ws) i) /\
    Forall2 (nm o) ws ps /\ (st_i s = 0 -> match ps, ws with p :: _, w :: _ => is_abs p = true -> In "/"%char w | _, _ => True end).
Proof.
  intros Hr. induction ps as [|p ps IH]; intros s; cbn [fmt_files].
  - exists [], (st_i s). destruct s as [a b c]. cbn. rewrite !app_nil_r. destruct skip; rewrite ?app_nil_r; auto.
  - destruct (fmt_exe_spec o skip p [] s Hr) as (w & -> & Hw & Hf). destruct (IH (St (st_words s ++ [w]) (st_deps s ++ if skip then [] else [w]) (S (st_i s)))) as (ws & i & -> & F & _).
    exists (w :: ws), i. cbn [st_words st_deps]. rewrite <- !app_assoc. cbn [app]. split; [|split; [constructor; auto|auto]].
    do 2 f_equal. destruct skip; reflexivity.
Qed.
Lemma exe_stands root p r : stands root p r ->
  exists e, path_executable r = Some e /\ place root e = place root p /\ In "/"%char e.
Proof.
  intros St. unfold path_executable, path_is_basename. destruct (mem_char SEP r) eqn:Em; cbn [negb].
  - assert (Er' : path_copy r = Some r).
    { rewrite path_copy_nonempty by (eapply stands_nonempty; eauto). f_equal. pose proof (st_text _ _ _ St) as T. rewrite T at 3. reflexivity. }
    rewrite Er'. exists r. split; [reflexivity|]. split; [apply (st_place _ _ _ St)|now apply mem_char_In].
  - exists (B "./" ++ r). split; [reflexivity|]. split; [|right; now left].
    rewrite <- (st_place _ _ _ St). assert (Ar : is_abs r = false).
    { destruct r as [|c r']; [reflexivity|]; cbn [mem_char] in Em; unfold is_abs. destruct (ceqb_spec c "/"%char) as [->|]; [cbn in Em; discriminate|reflexivity]. }
    unfold place. rewrite Ar. reflexivity.
Qed.
Lemma target_spec o dir n : is_abs (o_root o) = true -> is_abs dir = true -> n <> [] -> is_abs n = false ->
  exists e, target_exe o dir n = Some e /\ In "/"%char e /\ forall w, nm o w e -> nm o w (dir ++ B "/" ++ n).
Proof.
  intros Hr Hd Hn An. unfold target_exe. rewrite (join_name dir n Hd Hn An). assert (Nd : dir <> []) by (intros ->; discriminate).
  assert (G : Forall good (comps dir ++ comps n)) by (apply Forall_app; split; apply comps_good).
  destruct (relative_stands (o_root o) (render true (comps dir ++ comps n)) Hr eq_refl) as (r & -> & Sr).
  destruct (exe_stands _ _ _ Sr) as (e & -> & Pe & He). exists e. split; [reflexivity|]. split; [exact He|]. intros w Hw.
  assert (A2 : is_abs (dir ++ B "/" ++ n) = true) by (rewrite is_abs_app; auto).
  assert (L : location (dir ++ B "/" ++ n) = place (o_root o) e).
  { rewrite Pe. unfold place, location. rewrite is_abs_render by exact G. rewrite comps_render by exact G.
    change (dir ++ B "/" ++ n) with (dir ++ SEP :: n). now rewrite comps_app. }
  unfold names in *. rewrite A2. destruct (is_abs e) eqn:Ae; [|now subst w].
  rewrite Hw, L. unfold place, location. now rewrite Ae.
Qed.
Lemma fmt_str_spec o t s : ok_opts o -> tidy o t ->
  match fmt_str o t s with
  | Some s' => exists ws i, s' = St (st_words s ++ ws) (st_deps s) i /\ string_words o t ws
  | None => forall ws, ~ string_words o t ws
  end.
Proof.
  intros Ok Td. pose proof (oo_root o Ok) as Hr. unfold fmt_str.
  assert (Plain : ~ (t = B "@INPUT@" /\ o_in o <> None) -> ~ (t = B "@OUTPUT@" /\ o_out o <> None) -> ~ (t = B "@EXTRA_ARGS@" /\ o_extra_valid o = true) ->
    match (do w <- formatted (cmd_arg_cb o (st_i s)) t; Some (bump (St (st_words s ++ [w]) (st_deps s) (st_i s)))) with
    | Some s' => exists ws i, s' = St (st_words s ++ ws) (st_deps s) i /\ string_words o t ws
    | None => forall ws, ~ string_words o t ws
    end).
  { intros N1 N2 N3. assert (Rp : forall key, key <> [] -> replaced o key (cmd_arg_cb o (st_i s) key)) by (intros; now apply cmd_arg_replaced).
    rewrite formatted_spec by (apply Td; exact Rp). destruct (format_spec (cmd_arg_cb o (st_i s)) t) as [w|] eqn:E.
    - exists [w], (S (st_i s)). split; [reflexivity|]. eapply sw_text; eauto.
    - intros ws H. destruct H as [ps ws H1 H2|ps ws H1 H2|l H1 H2|H1 H2|t m w _ _ _ Hm Hf].
      + apply N1. split; congruence.
      + apply N2. split; congruence.
      + now apply N3.
      + now apply N3.
      + destruct (format_kind m (cmd_arg_cb o (st_i s)) t w) as [w' Hw']; [|exact Hf|congruence].
        intros key Hk. eapply replaced_kind; [apply Hm; exact Hk|apply Rp; exact Hk]. }
  assert (Extra : ~ (t = B "@INPUT@" /\ o_in o <> None) -> ~ (t = B "@OUTPUT@" /\ o_out o <> None) ->
    match (if o_extra_valid o && beqb t (B "@EXTRA_ARGS@")
               then Some (bump (St (st_words s ++ match o_extra o with Some l => l | None => [] end) (st_deps s) (st_i s)))
               else (do w <- formatted (cmd_arg_cb o (st_i s)) t; Some (bump (St (st_words s ++ [w]) (st_deps s) (st_i s))))) with
    | Some s' => exists ws i, s' = St (st_words s ++ ws) (st_deps s) i /\ string_words o t ws
    | None => forall ws, ~ string_words o t ws
    end).
  { intros N1 N2. destruct (o_extra_valid o) eqn:Ev; cbn [andb].
    - destruct (beqb_spec t (B "@EXTRA_ARGS@")) as [->|N].
      + eexists _, _. split; [reflexivity|]. destruct (o_extra o) eqn:Ee; [now apply sw_extra|now apply sw_no_extra].
      + apply Plain; auto. intros [X _]. contradiction.
    - apply Plain; auto. intros [_ X]. discriminate. }
  assert (Outs : ~ (t = B "@INPUT@" /\ o_in o <> None) ->
    match (match o_out o with
              | Some l => if beqb t (B "@OUTPUT@") then do s <- fmt_files o true l s; Some (bump s) else
                 (if o_extra_valid o && beqb t (B "@EXTRA_ARGS@")
               then Some (bump (St (st_words s ++ match o_extra o with Some l => l | None => [] end) (st_deps s) (st_i s)))
               else (do w <- formatted (cmd_arg_cb o (st_i s)) t; Some (bump (St (st_words s ++ [w]) (st_deps s) (st_i s)))))
              | None => (if o_extra_valid o && beqb t (B "@EXTRA_ARGS@")
               then Some (bump (St (st_words s ++ match o_extra o with Some l => l | None => [] end) (st_deps s) (st_i s)))
               else (do w <- formatted (cmd_arg_cb o (st_i s)) t; Some (bump (St (st_words s ++ [w]) (st_deps s) (st_i s)))))
              end) with
    | Some s' => exists ws i, s' = St (st_words s ++ ws) (st_deps s) i /\ string_words o t ws
    | None => forall ws, ~ string_words o t ws
    end).
  { intros N1. destruct (o_out o) as [l|] eqn:Eo.
    - destruct (beqb_spec t (B "@OUTPUT@")) as [->|N].
      + destruct (fmt_files_spec o true l Hr s) as (ws & i & -> & F & _). exists ws, (S i). cbn [bump st_words st_deps st_i]. rewrite app_nil_r. split; [reflexivity|].
        eapply sw_output; eauto.
      + apply Extra; auto. intros [X _]. contradiction.
    - apply Extra; auto. intros [_ X]. congruence. }
  cbn zeta. destruct (o_in o) as [l|] eqn:Ei.
  - destruct (beqb_spec t (B "@INPUT@")) as [->|N].
    + destruct (fmt_files_spec o true l Hr s) as (ws & i & -> & F & _). exists ws, i. rewrite app_nil_r. split; [reflexivity|]. eapply sw_input; eauto.
    + apply Outs. intros [X _]. contradiction.
  - apply Outs. intros [_ X]. congruence.
Qed.
Lemma fmt_strs_spec o ts : ok_opts o -> Forall (tidy o) ts -> forall s,
  match fmt_strs o ts s with
  | Some s' => exists wss i, s' = St (st_words s ++ concat wss) (st_deps s) i /\ Forall2 (string_words o) ts wss
  | None => forall wss, ~ Forall2 (string_words o) ts wss
  end.
Proof.
  intros Ok. induction 1 as [|t ts Ht _ IH]; intros s; cbn [fmt_strs].
  - exists [], (st_i s). destruct s. cbn. rewrite app_nil_r. auto.
  - pose proof (fmt_str_spec o t s Ok Ht) as H. destruct (fmt_str o t s) as [s'|].
    + destruct H as (ws & i & -> & Hw). specialize (IH (St (st_words s ++ ws) (st_deps s) i)). destruct (fmt_strs o ts _) as [s'|].
      * destruct IH as (wss & j & -> & F). exists (ws :: wss), j. cbn [st_words st_deps concat]. rewrite app_assoc. auto.
      * intros wss F. inversion F; subst. eapply IH; eauto.
    + intros wss F. inversion F; subst. eapply H; eauto.
Qed.
Lemma fmt_value_spec o v s : ok_opts o -> ok_value o v ->
  match fmt_value o v s with
  | Some s' => exists ws ds i, s' = St (st_words s ++ ws) (st_deps s ++ ds) i /\ words o v ws /\ needs o v ds /\
      (st_i s = 0 -> runs_a_file v -> exists w r, ws = w :: r /\ In "/"%char w)
  | None => forall ws, ~ words o v ws
  end.
Proof.
  intros Ok Vv. pose proof (oo_root o Ok) as Hr. destruct v as [t|p|dir n|found cmd|outs|cmd|]; cbn [fmt_value ok_value runs_a_file] in *.
  - pose proof (fmt_str_spec o t s Ok Vv) as H. destruct (fmt_str o t s) as [s'|].
    + destruct H as (ws & i & -> & Hw). exists ws, [], i. rewrite app_nil_r. repeat split; try constructor; auto. contradiction.
    + intros ws X. inversion X; subst. eapply H; eauto.
  - destruct (fmt_exe_spec o false p [] s Hr) as (w & -> & Hw & Hf). eexists _, _, _. split; [reflexivity|]. repeat split; try constructor; auto. eauto.
  - destruct Vv as (Hd & Hn & An). destruct (target_spec o dir n Hr Hd Hn An) as (e & -> & He & Hl).
    destruct (fmt_exe_spec o false e [] s Hr) as (w & -> & Hw & Hf). eexists _, _, _. split; [reflexivity|]. repeat split; try constructor; auto.
    intros Hi _. exists w, []. split; [reflexivity|]. destruct (is_abs e) eqn:Ae; [auto|]. unfold names in Hw. rewrite Ae in Hw. now subst w.
  - destruct found; [destruct cmd as [|p args]|]; try (intros ws X; inversion X; fail).
    destruct (fmt_exe_spec o false p args s Hr) as (w & -> & Hw & Hf). eexists _, _, _. split; [reflexivity|]. repeat split; try constructor; auto. eauto.
  - destruct outs as [outs|]; [|intros ws X; inversion X].
    destruct (fmt_files_spec o false outs Hr s) as (ws & i & -> & F & Hf). exists ws, ws, (S i). split; [reflexivity|]. repeat split; try constructor; auto.
    intros Hi Hv. destruct outs as [|p outs]; [contradiction|]. inversion F; subst. eexists _, _. split; [reflexivity|]. apply Hf; [exact Hi|]. now inversion Vv.
  - pose proof (fmt_strs_spec o cmd Ok Vv s) as H. destruct (fmt_strs o cmd s) as [s'|].
    + destruct H as (wss & i & -> & Hw). exists (concat wss), [], (S i). cbn [bump st_words st_deps st_i]. rewrite app_nil_r. repeat split; try constructor; auto. contradiction.
    + intros ws X. inversion X; subst. eapply H; eauto.
  - intros ws X. inversion X.
Qed.
Lemma fmt_values_spec o vs : ok_opts o -> Forall (ok_value o) vs -> forall s,
  match fmt_values o vs s with
  | Some s' => exists wss dss i, s' = St (st_words s ++ concat wss) (st_deps s ++ concat dss) i /\ Forall2 (words o) vs wss /\ Forall2 (needs o) vs dss /\
      (st_i s = 0 -> match vs with v :: _ => runs_a_file v -> exists w r, concat wss = w :: r /\ In "/"%char w | [] => True end)
  | None => forall wss, ~ Forall2 (words o) vs wss
  end.
Proof.
  intros Ok. induction 1 as [|v vs Hv _ IH]; intros s; cbn [fmt_values].
  - exists [], [], (st_i s). destruct s. cbn. rewrite !app_nil_r. auto.
  - pose proof (fmt_value_spec o v s Ok Hv) as H. destruct (fmt_value o v s) as [s'|].
    + destruct H as (ws & ds & i & -> & Hw & Hd & Hf). specialize (IH (St (st_words s ++ ws) (st_deps s ++ ds) i)). destruct (fmt_values o vs _) as [s'|].
      * destruct IH as (wss & dss & j & -> & F & G & _). exists (ws :: wss), (ds :: dss), j. cbn [st_words st_deps concat]. rewrite !app_assoc.
        repeat split; auto. intros Hi Hr. destruct (Hf Hi Hr) as (w & r & -> & Hs). exists w, (r ++ concat wss). auto.
      * intros wss F. inversion F; subst. eapply IH; eauto.
    + intros wss F. inversion F; subst. eapply H; eauto.
Qed.

(** ** outputs *)
Lemma fmt_spec_prefix m pre : forall s n, plain_run pre s -> fmt_spec m (length pre + n) (pre ++ s) = option_map (app pre) (fmt_spec m n s).
Proof.
  induction pre as [|c pre IH]; intros s n P; cbn [length Nat.add app]; [now destruct (fmt_spec m n s)|].
  destruct P as (P1 & P2 & P3). cbn [fmt_spec]. fold AT. unfold esc_here in P2. rewrite P2. apply ceqb_neq in P1. rewrite P1, IH by exact P3.
  now destruct (fmt_spec m n s).
Qed.
Lemma fmt_clean_prefix m pre : forall s n, plain_run pre s -> fmt_clean m (length pre + n) (pre ++ s) = fmt_clean m n s.
Proof.
  induction pre as [|c pre IH]; intros s n P; cbn [length Nat.add app]; [reflexivity|].
  destruct P as (P1 & P2 & P3). cbn [fmt_clean]. fold AT. unfold esc_here in P2. rewrite P2. apply ceqb_neq in P1. now rewrite P1, IH.
Qed.
Lemma plain_dir q s : ~ In "@"%char q -> plain_run (q ++ ["/"%char]) s.
Proof.
  induction q as [|c q IH]; intros H; cbn [app plain_run]; [split; [discriminate|split; [reflexivity|exact I]]|].
  assert (Hq : ~ In "@"%char q) by (intros X; apply H; now right). split; [intros ->; apply H; now left|]. split; [|auto].
  unfold esc_here. destruct q as [|x q]; cbn [app]; [apply andb_false_r|]. destruct (ceqb_spec x AT) as [->|]; [exfalso; apply Hq; now left|apply andb_false_r].
Qed.
Lemma format_dir m q s : ~ In "@"%char q ->
  format_spec m ((q ++ ["/"%char]) ++ s) = option_map (app (q ++ ["/"%char])) (format_spec m s) /\ format_clean m ((q ++ ["/"%char]) ++ s) = format_clean m s.
Proof.
  intros H. pose proof (plain_dir q s H) as P. unfold format_spec, format_clean. rewrite app_length, <- Nat.add_succ_r. split; [now apply fmt_spec_prefix|now apply fmt_clean_prefix].
Qed.
(** the path of a file in a directory *)
Lemma dir_prefix dir : is_abs dir = true -> exists q, (forall c, In c q -> In c dir \/ c = "/"%char) /\
  forall n, one_name n -> path_join dir n = Some ((q ++ ["/"%char]) ++ n).
Proof.
  intros Hd. assert (In1 : forall c, In c (joinb (B "/") (comps dir)) -> In c dir \/ c = "/"%char).
  { intros c Hc. destruct (in_joinb c _ Hc) as [->|(x & Hx & Hc')]; [now right|left; eapply in_comps; eauto]. }
  destruct (snoc_case (comps dir)) as [E|(l & z & E)].
  - exists []. split; [intros c []|]. intros n Hn. destruct (one_name_comps n Hn) as [Cn An]. rewrite join_name; [|exact Hd|apply Hn|exact An].
    rewrite E, Cn. reflexivity.
  - exists (SEP :: joinb (B "/") (comps dir)). split; [intros c [<-|Hc]; [now right|auto]|].
    intros n Hn. destruct (one_name_comps n Hn) as [Cn An]. rewrite join_name; [|exact Hd|apply Hn|exact An].
    rewrite Cn. unfold render. change (B "/") with [SEP]. rewrite joinb_snoc, body_joinb by (rewrite E; now destruct l). cbn [app]. now rewrite <- !app_assoc.
Qed.
Lemma dir_comps dir q : is_abs dir = true -> (forall n, one_name n -> path_join dir n = Some ((q ++ ["/"%char]) ++ n)) -> comps q = comps dir /\ is_abs (q ++ ["/"%char]) = true.
Proof.
  intros Hd H. assert (O : one_name (B "x")).
  { change (B "x") with ["x"%char]. split; [discriminate|split; [discriminate|]]. intros [X|[]]. discriminate X. }
  specialize (H (B "x") O). rewrite join_name in H; [|exact Hd|discriminate|reflexivity].
  assert (G : Forall good (comps dir ++ comps (B "x"))) by (apply Forall_app; split; apply comps_good).
  assert (E : render true (comps dir ++ comps (B "x")) = (q ++ ["/"%char]) ++ B "x") by congruence. split.
  - assert (C : comps ((q ++ ["/"%char]) ++ B "x") = comps dir ++ comps (B "x")) by (rewrite <- E; now apply comps_render).
    rewrite <- app_assoc in C. cbn [app] in C. change "/"%char with SEP in C. rewrite comps_app in C. now apply app_inv_tail in C.
  - assert (A : is_abs ((q ++ ["/"%char]) ++ B "x") = true) by (rewrite <- E; reflexivity). rewrite is_abs_app in A; [exact A|now destruct q].
Qed.
Lemma out_cb_replaced ins key : (forall l, ins = Some l -> Forall abs_file l) -> out_replaced ins key (out_cb ins key).
Proof.
  intros F. unfold out_cb. destruct (beqb_spec key (B "PLAINNAME")) as [->|N1].
  - destruct ins as [l|]; [|intros t X; inversion X; discriminate]. pose proof (in_name_spec l false (F l eq_refl)) as H. cbn iota in H.
    destruct (in_name l false); try contradiction; [apply H|exact H].
  - destruct (beqb_spec key (B "BASENAME")) as [->|N2].
    + destruct ins as [l|]; [|intros t X; inversion X; discriminate]. pose proof (in_name_spec l true (F l eq_refl)) as H. cbn iota in H.
      destruct (in_name l true); try contradiction; [apply H|exact H].
    + intros t X. destruct X; contradiction.
Qed.
Lemma out_replaced_kind ins key a b : out_replaced ins key a -> out_replaced ins key b -> same_kind a b.
Proof. intros Ha Hb. destruct a, b; cbn in *; try exact I; try tauto; try (now apply Hb in Ha); now apply Ha in Hb. Qed.
Lemma output_file_spec dir ins n : is_abs dir = true -> ~ In "@"%char dir -> one_name n -> (forall l, ins = Some l -> Forall abs_file l) -> out_tidy ins n ->
  match output_file dir ins n with
  | Some p => is_abs p = true /\ exists n', written ins n n' /\ comps p = comps dir ++ comps n'
  | None => forall n', ~ written ins n n'
  end.
Proof.
  intros Hd Ha Hn F Td. unfold output_file.
  assert (Bn : path_is_basename n = true).
  { unfold path_is_basename. apply negb_true_iff. apply mem_char_not_In. apply Hn. }
  rewrite Bn. destruct (dir_prefix dir Hd) as (q & Hq & J). rewrite (J n Hn). destruct (dir_comps dir q Hd J) as [Cq Aq].
  assert (Nq : ~ In "@"%char q) by (intros X; destruct (Hq _ X) as [Y|Y]; [contradiction|discriminate]).
  assert (R : forall key, key <> [] -> out_replaced ins key (out_cb ins key)) by (intros; now apply out_cb_replaced).
  destruct (format_dir (out_cb ins) q n Nq) as [E1 E2]. rewrite formatted_spec by (rewrite E2; apply Td; exact R). rewrite E1.
  destruct (format_spec (out_cb ins) n) as [n'|] eqn:E; cbn [option_map].
  - split; [rewrite is_abs_app; [exact Aq|now destruct q]|]. exists n'. split; [exists (out_cb ins); auto|].
    rewrite <- app_assoc. cbn [app]. change "/"%char with SEP. now rewrite comps_app, Cq.
  - intros n' (m & Hm & Hf). destruct (format_kind m (out_cb ins) n n') as [w Hw]; [|exact Hf|congruence].
    intros key Hk. eapply out_replaced_kind; [apply Hm; exact Hk|apply R; exact Hk].
Qed.

(** ** generators *)
Lemma common_scan_prefix x : forall y i ce, fst (common_scan x (x ++ y) i ce) = i + length x.
Proof.
  induction x as [|c x IH]; intros y i ce; cbn [common_scan app length]; [destruct y; cbn; lia|]. rewrite ceqb_refl, IH. lia.
Qed.
Lemma relative_below base src rel : is_abs base = true -> is_abs src = true -> comps base <> [] -> rel <> [] ->
  comps src = comps base ++ rel -> Forall noup (comps src) -> path_relative_to base src = Some (render false rel).
Proof.
  intros Hb Hs Nb Nr E Nu. unfold path_relative_to. assert (N1 : base <> []) by (intros ->; discriminate). assert (N2 : src <> []) by (intros ->; discriminate).
  rewrite !normalize_true by assumption. rewrite Hb, Hs.
  assert (Nu1 : Forall noup (comps base)) by (rewrite E in Nu; now apply Forall_app in Nu).
  assert (W1 : flat (walk (comps base)) = comps base) by (unfold walk; rewrite fold_walk_noup by exact Nu1; reflexivity).
  assert (W2 : flat (walk (comps src)) = comps src) by (unfold walk; rewrite fold_walk_noup by exact Nu; reflexivity).
  rewrite W1, W2. pose proof (comps_good src) as G. rewrite E in G. apply Forall_app in G as [Gb Gr].
  rewrite !is_abs_same, !is_abs_render by (auto using comps_good). cbn [negb orb].
  rewrite E. set (b := render true (comps base)).
  assert (Eb : render true (comps base ++ rel) = b ++ SEP :: joinb [SEP] rel).
  { unfold b, render. change (B "/") with [SEP]. rewrite joinb_body. destruct rel as [|r0 rel]; [contradiction|].
    rewrite body_joinb by exact Nb. cbn [app]. now rewrite <- app_assoc. }
  rewrite Eb. assert (Lb : 2 <= length b).
  { unfold b, render. change (B "/") with [SEP]. pose proof (joinb_nonempty (comps base) Nb Gb). destruct (joinb [SEP] (comps base)); [contradiction|cbn; lia]. }
  destruct (beqb_spec b (b ++ SEP :: joinb [SEP] rel)) as [X|_].
  { assert (Y : length b = length (b ++ SEP :: joinb [SEP] rel)) by now rewrite <- X. rewrite app_length in Y. cbn in Y. lia. }
  pose proof (common_scan_prefix b (SEP :: joinb [SEP] rel) 0 0) as Cs. destruct (common_scan b (b ++ SEP :: joinb [SEP] rel) 0 0) as [i ce]. cbn [fst Nat.add] in Cs. subst i.
  rewrite nth_pre. cbn [nth]. rewrite Nat.leb_refl. rewrite app_length. cbn [length].
  destruct (Nat.leb_spec (length b + S (length (joinb [SEP] rel))) (length b)); [lia|]. rewrite ceqb_refl. cbn [negb andb].
  destruct (Nat.eqb_spec (length b) 0); [lia|]. destruct (Nat.eqb_spec (length b) 1); [lia|].
  destruct (Nat.ltb_spec (S (length b)) (length b)); [lia|]. destruct (Nat.ltb_spec (length b) (length b + S (length (joinb [SEP] rel)))); [|lia].
  replace (S (length b)) with (length (b ++ [SEP])) by (rewrite app_length; cbn; lia).
  replace (b ++ SEP :: joinb [SEP] rel) with ((b ++ [SEP]) ++ joinb [SEP] rel) by (now rewrite <- app_assoc). rewrite skipn_pre. cbn [app].
  rewrite normalize_false by (apply joinb_nonempty; auto). rewrite joinb_head by exact Gr. now rewrite comps_joinb by exact Gr.
Qed.
Lemma preserved_dir dir base src rel f : is_abs dir = true -> is_abs base = true -> is_abs src = true -> comps base <> [] ->
  comps src = comps base ++ rel ++ [f] -> Forall noup (comps src) ->
  exists d, (do r <- path_relative_to base src; do d <- path_dirname r; path_join dir d) = Some d /\ is_abs d = true /\ comps d = comps dir ++ rel /\
    forall c, In c d -> In c dir \/ In c src \/ c = "/"%char.
Proof.
  intros Hd Hb Hs Nb E Nu. rewrite (relative_below base src (rel ++ [f]) Hb Hs Nb); [|now destruct rel|exact E|exact Nu].
  pose proof (comps_good src) as G. rewrite E in G. apply Forall_app in G as [_ G].
  assert (Nr : render false (rel ++ [f]) <> []) by (now apply render_nonempty).
  destruct (dirname_basename (render false (rel ++ [f])) rel f Nr) as [_ ->]; [now apply comps_render|].
  rewrite is_abs_render by exact G. apply Forall_app in G as [G _].
  assert (Nn : render false rel <> []) by (now apply render_nonempty).
  rewrite join_name; [|exact Hd|exact Nn|now apply is_abs_render]. eexists. split; [reflexivity|].
  rewrite comps_render by exact G. assert (G2 : Forall good (comps dir ++ rel)) by (apply Forall_app; split; [apply comps_good|exact G]).
  split; [now apply is_abs_render|]. split; [now apply comps_render|]. intros c Hc. cbn [render] in Hc. destruct Hc as [<-|Hc]; [auto|].
  destruct (in_joinb c _ Hc) as [->|(x & Hx & Hc')]; [auto|]. apply in_app_or in Hx as [Hx|Hx]; [left; eapply in_comps; eauto|right; left].
  eapply in_comps; [|exact Hc']. rewrite E. apply in_or_app. right. apply in_or_app. now left.
Qed.

(** ** how many words an argument gives *)
Lemma Forall2_len {A B} (R : A -> B -> Prop) a b : Forall2 R a b -> length a = length b.
Proof. induction 1; cbn; auto. Qed.
Lemma string_words_len o s a b : string_words o s a -> string_words o s b -> length a = length b.
Proof.
  intros Ha Hb. destruct Ha as [ps ws H1 H2|ps ws H1 H2|l H1 H2|H1 H2|s m w N1 N2 N3 Hm Hf].
  - remember (B "@INPUT@") as s eqn:E. destruct Hb as [ps' ws' H1' H2'|? ? ? ?|? ? ?|? ?|s m w N1 N2 N3 Hm Hf]; try discriminate E.
    + apply Forall2_len in H2, H2'. congruence.
    + exfalso. apply N1. split; [exact E|congruence].
  - remember (B "@OUTPUT@") as s eqn:E. destruct Hb as [? ? ? ?|ps' ws' H1' H2'|? ? ?|? ?|s m w N1 N2 N3 Hm Hf]; try discriminate E.
    + apply Forall2_len in H2, H2'. congruence.
    + exfalso. apply N2. split; [exact E|congruence].
  - remember (B "@EXTRA_ARGS@") as s eqn:E. destruct Hb as [? ? ? ?|? ? ? ?|l' ? H2'|? H2'|s m w N1 N2 N3 Hm Hf]; try discriminate E; try congruence.
    exfalso. apply N3. auto.
  - remember (B "@EXTRA_ARGS@") as s eqn:E. destruct Hb as [? ? ? ?|? ? ? ?|l' ? H2'|? H2'|s m w N1 N2 N3 Hm Hf]; try discriminate E; try congruence.
    exfalso. apply N3. auto.
  - destruct Hb as [ps ws H1 H2|ps ws H1 H2|l H1 H2|H1 H2|]; [| | | |reflexivity]; exfalso.
    + apply N1. split; congruence.
    + apply N2. split; congruence.
    + now apply N3.
    + now apply N3.
Qed.
Lemma concat_len {A X} (R : X -> list A -> Prop) : (forall x a b, R x a -> R x b -> length a = length b) ->
  forall xs a b, Forall2 R xs a -> Forall2 R xs b -> length (concat a) = length (concat b).
Proof.
  intros H xs a b Ha. revert b. induction Ha as [|x y xs ys Hy _ IH]; intros b Hb; inversion Hb; subst; [reflexivity|].
  cbn [concat]. rewrite !app_length. f_equal; [eapply H; eauto|auto].
Qed.
Lemma words_len o v a b : words o v a -> words o v b -> length a = length b.
Proof.
  intros Ha Hb. destruct Ha; inversion Hb; subst; try reflexivity.
  - eapply string_words_len; eauto.
  - repeat match goal with H : Forall2 _ _ _ |- _ => apply Forall2_len in H end. congruence.
  - eapply concat_len; eauto. intros x a b. apply string_words_len.
Qed.

(** ** texts without a backslash are tidy *)
Lemma scan_no_escape s : ~ In BSLASH s -> forall key, scan_key s key <> Escaped.
Proof.
  induction s as [|c s IH]; intros H key; cbn [scan_key]; [discriminate|]. destruct (ceqb c "@"%char); [discriminate|].
  destruct (ceqb_spec c BSLASH) as [->|]; [exfalso; apply H; now left|]. cbn [andb]. apply IH. intros X. apply H. now right.
Qed.
Lemma scan_closed_no_escape s : forall key k r, ~ In BSLASH s -> scan_key s key = Closed k r -> ~ In BSLASH r.
Proof.
  induction s as [|c s IH]; intros key k r H E; cbn [scan_key] in E; [discriminate|]. assert (Hs : ~ In BSLASH s) by (intros X; apply H; now right).
  destruct (ceqb c "@"%char); [inversion E; now subst|]. destruct (_ && _); [discriminate|eauto].
Qed.
Lemma plain_clean m n : forall s, ~ In BSLASH s -> fmt_clean m n s = true.
Proof.
  induction n as [|n IH]; intros s H; cbn [fmt_clean]; [reflexivity|]. destruct s as [|c s]; [reflexivity|]. assert (Hs : ~ In BSLASH s) by (intros X; apply H; now right).
  destruct (ceqb_spec c BSLASH) as [->|]; [exfalso; apply H; now left|]. cbn [andb]. destruct (ceqb c "@"%char); [|auto].
  destruct (scan_key s []) as [[|k0 k] rest| |] eqn:E; try (apply IH; exact Hs); [|exfalso; eapply scan_no_escape; eauto].
  destruct (m (k0 :: k)); apply IH; auto. eapply scan_closed_no_escape; eauto.
Qed.

(** ** whole targets *)
Lemma output_files_spec dir ins ns : is_abs dir = true -> ~ In "@"%char dir -> (forall l, ins = Some l -> Forall abs_file l) ->
  Forall (fun n => one_name n /\ out_tidy ins n) ns ->
  match output_files dir ins ns with
  | Some ps => Forall2 (lies dir ins) ns ps
  | None => exists n, In n ns /\ forall n', ~ written ins n n'
  end.
Proof.
  intros Hd Ha F. induction 1 as [|n ns [Hn Ht] _ IH]; cbn [output_files]; [constructor|].
  pose proof (output_file_spec dir ins n Hd Ha Hn F Ht) as H. destruct (output_file dir ins n) as [p|]; [|exists n; split; [now left|exact H]].
  destruct (output_files dir ins ns) as [ps|]; [constructor; [exact H|exact IH]|]. destruct IH as (x & Hx & Nx). exists x. split; [now right|exact Nx].
Qed.
Lemma make_spec m : ok_make m ->
  match make_custom_target m with
  | Some c => made m c /\ (exists ds, needed m (c_out c) (c_depfile c) ds /\ c_deps c = map IStr ds) /\ c_env c = None /\
      c_stale c = false /\ c_console c = false /\ c_default c = false
  | None => cannot_make m
  end.
Proof.
  intros Ok. unfold make_custom_target. assert (F : forall l, m_in m = Some l -> Forall abs_file l) by (intros l H; now apply (om_in m Ok)).
  set (eo := match m_out m with None => Some None | Some [] => None | Some (n :: ns) => do ps <- output_files (m_dir m) (m_in m) (n :: ns); Some (Some ps) end).
  assert (Eo : match eo with
    | Some outs => (m_out m = None -> outs = None) /\ (forall ns, m_out m = Some ns -> exists ps, outs = Some ps /\ ps <> [] /\ Forall2 (lies (m_dir m) (m_in m)) ns ps)
    | None => cannot_make m end).
  { unfold eo. destruct (m_out m) as [[|n ns]|] eqn:E; [now apply cm_empty| |split; [auto|discriminate]].
    destruct (om_out m Ok _ E) as [Fo _]. pose proof (output_files_spec (m_dir m) (m_in m) (n :: ns) (om_dir m Ok) (om_at m Ok) F Fo) as H.
    destruct (output_files _ _ _) as [ps|]; [|destruct H as (x & Hx & Nx); exact (cm_output m _ x E Hx Nx)]. split; [discriminate|]. intros ns' E'. inversion E'; subst ns'. exists ps.
    split; [reflexivity|]. split; [inversion H; discriminate|exact H]. }
  assert (X : match m_out m with None => Some None | Some ns => match ns with [] => None | _ :: _ => do ps <- output_files (m_dir m) (m_in m) ns; Some (Some ps) end end = eo).
  { unfold eo. now destruct (m_out m) as [[|n ns]|]. }
  replace (match m_out m with Some [] => None | Some (_ :: _ as ns) => _ | None => _ end) with eo.
  destruct eo as [outs|]; [|exact Eo]. destruct Eo as [Eo1 Eo2].
  assert (Ed : match (match m_depfile m with None => Some None | Some n => do p <- output_file (m_dir m) (m_in m) n; Some (Some p) end) with
    | Some dep => (m_depfile m = None -> dep = None) /\ (forall n, m_depfile m = Some n -> exists p, dep = Some p /\ lies (m_dir m) (m_in m) n p)
    | None => cannot_make m end).
  { destruct (m_depfile m) as [n|] eqn:E; [|split; [auto|discriminate]]. destruct (om_depfile m Ok n E) as [Hn Ht].
    pose proof (output_file_spec (m_dir m) (m_in m) n (om_dir m Ok) (om_at m Ok) Hn F Ht) as H. destruct (output_file _ _ _) as [p|]; [|exact (cm_depfile m n E H)].
    split; [discriminate|]. intros n' E'. inversion E'; subst n'. exists p. split; [reflexivity|exact H]. }
  destruct (match m_depfile m with None => _ | Some _ => _ end) as [dep|]; [|exact Ed]. destruct Ed as [Ed1 Ed2].
  fold (target_opts m outs dep).
  assert (Oo : ok_opts (target_opts m outs dep)).
  { constructor; cbn [target_opts o_root o_source o_out_dir o_cwd o_name o_in o_out o_depfile o_gen_dir]; try apply Ok.
    - intros l ->. destruct (m_out m) as [ns|] eqn:En; [|discriminate (Eo1 eq_refl)]. destruct (Eo2 ns eq_refl) as (ps & E1 & _ & E2). inversion E1; subst ps.
      split; [clear - E2; induction E2 as [|? ? ? ? [H _] _ IH]; constructor; auto|]. unfold few. rewrite <- (Forall2_len _ _ _ E2). now apply (om_out m Ok).
    - intros p ->. destruct (m_depfile m) as [n|] eqn:En; [|discriminate (Ed1 eq_refl)]. destruct (Ed2 n eq_refl) as (q & E1 & [E2 _]). inversion E1; now subst q. }
  assert (Cm : (forall wss, Forall2 (words (target_opts m outs dep)) (m_command m) wss -> concat wss = []) -> cannot_make m).
  { intros Hn. apply (cm_command m outs dep); [| |exact Hn].
    - destruct (m_out m) as [ns|]; [|auto]. destruct (Eo2 ns eq_refl) as (ps & E1 & _ & E2). eauto.
    - destruct (m_depfile m) as [n|]; [|auto]. destruct (Ed2 n eq_refl) as (p & E1 & E2). eauto. }
  unfold process_commandline. pose proof (fmt_values_spec _ (m_command m) Oo (om_command m Ok outs dep) (St [] [] 0)) as H.
  destruct (fmt_values _ _ _) as [s|]; [|apply Cm; intros wss Hw; exfalso; exact (H wss Hw)]. destruct H as (wss & dss & i & -> & Hw & Hn & Hr). cbn [st_words st_deps st_i app] in *.
  destruct (concat wss) as [|w0 ws0] eqn:Ew; [apply Cm; intros wss' Hw'; apply length_zero_iff_nil; rewrite <- (concat_len (words (target_opts m outs dep)) (words_len _) (m_command m) wss wss' Hw Hw'); now rewrite Ew|]. rewrite <- Ew in *. cbn [c_name c_in c_out c_depfile c_args c_deps c_env c_capture c_feed c_stale c_console c_default].
  split; [constructor; cbn [c_name c_in c_out c_depfile c_args c_capture c_feed]; auto|split; [exists (concat dss); split; [exists dss; auto|reflexivity]|auto]].
  - split; [rewrite Ew; discriminate|eauto].
  - now apply Hr.
Qed.

(** a character of a path that is neither a slash nor a dot is in one of its components *)
Lemma char_in_comps c : c <> "/"%char -> c <> "."%char -> forall p, In c p -> exists x, In x (comps p) /\ In c x.
Proof.
  intros N1 N2 p H. assert (S1 : exists x, In x (split_on "/"%char p) /\ In c x).
  { rewrite <- (split_on_join "/"%char p) in H. destruct (in_joinb c _ H) as [E|E]; [contradiction|exact E]. }
  destruct S1 as (x & Hx & Hc). exists x. split; [|exact Hc]. unfold comps. apply filter_In. split; [exact Hx|].
  unfold moves. destruct (beqb_spec x []) as [->|_]; [destruct Hc|]. destruct (beqb_spec x (B ".")) as [->|_]; [|reflexivity].
  change (B ".") with ["."%char] in Hc. destruct Hc as [X|[]]. congruence.
Qed.
