(** C140, C141: what is left of the rpaths of installed files. *)
From Coq Require Import List Arith NArith Lia.
From Verif Require Import Base M_Path S_Path L_Path M_Rpath S_Rpath L_Rpath.
Import ListNotations.
Local Arguments B _ : simpl never.

(** ** C140 *)

(** the loop over a list, and the file with the NUL that is written after it *)
Lemma paths_done : forall root es pre post n,
  is_abs root = true -> Forall entry es -> es <> [] ->
  Forall (fun e => stays root e \/ goes root e) es ->
  let d := pre ++ list_of es ++ NUL :: post in
  exists d' cp x, paths_loop (S (length d)) root (mkIo d (length pre))
      (mkRp [] (length pre) (length pre) false false true)
      = Done (mkIo d' (length pre + length (list_of es) + 1), x) /\ copy_to x = cp
    /\ remove_paths root (length pre) (mkIo d n)
       = Done (mkIo (firstn cp d' ++ NUL :: skipn (cp + 1) d') (cp + 1), cleared x)
    /\ (exists mid mid', firstn cp d' = pre ++ mid /\ skipn (cp + 1) d' = mid' ++ post
          /\ length mid + length mid' = length (list_of es))
    /\ (cleared x = true <-> Forall (goes root) es).
Proof.
  intros root es pre post n A En Ne Sg d. unfold remove_paths, seek. cbn [data].
  destruct (loop_frame es (S (length d)) root d pre post (length pre) (length pre) false false true A En Sg Ne eq_refl eq_refl
              (length pre) ltac:(lia) ltac:(cbn; lia) ltac:(lia) ltac:(unfold d; rewrite !app_length; cbn [length]; lia))
    as (d' & cp & cu & m & ps & cl & E & (S1 & S2 & S3) & L1 & L2 & C).
  rewrite E. cbn [obind copy_to cleared data].
  assert (Ld : length d = length pre + length (list_of es) + 1 + length post)
    by (unfold d; rewrite !app_length; cbn [length]; lia).
  exists d', cp, (mkRp [] cu cp m ps cl). split; [reflexivity|]. split; [reflexivity|].
  split; [rewrite write_in by (cbn [length]; lia); reflexivity|]. split; [|rewrite C; cbn; tauto].
  exists (skipn (length pre) (firstn cp d')),
      (firstn (length pre + length (list_of es) - cp) (skipn (cp + 1) d')).
  split; [|split].
  - rewrite <- (firstn_skipn (length pre) (firstn cp d')) at 1. f_equal.
    rewrite firstn_firstn, Nat.min_l by lia. rewrite S2. unfold d.
    rewrite firstn_app, firstn_all, Nat.sub_diag. cbn [firstn]. apply app_nil_r.
  - rewrite <- (firstn_skipn (length pre + length (list_of es) - cp) (skipn (cp + 1) d')) at 1. f_equal.
    rewrite <- skipn_add. replace (cp + 1 + (length pre + length (list_of es) - cp))
      with (length pre + length (list_of es) + 1) by lia.
    rewrite S3. unfold d. rewrite app_assoc.
    replace (length pre + length (list_of es) + 1) with (length (pre ++ list_of es) + 1) by (rewrite app_length; lia).
    rewrite skipn_add, skipn_app, skipn_all, Nat.sub_diag. reflexivity.
  - rewrite skipn_length, !firstn_length, skipn_length. lia.
Qed.

(** Whatever the entries are, nothing outside of the list is changed, it still ends with a NUL
    before its end, and it is said to be empty exactly if no entry stays. *)
Theorem C140_frame : forall root es pre post n,
  is_abs root = true -> Forall entry es -> es <> [] ->
  Forall (fun e => stays root e \/ goes root e) es ->
  exists f cl, remove_paths root (length pre) (mkIo (pre ++ list_of es ++ NUL :: post) n) = Done (f, cl)
    /\ (exists mid mid', data f = pre ++ mid ++ NUL :: mid' ++ post
          /\ length mid + length mid' = length (list_of es))
    /\ (cl = true <-> Forall (goes root) es).
Proof.
  intros root es pre post n A En Ne Sg.
  destruct (paths_done root es pre post n A En Ne Sg) as (d' & cp & x & _ & _ & E & (mid & mid' & P1 & P2 & L) & C).
  eexists _, _. split; [exact E|]. split; [|exact C]. exists mid, mid'. split; [|exact L]. cbn [data].
  rewrite P1, P2, <- app_assoc. reflexivity.
Qed.
Print Assumptions C140_frame.

(** If one entry stays, the list is this entry afterwards. *)
Theorem C140_one_stays_partial : forall root g1 k g2 pre post n,
  is_abs root = true -> Forall entry (g1 ++ k :: g2) -> Forall (goes root) g1 -> Forall (goes root) g2 ->
  stays root k ->
  exists f mid, remove_paths root (length pre) (mkIo (pre ++ list_of (g1 ++ k :: g2) ++ NUL :: post) n) = Done (f, false)
    /\ data f = pre ++ k ++ NUL :: mid ++ post /\ length k + length mid = length (list_of (g1 ++ k :: g2)).
Proof.
  intros root g1 k g2 pre post n A En G1 G2 St.
  assert (Sg : Forall (fun e => stays root e \/ goes root e) (g1 ++ k :: g2)).
  { apply Forall_app. split; [|constructor; [left; exact St|]]; eapply Forall_impl; try eassumption; intros; right; assumption. }
  destruct (paths_done root (g1 ++ k :: g2) pre post n A En ltac:(destruct g1; discriminate) Sg)
    as (d' & cp & x & E0 & Ec & E & (mid & mid' & P1 & P2 & L) & C).
  destruct (loop_one g1 g2 k (S (length (pre ++ list_of (g1 ++ k :: g2) ++ NUL :: post))) root pre post A En G1 G2 St
              ltac:(rewrite !app_length; cbn [length]; lia))
    as (f1 & cu & m & ps & E1 & F1). rewrite E1 in E0. injection E0 as -> <-. cbn [copy_to cleared] in *. subst cp. cbn [data] in F1.
  rewrite F1 in P1. apply app_inv_head in P1 as <-.
  eexists _, mid'. split; [exact E|]. split; [|exact L]. cbn [data]. rewrite F1, P2, <- app_assoc. reflexivity.
Qed.
Print Assumptions C140_one_stays_partial.

(** If none stays, it is empty. *)
Theorem C140_none_stays : forall root g pre post n,
  is_abs root = true -> Forall entry g -> Forall (goes root) g -> g <> [] ->
  exists f mid, remove_paths root (length pre) (mkIo (pre ++ list_of g ++ NUL :: post) n) = Done (f, true)
    /\ data f = pre ++ NUL :: mid ++ post /\ length mid = length (list_of g).
Proof.
  intros root g pre post n A En G Ne.
  assert (Sg : Forall (fun e => stays root e \/ goes root e) g) by (eapply Forall_impl; try eassumption; intros; right; assumption).
  destruct (paths_done root g pre post n A En Ne Sg) as (d' & cp & x & E0 & Ec & E & (mid & mid' & P1 & P2 & L) & C).
  destruct (loop_all_go g (S (length (pre ++ list_of g ++ NUL :: post))) root pre post (length pre) false false true A En G Ne
              ltac:(rewrite !app_length; cbn [length]; lia)) as (cu & E1).
  rewrite E1 in E0. injection E0 as E2 <-. cbn [copy_to cleared] in *. subst cp.
  assert (mid = []).
  { pose proof (f_equal (@length ascii) P1) as X. rewrite firstn_length, app_length in X.
    destruct mid; [reflexivity|]. cbn [length] in X. lia. }
  subst mid. rewrite app_nil_r in P1. cbn [length plus] in L.
  eexists _, mid'. split; [exact E|]. split; [|exact L]. cbn [data]. rewrite P1, P2. reflexivity.
Qed.
Print Assumptions C140_none_stays.

Definition chars_ok (e : bytes) : bool := negb (mem_char NUL e) && negb (mem_char COLON e).
Lemma entry_ok : forall e, chars_ok e = true -> (N.of_nat (length e) <? 4096)%N = true -> entry e.
Proof.
  intros e C L. apply Bool.andb_true_iff in C as (C1 & C2). apply Bool.negb_true_iff in C1, C2.
  split; [|split; [|apply N.ltb_lt; exact L]]; intros X; apply mem_char_In in X; congruence.
Qed.

Lemma stays_out : forall root e, path_is_subpath root e = Some false -> is_abs root = true -> e <> [] -> stays root e.
Proof.
  intros root e E A Ne. split; [exact Ne|]. intros X.
  destruct (path_is_subpath_spec root e ltac:(intros ->; discriminate) Ne (or_introl A)) as (b & Eb & Sb).
  rewrite Eb in E. injection E as ->. apply Sb in X. discriminate.
Qed.
Lemma goes_in : forall root e, path_is_subpath root e = Some true -> is_abs root = true -> e <> [] -> goes root e.
Proof.
  intros root e E A Ne. right.
  destruct (path_is_subpath_spec root e ltac:(intros ->; discriminate) Ne (or_introl A)) as (b & Eb & Sb).
  rewrite Eb in E. injection E as ->. apply Sb. reflexivity.
Qed.

Example C140_ex : let root := B "/src/build" in
  is_abs root = true /\ Forall entry [B "/src/build/lib"; B "$ORIGIN/../lib"; []; B "/src/build"]
  /\ Forall (goes root) [B "/src/build/lib"] /\ Forall (goes root) [[]; B "/src/build"]
  /\ stays root (B "$ORIGIN/../lib")
  /\ remove_paths root 3 (mkIo (B "abc" ++ B "/src/build/lib:$ORIGIN/../lib::/src/build" ++ NUL :: B "libm.so") 0)
     = Done (mkIo (B "abc$ORIGIN/../lib" ++ NUL :: B "$ORIGIN/../lib::/src/build" ++ NUL :: B "libm.so") 18, false).
Proof.
  cbv zeta. split; [reflexivity|].
  split; [repeat (apply Forall_cons; [apply entry_ok; reflexivity|]); apply Forall_nil|].
  split; [apply Forall_cons; [apply goes_in; [reflexivity|reflexivity|discriminate]|apply Forall_nil]|].
  split; [apply Forall_cons; [left; reflexivity|apply Forall_cons; [apply goes_in; [reflexivity|reflexivity|discriminate]|apply Forall_nil]]|].
  split; [apply stays_out; [reflexivity|reflexivity|discriminate]|]. vm_compute. reflexivity.
Qed.

(** If two entries stay, even if there are no others, the last character of the list is lost. *)
Theorem C140_two_stay_refuted : forall root e1 e2 pre post n,
  is_abs root = true -> entry e1 -> entry e2 -> stays root e1 -> stays root e2 ->
  exists f e c, remove_paths root (length pre) (mkIo (pre ++ list_of [e1; e2] ++ NUL :: post) n) = Done (f, false)
    /\ e2 = e ++ [c] /\ data f = pre ++ list_of [e1; e] ++ NUL :: NUL :: post.
Proof.
  intros root e1 e2 pre post n A En1 En2 St1 St2.
  destruct (exists_last (proj1 St2)) as (e & c & E2). unfold remove_paths, seek. cbn [data].
  set (d := pre ++ list_of [e1; e2] ++ NUL :: post).
  assert (Ld : length d = length pre + length e1 + 1 + length e2 + 1 + length post).
  { unfold d. rewrite list_cons, list_one, !app_length. cbn [length]. rewrite ?app_length. cbn [length]. lia. }
  assert (D : d = pre ++ e1 ++ COLON :: e2 ++ NUL :: post).
  { unfold d. rewrite list_cons, list_one, <- !app_assoc. reflexivity. }
  set (N := length d) in *. clearbody N.
  replace (S N) with (length e1 + S (N - length e1)) by lia. rewrite D.
  rewrite loop_entry by (try assumption; right; reflexivity). rewrite end_stays by assumption.
  cbn [obind]. change (ceqb COLON NUL) with false. cbn [rpath cur_off copy_to modified preserve_separator cleared].
  replace (pre ++ e1 ++ COLON :: e2 ++ NUL :: post) with ((pre ++ e1 ++ [COLON]) ++ e2 ++ NUL :: post)
    by (rewrite <- !app_assoc; reflexivity).
  replace (length pre + length e1 + 1) with (length (pre ++ e1 ++ [COLON])) by (rewrite !app_length; cbn [length]; lia).
  replace (N - length e1) with (length e2 + S (N - length e1 - length e2 - 1)) by lia.
  rewrite loop_entry by (try assumption; left; reflexivity). rewrite end_stays by assumption.
  cbn [obind]. rewrite (ceqb_refl NUL). cbn [copy_to cleared data].
  eexists _, e, c. split; [reflexivity|]. split; [exact E2|].
  replace ((pre ++ e1 ++ [COLON]) ++ e2 ++ NUL :: post) with ((pre ++ e1 ++ COLON :: e) ++ c :: NUL :: post)
    by (rewrite E2, <- !app_assoc; reflexivity).
  replace (length pre + length e1 + length e2) with (length (pre ++ e1 ++ COLON :: e))
    by (rewrite E2, !app_length; cbn [length]; lia).
  cbn [data copy_to]. rewrite write_in by (rewrite (app_length (pre ++ e1 ++ COLON :: e)); cbn [length]; lia). cbn [data length].
  rewrite firstn_app, firstn_all, Nat.sub_diag. cbn [firstn]. rewrite app_nil_r.
  rewrite skipn_add, skipn_app, skipn_all, Nat.sub_diag. cbn [skipn app].
  rewrite list_cons, list_one, <- !app_assoc. reflexivity.
Qed.
Print Assumptions C140_two_stay_refuted.

Example C140_two_stay_ex : let root := B "/src/build" in
  stays root (B "/opt/a/lib") /\ stays root (B "/opt/b/lib") /\ entry (B "/opt/a/lib") /\ entry (B "/opt/b/lib").
Proof.
  cbv zeta. split; [apply stays_out; [reflexivity|reflexivity|discriminate]|].
  split; [apply stays_out; [reflexivity|reflexivity|discriminate]|].
  split; apply entry_ok; reflexivity.
Qed.

(** Of three that stay after one that goes, the third is appended to the second. *)
Theorem C140_three_stay_refuted :
  remove_paths (B "/src/build") 0 (mkIo (B "/src/build/lib:/opt/a:/opt/b:/opt/c" ++ [NUL]) 0)
  = Done (mkIo (B "/opt/a:/opt/b/opt/" ++ NUL :: NUL :: B "a:/opt/b:/opt/c" ++ [NUL]) 19, false).
Proof. vm_compute. reflexivity. Qed.
Print Assumptions C140_three_stay_refuted.

(** An entry of exactly the size of the buffer is written beyond it, a longer one aborts. *)
Theorem C140_long_entry_refuted : forall root e c rest pre post n,
  ~ In NUL e -> ~ In COLON e -> N.of_nat (length e) = 4096%N -> c = NUL \/ c = COLON ->
  remove_paths root (length pre) (mkIo (pre ++ e ++ c :: post) n) = Overruns
  /\ forall x, x <> NUL -> x <> COLON ->
     remove_paths root (length pre) (mkIo (pre ++ e ++ x :: rest) n) = Aborts.
Proof.
  intros root e c rest pre post n N0 N1 L C. assert (L1 : length e = rpath_size) by (unfold rpath_size; lia).
  assert (K : forall y t, paths_loop (S (length (pre ++ e ++ y :: t))) root (mkIo (pre ++ e ++ y :: t) (length pre))
      (mkRp [] (length pre) (length pre) false false true)
     = paths_loop (S (S (length pre + length t))) root (mkIo ((pre ++ e) ++ y :: t) (length (pre ++ e)))
      (mkRp e (length pre + length e) (length pre) false false true)).
  { intros y t. replace (S (length (pre ++ e ++ y :: t))) with (length e + S (S (length pre + length t)))
      by (rewrite !app_length; cbn [length]; lia).
    rewrite loop_chars by (try assumption; cbn [length]; lia). rewrite app_length, <- app_assoc. reflexivity. }
  assert (Sz : (rpath_size <? length e) = false /\ (length e =? rpath_size) = true /\ (rpath_size <=? length e) = true).
  { rewrite L1. split; [apply Nat.ltb_irrefl|]. split; [apply Nat.eqb_refl|apply Nat.leb_refl]. }
  destruct Sz as (C1 & C2 & C3). unfold remove_paths, seek. cbn [data]. split.
  - rewrite K. cbn [paths_loop]. rewrite read_1. cbn [obind hd].
    replace (ceqb c NUL || ceqb c ":"%char)%bool with true by (destruct C as [-> | ->]; reflexivity).
    unfold end_of_path. cbn [rpath]. rewrite C1, C2. reflexivity.
  - intros x X0 X1. rewrite K. cbn [paths_loop]. rewrite read_1. cbn [obind hd rpath].
    destruct (ceqb_spec x NUL) as [|_]; [contradiction|]. destruct (ceqb_spec x ":"%char) as [|_]; [contradiction|].
    cbn [orb]. rewrite C3. reflexivity.
Qed.
Print Assumptions C140_long_entry_refuted.

(** ** C141 *)

(** A file that is not an ELF file is left alone. *)
Theorem C141_not_elf : forall root s, firstn 4 s <> ascii_of_nat 127 :: B "ELF" -> fix_rpaths root s = Done s.
Proof.
  intros root s N. unfold fix_rpaths.
  assert (P : parse_elf (mkIo s 0) = None).
  { unfold parse_elf. destruct (read 16 (mkIo s 0)) as [[i f]| | | |] eqn:R; try reflexivity.
    assert (L : 16 <= length s) by (destruct (read_bound _ _ _ _ R) as (_ & _ & B); apply B; lia).
    rewrite read_some in R by lia. assert (Hi : i = firstn 16 (skipn 0 s)) by congruence. rewrite Hi, firstn_firstn.
    change (Nat.min 4 16) with 4. change (skipn 0 s) with s.
    destruct (beqb_spec (firstn 4 s) (ascii_of_nat 127 :: B "ELF")) as [E|_]; [contradiction|]. reflexivity. }
  rewrite P. reflexivity.
Qed.
Print Assumptions C141_not_elf.

Example C141_not_elf_ex : firstn 4 (B "#!/bin/sh") <> ascii_of_nat 127 :: B "ELF".
Proof. discriminate. Qed.

(** Whatever a file holds, it does not become longer or shorter. *)
Theorem C141_size : forall root s s', fix_rpaths root s = Done s' -> length s' = length s.
Proof.
  intros root s s' H. unfold fix_rpaths in H. destruct (parse_elf _) as [e|]; [|injection H as <-; reflexivity].
  destruct (parse_sections e _) as [[[d t] f1]| | | |] eqn:E1; try discriminate. cbn [obind] in H.
  destruct (parse_dynamic e d f1) as [[l f2]| | | |] eqn:E2; try discriminate. cbn [obind] in H.
  destruct (fix_each _ _ _ _ _ _) as [f3| | | |] eqn:E3; try discriminate. cbn [obind] in H. injection H as <-.
  rewrite (each_size _ _ _ _ _ _ _ E3), (parse_dynamic_data _ _ _ _ _ E2).
  unfold parse_sections in E1. destruct (hdr_size <? shentsize e); [discriminate|].
  rewrite (sections_data _ _ _ _ _ _ _ _ E1). reflexivity.
Qed.
Print Assumptions C141_size.

(** A file without rpaths does not change. *)
Theorem C141_no_rpaths : forall root s shoff shnum doff n toff,
  elf64 s shoff shnum -> dynamic s shoff shnum doff n toff ->
  (forall j, j < n -> dyn_tag s doff j <> 15) -> (forall j, j < n -> dyn_tag s doff j <> 29) ->
  fix_rpaths root s = Done s.
Proof.
  intros root s so sn doff n toff E D N1 N2. destruct (fix64 root _ _ _ _ _ _ E D) as (t & f & _ & Df & ->).
  rewrite !tag_not by assumption. cbn [fix_each obind]. rewrite Df. reflexivity.
Qed.
Print Assumptions C141_no_rpaths.

(** If one entry of the only list of rpaths lies outside of the build directory, it becomes the
    list, and nothing but the list changes. *)
Theorem C141_one_stays_partial : forall root s shoff shnum doff n toff j tag g1 k g2 pre post,
  elf64 s shoff shnum -> dynamic s shoff shnum doff n toff ->
  (tag = 15 /\ (forall i, i < n -> dyn_tag s doff i <> 29) \/ tag = 29 /\ forall i, i < n -> dyn_tag s doff i <> 15) ->
  j < n -> dyn_tag s doff j = tag -> (forall i, j < i -> i < n -> dyn_tag s doff i <> tag) ->
  s = pre ++ list_of (g1 ++ k :: g2) ++ NUL :: post -> length pre = toff + dyn_val s doff j ->
  is_abs root = true -> Forall entry (g1 ++ k :: g2) -> Forall (goes root) g1 -> Forall (goes root) g2 ->
  stays root k ->
  exists mid, fix_rpaths root s = Done (pre ++ k ++ NUL :: mid ++ post)
    /\ length k + length mid = length (list_of (g1 ++ k :: g2)).
Proof.
  intros root s so sn doff n toff j tag g1 k g2 pre post E D T J Tj Tl Es Lp A En G1 G2 St.
  destruct (fix64 root _ _ _ _ _ _ E D) as (t & f & Ot & Df & ->).
  destruct f as [fd fp]. cbn [data] in Df. subst fd.
  destruct (C140_one_stays_partial root g1 k g2 pre post fp A En G1 G2 St) as (f' & mid & R & Df' & L).
  rewrite <- Es, Lp, <- Ot in R. exists mid. split; [|exact L].
  destruct T as [(-> & N) | (-> & N)]; rewrite (tag_at s doff n _ j J Tj Tl), (tag_not s doff n _ N);
    cbn [fix_each]; rewrite R; cbn [obind]; rewrite Df'; reflexivity.
Qed.
Print Assumptions C141_one_stays_partial.

(** If all of them lie in the build directory, the list becomes empty and the dynamic entry for it
    is removed: those behind it move to the front, and the last is there twice.  Nothing else
    changes. *)
Theorem C141_none_stays : forall root s shoff shnum doff n toff tag es u v a x b w,
  elf64 s shoff shnum -> dynamic s shoff shnum doff n toff ->
  (tag = 15 /\ (forall i, i < n -> dyn_tag s doff i <> 29) \/ tag = 29 /\ forall i, i < n -> dyn_tag s doff i <> 15) ->
  dyn_tag s doff (length a) = tag -> (forall i, length a < i -> i < n -> dyn_tag s doff i <> tag) ->
  s = u ++ list_of es ++ NUL :: v ++ concat (a ++ x :: b) ++ w ->
  length u = toff + dyn_val s doff (length a) ->
  doff = length (u ++ list_of es ++ NUL :: v) -> n = length (a ++ x :: b) -> Forall (fun e => length e = 16) (a ++ x :: b) ->
  is_abs root = true -> Forall entry es -> es <> [] -> Forall (goes root) es ->
  exists mid, fix_rpaths root s = Done (u ++ NUL :: mid ++ v ++ concat (a ++ b ++ [last b x]) ++ w)
    /\ length mid = length (list_of es).
Proof.
  intros root s so sn doff n toff tag es u v a x b w E D T Tj Tl Es Lu Ld Ln F A En Ne G.
  destruct (fix64 root _ _ _ _ _ _ E D) as (t & f & Ot & Df & ->).
  destruct f as [fd fp]. cbn [data] in Df. subst fd.
  assert (Jn : length a < n) by (rewrite Ln, app_length; cbn [length]; lia).
  destruct (C140_none_stays root es u (v ++ concat (a ++ x :: b) ++ w) fp A En G Ne) as (f' & mid & R & Df' & L).
  rewrite <- Es, Lu, <- Ot in R. exists mid. split; [|exact L].
  assert (Q : exists f2, remove_path_entry (mkElf true so 64 sn) (mkSec doff n 16) (length a) f' = Done f2
     /\ data f2 = u ++ NUL :: mid ++ v ++ concat (a ++ b ++ [last b x]) ++ w).
  { unfold remove_path_entry. cbn [s_entsize s_len]. change (hdr_size <? 16) with false. cbn iota.
    replace (n - (length a + 1)) with (length b) by (rewrite Ln, app_length; cbn [length]; lia).
    destruct f' as [fd fp']. cbn [data] in Df'.
    assert (Ed : fd = (u ++ NUL :: mid ++ v) ++ concat (a ++ x :: b) ++ w).
    { rewrite Df', <- !app_assoc. cbn [app]. rewrite <- !app_assoc. reflexivity. }
    rewrite Ed. assert (Lp : doff = length (u ++ NUL :: mid ++ v)).
    { rewrite Ld, !app_length. cbn [length]. rewrite !app_length, L. lia. }
    destruct (shift_entries b (mkSec doff n 16) a x (u ++ NUL :: mid ++ v) w fp' Lp F) as (m & Em).
    rewrite Em. cbn [obind]. unfold parse_dynamic. cbn [s_entsize s_len s_off wide]. change (hdr_size <? 16) with false. cbn iota.
    unfold seek. cbn [data]. rewrite Lp.
    assert (F' : Forall (fun e => length e = 16) (a ++ b ++ [last b x])).
    { apply Forall_app in F as (Fa & Fx). inversion Fx as [|? ? Hx Fb]; subst.
      apply Forall_app. split; [exact Fa|]. apply Forall_app. split; [exact Fb|]. constructor; [|constructor].
      clear - Hx Fb. revert x Hx. induction Fb as [|y b Hy Fb IH]; intros x Hx; [exact Hx|]. cbn [last].
      destruct b; [exact Hy|apply IH; exact Hx]. }
    destruct (dynamic_reads (a ++ b ++ [last b x]) true 16 (u ++ NUL :: mid ++ v) w F') as (l & f2 & E2 & D2).
    replace (length (a ++ b ++ [last b x])) with n in E2 by (rewrite Ln, !app_length; cbn [length]; lia).
    rewrite E2. cbn [obind]. exists f2. split; [reflexivity|]. rewrite D2, <- !app_assoc. cbn [app]. rewrite <- !app_assoc. reflexivity. }
  destruct Q as (f2 & Q1 & Q2).
  destruct T as [(-> & N) | (-> & N)]; rewrite (tag_at s doff n _ (length a) Jn Tj Tl), (tag_not s doff n _ N);
    cbn [fix_each]; rewrite R; cbn [obind]; rewrite Q1; cbn [obind]; rewrite Q2; reflexivity.
Qed.
Print Assumptions C141_none_stays.

(** *** a file: header, four sections, strings, dynamic entries *)
Fixpoint num (n v : nat) : bytes := match n with 0 => [] | S n => ascii_of_nat (v mod 256) :: num n (v / 256) end.
Definition header (shnum : nat) : bytes :=
  ascii_of_nat 127 :: B "ELF" ++ num 1 2 ++ num 1 1 ++ num 34 0 ++ num 8 64 ++ num 10 0 ++ num 2 64 ++ num 2 shnum ++ num 2 0.
Definition sec (ty off size es : nat) : bytes := num 4 0 ++ num 4 ty ++ num 16 0 ++ num 8 off ++ num 8 size ++ num 16 0 ++ num 8 es.
Definition dyn (tag v : nat) : bytes := num 8 tag ++ num 8 v.
Definition file (strings : bytes) (ds : list bytes) : bytes :=
  header 3 ++ sec 0 0 0 0 ++ sec 3 256 (length strings) 0 ++ sec 6 (256 + length strings) (16 * length ds) 16
  ++ strings ++ concat ds.

Definition lib_strings (runpath : bytes) : bytes := NUL :: B "libm.so" ++ NUL :: runpath ++ [NUL].

Lemma file_ok : forall runpath ds, In (runpath, ds)
  [ (B "/src/build/lib:/opt/lib", [dyn 1 1; dyn 29 9; dyn 5 256; dyn 0 0]);
    (B "/src/build/lib", [dyn 1 1; dyn 15 9; dyn 5 256; dyn 0 0]); (B "x", [dyn 1 1; dyn 5 256; dyn 0 0]) ] ->
  elf64 (file (lib_strings runpath) ds) 64 3
  /\ dynamic (file (lib_strings runpath) ds) 64 3 (256 + length (lib_strings runpath)) (length ds) 256.
Proof.
  intros rp ds I. cbn [In] in I. repeat (destruct I as [I|I]; [|]); try contradiction; injection I as <- <-.
  all: split; [unfold elf64; repeat split; try (vm_compute; reflexivity); try (left; vm_compute; reflexivity);
    apply Nat.leb_le; vm_compute; reflexivity|].
  all: exists 1, 2; split; [lia|]; split; [lia|]; split; [vm_compute; reflexivity|];
    split; [intros [|[|i]] L; try lia; vm_compute; discriminate|]; split; [vm_compute; reflexivity|]; split; [intros; lia|];
    split; [repeat split; vm_compute; reflexivity|]; split; [apply Nat.leb_le; vm_compute; reflexivity|vm_compute; reflexivity].
Qed.

Example C141_no_rpaths_ex : let s := file (lib_strings (B "x")) [dyn 1 1; dyn 5 256; dyn 0 0] in
  (exists shoff shnum doff n toff, elf64 s shoff shnum /\ dynamic s shoff shnum doff n toff
   /\ (forall j, j < n -> dyn_tag s doff j <> 15) /\ forall j, j < n -> dyn_tag s doff j <> 29)
  /\ fix_rpaths (B "/src/build") s = Done s.
Proof.
  cbv zeta. split; [|vm_compute; reflexivity]. eexists _, _, _, _, _.
  destruct (file_ok (B "x") [dyn 1 1; dyn 5 256; dyn 0 0] ltac:(cbn; tauto)) as (E & D).
  split; [exact E|]. split; [exact D|].
  split; intros [|[|[|j]]] L; cbn [length] in L; try lia; vm_compute; discriminate.
Qed.

Example C141_one_stays_ex : let ds := [dyn 1 1; dyn 29 9; dyn 5 256; dyn 0 0] in
  let s := file (lib_strings (B "/src/build/lib:/opt/lib")) ds in
  (exists shoff shnum doff n toff, elf64 s shoff shnum /\ dynamic s shoff shnum doff n toff
   /\ (forall i, i < n -> dyn_tag s doff i <> 15) /\ dyn_tag s doff 1 = 29
   /\ (forall i, 1 < i -> i < n -> dyn_tag s doff i <> 29) /\ toff + dyn_val s doff 1 = 256 + 9)
  /\ fix_rpaths (B "/src/build") s = Done (file (lib_strings (B "/opt/lib" ++ NUL :: B "d/lib:/opt/lib")) ds).
Proof.
  cbv zeta. split; [|vm_compute; reflexivity]. eexists _, _, _, _, _.
  destruct (file_ok (B "/src/build/lib:/opt/lib") [dyn 1 1; dyn 29 9; dyn 5 256; dyn 0 0] ltac:(cbn; tauto)) as (E & D).
  split; [exact E|]. split; [exact D|].
  split; [intros [|[|[|[|j]]]] L; cbn [length] in L; try lia; vm_compute; discriminate|].
  split; [vm_compute; reflexivity|].
  split; [intros [|[|[|[|j]]]] L1 L; cbn [length] in L; try lia; vm_compute; discriminate|vm_compute; reflexivity].
Qed.

Example C141_none_stays_ex :
  let s := file (lib_strings (B "/src/build/lib")) [dyn 1 1; dyn 15 9; dyn 5 256; dyn 0 0] in
  (exists shoff shnum doff n toff, elf64 s shoff shnum /\ dynamic s shoff shnum doff n toff
   /\ (forall i, i < n -> dyn_tag s doff i <> 29) /\ dyn_tag s doff 1 = 15
   /\ (forall i, 1 < i -> i < n -> dyn_tag s doff i <> 15) /\ toff + dyn_val s doff 1 = 256 + 9)
  /\ fix_rpaths (B "/src/build") s
     = Done (file (lib_strings (NUL :: B "src/build/lib")) [dyn 1 1; dyn 5 256; dyn 0 0; dyn 0 0]).
Proof.
  cbv zeta. split; [|vm_compute; reflexivity]. eexists _, _, _, _, _.
  destruct (file_ok (B "/src/build/lib") [dyn 1 1; dyn 15 9; dyn 5 256; dyn 0 0] ltac:(cbn; tauto)) as (E & D).
  split; [exact E|]. split; [exact D|].
  split; [intros [|[|[|[|j]]]] L; cbn [length] in L; try lia; vm_compute; discriminate|].
  split; [vm_compute; reflexivity|].
  split; [intros [|[|[|[|j]]]] L1 L; cbn [length] in L; try lia; vm_compute; discriminate|vm_compute; reflexivity].
Qed.

(** If a file has both lists and both become empty, the second is not removed but the entry behind
    it: here that for the string table (5), without which the file cannot be loaded. *)
Theorem C141_both_refuted : forall rest,
  In rest [[dyn 0 0]; [dyn 6 4096; dyn 0 0]] ->
  fix_rpaths (B "/src/build") (file (lib_strings (B "/src/build/lib")) ([dyn 1 1; dyn 15 9; dyn 29 9; dyn 5 256] ++ rest))
  = Done (file (lib_strings (NUL :: B "src/build/lib")) ([dyn 1 1; dyn 29 9] ++ rest ++ [dyn 0 0; dyn 0 0])).
Proof. intros rest [<- | [<- | []]]; vm_compute; reflexivity. Qed.
Print Assumptions C141_both_refuted.

(** A file without a dynamic section, which a statically linked executable is, makes it fail. *)
Theorem C141_static_refuted : forall root s shoff shnum, elf64 s shoff shnum ->
  (forall i, i < shnum -> sh_type s shoff i <> 6) -> fix_rpaths root s = Failed.
Proof.
  intros root s so sn E N. unfold fix_rpaths. rewrite (parse_elf64 _ _ _ E).
  destruct E as (_ & _ & _ & _ & _ & _ & _ & L). unfold parse_sections. cbn [shentsize shnum shoff].
  change (hdr_size <? 64) with false. cbn iota. unfold seek. cbn [data].
  replace (mkIo s so) with (mkIo s (so + 64 * 0)) by (f_equal; lia).
  rewrite sections_none; [reflexivity|cbn; lia|]. intros j J. apply N. lia.
Qed.
Print Assumptions C141_static_refuted.

Example C141_static_ex : let s := header 2 ++ sec 0 0 0 0 ++ sec 3 192 4 0 ++ B "main" in
  elf64 s 64 2 /\ forall i, i < 2 -> sh_type s 64 i <> 6.
Proof.
  cbv zeta. split.
  - unfold elf64; repeat split; try (vm_compute; reflexivity); try (left; vm_compute; reflexivity); apply Nat.leb_le; vm_compute; reflexivity.
  - intros [|[|i]] L; try lia; vm_compute; discriminate.
Qed.
