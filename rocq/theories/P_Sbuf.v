(** C134: string buffers.  C135: strings. *)
From Coq Require Import NArith Lia List.
From Verif Require Import Base M_Sbuf S_Sbuf L_Sbuf L_Strs.
Import ListNotations.
Local Open Scope N_scope.
Local Arguments N.to_nat : simpl never.

(** ** C134 *)

Lemma text_snoc : forall os o, text (os ++ [o]) = adds (text os) o.
Proof. intros. unfold text. rewrite fold_left_app. reflexivity. Qed.

Lemma run_snoc : forall junk os o sb,
  run junk sb (os ++ [o]) = obind (run junk sb os) (fun sb => step junk sb o).
Proof.
  induction os as [|x os IH]; intros o sb; cbn [app run].
  - cbn [obind]. destruct (step junk sb o); reflexivity.
  - destruct (step junk sb x); try reflexivity. cbn [obind]. apply IH.
Qed.

Lemma below_prefix : forall xs ys, below_2g (xs ++ ys) -> below_2g xs.
Proof. intros xs ys H b a E. apply (H b (a ++ ys)). rewrite E, app_assoc. reflexivity. Qed.

Lemma avoids_prefix : forall c xs ys, avoids_sizes c (xs ++ ys) -> avoids_sizes c xs.
Proof.
  intros c xs ys H b s a E. apply (H b s (a ++ ys)). rewrite E, <- app_assoc. reflexivity.
Qed.

Lemma exists_last_or : forall (a : list op), a = [] \/ exists a' y, a = a' ++ [y].
Proof.
  intros a. induction a as [|y a' _] using rev_ind; [left; reflexivity|right; eauto].
Qed.

Lemma run_ok : forall junk buf md os,
  nlen buf < 2147483648 -> below_2g os -> avoids_sizes (nlen buf) os ->
  (md = Error /\ run junk (sbuf_init buf md) os = Fatal
     /\ exists before after, os = before ++ after /\ nlen buf <= nlen (text before) + 1)
  \/ exists sb, run junk (sbuf_init buf md) os = Ok sb /\ holds (nlen buf) md sb (text os)
       /\ (md = Error -> forall before after, os = before ++ after ->
             nlen (text before) < nlen buf \/ text before = []).
Proof.
  intros junk buf md os L0. induction os as [|o os IH] using rev_ind; intros B A.
  - right. exists (sbuf_init buf md). split; [reflexivity|]. split; [apply holds_init; exact L0|].
    intros _ b a E. symmetry in E. apply app_eq_nil in E as (-> & _). right. reflexivity.
  - destruct (IH (below_prefix os [o] B) (avoids_prefix _ os [o] A))
      as [(E & R & b & a & Eb & X)|(sb & R & H & K)].
    + left. split; [exact E|]. rewrite run_snoc, R. split; [reflexivity|].
      exists b, (a ++ [o]). split; [rewrite Eb, <- app_assoc; reflexivity|exact X].
    + rewrite run_snoc, R. cbn [obind].
      assert (F : fine (nlen buf) (text os) o).
      { split.
        - rewrite <- text_snoc. apply (B (os ++ [o]) []). rewrite app_nil_r. reflexivity.
        - destruct o; try exact I. specialize (A os s [] eq_refl). rewrite text_snoc in A. exact A. }
      destruct (step_ok junk (nlen buf) md sb (text os) o H (B os [o] eq_refl) F)
        as [(E & S1 & C)|(sb1 & S1 & H1 & K1)].
      * left. split; [exact E|]. split; [exact S1|]. exists (os ++ [o]), [].
        rewrite app_nil_r, text_snoc. split; [reflexivity|exact C].
      * right. exists sb1. rewrite text_snoc. split; [exact S1|]. split; [exact H1|].
        intros E b a Eb.
        destruct (exists_last_or a) as [->|(a' & y & ->)].
        -- rewrite app_nil_r in Eb. subst b. rewrite text_snoc. apply K1; [exact E|].
           apply (K E os []). rewrite app_nil_r. reflexivity.
        -- rewrite app_assoc in Eb. apply app_inj_tail in Eb as (Eb & _). apply (K E b a' Eb).
Qed.

(** For every history of pushes and clears the buffer holds exactly the text that was pushed since
    it was last cleared, followed by a NUL, and nothing is written outside of its memory; only a
    buffer that must not grow ends the program, and only if the text with its NUL fills it.

    Missing: texts of 2 GiB, and formatted text that ends exactly at a size the buffer grows to
    (see [C134_formatted_refuted]). *)
Theorem C134_holds_what_was_pushed_partial : forall junk buf md os,
  nlen buf < 2147483648 -> below_2g os -> avoids_sizes (nlen buf) os ->
  (md = Error /\ run junk (sbuf_init buf md) os = Fatal
     /\ exists before after, os = before ++ after /\ nlen buf <= nlen (text before) + 1)
  \/ exists sb, run junk (sbuf_init buf md) os = Ok sb
       /\ len sb = nlen (text os)
       /\ firstn (length (text os)) (mem sb) = text os
       /\ (nth_error (mem sb) (length (text os)) = Some NUL \/ (buf = [] /\ text os = [])).
Proof.
  intros junk buf md os L B A.
  destruct (run_ok junk buf md os L B A) as [X|(sb & R & H & _)]; [left; exact X|right].
  exists sb. split; [exact R|]. destruct H as [Hm Hl Ht Hc Hs He Hf].
  split; [exact Hl|]. split; [exact Ht|].
  destruct Hc as [(_ & C & _ & T)|(_ & _ & _ & C & _)]; [right|left; exact C].
  split; [|exact T]. destruct buf; [reflexivity|]. unfold nlen in C. cbn [length] in C. lia.
Qed.
Print Assumptions C134_holds_what_was_pushed_partial.

(** A buffer that must not grow never holds more than fits: if the program goes on, every text
    that was held was shorter than the buffer. *)
Theorem C134_never_past_a_fixed_buffer_partial : forall junk buf os sb,
  nlen buf < 2147483648 -> below_2g os -> avoids_sizes (nlen buf) os ->
  run junk (sbuf_init buf Error) os = Ok sb ->
  forall before after, os = before ++ after ->
    nlen (text before) < nlen buf \/ text before = [].
Proof.
  intros junk buf os sb L B A R.
  destruct (run_ok junk buf Error os L B A) as [(_ & X & _)|(sb1 & _ & _ & K)]; [congruence|].
  apply K. reflexivity.
Qed.
Print Assumptions C134_never_past_a_fixed_buffer_partial.

(** The string that a buffer is made into is the text that was pushed.

    Missing: as above, texts with a NUL (see [C134_nul_refuted]) and texts of 4095 bytes (see
    [C134_4095_refuted]). *)
Theorem C134_string_partial : forall junk buf md os sb,
  nlen buf < 2147483648 -> below_2g os -> avoids_sizes (nlen buf) os ->
  ~ In NUL (text os) -> nlen (text os) <> 4095 ->
  run junk (sbuf_init buf md) os = Ok sb -> sbuf_into_str sb = Ok (text os).
Proof.
  intros junk buf md os sb L B A N0 X R.
  destruct (run_ok junk buf md os L B A) as [(_ & Q & _)|(sb1 & R1 & H & _)]; [congruence|].
  rewrite R in R1. injection R1 as <-. destruct H as [Hm Hl Ht Hc Hs He Hf].
  pose proof (B os [] ltac:(rewrite app_nil_r; reflexivity)) as Bt.
  assert (Mk : (if len sb =? 0 then Ok []
      else if len sb <=? 64 then Ok (firstn (N.to_nat (len sb)) (mem sb))
      else obind (reserve_str (len sb)) (fun _ => Ok (firstn (N.to_nat (len sb)) (mem sb))))
      = Ok (text os)).
  { rewrite Hl, to_nat_nlen, Ht. destruct (N.eqb_spec (nlen (text os)) 0) as [E|E].
    - destruct (text os); [reflexivity|unfold nlen in E; cbn [length] in E; lia].
    - destruct (nlen (text os) <=? 64); [reflexivity|].
      destruct (reserve_spec (nlen (text os))) as [(Q & _)|(_ & big & ->)]; [lia|congruence|].
      reflexivity. }
  unfold sbuf_into_str. rewrite Hm.
  destruct md; [destruct (over sb) eqn:Eo; [|exact Mk]|exact Mk|
                destruct (over sb) eqn:Eo; [exfalso; apply He; reflexivity|exact Mk]].
  destruct Hc as [(_ & _ & Q & _)|(_ & _ & _ & C & _)]; [discriminate|].
  pose proof (split_at _ _ _ C) as Sp. rewrite Ht in Sp.
  rewrite Sp at 1. rewrite strlen_text by exact N0. rewrite Hl, N.eqb_refl, to_nat_nlen, Ht.
  reflexivity.
Qed.
Print Assumptions C134_string_partial.

(** Formatted text that ends exactly where the buffer ends when it has grown: its NUL is written
    behind the memory, whatever the text is.  In a buffer of its own memory that happens at the
    first growth, in one that becomes a string at the second. *)
Theorem C134_formatted_refuted : forall junk,
  (forall t, nlen t = 2048 -> run junk (sbuf_init [] Alloc) [Pushf t] = Overflow)
  /\ (forall buf t, nlen buf = 1024 -> nlen t = 2048 ->
        run junk (sbuf_init buf Alloc) [Pushf t] = Overflow)
  /\ (forall buf s t, nlen buf = 1024 -> nlen s = 1500 -> nlen t = 2596 ->
        run junk (sbuf_init buf ObjStr) [Pushs s; Pushf t] = Overflow).
Proof.
  intros junk.
  assert (Put : forall sb t n, nlen (mem sb) = len sb + nlen t -> put sb (t ++ [NUL]) n = Overflow).
  { intros sb t n E. unfold put. rewrite write_over; [reflexivity|].
    rewrite nlen_app. change (nlen [NUL]) with 1. lia. }
  split; [|split].
  - intros t E. cbn [run step]. rewrite E. unfold sbuf_grow. cbn [len cap sbuf_init over mode mem].
    change (u32 (0 + 2048)) with 2048. change (nlen []) with 0.
    change (2048 <? 0) with false. cbn iota.
    replace (double 33 (if 0 =? 0 then 1024 else 0) 2048) with (Some 2048) by reflexivity.
    destruct (write_ok (zeros 2048) 0 (firstn (N.to_nat 0) [])) as (m1 & W & W1 & _).
    { change (firstn (N.to_nat 0) []) with (@nil ascii). rewrite nlen_zeros. reflexivity || (cbn; lia). }
    rewrite W. cbn [obind]. rewrite Put; [reflexivity|].
    cbn [mem len]. rewrite W1, nlen_zeros, E. reflexivity.
  - intros buf t Eb E. cbn [run step]. rewrite E. unfold sbuf_grow.
    cbn [len cap sbuf_init over mode]. rewrite Eb.
    change (u32 (0 + 2048)) with 2048. change (2048 <? 1024) with false. cbn iota.
    replace (double 33 (if 1024 =? 0 then 1024 else 1024) 2048) with (Some 2048) by reflexivity.
    destruct (write_ok (zeros 2048) 0 (firstn (N.to_nat 0) (mem (sbuf_init buf Alloc))))
      as (m1 & W & W1 & _).
    { change (firstn (N.to_nat 0) (mem (sbuf_init buf Alloc))) with (@nil ascii).
      rewrite nlen_zeros. change (nlen []) with 0. lia. }
    rewrite W. cbn [obind]. rewrite Put; [reflexivity|].
    cbn [mem len]. rewrite W1, nlen_zeros, E. reflexivity.
  - intros buf s t Eb Es Et. cbn [run].
    assert (S1 : exists m, step junk (sbuf_init buf ObjStr) (Pushs s)
        = Ok {| mem := m; len := 1500; cap := 2048; mode := ObjStr; over := true; slen := 2048 |}
        /\ nlen m = 2049).
    { cbn [step]. rewrite Es. change (u32 (1500 + 1)) with 1501. change (1501 <? 2) with false.
      cbn iota. unfold sbuf_grow. cbn [len cap sbuf_init over mode]. rewrite Eb.
      change (u32 (0 + 1501)) with 1501. change (1501 <? 1024) with false. cbn iota.
      replace (double 33 (if 1024 =? 0 then 1024 else 1024) 1501) with (Some 2048) by reflexivity.
      change (reserve_str 2048) with (Ok (zeros 2049, false)). cbn [obind].
      destruct (write_ok (zeros 2049) 0 (firstn (N.to_nat 0) (mem (sbuf_init buf ObjStr))))
        as (m1 & W & W1 & _).
      { change (firstn (N.to_nat 0) (mem (sbuf_init buf ObjStr))) with (@nil ascii).
        rewrite nlen_zeros. change (nlen []) with 0. lia. }
      rewrite W. cbn [obind]. unfold put. cbn [mem len cap mode over slen].
      rewrite nlen_zeros in W1.
      destruct (write_ok m1 0 (s ++ [NUL])) as (m2 & V & V1 & _).
      { rewrite W1, nlen_app, Es. change (nlen [NUL]) with 1. lia. }
      rewrite V. cbn [obind]. exists m2. split; [reflexivity|lia]. }
    destruct S1 as (m & -> & Lm). cbn [obind]. cbn [step]. rewrite Et. unfold sbuf_grow.
    cbn [len cap over mode mem slen].
    change (u32 (1500 + 2596)) with 4096. change (4096 <? 2048) with false. cbn iota.
    replace (double 33 (if 2048 =? 0 then 1024 else 2048) 4096) with (Some 4096) by reflexivity.
    cbn [obind]. rewrite Put; [reflexivity|]. cbn [mem len].
    unfold grow_mem. change (u32 (2048 + (4096 - 2048))) with 4096.
    rewrite nlen_app, nlen_zeros, Et. unfold nlen at 1. rewrite firstn_length.
    unfold nlen in Lm. lia.
Qed.
Print Assumptions C134_formatted_refuted.

(** A text with a NUL aborts the program when it has become too long for the first buffer. *)
Theorem C134_nul_refuted : forall junk, exists os sb,
  below_2g os /\ avoids_sizes 4 os /\ In NUL (text os) /\ nlen (text os) = 7
  /\ run junk (sbuf_init (repeat NUL 4) ObjStr) os = Ok sb /\ sbuf_into_str sb = Abort.
Proof.
  intros junk. exists [Pushn (B "abc" ++ [NUL] ++ B "def")]. eexists.
  split; [|split; [|split; [|split; [|split; [vm_compute; reflexivity|vm_compute; reflexivity]]]]].
  - intros [|x [|y b]] a E; cbn in E; [reflexivity| |destruct b; discriminate].
    injection E as <- _. vm_compute. reflexivity.
  - intros [|x [|y b]] s a E; cbn in E; [discriminate| |destruct b; discriminate].
    injection E as _ E. destruct a; discriminate.
  - vm_compute. tauto.
  - reflexivity.
Qed.
Print Assumptions C134_nul_refuted.

(** A text of 4095 bytes aborts the program. *)
Theorem C134_4095_refuted : forall junk t, nlen t = 4095 ->
  exists sb, run junk (sbuf_init [] Alloc) [Pushs t] = Ok sb /\ sbuf_into_str sb = Abort.
Proof.
  intros junk t E.
  assert (T1 : text [Pushs t] = t) by reflexivity.
  destruct (run_ok junk [] Alloc [Pushs t]) as [(Q & _)|(sb & R & H & _)].
  - reflexivity.
  - intros [|x [|y b]] a X; cbn in X; [reflexivity| |destruct b; discriminate].
    injection X as <- _. rewrite T1, E. reflexivity.
  - intros [|x [|y b]] s a X; cbn in X; [discriminate| |destruct b; discriminate].
    injection X as _ X. destruct a; discriminate.
  - discriminate.
  - exists sb. split; [exact R|]. unfold sbuf_into_str. rewrite (h_mode _ _ _ _ H), (h_len _ _ _ _ H).
    rewrite T1, E. reflexivity.
Qed.
Print Assumptions C134_4095_refuted.

(** The hypotheses are met by a history in which a buffer of four bytes grows twice, is cleared
    and holds formatted text. *)
Definition sample : list op :=
  [Pushf (B "ab"); Pushs (B "cdefgh"); Push (ch 120); Pushn (B "0123456789"); Clear; Pushf (B "xyz")].

Example sample_meets : nlen (repeat NUL 4) < 2147483648 /\ below_2g sample /\ avoids_sizes 4 sample
  /\ ~ In NUL (text sample) /\ nlen (text sample) <> 4095.
Proof.
  split; [reflexivity|]. split; [|split; [|split]].
  - intros b a E. unfold sample in E.
    do 7 (destruct b as [|? b]; [vm_compute; reflexivity|injection E as <- E || discriminate]).
  - intros b s a E. unfold sample in E.
    assert (Sz : forall n, n = 2 \/ n = 3 -> ~ grown_size 4 n).
    { intros n N0 (j & J & Ej). change (4 =? 0) with false in Ej. cbn iota in Ej.
      assert (2 ^ 1 <= 2 ^ j) by (apply N.pow_le_mono_r; lia). change (2 ^ 1) with 2 in *. lia. }
    do 7 (destruct b as [|? b];
          [try discriminate; injection E as <- _; apply Sz; vm_compute; tauto
          |injection E as <- E || discriminate]).
  - vm_compute. intros H. repeat destruct H as [H|H]; try discriminate. exact H.
  - vm_compute. discriminate.
Qed.

Example sample_runs : exists sb, run (fun _ => ch 7) (sbuf_init (repeat NUL 4) ObjStr) sample = Ok sb
  /\ cap sb = 32 /\ sbuf_into_str sb = Ok (B "xyz").
Proof. eexists. vm_compute. repeat split. Qed.

(** ** C135 *)

(** A string that is made from a text keeps this text for ever, whatever is made, cloned and
    appended afterwards, also to that string itself. *)
Theorem C135_made_strings_stay : forall mark xs h os i p o,
  small_history mark xs -> srun mark heap0 xs = Ok (h, os) ->
  nth_error xs i = Some (Make p) -> nth_error os i = Some o -> read h o = Some p.
Proof. intros mark xs h os i p o Sm R Ex Eo. apply (proj2 (proj2 (srun_inv mark xs h os Sm R)) i p o Ex Eo). Qed.
Print Assumptions C135_made_strings_stay.

(** After any history, an operation succeeds, its result has the text that it should have, and all
    other strings keep theirs.

    Missing: results of exactly 4095 bytes (see [C135_4095_refuted]). *)
Theorem C135_appending_partial : forall mark xs h os x t,
  small_history mark xs -> srun mark heap0 xs = Ok (h, os) ->
  gives (read h) x = Some t -> nlen t < 2147483648 -> nlen t <> 4095 -> (forall o, x <> AppStr o o) ->
  exists h1 r, sstep mark h x = Ok (h1, r) /\ read h1 r = Some t
    /\ forall o, read h o <> None -> o <> r \/ target x = None -> read h1 o = read h o.
Proof.
  intros mark xs h os x t Sm R G B X D.
  destruct (srun_inv mark xs h os Sm R) as (W & _ & _).
  destruct (sstep_does mark h x t W G B D) as [(Q & _)|(h1 & r & E & D1 & D2 & D3 & D4 & _)];
    [congruence|].
  exists h1, r. split; [exact E|]. split; [exact D2|exact D4].
Qed.
Print Assumptions C135_appending_partial.

(** Every string can be passed on as a C string: it is followed by a NUL. *)
Theorem C135_terminated : forall mark xs h os o,
  small_history mark xs -> srun mark heap0 xs = Ok (h, os) ->
  (o < length (strs h))%nat -> terminated h o.
Proof.
  intros mark xs h os o Sm R L. destruct (srun_inv mark xs h os Sm R) as (W & _ & _).
  destruct (nth_error (strs h) o) as [s|] eqn:E; [|apply nth_error_None in E; lia].
  destruct (w_good h W o s E) as (m & (G1 & G2 & G3) & _). exists s, m.
  split; [exact E|]. split; [exact G2|exact G3].
Qed.
Print Assumptions C135_terminated.

(** Making a string of any text of exactly 4095 bytes aborts the program, at any time. *)
Theorem C135_4095_refuted : forall mark h p, nlen p = 4095 -> sstep mark h (Make p) = Abort.
Proof.
  intros mark h p E. cbn [sstep]. unfold make_str_. rewrite E.
  change (negb false && (4095 <=? 64)) with false. cbn iota.
  unfold new_str. change (reserve_str 4095) with (@Abort (bytes * bool)). reflexivity.
Qed.
Print Assumptions C135_4095_refuted.

(** Appending a long string to itself reads memory that was freed: this exclusion is needed. *)
Theorem C135_exclusion_is_needed : forall p, nlen p = 5000 ->
  exists h os, small_history false [Make p; CloneMutable 0]
    /\ srun false heap0 [Make p; CloneMutable 0] = Ok (h, os)
    /\ read h 1 = Some p /\ sstep false h (AppStr 1 1) = Overflow.
Proof.
  intros p E.
  assert (Sm : small_history false [Make p; CloneMutable 0]).
  { intros b x a X. destruct b as [|y [|z b]]; cbn in X; [| |destruct b; discriminate].
    - injection X as <- _. split; [discriminate|]. intros h os t _ G. injection G as <-. lia.
    - injection X as <- <- _. split; [discriminate|]. intros h os t R G. cbn [gives] in G.
      cbn [srun] in R. destruct (sstep false heap0 (Make p)) as [[h1 o]| | | |] eqn:S1; try discriminate.
      cbn [obind] in R. injection R as <- <-.
      destruct (sstep_does false heap0 (Make p) p wf0 eq_refl) as [(Q & _)|(h2 & r & A & D)];
        [lia|discriminate|lia|].
      rewrite A in S1. injection S1 as <- <-. destruct D as (_ & D2 & _).
      assert (r = 0%nat) as ->.
      { revert A. cbn [sstep]. unfold make_str_. rewrite E.
        change (negb false && (5000 <=? 64)) with false. cbn iota. unfold new_str.
        change (reserve_str 5000) with (Ok (zeros 5001, true)). cbn [obind strs heap0 app length nth_error].
        unfold write_str. cbn [regs heap0 app sreg length nth_error].
        destruct (write (zeros 5001) 0 p); try discriminate. cbn [obind].
        change (negb false && (5000 <=? 64)) with false. cbn iota. congruence. }
      rewrite D2 in G. injection G as <-. lia. }
  assert (W1 : write (zeros 5001) 0 p = Ok (p ++ [NUL])) by (apply (write_full p 5000 E)).
  assert (R : exists h os, srun false heap0 [Make p; CloneMutable 0] = Ok (h, os)
    /\ strs h = [{| sreg := 0; stlen := 5000; sbig := true; smut := false |};
                 {| sreg := 1; stlen := 5000; sbig := true; smut := true |}]
    /\ regs h = [Some (p ++ [NUL]); Some (p ++ [NUL])]).
  { cbn [srun sstep]. unfold make_str_ at 1. rewrite E.
    change (negb false && (5000 <=? 64)) with false. cbn iota. unfold new_str.
    change (reserve_str 5000) with (Ok (zeros 5001, true)). cbn [obind strs heap0 app length nth_error].
    unfold write_str. cbn [regs heap0 app sreg length nth_error]. rewrite W1. cbn [obind].
    change (negb false && (5000 <=? 64)) with false. cbn iota. cbn [obind set].
    unfold read at 1. cbn [strs nth_error stlen]. unfold str_mem. cbn [regs nth_error sreg stlen].
    rewrite nlen_app, E. change (5000 <=? 5000 + nlen [NUL]) with true. cbn iota. cbn [option_map].
    rewrite (full_first p [NUL] 5000 E).
    unfold make_str_. rewrite E. change (negb true && (5000 <=? 64)) with false. cbn iota.
    unfold new_str. change (reserve_str 5000) with (Ok (zeros 5001, true)).
    cbn [obind strs app length nth_error]. unfold write_str.
    cbn [regs app sreg length nth_error stlen sbig]. rewrite W1. cbn [obind set set_str strs regs hashed].
    eexists _, _. split; [reflexivity|]. split; reflexivity. }
  destruct R as (h & os & R & Hs & Hr). exists h, os. split; [exact Sm|]. split; [exact R|].
  assert (Rd : str_mem h {| sreg := 1; stlen := 5000; sbig := true; smut := true |} = Some (p ++ [NUL])).
  { unfold str_mem. rewrite Hr. cbn [nth_error sreg stlen]. rewrite nlen_app, E. reflexivity. }
  split.
  - unfold read. rewrite Hs. cbn [nth_error]. rewrite Rd. cbn [option_map stlen].
    f_equal. apply (full_first p [NUL] 5000 E).
  - cbn [sstep]. rewrite Hs. cbn [nth_error]. unfold grow_str. rewrite Hs. cbn [nth_error smut negb stlen].
    rewrite Rd. cbn [sbig orb sreg]. rewrite Hr. cbn [set length obind set_str strs hashed].
    cbn [set nth_error]. unfold str_mem. cbn [regs app nth_error sreg]. reflexivity.
Qed.
Print Assumptions C135_exclusion_is_needed.

(** The hypotheses are met: a string is made twice, appended to, cloned and appended again. *)
Definition strings : list sop :=
  [Make (B "abc"); Make (B "abc"); App 0 (B "def"); AppStr 1 0; CloneMutable 1; App 2 (B "!")].

Example strings_run : exists h, srun false heap0 strings = Ok (h, [0; 0; 1; 1; 2; 2]%nat)
  /\ read h 0 = Some (B "abc") /\ read h 1 = Some (B "abcdefabc") /\ read h 2 = Some (B "abcdefabc!").
Proof. eexists. vm_compute. repeat split. Qed.

Example strings_small : small_history false strings.
Proof.
  intros b x a E. unfold strings in E.
  do 7 (destruct b as [|? b];
    [(solve [discriminate]) || (injection E as <- _; split; [intros o0 E0; congruence|];
     intros h os t R G; vm_compute in R; injection R as <- <-; vm_compute in G; injection G as <-;
     reflexivity)
    |injection E as <- E || discriminate]).
Qed.
