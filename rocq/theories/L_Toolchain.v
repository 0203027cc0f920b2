(** Lemmas about the static variables of the argument functions. *)
From Coq Require Import Lia.
From Verif Require Import Base M_Str M_Toolchain S_Toolchain.
Local Arguments B _ : simpl never.

Lemma fn0_beq_spec a b : fn0_beq a b = true -> a = b.
Proof. apply internal_fn0_dec_bl. Qed.
Lemma fn1i_beq_spec a b : fn1i_beq a b = true -> a = b.
Proof. apply internal_fn1i_dec_bl. Qed.
Lemma fn1s_beq_spec a b : fn1s_beq a b = true -> a = b.
Proof. apply internal_fn1s_dec_bl. Qed.
Lemma fn2s_beq_spec a b : fn2s_beq a b = true -> a = b.
Proof. apply internal_fn2s_dec_bl. Qed.
Lemma fn1i_beq_refl a : fn1i_beq a a = true.
Proof. destruct a; reflexivity. Qed.

Definition sticky (f : fn1i) : bool := match f with posix_optimization | gcc_optimization | cl_warning_lvl => true | _ => false end.
Definition same0 (f : fn0) (st : static) : Prop := body0 f st = body0 f (init0 f).
Definition same1s (f : fn1s) (st : static) : Prop := forall s, body1s f s st = body1s f s (init1s f).
Definition same2s (f : fn2s) (st : static) : Prop := forall s t, body2s f s t st = body2s f s t (init2s f).
Definition shape (f : fn1i) (st : static) : Prop := length (s_argv st) = length (s_argv (init1i f)).
Record good (g : statics) : Prop := Good {
  g_0 : forall f, same0 f (st0 g f);
  g_1i : forall f, shape f (st1i g f);
  g_1s : forall f, same1s f (st1s g f);
  g_2s : forall f, same2s f (st2s g f) }.
Lemma good_start : good at_start.
Proof. constructor; intros f; red; reflexivity. Qed.

Lemma same0_body f st : same0 f st -> same0 f (body0 f st).
Proof. unfold same0. intros E. rewrite E. destruct f; reflexivity. Qed.
Lemma same1s_body f st s : same1s f st -> same1s f (body1s f s st).
Proof.
  unfold same1s. intros E u. rewrite E. destruct f; try reflexivity; cbn [body1s init1s];
    destruct (str_endswithi s (B ".exe")), (str_endswithi u (B ".exe")); reflexivity.
Qed.
Lemma same2s_body f st s t : same2s f st -> same2s f (body2s f s t st).
Proof. unfold same2s. intros E u v. rewrite E. destruct f; reflexivity. Qed.
Lemma set_slot_length l : forall n x, length (set_slot l n x) = length l.
Proof. induction l as [|y l IH]; intros [|n] x; simpl; [reflexivity..|f_equal; apply IH]. Qed.
Lemma put_argv n s st : length (s_argv (put n s st)) = length (s_argv st).
Proof. apply set_slot_length. Qed.
Lemma len_argv n st : length (s_argv (len n st)) = length (s_argv st).
Proof. reflexivity. Qed.
Lemma append_argv s st : length (s_argv (append_word s st)) = length (s_argv st).
Proof. apply set_slot_length. Qed.
Lemma shape_body f n st st' : shape f st -> body1i f n st = Some st' -> shape f st'.
Proof.
  unfold shape. intros E H. rewrite <- E. destruct f; cbn [body1i] in H;
    repeat match type of H with context [if ?b then _ else _] => destruct b end; try discriminate; injection H as <-;
    rewrite ?append_argv, ?put_argv, ?len_argv, ?put_argv, ?len_argv; try reflexivity;
    repeat (first [rewrite append_argv | rewrite put_argv | rewrite len_argv]); reflexivity.
Qed.

Lemma perform_good c g ws g' : good g -> perform c g = Some (ws, g') -> good g'.
Proof.
  intros [G0 Gi Gs G2] H. destruct c as [f | f n | f s | f s t]; cbn [perform] in H.
  - destruct (pushed _); [|discriminate]. injection H as _ <-. constructor; cbn; [intros h | exact Gi | exact Gs | exact G2].
    destruct (fn0_beq h f) eqn:E; [apply fn0_beq_spec in E; subst h; apply same0_body|]; apply G0.
  - destruct (body1i f n (st1i g f)) as [st|] eqn:Eb; [|discriminate].
    destruct (pushed st); [|discriminate]. injection H as _ <-. constructor; cbn; [exact G0 | intros h | exact Gs | exact G2].
    destruct (fn1i_beq h f) eqn:E; [apply fn1i_beq_spec in E; subst h; refine (shape_body _ _ _ _ _ Eb)|]; apply Gi.
  - destruct (pushed _); [|discriminate]. injection H as _ <-. constructor; cbn; [exact G0 | exact Gi | intros h | exact G2].
    destruct (fn1s_beq h f) eqn:E; [apply fn1s_beq_spec in E; subst h; apply same1s_body|]; apply Gs.
  - destruct (pushed _); [|discriminate]. injection H as _ <-. constructor; cbn; [exact G0 | exact Gi | exact Gs | intros h].
    destruct (fn2s_beq h f) eqn:E; [apply fn2s_beq_spec in E; subst h; apply same2s_body|]; apply G2.
Qed.
Lemma after_good h : forall g g', good g -> after h g = Some g' -> good g'.
Proof.
  induction h as [|a h IH]; intros g g' G H; cbn [after] in H; [injection H as <-; exact G|].
  destruct (asks a g) as [[ws g1]|] eqn:E; [|discriminate]. apply (IH g1); [|exact H].
  exact (perform_good _ _ _ _ G E).
Qed.

(** ** the length of a sticky function *)
Definition number_ok (f : fn1i) (n : N) : Prop :=
  match f with
  | posix_optimization | gcc_optimization | cl_optimization => (n < 7)%N
  | gcc_warning_lvl | cl_warning_lvl => (n < 5)%N
  | gcc_pgo => (n < 2)%N
  | gcc_visibility => (n < 5)%N
  | empty_1i => True
  end.
Lemma number_ok_call a f n : call_of a = F1i f n -> number_ok f n.
Proof.
  destruct a as [t r | t l | t w | t p | t v | t r s | t s u | t r | t r s | t p | t i o | t | t i o]; cbn [call_of]; try discriminate;
    intros E; injection E as <- <-; destruct t; cbn; try exact Logic.I; try destruct l; try destruct w; try destruct p; try destruct v; reflexivity.
Qed.
(** the numbers that empty a sticky function *)
Definition empties (f : fn1i) (n : N) : bool :=
  match f with
  | posix_optimization => (n =? lvl_none) || (n =? lvl_g) || (n =? lvl_s)
  | gcc_optimization => (n =? lvl_none)
  | cl_warning_lvl => (n =? 0)
  | _ => false
  end%N.

Ltac small n H :=
  let m := fresh in
  assert (m : n = 0%N \/ n = 1%N \/ n = 2%N \/ n = 3%N \/ n = 4%N \/ n = 5%N \/ n = 6%N) by lia;
  repeat destruct m as [m|m]; subst n; try (exfalso; lia).
Lemma sticky_len f n st st' :
  sticky f = true -> body1i f n st = Some st' -> s_len st' = (if empties f n then 0 else s_len st).
Proof.
  intros S H. destruct f; try discriminate S; cbn [body1i empties] in *; injection H as <-;
    repeat match goal with |- context [(?a =? ?b)%N] => destruct (N.eqb_spec a b) end; subst; try reflexivity; try discriminate.
Qed.
Lemma body_pushed f n st :
  shape f st -> number_ok f n -> (sticky f = true -> s_len st = 1) ->
  option_map pushed (body1i f n st) = option_map pushed (body1i f n (init1i f)).
Proof.
  unfold shape. destruct st as [argv l buf]. cbn [s_argv s_len]. intros E N S.
  destruct f; cbn [init1i s_argv length] in E; cbn [number_ok] in N; cbn [sticky] in S; try specialize (S eq_refl); try subst l;
    repeat match type of E with length ?l = _ => destruct l as [|? l]; [discriminate E|]; cbn [length] in E; try (injection E as E) end;
    try (destruct argv; [|discriminate E]); try (small n N); reflexivity.
Qed.

Definition later_len (a : ask) (k : nat) (g : statics) : Prop :=
  forall f n, call_of a = F1i f n -> sticky f = true -> s_len (st1i g f) = k.
Definition quiet (b a : ask) : bool :=
  match call_of b, call_of a with
  | F1i f n, F1i h _ => fn1i_beq h f && sticky f && empties f n
  | _, _ => false
  end.
Lemma quiet_silences b a : quiet b a = true <-> silences b a.
Proof.
  unfold silences, gcc_like, posix_like, cl_like, quiet. split.
  - intros H.
    destruct b as [t r | t l | t w | t p | t v | t r s | t s u | t r | t r s | t p | t i o | t | t i o]; cbn [call_of] in H; try discriminate H;
    destruct a as [t' r' | t' l' | t' w' | t' p' | t' v' | t' r' s' | t' s' u' | t' r' | t' r' s' | t' p' | t' i' o' | t' | t' i' o']; cbn [call_of] in H; try discriminate H;
    destruct t; try discriminate H; destruct t'; try discriminate H;
      try (destruct l; try discriminate H); try (destruct w; try discriminate H); try (destruct p; try discriminate H);
      try (destruct v; try discriminate H);
      first [left; do 3 eexists; repeat split; tauto
            | right; left; do 4 eexists; repeat split; tauto
            | right; right; do 3 eexists; repeat split; tauto].
  - intros [(t & l & u & -> & -> & T & U) | [(t & k & u & l & -> & -> & T & U & K) | (t & u & w & -> & -> & T & U)]];
      repeat destruct T as [T|T]; repeat destruct U as [U|U]; try (repeat destruct K as [K|K]); subst; reflexivity.
Qed.
Lemma asks_later a b g ws g' k :
  asks b g = Some (ws, g') -> later_len a k g -> (quiet b a = true -> k = 0) -> later_len a k g'.
Proof.
  unfold asks. intros H L Q h m Ea Sh. specialize (L h m Ea Sh). unfold quiet in Q. rewrite Ea in Q.
  destruct (call_of b) as [f | f n | f s | f s t]; cbn [perform] in H.
  - destruct (pushed _); [|discriminate]. injection H as _ <-. exact L.
  - destruct (body1i f n (st1i g f)) as [st|] eqn:Eb; [|discriminate].
    destruct (pushed st); [|discriminate]. injection H as _ <-. cbn [st1i].
    destruct (fn1i_beq h f) eqn:E; [|exact L]. apply fn1i_beq_spec in E. subst h.
    rewrite (sticky_len _ _ _ _ Sh Eb). rewrite Sh in Q. cbn [andb] in Q.
    destruct (empties f n); [symmetry; apply Q; reflexivity | exact L].
  - destruct (pushed _); [|discriminate]. injection H as _ <-. exact L.
  - destruct (pushed _); [|discriminate]. injection H as _ <-. exact L.
Qed.
Lemma asks_quiet a b g ws g' : asks b g = Some (ws, g') -> quiet b a = true -> later_len a 0 g'.
Proof.
  unfold asks, quiet. intros H Q h m Ea Sh. rewrite Ea in Q. destruct (call_of b) as [f | f n | f s | f s t]; try discriminate Q.
  apply andb_prop in Q as [Q Q2]. apply andb_prop in Q as [Q0 Q1]. apply fn1i_beq_spec in Q0. subst h.
  cbn [perform] in H. destruct (body1i f n (st1i g f)) as [st|] eqn:Eb; [|discriminate].
  destruct (pushed st); [|discriminate]. injection H as _ <-. cbn [st1i]. rewrite fn1i_beq_refl.
  rewrite (sticky_len _ _ _ _ Sh Eb), Q2. reflexivity.
Qed.
Lemma after_later a h : forall g g', after h g = Some g' -> later_len a 1 g -> (forall b, In b h -> ~ silences b a) -> later_len a 1 g'.
Proof.
  induction h as [|b h IH]; intros g g' H L Q; cbn [after] in H; [injection H as <-; exact L|].
  destruct (asks b g) as [[ws g1]|] eqn:E; [|discriminate]. apply (IH g1); [exact H| |intros c Hc; apply Q; right; exact Hc].
  apply (asks_later _ _ _ _ _ _ E L). intros X. exfalso. apply (Q b); [left; reflexivity|]. apply quiet_silences. exact X.
Qed.
Lemma after_later_0 a h : forall g g', after h g = Some g' -> later_len a 0 g -> later_len a 0 g'.
Proof.
  induction h as [|b h IH]; intros g g' H L; cbn [after] in H; [injection H as <-; exact L|].
  destruct (asks b g) as [[ws g1]|] eqn:E; [|discriminate]. apply (IH g1); [exact H|]. apply (asks_later _ _ _ _ _ _ E L). reflexivity.
Qed.
Lemma after_silenced a b h : forall g g', after h g = Some g' -> In b h -> silences b a -> later_len a 0 g'.
Proof.
  induction h as [|c h IH]; intros g g' H I Q; [destruct I|]. cbn [after] in H.
  destruct (asks c g) as [[ws g1]|] eqn:E; [|discriminate]. destruct I as [->|I].
  - apply (after_later_0 _ _ _ _ H). apply (asks_quiet _ _ _ _ _ E). apply quiet_silences. exact Q.
  - apply (IH g1 g' H I Q).
Qed.
Lemma start_later a : later_len a 1 at_start.
Proof. intros f n _ S. destruct f; try discriminate S; reflexivity. Qed.

Definition answer (a : ask) (g : statics) : option (list bytes) := option_map fst (asks a g).
Lemma answer_same a g : good g -> later_len a 1 g -> answer a g = answer a at_start.
Proof.
  intros [G0 Gi Gs G2] L. unfold answer, asks. unfold later_len in L. pose proof (number_ok_call a) as NO.
  destruct (call_of a) as [f | f n | f s | f s t]; cbn [perform at_start st0 st1i st1s st2s].
  - rewrite (G0 f). destruct (pushed _); reflexivity.
  - specialize (L f n eq_refl). specialize (NO f n eq_refl). pose proof (body_pushed f n (st1i g f) (Gi f) NO L) as E.
    destruct (body1i f n (st1i g f)) as [st|], (body1i f n (init1i f)) as [st'|]; cbn [option_map] in E; try discriminate E; [|reflexivity].
    injection E as E. rewrite E. destruct (pushed st'); reflexivity.
  - rewrite (Gs f s). destruct (pushed _); reflexivity.
  - rewrite (G2 f s t). destruct (pushed _); reflexivity.
Qed.
Lemma answer_silenced a g : later_len a 0 g -> (exists b, silences b a) -> answer a g = Some [].
Proof.
  intros L [b Q]. apply quiet_silences in Q. unfold quiet in Q. unfold answer, asks, later_len in *.
  destruct (call_of b) as [f0 | f0 n0 | f0 s0 | f0 s0 t0]; try discriminate Q. destruct (call_of a) as [f | f n | f s | f s t]; try discriminate Q.
  apply andb_prop in Q as [Q _]. apply andb_prop in Q as [Q0 Q1]. apply fn1i_beq_spec in Q0. subst f0.
  specialize (L f n eq_refl Q1). cbn [perform]. destruct (body1i f n (st1i g f)) as [st|] eqn:E.
  - pose proof (sticky_len _ _ _ _ Q1 E) as X. rewrite L in X. replace (if empties f n then 0 else 0) with 0 in X by (destruct (empties f n); reflexivity).
    unfold pushed. rewrite X. destruct (s_argv st); reflexivity.
  - exfalso. destruct f; try discriminate Q1; cbn [body1i] in E; discriminate E.
Qed.

(** ** names *)
Lemma cmp_lower_rev : forall b a, length a = length b -> cmp_lower a b = beqb (M_Str.to_lower a) (M_Str.to_lower b).
Proof.
  induction b as [|y b IH]; intros [|x a] E; try discriminate E; [reflexivity|]. cbn [cmp_lower]. injection E as E.
  rewrite (IH a E). unfold M_Str.to_lower. cbn [map]. unfold char_to_lower. reflexivity.
Qed.
Lemma cmp_lower_firstn : forall b a, length b <= length a -> cmp_lower a b = cmp_lower (firstn (length b) a) b.
Proof.
  induction b as [|y b IH]; intros [|x a] E; cbn [length] in E; try lia; try reflexivity.
  cbn [length firstn cmp_lower]. f_equal. apply IH. lia.
Qed.
Lemma beqb_rev a b : beqb (rev a) (rev b) = beqb a b.
Proof.
  destruct (beqb_spec (rev a) (rev b)) as [E|E]; destruct (beqb_spec a b) as [F|F]; try reflexivity; exfalso.
  - apply F. rewrite <- (rev_involutive a), <- (rev_involutive b), E. reflexivity.
  - apply E. rewrite F. reflexivity.
Qed.
Lemma endswithi_exe s : str_endswithi s (B ".exe") = beqb (M_Str.to_lower (skipn (length s - 4) s)) (B ".exe").
Proof.
  unfold str_endswithi. change (length (B ".exe")) with 4. destruct (Nat.ltb_spec (length s) 4) as [L|L].
  - symmetry. destruct (beqb_spec (M_Str.to_lower (skipn (length s - 4) s)) (B ".exe")) as [E|E]; [|reflexivity].
    exfalso. apply (f_equal (@length ascii)) in E. unfold M_Str.to_lower in E. rewrite map_length, skipn_length in E.
    change (length (B ".exe")) with 4 in E. lia.
  - rewrite cmp_lower_firstn by (rewrite !rev_length; exact L). rewrite rev_length. change (length (B ".exe")) with 4.
    rewrite cmp_lower_rev by (rewrite firstn_length, !rev_length; change (length (B ".exe")) with 4; lia).
    rewrite firstn_rev. unfold M_Str.to_lower at 1 2. rewrite !map_rev, beqb_rev.
    change (map _ (B ".exe")) with (B ".exe"). reflexivity.
Qed.
Lemma printed_whole (s : bytes) : length s <= 254 -> firstn 254 s = s.
Proof. intros L. apply firstn_all2. exact L. Qed.
Lemma spelled_whole a : names_something a -> fits a -> answer a at_start = Some (map text (spelling a)).
Proof.
  unfold fits. intros N F.
  destruct a as [t r | t l | t w | t p | t v | t r s | t s u | t r | t r s | t p | t i o | t | t i o]; try destruct N;
    destruct t; try destruct r; try reflexivity; unfold answer, asks;
    cbn [call_of compiler1s compiler_deps linker1s linker_input_output static_input_output posix_c1s gcc_c1s msvc_c1s perform at_start
         st1s st2s init1s init2s body1s body2s option_map spelling map];
    try rewrite endswithi_exe;
    try (match goal with |- context [if ?b then print _ _ else _] => set (test := b) in * end;
         cbn [spelling] in F; change (beqb _ _) with test in F; destruct test);
    cbn [spelling] in F;
    unfold buffered, print, pushed;
    cbn [map app s_argv s_len s_buf put set_slot length words_of Nat.add fst option_map text];
    rewrite ?app_nil_r;
    (match goal with |- context [@firstn ascii 254 ?x] => rewrite (printed_whole x); [reflexivity|] end);
    (match type of F with context [Joined ?f ?n ?r :: _] => specialize (F f n r) end; rewrite ?app_nil_r in F; apply F;
     cbn [spelling In]; tauto).
Qed.

(** ** the flags of a target *)
Definition plain_ask (a : ask) : Prop := forall f n, call_of a = F1i f n -> sticky f = false.
Lemma plain_later a k g : plain_ask a -> later_len a k g.
Proof. intros P f n E S. rewrite (P f n E) in S. discriminate S. Qed.
Lemma plain_quiet a b : plain_ask a -> quiet a b = false.
Proof.
  unfold quiet, plain_ask. intros P. destruct (call_of a) as [f | f n | f s | f s t]; try reflexivity.
  destruct (call_of b) as [f' | f' n' | f' s' | f' s' t']; try reflexivity. rewrite (P f n eq_refl).
  rewrite andb_false_r. reflexivity.
Qed.
(** the words for some requests, each made first *)
Fixpoint first_words (l : list ask) : option (list bytes) :=
  match l with
  | [] => Some []
  | a :: l => match answer a at_start, first_words l with Some x, Some y => Some (x ++ y) | _, _ => None end
  end.
Lemma first_words_app l1 : forall l2 x y, first_words l1 = Some x -> first_words l2 = Some y -> first_words (l1 ++ l2) = Some (x ++ y).
Proof.
  induction l1 as [|a l1 IH]; intros l2 x y E1 E2; cbn [first_words app] in *.
  - injection E1 as <-. exact E2.
  - destruct (answer a at_start) as [u|]; [|discriminate]. destruct (first_words l1) as [v|]; [|discriminate]. injection E1 as <-.
    rewrite (IH l2 v y eq_refl E2), app_assoc. reflexivity.
Qed.
Lemma push_all_words l : forall args g ws,
  good g -> (forall a, In a l -> later_len a 1 g) -> (forall l1 b l2 a l3, l = l1 ++ b :: l2 ++ a :: l3 -> ~ silences b a) ->
  first_words l = Some ws -> exists g', push_all l args g = Done (args ++ ws, g') /\ after l g = Some g'.
Proof.
  induction l as [|a l IH]; intros args g ws G L Q E; cbn [first_words push_all after] in *.
  - injection E as <-. exists g. rewrite app_nil_r. split; reflexivity.
  - destruct (answer a at_start) as [x|] eqn:Ea; [|discriminate]. destruct (first_words l) as [y|] eqn:El; [|discriminate].
    injection E as <-. rewrite <- (answer_same a g G) in Ea by (apply L; left; reflexivity). unfold answer in Ea.
    destruct (asks a g) as [[x' g1]|] eqn:E; [|discriminate]. injection Ea as ->.
    destruct (IH (args ++ x) g1 y) as (g' & E1 & E2).
    + exact (perform_good _ _ _ _ G E).
    + intros b Hb. apply (asks_later _ _ _ _ _ _ E); [apply L; right; exact Hb|]. intros X. exfalso.
      apply in_split in Hb as (l2 & l3 & ->). apply (Q [] a l2 b l3 eq_refl). apply quiet_silences. exact X.
    + intros l1 b l2 c l3 ->. apply (Q (a :: l1) b l2 c l3). reflexivity.
    + reflexivity.
    + exists g'. rewrite E1, app_assoc. split; [reflexivity | exact E2].
Qed.

Definition std_asks (t : ctype) (o : options) : list ask :=
  match o_std o with Some s => if beqb s (B "none") then [] else [Compiler1s t set_std s] | None => [] end.
Definition warn_ask (t : ctype) (s : bytes) : ask :=
  if beqb s (B "everything") then Compiler0 t warn_everything
  else Warning t (if beqb s (B "0") then W0 else if beqb s (B "1") then W1 else if beqb s (B "2") then W2 else W3).
Definition rest_asks (t : ctype) (o : options) : list ask :=
  (if beqb (o_pgo o) (B "generate") then [Pgo t Generate] else [])
  ++ (if beqb (o_pgo o) (B "use") then [Pgo t Use] else [])
  ++ (if beqb (o_sanitize o) (B "none") then [] else [Compiler1s t sanitize (o_sanitize o)])
  ++ (if beqb (o_ndebug o) (B "true") || (beqb (o_ndebug o) (B "if-release") && beqb (o_buildtype o) (B "release"))
      then [Compiler1s t define (B "NDEBUG")] else [])
  ++ (if beqb (o_colorout o) (B "never") then [] else [Compiler1s t color_output (o_colorout o)])
  ++ (if o_lto o then [Compiler0 t enable_lto] else []).
Definition all_asks (t : ctype) (o : options) : list ask :=
  ([Compiler0 t always] ++ std_asks t o ++ (if snd (wanted o) then [Compiler0 t debug] else [])) ++
  Optimization t (fst (wanted o)) :: warn_ask t (o_warning_level o) ::
  ((if o_werror o then [Compiler0 t werror] else []) ++ rest_asks t o).

Lemma buildtype_asks_spec t o : sensible o ->
  buildtype_asks t o = Done ((if snd (wanted o) then [Compiler0 t debug] else []) ++ [Optimization t (fst (wanted o))]).
Proof.
  intros (Hb & Ho & _). unfold buildtype_asks, wanted. destruct (beqb (o_buildtype o) (B "custom") || o_default o) eqn:E.
  - repeat destruct Ho as [<-|Ho]; try destruct Ho; reflexivity.
  - apply orb_false_elim in E as [E _]. revert E.
    repeat destruct Hb as [<-|Hb]; try destruct Hb; intros E; try discriminate E; reflexivity.
Qed.
Lemma warning_asks_spec t o : sensible o -> warning_asks t o = Done [warn_ask t (o_warning_level o)].
Proof.
  intros (_ & _ & Hw & _). unfold warning_asks, warn_ask. repeat destruct Hw as [<-|Hw]; try destruct Hw; reflexivity.
Qed.
Lemma b_asks_spec t o : sensible o -> b_asks t o = Done (rest_asks t o).
Proof.
  intros (_ & _ & _ & Hp & _). unfold b_asks, rest_asks. repeat destruct Hp as [<-|Hp]; try destruct Hp; reflexivity.
Qed.
Lemma base_args_asks t o more g : sensible o ->
  base_args t o more g =
  match push_all (all_asks t o) [] g with Done (ws, g) => Done (ws ++ o_args o ++ more, g) | Refused => Refused | Aborts => Aborts end.
Proof.
  intros H. unfold base_args. rewrite (buildtype_asks_spec t o H), (warning_asks_spec t o H), (b_asks_spec t o H).
  unfold all_asks, std_asks. rewrite <- !app_assoc. reflexivity.
Qed.

Lemma plain0 t r : plain_ask (Compiler0 t r).
Proof. intros f n E. discriminate E. Qed.
Lemma plain1s t r s : plain_ask (Compiler1s t r s).
Proof. intros f n E. discriminate E. Qed.
Lemma plain_pgo t p : plain_ask (Pgo t p).
Proof. intros f n E. injection E as <- <-. destruct t; reflexivity. Qed.
Lemma Forall_when (P : ask -> Prop) (b : bool) l : Forall P l -> Forall P (if b then l else []).
Proof. destruct b; [tauto | constructor]. Qed.
Lemma Forall_unless (P : ask -> Prop) (b : bool) l : Forall P l -> Forall P (if b then [] else l).
Proof. destruct b; [constructor | tauto]. Qed.
Lemma before_plain t o : Forall plain_ask ([Compiler0 t always] ++ std_asks t o ++ (if snd (wanted o) then [Compiler0 t debug] else [])).
Proof.
  unfold std_asks. rewrite !Forall_app. split; [|split]; [| |apply Forall_when]; try (repeat constructor; apply plain0).
  destruct (o_std o) as [s|]; [apply Forall_unless|]; repeat constructor. apply plain1s.
Qed.
Lemma rest_plain t o : Forall plain_ask ((if o_werror o then [Compiler0 t werror] else []) ++ rest_asks t o).
Proof.
  unfold rest_asks. rewrite !Forall_app. repeat split; first [apply Forall_when | apply Forall_unless]; repeat constructor;
    first [apply plain0 | apply plain1s | apply plain_pgo].
Qed.
(** no request of a target silences a later one of the same target *)
Definition kind (a : ask) : nat := match a with Optimization _ _ => 1 | Warning _ _ => 2 | _ => 0 end.
Lemma silences_kind b a : silences b a -> kind b = kind a /\ kind a <> 0.
Proof.
  intros [(t & l & u & -> & -> & _) | [(t & k & u & l & -> & -> & _) | (t & u & w & -> & -> & _)]]; split; try reflexivity; discriminate.
Qed.
Lemma plain_kind t o a : In a ([Compiler0 t always] ++ std_asks t o ++ (if snd (wanted o) then [Compiler0 t debug] else [])) \/
                         In a ((if o_werror o then [Compiler0 t werror] else []) ++ rest_asks t o) -> kind a = 0.
Proof.
  unfold std_asks, rest_asks. rewrite !in_app_iff. intros H.
  repeat match goal with H : _ \/ _ |- _ => destruct H as [H|H] end;
    repeat match type of H with
           | context [match ?x with _ => _ end] => destruct x
           | In _ [] => destruct H
           | In _ (_ :: _) => destruct H as [<-|H]
           end; reflexivity.
Qed.
Lemma all_asks_quiet t o l1 b l2 a l3 : all_asks t o = l1 ++ b :: l2 ++ a :: l3 -> ~ silences b a.
Proof.
  intros E Q. apply silences_kind in Q as [Q1 Q2]. unfold all_asks in E.
  set (p := [Compiler0 t always] ++ std_asks t o ++ (if snd (wanted o) then [Compiler0 t debug] else [])) in E.
  set (q := (if o_werror o then [Compiler0 t werror] else []) ++ rest_asks t o) in E.
  assert (P : forall a, In a p -> kind a = 0) by (intros x Hx; apply (plain_kind t o); left; exact Hx).
  assert (R : forall a, In a q -> kind a = 0) by (intros x Hx; apply (plain_kind t o); right; exact Hx).
  clearbody p q. revert l1 E. induction p as [|x p IH]; intros l1 E.
  - destruct l1 as [|y l1]; injection E as E0 E.
    + subst b. destruct l2 as [|z l2]; injection E as E1 E.
      * subst a. unfold warn_ask in *. destruct (beqb _ _); discriminate.
      * apply Q2. apply R. rewrite E. apply in_app_iff. right. left. reflexivity.
    + destruct l1 as [|z l1]; injection E as E1 E.
      * apply Q2. apply R. rewrite E. apply in_app_iff. right. left. reflexivity.
      * apply Q2. apply R. rewrite E. apply in_app_iff. right. right. apply in_app_iff. right. left. reflexivity.
  - destruct l1 as [|y l1]; injection E as E0 E.
    + subst b. rewrite (P x (or_introl eq_refl)) in Q1. congruence.
    + apply (IH (fun a H => P a (or_intror H)) l1 E).
Qed.

(** what is answered when asked first *)
Lemma answer_level t l : answer (Optimization t l) at_start = Some (level_flags t l).
Proof. destruct t, l; reflexivity. Qed.
Definition everything_of (t : ctype) : list bytes := match answer (Compiler0 t warn_everything) at_start with Some l => l | None => [] end.
Lemma answer_warning t s : In s [B "0"; B "1"; B "2"; B "3"; B "everything"] ->
  answer (warn_ask t s) at_start = Some (if beqb s (B "everything") then everything_of t else warning_flags t s).
Proof. intros H. repeat destruct H as [<-|H]; try destruct H; destruct t; reflexivity. Qed.
Lemma answer_name t r s : fits (Compiler1s t r s) -> answer (Compiler1s t r s) at_start = Some (map text (spelling (Compiler1s t r s))).
Proof. intros H. apply spelled_whole; [exact Logic.I | exact H]. Qed.
Lemma first_one a x : answer a at_start = Some x -> first_words [a] = Some x.
Proof. intros E. cbn [first_words]. rewrite E, app_nil_r. reflexivity. Qed.
Lemma fits_std t s : length s <= 249 -> fits (Compiler1s t set_std s).
Proof.
  intros L f n r H. destruct t; cbn [spelling In] in H; repeat destruct H as [H|H]; try contradiction; try discriminate H; injection H as <- <- <-;
    rewrite app_nil_r, app_length; change (length (B "-std=")) with 5; change (length (B "/std:")) with 5; lia.
Qed.
Lemma fits_sanitize t s : length s <= 243 -> fits (Compiler1s t sanitize s).
Proof.
  intros L f n r H. destruct t; cbn [spelling In] in H; repeat destruct H as [H|H]; try contradiction; try discriminate H; injection H as <- <- <-;
    rewrite app_nil_r, app_length; change (length (B "-fsanitize=")) with 11; lia.
Qed.
Lemma fits_color t s : length s <= 234 -> fits (Compiler1s t color_output s).
Proof.
  intros L f n r H. destruct t; cbn [spelling In] in H; repeat destruct H as [H|H]; try contradiction; try discriminate H; injection H as <- <- <-;
    rewrite app_nil_r, app_length; change (length (B "-fdiagnostics-color=")) with 20; lia.
Qed.
Lemma first_when (b : bool) l x : first_words l = Some x -> first_words (if b then l else []) = Some (when b x).
Proof. destruct b; [tauto | reflexivity]. Qed.
Lemma first_unless (b : bool) l x : first_words l = Some x -> first_words (if b then [] else l) = Some (when (negb b) x).
Proof. destruct b; [reflexivity | tauto]. Qed.
Lemma when_and (b c : bool) l : when (b && c) l = when b (when c l).
Proof. destruct b; reflexivity. Qed.
Lemma all_asks_words t o : sensible o ->
  exists ws, first_words (all_asks t o) = Some ws /\ ws ++ o_args o = expected_flags t o (everything_of t).
Proof.
  intros (Hb & Ho & Hw & Hp & Hs & Hz & Hc). eexists. split.
  - unfold all_asks. apply first_words_app; [apply first_words_app; [|apply first_words_app]|].
    + apply first_one. instantiate (1 := when (is_cl t) [B "/nologo"]). destruct t; reflexivity.
    + instantiate (1 := match o_std o with
        | Some s => when (negb (beqb s (B "none"))) (when (is_gcc t) [B "-std=" ++ s] ++ when (is_cl t) [B "/std:" ++ s])
        | None => [] end).
      unfold std_asks. destruct (o_std o) as [s|]; [|reflexivity]. apply first_unless. apply first_one.
      rewrite answer_name by (apply fits_std; apply Hs; reflexivity). destruct t; cbn [spelling map text is_gcc is_cl when app]; rewrite ?app_nil_r; reflexivity.
    + apply first_when. apply first_one. instantiate (1 := debug_flags t). destruct t; reflexivity.
    + change (?a :: ?b :: ?l) with ([a] ++ [b] ++ l). apply first_words_app; [apply first_one; apply answer_level|].
      apply first_words_app; [apply first_one; apply answer_warning; exact Hw|].
      apply first_words_app.
      * apply first_when. apply first_one. instantiate (1 := when (is_gcc t) [B "-Werror"] ++ when (is_cl t) [B "/WX"]). destruct t; reflexivity.
      * unfold rest_asks. repeat apply first_words_app.
        -- apply first_when. apply first_one. instantiate (1 := when (is_gcc t) [B "-fprofile-generate"]). destruct t; reflexivity.
        -- apply first_when. apply first_one. instantiate (1 := when (is_gcc t) [B "-fprofile-use"; B "-fprofile-correction"]). destruct t; reflexivity.
        -- apply first_unless. apply first_one. rewrite answer_name by (apply fits_sanitize; exact Hz).
           instantiate (1 := when (is_gcc t || is_cl t) [B "-fsanitize=" ++ o_sanitize o]).
           destruct t; cbn [spelling map text is_gcc is_cl when app orb]; rewrite ?app_nil_r; reflexivity.
        -- apply first_when. apply first_one.
           instantiate (1 := when (negb (is_cl t)) (match t with clang_llvm_ir => [] | _ => [B "-D"; B "NDEBUG"] end) ++ when (is_cl t) [B "/D"; B "NDEBUG"]).
           destruct t; reflexivity.
        -- apply first_unless. apply first_one. rewrite answer_name by (apply fits_color; exact Hc).
           instantiate (1 := when (is_gcc t) [B "-fdiagnostics-color=" ++ o_colorout o] ++ match t with clang_cl => [B "-fcolor-diagnostics"] | _ => [] end).
           destruct t; cbn [spelling map text is_gcc is_cl when app orb]; rewrite ?app_nil_r; reflexivity.
        -- apply first_when. apply first_one.
           instantiate (1 := match t with gcc | clang | apple_clang | clang_cl => [B "-flto"] | _ => [] end). destruct t; reflexivity.
  - unfold expected_flags. rewrite !when_and, <- !app_assoc. reflexivity.
Qed.
Definition undisturbed (t : ctype) (h : list ask) : Prop :=
  forall b, In b h -> (forall l, ~ silences b (Optimization t l)) /\ (forall w, ~ silences b (Warning t w)).
Lemma all_asks_later t o h g : undisturbed t h -> after h at_start = Some g -> forall a, In a (all_asks t o) -> later_len a 1 g.
Proof.
  intros U H a Ha. apply (after_later a h at_start g H (start_later a)). intros b Hb Q. destruct (U b Hb) as [U1 U2].
  destruct (silences_kind _ _ Q) as [_ K]. unfold all_asks in Ha. apply in_app_iff in Ha as [Ha|[<-|[<-|Ha]]].
  - apply K. apply (plain_kind t o). left. exact Ha.
  - exact (U1 _ Q).
  - unfold warn_ask in *. destruct (beqb _ _); [apply K; reflexivity | exact (U2 _ Q)].
  - apply K. apply (plain_kind t o). right. exact Ha.
Qed.
Lemma base_args_spec t o more h g : sensible o -> undisturbed t h -> after h at_start = Some g ->
  exists g', base_args t o more g = Done (expected_flags t o (everything_of t) ++ more, g') /\ after (h ++ all_asks t o) at_start = Some g'.
Proof.
  intros S U H. destruct (all_asks_words t o S) as (ws & E & F). rewrite (base_args_asks t o more g S).
  destruct (push_all_words (all_asks t o) [] g ws) as (g' & E1 & E2).
  - apply (after_good h at_start g good_start H).
  - apply (all_asks_later t o h g U H).
  - apply all_asks_quiet.
  - exact E.
  - exists g'. rewrite E1. cbn [app]. split; [rewrite app_assoc, F; reflexivity|].
    revert H. generalize at_start as s. clear -E2. induction h as [|b h IH]; intros s H; cbn [after app] in *.
    + injection H as ->. exact E2.
    + destruct (asks b s) as [[x s']|]; [|discriminate]. apply (IH s' H).
Qed.
Lemma all_asks_undisturbing t o u :
  (gcc_like t -> fst (wanted o) <> Lnone) -> (posix_like t -> fst (wanted o) <> Lnone /\ fst (wanted o) <> Lg /\ fst (wanted o) <> Ls) ->
  (cl_like t -> o_warning_level o <> B "0") -> In (o_warning_level o) [B "0"; B "1"; B "2"; B "3"; B "everything"] ->
  undisturbed u (all_asks t o).
Proof.
  intros HG HP HC HW.
  assert (X : forall b a, In b (all_asks t o) -> ~ silences b a); [|intros b Hb; split; intros; apply X; exact Hb].
  intros b a Hb Q. pose proof (silences_kind _ _ Q) as [K1 K2]. unfold all_asks in Hb. apply in_app_iff in Hb as [Hb|[<-|[<-|Hb]]].
  - rewrite (plain_kind t o b (or_introl Hb)) in K1. congruence.
  - destruct Q as [(t' & l & u' & E & _ & T & _) | [(t' & k & u' & l & E & _ & T & _ & K) | (t' & u' & w & E & _)]]; try discriminate E;
      injection E as <- E.
    + exact (HG T E).
    + subst k. destruct (HP T) as (A & B' & C). destruct K as [K|[K|K]]; auto.
  - unfold warn_ask in Q. destruct (beqb (o_warning_level o) (B "everything")) eqn:Ee.
    + apply K2. rewrite <- K1. unfold warn_ask. rewrite Ee. reflexivity.
    + destruct Q as [(t' & l & u' & E & _ & T & _) | [(t' & k & u' & l & E & _ & T & _ & K) | (t' & u' & w & E & _ & T & _)]]; try discriminate E;
        injection E as <- E. apply (HC T). revert E. destruct (beqb_spec (o_warning_level o) (B "0")) as [Y|Y]; intros E; [exact Y|].
      exfalso. revert E. destruct (beqb (o_warning_level o) (B "1")); [discriminate|].
      destruct (beqb (o_warning_level o) (B "2")); discriminate.
  - rewrite (plain_kind t o b (or_intror Hb)) in K1. congruence.
Qed.
Lemma each_target_spec l : forall h g,
  (forall t, undisturbed t h) -> after h at_start = Some g ->
  (forall t o more, In (t, o, more) l -> sensible o /\
     (gcc_like t -> fst (wanted o) <> Lnone) /\ (posix_like t -> fst (wanted o) <> Lnone /\ fst (wanted o) <> Lg /\ fst (wanted o) <> Ls) /\
     (cl_like t -> o_warning_level o <> B "0")) ->
  each_target l g = map (fun x => match x with (t, o, more) => Done (expected_flags t o (everything_of t) ++ more) end) l.
Proof.
  induction l as [|[[t o] more] l IH]; intros h g U H F; [reflexivity|]. cbn [each_target map].
  destruct (F t o more (or_introl eq_refl)) as (S & F1 & F2 & F3).
  destruct (base_args_spec t o more h g S (U t) H) as (g' & E1 & E2). rewrite E1. f_equal.
  apply (IH (h ++ all_asks t o) g'); [|exact E2 | intros t' o' more' I'; apply (F t' o' more'); right; exact I'].
  intros u b Hb. apply in_app_iff in Hb as [Hb|Hb]; [apply (U u b Hb)|].
  apply (all_asks_undisturbing t o u F1 F2 F3); [apply S | exact Hb].
Qed.
