(** A tree of the formatter stands for one program only, up to the order of the arguments of files(). *)
From Coq Require Import Permutation.
From Verif Require Import Base M_Lexer S_Lexer M_Parser S_Parser L_Parser L_Print M_Fmt S_Fmt L_FmtDry L_Fmt.
Local Arguments B _ : simpl never.

Definition ok (d : nat) : Prop := (N.of_nat d <= 4096)%N.
Lemma ok_S d : ok (S d) -> ok d. Proof. unfold ok. lia. Qed.
Definition St (T : fnode) (n : node) : Prop := (exists k d c, ok (S d) /\ stands k d c T n) \/ (exists d c, ok d /\ stands_expr d c T n).
Definition SA (md : list_mode) (l : list farg) (ns : list (option node * node)) : Prop := exists d, ok d /\ stands_args md d l ns.
Definition SK (k : flink) (nk : link) : Prop := exists d c, ok d /\ stands_link d c k nk.
Definition SL (l : list flink) (nl : list link) : Prop := (l = [] /\ nl = []) \/ exists d c, ok d /\ stands_links d c l nl.
Definition FA (args : list farg) (a : list (option node * node)) : Prop :=
  match args with
  | [AVal (FArray _ l _ _)] => exists ns l', SA mode_array l ns /\ Permutation ns l' /\ listed a l'
  | _ => exists ns, SA mode_arguments args ns /\ Permutation ns a
  end.
Definition filecall (h : fnode) (k : flink) (args : list farg) : Prop := h = FId (B "files") [] /\ exists comma ck, k = KCall args comma ck.
Definition reads (s : bytes) (n : node) : Prop := parser_parse true s = Parsed [StExpr n].
Definition built (T : fnode) (n : node) : Prop :=
  match T with
  | FBool b _ => n = NBool b
  | FId x _ => n = NId x
  | FStr s _ | FNum s _ => reads s n
  | FArray _ l _ _ => exists ns, n = NArray ns /\ SA mode_array l ns
  | FDict _ l _ _ => exists ns, n = NDict ns /\ SA mode_dictionary l ns
  | FNot a _ => exists m, n = NNot m /\ St a m
  | FMinus a _ => exists m, n = NMinus m /\ St a m
  | FArith op a b _ => exists ma mb, n = NArith op ma mb /\ St a ma /\ St b mb
  | FCmp op a b _ => exists ma mb, n = NCmp op ma mb /\ St a ma /\ St b mb
  | FAnd a b _ => exists ma mb, n = NAnd ma mb /\ St a ma /\ St b mb
  | FOr a b _ => exists ma mb, n = NOr ma mb /\ St a ma /\ St b mb
  | FTernary q a b _ => exists mq ma mb, n = NTernary mq ma mb /\ St q mq /\ St a ma /\ St b mb
  | FParen _ a _ => St a n
  | FChain h k l =>
      (exists args a nl, filecall h k args /\ n = NChain (NId (B "files")) (LCall a :: nl) /\ FA args a /\ SL l nl)
      \/ ((~ exists args, filecall h k args) /\ exists nh nk nl, n = NChain nh (nk :: nl) /\ St h nh /\ SK k nk /\ SL l nl)
  end.
Lemma filecall_dec h k : (exists args, filecall h k args) \/ ~ (exists args, filecall h k args).
Proof.
  destruct h as [| |x c| | | | | | | | | | | |]; try (right; intros (args & E & _); discriminate E).
  destruct k as [| |l comma ck]; try (right; intros (args0 & _ & comma0 & ck0 & E0); discriminate E0).
  destruct (list_eq_dec ascii_dec x (B "files")) as [->|N]; [|right; intros (args & E & _); congruence].
  destruct c as [|y c]; [left; exists l; split; eauto|right; intros (args & E & _); discriminate E].
Qed.
Lemma reads_source d s n ts : ok (S d) -> source 0 0 0 ts s -> level false 4 d n ts \/ level false 11 d n ts -> reads s n.
Proof.
  intros Hd Hs Hl. apply (source_parses true (S d) _ ts); [exact Hd| |exact Hs]. apply b_last. constructor; [|left; reflexivity].
  constructor. apply e_level. destruct Hl as [Hl|Hl]; [apply (level_above 1 4)|apply (level_above 1 11)]; auto; lia.
Qed.
Lemma source_one s t : spelled s t -> source 0 0 0 [t] s.
Proof. intros H. rewrite <- (app_nil_r s). apply so_token; [exact H| |constructor]. intros ? ? ? ? _ E. discriminate E. Qed.
Lemma links_first d c k l nk nl : ok d -> stands_links d c (k :: l) (nk :: nl) -> SK k nk /\ SL l nl.
Proof.
  intros Hd H. inversion H; subst.
  - split; [exists d, c; auto|left; auto].
  - split; [exists d, []; auto|right; exists d, c; auto].
Qed.
Lemma links_cons d c k l nl : stands_links d c (k :: l) nl -> exists nk nl', nl = nk :: nl'.
Proof. intros H. inversion H; subst; eauto. Qed.
Lemma stands_St k d c T n : ok (S d) -> stands k d c T n -> St T n. Proof. left. eauto. Qed.
Lemma expr_St d c T n : ok d -> stands_expr d c T n -> St T n. Proof. right. eauto. Qed.
Local Hint Resolve stands_St expr_St ok_S : core.
Lemma built_array o l comma c d c' n : ok d -> stands_expr d c' (FArray o l comma c) n -> exists ns, n = NArray ns /\ SA mode_array l ns.
Proof.
  intros Hd H. inversion H as [d0 ? ? ? Hs|]; subst. clear H. assert (X : ok d0) by auto. clear Hd. remember (FArray o l comma c) as T eqn:E. revert E.
  induction Hs; intros E; try discriminate E; auto. injection E as <- <- <- <-. eexists. split; [reflexivity|]. eexists. eauto.
Qed.
Lemma FA_chain d args ns : ok d -> stands_args mode_arguments d args ns -> FA args ns.
Proof.
  intros Hd H. assert (X : SA mode_arguments args ns) by (eexists; eauto). unfold FA.
  destruct args as [|[c|v|k v] l]; eauto. destruct v; eauto. destruct l as [|? ?]; eauto.
  inversion H as [| |? ? ? ? ? n ns0 Hm Hv Hh Hl| |]; subst. destruct (built_array _ _ _ _ _ _ _ Hd Hv) as (ms & -> & Hms). inversion Hl; subst.
  exists ms, ms. split; [exact Hms|]. split; [apply Permutation_refl|right; reflexivity].
Qed.
Lemma FA_perm args ns a : FA args ns -> Permutation ns a -> SA mode_arguments args ns -> FA args a.
Proof.
  intros H P Hs. unfold FA in *. destruct args as [|[c|v|k v] l]; eauto. destruct v; eauto. destruct l as [|? ?]; eauto.
  destruct Hs as (d & _ & Hs). inversion Hs as [| |? ? ? ? ? n ns0 Hm Hv Hh Hl| |]; subst. inversion Hl; subst. apply Permutation_length_1_inv in P. subst a. exact H.
Qed.
Lemma stands_built k d c T n : stands k d c T n -> ok (S d) -> built T n.
Proof.
  intros H Hd. induction H; cbn [built]; eauto 8.
  - (* format *) apply (reads_source d _ _ us Hd); [|auto]. rewrite <- (app_nil_r us). apply so_format; [assumption| |constructor]. intros ? ? ? ? _ E. discriminate E.
  - (* chain *) destruct (links_cons _ _ _ _ _ H0) as (nk & nl' & ->). apply links_first in H0; [|auto]. destruct H0 as [Hk Hl].
    destruct (filecall_dec h k) as [(args & F)|F]; [left|right; split; [exact F|eauto 10]].
    destruct F as [-> (comma & ck & ->)]. destruct (stands_id _ _ _ _ _ H _ _ eq_refl) as [_ ->].
    destruct Hk as (d1 & c1 & Hd1 & Hk). inversion Hk; subst.
    exists args, ns, nl'. split; [split; eauto|]. split; [reflexivity|]. split; [apply (FA_chain d1); assumption|exact Hl].
  - (* files *) left. apply links_first in H1; [|auto]. destruct H1 as [_ Hl]. exists args, ns', nl. split; [split; eauto|]. split; [reflexivity|]. split; [|exact Hl].
    apply (FA_perm args ns); [apply (FA_chain d); auto|assumption|exists d; auto].
  - (* files with a list *) left. apply links_first in H1; [|auto]. destruct H1 as [_ Hl]. eexists _, ns', nl. split; [split; eauto|]. split; [reflexivity|]. split; [|exact Hl].
    cbn [FA]. exists ns, ns'. split; [exists d; auto|]. split; [assumption|left; reflexivity].
  - eexists. split; [reflexivity|]. eexists. eauto.
  - eexists. split; [reflexivity|]. eexists. eauto.
  - apply (reads_source d _ _ [mkTok tok_number [] (Z.of_N v)] Hd); [apply source_one, sp_number; assumption|]. right. apply (l_number false d (mkTok tok_number [] (Z.of_N v))). reflexivity.
  - apply (reads_source d _ _ [mkTok tok_string s 0] Hd); [apply source_one, sp_string; assumption|]. right. apply (l_string false d (mkTok tok_string s 0)). reflexivity.
  - apply (reads_source d _ _ [mkTok tok_string s 0] Hd); [apply source_one, sp_raw; assumption|]. right. apply (l_string false d (mkTok tok_string s 0)). reflexivity.
Qed.
Lemma St_built T n : St T n -> built T n.
Proof.
  intros [(k & d & c & Hd & H)|(d & c & Hd & H)]; [apply (stands_built k d c T n H Hd)|].
  destruct H as [d c t n H|d c q a b nq na nb Hq Ha Hb].
  - apply (stands_built 1 d c t n H Hd).
  - cbn [built]. eexists _, _, _. split; [reflexivity|]. split; [apply (stands_St 1 d [] q nq Hd Hq)|].
    split; [apply (expr_St d [] a na (ok_S _ Hd) Ha)|apply (expr_St d [] b nb (ok_S _ Hd) Hb)].
Qed.

Definition one (T : fnode) : Prop := forall n n', St T n -> St T n' -> same n n'.
Lemma args_same md l : Forall (arg_all one) l -> forall ns ms, SA md l ns -> SA md l ms -> Forall2 same_arg ns ms.
Proof.
  induction 1 as [|a l Ha Hl IH]; intros ns ms (d & Hd & H) (d' & Hd' & H').
  - inversion H; subst. inversion H'; subst. constructor.
  - inversion H; subst; inversion H'; subst; cbn [arg_all] in Ha;
    try (solve [apply IH; eexists; eauto]); constructor; try (apply IH; eexists; eauto).
    + constructor. apply Ha; eauto.
    + constructor; [apply s_same|]. apply (proj2 Ha); eauto.
    + constructor; [apply (proj1 Ha); eauto|apply (proj2 Ha); eauto].
Qed.
(** with the elements of lists *)
Definition one_list (T : fnode) : Prop := match T with FArray _ l _ _ => Forall (arg_all one) l | _ => True end.
Lemma link_same k nk nk' : link_all one k -> SK k nk -> SK k nk' -> same_link nk nk'.
Proof.
  intros Hk (d & c & Hd & H) (d' & c' & Hd' & H'). inversion H; subst; inversion H'; subst; cbn [link_all] in Hk; constructor.
  - eapply args_same; eauto; eexists; eauto.
  - apply Hk; eauto.
  - eapply args_same; eauto; eexists; eauto.
Qed.
Lemma links_same l : Forall (link_all one) l -> forall nl nl', SL l nl -> SL l nl' -> Forall2 same_link nl nl'.
Proof.
  induction 1 as [|k l Hk Hl IH]; intros nl nl' H H'.
  - assert (X : forall n, SL [] n -> n = []). { intros n [[_ E]|(d & c & _ & E)]; [exact E|inversion E]. } rewrite (X nl H), (X nl' H'). constructor.
  - assert (X : forall n, SL (k :: l) n -> exists nk n', n = nk :: n' /\ SK k nk /\ SL l n').
    { intros n [[E _]|(d & c & Hd & E)]; [discriminate E|]. destruct (links_cons _ _ _ _ _ E) as (nk & n' & ->). exists nk, n'. split; [reflexivity|]. eapply links_first; eauto. }
    destruct (X nl H) as (nk & n1 & -> & Hk1 & Hl1). destruct (X nl' H') as (nk' & n1' & -> & Hk1' & Hl1').
    constructor; [eapply link_same; eauto|apply IH; auto].
Qed.
Lemma one_all T : one T /\ one_list T.
Proof.
  induction T using fnode_ind'; split; try exact Logic.I;
  try (intros n n' Hn Hn'; apply St_built in Hn, Hn'; cbn [built] in Hn, Hn').
  all: try (solve [subst; apply s_same]).
  all: try (solve [unfold reads in *; rewrite Hn in Hn'; injection Hn' as <-; apply s_same]).
  - destruct Hn as (ns & -> & Hn), Hn' as (ns' & -> & Hn'). apply s_array. apply (args_same mode_array l); auto.
    eapply Forall_impl; [|exact H]. intros [|v|k v]; cbn; tauto.
  - eapply Forall_impl; [|exact H]. intros [|v|k v]; cbn; tauto.
  - destruct Hn as (ns & -> & Hn), Hn' as (ns' & -> & Hn'). apply s_dict. apply (args_same mode_dictionary l); auto.
    eapply Forall_impl; [|exact H]. intros [|v|k v]; cbn; tauto.
  - destruct Hn as (m & -> & Hn), Hn' as (m' & -> & Hn'). apply s_not. apply IHT; auto.
  - destruct Hn as (m & -> & Hn), Hn' as (m' & -> & Hn'). apply s_minus. apply IHT; auto.
  - destruct Hn as (a & b & -> & Ha & Hb), Hn' as (a' & b' & -> & Ha' & Hb'). apply s_arith; [apply IHT1|apply IHT2]; auto.
  - destruct Hn as (a & b & -> & Ha & Hb), Hn' as (a' & b' & -> & Ha' & Hb'). apply s_compare; [apply IHT1|apply IHT2]; auto.
  - destruct Hn as (a & b & -> & Ha & Hb), Hn' as (a' & b' & -> & Ha' & Hb'). apply s_and; [apply IHT1|apply IHT2]; auto.
  - destruct Hn as (a & b & -> & Ha & Hb), Hn' as (a' & b' & -> & Ha' & Hb'). apply s_or; [apply IHT1|apply IHT2]; auto.
  - destruct Hn as (q & a & b & -> & Hq & Ha & Hb), Hn' as (q' & a' & b' & -> & Hq' & Ha' & Hb'). apply s_ternary; [apply IHT1|apply IHT2|apply IHT3]; auto.
  - apply IHT; auto.
  - rename H into Hk, H0 into Hl.
    assert (W : forall k, link_all (fun v => one v /\ one_list v) k -> link_all one k).
    { intros k0. assert (A : forall l, Forall (arg_all (fun v => one v /\ one_list v)) l -> Forall (arg_all one) l).
      { intros l0. apply Forall_impl. intros [|v|k1 v]; cbn; tauto. }
      destruct k0; cbn [link_all]; [apply A|tauto|apply A]. }
    assert (Wl : Forall (link_all one) l) by (eapply Forall_impl; [exact W|exact Hl]).
    destruct Hn as [(args & a & nl & (-> & comma & ck & ->) & -> & Ha & Hnl)|(N & nh & nk & nl & -> & Hh & Hnk & Hnl)];
    destruct Hn' as [(args' & a' & nl' & (E1 & comma' & ck' & E2) & -> & Ha' & Hnl')|(N' & nh' & nk' & nl' & -> & Hh' & Hnk' & Hnl')].
    + injection E2 as <- <- <-.
      assert (X : exists ns ms l1 l2 md al, SA md al ns /\ SA md al ms /\ Forall (arg_all one) al /\ Permutation ns l1 /\ Permutation ms l2 /\ listed a l1 /\ listed a' l2).
      { unfold FA in Ha, Ha'. cbn [link_all] in Hk.
        assert (D : (exists o l comma c, args = [AVal (FArray o l comma c)]) \/
          (exists ns, SA mode_arguments args ns /\ Permutation ns a) /\ (exists ns, SA mode_arguments args ns /\ Permutation ns a')).
        { destruct args as [|[c|v|k v] l0]; auto. destruct v; auto. destruct l0; eauto 10. }
        destruct D as [(o & l0 & cm & c & ->)|[(ns & H1 & H2) (ms & H3 & H4)]].
        - destruct Ha as (ns & l1 & H1 & H2 & H3), Ha' as (ms & l2 & H4 & H5 & H6). exists ns, ms, l1, l2, mode_array, l0.
          repeat (split; [assumption|]). split; [|auto]. inversion Hk as [|? ? H7 _]; subst. apply H7.
        - exists ns, ms, a, a', mode_arguments, args. unfold listed. repeat (split; [assumption|]). split; [|auto].
          eapply Forall_impl; [|exact Hk]. intros [|v|k v]; cbn; tauto. }
      destruct X as (ns & ms & l1 & l2 & md & al & H1 & H2 & H3 & H4 & H5 & H6 & H7).
      destruct (Permutation_Forall2 H4 (args_same md al H3 ns ms H1 H2)) as (m & H8 & H9).
      apply (s_files a a' l1 m l2); auto; [eapply Permutation_trans; [apply Permutation_sym; exact H8|exact H5]|]. eapply links_same; eauto.
    + exfalso. apply N'. exists args. split; eauto.
    + exfalso. apply N. exists args'. subst. split; eauto.
    + apply s_chain; [apply IHT; auto|]. constructor; [eapply link_same; eauto|eapply links_same; eauto].
Qed.
Lemma expr_same d d' c c' T n n' : ok d -> ok d' -> stands_expr d c T n -> stands_expr d' c' T n' -> same n n'.
Proof. intros Hd Hd' H H'. apply (proj1 (one_all T)); [apply (expr_St d c)|apply (expr_St d' c')]; auto. Qed.
Lemma program_same sp ign d : ok d ->
  (forall k l ps, stands_lines sp ign d k l ps -> forall ps', stands_lines sp ign d k l ps' -> Forall2 same_stmt ps ps') /\
  (forall k T p, stands_stmt sp ign d k T p -> forall p', stands_stmt sp ign d k T p' -> same_stmt p p') /\
  (forall k r nr, stands_clause sp ign d k r nr -> forall nr', stands_clause sp ign d k r nr' -> same_clause nr nr').
Proof.
  intros Hd. apply stands_ind3; intros.
  all: match goal with H : stands_lines _ _ _ _ ?l ?p |- Forall2 _ _ ?p => inversion H; subst | H : stands_stmt _ _ _ _ _ ?p |- same_stmt _ ?p => inversion H; subst
       | H : stands_clause _ _ _ _ _ ?p |- same_clause _ ?p => inversion H; subst end.
  all: try match goal with H : stands_stmt _ _ _ _ (TLine _) _ |- _ => inversion H end.
  all: try constructor; eauto using expr_same.
Qed.
