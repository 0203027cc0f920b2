(** Lemmas about the sorting of sources and the language of linking. *)
From Coq Require Import Lia Permutation.
From Verif Require Import Base S_Path M_Path L_Path L_Path2 L_Path3 L_Custom M_Backend S_Backend L_Places M_Compile S_Compile L_Compile.
Local Arguments B _ : simpl never.

Lemma ends_with_spec s e : ends_with s e = true <-> exists m, s = m ++ e.
Proof.
  unfold ends_with. rewrite andb_true_iff, Nat.leb_le. split.
  - intros [L E]. destruct (beqb_spec (skipn (length s - length e) s) e) as [X|]; [|discriminate].
    exists (firstn (length s - length e) s). rewrite <- X at 2. now rewrite firstn_skipn.
  - intros [m ->]. rewrite app_length. split; [lia|]. replace (length m + length e - length e) with (length m) by lia.
    rewrite skipn_app, skipn_all, Nat.sub_diag. apply beqb_refl.
Qed.
Lemma library_spec p : file_is_linkable p = true <-> library p.
Proof.
  unfold file_is_linkable, library. rewrite existsb_exists. split.
  - intros (e & He & X). apply ends_with_spec in X as [m Hm]. exists m, e. split; [cbn [In] in *; tauto|exact Hm].
  - intros (m & e & He & Hm). exists e. split; [cbn [In] in *; tauto|]. apply ends_with_spec. eauto.
Qed.
Lemma selected_snoc {A} (P : A -> Prop) l r x : selected P l r -> (P x -> selected P (l ++ [x]) (r ++ [x])) /\ (~ P x -> selected P (l ++ [x]) r).
Proof.
  induction 1 as [|y l r Hy H [IH1 IH2]|y l r Hy H [IH1 IH2]]; split; intros Hx; cbn [app].
  - apply sel_yes; [exact Hx|constructor].
  - apply sel_no; [exact Hx|constructor].
  - apply sel_yes; auto.
  - apply sel_yes; auto.
  - apply sel_no; auto.
  - apply sel_no; auto.
Qed.
Lemma selected_in {A} (P : A -> Prop) l r x : selected P l r -> P x -> selected P (l ++ [x]) (r ++ [x]).
Proof. intros H. apply (selected_snoc P l r x H). Qed.
Lemma selected_out {A} (P : A -> Prop) l r x : selected P l r -> ~ P x -> selected P (l ++ [x]) r.
Proof. intros H. apply (selected_snoc P l r x H). Qed.
Ltac sel := first [apply selected_in | apply selected_out].
Lemma language_one p l l' : in_language p l -> in_language p l' -> l = l'.
Proof. rewrite <- !language_of_spec. congruence. Qed.

(** ** counting *)
Definition counted (d : list (lang * nat)) (l : lang) : nat := match geti d l with Some n => n | None => 0 end.
Lemma count_up_keys l d : map fst (count_up l d) = map fst d /\ In l (map fst d) \/ map fst (count_up l d) = map fst d ++ [l] /\ ~ In l (map fst d).
Proof.
  induction d as [|[g n] d IH]; cbn [count_up map fst app]; [right; split; [reflexivity|intros []]|].
  destruct (lang_eqb_spec l g) as [->|N]; cbn [map fst In].
  - left. auto.
  - destruct IH as [[-> H]|[-> H]]; [left|right]; split; auto. intros [E|E]; congruence.
Qed.
Lemma count_up_counted l d g : counted (count_up l d) g = if lang_eqb l g then S (counted d g) else counted d g.
Proof.
  unfold counted. induction d as [|[h n] d IH]; cbn [count_up geti].
  - destruct (lang_eqb_spec g l), (lang_eqb_spec l g); congruence.
  - destruct (lang_eqb_spec l h) as [->|N]; cbn [geti].
    + destruct (lang_eqb_spec g h) as [->|N']; [destruct (lang_eqb_spec h h); congruence|]. destruct (lang_eqb_spec h g); congruence.
    + destruct (lang_eqb_spec g h) as [->|N']; [destruct (lang_eqb_spec l h); congruence|exact IH].
Qed.
Lemma count_up_pos l d : Forall (fun x => snd x <> 0) d -> Forall (fun x => snd x <> 0) (count_up l d).
Proof.
  induction 1 as [|[h n] d Hh Hd IH]; cbn [count_up]; [repeat constructor; discriminate|].
  destruct (lang_eqb l h); constructor; auto; discriminate.
Qed.

Record sorts (root : bytes) (ps : list bytes) (s : sorted) : Prop := {
  sr_link : selected library ps (so_link s);
  sr_objects : selected an_object ps (so_objects s);
  sr_src : selected a_source ps (so_src s);
  sr_order : exists gen, selected (a_generated root) ps gen /\ Forall2 (fun p r => exists l, comps p = comps root ++ l /\ r = render false l) gen (so_order s);
  sr_keys : NoDup (map fst (so_count s)) /\ Forall (fun x => snd x <> 0) (so_count s) /\ forall l, In l (map fst (so_count s)) -> compiled_language l;
  sr_count : forall l, compiled_language l -> exists of_l, selected (fun p => ~ library p /\ in_language p l) ps of_l /\ counted (so_count s) l = length of_l }.

Lemma compiled_dec l : is_header l = false -> is_linkable l = false -> compiled_language l.
Proof. destruct l; cbn; try discriminate; intros _ _; unfold compiled_language; cbn [In]; auto 10. Qed.
Lemma push_source_ok root ps s p : is_abs root = true -> comps root <> [] -> is_abs p = true -> clean p -> comps p <> comps root ->
  sorts root ps s -> exists s', push_source root s p = Some s' /\ sorts root (ps ++ [p]) s'.
Proof.
  intros Hr Nr Ha Hc Np [S1 S2 S3 (gen & G1 & G2) (K1 & K2 & K3) S6].
  assert (Count : forall c, (forall l, compiled_language l -> counted c l = counted (so_count s) l) -> ~ a_source p ->
    forall l, compiled_language l -> exists of_l, selected (fun p => ~ library p /\ in_language p l) (ps ++ [p]) of_l /\ counted c l = length of_l).
  { intros c Ec Ns l Hl. destruct (S6 l Hl) as (of_l & A & E). exists of_l. split; [|rewrite Ec by exact Hl; exact E].
    sel; [exact A|]. intros (X1 & X2). apply Ns. split; [exact X1|eauto]. }
  unfold push_source. destruct (file_is_linkable p) eqn:Lp.
  - apply library_spec in Lp. eexists. split; [reflexivity|]. constructor; cbn [so_link so_order so_objects so_src so_count]; auto.
    + apply selected_in; assumption.
    + sel; [exact S2|]. intros [X _]; auto.
    + sel; [exact S3|]. intros [X _]; auto.
    + exists gen. split; [|exact G2]. sel; [exact G1|]. intros [X _]; auto.
    + apply Count; [auto|]. intros [X _]; auto.
  - assert (Nl : ~ library p) by (rewrite <- library_spec; congruence).
    assert (Link : selected library (ps ++ [p]) (so_link s)) by (sel; auto).
    assert (Rest : (forall l, in_language p l -> In l [LCHdr; LCppHdr]) -> exists s',
      (match path_is_subpath root p with Some sub =>
       if sub then match path_relative_to root p with Some r => Some (Sorted (so_link s) (so_order s ++ [r]) (so_objects s) (so_src s) (so_count s)) | None => None end else Some s | None => None end) = Some s'
      /\ sorts root (ps ++ [p]) s').
    { intros Hl. assert (No : ~ an_object p). { intros [_ X]. specialize (Hl _ X). cbn in Hl. intuition discriminate. }
      assert (Ns : ~ a_source p). { intros [_ (l & Cl & X)]. specialize (Hl _ X). unfold compiled_language in Cl. cbn [In] in *. destruct Hl as [<-|[<-|[]]]; intuition discriminate. }
      rewrite subpath_below by assumption. destruct (below (comps root) (comps p)) as [l|] eqn:Eb.
      - apply below_spec in Eb. rewrite (relative_below root p l); auto.
        + eexists. split; [reflexivity|]. constructor; cbn [so_link so_order so_objects so_src so_count]; auto.
          * sel; auto.
          * sel; auto.
          * exists (gen ++ [p]). split; [sel; [exact G1|]; split; [exact Nl|split; [exact Hl|eauto]]|]. apply Forall2_app; [exact G2|repeat constructor; eauto].
        + intros ->. rewrite app_nil_r in Eb. auto.
        + now apply clean_noup.
      - eexists. split; [reflexivity|]. constructor; auto.
        + sel; auto.
        + sel; auto.
        + exists gen. split; [|exact G2]. sel; [exact G1|]. intros (_ & _ & l & E). rewrite E in Eb. rewrite (proj2 (below_spec (comps root) (comps root ++ l) l)) in Eb by reflexivity. discriminate. }
    destruct (language_of p) as [l|] eqn:El.
    + apply language_of_spec in El. destruct (is_header l) eqn:Eh.
      * apply Rest. intros g Hg. rewrite (language_one _ _ _ Hg El). destruct l; try discriminate Eh; cbn; auto.
      * assert (Ng : ~ a_generated root p). { intros (_ & X & _). specialize (X _ El). cbn in X. destruct X as [<-|[<-|[]]]; discriminate Eh. }
        assert (Order : exists gen, selected (a_generated root) (ps ++ [p]) gen /\ Forall2 (fun p r => exists l, comps p = comps root ++ l /\ r = render false l) gen (so_order s)).
        { exists gen. split; [|exact G2]. sel; auto. }
        destruct (is_linkable l) eqn:Ek.
        -- assert (l = LObj) as -> by (destruct l; try discriminate Ek; reflexivity).
           assert (Ns : ~ a_source p). { intros [_ (g & Cl & X)]. rewrite (language_one _ _ _ X El) in Cl. unfold compiled_language in Cl. cbn [In] in Cl. intuition discriminate. }
           eexists. split; [reflexivity|]. constructor; cbn [so_link so_order so_objects so_src so_count]; auto.
           ++ sel; [exact S2|]. split; auto.
           ++ sel; auto.
        -- pose proof (compiled_dec l Eh Ek) as Cl.
           assert (No : ~ an_object p). { intros [_ X]. rewrite (language_one _ _ _ El X) in Ek. discriminate. }
           eexists. split; [reflexivity|]. constructor; cbn [so_link so_order so_objects so_src so_count]; auto.
           ++ sel; auto.
           ++ sel; [exact S3|]. split; [exact Nl|eauto].
           ++ destruct (count_up_keys l (so_count s)) as [[-> H]|[-> H]].
              ** split; [exact K1|]. split; [now apply count_up_pos|]. intros g Hg; auto.
              ** split; [|split; [now apply count_up_pos|]].
                 --- apply Permutation_NoDup with (l :: map fst (so_count s)); [apply Permutation_cons_append|now constructor].
                 --- intros g Hg. apply in_app_or in Hg as [Hg|[<-|[]]]; auto.
           ++ intros g Hg. destruct (S6 g Hg) as (of_l & A & E). rewrite count_up_counted. destruct (lang_eqb_spec l g) as [->|N].
              ** exists (of_l ++ [p]). split; [sel; auto|]. rewrite app_length, E. cbn. lia.
              ** exists of_l. split; [|exact E]. sel; [exact A|]. intros [_ X]. apply N. apply (language_one p); auto.
    + apply Rest. intros g Hg. apply language_of_spec in Hg. congruence.
Qed.
Lemma push_sources_ok root ps s qs : is_abs root = true -> comps root <> [] -> Forall (fun p => is_abs p = true /\ clean p /\ comps p <> comps root) ps ->
  sorts root qs s -> exists s', push_sources root s ps = Some s' /\ sorts root (qs ++ ps) s'.
Proof.
  intros Hr Nr H. revert qs s. induction H as [|p ps (Ha & Hc & Np) H IH]; intros qs s Hs; cbn [push_sources].
  - rewrite app_nil_r. eauto.
  - destruct (push_source_ok root qs s p Hr Nr Ha Hc Np Hs) as (s1 & -> & H1). destruct (IH _ _ H1) as (s2 & E & H2). rewrite <- app_assoc in H2. eauto.
Qed.
Lemma sorts_empty root : sorts root [] (Sorted [] [] [] [] []).
Proof.
  constructor; cbn [so_link so_order so_objects so_src so_count]; try constructor.
  - exists []. split; constructor.
  - constructor.
  - split; [constructor|intros l []].
  - intros l _. exists []. split; constructor.
Qed.

(** ** the language of linking *)
Definition stem_ok (o : bytes) : option bytes := match path_basename o with Some base => before_last_dot base | None => None end.
Lemma before_last_dot_spec s b : before_last_dot s = Some b <-> exists e, s = b ++ "."%char :: e /\ ~ In "."%char e.
Proof.
  revert b. induction s as [|c r IH]; intros b; cbn [before_last_dot].
  - split; [discriminate|]. intros (e & E & _). destruct b; discriminate.
  - destruct (before_last_dot r) as [b'|] eqn:L.
    + pose proof (proj1 (IH b') eq_refl) as IHb. split.
      * intros [= <-]. destruct (proj1 (IH b') eq_refl) as (e & -> & N). exists e. auto.
      * intros (e & E & N). destruct b as [|c' b]; injection E as -> E.
        -- subst e. exfalso. destruct IHb as (e' & E' & _). apply N. rewrite E'. apply in_or_app. right. now left.
        -- do 2 f_equal. assert (X : Some b' = Some b) by (apply IH; eauto). congruence.
    + destruct (ceqb_spec c ".") as [->|Nc].
      * split.
        -- intros [= <-]. exists r. split; [reflexivity|]. intros Hi. apply in_split in Hi as (l1 & l2 & E).
           assert (X : exists b e, r = b ++ "."%char :: e /\ ~ In "."%char e).
           { clear -E. revert l1 E. assert (G : forall n (r : bytes), length r <= n -> forall l1 l2, r = l1 ++ "."%char :: l2 -> exists b e, r = b ++ "."%char :: e /\ ~ In "."%char e).
             { induction n as [|n IHn]; intros r0 Hl l1 l3 E; [subst r0; rewrite app_length in Hl; cbn in Hl; lia|].
               destruct (in_dec Ascii.ascii_dec "."%char l3) as [Hi|Hi]; [|eauto]. apply in_split in Hi as (m1 & m2 & ->).
               destruct (IHn ((m1 ++ "."%char :: m2))  ) with (l1 := m1) (l2 := m2) as (b & e & E' & N); [subst r0; rewrite app_length in Hl; cbn in Hl; lia|reflexivity|].
               exists (l1 ++ "."%char :: b), e. split; [|exact N]. rewrite E, E', <- app_assoc. reflexivity. }
             intros l1 E. eapply (G (length r)); eauto. }
           destruct X as (b & e & Eb & Ne). assert (Y : None = Some b) by (apply IH; eauto). discriminate.
        -- intros (e & E & N). destruct b as [|c' b]; [reflexivity|]. injection E as E0 E. assert (Y : None = Some b) by (apply IH; eauto). discriminate.
      * split; [discriminate|]. intros (e & E & N). destruct b as [|c' b]; [cbn in E; congruence|]. injection E as E0 E. assert (Y : None = Some b) by (apply IH; eauto). discriminate.
Qed.
Lemma has_ending_stem o : has_ending o -> exists stem, stem_ok o = Some stem /\ forall l, language_of stem = Some l <-> made_from o l.
Proof.
  intros (dirs & n & E & Hd). assert (No : o <> []) by (intros ->; cbn in E; destruct dirs; discriminate).
  assert (X : exists b, before_last_dot n = Some b).
  { destruct (before_last_dot n) as [b|] eqn:Eb; [eauto|]. exfalso. revert Eb Hd. clear. induction n as [|c r IH]; cbn [before_last_dot]; [intros _ []|].
    destruct (before_last_dot r); [discriminate|]. destruct (ceqb_spec c "."); [discriminate|]. intros _ [H|H]; [congruence|auto]. }
  destruct X as [b Eb]. exists b. unfold stem_ok. rewrite (last_comp_basename o dirs n No E). split; [exact Eb|]. intros l. rewrite language_of_spec. unfold made_from. split.
  - intros H. apply before_last_dot_spec in Eb as (e & -> & N). eauto 6.
  - intros (dirs' & stem & e & E' & N & H). rewrite E in E'. apply app_inj_tail in E' as [_ ->].
    assert (Y : Some b = Some stem) by (rewrite <- Eb; apply before_last_dot_spec; eauto). injection Y as ->. exact H.
Qed.
(** what determines the language: the names of sources and those of objects without their endings *)
Lemma linker_objects cur os : Forall has_ending os -> exists stems, Forall2 (fun o s => stem_ok o = Some s /\ forall l, language_of s = Some l <-> made_from o l) os stems /\
  linker_from_objects cur os = Some (fold_left linker_from_source stems cur).
Proof.
  intros H. revert cur. induction H as [|o os Ho H IH]; intros cur; cbn [linker_from_objects]; [exists []; split; constructor|].
  destruct (has_ending_stem o Ho) as (s & E & F). unfold linker_from_object. unfold stem_ok in E. destruct (path_basename o) as [base|] eqn:Eb; [|discriminate]. rewrite E.
  destruct (IH (linker_from_source cur s)) as (stems & G & ->). exists (s :: stems). split; [|reflexivity]. constructor; [|exact G]. split; [|exact F]. unfold stem_ok. now rewrite Eb.
Qed.
Lemma fold_cpp names cur : (cur = Some LCpp \/ (exists n, In n names /\ language_of n = Some LCpp) /\ In cur [None; Some LC; Some LAsm; Some LCpp]) ->
  fold_left linker_from_source names cur = Some LCpp.
Proof.
  revert cur. induction names as [|n names IH]; intros cur H; cbn [fold_left].
  - destruct H as [->|[(n & [] & _) _]]. reflexivity.
  - apply IH. destruct H as [->|[(m & Hm & El) Hc]].
    + left. unfold linker_from_source. destruct (language_of n) as [[]|]; reflexivity.
    + cbn [In] in Hm. destruct Hm as [->|Hm].
      * left. unfold linker_from_source. rewrite El. cbn [In] in Hc. repeat (destruct Hc as [<-|Hc]; [reflexivity|]). contradiction.
      * right. split; [eauto|]. unfold linker_from_source. destruct (language_of n) as [l|]; [|exact Hc]. cbn [In] in Hc |- *.
        repeat (destruct Hc as [<-|Hc]; [destruct l; cbn; auto 10|]). contradiction.
Qed.
Lemma fold_c names cur : (forall n, In n names -> language_of n <> Some LCpp /\ language_of n <> Some LAsm) ->
  cur = Some LC \/ cur = None /\ (exists n l, In n names /\ language_of n = Some l /\ In l [LC; LObjc; LNasm; LObj]) ->
  fold_left linker_from_source names cur = Some LC.
Proof.
  revert cur. induction names as [|n names IH]; intros cur Hn H; cbn [fold_left].
  - destruct H as [->|[_ (n & l & [] & _)]]. reflexivity.
  - apply IH; [intros m Hm; apply Hn; now right|]. destruct (Hn n (or_introl eq_refl)) as [N1 N2]. unfold linker_from_source. destruct H as [->|[-> (m & l & Hm & El & Hl)]].
    + left. destruct (language_of n) as [[]|]; try reflexivity; congruence.
    + destruct Hm as [->|Hm].
      * rewrite El. left. cbn [In] in Hl. repeat (destruct Hl as [<-|Hl]; [reflexivity|]). contradiction.
      * destruct (language_of n) as [[]|]; cbn; try congruence; try (now left); right; split; eauto.
Qed.
Lemma fold_none names cur : (forall n l, In n names -> language_of n = Some l -> In l [LCHdr; LCppHdr; LLlvm]) -> fold_left linker_from_source names cur = cur.
Proof.
  revert cur. induction names as [|n names IH]; intros cur Hn; cbn [fold_left]; [reflexivity|]. rewrite IH by (intros; eapply Hn; [right|]; eauto).
  unfold linker_from_source. destruct (language_of n) as [l|] eqn:E; [|reflexivity]. pose proof (Hn n l (or_introl eq_refl) E) as H. cbn [In] in H.
  destruct H as [<-|[<-|[<-|[]]]]; reflexivity.
Qed.
