(** C117-C119: what becomes of the files given as sources of a build target (src/functions/kernel/build_target.c,
    src/compilers.c), the names of its objects (src/functions/build_target.c), and the language it is linked as. *)
From Coq Require Import Lia Permutation.
From Verif Require Import Base S_Path L_Path M_Toolchain M_Backend S_Backend M_Compile S_Compile L_Compile L_Sources.
Local Arguments B _ : simpl never.

(** ** C117: every source goes where its name says *)
Theorem C117_every_source_goes_where_its_name_says root ps :
  is_abs root = true -> comps root <> [] -> Forall (fun p => is_abs p = true /\ clean p /\ comps p <> comps root) ps ->
  exists s, push_sources root (Sorted [] [] [] [] []) ps = Some s /\
    selected library ps (so_link s) /\ selected an_object ps (so_objects s) /\ selected a_source ps (so_src s) /\
    (exists gen, selected (a_generated root) ps gen /\
       Forall2 (fun p r => exists l, comps p = comps root ++ l /\ r = render false l) gen (so_order s)) /\
    NoDup (map fst (so_count s)) /\
    forall l n, In (l, n) (so_count s) <->
      compiled_language l /\ n <> 0 /\ exists of_l, selected (fun p => ~ library p /\ in_language p l) ps of_l /\ length of_l = n.
Proof.
  intros Hr Nr Hp. destruct (push_sources_ok root ps _ [] Hr Nr Hp (sorts_empty root)) as (s & E & [S1 S2 S3 S4 (K1 & K2 & K3) S6]). cbn [app] in *.
  exists s. repeat (split; [assumption|]). intros l n. split.
  - intros H. assert (Cl : compiled_language l) by (apply K3; apply in_map_iff; now exists (l, n)). split; [exact Cl|].
    split; [rewrite Forall_forall in K2; apply (K2 _ H)|]. destruct (S6 l Cl) as (of_l & A & L). exists of_l. split; [exact A|].
    rewrite <- L. unfold counted. now rewrite (geti_spec _ _ _ K1 H).
  - intros (Cl & Nn & of_l & A & <-). destruct (S6 l Cl) as (of_l' & A' & L').
    assert (of_l = of_l') as ->.
    { clear -A A'. revert of_l' A'. induction A as [|x l0 r Hx A IH|x l0 r Hx A IH]; intros r' A'; inversion A'; subst; try contradiction; [reflexivity|f_equal|]; auto. }
    rewrite <- L' in *. unfold counted in *. destruct (geti (so_count s) l) as [m|] eqn:Em; [|congruence]. now apply geti_in in Em.
Qed.
Print Assumptions C117_every_source_goes_where_its_name_says.
Definition some_sources : list bytes :=
  [B "/s/a.c"; B "/s/b.cpp"; B "/s/build/gen.h"; B "/s/x.h"; B "/s/build/data.txt"; B "/s/old.o"; B "/s/lib.tar.a"; B "/s/c.c"; B "/s/README"].
Example C117_hypotheses_can_hold :
  is_abs (B "/s/build") = true /\ comps (B "/s/build") <> [] /\
  Forall (fun p => is_abs p = true /\ clean p /\ comps p <> comps (B "/s/build")) some_sources /\
  push_sources (B "/s/build") (Sorted [] [] [] [] []) some_sources =
    Some (Sorted [B "/s/lib.tar.a"] ([B "gen.h"; B "data.txt"]) [B "/s/old.o"] ([B "/s/a.c"; B "/s/b.cpp"; B "/s/c.c"]) [(LC, 2); (LCpp, 1)]).
Proof.
  split; [reflexivity|]. split; [discriminate|]. split; [|vm_compute; reflexivity].
  repeat constructor; try discriminate; vm_compute; intuition discriminate.
Qed.

(** ** C118: the names of objects *)
(** the directory from which a source is seen *)
Definition seen_first (w : wk) (t : btarget) (src d : bytes) : Prop :=
  exists before after, seen_from w t = before ++ d :: after /\ (exists l, comps src = comps d ++ l) /\
    forall b, In b before -> ~ exists l, comps src = comps b ++ l.
Lemma within_first w t src d l : seen_first w t src d -> comps src = comps d ++ l -> within w t src = l.
Proof.
  intros (before & after & E & _ & N) El. unfold within. rewrite E, map_app. cbn [map].
  assert (X : first_below (map comps before ++ comps d :: map comps after) (comps src) = Some l).
  { clear E. induction before as [|b before IH]; cbn [map app first_below].
    - now rewrite (proj2 (below_spec (comps d) (comps src) l) El).
    - destruct (below (comps b) (comps src)) as [r|] eqn:Eb; [|apply IH; intros x Hx; apply N; now right].
      apply below_spec in Eb. exfalso. apply (N b (or_introl eq_refl)). eauto. }
  now rewrite X.
Qed.
Theorem C118_the_object_is_named_after_its_source w cs t src d dirs n :
  placed w t src -> Forall (fun x => unix_like (k_type (snd x))) cs ->
  seen_first w t src d -> comps src = comps d ++ dirs ++ [n] ->
  exists o, object_path w cs t false src = Some o /\ is_abs o = true /\ comps o = comps (b_private t) ++ dirs ++ [n ++ B ".o"].
Proof.
  intros Hp Hu Hf E. exists (object_file w t src). destruct (object_path_ok w cs t src Hp Hu) as [_ ->]. destruct (object_comps w t src Hp) as (Ec & _ & Ha).
  split; [reflexivity|]. split; [exact Ha|]. rewrite Ec, (within_first w t src d (dirs ++ [n]) Hf E). now rewrite removelast_last, last_last.
Qed.
Print Assumptions C118_the_object_is_named_after_its_source.
Theorem C118_the_object_of_a_source_outside w cs t src :
  placed w t src -> Forall (fun x => unix_like (k_type (snd x))) cs ->
  (forall d, In d (seen_from w t) -> ~ exists l, comps src = comps d ++ l) ->
  exists o, object_path w cs t false src = Some o /\ is_abs o = true /\
    comps o = comps (b_private t) ++ [map (fun c => if ceqb c "/" then "_"%char else c) (render true (comps src)) ++ B ".o"].
Proof.
  intros Hp Hu Hf. exists (object_file w t src). destruct (object_path_ok w cs t src Hp Hu) as [_ ->]. destruct (object_comps w t src Hp) as (Ec & _ & Ha).
  split; [reflexivity|]. split; [exact Ha|]. rewrite Ec. unfold within.
  assert (X : forall ds, (forall d, In d ds -> ~ exists l, comps src = comps d ++ l) -> first_below (map comps ds) (comps src) = None).
  { induction ds as [|b ds IH]; intros N; cbn [map first_below]; [reflexivity|].
    destruct (below (comps b) (comps src)) as [r|] eqn:Eb; [|apply IH; intros x Hx; apply N; now right].
    apply below_spec in Eb. exfalso. apply (N b (or_introl eq_refl)). eauto. }
  rewrite (X _ Hf). reflexivity.
Qed.
Print Assumptions C118_the_object_of_a_source_outside.
(** Different sources that are seen from the same directory have different objects. *)
Theorem C118_different_sources_have_different_objects_partial w cs t src1 src2 d o :
  placed w t src1 -> placed w t src2 -> Forall (fun x => unix_like (k_type (snd x))) cs ->
  seen_first w t src1 d -> seen_first w t src2 d ->
  object_path w cs t false src1 = Some o -> object_path w cs t false src2 = Some o -> comps src1 = comps src2.
Proof.
  intros P1 P2 Hu F1 F2 E1 E2. pose proof F1 as (? & ? & _ & (l1 & L1) & _). pose proof F2 as (? & ? & _ & (l2 & L2) & _).
  assert (N1 : l1 <> []).
  { intros ->. rewrite app_nil_r in L1. apply (pl_not_dir _ _ _ P1). rewrite L1. apply in_map. destruct F1 as (b & a & -> & _). apply in_or_app. right. now left. }
  assert (N2 : l2 <> []).
  { intros ->. rewrite app_nil_r in L2. apply (pl_not_dir _ _ _ P2). rewrite L2. apply in_map. destruct F2 as (b & a & -> & _). apply in_or_app. right. now left. }
  destruct (exists_last N1) as (d1 & n1 & ->), (exists_last N2) as (d2 & n2 & ->).
  destruct (C118_the_object_is_named_after_its_source w cs t src1 d d1 n1 P1 Hu F1 L1) as (o1 & O1 & _ & C1).
  destruct (C118_the_object_is_named_after_its_source w cs t src2 d d2 n2 P2 Hu F2 L2) as (o2 & O2 & _ & C2).
  assert (X : comps o1 = comps o2) by congruence. rewrite C1, C2 in X. apply app_inv_head in X. apply app_inj_tail in X as [-> X]. apply app_inv_tail in X as ->. congruence.
Qed.
Print Assumptions C118_different_sources_have_different_objects_partial.
Definition a_wk : wk := Wk (B "muon") (B "/s") (B "/s/build") (B "/s/build/muon-private") (B "x") [] [] [] [].
Definition in_sub : btarget :=
  BTarget (B "x") (B "/s/build/sub/x") (B "/s/build/sub/x.p") (B "/s/build/sub") (B "/s/sub") Executable [] [] [] [] LC [] [] [] (fun _ => []) [] true.
Ltac clean_path := unfold clean; vm_compute; intuition discriminate.
Ltac chars_ok := let c := fresh in let H := fresh in intros c H; vm_compute in H; repeat (destruct H as [<-|H]; [repeat split; discriminate|]); contradiction.
Lemma placed_in_sub n : In n ([B "/s/sub/b.c"; B "/s/sub/c.c"; B "/s/b.c"]) -> placed a_wk in_sub n.
Proof.
  intros H. constructor.
  - split; [reflexivity|discriminate].
  - split; [chars_ok|]. exists (B "sub"), [B "x.p"]. reflexivity.
  - repeat constructor; try discriminate; clean_path.
  - cbn [map In] in H. repeat (destruct H as [<-|H]; [split; [reflexivity|split; [clean_path|chars_ok]]|]). contradiction.
  - cbn [map In] in H. repeat (destruct H as [<-|H]; [vm_compute; intuition discriminate|]). contradiction.
Qed.
Example C118_hypotheses_can_hold :
  placed a_wk in_sub (B "/s/sub/b.c") /\ placed a_wk in_sub (B "/s/sub/c.c") /\
  seen_first a_wk in_sub (B "/s/sub/b.c") (B "/s/sub") /\ seen_first a_wk in_sub (B "/s/sub/c.c") (B "/s/sub") /\
  object_path a_wk [(LC, Comp [B "cc"] gcc l_posix [] ar_gcc [B "ar"])] in_sub false (B "/s/sub/b.c") = Some (B "/s/build/sub/x.p/b.c.o").
Proof.
  split; [apply placed_in_sub; cbn; auto|]. split; [apply placed_in_sub; cbn; auto|].
  split; [|split; [|vm_compute; reflexivity]]; exists [B "/s/build/sub/x.p"; B "/s/build/sub"], [B "/s"]; (split; [reflexivity|]).
  - split; [exists [B "b.c"]; reflexivity|]. intros b [<-|[<-|[]]] (l & X); vm_compute in X; discriminate X.
  - split; [exists [B "c.c"]; reflexivity|]. intros b [<-|[<-|[]]] (l & X); vm_compute in X; discriminate X.
Qed.
(** But 'b.c' and '../b.c' in a meson.build of a subdirectory have the same object. *)
Theorem C118_sources_can_share_an_object_refuted :
  placed a_wk in_sub (B "/s/sub/b.c") /\ placed a_wk in_sub (B "/s/b.c") /\ comps (B "/s/sub/b.c") <> comps (B "/s/b.c") /\
  object_path a_wk [] in_sub false (B "/s/sub/b.c") = object_path a_wk [] in_sub false (B "/s/b.c") /\
  object_path a_wk [] in_sub false (B "/s/b.c") = Some (B "/s/build/sub/x.p/b.c.o").
Proof.
  split; [apply placed_in_sub; cbn; auto|]. split; [apply placed_in_sub; cbn; auto|]. split; [discriminate|]. split; vm_compute; reflexivity.
Qed.
Print Assumptions C118_sources_can_share_an_object_refuted.

(** ** C119: the language that a target is linked as *)
(** the languages of the files that a target is made of: those of its sources, and those of the sources that its objects
    are named after *)
Definition made_of (src objects : list bytes) (l : lang) : Prop :=
  (exists p, In p src /\ in_language p l) \/ (exists o, In o objects /\ made_from o l).
Theorem C119_the_language_of_linking_partial cur src objects langs : Forall has_ending objects ->
  (made_of src objects LCpp /\ In cur [None; Some LC; Some LAsm; Some LCpp] \/ cur = Some LCpp ->
     determine_linker cur src objects langs = Some (Some LCpp)) /\
  (~ made_of src objects LCpp -> ~ made_of src objects LAsm ->
     (exists l, In l [LC; LObjc; LNasm; LObj] /\ made_of src objects l) /\ cur = None \/ cur = Some LC ->
     determine_linker cur src objects langs = Some (Some LC)) /\
  ((forall l, made_of src objects l -> In l [LCHdr; LCppHdr; LLlvm]) -> cur = None ->
     (In LC langs -> determine_linker cur src objects langs = Some (Some LC)) /\
     (~ In LC langs -> In LCpp langs -> determine_linker cur src objects langs = Some (Some LCpp)) /\
     (~ In LC langs -> ~ In LCpp langs -> determine_linker cur src objects langs = Some None)).
Proof.
  intros Ho. unfold determine_linker. destruct (linker_objects (fold_left linker_from_source src cur) objects Ho) as (stems & F & ->). rewrite <- fold_left_app.
  assert (M : forall l, made_of src objects l <-> exists n, In n (src ++ stems) /\ language_of n = Some l).
  { intros l. unfold made_of. split.
    - intros [(p & Hp & Hl)|(o & Hi & Hl)].
      + exists p. split; [apply in_or_app; now left|now apply language_of_spec].
      + assert (Y : exists s, In s stems /\ language_of s = Some l).
        { clear -F Hi Hl. induction F as [|o' s os ss (_ & X) F IH]; [contradiction|]. destruct Hi as [->|Hi]; [exists s; split; [now left|now apply X]|].
          destruct (IH Hi) as (s' & Hs & Y). exists s'. split; [now right|exact Y]. }
        destruct Y as (s & Hs & Y). exists s. split; [apply in_or_app; now right|exact Y].
    - intros (n & Hn & Hl). apply in_app_or in Hn as [Hn|Hn]; [left; exists n; split; [exact Hn|now apply language_of_spec]|].
      right. clear -F Hn Hl. induction F as [|o s os ss (_ & X) F IH]; [contradiction|]. destruct Hn as [->|Hn].
      + exists o. split; [now left|now apply X].
      + destruct (IH Hn) as (o' & Hi & Y). exists o'. split; [now right|exact Y]. }
  split; [|split].
  - intros H. rewrite fold_cpp; [reflexivity|]. destruct H as [[H Hc]| ->]; [right|now left]. split; [now apply M|exact Hc].
  - intros N1 N2 H. rewrite fold_c; [reflexivity| |].
    + intros n Hn. split; intros E; [apply N1|apply N2]; apply M; eauto.
    + destruct H as [[(l & Hl & H) ->]| ->]; [right|now left]. split; [reflexivity|]. apply M in H as (n & Hn & E). eauto.
  - intros H ->. rewrite fold_none by (intros n l Hn E; apply H, M; eauto).
    assert (X : forall g ls, existsb (lang_eqb g) ls = true <-> In g ls).
    { intros g ls. rewrite existsb_exists. split; [intros (x & Hx & E); destruct (lang_eqb_spec g x) as [->|]; [exact Hx|discriminate]|].
      intros Hg. exists g. split; [exact Hg|]. destruct (lang_eqb_spec g g); congruence. }
    pose proof (X LC langs) as X1. pose proof (X LCpp langs) as X2. destruct (existsb (lang_eqb LC) langs), (existsb (lang_eqb LCpp) langs); repeat split; intros; try reflexivity; exfalso; intuition discriminate.
Qed.
Print Assumptions C119_the_language_of_linking_partial.
Example C119_hypotheses_can_hold :
  Forall has_ending [B "/s/build/x.p/b.cpp.o"] /\ made_of [B "/s/a.c"] [B "/s/build/x.p/b.cpp.o"] LCpp /\
  determine_linker None [B "/s/a.c"] [B "/s/build/x.p/b.cpp.o"] [LC; LCpp] = Some (Some LCpp) /\
  ~ made_of [B "/s/a.c"] [] LCpp /\ ~ made_of [B "/s/a.c"] [] LAsm /\ made_of [B "/s/a.c"] [] LC.
Proof.
  split; [constructor; [|constructor]; exists [B "s"; B "build"; B "x.p"], (B "b.cpp.o"); split; [reflexivity|vm_compute; auto]|].
  split. { right. exists (B "/s/build/x.p/b.cpp.o"). split; [now left|]. exists [B "s"; B "build"; B "x.p"], (B "b.cpp"), (B "o").
           split; [reflexivity|]. split; [vm_compute; intuition discriminate|]. apply language_of_spec. reflexivity. }
  split; [reflexivity|].
  split; [intros [(p & [<-|[]] & H)|(o & [] & _)]; apply language_of_spec in H; discriminate H|].
  split; [intros [(p & [<-|[]] & H)|(o & [] & _)]; apply language_of_spec in H; discriminate H|].
  left. exists (B "/s/a.c"). split; [now left|]. now apply language_of_spec.
Qed.
(** With assembly the order of the sources decides, Objective-C++ counts as C, and of an object without an ending the
    function writes outside its buffer. *)
Theorem C119_the_order_of_sources_decides_refuted :
  (exists src src', Permutation src src' /\ determine_linker None src [] [LC; LAsm] = Some (Some LAsm) /\ determine_linker None src' [] [LC; LAsm] = Some (Some LC)) /\
  determine_linker None [B "/s/a.mm"] [] [LC; LCpp; LObjc] = Some (Some LC) /\
  determine_linker None [] [B "/s/object"] [LC] = None.
Proof.
  split; [|split; reflexivity]. exists [B "/s/a.S"; B "/s/b.c"], [B "/s/b.c"; B "/s/a.S"]. split; [apply perm_swap|]. split; reflexivity.
Qed.
Print Assumptions C119_the_order_of_sources_decides_refuted.
