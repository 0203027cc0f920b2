(** C122, C123: what build targets take from the libraries and dependencies they use
    (src/functions/kernel/dependency.c, src/functions/kernel/build_target.c, src/functions/dependency.c).
    Spec: S_Link.v *)
From Coq Require Import Lia.
From Verif Require Import Base M_Path S_Path M_Escape M_Backend M_Compile S_Compile M_Link S_Link L_Link L_Blocks.
Local Arguments B _ : simpl never.

(** ** C122: everything needed, and nothing else, reaches a target *)
Theorem C122_what_is_used_reaches_targets root ds store :
  ok_project root ds -> run_decls root [] ds = Some store ->
  (forall i t, is_decl ds i (DTarget t) -> exists m, nth_error store i = Some (VTarget m) /\
     forall k x, In x (contents k (m_internal m)) <-> reaches root ds k i x \/ (k = Link_args /\ In x (t_link_args t))) /\
  (forall i f d, nth_error store i = Some (VDep f d) ->
     (f = true <-> found ds i) /\ forall k x, In x (contents k d) <-> reaches root ds k i x).
Proof.
  intros OK E. destruct (run_ok root ds OK ds [] [] store) as [Len H]; auto.
  { intros [|] v; discriminate. }
  split.
  - intros i t Hi. assert (L : i < length store) by (rewrite Len; apply nth_error_Some; unfold is_decl in Hi; congruence).
    apply nth_error_Some in L. destruct (nth_error store i) as [v|] eqn:Ev; [|congruence]. pose proof (H _ _ Ev) as O.
    destruct v as [m|j|ps|f d]; cbn [ok] in O.
    + destruct O as (t' & Hi' & T). pose proof (decl_one _ _ _ _ Hi Hi') as [= <-]. exists m. split; [reflexivity|]. apply T.
    + pose proof (decl_one _ _ _ _ Hi O). discriminate.
    + pose proof (decl_one _ _ _ _ Hi O). discriminate.
    + destruct O as ((x & Hx & Dx) & _). rewrite (decl_one _ _ _ _ Hx Hi) in Dx. contradiction.
  - intros i f d Ev. pose proof (H _ _ Ev) as (_ & O1 & O2). auto.
Qed.
Print Assumptions C122_what_is_used_reaches_targets.

(** Every directory of a shared library that a target is linked with is searched when it runs in the build directory,
    when the library comes by link_with, static libraries and dependencies. *)
Inductive linked_with (ds : list decl) : nat -> nat -> targ -> Prop :=
| lw_direct i j t : links ds i j t -> linked_with ds i j t
| lw_static i n s j t : links ds i n s -> t_type s = StaticLib -> linked_with ds n j t -> linked_with ds i j t
| lw_dependency i y n j t : is_decl ds i y -> asked_dep y n -> found ds n -> linked_with ds n j t -> linked_with ds i j t
| lw_system i n s j t : is_decl ds i (DSystem n s) -> linked_with ds n j t -> linked_with ds i j t
| lw_partial i n w j t : is_decl ds i (DPartial n w) -> want_links w = true -> linked_with ds n j t -> linked_with ds i j t.
Theorem C122_shared_libraries_are_found_partial root ds store i t j u m :
  ok_project root ds -> run_decls root [] ds = Some store -> (forall n w, ~ In (DPartial n w) ds) ->
  is_decl ds i (DTarget t) -> linked_with ds i j u -> t_type u = SharedLib -> nth_error store i = Some (VTarget m) ->
  In (t_path u) (d_with (m_internal m) ++ d_whole (m_internal m)) /\ exists d, directory_of (t_path u) d /\ In d (d_rpath (m_internal m)).
Proof.
  intros OK E NP Hi L T Em. destruct (C122_what_is_used_reaches_targets root ds store OK E) as [X _].
  destruct (X i t Hi) as (m' & Em' & R). rewrite Em in Em'. injection Em' as <-.
  assert (D : exists d, directory_of (t_path u) d).
  { assert (H : exists n, is_decl ds n (DTarget u)). { clear -L. induction L as [i j t (y & n & _ & _ & A & _)| | | |]; eauto. }
    destruct H as (n & H). destruct OK as [_ O _ _]. destruct (O u) as (_ & A & _); [eapply nth_error_In; exact H|].
    destruct (exists_last A) as (l & c & Q). exists (render (is_abs (t_path u)) l), l, c. auto. }
  destruct D as (d & D).
  assert (Y : (reaches root ds Libraries i (t_path u) \/ reaches root ds Wholes i (t_path u)) /\ reaches root ds Rpaths i d).
  { clear Hi Em X R. induction L as [i j u L|i n s j u L S L' IH|i y n j u Hy A F L' IH|i n s j u Hy L' IH|i n w j u Hy A L' IH].
    - split; [|apply r_rpath with j u; [exact L|congruence|exact D]]. destruct L as (y & n & Hy & [A|A] & B).
      + left. apply r_with with y (LThing n); auto. right. exists j, u. split; [exact B|]. split; [congruence|reflexivity].
      + right. apply r_whole with y (LThing n); auto. right. exists j, u. split; [exact B|]. split; [congruence|reflexivity].
    - destruct (IH T D) as [[H|H] H']; (split; [|apply r_library with n s; auto; exact Logic.I]); [left|right]; apply r_library with n s; auto.
    - destruct (IH T D) as [[H|H] H']; (split; [|apply r_dependency with y n; auto]); [left|right]; apply r_dependency with y n; auto.
    - destruct (IH T D) as [[H|H] H']; (split; [|apply r_system with n s; auto]); [left|right]; apply r_system with n s; auto.
    - exfalso. apply (NP n w). eapply nth_error_In. exact Hy. }
  destruct Y as [Y1 Y2]. split.
  - apply in_or_app. destruct Y1 as [Y1|Y1]; [left; apply (R Libraries)|right; apply (R Wholes)]; auto.
  - exists d. split; [exact D|]. apply (R Rpaths). auto.
Qed.
Print Assumptions C122_shared_libraries_are_found_partial.

(** a project: a shared library with a generated header in a static library's dependencies, a dependency, a program *)
Definition ex_lib (ty : btype) (p : bytes) (files : list bytes) (w : option (list litem)) (deps : option (list nat)) : targ :=
  Targ ty p files [] w None deps [] true [B "-s"] [] [] [LC; LCpp].
Definition ex_project : list decl :=
  [DTarget (ex_lib SharedLib (B "/s/b/x/libx.so") [B "/s/x.cpp"; B "/s/b/x.h"] None None);
   DTarget (ex_lib StaticLib (B "/s/b/liby.a") [B "/s/y.c"] (Some [LThing 0]) None);
   DDeclare (Darg (Some [LThing 1]) None None [(B "/s/inc", false)] [B "-pthread"] [B "-DY"; B "-pthread"] [B "/s/extra.c"] []);
   DTarget (ex_lib Executable (B "/s/b/prog") [B "/s/main.c"] None (Some [2; 2]))].
Example C122_hypotheses_can_hold : ok_project (B "/s/b") ex_project /\ exists store m,
  run_decls (B "/s/b") [] ex_project = Some store /\ nth_error store 3 = Some (VTarget m) /\
  m_internal m = Pass (Some LCpp) [] [B "/s/b/liby.a"; B "/s/b/x/libx.so"] [] [B "-pthread"; B "-s"] [B "-DY"; B "-pthread"] [(B "/s/inc", false)]
    [B "/s/extra.c"] [] [B "x.h"] [B "/s/b/x"] /\ m_src m = [B "/s/main.c"; B "/s/extra.c"].
Proof.
  split.
  - assert (C : forall p, In p [B "/s/x.cpp"; B "/s/b/x.h"; B "/s/y.c"; B "/s/extra.c"; B "/s/main.c"] -> source_file (B "/s/b") p).
    { intros p H. cbn [In] in H. repeat (destruct H as [<-|H]; [split; [reflexivity|split; [vm_compute; intuition discriminate|vm_compute; discriminate]]|]). contradiction. }
    constructor.
    + split; [reflexivity|vm_compute; discriminate].
    + intros t H. cbn [ex_project In] in H. destruct H as [[= <-]|[[= <-]|[H|[[= <-]|[]]]]]; try discriminate H;
        (split; [reflexivity|]); (split; [vm_compute; discriminate|]); cbn [ex_lib t_files]; repeat (constructor; [apply C; cbn; auto 10|]); constructor.
    + intros a H. cbn [ex_project In] in H. destruct H as [H|[H|[[= <-]|[H|[]]]]]; try discriminate H. constructor; [apply C; cbn; auto 10|constructor].
    + intros d H. cbn [ex_project In] in H. destruct H as [H|[H|[H|[H|[]]]]]; discriminate H.
  - eexists. eexists. split; [vm_compute; reflexivity|]. split; [reflexivity|]. split; reflexivity.
Qed.
(** partial_dependency(links: true) keeps the libraries but not their directories, nor the language they are to be linked
    as: a C program is linked with a library of C++ as C. *)
Definition ex_partial (links : parts) : list decl :=
  [DTarget (ex_lib SharedLib (B "/s/b/x/libx.so") [B "/s/x.cpp"] None None);
   DDeclare (Darg (Some [LThing 0]) None None [] [] [] [] []);
   DPartial 1 links;
   DTarget (ex_lib Executable (B "/s/b/prog") [B "/s/main.c"] None (Some [2]));
   DTarget (ex_lib Executable (B "/s/b/prog2") [B "/s/main.c"] None (Some [1]))].
Theorem C122_partial_dependencies_refuted : exists store m m',
  let w := Parts false false false true false in
  run_decls (B "/s/b") [] (ex_partial w) = Some store /\ nth_error store 3 = Some (VTarget m) /\ nth_error store 4 = Some (VTarget m') /\
  linked_with (ex_partial w) 3 0 (ex_lib SharedLib (B "/s/b/x/libx.so") [B "/s/x.cpp"] None None) /\
  d_with (m_internal m) = [B "/s/b/x/libx.so"] /\ d_with (m_internal m') = [B "/s/b/x/libx.so"] /\
  d_rpath (m_internal m) = [] /\ d_rpath (m_internal m') = [B "/s/b/x"] /\
  d_lang (m_internal m) = Some LC /\ d_lang (m_internal m') = Some LCpp.
Proof.
  eexists. eexists. eexists. split; [vm_compute; reflexivity|]. split; [reflexivity|]. split; [reflexivity|]. split.
  - eapply lw_dependency; [reflexivity|eexists; split; [reflexivity|now left]| |].
    + eapply f_partial; [reflexivity|]. eapply f_declared. reflexivity.
    + eapply lw_partial; [reflexivity|reflexivity|]. eapply lw_direct. eexists. eexists. split; [reflexivity|]. split; [left; eexists; split; [reflexivity|now left]|].
      split; [reflexivity|now left].
  - repeat split; reflexivity.
Qed.
Print Assumptions C122_partial_dependencies_refuted.

(** ** C123: arguments of dependencies stay together and in order *)
(** The arguments that a dependency brings, and those that a static library brings, are a block of the arguments of what
    uses it, whatever else is used; the arguments of the target itself come last, and -pthread, the one argument that is
    not repeated, is given at most once to the compiler. *)
Theorem C123_arguments_stay_together root ds store i x v :
  run_decls root [] ds = Some store -> nth_error ds i = Some x -> nth_error store i = Some v ->
  (forall j d, asked_dep x j -> nth_error store j = Some (VDep true d) ->
     (~ In (B "-pthread") (d_compile d) -> together (d_compile d) (d_compile (taken v))) /\
     (~ In (B "-pthread") (d_link d) -> together (d_link d) (d_link (taken v)))) /\
  (forall j t m, asked_with x (LThing j) \/ asked_whole x (LThing j) -> is_decl ds j (DTarget t) -> t_type t = StaticLib -> nth_error store j = Some (VTarget m) ->
     exists brought, d_link (m_internal m) = brought ++ t_link_args t /\
       (~ In (B "-pthread") brought -> together brought (d_link (taken v)))) /\
  (forall t, x = DTarget t -> (exists others, d_link (taken v) = others ++ t_link_args t) /\
     count_occ (list_eq_dec Ascii.ascii_dec) (d_compile (taken v)) (B "-pthread") <= 1) /\
  (forall a, x = DDeclare a ->
     (~ In (B "-pthread") (a_compile a) -> together (a_compile a) (d_compile (taken v))) /\
     (~ In (B "-pthread") (a_link a) -> together (a_link a) (d_link (taken v)))).
Proof.
  intros E Ex Ev. destruct (run_steps _ _ _ _ E) as [_ St]. cbn [length Nat.add] in St.
  destruct (St i x Ex) as (v' & Ev' & S). rewrite Ev in Ev'. injection Ev' as <-.
  assert (Sub : forall j u, nth_error (firstn i store) j <> None -> nth_error store j = Some u -> nth_error (firstn i store) j = Some u).
  { intros j u H1 H2. destruct (nth_error (firstn i store) j) as [w|] eqn:Ew; [|congruence]. now rewrite (nth_in_firstn _ _ _ _ _ H2 Ew). }
  split; [|split; [|split]].
  - intros j d A Ej. assert (G : forall c, ~ In (B "-pthread") (args c d) -> together (args c d) (args c (taken v))); [|exact (conj (G true) (G false))].
    intros c N. destruct x as [t| | |a| | | |]; cbn [asked_dep] in A; try contradiction; cbn [step] in S.
    + destruct (create_target root (firstn i store) t) as [m|] eqn:Em; [|discriminate]. injection S as <-.
      destruct (create_parts _ _ _ _ Em) as (d1 & d2 & d3 & E1 & E2 & E3 & C1 & C2 & _).
      assert (T : together (args c d) (args c d3)).
      { apply (process_deps_give c _ _ _ _ _ _ E3 A); [|exact N]. apply Sub; [|exact Ej]. eapply process_deps_known; eassumption. }
      cbn [taken]. destruct c; cbn [args] in *; [now rewrite C1|rewrite C2; now apply together_app_l].
    + destruct (declare (firstn i store) a) as [d'|] eqn:Ed; [|discriminate]. injection S as <-.
      destruct (declare_parts _ _ _ Ed) as (d1 & d2 & d3 & E1 & E2 & _ & E3). cbn [taken].
      apply (process_deps_give c _ _ _ _ _ _ E3 A); [|exact N]. apply Sub; [|exact Ej]. eapply process_deps_known; eassumption.
  - intros j t m A Hj Ty Ej. unfold is_decl in Hj. destruct (St j _ Hj) as (u & Eu & Sj). rewrite Ej in Eu. injection Eu as <-. cbn [step] in Sj.
    destruct (create_target root (firstn j store) t) as [m'|] eqn:Em; [|discriminate]. injection Sj as ->.
    destruct (create_parts _ _ _ _ Em) as (e1 & e2 & e3 & _ & _ & _ & _ & C2 & C3). exists (d_link e3). split; [exact C2|]. rewrite <- (C3 Ty). intros N.
    assert (Give : forall w o d d', process_links (firstn i store) w o d = Some d' -> given o (LThing j) -> together (d_link (m_passed m)) (d_link d')).
    { intros w o d d' P Gi. apply (process_links_give _ _ _ _ _ _ _ P Gi); [|exact N]. destruct (process_links_known _ _ _ _ _ _ P Gi) as [K1 K2].
      apply stands_firstn; auto. left. exact Ej. }
    destruct x as [tx| | |a| | | |]; cbn [asked_with asked_whole] in A; try (destruct A; contradiction); cbn [step] in S.
    + destruct (create_target root (firstn i store) tx) as [mx|] eqn:Ex'; [|discriminate]. injection S as <-.
      destruct (create_parts _ _ _ _ Ex') as (d1 & d2 & d3 & E1 & E2 & E3 & _ & X2 & _). cbn [taken]. rewrite X2. apply together_app_l.
      apply (process_deps_keep false _ _ _ _ _ N E3). cbn [args]. destruct A as [A|A]; [|exact (Give _ _ _ _ E2 A)].
      apply (process_links_keep false _ _ _ _ _ _ N E2). exact (Give _ _ _ _ E1 A).
    + destruct (declare (firstn i store) a) as [d'|] eqn:Ed; [|discriminate]. injection S as <-.
      destruct (declare_parts _ _ _ Ed) as (d1 & d2 & d3 & E1 & E2 & E3 & E4). cbn [taken].
      apply (process_deps_keep false _ _ _ _ _ N E4). rewrite E3. cbn [args]. destruct A as [A|A]; [|exact (Give _ _ _ _ E2 A)].
      apply (process_links_keep false _ _ _ _ _ _ N E2). exact (Give _ _ _ _ E1 A).
  - intros t ->. cbn [step] in S. destruct (create_target root (firstn i store) t) as [m|] eqn:Em; [|discriminate]. injection S as <-.
    destruct (create_parts _ _ _ _ Em) as (d1 & d2 & d3 & E1 & E2 & E3 & C1 & C2 & _). cbn [taken]. split; [eexists; exact C2|]. rewrite C1.
    destruct (t_deps t) as [l|]; cbn [process_deps] in E3.
    + destruct (use_deps (firstn i store) l ([], d2)) as [y|]; [|discriminate]. injection E3 as <-. apply dedup_once.
    + injection E3 as <-. rewrite (process_links_compile _ _ _ _ _ E2); [cbn; lia|]. apply (process_links_compile _ _ _ _ _ E1). reflexivity.
  - intros a ->. cbn [step] in S. destruct (declare (firstn i store) a) as [d'|] eqn:Ed; [|discriminate]. injection S as <-.
    destruct (declare_parts _ _ _ Ed) as (d1 & d2 & d3 & E1 & E2 & E3 & E4). cbn [taken].
    assert (G : forall (c : bool) b, ~ In (B "-pthread") b -> b = (if c then a_compile a else a_link a) -> together b (args c d')).
    { intros c b N Eb. apply (process_deps_keep c _ _ _ _ _ N E4). rewrite E3. apply (process_links_keep c _ _ _ _ _ _ N E2).
      apply (process_links_keep c _ _ _ _ _ _ N E1). subst b. destruct c; apply together_refl. }
    split; intros N; [apply (G true)|apply (G false)]; auto.
Qed.
Print Assumptions C123_arguments_stay_together.
(** as_system changes nothing but whether include directories are system directories *)
Theorem C123_as_system root ds store i j s :
  run_decls root [] ds = Some store -> is_decl ds i (DSystem j s) -> exists f d d',
  nth_error store j = Some (VDep f d) /\ nth_error store i = Some (VDep f d') /\
  Forall2 (fun a b => fst b = fst a /\ snd b = (match s with Some y => y | None => snd a end)) (d_incs d) (d_incs d') /\
  d_lang d' = d_lang d /\ forall k, k <> Include_dirs -> contents k d' = contents k d.
Proof.
  intros E Hi. destruct (run_steps _ _ _ _ E) as [_ St]. destruct (St i _ Hi) as (v & Ev & S). cbn [length Nat.add step] in *.
  destruct (nth_error (firstn i store) j) as [[| | |f d]|] eqn:Ej; try discriminate. injection S as <-. exists f, d, (as_system s d).
  split; [eapply nth_firstn; exact Ej|]. split; [exact Ev|]. split; [|split; [reflexivity|intros [] N; try reflexivity; congruence]].
  cbn [as_system d_incs]. induction (d_incs d) as [|[p b] l IH]; constructor; [|exact IH]. cbn. auto.
Qed.
Print Assumptions C123_as_system.
Definition ex_blocks : list decl :=
  [DDeclare (Darg None None None [(B "/s/inc", false)] [B "-framework"; B "Foo"] [B "-isystem"; B "/s/foo"] [] []);
   DSystem 0 (Some true);
   DTarget (ex_lib StaticLib (B "/s/b/liby.a") [B "/s/y.c"] None (Some [0]));
   DDeclare (Darg None None (Some [1]) [] [B "-framework"; B "Bar"] [B "-pthread"] [] []);
   DTarget (ex_lib Executable (B "/s/b/prog") [B "/s/main.c"] (Some [LThing 2]) (Some [3; 0; 3]))].
Example C123_hypotheses_can_hold : exists store m, run_decls (B "/s/b") [] ex_blocks = Some store /\ nth_error store 4 = Some (VTarget m) /\
  d_link (m_internal m) = [B "-framework"; B "Foo"; B "-framework"; B "Bar"; B "-framework"; B "Foo"; B "-framework"; B "Foo"; B "-s"] /\
  d_compile (m_internal m) = [B "-pthread"; B "-isystem"; B "/s/foo"; B "-isystem"; B "/s/foo"] /\
  d_incs (m_internal m) = [(B "/s/inc", true); (B "/s/inc", false)].
Proof. eexists. eexists. split; [vm_compute; reflexivity|]. repeat split; reflexivity. Qed.
