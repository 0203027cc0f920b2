(** Properties of project options. *)
From Coq Require Import ZArith Lia Permutation.
From Verif Require Import Base M_Format S_Format M_Feature M_Options S_Options L_Options.
Local Arguments B _ : simpl never.

(** C53 *)
Theorem C53_option_strings s sub k v : parse_config_string s = Some (sub, k, v) <-> config_form s sub k v.
Proof. apply parse_form. Qed.
Print Assumptions C53_option_strings.

Theorem C53_one_reading s sub k v sub' k' v' : config_form s sub k v -> config_form s sub' k' v' -> sub = sub' /\ k = k' /\ v = v'.
Proof. intros H H'. apply parse_form in H, H'. rewrite H in H'. injection H' as -> -> ->. tauto. Qed.
Print Assumptions C53_one_reading.

Theorem C53_anything_else_is_rejected s : (forall sub k v, ~ config_form s sub k v) -> parse_config_string s = None.
Proof. intros H. destruct (parse_config_string s) as [[[sub k] v]|] eqn:E; [|reflexivity]. apply parse_form in E. now apply H in E. Qed.
Print Assumptions C53_anything_else_is_rejected.

Example ex_strings :
  config_form (B "zlib:mode=a=b:c") (Some (B "zlib")) (B "mode") (B "a=b:c") /\ parse_config_string (B "mode") = None
  /\ parse_config_string (B "a:b:c=d") = None /\ parse_config_string (B "=x") = None.
Proof. split; [apply parse_form; vm_compute; reflexivity|]. vm_compute. tauto. Qed.

(** a workspace for the examples: a main project with an integer and a feature, a subproject with a
    yielding option, a global option *)
Definition no_eval : bytes -> option value := fun _ => None.
Definition o_int : opt := mkOpt (B "n") OpInteger None (Some 0%Z) (Some 10%Z) None false SDefault (VNum 3).
Definition o_old : opt := mkOpt (B "old") OpInteger None None None (Some (DRename (B "n"))) false SDefault (VNum 3).
Definition o_arr : opt := mkOpt (B "l") OpArray (Some [VStr (B "a"); VStr (B "b")]) None None (Some (DValues [(B "x", Some (B "b"))])) false SDefault (VArr []).
Definition o_sub : opt := mkOpt (B "n") OpInteger None None None None true SDefault (VNum 1).
Definition o_glob : opt := mkOpt (B "g") OpString None None None None false SDefault (VStr []).
Definition w_ex : ws := mkWs [o_glob; o_int; o_arr; o_sub] [(B "g", 0)]
  [mkProject None (Some (B "main")) [(B "n", 1); (B "l", 2)]; mkProject (Some (B "sub")) (Some (B "subname")) [(B "n", 3)]]
  [mkOverride None (B "n") (B "7") SCommandline; mkOverride (Some (B "sub")) (B "n") (B "8") SCommandline].
Definition w_old : ws := mkWs [o_glob; o_int; o_old] [(B "g", 0)] [mkProject None (Some (B "main")) [(B "n", 1); (B "old", 2)]] [].
Lemma w_ex_no_renames : no_renames w_ex.
Proof. intros o n [<-|[<-|[<-|[<-|[]]]]]; discriminate. Qed.

(** C52.  Missing: a value computed by the interpreter can be a disabler, see below. *)
Theorem C52_values_conform_partial eval w : (forall s, eval s <> Some VDisabler) -> reach eval w -> forall id o, nth_error (heap w) id = Some o -> conforms o.
Proof. intros EV H id o N. eapply conform_nth; [|exact N]. now apply (reach_conform eval). Qed.
Print Assumptions C52_values_conform_partial.

(** such a workspace: an integer is declared, set from the command line, and out of range by
    default_options *)
Definition d_int : decl := mkDecl (B "n") (B "integer") (Some (VNum 3)) None (Some 10%Z) (Some 0%Z) false None.
Example ex_reach : exists w o, reach no_eval w /\ nth_error (heap w) 0 = Some o /\ val o = VNum 7.
Proof.
  set (w0 := mkWs [] [] [mkProject None (Some (B "main")) []] []).
  destruct (declare w0 (Some 0) d_int) as [w1 r1| |] eqn:E1; [|vm_compute in E1; discriminate..].
  destruct (cmdline_option w1 (B "n=7")) as [w2 r2| |] eqn:E2; [|vm_compute in E1; injection E1 as <- _; vm_compute in E2; discriminate..].
  destruct (setup_overrides no_eval 5 w2 0 0 true) as [w3 r3| |] eqn:E3; [|vm_compute in E1; injection E1 as <- _; vm_compute in E2; injection E2 as <- _; vm_compute in E3; discriminate..].
  exists w3. eexists. split.
  - eapply r_overrides; [|exact E3]. eapply r_cmdline; [|exact E2]. eapply (r_declare _ _ _ d_int); [| | |exact E1]; [|discriminate|discriminate].
    apply (r_project _ (mkWs [] [] [] [])). constructor.
  - vm_compute in E1. injection E1 as <- _. vm_compute in E2. injection E2 as <- _. vm_compute in E3. injection E3 as <- _. vm_compute. tauto.
Qed.

(** -Dl="[disabler()].get(0)" is accepted for an array option *)
Theorem C52_refuted : exists eval w fuel id s w' o, (forall o, In o (heap w) -> conforms o) /\
  set_option eval (Some 0) fuel w id (VStr s) SCommandline true = Done w' true /\ nth_error (heap w') id = Some o /\ ~ conforms o.
Proof.
  set (o := mkOpt (B "l") OpArray None None None None false SDefault (VArr [])).
  exists (fun _ => Some VDisabler), (mkWs [o] [] [mkProject None None [(B "l", 0)]] []), 1, 0, (B "[disabler()].get(0)").
  eexists. eexists. split.
  - intros x [<-|[]]. exists []. split; [reflexivity|discriminate].
  - split; [vm_compute; reflexivity|]. split; [vm_compute; reflexivity|]. intros (l & [=] & _).
Qed.
Print Assumptions C52_refuted.

(** C51.  Missing: options another option was renamed to (see the refutation), and that rejected
    settings have no effect. *)
Theorem C51_highest_source_wins_partial eval p w l w' id o s : (forall t, eval t <> Some VDisabler) ->
  settings eval p w l w' -> nth_error (heap w) id = Some o -> not_renamed_to p w id ->
  winner (filter (fun t => s_id t =? id) l) s -> lt_source (src o) (s_src s) \/ src o = s_src s ->
  clean o (s_val s) -> s_val s <> VDisabler ->
  exists o', nth_error (heap w') id = Some o' /\ src o' = s_src s /\ means eval o (s_val s) (s_coerce s) (val o').
Proof.
  intros EV H N NR W L C ND. destruct (settings_replay _ _ _ _ _ _ _ H N NR) as (o' & N' & S' & R & A).
  change (filter _ l) with (mine id l) in W. apply le_source_rank in L. destruct (winner_max _ _ W) as [I M].
  specialize (A s I M L). destruct (denote eval o (s_val s) (s_coerce s)) as [v|] eqn:D; [|contradiction].
  rewrite (replay_winner _ _ _ _ _ v W) in R; [|assumption..]. injection R as R1 R2. exists o'. split; [assumption|]. split; [assumption|].
  rewrite R2. apply (denote_means eval o (s_val s) (s_coerce s) v); try assumption. now intros _.
Qed.
Print Assumptions C51_highest_source_wins_partial.

Theorem C51_lower_sources_lose_partial eval p w l w' id o : settings eval p w l w' -> nth_error (heap w) id = Some o -> not_renamed_to p w id ->
  (forall s, In s l -> s_id s = id -> lt_source (s_src s) (src o)) ->
  nth_error (heap w') id = Some o.
Proof.
  intros H. revert o. induction H as [w|w s l w1 w' fuel E H IH]; intros o N NR L; [assumption|].
  assert (F : frame w w1) by (eapply set_option_frame; exact E).
  apply IH; [|eapply frame_not_renamed; eassumption|intros t I; apply L; now right].
  destruct (Nat.eq_dec (s_id s) id) as [Es|Es].
  - specialize (L s (or_introl eq_refl) Es). apply lt_source_rank in L. rewrite Es in E.
    destruct (set_self _ _ _ _ _ _ _ _ _ _ _ E N NR) as (o1 & N1 & _ & X). apply Nat.ltb_lt in L. rewrite L in X. destruct X as [-> _]. assumption.
  - rewrite (set_other _ _ _ id _ _ _ _ _ _ _ E); assumption.
Qed.
Print Assumptions C51_lower_sources_lose_partial.

Lemma nodup_winner l s t : NoDup (map s_src l) -> In t l -> In s l -> (forall u, In u l -> rank (s_src u) <= rank (s_src s)) ->
  (forall u, In u l -> rank (s_src u) <= rank (s_src t)) -> t = s.
Proof.
  intros ND It Is Ms Mt. assert (s_src t = s_src s) as E by (apply rank_inj; specialize (Ms t It); specialize (Mt s Is); lia).
  induction l as [|x l IH]; [destruct It|]. cbn in ND. inversion ND as [|? ? NI ND']; subst.
  destruct It as [->|It], Is as [->|Is]; try reflexivity.
  - exfalso. apply NI. rewrite E. now apply in_map.
  - exfalso. apply NI. rewrite <- E. now apply in_map.
  - apply IH; try assumption; intros u Iu; [apply Ms|apply Mt]; now right.
Qed.
Lemma filter_permutation {A} (f : A -> bool) l l' : Permutation l l' -> Permutation (filter f l) (filter f l').
Proof.
  induction 1 as [|x l l' P IH|x y l|l1 l2 l3 P1 IH1 P2 IH2]; cbn.
  - constructor.
  - destruct (f x); [now constructor|assumption].
  - destruct (f x), (f y); try apply Permutation_refl. apply perm_swap.
  - eapply Permutation_trans; eassumption.
Qed.
Theorem C51_order_does_not_matter_partial eval p w l l' w1 w2 id o : Permutation l l' ->
  settings eval p w l w1 -> settings eval p w l' w2 -> nth_error (heap w) id = Some o -> not_renamed_to p w id ->
  NoDup (map s_src (filter (fun t => s_id t =? id) l)) ->
  nth_error (heap w1) id = nth_error (heap w2) id.
Proof.
  intros P H1 H2 N NR ND.
  destruct (settings_replay _ _ _ _ _ _ _ H1 N NR) as (o1 & N1 & S1 & R1 & A1).
  destruct (settings_replay _ _ _ _ _ _ _ H2 N NR) as (o2 & N2 & S2 & R2 & A2).
  rewrite N1, N2. f_equal.
  assert (R : replay eval o (src o, val o) (mine id l) = replay eval o (src o, val o) (mine id l')).
  { change (filter _ l) with (mine id l) in ND. apply (filter_permutation (fun s => s_id s =? id)) in P. change (Permutation (mine id l) (mine id l')) in P.
    destruct (mine id l) as [|x m] eqn:M.
    - apply Permutation_nil in P. now rewrite P.
    - assert (mine id l' <> []) as NE by (intros E; rewrite E in P; now apply Permutation_sym, Permutation_nil_cons in P).
      rewrite <- M in *. assert (mine id l <> []) as NE1 by now rewrite M.
      destruct (winner_exists _ NE1) as (s & W1). destruct (winner_exists _ NE) as (t & W2).
      destruct (winner_max _ _ W1) as [I1 M1]. destruct (winner_max _ _ W2) as [I2 M2].
      assert (t = s) as ->.
      { apply (nodup_winner (mine id l)); try assumption.
        - eapply Permutation_in; [apply Permutation_sym, P|assumption].
        - intros u Iu. apply M2. eapply Permutation_in; eassumption. }
      destruct (le_lt_dec (rank (src o)) (rank (s_src s))) as [L|L].
      + specialize (A1 s I1 M1 L). destruct (denote eval o (s_val s) (s_coerce s)) as [v|] eqn:D; [|contradiction].
        rewrite (replay_winner _ _ _ _ s v W1), (replay_winner _ _ _ _ s v W2); try assumption. reflexivity.
      + rewrite !replay_lower; [reflexivity|..]; apply Forall_forall; intros u Iu; cbn; [specialize (M2 u Iu)|specialize (M1 u Iu)]; lia. }
  rewrite R, <- R2 in R1. injection R1 as E1 E2.
  destruct o1, o2, o; cbn in *. destruct S1 as (?&?&?&?&?&?&?), S2 as (?&?&?&?&?&?&?). cbn in *. congruence.
Qed.
Print Assumptions C51_order_does_not_matter_partial.

(** a project is configured: options from the command line, then project(default_options:) *)
Theorem C51_configuration_partial eval w p pr k id o f1 f2 dl w1 w2 : (forall t, eval t <> Some VDisabler) -> no_renames w ->
  nth_error (projects w) p = Some pr -> only_name w pr k id -> nth_error (heap w) id = Some o ->
  lt_source (src o) SDefaultOptions ->
  setup_overrides eval f1 w p 0 true = Done w1 true -> default_options eval f2 w1 p None dl = Done w2 true ->
  exists o', nth_error (heap w2) id = Some o' /\
    (* the last setting of the command line counts *)
    (forall x, last_with (fun x => o_proj x = sub_name pr /\ o_name x = k /\ o_src x = SCommandline) (overrides w) x -> clean o (VStr (o_val x)) ->
       string_means eval o (o_val x) (val o')) /\
    ((forall x, In x (overrides w) -> ~ (o_proj x = sub_name pr /\ o_name x = k)) ->
       (* or else the last one of project() *)
       (forall s v, last_with (fun s => exists v, config_form s None k v) dl s -> config_form s None k v -> clean o (VStr v) -> string_means eval o v (val o')) /\
       (* or else the declaration *)
       ((forall s v, In s dl -> ~ config_form s None k v) -> val o' = val o)).
Proof.
  intros EV NR P ON N L E1 E2. apply lt_source_rank in L.
  destruct (setup_settings _ _ _ k id _ _ _ _ _ NR P ON E1) as (_ & L1 & HL & ML). cbn [skipn] in ML.
  pose proof (settings_frame _ _ _ _ _ HL) as F. pose proof F as (FG & FP & _).
  destruct (settings_replay _ _ _ _ _ _ _ HL N (no_renames_to _ _ _ NR)) as (o1 & N1 & S1 & R1 & A1).
  assert (ON1 : only_name w1 pr k id) by (unfold only_name in *; now rewrite FG).
  assert (P1 : nth_error (projects w1) p = Some pr) by now rewrite FP.
  destruct (defaults_replay _ _ _ k id _ _ _ _ _ (frame_no_renames _ _ F NR) P1 ON1 N1 E2) as (o2 & N2 & S2 & R2 & A2).
  rewrite (replay_same _ _ _ S1), R1 in R2.
  assert (M : forall s v, clean o (VStr s) -> denote eval o (VStr s) true = Some v -> string_means eval o s v).
  { intros s v C D. apply denote_means in D; [|assumption|discriminate|assumption]. destruct D as (t & [= <-] & D). assumption. }
  exists o2. split; [assumption|]. split.
  - intros x (a & b & Ex & (X1 & X2 & X3) & Fb) C.
    set (f := fun x => mkSetting id (VStr (o_val x)) (o_src x) true) in *.
    assert (IF : is_for pr k x = true) by now apply is_for_eq.
    assert (W : winner (mine id L1) (f x)).
    { rewrite ML, Ex, filter_app. cbn [filter]. rewrite IF, map_app. cbn [map]. eexists. eexists. split; [reflexivity|]. split.
      - apply Forall_forall. intros t _. apply le_source_rank. unfold f. cbn [s_src]. rewrite X3. destruct (s_src t); cbn; lia.
      - apply Forall_forall. intros t It. apply in_map_iff in It as (y & <- & Iy). apply filter_In in Iy as [Iy Fy]. apply is_for_eq in Fy as [Y1 Y2].
        rewrite Forall_forall in Fb. specialize (Fb y Iy). apply lt_source_rank. unfold f. cbn [s_src]. rewrite X3.
        destruct (o_src y); cbn; try lia. exfalso. apply Fb. tauto. }
    destruct (winner_max _ _ W) as [I Mx].
    assert (Lx : rank (src o) <= rank (s_src (f x))) by (unfold f; cbn [s_src]; rewrite X3; destruct (src o); cbn; lia).
    specialize (A1 _ I Mx Lx). change (s_val (f x)) with (VStr (o_val x)) in A1. change (s_coerce (f x)) with true in A1.
    destruct (denote eval o (VStr (o_val x)) true) as [v|] eqn:D; [|contradiction].
    rewrite (replay_winner eval o (src o, val o) _ (f x) v W Lx D) in R2. rewrite replay_lower in R2.
    + injection R2 as _ ->. now apply M.
    + apply Forall_forall. intros t It. apply in_flat_map in It as (s & _ & It). unfold default_for in It. unfold f. cbn [fst s_src]. rewrite X3.
      destruct (parse_config_string s) as [[[[sb|] k'] v']|]; try destruct It. destruct (beqb k' k); [|destruct It]. destruct It as [<-|[]]. cbn. lia.
  - intros NO. assert (mine id L1 = []) as M0.
    { rewrite ML. replace (filter (is_for pr k) (overrides w)) with (@nil override); [reflexivity|]. symmetry.
      clear ML E1.
      induction (overrides w) as [|x l IH]; [reflexivity|]. cbn. destruct (is_for pr k x) eqn:I.
      - exfalso. apply (NO x); [now left|now apply is_for_eq].
      - apply IH. intros y Iy. apply NO. now right. }
    rewrite M0 in *. cbn [replay] in *. injection R1 as R1s R1v.
    assert (L1' : rank (src o1) <= rank SDefaultOptions) by (rewrite R1s; lia).
    split.
    + intros s v (a & b & Ex & _ & Fb) C CL.
      assert (DF : default_for k id s = [mkSetting id (VStr v) SDefaultOptions true]).
      { unfold default_for. apply parse_form in C. rewrite C. destruct (beqb_spec k k); [reflexivity|contradiction]. }
      assert (W : winner (flat_map (default_for k id) dl) (mkSetting id (VStr v) SDefaultOptions true)).
      { rewrite Ex, flat_map_app. cbn [flat_map]. rewrite DF. eexists. eexists. split; [reflexivity|]. split.
        - apply Forall_forall. intros t It. right. apply in_flat_map in It as (s' & _ & It). unfold default_for in It.
          destruct (parse_config_string s') as [[[[sb|] k'] v']|]; try destruct It. destruct (beqb k' k); [|destruct It]. destruct It as [<-|[]]. reflexivity.
        - replace (flat_map (default_for k id) b) with (@nil setting); [constructor|]. symmetry. clear - Fb.
          induction b as [|s' b IH]; [reflexivity|]. inversion Fb as [|? ? H1 H2]; subst. cbn [flat_map]. rewrite IH by assumption.
          unfold default_for. destruct (parse_config_string s') as [[[[sb|] k'] v']|] eqn:PS; try reflexivity.
          destruct (beqb_spec k' k) as [->|]; [|reflexivity]. exfalso. apply H1. exists v'. now apply parse_form. }
      destruct (winner_max _ _ W) as [I Mx].
      specialize (A2 L1' _ I). cbn [s_val] in A2. rewrite (denote_same _ _ _ _ _ S1) in A2.
      destruct (denote eval o (VStr v) true) as [y|] eqn:D; [|contradiction].
      rewrite (replay_winner _ _ _ _ _ y W) in R2; [|cbn [fst s_src]; lia|exact D]. injection R2 as _ ->. now apply M.
    + intros H. replace (flat_map (default_for k id) dl) with (@nil setting) in R2.
      * cbn in R2. now injection R2.
      * symmetry. clear - H. induction dl as [|s' b IH]; [reflexivity|]. cbn [flat_map]. rewrite IH by (intros s v I; apply H; now right).
        unfold default_for. destruct (parse_config_string s') as [[[[sb|] k'] v']|] eqn:PS; try reflexivity.
        destruct (beqb_spec k' k) as [->|]; [|reflexivity]. exfalso. apply (H s' v'); [now left|]. now apply parse_form.
Qed.
Print Assumptions C51_configuration_partial.

Example ex_configuration : exists w1 w2 o',
  setup_overrides no_eval 9 w_ex 0 0 true = Done w1 true /\ default_options no_eval 9 w1 0 None [B "n=5"; B "l=a,x"] = Done w2 true
  /\ nth_error (heap w2) 1 = Some o' /\ val o' = VNum 7
  /\ only_name w_ex (mkProject None (Some (B "main")) [(B "n", 1); (B "l", 2)]) (B "n") 1
  /\ last_with (fun x => o_proj x = None /\ o_name x = B "n" /\ o_src x = SCommandline) (overrides w_ex) (mkOverride None (B "n") (B "7") SCommandline).
Proof.
  eexists. eexists. eexists. split; [vm_compute; reflexivity|]. split; [vm_compute; reflexivity|]. split; [vm_compute; reflexivity|]. split; [reflexivity|]. split.
  - split; [reflexivity|]. intros k' [H|H]; cbn in H.
    + destruct (beqb_spec (B "n") k') as [E|_]; [now symmetry|]. destruct (beqb (B "l") k'); discriminate.
    + destruct (beqb (B "g") k'); discriminate.
  - exists [], [mkOverride (Some (B "sub")) (B "n") (B "8") SCommandline]. split; [reflexivity|]. split; [tauto|]. constructor; [|constructor]. intros [[=] _].
Qed.

(** An option was renamed: a value the new option rejects is accepted for the old one, and from
    then on the new one ignores project(default_options:). *)
Theorem C51_refuted : exists w1 w2 o', set_option no_eval (Some 0) 5 w_old 2 (VStr (B "99")) SDefaultOptions true = Done w1 true
  /\ default_options no_eval 5 w1 0 None [B "n=5"] = Done w2 true /\ nth_error (heap w2) 1 = Some o' /\ val o' = VNum 3 /\ src o' = SDeprecatedRename.
Proof. eexists. eexists. eexists. split; [vm_compute; reflexivity|]. split; [vm_compute; reflexivity|]. split; [vm_compute; reflexivity|]. now split. Qed.
Print Assumptions C51_refuted.

(** A rejected setting raises the precedence all the same. *)
Theorem C51_rejected_settings_count : exists w1 w2 o', set_option no_eval (Some 0) 5 w_ex 1 (VStr (B "99")) SCommandline true = Done w1 false
  /\ set_option no_eval (Some 0) 5 w1 1 (VStr (B "5")) SDefaultOptions true = Done w2 true /\ nth_error (heap w2) 1 = Some o' /\ val o' = VNum 3.
Proof. eexists. eexists. eexists. split; [vm_compute; reflexivity|]. split; [vm_compute; reflexivity|]. split; [vm_compute; reflexivity|]. reflexivity. Qed.

(** C91.  Missing: that a value the new option rejects is an error (refuted below). *)
Theorem C91_renamed_options_partial eval p fuel w id s sc w' o n id2 o2 : set_option eval p fuel w id (VStr s) sc true = Done w' true ->
  nth_error (heap w) id = Some o -> lt_source (src o) sc \/ src o = sc -> depr o = Some (DRename n) ->
  get_option w p n = Some id2 -> nth_error (heap w) id2 = Some o2 -> (forall m, depr o2 <> Some (DRename m)) ->
  exists o2', nth_error (heap w') id2 = Some o2' /\
    (src o2 = SCommandline -> o2' = o2) /\
    (src o2 <> SCommandline -> src o2' = SDeprecatedRename /\
       forall v, clean o2 (VStr s) -> one_replacement o2 -> string_means eval o2 s v -> conforms (with_val v o2) -> val o2' = v).
Proof.
  intros E N L D G N2 NR. apply le_source_rank in L. destruct fuel as [|fuel]; [discriminate|].
  destruct (rename_inv _ _ _ _ _ _ _ _ _ _ _ E N L D G) as (w1 & r & y & T & ->).
  assert (NE : id <> id2) by (intros ->; apply (NR n); congruence).
  rewrite <- (change_other id id2 (with_src sc)) in N2 by assumption.
  destruct (set_norename _ _ _ _ _ _ _ _ _ _ _ T N2 NR) as (o2' & N2' & S2 & _ & X).
  exists o2'. split; [rewrite change_other by assumption; assumption|]. split.
  - intros EC. rewrite EC in X. cbn in X. tauto.
  - intros NC. replace (rank SDeprecatedRename <? rank (src o2)) with false in X by (destruct (src o2); try reflexivity; contradiction).
    destruct X as [X1 X2]. split; [assumption|]. intros v C U M F. pose proof (denote_complete eval o2 s v C (fun d => U d s) M F) as DC.
    destruct r; [congruence|]. exfalso. destruct fuel as [|fuel]; [discriminate|].
    (* a value with a meaning is not rejected *)
    clear X1 N2' S2. revert T. cbn [set_option]. rewrite N2.
    replace (rank SDeprecatedRename <? rank (src o2)) with false by (destruct (src o2); try reflexivity; contradiction).
    unfold denote in DC. destruct (read eval o2 s) as [x|] eqn:R; [|discriminate]. destruct (check o2 x) as [x'| |] eqn:K; try discriminate.
    assert (Z : forall set w0, exists w2, coerce_option_override eval p set w0 (with_src SDeprecatedRename o2) (VStr s) = KOk w2 x).
    { intros set w0. unfold coerce_option_override. change (depr (with_src SDeprecatedRename o2)) with (depr o2).
      change (type (with_src SDeprecatedRename o2)) with (type o2). unfold read in R. destruct (early_array eval (type o2) s) as [res|]; [|discriminate].
      destruct (depr o2) as [[b|m|d]|].
      - destruct res as [[t| | | | | |]|]; try rewrite R; try (injection R as <-); eauto.
      - exfalso. now apply (NR m).
      - destruct (deprecated_values (type o2) d s res) as [[[t| | | | | |]|]|]; try discriminate; try rewrite R; try (injection R as <-); eauto.
      - rewrite R. eauto. }
    match goal with |- context [coerce_option_override eval p ?set ?w0 _ _] => destruct (Z set w0) as (w2 & ->) end. rewrite K. discriminate.
Qed.
Print Assumptions C91_renamed_options_partial.

Example ex_renamed : exists w1 o', set_option no_eval (Some 0) 5 w_old 2 (VStr (B "9")) SDefaultOptions true = Done w1 true
  /\ nth_error (heap w1) 1 = Some o' /\ val o' = VNum 9.
Proof. eexists. eexists. split; [vm_compute; reflexivity|]. split; vm_compute; reflexivity. Qed.

(** the value is rejected by the new option, and the setting accepted *)
Theorem C91_refuted : exists w1 o', set_option no_eval (Some 0) 5 w_old 2 (VStr (B "99")) SCommandline true = Done w1 true
  /\ nth_error (heap w1) 1 = Some o' /\ val o' = VNum 3.
Proof. eexists. eexists. split; [vm_compute; reflexivity|]. split; vm_compute; reflexivity. Qed.
Print Assumptions C91_refuted.

(** two options renamed to each other *)
Definition w_cycle : ws := mkWs
  [mkOpt (B "a") OpString None None None (Some (DRename (B "b"))) false SDefault (VStr []);
   mkOpt (B "b") OpString None None None (Some (DRename (B "a"))) false SDefault (VStr [])] [] [mkProject None None [(B "a", 0); (B "b", 1)]] [].
Theorem C91_cycles_do_not_end : forall fuel, set_option no_eval (Some 0) fuel w_cycle 0 (VStr (B "x")) SDefaultOptions true = NoFuel.
Proof.
  assert (G : forall fuel h, match h with
      | [a; b] => depr a = Some (DRename (B "b")) /\ depr b = Some (DRename (B "a")) /\ type a = OpString /\ type b = OpString
                  /\ rank (src a) <= 7 /\ rank (src b) <= 7
      | _ => False
      end ->
      forall id, id < 2 -> set_option no_eval (Some 0) fuel (with_heap h w_cycle) id (VStr (B "x")) SDeprecatedRename true = NoFuel).
  { induction fuel as [|fuel IH]; intros h H id Li; [reflexivity|]. destruct h as [|a [|b [|]]]; try contradiction.
    destruct H as (Da & Db & Ta & Tb & La & Lb).
    destruct id as [|[|]]; [| |lia]; cbn [set_option with_heap heap nth_error].
    - replace (rank SDeprecatedRename <? rank (src a)) with false by (symmetry; apply Nat.ltb_ge; assumption).
      unfold coerce_option_override. change (depr (with_src SDeprecatedRename a)) with (depr a). change (type (with_src SDeprecatedRename a)) with (type a).
      rewrite Da, Ta. cbn [early_array]. change (change 0 (with_src SDeprecatedRename) (with_heap [a; b] w_cycle)) with (with_heap [with_src SDeprecatedRename a; b] w_cycle).
      change (get_option (with_heap [with_src SDeprecatedRename a; b] w_cycle) (Some 0) (B "b")) with (Some 1).
      cbv iota beta. rewrite IH; [reflexivity| |lia]. cbn. repeat split; try assumption; lia.
    - replace (rank SDeprecatedRename <? rank (src b)) with false by (symmetry; apply Nat.ltb_ge; assumption).
      unfold coerce_option_override. change (depr (with_src SDeprecatedRename b)) with (depr b). change (type (with_src SDeprecatedRename b)) with (type b).
      rewrite Db, Tb. cbn [early_array]. change (change 1 (with_src SDeprecatedRename) (with_heap [a; b] w_cycle)) with (with_heap [a; with_src SDeprecatedRename b] w_cycle).
      change (get_option (with_heap [a; with_src SDeprecatedRename b] w_cycle) (Some 0) (B "a")) with (Some 0).
      cbv iota beta. rewrite IH; [reflexivity| |lia]. cbn. repeat split; try assumption; lia. }
  destruct fuel as [|fuel]; [reflexivity|]. unfold w_cycle at 1. cbn [set_option heap nth_error]. cbn [src rank Nat.ltb Nat.leb].
  unfold coerce_option_override. cbn [depr type with_src early_array].
  match goal with |- context [get_option ?x (Some 0) ?n] => change (get_option x (Some 0) n) with (Some 1) end. cbv iota beta.
  match goal with |- context [set_option no_eval (Some 0) fuel ?x 1 _ _ _] =>
    change x with (with_heap [mkOpt (B "a") OpString None None None (Some (DRename (B "b"))) false SDefaultOptions (VStr []);
      mkOpt (B "b") OpString None None None (Some (DRename (B "a"))) false SDefault (VStr [])] w_cycle) end.
  rewrite G; [reflexivity| |lia]. cbn. repeat split; lia.
Qed.
Print Assumptions C91_cycles_do_not_end.

(** C92.  Missing: default_options of a subproject, and renamed options. *)
Theorem C92_subprojects_are_isolated_partial eval fuel f2 w p pr w1 r1 dl w2 r2 : no_renames w -> p <> 0 -> nth_error (projects w) p = Some pr ->
  setup_overrides eval fuel w p 0 true = Done w1 r1 ->
  default_options eval f2 w1 p None dl = Done w2 r2 ->
  (forall s k v, In s dl -> config_form s None k v -> exists id, index (popts pr) k = Some id) ->
  forall id, (forall k, index (popts pr) k <> Some id) -> nth_error (heap w2) id = nth_error (heap w) id.
Proof.
  intros NR NP P E1 E2 O id NI.
  destruct (setup_ids _ _ _ _ _ _ _ _ _ NR P E1) as [F H]. pose proof F as (FG & FP & _).
  rewrite <- (H id NI); [|intros; contradiction].
  apply (defaults_ids _ _ _ _ _ _ _ _ (frame_no_renames _ _ F NR) E2). intros s k v I C G.
  destruct (O s k v I C) as (i & Hi). unfold get_option in G. rewrite FP, P, Hi in G. injection G as ->. now apply (NI k).
Qed.
Print Assumptions C92_subprojects_are_isolated_partial.

Example ex_isolated : exists w1 w2 o1 o3, setup_overrides no_eval 9 w_ex 1 0 true = Done w1 true /\ default_options no_eval 9 w1 1 None [B "n=2"] = Done w2 true
  /\ nth_error (heap w2) 1 = Some o1 /\ val o1 = VNum 3 /\ nth_error (heap w2) 3 = Some o3 /\ val o3 = VNum 8.
Proof. eexists. eexists. eexists. eexists. repeat (split; [vm_compute; reflexivity|]). vm_compute; reflexivity. Qed.

(** project(default_options: ['g=x']) of a subproject sets the global option g *)
Theorem C92_refuted : exists w2 o, default_options no_eval 9 w_ex 1 None [B "g=x"] = Done w2 true
  /\ index (glob w_ex) (B "g") = Some 0 /\ nth_error (heap w2) 0 = Some o /\ val o = VStr (B "x") /\ val o_glob = VStr [].
Proof. eexists. eexists. split; [vm_compute; reflexivity|]. split; [reflexivity|]. split; [vm_compute; reflexivity|]. now split. Qed.
Print Assumptions C92_refuted.

(** C93.  Missing: renamed options. *)
Theorem C93_override_options_partial eval fuel w p l w' res : no_renames w -> (forall t, eval t <> Some VDisabler) ->
  override_options eval fuel w p l [] = (Done w' true, res) ->
  (forall id o, nth_error (heap w) id = Some o -> nth_error (heap w') id = Some o) /\
  forall s k v id o, In s l -> config_form s None k v -> get_option w (Some p) k = Some id -> nth_error (heap w) id = Some o ->
    exists id' o', In (name o, id') res /\ nth_error (heap w) id' = None /\ nth_error (heap w') id' = Some o' /\
      (lt_source SOverrideOptions (src o) -> val o' = val o) /\
      (~ lt_source SOverrideOptions (src o) -> clean o (VStr v) -> string_means eval o v (val o')).
Proof.
  intros NR EV E. split; [apply (override_keeps _ _ _ _ _ _ _ _ _ NR E)|]. intros s k v id o I C G N.
  destruct (override_values _ _ _ _ _ _ _ _ NR E s k v id o I C G N) as (id' & o' & A & B & D & S' & X).
  exists id', o'. split; [assumption|]. split; [now apply nth_error_None|]. split; [assumption|]. rewrite lt_source_rank. split.
  - intros L. apply Nat.ltb_lt in L. rewrite L in X. assumption.
  - intros L CL. apply Nat.nlt_ge, Nat.ltb_ge in L. rewrite L in X. apply denote_means in X; [|assumption|discriminate|assumption].
    destruct X as (t & [= <-] & X). assumption.
Qed.
Print Assumptions C93_override_options_partial.

Example ex_override_options : exists w' o', override_options no_eval 9 w_ex 0 [B "n=5"; B "l=x"] [] = (Done w' true, [(B "n", 4); (B "l", 5)])
  /\ nth_error (heap w') 5 = Some o' /\ val o' = VArr [VStr (B "b")].
Proof. eexists. eexists. split; [vm_compute; reflexivity|]. split; vm_compute; reflexivity. Qed.

(** override_options: ['old=9'] of a target sets the project's option n *)
Theorem C93_refuted : exists w' res o', override_options no_eval 9 w_old 0 [B "old=9"] [] = (Done w' true, res)
  /\ nth_error (heap w') 1 = Some o' /\ val o' = VNum 9 /\ val o_int = VNum 3.
Proof. eexists. eexists. eexists. split; [vm_compute; reflexivity|]. split; [vm_compute; reflexivity|]. now split. Qed.
Print Assumptions C93_refuted.

(** C94 *)
Theorem C94_yielding_options eval fuel w p pr w' : (forall id o, nth_error (heap w) id = Some o -> conforms o) ->
  nth_error (projects w) p = Some pr -> NoDup (map snd (popts pr)) ->
  (forall n pid, get_option w (Some 0) n = Some pid -> ~ In pid (map snd (popts pr))) ->
  set_yielding eval fuel w p (popts pr) = Done w' true ->
  (forall id, ~ In id (map snd (popts pr)) -> nth_error (heap w') id = nth_error (heap w) id) /\
  forall id o, In id (map snd (popts pr)) -> nth_error (heap w) id = Some o ->
    exists o', nth_error (heap w') id = Some o' /\
      (forall po, yields w o po -> ~ lt_source SYield (src o) -> val o' = val po) /\
      ((forall po, ~ yields w o po) -> o' = o) /\ (lt_source SYield (src o) -> o' = o).
Proof.
  intros AC P ND D E. assert (all_conform w) as AC'.
  { apply Forall_forall. intros o I. apply In_nth_error in I as (i & I). now apply (AC i). }
  destruct (yield_spec _ _ _ _ _ _ AC' ND D E) as [H1 H2]. split; [assumption|]. intros id o I N.
  destruct (H2 id o I N) as (o' & A & _ & B1 & B2 & B3). exists o'. split; [assumption|]. rewrite lt_source_rank.
  split; [intros po Y L; rewrite lt_source_rank in L; apply B1; [assumption|lia]|]. tauto.
Qed.
Print Assumptions C94_yielding_options.

Example ex_yield : exists w' o', set_yielding no_eval 5 w_ex 1 [(B "n", 3)] = Done w' true /\ nth_error (heap w') 3 = Some o' /\ val o' = VNum 3 /\ yields w_ex o_sub o_int.
Proof.
  eexists. eexists. split; [vm_compute; reflexivity|]. split; [vm_compute; reflexivity|]. split; [reflexivity|].
  split; [reflexivity|]. exists 1. split; [reflexivity|]. now split.
Qed.

(** C95.  Missing: arrays in the syntax of the language whose value is not an array (refuted below),
    and renamed options. *)
Theorem C95_accepted_exactly_partial eval p fuel w id s sc o : (forall t v, eval t = Some v -> exists l, v = VArr l) ->
  nth_error (heap w) id = Some o -> conforms o -> (forall n, depr o <> Some (DRename n)) -> ~ lt_source sc (src o) ->
  clean o (VStr s) -> one_replacement o ->
  exists w' r, set_option eval p (S fuel) w id (VStr s) sc true = Done w' r /\
    (r = true <-> exists v, string_means eval o s v /\ conforms (with_val v o)) /\
    exists o', nth_error (heap w') id = Some o' /\ (if r then string_means eval o s (val o') else val o' = val o).
Proof.
  intros EV N CF NR L C U. destruct (set_total eval p fuel w id s sc o EV N NR CF) as (w' & r & E). exists w', r. split; [assumption|].
  destruct (set_norename _ _ _ _ _ _ _ _ _ _ _ E N NR) as (o' & N' & S' & _ & X).
  rewrite lt_source_rank in L. apply Nat.nlt_ge, Nat.ltb_ge in L. rewrite L in X. destruct X as [_ X].
  assert (EV' : forall t, eval t <> Some VDisabler) by (intros t H; apply EV in H as (l & [=])).
  assert (M : forall v, denote eval o (VStr s) true = Some v -> string_means eval o s v).
  { intros v D. apply denote_means in D; [|assumption|discriminate|assumption]. destruct D as (t & [= <-] & D). assumption. }
  split; [|exists o'; split; [assumption|]; destruct r; [now apply M|assumption]].
  split.
  - intros ->. exists (val o'). split; [now apply M|]. unfold denote in X. destruct (read eval o s) as [x|] eqn:R; [|discriminate].
    destruct (check o x) as [y| |] eqn:K; try discriminate. injection X as <-.
    eapply check_conforms; [|exact K|apply same_refl]. eapply read_disabler; [exact EV'|exact R].
  - intros (v & Mv & F). destruct r; [reflexivity|]. exfalso.
    pose proof (denote_complete eval o s v C (fun d => U d s) Mv F) as DC.
    (* a rejected string has no meaning *)
    revert E. cbn [set_option]. rewrite N, L.
    unfold denote in DC. destruct (read eval o s) as [x|] eqn:R; [|discriminate]. destruct (check o x) as [x'| |] eqn:K; try discriminate.
    assert (Z : forall set w0, exists w2, coerce_option_override eval p set w0 (with_src sc o) (VStr s) = KOk w2 x).
    { intros set w0. unfold coerce_option_override. change (depr (with_src sc o)) with (depr o).
      change (type (with_src sc o)) with (type o). unfold read in R. destruct (early_array eval (type o) s) as [res|]; [|discriminate].
      destruct (depr o) as [[b|m|d]|].
      - destruct res as [[t| | | | | |]|]; try rewrite R; try (injection R as <-); eauto.
      - exfalso. now apply (NR m).
      - destruct (deprecated_values (type o) d s res) as [[[t| | | | | |]|]|]; try discriminate; try rewrite R; try (injection R as <-); eauto.
      - rewrite R. eauto. }
    match goal with |- context [coerce_option_override eval p ?set ?w0 _ _] => destruct (Z set w0) as (w2 & ->) end. rewrite K. discriminate.
Qed.
Print Assumptions C95_accepted_exactly_partial.

Example ex_accepted : string_means no_eval o_arr (B "a,x") (VArr [VStr (B "a"); VStr (B "b")]) /\ conforms (with_val (VArr [VStr (B "a"); VStr (B "b")]) o_arr)
  /\ exists w', set_option no_eval (Some 0) 1 w_ex 2 (VStr (B "a,x")) SCommandline true = Done w' true.
Proof.
  split; [|split].
  - exists (VArr [VStr (B "a"); VStr (B "x")]). split.
    + right. right. split; [discriminate|]. split; [intros r; discriminate|]. exists [B "a"; B "x"]. split; [reflexivity|]. split; [reflexivity|].
      repeat constructor; intros [H|[]]; discriminate.
    + exists [VStr (B "a"); VStr (B "x")], [VStr (B "a"); VStr (B "b")]. split; [reflexivity|]. split; [|reflexivity].
      eexists. split; [|reflexivity]. right. exists [VStr (B "a")], []. split; [reflexivity|]. split; [|reflexivity]. intros [H|[]]; discriminate.
  - exists [VStr (B "a"); VStr (B "b")]. split; [reflexivity|]. intros c [= <-] v I. exact I.
  - eexists. vm_compute. reflexivity.
Qed.

(** -Dl='[1] == [1]' for an array with deprecated values is an internal error *)
Theorem C95_refuted : exists eval o w, conforms o /\ nth_error (heap w) 0 = Some o /\
  forall fuel, set_option eval (Some 0) (S fuel) w 0 (VStr (B "[1] == [1]")) SCommandline true = Abort.
Proof.
  set (o := mkOpt (B "l") OpArray None None None (Some (DValues [(B "a", Some (B "b"))])) false SDefault (VArr [])).
  exists (fun _ => Some (VBool true)), o, (mkWs [o] [] [mkProject None None [(B "l", 0)]] []).
  split; [exists []; split; [reflexivity|discriminate]|]. split; [reflexivity|]. intros fuel. vm_compute. reflexivity.
Qed.
Print Assumptions C95_refuted.
